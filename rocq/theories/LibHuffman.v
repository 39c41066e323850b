(** Model of lib/compress/huffman.c (without printtree and printcodes). *)
From Coq Require Export ZArith.
From Verif Require Import LibBase LibIO LibText.

(** lib/compress/huffman.c:4-9 [node_t]; [HNull] is the null pointer. *)
Inductive hnode := HNull | HNode (ischar : bool) (val : N) (count : nat) (left right : hnode).

Definition hn_count (n : hnode) : nat := match n with HNull => 0 | HNode _ _ c _ _ => c end.

(** lib/compress/huffman.c:24-29 [newnode]: only the position in the pool matters;
    the node is zeroed memory. *)
Definition hf_newnode (pool : nat) : bres nat := if Nat.eqb pool (N.to_nat 512) then RPanic else ROk (S pool).
Definition hf_blank : hnode := HNode false 0%N 0 HNull HNull.

(** * Trees from a text *)

(** lib/compress/huffman.c:95-100: [counts[x]++] for all characters. *)
Definition hf_counts (s : bytes) : list nat :=
  fold_left (fun counts x => upd (N.to_nat x) (S (nth (N.to_nat x) counts 0)) counts) s (repeat 0 (N.to_nat 256)).

(** lib/compress/huffman.c:103-111: a node for each character that occurs. *)
Fixpoint hf_leaves (counts : list nat) (i : N) (pool : nat) : bres (list hnode * nat) :=
  match counts with
  | [] => ROk ([], pool)
  | c :: r =>
      if Nat.eqb c 0 then hf_leaves r (i + 1)%N pool
      else
        rbind (hf_newnode pool) (fun pool =>
        rbind (hf_leaves r (i + 1)%N pool) (fun '(l, pool) =>
        ROk (HNode false i c HNull HNull :: l, pool)))
  end.

(** lib/compress/huffman.c:114-129: the loop of [buildtree].  [sort] stands for
    [qsort] with [cmp] (lines 132-140); the last two of the sorted list are merged
    into its last place. *)
Fixpoint hf_merge (sort : list hnode -> list hnode) (fuel : nat) (l : list hnode) (pool : nat) : bres (list hnode) :=
  match fuel with
  | O => RFuel
  | S f =>
      if Nat.ltb 1 (List.length l) then
        match rev (sort l) with
        | a :: b :: r =>
            rbind (hf_newnode pool) (fun pool =>
            hf_merge sort f (rev r ++ [HNode false 0%N (hn_count a + hn_count b) a b]) pool)
        | _ => RUndefined
        end
      else ROk l
  end.

(** lib/compress/huffman.c:93-130 [buildtree]: the root. *)
Definition hf_buildtree (sort : list hnode -> list hnode) (s : bytes) : bres hnode :=
  rbind (hf_leaves (hf_counts s) 0%N 0) (fun '(l, pool) =>
  rbind (hf_merge sort (S (List.length l)) l pool) (fun l =>
  ROk (nth 0 l HNull))).

(** * Canonical trees *)

(** lib/compress/huffman.c:58-88 [createnode]: the new tree when a node was made.
    The value, which [treefrom] stores in the new node, is passed along.  Nodes
    are added only on the way to a new value node, so a call that makes none leaves
    the tree as it was.  [depth] is at least 1. *)
Fixpoint hf_createnode (val : N) (depth : nat) (pool : nat) (n : hnode) : bres (option hnode * nat) :=
  match n, depth with
  | HNull, _ => RPanic
  | HNode ch v c l r, S (S d as depth') =>
      rbind (match l with HNull => rbind (hf_newnode pool) (fun pool => ROk (hf_blank, pool)) | _ => ROk (l, pool) end) (fun '(l, pool) =>
      rbind (match l with
             | HNode false _ _ _ _ => hf_createnode val depth' pool l
             | _ => ROk (None, pool)
             end) (fun '(x, pool) =>
      match x with
      | Some l => ROk (Some (HNode ch v c l r), pool)
      | None =>
          rbind (match r with HNull => rbind (hf_newnode pool) (fun pool => ROk (hf_blank, pool)) | _ => ROk (r, pool) end) (fun '(r, pool) =>
          rbind (match r with
                 | HNode false _ _ _ _ => hf_createnode val depth' pool r
                 | _ => ROk (None, pool)
                 end) (fun '(x, pool) =>
          match x with
          | Some r => ROk (Some (HNode ch v c l r), pool)
          | None => ROk (None, pool)
          end))
      end))
  | HNode ch v c l r, 1 =>
      match l, r with
      | HNull, _ => rbind (hf_newnode pool) (fun pool => ROk (Some (HNode ch v c (HNode true val 0 HNull HNull) r), pool))
      | _, HNull => rbind (hf_newnode pool) (fun pool => ROk (Some (HNode ch v c l (HNode true val 0 HNull HNull)), pool))
      | _, _ => ROk (None, pool)
      end
  | HNode _ _ _ _ _, O => RUndefined
  end.

(** lib/compress/huffman.c:45-53: [count] values at depth [len]. *)
Fixpoint hf_values (count len : nat) (vals : bytes) (t : hnode) (pool : nat) : bres (bytes * hnode * nat) :=
  match count with
  | O => ROk (vals, t, pool)
  | S count =>
      match vals with
      | [] => RUndefined
      | ch :: vals =>
          rbind (hf_createnode ch len pool t) (fun '(x, pool) =>
          match x with
          | None => RPanic
          | Some t => hf_values count len vals t pool
          end)
      end
  end.

(** lib/compress/huffman.c:42-54: the outer loop, for at most 255 counts. *)
Fixpoint hf_lengths (lencounts : bytes) (len : nat) (vals : bytes) (t : hnode) (pool : nat) : bres hnode :=
  match lencounts with
  | [] => ROk t
  | count :: r =>
      rbind (hf_values (N.to_nat count) len vals t pool) (fun '(vals, t, pool) => hf_lengths r (S len) vals t pool)
  end.

(** lib/compress/huffman.c:37-55 [treefrom]: the root. *)
Definition hf_treefrom (lencounts vals : bytes) : bres hnode :=
  rbind (hf_newnode 0) (fun pool => hf_lengths lencounts 1 vals hf_blank pool).

(** * Reading *)

(** lib/compress/huffman.c:142-146 [reader_t].  [hr_moved] tells whether [curr] is
    another node than [root]; nodes of a tree are reached in one way only. *)
Record hreader (R : Type) := mkHr { hr_br : bitreader R; hr_root : hnode; hr_curr : hnode; hr_moved : bool }.
Arguments mkHr {R}. Arguments hr_br {R}. Arguments hr_root {R}. Arguments hr_curr {R}. Arguments hr_moved {R}.

(** lib/compress/huffman.c:149-155 [newreader]. *)
Definition hf_newreader {R} (root : hnode) (br : bitreader R) : hreader R := mkHr br root root false.

(** lib/compress/huffman.c:163-183 [read]: each turn of the loop goes to a child. *)
Fixpoint hf_down {R} (get : read_fn R) (root curr : hnode) (moved : bool) (br : bitreader R) : bres (Z * hreader R) :=
  let '(bit, br) := bits_read1 get br in
  if (bit =? -1)%Z then
    if moved then RPanic else ROk ((-1)%Z, mkHr br root curr moved)
  else
    match curr with
    | HNull => RUndefined
    | HNode _ _ _ l r =>
        let next := if (bit =? 1)%Z then r else l in
        match next with
        | HNull => RUndefined
        | HNode _ v _ HNull _ => ROk (Z.of_N v, mkHr br root root false)
        | HNode _ _ _ _ _ => hf_down get root next true br
        end
    end.
Definition hf_read {R} (get : read_fn R) (h : hreader R) : bres (Z * hreader R) :=
  hf_down get (hr_root h) (hr_curr h) (hr_moved h) (hr_br h).

(** * Writing *)

(** lib/compress/huffman.c:205-221 [inittable]: the table holds the bits of each
    value; [code] has room for 16 bits. *)
Fixpoint hf_inittable (n : hnode) (pref : list bool) (table : list (list bool)) : bres (list (list bool)) :=
  match n with
  | HNull => RUndefined
  | HNode _ v _ HNull _ => if (v <? 256)%N then ROk (upd (N.to_nat v) pref table) else RUndefined
  | HNode _ _ _ l r =>
      if Nat.ltb (List.length pref) 16 then
        rbind (hf_inittable l (pref ++ [false]) table) (fun table => hf_inittable r (pref ++ [true]) table)
      else RUndefined
  end.

(** lib/compress/huffman.c:190-194 [writer_t]. *)
Record hwriter (W : Type) := mkHw { hw_table : list (list bool); hw_w : bitwriter W }.
Arguments mkHw {W}. Arguments hw_table {W}. Arguments hw_w {W}.

(** lib/compress/huffman.c:197-203 [newwriter]. *)
Definition hf_newwriter {W} (root : hnode) (out : W) : bres (hwriter W) :=
  rbind (hf_inittable root [] (repeat [] (N.to_nat 256))) (fun table => ROk (mkHw table (bits_newwriter out false))).

(** lib/compress/huffman.c:230-238 [write]. *)
Definition hf_write {W} (put : write_fn W) (w : hwriter W) (b : byte) : bool * hwriter W :=
  let '(ok, bw) := bits_write put (hw_w w) (nth (N.to_nat b) (hw_table w) []) in (ok, mkHw (hw_table w) bw).

(** lib/compress/huffman.c:223-228 [closewriter]. *)
Definition hf_closewriter {W} (put : write_fn W) (w : hwriter W) : bres W :=
  let '(ok, out) := bits_closewriter put (hw_w w) in if ok then ROk out else RPanic.
