(** Model of lib/tokenizer.c. *)
From Coq Require Export ZArith.
From Verif Require Import LibBase LibIO LibText.

Notation "'let*' p ':=' e 'in' f" := (rbind e (fun p => f))
  (at level 200, p pattern, right associativity).

(** [isspace], [isalpha] of C in the "C" locale; the argument is a byte or -1. *)
Definition z_isspace (c : Z) : bool := ((c =? 32) || (9 <=? c) && (c <=? 13))%Z.
Definition z_isalpha (c : Z) : bool := ((65 <=? c) && (c <=? 90) || (97 <=? c) && (c <=? 122))%Z.
(** A value of type int that is kept in a char. *)
Definition z_byte (c : Z) : byte := Z.to_N (c mod 256).

(** lib/tokenizer.c:3-15 [t]: the cache with its size, the reader, the position. *)
Record tok (R : Type) := mkTok { tk_cache : bytes; tk_src : R; tk_row : nat; tk_col : nat }.
Arguments mkTok {R}. Arguments tk_cache {R}. Arguments tk_src {R}. Arguments tk_row {R}. Arguments tk_col {R}.

(** lib/tokenizer.c:33-38 [new]. *)
Definition tok_new {R} (r : R) : tok R := mkTok [] r 0 0.

Section Tokenizer.
  Context {R : Type} (read : read_fn R).

  (** lib/tokenizer.c:110-115 [_prefetch], for [n] at most the size of the cache. *)
  Definition tok_prefetch (t : tok R) (n : nat) : tok R :=
    if Nat.leb n (List.length (tk_cache t)) then t
    else
      let '(r, d, src) := read (tk_src t) (n - List.length (tk_cache t)) in
      mkTok (if (r >? 0)%Z then tk_cache t ++ d else tk_cache t) src (tk_row t) (tk_col t).

  (** lib/tokenizer.c:50-54 [peek]; EOF is -1. *)
  Definition tok_peek (t : tok R) : Z * tok R :=
    let t := tok_prefetch t 1 in
    match tk_cache t with [] => ((-1)%Z, t) | c :: _ => (Z.of_N c, t) end.

  (** lib/tokenizer.c:57-59 [more]. *)
  Definition tok_more (t : tok R) : bool * tok R :=
    match tk_cache t with
    | _ :: _ => (true, t)
    | [] => let '(c, t) := tok_peek t in (negb (c =? -1)%Z, t)
    end.

  (** lib/tokenizer.c:101-108 [_track_pos]. *)
  Definition tok_track (t : tok R) (c : byte) : tok R :=
    if (c =? 10)%N then mkTok (tk_cache t) (tk_src t) (S (tk_row t)) 0
    else mkTok (tk_cache t) (tk_src t) (tk_row t) (S (tk_col t)).

  (** lib/tokenizer.c:83-99 [get]. *)
  Definition tok_get (t : tok R) : Z * tok R :=
    match tk_cache t with
    | c :: r => (Z.of_N c, tok_track (mkTok r (tk_src t) (tk_row t) (tk_col t)) c)
    | [] =>
        let '(r, d, src) := read (tk_src t) 1 in
        let t := mkTok [] src (tk_row t) (tk_col t) in
        match d with
        | c :: _ => if (r =? 1)%Z then (Z.of_N c, tok_track t c) else ((-1)%Z, t)
        | [] => ((-1)%Z, t)
        end
    end.

  (** lib/tokenizer.c:126-132 [buf_skip]; the argument is an ASCII character. *)
  Definition tok_skip (t : tok R) (c : byte) : bool * tok R :=
    let '(p, t) := tok_peek t in
    if (p =? Z.of_N c)%Z then let '(_, t) := tok_get t in (true, t) else (false, t).

  (** The loops below run at most [fuel] times. *)

  (** lib/tokenizer.c:146-153 [spaces], without its answer. *)
  Fixpoint tok_spaces (fuel : nat) (t : tok R) : bres (tok R) :=
    match fuel with
    | O => RFuel
    | S f =>
        let '(c, t) := tok_peek t in
        if z_isspace c then let '(_, t) := tok_get t in tok_spaces f t else ROk t
    end.

  (** lib/tokenizer.c:156-160 [hspaces]. *)
  Fixpoint tok_hspaces (fuel : nat) (t : tok R) : bres (tok R) :=
    match fuel with
    | O => RFuel
    | S f =>
        let '(c, t) := tok_peek t in
        let '(c', t) := if (c =? 32)%Z then (c, t) else tok_peek t in
        if ((c =? 32) || (c' =? 9))%Z then let '(_, t) := tok_get t in tok_hspaces f t else ROk t
    end.

  (** lib/tokenizer.c:172-181, the loop of [id]; [buf] is what the buffer of size
      [n] holds. *)
  Fixpoint tok_id_loop (fuel : nat) (t : tok R) (buf : bytes) (n : nat) : bres (bytes * tok R) :=
    match fuel with
    | O => RFuel
    | S f =>
        let '(m, t) := tok_more t in
        if negb m then ROk (buf, t)
        else
          let '(c, t) := tok_peek t in
          if negb (z_isalpha c) && negb (z_isdigit c) && negb (c =? 95)%Z then ROk (buf, t)
          else
            let '(_, t) := tok_get t in
            tok_id_loop f t (if Nat.ltb (List.length buf) (n - 1) then buf ++ [z_byte c] else buf) n
    end.
  (** lib/tokenizer.c:167-184 [id] with a buffer of [n] bytes, [n] not zero;
      [None] is false. *)
  Definition tok_id (fuel : nat) (t : tok R) (n : nat) : bres (option bytes * tok R) :=
    let '(c, t) := tok_peek t in
    let '(c', t) := if z_isalpha c then (c, t) else tok_peek t in
    if negb (z_isalpha c) && negb (c' =? 95)%Z then ROk (None, t)
    else let* (b, t) := tok_id_loop fuel t [] n in ROk (Some b, t).

  (** [*p++ = c], with [buf] before the position, in a buffer of [n] bytes. *)
  Definition put (n : nat) (buf : bytes) (c : byte) : bres bytes :=
    if Nat.ltb (List.length buf) n then ROk (buf ++ [c]) else RUndefined.
  Definition put_get (n : nat) (buf : bytes) (t : tok R) : bres (bytes * tok R) :=
    let '(c, t) := tok_get t in let* b := put n buf (z_byte c) in ROk (b, t).

  (** lib/tokenizer.c:200-202, 210-212, 230-232: [while (isdigit(peek(b))) *p++ = get(b)]. *)
  Fixpoint tok_digits (fuel : nat) (n : nat) (buf : bytes) (t : tok R) : bres (bytes * tok R) :=
    match fuel with
    | O => RFuel
    | S f =>
        let '(c, t) := tok_peek t in
        if z_isdigit c then let* (buf, t) := put_get n buf t in tok_digits f n buf t
        else ROk (buf, t)
    end.

  (** lib/tokenizer.c:188-236 [num] with a buffer of [n] bytes: [None] is false. *)
  Definition tok_num (fuel : nat) (t : tok R) (n : nat) : bres (option bytes * tok R) :=
    let '(c, t) := tok_peek t in
    let* (buf, t) := if (c =? 45)%Z then put_get n [] t else ROk ([], t) in
    let '(c, t) := tok_peek t in
    if negb (z_isdigit c) then ROk (None, t)
    else
      let* (buf, t) := tok_digits fuel n buf t in
      let '(c, t) := tok_peek t in
      let* (o, t) :=
        (if (c =? 46)%Z then
           let* (buf, t) := put_get n buf t in
           let '(c, t) := tok_peek t in
           if negb (z_isdigit c) then ROk (None, t)
           else let* (buf, t) := tok_digits fuel n buf t in ROk (Some buf, t)
         else ROk (Some buf, t)) in
      match o with
      | None => ROk (None, t)
      | Some buf =>
          let '(c, t) := tok_peek t in
          let* (o, t) :=
            (if ((c =? 101) || (c =? 69))%Z then
               let* (buf, t) := put_get n buf t in
               let '(c, t) := tok_peek t in
               let* (buf, t) := if ((c =? 45) || (c =? 43))%Z then put_get n buf t else ROk (buf, t) in
               let '(c, t) := tok_peek t in
               if negb (z_isdigit c) then ROk (None, t)
               else let* (buf, t) := tok_digits fuel n buf t in ROk (Some buf, t)
             else ROk (Some buf, t)) in
          match o with
          | None => ROk (None, t)
          | Some buf => let* _ := put n buf 0%N in ROk (Some buf, t)
          end
      end.

  (** lib/tokenizer.c:258-267: compares the cache with the literal. *)
  Fixpoint tok_same (p1 p2 : bytes) : bool :=
    match p1, p2 with
    | _, [] => true
    | a :: p1', b :: p2' => if (a =? 0)%N || negb (a =? b)%N then false else tok_same p1' p2'
    | [], _ => false
    end.
  (** lib/tokenizer.c:252-268 [literal_follows]; a literal longer than the cache
      overruns it. *)
  Definition tok_literal_follows (t : tok R) (lit : bytes) : bres (bool * tok R) :=
    if Nat.ltb 100 (List.length lit) then RUndefined
    else
      let t := tok_prefetch t (List.length lit) in
      if Nat.ltb (List.length (tk_cache t)) (List.length lit) then ROk (false, t)
      else ROk (tok_same (tk_cache t) lit, t).

  Fixpoint tok_drop (n : nat) (t : tok R) : tok R :=
    match n with O => t | S m => tok_drop m (snd (tok_get t)) end.
  (** lib/tokenizer.c:240-249 [skip_literal]. *)
  Definition tok_skip_literal (t : tok R) (lit : bytes) : bres (bool * tok R) :=
    let* (ok, t) := tok_literal_follows t lit in
    if ok then ROk (true, tok_drop (List.length lit) t) else ROk (false, t).

  (** lib/tokenizer.c:294-304 [read_until] with a buffer of [len] bytes, not
      zero; the answer and the text in the buffer. *)
  Fixpoint tok_read_until (fuel : nat) (t : tok R) (until : byte) (buf : bytes) (len : nat) : bres (bool * bytes * tok R) :=
    match fuel with
    | O => RFuel
    | S f =>
        let '(m, t) := tok_more t in
        if negb m then ROk (true, buf, t)
        else
          let '(c, t) := tok_peek t in
          if (c =? Z.of_N until)%Z then ROk (true, buf, t)
          else if Nat.eqb (List.length buf) (len - 1) then ROk (false, buf, t)
          else let '(c, t) := tok_get t in tok_read_until f t until (buf ++ [z_byte c]) len
    end.

  (** lib/tokenizer.c:277-289 [buf_skip_until] with its buffer of 10000 bytes,
      [size] of which are left. *)
  Fixpoint tok_skip_until (fuel : nat) (t : tok R) (lit : bytes) (buf : bytes) (size : nat) : bres (bytes * tok R) :=
    match fuel with
    | O => RFuel
    | S f =>
        let '(m, t) := tok_more t in
        if negb m then ROk (buf, t)
        else
          let* (ok, t) := tok_literal_follows t lit in
          if ok then ROk (buf, t)
          else match size with
               | O => RUndefined
               | S size' => let '(c, t) := tok_get t in tok_skip_until f t lit (buf ++ [z_byte c]) size'
               end
    end.
End Tokenizer.
