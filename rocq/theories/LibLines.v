(** Models of lib/linereader.c, lib/strbuilder.c and lib/clip/stringtable.c. *)
From Coq Require Export ZArith.
From Verif Require Import LibBase LibIO LibText.

(** * linereader *)

(** lib/linereader.c:1-6 [t]: what is left of the file, what the buffer holds before the
    terminator, the size of the buffer, [ended]. *)
Record lr := mkLr { lr_file : bytes; lr_buf : bytes; lr_size : N; lr_ended : bool }.

(** lib/linereader.c:9-15 [new]. *)
Definition lr_new (file : bytes) : lr := mkLr file [] 4096 false.

(** [buf[len] = c] in a buffer of [size] bytes, [len] being the length of [buf]. *)
Definition lr_put (size : N) (buf : bytes) (c : byte) : bres bytes :=
  if (N.of_nat (List.length buf) <? size)%N then ROk (buf ++ [c]) else RUndefined.

(** lib/linereader.c:24-39: the loop of [read].  [char] is signed, so that the byte 255 is
    taken for EOF.  The answer of [fgetc] after the end of the file is EOF again;
    [realloc] succeeds. *)
Fixpoint lr_loop (file buf : bytes) (size : N) : bres (bytes * bytes * N * bool) :=
  match file with
  | [] => ROk ([], buf, size, true)
  | c :: rest =>
      if (c =? 255)%N then ROk (rest, buf, size, true)
      else
        let size := if (size <? N.of_nat (List.length buf) + 2)%N then (size * 2)%N else size in
        rbind (lr_put size buf c) (fun buf =>
          if (c =? 10)%N then ROk (rest, buf, size, false) else lr_loop rest buf size)
  end.

(** lib/linereader.c:19-42 [read]. *)
Definition lr_read (b : lr) : bres (bool * lr) :=
  if lr_ended b then ROk (false, b)
  else
    rbind (lr_loop (lr_file b) [] (lr_size b)) (fun '(file, buf, size, ended) =>
    rbind (lr_put size buf 0%N) (fun _ =>
    ROk (Nat.ltb 0 (List.length buf), mkLr file buf size ended))).

(** lib/linereader.c:45-47 [line]: what is before the terminator. *)
Definition lr_line (b : lr) : bytes := lr_buf b.

(** * strbuilder *)

(** lib/strbuilder.c:2-7 [str]: the [max] cells at [data] (the null pointer when there are
    none), [len], [err]. *)
Record sb := mkSb { sb_data : bytes; sb_len : nat; sb_err : bool }.

(** lib/strbuilder.c:10-13 [new]. *)
Definition sb_new : sb := mkSb [] 0 false.

(** lib/strbuilder.c:24-30 [clear]. *)
Definition sb_clear (s : sb) : sb :=
  if Nat.eqb (sb_len s) 0 then s
  else mkSb (repeat 0%N (sb_len s) ++ skipn (sb_len s) (sb_data s)) 0 (sb_err s).

Definition size_max : N := 18446744073709551615.

Section Builder.
  (** Does [realloc] to so many bytes succeed? *)
  Context (alloc : N -> bool).

  (** lib/strbuilder.c:88-111 [grow]; [None] is false. *)
  Definition sb_grow (s : sb) : option sb :=
    let max := N.of_nat (List.length (sb_data s)) in
    if (size_max / 2 <? max)%N then None
    else
      let new := if (max =? 0)%N then 16%N else (max * 2)%N in
      if alloc new
      then Some (mkSb (firstn (sb_len s) (sb_data s) ++ repeat 0%N (N.to_nat new - sb_len s)) (sb_len s) (sb_err s))
      else None.

  (** lib/strbuilder.c:33-43 [addc]; [ch] is kept in a char. *)
  Definition sb_addc (s : sb) (ch : Z) : bres (bool * sb) :=
    if sb_err s then ROk (false, s)
    else
      let put s :=
        if Nat.ltb (sb_len s) (List.length (sb_data s))
        then ROk (true, mkSb (firstn (sb_len s) (sb_data s) ++ [Z.to_N (ch mod 256)] ++ skipn (S (sb_len s)) (sb_data s))
                             (S (sb_len s)) (sb_err s))
        else RUndefined in
      if Nat.leb (List.length (sb_data s)) (sb_len s + 1)
      then match sb_grow s with
           | None => ROk (false, mkSb (sb_data s) (sb_len s) true)
           | Some s => put s
           end
      else put s.

  (** lib/strbuilder.c:46-56 [adds]; [t] is the string before its terminator. *)
  Fixpoint sb_chars (b : sb) (t : bytes) : bres (bool * sb) :=
    match t with
    | [] => ROk (true, b)
    | c :: r => rbind (sb_addc b (Z.of_N c)) (fun '(ok, b) => if ok : bool then sb_chars b r else ROk (false, b))
    end.
  Definition sb_adds (b : sb) (t : bytes) : bres (bool * sb) :=
    if sb_err b then ROk (false, b) else sb_chars b t.

  (** lib/strbuilder.c:58-66 [addf], given the formatted text: [vsnprintf] puts at most 999
      bytes of it and a terminator into [buf]. *)
  Definition sb_addf (b : sb) (t : bytes) : bres (bool * sb) :=
    if sb_err b then ROk (false, b) else sb_adds b (firstn (N.to_nat 999) t).
End Builder.

(** lib/strbuilder.c:68-71 [str_raw], 82-86 [str_unpack]: the cells; [None] is the null
    pointer. *)
Definition sb_raw (s : sb) : option bytes := match sb_data s with [] => None | d => Some d end.
(** lib/strbuilder.c:73-76 [str_len]. *)
Definition sb_size (s : sb) : nat := sb_len s.

(** * stringtable *)

(** lib/clip/stringtable.c:3-12 [entry_t], [t]: the [len] first items and [cap]. *)
Record stab := mkStab { st_items : list (bytes * bytes); st_cap : nat }.

(** lib/clip/stringtable.c:14-20 [new]. *)
Definition stab_new : stab := mkStab [] 8.

(** lib/clip/stringtable.c:33-39: overwriting; [None] when the key is not there. *)
Fixpoint stab_replace (items : list (bytes * bytes)) (k v : bytes) : option (list (bytes * bytes)) :=
  match items with
  | [] => None
  | (k', v') :: r =>
      if bytes_eqb k' k then Some ((k', v) :: r)
      else match stab_replace r k v with Some r' => Some ((k', v') :: r') | None => None end
  end.

(** lib/clip/stringtable.c:31-51 [set]; [realloc] succeeds. *)
Definition stab_set (st : stab) (k v : bytes) : bres stab :=
  match stab_replace (st_items st) k v with
  | Some items => ROk (mkStab items (st_cap st))
  | None =>
      let cap := if Nat.eqb (List.length (st_items st)) (st_cap st) then st_cap st + 10 else st_cap st in
      if Nat.ltb (List.length (st_items st)) cap then ROk (mkStab (st_items st ++ [(k, v)]) cap) else RUndefined
  end.

(** lib/clip/stringtable.c:53-60 [get]; [None] is the null pointer. *)
Definition stab_get (st : stab) (k : bytes) : option bytes :=
  match find (fun e => bytes_eqb (fst e) k) (st_items st) with Some e => Some (snd e) | None => None end.
