(** Model of lib/compress/lzw.c. *)
From Coq Require Export ZArith.
From Verif Require Import LibBase LibIO LibText.

(** lib/compress/lzw.c:11. *)
Definition MAX_DICT_LENGTH : nat := N.to_nat 4096.

(** lib/compress/lzw.c:13-16 [word_t]: the length, a byte, and the characters. *)
Record lz_word := mkWord { lw_len : nat; lw_chars : bytes }.
(** lib/compress/lzw.c:18-24 [dict_t]; the entries up to [size]. *)
Record lz_dict := mkDict { ld_init : nat; ld_entries : list lz_word; ld_reset : nat; ld_end : nat }.
Definition ld_size (d : lz_dict) : nat := List.length (ld_entries d).

(** lib/compress/lzw.c:28-45 [newdict], for [n] at most 4094.  The entries of the
    two special codes are zeros. *)
Definition lz_newdict (n : nat) : lz_dict :=
  mkDict (n + 2) (List.map (fun i => mkWord 1 [u8 (N.of_nat i)]) (List.seq 0 n) ++ [mkWord 0 []; mkWord 0 []]) n (n + 1).

(** lib/compress/lzw.c:54-59 [resetdict]. *)
Definition lz_resetdict (d : lz_dict) : lz_dict :=
  mkDict (ld_init d) (firstn (ld_init d) (ld_entries d)) (ld_reset d) (ld_end d).

(** lib/compress/lzw.c:62-70 [addentry]; [e->len] is one byte. *)
Definition lz_addentry (d : lz_dict) (word : bytes) : bres lz_dict :=
  if Nat.eqb (ld_size d) MAX_DICT_LENGTH then RPanic
  else ROk (mkDict (ld_init d) (ld_entries d ++ [mkWord (List.length word mod 256) word]) (ld_reset d) (ld_end d)).

(** lib/compress/lzw.c:77-80, the loop of [codewidth]. *)
Fixpoint lz_width (fuel largest width maxcode : nat) : nat :=
  match fuel with
  | O => width
  | S f => if Nat.ltb maxcode largest then lz_width f largest (S width) (maxcode * 2) else width
  end.
(** lib/compress/lzw.c:73-82 [codewidth]. *)
Definition lz_codewidth (dictsize : nat) : nat := lz_width dictsize (dictsize - 1) 1 1.

(** * Compressor *)

(** lib/compress/lzw.c:150-160, the loop of [match]. *)
Fixpoint lz_match_loop (es : list lz_word) (input : bytes) (i mi mlen : nat) (ok : bool) : option nat :=
  match es with
  | [] => if ok then Some mi else None
  | e :: r =>
      if Nat.leb (lw_len e) mlen || Nat.ltb (List.length input) (lw_len e) then lz_match_loop r input (S i) mi mlen ok
      else if bytes_eqb (firstn (lw_len e) (lw_chars e)) (firstn (lw_len e) input)
      then lz_match_loop r input (S i) i (lw_len e) true
      else lz_match_loop r input (S i) mi mlen ok
  end.
(** lib/compress/lzw.c:146-165 [match]; [None] is the panic. *)
Definition lz_match (d : lz_dict) (input : bytes) : option nat := lz_match_loop (ld_entries d) input 0 0 0 false.

(** lib/compress/lzw.c:270-274, the loop of [writebits]. *)
Fixpoint lz_writebits {W} (put : write_fn W) (w : bitwriter W) (code n : nat) : bitwriter W :=
  match n with
  | O => w
  | S m => lz_writebits put (snd (bits_write1 put w (Nat.odd code))) (Nat.div2 code) m
  end.
(** lib/compress/lzw.c:167-170 [comp_emit]. *)
Definition lz_emit {W} (put : write_fn W) (d : lz_dict) (w : bitwriter W) (code : nat) : bitwriter W :=
  lz_writebits put w code (lz_codewidth (ld_size d)).

(** lib/compress/lzw.c:183-207 [peek]: the buffer holds [buf].  A reader gives
    EOF or a number that is not negative. *)
Definition lz_peek {R} (read : read_fn R) (buf : bytes) (r : R) (n : nat) : bytes * R :=
  if Nat.ltb (List.length buf) n then
    let '(q, d, r) := read r (n - List.length buf) in
    ((if (q >? 0)%Z then buf ++ d else buf), r)
  else (buf, r).

(** lib/compress/lzw.c:211-217 [shift]. *)
Definition lz_shift (buf : bytes) (n : nat) : bres bytes :=
  if Nat.eqb n 0 || Nat.ltb (List.length buf) n then RPanic else ROk (skipn n buf).

(** lib/compress/lzw.c:108-135, the loop of [compress]. *)
Fixpoint lz_loop {R W} (read : read_fn R) (put : write_fn W) (fuel : nat) (d : lz_dict) (w : bitwriter W) (buf : bytes) (r : R) : bres (lz_dict * bitwriter W) :=
  match fuel with
  | O => RFuel
  | S f =>
      let '(buf, r) := lz_peek read buf r (N.to_nat 4096) in
      let q := List.length buf in
      if Nat.eqb q 0 then ROk (d, w)
      else
        match lz_match d buf with
        | None => RPanic
        | Some mi =>
            let mlen := lw_len (nth mi (ld_entries d) (mkWord 0 [])) in
            let w := lz_emit put d w mi in
            if Nat.eqb mlen q then ROk (d, w)
            else
              let '(d, w) := if Nat.eqb (ld_size d) MAX_DICT_LENGTH then (lz_resetdict d, lz_emit put d w (ld_reset d)) else (d, w) in
              rbind (if Nat.ltb (ld_size d) MAX_DICT_LENGTH then lz_addentry d (firstn (mlen + 1) buf) else ROk d) (fun d =>
              rbind (lz_shift buf mlen) (fun buf => lz_loop read put f d w buf r))
        end
  end.
(** lib/compress/lzw.c:102-143 [compress]; the answer of [closewriter], which the
    program drops, and the writer. *)
Definition lz_compress {R W} (read : read_fn R) (put : write_fn W) (fuel : nat) (r : R) (alphabet_size : nat) (out : W) : bres (bool * W) :=
  rbind (lz_loop read put fuel (lz_newdict alphabet_size) (bits_newwriter out true) [] r) (fun '(d, w) =>
  ROk (bits_closewriter put (lz_emit put d w (ld_end d)))).

(** * Decompressor *)

(** lib/compress/lzw.c:224-231 [dec_t]; [curr] is not kept between calls. *)
Record lz_dec (R : Type) := mkDec { dc_dict : lz_dict; dc_br : bitreader R; dc_prev : bytes }.
Arguments mkDec {R}. Arguments dc_dict {R}. Arguments dc_br {R}. Arguments dc_prev {R}.

(** lib/compress/lzw.c:233-238 [newdecoder]. *)
Definition lz_newdecoder {R} (r : R) (alphabet_size : nat) : lz_dec R := mkDec (lz_newdict alphabet_size) (bits_newreader r true) [].

(** lib/compress/lzw.c:289-294, the loop of [readbits], for [n] at most 16. *)
Fixpoint lz_readbits {R} (get : read_fn R) (br : bitreader R) (n val amp : nat) : bres (nat * bitreader R) :=
  match n with
  | O => ROk (val, br)
  | S m =>
      let '(c, br) := bits_read1 get br in
      if (c <? 0)%Z then RPanic else lz_readbits get br m (val + amp * Z.to_nat c) (amp * 2)
  end.

(** lib/compress/lzw.c:307-318: the next code, [i] turns left. *)
Fixpoint lz_nextcode {R} (get : read_fn R) (i : nat) (d : lz_dict) (br : bitreader R) (code : nat) : bres (nat * lz_dict * bitreader R) :=
  match i with
  | O => ROk (code, d, br)
  | S i =>
      rbind (lz_readbits get br (lz_codewidth (ld_size d + 1)) 0 1) (fun '(code, br) =>
      if Nat.eqb code (ld_reset d) then lz_nextcode get i (lz_resetdict d) br code else ROk (code, d, br))
  end.

(** lib/compress/lzw.c:305-363 [decode]: the characters, none at the end.  The first
    character of an empty word (the two special codes) is 0 here; in the program it
    is whatever the buffer held before. *)
Definition lz_decode {R} (get : read_fn R) (s : lz_dec R) : bres (bytes * lz_dec R) :=
  rbind (lz_nextcode get 2 (dc_dict s) (dc_br s) 0) (fun '(code, d, br) =>
  if Nat.ltb (ld_size d) code then RPanic
  else if Nat.eqb code (ld_end d) then ROk ([], mkDec d br (dc_prev s))
  else
    rbind (if Nat.eqb code (ld_size d) then
             match dc_prev s with
             | [] => RPanic
             | c :: _ => if Nat.ltb (List.length (dc_prev s)) (N.to_nat 4096) then ROk (dc_prev s ++ [c]) else RUndefined
             end
           else
             let e := nth code (ld_entries d) (mkWord 0 []) in ROk (firstn (lw_len e) (lw_chars e))) (fun curr =>
    rbind (match dc_prev s with
           | [] => ROk d
           | _ =>
               let d := if Nat.eqb (ld_size d) MAX_DICT_LENGTH then lz_resetdict d else d in
               if Nat.ltb (List.length (dc_prev s)) (N.to_nat 4096) then lz_addentry d (dc_prev s ++ [nth 0 curr 0%N]) else RUndefined
           end) (fun d => ROk (curr, mkDec d br curr)))).

(** lib/compress/lzw.c:247-259 [decodeinto]: how it ended, and the writer. *)
Fixpoint lz_decodeinto {R W} (get : read_fn R) (put : write_fn W) (fuel : nat) (s : lz_dec R) (out : W) : bres unit * W :=
  match fuel with
  | O => (RFuel, out)
  | S f =>
      match lz_decode get s with
      | ROk ([], _) => (ROk tt, out)
      | ROk (buf, s) =>
          let '(r, out) := put out buf in
          if (r =? Z.of_nat (List.length buf))%Z then lz_decodeinto get put f s out else (RPanic, out)
      | RPanic => (RPanic, out)
      | RUndefined => (RUndefined, out)
      | RFuel => (RFuel, out)
      end
  end.
