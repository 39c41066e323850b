(** Models of lib/reader.c, lib/writer.c, lib/enc/hex.c, lib/enc/urlencode.c,
    lib/enc/endian.c and lib/bits.c. *)
From Coq Require Export ZArith.
From Verif Require Import LibBase.

(** * Writers and readers *)

(** lib/writer.c:3, 15-19: a writer is a state with a write function that gives
    the number of bytes written or a negative number.  The counter [nwritten] is
    not modelled. *)
Definition write_fn (W : Type) := W -> bytes -> Z * W.

(** lib/reader.c:4, 24-28: a reader is a state with a read function that gives a
    number and, when it is positive, as many bytes.  The counter [pos] is not
    modelled. *)
Definition read_fn (R : Type) := R -> nat -> Z * bytes * R.

(** lib/writer.c:72-81 [membuf_t], [static_buffer]: the bytes written so far and
    the size of the buffer. *)
Record membuf := mkMembuf { mb_data : bytes; mb_size : nat }.
Definition static_buffer (size : nat) : membuf := mkMembuf [] size.

(** lib/writer.c:83-97 [mem_write]. *)
Definition mem_write : write_fn membuf := fun w data =>
  if Nat.leb (mb_size w) (List.length (mb_data w)) then ((-1)%Z, w)
  else
    let d := firstn (mb_size w - List.length (mb_data w)) data in
    (Z.of_nat (List.length d), mkMembuf (mb_data w ++ d) (mb_size w)).

(** lib/reader.c:69-88 [mem_read]: the state is the rest of the data.  At the end
    it gives 0. *)
Definition mem_read : read_fn bytes := fun s n =>
  let d := firstn n s in (Z.of_nat (List.length d), d, skipn n s).

(** lib/reader.c:47-54 [file_read] on a regular file: at the end it gives EOF. *)
Definition file_read : read_fn bytes := fun s n =>
  match s with
  | [] => ((-1)%Z, [], [])
  | _ => let d := firstn n s in (Z.of_nat (List.length d), d, skipn n s)
  end.

(** * hex *)

(** lib/enc/hex.c:3 [HEX]. *)
Definition hex_chars : bytes := L "0123456789abcdef".
Definition char_at (s : bytes) (i : N) : byte := nth (N.to_nat i) s 0%N.

(** lib/enc/hex.c:5-9 [writebyte]. *)
Definition hex_writebyte (b : byte) : bytes := [char_at hex_chars (b / 16); char_at hex_chars (b mod 16)].

(** lib/enc/hex.c:13-27 [write]. *)
Fixpoint hex_write {W} (put : write_fn W) (w : W) (data : bytes) (len : Z) : Z * W :=
  match data with
  | [] => (len, w)
  | b :: r =>
      let two := [char_at hex_chars (b / 16); char_at hex_chars (b mod 16)] in
      let '(n, w) := put w two in
      if (n <? 0)%Z then (n, w)
      else if (n =? 0)%Z then (len, w)
      else if (n =? 1)%Z then ((-1)%Z, w)
      else hex_write put w r (if (n =? 2)%Z then len + 1 else len)%Z
  end.

(** * urlencode *)

(** lib/enc/urlencode.c:3 [HEX]. *)
Definition hex_upper : bytes := L "0123456789ABCDEF".
(** [isalpha] and [isdigit] of C in the "C" locale. *)
Definition c_isdigit (c : N) : bool := (48 <=? c)%N && (c <=? 57)%N.
Definition c_isupper (c : N) : bool := (65 <=? c)%N && (c <=? 90)%N.
Definition c_islower (c : N) : bool := (97 <=? c)%N && (c <=? 122)%N.
Definition c_isalpha (c : N) : bool := c_isupper c || c_islower c.

(** lib/enc/urlencode.c:6-27 [write]. *)
Fixpoint url_write {W} (put : write_fn W) (w : W) (data : bytes) (len : Z) : Z * W :=
  match data with
  | [] => (len, w)
  | c :: r =>
      if c_isalpha c || c_isdigit c then
        let '(n, w) := put w [c] in
        if (n =? 1)%Z then url_write put w r (len + 1)%Z else ((-1)%Z, w)
      else
        let '(n, w) := put w [37%N; char_at hex_upper (N.land (N.shiftr c 4) 15); char_at hex_upper (N.land c 15)] in
        if (n =? 3)%Z then url_write put w r (len + 3)%Z else ((-1)%Z, w)
  end.

(** * endian *)

Definition b_at (buf : bytes) (i : nat) : N := nth i buf 0%N.
Definition u32 (x : N) : N := (x mod 4294967296)%N.

(** lib/enc/endian.c:8-15 [read2le]; the value is set on success only. *)
Definition read2le {R} (get : read_fn R) (r : R) : Z * option N * R :=
  let '(n, buf, r) := get r 2 in
  if (n =? 2)%Z then (2%Z, Some ((b_at buf 0 + 256 * b_at buf 1) mod 65536)%N, r) else ((-1)%Z, None, r).

(** lib/enc/endian.c:19-26 [read2be]: success is 2 here. *)
Definition read2be {R} (get : read_fn R) (r : R) : Z * option N * R :=
  let '(n, buf, r) := get r 2 in
  if (n =? 2)%Z then (2%Z, Some ((b_at buf 0 * 256 + b_at buf 1) mod 65536)%N, r) else ((-1)%Z, None, r).

(** lib/enc/endian.c:30-39 [read3le].  After a short read the value depends on
    bytes that were never set: it is not given then. *)
Definition read3le {R} (get : read_fn R) (r : R) : Z * option N * R :=
  let '(n, buf, r) := get r 3 in
  let x := 0%N in
  let x := u32 (x * 256 + b_at buf 2) in
  let x := u32 (x * 256 + b_at buf 1) in
  let x := u32 (x * 256 + b_at buf 0) in
  (n, if (n =? 3)%Z then Some x else None, r).

(** lib/enc/endian.c:43-53 [read4be]. *)
Definition read4be {R} (get : read_fn R) (r : R) : Z * option N * R :=
  let '(n, buf, r) := get r 4 in
  let x := 0%N in
  let x := u32 (x * 256 + b_at buf 0) in
  let x := u32 (x * 256 + b_at buf 1) in
  let x := u32 (x * 256 + b_at buf 2) in
  let x := u32 (x * 256 + b_at buf 3) in
  (n, if (n =? 4)%Z then Some x else None, r).

(** lib/enc/endian.c:57-67 [read4le]. *)
Definition read4le {R} (get : read_fn R) (r : R) : Z * option N * R :=
  let '(n, buf, r) := get r 4 in
  let x := 0%N in
  let x := u32 (x * 256 + b_at buf 3) in
  let x := u32 (x * 256 + b_at buf 2) in
  let x := u32 (x * 256 + b_at buf 1) in
  let x := u32 (x * 256 + b_at buf 0) in
  (n, if (n =? 4)%Z then Some x else None, r).

(** lib/enc/endian.c:77-83 [write2le]. *)
Definition write2le {W} (put : write_fn W) (w : W) (v : N) : Z * W :=
  let b0 := (v mod 256)%N in let v := (v / 256)%N in
  let b1 := (v mod 256)%N in
  put w [b0; b1].

(** lib/enc/endian.c:86-94 [write4be]. *)
Definition write4be {W} (put : write_fn W) (w : W) (v : N) : Z * W :=
  let b3 := (v mod 256)%N in let v := (v / 256)%N in
  let b2 := (v mod 256)%N in let v := (v / 256)%N in
  let b1 := (v mod 256)%N in let v := (v / 256)%N in
  let b0 := (v mod 256)%N in
  put w [b0; b1; b2; b3].

(** lib/enc/endian.c:97-105 [write4le]. *)
Definition write4le {W} (put : write_fn W) (w : W) (v : N) : Z * W :=
  let b0 := (v mod 256)%N in let v := (v / 256)%N in
  let b1 := (v mod 256)%N in let v := (v / 256)%N in
  let b2 := (v mod 256)%N in let v := (v / 256)%N in
  let b3 := (v mod 256)%N in
  put w [b0; b1; b2; b3].

(** * bits *)

(** lib/bits.c:6-15 [bitvals]. *)
Definition bitvals : list N := [128; 64; 32; 16; 8; 4; 2; 1]%N.
Definition bitval (i : nat) : N := nth i bitvals 0%N.

(** lib/bits.c:23-27 [getbits_lsfirst]. *)
Definition getbits_lsfirst (b : byte) : list bool :=
  List.map (fun i => negb (N.land b (bitval (7 - i)) =? 0)%N) (List.seq 0 8).
(** lib/bits.c:30-34 [getbits_msfirst]: the cells may be filled in any order. *)
Definition getbits_msfirst (b : byte) : list bool :=
  List.map (fun i => negb (N.land b (bitval i) =? 0)%N) (List.seq 0 8).

(** lib/bits.c:40-45 [reader_t]. *)
Record bitreader (R : Type) := mkBitr { br_in : R; br_byte : byte; br_rem : nat; br_reverse : bool }.
Arguments mkBitr {R}. Arguments br_in {R}. Arguments br_byte {R}. Arguments br_rem {R}. Arguments br_reverse {R}.

(** lib/bits.c:48-55 [newreader]. *)
Definition bits_newreader {R} (r : R) (reverse : bool) : bitreader R := mkBitr r 0%N 0 reverse.

(** lib/bits.c:64-80 [read1]. *)
Definition bits_read1 {R} (get : read_fn R) (s : bitreader R) : Z * bitreader R :=
  let loaded :=
    if Nat.eqb (br_rem s) 0 then
      let '(n, buf, r) := get (br_in s) 1 in
      if (n <? 0)%Z then inl (mkBitr r (br_byte s) (br_rem s) (br_reverse s))
      else inr (mkBitr r (match buf with b :: _ => b | [] => br_byte s end) 8 (br_reverse s))
    else inr s in
  match loaded with
  | inl s => ((-1)%Z, s)
  | inr s =>
      let rem := br_rem s - 1 in
      let b := if br_reverse s then N.land (br_byte s) (bitval rem) else N.land (br_byte s) (bitval (7 - rem)) in
      ((if (0 <? b)%N then 1 else 0)%Z, mkBitr (br_in s) (br_byte s) rem (br_reverse s))
  end.

(** lib/bits.c:84-95 [readn]; [r] is the value so far. *)
Fixpoint bits_readn {R} (get : read_fn R) (s : bitreader R) (n : nat) (r : Z) : Z * bitreader R :=
  match n with
  | O => (r, s)
  | S n =>
      let '(c, s) := bits_read1 get s in
      if (c <? 0)%Z then ((-1)%Z, s) else bits_readn get s n (r * 2 + c)%Z
  end.

(** lib/bits.c:101-107 [writer_t]. *)
Record bitwriter (W : Type) := mkBitw { bw_err : bool; bw_out : W; bw_buf : byte; bw_pos : nat; bw_reverse : bool }.
Arguments mkBitw {W}. Arguments bw_err {W}. Arguments bw_out {W}. Arguments bw_buf {W}. Arguments bw_pos {W}. Arguments bw_reverse {W}.

(** lib/bits.c:110-117 [newwriter]. *)
Definition bits_newwriter {W} (out : W) (reverse : bool) : bitwriter W := mkBitw false out 0%N 0 reverse.

(** lib/bits.c:169-180 [reversebyte]. *)
Definition u8 (x : N) : N := (x mod 256)%N.
Definition reversebyte (val : byte) : byte :=
  let val := u8 (N.lor (N.shiftr (N.land val 170) 1) (N.shiftl (N.land val 85) 1)) in
  let val := u8 (N.lor (N.shiftr (N.land val 204) 2) (N.shiftl (N.land val 51) 2)) in
  u8 (N.lor (N.shiftr (N.land val 240) 4) (N.shiftl (N.land val 15) 4)).

(** lib/bits.c:119-130 [flush]. *)
Definition bits_flush {W} (put : write_fn W) (w : bitwriter W) : bitwriter W :=
  let val := if bw_reverse w then reversebyte (bw_buf w) else bw_buf w in
  let '(n, out) := put (bw_out w) [val] in
  if (n =? 1)%Z then mkBitw (bw_err w) out 0%N 0 (bw_reverse w)
  else mkBitw true out (bw_buf w) (bw_pos w) (bw_reverse w).

(** lib/bits.c:133-140 [closewriter]. *)
Definition bits_closewriter {W} (put : write_fn W) (w : bitwriter W) : bool * W :=
  let w := if Nat.ltb 0 (bw_pos w) && negb (bw_err w) then bits_flush put w else w in
  (negb (bw_err w), bw_out w).

(** lib/bits.c:144-159 [write1]. *)
Definition bits_write1 {W} (put : write_fn W) (w : bitwriter W) (bit : bool) : bool * bitwriter W :=
  if bw_err w then (false, w)
  else
    let buf := if bit then N.lor (bw_buf w) (bitval (bw_pos w)) else bw_buf w in
    let w := mkBitw (bw_err w) (bw_out w) buf (S (bw_pos w)) (bw_reverse w) in
    if Nat.eqb (bw_pos w) 8 then
      let w := bits_flush put w in (negb (bw_err w), w)
    else (true, w).

(** lib/bits.c:161-166 [write]. *)
Fixpoint bits_write {W} (put : write_fn W) (w : bitwriter W) (bits : list bool) : bool * bitwriter W :=
  match bits with
  | [] => (true, w)
  | b :: r =>
      let '(ok, w) := bits_write1 put w b in
      if ok then bits_write put w r else (false, w)
  end.
