(** Model of lib/crypt/sha1.c. *)
From Verif Require Import LibBase LibIO.

(** lib/crypt/sha1.c:195-197 [ROTL], in uint32_t. *)
Definition ROTL (bits value : N) : N := N.lor (u32 (N.shiftl value bits)) (N.shiftr value (32 - bits)).

(** [~x] of a uint32_t. *)
Definition not32 (x : N) : N := N.lxor x 4294967295.

(** lib/crypt/sha1.c:175-180 [f]. *)
Definition sha1_f (t : nat) (x y z : N) : N :=
  if Nat.ltb t 20 then N.lor (N.land x y) (N.land (not32 x) z)
  else if Nat.ltb t 40 then N.lxor (N.lxor x y) z
  else if Nat.ltb t 60 then N.lxor (N.lxor (N.land x y) (N.land x z)) (N.land y z)
  else N.lxor (N.lxor x y) z.

(** lib/crypt/sha1.c:185-190 [K]. *)
Definition sha1_K (t : nat) : N :=
  if Nat.ltb t 20 then 0x5a827999
  else if Nat.ltb t 40 then 0x6ed9eba1
  else if Nat.ltb t 60 then 0x8f1bbcdc
  else 0xca62c1d6.

Definition at_ (W : list N) (t : nat) : N := nth t W 0%N.

(** lib/crypt/sha1.c:142-144: [W] grows from its first 16 words. *)
Definition sha1_extend (W : list N) (t : nat) : list N :=
  W ++ [ROTL 1 (N.lxor (N.lxor (N.lxor (at_ W (t - 3)) (at_ W (t - 8))) (at_ W (t - 14))) (at_ W (t - 16)))].
Definition sha1_W (block : list N) : list N := fold_left sha1_extend (List.seq 16 64) (firstn 16 block).

(** The five words of a sum. *)
Record sum5 := mkSum { s0 : N; s1 : N; s2 : N; s3 : N; s4 : N }.

(** lib/crypt/sha1.c:154-161: one round. *)
Definition sha1_round (W : list N) (s : sum5) (t : nat) : sum5 :=
  let '(mkSum a b c d e) := s in
  let T := u32 (ROTL 5 a + sha1_f t b c d + e + sha1_K t + at_ W t) in
  mkSum T a (ROTL 30 b) c d.

(** lib/crypt/sha1.c:138-170 [sha1_feed]. *)
Definition sha1_feed (block : list N) (s : sum5) : sum5 :=
  let W := sha1_W block in
  let '(mkSum a b c d e) := fold_left (sha1_round W) (List.seq 0 80) s in
  mkSum (u32 (s0 s + a)) (u32 (s1 s + b)) (u32 (s2 s + c)) (u32 (s3 s + d)) (u32 (s4 s + e)).

(** lib/crypt/sha1.c:7-20 [digest_t]; [pos] is not modelled, [length] counts in
    bits modulo 2^64. *)
Record digest := mkDigest {
  dg_init : bool; dg_finished : bool; dg_sum : sum5;
  dg_block : list N; dg_words : nat; dg_bytes : nat; dg_word : N; dg_length : N }.

(** lib/crypt/sha1.c:22-24 [reset]. *)
Definition sha1_reset : digest := mkDigest false false (mkSum 0 0 0 0 0) (repeat 0%N 16) 0 0 0 0.

(** lib/crypt/sha1.c:114-133 [push_byte]. *)
Definition push_byte (h : digest) (b : byte) : digest :=
  let word := u32 (dg_word h * 256 + u8 b) in
  let bytes := S (dg_bytes h) in
  if Nat.eqb bytes 4 then
    let block := upd (dg_words h) word (dg_block h) in
    let words := S (dg_words h) in
    if Nat.eqb words 16 then
      mkDigest (dg_init h) (dg_finished h) (sha1_feed block (dg_sum h)) block 0 0 word (dg_length h)
    else mkDigest (dg_init h) (dg_finished h) (dg_sum h) block words 0 word (dg_length h)
  else mkDigest (dg_init h) (dg_finished h) (dg_sum h) (dg_block h) (dg_words h) bytes word (dg_length h).

(** lib/crypt/sha1.c:59-77 [add]. *)
Definition sha1_add (h : digest) (b : byte) : bool * digest :=
  if dg_finished h then (false, h)
  else
    let sum := if dg_init h then dg_sum h
               else mkSum 0x67452301 0xefcdab89 0x98badcfe 0x10325476 0xc3d2e1f0 in
    let h := mkDigest true (dg_finished h) sum (dg_block h) (dg_words h) (dg_bytes h) (dg_word h)
               ((dg_length h + 8) mod 18446744073709551616)%N in
    (true, push_byte h b).

(** lib/crypt/sha1.c:79-112 [end].  The length in bytes is put into an int; the
    model is for lengths where neither that nor 9 + l overflows. *)
Definition sha1_end (h : digest) : bool * digest :=
  if dg_finished h then (false, h)
  else
    let h := mkDigest (dg_init h) true (dg_sum h) (dg_block h) (dg_words h) (dg_bytes h) (dg_word h) (dg_length h) in
    let h := push_byte h 128%N in
    let l := (dg_length h / 8)%N in
    let n := ((9 + l) / 64)%N in
    let n := if ((9 + l) mod 64 =? 0)%N then n else (n + 1)%N in
    let zeros := N.to_nat (64 * n - 9 - l) in
    let h := fold_left push_byte (repeat 0%N zeros) h in
    let len := dg_length h in
    (true, fold_left (fun h i => push_byte h (N.land (N.shiftr len (64 - 8 - 8 * N.of_nat i)) 255)) (List.seq 0 8) h).

(** lib/crypt/sha1.c:48-57 [as_bytes]. *)
Definition word_bytes (v : N) : bytes :=
  [N.land (N.shiftr v 24) 255; N.land (N.shiftr v 16) 255; N.land (N.shiftr v 8) 255; N.land (N.shiftr v 0) 255]%N.
Definition as_bytes (h : digest) : bytes :=
  let '(mkSum a b c d e) := dg_sum h in
  word_bytes a ++ word_bytes b ++ word_bytes c ++ word_bytes d ++ word_bytes e.

(** lib/crypt/sha1.c:31-42 [format]. *)
Definition sha1_format (h : digest) (bufsize : nat) : option bytes :=
  if Nat.ltb bufsize 40 then None else Some (List.concat (List.map hex_writebyte (as_bytes h))).
