(** SHA-1 as FIPS 180-4 defines it. *)
From Coq Require Import NArith.
From Verif Require Import LibBase SpecIO.
Local Open Scope N_scope.

(** Section 2.2.2: words of 32 bits. *)
Definition W32 : N := 2 ^ 32.
Definition plus (x y : N) : N := (x + y) mod W32.
Definition rotl (n x : N) : N := (x * 2 ^ n) mod W32 + x / 2 ^ (32 - n).
Definition xor := N.lxor.
Definition conj := N.land.
Definition compl (x : N) : N := W32 - 1 - x.

(** Section 4.1.1. *)
Definition Ch (x y z : N) := xor (conj x y) (conj (compl x) z).
Definition Parity (x y z : N) := xor (xor x y) z.
Definition Maj (x y z : N) := xor (xor (conj x y) (conj x z)) (conj y z).
Inductive logical : nat -> (N -> N -> N -> N) -> N -> Prop :=
| f_0_19 : forall t, (t <= 19)%nat -> logical t Ch 0x5a827999
| f_20_39 : forall t, (20 <= t <= 39)%nat -> logical t Parity 0x6ed9eba1
| f_40_59 : forall t, (40 <= t <= 59)%nat -> logical t Maj 0x8f1bbcdc
| f_60_79 : forall t, (60 <= t <= 79)%nat -> logical t Parity 0xca62c1d6.

(** Section 5.1.1: the message, a bit 1, the least number of bits 0, the length
    in bits as a 64-bit number; all in whole bytes. *)
Definition padded (m p : bytes) : Prop :=
  exists k len, p = m ++ [128] ++ repeat 0 k ++ len /\
    (k < 64)%nat /\ Nat.modulo (List.length p) 64 = 0%nat /\
    List.length len = 8%nat /\ Forall is_byte len /\ value_be len = 8 * N.of_nat (List.length m).

(** Section 6.1.2: the message schedule of a block, given as 64 bytes. *)
Definition schedule (block : bytes) (W : nat -> N) : Prop :=
  (forall t, (t <= 15)%nat -> W t = value_be (firstn 4 (skipn (4 * t) block))) /\
  (forall t, (16 <= t <= 79)%nat -> W t = rotl 1 (xor (xor (xor (W (t - 3)%nat) (W (t - 8)%nat)) (W (t - 14)%nat)) (W (t - 16)%nat))).

Definition words5 : Type := N * N * N * N * N.

(** Rounds [t], [t+1], ..., 79. *)
Inductive rounds (W : nat -> N) : nat -> words5 -> words5 -> Prop :=
| rounds_end : forall v, rounds W 80 v v
| rounds_step : forall t f K a b c d e v, logical t f K ->
    rounds W (S t) (plus (plus (plus (plus (rotl 5 a) (f b c d)) e) K) (W t), a, rotl 30 b, c, d) v ->
    rounds W t (a, b, c, d, e) v.

Inductive compresses : words5 -> bytes -> words5 -> Prop :=
| compress : forall block W h0 h1 h2 h3 h4 a b c d e, schedule block W ->
    rounds W 0 (h0, h1, h2, h3, h4) (a, b, c, d, e) ->
    compresses (h0, h1, h2, h3, h4) block (plus a h0, plus b h1, plus c h2, plus d h3, plus e h4).

(** Block after block of 512 bits. *)
Inductive hashes : words5 -> bytes -> words5 -> Prop :=
| hashes_end : forall h, hashes h [] h
| hashes_block : forall h block h' r h'', List.length block = 64%nat -> compresses h block h' -> hashes h' r h'' ->
    hashes h (block ++ r) h''.

(** Section 5.3.1. *)
Definition H0 : words5 := (0x67452301, 0xefcdab89, 0x98badcfe, 0x10325476, 0xc3d2e1f0).

(** The digest: 20 bytes, the five words with the most significant byte first. *)
Definition digest_bytes (h : words5) (d : bytes) : Prop :=
  let '(h0, h1, h2, h3, h4) := h in
  List.length d = 20%nat /\ Forall is_byte d /\
  List.map value_be [firstn 4 d; firstn 4 (skipn 4 d); firstn 4 (skipn 8 d); firstn 4 (skipn 12 d); firstn 4 (skipn 16 d)]
  = [h0; h1; h2; h3; h4].

Definition is_sha1 (m d : bytes) : Prop :=
  exists p h, padded m p /\ hashes H0 p h /\ digest_bytes h d.
