(** What UTF-8 is (RFC 3629, section 3), apart from the program.

    Unlike RFC 3629, Plan 9 takes the numbers 0xD800-0xDFFF for characters too;
    [surrogate] names them. *)
From Coq Require Export NArith List.
From Verif Require Import LibBase.
Import ListNotations.
Local Open Scope N_scope.

(** The bytes of a character: the shortest form that holds its number. *)
Inductive utf8 : N -> bytes -> Prop :=
| utf8_1 : forall x, x < 128 -> utf8 x [x]
| utf8_2 : forall a b, a < 32 -> b < 64 -> 128 <= a * 64 + b ->
    utf8 (a * 64 + b) [192 + a; 128 + b]
| utf8_3 : forall a b c, a < 16 -> b < 64 -> c < 64 -> 2048 <= (a * 64 + b) * 64 + c ->
    utf8 ((a * 64 + b) * 64 + c) [224 + a; 128 + b; 128 + c]
| utf8_4 : forall a b c d, a < 8 -> b < 64 -> c < 64 -> d < 64 ->
    65536 <= ((a * 64 + b) * 64 + c) * 64 + d -> ((a * 64 + b) * 64 + c) * 64 + d <= 1114111 ->
    utf8 (((a * 64 + b) * 64 + c) * 64 + d) [240 + a; 128 + b; 128 + c; 128 + d].

Definition surrogate (r : N) : Prop := 55296 <= r <= 57343.

(** What a C string can hold. *)
Definition plain_text (s : bytes) : Prop := Forall (fun b => 0 < b < 256) s.

(** What the text [s] starts with: a character of [n] bytes, or a byte that starts no
    character, for which U+FFFD stands. *)
Definition starts_char (s : bytes) (r : N) (n : nat) : Prop :=
  exists e t, s = e ++ t /\ utf8 r e /\ List.length e = n.
Definition reads (s : bytes) (r : N) (n : nat) : Prop :=
  starts_char s r n \/ (forall r' n', ~ starts_char s r' n') /\ r = 65533 /\ n = 1%nat.

(** A text taken apart. *)
Inductive runes : bytes -> list (N * nat) -> Prop :=
| runes_end : runes [] []
| runes_next : forall s r n l, s <> [] -> reads s r n -> runes (skipn n s) l -> runes s ((r, n) :: l).

Definition size_of (l : list (N * nat)) : nat := list_sum (map snd l).

(** The first and the last place of the character [c] among the characters [l]. *)
Definition first_place (l : list (N * nat)) (c : N) (p : nat) : Prop :=
  exists l1 n l2, l = l1 ++ (c, n) :: l2 /\ ~ In c (map fst l1) /\ p = size_of l1.
Definition last_place (l : list (N * nat)) (c : N) (p : nat) : Prop :=
  exists l1 n l2, l = l1 ++ (c, n) :: l2 /\ ~ In c (map fst l2) /\ p = size_of l1.

(** A text that is the encoding of some characters. *)
Inductive encodes : list N -> bytes -> Prop :=
| encodes_end : encodes [] []
| encodes_next : forall r e rs s, 0 < r -> utf8 r e -> encodes rs s -> encodes (r :: rs) (e ++ s).

(** The order of two strings of numbers. *)
Inductive before : list N -> list N -> Prop :=
| before_end : forall x r, before [] (x :: r)
| before_less : forall x y r q, x < y -> before (x :: r) (y :: q)
| before_next : forall x r q, before r q -> before (x :: r) (x :: q).
