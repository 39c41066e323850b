(** What a user of lib/bytereader expects: a place in the file that moves over what is read. *)
From Coq Require Import ZArith.
From Verif Require Import LibBase.

Inductive request := Look | One | Two | Four | AtEnd.
(** [n] bytes from place [p] on, as a number with its high byte first. *)
Fixpoint number_at (f : bytes) (p n : nat) : Z :=
  match n with O => 0%Z | S m => (Z.of_N (nth p f 0%N) * 256 ^ Z.of_nat m + number_at f (S p) m)%Z end.
(** [serves f p seen q z p' seen']: at place [p] of [f] the answer to [q] is [z], and [p'] is the place
    behind it; [seen] says whether the end was met. *)
Inductive serves (f : bytes) : nat -> bool -> request -> Z -> nat -> bool -> Prop :=
| s_look : forall p seen, p < List.length f -> serves f p seen Look (number_at f p 1) p seen
| s_look_end : forall p seen, p = List.length f -> serves f p seen Look (-1)%Z p true
| s_one : forall p seen, p < List.length f -> serves f p seen One (number_at f p 1) (p + 1) seen
| s_one_end : forall p seen, p = List.length f -> serves f p seen One (-1)%Z p true
| s_two : forall p seen, p + 2 <= List.length f -> serves f p seen Two (number_at f p 2) (p + 2) seen
| s_four : forall p seen, p + 4 <= List.length f -> (number_at f p 4 < 2 ^ 31)%Z -> serves f p seen Four (number_at f p 4) (p + 4) seen
| s_end : forall p seen, serves f p seen AtEnd (if seen then 1 else 0)%Z p seen.
(** A run of requests from the beginning of the file. *)
Inductive serves_all (f : bytes) : nat -> bool -> list request -> list Z -> Prop :=
| sa_nil : forall p seen, serves_all f p seen [] []
| sa_cons : forall p seen q z p' seen' qs zs, serves f p seen q z p' seen' -> serves_all f p' seen' qs zs -> serves_all f p seen (q :: qs) (z :: zs).
