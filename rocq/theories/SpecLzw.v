(** What a user of the compressors in lib/compress expects: what was compressed
    comes back. *)
From Coq Require Import ZArith.
From Verif Require Import LibBase.

(** A writer that takes all it is given: [out] is what has arrived. *)
Definition takes_all {W} (put : W -> bytes -> Z * W) (out : W -> bytes) : Prop :=
  forall w d, let '(r, w') := put w d in r = Z.of_nat (List.length d) /\ out w' = out w ++ d.

Definition power_of_two (m : nat) : Prop := exists k, m = 2 ^ k.
