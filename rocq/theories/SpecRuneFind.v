(** What it means to find something in a string. *)
From Coq Require Import List NArith.
Import ListNotations.

(** [w] stands in [s] at place [k]. *)
Definition occurs_at (w s : list N) (k : nat) : Prop := exists a b, s = a ++ w ++ b /\ length a = k.
(** The answer to where [w] stands first in [s]. *)
Definition first_place (w s : list N) (o : option nat) : Prop :=
  match o with
  | Some k => occurs_at w s k /\ forall j, j < k -> ~ occurs_at w s j
  | None => forall k, ~ occurs_at w s k
  end.
(** The answer to where [w] stands last in [s]. *)
Definition last_place (w s : list N) (o : option nat) : Prop :=
  match o with
  | Some k => occurs_at w s k /\ forall j, k < j -> ~ occurs_at w s j
  | None => forall k, ~ occurs_at w s k
  end.
