(** What users of lib/rnd and lib/stats expect. *)
From Coq Require Import ZArith Permutation.
From Verif Require Import LibBase.

(** The sum of the first [i] frequencies, and of all. *)
Fixpoint total (l : list N) : N := match l with [] => 0%N | f :: r => (f + total r)%N end.
Definition below (l : list N) (i : nat) : N := total (firstn i l).

(** How many values of a series satisfy a test. *)
Definition how_many (p : Z -> bool) (l : list Z) : nat := List.length (filter p l).
(** What was done with a series. *)
Inductive op := Add (v : Z) | Percentile (p : Z).
Definition added (h : list op) : list Z := flat_map (fun o => match o with Add v => [v] | Percentile _ => [] end) h.
