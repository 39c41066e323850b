(** What a user of lib/compress/huffman.c expects, and Huffman's theorem. *)
From Coq Require Import Permutation Sorting.Sorted.
From Verif Require Import LibBase.

(** A sort by falling counts, as [qsort] is asked for: equal counts may come in any
    order. *)
Definition sorts_down {A} (count : A -> nat) (sort : list A -> list A) : Prop :=
  forall l, Permutation l (sort l) /\ StronglySorted (fun x y => count y <= count x) (sort l).

(** A binary code in which no character's code is the beginning of another's. *)
Definition prefix_free (code : N -> list bool) (s : bytes) : Prop :=
  forall a b more, In a s -> In b s -> code b = code a ++ more -> a = b.
(** A text in a code. *)
Definition encoded (code : N -> list bool) (s : bytes) : list bool := List.concat (List.map code s).

(** A C string. *)
Definition text (s : bytes) : Prop := Forall (fun c => 0 < c < 256)%N s.

(** * Canonical codes (ITU T.81, C.2)
    [counts] gives the number of codes of each length from 1 on.  The codes of one
    length are consecutive numbers; the first one of a length is the number behind
    the last one, shifted by one bit. *)
Fixpoint canonical_codes (counts : list nat) (len code : nat) : list (nat * nat) :=
  match counts with
  | [] => []
  | k :: r => List.map (fun i => (len, code + i)) (List.seq 0 k) ++ canonical_codes r (S len) (2 * (code + k))
  end.
(** The number in [len] bits, most significant first. *)
Fixpoint number_bits (len n : nat) : list bool :=
  match len with
  | O => []
  | S l => Nat.leb (2 ^ l) n :: number_bits l (if Nat.leb (2 ^ l) n then n - 2 ^ l else n)
  end.
