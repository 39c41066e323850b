(** Common notions for the models of the library modules in /repo/lib.  These
    modules are written in che; they are modelled as the C programs they
    translate to.  A byte is a number; a C string is the list of its bytes
    without the final zero; an array is the list of its cells.  Sizes and
    positions (size_t) are natural numbers: overflow of sizes is not modelled.
    Allocation always succeeds, as with calloc!.  [None] stands for a program
    that panics or touches memory outside an object. *)
From Verif Require Export Base.

Notation byte := N (only parsing).
Definition is_byte (b : byte) : Prop := (b < 256)%N.
Notation bytes := (list N) (only parsing).

Fixpoint bytes_eqb (a b : bytes) : bool :=
  match a, b with
  | [], [] => true
  | x :: a', y :: b' => N.eqb x y && bytes_eqb a' b'
  | _, _ => false
  end.

(** [a[i] = x]; nothing happens outside the array. *)
Fixpoint upd {A} (i : nat) (x : A) (l : list A) : list A :=
  match l, i with
  | [], _ => []
  | _ :: r, O => x :: r
  | y :: r, S j => y :: upd j x r
  end.

Definition obind {A B} (o : option A) (f : A -> option B) : option B :=
  match o with Some a => f a | None => None end.
