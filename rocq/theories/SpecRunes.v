(** What a user of the rune strings of lib/utf expects. *)
From Coq Require Import List NArith.
Import ListNotations.

(** A string of runes has no zero in it. *)
Definition rune_string (s : list N) : Prop := ~ In 0%N s.
(** The cells hold the string: it stands at their beginning, with a zero behind it. *)
Definition cells_hold (cells s : list N) : Prop := rune_string s /\ exists rest, cells = s ++ 0%N :: rest.
(** [cells] with [s] written to them from place [p] on. *)
Definition written (cells : list N) (p : nat) (s : list N) : list N := firstn p cells ++ s ++ skipn (p + length s) cells.
