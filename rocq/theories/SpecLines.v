(** What users expect of lib/linereader, lib/strbuilder and lib/clip/stringtable. *)
From Verif Require Import LibBase.

(** * Lines *)

(** A text and its lines, each with its line feed; the last one may have none. *)
Inductive text_lines : bytes -> list bytes -> Prop :=
| no_lines : text_lines [] []
| last_line : forall l, l <> [] -> ~ In 10%N l -> text_lines l [l]
| a_line : forall l s ls, ~ In 10%N l -> text_lines s ls -> text_lines (l ++ [10%N] ++ s) ((l ++ [10%N]) :: ls).

(** The answers to [n] calls: the lines one after the other, then nothing. *)
Fixpoint in_turn (n : nat) (ls : list bytes) : list (option bytes) :=
  match n with
  | O => []
  | S n => match ls with [] => None :: in_turn n [] | l :: ls => Some l :: in_turn n ls end
  end.

(** * Building a text *)

(** A byte, a string, a formatted text that came out as given; starting anew. *)
Inductive piece := Byte (c : byte) | Text (t : bytes) | Formatted (t : bytes) | Anew.
Fixpoint built (ps : list piece) (t : bytes) : bytes :=
  match ps with
  | [] => t
  | Byte c :: r => built r (t ++ [c])
  | Text x :: r => built r (t ++ x)
  | Formatted x :: r => built r (t ++ x)
  | Anew :: r => built r []
  end.
(** How many bytes are added in all. *)
Definition amount (ps : list piece) : N :=
  fold_right (fun p n => match p with Byte _ => 1 | Text x | Formatted x => N.of_nat (List.length x) | Anew => 0 end + n)%N 0%N ps.
(** Cells that hold a text as a C string. *)
Definition c_string (cells text : bytes) : Prop := exists rest, cells = text ++ [0%N] ++ rest.

(** * Tables *)

(** The value that was set last under a key; the newest entry comes last. *)
Definition last_set (sets : list (bytes * bytes)) (k : bytes) : option bytes :=
  fold_left (fun found e => if list_eq_dec N.eq_dec (fst e) k then Some (snd e) else found) sets None.
