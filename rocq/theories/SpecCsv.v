(** CSV (RFC 4180), and what a user of a CSV reader expects. *)
From Verif Require Import LibBase.

(** A value and its text between quotes: quotes are doubled. *)
Inductive doubled : bytes -> bytes -> Prop :=
| doubled_nil : doubled [] []
| doubled_quote : forall v t, doubled v t -> doubled (34%N :: v) (34 :: 34 :: t)%N
| doubled_char : forall c v t, c <> 34%N -> doubled v t -> doubled (c :: v) (c :: t).

(** A value and the text of its field.  Without quotes a field has no quote, comma or
    line break in it. *)
Inductive field : bytes -> bytes -> Prop :=
| field_quoted : forall v t, doubled v t -> field v ([34%N] ++ t ++ [34%N])
| field_plain : forall v, Forall (fun c => c <> 34%N /\ c <> 44%N /\ c <> 13%N /\ c <> 10%N) v -> field v v.

(** Fields separated by commas.  RFC 4180 lets the text of the last one be empty, too
    ([empty] is true). *)
Inductive record (empty : bool) : list bytes -> bytes -> Prop :=
| record_one : forall v t, field v t -> empty = true \/ t <> [] -> record empty [v] t
| record_more : forall v t vs u, field v t -> record empty vs u -> record empty (v :: vs) (t ++ [44%N] ++ u).

Inductive line_break : bytes -> Prop :=
| lf : line_break [10%N]
| crlf : line_break [13; 10]%N.

(** Lines.  A line break at the very end is followed by an empty line. *)
Inductive lines (empty : bool) : list (list bytes) -> bytes -> Prop :=
| lines_end : lines empty [[]] []
| lines_last : forall vs t, record empty vs t -> lines empty [vs] t
| lines_more : forall vs t e rest u, record empty vs t -> line_break e -> lines empty rest u ->
    lines empty (vs :: rest) (t ++ e ++ u).

(** What a reader of lines answers: the next value of the current line, if there is one;
    going to the next line, if there is one. *)
Inductive request := Column | Line.
Inductive answer := Value (v : option bytes) | Moved (b : bool).
Fixpoint table (asked : list request) (rows : list (list bytes)) : list answer :=
  match asked with
  | [] => []
  | Column :: r =>
      match rows with
      | (v :: vs) :: rest => Value (Some v) :: table r (vs :: rest)
      | _ => Value None :: table r rows
      end
  | Line :: r =>
      match rows with
      | _ :: (next :: rest) => Moved true :: table r (next :: rest)
      | _ => Moved false :: table r [[]]
      end
  end.

(** Values that fit: bytes, no zero among them, less than 4096 of them. *)
Definition fits (v : bytes) : Prop := Forall (fun c => 0 < c < 256)%N v /\ (N.of_nat (List.length v) < 4096)%N.
