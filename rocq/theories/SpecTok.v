(** What a user of lib/tokenizer expects: it reads its input from left to right. *)
From Coq Require Import ZArith.
From Verif Require Import LibBase.

(** [content] gives what is still to come from a reader: a read gives some of the
    next bytes, or there are none left. *)
Definition reads {R} (read : R -> nat -> Z * bytes * R) (content : R -> bytes) : Prop :=
  forall r n, 0 < n -> let '(k, d, r') := read r n in
    ((0 < k)%Z /\ Z.of_nat (List.length d) = k /\ List.length d <= n /\ content r = d ++ content r') \/
    ((k <= 0)%Z /\ content r = [] /\ content r' = []).

(** Reads give all the bytes asked for, as long as there are some. *)
Definition reads_fully {R} (read : R -> nat -> Z * bytes * R) (content : R -> bytes) : Prop :=
  reads read content /\
  forall r n, 0 < n -> let '(k, d, r') := read r n in content r <> [] -> d = firstn n (content r).

(** The row and the column, from zero, behind a text. *)
Definition position (text : bytes) (row col : nat) : Prop :=
  exists rows last, text = List.concat (List.map (fun l => l ++ [10%N]) rows) ++ last /\
    Forall (fun l => ~ In 10%N l) rows /\ ~ In 10%N last /\ row = List.length rows /\ col = List.length last.

(** C-style numbers. *)
Definition is_digit (c : byte) : Prop := (48 <= c <= 57)%N.
Definition digits (t : bytes) : Prop := t <> [] /\ Forall is_digit t.
Inductive whole : bytes -> Prop :=
| whole_pos : forall d, digits d -> whole d
| whole_neg : forall d, digits d -> whole (45%N :: d).
Inductive fraction : bytes -> Prop :=
| no_fraction : fraction []
| some_fraction : forall d, digits d -> fraction (46%N :: d).
Inductive exponent : bytes -> Prop :=
| no_exponent : exponent []
| exponent_plain : forall e d, e = 101%N \/ e = 69%N -> digits d -> exponent (e :: d)
| exponent_signed : forall e g d, e = 101%N \/ e = 69%N -> g = 45%N \/ g = 43%N -> digits d -> exponent (e :: g :: d).
Inductive number : bytes -> Prop :=
| a_number : forall w f e, whole w -> fraction f -> exponent e -> number (w ++ f ++ e).
(** A text that does not go on with a number. *)
Definition number_ends (r : bytes) : Prop :=
  match r with [] => True | c :: _ => ~ is_digit c /\ c <> 46%N /\ c <> 101%N /\ c <> 69%N end.

(** C-style names. *)
Definition name_start (c : byte) : Prop := (65 <= c <= 90)%N \/ (97 <= c <= 122)%N \/ c = 95%N.
Definition name_char (c : byte) : Prop := name_start c \/ is_digit c.
Inductive name : bytes -> Prop :=
| a_name : forall c r, name_start c -> Forall name_char r -> name (c :: r).
Definition starts_not {A} (P : A -> Prop) (r : list A) : Prop := match r with [] => True | c :: _ => ~ P c end.

(** What looking and getting give on a text. *)
Inductive step := Peek | More | Get.
Definition next (s : bytes) : Z := match s with [] => (-1)%Z | c :: _ => Z.of_N c end.
Fixpoint answers (steps : list step) (s : bytes) : list Z :=
  match steps with
  | [] => []
  | Peek :: r => next s :: answers r s
  | More :: r => (if s then 0 else 1)%Z :: answers r s
  | Get :: r => next s :: answers r (tl s)
  end.
(** What has been gone over. *)
Definition gone (steps : list step) (s : bytes) : bytes :=
  firstn (List.length (filter (fun x => match x with Get => true | _ => false end) steps)) s.
