(** RFC 8259: the texts of a JSON value.  Texts are bytes in UTF-8. *)
From Coq Require Import NArith.
From Verif Require Import LibBase SpecTok LibJson.

(** Section 2. *)
Definition blank (c : byte) : Prop := c = 32%N \/ c = 9%N \/ c = 10%N \/ c = 13%N.
Definition blanks (w : bytes) : Prop := Forall blank w.

(** Section 6: a number of C without needless zeros. *)
Definition json_number (t : bytes) : Prop :=
  exists sg w f e, t = sg ++ w ++ f ++ e /\ (sg = [] \/ sg = [45%N]) /\ digits w /\ (forall r, w = 48%N :: r -> r = []) /\
    fraction f /\ exponent e.

(** Section 7.  An escape is what follows the backslash and what it stands for;
    \u is given for characters below 128 only. *)
Definition hex_value (c : byte) (v : N) : Prop :=
  (48 <= c <= 57 /\ v = c - 48 \/ 97 <= c <= 102 /\ v = c - 87 \/ 65 <= c <= 70 /\ v = c - 55)%N.
(** Escapes of characters that stand for themselves. *)
Inductive plain_escape : bytes -> bytes -> Prop :=
| esc_self : forall c, c = 34%N \/ c = 92%N \/ c = 47%N -> plain_escape [c] [c].
Inductive escape : bytes -> bytes -> Prop :=
| esc_plain : forall a b, plain_escape a b -> escape a b
| esc_b : escape [98%N] [8%N]
| esc_f : escape [102%N] [12%N]
| esc_n : escape [110%N] [10%N]
| esc_r : escape [114%N] [13%N]
| esc_t : escape [116%N] [9%N]
| esc_u : forall h l vh vl, hex_value h vh -> hex_value l vl -> (16 * vh + vl < 128)%N ->
    escape ([117; 48; 48; h; l]%N) [(16 * vh + vl)%N].

Section Texts.
  (** The escapes and the texts of numbers allowed; the values of numbers. *)
  Context {D : Type} (esc : bytes -> bytes -> Prop) (numeral : bytes -> Prop) (value : bytes -> D).

  (** What the characters between the quotes stand for. *)
  Inductive chars : bytes -> bytes -> Prop :=
  | chars_end : chars [] []
  | chars_one : forall c t s, (32 <= c < 256)%N -> c <> 34%N -> c <> 92%N -> chars t s -> chars (c :: t) (c :: s)
  | chars_esc : forall a b t s, esc a b -> chars t s -> chars (92%N :: a ++ t) (b ++ s).
  Inductive quoted : bytes -> bytes -> Prop :=
  | quotes : forall t s, chars t s -> quoted (34%N :: t ++ [34%N]) s.

  (** Sections 3, 4, 5: a value without blanks around it; elements and members
      with their commas. *)
  Inductive json : jval D -> bytes -> Prop :=
  | j_null : json JNull (L "null")
  | j_true : json (JBool true) (L "true")
  | j_false : json (JBool false) (L "false")
  | j_number : forall t, numeral t -> json (JNum (value t)) t
  | j_string : forall s t, quoted t s -> json (JStr s) t
  | j_no_elements : forall w, blanks w -> json (JArr []) (91%N :: w ++ [93%N])
  | j_elements : forall l t, elements l t -> json (JArr l) (91%N :: t ++ [93%N])
  | j_no_members : forall w, blanks w -> json (JObj []) (123%N :: w ++ [125%N])
  | j_members : forall l t, members l t -> json (JObj l) (123%N :: t ++ [125%N])
  with elements : list (jval D) -> bytes -> Prop :=
  | el_last : forall v w t w', blanks w -> json v t -> blanks w' -> elements [v] (w ++ t ++ w')
  | el_more : forall v l w t w' e, blanks w -> json v t -> blanks w' -> elements l e ->
      elements (v :: l) (w ++ t ++ w' ++ 44%N :: e)
  with members : list (bytes * jval D) -> bytes -> Prop :=
  | mem_last : forall m w t, blanks w -> member m t -> members [m] (w ++ t)
  | mem_more : forall m l w t e, blanks w -> member m t -> members l e -> members (m :: l) (w ++ t ++ 44%N :: e)
  with member : bytes * jval D -> bytes -> Prop :=
  | mem_one : forall k v tk w w' t w'', quoted tk k -> blanks w -> blanks w' -> json v t -> blanks w'' ->
      member (k, v) (tk ++ w ++ 58%N :: w' ++ t ++ w'').

  Inductive json_text : jval D -> bytes -> Prop :=
  | text : forall v w t w', blanks w -> json v t -> blanks w' -> json_text v (w ++ t ++ w').
End Texts.

(** Section 4: the names within an object are unique. *)
Inductive unique {D} : jval D -> Prop :=
| uq_null : unique JNull
| uq_bool : forall b, unique (JBool b)
| uq_num : forall d, unique (JNum d)
| uq_str : forall s, unique (JStr s)
| uq_arr : forall l, Forall unique l -> unique (JArr l)
| uq_obj : forall l, NoDup (List.map fst l) -> Forall (fun kv => unique (snd kv)) l -> unique (JObj l).

(** The JSON texts of a value. *)
Definition rfc8259 {D} (value : bytes -> D) : jval D -> bytes -> Prop := json_text escape json_number value.
