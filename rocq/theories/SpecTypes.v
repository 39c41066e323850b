(** Vocabulary for the typing properties: what kind of type a type is, by its
    written form. *)
From Verif Require Import Base Buf Nodes Types.

(** [t] is the plain type with the given unqualified name. *)
Definition named (t : ty) (name : string) : Prop :=
  ty_ops t = [] /\ ns_ns (ty_base t) = [] /\ ns_name (ty_base t) = lit name.
Definition one_of (t : ty) (names : list string) : Prop := Exists (named t) names.

Definition signed (t : ty) : Prop :=
  one_of t ["int"; "int8_t"; "int16_t"; "int32_t"; "int64_t"; "ptrdiff_t"]%string.
Definition unsigned (t : ty) : Prop :=
  one_of t ["size_t"; "uint8_t"; "uint16_t"; "uint32_t"; "uint64_t"]%string.
Definition floating (t : ty) : Prop := one_of t ["float"; "double"]%string.
Definition boolean (t : ty) : Prop := named t "bool".
Definition character (t : ty) : Prop := named t "char".
(** The type given to number literals, enum members and numeric macros. *)
Definition constant (t : ty) : Prop := named t "number".
(** The type given to everything the checker knows nothing about. *)
Definition unknown (t : ty) : Prop := named t "*** TODO *** ".
Definition pointer (t : ty) : Prop := exists to, ty_ops t = TDeref :: to.
Definition array (t : ty) : Prop := exists of, ty_ops t = TIndex :: of.
Definition integer (t : ty) : Prop := signed t \/ unsigned t.
Definition number (t : ty) : Prop := integer t \/ floating t.

Definition accepted (r : tres) : Prop := exists t, r = TOk t.

(** Both operands have [p], or one has [p] and the other [q]. *)
Definition both (p : ty -> Prop) (a b : ty) : Prop := p a /\ p b.
Definition either_way (p q : ty -> Prop) (a b : ty) : Prop := (p a /\ q b) \/ (p b /\ q a).

(** What may be compared with what. *)
Definition comparable (a b : ty) : Prop :=
  unknown a \/ unknown b
  \/ both signed a b \/ both unsigned a b \/ both floating a b \/ both character a b
  \/ both boolean a b \/ both pointer a b \/ both constant a b
  \/ either_way number constant a b
  \/ either_way character constant a b
  \/ either_way character signed a b.

(** What [* / % << >> & | ^] work on. *)
Definition arithmetic (a b : ty) : Prop :=
  unknown a \/ unknown b
  \/ both number a b \/ both constant a b
  \/ either_way number constant a b
  \/ either_way character constant a b.

(** What [+] and [-] work on; [mixed] operands (signed with unsigned, integer
    with floating) are not among them. *)
Definition additive (op : string) (a b : ty) : Prop :=
  unknown a \/ unknown b
  \/ both signed a b \/ both unsigned a b \/ both floating a b \/ both constant a b
  \/ either_way number constant a b
  \/ either_way pointer integer a b \/ either_way array integer a b
  \/ either_way pointer constant a b \/ either_way array constant a b
  \/ (op = "-"%string /\ both pointer a b).

(** What may stand as a loop condition or an operand of [&&] and [||]. *)
Definition booly (t : ty) : Prop := pointer t \/ integer t \/ boolean t \/ unknown t.

(** The same type, wherever it was written. *)
Definition same_type (a b : ty) : Prop :=
  ty_ops a = ty_ops b /\ ns_ns (ty_base a) = ns_ns (ty_base b)
  /\ ns_name (ty_base a) = ns_name (ty_base b).
