(** Declarations as che exports and messages show them: what is shown is meant to be the
    text of the declaration, so that reading it gives the declaration again. *)
From Verif Require Import Base Buf Lexer Nodes Cursor Preparser Parser LexOps SpecLex SpecGrammar.

Definition identifier `{Unicode} (x : str) : Prop :=
  exists c w, x = c :: w /\ word_start c = true /\ all word_char w /\ ~ In x (map lit reserved).
(** The text [s] alone is the spelling of the tokens [toks]. *)
Definition text_of `{Unicode} (s : str) (toks : list token) : Prop := exists p, lexes [] s toks (EndEof p).

(** The same up to positions. *)
Definition same_name (a b : nsname) : Prop := ns_ns a = ns_ns b /\ ns_name a = ns_name b.
Definition same_type (a b : typename) : Prop := tn_const a = tn_const b /\ same_name (tn_name a) (tn_name b).
Definition same_typeform (a b : bare_typeform) : Prop := same_type (btf_type a) (btf_type b) /\ btf_hops a = btf_hops b.
Inductive same_expr : expr -> expr -> Prop :=
| Same_name a b : same_name a b -> same_expr (EName a) (EName b)
| Same_literal l : same_expr (ELit l) (ELit l)
| Same_binary p q op a b a' b' : same_expr a a' -> same_expr b b' -> same_expr (EBinary p op a b) (EBinary q op a' b').
Inductive same_index : option expr -> option expr -> Prop :=
| Same_none : same_index None None
| Same_some a b : same_expr a b -> same_index (Some a) (Some b).
Definition same_form (a b : form) : Prop :=
  f_name a = f_name b /\ f_hops a = f_hops b /\ Forall2 same_index (f_indexes a) (f_indexes b).

(** Names that can be written in a file. *)
Definition writable `{Unicode} (ctx : parsectx) (t : typename) : Prop :=
  identifier (ns_name (tn_name t)) /\ (ns_ns (tn_name t) = [] \/ identifier (ns_ns (tn_name t)) /\ namespace ctx (ns_ns (tn_name t))).
(** Expressions of names, numbers and binary operators, in which no right operand has an
    operator of the same level. *)
Definition apart (op : string) (b : expr) : Prop :=
  forall q op' x y n, b = EBinary q op' x y -> binary_op op n -> ~ binary_op op' n.
Inductive simple `{Unicode} (ctx : parsectx) : expr -> Prop :=
| Simple_name p x : identifier x -> ~ type_name ctx x -> simple ctx (EName (mkNs p [] x))
| Simple_number ds : ds <> [] -> all digit ds -> simple ctx (ELit (LNumber ds))
| Simple_binary p op n a b : binary_op op n -> simple ctx a -> simple ctx b -> apart op b -> simple ctx (EBinary p op a b).
Definition simple_form `{Unicode} (ctx : parsectx) (f : form) : Prop :=
  identifier (f_name f) /\ Forall (fun i => match i with Some e => simple ctx e | None => True end) (f_indexes f).
