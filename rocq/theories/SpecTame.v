(** The constructs on which the translator gives up instead of reporting an
    error, as a predicate on the source: the vocabulary of C54. *)
From Verif Require Import Base Buf Nodes Types Resolve Preparser Parser SpecDecl SpecScope SpecTypes SpecTarget SpecTyping.

(** ** Everywhere in a module *)
Section Each.
Variables (P : expr -> Prop) (Q : stmt -> Prop).
(** [P] holds of an expression and of all expressions in it. *)
Fixpoint each_expr (e : expr) : Prop :=
  P e /\
  match e with
  | ELit _ | EName _ | ESizeofT _ => True
  | EArrIndex a i => each_expr a /\ each_expr i
  | EBinary _ _ a b => each_expr a /\ each_expr b
  | EField _ _ x _ => each_expr x
  | ECast _ x => each_expr x
  | EPostfix _ x => each_expr x
  | EPrefix _ _ x => each_expr x
  | ESizeofE x => each_expr x
  | EComp es => all (fun x => each_expr (snd x)) es
  | ECall _ f args => each_expr f /\ all each_expr args
  end.
Definition each_form (f : form) : Prop := all (all_opt each_expr) (f_indexes f).
Definition each_init (i : forinit) : Prop :=
  match i with
  | FIExpr e => each_expr e
  | FIDecl _ f e => each_form f /\ each_expr e
  end.
(** [Q] holds of a statement and of all statements in it, [P] of the expressions. *)
Fixpoint each_stmt (s : stmt) : Prop :=
  Q s /\
  match s with
  | SBreak | SContinue => True
  | SVarDecl v => each_form (v_form v) /\ all_opt each_expr (v_value v)
  | SIf c b e => each_expr c /\ all each_stmt b /\ all_opt (all each_stmt) e
  | SFor i c a b => all_opt each_init i /\ all_opt each_expr c /\ all_opt each_expr a /\ all each_stmt b
  | SWhile c b => each_expr c /\ all each_stmt b
  | SReturn e => all_opt each_expr e
  | SSwitch _ v cs d => each_expr v /\ all (fun c => all each_stmt (snd c)) cs /\ all_opt (all each_stmt) d
  | SExpr e => each_expr e
  end.
Definition each_field (e : struct_entry) : Prop :=
  match e with
  | StPlain x => all each_form (taf_forms x)
  | StUnion u => each_form (u_form u) /\ all (fun p => each_form (snd p)) (u_fields u)
  end.
Definition each_elem (e : modelem) : Prop :=
  match e with
  | MMacro _ | MStructAlias _ | MTypedef _ => True
  | MEnum x => all (fun en => all_opt each_expr (en_val en)) (enum_entries x)
  | MStruct s => all each_field (st_entries s)
  | MVar v => each_form (v_form v) /\ all_opt each_expr (v_value v)
  | MFunc f => each_form (fd_form f) /\ all (fun p => all each_form (taf_forms p)) (fp_list (fd_params f))
               /\ all each_stmt (fd_body f)
  end.
End Each.

(** ** What to avoid *)
(** The two shift assignments, and designators of array elements in composite
    literals. *)
Definition careful_expr (e : expr) : Prop :=
  match e with
  | EBinary _ op _ _ => op <> "<<="%string /\ op <> ">>="%string
  | EComp es => all (fun x => fst (fst x) = false) es
  | _ => True
  end.
(** A [switch str] without cases. *)
Definition careful_stmt (s : stmt) : Prop :=
  match s with SSwitch true _ [] _ => False | _ => True end.
(** A #define without a value. *)
Definition careful_define (e : modelem) : Prop :=
  match e with
  | MMacro m => m_name m = L "define" ->
      exists id v r, split_whitespace (trim (m_value m)) = id :: v :: r
  | _ => True
  end.
(** A type of another module where a value belongs. *)
Definition careful_ref (S : site) (r : ref) : Prop :=
  match r with
  | RName n => forall h m, ns_ns n <> [] -> ns_ns n <> L "OS" -> import S (ns_ns n) = Some (h, m) ->
      In (ns_name n) (ex_types (mod_exports m)) ->
      In (ns_name n) (map en_name (ex_consts (mod_exports m)))
      \/ In (ns_name n) (map (fun f => f_name (fd_form f)) (ex_fns (mod_exports m)))
  | RType _ => True
  end.
(** Typedefs that lead round in a circle.  A type stands for another by the name
    of a typedef, or as a pointer to one. *)
Definition stands_for (elems : list modelem) (t d : ty) : Prop :=
  (ty_ops t = [] \/ ty_ops t = [TDeref]) /\ ns_ns (ty_base t) = []
  /\ exists p, typedef_named elems (ns_name (ty_base t)) = Some (p, d).
Inductive resolves (elems : list modelem) (t : ty) : Prop :=
| Resolves : (forall d, stands_for elems t d -> resolves elems d) -> resolves elems t.

(** A module that avoids all this, and declares no name twice in a scope. *)
Definition careful (S : site) : Prop :=
  all (each_elem careful_expr careful_stmt) (elements S)
  /\ all careful_define (elements S)
  /\ (forall r, refers r (in_module (elements S)) -> careful_ref S r)
  /\ (forall t, resolves (elements S) t)
  /\ declared_once [] (in_module (elements S)).
