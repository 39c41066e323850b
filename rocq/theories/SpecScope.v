(** Names and scopes of a module, without types or code: what a module declares
    where, and what it refers to where. *)
From Verif Require Import Base Buf Nodes.

(** A reference: an identifier in an expression or case label, or a type name. *)
Inductive ref :=
| RName (n : nsname)
| RType (n : nsname).
Definition ref_name (r : ref) : nsname := match r with RName n | RType n => n end.

(** The contents of a scope, in order.  (Where no declaration stands between two
    siblings their order says nothing; it is the order in which the translator
    looks at them.) *)
Inductive item :=
| Ref (r : ref)
| Declare (x : str) (pub : bool)
| Scope (l : list item).

(** References in an expression.  Designators of a composite literal are field
    names and [calloc!(..)] stands for a call of [calloc_or_panic]. *)
Definition calloc_name (p : pos) (f : expr) : option ref :=
  match f with
  | EName n => if str_eqb (ns_ns n) [] && str_eqb (ns_name n) (L "calloc!")
               then Some (RName (mkNs p [] (L "calloc_or_panic"))) else None
  | _ => None
  end.
Definition type_ref (t : typename) : ref := RType (tn_name t).
Fixpoint expr_refs (e : expr) : list ref :=
  match e with
  | EArrIndex a i => expr_refs a ++ expr_refs i
  | EBinary _ _ a b => expr_refs a ++ expr_refs b
  | EField _ _ t _ => expr_refs t
  | ECast t x => expr_refs x ++ [type_ref (btf_type t)]
  | EComp es => flat_map (fun e => expr_refs (snd e)) es
  | ECall p f args =>
      flat_map expr_refs args
      ++ match calloc_name p f with Some r => [r] | None => expr_refs f end
  | ELit _ => []
  | EName n => [RName n]
  | EPostfix _ x => expr_refs x
  | EPrefix _ _ x => expr_refs x
  | ESizeofT t => [type_ref (btf_type t)]
  | ESizeofE x => expr_refs x
  end.

Definition opt_refs (o : option expr) : list ref :=
  match o with Some e => expr_refs e | None => [] end.
Definition refs (l : list ref) : list item := map Ref l.
Definition in_expr (e : expr) : list item := refs (expr_refs e).
Definition in_opt (o : option expr) : list item := refs (opt_refs o).
(** The array sizes of a declarator. *)
Definition in_form (f : form) : list item := refs (flat_map opt_refs (f_indexes f)).
Definition in_type (t : typename) : list item := [Ref (type_ref t)].

Definition in_vardecl (v : vardecl) : list item :=
  Declare (f_name (v_form v)) false :: in_type (v_type v) ++ in_form (v_form v) ++ in_opt (v_value v).
Definition in_forinit (i : forinit) : list item :=
  match i with
  | FIExpr e => in_expr e
  | FIDecl t f e => Declare (f_name f) false :: in_type t ++ in_form f ++ in_expr e
  end.
Definition case_ref (v : switch_value) : list ref :=
  match v with SVIdent n => [RName n] | SVLit _ => [] end.

(** [panic(..)] as a statement is not a use of a name [panic]. *)
Definition is_panic (f : expr) : bool := is_ident f (L "panic").

Definition option_list {A B} (f : A -> list B) (o : option A) : list B :=
  match o with Some a => f a | None => [] end.

Fixpoint in_stmt (s : stmt) : list item :=
  let block := fun b : list stmt => [Scope (flat_map in_stmt b)] in
  let cases := flat_map (fun c => refs (flat_map case_ref (fst c)) ++ block (snd c)) in
  match s with
  | SBreak | SContinue => []
  | SVarDecl v => in_vardecl v
  | SIf c b e => option_list block e ++ in_expr c ++ block b
  | SFor i c a b => [Scope (option_list in_forinit i ++ in_opt c ++ in_opt a ++ block b)]
  | SWhile c b => in_expr c ++ block b
  | SReturn e => in_opt e
  | SSwitch true v cs d => in_expr v ++ cases cs ++ option_list block d
  | SSwitch false v cs d => cases cs ++ in_expr v ++ option_list block d
  | SExpr (ECall _ f args as e) =>
      if is_panic f then refs (flat_map expr_refs args) else in_expr e
  | SExpr e => in_expr e
  end.

Definition in_body (b : body) : list item := [Scope (flat_map in_stmt b)].

(** A function: the parameters, the body nested inside. *)
Definition param_names (p : func_params) : list str :=
  flat_map (fun t => map f_name (taf_forms t)) (fp_list p).
(** Every declarator repeats the type. *)
Definition in_forms (t : typename) (fs : list form) : list item :=
  flat_map (fun f => in_type t ++ in_form f) fs.
(** The head of a function is written twice, in the definition and (except for
    main) in the prototype. *)
Definition is_main (f : funcdecl) : bool := str_eqb (f_name (fd_form f)) (L "main").
Definition in_func_head (f : funcdecl) : list item :=
  in_type (fd_type f) ++ in_form (fd_form f)
  ++ flat_map (fun t => in_forms (taf_type t) (taf_forms t)) (fp_list (fd_params f)).
Definition in_func (f : funcdecl) : list item :=
  [Scope (map (fun x => Declare x false) (param_names (fd_params f))
          ++ in_body (fd_body f)
          ++ in_func_head f ++ if is_main f then [] else in_func_head f)].

Definition in_struct_entry (e : struct_entry) : list item :=
  match e with
  | StPlain x => in_forms (taf_type x) (taf_forms x)
  | StUnion u => in_form (u_form u)
                 ++ flat_map (fun p => in_type (fst p) ++ in_form (snd p)) (u_fields u)
  end.

(** What an element declares at the top of the module. *)
Definition elem_declares (e : modelem) : list item :=
  match e with
  | MMacro m =>
      if str_eqb (m_name m) (L "define")
      then match split_whitespace (trim (m_value m)) with
           | id :: _ => [Declare id false]
           | [] => []
           end
      else []
  | MEnum e => map (fun x => Declare (en_name x) (enum_pub e)) (enum_entries e)
  | MVar v => [Declare (f_name (v_form v)) false]
  | MFunc f => [Declare (f_name (fd_form f)) (fd_pub f || is_main f)]
  | MStructAlias _ | MTypedef _ | MStruct _ => []
  end.
Definition in_elem (e : modelem) : list item :=
  match e with
  | MMacro _ | MStructAlias _ => []
  | MEnum e => flat_map (fun x => in_opt (en_val x)) (enum_entries e)
  | MTypedef t => match td_func_params t with
                  | Some p => flat_map (fun f => in_type (btf_type f)) (ap_forms p)
                  | None => []
                  end ++ in_type (td_type t)
  | MStruct s => flat_map in_struct_entry (st_entries s)
  | MVar v => in_type (v_type v) ++ in_form (v_form v) ++ in_opt (v_value v)
  | MFunc f => in_func f
  end.

(** A module: all its elements see all its declarations. *)
Definition in_module (elems : list modelem) : list item :=
  [Scope (flat_map elem_declares elems ++ flat_map in_elem elems)].

(** Every reference is fine, given the names visible at its place. *)
Inductive every_ref (ok : list str -> ref -> Prop) : list str -> list item -> Prop :=
| Every_nil vis : every_ref ok vis []
| Every_ref vis r l : ok vis r -> every_ref ok vis l -> every_ref ok vis (Ref r :: l)
| Every_declare vis x p l : every_ref ok (x :: vis) l -> every_ref ok vis (Declare x p :: l)
| Every_scope vis l' l : every_ref ok vis l' -> every_ref ok vis l ->
    every_ref ok vis (Scope l' :: l).

(** No scope declares a name twice; [here] are the names declared so far. *)
Inductive declared_once : list str -> list item -> Prop :=
| Once_nil here : declared_once here []
| Once_ref here r l : declared_once here l -> declared_once here (Ref r :: l)
| Once_declare here x p l : ~ In x here -> declared_once (x :: here) l ->
    declared_once here (Declare x p :: l)
| Once_scope here l' l : declared_once [] l' -> declared_once here l ->
    declared_once here (Scope l' :: l).

(** [x] as seen from before these items is referred to in them: there is an
    unqualified identifier [x] not captured by a declaration of the same name. *)
Inductive used (x : str) : list item -> Prop :=
| Used_here p l : used x (Ref (RName (mkNs p [] x)) :: l)
| Used_ref r l : used x l -> used x (Ref r :: l)
| Used_declare y p l : y <> x -> used x l -> used x (Declare y p :: l)
| Used_inside l' l : used x l' -> used x (Scope l' :: l)
| Used_after l' l : used x l -> used x (Scope l' :: l).

(** Every private declaration is used in its scope. *)
Inductive all_used : list item -> Prop :=
| All_nil : all_used []
| All_ref r l : all_used l -> all_used (Ref r :: l)
| All_declare x p l : p = true \/ used x l -> all_used l -> all_used (Declare x p :: l)
| All_scope l' l : all_used l' -> all_used l -> all_used (Scope l' :: l).

(** [r] occurs somewhere. *)
Inductive refers (r : ref) : list item -> Prop :=
| Refers_here l : refers r (Ref r :: l)
| Refers_after i l : refers r l -> refers r (i :: l)
| Refers_inside l' l : refers r l' -> refers r (Scope l' :: l).
