(** The generated file as a whole: vocabulary for its layout and for what of the
    source decides about it. *)
From Verif Require Import Base Buf Nodes Resolve CAst Translator SpecDecl SpecTarget.

(** ** All expressions of a module *)
(** An expression and those inside it.  (A designator in a composite literal is
    the name of a field.) *)
Fixpoint subs (e : expr) : list expr :=
  e :: match e with
       | EArrIndex a i => subs a ++ subs i
       | EBinary _ _ a b => subs a ++ subs b
       | EField _ _ x _ => subs x
       | ECast _ x => subs x
       | EComp es => flat_map (fun x => subs (snd x)) es
       | ECall _ f args => flat_map subs args ++ subs f
       | EPostfix _ x => subs x
       | EPrefix _ _ x => subs x
       | ESizeofE x => subs x
       | ELit _ | EName _ | ESizeofT _ => []
       end.
Definition opt_list {A} (o : option A) : list A := match o with Some a => [a] | None => [] end.
Definition form_exprs (f : form) : list expr := flat_map opt_list (f_indexes f).
Fixpoint stmt_exprs (s : stmt) : list expr :=
  match s with
  | SBreak | SContinue => []
  | SVarDecl v => form_exprs (v_form v) ++ opt_list (v_value v)
  | SIf c b e => match e with Some b2 => flat_map stmt_exprs b2 | None => [] end
                 ++ c :: flat_map stmt_exprs b
  | SFor i c a b =>
      match i with
      | Some (FIExpr e) => [e]
      | Some (FIDecl _ f e) => form_exprs f ++ [e]
      | None => []
      end ++ opt_list c ++ opt_list a ++ flat_map stmt_exprs b
  | SWhile c b => c :: flat_map stmt_exprs b
  | SReturn e => opt_list e
  | SSwitch _ v cs d =>
      v :: flat_map (fun c => flat_map stmt_exprs (snd c)) cs
      ++ match d with Some b => flat_map stmt_exprs b | None => [] end
  | SExpr e => [e]
  end.
Definition taf_exprs (t : type_and_forms) : list expr := flat_map form_exprs (taf_forms t).
Definition elem_exprs (e : modelem) : list expr :=
  match e with
  | MMacro _ | MStructAlias _ | MTypedef _ => []
  | MEnum x => flat_map (fun e => opt_list (en_val e)) (enum_entries x)
  | MStruct s => flat_map (fun e => match e with
                                    | StPlain x => taf_exprs x
                                    | StUnion u => form_exprs (u_form u)
                                                   ++ flat_map (fun p => form_exprs (snd p)) (u_fields u)
                                    end) (st_entries s)
  | MVar v => form_exprs (v_form v) ++ opt_list (v_value v)
  | MFunc f => form_exprs (fd_form f) ++ flat_map taf_exprs (fp_list (fd_params f))
               ++ flat_map stmt_exprs (fd_body f)
  end.
(** Somewhere in the module there is a call [calloc!(..)]. *)
Definition calloc_call (e : expr) : Prop :=
  match e with ECall _ f _ => is_name f "calloc!" = true | _ => False end.
Definition calls_calloc (elems : list modelem) : Prop :=
  exists e x, In e (flat_map elem_exprs elems) /\ In x (subs e) /\ calloc_call x.

(** ** Layout of the generated file *)
Definition group (e : celem) : nat :=
  match e with
  | XInclude _ | XMacro _ _ => 0
  | XForwardStruct _ => 1
  | XTypedef _ => 2
  | XStruct _ | XEnum _ => 3
  | XForwardFunc _ => 4
  | XVar _ => 5
  | XFunc _ => 6
  end.
(** [b] is [a] with some elements left out. *)
Inductive thinned {A} (drop : A -> Prop) : list A -> list A -> Prop :=
| Thin_nil : thinned drop [] []
| Thin_keep x a b : thinned drop a b -> thinned drop (x :: a) (x :: b)
| Thin_drop x a b : drop x -> thinned drop a b -> thinned drop (x :: a) b.
(** Only a typedef or struct may be left out. *)
Definition type_definition (e : celem) : Prop :=
  match e with XTypedef _ | XStruct _ => True | _ => False end.
(** [x] stands before [y]. *)
Definition before {A} (x y : A) (l : list A) : Prop := exists a b c, l = a ++ x :: b ++ y :: c.

(** ** Several names in one declaration *)
Definition ungroup (l : list type_and_forms) : list type_and_forms :=
  flat_map (fun t => map (fun f => mkTaf (taf_type t) [f]) (taf_forms t)) l.
Definition ungroup_params (f : funcdecl) : funcdecl :=
  mkFunc (fd_pos f) (fd_pub f) (fd_type f) (fd_form f)
         (mkFp (ungroup (fp_list (fd_params f))) (fp_ellipsis (fd_params f))) (fd_body f).
Definition ungroup_fields (s : struct_typedef) : struct_typedef :=
  mkStruct (st_pub s) (flat_map (fun e => match e with
                                           | StPlain x => map StPlain (ungroup [x])
                                           | StUnion u => [StUnion u]
                                           end) (st_entries s)) (st_name s).
Definition ungroup_elem (e : modelem) : modelem :=
  match e with
  | MFunc f => MFunc (ungroup_params f)
  | MStruct s => MStruct (ungroup_fields s)
  | _ => e
  end.

(** ** Functions of the generated file *)
Definition functions (l : list celem) : list cfuncdef :=
  flat_map (fun e => match e with XFunc f => [f] | _ => [] end) l.
(** The helper behind [calloc!], as C text. *)
Definition newline : str := [10%N].
Definition quote : str := [34%N].
Definition indents (n : nat) : str := repeat 9%N n.
Definition helper_text : str :=
  L "static void *calloc_or_panic (size_t count, size_t size) {" ++ newline
  ++ indents 1 ++ L "void *x = calloc(count, size);" ++ newline
  ++ indents 1 ++ L "if (!x) {" ++ newline
  ++ indents 2 ++ L "fprintf(stderr, " ++ quote ++ L "calloc failed" ++ quote ++ L ");" ++ newline
  ++ indents 2 ++ L "exit(1);" ++ newline
  ++ indents 1 ++ L "}" ++ newline
  ++ indents 1 ++ newline
  ++ indents 1 ++ L "return x;" ++ newline
  ++ L "}" ++ newline.

(** Statement [k] occurs somewhere in generated code. *)
Inductive c_occurs (k : cstmt) : list cstmt -> Prop :=
| COcc_here r : c_occurs k (k :: r)
| COcc_after x r : c_occurs k r -> c_occurs k (x :: r)
| COcc_block l r : c_occurs k l -> c_occurs k (KBlock l :: r)
| COcc_then c b e r : c_occurs k b -> c_occurs k (KIf c b e :: r)
| COcc_else c b e r : c_occurs k e -> c_occurs k (KIf c b (Some e) :: r)
| COcc_for i c a b r : c_occurs k b -> c_occurs k (KFor i c a b :: r)
| COcc_while c b r : c_occurs k b -> c_occurs k (KWhile c b :: r)
| COcc_case v cs d c r : In c cs -> c_occurs k (snd c) -> c_occurs k (KSwitch v cs d :: r)
| COcc_default v cs d r : c_occurs k d -> c_occurs k (KSwitch v cs (Some d) :: r).

(** The declarations in force inside a function, and the C function for it. *)
Definition inside (numeric : str -> bool) (elems : list modelem) (f : funcdecl) : list decl :=
  param_decls (fd_params f) ++ module_decls numeric elems.
Definition c_function (S : site) (numeric : str -> bool) (f : funcdecl) : cfuncdef :=
  let G := inside numeric (elements S) f in
  mkCfd (negb (fd_pub f)) (c_type S (fd_type f))
        (c_form S G (head_name S G (f_name (fd_form f))) (fd_form f))
        (c_params S G (fd_params f)) (c_stmts S G (fd_body f)).
Definition source_functions (elems : list modelem) : list funcdecl :=
  flat_map (fun e => match e with MFunc f => [f] | _ => [] end) elems.
(** A prototype of a C function. *)
Definition prototype_of (f : cfuncdef) : cforward :=
  mkCfwd (cfd_static f) (cfd_type f) (cfd_form f) (cfd_params f).
(** The function is called main. *)
Definition named_main (f : funcdecl) : Prop := f_name (fd_form f) = L "main".
(** It is plain [main(..)]: neither a pointer nor an array is returned. *)
Definition plain_main (f : funcdecl) : Prop :=
  named_main f /\ f_hops (fd_form f) = 0 /\ f_indexes (fd_form f) = [].
(** A module, and a whole project's modules, with all lists of names written
    out. *)
Definition ungroup_module (m : module_) : module_ :=
  mkModule (map ungroup_elem (mod_elements m))
           (mkExports (ex_consts (mod_exports m)) (map ungroup_params (ex_fns (mod_exports m)))
                      (ex_types (mod_exports m)) (map ungroup_fields (ex_structs (mod_exports m)))).
(** The declarations in force in a state of the translator. *)
Definition in_force (s : trst) (G : list decl) : Prop :=
  forall x, look x G = option_map (fun b => mkDecl (b_name b) (b_pub b) (b_typ b)) (find_binding x s).
(** The linkage of a function: private ones are static, except for main. *)
Definition linkage (f : funcdecl) (text : str) : Prop :=
  (text = [] /\ (fd_pub f = true \/ plain_main f))
  \/ (text = L "static " /\ fd_pub f = false /\ ~ plain_main f).
