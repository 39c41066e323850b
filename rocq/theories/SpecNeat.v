(** Sources whose declarations outside of functions survive the translation to
    C, as a predicate on the source: the vocabulary of C67 for whole files.  The
    elements of a module may stand in any order in the source language; in the
    generated file they stand by kind and, within a kind, in source order. *)
From Verif Require Import Base Buf Nodes Resolve Preparser Translator CAst SpecDecl SpecScope SpecExports SpecModule SpecTarget SpecTyping SpecTame SpecClosed SpecTidy.

Section Neat.
Variable S : site.
Variable system : cuse -> Prop.

(** The module element declares the value [x]. *)
Definition declares_value (e : modelem) (x : str) : Prop := In x (map d_name (elem_decls is_numeric e)).
(** A name in a declaration outside of functions.  [known] are the names that
    the declaration knows by itself.  Any other name of the module has to be a
    macro, a constant of one of [enums], a variable of [vars] or, if [fns], a
    function; if the declaration is pub then so is the constant.  A name of
    another module has to be a constant or, if [fns], a function. *)
Definition outer_name (pub : bool) (known : list str) (enums vars : list modelem) (fns : bool) (n : nsname) : Prop :=
  tidy_name system n
  /\ (ns_ns n = [] -> ~ In (ns_name n) known -> forall e, In e (elements S) -> declares_value e (ns_name n) ->
      match e with
      | MMacro _ => True
      | MEnum x => In e enums /\ (pub = true -> enum_pub x = true)
      | MVar _ => In e vars
      | MFunc _ => fns = true
      | _ => False
      end)
  /\ (ns_ns n <> [] -> ns_ns n <> L "OS" -> forall h m, import S (ns_ns n) = Some (h, m) ->
      fns = true \/ pub_constant (mod_elements m) (ns_name n)).
(** A type: a pub declaration uses no private type of its module. *)
Definition outer_type (pub : bool) (t : typename) : Prop :=
  tidy_type S system t
  /\ (pub = true -> ns_ns (tn_name t) = [] -> forall e, In e (elements S) -> ~ type_of_elem e false (ns_name (tn_name t))).
Definition outer_expr (pub : bool) (known : list str) (enums vars : list modelem) (fns : bool) (e : expr) : Prop :=
  match e with
  | EName n => outer_name pub known enums vars fns n
  | ECast t _ | ESizeofT t => outer_type pub (btf_type t)
  | EComp es => all (fun x => fst (fst x) = false) es
  | ECall _ f _ => is_name f "calloc!" = false
  | _ => True
  end.
(** A type in a type definition: defined earlier. *)
Definition earlier_type (pub : bool) (before : list modelem) (t : typename) : Prop :=
  outer_type pub t
  /\ (ns_ns (tn_name t) = [] -> forall e b, In e (elements S) -> type_of_elem e b (ns_name (tn_name t)) -> In e before).

(** A module element, behind the elements [before]. *)
Definition outer_elem (before : list modelem) (e : modelem) : Prop :=
  match e with
  | MMacro _ | MStructAlias _ => True
  | MEnum x => forall a en b, enum_entries x = a ++ en :: b ->
      all_opt (each_expr (outer_expr (enum_pub x) (map en_name a) before [] false)) (en_val en)
  | MTypedef t =>
      earlier_type (td_pub t) before (td_type t)
      /\ all_opt (fun p => all (fun b => earlier_type (td_pub t) before (btf_type b)) (ap_forms p)) (td_func_params t)
  | MStruct s =>
      all (fun x => match x with
                    | StPlain t => outer_type (st_pub s) (taf_type t)
                    | StUnion u => all (fun p => outer_type (st_pub s) (fst p)) (u_fields u)
                    end) (st_entries s)
      /\ all (each_field (outer_expr (st_pub s) [] before [] false)) (st_entries s)
  | MVar v =>
      outer_type false (v_type v)
      /\ each_form (outer_expr false [] (elements S) before true) (v_form v)
      /\ all_opt (each_expr (outer_expr false [] (elements S) before true)) (v_value v)
  | MFunc f =>
      let names := param_names (fd_params f) in
      outer_type (fd_pub f) (fd_type f) /\ all (fun t => outer_type (fd_pub f) (taf_type t)) (fp_list (fd_params f))
      /\ each_form (outer_expr (fd_pub f) names (elements S) [] false) (fd_form f)
      /\ all (fun t => all (each_form (outer_expr (fd_pub f) names (elements S) [] false)) (taf_forms t)) (fp_list (fd_params f))
  end.
Definition neat : Prop := forall before e after, elements S = before ++ e :: after -> outer_elem before e.
End Neat.

(** Directives of two modules with equal texts have equal names. *)
Definition same_directives (elems elems' : list modelem) : Prop :=
  forall a b, In (MMacro a) elems -> In (MMacro b) elems' -> m_value a = m_value b -> m_name a = m_name b.
