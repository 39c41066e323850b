(** Sources whose names survive the translation to C, as a predicate on the
    source: the vocabulary of C67. *)
From Verif Require Import Base Buf Nodes Resolve Preparser CAst SpecDecl SpecScope SpecExports SpecModule SpecTarget SpecTyping SpecTame SpecClosed.

Section Tidy.
Variable S : site.
(** What the system provides under the names that the source calls [OS.x] and
    under the types it only mentions in a directive. *)
Variable system : cuse -> Prop.

(** A name: not the program's main function, not a name that C does not have. *)
Definition reserved_names : list string := ["main"; "calloc_or_panic"; "atol_l"; "atoll_l"]%string.
Definition tidy_name (n : nsname) : Prop :=
  (ns_ns n = L "OS" -> system (UName (ns_name n)))
  /\ (ns_ns n = [] -> ~ In (ns_name n) (map lit (reserved_names ++ library_types))).
(** A type: of this module, and then written once; of another module, and then
    one that is a type there; or the system has it. *)
Definition tidy_type (t : typename) : Prop :=
  let n := tn_name t in
  (ns_ns n = L "OS" -> system (UType (ns_name n)))
  /\ (ns_ns n = [] -> ~ In (ns_name n) (map lit library_types) ->
      (forall s, In (MStruct s) (elements S) -> st_name s <> ns_name n) ->
      (forall d, In (MTypedef d) (elements S) -> td_alias d <> ns_name n) ->
      (forall a, In (MStructAlias a) (elements S) -> sa_typename a <> ns_name n) ->
      system (UType (ns_name n)))
  /\ (ns_ns n <> [] -> ns_ns n <> L "OS" -> forall h m, import S (ns_ns n) = Some (h, m) ->
      pub_type (mod_elements m) (ns_name n)).

(** No designators of array elements. *)
Definition tidy_expr (e : expr) : Prop :=
  match e with
  | EName n => tidy_name n
  | ECast t _ | ESizeofT t => tidy_type (btf_type t)
  | EComp es => all (fun x => fst (fst x) = false) es
  | _ => True
  end.
(** The sizes in a declarator do not use the name [x]. *)
Definition without (x : str) (f : form) : Prop :=
  each_form (fun e => match e with
                      | EName n => ~ (ns_ns n = [] /\ ns_name n = x)
                      | ECall _ g _ => is_name g "calloc!" = true -> x <> L "calloc_or_panic"
                      | _ => True
                      end) f.
(** A declarator does not use its own name in its sizes. *)
Definition tidy_stmt (s : stmt) : Prop :=
  match s with
  | SVarDecl v => tidy_type (v_type v) /\ without (f_name (v_form v)) (v_form v)
  | SFor (Some (FIDecl t f _)) _ _ _ => tidy_type t /\ without (f_name f) f
  | SSwitch _ _ cs _ => all (fun c => all (fun v => match v with SVIdent n => tidy_name n | SVLit _ => True end) (fst c)) cs
  | _ => True
  end.
(** Nor does a parameter use a later one. *)
Fixpoint tidy_params (l : list form) : Prop :=
  match l with
  | [] => True
  | f :: r => (forall x, In x (map f_name (f :: r)) -> without x f) /\ tidy_params r
  end.
Definition tidy_head (f : funcdecl) : Prop :=
  tidy_type (fd_type f) /\ all (fun t => tidy_type (taf_type t)) (fp_list (fd_params f))
  /\ tidy_params (flat_map taf_forms (fp_list (fd_params f)))
  /\ (forall x, In x (param_names (fd_params f)) -> without x (fd_form f))
  (* no pub function has a parameter of its own name *)
  /\ (fd_pub f = true -> ~ In (f_name (fd_form f)) (param_names (fd_params f))).

(** A module. *)
Definition tidy : Prop :=
  all (each_elem tidy_expr tidy_stmt) (elements S)
  /\ forall f, In (MFunc f) (elements S) -> tidy_head f.
End Tidy.

(** The exports of a module with the prefix [id] can be told apart in C: nothing
    is both a pub type and a pub value, no private type has the name in C of a
    pub type, no pub function is called main or has a parameter of its own name. *)
Definition type_of_elem (e : modelem) (pub : bool) (x : str) : Prop :=
  match e with
  | MTypedef t => td_pub t = pub /\ td_alias t = x
  | MStruct s => st_pub s = pub /\ st_name s = x
  | MStructAlias a => sa_pub a = pub /\ sa_typename a = x
  | _ => False
  end.
Definition distinct_exports (id : str) (elems : list modelem) : Prop :=
  (forall e x, In e elems -> type_of_elem e true x -> ~ pub_value elems x)
  /\ (forall e e' x, In e elems -> In e' elems -> type_of_elem e true x -> ~ type_of_elem e' false (global_name id x))
  /\ forall f, In (MFunc f) elems -> fd_pub f = true ->
     f_name (fd_form f) <> L "main" /\ ~ In (f_name (fd_form f)) (param_names (fd_params f)).
