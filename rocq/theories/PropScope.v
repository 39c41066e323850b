(** Properties of names and scopes (C14, C15, C25-C29, C56).
    Specification: SpecScope.v, SpecExports.v. *)
From Verif Require Import Base Buf Lexer Nodes Types Cspec Resolve Cursor Preparser Parser CAst Translator
  Build SpecScope SpecExports ExportFacts ScopeProps Samples.

(** C14: the exports of a parsed module are its pub elements, in source order. *)
Theorem C14_exports_are_pub : forall fuel ctx c m, parse_module fuel ctx c = PModule m ->
  ex_consts (mod_exports m) = constants_in_order (mod_elements m)
  /\ ex_fns (mod_exports m) = functions_in_order (mod_elements m)
  /\ ex_types (mod_exports m) = types_in_order (mod_elements m)
  /\ ex_structs (mod_exports m) = structs_in_order (mod_elements m).
Proof.
  intros fuel ctx c m H. rewrite (parse_module_exports _ _ _ _ H), get_exports_spec. repeat split.
Qed.
Theorem C14_nothing_private : forall fuel ctx c m x, parse_module fuel ctx c = PModule m ->
  exports_has (mod_exports m) x = true <-> pub_element (mod_elements m) x.
Proof. exact exports_pub. Qed.
Example C14_example :
  pub_element (mod_elements (nth_mod 0)) (L "add") /\ ~ pub_element (mod_elements (nth_mod 0)) (L "helper").
Proof. rewrite <- !exports_pub_get. split; vm_compute; [reflexivity | discriminate]. Qed.
Print Assumptions C14_exports_are_pub.
Print Assumptions C14_nothing_private.

(** C15: every pub typedef of a type or of a struct body is importable; a pub
    typedef of a struct by name ([typedef struct x y]) is not. *)
Theorem C15_pub_typedefs_importable_partial : forall fuel ctx c m x, parse_module fuel ctx c = PModule m ->
  pub_type (mod_elements m) x -> exports_has (mod_exports m) x = true.
Proof. intros fuel ctx c m x H P. apply (exports_pub _ _ _ _ x H). right. exact P. Qed.
Print Assumptions C15_pub_typedefs_importable_partial.
Theorem C15_struct_alias_refuted : exists fuel ctx text m a,
  parse_module fuel ctx (@tokenize ascii_table (buf_new (lit text))) = PModule m
  /\ In (MStructAlias a) (mod_elements m) /\ sa_pub a = true
  /\ exports_has (mod_exports m) (sa_typename a) = false.
Proof.
  exists 60, (mkPctx (mkInfo [] [L "tm_t"] (L "a.c") []) []), "pub typedef struct tm tm_t;"%string.
  eexists. eexists. split; [vm_compute; reflexivity |]. cbn [mod_elements mod_exports].
  split; [left; reflexivity |]. split; vm_compute; reflexivity.
Qed.
Print Assumptions C15_struct_alias_refuted.

(** C25: every unqualified name used in an expression or case label of an
    accepted module is declared in an enclosing scope before that place (at
    module level: anywhere), or belongs to the C standard library. *)
Theorem C25_names_defined : forall m p cm, translate m p = TrOk cm ->
  every_ref (fun vis r => match r with
                          | RName n => ns_ns n = [] ->
                              In (ns_name n) vis \/ In (ns_name n) (map cs_name csym_list)
                          | RType _ => True
                          end) [] (in_module (mod_elements m)).
Proof. exact defined_names. Qed.
Example C25_example : (exists cm, translate (nth_mod 1) (nth_params 1) = TrOk cm)
  /\ messages (single "int main() { return x; }") = [L "nsid: x is undefined"]
  /\ messages (single "int main() { if (1) { int x = 2; puts(x); } return x; }")
     = [L "nsid: x is undefined"].
Proof. split; [eexists; vm_compute; reflexivity |]. split; vm_compute; reflexivity. Qed.
Print Assumptions C25_names_defined.

(** C26: every private declaration is used in its scope. *)
Theorem C26_no_unused_names : forall m p cm, translate m p = TrOk cm -> all_used (in_module (mod_elements m)).
Proof. exact no_unused. Qed.
Example C26_example : (exists cm, translate (nth_mod 1) (nth_params 1) = TrOk cm)
  /\ messages (single "int f(int a) { return 1; } int main() { return f(1); }") = [L "a is unused"].
Proof. split; [eexists; vm_compute; reflexivity |]. vm_compute. reflexivity. Qed.
Print Assumptions C26_no_unused_names.

(** C27: every imported namespace is referred to. *)
Theorem C27_no_unused_imports : forall m p cm imp, translate m p = TrOk cm ->
  In imp (mi_imports (tp_mod p)) ->
  exists r, refers r (in_module (mod_elements m)) /\ ns_ns (ref_name r) = r_ns imp.
Proof. exact imports_used. Qed.
Example C27_example : (exists cm imp, translate (nth_mod 1) (nth_params 1) = TrOk cm
    /\ In imp (mi_imports (tp_mod (nth_params 1))))
  /\ messages (beside "#import lib.c
int main() { return 1; }") = [L "unused import: lib"].
Proof.
  split; [eexists; eexists; split; [vm_compute; reflexivity | left; reflexivity] |].
  vm_compute. reflexivity.
Qed.
Print Assumptions C27_no_unused_imports.

(** C28: no scope declares a name twice, and looking a name up finds the binding
    that a use of the name marks: the only one of that name in the innermost
    scope that has one. *)
Theorem C28_no_duplicates : forall m p cm, translate m p = TrOk cm ->
  declared_once [] (in_module (mod_elements m)).
Proof. exact no_duplicates. Qed.
Theorem C28_lookup_unambiguous : forall env s x b, reachable env s -> find_binding x s = Some b ->
  exists inner before after outer,
    s_scopes s = inner ++ (before ++ b :: after) :: outer
    /\ b_name b = x
    /\ ~ In x (map b_name (List.concat inner)) /\ ~ In x (map b_name before) /\ ~ In x (map b_name after)
    /\ mark_binding_use x s =
       TrOk (true, mkSt (inner ++ (before ++ set_used b :: after) :: outer) (s_ns s) (s_customs s)).
Proof. exact lookup_marks. Qed.
Example C28_example : (exists cm, translate (nth_mod 1) (nth_params 1) = TrOk cm)
  /\ crashes (single "int main() { int x = 1; int x = 2; return x; }") = true.
Proof. split; [eexists; vm_compute; reflexivity |]. vm_compute. reflexivity. Qed.
Example C28_lookup_example : exists env s b, reachable env s /\ find_binding (L "x") s = Some b.
Proof.
  exists (env_of (nth_mod 0) (nth_params 0)). eexists. eexists. split.
  - eapply R_add with (x := L "x") (p := mkPos 1 1) (b := false) (t := ty_number).
    + eapply R_begin; [apply R_start | reflexivity].
    + reflexivity.
  - reflexivity.
Qed.
Print Assumptions C28_no_duplicates.
Print Assumptions C28_lookup_unambiguous.

(** C29: every qualified name is a pub element of the module it is imported
    from; a qualified name in an expression is a pub function or constant. *)
Theorem C29_qualified_names_pub : forall m p cm, translate m p = TrOk cm ->
  (forall x, In x (tp_mods p) -> mod_exports x = get_exports (mod_elements x)) ->
  every_ref (fun _ r => let n := ref_name r in ns_ns n <> [] -> ns_ns n <> L "OS" ->
     exists imp i h x, In imp (mi_imports (tp_mod p)) /\ r_ns imp = ns_ns n
       /\ nth_error (tp_heads p) i = Some h /\ nth_error (tp_mods p) i = Some x
       /\ mi_filepath h = r_path imp
       /\ match r with
          | RName _ => pub_value (mod_elements x) (ns_name n)
          | RType _ => pub_element (mod_elements x) (ns_name n)
          end) [] (in_module (mod_elements m)).
Proof. exact qualified_pub. Qed.
Example C29_example : (exists cm, translate (nth_mod 1) (nth_params 1) = TrOk cm)
  /\ (forall x, In x (tp_mods (nth_params 1)) -> mod_exports x = get_exports (mod_elements x))
  /\ messages (beside "#import lib.c
int main() { return lib.helper(1); }") = [L "lib doesn't have exported helper"].
Proof.
  split; [eexists; vm_compute; reflexivity |]. split; [| vm_compute; reflexivity].
  intros x [<- | [<- | []]]; vm_compute; reflexivity.
Qed.
Print Assumptions C29_qualified_names_pub.

(** C56: every unqualified type name is a C type, a type declared by the module,
    or one announced by the pre-pass over it. *)
Theorem C56_types_known : forall m p cm, translate m p = TrOk cm ->
  every_ref (fun _ r => match r with
    | RName _ => True
    | RType n => ns_ns n = [] ->
        has_type (ns_name n) = true
        \/ (exists s, In (MStruct s) (mod_elements m) /\ st_name s = ns_name n)
        \/ (exists a, In (MStructAlias a) (mod_elements m) /\ sa_typename a = ns_name n)
        \/ (exists t, In (MTypedef t) (mod_elements m) /\ td_alias t = ns_name n)
        \/ In (ns_name n) (mi_typedefs (tp_mod p))
    end) [] (in_module (mod_elements m)).
Proof. exact known_types. Qed.
Example C56_example : (exists cm, translate (nth_mod 0) (nth_params 0) = TrOk cm)
  /\ built (single "foo_t f() { return 1; } int main() { return f(); }") = false.
Proof. split; [eexists; vm_compute; reflexivity |]. vm_compute. reflexivity. Qed.
Print Assumptions C56_types_known.
