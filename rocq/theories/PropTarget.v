(** Properties of the generated C file (C17, C32-C34, C37, C40, C42).
    Specification: SpecTarget.v, SpecModule.v, SpecAccept.v. *)
From Verif Require Import Base Buf Lexer Nodes Types Cspec Resolve Cursor Preparser Parser CAst FormatC Translator
  Build SpecDecl SpecTarget SpecAccept SpecModule TargetFacts TargetProps GroupFacts Samples.

(** C17: a module in which every list of parameter or field names is written
    out is translated to the very same result, error or abort, also when the
    modules it imports are written out. *)
Theorem C17_lists_abbreviate : forall m p,
  translate (ungroup_module m)
            (mkParams (tp_mod p) (tp_heads p) (tp_cmods p) (map ungroup_module (tp_mods p)))
  = translate m p.
Proof. exact ungroup_translate. Qed.
(** The exports computed for a written out module are its exports written out. *)
Theorem C17_exports : forall l,
  get_exports (map ungroup_elem l) = mod_exports (ungroup_module (mkModule l (get_exports l))).
Proof. exact ungroup_exports. Qed.
Example C17_example : ungroup_module (nth_mod 0) <> nth_mod 0 /\ ok (translate (nth_mod 0) (nth_params 0)) = true
  /\ nth_mod 0 = mkModule (mod_elements (nth_mod 0)) (get_exports (mod_elements (nth_mod 0))).
Proof. split; [vm_compute; discriminate |]. split; vm_compute; reflexivity. Qed.
Print Assumptions C17_lists_abbreviate.
Print Assumptions C17_exports.

(** C32: the text of every function starts with static iff it is private and
    not main; main keeps its name and no other function gets it. *)
Theorem C32_linkage : forall m p cm f, translate m p = TrOk cm -> In (MFunc f) (mod_elements m) ->
  let c := c_function (site_of m p) is_numeric f in
  In (XFunc c) (cm_elements cm)
  /\ (cf_name (cfd_form c) = L "main" <-> named_main f)
  /\ exists static, linkage f static
     /\ format_elem (XFunc c) = static ++ format_type (cfd_type c) ++ L " " ++ format_form (cfd_form c)
          ++ L " " ++ fmt_func_params (cfd_params c) ++ L " " ++ format_body (cfd_body c)
     /\ format_elem (XForwardFunc (prototype_of c))
        = static ++ format_type (cfd_type c) ++ L " " ++ format_form (cfd_form c)
          ++ L " " ++ fmt_func_params (cfd_params c) ++ L ";" ++ newline.
Proof. exact function_text. Qed.
(** Variables are always static. *)
Theorem C32_variables : forall v, exists rest, format_elem (XVar v) = L "static " ++ rest.
Proof. intros v. eexists. reflexivity. Qed.
Example C32_example : (exists f, In (MFunc f) (mod_elements (nth_mod 1)) /\ plain_main f)
  /\ (exists f, In (MFunc f) (mod_elements (nth_mod 1)) /\ ~ plain_main f /\ fd_pub f = false)
  /\ ok (translate (nth_mod 1) (nth_params 1)) = true.
Proof.
  split; [| split].
  - eexists. split; [vm_compute; right; right; right; left; reflexivity |]. repeat split; reflexivity.
  - eexists. split; [vm_compute; right; right; left; reflexivity |]. split; [intros [H _]; vm_compute in H; discriminate | reflexivity].
  - vm_compute. reflexivity.
Qed.
Print Assumptions C32_linkage.
Print Assumptions C32_variables.

(** C33: the elements of the file stand in the order of their groups; *)
Theorem C33_groups_in_order : forall m p cm x y, translate m p = TrOk cm ->
  before x y (cm_elements cm) -> group x <= group y.
Proof. intros m p cm x y H. exact (proj1 (module_layout m p cm H) x y). Qed.
(** every function other than main has a prototype, before every body; *)
Theorem C33_prototypes_first : forall m p cm f, translate m p = TrOk cm ->
  In f (source_functions (mod_elements m)) -> ~ named_main f ->
  let proto := XForwardFunc (prototype_of (c_function (site_of m p) is_numeric f)) in
  In proto (cm_elements cm)
  /\ forall g, In (XFunc g) (cm_elements cm) -> before proto (XFunc g) (cm_elements cm).
Proof. exact module_prototypes. Qed.
(** within a group the source order is kept, nothing is lost, and only a
    repeated typedef or struct is left out. *)
Theorem C33_order_kept : forall m p cm, translate m p = TrOk cm -> exists pre,
  (forall g, thinned type_definition
               (filter (fun e => Nat.eqb (group e) g) (pre ++ c_elems (site_of m p) is_numeric))
               (filter (fun e => Nat.eqb (group e) g) (cm_elements cm)))
  /\ (forall x, In x (pre ++ c_elems (site_of m p) is_numeric) ->
        exists y, In y (cm_elements cm) /\ format_elem y = format_elem x).
Proof. intros m p cm H. exact (proj2 (module_layout m p cm H)). Qed.
Example C33_example :
  exists cm f, translate (nth_mod 1) (nth_params 1) = TrOk cm
  /\ In f (source_functions (mod_elements (nth_mod 1))) /\ ~ named_main f /\ List.length (cm_elements cm) = 30.
Proof.
  eexists. eexists. split; [vm_compute; reflexivity |]. split; [vm_compute; left; reflexivity |].
  split; [intros H; vm_compute in H; discriminate | vm_compute; reflexivity].
Qed.
Print Assumptions C33_groups_in_order.
Print Assumptions C33_prototypes_first.
Print Assumptions C33_order_kept.

(** C34: the functions of the file are those of the source in their order, after
    the calloc! helper if and only if the module calls calloc!. *)
Theorem C34_calloc_helper : forall m p cm, translate m p = TrOk cm ->
  (calls_calloc (mod_elements m)
   /\ exists helper, format_elem (XFunc helper) = helper_text
      /\ functions (cm_elements cm)
         = helper :: map (c_function (site_of m p) is_numeric) (source_functions (mod_elements m)))
  \/ (~ calls_calloc (mod_elements m)
      /\ functions (cm_elements cm)
         = map (c_function (site_of m p) is_numeric) (source_functions (mod_elements m))).
Proof.
  intros m p cm H. destruct (module_functions m p cm H) as [[A B] | A]; [left | right; exact A].
  split; [exact A |]. exists helper. split; [exact helper_is | exact B].
Qed.
Example C34_example :
  (exists cm, translate (nth_mod 1) (nth_params 1) = TrOk cm /\ List.length (functions (cm_elements cm)) = 3)
  /\ (exists cm, translate (nth_mod 0) (nth_params 0) = TrOk cm /\ List.length (functions (cm_elements cm)) = 2)
  /\ List.length (source_functions (mod_elements (nth_mod 0))) = 2
  /\ List.length (source_functions (mod_elements (nth_mod 1))) = 2.
Proof.
  split; [eexists; split; vm_compute; reflexivity |].
  split; [eexists; split; vm_compute; reflexivity |]. split; vm_compute; reflexivity.
Qed.
Print Assumptions C34_calloc_helper.

(** C37: every panic statement becomes a block that prints its place, the
    message and a newline to stderr and exits with status 1. *)
Theorem C37_panic : forall m p cm f G q n args, translate m p = TrOk cm ->
  stmt_of is_numeric (mod_elements m) f G (SExpr (ECall q (EName n) args)) -> is_name (EName n) "panic" = true ->
  In (XFunc (c_function (site_of m p) is_numeric f)) (cm_elements cm)
  /\ c_occurs (c_panic (site_of m p) (ns_pos n) (map (c_expr (site_of m p) G) args))
              (cfd_body (c_function (site_of m p) is_numeric f)).
Proof. exact panic_in. Qed.
Example C37_example : exists cm f G q n args, translate (nth_mod 1) (nth_params 1) = TrOk cm
  /\ stmt_of is_numeric (mod_elements (nth_mod 1)) f G (SExpr (ECall q (EName n) args))
  /\ is_name (EName n) "panic" = true /\ List.length args = 2
  /\ place (site_of (nth_mod 1) (nth_params 1)) (ns_pos n) = L "p/main.c:14:24".
Proof.
  eexists. eexists. eexists. eexists. eexists. eexists. split; [vm_compute; reflexivity |]. split.
  - split; [vm_compute; right; right; right; left; reflexivity |].
    do 3 apply Occ_after. eapply Occ_case; [left; reflexivity |]. apply Occ_here.
  - repeat split; vm_compute; reflexivity.
Qed.
Print Assumptions C37_panic.

(** C40: an expression becomes the same tree over C names, whatever the
    declarations in force. *)
Theorem C40_expressions : forall m p s s' e t c G,
  tr_expr (env_of m p) e s = TrOk ((t, c), s') -> in_force s G -> c = c_expr (site_of m p) G e.
Proof. exact expr_preserved. Qed.
Example C40_example : exists t c s',
  tr_expr (env_of (nth_mod 1) (nth_params 1))
    (EBinary (mkPos 1 1) "+" (ECall (mkPos 1 1) (EName (mkNs (mkPos 1 1) (L "lib") (L "add"))) [ELit (LNumber (L "1")); ELit (LNumber (L "2"))])
             (EName (mkNs (mkPos 1 2) (L "lib") (L "RED")))) st0 = TrOk ((t, c), s')
  /\ in_force st0 []
  /\ fmt_expr c = L "mod0_lib__add(1, 2) + mod0_lib__RED".
Proof.
  eexists. eexists. eexists. split; [vm_compute; reflexivity |]. split; [intros x; reflexivity | vm_compute; reflexivity].
Qed.
Print Assumptions C40_expressions.

(** C42: the body of every function is translated statement by statement: each
    statement, at whatever depth, is there with the translation of its parts. *)
Theorem C42_statements : forall m p cm f G st, translate m p = TrOk cm ->
  stmt_of is_numeric (mod_elements m) f G st ->
  In (XFunc (c_function (site_of m p) is_numeric f)) (cm_elements cm)
  /\ c_occurs (c_stmt (site_of m p) G st) (cfd_body (c_function (site_of m p) is_numeric f)).
Proof. exact statement_in. Qed.
(** The body as a whole. *)
Theorem C42_bodies : forall m p cm f, translate m p = TrOk cm -> In (MFunc f) (mod_elements m) ->
  exists fd, In (XFunc fd) (cm_elements cm)
    /\ cfd_body fd = c_stmts (site_of m p) (inside is_numeric (mod_elements m) f) (fd_body f).
Proof.
  intros m p cm f H I. exists (c_function (site_of m p) is_numeric f).
  split; [exact (function_in m p cm f H I) | reflexivity].
Qed.
Example C42_example : exists cm f G st, translate (nth_mod 1) (nth_params 1) = TrOk cm
  /\ stmt_of is_numeric (mod_elements (nth_mod 1)) f G (SReturn (Some st)).
Proof.
  eexists. eexists. eexists. eexists. split; [vm_compute; reflexivity |].
  split; [vm_compute; right; right; right; left; reflexivity |].
  do 6 apply Occ_after. apply Occ_then. apply Occ_here.
Qed.
Print Assumptions C42_statements.
Print Assumptions C42_bodies.
