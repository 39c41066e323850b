(** Properties of typing and acceptance (C18-C24, C57).
    Specification: SpecTypes.v, SpecTyping.v, SpecAccept.v. *)
From Verif Require Import Base Buf Lexer Nodes Types Cspec Resolve Cursor Preparser Parser CAst Translator
  Build SpecScope SpecDecl SpecTypes TypeFacts SpecTarget TargetFacts SpecTyping SpecAccept AcceptFacts
  TypeProps Samples.

Definition t_of (x : string) : ty := plain [] (lit x) [].
Definition no_func : funcdecl :=
  mkFunc (mkPos 0 0) false (mkTn false (mkNs (mkPos 0 0) [] [])) (mkForm (mkPos 0 0) [] 0 []) (mkFp [] false) [].
Definition ptr_to (x : string) : ty := plain [] (lit x) [TDeref].

(** C18: for every pair of types each rule gives a type or a message. *)
Theorem C18_rules_total : forall op a b,
  typeof_arith a b <> TPanic /\ typeof_plusminus op a b <> TPanic /\ typeof_cmp a b <> TPanic
  /\ typeof_boolcomp a b <> TPanic /\ typeof_deref a <> TPanic /\ typeof_index a b <> TPanic.
Proof. exact rules_total. Qed.
Example C18_example : typeof_arith (t_of "int") (t_of "double") = TOk (t_of "double")
  /\ exists msg, typeof_arith (ptr_to "int") (t_of "bool") = TErr msg.
Proof. split; [vm_compute; reflexivity |]. eexists. vm_compute. reflexivity. Qed.
Print Assumptions C18_rules_total.

(** C19: which types may be compared, in either order. *)
Theorem C19_comparable : forall a b, accepted (typeof_cmp a b) <-> comparable a b.
Proof. exact cmp_accepts. Qed.
Theorem C19_symmetric : forall a b, accepted (typeof_cmp a b) <-> accepted (typeof_cmp b a).
Proof. exact cmp_symmetric. Qed.
(** In a program: exchanging the operands keeps the expression acceptable. *)
Theorem C19_operands_exchange : forall m p s q q' op a b, symmetric_op op ->
  accepted_at m p s (EBinary q op a b) -> accepted_at m p s (EBinary q' op b a).
Proof. exact swap_at. Qed.
(** The result is bool, except that for two bools it is a misspelt type. *)
Theorem C19_yields_bool_partial : forall a b t, typeof_cmp a b = TOk t -> ~ both boolean a b -> boolean t.
Proof. exact cmp_yields_bool. Qed.
Theorem C19_yields_bool_refuted : exists a b t, typeof_cmp a b = TOk t /\ ~ boolean t.
Proof.
  exists (t_of "bool"), (t_of "bool"). eexists. split; [vm_compute; reflexivity |].
  intros (_ & _ & H). vm_compute in H. discriminate.
Qed.
Example C19_example : accepted (typeof_cmp (t_of "int") (t_of "int64_t"))
  /\ ~ accepted (typeof_cmp (t_of "int") (t_of "size_t"))
  /\ built (single "int main() { bool a = true; while (a) { a = false; } return 1; }") = true
  /\ List.length (messages (single "int main() { bool a = true; while (a == a) { a = false; } return 1; }")) = 1.
Proof.
  split; [eexists; vm_compute; reflexivity |]. split; [intros (t & H); vm_compute in H; discriminate |].
  split; vm_compute; reflexivity.
Qed.
Print Assumptions C19_comparable.
Print Assumptions C19_symmetric.
Print Assumptions C19_operands_exchange.
Print Assumptions C19_yields_bool_partial.
Print Assumptions C19_yields_bool_refuted.

(** C20: what arithmetic works on, in either order, and what it gives. *)
Theorem C20_arithmetic : forall a b, accepted (typeof_arith a b) <-> arithmetic a b.
Proof. exact arith_accepts. Qed.
Theorem C20_additive : forall op a b, accepted (typeof_plusminus op a b) <-> additive op a b.
Proof. exact plusminus_accepts. Qed.
Theorem C20_symmetric : forall op a b,
  (accepted (typeof_arith a b) <-> accepted (typeof_arith b a))
  /\ (accepted (typeof_plusminus op a b) <-> accepted (typeof_plusminus op b a)).
Proof. intros. split; [apply arith_symmetric | apply plusminus_symmetric]. Qed.
Theorem C20_arith_result : forall a b t, typeof_arith a b = TOk t ->
  t = a \/ t = b \/ (t = t_of "int" /\ either_way character constant a b).
Proof. exact arith_result. Qed.
(** The difference of two pointers is a ptrdiff_t. *)
Theorem C20_plusminus_result : forall op a b t, typeof_plusminus op a b = TOk t ->
  t = a \/ t = b \/ (t = t_of "ptrdiff_t" /\ op = "-"%string /\ both pointer a b).
Proof. exact plusminus_result. Qed.
Example C20_example : typeof_plusminus "+" (ptr_to "char") (t_of "int") = TOk (ptr_to "char")
  /\ typeof_plusminus "-" (ptr_to "char") (ptr_to "char") = TOk (t_of "ptrdiff_t")
  /\ typeof_arith (t_of "int8_t") (t_of "int64_t") = TOk (t_of "int64_t")
  /\ ~ accepted (typeof_plusminus "+" (t_of "int") (t_of "size_t")).
Proof. repeat split; try (vm_compute; reflexivity). intros (t & H). vm_compute in H. discriminate. Qed.
Print Assumptions C20_arithmetic.
Print Assumptions C20_additive.
Print Assumptions C20_symmetric.
Print Assumptions C20_arith_result.
Print Assumptions C20_plusminus_result.

(** C21: with an operand of unknown type every operation is accepted whatever
    the other operand is (for [&&] and [||] provided the other one is in order). *)
Theorem C21_unknown_operands : forall op u t, unknown u ->
  accepted (typeof_arith u t) /\ accepted (typeof_arith t u)
  /\ accepted (typeof_plusminus op u t) /\ accepted (typeof_plusminus op t u)
  /\ accepted (typeof_cmp u t) /\ accepted (typeof_cmp t u)
  /\ accepted (typeof_index u t) /\ accepted (typeof_deref u)
  /\ (accepted (typeof_boolcomp u t) <-> booly t) /\ (accepted (typeof_boolcomp t u) <-> booly t).
Proof. exact unknown_operands. Qed.
(** In a program, for operands, indexed, dereferenced, accessed and called
    expressions; no source can name a typedef as the first condition excludes. *)
Theorem C21_unknown_expressions : forall m p s u x tu tx,
  typedef_named (mod_elements m) (L "*** TODO *** ") = None ->
  has_type_at m p s u tu -> unknown tu -> has_type_at m p s x tx ->
  (forall q op, value_op op -> accepted_at m p s (EBinary q op u x) /\ accepted_at m p s (EBinary q op x u))
  /\ (forall q op, In op ["&&"; "||"]%string -> booly tx ->
        accepted_at m p s (EBinary q op u x) /\ accepted_at m p s (EBinary q op x u))
  /\ accepted_at m p s (EArrIndex u x)
  /\ (forall q, accepted_at m p s (EPrefix q "*" u))
  /\ (forall q op f, accepted_at m p s (EField q op u f))
  /\ (forall q args, Forall (accepted_at m p s) args -> is_name u "calloc!" = false ->
        accepted_at m p s (ECall q u args)).
Proof. exact unknown_at. Qed.
Example C21_example :
  let os := EName (mkNs (mkPos 1 1) (L "OS") (L "stat")) in
  typedef_named (mod_elements (nth_mod 1)) (L "*** TODO *** ") = None
  /\ (exists t, has_type_at (nth_mod 1) (nth_params 1) st0 os t /\ unknown t)
  /\ has_type_at (nth_mod 1) (nth_params 1) st0 (ELit (LString (L "x"))) (ptr_to "char").
Proof.
  split; [vm_compute; reflexivity |]. split.
  - eexists. split; [eexists; eexists; vm_compute; reflexivity |]. repeat split.
  - eexists; eexists; vm_compute; reflexivity.
Qed.
Print Assumptions C21_unknown_operands.
Print Assumptions C21_unknown_expressions.

(** C22: [*&x] has the type of [x] exactly if that type is made of pointers
    only: for arrays and functions it is rejected or wrong. *)
Theorem C22_deref_address_partial : forall t,
  (exists t', typeof_deref (typeof_addr t) = TOk t' /\ same_type t' t) <-> Forall (eq TDeref) (ty_ops t).
Proof. exact deref_addr. Qed.
Theorem C22_deref_address_refuted : exists t, forall t',
  typeof_deref (typeof_addr t) = TOk t' -> ~ same_type t' t.
Proof. exists (plain [] (L "int") [TIndex]). intros t' H. vm_compute in H. discriminate. Qed.
Example C22_example : typeof_deref (typeof_addr (ptr_to "char")) = TOk (ptr_to "char")
  /\ built (single "int main() { int x = 1; return *&x; }") = true
  /\ List.length (messages (single "int main() { int x[3] = {}; return (*&x)[0]; }")) = 1.
Proof. repeat split; vm_compute; reflexivity. Qed.
Print Assumptions C22_deref_address_partial.
Print Assumptions C22_deref_address_refuted.

(** C23: a call of a function with a known declaration (of this module, or an
    imported one) is accepted iff its arguments are and their number is right;
    its type is the declared one. *)
Theorem C23_call_arity : forall m p s q n args fd t,
  has_type_at m p s (EName n) (function_type fd) -> is_name (EName n) "calloc!" = false ->
  (forall x, In x (fp_list (fd_params fd)) -> base_fmt (tn_name (taf_type x)) <> L "...") ->
  has_type_at m p s (ECall q (EName n) args) t <->
    Forall (accepted_at m p s) args /\ right_count fd (List.length args)
    /\ t = declared_type (fd_type fd) (fd_form fd).
Proof. exact call_arity_at. Qed.
Example C23_example :
  (exists fd, has_type_at (nth_mod 1) (nth_params 1) st0 (EName (mkNs (mkPos 1 1) (L "lib") (L "add"))) (function_type fd)
     /\ param_count fd = 2
     /\ forall x, In x (fp_list (fd_params fd)) -> base_fmt (tn_name (taf_type x)) <> L "...")
  /\ built (single "int f(int a, b) { return a + b; } int main() { return f(1, 2); }") = true
  /\ List.length (messages (single "int f(int a, b) { return a + b; } int main() { return f(1); }")) = 1
  /\ built (single "int f(int a, ...) { return a; } int main() { return f(1, 2, 3); }") = true
  /\ List.length (messages (single "int f(int a, ...) { return a; } int main() { return f(); }")) = 1.
Proof.
  split; [| repeat split; vm_compute; reflexivity].
  exists (nth 0 (ex_fns (mod_exports (nth_mod 0))) no_func).
  split; [eexists; eexists; vm_compute; reflexivity |]. split; [vm_compute; reflexivity |].
  intros x I. vm_compute in I. destruct I as [<- | []]. vm_compute. discriminate.
Qed.
Print Assumptions C23_call_arity.

(** C24: the condition of every loop of an accepted module has a pointer,
    integer, bool or unknown type. *)
Theorem C24_loop_conditions : forall m p cm f G st c, translate m p = TrOk cm ->
  stmt_of is_numeric (mod_elements m) f G st -> loop_condition st c ->
  exists t, typed (site_of m p) (loop_scope st G) c t /\ booly t.
Proof. exact loop_cond_booly. Qed.
Example C24_example :
  (exists cm f G st c, translate (nth_mod 1) (nth_params 1) = TrOk cm
    /\ stmt_of is_numeric (mod_elements (nth_mod 1)) f G st /\ loop_condition st c)
  /\ List.length (messages (single "int main() { double x = 1; while (x) { x = 0; } return 1; }")) = 1
  /\ built (single "int main() { double x = 1; while (x == x) { x = 0; } return 1; }") = true.
Proof.
  split; [| split; vm_compute; reflexivity].
  eexists. eexists. eexists. eexists. eexists. split; [vm_compute; reflexivity |]. split.
  - split; [vm_compute; right; right; right; left; reflexivity |].
    apply Occ_after. apply Occ_after. apply Occ_here.
  - left. eexists. reflexivity.
Qed.
Print Assumptions C24_loop_conditions.

(** C57: a module is translated iff its names and types are right, no scope
    declares a name twice, no private name and no import is unused, and the
    imported modules have been translated. *)
Theorem C57_accepted_iff : forall m p, (exists cm, translate m p = TrOk cm) <->
  in_order (site_of m p) is_numeric (tp_heads p) (List.length (tp_cmods p)).
Proof. exact accepted_iff. Qed.
Example C57_example :
  in_order (site_of (nth_mod 1) (nth_params 1)) is_numeric (tp_heads (nth_params 1)) (List.length (tp_cmods (nth_params 1))).
Proof. apply accepted_iff. eexists. vm_compute. reflexivity. Qed.
Print Assumptions C57_accepted_iff.
