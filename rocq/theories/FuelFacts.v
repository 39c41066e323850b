(** More fuel never changes an answer: for the pre-parser and the parser, and
    for loading the import tree. *)
From Verif Require Import Base Buf Lexer Nodes Resolve Cursor Preparser Parser.
Open Scope mon_scope.

(** [m'] answers like [m] wherever [m] does not run out of fuel. *)
Definition stable {A} (m m' : M A) : Prop :=
  forall c, fst (m c) <> NoFuel -> m' c = m c.

Lemma stable_refl : forall A (m : M A), stable m m.
Proof. intros A m c _. reflexivity. Qed.

Lemma stable_nofuel : forall A (m : M A), stable nofuel m.
Proof. intros A m c H. exfalso. apply H. reflexivity. Qed.

Lemma stable_bind : forall A B (m m' : M A) (f f' : A -> M B),
  stable m m' -> (forall a, stable (f a) (f' a)) -> stable (bind m f) (bind m' f').
Proof.
  intros A B m m' f f' Hm Hf c H. unfold bind in *. specialize (Hm c).
  destruct (m c) as [[a | e | s |] c'] eqn:E; cbn in *;
    try (rewrite Hm by discriminate; reflexivity).
  - rewrite Hm by discriminate. apply Hf, H.
  - contradiction.
Qed.

Lemma stable_abort_on_err : forall A w (m m' : M A),
  stable m m' -> stable (abort_on_err w m) (abort_on_err w m').
Proof.
  intros A w m m' Hm c H. unfold abort_on_err in *. specialize (Hm c).
  destruct (m c) as [[a | e | s |] c'] eqn:E; cbn in *;
    try (rewrite Hm by discriminate; reflexivity).
  contradiction.
Qed.

Ltac stable_step :=
  first
    [ apply stable_refl
    | apply stable_nofuel
    | match goal with
      | |- stable (bind _ _) (bind _ _) => apply stable_bind; [| intro]
      | |- stable (abort_on_err _ _) (abort_on_err _ _) => apply stable_abort_on_err
      | |- stable (match ?x with _ => _ end) (match ?x with _ => _ end) => destruct x
      end ].

(** ** The pre-parser *)

Lemma skip_stable : forall f f', f <= f' ->
  stable (skip_brackets f) (skip_brackets f') /\ stable (skip_loop f) (skip_loop f').
Proof.
  induction f as [| f IH]; intros f' L1; [split; apply stable_nofuel |].
  destruct f' as [| f']; [lia |]. destruct (IH f' ltac:(lia)) as [H1 H2].
  split; cbn [skip_brackets skip_loop]; repeat stable_step; assumption.
Qed.

Lemma until_stable : forall f f' acc, f <= f' ->
  stable (until_semicolon f acc) (until_semicolon f' acc).
Proof.
  induction f as [| f IH]; intros f' acc L1; [apply stable_nofuel |].
  destruct f' as [| f']; [lia |]. cbn [until_semicolon].
  repeat stable_step. apply IH. lia.
Qed.

Lemma typename_stable : forall f f', f <= f' -> stable (get_typename f) (get_typename f').
Proof.
  intros f f' L1. unfold get_typename. repeat stable_step.
  - apply skip_stable, L1.
  - apply until_stable, L1.
Qed.

Lemma loop_stable : forall w path f f' imps tns, f <= f' ->
  stable (preparse_loop f w path imps tns) (preparse_loop f' w path imps tns).
Proof.
  induction f as [| f IH]; intros f' imps tns L1; [apply stable_nofuel |].
  destruct f' as [| f']; [lia |]. cbn [preparse_loop].
  repeat stable_step; try (apply IH; lia). apply typename_stable. lia.
Qed.

Lemma preparse_stable : forall (U : Unicode) w path f f',
  f <= f' -> preparse f w path <> NoFuel -> preparse f' w path = preparse f w path.
Proof.
  intros U w path f f' L1 H. unfold preparse in *. destruct (w_read w path) as [text |]; [| reflexivity].
  rewrite (loop_stable w path f f' [] [] L1); [reflexivity |].
  destruct (preparse_loop f w path [] [] (tokenize (buf_new text))) as [[[]| | |] ?]; cbn;
    congruence.
Qed.

(** ** The parser *)

Lemma stars_stable : forall f f' k, f <= f' -> stable (count_stars f k) (count_stars f' k).
Proof.
  induction f as [| f IH]; intros f' k L1; [apply stable_nofuel |].
  destruct f' as [| f']; [lia |]. cbn [count_stars]. repeat stable_step. apply IH. lia.
Qed.

Lemma bare_stable : forall ctx f f', f <= f' ->
  stable (parse_bare_typeform f ctx) (parse_bare_typeform f' ctx).
Proof.
  intros ctx f f' L1. unfold parse_bare_typeform. repeat stable_step. apply stars_stable, L1.
Qed.

Section Ctx.
Context (ctx : parsectx).

Lemma paren_stable : forall f f', stable (parse_expr ctx f 0) (parse_expr ctx f' 0) ->
  stable
    (fun c =>
       match parse_expr ctx f 0 c with
       | (Abort w, c') => (Abort w, c')
       | (NoFuel, c') => (NoFuel, c')
       | (e, c') =>
           match expect ")" (Some "parenthesized expression"%string) c' with
           | (Ok _, c'') => (e, c'')
           | (Err x, c'') => (Err x, c'')
           | (Abort w, c'') => (Abort w, c'')
           | (NoFuel, c'') => (NoFuel, c'')
           end
       end)
    (fun c =>
       match parse_expr ctx f' 0 c with
       | (Abort w, c') => (Abort w, c')
       | (NoFuel, c') => (NoFuel, c')
       | (e, c') =>
           match expect ")" (Some "parenthesized expression"%string) c' with
           | (Ok _, c'') => (e, c'')
           | (Err x, c'') => (Err x, c'')
           | (Abort w, c'') => (Abort w, c'')
           | (NoFuel, c'') => (NoFuel, c'')
           end
       end).
Proof.
  intros f f' Hm c H. specialize (Hm c).
  destruct (parse_expr ctx f 0 c) as [[a | e | s |] c'] eqn:E; cbn in *;
    try (rewrite Hm by discriminate; reflexivity).
  contradiction.
Qed.

Definition expr_stable_at f f' : Prop :=
  (forall s, stable (parse_expr ctx f s) (parse_expr ctx f' s)) /\
  (forall s, stable (parse_seq_expr ctx f s) (parse_seq_expr ctx f' s)) /\
  (forall s r, stable (seq_loop ctx f s r) (seq_loop ctx f' s r)) /\
  stable (parse_prefix_expr ctx f) (parse_prefix_expr ctx f') /\
  stable (base ctx f) (base ctx f') /\
  (forall r, stable (base_loop ctx f r) (base_loop ctx f' r)) /\
  stable (read_expression_atom ctx f) (read_expression_atom ctx f') /\
  stable (parse_composite_literal ctx f) (parse_composite_literal ctx f') /\
  (forall l, stable (complit_loop ctx f l) (complit_loop ctx f' l)) /\
  stable (parse_composite_literal_entry ctx f) (parse_composite_literal_entry ctx f') /\
  stable (parse_sizeof ctx f) (parse_sizeof ctx f') /\
  (forall x, stable (parse_call ctx f x) (parse_call ctx f' x)) /\
  (forall l, stable (call_args ctx f l) (call_args ctx f' l)).

Lemma expr_stable_all : forall f f', f <= f' -> expr_stable_at f f'.
Proof.
  induction f as [| f IH]; intros f' L1.
  { repeat split; intros; apply stable_nofuel. }
  destruct f' as [| f']; [lia |].
  destruct (IH f' ltac:(lia)) as (h1 & h2 & h3 & h4 & h5 & h6 & h7 & h8 & h9 & h10 & h11 & h12 & h13).
  pose proof (bare_stable ctx f f' ltac:(lia)) as hb.
  unfold expr_stable_at.
  repeat match goal with |- _ /\ _ => split end; intros;
    cbn [parse_expr parse_seq_expr seq_loop parse_prefix_expr base base_loop read_expression_atom
         parse_composite_literal complit_loop parse_composite_literal_entry parse_sizeof
         parse_call call_args]; cbv zeta;
    repeat first [ apply h1 | apply h2 | apply h3 | apply h4 | apply h5 | apply h6 | apply h7
                 | apply h8 | apply h9 | apply h10 | apply h11 | apply h12 | apply h13 | apply hb
                 | apply paren_stable | stable_step ].
Qed.

Lemma expr_stable : forall f f' s, f <= f' -> stable (parse_expr ctx f s) (parse_expr ctx f' s).
Proof. intros f f' s L1. apply expr_stable_all, L1. Qed.

Lemma indexes_stable : forall f f' acc, f <= f' ->
  stable (form_indexes ctx f acc) (form_indexes ctx f' acc).
Proof.
  induction f as [| f IH]; intros f' acc L1; [apply stable_nofuel |].
  destruct f' as [| f']; [lia |]. cbn [form_indexes].
  repeat first [ apply expr_stable; lia | apply IH; lia | stable_step ].
Qed.

Lemma form_stable : forall f f', f <= f' -> stable (parse_form ctx f) (parse_form ctx f').
Proof.
  intros f f' L1. unfold parse_form.
  repeat first [ apply stars_stable; lia | apply indexes_stable; lia | stable_step ].
Qed.

Lemma vardecl_stable : forall f f', f <= f' ->
  stable (parse_variable_declaration ctx f) (parse_variable_declaration ctx f').
Proof.
  intros f f' L1. unfold parse_variable_declaration.
  repeat first [ apply form_stable; lia | apply expr_stable; lia | stable_step ].
Qed.

Lemma return_stable : forall f f', f <= f' -> stable (parse_return ctx f) (parse_return ctx f').
Proof.
  intros f f' L1. unfold parse_return. repeat first [ apply expr_stable; lia | stable_step ].
Qed.

Lemma values_stable : forall f f' acc, f <= f' ->
  stable (case_values ctx f acc) (case_values ctx f' acc).
Proof.
  induction f as [| f IH]; intros f' acc L1; [apply stable_nofuel |].
  destruct f' as [| f']; [lia |]. cbn [case_values].
  repeat first [ apply IH; lia | stable_step ].
Qed.

Lemma init_stable : forall f f', f <= f' -> stable (for_init ctx f) (for_init ctx f').
Proof.
  intros f f' L1. unfold for_init.
  repeat first [ apply form_stable; lia | apply expr_stable; lia | stable_step ].
Qed.

Lemma optional_stable : forall f f' k, f <= f' ->
  stable (optional_expr ctx f k) (optional_expr ctx f' k).
Proof.
  intros f f' k L1. unfold optional_expr. repeat first [ apply expr_stable; lia | stable_step ].
Qed.

Lemma skip_statement_stable : forall f f', f <= f' -> stable (skip_statement f) (skip_statement f').
Proof.
  induction f as [| f IH]; intros f' L1; [apply stable_nofuel |].
  destruct f' as [| f']; [lia |]. cbn [skip_statement].
  repeat first [ apply IH; lia | stable_step ].
Qed.

Lemma body_after_stable : forall f f' ss es,
  stable (parse_statement ctx f) (parse_statement ctx f') ->
  stable (skip_statement f) (skip_statement f') ->
  (forall ss es, stable (body_loop ctx f ss es) (body_loop ctx f' ss es)) ->
  stable
    (fun c =>
       match parse_statement ctx f c with
       | (Ok (s, errs), c') => body_loop ctx f (ss ++ [s]) (es ++ errs) c'
       | (Err e, c') => (skip_statement f ;;; body_loop ctx f ss (es ++ [e])) c'
       | (Abort w, c') => (Abort w, c')
       | (NoFuel, c') => (NoFuel, c')
       end)
    (fun c =>
       match parse_statement ctx f' c with
       | (Ok (s, errs), c') => body_loop ctx f' (ss ++ [s]) (es ++ errs) c'
       | (Err e, c') => (skip_statement f' ;;; body_loop ctx f' ss (es ++ [e])) c'
       | (Abort w, c') => (Abort w, c')
       | (NoFuel, c') => (NoFuel, c')
       end).
Proof.
  intros f f' ss es H1 H2 H3 c H. specialize (H1 c).
  destruct (parse_statement ctx f c) as [[[s l] | e | w |] c'] eqn:E; cbn [fst] in *;
    try (rewrite H1 by discriminate; reflexivity).
  - rewrite H1 by discriminate. apply H3, H.
  - rewrite H1 by discriminate. apply stable_bind; [exact H2 | intros _; apply H3 | exact H].
  - contradiction.
Qed.

Definition stmt_stable_at f f' : Prop :=
  stable (parse_statement ctx f) (parse_statement ctx f') /\
  stable (parse_while ctx f) (parse_while ctx f') /\
  stable (parse_if ctx f) (parse_if ctx f') /\
  stable (parse_for ctx f) (parse_for ctx f') /\
  stable (read_switch ctx f) (read_switch ctx f') /\
  (forall cs es, stable (switch_cases ctx f cs es) (switch_cases ctx f' cs es)) /\
  stable (read_switch_case ctx f) (read_switch_case ctx f') /\
  stable (parse_statements_block ctx f) (parse_statements_block ctx f') /\
  stable (read_body ctx f) (read_body ctx f') /\
  (forall ss es, stable (body_loop ctx f ss es) (body_loop ctx f' ss es)).

Lemma stmt_stable_all : forall f f', f <= f' -> stmt_stable_at f f'.
Proof.
  induction f as [| f IH]; intros f' L1.
  { repeat split; intros; apply stable_nofuel. }
  destruct f' as [| f']; [lia |].
  destruct (IH f' ltac:(lia)) as (h1 & h2 & h3 & h4 & h5 & h6 & h7 & h8 & h9 & h10).
  pose proof (fun s => expr_stable f f' s ltac:(lia)) as hb.
  pose proof (vardecl_stable f f' ltac:(lia)) as hv.
  pose proof (return_stable f f' ltac:(lia)) as hr.
  pose proof (values_stable f f' [] ltac:(lia)) as hc.
  pose proof (init_stable f f' ltac:(lia)) as hi.
  pose proof (fun k => optional_stable f f' k ltac:(lia)) as ho.
  pose proof (skip_statement_stable f f' ltac:(lia)) as hs.
  unfold stmt_stable_at.
  repeat match goal with |- _ /\ _ => split end; intros;
    cbn [parse_statement parse_while parse_if parse_for read_switch switch_cases read_switch_case
         parse_statements_block read_body body_loop]; cbv zeta;
    repeat first [ apply h1 | apply h2 | apply h3 | apply h4 | apply h5 | apply h6 | apply h7
                 | apply h8 | apply h9 | apply h10 | apply hb | apply hv | apply hr | apply hc
                 | apply hi | apply ho | apply hs | stable_step ].
  apply body_after_stable; assumption.
Qed.

Lemma param_forms_stable : forall f f' l, f <= f' ->
  stable (param_forms ctx f l) (param_forms ctx f' l).
Proof.
  induction f as [| f IH]; intros f' l L1; [apply stable_nofuel |].
  destruct f' as [| f']; [lia |]. cbn [param_forms].
  repeat first [ apply form_stable; lia | apply IH; lia | stable_step ].
Qed.

Lemma params_stable : forall f f' l, f <= f' ->
  stable (params_loop ctx f l) (params_loop ctx f' l).
Proof.
  induction f as [| f IH]; intros f' l L1; [apply stable_nofuel |].
  destruct f' as [| f']; [lia |]. cbn [params_loop]. unfold parse_function_parameter.
  repeat first [ apply form_stable; lia | apply param_forms_stable; lia | apply IH; lia
               | stable_step ].
Qed.

Lemma enum_loop_stable : forall f f' l, f <= f' ->
  stable (enum_loop ctx f l) (enum_loop ctx f' l).
Proof.
  induction f as [| f IH]; intros f' l L1; [apply stable_nofuel |].
  destruct f' as [| f']; [lia |]. cbn [enum_loop]. cbv zeta.
  repeat first [ apply expr_stable; lia | apply IH; lia | stable_step ].
Qed.

Lemma field_forms_stable : forall f f' l, f <= f' ->
  stable (field_forms ctx f l) (field_forms ctx f' l).
Proof.
  induction f as [| f IH]; intros f' l L1; [apply stable_nofuel |].
  destruct f' as [| f']; [lia |]. cbn [field_forms].
  repeat first [ apply form_stable; lia | apply IH; lia | stable_step ].
Qed.

Lemma union_fields_stable : forall f f' l, f <= f' ->
  stable (union_fields ctx f l) (union_fields ctx f' l).
Proof.
  induction f as [| f IH]; intros f' l L1; [apply stable_nofuel |].
  destruct f' as [| f']; [lia |]. cbn [union_fields].
  repeat first [ apply form_stable; lia | apply IH; lia | stable_step ].
Qed.

Lemma struct_entries_stable : forall f f' l, f <= f' ->
  stable (struct_entries ctx f l) (struct_entries ctx f' l).
Proof.
  induction f as [| f IH]; intros f' l L1; [apply stable_nofuel |].
  destruct f' as [| f']; [lia |]. cbn [struct_entries]. unfold parse_union, parse_type_and_forms.
  repeat first [ apply form_stable; lia | apply union_fields_stable; lia
               | apply field_forms_stable; lia | apply IH; lia | stable_step ].
Qed.

Lemma anon_stable : forall f f' l, f <= f' ->
  stable (anon_loop ctx f l) (anon_loop ctx f' l).
Proof.
  induction f as [| f IH]; intros f' l L1; [apply stable_nofuel |].
  destruct f' as [| f']; [lia |]. cbn [anon_loop].
  repeat first [ apply bare_stable; lia | apply IH; lia | stable_step ].
Qed.

Lemma object_stable : forall f f', f <= f' ->
  stable (parse_module_object ctx f) (parse_module_object ctx f').
Proof.
  intros f f' L1.
  pose proof (stmt_stable_all f f' L1) as (_ & _ & _ & _ & _ & _ & _ & hb & _).
  unfold parse_module_object, parse_enum, parse_typedef, parse_anonymous_parameters,
    parse_function_declaration.
  repeat first [ apply form_stable; lia | apply enum_loop_stable; lia | apply struct_entries_stable; lia
               | apply stars_stable; lia | apply anon_stable; lia | apply bare_stable; lia
               | apply params_stable; lia | apply expr_stable; lia | exact hb | stable_step ].
Qed.

End Ctx.

Lemma module_loop_stable : forall ctx f f' objs errs, f <= f' ->
  stable (module_loop f ctx objs errs) (module_loop f' ctx objs errs).
Proof.
  induction f as [| f IH]; intros f' objs errs L1; [apply stable_nofuel |].
  destruct f' as [| f']; [lia |]. cbn [module_loop].
  repeat first [ apply IH; lia | stable_step ].
  - intros c H. destruct (parse_compat_macro c) as [[x | e | w |] c']; try reflexivity.
    apply IH; [lia | exact H].
  - intros c H. pose proof (object_stable ctx f f' ltac:(lia) c) as H1.
    destruct (parse_module_object ctx f c) as [[[s l] | e | w |] c'] eqn:E; cbn [fst] in *;
      try (rewrite H1 by discriminate; reflexivity).
    + rewrite H1 by discriminate. apply IH; [lia | exact H].
    + contradiction.
Qed.

Lemma parse_module_stable : forall ctx c f f',
  f <= f' -> parse_module f ctx c <> PNoFuel -> parse_module f' ctx c = parse_module f ctx c.
Proof.
  intros ctx c f f' L1 H. unfold parse_module in *.
  rewrite (module_loop_stable ctx f f' [] [] L1); [reflexivity |].
  destruct (module_loop f ctx [] [] c) as [[[? []] | | |] ?]; cbn; congruence.
Qed.
