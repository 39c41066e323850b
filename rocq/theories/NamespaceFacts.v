(** Every namespace in a parsed module is OS or that of an import. *)
From Verif Require Import Base Buf Lexer Nodes Cursor Resolve Cspec Preparser Parser BaseFacts SpecScope SpecGrammar.

Section Ns.
Variable ctx : parsectx.
Definition known (r : ref) : Prop := ns_ns (ref_name r) = [] \/ namespace ctx (ns_ns (ref_name r)).
Definition fine (l : list item) : Prop := forall vis, every_ref (fun _ r => known r) vis l.

Lemma fine_nil : fine [].
Proof. intros vis. constructor. Qed.
Lemma fine_app a b : fine a -> fine b -> fine (a ++ b).
Proof.
  intros Ha Hb vis. specialize (Ha vis). induction Ha; cbn [app]; try (constructor; auto). apply Hb.
Qed.
Lemma fine_ref r l : known r -> fine l -> fine (Ref r :: l).
Proof. intros Hr Hl vis. constructor; auto. Qed.
Lemma fine_declare x b l : fine l -> fine (Declare x b :: l).
Proof. intros Hl vis. constructor; auto. Qed.
Lemma fine_scope a l : fine a -> fine l -> fine (Scope a :: l).
Proof. intros Ha Hl vis. constructor; auto. Qed.
Lemma fine_one a : fine a -> fine [Scope a].
Proof. intros H. apply fine_scope; [exact H|apply fine_nil]. Qed.
Lemma fine_refs l : Forall known l -> fine (refs l).
Proof. intros H. induction H; cbn; [apply fine_nil|]. now apply fine_ref. Qed.
Lemma fine_flat A (f : A -> list item) l : Forall (fun a => fine (f a)) l -> fine (flat_map f l).
Proof. intros H. induction H; cbn; [apply fine_nil|]. now apply fine_app. Qed.
Lemma Forall_flat A (f : A -> list ref) l : Forall (fun a => Forall known (f a)) l -> Forall known (flat_map f l).
Proof. intros H. induction H; cbn; [constructor|]. apply Forall_app. auto. Qed.

Lemma name_known ts n : name_of ctx ts n -> known (RName n) /\ known (RType n).
Proof. intros [w Hw|w d x Hw Hn Hd Hx]; split; red; cbn; auto. Qed.
Lemma typename_known ts t : typename_of ctx ts t -> known (type_ref t).
Proof. intros [ts' n H|c ts' n _ H]; apply (name_known _ _ H). Qed.
Lemma typeform_known ts t : typeform_of ctx ts t -> known (type_ref (btf_type t)).
Proof. intros [ts' t' ss n H _]. eapply typename_known; eauto. Qed.
Lemma expr_known : forall n ts e, expr_of ctx n ts e -> Forall known (expr_refs e).
Proof.
  apply (expr_ind_m ctx (fun n ts e _ => Forall known (expr_refs e)) (fun ts l _ => Forall known (flat_map expr_refs l))
    (fun ts l _ => Forall known (flat_map expr_refs l))
    (fun ts l _ => Forall known (flat_map (fun e => expr_refs (snd e)) l)) (fun ts x _ => Forall known (expr_refs (snd x))));
    intros; cbn [expr_refs flat_map snd app]; rewrite ?app_nil_r; auto;
    repeat match goal with |- Forall known (_ ++ _) => apply Forall_app; split; auto end;
    try (constructor; [|constructor]); try (eapply typeform_known; eauto; fail); try (apply (name_known _ _ n0); fail).
  - destruct (calloc_name (t_pos lp) f) as [r|] eqn:E; auto. constructor; [|constructor].
    unfold calloc_name in E. destruct f; try discriminate E. match type of E with (if ?b then _ else _) = _ => destruct b end; [|discriminate E].
    injection E as <-. left. reflexivity.
Qed.
Lemma expr_fine ts e : expr_of ctx 0 ts e -> fine (in_expr e).
Proof. intros H. eapply fine_refs, expr_known; eauto. Qed.
Lemma opt_fine ts o : opt_expr_of ctx ts o -> fine (in_opt o).
Proof. intros []; [apply fine_nil|eapply expr_fine; eauto]. Qed.
Lemma init_fine ts o : init_of ctx ts o -> fine (in_opt o).
Proof. intros []; [apply fine_nil|eapply expr_fine; eauto]. Qed.
Lemma many_all A (P : list token -> A -> Prop) (Q : A -> Prop) ts l : (forall ts a, P ts a -> Q a) -> many P ts l -> Forall Q l.
Proof. intros HP H. induction H; constructor; eauto. Qed.
Lemma commas_all A (P : list token -> A -> Prop) (Q : A -> Prop) ts l : (forall ts a, P ts a -> Q a) -> commas P ts l -> Forall Q l.
Proof. intros HP H. induction H; constructor; eauto. Qed.
Lemma form_fine ts f : form_of ctx ts f -> fine (in_form f).
Proof.
  intros [first ss n x ixs l rest _ _ _ Hi _]. unfold in_form. cbn [f_indexes]. apply fine_refs, Forall_flat.
  eapply many_all; [|exact Hi]. intros tz o []; cbn; [constructor|]. eapply expr_known; eauto.
Qed.
Lemma type_fine ts t : typename_of ctx ts t -> fine (in_type t).
Proof. intros H. apply fine_ref; [eapply typename_known; eauto|apply fine_nil]. Qed.
Lemma forinit_fine ts i : forinit_of ctx ts i -> fine (option_list in_forinit i).
Proof.
  intros [|tz e _ H|ts1 t ts2 f q ts3 e _ H1 H2 _ H3]; cbn; [apply fine_nil|eapply expr_fine; eauto|].
  apply fine_declare, fine_ref; [eapply typename_known; eauto|]. apply fine_app; [eapply form_fine; eauto|eapply expr_fine; eauto].
Qed.
Lemma value_fine ts v : value_of ctx ts v -> Forall known (case_ref v).
Proof. intros [tz n H|t l H]; cbn; constructor; [apply (name_known _ _ H)|constructor]. Qed.

Lemma stmt_expr_fine ts e : expr_of ctx 0 ts e -> fine (in_stmt (SExpr e)).
Proof.
  intros H. pose proof (expr_known _ _ _ H) as K. destruct e; try (eapply expr_fine; eauto; fail). cbn [in_stmt].
  destruct (is_panic e); [|eapply expr_fine; eauto]. apply fine_refs. cbn [expr_refs] in K. apply Forall_app in K. tauto.
Qed.
Lemma stmts_fine :
  (forall ts s o, stmt_of ctx ts s o -> fine (in_stmt s)) /\
  (forall ts b o, block_of ctx ts b o -> fine (flat_map in_stmt b)) /\
  (forall ts b, body_of ctx ts b -> fine (flat_map in_stmt b)) /\
  (forall ts l, stmts_of ctx ts l -> fine (flat_map in_stmt l)) /\
  (forall ts l, cases_of ctx ts l -> fine (flat_map (fun c => refs (flat_map case_ref (fst c)) ++ [Scope (flat_map in_stmt (snd c))]) l)) /\
  (forall ts d, default_of ctx ts d -> fine (option_list (fun b => [Scope (flat_map in_stmt b)]) d)).
Proof.
  apply (stmt_mutual ctx (fun ts s o _ => fine (in_stmt s)) (fun ts b o _ => fine (flat_map in_stmt b))
   (fun ts b _ => fine (flat_map in_stmt b)) (fun ts l _ => fine (flat_map in_stmt l))
   (fun ts l _ => fine (flat_map (fun c => refs (flat_map case_ref (fst c)) ++ [Scope (flat_map in_stmt (snd c))]) l))
   (fun ts d _ => fine (option_list (fun b => [Scope (flat_map in_stmt b)]) d)));
   intros; try (eapply stmt_expr_fine; eassumption); cbn [in_stmt flat_map option_list app]; auto using fine_nil;
   try (eapply opt_fine; constructor; eassumption); try (eapply expr_fine; eassumption).
  - unfold in_vardecl. cbn [v_form v_type v_value]. apply fine_declare, fine_app; [eapply type_fine; eauto|].
    apply fine_app; [eapply form_fine; eauto|eapply init_fine; eauto].
  - apply fine_app; [eapply expr_fine; eauto|]. now apply fine_one.
  - apply fine_one. apply fine_app; [eapply forinit_fine; eauto|]. apply fine_app; [eapply opt_fine; eauto|].
    apply fine_app; [eapply opt_fine; eauto|]. now apply fine_one.
  - apply fine_app; [eapply expr_fine; eauto|]. now apply fine_one.
  - apply fine_scope; [assumption|]. apply fine_app; [eapply expr_fine; eauto|]. now apply fine_one.
  - apply fine_app; [assumption|]. apply fine_app; [eapply expr_fine; eauto|]. assumption.
  - apply fine_app; [eapply expr_fine; eauto|]. apply fine_app; assumption.
  - rewrite app_nil_r. assumption.
  - now apply fine_app.
  - apply fine_app; [|assumption]. apply fine_app; [|now apply fine_one]. apply fine_refs. cbn [fst]. apply Forall_flat.
    eapply commas_all; [|eassumption]. apply value_fine.
  - now apply fine_one.
Qed.

Lemma forms_fine t fs ts : typename_of ctx ts t -> Forall (fun f => fine (in_form f)) fs -> fine (in_forms t fs).
Proof.
  intros Ht H. apply fine_flat. eapply Forall_impl; [|exact H]. intros f Hf. apply fine_app; [eapply type_fine; eauto|exact Hf].
Qed.
Lemma group_fine ts g : group_of ctx ts g -> fine (in_forms (taf_type g) (taf_forms g)).
Proof.
  intros [ts1 t ts2 fs _ Ht Hn]. cbn [taf_type taf_forms]. eapply forms_fine; eauto. clear Ht.
  induction Hn; apply Forall_cons; auto; eapply form_fine; eauto.
Qed.
Lemma params_fine ts l v : params_of ctx ts l v -> fine (flat_map (fun t => in_forms (taf_type t) (taf_forms t)) l).
Proof.
  intros H. induction H; cbn [flat_map]; rewrite ?app_nil_r; auto using fine_nil; try (eapply group_fine; eauto; fail).
  apply fine_app; [eapply group_fine; eauto|assumption].
Qed.
Lemma declares_fine A (f : A -> str) b l : fine (map (fun x => Declare (f x) b) l).
Proof. induction l; cbn; [apply fine_nil|]. now apply fine_declare. Qed.
Lemma elem_declares_fine a : fine (elem_declares a).
Proof.
  destruct a; cbn [elem_declares]; try apply fine_nil.
  - destruct (str_eqb (m_name m) (L "define")); [|apply fine_nil].
    destruct (split_whitespace (trim (m_value m))); [apply fine_nil|]. apply fine_declare, fine_nil.
  - apply declares_fine.
  - apply fine_declare, fine_nil.
  - apply fine_declare, fine_nil.
Qed.
Lemma elem_fine q ts pub a : elem_of ctx q ts pub a -> fine (in_elem a).
Proof.
  intros H. destruct H as [k lb ts0 l tc co rb tse se pb _ _ Hl|k lb ts0 l rb x s0 pb _ _ Hl
    |k st x y s0 pb|k ts0 t ss n x ps a sz z s0 pb _ Ht _ _ Hps
    |ts0 t ts1 fm lp ps l v rp ts2 b o pb Ht Hf _ Hps _ Hb|ts0 t ts1 fm eq ts2 x s0 Ht Hf _ Hx _]; cbn [in_elem].
  - cbn [enum_entries]. apply fine_flat. eapply commas_all; [|exact Hl]. intros tz en [x tq v _ Hv]. cbn [en_val]. eapply init_fine; eauto.
  - cbn [st_entries]. apply fine_flat. eapply many_all; [|exact Hl].
    intros tz en [ts1 t ts2 fs s1 Ht Hf _|u lb' ts1 l' rb' ts2 f s1 _ _ Hu _ Hf _]; cbn [in_struct_entry].
    + eapply forms_fine; eauto. eapply commas_all; [|exact Hf]. apply form_fine.
    + cbn [u_form u_fields]. apply fine_app; [eapply form_fine; eauto|]. apply fine_flat. eapply many_all; [|exact Hu].
      intros tq [t' f'] Hp. inversion Hp; subst. cbn. apply fine_ref; [eapply typename_known; eauto|eapply form_fine; eauto].
  - apply fine_nil.
  - cbn [td_func_params td_type]. apply fine_app; [|eapply type_fine; eauto].
    destruct Hps as [|? ? _ _|lp tz l rp _ Hl _|lp tz l c d rp _ Hl _ _ _]; try apply fine_nil; cbn [ap_forms]; apply fine_flat;
      (eapply commas_all; [|exact Hl]); intros tq bt Hb; apply fine_ref; try apply fine_nil; eapply typeform_known; eauto.
  - assert (Hh : fine (in_func_head (mkFunc q pb t fm (mkFp l v) b))).
    { unfold in_func_head. cbn. apply fine_ref; [eapply typename_known; eauto|]. apply fine_app; [eapply form_fine; eauto|eapply params_fine; eauto]. }
    unfold in_func. apply fine_one. apply fine_app; [apply (declares_fine _ (fun x => x))|].
    apply fine_app; [apply fine_one; cbn [fd_body]; eapply (proj1 (proj2 stmts_fine)); eauto|].
    apply fine_app; [exact Hh|]. destruct (is_main _); [apply fine_nil|exact Hh].
  - cbn [v_type v_form v_value]. apply fine_app; [eapply type_fine; eauto|]. apply fine_app; [eapply form_fine; eauto|].
    eapply expr_fine; eauto.
Qed.
Lemma module_fine ts ms : module_of ctx ts ms -> fine (in_module ms).
Proof.
  intros H. apply fine_one. apply fine_app.
  - apply fine_flat. apply Forall_forall. intros a _. apply elem_declares_fine.
  - apply fine_flat. induction H as [|i ts l _ _ IH|t e ts l He _ IH|pb pub ts e ts' l first rest _ _ He _ IH]; auto; constructor; auto.
    + destruct He. apply fine_nil.
    + eapply elem_fine; eauto.
Qed.
End Ns.
