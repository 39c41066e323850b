(** The scoping of a successfully translated module. *)
From Verif Require Import Base BaseFacts Buf Nodes NodeQueries NodeInd Types Cspec Resolve Cursor
  Preparser Parser CAst FormatChe FormatC Translator SpecScope ScopeFacts TrFacts.
Open Scope tr_scope.

Section Sim.
Variable env : trenv.

Lemma tr_body_sim : forall b, Forall (fun st => forall r s s', tr_stmt env st s = TrOk (r, s') -> sim env (in_stmt st) s s') b ->
  forall r s s', tr_body env b s = TrOk (r, s') -> sim env (in_body b) s s'.
Proof.
  intros b Hb r s s' H. unfold tr_body in H. tone H E1. tone H E2. tone H E3. tsteps.
  eapply scope_run; eauto. rewrite tr_stmts_tmap in E2.
  eapply tmap_sim; [| exact E2]. rewrite Forall_forall in Hb. intros st I. now apply Hb.
Qed.

Lemma tr_stmt_sim : forall st r s s', tr_stmt env st s = TrOk (r, s') -> sim env (in_stmt st) s s'.
Proof.
  induction st as [| | v | c b e IHb IHe | i c a b IHb | c b IHb | e | is v cs d IHc IHd | e] using stmt_ind';
    intros r s s' H; rewrite tr_stmt_eq in H; cbn [tr_stmt_flat] in H.
  - tsteps. apply sim_nil.
  - tsteps. apply sim_nil.
  - eapply tr_vardecl_sim; eauto.
  - tone H E1. tone H E2. tone H E3. tsteps. cbn [in_stmt].
    eapply sim_app; [| eapply sim_app; [eapply tr_val_sim; eauto | eapply tr_body_sim; eauto]].
    destruct e as [e |]; cbn [topt option_list] in *; [| tsteps; apply sim_nil].
    tone E1 E4. tsteps. eapply (tr_body_sim e); eauto.
  - tone H E1. tone H E2. tone H E3. tone H E4. tone H E5. tone H E6. tsteps. cbn [in_stmt].
    eapply scope_run; eauto. eapply sim_app; [eapply topt_sim; eauto; intros; eapply tr_forinit_sim; eauto |].
    eapply sim_app.
    { apply topt_sim with (env := env) (g := in_expr) in E3; [| intros; eapply tr_cond_sim; eauto].
      destruct c; exact E3. }
    eapply sim_app; [eapply tr_opt_sim; eauto | eapply (tr_body_sim b); eauto].
  - tone H E1. tone H E2. tsteps. cbn [in_stmt]. eapply sim_app; [eapply tr_cond_sim; eauto | eapply (tr_body_sim b); eauto].
  - tone H E1. tsteps. eapply tr_opt_sim; eauto.
  - assert (D : forall r s s', topt (tr_body env) d s = TrOk (r, s') ->
      sim env (option_list (fun b => [Scope (flat_map in_stmt b)]) d) s s').
    { intros r0 s0 s0' E. destruct d as [d |]; cbn [topt option_list] in *; [| tsteps; apply sim_nil].
      tone E E4. tsteps. eapply (tr_body_sim d); eauto. }
    cbn [in_stmt]. destruct is.
    + tone H E1. destruct cs as [| [vs b] r0]; [discriminate |]. tone H E2. tone H E3. tone H E4. tsteps.
      inversion IHc as [| x y IHb IHc']; subst. cbn [snd] in IHb.
      eapply sim_app; [eapply tr_val_sim; eauto |]. cbn [flat_map fst snd]. rewrite <- !app_assoc.
      eapply sim_app; [eapply mk_switchstr_cond_sim; eauto |].
      eapply sim_app; [eapply (tr_body_sim b); eauto |].
      clear E1 E2 E3 IHb IHc.
      match type of E4 with str_chain _ _ _ _ ?a = TrOk (?o, _) => revert a o E4 end.
      induction IHc' as [| [vs' b'] l IHb IHl IH2]; intros st0 o E4; cbn [str_chain] in E4.
      * cbn [flat_map app]. eauto.
      * tone E4 E5. tone E4 E6. tone E4 E7. tsteps. cbn [flat_map fst snd]. rewrite <- !app_assoc.
        eapply sim_app; [eapply mk_switchstr_cond_sim; eauto |].
        eapply sim_app; [eapply (tr_body_sim b'); eauto | eauto].
    + tone H E1. tone H E2. tone H E3. tsteps. eapply sim_app; [| eapply sim_app; [eapply tr_val_sim; eauto | eauto]].
      eapply tmap_sim; [| exact E1]. intros [vs b] I x sa sb E. unfold tr_case in E. cbn [fst snd] in *.
      tone E E4. tone E E5. tsteps. rewrite Forall_forall in IHc.
      eapply sim_app; [eapply tr_case_values_sim; eauto | eapply (tr_body_sim b); eauto].
      apply (IHc _ I).
  - eapply tr_expr_stmt_sim; eauto.
Qed.

Lemma tr_body_sim' : forall b r s s', tr_body env b s = TrOk (r, s') -> sim env (in_body b) s s'.
Proof.
  intros b. apply tr_body_sim. apply Forall_forall. intros; eapply tr_stmt_sim; eauto.
Qed.

Lemma tr_taf_sim : forall x r s s', tr_taf env x s = TrOk (r, s') -> sim env (in_forms (taf_type x) (taf_forms x)) s s'.
Proof.
  intros x r s s' H. unfold tr_taf in H. eapply tmap_sim; [| exact H].
  intros f _ b sa sb E. tone E E1. tone E E2. tsteps.
  eapply sim_app; [eapply tr_typename_sim; eauto | eapply tr_form_sim; eauto].
Qed.

Lemma bind_params_run : forall l s s' rest s'', bind_params l s = TrOk (tt, s') -> sim env rest s' s'' ->
  sim env (map (fun x => Declare x false) (flat_map (fun t => map f_name (taf_forms t)) l) ++ rest) s s''.
Proof.
  induction l as [| p l IH]; intros s s' rest s'' H H2; cbn [bind_params flat_map map app] in *.
  - tsteps. auto.
  - tone H E. rewrite map_app, <- app_assoc.
    assert (R := IH _ _ _ _ H H2). clear H H2 IH. revert E R.
    match goal with |- bind_forms _ _ _ = TrOk (_, ?x) -> _ => generalize x end.
    generalize (map (fun x => Declare x false) (flat_map (fun t => map f_name (taf_forms t)) l) ++ rest).
    intros rest' st1. revert s. generalize (taf_type p). induction (taf_forms p) as [| f fs IHf]; intros t s E R;
      cbn [bind_forms map app] in *.
    + tsteps. auto.
    + tone E E1. eapply add_binding_run; eauto.
Qed.

Lemma tr_func_params_sim : forall x r s s', tr_func_params env x s = TrOk (r, s') ->
  sim env (flat_map (fun t => in_forms (taf_type t) (taf_forms t)) (fp_list x)) s s'.
Proof.
  intros x r s s' H. unfold tr_func_params in H. tone H E. tsteps.
  eapply tmap_sim; [| exact E]. intros; eapply tr_taf_sim; eauto.
Qed.

Lemma tr_func_decl_sim : forall f r s s', tr_func_decl env f s = TrOk (r, s') -> sim env (in_func f) s s'.
Proof.
  intros f r s s' H. unfold tr_func_decl in H.
  tone H E1. tone H E2. tone H E3. tone H E4. tone H E5. tone H E6. tone H E7. tone H E8.
  match type of H with (if ?x then _ else _) _ = _ => destruct x end; tsteps.
  unfold in_func. eapply scope_run; eauto. eapply bind_params_run; eauto.
  eapply sim_app; [eapply tr_body_sim'; eauto |].
  eapply sim_app.
  - eapply sim_app; [eapply tr_typename_sim; eauto |].
    eapply sim_app; [eapply tr_form_sim; eauto | eapply tr_func_params_sim; eauto].
  - unfold is_main. destruct (str_eqb _ _); [tsteps; apply sim_nil |].
    tone E7 E9. tone E7 E10. tone E7 E11. tsteps.
    eapply sim_app; [eapply tr_typename_sim; eauto |].
    eapply sim_app; [eapply tr_form_sim; eauto | eapply tr_func_params_sim; eauto].
Qed.

Lemma tr_mod_elem_sim : forall e r s s', tr_mod_elem env e s = TrOk (r, s') -> sim env (in_elem e) s s'.
Proof.
  intros [m | e | a | t | x | v | f] r s s' H; cbn [tr_mod_elem in_elem] in *.
  - tsteps. apply sim_nil.
  - unfold tr_enum in H. tone H E. tsteps. eapply tmap_sim; [| exact E].
    intros en _ b sa sb E2. tone E2 E3. tsteps. eapply tr_opt_sim; eauto.
  - tsteps. apply sim_nil.
  - unfold tr_typedef in H. tone H E1. tone H E2. tsteps. eapply sim_app; [| eapply tr_typename_sim; eauto].
    destruct (td_func_params t); cbn [topt] in E1; [| tsteps; apply sim_nil].
    tone E1 E3. tone E3 E4. tsteps. eapply tmap_sim; [| exact E4].
    intros bt _ b sa sb E. unfold tr_bare_typeform in E. tone E E5. tsteps. eapply tr_typename_sim; eauto.
  - unfold tr_struct_typedef in H. tone H E. tsteps. eapply tmap_sim; [| exact E].
    intros en _ b sa sb E2. destruct en as [y | u]; cbn [tr_struct_entry in_struct_entry] in *.
    + tone E2 E3. tsteps. eapply tr_taf_sim; eauto.
    + tone E2 E3. tsteps. unfold tr_union in E3. tone E3 E4. tone E3 E5. tsteps.
      eapply sim_app; [eapply tr_form_sim; eauto |]. eapply tmap_sim; [| exact E5].
      intros [t f] _ b sc sd E6. cbn [fst snd] in *. tone E6 E7. tone E6 E8. tsteps.
      eapply sim_app; [eapply tr_typename_sim; eauto | eapply tr_form_sim; eauto].
  - unfold tr_modvar in H. tone H E1. tone H E2. destruct (v_value v) as [e |]; [| discriminate].
    tone H E3. tsteps. eapply sim_app; [eapply tr_typename_sim; eauto |].
    eapply sim_app; [eapply tr_form_sim; eauto | eapply tr_val_sim; eauto].
  - eapply tr_func_decl_sim; eauto.
Qed.

Lemma bind_elem_run : forall e s s', bind_elem e s = TrOk (tt, s') -> sim env (elem_declares e) s s'.
Proof.
  intros [m | e | a | t | x | v | f] s s' H; cbn [bind_elem elem_declares] in *; try (tsteps; apply sim_nil).
  - unfold bind_define in H. destruct (str_eqb_spec (m_name m) (L "type")) as [E | E].
    + tsteps. rewrite E. cbn [str_eqb lit]. apply sim_nil.
    + destruct (str_eqb _ _); [| tsteps; apply sim_nil].
      destruct (split_whitespace _) as [| id [| v l]]; try discriminate.
      eapply add_binding_run; eauto. apply sim_nil.
  - tone H E. tsteps. revert s E. match goal with |- context[TrOk (?x, _)] => generalize x end.
    induction (enum_entries e) as [| en l IH]; intros o s E; cbn [tmap map] in *.
    + tsteps. apply sim_nil.
    + tone E E1. tone E E2. tsteps. eapply add_binding_run; eauto.
  - eapply add_binding_run; eauto. apply sim_nil.
  - eapply add_binding_run; eauto. apply sim_nil.
Qed.

Lemma tr_elements_sim : forall elems r s s', tr_elements env elems s = TrOk (r, s') ->
  sim env (in_module elems) s s'.
Proof.
  intros elems r s s' H. unfold tr_elements in H. tone H E1. tone H E2. tone H E3. tone H E4. tsteps.
  unfold in_module. eapply scope_run; eauto. eapply sim_app.
  - eapply tmap_sim; [| exact E2]. intros e _ [] sa sb E. eapply bind_elem_run; eauto.
  - eapply tmap_sim; [| exact E3]. intros e _ b sa sb E. eapply tr_mod_elem_sim; eauto.
Qed.

End Sim.
