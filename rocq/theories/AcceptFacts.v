(** Modules are accepted exactly when they are well formed. *)
From Verif Require Import Base BaseFacts Buf Nodes NodeQueries NodeInd Types Cspec Resolve Cursor
  Preparser Parser CAst FormatChe FormatC Translator SpecScope ScopeFacts RunFacts TrFacts TrScope SpecTypes
  TypeFacts SpecDecl SpecTarget TargetFacts SpecTyping TypingFacts ElabFacts SpecAccept.
Open Scope tr_scope.

(** In the context [G], [m] works iff [P] holds and its items do not clash;
    it then declares [l]. *)
Definition checks {A} (G l : list decl) (items : list item) (m : TR A) (P : Prop) : Prop :=
  forall s, shows s G ->
  (works m s <-> P /\ exists m', run any items (abs s) m')
  /\ (forall a s', m s = TrOk (a, s') -> run any items (abs s) (abs s') /\ grows s s' l G).

Lemma checks_ret : forall A G (a : A), checks G [] [] (tret a) True.
Proof.
  intros A G a s R. split.
  - split; [| intros _; apply works_ret]. intros _. split; auto. eexists. constructor.
  - intros b s' H. unfold tret in H. injection H as _ <-. split; [constructor | now apply grows_none].
Qed.
Lemma checks_iff : forall A G l i (m : TR A) P Q, checks G l i m P -> (P <-> Q) -> checks G l i m Q.
Proof. intros A G l i m P Q M I s R. destruct (M s R) as [M1 M2]. split; [now rewrite M1, I | auto]. Qed.
Lemma checks_ext : forall A G l i (m m' : TR A) P, checks G l i m P -> (forall s, m' s = m s) -> checks G l i m' P.
Proof.
  intros A G l i m m' P M I s R. destruct (M s R) as [M1 M2]. unfold works in *. setoid_rewrite I. split; auto.
Qed.
Lemma checks_bind : forall A B G l1 l2 i1 i2 (m : TR A) (f : A -> TR B) P Q,
  checks G l1 i1 m P -> (forall a, checks (l1 ++ G) l2 i2 (f a) Q) ->
  checks G (l2 ++ l1) (i1 ++ i2) (tbind m f) (P /\ Q).
Proof.
  intros A B G l1 l2 i1 i2 m f P Q M F s R. destruct (M s R) as [M1 M2]. split.
  - rewrite works_bind. split.
    + intros (a & s1 & E & W). destruct (M2 _ _ E) as [X [R1 T1]].
      assert (HP : P /\ exists m', run any i1 (abs s) m') by (apply M1; eexists _, _; eauto).
      apply (F a s1 R1) in W. destruct W as [HQ (m' & Y)]. repeat split; try tauto.
      exists m'. eapply run_app; eauto.
    + intros ((HP & HQ) & m' & X). apply run_app_inv in X. destruct X as (b & X1 & X2).
      assert (W : works m s) by (apply M1; eauto). destruct W as (a & s1 & E).
      destruct (M2 _ _ E) as [Y [R1 T1]]. assert (b = abs s1) by (eapply run_deterministic; eauto). subst b.
      exists a, s1. split; auto. apply (F a s1 R1). eauto.
  - intros b s' H. apply tbind_ok in H. destruct H as (a & s1 & E & H). destruct (M2 _ _ E) as [X [R1 T1]].
    destruct (F a s1 R1) as [_ F2]. apply F2 in H. destruct H as [Y [R2 T2]]. split.
    + eapply run_app; eauto.
    + split; [| congruence]. intros x. rewrite <- app_assoc. apply R2.
Qed.
(** The second part declares nothing, or the first. *)
Lemma checks_seq : forall A B G l i1 i2 (m : TR A) (f : A -> TR B) P Q,
  checks G [] i1 m P -> (forall a, checks G l i2 (f a) Q) -> checks G l (i1 ++ i2) (tbind m f) (P /\ Q).
Proof.
  intros A B G l i1 i2 m f P Q M F. rewrite <- (app_nil_r l). apply checks_bind; auto.
Qed.
Lemma checks_then : forall A B G l i (m : TR A) (f : A -> B) P, checks G l i m P ->
  checks G l i (x <- m ;; tret (f x)) P.
Proof.
  intros A B G l i m f P M. rewrite <- (app_nil_r i). apply (checks_iff _ _ _ _ _ (P /\ True)); [| tauto].
  change l with ([] ++ l). apply checks_bind; [exact M |]. intros a. apply checks_ret.
Qed.
Lemma checks_tmap : forall A B G (g : A -> list item) (f : A -> TR B) P l,
  (forall a, In a l -> checks G [] (g a) (f a) (P a)) ->
  checks G [] (flat_map g l) (tmap f l) (all P l).
Proof.
  induction l as [| a l IH]; intros H; cbn [tmap all flat_map]; [apply checks_ret |].
  apply checks_seq; [apply H; now left |]. intros x. apply checks_then, IH. intros y I. apply H. now right.
Qed.
Lemma checks_topt : forall A B G (g : A -> list item) (f : A -> TR B) P o,
  (forall a, o = Some a -> checks G [] (g a) (f a) (P a)) ->
  checks G [] (option_list g o) (topt f o) (all_opt P o).
Proof. intros A B G g f P [a |] H; cbn [topt all_opt option_list]; [apply checks_then; auto | apply checks_ret]. Qed.

Lemma tbind_assoc : forall A B C (m : TR A) (f : A -> TR B) (g : B -> TR C) s,
  tbind m (fun a => tbind (f a) g) s = tbind (tbind m f) g s.
Proof. intros A B C m f g s. unfold tbind. destruct (m s) as [[a s1] | |]; auto. Qed.

Lemma add_checks : forall G x p b t, checks G [mkDecl x b t] [Declare x b] (add_binding x p b t) True.
Proof.
  intros G x p b t s R. split.
  - unfold works, add_binding, abs. destruct (s_scopes s) as [| sc r].
    + split; [intros (a & s' & H); discriminate |]. intros (_ & m' & H). inversion H.
    + assert (E : existsb (fun b0 => str_eqb (b_name b0) x) sc = true <-> In x (names (map abs_b sc))).
      { unfold names. rewrite map_map, existsb_exists, in_map_iff. split; intros (y & A & B); exists y.
        - apply str_eqb_eq in B. auto.
        - split; auto. apply str_eqb_eq. exact A. }
      destruct (existsb _ _).
      * split; [intros (a & s' & H); discriminate |]. intros (_ & m' & H). inversion H; subst.
        match goal with X : ~ In _ _ |- _ => exfalso; apply X, E; reflexivity end.
      * split; [| intros _; eexists _, _; reflexivity]. intros _. split; auto. eexists.
        apply Run_declare; [| apply Run_nil]. intros X. apply E in X. discriminate.
  - intros [] s' H. split; [| eapply add_binding_grows; eauto].
    eapply run_mono; [| eapply (add_binding_run (mkEnv (mkInfo [] [] [] []) [] [] [] [] []))]; eauto;
      [intros; exact I | apply sim_nil].
Qed.

Section Accept.
Variables (S : site) (env : trenv).
Hypothesis D : describes S env.

Lemma checks_decides : forall A G items (m : TR A) P, decides G m P ->
  (forall a s s', m s = TrOk (a, s') -> sim env items s s') -> checks G [] items m P.
Proof.
  intros A G items m P M H s R. destruct (M s R) as [M1 M2]. split.
  - rewrite M1. split; [| tauto]. intros HP. split; auto. apply M1 in HP. destruct HP as (a & s' & E).
    exists (abs s'). eapply run_mono; [| eapply H; eauto]. intros; exact I.
  - intros a s' E. split; [eapply run_mono; [| eapply H; eauto]; intros; exact I |].
    apply grows_none; auto. eauto.
Qed.

Lemma scope_checks : forall A B G l items (m : TR A) (f : A -> TR B) P Q, checks G l items m P ->
  (forall a, checks G [] [] (f a) Q) ->
  checks G [] [Scope items] (begin_scope ;;; a <- m ;; end_scope env ;;; f a) (P /\ Q).
Proof.
  intros A B G l items m f P Q M F s R.
  set (s1 := mkSt ([] :: s_scopes s) (s_ns s) (s_customs s)).
  assert (R1 : shows s1 G) by exact R.
  destruct (M s1 R1) as [M1 M2].
  assert (FIN : forall sc, Forall fine (map abs_b sc) <->
      find (fun b => negb (b_pub b) && negb (b_used b)) sc = None).
  { induction sc as [| b sc IH]; cbn [map find]; [split; auto |].
    assert (X : fine (abs_b b) <-> negb (b_pub b) && negb (b_used b) = false).
    { unfold fine, abs_b. cbn. destruct (b_pub b), (b_used b); cbn; intuition discriminate. }
    destruct (negb (b_pub b) && negb (b_used b)).
    - split; [| discriminate]. intros H. inversion H; subst. apply X in H2. discriminate.
    - rewrite <- IH. split; [intros H; now inversion H |]. intros H. constructor; auto. now apply X. }
  split.
  - split.
    + intros W. apply works_bind in W. destruct W as ([] & t1 & E1 & W). injection E1 as <-. fold s1 in W.
      apply works_bind in W. destruct W as (a & t2 & E2 & W). apply works_bind in W.
      destruct W as ([] & t3 & E3 & W). destruct (M2 _ _ E2) as [X [R2 T2]].
      assert (HP : P /\ exists m', run any items (abs s1) m') by (apply M1; eexists _, _; eauto).
      assert (K := end_skel _ _ _ E3). assert (K2 : skel t3 = skel s) by (rewrite K, T2; reflexivity).
      assert (R3 := shows_skel _ _ _ R K2). apply (F a t3 R3) in W. split; [tauto |].
      unfold end_scope in E3. destruct (s_scopes t2) as [| sc r] eqn:SC; [discriminate |].
      destruct (find _ sc) eqn:FD; [discriminate |]. injection E3 as <-.
      exists (map (map abs_b) r, s_ns t2). unfold abs in X |- *. rewrite SC in X. cbn [map] in X.
      eapply Run_scope; [exact X | now apply FIN | apply Run_nil].
    + intros ((HP & HQ) & m' & X). inversion X as [| | | l' l0 scs ns sc scs1 ns1 m1 X1 XF X2]; subst.
      assert (W : works m s1). { apply M1. split; auto. eexists. exact X1. }
      destruct W as (a & t2 & E2). destruct (M2 _ _ E2) as [Y [R2 T2]].
      assert (Z := run_deterministic _ _ _ _ X1 _ Y). unfold abs in Z.
      destruct (s_scopes t2) as [| sc2 r] eqn:SC; [discriminate |]. cbn [map] in Z. injection Z as -> -> ->.
      apply FIN in XF. assert (E3 : end_scope env t2 = TrOk (tt, mkSt r (s_ns t2) (s_customs t2))).
      { unfold end_scope. rewrite SC, XF. reflexivity. }
      apply works_bind. exists tt, s1. split; [reflexivity |]. apply works_bind. exists a, t2. split; auto.
      apply works_bind. eexists _, _. split; [exact E3 |].
      assert (K := end_skel _ _ _ E3). assert (K2 : skel (mkSt r (s_ns t2) (s_customs t2)) = skel s) by (rewrite K, T2; reflexivity).
      apply (F a _ (shows_skel _ _ _ R K2)). split; auto. eexists. constructor.
  - intros b s' H. apply tbind_ok in H. destruct H as ([] & t1 & E1 & H). injection E1 as <-. fold s1 in H.
    apply tbind_ok in H. destruct H as (a & t2 & E2 & H). apply tbind_ok in H. destruct H as ([] & t3 & E3 & H).
    destruct (M2 _ _ E2) as [X [R2 T2]].
    assert (K := end_skel _ _ _ E3). assert (K2 : skel t3 = skel s) by (rewrite K, T2; reflexivity).
    assert (R3 := shows_skel _ _ _ R K2). apply (F a t3 R3) in H. destruct H as [Y [R4 T4]].
    unfold end_scope in E3. destruct (s_scopes t2) as [| sc r] eqn:SC; [discriminate |].
    destruct (find _ sc) eqn:FD; [discriminate |]. injection E3 as <-. split.
    + unfold abs in X. rewrite SC in X. cbn [map] in X.
      apply FIN in FD. change (run any [Scope items] (abs s) (abs s')).
      eapply Run_scope; [exact X | exact FD | exact Y].
    + split; [exact R4 | congruence].
Qed.

(** ** Expressions *)
Lemma expr_decides : forall G e, decides G (tr_expr env e) (ok_value S G e).
Proof. intros G e. apply expr_decides'; auto. intros t s R. now apply expr_iff. Qed.
Lemma val_decides : forall G e, decides G (tr_val env e) (ok_value S G e).
Proof.
  intros G e. eapply decides_iff; [apply decides_bind; [apply expr_decides | intros [? ?]; apply decides_ret] | tauto].
Qed.
Lemma cond_decides : forall G e, decides G (tr_cond env e) (ok_cond S G e).
Proof.
  intros G e s R. split.
  - unfold tr_cond. rewrite works_bind. split.
    + intros ([t c] & s1 & E & W). exists t. split; [apply (expr_iff S env D e t s G R); eauto |].
      apply booly_spec. destruct (is_booly t); [auto |]. destruct W as (? & ? & W). discriminate.
    + intros (t & T & B). apply (expr_iff S env D e t s G R) in T. destruct T as (c & s1 & E).
      exists (t, c), s1. split; auto. apply booly_spec in B. rewrite B. apply works_ret.
  - intros a s' H. now apply (tr_cond_target S env D _ _ _ _ G) in H.
Qed.
Lemma typename_decides : forall G x, decides G (tr_typename env x) (type_known S x).
Proof.
  intros G x s R. split; [now apply typename_iff |]. intros a s' H. now apply (tr_typename_target S env D) in H.
Qed.
Lemma btf_decides : forall G x, decides G (tr_bare_typeform env x) (type_known S (btf_type x)).
Proof. intros G x. apply decides_then, typename_decides. Qed.
Lemma lookup_decides : forall G x, decides G (lookup x) True.
Proof.
  intros G x s R. split; [split; auto; intros _; eexists _, _; reflexivity |].
  intros a s' H. injection H as _ <-. reflexivity.
Qed.
Lemma form_decides : forall G f b, decides G (tr_form env f b) (ok_form S G f).
Proof.
  intros G f b. unfold tr_form. eapply decides_iff.
  - apply decides_bind; [apply tmap_decides; intros o _; apply topt_decides; intros e; apply val_decides |].
    intros ix. apply decides_bind; [apply lookup_decides |]. intros o. apply decides_ret.
  - unfold ok_form. tauto.
Qed.
Lemma case_decides : forall G v, decides G (tr_case_value env v) (ok_case S G v).
Proof.
  intros G [n | l]; cbn [tr_case_value ok_case]; [| apply decides_ret]. intros s R. split.
  - rewrite works_bind. split.
    + intros ([t v] & s1 & E & _). exists t. eapply name_sound; eauto.
    + intros (t & T). destruct (name_complete S env D _ _ _ _ R T) as (v & s1 & E). exists (t, v), s1.
      split; auto. apply works_ret.
  - intros a s' H. now apply (tr_case_value_target S env D (SVIdent n) _ _ _ G) in H.
Qed.
Lemma switchstr_decides : forall G vs sv, decides G (mk_switchstr_cond env vs sv) (all (ok_case S G) vs /\ vs <> []).
Proof.
  intros G vs sv s R.
  assert (T := tmap_decides _ _ G (tr_case_value env) (ok_case S G) vs (fun v _ => case_decides G v) s R).
  destruct T as [T1 T2]. split.
  - unfold mk_switchstr_cond. rewrite works_bind. rewrite <- T1. split.
    + intros (a & s1 & E & W). split; [eexists _, _; eauto |]. intros ->. cbn [tmap] in E. injection E as <- <-.
      destruct W as (? & ? & W). discriminate.
    + intros ((a & s1 & E) & N). exists a, s1. split; auto. apply tmap_length in E.
      destruct a; [destruct vs; [contradiction | discriminate] | apply works_ret].
  - intros a s' H. now apply (switchstr_target S env D _ _ _ _ _ G) in H.
Qed.

(** ** Statements *)

Definition typename_checks G x : checks G [] (in_type x) (tr_typename env x) (type_known S x) :=
  checks_decides _ G _ _ _ (typename_decides G x) (fun a s s' H => tr_typename_sim env _ _ _ _ H).
Definition val_checks G e : checks G [] (in_expr e) (tr_val env e) (ok_value S G e) :=
  checks_decides _ G _ _ _ (val_decides G e) (fun a s s' H => tr_val_sim env _ _ _ _ H).
Definition cond_checks G e : checks G [] (in_expr e) (tr_cond env e) (ok_cond S G e) :=
  checks_decides _ G _ _ _ (cond_decides G e) (fun a s s' H => tr_cond_sim env _ _ _ _ H).
Definition form_checks G f b : checks G [] (in_form f) (tr_form env f b) (ok_form S G f) :=
  checks_decides _ G _ _ _ (form_decides G f b) (fun a s s' H => tr_form_sim env _ _ _ _ _ H).
Definition opt_checks G o : checks G [] (in_opt o) (topt (tr_val env) o) (all_opt (ok_value S G) o) :=
  checks_decides _ G _ _ _ (topt_decides _ _ G _ _ o (val_decides G)) (fun a s s' H => tr_opt_sim env _ _ _ _ H).

Lemma cond_opt_checks : forall G o, checks G [] (in_opt o) (topt (tr_cond env) o) (all_opt (ok_cond S G) o).
Proof.
  intros G o. replace (in_opt o) with (option_list in_expr o) by (destruct o; reflexivity).
  apply checks_topt. intros; apply cond_checks.
Qed.

Lemma vardecl_checks : forall G v, checks G (declares (SVarDecl v)) (in_vardecl v) (tr_vardecl env v) (ok_stmt S G (SVarDecl v)).
Proof.
  intros G v. unfold tr_vardecl, in_vardecl. cbn [ok_stmt declares].
  change ([SpecDecl.local (v_type v) (v_form v)]) with ([] ++ [SpecDecl.local (v_type v) (v_form v)]) at 1.
  change (Declare (f_name (v_form v)) false :: in_type (v_type v) ++ in_form (v_form v) ++ in_opt (v_value v))
    with ([Declare (f_name (v_form v)) false] ++ in_type (v_type v) ++ in_form (v_form v) ++ in_opt (v_value v)).
  eapply checks_iff; [apply checks_bind; [apply add_checks |] | split; [intros H; exact (proj2 H) | intros H; exact (conj I H)]].
  intros []. apply checks_seq; [apply typename_checks |]. intros t.
  apply checks_seq; [apply form_checks |]. intros f. apply checks_then, opt_checks.
Qed.
Lemma forinit_checks : forall G i, checks G (init_declares (Some i)) (in_forinit i) (tr_forinit env i)
  (ok_init S (init_declares (Some i) ++ G) i).
Proof.
  intros G [e | t f e]; cbn [tr_forinit in_forinit init_declares ok_init].
  - apply checks_then, val_checks.
  - change ([SpecDecl.local t f]) with ([] ++ [SpecDecl.local t f]) at 1.
    change (Declare (f_name f) false :: in_type t ++ in_form f ++ in_expr e)
      with ([Declare (f_name f) false] ++ in_type t ++ in_form f ++ in_expr e).
    eapply checks_iff; [apply checks_bind; [apply add_checks |] | split; [intros H; exact (proj2 H) | intros H; exact (conj I H)]].
    intros []. apply checks_seq; [apply typename_checks |]. intros t'.
    apply checks_seq; [apply form_checks |]. intros f'. apply checks_then, val_checks.
Qed.
Lemma expr_stmt_checks : forall G e, checks G [] (in_stmt (SExpr e)) (tr_expr_stmt env e) (ok_stmt S G (SExpr e)).
Proof.
  intros G e. assert (V : checks G [] (in_expr e) (v <- tr_val env e ;; tret (KExpr v)) (ok_value S G e)).
  { apply checks_then, val_checks. }
  destruct e as [ | | | | | p f args | | | | | |]; try exact V.
  cbn [tr_expr_stmt ok_stmt in_stmt]. unfold is_panic. rewrite is_name_ident.
  destruct (is_ident f (L "panic")); [| exact V]. unfold mk_panic. apply checks_then.
  rewrite refs_flat. apply checks_tmap. intros; apply val_checks.
Qed.

Lemma ok_stmts_inner : forall l G,
  (fix ok_stmts (G : list decl) (l : list stmt) : Prop :=
    match l with
    | [] => True
    | s :: r => ok_stmt S G s /\ ok_stmts (declares s ++ G) r
    end) G l = ok_stmts S G l.
Proof. induction l as [| s r IH]; intros G; [auto |]. cbn [ok_stmts]. now rewrite IH. Qed.

Definition stmt_checks (st : stmt) : Prop := forall G, checks G (declares st) (in_stmt st) (tr_stmt env st) (ok_stmt S G st).
Lemma stmts_checks : forall l, Forall stmt_checks l -> forall G,
  exists d, checks G d (flat_map in_stmt l) (tr_stmts env l) (ok_stmts S G l).
Proof.
  induction 1 as [| st l Hs Hl IH]; intros G; cbn [flat_map tr_stmts ok_stmts].
  - exists []. apply checks_ret.
  - destruct (IH (declares st ++ G)) as (d & C). exists (d ++ declares st).
    apply checks_bind; [apply Hs |]. intros x. apply checks_then, C.
Qed.
Lemma body_checks : forall l, Forall stmt_checks l -> forall G,
  checks G [] (in_body l) (tr_body env l) (ok_stmts S G l).
Proof.
  intros l H G. destruct (stmts_checks l H G) as (d & C). unfold tr_body, in_body.
  eapply checks_iff; [eapply scope_checks; [exact C |] |].
  - intros a. apply checks_ret.
  - tauto.
Qed.
Lemma opt_body_checks : forall o, opt_all stmt_checks o -> forall G,
  checks G [] (option_list in_body o) (topt (tr_body env) o) (all_opt (ok_stmts S G) o).
Proof. intros o H G. apply checks_topt. intros b ->. apply body_checks. exact H. Qed.

Definition ok_str_case (G : list decl) (c : list switch_value * list stmt) : Prop :=
  all (ok_case S G) (fst c) /\ ok_stmts S G (snd c) /\ fst c <> [].
Definition in_case (c : list switch_value * list stmt) : list item :=
  refs (flat_map case_ref (fst c)) ++ in_body (snd c).
Lemma switchstr_checks : forall G vs sv, checks G [] (refs (flat_map case_ref vs)) (mk_switchstr_cond env vs sv)
  (all (ok_case S G) vs /\ vs <> []).
Proof.
  intros G vs sv. apply checks_decides; [apply switchstr_decides |]. intros; eapply mk_switchstr_cond_sim; eauto.
Qed.
Lemma chain_checks : forall G sv cs def, Forall (fun c => Forall stmt_checks (snd c)) cs -> opt_all stmt_checks def ->
  checks G [] (flat_map in_case cs ++ option_list in_body def) (str_chain env sv cs def)
    (all (ok_str_case G) cs /\ all_opt (ok_stmts S G) def).
Proof.
  intros G sv cs def Hc Hd. induction Hc as [| [vs b] cs Hb Hc IH]; cbn [str_chain flat_map app all].
  - eapply checks_iff; [now apply opt_body_checks | tauto].
  - unfold in_case at 1. unfold ok_str_case at 1. cbn [fst snd] in *. rewrite <- !app_assoc.
    eapply checks_iff; [apply checks_seq; [apply switchstr_checks |] |].
    + intros c. apply checks_seq; [now apply body_checks |]. intros b'. apply checks_then. exact IH.
    + tauto.
Qed.

Lemma stmt_checked : forall st, stmt_checks st.
Proof.
  induction st as [| | v | c b e IHb IHe | i c a b IHb | c b IHb | e | is v cs d IHc IHd | e] using stmt_ind';
    intros G; (eapply checks_ext; [| intros s; apply tr_stmt_eq]); cbn [tr_stmt_flat].
  - apply checks_ret.
  - apply checks_ret.
  - apply vardecl_checks.
  - change (ok_stmt S G (SIf c b e)) with (ok_value S G c /\ ok_stmts S G b /\ all_opt (ok_stmts S G) e).
    change (in_stmt (SIf c b e)) with (option_list in_body e ++ in_expr c ++ in_body b). cbn [declares].
    eapply checks_iff; [apply checks_seq; [now apply opt_body_checks |] |].
    + intros e'. apply checks_seq; [apply val_checks |]. intros c'. apply checks_then. now apply body_checks.
    + tauto.
  - set (G1 := init_declares i ++ G).
    change (ok_stmt S G (SFor i c a b)) with
      (all_opt (ok_init S G1) i /\ all_opt (ok_cond S G1) c /\ all_opt (ok_value S G1) a /\ ok_stmts S G1 b).
    change (in_stmt (SFor i c a b)) with [Scope (option_list in_forinit i ++ in_opt c ++ in_opt a ++ in_body b)].
    cbn [declares].
    assert (C : checks G (init_declares i) (option_list in_forinit i ++ in_opt c ++ in_opt a ++ in_body b)
      (i' <- topt (tr_forinit env) i ;; c' <- topt (tr_cond env) c ;; a' <- topt (tr_val env) a ;;
       b' <- tr_body env b ;; tret (KFor i' c' a' b'))
      (all_opt (ok_init S G1) i /\ all_opt (ok_cond S G1) c /\ all_opt (ok_value S G1) a /\ ok_stmts S G1 b)).
    { change (init_declares i) with ([] ++ init_declares i).
      apply checks_bind.
      - destruct i as [i |]; cbn [topt all_opt option_list]; [| apply checks_ret].
        apply checks_then, forinit_checks.
      - intros i'. apply checks_seq; [apply cond_opt_checks |]. intros c'.
        apply checks_seq; [apply opt_checks |]. intros a'. apply checks_then. now apply body_checks. }
    eapply checks_ext; [eapply checks_iff; [eapply scope_checks; [exact C | intros k; apply checks_ret] | tauto] |].
    intros s. apply tbind_ext; [auto |]. intros _ s1. rewrite <- tbind_assoc. apply tbind_ext; [auto |]. intros i' s2.
    rewrite <- tbind_assoc. apply tbind_ext; [auto |]. intros c' s3.
    rewrite <- tbind_assoc. apply tbind_ext; [auto |]. intros a' s4.
    rewrite <- tbind_assoc. apply tbind_ext; [auto |]. reflexivity.
  - change (ok_stmt S G (SWhile c b)) with (ok_cond S G c /\ ok_stmts S G b).
    change (in_stmt (SWhile c b)) with (in_expr c ++ in_body b). cbn [declares].
    apply checks_seq; [apply cond_checks |]. intros c'. apply checks_then. now apply body_checks.
  - apply checks_then, opt_checks.
  - cbn [declares]. destruct is.
    + change (in_stmt (SSwitch true v cs d)) with (in_expr v ++ flat_map in_case cs ++ option_list in_body d).
      change (ok_stmt S G (SSwitch true v cs d)) with
        (ok_value S G v
         /\ all (fun c => all (ok_case S G) (fst c) /\ ok_stmts S G (snd c) /\ (true = true -> fst c <> [])) cs
         /\ all_opt (ok_stmts S G) d /\ (true = true -> cs <> [])).
      assert (X : all (fun c => all (ok_case S G) (fst c) /\ ok_stmts S G (snd c) /\ (true = true -> fst c <> [])) cs
        <-> all (ok_str_case G) cs).
      { apply all_ext. intros c _. unfold ok_str_case. intuition. }
      destruct cs as [| [vs b] cs].
      * intros s R. split.
        -- rewrite works_bind. split; [intros (? & ? & _ & (? & ? & W)); discriminate |].
           intros ((_ & _ & _ & N) & _). exfalso. now apply N.
        -- intros a s' H. apply tbind_ok in H. destruct H as (? & ? & _ & H). discriminate.
      * inversion IHc as [| x y IHb IHc']; subst. cbn [snd] in IHb.
        eapply checks_iff; [apply checks_seq; [apply val_checks |] |].
        -- intros sv. cbn [flat_map]. unfold in_case at 1. cbn [fst snd]. rewrite <- !app_assoc.
           apply checks_seq; [apply switchstr_checks |]. intros c. apply checks_seq; [now apply body_checks |].
           intros b'. apply checks_then. now apply chain_checks.
        -- rewrite X. cbn [all]. unfold ok_str_case at 2. cbn [fst snd].
           split; [| tauto]. intros (A & (B & B') & C & C' & C''). repeat split; auto; discriminate.
    + change (in_stmt (SSwitch false v cs d)) with (flat_map in_case cs ++ in_expr v ++ option_list in_body d).
      change (ok_stmt S G (SSwitch false v cs d)) with
        (ok_value S G v
         /\ all (fun c => all (ok_case S G) (fst c) /\ ok_stmts S G (snd c) /\ (false = true -> fst c <> [])) cs
         /\ all_opt (ok_stmts S G) d /\ (false = true -> cs <> [])).
      eapply checks_iff; [apply checks_seq; [apply (checks_tmap _ _ G in_case (tr_case env)
         (fun c => all (ok_case S G) (fst c) /\ ok_stmts S G (snd c))) |] |].
      * intros [vs b] I. unfold in_case, tr_case. cbn [fst snd]. apply checks_seq.
        -- rewrite refs_flat. apply checks_tmap. intros w _. apply checks_decides; [apply case_decides |].
           intros; eapply tr_case_value_sim; eauto.
        -- intros vs'. apply checks_then. apply body_checks. rewrite Forall_forall in IHc. apply (IHc _ I).
      * intros cs'. apply checks_seq; [apply val_checks |]. intros v'. apply checks_then. now apply opt_body_checks.
      * rewrite (all_ext _ (fun c => all (ok_case S G) (fst c) /\ ok_stmts S G (snd c) /\ (false = true -> fst c <> []))
                  (fun c => all (ok_case S G) (fst c) /\ ok_stmts S G (snd c))).
        -- intuition discriminate.
        -- intros c _. intuition discriminate.
  - apply expr_stmt_checks.
Qed.
Lemma body_checked : forall G l, checks G [] (in_body l) (tr_body env l) (ok_stmts S G l).
Proof. intros G l. apply body_checks. apply Forall_forall. intros; apply stmt_checked. Qed.

(** ** Elements *)
Lemma taf_checks : forall G x, checks G [] (in_forms (taf_type x) (taf_forms x)) (tr_taf env x) (ok_fields S G x).
Proof.
  intros G x. unfold tr_taf, in_forms, ok_fields. apply checks_tmap. intros f _.
  apply checks_seq; [apply typename_checks |]. intros t. apply checks_then, form_checks.
Qed.
Lemma params_checks : forall G p, checks G [] (flat_map (fun t => in_forms (taf_type t) (taf_forms t)) (fp_list p))
  (tr_func_params env p) (all (ok_fields S G) (fp_list p)).
Proof. intros G p. apply checks_then, checks_tmap. intros; apply taf_checks. Qed.

Lemma bind_forms_checks : forall t fs G, checks G (rev (map (SpecDecl.local t) fs))
  (map (fun x => Declare x false) (map f_name fs)) (bind_forms t fs) True.
Proof.
  induction fs as [| f fs IH]; intros G; cbn [bind_forms map rev]; [apply checks_ret |].
  change (Declare (f_name f) false :: ?l) with ([Declare (f_name f) false] ++ l).
  eapply checks_iff; [apply checks_bind; [apply add_checks | intros []; apply IH] | tauto].
Qed.
Lemma bind_params_checks : forall l G, checks G (rev (flat_map (fun t => map (SpecDecl.local (taf_type t)) (taf_forms t)) l))
  (map (fun x => Declare x false) (flat_map (fun t => map f_name (taf_forms t)) l)) (bind_params l) True.
Proof.
  induction l as [| p l IH]; intros G; cbn [bind_params flat_map]; [apply checks_ret |].
  rewrite map_app, rev_app_distr.
  eapply checks_iff; [apply checks_bind; [apply bind_forms_checks | intros []; apply IH] | tauto].
Qed.

Lemma closes_inv : forall b, closes b -> exists before st, b = before ++ [st] /\ closing st.
Proof. intros b H. inversion H; subst. eauto. Qed.
Lemma returns_last : forall b st, body_returns (b ++ [st]) = stmt_returns st.
Proof.
  induction b as [| x b IH]; intros st; [reflexivity |]. cbn [app body_returns].
  destruct (b ++ [st]) eqn:E; [destruct b; discriminate |]. rewrite <- E. apply IH.
Qed.
Lemma body_returns_iff : forall b, Forall (fun st => stmt_returns st = true <-> closing st) b ->
  body_returns b = true <-> closes b.
Proof.
  intros b H. destruct b as [| x b0] using rev_ind.
  - split; [discriminate |]. intros X. apply closes_inv in X. destruct X as (? & ? & X & _).
    destruct x; discriminate.
  - clear IHb0. rewrite returns_last. apply Forall_app in H. destruct H as [_ H]. inversion H as [| y z Hx _]; subst.
    rewrite Hx. split; [intros C; now constructor |]. intros C. apply closes_inv in C.
    destruct C as (u & v & E & C). apply app_inj_tail in E. destruct E as [_ ->]. exact C.
Qed.
Lemma stmt_returns_iff : forall st, stmt_returns st = true <-> closing st.
Proof.
  induction st as [| | v | c b e IHb IHe | i c a b IHb | c b IHb | e | is v cs d IHc IHd | e] using stmt_ind'.
  - split; intros H; [discriminate | inversion H].
  - split; intros H; [discriminate | inversion H].
  - split; intros H; [discriminate | inversion H].
  - change (stmt_returns (SIf c b e)) with (body_returns b). rewrite (body_returns_iff b IHb).
    split; intros H; [now constructor | now inversion H].
  - split; intros H; [discriminate | inversion H].
  - change (stmt_returns (SWhile c b)) with (is_ident c (L "true") || body_returns b).
    rewrite Bool.orb_true_iff, (body_returns_iff b IHb), <- is_name_ident.
    split; intros H; [destruct H; [now apply Closing_forever | now apply Closing_while] | inversion H; auto].
  - split; intros _; [constructor | reflexivity].
  - destruct d as [d |]; [| split; intros H; [discriminate | inversion H]].
    change (stmt_returns (SSwitch is v cs (Some d))) with
      (if negb (body_returns d) then false
       else (fix all (cs : list (list switch_value * list stmt)) : bool :=
               match cs with [] => true | (_, b) :: r => if negb (body_returns b) then false else all r end) cs).
    assert (X : (fix all (cs : list (list switch_value * list stmt)) : bool :=
               match cs with [] => true | (_, b) :: r => if negb (body_returns b) then false else all r end) cs = true
             <-> forall c, In c cs -> closes (snd c)).
    { clear - IHc. induction IHc as [| [vs b] r Hb Hr IH]; [split; [intros _ ? [] | auto] |]. cbn [snd] in Hb.
      assert (Y := body_returns_iff b Hb). destruct (body_returns b); cbn [negb].
      - rewrite IH. split; [| intros H c I; apply H; now right].
        intros H c [<- | I]; [cbn [snd]; now apply Y | auto].
      - split; [discriminate |]. intros H. specialize (H _ (or_introl eq_refl)). apply Y in H. discriminate. }
    assert (Y := body_returns_iff d IHd). destruct (body_returns d); cbn [negb].
    + rewrite X. split; [intros H; constructor; [auto | now apply Y] | intros H; now inversion H].
    + split; [discriminate |]. intros H. inversion H as [| | | | | ? ? ? ? _ H']; subst. apply Y in H'. discriminate.
  - destruct e; try (split; intros H; [discriminate | inversion H]).
    cbn [stmt_returns]. rewrite <- is_name_ident. split; intros H; [now constructor | now inversion H].
Qed.
Lemma returns_iff : forall b, body_returns b = true <-> closes b.
Proof. intros b. apply body_returns_iff, Forall_forall. intros; apply stmt_returns_iff. Qed.

Lemma func_checks : forall G f, checks G [] (in_func f) (tr_func_decl env f) (ok_elem S G (MFunc f)).
Proof.
  intros G f. cbn [ok_elem]. set (G1 := param_decls (fd_params f) ++ G).
  set (hd := in_func_head f).
  assert (C : checks G (param_decls (fd_params f))
    (map (fun x => Declare x false) (param_names (fd_params f)) ++ in_body (fd_body f) ++ hd
     ++ if is_main f then [] else hd)
    (bind_params (fp_list (fd_params f)) ;;;
     b <- tr_body env (fd_body f) ;;
     t <- tr_typename env (fd_type f) ;;
     f' <- tr_form env (fd_form f) true ;;
     ps <- tr_func_params env (fd_params f) ;;
     fw <- (if str_eqb (f_name (fd_form f)) (L "main") then tret []
            else t2 <- tr_typename env (fd_type f) ;;
                 f2 <- tr_form env (fd_form f) true ;;
                 ps2 <- tr_func_params env (fd_params f) ;;
                 tret [XForwardFunc (mkCfwd (negb (fd_pub f)) t2 f2 ps2)]) ;;
     tret (XFunc (mkCfd (negb (fd_pub f)) t f' ps b) :: fw))
    (True /\ ok_stmts S G1 (fd_body f) /\ type_known S (fd_type f) /\ ok_form S G1 (fd_form f)
     /\ all (ok_fields S G1) (fp_list (fd_params f))
     /\ (is_main f = true \/ (type_known S (fd_type f) /\ ok_form S G1 (fd_form f)
         /\ all (ok_fields S G1) (fp_list (fd_params f)))))).
  { change (param_decls (fd_params f)) with ([] ++ param_decls (fd_params f)) at 1.
    apply checks_bind; [apply bind_params_checks |]. intros []. fold G1.
    apply checks_seq; [apply body_checked |]. intros b.
    unfold hd at 1, in_func_head. rewrite <- !app_assoc.
    apply checks_seq; [apply typename_checks |]. intros t.
    apply checks_seq; [apply form_checks |]. intros f'.
    apply checks_seq; [apply params_checks |]. intros ps.
    apply checks_then. unfold is_main. destruct (str_eqb _ _).
    - eapply checks_iff; [apply checks_ret | tauto].
    - eapply checks_iff; [| split; [intros X; right; exact X | intros [X | X]; [discriminate | exact X]]].
      unfold hd, in_func_head.
      apply checks_seq; [apply typename_checks |]. intros t2.
      apply checks_seq; [apply form_checks |]. intros f2. apply checks_then, params_checks. }
  unfold in_func. fold hd.
  set (rt := (negb (is_void (fd_type f)) || Nat.eqb (f_hops (fd_form f)) 1) && negb (body_returns (fd_body f))).
  assert (RT : rt = false <-> (is_void (fd_type f) = false \/ f_hops (fd_form f) = 1 -> closes (fd_body f))).
  { unfold rt. rewrite Bool.andb_false_iff, Bool.orb_false_iff, !Bool.negb_false_iff, returns_iff.
    rewrite Nat.eqb_neq. destruct (is_void (fd_type f)).
    - split; [intros [[_ X] | X] [Y | Y]; try discriminate; try contradiction; auto |].
      intros X. destruct (Nat.eq_dec (f_hops (fd_form f)) 1); auto.
    - split; [intros [[X _] | X]; [discriminate | auto] |]. intros X. right. auto. }
  eapply checks_ext; [eapply checks_iff; [eapply (scope_checks _ _ _ _ _ _ (fun r =>
      if rt then terr (berr env (pos_fmt (fd_pos f)) (f_name (fd_form f) ++ L ": missing return")) else tret r) _
      (rt = false)); [exact C |] |] |].
  - intros r s R. destruct rt.
    + split; [split; [intros (? & ? & W); discriminate | intros [W _]; discriminate] |].
      intros ? ? W. discriminate.
    + destruct (checks_ret _ G r s R) as [C1 C2]. split; [| exact C2]. rewrite C1. tauto.
  - rewrite RT. tauto.
  - intros s. unfold tr_func_decl. apply tbind_ext; [auto |]. intros _ s1.
    rewrite <- tbind_assoc. apply tbind_ext; [auto |]. intros _ s2.
    rewrite <- tbind_assoc. apply tbind_ext; [auto |]. intros b s3.
    rewrite <- tbind_assoc. apply tbind_ext; [auto |]. intros t s4.
    rewrite <- tbind_assoc. apply tbind_ext; [auto |]. intros f' s5.
    rewrite <- tbind_assoc. apply tbind_ext; [auto |]. intros ps s6.
    rewrite <- tbind_assoc. apply tbind_ext; [auto |]. reflexivity.
Qed.

(** What the two passes over the elements ask for. *)
Definition bind_ok (e : modelem) : Prop :=
  match e with
  | MMacro m => m_name m = L "define" -> exists id v r, split_whitespace (trim (m_value m)) = id :: v :: r
  | _ => True
  end.
Definition tr_ok (G : list decl) (e : modelem) : Prop :=
  match e with MMacro _ => True | _ => ok_elem S G e end.

Lemma elem_checks : forall G e, checks G [] (in_elem e) (tr_mod_elem env e) (tr_ok G e).
Proof.
  intros G [m | e | a | t | x | v | f]; cbn [tr_mod_elem in_elem tr_ok].
  - apply checks_ret.
  - unfold tr_enum. cbn [ok_elem]. apply checks_then, checks_tmap. intros en _. apply checks_then, opt_checks.
  - apply checks_ret.
  - unfold tr_typedef. cbn [ok_elem].
    apply checks_seq.
    + destruct (td_func_params t) as [p |]; cbn [topt all_opt]; [| apply checks_ret].
      apply checks_then, checks_then, checks_tmap. intros b _. apply checks_decides; [apply btf_decides |].
      intros r s s' H. unfold tr_bare_typeform in H. apply tbind_ok in H. destruct H as (y & s1 & E & H).
      unfold tret in H. injection H as _ <-. eapply tr_typename_sim; eauto.
    + intros p. apply checks_then, typename_checks.
  - unfold tr_struct_typedef. cbn [ok_elem]. apply checks_then, checks_tmap. intros [y | u] _; cbn [tr_struct_entry in_struct_entry ok_struct_entry].
    + apply checks_then, taf_checks.
    + apply checks_then. unfold tr_union. apply checks_seq; [apply form_checks |]. intros f.
      apply checks_then, checks_tmap. intros p _. apply checks_seq; [apply typename_checks |]. intros t.
      apply checks_then, form_checks.
  - unfold tr_modvar. cbn [ok_elem].
    apply checks_seq; [apply typename_checks |]. intros t. apply checks_seq; [apply form_checks |]. intros f.
    destruct (v_value v) as [e |].
    + eapply checks_iff; [apply checks_then, val_checks |]. split; [eauto |]. intros (e' & E & X). now injection E as ->.
    + intros s R. split; [split; [intros (? & ? & W); discriminate |] | intros ? ? W; discriminate].
      intros [(e & E & _) _]. discriminate.
  - apply func_checks.
Qed.
Lemma bind_elem_checks : forall e G, checks G (rev (elem_decls is_numeric e)) (elem_declares e) (bind_elem e) (bind_ok e).
Proof.
  intros [m | e | a | t | x | v | f] G; cbn [bind_elem elem_declares elem_decls bind_ok rev app]; try apply checks_ret.
  - unfold bind_define. destruct (str_eqb_spec (m_name m) (L "type")) as [E | E].
    + rewrite E. cbn [str_eqb lit]. eapply checks_iff; [apply checks_ret |]. split; auto. intros _ H. discriminate.
    + destruct (str_eqb_spec (m_name m) (L "define")) as [E2 | E2];
        [| eapply checks_iff; [apply checks_ret | tauto]].
      destruct (split_whitespace _) as [| id [| v l]].
      * intros s R. split; [split; [intros (? & ? & W); discriminate |] | intros ? ? W; discriminate].
        intros [W _]. destruct (W E2) as (? & ? & ? & W'). discriminate.
      * intros s R. split; [split; [intros (? & ? & W); discriminate |] | intros ? ? W; discriminate].
        intros [W _]. destruct (W E2) as (? & ? & ? & W'). discriminate.
      * eapply checks_iff; [apply add_checks |]. split; auto. intros _ _. eauto.
  - apply checks_then. revert G. induction (enum_entries e) as [| en l IH]; intros G; cbn [tmap map rev]; [apply checks_ret |].
    change (Declare (en_name en) (enum_pub e) :: ?l) with ([Declare (en_name en) (enum_pub e)] ++ l).
    eapply checks_iff; [apply checks_bind; [apply add_checks | intros []; apply checks_then, IH] | tauto].
  - apply add_checks.
  - apply add_checks.
Qed.
Lemma bind_elems_checks : forall l G, checks G (module_decls is_numeric l) (flat_map elem_declares l) (tmap bind_elem l) (all bind_ok l).
Proof.
  unfold module_decls. induction l as [| e l IH]; intros G; cbn [tmap flat_map rev all]; [apply checks_ret |].
  rewrite rev_app_distr. apply checks_bind; [apply bind_elem_checks |]. intros []. apply checks_then, IH.
Qed.

Lemma elements_checks : forall elems,
  checks [] [] (in_module elems) (tr_elements env elems) (all (ok_elem S (module_decls is_numeric elems)) elems).
Proof.
  intros elems. set (G := module_decls is_numeric elems).
  assert (C : checks [] G (flat_map elem_declares elems ++ flat_map in_elem elems)
    (tmap bind_elem elems ;;; tmap (tr_mod_elem env) elems) (all bind_ok elems /\ all (tr_ok G) elems)).
  { change G with ([] ++ G) at 1. apply checks_bind; [apply bind_elems_checks |]. intros _.
    unfold G. rewrite app_nil_r. apply checks_tmap. intros; apply elem_checks. }
  eapply checks_ext; [eapply checks_iff; [eapply (scope_checks _ _ _ _ _ _ (fun b => tret (List.concat b))); [exact C | intros; apply checks_ret] |] |].
  - rewrite !all_in. split.
    + intros ((A & B) & _) e I. specialize (A e I). specialize (B e I). destruct e; auto.
    + intros A. repeat split; intros e I; specialize (A e I); destruct e; cbn [bind_ok tr_ok]; auto.
  - intros s. unfold tr_elements. apply tbind_ext; [auto |]. intros _ s1.
    rewrite <- tbind_assoc. apply tbind_ext; reflexivity.
Qed.
End Accept.

Lemma run_module : forall elems, (exists m', run any (in_module elems) ([], []) m')
  <-> declared_once [] (in_module elems) /\ all_used (in_module elems).
Proof.
  intros elems. unfold in_module. set (l := flat_map elem_declares elems ++ flat_map in_elem elems). split.
  - intros (m' & H). inversion H as [| | | l' l0 scs ns sc scs1 ns1 m1 H1 Hf H2]; subst. split.
    + constructor; [| constructor]. eapply run_once; eauto; [reflexivity |]. intros; reflexivity.
    + constructor; [| constructor]. eapply run_used; eauto; reflexivity.
  - intros [O U]. inversion O as [| | | h l' l0 O1 O2]; subst. inversion U as [| | | l' l0 U1 U2]; subst.
    assert (T : tidy [[]]) by (constructor; [constructor | constructor]).
    destruct (run_exists l U1 [] [] [] O1 T) as ([scs ns] & R).
    destruct (run_taken _ _ _ _ R T) as (T' & K & _).
    destruct (K [] [] eq_refl) as (sc1 & new & scs' & E & _). cbn [fst] in E. subst scs.
    eexists. eapply Run_scope; [exact R | | apply Run_nil].
    eapply (run_fine _ _ _ _ R T); eauto; reflexivity.
Qed.

Lemma position_iff : forall path heads k,
  position (fun x => str_eqb (mi_filepath x) path) heads = Some k <->
  exists before h after, heads = before ++ h :: after /\ mi_filepath h = path
    /\ (forall x, In x before -> mi_filepath x <> path) /\ List.length before = k.
Proof.
  induction heads as [| x r IH]; intros k; cbn [position].
  - split; [discriminate |]. intros ([| ? ?] & ? & ? & E & _); discriminate.
  - destruct (str_eqb_spec (mi_filepath x) path) as [E | E].
    + split; [intros H; injection H as <-; exists [], x, r; repeat split; auto; intros ? [] |].
      intros ([| y b] & h & a & Q & F & N & <-); [reflexivity |]. injection Q as <- Q.
      exfalso. apply (N x); [now left | exact E].
    + destruct (position _ r) as [i |].
      * split.
        -- intros H. injection H as <-. destruct (proj1 (IH i) eq_refl) as (b & h & a & -> & F & N & Len).
           exists (x :: b), h, a. repeat split; auto; [| cbn; congruence]. intros y [<- | I]; auto.
        -- intros ([| y b] & h & a & Q & F & N & Len); injection Q as <- Q; [contradiction |].
           cbn [List.length] in Len. subst k.
           assert (X : Some i = Some (List.length b)); [| injection X as ->; reflexivity].
           apply IH. exists b, h, a. repeat split; auto. intros z I. apply N. now right.
      * split; [discriminate |]. intros ([| y b] & h & a & Q & F & N & Len); injection Q as <- Q; [contradiction |].
        exfalso. assert (X : @None nat = Some (List.length b)); [| discriminate].
        apply IH. exists b, h, a. repeat split; auto. intros z I. apply N. now right.
Qed.
Lemma expand_iff : forall m p, (exists l, expand_imports (env_of m p) = TrOk l)
  <-> forall imp, In imp (mi_imports (tp_mod p)) -> translated (tp_heads p) (List.length (tp_cmods p)) (r_path imp).
Proof.
  intros m p. unfold expand_imports. cbn [env_of en_mod]. set (env := env_of m p).
  assert (X : forall imps, (exists l, import_synopses env imps = TrOk l) <->
    forall imp, In imp imps -> translated (tp_heads p) (List.length (tp_cmods p)) (r_path imp)).
  { induction imps as [| imp r IH]; cbn [import_synopses].
    - split; [intros _ ? [] |]. eauto.
    - assert (P : translated (tp_heads p) (List.length (tp_cmods p)) (r_path imp) <-> exists k cm,
        position (fun x => str_eqb (mi_filepath x) (r_path imp)) (en_heads env) = Some k
        /\ nth_error (en_cmods env) k = Some cm).
      { unfold env. cbn [env_of en_heads en_cmods]. split.
        - intros (b & h & a & E & F & N & Len). exists (List.length b).
          destruct (nth_error (tp_cmods p) (List.length b)) as [cm |] eqn:Q.
          + exists cm. split; [| reflexivity]. apply position_iff. exists b, h, a. auto.
          + apply nth_error_None in Q. lia.
        - intros (k & cm & E & Q). apply position_iff in E. destruct E as (b & h & a & E & F & N & <-).
          exists b, h, a. repeat split; auto. apply nth_error_Some. congruence. }
      destruct (position _ (en_heads env)) as [k |].
      + destruct (nth_error (en_cmods env) k) as [cm |] eqn:Q.
        * assert (PT : translated (tp_heads p) (List.length (tp_cmods p)) (r_path imp)) by (apply P; eauto). split.
          -- intros (l & H). destruct (import_synopses env r) as [l' | |]; try discriminate.
             intros i [<- | I]; auto. apply IH; eauto.
          -- intros H. destruct (proj2 IH) as (l & ->); [intros i I; apply H; now right | eauto].
        * split; [intros (l & H); discriminate |]. intros H. exfalso.
          destruct (proj1 P (H imp (or_introl eq_refl))) as (k' & cm & E & N). injection E as <-. congruence.
      + split; [intros (l & H); discriminate |]. intros H. exfalso.
        destruct (proj1 P (H imp (or_introl eq_refl))) as (k' & cm & E & N). discriminate. }
  rewrite <- X. split; intros (l & H).
  - destruct (import_synopses env _); try discriminate. eauto.
  - rewrite H. eauto.
Qed.

(** A module is accepted iff it is in order. *)
Lemma accepted_iff : forall m p, (exists cm, translate m p = TrOk cm) <->
  in_order (site_of m p) is_numeric (tp_heads p) (List.length (tp_cmods p)).
Proof.
  intros m p. set (env := env_of m p).
  destruct (elements_checks (site_of m p) env (site_describes m p) (mod_elements m) st0 (fun x => eq_refl)) as [C1 C2].
  change (abs st0) with (([], []) : mstate) in *.
  rewrite run_module in C1. unfold in_order, ok_elems. change (elements (site_of m p)) with (mod_elements m).
  change (own (site_of m p)) with (tp_mod p).
  assert (IMP : forall b s, tr_elements env (mod_elements m) st0 = TrOk (b, s) ->
    (check_imports env s = None <-> forall imp, In imp (mi_imports (tp_mod p)) ->
      r_ns imp <> [] /\ r_ns imp <> L "OS"
        /\ exists r, refers r (in_module (mod_elements m)) /\ ns_ns (ref_name r) = r_ns imp)).
  { intros b s E. destruct (C2 _ _ E) as [R _]. unfold check_imports. split.
    - intros H imp I. destruct (find _ _) eqn:F; [discriminate |]. apply (find_none _ _ F) in I.
      apply Bool.negb_false_iff, str_in_spec in I.
      destruct (run_ns _ _ _ _ R _ I) as [[] | (r & A & B & N1 & N2)]. repeat split; eauto.
    - intros H. destruct (find _ _) as [imp |] eqn:F; [| reflexivity]. exfalso.
      apply find_some in F. destruct F as [I F]. destruct (H imp I) as (N1 & N2 & r & A & B).
      apply Bool.negb_true_iff in F. assert (X : In (r_ns imp) (s_ns s)); [| apply str_in_spec in X; congruence].
      rewrite <- B. apply (proj2 (run_marks_ns _ _ _ _ R)); congruence. }
  unfold translate. fold env. split.
  - intros (cm & H). destruct (tr_elements env _ _) as [[b s] | |] eqn:E; try discriminate.
    destruct (check_imports env s) eqn:CI; [discriminate |].
    destruct (expand_imports env) as [l | |] eqn:X; try discriminate.
    assert (W : works (tr_elements env (mod_elements m)) st0) by (eexists _, _; eauto).
    apply C1 in W. repeat split; try tauto.
    + apply (expand_iff m p); [eauto | auto].
    + apply (proj1 (IMP _ _ eq_refl) CI). auto.
    + apply (proj1 (IMP _ _ eq_refl) CI). auto.
    + apply (proj1 (IMP _ _ eq_refl) CI). auto.
  - intros (A & B & C & I). destruct (proj2 C1 (conj A (conj B C))) as (b & s & E). rewrite E.
    rewrite (proj2 (IMP _ _ E)); [| intros imp H; apply I in H; tauto].
    destruct (proj2 (expand_iff m p)) as (l & X); [intros imp H; apply I in H; tauto |].
    fold env in X. rewrite X. eauto.
Qed.

Lemma occurs_ok : forall S G' st G l, occurs G' st G l -> ok_stmts S G l -> ok_stmt S G' st.
Proof.
  intros S G' st G l H. induction H as [r | G s r H IH | G c b e r H IH | G c b e r H IH | G i c a b r H IH
    | G c b r H IH | G k v cs d c r I H IH | G k v cs d r H IH]; intros K; cbn [ok_stmts] in K; destruct K as [K K2].
  - exact K.
  - auto.
  - change (ok_value S G c /\ ok_stmts S G b /\ all_opt (ok_stmts S G) e) in K. tauto.
  - change (ok_value S G c /\ ok_stmts S G b /\ ok_stmts S G e) in K. tauto.
  - apply IH. exact (proj2 (proj2 (proj2 K))).
  - apply IH. exact (proj2 K).
  - destruct K as (_ & K & _). apply IH. apply (proj1 (all_in _ _ _) K) in I. apply I.
  - apply IH. exact (proj1 (proj2 (proj2 K))).
Qed.
Lemma stmt_of_ok : forall m p cm f G st, translate m p = TrOk cm ->
  stmt_of is_numeric (mod_elements m) f G st -> ok_stmt (site_of m p) G st.
Proof.
  intros m p cm f G st H [I O]. assert (X : exists cm, translate m p = TrOk cm) by eauto.
  apply accepted_iff in X. destruct X as [X _]. unfold ok_elems in X. apply (proj1 (all_in _ _ _) X) in I.
  eapply occurs_ok; [exact O |]. apply I.
Qed.
