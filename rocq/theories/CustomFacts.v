(** Which modules get the [calloc!] helper. *)
From Verif Require Import Base BaseFacts Buf Nodes NodeQueries NodeInd Types Cspec Resolve Cursor
  Preparser Parser CAst FormatChe FormatC Translator SpecDecl SpecTarget SpecScope ScopeFacts TrFacts
  TargetFacts SpecModule.

Definition has (s : trst) : Prop := In (L "calloc_or_panic") (s_customs s).
Definition uses (l : list expr) : Prop := exists e x, In e l /\ In x (subs e) /\ calloc_call x.

(** The helper is requested by [m] exactly if one of [l] calls [calloc!]. *)
Definition marks {A} (m : TR A) (l : list expr) : Prop :=
  forall a s s', m s = TrOk (a, s') -> (has s' <-> has s \/ uses l).

Lemma uses_nil : uses [] <-> False.
Proof. split; [intros (e & x & [] & _) | tauto]. Qed.
Lemma uses_app : forall a b, uses (a ++ b) <-> uses a \/ uses b.
Proof.
  intros a b. unfold uses. split.
  - intros (e & x & I & H). apply in_app_iff in I. destruct I; [left | right]; eauto.
  - intros [(e & x & I & H) | (e & x & I & H)]; exists e, x; rewrite in_app_iff; auto.
Qed.
Lemma uses_cons : forall a b, uses (a :: b) <-> uses [a] \/ uses b.
Proof. intros a b. apply (uses_app [a] b). Qed.
Lemma uses_one : forall e l, subs e = e :: flat_map subs l -> (uses [e] <-> calloc_call e \/ uses l).
Proof.
  intros e l H. unfold uses. split.
  - intros (e' & x & [<- | []] & I & C). rewrite H in I. destruct I as [<- | I]; [auto |].
    apply in_flat_map in I. destruct I as (y & Y & I). right. eauto.
  - intros [C | (e' & x & I & J & C)].
    + exists e, e. rewrite H. cbn. auto.
    + exists e, x. rewrite H. split; [now left |]. split; auto. right. apply in_flat_map. eauto.
Qed.

Lemma marks_iff : forall A (m : TR A) l l', marks m l -> (uses l <-> uses l') -> marks m l'.
Proof. intros A m l l' H E a s s' R. rewrite (H _ _ _ R), E. reflexivity. Qed.
Lemma marks_ext : forall A (m m' : TR A) l, marks m l -> (forall s, m' s = m s) -> marks m' l.
Proof. intros A m m' l H E a s s' R. rewrite E in R. eauto. Qed.
Lemma marks_bind : forall A B (m : TR A) (f : A -> TR B) l l', marks m l -> (forall a, marks (f a) l') ->
  marks (tbind m f) (l ++ l').
Proof.
  intros A B m f l l' H H2 b s s' R. apply tbind_ok in R. destruct R as (a & s1 & E & R).
  rewrite (H2 _ _ _ _ R), (H _ _ _ E), uses_app. tauto.
Qed.
Lemma marks_state : forall A (m : TR A), (forall a s s', m s = TrOk (a, s') -> s_customs s' = s_customs s) ->
  marks m [].
Proof. intros A m H a s s' R. unfold has. rewrite (H _ _ _ R), uses_nil. tauto. Qed.
Lemma marks_ret : forall A (a : A), marks (tret a) [].
Proof. intros A a. apply marks_state. intros b s s' H. tsteps. reflexivity. Qed.
Lemma marks_pre : forall A B (m : TR A) (f : A -> TR B) l, marks m [] -> (forall a, marks (f a) l) ->
  marks (tbind m f) l.
Proof. intros A B m f l H H2. apply (marks_bind _ _ _ _ [] l); auto. Qed.
Lemma marks_post : forall A B (m : TR A) (f : A -> TR B) l, marks m l -> (forall a, marks (f a) []) ->
  marks (tbind m f) l.
Proof. intros A B m f l H H2. rewrite <- (app_nil_r l). apply marks_bind; auto. Qed.
Lemma marks_fail : forall A (m : TR A) l, (forall s r, m s <> TrOk r) -> marks m l.
Proof. intros A m l H a s s' R. exfalso. eapply H; eauto. Qed.
Lemma marks_panic : forall A w l, marks (tpanic w : TR A) l.
Proof. intros. apply marks_fail. discriminate. Qed.
Lemma marks_err : forall A e l, marks (terr e : TR A) l.
Proof. intros. apply marks_fail. discriminate. Qed.
Lemma marks_tmap : forall A B (f : A -> TR B) (g : A -> list expr) l, (forall a, In a l -> marks (f a) (g a)) ->
  marks (tmap f l) (flat_map g l).
Proof.
  intros A B f g l. induction l as [| a l IH]; intros H; cbn [tmap flat_map].
  - apply marks_ret.
  - apply marks_bind; [apply H; now left |]. intros x. apply marks_post; [apply IH; intros; apply H; now right |].
    intros. apply marks_ret.
Qed.
Lemma marks_topt : forall A B (f : A -> TR B) (g : A -> list expr) o, (forall a, o = Some a -> marks (f a) (g a)) ->
  marks (topt f o) (match o with Some a => g a | None => [] end).
Proof.
  intros A B f g [a |] H; cbn [topt].
  - apply marks_post; auto. intros. apply marks_ret.
  - apply marks_ret.
Qed.

Section Marks.
Variable env : trenv.

Lemma begin_marks : marks begin_scope [].
Proof. apply marks_state. intros a s s' H. unfold begin_scope in H. injection H as _ <-. reflexivity. Qed.
Lemma end_marks : marks (end_scope env) [].
Proof.
  apply marks_state. intros a s s' H. unfold end_scope in H.
  destruct (s_scopes s); [discriminate |]. destruct (find _ _); [discriminate |]. injection H as _ <-. reflexivity.
Qed.
Lemma lookup_marks : forall x, marks (lookup x) [].
Proof. intros x. apply marks_state. intros a s s' H. unfold lookup in H. injection H as _ <-. reflexivity. Qed.
Lemma add_marks : forall x p b t, marks (add_binding x p b t) [].
Proof.
  intros x p b t. apply marks_state. intros a s s' H. unfold add_binding in H.
  destruct (s_scopes s); [discriminate |]. destruct (existsb _ _); [discriminate |].
  injection H as _ <-. reflexivity.
Qed.
Lemma use_marks : forall x, marks (mark_binding_use x) [].
Proof.
  intros x. apply marks_state. intros a s s' H. unfold mark_binding_use in H.
  destruct (mark_scopes _ _); injection H as _ <-; reflexivity.
Qed.
Lemma ns_marks : forall x, marks (use_ns x) [].
Proof. intros x. apply marks_state. intros a s s' H. unfold use_ns in H. injection H as _ <-. reflexivity. Qed.
Lemma getns_marks : forall x, marks (getns env x) [].
Proof.
  intros x. apply marks_state. intros a s s' H. unfold getns in H. destruct (find_ns _ _); [| discriminate].
  apply tret_ok in H. destruct H as [_ <-]. reflexivity.
Qed.
Lemma lift_marks : forall p x r, marks (lift env p x r) [].
Proof.
  intros p x r. apply marks_state. intros a s s' H. apply lift_state in H. destruct H as [<- _]. reflexivity.
Qed.
Lemma custom_marks : forall a s s', use_custom (L "calloc_or_panic") s = TrOk (a, s') -> (has s' <-> True).
Proof. intros a s s' H. unfold use_custom in H. injection H as _ <-. unfold has. cbn. tauto. Qed.

Ltac base := first
  [ apply marks_ret | apply marks_panic | apply marks_err | apply begin_marks | apply end_marks | apply lookup_marks
  | apply add_marks | apply use_marks | apply ns_marks | apply getns_marks | apply lift_marks ].
(** A computation without expressions inside. *)
Ltac quiet := repeat first
  [ base
  | apply marks_pre; [| intros]
  | match goal with
    | |- marks (if ?b then _ else _) _ => destruct b
    | |- marks (match ?x with _ => _ end) _ => destruct x
    | |- marks (let _ := _ in _) _ => cbv zeta
    end ].

Lemma typename_marks : forall x, marks (tr_typename env x) [].
Proof. intros x. unfold tr_typename. cbv zeta. quiet. Qed.
Lemma btf_marks : forall x, marks (tr_bare_typeform env x) [].
Proof. intros x. unfold tr_bare_typeform. apply marks_pre; [apply typename_marks | intros; base]. Qed.
Lemma nsid_marks : forall x, marks (tr_nsid_in_expr env x) [].
Proof.
  intros x. unfold tr_nsid_in_expr. apply marks_pre.
  - unfold tr_nsid. cbv zeta. quiet.
  - intros. quiet.
Qed.
Lemma call_marks : forall p f args, marks (call_result env p f args) [].
Proof.
  intros p f args. apply marks_state. intros a s s' H. apply call_result_state in H. subst. reflexivity.
Qed.
Lemma key_marks : forall k, marks (tr_key k) [].
Proof. intros k. apply marks_state. intros a s s' H. apply tr_key_state in H. subst. reflexivity. Qed.

(** An expression that is no call of [calloc!] needs what its parts need. *)
Lemma marks_node : forall A (m : TR A) e l, marks m l -> subs e = e :: flat_map subs l -> ~ calloc_call e ->
  marks m [e].
Proof. intros A m e l H E N. eapply marks_iff; [exact H |]. rewrite (uses_one _ _ E). tauto. Qed.

Lemma flat_one : forall e, flat_map subs [e] = subs e.
Proof. intros. cbn [flat_map]. apply app_nil_r. Qed.
Lemma flat_two : forall a b, flat_map subs ([a] ++ [b]) = subs a ++ subs b.
Proof. intros. cbn [app flat_map]. now rewrite app_nil_r. Qed.
Lemma flat_flat : forall A (f : A -> expr) l, flat_map subs (flat_map (fun x => [f x]) l) = flat_map (fun x => subs (f x)) l.
Proof. intros A f l. induction l as [| a r IH]; [auto |]. cbn [flat_map app]. now rewrite IH. Qed.
Lemma flat_id : forall l : list expr, flat_map (fun x => [x]) l = l.
Proof. induction l as [| a r IH]; [auto |]. cbn [flat_map app]. now rewrite IH. Qed.

Lemma expr_marks : forall e, marks (tr_expr env e) [e].
Proof.
  induction e as [a i IHa IHi | p op a b IHa IHb | p op t f IHt | t x IHx | es IHes _ | p f args IHf IHa
    | l | n | op x IHx | p op x IHx | t | x IHx] using expr_ind'.
  - eapply marks_node with (l := [a] ++ [i]); [| now rewrite flat_two | intros []]. cbn [tr_expr].
    apply marks_bind; [auto |]. intros [ta va]. apply marks_post; [auto |]. intros [ti vi]. quiet.
  - eapply marks_node with (l := [a] ++ [b]); [| now rewrite flat_two | intros []]. cbn [tr_expr].
    apply marks_bind; [auto |]. intros [ta va]. apply marks_post; [auto |]. intros [ti vi]. quiet.
  - eapply marks_node with (l := [t]); [| now rewrite flat_one | intros []]. cbn [tr_expr].
    apply marks_post; [auto |]. intros [ta va]. quiet.
  - eapply marks_node with (l := [x]); [| now rewrite flat_one | intros []]. cbn [tr_expr].
    apply marks_post; [auto |]. intros [ta va]. apply marks_pre; [apply btf_marks | intros; base].
  - eapply marks_node with (l := flat_map (fun x => [snd x]) es); [| now rewrite flat_flat | intros []].
    eapply marks_ext; [| apply tr_expr_comp]. apply marks_post; [| intros; base].
    rewrite Forall_forall in IHes. apply marks_tmap. intros [[i k] v] I. unfold tr_entry. cbn [fst snd].
    apply marks_pre; [apply key_marks |]. intros k'. apply marks_post; [apply (IHes _ I) |]. intros [t' v']. base.
  - rewrite Forall_forall in IHa.
    assert (HA : marks (tmap (tr_expr env) args) args).
    { rewrite <- (flat_id args) at 2. apply marks_tmap. exact IHa. }
    assert (S1 : subs (ECall p f args) = ECall p f args :: flat_map subs (args ++ [f])).
    { cbn [subs]. rewrite flat_map_app, flat_one. reflexivity. }
    destruct (is_ident f (L "calloc!")) eqn:C.
    + intros r s s' R. rewrite tr_expr_call, C in R.
      apply tbind_ok in R. destruct R as (u & s1 & E1 & R). apply custom_marks in E1.
      assert (M : marks (aa <- tmap (tr_expr env) args;;
                         ' (t, v) <- tr_nsid_in_expr env (mkNs p [] (L "calloc_or_panic"));;
                         call_result env p (t, CIdent v) aa) args).
      { apply marks_post; [exact HA |]. intros aa. apply marks_pre; [apply nsid_marks |]. intros [t v].
        apply call_marks. }
      rewrite (M _ _ _ R), E1, (uses_one _ _ S1). unfold calloc_call. rewrite is_name_ident, C. tauto.
    + apply marks_node with (l := args ++ [f]); [| exact S1 |].
      * eapply marks_ext; [| apply tr_expr_call]. rewrite C. apply marks_bind; [exact HA |]. intros aa.
        apply marks_post; [exact IHf |]. intros ff. apply call_marks.
      * unfold calloc_call. rewrite is_name_ident, C. discriminate.
  - eapply marks_node with (l := []); [| reflexivity | intros []]. apply marks_ret.
  - eapply marks_node with (l := []); [| reflexivity | intros []]. cbn [tr_expr].
    apply marks_pre; [apply nsid_marks |]. intros [t v]. base.
  - eapply marks_node with (l := [x]); [| now rewrite flat_one | intros []]. cbn [tr_expr].
    apply marks_post; [auto |]. intros [ta va]. quiet.
  - eapply marks_node with (l := [x]); [| now rewrite flat_one | intros []]. cbn [tr_expr].
    apply marks_post; [auto |]. intros [ta va]. quiet.
  - eapply marks_node with (l := []); [| reflexivity | intros []]. cbn [tr_expr].
    apply marks_pre; [apply btf_marks |]. intros. base.
  - eapply marks_node with (l := [x]); [| now rewrite flat_one | intros []]. cbn [tr_expr].
    apply marks_post; [auto |]. intros [ta va]. quiet.
Qed.

Lemma val_marks : forall e, marks (tr_val env e) [e].
Proof. intros e. unfold tr_val. apply marks_post; [apply expr_marks |]. intros [t v]. base. Qed.
Lemma opt_marks : forall o, marks (topt (tr_val env) o) (opt_list o).
Proof. intros o. apply (marks_topt _ _ _ (fun e => [e])). intros. apply val_marks. Qed.
Lemma cond_marks : forall e, marks (tr_cond env e) [e].
Proof. intros e. unfold tr_cond. apply marks_post; [apply expr_marks |]. intros [t v]. quiet. Qed.
Lemma form_marks : forall f b, marks (tr_form env f b) (form_exprs f).
Proof.
  intros f b. unfold tr_form. apply marks_post.
  - apply marks_tmap. intros o _. apply opt_marks.
  - intros. cbv zeta. apply marks_pre; intros; base.
Qed.
Lemma vardecl_marks : forall v, marks (tr_vardecl env v) (stmt_exprs (SVarDecl v)).
Proof.
  intros v. unfold tr_vardecl. cbn [stmt_exprs]. apply marks_pre; [base |]. intros _.
  apply marks_pre; [apply typename_marks |]. intros t. apply marks_bind; [apply form_marks |]. intros f.
  apply marks_post; [apply opt_marks |]. intros. base.
Qed.
Lemma forinit_marks : forall i, marks (tr_forinit env i)
  match i with FIExpr e => [e] | FIDecl _ f e => form_exprs f ++ [e] end.
Proof.
  intros [e | t f e]; cbn [tr_forinit].
  - apply marks_post; [apply val_marks |]. intros. base.
  - apply marks_pre; [base |]. intros _. apply marks_pre; [apply typename_marks |]. intros t'.
    apply marks_bind; [apply form_marks |]. intros f'. apply marks_post; [apply val_marks |]. intros. base.
Qed.
Lemma case_values_marks : forall l, marks (tmap (tr_case_value env) l) [].
Proof.
  intros l. eapply marks_iff; [apply (marks_tmap _ _ _ (fun _ => [])) |].
  - intros [n | x] _; cbn [tr_case_value]; [| base]. apply marks_pre; [apply nsid_marks |]. intros [t v]. base.
  - enough (flat_map (fun _ => []) l = [] :> list expr) as -> by reflexivity. induction l; auto.
Qed.
Lemma strcond_marks : forall l sv, marks (mk_switchstr_cond env l sv) [].
Proof.
  intros l sv. unfold mk_switchstr_cond. apply marks_pre; [apply case_values_marks |]. intros []; base.
Qed.
Lemma vals_marks : forall l, marks (tmap (tr_val env) l) l.
Proof. intros l. rewrite <- (flat_id l) at 2. apply marks_tmap. intros. apply val_marks. Qed.
Lemma expr_stmt_marks : forall e, marks (tr_expr_stmt env e) [e].
Proof.
  intros e. assert (D : marks (v <- tr_val env e ;; tret (KExpr v)) [e]).
  { apply marks_post; [apply val_marks |]. intros. base. }
  unfold tr_expr_stmt. destruct e; try exact D.
  match goal with |- context [is_ident ?f _] => destruct (is_ident f (L "panic")) eqn:C; [| exact D];
    destruct f; try discriminate end.
  match goal with |- marks _ [ECall ?p ?f ?args] => apply marks_node with (l := args ++ [f]) end.
  - eapply marks_iff; [unfold mk_panic; apply marks_post; [apply vals_marks |]; intros; base |].
    rewrite uses_app. split; [auto |]. intros [? | U]; [auto |]. apply (uses_one _ []) in U; [| reflexivity].
    cbn [calloc_call] in U. rewrite uses_nil in U. tauto.
  - cbn [subs]. rewrite flat_map_app, flat_one. reflexivity.
  - cbn [calloc_call]. rewrite is_name_ident. cbn [is_ident] in *.
    apply Bool.andb_true_iff in C. destruct C as [_ C]. apply str_eqb_eq in C. rewrite C.
    rewrite Bool.andb_comm. discriminate.
Qed.

Lemma tbody_marks : forall b, Forall (fun s => marks (tr_stmt env s) (stmt_exprs s)) b ->
  marks (tr_body env b) (flat_map stmt_exprs b).
Proof.
  intros b H. rewrite Forall_forall in H. unfold tr_body. apply marks_pre; [base |]. intros _.
  apply marks_post; [| intros; quiet]. eapply marks_ext; [| apply tr_stmts_tmap].
  apply marks_tmap. auto.
Qed.
Lemma opt_body_marks : forall o, opt_all (fun s => marks (tr_stmt env s) (stmt_exprs s)) o ->
  marks (topt (tr_body env) o) (match o with Some b => flat_map stmt_exprs b | None => [] end).
Proof.
  intros o H. apply (marks_topt _ _ _ (fun b => flat_map stmt_exprs b)). intros b ->. apply tbody_marks. exact H.
Qed.
Lemma chain_marks : forall sv cs d,
  Forall (fun c => Forall (fun s => marks (tr_stmt env s) (stmt_exprs s)) (snd c)) cs ->
  opt_all (fun s => marks (tr_stmt env s) (stmt_exprs s)) d ->
  marks (str_chain env sv cs d) (flat_map (fun c => flat_map stmt_exprs (snd c)) cs
                             ++ match d with Some b => flat_map stmt_exprs b | None => [] end).
Proof.
  intros sv cs d Hc Hd. induction Hc as [| [vs b] cs Hb Hc IH]; cbn [str_chain flat_map app].
  - apply opt_body_marks. exact Hd.
  - rewrite <- app_assoc. apply marks_pre; [apply strcond_marks |]. intros c.
    apply marks_bind; [apply tbody_marks; exact Hb |]. intros b'. apply marks_post; [exact IH |]. intros. base.
Qed.

Lemma stmt_marks : forall st, marks (tr_stmt env st) (stmt_exprs st).
Proof.
  induction st as [| | v | c b e IHb IHe | i c a b IHb | c b IHb | e | is v cs d IHc IHd | e] using stmt_ind';
    (eapply marks_ext; [| apply tr_stmt_eq]); cbn [tr_stmt_flat stmt_exprs].
  - base.
  - base.
  - apply vardecl_marks.
  - apply marks_bind; [apply opt_body_marks; exact IHe |]. intros e'.
    apply (marks_bind _ _ _ _ [c]); [apply val_marks |]. intros c'.
    apply marks_post; [apply tbody_marks; exact IHb |]. intros. base.
  - apply marks_pre; [base |]. intros _.
    apply marks_bind.
    { eapply marks_iff; [apply (marks_topt _ _ _ (fun i => match i with FIExpr e => [e] | FIDecl _ f e => form_exprs f ++ [e] end)); intros; apply forinit_marks |].
      destruct i as [[] |]; reflexivity. }
    intros i'. apply marks_bind; [apply (marks_topt _ _ _ (fun e => [e])); intros; apply cond_marks |]. intros c'.
    apply marks_bind; [apply opt_marks |]. intros a'.
    apply marks_post; [apply tbody_marks; exact IHb |]. intros. quiet.
  - apply (marks_bind _ _ _ _ [c]); [apply cond_marks |]. intros c'.
    apply marks_post; [apply tbody_marks; exact IHb |]. intros. base.
  - apply marks_post; [apply opt_marks |]. intros. base.
  - destruct is.
    + apply (marks_bind _ _ _ _ [v]); [apply val_marks |]. intros sv.
      destruct IHc as [| [vs b] cs Hb Hc]; [base |]. cbn [flat_map]. rewrite <- app_assoc.
      apply marks_pre; [apply strcond_marks |]. intros c. apply marks_bind; [apply tbody_marks; exact Hb |].
      intros b'. apply marks_post; [apply chain_marks; auto |]. intros. base.
    + eapply marks_iff.
      * apply marks_bind.
        { apply (marks_tmap _ _ _ (fun c => flat_map stmt_exprs (snd c))). intros [vs b] I. unfold tr_case.
          cbn [fst snd]. apply marks_pre; [apply case_values_marks |]. intros vs'.
          rewrite Forall_forall in IHc. apply marks_post; [apply tbody_marks; apply (IHc _ I) |]. intros. base. }
        intros cs'. apply marks_bind; [apply val_marks |]. intros v'.
        apply marks_post; [apply opt_body_marks; exact IHd |]. intros. base.
      * rewrite (uses_cons v), !uses_app. tauto.
  - apply expr_stmt_marks.
Qed.
Lemma body_marks : forall b, marks (tr_body env b) (flat_map stmt_exprs b).
Proof. intros b. apply tbody_marks. apply Forall_forall. intros. apply stmt_marks. Qed.

Lemma taf_marks : forall t, marks (tr_taf env t) (taf_exprs t).
Proof.
  intros t. unfold tr_taf. apply marks_tmap. intros f _. apply marks_pre; [apply typename_marks |].
  intros. apply marks_post; [apply form_marks |]. intros. base.
Qed.
Lemma params_marks : forall p, marks (tr_func_params env p) (flat_map taf_exprs (fp_list p)).
Proof.
  intros p. unfold tr_func_params. apply marks_post; [| intros; base]. apply marks_tmap. intros. apply taf_marks.
Qed.
Lemma bind_forms_marks : forall t l, marks (bind_forms t l) [].
Proof. intros t l. induction l as [| f r IH]; cbn [bind_forms]; [base |]. apply marks_pre; [base | auto]. Qed.
Lemma bind_params_marks : forall l, marks (bind_params l) [].
Proof.
  induction l as [| p r IH]; cbn [bind_params]; [base |]. apply marks_pre; [apply bind_forms_marks | auto].
Qed.

Lemma func_marks : forall f, marks (tr_func_decl env f) (elem_exprs (MFunc f)).
Proof.
  intros f. unfold tr_func_decl. cbv zeta. cbn [elem_exprs]. apply marks_pre; [base |]. intros _.
  apply marks_pre; [apply bind_params_marks |]. intros _.
  eapply marks_iff.
  - apply marks_bind; [apply body_marks |]. intros b. apply marks_pre; [apply typename_marks |]. intros t.
    apply marks_bind; [apply form_marks |]. intros f'. apply marks_bind; [apply params_marks |]. intros ps.
    apply marks_post; [| intros; quiet].
    instantiate (1 := if str_eqb (f_name (fd_form f)) (L "main") then []
                      else form_exprs (fd_form f) ++ flat_map taf_exprs (fp_list (fd_params f))).
    destruct (str_eqb _ _); [base |]. apply marks_pre; [apply typename_marks |]. intros t2.
    apply marks_bind; [apply form_marks |]. intros f2. apply marks_post; [apply params_marks |]. intros. base.
  - rewrite !uses_app. destruct (str_eqb _ _); [rewrite uses_nil | rewrite uses_app]; tauto.
Qed.

Lemma elem_marks : forall e, marks (tr_mod_elem env e) (elem_exprs e).
Proof.
  intros [m | x | a | t | s | v | f]; cbn [tr_mod_elem elem_exprs].
  - base.
  - unfold tr_enum. apply marks_post; [| intros; base]. apply marks_tmap. intros en _.
    apply marks_post; [apply opt_marks |]. intros. base.
  - base.
  - unfold tr_typedef. apply marks_pre.
    + eapply marks_iff; [apply (marks_topt _ _ _ (fun _ => [])) |].
      * intros p _. apply marks_post; [| intros; base].
        eapply marks_iff; [apply (marks_tmap _ _ _ (fun _ => [])); intros; apply btf_marks |].
        enough (flat_map (fun _ => []) (ap_forms p) = [] :> list expr) as -> by reflexivity.
        induction (ap_forms p); auto.
      * destruct (td_func_params t); reflexivity.
    + intros ps. apply marks_pre; [apply typename_marks |]. intros. base.
  - unfold tr_struct_typedef. cbv zeta. apply marks_post; [| intros; base]. apply marks_tmap. intros [x | u] _; cbn [tr_struct_entry].
    + apply marks_post; [apply taf_marks |]. intros. base.
    + apply marks_post; [| intros; base]. unfold tr_union. apply marks_bind; [apply form_marks |]. intros f.
      apply marks_post; [| intros; base]. apply marks_tmap. intros p _. apply marks_pre; [apply typename_marks |].
      intros. apply marks_post; [apply form_marks |]. intros. base.
  - unfold tr_modvar. apply marks_pre; [apply typename_marks |]. intros t.
    apply marks_bind; [apply form_marks |]. intros f. destruct (v_value v) as [e |]; [| base].
    apply marks_post; [apply val_marks |]. intros. base.
  - apply func_marks.
Qed.

Lemma bind_elem_marks : forall e, marks (bind_elem e) [].
Proof.
  intros [m | x | a | t | s | v | f]; cbn [bind_elem]; try base.
  - unfold bind_define. quiet.
  - apply marks_pre; [| intros; base].
    eapply marks_iff; [apply (marks_tmap _ _ _ (fun _ => [])); intros; base |].
    enough (flat_map (fun _ => []) (enum_entries x) = [] :> list expr) as -> by reflexivity.
    induction (enum_entries x); auto.
Qed.
Lemma elements_marks : forall elems, marks (tr_elements env elems) (flat_map elem_exprs elems).
Proof.
  intros elems. unfold tr_elements. apply marks_pre; [base |]. intros _. apply marks_pre.
  - eapply marks_iff; [apply (marks_tmap _ _ _ (fun _ => [])); intros; apply bind_elem_marks |].
    enough (flat_map (fun _ => []) elems = [] :> list expr) as -> by reflexivity. induction elems; auto.
  - intros _. apply marks_post; [| intros; quiet]. apply marks_tmap. intros. apply elem_marks.
Qed.
Lemma elements_customs : forall elems r s', tr_elements env elems st0 = TrOk (r, s') ->
  (str_in (L "calloc_or_panic") (s_customs s') = true <-> calls_calloc elems).
Proof.
  intros elems r s' H. apply elements_marks in H. unfold has in H. cbn [st0 s_customs In] in H.
  unfold calls_calloc. fold (uses (flat_map elem_exprs elems)).
  assert (E : str_in (L "calloc_or_panic") (s_customs s') = true <-> In (L "calloc_or_panic") (s_customs s')).
  { unfold str_in. rewrite existsb_exists. split.
    - intros (x & I & X). apply str_eqb_eq in X. subst. exact I.
    - intros I. eexists. split; [exact I |]. apply str_eqb_refl. }
  rewrite E, H. tauto.
Qed.
End Marks.
