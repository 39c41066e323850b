(** The translator produces the specified code. *)
From Verif Require Import Base BaseFacts Buf Nodes NodeQueries NodeInd Types Cspec Resolve Cursor
  Preparser Parser CAst FormatChe FormatC Translator TrFacts SpecDecl SpecTarget.
Open Scope tr_scope.

(** As in TrFacts, taking pairs of results apart. *)
Ltac tstep ::=
  match goal with
  | H : tbind _ _ _ = TrOk _ |- _ =>
      let a := fresh "a" in let s1 := fresh "s1" in let E := fresh "E" in
      apply tbind_ok in H; destruct H as (a & s1 & E & H);
      match type of a with
      | (_ * _)%type => destruct a
      | unit => destruct a
      | _ => idtac
      end; cbv beta iota in H
  | H : tret _ _ = TrOk (_, _) |- _ => apply tret_ok in H; destruct H; subst
  | H : terr _ _ = TrOk _ |- _ => discriminate H
  | H : tpanic _ _ = TrOk _ |- _ => discriminate H
  | H : (_, _) = (_, _) |- _ => injection H as ? ?; subst
  end.

(** ** States *)

Definition decl_of (b : binding) : decl := mkDecl (b_name b) (b_pub b) (b_typ b).
Definition skel (s : trst) : list (list decl) := map (map decl_of) (s_scopes s).
Definition ctx (s : trst) : list decl := List.concat (skel s).
(** [G] describes the declarations of [s]. *)
Definition shows (s : trst) (G : list decl) : Prop := forall x, look x (ctx s) = look x G.

Lemma look_app : forall x a b, look x (a ++ b) = match look x a with Some d => Some d | None => look x b end.
Proof.
  unfold look. induction a as [| d r IH]; intros b; [auto |]. cbn [app find].
  destruct (str_eqb _ _); auto.
Qed.
Lemma look_scope : forall x sc, look x (map decl_of sc) = option_map decl_of (find_in_scope x sc).
Proof.
  unfold look, find_in_scope. induction sc as [| b r IH]; [auto |]. cbn [map find decl_of d_name].
  destruct (str_eqb _ _); auto.
Qed.
Lemma look_ctx : forall x s, look x (ctx s) = option_map decl_of (find_binding x s).
Proof.
  intros x s. unfold ctx, skel, find_binding. induction (s_scopes s) as [| sc r IH]; [auto |].
  cbn [map List.concat find_in_scopes]. rewrite look_app, look_scope, IH.
  destruct (find_in_scope x sc); auto.
Qed.
Lemma shows_skel : forall s s' G, shows s G -> skel s' = skel s -> shows s' G.
Proof. unfold shows, ctx. intros s s' G H E x. rewrite E. apply H. Qed.
Lemma shows_find : forall s G x, shows s G -> option_map decl_of (find_binding x s) = look x G.
Proof. intros s G x H. rewrite <- look_ctx. apply H. Qed.

Lemma mark_last_skel : forall x sc sc', mark_last x sc = Some sc' -> map decl_of sc' = map decl_of sc.
Proof.
  induction sc as [| b r IH]; intros sc' H; [discriminate |]. cbn [mark_last] in H.
  destruct (mark_last x r) as [r' |].
  - injection H as <-. cbn [map]. now rewrite (IH r').
  - destruct (str_eqb _ _); [| discriminate]. injection H as <-. reflexivity.
Qed.
Lemma mark_scopes_skel : forall x scs scs', mark_scopes x scs = Some scs' ->
  map (map decl_of) scs' = map (map decl_of) scs.
Proof.
  induction scs as [| sc r IH]; intros scs' H; [discriminate |]. cbn [mark_scopes] in H.
  destruct (mark_last x sc) as [sc' |] eqn:E.
  - injection H as <-. cbn [map]. now rewrite (mark_last_skel _ _ _ E).
  - destruct (mark_scopes x r) as [r' |]; [| discriminate]. injection H as <-. cbn [map]. now rewrite (IH r').
Qed.
Lemma mark_use_skel : forall x s b s', mark_binding_use x s = TrOk (b, s') -> skel s' = skel s.
Proof.
  intros x s b s' H. unfold mark_binding_use in H.
  destruct (mark_scopes x (s_scopes s)) eqn:E; injection H as <- <-; [| auto].
  unfold skel. cbn [s_scopes]. eapply mark_scopes_skel; eauto.
Qed.

Lemma look_push : forall x d sc r, ~ In (d_name d) (map d_name sc) ->
  look x (List.concat ((sc ++ [d]) :: r)) = look x (d :: List.concat (sc :: r)).
Proof.
  intros x d sc r N. cbn [List.concat]. rewrite <- app_assoc. cbn [app].
  change (d :: sc ++ List.concat r) with ([d] ++ sc ++ List.concat r).
  rewrite !look_app. change (d :: List.concat r) with ([d] ++ List.concat r). rewrite look_app.
  destruct (look x [d]) as [d' |] eqn:E; [| auto].
  unfold look in E. cbn [find] in E. destruct (str_eqb_spec (d_name d) x) as [<- |]; [| discriminate].
  destruct (look (d_name d) sc) as [y |] eqn:F; [| auto]. exfalso. apply N.
  unfold look in F. apply find_some in F. destruct F as [I F]. apply str_eqb_eq in F. rewrite <- F.
  now apply in_map.
Qed.
Lemma add_binding_shows : forall x p b t s s' G, add_binding x p b t s = TrOk (tt, s') -> shows s G ->
  shows s' (mkDecl x b t :: G) /\ exists sc r, skel s = sc :: r /\ skel s' = (sc ++ [mkDecl x b t]) :: r.
Proof.
  intros x p b t s s' G H R. unfold add_binding in H. unfold shows, ctx, skel in *.
  destruct (s_scopes s) as [| sc r]; [discriminate |]. destruct (existsb _ _) eqn:E; [discriminate |].
  injection H as <-. cbn [s_scopes map]. rewrite map_app. cbn [map]. split.
  - intros y. cbn [map] in R. unfold decl_of at 2. cbn [b_name b_pub b_typ]. rewrite look_push.
    + change (mkDecl x b t :: G) with ([mkDecl x b t] ++ G).
      change (mkDecl x b t :: List.concat (map decl_of sc :: map (map decl_of) r))
        with ([mkDecl x b t] ++ List.concat (map decl_of sc :: map (map decl_of) r)).
      rewrite !look_app, R. reflexivity.
    + cbn [d_name]. rewrite map_map. cbn [decl_of d_name]. intros I. apply in_map_iff in I.
      destruct I as (b' & <- & I).
      assert (existsb (fun b0 => str_eqb (b_name b0) (b_name b')) sc = true); [| congruence].
      apply existsb_exists. exists b'. split; auto. apply str_eqb_refl.
  - eauto.
Qed.
Lemma begin_shows : forall s s' G, begin_scope s = TrOk (tt, s') -> shows s G ->
  shows s' G /\ skel s' = [] :: skel s.
Proof. intros s s' G H R. injection H as <-. split; [| auto]. intros x. apply R. Qed.
Lemma end_skel : forall env s s', end_scope env s = TrOk (tt, s') -> skel s' = tl (skel s).
Proof.
  intros env s s' H. unfold end_scope, skel in *. destruct (s_scopes s); [discriminate |].
  destruct (find _ _); [discriminate |]. injection H as <-. reflexivity.
Qed.

(** ** Surroundings *)

(** [S] describes [env]. *)
Record describes (S : site) (env : trenv) : Prop := mkDescribes {
  ds_mod : en_mod env = own S;
  ds_ns : forall q, find_ns env q = import S q;
  ds_type : forall x, find_type env x = type_status S x;
  ds_typedef : forall x, option_map (fun d => (ti_pub d, ti_t d)) (assoc x (en_typedefs env))
                         = typedef_named (elements S) x;
  ds_struct : forall x, assoc x (en_structs env) = struct_named (elements S) x }.

Definition site_of (m : module_) (p : trparams) : site :=
  mkSite (tp_mod p) (mod_elements m) (imported (tp_mod p) (tp_heads p) (tp_mods p)).

Lemma find_combine : forall A B (f : A -> bool) (l : list A) (l' : list B),
  find (fun ab => f (fst ab)) (combine l l') =
  match position f l with
  | None => None
  | Some p => match nth_error l p, nth_error l' p with
              | Some a, Some b => Some (a, b)
              | _, _ => None
              end
  end.
Proof.
  induction l as [| a l IH]; intros l'; [auto |]. destruct l' as [| b l']; cbn [combine find position fst].
  - destruct (f a); cbn [option_map nth_error]; auto.
    destruct (position f l) as [p |]; cbn [option_map nth_error]; auto.
    destruct (nth_error l p); auto.
  - destruct (f a); cbn [nth_error]; auto. rewrite IH.
    destruct (position f l) as [p |]; cbn [option_map nth_error]; auto.
Qed.
Lemma assoc_app : forall V x (a b : list (str * V)),
  assoc x (a ++ b) = match assoc x a with Some v => Some v | None => assoc x b end.
Proof.
  induction a as [| [k v] a IH]; intros b; [auto |]. cbn [app assoc]. destruct (str_eqb k x); auto.
Qed.
Lemma struct_map_named : forall elems x, assoc x (struct_map elems) = struct_named elems x.
Proof.
  induction elems as [| e r IH]; intros x; [auto |].
  unfold struct_named in *. destruct e; cbn [struct_map last_of]; rewrite <- ?IH;
    try (destruct (assoc x (struct_map r)); reflexivity).
  rewrite assoc_app. cbn [assoc]. destruct (assoc x (struct_map r)); auto.
Qed.
Lemma typedef_map_named : forall elems x,
  option_map (fun d => (ti_pub d, ti_t d)) (assoc x (typedef_map elems)) = typedef_named elems x.
Proof.
  induction elems as [| e r IH]; intros x; [auto |].
  unfold typedef_named in *. destruct e; cbn [typedef_map last_of]; rewrite <- ?IH, ?assoc_app;
    try (destruct (assoc x (typedef_map r)); reflexivity);
    cbn [assoc]; destruct (assoc x (typedef_map r)); auto; destruct (str_eqb _ _); reflexivity.
Qed.
Lemma site_describes : forall m p, describes (site_of m p) (env_of m p).
Proof.
  intros m p. split; auto.
  - intros q. unfold find_ns, site_of, imported. cbn [import env_of en_mod en_heads en_mods].
    destruct (find _ _) as [i |]; [| auto].
    rewrite (find_combine _ _ (fun x => str_eqb (mi_filepath x) (r_path i))). reflexivity.
  - intros x. unfold find_type, type_status. cbn [env_of en_structs en_typedefs en_mod site_of elements own].
    destruct (has_type x); [auto |]. rewrite struct_map_named. destruct (struct_named _ x); [auto |].
    rewrite <- typedef_map_named. destruct (assoc x (typedef_map _)); auto.
  - intros x. apply typedef_map_named.
  - intros x. apply struct_map_named.
Qed.

Section Target.
Variables (S : site) (env : trenv).
Hypothesis D : describes S env.

Lemma tr_typename_target : forall x c s s', tr_typename env x s = TrOk (c, s') ->
  c = c_type S x /\ skel s' = skel s.
Proof.
  intros x c s s' H. unfold tr_typename in H. unfold c_type.
  destruct (str_eqb (ns_ns (tn_name x)) (L "OS")); [tsteps; auto |].
  destruct (str_eqb (ns_ns (tn_name x)) []).
  - rewrite (ds_type _ _ D) in H. unfold is_pub_type. destruct (type_status S _); tsteps.
    rewrite (ds_mod _ _ D). auto.
  - tone H E. apply getns_ok in E. destruct E as [E <-].
    destruct (negb _); tsteps. injection E0 as <-.
    rewrite (ds_ns _ _ D) in E. unfold import_id. rewrite E. auto.
Qed.
Lemma tr_btf_target : forall x c s s', tr_bare_typeform env x s = TrOk (c, s') ->
  c = c_btf S x /\ skel s' = skel s.
Proof.
  intros x c s s' H. unfold tr_bare_typeform in H. tone H E. apply tr_typename_target in E.
  destruct E as [-> E]. tsteps. auto.
Qed.

Lemma tr_nsid_target : forall n v s s' G, tr_nsid env n s = TrOk (v, s') -> shows s G ->
  v = cname S G n /\ skel s' = skel s.
Proof.
  intros n v s s' G H R. unfold tr_nsid in H. unfold cname.
  destruct (str_eqb (ns_ns n) (L "OS")); [tsteps; auto |].
  destruct (str_eqb (ns_ns n) []); cbn [negb] in H.
  - tone H E. injection E as <- <-. tone H E. apply mark_use_skel in E.
    destruct a; cbn [negb] in H; [| discriminate]. tsteps. split; auto.
    rewrite <- (shows_find _ _ _ R). unfold own_id. rewrite (ds_mod _ _ D).
    destruct (find_binding _ _); reflexivity.
  - tone H E0. injection E0 as <-. tone H E. apply getns_ok in E. destruct E as [E <-].
    destruct (negb _); tsteps.
    rewrite (ds_ns _ _ D) in E. unfold import_id. rewrite E. auto.
Qed.
Lemma tr_nsid_in_expr_target : forall n t v s s' G, tr_nsid_in_expr env n s = TrOk ((t, v), s') -> shows s G ->
  v = cname S G n /\ skel s' = skel s.
Proof.
  intros n t v s s' G H R. unfold tr_nsid_in_expr in H. tone H E. apply (tr_nsid_target _ _ _ _ G) in E; auto.
  destruct E as [-> E]. destruct (str_eqb (ns_ns n) (L "OS")); [tsteps; auto |].
  destruct (str_eqb (ns_ns n) []).
  - tone H E1. injection E1 as <- <-. destruct (find_binding _ _); [tsteps; auto |].
    destruct (find_sym _); tsteps. auto.
  - tone H E1. apply getns_ok in E1. destruct E1 as [E1 <-].
    destruct (existsb _ _); [tsteps; auto |]. destruct (find _ _); tsteps; auto.
Qed.

Lemma tmap_target : forall A B (f : A -> TR B) (g : A -> B) G l,
  (forall a, In a l -> forall b s s', f a s = TrOk (b, s') -> shows s G -> b = g a /\ skel s' = skel s) ->
  forall r s s', tmap f l s = TrOk (r, s') -> shows s G -> r = map g l /\ skel s' = skel s.
Proof.
  intros A B f g G l. induction l as [| a l IH]; intros H r s s' E R; cbn [tmap map] in *.
  - tsteps. auto.
  - tone E E1. tone E E2. tsteps. apply H in E1; auto; [| now left]. destruct E1 as [-> E1].
    apply IH in E2; [| intros; eapply H; eauto; now right | eapply shows_skel; eauto].
    destruct E2 as [-> E2]. split; congruence.
Qed.
Lemma topt_target : forall A B (f : A -> TR B) (g : A -> B) G o,
  (forall a b s s', o = Some a -> f a s = TrOk (b, s') -> shows s G -> b = g a /\ skel s' = skel s) ->
  forall r s s', topt f o s = TrOk (r, s') -> shows s G -> r = option_map g o /\ skel s' = skel s.
Proof.
  intros A B f g G [a |] H r s s' E R; cbn [topt option_map] in *.
  - tone E E1. tsteps. apply H in E1; auto. destruct E1 as [-> E1]. auto.
  - tsteps. auto.
Qed.

Lemma call_result_target : forall p f args r s s', call_result env p f args s = TrOk (r, s') ->
  snd r = CCall (snd f) (map snd args) /\ s' = s.
Proof.
  intros p f args r s s' H. assert (E := call_result_state _ _ _ _ _ _ _ H). subst s'.
  unfold call_result in H. tone H E. tsteps. auto.
Qed.

Lemma tr_expr_target : forall e t c s s' G, tr_expr env e s = TrOk ((t, c), s') -> shows s G ->
  c = c_expr S G e /\ skel s' = skel s.
Proof.
  intros e t c s s' G. revert t c s s'.
  assert (W : forall s s', skel s' = skel s -> shows s G -> shows s' G) by (intros; eapply shows_skel; eauto).
  induction e as [a i IHa IHi | p op a b IHa IHb | p op t f IHt | t x IHx | es IHes _ | p f args IHf IHa
    | l | n | op x IHx | p op x IHx | t | x IHx] using expr_ind'; intros ty0 c s s' H R.
  - cbn [tr_expr] in H. tone H E1. tone H E2. tone H E3. apply lift_state in E3. destruct E3 as [<- _].
    apply IHa in E1; auto. destruct E1 as [-> E1]. apply IHi in E2; eauto. destruct E2 as [-> E2]. tsteps.
    cbn [c_expr]. split; congruence.
  - cbn [tr_expr] in H. tone H E1. tone H E2. destruct (typeof_binop _ _ _ _); [| discriminate].
    tone H E3. apply lift_state in E3. destruct E3 as [<- _].
    apply IHa in E1; auto. destruct E1 as [-> E1]. apply IHb in E2; eauto. destruct E2 as [-> E2]. tsteps.
    cbn [c_expr]. split; congruence.
  - cbn [tr_expr] in H. tone H E1. apply IHt in E1; auto. destruct E1 as [-> E1]. tsteps. auto.
  - cbn [tr_expr] in H. tone H E1. tone H E2. apply IHx in E1; auto. destruct E1 as [-> E1].
    apply tr_btf_target in E2. destruct E2 as [-> E2]. tsteps. split; [auto | congruence].
  - rewrite tr_expr_comp in H. tone H E1. tsteps. cbn [c_expr].
    apply tmap_target with (G := G) (g := fun x => (fst (fst x), option_map c_key (snd (fst x)), c_expr S G (snd x)))
      in E1; auto.
    + destruct E1 as [-> E1]. auto.
    + intros x Hx b s1 s2 E R1. rewrite Forall_forall in IHes. unfold tr_entry in E. tone E E2.
      assert (E3 := tr_key_state _ _ _ _ E2). subst. tone E E3. tsteps.
      apply (IHes _ Hx) in E3; auto. destruct E3 as [-> E3]. split; auto. f_equal. f_equal.
      unfold tr_key in E2. destruct (snd (fst x)) as [k |]; [| tsteps; auto].
      destruct k; try discriminate. destruct (str_eqb _ _); tsteps. reflexivity.
  - rewrite tr_expr_call in H. cbn [c_expr]. rewrite Forall_forall in IHa.
    assert (A : forall aa sa sb, tmap (tr_expr env) args sa = TrOk (aa, sb) -> shows sa G ->
      map snd aa = map (c_expr S G) args /\ skel sb = skel sa).
    { clear - IHa W. induction args as [| a l IH]; intros aa sa sb E R; cbn [tmap] in E.
      - tsteps. auto.
      - tone E E1. tone E E2. tsteps. apply IHa in E1; auto; [| now left]. destruct E1 as [-> E1].
        apply IH in E2; eauto; [| intros; eapply IHa; eauto; now right]. destruct E2 as [E2 E3]. cbn [map snd].
        split; congruence. }
    unfold is_name. change (match f with EName n => str_eqb (ns_ns n) [] && str_eqb (ns_name n) (L "calloc!") | _ => false end)
      with (is_ident f (L "calloc!")).
    destruct (is_ident f (L "calloc!")) eqn:C.
    + tone H E0. injection E0 as <-. tone H E1. tone H E2. apply call_result_target in H. cbn [snd] in H.
      destruct H as [-> ->]. apply A in E1; auto. destruct E1 as [-> E1].
      apply (tr_nsid_in_expr_target _ _ _ _ _ G) in E2; [| apply (W s); auto]. destruct E2 as [-> E2].
      split; [reflexivity |]. rewrite E2, E1. reflexivity.
    + tone H E1. tone H E2. apply call_result_target in H. cbn [snd] in H.
      destruct H as [-> ->]. apply A in E1; auto. destruct E1 as [-> E1].
      apply IHf in E2; eauto. destruct E2 as [-> E2]. split; [reflexivity | congruence].
  - cbn [tr_expr] in H. tsteps. cbn [c_expr]. split; [destruct l; reflexivity | auto].
  - cbn [tr_expr] in H. tone H E. tsteps. apply (tr_nsid_in_expr_target _ _ _ _ _ G) in E; auto.
    destruct E as [-> E]. auto.
  - cbn [tr_expr] in H. tone H E. destruct (existsb _ _); tsteps. apply IHx in E; auto. destruct E as [-> E]. auto.
  - cbn [tr_expr] in H. tone H E1. destruct (typeof_prefix _ _); [| discriminate].
    tone H E3. apply lift_state in E3. destruct E3 as [<- _]. tsteps. apply IHx in E1; auto. destruct E1 as [-> E1]. auto.
  - cbn [tr_expr] in H. tone H E1. tsteps. apply tr_btf_target in E1. destruct E1 as [-> E1]. auto.
  - cbn [tr_expr] in H. tone H E. tsteps. apply IHx in E; auto. destruct E as [-> E]. auto.
Qed.

Lemma tr_val_target : forall e c s s' G, tr_val env e s = TrOk (c, s') -> shows s G ->
  c = c_expr S G e /\ skel s' = skel s.
Proof. intros e c s s' G H R. unfold tr_val in H. tone H E. tsteps. eapply tr_expr_target; eauto. Qed.
Lemma tr_opt_target : forall o r s s' G, topt (tr_val env) o s = TrOk (r, s') -> shows s G ->
  r = option_map (c_expr S G) o /\ skel s' = skel s.
Proof. intros o r s s' G H R. eapply topt_target in H; eauto. intros; eapply tr_val_target; eauto. Qed.
Lemma tr_cond_target : forall e c s s' G, tr_cond env e s = TrOk (c, s') -> shows s G ->
  c = c_expr S G e /\ skel s' = skel s.
Proof.
  intros e c s s' G H R. unfold tr_cond in H. tone H E. destruct (is_booly _); tsteps.
  eapply tr_expr_target; eauto.
Qed.
Lemma stars_repeat : forall n, stars n = repeat 42%N n.
Proof. induction n as [| n IH]; [auto |]. unfold stars in *. cbn [repeat_str repeat]. rewrite IH. reflexivity. Qed.

(** The name given to a declared thing. *)
Definition form_name (G : list decl) (publishable : bool) (x : str) : str :=
  if publishable then head_name S G x else x.
Lemma tr_form_target : forall f b c s s' G, tr_form env f b s = TrOk (c, s') -> shows s G ->
  c = c_form S G (form_name G b (f_name f)) f /\ skel s' = skel s.
Proof.
  intros f b c s s' G H R. unfold tr_form in H. tone H E.
  apply tmap_target with (G := G) (g := option_map (c_expr S G)) in E; auto;
    [| intros; eapply tr_opt_target; eauto].
  destruct E as [-> E]. tone H E1. injection E1 as <- <-. tsteps. split; auto.
  unfold c_form. rewrite stars_repeat. f_equal.
  assert (X := shows_find _ _ (f_name f) (shows_skel _ _ _ R E)).
  unfold form_name, head_name. rewrite <- X, (ds_mod _ _ D).
  destruct (find_binding _ _) as [y |]; destruct b; cbn [option_map decl_of d_pub andb]; auto.
Qed.
Lemma local_form_target : forall f c s s' G, tr_form env f false s = TrOk (c, s') -> shows s G ->
  c = local_form S G f /\ skel s' = skel s.
Proof. intros f c s s' G H R. apply (tr_form_target _ _ _ _ _ G) in H; auto. Qed.

(** Declarations reach to the end of the innermost scope. *)
Definition grows (s s' : trst) (l G : list decl) : Prop :=
  shows s' (l ++ G) /\ tl (skel s') = tl (skel s).
Lemma grows_none : forall s s' G, shows s G -> skel s' = skel s -> grows s s' [] G.
Proof. intros s s' G R E. split; [eapply shows_skel; eauto | congruence]. Qed.
Lemma add_binding_grows : forall x p b t s s' G, add_binding x p b t s = TrOk (tt, s') -> shows s G ->
  grows s s' [mkDecl x b t] G.
Proof.
  intros x p b t s s' G H R. apply (add_binding_shows _ _ _ _ _ _ G) in H; auto.
  destruct H as (A & sc & r & B & C). split; auto. rewrite B, C. reflexivity.
Qed.
Lemma grows_skel : forall s s' s'' l G, grows s s' l G -> skel s'' = skel s' -> grows s s'' l G.
Proof. intros s s' s'' l G [A B] E. split; [eapply shows_skel; eauto | congruence]. Qed.

Lemma tr_vardecl_target : forall v k s s' G, tr_vardecl env v s = TrOk (k, s') -> shows s G ->
  k = c_stmt S G (SVarDecl v) /\ grows s s' (declares (SVarDecl v)) G.
Proof.
  intros v k s s' G H R. unfold tr_vardecl in H. tone H E1. tone H E2. tone H E3. tone H E4. tsteps.
  apply (add_binding_grows _ _ _ _ _ _ G) in E1; auto. destruct E1 as [R1 T1].
  apply tr_typename_target in E2. destruct E2 as [-> E2].
  assert (R2 := shows_skel _ _ _ R1 E2).
  apply (local_form_target _ _ _ _ _) with (1 := E3) in R2 as X. destruct X as [-> X].
  assert (R3 := shows_skel _ _ _ R2 X).
  apply (tr_opt_target _ _ _ _ _) with (1 := E4) in R3 as Y. destruct Y as [-> Y].
  split; [reflexivity |]. apply grows_skel with s1; [split; auto | congruence].
Qed.

Lemma tr_forinit_target : forall i k s s' G, tr_forinit env i s = TrOk (k, s') -> shows s G ->
  k = c_forinit S (init_declares (Some i) ++ G) i /\ grows s s' (init_declares (Some i)) G.
Proof.
  intros [e | t f e] k s s' G H R; cbn [tr_forinit] in H.
  - tone H E. tsteps. apply (tr_val_target _ _ _ _ G) in E; auto. destruct E as [-> E].
    split; auto. now apply grows_none.
  - tone H E1. tone H E2. tone H E3. tone H E4. tsteps.
    apply (add_binding_grows _ _ _ _ _ _ G) in E1; auto. destruct E1 as [R1 T1].
    apply tr_typename_target in E2. destruct E2 as [-> E2].
    assert (R2 := shows_skel _ _ _ R1 E2).
    apply (local_form_target _ _ _ _ _) with (1 := E3) in R2 as X. destruct X as [-> X].
    assert (R3 := shows_skel _ _ _ R2 X).
    apply (tr_val_target _ _ _ _ _) with (1 := E4) in R3 as Y. destruct Y as [-> Y].
    split; [reflexivity |]. apply grows_skel with s1; [split; auto | congruence].
Qed.

Lemma tr_case_value_target : forall v r s s' G, tr_case_value env v s = TrOk (r, s') -> shows s G ->
  r = c_case S G v /\ skel s' = skel s.
Proof.
  intros [n | l] r s s' G H R; cbn [tr_case_value] in H.
  - tone H E. tsteps. apply (tr_nsid_in_expr_target _ _ _ _ _ G) in E; auto. destruct E as [-> E]. auto.
  - tsteps. auto.
Qed.
Lemma switchstr_target : forall vs sv r s s' G, mk_switchstr_cond env vs sv s = TrOk (r, s') -> shows s G ->
  r = c_any S G sv vs /\ skel s' = skel s.
Proof.
  intros vs sv r s s' G H R. unfold mk_switchstr_cond in H. tone H E.
  apply tmap_target with (G := G) (g := c_case S G) in E; auto; [| intros; eapply tr_case_value_target; eauto].
  destruct E as [-> E]. destruct vs as [| v vs]; [discriminate |]. cbn [map] in H. tsteps. split; auto.
  assert (Q : forall x, str_test sv (c_case S G x) = c_equals S G sv x).
  { intros []; reflexivity. }
  cbn [c_any]. rewrite Q. generalize (c_equals S G sv v). induction vs as [| w vs IH]; intros root; [auto |].
  cbn [map fold_left]. rewrite Q, IH. reflexivity.
Qed.

Lemma c_stmts_inner : forall l G,
  (fix stmts (G : list decl) (l : list stmt) : list cstmt :=
    match l with
    | [] => []
    | s :: r => c_stmt S G s :: stmts (declares s ++ G) r
    end) G l = c_stmts S G l.
Proof. induction l as [| s r IH]; intros G; [auto |]. cbn [c_stmts]. now rewrite IH. Qed.

Lemma is_name_ident : forall e x, is_name e x = is_ident e (lit x).
Proof. reflexivity. Qed.

Lemma tr_expr_stmt_target : forall e k s s' G, tr_expr_stmt env e s = TrOk (k, s') -> shows s G ->
  k = c_stmt S G (SExpr e) /\ skel s' = skel s.
Proof.
  intros e k s s' G H R.
  assert (V : forall x, (v <- tr_val env x ;; tret (KExpr v)) s = TrOk (k, s') ->
    k = KExpr (c_expr S G x) /\ skel s' = skel s).
  { intros x E. tone E E1. tsteps. apply (tr_val_target _ _ _ _ G) in E1; auto. destruct E1 as [-> E1]. auto. }
  destruct e as [ | | | | | p f args | | | | | |]; try exact (V _ H).
  cbn [tr_expr_stmt] in H. destruct (is_ident f (L "panic")) eqn:P.
  - destruct f as [ | | | | | | | n | | | |]; try discriminate. cbn [c_stmt]. rewrite is_name_ident, P.
    unfold mk_panic in H. tone H E. tsteps.
    apply tmap_target with (G := G) (g := c_expr S G) in E; auto; [| intros; eapply tr_val_target; eauto].
    destruct E as [-> E]. split; auto. unfold c_panic, place. rewrite <- (ds_mod _ _ D). reflexivity.
  - replace (c_stmt S G (SExpr (ECall p f args))) with (KExpr (c_expr S G (ECall p f args))); [exact (V _ H) |].
    cbn [c_stmt]. destruct f as [ | | | | | | | n | | | |]; auto. rewrite is_name_ident, P. reflexivity.
Qed.

Definition stmt_spec (st : stmt) : Prop := forall k s s' G, tr_stmt env st s = TrOk (k, s') -> shows s G ->
  k = c_stmt S G st /\ grows s s' (declares st) G.

Lemma tr_stmts_target : forall l, Forall stmt_spec l -> forall r s s' G,
  tr_stmts env l s = TrOk (r, s') -> shows s G -> r = c_stmts S G l /\ tl (skel s') = tl (skel s).
Proof.
  induction 1 as [| st l Hs Hl IH]; intros r s s' G H R; cbn [tr_stmts c_stmts] in *.
  - tsteps. auto.
  - tone H E1. tone H E2. tsteps. apply (Hs _ _ _ G) in E1; auto. destruct E1 as [-> [R1 T1]].
    apply (IH _ _ _ (declares st ++ G)) in E2; auto. destruct E2 as [-> E2]. split; congruence.
Qed.
Lemma tr_body_target : forall l, Forall stmt_spec l -> forall r s s' G,
  tr_body env l s = TrOk (r, s') -> shows s G -> r = c_stmts S G l /\ skel s' = skel s.
Proof.
  intros l Hl r s s' G H R. unfold tr_body in H. tone H E1. tone H E2. tone H E3. tsteps.
  apply (begin_shows _ _ G) in E1; auto. destruct E1 as [R1 T1].
  apply (tr_stmts_target _ Hl _ _ _ G) in E2; auto. destruct E2 as [-> E2].
  apply end_skel in E3. split; auto. rewrite E3, E2, T1. reflexivity.
Qed.
Lemma tr_opt_body_target : forall o, opt_all stmt_spec o -> forall r s s' G,
  topt (tr_body env) o s = TrOk (r, s') -> shows s G ->
  r = option_map (c_stmts S G) o /\ skel s' = skel s.
Proof.
  intros [b |] Ho r s s' G H R; cbn [topt option_map] in *; [| tsteps; auto].
  tone H E. tsteps. apply (tr_body_target _ Ho _ _ _ G) in E; auto. destruct E as [-> E]. auto.
Qed.

(** The chain of [switch str], by its tail. *)
Fixpoint c_chain_else (G : list decl) (sv : cexpr) (cs : list (list switch_value * list stmt))
  (def : option (list stmt)) : option (list cstmt) :=
  match cs with
  | [] => option_map (c_stmts S G) def
  | c :: r => Some [KIf (c_any S G sv (fst c)) (c_stmts S G (snd c)) (c_chain_else G sv r def)]
  end.
Lemma str_chain_target : forall cs def, Forall (fun c => Forall stmt_spec (snd c)) cs -> opt_all stmt_spec def ->
  forall sv r s s' G, str_chain env sv cs def s = TrOk (r, s') -> shows s G ->
  r = c_chain_else G sv cs def /\ skel s' = skel s.
Proof.
  intros cs def Hc Hd. induction Hc as [| [vs b] cs Hb Hc IH]; intros sv r s s' G H R; cbn [str_chain c_chain_else fst snd] in *.
  - eapply tr_opt_body_target; eauto.
  - tone H E1. tone H E2. tone H E3. tsteps. apply (switchstr_target _ _ _ _ _ G) in E1; auto.
    destruct E1 as [-> E1]. assert (R1 := shows_skel _ _ _ R E1).
    apply (tr_body_target _ Hb _ _ _ G) in E2; auto. destruct E2 as [-> E2].
    assert (R2 := shows_skel _ _ _ R1 E2). apply (IH _ _ _ _ G) in E3; auto. destruct E3 as [-> E3].
    split; congruence.
Qed.
Lemma c_chain_eq : forall G v cs def vs b,
  c_stmt S G (SSwitch true v ((vs, b) :: cs) def)
  = KIf (c_any S G (c_expr S G v) vs) (c_stmts S G b) (c_chain_else G (c_expr S G v) cs def).
Proof.
  intros G v cs def. cbn [c_stmt].
  induction cs as [| [vs' b'] cs IH]; intros vs b; cbn [fst snd c_chain_else]; rewrite c_stmts_inner.
  - f_equal.
  - f_equal. f_equal. f_equal. rewrite <- IH. reflexivity.
Qed.

Lemma tr_stmt_target : forall st, stmt_spec st.
Proof.
  induction st as [| | v | c b e IHb IHe | i c a b IHb | c b IHb | e | is v cs d IHc IHd | e] using stmt_ind';
    intros k s s' G H R; rewrite tr_stmt_eq in H; cbn [tr_stmt_flat] in H.
  - tsteps. split; auto. now apply grows_none.
  - tsteps. split; auto. now apply grows_none.
  - eapply tr_vardecl_target; eauto.
  - tone H E1. tone H E2. tone H E3. tsteps.
    apply (tr_opt_body_target _ IHe _ _ _ G) in E1; auto. destruct E1 as [-> E1].
    assert (R1 := shows_skel _ _ _ R E1). apply (tr_val_target _ _ _ _ G) in E2; auto. destruct E2 as [-> E2].
    assert (R2 := shows_skel _ _ _ R1 E2). apply (tr_body_target _ IHb _ _ _ G) in E3; auto. destruct E3 as [-> E3].
    split; [reflexivity | apply grows_none; auto; congruence].
  - tone H E1. tone H E2. tone H E3. tone H E4. tone H E5. tone H E6. tsteps.
    apply (begin_shows _ _ G) in E1; auto. destruct E1 as [R1 T1].
    assert (I : a0 = option_map (c_forinit S (init_declares i ++ G)) i /\ grows s1 s0 (init_declares i) G).
    { destruct i as [i |]; cbn [topt option_map] in *.
      - tone E2 E7. tsteps. apply (tr_forinit_target _ _ _ _ G) in E7; auto. destruct E7 as [-> E7]. auto.
      - tsteps. split; auto. now apply grows_none. }
    destruct I as [-> [R2 T2]].
    apply topt_target with (G := init_declares i ++ G) (g := c_expr S (init_declares i ++ G)) in E3; auto;
      [| intros; eapply tr_cond_target; eauto]. destruct E3 as [-> E3].
    assert (R3 := shows_skel _ _ _ R2 E3).
    apply (tr_opt_target _ _ _ _ _) with (1 := E4) in R3 as X. destruct X as [-> X].
    assert (R4 := shows_skel _ _ _ R3 X).
    apply (tr_body_target _ IHb _ _ _ _) with (1 := E5) in R4 as Y. destruct Y as [-> Y].
    apply end_skel in E6. split; [reflexivity |].
    apply grows_none; auto. rewrite E6, Y, X, E3, T2, T1. reflexivity.
  - tone H E1. tone H E2. tsteps. apply (tr_cond_target _ _ _ _ G) in E1; auto. destruct E1 as [-> E1].
    assert (R1 := shows_skel _ _ _ R E1). apply (tr_body_target _ IHb _ _ _ G) in E2; auto. destruct E2 as [-> E2].
    split; [reflexivity |]. apply grows_none; auto; congruence.
  - tone H E1. tsteps. apply (tr_opt_target _ _ _ _ G) in E1; auto. destruct E1 as [-> E1].
    split; auto. now apply grows_none.
  - destruct is.
    + tone H E1. destruct cs as [| [vs b] cs]; [discriminate |]. tone H E2. tone H E3. tone H E4. tsteps.
      inversion IHc as [| x y IHb IHc']; subst. cbn [snd] in IHb.
      apply (tr_val_target _ _ _ _ G) in E1; auto. destruct E1 as [-> E1]. assert (R1 := shows_skel _ _ _ R E1).
      apply (switchstr_target _ _ _ _ _ G) in E2; auto. destruct E2 as [-> E2]. assert (R2 := shows_skel _ _ _ R1 E2).
      apply (tr_body_target _ IHb _ _ _ G) in E3; auto. destruct E3 as [-> E3]. assert (R3 := shows_skel _ _ _ R2 E3).
      apply (str_chain_target _ _ IHc' IHd _ _ _ _ G) in E4; auto. destruct E4 as [-> E4].
      rewrite c_chain_eq. split; auto. apply grows_none; auto; congruence.
    + tone H E1. tone H E2. tone H E3. tsteps.
      apply tmap_target with (G := G) (g := fun c => (map (c_case S G) (fst c), c_stmts S G (snd c))) in E1; auto.
      * destruct E1 as [-> E1]. assert (R1 := shows_skel _ _ _ R E1).
        apply (tr_val_target _ _ _ _ G) in E2; auto. destruct E2 as [-> E2]. assert (R2 := shows_skel _ _ _ R1 E2).
        apply (tr_opt_body_target _ IHd _ _ _ G) in E3; auto. destruct E3 as [-> E3].
        split; [reflexivity | apply grows_none; auto; congruence].
      * intros [vs b] I x sa sb E Ra. unfold tr_case in E. cbn [fst snd] in *.
        tone E E4. tone E E5. tsteps. rewrite Forall_forall in IHc.
        apply tmap_target with (G := G) (g := c_case S G) in E4; auto; [| intros; eapply tr_case_value_target; eauto].
        destruct E4 as [-> E4]. apply (tr_body_target _ (IHc _ I) _ _ _ G) in E5; [| eapply shows_skel; eauto].
        destruct E5 as [-> E5]. split; [reflexivity | congruence].
  - apply (tr_expr_stmt_target _ _ _ _ G) in H; auto. destruct H as [-> H]. split; auto. now apply grows_none.
Qed.
Lemma tr_body_target' : forall l r s s' G, tr_body env l s = TrOk (r, s') -> shows s G ->
  r = c_stmts S G l /\ skel s' = skel s.
Proof. intros l. apply tr_body_target. apply Forall_forall. intros; apply tr_stmt_target. Qed.

(** ** Elements *)

Lemma typefrom_declared : forall t f, typefrom_typename t f = declared_type t f.
Proof. reflexivity. Qed.

Lemma bind_forms_grows : forall t fs s s' G, bind_forms t fs s = TrOk (tt, s') -> shows s G ->
  grows s s' (rev (map (SpecDecl.local t) fs)) G.
Proof.
  induction fs as [| f fs IH]; intros s s' G H R; cbn [bind_forms map rev] in *.
  - tsteps. now apply grows_none.
  - tone H E. apply (add_binding_grows _ _ _ _ _ _ G) in E; auto. destruct E as [R1 T1].
    apply (IH _ _ _) with (2 := R1) in H. destruct H as [R2 T2]. split; [| congruence].
    intros x. rewrite R2, <- app_assoc. reflexivity.
Qed.
Lemma bind_params_grows : forall l s s' G, bind_params l s = TrOk (tt, s') -> shows s G ->
  grows s s' (rev (flat_map (fun t => map (SpecDecl.local (taf_type t)) (taf_forms t)) l)) G.
Proof.
  induction l as [| p l IH]; intros s s' G H R; cbn [bind_params flat_map rev] in *.
  - tsteps. now apply grows_none.
  - tone H E. apply (bind_forms_grows _ _ _ _ G) in E; auto. destruct E as [R1 T1].
    apply (IH _ _ _) with (2 := R1) in H. destruct H as [R2 T2]. split; [| congruence].
    intros x. rewrite R2, rev_app_distr, <- app_assoc. reflexivity.
Qed.

Lemma concat_map : forall A B (f : A -> list B) l, List.concat (map f l) = flat_map f l.
Proof. intros. symmetry. apply flat_map_concat_map. Qed.

Lemma tr_taf_target : forall x r s s' G, tr_taf env x s = TrOk (r, s') -> shows s G ->
  r = c_fields S G x /\ skel s' = skel s.
Proof.
  intros x r s s' G H R. unfold tr_taf in H.
  eapply tmap_target with (G := G) (g := fun f => mkCtf (c_type S (taf_type x)) (local_form S G f)) in H; auto.
  intros f _ b sa sb E Ra. tone E E1. tone E E2. tsteps. apply tr_typename_target in E1. destruct E1 as [-> E1].
  apply (local_form_target _ _ _ _ G) in E2; [| eapply shows_skel; eauto]. destruct E2 as [-> E2]. split; congruence.
Qed.
Lemma tr_func_params_target : forall x r s s' G, tr_func_params env x s = TrOk (r, s') -> shows s G ->
  r = c_params S G x /\ skel s' = skel s.
Proof.
  intros x r s s' G H R. unfold tr_func_params in H. tone H E. tsteps.
  apply tmap_target with (G := G) (g := c_fields S G) in E; auto; [| intros; eapply tr_taf_target; eauto].
  destruct E as [-> E]. rewrite concat_map. auto.
Qed.

(** The shape of an accepted function. *)
Definition return_needed (f : funcdecl) : bool := negb (is_void (fd_type f)) || Nat.eqb (f_hops (fd_form f)) 1.
Lemma tr_func_decl_target : forall f r s s' G, tr_func_decl env f s = TrOk (r, s') -> shows s G ->
  r = c_elem S G (MFunc f) /\ skel s' = skel s
  /\ (return_needed f = true -> body_returns (fd_body f) = true).
Proof.
  intros f r s s' G H R. unfold tr_func_decl in H.
  tone H E1. tone H E2. tone H E3. tone H E4. tone H E5. tone H E6. tone H E7. tone H E8.
  match type of H with (if ?x then _ else _) _ = _ => destruct x eqn:RT end; [discriminate |]. tsteps.
  apply (begin_shows _ _ G) in E1; auto. destruct E1 as [R1 T1].
  apply (bind_params_grows _ _ _ G) in E2; auto. destruct E2 as [R2 T2].
  fold (param_decls (fd_params f)) in R2. set (G' := param_decls (fd_params f) ++ G) in *.
  apply (tr_body_target' _ _ _ _ G') in E3; auto. destruct E3 as [-> E3]. assert (R3 := shows_skel _ _ _ R2 E3).
  apply tr_typename_target in E4. destruct E4 as [-> E4]. assert (R4 := shows_skel _ _ _ R3 E4).
  apply (tr_form_target _ _ _ _ _ G') in E5; auto. destruct E5 as [-> E5]. assert (R5 := shows_skel _ _ _ R4 E5).
  apply (tr_func_params_target _ _ _ _ G') in E6; auto. destruct E6 as [-> E6]. assert (R6 := shows_skel _ _ _ R5 E6).
  apply end_skel in E8.
  assert (F : a3 = (if str_eqb (f_name (fd_form f)) (L "main") then []
     else [XForwardFunc (mkCfwd (negb (fd_pub f)) (c_type S (fd_type f))
            (c_form S G' (head_name S G' (f_name (fd_form f))) (fd_form f)) (c_params S G' (fd_params f)))])
     /\ skel s6 = skel s5).
  { destruct (str_eqb _ _); [tsteps; auto |]. tone E7 F1. tone E7 F2. tone E7 F3. tsteps.
    apply tr_typename_target in F1. destruct F1 as [-> F1]. assert (R7 := shows_skel _ _ _ R6 F1).
    apply (tr_form_target _ _ _ _ _ G') in F2; auto. destruct F2 as [-> F2]. assert (R8 := shows_skel _ _ _ R7 F2).
    apply (tr_func_params_target _ _ _ _ G') in F3; auto. destruct F3 as [-> F3]. split; [reflexivity | congruence]. }
  destruct F as [-> F]. split; [reflexivity |]. split.
  - rewrite E8, F, E6, E5, E4, E3, T2, T1. reflexivity.
  - unfold return_needed. intros N. rewrite N in RT. cbn [andb] in RT. now apply Bool.negb_false_iff in RT.
Qed.

Lemma tr_mod_elem_target : forall e r s s' G, tr_mod_elem env e s = TrOk (r, s') -> shows s G ->
  r = c_elem S G e /\ skel s' = skel s.
Proof.
  intros [m | x | a | t | x | v | f] r s s' G H R; cbn [tr_mod_elem] in *.
  - tsteps. auto.
  - unfold tr_enum in H. tone H E. tsteps.
    apply tmap_target with (G := G) (g := fun e => (pub_name env (enum_pub x) (en_name e), option_map (c_expr S G) (en_val e))) in E; auto.
    + destruct E as [-> E]. split; auto. unfold pub_name. rewrite (ds_mod _ _ D). reflexivity.
    + intros en _ b sa sb E2 Ra. tone E2 E3. tsteps. apply (tr_opt_target _ _ _ _ G) in E3; auto.
      destruct E3 as [-> E3]. auto.
  - tsteps. split; auto. unfold tr_struct_alias, pub_name. rewrite (ds_mod _ _ D). reflexivity.
  - unfold tr_typedef in H. tone H E1. tone H E2. tsteps.
    apply topt_target with (G := G) (g := fun p => mkCanon (ap_ellipsis p) (map (c_btf S) (ap_forms p))) in E1; auto.
    + destruct E1 as [-> E1]. apply tr_typename_target in E2. destruct E2 as [-> E2]. split; [| congruence].
      cbn [c_elem]. rewrite stars_repeat. unfold pub_name. rewrite (ds_mod _ _ D). reflexivity.
    + intros p b sa sb _ E Ra. tone E E3. tsteps.
      apply tmap_target with (G := G) (g := c_btf S) in E3; auto; [| intros; eapply tr_btf_target; eauto].
      destruct E3 as [-> E3]. auto.
  - unfold tr_struct_typedef in H. tone H E. tsteps.
    apply tmap_target with (G := G) (g := c_struct_entry S G) in E; auto.
    + destruct E as [-> E]. rewrite concat_map. split; auto.
      unfold pub_name. rewrite (ds_mod _ _ D). reflexivity.
    + intros [y | u] _ b sa sb E2 Ra; cbn [tr_struct_entry c_struct_entry] in *.
      * tone E2 E3. tsteps. apply (tr_taf_target _ _ _ _ G) in E3; auto. destruct E3 as [-> E3]. auto.
      * tone E2 E3. tsteps. unfold tr_union in E3. tone E3 E4. tone E3 E5. tsteps.
        apply (local_form_target _ _ _ _ G) in E4; auto. destruct E4 as [-> E4].
        apply tmap_target with (G := G) (g := fun p => (c_type S (fst p), local_form S G (snd p))) in E5.
        -- destruct E5 as [-> E5]. split; congruence.
        -- intros [t f] _ b sc sd E6 Rc. cbn [fst snd] in *. tone E6 E7. tone E6 E8. tsteps.
           apply tr_typename_target in E7. destruct E7 as [-> E7].
           apply (local_form_target _ _ _ _ G) in E8; [| eapply shows_skel; eauto]. destruct E8 as [-> E8].
           split; congruence.
        -- eapply shows_skel; eauto.
  - unfold tr_modvar in H. tone H E1. tone H E2. destruct (v_value v) as [e |] eqn:V; [| discriminate].
    tone H E3. tsteps. apply tr_typename_target in E1. destruct E1 as [-> E1]. assert (R1 := shows_skel _ _ _ R E1).
    apply (tr_form_target _ _ _ _ _ G) in E2; auto. destruct E2 as [-> E2]. assert (R2 := shows_skel _ _ _ R1 E2).
    apply (tr_val_target _ _ _ _ G) in E3; auto. destruct E3 as [-> E3].
    cbn [c_elem]. rewrite V. split; [reflexivity | congruence].
  - apply (tr_func_decl_target _ _ _ _ G) in H; auto. tauto.
Qed.

Lemma bind_elem_grows : forall e s s' G, bind_elem e s = TrOk (tt, s') -> shows s G ->
  grows s s' (rev (elem_decls is_numeric e)) G.
Proof.
  intros [m | x | a | t | x | v | f] s s' G H R; cbn [bind_elem elem_decls] in *;
    try (tsteps; now apply grows_none).
  - unfold bind_define in H. destruct (str_eqb_spec (m_name m) (L "type")) as [E | E].
    + tsteps. rewrite E. cbn [str_eqb lit]. now apply grows_none.
    + destruct (str_eqb _ _); [| tsteps; now apply grows_none].
      destruct (split_whitespace _) as [| id [| v l]]; try discriminate.
      cbn [rev app]. apply (add_binding_grows _ _ _ _ _ _ G) in H; auto.
  - tone H E. tsteps. revert s G E R.
    match goal with |- context[TrOk (?x, _)] => generalize x end.
    induction (enum_entries x) as [| en l IH]; intros o s G E R; cbn [tmap map rev] in *.
    + tsteps. now apply grows_none.
    + tone E E1. tone E E2. tsteps. apply (add_binding_grows _ _ _ _ _ _ G) in E1; auto. destruct E1 as [R1 T1].
      apply (IH _ _ _) with (2 := R1) in E2. destruct E2 as [R2 T2]. split; [| congruence].
      intros y. rewrite R2, <- app_assoc. reflexivity.
  - cbn [rev app]. apply (add_binding_grows _ _ _ _ _ _ G) in H; auto.
  - cbn [rev app]. apply (add_binding_grows _ _ _ _ _ _ G) in H; auto.
Qed.
Lemma bind_elems_grows : forall l r s s' G, tmap bind_elem l s = TrOk (r, s') -> shows s G ->
  grows s s' (module_decls is_numeric l) G.
Proof.
  unfold module_decls.
  induction l as [| e l IH]; intros r s s' G H R; cbn [tmap flat_map rev] in *.
  - tsteps. now apply grows_none.
  - tone H E1. tone H E2. tsteps. apply (bind_elem_grows _ _ _ G) in E1; auto. destruct E1 as [R1 T1].
    apply (IH _ _ _ _) with (2 := R1) in E2. destruct E2 as [R2 T2]. split; [| congruence].
    intros x. rewrite R2, rev_app_distr, <- app_assoc. reflexivity.
Qed.

Lemma tr_elements_target : forall elems r s', tr_elements env elems st0 = TrOk (r, s') ->
  r = flat_map (c_elem S (module_decls is_numeric elems)) elems.
Proof.
  intros elems r s' H. unfold tr_elements in H. tone H E1. tone H E2. tone H E3. tone H E4. tsteps.
  apply (begin_shows _ _ []) in E1; [| intros x; reflexivity]. destruct E1 as [R1 T1].
  apply (bind_elems_grows _ _ _ _ []) in E2; auto. destruct E2 as [R2 T2]. rewrite app_nil_r in R2.
  apply tmap_target with (G := module_decls is_numeric elems) (g := c_elem S (module_decls is_numeric elems)) in E3; auto.
  - destruct E3 as [-> _]. apply concat_map.
  - intros; eapply tr_mod_elem_target; eauto.
Qed.

End Target.

Lemma translate_target : forall m p cm, translate m p = TrOk cm ->
  exists s imps, check_imports (env_of m p) s = None /\ expand_imports (env_of m p) = TrOk imps
  /\ tr_elements (env_of m p) (mod_elements m) st0 = TrOk (c_elems (site_of m p) is_numeric, s)
  /\ cm = mkCmod (reorder_elems (module_head s ++ imps ++ c_elems (site_of m p) is_numeric))
                 (link_macros (mod_elements m)).
Proof.
  intros m p cm H. unfold translate in H.
  destruct (tr_elements _ _ _) as [[b s] | |] eqn:E; try discriminate.
  destruct (check_imports _ s) eqn:C; [discriminate |].
  destruct (expand_imports _) as [imps | |] eqn:X; try discriminate. injection H as <-.
  assert (B := tr_elements_target _ _ (site_describes m p) _ _ _ E). subst b.
  exists s, imps. auto.
Qed.
