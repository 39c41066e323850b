(** The scope machine: determinism, and when it does not get stuck. *)
From Verif Require Import Base BaseFacts Buf Nodes SpecScope ScopeFacts.

Lemma run_deterministic : forall ok l m a, run ok l m a -> forall b, run ok l m b -> a = b.
Proof.
  induction 1 as [m | r l m m' Hok H IH | x p l sc scs ns m' Hx H IH
                 | l' l scs ns sc scs1 ns1 m' H1 IH1 Hf H2 IH2]; intros b R; inversion R; subst; auto.
  match goal with X : run _ l' _ _ |- _ => apply IH1 in X; injection X as <- <- <- end. auto.
Qed.
Lemma run_mono : forall (ok ok' : list str -> ref -> Prop) l m m', (forall v r, ok v r -> ok' v r) ->
  run ok l m m' -> run ok' l m m'.
Proof.
  intros ok ok' l m m' H R. induction R; [constructor | constructor; auto | constructor; auto | econstructor; eauto].
Qed.

Lemma NoDup_app_comm_one : forall A (l : list A) x, ~ In x l -> NoDup l -> NoDup (l ++ [x]).
Proof.
  induction l as [| a l IH]; intros x N ND; cbn [app].
  - constructor; [auto | constructor].
  - inversion ND; subst. cbn [In] in N. constructor.
    + rewrite in_app_iff. cbn [In]. intuition.
    + apply IH; auto.
Qed.
Lemma declared_once_ext : forall h l, declared_once h l -> forall h', (forall x, In x h' <-> In x h) -> declared_once h' l.
Proof.
  induction 1; intros h' E; constructor; auto.
  - rewrite E. auto.
  - apply IHdeclared_once. intros y. cbn [In]. rewrite E. tauto.
Qed.

(** Any reference will do. *)
Definition any (v : list str) (r : ref) : Prop := True.

(** ** What is used gets marked *)

Definition takes (P : str -> Prop) (shadow : list str) (b b' : ab) : Prop :=
  ab_name b' = ab_name b /\ ab_pub b' = ab_pub b /\ (ab_used b = true -> ab_used b' = true)
  /\ (P (ab_name b) -> ~ In (ab_name b) shadow -> ab_used b' = true).
Inductive taken (P : str -> Prop) : list str -> scopes -> scopes -> Prop :=
| Taken_nil sh : taken P sh [] []
| Taken_cons sh sc sc' r r' :
    Forall2 (takes P sh) sc sc' -> taken P (names sc ++ sh) r r' ->
    taken P sh (sc :: r) (sc' :: r').

Lemma takes_none : forall (P : str -> Prop) sh l, (forall x, In x (names l) -> ~ In x sh -> ~ P x) -> Forall2 (takes P sh) l l.
Proof.
  induction l as [| b l IH]; intros H; constructor.
  - repeat split; auto. intros X N. exfalso. apply (H (ab_name b)); auto. now left.
  - apply IH. intros x I. apply H. now right.
Qed.
Lemma taken_refl : forall (P : str -> Prop) s sh, (forall x, ~ In x sh -> ~ P x) -> taken P sh s s.
Proof.
  induction s as [| sc s IH]; intros sh H; constructor.
  - apply takes_none. auto.
  - apply IH. intros x N. apply H. rewrite in_app_iff in N. tauto.
Qed.
Lemma takes_names : forall P sh a b, Forall2 (takes P sh) a b -> names a = names b.
Proof. induction 1 as [| x y l l' [E _] H IH]; [auto |]. unfold names in *. cbn [map]. congruence. Qed.
Lemma taken_trans : forall (P Q R : str -> Prop) sh a b c,
  (forall x, R x -> P x \/ Q x) -> taken P sh a b -> taken Q sh b c -> taken R sh a c.
Proof.
  intros P Q R sh a b c HR H. revert c. induction H as [| sh sc sc' r r' F M IH]; intros c H2.
  - inversion H2; subst. constructor.
  - inversion H2 as [| sh2 u1 u2 v1 v2 F2 M2]; subst. constructor.
    + clear - F F2 HR. revert u2 F2.
      induction F as [| x y l l' (A & B & C & C2) F IH]; intros l2 H3; inversion H3 as [| y' z l3 l4 (A' & B' & C' & C2') F3]; subst; constructor; auto.
      repeat split; try congruence; auto.
      intros U N. destruct (HR _ U) as [U1 | U1]; [auto |]. rewrite A in C2'. auto.
    + apply IH. erewrite takes_names by eauto. auto.
Qed.
Lemma taken_shadow : forall (P Q : str -> Prop) a b sh sh',
  (forall x, Q x -> ~ In x sh' -> P x /\ ~ In x sh) -> taken P sh a b -> taken Q sh' a b.
Proof.
  intros P Q a b sh sh' HP H. revert sh' HP.
  induction H as [| sh sc sc' r r' F M IH]; intros sh' HP; constructor.
  - eapply Forall2_mono; [| exact F]. intros x y (A & B & C & C2). repeat split; auto.
    intros U N. destruct (HP _ U N). auto.
  - apply IH. intros x Px N. rewrite in_app_iff in N.
    destruct (HP x Px) as [? ?]; [tauto |]. split; auto. rewrite in_app_iff. tauto.
Qed.
Lemma takes_refl_mono : forall b (P : str -> Prop) sh, ~ P (ab_name b) -> takes P sh b b.
Proof. intros. repeat split; auto; try (intros; contradiction). Qed.

Lemma amark_last_takes : forall x sc sc' sh, NoDup (names sc) -> amark_last x sc = Some sc' ->
  Forall2 (takes (eq x) sh) sc sc'.
Proof.
  induction sc as [| b r IH]; intros sc' sh ND; cbn [amark_last]; [discriminate |].
  unfold names in ND. cbn [map] in ND. inversion ND as [| y l NI ND']; subst.
  destruct (amark_last x r) as [r' |] eqn:E.
  - intros H; injection H as <-. constructor; [| auto].
    apply takes_refl_mono. intros ->. apply NI.
    destruct (in_dec str_eq_dec (ab_name b) (map ab_name r)) as [? | N]; [auto |].
    exfalso. clear - E N. revert r' E. induction r as [| c r IH]; intros r' E; cbn [amark_last] in E; [discriminate |].
    cbn [map In] in N. destruct (amark_last (ab_name b) r); [eapply IH; eauto |].
    destruct (str_eqb_spec (ab_name c) (ab_name b)); [auto | discriminate].
  - destruct (str_eqb_spec (ab_name b) x) as [Ex | _]; [| discriminate].
    intros H; injection H as <-. constructor; [repeat split; auto |].
    apply takes_none. intros y I _ <-. subst x. apply NI. exact I.
Qed.
Lemma amark_last_in : forall x sc sc', amark_last x sc = Some sc' -> In x (names sc).
Proof.
  induction sc as [| b r IH]; intros sc' H; [discriminate |]. cbn [amark_last] in H. cbn [names map In].
  destruct (amark_last x r); [right; eapply IH; eauto |].
  destruct (str_eqb_spec (ab_name b) x); [auto | discriminate].
Qed.
Lemma amark_taken : forall x scs sh, Forall (fun sc => NoDup (names sc)) scs -> taken (eq x) sh scs (amark x scs).
Proof.
  induction scs as [| sc r IH]; intros sh ND; cbn [amark]; [constructor |].
  inversion ND as [| y l N1 N2]; subst. destruct (amark_last x sc) as [sc' |] eqn:E.
  - constructor; [now apply amark_last_takes |]. apply taken_refl. intros y N <-. apply N.
    apply in_or_app. left. eapply amark_last_in; eauto.
  - constructor; [| auto]. apply takes_none. intros y I _ <-. now apply (amark_last_none x sc E).
Qed.

Definition tidy (scs : scopes) : Prop := Forall (fun sc => NoDup (names sc)) scs.
Lemma tidy_taken : forall P sh a b, taken P sh a b -> tidy a -> tidy b.
Proof.
  unfold tidy. induction 1 as [| sh sc sc' r r' F M IH]; intros T; [constructor |].
  inversion T; subst. constructor; auto. now rewrite <- (takes_names _ _ _ _ F).
Qed.

Lemma ref_effect_taken : forall r m, tidy (fst m) ->
  taken (fun x => exists p, r = RName (mkNs p [] x)) [] (fst m) (fst (ref_effect r m)).
Proof.
  intros r m T. unfold ref_effect.
  destruct (str_eqb_spec (ns_ns (ref_name r)) (L "OS")) as [O | O].
  { apply taken_refl. intros x _ [p ->]. discriminate. }
  destruct (str_eqb_spec (ns_ns (ref_name r)) []) as [E | NE].
  - destruct r as [n | n]; [| apply taken_refl; intros x _ [p H]; discriminate]. cbn [fst ref_name] in *.
    eapply taken_shadow; [| apply (amark_taken _ _ []); exact T]. intros x [p H] _. injection H as ->. cbn [ns_name]. auto.
  - apply taken_refl. intros x _ [p ->]. now apply NE.
Qed.

Lemma run_taken : forall ok l m m', run ok l m m' -> tidy (fst m) ->
  tidy (fst m') /\
  (forall sc scs, fst m = sc :: scs ->
   exists sc1 new scs', fst m' = (sc1 ++ new) :: scs'
     /\ taken (fun x => used x l) [] (sc :: scs) (sc1 :: scs'))
  /\ (fst m = [] -> fst m' = []).
Proof.
  induction 1 as [m | r l m m' Hok H IH | x p l sc scs ns m' Hx H IH
                 | l' l scs ns sc scs1 ns1 m' H1 IH1 Hf H2 IH2]; intros T.
  - split; [auto |]. split; [| auto]. intros sc scs E. exists sc, [], scs. rewrite app_nil_r. split; auto.
    apply taken_refl. intros x _ U. inversion U.
  - assert (M := ref_effect_taken r m T). destruct (IH (tidy_taken _ _ _ _ M T)) as (T' & IH1 & IH2).
    split; [auto |]. split.
    + intros sc scs E. rewrite E in M. inversion M as [| sh u1 u2 v1 v2 K Mr A1 A2 A3]; subst.
      symmetry in A3. destruct (IH1 _ _ A3) as (sc1 & new & scs' & A & B).
      exists sc1, new, scs'. split; auto. eapply taken_trans; [| exact M | rewrite A3; exact B].
      cbv beta. intros y U. inversion U; subst; eauto.
    + intros E. rewrite E in M. inversion M. auto.
  - cbn [fst] in *. assert (T1 : tidy ((sc ++ [(x, p, false)]) :: scs)).
    { inversion T; subst. constructor; auto. unfold names. rewrite map_app. cbn [map ab_name fst].
      apply NoDup_app_comm_one; auto. }
    destruct (IH T1) as (T' & IH1 & _). split; [auto |]. split; [| discriminate].
    intros sc0 scs0 E. injection E as <- <-.
    destruct (IH1 _ _ eq_refl) as (sc1 & new & scs' & A & B).
    inversion B as [| sh s1 s2 r1 r2 F M]; subst.
    apply Forall2_app_inv_l in F. destruct F as (k1 & k2 & F1 & F2 & ->).
    exists k1, (k2 ++ new), scs'. rewrite A, app_assoc. split; auto.
    constructor.
    + eapply Forall2_mono; [| exact F1]. intros a b (Q1 & Q2 & Q3 & Q4). repeat split; auto.
      intros U N. apply Q4; auto. inversion U; subst; auto.
    + eapply taken_shadow; [| exact M]. intros y Hy N. inversion Hy as [| | y' p' l0 NE U | |]; subst. split; auto.
      unfold names in *. rewrite map_app. rewrite !in_app_iff in *. cbn [map In ab_name fst]. intuition.
  - cbn [fst] in *. assert (T1 : tidy ([] :: scs)) by (constructor; [constructor | auto]).
    destruct (IH1 T1) as (T2 & IH1' & _). clear IH1.
    inversion T2; subst. destruct (IH2 H4) as (T3 & IH2' & IH2''). clear IH2. split; [auto |].
    destruct (IH1' _ _ eq_refl) as (sc1 & new & scs' & A & B). cbn [fst] in *.
    injection A as -> <-.
    inversion B as [| sh s1 s2 r1 r2 F M]; subst. inversion F; subst. cbn [names map app] in M.
    split.
    + intros sc scs0 E. subst scs. inversion M; subst.
      destruct (IH2' _ _ eq_refl) as (sc2 & new2 & scs2 & A2 & B2).
      exists sc2, new2, scs2. split; auto. eapply taken_trans; [| exact M | exact B2].
      cbv beta. intros y U. inversion U; subst; auto.
    + intros ->. inversion M; subst. auto.
Qed.

Lemma fine_forward : forall (P Q R : str -> Prop) a b, Forall2 (takes P []) a b -> (forall x, R x -> P x \/ Q x) ->
  Forall (fun x => fine x \/ R (ab_name x)) a -> Forall (fun x => fine x \/ Q (ab_name x)) b.
Proof.
  intros P Q R a b F HR. induction F as [| x y l l' (A & B & C & C2) F IH]; intros H; constructor.
  - apply Forall_inv in H. rewrite A. unfold fine in *. rewrite B. destruct H as [[W | W] | W]; auto.
    destruct (HR _ W); auto.
  - apply IH. now apply Forall_inv_tail in H.
Qed.

(** If everything declared is used, the innermost scope is fine in the end. *)
Lemma run_fine : forall ok l m m', run ok l m m' -> tidy (fst m) ->
  forall sc scs sc' scs', fst m = sc :: scs -> fst m' = sc' :: scs' ->
  all_used l -> Forall (fun b => fine b \/ used (ab_name b) l) sc -> Forall fine sc'.
Proof.
  induction 1 as [m | r l m m' Hok H IH | x p l sc scs ns m' Hx H IH
                 | l' l scs ns sc scs1 ns1 m' H1 IH1 Hf H2 IH2]; intros T s0 ss0 s1 ss1 E E' U F.
  - rewrite E in E'. injection E' as <- <-. eapply Forall_impl; [| exact F].
    intros b [? | X]; [auto | inversion X].
  - inversion U; subst. assert (M := ref_effect_taken r m T). assert (T1 := tidy_taken _ _ _ _ M T).
    rewrite E in M. inversion M as [| sh u1 u2 v1 v2 K Mr A1 A2 B]; subst. symmetry in B.
    eapply IH; eauto. eapply (fine_forward _ (fun y => used y l) (fun y => used y (Ref r :: l))); [exact K | | exact F].
    cbv beta. intros y X. inversion X; subst; eauto.
  - cbn [fst] in *. injection E as <- <-. inversion U; subst.
    assert (T1 : tidy ((sc ++ [(x, p, false)]) :: scs)).
    { inversion T; subst. constructor; auto. unfold names. rewrite map_app. cbn [map ab_name fst].
      apply NoDup_app_comm_one; auto. }
    eapply IH; eauto. apply Forall_app. split.
    + eapply Forall_impl; [| exact F]. intros b [? | X]; [auto |]. inversion X; subst. auto.
    + constructor; [| constructor]. unfold fine. cbn [ab_pub ab_name fst snd]. tauto.
  - cbn [fst] in *. subst scs. inversion U; subst.
    assert (T1 : tidy ([] :: s0 :: ss0)) by (constructor; [constructor | auto]).
    destruct (run_taken _ _ _ _ H1 T1) as (T2 & X & _). inversion T2; subst.
    destruct (X _ _ eq_refl) as (sc1 & new & scs' & A & B). cbn [fst] in *. injection A as -> <-.
    inversion B as [| sh u1 u2 v1 v2 K Mr]; subst. inversion Mr as [| sh u1 u3 v1 v3 K2 M2]; subst.
    eapply IH2; [assumption | reflexivity | exact E' | auto |]. eapply (fine_forward _ (fun y => used y l) (fun y => used y (Scope l' :: l))); [exact K2 | | exact F].
    cbv beta. intros y Y. inversion Y; subst; auto.
Qed.

Lemma item_ind2 : forall P : list item -> Prop,
  P [] -> (forall r l, P l -> P (Ref r :: l)) -> (forall x p l, P l -> P (Declare x p :: l)) ->
  (forall l' l, P l' -> P l -> P (Scope l' :: l)) -> forall l, P l.
Proof.
  intros P H0 H1 H2 H3.
  assert (X : forall i l, P l -> P (i :: l)).
  { fix F 1. intros [r | x p | l'] l Pl; [now apply H1 | now apply H2 |].
    apply H3; [| exact Pl]. induction l' as [| i l' IH]; [exact H0 | apply F; exact IH]. }
  induction l; auto.
Qed.

Lemma run_exists : forall l, all_used l -> forall sc scs ns, declared_once (names sc) l -> tidy (sc :: scs) ->
  exists m', run any l (sc :: scs, ns) m'.
Proof.
  induction l as [| r l IH | x p l IH | l' l IH' IH] using item_ind2; intros U sc scs ns O T.
  - eexists. constructor.
  - inversion U; subst. inversion O; subst.
    assert (M := ref_effect_taken r (sc :: scs, ns) T). assert (T1 := tidy_taken _ _ _ _ M T).
    destruct (ref_effect r (sc :: scs, ns)) as [scs1 ns1] eqn:E. cbn [fst] in *.
    inversion M as [| sh u1 u2 v1 v2 K Mr]; subst.
    assert (names sc = names u2) as N by (eapply takes_names; eauto). rewrite N in *.
    edestruct IH as (m' & R); eauto. exists m'. constructor; [exact I |]. rewrite E. exact R.
  - inversion U; subst. inversion O; subst.
    edestruct (IH H3 (sc ++ [(x, p, false)]) scs ns) as (m' & R).
    + apply (declared_once_ext _ _ H6). intros y. unfold names. rewrite map_app, in_app_iff. cbn [map In ab_name fst]. tauto.
    + inversion T; subst. constructor; auto. unfold names. rewrite map_app. cbn [map ab_name fst].
      apply NoDup_app_comm_one; auto.
    + exists m'. constructor; auto.
  - inversion U as [| | | u1 u2 U1 U2]; subst. inversion O as [| | | o1 o2 o3 O1 O2]; subst.
    assert (T1 : tidy ([] :: sc :: scs)) by (constructor; [constructor | auto]).
    destruct (IH' U1 [] (sc :: scs) ns O1 T1) as ([scs1 ns1] & R1).
    destruct (run_taken _ _ _ _ R1 T1) as (T2 & X & _). destruct (X _ _ eq_refl) as (sc1 & new & scs' & A & B).
    cbn [fst] in *. subst scs1. inversion T2; subst.
    inversion B as [| sh u1 u2 v1 v2 K Mr]; subst. inversion Mr as [| sh u1 u3 v1 v3 K2 M2]; subst.
    assert (names sc = names u3) as N by (eapply takes_names; eauto). rewrite N in *.
    edestruct (IH U2 u3 v3 ns1) as (m' & R2); eauto.
    exists m'. econstructor; eauto. eapply (run_fine _ _ _ _ R1 T1); eauto; reflexivity.
Qed.

Lemma run_marks_ns : forall ok l m m', run ok l m m' ->
  (forall n, In n (snd m) -> In n (snd m'))
  /\ forall r, refers r l -> ns_ns (ref_name r) <> [] -> ns_ns (ref_name r) <> L "OS" -> In (ns_ns (ref_name r)) (snd m').
Proof.
  induction 1 as [m | r l m m' Hok H [IHa IHb] | x p l sc scs ns m' Hx H [IHa IHb]
                 | l' l scs ns sc scs1 ns1 m' H1 [IH1a IH1b] Hf H2 [IH2a IH2b]].
  - split; [auto |]. intros r X. inversion X.
  - split.
    + intros n I. apply IHa. unfold ref_effect. destruct (str_eqb _ _); [auto |].
      destruct (str_eqb _ _); [destruct r; auto |]. now right.
    + intros r0 X N O. inversion X; subst; [| auto]. apply IHa. unfold ref_effect.
      apply str_eqb_neq in N, O. rewrite N, O. now left.
  - split; [auto |]. intros r0 X N O. inversion X; subst; auto.
  - cbn [snd] in *. split; [auto |]. intros r0 X N O. inversion X; subst; auto.
Qed.
