(** A machine that walks scope items, and what its success says about them. *)
From Verif Require Import Base BaseFacts Buf Nodes SpecScope.

(** A binding: name, pub, used. *)
Definition ab := (str * bool * bool)%type.
Definition ab_name (b : ab) : str := fst (fst b).
Definition ab_pub (b : ab) : bool := snd (fst b).
Definition ab_used (b : ab) : bool := snd b.
Definition scopes := list (list ab).
Definition names (sc : list ab) : list str := map ab_name sc.
Definition visible (scs : scopes) : list str := flat_map names scs.
Definition mstate := (scopes * list str)%type.

Fixpoint amark_last (x : str) (sc : list ab) : option (list ab) :=
  match sc with
  | [] => None
  | b :: r =>
      match amark_last x r with
      | Some r' => Some (b :: r')
      | None => if str_eqb (ab_name b) x then Some ((ab_name b, ab_pub b, true) :: r) else None
      end
  end.
Fixpoint amark (x : str) (scs : scopes) : scopes :=
  match scs with
  | [] => []
  | sc :: r => match amark_last x sc with Some sc' => sc' :: r | None => sc :: amark x r end
  end.

Definition ref_effect (r : ref) (m : mstate) : mstate :=
  let n := ref_name r in
  if str_eqb (ns_ns n) (L "OS") then m
  else if str_eqb (ns_ns n) [] then
    match r with RName _ => (amark (ns_name n) (fst m), snd m) | RType _ => m end
  else (fst m, ns_ns n :: snd m).

Definition fine (b : ab) : Prop := ab_pub b = true \/ ab_used b = true.

Inductive run (ok : list str -> ref -> Prop) : list item -> mstate -> mstate -> Prop :=
| Run_nil m : run ok [] m m
| Run_ref r l m m' : ok (visible (fst m)) r -> run ok l (ref_effect r m) m' -> run ok (Ref r :: l) m m'
| Run_declare x p l sc scs ns m' : ~ In x (names sc) ->
    run ok l ((sc ++ [(x, p, false)]) :: scs, ns) m' ->
    run ok (Declare x p :: l) (sc :: scs, ns) m'
| Run_scope l' l scs ns sc scs1 ns1 m' :
    run ok l' ([] :: scs, ns) (sc :: scs1, ns1) -> Forall fine sc ->
    run ok l (scs1, ns1) m' ->
    run ok (Scope l' :: l) (scs, ns) m'.

Lemma run_app : forall ok l1 l2 a b c, run ok l1 a b -> run ok l2 b c -> run ok (l1 ++ l2) a c.
Proof.
  intros ok l1 l2 a b c H. induction H; intros H2; cbn [app]; auto.
  - constructor; auto.
  - constructor; auto.
  - econstructor; eauto.
Qed.
Lemma run_app_inv : forall ok l1 l2 a c, run ok (l1 ++ l2) a c -> exists b, run ok l1 a b /\ run ok l2 b c.
Proof.
  intros ok l1. induction l1 as [| i l1 IH]; intros l2 a c H; cbn [app] in H.
  - exists a. split; [constructor | auto].
  - inversion H; subst.
    + edestruct IH as (b & A & B); eauto. exists b. split; auto. constructor; auto.
    + edestruct IH as (b & A & B); eauto. exists b. split; auto. constructor; auto.
    + edestruct IH as (b & A & B); eauto. exists b. split; auto. econstructor; eauto.
Qed.

(** ** Marking *)

Definition keeps (P : str -> Prop) (shadow : list str) (b b' : ab) : Prop :=
  ab_name b' = ab_name b /\ ab_pub b' = ab_pub b /\
  (ab_used b' = true -> ab_used b = true \/ (P (ab_name b) /\ ~ In (ab_name b) shadow)).

Inductive marked (P : str -> Prop) : list str -> scopes -> scopes -> Prop :=
| Marked_nil sh : marked P sh [] []
| Marked_cons sh sc sc' r r' :
    Forall2 (keeps P sh) sc sc' -> marked P (names sc ++ sh) r r' ->
    marked P sh (sc :: r) (sc' :: r').

Lemma keeps_refl : forall P sh b, keeps P sh b b.
Proof. intros. repeat split; auto. Qed.
Lemma Forall2_refl : forall A (R : A -> A -> Prop) l, (forall a, R a a) -> Forall2 R l l.
Proof. induction l; constructor; auto. Qed.
Lemma Forall2_mono : forall A B (R S : A -> B -> Prop) l l', (forall a b, R a b -> S a b) -> Forall2 R l l' -> Forall2 S l l'.
Proof. intros A B R S l l' H. induction 1; constructor; auto. Qed.
Lemma marked_refl : forall P s sh, marked P sh s s.
Proof.
  induction s; intros; constructor; auto. apply Forall2_refl. intros; apply keeps_refl.
Qed.
Lemma keeps_names : forall P sh a b, Forall2 (keeps P sh) a b -> names a = names b.
Proof. induction 1 as [| x y l l' [E _] H IH]; [auto |]. unfold names in *. cbn [map]. congruence. Qed.
Lemma marked_visible : forall P sh a b, marked P sh a b -> visible a = visible b.
Proof.
  induction 1 as [| sh sc sc' r r' F M IH]; [auto |]. unfold visible in *. cbn [flat_map].
  rewrite (keeps_names _ _ _ _ F), IH. reflexivity.
Qed.
Lemma marked_trans : forall (P Q R : str -> Prop) sh a b c,
  (forall x, P x -> R x) -> (forall x, Q x -> R x) ->
  marked P sh a b -> marked Q sh b c -> marked R sh a c.
Proof.
  intros P Q R sh a b c HP HQ H. revert c. induction H as [| sh sc sc' r r' F M IH]; intros c H2.
  - inversion H2; subst. constructor.
  - inversion H2; subst. constructor.
    + clear - F H3 HP HQ. revert sc'0 H3.
      induction F as [| x y l l' (A & B & C) F IH]; intros l2 H3; inversion H3; subst; constructor; auto.
      destruct H1 as (A' & B' & C'). repeat split; try congruence.
      intros U. destruct (C' U) as [U' | [U' N]].
      * destruct (C U') as [U'' | [U'' N]]; [auto | right; auto].
      * right. rewrite A in *. auto.
    + apply IH. erewrite keeps_names by eauto. auto.
Qed.
Lemma marked_weaken : forall (P Q : str -> Prop) sh a b,
  (forall x, P x -> Q x) -> marked P sh a b -> marked Q sh a b.
Proof.
  intros P Q sh a b HP H. eapply marked_trans; eauto using marked_refl.
Qed.
Lemma marked_shadow : forall (P Q : str -> Prop) a b sh sh',
  (forall x, P x -> ~ In x sh -> Q x /\ ~ In x sh') -> marked P sh a b -> marked Q sh' a b.
Proof.
  intros P Q a b sh sh' HP H. revert sh' HP.
  induction H as [| sh sc sc' r r' F M IH]; intros sh' HP; constructor.
  - eapply Forall2_mono; [| exact F]. intros x y (A & B & C). repeat split; auto.
    intros U. destruct (C U) as [? | [? ?]]; auto.
  - apply IH. intros x Px N. rewrite in_app_iff in N.
    destruct (HP x Px) as [? ?]; [tauto |]. split; auto. rewrite in_app_iff. tauto.
Qed.

Lemma amark_last_none : forall x sc, amark_last x sc = None -> ~ In x (names sc).
Proof.
  induction sc as [| b r IH]; cbn [amark_last names map In]; [auto |].
  destruct (amark_last x r); [discriminate |].
  destruct (str_eqb_spec (ab_name b) x); [discriminate |]. intros _ [? | ?]; auto. now apply IH.
Qed.
Lemma amark_last_keeps : forall x sc sc' sh, ~ In x sh -> amark_last x sc = Some sc' ->
  Forall2 (keeps (eq x) sh) sc sc'.
Proof.
  induction sc as [| b r IH]; intros sc' sh N; cbn [amark_last]; [discriminate |].
  destruct (amark_last x r) as [r' |] eqn:E.
  - intros H; injection H as <-. constructor; [apply keeps_refl | auto].
  - destruct (str_eqb_spec (ab_name b) x) as [Ex | _]; [| discriminate].
    intros H; injection H as <-. constructor.
    + repeat split. intros _. right. rewrite Ex. auto.
    + apply Forall2_refl. intros; apply keeps_refl.
Qed.
Lemma amark_marked : forall x scs sh, ~ In x sh -> marked (eq x) sh scs (amark x scs).
Proof.
  induction scs as [| sc r IH]; intros sh N; cbn [amark]; [constructor |].
  destruct (amark_last x sc) as [sc' |] eqn:E.
  - constructor; [now apply amark_last_keeps | apply marked_refl].
  - constructor; [apply Forall2_refl; intros; apply keeps_refl |].
    apply IH. rewrite in_app_iff. intros [X | X]; [| auto]. now apply (amark_last_none x sc E).
Qed.

Lemma ref_effect_marked : forall r m,
  marked (fun x => exists p, r = RName (mkNs p [] x)) [] (fst m) (fst (ref_effect r m)).
Proof.
  intros r m. unfold ref_effect.
  destruct (str_eqb (ns_ns (ref_name r)) (L "OS")); [apply marked_refl |].
  destruct (str_eqb_spec (ns_ns (ref_name r)) []) as [E | _]; [| apply marked_refl].
  destruct r as [n | n]; [| apply marked_refl]. cbn [fst ref_name] in *.
  eapply marked_weaken; [| apply amark_marked; auto].
  intros x <-. exists (ns_pos n). destruct n; cbn in *; congruence.
Qed.

Lemma used_ref : forall x r l, (exists p, r = RName (mkNs p [] x)) -> used x (Ref r :: l).
Proof. intros x r l [p ->]. constructor. Qed.

(** A run only adds declarations to the innermost scope and only marks what the
    items use. *)
Lemma run_marked : forall ok l m m', run ok l m m' ->
  (forall sc scs, fst m = sc :: scs ->
   exists sc1 new scs', fst m' = (sc1 ++ new) :: scs'
     /\ marked (fun x => used x l) [] (sc :: scs) (sc1 :: scs'))
  /\ (fst m = [] -> fst m' = []).
Proof.
  induction 1 as [m | r l m m' Hok H IH | x p l sc scs ns m' Hx H IH
                 | l' l scs ns sc scs1 ns1 m' H1 IH1 Hf H2 IH2].
  - split; [| auto]. intros sc scs E. exists sc, [], scs. rewrite app_nil_r. split; auto.
    apply marked_refl.
  - destruct IH as [IH1 IH2]. assert (M := ref_effect_marked r m).
    split.
    + intros sc scs E. rewrite E in M. inversion M as [| sh u1 u2 v1 v2 K Mr A1 A2 A3]; subst.
      symmetry in A3. destruct (IH1 _ _ A3) as (sc1 & new & scs' & A & B).
      exists sc1, new, scs'. split; auto. eapply marked_trans; [| | exact M | rewrite A3; exact B].
      * intros y Hy. apply used_ref. exact Hy.
      * intros y Hy. apply Used_ref. exact Hy.
    + intros E. rewrite E in M. inversion M. auto.
  - destruct IH as [IH _]. split; [| discriminate]. cbn [fst] in *.
    intros sc0 scs0 E. injection E as <- <-.
    destruct (IH _ _ eq_refl) as (sc1 & new & scs' & A & B).
    inversion B as [| sh s1 s2 r1 r2 F M]; subst.
    apply Forall2_app_inv_l in F. destruct F as (k1 & k2 & F1 & F2 & ->).
    exists k1, (k2 ++ new), scs'. rewrite A, app_assoc. split; auto.
    constructor.
    + (* old bindings of this scope: [x] is not among them *)
      clear - F1 Hx. revert k1 F1 Hx. induction sc as [| b r IH]; intros k1 F1 Hx;
        inversion F1; subst; constructor.
      * destruct H1 as (A & B & C). repeat split; auto. intros U. destruct (C U) as [? | [? ?]]; auto.
        right. split; auto. apply Used_declare; auto. intros ->. apply Hx. unfold names. cbn [map In]. auto.
      * apply IH; auto. intros X. apply Hx. unfold names in *. cbn [map In]. auto.
    + eapply marked_shadow; [| exact M]. intros y Hy N.
      unfold names in *. rewrite map_app, in_app_iff, in_app_iff in N. cbn [map In ab_name fst] in N.
      rewrite in_app_iff. split; [apply Used_declare; auto; tauto | tauto].
  - destruct IH1 as [IH1 _]. destruct IH2 as [IH2 IH2'].
    destruct (IH1 _ _ eq_refl) as (sc1 & new & scs' & A & B). cbn [fst] in *.
    injection A as -> <-.
    inversion B as [| sh s1 s2 r1 r2 F M]; subst. inversion F; subst. cbn [names map app] in M.
    split.
    + intros sc scs0 E. subst scs. inversion M; subst.
      destruct (IH2 _ _ eq_refl) as (sc2 & new2 & scs2 & A2 & B2).
      exists sc2, new2, scs2. split; auto. eapply marked_trans; [| | exact M | exact B2].
      * intros y Hy. now apply Used_inside.
      * intros y Hy. now apply Used_after.
    + intros ->. inversion M; subst. auto.
Qed.

Lemma run_visible : forall ok l sc scs ns sc' scs' ns',
  run ok l (sc :: scs, ns) (sc' :: scs', ns') -> visible scs' = visible scs.
Proof.
  intros ok l sc scs ns sc' scs' ns' H. apply run_marked in H. destruct H as [H _].
  destruct (H _ _ eq_refl) as (sc1 & new & s2 & A & B). cbn [fst] in A. injection A as -> ->.
  inversion B; subst. symmetry. eapply marked_visible; eauto.
Qed.

Lemma ref_effect_visible : forall r m, visible (fst (ref_effect r m)) = visible (fst m).
Proof. intros. symmetry. eapply marked_visible, ref_effect_marked. Qed.

Lemma every_ref_vis : forall (ok : list str -> ref -> Prop) (P : forall v v' r, (forall x, In x v <-> In x v') -> ok v r -> ok v' r) v l,
  every_ref ok v l -> forall v', (forall x, In x v <-> In x v') -> every_ref ok v' l.
Proof.
  intros ok P v l H. induction H; intros v' E; constructor; eauto.
  apply IHevery_ref. intros y. cbn [In]. rewrite E. tauto.
Qed.

Lemma run_refs : forall (ok : list str -> ref -> Prop) (P : forall v v' r, (forall x, In x v <-> In x v') -> ok v r -> ok v' r) l m m',
  run ok l m m' -> every_ref ok (visible (fst m)) l.
Proof.
  intros ok P. induction 1 as [m | r l m m' Hok H IH | x p l sc scs ns m' Hx H IH
                 | l' l scs ns sc scs1 ns1 m' H1 IH1 Hf H2 IH2].
  - constructor.
  - constructor; auto. rewrite <- (ref_effect_visible r m). exact IH.
  - constructor. eapply every_ref_vis; eauto. intros y. cbn [fst visible flat_map].
    unfold names. rewrite map_app. rewrite !in_app_iff. cbn [In map ab_name fst]. rewrite !in_app_iff. tauto.
  - apply run_visible in H1. cbn [fst] in *. constructor; [exact IH1 |]. rewrite <- H1. exact IH2.
Qed.

Lemma run_once : forall ok l m m', run ok l m m' ->
  forall sc scs, fst m = sc :: scs ->
  forall here, (forall x, In x here <-> In x (names sc)) -> declared_once here l.
Proof.
  induction 1 as [m | r l m m' Hok H IH | x p l sc scs ns m' Hx H IH
                 | l' l scs ns sc scs1 ns1 m' H1 IH1 Hf H2 IH2]; intros s0 ss0 E here Hh.
  - constructor.
  - constructor. assert (M := ref_effect_marked r m). rewrite E in M. inversion M; subst.
    eapply IH; eauto. intros y. rewrite Hh. erewrite keeps_names; [| eauto]. tauto.
  - cbn [fst] in E. injection E as <- <-. constructor.
    + rewrite Hh. auto.
    + eapply IH; [reflexivity |]. intros y. unfold names. rewrite map_app, in_app_iff. cbn [In map ab_name fst].
      rewrite Hh. unfold names. tauto.
  - cbn [fst] in E. subst scs. constructor.
    + eapply IH1; [reflexivity |]. intros; reflexivity.
    + apply run_marked in H1. destruct H1 as [H1 _].
      destruct (H1 _ _ eq_refl) as (sc1 & new & s2 & A & B). cbn [fst] in A. injection A as -> <-.
      inversion B as [| sh u1 u2 v1 v2 F M]; subst. inversion M as [| sh u1 u3 v1 v3 F2 M2]; subst.
      eapply IH2; [reflexivity |]. intros y. rewrite Hh. erewrite keeps_names; [| eauto]. tauto.
Qed.

Lemma fine_back : forall (P Q : str -> Prop) sh a b, Forall2 (keeps P sh) a b ->
  Forall (fun x => fine x \/ Q (ab_name x)) b ->
  Forall (fun x => fine x \/ P (ab_name x) \/ Q (ab_name x)) a.
Proof.
  intros P Q sh a b H. induction H as [| x y l l' (A & B & C) F IH]; intros H2; constructor.
  - apply Forall_inv in H2. unfold fine in *. rewrite A, B in H2.
    destruct H2 as [[W | W] | W]; auto. destruct (C W) as [? | [? _]]; auto.
  - apply IH. now apply Forall_inv_tail in H2.
Qed.

(** If all bindings of the innermost scope are fine in the end, those declared
    meanwhile are used and the older ones were fine or get used. *)
Lemma run_used : forall ok l m m', run ok l m m' ->
  forall sc scs sc' scs', fst m = sc :: scs -> fst m' = sc' :: scs' -> Forall fine sc' ->
  all_used l /\ Forall (fun b => fine b \/ used (ab_name b) l) sc.
Proof.
  induction 1 as [m | r l m m' Hok H IH | x p l sc scs ns m' Hx H IH
                 | l' l scs ns sc scs1 ns1 m' H1 IH1 Hf H2 IH2]; intros s0 ss0 s1 ss1 E E' F.
  - rewrite E in E'. injection E' as <- <-. split; [constructor |].
    eapply Forall_impl; [| exact F]. auto.
  - assert (M := ref_effect_marked r m). rewrite E in M. inversion M as [| sh u1 u2 v1 v2 K Mr A1 A2 B]; subst.
    symmetry in B. destruct (IH _ _ _ _ B E' F) as [Q1 Q2]. split; [now constructor |].
    eapply Forall_impl; [| exact (fine_back _ (fun y => used y l) _ _ _ K Q2)].
    intros b [? | [? | ?]]; auto; right; [now apply used_ref | now apply Used_ref].
  - cbn [fst] in E. injection E as <- <-.
    destruct (IH _ _ _ _ eq_refl E' F) as [Q1 Q2]. apply Forall_app in Q2. destruct Q2 as [Q2 Q3].
    inversion Q3 as [| b0 r0 Hb _]; subst. cbn [ab_name fst] in Hb. split.
    + constructor; auto. destruct Hb as [[Hb | Hb] | Hb]; auto. discriminate.
    + rewrite Forall_forall in *. intros b Hb'. destruct (Q2 b Hb') as [? | U]; [auto |].
      right. apply Used_declare; auto. intros ->. apply Hx. now apply in_map.
  - cbn [fst] in E. subst scs.
    assert (M := H1). apply run_marked in M. destruct M as [M _].
    destruct (M _ _ eq_refl) as (sc1 & new & s2 & A & B). cbn [fst] in A. injection A as -> <-.
    inversion B as [| sh u1 u2 v1 v2 K Mr]; subst. inversion Mr as [| sh u1 u3 v1 v3 K2 M2]; subst.
    destruct (IH2 _ _ _ _ eq_refl E' F) as [Q1 Q2].
    destruct (IH1 _ _ _ _ eq_refl eq_refl Hf) as [Q3 _].
    split; [now constructor |].
    eapply Forall_impl; [| exact (fine_back _ (fun y => used y l) _ _ _ K2 Q2)].
    intros b [? | [? | ?]]; auto; right; [now apply Used_inside | now apply Used_after].
Qed.

Lemma run_ns : forall ok l m m', run ok l m m' -> forall n, In n (snd m') ->
  In n (snd m) \/ exists r, refers r l /\ ns_ns (ref_name r) = n /\ n <> [] /\ n <> L "OS".
Proof.
  induction 1 as [m | r l m m' Hok H IH | x p l sc scs ns m' Hx H IH
                 | l' l scs ns sc scs1 ns1 m' H1 IH1 Hf H2 IH2]; intros n Hn.
  - auto.
  - destruct (IH n Hn) as [A | (r' & A & B)].
    + unfold ref_effect in A.
      destruct (str_eqb_spec (ns_ns (ref_name r)) (L "OS")); [auto |].
      destruct (str_eqb_spec (ns_ns (ref_name r)) []); [destruct r; auto |].
      cbn [snd In] in A. destruct A as [A | A]; [| auto].
      right. exists r. subst n. repeat split; auto. constructor.
    + right. exists r'. split; [now constructor | auto].
  - destruct (IH n Hn) as [A | (r' & A & B)]; [auto |].
    right. exists r'. split; [now constructor | auto].
  - destruct (IH2 n Hn) as [A | (r' & A & B)].
    + destruct (IH1 n A) as [A' | (r' & A' & B)]; [auto |].
      right. exists r'. split; [now apply Refers_inside | auto].
    + right. exists r'. split; [now constructor | auto].
Qed.
