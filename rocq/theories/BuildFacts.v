(** Loading the import tree. *)
From Verif Require Import Base Buf Lexer Nodes Resolve Cursor Preparser Parser CAst FormatC Translator Build BaseFacts.
From Verif Require Import FuelFacts SpecBuild.

Section Load.
Context {U : Unicode} (w : world).

Lemma header_fun : forall p i i', header w p i -> header w p i' -> i = i'.
Proof.
  intros p i i' [f H1] [f' H2].
  pose proof (preparse_stable U w p f (max f f') ltac:(lia) ltac:(congruence)) as E1.
  pose proof (preparse_stable U w p f' (max f f') ltac:(lia) ltac:(congruence)) as E2.
  congruence.
Qed.

Lemma header_path : forall p i, header w p i -> mi_filepath i = p.
Proof.
  intros p i [f H1]. unfold preparse in H1. destruct (w_read w p); [| discriminate].
  destruct (preparse_loop f w p [] [] _) as [[[]| | |] ?]; inversion H1. reflexivity.
Qed.

Lemma imports_head : forall p q i, header w p i -> imports w p q -> In q (map r_path (mi_imports i)).
Proof.
  intros p q i Hi (i' & r & Hi' & Hr & E). rewrite (header_fun _ _ _ Hi Hi'). rewrite <- E.
  apply in_map, Hr.
Qed.
Lemma head_imports : forall p q i, header w p i -> In q (map r_path (mi_imports i)) -> imports w p q.
Proof.
  intros p q i Hi Hq. apply in_map_iff in Hq. destruct Hq as (r & E & Hr). exists i, r. auto.
Qed.

Lemma needs_trans : forall p q r, needs w p q -> needs w q r -> needs w p r.
Proof. induction 1; intros Hr; eapply Needs_more; eauto. Qed.
Lemma part_trans : forall p q r, part_of w p q -> part_of w q r -> part_of w p r.
Proof.
  intros p q r [-> | H1] [-> | H2]; unfold part_of; auto. right. eapply needs_trans; eauto.
Qed.
Lemma part_import : forall p q r, imports w p q -> part_of w q r -> part_of w p r.
Proof. intros p q r H1 [-> | H2]; right; [apply Needs_one, H1 | eapply Needs_more; eauto]. Qed.

(** The cache only holds headers. *)
Definition good (c : cache) : Prop := forall p i, assoc p c = Some i -> header w p i.
Definition extends (c c' : cache) : Prop := forall p i, assoc p c = Some i -> assoc p c' = Some i.

Lemma good_nil : good [].
Proof. intros p i H. discriminate. Qed.

Lemma cached_ok : forall f c p h c', good c -> cached_preparse w f c p = Ok (h, c') ->
  header w p h /\ good c' /\ extends c c' /\ assoc p c' = Some h.
Proof.
  intros f c p h c' G H. unfold cached_preparse in H. destruct (assoc p c) as [i |] eqn:E.
  - inversion H; subst. split; [apply G, E |]. split; [exact G |]. split; [intros ? ?; auto | exact E].
  - destruct (preparse f w p) as [i | | |] eqn:Ep; try discriminate. inversion H; subst.
    assert (Hh : header w p h) by (exists f; exact Ep).
    split; [exact Hh |]. split; [| split].
    + intros q i. cbn. destruct (str_eqb p q) eqn:Eq; [| apply G].
      apply str_eqb_eq in Eq. intros E1. inversion E1. subst. exact Hh.
    + intros q i. cbn. destruct (str_eqb p q) eqn:Eq; [| auto].
      apply str_eqb_eq in Eq. subst. congruence.
    + cbn. rewrite str_eqb_refl. reflexivity.
Qed.

(** The inner loop of [load_tree], as a function of what loads one module. *)
Fixpoint load_all (one : cache -> str -> outcome (list str * cache)) (imps : list modref) (c : cache)
  : outcome (list str * cache) :=
  match imps with
  | [] => Ok ([], c)
  | imp :: r =>
      match one c (r_path imp) with
      | Ok (l, c) =>
          match load_all one r c with
          | Ok (l', c) => Ok (l ++ l', c)
          | x => x
          end
      | x => x
      end
  end.

Lemma load_tree_step : forall f c path crumbs,
  load_tree w (S f) c path crumbs =
  if str_in path crumbs
  then Err (mkErr (L "import loop: " ++ join (L " -> ") crumbs ++ L " -> " ++ path) (mkPos 0 0))
  else match cached_preparse w f c path with
       | Ok (head, c) =>
           match load_all (fun c p => load_tree w f c p (crumbs ++ [path])) (mi_imports head) c with
           | Ok (l, c) => Ok (path :: l, c)
           | x => x
           end
       | Err e => Err e
       | Abort s => Abort s
       | NoFuel => NoFuel
       end.
Proof.
  intros. cbn [load_tree]. destruct (str_in path crumbs); [reflexivity |].
  destruct (cached_preparse w f c path) as [[head c1] | | |]; try reflexivity.
  assert (E : forall imps c,
    (fix load (imps : list modref) (c : cache) : outcome (list str * cache) :=
       match imps with
       | [] => Ok ([], c)
       | imp :: r =>
           match load_tree w f c (r_path imp) (crumbs ++ [path]) with
           | Ok (l, c) => match load r c with Ok (l', c) => Ok (l ++ l', c) | x => x end
           | x => x
           end
       end) imps c = load_all (fun c p => load_tree w f c p (crumbs ++ [path])) imps c).
  { induction imps as [| imp r IH]; intros c0; [reflexivity |]. cbn [load_all].
    destruct (load_tree w f c0 (r_path imp) (crumbs ++ [path])) as [[l c2] | | |]; try reflexivity.
    rewrite <- IH. reflexivity. }
  rewrite E. reflexivity.
Qed.

(** What a successful load returns: a list where every occurrence of a module is
    followed by all its imports. *)
Record loaded (p : str) (crumbs : list str) (c : cache) (l : list str) (c' : cache) : Prop := {
  ld_good : good c';
  ld_ext : extends c c';
  ld_head : exists t, l = p :: t;
  ld_part : forall q, In q l -> part_of w p q;
  ld_known : forall q, In q l -> exists i, assoc q c' = Some i;
  ld_fresh : forall q, In q l -> ~ In q crumbs;
  ld_once : forall t, l = p :: t -> ~ In p t;
  ld_order : forall l1 a l2 b, l = l1 ++ a :: l2 -> imports w a b -> In b l2 }.

Lemma app_split : forall A (l1 l2 a : list A) x b, l1 ++ l2 = a ++ x :: b ->
  (exists b', l1 = a ++ x :: b' /\ b = b' ++ l2) \/ (exists a', l2 = a' ++ x :: b /\ a = l1 ++ a').
Proof.
  induction l1 as [| y l1 IH]; intros l2 a x b E; cbn in E.
  - right. exists a. split; [exact E | reflexivity].
  - destruct a as [| z a]; cbn in E.
    + inversion E; subst. left. exists l1. split; reflexivity.
    + inversion E as [[E1 E2]]; subst. destruct (IH _ _ _ _ E2) as [(b' & -> & ->) | (a' & -> & ->)].
      * left. exists b'. split; reflexivity.
      * right. exists a'. split; reflexivity.
Qed.

Lemma load_all_ok : forall f crumbs,
  (forall c p l c', good c -> load_tree w f c p crumbs = Ok (l, c') -> loaded p crumbs c l c') ->
  forall imps c l c', good c ->
  load_all (fun c p => load_tree w f c p crumbs) imps c = Ok (l, c') ->
  good c' /\ extends c c'
  /\ (forall q, In q l -> exists r, In r imps /\ part_of w (r_path r) q)
  /\ (forall q, In q l -> exists i, assoc q c' = Some i)
  /\ (forall q, In q l -> ~ In q crumbs)
  /\ (forall r, In r imps -> In (r_path r) l)
  /\ (forall l1 a l2 b, l = l1 ++ a :: l2 -> imports w a b -> In b l2).
Proof.
  intros f crumbs IH. induction imps as [| imp r IHr]; intros c l c' G H; cbn [load_all] in H.
  - inversion H; subst. split; [exact G |]. split; [intros ? ?; auto |].
    repeat match goal with |- _ /\ _ => split end; try (cbn; tauto).
    intros l1 a l2 b E. destruct l1; discriminate.
  - destruct (load_tree w f c (r_path imp) crumbs) as [[l1 c1] | | |] eqn:E1; try discriminate.
    destruct (load_all _ r c1) as [[l2 c2] | | |] eqn:E2; try discriminate.
    inversion H; subst. clear H.
    destruct (IH _ _ _ _ G E1) as [g1 e1 h1 p1 k1 f1 o1 s1].
    destruct (IHr _ _ _ g1 E2) as (g2 & e2 & p2 & k2 & f2 & i2 & s2).
    repeat match goal with |- _ /\ _ => split end.
    + exact g2.
    + intros q i Hq. apply e2, e1, Hq.
    + intros q Hq. apply in_app_or in Hq. destruct Hq as [Hq | Hq].
      * exists imp. split; [left; reflexivity | apply p1, Hq].
      * destruct (p2 q Hq) as (x & Hx & Hp). exists x. split; [right; exact Hx | exact Hp].
    + intros q Hq. apply in_app_or in Hq. destruct Hq as [Hq | Hq]; [| apply k2, Hq].
      destruct (k1 q Hq) as [i Hi]. exists i. apply e2, Hi.
    + intros q Hq. apply in_app_or in Hq. destruct Hq as [Hq | Hq]; [apply f1, Hq | apply f2, Hq].
    + intros x [<- | Hx]; apply in_or_app.
      * left. destruct h1 as [t ->]. left. reflexivity.
      * right. apply i2, Hx.
    + intros a1 a a2 b E Hab. destruct (app_split _ _ _ _ _ _ E) as [(b' & -> & ->) | (a' & -> & ->)].
      * apply in_or_app. left. eapply s1; [reflexivity | exact Hab].
      * eapply s2; [reflexivity | exact Hab].
Qed.

Lemma load_ok : forall f c p crumbs l c', good c -> load_tree w f c p crumbs = Ok (l, c') ->
  loaded p crumbs c l c'.
Proof.
  induction f as [| f IH]; intros c p crumbs l c' G H; [discriminate |].
  rewrite load_tree_step in H. destruct (str_in p crumbs) eqn:Ep; [discriminate |].
  assert (Hp : ~ In p crumbs). { rewrite <- str_in_spec. congruence. }
  destruct (cached_preparse w f c p) as [[h c1] | | |] eqn:Ec; try discriminate.
  destruct (cached_ok _ _ _ _ _ G Ec) as (Hh & g1 & e1 & a1).
  destruct (load_all _ (mi_imports h) c1) as [[l1 c2] | | |] eqn:El; try discriminate.
  inversion H; subst. clear H.
  destruct (load_all_ok f (crumbs ++ [p]) (fun c p l c' => IH c p (crumbs ++ [_]) l c') _ _ _ _ g1 El)
    as (g2 & e2 & p2 & k2 & f2 & i2 & s2).
  constructor.
  - exact g2.
  - intros q i Hq. apply e2, e1, Hq.
  - eexists. reflexivity.
  - intros q [<- | Hq]; [left; reflexivity |]. destruct (p2 q Hq) as (r & Hr & Hpart).
    eapply part_import; [| exact Hpart]. exists h, r. auto.
  - intros q [<- | Hq]; [| apply k2, Hq]. exists h. apply e2, a1.
  - intros q [<- | Hq]; [exact Hp |]. intros Hc. apply (f2 q Hq), in_or_app. auto.
  - intros t E. inversion E; subst. intros Ht. apply (f2 p Ht), in_or_app. right. left. reflexivity.
  - intros l0 a l2 b E Hab. destruct l0 as [| x l0]; cbn in E; inversion E; subst.
    + pose proof (imports_head _ _ _ Hh Hab) as Hb. apply in_map_iff in Hb.
      destruct Hb as (r & <- & Hr). apply i2, Hr.
    + eapply s2; [reflexivity | exact Hab].
Qed.

(** Everything needed is in the list, and nothing needs itself. *)
Lemma ordered_needs : forall l, (forall l1 a l2 b, l = l1 ++ a :: l2 -> imports w a b -> In b l2) ->
  forall a b, needs w a b -> forall l1 l2, l = l1 ++ a :: l2 -> In b l2.
Proof.
  intros l Ho a b Hn. induction Hn as [a b Hi | a b d Hi Hn IH]; intros l1 l2 E.
  - eapply Ho; eauto.
  - assert (Hb : In b l2) by (eapply Ho; eauto).
    apply in_split in Hb. destruct Hb as (m1 & m2 & ->).
    apply in_or_app. right. right. apply (IH (l1 ++ a :: m1) m2).
    rewrite E. rewrite <- app_assoc. reflexivity.
Qed.

Lemma last_split : forall (a : str) l, In a l -> exists l1 l2, l = l1 ++ a :: l2 /\ ~ In a l2.
Proof.
  intros a l. induction l as [| x l IH]; [intros [] |].
  intros H. destruct (in_dec (list_eq_dec N.eq_dec) a l) as [Hl | Hl].
  - destruct (IH Hl) as (l1 & l2 & -> & Hn). exists (x :: l1), l2. split; [reflexivity | exact Hn].
  - destruct H as [-> | H]; [| contradiction]. exists [], l. split; [reflexivity | exact Hl].
Qed.

Lemma loaded_acyclic : forall p crumbs c l c', loaded p crumbs c l c' -> ~ cyclic w p.
Proof.
  intros p crumbs c l c' Hl (q & Hq & Hn). destruct Hl as [_ _ [t Ht] _ _ _ _ Ho].
  assert (Hin : In q l).
  { destruct Hq as [-> | Hq]; [subst; left; reflexivity |].
    subst l. right. exact (ordered_needs (p :: t) Ho p q Hq [] t eq_refl). }
  destruct (last_split _ _ Hin) as (l1 & l2 & E & Hno). apply Hno.
  eapply ordered_needs; eauto.
Qed.

Lemma loaded_all : forall p crumbs c l c', loaded p crumbs c l c' ->
  forall q, In q l <-> part_of w p q.
Proof.
  intros p crumbs c l c' Hl q. split; [apply Hl |]. destruct Hl as [_ _ [t Ht] _ _ _ _ Ho].
  intros [-> | Hq]; subst; [left; reflexivity |].
  right. eapply ordered_needs with (l1 := []); [exact Ho | exact Hq | reflexivity].
Qed.

(** ** Failing and finishing *)

Lemma walk_app : forall l a b, walk w (l ++ [a]) -> imports w a b -> walk w ((l ++ [a]) ++ [b]).
Proof.
  induction l as [| x l IH]; intros a b H Hab; cbn in *; [tauto |].
  destruct H as [H1 H2]. split; [| apply IH; assumption].
  destruct l; cbn in *; exact H1.
Qed.

Lemma walk_part : forall l a, walk w (a :: l) -> forall q, In q (a :: l) -> part_of w a q.
Proof.
  induction l as [| b l IH]; intros a H q Hq.
  - destruct Hq as [<- | []]. left. reflexivity.
  - destruct H as [H1 H2]. destruct Hq as [<- | Hq]; [left; reflexivity |].
    eapply part_import; [exact H1 |]. apply IH; assumption.
Qed.

(** What an error during loading means. *)
Definition bad_file (main : str) (f : nat) (r : outcome modinfo) : Prop :=
  exists q, part_of w main q /\ preparse f w q = r.
Definition loop_message (trail : list str) (q : str) : str :=
  L "import loop: " ++ join (L " -> ") trail ++ L " -> " ++ q.

Lemma load_err : forall main f c p crumbs e, good c ->
  (crumbs = [] /\ p = main \/ exists t, crumbs = main :: t) -> walk w (crumbs ++ [p]) ->
  load_tree w f c p crumbs = Err e ->
  (exists trail q, loop_from w main trail q /\ e = mkErr (loop_message trail q) (mkPos 0 0))
  \/ (exists f', bad_file main f' (Err e)).
Proof.
  intros main. induction f as [| f IH]; intros c p crumbs e G Hm Hw H; [discriminate |].
  rewrite load_tree_step in H. destruct (str_in p crumbs) eqn:Ep.
  - left. exists crumbs, p. apply str_in_spec in Ep. inversion H. split; [| reflexivity].
    destruct Hm as [[-> _] | Hm]; [destruct Ep |]. split; [exact Hm |]. split; assumption.
  - assert (Hpart : part_of w main p).
    { destruct Hm as [[_ ->] | [t ->]]; [left; reflexivity |].
      apply (walk_part (t ++ [p])); [exact Hw | right; apply in_or_app; right; left; reflexivity]. }
    destruct (cached_preparse w f c p) as [[h c1] | | |] eqn:Ec; try discriminate.
    + destruct (cached_ok _ _ _ _ _ G Ec) as (Hh & g1 & e1 & a1).
      assert (Hall : forall imps c2, good c2 -> incl imps (mi_imports h) ->
        load_all (fun c p0 => load_tree w f c p0 (crumbs ++ [p])) imps c2 = Err e ->
        (exists trail q, loop_from w main trail q /\ e = mkErr (loop_message trail q) (mkPos 0 0))
        \/ (exists f', bad_file main f' (Err e))).
      { induction imps as [| imp r IHr]; intros c2 g2 Hin H2; cbn [load_all] in H2; [discriminate |].
        destruct (load_tree w f c2 (r_path imp) (crumbs ++ [p])) as [[l3 c3] | e3 | |] eqn:E3;
          try discriminate.
        - destruct (load_all _ r c3) as [[l4 c4] | | |] eqn:E4; try discriminate.
          inversion H2; subst. apply (IHr c3); [| intros x Hx; apply Hin; right; exact Hx | exact E4].
          apply (ld_good _ _ _ _ _ (load_ok _ _ _ _ _ _ g2 E3)).
        - inversion H2; subst. apply (IH c2 (r_path imp) (crumbs ++ [p])); [exact g2 | | | exact E3].
          + right. destruct Hm as [[-> ->] | [t ->]]; [exists []; reflexivity | exists (t ++ [p]); reflexivity].
          + apply walk_app; [exact Hw |]. exists h, imp. split; [exact Hh |].
            split; [apply Hin; left; reflexivity | reflexivity]. }
      destruct (load_all _ (mi_imports h) c1) as [[l1 c2] | | |] eqn:El; try discriminate.
      inversion H; subst. apply (Hall _ _ g1 (incl_refl _) El).
    + inversion H; subst. right. exists f, p. split; [exact Hpart |].
      unfold cached_preparse in Ec. destruct (assoc p c); [discriminate |].
      destruct (preparse f w p); congruence.
Qed.

Lemma load_abort : forall main f c p crumbs s, good c ->
  (crumbs = [] /\ p = main \/ exists t, crumbs = main :: t) -> walk w (crumbs ++ [p]) ->
  load_tree w f c p crumbs = Abort s -> exists f', bad_file main f' (Abort s).
Proof.
  intros main. induction f as [| f IH]; intros c p crumbs e G Hm Hw H; [discriminate |].
  rewrite load_tree_step in H. destruct (str_in p crumbs) eqn:Ep; [discriminate |].
  assert (Hpart : part_of w main p).
  { destruct Hm as [[_ ->] | [t ->]]; [left; reflexivity |].
    apply (walk_part (t ++ [p])); [exact Hw | right; apply in_or_app; right; left; reflexivity]. }
  destruct (cached_preparse w f c p) as [[h c1] | | |] eqn:Ec; try discriminate.
  - destruct (cached_ok _ _ _ _ _ G Ec) as (Hh & g1 & e1 & a1).
    assert (Hall : forall imps c2, good c2 -> incl imps (mi_imports h) ->
      load_all (fun c p0 => load_tree w f c p0 (crumbs ++ [p])) imps c2 = Abort e ->
      exists f', bad_file main f' (Abort e)).
    { induction imps as [| imp r IHr]; intros c2 g2 Hin H2; cbn [load_all] in H2; [discriminate |].
      destruct (load_tree w f c2 (r_path imp) (crumbs ++ [p])) as [[l3 c3] | e3 | |] eqn:E3;
        try discriminate.
      - destruct (load_all _ r c3) as [[l4 c4] | | |] eqn:E4; try discriminate.
        inversion H2; subst. apply (IHr c3); [| intros x Hx; apply Hin; right; exact Hx | exact E4].
        apply (ld_good _ _ _ _ _ (load_ok _ _ _ _ _ _ g2 E3)).
      - inversion H2; subst. apply (IH c2 (r_path imp) (crumbs ++ [p])); [exact g2 | | | exact E3].
        + right. destruct Hm as [[-> ->] | [t ->]]; [exists []; reflexivity | exists (t ++ [p]); reflexivity].
        + apply walk_app; [exact Hw |]. exists h, imp. split; [exact Hh |].
          split; [apply Hin; left; reflexivity | reflexivity]. }
    destruct (load_all _ (mi_imports h) c1) as [[l1 c2] | | |] eqn:El; try discriminate.
    inversion H; subst. apply (Hall _ _ g1 (incl_refl _) El).
  - inversion H; subst. exists f, p. split; [exact Hpart |].
    unfold cached_preparse in Ec. destruct (assoc p c); [discriminate |].
    destruct (preparse f w p); congruence.
Qed.

(** With finitely many files, each readable with fuel [F], loading finishes. *)
Lemma load_done : forall main files F,
  (forall p, part_of w main p -> In p files) ->
  (forall p, part_of w main p -> preparse F w p <> NoFuel) ->
  forall f c p crumbs, good c ->
  F + (List.length files - List.length crumbs) < f -> NoDup crumbs -> incl crumbs files -> part_of w main p ->
  load_tree w (S f) c p crumbs <> NoFuel.
Proof.
  intros main files F Hfiles HF. induction f as [| f IH]; intros c p crumbs G Hlt Hnd Hincl Hp; [lia |].
  rewrite load_tree_step. destruct (str_in p crumbs) eqn:Ep; [discriminate |].
  assert (Hpc : ~ In p crumbs). { rewrite <- str_in_spec. congruence. }
  assert (Hnd2 : NoDup (p :: crumbs)) by (constructor; assumption).
  assert (Hincl2 : incl (p :: crumbs) files).
  { intros x [<- | Hx]; [apply Hfiles, Hp | apply Hincl, Hx]. }
  pose proof (NoDup_incl_length Hnd2 Hincl2) as Hlen. cbn in Hlen.
  destruct (cached_preparse w (S f) c p) as [[h c1] | | |] eqn:Ec; try discriminate.
  - destruct (cached_ok _ _ _ _ _ G Ec) as (Hh & g1 & e1 & a1).
    assert (Hall : forall imps c2, good c2 -> incl imps (mi_imports h) ->
      load_all (fun c p0 => load_tree w (S f) c p0 (crumbs ++ [p])) imps c2 <> NoFuel).
    { induction imps as [| imp r IHr]; intros c2 g2 Hin; cbn [load_all]; [discriminate |].
      destruct (load_tree w (S f) c2 (r_path imp) (crumbs ++ [p])) as [[l3 c3] | e3 | |] eqn:E3;
        try discriminate.
      - assert (g3 : good c3) by apply (ld_good _ _ _ _ _ (load_ok _ _ _ _ _ _ g2 E3)).
        specialize (IHr c3 g3 ltac:(intros x Hx; apply Hin; right; exact Hx)).
        destruct (load_all _ r c3) as [[l4 c4] | | |]; congruence.
      - exfalso. refine (IH c2 (r_path imp) (crumbs ++ [p]) g2 _ _ _ _ E3).
        + rewrite app_length. cbn. lia.
        + apply NoDup_rev in Hnd2. rewrite <- (rev_involutive (crumbs ++ [p])). apply NoDup_rev.
          rewrite rev_app_distr. cbn. constructor; [rewrite <- in_rev; exact Hpc | apply NoDup_rev, Hnd].
        + intros x Hx. apply in_app_or in Hx. destruct Hx as [Hx | [<- | []]]; [apply Hincl, Hx | apply Hfiles, Hp].
        + eapply part_trans; [exact Hp |]. right. apply Needs_one. exists h, imp.
          split; [exact Hh |]. split; [apply Hin; left; reflexivity | reflexivity]. }
    specialize (Hall _ _ g1 (incl_refl _)).
    destruct (load_all _ (mi_imports h) c1) as [[l1 c2] | | |]; congruence.
  - exfalso. unfold cached_preparse in Ec. destruct (assoc p c); [discriminate |].
    destruct (preparse (S f) w p) eqn:E; try discriminate.
    apply (HF p Hp). destruct (preparse F w p) eqn:E2; [| | | reflexivity];
      rewrite (preparse_stable U w p F (S f) ltac:(lia) ltac:(congruence)) in E; congruence.
Qed.

End Load.
