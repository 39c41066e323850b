(** A program is built exactly if it is well formed. *)
From Verif Require Import Base Buf Lexer Nodes Types Cursor Resolve Cspec Preparser Parser CAst FormatC Translator Build BaseFacts FuelFacts SpecLex LexFacts TokenFacts
  LexerRefine SpecGrammar GrammarSound GrammarExpr GrammarComplete ParseFacts PrepassFacts TextFacts SafeText SpecDecl SpecScope SpecTypes SpecTarget TargetFacts SpecTyping
  SpecAccept AcceptFacts SpecBuild SpecProject BuildFacts ProjectFacts BuildProps PathFacts SpecExports ExportFacts AnnounceFacts.

Scheme visit_ind_m := Induction for visit Sort Prop with visits_ind_m := Induction for visits Sort Prop.
Combined Scheme visit_mutual from visit_ind_m, visits_ind_m.

Section Visit.
Context {U : Unicode} (w : world).

Lemma known_header p toks names types refs : plain_path p -> tokens_in w p toks -> announced toks names types ->
  Forall2 (refers_to w p) names refs -> header w p (mkInfo refs types p (pre_uniqid p)).
Proof. intros Hp Ht Ha HF. apply header_refers; [exact Hp |]. exists toks, names. auto. Qed.
Lemma refs_plain p names refs : Forall2 (refers_to w p) names refs -> Forall plain_path (map r_path refs).
Proof. intros HF. induction HF; constructor; auto. eapply refers_plain; eauto. Qed.

(** ** Loading visits *)
Lemma load_visit : forall f c p crumbs l c', good w c -> plain_path p -> load_tree w f c p crumbs = Ok (l, c') -> visit w p l.
Proof.
  induction f as [| f IH]; intros c p crumbs l c' G Hp H; [discriminate |]. rewrite load_tree_step in H.
  destruct (str_in p crumbs); [discriminate |].
  destruct (cached_preparse w f c p) as [[h c1] | | |] eqn:Ec; try discriminate.
  destruct (cached_ok w _ _ _ _ _ G Ec) as (Hh & G1 & _ & _).
  destruct (load_all _ (mi_imports h) c1) as [[ls c2] | | |] eqn:El; try discriminate. inversion H; subst. clear H Ec.
  destruct (proj1 (header_refers w p h Hp) Hh) as (toks & names & Ht & Ha & HF & _ & _).
  econstructor; [exact Ht | exact Ha | exact HF |]. pose proof (refs_plain _ _ _ HF) as Hpl. clear -IH G1 El Hpl U.
  revert c1 ls c' G1 El. induction (mi_imports h) as [| r rs IHr]; intros c1 ls c' G1 El; cbn [load_all map] in *.
  - inversion El; subst. constructor.
  - inversion Hpl as [| ? ? Hr Hpl']; subst.
    destruct (load_tree w f c1 (r_path r) (crumbs ++ [p])) as [[l1 c3] | | |] eqn:E1; try discriminate.
    destruct (load_all _ rs c3) as [[l2 c4] | | |] eqn:E2; try discriminate. inversion El; subst.
    constructor; [eapply IH; eauto |]. eapply IHr; [exact Hpl' | | exact E2].
    exact (ld_good _ _ _ _ _ _ (load_ok w _ _ _ _ _ _ G1 E1)).
Qed.

Lemma visit_fun : (forall p l, visit w p l -> plain_path p -> forall l', visit w p l' -> l = l')
  /\ (forall ps l, visits w ps l -> Forall plain_path ps -> forall l', visits w ps l' -> l = l').
Proof.
  apply visit_mutual.
  - intros p toks names types refs l Ht Ha HF Hv IH Hp l' H'. inversion H' as [p' toks' names' types' refs' l0 Ht' Ha' HF' Hv' E1 E2]; subst.
    pose proof (header_fun w p _ _ (known_header _ _ _ _ _ Hp Ht Ha HF) (known_header _ _ _ _ _ Hp Ht' Ha' HF')) as E.
    inversion E; subst. f_equal. apply IH; [eapply refs_plain; eauto | exact Hv'].
  - intros _ l' H'. inversion H'. reflexivity.
  - intros p ps l ls Hv IH Hvs IHs Hp l' H'. inversion Hp; subst. inversion H'; subst. f_equal; auto.
Qed.
Lemma visit_inside : (forall p l, visit w p l -> plain_path p -> forall q, In q l -> plain_path q /\ exists lq, visit w q lq /\ List.length lq <= List.length l)
  /\ (forall ps l, visits w ps l -> Forall plain_path ps -> forall q, In q l -> plain_path q /\ exists lq, visit w q lq /\ List.length lq <= List.length l).
Proof.
  apply visit_mutual.
  - intros p toks names types refs l Ht Ha HF Hv IH Hp q [<- | I].
    + split; [exact Hp |]. exists (p :: l). split; [econstructor; eauto | lia].
    + destruct (IH (refs_plain _ _ _ HF) q I) as (Hq & lq & H1 & H2). split; [exact Hq |]. exists lq. cbn [List.length]. split; [exact H1 | lia].
  - intros _ q [].
  - intros p ps l ls Hv IH Hvs IHs Hp q I. inversion Hp; subst. rewrite app_length. apply in_app_iff in I. destruct I as [I | I].
    + destruct (IH H1 q I) as (Hq & lq & K1 & K2). split; [exact Hq |]. exists lq. split; [exact K1 | lia].
    + destruct (IHs H2 q I) as (Hq & lq & K1 & K2). split; [exact Hq |]. exists lq. split; [exact K1 | lia].
Qed.
Lemma visit_once p toks names types refs l : plain_path p -> tokens_in w p toks -> announced toks names types -> Forall2 (refers_to w p) names refs ->
  visits w (map r_path refs) l -> ~ In p l.
Proof.
  intros Hp Ht Ha HF Hv I. destruct (proj2 visit_inside _ _ Hv (refs_plain _ _ _ HF) p I) as (_ & lq & H1 & H2).
  assert (E : p :: l = lq) by (apply (proj1 visit_fun p); [econstructor; eauto | exact Hp | exact H1]). subst lq. cbn [List.length] in H2. lia.
Qed.

Lemma visit_load : (forall p l, visit w p l -> plain_path p -> forall crumbs, (forall q, In q l -> ~ In q crumbs) ->
    exists F, forall f, F <= f -> forall c, good w c -> exists c', load_tree w f c p crumbs = Ok (l, c'))
  /\ (forall ps l, visits w ps l -> Forall plain_path ps -> forall crumbs, (forall q, In q l -> ~ In q crumbs) ->
    exists F, forall f, F <= f -> forall c refs, good w c -> map r_path refs = ps ->
      exists c', load_all (fun c p => load_tree w f c p crumbs) refs c = Ok (l, c')).
Proof.
  apply visit_mutual.
  - intros p toks names types refs l Ht Ha HF Hv IH Hp crumbs Hc.
    pose proof (known_header _ _ _ _ _ Hp Ht Ha HF) as Hh. pose proof Hh as [f0 Ef].
    pose proof (visit_once _ _ _ _ _ _ Hp Ht Ha HF Hv) as Hn.
    destruct (IH (refs_plain _ _ _ HF) (crumbs ++ [p])) as [F H1].
    { intros q I K. apply in_app_iff in K. destruct K as [K | [<- | []]]; [| exact (Hn I)]. apply (Hc q); [right; exact I | exact K]. }
    exists (S (f0 + F)). intros f Hf c G. destruct f as [| f]; [lia |]. rewrite load_tree_step.
    assert (E0 : str_in p crumbs = false) by (apply str_in_false, Hc; left; reflexivity). rewrite E0.
    assert (E1 : exists c1, cached_preparse w f c p = Ok (mkInfo refs types p (pre_uniqid p), c1)).
    { unfold cached_preparse. destruct (assoc p c) as [i |] eqn:Ea.
      - exists c. rewrite (header_fun w p _ _ (G _ _ Ea) Hh). reflexivity.
      - rewrite (preparse_stable U w p f0 f ltac:(lia) ltac:(congruence)), Ef. eexists. reflexivity. }
    destruct E1 as [c1 E1]. rewrite E1. destruct (cached_ok w _ _ _ _ _ G E1) as (_ & G1 & _ & _).
    cbn [mi_imports]. destruct (H1 f ltac:(lia) c1 refs G1 eq_refl) as [c2 E2]. rewrite E2. eexists. reflexivity.
  - intros _ crumbs _. exists 0. intros f _ c refs _ E. destruct refs; [| discriminate]. eexists. reflexivity.
  - intros p ps l ls Hv IH Hvs IHs Hp crumbs Hc. inversion Hp; subst.
    destruct (IH H1 crumbs) as [F1 G1]; [intros q I; apply Hc, in_or_app; auto |].
    destruct (IHs H2 crumbs) as [F2 G2]; [intros q I; apply Hc, in_or_app; auto |].
    exists (F1 + F2). intros f Hf c refs G E. destruct refs as [| r rs]; [discriminate |]. cbn [map] in E. inversion E; subst. cbn [load_all].
    destruct (G1 f ltac:(lia) c G) as [c1 E1]. rewrite E1.
    destruct (G2 f ltac:(lia) c1 rs) as [c2 E2]; [| reflexivity | rewrite E2; eexists; reflexivity].
    exact (ld_good _ _ _ _ _ _ (load_ok w _ _ _ _ _ _ G E1)).
Qed.

(** ** Modules *)
Lemma firsts_dedup : forall A (k : A -> str) l seen l', firsts k seen l l' -> l' = dedup_by k seen l.
Proof.
  intros A k l seen l' H. induction H as [| seen a l l' Hi H IH | seen a l l' Hi H IH]; cbn [dedup_by]; [reflexivity | |].
  - apply str_in_spec in Hi. rewrite Hi. exact IH.
  - apply str_in_false in Hi. rewrite Hi. f_equal. exact IH.
Qed.
Lemma parse_mods_complete : forall all hs mods,
  Forall2 (fun h m => exists fuel, parsed w fuel all h m) hs mods ->
  exists F, forall f, F <= f -> parse_mods w f all hs = BOk mods.
Proof.
  intros all hs mods H. induction H as [| h m hs mods (f0 & text & Er & Ep) H [F IH]]; [exists 0; reflexivity |].
  exists (f0 + F). intros f Hf. cbn [parse_mods]. rewrite Er.
  rewrite (parse_module_stable _ _ f0 f ltac:(lia)) by congruence. rewrite Ep, IH by lia. reflexivity.
Qed.
Lemma translate_mods_complete : forall mods metas todo done,
  (forall i m h, nth_error todo i = Some (m, h) -> forall cms, List.length cms = List.length done + i ->
     exists cm, translate m (mkParams h metas cms mods) = TrOk cm) ->
  exists cms, translate_mods mods metas done todo = BOk cms.
Proof.
  intros mods metas. induction todo as [| [m h] r IH]; intros done H; [eexists; reflexivity |]. cbn [translate_mods].
  destruct (H 0 m h eq_refl done ltac:(lia)) as [cm E]. rewrite E. apply IH. intros i m' h' Hi cms Hc.
  apply (H (S i) m' h' Hi). rewrite Hc, app_length. cbn. lia.
Qed.
Lemma nth_ext_error : forall A (l l' : list A), (forall i, nth_error l i = nth_error l' i) -> l = l'.
Proof.
  induction l as [| a l IH]; intros [| b l'] H; [reflexivity | specialize (H 0); discriminate | specialize (H 0); discriminate |].
  pose proof (H 0) as E. inversion E. f_equal. apply IH. intros i. exact (H (S i)).
Qed.
Lemma Forall2_of_nth : forall A B (R : A -> B -> Prop) l l', List.length l = List.length l' ->
  (forall i a b, nth_error l i = Some a -> nth_error l' i = Some b -> R a b) -> Forall2 R l l'.
Proof.
  intros A B R. induction l as [| a l IH]; intros [| b l'] E H; try discriminate E; constructor.
  - exact (H 0 a b eq_refl eq_refl).
  - apply IH; [cbn in E; lia |]. intros i x y Hx Hy. exact (H (S i) x y Hx Hy).
Qed.

Lemma built_settled main heads mods : plain_path main -> well_formed w main heads mods ->
  exists F cmods, forall fuel, F <= fuel -> parse_project w fuel main = BOk (mkProject heads mods cmods).
Proof.
  intros Hp (l & paths & Hv & Hf & Ll1 & Ll2 & HM).
  destruct (proj1 visit_load _ _ Hv Hp []) as [F1 H1]; [intros q _ [] |].
  apply firsts_dedup in Hf. change (paths = uniq (rev l)) in Hf.
  assert (Hpp : forall p, In p paths -> plain_path p).
  { intros p I. apply (proj1 visit_inside _ _ Hv Hp). apply in_rev, uniq_in. rewrite <- Hf. exact I. }
  assert (HP : Forall2 (fun h m => exists fuel, parsed w fuel heads h m) heads mods).
  { apply Forall2_of_nth; [lia |]. intros i h m Hh Hm.
    assert (Hi : exists p, nth_error paths i = Some p).
    { destruct (nth_error paths i) eqn:Ec; [eauto |]. apply nth_error_None in Ec. assert (i < List.length heads) by (apply nth_error_Some; congruence). lia. }
    destruct Hi as [p Hi]. destruct (HM i p h m Hi Hh Hm) as (Efp & _ & toks & names & (text & q & Er & Hl) & _ & _ & Hmo & Eex & _).
    destruct (proj2 (text_exact text (mkPctx h heads) m)) as [fuel Ef].
    { exists toks, q, (mod_elements m). split; [exact Hl |]. split; [exact Hmo |]. rewrite get_exports_spec. destruct m; cbn in *; congruence. }
    exists fuel, text. rewrite Efp. auto. }
  destruct (parse_mods_complete _ _ _ HP) as [F2 H2].
  destruct (translate_mods_complete mods heads (combine mods heads) []) as [cmods H3].
  { intros i m h Hi cms Hc. cbn [List.length plus] in Hc.
    assert (Hh : nth_error mods i = Some m /\ nth_error heads i = Some h).
    { clear -Hi. revert heads i Hi. induction mods as [| x xs IH]; intros [| y ys] [| i] Hi; try discriminate Hi; cbn in *; [inversion Hi; auto |]. apply IH, Hi. }
    destruct Hh as [Hm Hh].
    assert (Hip : exists p, nth_error paths i = Some p).
    { destruct (nth_error paths i) eqn:Ec; [eauto |]. apply nth_error_None in Ec. assert (i < List.length heads) by (apply nth_error_Some; congruence). lia. }
    destruct Hip as [p Hip]. destruct (HM i p h m Hip Hh Hm) as (_ & _ & toks & names & _ & _ & _ & _ & _ & Hio).
    apply accepted_iff. unfold site_of. cbn [tp_mod tp_heads tp_mods tp_cmods]. rewrite Hc. exact Hio. }
  exists (F1 + F2), cmods. intros fuel Hfu. unfold parse_project.
  destruct (H1 fuel ltac:(lia) [] (good_nil w)) as [c El]. rewrite El.
  pose proof (load_ok w _ _ _ _ _ _ (good_nil w) El) as Hld.
  destruct (heads_of_some c (uniq (rev l))) as [heads0 Eh].
  { intros p I. rewrite uniq_in, <- in_rev in I. apply (ld_known _ _ _ _ _ _ Hld), I. }
  rewrite Eh. destruct (heads_of_ok w c _ _ (ld_good _ _ _ _ _ _ Hld) Eh) as [Ep HFh]. rewrite Forall_forall in HFh.
  assert (Eheads : with_ids 0 heads0 = heads).
  { apply nth_ext_error. intros i. destruct (nth_error heads i) as [h |] eqn:Hh.
    - apply with_ids_nth.
      assert (Hip : exists p, nth_error paths i = Some p).
      { destruct (nth_error paths i) eqn:Ec; [eauto |]. apply nth_error_None in Ec. assert (i < List.length heads) by (apply nth_error_Some; congruence). lia. }
      destruct Hip as [p Hip].
      assert (Hm : exists m, nth_error mods i = Some m).
      { destruct (nth_error mods i) eqn:Ec; [eauto |]. apply nth_error_None in Ec. assert (i < List.length heads) by (apply nth_error_Some; congruence). lia. }
      destruct Hm as [m Hm]. destruct (HM i p h m Hip Hh Hm) as (Efp & Eu & toks & names & Ht & Ha & HF & _).
      assert (K : nth_error (map mi_filepath heads0) i = Some p) by (rewrite Ep, <- Hf; exact Hip).
      destruct (nth_map_error _ _ _ _ _ _ K) as (h0 & Hh0 & E0). exists h0. split; [exact Hh0 |].
      pose proof (HFh h0 (nth_error_In _ _ Hh0)) as Hhd. rewrite E0 in Hhd.
      pose proof (header_fun w p _ _ Hhd (known_header _ _ _ _ _ (Hpp p (nth_error_In _ _ Hip)) Ht Ha HF)) as E1.
      subst h0. cbn [mi_imports mi_typedefs mi_filepath plus]. destruct h; cbn in *; congruence.
    - apply nth_error_None. apply nth_error_None in Hh. rewrite <- (map_length mi_filepath), with_ids_paths, Ep, <- Hf. lia. }
  cbv zeta. rewrite Eheads, H2 by lia. cbn [bbind]. rewrite H3. reflexivity.
Qed.
Theorem built_iff main heads mods : plain_path main ->
  ((exists fuel cmods, parse_project w fuel main = BOk (mkProject heads mods cmods)) <-> well_formed w main heads mods).
Proof.
  intros Hp. split.
  - intros (fuel & cmods & E). pose proof (project_built w _ _ _ E) as [_ [Hl1 Hl2] Hpa Htr]. cbn [pr_heads pr_mods pr_cmods] in *.
    unfold parse_project in E. destruct (load_tree w fuel [] main []) as [[l c] | | |] eqn:El; try discriminate.
    destruct (heads_of c (uniq (rev l))) as [heads0 |] eqn:Eh; [| discriminate]. cbv zeta in E.
    destruct (parse_mods w fuel _ _) as [mods' | | |]; try discriminate. cbn [bbind] in E.
    destruct (translate_mods mods' _ _ _) as [cm' | | |]; try discriminate. cbn [bbind] in E.
    assert (heads = with_ids 0 heads0) by congruence. clear E.
    pose proof (load_visit _ _ _ _ _ _ (good_nil w) Hp El) as Hv.
    pose proof (load_ok w _ _ _ _ _ _ (good_nil w) El) as Hld.
    destruct (heads_of_ok w c _ _ (ld_good _ _ _ _ _ _ Hld) Eh) as [Ep HFh].
    assert (Epp : map mi_filepath heads = uniq (rev l)) by (subst heads; rewrite with_ids_paths; exact Ep).
    assert (Elen : List.length heads = List.length (uniq (rev l))) by (rewrite <- Epp, map_length; reflexivity).
    exists l, (uniq (rev l)). split; [exact Hv |]. split; [apply dedup_firsts |]. split; [exact Elen |]. split; [lia |].
    intros i p h m Hi Hh Hm.
    assert (Hc : exists cm, nth_error cmods i = Some cm).
    { destruct (nth_error cmods i) eqn:Ec; [eauto |]. apply nth_error_None in Ec. assert (i < List.length heads) by (apply nth_error_Some; congruence). lia. }
    destruct Hc as [cm Hc]. assert (Hu : unit_at (mkProject heads mods cmods) i h m cm) by (repeat split; assumption).
    assert (Efp : mi_filepath h = p).
    { pose proof (map_nth_error mi_filepath _ _ Hh) as K. rewrite Epp in K. congruence. }
    pose proof Hh as Hh0. subst heads. apply with_ids_nth in Hh0. destruct Hh0 as (h0 & Hh0 & ->). cbn [mi_filepath mi_uniqid mi_typedefs mi_imports] in *.
    rewrite Forall_forall in HFh. pose proof (HFh h0 (nth_error_In _ _ Hh0)) as Hhd. rewrite Efp in *.
    assert (Hpp : plain_path p).
    { apply (proj1 (visit_inside) _ _ Hv Hp). apply in_rev. apply uniq_in. apply (nth_error_In _ _ Hi). }
    destruct (proj1 (header_refers w p h0 Hpp) Hhd) as (toks & names & Ht & Ha & HF & _ & _).
    split; [reflexivity |]. split; [reflexivity |]. exists toks, names. split; [exact Ht |]. split; [exact Ha |]. split; [exact HF |].
    destruct (Hpa i _ m cm Hu) as (text & Er & Ep2). cbn [mi_filepath] in Er.
    destruct (module_sound _ _ _ _ Ep2) as (toks' & q & ms & Hl & Hmo & ->). cbn [mod_elements mod_exports] in *.
    destruct Ht as (text' & q' & Er' & Hl'). assert (text' = text) by congruence. subst text'.
    assert (toks' = toks) by (pose proof (tokenize_of _ _ _ Hl) as K1; pose proof (tokenize_of _ _ _ Hl') as K2; congruence). subst toks'.
    split; [exact Hmo |]. split; [apply get_exports_spec |].
    specialize (Htr i _ _ cm Hu). assert (Hio := proj1 (accepted_iff _ _) (ex_intro _ cm Htr)).
    unfold site_of, unit_params in Hio. cbn [tp_mod tp_heads tp_mods tp_cmods pr_heads pr_mods pr_cmods mod_elements] in Hio.
    rewrite firstn_length_le in Hio; [exact Hio |]. assert (i < List.length cmods) by (apply nth_error_Some; congruence). lia.
  - intros Hw. destruct (built_settled _ _ _ Hp Hw) as (F & cmods & H). exists F, cmods. apply H. lia.
Qed.
Lemma well_formed_fun main heads mods heads' mods' : plain_path main -> well_formed w main heads mods ->
  well_formed w main heads' mods' -> heads = heads' /\ mods = mods'.
Proof.
  intros Hp H H'. destruct (built_settled _ _ _ Hp H) as (F & cm & E). destruct (built_settled _ _ _ Hp H') as (F' & cm' & E').
  specialize (E (F + F') ltac:(lia)). specialize (E' (F + F') ltac:(lia)). rewrite E in E'. injection E' as -> -> _. auto.
Qed.
Lemma well_formed_imports main heads mods : well_formed w main heads mods ->
  forall i h, nth_error heads i = Some h ->
  exists toks, tokens_in w (mi_filepath h) toks /\ Forall2 (refers_to w (mi_filepath h)) (import_names toks) (mi_imports h).
Proof.
  intros (l & paths & _ & _ & L1 & L2 & HM) i h Hh.
  assert (Hlt : i < List.length heads) by (apply nth_error_Some; congruence).
  destruct (nth_error paths i) as [p |] eqn:Hi; [| apply nth_error_None in Hi; lia].
  destruct (nth_error mods i) as [m |] eqn:Hm; [| apply nth_error_None in Hm; lia].
  destruct (HM i p h m Hi Hh Hm) as (-> & _ & toks & names & Ht & Ha & HF & Hmo & _). exists toks. split; [exact Ht |].
  rewrite <- (grammatical_imports _ _ _ Hmo _ _ Ha). exact HF.
Qed.
End Visit.
