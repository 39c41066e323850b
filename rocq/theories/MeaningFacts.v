(** Repeated declarations keep their meaning: C71. *)
From Verif Require Import Base BaseFacts Buf Lexer Nodes Types Cspec Resolve Cursor Preparser Parser CAst FormatC Translator Build
  SpecLex LexFacts SpecGrammar TextFacts GapFacts ExportFacts.
From Verif Require Import SpecDecl SpecScope SpecExports SpecModule SpecTarget TargetFacts TargetProps SpecTyping ElabFacts SpecTame SpecCStmt CStmtFacts SpecClosed SpecTidy SpecNeat SpecLink ClosedFacts ClosedModule
  SpecBuild BuildFacts ProjectFacts BuildProps PathFacts ScopeFacts ClosedProject ClosedOwn ClosedFile LinkFacts CompleteFacts SpecMeaning.

Lemma pairs_or : forall A (R : A -> A -> Prop), (forall x y, R x y -> R y x) -> forall l x y, ForallOrdPairs R l -> In x l -> In y l -> x = y \/ R x y.
Proof.
  intros A R Sy l x y H. induction H as [| z l H1 H2 IH]; intros Ix Iy; [destruct Ix |]. rewrite Forall_forall in H1.
  destruct Ix as [-> | Ix], Iy as [-> | Iy]; auto.
Qed.

Section Project.
Context {U : Unicode} (w : world) (fuel : nat) (main : str) (pr : project).
Hypothesis B : parse_project w fuel main = BOk pr.
Hypothesis files : forall i h m cm, unit_at pr i h m cm -> forall c, In c (mi_uniqid h) -> word_char c = true.
Hypothesis exports : forall i h m cm, unit_at pr i h m cm -> distinct_exports (mi_uniqid h) (mod_elements m).
Hypothesis directives : forall i h m cm i' h' m' cm', unit_at pr i h m cm -> unit_at pr i' h' m' cm' -> same_directives (mod_elements m) (mod_elements m').
Hypothesis tells : forall i h m cm, unit_at pr i h m cm -> telling (mod_elements m).
Hypothesis told : forall i h m cm i' h' m' cm', unit_at pr i h m cm -> unit_at pr i' h' m' cm' -> told_apart (mi_uniqid h') (mod_elements m) (mod_elements m').
Variable system : cuse -> Prop.
Hypothesis Tidy : forall i h m cm, unit_at pr i h m cm -> tidy (site_of m (unit_params pr i h)) system.
Hypothesis Neat : forall i h m cm, unit_at pr i h m cm -> neat (site_of m (unit_params pr i h)) system.
Hypothesis Clear : clear pr system.
Notation Si i h m := (site_of m (unit_params pr i h)).
Notation Gi m := (module_decls is_numeric (mod_elements m)).
Notation source_of := (source_of pr).

(** ** What the elements of a file introduce *)
Definition is_macro (e : celem) : Prop := exists n v, e = XMacro n v.
Lemma introduces_other : forall e, ~ is_macro e -> introduces e = map IUse (declared e) ++ map ITag (tags e).
Proof. intros e N. destruct e; try reflexivity. exfalso. apply N. do 2 eexists. reflexivity. Qed.
Definition item_name (x : item) : str := match x with IUse (UName n) | IUse (UType n) | ITag n | IWord n => n end.
Lemma macro_item : forall v it, In it (flat_map (fun x => [IUse (UName x); IUse (UType x); ITag x; IWord x]) (macro_names v)) <-> In (item_name it) (macro_names v).
Proof.
  intros v it. rewrite in_flat_map. split.
  - intros (x & I & [<- | [<- | [<- | [<- | []]]]]); exact I.
  - intros I. exists (item_name it). split; [exact I |]. destruct it as [[n | n] | n | n]; cbn; tauto.
Qed.
Lemma added_names : forall z, head_macro z -> forall it, In it (introduces z) -> In (item_name it) (map lit added).
Proof.
  intros z Hz it I. destruct Hz as [-> | ->]; cbn [introduces] in I; change (str_eqb (lit "define") (lit "define")) with true in I; cbn match in I; apply macro_item in I;
    vm_compute in I; vm_compute; tauto.
Qed.
(** Where a name that an element introduces comes from. *)
Inductive comes (e : celem) (x : str) : Prop :=
| Comes_include h : e = XInclude h -> comes e x
| Comes_added : In x (map lit added) -> (head_macro e \/ e = XFunc helper) -> comes e x
| Comes_macro a : is_macro e -> macro_of pr a x -> e = XMacro (m_name a) (m_value a) -> comes e x
| Comes_taken : ~ is_macro e -> taken pr x -> comes e x.
Lemma ordinary_declared : forall e u, ~ is_macro e -> In u (declared e) -> (exists h, e = XInclude h) \/ In (item_name (IUse u)) (ordinary e).
Proof.
  intros e u N I. destruct e; cbn [declared] in I; try (now destruct I); eauto.
  - exfalso. apply N. do 2 eexists. reflexivity.
  - right. destruct I as [<- | []]. now left.
  - right. apply in_map_iff in I as (p & <- & I). cbn [item_name ordinary]. now apply in_map.
  - right. destruct I as [<- | []]. now left.
  - right. destruct I as [<- | []]. now left.
  - right. destruct I as [<- | []]. now left.
Qed.
Lemma comes_from : forall i h m cm e it, unit_at pr i h m cm -> In e (cm_elements cm) -> In it (introduces e) -> comes e (item_name it).
Proof.
  intros i h m cm e it Hu Ie I.
  assert (M : is_macro e \/ ~ is_macro e) by (destruct e; try (right; intros (? & ? & ?); discriminate); left; do 2 eexists; reflexivity).
  destruct M as [M | M].
  - destruct M as (n & v & ->). destruct (macro_origin w fuel main pr B _ _ _ _ _ _ Hu Ie) as [H | (k & hk & mk & cmk & a & Hk & Ia & <- & <-)].
    + apply Comes_added; [exact (added_names _ H _ I) | auto].
    + apply (Comes_macro _ _ a); [do 2 eexists; reflexivity | | reflexivity]. cbn [introduces] in I. destruct (str_eqb _ _) eqn:D; [| destruct I].
      apply str_eqb_eq in D. exists k, hk, mk, cmk. repeat split; auto; try apply Hk. now apply macro_item in I.
  - rewrite (introduces_other _ M) in I. apply in_app_or in I as [I | I]; apply in_map_iff in I as (u & <- & I).
    + destruct (ordinary_declared _ _ M I) as [(hd & ->) | O]; [eapply Comes_include; reflexivity |].
      destruct (all_from w fuel main pr B _ _ _ _ _ Hu Ie) as [(s & H) | Src].
      { destruct (head_alone _ _ H) as [E | ->]; [rewrite E in O; destruct O |]. apply Comes_added; [| right; reflexivity]. destruct O as [<- | []]. vm_compute. tauto. }
      assert (S : exists k hk mk x, source_of e k hk mk x) by (destruct Src as [(k & hk & mk & x & _ & _ & S) | (x & S)]; eauto). destruct S as (k & hk & mk & x & S).
      destruct (source_names w fuel main pr B tells _ _ _ _ _ _ S O) as (cmk & b & y & Hk & Ix & Of & E). apply Comes_taken; [exact M |].
      exists k, hk, mk, cmk, x, b, y. split; [exact Hk |]. split; [exact Ix |]. split; [exact Of |]. left. exact E.
    + destruct (all_from w fuel main pr B _ _ _ _ _ Hu Ie) as [(s & H) | Src]; [rewrite (head_tags _ _ H) in I; destruct I |].
      assert (S : exists k hk mk x, source_of e k hk mk x) by (destruct Src as [(k & hk & mk & x & _ & _ & S) | (x & S)]; eauto). destruct S as (k & hk & mk & x & cmk & Hk & Ix & S).
      destruct (elem_tags mk (unit_params pr k hk) _ _ _ S I) as (st & -> & E). apply Comes_taken; [exact M |].
      exists k, hk, mk, cmk, (MStruct st), (st_pub st), (st_name st). split; [exact Hk |]. split; [exact Ix |]. split; [left; cbn; auto |]. right. split; [exact E | eauto].
Qed.

(** ** What nothing but the headers introduces *)
Definition idle (it : item) : Prop := forall i h m cm e, unit_at pr i h m cm -> In e (cm_elements cm) -> In it (introduces e) -> exists x, e = XInclude x.
Lemma includes_same : forall i h m cm x, unit_at pr i h m cm -> (In (XInclude x) (cm_elements cm) <-> In (XInclude x) std_includes).
Proof.
  intros i h m cm x Hu. destruct (unit_gives w _ _ _ _ _ _ _ B Hu) as (s & parts & inj & Hg & Hf & E). split; intros I.
  - destruct (all_from w fuel main pr B _ _ _ _ _ Hu I) as [(s' & H) | [(k & hk & mk & e & _ & O & _) | (e & c & _ & _ & S)]]; [| discriminate |].
    + apply head_kinds in H as [[H | H] | [H | H]]; try discriminate. exact H.
    + exfalso. destruct e as [mc | d | a | t | t | v | f]; cbn [c_elem] in S.
      * destruct (_ || _); [destruct S |]. destruct S as [S | []]. discriminate.
      * destruct S as [S | []]. discriminate.
      * destruct S as [S | []]. discriminate.
      * destruct S as [S | []]. discriminate.
      * destruct S as [S | [S | [S | []]]]; discriminate.
      * destruct (v_value v); [| destruct S]. destruct S as [S | []]. discriminate.
      * destruct S as [S | S]; [discriminate |]. destruct (str_eqb _ _); [destruct S |]. destruct S as [S | []]. discriminate.
  - rewrite E. apply reorder_in. eapply thinned_kept; [apply dedup_thins | | exact (fun K => K)]. unfold module_head. rewrite !in_app_iff. auto.
Qed.
Lemma idle_stands : forall it i h m cm j h' m' cm' f, idle it -> unit_at pr i h m cm -> unit_at pr j h' m' cm' -> stands (cm_elements cm) it f -> stands (cm_elements cm') it f.
Proof.
  intros it i h m cm j h' m' cm' f Id Hu Hu' (e & Ie & I & F). destruct (Id _ _ _ _ _ Hu Ie I) as (x & ->). exists (XInclude x). repeat split; auto.
  apply (includes_same _ _ _ _ _ Hu'). now apply (includes_same _ _ _ _ _ Hu) in Ie.
Qed.
Lemma header_name : forall x h, In (UName x) (header_declares h) \/ In (UType x) (header_declares h) ->
  exists hd, In hd headers /\ In x (map lit (fst (snd hd) ++ snd (snd hd))).
Proof.
  intros x h H. assert (H' : exists hd, In hd headers /\ In (IUse (UName x)) (map IUse (map UName (map lit (fst (snd hd) ++ snd (snd hd)))))).
  { destruct H as [H | H]; unfold header_declares in H; apply in_flat_map in H as (hd & Ih & H); destruct (str_eqb _ _); try (now destruct H);
      exists hd; split; auto; apply in_map, in_map; rewrite map_app, in_app_iff; apply in_app_or in H as [H | H]; apply in_map_iff in H as (q & E & H); try discriminate;
      injection E as <-; [right | left]; apply in_map, H. }
  destruct H' as (hd & Ih & H'). exists hd. split; [exact Ih |]. apply in_map_iff in H' as (u & E & H'). injection E as ->. apply in_map_iff in H' as (y & E & H'). injection E as <-. exact H'.
Qed.
Lemma taken_library : forall x, taken pr x -> ~ exists hd, In hd headers /\ In x (map lit (fst (snd hd) ++ snd (snd hd))).
Proof.
  intros x (k & h & m & cm & e & b & y & Hu & Ie & Of & Ex) (hd & Ih & J).
  assert (Start : forall c c' r, x = c :: c' :: r -> (c, c') = (109, 111)%N \/ (c, c') = (95, 95)%N -> False).
  { intros c c' r -> Hs.
    assert (Q : forallb (fun s => negb (starts_with (lit s) (L "mo")) && negb (starts_with (lit s) (L "__"))) (flat_map (fun h => fst (snd h) ++ snd (snd h)) headers) = true) by (vm_compute; reflexivity).
    rewrite forallb_forall in Q. apply in_map_iff in J as (s & E & J). specialize (Q s ltac:(apply in_flat_map; eauto)). rewrite E in Q.
    destruct Hs as [Hs | Hs]; injection Hs as -> ->; cbn in Q; rewrite ?andb_false_r in Q; discriminate. }
  destruct Ex as [Ex | [Ex _]]; [| unfold struct_tag in Ex; eapply Start; [exact Ex | now right]]. destruct b.
  - destruct (global_start w fuel main pr B _ _ _ _ y Hu) as (r & R). rewrite R in Ex. eapply Start; [exact Ex | now left].
  - destruct (tells _ _ _ _ Hu) as (_ & _ & T & _). destruct (T _ _ Ie Of) as [_ T2]. apply (T2 _ Ih). rewrite <- Ex. exact J.
Qed.
Lemma library_type : forall hd x, In hd headers -> In x (fst (snd hd)) -> In x library_types.
Proof. intros hd x I J. unfold library_types. rewrite in_app_iff, in_flat_map. right. eauto. Qed.
Lemma added_library : forall x, In x (map lit added) -> ~ exists hd, In hd headers /\ In x (map lit (fst (snd hd) ++ snd (snd hd))).
Proof.
  intros x I (hd & Ih & J).
  assert (Q : forallb (fun s => negb (str_in (lit s) (map lit added))) (flat_map (fun h => fst (snd h) ++ snd (snd h)) headers) = true) by (vm_compute; reflexivity).
  rewrite forallb_forall in Q. apply in_map_iff in J as (s & E & J). specialize (Q s ltac:(apply in_flat_map; eauto)). rewrite E, (proj2 (str_in_spec _ _) I) in Q. discriminate.
Qed.
Lemma macro_library : forall a x, macro_of pr a x -> ~ exists hd, In hd headers /\ In x (map lit (fst (snd hd) ++ snd (snd hd))).
Proof.
  intros a x M (hd & Ih & J). destruct (clear_macro _ _ Clear _ _ M) as (_ & _ & _ & _ & Lt & Lh & _). rewrite map_app, in_app_iff in J. destruct J as [J | J]; [| exact (Lh _ Ih J)].
  apply Lt. apply in_map_iff in J as (s & <- & J). apply in_map. exact (library_type _ _ Ih J).
Qed.
Lemma name_idle : forall it, ~ In (item_name it) (map lit added) -> (forall a, ~ macro_of pr a (item_name it)) -> ~ taken pr (item_name it) -> idle it.
Proof.
  intros it N1 N2 N3 i h m cm e Hu Ie I. destruct (comes_from _ _ _ _ _ _ Hu Ie I) as [hd -> | A _ | a _ M _ | _ T]; [eauto | contradiction | destruct (N2 _ M) | contradiction].
Qed.
Lemma library_idle : forall u, library u -> idle (IUse u).
Proof.
  intros u [(t & It & ->) | L0].
  - assert (Ib : In (lit t) (map lit basic_types)) by now apply in_map.
    apply name_idle; cbn [item_name]; [| | now apply (clear_system _ _ Clear); auto].
    + apply (clear_system _ _ Clear); auto.
    + intros a M. destruct (clear_macro _ _ Clear _ _ M) as (_ & _ & _ & _ & Lt & _). apply Lt. unfold library_types. rewrite map_app, in_app_iff. now left.
  - apply in_flat_map in L0 as (z & Iz & D). unfold std_includes in Iz. apply in_map_iff in Iz as (n & <- & _). cbn [declared] in D.
    assert (Hn : exists hd, In hd headers /\ In (item_name (IUse u)) (map lit (fst (snd hd) ++ snd (snd hd)))).
    { destruct u as [x | x]; eapply header_name; eauto. }
    apply name_idle.
    + intros A. exact (added_library _ A Hn).
    + intros a M. exact (macro_library _ _ M Hn).
    + intros T. exact (taken_library _ T Hn).
Qed.
Lemma system_idle : forall u, system u -> idle (IUse u).
Proof.
  intros u Su. assert (X : ~ taken pr (item_name (IUse u)) /\ ~ In (item_name (IUse u)) (map lit added)) by (apply (clear_system _ _ Clear); destruct u; cbn; auto).
  apply name_idle; try apply X. intros a M. destruct (clear_macro _ _ Clear _ _ M) as (_ & _ & M1 & M2 & _). destruct u; cbn in *; contradiction.
Qed.

(** ** What an offered element introduces, nothing else does *)
Lemma face_offered : forall e, offered e = true -> face e = e.
Proof. intros [] O; try discriminate; reflexivity. Qed.
Lemma head_items : forall z it, head_macro z -> In it (introduces z) -> z = XMacro (L "define") (L "_XOPEN_SOURCE 700") /\ item_name it = L "_XOPEN_SOURCE"
  \/ z = XMacro (L "define") (L "nelem(x) (sizeof (x)/sizeof (x)[0])") /\ In (item_name it) [L "nelem(x)"; L "nelem"].
Proof.
  intros z it [-> | ->] I; cbn [introduces] in I; change (str_eqb (lit "define") (lit "define")) with true in I; cbn match in I; apply macro_item in I;
    vm_compute in I; [left | right]; (split; [reflexivity |]); vm_compute; intuition.
Qed.
Lemma helper_item : forall it, In it (introduces (XFunc helper)) -> item_name it = L "calloc_or_panic".
Proof. intros it [<- | []]. reflexivity. Qed.
Lemma common : forall i h m cm e j h' m' cm' e' it, unit_at pr i h m cm -> In e (cm_elements cm) -> offered e = true ->
  unit_at pr j h' m' cm' -> In e' (cm_elements cm') -> In it (introduces e) -> In it (introduces e') ->
  e' = e \/ ~ is_macro e /\ ~ is_macro e' /\ taken pr (item_name it).
Proof.
  intros i h m cm e j h' m' cm' e' it Hu Ie O Hu' Ie' I I'.
  assert (Header : forall hd, e' = XInclude hd -> exists x, In x headers /\ In (item_name it) (map lit (fst (snd x) ++ snd (snd x)))).
  { intros hd ->. cbn [introduces tags map] in I'. rewrite app_nil_r in I'. apply in_map_iff in I' as (u & <- & I'). destruct u as [x | x]; eapply header_name; eauto. }
  destruct (comes_from _ _ _ _ _ _ Hu Ie I) as [hd -> | A He | a Me M Ee | Ne T]; [discriminate | | |].
  - destruct He as [He | ->]; [| discriminate]. left. pose proof (head_items _ _ He I) as Q.
    destruct (comes_from _ _ _ _ _ _ Hu' Ie' I') as [hd Eh | A' He' | a Me M Ee | Ne T].
    + destruct (added_library _ A (Header _ Eh)).
    + destruct He' as [He' | ->].
      * pose proof (head_items _ _ He' I') as Q'. destruct Q as [[-> Q] | [-> Q]], Q' as [[-> Q'] | [-> Q']]; try reflexivity; exfalso;
          [rewrite Q in Q' | rewrite Q' in Q]; vm_compute in Q, Q'; intuition discriminate.
      * exfalso. apply helper_item in I'. rewrite I' in Q. vm_compute in Q. intuition discriminate.
    + destruct (clear_macro _ _ Clear _ _ M) as (_ & M1 & _). contradiction.
    + destruct (clear_added _ _ Clear _ T A).
  - destruct (clear_macro _ _ Clear _ _ M) as (M0 & M1 & _ & _ & _ & _ & M2). left.
    destruct (comes_from _ _ _ _ _ _ Hu' Ie' I') as [hd Eh | A' He' | a' Me' M' Ee' | Ne T]; try contradiction.
    + destruct (macro_library _ _ M (Header _ Eh)).
    + rewrite Ee, Ee'. pose proof (M2 _ M') as V. destruct M as (? & ? & ? & ? & _ & _ & N & _), M' as (? & ? & ? & ? & _ & _ & N' & _). congruence.
  - right. split; [exact Ne |]. split; [| exact T].
    destruct (comes_from _ _ _ _ _ _ Hu' Ie' I') as [hd Eh | A' He' | a' Me' M' Ee' | Ne' T']; auto.
    + destruct (taken_library _ T (Header _ Eh)).
    + destruct (clear_added _ _ Clear _ T A').
    + destruct (clear_macro _ _ Clear _ _ M') as (M0 & _). contradiction.
Qed.
Lemma common_names : forall e e' it, ~ is_macro e -> ~ is_macro e' -> offered e = true -> In it (introduces e) -> In it (introduces e') ->
  (exists h, e' = XInclude h) \/ (exists x, In x (ordinary e) /\ In x (ordinary e')) \/ exists x, In x (tags e) /\ In x (tags e').
Proof.
  intros e e' it N N' O I I'. rewrite introduces_other in I, I' by assumption. apply in_app_or in I, I'.
  destruct I as [I | I]; apply in_map_iff in I as (u & <- & I); (destruct I' as [I' | I']; apply in_map_iff in I' as (u' & E & I'); try discriminate E; injection E as ->).
  - destruct (ordinary_declared _ _ N I) as [(h & ->) | K]; [discriminate |]. destruct (ordinary_declared _ _ N' I') as [K' | K']; [now left |]. eauto.
  - eauto.
Qed.
Lemma introduced_once : forall i h m cm e e' it, unit_at pr i h m cm -> In e (cm_elements cm) -> offered e = true -> In e' (cm_elements cm) ->
  In it (introduces e) -> In it (introduces e') -> face e' = e.
Proof.
  intros i h m cm e e' it Hu Ie O Ie' I I'.
  destruct (common _ _ _ _ _ _ _ _ _ _ _ Hu Ie O Hu Ie' I I') as [-> | (N & N' & T)]; [now apply face_offered |].
  destruct (common_names _ _ _ N N' O I I') as [(hd & ->) | C].
  { exfalso. cbn [introduces tags map] in I'. rewrite app_nil_r in I'. apply in_map_iff in I' as (u & <- & I'). apply (taken_library _ T). destruct u as [x | x]; eapply header_name; eauto. }
  destruct (file_once w fuel main pr B tells told _ _ _ _ Hu) as (_ & P & _). apply pairs_at in P.
  destruct (pairs_or _ _ compatible_sym _ _ _ P Ie Ie') as [<- | Q]; [now apply face_offered |].
  destruct C as [(x & X & X') | (x & X & X')]; [| destruct (proj2 Q _ X X')].
  destruct (proj1 Q _ X X') as [(hd & H1 & H2) _].
  destruct e; try discriminate; cbn [function_head] in H1.
  injection H1 as <-. destruct e'; try discriminate; cbn [function_head face] in *; injection H2; intros; f_equal.
  - destruct f, f0; cbn in *; congruence.
  - destruct f; cbn in *; congruence.
Qed.
Lemma offered_alike : forall i h m cm j h' m' cm' z z' it, unit_at pr i h m cm -> unit_at pr j h' m' cm' -> In z (cm_elements cm) -> In z' (cm_elements cm') ->
  offered z = true -> offered z' = true -> In it (introduces z) -> In it (introduces z') -> z' = z.
Proof.
  intros i h m cm j h' m' cm' z z' it Hu Hu' Iz Iz' Oz Oz' I I'.
  destruct (common _ _ _ _ _ _ _ _ _ _ _ Hu Iz Oz Hu' Iz' I I') as [-> | (N & N' & T)]; [reflexivity |].
  destruct (common_names _ _ _ N N' Oz I I') as [(hd & ->) | [(x & X & X') | (x & X & X')]]; [discriminate | |].
  - destruct (offered_source w fuel main pr B _ _ _ _ _ Hu Iz Oz) as [(s & H) | (k & hk & mk & y & Sz)].
    { exfalso. destruct (head_alone _ _ H) as [E | ->]; [rewrite E in X; destruct X | discriminate]. }
    destruct (offered_source w fuel main pr B _ _ _ _ _ Hu' Iz' Oz') as [(s & H) | (k' & hk' & mk' & y' & Sz')].
    { exfalso. destruct (head_alone _ _ H) as [E | ->]; [rewrite E in X'; destruct X' | discriminate]. }
    destruct (source_names w fuel main pr B tells _ _ _ _ _ _ Sz X) as (c & b & n & Hk & Iy & Of & En).
    destruct (source_names w fuel main pr B tells _ _ _ _ _ _ Sz' X') as (c' & b' & n' & Hk' & Iy' & Of' & En').
    pose proof (offered_pub pr _ _ _ _ _ _ Sz Oz X _ _ Of En). pose proof (offered_pub pr _ _ _ _ _ _ Sz' Oz' X' _ _ Of' En'). subst b b'.
    assert (Q : c_name (mi_uniqid hk) true n = c_name (mi_uniqid hk') true n') by congruence.
    destruct (c_names_differ w fuel main pr B told _ _ _ _ _ _ _ _ _ _ _ _ _ _ Hk Hk' Iy Iy' Of Of' Q) as (_ & <- & Kk). specialize (Kk eq_refl). subst k'.
    destruct (same_unit_at _ _ _ _ _ _ _ _ Hk Hk') as (<- & <- & <-).
    pose proof (same_elem _ _ _ (unit_translated w _ _ _ B _ _ _ _ Hk) (tells _ _ _ _ Hk) _ _ _ _ _ Iy Iy' Of Of') as <-.
    destruct Sz as (d1 & _ & _ & Yy), Sz' as (d2 & _ & _ & Yz). symmetry. exact (offered_one pr k hk mk y z z' x x Yy Yz Oz Oz' X X').
  - symmetry. apply (offered_key w fuel main pr B tells told _ _ _ _ _ _ _ _ z z' Hu Iz Oz Hu' Iz' Oz').
    + destruct z; now destruct X.
    + destruct z; try (now destruct X). destruct z'; try (now destruct X'). cbn [tags key] in *. destruct X as [<- | []], X' as [X' | []]. congruence.
Qed.
Lemma declared_introduced : forall z u, In u (declared z) -> In (IUse u) (introduces z).
Proof.
  intros z u D. destruct z; cbn [introduces]; try (apply in_or_app; left; now apply in_map).
  cbn [declared] in D. destruct (str_eqb _ _); [| destruct D]. apply in_map_iff in D as (x & <- & D). now apply macro_item.
Qed.

(** ** What an offered element is made of *)
(** The struct behind a type goes where the type goes. *)
Lemma struct_follows : forall i h m cm t, unit_at pr i h m cm -> In (XTypedef t) (cm_elements cm) -> ctd_pub t = true -> tagged (ctd_type t) = true ->
  idle (ITag (skipn 7 (ctn_name (ctd_type t)))) \/ exists x, In (XStruct x) (cm_elements cm) /\ csd_pub x = true /\ csd_name x = skipn 7 (ctn_name (ctd_type t)).
Proof.
  induction i as [i IH] using lt_wf_ind. intros h m cm t Hu It P Tg.
  destruct (unit_gives w _ _ _ _ _ _ _ B Hu) as (s & parts & inj & Hg & Hf & E).
  pose proof (file_has w fuel main pr B files tells told _ _ _ _ _ _ _ Hu Hg Hf E) as Has.
  apply Has in It. apply in_app_or in It as [It | It]; [destruct (head_no_types _ _ It Logic.I) |]. apply in_app_or in It as [It | It].
  - pose proof (firsts_in _ _ _ _ _ Hf _ It) as C. apply in_concat in C as (part & Hp & C). destruct (part_of _ _ _ _ _ Hg Hp) as (j & h' & m' & cm' & Lt & Hj & ->).
    apply filter_In in C as [C O]. destruct (IH _ Lt _ _ _ _ Hj C P Tg) as [Id | (x & Ix & Px & Ex)]; [now left | right].
    exists x. split; [| auto]. apply Has. rewrite !in_app_iff. right. left.
    assert (Yc : In (XStruct x) (List.concat parts)) by (apply in_concat; eexists; split; [exact Hp | apply filter_In; auto]).
    destruct (proj2 (proj2 (firsts_keys _ _ _ _ _ Hf)) _ Yc) as [[] | Kz]. apply in_map_iff in Kz as (z & Kz & Iz).
    destruct (inj_of _ _ _ _ _ _ Hg Hf Iz) as (Oz & j3 & h3 & m3 & cm3 & _ & Hu3 & Iz3).
    rewrite (offered_key w fuel main pr B tells told _ _ _ _ _ _ _ _ (XStruct x) z Hj Ix Px Hu3 Iz3 Oz Logic.I (eq_sym Kz)). exact Iz.
  - unfold c_elems in It. apply in_flat_map in It as (e & Ie & It). pose proof It as It'. destruct e as [mc | d | a | t' | st | v | f]; cbn [c_elem] in It.
    + destruct (_ || _); [destruct It |]. destruct It as [It | []]. discriminate.
    + destruct It as [It | []]. discriminate.
    + destruct It as [It | []]. injection It as <-. left. destruct (clear_alias _ _ Clear _ _ _ _ _ Hu Ie) as (A1 & A2 & A3).
      apply name_idle; cbn [item_name ctd_type ctn_name]; match goal with |- context [skipn 7 ?q] => change (skipn 7 q) with (sa_structname a) end; auto.
    + destruct It as [It | []]. injection It as <-. exfalso. cbn [ctd_type] in Tg. unfold tagged in Tg.
      pose proof (unit_clean w fuel main pr B _ _ _ _ _ Hu Ie) as [Cl _].
      pose proof (type_clean w fuel main pr B files _ _ _ _ (td_type t') Hu Cl) as Ct.
      destruct (proj1 (starts_with_spec _ _) Tg) as (r & R). apply (clean_not _ 32%N Ct); [| now left]. rewrite R. vm_compute. tauto.
    + destruct It as [It | [It | [It | []]]]; try discriminate. injection It as <-. right. eexists. split; [apply Has; rewrite !in_app_iff; right; right; eapply in_c_elems; [exact Ie | right; left; reflexivity] |].
      split; [exact P | reflexivity].
    + destruct (v_value v); [| destruct It]. destruct It as [It | []]. discriminate.
    + destruct It as [It | It]; [discriminate |]. destruct (str_eqb _ _); [destruct It |]. destruct It as [It | []]. discriminate.
Qed.
Lemma word_idle : forall x, ~ In x (map lit added) -> (forall a, ~ macro_of pr a x) -> idle (IWord x).
Proof.
  intros x A M i h m cm e Hu Ie I. destruct (comes_from _ _ _ _ _ _ Hu Ie I) as [hd -> | A' _ | a _ M' _ | Ne T]; [eauto | contradiction | destruct (M _ M') |].
  exfalso. rewrite introduces_other in I by exact Ne. apply in_app_or in I as [I | I]; apply in_map_iff in I as (u & Eu & _); discriminate.
Qed.
Lemma inner_words : forall z k h m e x, source_of z k h m e -> In (IWord x) (content z) -> In x (inner_names e).
Proof.
  intros z k h m e x (cm & Hk & Ie & Iz) I. unfold content in I. apply in_app_or in I as [I | I]; [apply in_map_iff in I as (u & Eu & _); discriminate |].
  destruct e as [mc | d | a | t | s | v | f]; cbn [c_elem] in Iz.
  - destruct (_ || _); [destruct Iz |]. destruct Iz as [<- | []]. destruct I.
  - destruct Iz as [<- | []]. destruct I.
  - destruct Iz as [<- | []]. destruct (tagged _); [| destruct I]. destruct I as [I | []]. discriminate.
  - destruct Iz as [<- | []]. destruct (tagged _); [| destruct I]. destruct I as [I | []]. discriminate.
  - destruct Iz as [<- | [<- | [<- | []]]].
    + destruct I.
    + apply in_map_iff in I as (y & Ey & I). injection Ey as ->. cbn [csd_fields inner_names] in *. apply in_flat_map in I as (mb & Im & I). apply in_flat_map in Im as (en & Ien & Im).
      apply in_flat_map. exists en. split; [exact Ien |]. destruct en as [u | t]; cbn [c_struct_entry] in Im.
      * unfold c_fields in Im. rewrite map_map in Im. apply in_map_iff in Im as (fm & <- & Im). destruct I as [<- | []]. apply in_map_iff. exists fm. auto.
      * destruct Im as [<- | []]. cbn [member_words] in I. rewrite map_map in I. destruct I as [<- | I]; [now left | right]. apply in_map_iff in I as (p & <- & I). apply in_map_iff. exists p. auto.
    + destruct (tagged _); [| destruct I]. destruct I as [I | []]. discriminate.
  - destruct (v_value v); [| destruct Iz]. destruct Iz as [<- | []]. destruct I.
  - destruct Iz as [<- | Iz]; [destruct I |]. destruct (str_eqb _ _); [destruct Iz |]. destruct Iz as [<- | []]. cbn [cfw_params c_params cfp_list inner_names] in *.
    apply in_map_iff in I as (p & Ep & I). injection Ep as <-. apply in_flat_map in I as (t & It & I). unfold c_fields in I. apply in_map_iff in I as (fm & <- & I).
    unfold param_names. apply in_flat_map. exists t. split; [exact It |]. apply in_map_iff. exists fm. auto.
Qed.

(** ** The claim *)
Definition shared (l l' : list celem) (it : item) : Prop := (exists e, In e l /\ In e l' /\ offered e = true /\ In it (introduces e)) \/ idle it.
Lemma content_shared : forall i h m cm j h' m' cm' e it, unit_at pr i h m cm -> unit_at pr j h' m' cm' -> In e (cm_elements cm) -> In e (cm_elements cm') ->
  offered e = true -> In it (content e) -> shared (cm_elements cm) (cm_elements cm') it.
Proof.
  intros i h m cm j h' m' cm' e it Hu Hu' Ie Ie' O I. pose proof I as I0. unfold content in I0. apply in_app_or in I0 as [I0 | I0].
  - apply in_map_iff in I0 as (u & <- & Uu). destruct (in_split _ _ Ie) as (b & a & Eb). destruct (in_split _ _ Ie') as (b' & a' & Eb').
    destruct (file_ready w fuel main pr B files exports directives system Tidy Neat _ _ _ _ _ _ _ Hu Eb u Uu) as [H | [H | (z & Iz & Dz & Oz)]].
    { right. now apply library_idle. } { right. now apply system_idle. }
    destruct (file_ready w fuel main pr B files exports directives system Tidy Neat _ _ _ _ _ _ _ Hu' Eb' u Uu) as [H | [H | (z' & Iz' & Dz' & Oz')]].
    { right. now apply library_idle. } { right. now apply system_idle. }
    assert (Jz : In z (cm_elements cm)) by (rewrite Eb, in_app_iff; now left). assert (Jz' : In z' (cm_elements cm')) by (rewrite Eb', in_app_iff; now left).
    left. exists z. repeat split; auto; [| now apply declared_introduced].
    rewrite <- (offered_alike _ _ _ _ _ _ _ _ z z' _ Hu Hu' Jz Jz' (Oz O) (Oz' O) (declared_introduced _ _ Dz) (declared_introduced _ _ Dz')). exact Jz'.
  - assert (Words : forall x, In (IWord x) (content e) -> idle (IWord x)).
    { intros x Ix. destruct (offered_source w fuel main pr B _ _ _ _ _ Hu Ie O) as [(s & H) | (k & hk & mk & y & Sz)].
      - exfalso. apply head_kinds in H as [[-> | ->] | [H | ->]]; try discriminate O; try (now destruct Ix). unfold std_includes in H. apply in_map_iff in H as (n & <- & _). discriminate O.
      - pose proof (inner_words _ _ _ _ _ _ Sz Ix) as J. destruct Sz as (cmk & Hk & Iy & _).
        destruct (clear_inner _ _ Clear _ _ _ _ _ _ Hk Iy J) as [A M]. now apply word_idle. }
    destruct e; try (now destruct I0).
    + apply in_map_iff in I0 as (p & <- & I0). right. now apply Words.
    + destruct (tagged _) eqn:Tg; [| destruct I0]. destruct I0 as [<- | []]. cbn [offered] in O.
      destruct (struct_follows _ _ _ _ _ Hu Ie O Tg) as [Id | (x & Ix & Px & Ex)]; [now right |].
      destruct (struct_follows _ _ _ _ _ Hu' Ie' O Tg) as [Id | (x' & Ix' & Px' & Ex')]; [now right |].
      left. exists (XStruct x). assert (J : forall y, csd_name y = skipn 7 (ctn_name (ctd_type t)) -> In (ITag (skipn 7 (ctn_name (ctd_type t)))) (introduces (XStruct y))) by (intros y <-; now left).
      repeat split; auto. rewrite <- (offered_alike _ _ _ _ _ _ _ _ (XStruct x) (XStruct x') _ Hu Hu' Ix Ix' Px Px' (J _ Ex) (J _ Ex')). exact Ix'.
    + apply in_map_iff in I0 as (p & <- & I0). right. now apply Words.
Qed.
Theorem same_meaning : forall i h m cm j h' m' cm' e it, unit_at pr i h m cm -> unit_at pr j h' m' cm' -> In e (cm_elements cm) -> In e (cm_elements cm') ->
  offered e = true -> In it (introduces e ++ content e) -> alike (cm_elements cm) (cm_elements cm') it.
Proof.
  intros i h m cm j h' m' cm' e it Hu Hu' Ie Ie' O I. exists (shared (cm_elements cm) (cm_elements cm')). split.
  - apply in_app_or in I as [I | I]; [left; eauto 6 | exact (content_shared _ _ _ _ _ _ _ _ _ _ Hu Hu' Ie Ie' O I)].
  - intros y [(z & Iz & Iz' & Oz & Dz) | Id].
    + assert (K : forall f, stands (cm_elements cm) y f <-> f = z).
      { intros f. split; [intros (e' & J & D & <-); exact (introduced_once _ _ _ _ _ _ _ Hu Iz Oz J Dz D) | intros ->; exists z; repeat split; auto; now apply face_offered]. }
      assert (K' : forall f, stands (cm_elements cm') y f <-> f = z).
      { intros f. split; [intros (e' & J & D & <-); exact (introduced_once _ _ _ _ _ _ _ Hu' Iz' Oz J Dz D) | intros ->; exists z; repeat split; auto; now apply face_offered]. }
      split; [intros f; rewrite K, K'; reflexivity |]. intros f c S C. apply K in S. subst f. exact (content_shared _ _ _ _ _ _ _ _ _ _ Hu Hu' Iz Iz' Oz C).
    + split; [|].
      * intros q. split; intros S; [exact (idle_stands _ _ _ _ _ _ _ _ _ _ Id Hu Hu' S) | exact (idle_stands _ _ _ _ _ _ _ _ _ _ Id Hu' Hu S)].
      * intros q c (e2 & J & D & Ef) C. destruct (Id _ _ _ _ _ Hu J D) as (x & ->). rewrite <- Ef in C. destruct C.
Qed.
(** A prototype that other files have too and the definition are of one type. *)
Theorem prototype_meaning : forall i h m cm j h' m' cm', unit_at pr i h m cm -> unit_at pr j h' m' cm' ->
  forall p d it, In (XForwardFunc p) (cm_elements cm) -> cfw_static p = false -> In (XFunc d) (cm_elements cm') ->
  cf_name (cfw_form p) = cf_name (cfd_form d) ->
  face (XFunc d) = XForwardFunc p /\ (In it (content (XForwardFunc p)) -> alike (cm_elements cm) (cm_elements cm') it).
Proof.
  intros i h m cm j h' m' cm' Hu Hu' p d it Ip St Id N.
  assert (O : offered (XForwardFunc p) = true) by (cbn [offered]; now rewrite St).
  destruct (offered_source w fuel main pr B _ _ _ _ _ Hu Ip O) as [(s & H) | (k & hk & mk & x & S)].
  { exfalso. apply head_kinds in H as [[H | H] | [H | H]]; try discriminate. unfold std_includes in H. apply in_map_iff in H as (n & H & _). discriminate. }
  destruct (source_names w fuel main pr B tells _ _ _ _ _ _ S (or_introl eq_refl)) as (cmk & b & y & Hk & Ix & Of & Ey).
  pose proof (offered_pub pr _ _ _ _ _ _ S O (or_introl eq_refl) _ _ Of Ey). subst b.
  destruct (all_from w fuel main pr B _ _ _ _ _ Hu' Id) as [(s & H) | [(k' & h2 & m2 & x' & _ & O' & _) | (x' & S')]]; [| discriminate |].
  { exfalso. apply head_kinds in H as [[H | H] | [H | H]]; try discriminate.
    - unfold std_includes in H. apply in_map_iff in H as (n & H & _). discriminate.
    - injection H as ->. cbn [c_name] in Ey. destruct (global_start w fuel main pr B _ _ _ _ y Hk) as (r & R). rewrite R in Ey. rewrite N in Ey. discriminate. }
  destruct (source_names w fuel main pr B tells _ _ _ _ _ _ S' (or_introl eq_refl)) as (cm2 & b' & y' & Hj & Ix' & Of' & Ey').
  destruct (c_names_differ w fuel main pr B told _ _ _ _ _ _ _ _ _ _ _ _ _ _ Hk Hj Ix Ix' Of Of' (eq_trans (eq_sym Ey) (eq_trans N Ey'))) as (<- & <- & Kk). specialize (Kk eq_refl). subst j.
  destruct (same_unit_at _ _ _ _ _ _ _ _ Hk Hj) as (-> & -> & ->). destruct (same_unit_at _ _ _ _ _ _ _ _ Hj Hu') as (_ & _ & ->).
  pose proof (same_elem _ _ _ (unit_translated w _ _ _ B _ _ _ _ Hj) (tells _ _ _ _ Hj) _ _ _ _ _ Ix Ix' Of Of') as <-.
  destruct S as (? & _ & _ & Yy), S' as (? & _ & _ & Yz). split.
  - destruct x as [mc | e | a | t | s | v | f]; cbn [c_elem] in Yy, Yz.
    + destruct (_ || _); [destruct Yy |]. destruct Yy as [Yy | []]. discriminate.
    + destruct Yy as [Yy | []]. discriminate.
    + destruct Yy as [Yy | []]. discriminate.
    + destruct Yy as [Yy | []]. discriminate.
    + destruct Yy as [Yy | [Yy | [Yy | []]]]; discriminate.
    + destruct (v_value v); [| destruct Yy]. destruct Yy as [Yy | []]. discriminate.
    + destruct Yy as [Yy | Yy]; [discriminate |]. destruct (str_eqb _ _); [destruct Yy |]. destruct Yy as [Yy | []]. destruct Yz as [Yz | [Yz | []]]; [| discriminate].
      rewrite <- Yy, <- Yz. reflexivity.
  - intros I. destruct (unit_gives w _ _ _ _ _ _ _ B Hj) as (s & parts & inj & Hg & Hf & E).
    apply (same_meaning _ _ _ _ _ _ _ _ (XForwardFunc p) _ Hu Hu' Ip); [| exact O | apply in_or_app; now right].
    apply (file_has w fuel main pr B files tells told _ _ _ _ _ _ _ Hj Hg Hf E). rewrite !in_app_iff. right. right.
    exact (in_c_elems (Si k h' m') is_numeric x _ Ix Yy).
Qed.
End Project.
