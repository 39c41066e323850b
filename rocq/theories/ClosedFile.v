(** What the elements of a generated file use is declared before them: the part
    about projects. *)
From Verif Require Import Base BaseFacts Buf Lexer Nodes Types Cspec Resolve Cursor Preparser Parser CAst FormatC Translator Build
  SpecLex LexFacts SpecGrammar TextFacts GapFacts ExportFacts.
From Verif Require Import SpecDecl SpecScope SpecExports SpecModule SpecTarget TargetFacts TargetProps SpecTyping ElabFacts SpecTame SpecClosed SpecTidy SpecNeat ClosedFacts ClosedModule
  SpecBuild BuildFacts ProjectFacts BuildProps PathFacts ClosedProject ClosedOwn.

(** ** Places in lists *)
Lemma split_two : forall A (l1 : list A) y l2 a b, l1 ++ y :: l2 = a ++ b ->
  (exists r, a = l1 ++ y :: r /\ l2 = r ++ b) \/ exists r, l1 = a ++ r /\ b = r ++ y :: l2.
Proof.
  intros A. induction l1 as [| x l1 IH]; intros y l2 [| z a] b H; cbn [app] in *.
  - right. exists []. auto.
  - injection H as -> ->. left. eauto.
  - right. exists (x :: l1). auto.
  - injection H as -> H. destruct (IH _ _ _ _ H) as [(r & -> & ->) | (r & -> & ->)]; [left | right]; eauto.
Qed.
Lemma split_filter : forall A (f : A -> bool) l a y b, filter f l = a ++ y :: b -> exists l1 l2, l = l1 ++ y :: l2 /\ filter f l1 = a.
Proof.
  intros A f. induction l as [| x l IH]; intros a y b H; cbn [filter] in H; [now destruct a |].
  destruct (f x) eqn:E.
  - destruct a as [| z a]; cbn [app] in H; injection H as -> H.
    + exists [], l. auto.
    + destruct (IH _ _ _ H) as (l1 & l2 & -> & <-). exists (z :: l1), l2. cbn [filter app]. rewrite E. auto.
  - destruct (IH _ _ _ H) as (l1 & l2 & -> & <-). exists (x :: l1), l2. cbn [filter app]. rewrite E. auto.
Qed.
Lemma split_flat_map : forall A B (f : A -> list B) l a y b, flat_map f l = a ++ y :: b ->
  exists l1 e l2 c1 c2, l = l1 ++ e :: l2 /\ f e = c1 ++ y :: c2 /\ a = flat_map f l1 ++ c1.
Proof.
  intros A B f. induction l as [| x l IH]; intros a y b H; cbn [flat_map] in H; [now destruct a |].
  symmetry in H. destruct (split_two _ _ _ _ _ _ H) as [(r & E & _) | (r & -> & E)].
  - exists [], x, l, a, r. auto.
  - destruct (IH _ _ _ E) as (l1 & e & l2 & c1 & c2 & -> & F & ->). exists (x :: l1), e, l2, c1, c2. cbn [flat_map]. now rewrite app_assoc.
Qed.
Lemma split_concat : forall A (l : list (list A)) a y b, List.concat l = a ++ y :: b ->
  exists part c1 c2, In part l /\ part = c1 ++ y :: c2 /\ forall x, In x c1 -> In x a.
Proof.
  intros A l a y b H. rewrite <- (map_id l), <- flat_map_concat_map in H.
  destruct (split_flat_map _ _ _ _ _ _ _ H) as (l1 & e & l2 & c1 & c2 & -> & E & ->).
  exists e, c1, c2. split; [apply in_elt |]. split; [exact E |]. intros x I. rewrite in_app_iff. now right.
Qed.
Lemma split_firsts : forall A (k : A -> str) seen l l', firsts k seen l l' -> forall a y b, l' = a ++ y :: b ->
  exists l1 l2, l = l1 ++ y :: l2 /\ forall x, In x l1 -> In (k x) seen \/ In (k x) (map k a).
Proof.
  intros A k seen l l' H. induction H as [seen | seen x l l' Hx H IH | seen x l l' Hx H IH]; intros a y b E.
  - now destruct a.
  - destruct (IH _ _ _ E) as (l1 & l2 & -> & P). exists (x :: l1), l2. split; [reflexivity |]. intros z [<- | Z]; auto.
  - destruct a as [| z a]; cbn [app] in E; injection E as -> E.
    + exists [], l. split; [reflexivity |]. intros ? [].
    + destruct (IH _ _ _ E) as (l1 & l2 & -> & P). exists (z :: l1), l2. split; [reflexivity |]. cbn [map In].
      intros q [<- | Q]; [auto |]. destruct (P q Q) as [[|] |]; auto.
Qed.
Lemma split_groups : forall d n k bef y aft, flat_map (fun g => filter (fun e => Nat.eqb (elem_order e) g) d) (seq k n) = bef ++ y :: aft ->
  exists d1 d2, d = d1 ++ y :: d2 /\ k <= group y /\ (forall x, In x d1 -> group x = group y -> In x bef)
    /\ forall x, In x d -> k <= group x -> group x < group y -> In x bef.
Proof.
  intros d. induction n as [| n IH]; intros k bef y aft H; cbn [seq flat_map] in H; [now destruct bef |].
  symmetry in H. destruct (split_two _ _ _ _ _ _ H) as [(r & E & _) | (r & -> & E)].
  - assert (G : group y = k).
    { assert (I : In y (filter (fun e => Nat.eqb (elem_order e) k) d)) by (rewrite E; apply in_elt).
      apply filter_In in I as [_ I]. apply Nat.eqb_eq in I. now rewrite <- group_order. }
    destruct (split_filter _ _ _ _ _ _ E) as (d1 & d2 & -> & <-). exists d1, d2. split; [reflexivity |]. split; [lia |]. split; [| intros; lia].
    intros x I Gx. apply filter_In. split; [exact I |]. rewrite group_order. apply Nat.eqb_eq. congruence.
  - destruct (IH _ _ _ _ E) as (d1 & d2 & Ed & K & P & Q). exists d1, d2. split; [exact Ed |]. split; [lia |]. split.
    + intros x I Gx. rewrite in_app_iff. auto.
    + intros x I Kx Gx. rewrite in_app_iff. destruct (Nat.eq_dec (group x) k) as [X | X]; [left | right; apply Q; auto; lia].
      apply filter_In. split; [exact I |]. rewrite group_order. now apply Nat.eqb_eq.
Qed.
Lemma split_reorder : forall l bef y aft, reorder_elems l = bef ++ y :: aft ->
  exists d1 d2, dedup_elems [] l = d1 ++ y :: d2 /\ (forall x, In x d1 -> group x = group y -> In x bef)
    /\ forall x, In x (dedup_elems [] l) -> group x < group y -> In x bef.
Proof.
  intros l bef y aft H. unfold reorder_elems in H. destruct (split_groups _ 7 0 _ _ _ H) as (d1 & d2 & E & _ & P & Q).
  exists d1, d2. split; [exact E |]. split; [exact P |]. intros x I G. apply Q; auto. lia.
Qed.
Definition stands_for (y x : celem) : Prop := format_elem y = format_elem x /\ (y = x \/ type_definition y /\ type_definition x).
Lemma split_cons : forall A (x y : A) l p q, x :: l = p ++ y :: q -> p = [] /\ x = y /\ l = q \/ exists p', p = x :: p' /\ l = p' ++ y :: q.
Proof. intros A x y l [| z p] q H; cbn [app] in H; injection H as -> H; [left | right]; eauto. Qed.
Lemma split_dedup : forall l set d1 y d2, dedup_elems set l = d1 ++ y :: d2 ->
  exists l1 l2, l = l1 ++ y :: l2 /\ forall p x q, l1 = p ++ x :: q -> text_in set x \/ exists z, In z d1 /\ In z (p ++ [x]) /\ stands_for z x.
Proof.
  induction l as [| e l IH]; intros set d1 y d2 H; [now destruct d1 |]. cbn [dedup_elems] in H.
  assert (Keep : forall set', e :: dedup_elems set' l = d1 ++ y :: d2 ->
    (forall x, text_in set' x -> text_in set x \/ stands_for e x) ->
    exists l1 l2, e :: l = l1 ++ y :: l2 /\ forall p x q, l1 = p ++ x :: q -> text_in set x \/ exists z, In z d1 /\ In z (p ++ [x]) /\ stands_for z x).
  { intros set' E C. destruct d1 as [| z d1]; cbn [app] in E; injection E as -> E.
    - exists [], l. split; [reflexivity |]. intros p x q X. now destruct p.
    - destruct (IH _ _ _ _ E) as (l1 & l2 & -> & P). exists (z :: l1), l2. split; [reflexivity |]. intros p x q X.
      destruct (split_cons _ _ _ _ _ _ X) as [(-> & <- & _) | (p' & -> & X')].
      + right. exists z. split; [now left |]. split; [now left |]. split; auto.
      + destruct (P _ _ _ X') as [T | (r & Q & R & St)]; [| right; exists r; split; [now right |]; split; [now right | exact St]].
        destruct (C _ T) as [T' | T']; [now left | right]. exists z. split; [now left |]. split; [now left | exact T']. }
  assert (Drop : dedup_elems set l = d1 ++ y :: d2 -> text_in set e ->
    exists l1 l2, e :: l = l1 ++ y :: l2 /\ forall p x q, l1 = p ++ x :: q -> text_in set x \/ exists z, In z d1 /\ In z (p ++ [x]) /\ stands_for z x).
  { intros E T. destruct (IH _ _ _ _ E) as (l1 & l2 & -> & P). exists (e :: l1), l2. split; [reflexivity |]. intros p x q X.
    destruct (split_cons _ _ _ _ _ _ X) as [(-> & <- & _) | (p' & -> & X')]; [now left |].
    destruct (P _ _ _ X') as [? | (r & Q & R & St)]; [now left | right]. exists r. split; [exact Q |]. split; [now right | exact St]. }
  assert (New : forall s, s = format_elem e -> type_definition e -> forall x, text_in (s :: set) x -> text_in set x \/ stands_for e x).
  { intros s E T x [Tx [X | X]]; [right | left; split; auto]. split; [congruence | auto]. }
  destruct e; try (apply (Keep set H); auto; fail).
  - destruct (str_in _ set) eqn:D; [apply Drop; [exact H | split; [exact I | now apply str_in_in]] | apply (Keep _ H), New; [reflexivity | exact I]].
  - destruct (str_in _ set) eqn:D; [apply Drop; [exact H | split; [exact I | now apply str_in_in]] | apply (Keep _ H), New; [reflexivity | exact I]].
Qed.
Lemma dedup_first : forall l set p x q, l = p ++ x :: q -> text_in set x \/ exists z, In z (dedup_elems set l) /\ In z (p ++ [x]) /\ stands_for z x.
Proof.
  induction l as [| e l IH]; intros set p x q X; [now destruct p |]. cbn [dedup_elems].
  assert (Keep : forall set', (forall x, text_in set' x -> text_in set x \/ stands_for e x) ->
    text_in set x \/ exists z, In z (e :: dedup_elems set' l) /\ In z (p ++ [x]) /\ stands_for z x).
  { intros set' C. destruct (split_cons _ _ _ _ _ _ X) as [(-> & <- & _) | (p' & -> & X')].
    - right. exists e. split; [now left |]. split; [now left |]. split; auto.
    - destruct (IH set' _ _ _ X') as [T | (r & Q & R & St)]; [| right; exists r; split; [now right |]; split; [now right | exact St]].
      destruct (C _ T) as [T' | T']; [now left | right]. exists e. split; [now left |]. split; [now left | exact T']. }
  assert (Drop : text_in set e -> text_in set x \/ exists z, In z (dedup_elems set l) /\ In z (p ++ [x]) /\ stands_for z x).
  { intros T. destruct (split_cons _ _ _ _ _ _ X) as [(-> & <- & _) | (p' & -> & X')]; [now left |].
    destruct (IH set _ _ _ X') as [? | (r & Q & R & St)]; [now left | right]. exists r. split; [exact Q |]. split; [now right | exact St]. }
  assert (New : forall s, s = format_elem e -> type_definition e -> forall x, text_in (s :: set) x -> text_in set x \/ stands_for e x).
  { intros s E T z [Tx [Z | Z]]; [right | left; split; auto]. split; [congruence | auto]. }
  destruct e; try (apply (Keep set); auto; fail).
  - destruct (str_in _ set) eqn:D; [apply Drop; split; [exact I | now apply str_in_in] | apply Keep, New; [reflexivity | exact I]].
  - destruct (str_in _ set) eqn:D; [apply Drop; split; [exact I | now apply str_in_in] | apply Keep, New; [reflexivity | exact I]].
Qed.

Section Project.
Context {U : Unicode} (w : world) (fuel : nat) (main : str) (pr : project).
Hypothesis B : parse_project w fuel main = BOk pr.
Hypothesis files : forall i h m cm, unit_at pr i h m cm -> forall c, In c (mi_uniqid h) -> word_char c = true.
Hypothesis exports : forall i h m cm, unit_at pr i h m cm -> distinct_exports (mi_uniqid h) (mod_elements m).
Hypothesis directives : forall i h m cm i' h' m' cm', unit_at pr i h m cm -> unit_at pr i' h' m' cm' -> same_directives (mod_elements m) (mod_elements m').
Notation Si i h m := (site_of m (unit_params pr i h)).
Notation Gi m := (module_decls is_numeric (mod_elements m)).

(** ** Where elements come from *)
Lemma part_of : forall i l parts part, Forall2 (gives pr i) l parts -> In part parts ->
  exists j h m cm, j < i /\ unit_at pr j h m cm /\ part = filter offered (cm_elements cm).
Proof.
  intros i l parts part Hg Hp. assert (Hr : exists r, gives pr i r part).
  { induction Hg; [destruct Hp |]. destruct Hp as [<- | Hp]; [eauto | auto]. }
  destruct Hr as (r & j & h & m & cm & Hlt & Hu & _ & ->). eauto 8.
Qed.
Lemma inj_of : forall i l parts inj z, Forall2 (gives pr i) l parts -> firsts key [] (List.concat parts) inj -> In z inj ->
  offered z = true /\ exists j h m cm, j < i /\ unit_at pr j h m cm /\ In z (cm_elements cm).
Proof.
  intros i l parts inj z Hg Hf I. apply (firsts_in _ _ _ _ _ Hf), in_concat in I. destruct I as (part & Hp & I).
  destruct (part_of _ _ _ _ Hg Hp) as (j & h & m & cm & Lt & Hu & ->). apply filter_In in I as [I O]. split; [exact O |]. eauto 8.
Qed.
Definition head_macro (z : celem) : Prop :=
  z = XMacro (L "define") (L "_XOPEN_SOURCE 700") \/ z = XMacro (L "define") (L "nelem(x) (sizeof (x)/sizeof (x)[0])").
Lemma macro_origin : forall i h m cm n v, unit_at pr i h m cm -> In (XMacro n v) (cm_elements cm) ->
  head_macro (XMacro n v) \/ exists k h m cm mc, unit_at pr k h m cm /\ In (MMacro mc) (mod_elements m) /\ m_name mc = n /\ m_value mc = v.
Proof.
  induction i as [i IH] using lt_wf_ind.
  intros h m cm n v Hu He. destruct (unit_gives w _ _ _ _ _ _ _ B Hu) as (s & parts & inj & Hg & Hf & E).
  rewrite E in He. apply reorder_in in He.
  apply (thinned_in _ _ _ _ _ (dedup_thins _ _)) in He. apply in_app_or in He. destruct He as [He | He].
  - unfold module_head in He. rewrite !in_app_iff in He.
    destruct He as [[<- | []] | [He | [He | [<- | []]]]]; try (left; unfold head_macro; auto; fail).
    + unfold std_includes in He. apply in_map_iff in He. destruct He as (q & He & _). discriminate.
    + destruct (str_in _ _); [| destruct He]. destruct He as [He | []]. discriminate.
  - apply in_app_or in He. destruct He as [He | He].
    + destruct (inj_of _ _ _ _ _ Hg Hf He) as (_ & j & h' & m' & cm' & Lt & Hu' & I). eapply IH; eauto.
    + right. unfold c_elems in He. apply in_flat_map in He. destruct He as (x & Hx & He). cbn [site_of elements] in *.
      destruct x as [mc | | | | | |]; cbn [c_elem] in He.
      * destruct (_ || _); [destruct He |]. destruct He as [He | []]. injection He as <- <-. exists i, h, m, cm, mc. auto.
      * destruct He as [He | []]. discriminate.
      * destruct He as [He | []]. discriminate.
      * destruct He as [He | []]. discriminate.
      * destruct He as [He | [He | [He | []]]]; discriminate.
      * destruct (v_value _); [| destruct He]. destruct He as [He | []]. discriminate.
      * destruct He as [He | He]; [discriminate |]. destruct (str_eqb _ _); [destruct He |]. destruct He as [He | []]. discriminate.
Qed.
Lemma origin_group : forall e k h m x, origin pr e k h m x -> offered e = true -> forall u, In u (declared e) ->
  match u with
  | UType _ => group e = 2
  | UName _ => group e = 3 /\ (exists r, key e = 101%N :: r) \/ group e = 4 /\ (exists r, key e = 109%N :: r)
  end.
Proof.
  intros e k h m x Or O u D. pose proof (offered_keys w fuel main pr B exports _ _ _ _ _ Or O) as Q. destruct Or as (cm & Hu & I & P & X).
  destruct x as [mc | d | a | t | s | v | f]; cbn [c_elem is_pub] in *; try discriminate.
  - destruct X as [<- | []]. cbn [declared] in D. apply in_map_iff in D as (q & <- & _). left. split; [reflexivity |]. eexists. reflexivity.
  - destruct X as [<- | []]. destruct D as [<- | []]. reflexivity.
  - destruct X as [<- | []]. destruct D as [<- | []]. reflexivity.
  - destruct X as [<- | [<- | [<- | []]]]; try (now destruct D). destruct D as [<- | []]. reflexivity.
  - destruct X as [<- | X]; [discriminate |]. destruct (str_eqb _ _); [destruct X |]. destruct X as [<- | []]. destruct D as [<- | []].
    right. split; [reflexivity |]. destruct Q as [(y & [] & _) | [(r' & Ky) | [(d & Qd & _) | (f' & Qf & Pf & Ky & Dy)]]]; [| discriminate |].
    + exfalso. cbn [key cfw_form c_form cf_name] in Ky.
      destruct (proj2 (proj2 (exports _ _ _ _ Hu)) f I P) as [Nm Np].
      pose proof (pub_head m (unit_params pr k h) cm f (po_translated _ _ _ _ (project_built w _ _ _ B) k h m cm Hu) I P Nm Np) as Hn.
      unfold c_function in Hn. cbn [cfd_form cf_name c_form] in Hn. unfold inside in Hn. cbn [site_of elements] in Hn, Ky. rewrite Hn in Ky.
      destruct (global_start w fuel main pr B _ _ _ _ (f_name (fd_form f)) Hu) as (r & R). pose proof (eq_trans (eq_sym R) Ky) as Bad. discriminate.
    + rewrite Ky. destruct (global_start w fuel main pr B _ _ _ _ (f_name (fd_form f')) Hu) as (r & ->). eauto.
Qed.

(** An element offered under the key of another one declares the same. *)
Lemma same_key : forall i h m cm i' h' m' cm' z z' u, unit_at pr i h m cm -> In z (cm_elements cm) -> offered z = true ->
  unit_at pr i' h' m' cm' -> In z' (cm_elements cm') -> offered z' = true -> key z = key z' -> In u (declared z) ->
  head_macro z \/ In u (declared z') /\ group z' = group z.
Proof.
  intros i h m cm i' h' m' cm' z z' u Hu Iz Oz Hu' Iz' Oz' K D.
  destruct (offered_cases w fuel main pr B _ _ _ _ _ Hu Iz Oz) as [(n & c & r & -> & C) | (k & hk & mk & xk & Or)].
  - destruct (macro_origin _ _ _ _ _ _ Hu Iz) as [H | (k & hk & mk & cmk & mc & Hk & Ik & <- & Vk)]; [now left | right].
    pose proof (unit_clean w fuel main pr B _ _ _ _ _ Hk Ik) as Cl. cbn [elem_clean] in Cl. destruct Cl as (r0 & Cl). rewrite Vk in Cl. injection Cl as -> _.
    cbn [key] in K. destruct (offered_cases w fuel main pr B _ _ _ _ _ Hu' Iz' Oz') as [(n' & c' & r' & -> & C') | (k' & hk' & mk' & xk' & Or)].
    + cbn [key] in K. injection K as <- <-. destruct (macro_origin _ _ _ _ _ _ Hu' Iz') as [[H | H] | (k' & hk' & mk' & cmk' & mc' & Hk' & Ik' & <- & Vk')]; try discriminate.
      split; [| reflexivity]. rewrite <- (directives _ _ _ _ _ _ _ _ Hk Hk' mc mc' Ik Ik' ltac:(congruence)). exact D.
    + exfalso. pose proof (offered_keys w fuel main pr B exports _ _ _ _ _ Or Oz') as Q. destruct Or as (cmk' & Huk & Ik' & Pk & Xk).
      destruct Q as [(y & Ty & Dy & Ky) | [(r' & Ky) | [(d & -> & _ & Ky & Dy) | (f & -> & Pf & Ky & Dy)]]]; rewrite Ky in K.
      * destruct (global_start w fuel main pr B _ _ _ _ y Huk) as (r1 & R). rewrite R in K. discriminate.
      * discriminate.
      * discriminate.
      * destruct (global_start w fuel main pr B _ _ _ _ (f_name (fd_form f)) Huk) as (r1 & R). rewrite R in K. discriminate.
  - right. pose proof (origin_group _ _ _ _ _ Or Oz _ D) as Gz. pose proof (offered_keys w fuel main pr B exports _ _ _ _ _ Or Oz) as Q.
    pose proof Or as (cmk & Huk & Ik & Pk & Xk).
    assert (D' : In u (declared z')).
    { destruct Q as [(y & Ty & Dy & Ky) | [(r' & Ky) | [(d & -> & Pe & Ky & Dy) | (f & -> & Pf & Ky & Dy)]]].
      - rewrite Dy in D. destruct D as [<- | []]. apply (type_agrees w fuel main pr B exports _ _ _ _ _ _ Huk Ik Ty _ _ _ _ _ Hu' Iz' Oz'). congruence.
      - exfalso. destruct u; [destruct Gz as [[_ [r G]] | [_ [r G]]]; congruence |].
        destruct z; try discriminate. cbn [declared] in D. destruct D as [D | []]. injection D as D.
        destruct xk as [mc | d | a | t' | s' | v | f]; cbn [c_elem is_pub] in *; try discriminate; repeat (destruct Xk as [Xk | Xk]; try discriminate); try contradiction.
        all: try (destruct (str_eqb _ _); [destruct Xk | destruct Xk as [Xk | []]; discriminate]).
        all: injection Xk as <-; cbn [key ctd_form ctdf_alias] in Ky; rewrite Pk in Ky; unfold exported_as in Ky;
          match type of Ky with ?g = _ => match g with global_name _ ?nm => destruct (global_start w fuel main pr B _ _ _ _ nm Huk) as (r1 & R) end end;
          change (own_id _) with (mi_uniqid hk) in Ky; rewrite R in Ky; discriminate.
      - rewrite Dy in D. apply in_map_iff in D as (x & <- & X). apply (enum_agrees w fuel main pr B files exports _ _ _ _ _ _ Huk Ik Pe X _ _ _ _ _ Hu' Iz' Oz'). congruence.
      - rewrite Dy in D. destruct D as [<- | []]. apply (fn_agrees w fuel main pr B exports _ _ _ _ _ Huk Ik Pf _ _ _ _ _ Hu' Iz' Oz'). congruence. }
    split; [exact D' |].
    destruct (offered_cases w fuel main pr B _ _ _ _ _ Hu' Iz' Oz') as [Dr | (k' & hk' & mk' & xk' & Or')].
    + exfalso. assert (S : exists c r, key z = c :: r /\ In c [101; 109]%N).
      { destruct u; [destruct Gz as [[_ [r G]] | [_ [r G]]]; rewrite G; do 2 eexists; (split; [reflexivity | cbn; auto]) |].
        destruct Q as [(y & Ty & Dy & Ky) | [(r' & Ky) | [(d & -> & Pe & Ky & Dy) | (f & -> & Pf & Ky & Dy)]]].
        - destruct (global_start w fuel main pr B _ _ _ _ y Huk) as (r1 & R). rewrite Ky, R. do 2 eexists. split; [reflexivity | cbn; auto].
        - destruct Dr as (n & c & r & -> & _). cbn [declared] in D'. destruct (str_eqb _ _); [| destruct D']. apply in_map_iff in D' as (q & Q & _). discriminate.
        - rewrite Dy in D. apply in_map_iff in D as (q & Q & _). discriminate.
        - rewrite Dy in D. destruct D as [D | []]. discriminate. }
      destruct S as (c & r & S & Ic). rewrite K in S. apply (directive_key _ _ _ Dr) in S. cbn in S, Ic. destruct Ic as [<- | [<- | []]]; intuition discriminate.
    + pose proof (origin_group _ _ _ _ _ Or' Oz' _ D') as Gz'. destruct u as [x | x]; [| congruence].
      destruct Gz as [[G1 [r1 K1]] | [G1 [r1 K1]]], Gz' as [[G2 [r2 K2]] | [G2 [r2 K2]]]; congruence.
Qed.

(** ** A file before it is put in order *)
Section Unit.
Variables (i : nat) (h : modinfo) (m : module_) (cm : cmodule) (s : trst) (parts : list (list celem)) (inj : list celem).
Hypothesis Hu : unit_at pr i h m cm.
Hypothesis Hg : Forall2 (gives pr i) (mi_imports h) parts.
Hypothesis Hf : firsts key [] (List.concat parts) inj.
Hypothesis E : cm_elements cm = reorder_elems (module_head s ++ inj ++ c_elems (Si i h m) is_numeric).
Notation all_elems := (module_head s ++ inj ++ c_elems (Si i h m) is_numeric).
Lemma head_kinds : forall z, In z (module_head s) -> head_macro z \/ In z std_includes \/ z = XFunc helper.
Proof.
  intros z I. unfold module_head in I. rewrite !in_app_iff in I. unfold head_macro. destruct I as [[<- | []] | [I | [I | [<- | []]]]]; auto.
  destruct (str_in _ _); [| destruct I]. destruct I as [<- | []]. auto.
Qed.
(** Where a type definition comes from: another module, which offers it, or
    this one. *)
Definition made_by (t : ctypedef) (hk : modinfo) (mk : module_) : Prop := exists e x, In e (mod_elements mk)
  /\ type_of_elem e (ctd_pub t) x /\ ctdf_alias (ctd_form t) = (if ctd_pub t then global_name (mi_uniqid hk) x else x).
Lemma typedef_origin : forall t, In (XTypedef t) all_elems -> typedef_name (format_typedef t) = ctdf_alias (ctd_form t)
  /\ (ctd_pub t = true \/ made_by t h m).
Proof.
  intros t I. apply in_app_or in I as [I | I]; [| apply in_app_or in I as [I | I]].
  - exfalso. apply head_kinds in I as [[I | I] | [I | I]]; try discriminate. unfold std_includes in I. apply in_map_iff in I as (n & I & _). discriminate.
  - destruct (inj_of _ _ _ _ _ Hg Hf I) as (O & j & h' & m' & cm' & _ & Hu' & I'). split; [| now left].
    destruct (offered_cases w fuel main pr B _ _ _ _ _ Hu' I' O) as [(n & c & r' & D & _) | (k & hk & mk & xk & cmk & Huk & Ik & Pk & Xk)]; [discriminate |].
    now destruct (typedef_fine w fuel main pr B files _ _ _ _ _ _ Huk Ik Xk).
  - unfold c_elems in I. apply in_flat_map in I as (e & Ie & I). cbn [site_of elements] in *.
    destruct (typedef_fine w fuel main pr B files _ _ _ _ _ _ Hu Ie I) as (N & x & T & A). split; [exact N |]. right. exists e, x. auto.
Qed.
(** What stands for an element, at or before its place, declares the same and is
    offered if it is. *)
Lemma stands_declared : forall p y z q u, all_elems = p ++ z :: q -> In y (p ++ [z]) -> stands_for y z -> In u (declared z) ->
  In u (declared y) /\ group y = group z /\ (offered z = true -> offered y = true).
Proof.
  intros p y z q u Ez Iy [F [-> | [Ty Tz]]] D; [auto |]. destruct z as [| | | | | t | | |]; try (now destruct Tz).
  assert (Iz : In (XTypedef t) all_elems) by (rewrite Ez; apply in_elt). destruct (typedef_origin _ Iz) as [N M].
  assert (Iy' : In y all_elems) by (rewrite Ez, in_app_iff; apply in_app_or in Iy as [Iy | [<- | []]]; [now left | right; now left]).
  destruct y as [| | | | | t' | | |]; try (now destruct Ty). destruct (typedef_origin _ Iy') as [N' M'].
  cbn [format_elem] in F. apply (f_equal typedef_name) in F. rewrite N, N' in F. cbn [declared offered] in *. rewrite F.
  split; [exact D |]. split; [reflexivity |]. intros P. destruct (ctd_pub t') eqn:P'; [reflexivity |]. exfalso.
  (* then both come from this module *)
  destruct M' as [? | (e' & x' & Ie' & T' & A')]; [discriminate |]. rewrite P' in T', A'.
  assert (Late : exists r, p = module_head s ++ inj ++ r /\ c_elems (Si i h m) is_numeric = r ++ XTypedef t :: q).
  { symmetry in Ez. rewrite app_assoc in Ez. destruct (split_two _ _ _ _ _ _ Ez) as [(r & E1 & _) | (r & -> & E1)].
    - exfalso. assert (I : In (XTypedef t') (module_head s ++ inj)).
      { rewrite E1, in_app_iff. apply in_app_or in Iy as [Iy | [Iy | []]]; [now left | right; rewrite Iy; now left]. }
      apply in_app_or in I as [I | I].
      + apply head_kinds in I as [[I | I] | [I | I]]; try discriminate. unfold std_includes in I. apply in_map_iff in I as (n & I & _). discriminate.
      + apply (inj_of _ _ _ _ _ Hg Hf) in I as [I _]. cbn [offered] in I. congruence.
    - exists r. rewrite app_assoc. auto. }
  destruct Late as (r & _ & El). assert (I : In (XTypedef t) (c_elems (Si i h m) is_numeric)) by (rewrite El; apply in_elt).
  unfold c_elems in I. apply in_flat_map in I as (e & Ie & I). cbn [site_of elements] in *.
  destruct (typedef_fine w fuel main pr B files _ _ _ _ _ _ Hu Ie I) as (_ & x & T & A). rewrite P in T, A.
  apply (proj1 (proj2 (exports _ _ _ _ Hu)) e e' x Ie Ie' T). rewrite <- A, <- F, A'. exact T'.
Qed.
(** An element of the file, and what stands before it. *)
Lemma placed : forall bef y aft, cm_elements cm = bef ++ y :: aft ->
  exists l1 l2, all_elems = l1 ++ y :: l2
    /\ forall z u, In z l1 /\ group z <= group y \/ In z all_elems /\ group z < group y -> In u (declared z) ->
       exists z', In z' bef /\ In u (declared z') /\ (offered z = true -> offered z' = true).
Proof.
  intros bef y aft H. rewrite E in H. destruct (split_reorder _ _ _ _ H) as (d1 & d2 & Ed & P1 & P2).
  destruct (split_dedup _ _ _ _ _ Ed) as (l1 & l2 & El & P3). exists l1, l2. split; [exact El |].
  intros z u [[Iz Gz] | [Iz Gz]] D; apply in_split in Iz as (p & q & Ez).
  - destruct (P3 _ _ _ Ez) as [[_ []] | (z' & Iz' & Ip & St)].
    assert (Id : In z' (dedup_elems [] all_elems)) by (rewrite Ed, in_app_iff; now left).
    destruct (stands_declared p z' z (q ++ y :: l2) u) as (D' & G' & O'); auto.
    { rewrite El, Ez, <- app_assoc. reflexivity. }
    exists z'. split; [| auto]. destruct (Nat.eq_dec (group z') (group y)); [auto | apply P2; [exact Id | lia]].
  - destruct (dedup_first _ [] _ _ _ Ez) as [[_ []] | (z' & Iz' & Ip & St)].
    destruct (stands_declared p z' z q u) as (D' & G' & O'); auto. exists z'. split; [| auto]. apply P2; [exact Iz' | lia].
Qed.
End Unit.

(** ** The theorem *)
Variable system : cuse -> Prop.
Hypothesis Tidy : forall i h m cm, unit_at pr i h m cm -> tidy (Si i h m) system.
Hypothesis Neat : forall i h m cm, unit_at pr i h m cm -> neat (Si i h m) system.
Definition ready (bef : list celem) (y : celem) (u : cuse) : Prop :=
  library u \/ system u \/ exists z, In z bef /\ In u (declared z) /\ (offered y = true -> offered z = true).

(** What a module gets from the modules it imports. *)
Lemma inj_has : forall i h m cm parts inj q h' m' j cm' y u g, unit_at pr i h m cm ->
  Forall2 (gives pr i) (mi_imports h) parts -> firsts key [] (List.concat parts) inj ->
  import (Si i h m) q = Some (h', m') -> unit_at pr j h' m' cm' ->
  In y (cm_elements cm') -> offered y = true -> In u (declared y) -> group y = g -> ~ head_macro y -> injected inj g u.
Proof.
  intros i h m cm parts inj q h' m' j cm' y u g Hu Hg Hf Hi Hj Iy Oy Dy Gy Nh.
  unfold site_of, imported, unit_params in Hi. cbn [import tp_mod tp_heads tp_mods] in Hi.
  destruct (find _ (mi_imports h)) as [r |] eqn:Ef; [| discriminate]. apply find_some in Ef. destruct Ef as [Hr _].
  apply find_some in Hi as [_ Ep]. cbn [fst] in Ep. apply str_eqb_eq in Ep.
  assert (P : exists part, In part parts /\ gives pr i r part).
  { clear - Hg Hr. induction Hg as [| a b l l' G F IH]; [destruct Hr |]. destruct Hr as [<- | Hr]; [exists b; split; [now left | exact G] |].
    destruct (IH Hr) as (part & I & G'). exists part. split; [now right | exact G']. }
  destruct P as (part & Hp & j2 & h2 & m2 & cm2 & _ & Hj2 & Ep2 & ->).
  destruct (same_unit w fuel main pr B _ _ _ _ _ _ _ _ Hj Hj2 ltac:(congruence)) as [-> ->].
  assert (Yc : In y (List.concat parts)) by (apply in_concat; eexists; split; [exact Hp | apply filter_In; auto]).
  destruct (proj2 (proj2 (firsts_keys _ _ _ _ _ Hf)) y Yc) as [[] | Kz]. apply in_map_iff in Kz as (z & Kz & Iz).
  destruct (inj_of _ _ _ _ _ Hg Hf Iz) as (Oz & j3 & h3 & m3 & cm3 & _ & Hu3 & Iz3).
  destruct (same_key _ _ _ _ _ _ _ _ y z u Hj Iy Oy Hu3 Iz3 Oz (eq_sym Kz) Dy) as [H | [D G]]; [contradiction |].
  exists z. repeat split; auto. lia.
Qed.

Theorem file_ready : forall i h m cm bef y aft, unit_at pr i h m cm -> cm_elements cm = bef ++ y :: aft ->
  forall u, In u (elem_uses y) -> ready bef y u.
Proof.
  induction i as [i IH] using lt_wf_ind. intros h m cm bef y aft Hu Hd u Uu.
  pose proof (po_translated _ _ _ _ (project_built w _ _ _ B) i h m cm Hu) as Ht.
  destruct (Nat.eq_dec (group y) 6) as [Six | Six].
  { destruct y; try discriminate. destruct (project_closed w fuel main pr B files exports _ _ _ _ system _ _ _ Hu (Tidy _ _ _ _ Hu) Hd u Uu) as [(z & Iz & Dz) | [H | H]].
    - right. right. exists z. split; [exact Iz |]. split; [exact Dz | discriminate].
    - left. now left.
    - right. now left. }
  assert (Pos : 0 < group y) by (destruct y; cbn in *; try contradiction; lia).
  destruct (unit_gives w _ _ _ _ _ _ _ B Hu) as (s & parts & inj & Hg & Hf & E).
  destruct (placed _ _ _ _ _ _ _ Hu Hg Hf E _ _ _ Hd) as (l1 & l2 & El & Pl).
  assert (Heads : forall z, head_macro z -> In z (module_head s)).
  { intros z [-> | ->]; unfold module_head; rewrite !in_app_iff; [left; now left | right; right; right; now left]. }
  assert (Macros : forall z, head_macro z -> In u (declared z) -> ready bef y u).
  { intros z Hz D. right. right. destruct (Pl z u) as (z' & I' & D' & O'); auto.
    - right. split; [apply in_app_iff; auto | destruct Hz as [-> | ->]; cbn; lia].
    - exists z'. split; [exact I' |]. split; [exact D' |]. intros _. apply O'. destruct Hz as [-> | ->]; reflexivity. }
  assert (Found : forall z, In z l1 /\ group z <= group y \/ In z (module_head s ++ inj ++ c_elems (Si i h m) is_numeric) /\ group z < group y ->
    In u (declared z) -> (offered y = true -> offered z = true) -> ready bef y u).
  { intros z Hz D O. right. right. destruct (Pl z u Hz D) as (z' & I' & D' & O'). exists z'. auto. }
  symmetry in El. destruct (split_two _ _ _ _ _ _ El) as [(r & Eh & _) | (r & -> & El')].
  { exfalso. assert (I : In y (module_head s)) by (rewrite Eh; apply in_elt).
    apply head_kinds in I as [[-> | ->] | [I | ->]]; [destruct Uu | destruct Uu | | now apply Six].
    unfold std_includes in I. apply in_map_iff in I as (n & <- & _). destruct Uu. }
  symmetry in El'. destruct (split_two _ _ _ _ _ _ El') as [(r' & Ei & _) | (o1 & -> & Eo)].
  - (* from an imported module *)
    destruct (split_firsts _ _ _ _ _ Hf _ _ _ Ei) as (c1 & c2 & Ec & Pc).
    destruct (split_concat _ _ _ _ _ Ec) as (part & a1 & a2 & Hp & Epart & Sub).
    destruct (part_of _ _ _ _ Hg Hp) as (j & h' & m' & cm' & Lt & Hj & Ef). rewrite Epart in Ef. symmetry in Ef.
    assert (Oy : offered y = true).
    { assert (I : In y (filter offered (cm_elements cm'))) by (rewrite Ef; apply in_elt). now apply filter_In in I. }
    destruct (split_filter _ _ _ _ _ _ Ef) as (b1 & b2 & Eb & Fb).
    destruct (IH j Lt _ _ _ _ _ _ Hj Eb u Uu) as [H | [H | (z & Iz & Dz & Oz)]]; [now left | right; now left |].
    assert (Iz' : In z (cm_elements cm')) by (rewrite Eb, in_app_iff; now left).
    assert (Gz : group z <= group y).
    { apply in_split in Iz as (q1 & q2 & ->). apply (proj1 (module_layout m' (unit_params pr j h') cm' (po_translated _ _ _ _ (project_built w _ _ _ B) j h' m' cm' Hj))).
      exists q1, q2, b2. rewrite Eb, <- app_assoc. reflexivity. }
    assert (Iz1 : In z a1) by (rewrite <- Fb; apply filter_In; auto).
    destruct (Pc z (Sub z Iz1)) as [[] | K]. apply in_map_iff in K as (z' & K & Ir).
    assert (Ij : In z' inj) by (rewrite Ei, in_app_iff; now left).
    destruct (inj_of _ _ _ _ _ Hg Hf Ij) as (Oz' & j3 & h3 & m3 & cm3 & _ & Hu3 & Iz3).
    destruct (same_key _ _ _ _ _ _ _ _ z z' u Hj Iz' (Oz Oy) Hu3 Iz3 Oz' (eq_sym K) Dz) as [Hm | [D G]]; [now apply (Macros z) |].
    apply (Found z'); auto. left. split; [| lia]. rewrite in_app_iff. now right.
  - (* from the module itself *)
    unfold c_elems in Eo. destruct (split_flat_map _ _ _ _ _ _ _ Eo) as (a & e & b & c1 & c2 & Ea & Ee & ->). cbn [site_of elements] in *.
    assert (Sp : supplied m (unit_params pr i h) system inj a y u).
    { assert (Td := Tidy _ _ _ _ Hu). apply (elem_supplied m (unit_params pr i h) cm Ht system) with (e := e) (b := b); auto.
      - intros f I. exact (proj2 (proj2 (proj2 (proj2 (proj2 Td f I))))).
      - intros q h' m' x Hi Hx. destruct (import_unit w _ _ _ _ _ _ _ _ _ _ B Hu Hi) as (j & cm' & _ & Hj).
        destruct (po_parsed _ _ _ _ (project_built w _ _ _ B) _ _ _ _ Hj) as (text & _ & Pm). rewrite (parse_module_exports _ _ _ _ Pm), get_exports_spec in Hx.
        now apply in_constants in Hx.
      - intros q h' m' x _ _ Hi (d & en & Ie & Pe & Ien & <-). destruct (import_unit w _ _ _ _ _ _ _ _ _ _ B Hu Hi) as (j & cm' & _ & Hj).
        pose proof (po_translated _ _ _ _ (project_built w _ _ _ B) j h' m' cm' Hj) as Htj.
        assert (Iy : In (XEnum (mkCed (negb (enum_pub d)) (map (fun e => (exported_as (Si j h' m') (enum_pub d) (en_name e), option_map (c_expr (Si j h' m') (Gi m')) (en_val e))) (enum_entries d)))) (cm_elements cm')).
        { apply (own_in m' (unit_params pr j h') cm' _ Htj); [eapply in_c_elems; [exact Ie | left; reflexivity] | exact (fun x => x)]. }
        eapply (inj_has _ _ _ _ _ _ _ _ _ _ _ _ _ _ Hu Hg Hf Hi Hj Iy); [cbn; now rewrite Pe | | reflexivity | intros [X | X]; discriminate].
        cbn [declared ced_entries]. rewrite map_map. cbn [fst]. apply in_map_iff. exists en. split; [| exact Ien]. rewrite Pe. reflexivity.
      - intros q h' m' f _ _ Hi Hx. destruct (import_unit w _ _ _ _ _ _ _ _ _ _ B Hu Hi) as (j & cm' & _ & Hj).
        destruct (po_parsed _ _ _ _ (project_built w _ _ _ B) _ _ _ _ Hj) as (text & _ & Pm). rewrite (parse_module_exports _ _ _ _ Pm), get_exports_spec in Hx.
        cbn [ex_fns] in Hx. unfold functions_in_order in Hx. apply in_flat_map in Hx as (e' & Ie & X). destruct e' as [| | | | | | f']; try (now destruct X).
        destruct (fd_pub f') eqn:P; [| destruct X]. destruct X as [-> | []].
        pose proof (po_translated _ _ _ _ (project_built w _ _ _ B) j h' m' cm' Hj) as Htj.
        destruct (proj2 (proj2 (exports _ _ _ _ Hj)) f Ie P) as [Nm Np].
        assert (Iy : In (XForwardFunc (prototype_of (c_function (Si j h' m') is_numeric f))) (cm_elements cm')).
        { apply (module_prototypes m' (unit_params pr j h') cm' f Htj); [| exact Nm]. unfold source_functions. apply in_flat_map. exists (MFunc f). split; [exact Ie | now left]. }
        eapply (inj_has _ _ _ _ _ _ _ _ _ _ _ _ _ _ Hu Hg Hf Hi Hj Iy); [cbn; now rewrite P | | reflexivity | intros [X | X]; discriminate].
        left. f_equal. exact (pub_head m' (unit_params pr j h') cm' f Htj Ie P Nm Np).
      - intros q h' m' x _ _ Hi Hx. destruct (import_unit w _ _ _ _ _ _ _ _ _ _ B Hu Hi) as (j & cm' & _ & Hj).
        assert (X : exists e, In e (mod_elements m') /\ type_of_elem e true x).
        { destruct Hx as [(t & I & P & <-) | (t & I & P & <-)]; eexists; (split; [exact I |]); cbn; auto. }
        destruct X as (e' & Ie & Te). destruct (type_offered w fuel main pr B files exports _ _ _ _ _ _ Hj Ie Te) as (y' & Iy & Oy & Ky).
        pose proof (type_agrees w fuel main pr B exports _ _ _ _ _ _ Hj Ie Te _ _ _ _ _ Hj Iy Oy Ky) as Dy.
        eapply (inj_has _ _ _ _ _ _ _ _ _ _ _ _ _ _ Hu Hg Hf Hi Hj Iy Oy Dy).
        + destruct y'; try discriminate Oy; cbn [declared] in Dy; try (now destruct Dy); try reflexivity; exfalso.
          * destruct (str_eqb _ _); [| destruct Dy]. apply in_map_iff in Dy as (? & X & _). discriminate.
          * apply in_map_iff in Dy as (? & X & _). discriminate.
        + intros [-> | ->]; cbn in Dy; intuition discriminate.
      - exact (Neat _ _ _ _ Hu a e b Ea).
      - intros f ->. apply (proj2 Td). cbn [site_of elements]. rewrite Ea. apply in_elt.
      - rewrite Ee. apply in_elt.
      - pose proof (group_le y). lia. }
    assert (Own : forall z, In z (flat_map (c_elem (Si i h m) (Gi m)) a) -> In z (c_elems (Si i h m) is_numeric)).
    { intros z Z. apply in_flat_map in Z as (e' & Ie & Z). eapply in_c_elems; [| exact Z]. cbn [site_of elements]. rewrite Ea, in_app_iff. now left. }
    destruct Sp as [[H | ->] | [H | [(z & Iz & Oz & Dz & Gz) | (z & [[Iz Gz] | [Iz Gz]] & Dz & Oz)]]].
    + now left.
    + apply (Macros (XMacro (L "define") (L "nelem(x) (sizeof (x)/sizeof (x)[0])"))); [now right | vm_compute; auto].
    + right. now left.
    + apply (Found z); auto. left. split; [| exact Gz]. rewrite !in_app_iff. auto.
    + apply (Found z); auto. left. split; [| exact Gz]. rewrite !in_app_iff. auto.
    + apply (Found z); auto. right. split; [| exact Gz]. rewrite !in_app_iff. auto.
Qed.
Theorem file_closed : forall i h m cm bef y aft, unit_at pr i h m cm -> cm_elements cm = bef ++ y :: aft ->
  forall u, In u (elem_uses y) -> declared_in bef u \/ basic u \/ system u.
Proof.
  intros i h m cm bef y aft Hu Hd u Uu. destruct (file_ready _ _ _ _ _ _ _ Hu Hd u Uu) as [[H | H] | [H | (z & Iz & Dz & _)]]; [auto | | auto |].
  - left. apply in_flat_map in H as (z & Iz & Dz). exists z. split; [| exact Dz].
    assert (Pos : 0 < group y) by (destruct y; cbn in *; try contradiction; lia).
    destruct (unit_gives w _ _ _ _ _ _ _ B Hu) as (s & parts & inj & Hg & Hf & E). pose proof Hd as H. rewrite E in H.
    destruct (split_reorder _ _ _ _ H) as (d1 & d2 & Ed & _ & P2). assert (K : exists x, z = XInclude x).
    { unfold std_includes in Iz. apply in_map_iff in Iz as (x & <- & _). eauto. }
    destruct K as (x & ->). apply P2; [| exact Pos]. eapply thinned_kept; [apply dedup_thins | | exact (fun K => K)].
    unfold module_head. rewrite !in_app_iff. auto.
  - left. exists z. auto.
Qed.
End Project.
