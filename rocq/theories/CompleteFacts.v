(** Types are complete where the text of a generated file needs their size: C70. *)
From Verif Require Import Base BaseFacts Buf Lexer Nodes Types Cspec Resolve Cursor Preparser Parser CAst FormatC Translator Build
  SpecLex LexFacts SpecGrammar TextFacts GapFacts ExportFacts.
From Verif Require Import SpecDecl SpecScope SpecExports SpecModule SpecTarget TargetFacts TargetProps SpecTyping ElabFacts SpecTame SpecCStmt CStmtFacts SpecClosed SpecTidy SpecNeat SpecLink ClosedFacts ClosedModule
  SpecBuild BuildFacts ProjectFacts BuildProps PathFacts ScopeFacts ClosedProject ClosedOwn ClosedFile LinkFacts SpecComplete SizeFacts.

(** ** Texts of type definitions *)
Definition differ (y z : celem) : Prop := type_definition y -> type_definition z -> format_elem y <> format_elem z.
Lemma dedup_all : forall l set, ForallOrdPairs differ l -> (forall x, In x l -> type_definition x -> ~ In (format_elem x) set) -> dedup_elems set l = l.
Proof.
  induction l as [| e l IH]; intros set H N; [reflexivity |]. inversion H as [| ? ? H1 H2]; subst. rewrite Forall_forall in H1.
  assert (N1 := N e (or_introl eq_refl)). assert (N2 : forall x, In x l -> type_definition x -> ~ In (format_elem x) set) by (intros x X; apply N; now right).
  cbn [dedup_elems]. destruct e; try (f_equal; auto; fail);
    (destruct (str_in _ set) eqn:D; [exfalso; apply (N1 I), str_in_in, D | f_equal; apply IH; [exact H2 |]; intros x X T [K | K]; [exact (H1 x X I T K) | exact (N2 x X T K)]]).
Qed.
Definition struct_name (text : str) : str := upto (N.eqb 32) (skipn 7 text).
Lemma struct_named_so : forall {U : Unicode} x, clean (csd_name x) -> struct_name (format_struct_def x) = csd_name x.
Proof.
  intros U x C. unfold struct_name, format_struct_def. cbv zeta.
  match goal with |- upto _ (skipn 7 (L "struct " ++ ?r)) = _ => change (skipn 7 (L "struct " ++ r)) with r end.
  apply upto_app; [| right; do 2 eexists; split; reflexivity]. intros c I. destruct (N.eqb_spec 32 c) as [<- |]; [| reflexivity].
  exfalso. exact (clean_not _ _ C I (or_introl eq_refl)).
Qed.

(** ** Completeness grows with the definitions *)
Lemma complete_more : forall whole l l' x, (forall z, In z l -> type_definition z -> In z l') -> complete whole l x -> complete whole l' x.
Proof.
  intros whole l l' x Sub H. induction H as [x H | x H | s H | t H P _ IH].
  - now apply Co_basic.
  - now apply Co_system.
  - apply Co_struct. now apply Sub.
  - apply Co_typedef; [now apply Sub | exact P | exact IH].
Qed.

Section Project.
Context {U : Unicode} (w : world) (fuel : nat) (main : str) (pr : project).
Hypothesis B : parse_project w fuel main = BOk pr.
Hypothesis files : forall i h m cm, unit_at pr i h m cm -> forall c, In c (mi_uniqid h) -> word_char c = true.
Hypothesis exports : forall i h m cm, unit_at pr i h m cm -> distinct_exports (mi_uniqid h) (mod_elements m).
Hypothesis tells : forall i h m cm, unit_at pr i h m cm -> telling (mod_elements m).
Hypothesis told : forall i h m cm i' h' m' cm', unit_at pr i h m cm -> unit_at pr i' h' m' cm' -> told_apart (mi_uniqid h') (mod_elements m) (mod_elements m').
Notation Si i h m := (site_of m (unit_params pr i h)).
Notation Gi m := (module_decls is_numeric (mod_elements m)).

(** ** Files are not thinned *)
Lemma source_tag_clean : forall x k h m e, source_of pr (XStruct x) k h m e -> clean (csd_name x).
Proof.
  intros x k h m e (cm & Hu & Ie & I). destruct (elem_tags m (unit_params pr k h) _ _ _ I (or_introl eq_refl)) as (s & -> & ->).
  pose proof (unit_clean w fuel main pr B _ _ _ _ _ Hu Ie) as C. cbn [elem_clean unit_params tp_mod] in *. unfold struct_tag.
  apply (clean_app (L "__")); [intros c [<- | [<- | []]]; now left |].
  apply clean_app; [| intros c I'; vm_compute in I'; repeat (destruct I' as [<- | I']; [left; reflexivity |]); destruct I'].
  unfold c_name. destruct (st_pub s); [| exact C]. exact (global_clean pr files _ _ _ _ _ Hu C).
Qed.
Section Unit.
Variables (i : nat) (h : modinfo) (m : module_) (cm : cmodule) (s : trst) (parts : list (list celem)) (inj : list celem).
Hypothesis Hu : unit_at pr i h m cm.
Hypothesis Hg : Forall2 (gives pr i) (mi_imports h) parts.
Hypothesis Hf : firsts key [] (List.concat parts) inj.
Hypothesis E : cm_elements cm = reorder_elems (module_head s ++ inj ++ c_elems (Si i h m) is_numeric).
Notation all_elems := (module_head s ++ inj ++ c_elems (Si i h m) is_numeric).
Lemma head_no_types : forall z, In z (module_head s) -> ~ type_definition z.
Proof.
  intros z I T. apply head_kinds in I as [[-> | ->] | [I | ->]]; try (now destruct T).
  unfold std_includes in I. apply in_map_iff in I as (n & <- & _). destruct T.
Qed.
Lemma tag_clean : forall x, In (XStruct x) all_elems -> clean (csd_name x).
Proof.
  intros x I. apply in_app_or in I as [I | I]; [destruct (head_no_types _ I Logic.I) |]. apply in_app_or in I as [I | I].
  - destruct (inj_of _ _ _ _ _ _ Hg Hf I) as (O & j & h' & m' & cm' & _ & Hu' & I').
    destruct (all_from w fuel main pr B _ _ _ _ _ Hu' I') as [(s' & H) | [(k & h2 & m2 & x' & _ & _ & H) | (x' & H)]].
    + exfalso. apply head_kinds in H as [[H | H] | [H | H]]; try discriminate. unfold std_includes in H. apply in_map_iff in H as (n & H & _). discriminate.
    + exact (source_tag_clean _ _ _ _ _ H).
    + exact (source_tag_clean _ _ _ _ _ H).
  - unfold c_elems in I. apply in_flat_map in I as (e & Ie & I). apply (source_tag_clean x i h m e). exists cm. auto.
Qed.
Lemma texts_differ : ForallOrdPairs differ all_elems.
Proof.
  pose proof (elems_compatible w fuel main pr B tells told _ _ _ _ s _ _ Hu Hg Hf) as C. cbv beta in C.
  apply pairs_at. intros a y b z c Ea. rewrite pairs_at in C. specialize (C _ _ _ _ _ Ea).
  assert (Iy : In y all_elems) by (rewrite Ea; apply in_elt). assert (Iz : In z all_elems) by (rewrite Ea, in_app_iff; right; right; apply in_elt).
  intros Ty Tz F. destruct y as [| | | | | t | x | |]; try (now destruct Ty); destruct z as [| | | | | t' | x' | |]; try (now destruct Tz); cbn [format_elem] in F.
  - destruct (typedef_origin w fuel main pr B files _ _ _ _ _ _ _ Hu Hg Hf _ Iy) as [N _]. destruct (typedef_origin w fuel main pr B files _ _ _ _ _ _ _ Hu Hg Hf _ Iz) as [N' _].
    apply (f_equal typedef_name) in F. rewrite N, N' in F. destruct C as [C _].
    destruct (C _ (or_introl eq_refl)) as [(hd & H & _) _]; [left; symmetry; exact F | discriminate H].
  - apply (f_equal struct_name) in F. rewrite !struct_named_so in F by now apply tag_clean. destruct C as [_ C].
    apply (C _ (or_introl eq_refl)). left. symmetry. exact F.
Qed.
Lemma not_thinned : dedup_elems [] all_elems = all_elems.
Proof. apply dedup_all; [exact texts_differ | intros x _ _ []]. Qed.
Lemma file_has : forall z, In z (cm_elements cm) <-> In z all_elems.
Proof. intros z. rewrite E, reorder_in, not_thinned. reflexivity. Qed.
Lemma placed_exact : forall bef y aft, cm_elements cm = bef ++ y :: aft ->
  exists l1 l2, all_elems = l1 ++ y :: l2
    /\ forall z, In z l1 /\ group z <= group y \/ In z all_elems /\ group z < group y -> In z bef.
Proof.
  intros bef y aft H. rewrite E in H. destruct (split_reorder _ _ _ _ H) as (d1 & d2 & Ed & P1 & P2).
  rewrite not_thinned in Ed, P2. exists d1, d2. split; [exact Ed |].
  assert (Sub : forall z, In z d1 -> In z all_elems) by (intros z I; rewrite Ed, in_app_iff; now left).
  intros z [[I G] | [I G]]; [| now apply P2]. destruct (Nat.eq_dec (group z) (group y)); [now apply P1 | apply P2; [now apply Sub | lia]].
Qed.
End Unit.

(** ** Offered type definitions *)
Lemma offered_source : forall i h m cm z, unit_at pr i h m cm -> In z (cm_elements cm) -> offered z = true ->
  (exists s, In z (module_head s)) \/ exists k h' m' x, source_of pr z k h' m' x.
Proof.
  intros i h m cm z Hu I O. destruct (all_from w fuel main pr B _ _ _ _ _ Hu I) as [H | [(k & h2 & m2 & x' & _ & _ & H) | (x' & H)]]; eauto 8.
Qed.
Lemma source_key : forall z k h m x, source_of pr z k h m x -> offered z = true -> ordinary z = [key z] ->
  exists cm y, unit_at pr k h m cm /\ In x (mod_elements m) /\ of_elem x true y /\ key z = global_name (mi_uniqid h) y.
Proof.
  intros z k h m x S O Or. assert (I : In (key z) (ordinary z)) by (rewrite Or; now left).
  destruct (source_names w fuel main pr B tells _ _ _ _ _ _ S I) as (cm & b & y & Hu & Ix & Of & Ky).
  pose proof (offered_pub pr _ _ _ _ _ _ S O I _ _ Of Ky). subst b. exists cm, y. auto.
Qed.
Lemma offered_key : forall i h m cm i' h' m' cm' z z', unit_at pr i h m cm -> In z (cm_elements cm) -> offered z = true ->
  unit_at pr i' h' m' cm' -> In z' (cm_elements cm') -> offered z' = true -> type_definition z -> key z = key z' -> z = z'.
Proof.
  intros i h m cm i' h' m' cm' z z' Hu Iz Oz Hu' Iz' Oz' T K.
  destruct (offered_source _ _ _ _ _ Hu Iz Oz) as [(s & H) | (k & hk & mk & x & Sz)]; [destruct (head_no_types _ _ H T) |].
  assert (Kz : (exists y, key z = global_name (mi_uniqid hk) y) /\ ordinary z = [key z] \/ exists t, z = XStruct t /\ exists y, key z = struct_tag y).
  { destruct z as [| | | | | t | t | |]; try (now destruct T).
    - left. destruct (source_key _ _ _ _ _ Sz Oz eq_refl) as (c & y & _ & _ & _ & Ky). split; [eauto | reflexivity].
    - right. exists t. split; [reflexivity |]. destruct Sz as (c & _ & _ & I). destruct (elem_tags mk (unit_params pr k hk) _ _ _ I (or_introl eq_refl)) as (s & _ & Q). eexists. exact Q. }
  assert (St : exists c1 c2 r, key z = c1 :: c2 :: r /\ ((c1, c2) = (109, 111) \/ (c1, c2) = (95, 95))%N).
  { destruct Kz as [[(y & ->) _] | (t & _ & y & ->)].
    - destruct Sz as (c & Hk & _). destruct (global_start w fuel main pr B _ _ _ _ y Hk) as (r & ->). do 3 eexists. split; [reflexivity | now left].
    - do 3 eexists. split; [reflexivity | now right]. }
  destruct St as (c1 & c2 & r & Ek & St). rewrite K in Ek.
  destruct (offered_source _ _ _ _ _ Hu' Iz' Oz') as [(s & H) | (k' & hk' & mk' & x' & Sz')].
  { exfalso. apply head_kinds in H as [[-> | ->] | [H | ->]]; try discriminate Oz'.
    - cbn [key] in Ek. injection Ek as <- <- _. destruct St; discriminate.
    - cbn [key] in Ek. injection Ek as <- <- _. destruct St; discriminate.
    - unfold std_includes in H. apply in_map_iff in H as (n & <- & _). discriminate Oz'. }
  assert (Kz' : ordinary z' = [key z'] \/ exists t, z' = XStruct t).
  { destruct z' as [n | n v | n | f | e | t | t | v | f]; try discriminate Oz'; try (left; reflexivity); [| | right; eauto]; exfalso.
    - destruct Sz' as (c & Hk' & Ix' & I). destruct x' as [mc | d | a | t | t | v' | f]; cbn [c_elem] in I.
      + destruct (_ || _); [destruct I |]. destruct I as [I | []]. injection I as <- <-.
        destruct (unit_clean w fuel main pr B _ _ _ _ _ Hk' Ix') as (q & Q). cbn [key] in Ek. rewrite Q in Ek. injection Ek as <- _. destruct St; discriminate.
      + destruct I as [I | []]. discriminate.
      + destruct I as [I | []]. discriminate.
      + destruct I as [I | []]. discriminate.
      + destruct I as [I | [I | [I | []]]]; discriminate.
      + destruct (v_value v'); [| destruct I]. destruct I as [I | []]. discriminate.
      + destruct I as [I | I]; [discriminate |]. destruct (str_eqb _ _); [destruct I |]. destruct I as [I | []]. discriminate.
    - cbn [key] in Ek. injection Ek as <- <- _. destruct St; discriminate. }
  destruct Kz as [[(y & Ky) Or] | (t & -> & y & Ky)].
  - destruct Kz' as [Or' | (t' & ->)].
    + destruct (source_key _ _ _ _ _ Sz Oz Or) as (c & n & Hk & Ix & Of & Kn). destruct (source_key _ _ _ _ _ Sz' Oz' Or') as (c' & n' & Hk' & Ix' & Of' & Kn').
      assert (Q : c_name (mi_uniqid hk) true n = c_name (mi_uniqid hk') true n') by (cbn [c_name]; congruence).
      destruct (c_names_differ w fuel main pr B told _ _ _ _ _ _ _ _ _ _ _ _ _ _ Hk Hk' Ix Ix' Of Of' Q) as (_ & <- & Kk). specialize (Kk eq_refl). subst k'.
      destruct (same_unit_at _ _ _ _ _ _ _ _ Hk Hk') as (<- & <- & <-).
      pose proof (same_elem _ _ _ (unit_translated w _ _ _ B _ _ _ _ Hk) (tells _ _ _ _ Hk) _ _ _ _ _ Ix Ix' Of Of') as <-.
      destruct Sz as (d1 & _ & _ & Yy), Sz' as (d2 & _ & _ & Yz).
      apply (offered_one pr k hk mk x z z' (key z) (key z') Yy Yz Oz Oz'); [rewrite Or | rewrite Or']; now left.
    + exfalso. destruct Sz' as (c & _ & _ & I). destruct (elem_tags mk' (unit_params pr k' hk') _ _ _ I (or_introl eq_refl)) as (s & _ & Q).
      destruct Sz as (c' & Hk & _). destruct (global_start w fuel main pr B _ _ _ _ y Hk) as (r' & R).
      rewrite K in Ky. rewrite R in Ky. cbn [key] in Ky. rewrite Q in Ky. discriminate Ky.
  - destruct Kz' as [Or' | (t' & ->)].
    + exfalso. destruct (source_key _ _ _ _ _ Sz' Oz' Or') as (c' & n' & Hk' & _ & _ & Kn').
      destruct (global_start w fuel main pr B _ _ _ _ n' Hk') as (r' & R). rewrite R in Kn'. rewrite <- K, Ky in Kn'. discriminate Kn'.
    + destruct Sz as (c & Hk & Ix & I), Sz' as (c' & Hk' & Ix' & I').
      destruct (offered_tags pr _ _ _ _ _ _ I Oz (or_introl eq_refl)) as (s1 & -> & P1 & E1). destruct (offered_tags pr _ _ _ _ _ _ I' Oz' (or_introl eq_refl)) as (s2 & -> & P2 & E2).
      cbn [key] in K. rewrite E1, E2 in K. apply tag_inj in K.
      assert (Of1 : of_elem (MStruct s1) true (st_name s1)) by (left; cbn; auto). assert (Of2 : of_elem (MStruct s2) true (st_name s2)) by (left; cbn; auto).
      destruct (c_names_differ w fuel main pr B told _ _ _ _ _ _ _ _ _ _ _ _ _ _ Hk Hk' Ix Ix' Of1 Of2 K) as (_ & N & Kk). specialize (Kk eq_refl). subst k'.
      destruct (same_unit_at _ _ _ _ _ _ _ _ Hk Hk') as (<- & <- & <-). rewrite <- N in Of2.
      pose proof (same_elem _ _ _ (unit_translated w _ _ _ B _ _ _ _ Hk) (tells _ _ _ _ Hk) _ _ _ _ _ Ix Ix' Of1 Of2) as Q. injection Q as <-.
      cbn [c_elem In] in I, I'. destruct I as [I | [I | [I | []]]]; try discriminate I. destruct I' as [I' | [I' | [I' | []]]]; try discriminate I'. congruence.
Qed.
(** What an imported file offers arrives as it is. *)
Lemma arrives_exact : forall i h m cm parts inj q h' m' j cm' z, unit_at pr i h m cm ->
  Forall2 (gives pr i) (mi_imports h) parts -> firsts key [] (List.concat parts) inj ->
  import (Si i h m) q = Some (h', m') -> unit_at pr j h' m' cm' ->
  In z (cm_elements cm') -> offered z = true -> type_definition z -> In z inj.
Proof.
  intros i h m cm parts inj q h' m' j cm' y Hu Hg Hf Hi Hj Iy Oy Ty.
  unfold site_of, imported, unit_params in Hi. cbn [import tp_mod tp_heads tp_mods] in Hi.
  destruct (find _ (mi_imports h)) as [r |] eqn:Ef; [| discriminate]. apply find_some in Ef. destruct Ef as [Hr _].
  apply find_some in Hi as [_ Ep]. cbn [fst] in Ep. apply str_eqb_eq in Ep.
  assert (P : exists part, In part parts /\ gives pr i r part).
  { clear - Hg Hr. induction Hg as [| a b l l' G F IH]; [destruct Hr |]. destruct Hr as [<- | Hr]; [exists b; split; [now left | exact G] |].
    destruct (IH Hr) as (part & I & G'). exists part. split; [now right | exact G']. }
  destruct P as (part & Hp & j2 & h2 & m2 & cm2 & _ & Hj2 & Ep2 & ->).
  destruct (same_unit w fuel main pr B _ _ _ _ _ _ _ _ Hj Hj2 ltac:(congruence)) as [-> ->].
  assert (Yc : In y (List.concat parts)) by (apply in_concat; eexists; split; [exact Hp | apply filter_In; auto]).
  destruct (proj2 (proj2 (firsts_keys _ _ _ _ _ Hf)) y Yc) as [[] | Kz]. apply in_map_iff in Kz as (z & Kz & Iz).
  destruct (inj_of _ _ _ _ _ _ Hg Hf Iz) as (Oz & j3 & h3 & m3 & cm3 & _ & Hu3 & Iz3).
  rewrite (offered_key _ _ _ _ _ _ _ _ y z Hj Iy Oy Hu3 Iz3 Oz Ty (eq_sym Kz)). exact Iz.
Qed.

(** ** Types of known size *)
Lemma own_status : forall i h m cm e b x, unit_at pr i h m cm -> In e (mod_elements m) -> type_of_elem e b x ->
  ~ In x (map lit library_types) -> is_pub_type (Si i h m) x = b.
Proof.
  intros i h m cm e b x Hu Ie Te Nl.
  assert (Same : forall e' b', In e' (mod_elements m) -> type_of_elem e' b' x -> b' = b).
  { intros e' b' Ie' Te'. pose proof (same_elem _ _ _ (unit_translated w _ _ _ B _ _ _ _ Hu) (tells _ _ _ _ Hu) _ _ _ _ _ Ie Ie' (or_introl Te) (or_introl Te')) as <-.
    exact (flag_settled _ _ _ _ (or_introl Te') (or_introl Te)). }
  unfold is_pub_type, type_status. cbn [site_of elements]. destruct (has_type x) eqn:HT; [exfalso; now apply Nl, has_type_library |].
  destruct (struct_named _ _) as [s |] eqn:SN.
  { unfold struct_named in SN. apply last_of_in in SN as (e' & I & H). destruct e'; try discriminate. destruct (str_eqb_spec (st_name s0) x) as [Q | Q]; [| discriminate].
    injection H as ->. apply (Same (MStruct s) (st_pub s) I). cbn. auto. }
  destruct (typedef_named _ _) as [[p ty] |] eqn:TN.
  { unfold typedef_named in TN. apply last_of_in in TN as (e' & I & H). destruct e' as [| | al | t | | |]; try discriminate.
    - destruct (str_eqb_spec (sa_typename al) x) as [Q | Q]; [| discriminate]. injection H as <- <-. apply (Same (MStructAlias al) (sa_pub al) I). cbn; auto.
    - destruct (str_eqb_spec (td_alias t) x) as [Q | Q]; [| discriminate]. injection H as <- <-. apply (Same (MTypedef t) (td_pub t) I). cbn; auto. }
  exfalso. unfold struct_named in SN. unfold typedef_named in TN.
  destruct e as [| | a | t | t | |]; cbn [type_of_elem] in Te; try contradiction; destruct Te as [_ <-];
    [apply (last_of_none _ _ _ _ TN) in Ie | apply (last_of_none _ _ _ _ TN) in Ie | apply (last_of_none _ _ _ _ SN) in Ie]; rewrite str_eqb_refl in Ie; discriminate.
Qed.
Lemma foreign_status : forall i h m x, (forall e b, In e (mod_elements m) -> ~ type_of_elem e b x) -> is_pub_type (Si i h m) x = false.
Proof.
  intros i h m x N. unfold is_pub_type, type_status. cbn [site_of elements]. destruct (has_type x); [reflexivity |].
  destruct (struct_named _ _) as [s |] eqn:SN.
  { exfalso. unfold struct_named in SN. apply last_of_in in SN as (e' & I & H). destruct e'; try discriminate. destruct (str_eqb_spec (st_name s0) x) as [Q | Q]; [| discriminate].
    injection H as ->. apply (N (MStruct s) (st_pub s) I). cbn. auto. }
  destruct (typedef_named _ _) as [[p ty] |] eqn:TN.
  { exfalso. unfold typedef_named in TN. apply last_of_in in TN as (e' & I & H). destruct e' as [| | al | t | | |]; try discriminate.
    - destruct (str_eqb_spec (sa_typename al) x) as [Q | Q]; [| discriminate]. apply (N (MStructAlias al) (sa_pub al) I). cbn; auto.
    - destruct (str_eqb_spec (td_alias t) x) as [Q | Q]; [| discriminate]. apply (N (MTypedef t) (td_pub t) I). cbn; auto. }
  destruct (str_in _ _); reflexivity.
Qed.
Lemma library_status : forall S x, In x (map lit library_types) -> is_pub_type S x = false.
Proof. intros S x I. unfold is_pub_type, type_status. now rewrite (library_has_type _ I). Qed.
Lemma sized_library : forall x, In x (map lit sized_types) -> In x (map lit library_types).
Proof.
  assert (K : forallb (fun x => str_in x (map lit library_types)) (map lit sized_types) = true) by (vm_compute; reflexivity).
  intros x I. rewrite forallb_forall in K. now apply str_in_in, K.
Qed.

Variable system : cuse -> Prop.
Hypothesis Neat : forall i h m cm, unit_at pr i h m cm -> neat (Si i h m) system.
Variable whole : str -> Prop.
Definition shape (deep : bool) (z : celem) : Prop := match z with XTypedef _ => True | XStruct _ => deep = true | _ => False end.
Lemma shape_type : forall deep z, shape deep z -> type_definition z.
Proof. intros deep [] H; cbn in *; auto. Qed.
(** The list has the definitions that the [i]-th module may use. *)
Definition holds (i : nat) (early : modelem -> Prop) (deep pub : bool) (E : list celem) : Prop :=
  forall h m cm, unit_at pr i h m cm ->
  (forall e z, In e (mod_elements m) -> early e -> In z (c_elem (Si i h m) (Gi m) e) -> shape deep z -> (pub = true -> offered z = true) -> In z E)
  /\ forall q h' m' j cm' z, import (Si i h m) q = Some (h', m') -> unit_at pr j h' m' cm' -> In z (cm_elements cm') -> offered z = true -> shape deep z -> In z E.
Definition no_private (pub : bool) (m : module_) (n : nsname) : Prop :=
  pub = true -> ns_ns n = [] -> forall e, In e (mod_elements m) -> ~ type_of_elem e false (ns_name n).
Lemma holds_import : forall i early deep pub E h m cm q h' m' j cm', unit_at pr i h m cm -> holds i early deep pub E ->
  import (Si i h m) q = Some (h', m') -> unit_at pr j h' m' cm' -> holds j (fun _ => True) deep true E.
Proof.
  intros i early deep pub E h m cm q h' m' j cm' Hu Ho Hi Hj. destruct (Ho _ _ _ Hu) as [_ Ho2]. intros h2 m2 cm2 Hj2.
  destruct (same_unit_at _ _ _ _ _ _ _ _ Hj Hj2) as (<- & <- & <-). destruct (unit_gives w _ _ _ _ _ _ _ B Hj) as (s & parts & inj & Hg & Hf & Ee).
  assert (In_file : forall z, In z inj \/ In z (c_elems (Si j h' m') is_numeric) -> In z (cm_elements cm')).
  { intros z I. apply (file_has _ _ _ _ _ _ _ Hj Hg Hf Ee). rewrite !in_app_iff. tauto. }
  split.
  - intros e z Ie _ Iz Sz Oz. eapply Ho2; eauto. apply In_file. right. exact (in_c_elems (Si j h' m') is_numeric e z Ie Iz).
  - intros q' h3 m3 k cm3 z Hi' Hk Iz Oz Sz. eapply Ho2; eauto. apply In_file. left.
    exact (arrives_exact _ _ _ _ _ _ _ _ _ _ _ _ Hj Hg Hf Hi' Hk Iz Oz (shape_type _ _ Sz)).
Qed.
Scheme sized_mut := Minimality for sized Sort Prop with sized_elem_mut := Minimality for sized_elem Sort Prop.
Definition name_complete (i : nat) (early : modelem -> Prop) (deep : bool) (n : nsname) : Prop :=
  forall E pub h m cm t, unit_at pr i h m cm -> holds i early deep pub E -> no_private pub m n -> tn_name t = n ->
  complete whole E (ctn_name (c_type (Si i h m) t)).
Definition elem_complete (i : nat) (early : modelem -> Prop) (deep : bool) (e : modelem) : Prop :=
  forall E pub h m cm b x, unit_at pr i h m cm -> holds i early deep pub E -> In e (mod_elements m) -> early e -> type_of_elem e b x ->
  (pub = true -> b = true) -> complete whole E (c_name (mi_uniqid h) b x).
Lemma sized_complete : forall i early deep n, sized whole pr i early deep n -> name_complete i early deep n.
Proof.
  apply (sized_mut whole pr name_complete elem_complete).
  - (* basic *) intros i early deep n En In_ E pub h m cm t Hu _ _ Et. unfold c_type. cbn [ctn_name]. rewrite Et. rewrite En. cbn [str_eqb].
    rewrite (library_status _ _ (sized_library _ In_)). now apply Co_basic.
  - (* system *) intros i early deep n En W E pub h m cm t Hu _ _ Et. unfold c_type. cbn [ctn_name]. rewrite Et. rewrite En, str_eqb_refl. now apply Co_system.
  - (* directive *) intros i early deep n h0 m0 cm0 Hu0 En N W E pub h m cm t Hu _ _ Et. destruct (same_unit_at _ _ _ _ _ _ _ _ Hu0 Hu) as (<- & <- & <-).
    unfold c_type. cbn [ctn_name]. rewrite Et. rewrite En. cbn [str_eqb]. rewrite (foreign_status _ _ _ _ N). now apply Co_system.
  - (* own *) intros i early deep n h0 m0 cm0 e b Hu0 En Nl Ie Te Ee _ IH E pub h m cm t Hu Ho Np Et. destruct (same_unit_at _ _ _ _ _ _ _ _ Hu0 Hu) as (<- & <- & <-).
    unfold c_type. cbn [ctn_name]. rewrite Et. rewrite En. cbn [str_eqb]. rewrite (own_status _ _ _ _ _ _ _ Hu Ie Te Nl).
    assert (Pb : pub = true -> b = true) by (intros P; destruct b; [reflexivity | destruct (Np P En e Ie Te)]).
    exact (IH _ _ _ _ _ _ _ Hu Ho Ie Ee Te Pb).
  - (* imported *) intros i early deep n h0 m0 cm0 j h' m' cm' e Hu0 N1 N2 Hi Hj Ie Te _ IH E pub h m cm t Hu Ho _ Et. destruct (same_unit_at _ _ _ _ _ _ _ _ Hu0 Hu) as (<- & <- & <-).
    unfold c_type. cbn [ctn_name]. rewrite Et. destruct (str_eqb_spec (ns_ns n) (L "OS")) as [Q | _]; [contradiction |].
    destruct (str_eqb_spec (ns_ns n) []) as [Q | _]; [contradiction |]. unfold import_id. rewrite Hi.
    exact (IH _ _ _ _ _ _ _ Hj (holds_import _ _ _ _ _ _ _ _ _ _ _ _ _ Hu Ho Hi Hj) Ie I Te (fun _ => eq_refl)).
  - (* structs *) intros i early deep s D E pub h m cm b x Hu Ho Ie Ee [P <-] Pb. destruct (Ho _ _ _ Hu) as [H1 _].
    assert (Q : exported_as (Si i h m) (st_pub s) (st_name s) = c_name (mi_uniqid h) b (st_name s)) by (rewrite P; reflexivity).
    rewrite <- Q. eapply (Co_typedef _ _ (mkCtd (st_pub s) (mkCtn false (L "struct " ++ struct_tag (exported_as (Si i h m) (st_pub s) (st_name s)))) (mkCtdf [] None 0 (exported_as (Si i h m) (st_pub s) (st_name s))))).
    + apply (H1 _ _ Ie Ee); [right; right; left; reflexivity | exact I |]. intros K. cbn. rewrite P. auto.
    + reflexivity.
    + intros _. cbn [ctd_type ctn_name]. apply (Co_struct _ _ (mkCsd (struct_tag (exported_as (Si i h m) (st_pub s) (st_name s))) (flat_map (c_struct_entry (Si i h m) (Gi m)) (st_entries s)) (st_pub s))).
      apply (H1 _ _ Ie Ee); [right; left; reflexivity | exact D |]. intros K. cbn. rewrite P. auto.
  - (* typedefs *) intros i early deep t Pt _ IH E pub h m cm b x Hu Ho Ie Ee [P <-] Pb. destruct (Ho _ _ _ Hu) as [H1 _].
    assert (Q : exported_as (Si i h m) (td_pub t) (td_alias t) = c_name (mi_uniqid h) b (td_alias t)) by (rewrite P; reflexivity). rewrite <- Q.
    eapply (Co_typedef _ _ (mkCtd (td_pub t) (c_type (Si i h m) (td_type t)) (mkCtdf (repeat 42%N (td_derefs t)) (option_map (fun p => mkCanon (ap_ellipsis p) (map (c_btf (Si i h m)) (ap_forms p))) (td_func_params t)) (td_array_size t) (exported_as (Si i h m) (td_pub t) (td_alias t))))).
    + apply (H1 _ _ Ie Ee); [left; reflexivity | exact I |]. intros K. cbn. rewrite P. auto.
    + cbn. now rewrite Pt.
    + cbn [ctd_form ctdf_stars ctd_type]. intros Z. assert (D : td_derefs t = 0) by (destruct (td_derefs t); [reflexivity | discriminate]).
      refine (IH D _ pub _ _ _ _ Hu Ho _ eq_refl). intros Kp En e' Ie'. apply in_split in Ie as (l1 & l2 & El).
      pose proof (Neat _ _ _ _ Hu l1 (MTypedef t) l2 El) as [[[_ N] _] _]. apply N; auto. rewrite P. auto.
  - (* aliases *) intros i early deep a W E pub h m cm b x Hu Ho Ie Ee [P <-] Pb. destruct (Ho _ _ _ Hu) as [H1 _].
    assert (Q : exported_as (Si i h m) (sa_pub a) (sa_typename a) = c_name (mi_uniqid h) b (sa_typename a)) by (rewrite P; reflexivity). rewrite <- Q.
    eapply (Co_typedef _ _ (mkCtd (sa_pub a) (mkCtn false (L "struct " ++ sa_structname a)) (mkCtdf [] None 0 (exported_as (Si i h m) (sa_pub a) (sa_typename a))))).
    + apply (H1 _ _ Ie Ee); [left; reflexivity | exact I |]. intros K. cbn. rewrite P. auto.
    + reflexivity.
    + intros _. now apply Co_system.
Qed.

(** ** The theorem *)
Hypothesis Sized : forall i h m cm, unit_at pr i h m cm -> well_sized whole pr i (mod_elements m).
Lemma helper_needs : forall t, In t (elem_needs (XFunc helper)) -> forall l, complete whole l t.
Proof.
  assert (K : forallb (fun x => str_in x (map lit sized_types)) (elem_needs (XFunc helper)) = true) by (vm_compute; reflexivity).
  intros t I l. rewrite forallb_forall in K. apply Co_basic. now apply str_in_in, K.
Qed.
Lemma own_complete : forall i h m cm a e b y E, unit_at pr i h m cm -> mod_elements m = a ++ e :: b -> In y (c_elem (Si i h m) (Gi m) e) ->
  (forall (early : modelem -> Prop) deep, 2 <= group y -> (deep = true -> 3 <= group y) ->
    (forall e' z, In e' (mod_elements m) -> early e' -> In z (c_elem (Si i h m) (Gi m) e') -> shape deep z -> In e' a \/ group z < group y) ->
    holds i early deep (offered y) E) ->
  forall t, In t (elem_needs y) -> complete whole E t.
Proof.
  intros i h m cm a e b y E Hu Ea Iy Ho. pose proof (Sized _ _ _ _ Hu a e b Ea) as Sz. pose proof (Neat _ _ _ _ Hu a e b Ea) as Ne.
  (* types that are used at [y] *)
  set (known := fun early deep t => sized whole pr i early deep (tn_name t) /\ no_private (offered y) m (tn_name t)).
  assert (Good : forall early deep, holds i early deep (offered y) E -> forall t, known early deep t -> complete whole E (ctn_name (c_type (Si i h m) t))).
  { intros early deep H t [S N]. exact (sized_complete _ _ _ _ S _ _ _ _ _ _ Hu H N eq_refl). }
  assert (Early : 3 <= group y -> holds i (structs_in a) true (offered y) E).
  { intros G. apply Ho; [lia | auto |]. intros e' z _ Q Iz Sh. destruct e' as [mc | d | al | td | st | v | f]; cbn [structs_in] in Q; try (now left);
      right; cbn [c_elem] in Iz.
    - destruct (_ || _); [destruct Iz |]. destruct Iz as [<- | []]. destruct Sh.
    - destruct Iz as [<- | []]. destruct Sh.
    - destruct Iz as [<- | []]. cbn. lia.
    - destruct Iz as [<- | []]. cbn. lia.
    - destruct (v_value v); [| destruct Iz]. destruct Iz as [<- | []]. destruct Sh.
    - destruct Iz as [<- | Iz]; [destruct Sh |]. destruct (str_eqb _ _); [destruct Iz |]. destruct Iz as [<- | []]. destruct Sh. }
  assert (Late : 4 <= group y -> holds i (fun _ => True) true (offered y) E).
  { intros G. apply Ho; [lia | lia |]. intros e' z _ _ _ Sh. right. destruct z; cbn in *; try contradiction; lia. }
  assert (Tys : forall pub t, (offered y = true -> pub = true) -> outer_type (Si i h m) system pub t -> no_private (offered y) m (tn_name t)).
  { intros pub t P [_ O] K. exact (O (P K)). }
  assert (Mp : forall early pub names enums vars fns x, (offered y = true -> pub = true) -> sized_expr whole pr i early x ->
    outer_expr (Si i h m) system pub names enums vars fns x -> known_expr (known early true) x).
  { intros early pub names enums vars fns x P H1 H2. destruct x; try exact I. intros Z. split; [now apply H1 | exact (Tys _ _ P H2)]. }
  destruct e as [mc | d | al | td | st | v | f]; cbn [c_elem] in Iy.
  - destruct (_ || _); [destruct Iy |]. destruct Iy as [<- | []]. intros t [].
  - (* enums *) destruct Iy as [<- | []]. cbn [sized_at each_elem] in Sz. cbn [outer_elem] in Ne. intros t It. cbn [elem_needs ced_entries] in It.
    apply in_flat_map in It as (q & Iq & It). apply in_map_iff in Iq as (en & <- & Ien). cbn [snd] in It. rewrite all_in in Sz. specialize (Sz en Ien).
    apply in_split in Ien as (n1 & n2 & En). specialize (Ne _ _ _ En).
    refine (ok_opt (Si i h m) (known (structs_in a) true) (complete whole E) (Good _ _ (Early ltac:(cbn; lia))) (Gi m) (en_val en) _ t It).
    revert Sz Ne. apply opt_mp3. intros x. apply expr_mp3. intros x'. apply Mp. cbn. now destruct (enum_pub d).
  - destruct Iy as [<- | []]. intros t [].
  - (* typedefs *) destruct Iy as [<- | []]. cbn [sized_at] in Sz. intros t It. cbn [elem_needs ctd_form ctdf_size ctdf_stars ctd_type] in It.
    destruct (td_array_size td) eqn:Ez; [destruct It |]. destruct (td_derefs td) eqn:Ed; cbn [repeat] in It; [| destruct It]. destruct It as [<- | []].
    apply (Good (fun x => In x a) false).
    + apply Ho; [cbn; lia | discriminate |]. intros e' z _ Q _ _. now left.
    + split; [apply Sz; [discriminate | reflexivity] |]. destruct Ne as [[Ne _] _]. exact (Tys _ _ (fun K => K) Ne).
  - (* structs *) destruct Iy as [<- | [<- | [<- | []]]]; [intros t [] | | intros t []]. cbn [sized_at each_elem] in Sz. destruct Sz as [S1 S2].
    cbn [outer_elem] in Ne. destruct Ne as [N1 N2]. intros t It. cbn [elem_needs csd_fields] in It. apply in_flat_map in It as (it & Iit & It).
    apply in_flat_map in Iit as (en & Ien & Iit).
    refine (ok_entry (Si i h m) (known (structs_in a) true) (complete whole E) (Good _ _ (Early ltac:(cbn; lia))) (Gi m) en _ _ t _);
      [| | apply in_flat_map; eauto].
    + rewrite all_in in S1, N1. specialize (S1 _ Ien). specialize (N1 _ Ien). destruct en as [x | u].
      * revert S1. rewrite !all_in. intros S1 f If Z. split; [exact (S1 f If Z) | exact (Tys _ _ (fun K => K) N1)].
      * revert S1 N1. apply all_mp3. intros p Ip S1 N1 Z. split; [exact (S1 Z) | exact (Tys _ _ (fun K => K) N1)].
    + rewrite all_in in S2, N2. specialize (S2 _ Ien). specialize (N2 _ Ien).
      assert (F : forall f, each_form (sized_expr whole pr i (structs_in a)) f -> each_form (outer_expr (Si i h m) system (st_pub st) [] a [] false) f ->
        each_form (known_expr (known (structs_in a) true)) f).
      { intros f. apply form_mp3. intros x'. apply Mp. exact (fun K => K). }
      destruct en as [x | u]; cbn [each_field] in *; [revert S2 N2; apply all_mp3; auto |].
      destruct S2 as [S2 S3], N2 as [N2 N3]. split; [auto |]. revert S3 N3. apply all_mp3. auto.
  - (* variables *) destruct (v_value v) as [x |] eqn:Ev; [| destruct Iy]. destruct Iy as [<- | []]. cbn [sized_at each_elem] in Sz. destruct Sz as (S1 & S2 & S3).
    cbn [outer_elem] in Ne. destruct Ne as (N1 & N2 & N3). intros t It. cbn [elem_needs cv_type cv_form cv_value] in It.
    refine (ok_declares (Si i h m) (known (fun _ => True) true) (complete whole E) (Good _ _ (Late ltac:(cbn; lia))) (Gi m) _ (v_type v) (v_form v) (Some x) _ _ _ t It).
    + intros Z. split; [exact (S1 Z) | exact (Tys _ _ (fun K => K) N1)].
    + revert S2 N2. apply form_mp3. intros x'. apply Mp. exact (fun K => K).
    + rewrite Ev in S3, N3. revert S3 N3. apply opt_mp3, expr_mp3. intros x'. apply Mp. exact (fun K => K).
  - (* functions *) cbn [sized_at each_elem] in Sz. destruct Sz as (S1 & S2 & S3 & S4 & S5). cbn [outer_elem] in Ne. destruct Ne as (N1 & N2 & N3 & N4).
    assert (G : 4 <= group y).
    { destruct Iy as [<- | Iy]; [cbn; lia |]. destruct (str_eqb _ _); [destruct Iy |]. destruct Iy as [<- | []]. cbn. lia. }
    assert (P : offered y = true -> fd_pub f = true).
    { destruct Iy as [<- | Iy]; [discriminate |]. destruct (str_eqb _ _); [destruct Iy |]. destruct Iy as [<- | []]. cbn. now destruct (fd_pub f). }
    set (Gf := param_decls (fd_params f) ++ Gi m) in *.
    assert (Kf : forall g, each_form (sized_expr whole pr i (fun _ => True)) g -> each_form (outer_expr (Si i h m) system (fd_pub f) (param_names (fd_params f)) (elements (Si i h m)) [] false) g ->
      each_form (known_expr (known (fun _ => True) true)) g).
    { intros g. apply form_mp3. intros x'. apply Mp. exact P. }
    pose proof (Good _ _ (Late G)) as Gd.
    assert (Forms : forall name t, In t (form_measures (c_form (Si i h m) Gf name (fd_form f))) -> complete whole E t).
    { intros name. exact (ok_form (Si i h m) _ (complete whole E) Gd Gf name (fd_form f) (Kf _ S3 N3)). }
    assert (Params : forall p, In p (cfp_list (c_params (Si i h m) Gf (fd_params f))) ->
      (forall t, In t (object (ctf_type p) (ctf_form p)) -> complete whole E t) /\ forall t, In t (form_measures (ctf_form p)) -> complete whole E t).
    { intros p Ip. cbn [c_params cfp_list] in Ip. apply in_flat_map in Ip as (x & Ix & Ip). unfold c_fields in Ip. apply in_map_iff in Ip as (g & <- & Ig).
      rewrite all_in in S2, S4, N2, N4. specialize (S2 x Ix). specialize (S4 x Ix). specialize (N2 x Ix). specialize (N4 x Ix). cbv beta in S2, S4, N4.
      rewrite all_in in S2, S4, N4. cbn [ctf_type ctf_form]. split.
      - apply (ok_object (Si i h m) _ (complete whole E) Gd). intros Z. split; [exact (S2 g Ig Z) | exact (Tys _ _ P N2)].
      - apply (ok_form (Si i h m) _ (complete whole E) Gd). apply Kf; auto. }
    destruct Iy as [<- | Iy].
    + intros t It. cbn [elem_needs cfd_type cfd_form cfd_params cfd_body] in It. rewrite !in_app_iff in It. destruct It as [It | [It | [It | It]]].
      * unfold result in It. destruct (str_eqb_spec (ctn_name (c_type (Si i h m) (fd_type f))) (L "void")) as [_ | V]; [destruct It |].
        refine (ok_object (Si i h m) _ (complete whole E) Gd Gf _ (fd_type f) (fd_form f) _ t It). intros Z. split; [| exact (Tys _ _ P N1)]. apply S1; [| exact Z].
        intros Q. apply V. unfold c_type. cbn [ctn_name]. rewrite Q. cbn [ns_ns ns_name str_eqb]. rewrite library_status; [reflexivity |]. vm_compute. tauto.
      * eapply Forms; exact It.
      * apply in_flat_map in It as (p & Ip & It). destruct (Params p Ip) as [H1 H2]. apply in_app_or in It as [It | It]; auto.
      * refine (ok_stmts_c (Si i h m) _ (complete whole E) Gd (fd_body f) Gf _ t It).
        refine (stmts_mp3 _ _ _ _ _ _ _ _ (fd_body f) S5 S5).
        -- intros x H1 _. destruct x; try exact I. intros Z. split; [now apply H1 |]. intros Q. discriminate Q.
        -- intros x H1 _. destruct x as [| | vd | | fi | | | |]; try exact I; [| destruct fi as [[x | ty fm x] |]; try exact I]; intros Z; (split; [now apply H1 | intros Q; discriminate Q]).
    + destruct (str_eqb _ _); [destruct Iy |]. destruct Iy as [<- | []]. intros t It. cbn [elem_needs cfw_form cfw_params] in It. apply in_app_or in It as [It | It].
      * eapply Forms; exact It.
      * apply in_flat_map in It as (p & Ip & It). destruct (Params p Ip) as [H1 H2]. apply in_app_or in It as [It | It]; auto.
        apply H1. unfold array in It. destruct (cf_indexes _); [destruct It | exact It].
Qed.
Theorem file_complete : forall i h m cm bef y aft, unit_at pr i h m cm -> cm_elements cm = bef ++ y :: aft ->
  forall t, In t (elem_needs y) -> complete whole bef t /\ (offered y = true -> complete whole (filter offered bef) t).
Proof.
  induction i as [i IH] using lt_wf_ind. intros h m cm bef y aft Hu Hd t It.
  destruct (unit_gives w _ _ _ _ _ _ _ B Hu) as (s & parts & inj & Hg & Hf & E).
  destruct (placed_exact _ _ _ _ _ _ _ Hu Hg Hf E _ _ _ Hd) as (l1 & l2 & El & Pl).
  symmetry in El. destruct (split_two _ _ _ _ _ _ El) as [(r & Eh & _) | (r & -> & El')].
  { assert (I : In y (module_head s)) by (rewrite Eh; apply in_elt).
    apply head_kinds in I as [[-> | ->] | [I | ->]]; [destruct It | destruct It | | split; [| intros _]; now apply helper_needs].
    unfold std_includes in I. apply in_map_iff in I as (n & <- & _). destruct It. }
  symmetry in El'. destruct (split_two _ _ _ _ _ _ El') as [(r' & Ei & _) | (o1 & -> & Eo)].
  - (* from an imported module *)
    destruct (split_firsts _ _ _ _ _ Hf _ _ _ Ei) as (c1 & c2 & Ec & Pc).
    destruct (split_concat _ _ _ _ _ Ec) as (part & a1 & a2 & Hp & Epart & Sub).
    destruct (part_of _ _ _ _ _ Hg Hp) as (j & h' & m' & cm' & Lt & Hj & Ef). rewrite Epart in Ef. symmetry in Ef.
    assert (Oy : offered y = true).
    { assert (I : In y (filter offered (cm_elements cm'))) by (rewrite Ef; apply in_elt). now apply filter_In in I. }
    destruct (split_filter _ _ _ _ _ _ Ef) as (b1 & b2 & Eb & Fb).
    destruct (IH j Lt _ _ _ _ _ _ Hj Eb t It) as [_ C]. specialize (C Oy).
    assert (Arr : forall z, In z (filter offered b1) -> type_definition z -> In z bef /\ offered z = true).
    { intros z Iz Tz. pose proof Iz as Iz1. rewrite Fb in Iz1. apply filter_In in Iz as [Iz Oz]. split; [| exact Oz].
      assert (Iz' : In z (cm_elements cm')) by (rewrite Eb, in_app_iff; now left).
      assert (Gz : group z <= group y).
      { apply in_split in Iz as (q1 & q2 & ->). apply (proj1 (module_layout m' (unit_params pr j h') cm' (unit_translated w _ _ _ B _ _ _ _ Hj))).
        exists q1, q2, b2. rewrite Eb, <- app_assoc. reflexivity. }
      destruct (Pc z (Sub z Iz1)) as [[] | K]. apply in_map_iff in K as (z' & K & Ir).
      assert (Ij : In z' inj) by (rewrite Ei, in_app_iff; now left).
      destruct (inj_of _ _ _ _ _ _ Hg Hf Ij) as (Oz' & j3 & h3 & m3 & cm3 & _ & Hu3 & Iz3).
      rewrite (offered_key _ _ _ _ _ _ _ _ z z' Hj Iz' Oz Hu3 Iz3 Oz' Tz (eq_sym K)) in *.
      apply Pl. left. split; [| exact Gz]. rewrite in_app_iff. now right. }
    split; [| intros _]; (eapply complete_more; [| exact C]); intros z Iz Tz; destruct (Arr z Iz Tz); [assumption | now apply filter_In].
  - (* from the module itself *)
    unfold c_elems in Eo. destruct (split_flat_map _ _ _ _ _ _ _ Eo) as (a & e & b & d1 & d2 & Ea & Ee & ->). cbn [site_of elements] in *.
    assert (C : complete whole (if offered y then filter offered bef else bef) t).
    { refine (own_complete _ _ _ _ _ _ _ y _ Hu Ea _ _ t It); [rewrite Ee; apply in_elt |].
      intros early deep G2 G3 Pe. intros h2 m2 cm2 Hu2. destruct (same_unit_at _ _ _ _ _ _ _ _ Hu Hu2) as (<- & <- & <-).
      assert (Put : forall z, In z bef -> (offered y = true -> offered z = true) -> In z (if offered y then filter offered bef else bef)).
      { intros z Iz Oz. destruct (offered y); [apply filter_In; auto | exact Iz]. }
      assert (Sh : forall z, shape deep z -> group z <= group y).
      { intros z S. destruct z; cbn in S |- *; try contradiction; [lia | auto]. }
      split.
      - intros e' z Ie' Q Iz Sz Oz. apply Put; [| exact Oz]. apply Pl. destruct (Pe e' z Ie' Q Iz Sz) as [Ia | Gz].
        + left. split; [| now apply Sh]. rewrite !in_app_iff. right. right. left. apply in_flat_map. eauto.
        + right. split; [| exact Gz]. rewrite !in_app_iff. right. right. exact (in_c_elems (Si i h m) is_numeric e' z Ie' Iz).
      - intros q h' m' j cm' z Hi Hj Iz Oz Sz. apply Put; [| auto]. apply Pl. left. split; [| now apply Sh]. rewrite !in_app_iff. right. left.
        exact (arrives_exact _ _ _ _ _ _ _ _ _ _ _ _ Hu Hg Hf Hi Hj Iz Oz (shape_type _ _ Sz)). }
    split; [| intros Oy; rewrite Oy in C; exact C]. revert C. apply complete_more. intros z Iz _. destruct (offered y); [now apply filter_In in Iz | exact Iz].
Qed.
End Project.
