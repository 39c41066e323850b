(** The structure of a built project. *)
From Coq Require Import Decimal DecimalN.
From Verif Require Import Base Buf Lexer Nodes Resolve Cursor Preparser Parser CAst FormatC Translator Build BaseFacts.
From Verif Require Import FuelFacts SpecBuild BuildFacts SpecDecl SpecTarget TargetFacts.

(** ** Removing duplicates *)

Lemma dedup_split : forall A (key : A -> str) l pres r1 a r2,
  dedup_by key pres l = r1 ++ a :: r2 ->
  exists l1 l2, l = l1 ++ a :: l2 /\ ~ In (key a) pres
    /\ (forall x, In x l1 -> In (key x) pres \/ In (key x) (map key r1))
    /\ ~ In (key a) (map key r1).
Proof.
  intros A key. induction l as [| x l IH]; intros pres r1 a r2 E; cbn [dedup_by] in E.
  - destruct r1; discriminate.
  - destruct (str_in (key x) pres) eqn:Ex.
    + apply str_in_spec in Ex. destruct (IH _ _ _ _ E) as (l1 & l2 & -> & Hn & H1 & H2).
      exists (x :: l1), l2. repeat split; auto. intros y [<- | Hy]; auto.
    + apply str_in_false in Ex. destruct r1 as [| y r1]; cbn in E; inversion E; subst.
      * exists [], l. repeat split; auto; intros y [].
      * destruct (IH _ _ _ _ H1) as (l1 & l2 & -> & Hn & H2 & H3).
        exists (y :: l1), l2. split; [reflexivity |]. split; [intros Hp; apply Hn; right; exact Hp |].
        split.
        -- intros z [<- | Hz]; [right; left; reflexivity |].
           destruct (H2 z Hz) as [[E1 | Hp] | Hr]; auto.
           ++ right. left. exact E1.
           ++ right. right. exact Hr.
        -- intros [E1 | Hr]; [| auto]. apply Hn. left. exact E1.
Qed.

Lemma dedup_cover : forall A (key : A -> str) l pres x, In x l ->
  In (key x) pres \/ In (key x) (map key (dedup_by key pres l)).
Proof.
  intros A key. induction l as [| y l IH]; intros pres x []; cbn [dedup_by].
  - subst. destruct (str_in (key x) pres) eqn:E; [left; apply str_in_spec, E | right; left; reflexivity].
  - destruct (str_in (key y) pres) eqn:E; [apply IH, H |].
    destruct (IH (key y :: pres) x H) as [[E1 | Hp] | Hr]; auto.
    + right. left. exact E1.
    + right. right. exact Hr.
Qed.

Lemma dedup_nodup : forall A (key : A -> str) l pres,
  NoDup (map key (dedup_by key pres l)) /\ forall k, In k (map key (dedup_by key pres l)) -> ~ In k pres.
Proof.
  intros A key. induction l as [| y l IH]; intros pres; cbn [dedup_by]; [split; [constructor | intros k []] |].
  destruct (str_in (key y) pres) eqn:E; [apply IH |]. apply str_in_false in E.
  destruct (IH (key y :: pres)) as [H1 H2]. cbn [map]. split.
  - constructor; [| exact H1]. intros Hy. apply (H2 _ Hy). left. reflexivity.
  - intros k [<- | Hk]; [exact E |]. intros Hp. apply (H2 _ Hk). right. exact Hp.
Qed.

Lemma dedup_snoc : forall A (key : A -> str) l pres a, ~ In (key a) pres -> ~ In (key a) (map key l) ->
  dedup_by key pres (l ++ [a]) = dedup_by key pres l ++ [a].
Proof.
  intros A key. induction l as [| y l IH]; intros pres a H1 H2; cbn [dedup_by app].
  - apply str_in_false in H1. rewrite H1. reflexivity.
  - destruct (str_in (key y) pres); [apply IH; [exact H1 |] | cbn [app]; f_equal; apply IH].
    + intros H. apply H2. right. exact H.
    + intros [E | H]; [apply H2; left; exact E | contradiction].
    + intros H. apply H2. right. exact H.
Qed.

Lemma uniq_in : forall l x, In x (uniq l) <-> In x l.
Proof.
  intros l x. unfold uniq. split.
  - intros H. apply in_split in H. destruct H as (r1 & r2 & E).
    apply dedup_split in E. destruct E as (l1 & l2 & -> & _). apply in_or_app. right. left. reflexivity.
  - intros H. destruct (dedup_cover _ (fun p : str => p) l [] x H) as [[] | H1].
    rewrite map_id in H1. exact H1.
Qed.
Lemma uniq_nodup : forall l, NoDup (uniq l).
Proof.
  intros l. destruct (dedup_nodup _ (fun p : str => p) l []) as [H _]. rewrite map_id in H. exact H.
Qed.

(** ** Numbers and names *)

Lemma digits_inj : forall a b, uint_digits a = uint_digits b -> a = b.
Proof.
  induction a; destruct b; cbn [uint_digits]; intros E; try discriminate E; try reflexivity;
    inversion E; f_equal; auto.
Qed.
Lemma dec_inj : forall a b, dec a = dec b -> a = b.
Proof.
  intros a b E. apply digits_inj in E. apply DecimalN.Unsigned.to_uint_inj, E.
Qed.
Lemma digits_not : forall u, ~ In 95%N (uint_digits u).
Proof.
  induction u; cbn [uint_digits]; intros H; try (destruct H as [H | H]; [discriminate | contradiction]).
  destruct H.
Qed.
Lemma until_under : forall a b x y, ~ In 95%N a -> ~ In 95%N b ->
  a ++ 95%N :: x = b ++ 95%N :: y -> a = b /\ x = y.
Proof.
  induction a as [| c a IH]; intros [| d b] x y Ha Hb E; cbn in E; inversion E; subst.
  - auto.
  - exfalso. apply Hb. left. reflexivity.
  - exfalso. apply Ha. left. reflexivity.
  - destruct (IH b x y) as [-> ->]; auto; intros H; [apply Ha | apply Hb]; right; exact H.
Qed.

Lemma global_inj : forall i j p q x y,
  global_name (module_id i p) x = global_name (module_id j q) y ->
  i = j /\ (p = q -> x = y).
Proof.
  intros i j p q x y E. unfold global_name, module_id in E. rewrite <- !app_assoc in E.
  apply app_inv_head in E. apply until_under in E; try apply digits_not. destruct E as [E1 E2].
  split.
  - apply dec_inj in E1. lia.
  - intros <-. apply app_inv_head in E2. cbn in E2. inversion E2. reflexivity.
Qed.

(** ** Headers *)

Lemma with_ids_nth : forall l k i h, nth_error (with_ids k l) i = Some h <->
  exists h0, nth_error l i = Some h0
    /\ h = mkInfo (mi_imports h0) (mi_typedefs h0) (mi_filepath h0) (module_id (k + i) (mi_filepath h0)).
Proof.
  induction l as [| m l IH]; intros k i h; cbn [with_ids].
  - destruct i; split; intros H; try discriminate; destruct H as (h0 & H & _); discriminate.
  - destruct i as [| i]; cbn [nth_error].
    + rewrite Nat.add_0_r. split.
      * intros E. inversion E. exists m. split; reflexivity.
      * intros (h0 & E1 & ->). inversion E1. reflexivity.
    + rewrite IH. replace (S k + i) with (k + S i) by lia. reflexivity.
Qed.
Lemma with_ids_paths : forall l k, map mi_filepath (with_ids k l) = map mi_filepath l.
Proof. induction l as [| m l IH]; intros k; [reflexivity |]. cbn. f_equal. apply IH. Qed.

Section Project.
Context {U : Unicode} (w : world).

Lemma heads_of_ok : forall c paths hs, good w c -> heads_of c paths = Some hs ->
  map mi_filepath hs = paths /\ Forall (fun h => header w (mi_filepath h) h) hs.
Proof.
  intros c. induction paths as [| p r IH]; intros hs G H; cbn [heads_of] in H.
  - inversion H. split; [reflexivity | constructor].
  - destruct (assoc p c) as [h |] eqn:E; [| discriminate].
    destruct (heads_of c r) as [l |]; [| discriminate]. inversion H; subst.
    destruct (IH l G eq_refl) as [H1 H2]. pose proof (header_path w p h (G _ _ E)) as Hp.
    split; [cbn; congruence |]. constructor; [| exact H2]. rewrite Hp. apply G, E.
Qed.
Lemma heads_of_some : forall c paths, (forall p, In p paths -> exists i, assoc p c = Some i) ->
  exists hs, heads_of c paths = Some hs.
Proof.
  intros c. induction paths as [| p r IH]; intros H; cbn [heads_of]; [eexists; reflexivity |].
  destruct (H p (or_introl eq_refl)) as [i ->]. destruct IH as [hs ->]; [| eexists; reflexivity].
  intros q Hq. apply H. right. exact Hq.
Qed.

(** Headers of a loaded program: every file once, imports first, main last. *)
Record program (main : str) (heads : list modinfo) : Prop := {
  pg_heads : forall i h, nth_error heads i = Some h ->
    mi_uniqid h = module_id i (mi_filepath h)
    /\ exists h0, header w (mi_filepath h) h0 /\ mi_imports h = mi_imports h0 /\ mi_typedefs h = mi_typedefs h0;
  pg_nodup : NoDup (map mi_filepath heads);
  pg_all : forall p, In p (map mi_filepath heads) <-> part_of w main p;
  pg_order : forall i h r, nth_error heads i = Some h -> In r (mi_imports h) ->
    exists j h', j < i /\ nth_error heads j = Some h' /\ mi_filepath h' = r_path r;
  pg_last : exists hs h, heads = hs ++ [h] /\ mi_filepath h = main }.

Lemma nth_map_error : forall A B (f : A -> B) l i b, nth_error (map f l) i = Some b ->
  exists a, nth_error l i = Some a /\ f a = b.
Proof.
  intros A B f. induction l as [| a l IH]; intros [| i] b H; try discriminate; cbn in *.
  - inversion H. eauto.
  - apply IH, H.
Qed.

Lemma program_of : forall f main paths c heads0,
  load_tree w f [] main [] = Ok (paths, c) -> heads_of c (uniq (rev paths)) = Some heads0 ->
  program main (with_ids 0 heads0).
Proof.
  intros f main paths c heads0 H1 H2.
  pose proof (load_ok w f [] main [] paths c (good_nil w) H1) as Hl.
  destruct (heads_of_ok c _ _ (ld_good _ _ _ _ _ _ Hl) H2) as [Hp Hf].
  rewrite Forall_forall in Hf.
  assert (Hpaths : map mi_filepath (with_ids 0 heads0) = uniq (rev paths)) by (rewrite with_ids_paths; exact Hp).
  assert (Hh : forall i h, nth_error (with_ids 0 heads0) i = Some h ->
    mi_uniqid h = module_id i (mi_filepath h)
    /\ exists h0, header w (mi_filepath h) h0 /\ mi_imports h = mi_imports h0 /\ mi_typedefs h = mi_typedefs h0).
  { intros i h Hi. apply with_ids_nth in Hi. destruct Hi as (h0 & Hi & ->). split; [reflexivity |].
    exists h0. cbn [mi_filepath mi_imports mi_typedefs]. repeat split.
    apply Hf. eapply nth_error_In; exact Hi. }
  constructor.
  - exact Hh.
  - rewrite Hpaths. apply uniq_nodup.
  - intros p. rewrite Hpaths, uniq_in, <- in_rev. apply (loaded_all w main [] [] paths c Hl).
  - intros i h r Hi Hr. destruct (Hh i h Hi) as (_ & h0 & Hh0 & Ei & _).
    assert (Himp : imports w (mi_filepath h) (r_path r)).
    { exists h0, r. split; [exact Hh0 |]. split; [rewrite <- Ei; exact Hr | reflexivity]. }
    pose proof (map_nth_error mi_filepath _ _ Hi) as Hn. rewrite Hpaths in Hn.
    destruct (nth_error_split _ _ Hn) as (r1 & r2 & E & Hlen).
    pose proof E as E'. unfold uniq in E'. apply dedup_split in E'.
    destruct E' as (l1 & l2 & El & _ & Hcov & _).
    assert (Hin : In (r_path r) l1).
    { apply (ld_order _ _ _ _ _ _ Hl (rev l2) (mi_filepath h) (rev l1) (r_path r)) in Himp.
      - apply in_rev in Himp. exact Himp.
      - rewrite <- (rev_involutive paths). rewrite El. rewrite rev_app_distr. cbn. rewrite <- app_assoc. reflexivity. }
    destruct (Hcov _ Hin) as [[] | Hr1]. rewrite map_id in Hr1.
    apply In_nth_error in Hr1. destruct Hr1 as [j Hj].
    assert (Hlt : j < List.length r1) by (apply nth_error_Some; congruence).
    assert (Hj2 : nth_error (map mi_filepath (with_ids 0 heads0)) j = Some (r_path r)).
    { rewrite Hpaths, E, nth_error_app1 by exact Hlt. exact Hj. }
    destruct (nth_map_error _ _ _ _ _ _ Hj2) as (h' & Hh' & Ep).
    exists j, h'. split; [lia |]. split; [exact Hh' | exact Ep].
  - destruct (ld_head _ _ _ _ _ _ Hl) as [t ->].
    pose proof (ld_once _ _ _ _ _ _ Hl t eq_refl) as Hn. cbn [rev] in *.
    unfold uniq in Hpaths. rewrite dedup_snoc in Hpaths; [| intros [] | rewrite map_id, <- in_rev; exact Hn].
    destruct (exists_last (l := with_ids 0 heads0)) as (hs & h & E).
    { intros E. rewrite E in Hpaths. destruct (dedup_by _ [] (rev t)); discriminate. }
    exists hs, h. split; [exact E |]. rewrite E, map_app in Hpaths. cbn in Hpaths.
    apply app_inj_tail in Hpaths. apply Hpaths.
Qed.

(** The phases before translation. *)
Definition front (fuel : nat) (main : str) : bout (list modinfo * list module_) :=
  match load_tree w fuel [] main [] with
  | NoFuel => BNoFuel
  | Abort s => BPanic s
  | Err e => BErrs [mkBerr [] [] (e_msg e)]
  | Ok (paths, c) =>
      match heads_of c (uniq (rev paths)) with
      | None => BPanic "parse_project: unwrap"
      | Some heads0 =>
          bbind (parse_mods w fuel (with_ids 0 heads0) (with_ids 0 heads0)) (fun mods =>
          BOk (with_ids 0 heads0, mods))
      end
  end.
Lemma parse_project_front : forall fuel main,
  parse_project w fuel main =
  bbind (front fuel main) (fun '(heads, mods) =>
  bbind (translate_mods mods heads [] (combine mods heads)) (fun cmods => BOk (mkProject heads mods cmods))).
Proof.
  intros fuel main. unfold parse_project, front.
  destruct (load_tree w fuel [] main []) as [[paths c] | | |]; try reflexivity.
  destruct (heads_of c (uniq (rev paths))); [| reflexivity]. cbv zeta.
  destruct (parse_mods w fuel _ _); reflexivity.
Qed.

(** Every module is parsed from its file with all headers at hand. *)
Definition parsed (fuel : nat) (heads : list modinfo) (h : modinfo) (m : module_) : Prop :=
  exists text, w_read w (mi_filepath h) = inl text
    /\ parse_module fuel (mkPctx h heads) (tokenize (buf_new text)) = PModule m.

Lemma parse_mods_ok : forall fuel all hs mods, parse_mods w fuel all hs = BOk mods ->
  Forall2 (parsed fuel all) hs mods.
Proof.
  intros fuel all. induction hs as [| h r IH]; intros mods H; cbn [parse_mods] in H.
  - inversion H. constructor.
  - destruct (w_read w (mi_filepath h)) as [text |] eqn:E; [| discriminate].
    destruct (parse_module fuel (mkPctx h all) (tokenize (buf_new text))) as [x | | |] eqn:E2; try discriminate.
    destruct (parse_mods w fuel all r) as [l | | |]; try discriminate. inversion H; subst.
    constructor; [| apply IH; reflexivity]. exists text. auto.
Qed.

Lemma Forall2_length : forall A B (R : A -> B -> Prop) l l', Forall2 R l l' -> List.length l = List.length l'.
Proof. induction 1; cbn; congruence. Qed.
Lemma Forall2_nth : forall A B (R : A -> B -> Prop) l l' i a b, Forall2 R l l' ->
  nth_error l i = Some a -> nth_error l' i = Some b -> R a b.
Proof.
  intros A B R l l' i a b H. revert i. induction H; intros [| i] E1 E2; cbn in *; try discriminate.
  - congruence.
  - eapply IHForall2; eauto.
Qed.

Lemma front_ok : forall fuel main heads mods, front fuel main = BOk (heads, mods) ->
  program main heads /\ Forall2 (parsed fuel heads) heads mods.
Proof.
  intros fuel main heads mods H. unfold front in H.
  destruct (load_tree w fuel [] main []) as [[paths c] | | |] eqn:El; try discriminate.
  destruct (heads_of c (uniq (rev paths))) as [heads0 |] eqn:Eh; [| discriminate].
  destruct (parse_mods w fuel _ _) as [ms | | |] eqn:Ep; try discriminate. inversion H; subst.
  split; [eapply program_of; eauto | apply parse_mods_ok, Ep].
Qed.

Lemma translate_mods_ok : forall mods metas todo done cms,
  translate_mods mods metas done todo = BOk cms ->
  exists new, cms = done ++ new /\ List.length new = List.length todo
    /\ forall i m h, nth_error todo i = Some (m, h) ->
       exists cm, nth_error new i = Some cm
         /\ translate m (mkParams h metas (done ++ firstn i new) mods) = TrOk cm.
Proof.
  intros mods metas. induction todo as [| [m h] r IH]; intros done cms H; cbn [translate_mods] in H.
  - inversion H. exists []. rewrite app_nil_r. repeat split. intros [| i] ? ? E; discriminate.
  - destruct (translate m (mkParams h metas done mods)) as [cm | |] eqn:E; try discriminate.
    destruct (IH _ _ H) as (new & -> & Hlen & Hn). exists (cm :: new).
    rewrite <- app_assoc. split; [reflexivity |]. split; [cbn; congruence |].
    intros [| i] m' h' Ei; cbn in *.
    + inversion Ei; subst. exists cm. rewrite app_nil_r. auto.
    + destruct (Hn i m' h' Ei) as (cm' & H1 & H2). exists cm'. split; [exact H1 |].
      rewrite <- app_assoc in H2. exact H2.
Qed.

Lemma combine_nth_error : forall A B (l : list A) (l' : list B) i a b,
  nth_error l i = Some a -> nth_error l' i = Some b -> nth_error (combine l l') i = Some (a, b).
Proof.
  induction l as [| x l IH]; intros [| y l'] [| i] a b H1 H2; cbn in *; try discriminate.
  - congruence.
  - apply IH; assumption.
Qed.

(** Everything about a built project. *)
Record project_ok (fuel : nat) (main : str) (pr : project) : Prop := {
  po_program : program main (pr_heads pr);
  po_lengths : List.length (pr_mods pr) = List.length (pr_heads pr)
               /\ List.length (pr_cmods pr) = List.length (pr_heads pr);
  po_parsed : forall i h m cm, unit_at pr i h m cm -> parsed fuel (pr_heads pr) h m;
  po_translated : forall i h m cm, unit_at pr i h m cm -> translate m (unit_params pr i h) = TrOk cm }.

Lemma project_built : forall fuel main pr, parse_project w fuel main = BOk pr -> project_ok fuel main pr.
Proof.
  intros fuel main pr H. rewrite parse_project_front in H.
  destruct (front fuel main) as [[heads mods] | | |] eqn:Ef; try discriminate. cbn [bbind] in H.
  destruct (translate_mods mods heads [] (combine mods heads)) as [cms | | |] eqn:Et; try discriminate.
  cbn [bbind] in H. inversion H; subst. clear H.
  destruct (front_ok _ _ _ _ Ef) as [Hp Hm]. pose proof (Forall2_length _ _ _ _ _ Hm) as Hl.
  destruct (translate_mods_ok _ _ _ _ _ Et) as (new & -> & Hlen & Hn). cbn [app] in *.
  rewrite combine_length, Hl, Nat.min_id in Hlen.
  constructor; cbn [pr_heads pr_mods pr_cmods].
  - exact Hp.
  - lia.
  - intros i h m cm (H1 & H2 & H3). cbn [pr_heads pr_mods pr_cmods] in *.
    eapply Forall2_nth; eauto.
  - intros i h m cm (H1 & H2 & H3). cbn [pr_heads pr_mods pr_cmods] in *.
    destruct (Hn i m h) as (cm' & H4 & H5); [apply combine_nth_error; assumption |].
    rewrite H3 in H4. inversion H4; subst. exact H5.
Qed.

(** The units of a project exist together. *)
Lemma unit_exists : forall fuel main pr i, project_ok fuel main pr -> i < List.length (pr_heads pr) ->
  exists h m cm, unit_at pr i h m cm.
Proof.
  intros fuel main pr i [_ [L1 L2] _ _] Hi. unfold unit_at.
  destruct (nth_error (pr_heads pr) i) as [h |] eqn:E1; [| apply nth_error_None in E1; lia].
  destruct (nth_error (pr_mods pr) i) as [m |] eqn:E2; [| apply nth_error_None in E2; lia].
  destruct (nth_error (pr_cmods pr) i) as [cm |] eqn:E3; [| apply nth_error_None in E3; lia].
  exists h, m, cm. auto.
Qed.

(** Looking a path up among the headers. *)
Lemma position_nth : forall A (f : A -> bool) l i, position f l = Some i ->
  exists a, nth_error l i = Some a /\ f a = true.
Proof.
  intros A f. induction l as [| a l IH]; intros i H; cbn [position] in H; [discriminate |].
  destruct (f a) eqn:E.
  - inversion H. exists a. split; [reflexivity | exact E].
  - destruct (position f l) as [j |]; [| discriminate]. inversion H. apply IH. reflexivity.
Qed.
Lemma position_some : forall A (f : A -> bool) l i a, nth_error l i = Some a -> f a = true ->
  exists j, position f l = Some j.
Proof.
  intros A f. induction l as [| b l IH]; intros [| i] a H1 H2; cbn in *; try discriminate.
  - inversion H1; subst. rewrite H2. eexists. reflexivity.
  - destruct (f b); [eexists; reflexivity |]. destruct (IH i a H1 H2) as [j ->]. eexists. reflexivity.
Qed.
Lemma position_path : forall heads i h, NoDup (map mi_filepath heads) -> nth_error heads i = Some h ->
  position (fun x => str_eqb (mi_filepath x) (mi_filepath h)) heads = Some i.
Proof.
  intros heads i h Hn Hi. destruct (position_some _ (fun x => str_eqb (mi_filepath x) (mi_filepath h)) _ _ _ Hi (str_eqb_refl _)) as [j Hj].
  rewrite Hj. destruct (position_nth _ _ _ _ Hj) as (h' & Hj' & E). apply str_eqb_eq in E.
  f_equal. apply (proj1 (NoDup_nth_error (map mi_filepath heads)) Hn).
  - rewrite map_length. apply nth_error_Some. congruence.
  - rewrite (map_nth_error _ _ _ Hj'), (map_nth_error _ _ _ Hi). congruence.
Qed.

(** During translation every import is found among the modules already done. *)
Lemma import_found : forall main heads i h r, program main heads -> nth_error heads i = Some h ->
  In r (mi_imports h) ->
  exists j h', j < i /\ nth_error heads j = Some h' /\ mi_filepath h' = r_path r
    /\ position (fun x => str_eqb (mi_filepath x) (r_path r)) heads = Some j.
Proof.
  intros main heads i h r Hp Hi Hr. destruct (pg_order _ _ Hp i h r Hi Hr) as (j & h' & Hlt & Hj & E).
  exists j, h'. repeat split; auto. rewrite <- E. apply position_path; [apply (pg_nodup _ _ Hp) | exact Hj].
Qed.

Lemma synopses_found : forall main heads i h done env imps, program main heads -> nth_error heads i = Some h ->
  en_heads env = heads -> en_cmods env = done -> List.length done = i -> incl imps (mi_imports h) ->
  exists l, import_synopses env imps = TrOk l.
Proof.
  intros main heads i h done env imps Hp Hi E1 E2 Hl. induction imps as [| r imps IH]; intros Hin;
    cbn [import_synopses]; [eexists; reflexivity |].
  destruct (import_found main heads i h r Hp Hi (Hin r (or_introl eq_refl))) as (j & h' & Hlt & Hj & _ & Hpos).
  rewrite E1, Hpos, E2. destruct (nth_error done j) as [cm |] eqn:Ec; [| apply nth_error_None in Ec; lia].
  destruct IH as [l ->]; [intros x Hx; apply Hin; right; exact Hx |]. eexists. reflexivity.
Qed.

End Project.
