(** What the names of the source stand for in the generated files: C72. *)
From Verif Require Import Base BaseFacts Buf Lexer Nodes NodeInd Types Cspec Resolve Cursor Preparser Parser CAst FormatC Translator Build
  SpecLex LexFacts SpecGrammar TextFacts GapFacts ExportFacts.
From Verif Require Import SpecDecl SpecScope SpecExports SpecModule SpecTarget TargetFacts TargetProps SpecTyping ElabFacts SpecTame SpecCStmt CStmtFacts SpecClosed SpecTidy SpecNeat SpecLink ClosedFacts ClosedModule
  SpecBuild BuildFacts ProjectFacts BuildProps PathFacts ScopeFacts AcceptFacts ClosedProject ClosedOwn ClosedFile LinkFacts CompleteFacts SpecMeaning MeaningFacts SpecC SpecExec SpecRun WholeExec.

Lemma position_only : forall A (f : A -> bool) l j a, nth_error l j = Some a -> f a = true -> (forall k b, nth_error l k = Some b -> f b = true -> k = j) -> position f l = Some j.
Proof.
  intros A f. induction l as [| x l IH]; intros j a N F U; [destruct j; discriminate |]. cbn [position]. destruct (f x) eqn:Fx.
  - now rewrite <- (U 0 x eq_refl Fx).
  - destruct j as [| j]; [cbn in N; congruence |]. cbn in N. rewrite (IH j a N F); [reflexivity |].
    intros k b Nb Fb. specialize (U (S k) b Nb Fb). now injection U.
Qed.

Lemma not_static : forall n r, starts_with n (L "static") = false -> starts_with (n ++ 32%N :: r) (L "static ") = false.
Proof.
  intros n r H. destruct (starts_with (n ++ _) _) eqn:E; [| reflexivity]. exfalso.
  apply starts_with_spec in E as (q & E). change (L "static " ++ q) with (115 :: 116 :: 97 :: 116 :: 105 :: 99 :: 32 :: q)%N in E.
  do 6 (destruct n as [| ? n]; [discriminate E |]). cbn [app] in E. injection E as -> -> -> -> -> -> _.
  assert (X : starts_with (L "static" ++ n) (L "static") = true) by (apply starts_with_spec; eauto). change (L "static" ++ n) with (115 :: 116 :: 97 :: 116 :: 105 :: 99 :: n)%N in X. exact (Bool.diff_true_false (eq_trans (eq_sym X) H)).
Qed.

(** The subject of a switch is one of its expressions. *)
Definition of_subject (P : expr -> Prop) (s : stmt) : Prop := match s with SSwitch _ v _ _ => each_expr P v | _ => True end.
Lemma each_subject : forall P Q s, each_stmt P Q s -> each_stmt P (fun s => Q s /\ of_subject P s) s.
Proof.
  intros P Q. assert (Bd : forall b, Forall (fun s => each_stmt P Q s -> each_stmt P (fun s => Q s /\ of_subject P s) s) b -> all (each_stmt P Q) b -> all (each_stmt P (fun s => Q s /\ of_subject P s)) b).
  { intros b F E. rewrite Forall_forall in F. rewrite all_in in *. auto. }
  assert (Od : forall b, opt_all (fun s => each_stmt P Q s -> each_stmt P (fun s => Q s /\ of_subject P s) s) b -> all_opt (all (each_stmt P Q)) b -> all_opt (all (each_stmt P (fun s => Q s /\ of_subject P s))) b).
  { intros [b |] F E; [exact (Bd b F E) | exact I]. }
  induction s as [| | v | c b e IHb IHe | x c a b IHb | c b IHb | e | is v cs d IHc IHd | e] using stmt_ind'; intros [E0 E]; split; try (split; [exact E0 |]); cbn [of_subject]; try exact I; try exact E.
  - destruct E as (E1 & E2 & E3). auto.
  - destruct E as (E1 & E2 & E3 & E4). auto.
  - destruct E as (E1 & E2). auto.
  - apply E.
  - destruct E as (E1 & E2 & E3). split; [exact E1 |]. split; [| auto]. rewrite Forall_forall in IHc. rewrite all_in in *. intros c Ic. apply Bd; auto.
Qed.

Section Project.
Context {U : Unicode} (w : Resolve.world) (fuel : nat) (main : str) (pr : project).
Hypothesis B : parse_project w fuel main = BOk pr.
Hypothesis words : forall i h m cm, unit_at pr i h m cm -> forall c, In c (mi_uniqid h) -> word_char c = true.
Hypothesis exports : forall i h m cm, unit_at pr i h m cm -> distinct_exports (mi_uniqid h) (mod_elements m).
Hypothesis directives : forall i h m cm i' h' m' cm', unit_at pr i h m cm -> unit_at pr i' h' m' cm' -> same_directives (mod_elements m) (mod_elements m').
Hypothesis tells : forall i h m cm, unit_at pr i h m cm -> telling (mod_elements m).
Hypothesis told : forall i h m cm i' h' m' cm', unit_at pr i h m cm -> unit_at pr i' h' m' cm' -> told_apart (mi_uniqid h') (mod_elements m) (mod_elements m').
Variable system : cuse -> Prop.
Hypothesis Tidy : forall i h m cm, unit_at pr i h m cm -> tidy (site_of m (unit_params pr i h)) system.
Hypothesis Neat : forall i h m cm, unit_at pr i h m cm -> neat (site_of m (unit_params pr i h)) system.
Hypothesis Clear : clear pr system.
Hypothesis Discreet : discreet pr system.
Notation Si i h m := (site_of m (unit_params pr i h)).
Notation Gi m := (module_decls is_numeric (mod_elements m)).
Notation source_of := (source_of pr).
Definition the_files : list (list celem) := map cm_elements (pr_cmods pr).
Notation files := the_files.
Notation heads := (pr_heads pr).
Notation mods := (pr_mods pr).
Notation no_macro := (no_macro pr).

Lemma file_at : forall i h m cm, unit_at pr i h m cm -> file files i = cm_elements cm.
Proof. intros i h m cm (_ & _ & H). unfold file, the_files. apply nth_error_nth. rewrite nth_error_map, H. reflexivity. Qed.
Lemma elems_at : forall i h m cm, unit_at pr i h m cm -> elems_of mods i = mod_elements m.
Proof. intros i h m cm (_ & H & _). unfold elems_of. now rewrite H. Qed.
Lemma id_at : forall i h m cm, unit_at pr i h m cm -> id_of heads i = mi_uniqid h.
Proof. intros i h m cm (H & _). unfold id_of. now rewrite H. Qed.
Lemma import_place : forall i h m cm q h' m', unit_at pr i h m cm -> import (Si i h m) q = Some (h', m') ->
  exists j cm', import_index heads i q = Some j /\ j < i /\ unit_at pr j h' m' cm'.
Proof.
  intros i h m cm q h' m' H1 Hi. pose proof (project_built w _ _ _ B) as Hb.
  destruct Hb as [Hp [L1 L2] _ _]. unfold site_of, imported, unit_params in Hi. cbn [import tp_mod tp_heads tp_mods] in Hi.
  unfold import_index. rewrite (proj1 H1).
  destruct (find _ (mi_imports h)) as [r |] eqn:Ef; [| discriminate].
  apply find_some in Ef. destruct Ef as [Hr _].
  rewrite (find_combine _ _ (fun x => str_eqb (mi_filepath x) (r_path r))) in Hi.
  destruct (import_found w main (pr_heads pr) i h r Hp (proj1 H1) Hr) as (j & h2 & Hlt & Hj & Ep & Hpos).
  rewrite Hpos, Hj in Hi. destruct (nth_error (pr_mods pr) j) as [m2 |] eqn:Em; [| discriminate].
  inversion Hi; subst. assert (Hjl : j < List.length (pr_heads pr)) by (apply nth_error_Some; congruence).
  destruct (nth_error (pr_cmods pr) j) as [cm' |] eqn:Ec; [| apply nth_error_None in Ec; lia].
  exists j, cm'. split; [exact Hpos |]. split; [exact Hlt |]. repeat split; assumption.
Qed.

(** ** Macros *)
Lemma macro_item_in : forall i h m cm x, unit_at pr i h m cm -> macro_in (file files i) x = true ->
  exists e, In e (cm_elements cm) /\ is_macro e /\ In (IUse (UName x)) (introduces e).
Proof.
  intros i h m cm x Hu H. rewrite (file_at _ _ _ _ Hu) in H. unfold macro_in in H. apply existsb_exists in H as (e & Ie & H). destruct e as [| n v | | | | | | |]; try discriminate.
  apply andb_true_iff in H as [H1 H2]. exists (XMacro n v). split; [exact Ie |]. split; [do 2 eexists; reflexivity |]. cbn [introduces]. rewrite H1. apply macro_item. now apply str_in_spec.
Qed.
Lemma macro_named : forall i h m cm x, unit_at pr i h m cm -> macro_in (file files i) x = true -> In x (map lit added) \/ exists a, macro_of pr a x.
Proof.
  intros i h m cm x Hu H. destruct (macro_item_in _ _ _ _ _ Hu H) as (e & Ie & M & I).
  destruct (comes_from w fuel main pr B tells _ _ _ _ _ _ Hu Ie I) as [hd -> | A _ | a _ Ma _ | Ne T]; cbn [item_name] in *; eauto.
  - destruct M as (? & ? & M). discriminate.
  - contradiction.
Qed.
Lemma plain_not_macro : forall i h m cm x, unit_at pr i h m cm -> no_macro x -> macro_in (file files i) x = false.
Proof.
  intros i h m cm x Hu [N1 N2]. destruct (macro_in _ x) eqn:E; [| reflexivity]. destruct (macro_named _ _ _ _ _ Hu E) as [A | (a & A)]; [contradiction | destruct (N2 _ A)].
Qed.
Lemma taken_not_macro : forall i h m cm x, unit_at pr i h m cm -> taken pr x -> macro_in (file files i) x = false.
Proof.
  intros i h m cm x Hu T. apply (plain_not_macro _ _ _ _ _ Hu). split; [exact (clear_added _ _ Clear _ T) |]. intros a M. exact (proj1 (clear_macro _ _ Clear _ _ M) T).
Qed.
Lemma idle_not_macro : forall i h m cm x, unit_at pr i h m cm -> idle pr (IUse (UName x)) -> macro_in (file files i) x = false.
Proof.
  intros i h m cm x Hu Id. destruct (macro_in _ x) eqn:E; [| reflexivity]. destruct (macro_item_in _ _ _ _ _ Hu E) as (e & Ie & (n & v & M) & I).
  destruct (Id _ _ _ _ _ Hu Ie I) as (hd & ->). discriminate.
Qed.
Lemma idle_type_not_macro : forall i h m cm x, unit_at pr i h m cm -> idle pr (IUse (UType x)) -> macro_in (file files i) x = false.
Proof.
  intros i h m cm x Hu Id. destruct (macro_in _ x) eqn:E; [| reflexivity]. destruct (macro_item_in _ _ _ _ _ Hu E) as (e & Ie & M & I).
  assert (I' : In (IUse (UType x)) (introduces e)).
  { destruct M as (n & v & ->). cbn [introduces] in *. destruct (str_eqb _ _); [| destruct I]. apply macro_item. apply macro_item in I. exact I. }
  destruct M as (n & v & ->). destruct (Id _ _ _ _ _ Hu Ie I') as (hd & ?). discriminate.
Qed.

(** ** Names of C files *)
Lemma function_names : forall e hd, function_head e = Some hd -> ordinary e = [cf_name (snd (fst hd))].
Proof. intros [] hd E; try discriminate; injection E as <-; reflexivity. Qed.
Lemma declares_named : forall s x e, declares_function s x e = true -> In x (ordinary e) /\ exists hd, function_head e = Some hd /\ fst (fst (fst hd)) = s.
Proof.
  intros s x e H. unfold declares_function in H. destruct (function_head e) as [[[[s' t] f] p] |] eqn:E; [| discriminate].
  apply andb_true_iff in H as [H1 H2]. apply Bool.eqb_prop in H1. apply str_eqb_eq in H2. rewrite (function_names _ _ E). cbn. split; [now left | eauto].
Qed.
Lemma variable_named : forall x e, declares_variable x e = true -> In x (ordinary e) /\ exists v, e = XVar v.
Proof. intros x e H. destruct e; try discriminate. cbn in *. apply str_eqb_eq in H. split; [now left | eauto]. Qed.
Lemma ordinary_introduced : forall e x, In x (ordinary e) -> In (IUse (UName x)) (introduces e) \/ exists t, e = XTypedef t.
Proof.
  intros e x I. destruct e; try (now destruct I); eauto; left; cbn [introduces]; rewrite in_app_iff; left; apply in_map; cbn [declared ordinary] in *;
    try (destruct I as [<- | []]; now left). apply in_map_iff in I as (p & <- & I). apply in_map_iff. exists p. auto.
Qed.
(** No function or variable of the file has the name. *)
Definition quiet (l : list celem) (x : str) : Prop := forall e, In e l -> In x (ordinary e) -> function_head e = None /\ forall v, e <> XVar v.
Lemma quiet_outer : forall i h m cm x (P : Type), unit_at pr i h m cm -> quiet (cm_elements cm) x -> outer_thing files i x = @TKnown P i (UName x).
Proof.
  intros i h m cm x P Hu Q. unfold outer_thing. rewrite (file_at _ _ _ _ Hu).
  assert (F : forall s, existsb (declares_function s x) (cm_elements cm) = false).
  { intros s. destruct (existsb _ _) eqn:E; [| reflexivity]. apply existsb_exists in E as (e & Ie & E). destruct (declares_named _ _ _ E) as (Oe & hd & He & _).
    destruct (Q _ Ie Oe) as [Q1 _]. congruence. }
  rewrite !F. destruct (existsb _ _) eqn:E; [| reflexivity]. apply existsb_exists in E as (e & Ie & E). destruct (variable_named _ _ E) as (Oe & v & ->).
  destruct (Q _ Ie Oe) as [_ Q2]. destruct (Q2 v eq_refl).
Qed.
Lemma idle_quiet : forall i h m cm x, unit_at pr i h m cm -> idle pr (IUse (UName x)) -> quiet (cm_elements cm) x.
Proof.
  intros i h m cm x Hu Id e Ie Oe. destruct (ordinary_introduced _ _ Oe) as [I | (t & ->)]; [| split; [reflexivity | discriminate]].
  destruct (Id _ _ _ _ _ Hu Ie I) as (hd & ->). destruct Oe.
Qed.
(** What the file has for a name that one of its elements declares. *)
Lemma only_one : forall i h m cm x y e, unit_at pr i h m cm -> In y (cm_elements cm) -> In x (ordinary y) -> In e (cm_elements cm) -> In x (ordinary e) -> e = y \/ same_function y e.
Proof.
  intros i h m cm x y e Hu Iy Oy Ie Oe. destruct (file_once w fuel main pr B tells told _ _ _ _ Hu) as (_ & P & _). apply pairs_at in P.
  destruct (pairs_or _ _ compatible_sym _ _ _ P Ie Iy) as [-> | Q]; [now left | right].
  destruct (proj1 Q _ Oe Oy) as [(hd & H1 & H2) _]. exists hd. auto.
Qed.
Lemma other_quiet : forall i h m cm x y, unit_at pr i h m cm -> In y (cm_elements cm) -> In x (ordinary y) -> function_head y = None -> (forall v, y <> XVar v) -> quiet (cm_elements cm) x.
Proof.
  intros i h m cm x y Hu Iy Oy F V e Ie Oe. destruct (only_one _ _ _ _ _ _ _ Hu Iy Oy Ie Oe) as [-> | (hd & H & _)]; [auto | congruence].
Qed.
Lemma variable_outer : forall i h m cm x v (P : Type), unit_at pr i h m cm -> In (XVar v) (cm_elements cm) -> cf_name (cv_form v) = x -> outer_thing files i x = @TVariable P i x.
Proof.
  intros i h m cm x v P Hu Iv Nv. unfold outer_thing. rewrite (file_at _ _ _ _ Hu).
  assert (Ov : In x (ordinary (XVar v))) by (left; exact Nv).
  assert (F : forall s, existsb (declares_function s x) (cm_elements cm) = false).
  { intros s. destruct (existsb _ _) eqn:E; [| reflexivity]. apply existsb_exists in E as (e & Ie & E). destruct (declares_named _ _ _ E) as (Oe & hd & He & _).
    destruct (only_one _ _ _ _ _ _ _ Hu Iv Ov Ie Oe) as [-> | (hd' & H & _)]; discriminate. }
  rewrite !F. destruct (existsb _ _) eqn:E; [reflexivity |]. exfalso. rewrite (proj2 (existsb_exists _ _)) in E; [discriminate |]. exists (XVar v). split; [exact Iv |]. cbn. rewrite Nv. apply str_eqb_refl.
Qed.
Lemma function_outer : forall i h m cm x y s t f p (P : Type), unit_at pr i h m cm -> In y (cm_elements cm) -> function_head y = Some (s, t, f, p) -> cf_name f = x ->
  outer_thing files i x = if s then @TFunction P i x else match position (exports_function x) files with Some j => TFunction j x | None => TKnown i (UName x) end.
Proof.
  intros i h m cm x y s t f p P Hu Iy Hy Nx. unfold outer_thing. rewrite (file_at _ _ _ _ Hu).
  assert (Oy : In x (ordinary y)) by (rewrite (function_names _ _ Hy); left; exact Nx).
  assert (Yes : existsb (declares_function s x) (cm_elements cm) = true).
  { apply existsb_exists. exists y. split; [exact Iy |]. unfold declares_function. rewrite Hy, Nx, str_eqb_refl, Bool.eqb_reflx. reflexivity. }
  assert (No : existsb (declares_function (negb s) x) (cm_elements cm) = false).
  { clear Yes. destruct (existsb _ _) eqn:E; [| reflexivity]. apply existsb_exists in E as (e & Ie & E). destruct (declares_named _ _ _ E) as (Oe & hd & He & Sd).
    assert (Q : fst (fst (fst hd)) = s).
    { destruct (only_one _ _ _ _ _ _ _ Hu Iy Oy Ie Oe) as [-> | (hd' & H & H')]; [rewrite Hy in He; injection He as <-; reflexivity |].
      rewrite H in Hy. injection Hy as ->. rewrite H' in He. injection He as <-. reflexivity. }
    rewrite Sd in Q. destruct s; discriminate. }
  destruct s; cbn [negb] in No; rewrite ?Yes, ?No; reflexivity.
Qed.
(** The file that defines an exported function. *)
Lemma format_not_static : forall i h m cm t r, unit_at pr i h m cm -> starts_with (ns_name (tn_name t)) (L "static") = false ->
  starts_with (format_type (c_type (Si i h m) t) ++ L " " ++ r) (L "static ") = false.
Proof.
  intros i h m cm t r Hu N. unfold format_type, c_type. cbn [ctn_const ctn_name]. destruct (tn_const t); [reflexivity |]. cbn [app].
  change (L " " ++ r) with (32%N :: r).
  assert (Gl : forall j h' m' cm', unit_at pr j h' m' cm' -> starts_with (global_name (mi_uniqid h') (ns_name (tn_name t)) ++ 32%N :: r) (L "static ") = false).
  { intros j h' m' cm' Hj. destruct (global_start w fuel main pr B _ _ _ _ (ns_name (tn_name t)) Hj) as (q & ->). reflexivity. }
  destruct (str_eqb _ (L "OS")); [now apply not_static |]. destruct (str_eqb _ []).
  - destruct (is_pub_type _ _); [exact (Gl _ _ _ _ Hu) | now apply not_static].
  - unfold import_id. destruct (import _ _) as [[h' m'] |] eqn:I; [| reflexivity].
    destruct (import_unit w _ _ _ _ _ _ _ _ _ _ B Hu I) as (j & cm' & _ & Hj). exact (Gl _ _ _ _ Hj).
Qed.
Lemma exported_at : forall j h m cm f, unit_at pr j h m cm -> In (MFunc f) (mod_elements m) -> fd_pub f = true ->
  position (exports_function (global_name (mi_uniqid h) (f_name (fd_form f)))) files = Some j.
Proof.
  intros j h m cm f Hu If P. destruct (proj2 (proj2 (exports _ _ _ _ Hu)) f If P) as [Nm Np].
  pose proof (unit_translated w _ _ _ B _ _ _ _ Hu) as Ht.
  assert (Ef : exports_function (global_name (mi_uniqid h) (f_name (fd_form f))) (cm_elements cm) = true).
  { unfold exports_function. apply existsb_exists. exists (XFunc (c_function (Si j h m) is_numeric f)). split; [exact (function_in m _ cm f Ht If) |].
    rewrite (pub_head m _ cm f Ht If P Nm Np). cbn [tp_mod unit_params]. rewrite str_eqb_refl, andb_true_r.
    destruct (function_text m _ cm f Ht If) as (_ & _ & st & Lk & E & _). destruct (starts_with _ _) eqn:Sw; [| reflexivity]. exfalso.
    assert (st = []) as -> by (destruct Lk as [[-> _] | (_ & Lk & _)]; [reflexivity | congruence]). rewrite E in Sw. cbn [app cfd_type c_function] in Sw.
    rewrite (format_not_static _ _ _ _ _ _ Hu) in Sw; [discriminate |]. exact (discreet_static _ _ Discreet _ _ _ _ _ Hu If). }
  apply (position_only _ _ _ j (cm_elements cm)).
  - unfold the_files. rewrite nth_error_map, (proj2 (proj2 Hu)). reflexivity.
  - exact Ef.
  - intros k b Nb Fb. unfold the_files in Nb. rewrite nth_error_map in Nb. destruct (nth_error (pr_cmods pr) k) as [ck |] eqn:Ck; [| discriminate]. injection Nb as <-.
    assert (Hk : exists hk mk, unit_at pr k hk mk ck).
    { assert (Lk : k < List.length (pr_heads pr)). { pose proof (project_built w _ _ _ B) as [_ [L1 L2] _ _]. assert (k < List.length (pr_cmods pr)) by (apply nth_error_Some; congruence). lia. }
      destruct (unit_exists w fuel main pr k (project_built w _ _ _ B) Lk) as (hk & mk & ck' & Hk). destruct Hk as (K1 & K2 & K3). exists hk, mk. split; [exact K1 |]. split; [exact K2 | congruence]. }
    destruct Hk as (hk & mk & Hk). unfold exports_function in Fb. apply existsb_exists in Fb as (e & Ie & Fb). destruct e as [| | | | | | | | d]; try discriminate.
    apply andb_true_iff in Fb as [F1 F2]. apply negb_true_iff in F1. apply str_eqb_eq in F2.
    destruct (definition_of w fuel main pr B _ _ _ _ _ Hk Ie F1) as (g & Ig & -> & Pg).
    destruct (elem_names _ _ _ (unit_translated w _ _ _ B _ _ _ _ Hk) (tells _ _ _ _ Hk) (MFunc g) (XFunc (c_function (Si k hk mk) is_numeric g)) _ Ig (or_introl eq_refl) (or_introl eq_refl)) as (b & y & O & Ey).
    rewrite F2 in Ey. assert (Of : of_elem (MFunc f) true (f_name (fd_form f))).
    { right. cbn [value_of_elem]. rewrite P. destruct (str_eqb_spec (f_name (fd_form f)) (L "main")); [contradiction | split; reflexivity]. }
    destruct (c_names_differ w fuel main pr B told _ _ _ _ _ _ _ _ _ _ _ _ _ _ Hu Hk If Ig Of O Ey) as (<- & <- & Kk). symmetry. now apply Kk.
Qed.

(** ** Modules *)
Lemma one_elem : forall i h m cm e e' x, unit_at pr i h m cm -> In e (mod_elements m) -> In e' (mod_elements m) ->
  In x (map d_name (elem_decls is_numeric e)) -> In x (map d_name (elem_decls is_numeric e')) -> e = e'.
Proof.
  intros i h m cm e e' x Hu Ie Ie' X X'. pose proof (values_once m _ cm (unit_translated w _ _ _ B _ _ _ _ Hu)) as N.
  assert (Q : forall l, NoDup (map d_name (flat_map (elem_decls is_numeric) l)) -> In e l -> In e' l -> e = e').
  { induction l as [| a l IH]; intros Nd I I'; [destruct I |]. cbn [flat_map] in Nd. rewrite map_app in Nd.
    assert (Dj : forall b, In b l -> In x (map d_name (elem_decls is_numeric a)) -> In x (map d_name (elem_decls is_numeric b)) -> False).
    { intros b Ib Xa Xb. destruct (proj1 (nodup_app _ _ _) Nd) as (_ & _ & D). apply (D x Xa). apply in_map_iff in Xb as (d & <- & Xb). apply in_map. apply in_flat_map. eauto. }
    destruct I as [<- | I], I' as [<- | I']; [reflexivity | | |].
    - destruct (Dj _ I' X X').
    - destruct (Dj _ I X' X).
    - apply IH; auto. now apply nodup_app in Nd as (_ & Nd & _). }
  exact (Q _ N Ie Ie').
Qed.
Lemma decl_name_value : forall e b x, value_of_elem e b x -> In x (map d_name (elem_decls is_numeric e)).
Proof.
  intros e b x V. destruct e as [| d | | | | v | f]; cbn [value_of_elem elem_decls] in *; try contradiction; destruct V as [_ V].
  - rewrite map_map. exact V.
  - left. exact V.
  - left. exact V.
Qed.
Lemma thing_function : forall i h m cm f (P : Type), unit_at pr i h m cm -> In (MFunc f) (mod_elements m) ->
  module_thing heads mods i (f_name (fd_form f)) = @TFunction P i (function_label heads i f).
Proof.
  intros i h m cm f P Hu If. unfold module_thing. rewrite (elems_at _ _ _ _ Hu). destruct (find _ _) as [g |] eqn:E.
  - apply find_some in E as [E1 E2]. apply str_eqb_eq in E2. unfold source_functions in E1. apply in_flat_map in E1 as (e & Ie & E1). destruct e; try (now destruct E1). destruct E1 as [-> | []].
    assert (Q : MFunc g = MFunc f) by (apply (one_elem _ _ _ _ _ _ (f_name (fd_form f)) Hu Ie If); left; auto). now injection Q as ->.
  - exfalso. assert (J : In f (source_functions (mod_elements m))) by (unfold source_functions; apply in_flat_map; exists (MFunc f); split; [exact If | now left]).
    pose proof (find_none _ _ E f J) as Q. cbv beta in Q. rewrite str_eqb_refl in Q. discriminate.
Qed.
Lemma thing_other : forall i h m cm e x (P : Type), unit_at pr i h m cm -> In e (mod_elements m) -> In x (map d_name (elem_decls is_numeric e)) ->
  match e with
  | MMacro _ => module_thing heads mods i x = @TKnown P i (UName x)
  | MEnum d => module_thing heads mods i x = @TKnown P i (UName (if enum_pub d then global_name (mi_uniqid h) x else x))
  | MVar _ => module_thing heads mods i x = @TVariable P i x
  | _ => True
  end.
Proof.
  intros i h m cm e x P Hu Ie Xe.
  assert (F : (forall f, e <> MFunc f) -> find (fun f => str_eqb (f_name (fd_form f)) x) (source_functions (mod_elements m)) = None).
  { intros N. destruct (find _ _) as [g |] eqn:E; [| reflexivity]. exfalso. apply find_some in E as [E1 E2]. apply str_eqb_eq in E2. unfold source_functions in E1.
    apply in_flat_map in E1 as (e' & Ie' & E1). destruct e'; try (now destruct E1). destruct E1 as [-> | []]. apply (N g). apply (one_elem _ _ _ _ _ _ x Hu Ie Ie' Xe). left. exact E2. }
  assert (V : (forall v, e <> MVar v) -> existsb (is_variable x) (mod_elements m) = false).
  { intros N. destruct (existsb _ _) eqn:E; [| reflexivity]. exfalso. apply existsb_exists in E as (e' & Ie' & E). destruct e'; try discriminate. cbn in E. apply str_eqb_eq in E.
    apply (N v). apply (one_elem _ _ _ _ _ _ x Hu Ie Ie' Xe). left. exact E. }
  assert (K : existsb (is_pub_constant x) (mod_elements m) = match e with MEnum d => enum_pub d | _ => false end).
  { destruct (existsb (is_pub_constant x) _) eqn:E.
    - apply existsb_exists in E as (e' & Ie' & E). destruct e' as [| d | | | | |]; try discriminate. cbn [is_pub_constant] in E. apply andb_true_iff in E as [E1 E2].
      apply existsb_exists in E2 as (en & Ien & E2). apply str_eqb_eq in E2. assert (Q : e = MEnum d); [| now rewrite Q].
      apply (one_elem _ _ _ _ _ _ x Hu Ie Ie' Xe). cbn [elem_decls]. rewrite map_map. cbn [d_name]. apply in_map_iff. eauto.
    - destruct e as [| d | | | | |]; try reflexivity. destruct (enum_pub d) eqn:Pd; [| reflexivity]. exfalso. cbn [elem_decls] in Xe. rewrite map_map in Xe. cbn [d_name] in Xe.
      apply in_map_iff in Xe as (en & En & Ien). rewrite (proj2 (existsb_exists _ _)) in E; [discriminate |]. exists (MEnum d). split; [exact Ie |]. cbn [is_pub_constant]. rewrite Pd. cbn [andb].
      apply existsb_exists. exists en. split; [exact Ien |]. rewrite En. apply str_eqb_refl. }
  unfold module_thing. rewrite (elems_at _ _ _ _ Hu), (id_at _ _ _ _ Hu). destruct e as [mc | d | | | | v | f]; try exact I.
  - rewrite F, V, K by discriminate. reflexivity.
  - rewrite F, V, K by discriminate. reflexivity.
  - rewrite F by discriminate. rewrite (proj2 (existsb_exists _ _)); [reflexivity |]. exists (MVar v). split; [exact Ie |]. cbn. destruct Xe as [Xe | []]. apply str_eqb_eq. exact Xe.
Qed.
Lemma thing_none : forall i h m cm x (P : Type), unit_at pr i h m cm -> look x (Gi m) = None -> module_thing heads mods i x = @TKnown P i (UName x).
Proof.
  intros i h m cm x P Hu Lk.
  assert (N : forall e, In e (mod_elements m) -> ~ In x (map d_name (elem_decls is_numeric e))).
  { intros e Ie X. apply in_map_iff in X as (d & Ed & Id). assert (J : In x (map d_name (Gi m))).
    { apply in_map_iff. exists d. split; [exact Ed |]. unfold module_decls. rewrite <- in_rev. apply in_flat_map. eauto. }
    destruct (look_in _ _ J) as (d' & Q). congruence. }
  unfold module_thing. rewrite (elems_at _ _ _ _ Hu). destruct (find _ _) as [g |] eqn:E.
  { exfalso. apply find_some in E as [E1 E2]. apply str_eqb_eq in E2. unfold source_functions in E1. apply in_flat_map in E1 as (e & Ie & E1). destruct e; try (now destruct E1). destruct E1 as [-> | []].
    apply (N _ Ie). left. exact E2. }
  destruct (existsb (is_variable x) _) eqn:E1.
  { exfalso. apply existsb_exists in E1 as (e & Ie & E1). destruct e; try discriminate. cbn in E1. apply str_eqb_eq in E1. apply (N _ Ie). left. exact E1. }
  destruct (existsb (is_pub_constant x) _) eqn:E2; [| reflexivity].
  exfalso. apply existsb_exists in E2 as (e & Ie & E2). destruct e as [| d | | | | |]; try discriminate. cbn [is_pub_constant] in E2. apply andb_true_iff in E2 as [_ E2].
  apply existsb_exists in E2 as (en & Ien & E2). apply str_eqb_eq in E2. apply (N _ Ie). cbn [elem_decls]. rewrite map_map. cbn [d_name]. apply in_map_iff. eauto.
Qed.

(** ** What a module declares and its file has *)
Lemma own_element : forall i h m cm e y, unit_at pr i h m cm -> In e (mod_elements m) -> In y (c_elem (Si i h m) (Gi m) e) -> In y (cm_elements cm).
Proof.
  intros i h m cm e y Hu Ie Iy. destruct (unit_gives w _ _ _ _ _ _ _ B Hu) as (s & parts & inj & Hg & Hf & E).
  apply (file_has w fuel main pr B words tells told _ _ _ _ _ _ _ Hu Hg Hf E). rewrite !in_app_iff. right. right. exact (in_c_elems (Si i h m) is_numeric e _ Ie Iy).
Qed.
Lemma taken_elem : forall i h m cm e b x, unit_at pr i h m cm -> In e (mod_elements m) -> of_elem e b x -> taken pr (c_name (mi_uniqid h) b x).
Proof. intros i h m cm e b x Hu Ie Oe. exists i, h, m, cm, e, b, x. split; [exact Hu |]. split; [exact Ie |]. cbv zeta. split; [exact Oe | now left]. Qed.
Lemma label_at : forall i h m cm f, unit_at pr i h m cm -> function_label heads i f = c_name (mi_uniqid h) (fd_pub f && negb (str_eqb (f_name (fd_form f)) (L "main"))) (f_name (fd_form f)).
Proof. intros i h m cm f Hu. unfold function_label. rewrite (id_at _ _ _ _ Hu). reflexivity. Qed.
(** The name of a function in C. *)
Lemma function_named : forall i h m cm f, unit_at pr i h m cm -> In (MFunc f) (mod_elements m) -> cf_name (cfd_form (c_function (Si i h m) is_numeric f)) = function_label heads i f.
Proof.
  intros i h m cm f Hu If. destruct (elem_names _ _ _ (unit_translated w _ _ _ B _ _ _ _ Hu) (tells _ _ _ _ Hu) (MFunc f) (XFunc (c_function (Si i h m) is_numeric f)) _ If (or_introl eq_refl) (or_introl eq_refl)) as (b & y & O & Ey).
  rewrite Ey, (label_at _ _ _ _ _ Hu). destruct O as [[] | [<- <-]]. reflexivity.
Qed.
(** The C name of a declaration of the module. *)
Definition decl_name (h : modinfo) (d : decl) : str := c_name (mi_uniqid h) (d_pub d) (d_name d).
Lemma own_thing : forall i h m cm d (P : Type), unit_at pr i h m cm -> In d (Gi m) -> d_name d <> L "main" ->
  (macro_in (file files i) (d_name d) = true /\ d_pub d = false /\ module_thing heads mods i (d_name d) = @TKnown P i (UName (d_name d)))
  \/ (exists e, In e (mod_elements m) /\ value_of_elem e (d_pub d) (d_name d)) /\ outer_thing files i (decl_name h d) = module_thing (P := P) heads mods i (d_name d).
Proof.
  intros i h m cm d P Hu Id Nm. unfold module_decls in Id. rewrite <- in_rev in Id. apply in_flat_map in Id as (e & Ie & Id).
  assert (Xd : In (d_name d) (map d_name (elem_decls is_numeric e))) by now apply in_map.
  pose proof (thing_other _ _ _ _ _ _ P Hu Ie Xd) as Th. pose proof (unit_translated w _ _ _ B _ _ _ _ Hu) as Ht.
  destruct e as [mc | en | | | | v | f]; cbn [elem_decls] in Id; try (now destruct Id).
  - left. destruct (str_eqb (m_name mc) (L "define")) eqn:D; [| destruct Id]. apply str_eqb_eq in D. destruct (split_whitespace (trim (m_value mc))) as [| id [| v r]] eqn:Sp; try (now destruct Id). destruct Id as [<- | []].
    cbn [d_name d_pub] in *. split; [| auto]. rewrite (file_at _ _ _ _ Hu). unfold macro_in. apply existsb_exists. exists (XMacro (m_name mc) (m_value mc)). split.
    + apply (own_element _ _ _ _ _ _ Hu Ie). cbn [c_elem]. rewrite D. now left.
    + rewrite D. change (str_eqb (L "define") (L "define")) with true. cbn [andb]. apply str_in_spec. unfold macro_names. rewrite Sp. now left.
  - right. apply in_map_iff in Id as (y & <- & Iy). cbn [d_name d_pub] in *. unfold decl_name. cbn [d_name d_pub]. split.
    + exists (MEnum en). split; [exact Ie |]. cbn. split; [reflexivity | now apply in_map].
    + rewrite Th. change (if enum_pub en then global_name (mi_uniqid h) (en_name y) else en_name y) with (c_name (mi_uniqid h) (enum_pub en) (en_name y)).
      apply (quiet_outer _ _ _ _ _ _ Hu). eapply (other_quiet _ _ _ _ _ _ Hu); [apply (own_element _ _ _ _ _ _ Hu Ie); left; reflexivity | | reflexivity | discriminate].
      cbn [ordinary ced_entries]. rewrite map_map. apply in_map_iff. exists y. auto.
  - right. destruct Id as [<- | []]. cbn [d_name d_pub local] in *. unfold decl_name. cbn [d_name d_pub local c_name]. split.
    + exists (MVar v). split; [exact Ie |]. cbn. auto.
    + rewrite Th. destruct (proj1 (accepted_iff m (unit_params pr i h)) (ex_intro _ cm Ht)) as [Ok _]. unfold ok_elems in Ok. apply (proj1 (all_in _ _ _) Ok) in Ie as Ov. destruct Ov as (_ & _ & x & Vx & _).
      eapply (variable_outer _ _ _ _ _ _ _ Hu); [apply (own_element _ _ _ _ _ _ Hu Ie); cbn [c_elem]; rewrite Vx; left; reflexivity |].
      destruct (elem_names _ _ _ Ht (tells _ _ _ _ Hu) (MVar v) _ _ Ie ltac:(cbn [c_elem]; rewrite Vx; left; reflexivity) ltac:(left; reflexivity)) as (b & y & O & Ey).
      cbn [cv_form c_form cf_name] in *. rewrite Ey. destruct O as [[] | [-> <-]]. reflexivity.
  - right. destruct Id as [<- | []]. cbn [d_name d_pub] in *. unfold decl_name. cbn [d_name d_pub]. destruct (str_eqb_spec (f_name (fd_form f)) (L "main")) as [M | M]; [contradiction |]. rewrite orb_false_r. split.
    + exists (MFunc f). split; [exact Ie |]. cbn [value_of_elem]. destruct (str_eqb_spec (f_name (fd_form f)) (L "main")); [contradiction |]. rewrite andb_true_r. auto.
    + rewrite (thing_function _ _ _ _ _ P Hu Ie), (label_at _ _ _ _ _ Hu). destruct (str_eqb_spec (f_name (fd_form f)) (L "main")); [contradiction |]. cbn [negb]. rewrite andb_true_r.
      set (c := c_name (mi_uniqid h) (fd_pub f) (f_name (fd_form f))).
      assert (Nc : cf_name (cfd_form (c_function (Si i h m) is_numeric f)) = c).
      { rewrite (function_named _ _ _ _ _ Hu Ie), (label_at _ _ _ _ _ Hu). destruct (str_eqb_spec (f_name (fd_form f)) (L "main")); [contradiction |]. cbn [negb]. now rewrite andb_true_r. }
      rewrite (function_outer _ _ _ _ c _ (negb (fd_pub f)) _ _ _ P Hu (function_in m _ cm f Ht Ie) eq_refl Nc).
      destruct (fd_pub f) eqn:Pf; cbn [negb]; [| reflexivity]. unfold c. cbn [c_name]. now rewrite (exported_at _ _ _ _ _ Hu Ie Pf).
Qed.

(** ** What comes from other modules *)
Lemma arrived : forall i h m cm q h' m' j cm' y u, unit_at pr i h m cm -> import (Si i h m) q = Some (h', m') -> unit_at pr j h' m' cm' ->
  In y (cm_elements cm') -> offered y = true -> In u (declared y) -> ~ head_macro y -> In y (cm_elements cm).
Proof.
  intros i h m cm q h' m' j cm' y u Hu Hi Hj Iy Oy Uy Ny. destruct (unit_gives w _ _ _ _ _ _ _ B Hu) as (s & parts & inj & Hg & Hf & E).
  destruct (inj_has w fuel main pr B words exports directives system Tidy Neat _ _ _ _ _ _ _ _ _ _ _ _ _ _ Hu Hg Hf Hi Hj Iy Oy Uy eq_refl Ny) as (z & Iz & K).
  assert (Iz' : In z (cm_elements cm)) by (apply (file_has w fuel main pr B words tells told _ _ _ _ _ _ _ Hu Hg Hf E); rewrite !in_app_iff; right; left; exact Iz).
  assert (Oz : offered z = true) by tauto. assert (Uz : In u (declared z)) by tauto.
  rewrite (offered_alike w fuel main pr B tells told system Clear _ _ _ _ _ _ _ _ z y (IUse u) Hu Hj Iz' Iy Oz Oy (declared_introduced _ _ Uz) (declared_introduced _ _ Uy)). exact Iz'.
Qed.
Lemma known_same : forall H i h m cm j h' m' cm' y u, unit_at pr i h m cm -> unit_at pr j h' m' cm' -> In y (cm_elements cm) -> In y (cm_elements cm') -> offered y = true -> In u (declared y) ->
  same_thing files H (TKnown i u) (TKnown j u).
Proof.
  intros H i h m cm j h' m' cm' y u Hu Hj Iy Iy' Oy Uy. apply Same_known. rewrite (file_at _ _ _ _ Hu), (file_at _ _ _ _ Hj).
  apply (same_meaning w fuel main pr B words exports directives tells told system Tidy Neat Clear _ _ _ _ _ _ _ _ y _ Hu Hj Iy Iy' Oy). rewrite in_app_iff. left. now apply declared_introduced.
Qed.
Lemma nelem_macro : forall i h m cm, unit_at pr i h m cm -> macro_in (file files i) (L "nelem") = true.
Proof.
  intros i h m cm Hu. rewrite (file_at _ _ _ _ Hu). destruct (unit_gives w _ _ _ _ _ _ _ B Hu) as (s & parts & inj & Hg & Hf & E).
  unfold macro_in. apply existsb_exists. exists (XMacro (L "define") (L "nelem(x) (sizeof (x)/sizeof (x)[0])")). split; [| vm_compute; reflexivity].
  apply (file_has w fuel main pr B words tells told _ _ _ _ _ _ _ Hu Hg Hf E). rewrite in_app_iff. left. unfold module_head. rewrite !in_app_iff. right. right. right. now left.
Qed.

(** ** The names in a function *)
Section Names.
Variables (H : host) (i : nat) (h : modinfo) (m : module_) (cm : cmodule) (locals : list str).
Hypothesis Hu : unit_at pr i h m cm.
Hypothesis modest : forall x, In x locals -> no_macro x
  /\ forall j h' m' cm' e y, unit_at pr j h' m' cm' -> In e (mod_elements m') -> of_elem e true y -> x <> global_name (mi_uniqid h') y.
Notation P := (h_place H).
Notation S := (Si i h m).
Notation Gm := (Gi m).
Notation found := (found files H i locals heads mods S Gm).
Notation found_type := (found_type files H i locals heads mods S).
Notation c_thing := (c_thing files i locals).
Lemma outside : forall (r : scope P) x, macro_in (file files i) x = false -> (In x locals -> place_of r x = None) -> c_thing r x = outer_thing files i x.
Proof.
  intros r x M N. unfold SpecRun.c_thing. rewrite M. unfold local_place. destruct (str_in x locals) eqn:E; [| reflexivity]. rewrite N; [reflexivity |]. now apply str_in_spec.
Qed.
Lemma pub_outside : forall (r : scope P) j h' m' cm' e y, unit_at pr j h' m' cm' -> In e (mod_elements m') -> of_elem e true y ->
  c_thing r (global_name (mi_uniqid h') y) = outer_thing files i (global_name (mi_uniqid h') y).
Proof.
  intros r j h' m' cm' e y Hj Ie Oe. apply outside.
  - apply (taken_not_macro _ _ _ _ _ Hu). exact (taken_elem _ _ _ _ _ true _ Hj Ie Oe).
  - intros X. destruct (proj2 (modest _ X) _ _ _ _ _ _ Hj Ie Oe eq_refl).
Qed.
Lemma idle_thing : forall (r : scope P) x, idle pr (IUse (UName x)) -> (In x locals -> place_of r x = None) -> c_thing r x = TKnown i (UName x).
Proof.
  intros r x Id N. rewrite outside; [| exact (idle_not_macro _ _ _ _ _ Hu Id) | exact N]. apply (quiet_outer _ _ _ _ _ _ Hu). exact (idle_quiet _ _ _ _ _ Hu Id).
Qed.
Lemma found_os : forall n, ns_ns n = L "OS" -> idle pr (IUse (UName (ns_name n))) -> ~ In (ns_name n) locals -> found n.
Proof.
  intros n E Id N G r t _ _ _ _. unfold cname, s_thing. rewrite E, str_eqb_refl. rewrite idle_thing; [constructor | exact Id | contradiction].
Qed.
Lemma found_own : forall n, ns_ns n = [] -> ~ In (ns_name n) (map lit (reserved_names ++ library_types)) -> found n.
Proof.
  intros n E R G r t Pr Wi Te T. specialize (Te E).
  assert (T' : exists o, look (ns_name n) (G ++ Gm) = o /\ (o = None -> exists s, find_sym (ns_name n) = Some s)).
  { eexists. split; [reflexivity |]. intros N. destruct T; try congruence; eauto; rewrite E in *; discriminate. }
  destruct T' as (o & Lk & Fs). rewrite (cname_local S _ _ E), Lk. unfold s_thing. rewrite E. change (str_eqb [] (L "OS")) with false. change (str_eqb [] []) with true. cbv iota.
  rewrite ClosedFacts.look_app in Lk. destruct (look (ns_name n) G) as [d |] eqn:Lg.
  - subst o. apply look_is in Lg as Dn. destruct Dn as [Id Dn]. assert (Pl : place_of r (ns_name n) <> None) by (apply Te; rewrite <- Dn; now apply in_map).
    assert (Dp : d_pub d = false) by exact (private_look _ _ _ Pr Lg). rewrite Dp. destruct (place_of r (ns_name n)) as [p |] eqn:Ep; [| congruence].
    assert (Il : In (ns_name n) locals) by (apply Wi; congruence).
    unfold SpecRun.c_thing. rewrite (plain_not_macro _ _ _ _ _ Hu (proj1 (modest _ Il))). unfold local_place. rewrite (proj2 (str_in_spec _ _) Il), Ep. constructor.
  - assert (Pl : place_of r (ns_name n) = None).
    { destruct (place_of r (ns_name n)) eqn:Ep; [| reflexivity]. exfalso. assert (J : In (ns_name n) (map d_name G)) by (apply Te; congruence). destruct (look_in _ _ J) as (d & Q). congruence. }
    rewrite Pl. destruct o as [d |].
    + apply look_is in Lk as [Id Dn]. assert (Nm : d_name d <> L "main") by (rewrite Dn; intros Q; apply R; rewrite Q; left; reflexivity).
      destruct (own_thing _ _ _ _ _ P Hu Id Nm) as [(M & Dp & Th) | ((e & Ie & Oe) & Th)].
      * rewrite Dp, <- Dn, Th. unfold SpecRun.c_thing. rewrite M. constructor.
      * rewrite <- Dn, <- Th. change (if d_pub d then global_name (own_id S) (d_name d) else d_name d) with (decl_name h d). unfold decl_name. destruct (d_pub d); cbn [c_name].
        -- rewrite (pub_outside r _ _ _ _ _ _ Hu Ie (or_intror Oe)). constructor.
        -- rewrite outside; [constructor | | rewrite Dn; auto]. apply (taken_not_macro _ _ _ _ _ Hu). exact (taken_elem _ _ _ _ _ false _ Hu Ie (or_intror Oe)).
    + rewrite (thing_none _ _ _ _ _ P Hu Lk). destruct (Fs eq_refl) as (s & Fs'). destruct (sym_cases _ _ Fs' R) as [Lb | ->].
      * rewrite idle_thing; [constructor | exact (library_idle w fuel main pr B tells system Clear _ Lb) | auto].
      * unfold SpecRun.c_thing. rewrite (nelem_macro _ _ _ _ Hu). constructor.
Qed.
Lemma found_imported : forall n, ns_ns n <> [] -> ns_ns n <> L "OS" -> found n.
Proof.
  intros n E1 E2 G r t Pr Wi _ T.
  assert (T' : exists h' m', import S (ns_ns n) = Some (h', m') /\ (In (ns_name n) (map en_name (ex_consts (mod_exports m'))) \/ exists f, In f (ex_fns (mod_exports m')) /\ f_name (fd_form f) = ns_name n)).
  { destruct T as [| | | h' m' _ _ I X | h' m' b f a _ _ I _ X Y _]; try contradiction; exists h', m'; (split; [exact I |]); [now left | right]. exists f. split; [rewrite X; apply in_elt | exact Y]. }
  destruct T' as (h' & m' & Hi & X). destruct (import_place _ _ _ _ _ _ _ Hu Hi) as (j & cm' & Ij & _ & Hj).
  unfold cname, s_thing. destruct (str_eqb_spec (ns_ns n) (L "OS")); [contradiction |]. destruct (str_eqb_spec (ns_ns n) []); [contradiction |].
  unfold import_id. rewrite Hi, Ij. destruct (po_parsed _ _ _ _ (project_built w _ _ _ B) _ _ _ _ Hj) as (text & _ & Pm). rewrite (parse_module_exports _ _ _ _ Pm), get_exports_spec in X.
  cbn [ex_consts ex_fns] in X. destruct X as [X | (f & X & Nf)].
  - apply in_constants in X as (d & en & Ie & Pe & Ien & En).
    assert (Xd : In (ns_name n) (map d_name (elem_decls is_numeric (MEnum d)))) by (cbn [elem_decls]; rewrite map_map; cbn [d_name]; apply in_map_iff; eauto).
    pose proof (thing_other _ _ _ _ _ _ P Hj Ie Xd) as Th. cbv beta iota in Th. rewrite Pe in Th. rewrite Th.
    assert (Oe : of_elem (MEnum d) true (ns_name n)) by (right; cbn; split; [exact Pe | apply in_map_iff; eauto]).
    rewrite (pub_outside r _ _ _ _ _ _ Hj Ie Oe).
    set (y := XEnum (mkCed (negb (enum_pub d)) (map (fun e => (exported_as (Si j h' m') (enum_pub d) (en_name e), option_map (c_expr (Si j h' m') (Gi m')) (en_val e))) (enum_entries d)))).
    assert (Iy : In y (cm_elements cm')) by (apply (own_element _ _ _ _ _ _ Hj Ie); left; reflexivity).
    assert (Oy : offered y = true) by (cbn; now rewrite Pe).
    assert (Ny : In (global_name (mi_uniqid h') (ns_name n)) (ordinary y)).
    { cbn [y ordinary ced_entries]. rewrite map_map. cbn [fst]. apply in_map_iff. exists en. split; [| exact Ien]. rewrite Pe, En. reflexivity. }
    assert (Uy : In (UName (global_name (mi_uniqid h') (ns_name n))) (declared y)).
    { cbn [y declared ced_entries]. cbn [y ordinary ced_entries] in Ny. rewrite map_map in *. apply in_map_iff in Ny as (e0 & Q & I0). apply in_map_iff. exists e0. split; [now f_equal | exact I0]. }
    assert (Ay : In y (cm_elements cm)) by (apply (arrived _ _ _ _ _ _ _ _ _ _ _ Hu Hi Hj Iy Oy Uy); intros [Q | Q]; discriminate).
    rewrite (quiet_outer _ _ _ _ _ P Hu); [exact (known_same _ _ _ _ _ _ _ _ _ _ _ Hu Hj Ay Iy Oy Uy) |].
    apply (other_quiet _ _ _ _ _ _ Hu Ay Ny); [reflexivity | discriminate].
  - unfold functions_in_order in X. apply in_flat_map in X as (e & Ie & X). destruct e as [| | | | | | f']; try (now destruct X).
    destruct (fd_pub f') eqn:Pf; [| destruct X]. destruct X as [-> | []]. destruct (proj2 (proj2 (exports _ _ _ _ Hj)) f Ie Pf) as [Nm _].
    pose proof (unit_translated w _ _ _ B _ _ _ _ Hj) as Htj. rewrite <- Nf.
    rewrite (thing_function _ _ _ _ _ P Hj Ie). pose proof (label_at _ _ _ _ f Hj) as La. rewrite Pf in La. destruct (str_eqb_spec (f_name (fd_form f)) (L "main")) as [Q | _]; [contradiction |]. cbn [negb andb c_name] in La.
    assert (Oe : of_elem (MFunc f) true (f_name (fd_form f))).
    { right. cbn [value_of_elem]. rewrite Pf. destruct (str_eqb_spec (f_name (fd_form f)) (L "main")); [contradiction | auto]. }
    rewrite (pub_outside r _ _ _ _ _ _ Hj Ie Oe).
    set (y := XForwardFunc (prototype_of (c_function (Si j h' m') is_numeric f))).
    assert (Iy : In y (cm_elements cm')).
    { apply (module_prototypes m' (unit_params pr j h') cm' f Htj); [| exact Nm]. unfold source_functions. apply in_flat_map. exists (MFunc f). split; [exact Ie | now left]. }
    assert (Oy : offered y = true) by (cbn; now rewrite Pf).
    assert (Ny : cf_name (cfw_form (prototype_of (c_function (Si j h' m') is_numeric f))) = global_name (mi_uniqid h') (f_name (fd_form f))) by (rewrite <- La; apply (function_named _ _ _ _ _ Hj Ie)).
    assert (Uy : In (UName (global_name (mi_uniqid h') (f_name (fd_form f)))) (declared y)) by (left; f_equal; exact Ny).
    assert (Ay : In y (cm_elements cm)) by (apply (arrived _ _ _ _ _ _ _ _ _ _ _ Hu Hi Hj Iy Oy Uy); intros [Q | Q]; discriminate).
    rewrite (function_outer _ _ _ _ _ y false _ _ _ P Hu Ay ltac:(cbn; rewrite Pf; reflexivity) Ny), (exported_at _ _ _ _ _ Hj Ie Pf), La. constructor.
Qed.
Lemma found_name : forall n, tidy_name system n -> (ns_ns n = L "OS" -> ~ In (ns_name n) locals) -> found n.
Proof.
  intros n [T1 T2] N. destruct (str_eqb_spec (ns_ns n) (L "OS")) as [E | E]; [apply found_os; auto; exact (system_idle w fuel main pr B tells system Clear _ (T1 E)) |].
  destruct (str_eqb_spec (ns_ns n) []) as [E' | E']; [apply found_own; auto | now apply found_imported].
Qed.

(** ** Types *)
Lemma type_outside : forall (r : scope P) x, ~ In x locals -> c_type_thing files i locals r x = TKnown i (UType x).
Proof.
  intros r x N. unfold c_type_thing, local_place. destruct (macro_in _ x); [reflexivity |]. destruct (str_in x locals) eqn:E; [| reflexivity]. apply str_in_spec in E. contradiction.
Qed.
Lemma found_os_type : forall t, ns_ns (tn_name t) = L "OS" -> ~ In (ns_name (tn_name t)) locals -> found_type t.
Proof.
  intros [b n] E N r _ _. cbn [tn_name] in *. unfold c_rtype, s_rtype, c_type. cbn [tn_name tn_const ctn_const ctn_name]. rewrite E, str_eqb_refl, type_outside by exact N. split; constructor.
Qed.
Lemma one_type : forall j h m cm e e' b b' x, unit_at pr j h m cm -> In e (mod_elements m) -> In e' (mod_elements m) -> type_of_elem e b x -> type_of_elem e' b' x -> e = e'.
Proof.
  intros j h0 m0 cm0 e e' b b' x Hj Ie Ie' Te Te'. destruct (tells _ _ _ _ Hj) as [N _].
  assert (Nm : forall e b, type_of_elem e b x -> In x (type_name e)) by (intros z c T; destruct z; cbn in *; try contradiction; left; apply T).
  apply Nm in Te, Te'. revert N Ie Ie'. generalize (mod_elements m0). induction l as [| a l IH]; intros N I I'; [destruct I |]. cbn [flat_map] in N. apply nodup_app in N as (_ & N & D).
  assert (Dj : forall z, In z l -> In x (type_name a) -> In x (type_name z) -> False) by (intros z Iz Xa Xz; apply (D x Xa); apply in_flat_map; eauto).
  destruct I as [<- | I], I' as [<- | I']; [reflexivity | | | auto]; exfalso; [exact (Dj _ I' Te Te') | exact (Dj _ I Te' Te)].
Qed.
Lemma module_type_is : forall j h m cm e b x (P : Type), unit_at pr j h m cm -> In e (mod_elements m) -> type_of_elem e b x ->
  module_type heads mods j x = @TKnown P j (UType (c_name (mi_uniqid h) b x)).
Proof.
  intros j h0 m0 cm0 e b x P0 Hj Ie Te. unfold module_type. rewrite (elems_at _ _ _ _ Hj), (id_at _ _ _ _ Hj).
  assert (Q : existsb (is_pub_typedef x) (mod_elements m0) = b).
  { destruct (existsb _ _) eqn:E.
    - apply existsb_exists in E as (e' & Ie' & E). assert (Te' : type_of_elem e' true x).
      { destruct e'; cbn [is_pub_typedef] in E; try discriminate; apply andb_true_iff in E as [E1 E2]; apply str_eqb_eq in E2; split; auto. }
      rewrite <- (one_type _ _ _ _ _ _ _ _ _ Hj Ie Ie' Te Te') in Te'. destruct e; cbn in Te, Te'; try contradiction; destruct Te as [<- _], Te' as [-> _]; reflexivity.
    - destruct b; [| reflexivity]. exfalso. assert (F : existsb (is_pub_typedef x) (mod_elements m0) = true); [| congruence]. apply existsb_exists. exists e. split; [exact Ie |].
      destruct e; cbn in Te; try contradiction; destruct Te as [Q1 Q2]; cbn [is_pub_typedef]; rewrite Q1, Q2, str_eqb_refl; reflexivity. }
  rewrite Q. reflexivity.
Qed.

(** ** The function that a module with [calloc!] gets *)
Lemma new_not_macro : macro_in (file files i) new_name = false.
Proof.
  destruct (macro_in _ _) eqn:E; [| reflexivity]. exfalso. rewrite (file_at _ _ _ _ Hu) in E. unfold macro_in in E. apply existsb_exists in E as (e & Ie & E).
  destruct e as [| n v | | | | | | |]; try discriminate. apply andb_true_iff in E as [E1 E2]. apply str_eqb_eq in E1. apply str_in_spec in E2.
  destruct (macro_origin w fuel main pr B _ _ _ _ _ _ Hu Ie) as [[X | X] | (k & h' & m' & cm' & mc & Hk & Ik & N1 & N2)].
  - injection X as _ ->. vm_compute in E2. intuition discriminate.
  - injection X as _ ->. vm_compute in E2. intuition discriminate.
  - assert (M : macro_of pr mc new_name) by (exists k, h', m', cm'; split; [exact Hk |]; split; [exact Ik |]; split; [now rewrite N1 | now rewrite N2]).
    destruct (clear_macro _ _ Clear _ _ M) as (_ & Q & _). apply Q. left. reflexivity.
Qed.
Lemma new_defined : calls_calloc (mod_elements m) -> In (XFunc helper) (cm_elements cm).
Proof.
  intros C. destruct (module_functions m _ cm (unit_translated w _ _ _ B _ _ _ _ Hu)) as [[_ F] | [N _]]; [| contradiction].
  assert (I : In helper (functions (cm_elements cm))) by (rewrite F; now left). unfold functions in I. apply in_flat_map in I as (e & Ie & I). destruct e; try (now destruct I). destruct I as [<- | []]. exact Ie.
Qed.
Lemma new_not_local : ~ In new_name locals.
Proof. intros X. apply (proj1 (proj1 (modest _ X))). left. reflexivity. Qed.
Lemma new_thing : calls_calloc (mod_elements m) -> forall r : scope P, c_thing r new_name = TFunction i new_name.
Proof.
  intros C r. rewrite outside; [| exact new_not_macro | intros X; destruct (new_not_local X)].
  exact (function_outer _ _ _ _ _ _ true _ _ _ P Hu (new_defined C) eq_refl eq_refl).
Qed.
Lemma new_found : forall p, calls_calloc (mod_elements m) -> found_new files H i locals S Gm p.
Proof.
  intros p C G r t Pr Wi _ _. assert (E : cname S (G ++ Gm) (mkNs p [] (L "calloc_or_panic")) = new_name).
  { rewrite cname_local by reflexivity. cbn [ns_name]. destruct (look _ _) as [d |] eqn:Lk; [| reflexivity]. destruct (d_pub d) eqn:Dp; [| reflexivity]. exfalso.
    rewrite ClosedFacts.look_app in Lk. destruct (look _ G) as [d' |] eqn:Lg.
    - injection Lk as ->. rewrite (private_look _ _ _ Pr Lg) in Dp. discriminate.
    - apply look_is in Lk as [Id Dn]. assert (Nm : d_name d <> L "main") by (rewrite Dn; discriminate).
      destruct (own_thing _ _ _ _ _ P Hu Id Nm) as [(_ & Q & _) | ((e & Ie & Oe) & _)]; [congruence |]. rewrite Dn in Oe.
      exact (proj1 (discreet_new _ _ Discreet _ _ _ _ Hu C) e (d_pub d) Ie (or_intror Oe)). }
  rewrite E, (new_thing C). constructor.
Qed.

(** ** What the generated code calls *)
Lemma generated_idle : forall x, In x ["strcmp"; "fprintf"; "stderr"; "exit"; "calloc"]%string -> idle pr (IUse (UName (lit x))).
Proof.
  intros x I. apply (library_idle w fuel main pr B tells system Clear). apply library_sound.
  assert (Q : forallb (fun x => library_b (UName (lit x))) ["strcmp"; "fprintf"; "stderr"; "exit"; "calloc"]%string = true) by (vm_compute; reflexivity).
  rewrite forallb_forall in Q. auto.
Qed.
Lemma generated_thing : forall x, In x ["strcmp"; "fprintf"; "stderr"; "exit"; "calloc"]%string -> ~ In (lit x) locals -> forall r : scope P, c_thing r (lit x) = TKnown i (UName (lit x)).
Proof. intros x I N r. apply idle_thing; [now apply generated_idle | contradiction]. Qed.
Lemma header_of : from_header files i "string" "strcmp".
Proof.
  split.
  - rewrite (file_at _ _ _ _ Hu). apply (includes_same w fuel main pr B _ _ _ _ _ Hu). cbn. tauto.
  - rewrite (file_at _ _ _ _ Hu). intros e Ie X. exact (generated_idle "strcmp" (or_introl eq_refl) _ _ _ _ _ Hu Ie X).
Qed.

(** ** The code of a source function *)
Hypothesis shy : forall x, In x locals -> ~ In x (map lit (["strcmp"; "fprintf"; "stderr"; "exit"] ++ library_types))%string
  /\ ~ system (UName x) /\ ~ system (UType x) /\ forall e b, In e (mod_elements m) -> ~ type_of_elem e b x.
Lemma generated_shy : forall x, In x ["strcmp"; "fprintf"; "stderr"; "exit"]%string -> forall r : scope P, c_thing r (lit x) = TKnown i (UName (lit x)).
Proof.
  intros x I. apply generated_thing; [cbn in *; tauto |]. intros X. apply (proj1 (shy _ X)). apply in_map. rewrite in_app_iff. now left.
Qed.
Lemma found_types : forall t, tidy_type S system t -> found_type t.
Proof.
  intros [b n] (T1 & T2 & T3). cbn [tn_name] in *. destruct (str_eqb_spec (ns_ns n) (L "OS")) as [E | E].
  { apply found_os_type; [exact E |]. cbn [tn_name]. intros X. destruct (shy _ X) as (_ & _ & Q & _). auto. }
  intros r _ K. unfold type_known in K. cbn [tn_name] in K. unfold c_rtype, s_rtype, c_type. cbn [tn_name tn_const ctn_const ctn_name]. split; [reflexivity |]. cbn [snd].
  destruct (str_eqb_spec (ns_ns n) (L "OS")); [contradiction |].
  assert (Own : forall e c, In e (mod_elements m) -> type_of_elem e c (ns_name n) ->
    same_thing files H (c_type_thing files i locals r (c_name (mi_uniqid h) c (ns_name n))) (module_type heads mods i (ns_name n))).
  { intros e c Ie Te. rewrite (module_type_is _ _ _ _ _ _ _ P Hu Ie Te), type_outside; [constructor |]. intros X. destruct c; cbn [c_name] in X.
    - exact (proj2 (modest _ X) _ _ _ _ _ _ Hu Ie (or_introl Te) eq_refl).
    - destruct (shy _ X) as (_ & _ & _ & Q). exact (Q _ _ Ie Te). }
  destruct (str_eqb_spec (ns_ns n) []) as [E' | E'].
  - destruct K as [K | [[_ K] | [K _]]]; [congruence | | congruence]. unfold is_pub_type. unfold type_status in *.
    destruct (has_type (ns_name n)) eqn:HT.
    { rewrite type_outside; [constructor |]. intros X. apply (proj1 (shy _ X)). rewrite map_app, in_app_iff. right. now apply has_type_library. }
    destruct (struct_named _ _) as [s |] eqn:SN.
    { unfold struct_named in SN. apply last_of_in in SN as (e & I & Q0). destruct e; try discriminate. destruct (str_eqb_spec (st_name s0) (ns_name n)) as [Q | Q]; [| discriminate].
      injection Q0 as ->. exact (Own (MStruct s) (st_pub s) I (conj eq_refl Q)). }
    destruct (typedef_named _ _) as [[pub ty] |] eqn:TN.
    { unfold typedef_named in TN. apply last_of_in in TN as (e & I & Q0). destruct e as [| | a | t | | |]; try discriminate.
      - destruct (str_eqb_spec (sa_typename a) (ns_name n)) as [Q | Q]; [| discriminate]. injection Q0 as <- <-. exact (Own (MStructAlias a) (sa_pub a) I (conj eq_refl Q)).
      - destruct (str_eqb_spec (td_alias t) (ns_name n)) as [Q | Q]; [| discriminate]. injection Q0 as <- <-. exact (Own (MTypedef t) (td_pub t) I (conj eq_refl Q)). }
    destruct (str_in _ _); [| congruence].
    assert (N1 : forall s, In (MStruct s) (mod_elements m) -> st_name s <> ns_name n) by (intros s I Q; unfold struct_named in SN; apply (last_of_none _ _ _ _ SN) in I; rewrite <- Q, str_eqb_refl in I; discriminate).
    assert (N2 : forall t, In (MTypedef t) (mod_elements m) -> td_alias t <> ns_name n) by (intros t I Q; unfold typedef_named in TN; apply (last_of_none _ _ _ _ TN) in I; rewrite <- Q, str_eqb_refl in I; discriminate).
    assert (N3 : forall t, In (MStructAlias t) (mod_elements m) -> sa_typename t <> ns_name n) by (intros t I Q; unfold typedef_named in TN; apply (last_of_none _ _ _ _ TN) in I; rewrite <- Q, str_eqb_refl in I; discriminate).
    assert (Sy : system (UType (ns_name n))).
    { apply T2; auto. intros X. apply library_has_type in X. congruence. }
    assert (Np : existsb (is_pub_typedef (ns_name n)) (mod_elements m) = false).
    { destruct (existsb _ _) eqn:Q; [| reflexivity]. exfalso. apply existsb_exists in Q as (e & Ie & Q).
      destruct e; cbn [is_pub_typedef] in Q; try discriminate; apply andb_true_iff in Q as [_ Q]; apply str_eqb_eq in Q; [exact (N3 _ Ie Q) | exact (N2 _ Ie Q) | exact (N1 _ Ie Q)]. }
    unfold module_type. rewrite (elems_at _ _ _ _ Hu), Np, type_outside; [constructor |]. intros X. destruct (shy _ X) as (_ & _ & Q & _). contradiction.
  - destruct K as [K | [[K _] | (_ & _ & h' & m' & Hi & _)]]; try congruence. unfold import_id. rewrite Hi.
    destruct (import_place _ _ _ _ _ _ _ Hu Hi) as (j & cm' & Ij & _ & Hj). rewrite Ij.
    assert (X : exists e, In e (mod_elements m') /\ type_of_elem e true (ns_name n)).
    { destruct (T3 E' E h' m' Hi) as [(t & I & Q1 & Q2) | (t & I & Q1 & Q2)]; eexists; (split; [exact I |]); cbn; auto. }
    destruct X as (e & Ie & Te). destruct (type_offered w fuel main pr B words exports _ _ _ _ _ _ Hj Ie Te) as (y & Iy & Oy & Ky).
    pose proof (type_agrees w fuel main pr B exports _ _ _ _ _ _ Hj Ie Te _ _ _ _ _ Hj Iy Oy Ky) as Dy.
    assert (Ay : In y (cm_elements cm)) by (apply (arrived _ _ _ _ _ _ _ _ _ _ _ Hu Hi Hj Iy Oy Dy); intros [-> | ->]; cbn in Dy; intuition discriminate).
    rewrite (module_type_is _ _ _ _ _ _ _ P Hj Ie Te). cbn [c_name]. rewrite type_outside.
    + exact (known_same _ _ _ _ _ _ _ _ _ _ _ Hu Hj Ay Iy Oy Dy).
    + intros X. exact (proj2 (modest _ X) _ _ _ _ _ _ Hj Ie (or_introl Te) eq_refl).
Qed.
(** Names that are no macros have translations that are none. *)
Lemma cname_plain : forall G n t, private G -> no_macro (ns_name n) -> tidy_name system n -> name_typed S (G ++ Gm) n t -> macro_in (file files i) (cname S (G ++ Gm) n) = false.
Proof.
  intros G n t Pr Nm [_ Tn] T. pose proof (plain_not_macro _ _ _ _ _ Hu Nm) as Pl.
  assert (Im : forall h' m' e, ns_ns n <> [] -> ns_ns n <> L "OS" -> import S (ns_ns n) = Some (h', m') -> In e (mod_elements m') -> of_elem e true (ns_name n) ->
    macro_in (file files i) (cname S (G ++ Gm) n) = false).
  { intros h' m' e E1 E2 Hi Ie Oe. unfold cname. destruct (str_eqb_spec (ns_ns n) (L "OS")); [contradiction |]. destruct (str_eqb_spec (ns_ns n) []); [contradiction |]. unfold import_id. rewrite Hi.
    destruct (import_place _ _ _ _ _ _ _ Hu Hi) as (j & cm' & _ & _ & Hj). apply (taken_not_macro _ _ _ _ _ Hu). exact (taken_elem _ _ _ _ _ true _ Hj Ie Oe). }
  assert (Px : forall h' m', import S (ns_ns n) = Some (h', m') -> mod_exports m' = get_exports (mod_elements m')).
  { intros h' m' Hi. destruct (import_place _ _ _ _ _ _ _ Hu Hi) as (j & cm' & _ & _ & Hj). destruct (po_parsed _ _ _ _ (project_built w _ _ _ B) _ _ _ _ Hj) as (text & _ & Pm). exact (parse_module_exports _ _ _ _ Pm). }
  destruct T as [E | d E Lk | s E Lk F | h' m' E1 E2 Hi X | h' m' b f a E1 E2 Hi _ X Y _].
  - unfold cname. rewrite E, str_eqb_refl. exact Pl.
  - rewrite (cname_local S _ _ E), Lk. destruct (d_pub d) eqn:Dp; [| exact Pl]. rewrite ClosedFacts.look_app in Lk. destruct (look _ G) as [d' |] eqn:Lg.
    + injection Lk as ->. rewrite (private_look _ _ _ Pr Lg) in Dp. discriminate.
    + apply look_is in Lk as [Id Dn]. assert (Mn : d_name d <> L "main") by (rewrite Dn; intros Q; apply (Tn E); rewrite Q; left; reflexivity).
      destruct (own_thing _ _ _ _ _ P Hu Id Mn) as [(_ & Q & _) | ((e & Ie & Oe) & _)]; [congruence |]. rewrite Dp, Dn in Oe.
      apply (taken_not_macro _ _ _ _ _ Hu). exact (taken_elem _ _ _ _ _ true _ Hu Ie (or_intror Oe)).
  - rewrite (cname_local S _ _ E), Lk. exact Pl.
  - rewrite (Px _ _ Hi), get_exports_spec in X. cbn [ex_consts] in X. apply in_constants in X as (d & en & Ie & Pe & Ien & En).
    apply (Im h' m' (MEnum d) E1 E2 Hi Ie). right. cbn. split; [exact Pe | apply in_map_iff; eauto].
  - assert (X' : In f (ex_fns (mod_exports m'))) by (rewrite X; apply in_elt). rewrite (Px _ _ Hi), get_exports_spec in X'. cbn [ex_fns] in X'. unfold functions_in_order in X'.
    apply in_flat_map in X' as (e & Ie & X'). destruct e as [| | | | | | f']; try (now destruct X'). destruct (fd_pub f') eqn:Pf; [| destruct X']. destruct X' as [-> | []].
    destruct (import_place _ _ _ _ _ _ _ Hu Hi) as (j & cm' & _ & _ & Hj). destruct (proj2 (proj2 (exports _ _ _ _ Hj)) f Ie Pf) as [Mn _].
    apply (Im h' m' (MFunc f) E1 E2 Hi Ie). right. cbn [value_of_elem]. rewrite Pf, <- Y. destruct (str_eqb_spec (f_name (fd_form f)) (L "main")); [contradiction | auto].
Qed.
Lemma calm_thing : forall (r : scope P) x, macro_in (file files i) x = false -> calm files H (RThing (c_thing r x)).
Proof.
  intros r x E. unfold SpecRun.c_thing. rewrite E. destruct (local_place _ _ _); [exact I |]. unfold outer_thing. destruct (existsb _ _); [exact I |].
  destruct (existsb _ _); [destruct (position _ _); [exact I | exact E] |]. destruct (existsb _ _); [exact I | exact E].
Qed.
Lemma calm_of : forall G (r : scope P), private G -> forall e, each_expr (tidy_expr S system) e -> calm_expr pr e -> forall t, typed S (G ++ Gm) e t ->
  calm files H (c_rx files i locals r (c_expr S (G ++ Gm) e)).
Proof.
  intros G r Pr. unfold c_rx. induction e as [a k IHa IHk | p op a b IHa IHb | p op x f IH | b x IH | es IHe _ | p f args IHf IHa | l | n | op x IH
    | p op x IH | b | x IH] using expr_ind'; intros [T0 T] C t Ty; cbn [calm_expr] in C; try (now destruct C);
    cbn [SpecTarget.c_expr values SpecRun.named calm]; cbn [SpecTyping.typed] in Ty.
  - destruct Ty as (ta & ti & T1 & T2 & _). split; [eapply IHa | eapply IHk]; eauto; try apply T; apply C.
  - destruct Ty as (ta & ti & T1 & T2 & _). split; [apply C |]. split; [eapply IHa | eapply IHb]; eauto; try apply T; apply C.
  - destruct Ty as (tx & Ty & _). eauto.
  - destruct Ty as ((tx & Ty) & _). eauto.
  - destruct l; exact I.
  - apply calm_thing. eapply cname_plain; eauto.
  - destruct Ty as (tx & Ty & _). split; [apply C |]. eapply IH; eauto; apply C.
  - destruct Ty as ((tx & Ty) & _). eauto.
Qed.

Notation found_expr := (found_expr files H i locals heads mods S Gm).
Notation found_stmt := (found_stmt files H i locals heads mods S Gm).
Lemma names_found : forall n, tidy_name system n -> found n.
Proof. intros n T. apply found_name; [exact T |]. intros E X. destruct (shy _ X) as (_ & Q & _). apply Q. now apply T. Qed.
Lemma exprs_found : forall e, (tidy_expr S system e /\ plain_members pr e) -> (calloc_call e -> calls_calloc (mod_elements m)) -> found_expr e.
Proof.
  intros e [T M] C. destruct e; cbn [tidy_expr plain_members calloc_call] in *; cbn [WholeExec.found_expr]; auto using names_found, found_types.
  - exact (plain_not_macro _ _ _ _ _ Hu M).
  - rewrite all_in in *. intros x X. split; [now apply T |]. specialize (M x X). unfold plain_key. destruct (snd (fst x)) as [[] |]; auto. exact (plain_not_macro _ _ _ _ _ Hu M).
  - intros E. apply new_found. auto.
Qed.
Lemma stmts_found : forall l s, (forall x, In x locals -> In x l) -> (tidy_stmt S system s /\ of_subject (tidy_expr S system) s) -> plain_switch pr l s -> found_stmt s.
Proof.
  intros l s Il [T Sb] C. destruct s as [| | | ? ? ? | [[? | ? ? ?] |] ? ? ? | | | is v cs d |]; cbn [tidy_stmt plain_switch of_subject] in *; cbn [WholeExec.found_stmt]; auto.
  - destruct T. split; [now apply found_types | assumption].
  - destruct T. split; [now apply found_types | assumption].
  - split; [| split].
    + rewrite all_in in *. intros c Ic. specialize (T c Ic). rewrite all_in in *. intros y Y. specialize (T y Y). destruct y; cbn [found_label]; [now apply names_found | exact I].
    + intros ->. rewrite all_in in *. intros c Ic. specialize (C c Ic). rewrite all_in in *. intros y Y. specialize (C y Y). destruct y; [| exact I]. intros Q X. exact (C Q (Il _ X)).
    + intros -> G r Pr (t & Ty). eapply calm_of; eauto.
Qed.
End Names.

(** ** Functions *)
Section Functions.
Variable H : host.
Notation found_expr i h m l := (found_expr files H i l heads mods (Si i h m) (Gi m)).
Notation found_stmt i h m l := (found_stmt files H i l heads mods (Si i h m) (Gi m)).
Notation found_type i h m l := (found_type files H i l heads mods (Si i h m)).
Lemma function_modest : forall i h m cm f, unit_at pr i h m cm -> In (MFunc f) (mod_elements m) -> forall x, In x (local_names f) -> no_macro x
  /\ forall j h' m' cm' e y, unit_at pr j h' m' cm' -> In e (mod_elements m') -> of_elem e true y -> x <> global_name (mi_uniqid h') y.
Proof. intros i h m cm f Hu If x X. destruct (discreet_local _ _ Discreet _ _ _ _ _ _ Hu If X) as (_ & Q & _ & _ & _ & R). split; [exact Q | exact R]. Qed.
Lemma function_shy : forall i h m cm f, unit_at pr i h m cm -> In (MFunc f) (mod_elements m) -> forall x, In x (local_names f) ->
  ~ In x (map lit (["strcmp"; "fprintf"; "stderr"; "exit"] ++ library_types))%string
  /\ ~ system (UName x) /\ ~ system (UType x) /\ forall e b, In e (mod_elements m) -> ~ type_of_elem e b x.
Proof. intros i h m cm f Hu If x X. destruct (discreet_local _ _ Discreet _ _ _ _ _ _ Hu If X) as (Q1 & _ & Q2 & Q3 & Q4 & _). auto. Qed.
Record function_ready (i : nat) (h : modinfo) (m : module_) (f : funcdecl) (l : list str) : Prop := {
  ready_form : each_form (found_expr i h m l) (fd_form f);
  ready_type : found_type i h m l (fd_type f);
  ready_params : all (fun p => found_type i h m l (taf_type p) /\ all (each_form (found_expr i h m l)) (taf_forms p)) (fp_list (fd_params f));
  ready_body : all (each_stmt (found_expr i h m l) (found_stmt i h m l)) (fd_body f);
  ready_calls : forall x, In x ["strcmp"; "fprintf"; "stderr"; "exit"]%string -> forall r : scope (h_place H), c_thing files i l r (lit x) = TKnown i (UName (lit x)) }.
Lemma function_found : forall i h m cm f l, unit_at pr i h m cm -> In (MFunc f) (mod_elements m) -> (forall x, In x l -> In x (local_names f)) -> function_ready i h m f l.
Proof.
  intros i h m cm f l Hu If Il.
  pose proof (fun x (X : In x l) => function_modest _ _ _ _ _ Hu If x (Il x X)) as Mo. pose proof (fun x (X : In x l) => function_shy _ _ _ _ _ Hu If x (Il x X)) as Sh.
  destruct (Tidy _ _ _ _ Hu) as [T1 T2]. cbn [site_of elements] in T1, T2. rewrite all_in in T1. specialize (T1 _ If). specialize (T2 _ If). destruct T1 as (Ef & Ep & Eb), T2 as (Ht1 & Ht2 & _).
  destruct (discreet_members _ _ Discreet _ _ _ _ _ Hu If) as (Mf & Mp & Mb). pose proof (discreet_switch _ _ Discreet _ _ _ _ _ Hu If) as Sw.
  assert (Cc : forall e x, In e (elem_exprs (MFunc f)) -> In x (subs e) -> calloc_call x -> calls_calloc (mod_elements m)).
  { intros e x E X C. exists e, x. split; [apply in_flat_map; eauto | auto]. }
  set (P2 := fun x => calloc_call x -> calls_calloc (mod_elements m)).
  set (P1 := fun x => tidy_expr (Si i h m) system x /\ plain_members pr x).
  pose proof (exprs_found H _ _ _ _ _ Hu Mo Sh) as FE. pose proof (stmts_found H _ _ _ _ _ Hu Mo Sh (local_names f)) as FS. pose proof (found_types H _ _ _ _ _ Hu Mo Sh) as FT.
  assert (Fm : forall g, (forall e, In e (form_exprs g) -> In e (elem_exprs (MFunc f))) -> each_form (tidy_expr (Si i h m) system) g -> each_form (plain_members pr) g -> each_form (found_expr i h m l) g).
  { intros g Sub A1 A2. apply (form_mp3 P1 P2 _ FE).
    - apply (form_mp3 _ _ P1 (fun e a b => conj a b) _ A1 A2).
    - apply each_form_exprs. intros e x E X. exact (Cc e x (Sub e E) X). }
  split.
  - apply Fm; auto. intros e E. cbn [elem_exprs]. rewrite in_app_iff. auto.
  - now apply FT.
  - rewrite all_in in *. intros t It. split; [apply FT; auto |]. specialize (Ep t It). specialize (Mp t It). rewrite all_in in *. intros g Ig. apply Fm; auto.
    intros e E. cbn [elem_exprs]. rewrite !in_app_iff. right. left. apply in_flat_map. exists t. split; [exact It |]. unfold taf_exprs. apply in_flat_map. eauto.
  - apply (stmts_mp3 P1 P2 _ (fun s => (tidy_stmt (Si i h m) system s /\ of_subject (tidy_expr (Si i h m) system) s) /\ plain_switch pr (local_names f) s) (fun _ => True) _ FE (fun s a _ => FS s Il (proj1 a) (proj2 a))).
    + apply (stmts_mp3 P1 (fun _ => True) _ (fun s => tidy_stmt (Si i h m) system s /\ of_subject (tidy_expr (Si i h m) system) s) (plain_switch pr (local_names f)) _ (fun e a _ => a) (fun s a b => conj a b)); [| exact Sw].
      apply (stmts_mp3 _ _ P1 (fun s => tidy_stmt (Si i h m) system s /\ of_subject (tidy_expr (Si i h m) system) s) (fun _ => True) _ (fun e a b => conj a b) (fun s a _ => a)); [| exact Mb].
      rewrite all_in in *. intros s Is. apply each_subject. auto.
    + rewrite all_in. intros s Is. apply each_stmt_exprs. intros e x E X. unfold P2. apply (Cc e x); [| exact X]. cbn [elem_exprs]. rewrite !in_app_iff. right. right. apply in_flat_map. eauto.
  - exact (generated_shy H _ _ _ _ _ Hu Sh).
Qed.
Lemma variable_found : forall i h m cm v, unit_at pr i h m cm -> In (MVar v) (mod_elements m) ->
  each_form (found_expr i h m []) (v_form v) /\ all_opt (each_expr (found_expr i h m [])) (v_value v) /\ found_type i h m [] (v_type v).
Proof.
  intros i h m cm v Hu Iv.
  assert (Tv : tidy_type (Si i h m) system (v_type v)).
  { destruct (in_split _ _ Iv) as (a & b & E). exact (proj1 (proj1 (Neat _ _ _ _ Hu a (MVar v) b E))). }
  assert (Mo : forall x, In x [] -> no_macro x /\ forall j h' m' cm' e y, unit_at pr j h' m' cm' -> In e (mod_elements m') -> of_elem e true y -> x <> global_name (mi_uniqid h') y) by (intros x []).
  assert (Sh : forall x, In x [] -> ~ In x (map lit (["strcmp"; "fprintf"; "stderr"; "exit"] ++ library_types))%string
    /\ ~ system (UName x) /\ ~ system (UType x) /\ forall e b, In e (mod_elements m) -> ~ type_of_elem e b x) by (intros x []).
  destruct (Tidy _ _ _ _ Hu) as [T1 _]. cbn [site_of elements] in T1. rewrite all_in in T1. specialize (T1 _ Iv). destruct T1 as (Ef & Ev).
  destruct (discreet_members _ _ Discreet _ _ _ _ _ Hu Iv) as (Mf & Mv).
  assert (Cc : forall e x, In e (elem_exprs (MVar v)) -> In x (subs e) -> calloc_call x -> calls_calloc (mod_elements m)).
  { intros e x E X C. exists e, x. split; [apply in_flat_map; eauto | auto]. }
  set (P2 := fun x => calloc_call x -> calls_calloc (mod_elements m)).
  set (P1 := fun x => tidy_expr (Si i h m) system x /\ plain_members pr x).
  pose proof (exprs_found H _ _ _ _ _ Hu Mo Sh) as FE. split; [| split; [| exact (found_types H _ _ _ _ _ Hu Mo Sh _ Tv)]].
  - apply (form_mp3 P1 P2 _ FE).
    + apply (form_mp3 _ _ P1 (fun e a b => conj a b) _ Ef Mf).
    + apply each_form_exprs. intros e x E X. unfold P2. apply (Cc e x); [| exact X]. cbn [elem_exprs]. rewrite in_app_iff. auto.
  - destruct (v_value v) as [e |] eqn:Ve; [| exact I]. cbn [all_opt] in *. apply (expr_mp3 P1 P2 _ FE).
    + apply (expr_mp3 _ _ P1 (fun e a b => conj a b) _ Ev Mv).
    + apply each_subs. intros x X. unfold P2. apply (Cc e x); [| exact X]. cbn [elem_exprs]. rewrite in_app_iff, Ve. right. now left.
Qed.
Lemma new_ready : forall i h m cm l, unit_at pr i h m cm -> calls_calloc (mod_elements m) -> (forall x, In x l -> In x (map lit ["count"; "size"; "x"]%string)) -> function_ready i h m new_function l.
Proof.
  intros i h m cm l Hu C Il.
  assert (Mo : forall x, In x l -> no_macro x /\ forall j h' m' cm' e y, unit_at pr j h' m' cm' -> In e (mod_elements m') -> of_elem e true y -> x <> global_name (mi_uniqid h') y).
  { intros x X. apply Il, in_map_iff in X as (y & <- & Y). split; [exact (proj2 (discreet_new _ _ Discreet _ _ _ _ Hu C) y Y) |].
    intros j h' m' cm' e z Hj _ _ Q. destruct (global_start w fuel main pr B _ _ _ _ z Hj) as (r & Gs). rewrite Gs in Q. destruct Y as [<- | [<- | [<- | []]]]; discriminate. }
  assert (Nl : forall x, str_in (lit x) (map lit ["count"; "size"; "x"]%string) = false -> ~ In (lit x) l).
  { intros x E X. apply Il in X. apply str_in_spec in X. congruence. }
  assert (Os : forall x, In x ["strcmp"; "fprintf"; "stderr"; "exit"; "calloc"]%string -> found files H i l heads mods (Si i h m) (Gi m) (mkNs (mkPos 0 0) (L "OS") (lit x))).
  { intros x X. apply (found_os H _ _ _ _ _ Hu); [reflexivity | now apply generated_idle |]. cbn [ns_name]. apply Nl. destruct X as [<- | [<- | [<- | [<- | [<- | []]]]]]; reflexivity. }
  assert (Lo : forall x, In x ["count"; "size"; "x"]%string -> found files H i l heads mods (Si i h m) (Gi m) (mkNs (mkPos 0 0) [] (lit x))).
  { intros x X. apply (found_own H _ _ _ _ _ Hu Mo); [reflexivity |]. cbn [ns_name]. intros Y. apply str_in_spec in Y. destruct X as [<- | [<- | [<- | []]]]; discriminate. }
  assert (Ty : forall x, In x ["void"; "size_t"]%string -> found_type i h m l (mkTn false (mkNs (mkPos 0 0) (L "OS") (lit x)))).
  { intros x X. apply found_os_type; [reflexivity |]. cbn [tn_name ns_name]. apply Nl. assert (Q : x = "void"%string \/ x = "size_t"%string) by (cbn in X; intuition congruence). destruct Q as [-> | ->]; reflexivity. }
  assert (Fn : forall x, WholeExec.found_expr files H i l heads mods (Si i h m) (Gi m) (ELit x)) by (intros; exact I).
  split.
  - exact I.
  - apply Ty. now left.
  - cbn [new_function fd_params fp_list all taf_type taf_forms each_form f_indexes]. pose proof (Ty "size_t"%string ltac:(right; now left)) as T2.
    repeat first [exact I | exact T2 | apply conj].
  - pose proof (Ty "void"%string ltac:(now left)) as T2.
    assert (A1 := Os "calloc"%string ltac:(cbn; tauto)). assert (A2 := Os "fprintf"%string ltac:(cbn; tauto)). assert (A3 := Os "stderr"%string ltac:(cbn; tauto)). assert (A4 := Os "exit"%string ltac:(cbn; tauto)).
    assert (B1 := Lo "count"%string ltac:(cbn; tauto)). assert (B2 := Lo "size"%string ltac:(cbn; tauto)). assert (B3 := Lo "x"%string ltac:(cbn; tauto)).
    cbn [new_function fd_body all each_stmt each_expr all_opt each_form f_indexes v_form v_value v_type WholeExec.found_expr WholeExec.found_stmt f_name].
    repeat first [exact I | exact T2 | exact A1 | exact A2 | exact A3 | exact A4 | exact B1 | exact B2 | exact B3 | apply conj | (intros Q; discriminate Q)].
  - intros x X r. apply (generated_thing H _ _ _ _ _ Hu); [cbn in *; tauto |]. apply Nl. destruct X as [<- | [<- | [<- | [<- | []]]]]; reflexivity.
Qed.
End Functions.
End Project.
