From Verif Require Import Base Buf Lexer Nodes Resolve Cursor Preparser Parser CAst FormatChe FormatC Translator Build Mains BaseFacts.
From Verif Require Import SpecBuild FuelFacts BuildFacts ProjectFacts BuildProps PathFacts SpecExports ExportFacts SpecMain.

(** ** Running *)
Definition yields {A} (m : io A) (P : history -> A + ended -> list effect -> Prop) : Prop :=
  forall h, exists r t, m h = (r, h ++ t) /\ P h r t.

Lemma yields_weaken : forall A (m : io A) (P Q : history -> A + ended -> list effect -> Prop),
  yields m P -> (forall h r t, P h r t -> Q h r t) -> yields m Q.
Proof. intros A m P Q H K h. destruct (H h) as (r & t & E & HP). exists r, t. auto. Qed.
Lemma yields_ret : forall A (a : A), yields (iret a) (fun _ r t => r = inl a /\ t = []).
Proof. intros A a h. exists (inl a), []. rewrite app_nil_r. auto. Qed.
Lemma yields_end : forall A e, yields (@iend A e) (fun _ r t => r = inr e /\ t = []).
Proof. intros A e h. exists (inr e), []. rewrite app_nil_r. auto. Qed.
Lemma yields_does : forall e, yields (does_ e) (fun _ r t => r = inl tt /\ t = [e]).
Proof. intros e h. exists (inl tt), [e]. auto. Qed.
Lemma yields_asks : forall A (f : history -> A), yields (asks f) (fun h r t => r = inl (f h) /\ t = []).
Proof. intros A f h. exists (inl (f h)), []. rewrite app_nil_r. auto. Qed.
Lemma yields_bind : forall A B (m : io A) (f : A -> io B) P Q,
  yields m P -> (forall a, yields (f a) (Q a)) ->
  yields (ibind m f) (fun h r t =>
    (exists e, r = inr e /\ P h (inr e) t)
    \/ (exists a t1 t2, t = t1 ++ t2 /\ P h (inl a) t1 /\ Q a (h ++ t1) r t2)).
Proof.
  intros A B m f P Q H K h. unfold ibind. destruct (H h) as ([a | e] & t & E & HP); rewrite E.
  - destruct (K a (h ++ t)) as (r & t2 & E2 & HQ). exists r, (t ++ t2). rewrite E2, app_assoc.
    split; [reflexivity |]. right. exists a, t, t2. auto.
  - exists (inr e), t. split; [reflexivity |]. left. exists e. auto.
Qed.
Lemma yields_run : forall A (m : io A) P h r h', yields m P -> m h = (r, h') -> exists t, h' = h ++ t /\ P h r t.
Proof. intros A m P h r h' H E. destruct (H h) as (r1 & t & E1 & HP). rewrite E1 in E. injection E as <- <-. eauto. Qed.
Lemma each_outs : forall A (f : A -> io unit) (g : A -> effect), (forall a, f a = does_ (g a)) ->
  forall l, yields (each f l) (fun _ r t => r = inl tt /\ t = map g l).
Proof.
  intros A f g E. induction l as [| a l IH]; [apply yields_ret |]. cbn [each map]. rewrite E.
  eapply yields_weaken; [apply yields_bind; [apply yields_does | intros x; exact IH] |].
  cbv beta. intros h r t [(e & _ & (W & _)) | (u & t1 & t2 & -> & (_ & E1) & (E2 & E3))]; [discriminate | subst; auto].
Qed.

Section MainFacts.
Context {U : Unicode} (w : world) (sys : system) (fuel : nat).
Notation tmp := (w_home w ++ L "/tmp").

Definition broke {A} (h : history) (r : A + ended) (t : list effect) : Prop :=
  (exists why, r = inr (Crash why)) /\ let_down sys (h ++ t).

Lemma ensure_dir_does : forall dir, yields (ensure_dir sys dir) (fun h r t =>
  (r = inl tt /\ dir_made dir t) \/ (broke h r t /\ t = [])).
Proof.
  intros dir h. unfold ensure_dir, ibind, asks. destruct (sy_exists sys h dir) eqn:E1.
  - exists (inl tt), []. rewrite app_nil_r. split; [reflexivity |]. left. unfold dir_made. auto.
  - destruct (sy_mkdir sys h dir) eqn:E2.
    + exists (inl tt), [MakeDir dir]. split; [reflexivity |]. left. unfold dir_made. auto.
    + exists (inr (Crash "create_dir: unwrap")), []. rewrite app_nil_r. split; [reflexivity |]. right.
      split; [| reflexivity]. split; [eauto |]. exists h, []. rewrite app_nil_r. split; [reflexivity |]. left. eauto.
Qed.

Definition writes (files : list (str * str * str)) : list effect := map (fun '(p, t, _) => WriteFile p t) files.
Lemma write_files_does : forall files, yields (write_files sys files) (fun h r t =>
  (r = inl tt /\ t = writes files) \/ broke h r t).
Proof.
  induction files as [| [[p x] i] files IH]; [intros h; exists (inl tt), []; rewrite app_nil_r; cbn; auto |].
  intros h. unfold write_files. cbn [each]. unfold ibind at 1 2, asks at 1. cbv beta iota.
  destruct (sy_write sys h p x) eqn:E.
  - unfold does_ at 1. destruct (IH (h ++ [WriteFile p x])) as (r & t & Er & HP). unfold write_files in Er. rewrite Er.
    exists r, ([WriteFile p x] ++ t). rewrite <- app_assoc. split; [reflexivity |].
    destruct HP as [(-> & ->) | (He & Hd)]; [left; auto | right]. split; [exact He |]. rewrite <- app_assoc in Hd. exact Hd.
  - exists (inr (Crash "write: unwrap")), []. rewrite app_nil_r. split; [reflexivity |]. right. split; [eauto |].
    exists h, []. rewrite app_nil_r. split; [reflexivity |]. right; left. eauto.
Qed.

Lemma relay_all_does : forall files lines, yields (relay_all files lines) (fun _ r t =>
  (exists ls, lines = map Some ls /\ r = inl tt /\ t = map (fun x => Out (relay files x ++ [c_nl])) ls)
  \/ ((exists why, r = inr (Crash why)) /\ In None lines)).
Proof.
  induction lines as [| [x |] lines IH].
  - intros h. exists (inl tt), []. rewrite app_nil_r. split; [reflexivity |]. left. exists []. auto.
  - intros h. unfold relay_all. cbn [each]. unfold println at 1, does_, ibind at 1.
    destruct (IH (h ++ [Out (relay files x ++ [c_nl])])) as (r & t & Er & HP). unfold relay_all in Er. rewrite Er.
    exists r, ([Out (relay files x ++ [c_nl])] ++ t). rewrite <- app_assoc. split; [reflexivity |].
    destruct HP as [(ls & -> & -> & ->) | (He & Hi)]; [left; exists (x :: ls); auto | right; cbn; auto].
  - intros h. eexists (inr _), []. rewrite app_nil_r. split; [reflexivity |]. right. cbn. eauto.
Qed.

Lemma writes_files : forall dir pr, writes (write_c99 (sy_md5 sys) dir pr) = files_written sys dir pr.
Proof.
  intros dir pr. unfold writes, write_c99, files_written. rewrite map_map. apply map_ext. intros [h cm]. reflexivity.
Qed.
Lemma args_cc : forall src out pr, parse_project w fuel src = BOk pr ->
  cc_args w sys pr out (c99_args (sy_macos sys) (map (fun f => fst (fst f)) (write_c99 (sy_md5 sys) tmp pr)) out (link_list pr)).
Proof.
  intros src out pr H. exists (link_list pr). split; [rewrite <- (project_links w _ _ _ H); apply link_firsts |].
  unfold c99_args. rewrite (proj1 (written _ _ _ (heads_cmods w _ _ _ H))). reflexivity.
Qed.

Definition build_failed : list build_error := [mkBerr [] [] (L "build failed")].
(** Everything [build_prog] can do. *)
Definition build_does (src out : str) (h : history) (r : (unit + list build_error) + ended) (t : list effect) : Prop :=
  (exists errors, parse_project w fuel src = BErrs errors /\ r = inl (inr errors) /\ dir_made tmp t)
  \/ (exists pr made args lines (ok : bool), parse_project w fuel src = BOk pr /\ dir_made tmp made
      /\ cc_args w sys pr out args
      /\ sy_cc sys (h ++ made ++ files_written sys tmp pr) args = Some (map Some lines, ok)
      /\ r = inl (if ok then inl tt else inr build_failed)
      /\ t = made ++ files_written sys tmp pr ++ [RunCC args ok]
             ++ map (fun x => Out (relay (write_c99 (sy_md5 sys) tmp pr) x ++ [c_nl])) lines)
  \/ broke h r t
  \/ (exists why, parse_project w fuel src = BPanic why /\ r = inr (Crash why) /\ dir_made tmp t)
  \/ (parse_project w fuel src = BNoFuel /\ r = inr Running /\ dir_made tmp t).

Lemma build_prog_does : forall src out, yields (build_prog w sys fuel src out) (build_does src out).
Proof.
  intros src out h. unfold build_prog. unfold ibind at 1.
  destruct (ensure_dir_does tmp h) as (r & made & E & [(-> & Hm) | (Hb & ->)]); rewrite E.
  2: { destruct Hb as ((why & ->) & Hd). exists (inr (Crash why)), []. split; [reflexivity |].
       right; right; left. split; [eauto | exact Hd]. }
  unfold ibind at 1. destruct (parse_project w fuel src) as [pr | errors | why |] eqn:Ep; cbn [pure_].
  2: { exists (inl (inr errors)), made. split; [reflexivity |]. left. eauto. }
  2: { exists (inr (Crash why)), made. split; [reflexivity |]. right; right; right; left. eauto. }
  2: { exists (inr Running), made. split; [reflexivity |]. right; right; right; right. eauto. }
  unfold iret at 1. unfold ibind at 1.
  set (files := write_c99 (sy_md5 sys) tmp pr).
  destruct (write_files_does files (h ++ made)) as (r & t & Er & [(-> & Et) | ((why & ->) & Hd)]); rewrite Er.
  2: { exists (inr (Crash why)), (made ++ t). rewrite <- app_assoc. split; [reflexivity |]. right; right; left.
       split; [eauto |]. rewrite app_assoc. exact Hd. }
  set (args := c99_args _ _ _ _).
  pose proof (args_cc src out pr Ep : cc_args w sys pr out args) as Ha.
  assert (Ew : t = files_written sys tmp pr) by (rewrite Et; apply writes_files). clear Et. subst t.
  unfold ibind at 1, asks. rewrite <- app_assoc.
  destruct (sy_cc sys (h ++ made ++ files_written sys tmp pr) args) as [[lines ok] |] eqn:Ec.
  2: { exists (inr (Crash "spawn: unwrap")), (made ++ files_written sys tmp pr).
       split; [reflexivity |]. right; right; left. split; [eauto |].
       exists (h ++ made ++ files_written sys tmp pr), []. rewrite app_nil_r. split; [reflexivity |].
       right; right; left. eauto. }
  unfold ibind at 1, does_. unfold ibind at 1.
  destruct (relay_all_does files lines ((h ++ made ++ files_written sys tmp pr) ++ [RunCC args ok]))
    as (r & t & Er2 & [(ls & -> & -> & ->) | ((why & ->) & Hi)]); rewrite Er2.
  - eexists _, _. split; [unfold iret; rewrite <- !app_assoc; reflexivity |]. right; left.
    exists pr, made, args, ls, ok. split; [exact Ep |]. split; [exact Hm |]. split; [exact Ha |]. split; [exact Ec |].
    split; [destruct ok; reflexivity |]. reflexivity.
  - exists (inr (Crash why)), (made ++ files_written sys tmp pr ++ [RunCC args ok] ++ t).
    split; [rewrite <- !app_assoc; reflexivity |]. right; right; left. split; [eauto |].
    exists (h ++ made ++ files_written sys tmp pr), ([RunCC args ok] ++ t). rewrite <- !app_assoc. split; [reflexivity |].
    right; right; right; left. eauto.
Qed.

(** ** Parts of histories *)
Lemma touched_app : forall a b, touched (a ++ b) = touched a ++ touched b.
Proof. intros. apply filter_app. Qed.
Lemma printed_app : forall a b, printed (a ++ b) = printed a ++ printed b.
Proof. intros. unfold printed. rewrite map_app, concat_app. reflexivity. Qed.
Lemma complained_app : forall a b, complained (a ++ b) = complained a ++ complained b.
Proof. intros. unfold complained. rewrite map_app, concat_app. reflexivity. Qed.
Lemma made_parts : forall dir t, dir_made dir t ->
  touched t = t /\ printed t = [] /\ complained t = [] /\ forallb harmless t = true.
Proof. intros dir t [-> | ->]; repeat split. Qed.
Lemma written_parts : forall dir pr, touched (files_written sys dir pr) = files_written sys dir pr
  /\ printed (files_written sys dir pr) = [] /\ complained (files_written sys dir pr) = [].
Proof.
  intros dir pr. unfold files_written. generalize (combine (pr_heads pr) (pr_cmods pr)). intros l.
  unfold touched, printed, complained.
  induction l as [| [h cm] l (I1 & I2 & I3)]; [repeat split |]. cbn [map filter List.concat silent app].
  rewrite I1, I2, I3. repeat split.
Qed.
Lemma outs_parts : forall A (f : A -> str) l, touched (map (fun x => Out (f x)) l) = []
  /\ printed (map (fun x => Out (f x)) l) = List.concat (map f l)
  /\ complained (map (fun x => Out (f x)) l) = [] /\ forallb harmless (map (fun x => Out (f x)) l) = true.
Proof.
  intros A f l. unfold touched, printed, complained. induction l as [| a l (I1 & I2 & I3 & I4)]; [repeat split |].
  cbn [map filter List.concat silent app forallb harmless]. rewrite I1, I2, I3, I4. repeat split.
Qed.
Lemma errs_parts : forall A (f : A -> str) l, touched (map (fun x => ErrOut (f x)) l) = []
  /\ printed (map (fun x => ErrOut (f x)) l) = []
  /\ complained (map (fun x => ErrOut (f x)) l) = List.concat (map f l)
  /\ forallb harmless (map (fun x => ErrOut (f x)) l) = true.
Proof.
  intros A f l. unfold touched, printed, complained. induction l as [| a l (I1 & I2 & I3 & I4)]; [repeat split |].
  cbn [map filter List.concat silent app forallb harmless]. rewrite I1, I2, I3, I4. repeat split.
Qed.

Lemma report_does : forall errors h, report errors h = (inl tt, h ++ map (fun e => ErrOut (error_line e ++ [c_nl])) errors).
Proof.
  intros errors h. unfold report.
  destruct (each_outs _ (fun e => eprintln (error_line e)) (fun e => ErrOut (error_line e ++ [c_nl])) (fun e => eq_refl) errors h)
    as (r & t & -> & -> & ->). reflexivity.
Qed.
Lemma report_parts : forall errors, let t := map (fun e => ErrOut (error_line e ++ [c_nl])) errors in
  touched t = [] /\ printed t = [] /\ complained t = error_lines errors /\ forallb harmless t = true.
Proof.
  intros errors t. destruct (errs_parts _ (fun e => error_line e ++ [c_nl]) errors) as (I1 & I2 & I3 & I4).
  fold t in I1, I2, I3, I4. repeat split; auto. rewrite I3. unfold error_lines, error_line. f_equal. apply map_ext.
  intros e. rewrite <- !app_assoc. reflexivity.
Qed.

(** ** Refused programs *)
Definition count_line (errors : list build_error) : str := dec (N.of_nat (List.length errors)) ++ L " errors" ++ [c_nl].
Lemma build_refused : forall src out errors h, parse_project w fuel src = BErrs errors ->
  exists r t, build_prog w sys fuel src out h = (r, h ++ t) /\ ((r = inl (inr errors) /\ dir_made tmp t) \/ (broke h r t /\ t = [])).
Proof.
  intros src out errors h E. unfold build_prog, ibind at 1.
  destruct (ensure_dir_does tmp h) as (r & t & -> & [(-> & Hm) | (Hb & ->)]).
  - rewrite E. eexists _, t. split; [reflexivity |]. left. auto.
  - pose proof Hb as ((why & ->) & Hd). exists (inr (Crash why)), []. split; [reflexivity |]. right.
    split; [split; [eauto | exact Hd] | reflexivity].
Qed.

(** The outcome of a refused program: it is reported. *)
Definition reported (errors : list build_error) (h : history) (r : nat + ended) (t : list effect) : Prop :=
  ((exists tail, r = inl 1 /\ complained t = error_lines errors ++ tail /\ (tail = [] \/ tail = count_line errors)) \/ broke h r t)
  /\ forallb harmless t = true /\ printed t = [].

Lemma build_and_count_refused : forall src out errors, parse_project w fuel src = BErrs errors ->
  yields (build_and_count w sys fuel src out) (reported errors).
Proof.
  intros src out errors E h. unfold build_and_count, ibind at 1.
  destruct (build_refused src out errors h E) as (r & t & -> & [(-> & Hm) | (Hb & ->)]).
  - unfold ibind at 1. rewrite report_does. unfold ibind, eprintln, does_, iret.
    eexists _, _. split; [rewrite <- !app_assoc; reflexivity |].
    destruct (made_parts _ _ Hm) as (_ & P & C & H). destruct (report_parts errors) as (_ & P' & C' & H'). split; [left |].
    + exists (count_line errors). split; [reflexivity |]. split; [| right; reflexivity].
      rewrite !complained_app, C, C'. rewrite app_nil_l. f_equal. unfold complained, count_line. cbn [map List.concat].
      rewrite app_nil_r. reflexivity.
    + rewrite !forallb_app, H, H', !printed_app, P, P'. repeat split.
  - pose proof Hb as ((why & ->) & Hd). exists (inr (Crash why)), []. split; [reflexivity |].
    split; [right; split; [eauto | exact Hd] | repeat split].
Qed.
Lemma run_refused : forall src args errors, parse_project w fuel src = BErrs errors ->
  yields (main_run w sys fuel (src :: args)) (reported errors).
Proof.
  intros src args errors E h. cbn [main_run]. unfold ibind at 1.
  destruct (build_refused src (L "/tmp/chebuild") errors h E) as (r & t & -> & [(-> & Hm) | (Hb & ->)]).
  - unfold ibind at 1. rewrite report_does. unfold iret.
    eexists _, _. split; [rewrite <- !app_assoc; reflexivity |].
    destruct (made_parts _ _ Hm) as (_ & P & C & H). destruct (report_parts errors) as (_ & P' & C' & H'). split; [left |].
    + exists []. split; [reflexivity |]. split; [| left; reflexivity]. rewrite complained_app, C, C', app_nil_r. reflexivity.
    + rewrite !forallb_app, H, H', !printed_app, P, P'. repeat split.
  - pose proof Hb as ((why & ->) & Hd). exists (inr (Crash why)), []. split; [reflexivity |].
    split; [right; split; [eauto | exact Hd] | repeat split].
Qed.
Lemma genc_refused : forall src dir args errors, parse_project w fuel src = BErrs errors ->
  yields (main_genc w sys fuel (src :: dir :: args)) (reported errors).
Proof.
  intros src dir args errors E h. cbn [main_genc]. unfold ibind at 1.
  destruct (ensure_dir_does dir h) as (r & t & -> & [(-> & Hm) | (Hb & ->)]).
  - rewrite E. cbn [pure_]. unfold ibind at 1, iret at 1. unfold ibind at 1. rewrite report_does. unfold iret.
    eexists _, _. split; [rewrite <- !app_assoc; reflexivity |].
    destruct (made_parts _ _ Hm) as (_ & P & C & H). destruct (report_parts errors) as (_ & P' & C' & H'). split; [left |].
    + exists []. split; [reflexivity |]. split; [| left; reflexivity]. rewrite complained_app, C, C', app_nil_r. reflexivity.
    + rewrite !forallb_app, H, H', !printed_app, P, P'. repeat split.
  - pose proof Hb as ((why & ->) & Hd). exists (inr (Crash why)), []. split; [reflexivity |].
    split; [right; split; [eauto | exact Hd] | repeat split].
Qed.
Lemma reading_refused : forall src (k : project -> io nat) errors, parse_project w fuel src = BErrs errors ->
  yields (ibind (pure_ (parse_project w fuel src)) (fun r => match r with
    | inl p => k p | inr errors => ibind (report errors) (fun _ => iret 1) end)) (reported errors).
Proof.
  intros src k errors E h. rewrite E. cbn [pure_]. unfold ibind at 1, iret at 1. unfold ibind. rewrite report_does.
  eexists _, _. split; [reflexivity |]. destruct (report_parts errors) as (_ & P' & C' & H'). split; [left |].
  - exists []. split; [reflexivity |]. split; [| left; reflexivity]. rewrite C', app_nil_r. reflexivity.
  - split; assumption.
Qed.

(** ** Output names *)
Lemma split_last_dot_none : forall s, ~ In 46%N s -> split_last_dot s = None.
Proof.
  induction s as [| c s IH]; intros H; [reflexivity |]. cbn [split_last_dot].
  rewrite IH by (intros I; apply H; right; exact I). destruct (N.eqb_spec c 46) as [-> |]; [destruct H; left; reflexivity | reflexivity].
Qed.
Lemma split_no_dot : forall s, ~ In 46%N s -> split_last_dot s = None.
Proof.
  induction s as [| c s IH]; intros H; [reflexivity |]. cbn [split_last_dot]. rewrite IH by (intros I; apply H; right; exact I).
  destruct (N.eqb_spec c 46) as [-> | _]; [destruct H; left; reflexivity | reflexivity].
Qed.
Lemma split_last_dot_ext : forall n ext, ~ In 46%N ext -> split_last_dot (n ++ L "." ++ ext) = Some (n, ext).
Proof.
  intros n ext H. induction n as [| c n IH].
  - cbn [app split_last_dot]. change (L "." ++ ext) with (46%N :: ext). cbn [split_last_dot]. rewrite (split_no_dot ext H). reflexivity.
  - cbn [app split_last_dot]. rewrite IH. reflexivity.
Qed.

Lemma split_last : forall s cur, split_char_aux slash cur s <> [].
Proof. induction s as [| c s IH]; intros cur; cbn [split_char_aux]; [discriminate |]. destruct (N.eqb c slash); [discriminate | apply IH]. Qed.
Lemma split_name : forall s cur, ~ In slash s -> split_char_aux slash cur s = [rev cur ++ s].
Proof.
  induction s as [| c s IH]; intros cur H; cbn [split_char_aux]; [rewrite app_nil_r; reflexivity |].
  destruct (N.eqb_spec c slash) as [-> | Hc]; [destruct H; left; reflexivity |].
  rewrite IH by (intros I; apply H; right; exact I). cbn [rev]. rewrite <- app_assoc. reflexivity.
Qed.
Lemma split_path : forall d b cur, ~ In slash b -> exists l, split_char_aux slash cur (d ++ slash :: b) = l ++ [b].
Proof.
  induction d as [| c d IH]; intros b cur H; cbn [app split_char_aux].
  - rewrite N.eqb_refl, (split_name b [] H). exists [rev cur]. reflexivity.
  - destruct (N.eqb c slash).
    + destruct (IH b [] H) as [l ->]. exists (rev cur :: l). reflexivity.
    + apply IH, H.
Qed.
Lemma output_named : forall path n, source_named path n -> output_name path = Some n.
Proof.
  intros path n (N0 & N1 & N2 & file & (Hs & Hp) & St).
  assert (E : exists l, split_char slash path = l ++ [file]).
  { destruct Hp as [-> | [d ->]].
    - exists []. unfold split_char. rewrite split_name by exact Hs. reflexivity.
    - unfold split_char. exact (split_path d file [] Hs). }
  assert (S1 : stem file = n).
  { unfold stem. destruct St as [(ext & -> & Hx) | (-> & Hx)].
    - rewrite (split_last_dot_ext n ext Hx). destruct n; [destruct N0; reflexivity | reflexivity].
    - destruct n as [| c n]; [reflexivity |]. cbn [split_last_dot]. cbn [tl] in Hx. rewrite (split_no_dot n Hx). destruct (N.eqb c 46); reflexivity. }
  assert (D : file <> [] /\ file <> L "." /\ file <> L "..").
  { destruct St as [(ext & -> & Hx) | (-> & Hx)]; [| auto]. change (L "." ++ ext) with (46%N :: ext).
    destruct n as [| a [| b n]]; [destruct N0; reflexivity | |]; cbn [app]; repeat split; try discriminate.
    - intros W. apply N1. injection W as -> _. reflexivity.
    - intros W. injection W as _ _ W. destruct n; discriminate W. }
  destruct D as (D0 & D1 & D2). destruct E as [l E]. unfold output_name. rewrite E, rev_app_distr. cbn [rev app drop_skipped].
  assert (K : skipped_component file = false).
  { unfold skipped_component. destruct file as [| a [| b f]]; [destruct D0; reflexivity | |].
    - destruct a as [| p]; [reflexivity |]. repeat (destruct p as [p | p |]; try reflexivity). destruct D1. reflexivity.
    - destruct a as [| p]; [reflexivity |]. repeat (destruct p as [p | p |]; try reflexivity). }
  rewrite K, S1. apply str_eqb_neq in D2, N2. rewrite D2, N2. reflexivity.
Qed.

(** The command line of che. *)
Lemma che_does : forall cmd argv m P, command w sys fuel cmd argv = Some m -> yields m P ->
  exists r t, che w sys fuel (cmd :: argv) = (match r with inl code => Exit code | inr e => e end, t) /\ P [] r t.
Proof.
  intros cmd argv m P E H. unfold che, main_. rewrite E. destruct (H []) as (r & t & -> & HP). cbn [app].
  exists r, t. destruct r; auto.
Qed.
Lemma makes_command : forall args src out, makes w sys args src out ->
  exists cmd argv, args = cmd :: argv /\ command w sys fuel cmd argv = Some (build_and_count w sys fuel src out).
Proof.
  intros args src out H. destruct H as [src out | src n Hn | src n Hh Hn]; eexists _, _; (split; [reflexivity |]).
  - reflexivity.
  - unfold command. cbn [main_build]. rewrite (output_named _ _ Hn). reflexivity.
  - change (command w sys fuel (L "install") [src]) with (Some (main_install w sys fuel [src])). cbn [main_install].
    rewrite Hh, (output_named _ _ Hn). reflexivity.
Qed.
Lemma refused : forall args src errors, about w sys args src -> parse_project w fuel src = BErrs errors ->
  exists r t, che w sys fuel args = (match r with inl code => Exit code | inr e => e end, t) /\ reported errors [] r t.
Proof.
  intros args src errors H E. destruct H as [args src out H | src args | src | src dir args | src args].
  - destruct (makes_command _ _ _ H) as (cmd & argv & -> & Ec).
    exact (che_does _ _ _ _ Ec (build_and_count_refused src out errors E)).
  - exact (che_does (L "run") (src :: args) _ _ eq_refl (run_refused src args errors E)).
  - refine (che_does (L "deptree") [src] _ _ eq_refl _). exact (reading_refused src _ errors E).
  - exact (che_does (L "genc") (src :: dir :: args) _ _ eq_refl (genc_refused src dir args errors E)).
  - refine (che_does (L "exports") (src :: args) _ _ eq_refl _). exact (reading_refused src _ errors E).
Qed.

(** ** Programs that are accepted *)
Lemma compiled_parts : forall src pr made args lines ok out t,
  parse_project w fuel src = BOk pr -> dir_made tmp made -> cc_args w sys pr out args ->
  t = made ++ files_written sys tmp pr ++ [RunCC args ok]
      ++ map (fun x => Out (relay (write_c99 (sy_md5 sys) tmp pr) x ++ [c_nl])) lines ->
  compiled w sys pr out ok (touched t) /\ complained t = []
  /\ printed t = List.concat (map (fun x => relay (write_c99 (sy_md5 sys) tmp pr) x ++ [c_nl]) lines).
Proof.
  intros src pr made args lines ok out t E Hm Ha ->.
  destruct (made_parts _ _ Hm) as (T1 & P1 & C1 & _). destruct (written_parts tmp pr) as (T2 & P2 & C2).
  destruct (outs_parts _ (fun x => relay (write_c99 (sy_md5 sys) tmp pr) x ++ [c_nl]) lines) as (T3 & P3 & C3 & _).
  rewrite !touched_app, !complained_app, !printed_app, T1, T2, T3, P1, P2, P3, C1, C2, C3.
  split; [| split; reflexivity]. exists made, args. split; [exact Hm |]. split; [exact Ha |]. reflexivity.
Qed.

Definition failed_text : str := L ":: build failed" ++ [c_nl].
Definition built_or_not (src out : str) (pr : project) (h : history) (r : nat + ended) (t : list effect) : Prop :=
  broke h r t
  \/ exists args lines (ok : bool) made, r = inl (if ok then 0 else 1)
     /\ compiled w sys pr out ok (touched t)
     /\ complained t = (if ok then [] else failed_text ++ L "1 errors" ++ [c_nl])
     /\ In (RunCC args ok) t /\ dir_made tmp made
     /\ sy_cc sys (h ++ made ++ files_written sys tmp pr) args = Some (map Some lines, ok)
     /\ printed t = List.concat (map (fun x => relay (write_c99 (sy_md5 sys) tmp pr) x ++ [c_nl]) lines).
Lemma build_accepted : forall src out pr, parse_project w fuel src = BOk pr ->
  yields (build_and_count w sys fuel src out) (built_or_not src out pr).
Proof.
  intros src out pr E h. unfold build_and_count, ibind at 1.
  destruct (build_prog_does src out h) as (r & t & -> & [(errors & W & _) | [(pr' & made & args & lines & ok & Ep & Hm & Ha & Ec & -> & Et)
    | [((why & ->) & Hb) | [(why & W & _) | (W & _)]]]]); try congruence.
  - assert (pr' = pr) by congruence. subst pr'.
    destruct (compiled_parts _ _ _ _ _ _ _ _ Ep Hm Ha Et) as (K1 & K2 & K3).
    assert (I : In (RunCC args ok) t) by (subst t; rewrite !in_app_iff; right; right; left; left; reflexivity).
    destruct ok.
    + exists (inl 0), t. split; [reflexivity |]. right. exists args, lines, true, made. repeat split; auto.
    + unfold ibind at 1. rewrite report_does. unfold ibind, eprintln, does_, iret.
      eexists _, _. split; [rewrite <- !app_assoc; reflexivity |]. right. exists args, lines, false, made.
      split; [reflexivity |]. rewrite !touched_app, !complained_app, !printed_app.
      destruct (report_parts build_failed) as (T & P & C & _). unfold build_failed in *. rewrite T, P, C, K2, K3.
      split; [| split; [| split; [| split; [| split]]]].
      * cbn [touched filter silent]. rewrite !app_nil_r. exact K1.
      * reflexivity.
      * rewrite in_app_iff. left. exact I.
      * exact Hm.
      * exact Ec.
      * rewrite app_nil_r. reflexivity.
  - exists (inr (Crash why)), t. split; [reflexivity |]. left. split; [eauto | exact Hb].
Qed.
Lemma made_by : forall args src out pr, makes w sys args src out -> parse_project w fuel src = BOk pr ->
  exists r t, che w sys fuel args = (match r with inl code => Exit code | inr e => e end, t) /\ built_or_not src out pr [] r t.
Proof.
  intros args src out pr H E. destruct (makes_command _ _ _ H) as (cmd & argv & -> & Ec).
  exact (che_does _ _ _ _ Ec (build_accepted src out pr E)).
Qed.

(** ** The messages of the C compiler *)
Lemma replace_skip : forall pat to s k, replace_aux pat to k s = replace_aux pat to 0 (skipn k s).
Proof.
  intros pat to. induction s as [| c s IH]; intros k; [destruct k; reflexivity |].
  destruct k as [| k]; [reflexivity |]. cbn [replace_aux skipn]. apply IH.
Qed.
Lemma occurs_len : forall pat s, occurs pat s -> List.length pat <= List.length s.
Proof. intros pat s (a & b & ->). rewrite !app_length. lia. Qed.
Lemma removelast_len : forall (pat : str), pat <> [] -> List.length (removelast pat) < List.length pat.
Proof.
  induction pat as [| a pat IH]; [congruence |]. intros _. cbn [removelast]. destruct pat as [| b pat]; [cbn; lia |].
  specialize (IH ltac:(discriminate)). cbn [List.length] in *. lia.
Qed.
Lemma replace_first : forall pat to s, pat <> [] ->
  (~ occurs pat s /\ replace_str pat to s = s)
  \/ exists a b, s = a ++ pat ++ b /\ ~ occurs pat (a ++ removelast pat) /\ replace_str pat to s = a ++ to ++ replace_str pat to b.
Proof.
  intros pat to s Hp. unfold replace_str. induction s as [| c s IH].
  - left. split; [| reflexivity]. intros O. apply occurs_len in O. destruct pat; [congruence | cbn in O; lia].
  - cbn [replace_aux]. destruct (starts_with (c :: s) pat) eqn:E.
    + right. apply starts_with_spec in E. destruct E as [b E]. exists [], b. split; [exact E |]. split.
      * intros O. apply occurs_len in O. pose proof (removelast_len pat Hp). cbn [app] in O. lia.
      * cbn [app]. f_equal. rewrite replace_skip. f_equal. destruct pat as [| p pat]; [congruence |].
        cbn [app] in E. injection E as _ ->. cbn [List.length]. rewrite Nat.sub_succ, Nat.sub_0_r.
        rewrite skipn_app, skipn_all, Nat.sub_diag. reflexivity.
    + assert (E' : ~ exists r, c :: s = pat ++ r) by (intros X; apply starts_with_spec in X; congruence).
      destruct IH as [(No & ->) | (a & b & Es & No & ->)].
      * left. split; [| reflexivity]. intros (x & y & Eo). destruct x as [| z x]; [apply E'; exists y; exact Eo |].
        cbn [app] in Eo. injection Eo as _ Eo. apply No. exists x, y. exact Eo.
      * right. exists (c :: a), b. split; [rewrite Es; reflexivity |]. split; [| reflexivity].
        intros (x & y & Eo). destruct x as [| z x].
        -- apply E'. cbn [app] in Eo.
           assert (Er : pat = removelast pat ++ [last pat 0%N]) by (apply app_removelast_last; exact Hp).
           exists (y ++ [last pat 0%N] ++ b). rewrite Es.
           replace (c :: a ++ pat ++ b) with ((c :: a ++ removelast pat) ++ [last pat 0%N] ++ b).
           ++ rewrite Eo, <- !app_assoc. reflexivity.
           ++ rewrite Er at 3. cbn [app]. rewrite <- !app_assoc. reflexivity.
        -- cbn [app] in Eo. injection Eo as _ Eo. apply No. exists x, y. exact Eo.
Qed.
Lemma replace_replaced : forall pat to, pat <> [] -> forall n s, List.length s <= n -> replaced pat to s (replace_str pat to s).
Proof.
  intros pat to Hp. induction n as [| n IH]; intros s Hn; destruct (replace_first pat to s Hp) as [(No & ->) | (a & b & Es & No & ->)].
  - apply Rep_none, No.
  - exfalso. subst s. rewrite !app_length in Hn. destruct pat; [congruence | cbn in Hn; lia].
  - apply Rep_none, No.
  - subst s. apply Rep_first; [exact No |]. apply IH. rewrite !app_length in Hn. destruct pat; [congruence | cbn in Hn; lia].
Qed.
Lemma c_file_some : forall dir h, c_file sys dir h <> [].
Proof. intros dir h W. apply app_eq_nil in W. destruct W as [_ W]. discriminate W. Qed.
Lemma relay_explained : forall dir pr, List.length (pr_cmods pr) = List.length (pr_heads pr) ->
  forall s, explained sys dir (pr_heads pr) s (relay (write_c99 (sy_md5 sys) dir pr) s).
Proof.
  intros dir pr. unfold write_c99, relay. generalize (pr_heads pr), (pr_cmods pr). clear.
  induction l as [| h l IH]; intros [| c l0] E s; try discriminate E; cbn [combine map fold_left].
  - apply Expl_nil.
  - eapply Expl_cons; [| apply IH; cbn in E; congruence].
    apply (replace_replaced _ _ (c_file_some dir h) (List.length s) s (le_n _)).
Qed.

(** ** che run, che genc, che deptree *)
Definition ran_or_not (args : list str) (pr : project) (h : history) (r : nat + ended) (t : list effect) : Prop :=
  broke h r t
  \/ (r = inl 1 /\ compiled w sys pr (L "/tmp/chebuild") false (touched t))
  \/ (r = inl 1 /\ compiled w sys pr (L "/tmp/chebuild") true (touched t)
      /\ exists err, sy_exec sys (h ++ removelast t) (L "/tmp/chebuild") args = inl err
                     /\ complained t = L "exec failed: " ++ err ++ [c_nl])
  \/ exists e before, r = inr e /\ t = before ++ [Exec (L "/tmp/chebuild") args]
     /\ compiled w sys pr (L "/tmp/chebuild") true (touched before)
     /\ sy_exec sys (h ++ before) (L "/tmp/chebuild") args = inr e.
Lemma run_accepted : forall src args pr, parse_project w fuel src = BOk pr ->
  yields (main_run w sys fuel (src :: args)) (ran_or_not args pr).
Proof.
  intros src args pr E h. cbn [main_run]. unfold ibind at 1.
  destruct (build_prog_does src (L "/tmp/chebuild") h) as (r & t & -> & [(errors & W & _) | [(pr' & made & ccargs & lines & ok & Ep & Hm & Ha & Ec & -> & Et)
    | [((why & ->) & Hb) | [(why & W & _) | (W & _)]]]]); try congruence.
  - assert (pr' = pr) by congruence. subst pr'.
    destruct (compiled_parts _ _ _ _ _ _ _ _ Ep Hm Ha Et) as (K1 & K2 & K3). destruct ok.
    + unfold ibind at 1, asks. destruct (sy_exec sys (h ++ t) (L "/tmp/chebuild") args) as [err | e] eqn:Ee.
      * unfold ibind, eprintln, does_, iret. eexists _, _. split; [rewrite <- !app_assoc; reflexivity |].
        right; right; left. split; [reflexivity |]. rewrite touched_app, complained_app, K2.
        cbn [touched filter silent]. rewrite app_nil_r. split; [exact K1 |]. exists err. rewrite removelast_last.
        split; [exact Ee |]. unfold complained. cbn [map List.concat]. rewrite app_nil_r. reflexivity.
      * unfold ibind, does_, iend. eexists _, _. split; [rewrite <- !app_assoc; reflexivity |].
        right; right; right. exists e, t. auto.
    + unfold ibind at 1. rewrite report_does. unfold iret. eexists _, _. split; [rewrite <- !app_assoc; reflexivity |].
      right; left. split; [reflexivity |]. rewrite touched_app. destruct (report_parts build_failed) as (T & _). rewrite T, app_nil_r. exact K1.
  - exists (inr (Crash why)), t. split; [reflexivity |]. left. split; [eauto | exact Hb].
Qed.

Lemma genc_accepted : forall src dir args pr, parse_project w fuel src = BOk pr ->
  yields (main_genc w sys fuel (src :: dir :: args)) (fun h r t => broke h r t
    \/ (r = inl 0 /\ exists made, dir_made dir made /\ t = made ++ files_written sys dir pr)).
Proof.
  intros src dir args pr E h. cbn [main_genc]. unfold ibind at 1.
  destruct (ensure_dir_does dir h) as (r & made & -> & [(-> & Hm) | (((why & ->) & Hd) & ->)]).
  2: { exists (inr (Crash why)), []. split; [reflexivity |]. left. split; [eauto | exact Hd]. }
  rewrite E. cbn [pure_]. unfold ibind at 1, iret at 1. unfold ibind at 1.
  destruct (write_files_does (write_c99 (sy_md5 sys) dir pr) (h ++ made)) as (r & t & -> & [(-> & Et) | ((why & ->) & Hd)]).
  - unfold iret. eexists _, _. split; [rewrite <- !app_assoc; reflexivity |]. right. split; [reflexivity |].
    exists made. split; [exact Hm |]. rewrite Et, writes_files. reflexivity.
  - exists (inr (Crash why)), (made ++ t). split; [rewrite <- app_assoc; reflexivity |]. left. split; [eauto |]. rewrite app_assoc. exact Hd.
Qed.

Lemma render_shows : forall main heads, program w main heads ->
  forall f p ind h, p < f -> nth_error heads p = Some h ->
  exists s, render_tree f heads ind true p = Some s /\ tree w ind (mi_filepath h) s.
Proof.
  intros main heads Hp. induction f as [| f IH]; intros p ind h Hlt Hh; [lia |].
  destruct (pg_heads _ _ _ Hp p h Hh) as (_ & h0 & Hh0 & Ei & _).
  cbn [render_tree]. rewrite Hh.
  match goal with |- context [option_map _ (?g (mi_imports h))] => set (go := g) end.
  assert (G : forall l, incl l (mi_imports h) -> exists parts, go l = Some (List.concat parts)
     /\ Forall2 (fun r part => tree w (S ind) (r_path r) part) l parts).
  { induction l as [| r l IHl]; intros Hin; [exists []; split; [reflexivity | constructor] |].
    destruct IHl as (parts & E & HF); [intros x Hx; apply Hin; right; exact Hx |].
    destruct (import_found w main heads p h r Hp Hh (Hin r (or_introl eq_refl))) as (j & h' & Hj & Hn & Ep & Epos).
    destruct (IH j (S ind) h' ltac:(lia) Hn) as (s & Es & Ht).
    exists (s :: parts). split; [| constructor; [rewrite <- Ep; exact Ht | exact HF]].
    unfold go. fold go. rewrite Epos, Es. change ((fix go (l0 : list modref) := _) l) with (go l) || idtac.
    match goal with |- context [match ?x with Some b => _ | None => _ end] => change x with (go l) end.
    rewrite E. reflexivity. }
  destruct (G (mi_imports h) (fun x Hx => Hx)) as (parts & E & HF). rewrite E. cbn [option_map].
  eexists. split; [reflexivity |]. unfold tree_line. rewrite Bool.andb_true_r.
  replace (Nat.ltb 0 ind) with (negb (Nat.eqb ind 0)) by (destruct ind; reflexivity).
  rewrite <- !app_assoc. rewrite Ei in HF.
  pose proof (Tree w ind (mi_filepath h) h0 parts Hh0 HF) as T. destruct (Nat.eqb ind 0); exact T.
Qed.
Lemma deptree : forall path pr, parse_project w fuel path = BOk pr ->
  exists text, che w sys fuel [L "deptree"; path] = (Exit 0, [Out text]) /\ tree w 0 path text.
Proof.
  intros path pr H. pose proof (po_program _ _ _ _ (project_built w _ _ _ H)) as Hp.
  destruct (pg_last _ _ _ Hp) as (hs & h & E & Ep).
  change (che w sys fuel [L "deptree"; path]) with
    (match main_deptree w fuel [path] [] with (inl code, h) => (Exit code, h) | (inr e, h) => (e, h) end).
  unfold main_deptree. rewrite H. cbn [pure_]. unfold ibind at 1, iret at 1. rewrite E, app_length.
  cbn [List.length]. rewrite Nat.add_1_r. rewrite <- E.
  destruct (render_shows path (pr_heads pr) Hp (S (List.length hs)) (List.length hs) 0 h) as (s & Es & Ht); [lia | |].
  - rewrite E, nth_error_app2, Nat.sub_diag by lia. reflexivity.
  - rewrite Es. exists s. split; [reflexivity |]. rewrite <- Ep. exact Ht.
Qed.
(** A file has one tree. *)
Lemma tree_unique : forall depth path s s', tree w depth path s -> tree w depth path s' -> s = s'.
Proof.
  fix IH 5. intros depth path s s' H1 H2.
  destruct H1 as [depth path i parts Hi HF]. inversion H2 as [d p i' parts' Hi' HF' E1 E2 E3]; subst.
  assert (i' = i) by (eapply header_fun; eauto). subst i'.
  assert (Ep : parts = parts').
  { clear Hi Hi' H2. revert parts' HF'.
    refine ((fix G l ps (HG : Forall2 (fun r part => tree w (S depth) (r_path r) part) l ps) {struct HG} :
       forall parts', Forall2 (fun r part => tree w (S depth) (r_path r) part) l parts' -> ps = parts' := _) _ _ HF).
    intros parts' HF'. destruct HG as [| r part l1 ps1 Ht HFr].
    - inversion HF'. reflexivity.
    - inversion HF' as [| ? part' ? ps' Ht' HFr']; subst. f_equal; [eapply IH; eauto | eapply G; eauto]. }
  subst. reflexivity.
Qed.

(** ** che exports *)
Lemma type_width_spec : forall fns, fns <> [] -> longest fns (type_width fns).
Proof.
  set (len := fun f => blen (che_fmt_typename (fd_type f))).
  assert (G : forall fns n, let r := fold_left (fun width f => if Nat.ltb width (len f) then len f else width) fns n in
     (r = n \/ exists f, In f fns /\ r = len f) /\ n <= r /\ forall f, In f fns -> len f <= r).
  { induction fns as [| f fns IH]; intros n; cbn [fold_left In].
    - split; [auto |]. split; [lia |]. intros f [].
    - destruct (IH (if Nat.ltb n (len f) then len f else n)) as (A & B & C). cbv zeta in *.
      set (r := fold_left _ fns _) in *. destruct (Nat.ltb_spec n (len f)) as [Hl | Hl].
      + split; [destruct A as [A | (g & Hg & A)]; right; [exists f | exists g]; auto |]. split; [lia |].
        intros g [<- | Hg]; [exact B | apply C, Hg].
      + split; [destruct A as [A | (g & Hg & A)]; [left | right; exists g]; auto |]. split; [lia |].
        intros g [<- | Hg]; [lia | apply C, Hg]. }
  intros fns Hne. destruct (G fns 0) as (A & B & C). split; [| exact C].
  destruct A as [A | (f & Hf & A)]; [| exists f; auto].
  destruct fns as [| f fns]; [congruence |]. exists f. split; [left; reflexivity |].
  change (type_width (f :: fns) = len f). pose proof (C f (or_introl eq_refl)) as Hc. cbv zeta in *.
  unfold type_width. fold len. unfold len in *. cbv beta in *. lia.
Qed.

Lemma blen_plus : forall a b, blen (a ++ b) = blen a + blen b.
Proof. induction a as [| c a IH]; intros b; [reflexivity |]. cbn [app blen]. rewrite IH. lia. Qed.
Lemma blen_spaces : forall n, blen (repeat_str n (L " ")) = n.
Proof. induction n as [| n IH]; [reflexivity |]. cbn [repeat_str]. rewrite blen_plus, IH. reflexivity. Qed.
Lemma in_spaces : forall n c, In c (repeat_str n (L " ")) -> c = 32%N.
Proof. induction n as [| n IH]; intros c H; [destruct H |]. cbn [repeat_str] in H. apply in_app_iff in H. destruct H as [[<- | []] | H]; [reflexivity | apply IH, H]. Qed.

(** The signature as it is printed: the forms of a group are not separated. *)
Lemma show_signature : forall f, (forall p, In p (fp_list (fd_params f)) -> exists x, taf_forms p = [x]) -> show_form f = signature f.
Proof.
  intros f H. unfold show_form, signature, show_params.
  replace (map show_param (fp_list (fd_params f))) with (map param_text (fp_list (fd_params f))); [reflexivity |].
  apply map_ext_in. intros p Hp. destruct (H p Hp) as [x E]. unfold param_text, show_param. rewrite E. cbn [map join List.concat].
  rewrite app_nil_r. reflexivity.
Qed.
Lemma show_function_line : forall n f, blen (che_fmt_typename (fd_type f)) <= n ->
  exists line, show_function n f = [9%N] ++ line /\ function_line show_form n f line.
Proof.
  intros n f Hn. unfold show_function. eexists. split; [reflexivity |].
  exists (repeat_str (n - blen (che_fmt_typename (fd_type f)) + 2) (L " ") ++ (if starts_with (show_form f) (L "*") then [] else L " ")).
  split; [rewrite <- app_assoc; reflexivity |]. split.
  - intros c Hc. apply in_app_iff in Hc. destruct Hc as [Hc | Hc]; [apply in_spaces in Hc; exact Hc |].
    destruct (starts_with _ _); [destruct Hc |]. destruct Hc as [<- | []]. reflexivity.
  - rewrite !blen_plus, blen_spaces. destruct (starts_with _ _); [change (blen []) with 0 | change (blen (L " ")) with 1]; lia.
Qed.

Definition only_out (t : list effect) : Prop := touched t = [] /\ complained t = [].
Lemma only_out_app : forall a b, only_out a -> only_out b -> only_out (a ++ b).
Proof. intros a b (A1 & A2) (B1 & B2). unfold only_out. rewrite touched_app, complained_app, A1, A2, B1, B2. auto. Qed.
Definition says (m : io unit) (text : str) : Prop := yields m (fun _ r t => r = inl tt /\ only_out t /\ printed t = text).
Lemma says_nothing : says (iret tt) [].
Proof. intros h. exists (inl tt), []. rewrite app_nil_r. repeat split. Qed.
Lemma says_then : forall m m' a b, says m a -> says m' b -> says (ibind m (fun _ => m')) (a ++ b).
Proof.
  intros m m' a b H K. eapply yields_weaken; [apply yields_bind; [exact H | intros x; exact K] |].
  cbv beta. intros h r t [(e & _ & W & _) | (u & t1 & t2 & -> & (_ & O1 & P1) & (E2 & O2 & P2))]; [discriminate |].
  split; [exact E2 |]. split; [apply only_out_app; assumption |]. rewrite printed_app, P1, P2. reflexivity.
Qed.
Lemma says_line : forall s, says (println s) (s ++ [c_nl]).
Proof.
  intros s h. exists (inl tt), [Out (s ++ [c_nl])]. split; [reflexivity |]. split; [reflexivity |]. split; [split; reflexivity |].
  unfold printed. cbn [map List.concat]. rewrite app_nil_r. reflexivity.
Qed.
Lemma says_each : forall A (f : A -> str) l, says (each (fun x => println (f x)) l) (List.concat (map (fun x => f x ++ [c_nl]) l)).
Proof. intros A f. induction l as [| a l IH]; [apply says_nothing |]. cbn [each map List.concat]. apply says_then; [apply says_line | exact IH]. Qed.
Lemma says_section : forall A title (f : A -> str) l,
  says (match l with [] => iret tt | a :: r => println (lit title);~ each (fun x => println ([9%N] ++ f x)) (a :: r) end)
       (section title (map f l)).
Proof.
  intros A title f [| a l]; [apply says_nothing |].
  assert (E : section title (map f (a :: l)) = (lit title ++ [c_nl]) ++ List.concat (map (fun x => ([9%N] ++ f x) ++ [c_nl]) (a :: l))).
  { unfold section. cbn [map]. rewrite <- app_assoc. do 2 f_equal. cbn [List.concat]. f_equal. f_equal. rewrite map_map. reflexivity. }
  rewrite E. apply says_then; [apply says_line |]. exact (says_each _ (fun x => [9%N] ++ f x) (a :: l)).
Qed.
Lemma listing_says : forall path elems,
  exists lines, function_lines show_form (functions_in_order elems) lines
    /\ says (println (L "mod " ++ path);~ print_exports (get_exports elems))
         (L "mod " ++ path ++ [c_nl] ++ section "constants" (map en_name (constants_in_order elems))
          ++ section "types" (types_in_order elems) ++ section "functions" lines).
Proof.
  intros path elems. rewrite get_exports_spec. unfold print_exports. cbn [ex_consts ex_fns ex_types].
  set (fns := functions_in_order elems).
  assert (F : exists lines, function_lines show_form fns lines
     /\ section "functions" lines = section "functions" (map (fun f => tl (show_function (type_width fns) f)) fns)).
  { destruct fns as [| f fns'] eqn:Ef; [exists []; split; reflexivity |]. rewrite <- Ef.
    assert (Hne : fns <> []) by (rewrite Ef; discriminate).
    pose proof (type_width_spec fns Hne) as Hl.
    assert (G : forall l, incl l fns -> Forall2 (function_line show_form (type_width fns)) l (map (fun f => tl (show_function (type_width fns) f)) l)).
    { induction l as [| g l IH]; intros Hi; [constructor |]. constructor; [| apply IH; intros x Hx; apply Hi; right; exact Hx].
      destruct (show_function_line (type_width fns) g) as (line & -> & Hf); [apply Hl, Hi; left; reflexivity | exact Hf]. }
    exists (map (fun f => tl (show_function (type_width fns) f)) fns). split; [| reflexivity].
    rewrite Ef at 1. exists (type_width fns). rewrite <- Ef. split; [exact Hl |]. apply G. intros x Hx; exact Hx. }
  destruct F as (lines & HF & Es). exists lines. split; [exact HF |]. rewrite Es.
  assert (E : L "mod " ++ path ++ [c_nl] ++ section "constants" (map en_name (constants_in_order elems))
          ++ section "types" (types_in_order elems) ++ section "functions" (map (fun f => tl (show_function (type_width fns) f)) fns)
     = ((L "mod " ++ path) ++ [c_nl]) ++ section "constants" (map en_name (constants_in_order elems))
       ++ section "types" (map (fun x => x) (types_in_order elems)) ++ section "functions" (map (fun f => tl (show_function (type_width fns) f)) fns)).
  { rewrite map_id, <- !app_assoc. reflexivity. }
  rewrite E. apply says_then; [apply says_line |]. apply says_then; [exact (says_section _ "constants" en_name _) |].
  apply says_then; [exact (says_section _ "types" (fun x => x) _) |].
  destruct fns as [| f fns']; [apply says_nothing |].
  exact (says_section _ "functions" (fun g => tl (show_function (type_width (f :: fns')) g)) (f :: fns')).
Qed.

Lemma main_unit : forall path pr, parse_project w fuel path = BOk pr ->
  exists n h m cm, List.length (pr_mods pr) = S n /\ unit_at pr n h m cm /\ mi_filepath h = path
    /\ mod_exports m = get_exports (mod_elements m).
Proof.
  intros path pr H. pose proof (project_built w _ _ _ H) as Hb. destruct (po_lengths _ _ _ _ Hb) as [L1 L2].
  destruct (pg_last _ _ _ (po_program _ _ _ _ Hb)) as (hs & h & E & Ep).
  assert (Lh : List.length (pr_heads pr) = S (List.length hs)) by (rewrite E, app_length; cbn; lia).
  assert (Hh : nth_error (pr_heads pr) (List.length hs) = Some h) by (rewrite E, nth_error_app2, Nat.sub_diag by lia; reflexivity).
  destruct (nth_error (pr_mods pr) (List.length hs)) as [m |] eqn:Em; [| apply nth_error_None in Em; lia].
  destruct (nth_error (pr_cmods pr) (List.length hs)) as [cm |] eqn:Ec; [| apply nth_error_None in Ec; lia].
  assert (Hu : unit_at pr (List.length hs) h m cm) by (repeat split; assumption).
  exists (List.length hs), h, m, cm. split; [lia |]. split; [exact Hu |]. split; [exact Ep |].
  destruct (po_parsed _ _ _ _ Hb _ _ _ _ Hu) as (? & ? & HP). eapply parse_module_exports. exact HP.
Qed.

(** The listing with the signatures as they are printed. *)
Definition listing_as (sign : funcdecl -> str) (path : str) (elems : list modelem) (text : str) : Prop :=
  exists lines, function_lines sign (functions_in_order elems) lines
    /\ text = L "mod " ++ path ++ [c_nl]
              ++ section "constants" (map en_name (constants_in_order elems))
              ++ section "types" (types_in_order elems)
              ++ section "functions" lines.
Lemma exports_list : forall paths, yields (main_exports w fuel paths) (fun _ r t => touched t = [] /\ (forall n, r <> inr (Exit n))
  /\ (r = inl 0 -> complained t = [] /\ exists texts, printed t = List.concat texts
      /\ Forall2 (fun path text => exists pr n h m cm, parse_project w fuel path = BOk pr /\ unit_at pr n h m cm
            /\ mi_filepath h = path /\ listing_as show_form path (mod_elements m) text) paths texts)).
Proof.
  induction paths as [| path paths IH].
  - intros h. exists (inl 0), []. rewrite app_nil_r. split; [reflexivity |]. split; [reflexivity |]. split; [discriminate |]. intros _. split; [reflexivity |].
    exists []. split; [reflexivity | constructor].
  - intros h. cbn [main_exports]. unfold ibind at 1. destruct (parse_project w fuel path) as [pr | errors | why |] eqn:Ep; cbn [pure_].
    + unfold iret at 1. destruct (main_unit path pr Ep) as (n & hd & m & cm & Ln & Hu & Ef & Ex). rewrite Ln.
      pose proof Hu as (U1 & U2 & _). rewrite U1, U2, Ex, Ef.
      destruct (listing_says path (mod_elements m)) as (lines & HF & Hsay).
      destruct (Hsay h) as (r1 & t1 & E1 & -> & (T1 & C1) & P1).
      destruct (IH (h ++ t1)) as (r2 & t2 & E2 & T2 & N2 & K2).
      exists r2, (t1 ++ t2). split.
      * unfold ibind in E1 |- *. destruct (println (L "mod " ++ path) h) as [[u | e] h1]; [| discriminate E1].
        rewrite E1, E2, app_assoc. reflexivity.
      * rewrite touched_app, T1, T2. split; [reflexivity |]. split; [exact N2 |]. intros ->. destruct (K2 eq_refl) as (C2 & texts & P2 & HF2).
        rewrite complained_app, C1, C2. split; [reflexivity |]. rewrite printed_app, P1, P2.
        eexists (_ :: texts). split; [reflexivity |]. constructor; [| exact HF2].
        exists pr, n, hd, m, cm. split; [exact Ep |]. split; [exact Hu |]. split; [exact Ef |]. exists lines. split; [exact HF | reflexivity].
    + unfold iret at 1. unfold ibind. rewrite report_does. eexists _, _. split; [reflexivity |].
      destruct (report_parts errors) as (T & _). rewrite T. repeat split; discriminate.
    + eexists _, []. rewrite app_nil_r. split; [reflexivity |]. repeat split; discriminate.
    + eexists _, []. rewrite app_nil_r. split; [reflexivity |]. repeat split; discriminate.
Qed.

(** ** che test *)
Section Tests.
Definition abrupt (e : ended) : Prop := match e with Exit _ => False | _ => True end.
Variable ls : str -> option (list (str * bool)).
Hypothesis listed : forall h d, sy_list sys h d = ls d.

Lemma below_inv : forall dir entries p, ls dir = Some entries -> below ls dir p <->
  exists path is_dir, In (path, is_dir) entries
    /\ ((ends_with path (L ".test.c") = true /\ p = path)
        \/ (ends_with path (L ".test.c") = false /\ is_dir = true /\ below ls path p)).
Proof.
  intros dir entries p E. split.
  - intros H. destruct H as [dir entries' path is_dir E' I T | dir entries' sub path E' I T B];
      rewrite E in E'; injection E' as <-.
    + exists path, is_dir. auto.
    + exists sub, true. auto.
  - intros (path & is_dir & I & [(T & ->) | (T & -> & B)]).
    + eapply Below_here; eauto.
    + eapply Below_sub; eauto.
Qed.
Lemma find_tests_does : forall depth dir, yields (find_tests sys depth dir) (fun _ r t => t = []
  /\ match r with inl l => forall p, In p l <-> below ls dir p | inr e => abrupt e end).
Proof.
  induction depth as [| depth IH]; intros dir h.
  - eexists _, []. rewrite app_nil_r. repeat split.
  - cbn [find_tests]. unfold ibind at 1, asks. rewrite listed. destruct (ls dir) as [entries |] eqn:E.
    2: { eexists _, []. rewrite app_nil_r. repeat split. }
    match goal with |- context [?g entries h] => set (go := g) end.
    assert (G : forall l h, exists r, go l h = (r, h) /\ match r with inr e => abrupt e | inl tests => forall p, In p tests <->
        exists path is_dir, In (path, is_dir) l /\ ((ends_with path (L ".test.c") = true /\ p = path)
          \/ (ends_with path (L ".test.c") = false /\ is_dir = true /\ below ls path p)) end).
    { induction l as [| [path is_dir] l IHl]; intros h0.
      - exists (inl []). split; [reflexivity |]. intros p. cbn. split; [intros [] | intros (a & b & [] & _)].
      - unfold go. fold go. unfold ibind at 1.
        assert (K : exists r, (if ends_with path (L ".test.c") then iret [path]
                    else if is_dir then find_tests sys depth path else iret []) h0 = (r, h0)
           /\ match r with inr e => abrupt e | inl here => forall p, In p here <->
                (ends_with path (L ".test.c") = true /\ p = path)
                \/ (ends_with path (L ".test.c") = false /\ is_dir = true /\ below ls path p) end).
        { destruct (ends_with path (L ".test.c")) eqn:T.
          - exists (inl [path]). split; [reflexivity |]. intros p. cbn. split; [intros [<- | []]; auto | intros [(_ & ->) | (W & _)]; [auto | discriminate W]].
          - destruct is_dir.
            + destruct (IH path h0) as (r & t & Er & -> & Hr). rewrite app_nil_r in Er. exists r. split; [exact Er |].
              destruct r as [here | e]; [| exact Hr]. intros p. rewrite Hr. split; [auto | intros [(W & _) | (_ & _ & B)]; [discriminate W | exact B]].
            + exists (inl []). split; [reflexivity |]. intros p. cbn. split; [intros [] | intros [(W & _) | (_ & W & _)]; discriminate W]. }
        destruct K as (r & Er & Hr). rewrite Er. destruct r as [here | e]; [| exists (inr e); auto].
        unfold ibind at 1. destruct (IHl h0) as (r2 & E2 & H2). rewrite E2. destruct r2 as [rest | e]; [| exists (inr e); auto].
        exists (inl (here ++ rest)). split; [reflexivity |]. intros p. rewrite in_app_iff, Hr, H2. split.
        + intros [H | (a & b & Ia & H)]; [exists path, is_dir | exists a, b]; (split; [cbn; auto | exact H]).
        + intros (a & b & [Ea | Ia] & H); [injection Ea as <- <-; left; exact H | right; exists a, b; auto]. }
    destruct (G entries h) as (r & Er & Hr). exists r, []. rewrite app_nil_r. split; [exact Er |]. split; [reflexivity |].
    destruct r as [tests | e]; [| exact Hr]. intros p. rewrite Hr. symmetry. apply below_inv, E.
Qed.

Definition failed_run (e : effect) : bool := match e with RunTest false => true | _ => false end.
Definition failed_runs (t : list effect) : nat := List.length (filter failed_run t).
Lemma failed_runs_app : forall a b, failed_runs (a ++ b) = failed_runs a + failed_runs b.
Proof. intros. unfold failed_runs. rewrite filter_app, app_length. reflexivity. Qed.
Lemma failed_runs_touched : forall t, failed_runs (touched t) = failed_runs t.
Proof. induction t as [| e t IH]; [reflexivity |]. unfold failed_runs, touched in *. destruct e; cbn [filter silent failed_run]; auto. destruct ok; cbn [List.length]; auto. Qed.
Lemma made_no_runs : forall dir t, dir_made dir t -> failed_runs t = 0.
Proof. intros dir t [-> | ->]; reflexivity. Qed.
Lemma files_no_runs : forall dir pr, failed_runs (files_written sys dir pr) = 0.
Proof. intros dir pr. unfold files_written. generalize (combine (pr_heads pr) (pr_cmods pr)). induction l as [| [h c] l IH]; [reflexivity |]. exact IH. Qed.
Lemma compiled_no_runs : forall pr out ok t, compiled w sys pr out ok t -> failed_runs t = 0.
Proof.
  intros pr out ok t (made & args & Hm & _ & ->). rewrite !failed_runs_app, (made_no_runs _ _ Hm), files_no_runs. reflexivity.
Qed.

Lemma run_test_does : forall path, yields (run_test w sys fuel path) (fun _ r t => match r with
  | inl n => exists bad, tested w sys fuel path (touched t) bad /\ n = failed_runs t
  | inr e => abrupt e end).
Proof.
  intros path h. unfold run_test, ibind at 1.
  destruct (build_prog_does path (L "test.out") h) as (r & t & -> & [(errors & Ep & -> & Hm) | [(pr & made & args & lines & ok & Ep & Hm & Ha & Ec & -> & Et)
    | [((why & ->) & Hb) | [(why & W & -> & _) | (W & -> & _)]]]]).
  - unfold ibind at 1. rewrite report_does. unfold ibind, println, does_, iret. eexists _, _. split; [rewrite <- !app_assoc; reflexivity |].
    destruct (report_parts errors) as (T & _). destruct (made_parts _ _ Hm) as (T1 & _).
    assert (E : touched (t ++ map (fun e => ErrOut (error_line e ++ [c_nl])) errors ++ [Out (L "FAIL " ++ path ++ [c_nl])]) = t).
    { rewrite !touched_app, T, T1. cbn [touched filter silent]. rewrite app_nil_r. reflexivity. }
    exists true. rewrite E. split; [eapply Tested_refused; eauto |]. rewrite <- failed_runs_touched, E. symmetry. eapply made_no_runs; eauto.
  - destruct (compiled_parts _ _ _ _ _ _ _ _ Ep Hm Ha Et) as (K1 & K2 & K3). destruct ok.
    2: { unfold ibind at 1. rewrite report_does. unfold ibind, println, does_, iret. eexists _, _. split; [rewrite <- !app_assoc; reflexivity |].
         destruct (report_parts build_failed) as (T & _).
         assert (E : touched (t ++ map (fun e => ErrOut (error_line e ++ [c_nl])) build_failed ++ [Out (L "FAIL " ++ path ++ [c_nl])]) = touched t).
         { rewrite !touched_app, T. cbn [touched filter silent]. rewrite app_nil_r. reflexivity. }
         exists true. rewrite E. split; [eapply Tested_not_built; eauto |]. rewrite <- failed_runs_touched, E. symmetry. eapply compiled_no_runs; eauto. }
    unfold ibind at 1, asks. destruct (sy_test sys (h ++ t)) as [[[out err] okr] |].
    2: { eexists _, t. split; [reflexivity |]. exact Logic.I. }
    unfold ibind at 1, does_. destruct err as [errstr |]; [destruct out as [outs |] |].
    2, 3: (eexists _, (t ++ [RunTest okr]); split; [rewrite app_assoc; reflexivity | exact Logic.I]).
    match goal with |- context [ibind ?m (fun _ => ibind ?m2 _)] =>
      assert (S1 : exists x, says m x); [| assert (S2 : exists x, says m2 x)] end.
    { destruct okr; [destruct (trim_end outs) |].
      - eexists. apply says_line.
      - eexists. apply says_line.
      - eexists. apply says_then; apply says_line. }
    { destruct errstr; eexists; [apply says_nothing | apply says_line]. }
    destruct S1 as [x1 S1], S2 as [x2 S2]. unfold ibind at 1.
    destruct (S1 ((h ++ t) ++ [RunTest okr])) as (r1 & t1 & E1 & -> & (T1 & _) & _). rewrite E1. unfold ibind at 1.
    destruct (S2 (((h ++ t) ++ [RunTest okr]) ++ t1)) as (r2 & t2 & E2 & -> & (T2 & _) & _). rewrite E2.
    unfold iret. eexists _, _. split; [rewrite <- !app_assoc; reflexivity |].
    assert (E : touched (t ++ [RunTest okr] ++ t1 ++ t2) = touched t ++ [RunTest okr]).
    { rewrite !touched_app, T1, T2. cbn [touched filter silent]. rewrite !app_nil_r. reflexivity. }
    exists (negb okr). rewrite E. split; [eapply Tested_run; eauto |]. rewrite <- failed_runs_touched, E, failed_runs_app.
    rewrite (compiled_no_runs _ _ _ _ K1). destruct okr; reflexivity.
  - eexists _, t. split; [reflexivity |]. exact Logic.I.
  - eexists _, t. split; [reflexivity |]. exact Logic.I.
  - eexists _, t. split; [reflexivity |]. exact Logic.I.
Qed.

Definition tests_done (tests : list str) (n : nat) (t : list effect) : Prop :=
  exists blocks, Forall2 (fun p b => tested w sys fuel p (fst b) (snd b)) tests blocks
    /\ touched t = List.concat (map fst blocks) /\ n = failed_runs t.
Lemma run_tests_does : forall tests, yields (run_tests w sys fuel tests) (fun _ r t => match r with
  | inl n => tests_done tests n t | inr e => abrupt e end).
Proof.
  induction tests as [| p tests IH]; intros h.
  - exists (inl 0), []. rewrite app_nil_r. split; [reflexivity |]. exists []. repeat split. constructor.
  - cbn [run_tests]. unfold ibind at 1. destruct (run_test_does p h) as ([n | e] & t & -> & Hn).
    2: { exists (inr e), t. auto. }
    unfold ibind at 1. destruct Hn as (bad & Hb & En). destruct (IH (h ++ t)) as ([m | e] & t2 & -> & Hm).
    2: { exists (inr e), (t ++ t2). rewrite app_assoc. auto. }
    destruct Hm as (blocks & HF & Et & Em). unfold iret. exists (inl (n + m)), (t ++ t2). rewrite app_assoc. split; [reflexivity |].
    exists ((touched t, bad) :: blocks). split; [constructor; [exact Hb | exact HF] |]. rewrite touched_app, failed_runs_app, Et, En, Em. auto.
Qed.
Lemma run_args_does : forall args, yields (run_args w sys fuel args) (fun _ r t => match r with
  | inl x => exists tests, (forall p, In p tests <-> exists a, In a args /\ below ls a p) /\ tests_done tests (fst x) t /\ snd x = List.length tests
  | inr e => abrupt e end).
Proof.
  induction args as [| a args IH]; intros h.
  - exists (inl (0, 0)), []. rewrite app_nil_r. split; [reflexivity |]. exists []. split; [intros p; cbn; split; [intros [] | intros (x & [] & _)] |].
    split; [| reflexivity]. exists []. repeat split. constructor.
  - cbn [run_args]. unfold ibind at 1. unfold run_arg at 1, ibind at 1.
    destruct (find_tests_does fuel a h) as ([tests | e] & t & -> & -> & Ht).
    2: { exists (inr e), []. auto. }
    unfold ibind at 1. rewrite app_nil_r. destruct (run_tests_does tests h) as ([n | e] & t & -> & Hn).
    2: { exists (inr e), t. auto. }
    unfold ibind at 1. destruct (says_line (dec (N.of_nat (List.length tests)) ++ L " tests") (h ++ t)) as (r1 & t1 & -> & -> & (T1 & _) & _).
    unfold iret at 1. unfold ibind at 1. destruct (IH ((h ++ t) ++ t1)) as ([y | e] & t2 & -> & Hy).
    2: { exists (inr e), (t ++ t1 ++ t2). rewrite !app_assoc. auto. }
    destruct Hn as (blocks & HF & Et & En). destruct Hy as (tests2 & H2 & (blocks2 & HF2 & Et2 & En2) & Es2).
    unfold iret. eexists (inl _), (t ++ t1 ++ t2). rewrite !app_assoc. split; [reflexivity |].
    cbn [fst snd]. exists (tests ++ tests2). split; [| split].
    + intros p. rewrite in_app_iff, Ht, H2. cbn [In]. split.
      * intros [H | (x & Hx & H)]; [exists a; auto | exists x; auto].
      * intros (x & [<- | Hx] & H); [left; exact H | right; exists x; auto].
    + exists (blocks ++ blocks2). split; [apply Forall2_app; assumption |].
      rewrite !touched_app, !failed_runs_app, T1, Et, Et2, map_app, concat_app, app_nil_r.
      split; [reflexivity |]. rewrite <- (failed_runs_touched t1), T1. rewrite En, En2. change (failed_runs []) with 0. lia.
    + rewrite Es2, app_length. reflexivity.
Qed.
Lemma test_does : forall argv n h, che w sys fuel (L "test" :: argv) = (Exit n, h) ->
  exists tests, (forall p, In p tests <-> exists a, In a argv /\ below ls a p) /\ tests_done tests n h
    /\ exists before, printed h = before ++ (match n with O => L "OK " ++ dec (N.of_nat (List.length tests)) ++ L " tests"
         | _ => L "fails: " ++ dec (N.of_nat n) ++ L ", total: " ++ dec (N.of_nat (List.length tests)) end) ++ [c_nl].
Proof.
  intros argv n h H.
  change (che w sys fuel (L "test" :: argv)) with
    (match main_test w sys fuel argv [] with (inl code, h) => (Exit code, h) | (inr e, h) => (e, h) end) in H.
  unfold main_test in H. unfold ibind at 1 in H. destruct (run_args_does argv []) as ([x | e] & t & E & Hx); rewrite E in H.
  2: { injection H as -> _. destruct Hx. }
  destruct Hx as (tests & Ht & (blocks & HF & Et & En) & Es). rewrite Es in H.
  assert (S1 : says (match fst x with
     | O => println (L "OK " ++ dec (N.of_nat (List.length tests)) ++ L " tests")
     | n => println (L "fails: " ++ dec (N.of_nat n) ++ L ", total: " ++ dec (N.of_nat (List.length tests))) end)
     ((match fst x with O => L "OK " ++ dec (N.of_nat (List.length tests)) ++ L " tests"
         | n => L "fails: " ++ dec (N.of_nat n) ++ L ", total: " ++ dec (N.of_nat (List.length tests)) end) ++ [c_nl])).
  { destruct (fst x); apply says_line. }
  destruct (S1 t) as (r1 & t1 & E1 & -> & (T1 & C1) & P1). unfold ibind in H. cbn [app] in H. rewrite E1 in H. unfold iret in H. injection H as <- <-.
  exists tests. split; [exact Ht |]. split.
  - exists blocks. split; [exact HF |]. rewrite touched_app, failed_runs_app, T1, app_nil_r. split; [exact Et |].
    rewrite <- (failed_runs_touched t1), T1, En. cbn. lia.
  - exists (printed t). rewrite printed_app, P1. destruct (fst x); reflexivity.
Qed.
End Tests.

End MainFacts.
