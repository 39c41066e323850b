(** Proofs of the properties of whole builds. *)
From Verif Require Import Base Buf Lexer Nodes Resolve Cursor Preparser Parser CAst FormatC Translator Build BaseFacts.
From Verif Require Import SpecExports SpecScope FuelFacts SpecBuild BuildFacts ProjectFacts SpecDecl SpecTarget TargetFacts
  SpecModule TargetProps ScopeProps.

Section Props.
Context {U : Unicode} (w : world).

(** ** C43, C44 *)

Lemma modules_in_order : forall fuel main pr, parse_project w fuel main = BOk pr ->
  let paths := map mi_filepath (pr_heads pr) in
  NoDup paths
  /\ (forall p, In p paths <-> part_of w main p)
  /\ (forall p q, part_of w main p -> imports w p q -> earlier q p paths)
  /\ exists l, paths = l ++ [main].
Proof.
  intros fuel main pr H paths. destruct (project_built w _ _ _ H) as [Hp _ _ _].
  split; [apply (pg_nodup _ _ _ Hp) |]. split; [apply (pg_all _ _ _ Hp) |]. split.
  - intros p q Hpart Himp. apply (pg_all _ _ _ Hp) in Hpart. apply In_nth_error in Hpart.
    destruct Hpart as [i Hi]. destruct (nth_map_error _ _ _ _ _ _ Hi) as (h & Hh & E).
    destruct (pg_heads _ _ _ Hp i h Hh) as (_ & h0 & Hh0 & Ei & _). rewrite E in Hh0.
    pose proof (imports_head w _ _ _ Hh0 Himp) as Hr. apply in_map_iff in Hr. destruct Hr as (r & Er & Hr).
    rewrite <- Ei in Hr. destruct (pg_order _ _ _ Hp i h r Hh Hr) as (j & h' & Hlt & Hj & Ep).
    exists j, i. split; [exact Hlt |]. unfold paths. rewrite (map_nth_error _ _ _ Hj), (map_nth_error _ _ _ Hh).
    split; congruence.
  - destruct (pg_last _ _ _ Hp) as (hs & h & E & Em). exists (map mi_filepath hs). unfold paths.
    rewrite E, map_app. cbn. congruence.
Qed.

Lemma not_cyclic : forall fuel main pr, parse_project w fuel main = BOk pr -> ~ cyclic w main.
Proof.
  intros fuel main pr H. unfold parse_project in H.
  destruct (load_tree w fuel [] main []) as [[paths c] | | |] eqn:El; try discriminate.
  eapply loaded_acyclic. apply (load_ok w fuel [] main [] paths c (good_nil w) El).
Qed.

Lemma common_fuel : forall files, (forall p, In p files -> exists f, preparse f w p <> NoFuel) ->
  exists F, forall p, In p files -> preparse F w p <> NoFuel.
Proof.
  induction files as [| p files IH]; intros H; [exists 0; intros p [] |].
  destruct IH as [F HF]; [intros q Hq; apply H; right; exact Hq |].
  destruct (H p (or_introl eq_refl)) as (f & Hf). exists (max f F). intros q [<- | Hq].
  - rewrite (preparse_stable U w p f); [exact Hf | lia | exact Hf].
  - rewrite (preparse_stable U w q F); [apply HF, Hq | lia | apply HF, Hq].
Qed.

Lemma good_outcome : forall main f e, (forall p, part_of w main p -> exists i, header w p i) ->
  (forall i, e <> Ok i) -> e <> NoFuel -> ~ bad_file w main f e.
Proof.
  intros main f e H H1 H2 (q & Hq & E). destruct (H q Hq) as (i & f' & Hf).
  pose proof (preparse_stable U w q f (max f f') ltac:(lia) ltac:(congruence)) as E1.
  pose proof (preparse_stable U w q f' (max f f') ltac:(lia) ltac:(congruence)) as E2.
  apply (H1 i). congruence.
Qed.

Lemma walk_tail : forall l1 l2, walk w (l1 ++ l2) -> walk w l2.
Proof.
  induction l1 as [| a l1 IH]; intros l2 H; [exact H |]. apply IH. destruct H as [_ H]. exact H.
Qed.

Lemma loop_cyclic : forall main trail q, loop_from w main trail q -> cyclic w main.
Proof.
  intros main trail q ((l & ->) & Hw & Hq). exists q. split.
  - apply (walk_part w (l ++ [q]) main Hw). right. apply in_or_app. right. left. reflexivity.
  - apply in_split in Hq. destruct Hq as (l1 & l2 & E). rewrite E, <- app_assoc in Hw.
    apply walk_tail in Hw. cbn [app] in Hw.
    assert (G : forall l a b, walk w (a :: l ++ [b]) -> needs w a b).
    { induction l0 as [| c l0 IH]; intros a b Hab; cbn [app] in Hab; destruct Hab as [H1 H2].
      - apply Needs_one, H1.
      - eapply Needs_more; [exact H1 | apply IH, H2]. }
    apply (G l2 q q Hw).
Qed.

Lemma loading_ends : forall main files,
  (forall p, In p files <-> part_of w main p) ->
  (forall p, In p files -> exists f, preparse f w p <> NoFuel) ->
  exists F, forall fuel, F <= fuel -> load_tree w fuel [] main [] <> NoFuel.
Proof.
  intros main files Hf Ht. destruct (common_fuel files Ht) as [F HF].
  exists (S (S (F + List.length files))). intros fuel Hle. destruct fuel as [| fuel]; [lia |].
  apply (load_done w main files F).
  - intros p. apply Hf.
  - intros p Hp. apply HF, Hf, Hp.
  - apply good_nil.
  - cbn. lia.
  - constructor.
  - intros p [].
  - left. reflexivity.
Qed.

(** The three ways loading can end. *)
Lemma loading_cases : forall main fuel,
  match load_tree w fuel [] main [] with
  | Ok (l, c) => ~ cyclic w main /\ forall p, part_of w main p -> exists i, header w p i
  | Err e => (exists trail q, loop_from w main trail q /\ e_msg e = loop_message trail q)
             \/ exists f p, part_of w main p /\ preparse f w p = Err e
  | Abort s => exists f p, part_of w main p /\ preparse f w p = Abort s
  | NoFuel => True
  end.
Proof.
  intros main fuel. destruct (load_tree w fuel [] main []) as [[l c] | e | s |] eqn:E; [| | | exact I].
  - pose proof (load_ok w fuel [] main [] l c (good_nil w) E) as Hl.
    split; [eapply loaded_acyclic, Hl |]. intros p Hp. apply (loaded_all w _ _ _ _ _ Hl) in Hp.
    destruct (ld_known _ _ _ _ _ _ Hl p Hp) as [i Hi]. exists i. apply (ld_good _ _ _ _ _ _ Hl), Hi.
  - destruct (load_err w main fuel [] main [] e (good_nil w)) as [(t & q & H1 & ->) | (f & p & H1 & H2)];
      [left; auto | cbn; auto | exact E | left; eauto | right; eauto].
  - destruct (load_abort w main fuel [] main [] s (good_nil w)) as (f & p & H1 & H2);
      [left; auto | cbn; auto | exact E | eauto].
Qed.

Lemma cycles_decide : forall main files,
  (forall p, In p files <-> part_of w main p) ->
  (forall p, In p files -> exists i, header w p i) ->
  exists F, forall fuel, F <= fuel ->
    (cyclic w main /\ exists trail q, loop_from w main trail q
       /\ parse_project w fuel main = BErrs [mkBerr [] [] (loop_message trail q)])
    \/ (~ cyclic w main /\ exists heads, program w main heads
       /\ parse_project w fuel main
          = bbind (parse_mods w fuel heads heads) (fun mods =>
            bbind (translate_mods mods heads [] (combine mods heads)) (fun cmods =>
            BOk (mkProject heads mods cmods)))).
Proof.
  intros main files Hf Hh.
  destruct (loading_ends main files Hf) as [F HF].
  { intros p Hp. destruct (Hh p Hp) as (i & f & E). exists f. congruence. }
  exists F. intros fuel Hle. specialize (HF fuel Hle). pose proof (loading_cases main fuel) as Hc.
  assert (Hall : forall p, part_of w main p -> exists i, header w p i) by (intros p Hp; apply Hh, Hf, Hp).
  unfold parse_project.
  destruct (load_tree w fuel [] main []) as [[l c] | e | s |] eqn:E; [| | | contradiction].
  - right. destruct Hc as [Hc _]. split; [exact Hc |].
    pose proof (load_ok w fuel [] main [] l c (good_nil w) E) as Hl.
    destruct (heads_of_some c (uniq (rev l))) as [heads0 Eh].
    { intros p Hp. apply (proj1 (uniq_in _ _)) in Hp. rewrite <- in_rev in Hp. apply (ld_known _ _ _ _ _ _ Hl), Hp. }
    rewrite Eh. exists (with_ids 0 heads0). split; [eapply program_of; eauto | reflexivity].
  - left. destruct Hc as [(t & q & H1 & H2) | (f & p & Hp & Ee)].
    + split; [eapply loop_cyclic, H1 |]. exists t, q. split; [exact H1 |]. rewrite H2. reflexivity.
    + exfalso. eapply (good_outcome main f (Err e)); [exact Hall | | | exists p; split; [exact Hp | exact Ee]];
        intros; discriminate.
  - exfalso. destruct Hc as (f & p & Hp & Ee).
    eapply (good_outcome main f (Abort s)); [exact Hall | | | exists p; split; [exact Hp | exact Ee]];
      intros; discriminate.
Qed.

(** ** C45 *)

(** Translating the [i]-th module when the [i] modules before it are done. *)
Lemma imports_available : forall fuel main heads mods i h m done, front w fuel main = BOk (heads, mods) ->
  nth_error heads i = Some h -> nth_error mods i = Some m -> List.length done = i ->
  let env := env_of m (mkParams h heads done mods) in
  (forall r, In r (mi_imports h) ->
     exists j h' m' cm', nth_error heads j = Some h' /\ nth_error mods j = Some m' /\ nth_error done j = Some cm'
       /\ mi_filepath h' = r_path r
       /\ (find (fun x => str_eqb (r_ns x) (r_ns r)) (mi_imports h) = Some r ->
           find_ns env (r_ns r) = Some (h', m')))
  /\ (forall q, In q (map r_ns (mi_imports h)) -> find_ns env q <> None)
  /\ exists l, expand_imports env = TrOk l.
Proof.
  intros fuel main heads mods i h m done Hf Hi Hm Hd env.
  destruct (front_ok w _ _ _ _ Hf) as [Hp Hpm]. pose proof (Forall2_length _ _ _ _ _ Hpm) as Hlen.
  assert (H1 : forall r, In r (mi_imports h) ->
     exists j h' m' cm', nth_error heads j = Some h' /\ nth_error mods j = Some m' /\ nth_error done j = Some cm'
       /\ mi_filepath h' = r_path r
       /\ (find (fun x => str_eqb (r_ns x) (r_ns r)) (mi_imports h) = Some r ->
           find_ns env (r_ns r) = Some (h', m'))).
  { intros r Hr. destruct (import_found w main heads i h r Hp Hi Hr) as (j & h' & Hlt & Hj & Ep & Hpos).
    assert (Hjl : j < List.length heads) by (apply nth_error_Some; congruence).
    destruct (nth_error mods j) as [m' |] eqn:Em; [| apply nth_error_None in Em; lia].
    destruct (nth_error done j) as [cm' |] eqn:Ec; [| apply nth_error_None in Ec; lia].
    exists j, h', m', cm'. repeat split; auto. intros Hfind. unfold find_ns, env, env_of.
    cbn [en_mod en_heads en_mods tp_mod tp_heads tp_mods]. rewrite Hfind, Hpos, Hj, Em. reflexivity. }
  split; [exact H1 |]. split.
  - intros q Hq. apply in_map_iff in Hq. destruct Hq as (r0 & E0 & Hr0).
    destruct (find (fun x => str_eqb (r_ns x) q) (mi_imports h)) as [r |] eqn:Ef.
    + pose proof (find_some _ _ Ef) as [Hr E]. apply str_eqb_eq in E.
      destruct (H1 r Hr) as (j & h' & m' & cm' & _ & _ & _ & _ & Hn). rewrite E in Hn.
      rewrite (Hn Ef). discriminate.
    + exfalso. pose proof (find_none _ _ Ef r0 Hr0) as Hno. cbv beta in Hno. rewrite E0, str_eqb_refl in Hno. discriminate.
  - unfold expand_imports. destruct (synopses_found w main heads i h done env (mi_imports h) Hp Hi eq_refl eq_refl Hd (incl_refl _)) as [l El].
    unfold env at 2, env_of. cbn [en_mod tp_mod]. rewrite El. eexists. reflexivity.
Qed.

(** ** C30, C31 *)

Lemma unit_id : forall fuel main pr i h m cm, parse_project w fuel main = BOk pr -> unit_at pr i h m cm ->
  mi_uniqid h = module_id i (mi_filepath h).
Proof.
  intros fuel main pr i h m cm H (H1 & _). destruct (project_built w _ _ _ H) as [Hp _ _ _].
  apply (pg_heads _ _ _ Hp i h H1).
Qed.

Lemma names_differ : forall fuel main pr i h m cm j h' m' cm' x y, parse_project w fuel main = BOk pr ->
  unit_at pr i h m cm -> unit_at pr j h' m' cm' ->
  global_name (mi_uniqid h) x = global_name (mi_uniqid h') y -> i = j /\ x = y.
Proof.
  intros fuel main pr i h m cm j h' m' cm' x y H H1 H2 E.
  rewrite (unit_id _ _ _ _ _ _ _ H H1), (unit_id _ _ _ _ _ _ _ H H2) in E.
  apply global_inj in E. destruct E as [-> E]. split; [reflexivity |]. apply E.
  destruct H1 as [H1 _], H2 as [H2 _]. congruence.
Qed.

Lemma import_unit : forall fuel main pr i h m cm q h' m', parse_project w fuel main = BOk pr ->
  unit_at pr i h m cm -> import (site_of m (unit_params pr i h)) q = Some (h', m') ->
  exists j cm', j < i /\ unit_at pr j h' m' cm'.
Proof.
  intros fuel main pr i h m cm q h' m' H H1 Hi. pose proof (project_built w _ _ _ H) as Hb.
  destruct Hb as [Hp [L1 L2] _ _]. unfold site_of, imported, unit_params in Hi. cbn [import tp_mod tp_heads tp_mods] in Hi.
  destruct (find _ (mi_imports h)) as [r |] eqn:Ef; [| discriminate].
  apply find_some in Ef. destruct Ef as [Hr _].
  rewrite (find_combine _ _ (fun x => str_eqb (mi_filepath x) (r_path r))) in Hi.
  destruct (import_found w main (pr_heads pr) i h r Hp (proj1 H1) Hr) as (j & h2 & Hlt & Hj & Ep & Hpos).
  rewrite Hpos, Hj in Hi. destruct (nth_error (pr_mods pr) j) as [m2 |] eqn:Em; [| discriminate].
  inversion Hi; subst. assert (Hjl : j < List.length (pr_heads pr)) by (apply nth_error_Some; congruence).
  destruct (nth_error (pr_cmods pr) j) as [cm' |] eqn:Ec; [| apply nth_error_None in Ec; lia].
  exists j, cm'. split; [exact Hlt |]. repeat split; assumption.
Qed.

(** What an importing module writes for [q.x]. *)
Lemma qualified_name : forall S G p q x h m, q <> [] -> q <> L "OS" -> import S q = Some (h, m) ->
  cname S G (mkNs p q x) = global_name (mi_uniqid h) x.
Proof.
  intros S G p q x h m H1 H2 Hi. unfold cname. cbn [ns_ns ns_name].
  destruct (str_eqb_spec q (L "OS")); [contradiction |]. destruct (str_eqb_spec q []); [contradiction |].
  unfold import_id. rewrite Hi. reflexivity.
Qed.
Lemma qualified_type_name : forall S b p q x h m, q <> [] -> q <> L "OS" -> import S q = Some (h, m) ->
  c_type S (mkTn b (mkNs p q x)) = mkCtn b (global_name (mi_uniqid h) x).
Proof.
  intros S b p q x h m H1 H2 Hi. unfold c_type. cbn [tn_name tn_const ns_ns ns_name].
  destruct (str_eqb_spec q (L "OS")); [contradiction |]. destruct (str_eqb_spec q []); [contradiction |].
  unfold import_id. rewrite Hi. reflexivity.
Qed.

Lemma in_c_elems : forall S numeric e x, In e (elements S) ->
  In x (c_elem S (module_decls numeric (elements S)) e) -> In x (c_elems S numeric).
Proof. intros S numeric e x H1 H2. unfold c_elems. apply in_flat_map. exists e. auto. Qed.

Lemma look_none : forall x G, ~ In x (map d_name G) -> look x G = None.
Proof.
  intros x G H. unfold look. destruct (find _ G) as [d |] eqn:E; [| reflexivity].
  apply find_some in E. destruct E as [H1 H2]. apply str_eqb_eq in H2. exfalso. apply H. subst. apply in_map, H1.
Qed.
Lemma param_decl_names : forall p x, In x (map d_name (param_decls p)) <-> In x (param_names p).
Proof.
  intros p x. unfold param_decls, param_names. rewrite map_rev, <- in_rev.
  induction (fp_list p) as [| t l IH]; cbn [flat_map]; [tauto |].
  rewrite map_app, !in_app_iff, IH, map_map. cbn [local d_name]. tauto.
Qed.

Lemma nodup_app : forall A (a b : list A), NoDup (a ++ b) <->
  NoDup a /\ NoDup b /\ forall x, In x a -> ~ In x b.
Proof.
  intros A a b. induction a as [| x a IH]; cbn [app].
  - split; [intros H; repeat split; [constructor | exact H | intros x []] | intros (_ & H & _); exact H].
  - rewrite !NoDup_cons_iff, IH, in_app_iff. split.
    + intros (H1 & H2 & H3 & H4). repeat split; auto. intros y [<- | Hy]; [tauto | auto].
    + intros ((H1 & H2) & H3 & H4). split; [| split; [exact H2 |]; split; [exact H3 |]].
      * intros [H | H]; [auto |]. apply (H4 x); [left; reflexivity | exact H].
      * intros y Hy. apply H4. right. exact Hy.
Qed.

Definition declared_names (l : list item) : list str :=
  flat_map (fun i => match i with Declare x _ => [x] | _ => [] end) l.
Lemma once_names : forall here l, declared_once here l ->
  NoDup (declared_names l) /\ forall x, In x (declared_names l) -> ~ In x here.
Proof.
  intros here l H. induction H as [here | here r l H IH | here x p l Hx H IH | here l' l H1 IH1 H2 IH2];
    unfold declared_names in *; cbn [flat_map app].
  - split; [constructor | intros x []].
  - exact IH.
  - destruct IH as [IH1 IH2]. split.
    + constructor; [| exact IH1]. intros Hi. apply (IH2 x Hi). left. reflexivity.
    + intros y [<- | Hy]; [exact Hx |]. intros Hh. apply (IH2 y Hy). right. exact Hh.
  - exact IH2.
Qed.

Lemma declared_app : forall a b, declared_names (a ++ b) = declared_names a ++ declared_names b.
Proof. intros. unfold declared_names. apply flat_map_app. Qed.
Lemma elem_decl_names : forall numeric e,
  map d_name (elem_decls numeric e) = declared_names (elem_declares e) \/ elem_decls numeric e = [].
Proof.
  intros numeric e. destruct e; cbn [elem_decls elem_declares]; auto.
  - destruct (str_eqb _ _); [| auto]. destruct (split_whitespace _) as [| a [| b r]]; auto.
  - left. induction (enum_entries e) as [| x l IH]; [reflexivity |]. cbn. f_equal. exact IH.
Qed.
Lemma decls_nodup : forall numeric elems, NoDup (declared_names (flat_map elem_declares elems)) ->
  NoDup (map d_name (flat_map (elem_decls numeric) elems))
  /\ incl (map d_name (flat_map (elem_decls numeric) elems)) (declared_names (flat_map elem_declares elems)).
Proof.
  intros numeric. induction elems as [| e l IH]; cbn [flat_map]; intros H; [split; [constructor | intros x []] |].
  rewrite declared_app in *. apply nodup_app in H. destruct H as (H1 & H2 & H3). destruct (IH H2) as [I1 I2].
  destruct (elem_decl_names numeric e) as [E | E].
  - rewrite map_app, E. split.
    + apply nodup_app. repeat split; auto. intros x Hx Hl. apply (H3 x Hx), I2, Hl.
    + apply incl_app_app; [apply incl_refl | exact I2].
  - rewrite E. cbn [app]. split; [exact I1 |]. apply incl_appr, I2.
Qed.

Lemma look_unique : forall G d, NoDup (map d_name G) -> In d G -> look (d_name d) G = Some d.
Proof.
  intros G d. unfold look. induction G as [| e G IH]; intros H1 H2; [destruct H2 |]. cbn [find].
  inversion H1 as [| ? ? Hn H3]; subst. destruct H2 as [-> | H2].
  - rewrite str_eqb_refl. reflexivity.
  - destruct (str_eqb_spec (d_name e) (d_name d)) as [E |]; [| apply IH; assumption].
    exfalso. apply Hn. rewrite E. apply in_map, H2.
Qed.

Lemma module_look : forall m p cm d, translate m p = TrOk cm -> In d (module_decls is_numeric (mod_elements m)) ->
  look (d_name d) (module_decls is_numeric (mod_elements m)) = Some d.
Proof.
  intros m p cm d H Hd. apply look_unique; [| exact Hd]. apply no_duplicates in H. unfold in_module in H.
  inversion H as [| | | here l' l H1 H2 E1 E2]; subst. apply once_names in H1. destruct H1 as [H1 _].
  rewrite declared_app in H1. apply nodup_app in H1. destruct H1 as [H1 _].
  unfold module_decls. rewrite map_rev. apply NoDup_rev. apply (decls_nodup is_numeric _ H1).
Qed.

(** A pub function is defined under its prefixed name, unless it is main or one
    of its own parameters has its name. *)
Lemma pub_head : forall m p cm f, translate m p = TrOk cm -> In (MFunc f) (mod_elements m) -> fd_pub f = true ->
  f_name (fd_form f) <> L "main" -> ~ In (f_name (fd_form f)) (param_names (fd_params f)) ->
  cf_name (cfd_form (c_function (site_of m p) is_numeric f)) = global_name (mi_uniqid (tp_mod p)) (f_name (fd_form f)).
Proof.
  intros m p cm f H Hf Hpub Hmain Hpar. unfold c_function, inside. cbv zeta. cbn [cfd_form c_form cf_name].
  set (x := f_name (fd_form f)) in *. unfold head_name. rewrite look_app.
  rewrite look_none by (rewrite param_decl_names; exact Hpar). cbn [site_of elements].
  pose proof (module_look m p cm (mkDecl x (fd_pub f || str_eqb x (L "main")) (function_type f)) H) as Hl.
  cbn [d_name] in Hl. rewrite Hl.
  - cbn [d_pub]. rewrite Hpub. cbn [orb andb]. destruct (str_eqb_spec x (L "main")); [contradiction |]. reflexivity.
  - unfold module_decls. rewrite <- in_rev. apply in_flat_map. exists (MFunc f). split; [exact Hf |]. left. reflexivity.
Qed.

(** The element for a C declaration of the module is in its file, up to equal text. *)
Lemma own_text : forall m p cm e, translate m p = TrOk cm -> In e (c_elems (site_of m p) is_numeric) ->
  exists e', In e' (cm_elements cm) /\ format_elem e' = format_elem e.
Proof.
  intros m p cm e H I. apply translate_target in H. destruct H as (s & imps & _ & X & T & ->). cbn [cm_elements].
  destruct (dedup_text (module_head s ++ imps ++ c_elems (site_of m p) is_numeric) [] e) as [[_ []] | (y & Hy & E)].
  - rewrite !in_app_iff. right. right. exact I.
  - exists y. split; [apply reorder_in, Hy | exact E].
Qed.

Lemma definitions : forall m p cm, translate m p = TrOk cm ->
  let id := mi_uniqid (tp_mod p) in
  (forall e en, In (MEnum e) (mod_elements m) -> enum_pub e = true -> In en (enum_entries e) ->
     exists d v, In (XEnum d) (cm_elements cm) /\ ced_hidden d = false
       /\ In (global_name id (en_name en), v) (ced_entries d))
  /\ (forall f, In (MFunc f) (mod_elements m) -> fd_pub f = true -> f_name (fd_form f) <> L "main" ->
      ~ In (f_name (fd_form f)) (param_names (fd_params f)) ->
      (exists d, In (XFunc d) (cm_elements cm) /\ cfd_static d = false
        /\ cf_name (cfd_form d) = global_name id (f_name (fd_form f)))
      /\ (exists d, In (XForwardFunc d) (cm_elements cm) /\ cfw_static d = false
        /\ cf_name (cfw_form d) = global_name id (f_name (fd_form f))))
  /\ (forall x, pub_type (mod_elements m) x ->
      exists d e, In e (cm_elements cm) /\ format_elem e = format_elem (XTypedef d)
        /\ ctdf_alias (ctd_form d) = global_name id x).
Proof.
  intros m p cm H id. split; [| split].
  - intros e en He Hp Hen.
    pose proof (in_c_elems (site_of m p) is_numeric (MEnum e)) as Hc.
    eexists. eexists. split; [eapply own_in; [exact H | eapply Hc; [exact He | left; reflexivity] | cbn; tauto] |].
    cbn [ced_hidden ced_entries]. rewrite Hp. split; [reflexivity |]. apply in_map_iff. exists en.
    split; [reflexivity | exact Hen].
  - intros f Hf Hp Hm Hpar. pose proof (pub_head m p cm f H Hf Hp Hm Hpar) as Hn.
    assert (Hs : In f (source_functions (mod_elements m))).
    { unfold source_functions. apply in_flat_map. exists (MFunc f). split; [exact Hf | left; reflexivity]. }
    split.
    + exists (c_function (site_of m p) is_numeric f). split; [apply (function_text m p cm f H Hf) |].
      split; [unfold c_function; cbv zeta; cbn [cfd_static]; rewrite Hp; reflexivity | exact Hn].
    + pose proof (module_prototypes m p cm f H Hs) as Hpr. cbv zeta in Hpr.
      eexists. split; [apply Hpr; exact Hm |].
      split; [unfold prototype_of, c_function; cbv zeta; cbn [cfw_static cfd_static]; rewrite Hp; reflexivity | exact Hn].
  - intros x [(t & Ht & Hp & <-) | (t & Ht & Hp & <-)].
    + pose proof (in_c_elems (site_of m p) is_numeric (MTypedef t)) as Hc.
      destruct (own_text m p cm _ H (Hc _ Ht (or_introl eq_refl))) as (e & He & Ee).
      eexists. exists e. split; [exact He |]. split; [exact Ee |]. cbn [ctd_form ctdf_alias]. rewrite Hp. reflexivity.
    + pose proof (in_c_elems (site_of m p) is_numeric (MStruct t)) as Hc.
      destruct (own_text m p cm _ H (Hc _ Ht (or_intror (or_intror (or_introl eq_refl))))) as (e & He & Ee).
      eexists. exists e. split; [exact He |]. split; [exact Ee |]. cbn [ctd_form ctdf_alias]. rewrite Hp. reflexivity.
Qed.

(** ** C46 *)

Lemma dedup_firsts : forall A (k : A -> str) l seen, firsts k seen l (dedup_by k seen l).
Proof.
  intros A k. induction l as [| a l IH]; intros seen; cbn [dedup_by]; [constructor |].
  destruct (str_in (k a) seen) eqn:E.
  - apply str_in_spec in E. apply Firsts_old; auto.
  - apply str_in_false in E. apply Firsts_new; auto.
Qed.
Lemma key_is : forall e, get_obj_key e = key e.
Proof. intros []; reflexivity. Qed.
Lemma dedup_key : forall l seen, dedup_by get_obj_key seen l = dedup_by key seen l.
Proof.
  induction l as [| a l IH]; intros seen; cbn [dedup_by]; [reflexivity |]. rewrite key_is, !IH. reflexivity.
Qed.
Lemma offered_is : forall e, in_synopsis e = offered e.
Proof. intros []; reflexivity. Qed.

Lemma synopses_of : forall env imps l, import_synopses env imps = TrOk l ->
  exists ls, Forall2 (fun r part => exists j cm', position (fun x => str_eqb (mi_filepath x) (r_path r)) (en_heads env) = Some j
     /\ nth_error (en_cmods env) j = Some cm' /\ part = filter offered (cm_elements cm')) imps ls
  /\ l = List.concat ls.
Proof.
  intros env. induction imps as [| r imps IH]; intros l H; cbn [import_synopses] in H.
  - inversion H. exists []. split; [constructor | reflexivity].
  - destruct (position _ _) as [j |] eqn:Ep; [| discriminate].
    destruct (nth_error (en_cmods env) j) as [cm |] eqn:Ec; [| discriminate].
    destruct (import_synopses env imps) as [l2 | |]; try discriminate. inversion H; subst.
    destruct (IH l2 eq_refl) as (ls & H1 & ->). exists (filter offered (cm_elements cm) :: ls).
    split.
    + constructor; [| exact H1]. exists j, cm. auto.
    + reflexivity.
Qed.

Lemma forall2_impl : forall A B (R Q : A -> B -> Prop) l l',
  Forall2 R l l' -> (forall a b, R a b -> Q a b) -> Forall2 Q l l'.
Proof. intros A B R Q l l' H HQ. induction H; constructor; auto. Qed.

Lemma firstn_nth : forall A (l : list A) n i a, nth_error (firstn n l) i = Some a -> nth_error l i = Some a.
Proof.
  intros A. induction l as [| x l IH]; intros [| n] [| i] a H; cbn in *; try discriminate; auto.
  eapply IH; eauto.
Qed.

(** The import clause [r] gives the declarations [part]. *)
Definition gives (pr : project) (i : nat) (r : modref) (part : list celem) : Prop :=
  exists j h' m' cm', j < i /\ unit_at pr j h' m' cm' /\ mi_filepath h' = r_path r
    /\ part = filter offered (cm_elements cm').

Lemma unit_gives : forall fuel main pr i h m cm, parse_project w fuel main = BOk pr -> unit_at pr i h m cm ->
  exists s parts injected, Forall2 (gives pr i) (mi_imports h) parts
    /\ firsts key [] (List.concat parts) injected
    /\ cm_elements cm = reorder_elems (module_head s ++ injected ++ c_elems (site_of m (unit_params pr i h)) is_numeric).
Proof.
  intros fuel main pr i h m cm H Hu. pose proof (project_built w _ _ _ H) as Hb.
  pose proof (po_translated _ _ _ _ Hb i h m cm Hu) as Ht.
  apply translate_target in Ht. destruct Ht as (s & imps & _ & X & _ & ->).
  unfold expand_imports in X. destruct (import_synopses _ _) as [l | |] eqn:E; try discriminate. inversion X; subst. clear X.
  apply synopses_of in E. destruct E as (parts & Hparts & ->).
  exists s, parts, (dedup_by get_obj_key [] (List.concat parts)). split; [| split; [rewrite dedup_key; apply dedup_firsts | reflexivity]].
  unfold env_of, unit_params in Hparts. cbn [en_mod tp_mod en_heads tp_heads en_cmods tp_cmods] in Hparts.
  eapply forall2_impl; [exact Hparts |]. cbv beta. intros r part (j & cm' & Hpos & Hc & ->).
  destruct (position_nth _ _ _ _ Hpos) as (h' & Hh' & Ep). apply str_eqb_eq in Ep.
  destruct (po_lengths _ _ _ _ Hb) as [L1 L2].
  assert (Hj : j < List.length (pr_heads pr)) by (apply nth_error_Some; congruence).
  destruct (nth_error (pr_mods pr) j) as [m' |] eqn:Em; [| apply nth_error_None in Em; lia].
  assert (Hji : j < i).
  { assert (j < List.length (firstn i (pr_cmods pr))) by (apply nth_error_Some; congruence).
    rewrite firstn_length in *. lia. }
  apply firstn_nth in Hc. exists j, h', m', cm'. split; [exact Hji |]. split; [repeat split; assumption |].
  split; [exact Ep | reflexivity].
Qed.

Lemma firsts_in : forall A (k : A -> str) seen l l', firsts k seen l l' -> forall a, In a l' -> In a l.
Proof. intros A k seen l l' H. induction H; cbn [In]; intros x Hx; intuition. Qed.

(** Everything a file offers is a directive or comes from a pub element of a
    module of the project. *)
Definition public_origin (pr : project) (e : celem) : Prop :=
  (exists n v, e = XMacro n v)
  \/ exists k h m cm x, unit_at pr k h m cm /\ In x (mod_elements m) /\ is_pub x = true
     /\ In e (c_elem (site_of m (unit_params pr k h)) (module_decls is_numeric (mod_elements m)) x).

Lemma own_public : forall S G x e, In e (c_elem S G x) -> offered e = true ->
  (exists n v, e = XMacro n v) \/ is_pub x = true.
Proof.
  intros S G x e H Ho. destruct x; cbn [c_elem is_pub] in *.
  - destruct (_ || _); [destruct H |]. destruct H as [<- | []]. left. eauto.
  - destruct H as [<- | []]. cbn in Ho. right. destruct (enum_pub e0); auto.
  - destruct H as [<- | []]. right. exact Ho.
  - destruct H as [<- | []]. right. exact Ho.
  - destruct H as [<- | [<- | [<- | []]]]; cbn in Ho; try discriminate; right; exact Ho.
  - destruct (v_value v); [| destruct H]. destruct H as [<- | []]. discriminate.
  - destruct H as [<- | H]; [discriminate |]. destruct (str_eqb _ _); [destruct H |].
    destruct H as [<- | []]. cbn in Ho. right. destruct (fd_pub f); auto.
Qed.

Lemma offers_public : forall fuel main pr i h m cm e, parse_project w fuel main = BOk pr -> unit_at pr i h m cm ->
  In e (cm_elements cm) -> offered e = true -> public_origin pr e.
Proof.
  intros fuel main pr i h m cm e H. revert h m cm e. induction i as [i IH] using lt_wf_ind.
  intros h m cm e Hu He Ho. destruct (unit_gives _ _ _ _ _ _ _ H Hu) as (s & parts & inj & Hg & Hf & E).
  rewrite E in He. apply reorder_in in He.
  apply (thinned_in _ _ _ _ _ (dedup_thins _ _)) in He. apply in_app_or in He. destruct He as [He | He].
  - unfold module_head in He. rewrite !in_app_iff in He.
    destruct He as [[<- | []] | [He | [He | [<- | []]]]].
    + left. eauto.
    + unfold std_includes in He. apply in_map_iff in He. destruct He as (n & <- & _). discriminate.
    + destruct (str_in _ _); [| destruct He]. destruct He as [<- | []]. discriminate.
    + left. eauto.
  - apply in_app_or in He. destruct He as [He | He].
    + apply (firsts_in _ _ _ _ _ Hf) in He. apply in_concat in He. destruct He as (part & Hpart & He).
      assert (Hr : exists r, gives pr i r part).
      { clear - Hg Hpart. induction Hg; [destruct Hpart |]. destruct Hpart as [<- | Hp]; [eauto | auto]. }
      destruct Hr as (r & j & h' & m' & cm' & Hlt & Hu' & _ & ->). apply filter_In in He. destruct He as [He _].
      eapply (IH j Hlt); eauto.
    + unfold c_elems in He. apply in_flat_map in He. destruct He as (x & Hx & He). cbn [site_of elements] in *.
      destruct (own_public _ _ _ _ He Ho) as [Hm | Hp]; [left; exact Hm |].
      right. exists i, h, m, cm, x. repeat split; auto; apply Hu.
Qed.

Lemma firsts_keys : forall A (k : A -> str) seen l l', firsts k seen l l' ->
  NoDup (map k l') /\ (forall a, In a l' -> ~ In (k a) seen)
  /\ (forall a, In a l -> In (k a) seen \/ In (k a) (map k l')).
Proof.
  intros A k seen l l' H. induction H as [seen | seen a l l' Ha H IH | seen a l l' Ha H IH].
  - split; [constructor |]. split; intros a [].
  - destruct IH as (I1 & I2 & I3). repeat split; auto. intros b [<- | Hb]; auto.
  - destruct IH as (I1 & I2 & I3). cbn [map]. repeat split.
    + constructor; [| exact I1]. intros Hi. apply in_map_iff in Hi. destruct Hi as (b & E & Hb).
      apply (I2 b Hb). rewrite E. left. reflexivity.
    + intros b [<- | Hb]; [exact Ha |]. intros Hs. apply (I2 b Hb). right. exact Hs.
    + intros b [<- | Hb]; [right; left; reflexivity |].
      destruct (I3 b Hb) as [[E | Hs] | Hm]; auto; right; [left | right]; auto.
Qed.

End Props.
