(** What the C code of a function uses is declared: the part about modules. *)
From Verif Require Import Base BaseFacts Buf Nodes NodeInd Types Cspec Resolve Preparser Parser CAst FormatC Translator SpecCStmt CStmtFacts
  SpecDecl SpecScope SpecExports SpecModule SpecTarget TargetFacts TargetProps ScopeProps SpecTyping ElabFacts SpecAccept AcceptFacts SpecTame SpecClosed SpecTidy ClosedFacts
  SpecBuild BuildFacts BuildProps.

(** ** Everywhere *)
Lemma each_subs : forall (P : expr -> Prop) e, (forall x, In x (subs e) -> P x) -> each_expr P e.
Proof.
  intros P. induction e as [a i IHa IHi | p op a b IHa IHb | p op x f IH | b x IH | es IHe _ | p f args IHf IHa | l | n | op x IH
    | p op x IH | b | x IH] using expr_ind'; intros H; cbn [subs] in H; (split; [apply H; now left |]); auto;
    try (split; [apply IHa | first [apply IHi | apply IHb]]; intros y Y; apply H; right; rewrite in_app_iff; auto; fail);
    try (apply IH; intros y Y; apply H; now right).
  - rewrite all_in. rewrite Forall_forall in IHe. intros a A. apply IHe; [exact A |]. intros y Y. apply H. right. apply in_flat_map. eauto.
  - split; [apply IHf; intros y Y; apply H; right; rewrite in_app_iff; auto |].
    rewrite all_in. rewrite Forall_forall in IHa. intros a A. apply IHa; [exact A |]. intros y Y. apply H. right.
    rewrite in_app_iff, in_flat_map. eauto.
Qed.
Lemma each_form_exprs : forall (P : expr -> Prop) f, (forall e x, In e (form_exprs f) -> In x (subs e) -> P x) -> each_form P f.
Proof.
  intros P f H. unfold each_form. rewrite all_in. intros [e |] I; cbn; auto. apply each_subs. intros x X.
  eapply H; [| exact X]. unfold form_exprs. apply in_flat_map. exists (Some e). split; [exact I | now left].
Qed.
Lemma each_opt_exprs : forall (P : expr -> Prop) o, (forall e x, In e (opt_list o) -> In x (subs e) -> P x) -> all_opt (each_expr P) o.
Proof. intros P [e |] H; cbn; auto. apply each_subs. intros x X. eapply H; [now left | exact X]. Qed.
Lemma each_stmt_exprs : forall (P : expr -> Prop) s, (forall e x, In e (stmt_exprs s) -> In x (subs e) -> P x) -> each_stmt P (fun _ => True) s.
Proof.
  intros P.
  assert (B : forall b, Forall (fun s => (forall e x, In e (stmt_exprs s) -> In x (subs e) -> P x) -> each_stmt P (fun _ => True) s) b ->
    (forall e x, In e (flat_map stmt_exprs b) -> In x (subs e) -> P x) -> all (each_stmt P (fun _ => True)) b).
  { intros b F H. rewrite all_in. rewrite Forall_forall in F. intros s I. apply F; [exact I |]. intros e x E. apply H. apply in_flat_map. eauto. }
  induction s as [| | v | c b e IHb IHe | i c a b IHb | c b IHb | e | is v cs d IHc IHd | e] using stmt_ind'; intros H; cbn [stmt_exprs] in H;
    (split; [exact I |]); auto.
  - split; [apply each_form_exprs | apply each_opt_exprs]; intros e x E; apply H; rewrite in_app_iff; auto.
  - split; [apply each_subs; intros x; apply H; rewrite in_app_iff; right; now left |]. split.
    + apply B; [exact IHb |]. intros x y X. apply H. rewrite in_app_iff. right. now right.
    + destruct e as [e |]; cbn; auto. apply B; [exact IHe |]. intros x y X. apply H. rewrite in_app_iff. now left.
  - split; [| split; [| split]].
    + destruct i as [[x | t f x] |]; cbn; auto.
      * apply each_subs. intros y. apply H. now left.
      * split; [apply each_form_exprs; intros y z Y; apply H; rewrite !in_app_iff; auto |].
        apply each_subs. intros y. apply H. rewrite !in_app_iff. left. right. now left.
    + apply each_opt_exprs. intros y z Y. apply H. rewrite !in_app_iff. auto.
    + apply each_opt_exprs. intros y z Y. apply H. rewrite !in_app_iff. auto.
    + apply B; [exact IHb |]. intros y z Y. apply H. rewrite !in_app_iff. auto.
  - split; [apply each_subs; intros x; apply H; now left |]. apply B; [exact IHb |]. intros x y X. apply H. now right.
  - now apply each_opt_exprs.
  - split; [apply each_subs; intros x; apply H; now left |]. split.
    + rewrite all_in. rewrite Forall_forall in IHc. intros c C. apply B; [now apply IHc |]. intros x y X. apply H. right.
      rewrite in_app_iff. left. apply in_flat_map. eauto.
    + destruct d as [d |]; cbn; auto. apply B; [exact IHd |]. intros x y X. apply H. right. rewrite in_app_iff. now right.
  - apply each_subs. intros x. apply H. now left.
Qed.

(** ** The library *)
Lemma find_sym_in : forall x s, find_sym x = Some s -> In s csym_list /\ cs_name s = x.
Proof.
  intros x s H. unfold find_sym in H. apply find_some in H as [H E]. split; [now rewrite in_rev | now apply str_eqb_eq].
Qed.
(** What the headers declare that every file includes. *)
Definition library (u : cuse) : Prop := basic u \/ In u (flat_map declared std_includes).
Definition use_eqb (u v : cuse) : bool :=
  match u, v with UName x, UName y | UType x, UType y => str_eqb x y | _, _ => false end.
Definition library_b (u : cuse) : bool :=
  existsb (fun t => use_eqb u (UType (lit t))) basic_types || existsb (use_eqb u) (flat_map declared std_includes).
Lemma use_eqb_eq : forall u v, use_eqb u v = true -> u = v.
Proof. intros [x | x] [y | y] H; cbn in H; try discriminate; apply str_eqb_eq in H; now subst. Qed.
Lemma library_sound : forall u, library_b u = true -> library u.
Proof.
  intros u H. unfold library_b in H. apply orb_true_iff in H as [H | H]; apply existsb_exists in H as (v & I & E); apply use_eqb_eq in E; subst.
  - left. exists v. auto.
  - now right.
Qed.
Lemma syms_known : forallb (fun s => library_b (UName (cs_name s)) || str_in (cs_name s) (map lit (reserved_names ++ library_types ++ ["nelem"%string]))) csym_list = true.
Proof. vm_compute. reflexivity. Qed.
Lemma str_in_in : forall x l, str_in x l = true -> In x l.
Proof. intros x l H. unfold str_in in H. apply existsb_exists in H as (y & I & E). apply str_eqb_eq in E. now subst. Qed.
Lemma sym_cases : forall x s, find_sym x = Some s -> ~ In x (map lit (reserved_names ++ library_types)) -> library (UName x) \/ x = L "nelem".
Proof.
  intros x s H N. apply find_sym_in in H as [H <-]. pose proof syms_known as K. rewrite forallb_forall in K. apply K in H.
  apply orb_true_iff in H as [H | H]; [left; now apply library_sound |]. apply str_in_in in H. rewrite app_assoc, map_app, in_app_iff in H.
  destruct H as [H | [<- | []]]; [contradiction | now right].
Qed.
Lemma types_known : forallb (fun s => match cs_kind s with KTYPE => str_in (cs_name s) (map lit library_types) | KSYM => true end) csym_list = true.
Proof. vm_compute. reflexivity. Qed.
Lemma has_type_library : forall x, has_type x = true -> In x (map lit library_types).
Proof.
  intros x H. unfold has_type in H. destruct (find_sym x) as [s |] eqn:E; [| discriminate]. apply find_sym_in in E as [E <-].
  pose proof types_known as K. rewrite forallb_forall in K. apply K in E. destruct (cs_kind s); [now apply str_in_in | discriminate].
Qed.

(** ** Elements and their declarations *)
Lemma dedup_keeps : forall l set x, In x l -> text_in set x \/ exists y, In y (dedup_elems set l) /\ format_elem y = format_elem x
  /\ (y = x \/ type_definition y /\ type_definition x).
Proof.
  assert (C : forall e r set x s, format_elem e = s -> ~ In s set -> type_definition e ->
    (forall set x, In x r -> text_in set x \/ exists y, In y (dedup_elems set r) /\ format_elem y = format_elem x /\ (y = x \/ type_definition y /\ type_definition x)) ->
    In x (e :: r) -> text_in set x \/ exists y, In y (e :: dedup_elems (s :: set) r) /\ format_elem y = format_elem x /\ (y = x \/ type_definition y /\ type_definition x)).
  { intros e r set x s E N T IH [<- | I].
    - right. exists e. split; [now left | auto].
    - destruct (IH (s :: set) x I) as [[T' [K | K]] | (y & I' & E')].
      + right. exists e. split; [now left | split; [congruence | right; split; [exact T | exact T']]].
      + left. split; auto.
      + right. exists y. split; [now right | auto]. }
  induction l as [| e l IH]; intros set x H; [destruct H |]. cbn [dedup_elems].
  destruct e; try (destruct H as [<- | H];
    [right; eexists; split; [now left | auto]
    | destruct (IH set x H) as [? | (y & I & E)]; [auto | right; exists y; split; [now right | auto]]]; fail).
  - destruct (str_in _ set) eqn:D.
    + apply str_in_in in D. destruct H as [<- | H]; [left; split; [exact I | exact D] | now apply IH].
    + apply C; auto; [| exact I]. intros K. apply str_in_false in D. contradiction.
  - destruct (str_in _ set) eqn:D.
    + apply str_in_in in D. destruct H as [<- | H]; [left; split; [exact I | exact D] | now apply IH].
    + apply C; auto; [| exact I]. intros K. apply str_in_false in D. contradiction.
Qed.

Lemma last_of_in : forall A B (f : A -> option B) l b, last_of f l = Some b -> exists a, In a l /\ f a = Some b.
Proof.
  intros A B f. induction l as [| a l IH]; intros b H; cbn [last_of] in H; [discriminate |].
  destruct (last_of f l) eqn:E; [| exists a; split; [now left | exact H]].
  injection H as ->. destruct (IH _ eq_refl) as (x & I & X). exists x. split; [now right | exact X].
Qed.
Lemma last_of_none : forall A B (f : A -> option B) l, last_of f l = None -> forall a, In a l -> f a = None.
Proof.
  intros A B f. induction l as [| a l IH]; intros H x I; cbn [last_of] in H; [destruct I |].
  destruct (last_of f l) eqn:E; [discriminate |]. destruct I as [<- | I]; auto.
Qed.
Lemma types_library : forallb (fun t => library_b (UType (lit t))) library_types = true.
Proof. vm_compute. reflexivity. Qed.
Lemma library_has_type : forall x, In x (map lit library_types) -> has_type x = true.
Proof.
  assert (H : forallb has_type (map lit library_types) = true) by (vm_compute; reflexivity).
  rewrite forallb_forall in H. exact H.
Qed.

Section Module.
Variables (m : module_) (p : trparams) (cm : cmodule).
Hypothesis Ht : translate m p = TrOk cm.
Notation S := (site_of m p).
Notation Gm := (module_decls is_numeric (mod_elements m)).
Variables (bef : list celem) (d : cfuncdef) (aft : list celem).
Hypothesis Hd : cm_elements cm = bef ++ XFunc d :: aft.

(** Definitions of types with equal texts declare the same. *)
Hypothesis same_types : forall x y u, In x (c_elems S is_numeric) -> In y (cm_elements cm) -> type_definition x -> type_definition y ->
  format_elem y = format_elem x -> In u (declared x) -> In u (declared y).

Lemma before_func : forall e, In e (cm_elements cm) -> group e < 6 -> In e bef.
Proof.
  intros e I N. rewrite Hd in I. apply in_app_or in I as [I | [<- | I]]; [exact I | cbn in N; lia |].
  apply in_split in I as (a & b & ->).
  assert (B : before (XFunc d) e (cm_elements cm)) by (exists bef, a, b; exact Hd).
  apply (proj1 (module_layout m p cm Ht)) in B. cbn [group] in B. lia.
Qed.
Lemma own_declared : forall e u, In e (c_elems S is_numeric) -> group e < 6 -> In u (declared e) -> declared_in bef u.
Proof.
  intros e u I N D. pose proof Ht as H. apply translate_target in H. destruct H as (s & imps & _ & X & T & E).
  destruct (dedup_keeps (module_head s ++ imps ++ c_elems S is_numeric) [] e) as [[_ []] | (y & Y & F & K)].
  - rewrite !in_app_iff. right. right. exact I.
  - assert (I' : In y (cm_elements cm)) by (rewrite E; cbn [cm_elements]; apply reorder_in; exact Y).
    exists y. split; [apply before_func; [exact I' |] |].
    + destruct K as [-> | [K _]]; [exact N |]. destruct y; cbn in *; try contradiction; lia.
    + destruct K as [-> | [K K']]; [exact D | exact (same_types _ _ _ I I' K' K F D)].
Qed.
Lemma nelem_declared : declared_in bef (UName (L "nelem")).
Proof.
  exists (XMacro (L "define") (L "nelem(x) (sizeof (x)/sizeof (x)[0])")). split; [| vm_compute; auto].
  apply before_func; [| cbn; lia]. pose proof Ht as H. apply translate_target in H. destruct H as (s & imps & _ & X & T & ->). cbn [cm_elements].
  apply reorder_in. eapply thinned_kept; [apply dedup_thins | | cbn; tauto]. unfold module_head. rewrite !in_app_iff. left. right. right. right. now left.
Qed.

Lemma own_elem : forall e x u, In e (mod_elements m) -> In x (c_elem S Gm e) -> group x < 6 -> In u (declared x) -> declared_in bef u.
Proof. intros e x u I X N D. eapply own_declared; [| exact N | exact D]. eapply in_c_elems; eauto. Qed.

(** What the module declares. *)
Lemma decl_declared : (forall f, In (MFunc f) (mod_elements m) -> fd_pub f = true -> ~ In (f_name (fd_form f)) (param_names (fd_params f))) ->
  forall c, In c Gm -> d_name c <> L "main" ->
  declared_in bef (UName (if d_pub c then global_name (own_id S) (d_name c) else d_name c)).
Proof.
  intros Sh c I N. pose proof (module_look m p cm c Ht I) as Look. unfold module_decls in I. rewrite <- in_rev in I. apply in_flat_map in I as (e & E & I).
  destruct e as [mc | x | a | t | s | v | f]; cbn [elem_decls] in I; try (now destruct I).
  - destruct (str_eqb_spec (m_name mc) (L "define")) as [D | D]; [| destruct I].
    destruct (split_whitespace (trim (m_value mc))) as [| id [| w r]] eqn:W; try (now destruct I).
    destruct I as [<- | []]. cbn [d_name d_pub]. eapply own_elem; [exact E | | |].
    + cbn [c_elem]. rewrite D. cbn. left. reflexivity.
    + cbn. lia.
    + cbn [declared]. rewrite str_eqb_refl. unfold macro_names. rewrite W. now left.
  - apply in_map_iff in I as (en & <- & I). cbn [d_name d_pub]. eapply own_elem; [exact E | left; reflexivity | cbn; lia |].
    cbn [declared ced_entries]. rewrite map_map. cbn [fst]. apply in_map_iff. exists en. split; [reflexivity | exact I].
  - destruct I as [<- | []]. cbn [local d_name d_pub] in *. pose proof (proj1 (accepted_iff m p) (ex_intro _ cm Ht)) as [O _].
    unfold ok_elems in O. rewrite all_in in O. apply O in E as K. destruct K as (_ & _ & w & V & _).
    eapply own_elem; [exact E | cbn [c_elem]; rewrite V; left; reflexivity | cbn; lia |].
    cbn [declared cv_form c_form cf_name]. left. f_equal. unfold head_name. rewrite Look. reflexivity.
  - destruct I as [<- | []]. cbn [d_name d_pub] in *.
    eapply own_elem; [exact E | cbn [c_elem]; cbv zeta; right; destruct (str_eqb_spec (f_name (fd_form f)) (L "main")); [contradiction | left; reflexivity] | cbn; lia |].
    cbn [declared cfw_form c_form cf_name]. left. f_equal. unfold head_name. rewrite ClosedFacts.look_app.
    destruct (look (f_name (fd_form f)) (param_decls (fd_params f))) as [d' |] eqn:D.
    + apply look_is in D as [D1 D2]. assert (D3 : In (f_name (fd_form f)) (param_names (fd_params f))).
      { apply param_decl_names. rewrite <- D2. now apply in_map. }
      assert (D4 : d_pub d' = false).
      { unfold param_decls in D1. rewrite <- in_rev in D1. apply in_flat_map in D1 as (t & _ & D1). apply in_map_iff in D1 as (g & <- & _). reflexivity. }
      rewrite D4. cbn [andb]. destruct (fd_pub f) eqn:Pub; [exfalso; eapply Sh; eauto |].
      destruct (str_eqb_spec (f_name (fd_form f)) (L "main")); [contradiction | reflexivity].
    + rewrite Look. cbn [d_pub]. destruct (str_eqb_spec (f_name (fd_form f)) (L "main")); [contradiction |]. rewrite orb_false_r, andb_true_r. reflexivity.
Qed.

(** ** Types and names *)
Variable system : cuse -> Prop.
Hypothesis Tidy : tidy S system.
Definition prov (u : cuse) : Prop := declared_in bef u \/ basic u \/ system u.
Lemma library_prov : forall u, library u -> prov u.
Proof.
  intros u [H | H]; [right; now left |]. left. apply in_flat_map in H as (e & I & D). exists e. split; [| exact D].
  pose proof Ht as H. apply translate_target in H. destruct H as (s & imps & _ & X & T & E).
  assert (K : exists x, e = XInclude x) by (unfold std_includes in I; apply in_map_iff in I as (x & <- & _); eauto). destruct K as (x & ->).
  apply before_func; [| cbn; lia]. rewrite E. cbn [cm_elements]. apply reorder_in. eapply thinned_kept; [apply dedup_thins | | cbn; tauto].
  unfold module_head. rewrite !in_app_iff. auto.
Qed.
(** What other modules export is declared. *)
Hypothesis foreign_const : forall q h m' x, q <> [] -> q <> L "OS" -> import S q = Some (h, m') ->
  In x (map en_name (ex_consts (mod_exports m'))) -> prov (UName (global_name (mi_uniqid h) x)).
Hypothesis foreign_fn : forall q h m' f, q <> [] -> q <> L "OS" -> import S q = Some (h, m') ->
  In f (ex_fns (mod_exports m')) -> prov (UName (global_name (mi_uniqid h) (f_name (fd_form f)))).
Hypothesis foreign_type : forall q h m' x, q <> [] -> q <> L "OS" -> import S q = Some (h, m') ->
  pub_type (mod_elements m') x -> prov (UType (global_name (mi_uniqid h) x)).

Lemma type_given : forall t, tidy_type S system t -> given_type S prov t.
Proof.
  intros [b n] (T1 & T2 & T3) K. unfold type_known in K. cbn [tn_name] in *. unfold c_type. cbn [tn_name ctn_name].
  destruct (str_eqb_spec (ns_ns n) (L "OS")) as [E | E]; [right; right; now apply T1 |].
  destruct (str_eqb_spec (ns_ns n) []) as [E' | E'].
  - destruct K as [K | [[_ K] | [K _]]]; [congruence | | congruence]. unfold is_pub_type. unfold type_status in *.
    destruct (has_type (ns_name n)) eqn:HT; [apply library_prov, library_sound; apply has_type_library, in_map_iff in HT as (y & <- & HT); pose proof types_library as Kt; rewrite forallb_forall in Kt; auto |].
    destruct (struct_named _ _) as [s |] eqn:SN.
    { unfold struct_named in SN. apply last_of_in in SN as (e & I & H). destruct e; try discriminate. destruct (str_eqb_spec (st_name s0) (ns_name n)) as [Q | Q]; [| discriminate].
      injection H as ->. left. eapply own_elem; [exact I | right; right; left; reflexivity | cbn; lia |].
      cbn [declared ctd_form ctdf_alias]. left. unfold exported_as. rewrite <- Q. reflexivity. }
    destruct (typedef_named _ _) as [[pub ty] |] eqn:TN.
    { unfold typedef_named in TN. apply last_of_in in TN as (e & I & H). destruct e as [| | a | t | | |]; try discriminate.
      - destruct (str_eqb_spec (sa_typename a) (ns_name n)) as [Q | Q]; [| discriminate]. injection H as <- <-.
        left. eapply own_elem; [exact I | left; reflexivity | cbn; lia |]. cbn [declared ctd_form ctdf_alias]. left. unfold exported_as. rewrite <- Q. reflexivity.
      - destruct (str_eqb_spec (td_alias t) (ns_name n)) as [Q | Q]; [| discriminate]. injection H as <- <-.
        left. eapply own_elem; [exact I | left; reflexivity | cbn; lia |]. cbn [declared ctd_form ctdf_alias]. left. unfold exported_as. rewrite <- Q. reflexivity. }
    destruct (str_in _ _); [| congruence]. right. right. apply T2; auto.
    + intros X. apply library_has_type in X. congruence.
    + intros s I Q. unfold struct_named in SN. apply (last_of_none _ _ _ _ SN) in I. rewrite <- Q, str_eqb_refl in I. discriminate.
    + intros t I Q. unfold typedef_named in TN. apply (last_of_none _ _ _ _ TN) in I. rewrite <- Q, str_eqb_refl in I. discriminate.
    + intros t I Q. unfold typedef_named in TN. apply (last_of_none _ _ _ _ TN) in I. rewrite <- Q, str_eqb_refl in I. discriminate.
  - destruct K as [K | [[K _] | (_ & _ & h & m' & I & X)]]; try congruence. unfold import_id. rewrite I.
    eapply foreign_type; eauto.
Qed.

Lemma no_shadow : forall f, In (MFunc f) (mod_elements m) -> fd_pub f = true -> ~ In (f_name (fd_form f)) (param_names (fd_params f)).
Proof. intros f I. apply (proj2 Tidy f I). Qed.
Lemma name_given_lib : forall n, (ns_ns n = L "OS" -> system (UName (ns_name n))) -> (ns_ns n = [] -> ns_name n <> L "main") ->
  (forall s, ns_ns n = [] -> find_sym (ns_name n) = Some s -> prov (UName (ns_name n))) -> given S Gm prov n.
Proof.
  intros n Os Mn Lb G t P T Nl. destruct T as [E | c E Lk | s E Lk F | h m' E1 E2 I X | h m' b f a E1 E2 I _ X Y _].
  - unfold cname. rewrite E, str_eqb_refl. right. right. auto.
  - rewrite (cname_local S _ _ E), Lk. rewrite ClosedFacts.look_app in Lk. destruct (look (ns_name n) G) eqn:L1.
    + exfalso. apply (Nl E). apply look_is in L1 as [L1 <-]. now apply in_map.
    + apply look_is in Lk as [Lk Q]. left. rewrite <- Q. apply decl_declared; [exact no_shadow | exact Lk |]. rewrite Q. auto.
  - rewrite (cname_local S _ _ E), Lk. eauto.
  - unfold cname. destruct (str_eqb_spec (ns_ns n) (L "OS")); [contradiction |]. destruct (str_eqb_spec (ns_ns n) []); [contradiction |].
    unfold import_id. rewrite I. eapply foreign_const; eauto.
  - unfold cname. destruct (str_eqb_spec (ns_ns n) (L "OS")); [contradiction |]. destruct (str_eqb_spec (ns_ns n) []); [contradiction |].
    unfold import_id. rewrite I, <- Y. eapply foreign_fn; eauto. rewrite X. apply in_elt.
Qed.
Lemma name_given : forall n, tidy_name system n -> given S Gm prov n.
Proof.
  intros n [T1 T2]. apply name_given_lib; auto.
  - intros E Q. apply (T2 E). rewrite Q. left. reflexivity.
  - intros s E F. destruct (sym_cases _ _ F (T2 E)) as [H | ->]; [now apply library_prov | left; apply nelem_declared].
Qed.

(** The function is the helper of [calloc!], or one of the source; the helper
    stands before the latter. *)
Lemma function_cases : d = helper \/ exists f, In (MFunc f) (mod_elements m) /\ d = c_function S is_numeric f
  /\ (calls_calloc (mod_elements m) -> In (XFunc helper) bef).
Proof.
  assert (Q : forall l, In d (map (c_function S is_numeric) (source_functions l)) -> exists f, In (MFunc f) l /\ d = c_function S is_numeric f).
  { intros l I. apply in_map_iff in I as (f & <- & I). unfold source_functions in I. apply in_flat_map in I as (e & I & J).
    destruct e; cbn [In] in J; try tauto. destruct J as [<- | []]. eauto. }
  destruct (module_functions m p cm Ht) as [[C F] | [C F]]; rewrite Hd, functions_app in F; cbn [functions flat_map app] in F.
  - destruct (functions bef) as [| g r] eqn:B; cbn [app] in F; injection F as F1 F; [now left |]. right.
    destruct (Q (mod_elements m)) as (f & I & E); [rewrite <- F; apply in_elt |]. exists f. split; [exact I |]. split; [exact E |].
    intros _. apply functions_in. rewrite B, <- F1. now left.
  - right. destruct (Q (mod_elements m)) as (f & I & E); [rewrite <- F; apply in_elt |]. exists f. split; [exact I |]. split; [exact E |]. tauto.
Qed.
Lemma helper_closed : forall u, In u (function_uses helper) -> library u.
Proof.
  assert (H : forallb library_b (function_uses helper) = true) by (vm_compute; reflexivity).
  rewrite forallb_forall in H. intros u U. apply library_sound. auto.
Qed.

(** ** A function of the source *)
Definition known_or (N : list str) (u : cuse) : Prop := (exists x, u = UName x /\ In x N) \/ prov u.
Definition avoids (l : list str) (e : expr) : Prop := forall x, In x l -> without_expr x e.
Lemma avoids_form : forall l f, (forall x, In x l -> without x f) -> each_form (avoids l) f.
Proof.
  induction l as [| x l IH]; intros f H.
  - apply each_form_exprs. intros e y _ _ z [].
  - apply (form_mp3 (avoids l) (without_expr x)); [| apply IH; intros y Y; apply H; now right | apply H; now left].
    intros e A B y [<- | Y]; auto.
Qed.
Lemma name_known : forall G N n, private G -> given S Gm prov n -> (ns_ns n = [] -> In (ns_name n) (map d_name G) -> In (ns_name n) N) ->
  (exists t, name_typed S (G ++ Gm) n t) -> known_or N (UName (cname S (G ++ Gm) n)).
Proof.
  intros G N n P H X T. destruct (in_dec (list_eq_dec N.eq_dec) (ns_name n) (map d_name G)) as [I | I].
  - destruct (str_eqb_spec (ns_ns n) []) as [E | E]; [| right; destruct T as [t T]; eapply H; eauto; congruence].
    left. exists (ns_name n). split; [| now apply X]. f_equal. rewrite (cname_local S _ _ E), ClosedFacts.look_app.
    destruct (look_in _ _ I) as (d' & D). rewrite D, (private_look _ _ _ P D). reflexivity.
  - right. destruct T as [t T]. eapply H; eauto.
Qed.
Lemma sizes_known : forall G N l name f, private G -> (forall x, In x (map d_name G) -> In x N \/ In x l) ->
  each_form (given_expr S Gm prov) f -> (forall x, In x l -> without x f) -> ok_form S (G ++ Gm) f ->
  forall u, In u (sizes (c_form S (G ++ Gm) name f)) -> known_or N u.
Proof.
  intros G N l name f P C E W K. apply form_uses; [| exact K]. apply (form_mp3 (given_expr S Gm prov) (avoids l)); [| exact E | now apply avoids_form].
  intros e H A. destruct e; cbn [meets given_expr] in *; auto; intros; try (right; auto; fail).
  - apply name_known; auto. cbn [ns_ns ns_name]. intros _ I. destruct (C _ I) as [C' | C']; [exact C' |]. exfalso.
    apply A in C'. cbn [without_expr] in C'. now apply C'.
  - apply name_known; auto. intros E' I. destruct (C _ I) as [C' | C']; [exact C' |]. exfalso. apply A in C'. cbn [without_expr] in C'. auto.
Qed.
Lemma params_known : forall G rest ts N, private G ->
  all (ok_fields S (G ++ Gm)) ts -> all (fun t => all (each_form (given_expr S Gm prov)) (taf_forms t)) ts ->
  all (fun t => given_type S prov (taf_type t)) ts -> tidy_params (flat_map taf_forms ts) ->
  (forall x, In x (map d_name G) -> In x N \/ In x (map f_name (flat_map taf_forms ts))) ->
  (forall u, In u rest -> known_or (map f_name (flat_map taf_forms ts) ++ N) u) ->
  forall u, In u (fold_right parameter rest (flat_map (c_fields S (G ++ Gm)) ts)) -> known_or N u.
Proof.
  intros G rest. induction ts as [| t ts IH]; intros N P K E T D C R u U; [now apply R |].
  cbn [flat_map] in *. rewrite fold_right_app in U. destruct K as [K K'], E as [E E'], T as [T T'].
  unfold c_fields at 2 in U. unfold ok_fields in K. revert N u K E D C R U.
  induction (taf_forms t) as [| f fs IHf]; intros N u K E D C R U; [now apply (IH N) |].
  cbn [map fold_right app] in U, D, C, R. destruct K as [[K1 K2] K], E as [E1 E], D as [D1 D].
  unfold parameter in U at 1. cbn [ctf_type ctf_form] in U. unfold declarator in U. cbn [fst snd opt_uses app] in U.
  destruct U as [<- | U]; [right; now apply T |]. apply in_app_or in U as [U | U].
  - eapply (sizes_known G N); [exact P | exact C | exact E1 | exact D1 | exact K2 | exact U].
  - apply hide_in in U as [U X]. cbn [local_form c_form cf_name] in X.
    assert (H : known_or (f_name f :: N) u).
    { apply IHf; auto.
      - intros x Hx. destruct (C x Hx) as [? | [<- | ?]]; [left; now right | left; now left | now right].
      - intros v V. destruct (R v V) as [(x & -> & H) | H]; [left | now right]. exists x. split; [reflexivity |].
        destruct H as [<- | H]; rewrite in_app_iff; [right; now left |]. rewrite in_app_iff in H. cbn [In]. tauto. }
    destruct H as [(x & -> & [<- | H]) | H]; [congruence | left; eauto | now right].
Qed.
Lemma param_names_forms : forall p, map f_name (flat_map taf_forms (fp_list p)) = param_names p.
Proof. intros p0. unfold param_names. induction (fp_list p0) as [| t ts IH]; cbn [flat_map]; [reflexivity |]. now rewrite map_app, IH. Qed.
Lemma generated_prov : forall x, In x ["strcmp"; "fprintf"; "stderr"; "exit"]%string -> prov (UName (lit x)).
Proof.
  intros x I. apply library_prov, library_sound. revert x I.
  assert (H : forallb (fun x => library_b (UName (lit x))) ["strcmp"; "fprintf"; "stderr"; "exit"]%string = true) by (vm_compute; reflexivity).
  rewrite forallb_forall in H. exact H.
Qed.
Lemma params_private : forall p, private (param_decls p).
Proof.
  intros p0. apply Forall_forall. intros x X. unfold param_decls in X. rewrite <- in_rev in X. apply in_flat_map in X as (t & _ & X).
  apply in_map_iff in X as (g & <- & _). reflexivity.
Qed.

Theorem source_closed : forall f, In (MFunc f) (mod_elements m) -> d = c_function S is_numeric f ->
  (calls_calloc (mod_elements m) -> In (XFunc helper) bef) ->
  forall u, In u (function_uses d) -> prov u.
Proof.
  intros f If Qd Hh u U. rewrite Qd in U. destruct Tidy as [T1 T2]. rewrite all_in in T1. specialize (T1 _ If). specialize (T2 _ If).
  destruct T1 as (Ef & Ep & Eb), T2 as (Ht1 & Ht2 & Ht3 & Ht4 & _).
  assert (A : in_order S is_numeric (tp_heads p) (List.length (tp_cmods p))) by (apply accepted_iff; eauto).
  destruct A as [A _]. unfold ok_elems in A. rewrite all_in in A. specialize (A _ If). cbn [ok_elem] in A.
  destruct A as (A1 & A2 & A3 & A4 & _).
  (* what is asked of the expressions *)
  assert (Cc : forall e x, In e (elem_exprs (MFunc f)) -> In x (subs e) -> calloc_call x -> In (XFunc helper) bef).
  { intros e x E X C. apply Hh. exists e, x. split; [apply in_flat_map; eauto | auto]. }
  set (P2 := fun x => calloc_call x -> In (XFunc helper) bef).
  assert (GE : forall e, tidy_expr S system e -> P2 e -> given_expr S Gm prov e).
  { intros e T C. destruct e; cbn [tidy_expr given_expr] in *; auto using name_given, type_given.
    intros E. apply name_given_lib; cbn [ns_ns ns_name]; try discriminate. intros s _ _. left. exists (XFunc helper).
    split; [apply C; exact E | left; reflexivity]. }
  assert (GS : forall s, tidy_stmt S system s -> True -> given_stmt S Gm prov s).
  { intros s T _. destruct s as [| | | ? ? ? | [[? | ? ? ?] |] ? ? ? | | | ? ? cs ? |]; cbn [tidy_stmt given_stmt] in *; auto.
    - destruct T. split; [now apply type_given | assumption].
    - destruct T. split; [now apply type_given | assumption].
    - rewrite all_in in *. intros c C. specialize (T c C). rewrite all_in in *. intros v V. specialize (T v V). destruct v; cbn [given_label] in *; auto using name_given. }
  assert (Ef' : each_form (given_expr S Gm prov) (fd_form f)).
  { apply (form_mp3 _ P2 _ GE _ Ef). apply each_form_exprs. intros e x E X. unfold P2. apply (Cc e x); [| exact X]. cbn [elem_exprs]. rewrite in_app_iff. auto. }
  assert (Ep' : all (fun t => all (each_form (given_expr S Gm prov)) (taf_forms t)) (fp_list (fd_params f))).
  { rewrite all_in in *. intros t It. specialize (Ep t It). rewrite all_in in *. intros g Ig. specialize (Ep g Ig).
    apply (form_mp3 _ P2 _ GE _ Ep). apply each_form_exprs. intros e x E X. unfold P2. apply (Cc e x); [| exact X]. cbn [elem_exprs]. rewrite !in_app_iff.
    right. left. apply in_flat_map. exists t. split; [exact It |]. unfold taf_exprs. apply in_flat_map. eauto. }
  assert (Eb' : all (each_stmt (given_expr S Gm prov) (given_stmt S Gm prov)) (fd_body f)).
  { apply (stmts_mp3 _ P2 _ _ (fun _ => True) _ GE GS _ Eb). rewrite all_in. intros s Is. apply each_stmt_exprs. intros e x E.
    intros X. unfold P2. apply (Cc e x); [| exact X]. cbn [elem_exprs]. rewrite !in_app_iff. right. right. apply in_flat_map. eauto. }
  set (G := param_decls (fd_params f)) in *.
  assert (Pv : private G) by apply params_private.
  assert (Gn : forall x, In x (map d_name G) <-> In x (param_names (fd_params f))) by (intros x; apply param_decl_names).
  unfold function_uses, c_function, inside in U. cbn [cfd_type cfd_form cfd_params cfd_body c_params cfp_list cf_name c_form] in U.
  change (elements S) with (mod_elements m) in *. fold G in U.
  assert (Z : forall v, known_or [] v -> prov v) by (intros v [(x & _ & []) | V]; exact V).
  destruct U as [<- | U]; [now apply type_given |]. apply Z. apply in_app_or in U as [U | U].
  - refine (sizes_known G [] (param_names (fd_params f)) _ _ Pv _ Ef' Ht4 A2 u U). intros x. rewrite Gn. now right.
  - refine (params_known G _ (fp_list (fd_params f)) [] Pv A3 Ep' _ Ht3 _ _ u U).
    + rewrite all_in in *. intros t It. apply type_given. auto.
    + intros x. rewrite param_names_forms, Gn. now right.
    + intros v V. apply hide_in in V as [V _]. rewrite param_names_forms, app_nil_r.
      assert (V' : cov prov G v). { refine (body_free S Gm prov (fd_body f) _ G v Pv A4 Eb' V). apply Forall_forall. intros s _. apply stmt_free_all. exact generated_prov. }
      destruct V' as [(x & -> & I) | V']; [left; exists x; split; [reflexivity | now apply Gn] | now right].
Qed.
Theorem function_closed : forall u, In u (function_uses d) -> prov u.
Proof.
  intros u U. destruct function_cases as [Q | (f & I & E & H)]; [apply library_prov; rewrite Q in U; now apply helper_closed |]. eapply source_closed; eauto.
Qed.
End Module.
