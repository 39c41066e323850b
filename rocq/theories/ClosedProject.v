(** What the C code of a function uses is declared: the part about projects.  The
    declarations of imported modules arrive in the importing file. *)
From Verif Require Import Base BaseFacts Buf Lexer Nodes Types Cspec Resolve Cursor Preparser Parser CAst FormatC Translator Build
  SpecLex LexFacts SpecGrammar TextFacts GapFacts ExportFacts.
From Verif Require Import SpecDecl SpecScope SpecExports SpecModule SpecTarget TargetFacts TargetProps SpecTyping ElabFacts SpecTame SpecClosed SpecTidy ClosedFacts ClosedModule
  SpecBuild BuildFacts ProjectFacts BuildProps PathFacts.

(** ** Words *)
Section Words.
Context {U : Unicode}.
(** calloc! is a word too. *)
Definition clean (s : str) : Prop := forall c, In c s -> word_char c = true \/ c = 33%N.
Lemma clean_not : forall s c, clean s -> In c s -> ~ In c [32; 40; 42; 44; 59; 91]%N.
Proof.
  intros s c H I K. destruct (H c I) as [W | ->]; [| cbn in K; intuition discriminate].
  cbn [In] in K. destruct K as [<- | [<- | [<- | [<- | [<- | [<- | []]]]]]]; discriminate.
Qed.
Lemma clean_app : forall a b, clean a -> clean b -> clean (a ++ b).
Proof. intros a b A B c I. apply in_app_or in I as [I | I]; auto. Qed.
Definition token_clean (t : token) : Prop := is "word" t -> clean (t_content t).
Lemma lexes_clean : forall pre s ts e, lexes pre s ts e -> Forall token_clean ts.
Proof.
  intros pre s ts e H. induction H; constructor; auto. intros W. unfold is in W. cbn [t_kind t_content] in *. subst k.
  destruct (word_kind _ _ _ _ H0 (or_introl eq_refl)) as [(_ & _ & ->) | (x & w & -> & Hx & Hw & _ & Hr & Hn)].
  - intros a I. vm_compute in I. repeat (destruct I as [<- | I]; [try (left; reflexivity); now right |]). destruct I.
  - assert (C : clean (x :: w)).
    { intros a [<- | I]; left.
      - unfold word_start in Hx. unfold word_char. apply orb_true_iff in Hx as [Hx | Hx]; rewrite ?Hx, ?orb_true_r; [| reflexivity].
        unfold letter in Hx. destruct (N.ltb_spec x 128); cbn [orb]; [reflexivity |].
        apply orb_true_iff in Hx as [Hx | Hx]; apply andb_true_iff in Hx as [_ Hx]; apply N.leb_le in Hx; lia.
      - unfold SpecLex.all in Hw. rewrite Forall_forall in Hw. auto. }
    destruct (in_dec (list_eq_dec N.eq_dec) (x :: w) (map lit reserved)) as [I | I].
    + destruct (Hr I) as (_ & -> & _). intros a [].
    + destruct (Hn I) as [_ ->]. exact C.
Qed.

(** The names of elements are words; the text of a directive starts with the
    space. *)
Definition elem_clean (e : modelem) : Prop :=
  match e with
  | MMacro x => exists r, m_value x = 32%N :: r
  | MEnum x => forall en, In en (enum_entries x) -> clean (en_name en)
  | MStructAlias a => clean (sa_structname a) /\ clean (sa_typename a)
  | MTypedef t => clean (ns_name (tn_name (td_type t))) /\ clean (td_alias t)
  | MStruct s => clean (st_name s)
  | MVar _ | MFunc _ => True
  end.
Lemma typename_clean : forall ctx ts t, typename_of ctx ts t -> Forall token_clean ts -> clean (ns_name (tn_name t)).
Proof.
  assert (N : forall ctx ts n, name_of ctx ts n -> Forall token_clean ts -> clean (ns_name n)).
  { intros ctx ts n [] F; cbn [ns_name]; rewrite Forall_forall in F; apply F; auto; [now left | right; right; now left]. }
  intros ctx ts t [ts' n H | c ts' n _ H] F; cbn [tn_name]; eapply N; eauto. now inversion F.
Qed.
Lemma entries_clean : forall ctx ts l, commas (enum_entry_of ctx) ts l -> Forall token_clean ts -> forall en, In en l -> clean (en_name en).
Proof.
  assert (E : forall ctx ts en, enum_entry_of ctx ts en -> Forall token_clean ts -> clean (en_name en)).
  { intros ctx ts en [x ts' v X _] F. cbn [en_name]. inversion F as [| ? ? F1 F2]. now apply F1. }
  intros ctx ts l H. induction H as [ts a H | ts c ts' a l H _ _ IH]; intros F en [<- | I]; try (now destruct I); eauto;
    apply Forall_app in F as [F1 F2]; eauto. inversion F2. auto.
Qed.
Lemma module_clean : forall ctx ts l, module_of ctx ts l -> Forall token_clean ts -> forall e, In e l -> elem_clean e.
Proof.
  intros ctx ts l H. induction H as [| i ts l _ _ IH | t e ts l H _ IH | pb pub ts e ts' l first rest _ _ H _ IH]; intros F a I.
  - destruct I.
  - inversion F; auto.
  - destruct I as [<- | I]; [| inversion F; auto]. destruct H. cbn. eauto.
  - apply Forall_app in F as [_ F]. apply Forall_app in F as [F1 F2]. destruct I as [<- | I]; [| auto]. clear IH F2.
    rewrite Forall_forall in F1.
    assert (Q : forall x, In x ts -> is "word" x -> clean (t_content x)) by (intros x X; apply F1; exact X).
    destruct H; cbn [elem_clean enum_entries sa_structname sa_typename td_type td_alias st_name]; auto.
    + eapply entries_clean; [eassumption |]. apply Forall_forall. intros t T. apply F1. right. right. apply in_or_app. now left.
    + apply Q; [| assumption]. right. right. apply in_or_app. right. right. now left.
    + split; apply Q; try assumption; cbn; auto.
    + split; [| apply Q; [| assumption]].
      * eapply typename_clean; [eassumption |]. apply Forall_forall. intros tok Tok. apply F1. right. apply in_or_app. now left.
      * right. rewrite !in_app_iff. right. right. now left.
Qed.
Lemma parsed_clean : forall w fuel heads h m, parsed w fuel heads h m -> forall e, In e (mod_elements m) -> elem_clean e.
Proof.
  intros w fuel heads h m (text & _ & H) e I.
  destruct (proj1 (text_exact text _ m) (ex_intro _ fuel H)) as (toks & q & ms & L1 & L2 & ->).
  eapply module_clean; [exact L2 | eapply lexes_clean; exact L1 | exact I].
Qed.

(** ** The name in a typedef *)
Fixpoint upto (p : char -> bool) (s : str) : str :=
  match s with c :: r => if p c then [] else c :: upto p r | [] => [] end.
Lemma upto_app : forall p a b, (forall c, In c a -> p c = false) -> (b = [] \/ exists c r, b = c :: r /\ p c = true) -> upto p (a ++ b) = a.
Proof.
  intros p a b H K. induction a as [| c a IH]; cbn [app upto].
  - destruct K as [-> | (c & r & -> & E)]; [reflexivity |]. cbn. now rewrite E.
  - rewrite (H c (or_introl eq_refl)). f_equal. apply IH. intros x X. apply H. now right.
Qed.
Definition ends_name (c : char) : bool := N.eqb c 40 || N.eqb c 91 || N.eqb c 59.
Definition ends_type (c : char) : bool := N.eqb c 32 || N.eqb c 42.
Definition typedef_name (text : str) : str := rev (upto ends_type (rev (upto ends_name text))).
Definition no_brackets (s : str) : Prop := forall c, In c s -> ends_name c = false.
Lemma clean_no_brackets : forall s, clean s -> no_brackets s.
Proof.
  intros s H c I. pose proof (clean_not _ _ H I) as N. unfold ends_name. destruct (N.eqb_spec c 40) as [-> |]; [exfalso; apply N; cbn; auto 10 |].
  destruct (N.eqb_spec c 91) as [-> |]; [exfalso; apply N; cbn; auto 10 |]. destruct (N.eqb_spec c 59) as [-> |]; [exfalso; apply N; cbn; auto 10 | reflexivity].
Qed.
Lemma no_brackets_app : forall a b, no_brackets a -> no_brackets b -> no_brackets (a ++ b).
Proof. intros a b A B c I. apply in_app_or in I as [I | I]; auto. Qed.
Lemma no_brackets_lit : forall s, forallb (fun c => negb (ends_name c)) s = true -> no_brackets s.
Proof. intros s H c I. rewrite forallb_forall in H. apply H in I. now apply negb_true_iff. Qed.
Lemma typedef_named_so : forall x n, no_brackets (ctn_name (ctd_type x)) -> clean (ctdf_alias (ctd_form x)) ->
  ctdf_stars (ctd_form x) = repeat 42%N n -> typedef_name (format_typedef x) = ctdf_alias (ctd_form x).
Proof.
  intros x n T A St. unfold typedef_name, format_typedef. cbv zeta. rewrite St.
  set (a := ctdf_alias (ctd_form x)) in *.
  set (tail := (match ctdf_params (ctd_form x) with Some p => fmt_anon_params p | None => [] end) ++
    (if N.ltb 0 (ctdf_size (ctd_form x)) then L "[" ++ dec (ctdf_size (ctd_form x)) ++ L "]" else []) ++ L ";" ++ nl).
  assert (K : exists c r, tail = c :: r /\ ends_name c = true).
  { unfold tail. destruct (ctdf_params _) as [q |].
    - unfold fmt_anon_params. destruct (cap_forms q); do 2 eexists; split; reflexivity.
    - destruct (N.ltb _ _); do 2 eexists; split; reflexivity. }
  assert (Q : L "typedef " ++ format_type (ctd_type x) ++ L " " ++ repeat 42%N n ++ a ++ tail
    = (L "typedef " ++ format_type (ctd_type x) ++ L " " ++ repeat 42%N n ++ a) ++ tail) by now rewrite <- !app_assoc.
  refine (eq_trans (f_equal (fun t => rev (upto ends_type (rev (upto ends_name t)))) Q) _). cbv beta.
  rewrite (upto_app ends_name (L "typedef " ++ format_type (ctd_type x) ++ L " " ++ repeat 42%N n ++ a) tail); [| | right; exact K].
  - rewrite !app_assoc, rev_app_distr. rewrite (upto_app ends_type (rev a)); [apply rev_involutive | |].
    + intros c I. rewrite <- in_rev in I. pose proof (clean_not _ _ A I) as N. unfold ends_type.
      destruct (N.eqb_spec c 32) as [-> |]; [exfalso; apply N; cbn; auto 10 |]. destruct (N.eqb_spec c 42) as [-> |]; [exfalso; apply N; cbn; auto 10 | reflexivity].
    + right. destruct n as [| n].
      * cbn [repeat]. rewrite app_nil_r, rev_app_distr. do 2 eexists. split; reflexivity.
      * cbn [repeat]. rewrite repeat_cons, !app_assoc, rev_app_distr. do 2 eexists. split; reflexivity.
  - apply no_brackets_app; [now apply no_brackets_lit |]. apply no_brackets_app.
    { unfold format_type. apply no_brackets_app; [destruct (ctn_const _); now apply no_brackets_lit | exact T]. }
    apply no_brackets_app; [now apply no_brackets_lit |]. apply no_brackets_app; [| now apply clean_no_brackets].
    intros c I. apply repeat_spec in I. now subst.
Qed.
End Words.

Lemma join_commas : forall l l', (forall x, In x l -> x <> [] /\ ~ In 44%N x) -> (forall x, In x l' -> x <> [] /\ ~ In 44%N x) ->
  join (L ",") l = join (L ",") l' -> l = l'.
Proof.
  assert (A : forall a b x y, ~ In 44%N a -> ~ In 44%N b -> a ++ 44%N :: x = b ++ 44%N :: y -> a = b /\ x = y).
  { induction a as [| c a IH]; intros [| c' b] x y H1 H2 E; cbn [app] in E; [injection E as ->; auto | | |]; injection E as E1 E2.
    - subst. exfalso. apply H2. now left.
    - subst. exfalso. apply H1. now left.
    - subst. destruct (IH b x y) as [-> ->]; auto; intros I; [apply H1 | apply H2]; now right. }
  assert (B : forall x l, join (L ",") (x :: l) = match l with [] => x | _ => x ++ 44%N :: join (L ",") l end) by (intros x [| y l]; reflexivity).
  assert (N : forall x l, (x <> [] /\ ~ In 44%N x) -> join (L ",") (x :: l) <> []).
  { intros x l [X _]. rewrite B. destruct l; [exact X |]. destruct x; [now destruct X | discriminate]. }
  induction l as [| x l IH]; intros [| y l'] H1 H2 E.
  - reflexivity.
  - exfalso. symmetry in E. revert E. apply N. apply H2. now left.
  - exfalso. revert E. apply N. apply H1. now left.
  - rewrite !B in E. assert (Hx := H1 x (or_introl eq_refl)). assert (Hy := H2 y (or_introl eq_refl)).
    destruct l as [| x2 l], l' as [| y2 l'].
    + now subst.
    + exfalso. subst x. destruct Hx as [_ Hx]. apply Hx. apply in_or_app. right. now left.
    + exfalso. subst y. destruct Hy as [_ Hy]. apply Hy. apply in_or_app. right. now left.
    + apply A in E as [-> E]; [| apply Hx | apply Hy]. f_equal. apply IH; [intros z Z; apply H1; now right | intros z Z; apply H2; now right | exact E].
Qed.

Section Project.
Context {U : Unicode} (w : world) (fuel : nat) (main : str) (pr : project).
Hypothesis B : parse_project w fuel main = BOk pr.
Hypothesis files : forall i h m cm, unit_at pr i h m cm -> forall c, In c (mi_uniqid h) -> word_char c = true.
Hypothesis exports : forall i h m cm, unit_at pr i h m cm -> distinct_exports (mi_uniqid h) (mod_elements m).
Notation Si i h m := (site_of m (unit_params pr i h)).
Notation Gi m := (module_decls is_numeric (mod_elements m)).

Lemma unit_clean : forall i h m cm e, unit_at pr i h m cm -> In e (mod_elements m) -> elem_clean e.
Proof. intros i h m cm e H. eapply parsed_clean. eapply po_parsed; [eapply project_built; exact B | exact H]. Qed.
Lemma global_clean : forall i h m cm x, unit_at pr i h m cm -> clean x -> clean (global_name (mi_uniqid h) x).
Proof.
  intros i h m cm x H C. apply clean_app; [intros c I; left; eapply files; eauto |]. apply clean_app; [| exact C].
  intros c [<- | [<- | []]]; left; reflexivity.
Qed.
Lemma type_clean : forall i h m cm t, unit_at pr i h m cm -> clean (ns_name (tn_name t)) -> clean (ctn_name (c_type (Si i h m) t)).
Proof.
  intros i h m cm t H C. unfold c_type. cbn [ctn_name]. destruct (str_eqb _ _); [exact C |]. destruct (str_eqb _ _).
  - destruct (is_pub_type _ _); [| exact C]. exact (global_clean _ _ _ _ _ H C).
  - unfold import_id. destruct (import _ _) as [[h' m'] |] eqn:I.
    + destruct (import_unit w _ _ _ _ _ _ _ _ _ _ B H I) as (j & cm' & _ & H'). exact (global_clean _ _ _ _ _ H' C).
    + apply clean_app; [intros c [] |]. apply clean_app; [| exact C]. intros c [<- | [<- | []]]; left; reflexivity.
Qed.
Lemma typedef_fine : forall i h m cm e x, unit_at pr i h m cm -> In e (mod_elements m) -> In (XTypedef x) (c_elem (Si i h m) (Gi m) e) ->
  typedef_name (format_typedef x) = ctdf_alias (ctd_form x)
  /\ exists y, type_of_elem e (ctd_pub x) y /\ ctdf_alias (ctd_form x) = (if ctd_pub x then global_name (mi_uniqid h) y else y).
Proof.
  intros i h m cm e x H I X. pose proof (unit_clean _ _ _ _ _ H I) as C.
  assert (Ex : forall b y, clean y -> clean (exported_as (Si i h m) b y)).
  { intros b y Y. unfold exported_as. destruct b; [exact (global_clean _ _ _ _ _ H Y) | exact Y]. }
  assert (Lb : no_brackets (L "struct ")) by now apply no_brackets_lit.
  destruct e as [mc | en | a | t | s | v | f]; cbn [c_elem] in X; cbn [elem_clean] in C.
  - destruct (_ || _); [destruct X |]. destruct X as [X | []]. discriminate.
  - destruct X as [X | []]. discriminate.
  - destruct X as [X | []]. injection X as <-. destruct C as [C1 C2]. split.
    + apply (typedef_named_so _ 0); cbn; [apply (no_brackets_app (L "struct ")); [exact Lb | now apply clean_no_brackets] | now apply Ex | reflexivity].
    + exists (sa_typename a). cbn. split; [auto |]. unfold exported_as. reflexivity.
  - destruct X as [X | []]. injection X as <-. destruct C as [C1 C2]. split.
    + apply (typedef_named_so _ (td_derefs t)); cbn [ctd_type ctd_form ctdf_alias ctdf_stars];
        [apply clean_no_brackets; eapply type_clean; eauto | now apply Ex | reflexivity].
    + exists (td_alias t). cbn. split; [auto |]. unfold exported_as. reflexivity.
  - destruct X as [X | [X | [X | []]]]; try discriminate. injection X as <-. split.
    + apply (typedef_named_so _ 0); cbn [ctd_type ctd_form ctdf_alias ctdf_stars ctn_name]; [| now apply Ex | reflexivity].
      set (q := exported_as (Si i h m) (st_pub s) (st_name s)).
      apply (no_brackets_app (L "struct ") (struct_tag q)); [exact Lb |].
      apply (no_brackets_app (L "__") (q ++ L "_struct")); [now apply no_brackets_lit |].
      apply (no_brackets_app q (L "_struct")); [now apply clean_no_brackets, Ex | now apply no_brackets_lit].
    + exists (st_name s). cbn. split; [auto |]. unfold exported_as. reflexivity.
  - destruct (v_value v); [| destruct X]. destruct X as [X | []]. discriminate.
  - destruct X as [X | X]; [discriminate |]. destruct (str_eqb _ _); [destruct X |]. destruct X as [X | []]. discriminate.
Qed.

(** What a file offers: directives, and the pub elements of some module. *)
Definition origin (e : celem) (k : nat) (h : modinfo) (m : module_) (x : modelem) : Prop :=
  exists cm, unit_at pr k h m cm /\ In x (mod_elements m) /\ is_pub x = true /\ In e (c_elem (Si k h m) (Gi m) x).
Definition directive (e : celem) : Prop := exists n c r, e = XMacro n (c :: r) /\ In c [32; 95; 110]%N.
Lemma offered_cases : forall i h m cm e, unit_at pr i h m cm -> In e (cm_elements cm) -> offered e = true ->
  directive e \/ exists k h m x, origin e k h m x.
Proof.
  induction i as [i IH] using lt_wf_ind.
  intros h m cm e Hu He Ho. destruct (unit_gives w _ _ _ _ _ _ _ B Hu) as (s & parts & inj & Hg & Hf & E).
  rewrite E in He. apply reorder_in in He.
  apply (thinned_in _ _ _ _ _ (dedup_thins _ _)) in He. apply in_app_or in He. destruct He as [He | He].
  - unfold module_head in He. rewrite !in_app_iff in He.
    destruct He as [[<- | []] | [He | [He | [<- | []]]]].
    + left. do 3 eexists. split; [reflexivity | cbn; auto].
    + unfold std_includes in He. apply in_map_iff in He. destruct He as (n & <- & _). discriminate.
    + destruct (str_in _ _); [| destruct He]. destruct He as [<- | []]. discriminate.
    + left. do 3 eexists. split; [reflexivity | cbn; auto].
  - apply in_app_or in He. destruct He as [He | He].
    + apply (firsts_in _ _ _ _ _ Hf) in He. apply in_concat in He. destruct He as (part & Hpart & He).
      assert (Hr : exists r, gives pr i r part).
      { clear - Hg Hpart. induction Hg; [destruct Hpart |]. destruct Hpart as [<- | Hp]; [eauto | auto]. }
      destruct Hr as (r & j & h' & m' & cm' & Hlt & Hu' & _ & ->). apply filter_In in He. destruct He as [He _].
      eapply (IH j Hlt); eauto.
    + unfold c_elems in He. apply in_flat_map in He. destruct He as (x & Hx & He). cbn [site_of elements] in *.
      destruct x as [mc | | | | | |].
      { left. cbn [c_elem] in He. destruct (_ || _); [destruct He |]. destruct He as [<- | []].
        destruct (unit_clean _ _ _ _ _ Hu Hx) as (r & ->). do 3 eexists. split; [reflexivity | cbn; auto]. }
      all: destruct (own_public _ _ _ _ He Ho) as [(n & v' & ->) | Hp];
        [exfalso; cbn [c_elem] in He | right; exists i, h, m; eexists; exists cm; repeat split; try apply Hu; eauto].
      * destruct He as [He | []]. discriminate.
      * destruct He as [He | []]. discriminate.
      * destruct He as [He | []]. discriminate.
      * destruct He as [He | [He | [He | []]]]; discriminate.
      * destruct (v_value _); [| destruct He]. destruct He as [He | []]. discriminate.
      * destruct He as [He | He]; [discriminate |]. destruct (str_eqb _ _); [destruct He |]. destruct He as [He | []]. discriminate.
Qed.

(** The keys of what is offered. *)
Definition exported_consts (h : modinfo) (x : enum_) : list str := map (fun en => global_name (mi_uniqid h) (en_name en)) (enum_entries x).
Lemma offered_keys : forall e k h m x, origin e k h m x -> offered e = true ->
  (exists y, type_of_elem x true y /\ declared e = [UType (global_name (mi_uniqid h) y)] /\ key e = global_name (mi_uniqid h) y)
  \/ (exists r, key e = 95%N :: r)
  \/ (exists d, x = MEnum d /\ enum_pub d = true /\ key e = L "enum-" ++ join (L ",") (exported_consts h d)
      /\ declared e = map UName (exported_consts h d))
  \/ exists f, x = MFunc f /\ fd_pub f = true /\ key e = global_name (mi_uniqid h) (f_name (fd_form f))
     /\ declared e = [UName (global_name (mi_uniqid h) (f_name (fd_form f)))].
Proof.
  intros e k h m x (cm & Hu & I & P & X) O. pose proof (po_translated _ _ _ _ (project_built w _ _ _ B) k h m cm Hu) as Ht.
  destruct x as [mc | d | a | t | s | v | f]; cbn [c_elem is_pub] in *; try discriminate.
  - destruct X as [<- | []]. right. right. left. exists d. split; [reflexivity |]. split; [exact P |]. cbn [key declared ced_entries].
    rewrite P. unfold exported_as, exported_consts. rewrite !map_map. cbn [fst]. split; reflexivity.
  - destruct X as [<- | []]. left. exists (sa_typename a). cbn [type_of_elem key declared ctd_form ctdf_alias]. rewrite P. repeat split.
  - destruct X as [<- | []]. left. exists (td_alias t). cbn [type_of_elem key declared ctd_form ctdf_alias]. rewrite P. repeat split.
  - destruct X as [<- | [<- | [<- | []]]]; [discriminate | |].
    + right. left. cbn [key csd_name]. eexists. reflexivity.
    + left. exists (st_name s). cbn [type_of_elem key declared ctd_form ctdf_alias]. rewrite P. repeat split.
  - right. right. right. exists f. split; [reflexivity |]. split; [exact P |].
    destruct (proj2 (proj2 (exports _ _ _ _ Hu)) f I P) as [Nm Np].
    pose proof (pub_head m (unit_params pr k h) cm f Ht I P Nm Np) as Hn.
    destruct X as [<- | X]; [discriminate |]. destruct (str_eqb _ _); [destruct X |]. destruct X as [<- | []].
    cbn [key declared cfw_form c_form cf_name]. unfold c_function in Hn. cbn [cfd_form cf_name c_form] in Hn. unfold inside in Hn.
    cbn [site_of elements] in Hn. cbn [site_of elements]. rewrite Hn. split; reflexivity.
Qed.
Lemma global_start : forall i h m cm x, unit_at pr i h m cm -> exists r, global_name (mi_uniqid h) x = 109%N :: 111%N :: r.
Proof. intros i h m cm x H. rewrite (unit_id w _ _ _ _ _ _ _ B H). unfold module_id, global_name. eexists. reflexivity. Qed.

(** An element that is offered under the key of another one declares the same. *)
Definition agrees (e : celem) (k : str) (u : cuse) : Prop := key e = k -> In u (declared e).
Lemma directive_key : forall e c r, directive e -> key e = c :: r -> In c [32; 95; 110]%N.
Proof. intros e c r (n & c' & r' & -> & I) E. cbn [key] in E. injection E as -> ->. exact I. Qed.
Lemma type_agrees : forall j h m cm e x, unit_at pr j h m cm -> In e (mod_elements m) -> type_of_elem e true x ->
  forall i hi mi cmi z, unit_at pr i hi mi cmi -> In z (cm_elements cmi) -> offered z = true ->
  agrees z (global_name (mi_uniqid h) x) (UType (global_name (mi_uniqid h) x)).
Proof.
  intros j h m cm e x Hu Ie Te i hi mi cmi z Hi Iz Oz K. destruct (global_start _ _ _ _ x Hu) as (r & R).
  destruct (offered_cases _ _ _ _ _ Hi Iz Oz) as [D | (k & hk & mk & xk & Or)].
  - rewrite R in K. apply (directive_key _ _ _ D) in K. cbn in K. intuition discriminate.
  - pose proof (offered_keys _ _ _ _ _ Or Oz) as Q. destruct Or as (cmk & Huk & Ik & Pk & Xk).
    destruct Q as [(y & Ty & Dy & Ky) | [(r' & Ky) | [(d & -> & _ & Ky & Dy) | (f & -> & Pf & Ky & Dy)]]].
    + rewrite Dy, <- Ky, K. now left.
    + congruence.
    + rewrite R, Ky in K. discriminate.
    + exfalso. rewrite Ky in K. apply (names_differ w _ _ _ _ _ _ _ _ _ _ _ _ _ B Huk Hu) in K as [-> <-].
      assert (mk = m) as -> by (destruct Hu as (_ & Hm & _), Huk as (_ & Hm' & _); congruence).
      apply (proj1 (exports _ _ _ _ Hu) _ _ Ie Te). right. exists f. auto.
Qed.
Lemma fn_agrees : forall j h m cm f, unit_at pr j h m cm -> In (MFunc f) (mod_elements m) -> fd_pub f = true ->
  forall i hi mi cmi z, unit_at pr i hi mi cmi -> In z (cm_elements cmi) -> offered z = true ->
  let x := global_name (mi_uniqid h) (f_name (fd_form f)) in agrees z x (UName x).
Proof.
  intros j h m cm f Hu If Pf i hi mi cmi z Hi Iz Oz x K. unfold x in *. destruct (global_start _ _ _ _ (f_name (fd_form f)) Hu) as (r & R).
  destruct (offered_cases _ _ _ _ _ Hi Iz Oz) as [D | (k & hk & mk & xk & Or)].
  - rewrite R in K. apply (directive_key _ _ _ D) in K. cbn in K. intuition discriminate.
  - pose proof (offered_keys _ _ _ _ _ Or Oz) as Q. destruct Or as (cmk & Huk & Ik & Pk & Xk).
    destruct Q as [(y & Ty & Dy & Ky) | [(r' & Ky) | [(d & -> & _ & Ky & Dy) | (f' & -> & Pf' & Ky & Dy)]]].
    + exfalso. rewrite Ky in K. apply (names_differ w _ _ _ _ _ _ _ _ _ _ _ _ _ B Huk Hu) in K as [-> ->].
      assert (mk = m) as -> by (destruct Hu as (_ & Hm & _), Huk as (_ & Hm' & _); congruence).
      apply (proj1 (exports _ _ _ _ Hu) _ _ Ik Ty). right. exists f. auto.
    + congruence.
    + rewrite R, Ky in K. discriminate.
    + rewrite Dy, <- Ky, K. now left.
Qed.
Lemma enum_agrees : forall j h m cm d x, unit_at pr j h m cm -> In (MEnum d) (mod_elements m) -> enum_pub d = true -> In x (exported_consts h d) ->
  forall i hi mi cmi z, unit_at pr i hi mi cmi -> In z (cm_elements cmi) -> offered z = true ->
  agrees z (L "enum-" ++ join (L ",") (exported_consts h d)) (UName x).
Proof.
  intros j h m cm d x Hu If Pf Hx i hi mi cmi z Hi Iz Oz K.
  destruct (offered_cases _ _ _ _ _ Hi Iz Oz) as [D | (k & hk & mk & xk & Or)].
  - apply (directive_key _ _ _ D) in K. cbn in K. intuition discriminate.
  - pose proof (offered_keys _ _ _ _ _ Or Oz) as Q. destruct Or as (cmk & Huk & Ik & Pk & Xk).
    destruct Q as [(y & Ty & Dy & Ky) | [(r' & Ky) | [(d' & -> & _ & Ky & Dy) | (f' & -> & Pf' & Ky & Dy)]]].
    + destruct (global_start _ _ _ _ y Huk) as (r & R). rewrite R in Ky. rewrite Ky in K. discriminate.
    + rewrite Ky in K. discriminate.
    + rewrite Ky in K. apply app_inv_head in K.
      assert (C : forall i0 h0 m0 cm0 d0, unit_at pr i0 h0 m0 cm0 -> In (MEnum d0) (mod_elements m0) ->
        forall y, In y (exported_consts h0 d0) -> y <> [] /\ ~ In 44%N y).
      { intros i0 h0 m0 cm0 d0 H0 I0 y Y. unfold exported_consts in Y. apply in_map_iff in Y as (en & <- & Y). split.
        - destruct (global_start _ _ _ _ (en_name en) H0) as (r & ->). discriminate.
        - intros C. eapply clean_not; [| exact C |]; [| cbn; auto 10].
          eapply global_clean; [exact H0 |]. exact (unit_clean _ _ _ _ _ H0 I0 en Y). }
      apply join_commas in K; [| eapply C; eauto | eapply C; eauto]. rewrite Dy, K. now apply in_map.
    + destruct (global_start _ _ _ _ (f_name (fd_form f')) Huk) as (r & R). rewrite R in Ky. rewrite Ky in K. discriminate.
Qed.

(** Definitions of types with equal texts declare the same. *)
Lemma file_typedefs : forall i h m cm t, unit_at pr i h m cm -> In (XTypedef t) (cm_elements cm) ->
  typedef_name (format_typedef t) = ctdf_alias (ctd_form t).
Proof.
  intros j h m cm t Hu Y. destruct (unit_gives w _ _ _ _ _ _ _ B Hu) as (s & parts & inj & Hg & Hf & E).
  rewrite E in Y. apply reorder_in in Y. apply (thinned_in _ _ _ _ _ (dedup_thins _ _)) in Y. apply in_app_or in Y as [Y | Y]; [| apply in_app_or in Y as [Y | Y]].
  - exfalso. unfold module_head in Y. rewrite !in_app_iff in Y. destruct Y as [[Y | []] | [Y | [Y | [Y | []]]]]; try discriminate.
    + unfold std_includes in Y. apply in_map_iff in Y as (n & Y & _). discriminate.
    + destruct (str_in _ _); [| destruct Y]. destruct Y as [Y | []]. discriminate.
  - apply (firsts_in _ _ _ _ _ Hf) in Y. apply in_concat in Y. destruct Y as (part & Hpart & He).
    assert (Hr : exists r, gives pr j r part).
    { clear - Hg Hpart. induction Hg; [destruct Hpart |]. destruct Hpart as [<- | Hp]; [eauto | auto]. }
    destruct Hr as (r & j' & h' & m' & cm' & Hlt & Hu' & _ & ->). apply filter_In in He. destruct He as [He Ho].
    destruct (offered_cases _ _ _ _ _ Hu' He Ho) as [(n & c & r' & D & _) | (k & hk & mk & xk & cmk & Huk & Ik & Pk & Xk)]; [discriminate |].
    now destruct (typedef_fine _ _ _ _ _ _ Huk Ik Xk).
  - unfold c_elems in Y. apply in_flat_map in Y as (e' & Ie' & Y). cbn [site_of elements] in *.
    now destruct (typedef_fine _ _ _ _ _ _ Hu Ie' Y).
Qed.
Lemma equal_texts : forall i h m cm x y u, unit_at pr i h m cm -> In y (cm_elements cm) ->
  (forall t, x = XTypedef t -> typedef_name (format_typedef t) = ctdf_alias (ctd_form t)) ->
  type_definition x -> type_definition y -> format_elem y = format_elem x -> In u (declared x) -> In u (declared y).
Proof.
  intros i h m cm x y u Hu Iy Fx Tx Ty F D. destruct x as [| | | | | t | | |]; try (now destruct Tx).
  destruct y as [| | | | | t' | | |]; try (now destruct Ty).
  cbn [format_elem] in F. apply (f_equal typedef_name) in F. rewrite (Fx _ eq_refl), (file_typedefs _ _ _ _ _ Hu Iy) in F.
  cbn [declared] in *. now rewrite F.
Qed.

(** Every pub element is offered by the file of its module. *)
Lemma type_offered : forall j h m cm e x, unit_at pr j h m cm -> In e (mod_elements m) -> type_of_elem e true x ->
  exists y, In y (cm_elements cm) /\ offered y = true /\ key y = global_name (mi_uniqid h) x.
Proof.
  intros j h m cm e x Hu Ie Te.
  assert (T : exists t, In (XTypedef t) (c_elem (Si j h m) (Gi m) e) /\ ctd_pub t = true /\ ctdf_alias (ctd_form t) = global_name (mi_uniqid h) x).
  { destruct e; cbn [type_of_elem] in Te; try contradiction; destruct Te as [P <-]; cbn [c_elem]; rewrite P;
      [eexists; split; [left; reflexivity | split; reflexivity] .. |].
    eexists. split; [right; right; left; reflexivity | split; reflexivity]. }
  destruct T as (t & T & P & A). destruct (unit_gives w _ _ _ _ _ _ _ B Hu) as (s & parts & inj & Hg & Hf & E).
  assert (It : In (XTypedef t) (c_elems (Si j h m) is_numeric)) by (eapply in_c_elems; eauto).
  destruct (dedup_keeps (module_head s ++ inj ++ c_elems (Si j h m) is_numeric) [] (XTypedef t)) as [[_ []] | (y & Y & F & K)].
  { rewrite !in_app_iff. auto. }
  exists y. split; [rewrite E; now apply reorder_in |]. destruct K as [-> | [K _]]; [auto |].
  destruct (typedef_fine _ _ _ _ _ _ Hu Ie T) as [N1 _]. cbn [format_elem] in F.
  destruct y as [inc | n v | fs | ff | en | y | st | v | fd]; try (now destruct K).
  cbn [format_elem] in F. apply (f_equal typedef_name) in F. rewrite N1, A in F. cbn [offered key].
  apply (thinned_in _ _ _ _ _ (dedup_thins _ _)) in Y. apply in_app_or in Y as [Y | Y]; [| apply in_app_or in Y as [Y | Y]].
  - exfalso. unfold module_head in Y. rewrite !in_app_iff in Y. destruct Y as [[Y | []] | [Y | [Y | [Y | []]]]]; try discriminate.
    + unfold std_includes in Y. apply in_map_iff in Y as (n & Y & _). discriminate.
    + destruct (str_in _ _); [| destruct Y]. destruct Y as [Y | []]. discriminate.
  - apply (firsts_in _ _ _ _ _ Hf) in Y. apply in_concat in Y. destruct Y as (part & Hpart & He).
    assert (Hr : exists r, gives pr j r part).
    { clear - Hg Hpart. induction Hg; [destruct Hpart |]. destruct Hpart as [<- | Hp]; [eauto | auto]. }
    destruct Hr as (r & j' & h' & m' & cm' & Hlt & Hu' & _ & ->). apply filter_In in He. destruct He as [He Ho].
    split; [exact Ho |]. destruct (offered_cases _ _ _ _ _ Hu' He Ho) as [(n & c & r' & D & _) | (k & hk & mk & xk & cmk & Huk & Ik & Pk & Xk)]; [discriminate |].
    destruct (typedef_fine _ _ _ _ _ _ Huk Ik Xk) as [N2 _]. congruence.
  - unfold c_elems in Y. apply in_flat_map in Y as (e' & Ie' & Y). cbn [site_of elements] in *.
    destruct (typedef_fine _ _ _ _ _ _ Hu Ie' Y) as (N2 & z & Tz & Az). rewrite N2 in F.
    destruct (ctd_pub y) eqn:Py; [auto |]. exfalso. rewrite F in Az. subst z.
    exact (proj1 (proj2 (exports _ _ _ _ Hu)) e e' x Ie Ie' Te Tz).
Qed.

Lemma fn_offered : forall j h m cm f, unit_at pr j h m cm -> In (MFunc f) (mod_elements m) -> fd_pub f = true ->
  exists y, In y (cm_elements cm) /\ offered y = true /\ key y = global_name (mi_uniqid h) (f_name (fd_form f)).
Proof.
  intros j h m cm f Hu I P. pose proof (po_translated _ _ _ _ (project_built w _ _ _ B) j h m cm Hu) as Ht.
  destruct (proj2 (proj2 (exports _ _ _ _ Hu)) f I P) as [Nm Np].
  exists (XForwardFunc (prototype_of (c_function (Si j h m) is_numeric f))). split; [| split].
  - apply (module_prototypes m (unit_params pr j h) cm f Ht); [| exact Nm]. unfold source_functions. apply in_flat_map. exists (MFunc f). split; [exact I | now left].
  - cbn. now rewrite P.
  - exact (pub_head m (unit_params pr j h) cm f Ht I P Nm Np).
Qed.
Lemma enum_offered : forall j h m cm d, unit_at pr j h m cm -> In (MEnum d) (mod_elements m) -> enum_pub d = true ->
  exists y, In y (cm_elements cm) /\ offered y = true /\ key y = L "enum-" ++ join (L ",") (exported_consts h d).
Proof.
  intros j h m cm d Hu I P. pose proof (po_translated _ _ _ _ (project_built w _ _ _ B) j h m cm Hu) as Ht.
  eexists. split; [| split].
  - apply (own_in m (unit_params pr j h) cm _ Ht); [eapply in_c_elems; [exact I | left; reflexivity] | exact (fun x => x)].
  - cbn. now rewrite P.
  - cbn [key ced_entries]. rewrite P, map_map. reflexivity.
Qed.

(** What an imported file offers is declared in the importing one. *)
Lemma same_unit : forall i h m cm j h' m' cm', unit_at pr i h m cm -> unit_at pr j h' m' cm' -> mi_filepath h = mi_filepath h' ->
  i = j /\ cm = cm'.
Proof.
  intros i h m cm j h' m' cm' (H1 & _ & H2) (H3 & _ & H4) E.
  assert (i = j) as ->; [| split; congruence].
  pose proof (pg_nodup _ _ _ (po_program _ _ _ _ (project_built w _ _ _ B))) as N. rewrite NoDup_nth_error in N. apply N.
  - rewrite map_length. apply nth_error_Some. congruence.
  - rewrite !nth_error_map, H1, H3. cbn. now rewrite E.
Qed.
Lemma arrives : forall i h m cm q h' m' j cm' y k u bef d aft, unit_at pr i h m cm -> import (Si i h m) q = Some (h', m') -> unit_at pr j h' m' cm' ->
  In y (cm_elements cm') -> offered y = true -> key y = k ->
  (forall i hi mi cmi z, unit_at pr i hi mi cmi -> In z (cm_elements cmi) -> offered z = true -> agrees z k u) ->
  cm_elements cm = bef ++ XFunc d :: aft -> declared_in bef u.
Proof.
  intros i h m cm q h' m' j cm' y k u bef d aft Hu Hi Hj Iy Oy Ky Ag Hd.
  pose proof (po_translated _ _ _ _ (project_built w _ _ _ B) i h m cm Hu) as Ht.
  destruct (unit_gives w _ _ _ _ _ _ _ B Hu) as (s & parts & inj & Hg & Hf & E).
  unfold site_of, imported, unit_params in Hi. cbn [import tp_mod tp_heads tp_mods] in Hi.
  destruct (find _ (mi_imports h)) as [r |] eqn:Ef; [| discriminate]. apply find_some in Ef. destruct Ef as [Hr _].
  apply find_some in Hi as [_ Ep]. cbn [fst] in Ep. apply str_eqb_eq in Ep.
  assert (P : exists part, In part parts /\ gives pr i r part).
  { clear - Hg Hr. induction Hg as [| a b l l' G F IH]; [destruct Hr |]. destruct Hr as [<- | Hr]; [exists b; split; [now left | exact G] |].
    destruct (IH Hr) as (part & I & G'). exists part. split; [now right | exact G']. }
  destruct P as (part & Hp & j2 & h2 & m2 & cm2 & _ & Hj2 & Ep2 & ->).
  destruct (same_unit _ _ _ _ _ _ _ _ Hj Hj2 ltac:(congruence)) as [-> ->].
  assert (Yc : In y (List.concat parts)) by (apply in_concat; eexists; split; [exact Hp | apply filter_In; auto]).
  destruct (proj2 (proj2 (firsts_keys _ _ _ _ _ Hf)) y Yc) as [[] | Kz]. apply in_map_iff in Kz as (z & Kz & Iz).
  assert (Oz : exists i hi mi cmi, unit_at pr i hi mi cmi /\ In z (cm_elements cmi) /\ offered z = true).
  { apply (firsts_in _ _ _ _ _ Hf) in Iz. apply in_concat in Iz. destruct Iz as (part & Hpart & He).
    assert (Hr' : exists r, gives pr i r part).
    { clear - Hg Hpart. induction Hg; [destruct Hpart |]. destruct Hpart as [<- | Hp]; [eauto | auto]. }
    destruct Hr' as (r' & j' & h3 & m3 & cm3 & Hlt & Hu' & _ & ->). apply filter_In in He. destruct He. do 4 eexists. eauto. }
  destruct Oz as (i3 & h3 & m3 & cm3 & Hu3 & Iz3 & Oz).
  assert (Dz : In u (declared z)) by (apply (Ag _ _ _ _ _ Hu3 Iz3 Oz); congruence).
  destruct (dedup_keeps (module_head s ++ inj ++ c_elems (Si i h m) is_numeric) [] z) as [[_ []] | (z' & Z' & F & K)].
  { rewrite !in_app_iff. auto. }
  assert (Iz' : In z' (cm_elements cm)) by (rewrite E; now apply reorder_in).
  exists z'. split.
  - apply (before_func m (unit_params pr i h) cm Ht bef d aft Hd); [exact Iz' |].
    destruct K as [-> | [K _]]; [destruct z; cbn in *; try discriminate; lia |]. destruct z'; cbn in *; try contradiction; lia.
  - destruct K as [-> | [K K']]; [exact Dz |]. refine (equal_texts _ _ _ _ _ _ _ Hu Iz' _ K' K F Dz).
    intros t ->. exact (file_typedefs _ _ _ _ _ Hu3 Iz3).
Qed.

(** ** The theorem *)
Theorem project_closed : forall i h m cm system bef d aft, unit_at pr i h m cm -> tidy (Si i h m) system ->
  cm_elements cm = bef ++ XFunc d :: aft -> forall u, In u (function_uses d) -> declared_in bef u \/ basic u \/ system u.
Proof.
  intros i h m cm system bef d aft Hu T Hd. pose proof (po_translated _ _ _ _ (project_built w _ _ _ B) i h m cm Hu) as Ht.
  assert (Same : forall x y u, In x (c_elems (Si i h m) is_numeric) -> In y (cm_elements cm) -> type_definition x -> type_definition y ->
    format_elem y = format_elem x -> In u (declared x) -> In u (declared y)).
  { intros x y u Ix Iy Tx Ty F D. refine (equal_texts _ _ _ _ _ _ _ Hu Iy _ Tx Ty F D). intros t ->.
    unfold c_elems in Ix. apply in_flat_map in Ix as (e' & Ie' & Ix). now destruct (typedef_fine _ _ _ _ _ _ Hu Ie' Ix). }
  apply (function_closed m (unit_params pr i h) cm Ht bef d aft Hd Same system T).
  - intros q h' m' x _ _ Hi Hx. left. destruct (import_unit w _ _ _ _ _ _ _ _ _ _ B Hu Hi) as (j & cm' & _ & Hj).
    destruct (po_parsed _ _ _ _ (project_built w _ _ _ B) _ _ _ _ Hj) as (text & _ & Pm). rewrite (parse_module_exports _ _ _ _ Pm), get_exports_spec in Hx.
    cbn [ex_consts] in Hx. apply in_constants in Hx as (e & en & Ie & Pe & Ien & <-).
    destruct (enum_offered _ _ _ _ _ Hj Ie Pe) as (y & Iy & Oy & Ky).
    refine (arrives _ _ _ _ _ _ _ _ _ _ _ _ _ _ _ Hu Hi Hj Iy Oy Ky _ Hd). apply (enum_agrees _ _ _ _ _ _ Hj Ie Pe).
    unfold exported_consts. apply in_map_iff. eauto.
  - intros q h' m' f _ _ Hi Hx. left. destruct (import_unit w _ _ _ _ _ _ _ _ _ _ B Hu Hi) as (j & cm' & _ & Hj).
    destruct (po_parsed _ _ _ _ (project_built w _ _ _ B) _ _ _ _ Hj) as (text & _ & Pm). rewrite (parse_module_exports _ _ _ _ Pm), get_exports_spec in Hx.
    cbn [ex_fns] in Hx. unfold functions_in_order in Hx. apply in_flat_map in Hx as (e & Ie & X). destruct e as [| | | | | | f']; try (now destruct X).
    destruct (fd_pub f') eqn:P; [| destruct X]. destruct X as [-> | []].
    destruct (fn_offered _ _ _ _ _ Hj Ie P) as (y & Iy & Oy & Ky).
    refine (arrives _ _ _ _ _ _ _ _ _ _ _ _ _ _ _ Hu Hi Hj Iy Oy Ky _ Hd). exact (fn_agrees _ _ _ _ _ Hj Ie P).
  - intros q h' m' x _ _ Hi Hx. left. destruct (import_unit w _ _ _ _ _ _ _ _ _ _ B Hu Hi) as (j & cm' & _ & Hj).
    assert (X : exists e, In e (mod_elements m') /\ type_of_elem e true x).
    { destruct Hx as [(t & I & P & <-) | (t & I & P & <-)]; eexists; (split; [exact I |]); cbn; auto. }
    destruct X as (e & Ie & Te). destruct (type_offered _ _ _ _ _ _ Hj Ie Te) as (y & Iy & Oy & Ky).
    refine (arrives _ _ _ _ _ _ _ _ _ _ _ _ _ _ _ Hu Hi Hj Iy Oy Ky _ Hd). exact (type_agrees _ _ _ _ _ _ Hj Ie Te).
Qed.
End Project.
