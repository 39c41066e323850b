(** What the elements of a generated file use is declared before them: the part
    about the elements that come from the module itself. *)
From Verif Require Import Base BaseFacts Buf Nodes NodeInd Types Cspec Resolve Preparser Parser CAst FormatC Translator SpecCStmt CStmtFacts
  SpecDecl SpecScope SpecExports SpecModule SpecTarget TargetFacts TargetProps ScopeProps SpecTyping ElabFacts SpecAccept AcceptFacts SpecTame SpecClosed SpecTidy SpecNeat ClosedFacts
  SpecBuild BuildFacts BuildProps ClosedModule.

Section Own.
Variables (m : module_) (p : trparams) (cm : cmodule).
Hypothesis Ht : translate m p = TrOk cm.
Notation S := (site_of m p).
Notation Gm := (module_decls is_numeric (mod_elements m)).
Variable system : cuse -> Prop.
Hypothesis no_shadow : forall f, In (MFunc f) (mod_elements m) -> fd_pub f = true -> ~ In (f_name (fd_form f)) (param_names (fd_params f)).
(** What the other modules offer. *)
Variable inj : list celem.
Definition injected (g : nat) (u : cuse) : Prop := exists z, In z inj /\ offered z = true /\ In u (declared z) /\ group z <= g.
Hypothesis exported_const : forall q h m' x, import S q = Some (h, m') ->
  In x (map en_name (ex_consts (mod_exports m'))) -> pub_constant (mod_elements m') x.
Hypothesis foreign_const : forall q h m' x, q <> [] -> q <> L "OS" -> import S q = Some (h, m') ->
  pub_constant (mod_elements m') x -> injected 3 (UName (global_name (mi_uniqid h) x)).
Hypothesis foreign_fn : forall q h m' f, q <> [] -> q <> L "OS" -> import S q = Some (h, m') ->
  In f (ex_fns (mod_exports m')) -> injected 4 (UName (global_name (mi_uniqid h) (f_name (fd_form f)))).
Hypothesis foreign_type : forall q h m' x, q <> [] -> q <> L "OS" -> import S q = Some (h, m') ->
  pub_type (mod_elements m') x -> injected 2 (UType (global_name (mi_uniqid h) x)).
Lemma injected_le : forall g g' u, injected g u -> g <= g' -> injected g' u.
Proof. intros g g' u (z & I & O & D & Le) H. exists z. repeat split; auto. lia. Qed.

(** The head of every file. *)
Definition base (u : cuse) : Prop := library u \/ u = UName (L "nelem").
(** [z] gets in before [y], an element that comes from behind [a]. *)
Definition near (a : list modelem) (y z : celem) : Prop :=
  In z (flat_map (c_elem S Gm) a) /\ group z <= group y \/ In z (c_elems S is_numeric) /\ group z < group y.
Definition supplied (a : list modelem) (y : celem) (u : cuse) : Prop :=
  base u \/ system u \/ injected (group y) u \/ exists z, near a y z /\ In u (declared z) /\ (offered y = true -> offered z = true).

(** ** Declarations of values and types *)
Lemma decl_elem : forall e c, In e (mod_elements m) -> In c (elem_decls is_numeric e) -> d_name c <> L "main" ->
  exists z, In z (c_elem S Gm e) /\ In (UName (if d_pub c then global_name (own_id S) (d_name c) else d_name c)) (declared z)
    /\ match e with
       | MMacro _ => group z = 0 /\ offered z = true
       | MEnum x => group z = 3 /\ (enum_pub x = true -> offered z = true)
       | MVar _ => group z = 5
       | MFunc _ => group z = 4
       | _ => False
       end.
Proof.
  intros e c E I N.
  assert (I' : In c Gm) by (unfold module_decls; rewrite <- in_rev; apply in_flat_map; eauto).
  pose proof (module_look m p cm c Ht I') as Look. clear I'.
  destruct e as [mc | x | a | t | s | v | f]; cbn [elem_decls] in I; try (now destruct I).
  - destruct (str_eqb_spec (m_name mc) (L "define")) as [D | D]; [| destruct I].
    destruct (split_whitespace (trim (m_value mc))) as [| id [| w r]] eqn:W; try (now destruct I).
    destruct I as [<- | []]. cbn [d_name d_pub]. exists (XMacro (L "define") (m_value mc)). split; [| split].
    + cbn [c_elem]. rewrite D. cbn. left. reflexivity.
    + cbn [declared]. rewrite str_eqb_refl. unfold macro_names. rewrite W. now left.
    + split; reflexivity.
  - apply in_map_iff in I as (en & <- & I). cbn [d_name d_pub]. eexists. split; [left; reflexivity |]. split; [| split; [reflexivity |]].
    + cbn [declared ced_entries]. rewrite map_map. cbn [fst]. apply in_map_iff. exists en. split; [reflexivity | exact I].
    + intros P. cbn. now rewrite P.
  - destruct I as [<- | []]. cbn [local d_name d_pub] in *. pose proof (proj1 (accepted_iff m p) (ex_intro _ cm Ht)) as [O _].
    unfold ok_elems in O. rewrite all_in in O. apply O in E as K. destruct K as (_ & _ & w & V & _).
    eexists. split; [cbn [c_elem]; rewrite V; left; reflexivity |]. split; [| reflexivity].
    cbn [declared cv_form c_form cf_name]. left. f_equal. unfold head_name. rewrite Look. reflexivity.
  - destruct I as [<- | []]. cbn [d_name d_pub] in *.
    eexists. split; [cbn [c_elem]; cbv zeta; right; destruct (str_eqb_spec (f_name (fd_form f)) (L "main")); [contradiction | left; reflexivity] |].
    split; [| reflexivity].
    cbn [declared cfw_form c_form cf_name]. left. f_equal. unfold head_name. rewrite ClosedFacts.look_app.
    destruct (look (f_name (fd_form f)) (param_decls (fd_params f))) as [d' |] eqn:D.
    + apply look_is in D as [D1 D2]. assert (D3 : In (f_name (fd_form f)) (param_names (fd_params f))).
      { apply param_decl_names. rewrite <- D2. now apply in_map. }
      assert (D4 : d_pub d' = false).
      { unfold param_decls in D1. rewrite <- in_rev in D1. apply in_flat_map in D1 as (t & _ & D1). apply in_map_iff in D1 as (g & <- & _). reflexivity. }
      rewrite D4. cbn [andb]. destruct (fd_pub f) eqn:Pub; [exfalso; eapply no_shadow; eauto |].
      destruct (str_eqb_spec (f_name (fd_form f)) (L "main")); [contradiction | reflexivity].
    + rewrite Look. cbn [d_pub]. destruct (str_eqb_spec (f_name (fd_form f)) (L "main")); [contradiction |]. rewrite orb_false_r, andb_true_r. reflexivity.
Qed.
Lemma type_elem : forall e b x, type_of_elem e b x -> exists z, In z (c_elem S Gm e) /\ In (UType (exported_as S b x)) (declared z)
  /\ group z = 2 /\ offered z = b.
Proof.
  intros e b x H. destruct e; cbn [type_of_elem] in H; try contradiction; destruct H as [<- <-].
  - eexists. split; [left; reflexivity |]. repeat split. now left.
  - eexists. split; [left; reflexivity |]. repeat split. now left.
  - eexists. split; [right; right; left; reflexivity |]. repeat split. now left.
Qed.

(** ** Types *)
Lemma outer_type_supplied : forall a y t, outer_type S system (offered y) t ->
  (forall e b, ns_ns (tn_name t) = [] -> In e (mod_elements m) -> type_of_elem e b (ns_name (tn_name t)) -> In e a \/ 2 < group y) ->
  2 <= group y -> given_type S (supplied a y) t.
Proof.
  intros a y [cn n] [(T1 & T2 & T3) P] Nr Ge K. unfold type_known in K. cbn [tn_name] in *. unfold c_type. cbn [tn_name ctn_name].
  assert (Own : forall e b, ns_ns n = [] -> In e (mod_elements m) -> type_of_elem e b (ns_name n) -> supplied a y (UType (exported_as S b (ns_name n)))).
  { intros e b E I H. right. right. right. destruct (type_elem _ _ _ H) as (z & Z & D & G & O). exists z. split; [| split; [exact D |]].
    - destruct (Nr e b E I H) as [A | A]; [left; split; [apply in_flat_map; eauto | lia] | right]. split; [eapply in_c_elems; eauto | lia].
    - intros Oy. rewrite O. destruct b; [reflexivity |]. exfalso. exact (P Oy E e I H). }
  destruct (str_eqb_spec (ns_ns n) (L "OS")) as [E | E]; [right; left; now apply T1 |].
  destruct (str_eqb_spec (ns_ns n) []) as [E' | E'].
  - destruct K as [K | [[_ K] | [K _]]]; [congruence | | congruence]. unfold is_pub_type. unfold type_status in *.
    destruct (has_type (ns_name n)) eqn:HT; [left; left; apply library_sound; apply has_type_library, in_map_iff in HT as (q & <- & HT); pose proof types_library as Kt; rewrite forallb_forall in Kt; auto |].
    destruct (struct_named _ _) as [s |] eqn:SN.
    { unfold struct_named in SN. apply last_of_in in SN as (e & I & H). destruct e; try discriminate. destruct (str_eqb_spec (st_name s0) (ns_name n)) as [Q | Q]; [| discriminate].
      injection H as ->. apply (Own (MStruct s)); cbn; auto. }
    destruct (typedef_named _ _) as [[pub ty] |] eqn:TN.
    { unfold typedef_named in TN. apply last_of_in in TN as (e & I & H). destruct e as [| | al | t | | |]; try discriminate.
      - destruct (str_eqb_spec (sa_typename al) (ns_name n)) as [Q | Q]; [| discriminate]. injection H as <- <-. apply (Own (MStructAlias al)); cbn; auto.
      - destruct (str_eqb_spec (td_alias t) (ns_name n)) as [Q | Q]; [| discriminate]. injection H as <- <-. apply (Own (MTypedef t)); cbn; auto. }
    destruct (str_in _ _); [| congruence]. right. left. apply T2; auto.
    + intros X. apply library_has_type in X. congruence.
    + intros s I Q. unfold struct_named in SN. apply (last_of_none _ _ _ _ SN) in I. rewrite <- Q, str_eqb_refl in I. discriminate.
    + intros t I Q. unfold typedef_named in TN. apply (last_of_none _ _ _ _ TN) in I. rewrite <- Q, str_eqb_refl in I. discriminate.
    + intros t I Q. unfold typedef_named in TN. apply (last_of_none _ _ _ _ TN) in I. rewrite <- Q, str_eqb_refl in I. discriminate.
  - destruct K as [K | [[K _] | (_ & _ & h & m' & I & X)]]; try congruence. unfold import_id. rewrite I.
    right. right. left. eapply injected_le; [eapply foreign_type; eauto | exact Ge].
Qed.

(** ** Names *)
Section Names.
Variables (a : list modelem) (y : celem) (known : list str) (enums vars : list modelem) (fns : bool).
Hypothesis Enums : forall e, In e enums -> In e a \/ 3 < group y.
Hypothesis Vars : forall e, In e vars -> In e a /\ offered y = false /\ 5 <= group y.
Hypothesis Fns : fns = true -> 4 < group y /\ offered y = false.
Hypothesis Late : 2 < group y.
Notation outer := (outer_expr S system (offered y) known enums vars fns).

Lemma outer_name_supplied : forall G n, private G -> (forall x, In x (map d_name G) -> In x known) ->
  outer_name S system (offered y) known enums vars fns n -> (ns_ns n = [] -> ~ In (ns_name n) known) ->
  (exists t, name_typed S (G ++ Gm) n t) -> supplied a y (UName (cname S (G ++ Gm) n)).
Proof.
  intros G n P Gk ((T1 & T2) & O & F) Nk [t T].
  destruct T as [E | c E Lk | s E Lk Fs | h m' E1 E2 I X | h m' b f a' E1 E2 I _ X Y _].
  - unfold cname. rewrite E, str_eqb_refl. right. left. auto.
  - rewrite (cname_local S _ _ E), Lk. rewrite ClosedFacts.look_app in Lk. destruct (look (ns_name n) G) eqn:L1.
    + exfalso. apply (Nk E). apply Gk. apply look_is in L1 as [L1 <-]. now apply in_map.
    + apply look_is in Lk as [Lk Q]. rewrite <- Q. unfold module_decls in Lk. rewrite <- in_rev in Lk. apply in_flat_map in Lk as (e & Ie & Ic).
      assert (Nm : d_name c <> L "main"). { intros K. apply (T2 E). rewrite <- Q, K. left. reflexivity. }
      destruct (decl_elem e c Ie Ic Nm) as (z & Z & D & W).
      specialize (O E (Nk E) e Ie). unfold declares_value in O. rewrite <- Q in O. specialize (O (in_map _ _ _ Ic)).
      right. right. right. exists z. destruct e as [mc | x | al | t' | s | v | f]; try contradiction.
      * destruct W as [W1 W2]. split; [right; split; [eapply in_c_elems; eauto | lia] | auto].
      * destruct W as [W1 W2], O as [O1 O2]. split; [| auto].
        destruct (Enums _ O1) as [A | A]; [left; split; [apply in_flat_map; eauto | lia] | right; split; [eapply in_c_elems; eauto | lia]].
      * destruct (Vars _ O) as (A & B & V). split; [left; split; [apply in_flat_map; eauto | lia] |]. split; [exact D | congruence].
      * destruct (Fns O) as [A B]. split; [right; split; [eapply in_c_elems; eauto | lia] |]. split; [exact D | congruence].
  - rewrite (cname_local S _ _ E), Lk. left. destruct (sym_cases _ _ Fs (T2 E)) as [H | H]; [now left | right; now rewrite H].
  - unfold cname. destruct (str_eqb_spec (ns_ns n) (L "OS")); [contradiction |]. destruct (str_eqb_spec (ns_ns n) []); [contradiction |].
    unfold import_id. rewrite I. right. right. left. eapply injected_le; [eapply foreign_const; eauto | lia].
  - unfold cname. destruct (str_eqb_spec (ns_ns n) (L "OS")); [contradiction |]. destruct (str_eqb_spec (ns_ns n) []); [contradiction |].
    unfold import_id. rewrite I, <- Y. right. right. left. destruct (F E1 E2 _ _ I) as [H | H].
    + eapply injected_le; [eapply foreign_fn; eauto; rewrite X; apply in_elt |]. apply Fns in H. lia.
    + rewrite Y. eapply injected_le; [eapply foreign_const; eauto | lia].
Qed.
Lemma outer_meets : forall G (C : cuse -> Prop) e, private G -> (forall x, In x (map d_name G) -> In x known) ->
  (forall u, supplied a y u -> C u) ->
  (forall n, e = EName n -> ns_ns n = [] -> In (ns_name n) known -> C (UName (cname S (G ++ Gm) n))) ->
  outer e -> meets S (G ++ Gm) C e.
Proof.
  intros G C e P Gk Pc Kn O. destruct e; cbn [meets outer_expr] in *; auto.
  - intros K. apply Pc, outer_type_supplied; auto. lia.
  - intros H. congruence.
  - intros T. destruct (in_dec (list_eq_dec N.eq_dec) (ns_name n) known) as [I | I].
    + destruct (str_eqb_spec (ns_ns n) []) as [E | E]; [now apply Kn |]. apply Pc, outer_name_supplied; auto.
    + apply Pc, outer_name_supplied; auto.
  - intros K. apply Pc, outer_type_supplied; auto. lia.
Qed.
End Names.

(** ** Elements *)
Section Elem.
Variables (a : list modelem) (e : modelem) (b : list modelem).
Hypothesis At : mod_elements m = a ++ e :: b.
Hypothesis Outer : outer_elem S system a e.
Lemma own_before : forall x, In x a -> In x (mod_elements m).
Proof. intros x I. rewrite At, in_app_iff. now left. Qed.
Lemma own_here : In e (mod_elements m).
Proof. rewrite At. apply in_elt. Qed.
Lemma own_ok : ok_elem S Gm e.
Proof.
  pose proof (proj1 (accepted_iff m p) (ex_intro _ cm Ht)) as [O _]. unfold ok_elems in O. rewrite all_in in O. apply O, own_here.
Qed.

(** Sizes, values and types for the element [y] of the file. *)
Section At.
Variable y : celem.
Hypothesis Late : 2 < group y.
Notation sup := (supplied a y).
Lemma type_supplied : forall t, outer_type S system (offered y) t -> type_known S t -> sup (UType (ctn_name (c_type S t))).
Proof. intros t T. apply outer_type_supplied; [exact T | auto | lia]. Qed.
Variables (enums vars : list modelem) (fns : bool).
Hypothesis Enums : forall e, In e enums -> In e a \/ 3 < group y.
Hypothesis Vars : forall e, In e vars -> In e a /\ offered y = false /\ 5 <= group y.
Hypothesis Fns : fns = true -> 4 < group y /\ offered y = false.
Lemma none_meets : forall x, outer_expr S system (offered y) [] enums vars fns x -> meets S Gm sup x.
Proof.
  intros x O. change Gm with ([] ++ Gm). eapply outer_meets; eauto.
  - constructor.
  - intros n _ _ [].
Qed.
Lemma true_expr : forall x, each_expr (fun _ => True) x.
Proof. intros x. apply each_subs. auto. Qed.
Lemma value_supplied : forall x, each_expr (outer_expr S system (offered y) [] enums vars fns) x -> ok_value S Gm x ->
  forall u, In u (uses (c_expr S Gm x)) -> sup u.
Proof.
  intros x O K. apply value_uses; [| exact K]. eapply (expr_mp3 (fun _ => True)); [| apply true_expr | exact O]. intros z _. apply none_meets.
Qed.
Lemma form_supplied : forall f name, each_form (outer_expr S system (offered y) [] enums vars fns) f -> ok_form S Gm f ->
  forall u, In u (sizes (c_form S Gm name f)) -> sup u.
Proof.
  intros f name O K. apply form_uses; [| exact K]. eapply (form_mp3 (fun _ => True)); [| apply each_form_exprs; auto | exact O]. intros z _. apply none_meets.
Qed.
End At.

(** Enums. *)
Lemma enum_supplied : forall x y, e = MEnum x -> In y (c_elem S Gm e) -> forall u, In u (elem_uses y) -> supplied a y u.
Proof.
  intros x y Q I. pose proof own_ok as K. pose proof Outer as Out. pose proof own_here as Here. rewrite Q in K, Out, Here, I. destruct I as [<- | []].
  cbn [elem_uses ced_entries]. set (y := XEnum _). cbn [outer_elem] in Out. cbn [ok_elem] in K. rewrite all_in in K.
  assert (Oy : offered y = enum_pub x) by (unfold y; cbn; now rewrite negb_involutive).
  (* behind the entries [l1] *)
  assert (H : forall l2 l1, enum_entries x = l1 ++ l2 -> forall u,
    In u (fold_right enumerator [] (map (fun e => (exported_as S (enum_pub x) (en_name e), option_map (c_expr S Gm) (en_val e))) l2)) ->
    supplied a y u \/ exists n, In n (map en_name l1) /\ u = UName (exported_as S (enum_pub x) n)).
  { induction l2 as [| en l2 IH]; intros l1 E u U; [destruct U |]. cbn [map fold_right] in U. unfold enumerator in U at 1. cbn [fst snd] in U.
    apply in_app_or in U as [U | U].
    - specialize (Out _ _ _ E). assert (Ke : all_opt (ok_value S Gm) (en_val en)) by (apply K; rewrite E; apply in_elt).
      destruct (en_val en) as [v |]; [| destruct U]. cbn [all_opt option_map opt_uses] in *. revert u U. apply value_uses; [| exact Ke].
      eapply (expr_mp3 (fun _ => True)); [| apply true_expr | exact Out]. intros z _ Z. change Gm with ([] ++ Gm).
      rewrite <- Oy in Z. eapply (outer_meets a); [| | | | | | | | exact Z]; auto.
      + intros ? [].
      + discriminate.
      + constructor.
      + intros ? [].
      + intros n _ En Kn. right. exists (ns_name n). split; [exact Kn |]. f_equal. rewrite (cname_local S _ _ En). cbn [app].
        assert (D : exists d, In d Gm /\ d_name d = ns_name n /\ d_pub d = enum_pub x).
        { apply in_map_iff in Kn as (e' & <- & I'). exists (mkDecl (en_name e') (enum_pub x) number_type). repeat split.
          unfold module_decls. rewrite <- in_rev. apply in_flat_map. exists (MEnum x). split; [exact Here |]. cbn [elem_decls].
          apply in_map_iff. exists e'. split; [reflexivity |]. rewrite E, in_app_iff. now left. }
        destruct D as (d & Id & Nd & Pd). pose proof (module_look m p cm d Ht Id) as Lk. rewrite Nd in Lk. rewrite Lk, Pd. reflexivity.
    - apply hide_in in U as [U N]. destruct (IH (l1 ++ [en])) with (u := u) as [H | (n & I & ->)]; auto.
      + now rewrite <- app_assoc.
      + right. rewrite map_app, in_app_iff in I. destruct I as [I | [<- | []]]; [eauto |]. now contradiction N. }
  intros u U. destruct (H (enum_entries x) [] eq_refl u U) as [X | (n & [] & _)]. exact X.
Qed.
(** Types. *)
Lemma typedef_supplied : forall x y, e = MTypedef x -> In y (c_elem S Gm e) -> forall u, In u (elem_uses y) -> supplied a y u.
Proof.
  intros x y Q I. pose proof own_ok as K. pose proof Outer as Out. pose proof own_here as Here. rewrite Q in K, Out, Here, I. destruct I as [<- | []]. intros u U.
  cbn [outer_elem] in Out. destruct Out as [[O1 O2] O3], K as [K1 K2].
  cbn [elem_uses ctd_type ctd_form ctdf_params] in U. set (y := XTypedef _).
  assert (Te : forall t, earlier_type S system (td_pub x) a t -> type_known S t -> supplied a y (UType (ctn_name (c_type S t)))).
  { intros t [T1 T2]. apply outer_type_supplied; [exact T1 | | cbn; lia]. intros e' b' E I H. left. eauto. }
  apply in_app_or in U as [U | U].
  - destruct (tagged _); [destruct U |]. destruct U as [<- | []]. apply Te; [split; assumption | exact K2].
  - destruct (td_func_params x) as [q |]; [| destruct U]. cbn [option_map cap_forms all_opt] in *. rewrite map_map in U.
    apply in_map_iff in U as (t & <- & I). rewrite all_in in O3, K1. apply Te; auto.
Qed.
Lemma alias_supplied : forall x y, e = MStructAlias x -> In y (c_elem S Gm e) -> forall u, In u (elem_uses y) -> supplied a y u.
Proof.
  intros x y Q I. pose proof own_ok as K. pose proof Outer as Out. pose proof own_here as Here. rewrite Q in K, Out, Here, I. destruct I as [<- | []]. intros u U.
  cbn [elem_uses ctd_type ctd_form ctdf_params] in U. unfold tagged in U. cbn [ctn_name] in U.
  assert (H : starts_with (L "struct " ++ sa_structname x) (L "struct ") = true) by (apply starts_with_spec; eauto). rewrite H in U. destruct U.
Qed.
Lemma struct_supplied : forall x y, e = MStruct x -> In y (c_elem S Gm e) -> forall u, In u (elem_uses y) -> supplied a y u.
Proof.
  intros x y Q I. pose proof own_ok as K. pose proof Outer as Out. pose proof own_here as Here. rewrite Q in K, Out, Here, I. intros u U.
  cbn [outer_elem] in Out. destruct Out as [O1 O2]. cbn [ok_elem] in K.
  destruct I as [<- | [<- | [<- | []]]]; [destruct U | |].
  - cbn [elem_uses csd_fields] in U. set (y := XStruct _). assert (Oy : offered y = st_pub x) by reflexivity.
    rewrite all_in in O1, O2, K. apply in_flat_map in U as (it & It & U). apply in_flat_map in It as (en & Ie & It).
    specialize (O1 _ Ie). specialize (O2 _ Ie). specialize (K _ Ie). rewrite <- Oy in O1, O2.
    assert (Fs : forall f name, each_form (outer_expr S system (offered y) [] a [] false) f -> ok_form S Gm f ->
      forall u, In u (sizes (c_form S Gm name f)) -> supplied a y u).
    { intros f name Of. apply (form_supplied y) with (enums := a) (vars := []) (fns := false); auto; try (cbn; lia); try discriminate. }
    assert (Ts : forall t, outer_type S system (offered y) t -> type_known S t -> supplied a y (UType (ctn_name (c_type S t)))).
    { intros t. apply type_supplied. cbn. lia. }
    destruct en as [t | un]; cbn [c_struct_entry each_field ok_struct_entry] in *.
    + apply in_map_iff in It as (f & <- & If). unfold c_fields in If. apply in_map_iff in If as (g & <- & Ig).
      unfold ok_fields in K. rewrite all_in in K, O2. destruct (K _ Ig) as [K1 K2].
      cbn [member ctf_type ctf_form] in U. destruct U as [<- | U]; [now apply Ts |]. exact (Fs _ _ (O2 _ Ig) K2 _ U).
    + destruct It as [<- | []]. cbn [member] in U. destruct O2 as [O2 O3], K as [K1 K2]. rewrite all_in in O1, O3, K2.
      apply in_app_or in U as [U | U]; [exact (Fs _ _ O2 K1 _ U) |]. apply in_flat_map in U as (q & Iq & U). apply in_map_iff in Iq as (r & <- & Ir).
      cbn [fst snd] in U. destruct (K2 _ Ir) as [K3 K4]. destruct U as [<- | U]; [apply Ts; [now apply O1 | exact K3] |]. exact (Fs _ _ (O3 _ Ir) K4 _ U).
  - cbn [elem_uses ctd_type ctd_form ctdf_params] in U. unfold tagged in U. cbn [ctn_name] in U.
    match type of U with context [starts_with (L "struct " ++ ?t) _] =>
      assert (H : starts_with (L "struct " ++ t) (L "struct ") = true) by (apply starts_with_spec; eauto); rewrite H in U end. destruct U.
Qed.
(** Variables. *)
Lemma var_supplied : forall x y, e = MVar x -> In y (c_elem S Gm e) -> forall u, In u (elem_uses y) -> supplied a y u.
Proof.
  intros x y Q I. pose proof own_ok as K. pose proof Outer as Out. pose proof own_here as Here. rewrite Q in K, Out, Here, I. intros u U.
  cbn [outer_elem] in Out. destruct Out as (O1 & O2 & O3), K as (K1 & K2 & w & V & K3).
  cbn [c_elem] in I. rewrite V in *. cbn [all_opt] in O3. destruct I as [<- | []]. cbn [elem_uses cv_type cv_form cv_value] in U. set (y := XVar _).
  assert (Hv : forall z, In z a -> In z a /\ offered y = false /\ 5 <= group y) by (intros; repeat split; [assumption | cbn; lia]).
  assert (He : forall z : modelem, In z (mod_elements m) -> In z a \/ 3 < group y) by (intros; right; cbn; lia).
  assert (Hf : true = true -> 4 < group y /\ offered y = false) by (intros; split; [cbn; lia | reflexivity]).
  destruct U as [<- | U].
  - apply (type_supplied y); [cbn; lia | exact O1 | exact K1].
  - unfold declarator in U. cbn [fst snd opt_uses] in U. apply in_app_or in U as [U | U].
    + refine (form_supplied y _ _ _ _ He Hv Hf _ _ O2 K2 u U). cbn. lia.
    + apply hide_in in U as [U _]. rewrite app_nil_r in U. refine (value_supplied y _ _ _ _ He Hv Hf _ O3 K3 u U). cbn. lia.
Qed.
(** Prototypes. *)
Section Proto.
Variables (f : funcdecl) (y : celem).
Hypothesis Is : e = MFunc f.
Hypothesis Group : group y = 4.
Hypothesis Pub : offered y = fd_pub f.
Notation names := (param_names (fd_params f)).
Notation G := (param_decls (fd_params f)).
Notation outer := (outer_expr S system (fd_pub f) names (mod_elements m) [] false).
Definition ours (N : list str) (u : cuse) : Prop := (exists x, u = UName x /\ In x N) \/ supplied a y u.
Lemma proto_sizes : forall N l name g, (forall x, In x names -> In x N \/ In x l) ->
  each_form outer g -> (forall x, In x l -> without x g) -> ok_form S (G ++ Gm) g ->
  forall u, In u (sizes (c_form S (G ++ Gm) name g)) -> ours N u.
Proof.
  intros N l name g C O W K. apply form_uses; [| exact K]. apply (form_mp3 outer (avoids l)); [| exact O | now apply avoids_form].
  intros x H A. pose proof (params_private (fd_params f)) as Pv.
  assert (Gn : forall x, In x (map d_name G) <-> In x names) by (intros z; apply param_decl_names).
  rewrite <- Pub in H. refine (outer_meets a y names (mod_elements m) [] false _ _ _ _ G (ours N) x Pv _ _ _ H).
  - intros z _. right. lia.
  - intros z [].
  - discriminate.
  - lia.
  - intros z. apply Gn.
  - intros u U. now right.
  - intros n -> E I. left. exists (ns_name n). split.
    + f_equal. rewrite (cname_local S _ _ E), ClosedFacts.look_app. apply Gn in I. destruct (look_in _ _ I) as (d' & D). rewrite D, (private_look _ _ _ Pv D). reflexivity.
    + destruct (C _ I) as [C' | C']; [exact C' |]. exfalso. apply A in C'. cbn [without_expr] in C'. auto.
Qed.
Lemma proto_params : forall ts N, all (ok_fields S (G ++ Gm)) ts -> all (fun t => all (each_form outer) (taf_forms t)) ts ->
  all (fun t => outer_type S system (fd_pub f) (taf_type t)) ts -> tidy_params (flat_map taf_forms ts) ->
  (forall x, In x names -> In x N \/ In x (map f_name (flat_map taf_forms ts))) ->
  forall u, In u (fold_right parameter [] (flat_map (c_fields S (G ++ Gm)) ts)) -> ours N u.
Proof.
  induction ts as [| t ts IH]; intros N K E T D C u U; [destruct U |].
  cbn [flat_map] in *. rewrite fold_right_app in U. destruct K as [K K'], E as [E E'], T as [T T'].
  unfold c_fields at 2 in U. unfold ok_fields in K. revert N u K E D C U.
  induction (taf_forms t) as [| g gs IHg]; intros N u K E D C U; [now apply (IH N) |].
  cbn [map fold_right app] in U, D, C. destruct K as [[K1 K2] K], E as [E1 E], D as [D1 D].
  unfold parameter in U at 1. cbn [ctf_type ctf_form] in U. unfold declarator in U. cbn [fst snd opt_uses app] in U.
  destruct U as [<- | U]; [right; apply (type_supplied y); [lia | now rewrite Pub | exact K1] |]. apply in_app_or in U as [U | U].
  - exact (proto_sizes N _ _ _ C E1 D1 K2 u U).
  - apply hide_in in U as [U X]. cbn [local_form c_form cf_name] in X.
    assert (H : ours (f_name g :: N) u).
    { apply IHg; auto. intros x Hx. destruct (C x Hx) as [? | [<- | ?]]; [left; now right | left; now left | now right]. }
    destruct H as [(x & -> & [<- | H]) | H]; [congruence | left; eauto | now right].
Qed.
End Proto.
Lemma proto_supplied : forall f y, e = MFunc f -> tidy_head S system f -> In y (c_elem S Gm e) -> group y < 6 ->
  forall u, In u (elem_uses y) -> supplied a y u.
Proof.
  intros f y Q (_ & _ & Ht3 & Ht4 & _) I Gr. pose proof own_ok as K. pose proof Outer as Out. rewrite Q in K, Out, I.
  cbn [outer_elem] in Out. cbn [ok_elem] in K. destruct Out as (O1 & O2 & O3 & O4), K as (K1 & K2 & K3 & _).
  cbn [c_elem] in I. destruct I as [<- | I]; [cbn in Gr; lia |]. destruct (str_eqb _ _); [destruct I |]. destruct I as [<- | []].
  cbn [elem_uses cfw_type cfw_form cfw_params c_params cfp_list]. set (y := XForwardFunc _).
  assert (Pub : offered y = fd_pub f) by (unfold y; cbn; now rewrite negb_involutive).
  assert (Z : forall u, ours y [] u -> supplied a y u) by (intros u [(x & _ & []) | U]; exact U).
  intros u [<- | U]; [apply (type_supplied y); [cbn; lia | now rewrite Pub | exact K1] |]. apply Z. apply in_app_or in U as [U | U].
  - refine (proto_sizes f y eq_refl Pub [] (param_names (fd_params f)) _ _ _ O3 Ht4 K2 u U). auto.
  - refine (proto_params f y eq_refl Pub (fp_list (fd_params f)) [] K3 O4 O2 Ht3 _ u U). intros x X. right. now rewrite param_names_forms.
Qed.
End Elem.
Theorem elem_supplied : forall a e b y, mod_elements m = a ++ e :: b -> outer_elem S system a e ->
  (forall f, e = MFunc f -> tidy_head S system f) -> In y (c_elem S Gm e) -> group y < 6 ->
  forall u, In u (elem_uses y) -> supplied a y u.
Proof.
  intros a e b y At O T I Gr. destruct e as [mc | x | x | x | x | x | x].
  - cbn [c_elem] in I. destruct (_ || _); [destruct I |]. destruct I as [<- | []]. intros u [].
  - eapply enum_supplied; eauto.
  - eapply alias_supplied; eauto.
  - eapply typedef_supplied; eauto.
  - eapply struct_supplied; eauto.
  - eapply var_supplied; eauto.
  - eapply proto_supplied; eauto.
Qed.
End Own.
