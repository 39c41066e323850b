(** The translator does not give up on careful modules. *)
From Verif Require Import Base BaseFacts Buf Nodes NodeQueries NodeInd Types Cspec Resolve Cursor
  Preparser Parser CAst FormatChe FormatC Translator SpecScope ScopeFacts RunFacts TrFacts TrScope SpecTypes
  TypeFacts SpecGrammar NamespaceFacts SpecDecl SpecTarget TargetFacts SpecTyping TypingFacts ElabFacts SpecAccept AcceptFacts SpecTame.
Open Scope tr_scope.

(** ** References and declarations in sequences of items *)
Lemma refers_app : forall r a b, refers r (a ++ b) <-> refers r a \/ refers r b.
Proof.
  intros r a b. induction a as [| i a IH]; cbn [app].
  - split; [auto | intros [H | H]; [inversion H | auto]].
  - split.
    + intros H. inversion H; subst; [left; constructor | | left; now constructor].
      match goal with X : refers r (a ++ b) |- _ => apply IH in X; destruct X; [left; now constructor | auto] end.
    + intros [H | H]; [| constructor; apply IH; auto].
      inversion H; subst; [constructor | constructor; apply IH; auto | now constructor].
Qed.
Fixpoint new_names (l : list item) : list str :=
  match l with
  | [] => []
  | Declare x _ :: r => x :: new_names r
  | _ :: r => new_names r
  end.
Lemma new_names_app : forall a b, new_names (a ++ b) = new_names a ++ new_names b.
Proof. induction a as [| [r | x p | l] a IH]; intros b; cbn [new_names app]; auto. now rewrite IH. Qed.
Lemma new_names_refs : forall l, new_names (refs l) = [].
Proof. induction l; cbn; auto. Qed.
Lemma once_app : forall a b here, declared_once here (a ++ b) ->
  declared_once here a /\ declared_once (here ++ new_names a) b.
Proof.
  induction a as [| [r | x p | l] a IH]; intros b here H; cbn [app new_names] in *.
  - split; [constructor |]. now rewrite app_nil_r.
  - inversion H as [| ? ? ? H1 | |]; subst. destruct (IH _ _ H1). split; [now constructor | auto].
  - inversion H as [| | ? ? ? ? N H1 |]; subst. destruct (IH _ _ H1) as [A B]. split; [now constructor |].
    eapply declared_once_ext; [exact B |]. intros y. rewrite !in_app_iff. cbn [In]. tauto.
  - inversion H as [| | | ? ? ? H0 H1]; subst. destruct (IH _ _ H1). split; [now constructor | auto].
Qed.

(** The names declared in the scopes of a state. *)
Definition outline (s : trst) : list (list str) := map (map b_name) (s_scopes s).
Lemma outline_skel : forall s s', skel s' = skel s -> outline s' = outline s.
Proof.
  intros s s' H. assert (X : forall t, outline t = map (map d_name) (skel t)).
  { intros t. unfold outline, skel. rewrite map_map. apply map_ext. intros sc. rewrite map_map. reflexivity. }
  rewrite !X. congruence.
Qed.

Section Tame.
Variables (S : site) (env : trenv).
Hypothesis D : describes S env.
Hypothesis ENDS : forall t, resolves (elements S) t.

(** A reference that does not make the translator give up. *)
Definition fit (r : ref) : Prop :=
  careful_ref S r /\
  (ns_ns (ref_name r) <> [] -> ns_ns (ref_name r) <> L "OS" -> import S (ns_ns (ref_name r)) <> None).

(** [m] deals with these items and does not give up if they do not clash. *)
Definition quiet {A} (items : list item) (m : TR A) : Prop :=
  forall s here rest, outline s = here :: rest -> declared_once here items -> (forall r, refers r items -> fit r) ->
  (forall w, m s <> TrPanic w)
  /\ (forall a s', m s = TrOk (a, s') -> outline s' = (here ++ new_names items) :: rest).

Lemma quiet_ret : forall A (a : A), quiet [] (tret a).
Proof.
  intros A a s here rest O _ _. split; [discriminate |]. intros b s' H. unfold tret in H. injection H as _ <-.
  cbn [new_names]. now rewrite app_nil_r.
Qed.
Lemma quiet_err : forall A items e, quiet items (terr e : TR A).
Proof. intros A items e s here rest O _ _. split; discriminate. Qed.
Lemma quiet_ext : forall A items (m m' : TR A), quiet items m -> (forall s, m' s = m s) -> quiet items m'.
Proof. intros A items m m' Q E s here rest. rewrite E. apply Q. Qed.
Lemma quiet_bind : forall A B i1 i2 (m : TR A) (f : A -> TR B), quiet i1 m -> (forall a, quiet i2 (f a)) ->
  quiet (i1 ++ i2) (tbind m f).
Proof.
  intros A B i1 i2 m f M F s here rest O ON R. apply once_app in ON. destruct ON as [O1 O2].
  destruct (M s here rest O O1) as [M1 M2]; [intros r H; apply R, refers_app; auto |].
  unfold tbind. destruct (m s) as [[a s1] | e | w] eqn:E.
  - specialize (M2 _ _ eq_refl). destruct (F a s1 _ _ M2 O2) as [F1 F2]; [intros r H; apply R, refers_app; auto |].
    split; [exact F1 |]. intros b s' H. rewrite (F2 _ _ H), new_names_app, app_assoc. reflexivity.
  - split; discriminate.
  - exfalso. now apply (M1 w).
Qed.
Lemma quiet_then : forall A B items (m : TR A) (f : A -> B), quiet items m -> quiet items (x <- m ;; tret (f x)).
Proof.
  intros A B items m f M. rewrite <- (app_nil_r items). apply quiet_bind; [exact M | intros; apply quiet_ret].
Qed.
Lemma quiet_tmap : forall A B (g : A -> list item) (f : A -> TR B) l,
  (forall a, In a l -> quiet (g a) (f a)) -> quiet (flat_map g l) (tmap f l).
Proof.
  induction l as [| a l IH]; intros H; cbn [tmap flat_map]; [apply quiet_ret |].
  apply quiet_bind; [apply H; now left |]. intros x. apply quiet_then, IH. intros y I. apply H. now right.
Qed.
Lemma quiet_topt : forall A B (g : A -> list item) (f : A -> TR B) o,
  (forall a, o = Some a -> quiet (g a) (f a)) -> quiet (option_list g o) (topt f o).
Proof. intros A B g f [a |] H; cbn [topt option_list]; [apply quiet_then; auto | apply quiet_ret]. Qed.
(** Something that leaves the scopes alone and cannot give up. *)
Lemma quiet_pure : forall A (m : TR A), (forall s, (exists a s', m s = TrOk (a, s') /\ outline s' = outline s) \/ exists e, m s = TrErr e) ->
  quiet [] m.
Proof.
  intros A m H s here rest O _ _. cbn [new_names]. rewrite app_nil_r. destruct (H s) as [(a & s' & E & X) | (e & E)]; rewrite E.
  - split; [discriminate |]. intros b s'' K. injection K as _ <-. congruence.
  - split; discriminate.
Qed.

Lemma quiet_add : forall x p b t, quiet [Declare x b] (add_binding x p b t).
Proof.
  intros x p b t s here rest O ON _. inversion ON; subst. unfold add_binding. unfold outline in O.
  destruct (s_scopes s) as [| sc r]; [discriminate |]. cbn [map] in O. injection O as <- <-.
  destruct (existsb _ sc) eqn:E.
  - exfalso. apply existsb_exists in E. destruct E as (y & I & E). apply str_eqb_eq in E.
    match goal with X : ~ In _ _ |- _ => apply X end. rewrite <- E. now apply in_map.
  - split; [discriminate |]. intros a s' H. injection H as _ <-. unfold outline. cbn [s_scopes map new_names].
    now rewrite map_app.
Qed.
Lemma quiet_lookup : forall x, quiet [] (lookup x).
Proof. intros x. apply quiet_pure. intros s. left. unfold lookup. eauto. Qed.
Lemma quiet_use_ns : forall x, quiet [] (use_ns x).
Proof. intros x. apply quiet_pure. intros s. left. unfold use_ns. eauto. Qed.
Lemma quiet_custom : forall x, quiet [] (use_custom x).
Proof. intros x. apply quiet_pure. intros s. left. unfold use_custom. eauto. Qed.

Lemma quiet_scope_from : forall A items (m : TR A), quiet items m ->
  declared_once [] items -> (forall r, refers r items -> fit r) ->
  forall s, (forall w, (begin_scope ;;; a <- m ;; end_scope env ;;; tret a) s <> TrPanic w)
    /\ (forall a s', (begin_scope ;;; a <- m ;; end_scope env ;;; tret a) s = TrOk (a, s') -> outline s' = outline s).
Proof.
  intros A items m M ON R s.
  set (s1 := mkSt ([] :: s_scopes s) (s_ns s) (s_customs s)).
  change ((begin_scope ;;; a <- m ;; end_scope env ;;; tret a) s) with ((a <- m ;; end_scope env ;;; tret a) s1).
  destruct (M s1 [] (outline s) eq_refl ON R) as [M1 M2].
  unfold tbind. destruct (m s1) as [[a s2] | e | w].
  - specialize (M2 _ _ eq_refl). unfold end_scope. unfold outline in M2 at 1.
    destruct (s_scopes s2) as [| sc r]; [discriminate |]. cbn [map] in M2. injection M2 as _ X.
    destruct (find _ sc); [split; [discriminate | intros; discriminate] |]. unfold tret. split; [discriminate |].
    intros b s' H. injection H as _ <-. exact X.
  - split; [discriminate | intros; discriminate].
  - exfalso. now apply (M1 w).
Qed.
Lemma quiet_scope : forall A B items (m : TR A) (f : A -> TR B), quiet items m -> (forall a, quiet [] (f a)) ->
  quiet [Scope items] (begin_scope ;;; a <- m ;; end_scope env ;;; f a).
Proof.
  intros A B items m f M F.
  apply quiet_ext with (m := tbind (begin_scope ;;; a <- m ;; end_scope env ;;; tret a) f).
  - change [Scope items] with ([Scope items] ++ []). apply quiet_bind; [| exact F].
    intros s here rest O ON R. inversion ON; subst.
    destruct (quiet_scope_from _ items m M) with (s := s) as [X Y]; auto.
    { intros r H. apply R. now constructor. }
    split; [exact X |]. intros a s' H. rewrite (Y _ _ H). cbn [new_names]. now rewrite app_nil_r.
  - intros s. rewrite <- !tbind_assoc. apply tbind_ext; [auto |]. intros _ s1.
    rewrite <- !tbind_assoc. apply tbind_ext; [auto |]. intros a s2.
    rewrite <- !tbind_assoc. apply tbind_ext; [auto |]. intros _ s3. reflexivity.
Qed.

(** ** Types and names *)
Lemma quiet_getns : forall q B (f : modinfo * module_ -> TR B) items,
  import S q <> None -> (forall h m, import S q = Some (h, m) -> quiet items (f (h, m))) ->
  quiet items (tbind (getns env q) f).
Proof.
  intros q B f items N F. unfold getns. rewrite (ds_ns _ _ D).
  destruct (import S q) as [[h m] |]; [| congruence].
  intros s. apply (F h m eq_refl s).
Qed.
Lemma quiet_if : forall A items (b : bool) (m n : TR A), (b = true -> quiet items m) -> (b = false -> quiet items n) ->
  quiet items (if b then m else n).
Proof. intros A items [] m n; auto. Qed.
(** What the references allow may be used to deal with them. *)
Lemma quiet_assume : forall A items (P : Prop) (m : TR A), ((forall r, refers r items -> fit r) -> P) -> (P -> quiet items m) -> quiet items m.
Proof. intros A items P m H Q s here rest O ON R. apply (Q (H R)); auto. Qed.
Lemma quiet_more : forall A items items' (m : TR A), quiet [] m -> new_names items = [] -> items' = items -> quiet items' m.
Proof.
  intros A items items' m M N -> s here rest O ON R. rewrite N. apply (M s here rest O); [constructor |]. intros r H. inversion H.
Qed.
Lemma quiet_refs : forall A l (m : TR A), quiet [] m -> quiet (refs l) m.
Proof. intros A l m M. eapply quiet_more; eauto. apply new_names_refs. Qed.

Lemma quiet_typename : forall x, quiet (in_type x) (tr_typename env x).
Proof.
  intros x. apply quiet_assume with (P := fit (type_ref x)); [intros H; apply H; constructor |]. intros [_ I].
  change (in_type x) with (refs [type_ref x]). apply quiet_refs. unfold tr_typename.
  apply quiet_if; [intros _; apply quiet_ret |]. intros E1. apply quiet_if.
  - intros _. destruct (find_type _ _); [apply quiet_ret | apply quiet_err].
  - intros E2. cbn [type_ref ref_name] in I. destruct (str_eqb_spec (ns_ns (tn_name x)) []); [discriminate |].
    destruct (str_eqb_spec (ns_ns (tn_name x)) (L "OS")); [discriminate |].
    apply quiet_getns; [auto |]. intros h m _. apply quiet_if; [intros _; apply quiet_err |]. intros _.
    change (@nil item) with ([] ++ @nil item). apply quiet_bind; [apply quiet_use_ns | intros; apply quiet_ret].
Qed.
Lemma quiet_btf : forall x, quiet (in_type (btf_type x)) (tr_bare_typeform env x).
Proof. intros x. apply quiet_then, quiet_typename. Qed.

Lemma quiet_mark : forall x, quiet [] (mark_binding_use x).
Proof.
  intros x. apply quiet_pure. intros s. left. unfold mark_binding_use.
  destruct (mark_scopes x (s_scopes s)) eqn:E; [| eauto]. eexists _, _. split; [reflexivity |].
  apply outline_skel. eapply mark_use_skel with (x := x). unfold mark_binding_use. now rewrite E.
Qed.
Ltac nils := change (@nil item) with (@nil item ++ @nil item).
Lemma quiet_nsid : forall n, fit (RName n) -> quiet [] (tr_nsid env n).
Proof.
  intros n [_ I]. unfold tr_nsid. apply quiet_if; [intros _; apply quiet_ret |]. intros E1.
  destruct (str_eqb_spec (ns_ns n) (L "OS")) as [| NO]; [discriminate |]. apply quiet_if.
  - intros E2. destruct (str_eqb_spec (ns_ns n) []) as [| NE]; [discriminate |].
    nils. apply quiet_bind; [apply quiet_use_ns |]. intros _. apply quiet_getns; [apply I; auto |].
    intros h m _. apply quiet_if; intros _; [apply quiet_err | apply quiet_ret].
  - intros _. nils. apply quiet_bind; [apply quiet_lookup |]. intros b. cbv zeta.
    nils. apply quiet_bind; [apply quiet_mark |]. intros ok. apply quiet_if; intros _; [apply quiet_err | apply quiet_ret].
Qed.
Lemma nelem_known : find_sym (L "nelem") <> None.
Proof. now vm_compute. Qed.
(** An unqualified name that passes is found. *)
Lemma nsid_found : forall n v s s', ns_ns n = [] -> tr_nsid env n s = TrOk (v, s') ->
  find_binding (ns_name n) s' <> None \/ find_sym (ns_name n) <> None.
Proof.
  intros n v s s' E H. unfold tr_nsid in H. rewrite E, str_eqb_refl in H.
  replace (str_eqb [] (L "OS")) with false in H by reflexivity. cbn [negb] in H.
  apply tbind_ok in H. destruct H as (b & s1 & E1 & H). unfold lookup in E1. injection E1 as <- <-.
  apply tbind_ok in H. destruct H as (ok & s2 & E2 & H). cbv zeta in H.
  destruct ok; cbn [negb] in H; [| discriminate]. unfold tret in H. injection H as _ <-.
  assert (K := mark_use_skel _ _ _ _ E2). unfold mark_binding_use in E2.
  destruct (mark_scopes (ns_name n) (s_scopes s)) eqn:M.
  - left. intros F. unfold find_binding in F.
    assert (X : find_binding (ns_name n) s = None).
    { assert (Y := look_ctx (ns_name n) s). assert (Z := look_ctx (ns_name n) s2). unfold ctx in *. rewrite K in Z.
      rewrite Y in Z. unfold find_binding in Z at 2. rewrite F in Z. destruct (find_binding _ s); [discriminate | reflexivity]. }
    apply mark_scopes_none in X. congruence.
  - right. injection E2 as E2 _. destruct (find_sym (ns_name n)) eqn:F; [discriminate |].
    apply str_eqb_eq in E2. exfalso. rewrite E2 in F. now apply nelem_known.
Qed.

(** ** Names in expressions *)
Lemma quiet_name : forall n, quiet (refs [RName n]) (tr_nsid_in_expr env n).
Proof.
  intros n. apply quiet_assume with (P := fit (RName n)); [intros H; apply H; constructor |]. intros FT.
  apply quiet_refs. destruct (str_eqb_spec (ns_ns n) (L "OS")) as [EO | NO].
  { unfold tr_nsid_in_expr. rewrite EO, str_eqb_refl. apply quiet_then, quiet_nsid, FT. }
  assert (XO : str_eqb (ns_ns n) (L "OS") = false) by (destruct (str_eqb_spec (ns_ns n) (L "OS")); congruence).
  destruct (str_eqb_spec (ns_ns n) []) as [E | NE].
  - intros s here rest O ON R. destruct (quiet_nsid n FT s here rest O ON R) as [Q1 Q2].
    cbn [new_names] in *. unfold tr_nsid_in_expr, tbind. rewrite XO, E, str_eqb_refl.
    destruct (tr_nsid env n s) as [[v s1] | e | w] eqn:T; [| split; [discriminate | intros; discriminate] | exfalso; now apply (Q1 w)].
    unfold lookup. destruct (nsid_found n v s s1 E T) as [F | F].
    + destruct (find_binding (ns_name n) s1); [| congruence]. unfold tret. split; [discriminate |].
      intros a s' H. injection H as _ <-. eauto.
    + destruct (find_binding (ns_name n) s1); [| destruct (find_sym (ns_name n)); [| congruence]];
        unfold tret; (split; [discriminate |]); intros a s' H; injection H as _ <-; eauto.
  - assert (XN : str_eqb (ns_ns n) [] = false) by (destruct (str_eqb_spec (ns_ns n) []); congruence).
    intros s here rest O ON R. destruct (quiet_nsid n FT s here rest O ON R) as [Q1 Q2].
    cbn [new_names] in *. unfold tr_nsid_in_expr, tbind. rewrite XO, XN.
    destruct (tr_nsid env n s) as [[v s1] | e | w] eqn:T; [| split; [discriminate | intros; discriminate] | exfalso; now apply (Q1 w)].
    destruct FT as [C I]. cbn [careful_ref ref_name] in C, I. specialize (I NE NO).
    destruct (import S (ns_ns n)) as [[h m] |] eqn:IM; [| congruence]. specialize (C h m NE NO eq_refl).
    assert (X : exports_has (mod_exports m) (ns_name n) = true).
    { unfold tr_nsid in T. rewrite XO, XN in T. cbn [negb] in T. apply tbind_ok in T. destruct T as ([] & s2 & E2 & T).
      unfold getns in T. rewrite (ds_ns _ _ D), IM in T. apply tbind_ok in T. destruct T as ([h' m'] & s3 & E3 & T).
      unfold tret in E3. injection E3 as <- <- <-. destruct (exports_has _ _); [reflexivity | discriminate]. }
    unfold getns. rewrite (ds_ns _ _ D), IM. unfold tret. cbv beta iota.
    destruct (existsb _ (ex_consts (mod_exports m))) eqn:XC.
    + split; [discriminate |]. intros a s' H. injection H as _ <-. eauto.
    + destruct (find _ (ex_fns (mod_exports m))) eqn:XF.
      * split; [discriminate |]. intros a s' H. injection H as _ <-. eauto.
      * exfalso. unfold exports_has in X. rewrite XC in X. cbn [orb] in X.
        assert (NF : existsb (fun x => str_eqb (f_name (fd_form x)) (ns_name n)) (ex_fns (mod_exports m)) = false).
        { apply Bool.not_true_is_false. intros Y. apply existsb_exists in Y. destruct Y as (f & FI & FE).
          apply (find_none _ _ XF) in FI. congruence. }
        rewrite NF in X. cbn [orb] in X. apply existsb_exists in X. destruct X as (t & TI & TE). apply str_eqb_eq in TE. subst t.
        destruct (C TI) as [Y | Y]; apply in_map_iff in Y; destruct Y as (f & FE & FI).
        -- apply Bool.not_true_iff_false in XC. apply XC, existsb_exists. exists f. split; auto. now apply str_eqb_eq.
        -- apply Bool.not_true_iff_false in NF. apply NF, existsb_exists. exists f. split; auto. now apply str_eqb_eq.
Qed.

(** ** Expressions *)
(** The operators and designators that the translator knows. *)
Definition binary_known : list string :=
  ["||"; "&&"; "=="; "<"; ">"; "!="; ">="; "<="; "-"; "+"; "*"; "/"; "%"; "<<"; ">>"; "&"; "|"; "^";
   "="; "+="; "-="; "/="; "*="; "|="; "%="; "&="; "^="]%string.
Definition tame_expr (e : expr) : Prop :=
  match e with
  | EBinary _ op _ _ => In op binary_known
  | EPrefix _ op _ => In op ["!"; "--"; "++"; "*"; "~"; "&"; "-"]%string
  | EPostfix op _ => In op ["++"; "--"]%string
  | EComp es => all (fun x => all_opt designator (snd (fst x))) es
  | _ => True
  end.
Definition tame_stmt (s : stmt) : Prop :=
  match s with
  | SSwitch true _ cs _ => cs <> [] /\ all (fun c => fst c <> []) cs
  | _ => True
  end.

Lemma quiet_lift : forall p x r, r <> TPanic -> quiet [] (lift env p x r).
Proof. intros p x [t | m |] N; unfold lift; [apply quiet_ret | apply quiet_err | congruence]. Qed.
Lemma binop_known : forall op a b, In op binary_known -> exists r, typeof_binop env op a b = Some r /\ r <> TPanic.
Proof.
  intros op a b I. unfold typeof_binop.
  assert (B := boolcomp_total a b). assert (C := cmp_total (root_type env a) (root_type env b)).
  assert (P := plusminus_total op (root_type env a) (root_type env b)). assert (A := arith_total (root_type env a) (root_type env b)).
  revert B C P A. generalize (typeof_boolcomp a b) (typeof_cmp (root_type env a) (root_type env b)) (typeof_arith (root_type env a) (root_type env b)).
  intros x y z B C P A. cbn [binary_known In] in I.
  repeat (destruct I as [<- | I]; [cbn [existsb String.eqb Ascii.eqb Bool.eqb orb]; eexists; split; [reflexivity | first [assumption | discriminate]] |]).
  contradiction.
Qed.
Lemma prefix_known : forall op t, In op ["!"; "--"; "++"; "*"; "~"; "&"; "-"]%string -> exists r, typeof_prefix op t = Some r /\ r <> TPanic.
Proof.
  intros op t I. assert (X := deref_total t). cbn [In] in I.
  repeat (destruct I as [<- | I]; [unfold typeof_prefix; cbn [existsb String.eqb Ascii.eqb Bool.eqb orb]; eexists; split; [reflexivity | first [assumption | discriminate]] |]).
  contradiction.
Qed.
Lemma all_steps : forall t, exists k, steps S k t.
Proof.
  intros t. assert (X := ENDS t). induction X as [t _ IH].
  destruct (alias_of S t) as [d |] eqn:E; [| exists 0; now constructor].
  cut (stands_for (elements S) t d).
  { intros X. destruct (IH d X) as (k & K). exists (Datatypes.S k). econstructor; eauto. }
  unfold alias_of in E. destruct (is_todo t); [discriminate |]. unfold stands_for.
  destruct (ty_ops t) as [| [] []]; try discriminate; (destruct (str_eqb_spec (ns_ns (ty_base t)) []) as [N |]; [| discriminate]);
    (destruct (typedef_named (elements S) (ns_name (ty_base t))) as [[p d'] |]; [| discriminate]);
    cbn in E; injection E as ->; eauto 6.
Qed.
Lemma call_aux_total : forall k t, steps S k t -> forall fuel n, k < fuel -> typeof_call_aux env fuel t n <> TPanic.
Proof.
  induction 1 as [t H | k t d H K IH]; intros fuel n LT; (destruct fuel as [| fuel]; [lia |]); cbn [typeof_call_aux];
    unfold alias_of in H; (destruct (is_todo t); [discriminate |]);
    (destruct (ty_ops t) as [| [| | args] ops]; cbn [app];
      [ | destruct ops | try discriminate | ]); try discriminate.
  all: try (destruct (match rev args with x :: _ => is_ellipsis x | [] => false end);
    [destruct (Nat.ltb _ _) | destruct (negb _)]; discriminate).
  all: destruct (str_eqb (ns_ns (ty_base t)) []); try discriminate.
  all: rewrite <- (ds_typedef _ _ D) in H; destruct (assoc _ _); cbn in H; try discriminate.
  all: injection H as ->; apply IH; lia.
Qed.
Lemma call_total : forall t n, typeof_call env t n <> TPanic.
Proof.
  intros t n. destruct (all_steps t) as (k & K). assert (B := steps_bound S env D _ _ K).
  apply (call_aux_total k); auto. lia.
Qed.
Lemma quiet_call : forall p f args, quiet [] (call_result env p f args).
Proof. intros p f args. apply quiet_then, quiet_lift, call_total. Qed.
Lemma quiet_key : forall k, all_opt designator k -> quiet [] (tr_key k).
Proof.
  intros [[] |] H; cbn in H; try contradiction; cbn [tr_key]; try apply quiet_ret.
  rewrite H, str_eqb_refl. apply quiet_ret.
Qed.

Ltac split_at := rewrite <- (app_nil_r (refs _)).
Lemma quiet_expr : forall e, each_expr tame_expr e -> quiet (in_expr e) (tr_expr env e).
Proof.
  unfold in_expr. induction e as [a i IHa IHi | p op a b IHa IHb | p op t f IH | t x IH | es IHe _ | p f args IHf IHa | l | n | op x IH
    | p op x IH | t | x IH] using expr_ind'; intros [T H]; cbn [expr_refs tame_expr] in *.
  - destruct H as [H1 H2]. cbn [tr_expr]. unfold refs. rewrite map_app. change (map Ref) with refs.
    apply quiet_bind; [auto |]. intros [ta va]. split_at. apply quiet_bind; [auto |]. intros [ti vi].
    apply quiet_then, quiet_lift, index_total.
  - destruct H as [H1 H2]. cbn [tr_expr]. unfold refs. rewrite map_app. change (map Ref) with refs.
    apply quiet_bind; [auto |]. intros [ta va]. split_at. apply quiet_bind; [auto |]. intros [tb vb].
    destruct (binop_known op ta tb T) as (r & -> & NP). apply quiet_then, quiet_lift, NP.
  - cbn [tr_expr]. split_at. apply quiet_bind; [auto |]. intros [t0 vt]. apply quiet_ret.
  - cbn [tr_expr]. unfold refs. rewrite map_app. change (map Ref) with refs.
    apply quiet_bind; [auto |]. intros [t0 v]. apply quiet_then, quiet_btf.
  - eapply quiet_ext; [| intros s; apply tr_expr_comp]. apply quiet_then. rewrite refs_flat. apply quiet_tmap.
    intros [[ix k] v] I. unfold tr_entry. cbn [fst snd]. rewrite Forall_forall in IHe. specialize (IHe _ I). cbn [snd] in IHe.
    change (refs (expr_refs v)) with ([] ++ refs (expr_refs v)). rewrite all_in in T, H. apply quiet_bind; [apply quiet_key, (T _ I) |].
    intros c. split_at. apply quiet_bind; [apply IHe, (H _ I) |]. intros [? v']. apply quiet_ret.
  - destruct H as [H1 H2]. rewrite all_in in H2. rewrite Forall_forall in IHa.
    assert (QA : quiet (refs (flat_map expr_refs args)) (tmap (tr_expr env) args)).
    { rewrite refs_flat. apply quiet_tmap. intros a I. apply IHa; auto. }
    eapply quiet_ext; [| intros s; apply tr_expr_call]. unfold refs. rewrite map_app. change (map Ref) with refs.
    apply quiet_if; intros E.
    + rewrite (calloc_name_is p f E). change (refs (flat_map expr_refs args) ++ ?l) with ([] ++ refs (flat_map expr_refs args) ++ l).
      apply quiet_bind; [apply quiet_custom |]. intros []. apply quiet_bind; [exact QA |]. intros aa.
      split_at. apply quiet_bind; [apply quiet_name |]. intros [t v]. apply quiet_call.
    + rewrite (calloc_name_not p f E). apply quiet_bind; [exact QA |]. intros aa.
      split_at. apply quiet_bind; [auto |]. intros ff. apply quiet_call.
  - cbn [tr_expr]. apply quiet_ret.
  - cbn [tr_expr]. split_at. apply quiet_bind; [apply quiet_name |]. intros [t v]. apply quiet_ret.
  - cbn [tr_expr]. split_at. apply quiet_bind; [auto |]. intros [t v].
    apply existsb_in in T. rewrite T. apply quiet_ret.
  - cbn [tr_expr]. split_at. apply quiet_bind; [auto |]. intros [t v].
    destruct (prefix_known op t T) as (r & -> & NP). apply quiet_then, quiet_lift, NP.
  - cbn [tr_expr]. apply quiet_then, quiet_btf.
  - cbn [tr_expr]. split_at. apply quiet_bind; [auto |]. intros [t v]. apply quiet_ret.
Qed.

(** ** Statements *)
Notation mild := (each_expr tame_expr).
Notation calm := (each_stmt tame_expr tame_stmt).
Lemma quiet_val : forall e, mild e -> quiet (in_expr e) (tr_val env e).
Proof.
  intros e H. unfold tr_val. rewrite <- (app_nil_r (in_expr e)). apply quiet_bind; [now apply quiet_expr |].
  intros [t v]. apply quiet_ret.
Qed.
Lemma quiet_cond : forall e, mild e -> quiet (in_expr e) (tr_cond env e).
Proof.
  intros e H. unfold tr_cond. rewrite <- (app_nil_r (in_expr e)). apply quiet_bind; [now apply quiet_expr |].
  intros [t v]. destruct (is_booly t); [apply quiet_ret | apply quiet_err].
Qed.
Lemma quiet_opt : forall o, all_opt mild o -> quiet (in_opt o) (topt (tr_val env) o).
Proof.
  intros o H. replace (in_opt o) with (option_list in_expr o) by (destruct o; reflexivity).
  apply quiet_topt. intros e ->. now apply quiet_val.
Qed.
Lemma quiet_cond_opt : forall o, all_opt mild o -> quiet (in_opt o) (topt (tr_cond env) o).
Proof.
  intros o H. replace (in_opt o) with (option_list in_expr o) by (destruct o; reflexivity).
  apply quiet_topt. intros e ->. now apply quiet_cond.
Qed.
Lemma quiet_form : forall f b, each_form tame_expr f -> quiet (in_form f) (tr_form env f b).
Proof.
  intros f b H. unfold tr_form, in_form. rewrite <- (app_nil_r (refs _)). apply quiet_bind.
  - rewrite refs_flat. apply quiet_tmap. intros o I. apply quiet_opt. unfold each_form in H. rewrite all_in in H. auto.
  - intros ix. nils. apply quiet_bind; [apply quiet_lookup |]. intros; apply quiet_ret.
Qed.
Lemma quiet_vardecl : forall v, each_form tame_expr (v_form v) -> all_opt mild (v_value v) ->
  quiet (in_vardecl v) (tr_vardecl env v).
Proof.
  intros v F E. unfold tr_vardecl, in_vardecl.
  change (Declare (f_name (v_form v)) false :: ?l) with ([Declare (f_name (v_form v)) false] ++ l).
  apply quiet_bind; [apply quiet_add |]. intros []. apply quiet_bind; [apply quiet_typename |]. intros t.
  apply quiet_bind; [now apply quiet_form |]. intros f. now apply quiet_then, quiet_opt.
Qed.
Lemma quiet_forinit : forall i, each_init tame_expr i -> quiet (in_forinit i) (tr_forinit env i).
Proof.
  intros [e | t f e] H; cbn [tr_forinit in_forinit each_init] in *; [now apply quiet_then, quiet_val |].
  change (Declare (f_name f) false :: ?l) with ([Declare (f_name f) false] ++ l).
  apply quiet_bind; [apply quiet_add |]. intros []. apply quiet_bind; [apply quiet_typename |]. intros t'.
  apply quiet_bind; [now apply quiet_form |]. intros f'. now apply quiet_then, quiet_val.
Qed.
Lemma quiet_expr_stmt : forall e, mild e -> quiet (in_stmt (SExpr e)) (tr_expr_stmt env e).
Proof.
  intros e M. assert (V : quiet (in_expr e) (v <- tr_val env e ;; tret (KExpr v))) by now apply quiet_then, quiet_val.
  destruct e as [ | | | | | p f args | | | | | |]; try exact V.
  cbn [tr_expr_stmt in_stmt]. unfold is_panic. destruct (is_ident f (L "panic")); [| exact V].
  unfold mk_panic. apply quiet_then. rewrite refs_flat. apply quiet_tmap. intros a I. apply quiet_val.
  destruct M as (_ & _ & M). rewrite all_in in M. auto.
Qed.
Lemma quiet_case_value : forall v, quiet (refs (case_ref v)) (tr_case_value env v).
Proof.
  intros [n | l]; cbn [tr_case_value case_ref]; [| apply quiet_ret].
  split_at. apply quiet_bind; [apply quiet_name |]. intros [t s]. apply quiet_ret.
Qed.
Lemma quiet_switchstr : forall vs sv, vs <> [] -> quiet (refs (flat_map case_ref vs)) (mk_switchstr_cond env vs sv).
Proof.
  intros [| v vs] sv N; [congruence |]. unfold mk_switchstr_cond.
  cbn [tmap flat_map]. unfold refs. rewrite map_app. change (map Ref) with refs.
  apply quiet_ext with (m := x <- tr_case_value env v ;; r <- tmap (tr_case_value env) vs ;;
    tret (fold_left (fun root x0 => mk_or root (str_test sv x0)) r (str_test sv x))).
  - apply quiet_bind; [apply quiet_case_value |]. intros x. apply quiet_then. rewrite refs_flat.
    apply quiet_tmap. intros; apply quiet_case_value.
  - intros s. rewrite <- tbind_assoc. apply tbind_ext; [auto |]. intros x s1.
    rewrite <- tbind_assoc. apply tbind_ext; [auto |]. reflexivity.
Qed.

Definition quiet_st (st : stmt) : Prop := calm st -> quiet (in_stmt st) (tr_stmt env st).
Lemma quiet_stmts : forall l, Forall quiet_st l -> all calm l -> quiet (flat_map in_stmt l) (tr_stmts env l).
Proof.
  intros l H K. induction H as [| st l Hs Hl IH]; cbn [flat_map tr_stmts]; [apply quiet_ret |].
  cbn [all] in K. destruct K. apply quiet_bind; [now apply Hs |]. intros x. now apply quiet_then, IH.
Qed.
Lemma quiet_body' : forall l, Forall quiet_st l -> all calm l -> quiet (in_body l) (tr_body env l).
Proof.
  intros l H K. unfold tr_body, in_body. apply quiet_scope; [now apply quiet_stmts | intros; apply quiet_ret].
Qed.
Lemma quiet_opt_body : forall o, opt_all quiet_st o -> all_opt (all calm) o ->
  quiet (option_list in_body o) (topt (tr_body env) o).
Proof. intros o H K. apply quiet_topt. intros b ->. now apply quiet_body'. Qed.
Lemma quiet_chain : forall sv cs def, Forall (fun c => Forall quiet_st (snd c)) cs -> opt_all quiet_st def ->
  all (fun c => all calm (snd c)) cs -> all_opt (all calm) def -> all (fun c => fst c <> []) cs ->
  quiet (flat_map in_case cs ++ option_list in_body def) (str_chain env sv cs def).
Proof.
  intros sv cs def Hc Hd Kc Kd N. induction Hc as [| [vs b] cs Hb Hc IH]; cbn [str_chain flat_map app].
  - now apply quiet_opt_body.
  - cbn [all fst snd] in *. destruct Kc, N. unfold in_case at 1. cbn [fst snd]. rewrite <- !app_assoc.
    apply quiet_bind; [now apply quiet_switchstr |]. intros c. apply quiet_bind; [now apply quiet_body' |].
    intros b'. now apply quiet_then, IH.
Qed.
Lemma calm_eq : forall st, calm st = (tame_stmt st /\
  match st with
  | SBreak | SContinue => True
  | SVarDecl v => each_form tame_expr (v_form v) /\ all_opt mild (v_value v)
  | SIf c b e => mild c /\ all calm b /\ all_opt (all calm) e
  | SFor i c a b => all_opt (each_init tame_expr) i /\ all_opt mild c /\ all_opt mild a /\ all calm b
  | SWhile c b => mild c /\ all calm b
  | SReturn e => all_opt mild e
  | SSwitch _ v cs d => mild v /\ all (fun c => all calm (snd c)) cs /\ all_opt (all calm) d
  | SExpr e => mild e
  end).
Proof. intros []; reflexivity. Qed.
Lemma quiet_stmt : forall st, quiet_st st.
Proof.
  induction st as [| | v | c b e IHb IHe | i c a b IHb | c b IHb | e | is v cs d IHc IHd | e] using stmt_ind';
    intros K; rewrite calm_eq in K; destruct K as [T K]; (eapply quiet_ext; [| intros s; apply tr_stmt_eq]); cbn [tr_stmt_flat].
  - apply quiet_ret.
  - apply quiet_ret.
  - destruct K. now apply quiet_vardecl.
  - change (in_stmt (SIf c b e)) with (option_list in_body e ++ in_expr c ++ in_body b). destruct K as (Kc & Kb & Ke).
    apply quiet_bind; [now apply quiet_opt_body |]. intros e'. apply quiet_bind; [now apply quiet_val |]. intros c'.
    now apply quiet_then, quiet_body'.
  - change (in_stmt (SFor i c a b)) with [Scope (option_list in_forinit i ++ in_opt c ++ in_opt a ++ in_body b)].
    destruct K as (Ki & Kc & Ka & Kb).
    apply quiet_ext with (m := begin_scope ;;; k <- (i' <- topt (tr_forinit env) i ;; c' <- topt (tr_cond env) c ;;
       a' <- topt (tr_val env) a ;; b' <- tr_body env b ;; tret (KFor i' c' a' b')) ;; end_scope env ;;; tret k).
    + apply quiet_scope; [| intros; apply quiet_ret].
      apply quiet_bind; [apply quiet_topt; intros x ->; now apply quiet_forinit |]. intros i'.
      apply quiet_bind; [now apply quiet_cond_opt |]. intros c'. apply quiet_bind; [now apply quiet_opt |]. intros a'.
      now apply quiet_then, quiet_body'.
    + intros s. apply tbind_ext; [auto |]. intros _ s1. rewrite <- tbind_assoc. apply tbind_ext; [auto |]. intros i' s2.
      rewrite <- tbind_assoc. apply tbind_ext; [auto |]. intros c' s3.
      rewrite <- tbind_assoc. apply tbind_ext; [auto |]. intros a' s4.
      rewrite <- tbind_assoc. apply tbind_ext; [auto |]. reflexivity.
  - change (in_stmt (SWhile c b)) with (in_expr c ++ in_body b). destruct K as (Kc & Kb).
    apply quiet_bind; [now apply quiet_cond |]. intros c'. now apply quiet_then, quiet_body'.
  - now apply quiet_then, quiet_opt.
  - destruct K as (Kv & Kc & Kd). destruct is.
    + change (in_stmt (SSwitch true v cs d)) with (in_expr v ++ flat_map in_case cs ++ option_list in_body d).
      destruct T as [N T]. destruct cs as [| [vs b] cs]; [congruence |].
      inversion IHc as [| x y IHb IHc']; subst. cbn [snd all fst] in *. destruct Kc, T.
      apply quiet_bind; [now apply quiet_val |]. intros sv. cbn [flat_map]. unfold in_case at 1. cbn [fst snd]. rewrite <- !app_assoc.
      apply quiet_bind; [now apply quiet_switchstr |]. intros c. apply quiet_bind; [now apply quiet_body' |].
      intros b'. now apply quiet_then, quiet_chain.
    + change (in_stmt (SSwitch false v cs d)) with (flat_map in_case cs ++ in_expr v ++ option_list in_body d).
      apply quiet_bind; [apply (quiet_tmap _ _ in_case (tr_case env)) |].
      * intros [vs b] I. unfold in_case, tr_case. cbn [fst snd]. rewrite all_in in Kc. rewrite Forall_forall in IHc.
        apply quiet_bind; [rewrite refs_flat; apply quiet_tmap; intros; apply quiet_case_value |].
        intros vs'. apply quiet_then, quiet_body'; [apply (IHc _ I) | apply (Kc _ I)].
      * intros cs'. apply quiet_bind; [now apply quiet_val |]. intros v'. now apply quiet_then, quiet_opt_body.
  - now apply quiet_expr_stmt.
Qed.
Lemma quiet_body : forall l, all calm l -> quiet (in_body l) (tr_body env l).
Proof. intros l K. apply quiet_body'; auto. apply Forall_forall. intros; apply quiet_stmt. Qed.

(** ** Elements *)
Definition tame_elem (e : modelem) : Prop :=
  each_elem tame_expr tame_stmt e /\ careful_define e /\ match e with MVar v => v_value v <> None | _ => True end.

Lemma quiet_taf : forall x, all (each_form tame_expr) (taf_forms x) -> quiet (in_forms (taf_type x) (taf_forms x)) (tr_taf env x).
Proof.
  intros x H. unfold tr_taf, in_forms. apply quiet_tmap. intros f I. rewrite all_in in H.
  apply quiet_bind; [apply quiet_typename |]. intros t. apply quiet_then, quiet_form. auto.
Qed.
Lemma quiet_params : forall p, all (fun t => all (each_form tame_expr) (taf_forms t)) (fp_list p) ->
  quiet (flat_map (fun t => in_forms (taf_type t) (taf_forms t)) (fp_list p)) (tr_func_params env p).
Proof. intros p H. apply quiet_then, quiet_tmap. intros a I. rewrite all_in in H. apply quiet_taf. auto. Qed.
Lemma quiet_bind_forms : forall t fs, quiet (map (fun x => Declare x false) (map f_name fs)) (bind_forms t fs).
Proof.
  induction fs as [| f fs IH]; cbn [bind_forms map]; [apply quiet_ret |].
  change (Declare (f_name f) false :: ?l) with ([Declare (f_name f) false] ++ l).
  apply quiet_bind; [apply quiet_add | intros []; apply IH].
Qed.
Lemma quiet_bind_params : forall l,
  quiet (map (fun x => Declare x false) (flat_map (fun t => map f_name (taf_forms t)) l)) (bind_params l).
Proof.
  induction l as [| p l IH]; cbn [bind_params flat_map]; [apply quiet_ret |]. rewrite map_app.
  apply quiet_bind; [apply quiet_bind_forms | intros []; apply IH].
Qed.
Lemma quiet_func : forall f, each_elem tame_expr tame_stmt (MFunc f) -> quiet (in_func f) (tr_func_decl env f).
Proof.
  intros f (Kf & Kp & Kb). set (hd := in_func_head f).
  assert (C : quiet
    (map (fun x => Declare x false) (param_names (fd_params f)) ++ in_body (fd_body f) ++ hd
     ++ if is_main f then [] else hd)
    (bind_params (fp_list (fd_params f)) ;;;
     b <- tr_body env (fd_body f) ;;
     t <- tr_typename env (fd_type f) ;;
     f' <- tr_form env (fd_form f) true ;;
     ps <- tr_func_params env (fd_params f) ;;
     fw <- (if str_eqb (f_name (fd_form f)) (L "main") then tret []
            else t2 <- tr_typename env (fd_type f) ;;
                 f2 <- tr_form env (fd_form f) true ;;
                 ps2 <- tr_func_params env (fd_params f) ;;
                 tret [XForwardFunc (mkCfwd (negb (fd_pub f)) t2 f2 ps2)]) ;;
     tret (XFunc (mkCfd (negb (fd_pub f)) t f' ps b) :: fw))).
  { apply quiet_bind; [apply quiet_bind_params |]. intros [].
    apply quiet_bind; [now apply quiet_body |]. intros b.
    unfold hd at 1, in_func_head. rewrite <- !app_assoc.
    apply quiet_bind; [apply quiet_typename |]. intros t.
    apply quiet_bind; [now apply quiet_form |]. intros f'.
    apply quiet_bind; [now apply quiet_params |]. intros ps.
    apply quiet_then. unfold is_main. destruct (str_eqb _ _); [apply quiet_ret |].
    unfold hd, in_func_head.
    apply quiet_bind; [apply quiet_typename |]. intros t2.
    apply quiet_bind; [now apply quiet_form |]. intros f2. now apply quiet_then, quiet_params. }
  unfold in_func. fold hd.
  set (rt := (negb (is_void (fd_type f)) || Nat.eqb (f_hops (fd_form f)) 1) && negb (body_returns (fd_body f))).
  eapply quiet_ext; [eapply (quiet_scope _ _ _ _ (fun r =>
      if rt then terr (berr env (pos_fmt (fd_pos f)) (f_name (fd_form f) ++ L ": missing return")) else tret r) C) |].
  - intros r. destruct rt; [apply quiet_err | apply quiet_ret].
  - intros s. unfold tr_func_decl. apply tbind_ext; [auto |]. intros _ s1.
    rewrite <- tbind_assoc. apply tbind_ext; [auto |]. intros _ s2.
    rewrite <- tbind_assoc. apply tbind_ext; [auto |]. intros b s3.
    rewrite <- tbind_assoc. apply tbind_ext; [auto |]. intros t s4.
    rewrite <- tbind_assoc. apply tbind_ext; [auto |]. intros f' s5.
    rewrite <- tbind_assoc. apply tbind_ext; [auto |]. intros ps s6.
    rewrite <- tbind_assoc. apply tbind_ext; [auto |]. reflexivity.
Qed.
Lemma quiet_elem : forall e, tame_elem e -> quiet (in_elem e) (tr_mod_elem env e).
Proof.
  intros [m | e | a | t | x | v | f] (K & _ & V); cbn [tr_mod_elem in_elem].
  - apply quiet_ret.
  - unfold tr_enum. cbn [each_elem] in K. rewrite all_in in K. apply quiet_then, quiet_tmap. intros en I.
    apply quiet_then, quiet_opt. now apply (K _ I).
  - apply quiet_ret.
  - unfold tr_typedef. apply quiet_bind; [| intros p; apply quiet_then, quiet_typename].
    destruct (td_func_params t) as [p |]; cbn [topt]; [| apply quiet_ret].
    apply quiet_then, quiet_then, quiet_tmap. intros b _. apply quiet_btf.
  - unfold tr_struct_typedef. cbn [each_elem] in K. rewrite all_in in K. apply quiet_then, quiet_tmap.
    intros [y | u] I; apply K in I; cbn [tr_struct_entry in_struct_entry each_field] in *.
    + now apply quiet_then, quiet_taf.
    + destruct I as [I1 I2]. rewrite all_in in I2. apply quiet_then. unfold tr_union. apply quiet_bind; [now apply quiet_form |].
      intros f. apply quiet_then, quiet_tmap. intros p J. apply quiet_bind; [apply quiet_typename |]. intros t.
      apply quiet_then, quiet_form. now apply I2.
  - unfold tr_modvar. destruct K as [K1 K2]. apply quiet_bind; [apply quiet_typename |]. intros t.
    apply quiet_bind; [now apply quiet_form |]. intros f. destruct (v_value v) as [e |]; [| congruence].
    now apply quiet_then, quiet_val.
  - now apply quiet_func.
Qed.
Lemma quiet_bind_elem : forall e, careful_define e -> quiet (elem_declares e) (bind_elem e).
Proof.
  intros [m | e | a | t | x | v | f] C; cbn [bind_elem elem_declares careful_define] in *; try apply quiet_ret; try apply quiet_add.
  - unfold bind_define. destruct (str_eqb_spec (m_name m) (L "type")) as [E | E].
    + rewrite E. cbn [str_eqb lit]. apply quiet_ret.
    + destruct (str_eqb_spec (m_name m) (L "define")) as [E2 | E2]; [| apply quiet_ret].
      destruct (C E2) as (id & v & r & ->). apply quiet_add.
  - apply quiet_then. induction (enum_entries e) as [| en l IH]; cbn [tmap map]; [apply quiet_ret |].
    change (Declare (en_name en) (enum_pub e) :: ?l) with ([Declare (en_name en) (enum_pub e)] ++ l).
    apply quiet_bind; [apply quiet_add | intros []; apply quiet_then, IH].
Qed.
Lemma quiet_elements : forall elems, all tame_elem elems -> declared_once [] (in_module elems) ->
  (forall r, refers r (in_module elems) -> fit r) -> forall s w, tr_elements env elems s <> TrPanic w.
Proof.
  intros elems K O R s w.
  assert (C : quiet (flat_map elem_declares elems ++ flat_map in_elem elems)
    (tmap bind_elem elems ;;; tmap (tr_mod_elem env) elems)).
  { rewrite all_in in K. apply quiet_bind; [apply quiet_tmap; intros e I; apply quiet_bind_elem, (K _ I) |]. intros _.
    apply quiet_tmap. intros e I. apply quiet_elem, K, I. }
  unfold in_module in O, R. inversion O as [| | | h l l0 O1 O2]; subst.
  destruct (quiet_scope_from _ _ _ C O1 (fun r I => R r (Refers_inside r _ _ I)) s) as [P _].
  assert (E : tr_elements env elems s = tbind (begin_scope ;;; a <- (tmap bind_elem elems ;;; tmap (tr_mod_elem env) elems) ;;
     end_scope env ;;; tret a) (fun b => tret (List.concat b)) s).
  { unfold tr_elements. rewrite <- tbind_assoc. apply tbind_ext; [auto |]. intros _ s1.
    rewrite <- tbind_assoc. rewrite <- tbind_assoc. apply tbind_ext; [auto |]. intros _ s2.
    apply tbind_ext; [auto |]. intros b s3. now rewrite <- tbind_assoc. }
  rewrite E. revert P. generalize (begin_scope ;;; a <- (tmap bind_elem elems ;;; tmap (tr_mod_elem env) elems) ;;
     end_scope env ;;; tret a). intros m P. unfold tbind, tret.
  destruct (m s) as [[a s'] | e | w']; try discriminate. exfalso. now apply (P w').
Qed.
End Tame.

(** ** What the grammar ensures *)
Section Text.
Variable ctx : parsectx.
Definition care_expr (e : expr) : Prop := careful_expr e -> tame_expr e.
Definition care_stmt (s : stmt) : Prop := careful_stmt s -> tame_stmt s.
Notation cares := (each_expr care_expr).
Notation caress := (each_stmt care_expr care_stmt).

Lemma expr_cares : forall n ts e, expr_of ctx n ts e -> cares e.
Proof.
  apply (expr_ind_m ctx (fun n ts e _ => cares e) (fun ts l _ => all cares l) (fun ts l _ => all cares l)
    (fun ts l _ => all (fun x => cares (snd x)) l
       /\ (all (fun x => fst (fst x) = false) l -> all (fun x => all_opt designator (snd (fst x))) l))
    (fun ts x _ => cares (snd x) /\ (fst (fst x) = false -> all_opt designator (snd (fst x)))));
    intros; cbn [each_expr all fst snd all_opt designator]; unfold care_expr; cbn [careful_expr tame_expr]; try tauto.
  - split; auto. intros [N1 N2]. match goal with X : binary_op _ _ |- _ => destruct X as (i & ops & E & I & _) end.
    assert (X : forall op, In op (List.concat binary_levels) -> op <> "<<="%string -> op <> ">>="%string -> In op binary_known).
    { clear. intros op I N1 N2. cbn in I. cbn [binary_known In]. intuition congruence. }
    apply X; auto. apply in_concat. exists ops. split; auto. eapply nth_error_In; eauto.
  - split; [assumption | discriminate].
Qed.
Lemma many_each : forall A (P : list Lexer.token -> A -> Prop) (Q : A -> Prop) ts l, (forall ts a, P ts a -> Q a) ->
  many P ts l -> all Q l.
Proof. intros A P Q ts l HP H. induction H; cbn [all]; eauto. Qed.
Lemma commas_each : forall A (P : list Lexer.token -> A -> Prop) (Q : A -> Prop) ts l, (forall ts a, P ts a -> Q a) ->
  commas P ts l -> all Q l.
Proof. intros A P Q ts l HP H. induction H; cbn [all]; eauto. Qed.
Lemma opt_cares : forall ts o, opt_expr_of ctx ts o -> all_opt cares o.
Proof. intros ts o []; cbn; [auto | eapply expr_cares; eauto]. Qed.
Lemma init_cares : forall ts o, init_of ctx ts o -> all_opt cares o.
Proof. intros ts o []; cbn; [auto | eapply expr_cares; eauto]. Qed.
Lemma form_cares : forall ts f, form_of ctx ts f -> each_form care_expr f.
Proof.
  intros ts f [first ss n x ixs l rest _ _ _ Hi _]. unfold each_form. cbn [f_indexes]. eapply many_each; [| exact Hi].
  intros tz o []; cbn; [auto | eapply expr_cares; eauto].
Qed.
Lemma forinit_cares : forall ts i, forinit_of ctx ts i -> all_opt (each_init care_expr) i.
Proof.
  intros ts i [| tz e _ H | ts1 t ts2 f q ts3 e _ H1 H2 _ H3]; cbn; auto; [eapply expr_cares; eauto |].
  split; [eapply form_cares; eauto | eapply expr_cares; eauto].
Qed.
Lemma stmts_care :
  (forall ts s o, SpecGrammar.stmt_of ctx ts s o -> caress s) /\
  (forall ts b o, block_of ctx ts b o -> all caress b) /\
  (forall ts b, body_of ctx ts b -> all caress b) /\
  (forall ts l, stmts_of ctx ts l -> all caress l) /\
  (forall ts l, cases_of ctx ts l -> all (fun c => all caress (snd c)) l /\ all (fun c => fst c <> []) l) /\
  (forall ts d, default_of ctx ts d -> all_opt (all caress) d).
Proof.
  apply (stmt_mutual ctx (fun ts s o _ => caress s) (fun ts b o _ => all caress b)
   (fun ts b _ => all caress b) (fun ts l _ => all caress l)
   (fun ts l _ => all (fun c => all caress (snd c)) l /\ all (fun c => fst c <> []) l)
   (fun ts d _ => all_opt (all caress) d));
   intros; repeat match goal with
     | X : expr_of _ _ _ _ |- _ => apply expr_cares in X
     | X : opt_expr_of _ _ _ |- _ => apply opt_cares in X
     | X : init_of _ _ _ |- _ => apply init_cares in X
     | X : form_of _ _ _ |- _ => apply form_cares in X
     | X : forinit_of _ _ _ |- _ => apply forinit_cares in X
     end; cbn [each_stmt all all_opt fst snd v_form v_value]; try unfold care_stmt at 1; cbn [careful_stmt tame_stmt]; try tauto.
  - split; [| tauto]. destruct cases; [contradiction |]. split; [discriminate | tauto].
  - split; [tauto |]. split; [| tauto]. match goal with X : commas _ _ _ |- _ => destruct X; discriminate end.
Qed.
Lemma group_cares : forall ts g, group_of ctx ts g -> all (each_form care_expr) (taf_forms g).
Proof.
  intros ts g [ts1 t ts2 fs _ _ Hn]. cbn [taf_forms]. induction Hn; cbn [all]; (split; [eapply form_cares; eauto | auto]).
Qed.
Lemma params_care : forall ts l v, params_of ctx ts l v -> all (fun p => all (each_form care_expr) (taf_forms p)) l.
Proof.
  intros ts l v H. induction H; cbn [all]; auto; (split; [eapply group_cares; eauto | auto]).
Qed.
Lemma elem_cares : forall q ts pub a, elem_of ctx q ts pub a ->
  each_elem care_expr care_stmt a /\ match a with MVar v => v_value v <> None | _ => True end.
Proof.
  intros q ts pub a H. destruct H as [k lb ts0 l tc co rb tse se pb _ _ Hl|k lb ts0 l rb x s0 pb _ _ Hl
    |k st x y s0 pb|k ts0 t ss n x ps a sz z s0 pb _ Ht _ _ Hps
    |ts0 t ts1 fm lp ps l v rp ts2 b o pb Ht Hf _ Hps _ Hb|ts0 t ts1 fm eq ts2 x s0 Ht Hf _ Hx _]; cbn [each_elem].
  - split; [| exact I]. cbn [enum_entries]. eapply commas_each; [| exact Hl].
    intros tz en [x tq v _ Hv]. cbn [en_val]. eapply init_cares; eauto.
  - split; [| exact I]. cbn [st_entries]. eapply many_each; [| exact Hl].
    intros tz en [ts1 t ts2 fs s1 Ht Hf _|u lb' ts1 l' rb' ts2 f s1 _ _ Hu _ Hf _]; cbn [each_field taf_forms u_form u_fields].
    + eapply commas_each; [| exact Hf]. intros; eapply form_cares; eauto.
    + split; [eapply form_cares; eauto |]. eapply many_each; [| exact Hu].
      intros tq [t' f'] Hp. inversion Hp; subst. cbn. eapply form_cares; eauto.
  - auto.
  - auto.
  - split; [| exact I]. cbn [fd_form fd_params fp_list fd_body]. split; [eapply form_cares; eauto |].
    split; [eapply params_care; eauto |]. apply (proj1 (proj2 stmts_care) _ _ _ Hb).
  - split; [| discriminate]. cbn [v_form v_value all_opt]. split; [eapply form_cares; eauto | eapply expr_cares; eauto].
Qed.
Lemma module_cares : forall ts l, module_of ctx ts l ->
  all (fun a => each_elem care_expr care_stmt a /\ match a with MVar v => v_value v <> None | _ => True end) l.
Proof.
  intros ts l H. induction H; cbn [all]; auto; (split; [| auto]).
  - match goal with X : macro_of _ _ |- _ => destruct X end. cbn. auto.
  - eapply elem_cares; eauto.
Qed.
End Text.

(** Putting the two together. *)
Lemma all_mp : forall A (P Q R : A -> Prop) l, (forall a, In a l -> P a -> Q a -> R a) -> all P l -> all Q l -> all R l.
Proof. intros A P Q R l H. rewrite !all_in. auto. Qed.
Lemma opt_mp : forall A (P Q R : A -> Prop) o, (forall a, P a -> Q a -> R a) -> all_opt P o -> all_opt Q o -> all_opt R o.
Proof. intros A P Q R [a |] H; cbn; auto. Qed.
Lemma expr_mp : forall e, each_expr careful_expr e -> each_expr care_expr e -> each_expr tame_expr e.
Proof.
  induction e as [a i IHa IHi | p op a b IHa IHb | p op t f IH | t x IH | es IHe _ | p f args IHf IHa | l | n | op x IH
    | p op x IH | t | x IH] using expr_ind'; intros [C H] [C' H']; (split; [now apply C' |]); try tauto.
  - rewrite Forall_forall in IHe. revert H H'. apply all_mp. auto.
  - rewrite Forall_forall in IHa. split; [tauto |]. destruct H as [_ H]. destruct H' as [_ H']. revert H H'. apply all_mp. auto.
Qed.
Lemma form_mp : forall f, each_form careful_expr f -> each_form care_expr f -> each_form tame_expr f.
Proof. intros f. apply all_mp. intros o _. apply opt_mp, expr_mp. Qed.
Lemma init_mp : forall i, each_init careful_expr i -> each_init care_expr i -> each_init tame_expr i.
Proof. intros [e | t f e]; cbn [each_init]; [apply expr_mp |]. intros [] []. split; [now apply form_mp | now apply expr_mp]. Qed.
Definition stmt_mp' (st : stmt) : Prop :=
  each_stmt careful_expr careful_stmt st -> each_stmt care_expr care_stmt st -> each_stmt tame_expr tame_stmt st.
Lemma body_mp : forall b, Forall stmt_mp' b -> all (each_stmt careful_expr careful_stmt) b -> all (each_stmt care_expr care_stmt) b ->
  all (each_stmt tame_expr tame_stmt) b.
Proof. intros b H. rewrite Forall_forall in H. apply all_mp. intros a I. now apply H. Qed.
Lemma opt_body_mp : forall b, opt_all stmt_mp' b -> all_opt (all (each_stmt careful_expr careful_stmt)) b ->
  all_opt (all (each_stmt care_expr care_stmt)) b -> all_opt (all (each_stmt tame_expr tame_stmt)) b.
Proof. intros [b |] H; cbn; [now apply body_mp | auto]. Qed.
Lemma stmt_mp : forall st, stmt_mp' st.
Proof.
  induction st as [| | v | c b e IHb IHe | i c a b IHb | c b IHb | e | is v cs d IHc IHd | e] using stmt_ind';
    intros [C H] [C' H']; (split; [now apply C' |]); auto.
  - split; [now apply form_mp | eapply opt_mp; [apply expr_mp | apply H | apply H']].
  - split; [now apply expr_mp |]. split; [now apply body_mp | now apply opt_body_mp].
  - split; [eapply opt_mp; [apply init_mp | apply H | apply H'] |].
    split; [eapply opt_mp; [apply expr_mp | apply H | apply H'] |].
    split; [eapply opt_mp; [apply expr_mp | apply H | apply H'] | now apply body_mp].
  - split; [now apply expr_mp | now apply body_mp].
  - eapply opt_mp; [apply expr_mp | apply H | apply H'].
  - split; [now apply expr_mp |]. split; [| now apply opt_body_mp].
    rewrite Forall_forall in IHc. destruct H as (_ & H & _), H' as (_ & H' & _). revert H H'. apply all_mp.
    intros a I. now apply body_mp, IHc.
  - now apply expr_mp.
Qed.
Lemma elem_mp : forall e, each_elem careful_expr careful_stmt e -> each_elem care_expr care_stmt e -> each_elem tame_expr tame_stmt e.
Proof.
  intros [m | e | a | t | x | v | f] H H'; cbn [each_elem] in *; auto.
  - revert H H'. apply all_mp. intros en _. apply opt_mp, expr_mp.
  - revert H H'. apply all_mp. intros [y | u] _; cbn [each_field].
    + apply all_mp. intros g _. apply form_mp.
    + intros [A B] [A' B']. split; [now apply form_mp |]. revert B B'. apply all_mp. intros p _. apply form_mp.
  - split; [now apply form_mp | eapply opt_mp; [apply expr_mp | apply H | apply H']].
  - destruct H as (H1 & H2 & H3), H' as (H1' & H2' & H3'). split; [now apply form_mp |]. split.
    + revert H2 H2'. apply all_mp. intros p _. apply all_mp. intros g _. apply form_mp.
    + revert H3 H3'. apply body_mp, Forall_forall. intros; apply stmt_mp.
Qed.

Lemma every_ref_refers : forall (ok : list str -> ref -> Prop) r l, refers r l -> forall vis, every_ref ok vis l -> exists v, ok v r.
Proof.
  intros ok r l H. induction H; intros vis E; inversion E; subst; eauto.
Qed.
