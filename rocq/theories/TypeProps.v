(** Consequences of the typing rules used by PropTypes.v. *)
From Verif Require Import Base BaseFacts Buf Nodes NodeQueries Types Cspec Resolve Cursor Preparser Parser
  CAst FormatChe FormatC Translator SpecTypes TypeFacts SpecDecl SpecTarget TargetFacts SpecTyping
  TypingFacts ElabFacts SpecAccept AcceptFacts.

Lemma rules_total : forall op a b,
  typeof_arith a b <> TPanic /\ typeof_plusminus op a b <> TPanic /\ typeof_cmp a b <> TPanic
  /\ typeof_boolcomp a b <> TPanic /\ typeof_deref a <> TPanic /\ typeof_index a b <> TPanic.
Proof.
  intros op a b. repeat split; auto using arith_total, plusminus_total, cmp_total, boolcomp_total,
    deref_total, index_total.
Qed.

Lemma either_way_sym : forall p q a b, either_way p q a b -> either_way p q b a.
Proof. unfold either_way. tauto. Qed.
Lemma both_sym : forall p a b, both p a b -> both p b a.
Proof. unfold both. tauto. Qed.

Lemma comparable_sym : forall a b, comparable a b -> comparable b a.
Proof. unfold comparable. intros a b. unfold both, either_way. tauto. Qed.
Lemma arithmetic_sym : forall a b, arithmetic a b -> arithmetic b a.
Proof. unfold arithmetic. intros a b. unfold both, either_way. tauto. Qed.
Lemma additive_sym : forall op a b, additive op a b -> additive op b a.
Proof. unfold additive. intros op a b. unfold both, either_way. tauto. Qed.

Lemma cmp_symmetric : forall a b, accepted (typeof_cmp a b) <-> accepted (typeof_cmp b a).
Proof. intros. rewrite !cmp_accepts. split; apply comparable_sym. Qed.
Lemma arith_symmetric : forall a b, accepted (typeof_arith a b) <-> accepted (typeof_arith b a).
Proof. intros. rewrite !arith_accepts. split; apply arithmetic_sym. Qed.
Lemma plusminus_symmetric : forall op a b,
  accepted (typeof_plusminus op a b) <-> accepted (typeof_plusminus op b a).
Proof. intros. rewrite !plusminus_accepts. split; apply additive_sym. Qed.

Lemma cmp_yields_bool : forall a b t, typeof_cmp a b = TOk t -> ~ both boolean a b -> boolean t.
Proof.
  intros a b t H N. destruct (cmp_result _ _ _ H) as [-> | [_ B]]; [| contradiction].
  repeat split.
Qed.

(** Whole expressions: if [a op b] is accepted then [b op a] is. *)
Lemma operands_swap : forall S G p q op a b, symmetric_op op ->
  (exists t, typed S G (EBinary p op a b) t) -> exists t, typed S G (EBinary q op b a) t.
Proof.
  intros S G p q op a b O (t & ta & tb & A & B & T). cbn [typed].
  assert (X : forall P : ty -> Prop, (exists t, P t) -> (forall t, P t -> binary_type S op tb ta t) ->
    exists t ta tb, typed S G b ta /\ typed S G a tb /\ binary_type S op ta tb t).
  { intros P (u & H) I. exists u, tb, ta. auto. }
  assert (C : forall x y, (exists t, cmp_type x y t) <-> comparable x y).
  { intros x y. rewrite <- cmp_accepts. unfold accepted. split; intros (u & H); exists u; now apply cmp_iff. }
  assert (C2 : forall x y, (exists t, plus_type op x y t) <-> additive op x y).
  { intros x y. rewrite <- plusminus_accepts. unfold accepted. split; intros (u & H); exists u; now apply plus_iff. }
  assert (C3 : forall x y, (exists t, arith_type x y t) <-> arithmetic x y).
  { intros x y. rewrite <- arith_accepts. unfold accepted. split; intros (u & H); exists u; now apply arith_iff. }
  destruct T as [(I & Ba & Bb & ->) | [(I & T) | [(I & T) | [(I & T) | (I & ->)]]]].
  - exists t_bool, tb, ta. repeat split; auto. left. auto.
  - apply (X (cmp_type (root S tb) (root S ta))).
    + apply C, comparable_sym, C. eauto.
    + intros u H. right; left. auto.
  - apply (X (plus_type op (root S tb) (root S ta))).
    + apply C2, additive_sym, C2. eauto.
    + intros u H. right; right; left. auto.
  - apply (X (arith_type (root S tb) (root S ta))).
    + apply C3, arithmetic_sym, C3. eauto.
    + intros u H. right; right; right; left. auto.
  - exfalso. unfold symmetric_op in O. cbn [In] in O, I.
    repeat (destruct I as [<- | I]; [repeat (destruct O as [O | O]; [discriminate O |]); exact O |]). exact I.
Qed.

(** An operand of unknown type. *)
Lemma unknown_root : forall S t, unknown t -> typedef_named (elements S) (L "*** TODO *** ") = None -> unknown (root S t).
Proof.
  intros S t (O & N & M) H. unfold root. rewrite N, str_eqb_refl, M, H.
  destruct (has_type _); repeat split; auto.
Qed.

Lemma unknown_operands : forall op u t, unknown u ->
  accepted (typeof_arith u t) /\ accepted (typeof_arith t u)
  /\ accepted (typeof_plusminus op u t) /\ accepted (typeof_plusminus op t u)
  /\ accepted (typeof_cmp u t) /\ accepted (typeof_cmp t u)
  /\ accepted (typeof_index u t) /\ accepted (typeof_deref u)
  /\ (accepted (typeof_boolcomp u t) <-> booly t) /\ (accepted (typeof_boolcomp t u) <-> booly t).
Proof.
  intros op u t U. rewrite !arith_accepts, !plusminus_accepts, !cmp_accepts, !boolcomp_accepts.
  unfold arithmetic, additive, comparable. repeat split; try tauto.
  - exists u. apply index_iff. left. auto.
  - exists u. apply deref_iff. left. auto.
  - unfold booly. tauto.
  - unfold booly. tauto.
Qed.
Lemma unknown_uses : forall S u f n, unknown u ->
  field_type S u f unknown_type /\ callable S u n unknown_type.
Proof. intros S u f n U. split; [left; auto | now constructor]. Qed.

(** ** The same for whole expressions in a module *)
Lemma shows_self : forall s, shows s (ctx s).
Proof. intros s x. reflexivity. Qed.
Lemma typed_here : forall m p s e t,
  (exists c s', tr_expr (env_of m p) e s = TrOk ((t, c), s')) <-> typed (site_of m p) (ctx s) e t.
Proof. intros m p s e t. apply (expr_iff _ _ (site_describes m p)). apply shows_self. Qed.

Lemma swap_at : forall m p s q q' op a b, symmetric_op op ->
  accepted_at m p s (EBinary q op a b) -> accepted_at m p s (EBinary q' op b a).
Proof.
  intros m p s q q' op a b O (t & H). apply typed_here in H.
  destruct (operands_swap _ _ q q' op a b O (ex_intro _ t H)) as (u & U). exists u. now apply typed_here.
Qed.

Lemma unknown_at : forall m p s u x tu tx, typedef_named (mod_elements m) (L "*** TODO *** ") = None ->
  has_type_at m p s u tu -> unknown tu -> has_type_at m p s x tx ->
  (forall q op, value_op op -> accepted_at m p s (EBinary q op u x) /\ accepted_at m p s (EBinary q op x u))
  /\ (forall q op, In op ["&&"; "||"]%string -> booly tx ->
        accepted_at m p s (EBinary q op u x) /\ accepted_at m p s (EBinary q op x u))
  /\ accepted_at m p s (EArrIndex u x)
  /\ (forall q, accepted_at m p s (EPrefix q "*" u))
  /\ (forall q op f, accepted_at m p s (EField q op u f))
  /\ (forall q args, Forall (accepted_at m p s) args -> is_name u "calloc!" = false -> accepted_at m p s (ECall q u args)).
Proof.
  intros m p s u x tu tx TN HU U HX. apply typed_here in HU. apply typed_here in HX.
  set (S := site_of m p) in *. set (G := ctx s) in *.
  assert (A : forall e, (exists t, typed S G e t) -> accepted_at m p s e).
  { intros e (t & T). exists t. now apply typed_here. }
  assert (R : unknown (root S tu)) by (apply unknown_root; auto).
  assert (V : forall a b, unknown a \/ unknown b -> forall op, value_op op ->
    exists t, (In op ["=="; "<"; ">"; "!="; ">="; "<="]%string /\ cmp_type a b t)
      \/ (In op ["-"; "+"]%string /\ plus_type op a b t)
      \/ (In op ["*"; "/"; "%"; "<<"; ">>"; "&"; "|"; "^"]%string /\ arith_type a b t)).
  { intros a b UAB op O.
    assert (X1 : exists t, cmp_type a b t).
    { assert (X : accepted (typeof_cmp a b)) by (apply cmp_accepts; unfold comparable; tauto).
      destruct X as (t & X). exists t. now apply cmp_iff. }
    assert (X2 : exists t, plus_type op a b t).
    { assert (X : accepted (typeof_plusminus op a b)) by (apply plusminus_accepts; unfold additive; tauto).
      destruct X as (t & X). exists t. now apply plus_iff. }
    assert (X3 : exists t, arith_type a b t).
    { assert (X : accepted (typeof_arith a b)) by (apply arith_accepts; unfold arithmetic; tauto).
      destruct X as (t & X). exists t. now apply arith_iff. }
    destruct X1 as (t1 & X1), X2 as (t2 & X2), X3 as (t3 & X3).
    unfold value_op in O. cbn [In] in O.
    assert (O' : In op ["=="; "<"; ">"; "!="; ">="; "<="]%string \/ In op ["-"; "+"]%string
      \/ In op ["*"; "/"; "%"; "<<"; ">>"; "&"; "|"; "^"]%string) by (cbn [In]; tauto).
    destruct O' as [O' | [O' | O']]; [exists t1 | exists t2 | exists t3]; tauto. }
  split; [| split; [| split; [| split; [| split]]]].
  - intros q op O. split; apply A.
    + destruct (V (root S tu) (root S tx) (or_introl R) op O) as (t & T). exists t, tu, tx. repeat split; auto.
      unfold binary_type. tauto.
    + destruct (V (root S tx) (root S tu) (or_intror R) op O) as (t & T). exists t, tx, tu. repeat split; auto.
      unfold binary_type. tauto.
  - intros q op O B. assert (BU : booly tu) by (unfold booly; tauto).
    assert (O' : In op ["||"; "&&"]%string) by (cbn [In] in *; tauto).
    split; apply A; exists t_bool; [exists tu, tx | exists tx, tu]; repeat split; auto; left; auto.
  - apply A. exists tu, tu, tx. repeat split; auto. left. auto.
  - intros q. apply A. exists tu, tu. split; auto. right; right; right. split; auto. left. auto.
  - intros q op f. apply A. exists unknown_type, tu. split; auto. left. auto.
  - intros q args F N. apply A. exists unknown_type. cbn [typed]. split.
    + apply all_in. intros e I. rewrite Forall_forall in F. destruct (F e I) as (t & T). exists t. now apply typed_here.
    + exists tu. rewrite N. split; auto. now constructor.
Qed.

(** ** Calls *)
Lemma fixed_ellipsis : forall l d, (forall t, In t l -> ~ ellipsis t) ->
  forall n, arity_ok (l ++ if d : bool then [variadic_mark] else []) n <-> if d then List.length l <= n else n = List.length l.
Proof.
  intros l d H n. unfold arity_ok. destruct d.
  - split.
    + intros [(f & e & E & _ & N) | [N _]].
      * apply app_inj_tail in E. destruct E as [<- _]. exact N.
      * exfalso. apply (N l variadic_mark eq_refl). split; reflexivity.
    + intros N. left. exists l, variadic_mark. repeat split; auto.
  - rewrite app_nil_r. split; [| intros N; right; split; auto].
    + intros [(f & e & -> & E & _) | [_ N]]; [| exact N]. exfalso. apply (H e); auto. apply in_or_app. right. now left.
    + intros f e -> . apply H. apply in_or_app. right. now left.
Qed.
Lemma call_arity_at : forall m p s q n args fd t,
  has_type_at m p s (EName n) (function_type fd) -> is_name (EName n) "calloc!" = false ->
  (forall x, In x (fp_list (fd_params fd)) -> base_fmt (tn_name (taf_type x)) <> L "...") ->
  has_type_at m p s (ECall q (EName n) args) t <->
    Forall (accepted_at m p s) args /\ right_count fd (List.length args)
    /\ t = declared_type (fd_type fd) (fd_form fd).
Proof.
  intros m p s q n args fd t HN NC HP. unfold has_type_at in *. rewrite typed_here in *. cbn [typed] in *.
  set (S := site_of m p) in *. rewrite NC, all_in, Forall_forall.
  assert (AR : forall k, arity_ok (param_types (fd_params fd)) k <-> right_count fd k).
  { intros k. unfold param_types, right_count, param_count. rewrite fixed_ellipsis.
    - assert (E : List.length (flat_map (fun t => map (declared_type (taf_type t)) (taf_forms t)) (fp_list (fd_params fd)))
                = List.length (flat_map taf_forms (fp_list (fd_params fd)))).
      { induction (fp_list (fd_params fd)) as [| x l IH]; [reflexivity |]. cbn [flat_map].
        rewrite !app_length, map_length, IH; [reflexivity |]. intros y I. apply HP. now right. }
      now rewrite E.
    - intros y I [_ E]. apply in_flat_map in I. destruct I as (x & I & J). apply in_map_iff in J.
      destruct J as (f & <- & J). apply (HP x I). unfold declared_type, plain in E. cbn [ty_base] in E. exact E. }
  assert (U : forall t', name_typed S (ctx s) n t' -> t' = function_type fd).
  { intros t' H. assert (X1 := proj2 (typed_here m p s (EName n) t') H).
    assert (X2 := proj2 (typed_here m p s (EName n) (function_type fd)) HN).
    destruct X1 as (? & ? & X1), X2 as (? & ? & X2). congruence. }
  split.
  - intros (A & tf & F & C). apply U in F. subst tf. split; [intros e I; destruct (A e I) as (te & T); exists te; now apply typed_here |].
    unfold function_type in C. inversion C as [t0 k UN | b ps r k AO | t0 p0 d k r0 NU OPS NS TN C']; subst.
    + exfalso. destruct UN as (UN & _). discriminate.
    + split; [now apply AR | reflexivity].
    + exfalso. cbn [ty_ops] in OPS. destruct OPS; discriminate.
  - intros (A & R & ->). split; [intros e I; destruct (A e I) as (te & T); exists te; now apply typed_here |].
    exists (function_type fd). split; auto. unfold function_type. set (d := declared_type (fd_type fd) (fd_form fd)).
    assert (E : d = Ty (ty_base d) (ty_ops d)) by (destruct d; reflexivity). rewrite E at 3.
    constructor. now apply AR.
Qed.

(** ** Loop conditions *)
Lemma loop_cond_booly : forall m p cm f G st c, translate m p = TrOk cm ->
  stmt_of is_numeric (mod_elements m) f G st -> loop_condition st c ->
  exists t, typed (site_of m p) (loop_scope st G) c t /\ booly t.
Proof.
  intros m p cm f G st c H O C. apply (stmt_of_ok _ _ _ _ _ _ H) in O.
  destruct C as [(b & ->) | (i & a & b & ->)]; cbn [loop_scope].
  - exact (proj1 O).
  - exact (proj1 (proj2 O)).
Qed.
