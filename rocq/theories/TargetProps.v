(** Layout and contents of the generated file. *)
From Verif Require Import Base BaseFacts Buf Nodes NodeQueries NodeInd Types Cspec Resolve Cursor
  Preparser Parser CAst FormatChe FormatC Translator SpecDecl SpecTarget SpecScope SpecTypes SpecTyping SpecAccept
  ScopeFacts TrFacts TargetFacts ElabFacts AcceptFacts SpecModule CustomFacts.

(** ** Reordering *)
Lemma group_order : forall e, elem_order e = group e.
Proof. intros []; reflexivity. Qed.
Lemma group_le : forall e, group e <= 6.
Proof. intros []; cbn [group]; lia. Qed.

Lemma dedup_thins : forall l set, thinned type_definition l (dedup_elems set l).
Proof.
  induction l as [| e l IH]; intros set; cbn [dedup_elems]; [constructor |].
  destruct e; try (constructor; auto; fail).
  - destruct (str_in _ _); [apply Thin_drop; cbn; auto | constructor; auto].
  - destruct (str_in _ _); [apply Thin_drop; cbn; auto | constructor; auto].
Qed.
Lemma thinned_filter : forall A (D : A -> Prop) (f : A -> bool) a b, thinned D a b -> thinned D (filter f a) (filter f b).
Proof.
  intros A D f a b H. induction H as [| x a b H IH | x a b Hx H IH]; cbn [filter].
  - constructor.
  - destruct (f x); [constructor |]; auto.
  - destruct (f x); [apply Thin_drop |]; auto.
Qed.
Lemma thinned_in : forall A (D : A -> Prop) a b x, thinned D a b -> In x b -> In x a.
Proof. intros A D a b x H. induction H; cbn [In]; intuition. Qed.
Lemma thinned_kept : forall A (D : A -> Prop) a b x, thinned D a b -> In x a -> ~ D x -> In x b.
Proof.
  intros A D a b x H. induction H as [| y a b H IH | y a b Hy H IH]; cbn [In]; intros I N; auto.
  - destruct I; auto.
  - destruct I as [<- | I]; [tauto | auto].
Qed.
Lemma thinned_all : forall A (D : A -> Prop) a b, thinned D a b -> (forall x, In x a -> ~ D x) -> a = b.
Proof.
  intros A D a b H. induction H as [| y a b H IH | y a b Hy H IH]; intros N; auto.
  - f_equal. apply IH. intros x I. apply N. now right.
  - exfalso. apply (N y); [now left | auto].
Qed.

Definition in_group (g : nat) (e : celem) : bool := Nat.eqb (group e) g.
Lemma filter_filter : forall A (f g : A -> bool) l, filter f (filter g l) = filter (fun x => g x && f x) l.
Proof.
  intros A f g l. induction l as [| a l IH]; [auto |]. cbn [filter].
  destruct (g a); cbn [filter andb]; [| auto]. destruct (f a); rewrite IH; auto.
Qed.
Lemma filter_none : forall A (f : A -> bool) l, (forall x, f x = false) -> filter f l = [].
Proof. intros A f l H. induction l as [| a l IH]; [auto |]. cbn [filter]. now rewrite H. Qed.
Lemma filter_ext' : forall A (f g : A -> bool) l, (forall x, f x = g x) -> filter f l = filter g l.
Proof. intros A f g l H. induction l as [| a l IH]; [auto |]. cbn [filter]. rewrite H, IH. reflexivity. Qed.
Lemma group_of_groups : forall l g gs, NoDup gs ->
  filter (in_group g) (flat_map (fun k => filter (fun e => Nat.eqb (elem_order e) k) l) gs)
  = if existsb (Nat.eqb g) gs then filter (in_group g) l else [].
Proof.
  intros l g gs N. induction N as [| k gs Hk N IH]; cbn [flat_map existsb]; [reflexivity |].
  rewrite filter_app, IH, filter_filter.
  destruct (Nat.eqb_spec g k) as [<- | E].
  - cbn [orb]. assert (X : existsb (Nat.eqb g) gs = false).
    { apply Bool.not_true_is_false. intros X. apply existsb_exists in X. destruct X as (y & Y & X).
      apply Nat.eqb_eq in X. subst. auto. }
    rewrite X, app_nil_r. apply filter_ext'. intros x. rewrite group_order. unfold in_group.
    destruct (Nat.eqb _ _); auto.
  - cbn [orb]. rewrite filter_none; [reflexivity |]. intros x. rewrite group_order. unfold in_group.
    destruct (Nat.eqb_spec (group x) k), (Nat.eqb_spec (group x) g); auto. congruence.
Qed.
Lemma reorder_group : forall l g, filter (in_group g) (reorder_elems l) = filter (in_group g) (dedup_elems [] l).
Proof.
  intros l g. unfold reorder_elems. cbv zeta. rewrite group_of_groups.
  - destruct (existsb _ _) eqn:X; [reflexivity |]. symmetry.
    assert (N : forall x, in_group g x = false).
    { intros x. unfold in_group. destruct (Nat.eqb_spec (group x) g) as [<- | ]; auto.
      exfalso. assert (H := group_le x). revert X. destruct (group x) as [| [| [| [| [| [| [| n]]]]]]]; try discriminate; lia. }
    apply filter_none. exact N.
  - repeat constructor; cbn [In]; intuition discriminate.
Qed.
Lemma reorder_in : forall l x, In x (reorder_elems l) <-> In x (dedup_elems [] l).
Proof.
  intros l x. assert (G : forall m, In x m <-> In x (filter (in_group (group x)) m)).
  { intros m. rewrite filter_In. unfold in_group. rewrite Nat.eqb_refl. tauto. }
  rewrite G, reorder_group, <- G. reflexivity.
Qed.

Lemma groups_sorted : forall l n k a x b y c,
  flat_map (fun g => filter (fun e => Nat.eqb (elem_order e) g) l) (seq k n) = a ++ x :: b ++ y :: c ->
  k <= group x <= group y.
Proof.
  intros l n. induction n as [| n IH]; intros k a x b y c H; cbn [seq flat_map] in H.
  - destruct a; discriminate.
  - assert (G : forall z g, In z (filter (fun e => Nat.eqb (elem_order e) g) l) -> group z = g).
    { intros z g Hz. apply filter_In in Hz. destruct Hz as [_ Hz]. apply Nat.eqb_eq in Hz. now rewrite <- group_order. }
    assert (GT : forall z n k, In z (flat_map (fun g => filter (fun e => Nat.eqb (elem_order e) g) l) (seq k n)) ->
                 k <= group z).
    { intros z n' k' Hz. apply in_flat_map in Hz. destruct Hz as (g & Hg & Hz). apply G in Hz. apply in_seq in Hg. lia. }
    set (u := filter (fun e => Nat.eqb (elem_order e) k) l) in *.
    set (v := flat_map _ (seq (S k) n)) in *.
    destruct (le_lt_dec (List.length u) (List.length a)) as [L1 | L1].
    + assert (X : skipn (List.length u) (u ++ v) = skipn (List.length u) a ++ x :: b ++ y :: c).
      { rewrite H, skipn_app. replace (List.length u - List.length a) with 0 by lia. reflexivity. }
      rewrite skipn_app, Nat.sub_diag, skipn_all in X. apply IH in X. lia.
    + assert (Ix : group x = k).
      { assert (N : nth_error (u ++ v) (List.length a) = Some x).
        { rewrite H, nth_error_app2, Nat.sub_diag; auto. }
        rewrite nth_error_app1 in N; [| auto]. apply nth_error_In in N. eapply G; eauto. }
      assert (Iy : In y (u ++ v)).
      { rewrite H. apply in_or_app. right. right. apply in_or_app. right. now left. }
      split; [lia |]. rewrite Ix. apply in_app_iff in Iy. destruct Iy as [Iy | Iy].
      * apply G in Iy. lia.
      * apply GT in Iy. lia.
Qed.
Lemma reorder_sorted : forall l x y, before x y (reorder_elems l) -> group x <= group y.
Proof. intros l x y (a & b & c & H). apply (groups_sorted _ 7 0) in H. lia. Qed.

Lemma before_cases : forall A (l : list A) x y, In x l -> In y l -> x = y \/ before x y l \/ before y x l.
Proof.
  intros A l x y Hx Hy. apply in_split in Hx. destruct Hx as (a & b & ->).
  apply in_app_iff in Hy. destruct Hy as [Hy | [Hy | Hy]]; [| auto |].
  - apply in_split in Hy. destruct Hy as (c & d & ->). right; right. exists c, d, b. now rewrite <- app_assoc.
  - apply in_split in Hy. destruct Hy as (c & d & ->). right; left. exists a, c, d. reflexivity.
Qed.
Lemma reorder_before : forall l x y, In x (reorder_elems l) -> In y (reorder_elems l) -> group x < group y ->
  before x y (reorder_elems l).
Proof.
  intros l x y Hx Hy G. destruct (before_cases _ _ _ _ Hx Hy) as [-> | [B | B]]; auto; [lia |].
  apply reorder_sorted in B. lia.
Qed.

Definition text_in (set : list str) (x : celem) : Prop := type_definition x /\ In (format_elem x) set.
Lemma dedup_text : forall l set x, In x l ->
  text_in set x \/ exists y, In y (dedup_elems set l) /\ format_elem y = format_elem x.
Proof.
  assert (C : forall e r set x s, format_elem e = s -> ~ In s set ->
    (type_definition e) ->
    (forall set x, In x r -> text_in set x \/ exists y, In y (dedup_elems set r) /\ format_elem y = format_elem x) ->
    In x (e :: r) -> text_in set x \/ exists y, In y (e :: dedup_elems (s :: set) r) /\ format_elem y = format_elem x).
  { intros e r set x s E N T IH [<- | I].
    - right. exists e. split; [now left | auto].
    - destruct (IH (s :: set) x I) as [[T' [K | K]] | (y & I' & E')].
      + right. exists e. split; [now left | congruence].
      + left. split; auto.
      + right. exists y. split; [now right | auto]. }
  induction l as [| e l IH]; intros set x H; [destruct H |]. cbn [dedup_elems].
  destruct e; try (destruct H as [<- | H];
    [right; eexists; split; [now left | reflexivity]
    | destruct (IH set x H) as [? | (y & I & E)]; [auto | right; exists y; split; [now right | auto]]]; fail).
  - destruct (str_in (format_typedef t) set) eqn:S1.
    + destruct H as [<- | H]; [| auto]. left. split; [exact I | apply str_in_spec; exact S1].
    + apply (C (XTypedef t)); cbn; auto. now apply str_in_false.
  - destruct (str_in (format_struct_def s) set) eqn:S1.
    + destruct H as [<- | H]; [| auto]. left. split; [exact I | apply str_in_spec; exact S1].
    + apply (C (XStruct s)); cbn; auto. now apply str_in_false.
Qed.

(** ** The parts of the file *)
Lemma functions_filter : forall l, functions l = functions (filter (in_group 6) l).
Proof.
  unfold functions. induction l as [| e l IH]; [auto |]. cbn [flat_map filter]. rewrite IH.
  destruct e; cbn [in_group group Nat.eqb]; reflexivity.
Qed.
Lemma functions_app : forall a b, functions (a ++ b) = functions a ++ functions b.
Proof. intros. unfold functions. apply flat_map_app. Qed.
Lemma functions_dedup : forall l, functions (reorder_elems l) = functions l.
Proof.
  intros l. rewrite functions_filter, reorder_group.
  assert (T := thinned_filter _ _ (in_group 6) _ _ (dedup_thins l [])).
  apply thinned_all in T.
  - rewrite <- T, <- functions_filter. reflexivity.
  - intros x I. apply filter_In in I. destruct I as [_ I]. destruct x; cbn in *; auto; discriminate.
Qed.
Lemma functions_in : forall l f, In f (functions l) <-> In (XFunc f) l.
Proof.
  intros l f. unfold functions. rewrite in_flat_map. split.
  - intros (e & I & H). destruct e; cbn [In] in H; try tauto. destruct H as [<- | []]. exact I.
  - intros I. exists (XFunc f). split; auto. now left.
Qed.

Lemma synopses_in : forall env imps l e, import_synopses env imps = TrOk l -> In e l -> in_synopsis e = true.
Proof.
  intros env imps. induction imps as [| i r IH]; intros l e H I; cbn [import_synopses] in H.
  - injection H as <-. destruct I.
  - destruct (position _ _); [| discriminate]. destruct (nth_error _ _) as [cm |]; [| discriminate].
    destruct (import_synopses env r) as [l' | |] eqn:E; try discriminate. injection H as <-.
    apply in_app_iff in I. destruct I as [I | I]; [| eauto].
    unfold get_module_synopsis in I. apply filter_In in I. tauto.
Qed.
Lemma dedup_by_in : forall A (key : A -> str) l set x, In x (dedup_by key set l) -> In x l.
Proof.
  intros A key l. induction l as [| a l IH]; intros set x H; cbn [dedup_by] in H; [auto |].
  destruct (str_in _ _); [right; eauto |]. destruct H as [<- | H]; [now left | right; eauto].
Qed.
Lemma imports_in : forall env l e, expand_imports env = TrOk l -> In e l -> in_synopsis e = true.
Proof.
  intros env l e H I. unfold expand_imports in H.
  destruct (import_synopses _ _) as [l' | |] eqn:E; try discriminate. injection H as <-.
  apply dedup_by_in in I. eapply synopses_in; eauto.
Qed.
Lemma functions_none : forall l, (forall f, ~ In (XFunc f) l) -> functions l = [].
Proof.
  intros l H. destruct (functions l) as [| f r] eqn:E; [auto |]. exfalso. apply (H f).
  apply functions_in. rewrite E. now left.
Qed.
Definition helper : cfuncdef := match mk_calloc_or_panic with XFunc f => f | _ => mkCfd true (mkCtn false []) (mkCform [] [] []) (mkCfp [] false) [] end.
Lemma head_functions : forall s, functions (module_head s)
  = if str_in (L "calloc_or_panic") (s_customs s) then [helper] else [].
Proof. intros s. unfold module_head. rewrite !functions_app. destruct (str_in _ _); reflexivity. Qed.
Lemma c_elems_functions : forall S, functions (c_elems S is_numeric)
  = map (c_function S is_numeric) (source_functions (elements S)).
Proof.
  intros S. unfold c_elems, c_function, inside. generalize (module_decls is_numeric (elements S)) as G.
  intros G. unfold source_functions.
  induction (elements S) as [| e l IH]; [reflexivity |]. cbn [flat_map]. rewrite functions_app, map_app, IH. f_equal.
  destruct e as [m | x | a | t | s | v | f]; cbn [c_elem]; try reflexivity.
  - destruct (_ || _); reflexivity.
  - destruct (v_value v); reflexivity.
  - cbv zeta. unfold functions. cbn [flat_map map app]. f_equal. destruct (str_eqb _ _); reflexivity.
Qed.

Lemma module_functions : forall m p cm, translate m p = TrOk cm ->
  (calls_calloc (mod_elements m)
   /\ functions (cm_elements cm) = helper :: map (c_function (site_of m p) is_numeric) (source_functions (mod_elements m)))
  \/ (~ calls_calloc (mod_elements m)
      /\ functions (cm_elements cm) = map (c_function (site_of m p) is_numeric) (source_functions (mod_elements m))).
Proof.
  intros m p cm H. apply translate_target in H. destruct H as (s & imps & _ & X & T & ->). cbn [cm_elements].
  rewrite functions_dedup, !functions_app, head_functions, c_elems_functions.
  rewrite (functions_none imps).
  2: { intros f I. apply (imports_in _ _ _ X) in I. discriminate. }
  apply elements_customs in T. destruct (str_in _ _); cbn [app] in *.
  - left. split; [tauto | reflexivity].
  - right. split; [intros K; apply T in K; discriminate | reflexivity].
Qed.
Lemma helper_is : format_elem (XFunc helper) = helper_text.
Proof. vm_compute. reflexivity. Qed.

Lemma module_layout : forall m p cm, translate m p = TrOk cm ->
  (forall x y, before x y (cm_elements cm) -> group x <= group y)
  /\ exists pre,
       (forall g, thinned type_definition (filter (in_group g) (pre ++ c_elems (site_of m p) is_numeric))
                          (filter (in_group g) (cm_elements cm)))
       /\ (forall x, In x (pre ++ c_elems (site_of m p) is_numeric) ->
             exists y, In y (cm_elements cm) /\ format_elem y = format_elem x).
Proof.
  intros m p cm H. apply translate_target in H. destruct H as (s & imps & _ & X & T & ->). cbn [cm_elements].
  split; [apply reorder_sorted |]. exists (module_head s ++ imps). rewrite <- app_assoc. split.
  - intros g. rewrite reorder_group. apply thinned_filter, dedup_thins.
  - intros x I. destruct (dedup_text _ [] x I) as [[_ []] | (y & Y & E)]. exists y. split; auto.
    now apply reorder_in.
Qed.

Lemma own_in : forall m p cm e, translate m p = TrOk cm -> In e (c_elems (site_of m p) is_numeric) ->
  ~ type_definition e -> In e (cm_elements cm).
Proof.
  intros m p cm e H I N. apply translate_target in H. destruct H as (s & imps & _ & X & T & ->). cbn [cm_elements].
  apply reorder_in. eapply thinned_kept; [apply dedup_thins | | exact N]. rewrite !in_app_iff. auto.
Qed.

Lemma module_prototypes : forall m p cm f, translate m p = TrOk cm -> In f (source_functions (mod_elements m)) ->
  ~ named_main f ->
  let proto := XForwardFunc (prototype_of (c_function (site_of m p) is_numeric f)) in
  In proto (cm_elements cm)
  /\ forall g, In (XFunc g) (cm_elements cm) -> before proto (XFunc g) (cm_elements cm).
Proof.
  intros m p cm f H I N proto.
  assert (P : In proto (cm_elements cm)).
  { eapply own_in; [exact H | | cbn; tauto]. unfold c_elems. apply in_flat_map.
    exists (MFunc f). split.
    - unfold source_functions in I. apply in_flat_map in I. destruct I as (e & I & J).
      destruct e; cbn [In] in J; try tauto. destruct J as [<- | []]. exact I.
    - cbn [c_elem]. cbv zeta. right. destruct (str_eqb_spec (f_name (fd_form f)) (L "main")); [tauto |].
      now left. }
  split; [exact P |]. intros g Hg. revert P Hg.
  apply translate_target in H. destruct H as (s & imps & _ & X & T & ->). cbn [cm_elements].
  intros P Hg. apply reorder_before; auto. cbn. lia.
Qed.

(** ** Static *)
Lemma app_prefix_main : forall n t, t <> [] -> hd 0%N t = 91%N -> n ++ t <> L "main".
Proof.
  intros n t H1 H2 E. destruct t as [| c t]; [auto |]. cbn [hd] in H2. subst c.
  assert (I : In 91%N (L "main")) by (rewrite <- E; apply in_or_app; right; now left).
  cbn in I. intuition discriminate.
Qed.
Lemma global_not_main : forall id x, global_name id x <> L "main".
Proof.
  intros id x E. unfold global_name in E.
  assert (I : In 95%N (L "main")) by (rewrite <- E; rewrite !in_app_iff; right; left; now left).
  cbn in I. intuition discriminate.
Qed.
Lemma form_text_main : forall S G name f, format_form (c_form S G name f) = L "main" <->
  name = L "main" /\ f_hops f = 0 /\ f_indexes f = [].
Proof.
  intros S G name f. unfold format_form, c_form. cbn [cf_stars cf_name cf_indexes]. split.
  - intros H. destruct (f_hops f) as [| n]; [| discriminate]. cbn [repeat app] in H.
    destruct (f_indexes f) as [| i l].
    + cbn [map flat_map] in H. rewrite app_nil_r in H. auto.
    + exfalso. revert H. apply app_prefix_main; destruct i; cbn; auto; discriminate.
  - intros (-> & -> & ->). reflexivity.
Qed.
Lemma head_name_main : forall S G x, head_name S G x = L "main" <-> x = L "main".
Proof.
  intros S G x. unfold head_name. destruct (look x G) as [d |]; [| tauto].
  destruct (str_eqb_spec x (L "main")) as [-> | N].
  - rewrite Bool.andb_false_r. tauto.
  - rewrite Bool.andb_true_r. destruct (d_pub d); [| tauto]. split; [| tauto]. intros H. now apply global_not_main in H.
Qed.

Definition linkage_text (f : funcdecl) : str :=
  if fd_pub f || (str_eqb (f_name (fd_form f)) (L "main") && Nat.eqb (f_hops (fd_form f)) 0
                  && match f_indexes (fd_form f) with [] => true | _ => false end)
  then [] else L "static ".
Lemma linkage_static : forall S numeric f,
  (if cfd_static (c_function S numeric f) && negb (str_eqb (format_form (cfd_form (c_function S numeric f))) (L "main"))
   then L "static " else []) = linkage_text f.
Proof.
  intros S numeric f. unfold c_function, linkage_text. cbv zeta. cbn [cfd_static cfd_form].
  set (G := inside _ _ _). destruct (fd_pub f); [reflexivity |]. cbn [negb andb orb].
  destruct (str_eqb_spec (format_form (c_form S G (head_name S G (f_name (fd_form f))) (fd_form f))) (L "main")) as [E | E].
  - apply form_text_main in E. destruct E as (E & E1 & E2). apply head_name_main in E. rewrite E, E1, E2. reflexivity.
  - cbn [negb]. destruct (str_eqb_spec (f_name (fd_form f)) (L "main")) as [E1 | E1]; [| reflexivity].
    destruct (Nat.eqb_spec (f_hops (fd_form f)) 0) as [E2 | E2]; [| reflexivity].
    destruct (f_indexes (fd_form f)) eqn:E3; [| reflexivity]. exfalso. apply E. apply form_text_main.
    repeat split; auto. now apply head_name_main.
Qed.

(** ** Statements *)
Definition chain_of (S : site) (G : list decl) (v : expr) (def : option (list stmt)) :=
  fix chain (cs : list (list switch_value * list stmt)) : cstmt :=
    match cs with
    | [] => KBlock []
    | [c] => KIf (c_any S G (c_expr S G v) (fst c)) (c_stmts S G (snd c)) (option_map (c_stmts S G) def)
    | c :: r => KIf (c_any S G (c_expr S G v) (fst c)) (c_stmts S G (snd c)) (Some [chain r])
    end.
Lemma c_switch_str : forall S G v cs d, c_stmt S G (SSwitch true v cs d) = chain_of S G v d cs.
Proof. intros. reflexivity. Qed.
Lemma chain_case : forall S G v d k cs c, In c cs -> c_occurs k (c_stmts S G (snd c)) ->
  c_occurs k [chain_of S G v d cs].
Proof.
  intros S G v d k cs c I H. induction cs as [| x [| y cs] IH]; [destruct I | |].
  - destruct I as [-> | []]. cbn [chain_of]. now apply COcc_then.
  - change (c_occurs k [KIf (c_any S G (c_expr S G v) (fst x)) (c_stmts S G (snd x)) (Some [chain_of S G v d (y :: cs)])]).
    destruct I as [-> | I]; [now apply COcc_then |]. apply COcc_else. auto.
Qed.
Lemma chain_default : forall S G v k d cs, cs <> [] -> c_occurs k (c_stmts S G d) ->
  c_occurs k [chain_of S G v (Some d) cs].
Proof.
  intros S G v k d cs N H. induction cs as [| x [| y cs] IH]; [tauto | |].
  - cbn [chain_of option_map]. now apply COcc_else.
  - change (c_occurs k [KIf (c_any S G (c_expr S G v) (fst x)) (c_stmts S G (snd x)) (Some [chain_of S G v (Some d) (y :: cs)])]).
    apply COcc_else. apply IH. discriminate.
Qed.
Lemma c_occurs_first : forall k x r, c_occurs k [x] -> c_occurs k (x :: r).
Proof.
  intros k x r H. inversion H as [r' E | y r' H' E | l r' H' E | c b e r' H' E | c b e r' H' E | i c a b r' H' E
    | c b r' H' E | v cs d c r' I H' E | v cs d r' H' E]; subst; try (econstructor; eauto; fail).
  inversion H'.
Qed.
Lemma occurs_translated : forall S G' st G l, occurs G' st G l -> ok_stmts S G l ->
  c_occurs (c_stmt S G' st) (c_stmts S G l).
Proof.
  intros S G' st G l H. induction H as [r | G s r H IH | G c b e r H IH | G c b e r H IH | G i c a b r H IH
    | G c b r H IH | G k v cs d c r I H IH | G k v cs d r H IH]; intros K; cbn [ok_stmts] in K; destruct K as [K K2];
    cbn [c_stmts].
  - apply COcc_here.
  - apply COcc_after. auto.
  - change (ok_value S G c /\ ok_stmts S G b /\ all_opt (ok_stmts S G) e) in K. apply COcc_then. apply IH. tauto.
  - change (ok_value S G c /\ ok_stmts S G b /\ ok_stmts S G e) in K. apply COcc_else. apply IH. tauto.
  - apply COcc_for. apply IH. exact (proj2 (proj2 (proj2 K))).
  - apply COcc_while. apply IH. exact (proj2 K).
  - assert (B : ok_stmts S G (snd c)).
    { destruct K as (_ & K & _). apply (proj1 (all_in _ _ _) K) in I. apply I. }
    destruct k.
    + rewrite c_switch_str. apply c_occurs_first. eapply chain_case; eauto.
    + eapply COcc_case; [apply in_map; exact I |]. cbn [snd]. auto.
  - assert (B : ok_stmts S G d) by exact (proj1 (proj2 (proj2 K))).
    destruct k.
    + rewrite c_switch_str. apply c_occurs_first. apply chain_default; auto. intros ->. apply (proj2 (proj2 (proj2 K))); auto.
    + apply COcc_default. auto.
Qed.

Lemma in_force_shows : forall s G, in_force s G -> shows s G.
Proof. intros s G H x. rewrite look_ctx. symmetry. apply H. Qed.
Lemma expr_preserved : forall m p s s' e t c G, tr_expr (env_of m p) e s = TrOk ((t, c), s') -> in_force s G ->
  c = c_expr (site_of m p) G e.
Proof.
  intros m p s s' e t c G H F. apply in_force_shows in F.
  apply (tr_expr_target _ _ (site_describes m p) _ _ _ _ _ G) in H; [tauto | exact F].
Qed.

Lemma source_in : forall f elems, In f (source_functions elems) <-> In (MFunc f) elems.
Proof.
  intros f elems. unfold source_functions. rewrite in_flat_map. split.
  - intros (e & I & J). destruct e; cbn [In] in J; try tauto. destruct J as [<- | []]. exact I.
  - intros I. exists (MFunc f). split; [exact I | now left].
Qed.
Lemma function_in : forall m p cm f, translate m p = TrOk cm -> In (MFunc f) (mod_elements m) ->
  In (XFunc (c_function (site_of m p) is_numeric f)) (cm_elements cm).
Proof.
  intros m p cm f H I. eapply own_in; [exact H | | cbn; tauto]. unfold c_elems. apply in_flat_map.
  exists (MFunc f). split; [exact I |]. cbn [c_elem]. cbv zeta. now left.
Qed.
Lemma statement_in : forall m p cm f G st, translate m p = TrOk cm ->
  stmt_of is_numeric (mod_elements m) f G st ->
  In (XFunc (c_function (site_of m p) is_numeric f)) (cm_elements cm)
  /\ c_occurs (c_stmt (site_of m p) G st) (cfd_body (c_function (site_of m p) is_numeric f)).
Proof.
  intros m p cm f G st H [I O]. split; [eapply function_in; eauto |].
  assert (X : exists cm, translate m p = TrOk cm) by eauto.
  apply accepted_iff in X. destruct X as [X _]. unfold ok_elems in X. apply (proj1 (all_in _ _ _) X) in I.
  cbn [c_function cfd_body]. eapply occurs_translated; [exact O |]. apply I.
Qed.
Lemma panic_in : forall m p cm f G q n args, translate m p = TrOk cm ->
  stmt_of is_numeric (mod_elements m) f G (SExpr (ECall q (EName n) args)) -> is_name (EName n) "panic" = true ->
  In (XFunc (c_function (site_of m p) is_numeric f)) (cm_elements cm)
  /\ c_occurs (c_panic (site_of m p) (ns_pos n) (map (c_expr (site_of m p) G) args))
              (cfd_body (c_function (site_of m p) is_numeric f)).
Proof.
  intros m p cm f G q n args H O E. apply (statement_in _ _ _ _ _ _ H) in O.
  destruct O as [I O]. split; [exact I |].
  replace (c_panic (site_of m p) (ns_pos n) (map (c_expr (site_of m p) G) args))
    with (c_stmt (site_of m p) G (SExpr (ECall q (EName n) args))); [exact O |].
  cbn [c_stmt]. rewrite E. reflexivity.
Qed.
Lemma linkage_is : forall f, linkage f (linkage_text f).
Proof.
  intros f. unfold linkage, linkage_text, plain_main, named_main. destruct (fd_pub f); [left; auto |]. cbn [orb].
  destruct (str_eqb_spec (f_name (fd_form f)) (L "main")) as [E1 | E1]; cbn [andb]; [| right; tauto].
  destruct (Nat.eqb_spec (f_hops (fd_form f)) 0) as [E2 | E2]; cbn [andb]; [| right; tauto].
  destruct (f_indexes (fd_form f)); [left; auto | right]. repeat split; auto. intros (_ & _ & X). discriminate.
Qed.
Lemma function_text : forall m p cm f, translate m p = TrOk cm -> In (MFunc f) (mod_elements m) ->
  let c := c_function (site_of m p) is_numeric f in
  In (XFunc c) (cm_elements cm)
  /\ (cf_name (cfd_form c) = L "main" <-> named_main f)
  /\ exists static, linkage f static
     /\ format_elem (XFunc c) = static ++ format_type (cfd_type c) ++ L " " ++ format_form (cfd_form c)
          ++ L " " ++ fmt_func_params (cfd_params c) ++ L " " ++ format_body (cfd_body c)
     /\ format_elem (XForwardFunc (prototype_of c))
        = static ++ format_type (cfd_type c) ++ L " " ++ format_form (cfd_form c)
          ++ L " " ++ fmt_func_params (cfd_params c) ++ L ";" ++ newline.
Proof.
  intros m p cm f H I c. split; [eapply function_in; eauto |]. split.
  - unfold c, c_function. cbn [cfd_form c_form cf_name]. apply head_name_main.
  - exists (linkage_text f). split; [apply linkage_is |]. rewrite <- (linkage_static (site_of m p) is_numeric f).
    split; reflexivity.
Qed.
