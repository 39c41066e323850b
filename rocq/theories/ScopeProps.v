(** Proofs of the scoping properties. *)
From Coq Require Import Sorting.Permutation.
From Verif Require Import Base BaseFacts Buf Nodes NodeQueries NodeInd Types Cspec Resolve Cursor
  Preparser Parser CAst FormatChe FormatC Translator SpecScope ScopeFacts TrFacts TrScope SpecExports ExportFacts.

Lemma translate_run : forall m p cm, translate m p = TrOk cm ->
  exists s, run (env_ok (env_of m p)) (in_module (mod_elements m)) ([], []) (abs s)
            /\ check_imports (env_of m p) s = None.
Proof.
  intros m p cm H. unfold translate in H.
  destruct (tr_elements _ _ _) as [[b s] | |] eqn:E; try discriminate.
  destruct (check_imports _ s) eqn:C; [discriminate |].
  exists s. split; auto. eapply tr_elements_sim in E. exact E.
Qed.

Lemma every_ref_weaken : forall (P Q : list str -> ref -> Prop) l vis,
  (forall v r, P v r -> Q v r) -> every_ref P vis l -> every_ref Q vis l.
Proof. intros P Q l vis H. induction 1; constructor; auto. Qed.

Lemma env_ok_vis : forall env v v' r, (forall x, In x v <-> In x v') -> env_ok env v r -> env_ok env v' r.
Proof.
  intros env v v' r E [H | [[H1 H2] | H]]; [left; auto | right; left | right; right; auto].
  split; auto. destruct r; auto. rewrite <- E. auto.
Qed.

Lemma translate_refs : forall m p cm, translate m p = TrOk cm ->
  every_ref (env_ok (env_of m p)) [] (in_module (mod_elements m)).
Proof.
  intros m p cm H. apply translate_run in H. destruct H as (s & H & _).
  apply run_refs in H; [exact H |]. intros; eapply env_ok_vis; eauto.
Qed.

Lemma find_sym_in : forall x, find_sym x <> None <-> In x (map cs_name csym_list).
Proof.
  intros x. unfold find_sym. split.
  - intros H. destruct (find _ _) as [c |] eqn:E; [| congruence]. apply find_some in E.
    destruct E as [I E]. apply str_eqb_eq in E. subst x. apply in_map. now apply in_rev.
  - intros H E. apply in_map_iff in H. destruct H as (c & <- & I). apply in_rev in I.
    apply (find_none _ _ E) in I. rewrite str_eqb_refl in I. discriminate.
Qed.

Lemma defined_names : forall m p cm, translate m p = TrOk cm ->
  every_ref (fun vis r => match r with
                          | RName n => ns_ns n = [] -> In (ns_name n) vis \/ In (ns_name n) (map cs_name csym_list)
                          | RType _ => True
                          end) [] (in_module (mod_elements m)).
Proof.
  intros m p cm H. apply translate_refs in H. eapply every_ref_weaken; [| exact H].
  intros v [n | n] Hr; [| exact I]. intros E. destruct Hr as [X | [[_ X] | [X _]]].
  - cbn [ref_name] in X. rewrite E in X. discriminate.
  - cbn [ref_name] in X. rewrite find_sym_in in X. auto.
  - cbn [ref_name] in X. congruence.
Qed.

Lemma no_unused : forall m p cm, translate m p = TrOk cm -> all_used (in_module (mod_elements m)).
Proof.
  intros m p cm H. apply translate_run in H. destruct H as (s & H & _).
  unfold in_module in *. inversion H as [| | | l' l scs ns sc scs1 ns1 m' H1 Hf H2]; subst.
  constructor; [| constructor]. eapply run_used; eauto; reflexivity.
Qed.

Lemma no_duplicates : forall m p cm, translate m p = TrOk cm -> declared_once [] (in_module (mod_elements m)).
Proof.
  intros m p cm H. apply translate_run in H. destruct H as (s & H & _).
  unfold in_module in *. inversion H as [| | | l' l scs ns sc scs1 ns1 m' H1 Hf H2]; subst.
  constructor; [| constructor]. eapply run_once; eauto; [reflexivity |]. intros; reflexivity.
Qed.

Lemma imports_used : forall m p cm imp, translate m p = TrOk cm -> In imp (mi_imports (tp_mod p)) ->
  exists r, refers r (in_module (mod_elements m)) /\ ns_ns (ref_name r) = r_ns imp.
Proof.
  intros m p cm imp H I. apply translate_run in H. destruct H as (s & H & C).
  unfold check_imports in C. destruct (find _ _) eqn:F; [discriminate |].
  apply (find_none _ _ F) in I. apply Bool.negb_false_iff, str_in_spec in I.
  destruct (run_ns _ _ _ _ H _ I) as [[] | (r & A & B & _)]. eauto.
Qed.

(** The module an import clause of [p] leads to. *)
Lemma find_ns_spec : forall env ns h m, find_ns env ns = Some (h, m) ->
  exists imp i, In imp (mi_imports (en_mod env)) /\ r_ns imp = ns
    /\ nth_error (en_heads env) i = Some h /\ nth_error (en_mods env) i = Some m
    /\ mi_filepath h = r_path imp.
Proof.
  intros env ns h m H. unfold find_ns in H.
  destruct (find _ (mi_imports (en_mod env))) as [imp |] eqn:F; [| discriminate].
  destruct (position _ _) as [i |] eqn:P; [| discriminate].
  destruct (nth_error (en_heads env) i) as [h' |] eqn:N1; [| discriminate].
  destruct (nth_error (en_mods env) i) as [m' |] eqn:N2; [| discriminate].
  injection H as -> ->. apply find_some in F. destruct F as [I F]. apply str_eqb_eq in F.
  exists imp, i. repeat split; auto.
  clear - P N1. revert i P N1. induction (en_heads env) as [| x l IH]; intros i P N1; [discriminate |].
  cbn [position] in P. destruct (str_eqb_spec (mi_filepath x) (r_path imp)).
  - injection P as <-. cbn in N1. congruence.
  - destruct (position _ l) as [j |] eqn:Pj; [| discriminate]. injection P as <-. eapply IH; eauto.
Qed.

Lemma qualified_pub : forall m p cm, translate m p = TrOk cm ->
  (forall x, In x (tp_mods p) -> mod_exports x = get_exports (mod_elements x)) ->
  every_ref (fun _ r => let n := ref_name r in ns_ns n <> [] -> ns_ns n <> L "OS" ->
     exists imp i h x, In imp (mi_imports (tp_mod p)) /\ r_ns imp = ns_ns n
       /\ nth_error (tp_heads p) i = Some h /\ nth_error (tp_mods p) i = Some x
       /\ mi_filepath h = r_path imp
       /\ match r with
          | RName _ => pub_value (mod_elements x) (ns_name n)
          | RType _ => pub_element (mod_elements x) (ns_name n)
          end) [] (in_module (mod_elements m)).
Proof.
  intros m p cm H Hx. apply translate_refs in H. eapply every_ref_weaken; [| exact H].
  intros v r Hr n N1 N2. destruct Hr as [X | [[X _] | (_ & _ & h & x & F & X)]]; try contradiction.
  apply find_ns_spec in F. destruct F as (imp & i & I & E & A & B & C). cbn [env_of en_mod en_heads en_mods] in *.
  exists imp, i, h, x. repeat split; auto.
  assert (Ex := Hx x (nth_error_In _ _ B)). rewrite get_exports_spec in Ex. rewrite Ex in X.
  destruct r as [q | q]; cbn [ref_name] in *.
  - cbn [ex_consts ex_fns] in X. rewrite in_constants, in_functions in X. exact X.
  - apply exports_has_spec in X. cbn [ex_consts ex_fns ex_types] in X.
    rewrite in_constants, in_functions, in_types in X. unfold pub_element, pub_value. tauto.
Qed.

Lemma assoc_in : forall V (k : str) (m : list (str * V)) v, assoc k m = Some v -> In (k, v) m.
Proof.
  induction m as [| [k' v'] r IH]; intros v H; [discriminate |]. cbn [assoc] in H.
  destruct (str_eqb_spec k' k) as [-> | _]; [injection H as ->; left; auto | right; auto].
Qed.
Lemma in_struct_map : forall elems x s, In (x, s) (struct_map elems) -> In (MStruct s) elems /\ st_name s = x.
Proof.
  induction elems as [| e r IH]; intros x s H; [destruct H |].
  destruct e; cbn [struct_map] in H; try (apply IH in H; destruct H; split; [right |]; auto; fail).
  apply in_app_or in H. destruct H as [H | [H | []]].
  - apply IH in H. destruct H; split; [right |]; auto.
  - injection H as <- <-. split; auto. left. auto.
Qed.
Lemma in_typedef_map : forall elems x t, In (x, t) (typedef_map elems) ->
  (exists a, In (MStructAlias a) elems /\ sa_typename a = x) \/ (exists a, In (MTypedef a) elems /\ td_alias a = x).
Proof.
  induction elems as [| e r IH]; intros x s H; [destruct H |].
  assert (D : In (x, s) (typedef_map r) ->
    (exists a, In (MStructAlias a) (e :: r) /\ sa_typename a = x)
    \/ (exists a, In (MTypedef a) (e :: r) /\ td_alias a = x)).
  { intros H'. apply IH in H'. destruct H' as [(a & A & B) | (a & A & B)]; [left | right]; exists a; split; auto; now right. }
  destruct e; cbn [typedef_map] in H; try exact (D H);
    apply in_app_or in H; (destruct H as [H | [H | []]]; [exact (D H) |]); injection H as <- <-.
  - left. eexists; split; [left; eauto | auto].
  - right. eexists; split; [left; eauto | auto].
Qed.

Lemma known_types : forall m p cm, translate m p = TrOk cm ->
  every_ref (fun _ r => match r with
    | RName _ => True
    | RType n => ns_ns n = [] ->
        has_type (ns_name n) = true
        \/ (exists s, In (MStruct s) (mod_elements m) /\ st_name s = ns_name n)
        \/ (exists a, In (MStructAlias a) (mod_elements m) /\ sa_typename a = ns_name n)
        \/ (exists t, In (MTypedef t) (mod_elements m) /\ td_alias t = ns_name n)
        \/ In (ns_name n) (mi_typedefs (tp_mod p))
    end) [] (in_module (mod_elements m)).
Proof.
  intros m p cm H. apply translate_refs in H. eapply every_ref_weaken; [| exact H].
  intros v [n | n] Hr; [exact I |]. intros E. destruct Hr as [X | [[_ X] | [X _]]]; cbn [ref_name] in X; try congruence.
  - rewrite E in X. discriminate.
  - unfold find_type in X. destruct (has_type (ns_name n)); [auto |]. right.
    cbn [env_of en_structs en_typedefs en_mod] in X.
    destruct (assoc _ (struct_map _)) as [s |] eqn:A.
    + apply assoc_in, in_struct_map in A. left. exists s. tauto.
    + destruct (assoc _ (typedef_map _)) as [t |] eqn:B.
      * apply assoc_in, in_typedef_map in B. right. destruct B; auto.
      * destruct (str_in _ _) eqn:C; [| congruence]. apply str_in_spec in C. auto.
Qed.

(** ** Lookup *)

(** The states the translator goes through. *)
Inductive reachable (env : trenv) : trst -> Prop :=
| R_start : reachable env st0
| R_begin s s' : reachable env s -> begin_scope s = TrOk (tt, s') -> reachable env s'
| R_end s s' : reachable env s -> end_scope env s = TrOk (tt, s') -> reachable env s'
| R_add s x p b t s' : reachable env s -> add_binding x p b t s = TrOk (tt, s') -> reachable env s'
| R_mark s x b s' : reachable env s -> mark_binding_use x s = TrOk (b, s') -> reachable env s'
| R_ns s n s' : reachable env s -> use_ns n s = TrOk (tt, s') -> reachable env s'
| R_custom s c s' : reachable env s -> use_custom c s = TrOk (tt, s') -> reachable env s'.

Definition distinct (s : trst) : Prop := Forall (fun sc => NoDup (map b_name sc)) (s_scopes s).

Lemma mark_last_names : forall x sc sc', mark_last x sc = Some sc' -> map b_name sc' = map b_name sc.
Proof.
  induction sc as [| b r IH]; intros sc' H; [discriminate |]. cbn [mark_last] in H.
  destruct (mark_last x r) eqn:E.
  - injection H as <-. cbn [map]. f_equal. auto.
  - destruct (str_eqb _ _); [| discriminate]. injection H as <-. reflexivity.
Qed.
Lemma mark_scopes_distinct : forall x scs r, mark_scopes x scs = Some r ->
  Forall (fun sc => NoDup (map b_name sc)) scs -> Forall (fun sc => NoDup (map b_name sc)) r.
Proof.
  induction scs as [| sc l IH]; intros r H D; [discriminate |]. cbn [mark_scopes] in H.
  inversion D; subst. destruct (mark_last x sc) eqn:E.
  - injection H as <-. constructor; auto. now rewrite (mark_last_names _ _ _ E).
  - destruct (mark_scopes x l); [| discriminate]. injection H as <-. constructor; auto.
Qed.
Lemma reachable_distinct : forall env s, reachable env s -> distinct s.
Proof.
  unfold distinct. induction 1 as [| s s' _ IH H | s s' _ IH H | s x p b t s' _ IH H | s x b s' _ IH H | s n s' _ IH H | s c s' _ IH H].
  - constructor.
  - injection H as <-. constructor; auto. constructor.
  - unfold end_scope in H. destruct (s_scopes s); [discriminate |]. destruct (find _ _); [discriminate |].
    injection H as <-. now inversion IH.
  - unfold add_binding in H. destruct (s_scopes s) as [| sc l]; [discriminate |].
    destruct (existsb _ _) eqn:E; [discriminate |]. injection H as <-. inversion IH; subst. constructor; auto.
    cbn [s_scopes]. rewrite map_app. cbn [map b_name].
    apply (Permutation_NoDup (l := x :: map b_name sc)); [apply Permutation_cons_append |].
    constructor; auto. intros I. apply in_map_iff in I. destruct I as (b' & <- & I).
    assert (existsb (fun b0 => str_eqb (b_name b0) (b_name b')) sc = true); [| congruence].
    apply existsb_exists. exists b'. split; auto. apply str_eqb_refl.
  - unfold mark_binding_use in H. destruct (mark_scopes x (s_scopes s)) eqn:E; injection H as <- <-; auto.
    eapply mark_scopes_distinct; eauto.
  - injection H as <-. auto.
  - injection H as <-. auto.
Qed.

Lemma find_mark_scope : forall x sc b, NoDup (map b_name sc) -> find_in_scope x sc = Some b ->
  exists l r, sc = l ++ b :: r /\ b_name b = x /\ mark_last x sc = Some (l ++ set_used b :: r)
    /\ ~ In x (map b_name l) /\ ~ In x (map b_name r).
Proof.
  unfold find_in_scope. induction sc as [| y sc IH]; intros b D H; [discriminate |]. cbn [find] in H.
  cbn [map] in D. inversion D; subst.
  destruct (str_eqb_spec (b_name y) x) as [E | E].
  - injection H as ->. exists [], sc. cbn [app mark_last].
    assert (N : mark_last x sc = None).
    { destruct (mark_last x sc) eqn:M; auto. apply mark_last_in in M. unfold names in M.
      rewrite map_map in M. subst x. contradiction. }
    rewrite N. subst x. rewrite str_eqb_refl. repeat split; auto.
  - destruct (IH b H3 H) as (l & r & -> & A & B & C1 & C2). exists (y :: l), r. cbn [app mark_last map In].
    rewrite B. repeat split; auto. intros [? | ?]; auto.
Qed.
Lemma find_none_mark : forall x sc, find_in_scope x sc = None -> mark_last x sc = None /\ ~ In x (map b_name sc).
Proof.
  unfold find_in_scope. induction sc as [| y sc IH]; intros H; [auto |]. cbn [find] in H.
  destruct (str_eqb_spec (b_name y) x) as [E | E]; [discriminate |].
  destruct (IH H) as [A B]. cbn [mark_last map In]. rewrite A. apply str_eqb_neq in E as E'. rewrite E'.
  split; auto. intros [? | ?]; auto.
Qed.

Lemma lookup_marks : forall env s x b, reachable env s -> find_binding x s = Some b ->
  exists inner before after outer,
    s_scopes s = inner ++ (before ++ b :: after) :: outer
    /\ b_name b = x
    /\ ~ In x (map b_name (List.concat inner)) /\ ~ In x (map b_name before) /\ ~ In x (map b_name after)
    /\ mark_binding_use x s =
       TrOk (true, mkSt (inner ++ (before ++ set_used b :: after) :: outer) (s_ns s) (s_customs s)).
Proof.
  intros env s x b R H. apply reachable_distinct in R. unfold distinct in R.
  unfold find_binding, mark_binding_use in *.
  assert (G : exists inner before after outer,
    s_scopes s = inner ++ (before ++ b :: after) :: outer
    /\ b_name b = x
    /\ ~ In x (map b_name (List.concat inner)) /\ ~ In x (map b_name before) /\ ~ In x (map b_name after)
    /\ mark_scopes x (s_scopes s) = Some (inner ++ (before ++ set_used b :: after) :: outer)).
  { induction (s_scopes s) as [| sc l IH]; [discriminate |]. cbn [find_in_scopes] in H. inversion R; subst.
    destruct (find_in_scope x sc) as [b' |] eqn:F.
    - injection H as ->. destruct (find_mark_scope _ _ _ H2 F) as (bf & af & -> & A & B & C1 & C2).
      exists [], bf, af, l. cbn [app List.concat map mark_scopes]. rewrite B. repeat split; auto.
    - destruct (find_none_mark _ _ F) as [M N].
      destruct (IH H3 H) as (inn & bf & af & out & -> & A & B1 & B2 & B3 & C).
      exists (sc :: inn), bf, af, out. cbn [app mark_scopes]. rewrite M, C. cbn [option_map List.concat].
      repeat split; auto. rewrite map_app, in_app_iff. tauto. }
  destruct G as (inn & bf & af & out & A & B & C1 & C2 & C3 & D). rewrite D. eauto 12.
Qed.
