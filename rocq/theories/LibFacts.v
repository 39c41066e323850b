(** Calls of library functions. *)
From Verif Require Import Base BaseFacts Buf Nodes NodeQueries Types Cspec Resolve Cursor Preparser Parser Translator
  CAst SpecTypes SpecDecl SpecTyping SpecAccept SpecModule SpecTarget SpecLib TargetFacts ElabFacts TypingFacts AcceptFacts TargetProps TypeProps.

(** Functions whose declaration in the table differs from the standard. *)
Definition misdeclared : list string := ["abort"; "setvbuf"; "strtof"; "strtold"]%string.

Definition is_ellipsis (t : ty) : bool :=
  match ty_ops t with [] => str_eqb (base_fmt (ty_base t)) (L "...") | _ => false end.
Definition arity (params : list ty) : nat * bool :=
  match rev params with
  | [] => (0, false)
  | t :: r => if is_ellipsis t then (List.length r, true) else (S (List.length r), false)
  end.
Lemma is_ellipsis_iff t : is_ellipsis t = true <-> ellipsis t.
Proof.
  unfold is_ellipsis, ellipsis. destruct (ty_ops t); [rewrite str_eqb_eq; tauto|]. split; [discriminate|]. intros [H _]. discriminate.
Qed.
Lemma arity_spec params k : arity_ok params k <-> c_takes (arity params) k.
Proof.
  destruct params as [|x l _] using rev_ind.
  - cbn. unfold arity_ok. split.
    + intros [(f & e & E & _)|[_ H]]; [destruct f; discriminate|exact H].
    + intros ->. right. split; [|reflexivity]. intros f e E. destruct f; discriminate.
  - unfold arity, c_takes. rewrite rev_app_distr. cbn [rev app]. rewrite rev_length.
    destruct (is_ellipsis x) eqn:Ex; cbn [fst snd].
    + apply is_ellipsis_iff in Ex. split.
      * intros [(f & e & E & _ & H)|[H _]]; [|now destruct (H l x eq_refl)]. apply app_inj_tail in E as [-> ->]. exact H.
      * intros H. left. eauto.
    + assert (Hx : ~ ellipsis x) by (rewrite <- is_ellipsis_iff; congruence). split.
      * intros [(f & e & E & He & H)|[_ H]]; [apply app_inj_tail in E as [-> ->]; contradiction|].
        rewrite app_length in H. cbn in H. lia.
      * intros H. right. split; [|rewrite app_length; cbn; lia]. intros f e E. apply app_inj_tail in E as [-> ->]. exact Hx.
Qed.

(** The table, checked. *)
Definition entry_ok (x : string * (nat * bool)) : bool :=
  string_in (fst x) misdeclared ||
  match find_sym (lit (fst x)) with
  | Some s => match ty_ops (cs_t s) with
              | TCall params :: _ => Nat.eqb (fst (arity params)) (fst (snd x)) && Bool.eqb (snd (arity params)) (snd (snd x))
              | _ => false
              end
  | None => false
  end.
Lemma entries_ok : forallb entry_ok prototypes = true.
Proof. vm_compute. reflexivity. Qed.
Lemma table_proto f proto : In (f, proto) prototypes -> ~ In f misdeclared -> exists s params r,
  find_sym (lit f) = Some s /\ ty_ops (cs_t s) = TCall params :: r /\ arity params = proto.
Proof.
  intros Hi Hn. pose proof entries_ok as H. rewrite forallb_forall in H. specialize (H _ Hi). unfold entry_ok in H. cbn [fst snd] in H.
  apply orb_true_iff in H as [H|H].
  - exfalso. apply Hn. unfold string_in in H. apply existsb_exists in H as (x & Hx & E). apply String.eqb_eq in E. now subst.
  - destruct (find_sym (lit f)) as [s|]; [|discriminate]. destruct (ty_ops (cs_t s)) as [|o r] eqn:E; [discriminate|]. destruct o; try discriminate.
    apply andb_true_iff in H as [H1 H2]. apply Nat.eqb_eq in H1. apply eqb_prop in H2. exists s, args, r. split; [reflexivity|]. split; [exact E|].
    destruct (arity args), proto. cbn in *. congruence.
Qed.
Lemma library_calls m p s G q n args f proto : in_force s G -> ns_ns n = [] -> ns_name n = lit f -> look (lit f) G = None ->
  In (f, proto) prototypes -> ~ In f misdeclared ->
  accepted_at m p s (ECall q (EName n) args) <-> Forall (accepted_at m p s) args /\ c_takes proto (List.length args).
Proof.
  intros HG Hns Hn Hl Hi Hm. destruct (table_proto f proto Hi Hm) as (sym & params & r & Hf & Ho & Ha).
  apply in_force_shows in HG. rewrite <- HG in Hl. rewrite <- Hn in *.
  assert (Hc : is_name (EName n) "calloc!" = false).
  { cbn [is_name]. rewrite Hns, Hn. destruct (str_eqb_spec (lit f) (L "calloc!")) as [E|E]; [|now rewrite ?andb_false_r].
    exfalso. apply lit_inj in E. subst f. cbn in Hi. intuition discriminate. }
  unfold accepted_at. split.
  - intros (t & H). unfold has_type_at in H. rewrite typed_here in H. cbn [typed] in H. rewrite Hc in H. destruct H as (Hargs & tf & Hf' & Hcall).
    split.
    + rewrite all_in in Hargs. apply Forall_forall. intros a Hin. destruct (Hargs a Hin) as (ta & Hta). exists ta. now apply typed_here.
    + inversion Hf' as [E|d E1 E2|s0 E1 E2 E3|h md E1|h md be fd af E1]; subst; try congruence; try (rewrite Hns in E; discriminate).
      rewrite Hf in E3. injection E3 as <-. rewrite <- arity_spec.
      inversion Hcall as [t0 k UN|b ps r' k AO|t0 p0 d k r0 NU OPS]; subst.
      * destruct UN as (UN & _). rewrite UN in Ho. discriminate.
      * match goal with H : Ty _ _ = cs_t _ |- _ => rewrite <- H in Ho end. cbn in Ho. now injection Ho as -> _.
      * rewrite Ho in OPS. destruct OPS; discriminate.
  - intros (Hargs & Hk). exists (Ty (ty_base (cs_t sym)) r). apply typed_here. cbn [typed]. rewrite Hc. split.
    + apply all_in. intros a Hin. rewrite Forall_forall in Hargs. destruct (Hargs a Hin) as (ta & Hta). exists ta. now apply typed_here.
    + exists (cs_t sym). split; [now apply N_library|]. destruct (cs_t sym) as [b ops]. cbn in *. subst ops. constructor. now apply arity_spec; subst proto.
Qed.

(** Nothing else in the table can be called. *)
Lemma table_known : forallb (fun s => match ty_ops (cs_t s) with
    | TCall _ :: _ => existsb (fun f => str_eqb (lit f) (cs_name s)) (map fst prototypes ++ extensions)
    | _ => true end) csym_list = true.
Proof. vm_compute. reflexivity. Qed.
Lemma library_known x s params r : find_sym x = Some s -> ty_ops (cs_t s) = TCall params :: r ->
  exists f, x = lit f /\ (In f (map fst prototypes) \/ In f extensions).
Proof.
  unfold find_sym. intros H E. apply find_some in H as [H1 H2]. apply str_eqb_eq in H2. apply in_rev in H1.
  pose proof table_known as T. rewrite forallb_forall in T. specialize (T _ H1). cbv beta in T. rewrite E in T.
  apply existsb_exists in T as (f & Hf & Ef). apply str_eqb_eq in Ef. exists f. split; [congruence|]. now apply in_app_or.
Qed.
