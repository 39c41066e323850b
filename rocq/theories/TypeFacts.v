(** Facts about the typing rules of Types.v. *)
From Verif Require Import Base BaseFacts Buf Nodes Types SpecTypes.

Definition plain_name (s : string) : bool :=
  negb (existsb (N.eqb 46) (lit s))
  && negb (starts_with (lit s) (L "pointer to "))
  && negb (starts_with (lit s) (L "array of "))
  && negb (starts_with (lit s) (L "func (")).

Lemma starts_with_app : forall a b, starts_with (a ++ b) a = true.
Proof. intros. apply starts_with_spec. eauto. Qed.

Lemma fmt_named : forall s t, plain_name s = true ->
  (str_eqb (ty_fmt t) (lit s) = true <-> named t s).
Proof.
  intros s [b ops] H. unfold plain_name in H.
  rewrite !Bool.andb_true_iff, !Bool.negb_true_iff in H.
  destruct H as [[[Hd Hp] Ha] Hf].
  rewrite str_eqb_eq. unfold named. cbn [ty_ops ty_base].
  split.
  - intros E. destruct ops as [| [ | | args] r].
    + cbn [ty_fmt] in E. unfold base_fmt in E.
      destruct (ns_ns b) as [| c n] eqn:En; [auto |].
      exfalso. rewrite <- E in Hd.
      assert (Hx : existsb (N.eqb 46) ((c :: n) ++ L "." ++ ns_name b) = true).
      { apply existsb_exists. exists 46%N. split; [| apply N.eqb_refl].
        apply in_or_app. right. cbn. auto. }
      congruence.
    + exfalso. cbn [ty_fmt] in E. rewrite <- E, starts_with_app in Hp. discriminate.
    + exfalso. cbn [ty_fmt] in E. rewrite <- E, starts_with_app in Ha. discriminate.
    + exfalso. cbn [ty_fmt] in E. rewrite <- E, starts_with_app in Hf. discriminate.
  - intros (-> & En & Hn). cbn [ty_fmt]. unfold base_fmt. rewrite En. auto.
Qed.

Lemma fmt_in_spec : forall t l, forallb plain_name l = true ->
  (fmt_in t l = true <-> one_of t l).
Proof.
  intros t l H. unfold fmt_in, one_of. rewrite existsb_exists, Exists_exists.
  rewrite forallb_forall in H.
  split; intros (s & Hs & Hn); exists s; (split; [auto |]); apply (fmt_named s t); auto.
Qed.

Lemma is_todo_spec : forall t, is_todo t = true <-> unknown t.
Proof. intros. unfold is_todo, unknown. apply fmt_named. reflexivity. Qed.

(** The class of a plain type is decided by its name. *)
Definition name_class (n : str) : class :=
  (let is_in l := existsb (fun s => str_eqb n (lit s)) l in
  if is_in ["int"; "int16_t"; "int32_t"; "int64_t"; "int8_t"; "ptrdiff_t"] then SINT
  else if is_in ["size_t"; "uint16_t"; "uint32_t"; "uint64_t"; "uint8_t"] then UINT
  else if is_in ["float"; "double"] then FLT
  else if is_in ["number"] then CONSTNUM
  else if is_in ["char"] then CHAR
  else if is_in ["*** TODO *** "] then UNK
  else if is_in ["bool"] then BOOL
  else NONE)%string.

Lemma one_of_names : forall t l, one_of t l <->
  ty_ops t = [] /\ ns_ns (ty_base t) = [] /\ existsb (fun s => str_eqb (ns_name (ty_base t)) (lit s)) l = true.
Proof.
  intros. unfold one_of, named. rewrite Exists_exists, existsb_exists. split.
  - intros (s & Hs & A & B & C). repeat split; auto. exists s. split; auto. now apply str_eqb_eq.
  - intros (A & B & s & Hs & C). exists s. repeat split; auto. now apply str_eqb_eq.
Qed.

Lemma classify_plain : forall t, ty_ops t = [] -> ns_ns (ty_base t) = [] ->
  classify t = name_class (ns_name (ty_base t)).
Proof.
  intros [b ops]. cbn [ty_ops ty_base]. intros -> En.
  assert (Ef : ty_fmt (Ty b []) = ns_name b) by (cbn [ty_fmt]; unfold base_fmt; now rewrite En).
  unfold classify, name_class, is_todo, fmt_in. cbn [ty_ops]. rewrite Ef.
  cbn [existsb]. rewrite !Bool.orb_false_r. reflexivity.
Qed.

Lemma classify_other : forall t,
  ty_ops t = [] /\ ns_ns (ty_base t) = []
  \/ classify t = NONE /\ ~ (ty_ops t = [] /\ ns_ns (ty_base t) = []) /\ ~ pointer t /\ ~ array t
  \/ classify t = PTR /\ pointer t /\ ~ array t
  \/ classify t = ARR /\ array t /\ ~ pointer t.
Proof.
  intros t. unfold pointer, array.
  destruct (ty_ops t) as [| o r] eqn:Eo.
  - destruct (ns_ns (ty_base t)) eqn:En; [left; auto |].
    right; left. split.
    + unfold classify. rewrite Eo.
      repeat match goal with
      | |- context[fmt_in t ?l] => let X := fresh in destruct (fmt_in t l) eqn:X;
          [apply fmt_in_spec in X; [apply one_of_names in X; destruct X as (_ & X & _); congruence | reflexivity] |]
      | |- context[is_todo t] => let X := fresh in destruct (is_todo t) eqn:X;
          [apply is_todo_spec in X; destruct X as (_ & X & _); congruence |]
      end. reflexivity.
    + split; [intros [_ X]; discriminate | split; intros [? X]; discriminate].
  - right. destruct o as [ | | args].
    + right; left. split; [unfold classify; now rewrite Eo | split; [eauto | intros [? X]; discriminate]].
    + right; right. split; [unfold classify; now rewrite Eo | split; [eauto | intros [? X]; discriminate]].
    + left. split.
      * unfold classify. rewrite Eo.
      repeat match goal with
      | |- context[fmt_in t ?l] => let X := fresh in destruct (fmt_in t l) eqn:X;
          [apply fmt_in_spec in X; [apply one_of_names in X; destruct X as (X & _); congruence | reflexivity] |]
      | |- context[is_todo t] => let X := fresh in destruct (is_todo t) eqn:X;
          [apply is_todo_spec in X; destruct X as (X & _); congruence |]
      end. reflexivity.
      * split; [intros [X _]; discriminate | split; intros [? X]; discriminate].
Qed.

(** Names in the lists are pairwise different, so the first match decides. *)
Lemma name_class_of : forall (l : list string) c n,
  forallb (fun s => match name_class (lit s), c with
                    | SINT, SINT | UINT, UINT | FLT, FLT | CONSTNUM, CONSTNUM | CHAR, CHAR
                    | UNK, UNK | BOOL, BOOL => true | _, _ => false end) l = true ->
  existsb (fun s => str_eqb n (lit s)) l = true -> name_class n = c.
Proof.
  intros l c n H1 H2. apply existsb_exists in H2. destruct H2 as (s & Hs & E).
  apply str_eqb_eq in E. subst n. rewrite forallb_forall in H1. specialize (H1 s Hs).
  destruct (name_class (lit s)), c; congruence.
Qed.

Lemma class_iff : forall t (l : list string) c,
  (forall n, name_class n = c -> existsb (fun s => str_eqb n (lit s)) l = true) ->
  forallb (fun s => match name_class (lit s), c with
                    | SINT, SINT | UINT, UINT | FLT, FLT | CONSTNUM, CONSTNUM | CHAR, CHAR
                    | UNK, UNK | BOOL, BOOL => true | _, _ => false end) l = true ->
  l <> [] -> (one_of t l <-> classify t = c).
Proof.
  intros t l c H1 H2 Hl. rewrite one_of_names.
  destruct (classify_other t) as [[A B] | [(A & B & _) | [(A & B & _) | (A & B & _)]]].
  - rewrite (classify_plain t A B). split; [intros (_ & _ & X); eapply name_class_of; eauto |].
    intros X. auto.
  - rewrite A. split; [intros (? & ? & _); tauto |]. intros <-.
    destruct l as [| s l']; [congruence |].
    cbn [forallb] in H2. destruct (name_class (lit s)); discriminate.
  - rewrite A. destruct B as [? B]. split; [intros (X & _); congruence |]. intros <-.
    destruct l as [| s l']; [congruence |].
    cbn [forallb] in H2. destruct (name_class (lit s)); discriminate.
  - rewrite A. destruct B as [? B]. split; [intros (X & _); congruence |]. intros <-.
    destruct l as [| s l']; [congruence |].
    cbn [forallb] in H2. destruct (name_class (lit s)); discriminate.
Qed.

Ltac by_name :=
  let n := fresh "n" in
  intros n; unfold name_class; cbn [existsb];
  repeat match goal with
         | |- context[str_eqb n (lit ?s)] =>
             destruct (str_eqb n (lit s)) eqn:?; cbn [orb]; try discriminate; try (intros; reflexivity)
         end.

Lemma signed_class : forall t, signed t <-> classify t = SINT.
Proof. intros. apply class_iff; [by_name | reflexivity | discriminate]. Qed.
Lemma unsigned_class : forall t, unsigned t <-> classify t = UINT.
Proof. intros. apply class_iff; [by_name | reflexivity | discriminate]. Qed.
Lemma floating_class : forall t, floating t <-> classify t = FLT.
Proof. intros. apply class_iff; [by_name | reflexivity | discriminate]. Qed.

Lemma one_of_one : forall t s, one_of t [s] <-> named t s.
Proof.
  intros. unfold one_of. rewrite Exists_cons, Exists_nil. tauto.
Qed.
Lemma boolean_class : forall t, boolean t <-> classify t = BOOL.
Proof. intros. unfold boolean. rewrite <- one_of_one. apply class_iff; [by_name | reflexivity | discriminate]. Qed.
Lemma character_class : forall t, character t <-> classify t = CHAR.
Proof. intros. unfold character. rewrite <- one_of_one. apply class_iff; [by_name | reflexivity | discriminate]. Qed.
Lemma constant_class : forall t, constant t <-> classify t = CONSTNUM.
Proof. intros. unfold constant. rewrite <- one_of_one. apply class_iff; [by_name | reflexivity | discriminate]. Qed.
Lemma unknown_class : forall t, unknown t <-> classify t = UNK.
Proof. intros. unfold unknown. rewrite <- one_of_one. apply class_iff; [by_name | reflexivity | discriminate]. Qed.
Lemma pointer_class : forall t, pointer t <-> classify t = PTR.
Proof.
  intros t. destruct (classify_other t) as [[A B] | [(A & _ & B & _) | [(A & B & _) | (A & _ & B)]]].
  - split; [intros [? X]; congruence |]. rewrite (classify_plain t A B).
    generalize (ns_name (ty_base t)). by_name.
  - rewrite A. split; [tauto | discriminate].
  - tauto.
  - rewrite A. split; [tauto | discriminate].
Qed.
Lemma array_class : forall t, array t <-> classify t = ARR.
Proof.
  intros t. destruct (classify_other t) as [[A B] | [(A & _ & _ & B) | [(A & _ & B) | (A & B & _)]]].
  - split; [intros [? X]; congruence |]. rewrite (classify_plain t A B).
    generalize (ns_name (ty_base t)). by_name.
  - rewrite A. split; [tauto | discriminate].
  - rewrite A. split; [tauto | discriminate].
  - tauto.
Qed.

Lemma typesize_known : forall t, number t -> typesize t <> None.
Proof.
  intros t H.
  assert (E : exists s, typesize t = typesize (Ty (mk_nsname [] (lit s)) [])
     /\ In s ["int"; "int8_t"; "int16_t"; "int32_t"; "int64_t"; "ptrdiff_t";
              "size_t"; "uint8_t"; "uint16_t"; "uint32_t"; "uint64_t"; "float"; "double"]%string).
  { unfold number, integer, signed, unsigned, floating, one_of in H.
    rewrite !Exists_exists in H.
    destruct H as [[(s & I & A & B & C) | (s & I & A & B & C)] | (s & I & A & B & C)]; exists s;
      (split; [| cbn in I; cbn; tauto]); destruct t as [b o]; cbn [ty_ops ty_base] in *; subst o;
      unfold typesize; cbn [ty_fmt]; unfold base_fmt; cbn [ns_ns ns_name mk_nsname];
      rewrite B, C; reflexivity. }
  destruct E as (s & -> & I). cbn in I.
  repeat (destruct I as [<- | I]; [vm_compute; discriminate |]). destruct I.
Qed.

Lemma widest_ok : forall a b, number a -> number b -> widest_type a b = TOk a \/ widest_type a b = TOk b.
Proof.
  intros a b Ha Hb. unfold widest_type.
  destruct (typesize a) eqn:A; [| now apply typesize_known in A].
  destruct (typesize b) eqn:B; [| now apply typesize_known in B].
  destruct (N.ltb n0 n); auto.
Qed.

Lemma number_class : forall t, number t <-> classify t = SINT \/ classify t = UINT \/ classify t = FLT.
Proof.
  intros. unfold number, integer. rewrite signed_class, unsigned_class, floating_class. tauto.
Qed.

Ltac classes := unfold booly, comparable, arithmetic, additive, both, either_way, accepted;
  rewrite ?number_class; unfold integer;
  rewrite ?signed_class, ?unsigned_class, ?floating_class, ?boolean_class,
    ?character_class, ?constant_class, ?unknown_class, ?pointer_class, ?array_class.

(** In a goal about [widest_type] of two number types, pick a side. *)
Ltac widest :=
  match goal with
  | |- context[widest_type ?a ?b] =>
      destruct (widest_ok a b) as [?W | ?W];
      [apply number_class; tauto | apply number_class; tauto | rewrite ?W | rewrite ?W]
  end.

Lemma arith_result : forall a b t, typeof_arith a b = TOk t ->
  t = a \/ t = b \/ (t = just "int" /\ either_way character constant a b).
Proof.
  intros a b t. classes. unfold typeof_arith.
  destruct (classify a) eqn:A, (classify b) eqn:B; try discriminate;
    try widest; intros H; injection H as <-; auto 8.
Qed.

Lemma arith_total : forall a b, typeof_arith a b <> TPanic.
Proof.
  intros a b. unfold typeof_arith.
  destruct (classify a) eqn:A, (classify b) eqn:B; try discriminate; widest; discriminate.
Qed.

Lemma arith_accepts : forall a b, accepted (typeof_arith a b) <-> arithmetic a b.
Proof.
  intros a b. classes. unfold typeof_arith.
  destruct (classify a) eqn:A, (classify b) eqn:B;
    (split; intros H;
     [ try (destruct H as [? H]; discriminate H); clear H; intuition congruence
     | try widest; eauto; exfalso; intuition congruence]).
Qed.

Lemma plusminus_result : forall op a b t, typeof_plusminus op a b = TOk t ->
  t = a \/ t = b \/ (t = just "ptrdiff_t" /\ op = "-"%string /\ both pointer a b).
Proof.
  intros op a b t. classes. unfold typeof_plusminus.
  destruct (String.eqb_spec op "-") as [-> | N];
  destruct (classify a) eqn:A, (classify b) eqn:B; cbn [andb]; try discriminate;
    try widest; intros H; injection H as <-; auto 8.
Qed.

Lemma plusminus_total : forall op a b, typeof_plusminus op a b <> TPanic.
Proof.
  intros op a b. unfold typeof_plusminus.
  destruct (String.eqb op "-"), (classify a) eqn:A, (classify b) eqn:B; cbn [andb]; try discriminate; widest; discriminate.
Qed.

Lemma plusminus_accepts : forall op a b, accepted (typeof_plusminus op a b) <-> additive op a b.
Proof.
  intros op a b. classes. unfold typeof_plusminus.
  destruct (String.eqb_spec op "-") as [-> | N];
  destruct (classify a) eqn:A, (classify b) eqn:B; cbn [andb];
    (split; intros H;
     [ try (destruct H as [? H]; discriminate H); clear H; intuition congruence
     | try widest; eauto; exfalso; intuition congruence]).
Qed.

Lemma cmp_accepts : forall a b, accepted (typeof_cmp a b) <-> comparable a b.
Proof.
  intros a b. classes. unfold typeof_cmp.
  destruct (classify a) eqn:A, (classify b) eqn:B;
    (split; intros H;
     [ try (destruct H as [? H]; discriminate H); clear H; intuition congruence
     | eauto; exfalso; intuition congruence]).
Qed.

Lemma cmp_result : forall a b t, typeof_cmp a b = TOk t ->
  t = just "bool" \/ (t = just "boo" /\ both boolean a b).
Proof.
  intros a b t. classes. unfold typeof_cmp.
  destruct (classify a) eqn:A, (classify b) eqn:B; try discriminate;
   intros H; injection H as <-; auto.
Qed.

Lemma cmp_total : forall a b, typeof_cmp a b <> TPanic.
Proof.
  intros a b. unfold typeof_cmp.
  destruct (classify a) eqn:A, (classify b) eqn:B; discriminate.
Qed.

Lemma booly_spec : forall t, is_booly t = true <-> booly t.
Proof.
  intros t. unfold is_booly. classes.
  destruct (classify t); intuition congruence.
Qed.

Lemma boolcomp_accepts : forall a b, accepted (typeof_boolcomp a b) <-> booly a /\ booly b.
Proof.
  intros a b. rewrite <- !booly_spec. unfold typeof_boolcomp, accepted.
  destruct (is_booly a), (is_booly b); cbn [negb];
    (split; [intros [? H]; try discriminate; auto | intros [? ?]; try discriminate; eauto]).
Qed.

Lemma boolcomp_total : forall a b, typeof_boolcomp a b <> TPanic.
Proof. intros a b. unfold typeof_boolcomp. destruct (is_booly a), (is_booly b); discriminate. Qed.

Lemma deref_total : forall t, typeof_deref t <> TPanic.
Proof. intros t. unfold typeof_deref. destruct (is_todo t); [discriminate |]. destruct (ty_ops t) as [| []]; discriminate. Qed.

Lemma index_total : forall a i, typeof_index a i <> TPanic.
Proof. intros a i. unfold typeof_index. destruct (is_todo a); [discriminate |]. destruct (ty_ops a) as [| []]; discriminate. Qed.

Lemma shift_self : forall (r : list tyop) o, r ++ [o] = o :: r -> Forall (eq o) r.
Proof.
  induction r as [| x r IH]; intros o H; constructor; cbn in H; injection H as -> H; auto.
Qed.
Lemma shift_rest : forall (r : list tyop) o, Forall (eq o) r -> r ++ [o] = o :: r.
Proof. induction 1 as [| x r <- _ IH]; cbn; [auto | now rewrite IH]. Qed.

Lemma deref_addr : forall t,
  (exists t', typeof_deref (typeof_addr t) = TOk t' /\ same_type t' t)
  <-> Forall (eq TDeref) (ty_ops t).
Proof.
  intros [b ops]. unfold typeof_deref, same_type, typeof_addr. cbn [ty_ops ty_base].
  destruct (is_todo _) eqn:T.
  - exfalso. apply is_todo_spec in T. destruct T as (T & _). cbn [ty_ops] in T.
    now apply app_eq_nil in T.
  - split.
    + intros (t' & H & A & B & C). destruct ops as [| o r]; [constructor |].
      cbn [app] in H. destruct o; try discriminate. injection H as <-. cbn [ty_ops] in A.
      constructor; [auto |]. now apply shift_self.
    + intros H. rewrite (shift_rest ops TDeref H). eexists. split; [reflexivity |]. cbn. auto.
Qed.
