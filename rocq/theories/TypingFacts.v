(** The typing rules of the code are those of SpecTyping. *)
From Verif Require Import Base BaseFacts Buf Nodes NodeQueries NodeInd Types Cspec Resolve Cursor
  Preparser Parser CAst FormatChe FormatC Translator SpecTypes TypeFacts SpecDecl SpecTarget SpecTyping.

Lemma named_size : forall t s, named t s -> typesize t = typesize (just s).
Proof.
  intros [b o] s (A & B & C). cbn [ty_ops ty_base] in *. subst o. unfold typesize, just. cbn [ty_fmt].
  unfold base_fmt. cbn [ns_ns ns_name mk_nsname]. rewrite B, C. reflexivity.
Qed.
Lemma bits_size : forall t n, bits t n -> typesize t = Some n.
Proof.
  intros t n H. unfold bits, one_of in H. rewrite !Exists_exists in H.
  destruct H as [[(s & I & A) ->] | [[(s & I & A) ->] | [[(s & I & A) ->] | [(s & I & A) ->]]]];
    rewrite (named_size _ _ A); cbn [In] in I;
    repeat (destruct I as [<- | I]; [reflexivity |]); destruct I.
Qed.
Lemma size_bits : forall t n, number t -> typesize t = Some n -> bits t n.
Proof.
  intros t n H E. unfold number, integer, signed, unsigned, floating, one_of in H. rewrite !Exists_exists in H.
  destruct H as [[(s & I & A) | (s & I & A)] | (s & I & A)];
    rewrite (named_size _ _ A) in E; cbn [In] in I;
    repeat (destruct I as [<- | I]; [vm_compute in E; injection E as <-;
      unfold bits, one_of; rewrite !Exists_cons; tauto |]); destruct I.
Qed.
Lemma wider_iff : forall a b t, number a -> number b -> (widest_type a b = TOk t <-> wider a b t).
Proof.
  intros a b t Ha Hb. unfold widest_type, wider. split.
  - destruct (typesize a) eqn:A; [| discriminate]. destruct (typesize b) eqn:B; [| discriminate].
    intros H. injection H as <-. exists n, n0. split; [now apply size_bits |]. split; [now apply size_bits | auto].
  - intros (m & n & A & B & ->). rewrite (bits_size _ _ A), (bits_size _ _ B). reflexivity.
Qed.

(** In a goal about [widest_type] of two number types. *)
Ltac wide :=
  match goal with
  | |- context[widest_type ?a ?b] =>
      rewrite (wider_iff a b) by (apply number_class; tauto)
  | |- _ => idtac
  end.
Ltac by_class :=
  try match goal with |- TErr _ = TOk _ <-> _ => split; [discriminate | intros; exfalso; intuition congruence] end;
  match goal with
  | |- TOk _ = TOk _ <-> _ =>
      split; [let H := fresh in intros H; injection H as <-; intuition congruence
             | intros; f_equal; intuition congruence]
  | |- wider _ _ _ <-> _ => split; [intros; intuition congruence | intros; intuition congruence]
  end.

Lemma arith_iff : forall a b t, typeof_arith a b = TOk t <-> arith_type a b t.
Proof.
  intros a b t. unfold arith_type. classes. unfold typeof_arith. change (just "int") with t_int.
  destruct (classify a) eqn:A, (classify b) eqn:B; wide; by_class.
Qed.
Lemma plus_iff : forall op a b t, typeof_plusminus op a b = TOk t <-> plus_type op a b t.
Proof.
  intros op a b t. unfold plus_type. classes. unfold typeof_plusminus. change (just "ptrdiff_t") with t_ptrdiff.
  destruct (String.eqb_spec op "-") as [-> | N];
  destruct (classify a) eqn:A, (classify b) eqn:B; cbn [andb]; wide; by_class.
Qed.
Lemma cmp_iff : forall a b t, typeof_cmp a b = TOk t <-> cmp_type a b t.
Proof.
  intros a b t. unfold cmp_type. classes. unfold typeof_cmp. change (just "bool") with t_bool. change (just "boo") with (plain [] (L "boo") []).
  destruct (classify a) eqn:A, (classify b) eqn:B; by_class.
Qed.
Lemma boolcomp_iff : forall a b t, typeof_boolcomp a b = TOk t <-> booly a /\ booly b /\ t = t_bool.
Proof.
  intros a b t. rewrite <- !booly_spec. unfold typeof_boolcomp.
  destruct (is_booly a), (is_booly b); cbn [negb]; split; try discriminate; try (intros (? & ? & ?); discriminate).
  - intros H. injection H as <-. auto.
  - intros (_ & _ & ->). reflexivity.
Qed.
Lemma todo_cases : forall t, (is_todo t = true /\ unknown t) \/ (is_todo t = false /\ ~ unknown t).
Proof.
  intros t. destruct (is_todo t) eqn:E; [left | right]; split; auto.
  - now apply is_todo_spec.
  - intros H. apply is_todo_spec in H. congruence.
Qed.
Lemma unknown_ops : forall t, unknown t -> ty_ops t = [].
Proof. intros t (H & _). exact H. Qed.
Lemma deref_iff : forall a t, typeof_deref a = TOk t <-> target_type a t.
Proof.
  intros a t. unfold typeof_deref, target_type. destruct (todo_cases a) as [[-> U] | [-> U]].
  - split; [intros H; injection H as <-; auto |].
    intros [[_ ->] | (r & E & _)]; [auto |]. apply unknown_ops in U. congruence.
  - destruct (ty_ops a) as [| [] r] eqn:E; (split;
      [try discriminate; intros H; injection H as <-; eauto
      | intros [[H _] | (r' & H & ->)]; try contradiction; try discriminate]).
    injection H as <-. reflexivity.
Qed.
Lemma index_iff : forall a i t, typeof_index a i = TOk t <-> element_type a t.
Proof.
  intros a i t. unfold typeof_index, element_type. destruct (todo_cases a) as [[-> U] | [-> U]].
  - split; [intros H; injection H as <-; auto |].
    intros [[_ ->] | [[H _] | (r & [E | E] & _)]]; [auto | contradiction | |];
      apply unknown_ops in U; congruence.
  - destruct (ty_ops a) as [| [] r] eqn:E; (split;
      [try discriminate; intros H; injection H as <-; eauto 8
      | intros [[H _] | [(_ & H & ->) | (r' & [H | H] & ->)]]; try contradiction; try discriminate;
        try (injection H as <-); reflexivity]).
Qed.
