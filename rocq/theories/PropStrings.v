(** C81: lib/strings. *)
From Coq Require Import ZArith Lia.
From Verif Require Import LibBase LibIO LibText SpecText.

Lemma starts_with_prefix : forall s p, str_starts_with s p = true <-> exists r, s = p ++ r.
Proof.
  induction s as [|a s IH]; intros [|b p]; simpl.
  - split; eauto.
  - split; [discriminate|]. intros [r H]. discriminate.
  - split; eauto.
  - destruct (N.eqb_spec a b) as [->|Hn]; simpl.
    + rewrite IH. split; intros [r H]; exists r; congruence.
    + split; [discriminate|]. intros [r H]. congruence.
Qed.

Lemma c_tolower_fold : forall c, c_tolower c = fold_case c.
Proof. reflexivity. Qed.

Theorem C81_starts_with : forall s p,
  (str_starts_with s p = true <-> exists r, s = p ++ r) /\
  (str_starts_with_i s p = true <-> exists q r, s = q ++ r /\ List.map fold_case q = List.map fold_case p).
Proof.
  intros s p. split; [apply starts_with_prefix|]. revert p. induction s as [|a s IH]; intros [|b p]; simpl.
  - split; [|auto]. intros _. exists [], []. auto.
  - split; [discriminate|]. intros ([|c q] & r & H1 & H2); discriminate.
  - split; [|auto]. intros _. exists [], (a :: s). auto.
  - change c_tolower with fold_case. destruct (N.eqb_spec (fold_case a) (fold_case b)) as [E|Hn]; simpl.
    + rewrite IH. split.
      * intros (q & r & -> & H). exists (a :: q), r. simpl. rewrite H, E. auto.
      * intros ([|c q] & r & H1 & H2); [discriminate|]. simpl in H2. injection H1 as <- ->. injection H2 as H2 H3. eauto.
    + split; [discriminate|]. intros ([|c q] & r & H1 & H2); [discriminate|]. simpl in H2. injection H1 as <- ->. congruence.
Qed.

Theorem C81_casecmp : forall a b, str_casecmp a b = true <-> List.map fold_case a = List.map fold_case b.
Proof.
  induction a as [|x a IH]; intros [|y b]; simpl; try (split; [discriminate|discriminate]); [tauto|].
  change c_tolower with fold_case. destruct (N.eqb_spec (fold_case x) (fold_case y)) as [E|Hn]; simpl.
  - rewrite IH, E. split; congruence.
  - split; congruence.
Qed.

(** [ends_with] never looks at the first character of the suffix. *)
Lemma ends_loop_spec : forall s suf i j, i <= List.length s -> j <= List.length suf ->
  ends_loop s suf i j = true <->
  (j <= i /\ forall k, k < j -> nth (i - k) (s ++ [0%N]) 0%N = nth (j - k) (suf ++ [0%N]) 0%N).
Proof.
  intros s suf. induction i as [|i IH]; intros [|j] Hi Hj; cbn [ends_loop].
  - split; [|auto]. intros _. split; [lia|]. intros k Hk. lia.
  - split; [discriminate|]. lia.
  - split; [|auto]. intros _. split; [lia|]. intros k Hk. lia.
  - destruct (N.eqb_spec (nth (S i) (s ++ [0%N]) 0%N) (nth (S j) (suf ++ [0%N]) 0%N)) as [E|Hn]; cbn [negb].
    + rewrite IH by lia. split; intros [H1 H2]; (split; [lia|]).
      * intros [|k] Hk; [exact E|]. apply (H2 k). lia.
      * intros k Hk. apply (H2 (S k)). lia.
    + split; [discriminate|]. intros [H1 H2]. exfalso. apply Hn. apply (H2 0). lia.
Qed.

Lemma ends_exact : forall s c t, str_ends_with s (c :: t) = true <-> exists a x, s = a ++ x :: t.
Proof.
  intros s c t. unfold str_ends_with. rewrite ends_loop_spec by lia. cbn [List.length]. split.
  - intros [H1 H2].
    exists (firstn (List.length s - S (List.length t)) s).
    assert (Hx : exists x r, skipn (List.length s - S (List.length t)) s = x :: r /\ List.length r = List.length t).
    { destruct (skipn (List.length s - S (List.length t)) s) as [|x r] eqn:E; apply (f_equal (@List.length byte)) in E;
        rewrite skipn_length in E; simpl in E; [lia|]. exists x, r. split; [reflexivity|]. lia. }
    destruct Hx as (x & r & Hx & Hl). exists x.
    assert (Hs : s = firstn (List.length s - S (List.length t)) s ++ x :: r) by (rewrite <- Hx, firstn_skipn; reflexivity).
    rewrite Hs at 1. do 2 f_equal. apply nth_ext with (d := 0%N) (d' := 0%N); [exact Hl|].
    intros n Hn. specialize (H2 (List.length t - n) ltac:(lia)).
    replace (S (List.length t) - (List.length t - n)) with (S n) in H2 by lia.
    cbn [app nth] in H2. rewrite (app_nth1 t) in H2 by lia. rewrite <- H2.
    rewrite app_nth1 by lia. rewrite Hs at 2. rewrite app_nth2; rewrite firstn_length; [|lia].
    replace (List.length s - (List.length t - n) - Nat.min (List.length s - S (List.length t)) (List.length s)) with (S n) by lia.
    reflexivity.
  - intros (a & x & ->). rewrite app_length. cbn [List.length]. split; [lia|]. intros k Hk.
    rewrite <- app_assoc. rewrite app_nth2 by lia.
    replace (List.length a + S (List.length t) - k - List.length a) with (S (List.length t - k)) by lia.
    replace (S (List.length t) - k) with (S (List.length t - k)) by lia. reflexivity.
Qed.

(** A string that ends with the suffix is reported; one that is reported ends
    with the suffix without its first character.  Missing: that it ends with the
    whole suffix, which is false. *)
Theorem C81_ends_with_partial : forall s suf,
  ((exists a, s = a ++ suf) -> str_ends_with s suf = true) /\
  (str_ends_with s suf = true -> exists a, s = a ++ tl suf /\ List.length suf <= List.length s).
Proof.
  intros s [|c t].
  - assert (E : str_ends_with s [] = true) by (unfold str_ends_with; destruct s; reflexivity).
    split; intros _; [exact E|]. exists s. simpl. rewrite app_nil_r. split; [auto|lia].
  - rewrite ends_exact. split.
    + intros [a ->]. eauto.
    + intros (a & x & ->). exists (a ++ [x]). rewrite <- app_assoc, app_length. simpl. split; [auto|lia].
Qed.
Theorem C81_ends_with_refuted : exists s suf, str_ends_with s suf = true /\ ~ exists a, s = a ++ suf.
Proof.
  exists (L "main-c"), (L ".c"). split; [reflexivity|]. intros [a H].
  apply (f_equal (@rev byte)) in H. rewrite rev_app_distr in H. discriminate.
Qed.

(** * Trimming *)
Lemma drop_while_spec : forall p s, exists a, s = a ++ drop_while p s /\ Forall (fun c => p c = true) a /\
  (forall c t, drop_while p s = c :: t -> p c = false).
Proof.
  intros p. induction s as [|c s (a & H1 & H2 & H3)]; simpl.
  - exists []. repeat split; auto. discriminate.
  - destruct (p c) eqn:E.
    + exists (c :: a). simpl. rewrite <- H1. auto.
    + exists []. repeat split; auto. intros c' t H. congruence.
Qed.

Theorem C81_rtrim : forall s set, exists b, s = str_rtrim s set ++ b /\ Forall (fun c => In c set) b /\
  (forall c t, str_rtrim s set = t ++ [c] -> ~ In c set).
Proof.
  intros s set. unfold str_rtrim.
  destruct (drop_while_spec (fun c => existsb (N.eqb c) set) (rev s)) as (a & H1 & H2 & H3).
  assert (Hin : forall c, existsb (N.eqb c) set = true <-> In c set).
  { intros c. rewrite existsb_exists. split.
    - intros (x & Hx & E). apply N.eqb_eq in E. subst. exact Hx.
    - intros Hc. exists c. split; [exact Hc|]. apply N.eqb_refl. }
  exists (rev a). split; [|split].
  - rewrite <- rev_app_distr, <- H1, rev_involutive. reflexivity.
  - apply Forall_rev. eapply Forall_impl; [|exact H2]. intros c Hc. apply Hin. exact Hc.
  - intros c t E. apply (f_equal (@rev byte)) in E. rewrite rev_involutive, rev_app_distr in E. simpl in E.
    rewrite <- Hin. rewrite (H3 c (rev t) E). discriminate.
Qed.

Lemma isspace_spec : forall c, c_isspace c = true <-> is_space c.
Proof.
  intros c. unfold c_isspace, is_space. rewrite orb_true_iff, andb_true_iff, N.eqb_eq, !N.leb_le. tauto.
Qed.

(** Missing: strings that hold vertical tabs or form feeds, which are kept at the
    end of the string. *)
Theorem C81_trim_partial : forall s, ~ In 11%N s -> ~ In 12%N s -> trimmed s (str_trim s).
Proof.
  intros s H11 H12. unfold str_trim.
  destruct (drop_while_spec c_isspace s) as (a & H1 & H2 & H3). set (m := drop_while c_isspace s) in *.
  destruct (C81_rtrim m [32;9;13;10]%N) as (b & G1 & G2 & G3). set (r := str_rtrim m [32;9;13;10]%N) in *.
  assert (Hset : forall c, In c [32;9;13;10]%N -> is_space c) by (simpl; unfold is_space; intros c Hc; lia).
  exists a, b. split; [rewrite <- G1; exact H1|]. split; [|split; [|split]].
  - eapply Forall_impl; [|exact H2]. intros c Hc. apply isspace_spec. exact Hc.
  - eapply Forall_impl; [|exact G2]. intros c. apply Hset.
  - intros c t E. rewrite E in G1. rewrite <- isspace_spec, (H3 c (t ++ b) G1). discriminate.
  - intros c t E Hc. apply (G3 c t E).
    assert (Hin : In c s) by (rewrite H1, G1, E, !in_app_iff; simpl; auto).
    assert (c <> 11%N) by (intros ->; contradiction). assert (c <> 12%N) by (intros ->; contradiction).
    unfold is_space in Hc. simpl. lia.
Qed.
Theorem C81_trim_refuted : exists s, ~ trimmed s (str_trim s).
Proof.
  exists [97;12]%N. intros (a & b & _ & _ & _ & _ & H). apply (H 12%N [97]%N eq_refl). unfold is_space. lia.
Qed.

(** * Splitting *)
Lemma starts_occurs : forall s sep, str_starts_with s sep = true <-> occurs_at sep s 0.
Proof.
  intros s sep. rewrite starts_with_prefix. unfold occurs_at. split.
  - intros [r ->]. exists [], r. auto.
  - intros (a & b & -> & H). destruct a; [|discriminate]. exists b. reflexivity.
Qed.

Lemma strstr_spec : forall s sep i,
  match c_strstr s sep i with
  | Some p => exists k, p = i + k /\ occurs_at sep s k /\ forall j, occurs_at sep s j -> k <= j
  | None => forall j, ~ occurs_at sep s j
  end.
Proof.
  induction s as [|c s IH]; intros sep i; cbn [c_strstr].
  - destruct (str_starts_with [] sep) eqn:E.
    + exists 0. split; [lia|]. split; [apply starts_occurs; exact E|]. intros; lia.
    + intros j (a & b & H & Hl). destruct a; [|discriminate]. simpl in H.
      assert (str_starts_with [] sep = true) by (apply starts_with_prefix; eauto). congruence.
  - destruct (str_starts_with (c :: s) sep) eqn:E.
    + exists 0. split; [lia|]. split; [apply starts_occurs; exact E|]. intros; lia.
    + assert (Hsh : forall j, occurs_at sep (c :: s) j <-> exists k, j = S k /\ occurs_at sep s k).
      { intros j. split.
        - intros (a & b & H & Hl). destruct a as [|x a].
          + assert (str_starts_with (c :: s) sep = true) by (apply starts_with_prefix; eauto). congruence.
          + simpl in H. injection H as <- H. exists (List.length a). split; [auto|]. exists a, b. auto.
        - intros (k & -> & a & b & -> & Hl). exists (c :: a), b. simpl. auto. }
      specialize (IH sep (S i)). destruct (c_strstr s sep (S i)) as [p|].
      * destruct IH as (k & -> & H1 & H2). exists (S k). split; [lia|]. split; [apply Hsh; eauto|].
        intros j Hj. apply Hsh in Hj as (k' & -> & Hk). apply H2 in Hk. lia.
      * intros j Hj. apply Hsh in Hj as (k' & -> & Hk). exact (IH k' Hk).
Qed.

Theorem C81_split : forall sep s n, 0 < n -> exists l, str_split sep (Some s) n = Some l /\
  pieces sep n s l /\ join sep l = s /\ 0 < List.length l <= n.
Proof.
  intros sep s n Hn. unfold str_split. revert s. induction n as [|n IH]; intros s; [lia|].
  destruct n as [|n].
  - exists [s]. cbn [split_loop]. repeat split; auto using pieces_last.
  - change (split_loop sep s (S (S n))) with
      (match c_strstr s sep 0 with
       | Some pos => option_map (cons (firstn pos s)) (split_loop sep (skipn (pos + List.length sep) s) (S n))
       | None => Some [s] end).
    pose proof (strstr_spec s sep 0) as H. destruct (c_strstr s sep 0) as [p|].
    + destruct H as (k & -> & (a & b & -> & Hl) & Hmin). simpl (0 + k). subst k.
      rewrite firstn_app, Nat.sub_diag, firstn_all, firstn_O, app_nil_r.
      assert (Hsk : skipn (List.length a + List.length sep) (a ++ sep ++ b) = b).
      { rewrite app_assoc, <- app_length, skipn_app, skipn_all, Nat.sub_diag. reflexivity. }
      rewrite Hsk. destruct (IH ltac:(lia) b) as (l & -> & H1 & H2 & H3). exists (a :: l).
      split; [reflexivity|]. split; [apply pieces_cut; assumption|].
      split; [|simpl; lia]. destruct l as [|q l]; [simpl in H3; lia|].
      change (join sep (a :: q :: l)) with (a ++ sep ++ join sep (q :: l)). rewrite H2. reflexivity.
    + exists [s]. split; [reflexivity|]. split; [apply pieces_none; exact H|]. simpl. repeat split; auto; lia.
Qed.

(** With no slots at all it writes outside of the array. *)
Theorem C81_split_no_slots_refuted : forall sep s, str_split sep (Some s) 0 = None.
Proof. reflexivity. Qed.

(** * Digits and capitals *)
Theorem C81_digits :
  (forall n, (0 <= n <= 9)%Z -> exists c, ascii_digit n = Some c /\ num_from_ascii c = n) /\
  (forall n, ~ (0 <= n <= 9)%Z -> ascii_digit n = None) /\
  (forall c, (48 <= c <= 57)%N -> exists n, num_from_ascii c = n /\ ascii_digit n = Some c) /\
  (forall c, ~ (48 <= c <= 57)%N -> num_from_ascii c = (-1)%Z).
Proof.
  assert (Hd : forall c, c_isdigit c = true <-> (48 <= c <= 57)%N)
    by (intros c; unfold c_isdigit; rewrite andb_true_iff, !N.leb_le; tauto).
  unfold ascii_digit, num_from_ascii. repeat split.
  - intros n Hn. destruct (Z.ltb_spec n 0); [lia|]. destruct (Z.ltb_spec 9 n); [lia|]. cbn [orb].
    eexists. split; [reflexivity|]. destruct (c_isdigit (48 + Z.to_N n)) eqn:E; [lia|].
    assert (c_isdigit (48 + Z.to_N n) = true) by (apply Hd; lia). congruence.
  - intros n Hn. destruct (Z.ltb_spec n 0); [reflexivity|]. destruct (Z.ltb_spec 9 n); [reflexivity|]. lia.
  - intros c Hc. rewrite (proj2 (Hd c) Hc). eexists. split; [reflexivity|].
    destruct (Z.ltb_spec (Z.of_N (c - 48)) 0); [lia|]. destruct (Z.ltb_spec 9 (Z.of_N (c - 48))); [lia|].
    cbn [orb]. f_equal. lia.
  - intros c Hc. destruct (c_isdigit c) eqn:E; [apply Hd in E; contradiction|reflexivity].
Qed.

Theorem C81_allupper : forall s, str_allupper s = true <-> Forall (fun c => ~ (97 <= c <= 122)%N) s.
Proof.
  intros s. unfold str_allupper. rewrite forallb_forall, Forall_forall. split; intros H c Hc; specialize (H c Hc);
    unfold c_islower in *; destruct (N.leb_spec 97 c), (N.leb_spec c 122); simpl in *; try discriminate; try lia; auto.
Qed.

(** Cases. *)
Example C81_case :
  str_starts_with (L "main.c") (L "main") = true /\ str_starts_with (L "ma") (L "main") = false /\
  str_starts_with_i (L "Content-Type") (L "content") = true /\ str_casecmp (L "ABC") (L "abd") = false /\
  str_ends_with (L "main.c") (L ".c") = true /\ str_ends_with (L "main.h") (L ".c") = false /\
  str_trim (L "  a b  ") = L "a b" /\
  str_split (L ", ") (Some (L "a, b, c")) 10 = Some [L "a"; L "b"; L "c"] /\
  str_split (L ", ") (Some (L "a, b, c")) 2 = Some [L "a"; L "b, c"] /\
  str_split (L "aa") (Some (L "aaa")) 5 = Some [[]; L "a"].
Proof. repeat split; reflexivity. Qed.

Print Assumptions C81_starts_with.
Print Assumptions C81_casecmp.
Print Assumptions C81_ends_with_partial.
Print Assumptions C81_ends_with_refuted.
Print Assumptions C81_rtrim.
Print Assumptions C81_trim_partial.
Print Assumptions C81_trim_refuted.
Print Assumptions C81_split.
Print Assumptions C81_split_no_slots_refuted.
Print Assumptions C81_digits.
Print Assumptions C81_allupper.
