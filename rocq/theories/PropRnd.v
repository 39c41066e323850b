(** Random numbers, samples and series. *)
From Coq Require Import ZArith Znumtheory Lia List Floats.SpecFloat Permutation.
From Verif Require Import LibBase LibText LibTok LibTime LibRnd SpecRnd.
Import ListNotations.

(** * Random numbers *)

(** An answer of [intn] is below the bound, whatever was drawn before; the bound 0 ends the
    program. *)
Theorem C105_range : forall auto st n,
  (n = 0%N /\ rnd_intn auto n st = RPanic) \/ exists k st', rnd_intn auto n st = ROk (k, st') /\ (k < n)%N.
Proof.
  intros auto st n. unfold rnd_intn. destruct (N.eqb_spec n 0) as [->|H]; [left; auto|]. right. destruct (rnd_pcg32 auto st) as [x st'].
  exists (x mod n)%N, st'. split; [reflexivity|]. apply N.mod_lt. exact H.
Qed.
Example C105_range_case : rnd_intn 0 6 (rnd_seed 42 (mkRnd false 0)) = ROk (2%N, mkRnd true 6129198730509586031) /\ rnd_intn 0 6 (mkRnd true 6129198730509586031) = ROk (4%N, mkRnd true 279128943280961312).
Proof. split; vm_compute; reflexivity. Qed.

Fixpoint draws (auto : N) (k : nat) (st : rnd) : list N * rnd :=
  match k with O => ([], st) | S k => let '(x, st) := rnd_pcg32 auto st in let '(l, st) := draws auto k st in (x :: l, st) end.
(** What follows a seed depends on the seed alone. *)
Theorem C105_seed : forall s auto auto' st st' k, draws auto k (rnd_seed s st) = draws auto' k (rnd_seed s st').
Proof.
  assert (G : forall k auto auto' v, draws auto k (mkRnd true v) = draws auto' k (mkRnd true v)).
  { induction k as [|k IH]; intros auto auto' v; [reflexivity|]. cbn [draws]. unfold rnd_pcg32. cbn [rnd_seeded rnd_value]. rewrite (IH auto auto'). reflexivity. }
  intros s auto auto' st st' k. unfold rnd_seed. apply G.
Qed.
Example C105_seed_case : fst (draws 1 3 (rnd_seed 7 (mkRnd false 0))) = fst (draws 2 3 (rnd_seed 7 (mkRnd true 9))) /\ fst (draws 1 3 (rnd_seed 7 (mkRnd false 0))) <> fst (draws 1 3 (rnd_seed 8 (mkRnd false 0))).
Proof. split; [vm_compute; reflexivity|vm_compute; discriminate]. Qed.

(** Every number of 32 bits is drawn after some seed. *)
Theorem C105_every : forall x auto st, (x < 2 ^ 32)%N -> exists s, (s < 2 ^ 64)%N /\ fst (rnd_pcg32 auto (rnd_seed s st)) = x.
Proof.
  intros x auto st Hx. set (M := (2 ^ 64)%N). set (v := (x * 2 ^ 29)%N). set (y := (v + M - pcg_a)%N). set (inv := 10871551447475725269%N).
  assert (Hv : (v < 2 ^ 61)%N) by (unfold v; change (2 ^ 61)%N with (2 ^ 32 * 2 ^ 29)%N; apply N.mul_lt_mono_pos_r; [reflexivity|exact Hx]).
  assert (HvM : (v < M)%N) by (eapply N.lt_trans; [exact Hv|reflexivity]).
  exists ((y * inv) mod M)%N. split; [apply N.mod_lt; discriminate|].
  unfold rnd_pcg32, rnd_seed. cbn [rnd_seeded rnd_value].
  assert (E : u64 (u64 ((y * inv) mod M) * pcg_m + pcg_a) = v).
  { unfold u64. fold M. rewrite N.mod_mod by discriminate. rewrite <- N.add_mod_idemp_l, N.mul_mod_idemp_l, N.add_mod_idemp_l by discriminate.
    assert (Ei : (inv * pcg_m = 1 + 6598405177416693716 * M)%N) by (vm_compute; reflexivity). rewrite <- N.mul_assoc, Ei.
    replace (y * (1 + 6598405177416693716 * M) + pcg_a)%N with (v + (1 + y * 6598405177416693716) * M)%N.
    - rewrite N.mod_add by discriminate. apply N.mod_small. exact HvM.
    - assert (A : (y + pcg_a = v + M)%N) by (unfold y; apply N.sub_add; apply N.le_trans with M; [vm_compute; discriminate|apply N.le_add_l]).
      rewrite N.mul_add_distr_l, N.mul_1_r, <- N.add_assoc, (N.add_comm (y * _)), N.add_assoc, A, N.mul_add_distr_r, N.mul_1_l, N.mul_assoc, N.add_assoc. reflexivity. }
  rewrite E. cbn [fst].
  assert (S0 : N.shiftr v 61 = 0%N) by (rewrite N.shiftr_div_pow2; apply N.div_small; exact Hv). rewrite S0. change (29 - 0)%N with 29%N.
  rewrite N.shiftr_div_pow2. unfold v. rewrite N.div_mul by discriminate. unfold u32. apply N.mod_small. exact Hx.
Qed.
Example C105_every_case : fst (rnd_pcg32 0 (rnd_seed 42 (mkRnd false 0))) <> fst (rnd_pcg32 0 (rnd_seed 43 (mkRnd false 0))).
Proof. vm_compute. discriminate. Qed.

Local Open Scope Z_scope.
Section Period.
  Variables (m a : Z).
  Hypothesis Hm : exists q, m = 4 * q + 1.
  Hypothesis Ha : exists q, a = 2 * q + 1.
  (** 1 + m + ... + m^(n-1). *)
  Fixpoint geo (n : nat) : Z := match n with O => 0 | S n => 1 + m * geo n end.
  Lemma geo_add : forall i j, geo (i + j) = geo i + m ^ Z.of_nat i * geo j.
  Proof.
    induction i as [|i IH]; intros j; cbn [geo plus]; [rewrite Z.pow_0_r; lia|]. rewrite IH, Nat2Z.inj_succ, Z.pow_succ_r by lia. ring.
  Qed.
  Lemma pow_mod : forall n, exists q, m ^ Z.of_nat n = 4 * q + 1.
  Proof.
    destruct Hm as [q ->]. induction n as [|n [r IH]]; [exists 0; reflexivity|]. rewrite Nat2Z.inj_succ, Z.pow_succ_r by lia. rewrite IH.
    exists (q * (4 * r + 1) + r). ring.
  Qed.
  Lemma geo_odd : forall n, exists q, geo (2 * n + 1) = 2 * q + 1.
  Proof.
    destruct Hm as [q E]. assert (G : forall n, (exists r, geo (2 * n) = 2 * r) /\ exists r, geo (2 * n + 1) = 2 * r + 1).
    { induction n as [|n [[r Hr] [t Ht]]]; [split; exists 0; cbn [geo Nat.mul Nat.add]; ring|].
      assert (E2 : exists r, geo (2 * S n) = 2 * r). { replace (2 * S n)%nat with (S (2 * n + 1)) by lia. cbn [geo]. rewrite Ht, E. exists (4 * q * t + t + 2 * q + 1). ring. }
      split; [exact E2|]. destruct E2 as [u Hu]. replace (2 * S n + 1)%nat with (S (2 * S n)) by lia. change (geo (S (2 * S n))) with (1 + m * geo (2 * S n)).
      rewrite Hu, E. exists (4 * q * u + u). ring. }
    intros n. apply G.
  Qed.
  (** Each factor two of the sum is one of the number of terms. *)
  Lemma geo_div : forall e n, (2 ^ Z.of_nat e | geo n) -> (2 ^ Z.of_nat e | Z.of_nat n).
  Proof.
    induction e as [|e IH]; intros n H; [apply Z.divide_1_l|].
    rewrite Nat2Z.inj_succ, Z.pow_succ_r in * by lia.
    destruct (Nat.Even_or_Odd n) as [[k ->]|[k ->]].
    - replace (2 * k)%nat with (k + k)%nat in * by lia. rewrite geo_add in H. destruct (pow_mod k) as [q Hq]. rewrite Hq in H.
      replace (geo k + (4 * q + 1) * geo k) with (2 * ((2 * q + 1) * geo k)) in H by ring. apply Z.mul_divide_cancel_l in H; [|lia].
      apply Z.gauss in H; [apply IH in H; destruct H as [c Hc]; exists c; lia|].
      clear. set (p := 2 ^ Z.of_nat e). apply Zgcd_1_rel_prime. apply rel_prime_sym. unfold p. clear p. induction e as [|e IHe]; [cbn; apply rel_prime_sym, rel_prime_1|].
      rewrite Nat2Z.inj_succ, Z.pow_succ_r by lia. apply rel_prime_mult; [|exact IHe]. apply bezout_rel_prime. apply (Bezout_intro _ _ _ 1 (- q)). ring.
    - destruct (geo_odd k) as [q Hq]. rewrite Hq in H. destruct H as [c Hc]. exfalso. lia.
  Qed.
  Definition lcg (x : Z) : Z := (x * m + a) mod 2 ^ 64.
  Fixpoint lcgs (n : nat) (x : Z) : Z := match n with O => x | S n => lcgs n (lcg x) end.
  Lemma lcgs_geo : forall n x, exists c, lcgs n x = x + geo n * (x * (m - 1) + a) + c * 2 ^ 64.
  Proof.
    induction n as [|n IH]; intros x; [exists 0; cbn [lcgs geo]; ring|]. cbn [lcgs geo]. destruct (IH (lcg x)) as [c ->].
    unfold lcg. pose proof (Z.div_mod (x * m + a) (2 ^ 64) ltac:(lia)) as D. set (y := (x * m + a) mod 2 ^ 64) in *. set (k := (x * m + a) / 2 ^ 64) in *.
    assert (Ey : y = x * m + a - 2 ^ 64 * k) by lia. rewrite Ey. clear. exists (c - k - geo n * (m - 1) * k). ring.
  Qed.
  Lemma lcgs_period : forall n x, lcgs n x = x -> (2 ^ 64 | Z.of_nat n).
  Proof.
    intros n x H. destruct (lcgs_geo n x) as [c E]. rewrite H in E. apply (geo_div 64).
    assert (D : (2 ^ 64 | (x * (m - 1) + a) * geo n)) by (exists (- c); lia). change (2 ^ 64) with (2 ^ Z.of_nat 64) in D.
    apply Z.gauss in D; [exact D|]. destruct Hm as [q Eq], Ha as [r Er]. rewrite Eq, Er. clear.
    replace (x * (4 * q + 1 - 1) + (2 * r + 1)) with (2 * (2 * x * q + r) + 1) by ring. set (w := 2 * x * q + r). clearbody w. clear.
    apply Zgcd_1_rel_prime. apply rel_prime_sym. generalize 64%nat. induction n as [|e IHe]; [cbn; apply rel_prime_sym, rel_prime_1|].
    rewrite Nat2Z.inj_succ, Z.pow_succ_r by lia. apply rel_prime_mult; [|exact IHe]. apply bezout_rel_prime. apply (Bezout_intro _ _ _ 1 (- w)). ring.
  Qed.
End Period.

Lemma state_lcg : forall k auto v, rnd_value (snd (draws auto k (mkRnd true v))) = Z.to_N (lcgs (Z.of_N pcg_m) (Z.of_N pcg_a) k (Z.of_N v)) /\
  rnd_seeded (snd (draws auto k (mkRnd true v))) = true.
Proof.
  induction k as [|k IH]; intros auto v; cbn [draws lcgs]; [cbn [snd rnd_value rnd_seeded]; split; [lia|reflexivity]|].
  unfold rnd_pcg32. cbn [rnd_seeded rnd_value]. set (v' := u64 (v * pcg_m + pcg_a)).
  specialize (IH auto v'). destruct (draws auto k (mkRnd true v')) as [l st]. cbn [snd] in *.
  assert (E : Z.of_N v' = lcg (Z.of_N pcg_m) (Z.of_N pcg_a) (Z.of_N v)).
  { unfold v', u64, lcg. rewrite N2Z.inj_mod, N2Z.inj_add, N2Z.inj_mul. reflexivity. }
  rewrite <- E. exact IH.
Qed.
Lemma draws_add : forall i j auto st, snd (draws auto (i + j) st) = snd (draws auto j (snd (draws auto i st))).
Proof.
  induction i as [|i IH]; intros j auto st; [reflexivity|]. cbn [plus draws]. destruct (rnd_pcg32 auto st) as [x st']. specialize (IH j auto st').
  destruct (draws auto (i + j) st') as [l1 s1]. destruct (draws auto i st') as [l2 s2]. exact IH.
Qed.
(** The generator does not come back to a state before it has gone through 2^64 draws. *)
Theorem C105_period : forall s st auto i j, (i < j)%nat -> (N.of_nat (j - i) < 2 ^ 64)%N ->
  snd (draws auto i (rnd_seed s st)) <> snd (draws auto j (rnd_seed s st)).
Proof.
  intros s st auto i j Hij Hd E. replace j with (i + (j - i))%nat in E by lia. rewrite draws_add in E.
  assert (Hs : exists v, snd (draws auto i (rnd_seed s st)) = mkRnd true v).
  { destruct (state_lcg i auto (u64 s)) as [_ K]. unfold rnd_seed. destruct (snd (draws auto i (mkRnd true (u64 s)))) as [b v]. cbn in K. subst b. exists v. reflexivity. }
  destruct Hs as [v Hv]. rewrite Hv in E. set (k := (j - i)%nat) in *. assert (Hk : (0 < k)%nat) by lia. clearbody k.
  destruct (state_lcg k auto v) as [K _]. rewrite <- E in K. cbn [rnd_value] in K.
  assert (Kz : lcgs (Z.of_N pcg_m) (Z.of_N pcg_a) k (Z.of_N v) = Z.of_N v).
  { assert (P : forall n x, 0 <= x -> 0 <= lcgs (Z.of_N pcg_m) (Z.of_N pcg_a) n x).
    { induction n as [|n IH]; intros x Hx; [exact Hx|]. cbn [lcgs]. apply IH. unfold lcg. apply Z.mod_pos_bound. lia. }
    specialize (P k (Z.of_N v) ltac:(lia)). rewrite K at 2. rewrite Z2N.id by exact P. reflexivity. }
  apply lcgs_period in Kz; [|exists (Z.of_N pcg_m / 4); reflexivity|exists (Z.of_N pcg_a / 2); reflexivity].
  apply Z.divide_pos_le in Kz; [|lia]. assert (Z.of_N (N.of_nat k) < Z.of_N (2 ^ 64)) by lia. change (Z.of_N (2 ^ 64)) with (2 ^ 64) in *. lia.
Qed.
Example C105_period_case : snd (draws 0 5 (rnd_seed 1 (mkRnd false 0))) <> snd (draws 0 9 (rnd_seed 1 (mkRnd false 0))).
Proof. apply C105_period; [lia|reflexivity]. Qed.
(** [u] is said to stay below 1. *)
Theorem C105_one_refuted : fst (rnd_u 0 (rnd_seed 14203906796277214458 (mkRnd false 0))) = dbl 1.
Proof. vm_compute. reflexivity. Qed.

(** * Samples *)

Local Open Scope N_scope.
Lemma freq_sum_total : forall l s, s + total l < 2 ^ 64 -> freq_sum l s = s + total l.
Proof.
  induction l as [|f l IH]; intros s H; cbn [freq_sum total] in *; [lia|]. unfold u64. rewrite N.mod_small by lia. rewrite IH by lia. lia.
Qed.
Lemma pick_spec : forall l x cdf i, cdf <= x -> x < cdf + total l -> cdf + total l < 2 ^ 64 ->
  exists j, freq_pick l x cdf i = Some (i + j)%nat /\ (j < List.length l)%nat /\ cdf + below l j <= x < cdf + below l j + nth j l 0.
Proof.
  induction l as [|f l IH]; intros x cdf i H1 H2 H3; cbn [freq_pick total] in *; [lia|].
  unfold u64. rewrite N.mod_small by lia. destruct (N.ltb_spec x (cdf + f)) as [Hx|Hx].
  - exists 0%nat. split; [f_equal; lia|]. split; [cbn; lia|]. unfold below. cbn. lia.
  - destruct (IH x (cdf + f) (S i) Hx ltac:(lia) ltac:(lia)) as (j & E & Hj & B). exists (S j). split; [rewrite E; f_equal; lia|]. split; [cbn; lia|].
    unfold below in *. cbn [firstn total nth]. lia.
Qed.
Lemma below_mono : forall l i j, (i < j)%nat -> (i < List.length l)%nat -> below l i + nth i l 0 <= below l j.
Proof.
  induction l as [|f l IH]; intros [|i] [|j] Hij Hl; cbn [List.length] in Hl; try lia; unfold below in *; cbn [firstn total nth].
  - lia.
  - specialize (IH i j ltac:(lia) ltac:(lia)). lia.
Qed.
(** Of the [total freqs] values that may be drawn, those from [below freqs i] on, as many as
    the frequency of [i], and no others give the index [i]. *)
Theorem C105_sample_partial : forall auto freqs st, 0 < total freqs < 2 ^ 32 ->
  exists x st' i, rnd_intn auto (total freqs) st = ROk (x, st') /\ sample_from_distribution auto freqs st = ROk (i, st') /\
    forall k, (k < List.length freqs)%nat -> (k = i <-> below freqs k <= x < below freqs k + nth k freqs 0).
Proof.
  intros auto freqs st H. unfold sample_from_distribution. rewrite freq_sum_total by lia. rewrite N.add_0_l. unfold u32. rewrite (N.mod_small (total freqs)) by lia.
  destruct (C105_range auto st (total freqs)) as [[K _]|(x & st' & E & Hx)]; [lia|]. rewrite E. cbn [rbind].
  destruct (pick_spec freqs x 0 0 ltac:(lia) ltac:(lia) ltac:(lia)) as (j & Ej & Hj & B). rewrite Ej. cbn [Nat.add]. exists x, st', j. split; [reflexivity|]. split; [reflexivity|].
  intros k Hk. split; [intros ->; lia|]. intros Bk. destruct (Nat.lt_trichotomy k j) as [Hl|[->|Hl]]; [|reflexivity|].
  - pose proof (below_mono freqs k j Hl Hk). lia.
  - pose proof (below_mono freqs j k Hl Hj). lia.
Qed.
Example C105_sample_case : total [100; 1254; 3] = 1357 /\ exists st, sample_from_distribution 0 [100; 1254; 3] (rnd_seed 5 (mkRnd false 0)) = ROk (1%nat, st).
Proof. split; [reflexivity|]. eexists. vm_compute. reflexivity. Qed.
(** A sum of 2^32 ends the program; with a sum of 2^32 + 1 only the first index is chosen. *)
Theorem C105_sample_refuted : (forall auto st, sample_from_distribution auto [2147483648; 2147483648] st = RPanic) /\
  forall auto st, exists st', sample_from_distribution auto [1; 4294967296] st = ROk (0%nat, st').
Proof.
  split; intros auto st; [reflexivity|]. unfold sample_from_distribution. change (u32 (freq_sum [1; 4294967296] 0)) with 1%N.
  destruct (C105_range auto st 1) as [[K _]|(x & st' & E & Hx)]; [discriminate|]. rewrite E. cbn [rbind]. assert (x = 0) as -> by lia. exists st'. reflexivity.
Qed.

(** * Series *)

Local Open Scope Z_scope.
Inductive asc : list Z -> Prop := asc_nil : asc [] | asc_cons : forall x l, asc l -> Forall (Z.le x) l -> asc (x :: l).
Lemma insert_perm : forall v l, Permutation (insert v l) (v :: l).
Proof.
  induction l as [|x l IH]; cbn [insert]; [reflexivity|]. destruct (v <=? x); [reflexivity|]. rewrite IH. apply perm_swap.
Qed.
Lemma insert_asc : forall v l, asc l -> asc (insert v l).
Proof.
  induction 1 as [|x l Hl IH Hx]; cbn [insert]; [repeat constructor|]. destruct (Z.leb_spec v x) as [Hv|Hv].
  - constructor; [constructor; assumption|]. constructor; [assumption|]. eapply Forall_impl; [|exact Hx]. cbn. lia.
  - constructor; [exact IH|]. rewrite (insert_perm v l). constructor; [lia|exact Hx].
Qed.
Lemma qsort_perm : forall l, Permutation (qsort l) l.
Proof. induction l as [|x l IH]; [reflexivity|]. cbn [qsort]. rewrite insert_perm, IH. reflexivity. Qed.
Lemma qsort_asc : forall l, asc (qsort l).
Proof. induction l as [|x l IH]; [constructor|]. apply insert_asc. exact IH. Qed.
Lemma how_many_perm : forall p l l', Permutation l l' -> how_many p l = how_many p l'.
Proof.
  intros p l l' H. unfold how_many. induction H as [|x l l' H IH|x y l|l l' l'' H IH H' IH']; cbn [filter]; [reflexivity| | |congruence].
  - destruct (p x); cbn [List.length]; congruence.
  - destruct (p x), (p y); reflexivity.
Qed.
Lemma how_many_le : forall p l, (how_many p l <= List.length l)%nat.
Proof. intros p l. unfold how_many. induction l as [|x l IH]; cbn [filter List.length]; [lia|]. destruct (p x); cbn [List.length]; lia. Qed.
Lemma asc_rank : forall l, asc l -> forall k v, nth_error l k = Some v -> (how_many (fun x => (x <? v)%Z) l <= k < how_many (fun x => (x <=? v)%Z) l)%nat.
Proof.
  induction 1 as [|x l Hl IH Hx]; intros [|k] v E; try discriminate; cbn [nth_error] in E; unfold how_many in *; cbn [filter].
  - injection E as ->. rewrite Z.ltb_irrefl, Z.leb_refl. cbn [List.length]. split; [|lia].
    assert (G : filter (fun x => (x <? v)%Z) l = []).
    { clear -Hx. induction l as [|y l IH]; [reflexivity|]. cbn [filter]. pose proof (Forall_inv Hx) as Hy. destruct (Z.ltb_spec y v); [lia|]. exact (IH (Forall_inv_tail Hx)). }
    rewrite G. cbn. lia.
  - destruct (IH k v E) as [I1 I2]. assert (Hv : x <= v). { rewrite Forall_forall in Hx. apply Hx. eapply nth_error_In. exact E. }
    destruct (Z.leb_spec x v); [|lia]. destruct (x <? v); cbn [List.length]; lia.
Qed.

Fixpoint run (h : list op) (s : series) : bres series :=
  match h with
  | [] => ROk s
  | Add v :: h => run h (se_add s v)
  | Percentile p :: h => let* (_, s) := se_percentile s p in run h s
  end.
Definition good (vs : list Z) (s : series) : Prop :=
  se_values s = vs /\ (vs <> [] -> (In (se_min s) vs /\ Forall (Z.le (se_min s)) vs) /\ (In (se_max s) vs /\ Forall (fun x => x <= se_max s) vs)) /\
  (forall l, se_sorted s = Some l -> asc l /\ Permutation l vs).
Lemma good_add : forall vs s v, good vs s -> good (vs ++ [v]) (se_add s v).
Proof.
  intros vs s v (E & M & C). unfold se_add. rewrite E. split; [reflexivity|]. split; [|discriminate]. intros _. cbn [se_min se_max].
  destruct vs as [|x vs]; [cbn; repeat split; auto; constructor; auto; lia|]. specialize (M ltac:(discriminate)). destruct M as [[M1 M2] [M3 M4]]. cbn [orb].
  assert (A : forall (P : Z -> Prop), Forall P (x :: vs) -> P v -> Forall P ((x :: vs) ++ [v])) by (intros P H1 H2; apply Forall_app; split; [exact H1|repeat constructor; exact H2]).
  assert (I1 : forall y, In y (x :: vs) -> In y ((x :: vs) ++ [v])) by (intros y Hy; apply in_or_app; left; exact Hy).
  assert (I2 : In v ((x :: vs) ++ [v])) by (apply in_or_app; right; left; reflexivity). split.
  - destruct (Z.ltb_spec v (se_min s)) as [H1|H1]; (split; [auto|]); apply A; auto; [|lia]. eapply Forall_impl; [|exact M2]. cbn. lia.
  - destruct (Z.ltb_spec (se_max s) v) as [H1|H1]; (split; [auto|]); apply A; auto; [|lia]. eapply Forall_impl; [|exact M4]. cbn. lia.
Qed.
Lemma good_sort : forall vs s, good vs s -> good vs (mkSeries (se_values s) (Some (match se_sorted s with Some l => l | None => qsort (se_values s) end)) (se_min s) (se_max s)) /\
  asc (match se_sorted s with Some l => l | None => qsort (se_values s) end) /\ Permutation (match se_sorted s with Some l => l | None => qsort (se_values s) end) vs.
Proof.
  intros vs s (E & M & C). assert (K : asc (match se_sorted s with Some l => l | None => qsort (se_values s) end) /\ Permutation (match se_sorted s with Some l => l | None => qsort (se_values s) end) vs).
  { destruct (se_sorted s) as [l|]; [exact (C l eq_refl)|]. rewrite E. split; [apply qsort_asc|apply qsort_perm]. }
  split; [|exact K]. split; [exact E|]. split; [exact M|]. cbn [se_sorted]. intros l El. injection El as <-. exact K.
Qed.
Lemma run_good : forall h vs s s', good vs s -> run h s = ROk s' -> good (vs ++ added h) s'.
Proof.
  induction h as [|[v|p] h IH]; intros vs s s' G E; cbn [run] in E; unfold added; cbn [flat_map app].
  - injection E as <-. rewrite app_nil_r. exact G.
  - fold (added h). replace (vs ++ v :: added h) with ((vs ++ [v]) ++ added h) by (rewrite <- app_assoc; reflexivity). exact (IH _ _ _ (good_add vs s v G) E).
  - fold (added h). unfold se_percentile in E. destruct ((p <? 0) || (100 <? p)); [exact (IH _ _ _ G E)|].
    destruct (nth_error _ _) as [v|]; cbn [rbind] in E; [|discriminate]. exact (IH _ _ _ (proj1 (good_sort vs s G)) E).
Qed.
(** After any history of a series: its count, its extremes, and every percentile below 100. *)
Theorem C106_series_partial : forall h s, run h newseries = ROk s -> added h <> [] ->
  se_count s = List.length (added h) /\
  (In (se_min s) (added h) /\ Forall (Z.le (se_min s)) (added h)) /\ (In (se_max s) (added h) /\ Forall (fun x => x <= se_max s) (added h)) /\
  forall p, 0 <= p < 100 -> exists v s', se_percentile s p = ROk (v, s') /\ In v (added h) /\
    let k := (List.length (added h) * Z.to_nat p / 100)%nat in
    (how_many (fun x => (x <? v)%Z) (added h) <= k < how_many (fun x => (x <=? v)%Z) (added h))%nat.
Proof.
  intros h s E Hne. assert (G0 : good [] newseries) by (split; [reflexivity|]; split; [congruence|discriminate]).
  pose proof (run_good h [] newseries s G0 E) as G. cbn [app] in G. destruct (good_sort _ _ G) as (_ & A & P). destruct G as (V & M & _). destruct (M Hne) as [M1 M2].
  split; [unfold se_count; rewrite V; reflexivity|]. split; [exact M1|]. split; [exact M2|]. intros p Hp.
  unfold se_percentile. destruct (Z.ltb_spec p 0); [lia|]. destruct (Z.ltb_spec 100 p); [lia|]. cbn [orb]. unfold se_count. cbn [se_values]. rewrite V in *.
  set (l := match se_sorted s with Some l => l | None => qsort (added h) end) in *. set (k := (List.length (added h) * Z.to_nat p / 100)%nat).
  assert (Hk : (k < List.length l)%nat).
  { rewrite (Permutation_length P). unfold k. apply Nat.div_lt_upper_bound; [lia|]. destruct (added h); [congruence|]. cbn [List.length]. nia. }
  destruct (nth_error l k) as [v|] eqn:Ev; [|apply nth_error_None in Ev; lia]. eexists v, _. split; [reflexivity|].
  split; [apply (Permutation_in _ P); exact (nth_error_In _ _ Ev)|]. cbv zeta. rewrite <- !(how_many_perm _ _ _ P). exact (asc_rank l A k v Ev).
Qed.
Example C106_series_case : exists s, run [Add 5; Percentile 50; Add 1; Add 9; Add 1] newseries = ROk s /\ se_min s = 1 /\ se_max s = 9 /\
  exists s', se_median s = ROk (5, s').
Proof. eexists. split; [vm_compute; reflexivity|]. split; [reflexivity|]. split; [reflexivity|]. eexists. vm_compute. reflexivity. Qed.
(** The median has half of the values below it at most, and more than half not above it. *)
Theorem C106_median : forall h s, run h newseries = ROk s -> added h <> [] -> exists v s', se_median s = ROk (v, s') /\ In v (added h) /\
  (how_many (fun x => (x <? v)%Z) (added h) <= List.length (added h) / 2 < how_many (fun x => (x <=? v)%Z) (added h))%nat.
Proof.
  intros h s E Hne. destruct (C106_series_partial h s E Hne) as (_ & _ & _ & P). destruct (P 50 ltac:(lia)) as (v & s' & E' & I & K). exists v, s'. split; [exact E'|]. split; [exact I|].
  cbv zeta in K. change (Z.to_nat 50) with 50%nat in K. change 100%nat with (2 * 50)%nat in K. rewrite Nat.div_mul_cancel_r in K by lia. exact K.
Qed.
(** The percentile 100, and any of an empty series, is read behind the values. *)
Theorem C106_top_refuted : (forall h s, run h newseries = ROk s -> se_percentile s 100 = RUndefined) /\ se_median newseries = RUndefined.
Proof.
  split; [|reflexivity]. intros h s E. assert (G0 : good [] newseries) by (split; [reflexivity|]; split; [congruence|discriminate]).
  pose proof (run_good h [] newseries s G0 E) as G. destruct (good_sort _ _ G) as (_ & _ & P). destruct G as (V & _).
  unfold se_percentile. cbn [Z.ltb Z.compare orb]. unfold se_count. cbn [se_values]. rewrite V in *.
  match goal with |- context [nth_error ?l ?k] => replace (nth_error l k) with (@None Z) end; [reflexivity|].
  symmetry. apply nth_error_None. rewrite (Permutation_length P). change (Z.to_nat 100) with 100%nat. rewrite Nat.div_mul by lia. cbn [app]. lia.
Qed.

Print Assumptions C105_range.
Print Assumptions C105_seed.
Print Assumptions C105_every.
Print Assumptions C105_period.
Print Assumptions C105_one_refuted.
Print Assumptions C105_sample_partial.
Print Assumptions C105_sample_refuted.
Print Assumptions C106_series_partial.
Print Assumptions C106_median.
Print Assumptions C106_top_refuted.
