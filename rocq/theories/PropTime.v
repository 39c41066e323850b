(** Durations and moments. *)
From Coq Require Import ZArith Lia List Floats.SpecFloat.
From Verif Require Import LibBase LibIO LibText LibTok LibHttp LibTime SpecText SpecTok SpecTime PropHttpRes.
Import ListNotations.
Local Open Scope Z_scope.

Definition dfold (n : Z) (ds : bytes) : Z := fold_left (fun v d => 10 * v + Z.of_N (d - 48)) ds n.
Lemma dfold_ge : forall ds n, 0 <= n -> n <= dfold n ds.
Proof.
  induction ds as [|c ds IH]; intros n Hn; cbn [dfold fold_left]; [lia|]. fold (dfold (10 * n + Z.of_N (c - 48)) ds).
  specialize (IH (10 * n + Z.of_N (c - 48)) ltac:(lia)). lia.
Qed.
Lemma dfold_lt : forall ds n, 0 <= n -> Forall is_digit ds -> dfold n ds < (n + 1) * 10 ^ Z.of_nat (List.length ds).
Proof.
  induction ds as [|c ds IH]; intros n Hn Hd; [cbn; lia|]. cbn [dfold fold_left]. fold (dfold (10 * n + Z.of_N (c - 48)) ds).
  specialize (IH (10 * n + Z.of_N (c - 48)) ltac:(lia) (Forall_inv_tail Hd)). pose proof (Forall_inv Hd) as Hc. unfold is_digit in Hc.
  cbn [List.length]. rewrite Nat2Z.inj_succ, Z.pow_succ_r by lia. assert (0 < 10 ^ Z.of_nat (List.length ds)) by (apply Z.pow_pos_nonneg; lia). nia.
Qed.
Lemma dv_bounds : forall ds, Forall is_digit ds -> 0 <= digits_value ds < 10 ^ Z.of_nat (List.length ds).
Proof. intros ds H. change (digits_value ds) with (dfold 0 ds). pose proof (dfold_ge ds 0). pose proof (dfold_lt ds 0 ltac:(lia) H). lia. Qed.
Lemma digit_test : forall c, is_digit c -> c_isdigit c = true.
Proof. intros c [A B]. unfold c_isdigit. apply andb_true_intro. split; apply N.leb_le; assumption. Qed.
Lemma int_ok : forall z, -2147483648 <= z <= 2147483647 -> int_ z = ROk z.
Proof.
  intros z H. unfold int_, int_max. destruct (Z.leb_spec (- (2147483647) - 1) z); [|lia]. destruct (Z.leb_spec z 2147483647); [|lia]. reflexivity.
Qed.
Definition past (r : bytes) : Prop := match r with c :: _ => c_isdigit c = false | [] => True end.

Lemma readint_fold : forall ds r n, Forall is_digit ds -> past r -> 0 <= n -> dfold n ds <= 2147483647 -> readint (ds ++ r) n = ROk (dfold n ds, r).
Proof.
  induction ds as [|c ds IH]; intros r n Hd Hr Hn Hv.
  - cbn [app dfold fold_left]. destruct r as [|c r]; cbn [readint]; [reflexivity|]. cbn [past] in Hr. rewrite Hr. reflexivity.
  - cbn [app readint]. rewrite (digit_test c (Forall_inv Hd)). cbn [dfold fold_left] in *. fold (dfold (10 * n + Z.of_N (c - 48)) ds) in *.
    pose proof (Forall_inv Hd) as Hc. unfold is_digit in Hc. pose proof (dfold_ge ds (10 * n + Z.of_N (c - 48)) ltac:(lia)) as G.
    rewrite int_ok by lia. cbn [rbind]. replace (n * 10 + (Z.of_N c - 48)) with (10 * n + Z.of_N (c - 48)) by lia.
    rewrite int_ok by lia. cbn [rbind]. apply IH; [exact (Forall_inv_tail Hd)|exact Hr|lia|exact Hv].
Qed.
Lemma readint_at : forall ds r, digits ds -> past r -> digits_value ds <= 2147483647 -> readint (ds ++ r) 0 = ROk (digits_value ds, r).
Proof. intros ds r [_ Hd] Hr Hv. exact (readint_fold ds r 0 Hd Hr ltac:(lia) Hv). Qed.

(** * Numbers as printf writes them *)

Lemma pad_num : forall w z, 0 <= z < 10 ^ 20 -> num w z (pad w z).
Proof.
  intros w z Hz. unfold pad. destruct (Z.ltb_spec z 0); [lia|]. cbn [app List.length].
  assert (Hn : (Z.abs_N z < 10 ^ N.of_nat 20)%N) by (apply N2Z.inj_lt; rewrite N2Z.inj_abs_N, N2Z.inj_pow; lia).
  destruct (dec_text_natural 20 (Z.abs_N z) Hn ltac:(lia)) as (A & B & C & D). rewrite N2Z.inj_abs_N, Z.abs_eq in B by lia.
  assert (V : forall k ds, digits_value (repeat 48%N k ++ ds) = digits_value ds).
  { intros k ds. unfold digits_value. induction k as [|k IH]; [reflexivity|]. cbn [repeat app fold_left]. exact IH. }
  split; [split|split; [|split]].
  - intros E. apply app_eq_nil in E. exact (D (proj2 E)).
  - apply Forall_app. split; [|exact A]. apply Forall_forall. intros c Hc. apply repeat_spec in Hc. subst c. split; lia.
  - rewrite V. exact B.
  - rewrite app_length, repeat_length. lia.
  - rewrite app_length, repeat_length. intros Hw. replace (w - 0 - List.length (dec_text 20 (Z.abs_N z)))%nat with 0%nat in * by lia.
    cbn [repeat app]. intros r E. destruct (C 48%N r E eq_refl) as [_ K]. exact K.
Qed.
Lemma small_lengths : forall z, 0 <= z < 1000 ->
  List.length (pad 3 z) = 3%nat /\ (100 <= z -> List.length (pad 0 z) = 3%nat).
Proof.
  assert (G : forallb (fun k => let z := Z.of_nat k in Nat.eqb (List.length (pad 3 z)) 3 && ((z <? 100) || Nat.eqb (List.length (pad 0 z)) 3)) (seq 0 1000) = true)
    by (vm_compute; reflexivity).
  intros z Hz. rewrite forallb_forall in G. specialize (G (Z.to_nat z)). rewrite in_seq in G. specialize (G ltac:(lia)).
  cbv zeta in G. rewrite Z2Nat.id in G by lia. apply andb_prop in G. destruct G as [G1 G2]. apply Nat.eqb_eq in G1. split; [exact G1|].
  intros H. destruct (Z.ltb_spec z 100); [lia|]. apply Nat.eqb_eq in G2. exact G2.
Qed.

(** * Durations *)

Lemma sdur_clock : forall us, 0 <= us -> us / 60000000 <= 2147483647 ->
  let p := sdur us in clock us (d_h p) (d_m p) (d_s p) (d_ms p) /\ d_h p * 60 + d_m p = us / 60000000 /\ d_ms p = us / 1000 mod 1000.
Proof.
  intros us H0 H1. cbv zeta. unfold sdur. cbn [d_h d_m d_s d_ms].
  assert (P1 : 0 <= us / 1000) by (apply Z.div_pos; lia). assert (P2 : 0 <= us / 1000 / 1000) by (apply Z.div_pos; lia).
  assert (P3 : 0 <= us / 1000 / 1000 / 60) by (apply Z.div_pos; lia). assert (P4 : 0 <= us / 1000 / 1000 / 60 / 60) by (apply Z.div_pos; lia).
  rewrite (Z.quot_div_nonneg us) by lia. rewrite (Z.quot_div_nonneg (us / 1000)) by lia. rewrite (Z.quot_div_nonneg (us / 1000 / 1000)) by lia.
  rewrite (Z.quot_div_nonneg (us / 1000 / 1000 / 60)) by lia. rewrite !Z.rem_mod_nonneg by lia.
  assert (E : us / 60000000 = us / 1000 / 1000 / 60) by (rewrite !Z.div_div by lia; reflexivity).
  rewrite E in *. clear E.
  pose proof (Z.div_mod us 1000 ltac:(lia)) as D1. pose proof (Z.mod_pos_bound us 1000 ltac:(lia)) as M1.
  set (a := us / 1000) in *. pose proof (Z.div_mod a 1000 ltac:(lia)) as D2. pose proof (Z.mod_pos_bound a 1000 ltac:(lia)) as M2.
  set (b := a / 1000) in *. pose proof (Z.div_mod b 60 ltac:(lia)) as D3. pose proof (Z.mod_pos_bound b 60 ltac:(lia)) as M3.
  set (c := b / 60) in *. pose proof (Z.div_mod c 60 ltac:(lia)) as D4. pose proof (Z.mod_pos_bound c 60 ltac:(lia)) as M4.
  set (d := c / 60) in *. assert (T : to_int d = d) by (unfold to_int; rewrite Z.mod_small by lia; lia). rewrite T.
  unfold clock. lia.
Qed.

(** A duration below 4085 years is shown as hours, minutes, seconds and whole milliseconds;
    the answer says whether the text fits; what does not fit is cut. *)
Theorem C103_format_partial : forall us fmt, 0 <= us -> us / 60000000 <= 2147483647 ->
  In fmt [L "mm:ss"; L "mm:ss.ms"; L "[h]:mm:ss.mmm"] \/ (fmt = L "hh:mm:ss,ms" /\ 100 <= us / 1000 mod 1000) ->
  exists t, shows us fmt t /\
    forall n, dur_fmt us n fmt = ROk (Nat.ltb (List.length t) n, if Nat.ltb (List.length t) n then t else firstn (n - 1) t).
Proof.
  intros us fmt H0 H1 Hf. destruct (sdur_clock us H0 H1) as (C & Hm & Hms). cbv zeta in *.
  destruct C as (C1 & C2 & C3 & C4 & C5). set (p := sdur us) in *.
  assert (F : forall t, dur_text us fmt = ROk t -> forall n,
    dur_fmt us n fmt = ROk (Nat.ltb (List.length t) n, if Nat.ltb (List.length t) n then t else firstn (n - 1) t)).
  { intros t E n. unfold dur_fmt. rewrite E. cbn [rbind]. unfold snprintf, Nat.ltb. rewrite Nat.add_1_r.
    destruct (Nat.leb_spec (S (List.length t)) n); [|reflexivity]. rewrite firstn_all2 by lia. reflexivity. }
  assert (Hh : d_h p * 60 + d_m p <= 2147483647) by lia.
  assert (I1 : int_ (60 * d_h p) = ROk (60 * d_h p)) by (apply int_ok; lia).
  assert (I2 : int_ (d_m p + 60 * d_h p) = ROk (d_h p * 60 + d_m p)) by (rewrite int_ok by lia; f_equal; lia).
  assert (Nm : forall w z, 0 <= z <= 2147483647 -> num w z (pad w z)) by (intros; apply pad_num; lia).
  assert (C : clock us (d_h p) (d_m p) (d_s p) (d_ms p)) by (unfold clock; auto).
  destruct Hf as [[<-|[<-|[<-|[]]]]|[-> H100]].
  - exists (pad 2 (d_h p * 60 + d_m p) ++ L ":" ++ pad 2 (d_s p)). split.
    + apply (sh_mmss us _ _ _ _ _ _ C); apply Nm; lia.
    + apply F. unfold dur_text. fold p. change (bytes_eqb (L "mm:ss") (L "mm:ss")) with true. cbn iota. rewrite I1. cbn [rbind]. rewrite I2. reflexivity.
  - exists (pad 2 (d_h p * 60 + d_m p) ++ L ":" ++ pad 2 (d_s p) ++ L "." ++ pad 3 (d_ms p)). split.
    + apply (sh_mmssms us _ _ _ _ _ _ _ C); apply Nm; lia.
    + apply F. unfold dur_text. fold p. change (bytes_eqb (L "mm:ss.ms") (L "mm:ss")) with false.
      change (bytes_eqb (L "mm:ss.ms") (L "mm:ss.ms")) with true. cbn iota. rewrite I1. cbn [rbind]. rewrite I2. reflexivity.
  - destruct (Z.ltb_spec 0 (d_h p)) as [Hp|Hp].
    + exists (pad 0 (d_h p) ++ L ":" ++ pad 2 (d_m p) ++ L ":" ++ pad 2 (d_s p) ++ L "." ++ pad 3 (d_ms p)). split.
      * apply (sh_long us _ _ _ _ _ _ _ _ C Hp); apply Nm; lia.
      * apply F. unfold dur_text. fold p. change (bytes_eqb (L "[h]:mm:ss.mmm") (L "mm:ss")) with false. change (bytes_eqb (L "[h]:mm:ss.mmm") (L "mm:ss.ms")) with false.
        change (bytes_eqb (L "[h]:mm:ss.mmm") (L "hh:mm:ss,ms")) with false. change (bytes_eqb (L "[h]:mm:ss.mmm") (L "[h]:mm:ss.mmm")) with true. cbn iota.
        destruct (Z.ltb_spec 0 (d_h p)); [reflexivity|lia].
    + exists (pad 0 (d_m p) ++ L ":" ++ pad 2 (d_s p) ++ L "." ++ pad 3 (d_ms p)). split.
      * assert (E : d_h p = 0) by lia. rewrite E in C. apply (sh_short us _ _ _ _ _ _ C); apply Nm; lia.
      * apply F. unfold dur_text. fold p. change (bytes_eqb (L "[h]:mm:ss.mmm") (L "mm:ss")) with false. change (bytes_eqb (L "[h]:mm:ss.mmm") (L "mm:ss.ms")) with false.
        change (bytes_eqb (L "[h]:mm:ss.mmm") (L "hh:mm:ss,ms")) with false. change (bytes_eqb (L "[h]:mm:ss.mmm") (L "[h]:mm:ss.mmm")) with true. cbn iota.
        destruct (Z.ltb_spec 0 (d_h p)); [lia|reflexivity].
  - exists (pad 2 (d_h p) ++ L ":" ++ pad 2 (d_m p) ++ L ":" ++ pad 2 (d_s p) ++ L "," ++ pad 0 (d_ms p)). split.
    + apply (sh_hhmmssms us _ _ _ _ _ _ _ _ C); try (apply Nm; lia).
      destruct (Nm 0%nat (d_ms p) ltac:(lia)) as (N1 & N2 & _ & N4). destruct (small_lengths (d_ms p) C4) as [_ L3]. specialize (L3 ltac:(lia)).
      split; [exact N1|]. split; [exact N2|]. split; [rewrite L3; lia|]. rewrite L3. lia.
    + apply F. unfold dur_text. fold p. change (bytes_eqb (L "hh:mm:ss,ms") (L "mm:ss")) with false. change (bytes_eqb (L "hh:mm:ss,ms") (L "mm:ss.ms")) with false.
      change (bytes_eqb (L "hh:mm:ss,ms") (L "hh:mm:ss,ms")) with true. reflexivity.
Qed.
Example C103_format_case : dur_fmt 3723004005 20 (L "mm:ss.ms") = ROk (true, L "62:03.004") /\
  dur_fmt 3723004005 20 (L "[h]:mm:ss.mmm") = ROk (true, L "1:02:03.004") /\ dur_fmt 3723004005 5 (L "mm:ss") = ROk (false, L "62:0") /\
  dur_fmt 3723204005 20 (L "hh:mm:ss,ms") = ROk (true, L "01:02:03,204").
Proof. repeat split; vm_compute; reflexivity. Qed.
(** "hh:mm:ss,ms" writes five milliseconds like five tenths of a second. *)
Theorem C103_srt_refuted : dur_fmt 1005000 20 (L "hh:mm:ss,ms") = ROk (true, L "00:00:01,5") /\ ~ shows 1005000 (L "hh:mm:ss,ms") (L "00:00:01,5").
Proof.
  split; [vm_compute; reflexivity|]. intros H. remember (L "hh:mm:ss,ms") as fmt eqn:Ef. remember (L "00:00:01,5") as t eqn:Et.
  destruct H as [| |h m s ms a b c d _ Ha Hb Hc Hd| |]; try discriminate Ef. clear Ef.
  destruct Ha as (_ & _ & La & _), Hb as (_ & _ & Lb & _), Hc as (_ & _ & Lc & _), Hd as (_ & _ & Ld & _).
  apply (f_equal (@List.length N)) in Et. rewrite !app_length in Et. simpl in Et. unfold char in *. lia.
Qed.
(** A negative duration has a sign in each part. *)
Theorem C103_negative_refuted : dur_fmt (-61000000) 20 (L "mm:ss") = ROk (true, L "-1:-1").
Proof. vm_compute. reflexivity. Qed.

Lemma frac_fold : forall ds k size val, Forall is_digit ds -> (k + List.length ds <= 7)%nat ->
  frac_digits ds k size val = (dfold val ds, size * 10 ^ Z.of_nat (List.length ds)).
Proof.
  induction ds as [|c ds IH]; intros k size val Hd Hk; cbn [frac_digits]; [cbn; f_equal; lia|].
  rewrite (digit_test c (Forall_inv Hd)). cbn [List.length] in Hk. destruct (Nat.ltb_spec 6 k); [lia|].
  rewrite IH; [|exact (Forall_inv_tail Hd)|lia]. pose proof (Forall_inv Hd) as Hc. unfold is_digit in Hc. cbn [List.length dfold fold_left].
  rewrite Nat2Z.inj_succ, Z.pow_succ_r by lia. f_equal; [|ring].
  replace (val * 10 + (Z.of_N c - 48)) with (10 * val + Z.of_N (c - 48)) by lia. reflexivity.
Qed.
Lemma frac_small : forall ds, Forall is_digit ds -> (List.length ds <= 3)%nat ->
  frac_us (digits_value ds) (10 ^ Z.of_nat (List.length ds)) = digits_value ds * 1000000 / 10 ^ Z.of_nat (List.length ds).
Proof.
  assert (G : forallb (fun k => forallb (fun v => frac_us (Z.of_nat v) (10 ^ Z.of_nat k) =? Z.of_nat v * 1000000 / 10 ^ Z.of_nat k) (seq 0 (Z.to_nat (10 ^ Z.of_nat k)))) [0; 1; 2; 3]%nat = true)
    by (vm_compute; reflexivity).
  intros ds Hd Hl. pose proof (dv_bounds ds Hd) as B. assert (B3 : 10 ^ Z.of_nat (List.length ds) <= 10 ^ 3) by (apply Z.pow_le_mono_r; lia).
  change (10 ^ 3) with 1000 in B3. rewrite forallb_forall in G.
  assert (In (List.length ds) [0; 1; 2; 3]%nat) as Hin by (destruct (List.length ds) as [|[|[|[|]]]]; cbn; auto; lia).
  apply G in Hin. rewrite forallb_forall in Hin. specialize (Hin (Z.to_nat (digits_value ds))). rewrite in_seq in Hin. specialize (Hin ltac:(lia)).
  rewrite Z2Nat.id in Hin by lia. apply Z.eqb_eq in Hin. exact Hin.
Qed.

(** mm:ss with at most three decimals, up to 35:47, is read exactly. *)
Theorem C103_parse_partial : forall t us, duration_text t us -> us / 1000000 <= 2147 ->
  (forall x f, t = x ++ L "." ++ f -> (List.length f <= 3)%nat) -> parse_duration t = ROk (Some us).
Proof.
  assert (G : forall a b rest, digits a -> digits b -> digits_value a * 60 + digits_value b <= 2147 -> past rest -> (forall r, rest <> L ":" ++ r) ->
    parse_duration (a ++ L ":" ++ b ++ rest) =
    match rest with
    | c :: r => if (c =? 46)%N then let '(val, size) := frac_digits r 0 1 0 in ROk (Some ((digits_value a * 60 + digits_value b) * 1000000 + frac_us val size))
                else ROk (Some ((digits_value a * 60 + digits_value b) * 1000000))
    | [] => ROk (Some ((digits_value a * 60 + digits_value b) * 1000000))
    end).
  { intros a b rest Ha Hb Hv Hr Hc. pose proof (dv_bounds a (proj2 Ha)) as Ba. pose proof (dv_bounds b (proj2 Hb)) as Bb.
    unfold parse_duration. remember (a ++ L ":" ++ b ++ rest) as s eqn:Es.
    assert (Hs : s <> []) by (subst s; destruct a; discriminate). destruct s as [|c0 s0]; [contradiction|]. rewrite Es. clear Hs Es c0 s0.
    rewrite (readint_at a (L ":" ++ b ++ rest) Ha ltac:(reflexivity)) by lia. cbn [rbind].
    match goal with |- context [Nat.eqb ?x ?y] => replace (Nat.eqb x y) with false end.
    2: { symmetry. apply Nat.eqb_neq. intros E. rewrite (app_length a) in E. destruct Ha as [Ha _]. destruct a; [contradiction|]. cbn [List.length] in E. unfold char in *. lia. }
    change (L ":" ++ b ++ rest) with (58%N :: b ++ rest). cbn [colon_int]. change (58 =? 58)%N with true. cbn iota.
    rewrite (readint_at b rest Hb Hr) by lia. cbn [rbind app].
    assert (E : colon_int rest [digits_value a; digits_value b] = ROk ([digits_value a; digits_value b], rest)).
    { destruct rest as [|c r]; [reflexivity|]. cbn [colon_int]. destruct (N.eqb_spec c 58) as [->|]; [destruct (Hc r eq_refl)|reflexivity]. }
    rewrite E. cbn [rbind]. rewrite int_ok by lia. cbn [rbind]. rewrite int_ok by lia. cbn [rbind]. unfold SECONDS at 1. rewrite int_ok by lia. reflexivity. }
  intros t us H Hu Hf. destruct H as [a b Ha Hb|a b f Ha Hb Hd].
  - rewrite Z.div_mul in Hu by lia. specialize (G a b [] Ha Hb Hu I ltac:(discriminate)). rewrite app_nil_r in G. exact G.
  - assert (Lf : (List.length f <= 3)%nat) by (apply (Hf (a ++ L ":" ++ b)); rewrite <- !app_assoc; reflexivity).
    pose proof (dv_bounds f (proj2 Hd)) as Bf. assert (P : 0 < 10 ^ Z.of_nat (List.length f)) by (apply Z.pow_pos_nonneg; lia).
    assert (Q : 0 <= digits_value f * 1000000 / 10 ^ Z.of_nat (List.length f) < 1000000).
    { split; [apply Z.div_pos; lia|]. apply Z.div_lt_upper_bound; [exact P|]. nia. }
    rewrite Z.add_comm, Z.div_add, Z.div_small in Hu by lia. rewrite Z.add_0_l in Hu.
    rewrite (G a b (L "." ++ f) Ha Hb Hu ltac:(reflexivity) ltac:(intros r E; discriminate E)).
    change (L "." ++ f) with (46%N :: f). cbn iota. change (46 =? 46)%N with true. cbn iota.
    rewrite (frac_fold f 0 1 0 (proj2 Hd)) by lia. rewrite Z.mul_1_l. change (dfold 0 f) with (digits_value f).
    rewrite (frac_small f (proj2 Hd) Lf). reflexivity.
Qed.
Lemma digits_ok : forall t : bytes, (match t with [] => false | _ => forallb c_isdigit t end) = true -> digits t.
Proof.
  intros t H. split; [destruct t; discriminate|]. destruct t; [constructor|]. apply Forall_forall. rewrite forallb_forall in H.
  intros x Hx. apply H in Hx. unfold c_isdigit in Hx. apply andb_prop in Hx. destruct Hx as [A B]. apply N.leb_le in A. apply N.leb_le in B. split; assumption.
Qed.
Example C103_parse_case : duration_text (L "35:47.25") 2147250000 /\ parse_duration (L "35:47.25") = ROk (Some 2147250000).
Proof.
  split; [|vm_compute; reflexivity]. apply (dt_frac (L "35") (L "47") (L "25")); apply digits_ok; reflexivity.
Qed.

(** What [dur_fmt] writes is read back up to the milliseconds. *)
Theorem C103_round_trip_partial : forall us n t, 0 <= us -> us / 1000000 <= 2147 ->
  dur_fmt us n (L "mm:ss.ms") = ROk (true, t) -> parse_duration t = ROk (Some (us - us mod 1000)).
Proof.
  intros us n t H0 H1 H.
  assert (Hb : us < 2148 * 1000000).
  { pose proof (Z.div_mod us 1000000 ltac:(lia)). pose proof (Z.mod_pos_bound us 1000000 ltac:(lia)). lia. }
  assert (H2 : us / 60000000 <= 2147483647) by (apply Z.div_le_upper_bound; lia).
  destruct (sdur_clock us H0 H2) as ((C1 & C2 & C3 & C4 & C5) & Hm & Hms). cbv zeta in *. set (p := sdur us) in *.
  unfold dur_fmt, dur_text in H. fold p in H. change (bytes_eqb (L "mm:ss.ms") (L "mm:ss")) with false in H.
  change (bytes_eqb (L "mm:ss.ms") (L "mm:ss.ms")) with true in H. cbn iota in H. rewrite int_ok in H by lia. cbn [rbind] in H. rewrite int_ok in H by lia.
  cbn [rbind] in H. set (x := pad 2 (d_m p + 60 * d_h p) ++ L ":" ++ pad 2 (d_s p) ++ L "." ++ pad 3 (d_ms p)) in *.
  injection H as Hl <-. apply Nat.leb_le in Hl. unfold snprintf. rewrite firstn_all2 by lia.
  destruct (pad_num 2 (d_m p + 60 * d_h p) ltac:(lia)) as (A1 & A2 & _). destruct (pad_num 2 (d_s p) ltac:(lia)) as (B1 & B2 & _).
  destruct (pad_num 3 (d_ms p) ltac:(lia)) as (D1 & D2 & _). destruct (small_lengths (d_ms p) C4) as [L3 _].
  assert (E : (digits_value (pad 2 (d_m p + 60 * d_h p)) * 60 + digits_value (pad 2 (d_s p))) * 1000000 +
              digits_value (pad 3 (d_ms p)) * 1000000 / 10 ^ Z.of_nat (List.length (pad 3 (d_ms p))) = us - us mod 1000).
  { rewrite A2, B2, D2, L3. change (10 ^ Z.of_nat 3) with 1000. replace (d_ms p * 1000000) with (d_ms p * 1000 * 1000) by ring. rewrite Z.div_mul by lia.
    pose proof (Z.div_mod us 1000 ltac:(lia)). pose proof (Z.mod_pos_bound us 1000 ltac:(lia)). lia. }
  rewrite <- E. apply C103_parse_partial; [exact (dt_frac _ _ _ A1 B1 D1)|rewrite E|].
  - etransitivity; [|exact H1]. apply Z.div_le_mono; [lia|]. pose proof (Z.mod_pos_bound us 1000 ltac:(lia)). lia.
  - intros y f Ey. unfold x in Ey.
    assert (U : forall (a f c d : bytes), ~ In 46%N c -> ~ In 46%N d -> a ++ 46%N :: f = c ++ 46%N :: d -> f = d).
    { intros a f0 c d Hc Hd. revert a. induction c as [|z c IH]; intros [|w a] K; cbn [app] in K.
      - injection K as K. exact K.
      - injection K as -> K. destruct Hd. rewrite <- K. apply in_or_app. right. left. reflexivity.
      - injection K as <- _. destruct Hc. left. reflexivity.
      - injection K as -> K. apply (IH ltac:(intros Hi; apply Hc; right; exact Hi) a K). }
    assert (Nd : forall d : bytes, digits d -> ~ In 46%N d).
    { intros d [_ Hd] Hi. rewrite Forall_forall in Hd. apply Hd in Hi. unfold is_digit in Hi. lia. }
    assert (K : f = pad 3 (d_ms p)).
    { apply (U y f (pad 2 (d_m p + 60 * d_h p) ++ L ":" ++ pad 2 (d_s p)) (pad 3 (d_ms p))); [|exact (Nd _ D1)|rewrite <- !app_assoc; symmetry; exact Ey].
      intros Hi. apply in_app_or in Hi. destruct Hi as [Hi|[Hi|Hi]]; [exact (Nd _ A1 Hi)|discriminate Hi|exact (Nd _ B1 Hi)]. }
    rewrite K. apply Nat.eq_le_incl. exact L3.
Qed.
Example C103_round_trip_case : dur_fmt 62004005 20 (L "mm:ss.ms") = ROk (true, L "01:02.004") /\ parse_duration (L "01:02.004") = ROk (Some 62004000).
Proof. split; vm_compute; reflexivity. Qed.
(** Hours are refused although they are announced; from 35:48 on the product leaves the range
    of int; the fraction .0157 loses a microsecond; anything may follow, and the seconds may
    be missing. *)
Theorem C103_parse_refuted :
  parse_duration (L "1:02:03") = ROk None /\
  (duration_text (L "35:48") 2148000000 /\ parse_duration (L "35:48") = RUndefined) /\
  (duration_text (L "0:00.0157") 15700 /\ parse_duration (L "0:00.0157") = ROk (Some 15699)) /\
  parse_duration (L "1:00 o'clock") = ROk (Some 60000000) /\ parse_duration (L "1:") = ROk (Some 60000000).
Proof.
  split; [vm_compute; reflexivity|]. split; [split; [|vm_compute; reflexivity]|].
  { apply (dt_whole (L "35") (L "48")); apply digits_ok; reflexivity. }
  split; [split; [|vm_compute; reflexivity]|].
  { apply (dt_frac (L "0") (L "00") (L "0157")); apply digits_ok; reflexivity. }
  split; vm_compute; reflexivity.
Qed.

(** * Moments *)

Lemma digits_past : forall c r, (c < 48 \/ 57 < c)%N -> past (c :: r).
Proof.
  intros c r H. cbn. unfold c_isdigit. apply andb_false_iff. destruct H; [left|right]; apply N.leb_gt; assumption.
Qed.
Definition fields_of (v : iso) : list Z := [i_Y v; i_M v; i_D v; i_h v; i_m v; i_s v; i_ms v; i_zh v; i_zm v].

Lemma iso_reads : forall Y M D h m s f z ms zh zm,
  digits Y -> digits M -> digits D -> digits h -> digits m -> digits s ->
  Forall (fun d => digits_value d <= 2147483647) [Y; M; D; h; m; s] ->
  (f = [] /\ ms = 0 \/ exists d, f = L "." ++ d /\ digits d /\ digits_value d = ms /\ ms <= 2147483647) ->
  zone z zh zm -> zh <= 2147483647 -> zm <= 2147483647 -> (forall r, z <> L "-" ++ r) ->
  parse_iso (Y ++ L "-" ++ M ++ L "-" ++ D ++ L "T" ++ h ++ L ":" ++ m ++ L ":" ++ s ++ f ++ z) =
  ROk (mkIso (digits_value Y) (digits_value M) (digits_value D) (digits_value h) (digits_value m) (digits_value s) ms zh zm).
Proof.
  intros Y M D h m s f z ms zh zm HY HM HD Hh Hm Hs HF Hf Hz Bzh Bzm Hw.
  assert (P : forall c r, In c (L "-T:.Z+") -> past (c :: r)).
  { intros c r Hc. apply digits_past. repeat (destruct Hc as [<-|Hc]; [try (left; reflexivity); right; reflexivity|]). destruct Hc. }
  rewrite Forall_forall in HF.
  unfold parse_iso.
  do 5 (match goal with |- context [readint (?d ++ ?r) 0] => rewrite (readint_at d r) end; [|assumption|reflexivity|apply HF; cbn; auto 10];
    cbn [rbind]; match goal with |- context [expect ?c (?l ++ ?r)] => change (expect c (l ++ r)) with (ROk r) end; cbn [rbind]).
  assert (Zc : exists c r, z = c :: r /\ (c = 90%N \/ c = 43%N)).
  { destruct Hz as [|a b Ha Hb|a b Ha Hb]; [exists 90%N, []; auto|exists 43%N, (a ++ L ":" ++ b); auto|destruct (Hw (a ++ L ":" ++ b) eq_refl)]. }
  assert (Pz : past z) by (destruct Zc as (c & r & -> & [->| ->]); apply P; cbn; auto 10).
  assert (Pf : past (f ++ z)).
  { destruct Hf as [[-> _]|(d & -> & _)]; [exact Pz|]. exact (P 46%N (d ++ z) ltac:(cbn; auto)). }
  rewrite (readint_at s (f ++ z) Hs Pf) by (apply HF; cbn; auto 10). cbn [rbind].
  match goal with |- rbind ?x _ = _ => assert (Ef : x = ROk (ms, z)) end.
  { destruct Hf as [[-> ->]|(d & -> & Hd & Ed & Bd)].
    - cbn [app]. destruct Zc as (c & r & -> & [->| ->]); reflexivity.
    - change ((L "." ++ d) ++ z) with (46%N :: d ++ z). cbn iota. change (46 =? 46)%N with true. cbn iota. rewrite <- Ed. apply readint_at; [exact Hd|exact Pz|lia]. }
  rewrite Ef. cbn [rbind]. clear Ef Pf Pz Zc. destruct Hz as [|a b Ha Hb|a b Ha Hb]; [reflexivity| |destruct (Hw (a ++ L ":" ++ b) eq_refl)].
  change (L "+" ++ a ++ L ":" ++ b) with (43%N :: a ++ L ":" ++ b). cbn iota. change (43 =? 90)%N with false. change (43 =? 43)%N with true. cbn iota.
  rewrite (readint_at a (L ":" ++ b) Ha ltac:(reflexivity) Bzh). cbn [rbind]. change (expect 58 (L ":" ++ b)) with (ROk b). cbn [rbind].
  assert (K := readint_at b [] Hb I Bzm). rewrite app_nil_r in K. rewrite K. reflexivity.
Qed.

(** A moment east of Greenwich or at UTC, with milliseconds or without, is read. *)
Theorem C104_read_partial : forall t f z v, iso_text t f z (fields_of v) -> Forall int_range (fields_of v) ->
  f = [] \/ List.length f = 4%nat -> (forall r, z <> L "-" ++ r) -> parse_iso t = ROk v.
Proof.
  intros t f z [Y M D h m s ms zh zm] H HI Hf Hz. unfold fields_of in *. cbn [i_Y i_M i_D i_h i_m i_s i_ms i_zh i_zm] in *.
  inversion H as [Y' M' D' h' m' s' f' z' ms' zh' zm' HY HM HD Hh Hm Hs Hms Hzo E1 E2 E3 E4]. subst.
  rewrite Forall_forall in HI.
  apply iso_reads; auto.
  - repeat constructor; apply HI; cbn; auto 10.
  - destruct Hms as [|d Hd]; [left; auto|]. right. exists d. split; [reflexivity|]. split; [exact Hd|].
    destruct Hf as [Hf|Hf]; [discriminate|]. rewrite app_length in Hf. change (List.length (L ".")) with 1%nat in Hf.
    assert (L3 : List.length d = 3%nat) by (unfold char in *; lia). rewrite L3. change (10 ^ Z.of_nat 3) with 1000. rewrite Z.div_mul by lia. split; [reflexivity|].
    pose proof (dv_bounds d (proj2 Hd)) as B. rewrite L3 in B. change (10 ^ Z.of_nat 3) with 1000 in B. lia.
  - apply HI; cbn; auto 10.
  - apply HI; cbn; auto 10.
Qed.
Example C104_read_case : iso_text (L "2025-12-08T20:31:06.250+02:30") (L ".250") (L "+02:30") [2025; 12; 8; 20; 31; 6; 250; 2; 30] /\
  parse_iso (L "2025-12-08T20:31:06.250+02:30") = ROk (mkIso 2025 12 8 20 31 6 250 2 30).
Proof.
  split; [|vm_compute; reflexivity].
  apply (it_make (L "2025") (L "12") (L "08") (L "20") (L "31") (L "06") (L ".250") (L "+02:30") 250 2 30); try (apply digits_ok; reflexivity).
  - apply (fm_some (L "250")). apply digits_ok. reflexivity.
  - apply (zone_east (L "02") (L "30")); apply digits_ok; reflexivity.
Qed.
(** Half a second is read as five milliseconds; a zone to the west, a missing zone and
    any other text end the program. *)
Theorem C104_read_refuted :
  (exists t, iso_text t (L ".5") (L "Z") [2026; 1; 2; 3; 4; 5; 500; 0; 0] /\ parse_iso t = ROk (mkIso 2026 1 2 3 4 5 5 0 0)) /\
  (exists t, iso_text t [] (L "-05:00") [2026; 1; 2; 3; 4; 5; 0; -5; 0] /\ parse_iso t = RPanic) /\ parse_iso (L "yesterday") = RPanic.
Proof.
  split; [exists (L "2026-01-02T03:04:05.5Z")|split; [exists (L "2026-01-02T03:04:05-05:00")|vm_compute; reflexivity]]; (split; [|vm_compute; reflexivity]).
  - apply (it_make (L "2026") (L "01") (L "02") (L "03") (L "04") (L "05") (L ".5") (L "Z") 500 0 0); try (apply digits_ok; reflexivity); [|apply zone_utc].
    apply (fm_some (L "5")). apply digits_ok. reflexivity.
  - apply (it_make (L "2026") (L "01") (L "02") (L "03") (L "04") (L "05") [] (L "-05:00") 0 (-5) 0); try (apply digits_ok; reflexivity); [apply fm_none|].
    apply (zone_west (L "05") (L "00")); apply digits_ok; reflexivity.
Qed.

Lemma pad4 : forall z, 1000 <= z < 10 ^ 20 -> num 4 z (pad 0 z).
Proof.
  intros z Hz. destruct (pad_num 0 z ltac:(lia)) as (A & B & _ & C). split; [exact A|]. split; [exact B|].
  assert (Hl : (4 <= List.length (pad 0 z))%nat).
  { pose proof (dv_bounds (pad 0 z) (proj2 A)) as K. rewrite B in K. destruct (Nat.leb_spec 4 (List.length (pad 0 z))) as [|Hs]; [assumption|].
    assert (10 ^ Z.of_nat (List.length (pad 0 z)) <= 10 ^ 3) by (apply Z.pow_le_mono_r; lia). change (10 ^ 3) with 1000 in *. lia. }
  split; [exact Hl|]. intros _. apply C. lia.
Qed.
(** A moment at UTC from the year 1000 on is written in full, if there is room, and read back. *)
Theorem C104_write_partial : forall v, Forall (fun z => 0 <= z <= 2147483647) (fields_of v) -> 1000 <= i_Y v -> i_ms v <= 999 -> i_zh v = 0 -> i_zm v = 0 ->
  exists t, iso_full [i_Y v; i_M v; i_D v; i_h v; i_m v; i_s v; i_ms v] t /\ parse_iso t = ROk v /\
    forall n, fmt_iso_iso v n = (true, if Nat.ltb (List.length t) n then t else firstn (n - 1) t).
Proof.
  intros [Y M D h m s ms zh zm] H HY Hms Hzh Hzm. unfold fields_of in H. cbn [i_Y i_M i_D i_h i_m i_s i_ms i_zh i_zm] in *. subst zh zm.
  rewrite Forall_forall in H.
  assert (B : forall z w, In z [Y; M; D; h; m; s; ms] -> num w z (pad w z)).
  { intros z w Hz. apply pad_num. assert (0 <= z <= 2147483647); [|lia]. apply H. cbn in Hz |- *. tauto. }
  exists (pad 0 Y ++ L "-" ++ pad 2 M ++ L "-" ++ pad 2 D ++ L "T" ++ pad 2 h ++ L ":" ++ pad 2 m ++ L ":" ++ pad 2 s ++ L "." ++ pad 3 ms ++ L "Z").
  split; [|split].
  - constructor; [apply pad4; assert (0 <= Y <= 2147483647) by (apply H; cbn; auto); lia| | | | | |]; apply B; cbn; auto 10.
  - assert (V : forall z w, In z [Y; M; D; h; m; s; ms] -> digits (pad w z) /\ digits_value (pad w z) = z).
    { intros z w Hz. destruct (B z w Hz) as (A1 & A2 & _). auto. }
    assert (K := iso_reads (pad 0 Y) (pad 2 M) (pad 2 D) (pad 2 h) (pad 2 m) (pad 2 s) (L "." ++ pad 3 ms) (L "Z") ms 0 0).
    rewrite (proj2 (V Y 0%nat ltac:(cbn; auto 10))), (proj2 (V M 2%nat ltac:(cbn; auto 10))), (proj2 (V D 2%nat ltac:(cbn; auto 10))), (proj2 (V h 2%nat ltac:(cbn; auto 10))),
      (proj2 (V m 2%nat ltac:(cbn; auto 10))), (proj2 (V s 2%nat ltac:(cbn; auto 10))) in K. rewrite <- !app_assoc in K. apply K; try (apply V; cbn; auto 10).
    + repeat constructor; match goal with |- digits_value (pad ?w ?z) <= _ => rewrite (proj2 (V z w ltac:(cbn; auto 10))) end; apply H; cbn; auto 10.
    + right. exists (pad 3 ms). split; [reflexivity|]. destruct (V ms 3%nat ltac:(cbn; auto 10)) as [V1 V2]. split; [exact V1|]. split; [exact V2|lia].
    + apply zone_utc.
    + lia.
    + lia.
    + intros r E. discriminate E.
  - intros n. unfold fmt_iso_iso. cbn [i_Y i_M i_D i_h i_m i_s i_ms]. f_equal. unfold snprintf.
    match goal with |- firstn _ ?x = _ => set (t := x) end. unfold Nat.ltb. destruct (Nat.leb_spec (S (List.length t)) n); [|reflexivity].
    apply firstn_all2. lia.
Qed.
Example C104_write_case : fmt_iso_iso (mkIso 2026 1 2 3 4 5 6 0 0) 30 = (true, L "2026-01-02T03:04:05.006Z").
Proof. vm_compute. reflexivity. Qed.
(** A moment in another zone is written as if it were UTC, and a text that was cut is
    answered with true. *)
Theorem C104_write_refuted :
  fmt_iso_iso (mkIso 2026 1 2 3 4 5 6 2 0) 30 = (true, L "2026-01-02T03:04:05.006Z") /\
  fmt_iso_iso (mkIso 2026 1 2 3 4 5 6 0 0) 11 = (true, L "2026-01-02").
Proof. split; vm_compute; reflexivity. Qed.

(** The offset of the zone from the time of day here and at Greenwich. *)
Theorem C104_offset_partial : forall utc offset, 0 <= utc < 1440 -> -555 < offset < 675 ->
  tzoffset ((utc + offset) mod 1440) utc = offset.
Proof.
  intros utc o Hu Ho. unfold tzoffset.
  pose proof (Z.div_mod (utc + o) 1440 ltac:(lia)) as D. pose proof (Z.mod_pos_bound (utc + o) 1440 ltac:(lia)) as M.
  set (l := (utc + o) mod 1440) in *. set (q := (utc + o) / 1440) in *. assert (q = -1 \/ q = 0 \/ q = 1) as Q by lia.
  destruct (Z.ltb_spec (l - utc) (- (12 * 60 + 45))); [lia|]. destruct (Z.ltb_spec (14 * 60 + 45) (l - utc)); lia.
Qed.
Example C104_offset_case : tzoffset ((1380 + 120) mod 1440) 1380 = 120.
Proof. reflexivity. Qed.
(** The range of offsets is wider than a day: at noon in Greenwich New Zealand (+12:00)
    counts as -12:00, and in the morning Hawaii (-10:00) as +14:00. *)
Theorem C104_offset_refuted : tzoffset ((720 + 720) mod 1440) 720 = -720 /\ tzoffset ((360 + -600) mod 1440) 360 = 840.
Proof. split; reflexivity. Qed.

Lemma carry_ok : forall k m h, 0 < m <= 60 -> forall f, (k < f)%nat -> carry f (m + 60 * Z.of_nat k) h = ROk (m, h + Z.of_nat k).
Proof.
  induction k as [|k IH]; intros m h Hm f Hf; (destruct f as [|f]; [lia|]); cbn [carry].
  - destruct (Z.ltb_spec 60 (m + 60 * Z.of_nat 0)); [lia|]. do 2 f_equal; lia.
  - destruct (Z.ltb_spec 60 (m + 60 * Z.of_nat (S k))); [|lia]. replace (m + 60 * Z.of_nat (S k) - 60) with (m + 60 * Z.of_nat k) by lia.
    rewrite IH by lia. do 2 f_equal. lia.
Qed.
(** A moment at UTC is moved to a zone where the day is the same, unless the minutes are
    carried to a full hour. *)
Theorem C104_local_partial : forall v offset, i_zh v = 0 -> i_zm v = 0 -> 0 < i_m v + offset <= 2147483647 -> (i_m v + offset) mod 60 <> 0 ->
  iso_tolocal v offset = ROk (mkIso (i_Y v) (i_M v) (i_D v) (i_h v + (i_m v + offset) / 60) ((i_m v + offset) mod 60) (i_s v) (i_ms v) 0 0).
Proof.
  intros [Y M D h m s ms zh zm] o Hzh Hzm Hm Hn. cbn [i_Y i_M i_D i_h i_m i_s i_ms i_zh i_zm] in *. subst zh zm.
  unfold iso_tolocal. cbn [i_Y i_M i_D i_h i_m i_s i_ms i_zh i_zm]. cbn [Z.eqb negb orb]. rewrite int_ok by lia. cbn [rbind].
  pose proof (Z.div_mod (m + o) 60 ltac:(lia)) as Dm. pose proof (Z.mod_pos_bound (m + o) 60 ltac:(lia)) as Mm.
  set (q := (m + o) / 60) in *. set (r := (m + o) mod 60) in *. assert (Hq : 0 <= q) by (apply Z.div_pos; lia).
  rewrite Dm. replace (60 * q + r) with (r + 60 * Z.of_nat (Z.to_nat q)) by lia. rewrite carry_ok by lia. cbn [rbind]. rewrite Z2Nat.id by lia. reflexivity.
Qed.
Example C104_local_case : iso_tolocal (mkIso 2026 1 2 3 40 5 6 0 0) 90 = ROk (mkIso 2026 1 2 5 10 5 6 0 0).
Proof. vm_compute. reflexivity. Qed.
(** 03:30 with half an hour more is 03:60; 23:10 with an hour more is 24:10 of the same day;
    an hour less leaves minus twenty minutes. *)
Theorem C104_local_refuted :
  iso_tolocal (mkIso 2026 1 2 3 30 0 0 0 0) 30 = ROk (mkIso 2026 1 2 3 60 0 0 0 0) /\
  iso_tolocal (mkIso 2026 1 2 23 10 0 0 0 0) 60 = ROk (mkIso 2026 1 2 24 10 0 0 0 0) /\
  iso_tolocal (mkIso 2026 1 2 3 40 0 0 0 0) (-60) = ROk (mkIso 2026 1 2 3 (-20) 0 0 0 0).
Proof. repeat split; vm_compute; reflexivity. Qed.

Print Assumptions C103_format_partial.
Print Assumptions C103_srt_refuted.
Print Assumptions C103_negative_refuted.
Print Assumptions C103_parse_partial.
Print Assumptions C103_round_trip_partial.
Print Assumptions C103_parse_refuted.
Print Assumptions C104_read_partial.
Print Assumptions C104_read_refuted.
Print Assumptions C104_write_partial.
Print Assumptions C104_write_refuted.
Print Assumptions C104_offset_partial.
Print Assumptions C104_offset_refuted.
Print Assumptions C104_local_partial.
Print Assumptions C104_local_refuted.
