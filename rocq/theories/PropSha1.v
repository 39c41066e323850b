(** C83: lib/crypt/sha1. *)
From Coq Require Import NArith Lia.
From Verif Require Import LibBase LibIO SpecIO LibSha1 SpecSha1 ClipFacts PropIO.
Local Open Scope N_scope.

(** * Words *)
Lemma lor_disjoint : forall a b, N.land a b = 0 -> N.lor a b = a + b.
Proof. intros a b H. rewrite N.add_nocarry_lxor by exact H. symmetry. apply N.lxor_lor. exact H. Qed.

Lemma below_testbit : forall n x i, x < 2 ^ n -> n <= i -> N.testbit x i = false.
Proof.
  intros n x i Hx Hi. destruct (N.eq_dec x 0) as [->|H0]; [apply N.bits_0|].
  apply N.bits_above_log2. apply N.log2_lt_pow2; [lia|]. eapply N.lt_le_trans; [exact Hx|].
  apply N.pow_le_mono_r; lia.
Qed.

Lemma u32_W32 : forall x, u32 x = x mod W32.
Proof. reflexivity. Qed.

Lemma ROTL_rotl : forall n x, n <= 32 -> x < W32 -> ROTL n x = rotl n x.
Proof.
  intros n x Hn Hx. unfold ROTL, rotl. rewrite u32_W32, N.shiftl_mul_pow2, N.shiftr_div_pow2.
  apply lor_disjoint. apply N.bits_inj. intros i. rewrite N.land_spec, N.bits_0.
  destruct (N.lt_ge_cases i n) as [Hi|Hi].
  - unfold W32. destruct (N.lt_ge_cases i 32) as [Hj|Hj]; [|lia].
    rewrite N.mod_pow2_bits_low by exact Hj. rewrite N.mul_pow2_bits_low by exact Hi. reflexivity.
  - rewrite N.div_pow2_bits. rewrite (below_testbit 32 x (i + (32 - n))) by (try exact Hx; lia). apply Bool.andb_false_r.
Qed.

Lemma rotl_bound : forall n x, n <= 32 -> x < W32 -> rotl n x < W32.
Proof.
  intros n x Hn Hx. rewrite <- ROTL_rotl by assumption. unfold ROTL. rewrite u32_W32.
  assert (H1 : N.shiftl x n mod W32 < W32) by (apply N.mod_upper_bound; discriminate).
  assert (H2 : N.shiftr x (32 - n) < W32).
  { rewrite N.shiftr_div_pow2. eapply N.le_lt_trans; [apply N.div_le_upper_bound with (q := x)|exact Hx]; [apply N.pow_nonzero; discriminate|].
    assert (2 ^ (32 - n) <> 0) by (apply N.pow_nonzero; discriminate). nia. }
  assert (G : forall z, (forall i, 32 <= i -> N.testbit z i = false) -> z < W32).
  { intros z Hz. destruct (N.eq_dec z 0) as [->|H0]; [reflexivity|]. unfold W32. apply N.log2_lt_pow2; [lia|].
    destruct (N.lt_ge_cases (N.log2 z) 32) as [H|H]; [exact H|]. apply Hz in H. rewrite N.bit_log2 in H by exact H0. discriminate. }
  apply G. intros i Hi. rewrite N.lor_spec.
  rewrite (below_testbit 32 (N.shiftl x n mod W32) i), (below_testbit 32 (N.shiftr x (32 - n)) i) by assumption. reflexivity.
Qed.

Lemma not32_compl : forall x, x < W32 -> not32 x = compl x.
Proof.
  intros x Hx. unfold not32, compl, W32 in *. change 4294967295 with (N.ones 32).
  destruct (N.eq_dec x 0) as [->|H0]; [reflexivity|].
  change (N.lxor x (N.ones 32)) with (N.lnot x 32).
  rewrite N.lnot_sub_low by (apply N.log2_lt_pow2; [lia|exact Hx]). reflexivity.
Qed.

Lemma f_K : forall t x y z, (t < 80)%nat -> x < W32 -> exists f, logical t f (sha1_K t) /\ sha1_f t x y z = f x y z.
Proof.
  intros t x y z Ht Hx. unfold sha1_f, sha1_K.
  destruct (Nat.ltb_spec t 20); [|destruct (Nat.ltb_spec t 40); [|destruct (Nat.ltb_spec t 60)]].
  - exists Ch. split; [constructor; lia|]. unfold Ch, xor, conj. rewrite <- not32_compl by exact Hx.
    symmetry. apply N.lxor_lor. apply N.bits_inj. intros i. unfold not32. rewrite !N.land_spec, N.lxor_spec, N.bits_0.
    change 4294967295 with (N.ones 32). destruct (N.lt_ge_cases i 32) as [Hi|Hi].
    + rewrite N.ones_spec_low by exact Hi. destruct (N.testbit x i), (N.testbit y i), (N.testbit z i); reflexivity.
    + rewrite (below_testbit 32 x i Hx Hi). reflexivity.
  - exists Parity. split; [constructor; lia|reflexivity].
  - exists Maj. split; [constructor; lia|reflexivity].
  - exists Parity. split; [constructor; lia|reflexivity].
Qed.

Lemma xor_bound : forall a b, a < W32 -> b < W32 -> N.lxor a b < W32.
Proof.
  intros a b Ha Hb. destruct (N.eq_dec (N.lxor a b) 0) as [->|H0]; [reflexivity|]. apply N.log2_lt_pow2; [lia|].
  destruct (N.lt_ge_cases (N.log2 (N.lxor a b)) 32) as [H|H]; [exact H|].
  assert (E : N.testbit (N.lxor a b) (N.log2 (N.lxor a b)) = false)
    by (rewrite N.lxor_spec, (below_testbit 32 a _ Ha H), (below_testbit 32 b _ Hb H); reflexivity).
  rewrite N.bit_log2 in E by exact H0. discriminate.
Qed.

(** * One block *)
Definition small (l : list N) : Prop := Forall (fun x => x < W32) l.
Lemma small_at : forall l t, small l -> at_ l t < W32.
Proof.
  intros l t Hl. unfold at_. destruct (Nat.lt_ge_cases t (List.length l)) as [H|H].
  - unfold small in Hl. rewrite Forall_forall in Hl. apply Hl. apply nth_In. exact H.
  - rewrite nth_overflow by exact H. reflexivity.
Qed.

Lemma W_ok : forall block k, List.length block = 16%nat -> small block ->
  let W := fold_left sha1_extend (List.seq 16 k) (firstn 16 block) in
  List.length W = (16 + k)%nat /\ small W /\
  (forall t, (t < 16)%nat -> at_ W t = at_ block t) /\
  (forall t, (16 <= t < 16 + k)%nat ->
     at_ W t = rotl 1 (xor (xor (xor (at_ W (t - 3)) (at_ W (t - 8))) (at_ W (t - 14))) (at_ W (t - 16)))).
Proof.
  intros block k Hlen Hb. rewrite firstn_all2 by lia. induction k as [|k (I1 & I2 & I3 & I4)]; cbv zeta.
  - cbn [List.seq fold_left]. split; [lia|]. split; [exact Hb|]. split; [reflexivity|]. intros; lia.
  - rewrite seq_S, fold_left_app. cbn [fold_left]. set (W := fold_left sha1_extend (List.seq 16 k) block) in *.
    unfold sha1_extend.
    set (x := N.lxor (N.lxor (N.lxor (at_ W (16 + k - 3)) (at_ W (16 + k - 8))) (at_ W (16 + k - 14))) (at_ W (16 + k - 16))).
    assert (Hx : x < W32) by (unfold x; repeat apply xor_bound; apply small_at; exact I2).
    rewrite ROTL_rotl by (try exact Hx; discriminate).
    assert (Hat : forall t, (t < 16 + k)%nat -> at_ (W ++ [rotl 1 x]) t = at_ W t)
      by (intros t Ht; unfold at_; apply app_nth1; lia).
    split; [rewrite app_length; simpl; lia|]. split.
    { apply Forall_app. split; [exact I2|]. constructor; [|constructor]. apply rotl_bound; [discriminate|exact Hx]. }
    split; [intros t Ht; rewrite Hat by lia; auto|].
    intros t Ht. destruct (Nat.eq_dec t (16 + k)) as [->|Hn].
    + rewrite (Hat (16 + k - 3)%nat), (Hat (16 + k - 8)%nat), (Hat (16 + k - 14)%nat), (Hat (16 + k - 16)%nat) by lia.
      unfold at_ at 1. rewrite app_nth2 by lia. rewrite I1, Nat.sub_diag. reflexivity.
    + rewrite !Hat by lia. apply I4. lia.
Qed.

Lemma sha1_W_ok : forall block, List.length block = 16%nat -> small block ->
  small (sha1_W block) /\ (forall t, (t < 16)%nat -> at_ (sha1_W block) t = at_ block t) /\
  (forall t, (16 <= t < 80)%nat -> at_ (sha1_W block) t =
     rotl 1 (xor (xor (xor (at_ (sha1_W block) (t - 3)) (at_ (sha1_W block) (t - 8))) (at_ (sha1_W block) (t - 14))) (at_ (sha1_W block) (t - 16)))).
Proof.
  intros block Hl Hs. pose proof (W_ok block 64 Hl Hs) as H. cbv zeta in H. unfold sha1_W.
  generalize dependent (fold_left sha1_extend (List.seq 16 64) (firstn 16 block)). intros W (_ & H). exact H.
Qed.
Opaque sha1_W.

Definition five (s : sum5) : words5 := (s0 s, s1 s, s2 s, s3 s, s4 s).
Definition small5 (s : sum5) : Prop := s0 s < W32 /\ s1 s < W32 /\ s2 s < W32 /\ s3 s < W32 /\ s4 s < W32.

Lemma sum_plus : forall a b c d e, u32 (a + b + c + d + e) = plus (plus (plus (plus a b) c) d) e.
Proof.
  intros. unfold plus. rewrite u32_W32. rewrite (N.add_mod_idemp_l (a + b) c), (N.add_mod_idemp_l (a + b + c) d), (N.add_mod_idemp_l (a + b + c + d) e) by discriminate. reflexivity.
Qed.

Lemma rounds_ok : forall W n t s, (t + n = 80)%nat -> small5 s ->
  let s' := fold_left (sha1_round W) (List.seq t n) s in
  small5 s' /\ rounds (at_ W) t (five s) (five s').
Proof.
  intros W. induction n as [|n IH]; intros t s Ht Hs; cbn [List.seq fold_left]; cbv zeta.
  - replace t with 80%nat by lia. split; [exact Hs|]. destruct s. constructor.
  - destruct s as [a b c d e]. destruct Hs as (Ha & Hb & Hc & Hd & He). cbn [s0 s1 s2 s3 s4] in *.
    assert (Hs' : small5 (sha1_round W (mkSum a b c d e) t)).
    { unfold sha1_round, small5. cbn [s0 s1 s2 s3 s4]. rewrite (ROTL_rotl 30) by (try assumption; discriminate).
      split; [apply N.mod_upper_bound; discriminate|]. repeat split; try assumption. apply rotl_bound; [discriminate|assumption]. }
    destruct (IH (S t) _ ltac:(lia) Hs') as [I1 I2]. split; [exact I1|].
    destruct (f_K t b c d ltac:(lia) Hb) as (f & F1 & F2).
    change (five (mkSum a b c d e)) with (a, b, c, d, e). apply (rounds_step _ t f (sha1_K t)); [exact F1|].
    assert (E : five (sha1_round W (mkSum a b c d e) t) =
      (plus (plus (plus (plus (rotl 5 a) (f b c d)) e) (sha1_K t)) (at_ W t), a, rotl 30 b, c, d)).
    { unfold five, sha1_round. cbn [s0 s1 s2 s3 s4]. rewrite sum_plus, F2.
      rewrite !ROTL_rotl by (try assumption; discriminate). reflexivity. }
    rewrite E in I2. exact I2.
Qed.

Definition block_words (words : list N) (block : bytes) : Prop :=
  List.length words = 16%nat /\ forall t, (t < 16)%nat -> at_ words t = value_be (firstn 4 (skipn (4 * t) block)).

Lemma value_le_bound : forall bs, Forall is_byte bs -> value_le bs < 256 ^ N.of_nat (List.length bs).
Proof.
  induction 1 as [|b bs Hb _ IH]; [reflexivity|]. cbn [value_le List.length]. rewrite Nat2N.inj_succ, N.pow_succ_r'.
  unfold is_byte in Hb. nia.
Qed.
Lemma value_be_bound : forall bs, Forall is_byte bs -> value_be bs < 256 ^ N.of_nat (List.length bs).
Proof. intros bs H. unfold value_be. rewrite <- rev_length. apply value_le_bound. apply Forall_rev. exact H. Qed.

Lemma Forall_firstn' : forall A (P : A -> Prop) n l, Forall P l -> Forall P (firstn n l).
Proof. intros A P n l H. revert n. induction H; intros [|n]; simpl; constructor; auto. Qed.
Lemma Forall_skipn' : forall A (P : A -> Prop) n l, Forall P l -> Forall P (skipn n l).
Proof. intros A P n l H. revert n. induction H; intros [|n]; simpl; auto. Qed.

Lemma feed_ok : forall words block s, block_words words block -> Forall is_byte block -> small5 s ->
  small5 (sha1_feed words s) /\ compresses (five s) block (five (sha1_feed words s)).
Proof.
  intros words block s [Hl Hw] Hb Hs.
  assert (Hsm : small words).
  { apply Forall_forall. intros x Hx. apply In_nth with (d := 0) in Hx as (t & Ht & <-). fold (at_ words t).
    rewrite Hw by lia. eapply N.lt_le_trans; [apply value_be_bound; apply Forall_firstn', Forall_skipn'; exact Hb|].
    change W32 with (256 ^ 4). apply N.pow_le_mono_r; [discriminate|]. rewrite firstn_length. lia. }
  destruct (sha1_W_ok words Hl Hsm) as (W2 & W3 & W4).
  destruct (rounds_ok (sha1_W words) 80 0 s eq_refl Hs) as [R1 R2].
  unfold sha1_feed. cbv zeta in R1, R2.
  generalize dependent (fold_left (sha1_round (sha1_W words)) (List.seq 0 80) s). intros [a b c d e] R1 R2.
  split. { unfold small5. cbn [s0 s1 s2 s3 s4]. repeat split; apply N.mod_upper_bound; discriminate. }
  unfold five at 2. cbn [s0 s1 s2 s3 s4]. rewrite !u32_W32.
  rewrite (N.add_comm (s0 s)), (N.add_comm (s1 s)), (N.add_comm (s2 s)), (N.add_comm (s3 s)), (N.add_comm (s4 s)).
  apply (compress block (at_ (sha1_W words))).
  - split.
    + intros t Ht. rewrite W3 by lia. apply Hw. lia.
    + intros t Ht. apply W4. lia.
  - exact R2.
Qed.

(** * Pushing bytes *)
Lemma hashes_app : forall h full h' block h'', hashes h full h' -> List.length block = 64%nat -> compresses h' block h'' ->
  hashes h (full ++ block) h''.
Proof.
  intros h full h' block h'' H Hl Hc. induction H.
  - rewrite <- (app_nil_r block). simpl. econstructor; eauto. constructor.
  - rewrite <- app_assoc. econstructor; eauto.
Qed.

Definition pushed (h0 : words5) (h : digest) (p : bytes) : Prop :=
  exists full rem, p = full ++ rem /\ hashes h0 full (five (dg_sum h)) /\ small5 (dg_sum h) /\ Forall is_byte rem /\
    List.length rem = (4 * dg_words h + dg_bytes h)%nat /\ (dg_words h < 16)%nat /\ (dg_bytes h < 4)%nat /\
    List.length (dg_block h) = 16%nat /\
    (forall t, (t < dg_words h)%nat -> at_ (dg_block h) t = value_be (firstn 4 (skipn (4 * t) rem))) /\
    dg_word h mod 256 ^ N.of_nat (dg_bytes h) = value_be (skipn (4 * dg_words h) rem).

Lemma value_be_snoc : forall l b, value_be (l ++ [b]) = 256 * value_be l + b.
Proof. intros. unfold value_be. rewrite rev_app_distr. cbn [rev app value_le]. lia. Qed.

Lemma word_step : forall w b k, (k <= 3)%nat -> b < 256 ->
  u32 (w * 256 + b) mod 256 ^ N.of_nat (S k) = 256 * (w mod 256 ^ N.of_nat k) + b.
Proof.
  intros w b k Hk Hb.
  assert (E : u32 (w * 256 + b) mod 256 ^ N.of_nat (S k) = (w * 256 + b) mod 256 ^ N.of_nat (S k)).
  { unfold u32. replace 4294967296 with (256 ^ N.of_nat (S k) * 256 ^ (3 - N.of_nat k)).
    - rewrite N.mod_mul_r by (apply N.pow_nonzero; discriminate).
      rewrite (N.mul_comm (256 ^ N.of_nat (S k)) _), N.mod_add by (apply N.pow_nonzero; discriminate).
      apply N.mod_mod. apply N.pow_nonzero. discriminate.
    - rewrite <- N.pow_add_r. replace (N.of_nat (S k) + (3 - N.of_nat k)) with 4 by lia. reflexivity. }
  rewrite E. symmetry. apply N.mod_unique with (q := w / 256 ^ N.of_nat k).
  - rewrite Nat2N.inj_succ, N.pow_succ_r'.
    pose proof (N.mod_upper_bound w (256 ^ N.of_nat k) ltac:(apply N.pow_nonzero; discriminate)). nia.
  - rewrite Nat2N.inj_succ, N.pow_succ_r'.
    pose proof (N.div_mod w (256 ^ N.of_nat k) ltac:(apply N.pow_nonzero; discriminate)). nia.
Qed.

Lemma at_upd : forall l i x t, (i < List.length l)%nat -> at_ (upd i x l) t = if Nat.eqb t i then x else at_ l t.
Proof.
  unfold at_. induction l as [|y l IH]; intros i x t H; [simpl in H; lia|].
  destruct i, t; cbn [upd nth Nat.eqb]; auto. apply IH. simpl in H. lia.
Qed.

Lemma firstn_skipn_app : forall (l : bytes) b n t, (n + t <= List.length l)%nat ->
  firstn n (skipn t (l ++ [b])) = firstn n (skipn t l).
Proof.
  intros l b n t H. rewrite skipn_app, firstn_app.
  replace (n - List.length (skipn t l))%nat with 0%nat by (rewrite skipn_length; lia). rewrite firstn_O, app_nil_r. reflexivity.
Qed.

Lemma push_ok : forall h0 h p b, is_byte b -> pushed h0 h p -> pushed h0 (push_byte h b) (p ++ [b]).
Proof.
  intros h0 h p b Hb (full & rem & -> & P1 & P2 & P3 & P4 & P5 & P6 & P7 & P8 & P9).
  assert (Hu8 : u8 b = b) by (apply N.mod_small; exact Hb).
  assert (Hrem : Forall is_byte (rem ++ [b])) by (apply Forall_app; auto).
  assert (Hlen : List.length (rem ++ [b]) = S (List.length rem)) by (rewrite app_length; simpl; lia).
  pose proof (word_step (dg_word h) b (dg_bytes h) ltac:(lia) Hb) as Hw. rewrite P9, <- value_be_snoc in Hw.
  assert (Hsk : skipn (4 * dg_words h) (rem ++ [b]) = skipn (4 * dg_words h) rem ++ [b])
    by (rewrite skipn_app; replace (4 * dg_words h - List.length rem)%nat with 0%nat by lia; reflexivity).
  rewrite <- Hsk in Hw.
  unfold push_byte. rewrite Hu8. destruct (Nat.eqb_spec (S (dg_bytes h)) 4) as [E4|E4].
  - rewrite E4 in Hw. change (256 ^ N.of_nat 4) with 4294967296 in Hw. unfold u32 in Hw at 1.
    rewrite N.mod_mod in Hw by discriminate. fold (u32 (dg_word h * 256 + b)) in Hw.
    set (word := u32 (dg_word h * 256 + b)) in *.
    assert (Hbl : forall t, (t < S (dg_words h))%nat ->
      at_ (upd (dg_words h) word (dg_block h)) t = value_be (firstn 4 (skipn (4 * t) (rem ++ [b])))).
    { intros t Ht. rewrite at_upd by lia. destruct (Nat.eqb_spec t (dg_words h)) as [->|Hn].
      - rewrite Hw. rewrite (firstn_all2 (skipn _ (rem ++ [b]))) by (rewrite skipn_length; lia). reflexivity.
      - rewrite firstn_skipn_app by lia. apply P8. lia. }
    destruct (Nat.eqb_spec (S (dg_words h)) 16) as [E16|E16].
    + assert (Hbw : block_words (upd (dg_words h) word (dg_block h)) (rem ++ [b])).
      { split; [rewrite upd_length; exact P7|]. intros t Ht. apply Hbl. lia. }
      destruct (feed_ok _ _ (dg_sum h) Hbw Hrem P2) as [F1 F2].
      exists (full ++ rem ++ [b]), []. cbn [dg_sum dg_words dg_bytes dg_block dg_word].
      split; [rewrite app_nil_r, <- app_assoc; reflexivity|]. split; [eapply hashes_app; [exact P1| |exact F2]; lia|].
      split; [exact F1|]. split; [constructor|]. split; [reflexivity|]. split; [lia|]. split; [lia|].
      split; [rewrite upd_length; exact P7|]. split; [intros; lia|]. apply N.mod_1_r.
    + exists full, (rem ++ [b]). cbn [dg_sum dg_words dg_bytes dg_block dg_word].
      split; [rewrite app_assoc; reflexivity|]. split; [exact P1|]. split; [exact P2|]. split; [exact Hrem|].
      split; [lia|]. split; [lia|]. split; [lia|]. split; [rewrite upd_length; exact P7|]. split; [exact Hbl|].
      rewrite skipn_all2 by lia. apply N.mod_1_r.
  - exists full, (rem ++ [b]). cbn [dg_sum dg_words dg_bytes dg_block dg_word].
    split; [rewrite app_assoc; reflexivity|]. split; [exact P1|]. split; [exact P2|]. split; [exact Hrem|].
    split; [lia|]. split; [lia|]. split; [lia|]. split; [exact P7|].
    split; [intros t Ht; rewrite firstn_skipn_app by lia; apply P8; exact Ht|]. exact Hw.
Qed.

Lemma push_all : forall h0 bs h p, Forall is_byte bs -> pushed h0 h p -> pushed h0 (fold_left push_byte bs h) (p ++ bs).
Proof.
  induction bs as [|b bs IH]; intros h p Hb Hp; cbn [fold_left]; [rewrite app_nil_r; exact Hp|].
  replace (p ++ b :: bs) with ((p ++ [b]) ++ bs) by (rewrite <- app_assoc; reflexivity).
  apply IH; [exact (Forall_inv_tail Hb)|]. apply push_ok; [exact (Forall_inv Hb)|exact Hp].
Qed.

Lemma push_keeps : forall bs h, dg_length (fold_left push_byte bs h) = dg_length h /\ dg_finished (fold_left push_byte bs h) = dg_finished h.
Proof.
  induction bs as [|b bs IH]; intros h; [auto|]. cbn [fold_left]. destruct (IH (push_byte h b)) as [-> ->].
  unfold push_byte. destruct (Nat.eqb _ 4); [destruct (Nat.eqb _ 16)|]; auto.
Qed.

(** * The message *)

(** The user's program: add the bytes, then end. *)
Fixpoint add_all (h : digest) (m : bytes) : option digest :=
  match m with
  | [] => Some h
  | b :: r => match sha1_add h b with (true, h') => add_all h' r | _ => None end
  end.
Definition sha1_of (m : bytes) : option digest :=
  match add_all sha1_reset m with
  | Some h => match sha1_end h with (true, h') => Some h' | _ => None end
  | None => None
  end.

Definition started : digest :=
  mkDigest true false (mkSum 0x67452301 0xefcdab89 0x98badcfe 0x10325476 0xc3d2e1f0) (repeat 0 16) 0 0 0 0.

Lemma adds_ok : forall m h p, Forall is_byte m -> pushed H0 h p -> dg_init h = true -> dg_finished h = false ->
  dg_length h = 8 * N.of_nat (List.length p) -> 8 * N.of_nat (List.length p + List.length m) < 18446744073709551616 ->
  exists h', add_all h m = Some h' /\ pushed H0 h' (p ++ m) /\ dg_finished h' = false /\
    dg_length h' = 8 * N.of_nat (List.length (p ++ m)).
Proof.
  induction m as [|b m IH]; intros h p Hm Hp Hi Hf Hl Hmax; cbn [add_all].
  - rewrite app_nil_r. eauto.
  - unfold sha1_add. rewrite Hf, Hi. cbn [List.length] in Hmax.
    set (h1 := mkDigest true false (dg_sum h) (dg_block h) (dg_words h) (dg_bytes h) (dg_word h) ((dg_length h + 8) mod 18446744073709551616)).
    assert (E1 : dg_length (push_byte h1 b) = dg_length h + 8).
    { destruct (push_keeps [b] h1) as [E _]. cbn [fold_left] in E. rewrite E. unfold h1. cbn [dg_length].
      rewrite N.mod_small by lia. reflexivity. }
    assert (E2 : dg_finished (push_byte h1 b) = false) by (destruct (push_keeps [b] h1) as [_ E]; exact E).
    assert (E3 : dg_init (push_byte h1 b) = true)
      by (unfold push_byte; destruct (Nat.eqb _ 4); [destruct (Nat.eqb _ 16)|]; reflexivity).
    assert (Hp1 : pushed H0 (push_byte h1 b) (p ++ [b])).
    { apply push_ok; [exact (Forall_inv Hm)|]. destruct Hp as (full & rem & Hp). exists full, rem. exact Hp. }
    destruct (IH (push_byte h1 b) (p ++ [b]) (Forall_inv_tail Hm) Hp1 E3 E2) as (h' & I1 & I2 & I3 & I4).
    + rewrite E1, Hl, app_length. simpl List.length. lia.
    + rewrite app_length. simpl List.length. lia.
    + exists h'. rewrite <- app_assoc in I2, I4. auto.
Qed.

(** The last [k] digits in base 256, the lowest first. *)
Fixpoint digits256 (k : nat) (x : N) : bytes :=
  match k with O => [] | S k => x mod 256 :: digits256 k (x / 256) end.
Lemma digits256_ok : forall k x, Forall is_byte (digits256 k x) /\ List.length (digits256 k x) = k /\
  value_le (digits256 k x) = x mod 256 ^ N.of_nat k.
Proof.
  induction k as [|k IH]; intros x; cbn [digits256].
  - repeat split; auto. cbn [value_le]. rewrite N.mod_1_r. reflexivity.
  - destruct (IH (x / 256)) as (I1 & I2 & I3). split; [constructor; [apply N.mod_upper_bound; discriminate|exact I1]|].
    split; [simpl; congruence|]. cbn [value_le]. rewrite I3, Nat2N.inj_succ, N.pow_succ_r'.
    rewrite N.mod_mul_r by (try apply N.pow_nonzero; discriminate). reflexivity.
Qed.
Lemma land_shift : forall x n, N.land (N.shiftr x n) 255 = x / 2 ^ n mod 256.
Proof. intros. change 255 with (N.ones 8). rewrite N.land_ones, N.shiftr_div_pow2. reflexivity. Qed.

Lemma len_bytes : forall len, List.map (fun i => N.land (N.shiftr len (64 - 8 - 8 * N.of_nat i)) 255) (List.seq 0 8) = rev (digits256 8 len).
Proof.
  intros len. cbn [List.map List.seq digits256 rev app]. rewrite !land_shift, !N.div_div by discriminate.
  change (2 ^ (64 - 8 - 8 * N.of_nat 7)) with 1. rewrite N.div_1_r. reflexivity.
Qed.
Lemma word_bytes_ok : forall v, v < W32 -> Forall is_byte (word_bytes v) /\ value_be (word_bytes v) = v.
Proof.
  intros v Hv. assert (E : word_bytes v = rev (digits256 4 v)).
  { unfold word_bytes. cbn [digits256 rev app]. rewrite !land_shift, !N.div_div by discriminate. change (2 ^ 0) with 1. rewrite N.div_1_r. reflexivity. }
  destruct (digits256_ok 4 v) as (D1 & D2 & D3). rewrite E. split; [apply Forall_rev; exact D1|].
  unfold value_be. rewrite rev_involutive, D3. apply N.mod_small. exact Hv.
Qed.

Lemma as_bytes_ok : forall h, small5 (dg_sum h) -> digest_bytes (five (dg_sum h)) (as_bytes h).
Proof.
  intros h (A & B & C & D & F). unfold as_bytes, digest_bytes, five. destruct (dg_sum h) as [a b c d e]. cbn [s0 s1 s2 s3 s4] in *.
  destruct (word_bytes_ok a A) as [A1 A2], (word_bytes_ok b B) as [B1 B2], (word_bytes_ok c C) as [C1 C2],
    (word_bytes_ok d D) as [D1 D2], (word_bytes_ok e F) as [E1 E2].
  split; [reflexivity|]. split; [repeat (apply Forall_app; split); assumption|].
  cbn [List.map]. change (firstn 4 (word_bytes a ++ word_bytes b ++ word_bytes c ++ word_bytes d ++ word_bytes e)) with (word_bytes a).
  change (firstn 4 (skipn 4 (word_bytes a ++ word_bytes b ++ word_bytes c ++ word_bytes d ++ word_bytes e))) with (word_bytes b).
  change (firstn 4 (skipn 8 (word_bytes a ++ word_bytes b ++ word_bytes c ++ word_bytes d ++ word_bytes e))) with (word_bytes c).
  change (firstn 4 (skipn 12 (word_bytes a ++ word_bytes b ++ word_bytes c ++ word_bytes d ++ word_bytes e))) with (word_bytes d).
  change (firstn 4 (skipn 16 (word_bytes a ++ word_bytes b ++ word_bytes c ++ word_bytes d ++ word_bytes e))) with (word_bytes e).
  congruence.
Qed.

Lemma fold_map : forall A B C (f : A -> B -> A) (g : C -> B) l a, fold_left (fun a c => f a (g c)) l a = fold_left f (List.map g l) a.
Proof. induction l; simpl; auto. Qed.

Lemma end_ok : forall h0 m h, pushed h0 h m -> dg_finished h = false -> dg_length h = 8 * N.of_nat (List.length m) ->
  8 * N.of_nat (List.length m) < 18446744073709551616 ->
  exists h' p, sha1_end h = (true, h') /\ padded m p /\ hashes h0 p (five (dg_sum h')) /\ small5 (dg_sum h').
Proof.
  intros h0 m h Hp Hf Hl Hmax. unfold sha1_end. rewrite Hf.
  set (h1 := mkDigest (dg_init h) true (dg_sum h) (dg_block h) (dg_words h) (dg_bytes h) (dg_word h) (dg_length h)).
  assert (Hp1 : pushed h0 h1 m) by (destruct Hp as (full & rem & Hp); exists full, rem; exact Hp).
  cbv zeta. set (h2 := push_byte h1 128).
  assert (Hl2 : dg_length h2 = 8 * N.of_nat (List.length m)).
  { destruct (push_keeps [128] h1) as [E _]. cbn [fold_left] in E. unfold h2. rewrite E. exact Hl. }
  rewrite Hl2. rewrite (N.mul_comm 8), N.div_mul by discriminate. set (l := N.of_nat (List.length m)) in *.
  set (n := if ((9 + l) mod 64 =? 0) then (9 + l) / 64 else (9 + l) / 64 + 1).
  set (zeros := N.to_nat (64 * n - 9 - l)).
  assert (Hz : 64 * n = 9 + l + N.of_nat zeros /\ (zeros < 64)%nat).
  { unfold zeros. rewrite N2Nat.id. pose proof (N.div_mod (9 + l) 64 ltac:(discriminate)) as D.
    pose proof (N.mod_upper_bound (9 + l) 64 ltac:(discriminate)) as U. unfold n.
    clear - D U. clearbody l. destruct (N.eqb_spec ((9 + l) mod 64) 0) as [Z|Z]; revert D U Z;
      generalize ((9 + l) / 64) ((9 + l) mod 64); intros q r D U Z; split; lia. }
  destruct Hz as [Hz Hz64].
  set (h3 := fold_left push_byte (repeat 0 zeros) h2).
  assert (Hl3 : dg_length h3 = l * 8) by (unfold h3; destruct (push_keeps (repeat 0 zeros) h2) as [-> _]; rewrite Hl2; lia).
  rewrite Hl3. rewrite (fold_map _ _ _ push_byte), len_bytes.
  destruct (digits256_ok 8 (l * 8)) as (D1 & D2 & D3).
  set (len := rev (digits256 8 (l * 8))).
  assert (Hlen : Forall is_byte len) by (apply Forall_rev; exact D1).
  assert (Hp2 : pushed h0 h2 (m ++ [128])) by (apply push_ok; [reflexivity|exact Hp1]).
  assert (Hp3 : pushed h0 h3 ((m ++ [128]) ++ repeat 0 zeros)).
  { apply push_all; [|exact Hp2]. apply Forall_forall. intros x Hx. apply repeat_spec in Hx. subst. reflexivity. }
  pose proof (push_all h0 len h3 _ Hlen Hp3) as Hp4. set (h4 := fold_left push_byte len h3) in *.
  eexists. exists (m ++ [128] ++ repeat 0 zeros ++ len). split; [reflexivity|].
  assert (Hlp : N.of_nat (List.length (m ++ [128] ++ repeat 0 zeros ++ len)) = 64 * n).
  { rewrite !app_length, repeat_length. unfold len. rewrite rev_length, D2. cbn [List.length]. unfold l in *. lia. }
  assert (Hmod : Nat.modulo (List.length (m ++ [128] ++ repeat 0 zeros ++ len)) 64 = 0%nat).
  { apply Nat2N.inj. rewrite Nat2N.inj_mod, Hlp. change (N.of_nat 64) with 64. rewrite N.mul_comm. apply N.mod_mul. discriminate. }
  split.
  - exists zeros, len. split; [reflexivity|]. split; [exact Hz64|]. split; [exact Hmod|].
    split; [unfold len; rewrite rev_length; exact D2|]. split; [exact Hlen|].
    unfold len, value_be. rewrite rev_involutive, D3. rewrite N.mod_small; [fold l; lia|].
    change (256 ^ N.of_nat 8) with 18446744073709551616. lia.
  - rewrite <- !app_assoc in Hp4. destruct Hp4 as (full & rem & P0 & P1 & P2 & P3 & P4 & P5 & P6 & P7 & P8 & P9).
    assert (Hr : rem = []).
    { rewrite P0, app_length in Hmod.
      assert (Hfull : Nat.modulo (List.length full) 64 = 0%nat).
      { clear - P1. remember (five (dg_sum h4)) as v. clear Heqv. induction P1; [reflexivity|].
        rewrite app_length, H, <- Nat.add_mod_idemp_r, IHP1 by discriminate. reflexivity. }
      rewrite <- Nat.add_mod_idemp_l, Hfull in Hmod by discriminate. rewrite Nat.mod_small in Hmod by lia.
      destruct rem; [reflexivity|]. simpl in Hmod. lia. }
    subst rem. rewrite app_nil_r in P0. rewrite P0. split; assumption.
Qed.

(** For every message but the empty one, of a length that fits an int, the digest
    is the one of FIPS 180-4.  Missing: the empty message. *)
Theorem C83_sha1_partial : forall m, m <> [] -> Forall is_byte m -> N.of_nat (List.length m) <= 2147483583 ->
  exists h, sha1_of m = Some h /\ is_sha1 m (as_bytes h).
Proof.
  intros m Hne Hb Hmax. unfold sha1_of.
  assert (Hst : pushed H0 started []).
  { exists [], []. cbn. repeat split; try constructor; try lia. }
  assert (E : add_all sha1_reset m = add_all started m) by (destruct m; [contradiction|reflexivity]).
  rewrite E. destruct (adds_ok m started [] Hb Hst eq_refl eq_refl eq_refl) as (h & A1 & A2 & A3 & A4).
  { simpl List.length. simpl Nat.add. lia. }
  rewrite A1. cbn [app] in A2, A4.
  destruct (end_ok H0 m h A2 A3 A4 ltac:(lia)) as (h' & p & E1 & E2 & E3 & E4). rewrite E1.
  exists h'. split; [reflexivity|]. exists p, (five (dg_sum h')). split; [exact E2|]. split; [exact E3|].
  apply as_bytes_ok. exact E4.
Qed.

(** * The specification determines the digest *)
Lemma rounds_fun : forall W W' t v a, rounds W t v a -> (forall i, (i < 80)%nat -> W i = W' i) -> forall b, rounds W' t v b -> a = b.
Proof.
  induction 1 as [v|t f K a b c d e v Hl Hr IH]; intros HW x Hx.
  - inversion Hx; subst; [reflexivity|]. inversion H; lia.
  - inversion Hx; subst; [inversion Hl; lia|]. apply IH; [exact HW|].
    assert (Ht : (t < 80)%nat) by (inversion Hl; lia).
    assert (Ef : f0 = f /\ K0 = K).
    { inversion Hl; subst; match goal with H : logical t f0 K0 |- _ => inversion H; subst; try lia; auto end. }
    destruct Ef as [-> ->]. rewrite HW by exact Ht. assumption.
Qed.
Lemma schedule_fun : forall b W W', schedule b W -> schedule b W' -> forall i, (i < 80)%nat -> W i = W' i.
Proof.
  intros b W W' [A1 A2] [B1 B2] i. induction i as [i IH] using lt_wf_ind. intros Hi.
  destruct (Nat.lt_ge_cases i 16) as [H|H].
  - rewrite A1, B1 by lia. reflexivity.
  - rewrite A2, B2 by lia. rewrite !IH by lia. reflexivity.
Qed.
Lemma compresses_fun : forall h b x y, compresses h b x -> compresses h b y -> x = y.
Proof.
  intros h b x y H1 H2. inversion H1 as [b1 W1 x0 x1 x2 x3 x4 a1 b1' c1 d1 e1 S1 R1]; subst.
  inversion H2 as [b2 W2 y0 y1 y2 y3 y4 a2 b2' c2 d2 e2 S2 R2]; subst.
  pose proof (rounds_fun _ _ _ _ _ R1 (schedule_fun _ _ _ S1 S2) _ R2) as E. injection E as -> -> -> -> ->. reflexivity.
Qed.
Lemma hashes_fun : forall h p x, hashes h p x -> forall y, hashes h p y -> x = y.
Proof.
  induction 1 as [h|h block h' r h'' Hl Hc Hh IH]; intros y Hy.
  - inversion Hy; subst; [reflexivity|]. destruct block; [discriminate|discriminate].
  - remember (block ++ r) as q eqn:E in Hy. destruct Hy as [h1|h1 block1 h1' r1 h1'' Hl1 Hc1 Hh1].
    + destruct block; discriminate.
    + assert (Eb : block1 = block).
      { apply (f_equal (firstn 64)) in E. rewrite !firstn_app, Hl, Hl1, Nat.sub_diag, !firstn_O, !app_nil_r in E.
        rewrite !firstn_all2 in E by lia. exact E. }
      subst block1. apply app_inv_head in E. subst r1. rewrite (compresses_fun _ _ _ _ Hc1 Hc) in Hh1. apply IH. exact Hh1.
Qed.
Lemma padded_fun : forall m p q, padded m p -> padded m q -> p = q.
Proof.
  intros m p q (k & len & -> & K1 & K2 & K3 & K4 & K5) (k' & len' & -> & G1 & G2 & G3 & G4 & G5).
  assert (k = k').
  { rewrite !app_length, !repeat_length in K2, G2. cbn [List.length] in K2, G2. rewrite K3 in K2. rewrite G3 in G2.
    pose proof (Nat.div_mod (List.length m + (1 + (k + 8))) 64 ltac:(discriminate)).
    pose proof (Nat.div_mod (List.length m + (1 + (k' + 8))) 64 ltac:(discriminate)). lia. }
  subst k'. do 3 f_equal.
  assert (V : forall a b, List.length a = List.length b -> Forall is_byte a -> Forall is_byte b -> value_le a = value_le b -> a = b).
  { clear. induction a as [|x a IH]; intros [|y b] H1 H2 H3 H4; try discriminate; [reflexivity|].
    pose proof (Forall_inv H2) as Hx. pose proof (Forall_inv H3) as Hy. unfold is_byte in Hx, Hy. cbn [value_le] in H4.
    assert (x = y) by lia. subst y. f_equal. apply IH; [simpl in H1; lia|exact (Forall_inv_tail H2)|exact (Forall_inv_tail H3)|lia]. }
  rewrite <- (rev_involutive len), <- (rev_involutive len'). f_equal.
  apply V; [rewrite !rev_length; congruence|apply Forall_rev; assumption|apply Forall_rev; assumption|].
  unfold value_be in K5, G5. congruence.
Qed.

(** The digest of a message is unique. *)
Theorem C83_unique : forall m d d', is_sha1 m d -> is_sha1 m d' -> d = d'.
Proof.
  intros m d d' (p & h & P & A & B) (p' & h' & P' & A' & B').
  rewrite (padded_fun _ _ _ P' P) in A'. rewrite (hashes_fun _ _ _ A' _ A) in B'.
  destruct h as [[[[h0 h1] h2] h3] h4]. destruct B as (L1 & F1 & V1), B' as (L2 & F2 & V2).
  assert (V : forall a b, List.length a = List.length b -> Forall is_byte a -> Forall is_byte b -> value_be a = value_be b -> a = b).
  { clear. unfold value_be. intros a b H1 H2 H3 H4. rewrite <- (rev_involutive a), <- (rev_involutive b). f_equal.
    apply Forall_rev in H2, H3. rewrite <- (rev_length a), <- (rev_length b) in H1.
    revert H1 H2 H3 H4. generalize (rev a) (rev b). clear. induction l as [|x a IH]; intros [|y b] H1 H2 H3 H4; try discriminate; [reflexivity|].
    pose proof (Forall_inv H2) as Hx. pose proof (Forall_inv H3) as Hy. unfold is_byte in Hx, Hy. cbn [value_le] in H4.
    assert (x = y) by lia. subst y. f_equal. apply IH; [simpl in H1; lia|exact (Forall_inv_tail H2)|exact (Forall_inv_tail H3)|lia]. }
  rewrite <- V2 in V1. cbn [List.map] in V1.
  assert (I5 : forall a1 a2 a3 a4 a5 b1 b2 b3 b4 b5 : N, [a1; a2; a3; a4; a5] = [b1; b2; b3; b4; b5] -> a1 = b1 /\ a2 = b2 /\ a3 = b3 /\ a4 = b4 /\ a5 = b5).
  { intros a1 a2 a3 a4 a5 b1 b2 b3 b4 b5 E. injection E. auto. }
  apply I5 in V1. clear I5. destruct V1 as (E1 & E2 & E3 & E4 & E5).
  assert (G : forall k, value_be (firstn 4 (skipn k d)) = value_be (firstn 4 (skipn k d')) -> firstn 4 (skipn k d) = firstn 4 (skipn k d')).
  { intros k. apply V; [rewrite !firstn_length, !skipn_length; lia|apply Forall_firstn', Forall_skipn'; assumption..]. }
  apply (G 0%nat) in E1. apply G in E2. apply G in E3. apply G in E4. apply G in E5.
  do 20 (destruct d as [|? d]; [discriminate|]). do 20 (destruct d' as [|? d']; [discriminate|]).
  destruct d; [|discriminate]. destruct d'; [|discriminate]. cbn [firstn skipn] in *. congruence.
Qed.

Example C83_case : option_map (fun h => sha1_format h 41) (sha1_of (L "abc")) = Some (Some (L "a9993e364706816aba3e25717850c26c9cd0d89d")).
Proof. vm_compute. reflexivity. Qed.

(** Without a single [add] the sum is never set to its first value: the digest
    of the empty message is not the SHA-1 digest of it. *)
Theorem C83_empty_refuted : exists h d, sha1_of [] = Some h /\ is_sha1 [] d /\ as_bytes h <> d.
Proof.
  assert (Hst : pushed H0 started []).
  { exists [], []. cbn. repeat split; try constructor; try lia. }
  destruct (end_ok H0 [] started Hst eq_refl eq_refl ltac:(vm_compute; reflexivity)) as (h' & p & E1 & E2 & E3 & E4).
  destruct (sha1_of []) as [h|] eqn:E; [|vm_compute in E; discriminate].
  exists h, (as_bytes h'). split; [reflexivity|]. split.
  - exists p, (five (dg_sum h')). split; [exact E2|]. split; [exact E3|]. apply as_bytes_ok. exact E4.
  - assert (A : option_map as_bytes (sha1_of []) <> Some (as_bytes (snd (sha1_end started)))) by (vm_compute; discriminate).
    rewrite E, E1 in A. simpl in A. congruence.
Qed.

(** The written form of the digest: 40 hexadecimal digits, which read back. *)
Theorem C83_format : forall h size,
  ((40 <= size)%nat -> exists t, sha1_format h size = Some t /\ List.length t = 40%nat /\ unhex t = Some (as_bytes h)) /\
  ((size < 40)%nat -> sha1_format h size = None).
Proof.
  intros h size. unfold sha1_format. destruct (Nat.ltb_spec size 40); split; intros; try lia; [reflexivity|].
  exists (hex_text (as_bytes h)). split; [reflexivity|]. split.
  - unfold as_bytes. destruct (dg_sum h). reflexivity.
  - apply unhex_text. unfold as_bytes. destruct (dg_sum h).
    assert (B : forall v k, is_byte (N.land (N.shiftr v k) 255)).
    { intros v k. unfold is_byte. change 255 with (N.ones 8). rewrite N.land_ones. apply N.mod_lt. discriminate. }
    unfold word_bytes. repeat constructor; apply B.
Qed.

(** A digest that was ended takes nothing more: every later [add] or [end] says false and
    leaves the digest as it is. *)
Inductive late := Add (b : byte) | End.
Definition act (x : late) (h : digest) : bool * digest := match x with Add b => sha1_add h b | End => sha1_end h end.
Fixpoint acts (xs : list late) (h : digest) : list bool * digest :=
  match xs with [] => ([], h) | x :: r => let '(ok, h) := act x h in let '(l, h) := acts r h in (ok :: l, h) end.
Lemma end_finished : forall h, dg_finished (snd (sha1_end h)) = true.
Proof.
  intros h. unfold sha1_end. destruct (dg_finished h) eqn:E; [exact E|]. cbn [snd].
  assert (G : forall (f : nat -> byte) l h, dg_finished (fold_left (fun h i => push_byte h (f i)) l h) = dg_finished h).
  { intros f. induction l as [|i l IH]; intros h0; [reflexivity|]. cbn [fold_left]. rewrite IH. exact (proj2 (push_keeps [f i] h0)). }
  rewrite (G (fun i => N.land (N.shiftr _ (64 - 8 - 8 * N.of_nat i)) 255)), (proj2 (push_keeps _ _)). exact (proj2 (push_keeps [128] _)).
Qed.
Theorem C83_finished : forall h xs, acts xs (snd (sha1_end h)) = (List.map (fun _ => false) xs, snd (sha1_end h)).
Proof.
  intros h. pose proof (end_finished h) as F. revert F. generalize (snd (sha1_end h)). clear h. intros h F.
  induction xs as [|[b|] xs IH]; [reflexivity| |]; cbn [acts act List.map].
  - unfold sha1_add. rewrite F, IH. reflexivity.
  - unfold sha1_end. rewrite F, IH. reflexivity.
Qed.
Example C83_finished_case : option_map (fun h => fst (acts [Add 97; End; Add 98] h)) (sha1_of (L "abc")) = Some [false; false; false].
Proof. vm_compute. reflexivity. Qed.

Print Assumptions C83_sha1_partial.
Print Assumptions C83_unique.
Print Assumptions C83_empty_refuted.
Print Assumptions C83_format.
Print Assumptions C83_finished.
