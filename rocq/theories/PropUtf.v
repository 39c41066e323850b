(** UTF-8 (lib/utf.c). *)
From Coq Require Import ZArith Lia.
From Verif Require Import LibBase LibIO LibText SpecText SpecUtf LibUtf PropStrings.
Local Open Scope N_scope.

Lemma upto : forall k P, (forallb P (map N.of_nat (seq 0 k)) = true) -> forall b, b < N.of_nat k -> P b = true.
Proof.
  intros k P H b Hb. rewrite forallb_forall in H. apply H. apply in_map_iff. exists (N.to_nat b). split; [lia|]. apply in_seq. lia.
Qed.

(** A byte in the middle of a sequence, as the program sees it. *)
Lemma middle : forall b, b < 256 ->
  (128 <= b < 192 /\ negb (N.land (N.lxor b 128) 192 =? 0) = false /\ N.lxor b 128 = b - 128) \/
  (~ 128 <= b < 192 /\ negb (N.land (N.lxor b 128) 192 =? 0) = true).
Proof.
  intros b Hb.
  pose proof (upto 256 (fun b => Bool.eqb (N.land (N.lxor b 128) 192 =? 0) ((128 <=? b) && (b <? 192)) &&
     (negb ((128 <=? b) && (b <? 192)) || (N.lxor b 128 =? b - 128))) ltac:(vm_compute; reflexivity) b Hb) as H.
  apply andb_prop in H as [H1 H2]. apply Bool.eqb_prop in H1. rewrite H1.
  destruct (N.leb_spec 128 b); [|right; split; [lia|reflexivity]]. destruct (N.ltb_spec b 192); [|right; split; [lia|reflexivity]].
  left. cbn in H2. apply N.eqb_eq in H2. repeat split; assumption.
Qed.

Lemma join_bits : forall c x, x < 64 -> N.lor (N.shiftl c Bitx) x = c * 64 + x.
Proof.
  intros c x Hx. rewrite N.shiftl_mul_pow2. change (2 ^ Bitx) with 64.
  rewrite <- N.lxor_lor, <- N.add_nocarry_lxor; [reflexivity| |];
    (apply N.bits_inj_0; intros n; rewrite N.land_spec; change 64 with (2 ^ 6); destruct (N.lt_ge_cases n 6);
     [rewrite N.mul_pow2_bits_low by assumption; reflexivity|];
     destruct (N.eq_dec x 0) as [->|]; [rewrite N.bits_0; apply andb_false_r|];
     rewrite (N.bits_above_log2 x n), andb_false_r; [reflexivity|];
     apply N.log2_lt_pow2; [lia|]; apply (N.lt_le_trans _ (2 ^ 6)); [exact Hx|]; apply N.pow_le_mono_r; lia).
Qed.
Lemma mask_bits : forall x k, N.land x (2 ^ k - 1) = x mod 2 ^ k.
Proof. intros x k. rewrite <- N.pred_sub, <- N.ones_equiv. apply N.land_ones. Qed.


Lemma next_char : forall pre s, plain_text s -> exists b, char_at (pre ++ s) (List.length pre) = ROk b /\ b < 256 /\
  (b = 0 -> s = []) /\ (b <> 0 -> exists s1, s = b :: s1 /\ plain_text s1).
Proof.
  intros pre s P. unfold char_at. rewrite <- app_assoc, nth_error_app2, Nat.sub_diag by reflexivity.
  destruct s as [|b s].
  - exists 0. cbn. split; [reflexivity|]. split; [lia|]. split; [reflexivity|congruence].
  - inversion P; subst. exists b. cbn. split; [reflexivity|]. split; [lia|]. split; [lia|]. intros _. exists s. auto.
Qed.

Lemma cons_same : forall A (x y : A) l m, x :: l = y :: m -> x = y /\ l = m.
Proof. intros A x y l m H. injection H. auto. Qed.
Ltac conses := repeat match goal with
  | H : _ :: _ = [] |- _ => discriminate H | H : [] = _ :: _ |- _ => discriminate H
  | H : _ :: _ = _ :: _ |- _ => apply cons_same in H; destruct H end.
Ltac none := right; split; [|split; reflexivity];
  intros ? ? (? & ? & ? & U & ?); destruct U; cbn [app] in *; conses; lia.

Lemma get_ok : forall s, plain_text s -> s <> [] -> exists r n, get_rune s = ROk (r, n) /\ reads s r n.
Proof.
  intros s P NE. destruct s as [|c s]; [congruence|]. inversion P as [|? ? Hc P']; subst. clear P NE.
  unfold get_rune. change (char_at (c :: s) 0) with (ROk c). cbn [rbind].
  change Tx with 128. change Testx with 192. change T2 with 192. change T3 with 224. change T4 with 240. change T5 with 248.
  change Runeerror with 65533. change Rune1 with 127. change Rune2 with (2 ^ 11 - 1). change Rune3 with (2 ^ 16 - 1). change Rune4 with (2 ^ 21 - 1).
  change Runemax with 1114111.
  destruct (N.ltb_spec c 128) as [C|C].
  { exists c, 1%nat. split; [reflexivity|]. left. exists [c], s. repeat split. constructor. exact C. }
  destruct (next_char [c] s P') as (b1 & E1 & L1 & Z1 & S1). cbn [app List.length] in E1. rewrite E1. cbn [rbind]. cbv zeta.
  destruct (middle b1 L1) as [(M1 & T & X1)|(M1 & T)]; rewrite T; clear T.
  2:{ exists 65533, 1%nat. split; [reflexivity|].
      destruct (N.eq_dec b1 0) as [B|B]; [rewrite (Z1 B) | destruct (S1 B) as (? & -> & _)]; clear S1; none. }
  rewrite X1. destruct (S1 ltac:(lia)) as (s1 & -> & P1). clear S1 Z1 E1 X1 P'.
  rewrite (join_bits c (b1 - 128)) by lia.
  destruct (N.ltb_spec c 224) as [C3|C3].
  { destruct (N.ltb_spec c 192) as [C2|C2]; [exists 65533, 1%nat; split; [reflexivity|]; none|].
    rewrite mask_bits. assert (V : (c * 64 + (b1 - 128)) mod 2 ^ 11 = (c - 192) * 64 + (b1 - 128)).
    { change (2 ^ 11) with 2048. symmetry. apply (N.mod_unique _ _ 6); lia. }
    rewrite V. destruct (N.leb_spec ((c - 192) * 64 + (b1 - 128)) 127).
    - exists 65533, 1%nat. split; [reflexivity|]. none.
    - exists ((c - 192) * 64 + (b1 - 128)), 2%nat. split; [reflexivity|]. left. exists [c; b1], s1. repeat split.
      replace [c; b1] with [192 + (c - 192); 128 + (b1 - 128)] by (repeat f_equal; lia). constructor; lia. }
  destruct (next_char [c; b1] s1 P1) as (b2 & E2 & L2 & Z2 & S2). cbn [app List.length] in E2. rewrite E2. cbn [rbind]. cbv zeta.
  destruct (middle b2 L2) as [(M2 & T & X2)|(M2 & T)]; rewrite T; clear T.
  2:{ exists 65533, 1%nat. split; [reflexivity|].
      destruct (N.eq_dec b2 0) as [B|B]; [rewrite (Z2 B) | destruct (S2 B) as (? & -> & _)]; clear S2; none. }
  rewrite X2. destruct (S2 ltac:(lia)) as (s2 & -> & P2). clear S2 Z2 E2 X2 P1.
  rewrite (join_bits _ (b2 - 128)) by lia.
  destruct (N.ltb_spec c 240) as [C4|C4].
  { rewrite mask_bits. assert (V : ((c * 64 + (b1 - 128)) * 64 + (b2 - 128)) mod 2 ^ 16 = ((c - 224) * 64 + (b1 - 128)) * 64 + (b2 - 128)).
    { change (2 ^ 16) with 65536. symmetry. apply (N.mod_unique _ _ 14); lia. }
    rewrite V. change (2 ^ 11 - 1) with 2047. destruct (N.leb_spec (((c - 224) * 64 + (b1 - 128)) * 64 + (b2 - 128)) 2047).
    - exists 65533, 1%nat. split; [reflexivity|]. none.
    - exists (((c - 224) * 64 + (b1 - 128)) * 64 + (b2 - 128)), 3%nat. split; [reflexivity|]. left. exists [c; b1; b2], s2. repeat split.
      replace [c; b1; b2] with [224 + (c - 224); 128 + (b1 - 128); 128 + (b2 - 128)] by (repeat f_equal; lia). constructor; lia. }
  destruct (next_char [c; b1; b2] s2 P2) as (b3 & E3 & L3 & Z3 & S3). cbn [app List.length] in E3. rewrite E3. cbn [rbind]. cbv zeta.
  destruct (middle b3 L3) as [(M3 & T & X3)|(M3 & T)]; rewrite T; clear T.
  2:{ exists 65533, 1%nat. split; [reflexivity|].
      destruct (N.eq_dec b3 0) as [B|B]; [rewrite (Z3 B) | destruct (S3 B) as (? & -> & _)]; clear S3; none. }
  rewrite X3. destruct (S3 ltac:(lia)) as (s3 & -> & P3). clear S3 Z3 E3 X3 P2.
  rewrite (join_bits _ (b3 - 128)) by lia.
  destruct (N.ltb_spec c 248) as [C5|C5].
  2:{ exists 65533, 1%nat. split; [reflexivity|]. none. }
  rewrite mask_bits. assert (V : (((c * 64 + (b1 - 128)) * 64 + (b2 - 128)) * 64 + (b3 - 128)) mod 2 ^ 21 = (((c - 240) * 64 + (b1 - 128)) * 64 + (b2 - 128)) * 64 + (b3 - 128)).
  { change (2 ^ 21) with 2097152. symmetry. apply (N.mod_unique _ _ 30); lia. }
  rewrite V. change (2 ^ 16 - 1) with 65535. destruct (N.leb_spec ((((c - 240) * 64 + (b1 - 128)) * 64 + (b2 - 128)) * 64 + (b3 - 128)) 65535).
  { exists 65533, 1%nat. split; [reflexivity|]. none. }
  destruct (N.ltb_spec 1114111 ((((c - 240) * 64 + (b1 - 128)) * 64 + (b2 - 128)) * 64 + (b3 - 128))).
  { exists 65533, 1%nat. split; [reflexivity|]. none. }
  exists ((((c - 240) * 64 + (b1 - 128)) * 64 + (b2 - 128)) * 64 + (b3 - 128)), 4%nat. split; [reflexivity|]. left. exists [c; b1; b2; b3], s3. repeat split.
  replace [c; b1; b2; b3] with [240 + (c - 240); 128 + (b1 - 128); 128 + (b2 - 128); 128 + (b3 - 128)] by (repeat f_equal; lia). constructor; lia.
Qed.

(** * One character *)
Theorem C95_decode : forall s, plain_text s -> s <> [] -> exists r n, get_rune s = ROk (r, n) /\ reads s r n.
Proof. exact get_ok. Qed.

Lemma utf8_fun : forall r e, utf8 r e -> forall r' e', utf8 r' e' -> forall t t', e ++ t = e' ++ t' -> r = r' /\ e = e'.
Proof.
  intros r e U r' e' U' t t' E. destruct U, U'; cbn [app] in E; conses; try lia; (split; [|repeat f_equal]; lia).
Qed.
Lemma utf8_size : forall r e, utf8 r e -> (1 <= List.length e <= 4)%nat.
Proof. intros r e U. destruct U; cbn; lia. Qed.
Lemma utf8_code : forall r e e', utf8 r e -> utf8 r e' -> e = e'.
Proof.
  intros r e e' U U'. destruct U as [x Hx|a b A B G|a b c A B D G|a b c d A B D F G G']; inversion U' as [x1|a1 b1|a1 b1 c1|a1 b1 c1 d1]; subst; try lia; try reflexivity;
  repeat f_equal; lia.
Qed.
Theorem C95_unique : forall s r n r' n', reads s r n -> reads s r' n' -> r = r' /\ n = n'.
Proof.
  intros s r n r' n' [A|(A & -> & ->)] [B|(B & -> & ->)]; auto.
  - destruct A as (e & t & -> & U & <-), B as (e' & t' & E & U' & <-). destruct (utf8_fun _ _ U _ _ U' _ _ E) as [-> ->]. auto.
  - destruct (B _ _ A).
  - destruct (A _ _ B).
Qed.

Lemma lor_small : forall a k x, x < N.of_nat k -> forallb (fun x => N.lor a x =? a + x) (map N.of_nat (seq 0 k)) = true -> N.lor a x = a + x.
Proof. intros a k x Hx H. apply N.eqb_eq. exact (upto k (fun x => N.lor a x =? a + x) H x Hx). Qed.

Lemma two : forall r a b, r = a * 64 + b -> a < 32 -> b < 64 -> 128 <= r -> utf8 r [192 + a; 128 + b].
Proof. intros; subst; constructor; assumption. Qed.
Lemma three : forall r a b c, r = (a * 64 + b) * 64 + c -> a < 16 -> b < 64 -> c < 64 -> 2048 <= r -> utf8 r [224 + a; 128 + b; 128 + c].
Proof. intros; subst; constructor; assumption. Qed.
Lemma four : forall r a b c d, r = ((a * 64 + b) * 64 + c) * 64 + d -> a < 8 -> b < 64 -> c < 64 -> d < 64 -> 65536 <= r -> r <= 1114111 ->
  utf8 r [240 + a; 128 + b; 128 + c; 128 + d].
Proof. intros; subst; constructor; assumption. Qed.

Lemma low_bits : forall x, N.land x Maskx = x mod 64.
Proof. intros x. change Maskx with (2 ^ 6 - 1). rewrite mask_bits. reflexivity. Qed.
Lemma mid_byte : forall x, N.lor Tx (x mod 64) = 128 + x mod 64.
Proof. intros x. apply (lor_small 128 64); [apply N.mod_lt; discriminate|vm_compute; reflexivity]. Qed.

Lemma encode_ok : forall r, r <= 1114111 -> utf8 r (runetochar r).
Proof.
  intros r Hr. unfold runetochar. destruct (N.leb_spec (2 ^ 31) r) as [H|_]; [change (2 ^ 31) with 2147483648 in H; lia|]. cbn [orb].
  change Rune1 with 127. change Rune2 with 2047. change Rune3 with 65535. change Runemax with 1114111. cbv zeta.
  destruct (N.leb_spec r 127) as [H1|H1]. { rewrite N.mod_small by lia. constructor. lia. }
  rewrite !low_bits, !N.shiftr_div_pow2. change (2 ^ Bitx) with 64. change (2 ^ (2 * Bitx)) with (64 * 64). change (2 ^ (3 * Bitx)) with (64 * 64 * 64).
  assert (D : forall x, x = x / 64 * 64 + x mod 64) by (intros x; rewrite N.mul_comm; apply N.div_mod; discriminate).
  assert (M : forall x, x mod 64 < 64) by (intros x; apply N.mod_lt; discriminate).
  destruct (N.leb_spec r 2047) as [H2|H2].
  { rewrite mid_byte, (lor_small T2 32) by (try (vm_compute; reflexivity); change (N.of_nat 32) with 32; apply N.div_lt_upper_bound; lia).
    apply two; [apply D|apply N.div_lt_upper_bound; lia|apply M|lia]. }
  destruct (N.ltb_spec 1114111 r) as [H|_]; [lia|].
  destruct (N.leb_spec r 65535) as [H3|H3].
  { rewrite !mid_byte, (lor_small T3 16) by (try (vm_compute; reflexivity); change (N.of_nat 16) with 16; apply N.div_lt_upper_bound; lia).
    apply three; [|apply N.div_lt_upper_bound; lia|apply M|apply M|lia]. rewrite <- N.div_div by discriminate. rewrite <- !D. reflexivity. }
  rewrite !mid_byte, (lor_small T4 8) by (try (vm_compute; reflexivity); change (N.of_nat 8) with 8; apply N.div_lt_upper_bound; lia).
  apply four; [|apply N.div_lt_upper_bound; lia|apply M|apply M|apply M|lia|lia]. rewrite <- !N.div_div by discriminate. rewrite <- !D. reflexivity.
Qed.
Theorem C95_encode : forall r,
  (r <= 1114111 -> utf8 r (runetochar r)) /\
  (1114111 < r < 2 ^ 31 -> utf8 65533 (runetochar r)).
Proof.
  intros r. split; [apply encode_ok|]. intros [H1 H2].
  replace (runetochar r) with (runetochar 65533); [apply encode_ok; lia|].
  unfold runetochar. change Rune1 with 127. change Rune2 with 2047. change Runemax with 1114111.
  destruct (N.leb_spec (2 ^ 31) r) as [H|_]; [lia|]. destruct (N.leb_spec r 127); [lia|]. destruct (N.leb_spec r 2047); [lia|].
  destruct (N.ltb_spec 1114111 r); [reflexivity|lia].
Qed.
(** From 2^31 on, a rune is not replaced by U+FFFD but cut to one byte. *)
Theorem C95_encode_refuted : runetochar (2 ^ 31 + 233) = [233] /\ forall r, ~ utf8 r [233].
Proof. split; [vm_compute; reflexivity|]. intros r U. inversion U; subst. lia. Qed.

Theorem C95_round_trip : forall r s, 0 < r <= 1114111 -> plain_text s ->
  get_rune (runetochar r ++ s) = ROk (r, List.length (runetochar r)).
Proof.
  intros r s [H0 H] P. pose proof (encode_ok r H) as U.
  assert (Q : plain_text (runetochar r)).
  { destruct U; repeat constructor; lia. }
  destruct (get_ok (runetochar r ++ s)) as (r' & n' & -> & R).
  - apply Forall_app. auto.
  - pose proof (utf8_size _ _ U). destruct (runetochar r); cbn in *; [lia|discriminate].
  - destruct (C95_unique _ _ _ r (List.length (runetochar r)) R) as [-> ->]; [|reflexivity].
    left. exists (runetochar r), s. auto.
Qed.

Theorem C95_length : forall r, r < 2 ^ 32 -> runelen (Z.of_N r) = List.length (runetochar r).
Proof. intros r H. unfold runelen. rewrite Z.mod_small by (change (2 ^ 32)%N with 4294967296 in H; lia). rewrite N2Z.id. reflexivity. Qed.
Theorem C95_lengths : forall rs, runenlen rs = List.length (List.concat (List.map runetochar rs)).
Proof.
  induction rs as [|r rs IH]; [reflexivity|]. cbn [runenlen List.map List.concat]. rewrite app_length, <- IH. f_equal.
  unfold runetochar. destruct (_ || _); [reflexivity|]. destruct (r <=? Rune2) eqn:E2; [reflexivity|]. cbv zeta.
  destruct (Runemax <? r) eqn:E; [rewrite orb_true_r; reflexivity|]. rewrite orb_false_r. destruct (r <=? Rune3); reflexivity.
Qed.

(** Enough bytes have come: what follows does not matter; and exactly then for a
    character. *)
Theorem C95_full : forall s t t', fullrune (s ++ t) (Z.of_nat (List.length s)) = ROk true ->
  get_rune (s ++ t) = get_rune (s ++ t').
Proof.
  intros s t t' H. destruct s as [|c s]; [discriminate H|]. unfold fullrune in H. cbn [app] in H.
  change (char_at (c :: s ++ t) 0) with (ROk c) in H. cbn [rbind] in H.
  destruct (Z.leb_spec (Z.of_nat (List.length (c :: s))) 0) as [|_]; [discriminate H|].
  injection H as H. cbn [app]. unfold get_rune.
  change (char_at (c :: s ++ t) 0) with (ROk c). change (char_at (c :: s ++ t') 0) with (ROk c). cbn [rbind].
  destruct (c <? Tx); [reflexivity|].
  destruct s as [|b1 s]; [destruct (c <? T3); [discriminate H|]; destruct (c <? T4); discriminate H|].
  change (char_at (c :: (b1 :: s) ++ t) 1) with (ROk b1). change (char_at (c :: (b1 :: s) ++ t') 1) with (ROk b1). cbn [rbind]. cbv zeta.
  destruct (negb _); [reflexivity|]. destruct (c <? T3); [reflexivity|].
  destruct s as [|b2 s]; [destruct (c <? T4); discriminate H|].
  change (char_at (c :: (b1 :: b2 :: s) ++ t) 2) with (ROk b2). change (char_at (c :: (b1 :: b2 :: s) ++ t') 2) with (ROk b2). cbn [rbind]. cbv zeta.
  destruct (negb _); [reflexivity|]. destruct (c <? T4); [reflexivity|].
  destruct s as [|b3 s]; [discriminate H|]. reflexivity.
Qed.
Theorem C95_full_char : forall r e s n, utf8 r e -> fullrune (e ++ s) n = ROk (Z.of_nat (List.length e) <=? n)%Z.
Proof.
  intros r e s n U. unfold fullrune. destruct U; cbn [app List.length Z.of_nat Pos.of_succ_nat Pos.succ];
    match goal with |- context [char_at (?c :: ?t) 0] => change (char_at (c :: t) 0) with (ROk c) end; cbn [rbind];
    change Tx with 128; change T3 with 224; change T4 with 240;
    destruct (Z.leb_spec n 0) as [N0|N0];
    try (match goal with |- ROk false = ROk (?k <=? n)%Z => destruct (Z.leb_spec k n); [lia|reflexivity] end);
    repeat match goal with |- context [?x <? ?y] => destruct (N.ltb_spec x y); try lia end; try reflexivity.
  destruct (Z.leb_spec 1 n); [reflexivity|lia].
Qed.

(** RFC 3629 forbids the numbers 0xD800-0xDFFF; the program reads and writes them. *)
Theorem C95_surrogates_refuted : get_rune [237; 160; 128] = ROk (55296, 3%nat) /\ surrogate 55296 /\ runetochar 55296 = [237; 160; 128].
Proof. split; [vm_compute; reflexivity|]. split; [unfold surrogate; lia|vm_compute; reflexivity]. Qed.

(** * Texts *)
Lemma utf8_head : forall r e, utf8 r e -> exists c q, e = c :: q /\ (c < 128 /\ q = [] /\ r = c \/ 192 <= c /\ 128 <= r /\ Forall (fun b => 128 <= b < 192) q).
Proof.
  intros r e U. destruct U; eexists _, _; (split; [reflexivity|]); [left; auto|right..]; (split; [lia|]); (split; [lia|]); repeat constructor; lia.
Qed.
Lemma reads_inv : forall s r n, plain_text s -> s <> [] -> reads s r n ->
  exists c q, s = c :: q /\ (1 <= n <= List.length s)%nat /\ plain_text (skipn n s) /\ 0 < c /\
    (c < 128 /\ r = c /\ n = 1%nat \/ 128 <= c /\ 128 <= r /\ Forall (fun b => 128 <= b) (firstn n s) /\ Forall (fun b => 128 <= b < 192) (skipn 1 (firstn n s))).
Proof.
  intros s r n P NE R. destruct s as [|c q]; [congruence|]. exists c, q. split; [reflexivity|].
  assert (Q : forall k, plain_text (skipn k (c :: q))).
  { intros k. rewrite <- (firstn_skipn k (c :: q)) in P. apply Forall_app in P. tauto. }
  destruct R as [(e & t & E & U & Ln)|(No & -> & ->)].
  - rewrite E, app_length. split; [pose proof (utf8_size _ _ U); lia|]. split; [rewrite <- E; apply Q|].
    inversion P; subst. split; [lia|]. rewrite firstn_app, Nat.sub_diag, firstn_all, firstn_O, app_nil_r.
    destruct (utf8_head _ _ U) as (c' & q' & -> & [(A & -> & ->)|(A & B & F)]); cbn [app] in E; apply cons_same in E as [-> E]; [left; auto|].
    right. split; [lia|]. split; [exact B|]. split; [|exact F]. constructor; [lia|]. revert F; apply Forall_impl; intros; lia.
  - split; [cbn; lia|]. split; [apply Q|]. inversion P; subst. split; [lia|].
    destruct (N.lt_ge_cases c 128) as [Lo|Lo]; [|right; cbn; repeat constructor; lia].
    destruct (No c 1%nat). exists [c], q. repeat constructor. exact Lo.
Qed.
Lemma step_char : forall s, plain_text s -> s <> [] -> exists c q r n, s = c :: q /\ char_at s 0 = ROk c /\ get_rune s = ROk (r, n) /\ reads s r n /\
  advance s n = ROk (skipn n s) /\ plain_text (skipn n s) /\ (1 <= n)%nat /\ (List.length (skipn n s) < List.length s)%nat /\ (c =? 0) = false /\
  (c < 128 /\ r = c /\ n = 1%nat \/ 128 <= c /\ 128 <= r /\ Forall (fun b => 128 <= b) (firstn n s)).
Proof.
  intros s P NE. destruct (get_ok s P NE) as (r & n & G & R). destruct (reads_inv s r n P NE R) as (c & q & E & Ln & Q & Z0 & K).
  exists c, q, r, n. split; [exact E|]. split; [rewrite E; reflexivity|]. split; [exact G|]. split; [exact R|].
  split; [unfold advance; destruct (Nat.leb_spec n (List.length s)); [reflexivity|lia]|]. split; [exact Q|]. split; [lia|].
  split; [rewrite skipn_length; lia|]. split; [apply N.eqb_neq; lia|]. destruct K as [K|(A & B & C & _)]; auto.
Qed.

Lemma runes_fun : forall s l, runes s l -> forall l', runes s l' -> l = l'.
Proof.
  induction 1 as [|s r n l NE R _ IH]; intros l' H; inversion H; subst; try congruence.
  match goal with R' : reads s _ _ |- _ => destruct (C95_unique _ _ _ _ _ R R') as [-> ->] end. f_equal. apply IH. assumption.
Qed.

Lemma count_ok : forall fuel s n, plain_text s -> (List.length s < fuel)%nat -> exists l, runes s l /\ count_loop fuel s n = ROk (n + List.length l)%nat.
Proof.
  induction fuel as [|fuel IH]; intros s n P Hf; [lia|]. destruct s as [|b s0]; [exists []; split; [constructor|]; cbn; f_equal; lia|].
  destruct (step_char (b :: s0) P ltac:(discriminate)) as (c & q & r & k & E & Ec & Eg & R & Ea & Q & K1 & K & Cz & D).
  destruct (IH (skipn k (b :: s0)) (S n) Q ltac:(lia)) as (l & Rl & El).
  exists ((r, k) :: l). split; [constructor; [discriminate|exact R|exact Rl]|].
  cbn [count_loop]. rewrite Ec. cbn [rbind]. change Runeself with 128. rewrite Cz.
  destruct (N.ltb_spec c 128) as [C|C].
  - destruct D as [(_ & -> & ->)|D]; [|lia]. rewrite Ea. cbn [rbind]. rewrite El. f_equal. cbn. lia.
  - rewrite Eg. cbn [rbind]. rewrite Ea. cbn [rbind]. rewrite El. f_equal. cbn. lia.
Qed.
Theorem C96_count : forall s, plain_text s -> exists l, runes s l /\ runecount s = ROk (List.length l).
Proof. intros s P. destruct (count_ok (S (List.length s)) s 0 P ltac:(lia)) as (l & R & E). exists l. auto. Qed.
Theorem C96_unique : forall s l l', runes s l -> runes s l' -> l = l'.
Proof. intros s l l' H H'. exact (runes_fun s l H l' H'). Qed.

Lemma utf8_plain : forall r e, 0 < r -> utf8 r e -> plain_text e.
Proof. intros r e H U. destruct U; repeat constructor; lia. Qed.
Lemma encodes_plain : forall rs s, encodes rs s -> plain_text s.
Proof. induction 1; [constructor|]. apply Forall_app. split; [eapply utf8_plain; eassumption|assumption]. Qed.
Lemma encodes_runes : forall rs s, encodes rs s -> exists l, runes s l /\ List.map fst l = rs.
Proof.
  induction 1 as [|r e rs s H U E (l & R & M)]; [exists []; split; constructor|].
  exists ((r, List.length e) :: l). split; [|cbn; congruence].
  constructor; [pose proof (utf8_size _ _ U); destruct e; cbn in *; [lia|discriminate]|left; exists e, s; auto|].
  rewrite skipn_app, skipn_all, Nat.sub_diag. exact R.
Qed.
Theorem C96_count_text : forall rs s, encodes rs s -> runecount s = ROk (List.length rs).
Proof.
  intros rs s E. destruct (encodes_runes _ _ E) as (l & R & <-). destruct (C96_count s (encodes_plain _ _ E)) as (l' & R' & ->).
  rewrite (runes_fun _ _ R _ R'), map_length. reflexivity.
Qed.

Lemma strchr_skip : forall e t c i, Forall (fun b => 128 <= b) e -> c < 128 -> c_strchr (e ++ t) c i = c_strchr t c (i + List.length e)%nat.
Proof.
  induction e as [|b e IH]; intros t c i F C; [cbn; f_equal; lia|]. inversion F; subst. cbn [app c_strchr List.length].
  destruct (N.eqb_spec b c); [lia|]. rewrite IH by assumption. f_equal. lia.
Qed.
Lemma strrchr_skip : forall e t c i o, Forall (fun b => 128 <= b) e -> c < 128 -> c_strrchr (e ++ t) c i o = c_strrchr t c (i + List.length e)%nat o.
Proof.
  induction e as [|b e IH]; intros t c i o F C; [cbn; f_equal; lia|]. inversion F; subst. cbn [app c_strrchr List.length].
  destruct (N.eqb_spec b c); [lia|]. rewrite IH by assumption. f_equal. lia.
Qed.

Definition found (l : list (N * nat)) (c : N) (i : nat) (q : option nat) : Prop :=
  match q with Some p => exists k, p = (i + k)%nat /\ first_place l c k | None => ~ In c (List.map fst l) end.
Lemma found_here : forall l c n i, found ((c, n) :: l) c i (Some i).
Proof. intros l c n i. exists O. split; [lia|]. exists [], n, l. repeat split. intros []. Qed.
Lemma found_next : forall l c r n i q, r <> c -> found l c (i + n)%nat q -> found ((r, n) :: l) c i q.
Proof.
  intros l c r n i q D H. destruct q as [p|]; cbn in *.
  - destruct H as (k & -> & l1 & m & l2 & -> & No & ->). exists (n + size_of l1)%nat. split; [lia|].
    exists ((r, n) :: l1), m, l2. split; [reflexivity|]. split; [|reflexivity]. cbn. tauto.
  - intros [H1|H1]; auto.
Qed.
Lemma strchr_ok : forall s l c i, runes s l -> plain_text s -> 0 < c < 128 -> found l c i (c_strchr s c i).
Proof.
  intros s l c i R. revert i. induction R as [|s r n l NE R Rl IH]; intros i P C.
  - cbn. destruct (N.eqb_spec c 0); [lia|]. intros [].
  - destruct (reads_inv s r n P NE R) as (b & q & E & Ln & Q & Z0 & [(A & -> & ->)|(A & B & F & _)]).
    + rewrite E. cbn [c_strchr]. rewrite E in IH. cbn [skipn] in IH. rewrite E in Q. cbn [skipn] in Q.
      destruct (N.eqb_spec b c) as [->|D]; [apply found_here|]. apply found_next; [exact D|]. replace (i + 1)%nat with (S i) by lia. apply IH; assumption.
    + rewrite <- (firstn_skipn n s), strchr_skip by (assumption || lia). apply found_next; [lia|].
      rewrite firstn_length_le by lia. apply IH; assumption.
Qed.
Lemma rune_loop_ok : forall fuel s l c i, runes s l -> plain_text s -> 128 <= c -> (List.length s < fuel)%nat ->
  exists q, rune_loop fuel s c i = ROk q /\ found l c i q.
Proof.
  induction fuel as [|fuel IH]; intros s l c i R P C Hf; [lia|]. inversion R as [|? r n l0 NE Rd Rl]; subst.
  { exists None. split; [reflexivity|]. intros []. }
  destruct (step_char s P NE) as (c1 & q1 & r' & k & E & Ec & Eg & R' & Ea & Q & K1 & K & Cz & D).
  destruct (C95_unique _ _ _ _ _ Rd R') as [<- <-].
  cbn [rune_loop]. rewrite Ec. cbn [rbind]. change Runeself with 128. rewrite Cz.
  destruct (N.ltb_spec c1 128) as [L1|L1].
  - destruct D as [(_ & -> & ->)|D]; [|lia]. destruct (N.eqb_spec c1 c); [lia|]. rewrite Ea. cbn [rbind].
    destruct (IH (skipn 1 s) l0 c (S i) Rl Q C ltac:(lia)) as (q & Eq & F). exists q. split; [exact Eq|]. apply found_next; [exact n|]. replace (i + 1)%nat with (S i) by lia. exact F.
  - rewrite Eg. cbn [rbind]. destruct (N.eqb_spec r c) as [->|D2]; [exists (Some i); split; [reflexivity|apply found_here]|].
    rewrite Ea. cbn [rbind]. destruct (IH (skipn n s) l0 c (i + n)%nat Rl Q C ltac:(lia)) as (q & Eq & F). exists q. split; [exact Eq|]. apply found_next; assumption.
Qed.
Lemma utfrune_found : forall s l c, plain_text s -> runes s l -> 0 < c -> exists q, utfrune s c = ROk q /\ found l c 0 q.
Proof.
  intros s l c P R C. unfold utfrune. change Runesync with 128. destruct (N.ltb_spec c 128).
  - exists (c_strchr s c 0). split; [reflexivity|]. apply (strchr_ok s l c 0 R P). lia.
  - apply rune_loop_ok; auto.
Qed.
Theorem C96_find : forall s l c, plain_text s -> runes s l -> 0 < c -> exists q, utfrune s c = ROk q /\
  match q with Some p => first_place l c p | None => ~ In c (List.map fst l) end.
Proof.
  intros s l c P R C. destruct (utfrune_found s l c P R C) as (q & E & F). exists q. split; [exact E|].
  destruct q; [|exact F]. destruct F as (k & -> & F). exact F.
Qed.

Definition found_last (l : list (N * nat)) (c : N) (i : nat) (o q : option nat) : Prop :=
  (In c (List.map fst l) /\ exists k, q = Some (i + k)%nat /\ last_place l c k) \/ (~ In c (List.map fst l) /\ q = o).
Lemma found_last_next : forall l c r n i o q, found_last l c (i + n)%nat (if r =? c then Some i else o) q -> found_last ((r, n) :: l) c i o q.
Proof.
  intros l c r n i o q [(I & k & -> & l1 & m & l2 & E & No & ->)|(I & ->)].
  - left. split; [cbn; auto|]. exists (n + size_of l1)%nat. split; [f_equal; lia|]. exists ((r, n) :: l1), m, l2. subst l. repeat split. exact No.
  - destruct (N.eqb_spec r c) as [->|D].
    + left. split; [cbn; auto|]. exists O. split; [f_equal; lia|]. exists [], n, l. repeat split. exact I.
    + right. split; [|reflexivity]. cbn. tauto.
Qed.
Lemma strrchr_ok : forall s l c i o, runes s l -> plain_text s -> 0 < c < 128 -> found_last l c i o (c_strrchr s c i o).
Proof.
  intros s l c i o R. revert i o. induction R as [|s r n l NE R Rl IH]; intros i o P C.
  - cbn. destruct (N.eqb_spec c 0); [lia|]. right. cbn. auto.
  - destruct (reads_inv s r n P NE R) as (b & q & E & Ln & Q & Z0 & [(A & -> & ->)|(A & B & F & _)]).
    + rewrite E. cbn [c_strrchr]. rewrite E in IH. cbn [skipn] in IH. rewrite E in Q. cbn [skipn] in Q.
      apply found_last_next. replace (i + 1)%nat with (S i) by lia. apply IH; assumption.
    + rewrite <- (firstn_skipn n s), strrchr_skip by (assumption || lia). apply found_last_next.
      destruct (N.eqb_spec r c); [lia|]. rewrite firstn_length_le by lia. apply IH; assumption.
Qed.
Lemma rrune_loop_ok : forall fuel s l c i o, runes s l -> plain_text s -> 128 <= c -> (List.length s < fuel)%nat ->
  exists q, rrune_loop fuel s c i o = ROk q /\ found_last l c i o q.
Proof.
  induction fuel as [|fuel IH]; intros s l c i o R P C Hf; [lia|]. inversion R as [|? r n l0 NE Rd Rl]; subst.
  { exists o. split; [reflexivity|]. right. auto. }
  destruct (step_char s P NE) as (c1 & q1 & r' & k & E & Ec & Eg & R' & Ea & Q & K1 & K & Cz & D).
  destruct (C95_unique _ _ _ _ _ Rd R') as [<- <-].
  cbn [rrune_loop]. rewrite Ec. cbn [rbind]. change Runeself with 128. rewrite Cz.
  destruct (N.ltb_spec c1 128) as [L1|L1].
  - destruct D as [(_ & -> & ->)|D]; [|lia]. rewrite Ea. cbn [rbind].
    destruct (IH (skipn 1 s) l0 c (S i) (if c1 =? c then Some i else o) Rl Q C ltac:(lia)) as (q & Eq & F). exists q. split; [exact Eq|].
    apply found_last_next. replace (i + 1)%nat with (S i) by lia. exact F.
  - rewrite Eg. cbn [rbind]. rewrite Ea. cbn [rbind].
    destruct (IH (skipn n s) l0 c (i + n)%nat (if r =? c then Some i else o) Rl Q C ltac:(lia)) as (q & Eq & F). exists q. split; [exact Eq|]. apply found_last_next; assumption.
Qed.
Theorem C96_find_last : forall s l c, plain_text s -> runes s l -> 0 < c -> exists q, utfrrune s c = ROk q /\
  match q with Some p => last_place l c p | None => ~ In c (List.map fst l) end.
Proof.
  intros s l c P R C. unfold utfrrune. change Runesync with 128.
  assert (G : forall q, found_last l c 0 None q -> match q with Some p => last_place l c p | None => ~ In c (List.map fst l) end).
  { intros q [(I & k & -> & F)|(I & ->)]; assumption. }
  destruct (N.ltb_spec c 128).
  - exists (c_strrchr s c 0 None). split; [reflexivity|]. apply G. apply strrchr_ok; [exact R|exact P|lia].
  - destruct (rrune_loop_ok (S (List.length s)) s l c 0 None R P H ltac:(lia)) as (q & E & F). exists q. split; [exact E|exact (G q F)].
Qed.

(** A character in the middle of a text starts where the text is cut. *)
Lemma boundary : forall p l, runes p l -> plain_text p -> forall a x b, p = a ++ x :: b -> 192 <= x ->
  exists l1 l2, l = l1 ++ l2 /\ size_of l1 = List.length a /\ runes (x :: b) l2.
Proof.
  induction 1 as [|p r n l NE R Rl IH]; intros P a x b E X; [destruct a; discriminate E|].
  destruct a as [|y a].
  { exists [], ((r, n) :: l). repeat split. cbn in E. rewrite <- E. constructor; assumption. }
  destruct (reads_inv p r n P NE R) as (c & q & E' & Ln & Q & Z0 & K).
  assert (n <= List.length (y :: a))%nat as Hn.
  { destruct (Nat.le_gt_cases n (List.length (y :: a))) as [|G]; [assumption|exfalso].
    destruct K as [(_ & _ & ->)|(_ & _ & _ & F)]; [cbn in G; lia|].
    rewrite E in F. cbn [app] in F. destruct n as [|n]; [lia|]. cbn [firstn skipn] in F. cbn [List.length] in G.
    rewrite firstn_app in F. apply Forall_app in F as [_ F].
    destruct (n - List.length a)%nat eqn:D; [lia|]. cbn in F. inversion F; subst. lia. }
  destruct (IH Q (skipn n (y :: a)) x b) as (l1 & l2 & -> & Sz & R2); [|exact X|].
  { rewrite E, skipn_app. replace (n - List.length (y :: a))%nat with O by lia. reflexivity. }
  exists ((r, n) :: l1), l2. split; [reflexivity|]. split; [|exact R2].
  change (size_of ((r, n) :: l1)) with (n + size_of l1)%nat. rewrite Sz, skipn_length. lia.
Qed.

Lemma skipn_twice : forall A a b (l : list A), skipn a (skipn b l) = skipn (b + a)%nat l.
Proof. intros A a b. induction b as [|b IH]; intros l; [reflexivity|]. destruct l; [rewrite !skipn_nil; reflexivity|]. apply IH. Qed.
Lemma size_app : forall a b, size_of (a ++ b) = (size_of a + size_of b)%nat.
Proof. intros a b. unfold size_of. rewrite map_app, list_sum_app. reflexivity. Qed.
Lemma runes_skip : forall l1 s l2, runes s (l1 ++ l2) -> runes (skipn (size_of l1) s) l2.
Proof.
  induction l1 as [|[r n] l1 IH]; intros s l2 R; [exact R|]. inversion R; subst.
  change (size_of ((r, n) :: l1)) with (n + size_of l1)%nat. rewrite <- skipn_twice. apply IH. assumption.
Qed.

Lemma occurs_later : forall sep s j m, occurs_at sep s j -> (m <= j)%nat -> occurs_at sep (skipn m s) (j - m).
Proof.
  intros sep s j m (a & b & -> & <-) H. exists (skipn m a), b. split; [|apply skipn_length].
  rewrite skipn_app. replace (m - List.length a)%nat with O by lia. reflexivity.
Qed.
Lemma occurs_earlier : forall sep s i m, occurs_at sep (skipn m s) i -> (m <= List.length s)%nat -> occurs_at sep s (m + i).
Proof.
  intros sep s i m (a & b & E & <-) H. exists (firstn m s ++ a), b. split; [|rewrite app_length, firstn_length_le by exact H; reflexivity].
  rewrite <- app_assoc, <- E, firstn_skipn. reflexivity.
Qed.
Lemma first_before : forall (m1 : list (N * nat)) r n' m2 l1 n l2, l1 ++ (r, n) :: l2 = m1 ++ (r, n') :: m2 -> ~ In r (List.map fst m1) ->
  l1 = m1 \/ exists x, l1 = m1 ++ (r, n') :: x.
Proof.
  induction m1 as [|y m1 IH]; intros r n' m2 l1 n l2 E No; destruct l1 as [|z l1]; cbn [app] in E.
  - left. reflexivity.
  - apply cons_same in E as [-> _]. right. exists l1. reflexivity.
  - apply cons_same in E as [<- _]. destruct No. cbn. auto.
  - apply cons_same in E as [-> E]. destruct (IH _ _ _ _ _ _ E) as [->|(x & ->)]; [cbn in No; tauto|left; reflexivity|right; exists x; reflexivity].
Qed.

Lemma runes_inv : forall s r n l, runes s ((r, n) :: l) -> s <> [] /\ reads s r n /\ runes (skipn n s) l.
Proof. intros s r n l R. inversion R; subst. auto. Qed.

Section Search.
  Variables (r : N) (e2 t2 : bytes).
  Hypotheses (U : utf8 r e2) (R128 : 128 < r) (RE : r <> 65533).
  Let s2 := e2 ++ t2.
  Let n1 := List.length e2.

  Lemma lead : exists x b, e2 = x :: b /\ 192 <= x.
  Proof. destruct (utf8_head _ _ U) as (x & b & -> & [(A & _ & ->)|(A & _)]); [lia|]. exists x, b. auto. Qed.

  Lemma cut_at : forall p l j, runes p l -> plain_text p -> occurs_at s2 p j -> exists l1 l2, l = l1 ++ (r, n1) :: l2 /\ size_of l1 = j.
  Proof.
    intros p l j R P (a & b & E & <-). destruct lead as (x & q & E2 & X). subst s2. rewrite E2 in E. cbn [app] in E.
    assert (E3 : x :: (q ++ t2) ++ b = e2 ++ t2 ++ b) by (rewrite E2, <- app_assoc; reflexivity). clear E2.
    destruct (boundary p l R P a x _ E X) as (l1 & l2 & -> & Sz & R2). inversion R2 as [|? r' n' l3 NE Rd R3]; subst.
    destruct (C95_unique _ _ _ r n1 Rd) as [-> ->]; [|exists l1, l3; auto].
    left. exists e2, (t2 ++ b). split; [exact E3|]. split; [exact U|reflexivity].
  Qed.

  Lemma utf_loop_ok : forall fuel p i, plain_text p -> (List.length p < fuel)%nat ->
    exists q, utf_loop fuel p s2 r n1 i = ROk q /\
      match q with
      | Some x => exists k, x = (i + k)%nat /\ occurs_at s2 p k /\ forall j, occurs_at s2 p j -> (k <= j)%nat
      | None => forall j, ~ occurs_at s2 p j
      end.
  Proof.
    induction fuel as [|fuel IH]; intros p i P Hf; [lia|].
    destruct (C96_count p P) as (l & R & _). destruct (utfrune_found p l r P R ltac:(lia)) as (q & Eq & F).
    cbn [utf_loop]. rewrite Eq. cbn [rbind]. destruct q as [k|].
    2:{ exists None. split; [reflexivity|]. intros j O. destruct (cut_at p l j R P O) as (l1 & l2 & -> & _). apply F. rewrite map_app. apply in_or_app. right. left. reflexivity. }
    destruct F as (k' & E & m1 & n' & m2 & El & No & ->). cbn [Nat.add] in E. subst k. set (k := size_of m1) in *.
    pose proof R as R0. rewrite El in R0. apply runes_skip in R0. fold k in R0. apply runes_inv in R0 as (NE & Rd & Rn).
    assert (K : (k < List.length p)%nat).
    { destruct (Nat.lt_ge_cases k (List.length p)) as [|G]; [assumption|]. rewrite skipn_all2 in NE by exact G. congruence. }
    assert (Pk : plain_text (skipn k p)).
    { pose proof P as P'. rewrite <- (firstn_skipn k p) in P'. apply Forall_app in P'. tauto. }
    assert (n' = n1).
    { destruct Rd as [(e & t & _ & U' & <-)|(_ & H & _)]; [|congruence]. unfold n1. rewrite (utf8_code _ _ _ U U'). reflexivity. }
    subst n'. destruct (reads_inv _ _ _ Pk NE Rd) as (c & q & _ & Ln & Pn & _).
    unfold advance at 1. destruct (Nat.leb_spec k (List.length p)); [|lia]. cbn [rbind].
    assert (Cut : forall j, occurs_at s2 p j -> j = k \/ (k + n1 <= j)%nat).
    { intros j O. destruct (cut_at _ _ j R P O) as (l1 & l2 & E & <-). destruct (first_before _ _ _ _ _ _ _ (eq_trans (eq_sym E) El) No) as [->|(x & ->)]; [left; reflexivity|].
      right. rewrite size_app. fold k. change (size_of ((r, n1) :: x)) with (n1 + size_of x)%nat. lia. }
    destruct (str_starts_with (skipn k p) s2) eqn:W.
    - exists (Some (i + k)%nat). split; [reflexivity|]. exists k. split; [reflexivity|]. split.
      + apply starts_occurs in W. apply (occurs_earlier _ _ 0) in W; [|lia]. rewrite Nat.add_0_r in W. exact W.
      + intros j O. destruct (Cut j O); lia.
    - unfold advance. destruct (Nat.leb_spec n1 (List.length (skipn k p))); [|lia]. cbn [rbind].
      destruct (IH (skipn n1 (skipn k p)) (i + k + n1)%nat Pn) as (o & Eo & Fo); [rewrite !skipn_length; lia|].
      exists o. split; [exact Eo|]. rewrite skipn_twice in Fo.
      assert (Sh : forall j, occurs_at s2 p j -> (k + n1 <= j)%nat /\ occurs_at s2 (skipn (k + n1) p) (j - (k + n1))).
      { intros j O. destruct (Cut j O) as [->|Hj]; [|split; [exact Hj|apply occurs_later; assumption]].
        apply (occurs_later _ _ _ k) in O; [|lia]. rewrite Nat.sub_diag in O. apply starts_occurs in O. congruence. }
      rewrite skipn_length in *. destruct o as [x|].
      + destruct Fo as (m & -> & O & Mi). exists (k + n1 + m)%nat. split; [lia|]. split; [apply occurs_earlier; [exact O|lia]|].
        intros j Oj. destruct (Sh j Oj) as [A B]. apply Mi in B. lia.
      + intros j Oj. destruct (Sh j Oj) as [_ B]. exact (Fo _ B).
  Qed.
End Search.

Theorem C96_search_partial : forall s1 s2, plain_text s1 -> plain_text s2 ->
  s2 = [] \/ (exists r n, starts_char s2 r n /\ r <> 65533) ->
  exists q, utfutf s1 s2 = ROk q /\
    match q with
    | Some p => occurs_at s2 s1 p /\ forall j, occurs_at s2 s1 j -> (p <= j)%nat
    | None => forall j, ~ occurs_at s2 s1 j
    end.
Proof.
  intros s1 s2 P1 P2 H.
  assert (S : exists q, ROk (c_strstr s1 s2 0) = ROk q /\ match q with Some p => occurs_at s2 s1 p /\ forall j, occurs_at s2 s1 j -> (p <= j)%nat | None => forall j, ~ occurs_at s2 s1 j end).
  { exists (c_strstr s1 s2 0). split; [reflexivity|]. pose proof (strstr_spec s1 s2 0) as G. destruct (c_strstr s1 s2 0); [|exact G].
    destruct G as (k & -> & G). exact G. }
  unfold utfutf. destruct s2 as [|c s2']; [exact S|]. set (s2 := c :: s2') in *.
  destruct H as [H|(r & n & C & RE)]; [discriminate H|].
  destruct (get_ok s2 P2 ltac:(discriminate)) as (r' & n' & -> & Rd). destruct (C95_unique _ _ _ _ _ Rd (or_introl C)) as [-> ->]. cbn [rbind].
  change Runesync with 128. destruct (N.leb_spec r 128) as [|R128]; [exact S|].
  destruct C as (e & t & E & U & <-). rewrite E in *.
  destruct (utf_loop_ok r e t U R128 RE (Datatypes.S (List.length s1)) s1 0 P1 ltac:(lia)) as (q & -> & F). exists q. split; [reflexivity|].
  destruct q; [|exact F]. destruct F as (k & -> & F). exact F.
Qed.
(** To look for U+FFFD itself reads behind the end of a text with a wrong byte, or misses
    the character. *)
Theorem C96_search_refuted :
  utfutf [128] [239; 191; 189] = RUndefined /\
  utfutf [128; 239; 191; 189; 97; 98; 99] [239; 191; 189; 97] = ROk None /\ occurs_at [239; 191; 189; 97] [128; 239; 191; 189; 97; 98; 99] 1.
Proof. split; [vm_compute; reflexivity|]. split; [vm_compute; reflexivity|]. exists [128], [98; 99]. split; reflexivity. Qed.

Lemma nlen_ok : forall rs s, encodes rs s -> forall fuel n count, (List.length s < fuel)%nat ->
  exists k a b, nlen_loop fuel s n count = ROk (count + k)%nat /\ s = a ++ b /\ encodes (firstn k rs) a /\ (k <= List.length rs)%nat /\
    (Z.of_nat (List.length a) <= n \/ k = O)%Z /\
    ((k < List.length rs)%nat -> exists r e, nth_error rs k = Some r /\ utf8 r e /\ (n < Z.of_nat (List.length a + List.length e))%Z).
Proof.
  induction 1 as [|r e rs s H U E IH]; intros fuel n count Hf.
  - destruct fuel; [lia|]. exists O, [], []. split; [cbn [nlen_loop]; destruct (0 <? n)%Z; cbn; f_equal; lia|]. repeat split; cbn; auto; [constructor|lia].
  - destruct fuel as [|fuel]; [lia|]. pose proof (utf8_size _ _ U) as Sz. rewrite app_length in Hf.
    assert (Stop : nlen_loop (S fuel) (e ++ s) n count = ROk count -> (n < Z.of_nat (List.length e))%Z ->
      exists k a b, nlen_loop (S fuel) (e ++ s) n count = ROk (count + k)%nat /\ e ++ s = a ++ b /\ encodes (firstn k (r :: rs)) a /\ (k <= List.length (r :: rs))%nat /\
        (Z.of_nat (List.length a) <= n \/ k = O)%Z /\
        ((k < List.length (r :: rs))%nat -> exists r0 e0, nth_error (r :: rs) k = Some r0 /\ utf8 r0 e0 /\ (n < Z.of_nat (List.length a + List.length e0))%Z)).
    { intros G L0. exists O, [], (e ++ s). rewrite G, Nat.add_0_r. repeat split; [constructor|cbn; lia|auto|].
      intros _. exists r, e. repeat split; [exact U|exact L0]. }
    assert (Go : nlen_loop (S fuel) (e ++ s) n count = nlen_loop fuel s (n - Z.of_nat (List.length e))%Z (S count) -> (Z.of_nat (List.length e) <= n)%Z ->
      exists k a b, nlen_loop (S fuel) (e ++ s) n count = ROk (count + k)%nat /\ e ++ s = a ++ b /\ encodes (firstn k (r :: rs)) a /\ (k <= List.length (r :: rs))%nat /\
        (Z.of_nat (List.length a) <= n \/ k = O)%Z /\
        ((k < List.length (r :: rs))%nat -> exists r0 e0, nth_error (r :: rs) k = Some r0 /\ utf8 r0 e0 /\ (n < Z.of_nat (List.length a + List.length e0))%Z)).
    { intros G L0. rewrite G. destruct (IH fuel (n - Z.of_nat (List.length e))%Z (S count) ltac:(lia)) as (k & a & b & -> & -> & Ea & Hk & Fit & Nx).
      exists (S k), (e ++ a), b. split; [f_equal; lia|]. split; [rewrite app_assoc; reflexivity|]. split; [cbn [firstn]; constructor; assumption|].
      split; [cbn; lia|]. split.
      - left. rewrite app_length. destruct Fit as [Fit|Fit]; [lia|]. subst k. inversion Ea; subst. cbn. lia.
      - intros Hk'. destruct Nx as (r0 & e0 & A & B & C); [cbn in Hk'; lia|]. exists r0, e0. split; [exact A|]. split; [exact B|]. rewrite app_length. lia. }
    clear IH.
    assert (P : plain_text (e ++ s)) by (apply Forall_app; split; [exact (utf8_plain _ _ H U)|exact (encodes_plain _ _ E)]).
    destruct (step_char (e ++ s) P) as (c & q & r' & k & Ec0 & Ec & Eg & R' & Ea & Q & K1 & K & Cz & D).
    { destruct e; cbn in *; [lia|discriminate]. }
    destruct (C95_unique _ _ _ r (List.length e) R') as [-> ->]; [left; exists e, s; auto|].
    rewrite skipn_app, skipn_all, Nat.sub_diag in Ea. cbn [app] in Ea. change (skipn 0 s) with s in Ea.
    cbn [nlen_loop] in Stop, Go |- *. rewrite Ec in *. cbn [rbind] in *. rewrite Cz in *. change Runeself with 128 in *.
    rewrite (C95_full_char r e s n U) in *. cbn [rbind] in *.
    destruct (Z.ltb_spec 0 n) as [N0|N0]; [|apply Stop; [reflexivity|lia]].
    destruct (N.ltb_spec c 128) as [Lc|Lc].
    + destruct D as [(_ & _ & E1)|D]; [|lia]. rewrite E1 in *. rewrite Ea in *. cbn [rbind] in *. apply Go; [reflexivity|lia].
    + destruct (Z.leb_spec (Z.of_nat (List.length e)) n) as [Fz|Fz]; cbn [negb] in *; [|apply Stop; [reflexivity|exact Fz]].
      rewrite Eg in *. cbn [rbind] in *. rewrite Ea in *. cbn [rbind] in *. apply Go; [reflexivity|exact Fz].
Qed.
(** As many characters as there are whole ones in the first [n] bytes. *)
Theorem C96_prefix : forall rs s n, encodes rs s ->
  exists k a b, utfnlen s n = ROk k /\ s = a ++ b /\ encodes (firstn k rs) a /\ (k <= List.length rs)%nat /\
    (Z.of_nat (List.length a) <= n \/ k = O)%Z /\
    ((k < List.length rs)%nat -> exists r e, nth_error rs k = Some r /\ utf8 r e /\ (n < Z.of_nat (List.length a + List.length e))%Z).
Proof. intros rs s n E. exact (nlen_ok rs s E (S (List.length s)) n 0 ltac:(lia)). Qed.

(** * Copies and comparisons *)

(** [utfecpy] does not copy: what is in the destination then does not depend on the
    source behind its first byte. *)
Theorem C97_copy_refuted : forall dest a s s', utfecpy dest (a :: s) = utfecpy dest (a :: s').
Proof. reflexivity. Qed.
Example C97_copy_case : utfecpy [120; 120; 120; 120] (L "abc") = ([97; 120; 0; 120], 2%nat).
Proof. vm_compute. reflexivity. Qed.

(** [runestrchr] never ends unless the rune is the first one, or the string is empty. *)
Theorem C97_chr_refuted : forall x s c fuel, c <> 0 -> x <> c -> runestrchr fuel (x :: s) c = RFuel.
Proof.
  intros x s c fuel C X. unfold runestrchr. destruct (N.eqb_spec c 0); [congruence|].
  induction fuel as [|fuel IH]; [reflexivity|]. cbn [chr_loop]. destruct (N.eqb_spec x c); [congruence|exact IH].
Qed.
Theorem C97_end : forall s fuel, runestrchr fuel s 0 = ROk (Some (List.length s)).
Proof. reflexivity. Qed.

(** [runestrcpy] copies the runes but not the terminator; [runestrdup] gets it from
    [calloc].  A copy of the empty string reads behind its end. *)
Lemma cpy_ok : forall s dest, s <> [] -> runestrcpy dest s = if Nat.leb (List.length s) (List.length dest) then ROk (s ++ skipn (List.length s) dest) else RUndefined.
Proof.
  induction s as [|c s IH]; intros dest NE; [congruence|]. destruct dest as [|d dest]; [reflexivity|]. cbn [runestrcpy].
  destruct s as [|c' s]; [reflexivity|]. rewrite IH by discriminate.
  cbn [List.length Nat.leb]. destruct dest as [|d' dest]; [reflexivity|]. cbn [List.length].
  destruct (Nat.leb (List.length s) (List.length dest)); reflexivity.
Qed.
Theorem C97_dup_partial : forall s, s <> [] -> runestrdup s = ROk (s ++ [0]).
Proof.
  intros s NE. unfold runestrdup. rewrite cpy_ok by exact NE. rewrite repeat_length. destruct (Nat.leb_spec (List.length s) (S (List.length s))); [|lia].
  f_equal. f_equal. replace (S (List.length s)) with (List.length s + 1)%nat by lia. rewrite repeat_app, skipn_app, repeat_length, Nat.sub_diag, skipn_all2 by (rewrite repeat_length; lia). reflexivity.
Qed.
Theorem C97_dup_refuted : runestrdup [] = RUndefined.
Proof. reflexivity. Qed.
Theorem C97_cpy_refuted : runestrcpy [120; 121; 122] [97; 98] = ROk [97; 98; 122].
Proof. reflexivity. Qed.

Definition sign_of (s1 s2 : list N) (z : Z) : Prop :=
  (z = 0 /\ s1 = s2)%Z \/ (z = -1 /\ before s1 s2)%Z \/ (z = 1 /\ before s2 s1)%Z.
Theorem C97_compare : forall s1 s2, ~ In 0 s1 -> ~ In 0 s2 -> sign_of s1 s2 (runestrcmp s1 s2).
Proof.
  unfold sign_of. induction s1 as [|a s1 IH]; intros [|b s2] H1 H2; cbn [runestrcmp].
  - auto.
  - destruct (N.eqb_spec 0 b); [destruct H2; left; auto|]. cbn [negb]. destruct (N.ltb_spec b 0); [lia|]. right. left. split; [reflexivity|constructor].
  - destruct (N.eqb_spec a 0); [destruct H1; left; auto|]. cbn [negb]. destruct (N.ltb_spec 0 a); [|lia]. right. right. split; [reflexivity|constructor].
  - destruct (N.eqb_spec a b) as [->|D]; cbn [negb].
    + destruct (IH s2) as [[-> ->]|[[-> B]|[-> B]]]; [intros I; apply H1; right; exact I|intros I; apply H2; right; exact I|auto|right; left|right; right];
        (split; [reflexivity|apply before_next; exact B]).
    + destruct (N.ltb_spec b a); right; [right|left]; (split; [reflexivity|apply before_less; lia]).
Qed.
Theorem C97_compare_n : forall n s1 s2, ~ In 0 s1 -> ~ In 0 s2 -> runestrncmp n s1 s2 = runestrcmp (firstn n s1) (firstn n s2).
Proof.
  induction n as [|n IH]; intros s1 s2 H1 H2; [reflexivity|]. destruct s1 as [|a s1], s2 as [|b s2]; try reflexivity.
  cbn [runestrncmp firstn runestrcmp]. destruct (negb (a =? b)); [reflexivity|].
  apply IH; intros I; [apply H1|apply H2]; right; exact I.
Qed.

(** Cases. *)
Example C95_case : get_rune [226; 130; 172; 33] = ROk (8364, 3%nat) /\ plain_text [226; 130; 172; 33] /\ runetochar 8364 = [226; 130; 172] /\
  fullrune [226; 130] 2 = ROk false /\ fullrune [226; 130; 172] 3 = ROk true /\ get_rune [192; 128] = ROk (65533, 1%nat) /\ get_rune [226; 130] = ROk (65533, 1%nat) /\
  runelen 128512 = 4%nat /\ runenlen [97; 233; 8364; 128512; 1114112] = 13%nat /\ runetochar 128512 = [240; 159; 152; 128] /\ runetochar 1114112 = [239; 191; 189].
Proof. repeat split; try (vm_compute; reflexivity). repeat constructor; lia. Qed.
Example C96_case : runecount [97; 226; 130; 172; 226; 130; 98] = ROk 5%nat /\ utfnlen [97; 226; 130; 172; 195; 169] 5 = ROk 2%nat /\
  utfrune [97; 226; 130; 172; 195; 169; 226; 130; 172] 8364 = ROk (Some 1%nat) /\ utfrrune [97; 226; 130; 172; 195; 169; 226; 130; 172] 8364 = ROk (Some 6%nat) /\
  utfutf [97; 226; 130; 172; 195; 169; 226; 130; 172; 97] [226; 130; 172; 97] = ROk (Some 6%nat) /\ utfrune [97; 226; 130; 172] 130 = ROk None.
Proof. vm_compute. repeat split; reflexivity. Qed.
Example C96_case_encodes : encodes [97; 8364] [97; 226; 130; 172].
Proof.
  change [97; 226; 130; 172] with ([97] ++ [226; 130; 172] ++ []). constructor; [lia|constructor; lia|]. constructor; [lia| |constructor].
  exact (encode_ok 8364 ltac:(lia)).
Qed.
Example C96_case_starts : starts_char [226; 130; 172; 97] 8364 3.
Proof. exists [226; 130; 172], [97]. split; [reflexivity|]. split; [exact (encode_ok 8364 ltac:(lia))|reflexivity]. Qed.
Example C97_case : runestrcmp [97; 98] [97; 99] = (-1)%Z /\ runestrcmp [97; 98] [97] = 1%Z /\ runestrncmp 1 [97; 98] [97; 99] = 0%Z /\
  runestrdup [97; 98] = ROk [97; 98; 0] /\ runestrchr (N.to_nat 1000) [97; 98] 98 = RFuel.
Proof. vm_compute. repeat split; reflexivity. Qed.

Print Assumptions C95_decode.
Print Assumptions C95_unique.
Print Assumptions C95_encode.
Print Assumptions C95_encode_refuted.
Print Assumptions C95_round_trip.
Print Assumptions C95_length.
Print Assumptions C95_lengths.
Print Assumptions C95_full.
Print Assumptions C95_full_char.
Print Assumptions C95_surrogates_refuted.
Print Assumptions C96_count.
Print Assumptions C96_unique.
Print Assumptions C96_count_text.
Print Assumptions C96_find.
Print Assumptions C96_find_last.
Print Assumptions C96_search_partial.
Print Assumptions C96_search_refuted.
Print Assumptions C96_prefix.
Print Assumptions C97_copy_refuted.
Print Assumptions C97_chr_refuted.
Print Assumptions C97_end.
Print Assumptions C97_dup_partial.
Print Assumptions C97_dup_refuted.
Print Assumptions C97_cpy_refuted.
Print Assumptions C97_compare.
Print Assumptions C97_compare_n.
