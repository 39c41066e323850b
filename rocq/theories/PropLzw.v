(** C86: lib/compress/lzw. *)
From Coq Require Import ZArith NArith Lia.
From Verif Require Import LibBase LibIO LibText LibLzw SpecIO SpecTok SpecLzw ClipFacts PropIO PropTok.

(** * Widths *)
Lemma width_spec : forall fuel Lg w m, 1 <= m -> Lg <= fuel + m ->
  exists k, lz_width fuel Lg w m = w + k /\ Lg <= m * 2 ^ k /\ (k = 0 \/ m * 2 ^ (k - 1) < Lg).
Proof.
  induction fuel as [|f IH]; intros Lg w m Hm Hf; cbn [lz_width].
  - exists 0. simpl. lia.
  - destruct (Nat.ltb_spec m Lg); [|exists 0; simpl; lia].
    destruct (IH Lg (S w) (m * 2) ltac:(lia) ltac:(lia)) as (k & E & H1 & H2). exists (S k). rewrite E. split; [lia|].
    cbn [Nat.pow]. split; [lia|]. right. replace (S k - 1) with k by lia. destruct H2 as [->|H2]; [simpl; lia|].
    destruct k as [|k]; [simpl in *; lia|]. replace (S k - 1) with k in H2 by lia. cbn [Nat.pow]. lia.
Qed.
Lemma cw_spec : forall s, exists k, lz_codewidth s = S k /\ s - 1 <= 2 ^ k /\ (k = 0 \/ 2 ^ (k - 1) < s - 1).
Proof.
  intros s. unfold lz_codewidth. destruct (width_spec s (s - 1) 1 1 ltac:(lia) ltac:(lia)) as (k & E & H1 & H2).
  exists k. rewrite E. repeat split; lia.
Qed.
Lemma cw_unique : forall Lg k k', Lg <= 2 ^ k -> (k = 0 \/ 2 ^ (k - 1) < Lg) -> Lg <= 2 ^ k' -> (k' = 0 \/ 2 ^ (k' - 1) < Lg) -> k = k'.
Proof.
  intros Lg k k' H1 H2 H3 H4. destruct (Nat.lt_trichotomy k k') as [Hlt|[E|Hlt]]; [|exact E|]; exfalso.
  - destruct H4 as [H4|H4]; [lia|]. pose proof (Nat.pow_le_mono_r 2 k (k' - 1) ltac:(lia) ltac:(lia)). lia.
  - destruct H2 as [H2|H2]; [lia|]. pose proof (Nat.pow_le_mono_r 2 k' (k - 1) ltac:(lia) ltac:(lia)). lia.
Qed.
Lemma cw_next : forall s, lz_codewidth (s + 1) = lz_codewidth s \/ lz_codewidth (s + 1) = S (lz_codewidth s).
Proof.
  intros s. destruct (cw_spec s) as (k & -> & H1 & H2). destruct (cw_spec (s + 1)) as (k' & -> & H3 & H4).
  replace (s + 1 - 1) with s in * by lia.
  destruct (le_lt_dec s (2 ^ k)) as [Hle|Hlt].
  - left. f_equal. apply (cw_unique s); [exact H3|exact H4|exact Hle|]. destruct H2; lia.
  - right. f_equal. apply (cw_unique s); [exact H3|exact H4| |].
    + cbn [Nat.pow]. assert (1 <= 2 ^ k) by (pose proof (Nat.pow_nonzero 2 k); lia). lia.
    + right. replace (S k - 1) with k by lia. exact Hlt.
Qed.
Lemma cw_same : forall s, 2 <= s -> ~ power_of_two (s - 1) -> lz_codewidth (s + 1) = lz_codewidth s.
Proof.
  intros s Hs Hp. destruct (cw_spec s) as (k & -> & H1 & H2). destruct (cw_spec (s + 1)) as (k' & -> & H3 & H4).
  replace (s + 1 - 1) with s in * by lia. f_equal. apply (cw_unique s); [exact H3|exact H4| |destruct H2; lia].
  assert (s - 1 <> 2 ^ k) by (intros E; apply Hp; exists k; exact E). lia.
Qed.
Lemma cw_fits : forall s c, c < s -> c < 2 ^ lz_codewidth s.
Proof.
  intros s c H. destruct (cw_spec s) as (k & -> & H1 & _). cbn [Nat.pow]. assert (1 <= 2 ^ k) by (pose proof (Nat.pow_nonzero 2 k); lia). lia.
Qed.

Lemma max_big : 300 < MAX_DICT_LENGTH.
Proof. apply Nat.ltb_lt. vm_compute. reflexivity. Qed.
Lemma max_4096 : MAX_DICT_LENGTH = N.to_nat 4096.
Proof. reflexivity. Qed.
Lemma cw_max : lz_codewidth (MAX_DICT_LENGTH + 1) = lz_codewidth MAX_DICT_LENGTH.
Proof.
  pose proof max_big. apply cw_same; [lia|]. intros [k E].
  assert (HZ : (Z.of_nat (MAX_DICT_LENGTH - 1) = 4095)%Z). { rewrite Nat2Z.inj_sub by lia. rewrite max_4096, N_nat_Z. reflexivity. }
  destruct k as [|k]; [simpl in E; lia|]. rewrite E in HZ. cbn [Nat.pow] in HZ. lia.
Qed.

(** * Bits of codes *)
Fixpoint bitsl (c n : nat) : list bool :=
  match n with O => [] | S m => Nat.odd c :: bitsl (Nat.div2 c) m end.
Definition bits_of (l : list (nat * nat)) : list bool := List.concat (List.map (fun cw => bitsl (fst cw) (snd cw)) l).
Lemma bits_of_cons : forall c w l, bits_of ((c, w) :: l) = bitsl c w ++ bits_of l.
Proof. reflexivity. Qed.
Lemma bits_of_app : forall a b, bits_of (a ++ b) = bits_of a ++ bits_of b.
Proof. intros. unfold bits_of. rewrite map_app, concat_app. reflexivity. Qed.

Definition emit_bits {W} (put : write_fn W) (w : bitwriter W) (bits : list bool) : bitwriter W :=
  fold_left (fun s b => snd (bits_write1 put s b)) bits w.
Lemma writebits_bits : forall W (put : write_fn W) n w c, lz_writebits put w c n = emit_bits put w (bitsl c n).
Proof. induction n as [|n IH]; intros w c; simpl; [reflexivity|]. rewrite IH. reflexivity. Qed.
Lemma emit_app : forall W (put : write_fn W) a b w, emit_bits put w (a ++ b) = emit_bits put (emit_bits put w a) b.
Proof. intros. unfold emit_bits. apply fold_left_app. Qed.

Lemma readbits_ok : forall R (get : read_fn R) rest, steady get rest -> ends get rest -> forall n c br tail val amp,
  bits_left rest true br (bitsl c n ++ tail) ->
  exists br', lz_readbits get br n val amp = ROk (val + amp * (c mod 2 ^ n), br') /\ bits_left rest true br' tail.
Proof.
  intros R get rest Hs He. induction n as [|n IH]; intros c br tail val amp H; cbn [lz_readbits bitsl app] in *.
  - exists br. split; [|exact H]. f_equal. f_equal. simpl. lia.
  - pose proof (bits_read1_ok R get rest Hs He true br _ H) as H1. destruct (bits_read1 get br) as [z br'].
    destruct H1 as [-> H1]. destruct (IH (Nat.div2 c) br' tail (val + amp * Z.to_nat (if Nat.odd c then 1 else 0)%Z) (amp * 2) H1) as (br2 & E & H2).
    exists br2. split; [|exact H2].
    assert (Hz : ((if Nat.odd c then 1 else 0) <? 0)%Z = false) by (destruct (Nat.odd c); reflexivity). rewrite Hz, E. f_equal. f_equal.
    assert (Hc : c mod 2 ^ S n = 2 * (Nat.div2 c mod 2 ^ n) + (if Nat.odd c then 1 else 0)).
    { cbn [Nat.pow]. pose proof (Nat.pow_nonzero 2 n ltac:(lia)) as Hnz. rewrite Nat.mod_mul_r by lia.
      rewrite Nat.div2_div. replace (if Nat.odd c then 1 else 0) with (c mod 2); [lia|].
      pose proof (Nat.div2_odd c) as Hd. pose proof (Nat.mod_upper_bound c 2 ltac:(lia)). pose proof (Nat.div_mod c 2 ltac:(lia)) as Hdm.
      rewrite Nat.div2_div in Hd. unfold Nat.b2n in Hd. lia. }
    rewrite Hc. destruct (Nat.odd c); simpl Z.to_nat; lia.
Qed.
Lemma readbits_short : forall R (get : read_fn R) rest, steady get rest -> ends get rest -> forall n c br val amp,
  bits_left rest true br (bitsl c n) -> lz_readbits get br (S n) val amp = RPanic.
Proof.
  intros R get rest Hs He. induction n as [|n IH]; intros c br val amp H.
  - cbn [bitsl] in H. cbn [lz_readbits]. pose proof (bits_read1_ok R get rest Hs He true br _ H) as H1. destruct (bits_read1 get br) as [z br']. destruct H1 as [-> _]. reflexivity.
  - cbn [bitsl] in H. remember (S n) as m. cbn [lz_readbits]. pose proof (bits_read1_ok R get rest Hs He true br _ H) as H1. destruct (bits_read1 get br) as [z br']. destruct H1 as [-> H1].
    assert (Hz : ((if Nat.odd c then 1 else 0) <? 0)%Z = false) by (destruct (Nat.odd c); reflexivity). rewrite Hz. subst m. exact (IH _ _ _ _ H1).
Qed.
Lemma bitsl_more : forall n c, c < 2 ^ n -> bitsl c (S n) = bitsl c n ++ [false].
Proof.
  induction n as [|n IH]; intros c H.
  - simpl in H. assert (c = 0) by lia. subst c. reflexivity.
  - change (bitsl c (S (S n))) with (Nat.odd c :: bitsl (Nat.div2 c) (S n)). change (bitsl c (S n)) with (Nat.odd c :: bitsl (Nat.div2 c) n).
    cbn [app]. rewrite IH; [reflexivity|]. rewrite Nat.div2_div. apply Nat.div_lt_upper_bound; [lia|]. cbn [Nat.pow] in H. lia.
Qed.

(** * Dictionaries *)
Definition first_entries (n : nat) : list lz_word := List.map (fun i => mkWord 1 [u8 (N.of_nat i)]) (List.seq 0 n) ++ [mkWord 0 []; mkWord 0 []].
Lemma first_length : forall n, List.length (first_entries n) = n + 2.
Proof. intros n. unfold first_entries. rewrite app_length, map_length, seq_length. reflexivity. Qed.
Definition entry (w : bytes) : lz_word := mkWord (List.length w mod 256) w.
Definition dict_of (n : nat) (ws : list bytes) : lz_dict := mkDict (n + 2) (first_entries n ++ List.map entry ws) n (n + 1).
Definition size_of (n : nat) (ws : list bytes) : nat := n + 2 + List.length ws.
Lemma dict_size : forall n ws, ld_size (dict_of n ws) = size_of n ws.
Proof. intros. unfold ld_size, dict_of, size_of. cbn [ld_entries]. rewrite app_length, first_length, map_length. reflexivity. Qed.
Lemma dict_new : forall n, lz_newdict n = dict_of n [].
Proof. intros n. unfold lz_newdict, dict_of. cbn [List.map]. rewrite app_nil_r. reflexivity. Qed.
Lemma dict_reset : forall n ws, lz_resetdict (dict_of n ws) = dict_of n [].
Proof.
  intros n ws. unfold lz_resetdict, dict_of. cbn [ld_init ld_entries ld_reset ld_end List.map]. f_equal.
  rewrite app_nil_r, firstn_app, first_length, Nat.sub_diag, firstn_O, app_nil_r. rewrite <- (first_length n). apply firstn_all.
Qed.
Lemma dict_add : forall n ws w, size_of n ws < MAX_DICT_LENGTH -> lz_addentry (dict_of n ws) w = ROk (dict_of n (ws ++ [w])).
Proof.
  intros n ws w H. unfold lz_addentry. rewrite dict_size. destruct (Nat.eqb_spec (size_of n ws) MAX_DICT_LENGTH); [lia|].
  unfold dict_of. cbn [ld_init ld_entries ld_reset ld_end]. rewrite map_app, app_assoc. reflexivity.
Qed.

(** The words that codes stand for. *)
Definition stands (n : nat) (ws : list bytes) (code : nat) (w : bytes) : Prop :=
  nth_error (ld_entries (dict_of n ws)) code = Some (mkWord (List.length w) w) /\ w <> [].
Lemma stands_not_special : forall n ws code w, stands n ws code w -> code <> n /\ code <> n + 1 /\ code < size_of n ws.
Proof.
  intros n ws code w [H Hw].
  assert (Hlt : code < size_of n ws). { rewrite <- dict_size. unfold ld_size. apply nth_error_Some. congruence. }
  assert (Hn : forall i, i < 2 -> nth_error (ld_entries (dict_of n ws)) (n + i) = Some (mkWord 0 [])).
  { intros i Hi. unfold dict_of, first_entries. cbn [ld_entries]. rewrite <- app_assoc, nth_error_app2; rewrite map_length, seq_length; [|lia].
    replace (n + i - n) with i by lia. destruct i as [|[|i]]; [reflexivity|reflexivity|lia]. }
  split; [|split; [|exact Hlt]]; intros ->.
  - specialize (Hn 0 ltac:(lia)). rewrite Nat.add_0_r in Hn. rewrite Hn in H. injection H as _ <-. apply Hw. reflexivity.
  - specialize (Hn 1 ltac:(lia)). rewrite Hn in H. injection H as _ <-. apply Hw. reflexivity.
Qed.
Lemma stands_nth : forall n ws code w, stands n ws code w -> nth code (ld_entries (dict_of n ws)) (mkWord 0 []) = mkWord (List.length w) w.
Proof. intros n ws code w [H _]. apply nth_error_nth. exact H. Qed.
(** The newest word has the last code. *)
Lemma stands_snoc : forall n ws v code w, stands n (ws ++ [v]) code w ->
  (code < size_of n ws /\ stands n ws code w) \/ (code = size_of n ws /\ w = v).
Proof.
  intros n ws v code w H. pose proof (stands_not_special _ _ _ _ H) as (_ & _ & Hlt). unfold size_of in Hlt. rewrite app_length in Hlt. cbn [List.length] in Hlt.
  destruct H as [H Hw]. unfold dict_of in H. cbn [ld_entries] in H. rewrite map_app, app_assoc in H.
  destruct (Nat.eq_dec code (size_of n ws)) as [E|E].
  - right. split; [exact E|]. rewrite nth_error_app2 in H by (rewrite app_length, first_length, map_length; unfold size_of in E; lia).
    rewrite app_length, first_length, map_length in H. replace (code - (n + 2 + List.length ws)) with 0 in H by (unfold size_of in E; lia).
    cbn in H. injection H as _ H. symmetry. exact H.
  - left. split; [unfold size_of in *; lia|]. split; [|exact Hw]. rewrite nth_error_app1 in H by (rewrite app_length, first_length, map_length; unfold size_of in E; lia). exact H.
Qed.

(** * The compressor *)
Lemma match_some : forall es input i mi mlen ok k, lz_match_loop es input i mi mlen ok = Some k ->
  (ok = true /\ k = mi) \/ exists j e, nth_error es j = Some e /\ k = i + j /\ 1 <= lw_len e <= List.length input /\
    firstn (lw_len e) (lw_chars e) = firstn (lw_len e) input.
Proof.
  induction es as [|e es IH]; intros input i mi mlen ok k H; cbn [lz_match_loop] in H.
  - destruct ok; [left; split; congruence|discriminate].
  - assert (G : forall mi' mlen' ok', lz_match_loop es input (S i) mi' mlen' ok' = Some k -> (ok' = true /\ k = mi') \/
        exists j e0, nth_error (e :: es) j = Some e0 /\ k = i + j /\ 1 <= lw_len e0 <= List.length input /\ firstn (lw_len e0) (lw_chars e0) = firstn (lw_len e0) input).
    { intros mi' mlen' ok' H'. destruct (IH _ _ _ _ _ _ H') as [?|(j & e0 & Hj & -> & H1)]; [left; assumption|].
      right. exists (S j), e0. split; [exact Hj|]. split; [lia|exact H1]. }
    destruct (Nat.leb_spec (lw_len e) mlen); cbn [orb] in H; [exact (G _ _ _ H)|].
    destruct (Nat.ltb_spec (List.length input) (lw_len e)); [exact (G _ _ _ H)|].
    destruct (bytes_eqb _ _) eqn:Eb; [|exact (G _ _ _ H)]. apply bytes_eqb_eq in Eb.
    destruct (G _ _ _ H) as [[_ ->]|?]; [|right; assumption]. right. exists 0, e. split; [reflexivity|]. split; [lia|]. split; [lia|exact Eb].
Qed.
Lemma match_exists : forall es input i mi mlen ok,
  (ok = true \/ (mlen = 0 /\ exists e, In e es /\ lw_len e = 1 /\ 1 <= List.length input /\ firstn 1 (lw_chars e) = firstn 1 input)) ->
  exists k, lz_match_loop es input i mi mlen ok = Some k.
Proof.
  induction es as [|e es IH]; intros input i mi mlen ok H; cbn [lz_match_loop].
  - destruct H as [->|(_ & e & [] & _)]. eauto.
  - destruct (Nat.leb_spec (lw_len e) mlen); cbn [orb].
    { apply IH. destruct H as [H|(Hm & e0 & [->|Hin] & Ha & Hb)]; [left; exact H|lia|right; eauto]. }
    destruct (Nat.ltb_spec (List.length input) (lw_len e)).
    { apply IH. destruct H as [H|(Hm & e0 & [->|Hin] & Ha & Hb)]; [left; exact H|lia|right; eauto]. }
    destruct (bytes_eqb _ _) eqn:Eb; [apply IH; left; reflexivity|].
    apply IH. destruct H as [H|(Hm & e0 & [->|Hin] & Ha & Hb & Hc)]; [left; exact H| |right; eauto 7].
    rewrite Ha, Hc in Eb. assert (Ht : bytes_eqb (firstn 1 input) (firstn 1 input) = true) by (apply bytes_eqb_eq; reflexivity). congruence.
Qed.

Lemma firstn_self : forall (w : bytes), firstn (List.length w) w = w.
Proof. intros. apply firstn_all. Qed.

Lemma match_ok : forall n ws input c, n <= 256 -> Forall (fun w => 1 <= List.length w <= 256) ws ->
  nth_error input 0 = Some c -> (c < N.of_nat n)%N ->
  exists k w, lz_match (dict_of n ws) input = Some k /\ stands n ws k w /\ List.length w < 256 /\ exists r, input = w ++ r.
Proof.
  intros n ws input c Hn Hws Hc Hlt. destruct input as [|c' input]; [discriminate|]. cbn in Hc. injection Hc as ->.
  destruct (match_exists (ld_entries (dict_of n ws)) (c :: input) 0 0 0 false) as [k Ek].
  { right. split; [reflexivity|]. exists (mkWord 1 [c]). split; [|cbn; repeat split; lia].
    unfold dict_of, first_entries. cbn [ld_entries]. apply in_or_app. left. apply in_or_app. left. apply in_map_iff.
    exists (N.to_nat c). split; [|apply in_seq; lia]. rewrite N2Nat.id. unfold u8. rewrite N.mod_small by lia. reflexivity. }
  destruct (match_some _ _ _ _ _ _ _ Ek) as [[? _]|(j & e & Hj & -> & Hl & He)]; [discriminate|].
  assert (Hchars : List.length (lw_chars e) = lw_len e /\ lw_len e < 256).
  { pose proof (nth_error_In _ _ Hj) as Hin. unfold dict_of, first_entries in Hin. cbn [ld_entries] in Hin.
    rewrite !in_app_iff in Hin. destruct Hin as [[Hin|Hin]|Hin].
    - apply in_map_iff in Hin. destruct Hin as (i & <- & _). cbn. lia.
    - destruct Hin as [<-|[<-|[]]]; cbn in Hl; lia.
    - apply in_map_iff in Hin. destruct Hin as (w & <- & Hw). rewrite Forall_forall in Hws. specialize (Hws w Hw). unfold entry in *. cbn [lw_len lw_chars] in *.
      destruct (Nat.eq_dec (List.length w) 256) as [E|E]; [rewrite E in Hl; cbn in Hl; lia|]. rewrite Nat.mod_small in * by lia. lia. }
  destruct Hchars as [Hlen Hl2]. exists (0 + j), (lw_chars e). split; [exact Ek|]. split; [split|].
  - rewrite Hlen. destruct e as [l w]. exact Hj.
  - intros E. rewrite E in Hlen. cbn in Hlen. lia.
  - split; [lia|]. exists (skipn (lw_len e) (c :: input)). rewrite <- Hlen in He at 1. rewrite firstn_self in He. rewrite He. symmetry. apply firstn_skipn.
Qed.

(** What the compressor may write for a text. *)
Inductive coded (n : nat) : list bytes -> bytes -> list (nat * nat) -> list bytes -> Prop :=
| coded_last : forall ws w mi, stands n ws mi w -> List.length w < 256 -> coded n ws w [(mi, lz_codewidth (size_of n ws))] ws
| coded_more : forall ws w mi c y l ws', stands n ws mi w -> List.length w < 256 -> size_of n ws < MAX_DICT_LENGTH ->
    coded n (ws ++ [w ++ [c]]) (c :: y) l ws' ->
    coded n ws (w ++ c :: y) ((mi, lz_codewidth (size_of n ws)) :: l) ws'
| coded_full : forall ws w mi c y l ws', stands n ws mi w -> List.length w < 256 -> size_of n ws = MAX_DICT_LENGTH ->
    coded n [w ++ [c]] (c :: y) l ws' ->
    coded n ws (w ++ c :: y) ((mi, lz_codewidth (size_of n ws)) :: (n, lz_codewidth (size_of n ws)) :: l) ws'.

Lemma peek_ok : forall R (read : read_fn R) content, reads_fully read content -> forall buf r m, 0 < m ->
  let '(buf', r') := lz_peek read buf r m in buf' ++ content r' = buf ++ content r /\ (m <= List.length buf' \/ content r' = []).
Proof.
  intros R read content [H1 H2] buf r m Hm. unfold lz_peek. destruct (Nat.ltb_spec (List.length buf) m); [|split; [reflexivity|left; assumption]].
  specialize (H1 r (m - List.length buf) ltac:(lia)). specialize (H2 r (m - List.length buf) ltac:(lia)).
  destruct (read r (m - List.length buf)) as [[q d] r']. destruct H1 as [(Hq & Hl & Hd & E)|(Hq & E & E')].
  - destruct (Z.gtb_spec q 0); [|lia]. split; [rewrite <- app_assoc, E; reflexivity|].
    assert (Hne : content r <> []) by (intros E0; rewrite E0 in E; destruct d; [cbn in Hl; lia|discriminate]).
    specialize (H2 Hne). destruct (le_lt_dec (m - List.length buf) (List.length (content r))) as [Hle|Hlt].
    + left. rewrite app_length, H2, firstn_length. lia.
    + right. rewrite firstn_all2 in H2 by lia. apply (f_equal (@List.length _)) in E. rewrite app_length, H2 in E. destruct (content r'); [reflexivity|cbn in E; lia].
  - destruct (Z.gtb_spec q 0); [lia|]. split; [rewrite E, E'; reflexivity|right; exact E'].
Qed.

Lemma app_pre : forall (w r b s : bytes), List.length w <= List.length b -> w ++ r = b ++ s -> exists t, b = w ++ t.
Proof.
  induction w as [|x w IH]; intros r b s H E; [exists b; reflexivity|]. destruct b as [|y b]; [cbn in H; lia|]. cbn in E. injection E as -> E.
  destruct (IH r b s ltac:(cbn in H; lia) E) as [t ->]. exists t. reflexivity.
Qed.

Lemma loop_ok : forall R (read : read_fn R) content, reads_fully read content -> forall W (put : write_fn W) n, 1 <= n <= 256 ->
  forall fuel ws w buf r, Forall (fun w => 1 <= List.length w <= 256) ws -> size_of n ws <= MAX_DICT_LENGTH ->
  buf ++ content r <> [] -> Forall (fun c => (c < N.of_nat n)%N) (buf ++ content r) -> List.length (buf ++ content r) < fuel ->
  exists l ws', lz_loop read put fuel (dict_of n ws) w buf r = ROk (dict_of n ws', emit_bits put w (bits_of l)) /\ coded n ws (buf ++ content r) l ws'.
Proof.
  intros R read content Hread W put n Hn. induction fuel as [|f IH]; intros ws w buf r Hws Hsz Hne Hall Hf; [lia|]. cbn [lz_loop].
  pose proof (peek_ok R read content Hread buf r (N.to_nat 4096)) as Hp. pose proof max_big as Hbig. rewrite max_4096 in Hbig. specialize (Hp ltac:(lia)).
  destruct (lz_peek read buf r (N.to_nat 4096)) as [b r']. destruct Hp as [Ex Hfull]. rewrite <- Ex in *.
  assert (Hb : b <> []). { intros ->. cbn in *. destruct Hfull as [Hfull|Hfull]; [cbn in Hfull; lia|contradiction]. }
  destruct (Nat.eqb_spec (List.length b) 0) as [E0|_]; [destruct b; [contradiction|discriminate]|].
  destruct b as [|c0 b0]; [contradiction|].
  destruct (match_ok n ws (c0 :: b0) c0 ltac:(lia) Hws eq_refl (Forall_inv Hall)) as (k & v & -> & Hst & Hv & rest & Er).
  rewrite (stands_nth _ _ _ _ Hst). cbn [lw_len]. rewrite Er in *. clear Er c0 b0 Hb.
  destruct (Nat.eqb_spec (List.length v) (List.length (v ++ rest))) as [El|Nl].
  - rewrite app_length in El. assert (rest = []) by (destruct rest; [reflexivity|cbn in El; lia]). subst rest. rewrite app_nil_r in *.
    destruct Hfull as [Hfull|Hfull]; [lia|]. rewrite Hfull, app_nil_r in *.
    exists [(k, lz_codewidth (size_of n ws))], ws. split; [|apply coded_last; assumption].
    unfold lz_emit. rewrite writebits_bits, dict_size, bits_of_cons. cbn [bits_of List.map List.concat]. rewrite app_nil_r. reflexivity.
  - rewrite app_length in Nl. destruct rest as [|c rest]; [cbn in Nl; lia|]. clear Nl.
    assert (Hvne : v <> []) by apply Hst. assert (Hv1 : 1 <= List.length v) by (destruct v; [contradiction|cbn; lia]).
    assert (Hsh : lz_shift (v ++ c :: rest) (List.length v) = ROk (c :: rest)).
    { unfold lz_shift. destruct (Nat.eqb_spec (List.length v) 0); [lia|]. destruct (Nat.ltb_spec (List.length (v ++ c :: rest)) (List.length v)) as [Hlt|_]; [rewrite app_length in Hlt; lia|].
      cbn [orb]. rewrite skipn_app, skipn_all, Nat.sub_diag. reflexivity. }
    assert (Hfi : firstn (List.length v + 1) (v ++ c :: rest) = v ++ [c]).
    { rewrite firstn_app, firstn_all2 by lia. replace (List.length v + 1 - List.length v) with 1 by lia. reflexivity. }
    assert (Hall2 : Forall (fun c => (c < N.of_nat n)%N) ((c :: rest) ++ content r')). { rewrite <- app_assoc in Hall. apply Forall_app in Hall. apply Hall. }
    assert (Hf2 : List.length ((c :: rest) ++ content r') < f). { rewrite <- app_assoc in Hf. rewrite app_length in Hf. lia. }
    assert (Hnew : Forall (fun w => 1 <= List.length w <= 256) [v ++ [c]]). { constructor; [rewrite app_length; cbn; lia|constructor]. }
    rewrite <- (app_assoc v). rewrite dict_size. unfold lz_emit. rewrite !writebits_bits, dict_size.
    destruct (Nat.eqb_spec (size_of n ws) MAX_DICT_LENGTH) as [Efull|Nfull].
    + rewrite dict_reset, dict_size. change (ld_reset (dict_of n ws)) with n.
      assert (Hs0 : size_of n [] < MAX_DICT_LENGTH) by (unfold size_of; cbn [List.length]; rewrite max_4096; lia).
      destruct (Nat.ltb_spec (size_of n []) MAX_DICT_LENGTH); [|lia]. rewrite Hfi, dict_add by exact Hs0.
      cbn [rbind app]. rewrite Hsh. cbn [rbind].
      destruct (IH [v ++ [c]] (emit_bits put (emit_bits put w (bitsl k (lz_codewidth (size_of n ws)))) (bitsl n (lz_codewidth (size_of n ws)))) (c :: rest) r' Hnew) as (l & ws' & E & Hc);
        [unfold size_of; cbn [List.length]; rewrite max_4096 in *; lia|discriminate|exact Hall2|exact Hf2|].
      exists ((k, lz_codewidth (size_of n ws)) :: (n, lz_codewidth (size_of n ws)) :: l), ws'. rewrite !bits_of_cons, !emit_app.
      split; [exact E|]. apply coded_full; assumption.
    + destruct (Nat.ltb_spec (ld_size (dict_of n ws)) MAX_DICT_LENGTH) as [Hlt|Hge]; [|rewrite dict_size in Hge; lia]. rewrite Hfi. rewrite dict_size in Hlt.
      rewrite dict_add by exact Hlt. cbn [rbind]. rewrite Hsh. cbn [rbind].
      destruct (IH (ws ++ [v ++ [c]]) (emit_bits put w (bitsl k (lz_codewidth (size_of n ws)))) (c :: rest) r') as (l & ws' & E & Hc);
        [apply Forall_app; split; assumption|unfold size_of in *; rewrite app_length; cbn [List.length]; lia|discriminate|exact Hall2|exact Hf2|].
      exists ((k, lz_codewidth (size_of n ws)) :: l), ws'. rewrite !bits_of_cons, !emit_app.
      split; [exact E|]. apply coded_more; assumption.
Qed.

(** * The decompressor *)
Inductive pending (n : nat) : list bytes -> list bytes -> bytes -> bytes -> list (nat * nat) -> Prop :=
| p_first : forall x, pending n [] [] [] x []
| p_next : forall ws prev c y, prev <> [] -> List.length prev < 256 -> size_of n ws < MAX_DICT_LENGTH ->
    pending n (ws ++ [prev ++ [c]]) ws prev (c :: y) []
| p_full : forall ws prev c y, prev <> [] -> List.length prev < 256 -> size_of n ws = MAX_DICT_LENGTH ->
    pending n [prev ++ [c]] ws prev (c :: y) [(n, lz_codewidth (size_of n ws))].

Section Decoder.
  Context {R : Type} (get : read_fn R) (rest : R -> bytes) (Hs : steady get rest) (He : ends get rest)
    (n : nat) (Hn : 1 <= n <= 256) (Hp : ~ power_of_two (n + 1)).

  Lemma read_code : forall br c s tail, c < s -> bits_left rest true br (bitsl c (lz_codewidth s) ++ tail) ->
    exists br', lz_readbits get br (lz_codewidth s) 0 1 = ROk (c, br') /\ bits_left rest true br' tail.
  Proof.
    intros br c s tail Hc H. destruct (readbits_ok R get rest Hs He _ c br tail 0 1 H) as (br' & E & H'). exists br'. split; [|exact H'].
    rewrite E, Nat.mod_small by (apply cw_fits; exact Hc). f_equal. f_equal. lia.
  Qed.

  (** The rest of [decode], behind the reading of the code. *)
  Lemma decode_word : forall E D D0 prev br br0 mi w y,
    lz_nextcode get 2 (dict_of n D0) br0 0 = ROk (mi, dict_of n D, br) ->
    stands n E mi w -> List.length w < 256 ->
    (prev = [] /\ E = D) \/ (prev <> [] /\ List.length prev < 256 /\ size_of n D < MAX_DICT_LENGTH /\ exists c, E = D ++ [prev ++ [c]] /\ w ++ y = c :: skipn 1 (w ++ y)) ->
    lz_decode get (mkDec (dict_of n D0) br0 prev) = ROk (w, mkDec (dict_of n E) br w).
  Proof.
    intros E D D0 prev br br0 mi w y Hc Hst Hw Hcase. unfold lz_decode. cbn [dc_dict dc_br dc_prev]. rewrite Hc. cbn [rbind].
    pose proof (stands_not_special _ _ _ _ Hst) as (Hne1 & Hne2 & Hlt). rewrite dict_size. change (ld_end (dict_of n D)) with (n + 1).
    assert (Hwne : w <> []) by apply Hst.
    destruct Hcase as [[-> ->]|(Hpn & Hpl & Hsz & c & -> & Ec)].
    - destruct (Nat.ltb_spec (size_of n D) mi); [lia|]. destruct (Nat.eqb_spec mi (n + 1)); [lia|]. destruct (Nat.eqb_spec mi (size_of n D)); [lia|].
      rewrite (stands_nth _ _ _ _ Hst). cbn [lw_len lw_chars]. rewrite firstn_self. reflexivity.
    - destruct w as [|c' w0]; [contradiction|]. cbn [app] in Ec. injection Ec as ->.
      unfold size_of in Hlt. rewrite app_length in Hlt. cbn [List.length] in Hlt. fold (size_of n D) in Hlt.
      destruct (Nat.ltb_spec (size_of n D) mi); [unfold size_of in *; lia|]. destruct (Nat.eqb_spec mi (n + 1)); [lia|].
      assert (Hcurr : (if Nat.eqb mi (size_of n D) then
             match prev with
             | [] => RPanic
             | c :: _ => if Nat.ltb (List.length prev) (N.to_nat 4096) then ROk (prev ++ [c]) else RUndefined
             end
           else let e := nth mi (ld_entries (dict_of n D)) (mkWord 0 []) in ROk (firstn (lw_len e) (lw_chars e))) = ROk (c :: w0)).
      { destruct (stands_snoc _ _ _ _ _ Hst) as [[Hl Hst']|[-> Ev]].
        - destruct (Nat.eqb_spec mi (size_of n D)); [lia|]. cbv zeta. rewrite (stands_nth _ _ _ _ Hst'). cbn [lw_len lw_chars]. rewrite firstn_self. reflexivity.
        - rewrite Nat.eqb_refl. destruct prev as [|p0 prev]; [contradiction|]. destruct (Nat.ltb_spec (List.length (p0 :: prev)) (N.to_nat 4096)); [|lia].
          cbn [app] in Ev. injection Ev as -> ->. reflexivity. }
      cbv zeta in Hcurr. rewrite Hcurr. cbn [rbind nth]. destruct prev as [|p0 prev]; [contradiction|].
      destruct (Nat.eqb_spec (size_of n D) MAX_DICT_LENGTH); [lia|]. destruct (Nat.ltb_spec (List.length (p0 :: prev)) (N.to_nat 4096)); [|lia].
      rewrite dict_add by exact Hsz. reflexivity.
  Qed.

  Lemma decode_step : forall E D prev x pre mi w y br tail, pending n E D prev x pre -> stands n E mi w -> List.length w < 256 -> x = w ++ y ->
    bits_left rest true br (bits_of pre ++ bitsl mi (lz_codewidth (size_of n E)) ++ tail) ->
    exists br', lz_decode get (mkDec (dict_of n D) br prev) = ROk (w, mkDec (dict_of n E) br' w) /\ bits_left rest true br' tail.
  Proof.
    intros E D prev x pre mi w y br tail Hpend Hst Hw Hx Hbits.
    pose proof (stands_not_special _ _ _ _ Hst) as (Hne1 & Hne2 & Hlt).
    destruct Hpend as [x|ws prev c y0 H1 H2 H3|ws prev c y0 H1 H2 H3].
    - cbn [bits_of List.map List.concat app] in Hbits.
      assert (Ew : lz_codewidth (size_of n [] + 1) = lz_codewidth (size_of n [])).
      { apply cw_same; unfold size_of; cbn [List.length]; [lia|]. replace (n + 2 + 0 - 1) with (n + 1) by lia. exact Hp. }
      destruct (read_code br mi _ tail Hlt Hbits) as (br' & Er & Hb'). exists br'. split; [|exact Hb'].
      apply (decode_word [] [] [] [] br' br mi w y); [|exact Hst|exact Hw|left; auto].
      cbn [lz_nextcode]. rewrite dict_size, Ew, Er. cbn [rbind]. change (ld_reset (dict_of n [])) with n. destruct (Nat.eqb_spec mi n); [contradiction|reflexivity].
    - cbn [bits_of List.map List.concat app] in Hbits.
      assert (Ew : size_of n ws + 1 = size_of n (ws ++ [prev ++ [c]])) by (unfold size_of; rewrite app_length; cbn [List.length]; lia).
      destruct (read_code br mi _ tail Hlt Hbits) as (br' & Er & Hb'). exists br'. split; [|exact Hb'].
      apply (decode_word _ ws ws prev br' br mi w y); [|exact Hst|exact Hw|].
      + cbn [lz_nextcode]. rewrite dict_size, Ew, Er. cbn [rbind]. change (ld_reset (dict_of n ws)) with n. destruct (Nat.eqb_spec mi n); [contradiction|reflexivity].
      + right. split; [exact H1|]. split; [exact H2|]. split; [exact H3|]. exists c. split; [reflexivity|]. rewrite <- Hx. reflexivity.
    - rewrite bits_of_cons in Hbits. cbn [bits_of List.map List.concat] in Hbits. rewrite app_nil_r in Hbits.
      destruct (read_code br n (size_of n ws) _ ltac:(unfold size_of; lia) Hbits) as (br1 & E1 & Hb1).
      assert (Ew : size_of n [] + 1 = size_of n [prev ++ [c]]) by (unfold size_of; cbn [List.length]; lia).
      destruct (read_code br1 mi _ tail Hlt Hb1) as (br' & Er & Hb'). exists br'. split; [|exact Hb'].
      apply (decode_word _ [] ws prev br' br mi w y); [|exact Hst|exact Hw|].
      + cbn [lz_nextcode]. rewrite dict_size, H3, cw_max, <- H3, E1. cbn [rbind]. change (ld_reset (dict_of n ws)) with n. rewrite Nat.eqb_refl.
        rewrite dict_reset, dict_size, Ew, Er. cbn [rbind]. change (ld_reset (dict_of n [])) with n. destruct (Nat.eqb_spec mi n); [contradiction|reflexivity].
      + right. split; [exact H1|]. split; [exact H2|]. pose proof max_big. split; [unfold size_of; cbn [List.length]; lia|]. exists c. split; [reflexivity|]. rewrite <- Hx. reflexivity.
  Qed.

  (** The end code. *)
  Lemma decode_end : forall D prev br tail, bits_left rest true br (bitsl (n + 1) (lz_codewidth (size_of n D)) ++ tail) ->
    (tail = [] -> lz_decode get (mkDec (dict_of n D) br prev) = RPanic \/ exists s, lz_decode get (mkDec (dict_of n D) br prev) = ROk ([], s)) /\
    (forall t, tail = false :: t -> exists s, lz_decode get (mkDec (dict_of n D) br prev) = ROk ([], s)).
  Proof.
    intros D prev br tail H.
    assert (Hlt : n + 1 < size_of n D) by (unfold size_of; lia).
    assert (G : forall br', lz_readbits get br (lz_codewidth (size_of n D + 1)) 0 1 = ROk (n + 1, br') -> exists s, lz_decode get (mkDec (dict_of n D) br prev) = ROk ([], s)).
    { intros br' E. unfold lz_decode. cbn [dc_dict dc_br dc_prev lz_nextcode]. rewrite !dict_size, E. cbn [rbind]. change (ld_reset (dict_of n D)) with n.
      destruct (Nat.eqb_spec (n + 1) n); [lia|]. cbn [rbind]. rewrite dict_size. destruct (Nat.ltb_spec (size_of n D) (n + 1)); [lia|].
      change (ld_end (dict_of n D)) with (n + 1). rewrite Nat.eqb_refl. eauto. }
    destruct (cw_next (size_of n D)) as [Ew|Ew].
    - destruct (read_code br (n + 1) _ tail Hlt H) as (br' & Er & _).
      assert (X : exists s, lz_decode get (mkDec (dict_of n D) br prev) = ROk ([], s)) by (apply (G br'); rewrite Ew; exact Er).
      split; [intros _; right; exact X|intros t _; exact X].
    - split.
      + intros ->. left. rewrite app_nil_r in H. unfold lz_decode. cbn [dc_dict dc_br dc_prev lz_nextcode].
        rewrite dict_size, Ew. rewrite (readbits_short R get rest Hs He _ _ _ 0 1 H). reflexivity.
      + intros t ->. change (false :: t) with ([false] ++ t) in H. rewrite app_assoc, <- bitsl_more, <- Ew in H by (apply cw_fits; exact Hlt).
        destruct (read_code br (n + 1) (size_of n D + 1) t ltac:(lia) H) as (br' & Er & _). exact (G br' Er).
  Qed.

  Context {W : Type} (put : write_fn W) (out : W -> bytes) (Hput : takes_all put out).

  Lemma into_word : forall f s w c v s', lz_decode get s = ROk (c :: v, s') ->
    exists w', lz_decodeinto get put (S f) s w = lz_decodeinto get put f s' w' /\ out w' = out w ++ c :: v.
  Proof.
    intros f s w c v s' E. cbn [lz_decodeinto]. rewrite E. pose proof (Hput w (c :: v)) as H. destruct (put w (c :: v)) as [r w1]. destruct H as [-> H].
    rewrite Z.eqb_refl. exists w1. split; [reflexivity|exact H].
  Qed.

  Lemma decodeinto_ok : forall E x l F, coded n E x l F -> forall D prev pre br tail w fuel, pending n E D prev x pre -> List.length x < fuel ->
    bits_left rest true br (bits_of pre ++ bits_of l ++ bitsl (n + 1) (lz_codewidth (size_of n F)) ++ tail) ->
    tail = [] \/ (exists t, tail = false :: t) ->
    exists o w', lz_decodeinto get put fuel (mkDec (dict_of n D) br prev) w = (o, w') /\ out w' = out w ++ x /\
      (o = ROk tt \/ o = RPanic) /\ (tail <> [] -> o = ROk tt).
  Proof.
    induction 1 as [ws v mi Hst Hv|ws v mi c y l F Hst Hv Hsz Hcd IH|ws v mi c y l F Hst Hv Hsz Hcd IH]; intros D prev pre br tail w fuel Hpend Hf Hb Ht;
      (destruct v as [|v0 v]; [destruct Hst; contradiction|]); (destruct fuel as [|f]; [lia|]).
    - rewrite bits_of_cons in Hb. change (bits_of []) with (@nil bool) in Hb. rewrite app_nil_r in Hb.
      destruct (decode_step _ _ _ _ _ mi (v0 :: v) [] br _ Hpend Hst Hv ltac:(rewrite app_nil_r; reflexivity) Hb) as (br1 & E1 & Hb1).
      destruct (into_word f _ w v0 v _ E1) as (w1 & -> & Hw1).
      destruct f as [|f]; [cbn in Hf; lia|]. cbn [lz_decodeinto]. destruct (decode_end ws (v0 :: v) br1 tail Hb1) as [H1 H2].
      destruct Ht as [->|[t ->]].
      + destruct (H1 eq_refl) as [->|[s ->]]; eexists _, w1; (split; [reflexivity|]); (split; [exact Hw1|]); split; auto; intros []; reflexivity.
      + destruct (H2 t eq_refl) as [s ->]. eexists _, w1. split; [reflexivity|]. split; [exact Hw1|]. auto.
    - rewrite bits_of_cons, <- app_assoc in Hb.
      destruct (decode_step _ _ _ _ _ mi (v0 :: v) (c :: y) br _ Hpend Hst Hv eq_refl Hb) as (br1 & E1 & Hb1).
      destruct (into_word f _ w v0 v _ E1) as (w1 & -> & Hw1).
      destruct (IH ws (v0 :: v) [] br1 tail w1 f) as (o & w2 & E2 & Hw2 & H1 & H2);
        [constructor; [discriminate|exact Hv|exact Hsz]|cbn in Hf; rewrite app_length in Hf; cbn in Hf |- *; lia|exact Hb1|exact Ht|].
      exists o, w2. split; [exact E2|]. split; [rewrite Hw2, Hw1, <- app_assoc; reflexivity|auto].
    - rewrite bits_of_cons, <- app_assoc in Hb.
      destruct (decode_step _ _ _ _ _ mi (v0 :: v) (c :: y) br _ Hpend Hst Hv eq_refl Hb) as (br1 & E1 & Hb1).
      destruct (into_word f _ w v0 v _ E1) as (w1 & -> & Hw1). rewrite bits_of_cons, <- app_assoc in Hb1.
      destruct (IH ws (v0 :: v) [(n, lz_codewidth (size_of n ws))] br1 tail w1 f) as (o & w2 & E2 & Hw2 & H1 & H2);
        [constructor; [discriminate|exact Hv|exact Hsz]|cbn in Hf; rewrite app_length in Hf; cbn in Hf |- *; lia|
         rewrite bits_of_cons; change (bits_of []) with (@nil bool); rewrite app_nil_r; exact Hb1|exact Ht|].
      exists o, w2. split; [exact E2|]. split; [rewrite Hw2, Hw1, <- app_assoc; reflexivity|auto].
  Qed.

  (** An empty text. *)
  Lemma decodeinto_empty : forall br tail w fuel, 0 < fuel ->
    bits_left rest true br (bitsl (n + 1) (lz_codewidth (size_of n [])) ++ tail) -> tail = [] \/ (exists t, tail = false :: t) ->
    exists o, lz_decodeinto get put fuel (mkDec (dict_of n []) br []) w = (o, w) /\ (o = ROk tt \/ o = RPanic) /\ (tail <> [] -> o = ROk tt).
  Proof.
    intros br tail w fuel Hf Hb Ht. destruct fuel as [|f]; [lia|]. cbn [lz_decodeinto]. destruct (decode_end [] [] br tail Hb) as [H1 H2].
    destruct Ht as [->|[t ->]].
    - destruct (H1 eq_refl) as [->|[s ->]]; eexists; (split; [reflexivity|]); split; auto; intros []; reflexivity.
    - destruct (H2 t eq_refl) as [s ->]. eexists. split; [reflexivity|]. auto.
  Qed.
End Decoder.

Lemma takes_honest : forall W (put : write_fn W) out, takes_all put out -> honest put out.
Proof.
  intros W put out H w d. specialize (H w d). destruct (put w d) as [r w']. destruct H as [-> ->]. right. split; [lia|].
  rewrite Nat2Z.id, firstn_all. reflexivity.
Qed.
Lemma emit_no_error : forall W (put : write_fn W) out, takes_all put out -> forall bits w, bw_err w = false -> bw_err (emit_bits put w bits) = false.
Proof.
  intros W put out H. assert (Hfl : forall w, bw_err w = false -> bw_err (bits_flush put w) = false).
  { intros w E. unfold bits_flush. destruct (put _ _) as [r o] eqn:Ep. pose proof (H (bw_out w) [if bw_reverse w then reversebyte (bw_buf w) else bw_buf w]) as Hx.
    rewrite Ep in Hx. destruct Hx as [-> _]. exact E. }
  induction bits as [|b bits IH]; intros w E; [exact E|]. cbn [emit_bits fold_left]. apply IH. unfold bits_write1. rewrite E. cbn [bw_pos].
  destruct (Nat.eqb _ 8); cbn [snd]; [apply Hfl; reflexivity|reflexivity].
Qed.
Lemma close_true : forall W (put : write_fn W) out, takes_all put out -> forall w, bw_err w = false -> exists w', bits_closewriter put w = (true, w').
Proof.
  intros W put out H w E. unfold bits_closewriter. rewrite E. cbn [negb andb]. rewrite andb_true_r. destruct (Nat.ltb 0 (bw_pos w)); [|rewrite E; eauto].
  assert (Ef : bw_err (bits_flush put w) = false).
  { unfold bits_flush. destruct (put _ _) as [r o] eqn:Ep. pose proof (H (bw_out w) [if bw_reverse w then reversebyte (bw_buf w) else bw_buf w]) as Hx.
    rewrite Ep in Hx. destruct Hx as [-> _]. exact E. }
  rewrite Ef. eauto.
Qed.

(** * Theorems *)

Lemma stream_app : forall rev a b, stream_bits rev (a ++ b) = stream_bits rev a ++ stream_bits rev b.
Proof. intros. unfold stream_bits. rewrite map_app, concat_app. reflexivity. Qed.

(** Compressing any text over an alphabet of [n] characters and reading back what
    was written gives exactly the text; when the input of the decoder goes on with
    a zero byte, the decoder also ends properly.  Missing: alphabets with [n + 1] a
    power of two, and the proper end without a byte behind (see below). *)
Theorem C86_round_trip_partial : forall R0 (read : read_fn R0) content, reads_fully read content ->
  forall W (put : write_fn W) out, takes_all put out ->
  forall n r w fuel, 1 <= n <= 256 -> ~ power_of_two (n + 1) ->
  Forall (fun c => (c < N.of_nat n)%N) (content r) -> List.length (content r) < fuel ->
  exists w' bs, lz_compress read put fuel r n w = ROk (true, w') /\ out w' = out w ++ bs /\
    forall R (get : read_fn R) rest, steady get rest -> ends get rest ->
    forall W2 (put2 : write_fn W2) out2, takes_all put2 out2 ->
    forall s w2, Forall is_byte (rest s) ->
      (rest s = bs -> exists o w3, lz_decodeinto get put2 fuel (lz_newdecoder s n) w2 = (o, w3) /\
         out2 w3 = out2 w2 ++ content r /\ (o = ROk tt \/ o = RPanic)) /\
      (forall more, rest s = bs ++ 0%N :: more -> exists w3, lz_decodeinto get put2 fuel (lz_newdecoder s n) w2 = (ROk tt, w3) /\
         out2 w3 = out2 w2 ++ content r).
Proof.
  intros R0 read content Hread W put out Hput n r w fuel Hn Hp Hall Hf.
  assert (Henc : exists l F, lz_loop read put fuel (lz_newdict n) (bits_newwriter w true) [] r = ROk (dict_of n F, emit_bits put (bits_newwriter w true) (bits_of l)) /\
    ((content r = [] /\ l = [] /\ F = []) \/ coded n [] (content r) l F)).
  { destruct (content r) as [|c0 x] eqn:Ex.
    - exists [], []. split; [|left; auto]. destruct fuel as [|f]; [lia|]. cbn [lz_loop].
      pose proof (peek_ok R0 read content Hread [] r (N.to_nat 4096)) as Hk. pose proof max_big as Hbig. rewrite max_4096 in Hbig. specialize (Hk ltac:(lia)).
      destruct (lz_peek read [] r (N.to_nat 4096)) as [b r']. destruct Hk as [Hk _]. rewrite Ex in Hk. cbn [app] in Hk. apply app_eq_nil in Hk. destruct Hk as [-> _].
      cbn [List.length Nat.eqb]. rewrite dict_new. reflexivity.
    - pose proof max_big. destruct (loop_ok R0 read content Hread W put n Hn fuel [] (bits_newwriter w true) [] r) as (l & F & E & Hc);
        [constructor|unfold size_of; cbn [List.length]; lia|cbn [app]; rewrite Ex; discriminate|cbn [app]; rewrite Ex; exact Hall|cbn [app]; rewrite Ex; exact Hf|].
      exists l, F. rewrite dict_new. split; [exact E|]. right. cbn [app] in Hc. rewrite Ex in Hc. exact Hc. }
  destruct Henc as (l & F & Eloop & Hcd). unfold lz_compress. rewrite Eloop. cbn [rbind].
  unfold lz_emit. rewrite writebits_bits, dict_size. change (ld_end (dict_of n F)) with (n + 1). rewrite <- emit_app.
  set (bits := bits_of l ++ bitsl (n + 1) (lz_codewidth (size_of n F))).
  destruct (close_true W put out Hput _ (emit_no_error W put out Hput bits (bits_newwriter w true) eq_refl)) as [w' Ew].
  destruct (C80_writer W put out (takes_honest _ _ _ Hput) w true bits w' Ew) as (bs & pad & Hout & Hbs & Hpad & Hbits).
  exists w', bs. rewrite Ew. split; [reflexivity|]. split; [exact Hout|].
  intros R get rest Hs He W2 put2 out2 Hput2 s w2 Hbytes.
  assert (G : forall tail, stream_bits true (rest s) = bits ++ tail -> tail = [] \/ (exists t, tail = false :: t) ->
    exists o w3, lz_decodeinto get put2 fuel (lz_newdecoder s n) w2 = (o, w3) /\ out2 w3 = out2 w2 ++ content r /\ (o = ROk tt \/ o = RPanic) /\ (tail <> [] -> o = ROk tt)).
  { intros tail Et Htail. pose proof (newreader_left R rest s true Hbytes) as Hl. rewrite Et in Hl. unfold bits in Hl. rewrite <- app_assoc in Hl.
    unfold lz_newdecoder. rewrite dict_new. destruct Hcd as [(Ec & -> & ->)|Hcd].
    - destruct (decodeinto_empty get rest Hs He n Hn put2 _ tail w2 fuel ltac:(lia) Hl Htail) as (o & E & H1 & H2).
      exists o, w2. split; [exact E|]. split; [rewrite Ec, app_nil_r; reflexivity|auto].
    - destruct (decodeinto_ok get rest Hs He n Hn Hp put2 out2 Hput2 _ _ _ _ Hcd [] [] [] (bits_newreader s true) tail w2 fuel (p_first n _) Hf Hl Htail) as (o & w3 & E & H1 & H2 & H3).
      exists o, w3. auto. }
  split.
  - intros Er. destruct (G (repeat false pad)) as (o & w3 & E & H1 & H2 & _); [rewrite Er; exact Hbits|destruct pad; [left; reflexivity|right; eexists; reflexivity]|].
    exists o, w3. auto.
  - intros more Er. destruct (G (repeat false pad ++ stream_bits true (0%N :: more))) as (o & w3 & E & H1 & _ & H3).
    + rewrite Er, stream_app, Hbits, <- app_assoc. reflexivity.
    + right. destruct pad; eexists; reflexivity.
    + exists w3. split; [|exact H1]. rewrite H3 in E; [exact E|]. destruct pad; discriminate.
Qed.

Definition grow : write_fn bytes := fun w d => (Z.of_nat (List.length d), w ++ d).
Lemma grow_takes_all : takes_all grow (fun w => w).
Proof. intros w d. cbn. split; reflexivity. Qed.
Lemma ten : ~ power_of_two (10 + 1).
Proof. intros [k E]. destruct k as [|[|[|[|k]]]]; cbn in E; lia. Qed.
Example C86_case : lz_compress mem_read grow 20 [1;2;3;1;2;3;1;2;3;3;3;3;3;3;3]%N 10 [] = ROk (true, [65;12;230;218;32;77;11]%N) /\
  lz_decodeinto file_read grow 20 (lz_newdecoder [65;12;230;218;32;77;11]%N 10) [] = (ROk tt, [1;2;3;1;2;3;1;2;3;3;3;3;3;3;3]%N).
Proof. split; vm_compute; reflexivity. Qed.

(** The width of the end code: the decoder asks for one bit more than there is. *)
Theorem C86_end_refuted : exists bs, lz_compress mem_read grow 20 [0;1;2]%N 5 [] = ROk (true, bs) /\
  lz_decodeinto file_read grow 20 (lz_newdecoder bs 5) [] = (RPanic, [0;1;2]%N).
Proof. exists [16;98]%N. split; vm_compute; reflexivity. Qed.
(** The width of the first code when [n + 1] is a power of two: nothing comes back. *)
Theorem C86_alphabet_refuted : exists bs, lz_compress mem_read grow 20 [1;1;2;1]%N 255 [] = ROk (true, bs) /\
  lz_decodeinto file_read grow 20 (lz_newdecoder bs 255) [] = (RPanic, []).
Proof. exists [1;2;16;32;0;128;0]%N. split; vm_compute; reflexivity. Qed.
(** A reader that gives less than it could: the rest of the text is dropped
    without notice. *)
Theorem C86_short_reads_refuted : reads slow_read (fun s => s) /\
  exists bs, lz_compress slow_read grow 20 [1;2;3]%N 10 [] = ROk (true, bs) /\
    lz_decodeinto file_read grow 20 (lz_newdecoder bs 10) [] = (ROk tt, [1]%N).
Proof. split; [exact (proj1 C84_literal_refuted)|]. exists [97;1]%N. split; vm_compute; reflexivity. Qed.

Print Assumptions C86_round_trip_partial.
Print Assumptions C86_end_refuted.
Print Assumptions C86_alphabet_refuted.
Print Assumptions C86_short_reads_refuted.
