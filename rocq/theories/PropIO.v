(** C78-C80: the encoders of lib/enc and the bit streams of lib/bits. *)
From Coq Require Import Lia PeanoNat ZArith.
From Verif Require Import LibBase LibIO SpecIO ClipFacts.

(** * Writers and readers *)

Theorem mem_write_honest : honest mem_write mb_data.
Proof.
  intros w d. unfold mem_write. destruct (Nat.leb (mb_size w) (List.length (mb_data w))) eqn:E.
  - left. split; [lia|reflexivity].
  - right. simpl. rewrite firstn_length. split; [lia|]. rewrite Nat2Z.id. f_equal.
    destruct (Nat.le_ge_cases (mb_size w - List.length (mb_data w)) (List.length d)) as [H|H].
    + rewrite Nat.min_l by exact H. reflexivity.
    + rewrite Nat.min_r by exact H. rewrite !firstn_all2 by lia. reflexivity.
Qed.

Theorem readers_steady : steady mem_read (fun s => s) /\ steady file_read (fun s => s) /\ ends file_read (fun s => s).
Proof.
  split; [|split].
  - intros s n Hn Hs. simpl. auto.
  - intros s n Hn Hs. unfold file_read. destruct s; [contradiction|]. auto.
  - intros s n ->. simpl. split; [lia|reflexivity].
Qed.

(** * C78: hexadecimal and percent encoding *)

Definition hex_text (data : bytes) : bytes := List.concat (List.map hex_writebyte data).

Lemma all_bytes : forall P : byte -> bool, forallb P (List.map N.of_nat (List.seq 0 256)) = true ->
  forall b, is_byte b -> P b = true.
Proof.
  intros P H b Hb. rewrite forallb_forall in H. apply H. apply in_map_iff. exists (N.to_nat b).
  split; [lia|]. apply in_seq. unfold is_byte in Hb. lia.
Qed.

Lemma hex_byte_back : forall b, is_byte b -> forall r l, unhex r = Some l -> unhex (hex_writebyte b ++ r) = Some (b :: l).
Proof.
  intros b Hb r l Hl.
  assert (H : (match hex_digit (char_at hex_chars (b / 16)), hex_digit (char_at hex_chars (b mod 16)) with
               | Some x, Some y => N.eqb (16 * x + y) b | _, _ => false end) = true).
  { apply (all_bytes (fun b => match hex_digit (char_at hex_chars (b / 16)), hex_digit (char_at hex_chars (b mod 16)) with
               | Some x, Some y => N.eqb (16 * x + y) b | _, _ => false end)); [vm_compute; reflexivity|exact Hb]. }
  unfold hex_writebyte. cbn [app unhex].
  destruct (hex_digit (char_at hex_chars (b / 16))) as [x|]; [|discriminate].
  destruct (hex_digit (char_at hex_chars (b mod 16))) as [y|]; [|discriminate].
  rewrite Hl. apply N.eqb_eq in H. rewrite H. reflexivity.
Qed.

Lemma unhex_text : forall data, Forall is_byte data -> unhex (hex_text data) = Some data.
Proof.
  induction data as [|b data IH]; intros H; [reflexivity|]. inversion H; subst.
  unfold hex_text. simpl List.map. simpl List.concat. apply hex_byte_back; auto.
Qed.

(** On every writer: when [hex.write] gives [n], it has written text that reads
    back as the first [n] bytes of the data; all of them when there is room. *)
Theorem C78_hex_reads_back : forall W (put : write_fn W) out, honest put out ->
  forall w data n w', Forall is_byte data -> hex_write put w data 0 = (n, w') -> (0 <= n)%Z ->
  (n <= Z.of_nat (List.length data))%Z /\
  exists text, out w' = out w ++ text /\ unhex text = Some (firstn (Z.to_nat n) data).
Proof.
  intros W put out Hh.
  enough (H : forall data w len n w', Forall is_byte data -> (0 <= len)%Z -> hex_write put w data len = (n, w') -> (0 <= n)%Z ->
     (len <= n <= len + Z.of_nat (List.length data))%Z /\
     exists text, out w' = out w ++ text /\ unhex text = Some (firstn (Z.to_nat (n - len)) data)).
  { intros w data n w' Hb E Hn. destruct (H data w 0%Z n w' Hb ltac:(lia) E Hn) as [H1 (t & H2 & H3)].
    rewrite Z.sub_0_r in H3. split; [lia|]. eauto. }
  induction data as [|b data IH]; intros w len n w' Hb Hlen E Hn; cbn [hex_write] in E.
  - injection E as <- <-. split; [simpl; lia|]. exists []. rewrite app_nil_r, firstn_nil. auto.
  - inversion Hb; subst. pose proof (Hh w [char_at hex_chars (b / 16); char_at hex_chars (b mod 16)]) as Hw.
    destruct (put w [char_at hex_chars (b / 16); char_at hex_chars (b mod 16)]) as [r w1].
    cbn [List.length] in *. destruct (Z.ltb_spec r 0) as [Hr|Hr]; [injection E as <- <-; lia|].
    destruct (Z.eqb_spec r 0) as [->|Hr0].
    { injection E as <- <-. split; [lia|]. destruct Hw as [[Hw _]|[_ Hw]]; [lia|]. exists [].
      split; [exact Hw|]. rewrite Z.sub_diag. reflexivity. }
    destruct (Z.eqb_spec r 1) as [->|Hr1]; [injection E as <- <-; lia|].
    destruct Hw as [[Hw _]|[Hr3 Hw]]; [lia|]. change (Z.of_nat 2) with 2%Z in Hr3. assert (r = 2%Z) by lia. subst r.
    simpl in E. destruct (IH w1 (len + 1)%Z n w' H2 ltac:(lia) E Hn) as [Hle (t & Ht & Hu)].
    split; [lia|]. exists (hex_writebyte b ++ t). split.
    + rewrite Ht, Hw, <- app_assoc. reflexivity.
    + rewrite (hex_byte_back b H1 t _ Hu). f_equal.
      replace (Z.to_nat (n - len)) with (S (Z.to_nat (n - (len + 1)))) by lia. reflexivity.
Qed.

Theorem C78_hex_complete : forall size data, 2 * List.length data <= size ->
  fst (hex_write mem_write (static_buffer size) data 0) = Z.of_nat (List.length data).
Proof.
  intros size data. change (static_buffer size) with (mkMembuf [] size).
  enough (H : forall data pre len, List.length pre + 2 * List.length data <= size ->
    fst (hex_write mem_write (mkMembuf pre size) data len) = (len + Z.of_nat (List.length data))%Z).
  { intros Hs. rewrite H by (simpl; lia). lia. }
  clear data. induction data as [|b data IH]; intros pre len Hs; cbn [hex_write]; [simpl; lia|].
  cbn [List.length] in *. set (two := [char_at hex_chars (b / 16); char_at hex_chars (b mod 16)]).
  assert (E : mem_write (mkMembuf pre size) two = (2%Z, mkMembuf (pre ++ two) size)).
  { unfold mem_write. cbn [mb_size mb_data].
    replace (Nat.leb size (List.length pre)) with false by (symmetry; apply Nat.leb_gt; lia).
    rewrite firstn_all2 by (simpl; lia). reflexivity. }
  rewrite E. change (2 <? 0)%Z with false. cbn -[Z.add Z.of_nat hex_write mem_write].
  rewrite IH by (rewrite app_length; simpl; lia). lia.
Qed.

Example C78_hex_case : exists w', hex_write mem_write (static_buffer 8) [0;18;255]%N 0 = (3%Z, w') /\ mb_data w' = L "0012ff".
Proof. eexists. split; reflexivity. Qed.

Lemma percent_byte_back : forall c, is_byte c -> forall r l, unpercent r = Some l ->
  unpercent ((if c_isalpha c || c_isdigit c then [c]
              else [37%N; char_at hex_upper (N.land (N.shiftr c 4) 15); char_at hex_upper (N.land c 15)]) ++ r) = Some (c :: l).
Proof.
  intros c Hc r l Hl.
  assert (H : (if c_isalpha c || c_isdigit c then negb (c =? 37)%N && is_alnum c
               else match hex_digit (char_at hex_upper (N.land (N.shiftr c 4) 15)), hex_digit (char_at hex_upper (N.land c 15)) with
                    | Some x, Some y => N.eqb (16 * x + y) c | _, _ => false end) = true).
  { apply (all_bytes (fun c => if c_isalpha c || c_isdigit c then negb (c =? 37)%N && is_alnum c
               else match hex_digit (char_at hex_upper (N.land (N.shiftr c 4) 15)), hex_digit (char_at hex_upper (N.land c 15)) with
                    | Some x, Some y => N.eqb (16 * x + y) c | _, _ => false end)); [vm_compute; reflexivity|exact Hc]. }
  destruct (c_isalpha c || c_isdigit c).
  - apply andb_true_iff in H as [H1 H2]. cbn [app unpercent]. apply negb_true_iff in H1. rewrite H1, H2, Hl. reflexivity.
  - cbn [app unpercent]. rewrite N.eqb_refl. cbv iota.
    destruct (hex_digit (char_at hex_upper (N.land (N.shiftr c 4) 15))) as [x|]; [|discriminate].
    destruct (hex_digit (char_at hex_upper (N.land c 15))) as [y|]; [|discriminate].
    rewrite Hl. apply N.eqb_eq in H. rewrite H. reflexivity.
Qed.

(** When [urlencode.write] gives [n], it has written [n] bytes of percent-encoded
    text that reads back as the data. *)
Theorem C78_url_reads_back : forall W (put : write_fn W) out, honest put out ->
  forall w data n w', Forall is_byte data -> url_write put w data 0 = (n, w') -> (0 <= n)%Z ->
  exists text, out w' = out w ++ text /\ n = Z.of_nat (List.length text) /\ unpercent text = Some data.
Proof.
  intros W put out Hh.
  enough (H : forall data w len n w', Forall is_byte data -> (0 <= len)%Z -> url_write put w data len = (n, w') -> (0 <= n)%Z ->
     exists text, out w' = out w ++ text /\ n = (len + Z.of_nat (List.length text))%Z /\ unpercent text = Some data).
  { intros w data n w' Hb E Hn. destruct (H data w 0%Z n w' Hb ltac:(lia) E Hn) as (t & H1 & H2 & H3). eauto. }
  induction data as [|c data IH]; intros w len n w' Hb Hlen E Hn; cbn [url_write] in E.
  - injection E as <- <-. exists []. rewrite app_nil_r. simpl. split; auto. split; [lia|auto].
  - inversion Hb; subst. pose proof (percent_byte_back c H1) as Hback. destruct (c_isalpha c || c_isdigit c).
    + pose proof (Hh w [c]) as Hw. destruct (put w [c]) as [r w1].
      destruct (Z.eqb_spec r 1) as [->|Hr]; [|injection E as <- <-; lia].
      destruct Hw as [[Hw _]|[_ Hw]]; [lia|]. destruct (IH w1 (len + 1)%Z n w' H2 ltac:(lia) E Hn) as (t & G1 & G2 & G3).
      exists ([c] ++ t). split; [rewrite G1, Hw, <- app_assoc; reflexivity|]. split; [rewrite app_length; simpl List.length; lia|]. apply Hback. exact G3.
    + pose proof (Hh w [37%N; char_at hex_upper (N.land (N.shiftr c 4) 15); char_at hex_upper (N.land c 15)]) as Hw.
      destruct (put w [37%N; char_at hex_upper (N.land (N.shiftr c 4) 15); char_at hex_upper (N.land c 15)]) as [r w1].
      destruct (Z.eqb_spec r 3) as [->|Hr]; [|injection E as <- <-; lia].
      destruct Hw as [[Hw _]|[_ Hw]]; [lia|]. destruct (IH w1 (len + 3)%Z n w' H2 ltac:(lia) E Hn) as (t & G1 & G2 & G3).
      eexists. split; [rewrite G1, Hw, <- app_assoc; reflexivity|]. split; [rewrite app_length; simpl List.length; lia|].
      apply (Hback t _ G3).
Qed.

Example C78_url_case : exists w', url_write mem_write (static_buffer 100) (L "a b/%z~") 0 = (15%Z, w') /\
  mb_data w' = L "a%20b%2F%25z%7E" /\ unpercent (mb_data w') = Some (L "a b/%z~").
Proof. eexists. repeat split; reflexivity. Qed.

(** * C79: numbers in byte order *)

(** [value_le] of bytes is the number: each writer's bytes have the value (cut to
    the width), each reader gives the value of the next bytes, so reading what
    was written gives the number back. *)
Theorem C79_writers : forall W (put : write_fn W) w v, (v < 4294967296)%N ->
  (exists bs, write4le put w v = put w bs /\ List.length bs = 4 /\ Forall is_byte bs /\ value_le bs = v) /\
  (exists bs, write4be put w v = put w bs /\ List.length bs = 4 /\ Forall is_byte bs /\ value_be bs = v) /\
  (exists bs, write2le put w v = put w bs /\ List.length bs = 2 /\ Forall is_byte bs /\ value_le bs = (v mod 65536)%N).
Proof.
  intros W put w v Hv.
  assert (Hb : forall x, is_byte (x mod 256)%N) by (intros x; apply N.mod_upper_bound; lia).
  assert (H4 : value_le [(v mod 256)%N; (v / 256 mod 256)%N; (v / 256 / 256 mod 256)%N; (v / 256 / 256 / 256 mod 256)%N] = v).
  { cbn [value_le]. rewrite !N.div_div by lia.
    pose proof (N.div_mod v 256 ltac:(lia)). pose proof (N.div_mod (v / 256) 256 ltac:(lia)) as H1.
    pose proof (N.div_mod (v / (256 * 256)) 256 ltac:(lia)) as H2. rewrite N.div_div in H1, H2 by lia.
    rewrite (N.mod_small (v / (256 * 256 * 256)) 256).
    - change (256 * 256 * 256)%N with 16777216%N in *. change (256 * 256)%N with 65536%N in *.
      remember (v / 16777216)%N. lia.
    - apply N.div_lt_upper_bound; lia. }
  split; [|split]; eexists; (split; [reflexivity|]); (split; [reflexivity|]); (split; [repeat constructor; apply Hb|]).
  - exact H4.
  - exact H4.
  - cbn [value_le]. rewrite N.mul_0_r, N.add_0_r. change 65536%N with (256 * 256)%N. rewrite N.mod_mul_r by lia. reflexivity.
Qed.

Lemma short_read : forall n (l : bytes), n <= List.length l -> List.length (firstn n l) = n.
Proof. intros. rewrite firstn_length. lia. Qed.

(** A reader that has bytes left gives the value of the next ones, or reports
    that there are not enough. *)
Theorem C79_readers : forall R (get : read_fn R) rest, steady get rest ->
  forall r, rest r <> [] -> Forall is_byte (rest r) ->
  (let '(n, v, r') := read4le get r in rest r' = skipn 4 (rest r) /\
     if Nat.leb 4 (List.length (rest r)) then n = 4%Z /\ v = Some (value_le (firstn 4 (rest r))) else (n < 4)%Z /\ v = None) /\
  (let '(n, v, r') := read4be get r in rest r' = skipn 4 (rest r) /\
     if Nat.leb 4 (List.length (rest r)) then n = 4%Z /\ v = Some (value_be (firstn 4 (rest r))) else (n < 4)%Z /\ v = None) /\
  (let '(n, v, r') := read3le get r in rest r' = skipn 3 (rest r) /\
     if Nat.leb 3 (List.length (rest r)) then n = 3%Z /\ v = Some (value_le (firstn 3 (rest r))) else (n < 3)%Z /\ v = None) /\
  (let '(n, v, r') := read2le get r in rest r' = skipn 2 (rest r) /\
     if Nat.leb 2 (List.length (rest r)) then n = 2%Z /\ v = Some (value_le (firstn 2 (rest r))) else (n < 2)%Z /\ v = None) /\
  (let '(n, v, r') := read2be get r in rest r' = skipn 2 (rest r) /\
     if Nat.leb 2 (List.length (rest r)) then n = 2%Z /\ v = Some (value_be (firstn 2 (rest r))) else (n < 2)%Z /\ v = None).
Proof.
  intros R get rest Hs r Hne Hb.
  assert (Hget : forall n, 0 < n -> exists r', get r n = (Z.of_nat (List.length (firstn n (rest r))), firstn n (rest r), r') /\
            rest r' = skipn n (rest r)).
  { intros n Hn. specialize (Hs r n Hn Hne). destruct (get r n) as [[k d] r']. destruct Hs as (-> & -> & H). eauto. }
  destruct (rest r) as [|a [|b [|c [|d l]]]] eqn:E; [contradiction| | | |];
    repeat match goal with H : Forall _ (_ :: _) |- _ => inversion H; subst; clear H end;
    destruct (Hget 4 ltac:(lia)) as (r4 & E4 & K4); destruct (Hget 3 ltac:(lia)) as (r3 & E3 & K3);
    destruct (Hget 2 ltac:(lia)) as (r2 & E2 & K2);
    unfold read4le, read4be, read3le, read2le, read2be; rewrite E4, E3, E2; cbn [firstn skipn List.length Nat.leb] in *;
    simpl Z.of_nat; simpl Z.eqb; cbv iota; rewrite ?K4, ?K3, ?K2; unfold is_byte in *;
    repeat match goal with |- _ /\ _ => split end; auto; try reflexivity; try lia;
    unfold u32, b_at, value_be; cbn [rev app value_le nth]; f_equal;
    repeat match goal with
           | |- context [N.modulo ?x ?m] =>
               lazymatch x with context [N.modulo _ _] => fail | _ => rewrite (N.mod_small x m) by lia end
           end; lia.
Qed.

(** Reading back from a buffer. *)
Corollary C79_round_trip : forall v, (v < 4294967296)%N ->
  (forall w, snd (write4le mem_write (static_buffer 4) v) = w -> snd (fst (read4le mem_read (mb_data w))) = Some v) /\
  (forall w, snd (write4be mem_write (static_buffer 4) v) = w -> snd (fst (read4be mem_read (mb_data w))) = Some v) /\
  (forall w, (v < 65536)%N -> snd (write2le mem_write (static_buffer 2) v) = w -> snd (fst (read2le mem_read (mb_data w))) = Some v).
Proof.
  intros v Hv. destruct readers_steady as [Hs _].
  destruct (C79_writers membuf mem_write (static_buffer 4) v Hv) as ((b1 & W1 & L1 & F1 & V1) & (b2 & W2 & L2 & F2 & V2) & _).
  destruct (C79_writers membuf mem_write (static_buffer 2) v Hv) as (_ & _ & (b3 & W3 & L3 & F3 & V3)).
  assert (Hne : forall b : bytes, 0 < List.length b -> b <> []) by (intros [|x b] H; [simpl in H; lia|discriminate]).
  assert (Hp : forall n b, List.length b = n -> 0 < n -> snd (mem_write (static_buffer n) b) = mkMembuf b n).
  { intros n b Hl Hn. unfold mem_write, static_buffer. cbn [mb_size mb_data List.length].
    replace (Nat.leb n 0) with false by (symmetry; apply Nat.leb_gt; lia). simpl. rewrite Nat.sub_0_r, firstn_all2 by lia. reflexivity. }
  split; [|split].
  - intros w Hw. rewrite W1, (Hp 4 b1 L1 ltac:(lia)) in Hw. subst w. cbn [mb_data].
    destruct (C79_readers _ mem_read _ Hs b1 (Hne b1 ltac:(lia)) F1) as (H & _).
    destruct (read4le mem_read b1) as [[n x] r]. destruct H as [_ H]. rewrite L1 in H. destruct H as [_ ->].
    cbn [fst snd]. rewrite firstn_all2 by lia. congruence.
  - intros w Hw. rewrite W2, (Hp 4 b2 L2 ltac:(lia)) in Hw. subst w. cbn [mb_data].
    destruct (C79_readers _ mem_read _ Hs b2 (Hne b2 ltac:(lia)) F2) as (_ & H & _).
    destruct (read4be mem_read b2) as [[n x] r]. destruct H as [_ H]. rewrite L2 in H. destruct H as [_ ->].
    cbn [fst snd]. rewrite firstn_all2 by lia. congruence.
  - intros w Hv2 Hw. rewrite W3, (Hp 2 b3 L3 ltac:(lia)) in Hw. subst w. cbn [mb_data].
    destruct (C79_readers _ mem_read _ Hs b3 (Hne b3 ltac:(lia)) F3) as (_ & _ & _ & H & _).
    destruct (read2le mem_read b3) as [[n x] r]. destruct H as [_ H]. rewrite L3 in H. destruct H as [_ ->].
    cbn [fst snd]. rewrite firstn_all2 by lia. rewrite N.mod_small in V3 by lia. congruence.
Qed.

Example C79_case : fst (read4be mem_read [1;2;3;4;5]%N) = (4%Z, Some 16909060%N) /\
  fst (read4le file_read [1;2;3;4;5]%N) = (4%Z, Some 67305985%N) /\ fst (read3le mem_read [1;2]%N) = (2%Z, None).
Proof. repeat split; reflexivity. Qed.

(** * C80: bit streams *)

(** The byte under construction: its first bits, most significant first. *)
Definition partial_byte (cur : list bool) : N :=
  fold_left (fun v (b : bool) => (2 * v + (if b then 1 else 0))%N) (cur ++ repeat false (8 - List.length cur)) 0%N.

Ltac each_bit cur :=
  repeat (let b := fresh "b" in destruct cur as [|b cur]; [|destruct b]).

Fixpoint lists_upto (n : nat) : list (list bool) :=
  match n with
  | O => [[]]
  | S m => [] :: List.concat (List.map (fun l => [true :: l; false :: l]) (lists_upto m))
  end.
Lemma in_lists_upto : forall n cur, List.length cur <= n -> In cur (lists_upto n).
Proof.
  induction n as [|n IH]; intros [|b cur] H; simpl in *; auto; try lia.
  right. apply in_concat. exists [true :: cur; false :: cur]. split; [|destruct b; simpl; auto].
  apply in_map_iff. exists cur. split; auto. apply IH. lia.
Qed.
Lemma all_lists : forall (P : list bool -> bool) n, forallb P (lists_upto n) = true ->
  forall cur, List.length cur <= n -> P cur = true.
Proof. intros P n H cur Hc. rewrite forallb_forall in H. apply H. apply in_lists_upto. exact Hc. Qed.

Definition bools_eqb (a b : list bool) : bool := if list_eq_dec Bool.bool_dec a b then true else false.
Lemma bools_eqb_eq : forall a b, bools_eqb a b = true -> a = b.
Proof. intros a b. unfold bools_eqb. destruct (list_eq_dec Bool.bool_dec a b); [auto|discriminate]. Qed.

Lemma partial_step : forall cur b, List.length cur <= 7 ->
  (if b : bool then N.lor (partial_byte cur) (bitval (List.length cur)) else partial_byte cur) = partial_byte (cur ++ [b]).
Proof.
  intros cur b Hc.
  apply N.eqb_eq. apply (all_lists (fun cur => ((if b then N.lor (partial_byte cur) (bitval (List.length cur)) else partial_byte cur) =? partial_byte (cur ++ [b]))%N) 7); auto.
  destruct b; vm_compute; reflexivity.
Qed.

Definition out_byte (rev : bool) (cur : list bool) : byte := if rev then reversebyte (partial_byte cur) else partial_byte cur.

Lemma out_byte_bits : forall rev cur, List.length cur <= 8 ->
  byte_bits rev (out_byte rev cur) = cur ++ repeat false (8 - List.length cur) /\ is_byte (out_byte rev cur).
Proof.
  intros rev cur Hc.
  assert (H : (bools_eqb (byte_bits rev (out_byte rev cur)) (cur ++ repeat false (8 - List.length cur)) && (out_byte rev cur <? 256)%N) = true).
  { apply (all_lists (fun cur => bools_eqb (byte_bits rev (out_byte rev cur)) (cur ++ repeat false (8 - List.length cur)) && (out_byte rev cur <? 256)%N) 8); auto.
    destruct rev; vm_compute; reflexivity. }
  apply andb_true_iff in H as [H1 H2]. apply bools_eqb_eq in H1. apply N.ltb_lt in H2. auto.
Qed.

(** The state of a writer: what has arrived, and the bits of the unfinished byte. *)
Definition bw_holds {W} (out : W -> bytes) (w0 : W) (rev : bool) (w : bitwriter W) (bits : list bool) : Prop :=
  bw_err w = false /\ bw_reverse w = rev /\
  exists bs cur, out (bw_out w) = out w0 ++ bs /\ Forall is_byte bs /\ bits = stream_bits rev bs ++ cur /\
                 List.length cur <= 7 /\ bw_pos w = List.length cur /\ bw_buf w = partial_byte cur.

Lemma stream_bits_snoc : forall rev bs b, stream_bits rev (bs ++ [b]) = stream_bits rev bs ++ byte_bits rev b.
Proof. intros. unfold stream_bits. rewrite map_app, concat_app. simpl. rewrite app_nil_r. reflexivity. Qed.

Lemma bits_write1_ok : forall W (put : write_fn W) out, honest put out -> forall w0 rev w bits b,
  bw_holds out w0 rev w bits ->
  let '(ok, w') := bits_write1 put w b in
  if ok then bw_holds out w0 rev w' (bits ++ [b]) else bw_err w' = true.
Proof.
  intros W put out Hh w0 rev w bits b (He & Hr & bs & cur & Ho & Hf & Hb & Hc & Hp & Hbuf).
  unfold bits_write1. rewrite He. cbn [bw_pos bw_err bw_out bw_reverse bw_buf].
  rewrite Hp, Hbuf, partial_step by exact Hc. destruct (Nat.eqb (S (List.length cur)) 8) eqn:E8.
  - apply Nat.eqb_eq in E8. unfold bits_flush. cbn [bw_pos bw_err bw_out bw_reverse bw_buf].
    rewrite Hr. fold (out_byte rev (cur ++ [b])).
    destruct (out_byte_bits rev (cur ++ [b])) as [Hbits Hbyte]; [rewrite app_length; simpl; lia|].
    pose proof (Hh (bw_out w) [out_byte rev (cur ++ [b])]) as Hw.
    destruct (put (bw_out w) [out_byte rev (cur ++ [b])]) as [n o].
    destruct (Z.eqb_spec n 1) as [->|Hn]; simpl; [|auto].
    destruct Hw as [[Hw _]|[_ Hw]]; [lia|]. split; [reflexivity|]. split; [reflexivity|].
    exists (bs ++ [out_byte rev (cur ++ [b])]), []. simpl.
    split; [rewrite Hw, Ho, <- app_assoc; reflexivity|].
    split; [apply Forall_app; auto|]. split; [|repeat split; auto; lia].
    rewrite stream_bits_snoc, Hbits, Hb, app_nil_r, <- !app_assoc. f_equal.
    assert (E0 : 8 - List.length (cur ++ [b]) = 0) by (rewrite app_length; cbn [List.length]; lia).
    rewrite E0. reflexivity.
  - apply Nat.eqb_neq in E8. split; [reflexivity|]. split; [exact Hr|].
    exists bs, (cur ++ [b]). cbn [bw_out bw_pos bw_buf]. split; [exact Ho|]. split; [exact Hf|].
    split; [rewrite Hb, <- app_assoc; reflexivity|]. rewrite app_length. simpl. repeat split; lia.
Qed.

(** Writing the bits one by one, whatever each call answers, then closing. *)
Definition write_all {W} (put : write_fn W) (w : W) (rev : bool) (bits : list bool) : bool * W :=
  bits_closewriter put (fold_left (fun s b => snd (bits_write1 put s b)) bits (bits_newwriter w rev)).

(** On every writer: if closing reports success, the bytes written hold exactly
    the bits, in the chosen order, the last byte filled up with zeros. *)
Theorem C80_writer : forall W (put : write_fn W) out, honest put out -> forall w rev bits w',
  write_all put w rev bits = (true, w') ->
  exists bs pad, out w' = out w ++ bs /\ Forall is_byte bs /\ pad < 8 /\
                 stream_bits rev bs = bits ++ repeat false pad.
Proof.
  intros W put out Hh w rev bits w' H. unfold write_all in H.
  assert (Hall : forall bits s pre, (bw_holds out w rev s pre \/ bw_err s = true) ->
     bw_holds out w rev (fold_left (fun s b => snd (bits_write1 put s b)) bits s) (pre ++ bits) \/
     bw_err (fold_left (fun s b => snd (bits_write1 put s b)) bits s) = true).
  { clear bits H. induction bits as [|b bits IH]; intros s pre Hs; simpl; [rewrite app_nil_r; exact Hs|].
    replace (pre ++ b :: bits) with ((pre ++ [b]) ++ bits) by (rewrite <- app_assoc; reflexivity). apply IH.
    destruct Hs as [Hs|Hs].
    - pose proof (bits_write1_ok W put out Hh w rev s pre b Hs) as H1.
      destruct (bits_write1 put s b) as [[|] s']; simpl; auto.
    - right. unfold bits_write1. rewrite Hs. exact Hs. }
  assert (Hnew : bw_holds out w rev (bits_newwriter w rev) []).
  { split; [reflexivity|]. split; [reflexivity|]. exists [], []. rewrite app_nil_r. simpl. repeat split; auto; lia. }
  specialize (Hall bits (bits_newwriter w rev) [] (or_introl Hnew)). simpl app in Hall.
  set (s := fold_left (fun s b => snd (bits_write1 put s b)) bits (bits_newwriter w rev)) in *.
  unfold bits_closewriter in H. destruct Hall as [(He & Hr & bs & cur & Ho & Hf & Hb & Hc & Hp & Hbuf)|He].
  - rewrite He, Hp in H. destruct cur as [|c cur].
    + simpl in H. rewrite He in H. injection H as <-. exists bs, 0. simpl. rewrite app_nil_r in *.
      repeat split; auto; lia.
    + simpl in H. unfold bits_flush in H. rewrite Hr, Hbuf in H. fold (out_byte rev (c :: cur)) in H.
      destruct (out_byte_bits rev (c :: cur)) as [Hbits Hbyte]; [simpl in *; lia|].
      pose proof (Hh (bw_out s) [out_byte rev (c :: cur)]) as Hw.
      destruct (put (bw_out s) [out_byte rev (c :: cur)]) as [n o].
      destruct (Z.eqb_spec n 1) as [->|Hn]; simpl in H; [|discriminate].
      rewrite He in H. injection H as <-. destruct Hw as [[Hw _]|[_ Hw]]; [lia|].
      exists (bs ++ [out_byte rev (c :: cur)]), (8 - List.length (c :: cur)).
      split; [rewrite Hw, Ho, <- app_assoc; reflexivity|]. split; [apply Forall_app; auto|].
      split; [simpl List.length; lia|]. rewrite stream_bits_snoc, Hbits, Hb, <- app_assoc. reflexivity.
  - rewrite He in H. rewrite andb_false_r in H. rewrite He in H. discriminate.
Qed.

(** * Reading bits *)

(** The bits still to come. *)
Definition bits_left {R} (rest : R -> bytes) (rev : bool) (s : bitreader R) (bits : list bool) : Prop :=
  br_reverse s = rev /\ br_rem s <= 7 /\ is_byte (br_byte s) /\ Forall is_byte (rest (br_in s)) /\
  bits = skipn (8 - br_rem s) (byte_bits rev (br_byte s)) ++ stream_bits rev (rest (br_in s)).

Lemma byte_bit_pos : forall rev b rem, is_byte b -> rem <= 7 ->
  skipn (8 - S rem) (byte_bits rev b) =
  (0 <? (if rev then N.land b (bitval rem) else N.land b (bitval (7 - rem))))%N :: skipn (8 - rem) (byte_bits rev b).
Proof.
  intros rev b rem Hb Hr.
  apply bools_eqb_eq.
  apply (all_bytes (fun b => bools_eqb (skipn (8 - S rem) (byte_bits rev b))
     ((0 <? (if rev then N.land b (bitval rem) else N.land b (bitval (7 - rem))))%N :: skipn (8 - rem) (byte_bits rev b)))); auto.
  destruct rev; do 8 (destruct rem as [|rem]; [vm_compute; reflexivity|]); lia.
Qed.

Lemma bits_read1_ok : forall R (get : read_fn R) rest, steady get rest -> ends get rest -> forall rev s bits,
  bits_left rest rev s bits ->
  let '(c, s') := bits_read1 get s in
  match bits with
  | b :: r => c = (if b then 1 else 0)%Z /\ bits_left rest rev s' r
  | [] => c = (-1)%Z /\ bits_left rest rev s' []
  end.
Proof.
  intros R get rest Hs He rev s bits (Hrev & Hrem & Hbyte & Hall & Hbits).
  assert (Hstep : forall r b rem, is_byte b -> rem <= 7 -> Forall is_byte (rest r) ->
    forall bits, bits = skipn (8 - S rem) (byte_bits rev b) ++ stream_bits rev (rest r) ->
    match bits with
    | x :: t => (if (0 <? (if rev then N.land b (bitval rem) else N.land b (bitval (7 - rem))))%N then 1 else 0)%Z
                = (if x then 1 else 0)%Z /\ bits_left rest rev (mkBitr r b rem rev) t
    | [] => False
    end).
  { intros r b rem H1 H2 H3 bits0 ->. rewrite byte_bit_pos by assumption. simpl. split; [reflexivity|].
    split; [reflexivity|]. split; [exact H2|]. split; [exact H1|]. split; [exact H3|reflexivity]. }
  unfold bits_read1. destruct (Nat.eqb (br_rem s) 0) eqn:E0.
  - apply Nat.eqb_eq in E0. rewrite E0 in Hbits. simpl in Hbits.
    destruct (rest (br_in s)) as [|b l] eqn:El.
    + unfold stream_bits in Hbits. simpl in Hbits.
      assert (Hbits0 : bits = []) by (rewrite Hbits; destruct rev; reflexivity). clear Hbits. subst bits.
      specialize (He (br_in s) 1 El). destruct (get (br_in s) 1) as [[n d] r]. destruct He as [Hn Hr].
      destruct (Z.ltb_spec n 0); [|lia]. split; [reflexivity|].
      split; [exact Hrev|]. split; [exact Hrem|]. split; [exact Hbyte|]. cbn [br_in br_byte br_rem]. rewrite Hr. split; [constructor|].
      rewrite E0. destruct rev; reflexivity.
    + specialize (Hs (br_in s) 1 ltac:(lia)). rewrite El in Hs. specialize (Hs ltac:(discriminate)).
      destruct (get (br_in s) 1) as [[n d] r]. simpl in Hs. destruct Hs as (-> & -> & Hr).
      cbn [List.length]. change (Z.of_nat 1 <? 0)%Z with false. cbv iota. cbn [br_rem br_reverse br_byte br_in].
      pose proof (Forall_inv Hall) as H1. pose proof (Forall_inv_tail Hall) as H2. rewrite <- Hr in H2.
      pose proof (Hstep r b 7 H1 (le_n 7) H2) as Hst. rewrite Hr in Hst. simpl (8 - 8) in Hst.
      specialize (Hst (byte_bits rev b ++ stream_bits rev l) eq_refl).
      rewrite Hrev. assert (Hbits2 : bits = byte_bits rev b ++ stream_bits rev l).
      { rewrite Hbits. unfold stream_bits. simpl. destruct rev; reflexivity. }
      rewrite Hbits2. simpl (8 - 1). destruct (byte_bits rev b ++ stream_bits rev l); [contradiction|exact Hst].
  - apply Nat.eqb_neq in E0. destruct (br_rem s) as [|rem] eqn:Er; [lia|].
    simpl (S rem - 1). rewrite Nat.sub_0_r.
    pose proof (Hstep (br_in s) (br_byte s) rem Hbyte ltac:(lia) Hall bits Hbits) as Hst. rewrite Hrev.
    destruct bits; [contradiction|exact Hst].
Qed.

Fixpoint read_bits {R} (get : read_fn R) (s : bitreader R) (n : nat) : list Z :=
  match n with
  | O => []
  | S m => let '(c, s') := bits_read1 get s in c :: read_bits get s' m
  end.

Definition bit_answers (bits : list bool) (n : nat) : list Z :=
  firstn n (List.map (fun b : bool => if b then 1 else 0)%Z bits ++ repeat (-1)%Z (n - List.length bits)).

Lemma newreader_left : forall R (rest : R -> bytes) r rev, Forall is_byte (rest r) ->
  bits_left rest rev (bits_newreader r rev) (stream_bits rev (rest r)).
Proof.
  intros R rest r rev H. split; [reflexivity|]. split; [simpl; lia|]. split; [unfold is_byte; simpl; lia|].
  split; [exact H|]. destruct rev; reflexivity.
Qed.

(** On every reader that reports its end: the bits of the bytes come one by one,
    in the chosen order, then -1 for ever. *)
Theorem C80_reader : forall R (get : read_fn R) rest, steady get rest -> ends get rest ->
  forall r rev n, Forall is_byte (rest r) ->
  read_bits get (bits_newreader r rev) n = bit_answers (stream_bits rev (rest r)) n.
Proof.
  intros R get rest Hs He r rev n Hb.
  enough (H : forall n s bits, bits_left rest rev s bits -> read_bits get s n = bit_answers bits n)
    by (apply H; apply newreader_left; exact Hb).
  clear n. induction n as [|n IH]; intros s bits Hl; [reflexivity|]. cbn [read_bits].
  pose proof (bits_read1_ok R get rest Hs He rev s bits Hl) as H1. destruct (bits_read1 get s) as [c s'].
  destruct bits as [|b bits].
  - destruct H1 as [-> H1]. rewrite (IH s' [] H1). unfold bit_answers. simpl. rewrite Nat.sub_0_r. reflexivity.
  - destruct H1 as [-> H1]. rewrite (IH s' bits H1). unfold bit_answers. simpl. reflexivity.
Qed.

(** [readn] gives the number that the next bits form, most significant first, or
    -1 when there are not enough (numbers up to 31 bits, so that int does not
    overflow). *)
Theorem C80_readn : forall R (get : read_fn R) rest, steady get rest -> ends get rest ->
  forall r rev skip n, Forall is_byte (rest r) -> n <= 31 ->
  let '(_, s) := bits_readn get (bits_newreader r rev) skip 0 in
  let bits := skipn skip (stream_bits rev (rest r)) in
  fst (bits_readn get s n 0) = if Nat.leb n (List.length bits) then bits_value (firstn n bits) else (-1)%Z.
Proof.
  intros R get rest Hs He r rev skip n Hb _.
  assert (H : forall n s bits v, (0 <= v)%Z -> bits_left rest rev s bits ->
    let '(x, s') := bits_readn get s n v in
    bits_left rest rev s' (skipn n bits) /\
    x = if Nat.leb n (List.length bits) then fold_left (fun v (b : bool) => 2 * v + (if b then 1 else 0))%Z (firstn n bits) v else (-1)%Z).
  { clear n. induction n as [|n IH]; intros s bits v Hv Hl; cbn [bits_readn]; [simpl; auto|].
    pose proof (bits_read1_ok R get rest Hs He rev s bits Hl) as H1. destruct (bits_read1 get s) as [c s'].
    destruct bits as [|b bits].
    - destruct H1 as [-> H1]. simpl. auto.
    - destruct H1 as [-> H1]. replace ((if b then 1 else 0) <? 0)%Z with false by (destruct b; reflexivity).
      specialize (IH s' bits (v * 2 + (if b then 1 else 0))%Z ltac:(destruct b; lia) H1).
      destruct (bits_readn get s' n (v * 2 + (if b then 1 else 0))%Z) as [x s2]. simpl. rewrite (Z.mul_comm v 2) in IH. exact IH. }
  pose proof (H skip (bits_newreader r rev) _ 0%Z ltac:(lia) (newreader_left R rest r rev Hb)) as H1.
  destruct (bits_readn get (bits_newreader r rev) skip 0) as [x s]. destruct H1 as [H1 _].
  pose proof (H n s _ 0%Z ltac:(lia) H1) as H2. destruct (bits_readn get s n 0) as [y s2]. simpl. apply H2.
Qed.

(** Reading what was written gives the bits back. *)
Corollary C80_round_trip : forall W (put : write_fn W) out, honest put out -> forall w rev bits w',
  out w = [] -> write_all put w rev bits = (true, w') ->
  exists pad, pad < 8 /\
  forall n, read_bits file_read (bits_newreader (out w') rev) n = bit_answers (bits ++ repeat false pad) n.
Proof.
  intros W put out Hh w rev bits w' Hw H.
  destruct (C80_writer W put out Hh w rev bits w' H) as (bs & pad & H1 & H2 & H3 & H4).
  exists pad. split; [exact H3|]. intros n. rewrite H1, Hw. simpl.
  destruct readers_steady as (_ & Hs & He).
  rewrite (C80_reader _ file_read _ Hs He bs rev n H2), H4. reflexivity.
Qed.

(** A bit reader on a memory buffer never reports the end: it repeats the last
    byte. *)
Theorem C80_memory_end_refuted : exists data, data <> [] /\ forall n,
  read_bits mem_read (bits_newreader data false) n = repeat 1%Z n.
Proof.
  exists [255]%N. split; [discriminate|]. intros n.
  assert (H : forall n i rem, (i = [] \/ i = [255]%N) -> rem <= 7 ->
     read_bits mem_read (mkBitr i 255%N rem false) n = repeat 1%Z n).
  { clear n. induction n as [|n IH]; intros i rem H3 H4; [reflexivity|]. cbn [read_bits repeat].
    unfold bits_read1. cbn [br_rem br_byte br_in br_reverse]. destruct rem as [|rem]; cbn [Nat.eqb].
    - destruct H3 as [->| ->]; simpl; f_equal; apply IH; auto.
    - cbn [br_rem br_byte br_in br_reverse]. simpl (S rem - 1). rewrite Nat.sub_0_r.
      assert (Hb : (0 <? N.land 255 (bitval (7 - rem)))%N = true).
      { do 7 (destruct rem as [|rem]; [reflexivity|]). lia. }
      rewrite Hb. f_equal. apply IH; auto. lia. }
  assert (H0 : read_bits mem_read (bits_newreader [255]%N false) n = read_bits mem_read (mkBitr [255]%N 255%N 0 false) n)
    by (destruct n; reflexivity).
  etransitivity; [exact H0|]. apply H; auto. lia.
Qed.

(** The bits of one byte, in both orders. *)
Theorem C80_getbits : forall b, is_byte b ->
  getbits_lsfirst b = byte_bits true b /\ getbits_msfirst b = byte_bits false b.
Proof.
  intros b Hb.
  pose proof (all_bytes (fun b => bools_eqb (getbits_lsfirst b) (byte_bits true b) && bools_eqb (getbits_msfirst b) (byte_bits false b))
    ltac:(vm_compute; reflexivity) b Hb) as H. apply andb_prop in H as [H1 H2].
  split; apply bools_eqb_eq; assumption.
Qed.

Example C80_case : exists w', write_all mem_write (static_buffer 2) true [true;true;false;false;true;false;false;false;true] = (true, w') /\
  mb_data w' = [19;1]%N /\
  read_bits file_read (bits_newreader (mb_data w') true) 18 = [1;1;0;0;1;0;0;0;1;0;0;0;0;0;0;0;-1;-1]%Z /\
  fst (write_all mem_write (static_buffer 1) true [true;true;false;false;true;false;false;false;true]) = false.
Proof. eexists. repeat split; reflexivity. Qed.

Print Assumptions mem_write_honest.
Print Assumptions readers_steady.
Print Assumptions C78_hex_reads_back.
Print Assumptions C78_hex_complete.
Print Assumptions C78_url_reads_back.
Print Assumptions C79_writers.
Print Assumptions C79_readers.
Print Assumptions C79_round_trip.
Print Assumptions C80_writer.
Print Assumptions C80_reader.
Print Assumptions C80_readn.
Print Assumptions C80_round_trip.
Print Assumptions C80_memory_end_refuted.
Print Assumptions C80_getbits.
