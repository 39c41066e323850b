(** C82: writing and reading bencode. *)
From Coq Require Import ZArith Lia.
From Verif Require Import LibBase LibIO LibText SpecText.

(** * The user's programs *)

(** Write a value with begin, num, buf and end, and stop at the first failure. *)
Definition andthen (x : option (bool * bwriter)) (f : bwriter -> option (bool * bwriter)) : option (bool * bwriter) :=
  match x with Some (true, w) => f w | _ => x end.
Fixpoint write_value (v : bvalue) (w : bwriter) : option (bool * bwriter) :=
  match v with
  | BNum n => bw_num w n
  | BStr s => bw_buf_ w s
  | BList l => andthen (bw_begin w 108%N) (fun w =>
      andthen ((fix go l w := match l with [] => Some (true, w) | v :: r => andthen (write_value v w) (go r) end) l w)
      (fun w => Some (bw_end w)))
  | BDict l => andthen (bw_begin w 100%N) (fun w =>
      andthen ((fix go (l : list (bytes * bvalue)) w :=
                  match l with [] => Some (true, w)
                  | (k, v) :: r => andthen (bw_buf_ w k) (fun w => andthen (write_value v w) (go r)) end) l w)
      (fun w => Some (bw_end w)))
  end.

(** Read a value by its type, strings into buffers of the size that strsize
    gives, lists and dictionaries while there is more. *)
Definition read_string (r : breader) : bres (bytes * breader) :=
  rbind (rb_strsize r) (fun n => rb_readbuf r (Z.to_nat n)).
Fixpoint read_value (f : nat) (r : breader) : bres (bvalue * breader) :=
  match f with
  | O => RFuel
  | S f =>
      let t := rb_type r in
      if (t =? 0)%Z then RPanic
      else if (t =? 105)%Z then rbind (rb_readnum r) (fun '(n, r) => ROk (BNum n, r))
      else if (t =? 108)%Z then
        rbind (rb_enter r) (fun r => rbind (read_items f r) (fun '(l, r) => rbind (rb_leave r) (fun r => ROk (BList l, r))))
      else if (t =? 100)%Z then
        rbind (rb_enter r) (fun r => rbind (read_entries f r) (fun '(l, r) => rbind (rb_leave r) (fun r => ROk (BDict l, r))))
      else rbind (read_string r) (fun '(s, r) => ROk (BStr s, r))
  end
with read_items (f : nat) (r : breader) : bres (list bvalue * breader) :=
  match f with
  | O => RFuel
  | S f =>
      if rb_more r then
        rbind (read_value f r) (fun '(v, r) => rbind (read_items f r) (fun '(l, r) => ROk (v :: l, r)))
      else ROk ([], r)
  end
with read_entries (f : nat) (r : breader) : bres (list (bytes * bvalue) * breader) :=
  match f with
  | O => RFuel
  | S f =>
      if rb_more r then
        rbind (read_string r) (fun '(k, r) =>
        rbind (read_value f r) (fun '(v, r) => rbind (read_entries f r) (fun '(l, r) => ROk ((k, v) :: l, r))))
      else ROk ([], r)
  end.

(** * Induction over values *)
Section Ind.
  Variable P : bvalue -> Prop.
  Hypothesis Hn : forall n, P (BNum n).
  Hypothesis Hs : forall s, P (BStr s).
  Hypothesis Hl : forall l, Forall P l -> P (BList l).
  Hypothesis Hd : forall l, Forall (fun kv => P (snd kv)) l -> P (BDict l).
  Fixpoint bvalue_ind' (v : bvalue) : P v :=
    match v with
    | BNum n => Hn n
    | BStr s => Hs s
    | BList l => Hl l ((fix go l : Forall P l :=
        match l with [] => Forall_nil _ | v :: r => Forall_cons _ (bvalue_ind' v) (go r) end) l)
    | BDict l => Hd l ((fix go l : Forall (fun kv => P (snd kv)) l :=
        match l with [] => Forall_nil _ | kv :: r => Forall_cons _ (bvalue_ind' (snd kv)) (go r) end) l)
    end.
End Ind.

(** * Decimal digits *)
Lemma digits_from : forall ds v,
  fold_left (fun v d => (10 * v + Z.of_N (d - 48))%Z) ds v = (v * 10 ^ Z.of_nat (List.length ds) + digits_value ds)%Z.
Proof.
  unfold digits_value. induction ds as [|d ds IH]; intros v; cbn [fold_left List.length].
  - change (10 ^ Z.of_nat 0)%Z with 1%Z. lia.
  - rewrite IH, (IH (10 * 0 + Z.of_N (d - 48))%Z), Nat2Z.inj_succ, Z.pow_succ_r by lia. ring.
Qed.

(** * The writer *)
Definition room (w : bwriter) (e : bytes) : Prop := List.length (wb_data w) + List.length e <= wb_size w.
Definition writes (op : bwriter -> option (bool * bwriter)) (e : bytes) : Prop :=
  forall w, List.length (wb_data w) <= wb_size w ->
    (room w e -> op w = Some (true, mkBwriter (wb_data w ++ e) (wb_size w))) /\
    (~ room w e -> exists w', op w = Some (false, w')).

Lemma writes_byte : forall b, writes (fun w => Some (bw_byte w b)) [b].
Proof.
  intros b w _. unfold bw_byte, room. cbn [List.length].
  destruct (Nat.leb_spec (wb_size w) (List.length (wb_data w))).
  - split; [lia|eauto].
  - split; [auto|lia].
Qed.

Lemma writes_nil : writes (fun w => Some (true, w)) [].
Proof.
  intros [d s] H. unfold room. cbn [wb_data wb_size List.length] in *. rewrite app_nil_r. split; [auto|lia].
Qed.

Lemma writes_seq : forall f g a b, writes f a -> writes g b -> writes (fun w => andthen (f w) g) (a ++ b).
Proof.
  intros f g a b Hf Hg w Hw. unfold room. rewrite app_length. destruct (Hf w Hw) as [F1 F2].
  assert (Hg' : List.length (wb_data w) + List.length a <= wb_size w -> _)
    by (intros H; refine (Hg (mkBwriter (wb_data w ++ a) (wb_size w)) _); cbn [wb_data wb_size]; rewrite app_length; exact H).
  unfold room in Hg'. cbn [wb_data wb_size] in Hg'. rewrite app_length in Hg'. split.
  - intros H. rewrite F1 by (unfold room; lia). cbn [andthen].
    destruct Hg' as [G1 _]; [lia|]. rewrite G1 by lia. rewrite <- app_assoc. reflexivity.
  - intros H. destruct (le_lt_dec (List.length (wb_data w) + List.length a) (wb_size w)) as [Hle|Hle].
    + rewrite F1 by exact Hle. cbn [andthen]. destruct Hg' as [_ G2]; [lia|]. apply G2. lia.
    + destruct F2 as [w' ->]; [unfold room; lia|]. simpl. eauto.
Qed.

Lemma writes_ext : forall f g e, (forall w, f w = g w) -> writes f e -> writes g e.
Proof. intros f g e H Hf w. rewrite <- H. apply Hf. Qed.

Lemma writes_bytes : forall d, writes (fun w => Some (bw_bytes w d)) d.
Proof.
  induction d as [|b d IH]; [exact writes_nil|].
  apply writes_ext with (f := fun w => andthen (Some (bw_byte w b)) (fun w => Some (bw_bytes w d))).
  - intros w. cbn [bw_bytes]. destruct (bw_byte w b) as [[|] w']; reflexivity.
  - apply (writes_seq _ _ [b] d); [apply writes_byte|exact IH].
Qed.

Lemma magnitude_spec : forall f k n, (0 <= n)%Z -> (k = 0 \/ (10 ^ Z.of_nat k <= n)%Z) -> (n < 10 ^ Z.of_nat (k + f + 1)%nat)%Z ->
  exists k', magnitude f (10 ^ Z.of_nat k) n = (10 ^ Z.of_nat k')%Z /\ k <= k' <= k + f /\
    (n < 10 ^ Z.of_nat (S k'))%Z /\ (k' = 0 \/ (10 ^ Z.of_nat k' <= n)%Z).
Proof.
  induction f as [|f IH]; intros k n Hn Hk Hb; cbn [magnitude].
  - exists k. split; [reflexivity|]. split; [lia|]. split; [|exact Hk]. replace (S k) with (k + 0 + 1) by lia. exact Hb.
  - assert (E : (10 ^ Z.of_nat k * 10 = 10 ^ Z.of_nat (S k))%Z) by (rewrite Nat2Z.inj_succ, Z.pow_succ_r by lia; ring).
    destruct (Z.leb_spec (10 ^ Z.of_nat k * 10) n) as [H|H].
    + rewrite E in *. destruct (IH (S k) n Hn) as (k' & H1 & H2 & H3 & H4).
      * right. exact H.
      * replace (S k + f + 1) with (k + S f + 1) by lia. exact Hb.
      * exists k'. split; [exact H1|]. split; [lia|]. auto.
    + exists k. split; [reflexivity|]. split; [lia|]. rewrite <- E. auto.
Qed.

(** The digits of the lowest k+1 places of n. *)
Lemma write_digits_spec : forall k f n, (0 <= n)%Z -> k + 1 < f -> exists ds,
  List.length ds = S k /\ Forall (fun d => (48 <= d <= 57)%N) ds /\
  digits_value ds = (n mod 10 ^ Z.of_nat (S k))%Z /\
  writes (fun w => write_digits f w n (n mod 10 ^ Z.of_nat (S k)) (10 ^ Z.of_nat k)) ds.
Proof.
  induction k as [|k IH]; intros f n Hn Hf; destruct f as [|f]; try lia.
  - change (10 ^ Z.of_nat 1)%Z with 10%Z. change (10 ^ Z.of_nat 0)%Z with 1%Z.
    pose proof (Z.mod_pos_bound n 10 ltac:(lia)) as Hm.
    exists [(48 + Z.to_N (n mod 10))%N]. split; [reflexivity|]. split; [constructor; [lia|constructor]|].
    split; [cbv [digits_value fold_left]; lia|].
    apply writes_ext with (f := fun w => Some (bw_byte w (48 + Z.to_N (n mod 10))%N)); [|apply writes_byte].
    intros w. cbn [write_digits]. change (1 >? 0)%Z with true. cbv iota. rewrite Z.div_1_r. unfold ascii_digit.
    destruct (Z.ltb_spec (n mod 10) 0); [lia|]. destruct (Z.ltb_spec 9 (n mod 10)); [lia|]. cbn [orb obind].
    change (1 / 10)%Z with 0%Z. destruct (bw_byte w (48 + Z.to_N (n mod 10))%N) as [[|] w']; [|reflexivity].
    destruct f; [lia|]. reflexivity.
  - set (m := (10 ^ Z.of_nat (S k))%Z).
    assert (Em : (10 ^ Z.of_nat (S (S k)) = m * 10)%Z) by (rewrite Nat2Z.inj_succ, Z.pow_succ_r by lia; unfold m; ring).
    assert (Hm0 : (0 < m)%Z) by (apply Z.pow_pos_nonneg; lia).
    assert (Em' : (m / 10 = 10 ^ Z.of_nat k)%Z).
    { unfold m. rewrite Nat2Z.inj_succ, Z.pow_succ_r by lia. rewrite Z.mul_comm, Z.div_mul by lia. reflexivity. }
    rewrite Em. set (q := (n mod (m * 10) / m)%Z).
    pose proof (Z.mod_pos_bound n (m * 10) ltac:(lia)) as Hb.
    assert (Hq : (0 <= q <= 9)%Z).
    { unfold q. split; [apply Z.div_pos; lia|]. apply Z.lt_succ_r. apply Z.div_lt_upper_bound; lia. }
    assert (Hmm : (n mod (m * 10) = q * m + n mod m)%Z).
    { unfold q. rewrite (Z.div_mod (n mod (m * 10)) m) at 1 by lia.
      assert (E : (n mod (m * 10) mod m = n mod m)%Z).
      { rewrite Z.rem_mul_r by lia. rewrite (Z.mul_comm m). rewrite Z_mod_plus_full, Zmod_mod. reflexivity. }
      rewrite E. lia. }
    destruct (IH f n Hn ltac:(lia)) as (ds & D1 & D2 & D3 & D4). fold m in D3, D4.
    exists ((48 + Z.to_N q)%N :: ds). split; [simpl; lia|]. split; [constructor; [lia|exact D2]|]. split.
    { unfold digits_value. cbn [fold_left]. rewrite digits_from, D1, D3. fold m. lia. }
    apply writes_ext with (f := fun w => andthen (Some (bw_byte w (48 + Z.to_N q)%N)) (fun w => write_digits f w n (n mod m) (10 ^ Z.of_nat k))).
    + intros w. cbn [write_digits]. destruct (Z.gtb_spec m 0); [|lia]. fold q. unfold ascii_digit.
      destruct (Z.ltb_spec q 0); [lia|]. destruct (Z.ltb_spec 9 q); [lia|]. cbn [orb obind]. rewrite Em'.
      destruct (bw_byte w (48 + Z.to_N q)%N) as [[|] w']; reflexivity.
    + apply (writes_seq _ _ [_] ds); [apply writes_byte|exact D4].
Qed.

Lemma writes_natural : forall n, (0 <= n <= 2147483647)%Z -> exists ds, natural n ds /\
  writes (fun w => write_digits 25 w n n (magnitude 20 1 n)) ds.
Proof.
  intros n Hn.
  destruct (magnitude_spec 20 0 n ltac:(lia) (or_introl eq_refl)) as (k & K1 & K2 & K3 & K4).
  { change (10 ^ Z.of_nat (0 + 20 + 1))%Z with 1000000000000000000000%Z. lia. }
  change (10 ^ Z.of_nat 0)%Z with 1%Z in K1. rewrite K1.
  destruct (write_digits_spec k 25 n ltac:(lia) ltac:(lia)) as (ds & D1 & D2 & D3 & D4).
  rewrite (Z.mod_small n) in D3, D4 by lia. exists ds. split; [|exact D4].
  split; [intros ->; discriminate|]. split; [exact D2|]. split; [exact D3|].
  intros t ->. destruct K4 as [->|K4]; [destruct t; [reflexivity|discriminate]|].
  exfalso. unfold digits_value in D3. cbn [fold_left] in D3. rewrite digits_from in D3.
  change (10 * 0 + Z.of_N (48 - 48))%Z with 0%Z in D3.
  simpl in D1. injection D1 as D1. apply Forall_inv_tail in D2.
  assert (Hlt : forall ds, Forall (fun d => (48 <= d <= 57)%N) ds -> (0 <= digits_value ds < 10 ^ Z.of_nat (List.length ds))%Z).
  { clear. induction 1 as [|d ds Hd _ IH]; [cbv; split; [discriminate|reflexivity]|].
    unfold digits_value. cbn [fold_left List.length]. rewrite digits_from, Nat2Z.inj_succ, Z.pow_succ_r by lia. nia. }
  specialize (Hlt t D2). rewrite D1 in Hlt. lia.
Qed.

Lemma writes_num_digits : forall n, (-2147483648 < n <= 2147483647)%Z -> exists ds, decimal n ds /\
  writes (fun w => bw_writenum w n) ds.
Proof.
  intros n Hn. unfold bw_writenum. destruct (Z.leb_spec n (-2147483648)); [lia|].
  destruct (Z.ltb_spec 2147483647 n); [lia|]. cbn [orb].
  destruct (Z.ltb_spec n 0) as [Hneg|Hpos].
  - destruct (writes_natural (- n) ltac:(lia)) as (ds & D1 & D2). exists (45%N :: ds). split.
    + replace n with (- - n)%Z by lia. constructor; [lia|exact D1].
    + apply writes_ext with (f := fun w => andthen (Some (bw_byte w 45%N)) (fun w => write_digits 25 w (- n) (- n) (magnitude 20 1 (- n)))).
      * intros w. destruct (bw_byte w 45%N) as [[|] w']; reflexivity.
      * apply (writes_seq _ _ [45%N] ds); [apply writes_byte|exact D2].
  - destruct (writes_natural n ltac:(lia)) as (ds & D1 & D2). exists ds. split; [constructor; exact D1|exact D2].
Qed.

Lemma natural_nonneg : forall n ds, natural n ds -> (0 <= n)%Z.
Proof.
  intros n ds (_ & H & <- & _). unfold digits_value. rewrite <- (Z.mul_0_l 1).
  assert (G : forall v, (0 <= v)%Z -> (0 <= fold_left (fun v d => (10 * v + Z.of_N (d - 48))%Z) ds v)%Z).
  { clear. induction ds as [|d ds IH]; intros v Hv; [exact Hv|]. cbn [fold_left]. apply IH. lia. }
  apply G. lia.
Qed.

Lemma writes_str : forall s, (Z.of_nat (List.length s) <= 2147483647)%Z -> exists e, encodes_str s e /\
  writes (fun w => bw_buf_ w s) e.
Proof.
  intros s Hs. destruct (writes_num_digits (Z.of_nat (List.length s)) ltac:(lia)) as (ds & D1 & D2).
  exists (ds ++ 58%N :: s). split.
  - constructor. remember (Z.of_nat (List.length s)) as z. inversion D1; subst; [assumption|].
    lia.
  - apply writes_ext with (f := fun w => andthen (bw_writenum w (Z.of_nat (List.length s))) (fun w =>
       andthen (Some (bw_byte w 58%N)) (fun w => Some (bw_bytes w s)))).
    + intros w. unfold bw_buf_. destruct (bw_writenum w (Z.of_nat (List.length s))) as [[[|] w']|]; cbn [andthen obind]; auto.
      destruct (bw_byte w' 58%N) as [[|] w'']; reflexivity.
    + apply writes_seq; [exact D2|]. apply (writes_seq _ _ [58%N] s); [apply writes_byte|apply writes_bytes].
Qed.

Lemma writes_value : forall v, fits v -> exists e, encodes v e /\ writes (write_value v) e.
Proof.
  induction v as [n|s|l IH|l IH] using bvalue_ind'; intros Hf.
  - inversion Hf; subst. destruct (writes_num_digits n ltac:(assumption)) as (ds & D1 & D2).
    exists (105%N :: ds ++ [101%N]). split; [constructor; exact D1|].
    apply writes_ext with (f := fun w => andthen (Some (bw_byte w 105%N)) (fun w => andthen (bw_writenum w n) (fun w => Some (bw_byte w 101%N)))).
    + intros w. cbn [write_value]. unfold bw_num. destruct (bw_byte w 105%N) as [[|] w']; cbn [andthen]; auto.
      destruct (bw_writenum w' n) as [[[|] w'']|]; reflexivity.
    + apply (writes_seq _ _ [105%N]); [apply writes_byte|]. apply writes_seq; [exact D2|apply writes_byte].
  - inversion Hf; subst. destruct (writes_str s ltac:(assumption)) as (e & E1 & E2). exists e. split; [constructor; exact E1|exact E2].
  - inversion Hf; subst.
    assert (H : exists e, encodes_list l e /\ writes ((fix go l w := match l with [] => Some (true, w) | v :: r => andthen (write_value v w) (go r) end) l) e).
    { clear Hf. induction l as [|v l IHl].
      - exists []. split; [constructor|exact writes_nil].
      - destruct (Forall_inv IH (Forall_inv H0)) as (e & E1 & E2).
        destruct (IHl (Forall_inv_tail IH) (Forall_inv_tail H0)) as (e' & E3 & E4).
        exists (e ++ e'). split; [constructor; assumption|]. apply writes_seq; assumption. }
    destruct H as (e & E1 & E2). exists (108%N :: e ++ [101%N]). split; [constructor; exact E1|].
    cbn [write_value]. apply (writes_seq _ _ [108%N]); [apply writes_byte|]. apply writes_seq; [exact E2|apply writes_byte].
  - inversion Hf; subst.
    assert (H : exists e, encodes_dict l e /\ writes ((fix go (l : list (bytes * bvalue)) w :=
                  match l with [] => Some (true, w)
                  | (k, v) :: r => andthen (bw_buf_ w k) (fun w => andthen (write_value v w) (go r)) end) l) e).
    { clear Hf. induction l as [|[k v] l IHl].
      - exists []. split; [constructor|exact writes_nil].
      - destruct (Forall_inv IH (Forall_inv H1)) as (e & E1 & E2).
        destruct (writes_str k (Forall_inv H0)) as (ek & K1 & K2).
        destruct (IHl (Forall_inv_tail IH) (Forall_inv_tail H0) (Forall_inv_tail H1)) as (e' & E3 & E4).
        exists (ek ++ e ++ e'). split; [constructor; assumption|].
        apply writes_seq; [exact K2|]. apply writes_seq; [exact E2|exact E4]. }
    destruct H as (e & E1 & E2). exists (100%N :: e ++ [101%N]). split; [constructor; exact E1|].
    cbn [write_value]. apply (writes_seq _ _ [100%N]); [apply writes_byte|]. apply writes_seq; [exact E2|apply writes_byte].
Qed.

(** With room enough the buffer holds an encoding of the value; without, the
    writer says so. *)
Theorem C82_writer : forall v size, fits v -> exists e, encodes v e /\
  (List.length e <= size -> write_value v (bw_tobuf size) = Some (true, mkBwriter e size)) /\
  (size < List.length e -> exists w, write_value v (bw_tobuf size) = Some (false, w)).
Proof.
  intros v size Hf. destruct (writes_value v Hf) as (e & E1 & E2). exists e. split; [exact E1|].
  destruct (E2 (bw_tobuf size)) as [F1 F2]; [simpl; lia|]. split.
  - intros H. apply F1. exact H.
  - intros H. apply F2. unfold room. simpl. lia.
Qed.

(** * The reader *)

(** The reader after [pre] with [rest] to come. *)
Definition here (pre rest : bytes) (st : nat) : breader := mkBreader (pre ++ rest) (List.length pre) st.

Lemma here_nth : forall (pre rest : bytes), nth_error (pre ++ rest) (List.length pre) = nth_error rest 0.
Proof. intros. rewrite nth_error_app2, Nat.sub_diag by lia. reflexivity. Qed.
Lemma here_step : forall pre b rest st,
  mkBreader (pre ++ b :: rest) (S (List.length pre)) st = here (pre ++ [b]) rest st.
Proof. intros. unfold here. rewrite <- app_assoc, app_length. simpl. f_equal. lia. Qed.
Lemma peek_here : forall pre b rest st, rb_peek (here pre (b :: rest) st) = schar b.
Proof. intros. unfold rb_peek, here. simpl. rewrite here_nth. reflexivity. Qed.
Lemma pop_here : forall pre b rest st, rb_pop (here pre (b :: rest) st) = ROk (b, here (pre ++ [b]) rest st).
Proof. intros. unfold rb_pop. cbn [rb_data rb_pos rb_stack here]. rewrite here_nth. cbn [nth_error]. rewrite here_step. reflexivity. Qed.
Lemma consume_here : forall pre b rest st, rb_consume (here pre (b :: rest) st) b = ROk (here (pre ++ [b]) rest st).
Proof. intros. unfold rb_consume. rewrite pop_here. cbn [rbind]. rewrite N.eqb_refl. reflexivity. Qed.
Lemma pops_here : forall s pre rest st, rb_pops (List.length s) (here pre (s ++ rest) st) = ROk (s, here (pre ++ s) rest st).
Proof.
  induction s as [|b s IH]; intros; cbn [rb_pops List.length app].
  - rewrite app_nil_r. reflexivity.
  - rewrite pop_here. cbn [rbind]. rewrite IH. cbn [rbind]. rewrite <- app_assoc. reflexivity.
Qed.

Lemma digit_schar : forall d, (48 <= d <= 57)%N -> schar d = Z.of_N d /\ z_isdigit (schar d) = true.
Proof.
  intros d Hd. unfold schar. destruct (N.ltb_spec d 128); [|lia]. split; [reflexivity|].
  unfold z_isdigit. destruct (Z.leb_spec 48 (Z.of_N d)), (Z.leb_spec (Z.of_N d) 57); auto; lia.
Qed.

Lemma digits_grow : forall ds v, (0 <= v)%Z -> (v <= fold_left (fun v d => (10 * v + Z.of_N (d - 48))%Z) ds v)%Z.
Proof.
  induction ds as [|d ds IH]; intros v Hv; cbn [fold_left]; [lia|]. etransitivity; [|apply IH; lia]. lia.
Qed.

Lemma digits_here : forall ds pre c rest st f v, Forall (fun d => (48 <= d <= 57)%N) ds ->
  z_isdigit (schar c) = false -> List.length ds < f -> (0 <= v)%Z ->
  (fold_left (fun v d => (10 * v + Z.of_N (d - 48))%Z) ds v <= 2147483647)%Z ->
  rb_digits f (here pre (ds ++ c :: rest) st) v =
  ROk (fold_left (fun v d => (10 * v + Z.of_N (d - 48))%Z) ds v, here (pre ++ ds) (c :: rest) st).
Proof.
  induction ds as [|d ds IH]; intros pre c rest st f v Hd Hc Hf Hv Hmax; (destruct f as [|f]; [simpl in Hf; lia|]);
    cbn [rb_digits app fold_left].
  - rewrite peek_here, Hc, app_nil_r. reflexivity.
  - pose proof (Forall_inv Hd) as Hd1. cbv beta in Hd1. destruct (digit_schar d Hd1) as [_ E]. rewrite peek_here, E, pop_here. cbn [rbind].
    assert (En : num_from_ascii d = Z.of_N (d - 48)).
    { unfold num_from_ascii, c_isdigit. destruct (N.leb_spec 48 d), (N.leb_spec d 57); try lia; reflexivity. }
    rewrite En. replace (v * 10 + Z.of_N (d - 48))%Z with (10 * v + Z.of_N (d - 48))%Z by lia.
    cbn [fold_left] in Hmax. pose proof (digits_grow ds (10 * v + Z.of_N (d - 48)) ltac:(lia)).
    destruct (Z.ltb_spec 2147483647 (10 * v + Z.of_N (d - 48))); [lia|].
    rewrite IH; [|exact (Forall_inv_tail Hd)|exact Hc|simpl in Hf; lia|lia|exact Hmax]. rewrite <- app_assoc. reflexivity.
Qed.

Lemma natural_first : forall n ds, natural n ds -> exists d t, ds = d :: t /\ (48 <= d <= 57)%N.
Proof. intros n [|d t] (H1 & H2 & _); [contradiction|]. exists d, t. split; [reflexivity|]. exact (Forall_inv H2). Qed.

Lemma num_natural : forall n ds, natural n ds -> (n <= 2147483647)%Z -> forall pre c rest st, z_isdigit (schar c) = false ->
  rb_num (here pre (ds ++ c :: rest) st) = ROk (n, here (pre ++ ds) (c :: rest) st).
Proof.
  intros n ds Hn Hmax pre c rest st Hc. destruct (natural_first n ds Hn) as (d & t & E & Hd).
  destruct (digit_schar d Hd) as [E1 E2]. destruct Hn as (_ & H2 & H3 & _). unfold digits_value in H3.
  assert (Hp : rb_peek (here pre (ds ++ c :: rest) st) = schar d) by (rewrite E; apply peek_here).
  unfold rb_num. rewrite Hp. destruct (Z.eqb_spec (schar d) 45); [lia|]. cbn [rbind]. rewrite Hp, E2. cbn [negb].
  rewrite digits_here; [|exact H2|exact Hc| |lia|etransitivity; [apply Z.eq_le_incl; exact H3|lia]].
  - cbn [rbind]. rewrite H3. reflexivity.
  - cbn [here rb_data]. rewrite !app_length. simpl. lia.
Qed.

Lemma num_decimal : forall n ds, decimal n ds -> (-2147483648 < n <= 2147483647)%Z -> forall pre c rest st, z_isdigit (schar c) = false ->
  rb_num (here pre (ds ++ c :: rest) st) = ROk (n, here (pre ++ ds) (c :: rest) st).
Proof.
  intros n ds [n' ds' Hn|n' ds' H0 Hn] Hmax pre c rest st Hc; [apply num_natural; auto; lia|].
  destruct (natural_first n' ds' Hn) as (d & t & E & Hd).
  destruct (digit_schar d Hd) as [E1 E2]. destruct Hn as (_ & H2 & H3 & _). unfold digits_value in H3.
  unfold rb_num. cbn [app]. rewrite peek_here. change (schar 45%N =? 45)%Z with true. cbv iota. rewrite pop_here. cbn [rbind].
  assert (Hp : rb_peek (here (pre ++ [45%N]) (ds' ++ c :: rest) st) = schar d) by (rewrite E; apply peek_here).
  lazymatch goal with |- context [z_isdigit (rb_peek ?r)] => replace (rb_peek r) with (schar d) by (symmetry; exact Hp) end.
  rewrite E2. cbn [negb]. rewrite digits_here; [|exact H2|exact Hc| |lia|etransitivity; [apply Z.eq_le_incl; exact H3|lia]].
  - cbn [rbind]. rewrite H3, <- app_assoc. f_equal. f_equal. lia.
  - cbn [here rb_data]. rewrite !app_length. simpl. lia.
Qed.

Lemma readnum_here : forall n ds, decimal n ds -> (-2147483648 < n <= 2147483647)%Z -> forall pre rest st,
  rb_readnum (here pre ((105%N :: ds ++ [101%N]) ++ rest) st) = ROk (n, here (pre ++ 105%N :: ds ++ [101%N]) rest st).
Proof.
  intros n ds Hn Hmax pre rest st. unfold rb_readnum. cbn [app]. rewrite consume_here. cbn [rbind].
  rewrite <- app_assoc. cbn [app]. rewrite (num_decimal n ds Hn Hmax) by reflexivity. cbn [rbind].
  rewrite consume_here. cbn [rbind]. rewrite <- !app_assoc. reflexivity.
Qed.

Lemma string_here : forall s e, encodes_str s e -> (Z.of_nat (List.length s) <= 2147483647)%Z -> forall pre rest st,
  rb_strsize (here pre (e ++ rest) st) = ROk (Z.of_nat (List.length s)) /\
  (forall len, List.length s <= len -> rb_readbuf (here pre (e ++ rest) st) len = ROk (s, here (pre ++ e) rest st)) /\
  rb_readbuf (here pre (e ++ rest) st) (List.length s) = ROk (s, here (pre ++ e) rest st) /\
  rbind (rb_num (here pre (e ++ rest) st)) (fun '(n, r) => rbind (rb_consume r 58%N) (fun r =>
           rbind (rb_pops (Z.to_nat n) r) (fun '(_, r) => ROk (true, r)))) = ROk (true, here (pre ++ e) rest st).
Proof.
  intros s e He Hmax pre rest st. inversion He as [s' ds Hn]; subst. rewrite <- app_assoc. cbn [app].
  assert (E : rb_num (here pre (ds ++ 58%N :: s ++ rest) st) = ROk (Z.of_nat (List.length s), here (pre ++ ds) (58%N :: s ++ rest) st))
    by (apply num_natural; auto).
  assert (H : forall len, List.length s <= len -> rb_readbuf (here pre (ds ++ 58%N :: s ++ rest) st) len = ROk (s, here (pre ++ ds ++ 58%N :: s) rest st)).
  { intros len Hlen. unfold rb_readbuf. rewrite E. cbn [rbind]. destruct (Z.ltb_spec (Z.of_nat (List.length s)) 0); [lia|].
    rewrite Nat2Z.id. destruct (Nat.ltb_spec len (List.length s)); [lia|]. rewrite consume_here. cbn [rbind].
    rewrite pops_here, <- !app_assoc. reflexivity. }
  split; [|split; [|split]].
  - unfold rb_strsize. rewrite E. reflexivity.
  - exact H.
  - apply H. lia.
  - rewrite E. cbn [rbind]. rewrite consume_here. cbn [rbind]. rewrite Nat2Z.id, pops_here. cbn [rbind].
    rewrite <- !app_assoc. reflexivity.
Qed.

Lemma read_string_here : forall s e, encodes_str s e -> (Z.of_nat (List.length s) <= 2147483647)%Z -> forall pre rest st,
  read_string (here pre (e ++ rest) st) = ROk (s, here (pre ++ e) rest st).
Proof.
  intros s e He Hmax pre rest st. destruct (string_here s e He Hmax pre rest st) as (H1 & _ & H2 & _).
  unfold read_string. rewrite H1. cbn [rbind]. rewrite Nat2Z.id. exact H2.
Qed.

(** The first byte tells what follows. *)
Lemma str_first : forall s e, encodes_str s e -> exists d t, e = d :: t /\ (48 <= d <= 57)%N /\ t <> [].
Proof.
  intros s e He. inversion He as [s' ds Hn]; subst. destruct (natural_first _ _ Hn) as (d & t & -> & Hd).
  exists d, (t ++ 58%N :: s). repeat split; try tauto. destruct t; discriminate.
Qed.
Lemma value_first : forall v e, encodes v e -> exists d t, e = d :: t /\ t <> [] /\
  (d = 105 \/ d = 108 \/ d = 100 \/ 48 <= d <= 57)%N.
Proof.
  intros v e He. inversion He; subst.
  - exists 105%N. eexists. split; [reflexivity|]. split; [destruct ds; discriminate|auto].
  - destruct (str_first _ _ H) as (d & t & -> & Hd & Ht). eauto 10.
  - exists 108%N. eexists. split; [reflexivity|]. split; [destruct e0; discriminate|auto].
  - exists 100%N. eexists. split; [reflexivity|]. split; [destruct e0; discriminate|auto].
Qed.

Lemma more_here : forall pre d rest st, (d = 105 \/ d = 108 \/ d = 100 \/ 48 <= d <= 57)%N ->
  rb_more (here pre (d :: rest) (S st)) = true.
Proof.
  intros. unfold rb_more. cbn [here rb_stack]. change (Nat.ltb 0 (S st)) with true. cbv iota.
  rewrite peek_here. unfold schar. destruct (N.ltb_spec d 128); [|lia]. destruct (Z.eqb_spec (Z.of_N d) 101); [lia|reflexivity].
Qed.
Lemma more_end : forall pre rest st, rb_more (here pre (101%N :: rest) (S st)) = false.
Proof. intros. unfold rb_more. cbn [here rb_stack]. change (Nat.ltb 0 (S st)) with true. cbv iota. rewrite peek_here. reflexivity. Qed.

Lemma enter_here : forall pre b rest st, st < 10 -> rb_enter (here pre (b :: rest) st) = ROk (here (pre ++ [b]) rest (S st)).
Proof.
  intros. unfold rb_enter. cbn [here rb_stack]. destruct (Nat.eqb_spec st 10); [lia|].
  fold (here pre (b :: rest) st). rewrite pop_here. reflexivity.
Qed.
Lemma leave_here : forall pre rest st, rb_leave (here pre (101%N :: rest) (S st)) = ROk (here (pre ++ [101%N]) rest st).
Proof.
  intros. unfold rb_leave. rewrite consume_here. cbn [rbind here rb_data rb_pos rb_stack]. rewrite Nat.sub_succ, Nat.sub_0_r. reflexivity.
Qed.

Lemma type_here : forall pre d rest st,
  rb_type (here pre (d :: rest) st) =
  if (schar d =? -1)%Z then 0%Z else if (schar d =? 105)%Z then 105%Z
  else if (schar d =? 100)%Z then 100%Z else if (schar d =? 108)%Z then 108%Z else 115%Z.
Proof. intros. unfold rb_type. rewrite peek_here. reflexivity. Qed.

Definition reads_back (v : bvalue) : Prop := forall e, encodes v e -> fits v -> forall st, st + depth v <= 10 ->
  forall f, List.length e <= f -> forall pre rest,
  read_value f (here pre (e ++ rest) st) = ROk (v, here (pre ++ e) rest st) /\
  rb_skip f (here pre (e ++ rest) st) = ROk (true, here (pre ++ e) rest st).

Definition skip_loop (f : nat) := fix loop (k : nat) (r : breader) : bres breader :=
  match k with
  | O => RFuel
  | S k' => if rb_more r then rbind (rb_skip f r) (fun '(_, r) => loop k' r) else ROk r
  end.

Lemma items_here : forall l, Forall reads_back l -> forall e, encodes_list l e -> Forall fits l -> forall st,
  st + S (fold_right (fun v n => Nat.max (depth v) n) 0 l) <= 10 -> forall f, List.length e < f -> forall pre rest,
  read_items f (here pre (e ++ 101%N :: rest) (S st)) = ROk (l, here (pre ++ e) (101%N :: rest) (S st)) /\
  forall fs, List.length e <= fs -> skip_loop fs f (here pre (e ++ 101%N :: rest) (S st)) = ROk (here (pre ++ e) (101%N :: rest) (S st)).
Proof.
  induction l as [|v l IH]; intros Hr e He Hf st Hst f Hlen pre rest; inversion He; subst;
    (destruct f as [|f]; [lia|]); cbn [read_items skip_loop app].
  - rewrite more_end, app_nil_r. auto.
  - rename e0 into e1. destruct (value_first v e1 ltac:(assumption)) as (d & t & Ee & Ht & Hd). cbn [fold_right] in Hst.
    rewrite app_length in Hlen. rewrite <- !app_assoc.
    assert (Hm : rb_more (here pre (e1 ++ e' ++ 101%N :: rest) (S st)) = true) by (rewrite Ee; cbn [app]; apply more_here; exact Hd).
    assert (Hl1 : 0 < List.length e1) by (rewrite Ee; simpl; lia).
    rewrite Hm. replace (pre ++ e1 ++ e') with ((pre ++ e1) ++ e') by (rewrite <- app_assoc; reflexivity). split.
    + destruct (Forall_inv Hr e1 ltac:(assumption) (Forall_inv Hf) (S st) ltac:(lia) f ltac:(lia) pre (e' ++ 101%N :: rest)) as [-> _].
      cbn [rbind].
      destruct (IH (Forall_inv_tail Hr) e' ltac:(assumption) (Forall_inv_tail Hf) st ltac:(lia) f ltac:(lia) (pre ++ e1) rest) as [-> _].
      cbn [rbind]. reflexivity.
    + intros fs Hfs. rewrite app_length in Hfs.
      destruct (Forall_inv Hr e1 ltac:(assumption) (Forall_inv Hf) (S st) ltac:(lia) fs ltac:(lia) pre (e' ++ 101%N :: rest)) as [_ ->].
      cbn [rbind].
      destruct (IH (Forall_inv_tail Hr) e' ltac:(assumption) (Forall_inv_tail Hf) st ltac:(lia) f ltac:(lia) (pre ++ e1) rest) as [_ H].
      apply H. lia.
Qed.

Lemma skip_string : forall s e, encodes_str s e -> (Z.of_nat (List.length s) <= 2147483647)%Z -> forall f, 0 < f -> forall pre rest st,
  rb_skip f (here pre (e ++ rest) st) = ROk (true, here (pre ++ e) rest st).
Proof.
  intros s e He Hmax f Hf pre rest st. destruct f as [|f]; [lia|].
  destruct (string_here s e He Hmax pre rest st) as (_ & _ & _ & H).
  destruct (str_first s e He) as (d & t & E & Hd & _). cbn [rb_skip].
  replace (rb_peek (here pre (e ++ rest) st)) with (Z.of_N d)
    by (rewrite E; cbn [app]; rewrite peek_here; symmetry; apply digit_schar; exact Hd).
  destruct (Z.eqb_spec (Z.of_N d) (-1)); [lia|]. destruct (Z.eqb_spec (Z.of_N d) 105); [lia|].
  destruct (Z.eqb_spec (Z.of_N d) 108); [lia|]. destruct (Z.eqb_spec (Z.of_N d) 100); [lia|]. exact H.
Qed.

Lemma entries_here : forall l, Forall (fun kv => reads_back (snd kv)) l -> forall e, encodes_dict l e ->
  Forall (fun kv => (Z.of_nat (List.length (fst kv)) <= 2147483647)%Z) l -> Forall (fun kv => fits (snd kv)) l -> forall st,
  st + S (fold_right (fun kv n => Nat.max (depth (snd kv)) n) 0 l) <= 10 -> forall f, List.length e < f -> forall pre rest,
  read_entries f (here pre (e ++ 101%N :: rest) (S st)) = ROk (l, here (pre ++ e) (101%N :: rest) (S st)) /\
  forall fs, List.length e <= fs -> skip_loop fs f (here pre (e ++ 101%N :: rest) (S st)) = ROk (here (pre ++ e) (101%N :: rest) (S st)).
Proof.
  induction l as [|[k v] l IH]; intros Hr e He Hk Hf st Hst f Hlen pre rest; inversion He; subst.
  - destruct f as [|f]; [lia|]. cbn [read_entries skip_loop app]. rewrite more_end, app_nil_r. auto.
  - rename e0 into e1. rewrite !app_length in Hlen. cbn [fold_right snd] in Hst.
    destruct (value_first v e1 ltac:(assumption)) as (d & t & Ee & Ht & Hd).
    destruct (str_first k ek ltac:(assumption)) as (d' & t' & Ek & Hd' & Ht').
    destruct f as [|f]; [lia|]. assert (Hl1 : 0 < List.length e1) by (rewrite Ee; simpl; lia).
    assert (Hlk : 1 < List.length ek) by (rewrite Ek; destruct t'; [contradiction|simpl; lia]).
    destruct f as [|f]; [lia|]. rewrite <- !app_assoc.
    assert (Hm : rb_more (here pre (ek ++ e1 ++ e' ++ 101%N :: rest) (S st)) = true) by (rewrite Ek; cbn [app]; apply more_here; auto).
    assert (Hm2 : rb_more (here (pre ++ ek) (e1 ++ e' ++ 101%N :: rest) (S st)) = true) by (rewrite Ee; cbn [app]; apply more_here; auto).
    pose proof (Forall_inv Hk) as Hk1. cbn [fst] in Hk1. pose proof (Forall_inv Hf) as Hf1. pose proof (Forall_inv Hr) as Hr1. cbn [snd] in Hf1, Hr1.
    replace (pre ++ ek ++ e1 ++ e') with (((pre ++ ek) ++ e1) ++ e') by (rewrite <- !app_assoc; reflexivity).
    split.
    + cbn [read_entries]. rewrite Hm.
      rewrite (read_string_here k ek ltac:(assumption) Hk1). cbn [rbind].
      destruct (Hr1 e1 ltac:(assumption) Hf1 (S st) ltac:(lia) (S f) ltac:(lia) (pre ++ ek) (e' ++ 101%N :: rest)) as [E1 _].
      rewrite E1. cbn [rbind].
      destruct (IH (Forall_inv_tail Hr) e' ltac:(assumption) (Forall_inv_tail Hk) (Forall_inv_tail Hf) st ltac:(lia) (S f) ltac:(lia) ((pre ++ ek) ++ e1) rest) as [E2 _].
      cbn [read_entries] in E2. rewrite E2. cbn [rbind]. reflexivity.
    + intros fs Hfs. rewrite !app_length in Hfs. cbn [skip_loop]. rewrite Hm.
      rewrite (skip_string k ek ltac:(assumption) Hk1) by lia. cbn [rbind]. rewrite Hm2.
      destruct (Hr1 e1 ltac:(assumption) Hf1 (S st) ltac:(lia) fs ltac:(lia) (pre ++ ek) (e' ++ 101%N :: rest)) as [_ ->].
      cbn [rbind].
      destruct (IH (Forall_inv_tail Hr) e' ltac:(assumption) (Forall_inv_tail Hk) (Forall_inv_tail Hf) st ltac:(lia) f ltac:(lia) ((pre ++ ek) ++ e1) rest) as [_ H].
      apply H. lia.
Qed.

Lemma all_read_back : forall v, reads_back v.
Proof.
  induction v as [n|s|l IH|l IH] using bvalue_ind'; intros e He Hf st Hst f Hlen pre rest;
    inversion He; subst; inversion Hf; subst.
  - destruct f as [|f]; [simpl in Hlen; lia|].
    pose proof (readnum_here n ds ltac:(assumption) ltac:(assumption) pre rest st) as E. split.
    + cbn [read_value]. replace (rb_type (here pre ((105%N :: ds ++ [101%N]) ++ rest) st)) with 105%Z
        by (cbn [app]; rewrite type_here; reflexivity).
      change (105 =? 0)%Z with false. change (105 =? 105)%Z with true. cbv iota. rewrite E. reflexivity.
    + cbn [rb_skip]. replace (rb_peek (here pre ((105%N :: ds ++ [101%N]) ++ rest) st)) with 105%Z
        by (cbn [app]; rewrite peek_here; reflexivity).
      change (105 =? -1)%Z with false. change (105 =? 105)%Z with true. cbv iota. rewrite E. reflexivity.
  - destruct (str_first s e ltac:(assumption)) as (d & t & E & Hd & _).
    assert (0 < f) by (rewrite E in Hlen; simpl in Hlen; lia). split.
    + destruct f as [|f]; [lia|]. cbn [read_value].
      replace (rb_type (here pre (e ++ rest) st)) with 115%Z.
      2:{ rewrite E. cbn [app]. rewrite type_here. destruct (digit_schar d Hd) as [-> _].
          destruct (Z.eqb_spec (Z.of_N d) (-1)); [lia|]. destruct (Z.eqb_spec (Z.of_N d) 105); [lia|].
          destruct (Z.eqb_spec (Z.of_N d) 100); [lia|]. destruct (Z.eqb_spec (Z.of_N d) 108); [lia|]. reflexivity. }
      change (115 =? 0)%Z with false. change (115 =? 105)%Z with false. change (115 =? 108)%Z with false. change (115 =? 100)%Z with false.
      cbv iota. rewrite (read_string_here s e) by assumption. reflexivity.
    + apply (skip_string s); assumption.
  - cbn [depth] in Hst. cbn [app List.length] in *. rewrite app_length in Hlen. cbn [List.length] in Hlen.
    destruct f as [|f]; [lia|]. rewrite <- app_assoc. cbn [app].
    destruct (items_here l IH e0 ltac:(assumption) ltac:(assumption) st ltac:(lia) f ltac:(lia) (pre ++ [108%N]) rest) as [E1 E2].
    replace (pre ++ 108%N :: e0 ++ [101%N]) with (((pre ++ [108%N]) ++ e0) ++ [101%N]) by (rewrite <- !app_assoc; reflexivity).
    split.
    + cbn [read_value]. replace (rb_type (here pre (108%N :: e0 ++ 101%N :: rest) st)) with 108%Z by (rewrite type_here; reflexivity).
      change (108 =? 0)%Z with false. change (108 =? 105)%Z with false. change (108 =? 108)%Z with true. cbv iota.
      rewrite enter_here by lia. cbn [rbind]. rewrite E1. cbn [rbind]. rewrite leave_here. reflexivity.
    + cbn [rb_skip]. fold (skip_loop f). rewrite peek_here.
      change (schar 108%N =? -1)%Z with false. change (schar 108%N =? 105)%Z with false. change (schar 108%N =? 108)%Z with true. cbn [orb].
      rewrite enter_here by lia. cbn [rbind]. rewrite E2 by lia. cbn [rbind]. rewrite leave_here. reflexivity.
  - cbn [depth] in Hst. cbn [app List.length] in *. rewrite app_length in Hlen. cbn [List.length] in Hlen.
    destruct f as [|f]; [lia|]. rewrite <- app_assoc. cbn [app].
    destruct (entries_here l IH e0 ltac:(assumption) ltac:(assumption) ltac:(assumption) st ltac:(lia) f ltac:(lia) (pre ++ [100%N]) rest) as [E1 E2].
    replace (pre ++ 100%N :: e0 ++ [101%N]) with (((pre ++ [100%N]) ++ e0) ++ [101%N]) by (rewrite <- !app_assoc; reflexivity).
    split.
    + cbn [read_value]. replace (rb_type (here pre (100%N :: e0 ++ 101%N :: rest) st)) with 100%Z by (rewrite type_here; reflexivity).
      change (100 =? 0)%Z with false. change (100 =? 105)%Z with false. change (100 =? 108)%Z with false. change (100 =? 100)%Z with true. cbv iota.
      rewrite enter_here by lia. cbn [rbind]. rewrite E1. cbn [rbind]. rewrite leave_here. reflexivity.
    + cbn [rb_skip]. fold (skip_loop f). rewrite peek_here.
      change (schar 100%N =? -1)%Z with false. change (schar 100%N =? 105)%Z with false. change (schar 100%N =? 108)%Z with false. change (schar 100%N =? 100)%Z with true. cbn [orb].
      rewrite enter_here by lia. cbn [rbind]. rewrite E2 by lia. cbn [rbind]. rewrite leave_here. reflexivity.
Qed.

(** Reading an encoding gives the value and stops behind it; at most ten lists
    and dictionaries deep. *)
Theorem C82_reader_partial : forall v e pre rest st, encodes v e -> fits v -> st + depth v <= 10 ->
  read_value (List.length e) (mkBreader (pre ++ e ++ rest) (List.length pre) st) =
  ROk (v, mkBreader (pre ++ e ++ rest) (List.length pre + List.length e) st).
Proof.
  intros v e pre rest st He Hf Hd.
  destruct (all_read_back v e He Hf st Hd _ (Nat.le_refl _) pre rest) as [H _]. unfold here in H. rewrite H.
  rewrite <- app_assoc, app_length. reflexivity.
Qed.

Theorem C82_skip_partial : forall v e pre rest st, encodes v e -> fits v -> st + depth v <= 10 ->
  rb_skip (List.length e) (mkBreader (pre ++ e ++ rest) (List.length pre) st) =
  ROk (true, mkBreader (pre ++ e ++ rest) (List.length pre + List.length e) st).
Proof.
  intros v e pre rest st He Hf Hd.
  destruct (all_read_back v e He Hf st Hd _ (Nat.le_refl _) pre rest) as [_ H]. unfold here in H. rewrite H.
  rewrite <- app_assoc, app_length. reflexivity.
Qed.

Corollary C82_round_trip_partial : forall v size w, fits v -> depth v <= 10 -> write_value v (bw_tobuf size) = Some (true, w) ->
  exists r, read_value (List.length (wb_data w)) (rb_new (wb_data w)) = ROk (v, r) /\ rb_more r = false.
Proof.
  intros v size w Hf Hd Hw. destruct (C82_writer v size Hf) as (e & He & H1 & H2).
  destruct (le_lt_dec (List.length e) size) as [Hle|Hgt].
  - rewrite (H1 Hle) in Hw. injection Hw as <-. cbn [wb_data].
    pose proof (C82_reader_partial v e [] [] 0 He Hf Hd) as H. cbn [app List.length] in H. rewrite app_nil_r in H.
    eexists. split; [exact H|]. unfold rb_more, rb_peek. cbn [rb_stack rb_data rb_pos].
    rewrite (proj2 (nth_error_None e (0 + List.length e))) by lia. reflexivity.
  - destruct (H2 Hgt) as [w' H]. congruence.
Qed.

(** Eleven lists deep it panics. *)
Fixpoint nested (n : nat) : bvalue := match n with O => BNum 1 | S m => BList [nested m] end.
Theorem C82_depth_refuted : exists v e, fits v /\ encodes v e /\ forall f, List.length e <= f -> read_value f (rb_new e) = RPanic.
Proof.
  exists (nested 11). destruct (writes_value (nested 11)) as (e & He & _).
  { generalize 11. induction n; simpl; constructor; [lia|auto]. }
  clear He e. exists (repeat 108%N 11 ++ [105; 49; 101]%N ++ repeat 101%N 11). split; [|split].
  - generalize 11. induction n; simpl; constructor; [lia|auto].
  - assert (H : forall n, encodes (nested n) (repeat 108%N n ++ [105; 49; 101]%N ++ repeat 101%N n)).
    { induction n as [|n IH].
      - apply (enc_num 1 [49%N]). constructor. repeat split; try discriminate. constructor; [lia|constructor].
      - cbn [nested]. replace (repeat 108%N (S n) ++ [105; 49; 101]%N ++ repeat 101%N (S n))
          with (108%N :: ((repeat 108%N n ++ [105; 49; 101]%N ++ repeat 101%N n) ++ []) ++ [101%N]).
        + constructor. constructor; [exact IH|constructor].
        + rewrite app_nil_r. cbn [repeat app]. f_equal. rewrite <- !app_assoc. f_equal. cbn [app]. do 3 f_equal.
          rewrite <- repeat_cons. reflexivity. }
    apply H.
  - intros f Hf. cbn in Hf. do 25 (destruct f as [|f]; [lia|]). reflexivity.
Qed.

(** A byte of value 255 looks like the end. *)
Theorem C82_end_refuted : exists data, data <> [] /\ rb_more (rb_new data) = false /\ rb_type (rb_new data) = 0%Z.
Proof. exists [255; 49]%N. repeat split. discriminate. Qed.

(** A string cut short is read beyond the end of the data, and a list cut short
    is skipped forever. *)
Theorem C82_truncated_refuted :
  (exists data, read_string (rb_new data) = RUndefined) /\
  (exists data, forall f, rb_skip f (rb_new data) = RFuel).
Proof.
  split; [exists (L "5:ab"); reflexivity|]. exists (L "l"). intros [|f]; [reflexivity|].
  cbn [rb_skip]. fold (skip_loop f). change (rb_peek (rb_new (L "l"))) with 108%Z.
  change (108 =? -1)%Z with false. change (108 =? 105)%Z with false. change (108 =? 108)%Z with true. cbn [orb].
  change (rb_enter (rb_new (L "l"))) with (ROk (mkBreader (L "l") 1 1)). cbn [rbind].
  assert (H : forall k, skip_loop f k (mkBreader (L "l") 1 1) = RFuel).
  { induction k as [|k IH]; [reflexivity|]. cbn [skip_loop].
    change (rb_more (mkBreader (L "l") 1 1)) with true. cbv iota.
    destruct f as [|f]; [reflexivity|].
    change (rb_skip (S f) (mkBreader (L "l") 1 1)) with (@ROk (bool * breader) (false, mkBreader (L "l") 1 1)). exact IH. }
  rewrite H. reflexivity.
Qed.

Example C82_case :
  let v := BDict [(L "a", BList [BNum (-42); BStr (L "xyz"); BNum 0]); (L "bc", BNum 1000)] in
  write_value v (bw_tobuf 100) = Some (true, mkBwriter (L "d1:ali-42e3:xyzi0ee2:bci1000ee") 100) /\
  (exists w, write_value v (bw_tobuf 20) = Some (false, w)) /\
  (exists r, read_value 30 (rb_new (L "d1:ali-42e3:xyzi0ee2:bci1000ee")) = ROk (v, r)).
Proof. split; [vm_compute; reflexivity|]. split; eexists; vm_compute; reflexivity. Qed.

Print Assumptions C82_writer.
Print Assumptions C82_reader_partial.
Print Assumptions C82_skip_partial.
Print Assumptions C82_round_trip_partial.
Print Assumptions C82_depth_refuted.
Print Assumptions C82_end_refuted.
Print Assumptions C82_truncated_refuted.
