(** C89: a file in memory; C90: MD5. *)
From Coq Require Import Lia.
From Verif Require Import LibBase LibIO LibText LibSha1 LibMem SpecIO SpecSha1 SpecMd5 PropIO PropSha1.

(** * C89 *)

Definition mem_ok (m : mem) : Prop := mm_pos m <= List.length (mm_data m) /\ List.length (mm_data m) <= mm_size m.

Definition mem_step (m : mem) (o : fop) : fresult * mem :=
  match o with
  | WriteBytes buf => let '(n, m) := memwrite m buf in (Count n, m)
  | PutChar ch => let '(c, m) := memputc ch m in (Char c, m)
  | ReadBytes n => let '(d, m) := memread m n in (Bytes d, m)
  | GetChar => let '(c, m) := memgetc m in (Char c, m)
  | ToStart => (Done, mem_rewind m)
  | Empty => (Done, mem_reset m)
  | Where => (Count (memtell m), m)
  end.
Fixpoint mem_run (m : mem) (os : list fop) : list fresult * mem :=
  match os with [] => ([], m) | o :: r => let '(x, m') := mem_step m o in let '(l, m'') := mem_run m' r in (x :: l, m'') end.

Definition contents (m : mem) : file := (mm_data m, mm_pos m).

(** Bytes up to 127 in, or no [memgetc]. *)
Definition plain (o : fop) : Prop :=
  match o with
  | WriteBytes buf => Forall (fun b => (b < 128)%N) buf
  | PutChar ch => (0 <= ch < 128)%Z
  | _ => True
  end.
Definition is_char (o : fop) : Prop := match o with PutChar ch => (0 <= ch < 256)%Z | GetChar => False | _ => True end.

Lemma store_ok : forall p data buf, p <= List.length data ->
  store data p buf = firstn p data ++ buf ++ skipn (p + List.length buf) data.
Proof.
  induction p as [|p IH]; intros data buf H; destruct data as [|x data]; cbn [store firstn app]; try reflexivity.
  - cbn in H. lia.
  - cbn [List.length] in H. rewrite IH by lia. reflexivity.
Qed.
Lemma store_length : forall p data buf, p <= List.length data ->
  List.length (store data p buf) = Nat.max (List.length data) (p + List.length buf).
Proof.
  intros p data buf H. rewrite store_ok by exact H. rewrite !app_length, firstn_length_le, skipn_length by exact H. lia.
Qed.
Lemma double_to_ok : forall fuel next need, 1 <= next -> need <= next + fuel -> need <= double_to fuel next need.
Proof.
  induction fuel as [|f IH]; intros next need H1 H2; cbn [double_to]; [lia|].
  destruct (Nat.ltb_spec next need); [|lia]. apply IH; lia.
Qed.
Lemma makespace_ok : forall m n, mem_ok m -> mem_ok (makespace m n) /\ contents (makespace m n) = contents m /\
  mm_pos m + n <= mm_size (makespace m n).
Proof.
  intros m n [A B]. unfold makespace. destruct (Nat.leb_spec (mm_pos m + n) (mm_size m)) as [H|H].
  - repeat split; auto.
  - assert (Hd : mm_pos m + n <= double_to (mm_pos m + n) (if Nat.eqb (mm_size m) 0 then 32 else mm_size m) (mm_pos m + n)).
    { apply double_to_ok; destruct (Nat.eqb_spec (mm_size m) 0); lia. }
    unfold mem_ok, contents. cbn [mm_data mm_pos mm_size]. repeat split; auto. lia.
Qed.
Lemma memwrite_ok : forall m buf, mem_ok m ->
  let '(n, m') := memwrite m buf in
  n = List.length buf /\ mem_ok m' /\ contents m' = written (contents m) buf.
Proof.
  intros m buf Hm. unfold memwrite. destruct (makespace_ok m (List.length buf) Hm) as (M1 & M2 & M3).
  set (m1 := makespace m (List.length buf)) in *. destruct M1 as [M4 M5]. injection M2 as E1 E2.
  split; [reflexivity|]. unfold mem_ok, contents, written. cbn [mm_data mm_pos mm_size fst snd].
  rewrite store_length by exact M4. rewrite store_ok by exact M4. rewrite <- E1, <- E2. repeat split; lia.
Qed.

Lemma schar_small : forall b, (b < 128)%N -> schar b = Z.of_N b.
Proof. intros b H. unfold schar. destruct (N.ltb_spec b 128); [reflexivity|lia]. Qed.

Lemma step_ok : forall m o, mem_ok m ->
  (forall ch, o = PutChar ch -> (0 <= ch < 256)%Z) -> (o = GetChar -> Forall (fun b => (b < 128)%N) (mm_data m)) ->
  let '(x, m') := mem_step m o in
  mem_ok m' /\ (x, contents m') = file_step (contents m) o.
Proof.
  intros m o Hm Hp Hg. destruct o as [buf|ch|n| | | |]; cbn [mem_step file_step].
  - pose proof (memwrite_ok m buf Hm) as H. destruct (memwrite m buf) as [n m']. destruct H as (-> & A & B). rewrite B. auto.
  - specialize (Hp ch eq_refl). unfold memputc. destruct (Z.eqb_spec ch (-1)); [lia|].
    pose proof (memwrite_ok m [Z.to_N ch] Hm) as H. unfold memwrite in H. cbn [List.length] in H.
    rewrite Z.mod_small by lia. rewrite Nat.add_1_r in H. destruct H as (_ & A & B). rewrite B. auto.
  - unfold memread. destruct Hm as [A B]. unfold mem_ok, contents. cbn [mm_data mm_pos mm_size fst snd].
    repeat split; auto. rewrite firstn_length, skipn_length. lia.
  - specialize (Hg eq_refl). unfold memgetc, contents. cbn [fst snd]. destruct Hm as [A B].
    destruct (nth_error (mm_data m) (mm_pos m)) as [b|] eqn:E.
    + apply nth_error_split in E. destruct E as (l1 & l2 & E & El). rewrite E, <- El.
      rewrite skipn_app, skipn_all, Nat.sub_diag. cbn [skipn app].
      unfold mem_ok. cbn [mm_data mm_pos mm_size]. rewrite E in Hg, A, B. rewrite app_length in A, B. cbn [List.length] in A, B.
      rewrite app_length. cbn [List.length]. apply Forall_app in Hg. destruct Hg as [_ Hg]. rewrite schar_small by exact (Forall_inv Hg).
      repeat split; auto; lia.
    + apply nth_error_None in E. rewrite skipn_all2 by exact E. unfold mem_ok. auto.
  - split; [|reflexivity]. destruct Hm. split; cbn; lia.
  - split; [|reflexivity]. destruct Hm. split; cbn; lia.
  - auto.
Qed.

Lemma step_plain : forall f o, plain o -> Forall (fun b => (b < 128)%N) (fst f) -> Forall (fun b => (b < 128)%N) (fst (snd (file_step f o))).
Proof.
  intros [c p] o Ho Hf. cbn [fst snd] in Hf.
  assert (Hw : forall buf, Forall (fun b => (b < 128)%N) buf -> Forall (fun b => (b < 128)%N) (fst (written (c, p) buf))).
  { intros buf Hb. unfold written. cbn [fst snd]. apply Forall_app. split; [apply Forall_firstn'; exact Hf|].
    apply Forall_app. split; [exact Hb|apply Forall_skipn'; exact Hf]. }
  destruct o as [buf|ch|n| | | |]; cbn [plain file_step fst snd] in *; try exact Hf; try constructor.
  - apply Hw. exact Ho.
  - apply Hw. constructor; [lia|constructor].
  - destruct (nth_error c p); exact Hf.
Qed.

(** Any sequence of operations answers what a file would, when the bytes are below
    128, or when [memgetc] is not used; the buffer is always large enough. *)
Theorem C89_file_partial : forall os, Forall plain os \/ Forall is_char os ->
  fst (mem_run memopen os) = file_run ([], 0) os /\
  List.length (mm_data (snd (mem_run memopen os))) <= mm_size (snd (mem_run memopen os)).
Proof.
  intros os.
  assert (G : forall os m, mem_ok m -> (Forall plain os /\ Forall (fun b => (b < 128)%N) (mm_data m)) \/ Forall is_char os ->
    fst (mem_run m os) = file_run (contents m) os /\ mem_ok (snd (mem_run m os))).
  { clear os. induction os as [|o os IH]; intros m Hm H; [split; [reflexivity|exact Hm]|]. cbn [mem_run file_run].
    pose proof (step_ok m o Hm) as Hs. pose proof (step_plain (contents m) o) as Hpl.
    destruct (mem_step m o) as [x m'] eqn:Em. destruct Hs as [A B].
    - intros ch ->. destruct H as [[H _]|H]; pose proof (Forall_inv H) as H1; cbn in H1; lia.
    - intros ->. destruct H as [[_ H]|H]; [exact H|]. destruct (Forall_inv H).
    - rewrite <- B in *. specialize (IH m' A). destruct (mem_run m' os) as [l m''].
      destruct IH as [I1 I2].
      + destruct H as [[H1 H2]|H].
        * left. split; [exact (Forall_inv_tail H1)|]. exact (Hpl (Forall_inv H1) H2).
        * right. exact (Forall_inv_tail H).
      + cbn [fst snd] in *. rewrite I1. auto. }
  intros H. destruct (G os memopen) as [A [_ B]].
  - split; cbn; lia.
  - destruct H; [left; split; [assumption|constructor]|right; assumption].
  - split; [exact A|exact B].
Qed.

(** A byte from 128 on is read as a negative number, and 255 as the end. *)
Theorem C89_getc_refuted : exists os, fst (mem_run memopen os) <> file_run ([], 0) os /\
  fst (mem_run memopen os) = [Count 2; Done; Char (-1); Char 65].
Proof. exists [WriteBytes [255; 65]%N; ToStart; GetChar; GetChar]. split; [vm_compute; discriminate|reflexivity]. Qed.

(** What [memprintf] formats is never in the file: the position and the length stay
    as they are, and behind the end nothing can be read. *)
Theorem C89_printf_refuted : forall m text, mem_ok m -> mm_pos m = List.length (mm_data m) ->
  contents (snd (memprintf m text)) = contents m /\ fst (memprintf m text) = Z.of_nat (List.length text).
Proof.
  intros m text Hm Hp. unfold memprintf. split; [|reflexivity]. cbn [snd]. unfold contents. cbn [mm_data mm_pos].
  set (w := if Nat.eqb (mm_size m - List.length (mm_data m)) 0 then _ else _). clearbody w.
  assert (H : forall m', contents m' = contents m -> (firstn (List.length (mm_data m')) (store (mm_data m') (mm_pos m') w), mm_pos m') = (mm_data m, mm_pos m)).
  { intros m' E. injection E as -> ->. f_equal. rewrite store_ok by lia. rewrite Hp, firstn_all, firstn_app, firstn_all, Nat.sub_diag.
    cbn [firstn]. apply app_nil_r. }
  destruct (Nat.leb _ _); apply H; [|reflexivity]. exact (proj1 (proj2 (makespace_ok m _ Hm))).
Qed.

Example C89_ex1 : fst (mem_run memopen [WriteBytes [1;2;3]%N; ToStart; PutChar 9; GetChar; WriteBytes [7;8]%N; Where; ToStart; ReadBytes 10; GetChar])
  = [Count 3; Done; Char 9; Char 2; Count 2; Count 4; Done; Bytes [9;2;7;8]%N; Char (-1)].
Proof. reflexivity. Qed.
Example C89_ex2 : mem_ok (snd (memwrite memopen [1;2]%N)) /\ mm_pos (snd (memwrite memopen [1;2]%N)) = 2.
Proof. unfold mem_ok. cbn. lia. Qed.

(** * C90 *)
Section md5.
Local Open Scope N_scope.
Lemma skipn_skipn' : forall A a b (l : list A), skipn a (skipn b l) = skipn (a + b)%nat l.
Proof.
  intros A a b l. revert a l. induction b as [|b IH]; intros a l; [rewrite Nat.add_0_r; reflexivity|].
  destruct l as [|x l]; [rewrite !skipn_nil; reflexivity|]. rewrite Nat.add_succ_r. cbn [skipn]. apply IH.
Qed.


(** The four words seen from operation [i] on. *)
Definition view (tmp : list N) (i : nat) : words4 :=
  (at_ tmp ((3 * i) mod 4), at_ tmp ((3 * i + 1) mod 4), at_ tmp ((3 * i + 2) mod 4), at_ tmp ((3 * i + 3) mod 4)).

Definition okfun (f g : N -> N -> N -> N) : Prop :=
  forall x y z, x < W32 -> y < W32 -> z < W32 -> f x y z = g x y z.

Lemma F_ok : okfun md5_F F.
Proof. intros x y z Hx Hy Hz. unfold md5_F, F, conj. rewrite not32_compl by exact Hx. reflexivity. Qed.
Lemma G_ok : okfun md5_G G.
Proof. intros x y z Hx Hy Hz. unfold md5_G, G, conj. rewrite not32_compl by exact Hz. reflexivity. Qed.
Lemma H_ok : okfun md5_H H.
Proof. intros x y z Hx Hy Hz. reflexivity. Qed.
Lemma I_ok : okfun md5_I I.
Proof. intros x y z Hx Hy Hz. unfold md5_I, I, xor. rewrite not32_compl by exact Hz. reflexivity. Qed.

Lemma sum4_plus : forall a b c d, u32 (b + a + c + d) = plus (plus (plus a b) c) d.
Proof.
  intros. unfold plus. rewrite u32_W32. rewrite (N.add_mod_idemp_l (a + b) c), (N.add_mod_idemp_l (a + b + c) d) by discriminate.
  f_equal. lia.
Qed.
Lemma u32_small : forall x, u32 x < W32.
Proof. intros x. apply N.mod_upper_bound. discriminate. Qed.

Lemma V_small : forall i, at_ md5_V i <= 32.
Proof.
  intros i. unfold at_. destruct (Nat.lt_ge_cases i 16) as [H|H].
  - assert (A : Forall (fun x => x <= 32) md5_V) by (unfold md5_V; repeat constructor; discriminate).
    rewrite Forall_forall in A. apply A. apply nth_In. exact H.
  - rewrite nth_overflow by exact H. discriminate.
Qed.

Lemma op_ok : forall f g k v t block tmp i, (i < 16)%nat -> okfun f g -> List.length tmp = 4%nat -> small tmp ->
  let tmp' := md5_op f k v t block tmp i in
  List.length tmp' = 4%nat /\ small tmp' /\
  view tmp' (S i) = operate (at_ block) (view tmp i) (g, k, at_ md5_V (v + i mod 4)%nat, at_ md5_T t).
Proof.
  intros f g k v t block tmp i Hi Hf Hl Hs.
  assert (E : forall a b c d x s, a < W32 -> b < W32 -> c < W32 -> d < W32 -> s <= 32 ->
    u32 (b + md5_rotate (u32 (f b c d + a + x + at_ md5_T t)) s) = plus b (rotl s (plus (plus (plus a (g b c d)) x) (at_ md5_T t)))).
  { intros a b c d x s Ha Hb Hc Hd Hn. rewrite Hf by assumption. rewrite sum4_plus.
    change (md5_rotate ?v ?n) with (ROTL n v). rewrite ROTL_rotl; [reflexivity|exact Hn|]. unfold plus. apply N.mod_upper_bound. discriminate. }
  destruct tmp as [|t0 [|t1 [|t2 [|t3 [|]]]]]; try discriminate Hl.
  unfold small in Hs. inversion Hs as [|? ? S0 Hs1]; subst. inversion Hs1 as [|? ? S1 Hs2]; subst.
  inversion Hs2 as [|? ? S2 Hs3]; subst. inversion Hs3 as [|? ? S3 _]; subst.
  pose proof (V_small (v + i mod 4)) as HV. cbv zeta.
  assert (Hcase : (i mod 4 = 0 \/ i mod 4 = 1 \/ i mod 4 = 2 \/ i mod 4 = 3)%nat).
  { pose proof (Nat.mod_upper_bound i 4 ltac:(discriminate)). lia. }
  unfold md5_op, view, operate, small.
  assert (Hm : forall r, (i mod 4 = r)%nat ->
    ((3 * i) mod 4 = (3 * r) mod 4 /\ (3 * i + 1) mod 4 = (3 * r + 1) mod 4 /\ (3 * i + 2) mod 4 = (3 * r + 2) mod 4 /\
     (3 * i + 3) mod 4 = (3 * r + 3) mod 4 /\
     (3 * S i) mod 4 = (3 * S r) mod 4 /\ (3 * S i + 1) mod 4 = (3 * S r + 1) mod 4 /\ (3 * S i + 2) mod 4 = (3 * S r + 2) mod 4 /\
     (3 * S i + 3) mod 4 = (3 * S r + 3) mod 4)%nat).
  { intros r Er. pose proof (Nat.div_mod i 4 ltac:(discriminate)) as D. rewrite Er in D.
    assert (M : forall a b q, (a = b + q * 4)%nat -> (a mod 4 = b mod 4)%nat) by (intros a b q ->; apply Nat.mod_add; discriminate).
    repeat split; eapply (M _ _ (3 * (i / 4))%nat); lia. }
  revert E HV. generalize (at_ md5_V (v + i mod 4)), (at_ md5_T t), (at_ block k). intros sh tt x E HV.
  destruct Hcase as [Hc|[Hc|[Hc|Hc]]]; destruct (Hm _ Hc) as (-> & -> & -> & -> & -> & -> & -> & ->);
    unfold at_;
    cbn -[N.add u32 md5_rotate plus rotl];
    rewrite E by assumption;
    (split; [reflexivity|split; [repeat constructor; auto; apply N.mod_upper_bound; discriminate|reflexivity]]).
Qed.

(** A loop of sixteen operations. *)
Lemma loop_ok : forall f g (kf gf : nat -> nat) v block, okfun f g -> forall n i tmp, (i + n = 16)%nat -> List.length tmp = 4%nat -> small tmp ->
  let tmp' := fold_left (fun tmp i => md5_op f (kf i) v (gf i) block tmp i) (List.seq i n) tmp in
  List.length tmp' = 4%nat /\ small tmp' /\
  view tmp' 16 = fold_left (operate (at_ block))
    (List.map (fun i => (g, kf i, at_ md5_V (v + i mod 4)%nat, at_ md5_T (gf i))) (List.seq i n)) (view tmp i).
Proof.
  intros f g kf gf v block Hf. induction n as [|n IH]; intros i tmp Hn Hl Hs; cbn [List.seq fold_left List.map].
  - replace i with 16%nat by lia. auto.
  - destruct (op_ok f g (kf i) v (gf i) block tmp i ltac:(lia) Hf Hl Hs) as (A & B & C).
    destruct (IH (S i) _ ltac:(lia) A B) as (A' & B' & C'). rewrite C in C'. auto.
Qed.
Lemma view_16 : forall tmp, view tmp 16 = view tmp 0.
Proof. reflexivity. Qed.

Definition four (l : list N) : words4 := (at_ l 0, at_ l 1, at_ l 2, at_ l 3).

Lemma feed_ok : forall words block buf, List.length buf = 4%nat -> small buf ->
  (forall k, (k < 16)%nat -> at_ words k = block_word block k) ->
  let buf' := md5_feed buf words in
  List.length buf' = 4%nat /\ small buf' /\ four buf' = digest_block (four buf) block.
Proof.
  intros words block buf Hl Hs Hw. cbv zeta. unfold md5_feed.
  pose proof (loop_ok md5_F F (fun i => i mod 16)%nat (fun i => i) 0%nat words F_ok 16 0 buf eq_refl Hl Hs) as H1.
  cbv zeta in H1. set (t1 := fold_left (fun tmp i => md5_op md5_F _ _ _ words tmp i) _ buf) in *. destruct H1 as (L1 & S1 & E1).
  pose proof (loop_ok md5_G G (fun i => (1 + 5 * i) mod 16)%nat (fun i => 16 + i)%nat 4%nat words G_ok 16 0 t1 eq_refl L1 S1) as H2.
  cbv zeta in H2. set (t2 := fold_left (fun tmp i => md5_op md5_G _ _ _ words tmp i) _ t1) in *. destruct H2 as (L2 & S2 & E2).
  pose proof (loop_ok md5_H H (fun i => (5 + 3 * i) mod 16)%nat (fun i => 32 + i)%nat 8%nat words H_ok 16 0 t2 eq_refl L2 S2) as H3.
  cbv zeta in H3. set (t3 := fold_left (fun tmp i => md5_op md5_H _ _ _ words tmp i) _ t2) in *. destruct H3 as (L3 & S3 & E3).
  pose proof (loop_ok md5_I I (fun i => (7 * i) mod 16)%nat (fun i => 48 + i)%nat 12%nat words I_ok 16 0 t3 eq_refl L3 S3) as H4.
  cbv zeta in H4. set (t4 := fold_left (fun tmp i => md5_op md5_I _ _ _ words tmp i) _ t3) in *. destruct H4 as (L4 & S4 & E4).
  rewrite view_16 in E1, E2, E3, E4. rewrite E1 in E2. rewrite E2 in E3. rewrite E3 in E4. clearbody t1 t2 t3 t4.
  rewrite <- !fold_left_app in E4.
  match type of E4 with _ = fold_left _ ?ops _ => replace ops with operations in E4 by (vm_compute; reflexivity) end.
  assert (X : forall ops v, (forall f k s t, In (f, k, s, t) ops -> (k < 16)%nat) -> fold_left (operate (at_ words)) ops v = fold_left (operate (block_word block)) ops v).
  { induction ops as [|[[[f k] s] t] ops IH]; intros v Hk; [reflexivity|]. cbn [fold_left].
    rewrite IH by (intros f' k' s' t' H'; eapply Hk; right; exact H'). f_equal.
    unfold operate. destruct v as [[[a b] c] d]. rewrite (Hw k (Hk f k s t (or_introl eq_refl))). reflexivity. }
  rewrite X in E4.
  - change (view t4 0) with (four t4) in E4. change (view buf 0) with (four buf) in E4.
    split; [reflexivity|]. split; [repeat constructor; apply u32_small|].
    unfold digest_block. destruct (four buf) as [[[a b] c] d] eqn:Eb. rewrite <- E4. unfold four in Eb |- *.
    injection Eb as <- <- <- <-. reflexivity.
  - intros f k s t Hin.
    assert (Hall : forallb (fun o : operation => let '(_, k, _, _) := o in Nat.ltb k 16) operations = true) by (vm_compute; reflexivity).
    rewrite forallb_forall in Hall. apply Nat.ltb_lt. exact (Hall _ Hin).
Qed.

(** The bytes that the source has still to give; the data ends at a byte 255. *)
Definition data_is (m : mem) (r : bytes) : Prop :=
  Forall is_byte r /\ ~ In 255 r /\ exists rest, skipn (mm_pos m) (mm_data m) = r ++ rest /\ (rest = [] \/ exists x, rest = 255 :: x).

Definition zeros_of (n : nat) : nat :=
  let l := N.of_nat n in
  let q := (9 + l) / 64 in
  N.to_nat (64 * (if (9 + l) mod 64 =? 0 then q else q + 1) - 9 - l).
Definition padding_of (n : nat) : bytes := 128 :: repeat 0 (zeros_of n) ++ digits256 8 (8 * N.of_nat n).

Inductive todo (m : bytes) : md5_src -> bytes -> Prop :=
| todo_data : forall s done r, sr_more_data s = true -> data_is (sr_stream s) r -> m = done ++ r -> sr_length s = 8 * N.of_nat (List.length done) ->
    sr_more s = true -> todo m s (r ++ padding_of (List.length m))
| todo_tail : forall s, sr_more_data s = false -> List.length (sr_lenbuf s) = 8%nat -> (sr_lenpos s <= 8)%nat ->
    sr_more s = Nat.ltb (sr_lenpos s) 8 -> (sr_zeros s = 0%nat \/ sr_lenpos s = 0%nat) ->
    todo m s (repeat 0 (sr_zeros s) ++ skipn (sr_lenpos s) (sr_lenbuf s)).

Definition fits (m : bytes) : Prop := N.of_nat (List.length m) <= 2147483574.

Lemma schar_mod : forall b, is_byte b -> (schar b mod 256)%Z = Z.of_N b.
Proof.
  intros b Hb. unfold is_byte in Hb. unfold schar. destruct (N.ltb_spec b 128).
  - apply Z.mod_small. lia.
  - replace (Z.of_N b - 256)%Z with (Z.of_N b + (-1) * 256)%Z by lia. rewrite Z.mod_add by discriminate. apply Z.mod_small. lia.
Qed.
Lemma schar_eof : forall b, is_byte b -> schar b = (-1)%Z <-> b = 255.
Proof. intros b Hb. unfold is_byte in Hb. unfold schar. destruct (N.ltb_spec b 128); lia. Qed.

Lemma lenbuf_ok : forall len, len < 2 ^ 64 ->
  List.map (fun i => N.land (N.shiftr (N.land len 0xFFFFFFFF) (N.of_nat i * 8)) 255) (List.seq 0 4) ++
  List.map (fun i => N.land (N.shiftr (N.land (N.shiftr len 32) 0xFFFFFFFF) (N.of_nat i * 8)) 255) (List.seq 0 4) = digits256 8 len.
Proof.
  intros len Hlen. cbn [List.map List.seq digits256 app].
  assert (A : forall k x, N.of_nat k * 8 + 8 <= 32 -> N.land (N.shiftr (N.land x 0xFFFFFFFF) (N.of_nat k * 8)) 255 = x / 2 ^ (N.of_nat k * 8) mod 256).
  { intros k x Hk. rewrite <- land_shift. apply N.bits_inj. intros i. rewrite !N.land_spec, !N.shiftr_spec by apply N.le_0_l.
    rewrite N.land_spec. change 255 with (N.ones 8). change 0xFFFFFFFF with (N.ones 32).
    destruct (N.lt_ge_cases i 8) as [Hi|Hi].
    - rewrite (N.ones_spec_low 8) by lia. rewrite (N.ones_spec_low 32) by lia. rewrite !andb_true_r. reflexivity.
    - rewrite (N.ones_spec_high 8) by lia. rewrite !andb_false_r. reflexivity. }
  rewrite !A by (cbn; lia). rewrite N.shiftr_div_pow2, !N.div_div by discriminate.
  change (2 ^ (N.of_nat 0 * 8)) with 1. rewrite !N.div_1_r, !N.mul_1_r. reflexivity.
Qed.

Lemma next_byte_ok : forall m s b q, fits m -> todo m s (b :: q) ->
  exists s', md5_next_byte s = ROk (b, s') /\ todo m s' q.
Proof.
  intros m s b q Hfit Ht. inversion Ht as [s0 done r E1 E2 E3 E4 E5 Es E6|s0 E1 E2 E3 E4 E5 Es E6]; subst s0.
  - destruct E2 as (D1 & D2 & rest & D3 & D4). unfold md5_next_byte. rewrite E1. unfold memgetc.
    destruct r as [|x r].
    + cbn [app] in *. rewrite app_nil_r in E3. subst done. rewrite D3.
      assert (Hpad : forall mm, exists s', ROk (128, md5_padding (mkSrc mm (sr_length s) false (sr_zeros s) (sr_lenbuf s) (sr_lenpos s) (sr_more s))) = ROk (b, s') /\ todo m s' q).
      { intros mm. eexists. unfold padding_of in E6. injection E6 as <- <-. split; [reflexivity|].
        unfold md5_padding. cbn [sr_stream sr_length sr_more_data sr_zeros sr_lenbuf sr_lenpos sr_more].
        rewrite E4. rewrite lenbuf_ok by (unfold fits in Hfit; change (2 ^ 64) with 18446744073709551616; lia).
        replace (8 * N.of_nat (Datatypes.length m) / 8) with (N.of_nat (List.length m)) by (rewrite N.mul_comm, N.div_mul by discriminate; reflexivity).
        match goal with |- todo _ ?s _ => set (s1 := s) end.
        assert (T : todo m s1 (repeat 0 (sr_zeros s1) ++ skipn (sr_lenpos s1) (sr_lenbuf s1))).
        { apply todo_tail; unfold s1; cbn [sr_stream sr_length sr_more_data sr_zeros sr_lenbuf sr_lenpos sr_more];
            [reflexivity|apply (digits256_ok 8)|lia|rewrite E5; reflexivity|right; reflexivity]. }
        exact T. }
      destruct D4 as [->|[x ->]]; apply Hpad.
    + cbn [app] in *. rewrite D3. injection E6 as <- <-.
      pose proof (Forall_inv D1) as Hx. destruct (Z.eqb_spec (schar x) (-1)) as [Hc|Hc].
      { exfalso. apply schar_eof in Hc; [|exact Hx]. apply D2. left. exact Hc. }
      rewrite schar_mod by exact Hx. rewrite N2Z.id. eexists. split; [reflexivity|].
      apply todo_data with (done := done ++ [x]); cbn [sr_stream sr_length sr_more_data sr_zeros sr_lenbuf sr_lenpos sr_more mm_data mm_pos]; auto.
      * split; [exact (Forall_inv_tail D1)|]. split; [intros Hin; apply D2; right; exact Hin|]. exists rest. split; [|exact D4].
        cbn [mm_data mm_pos]. clear -D3. revert D3. generalize (mm_pos (sr_stream s)), (mm_data (sr_stream s)). intros n l D3.
        replace (S n) with (1 + n)%nat by lia. rewrite <- skipn_skipn'. rewrite D3. reflexivity.
      * rewrite <- app_assoc. exact E3.
      * rewrite E4. rewrite app_length. cbn [List.length]. unfold fits in Hfit. rewrite E3, app_length in Hfit. rewrite N.mod_small by lia. lia.
  - unfold md5_next_byte. rewrite E1. destruct (sr_zeros s) as [|z] eqn:Ez.
    + cbn [repeat app] in *. destruct (Nat.ltb_spec (sr_lenpos s) 8) as [Hp|Hp].
      2:{ rewrite skipn_all2 in E6 by lia. discriminate E6. }
      assert (Hsk : skipn (sr_lenpos s) (sr_lenbuf s) = nth (sr_lenpos s) (sr_lenbuf s) 0 :: skipn (S (sr_lenpos s)) (sr_lenbuf s)).
      { clear -E2 Hp. rewrite <- E2 in Hp. revert Hp. generalize (sr_lenpos s), (sr_lenbuf s). intros n l. revert n.
        induction l as [|y l IH]; intros [|n] Hn; cbn [List.length] in Hn; try lia; [reflexivity|]. cbn [skipn nth]. rewrite IH by lia. reflexivity. }
      rewrite Hsk in E6. injection E6 as <- <-. eexists. split; [reflexivity|].
      match goal with |- todo _ ?s _ => set (s1 := s) end.
      assert (T : todo m s1 (repeat 0 (sr_zeros s1) ++ skipn (sr_lenpos s1) (sr_lenbuf s1))).
      { apply todo_tail; unfold s1; cbn [sr_stream sr_length sr_more_data sr_zeros sr_lenbuf sr_lenpos sr_more]; auto; try lia.
        destruct (Nat.eqb_spec (S (sr_lenpos s)) 8) as [H8|H8]; [rewrite H8; reflexivity|].
        rewrite E4. destruct (Nat.ltb_spec (S (sr_lenpos s)) 8); [reflexivity|lia]. }
      exact T.
    + cbn [repeat app] in *. injection E6 as <- <-. eexists. split; [reflexivity|].
      match goal with |- todo _ ?s _ => set (s1 := s) end.
      assert (T : todo m s1 (repeat 0 (sr_zeros s1) ++ skipn (sr_lenpos s1) (sr_lenbuf s1))).
      { apply todo_tail; unfold s1; cbn [sr_stream sr_length sr_more_data sr_zeros sr_lenbuf sr_lenpos sr_more]; auto. right. lia. }
      exact T.
Qed.
Lemma next_word_ok : forall m q s b0 b1 b2 b3, fits m -> Forall is_byte [b0; b1; b2; b3] -> todo m s (b0 :: b1 :: b2 :: b3 :: q) ->
  exists s', md5_next_word 4 s 0 0 = ROk (value_le [b0; b1; b2; b3], s') /\ todo m s' q.
Proof.
  intros m q s b0 b1 b2 b3 Hfit Hb Ht.
  destruct (next_byte_ok _ _ _ _ Hfit Ht) as (s1 & E1 & T1). destruct (next_byte_ok _ _ _ _ Hfit T1) as (s2 & E2 & T2).
  destruct (next_byte_ok _ _ _ _ Hfit T2) as (s3 & E3 & T3). destruct (next_byte_ok _ _ _ _ Hfit T3) as (s4 & E4 & T4).
  exists s4. split; [|exact T4]. cbn [md5_next_word]. rewrite E1. cbn [rbind]. rewrite E2. cbn [rbind]. rewrite E3. cbn [rbind]. rewrite E4. cbn [rbind].
  f_equal. f_equal. inversion Hb as [|? ? B0 Hb1]; subst. inversion Hb1 as [|? ? B1 Hb2]; subst. inversion Hb2 as [|? ? B2 Hb3]; subst. inversion Hb3 as [|? ? B3 _]; subst.
  unfold is_byte in *. rewrite !N.shiftl_mul_pow2.
  change (2 ^ 0) with 1. change (2 ^ (0 + 8)) with 256. change (2 ^ (0 + 8 + 8)) with 65536. change (2 ^ (0 + 8 + 8 + 8)) with 16777216.
  cbn [value_le]. assert (U : forall x, x < 4294967296 -> u32 x = x) by (intros x Hx; apply N.mod_small; exact Hx).
  rewrite (U (b0 * 1)), (U (b1 * 256)), (U (b2 * 65536)), (U (b3 * 16777216)) by lia.
  rewrite (U (0 + b0 * 1)) by lia. rewrite (U (0 + b0 * 1 + b1 * 256)) by lia. rewrite (U (0 + b0 * 1 + b1 * 256 + b2 * 65536)) by lia.
  rewrite U by lia. lia.
Qed.

Lemma block_ok : forall m k s q r, fits m -> Forall is_byte q -> List.length q = (4 * k)%nat -> todo m s (q ++ r) ->
  exists ws s', md5_block k s = ROk (ws, s') /\ todo m s' r /\ forall j, (j < k)%nat -> at_ ws j = block_word q j.
Proof.
  intros m. induction k as [|k IH]; intros s q r Hfit Hb Hl Ht.
  - destruct q; [|cbn in Hl; lia]. exists [], s. split; [reflexivity|]. split; [exact Ht|]. intros j Hj. lia.
  - destruct q as [|b0 [|b1 [|b2 [|b3 q]]]]; cbn [List.length] in Hl; try lia. cbn [app] in Ht.
    assert (Hb' : Forall is_byte [b0; b1; b2; b3] /\ Forall is_byte q) by (apply (Forall_app is_byte [b0;b1;b2;b3] q); exact Hb).
    destruct Hb' as [Hb1 Hb2]. destruct (next_word_ok _ _ _ _ _ _ _ Hfit Hb1 Ht) as (s1 & E1 & T1).
    destruct (IH s1 q r Hfit Hb2 ltac:(lia) T1) as (ws & s2 & E2 & T2 & H2).
    exists (value_le [b0; b1; b2; b3] :: ws), s2. split; [|split; [exact T2|]].
    + cbn [md5_block]. rewrite E1. cbn [rbind]. rewrite E2. reflexivity.
    + intros [|j] Hj; [reflexivity|]. unfold at_. cbn [nth]. change (nth j ws 0) with (at_ ws j). rewrite H2 by lia.
      unfold block_word. replace (4 * S j)%nat with (S (S (S (S (4 * j))))) by lia. reflexivity.
Qed.

Lemma todo_more : forall m s q, todo m s q -> sr_more s = negb (match q with [] => true | _ => false end).
Proof.
  intros m s q Ht. inversion Ht as [s0 done r E1 E2 E3 E4 E5 Es E6|s0 E1 E2 E3 E4 E5 Es E6]; subst s0.
  - rewrite E5. destruct r; reflexivity.
  - rewrite E4. destruct (Nat.ltb_spec (sr_lenpos s) 8) as [H|H].
    + destruct (repeat 0 (sr_zeros s) ++ skipn (sr_lenpos s) (sr_lenbuf s)) eqn:E; [|reflexivity].
      apply app_eq_nil in E. destruct E as [_ E]. assert (Lk := skipn_length (sr_lenpos s) (sr_lenbuf s)). rewrite E in Lk. cbn in Lk. lia.
    + rewrite skipn_all2 by lia. assert (Z : sr_zeros s = 0%nat) by lia. rewrite Z. reflexivity.
Qed.

Lemma loop_todo : forall m n s q buf fuel, fits m -> Forall is_byte q -> List.length q = (64 * n)%nat -> todo m s q ->
  List.length buf = 4%nat -> small buf -> (n < fuel)%nat ->
  exists buf', md5_loop fuel s buf = ROk buf' /\ digests (four buf) q (four buf') /\ List.length buf' = 4%nat /\ small buf'.
Proof.
  intros m. induction n as [|n IH]; intros s q buf fuel Hfit Hb Hl Ht Hbl Hbs Hf; (destruct fuel as [|fuel]; [lia|]); cbn [md5_loop].
  - destruct q; [|cbn in Hl; lia]. rewrite (todo_more _ _ _ Ht). cbn [negb]. exists buf. repeat split; auto. constructor.
  - rewrite (todo_more _ _ _ Ht). destruct q as [|b q0] eqn:Eq; [cbn in Hl; lia|]. rewrite <- Eq in *. cbn [negb].
    assert (Hsplit : q = firstn 64 q ++ skipn 64 q) by (symmetry; apply firstn_skipn).
    rewrite Hsplit in Ht. assert (Hl64 : List.length (firstn 64 q) = 64%nat) by (apply firstn_length_le; lia).
    destruct (block_ok m 16 s _ _ Hfit (Forall_firstn' _ _ 64 _ Hb) Hl64 Ht) as (ws & s' & E & T & Hw).
    rewrite E. cbn [rbind]. destruct (feed_ok ws (firstn 64 q) buf Hbl Hbs Hw) as (F1 & F2 & F3).
    destruct (IH s' (skipn 64 q) (md5_feed buf ws) fuel Hfit (Forall_skipn' _ _ 64 _ Hb)) as (buf' & I1 & I2 & I3 & I4); auto; try lia.
    { rewrite skipn_length. lia. }
    exists buf'. split; [exact I1|]. split; [|auto]. rewrite Hsplit. constructor; [exact Hl64|]. rewrite <- F3. exact I2.
Qed.

Lemma padding_ok : forall m, fits m -> padded5 m (m ++ padding_of (List.length m)) /\
  exists n, List.length (m ++ padding_of (List.length m)) = (64 * n)%nat /\ (64 * n < List.length m + 80)%nat.
Proof.
  intros m Hfit. unfold fits in Hfit. unfold padding_of. set (n := List.length m) in *.
  assert (Hz : exists k, (n + 1 + zeros_of n + 8 = 64 * k)%nat /\ (zeros_of n < 64)%nat).
  { unfold zeros_of. pose proof (N.div_mod (9 + N.of_nat n) 64 ltac:(discriminate)) as D.
    pose proof (N.mod_upper_bound (9 + N.of_nat n) 64 ltac:(discriminate)) as U. cbv zeta.
    revert D U. generalize ((9 + N.of_nat n) / 64), ((9 + N.of_nat n) mod 64). intros q r D U.
    exists (N.to_nat (if r =? 0 then q else q + 1)). destruct (N.eqb_spec r 0); lia. }
  destruct Hz as (k & Hk & Hz).
  destruct (digits256_ok 8 (8 * N.of_nat n)) as (D1 & D2 & D3).
  assert (Hlen : List.length (m ++ 128 :: repeat 0 (zeros_of n) ++ digits256 8 (8 * N.of_nat n)) = (64 * k)%nat).
  { rewrite app_length. cbn [List.length]. rewrite app_length, repeat_length, D2. fold n. lia. }
  split.
  - exists (zeros_of n), (digits256 8 (8 * N.of_nat n)). split; [reflexivity|]. split; [exact Hz|].
    split; [rewrite Hlen; rewrite Nat.mul_comm; apply Nat.mod_mul; discriminate|]. split; [exact D2|]. split; [exact D1|].
    rewrite D3. apply N.mod_small. change (256 ^ N.of_nat 8) with 18446744073709551616. fold n. lia.
  - exists k. split; [exact Hlen|]. lia.
Qed.
(** The part of the data before the first byte 255. *)
Fixpoint before_255 (m : bytes) : bytes :=
  match m with [] => [] | b :: r => if b =? 255 then [] else b :: before_255 r end.

Lemma before_ok : forall m, Forall is_byte m -> Forall is_byte (before_255 m) /\ ~ In 255 (before_255 m) /\
  exists rest, m = before_255 m ++ rest /\ (rest = [] \/ exists x, rest = 255 :: x).
Proof.
  induction 1 as [|b m Hb _ IH]; cbn [before_255]; [repeat split; auto; exists []; auto|].
  destruct (N.eqb_spec b 255) as [->|Hn].
  - repeat split; auto. exists (255 :: m). eauto.
  - destruct IH as (A & B & rest & C & D). split; [constructor; assumption|]. split; [intros [H|H]; auto|].
    exists rest. split; [|exact D]. cbn [app]. rewrite <- C. reflexivity.
Qed.
Lemma before_none : forall m, ~ In 255 m -> before_255 m = m.
Proof.
  induction m as [|b m IH]; intros H; [reflexivity|]. cbn [before_255]. destruct (N.eqb_spec b 255) as [->|Hn].
  - destruct H. left. reflexivity.
  - rewrite IH; [reflexivity|]. intros Hi. apply H. right. exact Hi.
Qed.

(** The bytes of the four words, as they are printed. *)
Definition sum_bytes (ws : list N) : bytes := List.concat (List.map (digits256 4) (firstn 4 ws)).

Lemma sprint_ok : forall ws, md5_sprint ws = hex_text (sum_bytes ws).
Proof.
  intros ws. unfold md5_sprint, hex_text, sum_bytes. induction (firstn 4 ws) as [|w l IH]; [reflexivity|].
  cbn [List.map List.concat]. rewrite map_app, concat_app, <- IH. f_equal. f_equal.
  cbn [List.map List.seq digits256]. rewrite !land_shift, !N.div_div by discriminate.
  change (2 ^ (N.of_nat 0 * 8)) with 1. rewrite N.div_1_r. reflexivity.
Qed.

(** The sum of any data is the MD5 digest of the part before the first byte 255. *)
Theorem C90_prefix : forall m fuel, Forall is_byte m -> N.of_nat (List.length m) <= 2147483574 -> (List.length m + 2 <= fuel)%nat ->
  exists ws, md5_buf fuel m = ROk ws /\ List.length ws = 4%nat /\
    exists d, is_md5 (before_255 m) d /\ unhex (md5_sprint ws) = Some d /\ List.length (md5_sprint ws) = 32%nat.
Proof.
  intros m fuel Hb Hmax Hfuel. unfold md5_buf.
  pose proof (memwrite_ok memopen m ltac:(split; cbn; lia)) as Hw. destruct (memwrite memopen m) as [n z].
  destruct Hw as (-> & Hz & Hc). rewrite Nat.eqb_refl. unfold md5.
  destruct (before_ok m Hb) as (P1 & P2 & rest & P3 & P4). revert P1 P2 P3. generalize (before_255 m). intros p P1 P2 P3.
  assert (Hpl : (List.length p <= List.length m)%nat) by (apply (f_equal (@List.length N)) in P3; rewrite app_length in P3; lia).
  assert (Hfit : fits p) by (unfold fits; lia).
  destruct (padding_ok p Hfit) as (Hpad & k & Hk & Hkl).
  set (s := mkSrc _ _ _ _ _ _ _).
  assert (Ht : todo p s (p ++ padding_of (List.length p))).
  { apply todo_data with (done := []); try reflexivity. split; [exact P1|]. split; [exact P2|]. exists rest. split; [|exact P4].
    unfold s. cbn [sr_stream mm_pos mm_data mem_rewind skipn]. unfold contents, written in Hc. injection Hc as Hd _.
    rewrite Hd. cbn [memopen mm_data mm_pos firstn app fst snd]. rewrite skipn_nil, app_nil_r. exact P3. }
  assert (Hbytes : Forall is_byte (p ++ padding_of (List.length p))).
  { apply Forall_app. split; [exact P1|]. unfold padding_of. constructor; [reflexivity|]. apply Forall_app. split; [|apply digits256_ok].
    apply Forall_forall. intros x Hx. apply repeat_spec in Hx. subst x. reflexivity. }
  destruct (loop_todo p k s _ md5_init fuel Hfit Hbytes Hk Ht eq_refl) as (ws & E & Hd & Hl & Hs).
  { repeat constructor. }
  { lia. }
  exists ws. split; [exact E|]. split; [exact Hl|]. exists (sum_bytes ws).
  destruct ws as [|a [|b [|c [|d [|]]]]]; try discriminate Hl.
  inversion Hs as [|? ? S0 Hs1]; subst. inversion Hs1 as [|? ? S1 Hs2]; subst. inversion Hs2 as [|? ? S2 Hs3]; subst. inversion Hs3 as [|? ? S3 _]; subst.
  assert (D : forall x, x < W32 -> Forall is_byte (digits256 4 x) /\ value_le (digits256 4 x) = x).
  { intros x Hx. destruct (digits256_ok 4 x) as (D1 & _ & D3). split; [exact D1|]. rewrite D3. apply N.mod_small. exact Hx. }
  destruct (D a S0) as [Ba Va], (D b S1) as [Bb Vb], (D c S2) as [Bc Vc], (D d S3) as [Bd Vd].
  assert (Hby : Forall is_byte (sum_bytes [a; b; c; d])).
  { unfold sum_bytes. cbn [firstn List.map List.concat]. repeat (apply Forall_app; split; [assumption|]). constructor. }
  split; [|rewrite sprint_ok; split; [apply unhex_text; exact Hby|reflexivity]].
  exists (p ++ padding_of (List.length p)), a, b, c, d. split; [exact Hpad|]. split; [exact Hd|]. split; [reflexivity|]. split; [exact Hby|].
  unfold sum_bytes. cbn [firstn skipn List.map List.concat digits256 app]. cbn [digits256] in Va, Vb, Vc, Vd. rewrite Va, Vb, Vc, Vd. reflexivity.
Qed.

(** For data without a byte 255 it is the MD5 digest of the data. *)
Theorem C90_md5_partial : forall m fuel, Forall is_byte m -> ~ In 255 m -> N.of_nat (List.length m) <= 2147483574 ->
  (List.length m + 2 <= fuel)%nat ->
  exists ws d, md5_buf fuel m = ROk ws /\ is_md5 m d /\ unhex (md5_sprint ws) = Some d /\ List.length (md5_sprint ws) = 32%nat.
Proof.
  intros m fuel Hb Hn Hmax Hf. destruct (C90_prefix m fuel Hb Hmax Hf) as (ws & E & _ & d & A & B & C).
  rewrite before_none in A by exact Hn. exists ws, d. auto.
Qed.

(** The digest is determined by the message. *)
Lemma digests_fun : forall v p x, digests v p x -> forall y, digests v p y -> x = y.
Proof.
  induction 1 as [v|v block r x Hl Hr IH]; intros y Hy.
  - inversion Hy as [|? block r ? Hl Hr E1]; subst; [reflexivity|]. destruct block; [discriminate Hl|discriminate].
  - inversion Hy as [? E1 E2|v' block' r' y' Hl' Hr' E1 E2]; subst.
    + destruct block; [discriminate Hl|discriminate].
    + assert (E : block' = block /\ r' = r).
      { assert (T1 : firstn 64 (block' ++ r') = firstn 64 (block ++ r)) by congruence.
        assert (T2 : skipn 64 (block' ++ r') = skipn 64 (block ++ r)) by congruence.
        assert (Cut : forall x y : bytes, List.length x = 64%nat -> firstn 64 (x ++ y) = x /\ skipn 64 (x ++ y) = y).
        { clear. intros x y <-. rewrite firstn_app, firstn_all, skipn_app, skipn_all, Nat.sub_diag. cbn [firstn skipn app]. rewrite app_nil_r. auto. }
        destruct (Cut block r Hl) as [C1 C2], (Cut block' r' Hl') as [C3 C4]. rewrite C1, C3 in T1. rewrite C2, C4 in T2. auto. }
      destruct E as [-> ->]. apply IH. exact Hr'.
Qed.
Lemma value_le_inj : forall a b, Forall is_byte a -> Forall is_byte b -> List.length a = List.length b -> value_le a = value_le b -> a = b.
Proof.
  intros a b Ha. revert b. induction Ha as [|x a Hx _ IH]; intros [|y b] Hb Hl E; try discriminate Hl; [reflexivity|].
  cbn [value_le] in E. inversion Hb as [|? ? Hy Hb']; subst. unfold is_byte in *. injection Hl as Hl.
  assert (x = y) by lia. subst y. f_equal. apply IH; auto. lia.
Qed.
Lemma padded5_fun : forall m p q, padded5 m p -> padded5 m q -> p = q.
Proof.
  intros m p q (k & len & -> & Hk & Hm & Hl & Hb & Hv) (k' & len' & -> & Hk' & Hm' & Hl' & Hb' & Hv').
  assert (len = len') by (apply value_le_inj; congruence). subst len'. f_equal. f_equal. f_equal. f_equal.
  rewrite !app_length, !repeat_length in Hm, Hm'. cbn [List.length] in Hm, Hm'. rewrite Hl in Hm, Hm'.
  apply Nat.mod_divides in Hm; [|discriminate]. apply Nat.mod_divides in Hm'; [|discriminate].
  destruct Hm as [x Hx], Hm' as [y Hy]. lia.
Qed.
Theorem C90_unique : forall m d d', is_md5 m d -> is_md5 m d' -> d = d'.
Proof.
  intros m d d' (p & A & B & C & D & P & Q & Ld & Bd & E) (p' & A' & B' & C' & D' & P' & Q' & Ld' & Bd' & E').
  rewrite (padded5_fun _ _ _ P' P) in Q'. pose proof (digests_fun _ _ _ Q _ Q') as T. injection T as <- <- <- <-.
  cbn [List.map] in E, E'. rewrite <- E' in E. injection E as E1 E2 E3 E4.
  assert (S : forall a b (k : nat), Forall is_byte a -> Forall is_byte b -> List.length a = 16%nat -> List.length b = 16%nat ->
    value_le (firstn 4 (skipn k a)) = value_le (firstn 4 (skipn k b)) -> firstn 4 (skipn k a) = firstn 4 (skipn k b)).
  { intros a b k Ha Hb' La Lb Ev. apply value_le_inj; auto using Forall_firstn', Forall_skipn'. rewrite !firstn_length, !skipn_length. lia. }
  pose proof (S d d' 0%nat Bd Bd' Ld Ld' E1) as F1. pose proof (S d d' 4%nat Bd Bd' Ld Ld' E2) as F2.
  pose proof (S d d' 8%nat Bd Bd' Ld Ld' E3) as F3. pose proof (S d d' 12%nat Bd Bd' Ld Ld' E4) as F4.
  assert (X : forall l : bytes, List.length l = 16%nat -> l = firstn 4 (skipn 0 l) ++ firstn 4 (skipn 4 l) ++ firstn 4 (skipn 8 l) ++ firstn 4 (skipn 12 l)).
  { intros l Hl. do 17 (destruct l as [|? l]; [try discriminate Hl; try reflexivity|]). discriminate Hl. }
  rewrite (X d Ld), (X d' Ld'), F1, F2, F3, F4. reflexivity.
Qed.

(** The sum of one byte 255 is the sum of no data, which is not its MD5 digest. *)
Theorem C90_byte_255_refuted : exists m ws d, Forall is_byte m /\
  md5_buf 10 m = ROk ws /\ md5_buf 10 [] = ROk ws /\ unhex (md5_sprint ws) = Some d /\ ~ is_md5 m d.
Proof.
  set (m := [255]). destruct (C90_prefix m 10 ltac:(repeat constructor) ltac:(cbn; lia) ltac:(cbn; lia)) as (ws & E & _ & d & A & B & _).
  exists m, ws, d. split; [repeat constructor|]. split; [exact E|]. split.
  - rewrite <- E. vm_compute. reflexivity.
  - split; [exact B|]. intros H1. change (before_255 m) with (@nil N) in A.
    destruct A as (p & a0 & b0 & c0 & d0 & P & Q & _ & _ & V). destruct H1 as (p' & a1 & b1 & c1 & d1 & P' & Q' & _ & _ & V').
    rewrite V in V'. injection V' as -> -> -> ->.
    pose proof (proj1 (padding_ok [] ltac:(unfold fits; cbn; lia))) as R. pose proof (proj1 (padding_ok m ltac:(unfold fits; cbn; lia))) as R'.
    rewrite (padded5_fun _ _ _ P R) in Q. rewrite (padded5_fun _ _ _ P' R') in Q'.
    assert (Hone : forall p v, List.length p = 64%nat -> digests (0x67452301, 0xefcdab89, 0x98badcfe, 0x10325476) p v ->
      v = digest_block (0x67452301, 0xefcdab89, 0x98badcfe, 0x10325476) p).
    { intros x v Hx Hd. apply (digests_fun _ _ _ Hd). rewrite <- (app_nil_r x) at 1. apply digests_block; [exact Hx|]. constructor. }
    apply Hone in Q; [|reflexivity]. apply Hone in Q'; [|reflexivity]. rewrite Q in Q'. revert Q'. vm_compute. discriminate.
Qed.

Theorem C90_eq : forall a b, List.length a = 4%nat -> List.length b = 4%nat -> md5_eq a b = true <-> a = b.
Proof.
  intros [|a0 [|a1 [|a2 [|a3 [|]]]]] [|b0 [|b1 [|b2 [|b3 [|]]]]] Ha Hb; try discriminate Ha; try discriminate Hb.
  unfold md5_eq, at_. cbn [forallb List.seq nth]. rewrite !andb_true_iff, !N.eqb_eq. split.
  - intros (-> & -> & -> & -> & _). reflexivity.
  - intros E. injection E as -> -> -> ->. auto.
Qed.

Definition printed (r : bres (list N)) : bytes := match r with ROk ws => md5_sprint ws | _ => [] end.
Example C90_abc : printed (md5_buf 10 (L "abc")) = L "900150983cd24fb0d6963f7d28e17f72".
Proof. vm_compute. reflexivity. Qed.
Example C90_two_blocks : printed (md5_buf 100 (L "12345678901234567890123456789012345678901234567890123456789012345678901234567890")) = L "57edf4a22be3c955ac49da2e2107b67a".
Proof. vm_compute. reflexivity. Qed.
End md5.

Print Assumptions C89_file_partial.
Print Assumptions C89_getc_refuted.
Print Assumptions C89_printf_refuted.
Print Assumptions C90_prefix.
Print Assumptions C90_md5_partial.
Print Assumptions C90_unique.
Print Assumptions C90_byte_255_refuted.
Print Assumptions C90_eq.
