(** Readers of bytes. *)
From Coq Require Import ZArith Lia.
From Verif Require Import LibBase LibIO LibText LibTime LibByteReader SpecByteReader.

(** A program that makes requests one after the other. *)
Fixpoint br_run (qs : list request) (r : breader) : bres (list Z) :=
  match qs with
  | [] => ROk []
  | q :: qs =>
      rbind (match q with
             | Look => ROk (br_peekc r)
             | One => ROk (br_readc r)
             | Two => ROk (br_read16 r)
             | Four => br_read32 r
             | AtEnd => ROk ((if br_ended r then 1 else 0)%Z, r)
             end) (fun '(z, r) => rbind (br_run qs r) (fun zs => ROk (z :: zs)))
  end.
(** The reader at place [p]; that the end was met is only so at the end. *)
Definition br_at (f : bytes) (p : nat) (seen : bool) (r : breader) : Prop :=
  br_left r = skipn p f /\ br_end r = seen /\ p <= List.length f /\ (seen = true -> p = List.length f).
Lemma skip_at_place : forall (f : bytes) p, p < List.length f -> skipn p f = nth p f 0%N :: skipn (S p) f.
Proof. induction f as [|c f IH]; intros p H; [cbn in H; lia|]. destruct p as [|p]; [reflexivity|]. cbn [skipn nth]. rewrite IH by (cbn in H; lia). reflexivity. Qed.
Lemma readc_at : forall f p seen r, br_at f p seen r -> p < List.length f -> exists r', br_readc r = (Z.of_N (nth p f 0%N), r') /\ br_at f (S p) seen r'.
Proof.
  intros f p seen r (Hl & He & Hp & Hs) H. unfold br_readc. rewrite Hl, (skip_at_place f p H). eexists. split; [reflexivity|]. split; [reflexivity|]. split; [exact He|]. split; [lia|]. intros K. specialize (Hs K). lia.
Qed.
Lemma int_at : forall z, (- 2147483648 <= z <= 2147483647)%Z -> int_ z = ROk z.
Proof. intros z H. unfold int_, int_max. destruct (Z.leb_spec (- (2147483647) - 1) z); [|lia]. destruct (Z.leb_spec z 2147483647); [reflexivity|lia]. Qed.
(** Every run of requests is answered from the place in the file that they have come to. *)
Theorem C117_requests_partial : forall f qs zs, Forall (fun c => c < 256)%N f -> serves_all f 0 false qs zs -> br_run qs (br_new f) = ROk zs.
Proof.
  intros f qs zs F S. assert (By : forall p, (0 <= Z.of_N (nth p f 0%N) < 256)%Z).
  { intros p. destruct (nth_in_or_default p f 0%N) as [K|K]; [rewrite Forall_forall in F; specialize (F _ K); lia|rewrite K; lia]. }
  assert (G : forall p seen qs zs, serves_all f p seen qs zs -> forall r, br_at f p seen r -> br_run qs r = ROk zs).
  { clear S qs zs. induction 1 as [p seen|p seen q z p' seen' qs zs S _ IH]; intros r H; [reflexivity|]. cbn [br_run].
    destruct S as [p seen Lp|p seen Lp|p seen Lp|p seen Lp|p seen Lp|p seen Lp V|p seen].
    - pose proof H as (Hl & He & Hp & Hs). unfold br_peekc. rewrite Hl, (skip_at_place f p Lp). cbn [rbind]. rewrite IH; [cbn [rbind number_at]; do 2 f_equal; rewrite Z.pow_0_r; lia|].
      split; [symmetry; apply (skip_at_place f p Lp)|]. split; [destruct seen; [specialize (Hs eq_refl); lia|reflexivity]|auto].
    - pose proof H as (Hl & He & Hp & Hs). unfold br_peekc. rewrite Hl, Lp, skipn_all. cbn [rbind]. rewrite IH; [reflexivity|]. split; [rewrite Lp, skipn_all; reflexivity|]. split; [reflexivity|auto].
    - destruct (readc_at f p seen r H Lp) as (r1 & -> & H1). cbn [rbind]. rewrite Nat.add_1_r in IH. rewrite (IH r1 H1). cbn [rbind number_at]. do 2 f_equal. rewrite Z.pow_0_r. lia.
    - pose proof H as (Hl & He & Hp & Hs). unfold br_readc. rewrite Hl, Lp, skipn_all. cbn [rbind]. rewrite IH; [reflexivity|]. split; [rewrite Lp, skipn_all; reflexivity|]. split; [reflexivity|auto].
    - destruct (readc_at f p seen r H ltac:(lia)) as (r1 & E1 & H1). destruct (readc_at f (S p) seen r1 H1 ltac:(lia)) as (r2 & E2 & H2).
      unfold br_read16. rewrite E1, E2. cbn [rbind]. replace (p + 2) with (S (S p)) in IH by lia. rewrite (IH r2 H2). cbn [rbind number_at Z.of_nat]. do 2 f_equal.
      pose proof (By p). pose proof (By (S p)). rewrite Z.mod_small by lia. change (256 ^ Z.pos (Pos.of_succ_nat 0))%Z with 256%Z. rewrite Z.pow_0_r. lia.
    - destruct (readc_at f p seen r H ltac:(lia)) as (r1 & E1 & H1). destruct (readc_at f _ seen r1 H1 ltac:(lia)) as (r2 & E2 & H2). destruct (readc_at f _ seen r2 H2 ltac:(lia)) as (r3 & E3 & H3). destruct (readc_at f _ seen r3 H3 ltac:(lia)) as (r4 & E4 & H4).
      pose proof (By p). pose proof (By (S p)). pose proof (By (S (S p))). pose proof (By (S (S (S p)))). cbn [number_at] in *.
      change (256 ^ Z.of_nat 3)%Z with 16777216%Z in *. change (256 ^ Z.of_nat 2)%Z with 65536%Z in *. change (256 ^ Z.of_nat 1)%Z with 256%Z in *. change (256 ^ Z.of_nat 0)%Z with 1%Z in *. change (2 ^ 31)%Z with 2147483648%Z in V.
      unfold br_read32, br_more. rewrite E1, E2. rewrite int_at by lia. cbn [rbind]. rewrite int_at by lia. cbn [rbind]. rewrite E3, int_at by lia. cbn [rbind]. rewrite int_at by lia. cbn [rbind]. rewrite E4, int_at by lia. cbn [rbind]. rewrite int_at by lia. cbn [rbind].
      replace (p + 4) with (S (S (S (S p)))) in IH by lia. rewrite (IH r4 H4). cbn [rbind]. do 2 f_equal. rewrite Z.mod_small by lia. lia.
    - pose proof H as (Hl & He & Hp & Hs). unfold br_ended. rewrite He. cbn [rbind]. rewrite (IH r H). reflexivity. }
  apply (G 0 false qs zs S). split; [reflexivity|]. split; [reflexivity|]. split; [lia|discriminate].
Qed.
(** Numbers of four bytes from 2^31 on are not defined, and a number that the end of the file cuts
    is given like a whole one. *)
Theorem C117_requests_refuted :
  ~ (forall f, Forall (fun c => c < 256)%N f -> List.length f = 4 -> br_run [Four] (br_new f) = ROk [number_at f 0 4]) /\
  ~ (forall f g, Forall (fun c => c < 256)%N (f ++ g) -> List.length f < 2 -> List.length g = 2 -> br_run [Two] (br_new f) <> br_run [Two] (br_new g)).
Proof.
  split; intros H.
  - specialize (H [128; 0; 0; 0]%N ltac:(repeat constructor) eq_refl). discriminate H.
  - apply (H [1]%N [0; 255]%N ltac:(repeat constructor) ltac:(cbn; lia) eq_refl). reflexivity.
Qed.
Example C117_example : serves_all [1; 2; 3; 4; 5; 6; 7]%N 0 false [Look; Two; Four; AtEnd; Look; One; AtEnd; One; AtEnd] [1; 258; 50595078; 0; 7; 7; 0; -1; 1]%Z.
Proof.
  set (f := [1; 2; 3; 4; 5; 6; 7]%N).
  refine (sa_cons f _ _ _ _ _ _ _ _ (s_look f 0 false _) _); [cbn; lia|]. refine (sa_cons f _ _ _ _ _ _ _ _ (s_two f 0 false _) _); [cbn; lia|]. refine (sa_cons f _ _ _ _ _ _ _ _ (s_four f 2 false _ _) _); [cbn; lia|reflexivity|].
  refine (sa_cons f _ _ _ _ _ _ _ _ (s_end f 6 false) _). refine (sa_cons f _ _ _ _ _ _ _ _ (s_look f 6 false _) _); [cbn; lia|]. refine (sa_cons f _ _ _ _ _ _ _ _ (s_one f 6 false _) _); [cbn; lia|].
  refine (sa_cons f _ _ _ _ _ _ _ _ (s_end f 7 false) _). refine (sa_cons f _ _ _ _ _ _ _ _ (s_one_end f 7 false _) _); [reflexivity|]. refine (sa_cons f _ _ _ _ _ _ _ _ (s_end f 7 true) _). constructor.
Qed.
Example C117_run_example : br_run [Look; Two; Four; AtEnd; Look; One; AtEnd; One; AtEnd] (br_new [1; 2; 3; 4; 5; 6; 7]%N) = ROk [1; 258; 50595078; 0; 7; 7; 0; -1; 1]%Z.
Proof. apply C117_requests_partial; [repeat constructor|exact C117_example]. Qed.

Print Assumptions C117_requests_partial.
Print Assumptions C117_requests_refuted.
