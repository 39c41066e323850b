(** Huffman coding: C87 (codes from a text) and C88 (canonical codes). *)
From Coq Require Import Permutation Sorting.Sorted.
From Verif Require Import LibBase LibIO LibText LibHuffman SpecIO SpecLzw SpecHuffman PropIO PropLzw.

(** * Kraft's inequality *)
Definition ksum (D : nat) (ds : list nat) : nat := list_sum (List.map (fun d => 2 ^ (D - d)) ds).

Lemma lsum_perm : forall l l', Permutation l l' -> list_sum l = list_sum l'.
Proof. induction 1; unfold list_sum in *; cbn [fold_right] in *; lia. Qed.
Lemma ksum_perm : forall D l l', Permutation l l' -> ksum D l = ksum D l'.
Proof. intros. apply lsum_perm, Permutation_map, H. Qed.
Lemma ksum_less : forall D l, Forall (fun d => d <= D) l -> ksum (S D) l = 2 * ksum D l.
Proof.
  intros D l H. induction H as [|d l Hd _ IH]; [reflexivity|]. unfold ksum in *. cbn [List.map list_sum fold_right] in *.
  replace (S D - d) with (S (D - d)) by lia. cbn [Nat.pow]. unfold list_sum in *. lia.
Qed.

Definition no_prefix (a b : list bool) : Prop := (forall m, b <> a ++ m) /\ (forall m, a <> b ++ m).
Definition apart (cs : list (list bool)) : Prop := ForallOrdPairs no_prefix cs.
Definition tails (x : bool) (cs : list (list bool)) : list (list bool) :=
  flat_map (fun c => match c with y :: r => if Bool.eqb x y then [r] else [] | [] => [] end) cs.

Lemma in_tails : forall x cs c, In c (tails x cs) <-> In (x :: c) cs.
Proof.
  intros x cs c. unfold tails. rewrite in_flat_map. split.
  - intros (d & H1 & H2). destruct d as [|y r]; [destruct H2|]. destruct (Bool.eqb_spec x y) as [->|]; [|destruct H2]. destruct H2 as [->|[]]. exact H1.
  - intros H. exists (x :: c). split; [exact H|]. rewrite Bool.eqb_reflx. left. reflexivity.
Qed.
Lemma apart_tails : forall x cs, apart cs -> apart (tails x cs).
Proof.
  intros x cs H. induction H as [|c cs Hc _ IH]; [constructor|]. cbn [tails flat_map]. fold (tails x cs). destruct c as [|y r]; [exact IH|].
  destruct (Bool.eqb_spec x y) as [->|]; [|exact IH]. cbn [app]. constructor; [|exact IH]. apply Forall_forall. intros d Hd. apply in_tails in Hd.
  rewrite Forall_forall in Hc. destruct (Hc _ Hd) as [H1 H2]. split.
  - intros m E. apply (H1 m). rewrite E. reflexivity.
  - intros m E. apply (H2 m). rewrite E. reflexivity.
Qed.
Lemma ksum_tails : forall D cs, ~ In [] cs -> ksum (S D) (List.map (@List.length bool) cs) = ksum D (List.map (@List.length bool) (tails false cs)) + ksum D (List.map (@List.length bool) (tails true cs)).
Proof.
  intros D cs H. induction cs as [|c cs IH]; [reflexivity|]. destruct c as [|y r]; [destruct H; left; reflexivity|].
  assert (H' : ~ In [] cs) by (intros X; apply H; right; exact X). specialize (IH H').
  unfold ksum, tails, list_sum in *. cbn [flat_map List.map fold_right List.length] in *. rewrite Nat.sub_succ. rewrite IH.
  destruct y; cbn [Bool.eqb app List.map fold_right List.length]; lia.
Qed.
Lemma kraft : forall D cs, apart cs -> Forall (fun c => List.length c <= D) cs -> ksum D (List.map (@List.length bool) cs) <= 2 ^ D.
Proof.
  induction D as [|D IH]; intros cs H Hl.
  - destruct cs as [|c [|d cs]]; [cbn; lia|cbn; lia|]. inversion Hl as [|? ? L1 L2]; subst. inversion L2 as [|? ? L3 _]; subst.
    destruct c; [|cbn in L1; lia]. destruct d; [|cbn in L3; lia]. inversion H as [|? ? HF _]; subst. inversion HF as [|? ? Hn _]; subst. destruct Hn as [E _].
    destruct (E []). reflexivity.
  - destruct (in_dec (list_eq_dec Bool.bool_dec) [] cs) as [Hin|Hni].
    + assert (cs = [[]]) as ->.
      { destruct cs as [|c cs]; [destruct Hin|]. inversion H as [|? ? HF HA]; subst. rewrite Forall_forall in HF. destruct Hin as [->|Hin].
        - destruct cs as [|d cs]; [reflexivity|]. destruct (HF d (or_introl eq_refl)) as [E _]. destruct (E d). reflexivity.
        - destruct (HF _ Hin) as [_ E]. destruct (E c). reflexivity. }
      cbn. lia.
    + rewrite (ksum_tails D cs Hni). pose proof (IH _ (apart_tails false cs H)) as H0. pose proof (IH _ (apart_tails true cs H)) as H1.
      rewrite Forall_forall in Hl. assert (G : forall x, Forall (fun c => List.length c <= D) (tails x cs)).
      { intros x. apply Forall_forall. intros c Hc. apply in_tails, Hl in Hc. cbn in Hc. lia. }
      specialize (H0 (G false)). specialize (H1 (G true)). cbn [Nat.pow]. lia.
Qed.

(** * Merging the two rarest is best *)
Definition wtotal (l : list (nat * nat)) : nat := list_sum (List.map (fun x => fst x * snd x) l).
Inductive greedy : list nat -> nat -> Prop :=
| g_one : forall w, greedy [w] 0
| g_step : forall ws a b ws' c, Permutation ws (a :: b :: ws') -> Forall (fun w => a <= w) (b :: ws') -> Forall (fun w => b <= w) ws' ->
    greedy (a + b :: ws') c -> greedy ws (c + a + b).

Lemma wtotal_perm : forall l l', Permutation l l' -> wtotal l = wtotal l'.
Proof. intros. apply lsum_perm, Permutation_map, H. Qed.
Lemma wtotal_cons : forall w d l, wtotal ((w, d) :: l) = w * d + wtotal l.
Proof. reflexivity. Qed.

Lemma in_perm : forall A (x : A) l, In x l -> exists l', Permutation l (x :: l').
Proof. intros A x l H. apply in_split in H. destruct H as (l1 & l2 & ->). exists (l1 ++ l2). symmetry. apply Permutation_middle. Qed.

Lemma exchange : forall l a ws D, Permutation (List.map fst l) (a :: ws) -> Forall (fun w => a <= w) ws -> In D (List.map snd l) -> Forall (fun d => d <= D) (List.map snd l) ->
  exists l1, wtotal ((a, D) :: l1) <= wtotal l /\ Permutation (List.map fst l1) ws /\ Permutation (List.map snd l) (D :: List.map snd l1).
Proof.
  intros l a ws D Hf Ha HD Hmax. assert (Hin : In a (List.map fst l)) by (rewrite Hf; left; reflexivity).
  apply in_map_iff in Hin. destruct Hin as ([a' da] & E & Hin). cbn in E. subst a'. apply in_perm in Hin. destruct Hin as [r Hr].
  rewrite Hr in Hf, HD, Hmax. cbn [List.map fst snd] in Hf, HD, Hmax. apply Permutation_cons_inv in Hf.
  rewrite (wtotal_perm _ _ Hr), wtotal_cons. destruct (Nat.eq_dec da D) as [->|Nd].
  - exists r. rewrite wtotal_cons. split; [lia|]. split; [exact Hf|]. rewrite Hr. reflexivity.
  - destruct HD as [E|HD]; [contradiction|]. apply in_map_iff in HD. destruct HD as ([x D'] & E & Hx). cbn in E. subst D'. apply in_perm in Hx. destruct Hx as [r' Hr'].
    exists ((x, da) :: r'). rewrite !wtotal_cons, (wtotal_perm _ _ Hr'), wtotal_cons. rewrite Hr' in Hf. cbn [List.map fst] in Hf.
    assert (a <= x). { rewrite Forall_forall in Ha. apply Ha. rewrite <- Hf. left. reflexivity. }
    inversion Hmax; subst. split; [nia|]. split; [exact Hf|]. rewrite Hr. cbn [List.map snd]. rewrite Hr'. cbn [List.map snd]. apply perm_swap.
Qed.

Lemma in_max : forall D l, Forall (fun d => d <= S D) l -> ~ In (S D) l -> Forall (fun d => d <= D) l.
Proof. intros D l H Hn. rewrite Forall_forall in *. intros d Hd. specialize (H d Hd). assert (d <> S D) by (intros ->; contradiction). lia. Qed.

Lemma greedy_best : forall ws c, greedy ws c -> forall D l, Permutation (List.map fst l) ws -> Forall (fun d => d <= D) (List.map snd l) ->
  ksum D (List.map snd l) <= 2 ^ D -> c <= wtotal l.
Proof.
  induction 1 as [w|ws a b ws' c Hp Ha Hb Hg IH]; [intros; lia|].
  induction D as [|D IHD]; intros l Hl Hmax Hk.
  - exfalso. pose proof (Permutation_length Hl) as E1. pose proof (Permutation_length Hp) as E2. rewrite map_length in E1. cbn [List.length] in E2.
    destruct l as [|x [|y l]]; cbn [List.length] in E1; try lia. cbn in Hk. inversion Hmax as [|? ? L1 L2]; subst. inversion L2; subst. lia.
  - destruct (in_dec Nat.eq_dec (S D) (List.map snd l)) as [Hin|Hni].
    + rewrite Hp in Hl. destruct (exchange l a (b :: ws') (S D) Hl Ha Hin Hmax) as (l1 & T1 & F1 & S1).
      rewrite (ksum_perm _ _ _ S1) in Hk. rewrite S1 in Hmax. inversion Hmax as [|? ? _ Hmax1]; subst.
      destruct (in_dec Nat.eq_dec (S D) (List.map snd l1)) as [Hin1|Hni1].
      * destruct (exchange l1 b ws' (S D) F1 Hb Hin1 Hmax1) as (l2 & T2 & F2 & S2). unfold ksum in Hk. cbn [List.map list_sum fold_right] in Hk. fold (list_sum (List.map (fun d => 2 ^ (S D - d)) (List.map snd l1))) in Hk. fold (ksum (S D) (List.map snd l1)) in Hk. rewrite (ksum_perm _ _ _ S2) in Hk. rewrite S2 in Hmax1. inversion Hmax1; subst.
        specialize (IH (S D) ((a + b, D) :: l2)). cbn [List.map fst snd] in IH. rewrite wtotal_cons in *.
        assert (c <= (a + b) * D + wtotal l2).
        { apply IH; [apply perm_skip; exact F2|constructor; [lia|assumption]|]. unfold ksum in *. cbn [List.map list_sum fold_right] in *.
          replace (S D - D) with 1 by lia. rewrite Nat.sub_diag in Hk. cbn [Nat.pow] in *. unfold list_sum in *. lia. }
        clear - H T1 T2. nia.
      * apply in_max in Hni1; [|exact Hmax1]. assert (T3 : c + a + b <= wtotal ((a, D) :: l1)).
        { apply IHD; cbn [List.map fst snd]; [rewrite Hp, F1; reflexivity|constructor; [lia|exact Hni1]|].
          pose proof (ksum_less D _ Hni1) as E. unfold ksum in *. cbn [List.map list_sum fold_right] in *. rewrite Nat.sub_diag in *. cbn [Nat.pow] in *. unfold list_sum in *. lia. }
        rewrite wtotal_cons in *. nia.
    + apply in_max in Hni; [|exact Hmax]. apply IHD; [exact Hl|exact Hni|]. rewrite (ksum_less D _ Hni) in Hk. cbn [Nat.pow] in Hk. lia.
Qed.

(** * Trees *)
Inductive good : hnode -> Prop :=
| good_leaf : forall v c, 0 < c -> good (HNode false v c HNull HNull)
| good_node : forall v a b, good a -> good b -> good (HNode false v (hn_count a + hn_count b) a b).
Fixpoint paths (t : hnode) : list (N * list bool) :=
  match t with
  | HNull => []
  | HNode _ v _ HNull _ => [(v, [])]
  | HNode _ _ _ l r => List.map (fun x => (fst x, false :: snd x)) (paths l) ++ List.map (fun x => (fst x, true :: snd x)) (paths r)
  end.
Fixpoint leaves (t : hnode) : list (N * nat) :=
  match t with
  | HNull => []
  | HNode _ v c HNull _ => [(v, c)]
  | HNode _ _ _ l r => leaves l ++ leaves r
  end.
Fixpoint height (t : hnode) : nat :=
  match t with
  | HNull => 0
  | HNode _ _ _ HNull _ => 0
  | HNode _ _ _ l r => S (Nat.max (height l) (height r))
  end.
Fixpoint tcost (t : hnode) : nat :=
  match t with
  | HNull => 0
  | HNode _ _ _ HNull _ => 0
  | HNode _ _ _ l r => tcost l + tcost r + hn_count l + hn_count r
  end.

Lemma good_shape : forall t, good t -> exists v c l r, t = HNode false v c l r.
Proof. intros t H. destruct H; eauto 6. Qed.
Lemma paths_node : forall ch v c l r, good l -> paths (HNode ch v c l r) = List.map (fun x => (fst x, false :: snd x)) (paths l) ++ List.map (fun x => (fst x, true :: snd x)) (paths r).
Proof. intros ch v c l r H. destruct (good_shape l H) as (? & ? & ? & ? & ->). reflexivity. Qed.
Lemma leaves_node : forall ch v c l r, good l -> leaves (HNode ch v c l r) = leaves l ++ leaves r.
Proof. intros ch v c l r H. destruct (good_shape l H) as (? & ? & ? & ? & ->). reflexivity. Qed.
Lemma height_node : forall ch v c l r, good l -> height (HNode ch v c l r) = S (Nat.max (height l) (height r)).
Proof. intros ch v c l r H. destruct (good_shape l H) as (? & ? & ? & ? & ->). reflexivity. Qed.
Lemma tcost_node : forall ch v c l r, good l -> tcost (HNode ch v c l r) = tcost l + tcost r + hn_count l + hn_count r.
Proof. intros ch v c l r H. destruct (good_shape l H) as (? & ? & ? & ? & ->). reflexivity. Qed.
Lemma init_node : forall ch v c l r pref table, good l -> hf_inittable (HNode ch v c l r) pref table =
  if Nat.ltb (List.length pref) 16 then
    rbind (hf_inittable l (pref ++ [false]) table) (fun table => hf_inittable r (pref ++ [true]) table)
  else RUndefined.
Proof. intros ch v c l r pref table H. destruct (good_shape l H) as (? & ? & ? & ? & ->). reflexivity. Qed.

Lemma good_weight : forall t, good t -> hn_count t = list_sum (List.map snd (leaves t)).
Proof.
  induction 1 as [v c _|v a b Ha IHa Hb IHb]; [cbn; lia|]. rewrite leaves_node, map_app, list_sum_app by exact Ha. cbn [hn_count]. lia.
Qed.
Lemma paths_leaves : forall t, good t -> List.map fst (paths t) = List.map fst (leaves t).
Proof.
  induction 1 as [v c _|v a b Ha IHa Hb IHb]; [reflexivity|]. rewrite leaves_node, paths_node, !map_app, !map_map by exact Ha. cbn [fst]. f_equal; assumption.
Qed.
Lemma paths_short : forall t, good t -> Forall (fun x => List.length (snd x) <= height t) (paths t).
Proof.
  induction 1 as [v c _|v a b Ha IHa Hb IHb]; [cbn; repeat constructor|]. rewrite paths_node, height_node by exact Ha.
  apply Forall_app. split; apply Forall_map; (eapply Forall_impl; [|eassumption]); cbn; intros; lia.
Qed.
Lemma good_positive : forall t, good t -> 0 < hn_count t.
Proof. induction 1; cbn [hn_count]; lia. Qed.

(** The cost of a tree, by its paths. *)
Lemma cost_paths : forall t, good t -> forall f, (forall v c, In (v, c) (leaves t) -> f v = c) ->
  tcost t = list_sum (List.map (fun x => f (fst x) * List.length (snd x)) (paths t)) /\
  hn_count t = list_sum (List.map (fun x => f (fst x)) (paths t)).
Proof.
  induction 1 as [v c _|v a b Ha IHa Hb IHb]; intros f Hf.
  - cbn. rewrite (Hf v c) by (left; reflexivity). lia.
  - rewrite leaves_node in Hf by exact Ha. destruct (IHa f) as [A1 A2]; [intros; apply Hf, in_or_app; auto|]. destruct (IHb f) as [B1 B2]; [intros; apply Hf, in_or_app; auto|].
    rewrite paths_node, tcost_node, !map_app, !map_map, !list_sum_app by exact Ha. cbn [fst snd List.length hn_count].
    assert (G : forall l : list (N * list bool), list_sum (List.map (fun x => f (fst x) * S (List.length (snd x))) l) =
      list_sum (List.map (fun x => f (fst x) * List.length (snd x)) l) + list_sum (List.map (fun x => f (fst x)) l)).
    { induction l as [|x l IH]; [reflexivity|]. unfold list_sum in *. cbn [List.map fold_right]. lia. }
    rewrite !G. lia.
Qed.

(** ** The writer's table *)
Lemma upd_nth_same : forall A (l : list A) i x d, i < List.length l -> nth i (upd i x l) d = x.
Proof. induction l as [|y l IH]; intros [|i] x d H; cbn in *; try lia; [reflexivity|]. apply IH. lia. Qed.
Lemma upd_nth_other : forall A (l : list A) i j x d, i <> j -> nth j (upd i x l) d = nth j l d.
Proof. induction l as [|y l IH]; intros [|i] [|j] x d H; cbn; try reflexivity; try contradiction. apply IH. lia. Qed.
Lemma upd_len : forall A (l : list A) i x, List.length (upd i x l) = List.length l.
Proof. induction l as [|y l IH]; intros [|i] x; cbn; try reflexivity. rewrite IH. reflexivity. Qed.

Lemma nodup_app : forall A (a b : list A), NoDup (a ++ b) -> NoDup a /\ NoDup b /\ (forall x, In x a -> ~ In x b).
Proof.
  induction a as [|x a IH]; cbn; intros b H; [split; [constructor|auto]|]. inversion H as [|? ? H1 H2]; subst. destruct (IH b H2) as (A1 & A2 & A3).
  split; [constructor; [intros X; apply H1, in_or_app; auto|exact A1]|]. split; [exact A2|]. intros y [->|Hy]; [intros X; apply H1, in_or_app; auto|auto].
Qed.
Lemma init_ok : forall t, good t -> forall pref table table', List.length table = N.to_nat 256 -> NoDup (List.map fst (paths t)) ->
  hf_inittable t pref table = ROk table' ->
  List.length table' = N.to_nat 256 /\
  (forall v p, In (v, p) (paths t) -> nth (N.to_nat v) table' [] = pref ++ p) /\
  (forall v, ~ In v (List.map fst (paths t)) -> nth (N.to_nat v) table' [] = nth (N.to_nat v) table []).
Proof.
  induction 1 as [v c Hc|v a b Ha IHa Hb IHb]; intros pref table table' Hl Hnd H.
  - cbn [hf_inittable] in H. destruct (N.ltb_spec v 256); [|discriminate]. injection H as <-. rewrite upd_len. split; [exact Hl|]. cbn [paths List.map fst]. split.
    + intros v' p [E|[]]. injection E as <- <-. rewrite upd_nth_same by (rewrite Hl; lia). rewrite app_nil_r. reflexivity.
    + intros v' Hv. apply upd_nth_other. intros E. apply Hv. left. lia.
  - rewrite init_node in H by exact Ha. rewrite paths_node in * by exact Ha. rewrite map_app, !map_map in Hnd |- *. cbn [fst] in *.
    destruct (Nat.ltb _ 16); [|discriminate]. destruct (hf_inittable a _ table) as [t1| | |] eqn:E1; try discriminate. cbn [rbind] in H.
    change (fun x : N * list bool => fst x) with (@fst N (list bool)) in *. destruct (nodup_app _ _ _ Hnd) as (Hn1 & Hn2 & Hdis).
    destruct (IHa _ _ _ Hl Hn1 E1) as (L1 & I1 & O1). destruct (IHb _ _ _ L1 Hn2 H) as (L2 & I2 & O2). split; [exact L2|]. split.
    + intros v' p Hin. apply in_app_or in Hin. destruct Hin as [Hin|Hin]; apply in_map_iff in Hin; destruct Hin as ([v2 q] & E & Hin); cbn in E; injection E as <- <-.
      * rewrite O2, (I1 _ _ Hin), <- app_assoc; [reflexivity|]. apply Hdis. apply in_map_iff. exists (v2, q). auto.
      * rewrite (I2 _ _ Hin), <- app_assoc. reflexivity.
    + intros v' Hv. rewrite O2, O1; [reflexivity| |]; intros Hin; apply Hv, in_or_app; auto.
Qed.
Lemma init_fits : forall t, good t -> forall pref table, Forall (fun x => (fst x < 256)%N) (paths t) -> List.length pref + height t <= 16 ->
  exists table', hf_inittable t pref table = ROk table'.
Proof.
  induction 1 as [v c Hc|v a b Ha IHa Hb IHb]; intros pref table Hv Hh.
  - cbn [hf_inittable]. inversion Hv; subst. cbn in *. destruct (N.ltb_spec v 256); [eauto|lia].
  - rewrite init_node by exact Ha. rewrite paths_node in Hv by exact Ha. rewrite height_node in Hh by exact Ha. apply Forall_app in Hv. destruct Hv as [V1 V2]. apply Forall_map in V1, V2.
    destruct (Nat.ltb_spec (List.length pref) 16); [|lia]. destruct (IHa (pref ++ [false]) table V1) as [t1 E1]; [rewrite app_length; cbn; lia|]. rewrite E1. cbn [rbind].
    apply IHb; [exact V2|rewrite app_length; cbn; lia].
Qed.

(** ** The reader *)
Lemma down_node : forall R (get : read_fn R) root ch v c l r moved br, good l -> good r ->
  hf_down get root (HNode ch v c l r) moved br =
  let '(bit, br) := bits_read1 get br in
  if (bit =? -1)%Z then if moved then RPanic else ROk ((-1)%Z, mkHr br root (HNode ch v c l r) moved)
  else let next := if (bit =? 1)%Z then r else l in
    match next with
    | HNode _ v _ HNull _ => ROk (Z.of_N v, mkHr br root root false)
    | _ => hf_down get root next true br
    end.
Proof.
  intros. cbn [hf_down]. destruct (bits_read1 get br) as [bit br']. destruct (bit =? -1)%Z; [reflexivity|].
  destruct (bit =? 1)%Z; [destruct (good_shape r H0) as (? & ? & ? & ? & ->)|destruct (good_shape l H) as (? & ? & ? & ? & ->)]; reflexivity.
Qed.
Lemma good_cases : forall t v q, good t -> In (v, q) (paths t) ->
  (exists c, t = HNode false v c HNull HNull /\ q = []) \/ (q <> [] /\ exists v' c l r, t = HNode false v' c l r /\ good l /\ good r).
Proof.
  intros t v q H Hin. destruct H as [v0 c Hc|v0 a b Ha Hb].
  - left. cbn in Hin. destruct Hin as [E|[]]. injection E as -> <-. eauto.
  - right. split; [|eauto 9]. rewrite paths_node in Hin by exact Ha. apply in_app_or in Hin.
    destruct Hin as [Hin|Hin]; apply in_map_iff in Hin; destruct Hin as ([v2 q2] & E & Hin); cbn in E; injection E as _ <-; discriminate.
Qed.
Lemma down_ok : forall R (get : read_fn R) rest, steady get rest -> ends get rest -> forall root t, good t ->
  forall v p tail moved br, In (v, p) (paths t) -> p <> [] -> bits_left rest false br (p ++ tail) ->
  exists br', hf_down get root t moved br = ROk (Z.of_N v, mkHr br' root root false) /\ bits_left rest false br' tail.
Proof.
  intros R get rest Hs He root t Hg. induction Hg as [v c Hc|v a b Ha IHa Hb IHb]; intros v' p tail moved br Hin Hp Hbits.
  - cbn in Hin. destruct Hin as [E|[]]. injection E as _ <-. contradiction.
  - rewrite down_node by assumption. rewrite paths_node in Hin by exact Ha. apply in_app_or in Hin.
    assert (Hgo : forall t q, good t -> (forall v p tail moved br, In (v, p) (paths t) -> p <> [] -> bits_left rest false br (p ++ tail) ->
        exists br', hf_down get root t moved br = ROk (Z.of_N v, mkHr br' root root false) /\ bits_left rest false br' tail) ->
      In (v', q) (paths t) -> forall br, bits_left rest false br (q ++ tail) ->
      exists br', match t with HNode _ v _ HNull _ => ROk (Z.of_N v, mkHr br root root false) | _ => hf_down get root t true br end = ROk (Z.of_N v', mkHr br' root root false) /\ bits_left rest false br' tail).
    { intros t q Hg IH Hq br1 Hb1. destruct (good_cases t v' q Hg Hq) as [(c & -> & ->)|(Hne & v1 & c1 & l & r & E & Hl & Hr)].
      - exists br1. split; [reflexivity|exact Hb1].
      - destruct (IH v' q tail true br1 Hq Hne Hb1) as (br' & E1 & H1). exists br'. split; [|exact H1]. rewrite <- E1. rewrite E. destruct (good_shape l Hl) as (? & ? & ? & ? & ->). reflexivity. }
    destruct Hin as [Hin|Hin]; apply in_map_iff in Hin; destruct Hin as ([v2 q] & E & Hin); cbn in E; injection E as <- <-; cbn [app] in Hbits;
      pose proof (bits_read1_ok R get rest Hs He false br _ Hbits) as H1; destruct (bits_read1 get br) as [c br']; destruct H1 as [-> H1]; cbn [Z.eqb Pos.eqb].
    + exact (Hgo a q Ha IHa Hin br' H1).
    + exact (Hgo b q Hb IHb Hin br' H1).
Qed.

(** ** Building *)
Fixpoint fibh (h : nat) : nat := match h with O => 1 | S h' => match h' with O => 2 | S h2 => fibh h' + fibh h2 end end.
Definition kids (t : hnode) : nat := match t with HNode _ _ _ l r => Nat.max (hn_count l) (hn_count r) | HNull => 0 end.
Definition heavy (t : hnode) : Prop := fibh (height t) <= hn_count t /\ (0 < height t -> fibh (height t - 1) <= kids t).
Definition uncles (a b : hnode) : Prop := kids a <= hn_count b /\ kids b <= hn_count a.

Lemma pairs_perm : forall A (P : A -> A -> Prop), (forall x y, P x y -> P y x) -> forall l l', Permutation l l' -> ForallOrdPairs P l -> ForallOrdPairs P l'.
Proof.
  intros A P Hsym l l' Hp. induction Hp as [|x l l' Hp IH|x y l|l l2 l3 _ IH1 _ IH2]; intros H.
  - exact H.
  - inversion H; subst. constructor; [rewrite <- Hp; assumption|auto].
  - inversion H as [|? ? F1 H1]; subst. inversion H1 as [|? ? F2 H2]; subst. inversion F1; subst. constructor; [constructor; auto|]. constructor; assumption.
  - auto.
Qed.
Lemma ss_app : forall A (P : A -> A -> Prop) x y, StronglySorted P (x ++ y) -> StronglySorted P y /\ Forall (fun b => Forall (fun a => P a b) x) y.
Proof.
  intros A P x y. induction x as [|a x IH]; cbn; intros H.
  - split; [exact H|]. apply Forall_forall. constructor.
  - inversion H as [|? ? H1 H2]; subst. destruct (IH H1) as [I1 I2]. split; [exact I1|]. apply Forall_app in H2. destruct H2 as [_ H2].
    rewrite Forall_forall in *. intros b Hb. constructor; [apply H2, Hb|]. apply I2, Hb.
Qed.

Lemma heavy_merge : forall v a b, good a -> good b -> heavy a -> heavy b -> uncles a b -> heavy (HNode false v (hn_count a + hn_count b) a b).
Proof.
  intros v a b Ha Hb [A1 A2] [B1 B2] [U1 U2]. pose proof (good_positive a Ha) as Pa. pose proof (good_positive b Hb) as Pb. unfold heavy. rewrite height_node by exact Ha. cbn [hn_count kids].
  replace (S (Nat.max (height a) (height b)) - 1) with (Nat.max (height a) (height b)) by lia. split.
  - destruct (Nat.max_spec (height a) (height b)) as [[Hlt ->]|[Hge ->]].
    + destruct (height b) as [|h] eqn:E; [lia|]. specialize (B2 ltac:(lia)). cbn [Nat.sub] in B2. rewrite Nat.sub_0_r in B2.
      change (fibh (S (S h))) with (fibh (S h) + fibh h). lia.
    + destruct (height a) as [|h] eqn:E; [change (fibh 1) with 2; lia|]. specialize (A2 ltac:(lia)). cbn [Nat.sub] in A2. rewrite Nat.sub_0_r in A2.
      change (fibh (S (S h))) with (fibh (S h) + fibh h). lia.
  - intros _. destruct (Nat.max_spec (height a) (height b)) as [[Hlt ->]|[Hge ->]]; lia.
Qed.

Lemma concat_perm : forall A (l l' : list (list A)), Permutation l l' -> Permutation (List.concat l) (List.concat l').
Proof.
  induction 1; cbn; [constructor|apply Permutation_app_head; assumption| |eapply Permutation_trans; eassumption].
  rewrite !app_assoc. apply Permutation_app_tail, Permutation_app_comm.
Qed.

Lemma merge_ok : forall sort, sorts_down hn_count sort -> forall fuel l pool, List.length l < fuel -> 0 < List.length l -> pool + List.length l <= N.to_nat 512 -> Forall good l ->
  exists t c, hf_merge sort fuel l pool = ROk [t] /\ good t /\ Permutation (leaves t) (List.concat (List.map leaves l)) /\
    greedy (List.map hn_count l) c /\ tcost t = list_sum (List.map tcost l) + c /\
    (ForallOrdPairs uncles l -> Forall heavy l -> heavy t) /\ (1 < List.length l -> 0 < height t).
Proof.
  intros sort Hsort. induction fuel as [|f IH]; intros l pool Hf Hne Hpool Hg; [lia|]. cbn [hf_merge].
  destruct (Nat.ltb_spec 1 (List.length l)) as [H1|H1].
  2:{ destruct l as [|t [|u l]]; cbn in Hne, H1; try lia. exists t, 0. split; [reflexivity|]. inversion Hg; subst. split; [assumption|]. cbn [List.map List.concat]. rewrite app_nil_r.
      split; [reflexivity|]. split; [constructor|]. split; [cbn; lia|]. split; [|cbn; lia]. intros _ H. inversion H. assumption. }
  destruct (Hsort l) as [Hp Hss]. pose proof (Permutation_length Hp) as Hlen. destruct (rev (sort l)) as [|a [|b r]] eqn:Er.
  1,2: exfalso; apply (f_equal (@List.length hnode)) in Er; rewrite rev_length in Er; cbn in Er; lia.
  assert (Es : sort l = rev r ++ [b; a]). { rewrite <- (rev_involutive (sort l)), Er. cbn. rewrite <- app_assoc. reflexivity. }
  rewrite Es in *. assert (Hp2 : Permutation l (a :: b :: rev r)).
  { rewrite Hp. change [b; a] with ([b] ++ [a]). rewrite app_assoc, Permutation_app_comm. cbn [app]. apply perm_skip. rewrite Permutation_app_comm. reflexivity. }
  destruct (ss_app _ _ _ _ Hss) as [S1 S2]. inversion S1 as [|? ? _ F1]; subst. inversion F1 as [|? ? Hab _]; subst. inversion S2 as [|? ? B1 S3]; subst. inversion S3 as [|? ? A1 _]; subst. clear S1 S2 S3 F1.
  rewrite Hp2 in Hg. inversion Hg as [|? ? Ga G1]; subst. inversion G1 as [|? ? Gb Gr]; subst.
  unfold hf_newnode. destruct (Nat.eqb_spec pool (N.to_nat 512)) as [E|_]; [lia|]. cbn [rbind].
  set (t0 := HNode false 0%N (hn_count a + hn_count b) a b).
  assert (G0 : good t0) by (constructor; assumption).
  assert (Hl2 : List.length l = S (S (List.length r))) by (rewrite Hp2; cbn [List.length]; rewrite rev_length; reflexivity).
  destruct (IH (rev r ++ [t0]) (S pool)) as (t & c & Et & Gt & Pt & Gc & Ct & Ht & Hh);
    [rewrite app_length, rev_length; cbn; lia|rewrite app_length; cbn; lia|rewrite app_length, rev_length; cbn; lia|apply Forall_app; split; [exact Gr|repeat constructor; assumption]|].
  exists t, (c + hn_count a + hn_count b). split; [exact Et|]. split; [exact Gt|].
  assert (Pc : Permutation (rev r ++ [t0]) (t0 :: rev r)) by (rewrite Permutation_app_comm; reflexivity).
  split; [|split; [|split; [|split]]].
  - rewrite Pt, (concat_perm _ _ _ (Permutation_map leaves Pc)), (concat_perm _ _ _ (Permutation_map leaves Hp2)). cbn [List.map List.concat].
    unfold t0. rewrite leaves_node by exact Ga. rewrite <- app_assoc. reflexivity.
  - eapply (g_step _ (hn_count a) (hn_count b) (List.map hn_count (rev r))); [rewrite Hp2; reflexivity| | |].
    + constructor; [exact Hab|]. apply Forall_map. exact A1.
    + apply Forall_map. exact B1.
    + replace (hn_count a + hn_count b :: List.map hn_count (rev r)) with (List.map hn_count (t0 :: rev r)) by reflexivity.
      clear - Gc Pc. assert (G : forall ws ws' c, Permutation ws ws' -> greedy ws c -> greedy ws' c).
      { intros ws ws' c0 P G. destruct G as [w|ws x y ws1 c0 P1 F1 F2 G]; [apply Permutation_length_1_inv in P; subst; constructor|]. eapply g_step; [rewrite <- P; exact P1|assumption..]. }
      eapply G; [|exact Gc]. rewrite Pc. reflexivity.
  - rewrite Ct, (lsum_perm _ _ (Permutation_map tcost Pc)), (lsum_perm _ _ (Permutation_map tcost Hp2)). unfold t0. unfold list_sum. cbn [List.map fold_right]. rewrite tcost_node by exact Ga. lia.
  - intros Hu Hhv. assert (Usym : forall x y, uncles x y -> uncles y x) by (intros x y [? ?]; split; assumption).
    apply (pairs_perm _ _ Usym _ _ Hp2) in Hu. rewrite Hp2 in Hhv. inversion Hhv as [|? ? Va V1]; subst. inversion V1 as [|? ? Vb Vr]; subst.
    inversion Hu as [|? ? Ua U1]; subst. inversion U1 as [|? ? Ub Ur]; subst. inversion Ua as [|? ? Uab Uar]; subst.
    apply Ht.
    + apply (pairs_perm _ _ Usym _ _ (Permutation_sym Pc)). constructor; [|exact Ur]. rewrite Forall_forall in *. intros z Hz. split.
      * cbn [t0 kids]. specialize (A1 z Hz). specialize (B1 z Hz). lia.
      * destruct (Uar z Hz) as [_ X]. cbn [t0 hn_count]. lia.
    + apply Forall_app. split; [exact Vr|]. constructor; [|constructor]. apply heavy_merge; assumption.
  - intros _. destruct r as [|r0 r].
    + cbn [rev app] in *. assert (t = t0) as ->.
      { destruct f as [|f]; [lia|]. cbn in Et. injection Et as <-. reflexivity. }
      unfold t0. rewrite height_node by exact Ga. lia.
    + apply Hh. rewrite app_length, rev_length. cbn. lia.
Qed.

(** ** Counting *)
Fixpoint present (counts : list nat) (i : N) : list (N * nat) :=
  match counts with
  | [] => []
  | c :: r => if Nat.eqb c 0 then present r (i + 1)%N else (i, c) :: present r (i + 1)%N
  end.
Lemma leaves_ok : forall counts i pool, pool + List.length counts <= N.to_nat 512 ->
  hf_leaves counts i pool = ROk (List.map (fun x => HNode false (fst x) (snd x) HNull HNull) (present counts i), pool + List.length (present counts i)).
Proof.
  induction counts as [|c r IH]; intros i pool H; cbn [hf_leaves present]; [cbn; rewrite Nat.add_0_r; reflexivity|]. cbn [List.length] in H.
  destruct (Nat.eqb_spec c 0); [apply IH; lia|]. unfold hf_newnode. destruct (Nat.eqb_spec pool (N.to_nat 512)); [lia|]. cbn [rbind].
  rewrite IH by lia. cbn [rbind List.map List.length fst snd]. f_equal. f_equal. lia.
Qed.
Lemma present_in : forall counts i v c, In (v, c) (present counts i) <-> (i <= v)%N /\ 0 < c /\ nth (N.to_nat (v - i)) counts 0 = c.
Proof.
  induction counts as [|c0 r IH]; intros i v c; cbn [present].
  - split; [intros []|]. intros (H1 & H2 & H3). destruct (N.to_nat (v - i)); cbn in H3; lia.
  - assert (Hs : (i + 1 <= v)%N -> nth (N.to_nat (v - i)) (c0 :: r) 0 = nth (N.to_nat (v - (i + 1))) r 0).
    { intros H. replace (N.to_nat (v - i)) with (S (N.to_nat (v - (i + 1)))) by lia. reflexivity. }
    assert (Hi : v = i -> nth (N.to_nat (v - i)) (c0 :: r) 0 = c0) by (intros ->; rewrite N.sub_diag; reflexivity).
    destruct (Nat.eqb_spec c0 0) as [->|Nc]; [rewrite IH|cbn [In]; rewrite IH]; clear IH; split.
    + intros (H1 & H2 & H3). rewrite Hs by lia. repeat split; [lia|assumption|assumption].
    + intros (H1 & H2 & H3). destruct (N.eq_dec v i) as [E|E]; [rewrite (Hi E) in H3; lia|]. rewrite Hs in H3 by lia. repeat split; [lia|assumption|assumption].
    + intros [E|(H1 & H2 & H3)]; [injection E as -> ->; rewrite Hi by reflexivity; repeat split; lia|]. rewrite Hs by lia. repeat split; [lia|assumption|assumption].
    + intros (H1 & H2 & H3). destruct (N.eq_dec v i) as [E|E]; [left; rewrite (Hi E) in H3; subst; reflexivity|]. right. rewrite Hs in H3 by lia. repeat split; [lia|assumption|assumption].
Qed.
Lemma present_nodup : forall counts i, NoDup (List.map fst (present counts i)).
Proof.
  induction counts as [|c0 r IH]; intros i; cbn [present]; [constructor|]. destruct (Nat.eqb c0 0); [apply IH|]. cbn [List.map fst]. constructor; [|apply IH].
  intros H. apply in_map_iff in H. destruct H as ([v c] & E & H). cbn in E. subst v. apply present_in in H. lia.
Qed.
Lemma counts_ok : forall s, text s -> List.length (hf_counts s) = N.to_nat 256 /\ forall v, nth (N.to_nat v) (hf_counts s) 0 = count_occ N.eq_dec s v.
Proof.
  intros s Hs. unfold hf_counts.
  assert (G : forall s counts, text s -> List.length counts = N.to_nat 256 ->
    let r := fold_left (fun counts x => upd (N.to_nat x) (S (nth (N.to_nat x) counts 0)) counts) s counts in
    List.length r = N.to_nat 256 /\ forall v, nth (N.to_nat v) r 0 = nth (N.to_nat v) counts 0 + count_occ N.eq_dec s v).
  { clear s Hs. induction s as [|x s IH]; intros counts Hs Hl; cbn [fold_left].
    - cbn. split; [exact Hl|]. intros; lia.
    - inversion Hs; subst. destruct (IH (upd (N.to_nat x) (S (nth (N.to_nat x) counts 0)) counts)) as [I1 I2]; [assumption|rewrite upd_len; exact Hl|].
      split; [exact I1|]. intros v. rewrite I2. cbn [count_occ]. destruct (N.eq_dec x v) as [->|Nx].
      + rewrite upd_nth_same by lia. lia.
      + rewrite upd_nth_other by lia. lia. }
  destruct (G s (repeat 0 (N.to_nat 256)) Hs) as [G1 G2]; [apply repeat_length|]. split; [exact G1|]. intros v. rewrite G2, nth_repeat. reflexivity.
Qed.

Lemma build_ok : forall sort, sorts_down hn_count sort -> forall s, text s -> s <> [] ->
  exists t c, hf_buildtree sort s = ROk t /\ good t /\ Permutation (leaves t) (present (hf_counts s) 0) /\
    greedy (List.map snd (present (hf_counts s) 0)) c /\ tcost t = c /\ heavy t /\ (1 < List.length (present (hf_counts s) 0) -> 0 < height t).
Proof.
  intros sort Hsort s Hs Hne. destruct (counts_ok s Hs) as [Hl Hc]. unfold hf_buildtree. rewrite leaves_ok by (rewrite Hl; lia). cbn [rbind].
  set (pr := present (hf_counts s) 0). set (l := List.map (fun x => HNode false (fst x) (snd x) HNull HNull) pr).
  assert (Hpos : Forall (fun x => 0 < snd x) pr). { apply Forall_forall. intros [v c] Hin. apply present_in in Hin. cbn. lia. }
  assert (Hlp : List.length pr <= N.to_nat 256).
  { rewrite <- Hl. unfold pr. generalize 0%N. clear. induction (hf_counts s) as [|c r IH]; intros i; cbn [present List.length]; [lia|]. destruct (Nat.eqb c 0); cbn [List.length]; specialize (IH (i + 1)%N); lia. }
  assert (Hnp : 0 < List.length pr).
  { destruct s as [|x s]; [contradiction|]. assert (Hin : In (x, count_occ N.eq_dec (x :: s) x) pr).
    { apply present_in. rewrite N.sub_0_r, Hc. split; [lia|]. split; [|reflexivity]. apply count_occ_In. left. reflexivity. }
    destruct pr; [destruct Hin|cbn; lia]. }
  assert (El : List.length l = List.length pr) by apply map_length.
  assert (Hg : Forall good l). { apply Forall_map. eapply Forall_impl; [|exact Hpos]. intros; constructor; assumption. }
  destruct (merge_ok sort Hsort (S (List.length l)) l (0 + List.length pr)) as (t & c & Et & Gt & Pt & Gc & Ct & Ht & Hh); [lia|lia|lia|exact Hg|].
  exists t, c. rewrite Et. cbn [rbind nth]. split; [reflexivity|]. split; [exact Gt|]. split.
  { rewrite Pt. unfold l. rewrite map_map. cbn [leaves]. clear. induction pr as [|[v c] pr IH]; [reflexivity|]. cbn [List.map List.concat fst snd app]. apply perm_skip, IH. }
  split; [unfold l in Gc; rewrite map_map in Gc; exact Gc|]. split.
  { rewrite Ct. replace (list_sum (List.map tcost l)) with 0; [reflexivity|]. unfold l. rewrite map_map. clear. induction pr as [|x pr IH]; [reflexivity|exact IH]. }
  split; [|rewrite <- El; exact Hh]. apply Ht.
  - unfold l. clear. induction pr as [|x pr IH]; [constructor|]. cbn [List.map]. constructor; [|exact IH]. apply Forall_map, Forall_forall. intros y _. split; cbn; lia.
  - unfold l. apply Forall_map. eapply Forall_impl; [|exact Hpos]. intros x Hx. cbn beta in Hx. split; [cbn [height fibh hn_count]; lia|cbn [height]; lia].
Qed.

Lemma perm_in_leaf : forall t s, text s -> Permutation (leaves t) (present (hf_counts s) 0) ->
  (forall v c, In (v, c) (leaves t) -> count_occ N.eq_dec s v = c) /\ NoDup (List.map fst (leaves t)) /\ (forall v, In v (List.map fst (leaves t)) <-> In v s).
Proof.
  intros t s Hs Hp. destruct (counts_ok s Hs) as [Hl Hc].
  assert (H1 : forall v c, In (v, c) (leaves t) <-> 0 < c /\ count_occ N.eq_dec s v = c).
  { intros v c. rewrite Hp, present_in, N.sub_0_r, Hc. intuition lia. }
  split; [intros v c H; apply H1 in H; apply H|]. split; [rewrite Hp; apply present_nodup|]. intros v. rewrite in_map_iff. split.
  - intros ([v2 c] & E & H). cbn in E. subst v2. apply H1 in H. apply (count_occ_In N.eq_dec). lia.
  - intros H. apply (count_occ_In N.eq_dec) in H. exists (v, count_occ N.eq_dec s v). split; [reflexivity|]. apply H1. split; [exact H|reflexivity].
Qed.

Lemma sum_by_value : forall (f : N -> nat) vs s, NoDup vs -> (forall c, In c s -> In c vs) ->
  list_sum (List.map f s) = list_sum (List.map (fun v => count_occ N.eq_dec s v * f v) vs).
Proof.
  intros f vs s Hnd. induction s as [|x s IH]; intros Hin.
  - cbn. clear. induction vs as [|v vs IH]; [reflexivity|exact IH].
  - cbn [List.map]. replace (list_sum (f x :: List.map f s)) with (f x + list_sum (List.map f s)) by reflexivity. rewrite IH by (intros; apply Hin; right; assumption).
    assert (Hx : In x vs) by (apply Hin; left; reflexivity). clear IH Hin. revert Hx. induction Hnd as [|v vs Hv Hnd IH]; intros Hx; [destruct Hx|].
    assert (Hother : forall l, ~ In x l -> list_sum (List.map (fun v => count_occ N.eq_dec (x :: s) v * f v) l) = list_sum (List.map (fun v => count_occ N.eq_dec s v * f v) l)).
    { clear. induction l as [|y l IH]; intros H; [reflexivity|]. unfold list_sum in *. cbn [List.map fold_right]. rewrite IH by (intros X; apply H; right; exact X).
      rewrite count_occ_cons_neq by (intros ->; apply H; left; reflexivity). reflexivity. }
    unfold list_sum in *. cbn [List.map fold_right]. destruct Hx as [->|Hx].
    + rewrite Hother by exact Hv. rewrite count_occ_cons_eq by reflexivity. rewrite Nat.mul_succ_l. cbn [Nat.add]. lia.
    + specialize (IH Hx). assert (x <> v) by (intros ->; contradiction). rewrite count_occ_cons_neq by exact H. lia.
Qed.
Lemma encoded_length : forall code s, List.length (encoded code s) = list_sum (List.map (fun c => List.length (code c)) s).
Proof. intros code s. induction s as [|x s IH]; [reflexivity|]. unfold encoded in *. cbn [List.map List.concat]. rewrite app_length, IH. reflexivity. Qed.

(** ** Using the writer and the reader *)
(** Writing a text, as the program's own test does; reading so many characters. *)
Fixpoint hf_writes {W} (put : write_fn W) (w : hwriter W) (s : bytes) : bool * hwriter W :=
  match s with
  | [] => (true, w)
  | c :: s => let '(ok, w) := hf_write put w c in if ok then hf_writes put w s else (false, w)
  end.
Fixpoint hf_reads {R} (get : read_fn R) (h : hreader R) (n : nat) : bres (list Z * hreader R) :=
  match n with
  | O => ROk ([], h)
  | S n => rbind (hf_read get h) (fun '(c, h) => rbind (hf_reads get h n) (fun '(l, h) => ROk (c :: l, h)))
  end.

Lemma write_bits_ok : forall W (put : write_fn W) out, takes_all put out -> forall bits w, bw_err w = false ->
  bits_write put w bits = (true, emit_bits put w bits).
Proof.
  intros W put out H. induction bits as [|b bits IH]; intros w E; [reflexivity|]. cbn [bits_write].
  pose proof (emit_no_error W put out H [b] w E) as E1. change (emit_bits put w [b]) with (snd (bits_write1 put w b)) in E1.
  assert (E2 : fst (bits_write1 put w b) = true).
  { unfold bits_write1 in *. rewrite E in *. cbn [bw_pos] in *. destruct (Nat.eqb _ 8); [|reflexivity]. cbn [fst snd] in *. rewrite E1. reflexivity. }
  change (emit_bits put w (b :: bits)) with (emit_bits put (snd (bits_write1 put w b)) bits). destruct (bits_write1 put w b) as [ok w1]. cbn [fst snd] in *. subst ok. apply IH, E1.
Qed.
Lemma writes_ok : forall W (put : write_fn W) out, takes_all put out -> forall s table bw, bw_err bw = false ->
  hf_writes put (mkHw table bw) s = (true, mkHw table (emit_bits put bw (encoded (fun c => nth (N.to_nat c) table []) s))).
Proof.
  intros W put out H. induction s as [|c s IH]; intros table bw E; [reflexivity|]. cbn [hf_writes]. unfold hf_write. cbn [hw_w hw_table].
  rewrite (write_bits_ok W put out H _ _ E). rewrite IH by (apply (emit_no_error W put out H); exact E).
  unfold encoded. cbn [List.map List.concat]. rewrite emit_app. reflexivity.
Qed.
Lemma reads_ok : forall R (get : read_fn R) rest, steady get rest -> ends get rest -> forall t, good t -> forall code s,
  (forall c, In c s -> In (c, code c) (paths t)) -> (forall c, In c s -> code c <> []) ->
  forall br tail, bits_left rest false br (encoded code s ++ tail) ->
  exists h, hf_reads get (hf_newreader t br) (List.length s) = ROk (List.map Z.of_N s, h).
Proof.
  intros R get rest Hs He t Hg code. induction s as [|c s IH]; intros Hin Hne br tail Hb; [cbn; eauto|].
  unfold encoded in Hb. cbn [List.map List.concat] in Hb. rewrite <- app_assoc in Hb.
  destruct (down_ok R get rest Hs He t t Hg c (code c) _ false br (Hin c (or_introl eq_refl)) (Hne c (or_introl eq_refl)) Hb) as (br' & E & Hb').
  cbn [hf_reads List.length]. unfold hf_read. cbn [hf_newreader hr_root hr_curr hr_moved hr_br]. rewrite E. cbn [rbind].
  destruct (IH (fun c H => Hin c (or_intror H)) (fun c H => Hne c (or_intror H)) br' tail Hb') as [h Eh]. change (mkHr br' t t false) with (hf_newreader t br'). rewrite Eh. cbn [rbind List.map]. eauto.
Qed.

(** The bits of a text in the code of the tree. *)
Lemma table_ok : forall t s W (w : W) hw, text s -> good t -> Permutation (leaves t) (present (hf_counts s) 0) -> hf_newwriter t w = ROk hw ->
  exists table, hw = mkHw table (bits_newwriter w false) /\ forall c, In c s -> In (c, nth (N.to_nat c) table []) (paths t).
Proof.
  intros t s W w hw Hs Hg Hp H. destruct (perm_in_leaf t s Hs Hp) as (_ & Hnd & Hin). rewrite <- (paths_leaves t Hg) in Hnd, Hin. unfold hf_newwriter in H.
  destruct (hf_inittable t [] (repeat [] (N.to_nat 256))) as [table| | |] eqn:E; try discriminate. cbn [rbind] in H. injection H as <-. exists table. split; [reflexivity|].
  destruct (init_ok t Hg [] _ _ (repeat_length _ _) Hnd E) as (_ & I & _). intros c Hc. apply Hin, in_map_iff in Hc. destruct Hc as ([c2 p] & Ec & Hc). cbn in Ec. subst c2.
  rewrite (I _ _ Hc). exact Hc.
Qed.
Lemma height_paths : forall t, good t -> 0 < height t -> forall v p, In (v, p) (paths t) -> p <> [].
Proof.
  intros t Hg Hh v p Hin. destruct (good_cases t v p Hg Hin) as [(c & -> & _)|[H _]]; [cbn in Hh; lia|exact H].
Qed.

(** * Theorems *)

(** A tree for a text with at least two different characters: what is written
    with it, of any text with these characters, reads back. *)
Theorem C87_round_trip_partial : forall sort, sorts_down hn_count sort -> forall s a b, text s -> In a s -> In b s -> a <> b ->
  exists t, hf_buildtree sort s = ROk t /\
  forall W (put : write_fn W) out, takes_all put out -> forall w hw, hf_newwriter t w = ROk hw ->
  forall u, (forall c, In c u -> In c s) ->
  exists hw' w' bs, hf_writes put hw u = (true, hw') /\ hf_closewriter put hw' = ROk w' /\ out w' = out w ++ bs /\
    forall R (get : read_fn R) rest, steady get rest -> ends get rest -> forall r more, rest r = bs ++ more -> Forall is_byte (rest r) ->
    exists h, hf_reads get (hf_newreader t (bits_newreader r false)) (List.length u) = ROk (List.map Z.of_N u, h).
Proof.
  intros sort Hsort s a b Hs Ha Hb Hab. destruct (build_ok sort Hsort s Hs ltac:(destruct s; [destruct Ha|discriminate])) as (t & c & Et & Gt & Pt & _ & _ & _ & Hh).
  exists t. split; [exact Et|]. intros W put out Hput w hw Ew u Hu.
  destruct (table_ok t s W w hw Hs Gt Pt Ew) as (table & -> & Htab). set (code := fun c => nth (N.to_nat c) table []) in *.
  rewrite (writes_ok W put out Hput u table (bits_newwriter w false) eq_refl). fold code.
  destruct (close_true W put out Hput _ (emit_no_error W put out Hput (encoded code u) (bits_newwriter w false) eq_refl)) as [w' Ec].
  destruct (C80_writer W put out (takes_honest _ _ _ Hput) w false (encoded code u) w' Ec) as (bs & pad & Hout & Hbs & Hpad & Hbits).
  eexists _, w', bs. split; [reflexivity|]. split; [unfold hf_closewriter; cbn [hw_w]; rewrite Ec; reflexivity|]. split; [exact Hout|].
  intros R get rest Hst Hen r more Er Hby.
  assert (H2 : 0 < height t).
  { apply Hh. destruct (perm_in_leaf t s Hs Pt) as (_ & Hnd & Hin). apply Hin in Ha, Hb. rewrite Pt in Ha, Hb. clear - Ha Hb Hab.
    destruct (present (hf_counts s) 0) as [|x [|y l]]; [destruct Ha| |cbn; lia]. cbn in Ha, Hb. destruct Ha as [Ha|[]], Hb as [Hb|[]]. congruence. }
  pose proof (newreader_left R rest r false Hby) as Hl. rewrite Er, stream_app, Hbits, <- app_assoc in Hl.
  apply (reads_ok R get rest Hst Hen t Gt code u) with (2 := fun c H => height_paths t Gt H2 c _ (Htab c (Hu c H))) (3 := Hl). intros c0 H. apply Htab, Hu, H.
Qed.

(** No prefix code is shorter for the text than what is written. *)
Theorem C87_optimal_partial : forall sort, sorts_down hn_count sort -> forall s t, text s -> s <> [] -> hf_buildtree sort s = ROk t ->
  forall W (put : write_fn W) out, takes_all put out -> forall w hw, hf_newwriter t w = ROk hw ->
  exists hw' w' bs, hf_writes put hw s = (true, hw') /\ hf_closewriter put hw' = ROk w' /\ out w' = out w ++ bs /\
    forall code, prefix_free code s -> 8 * List.length bs < List.length (encoded code s) + 8.
Proof.
  intros sort Hsort s t Hs Hne Et0. destruct (build_ok sort Hsort s Hs Hne) as (t' & c & Et & Gt & Pt & Gc & Ct & _ & _). rewrite Et in Et0. injection Et0 as ->.
  intros W put out Hput w hw Ew. destruct (table_ok t s W w hw Hs Gt Pt Ew) as (table & -> & Htab). set (tcode := fun c => nth (N.to_nat c) table []) in *.
  rewrite (writes_ok W put out Hput s table (bits_newwriter w false) eq_refl). fold tcode.
  destruct (close_true W put out Hput _ (emit_no_error W put out Hput (encoded tcode s) (bits_newwriter w false) eq_refl)) as [w' Ec].
  destruct (C80_writer W put out (takes_honest _ _ _ Hput) w false (encoded tcode s) w' Ec) as (bs & pad & Hout & Hbs & Hpad & Hbits).
  eexists _, w', bs. split; [reflexivity|]. split; [unfold hf_closewriter; cbn [hw_w]; rewrite Ec; reflexivity|]. split; [exact Hout|].
  intros code Hpf.
  assert (Hlen : 8 * List.length bs = List.length (encoded tcode s) + pad).
  { apply (f_equal (@List.length bool)) in Hbits. rewrite app_length, repeat_length in Hbits. rewrite <- Hbits. clear. unfold stream_bits. induction bs as [|x bs IH]; [reflexivity|].
    cbn [List.map List.concat]. rewrite app_length, <- IH. cbn. lia. }
  destruct (perm_in_leaf t s Hs Pt) as (Hcount & Hnd & Hin). set (vs := List.map fst (leaves t)) in *.
  assert (Hcost : List.length (encoded tcode s) = c).
  { rewrite encoded_length, (sum_by_value _ vs s Hnd) by (intros; apply Hin; assumption). rewrite <- Ct.
    destruct (cost_paths t Gt (count_occ N.eq_dec s)) as [-> _]; [exact Hcount|]. unfold vs. rewrite <- (paths_leaves t Gt), map_map. f_equal. apply map_ext_in. intros [v p] Hvp. cbn [fst snd].
    assert (Hv : In v s). { apply Hin. unfold vs. rewrite <- (paths_leaves t Gt). apply in_map_iff. exists (v, p). auto. }
    specialize (Htab v Hv). fold (tcode v) in Htab. assert (p = tcode v) as ->; [|reflexivity].
    pose proof Hnd as Hnd2. unfold vs in Hnd2. rewrite <- (paths_leaves t Gt) in Hnd2. clear - Hnd2 Hvp Htab. induction (paths t) as [|[v0 p0] l IH]; [destruct Hvp|]. cbn [List.map fst] in Hnd2. inversion Hnd2 as [|? ? N1 N2]; subst.
    assert (X : forall q, In (v, q) l -> In v (List.map fst l)) by (intros q Hq; apply in_map_iff; exists (v, q); auto).
    destruct Hvp as [E1|E1], Htab as [E2|E2]; [congruence|injection E1 as -> ->; destruct N1; eapply X; exact E2|injection E2 as -> E2; destruct N1; eapply X; exact E1|auto]. }
  assert (Hbest : c <= List.length (encoded code s)).
  { rewrite encoded_length, (sum_by_value _ vs s Hnd) by (intros; apply Hin; assumption).
    set (l := List.map (fun v => (count_occ N.eq_dec s v, List.length (code v))) vs).
    replace (list_sum _) with (wtotal l) by (unfold wtotal, l; rewrite map_map; reflexivity).
    assert (Hsnd : List.map snd l = List.map (@List.length bool) (List.map code vs)) by (unfold l; rewrite !map_map; reflexivity).
    apply (greedy_best _ c Gc (list_sum (List.map (@List.length bool) (List.map code vs)))).
    - unfold l. rewrite map_map. cbn [fst]. transitivity (List.map snd (leaves t)); [|rewrite Pt; reflexivity]. unfold vs. rewrite map_map. apply Permutation_refl'. apply map_ext_in. intros [v k] H. cbn [fst snd]. apply Hcount, H.
    - rewrite Hsnd. clear. induction (List.map (@List.length bool) (List.map code vs)) as [|x l IH]; [constructor|]. constructor; [cbn; unfold list_sum; cbn [fold_right]; lia|].
      eapply Forall_impl; [|exact IH]. cbn. unfold list_sum. cbn [fold_right]. intros; lia.
    - rewrite Hsnd. apply kraft.
      + assert (G : forall vs, NoDup vs -> (forall v, In v vs -> In v s) -> apart (List.map code vs)).
        { clear - Hpf. induction 1 as [|v vs Hv Hnd IH]; intros Hin; [constructor|]. cbn [List.map]. constructor; [|apply IH; intros; apply Hin; right; assumption].
          apply Forall_map, Forall_forall. intros x Hx. assert (Nx : v <> x) by (intros ->; contradiction). split.
          - intros m E. apply Nx. apply (Hpf v x m); [apply Hin; left; reflexivity|apply Hin; right; exact Hx|exact E].
          - intros m E. apply Nx. symmetry. apply (Hpf x v m); [apply Hin; right; exact Hx|apply Hin; left; reflexivity|exact E]. }
        apply G; [exact Hnd|]. intros v Hv. apply Hin, Hv.
      + clear. induction (List.map code vs) as [|x l IH]; [constructor|]. unfold list_sum in *. cbn [List.map fold_right]. constructor; [lia|]. eapply Forall_impl; [|exact IH]. cbn. intros; lia. }
  lia.
Qed.

(** Texts of less than 4181 characters have codes of at most 16 bits, for which the
    writer has room. *)
Lemma fibh_mono : forall h k, h <= k -> fibh h <= fibh k.
Proof.
  assert (G : forall h, fibh h <= fibh (S h) /\ 0 < fibh h).
  { induction h as [|h [IH1 IH2]]; [cbn; lia|]. change (fibh (S (S h))) with (fibh (S h) + fibh h). lia. }
  intros h k H. induction H as [|k H IH]; [lia|]. destruct (G k). lia.
Qed.
Theorem C87_room : forall sort, sorts_down hn_count sort -> forall s, text s -> s <> [] -> (N.of_nat (List.length s) < 4181)%N ->
  exists t, hf_buildtree sort s = ROk t /\ forall W (w : W), exists hw, hf_newwriter t w = ROk hw.
Proof.
  intros sort Hsort s Hs Hne Hlen. destruct (build_ok sort Hsort s Hs Hne) as (t & c & Et & Gt & Pt & _ & _ & [Hv _] & _). exists t. split; [exact Et|]. intros W w.
  destruct (perm_in_leaf t s Hs Pt) as (Hcount & Hnd & Hin).
  assert (Hw : hn_count t = List.length s).
  { rewrite (proj2 (cost_paths t Gt (count_occ N.eq_dec s) Hcount)). rewrite <- (map_map fst (fun v => count_occ N.eq_dec s v)), (paths_leaves t Gt).
    pose proof (sum_by_value (fun _ => 1) _ s Hnd ltac:(intros; apply Hin; assumption)) as E. rewrite (map_ext (fun v => count_occ N.eq_dec s v * 1) (count_occ N.eq_dec s)) in E by (intros; lia).
    transitivity (list_sum (List.map (count_occ N.eq_dec s) (List.map fst (leaves t)))); [reflexivity|]. rewrite <- E. clear. induction s as [|x s IH]; [reflexivity|]. unfold list_sum in *. cbn [List.map fold_right List.length]. lia. }
  assert (Hh : height t <= 16).
  { destruct (Nat.le_gt_cases (height t) 16) as [|Hgt]; [assumption|]. exfalso. pose proof (fibh_mono 17 (height t) Hgt) as Hf.
    assert (E : N.of_nat (fibh 17) = 4181%N) by (vm_compute; reflexivity). lia. }
  unfold hf_newwriter. destruct (init_fits t Gt [] (repeat [] (N.to_nat 256))) as [table E]; [|cbn; lia|rewrite E; cbn [rbind]; eauto].
  apply Forall_forall. intros [v p] H. cbn. unfold text in Hs. rewrite Forall_forall in Hs. apply Hs. apply Hin. rewrite <- (paths_leaves t Gt). apply in_map_iff. exists (v, p). auto.
Qed.

(** ** Cases *)
Fixpoint hinsert (x : hnode) (l : list hnode) : list hnode :=
  match l with [] => [x] | y :: r => if Nat.leb (hn_count y) (hn_count x) then x :: l else y :: hinsert x r end.
Definition hsort (l : list hnode) : list hnode := fold_right hinsert [] l.
Lemma hinsert_ok : forall x l, StronglySorted (fun x y => hn_count y <= hn_count x) l ->
  Permutation (x :: l) (hinsert x l) /\ StronglySorted (fun x y => hn_count y <= hn_count x) (hinsert x l).
Proof.
  induction l as [|y l IH]; intros H; cbn [hinsert]; [split; [reflexivity|repeat constructor]|]. inversion H as [|? ? H1 H2]; subst.
  destruct (Nat.leb_spec (hn_count y) (hn_count x)) as [Hle|Hgt].
  - split; [reflexivity|]. constructor; [exact H|]. constructor; [exact Hle|]. eapply Forall_impl; [|exact H2]. cbn. intros; lia.
  - destruct (IH H1) as [P S]. split; [rewrite perm_swap, P; reflexivity|]. constructor; [exact S|]. rewrite <- P. constructor; [lia|exact H2].
Qed.
Lemma hsort_sorts : sorts_down hn_count hsort.
Proof.
  intros l. induction l as [|x l [IH1 IH2]]; cbn [hsort fold_right]; [split; constructor|]. fold (hsort l).
  destruct (hinsert_ok x (hsort l) IH2) as [P S]. split; [rewrite <- P, <- IH1; reflexivity|exact S].
Qed.

Definition hf_file (s u : bytes) : bres bytes :=
  rbind (hf_buildtree hsort s) (fun t => rbind (hf_newwriter t []) (fun w => hf_closewriter grow (snd (hf_writes grow w u)))).
Definition hf_unfile (s bs : bytes) (n : nat) : bres (list Z) :=
  rbind (hf_buildtree hsort s) (fun t => rbind (hf_reads file_read (hf_newreader t (bits_newreader bs false)) n) (fun '(l, _) => ROk l)).

Example C87_case : let s := (L "the quick brown fox jumps over the lazy dog")%string in text s /\ In 116%N s /\ In 104%N s /\
  exists bs, hf_file s s = ROk bs /\ List.length bs = 24 /\ hf_unfile s bs 43 = ROk (List.map Z.of_N s).
Proof.
  cbv zeta. split; [unfold text; apply Forall_forall; intros c Hc; cbn in Hc; repeat (destruct Hc as [<-|Hc]; [split; reflexivity|]); destruct Hc|]. split; [left; reflexivity|]. split; [right; left; reflexivity|].
  destruct (hf_file (L "the quick brown fox jumps over the lazy dog") (L "the quick brown fox jumps over the lazy dog")) as [bs| | |] eqn:E; vm_compute in E; try discriminate E.
  exists bs. injection E as <-. split; [reflexivity|]. split; vm_compute; reflexivity.
Qed.

(** A text of one character leaves nothing, one of none has no tree. *)
Theorem C87_one_character_refuted : hf_file (L "aaa") (L "aaa") = ROk [] /\ hf_unfile (L "aaa") [] 1 = ROk [(-1)%Z] /\
  hf_file (L "") (L "") = RUndefined.
Proof. repeat split; vm_compute; reflexivity. Qed.
(** The reader takes the padding of the last byte for characters. *)
Theorem C87_padding_refuted : hf_file (L "aab") (L "aab") = ROk [192]%N /\
  hf_unfile (L "aab") [192]%N 5 = ROk (List.map Z.of_N (L "aabbb")).
Proof. split; vm_compute; reflexivity. Qed.
(** A character that is not in the tree is dropped; [write] reports success. *)
Theorem C87_unknown_character_refuted : exists t w, hf_buildtree hsort (L "ab") = ROk t /\ hf_newwriter t (@nil N) = ROk w /\
  hf_write grow w 122%N = (true, w).
Proof.
  destruct (hf_buildtree hsort (L "ab")) as [t| | |] eqn:E; vm_compute in E; try discriminate E. injection E as <-.
  eexists _, _. split; [reflexivity|]. split; vm_compute; reflexivity.
Qed.
(** Some text of 4181 characters has a code of 17 bits: the writer's tables are
    overrun. *)
Fixpoint fib_text (n a b : nat) (c : N) : bytes :=
  match n with O => [] | S n => repeat c a ++ fib_text n b (a + b) (c + 1)%N end.
Definition deep_text : bytes := (65 :: fib_text 17 1 1 66)%N.
Theorem C87_room_refuted : N.of_nat (List.length deep_text) = 4181%N /\
  rbind (hf_buildtree hsort deep_text) (fun t => hf_newwriter t (@nil N)) = RUndefined.
Proof. split; vm_compute; reflexivity. Qed.

(** * Canonical trees *)
Inductive packed : nat -> nat -> hnode -> Prop :=
| pk_none : forall h, packed h 0 HNull
| pk_leaf : forall h v, packed h (2 ^ h) (HNode true v 0 HNull HNull)
| pk_node : forall h k1 k2 l r, 0 < k1 -> packed h k1 l -> packed h k2 r -> (k1 < 2 ^ h -> k2 = 0) -> packed (S h) (k1 + k2) (HNode false 0%N 0 l r).
Definition rooted (h k : nat) (t : hnode) : Prop := (k = 0 /\ t = hf_blank) \/ (packed h k t /\ exists l r, t = HNode false 0%N 0 l r).
Fixpoint cpaths (t : hnode) : list (N * list bool) :=
  match t with
  | HNull => []
  | HNode true v _ _ _ => [(v, [])]
  | HNode false _ _ l r => List.map (fun x => (fst x, false :: snd x)) (cpaths l) ++ List.map (fun x => (fst x, true :: snd x)) (cpaths r)
  end.
Fixpoint hleaves (t : hnode) : nat := match t with HNull => 0 | HNode true _ _ _ _ => 1 | HNode false _ _ l r => hleaves l + hleaves r end.
Fixpoint hsize (t : hnode) : nat := match t with HNull => 0 | HNode _ _ _ l r => S (hsize l + hsize r) end.

Lemma pow_pos : forall h, 0 < 2 ^ h.
Proof. intros h. pose proof (Nat.pow_nonzero 2 h). lia. Qed.
Lemma packed_le : forall h k t, packed h k t -> k <= 2 ^ h.
Proof. induction 1; cbn [Nat.pow]; [lia|lia|]. pose proof (pow_pos h). destruct (Nat.lt_ge_cases k1 (2 ^ h)) as [X|X]; [rewrite (H2 X); lia|lia]. Qed.
Lemma packed_zero : forall h t, packed h 0 t -> t = HNull.
Proof. intros h t H. inversion H as [| h' v E |]; subst; [reflexivity| |lia]. pose proof (pow_pos h). lia. Qed.
Lemma packed_up : forall h k t, packed h k t -> packed (S h) (2 * k) t.
Proof.
  induction 1 as [h|h v|h k1 k2 l r H0 H1 IH1 H2 IH2 H3]; [apply (pk_none (S h))|apply (pk_leaf (S h) v)|].
  replace (2 * (k1 + k2)) with (2 * k1 + 2 * k2) by lia. apply pk_node; [lia|exact IH1|exact IH2|]. cbn [Nat.pow]. intros X. rewrite H3 by lia. reflexivity.
Qed.
Lemma rooted_up : forall h k t, rooted h k t -> rooted (S h) (2 * k) t.
Proof. intros h k t [[-> ->]|[H1 H2]]; [left; auto|right]. split; [apply packed_up, H1|exact H2]. Qed.

Definition added (val : N) (p : list bool) (t t' : hnode) : Prop := forall x, In x (cpaths t') <-> In x (cpaths t) \/ x = (val, p).
Lemma added_left : forall val p l l' r, added val p l l' -> added val (false :: p) (HNode false 0%N 0 l r) (HNode false 0%N 0 l' r).
Proof.
  intros val p l l' r H [v q]. cbn [cpaths]. rewrite !in_app_iff, !in_map_iff. split.
  - intros [([v2 q2] & E & Hin)|Hin]; [|left; right; exact Hin]. apply H in Hin. destruct Hin as [Hin|Hin]; [left; left; eauto|]. injection Hin as -> ->. right. symmetry. exact E.
  - intros [[([v2 q2] & E & Hin)|Hin]|E]; [left; exists (v2, q2); split; [exact E|apply H; auto]|right; exact Hin|]. left. exists (val, p). split; [symmetry; exact E|apply H; auto].
Qed.
Lemma added_right : forall val p l r r', added val p r r' -> added val (true :: p) (HNode false 0%N 0 l r) (HNode false 0%N 0 l r').
Proof.
  intros val p l r r' H [v q]. cbn [cpaths]. rewrite !in_app_iff, !in_map_iff. split.
  - intros [Hin|([v2 q2] & E & Hin)]; [left; left; exact Hin|]. apply H in Hin. destruct Hin as [Hin|Hin]; [left; right; eauto|]. injection Hin as -> ->. right. symmetry. exact E.
  - intros [[Hin|([v2 q2] & E & Hin)]|E]; [left; exact Hin|right; exists (v2, q2); split; [exact E|apply H; auto]|]. right. exists (val, p). split; [symmetry; exact E|apply H; auto].
Qed.
Lemma added_leaf : forall val, added val [] HNull (HNode true val 0 HNull HNull).
Proof. intros val x. cbn. intuition. Qed.
Lemma added_blank : forall val p t', added val p hf_blank t' -> added val p HNull t'.
Proof. intros val p t' H. exact H. Qed.

Definition max_pool := N.to_nat 512.
Lemma newnode_eq : forall pool, pool <= max_pool -> hf_newnode pool = if Nat.leb (pool + 1) max_pool then ROk (S pool) else RPanic.
Proof. intros pool H. unfold hf_newnode, max_pool in *. destruct (Nat.eqb_spec pool (N.to_nat 512)); destruct (Nat.leb_spec (pool + 1) (N.to_nat 512)); try reflexivity; lia. Qed.

Lemma create_ok : forall val h k t pool, rooted (S h) k t -> pool <= max_pool ->
  (k < 2 ^ S h -> exists t', rooted (S h) (S k) t' /\ hleaves t' = S (hleaves t) /\ added val (number_bits (S h) k) t t' /\ hsize t < hsize t' /\
     hf_createnode val (S h) pool t = if Nat.leb (pool + (hsize t' - hsize t)) max_pool then ROk (Some t', pool + (hsize t' - hsize t)) else RPanic) /\
  (k = 2 ^ S h -> hf_createnode val (S h) pool t = ROk (None, pool)).
Proof.
  intros val. induction h as [|h IH]; intros k t pool Hr Hpool.
  - assert (Hcase : (k = 0 /\ t = hf_blank) \/ (k = 1 /\ exists v, t = HNode false 0%N 0 (HNode true v 0 HNull HNull) HNull) \/
      (k = 2 /\ exists v w, t = HNode false 0%N 0 (HNode true v 0 HNull HNull) (HNode true w 0 HNull HNull))).
    { destruct Hr as [Hr|[Hp (l & r & ->)]]; [left; exact Hr|right]. inversion Hp as [| |? k1 k2 ? ? H0 H1 H2 H3]; subst.
      inversion H1; subst; try lia. inversion H2; subst; [left; split; [reflexivity|eauto]|right; split; [reflexivity|eauto]]. }
    destruct Hcase as [[-> ->]|[[-> [v ->]]|[-> (v & w & ->)]]]; (split; intros Hk; cbn in Hk; try lia).
    + exists (HNode false 0%N 0 (HNode true val 0 HNull HNull) HNull). split; [right; split; [apply (pk_node 0 1 0); [lia|apply (pk_leaf 0)|constructor|reflexivity]|eauto]|]. split; [reflexivity|].
      split; [apply (added_left val [] HNull); apply added_leaf|]. split; [cbn; lia|]. cbn [hf_blank hf_createnode hsize Nat.add Nat.sub]. rewrite newnode_eq by exact Hpool.
      destruct (Nat.leb _ _); [cbn [rbind]; rewrite Nat.add_1_r; reflexivity|reflexivity].
    + exists (HNode false 0%N 0 (HNode true v 0 HNull HNull) (HNode true val 0 HNull HNull)). split; [right; split; [apply (pk_node 0 1 1); [lia|apply (pk_leaf 0)|apply (pk_leaf 0)|cbn; lia]|eauto]|]. split; [reflexivity|].
      split; [apply (added_right val [] _ HNull); apply added_leaf|]. split; [cbn; lia|]. cbn [hf_createnode hsize Nat.add Nat.sub]. rewrite newnode_eq by exact Hpool.
      destruct (Nat.leb _ _); [cbn [rbind]; rewrite Nat.add_1_r; reflexivity|reflexivity].
    + cbn [hf_createnode]. reflexivity.
  - pose proof (pow_pos (S h)) as Hpow.
    assert (Hcase : exists k1 k2 l r, k = k1 + k2 /\ t = HNode false 0%N 0 l r /\ packed (S h) k1 l /\ packed (S h) k2 r /\ (k1 < 2 ^ S h -> k2 = 0)).
    { destruct Hr as [[-> ->]|[Hp (l & r & ->)]]; [exists 0, 0, HNull, HNull; repeat split; constructor|]. inversion Hp as [| |? k1 k2 ? ? H0 H1 H2 H3]; subst. exists k1, k2, l, r. auto. }
    destruct Hcase as (k1 & k2 & l & r & -> & -> & Hl & Hr' & H12). clear Hr.
    (** One side of the tree. *)
    assert (Hside : forall k0 s, packed (S h) k0 s -> exists s0 d, (rooted (S h) k0 s0 \/ (k0 = 2 ^ S h /\ exists v, s0 = HNode true v 0 HNull HNull)) /\
        (hsize s0 = hsize s + d /\ hleaves s0 = hleaves s) /\ (forall val p t', added val p s0 t' -> added val p s t') /\ (s <> HNull -> s0 = s) /\ (k0 = 2 ^ S h -> d = 0 /\ s0 = s) /\
        forall pool, pool <= max_pool -> match s with HNull => rbind (hf_newnode pool) (fun pool => ROk (hf_blank, pool)) | _ => ROk (s, pool) end =
          if Nat.leb (pool + d) max_pool then ROk (s0, pool + d) else RPanic).
    { intros k0 s Hs. inversion Hs as [|? v|? j1 j2 sl sr J0 J1 J2 J3]; subst.
      - exists hf_blank, 1. split; [left; left; auto|]. split; [split; reflexivity|]. split; [intros ? ? ? X; exact X|]. split; [intros []; reflexivity|]. split; [lia|]. intros p Hp. rewrite newnode_eq by exact Hp.
        destruct (Nat.leb _ _); [cbn [rbind]; rewrite Nat.add_1_r; reflexivity|reflexivity].
      - exists (HNode true v 0 HNull HNull), 0. split; [right; eauto|]. split; [split; [lia|reflexivity]|]. split; [auto|]. split; [reflexivity|]. split; [auto|]. intros p Hp. rewrite Nat.add_0_r. destruct (Nat.leb_spec p max_pool); [reflexivity|lia].
      - exists (HNode false 0%N 0 sl sr), 0. split; [left; right; split; [exact Hs|eauto]|]. split; [split; [lia|reflexivity]|]. split; [auto|]. split; [reflexivity|]. split; [auto|]. intros p Hp. rewrite Nat.add_0_r. destruct (Nat.leb_spec p max_pool); [reflexivity|lia]. }
    assert (Hgo : forall k0 s0 p, (rooted (S h) k0 s0 \/ (k0 = 2 ^ S h /\ exists v, s0 = HNode true v 0 HNull HNull)) -> p <= max_pool ->
        (k0 < 2 ^ S h -> exists s', (packed (S h) (S k0) s' /\ hleaves s' = S (hleaves s0)) /\ added val (number_bits (S h) k0) s0 s' /\ hsize s0 < hsize s' /\
           match s0 with HNode false _ _ _ _ => hf_createnode val (S h) p s0 | _ => ROk (None, p) end = if Nat.leb (p + (hsize s' - hsize s0)) max_pool then ROk (Some s', p + (hsize s' - hsize s0)) else RPanic) /\
        (k0 = 2 ^ S h -> match s0 with HNode false _ _ _ _ => hf_createnode val (S h) p s0 | _ => ROk (None, p) end = ROk (None, p))).
    { intros k0 s0 p [Hs|[-> [v ->]]] Hp; [|split; [lia|reflexivity]]. destruct (IH k0 s0 p Hs Hp) as [I1 I2].
      assert (Es : match s0 with HNode false _ _ _ _ => hf_createnode val (S h) p s0 | _ => ROk (None, p) end = hf_createnode val (S h) p s0).
      { destruct Hs as [[_ ->]|[_ (? & ? & ->)]]; reflexivity. }
      rewrite Es. split; [|exact I2]. intros X. destruct (I1 X) as (s' & R1 & R0 & R2 & R3 & R4). exists s'. split; [split; [destruct R1 as [[C _]|[R1 _]]; [discriminate|exact R1]|exact R0]|auto]. }
    destruct (Hside k1 l Hl) as (l0 & dl & L1 & [L2 L2'] & L3 & L4 & L5 & L6). destruct (Hside k2 r Hr') as (r0 & dr & R1 & [R2 R2'] & R3 & R4 & R5 & R6). clear Hside.
    pose proof (packed_le _ _ _ Hl) as Kl. pose proof (packed_le _ _ _ Hr') as Kr.
    change (hf_createnode val (S (S h)) pool (HNode false 0%N 0 l r)) with
      (rbind (match l with HNull => rbind (hf_newnode pool) (fun pool => ROk (hf_blank, pool)) | _ => ROk (l, pool) end) (fun '(l, pool) =>
       rbind (match l with HNode false _ _ _ _ => hf_createnode val (S h) pool l | _ => ROk (None, pool) end) (fun '(x, pool) =>
       match x with
       | Some l => ROk (Some (HNode false 0%N 0 l r), pool)
       | None =>
          rbind (match r with HNull => rbind (hf_newnode pool) (fun pool => ROk (hf_blank, pool)) | _ => ROk (r, pool) end) (fun '(r, pool) =>
          rbind (match r with HNode false _ _ _ _ => hf_createnode val (S h) pool r | _ => ROk (None, pool) end) (fun '(x, pool) =>
          match x with
          | Some r => ROk (Some (HNode false 0%N 0 l r), pool)
          | None => ROk (None, pool)
          end))
       end))).
    rewrite L6 by exact Hpool. destruct (Nat.lt_ge_cases k1 (2 ^ S h)) as [Hlt|Hge].
    + (* room on the left *)
      pose proof (H12 Hlt). subst k2. rewrite Nat.add_0_r. split; [intros _|cbn [Nat.pow] in *; lia].
      destruct (Hgo k1 l0 0 L1 ltac:(lia)) as [G0 _]. destruct (G0 Hlt) as (l' & [P' Q'] & A' & S' & _). clear G0.
      assert (Ebits : number_bits (S (S h)) k1 = false :: number_bits (S h) k1).
      { change (number_bits (S (S h)) k1) with (Nat.leb (2 ^ S h) k1 :: number_bits (S h) (if Nat.leb (2 ^ S h) k1 then k1 - 2 ^ S h else k1)). destruct (Nat.leb_spec (2 ^ S h) k1); [lia|reflexivity]. }
      assert (Hroot : forall l', packed (S h) (S k1) l' -> rooted (S (S h)) (S k1) (HNode false 0%N 0 l' r)).
      { intros l1 Hl1. right. split; [|eauto]. rewrite <- (Nat.add_0_r (S k1)). apply pk_node; [lia|exact Hl1|exact Hr'|auto]. }
      rewrite Ebits. destruct (Nat.leb_spec (pool + dl) max_pool) as [Hp|Hp].
      * destruct (Hgo k1 l0 (pool + dl) L1 Hp) as [G _]. destruct (G Hlt) as (l1 & [P1 Q1] & A1 & S1 & E1). exists (HNode false 0%N 0 l1 r). split; [apply Hroot, P1|]. split; [cbn [hleaves]; lia|].
        split; [apply added_left, L3, A1|]. cbn [hsize]. split; [lia|]. cbn [rbind]. rewrite E1. replace (S (hsize l1 + hsize r) - S (hsize l + hsize r)) with (dl + (hsize l1 - hsize l0)) by lia.
        rewrite !Nat.add_assoc. destruct (Nat.leb _ _); reflexivity.
      * exists (HNode false 0%N 0 l' r). split; [apply Hroot, P'|]. split; [cbn [hleaves]; lia|]. split; [apply added_left, L3, A'|]. cbn [hsize]. split; [lia|]. cbn [rbind].
        destruct (Nat.leb_spec (pool + (S (hsize l' + hsize r) - S (hsize l + hsize r))) max_pool); [lia|reflexivity].
    + (* the left is full *)
      assert (k1 = 2 ^ S h) by lia. destruct (L5 H) as [-> ->]. rewrite Nat.add_0_r. destruct (Nat.leb_spec pool max_pool) as [_|]; [|lia]. cbn [rbind].
      rewrite (proj2 (Hgo k1 l pool L1 Hpool) H). cbn [rbind]. rewrite R6 by exact Hpool. clear Hge.
      assert (Ebits : number_bits (S (S h)) (k1 + k2) = true :: number_bits (S h) k2).
      { change (number_bits (S (S h)) (k1 + k2)) with (Nat.leb (2 ^ S h) (k1 + k2) :: number_bits (S h) (if Nat.leb (2 ^ S h) (k1 + k2) then k1 + k2 - 2 ^ S h else k1 + k2)).
        destruct (Nat.leb_spec (2 ^ S h) (k1 + k2)); [|lia]. f_equal. f_equal. lia. }
      assert (Hroot : forall r', packed (S h) (S k2) r' -> rooted (S (S h)) (S (k1 + k2)) (HNode false 0%N 0 l r')).
      { intros r1 Hr1. right. split; [|eauto]. replace (S (k1 + k2)) with (k1 + S k2) by lia. apply pk_node; [lia|exact Hl|exact Hr1|lia]. }
      split.
      * intros Hk. assert (Hlt : k2 < 2 ^ S h) by (cbn [Nat.pow] in *; lia). rewrite Ebits.
        destruct (Hgo k2 r0 0 R1 ltac:(lia)) as [G0 _]. destruct (G0 Hlt) as (r' & [P' Q'] & A' & S' & _). clear G0.
        destruct (Nat.leb_spec (pool + dr) max_pool) as [Hp|Hp].
        -- destruct (Hgo k2 r0 (pool + dr) R1 Hp) as [G _]. destruct (G Hlt) as (r1 & [P1 Q1] & A1 & S1 & E1). exists (HNode false 0%N 0 l r1). split; [apply Hroot, P1|]. split; [cbn [hleaves]; lia|].
           split; [apply added_right, R3, A1|]. cbn [hsize]. split; [lia|]. cbn [rbind]. rewrite E1. replace (S (hsize l + hsize r1) - S (hsize l + hsize r)) with (dr + (hsize r1 - hsize r0)) by lia.
           rewrite !Nat.add_assoc. destruct (Nat.leb _ _); reflexivity.
        -- exists (HNode false 0%N 0 l r'). split; [apply Hroot, P'|]. split; [cbn [hleaves]; lia|]. split; [apply added_right, R3, A'|]. cbn [hsize]. split; [lia|]. cbn [rbind].
           destruct (Nat.leb_spec (pool + (S (hsize l + hsize r') - S (hsize l + hsize r))) max_pool); [lia|reflexivity].
      * intros Hk. assert (Hk2 : k2 = 2 ^ S h) by (cbn [Nat.pow] in *; lia). destruct (R5 Hk2) as [-> ->]. rewrite Nat.add_0_r. destruct (Nat.leb_spec pool max_pool) as [_|]; [|lia]. cbn [rbind].
        rewrite (proj2 (Hgo k2 r pool R1 Hpool) Hk2). reflexivity.
Qed.

Lemma rooted_le : forall h k t, rooted h k t -> k <= 2 ^ h.
Proof. intros h k t [[-> _]|[H _]]; [lia|eapply packed_le; exact H]. Qed.

(** The values of one length. *)
Lemma values_ok : forall h count k vals t pool vals' t' pool', rooted (S h) k t -> pool <= max_pool ->
  hf_values count (S h) vals t pool = ROk (vals', t', pool') ->
  rooted (S h) (k + count) t' /\ pool' <= max_pool /\ (forall x, In x (cpaths t) -> In x (cpaths t')) /\
  exists used, vals = used ++ vals' /\ List.length used = count /\
    forall i, i < count -> In (nth i used 0%N, number_bits (S h) (k + i)) (cpaths t').
Proof.
  intros h. induction count as [|count IH]; intros k vals t pool vals' t' pool' Hr Hp H; cbn [hf_values] in H.
  - injection H as <- <- <-. rewrite Nat.add_0_r. split; [exact Hr|]. split; [exact Hp|]. split; [auto|]. exists []. split; [reflexivity|]. split; [reflexivity|]. intros; lia.
  - destruct vals as [|ch vals]; [discriminate|]. destruct (create_ok ch h k t pool Hr Hp) as [C1 C2]. pose proof (rooted_le _ _ _ Hr) as Hk.
    destruct (Nat.eq_dec k (2 ^ S h)) as [Ek|Nk]; [rewrite (C2 Ek) in H; discriminate|]. destruct (C1 ltac:(lia)) as (t1 & R1 & _ & A1 & S1 & E1). rewrite E1 in H. clear C1 C2 E1.
    destruct (Nat.leb_spec (pool + (hsize t1 - hsize t)) max_pool) as [Hp1|]; [|discriminate]. cbn [rbind] in H.
    destruct (IH (S k) vals t1 _ vals' t' pool' R1 Hp1 H) as (I1 & I2 & I3 & used & -> & I4 & I5).
    replace (k + S count) with (S k + count) by lia. split; [exact I1|]. split; [exact I2|]. split; [intros x Hx; apply I3, A1; auto|].
    exists (ch :: used). split; [reflexivity|]. split; [cbn; lia|]. intros [|i] Hi; cbn [nth].
    + rewrite Nat.add_0_r. apply I3, A1. auto.
    + replace (k + S i) with (S k + i) by lia. apply I5. lia.
Qed.
Lemma lengths_ok : forall counts h k vals t pool t', rooted (S h) k t -> pool <= max_pool -> hf_lengths counts (S h) vals t pool = ROk t' ->
  let codes := canonical_codes (List.map N.to_nat counts) (S h) k in
  (exists h' k', rooted h' k' t') /\ List.length codes <= List.length vals /\ Forall (fun '(len, c) => c < 2 ^ len) codes /\ (forall x, In x (cpaths t) -> In x (cpaths t')) /\
  forall i, i < List.length codes -> let '(len, c) := nth i codes (0, 0) in In (nth i vals 0%N, number_bits len c) (cpaths t').
Proof.
  induction counts as [|count counts IH]; intros h k vals t pool t' Hr Hp H; cbn [hf_lengths] in H.
  - injection H as <-. cbn. split; [eauto|]. split; [lia|]. split; [constructor|]. split; [auto|]. intros; lia.
  - destruct (hf_values _ _ vals t pool) as [[[vals1 t1] pool1]| | |] eqn:E; try discriminate. cbn [rbind] in H.
    destruct (values_ok h _ k vals t pool vals1 t1 pool1 Hr Hp E) as (R1 & P1 & M1 & used & -> & Lu & Iu).
    destruct (IH (S h) (2 * (k + N.to_nat count)) vals1 t1 pool1 t' (rooted_up _ _ _ R1) P1 H) as (J0 & J1 & J2 & J3 & J4).
    cbn [List.map canonical_codes]. split; [exact J0|]. set (cs := canonical_codes (List.map N.to_nat counts) (S (S h)) (2 * (k + N.to_nat count))) in *.
    assert (Lm : List.length (List.map (fun i => (S h, k + i)) (List.seq 0 (N.to_nat count))) = N.to_nat count) by (rewrite map_length, seq_length; reflexivity).
    pose proof (rooted_le _ _ _ R1) as Hle. rewrite !app_length, Lm. split; [lia|]. split; [|split].
    + apply Forall_app. split; [|exact J2]. apply Forall_map, Forall_forall. intros i Hi. apply in_seq in Hi. lia.
    + intros x Hx. apply J3, M1, Hx.
    + intros i Hi. destruct (Nat.lt_ge_cases i (N.to_nat count)) as [Hlt|Hge].
      * rewrite app_nth1 by lia. rewrite (nth_indep _ (0, 0) ((fun i => (S h, k + i)) 0)) by lia. rewrite (map_nth (fun i => (S h, k + i))). rewrite seq_nth by exact Hlt.
        cbn [Nat.add]. rewrite app_nth1 by lia. apply J3, Iu, Hlt.
      * rewrite app_nth2 by lia. rewrite Lm. rewrite app_nth2 by lia. rewrite Lu. apply J4. lia.
Qed.

(** Reading with a packed tree. *)
Lemma cdown_ok : forall R (get : read_fn R) rest, steady get rest -> ends get rest -> forall root h k t, packed h k t ->
  forall v p tail moved br, In (v, p) (cpaths t) -> p <> [] -> bits_left rest false br (p ++ tail) ->
  exists br', hf_down get root t moved br = ROk (Z.of_N v, mkHr br' root root false) /\ bits_left rest false br' tail.
Proof.
  intros R get rest Hs He root h k t Hg. induction Hg as [h|h v0|h k1 k2 l r H0 Hl IHl Hr IHr H12]; intros v p tail moved br Hin Hp Hbits.
  - destruct Hin.
  - cbn in Hin. destruct Hin as [E|[]]. injection E as _ <-. contradiction.
  - assert (Hgo : forall s j q, packed h j s -> (forall v p tail moved br, In (v, p) (cpaths s) -> p <> [] -> bits_left rest false br (p ++ tail) ->
        exists br', hf_down get root s moved br = ROk (Z.of_N v, mkHr br' root root false) /\ bits_left rest false br' tail) ->
      In (v, q) (cpaths s) -> forall br, bits_left rest false br (q ++ tail) ->
      exists br', match s with HNull => RUndefined | HNode _ v _ HNull _ => ROk (Z.of_N v, mkHr br root root false) | _ => hf_down get root s true br end = ROk (Z.of_N v, mkHr br' root root false) /\ bits_left rest false br' tail).
    { intros s j q Hg IH Hq br1 Hb1. inversion Hg as [|? v1|h2 j1 j2 sl sr J0 J1 J2 J3]; subst.
      - destruct Hq.
      - cbn in Hq. destruct Hq as [E|[]]. injection E as -> <-. exists br1. split; [reflexivity|exact Hb1].
      - assert (Hne : q <> []). { cbn [cpaths] in Hq. apply in_app_or in Hq. destruct Hq as [Hq|Hq]; apply in_map_iff in Hq; destruct Hq as ([v2 q2] & E & _); cbn in E; injection E as _ <-; discriminate. }
        destruct (IH v q tail true br1 Hq Hne Hb1) as (br' & E1 & H1). exists br'. split; [|exact H1]. rewrite <- E1. destruct sl; [|reflexivity]. inversion J1; subst. lia. }
    cbn [cpaths] in Hin. apply in_app_or in Hin. cbn [hf_down].
    destruct Hin as [Hin|Hin]; apply in_map_iff in Hin; destruct Hin as ([v2 q] & E & Hin); cbn in E; injection E as <- <-; cbn [app] in Hbits;
      pose proof (bits_read1_ok R get rest Hs He false br _ Hbits) as H1; destruct (bits_read1 get br) as [c br']; destruct H1 as [-> H1]; cbn [Z.eqb Pos.eqb].
    + exact (Hgo l k1 q Hl IHl Hin br' H1).
    + exact (Hgo r k2 q Hr IHr Hin br' H1).
Qed.

(** A tree made from length counts and values: the values have the canonical codes,
    which fit in their lengths, and any sequence of these codes reads as their
    values. *)
Theorem C88_canonical : forall lencounts vals t, hf_treefrom lencounts vals = ROk t ->
  let codes := canonical_codes (List.map N.to_nat lencounts) 1 0 in
  let code i := let '(len, c) := nth i codes (0, 0) in number_bits len c in
  List.length codes <= List.length vals /\ Forall (fun '(len, c) => c < 2 ^ len) codes /\
  forall is, Forall (fun i => i < List.length codes) is ->
  forall R (get : read_fn R) rest, steady get rest -> ends get rest -> forall r more, Forall is_byte (rest r) ->
  stream_bits false (rest r) = List.concat (List.map code is) ++ more ->
  exists h, hf_reads get (hf_newreader t (bits_newreader r false)) (List.length is) = ROk (List.map (fun i => Z.of_N (nth i vals 0%N)) is, h).
Proof.
  intros lencounts vals t H. unfold hf_treefrom, hf_newnode in H. change (Nat.eqb 0 (N.to_nat 512)) with false in H. cbn [rbind] in H.
  destruct (lengths_ok lencounts 0 0 vals hf_blank 1 t (or_introl (conj eq_refl eq_refl)) ltac:(unfold max_pool; lia) H) as ((h' & k' & Hroot) & H1 & H2 & _ & H3).
  cbv zeta. set (codes := canonical_codes (List.map N.to_nat lencounts) 1 0) in *. split; [exact H1|]. split; [exact H2|].
  intros is His R get rest Hs He r more Hby Hbits. pose proof (newreader_left R rest r false Hby) as Hl. rewrite Hbits in Hl. clear Hbits H1. revert Hl. generalize (bits_newreader r false).
  induction His as [|i is Hi His IH]; intros br Hl; [cbn; eauto|]. cbn [List.map List.concat] in Hl. rewrite <- app_assoc in Hl.
  specialize (H3 i Hi). assert (Hc : Forall (fun '(len, c) => 0 < len) codes).
  { assert (G : forall l len k, 0 < len -> Forall (fun '(len, c) => 0 < len) (canonical_codes l len k)).
    { clear. induction l as [|x l IH]; intros len k Hlen; cbn [canonical_codes]; [constructor|]. apply Forall_app. split; [|apply IH; lia]. apply Forall_map, Forall_forall. intros; assumption. }
    apply G. lia. }
  rewrite Forall_forall in Hc. specialize (Hc _ (nth_In codes (0, 0) Hi)). destruct (nth i codes (0, 0)) as [len c]. destruct len as [|len]; [lia|].
  assert (Hpk : packed h' k' t). { destruct Hroot as [[_ ->]|[Hpk _]]; [destruct H3|exact Hpk]. }
  destruct (cdown_ok R get rest Hs He t h' k' t Hpk _ _ _ false br H3 ltac:(cbn; discriminate) Hl) as (br' & E & Hl').
  cbn [hf_reads List.length]. unfold hf_read. cbn [hf_newreader hr_root hr_curr hr_moved hr_br]. rewrite E. cbn [rbind].
  destruct (IH br' Hl') as [hh Eh]. change (mkHr br' t t false) with (hf_newreader t br'). rewrite Eh. cbn [rbind List.map]. eauto.
Qed.

(** ** Trees that can be made *)
Lemma packed_size : forall h k t, packed h k t -> t = HNull \/ (0 < hleaves t /\ hsize t + 1 <= 2 * hleaves t + h /\ (k = 2 ^ h -> hsize t + 1 <= 2 * hleaves t)).
Proof.
  induction 1 as [h|h v|h k1 k2 l r H0 Hl IHl Hr IHr H12]; [left; reflexivity|right; cbn; lia|]. right. cbn [hleaves hsize].
  destruct IHl as [->|(L0 & L1 & L2)]; [inversion Hl; subst; lia|]. pose proof (packed_le _ _ _ Hl) as Kl. pose proof (packed_le _ _ _ Hr) as Kr.
  destruct (Nat.lt_ge_cases k1 (2 ^ h)) as [Hlt|Hge].
  - pose proof (H12 Hlt). subst k2. pose proof (packed_zero _ _ Hr). subst r. cbn [hleaves hsize]. split; [lia|]. split; [lia|]. cbn [Nat.pow]. pose proof (pow_pos h). lia.
  - specialize (L2 ltac:(lia)). destruct IHr as [->|(R0 & R1 & R2)].
    + cbn [hleaves hsize]. split; [lia|]. split; [lia|]. inversion Hr; subst. cbn [Nat.pow]. pose proof (pow_pos h). lia.
    + split; [lia|]. split; [lia|]. cbn [Nat.pow]. intros E. specialize (R2 ltac:(lia)). lia.
Qed.
Lemma rooted_size : forall h k t, rooted (S h) k t -> 0 < k -> hsize t + 1 <= 2 * hleaves t + S h.
Proof. intros h k t [[-> _]|[H (l & r & ->)]] Hk; [lia|]. destruct (packed_size _ _ _ H) as [|(_ & X & _)]; [discriminate|exact X]. Qed.
Lemma values_fit : forall h count k vals t, rooted (S h) k t -> k + count <= 2 ^ S h -> count <= List.length vals -> hsize t <= max_pool ->
  2 * (hleaves t + count) + S h <= max_pool + 1 ->
  exists t', hf_values count (S h) vals t (hsize t) = ROk (skipn count vals, t', hsize t') /\ rooted (S h) (k + count) t' /\ hleaves t' = hleaves t + count /\ hsize t' <= max_pool.
Proof.
  intros h. induction count as [|count IH]; intros k vals t Hr Hk Hv Hp Hm; cbn [hf_values].
  - exists t. rewrite !Nat.add_0_r. auto.
  - destruct vals as [|ch vals]; [cbn in Hv; lia|]. cbn [List.length] in Hv. destruct (create_ok ch h k t (hsize t) Hr Hp) as [C1 _].
    destruct (C1 ltac:(lia)) as (t1 & R1 & L1 & _ & S1 & ->). clear C1. pose proof (rooted_size h (S k) t1 R1 ltac:(lia)) as Hsz.
    replace (hsize t + (hsize t1 - hsize t)) with (hsize t1) by lia. destruct (Nat.leb_spec (hsize t1) max_pool) as [Hp1|]; [|lia]. cbn [rbind].
    destruct (IH (S k) vals t1 R1) as (t' & E & I1 & I2 & I3); [lia|lia|exact Hp1|lia|]. exists t'. cbn [skipn]. split; [exact E|]. replace (k + S count) with (S k + count) by lia. split; [exact I1|]. split; [lia|exact I3].
Qed.
Lemma lengths_fit : forall counts h k vals t, rooted (S h) k t -> hsize t <= max_pool ->
  let codes := canonical_codes (List.map N.to_nat counts) (S h) k in
  Forall (fun '(len, c) => c < 2 ^ len) codes -> List.length codes <= List.length vals ->
  2 * (hleaves t + List.length codes) + h + List.length counts <= max_pool + 1 ->
  exists t', hf_lengths counts (S h) vals t (hsize t) = ROk t'.
Proof.
  induction counts as [|count counts IH]; intros h k vals t Hr Hp; cbv zeta; intros Hc Hv Hm; cbn [hf_lengths]; [eauto|].
  cbn [List.map canonical_codes] in Hc, Hv, Hm. set (cs := canonical_codes (List.map N.to_nat counts) (S (S h)) (2 * (k + N.to_nat count))) in *.
  rewrite app_length, map_length, seq_length in Hv, Hm. cbn [List.length] in Hm. apply Forall_app in Hc. destruct Hc as [Hc1 Hc2].
  assert (Hk : k + N.to_nat count <= 2 ^ S h).
  { destruct (N.to_nat count) as [|n] eqn:En; [rewrite Nat.add_0_r; eapply rooted_le; exact Hr|]. apply Forall_map in Hc1. rewrite Forall_forall in Hc1. specialize (Hc1 n ltac:(apply in_seq; lia)). cbn beta in Hc1. lia. }
  destruct (values_fit h (N.to_nat count) k vals t Hr Hk) as (t1 & E & R1 & L1 & P1); [lia|exact Hp|lia|]. rewrite E. cbn [rbind].
  apply (IH (S h) (2 * (k + N.to_nat count)) _ t1 (rooted_up _ _ _ R1) P1 Hc2); [change (List.length cs <= List.length (skipn (N.to_nat count) vals)); rewrite skipn_length; clear - Hv; lia|change (2 * (hleaves t1 + List.length cs) + S h + List.length counts <= max_pool + 1); clear - Hm L1; lia].
Qed.

(** Whenever the codes fit, and there are not too many of them, the tree is made. *)
Theorem C88_possible_partial : forall lencounts vals,
  let codes := canonical_codes (List.map N.to_nat lencounts) 1 0 in
  Forall (fun '(len, c) => c < 2 ^ len) codes -> List.length codes <= List.length vals ->
  2 * List.length codes + List.length lencounts <= N.to_nat 512 ->
  exists t, hf_treefrom lencounts vals = ROk t.
Proof.
  intros lencounts vals. cbv zeta. intros H1 H2 H3. unfold hf_treefrom, hf_newnode. change (Nat.eqb 0 (N.to_nat 512)) with false. cbn [rbind].
  apply (lengths_fit lencounts 0 0 vals hf_blank (or_introl (conj eq_refl eq_refl)) ltac:(unfold max_pool; cbn [hf_blank hsize]; lia) H1 H2). cbn [hf_blank hleaves]. unfold max_pool. lia.
Qed.

(** The tree of the module's own test. *)
Example C88_case : exists t, hf_treefrom [0;3;1;2]%N (L "TAHSND") = ROk t /\
  canonical_codes (List.map N.to_nat [0;3;1;2]%N) 1 0 = [(2, 0); (2, 1); (2, 2); (3, 6); (4, 14); (4, 15)] /\
  exists h, hf_reads file_read (hf_newreader t (bits_newreader [123;194;77;9;0]%N false)) 4 = ROk (List.map Z.of_N (L "ANDT"), h).
Proof.
  destruct (hf_treefrom [0;3;1;2]%N (L "TAHSND")) as [t| | |] eqn:E; vm_compute in E; try discriminate E. injection E as <-.
  eexists. split; [reflexivity|]. split; [reflexivity|]. eexists. vm_compute. reflexivity.
Qed.
(** A bit pattern that is no code makes the reader follow a null pointer. *)
Theorem C88_no_code_refuted : exists t, hf_treefrom [1]%N (L "a") = ROk t /\
  hf_read file_read (hf_newreader t (bits_newreader [128]%N false)) = RUndefined.
Proof.
  destruct (hf_treefrom [1]%N (L "a")) as [t| | |] eqn:E; vm_compute in E; try discriminate E. injection E as <-. eexists. split; [reflexivity|vm_compute; reflexivity].
Qed.
(** 256 values with a code that fits, but too many nodes. *)
Definition many_lengths : bytes := repeat 0%N 9 ++ [32;32;32;32;32;32;64]%N.
Theorem C88_pool_refuted : let codes := canonical_codes (List.map N.to_nat many_lengths) 1 0 in
  List.length codes = N.to_nat 256 /\ forallb (fun '(len, c) => Nat.ltb c (2 ^ len)) codes = true /\
  hf_treefrom many_lengths (repeat 0%N (N.to_nat 256)) = RPanic.
Proof. cbv zeta. split; [vm_compute; reflexivity|]. split; vm_compute; reflexivity. Qed.

Print Assumptions C87_round_trip_partial.
Print Assumptions C87_optimal_partial.
Print Assumptions C87_room.
Print Assumptions C87_one_character_refuted.
Print Assumptions C87_padding_refuted.
Print Assumptions C87_unknown_character_refuted.
Print Assumptions C87_room_refuted.
Print Assumptions C88_canonical.
Print Assumptions C88_possible_partial.
Print Assumptions C88_no_code_refuted.
Print Assumptions C88_pool_refuted.
