(** Facts about lib/clip/map2.c: the invariant of the open hash table. *)
From Coq Require Import Lia PeanoNat.
From Verif Require Import LibBase LibClip SpecClip ClipFacts.

(** * Probing the whole ring *)

Lemma probe_some : forall p slots n i pos j, probe p slots n pos i = Some j ->
  exists s, nth_error slots j = Some s /\ p s = true.
Proof.
  intros p slots n. induction i as [|i IH]; intros pos j H; simpl in H; [discriminate|].
  destruct (nth_error slots pos) as [s|] eqn:E; [|discriminate].
  destruct (p s) eqn:Ep; [|eapply IH; eauto]. injection H as <-. eauto.
Qed.

Lemma probe_none : forall p slots n i pos, n = List.length slots -> pos < n -> probe p slots n pos i = None ->
  forall d, d < i -> forall s, nth_error slots ((pos + d) mod n) = Some s -> p s = false.
Proof.
  intros p slots n. induction i as [|i IH]; intros pos Hn Hpos H d Hd s Hs; [lia|]. simpl in H.
  destruct (nth_error slots pos) as [s0|] eqn:E; [|apply nth_error_None in E; lia].
  destruct (p s0) eqn:Ep; [discriminate|].
  destruct d as [|d].
  - rewrite Nat.add_0_r, Nat.mod_small in Hs by exact Hpos. congruence.
  - apply (IH ((pos + 1) mod n) Hn) with (d := d); auto; [apply Nat.mod_upper_bound; lia|lia|].
    rewrite Nat.add_mod_idemp_l by lia. replace (pos + 1 + d) with (pos + S d) by lia. exact Hs.
Qed.

Lemma probe_full : forall p slots pos, pos < List.length slots ->
  match probe p slots (List.length slots) pos (List.length slots) with
  | Some j => exists s, nth_error slots j = Some s /\ p s = true
  | None => forall s, In s slots -> p s = false
  end.
Proof.
  intros p slots pos Hpos. destruct (probe p slots (List.length slots) pos (List.length slots)) as [j|] eqn:E.
  - eapply probe_some. exact E.
  - intros s Hs. apply In_nth_error in Hs as [q Hq].
    assert (Hql : q < List.length slots) by (apply nth_error_Some; congruence).
    set (n := List.length slots) in *.
    apply (probe_none p slots n n pos eq_refl Hpos E ((q + n - pos) mod n)).
    + apply Nat.mod_upper_bound. lia.
    + rewrite Nat.add_mod_idemp_r by lia. replace (pos + (q + n - pos)) with (q + 1 * n) by lia.
      rewrite Nat.mod_add by lia. rewrite Nat.mod_small by exact Hql. exact Hq.
Qed.

(** * The invariant *)

(** A slot is empty, or holds a key with its hash and sizes. *)
Definition slot_ok (s : slot) : Prop :=
  s = slot0 \/
  exists k v, k <> [] /\ s = mkSlot (hash k) (Some k) (List.length k) (Some v) (List.length v).

Definition slot_key_is (k : bytes) (s : slot) : Prop := sl_key s = Some k.
Definition full (ss : list slot) : nat := List.length (List.filter (fun s => negb (slot_free s)) ss).

Record inner_ok (m : innermap) : Prop := {
  io_len : List.length (im_slots m) = im_cap m;
  io_pos : 0 < im_nbuckets m /\ 0 < im_bucketsize m;
  io_slots : forall s, In s (im_slots m) -> slot_ok s;
  io_keys : forall i j s t k, nth_error (im_slots m) i = Some s -> nth_error (im_slots m) j = Some t ->
    sl_key s = Some k -> sl_key t = Some k -> i = j;
  io_size : im_size m = full (im_slots m)
}.

Definition stored (m : innermap) (k v : bytes) : Prop :=
  exists s, In s (im_slots m) /\ sl_key s = Some k /\ sl_val s = Some v.

Lemma home_lt : forall m h, inner_ok m -> home m h < List.length (im_slots m).
Proof.
  intros m h Hi. rewrite (io_len m Hi). destruct (io_pos m Hi) as [H1 H2]. unfold home, im_cap.
  assert (Hb : N.to_nat (h mod N.of_nat (im_nbuckets m)) < im_nbuckets m).
  { pose proof (N.mod_upper_bound h (N.of_nat (im_nbuckets m)) ltac:(lia)). lia. }
  nia.
Qed.

Lemma slot_is_key : forall s k, slot_ok s -> k <> [] -> (slot_is k (hash k) s = true <-> sl_key s = Some k).
Proof.
  intros s k [->|(k' & v & Hk' & ->)] Hk; unfold slot_is; simpl.
  - split; [|discriminate]. intros H. destruct k as [|x k]; [contradiction|].
    rewrite andb_false_r in H. discriminate.
  - split.
    + intros H. apply andb_true_iff in H as [H H3]. apply andb_true_iff in H as [H1 H2].
      apply Nat.eqb_eq in H2. apply bytes_eqb_eq in H3. rewrite firstn_all2 in H3 by lia. congruence.
    + intros H. injection H as ->. rewrite N.eqb_refl, Nat.eqb_refl, firstn_all2, bytes_eqb_refl by lia. reflexivity.
Qed.

Lemma find_slot_ok : forall m k, inner_ok m -> k <> [] ->
  match find_slot m k with
  | Some i => exists s, nth_error (im_slots m) i = Some s /\ sl_key s = Some k
  | None => forall s, In s (im_slots m) -> sl_key s <> Some k
  end.
Proof.
  intros m k Hi Hk. unfold find_slot. rewrite <- (io_len m Hi).
  pose proof (probe_full (slot_is k (hash k)) (im_slots m) (home m (hash k)) (home_lt m _ Hi)) as H.
  destruct (probe _ _ _ _ _) as [j|].
  - destruct H as (s & H1 & H2). exists s. split; auto.
    apply slot_is_key; auto. apply (io_slots m Hi). eapply nth_error_In; eauto.
  - intros s Hs Hc. specialize (H s Hs).
    apply slot_is_key in Hc; auto; [congruence|]. apply (io_slots m Hi); auto.
Qed.

Lemma inner_get_ok : forall m k v, inner_ok m -> k <> [] -> (inner_get m k = Some v <-> stored m k v).
Proof.
  intros m k v Hi Hk. unfold inner_get. pose proof (find_slot_ok m k Hi Hk) as H.
  destruct (find_slot m k) as [i|]; simpl.
  - destruct H as (s & H1 & H2). rewrite H1. simpl. split.
    + intros Hv. exists s. split; [eapply nth_error_In; eauto|auto].
    + intros (t & Ht & Hkt & Hvt). apply In_nth_error in Ht as [j Hj].
      assert (i = j) by (eapply (io_keys m Hi); eauto). subst j. congruence.
  - split; [discriminate|]. intros (s & Hs & Hks & _). exfalso. eapply H; eauto.
Qed.

Lemma inner_get_empty : forall m, inner_ok m -> inner_get m [] = None.
Proof.
  intros m Hi. unfold inner_get. destruct (find_slot m []) as [i|] eqn:E; [|reflexivity]. simpl.
  unfold find_slot in E. apply probe_some in E as (s & H1 & H2). rewrite H1. simpl.
  destruct (io_slots m Hi s) as [->|(k & v & Hk & ->)]; [eapply nth_error_In; eauto|reflexivity|].
  exfalso. unfold slot_is in H2. simpl in H2. apply andb_true_iff in H2 as [H2 _].
  apply andb_true_iff in H2 as [_ H2]. destruct k; [contradiction|discriminate].
Qed.

Lemma full_upd : forall ss i s t, nth_error ss i = Some s ->
  full (upd i t ss) + (if slot_free s then 0 else 1) = full ss + (if slot_free t then 0 else 1).
Proof.
  unfold full. induction ss as [|x ss IH]; intros [|i] s t H; simpl in *; try discriminate.
  - injection H as ->. destruct (slot_free s), (slot_free t); simpl; lia.
  - specialize (IH i s t H). destruct (slot_free x); simpl; lia.
Qed.

Lemma full_le : forall ss, full ss <= List.length ss.
Proof. intros. unfold full. induction ss as [|s ss IH]; simpl; auto. destruct (slot_free s); simpl; lia. Qed.

Lemma full_all : forall ss, (forall s, In s ss -> slot_free s = false) -> full ss = List.length ss.
Proof.
  intros ss. unfold full. induction ss as [|s ss IH]; intros H; simpl; auto.
  rewrite (H s (or_introl eq_refl)). simpl. f_equal. apply IH. intros t Ht. apply H. right. exact Ht.
Qed.

Lemma stored_upd : forall m i s t k v (nb bs sz : nat), nth_error (im_slots m) i = Some s ->
  (forall s' j k', nth_error (im_slots m) j = Some s' -> sl_key s' = Some k' -> sl_key t = Some k' -> j = i) ->
  (sl_key s = None \/ sl_key s = sl_key t) ->
  sl_key t = Some k -> sl_val t = Some v ->
  forall k' w, stored (mkInner nb bs (upd i t (im_slots m)) sz) k' w <->
               (if bytes_eqb k' k then w = v else stored m k' w).
Proof.
  intros m i s t k v nb bs sz Hs Hu Hk0 Hk Hv k' w.
  assert (Hlt : i < List.length (im_slots m)) by (apply nth_error_Some; congruence).
  unfold stored. simpl. destruct (bytes_eqb k' k) eqn:E.
  - apply bytes_eqb_eq in E. subst k'. split.
    + intros (x & Hx & Hkx & Hvx). apply In_nth_error in Hx as [j Hj]. rewrite nth_upd in Hj by exact Hlt.
      destruct (Nat.eqb i j) eqn:Ej; [congruence|]. apply Nat.eqb_neq in Ej.
      exfalso. apply Ej. symmetry. eapply Hu; eauto.
    + intros ->. exists t. split; auto. apply nth_error_In with (n := i). rewrite nth_upd, Nat.eqb_refl; auto.
  - apply bytes_eqb_neq in E. split.
    + intros (x & Hx & Hkx & Hvx). apply In_upd in Hx as [->|Hx]; [congruence|]. eauto.
    + intros (x & Hx & Hkx & Hvx). exists x. split; auto. apply In_nth_error in Hx as [j Hj].
      apply nth_error_In with (n := j). rewrite nth_upd by exact Hlt.
      destruct (Nat.eqb i j) eqn:Ej; [|exact Hj]. apply Nat.eqb_eq in Ej. subst j.
      destruct Hk0 as [Hk0|Hk0]; congruence.
Qed.

Lemma inner_set_ok : forall m k v, inner_ok m -> k <> [] -> im_size m < im_cap m ->
  (forall w, stored m k w -> List.length w = List.length v) ->
  exists m', inner_set m k v = Some m' /\ inner_ok m' /\ im_nbuckets m' = im_nbuckets m /\
             im_bucketsize m' = im_bucketsize m /\ im_size m' <= S (im_size m) /\
             (forall k' w, stored m' k' w <-> (if bytes_eqb k' k then w = v else stored m k' w)).
Proof.
  intros m k v Hi Hk Hroom Hw. unfold inner_set. pose proof (find_slot_ok m k Hi Hk) as H.
  destruct (find_slot m k) as [i|].
  - destruct H as (s & H1 & H2). rewrite H1. simpl.
    destruct (io_slots m Hi s) as [->|(k1 & v1 & Hk1 & ->)]; [eapply nth_error_In; eauto|discriminate|].
    simpl in *. injection H2 as ->.
    assert (Hlv : List.length v1 = List.length v).
    { apply Hw. eexists. split; [eapply nth_error_In; eauto|]. simpl. auto. }
    eexists. split; [reflexivity|]. assert (Hlt : i < List.length (im_slots m)) by (apply nth_error_Some; congruence).
    split; [|simpl; repeat split; auto].
    + constructor; simpl.
      * rewrite upd_length. apply (io_len m Hi).
      * apply (io_pos m Hi).
      * intros x Hx. apply In_upd in Hx as [->|Hx]; [|apply (io_slots m Hi); auto].
        right. exists k, v. rewrite Hlv. auto.
      * intros a b x y kk Ha Hb Hx Hy. rewrite nth_upd in Ha, Hb by exact Hlt.
        destruct (Nat.eqb i a) eqn:Ea; destruct (Nat.eqb i b) eqn:Eb;
          repeat match goal with H : Nat.eqb _ _ = true |- _ => apply Nat.eqb_eq in H end; subst; auto.
        -- injection Ha as <-. simpl in Hx. injection Hx as <-. exact (io_keys m Hi _ _ _ _ _ H1 Hb eq_refl Hy).
        -- injection Hb as <-. simpl in Hy. injection Hy as <-. exact (io_keys m Hi _ _ _ _ _ Ha H1 Hx eq_refl).
        -- eapply (io_keys m Hi); eauto.
      * rewrite (io_size m Hi). pose proof (full_upd _ _ _ (mkSlot (hash k) (Some k) (List.length k) (Some v) (List.length v1)) H1) as Hf.
        unfold slot_free in Hf; cbn [sl_key] in Hf. symmetry. apply (Nat.add_cancel_r _ _ 1). exact Hf.
    + intros Hst. eapply stored_upd in Hst; [exact Hst|exact H1| | |reflexivity|reflexivity]; simpl; auto.
      intros s' j k'' Hj Hs' Hkk. injection Hkk as <-. eapply (io_keys m Hi); eauto.
    + intros Hst. eapply stored_upd; [exact H1| | |reflexivity|reflexivity|exact Hst]; simpl; auto.
      intros s' j k'' Hj Hs' Hkk. injection Hkk as <-. eapply (io_keys m Hi); eauto.
  - unfold alloc_slot. rewrite <- (io_len m Hi).
    pose proof (probe_full slot_free (im_slots m) (home m (hash k)) (home_lt m _ Hi)) as Hp.
    destruct (probe _ _ _ _ _) as [i|].
    2:{ exfalso. pose proof (full_all _ Hp) as Hf. rewrite (io_len m Hi), <- (io_size m Hi) in Hf. lia. }
    destruct Hp as (s & H1 & H2). simpl.
    assert (Hlt : i < List.length (im_slots m)) by (apply nth_error_Some; congruence).
    assert (Hnone : sl_key s = None) by (unfold slot_free in H2; destruct (sl_key s); [discriminate|reflexivity]).
    assert (Hno : forall j x, nth_error (im_slots m) j = Some x -> sl_key x <> Some k).
    { intros j x Hj. apply H. eapply nth_error_In; eauto. }
    eexists. split; [reflexivity|]. split; [|simpl; repeat split; auto].
    + constructor; simpl.
      * rewrite upd_length. apply (io_len m Hi).
      * apply (io_pos m Hi).
      * intros x Hx. apply In_upd in Hx as [->|Hx]; [|apply (io_slots m Hi); auto].
        right. exists k, v. auto.
      * intros a b x y kk Ha Hb Hx Hy. rewrite nth_upd in Ha, Hb by exact Hlt.
        destruct (Nat.eqb i a) eqn:Ea; destruct (Nat.eqb i b) eqn:Eb;
          repeat match goal with H : Nat.eqb _ _ = true |- _ => apply Nat.eqb_eq in H end; subst; auto.
        -- injection Ha as <-. simpl in Hx. injection Hx as <-. exfalso. eapply Hno; eauto.
        -- injection Hb as <-. simpl in Hy. injection Hy as <-. exfalso. eapply Hno; eauto.
        -- eapply (io_keys m Hi); eauto.
      * rewrite (io_size m Hi). pose proof (full_upd _ _ _ (mkSlot (hash k) (Some k) (List.length k) (Some v) (List.length v)) H1) as Hf.
        rewrite H2 in Hf; unfold slot_free in Hf; cbn [sl_key] in Hf. rewrite Nat.add_0_r, Nat.add_1_r in Hf. symmetry. exact Hf.
    + intros Hst. eapply stored_upd in Hst; [exact Hst|exact H1| | |reflexivity|reflexivity]; simpl; auto.
      intros s' j k'' Hj Hs' Hkk. injection Hkk as <-. exfalso. eapply Hno; eauto.
    + intros Hst. eapply stored_upd; [exact H1| | |reflexivity|reflexivity|exact Hst]; simpl; auto.
      intros s' j k'' Hj Hs' Hkk. injection Hkk as <-. exfalso. eapply Hno; eauto.
Qed.

(** * Growing *)

Lemma inner_new_ok : forall nb bs, 0 < nb -> 0 < bs -> inner_ok (inner_new nb bs) /\
  (forall k v, ~ stored (inner_new nb bs) k v).
Proof.
  intros nb bs H1 H2. split.
  - constructor; unfold inner_new, im_cap; simpl.
    + apply repeat_length.
    + auto.
    + intros s Hs. apply repeat_spec in Hs. left. exact Hs.
    + intros i j s t k Hs Ht Hk _. apply nth_error_In in Hs. apply repeat_spec in Hs. subst s. discriminate.
    + unfold full. induction (nb * bs) as [|n IH]; simpl; auto.
  - intros k v (s & Hs & Hk & _). apply repeat_spec in Hs. subst s. discriminate.
Qed.

Definition has_pair (ss : list slot) (k v : bytes) : Prop :=
  exists s, In s ss /\ sl_key s = Some k /\ sl_val s = Some v.

Lemma copy_slots_ok : forall ss dest, inner_ok dest ->
  (forall s, In s ss -> slot_ok s) ->
  (forall i j s t k, nth_error ss i = Some s -> nth_error ss j = Some t ->
     sl_key s = Some k -> sl_key t = Some k -> i = j) ->
  (forall k v w, has_pair ss k v -> ~ stored dest k w) ->
  im_size dest + full ss <= im_cap dest ->
  exists m', copy_slots dest ss = Some m' /\ inner_ok m' /\ im_nbuckets m' = im_nbuckets dest /\
             im_bucketsize m' = im_bucketsize dest /\ im_size m' <= im_size dest + full ss /\
             (forall k v, stored m' k v <-> (has_pair ss k v \/ stored dest k v)).
Proof.
  induction ss as [|s ss IH]; intros dest Hi Hok Huq Hnew Hroom.
  - exists dest. simpl. split; [reflexivity|]. split; [exact Hi|]. repeat split; auto; try lia.
    intros [(s & [] & _)|H]; exact H.
  - assert (Huq' : forall i j s t k, nth_error ss i = Some s -> nth_error ss j = Some t ->
       sl_key s = Some k -> sl_key t = Some k -> i = j).
    { intros i j x y k Hx Hy Hkx Hky. assert (S i = S j) by (eapply Huq; eauto). congruence. }
    assert (Hok' : forall s, In s ss -> slot_ok s) by (intros x Hx; apply Hok; right; exact Hx).
    simpl. destruct (Hok s (or_introl eq_refl)) as [->|(k & v & Hk & ->)]; simpl.
    + destruct (IH dest Hi Hok' Huq') as (m' & H1 & H2 & H3 & H4 & H5 & H6).
      * intros k v w (x & Hx & Hp). apply (Hnew k v w). exists x. split; [right; exact Hx|exact Hp].
      * exact Hroom.
      * exists m'. split; [exact H1|]. split; [exact H2|]. repeat split; auto.
        -- intros Hst. apply H6 in Hst as [(x & Hx & Hp)|Hst]; auto. left. exists x. split; [right; exact Hx|exact Hp].
        -- intros [(x & [<-|Hx] & Hkx & Hvx)|Hst]; apply H6; [discriminate| |auto].
           left. exists x. auto.
    + rewrite !Nat.leb_refl. simpl. rewrite !firstn_all.
      set (sl := mkSlot (hash k) (Some k) (List.length k) (Some v) (List.length v)) in *.
      assert (Hfull : full (sl :: ss) = S (full ss)) by reflexivity.
      destruct (inner_set_ok dest k v Hi Hk) as (d1 & G1 & G2 & G3 & G4 & G5 & G6).
      * rewrite Hfull in Hroom. lia.
      * intros w Hw. exfalso. apply (Hnew k v w); auto. exists sl. simpl. auto.
      * rewrite G1. simpl. destruct (IH d1 G2 Hok' Huq') as (m' & H1 & H2 & H3 & H4 & H5 & H6).
        -- intros k' v' w (x & Hx & Hkx & Hvx) Hst. apply G6 in Hst.
           destruct (bytes_eqb k' k) eqn:E.
           ++ apply bytes_eqb_eq in E. subst k'. apply In_nth_error in Hx as [j Hj].
              assert (S j = 0) by (apply (Huq (S j) 0 x sl k Hj eq_refl Hkx eq_refl)). discriminate.
           ++ apply (Hnew k' v' w); auto. exists x. split; [right; exact Hx|auto].
        -- unfold im_cap in *. rewrite G3, G4. rewrite Hfull in Hroom. lia.
        -- exists m'. split; [exact H1|]. split; [exact H2|]. split; [congruence|]. split; [congruence|].
           split; [rewrite Hfull; lia|]. intros k' w. rewrite H6, G6. split.
           ++ intros [(x & Hx & Hp)|Hst].
              ** left. exists x. split; [right; exact Hx|exact Hp].
              ** destruct (bytes_eqb k' k) eqn:E; [|auto]. apply bytes_eqb_eq in E. subst k' w.
                 left. exists sl. simpl. auto.
           ++ intros [(x & [<-|Hx] & Hkx & Hvx)|Hst].
              ** simpl in Hkx, Hvx. injection Hkx as ->. injection Hvx as ->. rewrite bytes_eqb_refl. auto.
              ** left. exists x. auto.
              ** destruct (bytes_eqb k' k) eqn:E; [|auto]. exfalso. apply bytes_eqb_eq in E. subst k'.
                 apply (Hnew k v w); auto. exists sl. simpl. auto.
Qed.

Definition map2_ok (m : innermap) : Prop := inner_ok m /\ im_bucketsize m = 32 /\ im_size m <= im_cap m.

Lemma map2_set_ok : forall m k v, map2_ok m -> k <> [] ->
  (forall w, stored m k w -> List.length w = List.length v) ->
  exists m', map2_set m k v = Some m' /\ map2_ok m' /\
             (forall k' w, stored m' k' w <-> (if bytes_eqb k' k then w = v else stored m k' w)).
Proof.
  intros m k v (Hi & Hb & Hsz) Hk Hw. unfold map2_set.
  assert (Hcap : 0 < im_cap m) by (unfold im_cap; destruct (io_pos m Hi); nia).
  destruct (Nat.ltb 75 (im_size m * 100 / im_cap m)) eqn:E.
  - unfold inner_copy. set (n := inner_new (im_nbuckets m * 2) (im_bucketsize m)).
    destruct (inner_new_ok (im_nbuckets m * 2) (im_bucketsize m)) as [Hn Hempty]; [destruct (io_pos m Hi); lia..|].
    fold n in Hn, Hempty.
    assert (Hcapn : im_cap n = 2 * im_cap m) by (unfold n, inner_new, im_cap; simpl; lia).
    replace (im_cap n <? im_cap m) with false by (symmetry; apply Nat.ltb_ge; lia).
    destruct (copy_slots_ok (im_slots m) n Hn (io_slots m Hi) (io_keys m Hi)) as (m1 & H1 & H2 & H3 & H4 & H5 & H6).
    + intros k' v' w _. apply Hempty.
    + rewrite <- (io_size m Hi). change (im_size n) with 0. lia.
    + rewrite H1. simpl.
      assert (Hc1 : im_cap m1 = 2 * im_cap m) by (unfold im_cap in *; rewrite H3, H4; exact Hcapn).
      rewrite <- (io_size m Hi) in H5. change (im_size n) with 0 in H5.
      assert (Hst : forall k' w, stored m1 k' w <-> stored m k' w).
      { intros k' w. rewrite H6. split; [intros [Hp|Hp]; [exact Hp|exfalso; eapply Hempty; eauto]|auto]. }
      destruct (inner_set_ok m1 k v H2 Hk) as (m2 & G1 & G2 & G3 & G4 & G5 & G6).
      * lia.
      * intros w Hs. apply Hw. apply Hst. exact Hs.
      * exists m2. split; [exact G1|]. split.
        -- split; [exact G2|]. split; [rewrite G4, H4; exact Hb|]. unfold im_cap in *. rewrite G3, G4. lia.
        -- intros k' w. rewrite G6. destruct (bytes_eqb k' k); [tauto|apply Hst].
  - apply Nat.ltb_ge in E. simpl.
    assert (Hroom : im_size m < im_cap m).
    { destruct (Nat.lt_ge_cases (im_size m) (im_cap m)) as [H|H]; auto. exfalso.
      assert (im_size m = im_cap m) by lia. rewrite H0, Nat.mul_comm, Nat.div_mul in E by lia. lia. }
    destruct (inner_set_ok m k v Hi Hk Hroom Hw) as (m2 & G1 & G2 & G3 & G4 & G5 & G6).
    exists m2. split; [exact G1|]. split; [|exact G6].
    split; [exact G2|]. split; [congruence|]. unfold im_cap in *. rewrite G3, G4. lia.
Qed.

Lemma map2_new_ok : map2_ok map2_new /\ (forall k v, ~ stored map2_new k v).
Proof.
  destruct (inner_new_ok 1 32) as [H1 H2]; try lia. split; [|exact H2].
  split; [exact H1|]. split; [reflexivity|]. simpl. lia.
Qed.
