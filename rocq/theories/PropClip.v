(** C74-C77: the containers of lib/clip answer every history of calls as a
    queue, an array and a map do. *)
From Coq Require Import Lia PeanoNat.
From Verif Require Import LibBase LibClip SpecClip ClipFacts Clip2Facts.

(** One call on each container. *)
Definition buffer_step (b : buffer) (o : qop) : option (qout * buffer) :=
  match o with
  | QWrite bs => obind (buffer_write b bs) (fun '(ok, b) => Some (QWrote ok, b))
  | QRead n => obind (buffer_read b n) (fun '(p, b) => Some (QGot p, b))
  | QSize => Some (QSized (buffer_size b), b)
  end.

Definition vec_step (junk : nat -> bytes) (l : vec) (o : vop) : option (vout * vec) :=
  match o with
  | VPush x => obind (vec_push junk l x) (fun l => Some (VDone, l))
  | VAlloc => obind (vec_alloc junk l) (fun '(_, l) => Some (VDone, l))
  | VPut i x => obind (vec_put l i x) (fun l => Some (VDone, l))
  | VGet i => obind (vec_item l i) (fun x => Some (VItem x, l))
  | VLen => Some (VNum (vc_len l), l)
  end.

Definition map_step (m : map) (o : mop) : option (mout * map) :=
  match o with
  | MSet k v => obind (map_set m k v) (fun m => Some (MDone, m))
  | MGet k => Some (MVal (map_get m k), m)
  | MHas k => Some (MYes (map_has m k), m)
  | MSize => Some (MNum (mp_size m), m)
  | MIter => obind (map_iter m) (fun l => Some (MAll l, m))
  end.

(** map2 has only [set] and [get].  [get] gives a pointer; the value read is as
    long as the one stored there. *)
Definition map2_step (m : innermap) (o : mop) : option (mout * innermap) :=
  match o with
  | MSet k v => obind (map2_set m k v) (fun m => Some (MDone, m))
  | MGet k => Some (MVal (map2_get m k), m)
  | _ => None
  end.

(** * C74 *)

(** For every history of writes, reads and size queries, the buffer answers as
    a queue of bytes. *)
Theorem C74_buffer_is_queue : forall ops,
  run_calls buffer_step buffer_new ops = Some (queue [] ops).
Proof.
  enough (H : forall ops b, buf_inv b -> run_calls buffer_step b ops = Some (queue (buf_bytes b) ops)).
  { intros ops. apply H. split; simpl; [intros c []|reflexivity]. }
  induction ops as [|o ops IH]; intros b Hb; [reflexivity|]. destruct o as [bs|n|]; cbn [run_calls buffer_step queue].
  - destruct (buffer_write_ok b bs Hb) as (b' & H1 & H2 & H3). rewrite H1. simpl. rewrite IH, H3 by exact H2. reflexivity.
  - destruct (buffer_read_ok n b Hb) as (b' & H1 & H2 & H3). rewrite H1. simpl. rewrite IH, H3 by exact H2. reflexivity.
  - rewrite IH, buffer_size_ok by exact Hb. reflexivity.
Qed.

(** So nothing is lost, duplicated or reordered: what has been read, followed by
    what a large enough read would give, is what has been written. *)
Definition written (ops : list qop) : bytes :=
  List.concat (List.map (fun o => match o with QWrite bs => bs | _ => [] end) ops).
Definition got (outs : list qout) : bytes :=
  List.concat (List.map (fun o => match o with QGot bs => bs | _ => [] end) outs).

Theorem C74_buffer_keeps_order : forall ops outs,
  run_calls buffer_step buffer_new (ops ++ [QRead (List.length (written ops))]) = Some outs ->
  got outs = written ops.
Proof.
  intros ops outs H. rewrite C74_buffer_is_queue in H. injection H as <-.
  enough (H : forall ops q n, List.length q + List.length (written ops) <= n ->
            got (queue q (ops ++ [QRead n])) = q ++ written ops) by (apply (H ops []); simpl; lia).
  clear ops. induction ops as [|o ops IH]; intros q n Hn; simpl in *.
  - unfold got, written in *. simpl in *. rewrite firstn_all2 by lia. reflexivity.
  - unfold written in Hn. simpl in Hn. rewrite app_length in Hn. fold (written ops) in Hn.
    destruct o as [bs|k|]; simpl in *; unfold got; simpl.
    + fold (got (queue (q ++ bs) (ops ++ [QRead n]))). rewrite IH by (rewrite app_length; lia). unfold written. simpl. rewrite app_assoc. reflexivity.
    + fold (got (queue (skipn k q) (ops ++ [QRead n]))). rewrite IH by (rewrite skipn_length; lia).
      rewrite app_assoc, firstn_skipn. reflexivity.
    + fold (got (queue q (ops ++ [QRead n]))). rewrite IH by lia. reflexivity.
Qed.

Example C74_case :
  run_calls buffer_step buffer_new
    [QWrite [1;2;3]%N; QRead 2; QWrite [4;5]%N; QSize; QRead 2; QRead 5; QRead 1; QWrite [6]%N; QRead 3; QWrite []]
  = Some [QWrote true; QGot [1;2]%N; QWrote true; QSized 3; QGot [3;4]%N; QGot [5]%N; QGot []; QWrote true; QGot [6]%N; QWrote false].
Proof. reflexivity. Qed.

(** * C75 *)

(** For every item size and every history that stays inside the array, the vec
    answers as an array that grows at its end, and never touches memory outside
    its data. *)
Theorem C75_vec_is_array : forall junk, (forall n, List.length (junk n) = n) -> forall itemsize ops outs,
  array itemsize [] ops = Some outs ->
  run_calls (vec_step junk) (vec_new itemsize) ops = Some outs.
Proof.
  intros junk Hj itemsize.
  enough (H : forall ops l items outs, vc_itemsize l = itemsize -> vec_rep l items ->
            array itemsize items ops = Some outs -> run_calls (vec_step junk) l ops = Some outs).
  { intros ops outs Ho. apply (H ops (vec_new itemsize) [] outs); auto.
    split; [reflexivity|]. split; [intros x []|]. split; [simpl; lia|]. simpl. rewrite Nat.mul_0_r. reflexivity. }
  induction ops as [|o ops IH]; intros l items outs Hz Hr H; [exact H|].
  destruct o as [x| |i x|i|]; cbn [array] in H.
  - destruct (Nat.eqb (List.length x) itemsize) eqn:E; [|discriminate]. apply Nat.eqb_eq in E.
    destruct (array itemsize (items ++ [x]) ops) as [r|] eqn:Er; [|discriminate]. injection H as <-.
    destruct (vec_push_ok junk Hj l items x Hr) as (l' & H1 & H2 & H3); [congruence|].
    cbn [run_calls vec_step]. rewrite H1. simpl. erewrite IH; eauto. congruence.
  - destruct (array itemsize _ ops) as [r|] eqn:Er; [|discriminate]. injection H as <-.
    destruct (vec_alloc_ok junk Hj l items Hr) as (l' & H1 & H2 & H3).
    cbn [run_calls vec_step]. rewrite H1. simpl. erewrite IH; eauto; congruence.
  - destruct (Nat.ltb i (List.length items) && Nat.eqb (List.length x) itemsize) eqn:E; [|discriminate].
    apply andb_true_iff in E as [E1 E2]. apply Nat.ltb_lt in E1. apply Nat.eqb_eq in E2.
    destruct (array itemsize _ ops) as [r|] eqn:Er; [|discriminate]. injection H as <-.
    destruct (vec_put_ok l items i x Hr E1) as (l' & H1 & H2 & H3); [congruence|].
    cbn [run_calls vec_step]. rewrite H1. simpl. erewrite IH; eauto; congruence.
  - destruct (nth_error items i) as [x|] eqn:E; [|discriminate].
    destruct (array itemsize _ ops) as [r|] eqn:Er; [|discriminate]. injection H as <-.
    cbn [run_calls vec_step]. rewrite (vec_item_ok l items i x Hr E). simpl. erewrite IH; eauto.
  - destruct (array itemsize _ ops) as [r|] eqn:Er; [|discriminate]. injection H as <-.
    cbn [run_calls vec_step]. erewrite IH; eauto. rewrite (proj1 Hr). reflexivity.
Qed.

Example C75_case : exists ops outs, List.length ops = 43 /\ array 2 [] ops = Some outs /\
  run_calls (vec_step (repeat 7%N)) (vec_new 2) ops = Some outs /\
  nth_error outs 40 = Some (VItem [3;3]%N) /\ nth_error outs 41 = Some (VItem [0;0]%N) /\ nth_error outs 42 = Some (VNum 40).
Proof.
  exists (List.map (fun i => if Nat.even i then VPush [N.of_nat i; N.of_nat i] else VAlloc) (List.seq 0 39)
          ++ [VPush [3;3]%N; VGet 39; VGet 37; VLen]).
  eexists. vm_compute. repeat split; reflexivity.
Qed.

(** * C76 *)

Lemma assoc_assign : forall k k' v l, assoc k (assign k' v l) = if bytes_eqb k k' then Some v else assoc k l.
Proof.
  intros k k' v l. induction l as [|[k1 w] l IH]; simpl.
  - destruct (bytes_eqb k k'); reflexivity.
  - destruct (bytes_eqb k' k1) eqn:E; simpl.
    + apply bytes_eqb_eq in E. subst k1. destruct (bytes_eqb k k'); reflexivity.
    + rewrite IH. destruct (bytes_eqb k k1) eqn:E1; [|reflexivity].
      apply bytes_eqb_eq in E1. subst k1. destruct (bytes_eqb k k') eqn:E2; [|reflexivity].
      apply bytes_eqb_eq in E2. subst k'. rewrite bytes_eqb_refl in E. discriminate.
Qed.

Lemma last_set_snoc : forall k past o, last_set k (past ++ [o]) =
  match o with
  | MSet k' v => if bytes_eqb k k' then Some v else last_set k past
  | _ => last_set k past
  end.
Proof.
  intros k past o. induction past as [|p past IH]; simpl.
  - destruct o; simpl; try reflexivity.
  - destruct p; try exact IH. rewrite IH. destruct o; try reflexivity. destruct (bytes_eqb k k1); reflexivity.
Qed.

Lemma keys_set_app : forall a b seen, keys_set seen (a ++ b) = keys_set (keys_set seen a) b.
Proof.
  induction a as [|o a IH]; intros b seen; simpl; auto. destruct o; apply IH.
Qed.

Lemma assign_keys : forall k v l, List.map fst (assign k v l) =
  if existsb (bytes_eqb k) (List.map fst l) then List.map fst l else List.map fst l ++ [k].
Proof.
  intros k v l. induction l as [|[k1 w] l IH]; simpl; auto.
  destruct (bytes_eqb k k1) eqn:E; simpl.
  - apply bytes_eqb_eq in E. subst k1. reflexivity.
  - rewrite IH. destruct (existsb (bytes_eqb k) (List.map fst l)); reflexivity.
Qed.

(** The pairs held after a history. *)
Definition pairs_after (past : list mop) (l : list (bytes * bytes)) : Prop :=
  (forall k, assoc k l = last_set k past) /\ List.map fst l = keys_set [] past /\ NoDup (List.map fst l).

Lemma pairs_all : forall past l, pairs_after past l ->
  List.map (fun k => (k, match last_set k past with Some v => v | None => [] end)) (keys_set [] past) = l.
Proof.
  intros past l (H1 & H2 & H3). rewrite <- H2.
  assert (H4 : forall k v, In (k, v) l -> last_set k past = Some v).
  { intros k v Hin. rewrite <- H1. clear H1 H2. induction l as [|[k1 w] l IH]; [destruct Hin|].
    simpl in *. inversion H3; subst. destruct Hin as [Hin|Hin].
    - injection Hin as -> ->. rewrite bytes_eqb_refl. reflexivity.
    - destruct (bytes_eqb k k1) eqn:E; [|auto]. apply bytes_eqb_eq in E. subst k1.
      exfalso. apply H1. apply in_map_iff. exists (k, v). auto. }
  clear H1 H2 H3. induction l as [|[k v] l IH]; simpl; auto.
  rewrite (H4 k v (or_introl eq_refl)), IH; auto. intros k' v' Hin. apply H4. right. exact Hin.
Qed.

Lemma pairs_after_set : forall past l k v, pairs_after past l -> pairs_after (past ++ [MSet k v]) (assign k v l).
Proof.
  intros past l k v (H1 & H2 & H3). split; [|split].
  - intros k'. rewrite assoc_assign, last_set_snoc, H1. reflexivity.
  - rewrite assign_keys, keys_set_app, H2. reflexivity.
  - rewrite assign_keys. destruct (existsb (bytes_eqb k) (List.map fst l)) eqn:E; [exact H3|].
    apply NoDup_rev in H3. rewrite <- (rev_involutive (List.map fst l ++ [k])). apply NoDup_rev.
    rewrite rev_app_distr. simpl. constructor; [|exact H3]. intros Hin. apply in_rev in Hin.
    assert (Ht : existsb (bytes_eqb k) (List.map fst l) = true) by (apply existsb_exists; exists k; split; auto; apply bytes_eqb_refl).
    congruence.
Qed.

Lemma pairs_after_query : forall past l o, (forall k v, o <> MSet k v) -> pairs_after past l -> pairs_after (past ++ [o]) l.
Proof.
  intros past l o Ho (H1 & H2 & H3). split; [|split]; auto.
  - intros k. rewrite last_set_snoc, H1. destruct o; try reflexivity. exfalso. eapply Ho; eauto.
  - rewrite keys_set_app, <- H2. destruct o; try reflexivity. exfalso. eapply Ho; eauto.
Qed.

(** For every value size of at most eight bytes and every history of calls with
    keys that are not empty, the map answers as a map does: the value last set,
    the number of keys, and all of them in the order they were first set. *)
Theorem C76_map_is_map : forall valsize m ops, map_new valsize = Some m -> map_history valsize ops ->
  run_calls map_step m ops = Some (answers [] ops).
Proof.
  intros valsize m ops Hm Hh. unfold map_new in Hm. destruct (Nat.ltb 8 valsize) eqn:E8; [discriminate|].
  apply Nat.ltb_ge in E8. injection Hm as <-.
  enough (H : forall ops past m, map_history valsize ops -> map_inv m -> mp_valsize m = valsize ->
            pairs_after past (pairs_of m) -> run_calls map_step m ops = Some (answers past ops)).
  { apply H; auto.
    - unfold map_inv, mp_cap. cbn [mp_size mp_entries mp_valsize].
      cbn [List.length]. split; [lia|]. split; [lia|]. split; [exact E8|].
      intros e He. apply (repeat_spec 16 entry0) in He. subst e. reflexivity.
    - split; [reflexivity|]. split; [reflexivity|]. constructor. }
  clear ops Hh. induction ops as [|o ops IH]; intros past m Hh Hi Hz Hp; [reflexivity|].
  assert (Hh' : map_history valsize ops) by (intros k v Hin; apply Hh; right; exact Hin).
  destruct o as [k v|k|k| |]; cbn [run_calls map_step answers answer].
  - destruct (Hh k v (or_introl eq_refl)) as [Hk Hv].
    destruct (map_set_ok m k v Hi Hk) as (m' & H1 & H2 & H3 & H4); [congruence|].
    rewrite H1. simpl. rewrite (IH (past ++ [MSet k v])); auto; [congruence|].
    rewrite H4. apply pairs_after_set. exact Hp.
  - rewrite (IH (past ++ [MGet k])); auto; [|apply pairs_after_query; auto; discriminate].
    rewrite map_get_ok by exact Hi. rewrite (proj1 Hp). reflexivity.
  - rewrite (IH (past ++ [MHas k])); auto; [|apply pairs_after_query; auto; discriminate].
    rewrite map_has_ok by exact Hi. rewrite (proj1 Hp). reflexivity.
  - rewrite (IH (past ++ [MSize])); auto; [|apply pairs_after_query; auto; discriminate].
    destruct Hp as (_ & H2 & _). rewrite <- H2, map_length, pairs_len by exact Hi. reflexivity.
  - rewrite map_iter_ok by exact Hi. simpl. rewrite (IH (past ++ [MIter])); auto; [|apply pairs_after_query; auto; discriminate].
    rewrite (pairs_all past _ Hp). reflexivity.
Qed.

(** Larger values are refused at once. *)
Theorem C76_large_values_refused : forall valsize, map_new valsize = None <-> 8 < valsize.
Proof.
  intros valsize. unfold map_new. destruct (Nat.ltb 8 valsize) eqn:E.
  - apply Nat.ltb_lt in E. split; auto.
  - apply Nat.ltb_ge in E. split; [discriminate|lia].
Qed.

Example C76_case : exists m ops outs, map_new 1 = Some m /\ map_history 1 ops /\
  run_calls map_step m ops = Some outs /\
  nth_error outs 41 = Some (MVal (Some [9]%N)) /\ nth_error outs 42 = Some (MNum 40) /\ nth_error outs 43 = Some (MYes false).
Proof.
  eexists. exists (List.map (fun i => MSet [N.of_nat i; 1%N] [N.of_nat i]) (List.seq 0 40)
          ++ [MSet [7;1]%N [9]%N; MGet [7;1]%N; MSize; MHas [7]%N; MIter]).
  eexists. split; [reflexivity|]. split.
  - intros k v Hin. apply in_app_or in Hin as [Hin|Hin].
    + apply in_map_iff in Hin as (i & Hi & _). injection Hi as <- <-. split; [discriminate|reflexivity].
    + simpl in Hin. repeat destruct Hin as [Hin|Hin]; try discriminate; [|destruct Hin].
      injection Hin as <- <-. split; [discriminate|reflexivity].
  - vm_compute. repeat split; reflexivity.
Qed.

(** * C77 *)

(** For every history of sets and gets in which keys are not empty and the
    values of a key all have one size, map2 answers as a map does.  Missing: keys
    set to values of different sizes, and the empty key, see below. *)
Theorem C77_map2_is_map_partial : forall ops, map2_history ops ->
  run_calls map2_step map2_new ops = Some (answers [] ops).
Proof.
  enough (H : forall ops past m, map2_history (past ++ ops) -> map2_ok m ->
            (forall k v, stored m k v <-> k <> [] /\ last_set k past = Some v) ->
            run_calls map2_step m ops = Some (answers past ops)).
  { intros ops Hh. destruct map2_new_ok as [H1 H2]. apply H; auto.
    intros k v. split; [intros Hs; exfalso; eapply H2; eauto|intros [_ Hs]; discriminate]. }
  assert (Hin : forall k v past, last_set k past = Some v -> In (MSet k v) past).
  { intros k v. induction past as [|o past IH]; simpl; [discriminate|]. destruct o as [k' v'|k'|k'| |]; auto.
    destruct (last_set k past) as [w|]; [intros Hw; right; apply IH; exact Hw|].
    destruct (bytes_eqb k k') eqn:E; [|discriminate]. apply bytes_eqb_eq in E. intros Hv. left. congruence. }
  induction ops as [|o ops IH]; intros past m Hh Hi Hs; [reflexivity|].
  assert (Hh' : map2_history ((past ++ [o]) ++ ops)) by (rewrite <- app_assoc; exact Hh).
  destruct Hh as (Hk & Hv & Ho).
  assert (Hino : In o (past ++ o :: ops)) by (apply in_or_app; simpl; auto).
  specialize (Ho o Hino). destruct o as [k v|k|k| |]; try contradiction; cbn [run_calls map2_step answers answer].
  - pose proof (Hk k v Hino) as Hk0.
    destruct (map2_set_ok m k v Hi Hk0) as (m' & H1 & H2 & H3).
    { intros w Hw. apply Hs in Hw as [_ Hw]. apply Hin in Hw. apply (Hv k w v); [|exact Hino].
      apply in_or_app. auto. }
    rewrite H1. simpl. rewrite (IH (past ++ [MSet k v])); auto.
    intros k' w. rewrite H3, last_set_snoc. destruct (bytes_eqb k' k) eqn:E.
    + apply bytes_eqb_eq in E. subst k'. split; [intros ->; auto|intros [_ Hw]; congruence].
    + apply Hs.
  - rewrite (IH (past ++ [MGet k])); auto.
    + f_equal. f_equal. f_equal. unfold map2_get. destruct (bytes_dec k []) as [->|Hk0].
      * rewrite inner_get_empty by apply Hi. destruct (last_set [] past) as [w|] eqn:E; [|reflexivity].
        apply Hin in E. exfalso. apply (Hk [] w); [apply in_or_app; auto|reflexivity].
      * destruct (last_set k past) as [w|] eqn:E.
        -- apply inner_get_ok; auto; [apply Hi|]. apply Hs. auto.
        -- destruct (inner_get m k) as [w|] eqn:G; [|reflexivity].
           apply inner_get_ok in G; auto; [|apply Hi]. apply Hs in G as [_ G]. congruence.
    + intros k' w. rewrite last_set_snoc. apply Hs.
Qed.

Example C77_case : exists ops outs, map2_history ops /\ run_calls map2_step map2_new ops = Some outs /\
  nth_error outs 61 = Some (MVal (Some [9]%N)) /\ nth_error outs 62 = Some (MVal None).
Proof.
  exists (List.map (fun i => MSet [N.of_nat i; 1%N] [N.of_nat i]) (List.seq 0 60)
          ++ [MSet [7;1]%N [9]%N; MGet [7;1]%N; MGet [7]%N]).
  eexists. split.
  - split; [|split].
    + intros k v Hin. apply in_app_or in Hin as [Hin|Hin].
      * apply in_map_iff in Hin as (i & Hi & _). injection Hi as <- <-. discriminate.
      * simpl in Hin. repeat destruct Hin as [Hin|Hin]; try discriminate; [|destruct Hin].
        injection Hin as <- <-. discriminate.
    + assert (H1 : forall k v, In (MSet k v) (List.map (fun i => MSet [N.of_nat i; 1%N] [N.of_nat i]) (List.seq 0 60)
          ++ [MSet [7;1]%N [9]%N; MGet [7;1]%N; MGet [7]%N]) -> List.length v = 1).
      { intros k v Hin. apply in_app_or in Hin as [Hin|Hin].
        - apply in_map_iff in Hin as (i & Hi & _). injection Hi as <- <-. reflexivity.
        - simpl in Hin. repeat destruct Hin as [Hin|Hin]; try discriminate; [|destruct Hin].
          injection Hin as <- <-. reflexivity. }
      intros k v w H2 H3. rewrite (H1 k v H2), (H1 k w H3). reflexivity.
    + intros o Hin. apply in_app_or in Hin as [Hin|Hin].
      * apply in_map_iff in Hin as (i & <- & _). exact I.
      * simpl in Hin. repeat destruct Hin as [<-|Hin]; try exact I. destruct Hin.
  - vm_compute. repeat split; reflexivity.
Qed.

(** A history over 25 other keys, so that the next [set] makes the table grow. *)
Definition filling : list mop := List.map (fun i => MSet [N.of_nat i; 1%N] [1%N]) (List.seq 0 25).

(** A longer value set over a shorter one is cut when the table grows. *)
Theorem C77_longer_value_refuted : exists ops,
  last_set [65]%N ops = Some [2;3]%N /\
  run_calls map2_step map2_new (ops ++ [MGet [65]%N]) = Some (answers [] ops ++ [MVal (Some [2]%N)]).
Proof.
  exists ([MSet [65]%N [1]%N; MSet [65]%N [2;3]%N] ++ filling). vm_compute. split; reflexivity.
Qed.

(** A shorter value set over a longer one makes the growing table read past its
    end. *)
Theorem C77_shorter_value_refuted : exists ops,
  (forall k v, In (MSet k v) ops -> k <> []) /\ run_calls map2_step map2_new ops = None.
Proof.
  exists ([MSet [65]%N [1;2]%N; MSet [65]%N [3]%N] ++ filling). split; [|vm_compute; reflexivity].
  intros k v Hin. simpl in Hin. repeat destruct Hin as [Hin|Hin]; try (injection Hin as <- <-; discriminate).
  destruct Hin.
Qed.

(** The value of the empty key is lost when another key takes its slot. *)
Theorem C77_empty_key_refuted : exists ops,
  last_set [] ops = Some [1]%N /\
  run_calls map2_step map2_new (ops ++ [MGet []]) = Some (answers [] ops ++ [MVal None]).
Proof. exists [MSet [] [1]%N; MSet [65]%N [2]%N]. vm_compute. split; reflexivity. Qed.

Print Assumptions C74_buffer_is_queue.
Print Assumptions C74_buffer_keeps_order.
Print Assumptions C75_vec_is_array.
Print Assumptions C76_map_is_map.
Print Assumptions C76_large_values_refused.
Print Assumptions C77_map2_is_map_partial.
Print Assumptions C77_longer_value_refuted.
Print Assumptions C77_shorter_value_refuted.
Print Assumptions C77_empty_key_refuted.
