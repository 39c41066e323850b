(** Facts about the containers of lib/clip: the invariants behind PropClip. *)
From Coq Require Import Lia PeanoNat.
From Verif Require Import LibBase LibClip SpecClip.

(** * General *)

Lemma bytes_eqb_eq : forall a b, bytes_eqb a b = true <-> a = b.
Proof.
  induction a as [|x a IH]; intros [|y b]; simpl; split; intros H; try discriminate; auto.
  - apply andb_true_iff in H as [H1 H2]. apply N.eqb_eq in H1. apply IH in H2. congruence.
  - inversion H; subst. rewrite N.eqb_refl. simpl. apply IH. reflexivity.
Qed.

Lemma bytes_eqb_refl : forall a, bytes_eqb a a = true.
Proof. intros. apply bytes_eqb_eq. reflexivity. Qed.

Lemma bytes_eqb_neq : forall a b, bytes_eqb a b = false <-> a <> b.
Proof.
  intros. destruct (bytes_eqb a b) eqn:E; split; intros H; try discriminate; auto.
  - apply bytes_eqb_eq in E. contradiction.
  - intros ->. rewrite bytes_eqb_refl in E. discriminate.
Qed.

Lemma bytes_dec : forall a b : bytes, {a = b} + {a <> b}.
Proof. apply list_eq_dec. apply N.eq_dec. Qed.

Lemma upd_length : forall A i (x : A) l, List.length (upd i x l) = List.length l.
Proof. intros A i x l. revert i. induction l as [|y l IH]; intros [|i]; simpl; auto. Qed.

Lemma nth_upd : forall A i j (x : A) l, i < List.length l ->
  nth_error (upd i x l) j = if Nat.eqb i j then Some x else nth_error l j.
Proof.
  intros A i j x l. revert i j. induction l as [|y l IH]; intros i j Hi; simpl in Hi; [lia|].
  destruct i as [|i]; destruct j as [|j]; simpl; auto.
  apply IH. lia.
Qed.

Lemma upd_split : forall A (l1 l2 : list A) x y, upd (List.length l1) x (l1 ++ y :: l2) = l1 ++ x :: l2.
Proof. intros A l1. induction l1 as [|z l1 IH]; intros; simpl; auto. f_equal. apply IH. Qed.

(** * buffer *)

Definition clip_rest (c : clip) : bytes := skipn (cl_pos c) (cl_data c).
Definition buf_bytes (b : buffer) : bytes := List.concat (List.map clip_rest (bf_first b)).
Definition buf_inv (b : buffer) : Prop :=
  (forall c, In c (bf_first b) -> cl_pos c < List.length (cl_data c)) /\
  bf_last b = match bf_first b with [] => false | _ => true end.

Lemma buffer_size_ok : forall b, buf_inv b -> buffer_size b = List.length (buf_bytes b).
Proof.
  intros b _. unfold buffer_size, buf_bytes.
  enough (H : forall l n, fold_left (fun t c => t + (List.length (cl_data c) - cl_pos c)) l n
                     = n + List.length (List.concat (List.map clip_rest l))) by apply H.
  induction l as [|c l IH]; intros n; simpl; [lia|].
  rewrite IH, app_length. unfold clip_rest at 2. rewrite skipn_length. lia.
Qed.

Lemma buffer_write_ok : forall b bs, buf_inv b ->
  exists b', buffer_write b bs = Some (match bs with [] => false | _ => true end, b') /\
             buf_inv b' /\ buf_bytes b' = buf_bytes b ++ bs.
Proof.
  intros b bs [Hp Hl]. destruct bs as [|x bs]; simpl.
  - exists b. rewrite app_nil_r. repeat split; auto.
  - rewrite Hl. unfold buf_bytes. destruct b as [first last]; simpl in *. destruct first as [|c first].
    + eexists. split; [reflexivity|]. split; [split; simpl; auto|].
      * intros d [<-|[]]. simpl. lia.
      * simpl. unfold clip_rest. simpl. rewrite app_nil_r. reflexivity.
    + eexists. split; [reflexivity|]. split; [split; simpl; auto|].
      * intros d [<-|Hd]; [apply Hp; simpl; auto|]. apply in_app_or in Hd as [Hd|[<-|[]]].
        -- apply Hp; simpl; auto.
        -- simpl. lia.
      * simpl. rewrite map_app, concat_app. simpl. unfold clip_rest at 3. simpl.
        rewrite app_nil_r. rewrite app_assoc. reflexivity.
Qed.

Lemma skipn_nth : forall A n (l : list A), n < List.length l ->
  exists x, nth_error l n = Some x /\ skipn n l = x :: skipn (S n) l.
Proof.
  intros A n. induction n as [|n IH]; intros [|y l] H; simpl in H; try lia.
  - exists y. auto.
  - destruct (IH l) as (x & H1 & H2); [lia|]. exists x. auto.
Qed.

Lemma buffer_read_ok : forall n b, buf_inv b ->
  exists b', buffer_read b n = Some (firstn n (buf_bytes b), b') /\
             buf_inv b' /\ buf_bytes b' = skipn n (buf_bytes b).
Proof.
  induction n as [|n IH]; intros b [Hp Hl]; [exists b; simpl; repeat split; auto|].
  destruct b as [first last]. cbn [buffer_read bf_first bf_last] in *. destruct first as [|c next].
  - exists (mkBuf [] last). unfold buf_bytes; simpl. repeat split; auto.
  - destruct (skipn_nth _ (cl_pos c) (cl_data c)) as (x & Hx & Hsk); [apply Hp; simpl; auto|].
    rewrite Hx. cbn [obind].
    set (b1 := if Nat.eqb (S (cl_pos c)) (List.length (cl_data c))
               then mkBuf next match next with [] => false | _ :: _ => last end
               else mkBuf (mkClip (cl_data c) (S (cl_pos c)) :: next) last).
    assert (Hb1 : buf_inv b1 /\ buf_bytes (mkBuf (c :: next) last) = x :: buf_bytes b1).
    { unfold b1, buf_bytes. cbn [List.map List.concat bf_first]. unfold clip_rest at 1. rewrite Hsk.
      destruct (Nat.eqb (S (cl_pos c)) (List.length (cl_data c))) eqn:E.
      - apply Nat.eqb_eq in E. split; [split|].
        + intros d Hd. apply Hp. simpl in *. auto.
        + subst last. destruct next; reflexivity.
        + rewrite E, skipn_all. reflexivity.
      - apply Nat.eqb_neq in E. split; [split|].
        + intros d [<-|Hd]; [|apply Hp; simpl; auto]. simpl. specialize (Hp c (or_introl eq_refl)). lia.
        + exact Hl.
        + reflexivity. }
    destruct Hb1 as [Hi Hb]. destruct (IH b1 Hi) as (b2 & H1 & H2 & H3).
    exists b2. fold b1. rewrite H1, Hb. cbn [obind firstn skipn]. auto.
Qed.

(** * vec *)

Section VecFacts.
Context (junk : nat -> bytes) (junk_len : forall n, List.length (junk n) = n).

(** The data holds the items, then zeros up to the capacity. *)
Definition vec_rep (l : vec) (items : list bytes) : Prop :=
  vc_len l = List.length items /\
  (forall x, In x items -> List.length x = vc_itemsize l) /\
  vc_len l <= vc_cap l /\
  vc_data l = List.concat items ++ repeat 0%N (vc_itemsize l * (vc_cap l - vc_len l)).

Lemma concat_len : forall n (items : list bytes), (forall x, In x items -> List.length x = n) ->
  List.length (List.concat items) = n * List.length items.
Proof.
  intros n items. induction items as [|x items IH]; intros H; simpl; [lia|].
  rewrite app_length, IH by (intros y Hy; apply H; simpl; auto). rewrite H by (simpl; auto). lia.
Qed.

Lemma repeat_split : forall A (x : A) a b, repeat x (a + b) = repeat x a ++ repeat x b.
Proof. intros. apply repeat_app. Qed.

Lemma mem_put_app : forall a x y b, List.length x = List.length y ->
  mem_put (a ++ y ++ b) (List.length a) x = Some (a ++ x ++ b).
Proof.
  intros a x y b H. unfold mem_put. rewrite !app_length.
  replace (List.length a + List.length x <=? List.length a + (List.length y + List.length b)) with true
    by (symmetry; apply Nat.leb_le; lia).
  f_equal. rewrite firstn_app, firstn_all, Nat.sub_diag. simpl. rewrite app_nil_r. f_equal. f_equal.
  rewrite skipn_app, skipn_all2 by lia. simpl.
  replace (List.length a + List.length x - List.length a) with (List.length y) by lia.
  rewrite skipn_app, skipn_all, Nat.sub_diag. reflexivity.
Qed.

Lemma vec_alloc_ok : forall l items, vec_rep l items ->
  exists l', vec_alloc junk l = Some (List.length items, l') /\ vc_itemsize l' = vc_itemsize l /\
             vec_rep l' (items ++ [repeat 0%N (vc_itemsize l)]).
Proof.
  intros [cap len isz data] items (Hlen & Hsz & Hcap & Hd). unfold vec_rep in *. simpl in *. subst len data.
  pose proof (concat_len isz items Hsz) as Hc.
  assert (Hstep : forall cap', List.length items < cap' ->
    vec_rep (mkVec cap' (S (List.length items)) isz
               (List.concat items ++ repeat 0%N (isz * (cap' - List.length items))))
            (items ++ [repeat 0%N isz])).
  { intros cap' Hlt. split; [|split; [|split]]; simpl.
    - rewrite app_length. simpl. lia.
    - intros x Hx. apply in_app_or in Hx as [Hx|[<-|[]]]; [auto|apply repeat_length].
    - lia.
    - rewrite concat_app. simpl. rewrite app_nil_r, <- app_assoc, <- repeat_split. f_equal. f_equal.
      replace (cap' - List.length items) with (S (cap' - S (List.length items))) by lia. lia. }
  unfold vec_alloc. simpl. destruct (Nat.eqb (List.length items) cap) eqn:E.
  - apply Nat.eqb_eq in E. subst cap. rewrite Nat.sub_diag, Nat.mul_0_r. simpl. rewrite app_nil_r.
    set (newcap := if Nat.eqb (List.length items * 2) 0 then 16 else List.length items * 2).
    assert (Hnew : List.length items < newcap).
    { unfold newcap. destruct (Nat.eqb (List.length items * 2) 0) eqn:E0.
      - apply Nat.eqb_eq in E0. lia.
      - apply Nat.eqb_neq in E0. lia. }
    rewrite firstn_all2 by (rewrite Hc; nia).
    rewrite <- Hc.
    assert (Hp : mem_put (List.concat items ++ junk (newcap * isz - List.length (List.concat items)))
        (List.length (List.concat items)) (repeat 0%N (isz * (newcap - List.length items)))
      = Some (List.concat items ++ repeat 0%N (isz * (newcap - List.length items)))).
    { pose proof (mem_put_app (List.concat items) (repeat 0%N (isz * (newcap - List.length items)))
               (junk (newcap * isz - List.length (List.concat items))) []) as Hm.
      rewrite !app_nil_r in Hm. apply Hm. rewrite repeat_length, junk_len, Hc. nia. }
    rewrite Hp. simpl. eexists. split; [reflexivity|]. split; [reflexivity|]. apply Hstep. exact Hnew.
  - apply Nat.eqb_neq in E. eexists. split; [reflexivity|]. split; [reflexivity|].
    apply Hstep. simpl. lia.
Qed.

Lemma concat_at : forall isz i (items : list bytes),
  (forall x, In x items -> List.length x = isz) -> i < List.length items ->
  exists a y b, items = a ++ y :: b /\ List.length a = i /\ List.length y = isz /\
                List.length (List.concat a) = isz * i.
Proof.
  intros isz i items H Hi.
  destruct (nth_error items i) as [y|] eqn:E; [|apply nth_error_None in E; lia].
  apply nth_error_split in E as (a & b & -> & Ha). exists a, y, b.
  split; [reflexivity|]. split; [exact Ha|]. split.
  - apply H. apply in_or_app. simpl. auto.
  - rewrite (concat_len isz); [rewrite Ha; lia|]. intros x Hx. apply H. apply in_or_app. auto.
Qed.

Lemma vec_put_ok : forall l items i x, vec_rep l items -> i < List.length items ->
  List.length x = vc_itemsize l ->
  exists l', vec_put l i x = Some l' /\ vc_itemsize l' = vc_itemsize l /\ vec_rep l' (upd i x items).
Proof.
  intros [cap len isz data] items i x (Hlen & Hsz & Hcap & Hd) Hi Hx. simpl in *.
  destruct (concat_at isz i items Hsz Hi) as (a & y & b & -> & Ha & Hy & Hca).
  unfold vec_put. simpl. rewrite <- Hca, Hd, concat_app. simpl. rewrite <- !app_assoc.
  rewrite mem_put_app by lia. simpl. eexists. split; [reflexivity|]. split; [reflexivity|].
  rewrite <- Ha, upd_split. split; [|split; [|split]]; simpl.
  - rewrite Hlen, !app_length. reflexivity.
  - intros z Hz. apply in_app_or in Hz as [Hz|[<-|Hz]]; [apply Hsz; apply in_or_app; auto|exact Hx|].
    apply Hsz. apply in_or_app. simpl. auto.
  - exact Hcap.
  - rewrite concat_app. simpl. rewrite <- !app_assoc. reflexivity.
Qed.

Lemma vec_item_ok : forall l items i x, vec_rep l items -> nth_error items i = Some x -> vec_item l i = Some x.
Proof.
  intros [cap len isz data] items i x (Hlen & Hsz & Hcap & Hd) Hx. simpl in *.
  assert (Hi : i < List.length items) by (apply nth_error_Some; congruence).
  destruct (concat_at isz i items Hsz Hi) as (a & y & b & -> & Ha & Hy & Hca).
  rewrite <- Ha, nth_error_app2, Nat.sub_diag in Hx by lia. simpl in Hx. injection Hx as <-.
  unfold vec_item, mem_get. simpl. rewrite <- Hca, Hd, concat_app. simpl. rewrite <- !app_assoc.
  replace (List.length (List.concat a) + isz <=? _) with true
    by (symmetry; apply Nat.leb_le; rewrite !app_length; lia).
  rewrite skipn_app, skipn_all, Nat.sub_diag. simpl. rewrite firstn_app, <- Hy, firstn_all, Nat.sub_diag.
  simpl. rewrite app_nil_r. reflexivity.
Qed.

Lemma vec_push_ok : forall l items x, vec_rep l items -> List.length x = vc_itemsize l ->
  exists l', vec_push junk l x = Some l' /\ vc_itemsize l' = vc_itemsize l /\ vec_rep l' (items ++ [x]).
Proof.
  intros l items x Hr Hx. destruct (vec_alloc_ok l items Hr) as (l1 & H1 & Hz & Hr1).
  unfold vec_push. rewrite H1. simpl. rewrite firstn_all2 by lia.
  destruct (vec_put_ok l1 _ (List.length items) x Hr1) as (l2 & H2 & Hz2 & Hr2).
  - rewrite app_length. simpl. lia.
  - lia.
  - exists l2. split; [exact H2|]. split; [congruence|]. rewrite upd_split in Hr2. exact Hr2.
Qed.
End VecFacts.

(** * map *)

Definition pairs_of (m : map) : list (bytes * bytes) :=
  List.map (fun e => (e_key e, firstn (mp_valsize m) (e_value e))) (firstn (mp_size m) (mp_entries m)).
Definition map_inv (m : map) : Prop :=
  mp_size m <= mp_cap m /\ 0 < mp_cap m /\ mp_valsize m <= 8 /\
  (forall e, In e (mp_entries m) -> List.length (e_value e) = 8).

Fixpoint assoc (k : bytes) (l : list (bytes * bytes)) : option bytes :=
  match l with
  | [] => None
  | (k', v) :: r => if bytes_eqb k k' then Some v else assoc k r
  end.
Fixpoint assign (k v : bytes) (l : list (bytes * bytes)) : list (bytes * bytes) :=
  match l with
  | [] => [(k, v)]
  | (k', w) :: r => if bytes_eqb k k' then (k, v) :: r else (k', w) :: assign k v r
  end.

Lemma find_entry_ok : forall key vs size ee i, size <= List.length ee ->
  match find_entry key i size ee with
  | Some j => exists a e b, firstn size ee = a ++ e :: b /\ j = i + List.length a /\ e_key e = key /\
                            (forall x, In x a -> e_key x <> key) /\
                            nth_error ee (List.length a) = Some e
  | None => assoc key (List.map (fun e => (e_key e, firstn vs (e_value e))) (firstn size ee)) = None
  end.
Proof.
  intros key vs size. induction size as [|n IH]; intros [|e r] i Hn; simpl in *; auto; try lia.
  destruct (bytes_eqb key (e_key e)) eqn:E.
  - apply bytes_eqb_eq in E. exists [], e, (firstn n r). simpl. repeat split; auto; try lia.
  - specialize (IH r (S i) ltac:(lia)). destruct (find_entry key (S i) n r) as [j|]; [|exact IH].
    destruct IH as (a & e0 & b & H1 & H2 & H3 & H4 & H5). exists (e :: a), e0, b. simpl.
    repeat split; auto; [rewrite H1; auto|lia|].
    intros x [<-|Hx]; [|auto]. apply bytes_eqb_neq in E. congruence.
Qed.

Lemma assoc_split : forall k (a : list (bytes * bytes)) v b, (forall x, In x a -> fst x <> k) ->
  assoc k (a ++ (k, v) :: b) = Some v.
Proof.
  intros k a v b. induction a as [|[k1 w] a IH]; intros H; simpl.
  - rewrite bytes_eqb_refl. reflexivity.
  - destruct (bytes_eqb k k1) eqn:E; [|apply IH; simpl in H; auto].
    apply bytes_eqb_eq in E. exfalso. apply (H (k1, w)); simpl; auto.
Qed.

Lemma assign_split : forall k (a : list (bytes * bytes)) w v b, (forall x, In x a -> fst x <> k) ->
  assign k v (a ++ (k, w) :: b) = a ++ (k, v) :: b.
Proof.
  intros k a w v b. induction a as [|[k1 u] a IH]; intros H; simpl.
  - rewrite bytes_eqb_refl. reflexivity.
  - destruct (bytes_eqb k k1) eqn:E; [|f_equal; apply IH; simpl in H; auto].
    apply bytes_eqb_eq in E. exfalso. apply (H (k1, u)); simpl; auto.
Qed.

Lemma assign_new : forall k v l, assoc k l = None -> assign k v l = l ++ [(k, v)].
Proof.
  intros k v l. induction l as [|[k1 w] l IH]; simpl; intros H; auto.
  destruct (bytes_eqb k k1); [discriminate|]. f_equal. auto.
Qed.

Lemma map_get_ok : forall m k, map_inv m -> map_get m k = assoc k (pairs_of m).
Proof.
  intros m k (Hs & _ & _ & _). unfold map_get, map_find.
  pose proof (find_entry_ok k (mp_valsize m) (mp_size m) (mp_entries m) 0 Hs) as H.
  destruct (find_entry k 0 (mp_size m) (mp_entries m)) as [j|].
  - destruct H as (a & e & b & H1 & H2 & H3 & H4 & H5). subst j. simpl. rewrite H5. simpl.
    unfold pairs_of. rewrite H1, map_app. simpl. rewrite <- H3. rewrite assoc_split; auto.
    intros x Hx. apply in_map_iff in Hx as (y & <- & Hy). simpl. rewrite H3. auto.
  - simpl. symmetry. exact H.
Qed.

Lemma map_has_ok : forall m k, map_inv m ->
  map_has m k = match assoc k (pairs_of m) with Some _ => true | None => false end.
Proof.
  intros m k H. rewrite <- (map_get_ok m k H). unfold map_has, map_get. destruct (map_find m k) as [j|] eqn:E; auto.
  unfold map_find in E. pose proof (find_entry_ok k 0 (mp_size m) (mp_entries m) 0 (proj1 H)) as H0.
  rewrite E in H0. destruct H0 as (a & e & b & _ & -> & _ & _ & H5). simpl. rewrite H5. reflexivity.
Qed.

Lemma pairs_len : forall m, map_inv m -> List.length (pairs_of m) = mp_size m.
Proof. intros m [H _]. unfold pairs_of. rewrite map_length, firstn_length. unfold mp_cap in H. lia. Qed.

Lemma firstn_S_nth : forall A n (l : list A) x, nth_error l n = Some x -> firstn (S n) l = firstn n l ++ [x].
Proof.
  intros A n. induction n as [|n IH]; intros [|y l] x H; simpl in *; try discriminate.
  - congruence.
  - f_equal. apply IH. exact H.
Qed.

Lemma map_iter_ok : forall m, map_inv m -> map_iter m = Some (pairs_of m).
Proof.
  intros m Hi. pose proof (pairs_len m Hi) as Hpl. destruct Hi as (Hs & _). unfold map_iter, mp_cap in *.
  enough (H : forall fuel pos, mp_size m < pos + fuel -> pos <= mp_size m ->
            map_iter_from m fuel pos = Some (skipn pos (pairs_of m))) by (apply (H (S (mp_size m)) 0); lia).
  induction fuel as [|fuel IH]; intros pos Hf Hp; [lia|]. simpl.
  destruct (Nat.leb (mp_size m) pos) eqn:E.
  - apply Nat.leb_le in E. rewrite skipn_all2 by lia. reflexivity.
  - apply Nat.leb_gt in E. destruct (nth_error (mp_entries m) pos) as [e|] eqn:En;
      [|apply nth_error_None in En; lia]. simpl. rewrite IH by lia. simpl. f_equal.
    destruct (skipn_nth _ pos (pairs_of m)) as (x & Hx & ->); [lia|]. f_equal.
    unfold pairs_of in Hx. rewrite nth_error_map in Hx.
    assert (Hn : nth_error (firstn (mp_size m) (mp_entries m)) pos = Some e).
    { rewrite <- En. clear - E. revert E. generalize (mp_size m) as n, (mp_entries m) as l. revert pos.
      induction pos as [|p IH]; intros [|n] [|y l] H; simpl; auto; try lia. apply IH. lia. }
    rewrite Hn in Hx. simpl in Hx. congruence.
Qed.

Lemma put0 : forall d x, List.length x <= List.length d ->
  mem_put d 0 x = Some (x ++ skipn (List.length x) d).
Proof. intros d x H. unfold mem_put. simpl. apply Nat.leb_le in H. rewrite H. reflexivity. Qed.

Lemma upd_firstn_app : forall A (l : list A) n x, n < List.length l -> firstn (S n) (upd n x l) = firstn n l ++ [x].
Proof.
  intros A l n x H. rewrite (firstn_S_nth _ n (upd n x l) x).
  - f_equal. revert n H. induction l as [|y l IH]; intros [|n] H; simpl in *; auto; try lia. f_equal. apply IH. lia.
  - rewrite nth_upd by exact H. rewrite Nat.eqb_refl. reflexivity.
Qed.

Lemma In_upd : forall A i (x y : A) l, In y (upd i x l) -> y = x \/ In y l.
Proof.
  intros A i x y l. revert i. induction l as [|z l IH]; intros [|i] H; simpl in *; auto.
  - destruct H; auto.
  - destruct H as [H|H]; auto. apply IH in H as [H|H]; auto.
Qed.

Lemma firstn_upd : forall A i (x : A) n l, firstn n (upd i x l) = upd i x (firstn n l).
Proof.
  intros A i x n l. revert i n. induction l as [|y l IH]; intros [|i] [|n]; simpl; auto. f_equal. apply IH.
Qed.

Lemma map_upd : forall A B (f : A -> B) i x l, List.map f (upd i x l) = upd i (f x) (List.map f l).
Proof. intros A B f i x l. revert i. induction l as [|y l IH]; intros [|i]; simpl; auto. f_equal. apply IH. Qed.

Lemma map_set_ok : forall m k v, map_inv m -> k <> [] -> List.length v = mp_valsize m ->
  exists m', map_set m k v = Some m' /\ map_inv m' /\ mp_valsize m' = mp_valsize m /\
             pairs_of m' = assign k v (pairs_of m).
Proof.
  intros m k v Hi Hk Hv. pose proof Hi as (Hs & Hc & Hz & He). unfold map_set, map_find.
  pose proof (find_entry_ok k (mp_valsize m) (mp_size m) (mp_entries m) 0 Hs) as H.
  destruct k as [|k0 k']; [contradiction|]. set (k := k0 :: k') in *.
  destruct (find_entry k 0 (mp_size m) (mp_entries m)) as [j|].
  - destruct H as (a & e & b & H1 & H2 & H3 & H4 & H5). subst j. simpl obind. rewrite H5. simpl obind.
    assert (Hev : List.length (e_value e) = 8) by (apply He; eapply nth_error_In; eauto).
    rewrite (firstn_all2 v) by lia. rewrite put0 by lia. simpl.
    assert (Hlt : List.length a < List.length (mp_entries m)) by (apply nth_error_Some; congruence).
    eexists. split; [reflexivity|]. split; [|split; [reflexivity|]].
    + unfold map_inv, mp_cap. simpl. rewrite upd_length. split; [exact Hs|]. split; [exact Hc|]. split; [exact Hz|].
      intros x Hx. apply In_upd in Hx as [->|Hx]; auto. simpl. rewrite app_length, skipn_length. lia.
    + unfold pairs_of. simpl. rewrite firstn_upd, H1, upd_split, !map_app. simpl.
      rewrite <- Hv. rewrite firstn_app, firstn_all, Nat.sub_diag. simpl. rewrite app_nil_r.
      rewrite H3. symmetry. apply assign_split.
      intros x Hx. apply in_map_iff in Hx as (y & <- & Hy). simpl. auto.
  - unfold map_create.
    set (ee := if Nat.eqb (mp_size m) (mp_cap m) then mp_entries m ++ repeat entry0 (mp_cap m) else mp_entries m).
    assert (Hee : mp_size m < List.length ee /\ firstn (mp_size m) ee = firstn (mp_size m) (mp_entries m) /\
                  (forall x, In x ee -> List.length (e_value x) = 8)).
    { unfold ee, mp_cap in *. destruct (Nat.eqb (mp_size m) (List.length (mp_entries m))) eqn:E.
      - apply Nat.eqb_eq in E. split; [rewrite app_length, repeat_length; lia|]. split.
        + rewrite firstn_app, E, Nat.sub_diag. simpl. rewrite app_nil_r. reflexivity.
        + intros x Hx. apply in_app_or in Hx as [Hx|Hx]; auto. apply repeat_spec in Hx. subst x. reflexivity.
      - apply Nat.eqb_neq in E. split; [lia|]. auto. }
    destruct Hee as (Hlt & Hf & Hx8).
    replace (mp_size m <? List.length ee) with true by (symmetry; apply Nat.ltb_lt; exact Hlt).
    simpl obind. simpl mp_entries. simpl mp_valsize. simpl mp_size.
    rewrite nth_upd, Nat.eqb_refl by exact Hlt. simpl obind.
    rewrite (firstn_all2 v) by lia. rewrite put0 by (simpl; lia). simpl obind.
    eexists. split; [reflexivity|]. split; [|split; [reflexivity|]].
    + unfold map_inv, mp_cap. simpl. rewrite !upd_length. split; [lia|]. split; [lia|]. split; [exact Hz|].
      intros x Hx. apply In_upd in Hx as [->|Hx].
      * cbn [e_value]. rewrite app_length, skipn_length. cbn [List.length]. lia.
      * apply In_upd in Hx as [->|Hx]; [reflexivity|auto].
    + unfold pairs_of at 1. cbn [mp_size mp_entries mp_valsize].
      rewrite upd_firstn_app by (rewrite upd_length; exact Hlt).
      rewrite firstn_upd, Hf.
      assert (Hu : forall A (l : list A) n x, List.length l <= n -> upd n x l = l).
      { intros A l. induction l as [|y l IH]; intros [|n] x Hl; simpl in *; auto; try lia. f_equal. apply IH. lia. }
      rewrite Hu by (rewrite firstn_length; lia).
      rewrite map_app. cbn [List.map e_key e_value].
      rewrite <- Hv . rewrite firstn_app, firstn_all, Nat.sub_diag. simpl firstn. rewrite app_nil_r.
      rewrite assign_new by exact H. unfold pairs_of. rewrite Hv. reflexivity.
Qed.
