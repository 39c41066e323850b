(** Config files, tables and media types. *)
From Coq Require Import ZArith Lia List.
From Verif Require Import LibBase LibIO LibText LibTok LibUrl LibMisc SpecTok SpecText SpecMisc ClipFacts.
Import ListNotations.

(** * Config files *)
Lemma space_not_255 : forall c, c_isspace c = true -> (c =? 255)%N = false.
Proof. intros c H. destruct (N.eqb_spec c 255) as [->|]; [vm_compute in H; discriminate|reflexivity]. Qed.
Lemma spaces_one : forall c l, c_isspace c = true -> conf_spaces (c :: l) = conf_spaces l.
Proof. intros c l H. cbn [conf_spaces]. rewrite space_not_255, H by exact H. reflexivity. Qed.
Lemma plain_tests : forall c, plain c -> (c =? 255)%N = false /\ (c =? 10)%N = false /\ (c =? 0)%N = false.
Proof. intros c (A & B & C). repeat split; apply N.eqb_neq; assumption. Qed.
Lemma chars_plain : forall t l buf, Forall (fun c => plain c /\ c <> 35%N) t -> List.length buf + List.length t < 256 ->
  conf_chars (t ++ l) false buf = conf_chars l false (buf ++ t).
Proof.
  induction t as [|c t IH]; intros l buf F Hl; [cbn [app]; rewrite app_nil_r; reflexivity|]. inversion F as [|? ? [Pc Hc] F']; subst. cbn [app conf_chars].
  destruct (plain_tests c Pc) as (-> & -> & _). apply N.eqb_neq in Hc. rewrite Hc. cbn [List.length] in Hl. destruct (Nat.leb_spec 256 (S (List.length buf))); [lia|].
  rewrite IH by (rewrite ?app_length; cbn [List.length]; auto; lia). rewrite <- app_assoc. reflexivity.
Qed.
Lemma chars_remark : forall t l buf, Forall plain t -> conf_chars (t ++ l) true buf = conf_chars l true buf.
Proof.
  induction t as [|c t IH]; intros l buf F; [reflexivity|]. inversion F as [|? ? Pc F']; subst. cbn [app conf_chars]. destruct (plain_tests c Pc) as (-> & -> & _).
  destruct (c =? 35)%N; apply IH; assumption.
Qed.
Lemma remark_line : forall m l buf, remark m -> conf_chars (m ++ 10%N :: l) false buf = ROk (buf, mkConf l false) /\ conf_chars m false buf = ROk (buf, mkConf [] true).
Proof.
  intros m l buf [|t F]; [split; reflexivity|]. split.
  - change ((35%N :: t) ++ 10%N :: l) with (35%N :: (t ++ 10%N :: l)). cbn [conf_chars]. change (35 =? 255)%N with false. change (35 =? 35)%N with true. cbn iota. rewrite chars_remark by exact F. reflexivity.
  - cbn [conf_chars]. change (35 =? 255)%N with false. change (35 =? 35)%N with true. cbn iota. rewrite <- (app_nil_r t), chars_remark by exact F. reflexivity.
Qed.
Lemma str_plain : forall t, Forall plain t -> cgi_str t = t.
Proof. induction 1 as [|c t Pc F IH]; [reflexivity|]. cbn [cgi_str]. destruct (plain_tests c Pc) as (_ & _ & ->). rewrite IH. reflexivity. Qed.
Lemma skip_blanks : forall a l, conf_skip (repeat 32%N a ++ l) = conf_skip l.
Proof. induction a as [|a IH]; intros l; [reflexivity|]. exact (IH l). Qed.
Lemma key_at : forall k r acc, Forall (fun c => plain c /\ c <> 61 /\ c <> 32 /\ c <> 35)%N k -> (exists c r', r = c :: r' /\ (c = 61%N \/ c = 32%N)) -> conf_key (k ++ r) acc = (acc ++ k, r).
Proof.
  induction k as [|c k IH]; intros r acc F Hr.
  - destruct Hr as (c & r' & -> & Hc). cbn [app conf_key]. rewrite app_nil_r. destruct Hc as [->| ->]; reflexivity.
  - inversion F as [|? ? (_ & A & B & _) F']; subst. cbn [app conf_key]. apply N.eqb_neq in A. apply N.eqb_neq in B. rewrite A, B. cbn [orb]. rewrite IH by assumption. rewrite <- app_assoc. reflexivity.
Qed.
Lemma repeat_plain : forall a, Forall (fun c => plain c /\ c <> 35)%N (repeat 32%N a).
Proof. intros a. apply Forall_forall. intros c Hc. apply repeat_spec in Hc. subst. repeat split; discriminate. Qed.
Lemma pair_line : forall k v t, pair_text k v t -> Forall (fun c => plain c /\ c <> 35)%N t /\ conf_spaces t = t /\ (exists c r, t = c :: r) /\
  exists x r, conf_key t [] = (k, x :: r) /\ conf_skip r = v.
Proof.
  intros k v t [(K0 & K & Ks) (V0 & V & V1 & V2) (a & b & ->)].
  assert (Ft : Forall (fun c => plain c /\ c <> 35)%N (k ++ repeat 32%N a ++ 61%N :: repeat 32%N b ++ v)).
  { apply Forall_app. split; [eapply Forall_impl; [|exact K]; cbn; tauto|]. apply Forall_app. split; [apply repeat_plain|]. constructor; [repeat split; discriminate|].
    apply Forall_app. split; [apply repeat_plain|exact V]. }
  split; [exact Ft|]. split; [|split].
  - destruct k as [|c k]; [congruence|]. cbn [hd app] in *. inversion K as [|? ? (Pc & _) _]; subst. cbn [conf_spaces]. destruct (plain_tests c Pc) as (-> & _). rewrite Ks. reflexivity.
  - destruct k as [|c k]; [congruence|]. eexists _, _. reflexivity.
  - assert (Sv : conf_skip v = v).
    { destruct v as [|c v]; [congruence|]. cbn [hd] in *. cbn [conf_skip]. apply N.eqb_neq in V1. apply N.eqb_neq in V2. rewrite V1, V2. reflexivity. }
    destruct a as [|a].
    + exists 61%N, (repeat 32%N b ++ v). cbn [repeat app]. split; [apply key_at; [exact K|eauto]|]. rewrite skip_blanks. exact Sv.
    + exists 32%N, (repeat 32%N a ++ 61%N :: repeat 32%N b ++ v). split; [apply key_at; [exact K|cbn [repeat app]; eauto]|]. rewrite skip_blanks. cbn [conf_skip]. change (61 =? 61)%N with true. cbn [orb].
      rewrite skip_blanks. exact Sv.
Qed.
Lemma pair_next : forall k v t rest st fuel, pair_text k v t -> List.length t < 256 -> List.length k < 100 -> List.length v < 200 ->
  conf_chars rest false t = ROk (t, st) -> conf_next (S fuel) (mkConf (t ++ rest) false) = ROk (Some (k, v), st).
Proof.
  intros k v t rest st fuel Pt Ht Hk Hv E. destruct (pair_line k v t Pt) as (Ft & Sp & (c & r & Ec) & x & r' & Ek & Es).
  cbn [conf_next cf_eof]. unfold conf_next_line. cbn [cf_in].
  assert (Sp' : conf_spaces (t ++ rest) = t ++ rest).
  { subst t. cbn [app conf_spaces] in *. inversion Ft as [|? ? [Pc _] _]; subst. destruct (plain_tests c Pc) as (A & _). rewrite A in *. destruct (c_isspace c); [|reflexivity].
    exfalso. assert (Ls : forall l, List.length (conf_spaces l) <= List.length l). { induction l as [|y l IH]; cbn [conf_spaces List.length]; [lia|]. destruct (y =? 255)%N; [lia|]. destruct (c_isspace y); cbn [List.length]; lia. }
    pose proof (Ls r) as K. rewrite Sp in K. cbn [List.length] in K. lia. }
  rewrite Sp', chars_plain by (cbn [List.length]; auto; lia). change ([] ++ t) with t. rewrite E. cbn [rbind]. rewrite str_plain by (eapply Forall_impl; [|exact Ft]; cbn; tauto).
  rewrite Ek, Es. destruct Pt as [_ (V0 & _) _]. destruct v as [|v0 v]; [congruence|]. rewrite Ec.
  destruct (Nat.leb_spec 100 (List.length k)); [lia|]. destruct (Nat.leb_spec 200 (List.length (v0 :: v))); [lia|]. reflexivity.
Qed.
Lemma next_at : forall l ps, config l ps -> forall fuel, S (S (List.length l)) <= fuel ->
  match ps with
  | [] => exists st, conf_next fuel (mkConf l false) = ROk (None, st)
  | kv :: ps' => exists st l', conf_next fuel (mkConf l false) = ROk (Some kv, st) /\ 0 < List.length l /\
                 ((st = mkConf l' false /\ config l' ps' /\ List.length l' < List.length l) \/ (ps' = [] /\ st = mkConf [] true))
  end.
Proof.
  induction 1 as [|c l ps Hc H IH|t l ps Hm H IH|t Hm|k v t m l ps Pt Ht Hk Hv Hm H IH|k v t m Pt Ht Hk Hv Hm]; intros fuel Hf.
  - destruct fuel as [|[|fuel]]; cbn [List.length] in Hf; try lia. eexists. reflexivity.
  - cbn [List.length] in Hf. specialize (IH fuel ltac:(lia)). destruct fuel as [|fuel]; [lia|].
    assert (E : conf_next (S fuel) (mkConf (c :: l) false) = conf_next (S fuel) (mkConf l false)).
    { cbn [conf_next cf_eof]. unfold conf_next_line. cbn [cf_in]. rewrite spaces_one by exact Hc. reflexivity. }
    rewrite E. destruct ps as [|kv ps]; [exact IH|]. destruct IH as (st & l' & E' & L0 & D). exists st, l'. split; [exact E'|]. cbn [List.length]. split; [lia|].
    destruct D as [(A & B & C)|D]; [left; repeat split; auto; lia|right; exact D].
  - cbn [List.length] in Hf. rewrite app_length in Hf. cbn [List.length] in Hf. destruct fuel as [|fuel]; [lia|]. specialize (IH fuel ltac:(lia)).
    assert (E : conf_next (S fuel) (mkConf (35%N :: t ++ 10%N :: l) false) = conf_next fuel (mkConf l false)).
    { cbn [conf_next cf_eof]. unfold conf_next_line. cbn [cf_in]. change (conf_spaces (35%N :: t ++ 10%N :: l)) with ((35%N :: t) ++ 10%N :: l).
      rewrite (proj1 (remark_line _ l [] Hm)). reflexivity. }
    rewrite E. destruct ps as [|kv ps]; [exact IH|]. destruct IH as (st & l' & E' & L0 & D). exists st, l'. split; [exact E'|]. cbn [List.length]. split; [lia|].
    destruct D as [(A & B & C)|D]; [left; repeat split; auto; rewrite app_length; cbn [List.length]; lia|right; exact D].
  - cbn [List.length] in Hf. destruct fuel as [|[|fuel]]; try lia. exists (mkConf [] true). cbn [conf_next cf_eof]. unfold conf_next_line. cbn [cf_in].
    change (conf_spaces (35%N :: t)) with (35%N :: t). rewrite (proj2 (remark_line _ [] [] Hm)). reflexivity.
  - destruct fuel as [|fuel]; [lia|]. exists (mkConf l false), l. split; [apply pair_next; auto; apply remark_line; exact Hm|].
    rewrite !app_length. cbn [List.length]. split; [lia|]. left. repeat split; auto; lia.
  - destruct fuel as [|fuel]; [lia|]. exists (mkConf [] true), []. split; [apply pair_next; auto; apply (remark_line m []); exact Hm|].
    destruct (pair_line k v t Pt) as (_ & _ & (c & r & ->) & _). cbn [app List.length]. split; [lia|]. right. auto.
Qed.
(** A program that asks for pairs until there are none gets those of the file, in order. *)
Theorem C109_read_partial : forall f ps, config f ps -> conf_all (S (List.length f)) (conf_new f) = ROk ps.
Proof.
  intros f ps H. unfold conf_new. assert (G : forall n l ps, List.length l < n -> config l ps -> conf_all n (mkConf l false) = ROk ps); [|apply G; [lia|exact H]].
  clear. induction n as [|n IH]; intros l ps Hl H; [lia|]. cbn [conf_all cf_in]. pose proof (next_at l ps H (S (S (List.length l))) (Nat.le_refl _)) as K.
  destruct ps as [|kv ps]; [destruct K as (st & ->); reflexivity|]. destruct K as (st & l' & -> & L0 & D). cbn [rbind].
  destruct D as [(-> & C & Ll)|(-> & ->)].
  - rewrite (IH l' ps) by (auto; lia). reflexivity.
  - destruct n as [|n]; [lia|]. reflexivity.
Qed.
Lemma plain_list : forall l, forallb (fun c => negb ((c =? 0) || (c =? 10) || (c =? 255) || (c =? 61) || (c =? 32) || (c =? 35)))%N l = true ->
  Forall (fun c => plain c /\ c <> 61 /\ c <> 32 /\ c <> 35)%N l.
Proof.
  intros l H. apply Forall_forall. intros c Hc. rewrite forallb_forall in H. specialize (H c Hc). apply Bool.negb_true_iff in H.
  rewrite !Bool.orb_false_iff, !N.eqb_neq in H. unfold plain. tauto.
Qed.
Example C109_example : config (L "# servers" ++ 10%N :: L "host = example.org" ++ L "# main" ++ 10%N :: L "port=80") [(L "host", L "example.org"); (L "port", L "80")].
Proof.
  assert (V : forall l, Forall (fun c => plain c /\ c <> 61 /\ c <> 32 /\ c <> 35)%N l -> Forall (fun c => plain c /\ c <> 35)%N l) by (intros l F; eapply Forall_impl; [|exact F]; cbn; tauto).
  apply (cf_remark (L " servers")).
  { constructor. constructor; [repeat split; discriminate|]. eapply Forall_impl; [|apply (plain_list (L "servers")); reflexivity]. cbn. tauto. }
  apply (cf_pair (L "host") (L "example.org") (L "host = example.org") (L "# main")).
  - constructor.
    + split; [discriminate|]. split; [apply plain_list; reflexivity|reflexivity].
    + split; [discriminate|]. split; [apply V, plain_list; reflexivity|split; discriminate].
    + exists 1, 1. reflexivity.
  - cbn; lia.
  - cbn; lia.
  - cbn; lia.
  - constructor. constructor; [repeat split; discriminate|]. eapply Forall_impl; [|apply (plain_list (L "main")); reflexivity]. cbn. tauto.
  - change (L "port=80") with (L "port=80" ++ []). apply (cf_last_pair (L "port") (L "80") (L "port=80") []).
    + constructor.
      * split; [discriminate|]. split; [apply plain_list; reflexivity|reflexivity].
      * split; [discriminate|]. split; [apply V, plain_list; reflexivity|split; discriminate].
      * exists 0, 0. reflexivity.
    + cbn; lia.
    + cbn; lia.
    + cbn; lia.
    + constructor.
Qed.
(** A byte 255 in a value ends its line, and a blank before a remark stays in the value. *)
Theorem C109_byte_refuted :
  ~ (forall k v, k <> [] -> v <> [] -> Forall (fun c => 32 < c < 256 /\ c <> 35 /\ c <> 61)%N (k ++ v) -> List.length (k ++ v) < 99 ->
       conf_all (N.to_nat 300) (conf_new (k ++ L " = " ++ v)) = ROk [(k, v)]) /\
  conf_all 20 (conf_new (L "a = b # c")) = ROk [(L "a", L "b ")].
Proof.
  split; [|vm_compute; reflexivity]. intros H. specialize (H (L "a") [98; 255; 99]%N ltac:(discriminate) ltac:(discriminate)).
  assert (K : conf_all (N.to_nat 300) (conf_new (L "a" ++ L " = " ++ [98; 255; 99]%N)) = RPanic) by (vm_compute; reflexivity). 
  enough (E : conf_all (N.to_nat 300) (conf_new (L "a" ++ L " = " ++ [98; 255; 99]%N)) = ROk [(L "a", [98; 255; 99]%N)]) by (rewrite K in E; discriminate).
  apply H; [repeat constructor; discriminate|cbn; lia].
Qed.

(** * Tables *)
Lemma tab_set_length : forall ws c w, List.length (tab_set ws c w) = List.length ws.
Proof. induction ws as [|x ws IH]; intros [|c] w; cbn [tab_set List.length]; auto. Qed.
Lemma tab_set_nth : forall ws c w d, c < List.length ws -> nth d (tab_set ws c w) 0 = if Nat.eqb d c then w else nth d ws 0.
Proof. induction ws as [|x ws IH]; intros [|c] w [|d] H; cbn [tab_set nth List.length Nat.eqb] in *; try lia; auto. apply IH. lia. Qed.
Lemma widths_at : forall n values i ws, 0 < n -> List.length ws = n -> let fin := tab_widths n values i ws in
  (forall c, nth c ws 0 <= nth c fin 0) /\
  (forall j v, nth_error values j = Some v -> List.length v <= nth ((i + j) mod n) fin 0) /\
  (forall c, nth c fin 0 = nth c ws 0 \/ exists j v, nth_error values j = Some v /\ (i + j) mod n = c /\ nth c fin 0 = List.length v + 2).
Proof.
  intros n. induction values as [|v r IH]; intros i ws Hn Hl; cbv zeta.
  - cbn [tab_widths]. split; [lia|]. split; [intros [|j] v E; discriminate|left; reflexivity].
  - cbn [tab_widths]. cbv zeta. set (col := i mod n). assert (Hc : col < List.length ws) by (rewrite Hl; apply Nat.mod_upper_bound; lia).
    set (ws' := if Nat.ltb (nth col ws 0) (List.length v) then tab_set ws col (List.length v + 2) else ws).
    assert (Hl' : List.length ws' = n) by (unfold ws'; destruct (Nat.ltb _ _); rewrite ?tab_set_length; exact Hl).
    destruct (IH (S i) ws' Hn Hl') as (A & B & C). set (fin := tab_widths n r (S i) ws') in *.
    assert (M : forall c, nth c ws 0 <= nth c ws' 0).
    { intros c. unfold ws'. destruct (Nat.ltb_spec (nth col ws 0) (List.length v)); [|lia]. rewrite tab_set_nth by exact Hc. destruct (Nat.eqb_spec c col); subst; lia. }
    split; [intros c; specialize (A c); specialize (M c); lia|]. split.
    + intros [|j] u E; cbn [nth_error] in E.
      * inversion E; subst u. rewrite Nat.add_0_r. fold col. specialize (A col). enough (List.length v <= nth col ws' 0) by lia.
        unfold ws'. destruct (Nat.ltb_spec (nth col ws 0) (List.length v)); [|lia]. rewrite tab_set_nth, Nat.eqb_refl by exact Hc. lia.
      * replace (i + S j) with (S i + j) by lia. apply B, E.
    + intros c. destruct (C c) as [E|(j & u & E & Ec & W)].
      * rewrite E. unfold ws'. destruct (Nat.ltb_spec (nth col ws 0) (List.length v)); [|left; reflexivity]. rewrite tab_set_nth by exact Hc. destruct (Nat.eqb_spec c col) as [->|]; [|left; reflexivity].
        right. exists 0, v. split; [reflexivity|]. rewrite Nat.add_0_r. auto.
      * right. exists (S j), u. split; [exact E|]. replace (i + S j) with (S i + j) by lia. auto.
Qed.
Lemma printwidth_at : forall v n w, n + List.length v <= w -> printwidth v n w = v ++ repeat 32%N (w - n - List.length v).
Proof.
  induction v as [|c v IH]; intros n w H; cbn [printwidth app List.length] in *; [f_equal; lia|]. f_equal. destruct (Nat.eqb_spec (S n) w) as [E|E].
  - destruct v; [|cbn [List.length] in H; lia]. cbn [app List.length]. replace (w - n - 1) with 0 by lia. reflexivity.
  - rewrite IH by lia. do 2 f_equal. lia.
Qed.
Lemma last_column : forall n i, 0 < n -> Nat.eqb (i mod n) (n - 1) = Nat.eqb (S i mod n) 0.
Proof.
  intros n i Hn. pose proof (Nat.div_mod i n ltac:(lia)) as E. pose proof (Nat.mod_upper_bound i n ltac:(lia)) as L1. set (q := i / n) in *. set (r := i mod n) in *.
  destruct (Nat.eqb_spec r (n - 1)) as [R|R].
  - replace (S i) with (0 + (q + 1) * n) by nia. rewrite Nat.mod_add by lia. rewrite Nat.mod_0_l by lia. reflexivity.
  - replace (S i) with (S r + q * n) by nia. rewrite Nat.mod_add by lia. rewrite Nat.mod_small by lia. reflexivity.
Qed.
(** The table shows all values whole, in columns each of one width: that of its longest value
    and two more at most. *)
Theorem C110_table : forall ncols values, 0 < ncols -> exists width, tab_print ncols values = ROk (laid_out ncols width 0 values) /\
  (forall i v, nth_error values i = Some v -> List.length v <= width (i mod ncols)) /\
  (forall c, c < ncols -> width c = 0 \/ exists i v, nth_error values i = Some v /\ i mod ncols = c /\ width c = List.length v + 2).
Proof.
  intros n values Hn. destruct (widths_at n values 0 (repeat 0 n) Hn (repeat_length _ _)) as (_ & B & C). set (fin := tab_widths n values 0 (repeat 0 n)) in *.
  exists (fun c => nth c fin 0). split; [|split].
  - unfold tab_print. destruct (Nat.eqb_spec n 0); [lia|]. fold fin. f_equal. clear C.
    assert (G : forall vs i, (forall j v, nth_error vs j = Some v -> List.length v <= nth ((i + j) mod n) fin 0) -> tab_cells n fin vs i = laid_out n (fun c => nth c fin 0) i vs).
    { induction vs as [|v vs IH]; intros i H; [reflexivity|]. cbn [tab_cells laid_out]. cbv zeta. specialize (H 0 v eq_refl) as H0. rewrite Nat.add_0_r in H0.
      rewrite printwidth_at by lia. rewrite last_column by exact Hn. rewrite <- app_assoc, Nat.sub_0_r. do 3 f_equal. apply IH. intros j u E. specialize (H (S j) u E). replace (S i + j) with (i + S j) by lia. exact H. }
    apply G. exact B.
  - exact B.
  - intros c Hc. destruct (C c) as [E|E]; [left|right; exact E]. rewrite E. apply nth_repeat.
Qed.
(** Columns may touch. *)
Theorem C110_gap_refuted : ~ forall ncols values out, 0 < ncols -> tab_print ncols values = ROk out ->
  exists width, out = laid_out ncols width 0 values /\ forall i v, nth_error values i = Some v -> List.length v < width (i mod ncols).
Proof.
  intros H. destruct (H 2 [L "aaa"; L "b"; L "aaaaa"; L "b"] (L "aaa  b  " ++ [10%N] ++ L "aaaaab  " ++ [10%N]) ltac:(lia) ltac:(vm_compute; reflexivity)) as (width & E & W).
  pose proof (W 2 (L "aaaaa") eq_refl) as K. change (2 mod 2) with 0 in K. cbn [List.length] in K.
  assert (N5 : nth_error (laid_out 2 width 0 [L "aaa"; L "b"; L "aaaaa"; L "b"]) 5 = Some 32%N).
  { cbn [laid_out]. change (0 mod 2) with 0. destruct (width 0) as [|[|[|[|[|[|w]]]]]]; [vm_compute in K; lia..|]. reflexivity. }
  rewrite <- E in N5. vm_compute in N5. discriminate.
Qed.
Example C110_example : tab_print 2 [L "name"; L "size"; L "a"; L "10"] = ROk (L "name  size  " ++ [10%N] ++ L "a     10    " ++ [10%N]).
Proof. vm_compute. reflexivity. Qed.

(** * Media types *)
(** The type answered for an extension is the one in the table, and only those are. *)
Theorem C111_lookup : forall ext ty, mime_lookup ext = Some ty <-> In (ext, ty) mime_table.
Proof.
  intros ext ty. unfold mime_lookup.
  assert (F : forall t, mime_find t ext = Some ty -> In (ext, ty) t).
  { induction t as [|[k v] t IH]; intros E; [discriminate|]. cbn [mime_find] in E. destruct (bytes_eqb k ext) eqn:B; [apply bytes_eqb_eq in B; inversion E; subst; left; reflexivity|right; auto]. }
  split; [apply F|]. intros H.
  assert (G : forallb (fun p => match mime_find mime_table (fst p) with Some v => bytes_eqb v (snd p) | None => false end) mime_table = true) by (vm_compute; reflexivity).
  rewrite forallb_forall in G. specialize (G _ H). cbn [fst snd] in G. destruct (mime_find mime_table ext) as [v|]; [|discriminate]. apply bytes_eqb_eq in G. subst. reflexivity.
Qed.
(** Not every answer is a type and a subtype with a slash between them. *)
Theorem C111_slash_refuted : ~ forall ext ty, mime_lookup ext = Some ty -> In 47%N ty.
Proof.
  intros H. specialize (H (L "ppt") _ ltac:(vm_compute; reflexivity)).
  assert (G : existsb (N.eqb 47) (L "application.vnd.openxmlformats-officedocument.presentationml.presentation") = false) by (vm_compute; reflexivity).
  assert (K : existsb (N.eqb 47) (L "application.vnd.openxmlformats-officedocument.presentationml.presentation") = true); [|congruence].
  apply existsb_exists. exists 47%N. split; [exact H|reflexivity].
Qed.
(** Common extensions have the types registered for them; some have not. *)
Theorem C111_registered : forall ext ty, In (ext, ty) registered -> mime_lookup ext = Some ty.
Proof.
  assert (G : forallb (fun p => match mime_lookup (fst p) with Some v => bytes_eqb v (snd p) | None => false end) registered = true) by (vm_compute; reflexivity).
  intros ext ty H. rewrite forallb_forall in G. specialize (G _ H). cbn [fst snd] in G. destruct (mime_lookup ext) as [v|]; [|discriminate]. apply bytes_eqb_eq in G. subst. reflexivity.
Qed.
Theorem C111_registered_refuted : forall ext ty, In (ext, ty) registered_too -> mime_lookup ext <> Some ty.
Proof.
  assert (G : forallb (fun p => match mime_lookup (fst p) with Some v => negb (bytes_eqb v (snd p)) | None => true end) registered_too = true) by (vm_compute; reflexivity).
  intros ext ty H E. rewrite forallb_forall in G. specialize (G _ H). cbn [fst snd] in G. rewrite E, bytes_eqb_refl in G. discriminate.
Qed.
Theorem C110_no_columns : forall values, values <> [] -> tab_print 0 values = RUndefined.
Proof. intros [|v values] H; [congruence|reflexivity]. Qed.
Example C111_example : mime_lookup (L "html") = Some (L "text/html") /\ mime_lookup (L "exe") = None.
Proof. split; vm_compute; reflexivity. Qed.

Print Assumptions C109_read_partial.
Print Assumptions C109_byte_refuted.
Print Assumptions C110_table.
Print Assumptions C110_gap_refuted.
Print Assumptions C111_lookup.
Print Assumptions C111_slash_refuted.
Print Assumptions C111_registered.
Print Assumptions C111_registered_refuted.
Print Assumptions C110_no_columns.
