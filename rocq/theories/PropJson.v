(** C85: lib/formats/json. *)
From Coq Require Import ZArith NArith Lia.
From Verif Require Import LibBase LibIO LibText LibTok LibJson SpecTok SpecJson ClipFacts PropTok.

(** The tokenizer has [s] ahead. *)
Definition ahead (t : tok bytes) (s : bytes) : Prop := exists d, at_ (fun x => x) t d s.
Notation sk := (drop_while c_isspace).

Lemma put_new : forall D (l : list (bytes * jval D)) k v, ~ In k (List.map fst l) -> json_put l k v = l ++ [(k, v)].
Proof.
  intros D. induction l as [|[k' v'] l IH]; intros k v H; [reflexivity|]. simpl in H. cbn [json_put].
  destruct (bytes_eqb k' k) eqn:E; [apply bytes_eqb_eq in E; tauto|]. rewrite IH by tauto. reflexivity.
Qed.

Section Parse.
  Context {D : Type} (scan : bytes -> D) (F : nat).
  Notation rd := mem_read.
  Let Hr : reads mem_read (fun x => x) := proj1 mem_reads_fully.

  Lemma a_peek : forall t s, ahead t s -> exists t', tok_peek rd t = (next s, t') /\ ahead t' s.
  Proof. intros t s [d H]. destruct (peek_at rd _ Hr t d s H) as (t' & E & A). exists t'. split; [exact E|exists d; exact A]. Qed.
  Lemma a_more : forall t s, ahead t s -> exists t', tok_more rd t = (match s with [] => false | _ => true end, t') /\ ahead t' s.
  Proof. intros t s [d H]. destruct (more_at rd _ Hr t d s H) as (t' & E & A). exists t'. split; [exact E|exists d; exact A]. Qed.
  Lemma a_get : forall t c s, ahead t (c :: s) -> exists t', tok_get rd t = (Z.of_N c, t') /\ ahead t' s.
  Proof. intros t c s [d H]. destruct (get_at rd _ Hr t d c s H) as (t' & E & A). exists t'. split; [exact E|eexists; exact A]. Qed.
  Lemma a_get_end : forall t, ahead t [] -> exists t', tok_get rd t = ((-1)%Z, t') /\ ahead t' [].
  Proof. intros t [d H]. destruct (get_end rd _ Hr t d H) as (t' & E & A). exists t'. split; [exact E|eexists; exact A]. Qed.
  Lemma a_spaces : forall t s, ahead t s -> List.length s < F -> exists t', tok_spaces rd F t = ROk t' /\ ahead t' (sk s).
  Proof. intros t s [d H] Hf. destruct (spaces_at rd _ Hr s F t d H Hf) as (t' & E & A). exists t'. split; [exact E|eexists; exact A]. Qed.

  Lemma sk_le : forall s, List.length (sk s) <= List.length s.
  Proof. induction s as [|c s IH]; simpl; [lia|]. destruct (c_isspace c); simpl; lia. Qed.
  Lemma sk_sk : forall s, sk (sk s) = sk s.
  Proof. induction s as [|c s IH]; simpl; [reflexivity|]. destruct (c_isspace c) eqn:E; [exact IH|]. simpl. rewrite E. reflexivity. Qed.
  Lemma sk_cons : forall c s, c_isspace c = false -> sk (c :: s) = c :: s.
  Proof. intros c s H. simpl. rewrite H. reflexivity. Qed.

  Lemma a_js_more : forall t s, ahead t s -> List.length s < F ->
    exists t', js_more rd F t = ROk (match sk s with [] => false | _ => true end, t') /\ ahead t' (sk s).
  Proof.
    intros t s H Hf. unfold js_more. destruct (a_spaces t s H Hf) as (t1 & -> & A1). cbn [rbind].
    destruct (a_more t1 _ A1) as (t2 & -> & A2). exists t2. split; [reflexivity|exact A2].
  Qed.
  Lemma a_js_peek : forall t s, ahead t s -> List.length s < F ->
    exists t', js_peek rd F t = ROk (next (sk s), t') /\ ahead t' (sk s).
  Proof.
    intros t s H Hf. unfold js_peek. destruct (a_spaces t s H Hf) as (t1 & -> & A1). cbn [rbind].
    destruct (a_peek t1 _ A1) as (t2 & -> & A2). exists t2. split; [reflexivity|exact A2].
  Qed.
  Lemma a_eat_yes : forall t s c r, ahead t s -> List.length s < F -> sk s = c :: r ->
    exists t', js_eat rd F t c = ROk (true, t') /\ ahead t' r.
  Proof.
    intros t s c r H Hf E. unfold js_eat. destruct (a_js_peek t s H Hf) as (t1 & -> & A1). cbn [rbind].
    rewrite next_eqb, E, N.eqb_refl. rewrite E in A1. destruct (a_get t1 c r A1) as (t2 & -> & A2).
    exists t2. split; [reflexivity|exact A2].
  Qed.
  Lemma a_eat_no : forall t s c, ahead t s -> List.length s < F -> (forall r, sk s <> c :: r) ->
    exists t', js_eat rd F t c = ROk (false, t') /\ ahead t' (sk s).
  Proof.
    intros t s c H Hf E. unfold js_eat. destruct (a_js_peek t s H Hf) as (t1 & -> & A1). cbn [rbind].
    rewrite next_eqb. exists t1. split; [|exact A1]. destruct (sk s) as [|x r]; [reflexivity|].
    destruct (N.eqb_spec x c) as [->|]; [destruct (E r eq_refl)|reflexivity].
  Qed.
  Lemma a_expect : forall t s c r, ahead t s -> List.length s < F -> sk s = c :: r ->
    exists t', js_expect rd F t c = ROk (None, t') /\ ahead t' r.
  Proof.
    intros t s c r H Hf E. unfold js_expect. destruct (a_more t s H) as (t1 & -> & A1).
    destruct s as [|x s]; [discriminate|]. cbn [negb]. destruct (a_eat_yes t1 _ c r A1 Hf E) as (t2 & -> & A2).
    cbn [rbind]. exists t2. split; [reflexivity|exact A2].
  Qed.

  (** * Strings *)
  Lemma a_chars : forall x k, chars plain_escape x k -> forall n t r acc, ahead t (x ++ 34%N :: r) -> List.length x < n ->
    exists t', js_chars rd n t acc = ROk (inl (acc ++ k), t') /\ ahead t' (34%N :: r).
  Proof.
    induction 1 as [|c x s Hc H34 H92 Hx IH|a b x s He Hx IH]; intros n t r acc H Hn; (destruct n as [|n]; [simpl in Hn; lia|]); cbn [js_chars].
    - cbn [app] in H. destruct (a_more t _ H) as (t1 & -> & A1). cbn [negb]. destruct (a_peek t1 _ A1) as (t2 & -> & A2).
      change (next (34%N :: r)) with 34%Z. rewrite Z.eqb_refl. rewrite app_nil_r. exists t2. split; [reflexivity|exact A2].
    - cbn [app] in H. destruct (a_more t _ H) as (t1 & -> & A1). cbn [negb]. destruct (a_peek t1 _ A1) as (t2 & -> & A2).
      cbn [next]. destruct (Z.eqb_spec (Z.of_N c) 34); [lia|]. destruct (a_get t2 _ _ A2) as (t3 & -> & A3).
      destruct (Z.eqb_spec (Z.of_N c) 92); [lia|]. rewrite z_byte_of by (unfold is_byte; lia).
      destruct (IH n t3 r (acc ++ [c]) A3) as (t4 & -> & A4); [simpl in Hn; lia|]. rewrite <- app_assoc. exists t4. split; [reflexivity|exact A4].
    - destruct He as [c Hc]. cbn [app] in H. destruct (a_more t _ H) as (t1 & -> & A1). cbn [negb]. destruct (a_peek t1 _ A1) as (t2 & -> & A2).
      cbn [next]. change (Z.of_N 92 =? 34)%Z with false. destruct (a_get t2 _ _ A2) as (t3 & -> & A3).
      change (Z.of_N 92 =? 92)%Z with true. cbv iota. destruct (a_get t3 _ _ A3) as (t4 & -> & A4).
      destruct (Z.eqb_spec (Z.of_N c) (-1)); [lia|]. rewrite z_byte_of by (unfold is_byte; lia).
      destruct (IH n t4 r (acc ++ [c]) A4) as (t5 & -> & A5); [simpl in Hn; lia|]. rewrite <- app_assoc. exists t5. split; [reflexivity|exact A5].
  Qed.

  Lemma a_readstr : forall t s x k r, ahead t s -> List.length s < F -> quoted plain_escape x k -> sk s = x ++ r ->
    exists t', js_readstr rd F t = ROk (inl k, t') /\ ahead t' r.
  Proof.
    intros t s x k r H Hf Hq E. destruct Hq as [x k Hx]. pose proof (sk_le s) as Hle. rewrite E in Hle.
    cbn [app] in E. rewrite <- app_assoc in E. unfold js_readstr.
    destruct (a_expect t s 34%N _ H Hf E) as (t1 & -> & A1). cbn [rbind].
    cbn [List.length app] in Hle. rewrite !app_length in Hle. cbn [List.length] in Hle.
    destruct (a_chars x k Hx F t1 r [] A1 ltac:(lia)) as (t2 & -> & A2). cbn [rbind app].
    destruct (a_expect t2 (34%N :: r) 34%N r A2) as (t3 & -> & A3); [simpl; lia|reflexivity|]. cbn [rbind].
    exists t3. split; [reflexivity|exact A3].
  Qed.

  (** * Values *)
  Definition short_number (t : bytes) : Prop := json_number t /\ List.length t < 100.
  Notation J := (json plain_escape short_number scan).
  Notation EL := (elements plain_escape short_number scan).
  Notation MS := (members plain_escape short_number scan).
  Notation MB := (member plain_escape short_number scan).

  (** What may follow a value. *)
  Definition stop (r : bytes) : Prop :=
    match r with [] => True | c :: _ => blank c \/ c = 44%N \/ c = 93%N \/ c = 125%N end.

  Lemma stop_number : forall r, stop r -> number_ends r.
  Proof. intros [|c r] H; [exact I|]. unfold stop, blank in H. unfold number_ends, is_digit. lia. Qed.

  Lemma blank_space : forall c, blank c -> c_isspace c = true.
  Proof. intros c [->|[->|[->| ->]]]; reflexivity. Qed.
  Lemma sk_blanks : forall w s, blanks w -> sk (w ++ s) = sk s.
  Proof. induction 1 as [|c w Hc Hw IH]; [reflexivity|]. cbn [app drop_while]. rewrite (blank_space c Hc). exact IH. Qed.

  Lemma json_number_number : forall t, json_number t -> number t.
  Proof.
    intros t (sg & w & f & e & -> & Hs & Hw & _ & Hf & He). rewrite app_assoc. constructor; [|assumption..].
    destruct Hs as [->| ->]; [apply whole_pos|apply whole_neg]; assumption.
  Qed.

  (** The first character of a value is no space. *)
  Definition first (v : jval D) (x : bytes) : Prop :=
    exists c y, x = c :: y /\ c_isspace c = false /\
      match v with
      | JArr _ => c = 91%N
      | JObj _ => c = 123%N
      | JStr _ => c = 34%N
      | JNum _ => is_digit c \/ c = 45%N
      | JNull => c = 110%N
      | JBool true => c = 116%N
      | JBool false => c = 102%N
      end.
  Lemma json_first : forall v x, J v x -> first v x.
  Proof.
    intros v x H. destruct H as [| | |t [Ht _]|s t Ht|w Hw|l t Ht|w Hw|l t Ht]; try (eexists _, _; split; [reflexivity|split; reflexivity]).
    - destruct Ht as (sg & w & f & e & -> & Hs & Hw & _). destruct Hw as [H1 H2]. destruct w as [|c w]; [contradiction|].
      pose proof (Forall_inv H2) as Hc. destruct Hs as [->| ->]; cbn [app].
      + exists c, (w ++ f ++ e). split; [reflexivity|]. split; [|left; exact Hc].
        unfold is_digit in Hc. unfold c_isspace. destruct (N.eqb_spec c 32), (N.leb_spec 9 c), (N.leb_spec c 13); try lia; reflexivity.
      + eexists _, _. split; [reflexivity|]. split; [reflexivity|right; reflexivity].
    - destruct Ht as [t s Ht]. eexists _, _. split; [reflexivity|]. split; reflexivity.
  Qed.

  Ltac jpeek Hf := match goal with
    | H : ahead ?t ?s |- context [js_peek rd F ?t] =>
        let t' := fresh "t" in let E := fresh in let A := fresh "A" in
        destruct (a_js_peek t s H Hf) as (t' & E & A); rewrite E; clear E; cbn [rbind]; cbv beta iota
    end.

  Lemma a_node : forall depth t s c y, ahead t s -> List.length s < F -> sk s = c :: y ->
    exists t', ahead t' (c :: y) /\ js_node scan rd F (S depth) t =
      (if (c =? 91)%N then js_read_array rd F (js_node scan rd F depth) t'
       else if (c =? 123)%N then js_read_dict rd F (js_node scan rd F depth) t'
       else if (c =? 34)%N then js_read_str rd F t'
       else if c_isdigit c then js_read_num scan rd F t'
       else if (c =? 45)%N then js_read_num scan rd F t'
       else js_read_kw rd F t').
  Proof.
    intros depth t s c y H Hf E. cbn [js_node]. destruct (a_js_more t s H Hf) as (t1 & -> & A1). rewrite E in *. cbn [rbind negb].
    assert (Es : sk (c :: y) = c :: y) by (rewrite <- E, sk_sk; reflexivity).
    assert (Hf' : List.length (c :: y) < F) by (rewrite <- E; pose proof (sk_le s); lia).
    jpeek Hf'. rewrite Es in *. change 91%Z with (Z.of_N 91). rewrite next_eqb.
    destruct (c =? 91)%N. { exists t0. auto. }
    jpeek Hf'. rewrite Es in *. change 123%Z with (Z.of_N 123). rewrite next_eqb.
    destruct (c =? 123)%N. { exists t2. auto. }
    jpeek Hf'. rewrite Es in *. change 34%Z with (Z.of_N 34). rewrite next_eqb.
    destruct (c =? 34)%N. { exists t3. auto. }
    jpeek Hf'. rewrite Es in *. rewrite z_isdigit_next.
    destruct (c_isdigit c). { exists t4. auto. }
    jpeek Hf'. rewrite Es in *. change 45%Z with (Z.of_N 45). rewrite next_eqb.
    destruct (c =? 45)%N; exists t5; auto.
  Qed.


  Lemma a_lit : forall t lit q, ahead t (lit ++ q) -> Forall (fun x => x <> 0%N) lit -> List.length lit <= 100 ->
    exists t', tok_skip_literal rd t lit = ROk (true, t') /\ ahead t' q.
  Proof.
    intros t lit q [d H] Hz Hl. destruct (skip_literal_at rd _ mem_reads_fully t d _ lit H Hz Hl) as [A _].
    destruct (A q eq_refl) as (t' & E & B). exists t'. split; [exact E|eexists; exact B].
  Qed.
  Lemma a_lit_no : forall t lit s, ahead t s -> (forall q, s <> lit ++ q) -> Forall (fun x => x <> 0%N) lit -> List.length lit <= 100 ->
    exists t', tok_skip_literal rd t lit = ROk (false, t') /\ ahead t' s.
  Proof.
    intros t lit s [d H] Hn Hz Hl. destruct (skip_literal_at rd _ mem_reads_fully t d _ lit H Hz Hl) as [_ A].
    destruct (A Hn) as (t' & E & B). exists t'. split; [exact E|eexists; exact B].
  Qed.

  Definition PJ (v : jval D) (x : bytes) : Prop := unique v ->
    forall depth t s r, ahead t s -> List.length s < F -> sk s = x ++ r -> stop r -> List.length x < depth ->
    exists t', js_node scan rd F depth t = ROk (inl v, t') /\ ahead t' r.
  Definition PE (l : list (jval D)) (e : bytes) : Prop := Forall unique l ->
    forall depth n t s r acc, ahead t s -> List.length s < F -> sk s = sk (e ++ 93%N :: r) -> List.length e < depth -> List.length e < n ->
    exists t', js_elements rd F (js_node scan rd F depth) n t acc = ROk (inl (acc ++ l), t') /\ ahead t' (93%N :: r).
  Definition PMB (m : bytes * jval D) (x : bytes) : Prop := unique (snd m) ->
    forall depth t s r, ahead t s -> List.length s < F -> sk s = x ++ r -> stop r -> (forall c r', r = c :: r' -> c_isspace c = false) -> List.length x < depth ->
    exists t1 t2 t3 s3, js_readstr rd F t = ROk (inl (fst m), t1) /\ js_expect rd F t1 58%N = ROk (None, t2) /\
      js_node scan rd F depth t2 = ROk (inl (snd m), t3) /\ ahead t3 s3 /\ sk s3 = r /\ List.length s3 < F.
  Definition PMS (l : list (bytes * jval D)) (e : bytes) : Prop := Forall (fun kv => unique (snd kv)) l ->
    forall depth n t s r acc, NoDup (List.map fst (acc ++ l)) ->
    ahead t s -> List.length s < F -> sk s = sk (e ++ 125%N :: r) -> List.length e < depth -> List.length e < n ->
    exists t', js_members rd F (js_node scan rd F depth) n t acc = ROk (inl (acc ++ l), t') /\ ahead t' (125%N :: r).

  Scheme json_i := Minimality for json Sort Prop
    with elements_i := Minimality for elements Sort Prop
    with members_i := Minimality for members Sort Prop
    with member_i := Minimality for member Sort Prop.
  Combined Scheme json_mut from json_i, elements_i, members_i, member_i.

  Lemma nonspace_eqb : forall c, c_isspace c = false -> forall w r, blanks w -> sk (w ++ c :: r) = c :: r.
  Proof. intros c Hc w r Hw. rewrite sk_blanks by exact Hw. apply sk_cons. exact Hc. Qed.
  Lemma nz_ok : forall l, forallb (fun x => negb (x =? 0)%N) l = true -> Forall (fun x => x <> 0%N) l.
  Proof. intros l H. apply Forall_forall. intros x Hx. rewrite forallb_forall in H. specialize (H x Hx). destruct (N.eqb_spec x 0); [discriminate|assumption]. Qed.
  Lemma stop_blanks : forall w r, blanks w -> stop r -> stop (w ++ r).
  Proof. intros [|c w] r Hw Hr'; [exact Hr'|]. simpl. left. exact (Forall_inv Hw). Qed.

  Ltac lens := repeat (progress (rewrite ?app_length in *; cbn [List.length app] in *)); lia.

  Lemma a_json : (forall v x, J v x -> PJ v x) /\ (forall l e, EL l e -> PE l e) /\ (forall l e, MS l e -> PMS l e) /\ (forall m x, MB m x -> PMB m x).
  Proof.
    apply (json_mut D plain_escape short_number scan PJ PE PMS PMB).
    - (* null *) intros U depth t s r H Hf E Hs Hd. destruct depth as [|depth]; [simpl in Hd; lia|].
      destruct (a_node depth t s 110%N (L "ull" ++ r) H Hf E) as (t1 & A1 & ->). change (if (110 =? 91)%N then _ else _) with (@js_read_kw D _ rd F t1).
      unfold js_read_kw. change (110%N :: L "ull" ++ r) with (L "null" ++ r) in A1.
      destruct (a_lit_no t1 (L "true") _ A1) as (t2 & -> & A2); [intros q Hq; discriminate|apply nz_ok; reflexivity|simpl; lia|]. cbn [rbind].
      destruct (a_lit_no t2 (L "false") _ A2) as (t3 & -> & A3); [intros q Hq; discriminate|apply nz_ok; reflexivity|simpl; lia|]. cbn [rbind].
      destruct (a_lit t3 (L "null") r A3) as (t4 & -> & A4); [apply nz_ok; reflexivity|simpl; lia|]. cbn [rbind].
      exists t4. split; [reflexivity|exact A4].
    - (* true *) intros U depth t s r H Hf E Hs Hd. destruct depth as [|depth]; [simpl in Hd; lia|].
      destruct (a_node depth t s 116%N (L "rue" ++ r) H Hf E) as (t1 & A1 & ->). change (if (116 =? 91)%N then _ else _) with (@js_read_kw D _ rd F t1).
      unfold js_read_kw. change (116%N :: L "rue" ++ r) with (L "true" ++ r) in A1.
      destruct (a_lit t1 (L "true") r A1) as (t4 & -> & A4); [apply nz_ok; reflexivity|simpl; lia|]. cbn [rbind].
      exists t4. split; [reflexivity|exact A4].
    - (* false *) intros U depth t s r H Hf E Hs Hd. destruct depth as [|depth]; [simpl in Hd; lia|].
      destruct (a_node depth t s 102%N (L "alse" ++ r) H Hf E) as (t1 & A1 & ->). change (if (102 =? 91)%N then _ else _) with (@js_read_kw D _ rd F t1).
      unfold js_read_kw. change (102%N :: L "alse" ++ r) with (L "false" ++ r) in A1.
      destruct (a_lit_no t1 (L "true") _ A1) as (t2 & -> & A2); [intros q Hq; discriminate|apply nz_ok; reflexivity|simpl; lia|]. cbn [rbind].
      destruct (a_lit t2 (L "false") r A2) as (t4 & -> & A4); [apply nz_ok; reflexivity|simpl; lia|]. cbn [rbind].
      exists t4. split; [reflexivity|exact A4].
    - (* number *) intros x Hx U depth t s r H Hf E Hs Hd. destruct depth as [|depth]; [simpl in Hd; lia|].
      destruct (json_first (JNum (scan x)) x (j_number _ _ _ x Hx)) as (c & y & Ec & Hsp & Hc). simpl in Hc.
      rewrite Ec in E. cbn [app] in E. destruct (a_node depth t s c (y ++ r) H Hf E) as (t1 & A1 & ->).
      assert (Hk : (if (c =? 91)%N then js_read_array rd F (js_node scan rd F depth) t1
       else if (c =? 123)%N then js_read_dict rd F (js_node scan rd F depth) t1
       else if (c =? 34)%N then js_read_str rd F t1
       else if c_isdigit c then js_read_num scan rd F t1
       else if (c =? 45)%N then js_read_num scan rd F t1
       else js_read_kw rd F t1) = js_read_num scan rd F t1).
      { destruct Hc as [Hc| ->]; [|reflexivity]. pose proof (proj1 (is_digit_c c) Hc) as Ed. rewrite Ed. unfold is_digit in Hc.
        destruct (N.eqb_spec c 91); [lia|]. destruct (N.eqb_spec c 123); [lia|]. destruct (N.eqb_spec c 34); [lia|]. reflexivity. }
      rewrite Hk. unfold js_read_num. change (c :: y ++ r) with ((c :: y) ++ r) in A1. rewrite <- Ec in A1. destruct A1 as [d A1].
      assert (Hlx : List.length x < F). { pose proof (sk_le s). rewrite E in H0. rewrite Ec. cbn [List.length] in *. rewrite app_length in H0. lia. }
      destruct (num_at rd _ Hr x r t1 d F 100 (json_number_number x (proj1 Hx)) (stop_number r Hs) A1 Hlx (proj2 Hx)) as (t2 & -> & A2).
      cbn [rbind]. exists t2. split; [reflexivity|eexists; exact A2].
    - (* string *) intros k x Hq U depth t s r H Hf E Hs Hd. destruct depth as [|depth]; [simpl in Hd; lia|].
      assert (Ex : exists y, x = 34%N :: y) by (destruct Hq; eexists; reflexivity). destruct Ex as [y Ey].
      pose proof E as E'. rewrite Ey in E'. cbn [app] in E'.
      destruct (a_node depth t s 34%N (y ++ r) H Hf E') as (t1 & A1 & ->). change (if (34 =? 91)%N then _ else _) with (@js_read_str D _ rd F t1).
      unfold js_read_str. destruct (a_readstr t1 (34%N :: y ++ r) x k r A1) as (t2 & -> & A2).
      { pose proof (sk_le s). rewrite E' in H0. lia. } { exact Hq. } { rewrite Ey. apply sk_cons. reflexivity. }
      cbn [rbind]. exists t2. split; [reflexivity|exact A2].
    - (* no elements *) intros w Hw U depth t s r H Hf E Hs Hd. destruct depth as [|depth]; [simpl in Hd; lia|].
      cbn [app] in E. rewrite <- app_assoc in E. cbn [app] in E. pose proof (sk_le s) as Hle. rewrite E in Hle.
      destruct (a_node depth t s 91%N _ H Hf E) as (t1 & A1 & ->). change (if (91 =? 91)%N then ?a else _) with a.
      unfold js_read_array. destruct (a_expect t1 _ 91%N _ A1 ltac:(lia) (sk_cons 91%N _ eq_refl)) as (t2 & -> & A2). cbn [rbind].
      destruct (a_eat_yes t2 _ 93%N r A2) as (t3 & -> & A3); [lens|apply nonspace_eqb; [reflexivity|exact Hw]|]. cbn [rbind].
      exists t3. split; [reflexivity|exact A3].
    - (* elements *) intros l e He IH U depth t s r H Hf E Hs Hd. destruct depth as [|depth]; [simpl in Hd; lia|].
      cbn [app] in E. rewrite <- app_assoc in E. cbn [app] in E. pose proof (sk_le s) as Hle. rewrite E in Hle.
      destruct (a_node depth t s 91%N _ H Hf E) as (t1 & A1 & ->). change (if (91 =? 91)%N then ?a else _) with a.
      unfold js_read_array. destruct (a_expect t1 _ 91%N _ A1 ltac:(lia) (sk_cons 91%N _ eq_refl)) as (t2 & -> & A2). cbn [rbind].
      assert (Hno : forall r', sk (e ++ 93%N :: r) <> 93%N :: r').
      { intros r' Hc. assert (Hx : exists w v x q, e = w ++ x ++ q /\ blanks w /\ J v x).
        { destruct He as [v w x w' Hw Hx Hw'|v l' w x w' e' Hw Hx Hw' He']; exists w, v, x; eexists; (split; [reflexivity|split; assumption]). }
        destruct Hx as (w & v & x & q & -> & Hw & Hx). destruct (json_first v x Hx) as (c & y & -> & Hsp & Hk).
        rewrite <- !app_assoc in Hc. cbn [app] in Hc. rewrite (nonspace_eqb c Hsp w _ Hw) in Hc. injection Hc as -> _.
        destruct v as [|[]| | | |]; unfold is_digit in Hk; try lia. }
      destruct (a_eat_no t2 _ 93%N A2) as (t3 & -> & A3); [lens|exact Hno|]. cbn [rbind].
      inversion U as [| | | |l0 Ul|]; subst.
      destruct (IH Ul depth F t3 _ r [] A3) as (t4 & -> & A4); [pose proof (sk_le (e ++ 93%N :: r)); lens|apply sk_sk|lens|lens|].
      cbn [rbind app]. destruct (a_expect t4 (93%N :: r) 93%N r A4) as (t5 & -> & A5); [lens|reflexivity|]. cbn [rbind].
      exists t5. split; [reflexivity|exact A5].
    - (* no members *) intros w Hw U depth t s r H Hf E Hs Hd. destruct depth as [|depth]; [simpl in Hd; lia|].
      cbn [app] in E. rewrite <- app_assoc in E. cbn [app] in E. pose proof (sk_le s) as Hle. rewrite E in Hle.
      destruct (a_node depth t s 123%N _ H Hf E) as (t1 & A1 & ->). change (if (123 =? 91)%N then _ else if (123 =? 123)%N then ?a else _) with a.
      unfold js_read_dict. destruct (a_expect t1 _ 123%N _ A1 ltac:(lia) (sk_cons 123%N _ eq_refl)) as (t2 & -> & A2). cbn [rbind].
      destruct (a_eat_yes t2 _ 125%N r A2) as (t3 & -> & A3); [lens|apply nonspace_eqb; [reflexivity|exact Hw]|]. cbn [rbind].
      exists t3. split; [reflexivity|exact A3].
    - (* members *) intros l e He IH U depth t s r H Hf E Hs Hd. destruct depth as [|depth]; [simpl in Hd; lia|].
      cbn [app] in E. rewrite <- app_assoc in E. cbn [app] in E. pose proof (sk_le s) as Hle. rewrite E in Hle.
      destruct (a_node depth t s 123%N _ H Hf E) as (t1 & A1 & ->). change (if (123 =? 91)%N then _ else if (123 =? 123)%N then ?a else _) with a.
      unfold js_read_dict. destruct (a_expect t1 _ 123%N _ A1 ltac:(lia) (sk_cons 123%N _ eq_refl)) as (t2 & -> & A2). cbn [rbind].
      assert (Hno : forall r', sk (e ++ 125%N :: r) <> 125%N :: r').
      { intros r' Hc. assert (Hx : exists w y, e = w ++ 34%N :: y /\ blanks w).
        { assert (Hm : forall m x, MB m x -> exists y, x = 34%N :: y).
          { intros m x [k v tk w w' t0 w'' Hk _ _ _ _]. destruct Hk. eexists. reflexivity. }
          destruct He as [m w x Hw Hx|m l' w x e' Hw Hx He']; destruct (Hm _ _ Hx) as [y ->]; cbn [app]; eexists _, _; (split; [reflexivity|assumption]). }
        destruct Hx as (w & y & -> & Hw). rewrite <- app_assoc in Hc. cbn [app] in Hc. rewrite (nonspace_eqb 34%N eq_refl w _ Hw) in Hc. discriminate. }
      destruct (a_eat_no t2 _ 125%N A2) as (t3 & -> & A3); [lens|exact Hno|]. cbn [rbind].
      inversion U as [| | | | |l0 Un Ul]; subst.
      destruct (IH Ul depth F t3 _ r [] Un A3) as (t4 & -> & A4); [pose proof (sk_le (e ++ 125%N :: r)); lens|apply sk_sk|lens|lens|].
      cbn [rbind app]. destruct (a_expect t4 (125%N :: r) 125%N r A4) as (t5 & -> & A5); [lens|reflexivity|]. cbn [rbind].
      exists t5. split; [reflexivity|exact A5].
    - (* last element *) intros v w x w' Hw Hx IH Hw' U depth n t s r acc H Hf E Hd Hn. destruct n as [|n]; [lia|].
      destruct (json_first v x Hx) as (c & y & Ec & Hsp & _).
      assert (E1 : sk s = x ++ w' ++ 93%N :: r).
      { rewrite E, <- !app_assoc, sk_blanks by exact Hw. rewrite Ec. apply sk_cons. exact Hsp. }
      cbn [js_elements]. destruct (a_js_more t s H Hf) as (t1 & -> & A1). cbn [rbind].
      replace (match sk s with [] => false | _ => true end) with true by (rewrite E1, Ec; reflexivity). cbn [negb].
      pose proof (sk_le s) as Hle. 
      destruct (IH (Forall_inv U) depth t1 (sk s) (w' ++ 93%N :: r) A1) as (t2 & -> & A2);
        [lia|rewrite sk_sk; exact E1|apply stop_blanks; [exact Hw'|right; right; left; reflexivity]|lens|].
      cbn [rbind]. rewrite E1 in Hle.
      destruct (a_eat_no t2 _ 44%N A2) as (t3 & -> & A3); [lens|intros r'; rewrite (nonspace_eqb 93%N eq_refl w' r Hw'); discriminate|].
      cbn [rbind]. rewrite (nonspace_eqb 93%N eq_refl w' r Hw') in A3. exists t3. split; [reflexivity|exact A3].
    - (* more elements *) intros v l w x w' e Hw Hx IH Hw' He IHe U depth n t s r acc H Hf E Hd Hn. destruct n as [|n]; [lia|].
      destruct (json_first v x Hx) as (c & y & Ec & Hsp & _).
      assert (E1 : sk s = x ++ w' ++ 44%N :: e ++ 93%N :: r).
      { rewrite E, <- !app_assoc, sk_blanks by exact Hw. cbn [app]. rewrite Ec. apply sk_cons. exact Hsp. }
      cbn [js_elements]. destruct (a_js_more t s H Hf) as (t1 & -> & A1). cbn [rbind].
      replace (match sk s with [] => false | _ => true end) with true by (rewrite E1, Ec; reflexivity). cbn [negb].
      pose proof (sk_le s) as Hle. 
      destruct (IH (Forall_inv U) depth t1 (sk s) (w' ++ 44%N :: e ++ 93%N :: r) A1) as (t2 & -> & A2);
        [lia|rewrite sk_sk; exact E1|apply stop_blanks; [exact Hw'|right; left; reflexivity]|lens|].
      cbn [rbind]. rewrite E1 in Hle.
      destruct (a_eat_yes t2 _ 44%N (e ++ 93%N :: r) A2) as (t3 & -> & A3); [lens|apply (nonspace_eqb 44%N eq_refl w' _ Hw')|].
      cbn [rbind]. destruct (IHe (Forall_inv_tail U) depth n t3 _ r (acc ++ [v]) A3) as (t4 & -> & A4); [lens|reflexivity|lens|lens|].
      rewrite <- app_assoc. exists t4. split; [reflexivity|exact A4].
    - (* last member *) intros [k v] w x Hw Hx IH U depth n t s r acc Hnd H Hf E Hd Hn. destruct n as [|n]; [lia|].
      assert (Ec : exists y, x = 34%N :: y). { inversion Hx as [k' v' tk w1 w2 t0 w3 Hk]; subst. destruct Hk. eexists; reflexivity. }
      destruct Ec as [y Ec].
      assert (E1 : sk s = x ++ 125%N :: r).
      { rewrite E, <- !app_assoc, sk_blanks by exact Hw. rewrite Ec. apply sk_cons. reflexivity. }
      cbn [js_members]. destruct (a_js_more t s H Hf) as (t1 & -> & A1). cbn [rbind].
      replace (match sk s with [] => false | _ => true end) with true by (rewrite E1, Ec; reflexivity). cbn [negb].
      pose proof (sk_le s) as Hle.
      destruct (IH (Forall_inv U) depth t1 (sk s) (125%N :: r) A1) as (t2 & t3 & t4 & s4 & F1 & F2 & F3 & A4 & E4 & L4);
        [lia|rewrite sk_sk; exact E1|right; right; right; reflexivity|intros c r' [= <- _]; reflexivity|lens|].
      rewrite F1. cbn [rbind fst]. rewrite F2. cbn [rbind]. rewrite F3. cbn [rbind snd].
      destruct (a_eat_no t4 s4 44%N A4 L4) as (t5 & -> & A5); [intros r'; rewrite E4; discriminate|]. cbn [rbind].
      rewrite E4 in A5. exists t5. split; [|exact A5]. do 3 f_equal. apply put_new.
      rewrite map_app in Hnd. apply NoDup_remove_2 in Hnd. rewrite app_nil_r in Hnd. exact Hnd.
    - (* more members *) intros [k v] l w x e Hw Hx IH He IHe U depth n t s r acc Hnd H Hf E Hd Hn. destruct n as [|n]; [lia|].
      assert (Ec : exists y, x = 34%N :: y). { inversion Hx as [k' v' tk w1 w2 t0 w3 Hk]; subst. destruct Hk. eexists; reflexivity. }
      destruct Ec as [y Ec].
      assert (E1 : sk s = x ++ 44%N :: e ++ 125%N :: r).
      { rewrite E, <- !app_assoc, sk_blanks by exact Hw. cbn [app]. rewrite Ec. apply sk_cons. reflexivity. }
      cbn [js_members]. destruct (a_js_more t s H Hf) as (t1 & -> & A1). cbn [rbind].
      replace (match sk s with [] => false | _ => true end) with true by (rewrite E1, Ec; reflexivity). cbn [negb].
      pose proof (sk_le s) as Hle.
      destruct (IH (Forall_inv U) depth t1 (sk s) (44%N :: e ++ 125%N :: r) A1) as (t2 & t3 & t4 & s4 & F1 & F2 & F3 & A4 & E4 & L4);
        [lia|rewrite sk_sk; exact E1|right; left; reflexivity|intros c r' [= <- _]; reflexivity|lens|].
      rewrite F1. cbn [rbind fst]. rewrite F2. cbn [rbind]. rewrite F3. cbn [rbind snd].
      destruct (a_eat_yes t4 s4 44%N _ A4 L4 E4) as (t5 & -> & A5). cbn [rbind]. rewrite E1 in Hle.
      rewrite put_new.
      + destruct (IHe (Forall_inv_tail U) depth n t5 (e ++ 125%N :: r) r (acc ++ [(k, v)])) as (t6 & E6 & A6); [|exact A5|lens|reflexivity|lens|lens|].
        * rewrite <- app_assoc. exact Hnd.
        * cbv zeta. rewrite E6, <- app_assoc. exists t6. split; [reflexivity|exact A6].
      + rewrite map_app in Hnd. apply NoDup_remove_2 in Hnd. intros Hin. apply Hnd. apply in_or_app. left. exact Hin.
    - (* member *) intros k v tk w w' x w'' Hk Hw Hw' Hx IH Hw'' U depth t s r H Hf E Hs Hns Hd. cbn [fst snd] in *.
      repeat (rewrite <- ?app_assoc in E; cbn [app] in E). pose proof (sk_le s) as Hle. rewrite E in Hle.
      destruct (a_readstr t s tk k _ H Hf Hk E) as (t1 & E1 & A1).
      destruct (a_expect t1 _ 58%N (w' ++ x ++ w'' ++ r) A1) as (t2 & E2 & A2); [lens|apply (nonspace_eqb 58%N eq_refl w _ Hw)|].
      destruct (json_first v x Hx) as (c & y & Ec & Hsp & _).
      destruct (IH U depth t2 _ (w'' ++ r) A2) as (t3 & E3 & A3); [lens| |apply stop_blanks; assumption|lens|].
      { rewrite sk_blanks by exact Hw'. rewrite Ec. apply sk_cons. exact Hsp. }
      exists t1, t2, t3, (w'' ++ r). split; [exact E1|]. split; [exact E2|]. split; [exact E3|]. split; [exact A3|]. split; [|lens].
      rewrite sk_blanks by exact Hw''. destruct r as [|c' r]; [reflexivity|]. apply sk_cons. apply (Hns c' r eq_refl).
  Qed.
End Parse.

Lemma ahead_new : forall s, ahead (tok_new s) s.
Proof. intros s. exists []. split; [reflexivity|]. exists [], []. repeat split; auto; intros []. Qed.

(** Every JSON text is read as its value, if its strings escape nothing but
    quotes, backslashes and slashes and its numbers are shorter than 100
    characters.  Missing: the other escapes, longer numbers. *)
Theorem C85_parse_partial : forall D (scan : bytes -> D) v x,
  json_text plain_escape short_number scan v x -> unique v -> json_parse scan x = ROk (inl v).
Proof.
  intros D scan v x H U. destruct H as [v w t w' Hw Ht Hw']. unfold json_parse.
  set (F := S (S (List.length (w ++ t ++ w')))). destruct (a_json scan F) as [A _].
  destruct (json_first scan v t Ht) as (c & y & Ec & Hsp & _).
  destruct (A v t Ht U F (tok_new (w ++ t ++ w')) (w ++ t ++ w') w' (ahead_new _)) as (t' & E & _).
  - unfold F. lia.
  - rewrite sk_blanks by exact Hw. rewrite Ec. apply sk_cons. exact Hsp.
  - destruct w' as [|b w']; [exact I|]. left. exact (Forall_inv Hw').
  - unfold F. rewrite !app_length. lia.
  - rewrite E. reflexivity.
Qed.

(** * Writing *)
Section JInd.
  Context {D : Type} (P : jval D -> Prop).
  Hypothesis (HN : P JNull) (HB : forall b, P (JBool b)) (HD : forall d, P (JNum d)) (HS : forall s, P (JStr s))
    (HA : forall l, Forall P l -> P (JArr l)) (HO : forall l, Forall (fun kv => P (snd kv)) l -> P (JObj l)).
  Fixpoint jval_rec' (v : jval D) : P v :=
    match v with
    | JNull => HN | JBool b => HB b | JNum d => HD d | JStr s => HS s
    | JArr l => HA l ((fix go l : Forall P l := match l with [] => Forall_nil _ | x :: r => Forall_cons _ (jval_rec' x) (go r) end) l)
    | JObj l => HO l ((fix go l : Forall (fun kv => P (snd kv)) l := match l with [] => Forall_nil _ | x :: r => Forall_cons _ (jval_rec' (snd x)) (go r) end) l)
    end.
End JInd.

(** Values that the writer can write: no control characters in strings, no
    quotes and backslashes in names, numbers whose text is a JSON number of less
    than 100 characters with the same value. *)
Inductive writable {D} (scan : bytes -> D) (print : D -> bytes) : jval D -> Prop :=
| wr_null : writable scan print JNull
| wr_bool : forall b, writable scan print (JBool b)
| wr_num : forall d, json_number (print d) -> List.length (print d) < 100 -> scan (print d) = d -> writable scan print (JNum d)
| wr_str : forall s, Forall (fun c => 32 <= c < 256)%N s -> writable scan print (JStr s)
| wr_arr : forall l, Forall (writable scan print) l -> writable scan print (JArr l)
| wr_obj : forall l, Forall (fun kv => Forall (fun c => (32 <= c < 256)%N /\ c <> 34%N /\ c <> 92%N) (fst kv)) l ->
    Forall (fun kv => writable scan print (snd kv)) l -> writable scan print (JObj l).

Lemma writestr_ok : forall s, Forall (fun c => 32 <= c < 256)%N s -> quoted plain_escape (js_writestr s) s.
Proof.
  intros s H. unfold js_writestr. constructor. induction H as [|c s Hc Hs IH]; [constructor|].
  cbn [List.map List.concat]. unfold js_escape at 1.
  destruct (N.eqb_spec c 10); [lia|]. destruct (N.eqb_spec c 9); [lia|].
  destruct (N.eqb_spec c 92) as [->|]; [apply (chars_esc _ [92%N] [92%N]); [constructor; tauto|exact IH]|].
  destruct (N.eqb_spec c 34) as [->|]; [apply (chars_esc _ [34%N] [34%N]); [constructor; tauto|exact IH]|].
  destruct (N.eqb_spec c 47) as [->|]; [apply (chars_esc _ [47%N] [47%N]); [constructor; tauto|exact IH]|].
  cbn [orb app]. apply chars_one; assumption.
Qed.
Lemma writekey_ok : forall k, Forall (fun c => (32 <= c < 256)%N /\ c <> 34%N /\ c <> 92%N) k -> quoted plain_escape (34%N :: k ++ [34%N]) k.
Proof. intros k H. constructor. induction H as [|c k (H1 & H2 & H3) Hk IH]; [constructor|]. apply chars_one; assumption. Qed.

Lemma write_ok : forall D (scan : bytes -> D) print v, writable scan print v ->
  exists t, js_write print v = ROk t /\ json plain_escape short_number scan v t.
Proof.
  intros D scan print. apply (jval_rec' (fun v => writable scan print v -> exists t, js_write print v = ROk t /\ json plain_escape short_number scan v t)).
  - intros _. eexists. split; [reflexivity|constructor].
  - intros [] _; (eexists; split; [reflexivity|constructor]).
  - intros d H. inversion H as [| |d' H1 H2 H3| | |]; subst. cbn [js_write]. unfold js_writenum.
    destruct (Nat.ltb_spec (List.length (print d)) 100); [|lia]. exists (print d). split; [reflexivity|].
    rewrite <- H3 at 1. constructor. split; assumption.
  - intros s H. inversion H; subst. eexists. split; [reflexivity|]. constructor. apply writestr_ok. assumption.
  - intros l IH H. inversion H as [| | | |l' Hl|]; subst. destruct l as [|v l].
    { exists [91; 93]%N. split; [reflexivity|]. apply (j_no_elements _ _ _ []). constructor. }
    cbn [js_write]. set (go := js_write_elements (js_write print)).
    enough (G : forall l, l <> [] -> Forall (fun v => writable scan print v -> exists t, js_write print v = ROk t /\ json plain_escape short_number scan v t) l ->
      Forall (writable scan print) l -> exists t, go l = ROk t /\ elements plain_escape short_number scan l t).
    { destruct (G (v :: l) ltac:(discriminate) IH Hl) as (t & E & He). rewrite E. cbn [rbind]. eexists. split; [reflexivity|].
      cbn [app]. apply j_elements. exact He. }
    clear. induction l as [|v l IH]; intros Hne HI HW; [contradiction|].
    destruct (Forall_inv HI (Forall_inv HW)) as (t & E & Ht). unfold go. cbn [js_write_elements]. rewrite E. cbn [rbind]. destruct l as [|v' l].
    + cbn [rbind]. eexists. split; [reflexivity|]. cbn [app].
      apply (el_last _ _ _ v [] t []); [constructor|exact Ht|constructor].
    + destruct (IH ltac:(discriminate) (Forall_inv_tail HI) (Forall_inv_tail HW)) as (e & E2 & He). fold go. rewrite E2. cbn [rbind].
      eexists. split; [reflexivity|]. cbn [app].
      apply (el_more _ _ _ v (v' :: l) [] t [] e); [constructor|exact Ht|constructor|exact He].
  - intros l IH H. inversion H as [| | | | |l' Hk Hl]; subst. destruct l as [|[k v] l].
    { exists [123; 125]%N. split; [reflexivity|]. apply (j_no_members _ _ _ []). constructor. }
    cbn [js_write]. set (go := js_write_members (js_write print)).
    enough (G : forall l, l <> [] -> Forall (fun kv => writable scan print (snd kv) -> exists t, js_write print (snd kv) = ROk t /\ json plain_escape short_number scan (snd kv) t) l ->
      Forall (fun kv => Forall (fun c => (32 <= c < 256)%N /\ c <> 34%N /\ c <> 92%N) (fst kv)) l ->
      Forall (fun kv => writable scan print (snd kv)) l -> exists t, go l = ROk t /\ members plain_escape short_number scan l t).
    { destruct (G ((k, v) :: l) ltac:(discriminate) IH Hk Hl) as (t & E & He). rewrite E. cbn [rbind]. eexists. split; [reflexivity|].
      cbn [app]. apply j_members. exact He. }
    clear. induction l as [|[k v] l IH]; intros Hne HI HK HW; [contradiction|].
    destruct (Forall_inv HI (Forall_inv HW)) as (t & E & Ht). cbn [snd] in E, Ht. unfold go. cbn [js_write_members]. rewrite E. cbn [rbind].
    pose proof (writekey_ok k (Forall_inv HK)) as Hq.
    assert (Hm : member plain_escape short_number scan (k, v) ((34%N :: k ++ [34%N]) ++ [] ++ 58%N :: [] ++ t ++ [])).
    { constructor; [exact Hq|constructor|constructor|exact Ht|constructor]. }
    cbn [app] in Hm. rewrite app_nil_r in Hm. destruct l as [|kv' l].
    + cbn [rbind]. eexists. split; [reflexivity|]. cbn [app]. rewrite app_nil_r. 
      replace (34%N :: k ++ 34%N :: 58%N :: t) with ([] ++ 34%N :: (k ++ [34%N]) ++ 58%N :: t) by (cbn [app]; rewrite <- app_assoc; reflexivity).
      apply mem_last; [constructor|exact Hm].
    + destruct (IH ltac:(discriminate) (Forall_inv_tail HI) (Forall_inv_tail HK) (Forall_inv_tail HW)) as (e & E2 & He). fold go. rewrite E2. cbn [rbind].
      eexists. split; [reflexivity|]. cbn [app].
      replace (34%N :: k ++ 34%N :: 58%N :: t ++ 44%N :: e) with ([] ++ (34%N :: (k ++ [34%N]) ++ 58%N :: t) ++ 44%N :: e)
        by (cbn [app]; rewrite <- !app_assoc; reflexivity).
      apply mem_more; [constructor|exact Hm|exact He].
Qed.

(** What the writer writes is a JSON text of the value.  Missing: control
    characters in strings; quotes and backslashes in names. *)
Theorem C85_format_partial : forall D (scan : bytes -> D) print v, writable scan print v ->
  exists t, json_format print v = ROk t /\ rfc8259 scan v t.
Proof.
  intros D scan print v H. destruct (write_ok D scan print v H) as (t & E & Ht). exists t. split; [exact E|].
  assert (G : (forall v x, json plain_escape short_number scan v x -> json escape json_number scan v x) /\
    (forall l x, elements plain_escape short_number scan l x -> elements escape json_number scan l x) /\
    (forall l x, members plain_escape short_number scan l x -> members escape json_number scan l x) /\
    (forall m x, member plain_escape short_number scan m x -> member escape json_number scan m x)).
  { assert (Q : forall t s, quoted plain_escape t s -> quoted escape t s).
    { intros x s [y s' Hc]. constructor. induction Hc; [constructor|constructor; assumption|constructor; [constructor|]; assumption]. }
    apply (json_mut D plain_escape short_number scan); intros; try (constructor; auto; fail).
    constructor. exact (proj1 H0). }
  unfold rfc8259. replace t with ([] ++ t ++ []) by (cbn [app]; apply app_nil_r). constructor; [constructor|apply G; exact Ht|constructor].
Qed.

(** Writing and reading again gives the value. *)
Theorem C85_round_trip_partial : forall D (scan : bytes -> D) print v, writable scan print v -> unique v ->
  exists t, json_format print v = ROk t /\ json_parse scan t = ROk (inl v).
Proof.
  intros D scan print v H U. destruct (write_ok D scan print v H) as (t & E & Ht). exists t. split; [exact E|].
  apply C85_parse_partial; [|exact U]. replace t with ([] ++ t ++ []) by (cbn [app]; apply app_nil_r). constructor; [constructor|exact Ht|constructor].
Qed.

(** Numbers are kept as their texts in the examples. *)
Definition same (b : bytes) : bytes := b.
Definition sample : jval bytes :=
  JObj [(L "a", JArr [JNum (L "1"); JNum (L "-2.5"); JStr (34 :: 92 :: L "x/")%N]); (L "b", JObj []); ([], JArr [JNull; JBool true])].
Lemma number_1 : short_number (L "1").
Proof.
  split; [|vm_compute; lia]. exists [], (L "1"), [], []. split; [reflexivity|]. split; [left; reflexivity|].
  split; [split; [discriminate|constructor; [split; vm_compute; discriminate|constructor]]|]. split; [intros r E; discriminate E|]. split; constructor.
Qed.
Lemma number_2 : short_number (L "-2.5").
Proof.
  split; [|vm_compute; lia]. exists (L "-"), (L "2"), (L ".5"), []. split; [reflexivity|]. split; [right; reflexivity|].
  split; [split; [discriminate|constructor; [split; vm_compute; discriminate|constructor]]|]. split; [intros r E; discriminate E|]. split; [|constructor].
  apply some_fraction. split; [discriminate|constructor; [split; vm_compute; discriminate|constructor]].
Qed.
Example C85_case : writable same same sample /\ unique sample /\
  json_format same sample = ROk (L "{""a"":[1,-2.5,""\""\\x\/""],""b"":{},"""":[null,true]}") /\
  json_parse same (L " { ""a"": [1 , -2.5,""\""\\x\/""], ""b"":{ },"""":[null,true] } ") = ROk (inl sample).
Proof.
  split; [|split; [|split; vm_compute; reflexivity]].
  - constructor; [repeat apply Forall_cons; repeat constructor; try discriminate; try (vm_compute; discriminate)|].
    repeat apply Forall_cons; cbn [snd]; try apply Forall_nil.
    + constructor. repeat apply Forall_cons; try apply Forall_nil.
      * constructor; [exact (proj1 number_1)|exact (proj2 number_1)|reflexivity].
      * constructor; [exact (proj1 number_2)|exact (proj2 number_2)|reflexivity].
      * constructor. repeat apply Forall_cons; try apply Forall_nil; split; vm_compute; congruence.
    + constructor; constructor.
    + constructor. repeat constructor.
  - constructor.
    + repeat apply NoDup_cons; try apply NoDup_nil; cbn; intuition discriminate.
    + repeat apply Forall_cons; cbn [snd]; try apply Forall_nil; repeat constructor; intros H; destruct H.
Qed.

(** ** Violations *)

(** A line feed comes back as a backslash and an n; so does the tab. *)
Theorem C85_newline_refuted : exists t, json_format same (JStr [10%N]) = ROk t /\
  json_parse same t = ROk (inl (JStr (92 :: L "n")%N)).
Proof. exists (34 :: 92 :: 92 :: 110 :: 34 :: nil)%N. split; vm_compute; reflexivity. Qed.
(** A quote in a name makes a text that cannot be read. *)
Theorem C85_name_refuted : exists t e, json_format same (JObj [([34%N], JNull)]) = ROk t /\ json_parse same t = ROk (inr e).
Proof.
  exists (L "{"""""":null}"). destruct (json_parse same (L "{"""""":null}")) as [[v|e]| | |] eqn:E; try (vm_compute in E; discriminate E).
  exists e. split; [vm_compute; reflexivity|reflexivity].
Qed.
(** The escapes \n, \t, \u and so on are read as their letters. *)
Theorem C85_escape_refuted : rfc8259 same (JStr [10%N]) (34 :: 92 :: 110 :: 34 :: nil)%N /\
  json_parse same (34 :: 92 :: 110 :: 34 :: nil)%N = ROk (inl (JStr (L "n"))).
Proof.
  split; [|vm_compute; reflexivity]. apply (text _ _ _ (JStr [10%N]) [] (34 :: 92 :: 110 :: 34 :: nil)%N []); [constructor| |constructor].
  constructor. apply (quotes _ (92 :: 110 :: nil)%N [10%N]). apply (chars_esc _ [110%N] [10%N] [] []); [apply esc_n|constructor].
Qed.
(** Text behind the value and numbers with needless zeros are accepted. *)
Theorem C85_strict_refuted :
  json_parse same (L "1 2") = ROk (inl (JNum (L "1"))) /\ (forall v, ~ rfc8259 same v (L "1 2")) /\
  json_parse same (L "007") = ROk (inl (JNum (L "007"))).
Proof.
  split; [vm_compute; reflexivity|]. split; [|vm_compute; reflexivity].
  intros v H. remember (L "1 2") as x eqn:Ex. destruct H as [v w t w' Hw Ht Hw'].
  destruct w as [|c w]; [|pose proof (Forall_inv Hw) as Hc; injection Ex as -> _; destruct Hc as [H|[H|[H|H]]]; discriminate H].
  cbn [app] in Ex. destruct (exists_last (l := t)) as (t0 & c & Et).
  { intros ->. cbn [app] in Ex. subst w'. pose proof (Forall_inv Hw') as [H|[H|[H|H]]]; discriminate H. }
  destruct w' as [|c' w'].
  2: { assert (Hl : exists w0 d, c' :: w' = w0 ++ [d]) by (destruct (exists_last (l := c' :: w') ltac:(discriminate)) as (a & b & E); eauto).
       destruct Hl as (w0 & d & El). rewrite El in *. change (L "1 2") with ([49; 32] ++ [50])%N in Ex. rewrite app_assoc in Ex.
       apply app_inj_tail in Ex. destruct Ex as [_ ->]. apply Forall_app in Hw'. destruct Hw' as [_ Hw']. destruct (Forall_inv Hw') as [H|[H|[H|H]]]; discriminate H. }
  rewrite app_nil_r in Ex. clear Et. destruct Ht as [| | |t Ht|s t Hq| | | |]; try discriminate Ex.
  - destruct Ht as (sg & w & f & e & E & Hs & Hd & _ & Hf & He).
    assert (Hin : In 32%N (sg ++ w ++ f ++ e)). { rewrite <- E, Ex. right. left. reflexivity. }
    repeat rewrite in_app_iff in Hin. destruct Hin as [Hi|[Hi|[Hi|Hi]]].
    + destruct Hs as [->| ->]; [destruct Hi|destruct Hi as [Hi|[]]; discriminate].
    + destruct Hd as [_ Hd0]. rewrite Forall_forall in Hd0. specialize (Hd0 _ Hi). unfold is_digit in Hd0. lia.
    + destruct Hf as [|d [_ Hd1]]; [destruct Hi|]. destruct Hi as [Hi|Hi]; [discriminate|]. rewrite Forall_forall in Hd1. specialize (Hd1 _ Hi). unfold is_digit in Hd1. lia.
    + destruct He as [|ee d Hee [_ Hd1]|ee g d Hee Hg [_ Hd1]]; [destruct Hi| |].
      * destruct Hi as [Hi|Hi]; [lia|]. rewrite Forall_forall in Hd1. specialize (Hd1 _ Hi). unfold is_digit in Hd1. lia.
      * destruct Hi as [Hi|[Hi|Hi]]; [lia|lia|]. rewrite Forall_forall in Hd1. specialize (Hd1 _ Hi). unfold is_digit in Hd1. lia.
  - destruct Hq. discriminate Ex.
Qed.
(** A number of 100 characters overruns the buffer, when it is read and when it
    is written. *)
Theorem C85_long_number_refuted : json_number (repeat 49%N 100) /\
  json_parse same (repeat 49%N 100) = RUndefined /\ json_format same (JNum (repeat 49%N 100)) = RUndefined.
Proof.
  split; [|split; vm_compute; reflexivity]. exists [], (repeat 49%N 100), [], []. split; [rewrite !app_nil_r; reflexivity|].
  split; [left; reflexivity|]. split; [|split; [intros r Hr'; discriminate Hr'|split; constructor]].
  split; [discriminate|]. apply Forall_forall. intros x Hx. apply repeat_spec in Hx. unfold is_digit. lia.
Qed.
(** [formatwr] starts again from the beginning when a writer takes only a part. *)
Definition small_write : write_fn bytes := fun w data => (1%Z, w ++ firstn 1 data).
Theorem C85_formatwr_refuted : json_formatwr same small_write [] (JNum (L "12")) = ROk (L "11").
Proof. vm_compute. reflexivity. Qed.

(** * Entries *)
(** [json_put] and [get]: the last value put under a name. *)
Theorem C85_put_get : forall D (l : list (bytes * jval D)) k v k',
  json_get (json_put l k v) k' = if list_eq_dec N.eq_dec k k' then Some v else json_get l k'.
Proof.
  intros D l k v k'. induction l as [|[a b] l IH]; cbn [json_put json_get].
  - destruct (bytes_eqb k k') eqn:E; destruct (list_eq_dec N.eq_dec k k') as [e|n]; try reflexivity.
    + apply bytes_eqb_eq in E. contradiction.
    + subst k'. rewrite (proj2 (bytes_eqb_eq k k) eq_refl) in E. discriminate.
  - destruct (bytes_eqb a k) eqn:E; cbn [json_get].
    + apply bytes_eqb_eq in E. subst a. destruct (bytes_eqb k k') eqn:E'; destruct (list_eq_dec N.eq_dec k k') as [e|n]; try reflexivity.
      * apply bytes_eqb_eq in E'. contradiction.
      * subst k'. rewrite (proj2 (bytes_eqb_eq k k) eq_refl) in E'. discriminate.
    + destruct (bytes_eqb a k') eqn:E'; [|exact IH]. destruct (list_eq_dec N.eq_dec k k') as [e|n]; [|reflexivity].
      subst k'. apply bytes_eqb_eq in E'. subst a. rewrite (proj2 (bytes_eqb_eq k k) eq_refl) in E. discriminate.
Qed.

Inductive no_null {D} : jval D -> Prop :=
| nn_bool : forall b, no_null (JBool b)
| nn_num : forall d, no_null (JNum d)
| nn_str : forall s, no_null (JStr s)
| nn_arr : forall l, Forall no_null l -> no_null (JArr l)
| nn_obj : forall l, Forall (fun kv => no_null (snd kv)) l -> no_null (JObj l).

(** A clone is equal to the value.  Missing: values with null in them. *)
Theorem C85_clone_partial : forall D (v : jval D), unique v -> no_null v -> json_clone v = Some v.
Proof.
  intros D. apply (jval_rec' (fun v => unique v -> no_null v -> json_clone v = Some v)); try reflexivity.
  - intros _ H. inversion H.
  - intros l IH U H. inversion U; subst. inversion H; subst. cbn [json_clone].
    enough (G : forall l acc, Forall (fun v => unique v -> no_null v -> json_clone v = Some v) l -> Forall unique l -> Forall no_null l ->
      json_clone_elements json_clone l acc = Some (acc ++ l)) by (rewrite G by assumption; reflexivity).
    clear. induction l as [|v l IH]; intros acc H1 H2 H3; cbn [json_clone_elements]; [rewrite app_nil_r; reflexivity|].
    rewrite (Forall_inv H1 (Forall_inv H2) (Forall_inv H3)).
    change (json_clone_elements json_clone l (acc ++ [v]) = Some (acc ++ v :: l)).
    rewrite (IH _ (Forall_inv_tail H1) (Forall_inv_tail H2) (Forall_inv_tail H3)), <- app_assoc. reflexivity.
  - intros l IH U H. inversion U as [| | | | |l' Un Ul]; subst. inversion H; subst. cbn [json_clone].
    enough (G : forall l acc, NoDup (List.map fst (acc ++ l)) -> Forall (fun kv => unique (snd kv) -> no_null (snd kv) -> json_clone (snd kv) = Some (snd kv)) l ->
      Forall (fun kv => unique (snd kv)) l -> Forall (fun kv => no_null (snd kv)) l ->
      json_clone_members json_clone l acc = Some (acc ++ l)) by (rewrite G by assumption; reflexivity).
    clear. induction l as [|[k v] l IH]; intros acc Hnd H1 H2 H3; cbn [json_clone_members]; [rewrite app_nil_r; reflexivity|].
    pose proof (Forall_inv H1 (Forall_inv H2) (Forall_inv H3)) as E. cbn [snd] in E. rewrite E.
    rewrite put_new.
    + change (json_clone_members json_clone l (acc ++ [(k, v)]) = Some (acc ++ (k, v) :: l)).
      rewrite (IH (acc ++ [(k, v)])), <- app_assoc; [reflexivity|rewrite <- app_assoc; exact Hnd|exact (Forall_inv_tail H1)|exact (Forall_inv_tail H2)|exact (Forall_inv_tail H3)].
    + rewrite map_app in Hnd. apply NoDup_remove_2 in Hnd. intros Hin. apply Hnd. apply in_or_app. left. exact Hin.
Qed.
Theorem C85_clone_refuted : json_parse same (L "[null]") = ROk (inl (JArr [JNull])) /\ json_clone (D := bytes) (JArr [JNull]) = None.
Proof. split; vm_compute; reflexivity. Qed.
Example C85_clone_case : json_clone (D := bytes) (JObj [(L "a", JArr [JBool true; JObj [(L "b", JStr [10%N])]]); (L "b", JNum (L "1"))]) =
  Some (JObj [(L "a", JArr [JBool true; JObj [(L "b", JStr [10%N])]]); (L "b", JNum (L "1"))]).
Proof. vm_compute. reflexivity. Qed.

Print Assumptions C85_parse_partial.
Print Assumptions C85_format_partial.
Print Assumptions C85_round_trip_partial.
Print Assumptions C85_newline_refuted.
Print Assumptions C85_name_refuted.
Print Assumptions C85_escape_refuted.
Print Assumptions C85_strict_refuted.
Print Assumptions C85_long_number_refuted.
Print Assumptions C85_formatwr_refuted.
Print Assumptions C85_put_get.
Print Assumptions C85_clone_partial.
Print Assumptions C85_clone_refuted.

(** * Any text *)
(** The characters numbers are made of. *)
Definition number_char (c : byte) : Prop := is_digit c \/ c = 45%N \/ c = 43%N \/ c = 46%N \/ c = 101%N \/ c = 69%N.
(** At most 99 of them in a row. *)
Definition short_runs (s : bytes) : Prop := forall a b c, s = a ++ b ++ c -> Forall number_char b -> List.length b < 100.

Definition suf (s' s : bytes) : Prop := exists p, s = p ++ s'.
Lemma suf_refl : forall s, suf s s.
Proof. intros s. exists []. reflexivity. Qed.
Lemma suf_trans : forall a b c, suf a b -> suf b c -> suf a c.
Proof. intros a b c [p ->] [q ->]. exists (q ++ p). apply app_assoc. Qed.
Lemma suf_cons : forall c s, suf s (c :: s).
Proof. intros c s. exists [c]. reflexivity. Qed.
Lemma suf_len : forall a b, suf a b -> List.length a <= List.length b.
Proof. intros a b [p ->]. rewrite app_length. lia. Qed.
Lemma suf_sk : forall s, suf (sk s) s.
Proof. induction s as [|c s IH]; simpl; [apply suf_refl|]. destruct (c_isspace c); [|apply suf_refl]. eapply suf_trans; [exact IH|apply suf_cons]. Qed.
Lemma suf_runs : forall a b, suf a b -> short_runs b -> short_runs a.
Proof. intros a b [p ->] H x y z -> Hy. apply (H (p ++ x) y z); [rewrite <- app_assoc; reflexivity|exact Hy]. Qed.
Lemma suf_app : forall x s, suf s (x ++ s).
Proof. intros x s. exists x. reflexivity. Qed.

(** The computation ends in a state with a part of [s] ahead, [k] characters
    shorter or more. *)
Definition ok {X} (m : bres (X * tok bytes)) (s : bytes) (k : X -> nat) : Prop :=
  exists x t' s', m = ROk (x, t') /\ ahead t' s' /\ suf s' s /\ List.length s' + k x <= List.length s.

Section Total.
  Context {D : Type} (scan : bytes -> D) (F : nat).
  Notation rd := mem_read.

  Lemma ok_expect : forall t s c, ahead t s -> List.length s < F ->
    ok (js_expect rd F t c) s (fun e => match e with None => 1 | _ => 0 end).
  Proof.
    intros t s c H Hf. unfold js_expect. destruct (a_more t s H) as (t1 & -> & A1). pose proof (sk_le s) as Hk.
    destruct s as [|x s]; cbn [negb]; [exists (Some EEnd), t1, []; repeat split; [exact A1|apply suf_refl|simpl; lia]|].
    destruct (sk (x :: s)) as [|y r] eqn:E.
    - destruct (a_eat_no F t1 (x :: s) c A1 Hf) as (t2 & -> & A2); [rewrite E; discriminate|]. cbn [rbind]. rewrite E in A2.
      destruct (a_js_peek F t2 _ A2) as (t3 & -> & A3); [simpl; simpl in Hf; lia|]. cbn [rbind]. destruct (a_js_peek F t3 _ A3) as (t4 & -> & A4); [simpl; simpl in Hf; lia|].
      cbn [rbind]. eexists _, t4, _. split; [reflexivity|]. split; [exact A4|]. simpl. split; [exists (x :: s); rewrite app_nil_r; reflexivity|lia].
    - destruct (N.eq_dec y c) as [->|n].
      + destruct (a_eat_yes F t1 _ c r A1 Hf E) as (t2 & -> & A2). cbn [rbind]. exists None, t2, r. split; [reflexivity|]. split; [exact A2|].
        split; [eapply suf_trans; [apply (suf_cons c)|rewrite <- E; apply suf_sk]|]. cbn [List.length] in Hk |- *. lia.
      + destruct (a_eat_no F t1 (x :: s) c A1 Hf) as (t2 & -> & A2); [rewrite E; intros r0 [= H0 _]; contradiction|]. cbn [rbind].
        destruct (a_js_peek F t2 _ A2) as (t3 & -> & A3); [rewrite E; lia|]. cbn [rbind].
        destruct (a_js_peek F t3 _ A3) as (t4 & -> & A4); [rewrite !sk_sk, E; lia|]. cbn [rbind].
        eexists _, t4, _. split; [reflexivity|]. split; [exact A4|]. rewrite !sk_sk. split; [apply suf_sk|rewrite E; lia].
  Qed.
  Lemma ok_eat : forall t s c, ahead t s -> List.length s < F -> ok (js_eat rd F t c) s (fun b => if b : bool then 1 else 0).
  Proof.
    intros t s c H Hf. pose proof (sk_le s) as Hk. destruct (sk s) as [|y r] eqn:E.
    - destruct (a_eat_no F t s c H Hf) as (t2 & -> & A2); [rewrite E; discriminate|].
      exists false, t2, (sk s). split; [reflexivity|]. split; [exact A2|]. split; [apply suf_sk|rewrite E; simpl; lia].
    - destruct (N.eq_dec y c) as [->|n].
      + destruct (a_eat_yes F t _ c r H Hf E) as (t2 & -> & A2). exists true, t2, r. split; [reflexivity|]. split; [exact A2|].
        split; [eapply suf_trans; [apply (suf_cons c)|rewrite <- E; apply suf_sk]|]. cbn [List.length] in Hk |- *. lia.
      + destruct (a_eat_no F t s c H Hf) as (t2 & -> & A2); [rewrite E; intros r0 [= H0 _]; contradiction|].
        exists false, t2, (sk s). split; [reflexivity|]. split; [exact A2|]. split; [apply suf_sk|rewrite E; lia].
  Qed.

  Lemma ok_chars : forall n t s acc, ahead t s -> List.length s < n -> ok (js_chars rd n t acc) s (fun _ => 0).
  Proof.
    induction n as [|n IH]; intros t s acc H Hn; [lia|]. cbn [js_chars]. destruct (a_more t s H) as (t1 & -> & A1).
    destruct s as [|c s]; cbn [negb]; [exists (inl acc), t1, []; repeat split; [exact A1|apply suf_refl|simpl; lia]|].
    destruct (a_peek t1 _ A1) as (t2 & -> & A2). cbn [next]. destruct (Z.of_N c =? 34)%Z.
    - exists (inl acc), t2, (c :: s). repeat split; [exact A2|apply suf_refl|lia].
    - destruct (a_get t2 _ _ A2) as (t3 & -> & A3). cbn [List.length] in Hn.
      assert (G : forall t s' acc, ahead t s' -> suf s' s -> ok (js_chars rd n t acc) (c :: s) (fun _ => 0)).
      { intros t0 s' acc0 H0 Hs. pose proof (suf_len _ _ Hs). destruct (IH t0 s' acc0 H0 ltac:(lia)) as (x & t' & s2 & E & A & S2 & L2).
        exists x, t', s2. split; [exact E|]. split; [exact A|]. split; [eapply suf_trans; [exact S2|]; eapply suf_trans; [exact Hs|apply suf_cons]|simpl; lia]. }
      destruct (Z.of_N c =? 92)%Z; [|exact (G _ _ _ A3 (suf_refl _))].
      destruct s as [|d s].
      + destruct (a_get_end t3 A3) as (t4 & -> & A4). cbn [Z.eqb]. exists (inr EEscape), t4, []. repeat split; [exact A4|apply suf_cons|simpl; lia].
      + destruct (a_get t3 _ _ A3) as (t4 & -> & A4). destruct (Z.eqb_spec (Z.of_N d) (-1)); [lia|]. exact (G _ _ _ A4 (suf_cons d s)).
  Qed.

  Lemma ok_readstr : forall t s, ahead t s -> List.length s < F -> ok (js_readstr rd F t) s (fun r => match r with inl _ => 1 | inr _ => 0 end).
  Proof.
    intros t s H Hf. unfold js_readstr. destruct (ok_expect t s 34%N H Hf) as (e & t1 & s1 & -> & A1 & S1 & L1). cbn [rbind].
    destruct e as [e|]; [exists (inr e), t1, s1; repeat split; [exact A1|exact S1|lia]|].
    destruct (ok_chars F t1 s1 [] A1 ltac:(lia)) as (q & t2 & s2 & -> & A2 & S2 & L2). cbn [rbind]. pose proof (suf_trans _ _ _ S2 S1) as S3.
    destruct q as [q|e]; [|exists (inr e), t2, s2; repeat split; [exact A2|exact S3|lia]].
    destruct (ok_expect t2 s2 34%N A2 ltac:(lia)) as (e & t3 & s3 & -> & A3 & S4 & L4). cbn [rbind]. pose proof (suf_trans _ _ _ S4 S3) as S5.
    destruct e as [e|]; [exists (inr e), t3, s3|exists (inl q), t3, s3]; (repeat split; [exact A3|exact S5|lia]).
  Qed.

  (** * Numbers *)
  Definition numst (s0 : bytes) (t : tok bytes) (buf s : bytes) : Prop :=
    exists p, s0 = p ++ s /\ Forall number_char p /\ List.length buf = List.length p /\ ahead t s.

  Lemma put_get_num : forall s0 t buf c s, short_runs s0 -> numst s0 t buf (c :: s) -> number_char c ->
    exists buf' t', put_get rd 100 buf t = ROk (buf', t') /\ numst s0 t' buf' s.
  Proof.
    intros s0 t buf c s Hs (p & E & Hp & Hl & A) Hc. unfold put_get. destruct (a_get t c s A) as (t1 & -> & A1).
    assert (HL : List.length (p ++ [c]) < 100).
    { apply (Hs [] (p ++ [c]) s); [rewrite E, <- app_assoc; reflexivity|apply Forall_app; split; [exact Hp|constructor; [exact Hc|constructor]]]. }
    rewrite app_length in HL. cbn [List.length] in HL. unfold put. destruct (Nat.ltb_spec (List.length buf) 100); [|lia]. cbn [rbind].
    eexists _, t1. split; [reflexivity|]. exists (p ++ [c]). rewrite <- app_assoc. split; [exact E|].
    split; [apply Forall_app; split; [exact Hp|constructor; [exact Hc|constructor]]|]. rewrite !app_length. simpl. split; [lia|exact A1].
  Qed.
  Lemma digits_num : forall s fuel s0 t buf, short_runs s0 -> numst s0 t buf s -> List.length s < fuel ->
    exists buf' t' s', tok_digits rd fuel 100 buf t = ROk (buf', t') /\ numst s0 t' buf' s' /\ suf s' s /\
      (z_isdigit (next s) = true -> List.length s' < List.length s).
  Proof.
    induction s as [|c s IH]; intros [|f] s0 t buf Hs H Hf; try (simpl in Hf; lia); cbn [tok_digits].
    - destruct H as (p & E & Hp & Hl & A). destruct (a_peek t _ A) as (t1 & -> & A1). rewrite z_isdigit_next.
      exists buf, t1, []. split; [reflexivity|]. split; [exists p; auto|]. split; [apply suf_refl|discriminate].
    - destruct (H) as (p & E & Hp & Hl & A). destruct (a_peek t _ A) as (t1 & -> & A1). rewrite z_isdigit_next.
      destruct (c_isdigit c) eqn:Ec.
      + destruct (put_get_num s0 t1 buf c s Hs) as (b1 & t2 & -> & N1); [exists p; auto|left; apply is_digit_c; exact Ec|]. cbn [rbind].
        destruct (IH f s0 t2 b1 Hs N1) as (b2 & t3 & s3 & -> & N3 & S3 & _); [simpl in Hf; lia|].
        exists b2, t3, s3. split; [reflexivity|]. split; [exact N3|]. split; [eapply suf_trans; [exact S3|apply suf_cons]|].
        intros _. pose proof (suf_len _ _ S3). simpl. lia.
      + exists buf, t1, (c :: s). split; [reflexivity|]. split; [exists p; auto|]. split; [apply suf_refl|discriminate].
  Qed.
  Lemma peek_num : forall s0 t buf s, numst s0 t buf s -> exists t', tok_peek rd t = (next s, t') /\ numst s0 t' buf s.
  Proof. intros s0 t buf s (p & E & Hp & Hl & A). destruct (a_peek t _ A) as (t1 & -> & A1). exists t1. split; [reflexivity|exists p; auto]. Qed.

  Lemma next_is : forall s c, (next s =? Z.of_N c)%Z = true -> exists r, s = c :: r.
  Proof. intros [|x s] c H; rewrite next_eqb in H; [discriminate|]. apply N.eqb_eq in H. subst x. eauto. Qed.

  Lemma numst_fin : forall s0 t buf s, numst s0 t buf s -> ahead t s /\ suf s s0 /\ (short_runs s0 -> List.length buf < 100).
  Proof.
    intros s0 t buf s (p & -> & Hp & Hl & A). split; [exact A|]. split; [apply suf_app|]. intros Hs. rewrite Hl. apply (Hs [] p s); [reflexivity|exact Hp].
  Qed.

  Lemma ok_num : forall t s, ahead t s -> short_runs s -> List.length s < F ->
    ok (tok_num rd F t 100) s (fun o => match o with Some _ => 1 | None => 0 end).
  Proof.
    intros t s H Hs Hf. unfold tok_num.
    assert (N0 : numst s t [] s) by (exists []; auto).
    destruct (peek_num _ _ _ _ N0) as (t1 & -> & N1).
    assert (G1 : exists b2 t2 s2, (if (next s =? 45)%Z then put_get rd 100 [] t1 else ROk ([], t1)) = ROk (b2, t2) /\ numst s t2 b2 s2 /\ suf s2 s).
    { destruct (next s =? 45)%Z eqn:E.
      - destruct (next_is s 45%N E) as [r Er]. rewrite Er in N1 at 2. destruct (put_get_num s t1 [] 45%N r Hs N1) as (b & t2 & -> & N2); [right; tauto|].
        exists b, t2, r. split; [reflexivity|]. split; [exact N2|rewrite Er; apply suf_cons].
      - exists [], t1, s. split; [reflexivity|]. split; [exact N1|apply suf_refl]. }
    destruct G1 as (b2 & t2 & s2 & -> & N2 & S2). cbn [rbind]. destruct (peek_num _ _ _ _ N2) as (t3 & -> & N3). pose proof (suf_len _ _ S2) as L2.
    destruct (z_isdigit (next s2)) eqn:Ed; cbn [negb].
    2: { destruct (numst_fin _ _ _ _ N3) as (A & S & _). exists None, t3, s2. repeat split; [exact A|exact S|lia]. }
    destruct (digits_num s2 F s t3 b2 Hs N3 ltac:(lia)) as (b4 & t4 & s4 & -> & N4 & S4 & L4). specialize (L4 Ed). cbn [rbind].
    destruct (peek_num _ _ _ _ N4) as (t5 & -> & N5).
    match goal with |- ok (rbind ?m _) _ _ => assert (G2 : exists o t6 s6 b6, m = ROk (o, t6) /\ numst s t6 b6 s6 /\ suf s6 s4 /\ (forall b, o = Some b -> b = b6)) end.
    { destruct (next s4 =? 46)%Z eqn:E.
      - destruct (next_is s4 46%N E) as [r Er]. rewrite Er in N5. destruct (put_get_num s t5 b4 46%N r Hs N5) as (b & t6 & -> & N6); [right; tauto|]. cbn [rbind].
        destruct (peek_num _ _ _ _ N6) as (t7 & -> & N7). destruct (z_isdigit (next r)); cbn [negb].
        + destruct (digits_num r F s t7 b Hs N7) as (b8 & t8 & s8 & -> & N8 & S8 & _).
          { rewrite Er in L4. simpl in L4. lia. }
          cbn [rbind]. exists (Some b8), t8, s8, b8. split; [reflexivity|]. split; [exact N8|]. split; [rewrite Er; eapply suf_trans; [exact S8|apply suf_cons]|congruence].
        + exists None, t7, r, b. split; [reflexivity|]. split; [exact N7|]. split; [rewrite Er; apply suf_cons|discriminate].
      - exists (Some b4), t5, s4, b4. split; [reflexivity|]. split; [exact N5|]. split; [apply suf_refl|congruence]. }
    destruct G2 as (o & t6 & s6 & b6 & -> & N6 & S6 & Eo). cbn [rbind]. pose proof (suf_len _ _ S6) as L6.
    destruct o as [b|].
    2: { destruct (numst_fin _ _ _ _ N6) as (A & S & _). exists None, t6, s6. repeat split; [exact A|exact S|lia]. }
    rewrite (Eo b eq_refl) in *. clear Eo b. destruct (peek_num _ _ _ _ N6) as (t7 & -> & N7).
    match goal with |- ok (rbind ?m _) _ _ => assert (G3 : exists o t8 s8 b8, m = ROk (o, t8) /\ numst s t8 b8 s8 /\ suf s8 s6 /\ (forall b, o = Some b -> b = b8)) end.
    { destruct ((next s6 =? 101) || (next s6 =? 69))%Z eqn:E.
      - assert (Hx : exists c r, s6 = c :: r /\ number_char c).
        { apply Bool.orb_true_iff in E. destruct E as [E|E]; [destruct (next_is s6 101%N E) as [r Er]|destruct (next_is s6 69%N E) as [r Er]]; eexists _, _; (split; [exact Er|right; tauto]). }
        destruct Hx as (c & r & Er & Hc). rewrite Er in N7. destruct (put_get_num s t7 b6 c r Hs N7 Hc) as (b & t8 & -> & N8). cbn [rbind].
        destruct (peek_num _ _ _ _ N8) as (t9 & -> & N9).
        assert (G4 : exists b2 t2 s2, (if ((next r =? 45) || (next r =? 43))%Z then put_get rd 100 b t9 else ROk (b, t9)) = ROk (b2, t2) /\ numst s t2 b2 s2 /\ suf s2 r).
        { destruct ((next r =? 45) || (next r =? 43))%Z eqn:E4.
          - assert (Hx : exists c q, r = c :: q /\ number_char c).
            { apply Bool.orb_true_iff in E4. destruct E4 as [E4|E4]; [destruct (next_is r 45%N E4) as [q Eq]|destruct (next_is r 43%N E4) as [q Eq]]; eexists _, _; (split; [exact Eq|right; tauto]). }
            destruct Hx as (c' & q & Eq & Hc'). rewrite Eq in N9. destruct (put_get_num s t9 b c' q Hs N9 Hc') as (b' & t10 & -> & N10).
            exists b', t10, q. split; [reflexivity|]. split; [exact N10|rewrite Eq; apply suf_cons].
          - exists b, t9, r. split; [reflexivity|]. split; [exact N9|apply suf_refl]. }
        destruct G4 as (b10 & t10 & s10 & -> & N10 & S10). cbn [rbind]. destruct (peek_num _ _ _ _ N10) as (t11 & -> & N11). pose proof (suf_len _ _ S10) as L10.
        rewrite Er in L6. cbn [List.length] in L6.
        destruct (z_isdigit (next s10)); cbn [negb].
        + destruct (digits_num s10 F s t11 b10 Hs N11 ltac:(lia)) as (b12 & t12 & s12 & -> & N12 & S12 & _). cbn [rbind].
          exists (Some b12), t12, s12, b12. split; [reflexivity|]. split; [exact N12|]. split; [rewrite Er; eapply suf_trans; [exact S12|]; eapply suf_trans; [exact S10|apply suf_cons]|congruence].
        + exists None, t11, s10, b10. split; [reflexivity|]. split; [exact N11|]. split; [rewrite Er; eapply suf_trans; [exact S10|apply suf_cons]|discriminate].
      - exists (Some b6), t7, s6, b6. split; [reflexivity|]. split; [exact N7|]. split; [apply suf_refl|congruence]. }
    destruct G3 as (o & t8 & s8 & b8 & -> & N8 & S8 & Eo). cbn [rbind]. pose proof (suf_len _ _ S8) as L8.
    destruct (numst_fin _ _ _ _ N8) as (A & S & B). specialize (B Hs).
    destruct o as [b|]; [|exists None, t8, s8; repeat split; [exact A|exact S|lia]].
    rewrite (Eo b eq_refl). unfold put. destruct (Nat.ltb_spec (List.length b8) 100); [|lia]. cbn [rbind].
    exists (Some b8), t8, s8. repeat split; [exact A|exact S|lia].
  Qed.

  Lemma ok_literal : forall t s lit, ahead t s -> Forall (fun x => x <> 0%N) lit -> List.length lit <= 100 ->
    ok (tok_skip_literal rd t lit) s (fun b => if b : bool then List.length lit else 0).
  Proof.
    intros t s lit [d H] Hz Hl. destruct (C84_literal_partial bytes rd (fun x => x) mem_reads_fully t d s lit H Hz Hl) as (_ & Y & N).
    destruct (list_eq_dec N.eq_dec (firstn (List.length lit) s) lit) as [e|n].
    - assert (E : s = lit ++ skipn (List.length lit) s) by (rewrite <- e at 1; symmetry; apply firstn_skipn).
      destruct (Y _ E) as (t' & -> & A). exists true, t', (skipn (List.length lit) s). split; [reflexivity|]. split; [eexists; exact A|].
      split; [exists lit; exact E|]. rewrite E at 2. rewrite app_length. lia.
    - destruct N as (t' & -> & A); [intros q E; apply n; rewrite E, firstn_app, Nat.sub_diag, firstn_all, firstn_O, app_nil_r; reflexivity|].
      exists false, t', s. split; [reflexivity|]. split; [eexists; exact A|]. split; [apply suf_refl|lia].
  Qed.

  Notation kk := (fun r : _ + jerr => match r with inl _ => 1 | inr _ => 0 end).

  Lemma ok_kw : forall t s, ahead t s -> List.length s < F -> ok (js_read_kw (D := D) rd F t) s kk.
  Proof.
    intros t s H Hf. unfold js_read_kw.
    destruct (ok_literal t s (L "true") H) as (x & t1 & s1 & -> & A1 & S1 & L1); [repeat constructor; discriminate|simpl; lia|]. cbn [rbind].
    destruct x; [exists (inl (JBool true)), t1, s1; repeat split; [exact A1|exact S1|simpl in L1; lia]|].
    destruct (ok_literal t1 s1 (L "false") A1) as (x & t2 & s2 & -> & A2 & S2 & L2); [repeat constructor; discriminate|simpl; lia|]. cbn [rbind]. pose proof (suf_trans _ _ _ S2 S1) as S2'.
    destruct x; [exists (inl (JBool false)), t2, s2; repeat split; [exact A2|exact S2'|simpl in L2; lia]|].
    destruct (ok_literal t2 s2 (L "null") A2) as (x & t3 & s3 & -> & A3 & S3 & L3); [repeat constructor; discriminate|simpl; lia|]. cbn [rbind]. pose proof (suf_trans _ _ _ S3 S2') as S3'.
    destruct x; [exists (inl JNull), t3, s3; repeat split; [exact A3|exact S3'|simpl in L3; lia]|].
    destruct (a_js_peek F t3 s3 A3 ltac:(lia)) as (t4 & -> & A4). cbn [rbind]. eexists _, t4, (sk s3). split; [reflexivity|]. split; [exact A4|].
    split; [eapply suf_trans; [apply suf_sk|exact S3']|]. pose proof (sk_le s3). lia.
  Qed.

  Definition good_node (m : nat) (node : tok bytes -> bres ((jval D + jerr) * tok bytes)) : Prop :=
    forall t s, ahead t s -> short_runs s -> List.length s < m -> List.length s < F -> ok (node t) s kk.

  Lemma ok_elements : forall m node, good_node m node -> forall n t s acc, ahead t s -> short_runs s -> List.length s < m -> List.length s < F -> List.length s < n ->
    ok (js_elements (D := D) rd F node n t acc) s (fun _ => 0).
  Proof.
    intros m node Hn. induction n as [|n IH]; intros t s acc H Hs Hm Hf Hl; [lia|]. cbn [js_elements].
    destruct (a_js_more F t s H Hf) as (t1 & -> & A1). cbn [rbind]. pose proof (sk_le s) as Lk. pose proof (suf_sk s) as Sk.
    assert (Gm : forall b : bool, (b = false -> sk s = []) -> ok (if negb b then ROk (inl acc, t1) else
      rbind (node t1) (fun '(x, t0) => match x with inl x => rbind (js_eat rd F t0 44) (fun '(ok0, t2) => if ok0 then js_elements rd F node n t2 (acc ++ [x]) else ROk (inl (acc ++ [x]), t2)) | inr e => ROk (inr e, t0) end)) s (fun _ => 0)).
    { intros [|] Hb; cbn [negb]; [|exists (inl acc), t1, (sk s); repeat split; [exact A1|exact Sk|lia]].
      destruct (Hn t1 (sk s) A1 (suf_runs _ _ Sk Hs) ltac:(lia) ltac:(lia)) as (x & t2 & s2 & -> & A2 & S2 & L2). cbn [rbind].
      pose proof (suf_trans _ _ _ S2 Sk) as S2'.
      destruct x as [x|e]; [|exists (inr e), t2, s2; repeat split; [exact A2|exact S2'|lia]].
      destruct (ok_eat t2 s2 44%N A2 ltac:(lia)) as (y & t3 & s3 & -> & A3 & S3 & L3). cbn [rbind]. pose proof (suf_trans _ _ _ S3 S2') as S3'.
      destruct y; [|exists (inl (acc ++ [x])), t3, s3; repeat split; [exact A3|exact S3'|lia]].
      destruct (IH t3 s3 (acc ++ [x]) A3 (suf_runs _ _ S3' Hs) ltac:(lia) ltac:(lia) ltac:(lia)) as (z & t4 & s4 & -> & A4 & S4 & L4).
      exists z, t4, s4. split; [reflexivity|]. split; [exact A4|]. split; [eapply suf_trans; [exact S4|exact S3']|lia]. }
    destruct (sk s) as [|c r] eqn:E; apply Gm; [reflexivity|discriminate].
  Qed.

  Lemma ok_members : forall m node, good_node m node -> forall n t s acc, ahead t s -> short_runs s -> List.length s < m -> List.length s < F -> List.length s < n ->
    ok (js_members (D := D) rd F node n t acc) s (fun _ => 0).
  Proof.
    intros m node Hn. induction n as [|n IH]; intros t s acc H Hs Hm Hf Hl; [lia|]. cbn [js_members].
    destruct (a_js_more F t s H Hf) as (t1 & -> & A1). cbn [rbind]. pose proof (sk_le s) as Lk. pose proof (suf_sk s) as Sk.
    destruct (match sk s with [] => false | _ :: _ => true end) eqn:Eb; cbn [negb]; [|exists (inl acc), t1, (sk s); repeat split; [exact A1|exact Sk|lia]].
    destruct (ok_readstr t1 (sk s) A1 ltac:(lia)) as (k & t2 & s2 & -> & A2 & S2 & L2). cbn [rbind]. pose proof (suf_trans _ _ _ S2 Sk) as S2'.
    destruct k as [k|e]; [|exists (inr e), t2, s2; repeat split; [exact A2|exact S2'|lia]].
    destruct (ok_expect t2 s2 58%N A2 ltac:(lia)) as (e & t3 & s3 & -> & A3 & S3 & L3). cbn [rbind]. pose proof (suf_trans _ _ _ S3 S2') as S3'.
    destruct e as [e|]; [exists (inr e), t3, s3; repeat split; [exact A3|exact S3'|lia]|].
    destruct (Hn t3 s3 A3 (suf_runs _ _ S3' Hs) ltac:(lia) ltac:(lia)) as (x & t4 & s4 & -> & A4 & S4 & L4). cbn [rbind]. pose proof (suf_trans _ _ _ S4 S3') as S4'.
    destruct x as [x|e]; [|exists (inr e), t4, s4; repeat split; [exact A4|exact S4'|lia]].
    destruct (ok_eat t4 s4 44%N A4 ltac:(lia)) as (y & t5 & s5 & -> & A5 & S5 & L5). cbn [rbind]. pose proof (suf_trans _ _ _ S5 S4') as S5'.
    destruct y; [|exists (inl (json_put acc k x)), t5, s5; repeat split; [exact A5|exact S5'|lia]].
    destruct (IH t5 s5 (json_put acc k x) A5 (suf_runs _ _ S5' Hs) ltac:(lia) ltac:(lia) ltac:(lia)) as (z & t6 & s6 & -> & A6 & S6 & L6).
    exists z, t6, s6. split; [reflexivity|]. split; [exact A6|]. split; [eapply suf_trans; [exact S6|exact S5']|lia].
  Qed.

  Lemma ok_array : forall m node, good_node m node -> forall t s, ahead t s -> short_runs s -> List.length s < S m -> List.length s < F ->
    ok (js_read_array (D := D) rd F node t) s kk.
  Proof.
    intros m node Hn t s H Hs Hm Hf. unfold js_read_array. destruct (ok_expect t s 91%N H Hf) as (e & t1 & s1 & -> & A1 & S1 & L1). cbn [rbind].
    destruct e as [e|]; [exists (inr e), t1, s1; repeat split; [exact A1|exact S1|lia]|].
    destruct (ok_eat t1 s1 93%N A1 ltac:(lia)) as (y & t2 & s2 & -> & A2 & S2 & L2). cbn [rbind]. pose proof (suf_trans _ _ _ S2 S1) as S2'.
    destruct y; [exists (inl (JArr [])), t2, s2; repeat split; [exact A2|exact S2'|lia]|].
    destruct (ok_elements m node Hn F t2 s2 [] A2 (suf_runs _ _ S2' Hs) ltac:(lia) ltac:(lia) ltac:(lia)) as (r & t3 & s3 & -> & A3 & S3 & L3). cbn [rbind]. pose proof (suf_trans _ _ _ S3 S2') as S3'.
    destruct r as [l|e]; [|exists (inr e), t3, s3; repeat split; [exact A3|exact S3'|lia]].
    destruct (ok_expect t3 s3 93%N A3 ltac:(lia)) as (e & t4 & s4 & -> & A4 & S4 & L4). cbn [rbind]. pose proof (suf_trans _ _ _ S4 S3') as S4'.
    destruct e as [e|]; [exists (inr e), t4, s4|exists (inl (JArr l)), t4, s4]; (repeat split; [exact A4|exact S4'|lia]).
  Qed.
  Lemma ok_dict : forall m node, good_node m node -> forall t s, ahead t s -> short_runs s -> List.length s < S m -> List.length s < F ->
    ok (js_read_dict (D := D) rd F node t) s kk.
  Proof.
    intros m node Hn t s H Hs Hm Hf. unfold js_read_dict. destruct (ok_expect t s 123%N H Hf) as (e & t1 & s1 & -> & A1 & S1 & L1). cbn [rbind].
    destruct e as [e|]; [exists (inr e), t1, s1; repeat split; [exact A1|exact S1|lia]|].
    destruct (ok_eat t1 s1 125%N A1 ltac:(lia)) as (y & t2 & s2 & -> & A2 & S2 & L2). cbn [rbind]. pose proof (suf_trans _ _ _ S2 S1) as S2'.
    destruct y; [exists (inl (JObj [])), t2, s2; repeat split; [exact A2|exact S2'|lia]|].
    destruct (ok_members m node Hn F t2 s2 [] A2 (suf_runs _ _ S2' Hs) ltac:(lia) ltac:(lia) ltac:(lia)) as (r & t3 & s3 & -> & A3 & S3 & L3). cbn [rbind]. pose proof (suf_trans _ _ _ S3 S2') as S3'.
    destruct r as [l|e]; [|exists (inr e), t3, s3; repeat split; [exact A3|exact S3'|lia]].
    destruct (ok_expect t3 s3 125%N A3 ltac:(lia)) as (e & t4 & s4 & -> & A4 & S4 & L4). cbn [rbind]. pose proof (suf_trans _ _ _ S4 S3') as S4'.
    destruct e as [e|]; [exists (inr e), t4, s4|exists (inl (JObj l)), t4, s4]; (repeat split; [exact A4|exact S4'|lia]).
  Qed.

  Lemma ok_weaken : forall X (m : bres (X * tok bytes)) s s' k, ok m s k -> suf s s' -> ok m s' k.
  Proof.
    intros X m s s' k (x & t & y & E & A & S & Hl) Hs. pose proof (suf_len _ _ Hs). exists x, t, y.
    split; [exact E|]. split; [exact A|]. split; [eapply suf_trans; [exact S|exact Hs]|lia].
  Qed.
  Lemma ok_read_str : forall t s, ahead t s -> List.length s < F -> ok (js_read_str (D := D) rd F t) s kk.
  Proof.
    intros t s H Hf. unfold js_read_str. destruct (ok_readstr t s H Hf) as (k & t2 & s2 & -> & A2 & S2 & L2). cbn [rbind].
    destruct k as [k|e]; [exists (inl (JStr k)), t2, s2|exists (inr e), t2, s2]; (repeat split; [exact A2|exact S2|lia]).
  Qed.
  Lemma ok_read_num : forall t s, ahead t s -> short_runs s -> List.length s < F -> ok (js_read_num scan rd F t) s kk.
  Proof.
    intros t s H Hs Hf. unfold js_read_num. destruct (ok_num t s H Hs Hf) as (k & t2 & s2 & -> & A2 & S2 & L2). cbn [rbind].
    destruct k as [k|]; [exists (inl (JNum (scan k))), t2, s2|exists (inr ENumber), t2, s2]; (repeat split; [exact A2|exact S2|lia]).
  Qed.

  Lemma ok_node : forall m, good_node m (js_node scan rd F m).
  Proof.
    induction m as [|m IH]; intros t s H Hs Hm Hf; [lia|]. cbn [js_node].
    destruct (a_js_more F t s H Hf) as (t1 & -> & A1). cbn [rbind]. pose proof (sk_le s) as Lk. pose proof (suf_sk s) as Sk.
    destruct (match sk s with [] => false | _ :: _ => true end) eqn:Eb; cbn [negb]; [|exists (inr ENoMore), t1, (sk s); repeat split; [exact A1|exact Sk|lia]].
    pose proof (suf_runs _ _ Sk Hs) as Hs'. set (u := sk s) in *. assert (Eu : sk u = u) by apply sk_sk.
    apply (ok_weaken _ _ u); [|exact Sk].
    destruct (a_js_peek F t1 u A1 ltac:(lia)) as (t2 & -> & A2). cbn [rbind]. rewrite Eu in *. destruct (next u =? 91)%Z; [apply (ok_array m _ IH); [exact A2|exact Hs'|lia|lia]|].
    destruct (a_js_peek F t2 u A2 ltac:(lia)) as (t3 & -> & A3). cbn [rbind]. rewrite Eu in *. destruct (next u =? 123)%Z; [apply (ok_dict m _ IH); [exact A3|exact Hs'|lia|lia]|].
    destruct (a_js_peek F t3 u A3 ltac:(lia)) as (t4 & -> & A4). cbn [rbind]. rewrite Eu in *. destruct (next u =? 34)%Z; [apply ok_read_str; [exact A4|lia]|].
    destruct (a_js_peek F t4 u A4 ltac:(lia)) as (t5 & -> & A5). cbn [rbind]. rewrite Eu in *. destruct (z_isdigit (next u)); [apply ok_read_num; [exact A5|exact Hs'|lia]|].
    destruct (a_js_peek F t5 u A5 ltac:(lia)) as (t6 & -> & A6). cbn [rbind]. rewrite Eu in *. destruct (next u =? 45)%Z; [apply ok_read_num; [exact A6|exact Hs'|lia]|].
    apply ok_kw; [exact A6|lia].
  Qed.
End Total.

(** Any text gives a value or an error: the parser ends, does not panic and stays
    within its buffers.  Missing: texts with 100 or more of the characters of
    numbers in a row. *)
Theorem C85_total_partial : forall D (scan : bytes -> D) s, short_runs s -> exists r, json_parse scan s = ROk r.
Proof.
  intros D scan s Hs. unfold json_parse.
  destruct (ok_node scan (S (S (List.length s))) (S (S (List.length s))) (tok_new s) s (ahead_new s) Hs ltac:(lia) ltac:(lia)) as (r & t & s' & -> & _).
  exists r. reflexivity.
Qed.
Example C85_total_case : short_runs (L "[{""a"":-1.5e,") /\ json_parse same (L "[{""a"":-1.5e,") = ROk (inr ENumber).
Proof.
  split; [|vm_compute; reflexivity]. intros a b c E _. apply (f_equal (@List.length _)) in E. rewrite !app_length in E. simpl in E. lia.
Qed.
Print Assumptions C85_total_partial.
