(** C91: lib/formats/csv. *)
From Coq Require Import ZArith NArith Lia.
From Verif Require Import LibBase LibIO LibText LibTok LibCsv SpecTok SpecCsv ClipFacts PropTok.

Section Facts.
  Context {R : Type} (read : read_fn R) (content : R -> bytes).
  Hypothesis Hr : reads read content.

  (** The tokenizer has [s] ahead. *)
  Definition ahead (t : tok R) (s : bytes) : Prop := exists d, at_ content t d s.

  Lemma peek_a : forall t s, ahead t s -> exists t', tok_peek read t = (next s, t') /\ ahead t' s.
  Proof. intros t s [d H]. destruct (peek_at read content Hr t d s H) as (t' & E & A). exists t'. split; [exact E|exists d; exact A]. Qed.
  Lemma more_a : forall t s, ahead t s -> exists t', tok_more read t = (match s with [] => false | _ => true end, t') /\ ahead t' s.
  Proof. intros t s [d H]. destruct (more_at read content Hr t d s H) as (t' & E & A). exists t'. split; [exact E|exists d; exact A]. Qed.
  Lemma get_a : forall t c s, ahead t (c :: s) -> exists t', tok_get read t = (Z.of_N c, t') /\ ahead t' s.
  Proof. intros t c s [d H]. destruct (get_at read content Hr t d c s H) as (t' & E & A). exists t'. split; [exact E|exists (d ++ [c]); exact A]. Qed.
  Lemma get_e : forall t, ahead t [] -> exists t', tok_get read t = ((-1)%Z, t') /\ ahead t' [].
  Proof. intros t [d H]. destruct (get_end read content Hr t d H) as (t' & E & A). exists t'. split; [exact E|exists d; exact A]. Qed.

  Lemma next_is : forall s (c : N), (next s =? Z.of_N c)%Z = match s with [] => false | x :: _ => (x =? c)%N end.
  Proof.
    intros [|x s] c; unfold next.
    - apply Z.eqb_neq. lia.
    - destruct (N.eqb_spec x c) as [->|H]; [apply Z.eqb_refl|apply Z.eqb_neq; lia].
  Qed.

  (** A character that ends an unquoted value. *)
  Definition sep (c : byte) : bool := (c =? 44)%N || (c =? 13)%N || (c =? 10)%N.
  Lemma peekany_a : forall t s, ahead t s ->
    exists t', peekany read t [44; 13; 10]%N = (match s with [] => false | c :: _ => sep c end, t') /\ ahead t' s.
  Proof.
    intros t s H. cbn [peekany]. destruct (peek_a t s H) as (t1 & -> & H1).
    rewrite (next_is s 44). destruct (peek_a t1 s H1) as (t2 & -> & H2).
    rewrite (next_is s 13). destruct (peek_a t2 s H2) as (t3 & -> & H3). rewrite (next_is s 10).
    destruct s as [|c s]; [exists t3; split; [reflexivity|exact H3]|]. unfold sep.
    destruct (c =? 44)%N; [exists t1; split; [reflexivity|exact H1]|].
    destruct (c =? 13)%N; [exists t2; split; [reflexivity|exact H2]|].
    destruct (c =? 10)%N; exists t3; (split; [reflexivity|exact H3]).
  Qed.

  Lemma put_ok : forall n buf c, List.length buf < n -> put n buf c = ROk (buf ++ [c]).
  Proof. intros n buf c H. unfold put. destruct (Nat.ltb_spec (List.length buf) n); [reflexivity|lia]. Qed.
  Lemma put_cases : forall n buf c, put n buf c = ROk (buf ++ [c]) \/ put n buf c = RUndefined.
  Proof. intros n buf c. unfold put. destruct (Nat.ltb _ _); auto. Qed.

  (** The reader stands before the end of a value. *)
  Definition stops (s : bytes) : Prop := match s with [] => True | c :: _ => sep c = true end.

  Lemma plain_a : forall v fuel t buf s, ahead t (v ++ s) -> Forall (fun c => sep c = false) v -> Forall is_byte v ->
    stops s -> List.length v < fuel -> List.length buf + List.length v < valsize ->
    exists t', csv_plain read fuel t buf = ROk (buf ++ v, t') /\ ahead t' s.
  Proof.
    induction v as [|c v IH]; intros [|fuel] t buf s H Hv Hb Hs Hf Hl; cbn [List.length] in Hf, Hl; try lia; cbn [csv_plain].
    - cbn [app] in H. destruct (more_a t s H) as (t1 & -> & H1). destruct s as [|c s]; cbn [negb].
      + rewrite put_ok by lia. cbn [rbind]. rewrite app_nil_r. exists t1. split; [reflexivity|exact H1].
      + destruct (peekany_a t1 (c :: s) H1) as (t2 & -> & H2). cbn [stops] in Hs. rewrite Hs.
        rewrite put_ok by lia. cbn [rbind]. rewrite app_nil_r. exists t2. split; [reflexivity|exact H2].
    - cbn [app] in H. inversion Hv as [|? ? Hc Hv']; subst. inversion Hb as [|? ? Bc Hb']; subst.
      destruct (more_a t _ H) as (t1 & -> & H1). cbn [negb].
      destruct (peekany_a t1 _ H1) as (t2 & -> & H2). rewrite Hc. unfold put_get.
      destruct (get_a t2 c _ H2) as (t3 & -> & H3). rewrite (z_byte_of c Bc), put_ok by lia. cbn [rbind].
      destruct (IH fuel t3 (buf ++ [c]) s H3 Hv' Hb' Hs ltac:(lia)) as (t4 & E & H4).
      { rewrite app_length. cbn [List.length]. lia. }
      exists t4. rewrite E, <- app_assoc. split; [reflexivity|exact H4].
  Qed.

  Lemma quoted_a : forall v x, doubled v x -> forall fuel t buf s, ahead t (x ++ [34%N] ++ s) -> Forall is_byte v ->
    stops s -> List.length x < fuel -> List.length buf + List.length v < valsize ->
    exists t', csv_quoted read fuel t buf = ROk (buf ++ v, t') /\ ahead t' s.
  Proof.
    induction 1 as [|v x D IH|c v x Hc D IH]; intros [|fuel] t buf s H Hb Hs Hf Hl; cbn [List.length] in Hf, Hl; try lia; cbn [csv_quoted].
    - cbn [app] in H. destruct (get_a t _ _ H) as (t1 & -> & H1). change (Z.of_N 34) with 34%Z. cbn [Z.eqb Pos.eqb].
      destruct (peek_a t1 s H1) as (t2 & -> & H2). change 34%Z with (Z.of_N 34). rewrite next_is.
      replace (match s with [] => false | x :: _ => (x =? 34)%N end) with false.
      2:{ destruct s as [|c s]; [reflexivity|]. cbn [stops] in Hs. destruct (N.eqb_spec c 34) as [->|]; [discriminate Hs|reflexivity]. }
      rewrite put_ok by lia. cbn [rbind]. rewrite app_nil_r. exists t2. split; [reflexivity|exact H2].
    - cbn [app] in H. destruct (get_a t _ _ H) as (t1 & -> & H1). change (Z.of_N 34) with 34%Z. cbn [Z.eqb Pos.eqb].
      destruct (peek_a t1 _ H1) as (t2 & -> & H2). cbn [next]. change (Z.of_N 34) with 34%Z. cbn [Z.eqb Pos.eqb].
      destruct (get_a t2 _ _ H2) as (t3 & -> & H3). change (z_byte 34) with 34%N. rewrite put_ok by lia. cbn [rbind].
      inversion Hb; subst. destruct (IH fuel t3 (buf ++ [34%N]) s H3 ltac:(assumption) Hs ltac:(lia)) as (t4 & E & H4).
      { rewrite app_length. cbn [List.length]. lia. }
      exists t4. rewrite E, <- app_assoc. split; [reflexivity|exact H4].
    - cbn [app] in H. inversion Hb as [|? ? Bc Hb']; subst. destruct (get_a t _ _ H) as (t1 & -> & H1).
      destruct (Z.eqb_spec (Z.of_N c) (-1)); [lia|]. destruct (Z.eqb_spec (Z.of_N c) 34); [lia|].
      rewrite (z_byte_of c Bc), put_ok by lia. cbn [rbind].
      destruct (IH fuel t1 (buf ++ [c]) s H1 Hb' Hs ltac:(lia)) as (t4 & E & H4).
      { rewrite app_length. cbn [List.length]. lia. }
      exists t4. rewrite E, <- app_assoc. split; [reflexivity|exact H4].
  Qed.

  (** Fields with their commas before them. *)
  Inductive tail : list bytes -> bytes -> Prop :=
  | tail_nil : tail [] []
  | tail_cons : forall v t vs u, field v t -> t <> [] \/ vs <> [] -> tail vs u -> tail (v :: vs) (44%N :: t ++ u).

  Lemma record_tail : forall vs t, record false vs t ->
    exists v vs' f u, vs = v :: vs' /\ field v f /\ (f <> [] \/ vs' <> []) /\ tail vs' u /\ t = f ++ u.
  Proof.
    induction 1 as [v t H [|Hne]|v t vs u H _ (v' & vs' & f & u' & -> & A & Hne & B & ->)]; [discriminate| |].
    - exists v, [], t, []. rewrite app_nil_r. repeat split; [exact H|left; exact Hne|constructor].
    - exists v, (v' :: vs'), t, (44%N :: f ++ u'). repeat split; [exact H|right; discriminate|constructor; assumption].
  Qed.

  (** What is behind a line. *)
  Definition behind (rest : list (list bytes)) (s : bytes) : Prop :=
    (rest = [] /\ s = []) \/ exists e u, line_break e /\ lines false rest u /\ s = e ++ u.
  Lemma behind_stops : forall rest s, behind rest s -> stops s.
  Proof. intros rest s [(_ & ->)|(e & u & [|] & _ & ->)]; reflexivity. Qed.
  Lemma tail_stops : forall vs u s, tail vs u -> stops s -> stops (u ++ s).
  Proof. intros vs u s T H. destruct T; [exact H|reflexivity]. Qed.

  Lemma lines_split : forall rows s, lines false rows s ->
    (rows = [[]] /\ s = []) \/
    exists v vs rest f u w, rows = (v :: vs) :: rest /\ field v f /\ (f <> [] \/ vs <> []) /\ tail vs u /\ behind rest w /\ s = f ++ u ++ w.
  Proof.
    intros rows s [|vs t Hv|vs t e rest u Hv He Hl]; [left; split; reflexivity| |]; right;
      destruct (record_tail _ _ Hv) as (v & vs' & f & x & -> & A & Hne & B & ->).
    - exists v, vs', [], f, x, []. rewrite app_nil_r. repeat split; try assumption. left. split; reflexivity.
    - exists v, vs', rest, f, x, (e ++ u). rewrite <- app_assoc. repeat split; try assumption. right. exists e, u. repeat split; assumption.
  Qed.

  Definition fit_rows (rows : list (list bytes)) : Prop := Forall (Forall fits) rows.

  Lemma fits_bytes : forall v, fits v -> Forall is_byte v.
  Proof. intros v [H _]. eapply Forall_impl; [|exact H]. intros c [_ A]. exact A. Qed.
  Lemma fits_length : forall v, fits v -> List.length v < valsize.
  Proof. intros v [_ H]. unfold valsize. apply Nat.compare_lt_iff. rewrite <- (Nnat.Nat2N.id (List.length v)), <- Nnat.N2Nat.inj_compare. exact H. Qed.

  Lemma plain_seps : forall v, Forall (fun c => c <> 34%N /\ c <> 44%N /\ c <> 13%N /\ c <> 10%N) v -> Forall (fun c => sep c = false) v.
  Proof.
    intros v H. eapply Forall_impl; [|exact H]. intros c (_ & A & B & C). unfold sep.
    apply N.eqb_neq in A, B, C. rewrite A, B, C. reflexivity.
  Qed.

  Lemma doubled_length : forall v x, doubled v x -> List.length v <= List.length x.
  Proof. induction 1; cbn [List.length]; lia. Qed.

  (** A field is read, whatever was said about the comma. *)
  Lemma field_read : forall v f fuel t s, field v f -> f <> [] \/ (exists s', s = 44%N :: s') -> fits v -> ahead t (f ++ s) -> stops s -> List.length f < fuel ->
    exists t1 t2, tok_peek read t = (next (f ++ s), t1) /\ (next (f ++ s) =? 10)%Z = false /\ (next (f ++ s) =? 13)%Z = false /\
      tok_more read t1 = (true, t2) /\
      exists t3, (if (next (f ++ s) =? 34)%Z then read_quoted_value read fuel t2 else csv_plain read fuel t2 []) = ROk (v, t3) /\ ahead t3 s.
  Proof.
    intros v f fuel t s Hfield Hne Hfit Ha Hs Hf. destruct (peek_a t _ Ha) as (t1 & E1 & H1). destruct (more_a t1 _ H1) as (t2 & E2 & H2).
    exists t1, t2. split; [exact E1|]. destruct Hfield as [v x D|v Hv].
    - cbn [app next] in *. change (Z.of_N 34) with 34%Z. cbn [Z.eqb Pos.eqb]. repeat split; [exact E2|].
      unfold read_quoted_value, tok_skip. destruct (peek_a t2 _ H2) as (t3 & -> & H3). cbn [next].
      change (Z.of_N 34) with 34%Z. cbn [Z.eqb Pos.eqb]. destruct (get_a t3 _ _ H3) as (t4 & -> & H4).
      rewrite <- app_assoc in H4. cbn [List.length] in Hf. rewrite app_length in Hf.
      apply (quoted_a v x D fuel t4 [] s H4 (fits_bytes v Hfit) Hs ltac:(lia)). cbn [List.length]. pose proof (fits_length v Hfit). lia.
    - assert (G : exists c x, v ++ s = c :: x /\ c <> 34%N /\ c <> 13%N /\ c <> 10%N).
      { destruct v as [|c v].
        - destruct Hne as [Hne|(s' & ->)]; [congruence|]. exists 44%N, s'. repeat split; discriminate.
        - inversion Hv as [|? ? (A & B & C & D) Hv']; subst. exists c, (v ++ s). repeat split; assumption. }
      destruct G as (c & x & E & A & C & D). rewrite E in *. cbn [next] in *.
      split; [apply Z.eqb_neq; lia|]. split; [apply Z.eqb_neq; lia|]. split; [exact E2|].
      replace (Z.of_N c =? 34)%Z with false by (symmetry; apply Z.eqb_neq; lia). rewrite <- E in H2.
      apply (plain_a v fuel t2 [] s H2 (plain_seps _ Hv) (fits_bytes _ Hfit) Hs Hf). cbn [List.length plus].
      apply (fits_length _ Hfit).
  Qed.

  (** What the reader holds, and what the table is. *)
  Definition holds (r : csv R) (rows : list (list bytes)) (s : bytes) : Prop :=
    ahead (cv_b r) s /\ fit_rows rows /\
    (if cv_first r then lines false rows s
     else exists vs rest u w, rows = vs :: rest /\ tail vs u /\ behind rest w /\ s = u ++ w).

  Lemma readval_some : forall fuel r v vs rest s, holds r ((v :: vs) :: rest) s -> List.length s < fuel ->
    exists r' s', csv_readval read fuel r = ROk (true, r') /\ holds r' (vs :: rest) s' /\ csv_val r' = v /\ List.length s' <= List.length s /\ cv_first r' = false.
  Proof.
    intros fuel [t first buf] v vs rest s (Ha & Hfit & H) Hf. cbn [cv_b cv_first cv_buf] in *.
    assert (Hfv : fits v /\ fit_rows (vs :: rest)).
    { inversion Hfit as [|? ? Q1 Q2]; subst. inversion Q1; subst. split; [assumption|]. constructor; assumption. }
    destruct Hfv as [Hfv Hfit']. unfold csv_readval. cbn [cv_b cv_first cv_buf].
    assert (Hz : forall t', csv_val (mkCsv (R := R) t' false v) = v).
    { intros t'. unfold csv_val. cbn [cv_buf]. destruct Hfv as [Q _]. clear - Q. induction Q as [|c v Hc _ IH]; [reflexivity|].
      cbn [until_zero]. replace (c =? 0)%N with false by (symmetry; apply N.eqb_neq; lia). rewrite IH. reflexivity. }
    destruct first.
    - apply lines_split in H. destruct H as [[H _]|(v' & vs' & rest' & f & u & w & E & Hfld & Hne & Ht & Hw & ->)]; [discriminate|].
      injection E as <- <- <-.
      assert (Hcm : f <> [] \/ exists s', u ++ w = 44%N :: s').
      { destruct Hne as [Hne|Hne]; [left; exact Hne|]. right. destruct Ht; [congruence|]. eexists. reflexivity. }
      assert (Hst : stops (u ++ w)) by (eapply tail_stops; [exact Ht|exact (behind_stops _ _ Hw)]).
      assert (Hfl : List.length f < fuel) by (rewrite !app_length in Hf; lia).
      destruct (field_read v f fuel t (u ++ w) Hfld Hcm Hfv Ha Hst Hfl) as (t1 & t2 & E1 & N1 & N2 & E2 & t3 & E3 & H3).
      cbn [negb]. rewrite E1, N1, N2. cbn [orb]. rewrite E2. cbn [negb]. rewrite E3. cbn [rbind].
      exists (mkCsv t3 false v), (u ++ w). split; [reflexivity|]. split; [|split; [apply Hz|split; [|reflexivity]]].
      + split; [exact H3|]. split; [exact Hfit'|]. cbn [cv_first]. exists vs, rest, u, w. repeat split; assumption.
      + rewrite app_length with (l := f). lia.
    - destruct H as (vs' & rest' & u' & w & E & Ht & Hw & ->). injection E as <- <-.
      inversion Ht as [|v' f vs' u Hfld Hne Ht']; subst. cbn [app] in Ha.
      assert (Hcm : f <> [] \/ exists s', u ++ w = 44%N :: s').
      { destruct Hne as [Hne|Hne]; [left; exact Hne|]. right. destruct Ht'; [congruence|]. eexists. reflexivity. }
      assert (Hst : stops (u ++ w)) by (eapply tail_stops; [exact Ht'|exact (behind_stops _ _ Hw)]).
      destruct (peek_a t _ Ha) as (t0 & -> & H0). cbn [next]. change (Z.of_N 44) with 44%Z. cbn [Z.eqb Pos.eqb negb].
      destruct (get_a t0 _ _ H0) as (t1' & -> & H1'). rewrite <- app_assoc in H1'. cbn [app] in Hf. rewrite <- app_assoc in Hf.
      cbn [List.length] in Hf.
      assert (Hfl : List.length f < fuel) by (rewrite app_length in Hf; lia).
      destruct (field_read v f fuel t1' (u ++ w) Hfld Hcm Hfv H1' Hst Hfl) as (t1 & t2 & E1 & N1 & N2 & E2 & t3 & E3 & H3).
      cbn [negb]. rewrite E1, N1, N2. cbn [orb]. rewrite E2. cbn [negb]. rewrite E3. cbn [rbind].
      exists (mkCsv t3 false v), (u ++ w). split; [reflexivity|]. split; [|split; [apply Hz|split; [|reflexivity]]].
      + split; [exact H3|]. split; [exact Hfit'|]. cbn [cv_first]. exists vs, rest, u, w. repeat split; assumption.
      + cbn [app List.length]. rewrite !app_length. lia.
  Qed.

  Lemma readval_none : forall fuel r rest s, holds r ([] :: rest) s ->
    exists r', csv_readval read fuel r = ROk (false, r') /\ holds r' ([] :: rest) s /\ cv_first r' = false /\ behind rest s.
  Proof.
    intros fuel [t first buf] rest s (Ha & Hfit & H). cbn [cv_b cv_first cv_buf] in *. unfold csv_readval. cbn [cv_b cv_first cv_buf].
    destruct first.
    - apply lines_split in H. destruct H as [[H ->]|(v' & vs' & rest' & f & u & w & E & _)]; [|discriminate]. injection H as ->.
      cbn [negb]. destruct (peek_a t _ Ha) as (t1 & -> & H1). cbn [next Z.eqb orb]. destruct (more_a t1 _ H1) as (t2 & -> & H2).
      cbn [negb]. assert (Hb : behind [] []) by (left; split; reflexivity).
      exists (mkCsv t2 false buf). split; [reflexivity|]. split; [|split; [reflexivity|exact Hb]].
      split; [exact H2|]. split; [exact Hfit|]. cbn [cv_first]. exists [], [], [], []. repeat split; [constructor|exact Hb].
    - destruct H as (vs & rest' & u & w & E & Ht & Hw & ->). injection E as <- <-. inversion Ht; subst. cbn [app] in *.
      destruct (peek_a t _ Ha) as (t1 & -> & H1). change 44%Z with (Z.of_N 44). rewrite next_is.
      replace (match w with [] => false | x :: _ => (x =? 44)%N end) with false.
      2:{ destruct Hw as [[_ ->]|(e & x & [|] & _ & ->)]; reflexivity. }
      cbn [negb]. exists (mkCsv t1 false buf). split; [reflexivity|]. split; [|split; [reflexivity|exact Hw]].
      split; [exact H1|]. split; [exact Hfit|]. cbn [cv_first]. exists [], rest, [], w. repeat split; [constructor|exact Hw].
  Qed.

  Lemma discard_a : forall vs fuel loops r rest s, holds r (vs :: rest) s -> List.length s < fuel -> List.length vs < loops ->
    exists r' s', csv_discard read fuel loops r = ROk r' /\ ahead (cv_b r') s' /\ behind rest s' /\ List.length s' <= List.length s.
  Proof.
    induction vs as [|v vs IH]; intros fuel [|loops] r rest s H Hf Hl; cbn [List.length] in Hl; try lia; cbn [csv_discard].
    - destruct (readval_none fuel r rest s H) as (r' & -> & H' & _ & Hb). cbn [rbind]. exists r', s. repeat split; [apply H'|exact Hb|lia].
    - destruct (readval_some fuel r v vs rest s H Hf) as (r' & s' & -> & H' & _ & L' & _). cbn [rbind].
      destruct (IH fuel loops r' rest s' H' ltac:(lia) ltac:(lia)) as (r2 & s2 & E & A & B & C).
      exists r2, s2. repeat split; try assumption. lia.
  Qed.

  Lemma lines_start : forall rows u, lines false rows u -> match u with [] => True | c :: _ => c <> 13%N /\ c <> 10%N end.
  Proof.
    intros rows u H. apply lines_split in H. destruct H as [[_ ->]|(v & vs & rest & f & x & w & _ & Hf & Hne & Ht & _ & ->)]; [exact I|].
    destruct Hf as [v t _|v Hv].
    - cbn [app]. split; discriminate.
    - destruct v as [|c v].
      + destruct Hne as [Hne|Hne]; [congruence|]. destruct Ht; [congruence|]. cbn [app]. split; discriminate.
      + cbn [app]. inversion Hv as [|? ? (_ & _ & A & B)]; subst. split; assumption.
  Qed.

  Lemma breaks_stop : forall fuel t s ok, ahead t s -> match s with [] => True | c :: _ => c <> 13%N /\ c <> 10%N end ->
    exists t', csv_breaks read (S fuel) t ok = ROk (ok, t') /\ ahead t' s.
  Proof.
    intros fuel t s ok H Hs. cbn [csv_breaks]. destruct (peek_a t s H) as (t1 & -> & H1).
    change 13%Z with (Z.of_N 13). rewrite next_is. replace (match s with [] => false | x :: _ => (x =? 13)%N end) with false.
    2:{ destruct s as [|c s]; [reflexivity|]. symmetry. apply N.eqb_neq. apply Hs. }
    destruct (peek_a t1 s H1) as (t2 & -> & H2). change 10%Z with (Z.of_N 10). rewrite next_is.
    replace (match s with [] => false | x :: _ => (x =? 10)%N end) with false.
    2:{ destruct s as [|c s]; [reflexivity|]. symmetry. apply N.eqb_neq. apply Hs. }
    cbn [orb]. exists t2. split; [reflexivity|exact H2].
  Qed.

  Lemma breaks_one : forall fuel t c s ok, ahead t (c :: s) -> c = 13%N \/ c = 10%N ->
    exists t', csv_breaks read (S fuel) t ok = csv_breaks read fuel t' true /\ ahead t' s.
  Proof.
    intros fuel t c s ok H Hc. cbn [csv_breaks]. destruct (peek_a t _ H) as (t1 & -> & H1). cbn [next].
    destruct Hc as [->| ->].
    - change (Z.of_N 13) with 13%Z. cbn [Z.eqb Pos.eqb orb]. destruct (get_a t1 _ _ H1) as (t2 & -> & H2).
      exists t2. split; [reflexivity|exact H2].
    - change (Z.of_N 10) with 10%Z. cbn [Z.eqb Pos.eqb orb]. destruct (peek_a t1 _ H1) as (t2 & -> & H2). cbn [next].
      change (Z.of_N 10) with 10%Z. cbn [Z.eqb Pos.eqb]. destruct (get_a t2 _ _ H2) as (t3 & -> & H3).
      exists t3. split; [reflexivity|exact H3].
  Qed.

  Lemma nextline_a : forall fuel r vs rest s, holds r (vs :: rest) s -> List.length s + 2 < fuel -> List.length vs < fuel ->
    exists r' s', csv_nextline read fuel r = ROk (match rest with [] => false | _ => true end, r') /\
      holds r' (match rest with [] => [[]] | _ => rest end) s' /\ List.length s' <= List.length s.
  Proof.
    intros fuel r vs rest s H Hf Hl. unfold csv_nextline.
    destruct (discard_a vs fuel fuel r rest s H ltac:(lia) Hl) as ([t1 f1 b1] & s1 & -> & H1 & Hb & L1). cbn [rbind cv_b cv_buf] in *.
    assert (Hrest : fit_rows rest) by (destruct H as (_ & Hfit & _); inversion Hfit; assumption).
    destruct Hb as [[-> ->]|(e & u & He & Hu & ->)].
    - destruct fuel as [|fuel]; [lia|]. destruct (breaks_stop fuel t1 [] false H1 I) as (t2 & -> & H2). cbn [rbind].
      exists (mkCsv t2 true b1), []. split; [reflexivity|]. split; [|lia]. split; [exact H2|]. split; [repeat constructor|]. constructor.
    - assert (Hne : rest <> []) by (intros ->; inversion Hu).
      assert (G : exists t2, csv_breaks read fuel t1 false = ROk (true, t2) /\ ahead t2 u).
      { destruct fuel as [|[|[|fuel]]]; try lia. destruct He; cbn [app] in H1.
        - destruct (breaks_one (S (S fuel)) t1 _ _ false H1 (or_intror eq_refl)) as (t2 & -> & H2).
          apply (breaks_stop (S fuel) t2 u true H2 (lines_start _ _ Hu)).
        - destruct (breaks_one (S (S fuel)) t1 _ _ false H1 (or_introl eq_refl)) as (t2 & -> & H2).
          destruct (breaks_one (S fuel) t2 _ _ true H2 (or_intror eq_refl)) as (t3 & -> & H3).
          apply (breaks_stop fuel t3 u true H3 (lines_start _ _ Hu)). }
      destruct G as (t2 & -> & H2). cbn [rbind]. exists (mkCsv t2 true b1), u. rewrite app_length in L1.
      destruct rest as [|row rest]; [congruence|]. split; [reflexivity|]. split; [|lia]. split; [exact H2|]. split; [exact Hrest|]. exact Hu.
  Qed.

  Lemma tail_length : forall vs u, tail vs u -> List.length vs <= List.length u.
  Proof. induction 1; cbn [List.length]; [lia|]. rewrite app_length. lia. Qed.
  Lemma holds_length : forall r vs rest s, holds r (vs :: rest) s -> List.length vs <= S (List.length s).
  Proof.
    intros r vs rest s (_ & _ & H). destruct (cv_first r).
    - apply lines_split in H. destruct H as [[H _]|(v & vs' & rest' & f & u & w & E & _ & _ & Ht & _ & ->)].
      + injection H as -> ->. cbn [List.length]. lia.
      + injection E as -> ->. apply tail_length in Ht. cbn [List.length]. rewrite !app_length. lia.
    - destruct H as (vs' & rest' & u & w & E & Ht & _ & ->). injection E as -> ->. apply tail_length in Ht. rewrite app_length. lia.
  Qed.
End Facts.

(** What a user asks of a reader. *)
Fixpoint run {R} (read : read_fn R) (fuel : nat) (asked : list request) (r : csv R) : bres (list answer) :=
  match asked with
  | [] => ROk []
  | Column :: q =>
      let* (ok, r) := csv_readval read fuel r in
      let* l := run read fuel q r in
      ROk (Value (if ok : bool then Some (csv_val r) else None) :: l)
  | Line :: q =>
      let* (ok, r) := csv_nextline read fuel r in
      let* l := run read fuel q r in
      ROk (Moved ok :: l)
  end.

(** On a text in the format of RFC 4180 in which no line ends in an empty field, the reader
    gives the values of the table, whatever the reader below gives at a time and in
    whatever order the user asks for columns and lines. *)
Theorem C91_read_partial : forall R (read : read_fn R) content, reads read content ->
  forall r rows, lines false rows (content r) -> Forall (Forall fits) rows ->
  forall asked fuel, List.length (content r) + 2 < fuel ->
  run read fuel asked (csv_new r) = ROk (table asked rows).
Proof.
  intros R read content Hr r rows Hl Hfit asked fuel Hf.
  enough (G : forall asked c rows s, rows <> [] -> holds content c rows s -> List.length s + 2 < fuel -> run read fuel asked c = ROk (table asked rows)).
  { apply (G asked (csv_new r) rows (content r)); [intros ->; inversion Hl| |exact Hf].
    split; [|split; assumption]. exists []. split; [reflexivity|]. exists [], []. repeat split; auto; intros []. }
  clear r rows Hl Hfit asked Hf. induction asked as [|[|] asked IH]; intros c rows s Hne H Hf; cbn [run table]; [reflexivity| |].
  - destruct rows as [|[|v vs] rest]; [congruence| |].
    + destruct (readval_none read content Hr fuel c rest s H) as (c' & -> & H' & _ & _). cbn [rbind].
      rewrite (IH c' _ s Hne H' Hf). reflexivity.
    + destruct (readval_some read content Hr fuel c v vs rest s H ltac:(lia)) as (c' & s' & -> & H' & Hv & L' & _). cbn [rbind].
      rewrite (IH c' (vs :: rest) s' ltac:(discriminate) H' ltac:(lia)), Hv. reflexivity.
  - destruct rows as [|vs rest]; [congruence|].
    pose proof (holds_length content c vs rest s H).
    destruct (nextline_a read content Hr fuel c vs rest s H Hf ltac:(lia)) as (c' & s' & -> & H' & L'). cbn [rbind].
    assert (Hne' : (match rest with [] => [[]] | _ => rest end) <> []) by (destruct rest; discriminate).
    rewrite (IH c' _ s' Hne' H' ltac:(lia)). destruct rest; reflexivity.
Qed.

Definition sample : bytes := L "a,,""b,""""c""" ++ [13; 10]%N ++ [34; 10; 34]%N ++ [10%N].
Definition sample_rows : list (list bytes) := [[L "a"; []; L "b,""c"]; [[10%N]]; []].
Lemma sample_lines : lines false sample_rows sample /\ Forall (Forall fits) sample_rows.
Proof.
  split.
  - apply (lines_more false [L "a"; []; L "b,""c"] (L "a" ++ [44%N] ++ [] ++ [44%N] ++ L """b,""""c""") [13; 10]%N [[[10%N]]; []] ([34; 10; 34]%N ++ [10%N] ++ [])).
    + apply (record_more false (L "a") (L "a")); [apply field_plain; repeat constructor; discriminate|].
      apply (record_more false [] []); [apply field_plain; constructor|].
      apply record_one; [|right; discriminate]. apply (field_quoted (L "b,""c") (L "b,""""c")).
      repeat (first [apply doubled_nil|apply doubled_quote|apply doubled_char; [discriminate|]]).
    + constructor.
    + apply (lines_more false [[10%N]] ([34%N] ++ [10%N] ++ [34%N]) [10%N] [[]] []).
      * apply record_one; [|right; discriminate]. apply field_quoted. apply doubled_char; [discriminate|constructor].
      * constructor.
      * constructor.
  - repeat constructor.
Qed.
Example C91_read_case :
  run mem_read 30 [Column; Column; Column; Column; Line; Line; Line; Column] (csv_new sample)
  = ROk [Value (Some (L "a")); Value (Some []); Value (Some (L "b,""c")); Value None; Moved true; Moved true; Moved false; Value None].
Proof. reflexivity. Qed.

(** An empty field without quotes at the end of a line is lost. *)
Theorem C91_empty_refuted :
  lines true [[L "c"; []]] (L "c,") /\
  run mem_read 30 [Column; Column] (csv_new (L "c,")) = ROk [Value (Some (L "c")); Value None] /\
  table [Column; Column] [[L "c"; []]] <> [Value (Some (L "c")); Value None].
Proof.
  split; [|split; [reflexivity|discriminate]].
  apply lines_last. apply (record_more true (L "c") (L "c") [[]] []).
  - apply field_plain. repeat constructor; discriminate.
  - apply record_one; [apply field_plain; constructor|left; reflexivity].
Qed.

(** A value of 4096 bytes is written past the end of the buffer. *)
Theorem C91_long_refuted : let v := repeat 97%N valsize in
  lines false [[v]] v /\ run mem_read (S (S (S valsize))) [Column] (csv_new v) = RUndefined.
Proof.
  split.
  - apply lines_last, record_one.
    + apply field_plain. apply Forall_forall. intros c H. apply repeat_spec in H. subst c. repeat split; discriminate.
    + right. discriminate.
  - vm_compute. reflexivity.
Qed.


(** A quoted value without an end is a panic. *)
Lemma new_ahead : forall s, ahead (fun s => s) (tok_new s) s.
Proof. intros s. exists []. split; [reflexivity|]. exists [], []. repeat split; auto; intros []. Qed.
Definition mem_reads : reads mem_read (fun s => s) := proj1 mem_reads_fully.

(** What a quoted value begins with. *)
Lemma quoted_start : forall R (read : read_fn R) fuel t buf w t', csv_quoted read fuel t buf = ROk (w, t') -> exists x, w = buf ++ x.
Proof.
  intros R read. induction fuel as [|fuel IH]; intros t buf w t' H; cbn [csv_quoted] in H; [discriminate|].
  assert (G : forall t1 c, rbind (put valsize buf c) (fun buf => csv_quoted read fuel t1 buf) = ROk (w, t') -> exists x, w = buf ++ x).
  { intros t1 c E. destruct (put_cases valsize buf c) as [P|P]; rewrite P in E; [|discriminate]. cbn [rbind] in E.
    apply IH in E. destruct E as [x ->]. exists (c :: x). rewrite <- app_assoc. reflexivity. }
  destruct (tok_get read t) as [c t1]. destruct (c =? -1)%Z; [discriminate|]. destruct (c =? 34)%Z.
  - destruct (tok_peek read t1) as [n t2]. destruct (n =? 34)%Z.
    + destruct (tok_get read t2) as [c' t3]. eapply G. exact H.
    + destruct (put valsize buf 0%N); [|discriminate|discriminate|discriminate]. cbn [rbind] in H. injection H as <- _. exists []. rewrite app_nil_r. reflexivity.
  - eapply G. exact H.
Qed.

Lemma quoted_until : forall a fuel t buf s, ahead (fun s => s) t (a ++ s) -> ~ In 34%N a -> Forall is_byte a ->
  (exists t', ahead (fun s => s) t' s /\ csv_quoted mem_read fuel t buf = csv_quoted mem_read (fuel - List.length a) t' (buf ++ a)) \/
  csv_quoted mem_read fuel t buf = RFuel \/ (csv_quoted mem_read fuel t buf = RUndefined /\ valsize < List.length buf + List.length a).
Proof.
  induction a as [|c a IH]; intros fuel t buf s H Hn Hb.
  - left. exists t. split; [exact H|]. rewrite Nat.sub_0_r, app_nil_r. reflexivity.
  - destruct fuel as [|fuel]; [right; left; reflexivity|]. cbn [csv_quoted app] in *.
    inversion Hb as [|? ? Bc Hb']; subst.
    destruct (get_a mem_read _ mem_reads t c _ H) as (t1 & -> & H1).
    destruct (Z.eqb_spec (Z.of_N c) (-1)); [lia|]. destruct (Z.eqb_spec (Z.of_N c) 34) as [E|_].
    { exfalso. apply Hn. left. lia. }
    rewrite (z_byte_of c Bc). unfold put at 1 2 3. destruct (Nat.ltb_spec (List.length buf) valsize) as [Hl|Hl].
    + cbn [rbind List.length]. replace (S fuel - S (List.length a)) with (fuel - List.length a) by lia.
      destruct (IH fuel t1 (buf ++ [c]) s H1 (fun x => Hn (or_intror x)) Hb') as [(t2 & H2 & E)|[E|[E L']]].
      * left. exists t2. rewrite <- app_assoc in E. split; [exact H2|exact E].
      * right. left. exact E.
      * right. right. split; [exact E|]. rewrite app_length in L'. cbn [List.length] in L'. lia.
    + right. right. cbn [rbind List.length]. split; [reflexivity|lia].
Qed.

Lemma readval_quote : forall fuel s, exists t', ahead (fun s => s) t' s /\
  csv_readval mem_read fuel (csv_new (34%N :: s)) =
  rbind (csv_quoted mem_read fuel t' []) (fun '(v, t) => ROk (true, mkCsv t false v)).
Proof.
  intros fuel s. unfold csv_readval. cbn [csv_new cv_first cv_b negb].
  destruct (peek_a mem_read _ mem_reads _ _ (new_ahead (34%N :: s))) as (t1 & -> & H1). cbn [next].
  change (Z.of_N 34) with 34%Z. cbn [Z.eqb Pos.eqb orb].
  destruct (more_a mem_read _ mem_reads _ _ H1) as (t2 & -> & H2). cbn [negb].
  unfold read_quoted_value, tok_skip. destruct (peek_a mem_read _ mem_reads _ _ H2) as (t3 & -> & H3). cbn [next].
  change (Z.of_N 34) with 34%Z. cbn [Z.eqb Pos.eqb].
  destruct (get_a mem_read _ mem_reads _ _ _ H3) as (t4 & -> & H4). exists t4. split; [exact H4|reflexivity].
Qed.

Theorem C91_unterminated : forall s, ~ In 34%N s -> Forall is_byte s -> (N.of_nat (List.length s) < 4096)%N ->
  forall fuel, List.length s < fuel -> run mem_read fuel [Column] (csv_new (34%N :: s)) = RPanic.
Proof.
  intros s Hn Hb Hl fuel Hf. cbn [run]. destruct (readval_quote fuel s) as (t & H & ->).
  assert (Hl' : List.length s < valsize).
  { unfold valsize. apply Nat.compare_lt_iff. rewrite <- (Nnat.Nat2N.id (List.length s)), <- Nnat.N2Nat.inj_compare. exact Hl. }
  rewrite <- (app_nil_r s) in H.
  enough (E : csv_quoted mem_read fuel t [] = RPanic) by (rewrite E; reflexivity).
  assert (G : forall a fuel t buf, ahead (fun s => s) t a -> ~ In 34%N a -> Forall is_byte a -> List.length a < fuel ->
     List.length buf + List.length a < valsize -> csv_quoted mem_read fuel t buf = RPanic).
  { clear. induction a as [|c a IH]; intros [|fuel] t buf H Hn Hb Hf Hl; cbn [List.length] in *; try lia; cbn [csv_quoted].
    - destruct (get_e mem_read _ mem_reads _ H) as (t1 & -> & _). reflexivity.
    - destruct (get_a mem_read _ mem_reads _ _ _ H) as (t1 & -> & H1).
      destruct (Z.eqb_spec (Z.of_N c) (-1)); [lia|]. destruct (Z.eqb_spec (Z.of_N c) 34) as [E|_].
      { exfalso. apply Hn. left. lia. }
      rewrite put_ok by lia. cbn [rbind]. inversion Hb; subst. apply IH; try assumption; try lia.
      + intros X. apply Hn. right. exact X.
      + rewrite app_length. cbn [List.length]. lia. }
  rewrite app_nil_r in H. apply (G s fuel t [] H Hn Hb Hf). exact Hl'.
Qed.
Example C91_unterminated_case : run mem_read 30 [Column] (csv_new (L """a,b")) = RPanic.
Proof. reflexivity. Qed.

(** * Writing *)

(** A table is written line by line. *)
Definition write_row (w : csvw) (vs : list bytes) : csvw :=
  csv_writeval (fold_left (fun (w : csvw) (v : bytes) => csv_writeval w (Some v)) vs w) None.
Definition write_rows (rows : list (list bytes)) : bytes := cw_out (fold_left write_row rows (mkCsvw [] 0)).

(** A value with a quote in it is never read back, whatever is written behind it. *)
Theorem C91_quote_refuted : forall v, In 34%N v -> Forall (fun c => 0 < c < 256)%N v ->
  forall rest fuel l, run mem_read fuel [Column] (csv_new (cw_out (csv_writeval (mkCsvw [] 0) (Some v)) ++ rest)) = ROk l ->
  l <> [Value (Some v)].
Proof.
  intros v Hin Hv rest fuel l Hrun ->.
  assert (S : exists a b, v = a ++ 34%N :: b /\ ~ In 34%N a).
  { clear - Hin. induction v as [|c v IH]; [destruct Hin|]. destruct (N.eq_dec c 34) as [->|Hc].
    - exists [], v. split; [reflexivity|intros []].
    - destruct Hin as [H|H]; [congruence|]. destruct (IH H) as (a & b & -> & Ha). exists (c :: a), b.
      split; [reflexivity|]. intros [X|X]; [congruence|exact (Ha X)]. }
  destruct S as (a & b & -> & Ha). apply Forall_app in Hv. destruct Hv as [Hv _].
  assert (F : flat_map (fun c => if (c =? 34)%N then [92%N; c] else [c]) a = a).
  { clear - Ha. induction a as [|c a IH]; [reflexivity|]. cbn [flat_map].
    replace (c =? 34)%N with false by (symmetry; apply N.eqb_neq; intros ->; apply Ha; left; reflexivity).
    rewrite IH; [reflexivity|]. intros X. apply Ha. right. exact X. }
  cbn [csv_writeval cw_out cw_col app Nat.ltb Nat.leb] in Hrun. rewrite flat_map_app, F in Hrun. cbn [flat_map N.eqb Pos.eqb] in Hrun.
  cbn [run] in Hrun. rewrite <- !app_assoc in Hrun. cbn [app] in Hrun.
  match type of Hrun with context [csv_new (34%N :: a ++ 92%N :: ?x)] => destruct (readval_quote fuel (a ++ 92%N :: x)) as (t & H & E) end.
  rewrite E in Hrun. clear E.
  match type of H with ahead _ _ (a ++ 92%N :: ?y) => change (a ++ 92%N :: y) with (a ++ [92%N] ++ y) in H; rewrite app_assoc in H end.
  assert (Hn : ~ In 34%N (a ++ [92%N])).
  { intros X. apply in_app_or in X. destruct X as [X|[X|[]]]; [exact (Ha X)|discriminate]. }
  assert (Hb : Forall is_byte (a ++ [92%N])).
  { apply Forall_app. split; [|repeat constructor]. eapply Forall_impl; [|exact Hv]. intros c [_ X]. exact X. }
  destruct (quoted_until _ fuel t [] _ H Hn Hb) as [(t' & _ & E)|[E|[E _]]]; rewrite E in Hrun; try discriminate.
  destruct (csv_quoted mem_read (fuel - List.length (a ++ [92%N])) t' ([] ++ a ++ [92%N])) as [[w t'']| | |] eqn:Q; try discriminate.
  cbn [rbind] in Hrun. apply quoted_start in Q. destruct Q as [x ->]. injection Hrun as Hrun.
  unfold csv_val in Hrun. cbn [cv_buf app] in Hrun. rewrite <- app_assoc in Hrun. cbn [app] in Hrun. clear - Hv Hrun.
  induction a as [|c a IH].
  - cbn in Hrun. discriminate.
  - inversion Hv; subst. cbn [app until_zero] in Hrun. replace (c =? 0)%N with false in Hrun by (symmetry; apply N.eqb_neq; lia).
    injection Hrun as Hrun. apply IH; assumption.
Qed.
Example C91_quote_case : write_rows [[L "a""b"]] = L """a\""b""" ++ [10%N] /\
  run mem_read 30 [Column] (csv_new (write_rows [[L "a""b"]])) = ROk [Value (Some (L "a\"))].
Proof. split; reflexivity. Qed.

Lemma write_plain : forall v, ~ In 34%N v -> flat_map (fun c => if (c =? 34)%N then [92%N; c] else [c]) v = v.
Proof.
  induction v as [|c v IH]; intros H; [reflexivity|]. cbn [flat_map].
  replace (c =? 34)%N with false by (symmetry; apply N.eqb_neq; intros ->; apply H; left; reflexivity).
  rewrite IH; [reflexivity|]. intros X. apply H. right. exact X.
Qed.
Lemma doubled_plain : forall v, ~ In 34%N v -> doubled v v.
Proof.
  induction v as [|c v IH]; intros H; constructor; [intros ->; apply H; left; reflexivity|]. apply IH. intros X. apply H. right. exact X.
Qed.

Lemma write_values : forall vs w, vs <> [] -> Forall (fun v => ~ In 34%N v) vs ->
  exists t, record false vs t /\ cw_out (fold_left (fun (w : csvw) (v : bytes) => csv_writeval w (Some v)) vs w) = cw_out w ++ (if Nat.ltb 0 (cw_col w) then [44%N] else []) ++ t.
Proof.
  induction vs as [|v vs IH]; intros w Hne H; [congruence|]. inversion H as [|? ? Hv Hvs]; subst. cbn [fold_left].
  assert (Hf : field v ([34%N] ++ v ++ [34%N])) by (apply field_quoted, doubled_plain, Hv).
  destruct vs as [|v2 vs].
  - cbn [fold_left]. exists ([34%N] ++ v ++ [34%N]). split; [apply record_one; [exact Hf|right; discriminate]|].
    cbn [csv_writeval cw_out]. rewrite (write_plain v Hv). reflexivity.
  - destruct (IH (csv_writeval w (Some v)) ltac:(discriminate) Hvs) as (t & Ht & E).
    exists (([34%N] ++ v ++ [34%N]) ++ [44%N] ++ t). split; [apply record_more; assumption|]. rewrite E.
    cbn [csv_writeval cw_out cw_col Nat.ltb Nat.leb]. rewrite (write_plain v Hv), <- !app_assoc. reflexivity.
Qed.

(** Values without quotes are written in the format of RFC 4180... *)
Theorem C91_write_partial : forall rows, Forall (fun vs => vs <> []) rows -> Forall (Forall (fun v => ~ In 34%N v)) rows ->
  lines false (rows ++ [[]]) (write_rows rows).
Proof.
  intros rows Hne Hq. unfold write_rows.
  enough (G : forall w, cw_col w = 0 -> exists t, cw_out (fold_left write_row rows w) = cw_out w ++ t /\ lines false (rows ++ [[]]) t).
  { destruct (G (mkCsvw [] 0) eq_refl) as (t & E & H). rewrite E. exact H. }
  induction rows as [|vs rows IH]; intros w Hc; cbn [fold_left app].
  - exists []. rewrite app_nil_r. split; [reflexivity|constructor].
  - inversion Hne; subst. inversion Hq; subst. destruct (write_values vs w ltac:(assumption) ltac:(assumption)) as (t & Ht & E).
    rewrite Hc in E. cbn [Nat.ltb Nat.leb app] in E.
    destruct (IH ltac:(assumption) ltac:(assumption) (write_row w vs) eq_refl) as (t' & E' & H').
    exists (t ++ [10%N] ++ t'). split.
    + rewrite E'. unfold write_row.
      assert (Z : forall x, cw_out (csv_writeval x None) = cw_out x ++ [10%N]) by reflexivity.
      rewrite Z, E, <- !app_assoc. reflexivity.
    + apply lines_more; [exact Ht|constructor|exact H'].
Qed.

(** ... and read back. *)
Theorem C91_round_trip_partial : forall rows, Forall (fun vs => vs <> []) rows -> Forall (Forall (fun v => ~ In 34%N v)) rows ->
  Forall (Forall fits) rows ->
  forall asked fuel, List.length (write_rows rows) + 2 < fuel ->
  run mem_read fuel asked (csv_new (write_rows rows)) = ROk (table asked (rows ++ [[]])).
Proof.
  intros rows Hne Hq Hfit asked fuel Hf.
  apply (C91_read_partial bytes mem_read (fun s => s) mem_reads); [apply C91_write_partial; assumption| |exact Hf].
  apply Forall_app. split; [exact Hfit|repeat constructor].
Qed.
Example C91_round_trip_case : let rows := [[L "a,b"; []]; [[10%N]]] in
  run mem_read 40 [Column; Column; Column; Line; Column; Line; Column; Line] (csv_new (write_rows rows))
  = ROk [Value (Some (L "a,b")); Value (Some []); Value None; Moved true; Value (Some [10%N]); Moved true; Value None; Moved false].
Proof. reflexivity. Qed.

(** * Any input *)

(** The reader comes to an end on every input, in the format or not. *)
Section Total.
  Context {R : Type} (read : read_fn R) (content : R -> bytes).
  Hypothesis Hr : reads read content.
  Notation ahd := (ahead content).

  (** What a step gives: something with at most [n] bytes ahead, or a crash. *)
  Definition ends {X} (m : bres (X * tok R)) (n : nat) : Prop :=
    match m with ROk (_, t) => exists s, ahd t s /\ List.length s <= n | RFuel => False | _ => True end.

  Lemma plain_ends : forall fuel t s buf, ahd t s -> List.length s < fuel -> ends (csv_plain read fuel t buf) (List.length s).
  Proof.
    induction fuel as [|fuel IH]; intros t s buf H Hf; [lia|]. cbn [csv_plain].
    assert (St : forall t', ahd t' s -> ends (rbind (put valsize buf 0%N) (fun _ => ROk (buf, t'))) (List.length s)).
    { intros t' H'. destruct (put_cases valsize buf 0%N) as [-> | ->]; cbn [rbind ends]; [|exact I]. exists s. split; [exact H'|lia]. }
    destruct (more_a read content Hr t s H) as (t1 & -> & H1). destruct s as [|c s]; cbn [negb]; [apply St, H1|].
    destruct (peekany_a read content Hr t1 _ H1) as (t2 & -> & H2). destruct (sep c); [apply St, H2|]. clear St.
    unfold put_get. destruct (get_a read content Hr t2 _ _ H2) as (t3 & -> & H3).
    destruct (put_cases valsize buf (z_byte (Z.of_N c))) as [-> | ->]; cbn [rbind]; [|exact I]. cbn [List.length] in *.
    specialize (IH t3 s (buf ++ [z_byte (Z.of_N c)]) H3 ltac:(lia)). unfold ends in *.
    destruct (csv_plain read fuel t3 (buf ++ [z_byte (Z.of_N c)])) as [[x t4]| | |]; try exact IH. destruct IH as (s' & A & B). exists s'. split; [exact A|lia].
  Qed.

  Lemma quoted_ends : forall fuel t s buf, ahd t s -> List.length s < fuel -> ends (csv_quoted read fuel t buf) (List.length s).
  Proof.
    induction fuel as [|fuel IH]; intros t s buf H Hf; [lia|]. cbn [csv_quoted]. destruct s as [|c s].
    { destruct (get_e read content Hr t H) as (t1 & -> & _). exact I. }
    assert (W : forall t' s' c', ahd t' s' -> List.length s' <= List.length s ->
      ends (rbind (put valsize buf c') (fun buf => csv_quoted read fuel t' buf)) (List.length (c :: s))).
    { intros t' s' c' H' L'. destruct (put_cases valsize buf c') as [-> | ->]; cbn [rbind]; [|exact I]. cbn [List.length] in *.
      specialize (IH t' s' (buf ++ [c']) H' ltac:(lia)). unfold ends in *.
      destruct (csv_quoted read fuel t' (buf ++ [c'])) as [[x t4]| | |]; try exact IH. destruct IH as (s2 & A & B). exists s2. split; [exact A|lia]. }
    destruct (get_a read content Hr t _ _ H) as (t1 & -> & H1). destruct (Z.eqb_spec (Z.of_N c) (-1)); [lia|].
    destruct (Z.of_N c =? 34)%Z; [|apply (W _ s); [exact H1|lia]].
    destruct (peek_a read content Hr t1 _ H1) as (t2 & -> & H2). change 34%Z with (Z.of_N 34). rewrite next_is. destruct s as [|c2 s].
    - destruct (put_cases valsize buf 0%N) as [-> | ->]; cbn [rbind]; [|exact I]. exists []. split; [exact H2|cbn [List.length]; lia].
    - destruct (c2 =? 34)%N.
      + destruct (get_a read content Hr t2 _ _ H2) as (t3 & -> & H3). apply (W _ s); [exact H3|cbn [List.length]; lia].
      + destruct (put_cases valsize buf 0%N) as [-> | ->]; cbn [rbind]; [|exact I]. exists (c2 :: s). split; [exact H2|cbn [List.length]; lia].
  Qed.

  Definition left_ (r : csv R) (s : bytes) : nat := List.length s + (if cv_first r then 1 else 0).
  Lemma readval_ends : forall fuel r s, ahd (cv_b r) s -> List.length s < fuel ->
    match csv_readval read fuel r with
    | ROk (ok, r') => exists s', ahd (cv_b r') s' /\ List.length s' <= List.length s /\ (ok = true -> left_ r' s' < left_ r s)
    | RFuel => False
    | _ => True
    end.
  Proof.
    intros fuel [t first buf] s H Hf. cbn [cv_b] in H. unfold csv_readval. cbn [cv_b cv_first cv_buf].
    assert (W : forall t s', ahd t s' -> List.length s' <= List.length s -> List.length s' < List.length s + (if first then 1 else 0) ->
      match
        (let '(next, t) := tok_peek read t in
         if (next =? 10)%Z || (next =? 13)%Z then ROk (false, mkCsv t false buf)
         else
           let '(m, t) := tok_more read t in
           if negb m then ROk (false, mkCsv t false buf)
           else
             let* (v, t) := if (next =? 34)%Z then read_quoted_value read fuel t else csv_plain read fuel t [] in
             ROk (true, mkCsv t false v))
      with
      | ROk (ok, r') => exists s', ahd (cv_b r') s' /\ List.length s' <= List.length s /\ (ok = true -> left_ r' s' < left_ (mkCsv t first buf) s)
      | RFuel => False
      | _ => True
      end).
    { clear t H. intros t s'' H L' L2. destruct (peek_a read content Hr t s'' H) as (t1 & -> & H1).
      destruct ((next s'' =? 10)%Z || (next s'' =? 13)%Z)%bool; [exists s''; repeat split; [exact H1|lia|discriminate]|].
      destruct (more_a read content Hr t1 s'' H1) as (t2 & -> & H2). destruct s'' as [|c s'] eqn:Es; cbn [negb].
      { exists []. repeat split; [exact H2|cbn [List.length]; lia|discriminate]. }
      rewrite <- Es in *.
      assert (E : ends (if (next s'' =? 34)%Z then read_quoted_value read fuel t2 else csv_plain read fuel t2 []) (List.length s'')).
      { destruct (next s'' =? 34)%Z eqn:Eq; [|apply plain_ends; [exact H2|lia]]. unfold read_quoted_value, tok_skip.
        destruct (peek_a read content Hr t2 _ H2) as (t3 & -> & H3). change (Z.of_N 34) with 34%Z. rewrite Eq. rewrite Es in H3.
        destruct (get_a read content Hr t3 _ _ H3) as (t4 & -> & H4).
        assert (Q : ends (csv_quoted read fuel t4 []) (List.length s')) by (apply quoted_ends; [exact H4|rewrite Es in L'; cbn [List.length] in L'; lia]).
        unfold ends in *. rewrite Es. cbn [List.length].
        destruct (csv_quoted read fuel t4 []) as [[x t5]| | |]; try exact Q. destruct Q as (s2 & A & B). exists s2. split; [exact A|lia]. }
      unfold ends in E. destruct (if (next s'' =? 34)%Z then read_quoted_value read fuel t2 else csv_plain read fuel t2 []) as [[x t5]| | |];
        cbn [rbind]; try exact E.
      destruct E as (s2 & A & B). exists s2. unfold left_. cbn [cv_b cv_first]. repeat split; [exact A|lia|lia]. }
    destruct first.
    - cbn [negb]. apply (W t s H); lia.
    - destruct (peek_a read content Hr t s H) as (t1 & -> & H1). change 44%Z with (Z.of_N 44). rewrite next_is.
      destruct s as [|c s].
      { cbn [negb]. exists []. repeat split; [exact H1|lia|discriminate]. }
      destruct (c =? 44)%N; cbn [negb].
      + destruct (get_a read content Hr t1 _ _ H1) as (t2 & -> & H2). cbn [negb]. apply (W t2 s H2); cbn [List.length]; lia.
      + exists (c :: s). repeat split; [exact H1|lia|discriminate].
  Qed.

  Lemma discard_ends : forall fuel loops r s, ahd (cv_b r) s -> List.length s < fuel -> left_ r s < loops ->
    match csv_discard read fuel loops r with
    | ROk r' => exists s', ahd (cv_b r') s' /\ List.length s' <= List.length s
    | RFuel => False
    | _ => True
    end.
  Proof.
    intros fuel. induction loops as [|loops IH]; intros r s H Hf Hl; [lia|]. cbn [csv_discard].
    pose proof (readval_ends fuel r s H Hf) as E. destruct (csv_readval read fuel r) as [[ok r']| | |]; cbn [rbind]; try exact E.
    destruct E as (s' & A & B & C). destruct ok; [|exists s'; split; assumption]. specialize (C eq_refl).
    specialize (IH r' s' A ltac:(lia) ltac:(lia)). destruct (csv_discard read fuel loops r') as [r2| | |]; try exact IH.
    destruct IH as (s2 & D & E). exists s2. split; [exact D|lia].
  Qed.

  Lemma breaks_ends : forall fuel t s ok, ahd t s -> List.length s < fuel ->
    match csv_breaks read fuel t ok with ROk (_, t') => exists s', ahd t' s' /\ List.length s' <= List.length s | _ => False end.
  Proof.
    induction fuel as [|fuel IH]; intros t s ok H Hf; [lia|]. cbn [csv_breaks]. destruct (peek_a read content Hr t s H) as (t1 & -> & H1).
    destruct (next s =? 13)%Z eqn:E1; cbn [orb].
    - destruct s as [|c s]; [discriminate|]. destruct (get_a read content Hr t1 _ _ H1) as (t2 & -> & H2). cbn [List.length] in *.
      specialize (IH t2 s true H2 ltac:(lia)). destruct (csv_breaks read fuel t2 true) as [[b t3]| | |]; try exact IH.
      destruct IH as (s' & A & B). exists s'. split; [exact A|lia].
    - destruct (peek_a read content Hr t1 s H1) as (t2 & -> & H2). destruct (next s =? 10)%Z eqn:E2.
      + destruct s as [|c s]; [discriminate|]. destruct (get_a read content Hr t2 _ _ H2) as (t3 & -> & H3). cbn [List.length] in *.
        specialize (IH t3 s true H3 ltac:(lia)). destruct (csv_breaks read fuel t3 true) as [[b t4]| | |]; try exact IH.
        destruct IH as (s' & A & B). exists s'. split; [exact A|lia].
      + exists s. split; [exact H2|lia].
  Qed.
End Total.

Theorem C91_total : forall R (read : read_fn R) content, reads read content ->
  forall r asked fuel, List.length (content r) + 1 < fuel -> run read fuel asked (csv_new r) <> RFuel.
Proof.
  intros R read content Hr r asked fuel Hf.
  enough (G : forall asked c s, ahead content (cv_b c) s -> List.length s + 1 < fuel -> run read fuel asked c <> RFuel).
  { apply (G asked (csv_new r) (content r)); [|exact Hf]. exists []. split; [reflexivity|]. exists [], []. repeat split; auto; intros []. }
  clear r asked Hf. induction asked as [|[|] asked IH]; intros c s H Hf; cbn [run]; [discriminate| |].
  - pose proof (readval_ends read content Hr fuel c s H ltac:(lia)) as E. destruct (csv_readval read fuel c) as [[ok c']| | |]; cbn [rbind]; try discriminate; [|destruct E].
    destruct E as (s' & A & B & _). specialize (IH c' s' A ltac:(lia)). destruct (run read fuel asked c'); cbn [rbind]; congruence.
  - unfold csv_nextline.
    assert (Hl : left_ c s < fuel) by (unfold left_; destruct (cv_first c); lia).
    pose proof (discard_ends read content Hr fuel fuel c s H ltac:(lia) Hl) as E.
    destruct (csv_discard read fuel fuel c) as [c1| | |]; cbn [rbind]; try discriminate; [|destruct E].
    destruct E as (s1 & A1 & B1). pose proof (breaks_ends read content Hr fuel (cv_b c1) s1 false A1 ltac:(lia)) as E.
    destruct (csv_breaks read fuel (cv_b c1) false) as [[b t]| | |]; cbn [rbind]; try discriminate; [|destruct E].
    destruct E as (s2 & A2 & B2). specialize (IH (mkCsv t true (cv_buf c1)) s2 A2 ltac:(lia)).
    destruct (run read fuel asked (mkCsv t true (cv_buf c1))); cbn [rbind]; congruence.
Qed.
Example C91_total_case : run mem_read 8 [Line; Column; Line] (csv_new (L ",,""a""b")) = ROk [Moved false; Value (Some (L "b")); Moved false].
Proof. reflexivity. Qed.

Print Assumptions C91_read_partial. Print Assumptions C91_round_trip_partial. Print Assumptions C91_total.
Print Assumptions C91_quote_refuted. Print Assumptions C91_unterminated. Print Assumptions C91_write_partial.
Print Assumptions C91_empty_refuted. Print Assumptions C91_long_refuted.
