(** HTTP responses: what the library reads and writes. *)
From Coq Require Import ZArith Lia List.
From Verif Require Import LibBase LibIO LibText LibTok LibLines LibHttp SpecIO SpecText SpecTok SpecLines SpecHttp PropIO PropStrings PropTok PropLines PropHttp.
Import ListNotations.

Section Steps.
  Context {R : Type} (read : read_fn R) (content : R -> bytes).
  Hypothesis Hr : reads_fully read content.
  Notation at' := (at_ content).
  Let H1 : reads read content := proj1 Hr.

  Lemma upto_at : forall x r t d fuel until buf n, at' t d (x ++ r) -> Forall is_byte x -> ~ In until x ->
    match r with [] => True | c :: _ => c = until end -> List.length x < fuel -> (N.of_nat (List.length buf + List.length x) < n)%N ->
    exists t', http_upto read fuel t until buf n = ROk (buf ++ x, t') /\ at' t' (d ++ x) r.
  Proof.
    induction x as [|c x IH]; intros r t d fuel until buf len H Hb Hi Hu Hf Hl; (destruct fuel as [|fuel]; [simpl in Hf; lia|]); cbn [http_upto].
    - cbn [app] in H. rewrite !app_nil_r. destruct (more_at read content H1 t d r H) as (t0 & -> & A). destruct r as [|c r]; cbn [negb].
      + exists t0. split; [reflexivity|exact A].
      + subst c. destruct (peek_at read content H1 t0 d _ A) as (t1 & -> & A0). rewrite next_eqb, N.eqb_refl. exists t1. split; [reflexivity|exact A0].
    - cbn [app] in H. destruct (more_at read content H1 t d _ H) as (t0 & -> & A). cbn [negb].
      destruct (peek_at read content H1 t0 d _ A) as (t1 & -> & A0). rewrite next_eqb.
      destruct (N.eqb_spec c until) as [->|]; [exfalso; apply Hi; left; reflexivity|].
      cbn [List.length] in Hl, Hf. destruct (get_at read content H1 t1 d c _ A0) as (t2 & -> & A2). rewrite (z_byte_of c (Forall_inv Hb)).
      destruct (N.ltb_spec (N.of_nat (List.length buf) + 1) len); [|lia].
      destruct (IH r t2 _ fuel until (buf ++ [c]) len A2 (Forall_inv_tail Hb)) as (t3 & -> & A3);
        [intros Hin; apply Hi; right; exact Hin|exact Hu|lia|rewrite app_length; simpl; lia|].
      exists t3. rewrite <- !app_assoc. rewrite <- !app_assoc in A3. split; [reflexivity|exact A3].
  Qed.
  Lemma skip_upto_at : forall x r t d fuel until, at' t d (x ++ r) -> ~ In until x ->
    match r with [] => True | c :: _ => c = until end -> List.length x < fuel ->
    exists t', http_skip_upto read fuel t until = ROk t' /\ at' t' (d ++ x) r.
  Proof.
    induction x as [|c x IH]; intros r t d fuel until H Hi Hu Hf; (destruct fuel as [|fuel]; [simpl in Hf; lia|]); cbn [http_skip_upto].
    - cbn [app] in H. rewrite !app_nil_r. destruct (more_at read content H1 t d r H) as (t0 & -> & A). destruct r as [|c r]; cbn [negb].
      + exists t0. split; [reflexivity|exact A].
      + subst c. destruct (peek_at read content H1 t0 d _ A) as (t1 & -> & A0). rewrite next_eqb, N.eqb_refl. exists t1. split; [reflexivity|exact A0].
    - cbn [app] in H. destruct (more_at read content H1 t d _ H) as (t0 & -> & A). cbn [negb].
      destruct (peek_at read content H1 t0 d _ A) as (t1 & -> & A0). rewrite next_eqb.
      destruct (N.eqb_spec c until) as [->|]; [exfalso; apply Hi; left; reflexivity|].
      cbn [List.length] in Hf. destruct (get_at read content H1 t1 d c _ A0) as (t2 & -> & A2).
      destruct (IH r t2 _ fuel until A2) as (t3 & -> & A3); [intros Hin; apply Hi; right; exact Hin|exact Hu|lia|].
      exists t3. rewrite <- !app_assoc in A3. split; [reflexivity|exact A3].
  Qed.
  Lemma gets_at : forall x r t d, at' t d (x ++ r) -> Forall is_byte x ->
    exists t', http_gets read (List.length x) t = (x, t') /\ at' t' (d ++ x) r.
  Proof.
    induction x as [|c x IH]; intros r t d H Hb; cbn [List.length http_gets].
    - exists t. rewrite app_nil_r. auto.
    - cbn [app] in H. destruct (get_at read content H1 t d c _ H) as (t1 & -> & A). destruct (IH r t1 _ A (Forall_inv_tail Hb)) as (t2 & -> & A2).
      rewrite (z_byte_of c (Forall_inv Hb)). exists t2. rewrite <- app_assoc in A2. auto.
  Qed.
  Lemma status_at : forall x r t d v, at' t d (x ++ r) -> Forall (fun c => (48 <= c <= 57)%N) x ->
    exists t', http_status read (List.length x) t v = (Some (fold_left (fun v d => (10 * v + Z.of_N (d - 48))%Z) x v), t') /\ at' t' (d ++ x) r.
  Proof.
    induction x as [|c x IH]; intros r t d v H Hb; cbn [List.length http_status fold_left].
    - exists t. rewrite app_nil_r. auto.
    - cbn [app] in H. destruct (get_at read content H1 t d c _ H) as (t1 & -> & A). pose proof (Forall_inv Hb) as K. cbn beta in K.
      rewrite (z_byte_of c) by (unfold is_byte; lia). unfold num_from_ascii.
      replace (c_isdigit c) with true by (symmetry; unfold c_isdigit; apply andb_true_iff; split; apply N.leb_le; lia).
      destruct (Z.ltb_spec (Z.of_N (c - 48)) 0); [lia|].
      destruct (IH r t1 _ (v * 10 + Z.of_N (c - 48))%Z A (Forall_inv_tail Hb)) as (t2 & -> & A2).
      exists t2. rewrite <- app_assoc in A2. replace (v * 10 + Z.of_N (c - 48))%Z with (10 * v + Z.of_N (c - 48))%Z by lia. auto.
  Qed.
  Lemma status_line_at : forall (v code reason r : bytes) t d fuel, (v = L "HTTP/1.0" \/ v = L "HTTP/1.1") -> List.length code = 3 ->
    Forall (fun c => (48 <= c <= 57)%N) code -> lacks [13%N] reason -> at' t d (status_line v code reason ++ line_end ++ r) ->
    List.length reason < fuel ->
    exists t', http_status_line read fuel t = ROk (Some (v, digits_value code), t') /\ at' t' (d ++ status_line v code reason ++ line_end) r.
  Proof.
    intros v code reason r t d fuel Hv Lc Hc Lr A Hf. unfold status_line in A. rewrite <- !app_assoc in A. unfold http_status_line.
    destruct (gets_at v _ t d A) as (t1 & E & A1); [destruct Hv as [->| ->]; repeat constructor|].
    assert (Lv : List.length v = 8) by (destruct Hv as [->| ->]; reflexivity). rewrite Lv in E. rewrite E. clear E.
    replace (negb (bytes_eqb (cstr v) (L "HTTP/1.0")) && negb (bytes_eqb (cstr v) (L "HTTP/1.1"))) with false
      by (destruct Hv as [->| ->]; reflexivity).
    destruct (get_at read content H1 t1 _ 32%N _ A1) as (t2 & -> & A2). change (negb (Z.of_N 32 =? 32)%Z) with false. cbv iota.
    destruct (status_at code _ t2 _ 0%Z A2 Hc) as (t3 & E & A3). rewrite Lc in E. rewrite E. clear E.
    destruct (get_at read content H1 t3 _ 32%N _ A3) as (t4 & -> & A4). change (negb (Z.of_N 32 =? 32)%Z) with false. cbv iota.
    destruct (skip_upto_at reason (line_end ++ r) t4 _ fuel 13%N A4) as (t5 & -> & A5);
      [apply (lacks_not _ _ _ Lr); left; reflexivity|reflexivity|exact Hf|]. cbn [rbind].
    destruct lit_crlf as [Z3 Z4].
    destruct (proj1 (skip_literal_at read content Hr t5 _ _ crlf A5 Z3 Z4) r eq_refl) as (t6 & -> & A6). cbn [rbind].
    exists t6. split; [reflexivity|]. unfold status_line. rewrite <- !app_assoc in *. exact A6.
  Qed.

  Lemma res_header_there : forall h q t d fuel, field h -> at' t d (field_line h ++ q) -> Forall is_byte (field_line h ++ q) ->
    List.length (field_line h ++ q) < fuel ->
    exists t', http_read_header read fuel t = ROk (Some h, t') /\ at' t' (d ++ field_line h) q.
  Proof.
    intros [n v] q t d fuel (F1 & _ & F3 & F4 & F5) H Hb Hf. unfold field_line in *. cbn [fst snd] in *.
    unfold upto in F4, F5. rewrite <- !app_assoc in *. unfold http_read_header.
    apply Forall_app in Hb. destruct Hb as [B1 Hb]. apply Forall_app in Hb. destruct Hb as [_ Hb].
    apply Forall_app in Hb. destruct Hb as [B2 _]. rewrite !app_length in Hf.
    destruct (upto_at n _ t d fuel 58%N [] 1024 H B1) as (t1 & -> & A1);
      [apply (lacks_not _ _ _ F1); left; reflexivity|reflexivity|lia|simpl; lia|].
    cbn [rbind negb app]. destruct lit_colon as [Z1 Z2].
    destruct (proj1 (skip_literal_at read content Hr t1 _ _ (L ": ") A1 Z1 Z2) _ eq_refl) as (t2 & -> & A2). cbn [rbind negb].
    destruct (upto_at v _ t2 _ fuel 13%N [] 1024 A2 B2) as (t3 & -> & A3);
      [apply (lacks_not _ _ _ F3); left; reflexivity|reflexivity|lia|simpl; lia|].
    cbn [rbind negb app]. destruct lit_crlf as [Z3 Z4].
    destruct (proj1 (skip_literal_at read content Hr t3 _ _ crlf A3 Z3 Z4) q eq_refl) as (t4 & -> & A4). cbn [rbind negb].
    exists t4. split; [reflexivity|]. rewrite <- !app_assoc in A4. exact A4.
  Qed.
  Lemma res_headers_there : forall fs hs t d q fuel rounds, Forall field fs ->
    at' t d (List.concat (List.map field_line fs) ++ line_end ++ q) -> Forall is_byte (List.concat (List.map field_line fs) ++ line_end ++ q) ->
    List.length (List.concat (List.map field_line fs) ++ line_end ++ q) < fuel -> List.length fs < rounds -> List.length (hs ++ fs) <= 100 ->
    exists t', http_res_headers read fuel rounds t hs = ROk (Some (hs ++ fs), t') /\ at' t' (d ++ List.concat (List.map field_line fs) ++ line_end) q.
  Proof.
    induction fs as [|h fs IH]; intros hs t d q fuel rounds Hf H Hb Hl Hr0 Hn; (destruct rounds as [|rounds]; [simpl in Hr0; lia|]);
      cbn [http_res_headers List.map List.concat app] in *; destruct lit_crlf as [Z3 Z4].
    - destruct (more_at read content H1 t d _ H) as (t0 & -> & A). cbn [line_end app negb].
      destruct (proj1 (skip_literal_at read content Hr t0 _ _ crlf A Z3 Z4) q eq_refl) as (t1 & -> & A1). cbn [rbind].
      exists t1. rewrite app_nil_r. auto.
    - rewrite <- !app_assoc in H, Hb, Hl. destruct (more_at read content H1 t d _ H) as (t0 & E & A).
      replace (match field_line h ++ List.concat (List.map field_line fs) ++ line_end ++ q with [] => false | _ => true end) with true in E
        by (unfold field_line; destruct (fst h); reflexivity).
      rewrite E. clear E. cbn [negb].
      assert (Nq : forall q0, field_line h ++ List.concat (List.map field_line fs) ++ line_end ++ q <> crlf ++ q0).
      { intros q0 E. destruct (Forall_inv Hf) as (_ & K & _). unfold field_line in E. rewrite <- !app_assoc in E.
        destruct h as [[|a [|b n]] v]; cbn [fst snd] in *; [discriminate|cbn in E; injection E; intros; discriminate|].
        cbn in E. injection E. intros _ -> ->. apply (K (n ++ L ": ")). reflexivity. }
      destruct (proj2 (skip_literal_at read content Hr t0 _ _ crlf A Z3 Z4) Nq) as (t1 & -> & A1). cbn [rbind].
      assert (Ln : List.length hs + S (List.length fs) <= 100) by (rewrite app_length in Hn; exact Hn).
      destruct (Nat.leb_spec 100 (List.length hs)); [lia|].
      destruct (res_header_there h _ t1 d fuel (Forall_inv Hf) A1 Hb Hl) as (t2 & -> & A2). cbn [rbind].
      destruct (IH (hs ++ [h]) t2 _ q fuel rounds (Forall_inv_tail Hf) A2) as (t3 & -> & A3).
      + apply Forall_app in Hb. exact (proj2 Hb).
      + rewrite app_length in Hl. lia.
      + simpl in Hr0. lia.
      + rewrite !app_length. simpl. lia.
      + exists t3. rewrite <- !app_assoc in *. auto.
  Qed.

  Lemma body_at : forall x r t d acc, at' t d (x ++ r) -> Forall is_byte x -> ~ In 255%N x -> (N.of_nat (List.length acc + List.length x) <= 1000)%N ->
    exists t', http_body read (List.length x) t acc = ROk (true, acc ++ x, t') /\ at' t' (d ++ x) r.
  Proof.
    induction x as [|c x IH]; intros r t d acc H Hb Hi Hl; cbn [List.length http_body].
    - exists t. rewrite !app_nil_r. auto.
    - cbn [app] in H. destruct (get_at read content H1 t d c _ H) as (t1 & -> & A). pose proof (Forall_inv Hb) as K. unfold is_byte in K.
      rewrite (z_byte_of c) by exact K.
      assert (Kc : c <> 255%N) by (intros ->; apply Hi; left; reflexivity).
      replace (schar c =? -1)%Z with false by (symmetry; apply Z.eqb_neq; unfold schar; destruct (N.ltb_spec c 128); lia).
      cbn [List.length] in Hl. destruct (N.ltb_spec (N.of_nat (List.length acc)) 1000); [|lia].
      destruct (IH r t1 _ (acc ++ [c]) A (Forall_inv_tail Hb)) as (t2 & -> & A2); [intros Hin; apply Hi; right; exact Hin|rewrite app_length; simpl; lia|].
      exists t2. rewrite <- !app_assoc in *. auto.
  Qed.
  Lemma body_short : forall x t d acc n, at' t d x -> Forall is_byte x -> List.length x < n -> (N.of_nat (List.length acc + List.length x) <= 1000)%N ->
    exists b t', http_body read n t acc = ROk (false, b, t').
  Proof.
    induction x as [|c x IH]; intros t d acc n H Hb Hn Hl; (destruct n as [|n]; [lia|]); cbn [http_body].
    - destruct (get_end read content H1 t d H) as (t1 & -> & _). exists acc, t1. reflexivity.
    - destruct (get_at read content H1 t d c _ H) as (t1 & -> & A). rewrite (z_byte_of c) by exact (Forall_inv Hb).
      destruct (schar c =? -1)%Z; [eexists; eexists; reflexivity|]. cbn [List.length] in *.
      destruct (N.ltb_spec (N.of_nat (List.length acc)) 1000); [|lia].
      apply (IH t1 _ (acc ++ [c]) n A (Forall_inv_tail Hb)); [lia|rewrite app_length; simpl; lia].
  Qed.
  Lemma rest_at : forall x t d acc fuel, at' t d x -> Forall is_byte x -> List.length x < fuel -> (N.of_nat (List.length acc + List.length x) < 1000)%N ->
    exists t', http_rest read fuel t acc = ROk (acc ++ x, t') /\ at' t' (d ++ x) [].
  Proof.
    induction x as [|c x IH]; intros t d acc fuel H Hb Hf Hl; (destruct fuel as [|fuel]; [simpl in Hf; lia|]); cbn [http_rest];
      destruct (more_at read content H1 t d _ H) as (t0 & -> & A); cbn [negb].
    - exists t0. rewrite !app_nil_r. auto.
    - cbn [List.length] in *. destruct (N.eqb_spec (N.of_nat (List.length acc) + 1) 1000); [lia|].
      destruct (get_at read content H1 t0 d c _ A) as (t1 & -> & A1). rewrite (z_byte_of c) by exact (Forall_inv Hb).
      destruct (IH t1 _ (acc ++ [c]) fuel A1 (Forall_inv_tail Hb)) as (t2 & -> & A2); [lia|rewrite app_length; simpl; lia|].
      exists t2. rewrite <- !app_assoc in *. auto.
  Qed.
End Steps.

Lemma digits_prefix_all : forall ds, Forall (fun d => (48 <= d <= 57)%N) ds -> digits_prefix ds = ds.
Proof.
  induction ds as [|c ds IH]; intros H; cbn [digits_prefix]; [reflexivity|]. pose proof (Forall_inv H) as K. cbn beta in K.
  replace (c_isdigit c) with true by (symmetry; unfold c_isdigit; apply andb_true_iff; split; apply N.leb_le; lia).
  rewrite IH by exact (Forall_inv_tail H). reflexivity.
Qed.
Lemma atoi_digits : forall ds, ds <> [] -> Forall (fun d => (48 <= d <= 57)%N) ds -> (0 <= digits_value ds <= 2147483647)%Z ->
  c_atoi (cstr ds) = ROk (digits_value ds).
Proof.
  intros ds Hn H Hv. rewrite cstr_id by (intros Hi; rewrite Forall_forall in H; apply H in Hi; lia). unfold c_atoi.
  destruct ds as [|c ds]; [destruct Hn; reflexivity|]. pose proof (Forall_inv H) as K. cbn beta in K. cbn [drop_while].
  replace (c_isspace c) with false by (symmetry; unfold c_isspace; repeat first [apply orb_false_iff; split | apply N.eqb_neq; lia | apply andb_false_iff; right; apply N.leb_gt; lia | apply andb_false_iff; left; apply N.leb_gt; lia]).
  cbv zeta. destruct (N.eqb_spec c 45); [lia|]. destruct (N.eqb_spec c 43); [lia|]. rewrite digits_prefix_all by exact H.
  fold (digits_value (c :: ds)). destruct (Z.ltb_spec (digits_value (c :: ds)) (-2147483648)); [lia|].
  destruct (Z.ltb_spec 2147483647 (digits_value (c :: ds))); [lia|]. reflexivity.
Qed.

Lemma field_value_unique : forall n fs a b, field_value n fs a -> field_value n fs b -> a = b.
Proof.
  intros n fs a b H. revert b. induction H; intros b Hb; inversion Hb; subst; auto; try (exfalso; auto; fail); congruence.
Qed.
Lemma header_of : forall fs n o, Forall sendable fs -> field_value n fs o ->
  match o with
  | Some v => exists h, http_get_header fs n = Some h /\ snd h = v
  | None => http_get_header fs n = None
  end.
Proof.
  intros fs n o Hs H. assert (Hz : Forall (fun h => ~ In 0%N (fst h)) fs).
  { eapply Forall_impl; [|exact Hs]. intros h K. exact (proj2 (proj1 K)). }
  pose proof (field_value_unique _ _ _ _ H (C99_header fs n Hz)) as E. subst o. destruct (http_get_header fs n) as [h|]; cbn [option_map]; [|reflexivity].
  exists h. auto.
Qed.

(** [parse_response] reads a response: one with a length, one that goes on to the end of the
    connection; one that is shorter than it says is refused. *)
Theorem C100_read_partial : forall R (read : read_fn R) content, reads_fully read content ->
  forall src fuel v code reason fs body, Forall is_byte (content src) -> List.length (content src) < fuel ->
  response_head (content src) v code reason fs body -> Forall sendable fs -> List.length fs <= 100 ->
  (forall x rest, body = x ++ rest -> announces fs (List.length x) -> upto 1000 x -> ~ In 255%N x ->
     exists r t d, http_parse_response read fuel src = ROk (Some r, t) /\ at_ content t d rest /\
       rs_version r = v /\ rs_status r = digits_value code /\ rs_headers r = fs /\ rs_body r = x /\
       rs_content_length r = Z.of_nat (List.length x)) /\
  (until_closed fs -> upto 999 body ->
     exists r t d, http_parse_response read fuel src = ROk (Some r, t) /\ at_ content t d [] /\
       rs_version r = v /\ rs_status r = digits_value code /\ rs_headers r = fs /\ rs_body r = body) /\
  (forall n, announces fs n -> (Z.of_nat n <= 2147483647)%Z -> List.length body < n -> upto 1000 body ->
     exists t, http_parse_response read fuel src = ROk (None, t)).
Proof.
  intros R read content Hr src fuel v code reason fs body Hb Hf (E & Hv & Lc & Hc & Hre & Ff) Hs Hn. unfold char in *.
  assert (A0 : at_ content (tok_new src) [] (status_line v code reason ++ line_end ++ List.concat (List.map field_line fs) ++ line_end ++ body)).
  { replace (status_line v code reason ++ line_end ++ List.concat (List.map field_line fs) ++ line_end ++ body) with (content src);
      [apply new_at|]. rewrite E. unfold head_text. rewrite <- !app_assoc. reflexivity. }
  rewrite E in Hb, Hf. unfold head_text in Hb, Hf. rewrite <- !app_assoc in Hb, Hf.
  assert (Lr : List.length reason < fuel).
  { unfold status_line in Hf. rewrite !app_length in Hf. unfold char in *. lia. }
  destruct (status_line_at read content Hr v code reason _ _ _ fuel Hv Lc Hc Hre A0 Lr) as (t1 & E1 & A1).
  apply Forall_app in Hb. destruct Hb as [_ Hb]. apply Forall_app in Hb. destruct Hb as [_ Hb].
  assert (Lf : List.length (List.concat (List.map field_line fs) ++ line_end ++ body) < fuel).
  { rewrite app_length in Hf. rewrite (app_length line_end) in Hf. unfold char in *. lia. }
  assert (Lk : List.length fs < fuel).
  { assert (G : List.length fs <= List.length (List.concat (List.map field_line fs))).
    { clear. induction fs as [|h fs IH]; cbn [List.map List.concat List.length]; [lia|]. rewrite app_length. unfold field_line at 1.
      rewrite !app_length. unfold char in *. change (List.length line_end) with 2. lia. }
    rewrite app_length in Lf. lia. }
  destruct (res_headers_there read content Hr fs [] t1 _ body fuel fuel Ff A1 Hb Lf Lk Hn) as (t2 & E2 & A2). cbn [app] in E2.
  apply Forall_app in Hb. destruct Hb as [_ Hb]. apply Forall_app in Hb. destruct Hb as [_ Hb]. clear A0 A1.
  split; [|split].
  - intros x rest -> (ds & Hd & D1 & D2 & D3) Ux Nx. unfold upto in Ux. destruct (header_of fs _ _ Hs Hd) as (h & G & Eh).
    unfold http_parse_response. rewrite E1. cbn [rbind]. rewrite E2. cbn [rbind]. unfold http_read_body. rewrite G, Eh.
    rewrite (atoi_digits ds D1 D2) by lia. cbn [rbind]. rewrite D3, Nat2Z.id.
    apply Forall_app in Hb. destruct (body_at read content Hr x rest t2 _ [] A2 (proj1 Hb) Nx) as (t3 & -> & A3); [simpl; lia|]. cbn [rbind app].
    eexists. eexists. eexists. split; [reflexivity|]. split; [exact A3|]. repeat split.
  - intros [Hu1 Hu2] Ub. unfold upto in Ub. pose proof (header_of fs _ _ Hs Hu1) as G1. destruct (header_of fs _ _ Hs Hu2) as (h & G2 & Eh).
    unfold http_parse_response. rewrite E1. cbn [rbind]. rewrite E2. cbn [rbind]. unfold http_read_body. rewrite G1, G2, Eh.
    change (bytes_eqb (cstr (L "close")) (L "close")) with true. cbv iota.
    destruct (rest_at read content Hr body t2 _ [] fuel A2 Hb) as (t3 & -> & A3); [rewrite !app_length in Lf; lia|simpl; lia|]. cbn [rbind app].
    eexists. eexists. eexists. split; [reflexivity|]. split; [exact A3|]. repeat split.
  - intros n (ds & Hd & D1 & D2 & D3) Hnn Hlt Ub. unfold upto in Ub. destruct (header_of fs _ _ Hs Hd) as (h & G & Eh).
    unfold http_parse_response. rewrite E1. cbn [rbind]. rewrite E2. cbn [rbind]. unfold http_read_body. rewrite G, Eh.
    rewrite (atoi_digits ds D1 D2) by lia. cbn [rbind]. rewrite D3, Nat2Z.id.
    destruct (body_short read content Hr body t2 _ [] n A2 Hb Hlt) as (b & t3 & ->); [simpl; lia|]. cbn [rbind]. eexists. reflexivity.
Qed.
Lemma digits_ok : forall s, forallb (fun d => (48 <=? d) && (d <=? 57))%N s = true -> Forall (fun d => (48 <= d <= 57)%N) s.
Proof.
  intros s H. rewrite forallb_forall in H. apply Forall_forall. intros d Hd. apply H in Hd. apply andb_true_iff in Hd.
  destruct Hd as [A B]. apply N.leb_le in A. apply N.leb_le in B. lia.
Qed.
Definition sample_fields : list (bytes * bytes) := [(L "Server", L "a: b"); (L "Content-Length", L "4")].
Definition sample_response : bytes := head_text (status_line (L "HTTP/1.1") (L "404") (L "Not Found")) sample_fields ++ L "body" ++ L "HTTP".
Example C100_read_case : response_head sample_response (L "HTTP/1.1") (L "404") (L "Not Found") sample_fields (L "body" ++ L "HTTP") /\
  announces sample_fields 4 /\ Forall sendable sample_fields.
Proof.
  assert (F : Forall field sample_fields).
  { repeat constructor; cbn [fst snd]; try (cbv; discriminate); try (intros c Hc [<-|[]]; repeat (destruct Hc as [Hc|Hc]; [discriminate|]); destruct Hc). }
  split; [|split].
  - split; [reflexivity|]. split; [right; reflexivity|]. split; [reflexivity|]. split; [apply digits_ok; reflexivity|].
    split; [|exact F]. intros c Hc [<-|[]]. repeat (destruct Hc as [Hc|Hc]; [discriminate|]). destruct Hc.
  - exists (L "4"). split; [apply fv_later; [discriminate|apply fv_here]|]. split; [discriminate|]. split; [apply digits_ok; reflexivity|reflexivity].
  - repeat constructor; cbn; try discriminate; try (intros H; repeat (destruct H as [H|H]; [discriminate|]); destruct H).
Qed.

(** A byte 255 in the body ends it. *)
Definition response_255 : bytes := head_text (status_line (L "HTTP/1.1") (L "200") (L "OK")) [(L "Content-Length", L "2")] ++ [255; 65]%N.
Theorem C100_byte_refuted : response_head response_255 (L "HTTP/1.1") (L "200") (L "OK") [(L "Content-Length", L "2")] [255; 65]%N /\
  announces [(L "Content-Length", L "2")] 2 /\ exists t, http_parse_response mem_read 100 response_255 = ROk (None, t).
Proof.
  split; [|split].
  - split; [reflexivity|]. split; [right; reflexivity|]. split; [reflexivity|]. split; [apply digits_ok; reflexivity|]. split.
    + intros c Hc [<-|[]]. repeat (destruct Hc as [Hc|Hc]; [discriminate|]). destruct Hc.
    + repeat constructor; cbn [fst snd]; try (cbv; discriminate); intros c Hc [<-|[]]; repeat (destruct Hc as [Hc|Hc]; [discriminate|]); destruct Hc.
  - exists (L "2"). split; [apply fv_here|]. split; [discriminate|]. split; [apply digits_ok; reflexivity|reflexivity].
  - eexists. vm_compute. reflexivity.
Qed.
(** A response with neither length nor [Connection], one with a longer body, one with a
    negative length, one that stays open. *)
Definition response_with (fs : list (bytes * bytes)) (body : bytes) : bytes :=
  head_text (status_line (L "HTTP/1.1") (L "200") (L "OK")) fs ++ body.
Theorem C100_bodies_refuted :
  http_parse_response mem_read 100 (response_with [] []) = RUndefined /\
  http_parse_response mem_read (N.to_nat 2000) (response_with [(L "Content-Length", L "1001")] (repeat 65%N (N.to_nat 1001))) = RUndefined /\
  http_parse_response mem_read 100 (response_with [(L "Connection", L "keep-alive")] []) = RPanic /\
  (exists r t, http_parse_response mem_read 100 (response_with [(L "Content-Length", L "-1")] []) = ROk (Some r, t) /\ rs_content_length r = (-1)%Z).
Proof.
  split; [vm_compute; reflexivity|]. split; [vm_compute; reflexivity|]. split; [vm_compute; reflexivity|].
  eexists. eexists. split; vm_compute; reflexivity.
Qed.

(** * Answers of a server *)

Lemma dec_text_natural : forall fuel n, (n < 10 ^ N.of_nat fuel)%N -> 0 < fuel ->
  Forall (fun d => (48 <= d <= 57)%N) (dec_text fuel n) /\ digits_value (dec_text fuel n) = Z.of_N n /\
  (forall c t, dec_text fuel n = c :: t -> c = 48%N -> n = 0%N /\ t = []) /\ dec_text fuel n <> [].
Proof.
  induction fuel as [|fuel IH]; intros n Hn Hf; [lia|]. cbn [dec_text].
  assert (M : (n mod 10 < 10)%N) by (apply N.mod_lt; lia). pose proof (N.div_mod n 10 ltac:(lia)) as D.
  destruct (N.ltb_spec n 10) as [Hl|Hl].
  - cbn [app]. assert (E : (n mod 10 = n)%N) by (apply N.mod_small; exact Hl). rewrite E. split; [constructor; [lia|constructor]|].
    split; [unfold digits_value; cbn [fold_left]; lia|]. split; [|discriminate]. intros c t K Kc.
    pose proof (f_equal (hd 0%N) K) as K1. pose proof (f_equal (@tl N) K) as K2. cbn [hd tl] in K1, K2. split; [lia|symmetry; exact K2].
  - assert (Hq : (n / 10 < 10 ^ N.of_nat fuel)%N).
    { apply N.div_lt_upper_bound; [lia|]. rewrite Nat2N.inj_succ, N.pow_succ_r' in Hn. exact Hn. }
    assert (G1 : (1 <= n / 10)%N) by (apply N.div_le_lower_bound; lia).
    assert (Hp : 0 < fuel) by (destruct fuel; [change (10 ^ N.of_nat 0)%N with 1%N in Hq; lia|lia]).
    destruct (IH _ Hq Hp) as (A & B & C & Z).
    split; [apply Forall_app; split; [exact A|constructor; [generalize dependent (n mod 10)%N; intros; lia|constructor]]|].
    split; [unfold digits_value in *; rewrite fold_left_app; cbn [fold_left]; rewrite B; clear - D; generalize dependent (n mod 10)%N; generalize (n / 10)%N; intros; lia|].
    split; [|intros K; apply app_eq_nil in K; destruct K; discriminate].
    intros c t K Kc. destruct (dec_text fuel (n / 10)) as [|x l]; [destruct (Z eq_refl)|]. cbn [app] in K. injection K as -> _.
    destruct (C _ _ eq_refl Kc) as [C0 _]. lia.
Qed.
Lemma length_text : forall n, (n < 10 ^ 20)%N -> natural (Z.of_N n) (dec_text 20 n).
Proof.
  intros n Hn. destruct (dec_text_natural 20 n Hn ltac:(lia)) as (A & B & C & Z). split; [exact Z|]. split; [exact A|]. split; [exact B|].
  intros t E. exact (proj2 (C _ _ E eq_refl)).
Qed.

(** [method_from_string] knows the methods by their names in any case, and no others. *)
Theorem C99_methods : forall s, let m := http_method_from_string s in
  (forall k name, method_name k name -> (m = k <-> List.map fold_case s = List.map fold_case name)) /\
  (m = 0%Z \/ exists name, method_name m name).
Proof.
  intros s. cbv zeta. unfold http_method_from_string.
  assert (D : forall a b : bytes, str_casecmp s a = true -> str_casecmp s b = true -> List.map fold_case a = List.map fold_case b).
  { intros a b H1 H2. apply C81_casecmp in H1, H2. congruence. }
  assert (Q : forall a, str_casecmp s a = false -> List.map fold_case s <> List.map fold_case a).
  { intros a H K. apply C81_casecmp in K. congruence. }
  destruct (str_casecmp s (L "GET")) eqn:E1; [|destruct (str_casecmp s (L "POST")) eqn:E2; [|destruct (str_casecmp s (L "HEAD")) eqn:E3]].
  - split; [|right; exists (L "GET"); left; auto]. apply C81_casecmp in E1.
    intros k name [[-> ->]|[[-> ->]|[-> ->]]]; split; try discriminate; auto; intros K; rewrite K in E1; discriminate.
  - split; [|right; exists (L "POST"); right; left; auto]. apply C81_casecmp in E2. apply Q in E1.
    intros k name [[-> ->]|[[-> ->]|[-> ->]]]; split; try discriminate; auto; intros K; try (destruct (E1 K)); rewrite K in E2; discriminate.
  - split; [|right; exists (L "HEAD"); right; right; auto]. apply C81_casecmp in E3. apply Q in E1, E2.
    intros k name [[-> ->]|[[-> ->]|[-> ->]]]; split; try discriminate; auto; intros K; try (destruct (E1 K)); try (destruct (E2 K)).
  - apply Q in E1, E2, E3. split; [|left; reflexivity].
    intros k name [[-> ->]|[[-> ->]|[-> ->]]]; split; try discriminate; intros K; try (destruct (E1 K)); try (destruct (E2 K)); destruct (E3 K).
Qed.
Example C99_methods_case : http_method_from_string (L "pOsT") = 2%Z /\ http_method_from_string (L "PUT") = 0%Z.
Proof. split; reflexivity. Qed.

(** [serve_text] sends the text, as a recipient that takes single line feeds understands it. *)
Theorem C100_served_partial : forall version s content_type, upto 9 version -> ~ In 10%N version -> ~ In 10%N content_type -> upto 900 content_type ->
  (N.of_nat (List.length s) < 10 ^ 20)%N -> exists t, http_serve_text version s content_type = ROk t /\ carries t s.
Proof.
  intros version s ct Uv Nv Nc Uc Hs. pose proof (length_text _ Hs) as Hd. set (ds := dec_text 20 (N.of_nat (List.length s))) in *.
  assert (Ld : List.length ds <= 20).
  { subst ds. generalize (N.of_nat (List.length s)) as n. assert (G : forall f n, List.length (dec_text f n) <= f).
    { induction f as [|f IH]; intros n; cbn [dec_text]; [simpl; lia|]. rewrite app_length. cbn [List.length]. destruct (n <? 10)%N; [simpl; lia|]. specialize (IH (n / 10)%N). lia. }
    intros n. apply G. }
  unfold http_serve_text. fold ds. unfold sprintf1000. rewrite strcpy_fits.
  - cbn [rbind]. eexists. split; [reflexivity|].
    exists (version ++ L " 200 OK"), [(L "Content-Length", ds); (L "Content-Type", ct)], [], ds.
    split; [|split; [|split; [|split]]].
    + cbn [List.map List.concat]. unfold lf_line. cbn [fst snd]. rewrite app_nil_r.
      change (L "Content-Length: ") with (L "Content-Length" ++ L ": "). change (L "Content-Type: ") with (L "Content-Type" ++ L ": ").
      rewrite <- !app_assoc. cbn [app]. rewrite app_nil_r. reflexivity.
    + intros Hi. apply in_app_or in Hi. destruct Hi as [Hi|Hi]; [exact (Nv Hi)|]. repeat (destruct Hi as [Hi|Hi]; [discriminate|]). destruct Hi.
    + constructor; [|constructor; [|constructor]]; cbn [fst snd]; (split; [discriminate|]); split.
      * intros c Hc [<-|[<-|[]]]; repeat (destruct Hc as [Hc|Hc]; [discriminate|]); destruct Hc.
      * destruct Hd as (_ & Hd & _). rewrite Forall_forall in Hd. intros Hi. apply Hd in Hi. lia.
      * intros c Hc [<-|[<-|[]]]; repeat (destruct Hc as [Hc|Hc]; [discriminate|]); destruct Hc.
      * exact Nc.
    + apply fv_here.
    + rewrite nat_N_Z in Hd. exact Hd.
  - unfold upto in *. rewrite !app_length. unfold char in *. change (List.length (L " 200 OK")) with 7. change (List.length (L "Content-Length: ")) with 16.
    change (List.length (L "Content-Type: ")) with 14. cbn [List.length]. lia.
Qed.
Example C100_served_case : exists t, http_serve_text (L "HTTP/1.0") (L "hello") (L "text/plain") = ROk t /\
  t = L "HTTP/1.0 200 OK" ++ [10%N] ++ L "Content-Length: 5" ++ [10%N] ++ L "Content-Type: text/plain" ++ [10; 10]%N ++ L "hello".
Proof. eexists. split; vm_compute; reflexivity. Qed.

(** What a text carries is one thing. *)
Lemma line_first : forall (a b x y : bytes), ~ In 10%N a -> ~ In 10%N b -> a ++ 10%N :: x = b ++ 10%N :: y -> a = b /\ x = y.
Proof.
  induction a as [|c a IH]; intros [|e b] x y Ha Hb E; cbn [app] in E.
  - injection E as E. auto.
  - injection E as E _. exfalso. apply Hb. left. symmetry. exact E.
  - injection E as E _. exfalso. apply Ha. left. exact E.
  - injection E as -> E. destruct (IH b x y) as [-> ->]; auto; intros Hi; [apply Ha|apply Hb]; right; exact Hi.
Qed.
Lemma lf_fields : forall fs gs x y,
  Forall (fun h => fst h <> [] /\ lacks (10%N :: L ":") (fst h) /\ ~ In 10%N (snd h)) fs ->
  Forall (fun h => fst h <> [] /\ lacks (10%N :: L ":") (fst h) /\ ~ In 10%N (snd h)) gs ->
  List.concat (List.map lf_line fs) ++ 10%N :: x = List.concat (List.map lf_line gs) ++ 10%N :: y -> fs = gs /\ x = y.
Proof.
  assert (K : forall h, fst h <> [] /\ lacks (10%N :: L ":") (fst h) /\ ~ In 10%N (snd h) -> forall r s, lf_line h ++ r <> 10%N :: s).
  { intros [[|c n] v] (A & B & _) r s E; [destruct (A eq_refl)|]. cbn in E. injection E as E _. apply (B c); [left; reflexivity|left; symmetry; exact E]. }
  assert (S1 : forall (n m x y : bytes), ~ In 58%N n -> ~ In 58%N m -> n ++ 58%N :: x = m ++ 58%N :: y -> n = m /\ x = y).
  { induction n as [|c a IH]; intros [|e b] x y Ha Hb E; cbn [app] in E.
    - injection E as E. auto.
    - injection E as E _. exfalso. apply Hb. left. symmetry. exact E.
    - injection E as E _. exfalso. apply Ha. left. exact E.
    - injection E as -> E. destruct (IH b x y) as [-> ->]; auto; intros Hi; [apply Ha|apply Hb]; right; exact Hi. }
  induction fs as [|h fs IH]; intros [|g gs] x y Hf Hg E; cbn [List.map List.concat app] in E.
  - injection E as E. auto.
  - rewrite <- app_assoc in E. exfalso. exact (K g (Forall_inv Hg) _ _ (eq_sym E)).
  - rewrite <- app_assoc in E. exfalso. exact (K h (Forall_inv Hf) _ _ E).
  - rewrite <- !app_assoc in E. destruct h as [n v], g as [m w].
    destruct (Forall_inv Hf) as (_ & Hn & Hv). destruct (Forall_inv Hg) as (_ & Hm & Hw). cbn [fst snd] in *.
    unfold lf_line in E. cbn [fst snd] in E. rewrite <- !app_assoc in E. cbn [app] in E. change (L ": ") with ([58; 32]%N) in E. cbn [app] in E.
    destruct (S1 n m _ _ (lacks_not _ 58%N _ Hn (or_intror (or_introl eq_refl))) (lacks_not _ 58%N _ Hm (or_intror (or_introl eq_refl))) E) as [-> E2].
    injection E2 as E2. destruct (line_first v w _ _ Hv Hw E2) as [-> E3].
    destruct (IH gs x y (Forall_inv_tail Hf) (Forall_inv_tail Hg) E3) as [-> ->]. auto.
Qed.
Lemma carries_once : forall t a b, carries t a -> carries t b -> a = b.
Proof.
  intros t a b (s1 & f1 & r1 & d1 & E1 & N1 & F1 & V1 & D1) (s2 & f2 & r2 & d2 & E2 & N2 & F2 & V2 & D2).
  rewrite E1 in E2. cbn [app] in E2. destruct (line_first _ _ _ _ N1 N2 E2) as [-> E3].
  destruct (lf_fields f1 f2 _ _ F1 F2 E3) as [-> E4]. pose proof (field_value_unique _ _ _ _ V1 V2) as K. injection K as <-.
  destruct D1 as (_ & _ & D1 & _). destruct D2 as (_ & _ & D2 & _). rewrite D1 in D2. apply Nat2Z.inj in D2.
  apply (f_equal (firstn (List.length a))) in E4. rewrite firstn_app, firstn_all, Nat.sub_diag, firstn_O, app_nil_r in E4.
  rewrite D2, firstn_app, firstn_all, Nat.sub_diag, firstn_O, app_nil_r in E4. exact E4.
Qed.

(** The answers for errors carry a line feed and their message without its last character:
    an empty line too many is sent. *)
Theorem C100_errors_refuted : forall version, upto 9 version -> ~ In 10%N version ->
  exists t, http_write_404 version = ROk t /\
    carries t (10%N :: L "The file was not found on the server") /\ ~ carries t (L "The file was not found on the server.").
Proof.
  intros version Uv Nv. unfold http_write_404, http_write_error, sprintf1000. unfold upto in Uv. rewrite strcpy_fits.
  - eexists. split; [reflexivity|].
    assert (C : carries (version ++ L " " ++ L "404 Not Found" ++ [10%N] ++ L "Content-Length: " ++
      dec_text 20 (N.of_nat (List.length (L "The file was not found on the server."))) ++ [10%N] ++
      L "Content-Type: text/plain" ++ [10%N] ++ [10%N] ++ [10%N] ++ L "The file was not found on the server.") (10%N :: L "The file was not found on the server")).
    { exists (version ++ L " 404 Not Found"), [(L "Content-Length", L "37"); (L "Content-Type", L "text/plain")], (L "."), (L "37").
      split; [|split; [|split; [|split]]].
      - rewrite <- !app_assoc. reflexivity.
      - intros Hi. apply in_app_or in Hi. destruct Hi as [Hi|Hi]; [exact (Nv Hi)|]. repeat (destruct Hi as [Hi|Hi]; [discriminate|]). destruct Hi.
      - constructor; [|constructor; [|constructor]]; cbn [fst snd]; (split; [discriminate|]); split;
          try (intros c Hc [<-|[<-|[]]]; repeat (destruct Hc as [Hc|Hc]; [discriminate|]); destruct Hc);
          intros Hc; repeat (destruct Hc as [Hc|Hc]; [discriminate|]); destruct Hc.
      - apply fv_here.
      - split; [discriminate|]. split; [apply digits_ok; reflexivity|]. split; [reflexivity|]. intros t E. discriminate. }
    split; [exact C|]. intros K. pose proof (carries_once _ _ _ C K) as E. discriminate.
  - rewrite !app_length. unfold char in *. vm_compute (List.length (L " ")). vm_compute (List.length (L "404 Not Found")).
    vm_compute (List.length (L "Content-Length: ")). vm_compute (dec_text _ _). vm_compute (List.length (L "Content-Type: text/plain")).
    vm_compute (List.length (L "The file was not found on the server.")). cbn [List.length]. lia.
Qed.
(** The library's client does not understand the library's server: lines end otherwise. *)
Theorem C100_own_refuted : exists x t, http_serve_text (L "HTTP/1.0") (L "hello") (L "text/plain") = ROk x /\
  http_parse_response mem_read 200 x = ROk (None, t).
Proof. eexists. eexists. split; [vm_compute; reflexivity|]. vm_compute. reflexivity. Qed.

Print Assumptions C99_methods.
Print Assumptions C100_read_partial.
Print Assumptions C100_byte_refuted.
Print Assumptions C100_bodies_refuted.
Print Assumptions C100_served_partial.
Print Assumptions C100_errors_refuted.
Print Assumptions C100_own_refuted.
