(** Cue sheets: what is read from them. *)
From Coq Require Import ZArith Lia.
From Verif Require Import LibBase LibIO LibText LibTok LibTime LibSrt LibCue SpecTok SpecText SpecTime SpecSrt SpecCue PropText PropTok PropTime PropSrt ClipFacts.

Definition ahead (t : tok bytes) (s : bytes) : Prop := exists d, at_ (fun s : bytes => s) t d s.
Lemma mr : reads mem_read (fun s => s).
Proof. apply mem_reads_fully. Qed.
Lemma a_more : forall t s, ahead t s -> exists t', tok_more mem_read t = (match s with [] => false | _ => true end, t') /\ ahead t' s.
Proof. intros t s [d H]. destruct (more_at mem_read _ mr t d s H) as (t' & E & A). exists t'. split; [exact E|exists d; exact A]. Qed.
Lemma a_peek : forall t s, ahead t s -> exists t', tok_peek mem_read t = (next s, t') /\ ahead t' s.
Proof. intros t s [d H]. destruct (peek_at mem_read _ mr t d s H) as (t' & E & A). exists t'. split; [exact E|exists d; exact A]. Qed.
Lemma a_get : forall t c s, ahead t (c :: s) -> exists t', tok_get mem_read t = (Z.of_N c, t') /\ ahead t' s.
Proof. intros t c s [d H]. destruct (get_at mem_read _ mr t d c s H) as (t' & E & A). exists t'. split; [exact E|exists (d ++ [c]); exact A]. Qed.
Lemma a_until : forall t x r fuel u len, ahead t (x ++ r) -> Forall (fun c => c < 256)%N x -> ~ In u x -> (match r with [] => True | c :: _ => c = u end) -> List.length x < fuel -> List.length x < len ->
  exists t', tok_read_until mem_read fuel t u [] len = ROk (true, x, t') /\ ahead t' r.
Proof.
  intros t x r fuel u len [d H] F Hi Hu Hf Hl. destruct (read_until_at mem_read _ mr x r t d fuel u [] len H) as (t' & E & A); auto.
  exists t'. split; [exact E|exists (d ++ x); exact A].
Qed.
Lemma a_hspaces : forall w r t fuel, ahead t (w ++ r) -> Forall blank w -> starts_not blank r -> List.length w < fuel -> exists t', tok_hspaces mem_read fuel t = ROk t' /\ ahead t' r.
Proof.
  induction w as [|c w IH]; intros r t fuel H F Hs Hf; (destruct fuel as [|fuel]; [cbn in Hf; lia|]); cbn [tok_hspaces].
  - cbn [app] in H. destruct (a_peek t r H) as (t1 & -> & A1). destruct (a_peek t1 r A1) as (t2 & E2 & A2).
    assert (K : (next r =? 32)%Z = false /\ (next r =? 9)%Z = false). { destruct r as [|c r]; [split; reflexivity|]. cbn in Hs. cbn [next]. split; apply Z.eqb_neq; intros K; apply Hs; [left|right]; lia. }
    destruct K as [K1 K2]. rewrite K1, E2, K2. cbn [orb]. exists t2. auto.
  - inversion F as [|? ? Hc F']; subst. cbn [app] in H. destruct (a_peek t _ H) as (t1 & -> & A1). destruct (a_peek t1 _ A1) as (t2 & E2 & A2). cbn [next] in *.
    destruct (Z.eqb_spec (Z.of_N c) 32) as [K|K].
    + cbn [orb]. destruct (a_get t1 c _ A1) as (t3 & -> & A3). apply (IH r t3 fuel A3 F' Hs). cbn in Hf. lia.
    + rewrite E2. destruct Hc as [->| ->]; [exfalso; apply K; reflexivity|]. cbn [orb Z.of_N Z.eqb Pos.eqb]. destruct (a_get t2 _ _ A2) as (t3 & -> & A3). apply (IH r t3 fuel A3 F' Hs). cbn in Hf. lia.
Qed.
Lemma a_skip : forall t c r, ahead t (c :: r) -> ahead (snd (tok_skip mem_read t c)) r.
Proof. intros t c r H. unfold tok_skip. destruct (a_peek t _ H) as (t1 & -> & A1). cbn [next]. rewrite Z.eqb_refl. destruct (a_get t1 c r A1) as (t2 & -> & A2). exact A2. Qed.
Lemma a_skip_no : forall t c r, ahead t r -> (match r with [] => True | x :: _ => x <> c end) -> ahead (snd (tok_skip mem_read t c)) r.
Proof.
  intros t c r H N. unfold tok_skip. destruct (a_peek t _ H) as (t1 & -> & A1). destruct (Z.eqb_spec (next r) (Z.of_N c)) as [K|K]; [|exact A1].
  exfalso. destruct r as [|x r]; cbn [next] in K; [lia|]. apply N. lia.
Qed.
Lemma ends_at : forall t e r, ahead t (e ++ r) -> (e = [] /\ no_break r) \/ line_end e -> ahead (snd (tok_skip mem_read (snd (tok_skip mem_read t 13%N)) 10%N)) r.
Proof.
  intros t e r H [[-> N]|[->| ->]].
  - apply a_skip_no; [apply a_skip_no; [exact H|]|]; destruct r; auto; destruct N; auto.
  - apply a_skip. apply a_skip_no; [exact H|cbn; discriminate].
  - apply a_skip. apply a_skip. exact H.
Qed.

(** * Parts of lines *)
Lemma title_at : forall t x q r fuel, quoted x q -> ahead t (q ++ r) -> List.length q < fuel -> exists t', cue_title fuel t = ROk (x, t') /\ ahead t' r.
Proof.
  intros t x q r fuel ((F & Hl) & Hi & ->) H Hf. unfold cue_title. cbn [app] in H. destruct (a_get t _ _ H) as (t1 & -> & A1). cbn [negb Z.of_N Z.eqb Pos.eqb].
  rewrite <- app_assoc in A1. rewrite !app_length in Hf. destruct (a_until t1 x _ fuel 34%N 100 A1) as (t2 & -> & A2); [eapply Forall_impl; [|exact F]; intros c Hc; cbn beta in Hc; tauto|exact Hi|reflexivity|cbn in Hf; lia|exact Hl|].
  cbn [rbind negb]. destruct (a_get t2 _ _ A2) as (t3 & -> & A3). exists t3. split; [reflexivity|exact A3].
Qed.
Lemma rest_at : forall t x e r fuel len, in_line (len - 2) x -> line_end e -> ahead t (x ++ e ++ r) -> List.length x + 1 < fuel ->
  exists b t', tok_read_until mem_read fuel t 10%N [] len = ROk (true, b, t') /\ ahead t' ([10%N] ++ r).
Proof.
  intros t x e r fuel len (F & Hl) He H Hf.
  assert (Fx : Forall (fun c => c < 256)%N x) by (eapply Forall_impl; [|exact F]; intros c Hc; cbn beta in Hc; tauto).
  assert (Nx : ~ In 10%N x) by (intros K; rewrite Forall_forall in F; destruct (F _ K) as [_ K']; apply K'; reflexivity).
  destruct He as [->| ->].
  - destruct (a_until t x _ fuel 10%N len H) as (t' & E & A); [exact Fx|exact Nx|reflexivity|lia|lia|]. exists x, t'. auto.
  - change ([13; 10]%N ++ r) with ([13%N] ++ [10%N] ++ r) in H. rewrite app_assoc in H. destruct (a_until t (x ++ [13%N]) _ fuel 10%N len H) as (t' & E & A).
    + apply Forall_app. split; [exact Fx|repeat constructor].
    + intros K. apply in_app_or in K. destruct K as [K|[K|[]]]; [auto|discriminate].
    + reflexivity.
    + rewrite app_length. cbn. lia.
    + rewrite app_length. cbn. lia.
    + exists (x ++ [13%N]), t'. auto.
Qed.
Lemma cue_num_at : forall ds r t fuel n ok, Forall is_digit ds -> starts_not is_digit r -> ahead t (ds ++ r) -> List.length ds < fuel -> (0 <= n)%Z -> ((n + 1) * 10 ^ Z.of_nat (List.length ds) < 2147483647)%Z -> ok = true \/ ds <> [] ->
  exists z t', cue_num fuel t n ok = ROk (z, t') /\ ahead t' r.
Proof.
  induction ds as [|c ds IH]; intros r t fuel n ok F Hs H Hf Hn Hb Hok; (destruct fuel as [|fuel]; [cbn in Hf; lia|]); cbn [cue_num].
  - cbn [app] in H. destruct (a_more t r H) as (t1 & -> & A1). destruct Hok as [->|K]; [|congruence].
    destruct r as [|c r].
    + change (z_isdigit (-1)) with false. cbv iota. exists n, t1. auto.
    + destruct (a_peek t1 _ A1) as (t2 & -> & A2). rewrite z_isdigit_next. cbn in Hs. destruct (c_isdigit c) eqn:E; [|exists n, t2; auto].
      exfalso. apply Hs. unfold c_isdigit in E. apply andb_prop in E. destruct E as [A B]. apply N.leb_le in A. apply N.leb_le in B. split; assumption.
  - inversion F as [|? ? Hc F']; subst. cbn [app] in H. destruct (a_more t _ H) as (t1 & -> & A1). cbv iota. destruct (a_peek t1 _ A1) as (t2 & -> & A2). rewrite z_isdigit_next.
    assert (E : c_isdigit c = true) by (unfold c_isdigit; destruct Hc as [A B]; apply N.leb_le in A; apply N.leb_le in B; rewrite A, B; reflexivity). rewrite E.
    destruct (a_get t2 c _ A2) as (t3 & -> & A3). cbn [List.length] in Hb, Hf. rewrite Nat2Z.inj_succ, Z.pow_succ_r in Hb by lia.
    assert (P : (1 <= 10 ^ Z.of_nat (List.length ds))%Z) by (pose proof (Z.pow_pos_nonneg 10 (Z.of_nat (List.length ds))); lia).
    assert (Bn : ((n + 1) * 10 < 2147483647)%Z) by nia. destruct Hc as [C1 C2].
    unfold int_, int_max. destruct (Z.leb_spec (- (2147483647) - 1) (n * 10)); [|lia]. destruct (Z.leb_spec (n * 10) 2147483647); [|lia]. cbn [andb rbind].
    destruct (Z.leb_spec (- (2147483647) - 1) (n * 10 + (Z.of_N c - 48))); [|lia]. destruct (Z.leb_spec (n * 10 + (Z.of_N c - 48)) 2147483647); [|lia]. cbn [andb rbind].
    apply (IH r t3 fuel _ true F' Hs A3); [lia|lia| |left; reflexivity]. assert ((n * 10 + (Z.of_N c - 48) + 1) <= (n + 1) * 10)%Z by lia. nia.
Qed.
Lemma z_byte_id : forall c, (c < 256)%N -> z_byte (Z.of_N c) = c.
Proof. intros c H. apply z_byte_of. exact H. Qed.
Lemma val_at : forall x r t fuel val, ahead t (x ++ [10%N] ++ r) -> Forall (fun c => c < 256)%N x -> ~ In 10%N x -> List.length x < fuel -> List.length val + List.length x < 299 ->
  exists t', cue_val fuel t val = ROk (val ++ x ++ [10%N], t') /\ ahead t' r.
Proof.
  induction x as [|c x IH]; intros r t fuel val H F Hi Hf Hl; (destruct fuel as [|fuel]; [cbn in Hf; lia|]); cbn [cue_val].
  - cbn [app] in H. destruct (a_more t _ H) as (t1 & -> & A1). destruct (Nat.leb_spec 300 (List.length val)); [lia|]. cbn [negb].
    destruct (a_get t1 _ _ A1) as (t2 & -> & A2). cbn [Z.of_N Z.eqb Pos.eqb]. destruct (Nat.leb_spec 299 (List.length val)); [cbn in Hl; lia|]. exists t2. auto.
  - inversion F as [|? ? Hc F']; subst. cbn [app] in H. destruct (a_more t _ H) as (t1 & -> & A1). cbn [List.length] in Hl, Hf. destruct (Nat.leb_spec 300 (List.length val)); [lia|]. cbn [negb].
    destruct (a_get t1 _ _ A1) as (t2 & -> & A2). destruct (Z.eqb_spec (Z.of_N c) 10) as [K|K]; [exfalso; apply Hi; left; lia|]. rewrite (z_byte_id c Hc).
    destruct (IH r t2 fuel (val ++ [c]) A2 F') as (t3 & -> & A3); [intros K'; apply Hi; right; exact K'|lia|rewrite app_length; cbn; lia|]. exists t3. split; [|exact A3]. rewrite <- app_assoc. reflexivity.
Qed.
Lemma short_bounds : forall n z ds, short_number n z ds -> (0 <= z < 10 ^ Z.of_nat n)%Z.
Proof.
  intros n z ds ((_ & F) & Hl & <-). pose proof (dv_bounds ds F) as K. assert (10 ^ Z.of_nat (List.length ds) <= 10 ^ Z.of_nat n)%Z by (apply Z.pow_le_mono_r; lia). lia.
Qed.
Lemma scan_short : forall n z ds r, short_number n z ds -> n <= 9 -> past r -> scan_int (ds ++ r) = ROk (Some (z, r)).
Proof.
  intros n z ds r H Hn P. pose proof (short_bounds n z ds H) as B. destruct H as (D & Hl & V). rewrite <- V. apply scan_at; [exact D|exact P|].
  assert (10 ^ Z.of_nat n <= 10 ^ 9)%Z by (apply Z.pow_le_mono_r; lia). change (10 ^ 9)%Z with 1000000000%Z in *. lia.
Qed.
Lemma index_at : forall t i z a min b sec c frames e r fuel, short_number 9 z i -> (z = 0 \/ z = 1)%Z -> short_number 6 min a -> short_number 6 sec b -> short_number 6 frames c -> line_end e ->
  ahead t ((i ++ L " " ++ a ++ L ":" ++ b ++ L ":" ++ c ++ e) ++ r) -> 60 < fuel \/ List.length (i ++ L " " ++ a ++ L ":" ++ b ++ L ":" ++ c ++ e) < fuel ->
  exists t', cue_index fuel t = ROk (EIndex min sec frames, t') /\ ahead t' r.
Proof.
  intros t i z a min b sec c frames e r fuel Hi Hz Ha Hb Hc He H Hf. unfold cue_index.
  assert (Ex : exists cr, e = cr ++ [10%N] /\ (cr = [] \/ cr = [13%N])) by (destruct He as [->| ->]; [exists []|exists [13%N]]; auto). destruct Ex as (cr & -> & Hcr).
  set (x := i ++ L " " ++ a ++ L ":" ++ b ++ L ":" ++ c ++ cr).
  assert (Ev : i ++ L " " ++ a ++ L ":" ++ b ++ L ":" ++ c ++ cr ++ [10%N] = x ++ [10%N]) by (unfold x; rewrite <- !app_assoc; reflexivity).
  rewrite Ev in *. rewrite <- app_assoc in H.
  assert (Dg : forall n z ds, short_number n z ds -> Forall (fun c => (c < 256)%N /\ c <> 10%N) ds). { intros n0 z0 ds ((_ & F) & _). eapply Forall_impl; [|exact F]. intros d [A B]. split; [lia|intros ->; lia]. }
  assert (Fx : Forall (fun c => (c < 256)%N /\ c <> 10%N) x).
  { unfold x. repeat (apply Forall_app; split); try (eapply Dg; eassumption); try (repeat constructor; discriminate). destruct Hcr as [->| ->]; [constructor|]. constructor; [|constructor]. split; [reflexivity|discriminate]. }
  assert (Lx : List.length x <= 31). { unfold x. rewrite !app_length. cbn. destruct Hi as (_ & ? & _), Ha as (_ & ? & _), Hb as (_ & ? & _), Hc as (_ & ? & _). destruct Hcr as [->| ->]; cbn; lia. }
  destruct (val_at x r t fuel [] H) as (t' & -> & A').
  { eapply Forall_impl; [|exact Fx]. intros d Hd. cbn beta in Hd. tauto. }
  { intros K. rewrite Forall_forall in Fx. destruct (Fx _ K) as [_ K']. apply K'. reflexivity. }
  { rewrite app_length in Hf. cbn in Hf. lia. }
  { cbn. lia. }
  cbn [rbind app]. rewrite <- Ev. unfold cue_scan.
  rewrite (scan_short 9 z i _ Hi ltac:(lia)) by reflexivity. cbn [rbind].
  change (scan_int (L " " ++ a ++ L ":" ++ b ++ L ":" ++ c ++ cr ++ [10%N])) with (scan_int (a ++ L ":" ++ b ++ L ":" ++ c ++ cr ++ [10%N])).
  rewrite (scan_short 6 min a _ Ha ltac:(lia)) by reflexivity. cbn [rbind]. change (L ":" ++ b ++ L ":" ++ c ++ cr ++ [10%N]) with (58%N :: b ++ L ":" ++ c ++ cr ++ [10%N]). cbv iota. cbn [N.eqb Pos.eqb negb].
  rewrite (scan_short 6 sec b _ Hb ltac:(lia)) by reflexivity. cbn [rbind]. change (L ":" ++ c ++ cr ++ [10%N]) with (58%N :: c ++ cr ++ [10%N]). cbv iota. cbn [N.eqb Pos.eqb negb].
  rewrite (scan_short 6 frames c _ Hc ltac:(lia)) by (destruct Hcr as [->| ->]; reflexivity). cbn [rbind].
  exists t'. split; [|exact A']. destruct Hz as [->| ->]; reflexivity.
Qed.
Definition entry_of (e : entry) (w : said) : Prop :=
  match e, w with
  | EOther, Nothing => True
  | ETitle x, TitleIs y => x = y
  | ETrack, NewTrack => True
  | EIndex m s f, StartsAt us => cue_pos m s f = ROk us
  | _, _ => False
  end.
Lemma pos_at : forall m s f a b c, short_number 6 m a -> short_number 6 s b -> short_number 6 f c -> cue_pos m s f = ROk (1000000 * (60 * m + s + f / 75))%Z.
Proof.
  intros m s f a b c Hm Hs Hf. apply short_bounds in Hm, Hs, Hf. change (10 ^ Z.of_nat 6)%Z with 1000000%Z in *. unfold cue_pos. rewrite Z.quot_div_nonneg by lia.
  assert (0 <= f / 75 <= f)%Z by (split; [apply Z.div_pos; lia|apply Z.div_le_upper_bound; lia]). unfold int_, int_max.
  destruct (Z.leb_spec (- (2147483647) - 1) (f / 75 + s)); [|lia]. destruct (Z.leb_spec (f / 75 + s) 2147483647); [|lia]. cbn [andb rbind].
  destruct (Z.leb_spec (- (2147483647) - 1) (60 * m)); [|lia]. destruct (Z.leb_spec (60 * m) 2147483647); [|lia]. cbn [andb rbind].
  destruct (Z.leb_spec (- (2147483647) - 1) (f / 75 + s + 60 * m)); [|lia]. destruct (Z.leb_spec (f / 75 + s + 60 * m) 2147483647); [|lia]. cbn [andb rbind]. f_equal. lia.
Qed.
Lemma data_at : forall word d w t r fuel, line_data word d w -> no_break r -> ahead t (d ++ r) -> List.length d < fuel ->
  exists e t' e', cue_data fuel word t = ROk (e, t') /\ entry_of e w /\ ahead t' (e' ++ r) /\ ((e' = [] /\ no_break r) \/ line_end e').
Proof.
  intros word d w t r fuel D Nb H Hf. destruct D as [x e Hx Hs He|x q e Hq He|x q s kind e Hq Hs Hk Hk2 He|x q e Hq He|n z s kind e Hn Hs Hk Hk2 Hd He|i z a min b sec c frames e Hi Hz Ha Hb Hc He]; unfold cue_data; cbn [bytes_eqb N.eqb Pos.eqb andb].
  all: assert (Le : 1 <= List.length e) by (destruct He as [->| ->]; cbn; lia); rewrite ?app_length in Hf.
  all: assert (L10 : line_end [10%N]) by (left; reflexivity).
  - rewrite <- app_assoc in H. destruct Hx as [Fx Lx]. destruct (rest_at t x e r fuel 1000) as (b & t' & E & A); [split; [exact Fx|lia]|exact He|exact H|lia|].
    change (bytes_eqb (L "REM") (L "REM")) with true. cbv iota. rewrite E. exists EOther, t', [10%N]. cbn [rbind]. repeat split; auto.
  - rewrite <- app_assoc in H. destruct (title_at t x q _ fuel Hq H ltac:(lia)) as (t' & E & A). change (bytes_eqb (L "PERFORMER") (L "REM")) with false. change (bytes_eqb (L "PERFORMER") (L "PERFORMER")) with true. cbv iota. rewrite E.
    exists EOther, t', e. cbn [rbind]. repeat split; auto.
  - rewrite <- !app_assoc in H. destruct (title_at t x q _ fuel Hq H ltac:(lia)) as (t' & E & A).
    destruct (a_hspaces s (kind ++ e ++ r) t' fuel A Hs) as (t2 & E2 & A2); [destruct kind; [destruct He as [->| ->]; cbn; intros [K|K]; discriminate|exact Hk2]|lia|].
    destruct (rest_at t2 kind e r fuel 20) as (b & t3 & E3 & A3); [exact Hk|exact He|exact A2|lia|].
    change (bytes_eqb (L "FILE") (L "REM")) with false. change (bytes_eqb (L "FILE") (L "PERFORMER")) with false. change (bytes_eqb (L "FILE") (L "TITLE")) with false. change (bytes_eqb (L "FILE") (L "TRACK")) with false. change (bytes_eqb (L "FILE") (L "INDEX")) with false. change (bytes_eqb (L "FILE") (L "FILE")) with true. cbv iota.
    rewrite E. cbn [rbind]. rewrite E2. cbn [rbind]. rewrite E3. exists EOther, t3, [10%N]. cbn [rbind]. repeat split; auto.
  - rewrite <- app_assoc in H. destruct (title_at t x q _ fuel Hq H ltac:(lia)) as (t' & E & A).
    change (bytes_eqb (L "TITLE") (L "REM")) with false. change (bytes_eqb (L "TITLE") (L "PERFORMER")) with false. change (bytes_eqb (L "TITLE") (L "TITLE")) with true. cbv iota. rewrite E.
    exists (ETitle x), t', e. cbn [rbind]. repeat split; auto.
  - rewrite <- !app_assoc in H. destruct Hn as ((N0 & Fn) & Ln & _).
    destruct (cue_num_at n (s ++ kind ++ e ++ r) t fuel 0 false Fn) as (z1 & t' & E & A); [|exact H|lia|lia| |right; exact N0|].
    { destruct s; [destruct kind; [destruct He as [->| ->]; cbn; unfold is_digit; lia|exact Hd]|exact Hd]. }
    { assert (10 ^ Z.of_nat (List.length n) <= 10 ^ 9)%Z by (apply Z.pow_le_mono_r; lia). change (10 ^ 9)%Z with 1000000000%Z in *. lia. }
    destruct (a_hspaces s (kind ++ e ++ r) t' fuel A Hs) as (t2 & E2 & A2); [destruct kind; [destruct He as [->| ->]; cbn; intros [K|K]; discriminate|exact Hk2]|lia|].
    destruct (rest_at t2 kind e r fuel 20) as (b & t3 & E3 & A3); [exact Hk|exact He|exact A2|lia|].
    change (bytes_eqb (L "TRACK") (L "REM")) with false. change (bytes_eqb (L "TRACK") (L "PERFORMER")) with false. change (bytes_eqb (L "TRACK") (L "TITLE")) with false. change (bytes_eqb (L "TRACK") (L "TRACK")) with true. cbv iota.
    rewrite E. cbn [rbind]. rewrite E2. cbn [rbind]. rewrite E3. exists ETrack, t3, [10%N]. cbn [rbind]. repeat split; auto.
  - destruct (index_at t i z a min b sec c frames e r fuel Hi Hz Ha Hb Hc He H) as (t' & E & A); [right; rewrite !app_length; exact Hf|].
    change (bytes_eqb (L "INDEX") (L "REM")) with false. change (bytes_eqb (L "INDEX") (L "PERFORMER")) with false. change (bytes_eqb (L "INDEX") (L "TITLE")) with false. change (bytes_eqb (L "INDEX") (L "TRACK")) with false. change (bytes_eqb (L "INDEX") (L "INDEX")) with true. cbv iota.
    rewrite E. exists (EIndex min sec frames), t', []. split; [reflexivity|]. split; [exact (pos_at min sec frames a b c Ha Hb Hc)|]. split; [exact A|left; auto].
Qed.
Lemma word_ok : forall word d w, line_data word d w -> Forall (fun c => 64 < c < 91)%N word /\ word <> [] /\ List.length word < 10 /\ starts_not blank d.
Proof.
  assert (Dg : forall n z ds r, short_number n z ds -> starts_not blank (ds ++ r)). { intros n z ds r ((N0 & F) & _). destruct ds as [|c ds]; [congruence|]. inversion F as [|? ? [A B] _]; subst. cbn. intros [->| ->]; lia. }
  assert (Dq : forall x q r, quoted x q -> starts_not blank (q ++ r)). { intros x q r (_ & _ & ->). cbn. intros [K|K]; discriminate. }
  intros word d w D. destruct D; (split; [repeat constructor|split; [discriminate|split; [cbn; lia|]]]); try (eapply Dg; eassumption); try (eapply Dq; eassumption).
  destruct x as [|c x]; [|assumption]. match goal with K : line_end e |- _ => destruct K as [->| ->] end; cbn; intros [K|K]; discriminate.
Qed.
Lemma line_start : forall l w r, cue_line l w -> no_break (l ++ r) /\ l <> [].
Proof.
  intros l w r (b & word & s & d & Fb & Fs & D & ->). destruct (word_ok word d w D) as (Fw & Nw & _). split; [|destruct b; [destruct word; [congruence|discriminate]|discriminate]].
  destruct b as [|c b].
  - destruct word as [|c word]; [congruence|]. inversion Fw; subst. cbn. split; intros ->; lia.
  - inversion Fb as [|? ? [->| ->] _]; subst; cbn; split; discriminate.
Qed.
Lemma entry_at : forall l w t r fuel, cue_line l w -> no_break r -> ahead t (l ++ r) -> List.length l < fuel ->
  exists e t', cue_entry fuel t = ROk (Some e, t') /\ entry_of e w /\ ahead t' r.
Proof.
  intros l w t r fuel Hl Nb H Hf. pose proof (line_start l w r Hl) as [_ Nl]. destruct Hl as (b & word & s & d & Fb & Fs & D & ->). destruct (word_ok word d w D) as (Fw & Nw & Lw & Sd).
  unfold cue_entry. destruct (a_more t _ H) as (t0 & E0 & A0). rewrite E0. destruct ((b ++ word ++ L " " ++ s ++ d) ++ r) as [|c0 l0] eqn:El; [apply app_eq_nil in El; destruct El; congruence|]. cbn [negb]. rewrite <- El in A0. clear E0.
  rewrite <- !app_assoc in A0. rewrite !app_length in Hf. cbn [List.length] in Hf.
  destruct (a_hspaces b _ t0 fuel A0 Fb) as (t1 & -> & A1); [destruct word as [|c word]; [congruence|]; inversion Fw; subst; cbn; intros [->| ->]; lia|lia|]. cbn [rbind].
  destruct (a_until t1 word _ fuel 32%N 100 A1) as (t2 & -> & A2); [eapply Forall_impl; [|exact Fw]; intros c Hc; cbn beta in Hc; lia|intros K; rewrite Forall_forall in Fw; specialize (Fw _ K); cbn beta in Fw; lia|reflexivity|lia|lia|]. cbn [rbind].
  change (L " " ++ s ++ d ++ r) with ((32%N :: s) ++ d ++ r) in A2.
  destruct (a_hspaces (32%N :: s) (d ++ r) t2 fuel A2) as (t3 & -> & A3); [constructor; [left; reflexivity|exact Fs]| |cbn in *; lia|].
  { destruct d as [|c d]; [exfalso; clear - D; inversion D as [x e Hx Hs He E1 E2|x q e Hq He|x q s0 kind e Hq|x q e Hq|n z s0 kind e Hn|i z a mi b0 sec c fr e Hi]; subst|exact Sd].
    - match goal with K : _ ++ _ = [] |- _ => apply app_eq_nil in K; destruct K; subst end. destruct He; discriminate.
    - destruct Hq as (_ & _ & ->). discriminate.
    - destruct Hq as (_ & _ & ->). discriminate.
    - destruct Hq as (_ & _ & ->). discriminate.
    - destruct Hn as ((N0 & _) & _). destruct n; [congruence|discriminate].
    - destruct Hi as ((N0 & _) & _). destruct i; [congruence|discriminate]. }
  cbn [rbind]. destruct (data_at word d w t3 r fuel D Nb A3) as (e & t4 & e' & -> & Ee & A4 & He'); [cbn in *; lia|]. cbn [rbind]. eexists e, _. split; [reflexivity|]. split; [exact Ee|]. exact (ends_at t4 e' r A4 He').
Qed.

(** * Sheets *)
Definition says (ts : list (bytes * Z)) (w : said) : list (bytes * Z) :=
  match w, ts with
  | TitleIs x, (_, p) :: r => (x, p) :: r
  | StartsAt p, (x, _) :: r => (x, p) :: r
  | _, _ => ts
  end.
Lemma lines_start : forall ls ws r, Forall2 cue_line ls ws -> no_break r -> no_break (concat ls ++ r).
Proof. intros ls ws r F N. destruct F as [|l w ls ws Hl F]; [exact N|]. cbn [concat]. rewrite <- app_assoc. apply (line_start l w _ Hl). Qed.
Lemma lines_at : forall ls ws t r k fuel ts, Forall2 cue_line ls ws -> no_break r -> ahead t (concat ls ++ r) -> List.length (concat ls) < fuel -> ~ In NewTrack ws ->
  (ts = [] -> Forall (fun w => w = Nothing \/ exists x, w = TitleIs x) ws) ->
  exists t', ahead t' r /\ cue_read (List.length ls + k) fuel t ts = cue_read k fuel t' (fold_left says ws ts).
Proof.
  induction ls as [|l ls IH]; intros ws t r k fuel ts F Nb H Hf Ht Hw; inversion F as [|? w ? ws' Hl F']; subst; [exists t; split; [exact H|reflexivity]|].
  cbn [concat] in H, Hf. rewrite <- app_assoc in H. rewrite app_length in Hf.
  destruct (entry_at l w t _ fuel Hl (lines_start ls ws' r F' Nb) H ltac:(lia)) as (e & t1 & E & Ee & A1).
  cbn [List.length Nat.add cue_read fold_left]. rewrite E. cbn [rbind].
  assert (Ht' : ~ In NewTrack ws') by (intros K; apply Ht; right; exact K).
  assert (Hw' : says ts w = [] -> Forall (fun w => w = Nothing \/ exists x, w = TitleIs x) ws').
  { intros K. assert (ts = []) by (destruct ts as [|[x p] ts]; [reflexivity|destruct w; discriminate K]). specialize (Hw H0). inversion Hw; assumption. }
  destruct e as [|x| |m s f], w as [|y| |us]; cbn [entry_of] in Ee; try contradiction.
  - destruct (IH ws' t1 r k fuel ts F' Nb A1 ltac:(lia) Ht') as (t' & A' & R); [destruct ts as [|[]]; exact Hw'|]. exists t'. split; [exact A'|]. rewrite R. destruct ts as [|[]]; reflexivity.
  - subst y. destruct (IH ws' t1 r k fuel (says ts (TitleIs x)) F' Nb A1 ltac:(lia) Ht' Hw') as (t' & A' & R). exists t'. split; [exact A'|]. rewrite <- R. destruct ts as [|[]]; reflexivity.
  - exfalso. apply Ht. left. reflexivity.
  - destruct ts as [|[x p] ts]; [exfalso; specialize (Hw eq_refl); inversion Hw as [|? ? [K|[y K]] _]; discriminate|].
    rewrite Ee. cbn [rbind]. exact (IH ws' t1 r k fuel ((x, us) :: ts) F' Nb A1 ltac:(lia) Ht' Hw').
Qed.
Lemma says_fold : forall ws x p ts, ~ In NewTrack ws -> fold_left says ws ((x, p) :: ts) =
  (fold_left (fun x w => match w with TitleIs y => y | _ => x end) ws x, fold_left (fun x w => match w with StartsAt y => y | _ => x end) ws p) :: ts.
Proof.
  induction ws as [|w ws IH]; intros x p ts H; [reflexivity|]. cbn [fold_left]. assert (~ In NewTrack ws) by (intros K; apply H; right; exact K).
  destruct w; cbn [says]; apply IH; assumption.
Qed.
Lemma tracks_start : forall bs trs, Forall2 cue_track bs trs -> no_break (concat bs).
Proof. intros bs trs F. destruct F as [|b tr bs trs (l & ls & ws & Hl & _ & _ & -> & _) F]; [exact I|]. cbn [concat]. rewrite <- app_assoc. apply (line_start l NewTrack _ Hl). Qed.
Lemma count_lines : forall ls ws, Forall2 cue_line ls ws -> List.length ls <= List.length (concat ls).
Proof. induction 1 as [|l w ls ws Hl F IH]; [reflexivity|]. cbn [concat List.length]. rewrite app_length. destruct (line_start l w [] Hl) as [_ N]. destruct l; [congruence|cbn; lia]. Qed.
Lemma tracks_at : forall bs trs t k fuel ts, Forall2 cue_track bs trs -> ahead t (concat bs) -> List.length (concat bs) < fuel -> List.length (concat bs) < k ->
  cue_read k fuel t ts = ROk (if Nat.leb (List.length ts + List.length trs) 100 then Some (rev ts ++ trs) else if Nat.leb (List.length ts) 100 then None else Some (rev ts ++ trs)) \/ 100 < List.length ts.
Proof.
  induction bs as [|b bs IH]; intros trs t k fuel ts F H Hf Hk; inversion F as [|? tr ? trs' Hb F']; subst; (destruct k as [|k]; [lia|]).
  - destruct (Compare_dec.le_lt_dec (List.length ts) 100) as [Hl|Hl]; [left|right; exact Hl]. cbn [cue_read]. unfold cue_entry. destruct (a_more t _ H) as (t' & -> & _). cbn [negb rbind List.length]. rewrite Nat.add_0_r, app_nil_r. destruct (Nat.leb_spec (List.length ts) 100); [reflexivity|lia].
  - destruct (Compare_dec.le_lt_dec (List.length ts) 100) as [Hl|Hl]; [left|right; exact Hl].
    destruct Hb as (l & ls & ws & Hl1 & F1 & Ht & -> & ->). cbn [concat] in H, Hf, Hk. rewrite <- !app_assoc in H. rewrite !app_length in Hf, Hk.
    destruct (entry_at l NewTrack t _ fuel Hl1 (lines_start ls ws _ F1 (tracks_start bs trs' F')) H ltac:(lia)) as (e & t1 & E & Ee & A1). destruct e; cbn in Ee; try contradiction.
    cbn [cue_read]. rewrite E. cbn [rbind List.length]. destruct (Nat.eqb_spec (List.length ts) 100) as [K|K].
    + destruct (Nat.leb_spec (List.length ts + S (List.length trs')) 100); [lia|]. destruct (Nat.leb_spec (List.length ts) 100); [reflexivity|lia].
    + pose proof (count_lines ls ws F1) as Cl. pose proof (line_start l _ [] Hl1) as [_ N1]. assert (1 <= List.length l) by (destruct l; [congruence|cbn; lia]).
      destruct (lines_at ls ws t1 (concat bs) (k - List.length ls) fuel (([], 0%Z) :: ts) F1 (tracks_start bs trs' F') A1 ltac:(lia) Ht) as (t2 & A2 & R); [discriminate|].
      replace (List.length ls + (k - List.length ls)) with k in R by lia. rewrite R, says_fold by exact Ht.
      destruct (IH trs' t2 (k - List.length ls) fuel ((last_title ws, last_start ws) :: ts) F' A2 ltac:(lia) ltac:(lia)) as [R2|R2]; [|cbn in R2; lia].
      unfold last_title, last_start in R2. rewrite R2. cbn [List.length rev]. rewrite <- !app_assoc. cbn [app]. rewrite !Nat.add_succ_r. cbn [Nat.add].
      destruct (Nat.leb_spec (S (List.length ts + List.length trs')) 100); [reflexivity|]. destruct (Nat.leb_spec (S (List.length ts)) 100); [|lia]. destruct (Nat.leb_spec (List.length ts) 100); [reflexivity|lia].
Qed.
(** The tracks of a sheet are read with their titles and positions; more than a hundred are an error. *)
Theorem C116_read_partial : forall f ts, cue_sheet f ts -> cue_parse f = ROk (if Nat.leb (List.length ts) 100 then Some ts else None).
Proof.
  intros f ts (ls & ws & bs & F & Fw & Fb & ->). unfold cue_parse. set (fuel := S _).
  assert (Hn : ~ In NewTrack ws) by (intros K; rewrite Forall_forall in Fw; destruct (Fw _ K) as [K'|[x K']]; discriminate).
  pose proof (count_lines ls ws F) as Cl. assert (Lf : fuel = S (List.length (concat ls) + List.length (concat bs))) by (unfold fuel; rewrite app_length; reflexivity).
  assert (A : ahead (tok_new (concat ls ++ concat bs)) (concat ls ++ concat bs)). { exists []. split; [reflexivity|]. exists [], []. repeat split; auto; intros []. }
  destruct (lines_at ls ws _ (concat bs) (fuel - List.length ls) fuel [] F (tracks_start bs ts Fb) A ltac:(lia) Hn (fun _ => Fw)) as (t' & A' & R).
  replace (List.length ls + (fuel - List.length ls)) with fuel in R by lia. rewrite R.
  assert (E : fold_left says ws [] = []). { clear - Fw. induction Fw as [|w ws [->|[x ->]] Fw IH]; [reflexivity|exact IH|exact IH]. }
  rewrite E. destruct (tracks_at bs ts t' (fuel - List.length ls) fuel [] Fb A' ltac:(lia) ltac:(lia)) as [K|K]; [|cbn in K; lia]. rewrite K. cbn [List.length Nat.add rev app]. reflexivity.
Qed.
(** An index before the first track is an error. *)
Theorem C116_no_track : forall ls ws l us r, Forall2 cue_line ls ws -> Forall (fun w => w = Nothing \/ exists x, w = TitleIs x) ws -> cue_line l (StartsAt us) -> no_break r ->
  cue_parse (concat ls ++ l ++ r) = ROk None.
Proof.
  intros ls ws l us r F Fw Hl Nb. unfold cue_parse. set (fuel := S _).
  assert (Hn : ~ In NewTrack ws) by (intros K; rewrite Forall_forall in Fw; destruct (Fw _ K) as [K'|[x K']]; discriminate).
  pose proof (count_lines ls ws F) as Cl. pose proof (line_start l _ r Hl) as [Nl N1]. assert (1 <= List.length l) by (destruct l; [congruence|cbn; lia]).
  assert (Lf : fuel = S (List.length (concat ls) + (List.length l + List.length r))) by (unfold fuel; rewrite !app_length; reflexivity).
  assert (A : ahead (tok_new (concat ls ++ l ++ r)) (concat ls ++ l ++ r)). { exists []. split; [reflexivity|]. exists [], []. repeat split; auto; intros []. }
  destruct (lines_at ls ws _ (l ++ r) (S (fuel - List.length ls - 1)) fuel [] F Nl A ltac:(lia) Hn (fun _ => Fw)) as (t' & A' & R).
  replace (List.length ls + S (fuel - List.length ls - 1)) with fuel in R by lia. rewrite R.
  assert (E : fold_left says ws [] = []). { clear - Fw. induction Fw as [|w ws [->|[x ->]] Fw IH]; [reflexivity|exact IH|exact IH]. }
  rewrite E. cbn [cue_read]. destruct (entry_at l _ t' r fuel Hl Nb A' ltac:(lia)) as (e & t2 & E2 & Ee & _). rewrite E2. cbn [rbind]. destruct e; cbn in Ee; try contradiction. reflexivity.
Qed.
Lemma a_get_end : forall t, ahead t [] -> exists t', tok_get mem_read t = ((-1)%Z, t').
Proof. intros t [d H]. destruct (get_end mem_read _ mr t d H) as (t' & E & _). exists t'. exact E. Qed.
Lemma hsp_total : forall fuel t s, ahead t s -> List.length s < fuel -> exists t', tok_hspaces mem_read fuel t = ROk t'.
Proof.
  intros fuel t s H Hf. assert (E : exists a b, s = a ++ b /\ Forall blank a /\ starts_not blank b).
  { clear. induction s as [|c s (a & b & -> & Fa & Sb)]; [exists [], []; repeat split; constructor|]. destruct (N.eq_dec c 32) as [->|N1]; [exists (32%N :: a), b; repeat split; [constructor; [left; reflexivity|exact Fa]|exact Sb]|].
    destruct (N.eq_dec c 9) as [->|N2]; [exists (9%N :: a), b; repeat split; [constructor; [right; reflexivity|exact Fa]|exact Sb]|]. exists [], (c :: a ++ b). repeat split; [constructor|]. intros [K|K]; congruence. }
  destruct E as (a & b & -> & Fa & Sb). rewrite app_length in Hf. destruct (a_hspaces a b t fuel H Fa Sb ltac:(lia)) as (t' & E & _). exists t'. exact E.
Qed.
(** The word of an entry. *)
Lemma type_at : forall w r t fuel, ahead t (w ++ L " " ++ r) -> Forall (fun c => (c < 256)%N /\ c <> 32%N) w -> starts_not blank w -> w <> [] -> List.length w < 100 -> starts_not blank r -> 2 <= fuel -> List.length w < fuel ->
  exists t', ahead t' r /\ cue_entry fuel t = rbind (cue_data fuel w t') (fun '(e, t) => ROk (Some e, snd (tok_skip mem_read (snd (tok_skip mem_read t 13%N)) 10%N))).
Proof.
  intros w r t fuel H F Sw Nw Lw Sr Hf Hf2. unfold cue_entry. destruct (a_more t _ H) as (t0 & E0 & A0). rewrite E0. clear E0. destruct w as [|c w]; [congruence|]. cbn [app negb].
  destruct (a_hspaces [] _ t0 fuel A0 (Forall_nil _) Sw ltac:(cbn; lia)) as (t1 & -> & A1). cbn [rbind].
  destruct (a_until t1 (c :: w) _ fuel 32%N 100 A1) as (t2 & -> & A2); [eapply Forall_impl; [|exact F]; intros x Hx; cbn beta in Hx; tauto|intros K; rewrite Forall_forall in F; destruct (F _ K) as [_ K']; apply K'; reflexivity|reflexivity|exact Hf2|exact Lw|]. cbn [rbind].
  destruct (a_hspaces [32%N] r t2 fuel A2) as (t3 & -> & A3); [constructor; [left; reflexivity|constructor]|exact Sr|cbn; lia|]. cbn [rbind]. exists t3. split; [exact A3|]. reflexivity.
Qed.
Lemma broken_at : forall s t fuel, broken s -> ahead t s -> List.length s < fuel -> cue_entry fuel t = RPanic.
Proof.
  intros s t fuel B H Hf. destruct B as [w r F Sw _ Nw Lw Hn|x (Fx & Lx) Hx|r Hd Hr].
  - rewrite app_length in Hf. cbn in Hf. unfold cue_entry. destruct (a_more t _ H) as (t0 & E0 & A0). rewrite E0. clear E0. destruct w as [|c w]; [congruence|]. cbn [app negb].
    destruct (a_hspaces [] _ t0 fuel A0 (Forall_nil _) Sw ltac:(cbn; lia)) as (t1 & -> & A1). cbn [rbind].
    destruct (a_until t1 (c :: w) _ fuel 32%N 100 A1) as (t2 & -> & A2); [eapply Forall_impl; [|exact F]; intros x Hx; cbn beta in Hx; tauto|intros K; rewrite Forall_forall in F; destruct (F _ K) as [_ K']; apply K'; reflexivity|reflexivity|cbn in Hf |- *; lia|exact Lw|]. cbn [rbind].
    destruct (hsp_total fuel t2 (L " " ++ r) A2 ltac:(cbn; lia)) as (t3 & ->). cbn [rbind].
    assert (D : cue_data fuel (c :: w) t3 = RPanic).
    { unfold cue_data. repeat match goal with |- (if bytes_eqb (c :: w) ?x then _ else _) = _ => let K := fresh "K" in destruct (bytes_eqb (c :: w) x) eqn:K; [apply bytes_eqb_eq in K; exfalso; apply Hn; rewrite K; cbn; tauto|] end. reflexivity. }
    rewrite D. reflexivity.
  - change (L "TITLE " ++ [34%N] ++ x) with (L "TITLE" ++ L " " ++ 34%N :: x) in H. cbn [app List.length] in Hf.
    destruct (type_at (L "TITLE") (34%N :: x) t fuel H) as (t' & A & ->); [repeat constructor; discriminate|intros [K|K]; discriminate|discriminate|cbn; lia|intros [K|K]; discriminate|cbn in Hf; lia|cbn in Hf |- *; lia|].
    change (cue_data fuel (L "TITLE") t') with (rbind (cue_title fuel t') (fun '(b, t) => ROk (ETitle b, t))). unfold cue_title. destruct (a_get t' _ _ A) as (t1 & -> & A1). cbn [negb Z.of_N Z.eqb Pos.eqb].
    rewrite <- (app_nil_r x) in A1. destruct (a_until t1 x [] fuel 34%N 100 A1) as (t2 & -> & A2); [eapply Forall_impl; [|exact Fx]; intros c Hc; cbn beta in Hc; tauto|exact Hx|exact I|cbn in Hf; lia|exact Lx|]. cbn [rbind negb].
    destruct (a_get_end t2 A2) as (t3 & ->). reflexivity.
  - change (L "TRACK " ++ r) with (L "TRACK" ++ L " " ++ r) in H. cbn [app List.length] in Hf.
    destruct (type_at (L "TRACK") r t fuel H) as (t' & A & ->); [repeat constructor; discriminate|intros [K|K]; discriminate|discriminate|cbn; lia|exact Hr|cbn in Hf; lia|cbn in Hf |- *; lia|].
    assert (E : cue_num fuel t' 0 false = RPanic).
    { destruct fuel as [|fuel]; [lia|]. cbn [cue_num]. destruct (a_more t' r A) as (t1 & -> & A1). destruct r as [|c r]; [reflexivity|]. destruct (a_peek t1 _ A1) as (t2 & -> & A2). rewrite z_isdigit_next. destruct (c_isdigit c) eqn:E; [|reflexivity].
      exfalso. apply Hd. unfold c_isdigit in E. apply andb_prop in E. destruct E as [P Q]. apply N.leb_le in P. apply N.leb_le in Q. split; assumption. }
    change (cue_data fuel (L "TRACK") t') with (rbind (cue_num fuel t' 0 false) (fun '(_, t) => rbind (tok_hspaces mem_read fuel t) (fun t => rbind (tok_read_until mem_read fuel t 10%N [] 20) (fun '(_, _, t) => ROk (ETrack, t))))). rewrite E. reflexivity.
Qed.
Lemma broken_start : forall r, broken r -> no_break r.
Proof. intros r B. destruct B as [w r _ _ N Nw _ _| |]; [destruct w; [congruence|exact N]|split; discriminate|split; discriminate]. Qed.
Lemma tracks_then : forall bs trs r t k fuel ts, Forall2 cue_track bs trs -> broken r -> ahead t (concat bs ++ r) -> List.length (concat bs) + List.length r < fuel -> List.length (concat bs) < k -> List.length ts + List.length trs <= 100 ->
  cue_read k fuel t ts = RPanic.
Proof.
  induction bs as [|b bs IH]; intros trs r t k fuel ts F B H Hf Hk Hl; inversion F as [|? tr ? trs' Hb F']; subst; (destruct k as [|k]; [lia|]).
  - cbn [cue_read]. cbn in Hf. rewrite (broken_at r t fuel B H Hf). reflexivity.
  - destruct Hb as (l & ls & ws & Hl1 & F1 & Ht & -> & ->). cbn [concat] in H, Hf, Hk. rewrite <- !app_assoc in H. rewrite !app_length in Hf, Hk. cbn [List.length] in Hl.
    assert (Nb : no_break (concat bs ++ r)). { destruct F' as [|b' tr' bs' trs'' (l' & ls' & ws' & Hl' & _ & _ & -> & _) F']; [exact (broken_start r B)|]. cbn [concat]. rewrite <- !app_assoc. apply (line_start l' NewTrack _ Hl'). }
    destruct (entry_at l NewTrack t _ fuel Hl1 (lines_start ls ws _ F1 Nb) H ltac:(lia)) as (e & t1 & E & Ee & A1). destruct e; cbn in Ee; try contradiction.
    cbn [cue_read]. rewrite E. cbn [rbind]. destruct (Nat.eqb_spec (List.length ts) 100) as [K|K]; [lia|].
    pose proof (count_lines ls ws F1) as Cl. pose proof (line_start l _ [] Hl1) as [_ N1]. assert (1 <= List.length l) by (destruct l; [congruence|cbn; lia]).
    destruct (lines_at ls ws t1 (concat bs ++ r) (k - List.length ls) fuel (([], 0%Z) :: ts) F1 Nb A1 ltac:(lia) Ht) as (t2 & A2 & R); [discriminate|].
    replace (List.length ls + (k - List.length ls)) with k in R by lia. rewrite R, says_fold by exact Ht. apply (IH trs' r t2 _ fuel _ F' B A2); [lia|lia|cbn [List.length]; lia].
Qed.
(** What can not be read ends the program, behind any lines and tracks. *)
Theorem C116_broken : forall f ts r, cue_sheet f ts -> List.length ts <= 100 -> broken r -> cue_parse (f ++ r) = RPanic.
Proof.
  intros f ts r (ls & ws & bs & F & Fw & Fb & ->) Hl B. rewrite <- app_assoc. unfold cue_parse. set (fuel := S _).
  assert (Nb : no_break (concat bs ++ r)). { destruct Fb as [|b' tr' bs' trs'' (l' & ls' & ws' & Hl' & _ & _ & -> & _) F']; [exact (broken_start r B)|]. cbn [concat]. rewrite <- !app_assoc. apply (line_start l' NewTrack _ Hl'). }
  assert (Hn : ~ In NewTrack ws) by (intros K; rewrite Forall_forall in Fw; destruct (Fw _ K) as [K'|[x K']]; discriminate).
  pose proof (count_lines ls ws F) as Cl. assert (Lf : fuel = S (List.length (concat ls) + (List.length (concat bs) + List.length r))) by (unfold fuel; rewrite !app_length; reflexivity).
  assert (A : ahead (tok_new (concat ls ++ concat bs ++ r)) (concat ls ++ concat bs ++ r)). { exists []. split; [reflexivity|]. exists [], []. repeat split; auto; intros []. }
  destruct (lines_at ls ws _ (concat bs ++ r) (fuel - List.length ls) fuel [] F Nb A ltac:(lia) Hn (fun _ => Fw)) as (t' & A' & R).
  replace (List.length ls + (fuel - List.length ls)) with fuel in R by lia. rewrite R.
  assert (E : fold_left says ws [] = []). { clear - Fw. induction Fw as [|w ws [->|[x ->]] Fw IH]; [reflexivity|exact IH|exact IH]. }
  rewrite E. apply (tracks_then bs ts r t' _ fuel [] Fb B A'); [lia|lia|exact Hl].
Qed.
Example C116_broken_example : broken (L "TITLE " ++ [34%N] ++ L "One") /\ broken (L "TRACK AUDIO") /\ broken (L "ISRC AB1234567890") /\ cue_parse (L "ISRC AB1234567890") = RPanic.
Proof.
  split; [apply b_title; [split; [repeat constructor; discriminate|cbn; lia]|cbn; intuition discriminate]|].
  split; [apply (b_track (L "AUDIO")); [intros [A B]; apply B; reflexivity|intros [K|K]; discriminate]|].
  assert (B : broken (L "ISRC AB1234567890")) by (apply (b_word (L "ISRC") (L "AB1234567890")); [repeat constructor; discriminate|intros [K|K]; discriminate|split; discriminate|discriminate|cbn; lia|cbn; intuition discriminate]).
  split; [exact B|]. refine (C116_broken [] [] _ _ _ B); [exists [], [], []; repeat split; constructor|cbn; lia].
Qed.
(** Frames, of which a second has 75, are lost, and a title of a hundred bytes is not read although
    a track has room for it. *)
Theorem C116_exact_refuted :
  ~ (forall ds frames, short_number 2 frames ds -> (frames < 75)%Z ->
      cue_parse (L "TRACK 01 AUDIO" ++ [10%N] ++ L "INDEX 01 00:00:" ++ ds ++ [10%N]) = ROk (Some [([], frames * 1000000 / 75)%Z])) /\
  ~ (forall x, in_line 300 x -> ~ In 34%N x ->
      cue_parse (L "TRACK 01 AUDIO" ++ [10%N] ++ L "TITLE " ++ [34%N] ++ x ++ [34; 10]%N) = ROk (Some [(x, 0%Z)])).
Proof.
  split; intros H.
  - specialize (H (L "74") 74%Z). vm_compute in H. assert (K : short_number 2 74 (L "74")) by (split; [split; [discriminate|repeat constructor; discriminate]|split; [cbn; lia|reflexivity]]). specialize (H K eq_refl). discriminate H.
  - specialize (H (repeat 97%N 100)). assert (K : in_line 300 (repeat 97%N 100)) by (split; [apply Forall_forall; intros c Hc; apply repeat_spec in Hc; subst; split; [reflexivity|discriminate]|rewrite repeat_length; lia]).
    specialize (H K ltac:(intros I; apply repeat_spec in I; discriminate)). vm_compute in H. discriminate H.
Qed.

(** Two tracks, one of them with a gap before it. *)
Definition q1 : bytes := [34%N].
Definition cue_head : list bytes := [L "REM DATE 1990" ++ [13; 10]%N; L "TITLE " ++ q1 ++ L "All" ++ q1 ++ [10%N]].
Definition cue_one : bytes := (L "  TRACK 01 AUDIO" ++ [10%N]) ++ concat [L "    TITLE " ++ q1 ++ L "One" ++ q1 ++ [10%N]; L "    INDEX 01 00:00:00" ++ [10%N]].
Definition cue_two : bytes := (L "  TRACK 02 AUDIO" ++ [10%N]) ++ concat [L "    INDEX 00 03:10:00" ++ [10%N]; L "    TITLE " ++ q1 ++ L "Two" ++ q1 ++ [10%N]; L "    INDEX 01 03:12:40" ++ [10%N]].
Example C116_example : cue_sheet (concat cue_head ++ concat [cue_one; cue_two]) [(L "One", 0%Z); (L "Two", 192000000%Z)].
Proof.
  assert (En : line_end [10%N]) by (left; reflexivity).
  assert (Fb : forall l, forallb (fun c => (c =? 32)%N) l = true -> Forall blank l). { intros l H. apply Forall_forall. intros c Hc. rewrite forallb_forall in H. specialize (H c Hc). apply N.eqb_eq in H. left. exact H. }
  assert (Il : forall n l, forallb (fun c => ((c <? 256) && (10 <? c))%N) l = true -> List.length l < n -> in_line n l). { intros n l H Hn. split; [|exact Hn]. apply Forall_forall. intros c Hc. rewrite forallb_forall in H. specialize (H c Hc). apply andb_prop in H. destruct H as [A B]. apply N.ltb_lt in A. apply N.ltb_lt in B. split; lia. }
  assert (Sn : forall n z ds, forallb c_isdigit ds = true -> ds <> [] -> List.length ds <= n -> digits_value ds = z -> short_number n z ds). { intros n z ds H N0 Hl V. split; [split; [exact N0|]|auto]. apply Forall_forall. intros c Hc. rewrite forallb_forall in H. specialize (H c Hc). unfold c_isdigit in H. apply andb_prop in H. destruct H as [A B]. apply N.leb_le in A. apply N.leb_le in B. split; assumption. }
  assert (Ti : forall b x, forallb (fun c => (c =? 32)%N) b = true -> forallb (fun c => ((c <? 256) && (40 <? c))%N) x = true -> List.length x < 100 -> cue_line (b ++ L "TITLE " ++ q1 ++ x ++ q1 ++ [10%N]) (TitleIs x)).
  { intros b x Hb Hx Hn. exists b, (L "TITLE"), [], ((q1 ++ x ++ q1) ++ [10%N]). split; [apply Fb, Hb|]. split; [constructor|]. split; [|rewrite <- !app_assoc; reflexivity]. apply (d_title x (q1 ++ x ++ q1) [10%N]); [|exact En].
    assert (G : forall c, In c x -> (40 < c < 256)%N). { intros c Hc. rewrite forallb_forall in Hx. specialize (Hx c Hc). apply andb_prop in Hx. destruct Hx as [A B]. apply N.ltb_lt in A. apply N.ltb_lt in B. split; assumption. }
    split; [split; [apply Forall_forall; intros c Hc; specialize (G c Hc); split; lia|exact Hn]|]. split; [intros K; specialize (G _ K); lia|reflexivity]. }
  assert (Tr : forall n z, short_number 9 z n -> cue_line (L "  " ++ L "TRACK " ++ n ++ L " " ++ L "AUDIO" ++ [10%N]) NewTrack).
  { intros n z Hn. exists (L "  "), (L "TRACK"), [], (n ++ L " " ++ L "AUDIO" ++ [10%N]). split; [apply Fb; reflexivity|]. split; [constructor|]. split; [|reflexivity]. apply (d_track n z (L " ") (L "AUDIO") [10%N]); [exact Hn|apply Fb; reflexivity|apply Il; [reflexivity|cbn; lia]|intros [K|K]; discriminate|intros [A B]; apply A; reflexivity|exact En]. }
  assert (Ix : forall i z a m b s c f, short_number 9 z i -> (z = 0 \/ z = 1)%Z -> short_number 6 m a -> short_number 6 s b -> short_number 6 f c -> cue_line (L "    " ++ L "INDEX " ++ i ++ L " " ++ a ++ L ":" ++ b ++ L ":" ++ c ++ [10%N]) (StartsAt (1000000 * (60 * m + s + f / 75)))).
  { intros i z a m b s c f Hi Hz Ha Hb Hc. exists (L "    "), (L "INDEX"), [], (i ++ L " " ++ a ++ L ":" ++ b ++ L ":" ++ c ++ [10%N]). split; [apply Fb; reflexivity|]. split; [constructor|]. split; [|reflexivity]. eapply d_index; eauto. }
  assert (N2 : forall z ds n, forallb c_isdigit ds = true -> ds <> [] -> List.length ds = 2 -> digits_value ds = z -> 2 <= n -> short_number n z ds) by (intros z ds n H N0 Hl V Hn; apply Sn; auto; lia).
  exists cue_head, [Nothing; TitleIs (L "All")], [cue_one; cue_two]. split; [|split; [|split; [|reflexivity]]].
  - constructor; [|constructor; [exact (Ti [] (L "All") eq_refl eq_refl ltac:(cbn; lia))|constructor]].
    exists [], (L "REM"), [], (L "DATE 1990" ++ [13; 10]%N). split; [constructor|]. split; [constructor|]. split; [|reflexivity]. apply d_rem; [apply Il; [reflexivity|cbn; lia]|intros [K|K]; discriminate|right; reflexivity].
  - constructor; [left; reflexivity|constructor; [right; exists (L "All"); reflexivity|constructor]].
  - constructor; [|constructor; [|constructor]].
    + exists (L "  TRACK 01 AUDIO" ++ [10%N]), [L "    TITLE " ++ q1 ++ L "One" ++ q1 ++ [10%N]; L "    INDEX 01 00:00:00" ++ [10%N]], [TitleIs (L "One"); StartsAt 0].
      split; [apply (Tr (L "01") 1%Z), N2; try reflexivity; [discriminate|lia]|]. split; [|split; [intros [K|[K|[]]]; discriminate|split; reflexivity]].
      constructor; [exact (Ti (L "    ") (L "One") eq_refl eq_refl ltac:(cbn; lia))|constructor; [|constructor]].
      apply (Ix (L "01") 1%Z (L "00") 0%Z (L "00") 0%Z (L "00") 0%Z); [apply N2; try reflexivity; [discriminate|lia]|right; reflexivity|apply N2; try reflexivity; [discriminate|lia]..].
    + exists (L "  TRACK 02 AUDIO" ++ [10%N]), [L "    INDEX 00 03:10:00" ++ [10%N]; L "    TITLE " ++ q1 ++ L "Two" ++ q1 ++ [10%N]; L "    INDEX 01 03:12:40" ++ [10%N]], [StartsAt 190000000; TitleIs (L "Two"); StartsAt 192000000].
      split; [apply (Tr (L "02") 2%Z), N2; try reflexivity; [discriminate|lia]|]. split; [|split; [intros [K|[K|[K|[]]]]; discriminate|split; reflexivity]].
      constructor; [|constructor; [exact (Ti (L "    ") (L "Two") eq_refl eq_refl ltac:(cbn; lia))|constructor; [|constructor]]].
      * apply (Ix (L "00") 0%Z (L "03") 3%Z (L "10") 10%Z (L "00") 0%Z); [apply N2; try reflexivity; [discriminate|lia]|left; reflexivity|apply N2; try reflexivity; [discriminate|lia]..].
      * apply (Ix (L "01") 1%Z (L "03") 3%Z (L "12") 12%Z (L "40") 40%Z); [apply N2; try reflexivity; [discriminate|lia]|right; reflexivity|apply N2; try reflexivity; [discriminate|lia]..].
Qed.
Example C116_run_example : cue_parse (concat cue_head ++ concat [cue_one; cue_two]) = ROk (Some [(L "One", 0%Z); (L "Two", 192000000%Z)]) /\ cue_parse (L "INDEX 01 00:00:00" ++ [10%N]) = ROk None.
Proof. split; [exact (C116_read_partial _ _ C116_example)|vm_compute; reflexivity]. Qed.

Print Assumptions C116_read_partial.
Print Assumptions C116_no_track.
Print Assumptions C116_broken.
Print Assumptions C116_exact_refuted.
