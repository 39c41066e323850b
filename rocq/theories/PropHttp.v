(** HTTP messages: what the library reads and writes. *)
From Coq Require Import ZArith Lia List.
From Verif Require Import LibBase LibIO LibText LibTok LibLines LibHttp SpecIO SpecText SpecTok SpecLines SpecHttp PropIO PropTok PropLines.
Import ListNotations.

(** * Reading requests *)

Lemma lacks_not : forall b c t, lacks b t -> In c b -> ~ In c t.
Proof. intros b c t H Hc Hi. exact (H c Hi Hc). Qed.
Lemma not_lacks : forall c t, ~ In c t -> lacks [c] t.
Proof. intros c t H x Hx [<-|[]]. exact (H Hx). Qed.

Lemma first_of : forall (u : byte) s, exists x r, s = x ++ r /\ ~ In u x /\ (r = [] \/ exists r', r = u :: r').
Proof.
  intros u. induction s as [|c s IH].
  - exists [], []. auto.
  - destruct (N.eq_dec c u) as [->|Hc].
    + exists [], (u :: s). split; [reflexivity|]. split; [intros []|]. right. exists s. reflexivity.
    + destruct IH as (x & r & -> & Hx & Hr). exists (c :: x), r. split; [reflexivity|]. split; [|exact Hr].
      intros [E|E]; [exact (Hc E)|exact (Hx E)].
Qed.

Section Steps.
  Context {R : Type} (read : read_fn R) (content : R -> bytes).
  Hypothesis Hr : reads_fully read content.
  Notation at' := (at_ content).
  Let H1 : reads read content := proj1 Hr.

  Lemma until_any : forall t d s fuel u len, at' t d s -> Forall is_byte s -> List.length s < fuel -> 0 < len ->
    exists ok x r t', tok_read_until read fuel t u [] len = ROk (ok, x, t') /\ s = x ++ r /\ ~ In u x /\ List.length x < len /\
      at' t' (d ++ x) r /\ (ok = true -> r = [] \/ exists r', r = u :: r').
  Proof.
    intros t d s fuel u len H Hb Hf Hl. destruct (first_of u s) as (x & r & -> & Hx & Hu).
    apply Forall_app in Hb. destruct Hb as [Hbx Hbr]. rewrite app_length in Hf.
    destruct (Nat.lt_ge_cases (List.length x) len) as [Hlt|Hge].
    - destruct (read_until_at read content H1 x r t d fuel u [] len H Hbx Hx) as (t' & E & A); [destruct Hu as [->|[r' ->]]; auto|lia|simpl; lia|].
      exists true, x, r, t'. auto 7.
    - assert (E0 : exists a c b, x = a ++ c :: b /\ List.length a = len - 1).
      { exists (firstn (len - 1) x), (nth (len - 1) x 0%N), (skipn len x). split; [|rewrite firstn_length; lia].
        rewrite <- (firstn_skipn (len - 1) x) at 1. f_equal.
        assert (G : forall (l : bytes) k, k < List.length l -> skipn k l = nth k l 0%N :: skipn (S k) l).
        { clear. induction l as [|y l IH]; intros k Hk; [simpl in Hk; lia|]. destruct k; [reflexivity|]. cbn [skipn nth]. apply IH. simpl in Hk. lia. }
        rewrite G by lia. replace (S (len - 1)) with len by lia. reflexivity. }
      destruct E0 as (a & c & b & -> & Ha). rewrite <- app_assoc in H. cbn [app] in H.
      apply Forall_app in Hbx. destruct Hbx as [Hba _].
      assert (Na : ~ In u a) by (intros Hi; apply Hx; apply in_or_app; left; exact Hi).
      assert (Nc : c <> u) by (intros ->; apply Hx; apply in_or_app; right; left; reflexivity).
      rewrite app_length in Hf.
      destruct (read_until_full read content H1 a c (b ++ r) t d fuel u [] len H Hba Na Nc) as (t' & E & A); [lia|simpl; lia|].
      exists false, a, (c :: b ++ r), t'. rewrite <- app_assoc. split; [exact E|]. split; [reflexivity|]. split; [exact Na|]. split; [lia|].
      split; [exact A|]. discriminate.
  Qed.

  Lemma skip_any : forall t d s c, at' t d s ->
    exists t', (exists r, s = c :: r /\ tok_skip read t c = (true, t') /\ at' t' (d ++ [c]) r) \/
               ((forall r, s <> c :: r) /\ tok_skip read t c = (false, t') /\ at' t' d s).
  Proof.
    intros t d s c H. unfold tok_skip. destruct (peek_at read content H1 t d s H) as (t1 & -> & A). destruct s as [|x s].
    - cbn [next]. destruct (Z.eqb_spec (-1) (Z.of_N c)); [lia|]. exists t1. right. split; [discriminate|]. split; [reflexivity|exact A].
    - cbn [next]. destruct (Z.eqb_spec (Z.of_N x) (Z.of_N c)) as [E|E].
      + apply N2Z.inj in E. subst x. destruct (get_at read content H1 t1 d c s A) as (t2 & -> & A2). exists t2. left. exists s. auto.
      + exists t1. right. split; [intros r Hq; injection Hq as -> _; apply E; reflexivity|]. split; [reflexivity|exact A].
  Qed.

  Lemma literal_any : forall t d s lit, at' t d s -> Forall (fun x => x <> 0%N) lit -> List.length lit <= 100 ->
    exists t', (exists q, s = lit ++ q /\ tok_skip_literal read t lit = ROk (true, t') /\ at' t' (d ++ lit) q) \/
               ((forall q, s <> lit ++ q) /\ tok_skip_literal read t lit = ROk (false, t') /\ at' t' d s).
  Proof.
    intros t d s lit H Hz Hl. destruct (skip_literal_at read content Hr t d s lit H Hz Hl) as [A B].
    assert (D : (exists q, s = lit ++ q) \/ (forall q, s <> lit ++ q)).
    { clear. revert s. induction lit as [|c lit IH]; intros s; [left; exists s; reflexivity|].
      destruct s as [|x s]; [right; discriminate|]. destruct (N.eq_dec x c) as [->|Hc].
      - destruct (IH s) as [[q ->]|Hn]; [left; exists q; reflexivity|]. right. intros q Hq. injection Hq as Hq. exact (Hn q Hq).
      - right. intros q Hq. injection Hq as Hq _. exact (Hc Hq). }
    destruct D as [[q Hq]|Hn].
    - destruct (A q Hq) as (t' & E & A'). exists t'. left. exists q. auto.
    - destruct (B Hn) as (t' & E & A'). exists t'. right. auto.
  Qed.

  Lemma lit_crlf : Forall (fun x => x <> 0%N) crlf /\ List.length crlf <= 100.
  Proof. split; [repeat constructor; discriminate|simpl; lia]. Qed.
  Lemma lit_colon : Forall (fun x => x <> 0%N) (L ": ") /\ List.length (L ": ") <= 100.
  Proof. split; [repeat constructor; discriminate|simpl; lia]. Qed.

  Ltac until u len H := edestruct (until_any _ _ _ _ u len H) as (? & ? & ? & ? & ? & ? & ? & ? & ? & ?).

  (** One field: read if it is there. *)
  Lemma header_there : forall h q t d fuel, field h -> at' t d (field_line h ++ q) -> Forall is_byte (field_line h ++ q) ->
    List.length (field_line h ++ q) < fuel ->
    exists t', http_header_line read fuel t = ROk (Some h, t') /\ at' t' (d ++ field_line h) q.
  Proof.
    intros [n v] q t d fuel (F1 & _ & F3 & F4 & F5) H Hb Hf. unfold field_line in *. cbn [fst snd] in *.
    unfold upto in F4, F5. rewrite <- !app_assoc in *. unfold http_header_line.
    apply Forall_app in Hb. destruct Hb as [B1 Hb]. apply Forall_app in Hb. destruct Hb as [_ Hb].
    apply Forall_app in Hb. destruct Hb as [B2 _]. rewrite !app_length in Hf.
    destruct (read_until_at read content H1 n _ t d fuel 58%N [] (N.to_nat 1024) H B1) as (t1 & -> & A1);
      [apply (lacks_not _ _ _ F1); left; reflexivity|reflexivity|lia|simpl; lia|].
    cbn [rbind negb app]. destruct lit_colon as [Z1 Z2].
    destruct (proj1 (skip_literal_at read content Hr t1 _ _ (L ": ") A1 Z1 Z2) _ eq_refl) as (t2 & -> & A2). cbn [rbind negb].
    destruct (read_until_at read content H1 v _ t2 _ fuel 13%N [] (N.to_nat 1024) A2 B2) as (t3 & -> & A3);
      [apply (lacks_not _ _ _ F3); left; reflexivity|reflexivity|lia|simpl; lia|].
    cbn [rbind negb app]. destruct lit_crlf as [Z3 Z4].
    destruct (proj1 (skip_literal_at read content Hr t3 _ _ crlf A3 Z3 Z4) q eq_refl) as (t4 & -> & A4). cbn [rbind negb].
    exists t4. split; [reflexivity|]. rewrite <- !app_assoc in A4. exact A4.
  Qed.
  (** And only then. *)
  Lemma header_any : forall s t d fuel, (forall q, s <> line_end ++ q) -> at' t d s -> Forall is_byte s -> List.length s < fuel ->
    exists t', (exists h q, field h /\ s = field_line h ++ q /\ http_header_line read fuel t = ROk (Some h, t') /\ at' t' (d ++ field_line h) q) \/
               http_header_line read fuel t = ROk (None, t').
  Proof.
    intros s t d fuel Hne H Hb Hf. unfold http_header_line.
    destruct (until_any t d s fuel 58%N (N.to_nat 1024) H Hb Hf ltac:(lia)) as (ok & n & r & t1 & -> & -> & Hn & Ln & A1 & K1).
    cbn [rbind]. destruct ok; cbn [negb]; [|exists t1; right; reflexivity].
    apply Forall_app in Hb. destruct Hb as [_ Hb]. rewrite app_length in Hf. destruct lit_colon as [Z1 Z2]. destruct lit_crlf as [Z3 Z4].
    destruct (literal_any t1 _ r (L ": ") A1 Z1 Z2) as (t2 & [(q2 & -> & -> & A2)|(_ & -> & _)]); cbn [rbind negb]; [|exists t2; right; reflexivity].
    apply Forall_app in Hb. destruct Hb as [_ Hb]. rewrite app_length in Hf.
    destruct (until_any t2 _ q2 fuel 13%N (N.to_nat 1024) A2 Hb ltac:(lia) ltac:(lia)) as (ok & v & r & t3 & -> & -> & Hv & Lv & A3 & K3).
    cbn [rbind]. destruct ok; cbn [negb]; [|exists t3; right; reflexivity].
    destruct (literal_any t3 _ r crlf A3 Z3 Z4) as (t4 & [(q4 & -> & -> & A4)|(_ & -> & _)]); cbn [rbind negb]; [|exists t4; right; reflexivity].
    exists t4. left. exists (n, v), q4. unfold field, field_line, upto, line_end. cbn [fst snd]. rewrite <- !app_assoc. rewrite <- !app_assoc in A4.
    split; [|split; [reflexivity|split; [reflexivity|exact A4]]].
    split; [apply (not_lacks 58%N); exact Hn|]. split; [|split; [apply not_lacks; exact Hv|lia]].
    intros q E. apply (Hne (q ++ v ++ crlf ++ q4)). unfold line_end. rewrite !app_assoc. rewrite E. rewrite <- !app_assoc. reflexivity.
  Qed.

  Lemma no_early_end : forall h q r, field h -> field_line h ++ q <> line_end ++ r.
  Proof.
    intros [n v] q r (_ & F & _) E. unfold field_line in E. cbn [fst snd] in *.
    destruct n as [|a [|b n]]; cbn in E.
    - discriminate.
    - discriminate.
    - injection E as -> -> E. apply (F (n ++ L ": ")). reflexivity.
  Qed.

  Lemma headers_there : forall fs q t d fuel rounds hs, Forall field fs ->
    at' t d (List.concat (List.map field_line fs) ++ line_end ++ q) -> Forall is_byte (List.concat (List.map field_line fs) ++ line_end ++ q) ->
    List.length (List.concat (List.map field_line fs) ++ line_end ++ q) < fuel ->
    List.length (List.concat (List.map field_line fs) ++ line_end ++ q) < rounds ->
    if Nat.leb (List.length (hs ++ fs)) 100
    then exists t', http_headers read fuel rounds t hs = ROk (true, hs ++ fs, t') /\ at' t' (d ++ List.concat (List.map field_line fs) ++ line_end) q
    else List.length hs <= 100 -> http_headers read fuel rounds t hs = RUndefined.
  Proof.
    induction fs as [|h fs IH]; intros q t d fuel rounds hs Hfs H Hb Hf Hrd; (destruct rounds as [|rounds]; [lia|]); cbn [http_headers].
    - cbn [List.map List.concat app] in *. destruct lit_crlf as [Z3 Z4].
      destruct (proj1 (skip_literal_at read content Hr t _ _ crlf H Z3 Z4) q eq_refl) as (t4 & -> & A4). cbn [rbind]. rewrite app_nil_r.
      destruct (Nat.leb_spec (List.length hs) 100); [|intros; lia].
      exists t4. split; [reflexivity|exact A4].
    - cbn [List.map List.concat] in *. rewrite <- !app_assoc in *. pose proof (Forall_inv Hfs) as Fh. pose proof (Forall_inv_tail Hfs) as Ft.
      destruct lit_crlf as [Z3 Z4].
      destruct (proj2 (skip_literal_at read content Hr t _ _ crlf H Z3 Z4)) as (t1 & -> & A1); [intros r; apply no_early_end; exact Fh|]. cbn [rbind].
      destruct (Nat.leb_spec 100 (List.length hs)) as [G|G].
      { destruct (Nat.leb_spec (List.length (hs ++ h :: fs)) 100) as [K|K]; [rewrite app_length in K; simpl in K; lia|]. reflexivity. }
      destruct (header_there h _ t1 d fuel Fh A1 Hb Hf) as (t2 & -> & A2). cbn [rbind].
      apply Forall_app in Hb. destruct Hb as [_ Hb]. rewrite app_length in Hf, Hrd.
      assert (Hpos : 0 < List.length (field_line h)) by (unfold field_line; rewrite !app_length; simpl; lia).
      specialize (IH q t2 _ fuel rounds (hs ++ [h]) Ft A2 Hb ltac:(lia) ltac:(lia)). rewrite <- app_assoc in IH. cbn [app] in IH.
      destruct (Nat.leb (List.length (hs ++ h :: fs)) 100).
      + destruct IH as (t3 & E & A3). exists t3. split; [exact E|]. rewrite <- !app_assoc in A3. exact A3.
      + intros _. apply IH. rewrite app_length. simpl. lia.
  Qed.

  Lemma headers_any : forall rounds s t d fuel hs, at' t d s -> Forall is_byte s -> List.length s < fuel -> List.length s < rounds -> List.length hs <= 100 ->
    exists fs rest, Forall field fs /\ s = List.concat (List.map field_line fs) ++ rest /\
      ((exists q t', rest = line_end ++ q /\ http_headers read fuel rounds t hs = ROk (true, hs ++ fs, t') /\
          at' t' (d ++ List.concat (List.map field_line fs) ++ line_end) q /\ List.length (hs ++ fs) <= 100) \/
       (exists t', http_headers read fuel rounds t hs = ROk (false, hs ++ fs, t')) \/
       (http_headers read fuel rounds t hs = RUndefined /\ List.length (hs ++ fs) = 100 /\ forall q, rest <> line_end ++ q)).
  Proof.
    induction rounds as [|rounds IH]; intros s t d fuel hs H Hb Hf Hrd Hhs; [lia|]. cbn [http_headers].
    destruct lit_crlf as [Z3 Z4].
    destruct (literal_any t d s crlf H Z3 Z4) as (t1 & [(q & -> & -> & A1)|(Hne & -> & A1)]); cbn [rbind].
    - exists [], (line_end ++ q). split; [constructor|]. split; [reflexivity|]. left. exists q, t1. rewrite app_nil_r. auto.
    - destruct (Nat.leb_spec 100 (List.length hs)) as [G|G].
      + exists [], s. split; [constructor|]. split; [reflexivity|]. right. right. rewrite app_nil_r. split; [reflexivity|]. split; [lia|exact Hne].
      + destruct (header_any s t1 d fuel Hne A1 Hb Hf) as (t2 & [(h & q & Fh & -> & -> & A2)|E]).
        * cbn [rbind]. apply Forall_app in Hb. destruct Hb as [_ Hb]. rewrite app_length in Hf, Hrd.
          assert (Hpos : 0 < List.length (field_line h)) by (unfold field_line; rewrite !app_length; simpl; lia).
          destruct (IH q t2 _ fuel (hs ++ [h]) A2 Hb ltac:(lia) ltac:(lia)) as (fs & rest & Ffs & -> & D); [rewrite app_length; simpl; lia|].
          exists (h :: fs), rest. cbn [List.map List.concat]. rewrite <- !app_assoc in *. cbn [app] in D.
          split; [constructor; assumption|]. split; [reflexivity|exact D].
        * rewrite E. cbn [rbind]. exists [], s. split; [constructor|]. split; [reflexivity|]. right. left. exists t2. rewrite app_nil_r. reflexivity.
  Qed.
End Steps.

(** The parts of an address. *)
Lemma path_query : forall u, ~ In 0%N u -> forall v m hs, let q := http_parse_query (mkReq v m [] [] hs u [] []) in
  has_query u (rq_path q) (rq_query q) /\ has_filename (rq_path q) (rq_filename q).
Proof.
  intros u Hu v m hs. unfold http_parse_query. cbn [rq_uri].
  assert (P : let '(p, r) := http_path u in u = p ++ r /\ ~ In 63%N p /\ (r = [] \/ exists r', r = 63%N :: r')).
  { clear -Hu. induction u as [|c u IH]; cbn [http_path]; [auto|].
    destruct (N.eqb_spec c 0) as [->|]; [destruct Hu; left; reflexivity|]. cbn [orb]. destruct (N.eqb_spec c 63) as [->|].
    - split; [reflexivity|]. split; [intros []|]. right. exists u. reflexivity.
    - specialize (IH (fun Hi => Hu (or_intror Hi))). destruct (http_path u) as [p r]. destruct IH as (-> & Hp & Hr).
      split; [reflexivity|]. split; [intros [E|E]; [congruence|exact (Hp E)]|exact Hr]. }
  destruct (http_path u) as [p r]. cbn [rq_path rq_query rq_filename]. destruct P as (-> & Hp & Hr). split.
  - split; [apply (not_lacks 63%N); exact Hp|]. destruct Hr as [->|[r' ->]].
    + right. rewrite app_nil_r. auto.
    + left. cbn [N.eqb Pos.eqb]. f_equal. cbn [app]. change (L "?") with [63%N]. cbn [app]. f_equal.
      assert (Hz : ~ In 0%N r') by (intros Hi; apply Hu; apply in_or_app; right; right; exact Hi).
      clear -Hz. induction r' as [|c r IH]; [reflexivity|]. cbn [cstr]. destruct (N.eqb_spec c 0) as [->|]; [destruct Hz; left; reflexivity|].
      f_equal. apply IH. intros Hi. apply Hz. right. exact Hi.
  - clear. assert (P : match http_behind_slash p with Some f => ~ In 47%N f /\ exists d, p = d ++ [47%N] ++ f | None => ~ In 47%N p end).
    { induction p as [|c p IH]; cbn [http_behind_slash]; [intros []|]. destruct (http_behind_slash p) as [f|].
      - destruct IH as (Hf & d & ->). split; [exact Hf|]. exists (c :: d). reflexivity.
      - destruct (N.eqb_spec c 47) as [->|Hc]; [split; [exact IH|]; exists []; reflexivity|]. intros [E|E]; [congruence|exact (IH E)]. }
    destruct (http_behind_slash p) as [f|].
    + destruct P as (Hf & d & ->). split; [apply (not_lacks 47%N); exact Hf|]. left. exists d. reflexivity.
    + split; [intros ? []|]. right. split; [apply (not_lacks 47%N); exact P|reflexivity].
Qed.

(** Only one path and one query. *)
Theorem C99_one_query : forall u p q p' q', has_query u p q -> has_query u p' q' -> p = p' /\ q = q'.
Proof.
  assert (G : forall (p p' a b : bytes), ~ In 63%N p -> ~ In 63%N p' -> p ++ 63%N :: a = p' ++ 63%N :: b -> p = p' /\ a = b).
  { induction p as [|c p IH]; intros [|c' p'] a b N1 N2 E; cbn [app] in E.
    - injection E as ->. auto.
    - injection E as <- _. destruct N2. left. reflexivity.
    - injection E as -> _. destruct N1. left. reflexivity.
    - injection E as -> E. destruct (IH p' a b) as [-> ->]; auto; intros Hi; [apply N1|apply N2]; right; exact Hi. }
  assert (G2 : forall (p p' a : bytes), lacks (L "?") p -> p = p' ++ L "?" ++ a -> False).
  { intros p p' a H ->. apply (H 63%N); [apply in_or_app; right; left; reflexivity|left; reflexivity]. }
  intros u p q p' q' (H1 & D1) (H2 & D2). destruct D1 as [->|[-> ->]], D2 as [D2|[D2 E2]].
  - apply G in D2; [auto| |]; eapply lacks_not; eauto; left; reflexivity.
  - symmetry in D2. destruct (G2 _ _ _ H2 D2).
  - destruct (G2 _ _ _ H1 D2).
  - subst. auto.
Qed.

Lemma new_at : forall R (content : R -> bytes) src, at_ content (tok_new src) [] (content src).
Proof.
  intros R content src. split; [reflexivity|]. exists [], []. split; [reflexivity|]. split; [constructor|]. split; [intros []|]. split; reflexivity.
Qed.

(** [read_request] succeeds exactly on the request heads with at most 100 fields that fit its
    buffers, and gives their parts; what comes behind the head has not been touched. *)
Lemma plain_app : forall a b, plain (a ++ b) -> plain a /\ plain b.
Proof.
  intros a b [H1 H2]. apply Forall_app in H1. destruct H1. split; (split; [assumption|]); intros Hi; apply H2; apply in_or_app; auto.
Qed.
Theorem C99_read : forall R (read : read_fn R) content, reads_fully read content ->
  forall src fuel, plain (content src) -> List.length (content src) < fuel ->
  (forall m u v fs rest, request_head (content src) m u v fs rest -> List.length fs <= 100 ->
     exists q t d, http_read_request read fuel src = ROk (Some q, t) /\ at_ content t d rest /\
       rq_method q = m /\ rq_uri q = u /\ rq_version q = v /\ rq_headers q = fs /\
       has_query u (rq_path q) (rq_query q) /\ has_filename (rq_path q) (rq_filename q)) /\
  (forall q t, http_read_request read fuel src = ROk (Some q, t) ->
     List.length (rq_headers q) <= 100 /\
     exists rest, request_head (content src) (rq_method q) (rq_uri q) (rq_version q) (rq_headers q) rest).
Proof.
  intros R read content Hr src fuel Hp Hf. assert (H1 := proj1 Hr). split.
  - intros m u v fs rest (E & Lm & Lu & Lv & Um & Uu & Uv & Ff) Hn. rewrite E in Hp, Hf.
    assert (A0 : at_ content (tok_new src) [] (head_text (request_line m u v) fs ++ rest)).
    { rewrite <- E. apply new_at. }
    unfold head_text, request_line in *. rewrite <- !app_assoc in *. unfold upto in Um, Uu, Uv.
    pose proof Hp as Hp0.
    apply plain_app in Hp. destruct Hp as [Pm Hp]. apply plain_app in Hp. destruct Hp as [_ Hp].
    apply plain_app in Hp. destruct Hp as [Pu Hp]. apply plain_app in Hp. destruct Hp as [_ Hp].
    apply plain_app in Hp. destruct Hp as [Pv Hp]. apply plain_app in Hp. destruct Hp as [_ Hp].
    unfold http_read_request.
    rewrite !app_length in Hf. cbn [List.length] in Hf.
    destruct (read_until_at read content H1 m _ _ [] fuel 32%N [] 10 A0 (proj1 Pm)) as (t1 & -> & A1);
      [apply (lacks_not _ _ _ Lm); left; reflexivity|reflexivity|lia|simpl; lia|].
    cbn [rbind negb app].
    destruct (skip_any read content Hr t1 _ _ 32%N A1) as (t2 & [(r & Er & -> & A2)|(Hne & _)]); [|destruct (Hne _ eq_refl)].
    injection Er as <-. cbn [negb].
    destruct (read_until_at read content H1 u _ t2 _ fuel 32%N [] (N.to_nat 1024) A2 (proj1 Pu)) as (t3 & -> & A3);
      [apply (lacks_not _ _ _ Lu); left; reflexivity|reflexivity|lia|simpl; lia|].
    cbn [rbind negb app].
    destruct (skip_any read content Hr t3 _ _ 32%N A3) as (t4 & [(r & Er & -> & A4)|(Hne & _)]); [|destruct (Hne _ eq_refl)].
    injection Er as <-. cbn [negb].
    destruct (read_until_at read content H1 v _ t4 _ fuel 13%N [] 10 A4 (proj1 Pv)) as (t5 & -> & A5);
      [apply (lacks_not _ _ _ Lv); left; reflexivity|reflexivity|unfold char in Hf; lia|clear -Uv; simpl; lia|].
    cbn [rbind negb app]. destruct lit_crlf as [Z3 Z4].
    destruct (proj1 (skip_literal_at read content Hr t5 _ _ crlf A5 Z3 Z4) _ eq_refl) as (t6 & -> & A6). cbn [rbind negb].
    assert (Hl : List.length (List.concat (List.map field_line fs) ++ line_end ++ rest) < fuel) by (rewrite !app_length; unfold char in Hf; lia).
    pose proof (headers_there read content Hr fs rest t6 _ fuel fuel [] Ff A6 (proj1 Hp) Hl Hl) as HH.
    cbn [List.length app] in HH. destruct (Nat.leb_spec (List.length fs) 100); [|lia]. destruct HH as (t7 & -> & A7). cbn [rbind negb].
    destruct (path_query u (proj2 Pu) v m []) as [Q1 Q2].
    eexists. exists t7. eexists. split; [reflexivity|]. split; [exact A7|]. cbn [rq_method rq_uri rq_version rq_headers rq_path rq_query rq_filename].
    auto 7.
  - intros q t E. unfold http_read_request in E.
    pose proof (new_at R content src) as A0.
    destruct (until_any read content Hr _ _ _ fuel 32%N 10 A0 (proj1 Hp) Hf ltac:(lia)) as (ok & m & r & t1 & E1 & Es & Nm & Lm & A1 & _).
    rewrite E1 in E. cbn [rbind] in E. destruct ok; cbn [negb] in E; [|discriminate]. rewrite Es in Hp, Hf.
    apply plain_app in Hp. destruct Hp as [Pm Hp]. rewrite app_length in Hf.
    destruct (skip_any read content Hr t1 _ _ 32%N A1) as (t2 & [(r2 & -> & E2 & A2)|(_ & E2 & _)]); rewrite E2 in E; cbn [negb] in E; [|discriminate].
    apply (plain_app [32%N]) in Hp. destruct Hp as [_ Hp]. cbn [List.length] in Hf.
    destruct (until_any read content Hr _ _ _ fuel 32%N (N.to_nat 1024) A2 (proj1 Hp) ltac:(lia) ltac:(lia)) as (ok & u & r3 & t3 & E3 & -> & Nu & Lu & A3 & _).
    rewrite E3 in E. cbn [rbind] in E. destruct ok; cbn [negb] in E; [|discriminate].
    apply plain_app in Hp. destruct Hp as [Pu Hp]. rewrite app_length in Hf.
    destruct (skip_any read content Hr t3 _ _ 32%N A3) as (t4 & [(r4 & -> & E4 & A4)|(_ & E4 & _)]); rewrite E4 in E; cbn [negb] in E; [|discriminate].
    apply (plain_app [32%N]) in Hp. destruct Hp as [_ Hp]. cbn [List.length] in Hf.
    destruct (until_any read content Hr _ _ _ fuel 13%N 10 A4 (proj1 Hp) ltac:(lia) ltac:(lia)) as (ok & v & r5 & t5 & E5 & -> & Nv & Lv & A5 & _).
    rewrite E5 in E. cbn [rbind] in E. destruct ok; cbn [negb] in E; [|discriminate].
    apply plain_app in Hp. destruct Hp as [Pv Hp]. rewrite app_length in Hf. destruct lit_crlf as [Z3 Z4].
    destruct (literal_any read content Hr t5 _ _ crlf A5 Z3 Z4) as (t6 & [(r6 & -> & E6 & A6)|(_ & E6 & _)]); rewrite E6 in E; cbn [rbind negb] in E; [|discriminate].
    apply plain_app in Hp. destruct Hp as [_ Hp]. rewrite app_length in Hf.
    destruct (headers_any read content Hr fuel _ t6 _ fuel [] A6 (proj1 Hp) ltac:(lia) ltac:(lia) ltac:(simpl; lia)) as (fs & rest & Ff & Er & D).
    cbn [app] in D. destruct D as [(q7 & t7 & -> & E7 & A7 & L7)|[(t7 & E7)|(E7 & _)]]; rewrite E7 in E; cbn [rbind negb] in E; try discriminate.
    injection E as <- <-. cbn [rq_headers rq_method rq_uri rq_version]. split; [exact L7|]. exists q7. rewrite Er in Es.
    unfold request_head, head_text, request_line, upto. rewrite <- !app_assoc. split; [exact Es|].
    split; [apply (not_lacks 32%N); exact Nm|]. split; [apply (not_lacks 32%N); exact Nu|]. split; [apply not_lacks; exact Nv|].
    split; [lia|]. split; [lia|]. split; [lia|exact Ff].
Qed.

(** The array of fields has 100 cells and no check: reading goes outside of it exactly when
    more follows 100 fields.  In all other cases there is an answer. *)
Theorem C99_room_refuted : forall R (read : read_fn R) content, reads_fully read content ->
  forall src fuel, plain (content src) -> List.length (content src) < fuel ->
  (forall m u v fs rest, request_head (content src) m u v fs rest -> 100 < List.length fs ->
     http_read_request read fuel src = RUndefined) /\
  ((exists o t, http_read_request read fuel src = ROk (o, t)) \/
   (http_read_request read fuel src = RUndefined /\
    exists m u v fs rest, content src = request_line m u v ++ line_end ++ List.concat (List.map field_line fs) ++ rest /\
      Forall field fs /\ List.length fs = 100 /\ forall r, rest <> line_end ++ r)).
Proof.
  intros R read content Hr src fuel Hp Hf. assert (H1 := proj1 Hr).
  assert (D : (exists o t, http_read_request read fuel src = ROk (o, t)) \/
   (http_read_request read fuel src = RUndefined /\
    exists m u v fs rest, content src = request_line m u v ++ line_end ++ List.concat (List.map field_line fs) ++ rest /\
      Forall field fs /\ List.length fs = 100 /\ forall r, rest <> line_end ++ r)).
  { pose proof (new_at R content src) as A0. unfold http_read_request.
    destruct (until_any read content Hr _ _ _ fuel 32%N 10 A0 (proj1 Hp) Hf ltac:(lia)) as (ok & m & r & t1 & E1 & Es & Nm & Lm & A1 & _).
    rewrite E1. cbn [rbind]. destruct ok; cbn [negb]; [|eauto]. rewrite Es in Hp, Hf.
    apply plain_app in Hp. destruct Hp as [Pm Hp]. rewrite app_length in Hf.
    destruct (skip_any read content Hr t1 _ _ 32%N A1) as (t2 & [(r2 & -> & E2 & A2)|(_ & E2 & _)]); rewrite E2; cbn [negb]; [|eauto].
    apply (plain_app [32%N]) in Hp. destruct Hp as [_ Hp]. cbn [List.length] in Hf.
    destruct (until_any read content Hr _ _ _ fuel 32%N (N.to_nat 1024) A2 (proj1 Hp) ltac:(lia) ltac:(lia)) as (ok & u & r3 & t3 & E3 & -> & Nu & Lu & A3 & _).
    rewrite E3. cbn [rbind]. destruct ok; cbn [negb]; [|eauto].
    apply plain_app in Hp. destruct Hp as [Pu Hp]. rewrite app_length in Hf.
    destruct (skip_any read content Hr t3 _ _ 32%N A3) as (t4 & [(r4 & -> & E4 & A4)|(_ & E4 & _)]); rewrite E4; cbn [negb]; [|eauto].
    apply (plain_app [32%N]) in Hp. destruct Hp as [_ Hp]. cbn [List.length] in Hf.
    destruct (until_any read content Hr _ _ _ fuel 13%N 10 A4 (proj1 Hp) ltac:(lia) ltac:(lia)) as (ok & v & r5 & t5 & E5 & -> & Nv & Lv & A5 & _).
    rewrite E5. cbn [rbind]. destruct ok; cbn [negb]; [|eauto].
    apply plain_app in Hp. destruct Hp as [Pv Hp]. rewrite app_length in Hf. destruct lit_crlf as [Z3 Z4].
    destruct (literal_any read content Hr t5 _ _ crlf A5 Z3 Z4) as (t6 & [(r6 & -> & E6 & A6)|(_ & E6 & _)]); rewrite E6; cbn [rbind negb]; [|eauto].
    apply plain_app in Hp. destruct Hp as [_ Hp]. rewrite app_length in Hf.
    destruct (headers_any read content Hr fuel _ t6 _ fuel [] A6 (proj1 Hp) ltac:(lia) ltac:(lia) ltac:(simpl; lia)) as (fs & rest & Ff & Er & D).
    cbn [app] in D. destruct D as [(q7 & t7 & -> & E7 & A7 & L7)|[(t7 & E7)|(E7 & L7 & N7)]]; rewrite E7; cbn [rbind negb]; [eauto|eauto|].
    right. split; [reflexivity|]. exists m, u, v, fs, rest. rewrite Er in Es. unfold request_line. rewrite <- !app_assoc. auto. }
  split; [|exact D].
  intros m u v fs rest (E & Lm & Lu & Lv & Um & Uu & Uv & Ff) Hn.
  pose proof (new_at R content src) as A0. clear D. rewrite E in Hp, Hf, A0.
  unfold head_text, request_line in *. rewrite <- !app_assoc in *. unfold upto in Um, Uu, Uv.
  apply plain_app in Hp. destruct Hp as [Pm Hp]. apply plain_app in Hp. destruct Hp as [_ Hp].
  apply plain_app in Hp. destruct Hp as [Pu Hp]. apply plain_app in Hp. destruct Hp as [_ Hp].
  apply plain_app in Hp. destruct Hp as [Pv Hp]. apply plain_app in Hp. destruct Hp as [_ Hp].
  unfold http_read_request. rewrite !app_length in Hf. unfold char in Hf.
  destruct (read_until_at read content H1 m _ _ [] fuel 32%N [] 10 A0 (proj1 Pm)) as (t1 & -> & A1);
    [apply (lacks_not _ _ _ Lm); left; reflexivity|reflexivity|lia|simpl; lia|].
  cbn [rbind negb app].
  destruct (skip_any read content Hr t1 _ _ 32%N A1) as (t2 & [(r & Er & -> & A2)|(Hne & _)]); [|destruct (Hne _ eq_refl)].
  injection Er as <-. cbn [negb].
  destruct (read_until_at read content H1 u _ t2 _ fuel 32%N [] (N.to_nat 1024) A2 (proj1 Pu)) as (t3 & -> & A3);
    [apply (lacks_not _ _ _ Lu); left; reflexivity|reflexivity|lia|simpl; lia|].
  cbn [rbind negb app].
  destruct (skip_any read content Hr t3 _ _ 32%N A3) as (t4 & [(r & Er & -> & A4)|(Hne & _)]); [|destruct (Hne _ eq_refl)].
  injection Er as <-. cbn [negb].
  destruct (read_until_at read content H1 v _ t4 _ fuel 13%N [] 10 A4 (proj1 Pv)) as (t5 & -> & A5);
    [apply (lacks_not _ _ _ Lv); left; reflexivity|reflexivity|lia|simpl; lia|].
  cbn [rbind negb app]. destruct lit_crlf as [Z3 Z4].
  destruct (proj1 (skip_literal_at read content Hr t5 _ _ crlf A5 Z3 Z4) _ eq_refl) as (t6 & -> & A6). cbn [rbind negb].
  assert (Hl : List.length (List.concat (List.map field_line fs) ++ line_end ++ rest) < fuel) by (rewrite !app_length; unfold char; lia).
  pose proof (headers_there read content Hr fs rest t6 _ fuel fuel [] Ff A6 (proj1 Hp) Hl Hl) as HH.
  cbn [List.length app] in HH. destruct (Nat.leb_spec (List.length fs) 100); [lia|]. rewrite HH by lia. reflexivity.
Qed.

Lemma sample_fields : Forall field [(L "Host", L "a"); (L "X", L "b:c")].
Proof.
  repeat constructor; cbn; try (intros c H [<-|[]]; repeat (destruct H as [H|H]; [discriminate|]); destruct H); discriminate.
Qed.
Definition sample_request : bytes :=
  L "GET /d/f.html?a=1&b=2 HTTP/1.0" ++ crlf ++ L "Host: a" ++ crlf ++ L "X: b:c" ++ crlf ++ crlf ++ L "body".
Example C99_read_case :
  request_head sample_request (L "GET") (L "/d/f.html?a=1&b=2") (L "HTTP/1.0") [(L "Host", L "a"); (L "X", L "b:c")] (L "body") /\
  plain sample_request /\
  exists t, http_read_request mem_read 200 sample_request =
    ROk (Some (mkReq (L "HTTP/1.0") (L "GET") (L "/d/f.html") [] [(L "Host", L "a"); (L "X", L "b:c")]
                     (L "/d/f.html?a=1&b=2") (L "f.html") (L "a=1&b=2")), t).
Proof.
  split; [|split; [|eexists; vm_compute; reflexivity]].
  - split; [reflexivity|]. split; [intros c H [<-|[]]; repeat (destruct H as [H|H]; [discriminate|]); destruct H|].
    split; [intros c H [<-|[]]; repeat (destruct H as [H|H]; [discriminate|]); destruct H|].
    split; [intros c H [<-|[]]; repeat (destruct H as [H|H]; [discriminate|]); destruct H|].
    repeat (split; [cbv; discriminate|]). exact sample_fields.
  - split; [|intros H; repeat (destruct H as [H|H]; [discriminate|]); destruct H]. unfold sample_request. repeat constructor.
Qed.

(** From a connection that gives single bytes nothing can be read. *)
Theorem C99_connection_refuted : reads slow_read (fun s => s) /\
  request_head sample_request (L "GET") (L "/d/f.html?a=1&b=2") (L "HTTP/1.0") [(L "Host", L "a"); (L "X", L "b:c")] (L "body") /\
  exists t, http_read_request slow_read 200 sample_request = ROk (None, t).
Proof.
  split; [exact (proj1 C84_literal_refuted)|]. split; [exact (proj1 C99_read_case)|]. eexists. vm_compute. reflexivity.
Qed.

(** * Looking for a field *)
Theorem C99_header : forall fs name, Forall (fun h => ~ In 0%N (fst h)) fs ->
  field_value name fs (option_map snd (http_get_header fs name)).
Proof.
  assert (C : forall s, ~ In 0%N s -> cstr s = s).
  { induction s as [|c s IH]; intros H; [reflexivity|]. cbn [cstr]. destruct (N.eqb_spec c 0) as [->|]; [destruct H; left; reflexivity|].
    f_equal. apply IH. intros Hi. apply H. right. exact Hi. }
  assert (E : forall a b, bytes_eqb a b = true <-> a = b).
  { induction a as [|x a IH]; intros [|y b]; cbn [bytes_eqb]; split; try discriminate; auto.
    - intros H. apply andb_true_iff in H. destruct H as [H1 H2]. apply N.eqb_eq in H1. apply IH in H2. congruence.
    - intros H. injection H as -> ->. apply andb_true_iff. split; [apply N.eqb_refl|apply IH; reflexivity]. }
  induction fs as [|[n v] fs IH]; intros name H; cbn [http_get_header fst]; [constructor|].
  rewrite (C n (Forall_inv H)). destruct (bytes_eqb name n) eqn:K.
  - apply E in K. subst. constructor.
  - constructor; [intros ->; rewrite (proj2 (E name name) eq_refl) in K; discriminate|]. apply IH. exact (Forall_inv_tail H).
Qed.
Example C99_header_case : field_value (L "X") [(L "Host", L "a"); (L "X", L "b"); (L "X", L "c")] (Some (L "b")).
Proof. apply fv_later; [discriminate|]. apply fv_here. Qed.
(** Field names are the same in any case (RFC 7230, 3.2); here they are not. *)
Theorem C99_header_refuted : List.map fold_case (L "content-length") = List.map fold_case (L "Content-Length") /\
  http_get_header [(L "content-length", L "5")] (L "Content-Length") = None.
Proof. split; reflexivity. Qed.

(** * Writing requests *)

Lemma adds_has : forall b t x, Forall is_byte x -> has b t -> sb_err b = false ->
  (N.of_nat (List.length t + List.length x) <= size_max / 2)%N ->
  exists b', adds b x = ROk b' /\ has b' (t ++ x) /\ sb_err b' = false.
Proof.
  intros b t x Hx H He Hl. unfold adds, sb_adds. rewrite He.
  destruct (chars_step (fun _ => true) x b t Hx H He) as [(b' & -> & A & B)|(b' & y & z & _ & _ & _ & _ & _ & [K|[n K]])].
  - cbn [rbind]. exists b'. auto.
  - lia.
  - discriminate.
Qed.

Definition enc_byte (c : byte) : bytes :=
  if c_isalpha c || c_isdigit c then [c] else [37%N; char_at hex_upper (N.land (N.shiftr c 4) 15); char_at hex_upper (N.land c 15)].
Definition enc (v : bytes) : bytes := List.concat (List.map enc_byte v).
Lemma enc_back : forall v, Forall is_byte v -> unpercent (enc v) = Some v.
Proof.
  unfold enc. induction v as [|c v IH]; intros H; [reflexivity|]. cbn [List.map List.concat]. unfold enc_byte at 1.
  apply percent_byte_back; [exact (Forall_inv H)|]. apply IH. exact (Forall_inv_tail H).
Qed.
Definition good_byte (c : byte) : bool := ((c <? 128) && negb (c =? 0) && negb (c =? 32) && negb (c =? 63) && negb (c =? 13))%N.
Lemma enc_good : forall v, Forall is_byte v -> forallb good_byte (enc v) = true.
Proof.
  unfold enc. induction v as [|c v IH]; intros H; [reflexivity|]. cbn [List.map List.concat]. rewrite forallb_app, IH by exact (Forall_inv_tail H).
  rewrite andb_true_r. apply (all_bytes (fun c => forallb good_byte (enc_byte c))); [vm_compute; reflexivity|exact (Forall_inv H)].
Qed.

Lemma enc_length : forall v, Forall is_byte v -> N.of_nat (List.length (enc v)) = percent_length v.
Proof.
  unfold enc, percent_length. induction v as [|c v IH]; intros H; [reflexivity|]. cbn [List.map List.concat fold_right].
  rewrite app_length, Nat2N.inj_add, IH by exact (Forall_inv_tail H). f_equal.
  apply N.eqb_eq. apply (all_bytes (fun c => (N.of_nat (List.length (enc_byte c)) =? (if is_alnum c then 1 else 3))%N)); [vm_compute; reflexivity|exact (Forall_inv H)].
Qed.
Lemma mem_write_fits : forall size d x, List.length d + List.length x <= size -> x <> [] ->
  mem_write (mkMembuf d size) x = (Z.of_nat (List.length x), mkMembuf (d ++ x) size).
Proof.
  intros size d x H Hx. unfold mem_write. cbn [mb_size mb_data]. destruct x as [|c x]; [congruence|]. simpl in H.
  destruct (Nat.leb_spec size (List.length d)); [lia|]. rewrite firstn_all2 by (simpl; lia). reflexivity.
Qed.
Lemma url_write_fits : forall size v d len, List.length d + List.length (enc v) <= size ->
  exists n, url_write mem_write (mkMembuf d size) v len = (n, mkMembuf (d ++ enc v) size).
Proof.
  intros size. induction v as [|c v IH]; intros d len H; cbn [url_write].
  - exists len. unfold enc. cbn. rewrite app_nil_r. reflexivity.
  - unfold enc in *. cbn [List.map List.concat] in *. rewrite app_length in H. unfold enc_byte at 1 in H. unfold enc_byte at 1.
    destruct (c_isalpha c || c_isdigit c); cbn [List.length] in H.
    + rewrite mem_write_fits by (cbn [List.length]; try lia; discriminate). cbn [List.length]. change (Z.of_nat 1 =? 1)%Z with true. cbv iota.
      destruct (IH (d ++ [c]) (len + 1)%Z) as [n ->]; [rewrite app_length; cbn [List.length]; lia|]. exists n. rewrite <- app_assoc. reflexivity.
    + rewrite mem_write_fits by (cbn [List.length]; try lia; discriminate). cbn [List.length]. change (Z.of_nat 3 =? 3)%Z with true. cbv iota.
      destruct (IH (d ++ [37%N; char_at hex_upper (N.land (N.shiftr c 4) 15); char_at hex_upper (N.land c 15)]) (len + 3)%Z) as [n ->];
        [rewrite app_length; cbn [List.length]; lia|]. exists n. rewrite <- app_assoc. reflexivity.
Qed.
Lemma cstr_id : forall s, ~ In 0%N s -> cstr s = s.
Proof.
  induction s as [|c s IH]; intros H; [reflexivity|]. cbn [cstr]. destruct (N.eqb_spec c 0) as [->|]; [destruct H; left; reflexivity|].
  f_equal. apply IH. intros Hi. apply H. right. exact Hi.
Qed.
Lemma good_plain : forall s, forallb good_byte s = true -> plain s /\ lacks (L " ") s /\ lacks (L "?") s /\ lacks [13%N] s.
Proof.
  intros s H. rewrite forallb_forall in H.
  assert (G : forall c, In c s -> (c < 128)%N /\ c <> 0%N /\ c <> 32%N /\ c <> 63%N /\ c <> 13%N).
  { intros c Hc. specialize (H c Hc). unfold good_byte in H. repeat (apply andb_true_iff in H; destruct H as [H ?]).
    repeat match goal with K : negb _ = true |- _ => apply negb_true_iff in K; apply N.eqb_neq in K end. apply N.ltb_lt in H. auto. }
  split; [split|].
  - apply Forall_forall. intros c Hc. destruct (G c Hc). unfold is_byte. lia.
  - intros Hc. apply G in Hc. lia.
  - split; [|split]; intros c Hc [E|[]]; destruct (G c Hc) as (_ & _ & A1 & A2 & A3); symmetry in E; first [exact (A1 E)|exact (A2 E)|exact (A3 E)].
Qed.
Lemma encoded_ok : forall v, Forall is_byte v -> (percent_length v < 1000)%N -> http_encoded v = ROk (enc v).
Proof.
  intros v Hv Hl. rewrite <- enc_length in Hl by exact Hv. unfold http_encoded, static_buffer.
  destruct (url_write_fits (N.to_nat 1000) v [] 0%Z) as [n E]; [simpl; lia|]. cbv zeta. rewrite E. cbn [mb_data app].
  destruct (Nat.ltb_spec (List.length (enc v)) (N.to_nat 1000)); [|lia]. rewrite cstr_id; [reflexivity|].
  exact (proj2 (proj1 (good_plain _ (enc_good v Hv)))).
Qed.

(** What the writer makes of the parameters. *)
Fixpoint ptext (sep : bytes) (ps : list (bytes * bytes)) : bytes :=
  match ps with [] => [] | (n, v) :: r => sep ++ n ++ L "=" ++ enc v ++ ptext (L "&") r end.
Lemma ptext_ok : forall ps sep, Forall param ps -> params_text sep ps (ptext sep ps).
Proof.
  induction ps as [|[n v] ps IH]; intros sep H; cbn [ptext]; constructor; [|apply IH; exact (Forall_inv_tail H)].
  apply enc_back. exact (proj1 (proj2 (proj2 (Forall_inv H)))).
Qed.
Lemma ptext_length : forall ps sep, List.length sep <= 1 -> Forall param ps -> (N.of_nat (List.length (ptext sep ps)) <= 2100 * N.of_nat (List.length ps))%N.
Proof.
  induction ps as [|[n v] ps IH]; intros sep Hs H; cbn [ptext List.length]; [lia|].
  destruct (Forall_inv H) as (_ & K1 & K2 & _ & K3). cbn [fst snd] in *. rewrite <- enc_length in K3 by exact K2. unfold upto in K1.
  specialize (IH (L "&") ltac:(simpl; lia) (Forall_inv_tail H)). rewrite !app_length. unfold char in *. change (List.length (L "=")) with 1. lia.
Qed.
Lemma ptext_plain : forall ps sep, plain sep -> Forall param ps -> plain (ptext sep ps).
Proof.
  assert (A : forall a b, plain a -> plain b -> plain (a ++ b)).
  { intros a b [A1 A2] [B1 B2]. split; [apply Forall_app; auto|]. intros Hi. apply in_app_or in Hi. destruct Hi; auto. }
  induction ps as [|[n v] ps IH]; intros sep Hs H; cbn [ptext]; [split; [constructor|intros []]|].
  destruct (Forall_inv H) as (K1 & _ & K2 & _ & _). cbn [fst snd] in *.
  apply A; [exact Hs|]. apply A; [exact K1|]. apply A; [split; [repeat constructor|intros [E|[]]; discriminate]|].
  apply A; [exact (proj1 (good_plain _ (enc_good v K2)))|]. apply IH; [split; [repeat constructor|intros [E|[]]; discriminate]|exact (Forall_inv_tail H)].
Qed.
Lemma params_written : forall ps sep b t, Forall param ps -> plain sep -> has b t -> sb_err b = false ->
  (N.of_nat (List.length t + List.length (ptext sep ps)) <= size_max / 2)%N ->
  exists b', http_write_params b sep ps = ROk b' /\ has b' (t ++ ptext sep ps) /\ sb_err b' = false.
Proof.
  induction ps as [|[n v] ps IH]; intros sep b t H Hs Hb He Hl; cbn [http_write_params ptext] in *.
  - exists b. rewrite app_nil_r. auto.
  - destruct (Forall_inv H) as (K1 & _ & K2 & _ & K3). cbn [fst snd] in *. rewrite !app_length in Hl. unfold char in *.
    destruct (adds_has b t sep (proj1 Hs) Hb He) as (b1 & -> & B1 & E1); [lia|]. cbn [rbind].
    destruct (adds_has b1 _ n (proj1 K1) B1 E1) as (b2 & -> & B2 & E2); [rewrite app_length; lia|]. cbn [rbind].
    destruct (adds_has b2 _ (L "=") ltac:(repeat constructor) B2 E2) as (b3 & -> & B3 & E3); [rewrite !app_length; unfold char; lia|]. cbn [rbind].
    rewrite (encoded_ok v K2 K3). cbn [rbind].
    destruct (adds_has b3 _ (enc v) (proj1 (proj1 (good_plain _ (enc_good v K2)))) B3 E3) as (b4 & -> & B4 & E4); [rewrite !app_length; unfold char; lia|]. cbn [rbind].
    assert (Ps : plain (L "&")) by (split; [repeat constructor|intros [E|[]]; discriminate]).
    destruct (IH (L "&") b4 _ (Forall_inv_tail H) Ps B4 E4) as (b5 & -> & B5 & E5); [rewrite !app_length; unfold char; lia|].
    exists b5. split; [reflexivity|]. rewrite <- !app_assoc in B5. auto.
Qed.
Lemma headers_written : forall hs b t, Forall sendable hs -> has b t -> sb_err b = false ->
  (N.of_nat (List.length t + List.length (List.concat (List.map field_line hs))) <= size_max / 2)%N ->
  exists b', http_write_headers b hs = ROk b' /\ has b' (t ++ List.concat (List.map field_line hs)) /\ sb_err b' = false.
Proof.
  induction hs as [|[n v] hs IH]; intros b t H Hb He Hl; cbn [http_write_headers List.map List.concat] in *.
  - exists b. rewrite app_nil_r. auto.
  - destruct (Forall_inv H) as (K1 & K2 & _). cbn [fst snd] in *. unfold field_line at 1 in Hl. cbn [fst snd] in Hl. rewrite !app_length in Hl. unfold char in *.
    destruct (adds_has b t n (proj1 K1) Hb He) as (b1 & -> & B1 & E1); [lia|]. cbn [rbind].
    destruct (adds_has b1 _ (L ": ") ltac:(repeat constructor) B1 E1) as (b2 & -> & B2 & E2); [rewrite !app_length; unfold char; lia|]. cbn [rbind].
    destruct (adds_has b2 _ v (proj1 K2) B2 E2) as (b3 & -> & B3 & E3); [rewrite !app_length; unfold char; lia|]. cbn [rbind].
    destruct (adds_has b3 _ crlf ltac:(repeat constructor) B3 E3) as (b4 & -> & B4 & E4);
      [rewrite !app_length; unfold char; change (List.length crlf) with (List.length line_end); lia|]. cbn [rbind].
    destruct (IH b4 _ (Forall_inv_tail H) B4 E4) as (b5 & -> & B5 & E5);
      [rewrite !app_length; unfold char; change (List.length crlf) with (List.length line_end); lia|].
    exists b5. split; [reflexivity|]. unfold field_line at 1. cbn [fst snd]. rewrite <- !app_assoc in *. auto.
Qed.
Lemma headers_length : forall hs, Forall sendable hs -> (N.of_nat (List.length (List.concat (List.map field_line hs))) <= 2100 * N.of_nat (List.length hs))%N.
Proof.
  induction hs as [|[n v] hs IH]; intros H; cbn [List.map List.concat List.length]; [lia|]. specialize (IH (Forall_inv_tail H)).
  destruct (Forall_inv H) as (_ & _ & K1 & K2). unfold upto in *. unfold field_line at 1. cbn [fst snd] in *. rewrite !app_length. unfold char in *.
  change (List.length (L ": ")) with 2. change (List.length line_end) with 2. lia.
Qed.
Lemma headers_plain : forall hs, Forall sendable hs -> ~ In 0%N (List.concat (List.map field_line hs)).
Proof.
  induction hs as [|[n v] hs IH]; intros H Hi; cbn [List.map List.concat] in Hi; [destruct Hi|].
  destruct (Forall_inv H) as (K1 & K2 & _). unfold field_line at 1 in Hi. cbn [fst snd] in *. rewrite <- !app_assoc in Hi.
  apply in_app_or in Hi. destruct Hi as [Hi|Hi]; [exact (proj2 K1 Hi)|].
  apply in_app_or in Hi. destruct Hi as [[E|[E|[]]]|Hi]; try discriminate.
  apply in_app_or in Hi. destruct Hi as [Hi|Hi]; [exact (proj2 K2 Hi)|].
  apply in_app_or in Hi. destruct Hi as [[E|[E|[]]]|Hi]; try discriminate. exact (IH (Forall_inv_tail H) Hi).
Qed.

(** The user's steps: a new request, its parameters, its headers. *)
Fixpoint each {A} (f : request -> A -> bres request) (l : list A) (r : request) : bres request :=
  match l with [] => ROk r | x :: l => rbind (f r x) (each f l) end.
Definition client (m : Z) (path : bytes) (ps hs : list (bytes * bytes)) : bres request :=
  rbind (http_newreq m path) (fun r => rbind (each (fun r p => http_reqparam r (fst p) (snd p)) ps r)
    (each (fun r h => http_set_header r (fst h) (snd h)) hs)).
Lemma strcpy_fits : forall n s, (N.of_nat (List.length s) < n)%N -> strcpy n s = ROk s.
Proof. intros n s H. unfold strcpy. apply N.ltb_lt in H. rewrite H. reflexivity. Qed.
Lemma client_made : forall m name path ps hs, method_name m name -> upto 1023 path -> Forall param ps -> Forall sendable hs ->
  List.length ps <= 100 -> List.length hs <= 100 ->
  client m path ps hs = ROk (mkReq (L "HTTP/1.0") name [] ps hs path [] []).
Proof.
  intros m name path ps hs Hm Hp Hps Hhs Lp Lh. unfold upto in Hp. unfold client, http_newreq, http_init.
  assert (E : (if (m =? http_GET)%Z then Some (L "GET") else if (m =? http_POST)%Z then Some (L "POST")
    else if (m =? http_HEAD)%Z then Some (L "HEAD") else None) = Some name /\ (N.of_nat (List.length name) < 10)%N).
  { destruct Hm as [[-> ->]|[[-> ->]|[-> ->]]]; split; reflexivity. }
  destruct E as [E L1]. cbv zeta. rewrite E. rewrite (strcpy_fits 10 name L1). cbn [rbind]. rewrite (strcpy_fits 1024 path) by lia. cbn [rbind].
  rewrite (strcpy_fits 10 (L "HTTP/1.0")) by reflexivity. cbn [rbind].
  assert (G : forall ps qs, Forall param ps -> List.length (qs ++ ps) <= 100 ->
    each (fun r p => http_reqparam r (fst p) (snd p)) ps (mkReq (L "HTTP/1.0") name [] qs [] path [] []) = ROk (mkReq (L "HTTP/1.0") name [] (qs ++ ps) [] path [] [])).
  { clear. induction ps as [|[n v] ps IH]; intros qs H Hl; cbn [each]; [rewrite app_nil_r; reflexivity|].
    destruct (Forall_inv H) as (_ & K1 & _ & K2 & _). unfold upto in K1, K2. cbn [fst snd] in *. unfold http_reqparam. cbn [rq_params].
    rewrite app_length in Hl. cbn [List.length] in Hl. destruct (Nat.leb_spec 100 (List.length qs)); [lia|].
    rewrite (strcpy_fits 1024 n) by lia. cbn [rbind]. destruct (N.ltb_spec 1024 (N.of_nat (List.length v))); [lia|]. cbn [rbind].
    rewrite IH; [rewrite <- app_assoc; reflexivity|exact (Forall_inv_tail H)|rewrite !app_length; cbn [List.length]; lia]. }
  rewrite (G ps [] Hps Lp). cbn [rbind app].
  assert (G2 : forall hs qs, Forall sendable hs -> List.length (qs ++ hs) <= 100 ->
    each (fun r h => http_set_header r (fst h) (snd h)) hs (mkReq (L "HTTP/1.0") name [] ps qs path [] []) = ROk (mkReq (L "HTTP/1.0") name [] ps (qs ++ hs) path [] [])).
  { clear. induction hs as [|[n v] hs IH]; intros qs H Hl; cbn [each]; [rewrite app_nil_r; reflexivity|].
    destruct (Forall_inv H) as (_ & _ & K1 & K2). unfold upto in K1, K2. cbn [fst snd] in *. unfold http_set_header. cbn [rq_headers].
    rewrite app_length in Hl. cbn [List.length] in Hl. destruct (Nat.leb_spec 100 (List.length qs)); [lia|].
    rewrite (strcpy_fits 1024 n) by lia. cbn [rbind]. rewrite (strcpy_fits 1024 v) by lia. cbn [rbind].
    rewrite IH; [rewrite <- app_assoc; reflexivity|exact (Forall_inv_tail H)|rewrite !app_length; cbn [List.length]; lia]. }
  exact (G2 hs [] Hhs Lh).
Qed.

Definition the_text (name path : bytes) (ps hs : list (bytes * bytes)) : bytes :=
  head_text (request_line name (path ++ ptext (L "?") ps) (L "HTTP/1.0")) hs.
Lemma request_text_ok : forall m name path ps hs, method_name m name -> plain path ->
  upto 999 (name ++ L " " ++ path) -> Forall param ps -> Forall sendable hs -> List.length ps <= 100 -> List.length hs <= 100 ->
  http_request_text (mkReq (L "HTTP/1.0") name [] ps hs path [] []) = ROk (the_text name path ps hs).
Proof.
  intros m name path ps hs Hm Pp Up Hps Hhs Lp Lh.
  assert (Pn : plain name) by (destruct Hm as [[_ ->]|[[_ ->]|[_ ->]]]; (split; [repeat constructor|intros H; repeat (destruct H as [H|H]; [discriminate|]); destruct H])).
  pose proof (ptext_length ps (L "?") ltac:(simpl; lia) Hps) as L1. pose proof (headers_length hs Hhs) as L2.
  assert (Big : (500000 < size_max / 2)%N) by reflexivity.
  unfold http_request_text. cbn [rq_method rq_uri rq_params rq_version rq_headers]. unfold sb_addf. change (sb_err sb_new) with false. cbv iota.
  unfold upto in Up. rewrite firstn_all2 by lia.
  assert (P0 : Forall is_byte (name ++ L " " ++ path)) by (apply Forall_app; split; [exact (proj1 Pn)|]; constructor; [reflexivity|exact (proj1 Pp)]).
  destruct (adds_has sb_new [] _ P0) as (b0 & A0 & B0 & E0); [split; [reflexivity|left; split; reflexivity]|reflexivity|cbn [List.length]; lia|].
  unfold adds in A0. destruct (sb_adds _ sb_new _) as [[ok b0']| | |]; cbn [rbind] in A0; try discriminate. injection A0 as ->. cbn [rbind app] in *.
  assert (Ps : plain (L "?")) by (split; [repeat constructor|intros [E|[]]; discriminate]).
  destruct (params_written ps (L "?") b0 _ Hps Ps B0 E0) as (b1 & -> & B1 & E1); [unfold char in *; lia|]. cbn [rbind].
  destruct (adds_has b1 _ (L " ") ltac:(repeat constructor) B1 E1) as (b2 & -> & B2 & E2); [rewrite app_length; change (List.length (L " ")) with 1; unfold char in *; lia|]. cbn [rbind].
  destruct (adds_has b2 _ (L "HTTP/1.0") ltac:(repeat constructor) B2 E2) as (b3 & -> & B3 & E3);
    [rewrite (app_length _ (L " ")), (app_length _ (ptext (L "?") ps)); change (List.length (L " ")) with 1; change (List.length (L "HTTP/1.0")) with 8; unfold char in *; lia|]. cbn [rbind].
  destruct (adds_has b3 _ crlf ltac:(repeat constructor) B3 E3) as (b4 & -> & B4 & E4);
    [rewrite (app_length _ (L "HTTP/1.0")), (app_length _ (L " ")), (app_length _ (ptext (L "?") ps)); change (List.length (L " ")) with 1; change (List.length (L "HTTP/1.0")) with 8; change (List.length crlf) with 2; unfold char in *; lia|]. cbn [rbind].
  destruct (headers_written hs b4 _ Hhs B4 E4) as (b5 & -> & B5 & E5);
    [rewrite (app_length _ crlf), (app_length _ (L "HTTP/1.0")), (app_length _ (L " ")), (app_length _ (ptext (L "?") ps)); change (List.length (L " ")) with 1; change (List.length (L "HTTP/1.0")) with 8; change (List.length crlf) with 2; unfold char in *; lia|]. cbn [rbind].
  destruct (adds_has b5 _ crlf ltac:(repeat constructor) B5 E5) as (b6 & -> & B6 & E6);
    [rewrite (app_length _ (List.concat (List.map field_line hs))), (app_length _ crlf), (app_length _ (L "HTTP/1.0")), (app_length _ (L " ")), (app_length _ (ptext (L "?") ps)); change (List.length (L " ")) with 1; change (List.length (L "HTTP/1.0")) with 8; change (List.length crlf) with 2; unfold char in *; lia|]. cbn [rbind].
  assert (Et : the_text name path ps hs = ((((((name ++ L " " ++ path) ++ ptext (L "?") ps) ++ L " ") ++ L "HTTP/1.0") ++ crlf) ++ List.concat (List.map field_line hs)) ++ crlf).
  { unfold the_text, head_text, request_line. rewrite <- !app_assoc. reflexivity. }
  rewrite <- Et in B6.
  assert (Nz : ~ In 0%N (the_text name path ps hs)).
  { intros Hi. rewrite Et in Hi. rewrite <- !app_assoc in Hi.
    apply in_app_or in Hi. destruct Hi as [Hi|Hi]; [exact (proj2 Pn Hi)|].
    apply in_app_or in Hi. destruct Hi as [[E|[]]|Hi]; try discriminate.
    apply in_app_or in Hi. destruct Hi as [Hi|Hi]; [exact (proj2 Pp Hi)|].
    apply in_app_or in Hi. destruct Hi as [Hi|Hi]; [refine (proj2 (ptext_plain ps (L "?") _ Hps) Hi); split; [repeat constructor|intros [E|[]]; discriminate]|].
    apply in_app_or in Hi. destruct Hi as [[E|[]]|Hi]; try discriminate.
    apply in_app_or in Hi. destruct Hi as [Hi|Hi]; [repeat (destruct Hi as [Hi|Hi]; [discriminate|]); destruct Hi|].
    apply in_app_or in Hi. destruct Hi as [[E|[E|[]]]|Hi]; try discriminate.
    apply in_app_or in Hi. destruct Hi as [Hi|[E|[E|[]]]]; try discriminate. exact (headers_plain hs Hhs Hi). }
  destruct (has_shows _ _ B6) as [_ B7]. destruct (sb_raw b6) as [cells|].
  - destruct B7 as [r ->]. f_equal. clear -Nz. induction (the_text name path ps hs) as [|c t IH]; [reflexivity|].
    cbn [app cstr]. destruct (N.eqb_spec c 0) as [->|]; [destruct Nz; left; reflexivity|]. f_equal. apply IH. intros Hi. apply Nz. right. exact Hi.
  - exfalso. rewrite Et in B7. destruct name; discriminate B7.
Qed.

(** [write_request] gives the head to the writer: a request line with the parameters behind
    the path, and the fields.  It answers with the length, or -1 if the writer did not take
    all of it. *)
Theorem C99_write_partial : forall W (put : write_fn W) out, honest put out ->
  forall w m name path ps hs, method_name m name -> plain path -> upto 999 (name ++ L " " ++ path) ->
  Forall param ps -> Forall sendable hs -> List.length ps <= 100 -> List.length hs <= 100 ->
  exists rq query n w', client m path ps hs = ROk rq /\ params_text (L "?") ps query /\
    http_write_request put w rq = ROk (n, w') /\
    let text := head_text (request_line name (path ++ query) (L "HTTP/1.0")) hs in
    (n = Z.of_nat (List.length text) /\ out w' = out w ++ text) \/
    (n = (-1)%Z /\ exists k, out w' = out w ++ firstn k text).
Proof.
  intros W put out Hh w m name path ps hs Hm Pp Up Hps Hhs Lp Lh.
  assert (Up' : upto 1023 path) by (unfold upto in *; rewrite !app_length in Up; unfold char in *; lia).
  exists (mkReq (L "HTTP/1.0") name [] ps hs path [] []), (ptext (L "?") ps).
  unfold http_write_request. rewrite (request_text_ok m) by assumption. cbn [rbind]. fold (the_text name path ps hs).
  pose proof (Hh w (the_text name path ps hs)) as K. destruct (put w (the_text name path ps hs)) as [len w'].
  eexists. exists w'. split; [exact (client_made m name path ps hs Hm Up' Hps Hhs Lp Lh)|]. split; [exact (ptext_ok ps _ Hps)|]. split; [reflexivity|].
  cbv zeta. destruct (Z.eqb_spec len (Z.of_nat (List.length (the_text name path ps hs)))) as [->|Hl].
  - left. split; [reflexivity|]. destruct K as [[K _]|[_ K]]; [lia|]. rewrite Nat2Z.id, firstn_all in K. exact K.
  - right. split; [reflexivity|]. destruct K as [[_ K]|[_ K]]; [exists 0; rewrite app_nil_r; exact K|exists (Z.to_nat len); exact K].
Qed.
Definition take_all : write_fn bytes := fun w d => (Z.of_nat (List.length d), w ++ d).
Lemma take_all_honest : honest take_all (fun w => w).
Proof. intros w d. unfold take_all. right. split; [lia|]. rewrite Nat2Z.id, firstn_all. reflexivity. Qed.
Definition sample_ps : list (bytes * bytes) := [(L "a", L "x y"); (L "b", L "1")].
Example C99_write_case : Forall param sample_ps /\ Forall sendable [(L "Host", L "h")] /\
  exists rq, client 1 (L "/p") sample_ps [(L "Host", L "h")] = ROk rq /\
    http_write_request take_all [] rq = ROk (40%Z, L "GET /p?a=x%20y&b=1 HTTP/1.0" ++ crlf ++ L "Host: h" ++ crlf ++ crlf).
Proof.
  split; [|split].
  - repeat constructor; cbn; try discriminate; try (intros H; repeat (destruct H as [H|H]; [discriminate|]); destruct H).
  - repeat constructor; cbn; try discriminate; try (intros H; repeat (destruct H as [H|H]; [discriminate|]); destruct H).
  - eexists. split; vm_compute; reflexivity.
Qed.

(** What a client writes, a server reads, if the path and the names keep to their places. *)
Theorem C99_round_trip_partial : forall R (read : read_fn R) content, reads_fully read content ->
  forall src fuel m name path ps hs rest, method_name m name -> plain path -> upto 999 (name ++ L " " ++ path) ->
  Forall param ps -> Forall sendable hs -> List.length ps <= 100 -> List.length hs <= 100 ->
  lacks (L " ?") path -> Forall (fun p => lacks (L " ") (fst p)) ps -> Forall field hs ->
  exists rq query text, client m path ps hs = ROk rq /\ params_text (L "?") ps query /\
    http_write_request take_all [] rq = ROk (Z.of_nat (List.length text), text) /\
    (upto 1023 (path ++ query) -> plain rest -> content src = text ++ rest -> List.length (text ++ rest) < fuel ->
     exists q t d, http_read_request read fuel src = ROk (Some q, t) /\ at_ content t d rest /\
       rq_method q = name /\ rq_version q = L "HTTP/1.0" /\ rq_headers q = hs /\ rq_path q = path /\
       (query = [] /\ rq_query q = [] \/ query = L "?" ++ rq_query q)).
Proof.
  intros R read content Hr src fuel m name path ps hs rest Hm Pp Up Hps Hhs Lp Lh Nq Nn Fh.
  assert (Up' : upto 1023 path) by (unfold upto in *; rewrite !app_length in Up; unfold char in *; lia).
  exists (mkReq (L "HTTP/1.0") name [] ps hs path [] []), (ptext (L "?") ps), (the_text name path ps hs).
  split; [exact (client_made m name path ps hs Hm Up' Hps Hhs Lp Lh)|]. split; [exact (ptext_ok ps _ Hps)|].
  split; [unfold http_write_request; rewrite (request_text_ok m) by assumption; cbn [rbind take_all app]; rewrite Z.eqb_refl; reflexivity|].
  intros Ut Pr Ec Hf.
  assert (Pn : plain name /\ lacks (L " ") name /\ upto 9 name).
  { destruct Hm as [[_ ->]|[[_ ->]|[_ ->]]]; (split; [split; [repeat constructor|intros H; repeat (destruct H as [H|H]; [discriminate|]); destruct H]|]);
      (split; [intros c H [<-|[]]; repeat (destruct H as [H|H]; [discriminate|]); destruct H|unfold upto; cbv; discriminate]). }
  destruct Pn as (Pn & Ln & Un).
  assert (Lt : forall ps sep, ~ In 32%N sep -> Forall param ps -> Forall (fun p => lacks (L " ") (fst p)) ps -> ~ In 32%N (ptext sep ps)).
  { clear. induction ps as [|[n v] ps IH]; intros sep Hs H H2 Hi; cbn [ptext] in Hi; [destruct Hi|].
    destruct (Forall_inv H) as (_ & _ & K & _). pose proof (Forall_inv H2) as K2. cbn [fst snd] in *.
    apply in_app_or in Hi. destruct Hi as [Hi|Hi]; [exact (Hs Hi)|].
    apply in_app_or in Hi. destruct Hi as [Hi|Hi]; [exact (K2 _ Hi (or_introl eq_refl))|].
    apply in_app_or in Hi. destruct Hi as [[E|[]]|Hi]; try discriminate.
    apply in_app_or in Hi. destruct Hi as [Hi|Hi]; [exact (proj1 (proj2 (good_plain _ (enc_good v K))) _ Hi (or_introl eq_refl))|].
    apply (IH (L "&")); [intros [E|[]]; discriminate|exact (Forall_inv_tail H)|exact (Forall_inv_tail H2)|exact Hi]. }
  assert (Qh : request_head (content src) name (path ++ ptext (L "?") ps) (L "HTTP/1.0") hs rest).
  { split; [exact Ec|]. split; [exact Ln|]. split.
    - intros c Hi [<-|[]]. apply in_app_or in Hi. destruct Hi as [Hi|Hi]; [exact (Nq _ Hi (or_introl eq_refl))|].
      apply (Lt ps (L "?")); auto. intros [E|[]]; discriminate.
    - split; [intros c H [<-|[]]; repeat (destruct H as [H|H]; [discriminate|]); destruct H|]. split; [exact Un|]. split; [exact Ut|].
      split; [unfold upto; cbv; discriminate|exact Fh]. }
  assert (Pt : plain (content src)).
  { rewrite Ec. assert (A : forall a b, plain a -> plain b -> plain (a ++ b)).
    { intros a b [A1 A2] [B1 B2]. split; [apply Forall_app; auto|]. intros Hi. apply in_app_or in Hi. destruct Hi; auto. }
    assert (P1 : forall s, forallb (fun c => (0 <? c) && (c <? 256))%N s = true -> plain s).
    { intros s Hs. rewrite forallb_forall in Hs. split; [apply Forall_forall|]; intros; [apply Hs in H; apply andb_true_iff in H; destruct H as [_ H]; apply N.ltb_lt in H; exact H|].
      intros Hi. apply Hs in Hi. discriminate. }
    apply A; [|exact Pr]. unfold the_text, head_text, request_line. repeat apply A; try exact Pn; try exact Pp; try (apply P1; reflexivity).
    - apply ptext_plain; [apply P1; reflexivity|exact Hps].
    - clear -Hhs A P1. induction hs as [|[n v] hs IH]; cbn [List.map List.concat]; [apply P1; reflexivity|].
      destruct (Forall_inv Hhs) as (K1 & K2 & _). unfold field_line at 1. cbn [fst snd] in *.
      apply A; [|apply IH; exact (Forall_inv_tail Hhs)]. repeat apply A; try assumption; apply P1; reflexivity. }
  destruct (proj1 (C99_read R read content Hr src fuel Pt ltac:(rewrite Ec; exact Hf)) _ _ _ _ _ Qh Lh) as (q & t & d & E & A & E1 & E2 & E3 & E4 & Q & _).
  exists q, t, d. split; [exact E|]. split; [exact A|]. split; [exact E1|]. split; [exact E3|]. split; [exact E4|].
  assert (Lq : lacks (L "?") path) by (intros c Hi [<-|[]]; exact (Nq _ Hi (or_intror (or_introl eq_refl)))).
  destruct ps as [|[n v] ps].
  - cbn [ptext] in Q. rewrite app_nil_r in Q. destruct (C99_one_query _ _ _ path [] Q) as [-> ->]; [split; [exact Lq|right; auto]|].
    split; [reflexivity|]. left. split; reflexivity.
  - cbn [ptext] in Q |- *. destruct (C99_one_query _ _ _ path (n ++ L "=" ++ enc v ++ ptext (L "&") ps) Q) as [E5 E6]; [split; [exact Lq|left; reflexivity]|].
    split; [exact E5|]. right. rewrite E6. reflexivity.
Qed.

(** Names are not encoded: other parameters have the same text. *)
Theorem C99_names_refuted : exists rq rq',
  client 1 (L "/") [(L "a", L "1"); (L "b", L "2")] [] = ROk rq /\ client 1 (L "/") [(L "a=1&b", L "2")] [] = ROk rq' /\
  http_write_request take_all [] rq = http_write_request take_all [] rq'.
Proof. eexists. eexists. split; [vm_compute; reflexivity|]. split; vm_compute; reflexivity. Qed.
(** A line end in a value makes another field of its rest. *)
Theorem C99_injection_refuted : forall v, exists rq rq',
  upto 500 v -> plain v ->
  client 1 (L "/") [] [(L "A", L "1" ++ line_end ++ L "B: " ++ v)] = ROk rq /\ client 1 (L "/") [] [(L "A", L "1"); (L "B", v)] = ROk rq' /\
  http_write_request take_all [] rq = http_write_request take_all [] rq'.
Proof.
  intros v. exists (mkReq (L "HTTP/1.0") (L "GET") [] [] [(L "A", L "1" ++ line_end ++ L "B: " ++ v)] (L "/") [] []),
    (mkReq (L "HTTP/1.0") (L "GET") [] [] [(L "A", L "1"); (L "B", v)] (L "/") [] []). intros Uv Pv. unfold upto in Uv.
  assert (P1 : forall s, forallb (fun c => (0 <? c) && (c <? 256))%N s = true -> plain s).
  { intros s Hs. rewrite forallb_forall in Hs. split; [apply Forall_forall|]; intros; [apply Hs in H; apply andb_true_iff in H; destruct H as [_ H]; apply N.ltb_lt in H; exact H|].
    intros Hi. apply Hs in Hi. discriminate. }
  assert (A : forall a b, plain a -> plain b -> plain (a ++ b)).
  { intros a b [A1 A2] [B1 B2]. split; [apply Forall_app; auto|]. intros Hi. apply in_app_or in Hi. destruct Hi; auto. }
  assert (M : method_name 1 (L "GET")) by (left; split; reflexivity).
  assert (S1 : Forall sendable [(L "A", L "1" ++ line_end ++ L "B: " ++ v)]).
  { constructor; [|constructor]. split; [apply P1; reflexivity|]. cbn [fst snd]. split; [repeat apply A; try exact Pv; apply P1; reflexivity|].
    split; [cbv; discriminate|]. unfold upto. rewrite !app_length. unfold char in *. change (List.length (L "1")) with 1. change (List.length line_end) with 2.
    change (List.length (L "B: ")) with 3. lia. }
  assert (S2 : Forall sendable [(L "A", L "1"); (L "B", v)]).
  { constructor; [|constructor; [|constructor]]; split; try (apply P1; reflexivity); cbn [fst snd]; (split; [try exact Pv; apply P1; reflexivity|]);
      (split; [cbv; discriminate|]); unfold upto; [cbv; discriminate|lia]. }
  split; [apply client_made; auto; first [cbv; discriminate|simpl; lia]|]. split; [apply client_made; auto; first [cbv; discriminate|simpl; lia]|].
  unfold http_write_request. rewrite !(request_text_ok 1) by (auto; try (apply P1; reflexivity); try (cbv; discriminate); simpl; lia).
  cbn [rbind]. unfold the_text, head_text. cbn [List.map List.concat]. unfold field_line. cbn [fst snd]. rewrite <- !app_assoc. cbn [app]. reflexivity.
Qed.
(** A path of a thousand characters is cut without notice. *)
Theorem C99_long_path_refuted : exists rq rq',
  client 1 (repeat 47%N (N.to_nat 1000)) [] [] = ROk rq /\ client 1 (repeat 47%N (N.to_nat 995)) [] [] = ROk rq' /\
  http_write_request take_all [] rq = http_write_request take_all [] rq'.
Proof. eexists. eexists. split; [vm_compute; reflexivity|]. split; [vm_compute; reflexivity|]. vm_compute. reflexivity. Qed.
(** A value that needs a thousand characters leaves no room for the final zero. *)
Theorem C99_long_value_refuted : exists rq, client 1 (L "/") [(L "a", repeat 32%N (N.to_nat 400))] [] = ROk rq /\
  http_write_request take_all [] rq = RUndefined.
Proof. eexists. split; vm_compute; reflexivity. Qed.

Print Assumptions C99_read.
Print Assumptions C99_one_query.
Print Assumptions C99_header.
Print Assumptions C99_write_partial.
Print Assumptions C99_round_trip_partial.
Print Assumptions C99_injection_refuted.
