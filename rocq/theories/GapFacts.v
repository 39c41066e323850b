(** Replacing one gap by another does not change the tokens. *)
From Coq Require Import ZifyBool ZifyN.
From Verif Require Import Base Buf Lexer Nodes Cursor BaseFacts LexOps SpecLex LexFacts TokenFacts LexerRefine.

Section Gap.
Context `{Unicode}.

Lemma begins_swap l : Forall (fun c => blank c = false) l -> forall y b1 p1 b2 p2,
  blank b1 = true -> begins (y ++ b1 :: p1) l -> begins (y ++ b2 :: p2) l.
Proof.
  induction 1 as [|c l Hc Hl IH]; intros y b1 p1 b2 p2 H1 (r & Hr).
  - exists (y ++ b2 :: p2). reflexivity.
  - destruct y as [|x y]; cbn in Hr; injection Hr as -> Hr; [congruence|].
    destruct (IH y b1 p1 b2 p2 H1) as (r' & Hr'); [exists r; exact Hr|].
    exists r'. cbn. rewrite Hr'. reflexivity.
Qed.
Lemma stops_swap f x b1 p1 b2 p2 : stops f (x ++ b1 :: p1) -> f b2 = false -> stops f (x ++ b2 :: p2).
Proof. destruct x; cbn; auto. Qed.
Lemma operator_no_blank op : In op operators -> Forall (fun c => blank c = false) (lit op).
Proof.
  intros Hi. assert (forallb (fun o => forallb (fun c => negb (blank c)) (lit o)) operators = true) as Hf
    by (vm_compute; reflexivity).
  rewrite forallb_forall in Hf. specialize (Hf op Hi). rewrite forallb_forall in Hf.
  apply Forall_forall. intros c Hc. specialize (Hf c Hc). destruct (blank c); [discriminate|reflexivity].
Qed.
Lemma blank_cases c : blank c = true -> (c = 32 \/ c = 9 \/ c = 10 \/ c = 13)%N.
Proof. unfold blank. lia. Qed.
Ltac notblank := match goal with Hb : blank ?b = true |- context [?b] =>
  destruct (blank_cases b Hb) as [-> |[-> |[-> | ->]]]; reflexivity end.

Lemma decimal_swap s x b1 p1 b2 p2 : blank b1 = true -> blank b2 = true ->
  decimal s (x ++ b1 :: p1) -> decimal s (x ++ b2 :: p2).
Proof.
  intros H1 H2 Hd. remember (x ++ b1 :: p1) as post eqn:Ep.
  destruct Hd as [int frac ex suf post Hne Hi H0 Hsd Hf Hex Hsuf Hpost]. subst post.
  assert (Hsw : forall f y, stops f (y ++ x ++ b1 :: p1) -> f b2 = false -> stops f (y ++ x ++ b2 :: p2)).
  { intros f y Hy Hfb. rewrite app_assoc in *. eapply stops_swap; eauto. }
  constructor; auto.
  - intros Hb. apply H0. rewrite !app_assoc in *. eapply (begins_swap (L "0x")); [repeat constructor|exact H2|exact Hb].
  - rewrite !app_assoc in *. rewrite <- (app_assoc _ x) in *. apply Hsw; [exact Hsd|notblank].
  - destruct Hf as [[-> Hs]|(ds & -> & Hds & Hs)]; [left|right; exists ds]; repeat split; auto;
      rewrite !app_assoc in *; rewrite <- (app_assoc _ x) in *; (apply Hsw; [exact Hs|notblank]).
  - destruct Hex as [[-> Hs]|(e & sg & ds & -> & He & Hsg & Hds & Hs & Hn)]; [left|right; exists e, sg, ds]; repeat split; auto.
    + apply Hsw; [exact Hs|]. notblank.
    + destruct Hsg as [[-> Hs']| ->]; [left; split; [reflexivity|]|right; reflexivity].
      rewrite !app_assoc in *. rewrite <- (app_assoc _ x) in *. apply Hsw; [exact Hs'|notblank].
    + apply Hsw; [exact Hs|]. notblank.
    + destruct sg; [|discriminate]. destruct ds; [|discriminate]. destruct suf; [|discriminate].
      destruct x; discriminate.
  - eapply stops_swap; [exact Hpost|]. destruct frac; notblank.
Qed.

Lemma lexeme_swap k c t x b1 p1 b2 p2 : blank b1 = true -> blank b2 = true ->
  (x = [] -> k <> "string"%string /\ (k = "import" \/ k = "macro" \/ k = "comment" -> b2 = 10%N)%string) ->
  lexeme k c t (x ++ b1 :: p1) -> lexeme k c t (x ++ b2 :: p2).
Proof.
  intros H1 H2 Hx Hl. remember (x ++ b1 :: p1) as post eqn:Ep.
  assert (Hnl : forall post, k = "import"%string \/ k = "macro"%string \/ k = "comment"%string ->
    stops (fun c => negb (newline c)) (x ++ b1 :: post) -> stops (fun c => negb (newline c)) (x ++ b2 :: p2)).
  { intros post0 Hk Hs. destruct x as [|y x]; [|exact Hs]. destruct (Hx eq_refl) as [_ Hb].
    rewrite (Hb Hk). reflexivity. }
  destruct Hl; subst.
  - apply Lx_import; auto. 2: (eapply Hnl; [tauto|eassumption]).
    destruct (line ++ x) as [|y z] eqn:E.
    + apply app_eq_nil in E as [-> ->]. cbn in *. congruence.
    + rewrite app_assoc, E in *. exact H3.
  - apply Lx_macro; [|assumption|eapply Hnl; [tauto|eassumption]]. intros Hb. apply H0.
    change (35%N :: line ++ ?z) with ((35%N :: line) ++ z) in *. rewrite app_assoc in *.
    eapply (begins_swap (L "#import")); [repeat constructor|exact H2|exact Hb].
  - apply Lx_line_comment; [assumption|eapply Hnl; [tauto|eassumption]].
  - apply Lx_block_comment; auto.
  - destruct x; discriminate.
  - apply Lx_keyword; [assumption|]. eapply stops_swap; eauto. notblank.
  - apply Lx_word; auto.
    + eapply stops_swap; eauto. notblank.
    + intros [E Hb]. apply H6. split; [exact E|].
      eapply (begins_swap (L "!")); [repeat constructor|exact H2|exact Hb].
  - apply Lx_calloc.
  - apply Lx_hex; auto.
    + rewrite app_assoc in *. eapply stops_swap; eauto. notblank.
    + eapply stops_swap; eauto. notblank.
  - apply Lx_decimal; [eapply decimal_swap; [exact H1|exact H2|exact H0]|]. eapply stops_swap; eauto. notblank.
  - destruct x as [|y x]; cbn in Ep; injection Ep as -> ->.
    + unfold letter, blank in *. lia.
    + apply Lx_bad_number; [|assumption]. exact (decimal_swap s (y :: x) b1 p1 b2 p2 H1 H2 H0).
  - destruct x as [|y x].
    + destruct (Hx eq_refl) as [Hs _]. congruence.
    + apply Lx_string; auto.
  - destruct x; discriminate.
  - apply Lx_char; auto.
  - apply Lx_escaped_char; auto.
  - apply Lx_bad_char; auto.
  - apply Lx_bad_escaped_char; auto.
  - apply Lx_operator; auto.
    + intros op' Ho Hb. apply H3; [exact Ho|].
      rewrite app_assoc in *. eapply begins_swap; [apply operator_no_blank; exact Ho|exact H2|exact Hb].
    + intros Hb. apply H4. rewrite app_assoc in *.
      eapply (begins_swap (L "//")); [repeat constructor|exact H2|exact Hb].
    + intros Hb. apply H5. rewrite app_assoc in *.
      eapply (begins_swap (L "/*")); [repeat constructor|exact H2|exact Hb].
  - destruct x as [|y x]; cbn in Ep; injection Ep as -> ->; [congruence|].
    apply Lx_unexpected; auto. intros op Ho Hb. apply (H8 op Ho).
    exact (begins_swap _ (operator_no_blank op Ho) (y :: x) b2 p2 b1 p1 H2 Hb).
Qed.

Lemma gap_swap g x b1 p1 b2 p2 : x <> [] -> blank b1 = true -> blank b2 = true ->
  gap g (x ++ b1 :: p1) -> gap g (x ++ b2 :: p2).
Proof.
  intros Hx H1 H2 Hg. remember (x ++ b1 :: p1) as post eqn:Ep. revert x Hx Ep.
  induction Hg as [ws post Hws|ws c t g post Hws Hl Hg IH]; intros x Hx ->.
  - constructor. exact Hws.
  - eapply Gap_comment; eauto. rewrite app_assoc in *.
    eapply lexeme_swap; [exact H1|exact H2| |exact Hl].
    intros E. apply app_eq_nil in E as [_ ->]. contradiction.
Qed.
Lemma gap_app g1 g2 post : gap g1 (g2 ++ post) -> gap g2 post -> gap (g1 ++ g2) post.
Proof.
  intros Hg Hg2. remember (g2 ++ post) as p eqn:Ep. induction Hg as [ws p Hws|ws c t g p Hws Hl Hg IH]; subst p.
  - destruct Hg2 as [ws2 post Hws2|ws2 c t g post Hws2 Hl Hg2].
    + constructor. apply Forall_app; auto.
    + rewrite app_assoc. eapply Gap_comment; eauto. apply Forall_app; auto.
  - rewrite <- !app_assoc. eapply Gap_comment; eauto. rewrite <- app_assoc. exact Hl.
Qed.

(** Positions do not matter for what is read. *)
Definition forget_tok (t : token) := (t_kind t, t_content t).
Definition forget_end (e : ending) : option (option (string * str)) :=
  match e with EndEof _ => Some None | EndPanic _ => None | EndStuck t => Some (Some (forget_tok t)) end.
Lemma lexes_move pre s toks e : lexes pre s toks e -> forall pre', exists toks' e',
  lexes pre' s toks' e' /\ map forget_tok toks = map forget_tok toks' /\ forget_end e = forget_end e'.
Proof.
  intros Hl. induction Hl as [pre g Hg|pre g k c t post toks e Hg Hlx Hk Hne Hl IH|pre k c post Hlx|pre g r why Hg Ha];
    intros pre'.
  - eexists _, _. split; [apply Lex_eof; exact Hg|]. split; reflexivity.
  - destruct (IH (pre' ++ g ++ t)) as (toks' & e' & Hl' & E1 & E2).
    eexists _, _. split; [eapply Lex_token; eauto|]. split; [cbn; rewrite E1; reflexivity|exact E2].
  - eexists _, _. split; [apply Lex_stuck; exact Hlx|]. split; reflexivity.
  - eexists _, _. split; [eapply Lex_abort; eauto|]. split; reflexivity.
Qed.

Lemma lexes_total pre s : exists toks e, lexes pre s toks e.
Proof. eexists _, _. apply (tokenize_lexes (S (List.length s))). lia. Qed.

Lemma lexes_other_gap pre1 pre2 g1 g2 v :
  g1 <> [] -> g2 <> [] -> gap g1 v -> gap g2 v ->
  exists toks1 e1 toks2 e2, lexes pre1 (g1 ++ v) toks1 e1 /\ lexes pre2 (g2 ++ v) toks2 e2 /\
    map forget_tok toks1 = map forget_tok toks2 /\ forget_end e1 = forget_end e2.
Proof.
  intros N1 N2 G1 G2.
  destruct (next_token_step v (mkPos 1 1)) as [Hg|g t post k c -> Hg Hl Hk|g r why -> Hg Ha].
  - eexists _, _, _, _. split; [apply Lex_eof|split; [apply Lex_eof|split; reflexivity]].
    + apply gap_app; rewrite ?app_nil_r; auto.
    + apply gap_app; rewrite ?app_nil_r; auto.
  - destruct (lexes_total (pre1 ++ (g1 ++ g) ++ t) post) as (toks1 & e1 & L1).
    destruct (lexes_move _ _ _ _ L1 (pre2 ++ (g2 ++ g) ++ t)) as (toks2 & e2 & L2 & E1 & E2).
    rewrite !(app_assoc _ g).
    eexists _, _, _, _. split; [|split; [|split]].
    + eapply Lex_token; eauto; [apply gap_app; auto|]. destruct g1; [contradiction|discriminate].
    + eapply Lex_token; eauto; [apply gap_app; auto|]. destruct g2; [contradiction|discriminate].
    + cbn. rewrite E1. reflexivity.
    + exact E2.
  - rewrite !(app_assoc _ g).
    eexists _, _, _, _. split; [|split; [|split]].
    + apply (Lex_abort pre1 _ r why); [apply gap_app; auto|exact Ha].
    + apply (Lex_abort pre2 _ r why); [apply gap_app; auto|exact Ha].
    + reflexivity.
    + reflexivity.
Qed.

Lemma spells_prefix pre u rest ts toks e :
  spells u rest ts -> lexes (pre ++ u) rest toks e ->
  exists toks', lexes pre (u ++ rest) (toks' ++ toks) e /\ map forget_tok toks' = ts.
Proof.
  intros Hs. revert pre. induction Hs as [rest|g k c t u rest ts Hg Hl Hk Ht Hs IH]; intros pre Hr.
  - exists []. rewrite app_nil_r in Hr. auto.
  - destruct (IH (pre ++ g ++ t)) as (toks' & HL & E).
    + rewrite <- !app_assoc in *. exact Hr.
    + exists (mkTok k c (position_after (pre ++ g ++ reported_after k c t)) :: toks'). split.
      * rewrite <- !app_assoc. cbn [app]. apply Lex_token; auto. destruct g; [destruct t; [contradiction|]|]; discriminate.
      * cbn. rewrite E. reflexivity.
Qed.
Lemma kept_apart_head ts g : kept_apart ts g -> ts <> [] -> exists b g', g = b :: g' /\ blank b = true.
Proof.
  unfold kept_apart. intros Hk Hne. destruct (lastk ts) eqn:E.
  - unfold separates in Hk. destruct g as [|b g']; [contradiction|]. destruct Hk as [Hb _]. eauto.
  - exfalso. destruct ts as [|x ts]; [contradiction|]. clear - E. revert x E.
    induction ts as [|y ts IH]; intros x E; [discriminate|]. apply (IH y). exact E.
Qed.
Lemma spells_other u g1 v1 ts : spells u (g1 ++ v1) ts -> forall g2 v2,
  kept_apart ts g1 -> kept_apart ts g2 -> spells u (g2 ++ v2) ts.
Proof.
  intros Hs. remember (g1 ++ v1) as rest eqn:Er.
  induction Hs as [rest|g k c t u rest ts Hg Hl Hk Ht Hs IH]; intros g2 v2 K1 K2; [constructor|]. subst rest.
  destruct (kept_apart_head _ _ K1) as (b1 & g1' & -> & B1); [discriminate|].
  destruct (kept_apart_head _ _ K2) as (b2 & g2' & -> & B2); [discriminate|].
  cbn [app] in *. constructor; auto.
  - rewrite app_assoc in *. eapply gap_swap; [|exact B1|exact B2|exact Hg]. destruct t; [contradiction|discriminate].
  - eapply lexeme_swap; [exact B1|exact B2| |exact Hl]. intros ->.
    assert (ts = []) as ->.
    { destruct ts as [|y ts]; [reflexivity|]. exfalso. inversion Hs.
      repeat match goal with E : _ ++ _ = [] |- _ => apply app_eq_nil in E as [? E] end. subst. cbn in *. congruence. }
    unfold kept_apart in K2. cbn in K2. destruct K2 as (_ & Hstr & Hdir). split; [exact Hstr|].
    intros [-> |[-> | ->]]; [apply Hdir; cbn; tauto|apply Hdir; cbn; tauto|congruence].
  - apply (IH eq_refl (b2 :: g2') v2).
    + destruct ts as [|y ts]; [unfold kept_apart; cbn; discriminate|exact K1].
    + destruct ts as [|y ts]; [unfold kept_apart; cbn; discriminate|exact K2].
Qed.

Lemma reads_shape toks1 e1 : forall toks2 e2 n,
  map forget_tok toks1 = map forget_tok toks2 -> forget_end e1 = forget_end e2 ->
  shapes (reads toks1 e1 n) = shapes (reads toks2 e2 n).
Proof.
  intros toks2 e2 n. revert toks1 toks2. induction n as [|n IH]; intros toks1 toks2 Ht He; [reflexivity|].
  destruct toks1 as [|t1 toks1], toks2 as [|t2 toks2]; try discriminate.
  - specialize (IH [] [] eq_refl He). unfold shapes in *.
    destruct e1 as [p1|w1|t1], e2 as [p2|w2|t2]; try discriminate; cbn [reads]; [| reflexivity |].
    + destruct (reads [] (EndEof p1) n), (reads [] (EndEof p2) n). cbn in *. congruence.
    + destruct (reads [] (EndStuck t1) n), (reads [] (EndStuck t2) n). cbn in *.
      injection He as E1 E2. congruence.
  - cbn in Ht. injection Ht as K C Ht. specialize (IH toks1 toks2 Ht He). unfold shapes in *. cbn [reads].
    destruct (reads toks1 e1 n), (reads toks2 e2 n). cbn in *. congruence.
Qed.
Lemma same_end_forget e1 e2 : same_end e1 e2 -> forget_end e1 = forget_end e2.
Proof. destruct e1, e2; cbn; intros E; try congruence; reflexivity. Qed.

Lemma replace_gap u g1 g2 v ts n :
  spells u (g1 ++ v) ts -> gap g1 v -> gap g2 v -> kept_apart ts g1 -> kept_apart ts g2 ->
  shapes (gets (u ++ g1 ++ v) n) = shapes (gets (u ++ g2 ++ v) n).
Proof.
  intros Hs G1 G2 K1 K2.
  assert (forall g, kept_apart ts g -> g <> []) as Hne.
  { intros g Hk ->. unfold kept_apart in Hk. destruct (lastk ts); [destruct Hk|]. congruence. }
  destruct (lexes_other_gap u u g1 g2 v (Hne _ K1) (Hne _ K2) G1 G2) as (t1 & e1 & t2 & e2 & L1 & L2 & ET & EE).
  pose proof (spells_other _ _ _ _ Hs g2 v K1 K2) as Hs2.
  destruct (spells_prefix [] _ _ _ _ _ Hs L1) as (p1 & M1 & F1).
  destruct (spells_prefix [] _ _ _ _ _ Hs2 L2) as (p2 & M2 & F2).
  destruct (lexes_gets _ _ _ M1) as (e1' & S1 & Q1). destruct (lexes_gets _ _ _ M2) as (e2' & S2 & Q2).
  rewrite Q1, Q2. apply reads_shape.
  - rewrite !map_app, F1, F2, ET. reflexivity.
  - rewrite <- (same_end_forget _ _ S1), <- (same_end_forget _ _ S2). exact EE.
Qed.

(** Two files spelled by the same tokens. *)
Lemma same_tokens u1 g1 u2 g2 ts n :
  spells u1 g1 ts -> gap g1 [] -> spells u2 g2 ts -> gap g2 [] ->
  shapes (gets (u1 ++ g1) n) = shapes (gets (u2 ++ g2) n).
Proof.
  intros S1 G1 S2 G2.
  destruct (spells_prefix [] _ _ _ _ _ S1 (Lex_eof _ _ G1)) as (p1 & M1 & F1).
  destruct (spells_prefix [] _ _ _ _ _ S2 (Lex_eof _ _ G2)) as (p2 & M2 & F2).
  destruct (lexes_gets _ _ _ M1) as (e1' & E1 & Q1). destruct (lexes_gets _ _ _ M2) as (e2' & E2 & Q2).
  rewrite Q1, Q2. apply reads_shape.
  - rewrite !map_app, F1, F2. reflexivity.
  - rewrite <- (same_end_forget _ _ E1), <- (same_end_forget _ _ E2). reflexivity.
Qed.

(** Progress. *)
Lemma decimal_nonempty s post : decimal s post -> s <> [].
Proof. intros [int frac ex suf post' Hne]. destruct int; [contradiction|discriminate]. Qed.
Lemma lexeme_empty k c post : lexeme k c [] post -> k = "error"%string /\ exists x, c = message_unexpected x.
Proof.
  intros Hl. remember (@nil char) as t eqn:Et. destruct Hl; try discriminate; subst; try contradiction.
  - destruct (keyword_word_chars k H0) as (x & w & E & _). congruence.
  - exfalso. eapply decimal_nonempty; eauto.
  - exfalso. eapply decimal_nonempty; eauto.
  - apply app_eq_nil in Et as [_ Et]. discriminate.
  - destruct (operator_start op H0) as (x & w & E & _). congruence.
  - eauto.
Qed.
Lemma lexes_length pre s toks e : lexes pre s toks e -> List.length toks <= List.length s.
Proof.
  intros Hl. induction Hl; cbn [List.length]; try lia.
  destruct g; [destruct t; [contradiction|]|]; len.
Qed.
Lemma lexes_stuck pre s toks t : lexes pre s toks (EndStuck t) -> unexpected t.
Proof.
  intros Hl. remember (EndStuck t) as e eqn:E. induction Hl; try discriminate; auto.
  injection E as <-. apply lexeme_empty in H0. exact H0.
Qed.

(** Aborting. *)
Lemma reads_flag toks e n : snd (reads toks e n) = true <-> (exists w, e = EndPanic w) /\ List.length toks < n.
Proof.
  revert toks; induction n as [|n IH]; intros toks.
  - cbn. split; [discriminate|]. intros [_ Hl]. lia.
  - destruct toks as [|t toks].
    + destruct e as [p|w|t]; cbn [reads].
      * destruct (reads [] (EndEof p) n) eqn:E. cbn. specialize (IH []). rewrite E in IH. cbn in IH.
        rewrite IH. split; intros [(w & ?) _]; discriminate.
      * cbn. split; [intros _; split; [eauto|lia]|reflexivity].
      * destruct (reads [] (EndStuck t) n) eqn:E. cbn. specialize (IH []). rewrite E in IH. cbn in IH.
        rewrite IH. split; intros [(w & ?) _]; discriminate.
    + cbn [reads]. destruct (reads toks e n) eqn:E. cbn. specialize (IH toks). rewrite E in IH. cbn in IH.
      rewrite IH. split; intros [Hw Hl]; split; auto; lia.
Qed.
Lemma gets_abort text :
  (exists n, snd (gets text n) = true) <-> exists toks why, lexes [] text toks (EndPanic why).
Proof.
  split.
  - intros (n & Hn). rewrite gets_tokenize in Hn. apply reads_flag in Hn as [(w & Hw) _].
    exists (c_toks (tokenize (buf_new text))), w. rewrite <- Hw. apply tokenize_spec.
  - intros (toks & why & Hl). destruct (lexes_gets _ _ _ Hl) as (e' & He & Hg).
    exists (S (List.length toks)). rewrite Hg. apply reads_flag. split; [|lia].
    destruct e'; cbn in He; try discriminate. eauto.
Qed.
Lemma gets_progress text : exists toks e,
  List.length toks <= List.length text /\ (forall t, e = EndStuck t -> unexpected t) /\
  forall n, gets text n = reads toks e n.
Proof.
  exists (c_toks (tokenize (buf_new text))), (c_end (tokenize (buf_new text))).
  pose proof (tokenize_spec text) as Hs. split; [eapply lexes_length; eauto|]. split.
  - intros t Ht. rewrite Ht in Hs. eapply lexes_stuck; eauto.
  - intros n. apply gets_tokenize.
Qed.

Lemma operator_kind k c t post : lexeme k c t post -> In k operators ->
  c = [] /\ t = lit k /\
  forall op', In op' operators -> begins (lit k ++ post) (lit op') -> List.length (lit op') <= List.length (lit k).
Proof.
  intros Hl Hi. destruct Hl; try (exfalso; revert Hi; clear; cbn; intuition discriminate); auto.
  exfalso. revert H0 Hi. clear. cbn. intuition (subst; discriminate).
Qed.
Lemma word_kind k c t post : lexeme k c t post -> k = "word"%string \/ In k reserved ->
  (k = "word"%string /\ t = L "calloc!" /\ c = L "calloc!") \/
  (exists x w, t = x :: w /\ word_start x = true /\ all word_char w /\ stops word_char post
    /\ (In t (map lit reserved) -> lit k = t /\ c = [] /\ In k reserved)
    /\ (~ In t (map lit reserved) -> k = "word"%string /\ c = t)).
Proof.
  intros Hl Hi. destruct Hl; try (exfalso; revert Hi; clear; cbn; intuition discriminate); auto.
  - right. destruct (keyword_word_chars k H0) as (x & w & E & Hx & Hw). exists x, w.
    split; [exact E|]. split; [exact Hx|]. split; [exact Hw|]. split; [exact H1|]. split.
    + intros _. auto.
    + intros Hn. exfalso. apply Hn, in_map, H0.
  - right. exists c, w. split; [reflexivity|]. split; [exact H0|]. split; [exact H1|]. split; [exact H2|]. split.
    + intros Hn. contradiction.
    + auto.
  - exfalso. revert H0 Hi. clear. cbn. intuition (subst; discriminate).
Qed.
Lemma string_kind c t post : lexeme "string" c t post ->
  pieces c t /\ t <> [] /\ stops blank post /\ stops (N.eqb 34) post.
Proof.
  intros Hl. remember "string"%string as k eqn:Ek. destruct Hl; try discriminate; subst; auto.
  - exfalso. revert H0. clear. cbn. intuition discriminate.
  - exfalso. revert H0. clear. cbn. intuition discriminate.
Qed.
Lemma gets_word text n t : In (ATok (Some t)) (fst (gets text n)) ->
  t_kind t = "word"%string \/ In (t_kind t) reserved ->
  exists u run post, text = u ++ run ++ post /\ t_pos t = position_after u /\
  ((t_kind t = "word"%string /\ run = L "calloc!" /\ t_content t = L "calloc!") \/
  (exists x w, run = x :: w /\ word_start x = true /\ all word_char w /\ stops word_char post
    /\ (In run (map lit reserved) -> lit (t_kind t) = run /\ t_content t = [] /\ In (t_kind t) reserved)
    /\ (~ In run (map lit reserved) -> t_kind t = "word"%string /\ t_content t = run))).
Proof.
  intros Hg Hk. destruct (gets_lexeme text n t Hg) as (u & sp & post & E & Hl & _ & Hp).
  exists u, sp, post. split; [exact E|]. split.
  - rewrite Hp. rewrite reported_not_error; [rewrite app_nil_r; reflexivity|].
    intros E'. rewrite E' in Hk. revert Hk. clear. cbn. intuition discriminate.
  - apply (word_kind _ _ _ _ Hl Hk).
Qed.
Lemma gets_operator text n t : In (ATok (Some t)) (fst (gets text n)) -> In (t_kind t) operators ->
  exists u post, text = u ++ lit (t_kind t) ++ post /\ t_pos t = position_after u /\
  forall op, In op operators -> begins (lit (t_kind t) ++ post) (lit op) ->
             List.length (lit op) <= List.length (lit (t_kind t)).
Proof.
  intros Hg Hk. destruct (gets_lexeme text n t Hg) as (u & sp & post & E & Hl & _ & Hp).
  destruct (operator_kind _ _ _ _ Hl Hk) as (Ec & -> & Hm).
  exists u, post. split; [exact E|]. split; [|exact Hm].
  rewrite Hp. rewrite reported_not_error; [rewrite app_nil_r; reflexivity|].
  intros E'. rewrite E' in Hk. revert Hk. clear. cbn. intuition discriminate.
Qed.
Lemma gets_string text n t : In (ATok (Some t)) (fst (gets text n)) -> t_kind t = "string"%string ->
  exists u sp post, text = u ++ sp ++ post /\ t_pos t = position_after u /\ pieces (t_content t) sp /\
    sp <> [] /\ stops blank post /\ stops (N.eqb 34) post.
Proof.
  intros Hg Hk. destruct (gets_lexeme text n t Hg) as (u & sp & post & E & Hl & _ & Hp).
  rewrite Hk in Hl. destruct (string_kind _ _ _ Hl) as (H1 & H2 & H3 & H4).
  exists u, sp, post. repeat split; auto. rewrite Hp, Hk. cbn. rewrite app_nil_r. reflexivity.
Qed.
Lemma first_token ws k c t post : all blank ws -> lexeme k c t post -> k <> "comment"%string ->
  gets (ws ++ t ++ post) 1 = ([ATok (Some (mkTok k c (position_after (ws ++ reported_after k c t))))], false).
Proof.
  intros Hw Hl Hk. unfold gets, lx_new, buf_new. cbn [repeat lazy_run lazy_do lx_get lx_next lx_buf].
  rewrite (next_token_intro ws t post k c _ (Gap_blank _ _ Hw) Hl Hk). cbn [rbind lazy_run].
  rewrite <- position_after_nil, <- position_after_app. reflexivity.
Qed.
Lemma string_read ws c s post : all blank ws -> pieces c s -> s <> [] -> stops blank post -> stops (N.eqb 34) post ->
  gets (ws ++ s ++ post) 1 = ([ATok (Some (mkTok "string" c (position_after ws)))], false).
Proof.
  intros Hw Hp Hne H1 H2. rewrite (first_token ws "string" c s post Hw); [|constructor; auto|discriminate].
  rewrite reported_not_error, app_nil_r by discriminate. reflexivity.
Qed.
Lemma open_string_read ws c s b : all blank ws -> pieces c s -> escaped b ->
  gets (ws ++ s ++ 34%N :: b) 1 = ([ATok (Some (mkTok "error" (L "Double quote expected") (position_after ws)))], false).
Proof.
  intros Hw Hp He.
  pose proof (first_token ws "error" (L "Double quote expected") (s ++ 34%N :: b) [] Hw) as E.
  rewrite app_nil_r in E. rewrite E; [|econstructor; eauto|discriminate].
  cbn. rewrite app_nil_r. reflexivity.
Qed.
Lemma token_consumes text n t : In (ATok (Some t)) (fst (gets text n)) -> ~ unexpected t ->
  exists u sp post, text = u ++ sp ++ post /\ sp <> [] /\ lexeme (t_kind t) (t_content t) sp post.
Proof.
  intros Hg Hn. destruct (gets_lexeme text n t Hg) as (u & sp & post & E & Hl & _ & Hp).
  exists u, sp, post. repeat split; auto. intros ->. apply Hn. apply lexeme_empty in Hl. exact Hl.
Qed.
End Gap.
