(** The lazily filled token queue of Lexer.v answers every history of
    operations like the cursor of Cursor.v over the file's token sequence. *)
From Coq Require Import ZifyBool ZifyN.
From Verif Require Import Base Buf Lexer Nodes Cursor BaseFacts LexOps SpecLex LexFacts TokenFacts.

Section Ref.
Context `{Unicode}.

Lemma tokenize_aux_fuel f1 : forall f2 b, List.length (b_rest b) < f1 -> List.length (b_rest b) < f2 ->
  tokenize_aux f1 b = tokenize_aux f2 b.
Proof.
  induction f1 as [|f1 IH]; intros f2 b H1 H2; [lia|]. destruct f2 as [|f2]; [lia|].
  cbn [tokenize_aux]. destruct b as [s p]. pose proof (next_token_step s p) as Hn.
  destruct (next_token (mkBuf s p)) as [[[t|] b']|w|]; try reflexivity.
  destruct (Nat.eqb_spec (List.length (b_rest b')) (List.length (b_rest (mkBuf s p)))); [reflexivity|].
  assert (List.length (b_rest b') <= List.length s) as Hle by (inversion Hn; subst; cbn [b_rest] in *; len).
  cbn [b_rest] in *. rewrite (IH f2 b') by lia. reflexivity.
Qed.

Inductive tstep (b : buf) : Prop :=
| TS_end b' : next_token b = Done (None, b') -> tokenize b = mkCur [] (EndEof (b_pos b')) ->
    tokenize b' = mkCur [] (EndEof (b_pos b')) -> tstep b
| TS_stuck t : next_token b = Done (Some t, b) -> tokenize b = mkCur [] (EndStuck t) -> tstep b
| TS_tok t b' : next_token b = Done (Some t, b') ->
    tokenize b = mkCur (t :: c_toks (tokenize b')) (c_end (tokenize b')) -> tstep b
| TS_panic w : next_token b = Panic w -> tokenize b = mkCur [] (EndPanic w) -> tstep b.

Lemma tokenize_step b : tstep b.
Proof.
  destruct b as [s p]. pose proof (next_token_step s p) as Hn.
  unfold tokenize. 
  remember (next_token (mkBuf s p)) as r eqn:Er. symmetry in Er.
  destruct Hn as [Hg|g t post k c -> Hg Hl Hk|g r why -> Hg Ha].
  - eapply TS_end; [exact Er| |reflexivity].
    unfold tokenize. cbn [tokenize_aux]. rewrite Er. reflexivity.
  - destruct (Nat.eqb_spec (List.length post) (List.length (g ++ t ++ post))) as [He|He].
    + assert (g = []) as -> by (destruct g; [reflexivity|len]).
      assert (t = []) as -> by (destruct t; [reflexivity|len]).
      cbn [app adv fold_left] in *. eapply TS_stuck; [exact Er|].
      unfold tokenize. cbn [tokenize_aux]. rewrite Er. cbn [b_rest]. rewrite Nat.eqb_refl. reflexivity.
    + eapply TS_tok; [exact Er|].
      unfold tokenize at 1. cbn [tokenize_aux]. rewrite Er. cbn [b_rest].
      destruct (Nat.eqb_spec (List.length post) (List.length (g ++ t ++ post))); [contradiction|].
      unfold tokenize. cbn [b_rest].
      rewrite (tokenize_aux_fuel (List.length (g ++ t ++ post)) (S (List.length post))); [reflexivity|cbn [b_rest]..].
      * rewrite !app_length in *. lia.
      * lia.
  - eapply TS_panic; [exact Er|]. unfold tokenize. cbn [tokenize_aux]. rewrite Er. reflexivity.
Qed.

Definition pad (e : ending) (m : nat) : list token :=
  match e with EndStuck t => repeat t m | _ => [] end.
Definition R (l : lexer) (c : cursor) : Prop :=
  c_end c = c_end (tokenize (lx_buf l)) /\
  exists m, c_toks c ++ pad (c_end c) m = lx_next l ++ c_toks (tokenize (lx_buf l)).

Lemma R_new text : R (lx_new text) (tokenize (buf_new text)).
Proof.
  split; [reflexivity|]. exists 0. cbn [lx_new lx_buf lx_next app].
  destruct (c_end (tokenize (buf_new text))); apply app_nil_r.
Qed.

Lemma R_next_some q b c t b' : R (mkLexer b q) c -> next_token b = Done (Some t, b') ->
  R (mkLexer b' (q ++ [t])) c.
Proof.
  intros [He (m & Hm)] Hn. destruct (tokenize_step b) as [b2 Hn2|t2 Hn2 Ht|t2 b2 Hn2 Ht|w Hn2];
    rewrite Hn in Hn2; try discriminate; injection Hn2 as <-; try subst b2;
    unfold R; cbn [lx_buf lx_next] in *.
  - subst b'. split; [exact He|]. exists (S m). rewrite Ht in *. cbn [c_toks c_end] in *.
    rewrite He in *. cbn [pad] in *. rewrite !app_nil_r in *. cbn [repeat]. rewrite repeat_cons, app_assoc, Hm. reflexivity.
  - rewrite Ht in *. cbn [c_toks c_end] in *. split; [exact He|]. exists m. rewrite Hm, <- app_assoc. reflexivity.
Qed.
Lemma R_next_none q b c b' : R (mkLexer b q) c -> next_token b = Done (None, b') ->
  R (mkLexer b' q) c /\ c_end c = EndEof (b_pos b') /\ c_toks c = q.
Proof.
  intros [He (m & Hm)] Hn. destruct (tokenize_step b) as [b2 Hn2 T1 T2|t2 Hn2 Ht|t2 b2 Hn2 Ht|w Hn2];
    rewrite Hn in Hn2; try discriminate; injection Hn2 as <-.
  unfold R; cbn [lx_buf lx_next] in *. rewrite T1 in *. rewrite T2. cbn [c_toks c_end] in *.
  rewrite He in *. cbn [pad] in *. rewrite !app_nil_r in *.
  split; [split; [reflexivity|exists m; cbn [pad]; rewrite ?app_nil_r; exact Hm]|]. auto.
Qed.
Lemma R_next_panic q b c w : R (mkLexer b q) c -> next_token b = Panic w ->
  c_end c = EndPanic w /\ c_toks c = q.
Proof.
  intros [He (m & Hm)] Hn. destruct (tokenize_step b) as [b2 Hn2 T1 T2|t2 Hn2 Ht|t2 b2 Hn2 Ht|w2 Hn2 Ht];
    rewrite Hn in Hn2; try discriminate; injection Hn2 as <-.
  cbn [lx_buf lx_next] in *. rewrite Ht in *. cbn [c_toks c_end] in *. rewrite He in *. cbn [pad] in *.
  rewrite !app_nil_r in *. auto.
Qed.
Lemma next_token_not_oof b : next_token b <> Oof.
Proof. destruct (tokenize_step b); congruence. Qed.

Lemma R_pop t q b c : R (mkLexer b (t :: q)) c ->
  exists c1, peek c = (Ok (Some t), c) /\ get c = (Ok (Some t), c1) /\ R (mkLexer b q) c1.
Proof.
  intros [He (m & Hm)]. cbn [lx_buf lx_next] in *.
  destruct c as [[|t' toks] e]; cbn [c_toks c_end app] in *.
  - destruct e as [p|w|t']; cbn [pad] in Hm; try discriminate.
    destruct m as [|m]; [discriminate|]. cbn in Hm. injection Hm as -> Hm.
    exists (mkCur [] (EndStuck t)). repeat split; auto. exists m. exact Hm.
  - injection Hm as -> Hm. exists (mkCur toks e). repeat split; auto. exists m. exact Hm.
Qed.
Lemma R_push t q b c : R (mkLexer b q) c -> R (mkLexer b (t :: q)) (mkCur (t :: c_toks c) (c_end c)).
Proof.
  intros [He (m & Hm)]. split; [exact He|]. exists m. cbn [lx_buf lx_next c_toks c_end app] in *. congruence.
Qed.
Lemma R_cons_fill t b b' c : R (mkLexer b []) c -> next_token b = Done (Some t, b') -> R (mkLexer b' [t]) c.
Proof. apply (R_next_some []). Qed.

Inductive get_view (l : lexer) (c : cursor) : Prop :=
| GV_some t l1 c1 : lx_get l = Done (Some t, l1) -> peek c = (Ok (Some t), c) -> get c = (Ok (Some t), c1) ->
    R l1 c1 -> R (lx_unget t l1) c -> get_view l c
| GV_none l1 : lx_get l = Done (None, l1) -> peek c = (Ok None, c) -> get c = (Ok None, c) -> R l1 c ->
    lx_pos l1 = eof_pos c -> lx_next l1 = [] -> get_view l c
| GV_panic w : lx_get l = Panic w -> peek c = (Abort w, c) -> get c = (Abort w, c) -> get_view l c.
Lemma lx_get_view l c : R l c -> get_view l c.
Proof.
  intros HR. destruct l as [b [|t q]].
  - destruct (next_token b) as [[[t|] b']|w|] eqn:En.
    + pose proof (R_cons_fill t b b' c HR En) as HR'.
      destruct (R_pop _ _ _ _ HR') as (c1 & H1 & H2 & H3).
      eapply GV_some; eauto. unfold lx_get. cbn [lx_next lx_buf]. rewrite En. reflexivity.
    + destruct (R_next_none _ _ _ _ HR En) as (HR' & He & Ht).
      eapply GV_none; [unfold lx_get; cbn [lx_next lx_buf]; rewrite En; reflexivity|..].
      * unfold peek. rewrite Ht, He. reflexivity.
      * unfold get. rewrite Ht, He. reflexivity.
      * exact HR'.
      * unfold lx_pos, eof_pos. rewrite He. reflexivity.
      * reflexivity.
    + destruct (R_next_panic _ _ _ _ HR En) as (He & Ht).
      eapply GV_panic; [unfold lx_get; cbn [lx_next lx_buf]; rewrite En; reflexivity|..].
      * unfold peek. rewrite Ht, He. reflexivity.
      * unfold get. rewrite Ht, He. reflexivity.
    + exfalso. exact (next_token_not_oof b En).
  - destruct (R_pop _ _ _ _ HR) as (c1 & H1 & H2 & H3). eapply GV_some; eauto. reflexivity.
Qed.

Inductive fill_view (k : nat) (l : lexer) (c : cursor) : Prop :=
| FV_ok l' : lx_fill k l = Done (true, l') -> R l' c -> List.length (lx_next l') = List.length (lx_next l) + k -> fill_view k l c
| FV_short l' p : lx_fill k l = Done (false, l') -> R l' c -> c_end c = EndEof p -> c_toks c = lx_next l' ->
    List.length (lx_next l') < List.length (lx_next l) + k -> fill_view k l c
| FV_panic w : lx_fill k l = Panic w -> c_end c = EndPanic w ->
    List.length (c_toks c) < List.length (lx_next l) + k -> fill_view k l c.
Lemma lx_fill_view k : forall l c, R l c -> fill_view k l c.
Proof.
  induction k as [|k IH]; intros l c HR.
  - eapply FV_ok; [reflexivity|exact HR|lia].
  - destruct l as [b q]. destruct (next_token b) as [[[t|] b']|w|] eqn:En.
    + pose proof (R_next_some _ _ _ _ _ HR En) as HR'.
      destruct (IH _ _ HR') as [l' E1 E2 E3|l' p E1 E2 E3 E4 E5|w E1 E2 E3]; cbn [lx_next] in *;
        rewrite app_length in *; cbn [List.length] in *.
      * eapply FV_ok; [cbn [lx_fill lx_buf lx_next]; rewrite En; exact E1|exact E2|cbn [lx_next]; lia].
      * eapply FV_short; [cbn [lx_fill lx_buf lx_next]; rewrite En; exact E1|eauto..|cbn [lx_next]; lia].
      * eapply FV_panic; [cbn [lx_fill lx_buf lx_next]; rewrite En; exact E1|eauto|cbn [lx_next]; lia].
    + destruct (R_next_none _ _ _ _ HR En) as (HR' & He & Ht).
      eapply FV_short; [cbn [lx_fill lx_buf lx_next]; rewrite En; reflexivity|eauto..|cbn [lx_next]; lia].
    + destruct (R_next_panic _ _ _ _ HR En) as (He & Ht).
      eapply FV_panic; [cbn [lx_fill lx_buf lx_next]; rewrite En; reflexivity|exact He|].
      rewrite Ht. cbn [lx_next]. lia.
    + exfalso. exact (next_token_not_oof b En).
Qed.

Lemma firstn_repeat {A} (x : A) n m : n <= m -> firstn n (repeat x m) = repeat x n.
Proof.
  revert m; induction n as [|n IH]; intros m Hm; [reflexivity|].
  destruct m as [|m]; [lia|]. cbn. rewrite IH by lia. reflexivity.
Qed.
Lemma R_firstn n l c : R l c -> n <= List.length (lx_next l) ->
  peekn n c = (Ok (Some (firstn n (lx_next l))), c).
Proof.
  intros [He (m & Hm)] Hn. unfold peekn.
  assert (firstn n (lx_next l) = firstn n (c_toks c ++ pad (c_end c) m)) as ->.
  { rewrite Hm. rewrite firstn_app. replace (n - List.length (lx_next l)) with 0 by lia.
    cbn. rewrite app_nil_r. reflexivity. }
  assert (n <= List.length (c_toks c ++ pad (c_end c) m)) as Hlen by (rewrite Hm, app_length; lia).
  rewrite firstn_app. destruct (Nat.leb_spec n (List.length (c_toks c))) as [Hle|Hgt].
  - replace (n - List.length (c_toks c)) with 0 by lia. cbn. rewrite app_nil_r. reflexivity.
  - rewrite app_length in Hlen. destruct (c_end c) as [p|w|t]; cbn [pad] in *; [cbn in Hlen; lia..|].
    rewrite repeat_length in Hlen. rewrite firstn_repeat by lia.
    rewrite firstn_all2 by lia. reflexivity.
Qed.

Inductive peekn_view (n : nat) (l : lexer) (c : cursor) : Prop :=
| PV_ok o l' : lx_peekn n l = Done (o, l') -> peekn n c = (Ok o, c) -> R l' c ->
               (forall ts, o = Some ts -> List.length ts = n) -> peekn_view n l c
| PV_panic w : lx_peekn n l = Panic w -> peekn n c = (Abort w, c) -> peekn_view n l c.
Lemma lx_peekn_view n l c : R l c -> peekn_view n l c.
Proof.
  intros HR. unfold lx_peekn.
  destruct (le_lt_dec n (List.length (lx_next l))) as [Hle|Hlt].
  - eapply PV_ok; [unfold lx_peekn; replace (n - List.length (lx_next l)) with 0 by lia; reflexivity|..].
    + apply R_firstn; assumption.
    + exact HR.
    + intros ts [= <-]. apply firstn_length_le. exact Hle.
  - destruct (lx_fill_view (n - List.length (lx_next l)) l c HR) as [l' E1 E2 E3|l' p E1 E2 E3 E4 E5|w E1 E2 E3].
    + eapply PV_ok; [unfold lx_peekn; rewrite E1; reflexivity|..].
      * apply R_firstn; [assumption|lia].
      * exact E2.
      * intros ts [= <-]. apply firstn_length_le. lia.
    + eapply PV_ok; [unfold lx_peekn; rewrite E1; reflexivity|..].
      * unfold peekn. rewrite E3, E4. destruct (Nat.leb_spec n (List.length (lx_next l'))); [lia|reflexivity].
      * exact E2.
      * discriminate.
    + eapply PV_panic; [unfold lx_peekn; rewrite E1; reflexivity|].
      unfold peekn. rewrite E2. destruct (Nat.leb_spec n (List.length (c_toks c))); [lia|reflexivity].
Qed.
Lemma peekn_peek c : peek c = bind (peekn 1) (fun o => ret (match o with Some (t :: _) => Some t | _ => None end)) c.
Proof. destruct c as [[|t toks] [p|w|t']]; reflexivity. Qed.

(** One operation. *)
Lemma do_agree o l c : R l c ->
  match lazy_do o l with
  | Done (a, l') => exists c', cursor_do o c = (Ok a, c') /\ R l' c'
  | Panic w => cursor_do o c = (Abort w, c)
  | Oof => False
  end.
Proof.
  intros HR.
  assert (Hmore : match lx_more l with
                  | Done (b, l') => more c = (Ok b, c) /\ R l' c /\ (b = true -> exists t, peek c = (Ok (Some t), c))
                                    /\ (b = false -> peek c = (Ok None, c))
                  | Panic w => more c = (Abort w, c) /\ peek c = (Abort w, c)
                  | Oof => False end).
  { unfold lx_more, more. destruct (lx_get_view l c HR) as [t l1 c1 E1 E2 E3 E4 E5|l1 E1 E2 E3 E4 E5|w E1 E2 E3];
      rewrite E1; cbn [rbind]; unfold bind; rewrite E2; repeat match goal with |- R _ _ => assumption | |- _ /\ _ => split end; intros; try discriminate; eauto. }
  assert (Hpeek : forall l, R l c -> match lx_peek l with
                  | Done (o, l') => peek c = (Ok o, c) /\ R l' c
                  | Panic w => peek c = (Abort w, c)
                  | Oof => False end).
  { clear. intros l HR. unfold lx_peek. rewrite peekn_peek.
    destruct (lx_peekn_view 1 l c HR) as [o l' E1 E2 E3|w E1 E2]; rewrite E1; cbn [rbind]; unfold bind; rewrite E2;
      [|reflexivity]. split; [reflexivity|exact E3]. }
  assert (Hfollows : forall k, match lx_follows k l with
                  | Done (b, l') => follows k c = (Ok b, c) /\ R l' c
                  | Panic w => follows k c = (Abort w, c)
                  | Oof => False end).
  { intros k. unfold lx_follows. destruct (lx_more l) as [[b l1]|w|]; cbn [rbind].
    - destruct Hmore as (_ & HR1 & Ht & Hf). destruct b.
      + destruct (Ht eq_refl) as (t & Hp). specialize (Hpeek l1 HR1).
        destruct (lx_peek l1) as [[o2 l2]|w|]; cbn [rbind].
        * destruct Hpeek as [Hp2 HR2]. rewrite Hp in Hp2. injection Hp2 as <-.
          split; [|exact HR2]. unfold follows, bind. rewrite Hp. reflexivity.
        * congruence.
        * contradiction.
      + unfold follows, bind. rewrite (Hf eq_refl). split; [reflexivity|exact HR1].
    - destruct Hmore as [_ Hp]. unfold follows, bind. rewrite Hp. reflexivity.
    - exact Hmore. }
  destruct o as [| | |n|k|k|t]; cbn [lazy_do cursor_do].
  - destruct (lx_more l) as [[b l1]|w|]; cbn [rbind]; [|unfold bind; rewrite (proj1 Hmore); reflexivity|exact Hmore].
    destruct Hmore as (E & HR1 & _). exists c. unfold bind. rewrite E. split; [reflexivity|exact HR1].
  - destruct (lx_get_view l c HR) as [t l1 c1 E1 E2 E3 E4 E5|l1 E1 E2 E3 E4 E5|w E1 E2 E3];
      rewrite E1; cbn [rbind]; unfold bind; rewrite E3; unfold ret; eauto.
  - specialize (Hpeek l HR). destruct (lx_peek l) as [[o2 l1]|w|]; cbn [rbind];
      [|unfold bind; rewrite Hpeek; reflexivity|exact Hpeek].
    destruct Hpeek as (E & HR1). exists c. unfold bind. rewrite E. split; [reflexivity|exact HR1].
  - destruct (lx_peekn_view n l c HR) as [o l' E1 E2 E3|w E1 E2]; rewrite E1; cbn [rbind]; unfold bind; rewrite E2;
      [|reflexivity]. exists c. split; [reflexivity|exact E3].
  - specialize (Hfollows k). destruct (lx_follows k l) as [[b l1]|w|]; cbn [rbind];
      [|unfold bind; rewrite Hfollows; reflexivity|exact Hfollows].
    destruct Hfollows as (E & HR1). exists c. unfold bind. rewrite E. split; [reflexivity|exact HR1].
  - specialize (Hfollows k). unfold lx_eat, eat.
    destruct (lx_follows k l) as [[b l1]|w|]; cbn [rbind];
      [|unfold bind; rewrite Hfollows; reflexivity|exact Hfollows].
    destruct Hfollows as (E & HR1). unfold bind. rewrite E. destruct b.
    + destruct (lx_get_view l1 c HR1) as [t l2 c1 E1 E2 E3 E4 E5|l2 E1 E2 E3 E4 E5|w E1 E2 E3];
        rewrite E1; cbn [rbind]; rewrite E3; unfold ret; try reflexivity; eexists; (split; [reflexivity|assumption]).
    + unfold ret. eexists. split; [reflexivity|assumption].
  - exists (mkCur (t :: c_toks c) (c_end c)). split; [reflexivity|]. destruct l. apply R_push. exact HR.
Qed.

Theorem lazy_run_agree ops : forall l c, R l c -> lazy_run ops l = cursor_run ops c.
Proof.
  induction ops as [|o ops IH]; intros l c HR; [reflexivity|]. cbn [lazy_run cursor_run].
  pose proof (do_agree o l c HR) as Hd. destruct (lazy_do o l) as [[a l']|w|].
  - destruct Hd as (c' & E & HR'). rewrite E. rewrite (IH _ _ HR'). reflexivity.
  - rewrite Hd. reflexivity.
  - destruct Hd.
Qed.

(** ** Sequences of [get] *)
Lemma cursor_gets n : forall toks e,
  cursor_run (repeat OGet n) (mkCur toks e) = reads toks e n.
Proof.
  induction n as [|n IH]; intros toks e; [reflexivity|]. cbn [repeat cursor_run cursor_do].
  destruct toks as [|t toks].
  - destruct e as [p|w|t]; cbn; [|reflexivity|]; rewrite IH; reflexivity.
  - cbn. rewrite IH. reflexivity.
Qed.
Lemma gets_tokenize text n :
  gets text n = reads (c_toks (tokenize (buf_new text))) (c_end (tokenize (buf_new text))) n.
Proof.
  unfold gets. rewrite (lazy_run_agree _ _ _ (R_new text)).
  destruct (tokenize (buf_new text)) as [toks e]. apply cursor_gets.
Qed.
Lemma tokenize_spec text :
  lexes [] text (c_toks (tokenize (buf_new text))) (c_end (tokenize (buf_new text))).
Proof.
  unfold tokenize, buf_new. cbn [b_rest]. rewrite <- position_after_nil. apply tokenize_lexes. lia.
Qed.
Lemma history_spec text : exists toks e,
  lexes [] text toks e /\ forall ops, lazy_run ops (lx_new text) = cursor_run ops (mkCur toks e).
Proof.
  exists (c_toks (tokenize (buf_new text))), (c_end (tokenize (buf_new text))).
  split; [apply tokenize_spec|]. intros ops. rewrite (lazy_run_agree _ _ _ (R_new text)).
  destruct (tokenize (buf_new text)); reflexivity.
Qed.
Lemma lexes_gets text toks e : lexes [] text toks e ->
  exists e', same_end e e' /\ forall n, gets text n = reads toks e' n.
Proof.
  intros Hl. destruct (lexes_tokenize _ _ _ _ Hl (S (List.length text))) as [E1 E2]; [lia|].
  exists (c_end (tokenize (buf_new text))). split; [exact E2|]. intros n. rewrite gets_tokenize.
  unfold tokenize, buf_new in *. cbn [b_rest] in *. rewrite position_after_nil in E1. rewrite E1. reflexivity.
Qed.
Lemma reads_in toks e n t : In (ATok (Some t)) (fst (reads toks e n)) ->
  In t toks \/ e = EndStuck t.
Proof.
  revert toks; induction n as [|n IH]; intros toks Hi; [destruct Hi|].
  destruct toks as [|t' toks].
  - destruct e as [p|w|t']; cbn in Hi; [| |].
    + destruct (reads [] (EndEof p) n) as [an f] eqn:E. cbn in Hi. destruct Hi as [Hi|Hi]; [discriminate|].
      destruct (IH [] ltac:(rewrite E; exact Hi)) as [[]|]; discriminate.
    + destruct Hi.
    + destruct (reads [] (EndStuck t') n) as [an f] eqn:E. cbn in Hi. destruct Hi as [Hi|Hi]; [right; congruence|].
      destruct (IH [] ltac:(rewrite E; exact Hi)) as [[]|]; [right; assumption].
  - cbn in Hi. destruct (reads toks e n) as [an f] eqn:E. cbn in Hi. destruct Hi as [Hi|Hi].
    + injection Hi as ->. left. left. reflexivity.
    + destruct (IH toks ltac:(rewrite E; exact Hi)); [left; right|right]; assumption.
Qed.

(** Every token read is a lexeme at its place. *)
Lemma lexes_in pre s toks e : lexes pre s toks e -> forall t, In t toks \/ e = EndStuck t ->
  exists u sp post, pre ++ s = u ++ sp ++ post /\ lexeme (t_kind t) (t_content t) sp post
    /\ t_kind t <> "comment"%string
    /\ t_pos t = position_after (u ++ reported_after (t_kind t) (t_content t) sp).
Proof.
  intros Hl. induction Hl as [pre g Hg|pre g k c t post toks e Hg Hlx Hk Hne Hl IH|pre k c post Hlx|pre g r why Hg Ha];
    intros t0 Hi.
  - destruct Hi as [[]|]; discriminate.
  - destruct Hi as [[<-|Hi]|Hi].
    + exists (pre ++ g), t, post. cbn [t_kind t_content t_pos]. repeat split; auto.
      * rewrite <- !app_assoc. reflexivity.
      * rewrite <- !app_assoc. reflexivity.
    + destruct (IH t0 (or_introl Hi)) as (u & sp & post' & E & H1 & H2 & H3).
      exists u, sp, post'. repeat split; auto. rewrite <- E, <- !app_assoc. reflexivity.
    + destruct (IH t0 (or_intror Hi)) as (u & sp & post' & E & H1 & H2 & H3).
      exists u, sp, post'. repeat split; auto. rewrite <- E, <- !app_assoc. reflexivity.
  - destruct Hi as [[]|[= <-]]. exists pre, [], post. cbn [t_kind t_content t_pos app].
    repeat split; auto.
    + intros ->. apply comment_length in Hlx. cbn in Hlx. lia.
    + unfold reported_after. destruct (_ && _); rewrite app_nil_r; reflexivity.
  - destruct Hi as [[]|]; discriminate.
Qed.
Lemma gets_lexeme text n t : In (ATok (Some t)) (fst (gets text n)) ->
  exists u sp post, text = u ++ sp ++ post /\ lexeme (t_kind t) (t_content t) sp post
    /\ t_kind t <> "comment"%string
    /\ t_pos t = position_after (u ++ reported_after (t_kind t) (t_content t) sp).
Proof.
  rewrite gets_tokenize. intros Hi. apply reads_in in Hi.
  apply (lexes_in _ _ _ _ (tokenize_spec text) t Hi).
Qed.
End Ref.
