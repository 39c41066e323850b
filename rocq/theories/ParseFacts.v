(** Consequences of the grammar: the parser and the grammar agree, the tree of a
    token sequence is unique, and what the pre-pass finds. *)
From Verif Require Import Base Buf Lexer Nodes Cursor Resolve Cspec Preparser Parser BaseFacts FuelFacts SpecGrammar GrammarSound GrammarExpr GrammarComplete.

(** ** Expressions *)
(** A token of this kind goes on with an expression before it. *)
Definition continues (k : string) : Prop :=
  (exists n, binary_op k n) \/ In k ["("; "["; "."; "->"; "++"; "--"; "~"]%string.
Definition ends_expression (r : list token) : Prop :=
  match r with [] => True | t :: _ => ~ continues (t_kind t) end.

Lemma is_op_continues k : is_op k = true -> continues k.
Proof.
  intros H. unfold is_op in H. apply string_in_true in H. unfold continues, binary_op.
  cbn in H. repeat (destruct H as [<-|H]; [
    first [ right; cbn; tauto
          | left; first [ exists 2; exists 0; eexists; split; [reflexivity|]; split; [cbn; tauto|lia]
                        | exists 3; exists 1; eexists; split; [reflexivity|]; split; [cbn; tauto|lia]
                        | exists 4; exists 2; eexists; split; [reflexivity|]; split; [cbn; tauto|lia]
                        | exists 5; exists 3; eexists; split; [reflexivity|]; split; [cbn; tauto|lia]
                        | exists 6; exists 4; eexists; split; [reflexivity|]; split; [cbn; tauto|lia]
                        | exists 7; exists 5; eexists; split; [reflexivity|]; split; [cbn; tauto|lia]
                        | exists 8; exists 6; eexists; split; [reflexivity|]; split; [cbn; tauto|lia]
                        | exists 9; exists 7; eexists; split; [reflexivity|]; split; [cbn; tauto|lia]
                        | exists 10; exists 8; eexists; split; [reflexivity|]; split; [cbn; tauto|lia]
                        | exists 11; exists 9; eexists; split; [reflexivity|]; split; [cbn; tauto|lia]
                        | exists 12; exists 10; eexists; split; [reflexivity|]; split; [cbn; tauto|lia] ] ] |]).
  contradiction.
Qed.
Lemma ends_stop r : ends_expression r -> stop 0 r.
Proof.
  intros H t r' ->. cbn in H. split.
  - intros Hi. apply H. right. unfold postfix_starts in Hi. cbn in *. tauto.
  - intros Ho. exfalso. apply H. now apply is_op_continues.
Qed.
Lemma stop_ends r : stop 0 r -> ends_expression r.
Proof.
  intros H. destruct r as [|t r]; [exact I|]. cbn. destruct (H t r eq_refl) as [Hn Ho]. intros [[n Hb]|Hi].
  - destruct (binary_is_op _ _ Hb) as (A & _). destruct (Ho A) as (s & _ & Hs). lia.
  - cbn in Hi. destruct Hi as [E|[E|[E|[E|[E|[E|[E|[]]]]]]]]; rewrite <- E in *; try (apply Hn; cbn; tauto).
    destruct (Ho eq_refl) as (s & Hs & _). discriminate.
Qed.
Section Parse.
Variable ctx : parsectx.
Variable p : pos.
Notation cur l := (mkCur l (EndEof p)).
Lemma eof_not_stuck : forall t, EndEof p = EndStuck t -> t_kind t = "error"%string.
Proof. discriminate. Qed.

Lemma expr_exact ts r a : ends_expression r ->
  (exists fuel, parse_expr ctx fuel 0 (cur (ts ++ r)) = (Ok a, cur r)) <-> expr_of ctx 0 ts a.
Proof.
  intros Hr. split.
  - intros [f H]. apply parse_expr_sound in H as (ts' & r' & E & Ec & H); [|apply eof_not_stuck|lia].
    injection Ec as <-. apply app_inv_tail in E as ->. exact H.
  - intros H. destruct (parse_expr_ev ctx p 0 ts a r ltac:(lia) H (ends_stop _ Hr)) as [F HF]. exists F. apply HF. lia.
Qed.
Lemma expr_sound fuel l a r : parse_expr ctx fuel 0 (cur l) = (Ok a, cur r) -> exists ts, l = ts ++ r /\ expr_of ctx 0 ts a.
Proof.
  intros H. apply parse_expr_sound in H as (ts' & r' & E & Ec & H); [|apply eof_not_stuck|lia]. injection Ec as <-. eauto.
Qed.
Lemma expr_unique ts a b : expr_of ctx 0 ts a -> expr_of ctx 0 ts b -> a = b.
Proof.
  intros Ha Hb. destruct (parse_expr_ev ctx p 0 ts a [] ltac:(lia) Ha (stop_nil 0)) as [F HF].
  destruct (parse_expr_ev ctx p 0 ts b [] ltac:(lia) Hb (stop_nil 0)) as [F2 H2].
  specialize (HF (F + F2) ltac:(lia)). specialize (H2 (F + F2) ltac:(lia)). congruence.
Qed.

(** ** Modules *)
Lemma module_exact l m :
  (exists fuel, parse_module fuel ctx (cur l) = PModule m) <-> exists ms, module_of ctx l ms /\ m = mkModule ms (get_exports ms).
Proof.
  split.
  - intros [f H]. apply parse_module_sound in H as (ms & q & -> & Hm & _); [eauto|apply eof_not_stuck].
  - intros (ms & Hm & ->). destruct (parse_module_complete ctx p l ms Hm) as [F HF]. exists F. apply HF. lia.
Qed.
Lemma module_unique l ms ms' : module_of ctx l ms -> module_of ctx l ms' -> ms = ms'.
Proof.
  intros Ha Hb. destruct (parse_module_complete ctx p l ms Ha) as [F HF]. destruct (parse_module_complete ctx p l ms' Hb) as [F2 H2].
  specialize (HF (F + F2) ltac:(lia)). specialize (H2 (F + F2) ltac:(lia)). congruence.
Qed.

(** Parsing the elements of [ts] and then going on with [r]. *)
Lemma module_step ts l : module_of ctx ts l -> forall r, head_kind "else" r = false -> head_kind ";" r = false ->
  exists k F, forall f objs, F <= f -> module_loop (k + f) ctx objs [] (cur (ts ++ r)) = module_loop f ctx (objs ++ l) [] (cur r).
Proof.
  intros H r He Hs. induction H as [|i ts l Hi Hl IH|t a ts l Ht Hl IH|pb pub ts a ts' l first rest Hpb E Ha Hl IH].
  - exists 0, 0. intros f objs _. rewrite app_nil_r. reflexivity.
  - destruct IH as (k & F & HF). exists (S k), F. intros f objs Hf. cbn [Nat.add module_loop app].
    erewrite bind_eval by apply peek_ev. cbv beta iota. rewrite (kind_yes _ _ Hi). erewrite bind_eval by apply get_ev. cbv beta. now apply HF.
  - destruct IH as (k & F & HF). exists (S k), F. intros f objs Hf. cbn [Nat.add module_loop app].
    erewrite bind_eval by apply peek_ev. cbv beta iota. pose proof Ht as Ht'. destruct Ht' as [t' h nm v Hk _ _ _ _].
    rewrite (kind_no _ "import" _ Hk) by discriminate. rewrite (kind_yes _ _ Hk). rewrite (macro_ev p _ _ _ Ht).
    rewrite HF by auto. rewrite <- app_assoc. reflexivity.
  - destruct IH as (k & F & HF).
    assert (Hh : forall kk, kk = "else"%string \/ kk = ";"%string -> head_kind kk (ts' ++ r) = false).
    { intros kk Hk. destruct ts' as [|t' ts']; cbn [app]; [destruct Hk as [-> | ->]; auto|].
      apply (module_head ctx kk) in Hl; [exact Hl|]. destruct Hk as [-> | ->]; cbn; intuition discriminate. }
    destruct (object_ev ctx p pb pub ts a first rest (ts' ++ r) Hpb E Ha) as [F2 H2]; auto.
    exists (S k), (F + F2). intros f objs Hf. cbn [Nat.add module_loop]. rewrite <- !app_assoc.
    rewrite (bind_eval _ _ _ _ _ (Some first) (cur (pb ++ ts ++ ts' ++ r))).
    2:{ rewrite app_assoc, E. apply peek_ev. }
    assert (Hk : In (t_kind first) ("pub" :: elem_starts)%string).
    { destruct Hpb as [|t Ht]; cbn [app] in E.
      - destruct (elem_start _ _ _ _ _ Ha) as (t & tr & -> & Hk). injection E as -> _. now right.
      - injection E as -> _. rewrite Ht. now left. }
    assert (Hkk : forall k, ~ In k ("pub" :: elem_starts)%string -> kind_is first k = false).
    { intros k0 Hn. apply kind_is_false. intros Ek. rewrite Ek in Hk. contradiction. }
    rewrite !Hkk by (cbn; intuition discriminate). rewrite H2 by lia. cbn [app]. rewrite HF by lia. rewrite <- app_assoc. reflexivity.
Qed.

(** A pub variable is refused. *)
Lemma pub_variable_refused ts l pb q v ts2 : module_of ctx ts l -> is "pub" pb -> elem_of ctx q ts2 false (MVar v) ->
  forall r, exists F, forall f, F <= f ->
    parse_module f ctx (cur (ts ++ pb :: ts2 ++ r)) = PErrors [mkErr (L "module variables can't be exported") (t_pos pb)].
Proof.
  intros Hm Hp Hv r. inversion Hv as [| | | | |tt t tf fm eq tx x s0 Ht Hf Heq Hx Hs]. subst. clear Hv.
  destruct (module_step ts l Hm (pb :: (tt ++ tf ++ eq :: tx ++ [s0]) ++ r)) as (k & F & HF).
  { eapply head_is; [exact Hp|discriminate]. } { eapply head_is; [exact Hp|discriminate]. }
  destruct (form_ev ctx p tf fm (eq :: tx ++ s0 :: r) Hf) as [F2 H2]. { eapply head_is; [exact Heq|discriminate]. }
  exists (k + S (F + F2)). intros f Hl. replace f with (k + S (f - k - 1)) by lia. unfold parse_module. rewrite HF by lia.
  cbn [module_loop]. erewrite bind_eval by apply peek_ev. cbv beta iota.
  rewrite (kind_no _ "import" _ Hp), (kind_no _ "macro" _ Hp) by discriminate.
  unfold parse_module_object. erewrite bind_eval by apply peek_unwrap_ev. cbv beta.
  erewrite bind_eval by now apply eat_yes. cbv beta iota.
  rewrite <- !app_assoc. cbn [app]. rewrite <- !app_assoc. cbn [app].
  erewrite bind_eval by (apply follows_no; eapply typename_head; [eassumption|cbn; intuition discriminate]). cbv beta iota.
  erewrite bind_eval by (apply follows_no; eapply typename_head; [eassumption|cbn; intuition discriminate]). cbv beta iota.
  erewrite bind_eval by (apply parse_typename_ev; [eassumption|eapply form_dot; eassumption]). cbv beta.
  erewrite bind_eval by (apply H2; lia). cbv beta. erewrite bind_eval by apply peek_unwrap_ev. cbv beta.
  rewrite (kind_no _ "(" _ Heq) by discriminate. erewrite bind_eval by now apply expect_ev. reflexivity.
Qed.

(** The semicolon after an enum. *)
Lemma enum_semicolon ts l pb pub k lb es ens tc co rb s0 : module_of ctx ts l -> optional "pub" pb pub ->
  is "enum" k -> is "{" lb -> commas (enum_entry_of ctx) es ens -> optional "," tc co -> is "}" rb -> is ";" s0 ->
  forall r m, head_kind ";" r = false ->
  ((exists f, parse_module f ctx (cur (ts ++ pb ++ (k :: lb :: es ++ tc ++ [rb]) ++ r)) = PModule m) <->
   (exists f, parse_module f ctx (cur (ts ++ pb ++ (k :: lb :: es ++ tc ++ [rb; s0]) ++ r)) = PModule m)).
Proof.
  intros Hm Hpb Hk Hlb Hes Htc Hrb Hs r m Hr.
  assert (Hx : forall se b, optional ";" se b -> exists n F, forall f, F <= f ->
    module_loop (n + f) ctx [] [] (cur (ts ++ pb ++ (k :: lb :: es ++ tc ++ rb :: se) ++ r))
    = module_loop f ctx (l ++ [MEnum (mkEnum pub ens (t_pos k))]) [] (cur r)).
  { intros se b Hse.
    assert (Hfirst : exists first rest, pb ++ (k :: lb :: es ++ tc ++ rb :: se) ++ r = first :: rest /\ (is "pub" first \/ is "enum" first)).
    { destruct Hpb as [|t Ht]; cbn [app]; eexists _, _; split; try reflexivity; auto. }
    destruct Hfirst as (first & rest & Efirst & Hfirst).
    assert (Hfk : forall kk, kk <> "pub"%string -> kk <> "enum"%string -> kind_is first kk = false).
    { intros kk H1 H2. destruct Hfirst as [H|H]; eapply kind_no; eauto. }
    destruct (module_step ts l Hm (pb ++ (k :: lb :: es ++ tc ++ rb :: se) ++ r)) as (n & F & HF).
    { rewrite Efirst. apply Hfk; discriminate. } { rewrite Efirst. apply Hfk; discriminate. }
    destruct (enum_ev ctx p es ens tc co rb (se ++ r) Hes Htc Hrb []) as [F2 H2].
    exists (n + 1), (F + F2). intros f Hf. rewrite <- Nat.add_assoc. rewrite HF by lia. cbn [Nat.add module_loop].
    rewrite (bind_eval _ _ _ _ _ (Some first) (cur (pb ++ (k :: lb :: es ++ tc ++ rb :: se) ++ r))) by (rewrite Efirst; apply peek_ev).
    rewrite !Hfk by discriminate. cbn [app] in *. repeat (rewrite <- !app_assoc in *; cbn [app] in *).
    assert (Ho : parse_module_object ctx f (cur (pb ++ k :: lb :: es ++ tc ++ rb :: se ++ r)) = (Ok (MEnum (mkEnum pub ens (t_pos k)), []), cur r)).
    { unfold parse_module_object.
      rewrite (bind_eval _ _ _ _ _ first (cur (pb ++ k :: lb :: es ++ tc ++ rb :: se ++ r))) by (rewrite Efirst; apply peek_unwrap_ev).
      cbv beta. rewrite (bind_eval _ _ _ _ _ pub (cur (k :: lb :: es ++ tc ++ rb :: se ++ r))).
      2:{ destruct Hpb as [|t Ht]; cbn [app]; [apply eat_no; eapply head_is; [exact Hk|discriminate]|now apply eat_yes]. }
      cbv beta iota. erewrite bind_eval by now apply follows_yes. cbv beta iota.
      unfold parse_enum, bind at 1. erewrite bind_eval by apply peek_unwrap_ev. cbv beta.
      erewrite bind_eval by now apply expect_ev. cbv beta. erewrite bind_eval by now apply expect_ev. cbv beta.
      erewrite bind_eval by (apply H2; lia). cbv beta. erewrite bind_eval by now apply expect_ev. cbv beta.
      rewrite (bind_eval _ _ _ _ _ b (cur r)); [reflexivity|].
      destruct Hse as [|t Ht]; cbn [app]; [now apply eat_no|now apply eat_yes]. }
    rewrite Ho. reflexivity. }
  destruct (Hx [] false (Optional_no _)) as (n1 & F1 & H1). destruct (Hx [s0] true (Optional_yes _ _ Hs)) as (n2 & F2 & H2).
  assert (Hd : forall l1 l2 n1 n2 F1 F2 os,
    (forall f, F1 <= f -> module_loop (n1 + f) ctx [] [] (cur l1) = module_loop f ctx os [] (cur r)) ->
    (forall f, F2 <= f -> module_loop (n2 + f) ctx [] [] (cur l2) = module_loop f ctx os [] (cur r)) ->
    (exists f, parse_module f ctx (cur l1) = PModule m) -> exists f, parse_module f ctx (cur l2) = PModule m).
  { clear. intros l1 l2 n1 n2 F1 F2 os H1 H2 [f Hf].
    assert (Hs : parse_module (n1 + (F1 + F2 + f)) ctx (cur l1) = PModule m).
    { rewrite <- Hf. apply parse_module_stable; [lia|]. rewrite Hf. discriminate. }
    exists (n2 + (F1 + F2 + f)). unfold parse_module in *. rewrite H2 by lia. rewrite H1 in Hs by lia. exact Hs. }
  split; eapply Hd; eauto.
Qed.
Lemma enum_semicolon_text ts l pb pub k lb es ens tc co rb s0 : module_of ctx ts l -> optional "pub" pb pub ->
  is "enum" k -> is "{" lb -> commas (enum_entry_of ctx) es ens -> optional "," tc co -> is "}" rb -> is ";" s0 ->
  forall r m, (forall t r', r = t :: r' -> ~ is ";" t) ->
  ((exists f, parse_module f ctx (cur (ts ++ pb ++ (k :: lb :: es ++ tc ++ [rb]) ++ r)) = PModule m) <->
   (exists f, parse_module f ctx (cur (ts ++ pb ++ (k :: lb :: es ++ tc ++ [rb; s0]) ++ r)) = PModule m)).
Proof.
  intros Hm Hpb Hk Hlb Hes Htc Hrb Hs r m Hr. eapply enum_semicolon; eauto. destruct r as [|t r]; [reflexivity|].
  cbn. apply kind_is_false. apply (Hr t r). reflexivity.
Qed.
End Parse.
