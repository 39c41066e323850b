(** The parser reports one error for every broken statement, at its first wrong
    token, and goes on behind it (C73). *)
From Verif Require Import Base Buf Lexer Nodes Cursor Resolve Cspec Preparser Parser BaseFacts SpecGrammar SpecSafe GrammarSound GrammarExpr GrammarComplete
  ParseFacts SafeFacts SpecFault.

Lemma bind_err A B (m : M A) (k : A -> M B) c e c' : m c = (Err e, c') -> bind m k c = (Err e, c').
Proof. unfold bind. intros ->. reflexivity. Qed.
Lemma bind_err2 A B C (m : M A) (k : A -> M B) (g : A -> B -> M C) c x c' : bind m k c = (Err x, c') -> bind m (fun a => bind (k a) (g a)) c = (Err x, c').
Proof. unfold bind. destruct (m c) as [[a|y|w|] c1]; try discriminate; intros E; [now rewrite E|injection E as <- <-; reflexivity]. Qed.

Section Fault.
Variable ctx : parsectx.
Variable p : pos.
Notation e := (EndEof p).
Notation cur l := (mkCur l e).
Notation ev := (ev p).
Notation parse_expr_ev := (parse_expr_ev ctx p).

Ltac ev1 tac := erewrite bind_eval by tac; cbv beta iota zeta.
Ltac norm := cbn [app]; repeat (rewrite <- !app_assoc; cbn [app]).
Ltac fuel F := exists F; let f := fresh "f" in let Hf := fresh "Hf" in intros f Hf; destruct f as [|f]; [lia|].
Ltac exp_ := ev1 ltac:(now apply expect_ev).
Ltac get_ := ev1 ltac:(apply get_ev).
Ltac use H := ev1 ltac:(apply H; lia).
Ltac stops := eapply stop_is; [eassumption|cbn; tauto].
Ltac other := eapply head_is; [eassumption|discriminate].

Ltac dispatch Hk :=
  ev1 ltac:(apply more_ev); cbn [negb];
  ev1 ltac:(apply type_no; eapply keyword_not_type; [exact Hk|discriminate|discriminate]);
  ev1 ltac:(apply peek_unwrap_ev);
  try (rewrite (kind_no _ "break" _ Hk) by discriminate);
  try (rewrite (kind_no _ "continue" _ Hk) by discriminate);
  try (rewrite (kind_no _ "for" _ Hk) by discriminate);
  try (rewrite (kind_no _ "if" _ Hk) by discriminate);
  try (rewrite (kind_no _ "return" _ Hk) by discriminate);
  try (rewrite (kind_no _ "switch" _ Hk) by discriminate);
  try (rewrite (kind_no _ "while" _ Hk) by discriminate);
  rewrite ?(kind_yes _ _ Hk); cbv beta iota.

Notation ends_in := (ends_in p).
(** [m] with enough fuel fails on [l] with an error at the token [t].  The token,
    with [r] behind it, may have been read, unless it ends a statement or a body. *)
Definition er {A} (m : nat -> M A) (l : list token) (t : token) (r : list token) : Prop :=
  exists x r', e_pos x = t_pos t /\ (r' = r /\ inner t \/ r' = t :: r) /\ ends_in m l (Err x) r'.
Lemma er_map A B (m : nat -> M A) (m' : nat -> M B) l l' t r : er m l t r ->
  (forall x r', ends_in m l (Err x) r' -> ends_in m' l' (Err x) r') -> er m' l' t r.
Proof. intros (x & r' & Hx & Hr & H) Hm. exists x, r'. auto. Qed.
(** A step of fuel around a failing part. *)
Lemma er_step A B (m : nat -> M A) (m' : nat -> M B) l l' t r : er m l t r ->
  (exists G, forall f x c, G <= f -> m f (cur l) = (Err x, c) -> m' (S f) (cur l') = (Err x, c)) -> er m' l' t r.
Proof.
  intros H [G HG]. apply (er_map _ _ _ _ _ _ _ _ H). intros x r' [F HF]. exists (S (F + G)). intros f Hf. destruct f as [|f]; [lia|].
  apply HG; [lia|]. apply HF. lia.
Qed.
Lemma er_expect A (k : string) w (m : nat -> M A) l t r : ~ is k t -> ~ unprintable t ->
  (exists F, forall f, F <= f -> forall x, expect k w (cur (t :: r)) = (Err x, cur (t :: r)) -> m f (cur l) = (Err x, cur (t :: r))) -> er m l t r.
Proof.
  intros H Hu [F HF]. unfold expect, more, peek_unwrap, bind in HF. cbn in HF. replace (kind_is t k) with false in HF by (symmetry; now apply kind_is_false).
  cbn [negb] in HF. destruct (token_to_string t) as [s|] eqn:E; [|exfalso; apply Hu; now apply token_unprintable].
  eexists _, (t :: r). split; [|split; [now right|]]. 2:{ exists F. intros f Hf. apply HF; [exact Hf|]. reflexivity. } reflexivity.
Qed.

(** ** Missing operands *)
Lemma no_operand_kinds t k : no_operand t -> In k expr_starts -> kind_is t k = false.
Proof. intros [_ H] Hi. apply kind_is_false. intros E. apply H. unfold is in E. rewrite E. exact Hi. Qed.
Lemma atom_er t r : no_operand t -> er (read_expression_atom ctx) (t :: r) t r.
Proof.
  intros H. exists (mkErr (L "id: unexpected token " ++ token_display t) (t_pos t)), r. split; auto. split; [left; split; auto; apply H|].
  fuel 1. cbn [read_expression_atom].
  ev1 ltac:(apply more_ev). cbn [negb]. rewrite (bind_eval _ _ _ _ _ false (cur (t :: r))).
  2:{ unfold ns_follows. ev1 ltac:(apply peek_ev). now rewrite (no_operand_kinds t "word") by (auto; cbn; tauto). }
  ev1 ltac:(apply get_unwrap_ev).
  rewrite (no_operand_kinds t "word"), (no_operand_kinds t "num"), (no_operand_kinds t "string"), (no_operand_kinds t "char"),
    (no_operand_kinds t "("), (no_operand_kinds t "{") by (auto; cbn; tauto). reflexivity.
Qed.
Lemma prefix_operand t r : no_operand t -> er (parse_prefix_expr ctx) (t :: r) t r.
Proof.
  intros Ht. assert (Hb : er (base ctx) (t :: r) t r).
  { eapply er_step; [exact (atom_er t r Ht)|]. exists 0. intros f x c _ E. cbn [base]. now apply bind_err. }
  eapply er_step; [exact Hb|]. exists 0. intros f x c _ E. cbn [parse_prefix_expr]. ev1 ltac:(apply get_unwrap_ev).
  replace (is_prefix_op (t_kind t)) with false.
  2:{ symmetry. unfold is_prefix_op, string_in. cbn [existsb].
      assert (Hk : forall k, In k expr_starts -> String.eqb (t_kind t) k = false).
      { intros k Hk. apply (no_operand_kinds t k Ht Hk). }
      rewrite !Hk by (cbn; tauto). reflexivity. }
  rewrite (no_operand_kinds t "(") by (auto; cbn; tauto). ev1 ltac:(reflexivity).
  rewrite (no_operand_kinds t "sizeof") by (auto; cbn; tauto). ev1 ltac:(apply unget_ev). exact E.
Qed.
(** What the levels do. *)
Definition level (n : nat) (f : nat) : M expr :=
  if Nat.ltb n 13 then parse_seq_expr ctx f n else if Nat.eqb n 13 then parse_prefix_expr ctx f else base ctx f.
Lemma level_expr n l t r : n <= 14 -> er (level n) l t r -> er (fun f => parse_expr ctx f n) l t r.
Proof.
  intros Hn H. eapply er_step; [exact H|]. exists 0. intros f x c _. cbn [parse_expr]. unfold level. destruct (Nat.ltb n 13) eqn:E; auto.
  destruct (Nat.eqb n 13) eqn:E2; auto. apply Nat.ltb_ge in E. apply Nat.eqb_neq in E2. replace n with 14 by lia. auto.
Qed.
Lemma level_up n l t r : n < 13 -> er (level (S n)) l t r -> er (level n) l t r.
Proof.
  intros Hn H. eapply er_step; [apply (level_expr (S n)); [lia|exact H]|]. exists 0. intros f x c _ E. unfold level.
  replace (Nat.ltb n 13) with true by (symmetry; now apply Nat.ltb_lt). cbn [parse_seq_expr]. now apply bind_err.
Qed.
Lemma level_operand n t r : n <= 14 -> no_operand t -> er (level n) (t :: r) t r.
Proof.
  intros Hn Ht. destruct (Nat.eq_dec n 14) as [->|H14].
  { change (er (base ctx) (t :: r) t r). eapply er_step; [exact (atom_er t r Ht)|]. exists 0. intros f x c _ E. cbn [base]. now apply bind_err. }
  assert (Hk : exists k, n + k = 13) by (exists (13 - n); lia). destruct Hk as [k Hk]. clear Hn H14. revert n Hk.
  induction k as [|k IH]; intros n Hk.
  - replace n with 13 by lia. change (er (parse_prefix_expr ctx) (t :: r) t r). now apply prefix_operand.
  - apply level_up; [lia|]. apply IH. lia.
Qed.

(** ** Expressions that break off *)
Lemma interrupts_stop t r : interrupts t -> stop 0 (t :: r).
Proof. intros [H _]. now apply ends_stop. Qed.
Lemma interrupts_facts t : interrupts t -> forall r, head_kind "=" (t :: r) = false /\ head_kind "[" (t :: r) = false /\ ~ is "." t.
Proof.
  intros (H & _) r. assert (Hc : forall k, continues k -> ~ is k t). { intros k Hk E. apply H. unfold is in E. rewrite E. exact Hk. }
  split; [|split].
  - cbn. apply kind_is_false, Hc, is_op_continues. reflexivity.
  - cbn. apply kind_is_false, Hc. right. cbn. tauto.
  - apply Hc. right. cbn. tauto.
Qed.
Lemma stuck_nil n t : stuck ctx n [] t -> no_operand t.
Proof.
  intros H. remember (@nil token) as ts eqn:E. induction H; try discriminate; auto; exfalso; try (destruct ts; discriminate).
Qed.
(** The first token of an operand with postfix operators. *)
Lemma stuck_base ts t : stuck ctx 14 ts t -> ts <> [] ->
  starts ["word"; "num"; "string"; "char"; "("; "{"]%string ts /\ forall r, nocast ctx (ts ++ t :: r).
Proof.
  assert (Hp : forall ts a op ts' r, expr_of ctx 14 ts a -> nocast ctx (ts ++ op :: ts' ++ r)).
  { intros ts0 a op ts' r Ha lp r' E Hlp. destruct (base_out ctx p ts0 a Ha) as (_ & Hc & _).
    destruct ts0 as [|w ts0]; [now apply expr_nil in Ha|]. cbn in E. injection E as <- <-.
    destruct ts0 as [|w2 ts0]; [exfalso; eapply not_paren_single; eauto|].
    rewrite type_first_app by discriminate. eapply Hc; eauto. }
  intros H Hn. inversion H; subst; try lia; try contradiction.
  1: match goal with Hb : binary_op _ 14 |- _ => destruct (binary_is_op _ _ Hb) as (_ & _ & ?); lia end.
  1-4: match goal with Ha : expr_of _ 14 _ _ |- _ => split; [apply starts_app, (base_out ctx p _ _ Ha)|]; intros r; norm; revert r;
    first [now intros r; eapply Hp; eauto|intros r; apply (Hp _ _ _ [t] r Ha)] end.
  split; [eexists _, _; split; [reflexivity|]; eapply is_in; [eassumption|cbn; tauto]|]. intros r l r' E _. cbn in E. injection E as <- <-.
  rewrite type_first_app by (eapply expr_ne; eauto). assumption.
Qed.
Lemma stuck_start n ts t : stuck ctx n ts t -> ts <> [] -> starts expr_starts ts.
Proof.
  intros H. induction H; intros Hn; try contradiction; auto;
    try (apply starts_app; eapply expr_start; eassumption);
    try (eexists _, _; split; [reflexivity|]; eapply is_in; [eassumption|cbn; tauto]).
  eexists _, _. split; [reflexivity|]. unfold prefix_op in *. cbn in *. tauto.
Qed.
Lemma more_args_start ts l : more_args_of ctx ts l -> starts expr_starts ts.
Proof. intros [ts' a Ha|ts' a c ts'' l' Ha _ _]; [|apply starts_app]; eapply expr_start; eauto. Qed.
(** Arguments in front of whatever is read behind them. *)
Lemma args_out ts l : more_args_of ctx ts l -> forall acc rest o r', stop 0 rest -> ends_in (fun f => call_args ctx f (acc ++ l)) rest o r' ->
  ends_in (fun f => bind (parse_expr ctx f 0) (fun a => call_args ctx f (acc ++ [a]))) (ts ++ rest) o r'.
Proof.
  intros H. induction H as [ts a Ha|ts a c ts' l Ha Hc Hl IH]; intros acc rest o r' Hs Ho.
  - destruct (parse_expr_ev 0 ts a rest ltac:(lia) Ha Hs) as [F HF]. destruct Ho as [G HG]. exists (F + G). intros f Hf. use HF. apply HG. lia.
  - norm. destruct (parse_expr_ev 0 ts a (c :: ts' ++ rest) ltac:(lia) Ha) as [F HF]. { stops. }
    destruct (IH (acc ++ [a]) rest o r' Hs) as [G HG].
    { rewrite <- app_assoc. exact Ho. }
    exists (S (F + G)). intros f Hf. destruct f as [|f]; [lia|]. use HF. cbn [call_args]. ev1 ltac:(now apply follows_yes). get_. apply HG. lia.
Qed.
Lemma stuck_er : forall n ts t, stuck ctx n ts t -> forall r, er (level n) (ts ++ t :: r) t r.
Proof.
  apply (stuck_m ctx (fun n ts t _ => forall r, er (level n) (ts ++ t :: r) t r)
    (fun ts t _ => forall r a lp, is "(" lp -> er (fun f => parse_call ctx f a) (lp :: ts ++ t :: r) t r)).
  - intros n t Hn Ht r. now apply level_operand.
  - intros n ts t Hn H IH r. destruct (Nat.eq_dec n 13) as [->|]; [|apply level_up; [lia|auto]].
    destruct ts as [|w ts]; [apply level_operand; [lia|]; eapply stuck_nil; eauto|].
    destruct (stuck_base _ _ H ltac:(discriminate)) as [(w' & ts' & Ew & Ht) Hnc]. injection Ew as <- <-.
    change (er (parse_prefix_expr ctx) ((w :: ts) ++ t :: r) t r). eapply er_step; [exact (IH r)|]. exists 0. intros f x c _ E.
    change (base ctx f (cur ((w :: ts) ++ t :: r)) = (Err x, c)) in E. cbn [app] in *. cbn [parse_prefix_expr].
    ev1 ltac:(apply get_unwrap_ev).
    replace (is_prefix_op (t_kind w)) with false.
    2:{ cbn in Ht. repeat (destruct Ht as [Ht|Ht]; [rewrite <- Ht; reflexivity|]). contradiction. }
    assert (Hs2 : kind_is w "sizeof" = false).
    { unfold kind_is. cbn in Ht. repeat (destruct Ht as [Ht|Ht]; [rewrite <- Ht; reflexivity|]). contradiction. }
    rewrite (bind_eval _ _ _ _ _ false (cur (ts ++ t :: r))).
    + cbv beta iota. rewrite Hs2. ev1 ltac:(apply unget_ev). exact E.
    + destruct (kind_is w "(") eqn:Ep; [|reflexivity]. apply kind_is_true in Ep.
      destruct (ts ++ t :: r) as [|t2 ts2] eqn:E2; [now destruct ts|]. ev1 ltac:(apply peek_unwrap_ev).
      unfold ret. do 2 f_equal. apply not_true_is_false. intros Hc. apply andb_true_iff in Hc as [A B].
      apply kind_is_true in A. apply is_type_name in B. specialize (Hnc r w (t2 :: ts2)). cbn [app] in Hnc. rewrite E2 in Hnc.
      apply (Hnc eq_refl Ep). exists t2, ts2. auto.
  - intros n ts op ts' a t Hop Ha H IH r. destruct (binary_is_op _ _ Hop) as (A & B & C). norm. unfold level.
    replace (Nat.ltb n 13) with true by (symmetry; apply Nat.ltb_lt; lia).
    destruct (level_expr (S n) _ _ _ ltac:(lia) (IH r)) as (x & r' & Hx & Hr & F & HF). exists x, r'. split; auto. split; auto.
    apply (seq_out ctx p n ts a Ha); [lia|now apply stop_binary|]. fuel (S F). cbn [seq_loop]. ev1 ltac:(apply peek_ev).
    rewrite A. cbn [negb]. rewrite B, Nat.eqb_refl. cbn [negb]. ev1 ltac:(apply get_unwrap_ev). apply bind_err. apply HF. lia.
  - intros op ts t Hop H IH r. change (er (parse_prefix_expr ctx) (op :: ts ++ t :: r) t r). eapply er_step; [exact (IH r)|]. exists 0. intros f x c _ E.
    cbn [parse_prefix_expr]. ev1 ltac:(apply get_unwrap_ev). replace (is_prefix_op (t_kind op)) with true by (symmetry; now apply string_in_true).
    now apply bind_err.
  - intros lp ts rp ts' tf t Hlp Hf Ht Hrp H IH r. norm. change (er (parse_prefix_expr ctx) (lp :: ts ++ rp :: ts' ++ t :: r) t r).
    destruct (typeform_ev ctx p ts tf (rp :: ts' ++ t :: r) Ht) as [F2 H2]. { other. } { other. }
    eapply er_step; [exact (IH r)|]. exists F2. intros f x c Hle E. cbn [parse_prefix_expr]. ev1 ltac:(apply get_unwrap_ev).
    replace (is_prefix_op (t_kind lp)) with false by now rewrite Hlp.
    rewrite (kind_yes _ _ Hlp). destruct Hf as (w & ws & -> & Hw & Hty).
    rewrite (bind_eval _ _ _ _ _ true (cur ((w :: ws) ++ rp :: ts' ++ t :: r))).
    2:{ cbn [app]. ev1 ltac:(apply peek_unwrap_ev). rewrite (kind_yes _ _ Hw). apply is_type_name in Hty. rewrite Hty. reflexivity. }
    cbv beta iota. use H2. exp_. now apply bind_err.
  - intros s t Hs Hp Hu r. change (er (parse_prefix_expr ctx) (s :: t :: r) t r). apply (er_expect _ "(" None); auto. exists 2. intros f Hf x E.
    destruct f as [|[|f]]; try lia. cbn [parse_prefix_expr]. ev1 ltac:(apply get_unwrap_ev).
    replace (is_prefix_op (t_kind s)) with false by now rewrite Hs.
    rewrite (kind_no _ "(" _ Hs) by discriminate. ev1 ltac:(reflexivity). rewrite (kind_yes _ _ Hs).
    ev1 ltac:(apply unget_ev). cbn [parse_sizeof]. exp_. now apply bind_err.
  - intros s lp ts t Hs Hlp Hty H IH r. cbn [app]. change (er (parse_prefix_expr ctx) (s :: lp :: ts ++ t :: r) t r).
    assert (Hz : er (parse_sizeof ctx) (s :: lp :: ts ++ t :: r) t r).
    { eapply er_step; [apply (level_expr 0); [lia|exact (IH r)]|]. exists 0. intros f x c _ E. cbn [parse_sizeof]. exp_. exp_.
      ev1 ltac:(apply type_no; apply Hty). apply bind_err. now apply bind_err. }
    eapply er_step; [exact Hz|]. exists 0. intros f x c _ E. cbn [parse_prefix_expr]. ev1 ltac:(apply get_unwrap_ev).
    replace (is_prefix_op (t_kind s)) with false by now rewrite Hs.
    rewrite (kind_no _ "(" _ Hs) by discriminate. ev1 ltac:(reflexivity). rewrite (kind_yes _ _ Hs).
    ev1 ltac:(apply unget_ev). exact E.
  - intros s lp ts a t Hs Hlp Hty Ha Hi Hrp r. cbn [app]. change (er (parse_prefix_expr ctx) (s :: lp :: ts ++ t :: r) t r).
    destruct (parse_expr_ev 0 ts a (t :: r) ltac:(lia) Ha (interrupts_stop t r Hi)) as [F HF].
    apply (er_expect _ ")" None); [auto|apply Hi|]. exists (S (S F)). intros f Hf x E. destruct f as [|[|f]]; try lia.
    cbn [parse_prefix_expr]. ev1 ltac:(apply get_unwrap_ev). replace (is_prefix_op (t_kind s)) with false by now rewrite Hs.
    rewrite (kind_no _ "(" _ Hs) by discriminate. ev1 ltac:(reflexivity). rewrite (kind_yes _ _ Hs).
    ev1 ltac:(apply unget_ev). cbn [parse_sizeof]. exp_. exp_. ev1 ltac:(apply type_no; apply Hty).
    rewrite (bind_eval _ _ _ _ _ (ESizeofE a) (cur (t :: r))).
    2:{ use HF. reflexivity. }
    now apply bind_err.
  - intros ts a lp ts' t Ha Hlp H IH r. norm. change (er (base ctx) (ts ++ lp :: ts' ++ t :: r) t r).
    destruct (IH r a lp Hlp) as (x & r' & Hx & Hr & F & HF). exists x, r'. split; auto. split; auto.
    apply (base_out ctx p ts a Ha). { apply no_dot_head. other. }
    fuel (S F). cbn [base_loop]. ev1 ltac:(apply peek_ev). rewrite (kind_yes _ _ Hlp). apply bind_err. apply HF. lia.
  - intros ts a lb ts' t Ha Hlb H IH r. norm. change (er (base ctx) (ts ++ lb :: ts' ++ t :: r) t r).
    destruct (level_expr 0 _ _ _ ltac:(lia) (IH r)) as (x & r' & Hx & Hr & F & HF). exists x, r'. split; auto. split; auto.
    apply (base_out ctx p ts a Ha). { apply no_dot_head. other. }
    fuel (S F). cbn [base_loop]. ev1 ltac:(apply peek_ev). rewrite (kind_no _ "(" _ Hlb) by discriminate. rewrite (kind_yes _ _ Hlb). exp_.
    apply bind_err. apply HF. lia.
  - intros ts a lb ts' i t Ha Hlb Hi Hint Hrb r. norm. change (er (base ctx) (ts ++ lb :: ts' ++ t :: r) t r).
    destruct (parse_expr_ev 0 ts' i (t :: r) ltac:(lia) Hi (interrupts_stop t r Hint)) as [F HF].
    assert (Hl : er (fun f => base_loop ctx f a) (lb :: ts' ++ t :: r) t r).
    { apply (er_expect _ "]" (Some "array index"%string)); [auto|apply Hint|]. exists (S F). intros f Hf x E. destruct f as [|f]; [lia|].
      cbn [base_loop]. ev1 ltac:(apply peek_ev). rewrite (kind_no _ "(" _ Hlb) by discriminate. rewrite (kind_yes _ _ Hlb). exp_. use HF. now apply bind_err. }
    apply (er_map _ _ _ _ _ _ _ _ Hl). intros x r' HE. apply (base_out ctx p ts a Ha); auto. apply no_dot_head. other.
  - intros ts a op t Ha Hop Hw Hu r. norm. change (er (base ctx) (ts ++ op :: t :: r) t r).
    assert (Hl : er (fun f => base_loop ctx f a) (op :: t :: r) t r).
    { apply (er_expect _ "word" (Some "field access field name - identifier"%string)); auto. exists 1. intros f Hf x E. destruct f as [|f]; [lia|].
      cbn [base_loop]. ev1 ltac:(apply peek_ev).
      assert (Hk : kind_is op "(" = false /\ kind_is op "[" = false /\ is_postfix_op (t_kind op) = false /\
         kind_is op "->" || kind_is op "." = true).
      { unfold kind_is, is in *. destruct Hop as [-> | ->]; repeat split; reflexivity. }
      destruct Hk as (-> & -> & -> & ->). ev1 ltac:(apply get_unwrap_ev). now apply bind_err. }
    apply (er_map _ _ _ _ _ _ _ _ Hl). intros x r' HE. apply (base_out ctx p ts a Ha); auto.
    intros w d y r2 -> _ _ E2 [_ Hy]. injection E2 as <- <- <-. contradiction.
  - intros lp ts a t Hlp Hty Ha Hint Hrp r. change (er (base ctx) (lp :: ts ++ t :: r) t r).
    destruct (parse_expr_ev 0 ts a (t :: r) ltac:(lia) Ha (interrupts_stop t r Hint)) as [F HF].
    apply (er_expect _ ")" (Some "parenthesized expression"%string)); [auto|apply Hint|]. exists (S (S F)). intros f Hf x E. destruct f as [|[|f]]; try lia.
    change (base ctx (S (S f))) with (bind (read_expression_atom ctx (S f)) (fun a0 => base_loop ctx (S f) a0)). apply bind_err.
    rewrite atom_paren by auto. rewrite HF by lia. now rewrite E.
  - intros ts t H IH Hf r a lp Hlp. eapply er_step; [apply (level_expr 0); [lia|exact (IH r)]|]. exists 0. intros f x c _ E. cbn [parse_call]. exp_.
    destruct (ts ++ t :: r) as [|w l2] eqn:E2; [now destruct ts|]. ev1 ltac:(apply peek_ev).
    replace (kind_is w ")") with false; [|symmetry; apply kind_is_false].
    + cbn [negb]. apply bind_err. now apply bind_err.
    + destruct ts as [|w' ts]; cbn [app] in E2; injection E2 as -> <-; [now apply Hf|].
      destruct (stuck_start _ _ _ H ltac:(discriminate)) as (w' & l3 & E3 & Hw). injection E3 as <- <-. intros E4. unfold is in E4. rewrite E4 in Hw. cbn in Hw. intuition discriminate.
  - intros ts l c ts' t Hl Hc H IH r a lp Hlp. norm.
    destruct (level_expr 0 _ _ _ ltac:(lia) (IH r)) as (x & r' & Hx & Hr & F & HF). exists x, r'. split; auto. split; auto.
    destruct (args_out ts l Hl [] (c :: ts' ++ t :: r) (Err x) r') as [G HG]. { stops. }
    { fuel (S F). cbn [call_args app]. ev1 ltac:(now apply follows_yes). get_. apply bind_err. apply HF. lia. }
    fuel (S G). cbn [parse_call]. exp_. destruct (more_args_start _ _ Hl) as (w & l2 & -> & Hw). cbn [app] in *. ev1 ltac:(apply peek_ev).
    replace (kind_is w ")") with false.
    2:{ symmetry. apply kind_is_false. intros E4. unfold is in E4. rewrite E4 in Hw. cbn in Hw. intuition discriminate. }
    cbn [negb]. apply bind_err. apply HG. lia.
  - intros ts l t Hl Hint Hc Hrp r a lp Hlp.
    destruct (args_out ts l Hl [] (t :: r) (Ok l) (t :: r)) as [G HG]. { now apply interrupts_stop. }
    { fuel 1. cbn [call_args app]. ev1 ltac:(apply follows_no; now apply kind_is_false). reflexivity. }
    apply (er_expect _ ")" None); [auto|apply Hint|]. exists (S G). intros f Hf x E. destruct f as [|f]; [lia|]. cbn [parse_call]. exp_.
    destruct (more_args_start _ _ Hl) as (w & l2 & -> & Hw). cbn [app] in *. ev1 ltac:(apply peek_ev).
    replace (kind_is w ")") with false.
    2:{ symmetry. apply kind_is_false. intros E4. unfold is in E4. rewrite E4 in Hw. cbn in Hw. intuition discriminate. }
    cbn [negb]. rewrite (bind_eval _ _ _ _ _ l (cur (t :: r))) by (apply HG; lia). now apply bind_err.
Qed.
Lemma stuck_expr ts t r : stuck ctx 0 ts t -> er (fun f => parse_expr ctx f 0) (ts ++ t :: r) t r.
Proof. intros H. apply level_expr; [lia|]. now apply stuck_er. Qed.

(** ** Broken statements *)
Lemma expression_er ts l t r : starts expr_starts ts -> ~ type_start ctx (ts ++ l) ->
  er (fun f => bind (parse_expr ctx f 0) (fun x => bind (expect ";" (Some "parsing statement"%string)) (fun _ => ret (SExpr x, @nil error)))) (ts ++ l) t r ->
  er (parse_statement ctx) (ts ++ l) t r.
Proof.
  intros (w & ts2 & -> & Ht) Hst H. eapply er_step; [exact H|]. exists 0. intros f x c _ E.
  rewrite parse_statement_S. cbn [app] in *. ev1 ltac:(apply more_ev). cbn [negb]. ev1 ltac:(now apply type_no). ev1 ltac:(apply peek_unwrap_ev).
  assert (Hk : forall k, ~ In k expr_starts -> kind_is w k = false).
  { intros k Hn. apply kind_is_false. intros Ek. apply Hn. rewrite <- Ek. exact Ht. }
  rewrite !Hk by (cbn; intuition discriminate). exact E.
Qed.
Lemma return_er k l t r : is "return" k -> head_kind ";" l = false -> l <> [] ->
  er (fun f => bind (parse_expr ctx f 0) (fun x => bind (expect ";" None) (fun _ => ret (SReturn (Some x))))) l t r ->
  er (parse_statement ctx) (k :: l) t r.
Proof.
  intros Hk Hl Hn H. eapply er_step; [exact H|]. exists 0. intros f x c _ E.
  rewrite parse_statement_S. dispatch Hk. apply bind_err. unfold parse_return. exp_.
  destruct l as [|w l]; [contradiction|]. ev1 ltac:(apply peek_unwrap_ev). cbn in Hl. rewrite Hl. exact E.
Qed.
Lemma declared_er ts n l t r : type_start ctx ts -> typename_of ctx ts n -> head_kind "." l = false ->
  er (fun f => bind (parse_form ctx f) (fun _ => bind (bind (eat "=") (fun b => if b : bool then bind (parse_expr ctx f 0) (fun e0 => ret (Some e0)) else ret None))
    (fun _ => expect ";" None))) l t r ->
  er (parse_statement ctx) (ts ++ l) t r.
Proof.
  intros Hst Ht Hd H. eapply er_step; [exact H|]. exists 0. intros f x c _ E0. rewrite parse_statement_S.
  destruct (typename_start ctx _ _ Ht) as (first & rest & E & _).
  rewrite (bind_eval _ _ _ _ _ true (cur (ts ++ l))) by (rewrite E; apply more_ev). cbn [negb].
  ev1 ltac:(apply type_yes; now apply start_mono). apply bind_err. unfold parse_variable_declaration.
  rewrite (bind_eval _ _ _ _ _ first (cur (ts ++ l))) by (rewrite E; apply peek_unwrap_ev).
  cbv beta. ev1 ltac:(apply parse_typename_ev; eassumption).
  revert E0. unfold bind at 1 5. destruct (parse_form ctx f (cur l)) as [[fm|y|w|] c1]; try discriminate; [|intros E0; injection E0 as <- <-; reflexivity].
  intros E0. rewrite bind_split. now apply bind_err2.
Qed.
Lemma begun_er ts t r : begun ctx ts t -> er (parse_statement ctx) (ts ++ t :: r) t r.
Proof.
  intros H. destruct H as [t Ht Hs|ts t Hne Hm Hst|ts a t Ha Hst Hi Hs|k t Hk Hs Hu|k ts t Hk Hm|k ts a t Hk Ha Hi Hs
    |ts n ss k t Hst Hn Hss Hstar Hw Hd Hu|ts n ts' fm q ts'' t Hst Hn Hf Hq Hm|ts n ts' fm ts'' v t Hst Hn Hf Hv Hi Hs].
  - eapply er_step; [apply (level_expr 0); [lia|]; apply (level_operand 0 t r); [lia|exact Ht]|]. exists 0. intros f x c _ E.
    rewrite parse_statement_S. cbn [app]. ev1 ltac:(apply more_ev). cbn [negb].
    assert (Hk : forall k, In k first_of_statement -> kind_is t k = false).
    { intros k Hi. apply kind_is_false. intros Ek. apply Hs. unfold is in Ek. rewrite Ek. exact Hi. }
    ev1 ltac:(apply type_no; intros Hty; inversion Hty; subst;
      [pose proof (Hk "const"%string ltac:(cbn; tauto)) as E1|pose proof (no_operand_kinds t "word" Ht ltac:(cbn; tauto)) as E1
      |pose proof (no_operand_kinds t "word" Ht ltac:(cbn; tauto)) as E1]; apply kind_is_false in E1; contradiction).
    ev1 ltac:(apply peek_unwrap_ev). rewrite !Hk by (cbn; tauto). now apply bind_err.
  - apply expression_er; [eapply stuck_start; eauto|apply Hst|].
    apply (er_map _ _ _ _ _ _ _ _ (stuck_expr ts t r Hm)). intros x r' [F HF]. exists F. intros f Hf. apply bind_err. now apply HF.
  - apply expression_er; [eapply expr_start; eauto|apply Hst|].
    destruct (parse_expr_ev 0 ts a (t :: r) ltac:(lia) Ha (interrupts_stop t r Hi)) as [F HF].
    apply (er_expect _ ";" (Some "parsing statement"%string)); [auto|apply Hi|]. exists F. intros f Hf x E. use HF. now apply bind_err.
  - destruct Hk as [Hk|Hk].
    + apply (er_expect _ ";" (Some "break statement"%string)); auto. exists 1. intros f Hf x E. destruct f as [|f]; [lia|].
      rewrite parse_statement_S. cbn [app]. dispatch Hk. get_. now apply bind_err.
    + apply (er_expect _ ";" (Some "continue statement"%string)); auto. exists 1. intros f Hf x E. destruct f as [|f]; [lia|].
      rewrite parse_statement_S. cbn [app]. dispatch Hk. get_. now apply bind_err.
  - cbn [app]. apply return_er; auto.
    + destruct ts as [|w ts]; [cbn; apply kind_is_false, (stuck_nil _ _ Hm)|].
      eapply head_starts; [eapply stuck_start; [exact Hm|discriminate]|]. cbn. intuition discriminate.
    + now destruct ts.
    + apply (er_map _ _ _ _ _ _ _ _ (stuck_expr ts t r Hm)). intros x r' [F HF]. exists F. intros f Hf. apply bind_err. now apply HF.
  - cbn [app]. apply return_er; auto.
    + eapply head_starts; [eapply expr_start; eassumption|]. cbn. intuition discriminate.
    + now destruct ts.
    + destruct (parse_expr_ev 0 ts a (t :: r) ltac:(lia) Ha (interrupts_stop t r Hi)) as [F HF].
      apply (er_expect _ ";" None); [auto|apply Hi|]. exists F. intros f Hf x E. use HF. now apply bind_err.
  - norm. eapply declared_er; eauto.
    + destruct Hss as [[|s ss' Hss _] _]; cbn [app]; [now apply kind_is_false|other].
    + destruct (count_stars_ev p ss k (t :: r) Hss) with (k := 0) as [F HF]. { now apply kind_is_false. }
      apply (er_expect _ "word" (Some "form"%string)); auto. exists F. intros f Hf x E. apply bind_err. unfold parse_form.
      destruct (ss ++ t :: r) as [|w l] eqn:E2; [now destruct ss|]. ev1 ltac:(apply peek_unwrap_ev). use HF. now apply bind_err.
  - norm. eapply declared_er; eauto; [eapply form_dot; eassumption|].
    destruct (form_ev ctx p ts' fm (q :: ts'' ++ t :: r) Hf) as [F1 H1]. { other. }
    apply (er_map _ _ _ _ _ _ _ _ (stuck_expr ts'' t r Hm)). intros x r' [F HF]. exists (F + F1). intros f Hl. use H1. apply bind_err.
    ev1 ltac:(now apply eat_yes). apply bind_err. apply HF. lia.
  - destruct (interrupts_facts t Hi r) as (He & Hb & Hd). norm. eapply declared_er; eauto; [eapply form_dot; eassumption|].
    destruct (form_ev ctx p ts' fm (ts'' ++ t :: r) Hf) as [F1 H1]. { destruct Hv; cbn [app]; auto. other. }
    destruct (init_ev ctx p ts'' v (t :: r) Hv He (interrupts_stop t r Hi)) as [F HF].
    apply (er_expect _ ";" None); [auto|apply Hi|]. exists (F + F1). intros f Hl x E. use H1. use HF. exact E.
Qed.
Lemma begun_head ts t r : begun ctx ts t -> head_kind "}" (ts ++ t :: r) = false.
Proof.
  intros H. destruct H as [t Ht Hs|ts t Hne Hm Hst|ts a t Ha Hst Hi Hs|k t Hk Hs Hu|k ts t Hk Hm|k ts a t Hk Ha Hi Hs
    |ts n ss k t Hst Hn Hss Hstar Hw Hd Hu|ts n ts' fm q ts'' t Hst Hn Hf Hq Hm|ts n ts' fm ts'' v t Hst Hn Hf Hv Hi Hs]; cbn [app]; rewrite <- ?app_assoc.
  - cbn. apply kind_is_false, Ht.
  - eapply head_starts; [eapply stuck_start; eassumption|]. cbn. intuition discriminate.
  - eapply head_starts; [eapply expr_start; eassumption|]. cbn. intuition discriminate.
  - destruct Hk; other.
  - other.
  - other.
  - eapply head_starts; [eapply typename_start; eassumption|]. cbn. intuition discriminate.
  - eapply head_starts; [eapply typename_start; eassumption|]. cbn. intuition discriminate.
  - eapply head_starts; [eapply typename_start; eassumption|]. cbn. intuition discriminate.
Qed.

(** ** Skipping *)
Lemma skip_semicolon more s r : Forall inner more -> is ";" s -> ev skip_statement (more ++ s :: r) tt r.
Proof.
  intros H Hs. induction H as [|t more [Hi Hb] _ [F HF]].
  - fuel 1. cbn [skip_statement app]. ev1 ltac:(apply peek_ev). rewrite (kind_no _ "}" _ Hs) by discriminate. rewrite (kind_yes _ _ Hs). get_. reflexivity.
  - fuel (S F). cbn [skip_statement app]. ev1 ltac:(apply peek_ev). apply kind_is_false in Hi. apply kind_is_false in Hb. rewrite Hi, Hb. get_. apply HF. lia.
Qed.
Lemma skip_brace more rb r : Forall inner more -> is "}" rb -> ev skip_statement (more ++ rb :: r) tt (rb :: r).
Proof.
  intros H Hs. induction H as [|t more [Hi Hb] _ [F HF]].
  - fuel 1. cbn [skip_statement app]. ev1 ltac:(apply peek_ev). rewrite (kind_yes _ _ Hs). reflexivity.
  - fuel (S F). cbn [skip_statement app]. ev1 ltac:(apply peek_ev). apply kind_is_false in Hi. apply kind_is_false in Hb. rewrite Hi, Hb. get_. apply HF. lia.
Qed.

(** ** Statements *)
Definition F_stmt (ts : list token) (l : list pos) (o : bool) : Prop :=
  forall r, closed o r -> exists s errs, map e_pos errs = l /\ ev (parse_statement ctx) (ts ++ r) (s, errs) r.
Definition F_block (ts : list token) (l : list pos) (o : bool) : Prop :=
  forall r, closed o r -> exists b errs, map e_pos errs = l /\ ev (parse_statements_block ctx) (ts ++ r) (b, errs) r.
Definition F_body (ts : list token) (l : list pos) : Prop :=
  forall r, exists b errs, map e_pos errs = l /\ ev (read_body ctx) (ts ++ r) (b, errs) r.
Definition F_faults (rb : token) (ts : list token) (l : list pos) : Prop :=
  is "}" rb -> forall ss es r, exists b errs, map e_pos errs = l /\ ev (fun f => body_loop ctx f ss es) (ts ++ rb :: r) (b, es ++ errs) r.
Definition F_cases (ts : list token) (l : list pos) : Prop :=
  forall cs es r, head_kind "case" r = false ->
  exists cs' errs, map e_pos errs = l /\ ev (fun f => switch_cases ctx f cs es) (ts ++ r) (cs', es ++ errs) r.
Definition F_default (ts : list token) (l : list pos) : Prop :=
  forall es r, head_kind "default" r = false -> exists d errs, map e_pos errs = l /\
  ev (fun f => bind (follows "default") (fun d0 => if d0 : bool then
           bind (expect "default" None) (fun _ => bind (expect ":" None) (fun _ =>
            bind (read_body ctx f) (fun '(b, errs2) => ret (Some b, es ++ errs2))))
         else ret (None, es))) (ts ++ r) (d, es ++ errs) r.

Lemma faulty_start ts l o : faulty_stmt ctx ts l o -> starts stmt_starts ts.
Proof.
  intros H. destruct H; try (eexists _, _; split; [cbn [app]; reflexivity|]; eapply is_in; [eassumption|cbn; tauto]).
  eapply stmt_start; eauto.
Qed.
Lemma broken_ev ts t l1 l2 l ss es r : begun ctx ts t ->
  (forall l', l' = l1 /\ inner t \/ l' = t :: l1 -> ev skip_statement l' tt l2) ->
  (forall es', exists b errs, map e_pos errs = l /\ ev (fun f => body_loop ctx f ss es') l2 (b, es' ++ errs) r) ->
  exists b errs, map e_pos errs = t_pos t :: l /\ ev (fun f => body_loop ctx f ss es) (ts ++ t :: l1) (b, es ++ errs) r.
Proof.
  intros Hb Hsk Hl. destruct (begun_er ts t l1 Hb) as (x & l' & Hx & Hl' & F & HF). destruct (Hsk l' Hl') as [F2 H2].
  destruct (Hl (es ++ [x])) as (b & errs & E & F3 & H3). rewrite <- app_assoc in H3. cbn [app] in H3.
  exists b, (x :: errs). split; [cbn; congruence|]. fuel (S (F + F2 + F3)). rewrite body_loop_S.
  ev1 ltac:(apply follows_no, begun_head; exact Hb). rewrite HF by lia. use H2. apply H3. lia.
Qed.
Lemma end_ev rb r ss : is "}" rb -> forall es, exists b errs, map e_pos errs = [] /\ ev (fun f => body_loop ctx f ss es) (rb :: r) (b, es ++ errs) r.
Proof.
  intros Hrb es. exists ss, []. split; auto. rewrite app_nil_r. fuel 1. rewrite body_loop_S. ev1 ltac:(now apply follows_yes). exp_. reflexivity.
Qed.
Lemma faulty_all :
  (forall ts l o, faulty_stmt ctx ts l o -> F_stmt ts l o) /\
  (forall ts l o, faulty_block ctx ts l o -> F_block ts l o) /\
  (forall ts l, faulty_body ctx ts l -> F_body ts l) /\
  (forall rb ts l, faults ctx rb ts l -> F_faults rb ts l) /\
  (forall ts l, faulty_cases ctx ts l -> F_cases ts l) /\
  (forall ts l, faulty_default ctx ts l -> F_default ts l).
Proof.
  apply (faulty_mutual ctx (fun ts l o _ => F_stmt ts l o) (fun ts l o _ => F_block ts l o) (fun ts l _ => F_body ts l)
    (fun rb ts l _ => F_faults rb ts l) (fun ts l _ => F_cases ts l) (fun ts l _ => F_default ts l)).
  - intros ts s o H r Ho. exists s, []. split; auto. now apply (proj1 (stmt_complete_all ctx p) ts s o H).
  - intros k lp ts x rp ts' l o Hk Hlp Hx Hrp _ Hb r Ho. norm.
    destruct (parse_expr_ev 0 ts x (rp :: ts' ++ r) ltac:(lia) Hx) as [F HF]. { stops. }
    destruct (Hb r Ho) as (b & errs & E & F2 & H2). exists (SWhile x b), errs. split; auto.
    exists (S (S (F + F2))). intros f Hf. destruct f as [|[|f]]; try lia.
    rewrite parse_statement_S. dispatch Hk. rewrite parse_while_S. exp_. exp_. use HF. exp_. use H2. reflexivity.
  - intros k lp i fi s1 c oc s2 a oa rp ts l o Hk Hlp Hi Hs1 Hc Hs2 Ha Hrp _ Hb r Ho. norm.
    destruct (forinit_ev ctx p i fi s1 (c ++ s2 :: a ++ rp :: ts ++ r) Hi Hs1) as [F1 H1].
    destruct (optional_ev ctx p c oc ";" s2 (a ++ rp :: ts ++ r) Hc Hs2) as [F2 H2]. { cbn; tauto. } { cbn; intuition discriminate. }
    destruct (optional_ev ctx p a oa ")" rp (ts ++ r) Ha Hrp) as [F3 H3]. { cbn; tauto. } { cbn; intuition discriminate. }
    destruct (Hb r Ho) as (b & errs & E & F4 & H4). exists (SFor fi oc oa b), errs. split; auto.
    exists (S (S (F1 + F2 + F3 + F4))). intros f Hf. destruct f as [|[|f]]; try lia.
    rewrite parse_statement_S. dispatch Hk. rewrite parse_for_S. exp_. exp_. use H1. exp_. use H2. exp_. use H3. exp_. use H4. reflexivity.
  - intros k lp ts x rp ts' l o Hk Hlp Hx Hrp _ Hb r Ho. norm.
    destruct (parse_expr_ev 0 ts x (rp :: ts' ++ r) ltac:(lia) Hx) as [F HF]. { stops. }
    destruct (Hb r (fun _ => Ho eq_refl)) as (b & errs & E & F2 & H2). exists (SIf x b None), errs. split; auto.
    exists (S (S (F + F2))). intros f Hf. destruct f as [|[|f]]; try lia.
    rewrite parse_statement_S. dispatch Hk. rewrite parse_if_S. exp_. exp_. use HF. exp_. use H2.
    ev1 ltac:(apply follows_no; exact (Ho eq_refl)). reflexivity.
  - intros k lp ts x rp ts' l el ts'' l2 o Hk Hlp Hx Hrp _ Hb Hel _ Hb2 r Ho. norm.
    destruct (parse_expr_ev 0 ts x (rp :: ts' ++ el :: ts'' ++ r) ltac:(lia) Hx) as [F HF]. { stops. }
    destruct (Hb (el :: ts'' ++ r) (closed_false _)) as (b & errs & E & F2 & H2). destruct (Hb2 r Ho) as (b2 & errs2 & E2 & F3 & H3).
    exists (SIf x b (Some b2)), (errs ++ errs2). split; [now rewrite map_app, E, E2|].
    exists (S (S (F + F2 + F3))). intros f Hf. destruct f as [|[|f]]; try lia.
    rewrite parse_statement_S. dispatch Hk. rewrite parse_if_S. exp_. exp_. use HF. exp_. use H2.
    ev1 ltac:(now apply follows_yes). get_. use H3. reflexivity.
  - intros k w str_ lp ts x rp lb ts' l ts'' l2 rb Hk Hw Hstr Hlp Hx Hrp Hlb _ Hc Hdo Hd Hrb r _. norm.
    destruct (parse_expr_ev 0 ts x (rp :: lb :: ts' ++ ts'' ++ rb :: r) ltac:(lia) Hx) as [F1 H1]. { stops. }
    destruct (Hc [] [] (ts'' ++ rb :: r)) as (cs & errs & E & F2 & H2). { destruct Hdo; cbn [app]; other. }
    destruct (Hd errs (rb :: r)) as (d & errs2 & E2 & F3 & H3). { other. }
    exists (SSwitch str_ x cs d), (errs ++ errs2). split; [now rewrite map_app, E, E2|].
    exists (S (S (F1 + F2 + F3))). intros f Hf. destruct f as [|[|f]]; try lia.
    rewrite parse_statement_S. dispatch Hk. rewrite read_switch_S. exp_.
    destruct Hw as [|w Hw]; cbn [app].
    + ev1 ltac:(apply peek_ev). rewrite (kind_no _ "word" _ Hlp) by discriminate. cbn [andb]. ev1 ltac:(reflexivity). exp_.
      use H1. exp_. exp_. use H2. cbn [app]. rewrite bind_split. erewrite bind_eval. 2:{ rewrite <- (H3 f) by lia. reflexivity. } cbv beta iota. exp_. reflexivity.
    + ev1 ltac:(apply peek_ev). rewrite (kind_yes _ _ Hw), (Hstr w) by now left. replace (str_eqb (L "str") (L "str")) with true by (symmetry; now apply str_eqb_eq). cbn [andb].
      erewrite (bind_eval _ _ _ _ _ true). 2:{ get_. reflexivity. } cbv beta iota. exp_.
      use H1. exp_. exp_. use H2. cbn [app]. rewrite bind_split. erewrite bind_eval. 2:{ rewrite <- (H3 f) by lia. reflexivity. } cbv beta iota. exp_. reflexivity.
  - intros ts l Hbo H r _. destruct (H r) as (b & errs & E & F & HF). exists b, errs. split; auto. destruct Hbo as [lb ts l rb Hlb _ _].
    fuel (S F). rewrite parse_statements_block_S; cbn [app] in *. ev1 ltac:(now apply follows_yes). apply HF. lia.
  - intros ts l o Hst H Hn r Ho. destruct (H r Ho) as (s0 & errs & E & F & HF). exists [s0], errs. split; auto. fuel (S F). rewrite parse_statements_block_S.
    ev1 ltac:(apply follows_no; destruct (faulty_start _ _ _ Hst) as (t & ts' & E' & _); subst ts; cbn; apply kind_is_false; eapply Hn; reflexivity).
    use HF. reflexivity.
  - intros lb ts l rb Hlb _ H Hrb r. norm. destruct (H Hrb [] [] r) as (b & errs & E & F & HF). exists b, errs. split; auto.
    fuel (S F). rewrite read_body_S. exp_. apply HF. lia.
  - intros rb Hrb ss es r. exists ss, []. split; auto. rewrite app_nil_r. fuel 1. cbn [app]. rewrite body_loop_S. ev1 ltac:(now apply follows_yes). exp_. reflexivity.
  - intros rb ts l o ts' l' Hst H Hel _ Hl Hrb ss es r. norm. destruct (H (ts' ++ rb :: r)) as (s0 & errs & E & F & HF).
    { intros Ho. destruct ts' as [|t ts']; cbn [app]; [other|]. cbn. apply kind_is_false. eapply Hel; eauto. }
    destruct (Hl Hrb (ss ++ [s0]) (es ++ errs) r) as (b & errs2 & E2 & F2 & H2). exists b, (errs ++ errs2). split; [now rewrite map_app, E, E2|].
    rewrite <- app_assoc in H2. fuel (S (F + F2)). rewrite body_loop_S.
    ev1 ltac:(apply follows_no; eapply head_starts; [eapply faulty_start; eassumption|cbn; intuition discriminate]).
    rewrite HF by lia. apply H2. lia.
  - intros rb ts t more s ts' l Hb Hi Hm Hs _ Hl Hrb ss es r.
    norm. apply (broken_ev ts t (more ++ s :: ts' ++ rb :: r) (ts' ++ rb :: r)); auto.
    intros l' [[-> _]| ->]; [now apply skip_semicolon|]. apply (skip_semicolon (t :: more)); auto.
  - intros rb ts s ts' l Hb Hs _ Hl Hrb ss es r. norm. apply (broken_ev ts s (ts' ++ rb :: r) (ts' ++ rb :: r)); auto.
    intros l' [[_ [Hi _]]| ->]; [contradiction|]. now apply (skip_semicolon []).
  - intros rb ts t more Hb Hi Hm Hrb ss es r. norm. apply (broken_ev ts t (more ++ rb :: r) (rb :: r)); auto.
    + intros l' [[-> _]| ->]; [now apply skip_brace|]. apply (skip_brace (t :: more)); auto.
    + now apply end_ev.
  - intros rb ts Hb Hrb ss es r. apply (broken_ev ts rb r (rb :: r)); auto.
    + intros l' [[_ [_ Hi]]| ->]; [contradiction|]. now apply (skip_brace []).
    + now apply end_ev.
  - intros cs es r Hr. exists cs, []. split; auto. rewrite app_nil_r. fuel 1. rewrite switch_cases_S; cbn [app]. ev1 ltac:(now apply follows_no). reflexivity.
  - intros k ts vs c ts' l ts'' l2 Hk Hv Hc _ Hb _ Hl cs es r Hr. norm.
    destruct (values_ev ctx p ts vs c (ts' ++ ts'' ++ r) Hv Hc []) as [F1 H1]. destruct (Hb (ts'' ++ r)) as (b & errs & E & F2 & H2).
    destruct (Hl (cs ++ [(vs, b)]) (es ++ errs) r Hr) as (cs' & errs2 & E2 & F3 & H3). exists cs', (errs ++ errs2). split; [now rewrite map_app, E, E2|].
    rewrite <- app_assoc in H3. cbn [app] in H1.
    exists (S (S (F1 + F2 + F3))). intros f Hf. destruct f as [|[|f]]; try lia.
    rewrite switch_cases_S. ev1 ltac:(now apply follows_yes). rewrite (bind_eval _ _ _ _ _ ((vs, b), errs) (cur (ts'' ++ r))).
    2:{ rewrite read_switch_case_S. exp_. use H1. exp_. use H2. reflexivity. }
    cbv beta iota. rewrite <- (H3 (S f)) by lia. reflexivity.
  - intros es r Hr. exists None, []. split; auto. rewrite app_nil_r. exists 0. intros f _. cbn [app]. ev1 ltac:(now apply follows_no). reflexivity.
  - intros k c ts l Hk Hc _ H es r Hr. destruct (H r) as (b & errs & E & F & HF). exists (Some b), errs. split; auto.
    exists F. intros f Hf. cbn [app]. ev1 ltac:(now apply follows_yes). exp_. exp_. use HF. reflexivity.
Qed.

(** ** Modules *)
Lemma faulty_head k ts l : faulty_module ctx ts l -> ~ In k ("import" :: "macro" :: "pub" :: elem_starts)%string -> head_kind k ts = false.
Proof.
  intros H Hk. assert (Hk' : forall k', In k' ("import" :: "macro" :: "pub" :: elem_starts)%string -> k' <> k) by (intros k' Hi ->; contradiction).
  destruct H as [|i ts l Hi _|t a ts l Ht _|pb pub ts a ts' l first rest Hpb E Ha _|pb pub ts n ts' fm lp ps ql v rp ts'' l o rest l' Hpb Hn]; auto.
  - eapply head_is; [exact Hi|]. apply Hk'. cbn. tauto.
  - destruct Ht. eapply head_is; [eassumption|]. apply Hk'. cbn. tauto.
  - destruct Hpb as [|t Ht]; cbn [app].
    + eapply head_starts; [eapply elem_start; eassumption|]. intros Hi. apply Hk. do 3 right. exact Hi.
    + eapply head_is; [exact Ht|]. apply Hk'. cbn. tauto.
  - destruct Hpb as [|t Ht]; cbn [app].
    + eapply head_starts; [eapply typename_start; eassumption|]. intros Hi. apply Hk. cbn in *. tauto.
    + eapply head_is; [exact Ht|]. apply Hk'. cbn. tauto.
Qed.
Lemma function_ev pb pub ts n ts' fm lp ps ql v rp ts'' l o r : optional "pub" pb pub ->
  typename_of ctx ts n -> form_of ctx ts' fm -> is "(" lp -> params_of ctx ps ql v -> is ")" rp -> faulty_block ctx ts'' l o ->
  head_kind "else" r = false ->
  exists a errs, map e_pos errs = l /\ ev (parse_module_object ctx) (pb ++ ts ++ ts' ++ lp :: ps ++ rp :: ts'' ++ r) (a, errs) r.
Proof.
  intros Hpb Hn Hf Hlp Hps Hrp Hb He.
  destruct (form_ev ctx p ts' fm (lp :: ps ++ rp :: ts'' ++ r) Hf) as [F1 H1]. { other. }
  destruct (params_ev ctx p ps ql v rp (ts'' ++ r) Hps Hrp []) as (mid & [F2 H2] & Hd).
  destruct (proj1 (proj2 faulty_all) ts'' l o Hb r) as (b & errs & E & F3 & H3). { intros _. exact He. }
  destruct (pb ++ ts) as [|first rest] eqn:Ef.
  { destruct (typename_start _ _ _ Hn) as (w & tr & -> & _). now destruct pb. }
  eexists _, errs. split; [exact E|].
  exists (F1 + F2 + F3). intros f Hl. unfold parse_module_object.
  rewrite (bind_eval _ _ _ _ _ first (cur (pb ++ ts ++ ts' ++ lp :: ps ++ rp :: ts'' ++ r))).
  2:{ rewrite app_assoc, Ef. apply peek_unwrap_ev. }
  cbv beta. rewrite (bind_eval _ _ _ _ _ pub (cur (ts ++ ts' ++ lp :: ps ++ rp :: ts'' ++ r))).
  2:{ destruct Hpb as [|t Ht]; cbn [app]; [|now apply eat_yes]. apply eat_no. eapply typename_head; [eassumption|cbn; intuition discriminate]. }
  ev1 ltac:(apply follows_no; eapply typename_head; [eassumption|cbn; intuition discriminate]).
  ev1 ltac:(apply follows_no; eapply typename_head; [eassumption|cbn; intuition discriminate]).
  ev1 ltac:(apply parse_typename_ev; [eassumption|eapply form_dot; eassumption]). use H1. ev1 ltac:(apply peek_unwrap_ev).
  rewrite (kind_yes _ _ Hlp). unfold parse_function_declaration. exp_. use H2. ev1 ltac:(exact Hd). exp_. use H3. reflexivity.
Qed.
Lemma faulty_module_ev ts l : faulty_module ctx ts l -> forall objs es,
  exists objs' errs, map e_pos errs = l /\ ev (fun f => module_loop f ctx objs es) ts (objs', es ++ errs) [].
Proof.
  intros H. induction H as [|i ts l Hi Hl IH|t a ts l Ht Hl IH|pb pub ts a ts' l first rest Hpb E Ha Hl IH
    |pb pub ts n ts' fm lp ps ql v rp ts'' l o rest l' Hpb Hn Hf Hlp Hps Hrp Hb Hl IH]; intros objs es.
  - exists objs, []. split; auto. fuel 1. cbn [module_loop]. rewrite app_nil_r. reflexivity.
  - destruct (IH objs es) as (objs' & errs & E & F & HF). exists objs', errs. split; auto.
    fuel (S F). cbn [module_loop]. ev1 ltac:(apply peek_ev). rewrite (kind_yes _ _ Hi). get_. apply HF. lia.
  - destruct (IH (objs ++ [a]) es) as (objs' & errs & E & F & HF). exists objs', errs. split; auto.
    fuel (S F). cbn [module_loop]. ev1 ltac:(apply peek_ev). pose proof Ht as Ht'. destruct Ht' as [t' h nm v Hk _ _ _ _].
    rewrite (kind_no _ "import" _ Hk) by discriminate. rewrite (kind_yes _ _ Hk). rewrite (macro_ev _ _ _ _ Ht). apply HF. lia.
  - destruct (IH (objs ++ [a]) es) as (objs' & errs & E1 & F & HF). exists objs', errs. split; auto.
    destruct (object_ev ctx p pb pub ts a first rest ts' Hpb E Ha) as [F2 H2].
    { eapply faulty_head; [eassumption|]. cbn. intuition discriminate. }
    { eapply faulty_head; [eassumption|]. cbn. intuition discriminate. }
    fuel (S (F + F2)). cbn [module_loop].
    rewrite (bind_eval _ _ _ _ _ (Some first) (cur (pb ++ ts ++ ts'))) by (rewrite app_assoc, E; apply peek_ev).
    assert (Hk : In (t_kind first) ("pub" :: elem_starts)%string).
    { destruct Hpb as [|t Ht]; cbn [app] in E.
      - destruct (elem_start _ _ _ _ _ Ha) as (t & tr & -> & Hk). injection E as -> _. now right.
      - injection E as -> _. rewrite Ht. now left. }
    assert (Hkk : forall k, ~ In k ("pub" :: elem_starts)%string -> kind_is first k = false).
    { intros k Hn. apply kind_is_false. intros Ek. rewrite Ek in Hk. contradiction. }
    rewrite !Hkk by (cbn; intuition discriminate). rewrite H2 by lia. rewrite app_nil_r. apply HF. lia.
  - destruct (function_ev pb pub ts n ts' fm lp ps ql v rp ts'' l o rest Hpb Hn Hf Hlp Hps Hrp Hb) as (a & errs1 & E1 & F1 & H1).
    { eapply faulty_head; [eassumption|]. cbn. intuition discriminate. }
    destruct (IH (objs ++ [a]) (es ++ errs1)) as (objs' & errs & E2 & F & HF). exists objs', (errs1 ++ errs). split; [now rewrite map_app, E1, E2|].
    rewrite <- app_assoc in HF. fuel (S (F + F1)). cbn [module_loop].
    set (l0 := pb ++ ts ++ ts' ++ lp :: ps ++ rp :: ts'' ++ rest) in *.
    assert (Hs : starts ["pub"; "const"; "word"]%string l0).
    { destruct Hpb as [|t Ht]; unfold l0; cbn [app].
      - apply starts_app. eapply starts_sub; [|eapply typename_start; eassumption]. cbn. tauto.
      - eexists _, _. split; [reflexivity|]. eapply is_in; [exact Ht|cbn; tauto]. }
    destruct Hs as (t & tr & E & Hk). rewrite (bind_eval _ _ _ _ _ (Some t) (cur l0)) by (rewrite E; apply peek_ev). cbv beta iota.
    assert (Hkk : forall k, ~ In k ["pub"; "const"; "word"]%string -> kind_is t k = false).
    { intros k Hni. apply kind_is_false. intros Ek. rewrite Ek in Hk. contradiction. }
    rewrite !Hkk by (cbn; intuition discriminate). rewrite H1 by lia. apply HF. lia.
Qed.
End Fault.

Theorem parse_faulty ctx p l q ps : faulty_module ctx l (q :: ps) ->
  exists F, forall f, F <= f -> exists es, parse_module f ctx (mkCur l (EndEof p)) = PErrors es /\ map e_pos es = q :: ps.
Proof.
  intros H. destruct (faulty_module_ev ctx p l _ H [] []) as (objs & errs & E & F & HF). exists F. intros f Hf. exists errs. split; auto.
  unfold parse_module. rewrite HF by auto. cbn [app]. destruct errs; [discriminate|reflexivity].
Qed.
