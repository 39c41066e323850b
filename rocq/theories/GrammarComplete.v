(** What belongs to the grammar is accepted by the parser: statements and modules. *)
From Verif Require Import Base Buf Lexer Nodes Cursor Resolve Cspec Preparser Parser BaseFacts SpecGrammar GrammarSound GrammarExpr.

Section Complete.
Variable ctx : parsectx.
Variable p : pos.
Notation e := (EndEof p).
Notation cur l := (mkCur l e).
Notation ev := (ev p).
Notation parse_expr_ev := (parse_expr_ev ctx p).
Notation count_stars_ev := (count_stars_ev p).
Notation typeform_ev := (typeform_ev ctx p).

Ltac ev1 tac := erewrite bind_eval by tac; cbv beta iota zeta.
Ltac norm := cbn [app]; repeat (rewrite <- !app_assoc; cbn [app]).
Ltac fuel F := exists F; let f := fresh "f" in let Hf := fresh "Hf" in intros f Hf; destruct f as [|f]; [lia|].
Ltac exp_ := ev1 ltac:(now apply expect_ev).
Ltac get_ := ev1 ltac:(apply get_ev).
Ltac use H := ev1 ltac:(apply H; lia).

(** ** Declarations *)
Definition terms : list string := [";"; ")"; "]"; "}"; ","; ":"; "{"; "..."]%string.
Lemma stop_terms n t r : In (t_kind t) terms -> stop n (t :: r).
Proof.
  intros H t' r' E. injection E as <- <-. cbn in H.
  repeat (destruct H as [H|H]; [rewrite <- H; split; [cbn; intuition discriminate|discriminate]|]). contradiction.
Qed.
Lemma stop_is n k t r : is k t -> In k terms -> stop n (t :: r).
Proof. intros H Hi. apply stop_terms. now rewrite H. Qed.
Ltac stops := eapply stop_is; [eassumption|cbn; tauto].
Ltac other := eapply head_is; [eassumption|discriminate].

Lemma indexes_ev ixs l r : many (index_of ctx) ixs l -> head_kind "[" r = false -> forall acc,
  ev (fun f => form_indexes ctx f acc) (ixs ++ r) (acc ++ l) r.
Proof.
  intros H Hr. induction H as [|ts ts' a l H Hm IH]; intros acc.
  - fuel 1. cbn [form_indexes app]. ev1 ltac:(now apply follows_no). rewrite app_nil_r. reflexivity.
  - destruct (IH (acc ++ [a])) as [F1 H1]. rewrite <- (app_assoc acc) in H1. cbn [app] in H1. destruct H as [lb rb Hlb Hrb|lb ts x rb Hlb Hx Hrb].
    + fuel (S F1). cbn [form_indexes app]. ev1 ltac:(now apply follows_yes). get_. ev1 ltac:(apply peek_ev).
      rewrite (kind_yes _ _ Hrb). cbn [negb]. ev1 ltac:(reflexivity). exp_. apply H1. lia.
    + norm. destruct (parse_expr_ev 0 ts x (rb :: ts' ++ r) ltac:(lia) Hx) as [F2 H2]. { stops. }
      fuel (S (F1 + F2)). cbn [form_indexes]. ev1 ltac:(now apply follows_yes). get_.
      destruct (expr_cons _ _ _ _ Hx) as (t & ts2 & -> & Ht). cbn [app] in *. ev1 ltac:(apply peek_ev).
      replace (kind_is t "]") with false.
      2:{ symmetry. apply kind_is_false. intros E. rewrite E in Ht. cbn in Ht. intuition discriminate. }
      cbn [negb]. erewrite (bind_eval _ _ _ _ _ (Some x)). 2:{ use H2. reflexivity. }
      cbv beta. exp_. apply H1. lia.
Qed.
Lemma form_ev ts fm r : form_of ctx ts fm -> head_kind "[" r = false -> ev (fun f => parse_form ctx f) (ts ++ r) fm r.
Proof.
  intros [first ss n x ixs l rest Hs Hx Hc Hi E] Hr.
  destruct (count_stars_ev ss n (x :: ixs ++ r) Hs ltac:(other) 0) as [F1 H1].
  destruct (indexes_ev ixs l r Hi Hr []) as [F2 H2]. norm.
  exists (F1 + F2). intros f Hf. unfold parse_form.
  rewrite (bind_eval _ _ _ _ _ first (cur (ss ++ x :: ixs ++ r))).
  2:{ destruct ss as [|s0 ss]; cbn [app] in *; injection E as <- _; apply peek_unwrap_ev. }
  cbv beta. use H1. exp_. destruct (t_content x) as [|c0 cs] eqn:Ec; [congruence|]. use H2. reflexivity.
Qed.
Lemma form_start ts fm : form_of ctx ts fm -> starts ["*"; "word"]%string ts.
Proof.
  intros [first ss n x ixs l rest [Hs _] Hx Hc Hi E]. destruct Hs as [|s0 ss Hs _]; cbn [app].
  - exists x, ixs. split; auto. rewrite Hx. cbn. tauto.
  - exists s0, (ss ++ x :: ixs). split; auto. rewrite Hs. cbn. tauto.
Qed.
Lemma form_dot ts fm r : form_of ctx ts fm -> head_kind "." (ts ++ r) = false.
Proof. intros H. eapply head_starts; [eapply form_start; eauto|]. cbn. intuition discriminate. Qed.
Lemma typename_start ts t : typename_of ctx ts t -> starts ["const"; "word"]%string ts.
Proof.
  intros [ts' n H|c ts' n Hc H].
  - destruct (name_nonempty _ _ _ H) as (w & r & -> & Hw). exists w, r. split; auto. rewrite Hw. cbn. tauto.
  - exists c, ts'. split; auto. rewrite Hc. cbn. tauto.
Qed.
Lemma init_ev ts v r : init_of ctx ts v -> head_kind "=" r = false -> stop 0 r ->
  ev (fun f => bind (eat "=") (fun b => if b : bool then bind (parse_expr ctx f 0) (fun e0 => ret (Some e0)) else ret None)) (ts ++ r) v r.
Proof.
  intros [|q ts' x Hq Hx] Hr Hs.
  - exists 0. intros f _. cbn [app]. ev1 ltac:(now apply eat_no). reflexivity.
  - destruct (parse_expr_ev 0 ts' x r ltac:(lia) Hx Hs) as [F HF]. exists F. intros f Hf. cbn [app].
    ev1 ltac:(now apply eat_yes). use HF. reflexivity.
Qed.
(** Reassociating two steps. *)
Lemma bind_split A B C (m : M A) (k : A -> M B) (g : B -> M C) c : bind m (fun a => bind (k a) g) c = bind (bind m k) g c.
Proof. unfold bind. destruct (m c) as [[a|x|w|] c1]; reflexivity. Qed.
Lemma vardecl_ev first rest ts t ts' fm ts'' v s0 r :
  typename_of ctx ts t -> form_of ctx ts' fm -> init_of ctx ts'' v -> is ";" s0 -> ts = first :: rest ->
  ev (fun f => parse_variable_declaration ctx f) (ts ++ ts' ++ ts'' ++ s0 :: r) (SVarDecl (mkVar (t_pos first) t fm v)) r.
Proof.
  intros Ht Hf Hv Hs Ets.
  destruct (form_ev ts' fm (ts'' ++ s0 :: r) Hf) as [F1 H1].
  { destruct Hv; cbn [app]; other. }
  destruct (init_ev ts'' v (s0 :: r) Hv) as [F2 H2]. { other. } { stops. }
  exists (F1 + F2). intros f Hl. unfold parse_variable_declaration.
  rewrite (bind_eval _ _ _ _ _ first (cur (ts ++ ts' ++ ts'' ++ s0 :: r))). 2:{ subst ts. apply peek_unwrap_ev. }
  cbv beta. ev1 ltac:(apply parse_typename_ev; [eassumption|eapply form_dot; eassumption]).
  use H1. rewrite bind_split. use H2. exp_. reflexivity.
Qed.

(** ** Statements *)
Definition stmt_starts : list string := (["break"; "continue"; "return"; "while"; "for"; "if"; "switch"; "const"]%string ++ expr_starts)%list.
Lemma stmt_start ts s0 o : stmt_of ctx ts s0 o -> starts stmt_starts ts.
Proof.
  intros H. destruct H; try (eexists _, _; split; [cbn [app]; reflexivity|]; eapply is_in; [eassumption|cbn; tauto]).
  - eapply starts_sub; [|apply starts_app; eapply typename_start; eauto]. cbn. tauto.
  - eapply starts_sub; [|apply starts_app; eapply expr_start; eauto]. cbn. tauto.
Qed.
Lemma keyword_not_type k t r : is k t -> k <> "const"%string -> k <> "word"%string -> ~ type_start ctx (t :: r).
Proof. intros Hk H1 H2 H. inversion H; subst; unfold is in *; congruence. Qed.

Definition stmt_complete (ts : list token) (s0 : stmt) (o : bool) : Prop :=
  forall r, closed o r -> ev (parse_statement ctx) (ts ++ r) (s0, []) r.
Definition block_complete (ts : list token) (b : body) (o : bool) : Prop :=
  forall r, closed o r -> ev (parse_statements_block ctx) (ts ++ r) (b, []) r.
Definition body_complete (ts : list token) (b : body) : Prop :=
  forall r, ev (read_body ctx) (ts ++ r) (b, []) r.
Definition stmts_complete (ts : list token) (l : body) : Prop :=
  forall ss rb r, is "}" rb -> ev (fun f => body_loop ctx f ss []) (ts ++ rb :: r) (ss ++ l, []) r.
Definition cases_complete (ts : list token) (l : list (list switch_value * body)) : Prop :=
  forall cs r, head_kind "case" r = false -> ev (fun f => switch_cases ctx f cs []) (ts ++ r) (cs ++ l, []) r.
Definition default_complete (ts : list token) (d : option body) : Prop :=
  forall r, head_kind "default" r = false ->
  ev (fun f => bind (follows "default") (fun d0 => if d0 : bool then
           bind (expect "default" None) (fun _ => bind (expect ":" None) (fun _ =>
            bind (read_body ctx f) (fun '(b, errs2) => ret (Some b, [] ++ errs2))))
         else ret (None, []))) (ts ++ r) (d, []) r /\ head_kind "case" (ts ++ r) = head_kind "case" (ts ++ [] ++ r).

(** The bodies of the recursive functions. *)
Lemma parse_statement_S f : parse_statement ctx (S f) = (
      m <- more ;;
      if negb m then fail_eof (L "reached end of file while parsing statement")
      else
        t <- type_follows ctx ;;
        if t : bool then (s <- parse_variable_declaration ctx f ;; ret (s, []))
        else
          next <- peek_unwrap "parse_statement: line 734" ;;
          if kind_is next "break" then
            (get ;;; expect ";" (Some "break statement"%string) ;;; ret (SBreak, []))
          else if kind_is next "continue" then
            (get ;;; expect ";" (Some "continue statement"%string) ;;; ret (SContinue, []))
          else if kind_is next "for" then parse_for ctx f
          else if kind_is next "if" then parse_if ctx f
          else if kind_is next "return" then (s <- parse_return ctx f ;; ret (s, []))
          else if kind_is next "switch" then read_switch ctx f
          else if kind_is next "while" then parse_while ctx f
          else
            (e <- parse_expr ctx f 0 ;;
             expect ";" (Some "parsing statement"%string) ;;;
             ret (SExpr e, [])))%mon.
Proof. reflexivity. Qed.
Lemma parse_while_S f : parse_while ctx (S f) = (
      expect "while" None ;;;
      expect "(" None ;;;
      c <- parse_expr ctx f 0 ;;
      expect ")" None ;;;
      '(b, errs) <- parse_statements_block ctx f ;;
      ret (SWhile c b, errs))%mon.
Proof. reflexivity. Qed.
Lemma parse_if_S f : parse_if ctx (S f) = (
      expect "if" (Some "if statement"%string) ;;;
      expect "(" (Some "if statement"%string) ;;;
      c <- parse_expr ctx f 0 ;;
      expect ")" (Some "if statement"%string) ;;;
      '(b, errs) <- parse_statements_block ctx f ;;
      e <- follows "else" ;;
      if e : bool then
        (get ;;;
         '(b2, errs2) <- parse_statements_block ctx f ;;
         ret (SIf c b (Some b2), errs ++ errs2))
      else ret (SIf c b None, errs))%mon.
Proof. reflexivity. Qed.
Lemma parse_for_S f : parse_for ctx (S f) = (
      expect "for" None ;;;
      expect "(" None ;;;
      init <- for_init ctx f ;;
      expect ";" (Some "for loop initializer"%string) ;;;
      cond <- optional_expr ctx f ";" ;;
      expect ";" (Some "for loop condition"%string) ;;;
      action <- optional_expr ctx f ")" ;;
      expect ")" (Some "for loop postaction"%string) ;;;
      '(b, errs) <- parse_statements_block ctx f ;;
      ret (SFor init cond action b, errs))%mon.
Proof. reflexivity. Qed.
Lemma read_switch_S f : read_switch ctx (S f) = (
      expect "switch" None ;;;
      o <- peek ;;
      is_str <- (match o with
                 | Some t => if kind_is t "word" && str_eqb (t_content t) (L "str")
                             then (get ;;; ret true) else ret false
                 | None => ret false
                 end) ;;
      expect "(" None ;;;
      value <- parse_expr ctx f 0 ;;
      expect ")" None ;;;
      expect "{" None ;;;
      '(cases, errs) <- switch_cases ctx f [] [] ;;
      d <- follows "default" ;;
      '(def, errs) <-
        (if d : bool then
           (expect "default" None ;;;
            expect ":" None ;;;
            '(b, errs2) <- read_body ctx f ;;
            ret (Some b, errs ++ errs2))
         else ret (None, errs)) ;;
      expect "}" None ;;;
      ret (SSwitch is_str value cases def, errs))%mon.
Proof. reflexivity. Qed.
Lemma switch_cases_S f cases errs : switch_cases ctx (S f) cases errs = (
      b <- follows "case" ;;
      if b : bool then
        ('(c, errs2) <- read_switch_case ctx f ;;
         switch_cases ctx f (cases ++ [c]) (errs ++ errs2))
      else ret (cases, errs))%mon.
Proof. reflexivity. Qed.
Lemma read_switch_case_S f : read_switch_case ctx (S f) = (
      expect "case" None ;;;
      values <- case_values ctx f [] ;;
      expect ":" None ;;;
      '(b, errs) <- read_body ctx f ;;
      ret ((values, b), errs))%mon.
Proof. reflexivity. Qed.
Lemma parse_statements_block_S f : parse_statements_block ctx (S f) = (
      o <- follows "{" ;;
      if o : bool then read_body ctx f
      else ('(s, errs) <- parse_statement ctx f ;; ret ([s], errs)))%mon.
Proof. reflexivity. Qed.
Lemma read_body_S f : read_body ctx (S f) = ( expect "{" None ;;; body_loop ctx f [] [])%mon.
Proof. reflexivity. Qed.

Ltac dispatch Hk :=
  ev1 ltac:(apply more_ev); cbn [negb];
  ev1 ltac:(apply type_no; eapply keyword_not_type; [exact Hk|discriminate|discriminate]);
  ev1 ltac:(apply peek_unwrap_ev);
  try (rewrite (kind_no _ "break" _ Hk) by discriminate);
  try (rewrite (kind_no _ "continue" _ Hk) by discriminate);
  try (rewrite (kind_no _ "for" _ Hk) by discriminate);
  try (rewrite (kind_no _ "if" _ Hk) by discriminate);
  try (rewrite (kind_no _ "return" _ Hk) by discriminate);
  try (rewrite (kind_no _ "switch" _ Hk) by discriminate);
  try (rewrite (kind_no _ "while" _ Hk) by discriminate);
  rewrite ?(kind_yes _ _ Hk); cbv beta iota.

Lemma T_jump k s0 kw r0 : is ";" s0 -> (kw = "break" /\ r0 = SBreak \/ kw = "continue" /\ r0 = SContinue)%string -> is kw k ->
  stmt_complete [k; s0] r0 false.
Proof.
  intros Hs [[-> ->]|[-> ->]] Hk r _; fuel 1; rewrite parse_statement_S; cbn [app]; dispatch Hk; get_; exp_; reflexivity.
Qed.
Lemma T_return k s0 : is "return" k -> is ";" s0 -> stmt_complete [k; s0] (SReturn None) false.
Proof.
  intros Hk Hs r _. fuel 1. rewrite parse_statement_S; cbn [app]. dispatch Hk. erewrite (bind_eval _ _ _ _ _ (SReturn None)); [reflexivity|].
  unfold parse_return. exp_. ev1 ltac:(apply peek_unwrap_ev). rewrite (kind_yes _ _ Hs). reflexivity.
Qed.
Lemma T_return_value k ts x s0 : is "return" k -> expr_of ctx 0 ts x -> is ";" s0 -> stmt_complete (k :: ts ++ [s0]) (SReturn (Some x)) false.
Proof.
  intros Hk Hx Hs r _. norm. destruct (parse_expr_ev 0 ts x (s0 :: r) ltac:(lia) Hx) as [F HF]. { stops. }
  fuel (S F). rewrite parse_statement_S; cbn [app]. dispatch Hk. erewrite (bind_eval _ _ _ _ _ (SReturn (Some x))); [reflexivity|].
  unfold parse_return. exp_. destruct (expr_cons _ _ _ _ Hx) as (t & ts2 & -> & Ht). cbn [app] in *. ev1 ltac:(apply peek_unwrap_ev).
  replace (kind_is t ";") with false.
  2:{ symmetry. apply kind_is_false. intros E. rewrite E in Ht. cbn in Ht. intuition discriminate. }
  use HF. exp_. reflexivity.
Qed.
Lemma T_decl first rest ts t ts' fm ts'' v s0 :
  typename_of ctx ts t -> form_of ctx ts' fm -> init_of ctx ts'' v -> is ";" s0 -> ts = first :: rest -> type_start ctx ts ->
  stmt_complete (ts ++ ts' ++ ts'' ++ [s0]) (SVarDecl (mkVar (t_pos first) t fm v)) false.
Proof.
  intros Ht Hf Hv Hs Ets Hst r _. norm. destruct (vardecl_ev first rest ts t ts' fm ts'' v s0 r Ht Hf Hv Hs Ets) as [F HF].
  fuel (S F). rewrite parse_statement_S. 
  rewrite (bind_eval _ _ _ _ _ true (cur (ts ++ ts' ++ ts'' ++ s0 :: r))) by (subst ts; apply more_ev). cbn [negb].
  ev1 ltac:(apply type_yes; now apply start_mono). use HF. reflexivity.
Qed.
Lemma T_expr ts x s0 : ~ type_start ctx ts -> expr_of ctx 0 ts x -> is ";" s0 -> stmt_complete (ts ++ [s0]) (SExpr x) false.
Proof.
  intros Hst Hx Hs r _. norm. destruct (parse_expr_ev 0 ts x (s0 :: r) ltac:(lia) Hx) as [F HF]. { stops. }
  fuel (S F). rewrite parse_statement_S.
  assert (Hst' : ~ type_start ctx (ts ++ s0 :: r)).
  { rewrite start_app_iff; auto. { eapply expr_ne; eauto. } all: unfold is in *; congruence. }
  destruct (expr_cons _ _ _ _ Hx) as (t & ts2 & -> & Ht). cbn [app] in *.
  ev1 ltac:(apply more_ev). cbn [negb]. ev1 ltac:(now apply type_no). ev1 ltac:(apply peek_unwrap_ev).
  assert (Hk : forall k, ~ In k expr_starts -> kind_is t k = false).
  { intros k Hn. apply kind_is_false. intros E. apply Hn. rewrite <- E. exact Ht. }
  rewrite !Hk by (cbn; intuition discriminate). use HF. exp_. reflexivity.
Qed.
Lemma T_while k lp ts x rp ts' b o : is "while" k -> is "(" lp -> expr_of ctx 0 ts x -> is ")" rp -> block_complete ts' b o ->
  stmt_complete (k :: lp :: ts ++ rp :: ts') (SWhile x b) o.
Proof.
  intros Hk Hlp Hx Hrp Hb r Ho. norm. destruct (parse_expr_ev 0 ts x (rp :: ts' ++ r) ltac:(lia) Hx) as [F HF]. { stops. }
  destruct (Hb r Ho) as [F2 H2]. exists (S (S (F + F2))). intros f Hf. destruct f as [|[|f]]; try lia.
  rewrite parse_statement_S. dispatch Hk. rewrite parse_while_S. exp_. exp_. use HF. exp_. use H2. reflexivity.
Qed.
Lemma T_if k lp ts x rp ts' b o : is "if" k -> is "(" lp -> expr_of ctx 0 ts x -> is ")" rp -> block_complete ts' b o ->
  stmt_complete (k :: lp :: ts ++ rp :: ts') (SIf x b None) true.
Proof.
  intros Hk Hlp Hx Hrp Hb r Ho. norm. destruct (parse_expr_ev 0 ts x (rp :: ts' ++ r) ltac:(lia) Hx) as [F HF]. { stops. }
  destruct (Hb r (fun _ => Ho eq_refl)) as [F2 H2]. exists (S (S (F + F2))). intros f Hf. destruct f as [|[|f]]; try lia.
  rewrite parse_statement_S. dispatch Hk. rewrite parse_if_S. exp_. exp_. use HF. exp_. use H2.
  ev1 ltac:(apply follows_no; exact (Ho eq_refl)). reflexivity.
Qed.
Lemma T_if_else k lp ts x rp ts' b el ts'' b2 o : is "if" k -> is "(" lp -> expr_of ctx 0 ts x -> is ")" rp ->
  block_complete ts' b false -> is "else" el -> block_complete ts'' b2 o ->
  stmt_complete (k :: lp :: ts ++ rp :: ts' ++ el :: ts'') (SIf x b (Some b2)) o.
Proof.
  intros Hk Hlp Hx Hrp Hb Hel Hb2 r Ho. norm.
  destruct (parse_expr_ev 0 ts x (rp :: ts' ++ el :: ts'' ++ r) ltac:(lia) Hx) as [F HF]. { stops. }
  destruct (Hb (el :: ts'' ++ r) (closed_false _)) as [F2 H2]. destruct (Hb2 r Ho) as [F3 H3].
  exists (S (S (F + F2 + F3))). intros f Hf. destruct f as [|[|f]]; try lia.
  rewrite parse_statement_S. dispatch Hk. rewrite parse_if_S. exp_. exp_. use HF. exp_. use H2.
  ev1 ltac:(now apply follows_yes). get_. use H3. reflexivity.
Qed.
Lemma forinit_ev ts fi s1 r : forinit_of ctx ts fi -> is ";" s1 -> ev (for_init ctx) (ts ++ s1 :: r) fi (s1 :: r).
Proof.
  intros H Hs. destruct H as [|ts x Hf Hx|ts t ts' fm q ts'' x Hf Ht Hfm Hq Hx].
  - exists 0. intros f _. unfold for_init. cbn [app]. ev1 ltac:(now apply follows_yes). reflexivity.
  - destruct (parse_expr_ev 0 ts x (s1 :: r) ltac:(lia) Hx) as [F HF]. { stops. }
    exists F. intros f Hl. unfold for_init. destruct (expr_cons _ _ _ _ Hx) as (t & ts2 & -> & Ht). cbn [app] in *.
    ev1 ltac:(apply follows_no; cbn; apply kind_is_false; intros E; rewrite E in Ht; cbn in Ht; intuition discriminate).
    ev1 ltac:(apply peek_unwrap_ev).
    replace (kind_is t "word" && is_type (t_content t) (mi_typedefs (thismod ctx))) with false.
    2:{ symmetry. apply not_true_is_false. intros Hc. apply andb_true_iff in Hc as [A B]. apply kind_is_true in A. apply is_type_name in B.
        apply Hf. exists t, ts2. auto. }
    use HF. reflexivity.
  - destruct (parse_expr_ev 0 ts'' x (s1 :: r) ltac:(lia) Hx) as [F HF]. { stops. }
    destruct (form_ev ts' fm (q :: ts'' ++ s1 :: r) Hfm) as [F2 H2]. { other. }
    norm. exists (F + F2). intros f Hl. unfold for_init. destruct Hf as (t0 & ts2 & -> & Hw & Hty). cbn [app] in *.
    ev1 ltac:(apply follows_no; other). ev1 ltac:(apply peek_unwrap_ev). rewrite (kind_yes _ _ Hw).
    apply is_type_name in Hty. rewrite Hty. cbn [andb].
    change (t0 :: ts2 ++ ts' ++ q :: ts'' ++ s1 :: r) with ((t0 :: ts2) ++ ts' ++ q :: ts'' ++ s1 :: r).
    ev1 ltac:(apply parse_typename_ev; [eassumption|eapply form_dot; eassumption]). use H2. exp_. use HF. reflexivity.
Qed.
Lemma optional_ev ts v k t r : opt_expr_of ctx ts v -> is k t -> In k terms -> ~ In k expr_starts ->
  ev (fun f => optional_expr ctx f k) (ts ++ t :: r) v (t :: r).
Proof.
  intros [|ts' x Hx] Hk Hi Hn.
  - exists 0. intros f _. unfold optional_expr. cbn [app]. ev1 ltac:(now apply follows_yes). reflexivity.
  - destruct (parse_expr_ev 0 ts' x (t :: r) ltac:(lia) Hx) as [F HF]. { eapply stop_is; eauto. }
    exists F. intros f Hf. unfold optional_expr. ev1 ltac:(apply follows_no; eapply head_starts; [eapply expr_start; eassumption|exact Hn]).
    use HF. reflexivity.
Qed.
Lemma T_for k lp i fi s1 c oc s2 a oa rp ts b o : is "for" k -> is "(" lp -> forinit_of ctx i fi -> is ";" s1 ->
    opt_expr_of ctx c oc -> is ";" s2 -> opt_expr_of ctx a oa -> is ")" rp -> block_complete ts b o ->
    stmt_complete (k :: lp :: i ++ s1 :: c ++ s2 :: a ++ rp :: ts) (SFor fi oc oa b) o.
Proof.
  intros Hk Hlp Hi Hs1 Hc Hs2 Ha Hrp Hb r Ho. norm.
  destruct (forinit_ev i fi s1 (c ++ s2 :: a ++ rp :: ts ++ r) Hi Hs1) as [F1 H1].
  destruct (optional_ev c oc ";" s2 (a ++ rp :: ts ++ r) Hc Hs2) as [F2 H2]. { cbn; tauto. } { cbn; intuition discriminate. }
  destruct (optional_ev a oa ")" rp (ts ++ r) Ha Hrp) as [F3 H3]. { cbn; tauto. } { cbn; intuition discriminate. }
  destruct (Hb r Ho) as [F4 H4]. exists (S (S (F1 + F2 + F3 + F4))). intros f Hf. destruct f as [|[|f]]; try lia.
  rewrite parse_statement_S. dispatch Hk. rewrite parse_for_S. exp_. exp_. use H1. exp_. use H2. exp_. use H3. exp_. use H4. reflexivity.
Qed.
Lemma values_ev ts vs c r : commas (value_of ctx) ts vs -> is ":" c -> forall acc,
  ev (fun f => case_values ctx f acc) (ts ++ c :: r) (acc ++ vs) (c :: r).
Proof.
  intros H Hc. assert (Hv : forall ts v c r, value_of ctx ts v -> head_kind "." (c :: r) = false -> forall (g : switch_value -> M (list switch_value)),
    bind (follows "word") (fun w => bind (if w : bool then bind (read_ns_id ctx) (fun x => ret (SVIdent x)) else bind parse_literal (fun x => ret (SVLit x))) g)
      (cur (ts ++ c :: r)) = g v (cur (c :: r))).
  { clear. intros ts v c r [ts' n Hn|t x Hx] Hd g.
    - destruct (name_nonempty _ _ _ Hn) as (w & ts2 & E & Hw). subst ts'. cbn [app]. ev1 ltac:(now apply follows_yes).
      erewrite (bind_eval _ _ _ _ _ (SVIdent n)); [reflexivity|].
      change (w :: ts2 ++ c :: r) with ((w :: ts2) ++ c :: r). ev1 ltac:(apply read_ns_id_ev; [eassumption|now apply no_dot_head]). reflexivity.
    - cbn [app]. ev1 ltac:(apply follows_no; destruct Hx; other). erewrite (bind_eval _ _ _ _ _ (SVLit x)); [reflexivity|].
      ev1 ltac:(apply parse_literal_ev; eassumption). reflexivity. }
  induction H as [ts v H|ts cm ts' v l H Hcm Hl IH]; intros acc.
  - fuel 1. cbn [case_values]. rewrite (Hv ts v c r H) by other. cbv beta. ev1 ltac:(apply follows_no; other). reflexivity.
  - destruct (IH (acc ++ [v])) as [F HF]. rewrite <- (app_assoc acc) in HF. cbn [app] in HF. norm.
    fuel (S F). cbn [case_values]. rewrite (Hv ts v cm _ H) by other. cbv beta. ev1 ltac:(now apply follows_yes). get_. apply HF. lia.
Qed.
Lemma T_cases_cons k ts vs c ts' b ts'' l : is "case" k -> commas (value_of ctx) ts vs -> is ":" c -> body_complete ts' b ->
    cases_complete ts'' l -> cases_complete (k :: ts ++ c :: ts' ++ ts'') ((vs, b) :: l).
Proof.
  intros Hk Hv Hc Hb Hl cs r Hr. norm.
  destruct (values_ev ts vs c (ts' ++ ts'' ++ r) Hv Hc []) as [F1 H1]. destruct (Hb (ts'' ++ r)) as [F2 H2].
  destruct (Hl (cs ++ [(vs, b)]) r Hr) as [F3 H3]. rewrite <- (app_assoc cs) in H3. cbn [app] in H3, H1.
  exists (S (S (F1 + F2 + F3))). intros f Hf. destruct f as [|[|f]]; try lia.
  rewrite switch_cases_S. ev1 ltac:(now apply follows_yes). erewrite bind_eval.
  2:{ instantiate (1 := cur (ts'' ++ r)). instantiate (1 := ((vs, b), [])).
      rewrite read_switch_case_S. exp_. use H1. exp_. use H2. reflexivity. }
  cbv beta iota. cbn [app]. rewrite <- (H3 (S f)) by lia. reflexivity.
Qed.
Lemma switch_ev is_str ts x rp lb ts' cases ts'' def rb r : expr_of ctx 0 ts x -> is ")" rp -> is "{" lb ->
  cases_complete ts' cases -> default_complete ts'' def -> is "}" rb -> (forall k r', k <> "default"%string -> head_kind k r' = false -> head_kind k (ts'' ++ r') = false) ->
  ev (fun f => bind (parse_expr ctx f 0) (fun value => bind (expect ")" None) (fun _ => bind (expect "{" None) (fun _ =>
      bind (switch_cases ctx f [] []) (fun '(cases, errs) => bind (follows "default") (fun d =>
      bind (if d : bool then bind (expect "default" None) (fun _ => bind (expect ":" None) (fun _ =>
              bind (read_body ctx f) (fun '(b, errs2) => ret (Some b, errs ++ errs2)))) else ret (None, errs)) (fun '(def, errs) =>
      bind (expect "}" None) (fun _ => ret (SSwitch is_str value cases def, errs)))))))))
    (ts ++ rp :: lb :: ts' ++ ts'' ++ rb :: r) (SSwitch is_str x cases def, []) r.
Proof.
  intros Hx Hrp Hlb Hc Hd Hrb Hh.
  destruct (parse_expr_ev 0 ts x (rp :: lb :: ts' ++ ts'' ++ rb :: r) ltac:(lia) Hx) as [F1 H1]. { stops. }
  destruct (Hc [] (ts'' ++ rb :: r)) as [F2 H2]. { apply Hh; [discriminate|other]. }
  destruct (Hd (rb :: r)) as [[F3 H3] _]. { other. }
  exists (F1 + F2 + F3). intros f Hf. use H1. exp_. exp_. use H2. cbn [app]. rewrite bind_split. 
  erewrite bind_eval. 2:{ rewrite <- (H3 f) by lia. reflexivity. } cbv beta iota. exp_. reflexivity.
Qed.
Lemma T_switch k lp ts x rp lb ts' cases ts'' def rb : is "switch" k -> is "(" lp -> expr_of ctx 0 ts x -> is ")" rp ->
    is "{" lb -> cases_complete ts' cases -> default_of ctx ts'' def -> default_complete ts'' def -> is "}" rb ->
    stmt_complete (k :: lp :: ts ++ rp :: lb :: ts' ++ ts'' ++ [rb]) (SSwitch false x cases def) false.
Proof.
  intros Hk Hlp Hx Hrp Hlb Hc Hdo Hd Hrb r _. norm.
  destruct (switch_ev false ts x rp lb ts' cases ts'' def rb r) as [F HF]; auto.
  { intros k0 r' Hne Hr'. destruct Hdo; auto. cbn [app]. eapply head_is; [eassumption|congruence]. }
  exists (S (S F)). intros f Hf. destruct f as [|[|f]]; try lia.
  rewrite parse_statement_S. dispatch Hk. rewrite read_switch_S. exp_. ev1 ltac:(apply peek_ev).
  rewrite (kind_no _ "word" _ Hlp) by discriminate. cbn [andb]. ev1 ltac:(reflexivity). exp_.
  apply (HF f). lia.
Qed.
Lemma T_switch_str k w lp ts x rp lb ts' cases ts'' def rb : is "switch" k -> is "word" w -> t_content w = L "str" ->
    is "(" lp -> expr_of ctx 0 ts x -> is ")" rp ->
    is "{" lb -> cases_complete ts' cases -> default_of ctx ts'' def -> default_complete ts'' def -> is "}" rb ->
    stmt_complete (k :: w :: lp :: ts ++ rp :: lb :: ts' ++ ts'' ++ [rb]) (SSwitch true x cases def) false.
Proof.
  intros Hk Hw Hstr Hlp Hx Hrp Hlb Hc Hdo Hd Hrb r _. norm.
  destruct (switch_ev true ts x rp lb ts' cases ts'' def rb r) as [F HF]; auto.
  { intros k0 r' Hne Hr'. destruct Hdo; auto. cbn [app]. eapply head_is; [eassumption|congruence]. }
  exists (S (S F)). intros f Hf. destruct f as [|[|f]]; try lia.
  rewrite parse_statement_S. dispatch Hk. rewrite read_switch_S. exp_. ev1 ltac:(apply peek_ev).
  rewrite (kind_yes _ _ Hw), Hstr. replace (str_eqb (L "str") (L "str")) with true by (symmetry; now apply str_eqb_eq). cbn [andb].
  erewrite (bind_eval _ _ _ _ _ true). 2:{ get_. reflexivity. } cbv beta iota. exp_.
  apply (HF f). lia.
Qed.
Lemma T_block_body ts b : body_complete ts b -> (exists lb r, ts = lb :: r /\ is "{" lb) -> block_complete ts b false.
Proof.
  intros H (lb & r0 & -> & Hlb) r _. destruct (H r) as [F HF]. fuel (S F). rewrite parse_statements_block_S; cbn [app] in *.
  ev1 ltac:(now apply follows_yes). apply HF. lia.
Qed.
Lemma T_block_single ts s0 o : stmt_of ctx ts s0 o -> stmt_complete ts s0 o -> (forall t r, ts = t :: r -> ~ is "{" t) -> block_complete ts [s0] o.
Proof.
  intros Hst H Hn r Ho. destruct (H r Ho) as [F HF]. fuel (S F). rewrite parse_statements_block_S.
  ev1 ltac:(apply follows_no; destruct (stmt_start _ _ _ Hst) as (t & ts' & E & _); subst ts; cbn; apply kind_is_false; eapply Hn; reflexivity).
  use HF. reflexivity.
Qed.
Lemma T_body lb ts l rb : is "{" lb -> stmts_complete ts l -> is "}" rb -> body_complete (lb :: ts ++ [rb]) l.
Proof.
  intros Hlb H Hrb r. norm. destruct (H [] rb r Hrb) as [F HF]. fuel (S F). rewrite read_body_S. exp_. apply HF. lia.
Qed.
Lemma T_stmts_nil : stmts_complete [] [].
Proof.
  intros ss rb r Hrb. fuel 1. cbn [app]. rewrite body_loop_S. ev1 ltac:(now apply follows_yes). exp_. rewrite app_nil_r. reflexivity.
Qed.
Lemma stmts_closed ts l rb r o : stmts_of ctx ts l -> is "}" rb -> closed o (ts ++ rb :: r).
Proof.
  intros H Hrb _. destruct H as [|ts s0 o' ts' l H _]; [cbn [app]; other|].
  rewrite <- app_assoc. eapply head_starts; [eapply stmt_start; eauto|]. cbn. intuition discriminate.
Qed.
Lemma T_stmts_cons ts s0 o ts' l : stmt_of ctx ts s0 o -> stmt_complete ts s0 o -> stmts_of ctx ts' l -> stmts_complete ts' l ->
  stmts_complete (ts ++ ts') (s0 :: l).
Proof.
  intros Hst H Hsts Hl ss rb r Hrb. norm. destruct (H (ts' ++ rb :: r)) as [F HF]. { eapply stmts_closed; eauto. }
  destruct (Hl (ss ++ [s0]) rb r Hrb) as [F2 H2]. rewrite <- (app_assoc ss) in H2. cbn [app] in H2.
  fuel (S (F + F2)). rewrite body_loop_S. 
  ev1 ltac:(apply follows_no; eapply head_starts; [eapply stmt_start; eassumption|cbn; intuition discriminate]).
  rewrite HF by lia. cbn [app]. apply H2. lia.
Qed.
Lemma stmt_complete_all :
  (forall ts s0 o, stmt_of ctx ts s0 o -> stmt_complete ts s0 o) /\
  (forall ts b o, block_of ctx ts b o -> block_complete ts b o) /\
  (forall ts b, body_of ctx ts b -> body_complete ts b).
Proof.
  assert (H : (forall ts s0 o, stmt_of ctx ts s0 o -> stmt_complete ts s0 o) /\
    (forall ts b o, block_of ctx ts b o -> block_complete ts b o) /\
    (forall ts b, body_of ctx ts b -> body_complete ts b) /\
    (forall ts l, stmts_of ctx ts l -> stmts_complete ts l) /\
    (forall ts l, cases_of ctx ts l -> cases_complete ts l) /\
    (forall ts d, default_of ctx ts d -> default_complete ts d)).
  { apply (stmt_mutual ctx (fun ts s0 o _ => stmt_complete ts s0 o) (fun ts b o _ => block_complete ts b o)
      (fun ts b _ => body_complete ts b) (fun ts l _ => stmts_complete ts l) (fun ts l _ => cases_complete ts l)
      (fun ts d _ => default_complete ts d)); intros.
    - eapply (T_jump _ _ "break"); eauto.
    - eapply (T_jump _ _ "continue"); eauto.
    - eapply T_return; eauto.
    - eapply T_return_value; eauto.
    - eapply T_decl; eauto.
    - eapply T_expr; eauto.
    - eapply T_while; eauto.
    - eapply T_for; eauto.
    - eapply T_if; eauto.
    - eapply T_if_else; eauto.
    - eapply T_switch; eauto.
    - eapply T_switch_str; eauto.
    - apply T_block_body; auto. match goal with Hb : body_of _ _ _ |- _ => destruct Hb end. eauto.
    - eapply T_block_single; eauto.
    - eapply T_body; eauto.
    - apply T_stmts_nil.
    - eapply T_stmts_cons; eauto.
    - intros cs r Hr. fuel 1. rewrite switch_cases_S; cbn [app]. ev1 ltac:(now apply follows_no). rewrite app_nil_r. reflexivity.
    - eapply T_cases_cons; eauto.
    - intros r Hr. split; auto. exists 0. intros f _. cbn [app]. ev1 ltac:(now apply follows_no). reflexivity.
    - intros r Hr. split; auto. destruct (H r) as [F HF]. exists F. intros f Hf. cbn [app]. ev1 ltac:(now apply follows_yes).
      exp_. exp_. use HF. reflexivity. }
  tauto.
Qed.

(** ** Elements of a module *)
(** What may follow the names of one group of parameters. *)
Definition pend (r : list token) : Prop :=
  starts [")"; ","; "..."]%string r /\ (head_kind "," r = false \/ exists c r', r = c :: r' /\ is "," c /\ (type_start ctx r' \/ head_kind "..." r' = true)).
Lemma names_ev ts fs : names_of ctx ts fs -> forall acc r, pend r ->
  ev (fun f => bind (parse_form ctx f) (fun x => param_forms ctx f (acc ++ [x]))) (ts ++ r) (acc ++ fs) r.
Proof.
  intros H. induction H as [ts fm Hf|ts fm c ts' fs Hf Hc Hn Hl IH]; intros acc r Hr.
  - destruct Hr as [Hst Hr]. destruct (form_ev ts fm r Hf) as [F HF].
    { rewrite <- (app_nil_r r). eapply head_starts; eauto. cbn. intuition discriminate. }
    fuel (S F). use HF. cbn [param_forms]. destruct Hr as [Hr|(c & r' & -> & Hc & Hr)].
    + ev1 ltac:(now apply follows_no). reflexivity.
    + ev1 ltac:(now apply follows_yes). ev1 ltac:(apply get_unwrap_ev).
      destruct (type_follows_ok ctx p r') as (b & Eb & Hb). ev1 ltac:(exact Eb).
      rewrite (bind_eval _ _ _ _ _ true (cur r')).
      2:{ destruct b; [reflexivity|]. rewrite follows_ev. destruct Hr as [Hr|Hr]; [|now rewrite Hr].
          exfalso. apply Hb in Hr. discriminate. }
      cbv beta iota. ev1 ltac:(apply unget_ev). reflexivity.
  - norm. destruct (form_ev ts fm (c :: ts' ++ r) Hf) as [F HF]. { other. }
    destruct (IH (acc ++ [fm]) r Hr) as [F2 H2]. rewrite <- (app_assoc acc) in H2. cbn [app] in H2.
    assert (Hst : starts ["*"; "word"]%string ts').
    { destruct Hl; [|apply starts_app]; eapply form_start; eauto. }
    fuel (S (F + F2)). use HF. cbn [param_forms]. ev1 ltac:(now apply follows_yes). ev1 ltac:(apply get_unwrap_ev).
    assert (Hnt : ~ type_start ctx (ts' ++ r)).
    { destruct Hr as [(t & r' & -> & Ht) _]. rewrite start_app_iff; auto.
      - destruct Hst as (? & ? & -> & _). discriminate.
      - intros E. rewrite E in Ht. cbn in Ht. intuition discriminate.
      - intros E. rewrite E in Ht. cbn in Ht. intuition discriminate. }
    ev1 ltac:(now apply type_no).
    ev1 ltac:(apply follows_no; eapply head_starts; [exact Hst|cbn; intuition discriminate]).
    specialize (H2 f ltac:(lia)). exact H2.
Qed.
Lemma group_ev ts g r : group_of ctx ts g -> pend r -> ev (parse_function_parameter ctx) (ts ++ r) g r.
Proof.
  intros [ts1 t ts2 fs Hst Ht Hn] Hr. destruct (names_ev ts2 fs Hn [] r Hr) as [F HF].
  exists F. intros f Hf. unfold parse_function_parameter. norm.
  ev1 ltac:(apply parse_typename_ev; [eassumption|destruct Hn; [|rewrite <- app_assoc]; eapply form_dot; eassumption]).
  rewrite bind_split. use HF. reflexivity.
Qed.
Lemma group_start ts g : group_of ctx ts g -> type_start ctx ts.
Proof. intros [ts1 t ts2 fs Hst Ht Hn]. now apply start_mono. Qed.
Lemma params_ev ps l v rp r : params_of ctx ps l v -> is ")" rp -> forall acc,
  exists mid, ev (fun f => params_loop ctx f acc) (ps ++ rp :: r) (acc ++ l) mid /\ eat "..." (cur mid) = (Ok v, cur (rp :: r)).
Proof.
  intros H Hrp.
  assert (Hrps : forall k, k <> ")"%string -> head_kind k (rp :: r) = false).
  { intros k Hk. eapply head_is; [exact Hrp|congruence]. }
  assert (Hp1 : pend (rp :: r)).
  { split; [exists rp, r; split; auto; rewrite Hrp; cbn; tauto|]. left. apply Hrps. discriminate. }
  induction H as [|d Hd|ts g Hg|ts g d Hg Hd|ts g c ts' l v Hg Hc Hl IH Hne]; intros acc.
  - exists (rp :: r). split; [|now apply eat_no, Hrps]. fuel 1. cbn [params_loop app].
    ev1 ltac:(apply type_no; eapply keyword_not_type; [exact Hrp|discriminate|discriminate]). rewrite app_nil_r. reflexivity.
  - exists (d :: rp :: r). split; [|now apply eat_yes]. fuel 1. cbn [params_loop app].
    ev1 ltac:(apply type_no; eapply keyword_not_type; [exact Hd|discriminate|discriminate]). rewrite app_nil_r. reflexivity.
  - exists (rp :: r). split; [|now apply eat_no, Hrps]. destruct (group_ev ts g (rp :: r) Hg Hp1) as [F HF].
    fuel (S F). cbn [params_loop]. ev1 ltac:(apply type_yes, start_mono; eapply group_start; eauto). use HF.
    ev1 ltac:(apply eat_no, Hrps; discriminate). reflexivity.
  - exists (d :: rp :: r). split; [|now apply eat_yes]. norm. destruct (group_ev ts g (d :: rp :: r) Hg) as [F HF].
    { split; [exists d, (rp :: r); split; auto; rewrite Hd; cbn; tauto|]. left. other. }
    fuel (S F). cbn [params_loop]. ev1 ltac:(apply type_yes, start_mono; eapply group_start; eauto). use HF.
    ev1 ltac:(apply eat_no; other). reflexivity.
  - destruct (IH (acc ++ [g])) as (mid & [F2 H2] & He). rewrite <- (app_assoc acc) in H2. cbn [app] in H2.
    exists mid. split; auto. norm. destruct (group_ev ts g (c :: ts' ++ rp :: r) Hg) as [F HF].
    { split; [eexists _, _; split; [reflexivity|]; rewrite Hc; cbn; tauto|]. right. eexists _, _. split; [reflexivity|]. split; auto.
      destruct Hl as [|d Hd|ts' g' Hg'|ts' g' d Hg' Hd|ts' g' c' ts2 l v Hg' _ _ _].
      - congruence.
      - right. cbn. now apply kind_is_true.
      - left. apply start_mono. eapply group_start; eauto.
      - left. rewrite <- app_assoc. apply start_mono. eapply group_start; eauto.
      - left. rewrite <- app_assoc. apply start_mono. eapply group_start; eauto. }
    fuel (S (F + F2)). cbn [params_loop]. ev1 ltac:(apply type_yes, start_mono; eapply group_start; eauto). use HF.
    ev1 ltac:(now apply eat_yes). apply H2. lia.
Qed.
Lemma enum_ev ts l tc co rb r : commas (enum_entry_of ctx) ts l -> optional "," tc co -> is "}" rb -> forall acc,
  ev (fun f => enum_loop ctx f acc) (ts ++ tc ++ rb :: r) (acc ++ l) (rb :: r).
Proof.
  intros H Htc Hrb. induction H as [ts a Ha|ts c ts' a l Ha Hc Hl IH]; intros acc.
  - destruct Ha as [x ts v Hx Hv]. cbn [app]. destruct (init_ev ts v (tc ++ rb :: r) Hv) as [F HF].
    { destruct Htc; cbn [app]; other. } { destruct Htc; cbn [app]; stops. }
    fuel (S F). cbn [enum_loop]. exp_. rewrite bind_split. use HF. destruct Htc as [|t Ht]; cbn [app].
    + ev1 ltac:(apply eat_no; other). reflexivity.
    + ev1 ltac:(now apply eat_yes). cbn [negb]. ev1 ltac:(now apply follows_yes). reflexivity.
  - destruct (IH (acc ++ [a])) as [F2 H2]. rewrite <- (app_assoc acc) in H2. cbn [app] in H2.
    destruct Ha as [x ts v Hx Hv]. norm. destruct (init_ev ts v (c :: ts' ++ tc ++ rb :: r) Hv) as [F HF]. { other. } { stops. }
    fuel (S (F + F2)). cbn [enum_loop]. exp_. rewrite bind_split. use HF. ev1 ltac:(now apply eat_yes). cbn [negb].
    rewrite (bind_eval _ _ _ _ _ false (cur (ts' ++ tc ++ rb :: r))).
    2:{ apply follows_no. destruct Hl as [ts1 a1 [y ? ? Hy _]|ts1 c1 ts2 a1 l1 [y ? ? Hy _] _ _]; cbn [app]; other. }
    cbv beta iota. apply H2. lia.
Qed.
Lemma field_forms_ev ts fs s0 r : commas (form_of ctx) ts fs -> is ";" s0 -> forall acc,
  ev (fun f => bind (parse_form ctx f) (fun x => field_forms ctx f (acc ++ [x]))) (ts ++ s0 :: r) (acc ++ fs) (s0 :: r).
Proof.
  intros H Hs. induction H as [ts a Ha|ts c ts' a l Ha Hc Hl IH]; intros acc.
  - destruct (form_ev ts a (s0 :: r) Ha) as [F HF]. { other. }
    fuel (S F). use HF. cbn [field_forms]. ev1 ltac:(apply follows_no; other). reflexivity.
  - norm. destruct (form_ev ts a (c :: ts' ++ s0 :: r) Ha) as [F HF]. { other. }
    destruct (IH (acc ++ [a])) as [F2 H2]. rewrite <- (app_assoc acc) in H2. cbn [app] in H2.
    fuel (S (F + F2)). use HF. cbn [field_forms]. ev1 ltac:(now apply follows_yes). get_.
    specialize (H2 f ltac:(lia)). exact H2.
Qed.
Lemma commas_form_dot ts fs r : commas (form_of ctx) ts fs -> head_kind "." (ts ++ r) = false.
Proof. intros H. destruct H; [|rewrite <- app_assoc]; eapply form_dot; eauto. Qed.
Lemma union_fields_ev ts l rb r : many (union_field_of ctx) ts l -> is "}" rb -> forall acc,
  ev (fun f => union_fields ctx f acc) (ts ++ rb :: r) (acc ++ l) (rb :: r).
Proof.
  intros H Hrb. induction H as [|ts ts' a l Ha Hl IH]; intros acc.
  - fuel 1. cbn [union_fields app]. ev1 ltac:(now apply follows_yes). rewrite app_nil_r. reflexivity.
  - destruct (IH (acc ++ [a])) as [F2 H2]. rewrite <- (app_assoc acc) in H2. cbn [app] in H2.
    destruct Ha as [ts1 t ts2 fm s0 Ht Hf Hs]. norm. destruct (form_ev ts2 fm (s0 :: ts' ++ rb :: r) Hf) as [F HF]. { other. }
    fuel (S (F + F2)). cbn [union_fields].
    ev1 ltac:(apply follows_no; eapply head_starts; [eapply typename_start; eassumption|cbn; intuition discriminate]).
    ev1 ltac:(apply parse_typename_ev; [eassumption|eapply form_dot; eassumption]). use HF. exp_. apply H2. lia.
Qed.
Lemma fields_ev ts l rb r : many (field_of ctx) ts l -> is "}" rb -> forall acc,
  ev (fun f => struct_entries ctx f acc) (ts ++ rb :: r) (acc ++ l) (rb :: r).
Proof.
  intros H Hrb. induction H as [|ts ts' a l Ha Hl IH]; intros acc.
  - fuel 1. cbn [struct_entries app]. ev1 ltac:(apply peek_ev). rewrite (kind_yes _ _ Hrb), app_nil_r. reflexivity.
  - destruct (IH (acc ++ [a])) as [F2 H2]. rewrite <- (app_assoc acc) in H2. cbn [app] in H2.
    destruct Ha as [ts1 t ts2 fs s0 Ht Hf Hs|u lb ts1 us rb1 ts2 fm s0 Hu Hlb Hus Hrb1 Hf Hs]; norm.
    + destruct (field_forms_ev ts2 fs s0 (ts' ++ rb :: r) Hf Hs []) as [F HF].
      fuel (S (F + F2)). cbn [struct_entries].
      destruct (typename_start _ _ Ht) as (t0 & tr & E0 & Hk).
      rewrite (bind_eval _ _ _ _ _ (Some t0) (cur (ts1 ++ ts2 ++ s0 :: ts' ++ rb :: r))) by (subst ts1; apply peek_ev).
      assert (Hkk : forall k, ~ In k ["const"; "word"]%string -> kind_is t0 k = false).
      { intros k Hn. apply kind_is_false. intros E. rewrite E in Hk. contradiction. }
      rewrite !Hkk by (cbn; intuition discriminate). erewrite bind_eval.
      2:{ unfold parse_type_and_forms.
          ev1 ltac:(apply follows_no; eapply head_starts; [eapply typename_start; eassumption|cbn; intuition discriminate]).
          ev1 ltac:(apply parse_typename_ev; [eassumption|eapply commas_form_dot; eassumption]).
          rewrite bind_split. use HF. exp_. reflexivity. }
      cbv beta. apply H2. lia.
    + destruct (union_fields_ev ts1 us rb1 (ts2 ++ s0 :: ts' ++ rb :: r) Hus Hrb1 []) as [F HF].
      destruct (form_ev ts2 fm (s0 :: ts' ++ rb :: r) Hf) as [F3 H3]. { other. }
      fuel (S (F + F2 + F3)). cbn [struct_entries]. ev1 ltac:(apply peek_ev).
      rewrite (kind_no _ "}" _ Hu) by discriminate. rewrite (kind_yes _ _ Hu).
      erewrite bind_eval.
      2:{ unfold parse_union. exp_. exp_. use HF. exp_. use H3. exp_. reflexivity. }
      cbv beta. apply H2. lia.
Qed.
Lemma anon_loop_ev ts l : commas (typeform_of ctx) ts l -> forall v r r' acc,
  head_kind "*" r = false -> head_kind "." r = false -> (forall acc, ev (fun f => anon_loop ctx f acc) r (v, acc) r') ->
  ev (fun f => bind (parse_bare_typeform f ctx) (fun x => anon_loop ctx f (acc ++ [x]))) (ts ++ r) (v, acc ++ l) r'.
Proof.
  intros H. induction H as [ts a Ha|ts c ts' a l Ha Hc Hl IH]; intros v r r' acc H1 H2 Hr.
  - destruct (typeform_ev ts a r Ha H1 H2) as [F HF]. destruct (Hr (acc ++ [a])) as [F2 H2'].
    fuel (S (F + F2)). use HF. apply H2'. lia.
  - norm. destruct (typeform_ev ts a (c :: ts' ++ r) Ha) as [F HF]. { other. } { other. }
    destruct (IH v r r' (acc ++ [a]) H1 H2 Hr) as [F2 H2']. rewrite <- (app_assoc acc) in H2'. cbn [app] in H2'.
    fuel (S (F + F2)). use HF. cbn [anon_loop]. ev1 ltac:(now apply follows_yes). get_.
    erewrite (bind_eval _ _ _ _ _ false).
    2:{ apply follows_no. destruct Hl as [ts1 b [ts2 t ss n Ht _]|ts1 c1 ts3 b l [ts2 t ss n Ht _] _ _]; rewrite <- ?app_assoc;
        eapply head_starts; [eapply typename_start; eassumption|cbn; intuition discriminate|eapply typename_start; eassumption|cbn; intuition discriminate]. }
    cbv beta iota. specialize (H2' f ltac:(lia)). exact H2'.
Qed.
Lemma typeforms_head k ts l r : commas (typeform_of ctx) ts l -> ~ In k ["const"; "word"]%string -> head_kind k (ts ++ r) = false.
Proof.
  intros Hl Hk. destruct Hl as [ts1 b [ts2 t ss n Ht _]|ts1 c1 ts3 b l [ts2 t ss n Ht _] _ _]; rewrite <- ?app_assoc;
    (eapply head_starts; [eapply typename_start; eassumption|exact Hk]).
Qed.
Lemma anon_ev ps a r : anon_of ctx ps a -> head_kind "(" r = false ->
  ev (fun f => bind (follows "(") (fun p0 => if p0 : bool then bind (parse_anonymous_parameters ctx f) (fun x => ret (Some x)) else ret None))
    (ps ++ r) a r.
Proof.
  intros H Hr. destruct H as [|lp rp Hlp Hrp|lp ts l rp Hlp Hl Hrp|lp ts l c d rp Hlp Hl Hc Hd Hrp].
  - exists 0. intros f _. cbn [app]. ev1 ltac:(now apply follows_no). reflexivity.
  - exists 0. intros f _. cbn [app]. ev1 ltac:(now apply follows_yes). erewrite bind_eval; [reflexivity|].
    unfold parse_anonymous_parameters. exp_. ev1 ltac:(now apply follows_yes). ev1 ltac:(reflexivity). exp_. reflexivity.
  - norm. destruct (anon_loop_ev ts l Hl false (rp :: r) (rp :: r) []) as [F HF]. { other. } { other. }
    { intros acc. fuel 1. cbn [anon_loop]. ev1 ltac:(apply follows_no; other). reflexivity. }
    exists F. intros f Hf. ev1 ltac:(now apply follows_yes). erewrite bind_eval; [reflexivity|].
    unfold parse_anonymous_parameters. exp_.
    ev1 ltac:(apply follows_no; eapply typeforms_head; [eassumption|cbn; intuition discriminate]).
    erewrite bind_eval by (apply (HF f); lia). cbv beta iota. exp_. reflexivity.
  - norm. destruct (anon_loop_ev ts l Hl true (c :: d :: rp :: r) (rp :: r) []) as [F HF]. { other. } { other. }
    { intros acc. fuel 1. cbn [anon_loop]. ev1 ltac:(now apply follows_yes). get_. ev1 ltac:(now apply follows_yes). get_. reflexivity. }
    exists F. intros f Hf. ev1 ltac:(now apply follows_yes). erewrite bind_eval; [reflexivity|].
    unfold parse_anonymous_parameters. exp_.
    ev1 ltac:(apply follows_no; eapply typeforms_head; [eassumption|cbn; intuition discriminate]).
    erewrite bind_eval by (apply (HF f); lia). cbv beta iota. exp_. reflexivity.
Qed.
Lemma typename_head k ts t r : typename_of ctx ts t -> ~ In k ["const"; "word"]%string -> head_kind k (ts ++ r) = false.
Proof. intros H Hk. eapply head_starts; [eapply typename_start; eassumption|exact Hk]. Qed.
Lemma typedef_ev q ts pub a r : elem_of ctx q ts pub a -> (exists k tr, ts = k :: tr /\ is "typedef" k) ->
  ev (fun f => parse_typedef ctx f pub) (ts ++ r) a r.
Proof.
  intros H (k0 & tr & E & Hk0). destruct H as [k lb ts l tc co rb ts' se pub Hk|k lb ts l rb x s0 pub Hk Hlb Hl Hrb Hx Hs
    |k st x y s0 pub Hk Hst Hx Hy Hs|k ts t ss n x ps a sz z s0 pub Hk Ht Hss Hx Hps Hsz Hs|ts t ts' fm lp ps l v rp ts'' b o pub Ht
    |ts t ts' fm eq ts'' x s0 Ht].
  - injection E as -> _. unfold is in *. congruence.
  - norm. destruct (fields_ev ts l rb (x :: s0 :: r) Hl Hrb []) as [F HF]. exists F. intros f Hf. unfold parse_typedef.
    exp_. ev1 ltac:(now apply follows_yes). exp_. use HF. exp_. exp_. exp_. reflexivity.
  - exists 0. intros f _. cbn [app]. unfold parse_typedef. exp_. ev1 ltac:(apply follows_no; other).
    ev1 ltac:(now apply eat_yes). exp_. exp_. exp_. reflexivity.
  - norm. destruct (count_stars_ev ss n (x :: ps ++ sz ++ s0 :: r) Hss) with (k := 0) as [F1 H1]. { other. }
    destruct (anon_ev ps a (sz ++ s0 :: r) Hps) as [F2 H2]. { destruct Hsz; cbn [app]; other. }
    exists (F1 + F2). intros f Hf. unfold parse_typedef. exp_.
    ev1 ltac:(apply follows_no; eapply typename_head; [eassumption|cbn; intuition discriminate]).
    ev1 ltac:(apply eat_no; eapply typename_head; [eassumption|cbn; intuition discriminate]).
    erewrite bind_eval.
    2:{ apply parse_typename_ev; [eassumption|]. destruct Hss as [Hss _]. destruct Hss; cbn [app]; other. }
    cbv beta. use H1. exp_. rewrite bind_split. use H2.
    destruct Hsz as [|lb y rb z Hlb Hy Hz Hrb]; cbn [app].
    + ev1 ltac:(apply follows_no; other). ev1 ltac:(reflexivity). exp_. reflexivity.
    + ev1 ltac:(now apply follows_yes). erewrite bind_eval.
      2:{ get_. exp_. rewrite Hz. exp_. reflexivity. }
      cbv beta. exp_. reflexivity.
  - destruct (typename_start _ _ Ht) as (t0 & tr0 & -> & Hk). injection E as -> _. rewrite Hk0 in Hk. cbn in Hk. intuition discriminate.
  - destruct (typename_start _ _ Ht) as (t0 & tr0 & -> & Hk). injection E as -> _. rewrite Hk0 in Hk. cbn in Hk. intuition discriminate.
Qed.
Definition elem_starts : list string := ["enum"; "typedef"; "const"; "word"]%string.
Lemma elem_start q ts pub a : elem_of ctx q ts pub a -> starts elem_starts ts.
Proof.
  intros H. destruct H; try (eexists _, _; split; [cbn [app]; reflexivity|]; eapply is_in; [eassumption|cbn; tauto]).
  all: apply starts_app; eapply starts_sub; [|eapply typename_start; eassumption]; cbn; tauto.
Qed.
Lemma object_ev pb pub ts a first rest r : optional "pub" pb pub -> pb ++ ts = first :: rest -> elem_of ctx (t_pos first) ts pub a ->
  head_kind "else" r = false -> head_kind ";" r = false ->
  ev (parse_module_object ctx) (pb ++ ts ++ r) (a, []) r.
Proof.
  intros Hpb E Ha He Hs. assert (Hl : ev (fun f => bind (follows "enum") (fun e0 => if e0 : bool then bind (parse_enum ctx f pub) (fun x => ret (x, []))
    else bind (follows "typedef") (fun d => if d : bool then bind (parse_typedef ctx f pub) (fun x => ret (x, []))
      else bind (parse_typename ctx) (fun tn => bind (parse_form ctx f) (fun fm => bind (peek_unwrap "parse_module_object: line 165") (fun next =>
        if kind_is next "(" then parse_function_declaration ctx f pub tn fm (t_pos first)
        else bind (expect "=" (Some "module variable"%string)) (fun _ => if pub : bool then fail (mkErr (L "module variables can't be exported") (t_pos first))
           else bind (parse_expr ctx f 0) (fun value => bind (expect ";" (Some "module variable declaration"%string)) (fun _ =>
            ret (MVar (mkVar (t_pos first) tn fm (Some value)), [])))))))))) (ts ++ r) (a, []) r).
  { pose proof Ha as Ha'. destruct Ha as [k lb ts l tc co rb ts' se pub Hk Hlb Hl Htc Hrb Hse|k lb ts l rb x s0 pub Hk Hlb Hl Hrb Hx Hs0
    |k st x y s0 pub Hk Hst Hx Hy Hs0|k ts t ss n x ps a sz z s0 pub Hk Ht Hss Hx Hps Hsz Hs0|ts t ts' fm lp ps l v rp ts'' b o pub Ht Hf Hlp Hps Hrp Hb
    |ts t ts' fm eq ts'' x s0 Ht Hf Heq Hx Hs0].
    - norm. destruct (enum_ev ts l tc co rb (ts' ++ r) Hl Htc Hrb []) as [F HF]. exists F. intros f Hf.
      ev1 ltac:(now apply follows_yes). erewrite bind_eval.
      2:{ unfold parse_enum. ev1 ltac:(apply peek_unwrap_ev). exp_. exp_. use HF. exp_.
          erewrite (bind_eval _ _ _ _ _ se (cur r)).
          2:{ destruct Hse as [|t Ht]; cbn [app]; [now apply eat_no|now apply eat_yes]. }
          reflexivity. }
      reflexivity.
    - destruct (typedef_ev _ _ _ _ r Ha' ltac:(eauto)) as [F HF]. exists F. intros f Hf. cbn [app] in *.
      ev1 ltac:(apply follows_no; other). ev1 ltac:(now apply follows_yes). use HF. reflexivity.
    - destruct (typedef_ev _ _ _ _ r Ha' ltac:(eauto)) as [F HF]. exists F. intros f Hf. cbn [app] in *.
      ev1 ltac:(apply follows_no; other). ev1 ltac:(now apply follows_yes). use HF. reflexivity.
    - destruct (typedef_ev _ _ _ _ r Ha' ltac:(eauto)) as [F HF]. exists F. intros f Hf. cbn [app] in *.
      ev1 ltac:(apply follows_no; other). ev1 ltac:(now apply follows_yes). use HF. reflexivity.
    - norm. destruct (form_ev ts' fm (lp :: ps ++ rp :: ts'' ++ r) Hf) as [F1 H1]. { other. }
      destruct (params_ev ps l v rp (ts'' ++ r) Hps Hrp []) as (mid & [F2 H2] & Hd).
      destruct (proj1 (proj2 stmt_complete_all) ts'' b o Hb r) as [F3 H3]. { intros _. exact He. }
      exists (F1 + F2 + F3). intros f Hl.
      ev1 ltac:(apply follows_no; eapply typename_head; [eassumption|cbn; intuition discriminate]).
      ev1 ltac:(apply follows_no; eapply typename_head; [eassumption|cbn; intuition discriminate]).
      ev1 ltac:(apply parse_typename_ev; [eassumption|eapply form_dot; eassumption]). use H1. ev1 ltac:(apply peek_unwrap_ev).
      rewrite (kind_yes _ _ Hlp). unfold parse_function_declaration. exp_. use H2. ev1 ltac:(exact Hd). exp_. use H3. reflexivity.
    - norm. destruct (form_ev ts' fm (eq :: ts'' ++ s0 :: r) Hf) as [F1 H1]. { other. }
      destruct (parse_expr_ev 0 ts'' x (s0 :: r) ltac:(lia) Hx) as [F2 H2]. { stops. }
      exists (F1 + F2). intros f Hl.
      ev1 ltac:(apply follows_no; eapply typename_head; [eassumption|cbn; intuition discriminate]).
      ev1 ltac:(apply follows_no; eapply typename_head; [eassumption|cbn; intuition discriminate]).
      ev1 ltac:(apply parse_typename_ev; [eassumption|eapply form_dot; eassumption]). use H1. ev1 ltac:(apply peek_unwrap_ev).
      rewrite (kind_no _ "(" _ Heq) by discriminate. exp_. use H2. exp_. reflexivity. }
  destruct Hl as [F HF]. exists F. intros f Hf. unfold parse_module_object.
  rewrite (bind_eval _ _ _ _ _ first (cur (pb ++ ts ++ r))).
  2:{ rewrite app_assoc, E. apply peek_unwrap_ev. }
  cbv beta. rewrite (bind_eval _ _ _ _ _ pub (cur (ts ++ r))).
  2:{ destruct Hpb as [|t Ht]; cbn [app]; [|now apply eat_yes]. apply eat_no. eapply head_starts; [eapply elem_start; eassumption|].
      cbn. intuition discriminate. }
  apply (HF f). lia.
Qed.
Lemma split_at_space_eq a b : ~ In 32%N a -> split_at_space (a ++ 32%N :: b) = Some (a, 32%N :: b).
Proof.
  induction a as [|c a IH]; intros H; [reflexivity|]. cbn. destruct (N.eqb_spec c 32) as [->|Hc]; [exfalso; apply H; now left|].
  rewrite IH; auto. intros Hi. apply H. now right.
Qed.
Lemma macro_ev t a r : macro_of t a -> parse_compat_macro (cur (t :: r)) = (Ok a, cur r).
Proof.
  intros [t' h name value Ht Hc Hh Hl Hn]. unfold parse_compat_macro. exp_. rewrite Hc.
  change (h :: name ++ 32%N :: value) with ((h :: name) ++ 32%N :: value). rewrite split_at_space_eq.
  2:{ cbn. intuition congruence. }
  cbn [bdrop]. unfold ulen. apply N.ltb_lt in Hl. rewrite Hl. cbn [Nat.leb Nat.sub]. destruct name; reflexivity.
Qed.
Lemma module_head k ts l : module_of ctx ts l -> ~ In k ("import" :: "macro" :: "pub" :: elem_starts)%string -> head_kind k ts = false.
Proof.
  intros H Hk. assert (Hk' : forall k', In k' ("import" :: "macro" :: "pub" :: elem_starts)%string -> k' <> k) by (intros k' Hi ->; contradiction).
  destruct H as [|i ts l Hi _|t a ts l Ht _|pb pub ts a ts' l first rest Hpb E Ha _]; auto.
  - eapply head_is; [exact Hi|]. apply Hk'. cbn. tauto.
  - destruct Ht. eapply head_is; [eassumption|]. apply Hk'. cbn. tauto.
  - destruct Hpb as [|t Ht]; cbn [app].
    + eapply head_starts; [eapply elem_start; eassumption|]. intros Hi. apply Hk. do 3 right. exact Hi.
    + eapply head_is; [exact Ht|]. apply Hk'. cbn. tauto.
Qed.
Lemma module_ev ts l : module_of ctx ts l -> forall objs, ev (fun f => module_loop f ctx objs []) ts (objs ++ l, []) [].
Proof.
  intros H. induction H as [|i ts l Hi Hl IH|t a ts l Ht Hl IH|pb pub ts a ts' l first rest Hpb E Ha Hl IH]; intros objs.
  - fuel 1. cbn [module_loop]. rewrite app_nil_r. reflexivity.
  - destruct (IH objs) as [F HF]. fuel (S F). cbn [module_loop]. ev1 ltac:(apply peek_ev). rewrite (kind_yes _ _ Hi). get_. apply HF. lia.
  - destruct (IH (objs ++ [a])) as [F HF]. rewrite <- app_assoc in HF. cbn [app] in HF.
    fuel (S F). cbn [module_loop]. ev1 ltac:(apply peek_ev). pose proof Ht as Ht'. destruct Ht' as [t' h nm v Hk _ _ _ _].
    rewrite (kind_no _ "import" _ Hk) by discriminate. rewrite (kind_yes _ _ Hk). rewrite (macro_ev _ _ _ Ht). apply HF. lia.
  - destruct (IH (objs ++ [a])) as [F HF]. rewrite <- app_assoc in HF. cbn [app] in HF.
    destruct (object_ev pb pub ts a first rest ts' Hpb E Ha) as [F2 H2].
    { eapply module_head; [eassumption|]. cbn. intuition discriminate. }
    { eapply module_head; [eassumption|]. cbn. intuition discriminate. }
    fuel (S (F + F2)). cbn [module_loop].
    rewrite (bind_eval _ _ _ _ _ (Some first) (cur (pb ++ ts ++ ts'))) by (rewrite app_assoc, E; apply peek_ev).
    assert (Hk : In (t_kind first) ("pub" :: elem_starts)%string).
    { destruct Hpb as [|t Ht]; cbn [app] in E.
      - destruct (elem_start _ _ _ _ Ha) as (t & tr & -> & Hk). injection E as -> _. now right.
      - injection E as -> _. rewrite Ht. now left. }
    assert (Hkk : forall k, ~ In k ("pub" :: elem_starts)%string -> kind_is first k = false).
    { intros k Hn. apply kind_is_false. intros Ek. rewrite Ek in Hk. contradiction. }
    rewrite !Hkk by (cbn; intuition discriminate). rewrite H2 by lia. apply HF. lia.
Qed.
End Complete.

(** ** The parser and the grammar *)
Theorem parse_module_complete ctx p l ms : module_of ctx l ms ->
  exists F, forall f, F <= f -> parse_module f ctx (mkCur l (EndEof p)) = PModule (mkModule ms (get_exports ms)).
Proof.
  intros H. destruct (module_ev ctx p l ms H []) as [F HF]. exists F. intros f Hf. unfold parse_module. rewrite HF by auto. reflexivity.
Qed.
