(** The outcomes of the parser and of the pre-pass on files. *)
From Verif Require Import Base Buf Lexer Nodes Cursor Resolve Cspec Preparser Parser CAst Translator Build BaseFacts FuelFacts
  SpecLex LexFacts TokenFacts LexerRefine GapFacts SpecGrammar GrammarSound GrammarExpr SpecSafe SafeFacts TextFacts PathFacts Samples.

(** ** The parser *)
Lemma module_loop_no_err f ctx : forall objs es c e c', module_loop f ctx objs es c <> (Err e, c').
Proof.
  induction f as [|f IH]; intros objs es c e c'; [discriminate|]. cbn [module_loop]. unfold bind.
  destruct (peek c) as [[[t|]|x|x|] d] eqn:Ep; try discriminate.
  2:{ unfold peek in Ep. destruct (c_toks c); [destruct (c_end c)|]; discriminate. }
  destruct (kind_is t "import").
  - destruct (get d) as [[o|x|x|] d'] eqn:Eg; try discriminate; [apply IH|].
    unfold get in Eg. destruct (c_toks d); [destruct (c_end d)|]; discriminate.
  - destruct (kind_is t "macro").
    + destruct (parse_compat_macro d) as [[o|x|x|] d'] eqn:Eg; try discriminate. apply IH.
    + destruct (parse_module_object ctx f d) as [[[o oe]|x|x|] d'] eqn:Eg; try discriminate. apply IH.
Qed.

Section Text.
Context {U : Unicode}.
Lemma macro_tokens text toks e : lexes [] text toks e -> forall t, In t toks -> is "macro" t -> exists r, t_content t = 35%N :: r.
Proof.
  intros Hl t Ht Hk. destruct (lexes_in _ _ _ _ Hl t (or_introl Ht)) as (u & sp & post & _ & Hx & _). unfold is in Hk. rewrite Hk in Hx.
  remember "macro"%string as k eqn:Ek. destruct Hx; try discriminate; eauto; subst; exfalso.
  - cbn in H. intuition discriminate.
  - cbn in H. intuition discriminate.
Qed.
Lemma outcome text toks q ctx fuel : lexes [] text toks (EndEof q) ->
  post q toks (64 * List.length toks + 2 <= fuel) true (S (List.length toks)) (List.length toks) (errs_ok q toks)
    (module_loop fuel ctx [] [] (tokenize (buf_new text))).
Proof.
  intros H. rewrite (tokenize_of _ _ _ H). apply module_outcome; [|reflexivity]. eapply macro_tokens; eauto.
Qed.
Lemma errors_located text toks q ctx fuel es : lexes [] text toks (EndEof q) ->
  parse_module fuel ctx (tokenize (buf_new text)) = PErrors es -> es <> [] /\ Forall (error_at toks q) es.
Proof.
  intros H E. assert (Ho := outcome text toks q ctx fuel H). unfold parse_module in E.
  destruct (module_loop fuel ctx [] [] (tokenize (buf_new text))) as [[[objs errs]|e|w|] c] eqn:El; try discriminate.
  - destruct errs as [|e errs]; [discriminate|]. injection E as <-. split; [discriminate|].
    destruct Ho as (r & _ & _ & _ & He). exact He.
  - now apply module_loop_no_err in El.
Qed.
Lemma aborts_where text toks q ctx fuel w : lexes [] text toks (EndEof q) ->
  parse_module fuel ctx (tokenize (buf_new text)) = PAbort w -> exists pre r, toks = pre ++ r /\ culprit pre r.
Proof.
  intros H E. assert (Ho := outcome text toks q ctx fuel H). unfold parse_module in E.
  destruct (module_loop fuel ctx [] [] (tokenize (buf_new text))) as [[[objs errs]|e|w'|] c] eqn:El; try discriminate.
  - destruct errs; discriminate.
  - exact Ho.
Qed.
Lemma hangs_where text toks q ctx fuel : lexes [] text toks (EndEof q) -> 64 * List.length toks + 2 <= fuel ->
  parse_module fuel ctx (tokenize (buf_new text)) = PNoFuel ->
  module_loop fuel ctx [] [] (mkCur toks (EndEof q)) = (NoFuel, mkCur [] (EndEof q)).
Proof.
  intros H Hf E. assert (Ho := outcome text toks q ctx fuel H). unfold parse_module in E. rewrite (tokenize_of _ _ _ H) in *.
  destruct (module_loop fuel ctx [] [] (mkCur toks (EndEof q))) as [[[objs errs]|e|w'|] c] eqn:El; try discriminate.
  - destruct errs; discriminate.
  - now rewrite (Ho Hf).
Qed.
End Text.

(** ** The pre-pass *)
Section Prepass.
Variable w : world.
Variable path : str.
Variable whole : list token.
Variable e : ending.
Hypothesis not_stuck : forall t, e <> EndStuck t.
Notation cur l := (mkCur l e).
Notation len := (@List.length token).

(** With [en]ough fuel it stops; it leaves at most [n] tokens over, as [Q] says. *)
Definition P {A} (en : Prop) (n : nat) (Q : list token -> Prop) (m : M A) (l : list token) : Prop :=
  (exists pre, whole = pre ++ l) ->
  match m (cur l) with
  | (Ok _, c) => exists r, c = cur r /\ (exists pre, whole = pre ++ r) /\ len r <= n /\ Q r
  | (Err _, _) => True
  | (Abort s, _) => e = EndPanic s \/ exists pre r, whole = pre ++ r /\ prepass_culprit path pre r
  | (NoFuel, _) => ~ en
  end.
Definition any_rest (r : list token) : Prop := True.
Definition closing (r : list token) : Prop := exists pre b, whole = (pre ++ [b]) ++ r /\ is "}" b.

Section Rules.
Variable en : Prop.
Variable n : nat.
Variable Q : list token -> Prop.
Lemma P_bind A B en1 n1 Q1 (m : M A) (k : A -> M B) l : P en1 n1 Q1 m l -> (en -> en1) ->
  (forall a r, len r <= n1 -> Q1 r -> P en n Q (k a) r) -> P en n Q (bind m k) l.
Proof.
  intros H1 Hn H2 Hs. specialize (H1 Hs). unfold bind. destruct (m (cur l)) as [[a|x|x|] c]; auto.
  destruct H1 as (r & -> & Hr & Hl & Hq). now apply H2.
Qed.
Lemma P_ret A (a : A) l : len l <= n -> Q l -> P en n Q (ret a) l.
Proof. intros H Hq Hs. exists l. auto. Qed.
Lemma P_sfail A s l : P en n Q (@sfail A s) l.
Proof. intros Hs. exact I. Qed.
Lemma P_weak A en' n' Q' (m : M A) l : P en' n' Q' m l -> n' <= n -> (en -> en') -> (forall r, Q' r -> Q r) -> P en n Q m l.
Proof.
  intros H Hn Hf Hq Hs. specialize (H Hs). destruct (m (cur l)) as [[a|x|x|] c]; auto.
  destruct H as (r & -> & Hr & Hl & Hr'). exists r. repeat split; auto. lia.
Qed.
Lemma P_peek B (k : option token -> M B) l :
  (forall p, l = [] -> e = EndEof p -> P en n Q (k None) []) ->
  (forall t r, l = t :: r -> P en n Q (k (Some t)) (t :: r)) -> P en n Q (bind peek k) l.
Proof.
  intros H0 H1 Hs. unfold bind, peek. cbn [c_toks c_end]. destruct l as [|t r].
  - destruct e as [q|s|t] eqn:E; [|now left|now destruct (not_stuck t)]. rewrite <- E in *. apply (H0 q); auto.
  - now apply H1.
Qed.
Lemma P_get B (k : option token -> M B) l :
  (forall p, l = [] -> e = EndEof p -> P en n Q (k None) []) ->
  (forall t r, l = t :: r -> (exists pre, whole = (pre ++ [t]) ++ r) -> P en n Q (k (Some t)) r) -> P en n Q (bind get k) l.
Proof.
  intros H0 H1 Hs. unfold bind, get. cbn [c_toks c_end]. destruct l as [|t r].
  - destruct e as [q|s|t] eqn:E; [|now left|now destruct (not_stuck t)]. rewrite <- E in *. apply (H0 q); auto.
  - assert (Hw : exists pre, whole = (pre ++ [t]) ++ r) by (destruct Hs as [pre ->]; exists pre; now rewrite <- app_assoc).
    apply (H1 t r); auto. destruct Hw as [pre ->]. eauto.
Qed.
Lemma P_assoc A B C (m : M A) (k : A -> M B) (g : B -> M C) l :
  P en n Q (bind m (fun a => bind (k a) g)) l -> P en n Q (bind (bind m k) g) l.
Proof. intros H Hs. specialize (H Hs). unfold bind in *. destruct (m (cur l)) as [[a|x|x|] c]; auto. Qed.
Lemma P_follows B kd (k : bool -> M B) l :
  (l = [] -> P en n Q (k false) []) ->
  (forall t r, l = t :: r -> P en n Q (k (kind_is t kd)) (t :: r)) -> P en n Q (bind (follows kd) k) l.
Proof. intros H0 H1. apply P_assoc, P_peek; auto. Qed.
Lemma P_more B (k : bool -> M B) l :
  (l = [] -> P en n Q (k false) []) ->
  (forall t r, l = t :: r -> P en n Q (k true) (t :: r)) -> P en n Q (bind more k) l.
Proof. intros H0 H1. apply P_assoc, P_peek; auto. Qed.
Lemma P_get_unwrap B s (k : token -> M B) t r : P en n Q (k t) r -> P en n Q (bind (get_unwrap s) k) (t :: r).
Proof.
  intros H Hs. unfold get_unwrap, get, bind. cbn. apply H. destruct Hs as [pre ->]. exists (pre ++ [t]). now rewrite <- app_assoc.
Qed.
(** [expect(..).unwrap()] *)
Lemma P_must B kd s (k : token -> M B) l :
  (forall t r, l = t :: r -> is kd t -> (exists pre, whole = (pre ++ [t]) ++ r) -> P en n Q (k t) r) ->
  (forall pre t r, l = t :: r -> ~ is kd t -> whole = pre ++ l -> prepass_culprit path pre l) ->
  P en n Q (bind (abort_on_err s (pre_expect kd)) k) l.
Proof.
  intros H1 H2 Hs. destruct Hs as [pre Hs]. destruct l as [|t r].
  - unfold bind at 1, abort_on_err, pre_expect, more, bind, peek. cbn [c_toks c_end].
    destruct e as [q|s'|t]; [|now left|now destruct (not_stuck t)]. cbn. right. exists pre, []. split; [exact Hs|]. now left.
  - unfold bind at 1, abort_on_err, pre_expect, more, bind, peek, peek_unwrap, get_unwrap, bind, peek, get. cbn [c_toks c_end ret].
    cbn. unfold bind, peek, get. cbn. destruct (kind_is t kd) eqn:E; cbn.
    + assert (Hw : whole = (pre ++ [t]) ++ r) by now rewrite <- app_assoc.
      apply (H1 t r); eauto. now apply kind_is_true.
    + right. exists pre, (t :: r). split; [exact Hs|]. eapply H2; eauto. intros H. apply kind_is_true in H. congruence.
Qed.
Lemma P_expect B kd (k : token -> M B) l :
  (forall t r, l = t :: r -> is kd t -> P en n Q (k t) r) -> P en n Q (bind (pre_expect kd) k) l.
Proof.
  intros H1 Hs. destruct Hs as [pre Hs]. destruct l as [|t r].
  - unfold bind at 1, pre_expect, more, bind, peek. cbn [c_toks c_end].
    destruct e as [q|s'|t]; [|now left|now destruct (not_stuck t)]. exact I.
  - unfold bind at 1, pre_expect, more, bind, peek, peek_unwrap, get_unwrap, bind, peek, get. cbn [c_toks c_end ret].
    cbn. unfold bind, peek, get. cbn. destruct (kind_is t kd) eqn:E; cbn; [|exact I].
    apply (H1 t r); auto; [now apply kind_is_true|]. exists (pre ++ [t]). now rewrite <- app_assoc.
Qed.
End Rules.

Lemma skip_P f : (forall t r, is "{" t -> P (2 * len (t :: r) <= f) (len r) closing (skip_brackets f) (t :: r))
  /\ (forall l, P (2 * len l + 1 <= f) (len l) closing (skip_loop f) l).
Proof.
  induction f as [|f [IH1 IH2]]; split.
  - intros t r _ _ Hf. cbn in Hf. lia.
  - intros l _ Hf. lia.
  - intros t r Ht. cbn [skip_brackets]. apply P_must.
    + intros t' r' E _ _. injection E as <- <-. eapply P_weak; [apply IH2|cbn; lia|cbn; lia|auto].
    + intros pre t' r' E Hn. injection E as <- <-. contradiction.
  - intros l. cbn [skip_loop]. apply P_more.
    + intros ->. apply P_must; [discriminate|discriminate].
    + intros t r ->. apply P_follows; [discriminate|]. intros t' r' E. injection E as <- <-. destruct (kind_is t "{") eqn:Eb.
      * eapply P_bind.
        -- apply IH1. now apply kind_is_true.
        -- cbn. lia.
        -- intros _ r' Hr _. eapply P_weak; [apply IH2|cbn; lia|cbn; lia|auto].
      * apply P_follows; [discriminate|]. intros t' r' E. injection E as <- <-. destruct (kind_is t "}") eqn:Ec.
        -- apply kind_is_true in Ec. apply P_must.
           ++ intros t' r' E _ [pre Hp]. injection E as <- <-. apply P_ret; [cbn; lia|]. exists pre, t. auto.
           ++ intros pre t' r' E Hn. injection E as <- <-. contradiction.
        -- apply P_get; [discriminate|]. intros t' r' E _. injection E as <- <-. eapply P_weak; [apply IH2|cbn; lia|cbn; lia|auto].
Qed.
Lemma until_P f : forall acc l, P (len l + 1 <= f) (len l) any_rest (until_semicolon f acc) l.
Proof.
  induction f as [|f IH]; intros acc l; [intros _ Hf; lia|]. cbn [until_semicolon]. apply P_more.
  - intros ->. apply P_ret; [lia|exact I].
  - intros t r ->. apply P_get_unwrap. destruct (kind_is t ";"); [apply P_ret; [cbn; lia|exact I]|].
    eapply P_weak; [apply IH|cbn; lia|cbn; lia|auto].
Qed.
Lemma typename_P f l : P (2 * len l + 1 <= f) (len l) any_rest (get_typename f) l.
Proof.
  assert (Hu : P (2 * len l + 1 <= f) (len l) any_rest (
    buf <- until_semicolon f [] ;;
    match buf with
    | [] => sfail (L "No tokens after 'typedef'")
    | t0 :: _ =>
        let buf := if kind_is t0 ")" then drop_params buf else buf in
        match find (fun t => kind_is t "word") buf with
        | Some t => ret (t_content t)
        | None => sfail (L "Type name expected in the typedef")
        end
    end)%mon l).
  { eapply P_bind; [apply until_P|lia|]. intros [|t0 buf] r Hr _; [apply P_sfail|]. cbv zeta.
    destruct (find _ _); [apply P_ret; [lia|exact I]|apply P_sfail]. }
  unfold get_typename. apply P_follows; [intros ->; exact Hu|]. intros t r ->. destruct (kind_is t "{") eqn:Eb; [|exact Hu].
  eapply P_bind; [apply (proj1 (skip_P f)); now apply kind_is_true|cbn; lia|]. intros _ r' Hr' Hc. apply P_must.
  - intros t' r2 -> _ _. apply P_expect. intros t2 r3 -> _. apply P_ret; [cbn in *; lia|exact I].
  - intros pre t' r2 -> Hn Hw. right. left. destruct Hc as (pre' & b & Hc & Hb). exists pre', b, t', r2. repeat split; auto.
    rewrite Hw in Hc. now apply app_inv_tail in Hc.
Qed.
Lemma resolve_no_abort name s : resolve_import w path name = Panic s -> path_parent path = None.
Proof.
  unfold resolve_import. intros E.
  assert (Hn : forall p, (exists n, p = n ++ L ".c") -> forall s', ns_of_path p <> Panic s').
  { intros p [n ->] s'. unfold ns_of_path. destruct (file_name_ext _ _ n (basename_file (n ++ L ".c")) eq_refl) as [b ->].
    replace (Nat.ltb (blen (b ++ L ".c")) 2) with false; [discriminate|]. symmetry. apply Nat.ltb_ge.
    pose proof (blen_ge (b ++ L ".c")) as Hl. rewrite app_length in Hl. change (List.length (L ".c")) with 2 in Hl. lia. }
  assert (Hk : forall p, (exists n, p = n ++ L ".c") -> (if negb (w_exists w p)
       then Done (inr (L "can't find module '" ++ name ++ L "' (looked at " ++ p ++ L ")"))
       else rbind (ns_of_path p) (fun ns => Done (inl (mkRef p ns)))) = Panic s -> False).
  { intros p Hp. destruct (negb (w_exists w p)); [discriminate|]. specialize (Hn p Hp).
    destruct (ns_of_path p) as [ns|s'|] eqn:En; cbn; try discriminate. intros _. now apply (Hn s'). }
  destruct (ends_with name (L ".c")) eqn:En.
  - destruct (path_parent path) as [d|]; [|reflexivity]. cbn [unwrap rbind] in E. exfalso. eapply Hk; [|exact E].
    apply ends_c_inv in En. destruct En as [n ->]. unfold path_join.
    destruct (n ++ L ".c") as [|c r] eqn:Ec; [destruct n; discriminate|]. rewrite <- Ec.
    assert (H1 : exists m, d ++ n ++ L ".c" = m ++ L ".c") by (exists (d ++ n); apply app_assoc).
    assert (H2 : exists m, d ++ [slash] ++ n ++ L ".c" = m ++ L ".c") by (exists (d ++ [slash] ++ n); now rewrite <- !app_assoc).
    assert (H3 : exists m, n ++ L ".c" = m ++ L ".c") by eauto.
    repeat (match goal with |- context [match ?x with _ => _ end] => destruct x end; auto).
  - cbn [rbind] in E. exfalso. eapply Hk; [|exact E]. exists (w_home w ++ L "/lib/" ++ name). now rewrite <- !app_assoc.
Qed.
Lemma resolve_some name : resolve_import w path name <> Oof.
Proof.
  unfold resolve_import, ns_of_path. destruct (ends_with name (L ".c")); [destruct (path_parent path) as [d|]|]; cbn [unwrap rbind]; try discriminate;
    repeat (match goal with |- context [if ?x then _ else _] => destruct x end; cbn [rbind]; try discriminate).
Qed.
Lemma loop_P f : forall im tn l, P (2 * len l + 2 <= f) 0 any_rest (preparse_loop f w path im tn) l.
Proof.
  induction f as [|f IH]; intros im tn l; [intros _ Hf; lia|]. cbn [preparse_loop]. apply P_get.
  - intros q -> He. apply P_ret; [auto|exact I].
  - intros t r -> [pre Hw]. destruct (kind_is t "error"); [apply P_sfail|].
    assert (Hr : forall im' tn' r', len r' <= len r -> P (2 * len (t :: r) + 2 <= S f) 0 any_rest (preparse_loop f w path im' tn') r').
    { intros im' tn' r' Hl. eapply P_weak; [apply IH|lia|cbn; lia|auto]. }
    destruct (kind_is t "import") eqn:Ei.
    { apply kind_is_true in Ei. intros Hs. unfold bind, resolve_m. destruct (resolve_import w path (t_content t)) as [[ref|m]|s|] eqn:E.
      - now apply Hr.
      - exact I.
      - right. apply resolve_no_abort in E. exists (pre ++ [t]), r. split; [exact Hw|]. right. right. right. eauto.
      - now apply resolve_some in E. }
    destruct (kind_is t "typedef").
    { eapply P_bind; [apply typename_P|cbn; lia|]. intros a r' Hl _. now apply Hr. }
    destruct (kind_is t "macro" && starts_with (t_content t) (L "#type")) eqn:Em; [|now apply Hr].
    apply andb_true_iff in Em as [Em1 Em2]. apply kind_is_true in Em1. apply starts_with_spec in Em2.
    destruct (bdrop 6 (t_content t)) eqn:Eb; [now apply Hr|].
    intros Hs. right. exists (pre ++ [t]), r. split; [exact Hw|]. right. right. left. exists pre, t. repeat split; auto.
    now apply bdrop_none.
Qed.
End Prepass.

(** The pre-pass keeps the ending of the token sequence. *)
Definition keeps {A} (m : M A) : Prop := forall c a c', m c = (Ok a, c') -> c_end c' = c_end c.
Lemma keeps_bind A B (m : M A) (k : A -> M B) : keeps m -> (forall a, keeps (k a)) -> keeps (bind m k).
Proof.
  intros H1 H2 c b c'. unfold bind. destruct (m c) as [[a|x|x|] d] eqn:E; try discriminate.
  intros H. apply H2 in H. rewrite H. eapply H1; eauto.
Qed.
Lemma keeps_ret A (a : A) : keeps (ret a).
Proof. intros c b c' H. now injection H as _ <-. Qed.
Lemma keeps_get : keeps get.
Proof.
  intros [[|t r] e] o c' H; unfold get in H; cbn in H; [destruct e; try discriminate|]; now injection H as _ <-.
Qed.
Lemma keeps_peek : keeps peek.
Proof.
  intros [[|t r] e] o c' H; unfold peek in H; cbn in H; [destruct e; try discriminate|]; now injection H as _ <-.
Qed.
Lemma keeps_fail A e : keeps (@fail A e). Proof. discriminate. Qed.
Lemma keeps_abort A e : keeps (@abort A e). Proof. discriminate. Qed.
Lemma keeps_nofuel A : keeps (@nofuel A). Proof. discriminate. Qed.
Lemma keeps_aoe A s (m : M A) : keeps m -> keeps (abort_on_err s m).
Proof. intros H c a c'. unfold abort_on_err. destruct (m c) as [[x|x|x|] d] eqn:E; try discriminate. intros E'. injection E' as <- <-. eapply H; eauto. Qed.
Ltac keeping := repeat first [apply keeps_ret | apply keeps_get | apply keeps_peek | apply keeps_fail | apply keeps_abort
  | apply keeps_nofuel | apply keeps_aoe | assumption | apply keeps_bind; [|intros ?]
  | match goal with |- keeps (match ?x with _ => _ end) => destruct x end ].
Lemma keeps_expect kd : keeps (pre_expect kd).
Proof. unfold pre_expect, more, peek_unwrap, get_unwrap, sfail. keeping. Qed.
Lemma keeps_skip f : keeps (skip_brackets f) /\ keeps (skip_loop f).
Proof.
  induction f as [|f [IH1 IH2]]; [split; apply keeps_nofuel|]. pose proof keeps_expect as He. split.
  - cbn [skip_brackets]. keeping; auto.
  - cbn [skip_loop]. unfold more, follows. keeping; auto.
Qed.
Lemma keeps_until f : forall acc, keeps (until_semicolon f acc).
Proof. induction f as [|f IH]; intros acc; [apply keeps_nofuel|]. cbn [until_semicolon]. unfold more, get_unwrap. keeping; auto. Qed.
Lemma keeps_typename f : keeps (get_typename f).
Proof.
  pose proof keeps_expect as He. pose proof (keeps_skip f) as [Hk _]. pose proof (keeps_until f) as Hu.
  unfold get_typename, follows, sfail. keeping; auto.
Qed.
Lemma loop_end f w path : forall im tn c x c', preparse_loop f w path im tn c = (Ok x, c') -> exists q, c_end c = EndEof q.
Proof.
  induction f as [|f IH]; intros im tn c x c'; [discriminate|]. cbn [preparse_loop]. unfold bind at 1.
  destruct (get c) as [[[t|]|e|e|] d] eqn:E; try discriminate.
  - pose proof (keeps_get _ _ _ E) as Hk. rewrite <- Hk. destruct (kind_is t "error"); [discriminate|].
    destruct (kind_is t "import").
    { unfold bind, resolve_m. destruct (resolve_import w path (t_content t)) as [[ref|m]|s|]; try discriminate. apply IH. }
    destruct (kind_is t "typedef").
    { unfold bind. destruct (get_typename f d) as [[n|e|e|] d'] eqn:Et; try discriminate.
      rewrite <- (keeps_typename _ _ _ _ Et). apply IH. }
    destruct (kind_is t "macro" && starts_with (t_content t) (L "#type")); [|apply IH].
    destruct (bdrop 6 (t_content t)); [apply IH|discriminate].
  - intros _. unfold get in E. destruct (c_toks c); [|discriminate]. destruct (c_end c) as [q| |]; try discriminate. eauto.
Qed.

Section Files.
Context {U : Unicode}.
Lemma prepass_reads_all fuel w path h text : preparse fuel w path = Ok h -> w_read w path = inl text ->
  exists toks q, lexes [] text toks (EndEof q).
Proof.
  intros H Hr. unfold preparse in H. rewrite Hr in H. pose proof (tokenize_spec text) as Hs.
  destruct (preparse_loop fuel w path [] [] (tokenize (buf_new text))) as [[[im tn]|e|s|] c] eqn:E; try discriminate.
  destruct (loop_end _ _ _ _ _ _ _ _ E) as [q Eq]. rewrite Eq in Hs. eauto.
Qed.
Lemma tokenize_end text toks e : lexes [] text toks e -> (forall t, e <> EndStuck t) ->
  c_toks (tokenize (buf_new text)) = toks /\ forall t, c_end (tokenize (buf_new text)) <> EndStuck t.
Proof.
  intros H Hs. destruct (lexes_tokenize _ _ _ _ H (S (List.length text))) as [E1 E2]; [lia|].
  rewrite position_after_nil in *. change (tokenize_aux (S (List.length text)) (mkBuf text (mkPos 1 1))) with (tokenize (buf_new text)) in *.
  split; [auto|]. intros t Ht. rewrite Ht in E2. destruct e as [| |t0]; cbn in E2; try discriminate; try contradiction; now apply (Hs t0).
Qed.
Lemma prepass_outcome fuel w path text toks e : w_read w path = inl text -> lexes [] text toks e -> (forall t, e <> EndStuck t) ->
  (2 * List.length toks + 2 <= fuel -> preparse fuel w path <> NoFuel) /\
  (forall q, e = EndEof q -> forall s, preparse fuel w path = Abort s -> exists pre r, toks = pre ++ r /\ prepass_culprit path pre r).
Proof.
  intros Hr Hl He. destruct (tokenize_end _ _ _ Hl He) as [Et Hs]. unfold preparse. rewrite Hr.
  pose proof (loop_P w path toks (c_end (tokenize (buf_new text))) Hs fuel [] [] toks) as H.
  split.
  - intros Hf. specialize (H (ex_intro _ [] eq_refl)). destruct (tokenize (buf_new text)) as [l e']. cbn [c_toks c_end] in *. subst l.
    destruct (preparse_loop fuel w path [] [] (mkCur toks e')) as [[[im tn]|x|x|] c]; try discriminate. intros _. now apply H.
  - intros q -> s. rewrite (tokenize_of _ _ _ Hl) in *. cbn [c_end c_toks] in *. specialize (H (ex_intro _ [] eq_refl)).
    destruct (preparse_loop fuel w path [] [] (mkCur toks (EndEof q))) as [[[im tn]|x|x|] c]; try discriminate. intros _.
    destruct H as [H|H]; [discriminate|exact H].
Qed.
Lemma prepass_aborts_where fuel w path text toks q s : w_read w path = inl text -> lexes [] text toks (EndEof q) ->
  preparse fuel w path = Abort s -> exists pre r, toks = pre ++ r /\ prepass_culprit path pre r.
Proof.
  intros Hr Hl. assert (He : forall t, EndEof q <> EndStuck t) by discriminate.
  apply (proj2 (prepass_outcome fuel w path text toks _ Hr Hl He) q eq_refl).
Qed.
End Files.

(** ** Samples *)
Lemma parser_aborts : Forall (fun text => exists why, forall fuel, 300 <= fuel ->
  parse_module fuel no_context (@tokenize ascii_table (buf_new (lit text))) = PAbort why)
  ["int x"; "int x = 1 ~ 2;"; "int x = sizeof(int)++;"; "typedef int x[0x10];"]%string.
Proof.
  repeat (apply Forall_cons; [eexists; intros fuel Hf; rewrite (parse_module_stable no_context _ 300 fuel Hf); [vm_compute; reflexivity|vm_compute; discriminate]|]).
  constructor.
Qed.
Lemma prepass_aborts : Forall (fun text => exists why, forall fuel home, 300 <= fuel ->
  @preparse ascii_table fuel (mkWorld home (fun _ => false) (fun _ => inl (lit text))) (L "a.c") = Abort why)
  ["typedef {"; "typedef { int x; };"; "#type"]%string.
Proof.
  repeat (apply Forall_cons; [eexists; intros fuel home Hf; rewrite (preparse_stable ascii_table _ _ 300 fuel Hf); [vm_compute; reflexivity|vm_compute; discriminate]|]).
  constructor.
Qed.
Lemma until_stuck f t : kind_is t ";" = false -> forall acc, until_semicolon f acc (mkCur [] (EndStuck t)) = (NoFuel, mkCur [] (EndStuck t)).
Proof.
  intros Ht. induction f as [|f IH]; intros acc; [reflexivity|]. cbn [until_semicolon]. unfold more, get_unwrap, bind, peek, get. cbn. rewrite Ht. apply IH.
Qed.
Lemma stuck_prepass : exists text, forall fuel home,
  @preparse ascii_table fuel (mkWorld home (fun _ => false) (fun _ => inl (lit text))) (L "a.c") = NoFuel.
Proof.
  exists "typedef@"%string. intros fuel home. unfold preparse. cbn [w_read].
  eassert (Ht : @tokenize ascii_table (buf_new (lit "typedef@")) = _) by (vm_compute; reflexivity). rewrite Ht. clear Ht.
  destruct fuel as [|f]; [reflexivity|]. cbn [preparse_loop]. unfold bind at 1. cbn [get c_toks c_end].
  match goal with |- context [kind_is ?t "error"] => change (kind_is t "error") with false; change (kind_is t "import") with false;
    change (kind_is t "typedef") with true end. cbv beta iota.
  unfold get_typename, bind, follows, peek, bind. cbn [c_toks c_end ret].
  match goal with |- context [kind_is ?t "{"] => change (kind_is t "{") with false end. cbv beta iota. rewrite until_stuck; reflexivity.
Qed.
