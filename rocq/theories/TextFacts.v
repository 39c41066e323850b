(** From token sequences to files: what a file must contain to be parsed, files
    on which the parser never stops, and the link to the pre-pass and the
    translation. *)
From Verif Require Import Base Buf Lexer Nodes Cursor Resolve Cspec Preparser Parser CAst Translator Build BaseFacts FuelFacts
  SpecLex LexFacts TokenFacts LexerRefine GapFacts SpecGrammar GrammarSound GrammarExpr GrammarComplete ParseFacts PrepassFacts
  SpecScope NamespaceFacts SpecBuild BuildFacts ProjectFacts BuildProps Samples.

(** ** A function whose body does not end *)
Section Unclosed.
Variable ctx : parsectx.
Variable p : pos.
Notation cur l := (mkCur l (EndEof p)).
Lemma body_at_end f : forall ss es, body_loop ctx f ss es (cur []) = (NoFuel, cur []).
Proof.
  induction f as [|f IH]; intros ss es; [reflexivity|]. rewrite body_loop_S.
  rewrite (bind_eval _ _ _ _ _ false (cur [])) by reflexivity. cbv beta iota.
  destruct f as [|f]; [reflexivity|]. change (parse_statement ctx (S f) (cur [])) with
    (@Err (werr stmt) (mkErr (L "reached end of file while parsing statement") p), cur []). cbv beta iota.
  rewrite (bind_eval _ _ _ _ _ tt (cur [])) by reflexivity. apply IH.
Qed.
Lemma body_unclosed ts l : stmts_of ctx ts l -> forall ss, exists F, forall f, F <= f ->
  fst (body_loop ctx f ss [] (cur ts)) = NoFuel.
Proof.
  intros H. remember ts as ts0 eqn:E0. revert ts E0. 
  induction H as [|ts s0 o ts' l Hs Hl IH]; intros tz E0 ss.
  - exists 0. intros f _. now rewrite body_at_end.
  - destruct (proj1 (stmt_complete_all ctx p) _ _ _ Hs ts') as [F HF].
    { intros _. destruct Hl as [|ts1 s1 o1 ts2 l Hs1 _]; [reflexivity|].
      eapply head_starts; [eapply stmt_start; eauto|]. cbn. intuition discriminate. }
    destruct (IH ts' eq_refl (ss ++ [s0])) as [F2 H2]. exists (S (F + F2)). intros f Hf. destruct f as [|f]; [lia|].
    rewrite body_loop_S. rewrite (bind_eval _ _ _ _ _ false (cur (ts ++ ts'))).
    2:{ apply follows_no. eapply head_starts; [eapply stmt_start; eauto|]. cbn. intuition discriminate. }
    cbv beta iota. rewrite HF by lia. cbn [app]. apply H2. lia.
Qed.
Lemma bind_nofuel A B (m : M A) (k : A -> M B) c : fst (m c) = NoFuel -> fst (bind m k c) = NoFuel.
Proof. unfold bind. destruct (m c) as [[a|e|w|] d]; cbn; congruence. Qed.

Lemma unclosed_body_hangs ts l pb pub tt t tf fm lp ps pl v rp lb ss sl :
  module_of ctx ts l -> optional "pub" pb pub -> typename_of ctx tt t -> form_of ctx tf fm ->
  is "(" lp -> params_of ctx ps pl v -> is ")" rp -> is "{" lb -> stmts_of ctx ss sl ->
  forall f, parse_module f ctx (cur (ts ++ pb ++ tt ++ tf ++ lp :: ps ++ rp :: lb :: ss)) = PNoFuel.
Proof.
  intros Hm Hpb Ht Hf Hlp Hps Hrp Hlb Hss.
  set (toks := ts ++ pb ++ tt ++ tf ++ lp :: ps ++ rp :: lb :: ss).
  assert (Hbig : exists F, forall f, F <= f -> parse_module f ctx (cur toks) = PNoFuel).
  { destruct (typename_start ctx tt t Ht) as (h & ht & Ett & Hh).
    assert (Hfirst : exists first rest, pb ++ tt ++ tf ++ lp :: ps ++ rp :: lb :: ss = first :: rest /\
      In (t_kind first) ["pub"; "const"; "word"]%string).
    { destruct Hpb as [|t0 Ht0]; cbn [app]; rewrite ?Ett; cbn [app]; eexists _, _; split; try reflexivity.
      - cbn in *. tauto. - rewrite Ht0. cbn. tauto. }
    destruct Hfirst as (first & rest & Efirst & Hfirst).
    assert (Hk : forall k, ~ In k ["pub"; "const"; "word"]%string -> kind_is first k = false).
    { intros k Hn. apply kind_is_false. intros E. rewrite E in Hfirst. contradiction. }
    destruct (module_step ctx p ts l Hm (pb ++ tt ++ tf ++ lp :: ps ++ rp :: lb :: ss)) as (k & F & HF).
    { rewrite Efirst. apply Hk. cbn. intuition discriminate. } { rewrite Efirst. apply Hk. cbn. intuition discriminate. }
    destruct (form_ev ctx p tf fm (lp :: ps ++ rp :: lb :: ss) Hf) as [F1 H1]. { eapply head_is; [exact Hlp|discriminate]. }
    destruct (params_ev ctx p ps pl v rp (lb :: ss) Hps Hrp []) as (mid & [F2 H2] & Hd).
    destruct (body_unclosed ss sl Hss []) as [F3 H3].
    exists (k + S (F + F1 + F2 + S (S F3))). intros f Hle. replace f with (k + S (f - k - 1)) by lia.
    unfold parse_module, toks. rewrite HF by lia. cbn [module_loop].
    rewrite (bind_eval _ _ _ _ _ (Some first) (cur (pb ++ tt ++ tf ++ lp :: ps ++ rp :: lb :: ss))) by (rewrite Efirst; apply peek_ev).
    rewrite !Hk by (cbn; intuition discriminate).
    assert (Ho : fst (parse_module_object ctx (f - k - 1) (cur (pb ++ tt ++ tf ++ lp :: ps ++ rp :: lb :: ss))) = NoFuel).
    { unfold parse_module_object.
      rewrite (bind_eval _ _ _ _ _ first (cur (pb ++ tt ++ tf ++ lp :: ps ++ rp :: lb :: ss))) by (rewrite Efirst; apply peek_unwrap_ev).
      cbv beta. rewrite (bind_eval _ _ _ _ _ pub (cur (tt ++ tf ++ lp :: ps ++ rp :: lb :: ss))).
      2:{ destruct Hpb as [|t0 Ht0]; cbn [app]; [|now apply eat_yes]. apply eat_no. eapply typename_head; [eassumption|cbn; intuition discriminate]. }
      cbv beta. 
      erewrite bind_eval by (apply follows_no; eapply typename_head; [eassumption|cbn; intuition discriminate]). cbv beta iota.
      erewrite bind_eval by (apply follows_no; eapply typename_head; [eassumption|cbn; intuition discriminate]). cbv beta iota.
      erewrite bind_eval by (apply parse_typename_ev; [eassumption|eapply form_dot; eassumption]). cbv beta.
      erewrite bind_eval by (apply H1; lia). cbv beta. erewrite bind_eval by apply peek_unwrap_ev. cbv beta.
      rewrite (kind_yes _ _ Hlp). unfold parse_function_declaration.
      erewrite bind_eval by now apply expect_ev. cbv beta. erewrite bind_eval by (apply H2; lia). cbv beta.
      erewrite bind_eval by exact Hd. cbv beta. erewrite bind_eval by now apply expect_ev. cbv beta.
      apply bind_nofuel. destruct (f - k - 1) as [|[|g]] eqn:Eg; [lia|lia|]. rewrite parse_statements_block_S.
      erewrite bind_eval by now apply follows_yes. cbv beta iota. rewrite read_body_S. erewrite bind_eval by now apply expect_ev.
      apply H3. lia. }
    destruct (parse_module_object ctx (f - k - 1) (cur (pb ++ tt ++ tf ++ lp :: ps ++ rp :: lb :: ss))) as [o c]. cbn [fst] in Ho. rewrite Ho. reflexivity. }
  intros f. destruct Hbig as [F HF]. destruct (parse_module f ctx (cur toks)) eqn:E; auto;
    (rewrite <- (HF (f + F)) by lia; rewrite <- E; symmetry; apply parse_module_stable; [lia|rewrite E; discriminate]).
Qed.
End Unclosed.

(** A file without imports and types. *)
Definition no_context : parsectx := mkPctx (mkInfo [] [] [] []) [].
Lemma hang_text : exists text, forall fuel,
  parse_module fuel no_context (@tokenize ascii_table (buf_new (lit text))) = PNoFuel.
Proof.
  exists "int f() {"%string. intros fuel.
  change (@tokenize ascii_table (buf_new (lit "int f() {"))) with
    (mkCur ([] ++ [] ++ [mkTok "word" (L "int") (mkPos 1 1)] ++ [mkTok "word" (L "f") (mkPos 1 5)] ++
      mkTok "(" [] (mkPos 1 6) :: [] ++ mkTok ")" [] (mkPos 1 7) :: mkTok "{" [] (mkPos 1 9) :: []) (EndEof (mkPos 1 10))).
  eapply unclosed_body_hangs; try reflexivity.
  - constructor. - constructor. - constructor. constructor. reflexivity.
  - apply (Form no_context (mkTok "word" (L "f") (mkPos 1 5)) [] 0 (mkTok "word" (L "f") (mkPos 1 5)) [] [] []); try reflexivity.
    + split; constructor. + discriminate. + constructor.
  - constructor. - constructor.
Qed.

(** ** Files *)
Section Text.
Context {U : Unicode}.
Lemma tokens_stuck text : forall t, c_end (tokenize (buf_new text)) = EndStuck t -> t_kind t = "error"%string.
Proof.
  intros t E. pose proof (tokenize_spec text) as Hs. rewrite E in Hs. apply lexes_stuck in Hs. apply Hs.
Qed.
Lemma tokenize_of text toks q : lexes [] text toks (EndEof q) -> tokenize (buf_new text) = mkCur toks (EndEof q).
Proof.
  intros H. destruct (lexes_tokenize _ _ _ _ H (S (List.length text))) as [E1 E2]; [lia|].
  rewrite position_after_nil in *. change (tokenize_aux (S (List.length text)) (mkBuf text (mkPos 1 1))) with (tokenize (buf_new text)) in *.
  destruct (tokenize (buf_new text)) as [l e]. cbn [c_toks c_end] in *. subst l. cbn in E2. destruct e; try discriminate. now injection E2 as <-.
Qed.
Lemma module_sound text ctx fuel m : parse_module fuel ctx (tokenize (buf_new text)) = PModule m ->
  exists toks q ms, lexes [] text toks (EndEof q) /\ module_of ctx toks ms /\ m = mkModule ms (get_exports ms).
Proof.
  intros H. pose proof (tokenize_spec text) as Hs. pose proof (tokens_stuck text) as Hw.
  destruct (tokenize (buf_new text)) as [l e]. cbn [c_toks c_end] in *.
  apply parse_module_sound in H as (ms & q & Em & Hm & ->); [|exact Hw]. exists l, q, ms. auto.
Qed.
Lemma text_exact text ctx m : (exists fuel, parse_module fuel ctx (tokenize (buf_new text)) = PModule m) <->
  exists toks q ms, lexes [] text toks (EndEof q) /\ module_of ctx toks ms /\ m = mkModule ms (get_exports ms).
Proof.
  split.
  - intros [f H]. eapply module_sound; eauto.
  - intros (toks & q & ms & Hl & Hm & ->). rewrite (tokenize_of _ _ _ Hl). apply module_exact. eauto.
Qed.

(** The pre-pass. *)
Lemma prepass_types w path fuel h text toks q ctx ms : preparse fuel w path = Ok h -> w_read w path = inl text ->
  lexes [] text toks (EndEof q) -> module_of ctx toks ms ->
  (forall pre suf, toks = pre ++ suf -> ~ function_array suf) ->
  forall a x, In a ms -> typedef_name a x -> In x (mi_typedefs h).
Proof.
  intros H Hr Hl Hm Hf a x Ha Hx. unfold preparse in H. rewrite Hr, (tokenize_of _ _ _ Hl) in H.
  destruct (preparse_loop fuel w path [] [] (mkCur toks (EndEof q))) as [[[im tn]|e|s|] c] eqn:E; try discriminate.
  injection H as <-. cbn [mi_typedefs]. eapply prepass_complete; eauto.
Qed.

(** Namespaces. *)
Lemma every_ref_impl (P Q : list str -> ref -> Prop) vis l : (forall v r, P v r -> Q v r) -> every_ref P vis l -> every_ref Q vis l.
Proof. intros H Hp. induction Hp; constructor; auto. Qed.
Lemma namespaces_found w fuel main heads mods i h m done : front w fuel main = BOk (heads, mods) ->
  nth_error heads i = Some h -> nth_error mods i = Some m -> List.length done = i ->
  every_ref (fun _ r => ns_ns (ref_name r) <> [] -> ns_ns (ref_name r) <> L "OS" ->
     find_ns (env_of m (mkParams h heads done mods)) (ns_ns (ref_name r)) <> None) [] (in_module (mod_elements m)).
Proof.
  intros Hf Hi Hm Hd. destruct (imports_available w _ _ _ _ _ _ _ _ Hf Hi Hm Hd) as (_ & Hns & _).
  destruct (front_ok w _ _ _ _ Hf) as [_ Hpm]. destruct (Forall2_nth _ _ _ _ _ _ _ _ Hpm Hi Hm) as (text & _ & Hp).
  destruct (module_sound _ _ _ _ Hp) as (toks & q & ms & _ & Hmo & ->). cbn [mod_elements].
  apply module_fine in Hmo. eapply every_ref_impl; [|apply Hmo].
  intros v r [E|[E|(rf & Hr & E)]] H1 H2; [contradiction|contradiction|]. apply Hns. rewrite <- E. now apply in_map.
Qed.
End Text.
