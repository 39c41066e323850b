(** What the parser reports of a file with broken statements (C73).
    Specification: SpecFault.v for the files, SpecLex.v for their tokens. *)
From Verif Require Import Base Buf Lexer Nodes Cursor Resolve Cspec Preparser Parser SpecLex SpecGrammar SpecSafe FuelFacts ParseFacts
  TextFacts SafeText GrammarSound SpecFault FaultFacts Samples PropParse.

(** ** C73 *)
(** The parser reports exactly one error for every broken statement, in the order
    of the file, each at the first wrong token of its statement.  Missing in
    [faulty_module]: statements in which an operand is missing at a semicolon, a
    closing brace or inside a parenthesis, heads of if, while, for and switch,
    composite literals, and what is outside of the functions.  The claim is false
    for some of them, see below. *)
Theorem C73_one_error_each_partial : forall (U : Unicode) text toks p ctx q l, lexes [] text toks (EndEof p) ->
  faulty_module ctx toks (q :: l) ->
  exists F, forall fuel, F <= fuel -> exists es, parse_module fuel ctx (tokenize (buf_new text)) = PErrors es /\ map e_pos es = q :: l.
Proof. intros U text toks p ctx q l Hl H. rewrite (tokenize_of _ _ _ Hl). now apply parse_faulty. Qed.

Definition faulty_text : string := "int f(int a) { a = a + ); if (a) { f(1, ]); } return a[2 } int g() { break 1; return 2; }".
Definition faulty_tokens : list token := Eval vm_compute in tokens_of faulty_text.
Definition tk (i : nat) : token := nth i faulty_tokens (mkTok "" [] (mkPos 0 0)).
Definition seg (i n : nat) : list token := firstn n (skipn i faulty_tokens).
Lemma expr_seg ts a : parse_expr no_context 100 0 (mkCur ts (EndEof (mkPos 1 1))) = (Ok a, mkCur [] (EndEof (mkPos 1 1))) -> expr_of no_context 0 ts a.
Proof. intros H. apply (C10_expressions no_context (mkPos 1 1) ts [] a); [exact I|]. exists 100. now rewrite app_nil_r. Qed.
Lemma up k n ts a : k + n <= 14 -> expr_of no_context (k + n) ts a -> expr_of no_context n ts a.
Proof. revert n. induction k as [|k IH]; intros n Hn H; [exact H|]. apply E_up; [lia|]. apply IH; [lia|]. now rewrite Nat.add_succ_r. Qed.
Lemma sup k n ts t : k + n <= 14 -> stuck no_context (k + n) ts t -> stuck no_context n ts t.
Proof. revert n. induction k as [|k IH]; intros n Hn H; [exact H|]. apply Stuck_up; [lia|]. apply IH; [lia|]. now rewrite Nat.add_succ_r. Qed.
Ltac bin i := exists i; eexists; split; [reflexivity|]; split; [cbn; tauto|reflexivity].
Ltac word i := apply (E_name no_context (seg i 1)); apply (Name_plain no_context (tk i)); reflexivity.
Ltac notype := let r := fresh in let H := fresh in intros r H; inversion H; subst;
  match goal with Hd : is "." _ |- _ => vm_compute in Hd; discriminate | Hd : is "const" _ |- _ => vm_compute in Hd; discriminate
    | Hd : type_name _ _ |- _ => apply is_type_name in Hd; vm_compute in Hd; discriminate end.
Ltac no_op := split; [split; intros Hk; vm_compute in Hk; discriminate|intros Hk; vm_compute in Hk; intuition discriminate].
Ltac printable := intros [Hk _]; vm_compute in Hk; lia.
Ltac interrupt := split; [|printable]; intros [(n0 & i0 & ops & H0 & Hi0 & _)|Hi0]; [|vm_compute in Hi0; intuition discriminate];
  unfold binary_levels in H0; repeat (destruct i0 as [|i0]; [injection H0 as <-; vm_compute in Hi0; intuition discriminate|]); destruct i0; discriminate.

Example C73_example : exists toks p, @lexes ascii_table [] (lit faulty_text) toks (EndEof p)
  /\ faulty_module no_context toks [mkPos 1 24; mkPos 1 41; mkPos 1 58; mkPos 1 76].
Proof.
  assert (H := @LexerRefine.tokenize_spec ascii_table (lit faulty_text)).
  eassert (Ht : @tokenize ascii_table (buf_new (lit faulty_text)) = mkCur faulty_tokens (EndEof _)) by (vm_compute; reflexivity).
  rewrite Ht in H. cbn [c_toks c_end] in H. do 2 eexists. split; [exact H|]. clear H Ht.
  eassert (Hp : params_of no_context (seg 3 2) _ false).
  { apply Params_last. change (seg 3 2) with (seg 3 1 ++ seg 4 1). eapply Group.
    - apply (Start_name _ (tk 3)); [reflexivity|]. apply is_type_name. reflexivity.
    - apply Typename_plain. apply (Name_plain _ (tk 3)). reflexivity.
    - apply Names_one. apply (Form no_context (tk 4) [] 0 (tk 4) [] [] []); try reflexivity; [split; auto|discriminate|constructor]. }
  change faulty_tokens with ([] ++ seg 0 1 ++ seg 1 1 ++ tk 2 :: seg 3 2 ++ tk 5 :: (tk 6 :: seg 7 23 ++ [tk 30]) ++ seg 31 12).
  apply (Faulty_function no_context [] false (seg 0 1) _ (seg 1 1) _ (tk 2) (seg 3 2) _ _ (tk 5) _ [mkPos 1 24; mkPos 1 41; mkPos 1 58] false (seg 31 12) [mkPos 1 76]
    (Optional_no "pub") (Typename_plain no_context _ _ (Name_plain no_context (tk 0) eq_refl))
    (Form no_context (tk 1) [] 0 (tk 1) [] [] [] (conj (Forall_nil _) eq_refl) eq_refl ltac:(discriminate) (Many_nil _) eq_refl)
    eq_refl Hp eq_refl).
  - apply Faulty_body. apply Faulty_braces; [reflexivity| |reflexivity].
    change (seg 7 23) with (seg 7 4 ++ tk 11 :: [] ++ tk 12 :: seg 13 17).
    apply Faults_broken; [|split; intros Hk; vm_compute in Hk; discriminate|constructor|reflexivity|].
    { apply Begun_stuck; [discriminate| |notype]. apply (sup 2 0); [lia|].
      change (seg 7 4) with (seg 7 1 ++ tk 8 :: seg 9 2). eapply Stuck_binary; [bin 0|apply (up 12 2); [lia|]; word 7|].
      apply (sup 8 3); [lia|]. change (seg 9 2) with (seg 9 1 ++ tk 10 :: []). eapply Stuck_binary; [bin 9|apply (up 3 11); [lia|]; word 9|].
      apply Stuck_operand; [lia|no_op]. }
    change (seg 13 17) with (seg 13 13 ++ seg 26 4). change [mkPos 1 41; mkPos 1 58] with ([mkPos 1 41] ++ [mkPos 1 58]).
    apply (Faults_stmt _ _ _ _ true).
    { change (seg 13 13) with (tk 13 :: tk 14 :: seg 15 1 ++ tk 16 :: (tk 17 :: seg 18 7 ++ [tk 25])).
      eapply Faulty_if; [reflexivity|reflexivity|apply (up 14 0); [lia|]; word 15|reflexivity|].
      apply Faulty_body. apply Faulty_braces; [reflexivity| |reflexivity].
      change (seg 18 7) with (seg 18 4 ++ tk 22 :: seg 23 1 ++ tk 24 :: []).
      apply Faults_broken; [|split; intros Hk; vm_compute in Hk; discriminate|repeat constructor; intros Hk; vm_compute in Hk; discriminate|reflexivity|constructor].
      apply Begun_stuck; [discriminate| |notype]. apply (sup 14 0); [lia|]. change (seg 18 4) with (seg 18 1 ++ tk 19 :: seg 20 2).
      eapply Stuck_call; [word 18|reflexivity|]. change (seg 20 2) with (seg 20 1 ++ tk 21 :: []). eapply Stuck_next; [|reflexivity|apply Stuck_operand; [lia|no_op]].
      apply Args_one. apply expr_seg. vm_compute. reflexivity. }
    { intros _ t r E. injection E as <- _. intros Hk. vm_compute in Hk. discriminate. }
    apply (Faults_open no_context (tk 30)). change (seg 26 4) with (tk 26 :: seg 27 3). apply Begun_return; [reflexivity|].
    apply (sup 14 0); [lia|]. change (seg 27 3) with (seg 27 1 ++ tk 28 :: seg 29 1). eapply Stuck_index_end; [word 27|reflexivity| |interrupt|].
    + apply expr_seg. vm_compute. reflexivity.
    + intros Hk. vm_compute in Hk. discriminate.
  - change (seg 31 12) with ([] ++ seg 31 1 ++ seg 32 1 ++ tk 33 :: [] ++ tk 34 :: (tk 35 :: seg 36 6 ++ [tk 42]) ++ []).
    change [mkPos 1 76] with ([mkPos 1 76] ++ []).
    apply (Faulty_function no_context [] false (seg 31 1) _ (seg 32 1) _ (tk 33) [] _ _ (tk 34) _ _ false [] []
      (Optional_no "pub") (Typename_plain no_context _ _ (Name_plain no_context (tk 31) eq_refl))
      (Form no_context (tk 32) [] 0 (tk 32) [] [] [] (conj (Forall_nil _) eq_refl) eq_refl ltac:(discriminate) (Many_nil _) eq_refl)
      eq_refl (Params_none no_context) eq_refl); [|constructor].
    apply Faulty_body. apply Faulty_braces; [reflexivity| |reflexivity].
    change (seg 36 6) with ([tk 36] ++ tk 37 :: [] ++ tk 38 :: seg 39 3 ++ []).
    apply Faults_broken; [|split; intros Hk; vm_compute in Hk; discriminate|constructor|reflexivity|].
    { apply Begun_jump; [now left| |printable]. intros Hk. vm_compute in Hk. discriminate. }
    change (@nil pos) with (@nil pos ++ []). apply (Faults_stmt _ _ _ _ false); [|discriminate|constructor].
    eapply Faulty_not. change (seg 39 3) with (tk 39 :: seg 40 1 ++ [tk 41]). eapply S_return_value; [reflexivity| |reflexivity].
    apply expr_seg. vm_compute. reflexivity.
Qed.
(** The four errors of that text. *)
Example C73_example_errors : exists es, parse_module 1000 no_context (@tokenize ascii_table (buf_new (lit faulty_text))) = PErrors es
  /\ map e_pos es = [mkPos 1 24; mkPos 1 41; mkPos 1 58; mkPos 1 76].
Proof. eexists. split; [vm_compute; reflexivity|reflexivity]. Qed.
(** In general it is false.  Beside each text stand the places of the first wrong
    token of each broken statement, and the places that are reported:
    - an operand is missing at a semicolon: the parser takes the semicolon for the
      operand and skips the next statement with it;
    - an operand is missing at the closing brace: the brace is gone, the next
      function ends this one, and its errors are not reported;
    - an operand is missing inside a parenthesis: what stands behind the wrong token
      is reported in its place;
    - a declaration is broken: nothing behind it is read. *)
Theorem C73_one_error_each_refuted : Forall (fun '(text, wrong, reported) => wrong <> reported /\ forall fuel, 300 <= fuel -> exists es,
    parse_module fuel no_context (@tokenize ascii_table (buf_new (lit text))) = PErrors es /\ map e_pos es = reported)
  [("int f() { x = ; y y; return 1; }"%string, [mkPos 1 15; mkPos 1 19], [mkPos 1 15]);
   ("int f() { x = } int g() { y y; }"%string, [mkPos 1 15; mkPos 1 29], [mkPos 1 15]);
   ("int f() { x = (1 + ] 2); return 1; }"%string, [mkPos 1 20], [mkPos 1 22]);
   ("int f(]) { return 1; } int g() { y y; }"%string, [mkPos 1 7; mkPos 1 36], [mkPos 1 7])].
Proof.
  repeat (apply Forall_cons; [split; [discriminate|]; intros fuel Hf; rewrite (parse_module_stable no_context _ 300 fuel Hf) by (vm_compute; discriminate);
    eexists; split; [vm_compute; reflexivity|reflexivity]|]). constructor.
Qed.
Print Assumptions C73_one_error_each_partial.
Print Assumptions C73_one_error_each_refuted.
