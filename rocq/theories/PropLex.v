(** Properties of the lexer (C01-C09).  Specification: SpecLex.v, LexOps.v. *)
From Verif Require Import Base Buf Lexer Nodes Cursor LexOps SpecLex LexFacts TokenFacts LexerRefine GapFacts.

(** A Unicode table for the examples. *)
Definition ascii_only : Unicode := {| uni_alnum := fun _ => false |}.

(** C01: every token the lexer hands out carries the position of its first
    character (of the offending character for a malformed number). *)
Theorem C01_token_positions : forall (U : Unicode) text n t,
  In (ATok (Some t)) (fst (gets text n)) ->
  exists before spelling after,
    text = before ++ spelling ++ after /\
    lexeme (t_kind t) (t_content t) spelling after /\
    t_kind t <> "comment"%string /\
    t_pos t = position_after (before ++ reported_after (t_kind t) (t_content t) spelling).
Proof. exact @gets_lexeme. Qed.
Example C01_example : In (ATok (Some (mkTok "word" (L "b") (mkPos 2 3)))) (fst (@gets ascii_only ([97; 10; 32; 32; 98]%N) 2)).
Proof. vm_compute. tauto. Qed.
Print Assumptions C01_token_positions.

(** C02: the file is exactly the spellings of the tokens handed out, separated
    by blanks and comments: nothing is lost, duplicated or invented. *)
Theorem C02_lossless : forall (U : Unicode) text, exists toks e,
  lexes [] text toks e /\ forall n, gets text n = reads toks e n.
Proof.
  exact (fun U text => ex_intro _ _ (ex_intro _ _ (conj (@tokenize_spec U text) (@gets_tokenize U text)))).
Qed.
Print Assumptions C02_lossless.
(** ... and that reading of the file is the only one. *)
Theorem C02_unambiguous : forall (U : Unicode) text toks e,
  lexes [] text toks e -> exists e', same_end e e' /\ forall n, gets text n = reads toks e' n.
Proof. exact @lexes_gets. Qed.
Example C02_example : exists toks e, @lexes ascii_only [] (L "f(12) // x") toks e /\ List.length toks = 4.
Proof.
  exists (c_toks (@tokenize ascii_only (buf_new (L "f(12) // x")))), (c_end (@tokenize ascii_only (buf_new (L "f(12) // x")))).
  split; [exact (@tokenize_spec ascii_only _)|vm_compute; reflexivity].
Qed.
Print Assumptions C02_unambiguous.

(** C03: an operator token is the longest operator that starts there. *)
Theorem C03_longest_operator : forall (U : Unicode) text n t,
  In (ATok (Some t)) (fst (gets text n)) -> In (t_kind t) operators ->
  exists before after,
    text = before ++ lit (t_kind t) ++ after /\ t_pos t = position_after before /\
    forall op, In op operators -> begins (lit (t_kind t) ++ after) (lit op) ->
               List.length (lit op) <= List.length (lit (t_kind t)).
Proof. exact @gets_operator. Qed.
Example C03_example : In (ATok (Some (mkTok "<<=" [] (mkPos 1 2)))) (fst (@gets ascii_only (L "a<<=b") 2)).
Proof. vm_compute. tauto. Qed.
Print Assumptions C03_longest_operator.

(** C04: words are maximal runs, and keywords are exactly the reserved runs. *)
Theorem C04_words_and_keywords : forall (U : Unicode) text n t,
  In (ATok (Some t)) (fst (gets text n)) ->
  t_kind t = "word"%string \/ In (t_kind t) reserved ->
  exists before run after, text = before ++ run ++ after /\ t_pos t = position_after before /\
  ((t_kind t = "word"%string /\ run = L "calloc!" /\ t_content t = L "calloc!") \/
   (exists c w, run = c :: w /\ word_start c = true /\ all word_char w /\ stops word_char after
     /\ (In run (map lit reserved) -> lit (t_kind t) = run /\ t_content t = [] /\ In (t_kind t) reserved)
     /\ (~ In run (map lit reserved) -> t_kind t = "word"%string /\ t_content t = run))).
Proof. exact @gets_word. Qed.
Example C04_example : fst (@gets ascii_only (L "iff if") 2)
  = [ATok (Some (mkTok "word" (L "iff") (mkPos 1 1))); ATok (Some (mkTok "if" [] (mkPos 1 5)))].
Proof. vm_compute. reflexivity. Qed.
Print Assumptions C04_words_and_keywords.

(** C05: two files spelled by the same tokens give the parser the same tokens,
    whatever blanks and comments separate them. *)
Theorem C05_gaps_do_not_matter : forall (U : Unicode) u1 g1 u2 g2 ts n,
  spells u1 g1 ts -> gap g1 [] -> spells u2 g2 ts -> gap g2 [] ->
  shapes (gets (u1 ++ g1) n) = shapes (gets (u2 ++ g2) n).
Proof. exact @same_tokens. Qed.
Print Assumptions C05_gaps_do_not_matter.
(** Replacing the blanks and comments between two tokens by any others, in any
    file, changes nothing but positions. *)
Theorem C05_replace_gap : forall (U : Unicode) u g1 g2 v ts n,
  spells u (g1 ++ v) ts -> gap g1 v -> gap g2 v -> kept_apart ts g1 -> kept_apart ts g2 ->
  shapes (gets (u ++ g1 ++ v) n) = shapes (gets (u ++ g2 ++ v) n).
Proof. exact @replace_gap. Qed.
Example C05_example : exists u g1 g2 v ts, @spells ascii_only u (g1 ++ v) ts /\ @gap ascii_only g1 v
  /\ @gap ascii_only g2 v /\ kept_apart ts g1 /\ kept_apart ts g2 /\ ts <> [] /\ g1 <> g2.
Proof.
  exists (L "x"), (L " "), (L " /*c*/"), (L "+y"), [("word"%string, L "x")].
  split.
  { apply (@Sp_cons ascii_only [] "word" (L "x") (L "x") [] (L " +y") []).
    - apply Gap_blank. constructor.
    - apply Lx_word; [reflexivity|constructor|reflexivity|vm_compute; intuition discriminate|intros [E _]; discriminate].
    - discriminate.
    - discriminate.
    - constructor. }
  split; [apply Gap_blank; repeat constructor|].
  split.
  { apply (@Gap_comment ascii_only (L " ") (L "c") (L "/*c*/") [] (L "+y")).
    - repeat constructor.
    - apply (@Lx_block_comment ascii_only (L "c")). intros [|x [|y a]] b E; cbn in E; try discriminate.
      injection E as _ _ E. destruct a; discriminate.
    - constructor. constructor. }
  split; [|split; [|split; discriminate]].
  - cbn. repeat split; [discriminate|intros [E|E]; discriminate].
  - cbn. repeat split; [discriminate|intros [E|E]; discriminate].
Qed.
Print Assumptions C05_replace_gap.
(** Not so between two string literals: a comment keeps them apart, a blank
    joins them. *)
Theorem C05_adjacent_strings_refuted : exists a g1 g2 b, forall (U : Unicode),
  gap g1 b /\ gap g2 b /\ g1 <> [] /\ g2 <> [] /\
  map forget_pos (fst (gets (a ++ g1 ++ b) 3)) <> map forget_pos (fst (gets (a ++ g2 ++ b) 3)).
Proof.
  exists (quoted (L "a")), (L " "), (L "/**/"), (quoted (L "b")). intros U.
  split; [apply Gap_blank; repeat constructor|]. split.
  { apply (@Gap_comment U [] [] (L "/**/") [] (quoted (L "b"))).
    - constructor.
    - apply (@Lx_block_comment U []). intros [|x a] b E; cbn in E; [discriminate|].
      injection E as _ E. destruct a; discriminate.
    - constructor. constructor. }
  split; [discriminate|]. split; [discriminate|]. vm_compute. discriminate.
Qed.
Print Assumptions C05_adjacent_strings_refuted.

(** C06: string literal pieces are joined, their insides untouched. *)
Theorem C06_strings_joined : forall (U : Unicode) ws c s post,
  all blank ws -> pieces c s -> s <> [] -> stops blank post -> stops (N.eqb 34) post ->
  gets (ws ++ s ++ post) 1 = ([ATok (Some (mkTok "string" c (position_after ws)))], false).
Proof. exact @string_read. Qed.
Print Assumptions C06_strings_joined.
Theorem C06_strings_only : forall (U : Unicode) text n t,
  In (ATok (Some t)) (fst (gets text n)) -> t_kind t = "string"%string ->
  exists before spelling after, text = before ++ spelling ++ after /\ t_pos t = position_after before /\
    pieces (t_content t) spelling /\ spelling <> [] /\ stops blank after /\ stops (N.eqb 34) after.
Proof. exact @gets_string. Qed.
Print Assumptions C06_strings_only.
Theorem C06_unterminated : forall (U : Unicode) ws c s b,
  all blank ws -> pieces c s -> escaped b ->
  gets (ws ++ s ++ 34%N :: b) 1
  = ([ATok (Some (mkTok "error" (L "Double quote expected") (position_after ws)))], false).
Proof. exact @open_string_read. Qed.
Example C06_example : exists s, pieces (L "a\""bc") s /\ s = quoted (L "a\""b") ++ [10%N] ++ quoted (L "c") ++ [] ++ [].
Proof.
  eexists. split; [|reflexivity].
  apply (Pieces_cons (L "a\""b") [10%N] (L "c") (quoted (L "c") ++ [] ++ [])).
  - apply Esc_char; [discriminate..|]. apply Esc_pair. apply Esc_char; [discriminate..|]. apply Esc_nil.
  - repeat constructor.
  - reflexivity.
  - apply (Pieces_cons (L "c") [] [] []); [apply Esc_char; [discriminate..|]|constructor|exact I|]; constructor.
Qed.
Print Assumptions C06_unterminated.

(** C07: for every history of lookahead, reads and push-backs the lexer answers
    as if it held the file's fixed token sequence. *)
Theorem C07_lookahead_is_pure : forall (U : Unicode) text, exists toks e,
  lexes [] text toks e /\ forall ops, lazy_run ops (lx_new text) = cursor_run ops (mkCur toks e).
Proof. exact @history_spec. Qed.
Example C07_example : fst (@lazy_run ascii_only [OPeekn 2; OFollows "word"; OEat "word"; OGet; OMore] (lx_new (L "a+")))
  = [AToks (Some [mkTok "word" (L "a") (mkPos 1 1); mkTok "+" [] (mkPos 1 2)]); ABool true; ABool true;
     ATok (Some (mkTok "+" [] (mkPos 1 2))); ABool false].
Proof. vm_compute. reflexivity. Qed.
Print Assumptions C07_lookahead_is_pure.

(** C08: every token but the unexpected-character error consumes text, so a file
    has at most as many tokens as characters; that error repeats forever. *)
Theorem C08_tokens_consume : forall (U : Unicode) text n t,
  In (ATok (Some t)) (fst (gets text n)) -> ~ unexpected t ->
  exists before spelling after, text = before ++ spelling ++ after /\ spelling <> [] /\
    lexeme (t_kind t) (t_content t) spelling after.
Proof. exact @token_consumes. Qed.
Print Assumptions C08_tokens_consume.
Theorem C08_bounded : forall (U : Unicode) text, exists toks e,
  List.length toks <= List.length text /\ (forall t, e = EndStuck t -> unexpected t) /\
  forall n, gets text n = reads toks e n.
Proof. exact @gets_progress. Qed.
Example C08_example : @gets ascii_only (L "a @") 4 =
  let e := ATok (Some (mkTok "error" (message_unexpected 64%N) (mkPos 1 3))) in
  ([ATok (Some (mkTok "word" (L "a") (mkPos 1 1))); e; e; e], false).
Proof. vm_compute. reflexivity. Qed.
Print Assumptions C08_bounded.

(** C09: the lexer does abort, on exactly these files. *)
Theorem C09_no_abort_refuted : exists text, forall (U : Unicode), exists n, snd (gets text n) = true.
Proof. exists (34 :: [92])%N. intros U. exists 1. vm_compute. reflexivity. Qed.
Print Assumptions C09_no_abort_refuted.
Theorem C09_aborts_exactly_partial : forall (U : Unicode) text,
  (exists n, snd (gets text n) = true) <-> (exists toks why, lexes [] text toks (EndPanic why)).
Proof. exact @gets_abort. Qed.
Example C09_example : exists text, forall (U : Unicode), exists toks why, lexes [] text toks (EndPanic why).
Proof.
  exists [39%N; 97%N]. intros U. exists [], ""%string.
  apply (@Lex_abort U [] [] [39%N; 97%N]); constructor. constructor.
Qed.
Print Assumptions C09_aborts_exactly_partial.
