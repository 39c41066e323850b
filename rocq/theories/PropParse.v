(** Properties of the parser (C10, C11, C12, C13, C16, C45, C48, C55).
    Specification: SpecLex.v for the tokens of a file, SpecGrammar.v for the
    language, SpecSafe.v for the places of errors and aborts. *)
From Verif Require Import Base Buf Lexer Nodes Cursor Resolve Cspec Preparser Parser CAst Translator Build
  SpecLex SpecGrammar SpecScope SpecBuild SpecSafe ParseFacts PrepassFacts NamespaceFacts ProjectFacts TextFacts SafeText Samples.

Definition tokens_of (text : string) : list token := c_toks (@tokenize ascii_table (buf_new (lit text))).

(** ** C10 *)
(** On the tokens [ts] in front of something that cannot go on with an
    expression, the parser of expressions takes all of [ts], and nothing else,
    and returns [a] exactly if the grammar makes [a] of [ts]. *)
Theorem C10_expressions : forall ctx p ts r a, ends_expression r ->
  (exists fuel, parse_expr ctx fuel 0 (mkCur (ts ++ r) (EndEof p)) = (Ok a, mkCur r (EndEof p))) <-> expr_of ctx 0 ts a.
Proof. exact expr_exact. Qed.
(** Whatever the parser accepts and leaves over, it follows the grammar. *)
Theorem C10_sound : forall ctx p fuel l a r,
  parse_expr ctx fuel 0 (mkCur l (EndEof p)) = (Ok a, mkCur r (EndEof p)) -> exists ts, l = ts ++ r /\ expr_of ctx 0 ts a.
Proof. exact expr_sound. Qed.
(** The grammar makes at most one tree of a token sequence. *)
Theorem C10_unambiguous : forall ctx ts a b, expr_of ctx 0 ts a -> expr_of ctx 0 ts b -> a = b.
Proof. intros ctx ts a b. exact (expr_unique ctx (mkPos 1 1) ts a b). Qed.
Example C10_example : ends_expression (tokens_of ";") /\ exists p1 p2 p3 p4 a b c d,
  expr_of no_context 0 (tokens_of "-a + b * c[1] - (int) d")
    (EBinary p1 "-" (EBinary p2 "+" (EPrefix p3 "-" a) (EBinary p4 "*" b (EArrIndex c (ELit (LNumber (L "1")))))) (ECast (mkBtf (mkTn false (mkNs (mkPos 1 18) [] (L "int"))) 0) d)).
Proof.
  split.
  - intros [(n & i & ops & H & Hi & _)|Hi]; [|cbn in Hi; intuition discriminate]. unfold binary_levels in H.
    repeat (destruct i as [|i]; [injection H as <-; cbn in Hi; intuition discriminate|]). destruct i; discriminate.
  - do 8 eexists. apply (C10_expressions no_context (mkPos 1 1) _ []); [exact I|]. exists 100. vm_compute. reflexivity.
Qed.
Print Assumptions C10_expressions.
Print Assumptions C10_sound.
Print Assumptions C10_unambiguous.

(** ** C13 *)
(** A file is accepted, as the module [m], exactly if all of it consists of
    tokens (and blanks and comments) that together form a module by the grammar,
    with the elements of [m]. *)
Theorem C13_accepted_iff : forall (U : Unicode) text ctx m,
  (exists fuel, parse_module fuel ctx (tokenize (buf_new text)) = PModule m) <->
  exists toks p ms, lexes [] text toks (EndEof p) /\ module_of ctx toks ms /\ m = mkModule ms (get_exports ms).
Proof. exact @text_exact. Qed.
Theorem C13_unambiguous : forall ctx toks ms ms', module_of ctx toks ms -> module_of ctx toks ms' -> ms = ms'.
Proof. intros ctx toks ms ms'. exact (module_unique ctx (mkPos 1 1) toks ms ms'). Qed.
Example C13_example : exists toks p ms, @lexes ascii_table [] (lit lib_text) toks (EndEof p)
  /\ module_of (mkPctx (nth_head 0) [nth_head 0]) toks ms /\ List.length ms = 6.
Proof.
  destruct (proj1 (C13_accepted_iff ascii_table (lit lib_text) (mkPctx (nth_head 0) [nth_head 0]) (nth_mod 0))) as (toks & p & ms & H1 & H2 & H3).
  - exists sample_fuel. vm_compute. reflexivity.
  - exists toks, p, ms. split; [exact H1|]. split; [exact H2|].
    change ms with (mod_elements (mkModule ms (get_exports ms))). rewrite <- H3. reflexivity.
Qed.
Print Assumptions C13_accepted_iff.
Print Assumptions C13_unambiguous.
(** If the parser refuses a file, it gives at least one error, and each one is
    at a token of the file or at its end. *)
Theorem C13_errors_located : forall (U : Unicode) text toks p ctx fuel es, lexes [] text toks (EndEof p) ->
  parse_module fuel ctx (tokenize (buf_new text)) = PErrors es -> es <> [] /\ Forall (error_at toks p) es.
Proof. exact @errors_located. Qed.
(** The files that reach the parser have passed the pre-pass, so they do consist
    of tokens up to their end. *)
Theorem C13_prepass : forall (U : Unicode) fuel w path h text, preparse fuel w path = Ok h -> w_read w path = inl text ->
  exists toks p, lexes [] text toks (EndEof p).
Proof. exact @prepass_reads_all. Qed.
Example C13_errors_example : exists toks p es,
  @lexes ascii_table [] (lit "int f() { return 1 2; x = ; } int 3;") toks (EndEof p)
  /\ parse_module 3000 no_context (@tokenize ascii_table (buf_new (lit "int f() { return 1 2; x = ; } int 3;"))) = PErrors es
  /\ map e_pos es = [mkPos 1 20; mkPos 1 27; mkPos 1 35] /\ Forall (error_at toks p) es.
Proof.
  assert (H := @LexerRefine.tokenize_spec ascii_table (lit "int f() { return 1 2; x = ; } int 3;")).
  eassert (Ht : @tokenize ascii_table (buf_new (lit "int f() { return 1 2; x = ; } int 3;")) = _) by (vm_compute; reflexivity).
  eassert (Hp : parse_module 3000 no_context (@tokenize ascii_table (buf_new (lit "int f() { return 1 2; x = ; } int 3;"))) = PErrors _)
    by (vm_compute; reflexivity).
  rewrite Ht in H. cbn [c_toks c_end] in H. do 3 eexists. split; [exact H|]. split; [exact Hp|]. split; [reflexivity|].
  eapply (C13_errors_located ascii_table); eauto.
Qed.
Print Assumptions C13_errors_located.
Print Assumptions C13_prepass.

(** ** C16 *)
(** Behind any elements, a module variable with pub in front of it is refused:
    the parser stops with this one error, at the word pub, whatever follows. *)
Theorem C16_pub_variable_refused : forall ctx p ts l pb q v ts2, module_of ctx ts l -> is "pub" pb ->
  elem_of ctx q ts2 false (MVar v) -> forall r, exists F, forall fuel, F <= fuel ->
    parse_module fuel ctx (mkCur (ts ++ pb :: ts2 ++ r) (EndEof p))
    = PErrors [mkErr (L "module variables can't be exported") (t_pos pb)].
Proof. exact pub_variable_refused. Qed.
(** In the grammar no variable is pub. *)
Theorem C16_never_pub : forall ctx q ts pub v, elem_of ctx q ts pub (MVar v) -> pub = false.
Proof. intros ctx q ts pub v H. inversion H. reflexivity. Qed.
Example C16_example : exists v, module_of no_context (tokens_of "int a = 1;") [MVar v] /\
  parse_module 50 no_context (@tokenize ascii_table (buf_new (L "int a = 1; pub int b = 2; @")))
  = PErrors [mkErr (L "module variables can't be exported") (mkPos 1 12)].
Proof.
  eexists. split; [|vm_compute; reflexivity].
  eassert (H : exists fuel, parse_module fuel no_context (@tokenize ascii_table (buf_new (L "int a = 1;"))) = PModule _)
    by (exists 50; vm_compute; reflexivity).
  apply (C13_accepted_iff ascii_table) in H as (toks & p & ms & H1 & H2 & H3). injection H3 as <- _.
  replace (tokens_of "int a = 1;") with toks; [exact H2|].
  unfold tokens_of. now rewrite (tokenize_of _ _ _ H1).
Qed.
Print Assumptions C16_pub_variable_refused.
Print Assumptions C16_never_pub.

(** ** C55 *)
(** Behind any elements and in front of anything but a semicolon, an enum with
    and without a semicolon give the same module. *)
Theorem C55_enum_semicolon : forall ctx p ts l pb pub k lb es ens tc co rb s, module_of ctx ts l -> optional "pub" pb pub ->
  is "enum" k -> is "{" lb -> commas (enum_entry_of ctx) es ens -> optional "," tc co -> is "}" rb -> is ";" s ->
  forall r m, (forall t r', r = t :: r' -> ~ is ";" t) ->
  ((exists fuel, parse_module fuel ctx (mkCur (ts ++ pb ++ (k :: lb :: es ++ tc ++ [rb]) ++ r) (EndEof p)) = PModule m) <->
   (exists fuel, parse_module fuel ctx (mkCur (ts ++ pb ++ (k :: lb :: es ++ tc ++ [rb; s]) ++ r) (EndEof p)) = PModule m)).
Proof. exact enum_semicolon_text. Qed.
Example C55_example : exists e1 e2, (forall m,
  parse_module 50 no_context (@tokenize ascii_table (buf_new (L "enum { A, B = 2 } int x = A;"))) = PModule m ->
  map (fun e => match e with MEnum e => en_name (hd e1 (enum_entries e)) | _ => [] end) (mod_elements m) = [L "A"; []])
  /\ exists m, parse_module 50 no_context (@tokenize ascii_table (buf_new (L "enum { A, B = 2 }; int x = A;"))) = PModule m
     /\ nth_error (mod_elements m) 0 = Some (MEnum e2) /\ List.length (enum_entries e2) = 2.
Proof.
  exists (mkEntry [] None). eexists. split; [intros m H; vm_compute in H; injection H as <-; reflexivity|].
  eexists. split; [vm_compute; reflexivity|]. split; reflexivity.
Qed.
Print Assumptions C55_enum_semicolon.

(** ** C48 *)
(** If the pre-pass over a file succeeds and its tokens form a module, every type
    declared in it was found, unless a typedef has both parameters and an array
    size. *)
Theorem C48_types_found_partial : forall (U : Unicode) w path fuel h text toks p ctx ms,
  preparse fuel w path = Ok h -> w_read w path = inl text ->
  lexes [] text toks (EndEof p) -> module_of ctx toks ms ->
  (forall pre suf, toks = pre ++ suf -> ~ function_array suf) ->
  forall e x, In e ms -> typedef_name e x -> In x (mi_typedefs h).
Proof. exact @prepass_types. Qed.
Example C48_example : exists h m, @preparse ascii_table 600 sample_world (L "p/lib.c") = Ok h
  /\ parse_module 600 (mkPctx h [h]) (@tokenize ascii_table (buf_new (lit lib_text))) = PModule m
  /\ mi_typedefs h = [L "num_t"; L "vec_t"; L "vecp_t"]
  /\ exists e, In e (mod_elements m) /\ typedef_name e (L "vec_t").
Proof.
  eexists. eexists. split; [vm_compute; reflexivity|]. split; [vm_compute; reflexivity|]. split; [reflexivity|].
  eexists. split; [right; right; left; reflexivity|]. constructor.
Qed.
(** With both, the pre-pass takes the name of a parameter type. *)
Theorem C48_types_found_refuted : exists text h m e, let w := world_of [(L "p/a.c", lit text)] in
  @preparse ascii_table 100 w (L "p/a.c") = Ok h
  /\ parse_module 100 (mkPctx h [h]) (@tokenize ascii_table (buf_new (lit text))) = PModule m
  /\ In e (mod_elements m) /\ typedef_name e (L "table_t") /\ ~ In (L "table_t") (mi_typedefs h).
Proof.
  exists "typedef int table_t(char)[3];"%string. eexists. eexists. eexists. cbv zeta.
  split; [vm_compute; reflexivity|]. split; [vm_compute; reflexivity|]. split; [left; reflexivity|].
  split; [constructor|]. intros [H|[]]. discriminate H.
Qed.
Print Assumptions C48_types_found_partial.
Print Assumptions C48_types_found_refuted.

(** ** C45, second part *)
(** In every module of a project, every namespace other than OS is looked up with
    success by the translation. *)
Theorem C45_namespaces_found : forall (U : Unicode) w fuel main heads mods i h m done,
  front w fuel main = BOk (heads, mods) ->
  nth_error heads i = Some h -> nth_error mods i = Some m -> List.length done = i ->
  every_ref (fun _ r => ns_ns (ref_name r) <> [] -> ns_ns (ref_name r) <> L "OS" ->
     find_ns (env_of m (mkParams h heads done mods)) (ns_ns (ref_name r)) <> None) [] (in_module (mod_elements m)).
Proof. exact @namespaces_found. Qed.
Ltac find_ref := first [apply Refers_here | (apply Refers_inside; find_ref) | (apply Refers_after; find_ref)].
Example C45_namespaces_example : exists heads mods m r,
  @front ascii_table sample_world sample_fuel (L "p/main.c") = BOk (heads, mods) /\ nth_error mods 1 = Some m
  /\ refers r (in_module (mod_elements m)) /\ ns_ns (ref_name r) = L "lib".
Proof.
  eexists. eexists. eexists. exists (RName (mkNs (mkPos 8 13) (L "lib") (L "add"))).
  split; [vm_compute; reflexivity|]. split; [reflexivity|]. split; [|reflexivity].
  vm_compute. find_ref.
Qed.
Print Assumptions C45_namespaces_found.

(** ** C11 *)
(** The parser does not stop on a file that ends inside the body of a function:
    for every module, every function head and every statements. *)
Theorem C11_unclosed_body_refuted : forall ctx p ts l pb pub tt t tf fm lp ps pl v rp lb ss sl,
  module_of ctx ts l -> optional "pub" pb pub -> typename_of ctx tt t -> form_of ctx tf fm ->
  is "(" lp -> params_of ctx ps pl v -> is ")" rp -> is "{" lb -> stmts_of ctx ss sl ->
  forall fuel, parse_module fuel ctx (mkCur (ts ++ pb ++ tt ++ tf ++ lp :: ps ++ rp :: lb :: ss) (EndEof p)) = PNoFuel.
Proof. exact unclosed_body_hangs. Qed.
Theorem C11_terminates_refuted : exists text, forall fuel,
  parse_module fuel no_context (@tokenize ascii_table (buf_new (lit text))) = PNoFuel.
Proof. exact hang_text. Qed.
Print Assumptions C11_unclosed_body_refuted.
Print Assumptions C11_terminates_refuted.

(** Nowhere else: with an amount of fuel that is linear in the number of tokens
    the parser has stopped, unless it has come to the end of the file and goes
    on there. *)
Theorem C11_terminates_partial : forall (U : Unicode) text toks p ctx fuel, lexes [] text toks (EndEof p) ->
  64 * List.length toks + 2 <= fuel -> parse_module fuel ctx (tokenize (buf_new text)) = PNoFuel ->
  module_loop fuel ctx [] [] (mkCur toks (EndEof p)) = (NoFuel, mkCur [] (EndEof p)).
Proof. exact @hangs_where. Qed.
(** The pre-pass stops on every file without an unexpected character (on which
    the lexer stays for ever), whatever else is in it. *)
Theorem C11_prepass_terminates_partial : forall (U : Unicode) fuel w path text toks e,
  w_read w path = inl text -> lexes [] text toks e -> (forall t, e <> EndStuck t) ->
  2 * List.length toks + 2 <= fuel -> preparse fuel w path <> NoFuel.
Proof. intros U fuel w path text toks e Hr Hl He. exact (proj1 (@prepass_outcome U fuel w path text toks e Hr Hl He)). Qed.
(** With one it need not stop. *)
Theorem C11_prepass_refuted : exists text, forall fuel home,
  @preparse ascii_table fuel (mkWorld home (fun _ => false) (fun _ => inl (lit text))) (L "a.c") = NoFuel.
Proof. exact stuck_prepass. Qed.
Example C11_example : exists toks p, @lexes ascii_table [] (lit "int f() { x = ; if (1) { ") toks (EndEof p)
  /\ parse_module 1000 no_context (@tokenize ascii_table (buf_new (lit "int f() { x = ; if (1) { "))) = PNoFuel
  /\ 64 * List.length toks + 2 <= 1000.
Proof.
  assert (H := @LexerRefine.tokenize_spec ascii_table (lit "int f() { x = ; if (1) { ")).
  eassert (Ht : @tokenize ascii_table (buf_new (lit "int f() { x = ; if (1) { ")) = _) by (vm_compute; reflexivity).
  rewrite Ht in H. cbn [c_toks c_end] in H. do 2 eexists. split; [exact H|]. rewrite Ht. split; [vm_compute; reflexivity|].
  cbn. lia.
Qed.
Print Assumptions C11_terminates_partial.
Print Assumptions C11_prepass_terminates_partial.
Print Assumptions C11_prepass_refuted.

(** ** C12 *)
(** The parser does abort: at the end of the file, at an operator that is no
    binary one, and so on. *)
Theorem C12_no_abort_refuted : Forall (fun text => exists why, forall fuel, 300 <= fuel ->
  parse_module fuel no_context (@tokenize ascii_table (buf_new (lit text))) = PAbort why)
  ["int x"; "int x = 1 ~ 2;"; "int x = sizeof(int)++;"; "typedef int x[0x10];"]%string.
Proof. exact parser_aborts. Qed.
(** But only there ([culprit] in SpecSafe.v lists the four situations). *)
Theorem C12_aborts_where_partial : forall (U : Unicode) text toks p ctx fuel why, lexes [] text toks (EndEof p) ->
  parse_module fuel ctx (tokenize (buf_new text)) = PAbort why -> exists pre r, toks = pre ++ r /\ culprit pre r.
Proof. exact @aborts_where. Qed.
(** The same for the pre-pass. *)
Theorem C12_prepass_refuted : Forall (fun text => exists why, forall fuel home, 300 <= fuel ->
  @preparse ascii_table fuel (mkWorld home (fun _ => false) (fun _ => inl (lit text))) (L "a.c") = Abort why)
  ["typedef {"; "typedef { int x; };"; "#type"]%string.
Proof. exact prepass_aborts. Qed.
Theorem C12_prepass_where_partial : forall (U : Unicode) fuel w path text toks p why,
  w_read w path = inl text -> lexes [] text toks (EndEof p) ->
  preparse fuel w path = Abort why -> exists pre r, toks = pre ++ r /\ prepass_culprit path pre r.
Proof. exact @prepass_aborts_where. Qed.
Print Assumptions C12_no_abort_refuted.
Print Assumptions C12_aborts_where_partial.
Print Assumptions C12_prepass_refuted.
Print Assumptions C12_prepass_where_partial.
