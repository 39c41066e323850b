(** Properties of the commands (C49, C51-C53, C60-C64).  Specification:
    SpecMain.v.  The system around the process is arbitrary: whether files can be
    written, what the C compiler and the programs do, after every history. *)
From Verif Require Import Base Buf Lexer Nodes Resolve Cursor Preparser Parser CAst FormatChe FormatC Translator Build Mains.
From Verif Require Import SpecBuild SpecExports SpecMain MainFacts PathFacts Samples PropBuild.

(** A system where everything works, and the tests named in [ls] give [run]. *)
Definition good_system (ls : str -> option (list (str * bool))) (run : history -> bool) : system :=
  mkSystem (fun s => L "hash-" ++ s) false true (fun _ _ => false) (fun _ _ => true) (fun _ _ _ => true)
    (fun _ _ => Some ([Some (L "note: all is well")], true)) (fun _ _ _ => inr (Exit 7))
    (fun h => Some (Some (L "done"), Some [], run h)) (fun _ d => ls d).
Definition one_dir : str -> option (list (str * bool)) :=
  fun d => if str_eqb d (L "p") then Some [(L "p/a.test.c", false); (L "p/readme", false); (L "p/sub", true)]
           else if str_eqb d (L "p/sub") then Some [(L "p/sub/b.test.c", false)] else None.
Definition two_tests : world := files_of [("p/a.test.c", "int main() { return 0; }");
  ("p/sub/b.test.c", "int main() { return 1; }"); ("p/bad.c", "int main() { return x; }")]%string.
(** The second test fails. *)
Definition second_fails (h : history) : bool :=
  negb (existsb (fun e => match e with RunTest _ => true | _ => false end) h).

(** ** C49 *)
(** Every run of the C compiler by che build and che install gets the options,
    the generated files of all modules, the output, and -l for the first
    occurrence of every text among m and the #link hints of the modules. *)
Theorem C49_command_line_partial : forall (U : Unicode) w sys fuel args src out code h,
  makes w sys args src out -> che w sys fuel args = (Exit code, h) ->
  forall ccargs ok, In (RunCC ccargs ok) h ->
  exists pr, parse_project w fuel src = BOk pr /\ cc_args w sys pr out ccargs.
Proof.
  intros U w sys fuel args src out code h Hm E ccargs ok Hin.
  destruct (parse_project w fuel src) as [pr | errors | why |] eqn:Ep.
  - exists pr. split; [reflexivity |]. destruct (made_by w sys fuel _ _ _ _ Hm Ep) as (r & t & E' & Hb).
    rewrite E' in E. assert (Et : t = h) by congruence. subst t.
    destruct Hb as [((why & ->) & _) | (a & lines & ok' & made & -> & (made' & a' & D & Ha & Et) & _)]; [discriminate E |].
    assert (I : In (RunCC ccargs ok) (touched h)) by (apply filter_In; auto).
    rewrite Et, !in_app_iff in I. destruct I as [I | [I | [I | []]]].
    + destruct D as [-> | ->]; [destruct I | destruct I as [I | []]; discriminate I].
    + exfalso. unfold files_written in I. apply in_map_iff in I. destruct I as ([x y] & W & _). discriminate W.
    + injection I as -> ->. exact Ha.
  - exfalso. destruct (refused w sys fuel args src errors (About_makes _ _ _ _ _ Hm) Ep) as (r & t & E' & _ & Hh & _).
    rewrite E' in E. assert (t = h) by congruence. subst t. rewrite forallb_forall in Hh. specialize (Hh _ Hin). discriminate Hh.
  - exfalso. destruct (makes_command w sys fuel _ _ _ Hm) as (cmd & argv & -> & Ec). unfold che, main_ in E. rewrite Ec in E.
    unfold build_and_count, ibind at 1 in E.
    destruct (build_prog_does w sys fuel src out []) as (r & t & E' & [(e & W & _) | [(pr & made & a & l & o & W & _) | [((y & ->) & _) | [(y & _ & -> & _) | (W & _)]]]]);
      try congruence; rewrite E' in E; discriminate E.
  - exfalso. destruct (makes_command w sys fuel _ _ _ Hm) as (cmd & argv & -> & Ec). unfold che, main_ in E. rewrite Ec in E.
    unfold build_and_count, ibind at 1 in E.
    destruct (build_prog_does w sys fuel src out []) as (r & t & E' & [(e & W & _) | [(pr & made & a & l & o & W & _) | [((y & ->) & _) | [(y & W & _) | (_ & -> & _)]]]]);
      try congruence; rewrite E' in E; discriminate E.
Qed.
Definition link_files : list (string * string) :=
  [("p/a.c", "#link pthread
#link z
pub int one() { return 1; }"); ("p/main.c", "#import a.c
#link z
int main() { return a.one(); }")]%string.
Example C49_example : makes (files_of link_files) (good_system one_dir (fun _ => true)) [L "build"; L "p/main.c"] (L "p/main.c") (L "main")
  /\ (exists pr, build_of link_files = BOk pr /\ map trim (link_list pr) = [L "m"; L "pthread"; L "z"])
  /\ exists h, @che ascii_table (files_of link_files) (good_system one_dir (fun _ => true)) sample_fuel [L "build"; L "p/main.c"] = (Exit 0, h)
     /\ In (RunCC (c99_flags false ++ [L "home/tmp/hash-p/a.c.c"; L "home/tmp/hash-p/main.c.c"; L "-o"; L "main"; L "-l"; L "m"; L "-l"; L "pthread"; L "-l"; L "z"]) true) h.
Proof.
  split; [apply Makes_build_here; split; [discriminate |]; split; [discriminate |]; split; [discriminate |]; exists (L "main.c"); split;
    [split; [cbn; intuition discriminate | right; exists (L "p"); reflexivity] | left; exists (L "c"); split; [reflexivity | cbn; intuition discriminate]] |].
  split; [eexists; split; vm_compute; reflexivity |]. eexists. split; [vm_compute; reflexivity |]. vm_compute. tauto.
Qed.
(** The texts are compared before they are trimmed, so that m is given twice
    after #link m. *)
Theorem C49_twice_refuted : exists pr, build_of [("p/main.c", "#link m
int main() { return 1; }")]%string = BOk pr
  /\ map trim (link_list pr) = [L "m"; L "m"].
Proof. eexists. split; vm_compute; reflexivity. Qed.
Print Assumptions C49_command_line_partial.
Print Assumptions C49_twice_refuted.

(** ** C51 *)
(** When che test comes to an end, it found the files that end with .test.c below
    its arguments, tested each of them, and exits with the number of tests that
    were built and then failed. *)
Theorem C51_failures_counted_partial : forall (U : Unicode) w sys fuel ls argv n h,
  (forall h d, sy_list sys h d = ls d) ->
  che w sys fuel (L "test" :: argv) = (Exit n, h) ->
  exists tests blocks,
    (forall p, In p tests <-> exists a, In a argv /\ below ls a p)
    /\ Forall2 (fun p b => tested w sys fuel p (fst b) (snd b)) tests blocks
    /\ touched h = List.concat (map fst blocks)
    /\ n = List.length (filter (fun e => match e with RunTest ok => negb ok | _ => false end) h).
Proof.
  intros U w sys fuel ls argv n h Hl E. destruct (test_does w sys fuel ls Hl argv n h E) as (tests & Ht & (blocks & HF & Eb & En) & _).
  exists tests, blocks. split; [exact Ht |]. split; [exact HF |]. split; [exact Eb |]. exact En.
Qed.
(** So if all tests are built and there are less than 256, the status is zero
    exactly when none failed. *)
Theorem C51_status_partial : forall (U : Unicode) w sys fuel ls argv e h,
  (forall h d, sy_list sys h d = ls d) ->
  che w sys fuel (L "test" :: argv) = (e, h) -> (exists n, e = Exit n) ->
  exists tests blocks,
    (forall p, In p tests <-> exists a, In a argv /\ below ls a p)
    /\ Forall2 (fun p b => tested w sys fuel p (fst b) (snd b)) tests blocks
    /\ touched h = List.concat (map fst blocks)
    /\ (Forall (fun b => exists l ok, fst b = l ++ [RunTest ok]) blocks -> List.length tests < 256 ->
        (status e = Some 0 <-> Forall (fun b => snd b = false) blocks)).
Proof.
  intros U w sys fuel ls argv e h Hl E (n & ->).
  destruct (test_does w sys fuel ls Hl argv n h E) as (tests & Ht & (blocks & HF & Eb & En) & _).
  exists tests, blocks. split; [exact Ht |]. split; [exact HF |]. split; [exact Eb |]. intros HR Hlen.
  assert (K : n = List.length (filter (fun b => snd b) blocks)).
  { rewrite En, <- failed_runs_touched, Eb. clear -HF HR.
    induction HF as [| p b tests blocks Hb HF IH]; [reflexivity |]. inversion HR as [| ? ? (l & ok & El) HR']; subst.
    cbn [map List.concat filter]. rewrite failed_runs_app, (IH HR').
    destruct b as [t bad]. cbn [fst snd] in *. destruct Hb as [errors made _ D | pr t _ C | pr t ok' _ C].
    - destruct D as [-> | ->]; [destruct l; discriminate El | destruct l as [| a [| b l]]; try discriminate El; injection El as _ W; destruct l; discriminate W].
    - destruct C as (made & args & _ & _ & ->). rewrite !app_assoc in El. apply app_inj_tail in El. destruct El as [_ W]. discriminate W.
    - rewrite failed_runs_app, (compiled_no_runs w sys _ _ _ _ C). destruct ok'; reflexivity. }
  assert (Hb : List.length (filter (fun b : list effect * bool => snd b) blocks) <= List.length tests).
  { assert (El : List.length tests = List.length blocks) by (clear -HF; induction HF; cbn; congruence). rewrite El.
    clear. induction blocks as [| b l IH]; cbn; [lia |]. destruct (snd b); cbn; lia. }
  cbn [status]. rewrite Nat.mod_small by lia. rewrite K. clear. split.
  - intros W. apply Forall_forall. intros b Hb. destruct (snd b) eqn:Eb; [| reflexivity]. exfalso.
    assert (I : In b (filter (fun b : list effect * bool => snd b) blocks)) by (apply filter_In; auto).
    destruct (filter _ blocks); [destruct I | discriminate W].
  - intros HF. f_equal. induction HF as [| b l Hb HF IH]; [reflexivity |]. cbn [filter]. rewrite Hb. exact IH.
Qed.
Example C51_example : exists h, @che ascii_table two_tests (good_system one_dir second_fails) sample_fuel [L "test"; L "p"] = (Exit 1, h)
  /\ List.length (filter (fun e => match e with RunTest ok => negb ok | _ => false end) h) = 1
  /\ List.length (filter (fun e => match e with RunTest _ => true | _ => false end) h) = 2.
Proof. eexists. split; [vm_compute; reflexivity |]. split; vm_compute; reflexivity. Qed.
(** A test that does not compile is not counted, *)
Theorem C51_build_failure_refuted : exists w sys fuel argv p h errors,
  In p [L "p/bad.test.c"] /\ below (fun d => sy_list sys [] d) (L "p") p /\ argv = [L "p"]
  /\ @parse_project ascii_table w fuel p = BErrs errors
  /\ @che ascii_table w sys fuel (L "test" :: argv) = (Exit 0, h).
Proof.
  exists (files_of [("p/bad.test.c", "int main() { return x; }")]%string),
    (good_system (fun d => if str_eqb d (L "p") then Some [(L "p/bad.test.c", false)] else None) (fun _ => true)),
    sample_fuel, [L "p"], (L "p/bad.test.c").
  eexists _, _. split; [left; reflexivity |]. split.
  - eapply (Below_here _ _ [(L "p/bad.test.c", false)] _ false); [reflexivity | left; reflexivity | reflexivity].
  - split; [reflexivity |]. split; vm_compute; reflexivity.
Qed.
(** and 256 failures look like none. *)
Definition many_dirs : str -> option (list (str * bool)) := fun _ => Some [(L "p/main.test.c", false)].
Definition all_failed (p : ended * history) : bool :=
  match status (fst p) with Some 0 => true | _ => false end
  && existsb (fun e => match e with RunTest false => true | _ => false end) (snd p)
  && forallb (fun e => match e with RunTest true => false | _ => true end) (snd p).
Lemma all_failed_says : forall p, all_failed p = true ->
  exists e h, p = (e, h) /\ status e = Some 0 /\ (exists x, In x h /\ x = RunTest false) /\ forall x, In x h -> x <> RunTest true.
Proof.
  intros [e h] B. exists e, h. unfold all_failed in B. cbn [fst snd] in B.
  apply andb_prop in B. destruct B as [B B3]. apply andb_prop in B. destruct B as [B1 B2].
  split; [reflexivity |]. split; [destruct (status e) as [[|] |]; [reflexivity | discriminate B1 | discriminate B1] |].
  split.
  - apply existsb_exists in B2. destruct B2 as (x & I & W). exists x. split; [exact I |]. destruct x; try discriminate W. destruct ok; [discriminate W | reflexivity].
  - rewrite forallb_forall in B3. intros x I ->. specialize (B3 _ I). discriminate B3.
Qed.
Theorem C51_overflow_refuted : exists w sys fuel argv e h,
  @che ascii_table w sys fuel (L "test" :: argv) = (e, h) /\ status e = Some 0
  /\ (exists x, In x h /\ x = RunTest false) /\ forall x, In x h -> x <> RunTest true.
Proof.
  exists (files_of [("p/main.test.c", "int main() { return 1; }")]%string), (good_system many_dirs (fun _ => false)), 60, (repeat (L "p") 256).
  apply all_failed_says. vm_compute. reflexivity.
Qed.
Print Assumptions C51_failures_counted_partial.
Print Assumptions C51_status_partial.
Print Assumptions C51_build_failure_refuted.
Print Assumptions C51_overflow_refuted.

(** ** C52 *)
Theorem C52_no_command_partial : forall (U : Unicode) w sys fuel e h,
  che w sys fuel [] = (e, h) -> e = Exit 1 /\ touched h = [] /\ complained h <> [].
Proof. intros U w sys fuel e h E. injection E as <- <-. split; [reflexivity |]. split; [reflexivity | discriminate]. Qed.
(** An unknown command is not an error. *)
Theorem C52_unknown_command_refuted : forall (U : Unicode) w sys fuel cmd argv,
  ~ In cmd [L "build"; L "run"; L "deptree"; L "exports"; L "genc"; L "install"; L "test"] ->
  exists h, che w sys fuel (cmd :: argv) = (Exit 0, h) /\ touched h = [].
Proof.
  intros U w sys fuel cmd argv H. unfold che, main_, command. cbn [In] in H.
  repeat match goal with |- context [str_eqb cmd ?x] => destruct (BaseFacts.str_eqb_spec cmd x) as [E |]; [exfalso; apply H; subst; tauto |] end.
  eexists. split; reflexivity.
Qed.
Example C52_example : ~ In (L "biuld") [L "build"; L "run"; L "deptree"; L "exports"; L "genc"; L "install"; L "test"].
Proof. cbn. intuition discriminate. Qed.
(** The known commands do nothing and fail with status 1 when called with a wrong
    number of arguments (genc crashes); exports and test accept any number. *)
Theorem C52_arguments_partial : forall (U : Unicode) w sys fuel cmd argv,
  (cmd = L "build" /\ List.length argv <> 1 /\ List.length argv <> 2)
  \/ (In cmd [L "deptree"; L "install"] /\ List.length argv <> 1)
  \/ (cmd = L "run" /\ argv = [])
  \/ (cmd = L "genc" /\ List.length argv < 2) ->
  exists e h, che w sys fuel (cmd :: argv) = (e, h) /\ touched h = []
  /\ (status e = Some 1 \/ (cmd = L "genc" /\ status e = Some 101)).
Proof.
  intros U w sys fuel cmd argv [(-> & H1 & H2) | [([<- | [<- | []]] & H) | [(-> & ->) | (-> & H)]]].
  - destruct argv as [| a [| b [| c l]]]; cbn in H1, H2; try congruence; eexists _, _; (split; [reflexivity |]); split; try reflexivity; left; reflexivity.
  - destruct argv as [| a [| b l]]; cbn in H; try congruence; eexists _, _; (split; [reflexivity |]); split; try reflexivity; left; reflexivity.
  - destruct argv as [| a [| b l]]; cbn in H; try congruence; eexists _, _; (split; [reflexivity |]); split; try reflexivity; left; reflexivity.
  - eexists _, _; (split; [reflexivity |]); split; try reflexivity; left; reflexivity.
  - destruct argv as [| a [| b l]]; cbn in H; try lia; eexists _, _; (split; [reflexivity |]); split; try reflexivity; right; split; reflexivity.
Qed.
Print Assumptions C52_no_command_partial.
Print Assumptions C52_unknown_command_refuted.
Print Assumptions C52_arguments_partial.

(** ** C53 *)
Theorem C53_tree : forall (U : Unicode) w sys fuel path pr, parse_project w fuel path = BOk pr ->
  exists text, che w sys fuel [L "deptree"; path] = (Exit 0, [Out text]) /\ tree w 0 path text.
Proof. exact @deptree. Qed.
(** The tree is determined by the files. *)
Theorem C53_unique : forall (U : Unicode) w depth path s s', tree w depth path s -> tree w depth path s' -> s = s'.
Proof. exact @tree_unique. Qed.
Example C53_example : built (build_of diamond) = true
  /\ @che ascii_table (files_of diamond) (good_system one_dir (fun _ => true)) sample_fuel [L "deptree"; L "p/main.c"] = (Exit 0, [Out (L
"p/main.c
  - p/b.c
    - p/base.c
    - p/a.c
      - p/base.c
  - p/a.c
    - p/base.c
")]).
Proof. split; vm_compute; reflexivity. Qed.
Print Assumptions C53_tree.
Print Assumptions C53_unique.

(** ** C60 *)
(** A program with errors is reported: every error is a line on the standard
    error, in order; at most the number of errors follows; nothing is printed to
    the standard output, no file is written and no program is started; the exit
    status is 1.  Only when the directory for C files cannot be made does che
    crash instead. *)
Theorem C60_refused : forall (U : Unicode) w sys fuel args src errors e h,
  about w sys args src -> parse_project w fuel src = BErrs errors -> che w sys fuel args = (e, h) ->
  forallb harmless h = true /\ printed h = []
  /\ ((e = Exit 1 /\ exists rest, complained h = error_lines errors ++ rest
        /\ (rest = [] \/ rest = dec (N.of_nat (List.length errors)) ++ L " errors" ++ [c_nl]))
      \/ ((exists why, e = Crash why) /\ let_down sys h)).
Proof.
  intros U w sys fuel args src errors e h Ha Ep E. destruct (refused w sys fuel args src errors Ha Ep) as (r & t & E' & Hr & Hh & Hp).
  rewrite E' in E. assert (t = h) by congruence. subst t. split; [exact Hh |]. split; [exact Hp |].
  destruct Hr as [(rest & -> & C & R) | ((why & ->) & D)].
  - left. split; [congruence |]. exists rest. auto.
  - right. split; [exists why; congruence | exact D].
Qed.
(** A file that is refused among the arguments of che exports fails the
    command. *)
Theorem C60_exports : forall (U : Unicode) w sys fuel args h,
  che w sys fuel (L "exports" :: args) = (Exit 0, h) ->
  touched h = [] /\ forall src, In src args -> exists pr, parse_project w fuel src = BOk pr.
Proof.
  intros U w sys fuel args h E. destruct (che_does w sys fuel (L "exports") args _ _ eq_refl (exports_list w fuel args)) as (r & t & E' & T & N & K).
  rewrite E' in E. assert (t = h) by congruence. subst t. split; [exact T |]. destruct r as [code | e].
  - assert (code = 0) by congruence. subst code. destruct (K eq_refl) as (_ & texts & _ & HF). clear -HF.
    induction HF as [| p x ps xs Hp HF IH]; intros src I; [destruct I |]. destruct I as [<- | I]; [| apply IH, I].
    destruct Hp as (pr & _ & _ & _ & _ & Ep & _). eauto.
  - exfalso. apply (N 0). congruence.
Qed.
Example C60_example : about two_tests (good_system one_dir (fun _ => true)) [L "run"; L "p/bad.c"; L "x"] (L "p/bad.c")
  /\ exists errors, @parse_project ascii_table two_tests sample_fuel (L "p/bad.c") = BErrs errors
     /\ @che ascii_table two_tests (good_system one_dir (fun _ => true)) sample_fuel [L "run"; L "p/bad.c"; L "x"]
        = (Exit 1, [MakeDir (L "home/tmp"); ErrOut (error_lines errors)])
     /\ errors <> [].
Proof. split; [apply About_run |]. eexists. split; [vm_compute; reflexivity |]. split; [vm_compute; reflexivity | discriminate]. Qed.
Print Assumptions C60_refused.
Print Assumptions C60_exports.

(** ** C61 *)
(** An accepted program: che build and che install write the C files of all its
    modules, then run the C compiler once; the exit status is 0 exactly if the
    compiler succeeds, and 1 with a message if not.  The third case is a crash
    that the system caused. *)
Theorem C61_built : forall (U : Unicode) w sys fuel args src out pr e h,
  makes w sys args src out -> parse_project w fuel src = BOk pr -> che w sys fuel args = (e, h) ->
  (e = Exit 0 /\ compiled w sys pr out true (touched h) /\ complained h = [])
  \/ (e = Exit 1 /\ compiled w sys pr out false (touched h) /\ complained h = L ":: build failed" ++ [c_nl] ++ L "1 errors" ++ [c_nl])
  \/ ((exists why, e = Crash why) /\ let_down sys h).
Proof.
  intros U w sys fuel args src out pr e h Hm Ep E. destruct (made_by w sys fuel _ _ _ _ Hm Ep) as (r & t & E' & Hb).
  rewrite E' in E. assert (t = h) by congruence. subst t.
  destruct Hb as [((why & ->) & D) | (a & lines & ok & made & -> & C & Hc & _)].
  - right; right. split; [exists why; congruence | exact D].
  - destruct ok; [left | right; left]; (split; [congruence |]); split; assumption.
Qed.
(** che run starts the program it built, with the arguments given, only after
    the C compiler succeeded and as its last step, and ends like the program. *)
Theorem C61_run : forall (U : Unicode) w sys fuel src args pr e h,
  parse_project w fuel src = BOk pr -> che w sys fuel (L "run" :: src :: args) = (e, h) ->
  (e = Exit 1 /\ exists ok, compiled w sys pr (L "/tmp/chebuild") ok (touched h)
    /\ (ok = true -> exists h' err, sy_exec sys h' (L "/tmp/chebuild") args = inl err /\ complained h = L "exec failed: " ++ err ++ [c_nl]))
  \/ (exists before, h = before ++ [Exec (L "/tmp/chebuild") args]
      /\ compiled w sys pr (L "/tmp/chebuild") true (touched before)
      /\ sy_exec sys before (L "/tmp/chebuild") args = inr e)
  \/ ((exists why, e = Crash why) /\ let_down sys h).
Proof.
  intros U w sys fuel src args pr e h Ep E.
  destruct (che_does w sys fuel (L "run") (src :: args) _ _ eq_refl (run_accepted w sys fuel src args pr Ep)) as (r & t & E' & Hb).
  rewrite E' in E. assert (t = h) by congruence. subst t.
  destruct Hb as [((why & ->) & D) | [(-> & C) | [(-> & C & err & Ee & Ec) | (e' & before & -> & Et & C & Ee)]]].
  - right; right. split; [exists why; congruence | exact D].
  - left. split; [congruence |]. exists false. split; [exact C | discriminate].
  - left. split; [congruence |]. exists true. split; [exact C |]. intros _. eauto.
  - right; left. exists before. split; [exact Et |]. split; [exact C |]. cbn [app] in Ee. rewrite Ee. f_equal. congruence.
Qed.
(** che genc only writes the C files, into the directory given. *)
Theorem C61_genc : forall (U : Unicode) w sys fuel src dir args pr e h,
  parse_project w fuel src = BOk pr -> che w sys fuel (L "genc" :: src :: dir :: args) = (e, h) ->
  (e = Exit 0 /\ exists made, dir_made dir made /\ h = made ++ files_written sys dir pr)
  \/ ((exists why, e = Crash why) /\ let_down sys h).
Proof.
  intros U w sys fuel src dir args pr e h Ep E.
  destruct (che_does w sys fuel (L "genc") (src :: dir :: args) _ _ eq_refl (genc_accepted w sys fuel src dir args pr Ep)) as (r & t & E' & Hb).
  rewrite E' in E. assert (t = h) by congruence. subst t.
  destruct Hb as [((why & ->) & D) | (-> & K)].
  - right. split; [exists why; congruence | exact D].
  - left. split; [congruence | exact K].
Qed.
Example C61_example : exists pr h, build_of link_files = BOk pr
  /\ @che ascii_table (files_of link_files) (good_system one_dir (fun _ => true)) sample_fuel [L "run"; L "p/main.c"; L "a"; L "b"] = (Exit 7, h)
  /\ In (Exec (L "/tmp/chebuild") [L "a"; L "b"]) h /\ List.length (files_written (good_system one_dir (fun _ => true)) (L "home/tmp") pr) = 2.
Proof. eexists _, _. split; [vm_compute; reflexivity |]. split; [vm_compute; reflexivity |]. split; [vm_compute; tauto | vm_compute; reflexivity]. Qed.
Print Assumptions C61_built.
Print Assumptions C61_run.
Print Assumptions C61_genc.

(** ** C62 *)
(** che exports lists, for each of its arguments, the pub constants, types and
    functions of that file, in source order; the functions with their types and
    signatures in a table. *)
Theorem C62_listing_partial : forall (U : Unicode) w sys fuel paths h,
  che w sys fuel (L "exports" :: paths) = (Exit 0, h) ->
  (forall path pr n hd m cm, In path paths -> parse_project w fuel path = BOk pr -> unit_at pr n hd m cm ->
     mi_filepath hd = path -> no_groups (mod_elements m)) ->
  exists texts, printed h = List.concat texts /\ Forall2 (lists_file w fuel) paths texts.
Proof.
  intros U w sys fuel paths h E Hg. destruct (che_does w sys fuel (L "exports") paths _ _ eq_refl (exports_list w fuel paths)) as (r & t & E' & T & N & K).
  rewrite E' in E. assert (t = h) by congruence. subst t. destruct r as [code | e]; [| exfalso; apply (N 0); congruence].
  assert (code = 0) by congruence. subst code. destruct (K eq_refl) as (_ & texts & P & HF). exists texts. split; [exact P |].
  clear -HF Hg. induction HF as [| p x ps xs Hp HF IH]; constructor.
  - destruct Hp as (pr & n & hd & m & cm & Ep & Hu & Ef & lines & Hl & Et). exists pr, n, hd, m, cm.
    split; [exact Ep |]. split; [exact Hu |]. split; [exact Ef |]. exists lines. split; [| exact Et].
    assert (G : no_groups (mod_elements m)) by (eapply Hg; eauto; left; reflexivity).
    assert (S : forall f, In f (functions_in_order (mod_elements m)) -> show_form f = signature f)
      by (intros f Hf; apply show_signature; intros q Hq; exact (G f q Hf Hq)).
    revert Hl S. generalize (functions_in_order (mod_elements m)). intros [| f fns] Hl S; [exact Hl |].
    destruct Hl as (width & Hw & HF2). exists width. split; [exact Hw |]. revert HF2 S. generalize (f :: fns). clear.
    intros l HF S. induction HF as [| g line l lines Hg HF IH]; constructor.
    + unfold function_line in *. rewrite <- (S g (or_introl eq_refl)). exact Hg.
    + apply IH. intros f Hf. apply S. right. exact Hf.
  - apply IH. intros path pr n hd m cm Hi. apply Hg. right. exact Hi.
Qed.
Definition export_files : list (string * string) :=
  [("p/main.c", "pub enum { RED, BLUE }
pub typedef int num_t;
typedef char secret_t;
pub num_t *first(num_t *list, int n) { if (n == 0) { return NULL; } return list; }
pub int zero() { return 0; }
int hidden() { return 1; }
pub void log(char *fmt, ...) { puts(fmt); }
int main() { return hidden(); }")]%string.
Definition export_listing : str := L
"mod p/main.c
constants
	RED
	BLUE
types
	num_t
functions
	num_t  *first (num_t *list, int n)
	int     zero ()
	void    log (char *fmt, ...)
".
Example C62_example : built (build_of export_files) = true
  /\ (exists h, @che ascii_table (files_of export_files) (good_system one_dir (fun _ => true)) sample_fuel [L "exports"; L "p/main.c"] = (Exit 0, h)
      /\ printed h = export_listing).
Proof. split; [vm_compute; reflexivity |]. eexists. split; [vm_compute; reflexivity | vm_compute; reflexivity]. Qed.
(** The names of a group of parameters are run together: [f(int a, b)] is listed
    as [f (int ab)], like a function with one parameter [ab]. *)
Definition listed_text (text : string) : str :=
  printed (snd (@che ascii_table (files_of [("p/main.c", text)]%string) (good_system one_dir (fun _ => true)) sample_fuel [L "exports"; L "p/main.c"])).
Theorem C62_group_refuted : exists text text',
  listed_text text = listed_text text' /\ built (single text) = true /\ built (single text') = true
  /\ text = "pub int f(int a, b) { return a + b; }"%string /\ text' = "pub int f(int ab) { return ab; }"%string
  /\ listed_text text = L "mod p/main.c" ++ [c_nl] ++ L "functions" ++ [c_nl; 9%N] ++ L "int   f (int ab)" ++ [c_nl].
Proof. eexists _, _. repeat match goal with |- _ /\ _ => split end; [| | | reflexivity | reflexivity |]; vm_compute; reflexivity. Qed.
Print Assumptions C62_listing_partial.
Print Assumptions C62_group_refuted.

(** ** C63 *)
(** When che build or che install ends without a crash, it has printed every
    line of the C compiler's messages, in order, with the path of the source
    before the path of each generated file, and nothing else. *)
Theorem C63_messages : forall (U : Unicode) w sys fuel args src out pr code h,
  makes w sys args src out -> parse_project w fuel src = BOk pr -> che w sys fuel args = (Exit code, h) ->
  exists before ccargs lines shown ok, sy_cc sys before ccargs = Some (map Some lines, ok)
    /\ In (RunCC ccargs ok) h
    /\ Forall2 (explained sys (w_home w ++ L "/tmp") (pr_heads pr)) lines shown
    /\ printed h = List.concat (map (fun x => x ++ [c_nl]) shown).
Proof.
  intros U w sys fuel args src out pr code h Hm Ep E. destruct (made_by w sys fuel _ _ _ _ Hm Ep) as (r & t & E' & Hb).
  rewrite E' in E. assert (t = h) by congruence. subst t.
  destruct Hb as [((why & ->) & D) | (a & lines & ok & made & -> & C & Hc & Hi & Hd & Ec & P)]; [discriminate E |].
  eexists _, a, lines, (map (relay (write_c99 (sy_md5 sys) (w_home w ++ L "/tmp") pr)) lines), ok.
  split; [exact Ec |]. split; [exact Hi |]. split.
  - clear -Ep. pose proof (heads_cmods w _ _ _ Ep) as Hl. induction lines as [| x l IH]; constructor; [| exact IH].
    apply relay_explained, Hl.
  - rewrite P, map_map. reflexivity.
Qed.
(** A line that names no generated file is shown as it is. *)
Theorem C63_plain_lines : forall sys dir heads line shown,
  (forall h, In h heads -> ~ occurs (c_file sys dir h) line) -> explained sys dir heads line shown -> shown = line.
Proof.
  intros sys dir heads line shown H E. induction E as [s | h l s s1 s2 R E IH]; [reflexivity |].
  assert (s1 = s).
  { inversion R as [x No | a b b' No Hr]; subst; [reflexivity |]. exfalso. apply (H h (or_introl eq_refl)). exists a, b. reflexivity. }
  subst s1. apply IH. intros h' Hh. apply H. right. exact Hh.
Qed.
Definition noisy_system : system :=
  mkSystem (fun s => L "hash") false true (fun _ _ => true) (fun _ _ => true) (fun _ _ _ => true)
    (fun _ _ => Some ([Some (L "home/tmp/hash.c:3:1: error in home/tmp/hash.c")], false)) (fun _ _ _ => inr (Exit 7))
    (fun h => None) (fun _ d => None).
Example C63_example : exists h, @che ascii_table (files_of [("p/main.c", "int main() { return 0; }")]%string) noisy_system sample_fuel [L "build"; L "p/main.c"; L "out"] = (Exit 1, h)
  /\ printed h = L "p/main.c -> home/tmp/hash.c:3:1: error in p/main.c -> home/tmp/hash.c" ++ [c_nl].
Proof. eexists. split; [vm_compute; reflexivity | vm_compute; reflexivity]. Qed.
Print Assumptions C63_messages.
Print Assumptions C63_plain_lines.

(** ** C64 *)
(** che test runs a test only right after the C compiler built that test: no
    verdict is about a program left over from another test. *)
Theorem C64_own_program : forall (U : Unicode) w sys fuel ls argv n h,
  (forall h d, sy_list sys h d = ls d) ->
  che w sys fuel (L "test" :: argv) = (Exit n, h) ->
  forall l ok r, touched h = l ++ RunTest ok :: r ->
  exists l0 path pr block, l = l0 ++ block /\ (exists a, In a argv /\ below ls a path)
    /\ parse_project w fuel path = BOk pr /\ compiled w sys pr (L "test.out") true block.
Proof.
  intros U w sys fuel ls argv n h Hl E l ok r Hs.
  destruct (test_does w sys fuel ls Hl argv n h E) as (tests & Ht & (blocks & HF & Eb & _) & _).
  rewrite Eb in Hs. clear Eb.
  assert (G : forall p, In p tests -> exists a, In a argv /\ below ls a p) by (intros p Hp; apply Ht, Hp).
  clear Ht. revert l Hs. induction HF as [| p b tests blocks Hb HF IH]; intros l Hs; [destruct l; discriminate Hs |].
  cbn [map List.concat] in Hs. destruct b as [t bad]. cbn [fst snd] in *.
  assert (K : (exists l', l = t ++ l' /\ List.concat (map fst blocks) = l' ++ RunTest ok :: r)
     \/ exists r', t = l ++ RunTest ok :: r').
  { clear -Hs. revert l Hs. induction t as [| x t IHt]; intros l Hs; [left; exists l; auto |].
    destruct l as [| y l]; cbn [app] in Hs; injection Hs as -> Hs; [right; exists t; reflexivity |].
    destruct (IHt l Hs) as [(l' & -> & E) | (r' & ->)]; [left; exists l'; auto | right; exists r'; reflexivity]. }
  destruct K as [(l' & -> & E') | (r' & ->)].
  - destruct (IH (fun p Hp => G p (or_intror Hp)) l' E') as (l0 & path & pr & block & -> & K).
    exists (t ++ l0), path, pr, block. rewrite app_assoc. auto.
  - assert (C : forall pr out o x, compiled w sys pr out o x -> ~ In (RunTest ok) x).
    { intros pr out o x (made & args & D & _ & ->) I. rewrite !in_app_iff in I. destruct I as [I | [I | [I | []]]].
      - destruct D as [-> | ->]; [destruct I | destruct I as [I | []]; discriminate I].
      - unfold files_written in I. apply in_map_iff in I. destruct I as ([x y] & W & _). discriminate W.
      - discriminate I. }
    assert (I : In (RunTest ok) (l ++ RunTest ok :: r')) by (apply in_app_iff; right; left; reflexivity).
    inversion Hb as [errors made Ep D Em | pr x Ep Cx Ex | pr x ok' Ep Cx Ex]; subst.
    + exfalso. destruct D as [D | D]; rewrite D in I; [destruct I | destruct I as [I | []]; discriminate I].
    + exfalso. exact (C _ _ _ _ Cx I).
    + destruct r' as [| z r'] using rev_ind.
      * apply app_inj_tail in Ex. destruct Ex as [-> _]. exists [], p, pr, l. split; [reflexivity |].
        split; [apply G; left; reflexivity |]. auto.
      * exfalso. rewrite app_comm_cons, app_assoc in Ex. apply app_inj_tail in Ex. destruct Ex as [-> _].
        apply (C _ _ _ _ Cx). apply in_app_iff. right. left. reflexivity.
Qed.
Example C64_example : exists n h, @che ascii_table two_tests (good_system one_dir second_fails) sample_fuel [L "test"; L "p"] = (Exit n, h)
  /\ In (RunTest false) (touched h) /\ In (RunTest true) (touched h).
Proof. eexists _, _. split; [vm_compute; reflexivity |]. split; vm_compute; tauto. Qed.
Print Assumptions C64_own_program.
