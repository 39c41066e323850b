(** C35, C36, C39, C59: what the generated function bodies do when they are run.
    Specification: SpecC.v and SpecCStmt.v (reading C text), SpecExec.v and
    SpecReturn.v (running statements). *)
From Verif Require Import Base Buf Nodes CAst FormatChe FormatC SpecLex SpecC SpecCStmt SpecDecl SpecTarget SpecAccept SpecModule
  SpecTyping SpecExec SpecReturn Translator TargetFacts TargetProps ElabFacts AcceptFacts CReadFacts CUnique CStmtFacts CStmtUnique ExecFacts ValueFacts ReturnFacts PlainCheck ToyMachine
  Resolve Cursor Preparser Parser Build Samples.

(** ** C59 *)
(** The text of the body of every function of an accepted module is C, and what
    it does, however it is read, is what the source says, on every machine: for
    every starting point the same ends, returned values and stages on the way.  Provided that
    the body's expressions survive printing (C41) and that the subject of a
    [switch str] changes nothing (C36). *)
Theorem C59_runs_as_written_partial : forall M types m p cm f, translate m p = TrOk cm -> In (MFunc f) (mod_elements m) ->
  let S := site_of m p in
  let G := inside is_numeric (mod_elements m) f in
  let fd := c_function S is_numeric f in
  obeys_c M -> sees_values M -> steady_body M S G (fd_body f) -> c_types types -> plain_body types (cfd_body fd) ->
  In (XFunc fd) (cm_elements cm)
  /\ (exists toks tree, reads (format_body (cfd_body fd)) toks [] /\ c_stmt_of types toks tree)
  /\ forall toks tree, reads (format_body (cfd_body fd)) toks [] -> c_stmt_of types toks tree ->
       forall r w o, c_runs M tree r w o <-> s_runs M S G (fd_body f) r w o.
Proof.
  intros M types m p cm f H Hf S G fd Ho Hv Hs Hty Hp. split; [exact (function_in m p cm f H Hf)|].
  destruct (body_printed types _ Hp) as (toks & Hr & Ht). split; [eauto|].
  intros toks' tree Hr' Ht' r w o. rewrite (reads_unique _ _ _ _ Hr' Hr) in Ht'.
  rewrite (runs_values M Hv _ _ (stmt_unique types Hty _ _ _ Ht' Ht) r w o). exact (body_does M S Ho G (fd_body f) Hs r w o).
Qed.

(** The module and the functions of a program of one file. *)
Definition module_in (text : string) : module_ :=
  match single text with BOk pr => nth 0 (pr_mods pr) (mkModule [] (mkExports [] [] [] [])) | _ => mkModule [] (mkExports [] [] [] []) end.
Definition params_in (text : string) : trparams :=
  match single text with
  | BOk pr => mkParams (nth 0 (pr_heads pr) (mkInfo [] [] [] [])) (pr_heads pr) [] (pr_mods pr)
  | _ => mkParams (mkInfo [] [] [] []) [] [] []
  end.
Definition some_types (s : str) : bool := existsb (str_eqb s) (map lit ["int"; "char"; "void"; "mod0_lib__num_t"]%string).
Lemma some_types_c : c_types some_types.
Proof. intros w Hw. repeat (destruct Hw as [<-|Hw]; [vm_compute; reflexivity|]). destruct Hw. Qed.
Definition last_function (l : list modelem) : list funcdecl := match rev (source_functions l) with f :: _ => [f] | [] => [] end.
Ltac steady_toy := cbn; repeat first [exact I | apply conj | discriminate | (intros r w; left; exists 0; apply toy_settled; vm_compute; reflexivity) | intros _].
(** [main] of the sample project satisfies the conditions. *)
Example C59_example : exists f cm, In (MFunc f) (mod_elements (nth_mod 1)) /\ f_name (fd_form f) = L "main"
  /\ translate (nth_mod 1) (nth_params 1) = TrOk cm
  /\ obeys_c toy /\ sees_values toy /\ c_types some_types
  /\ steady_body toy (site_of (nth_mod 1) (nth_params 1)) (inside is_numeric (mod_elements (nth_mod 1)) f) (fd_body f)
  /\ plain_body some_types (cfd_body (c_function (site_of (nth_mod 1) (nth_params 1)) is_numeric f))
  /\ List.length (fd_body f) = 8.
Proof.
  eexists. eexists. split; [vm_compute; right; right; right; left; reflexivity|]. split; [reflexivity|]. split; [vm_compute; reflexivity|].
  split; [exact toy_obeys|]. split; [exact toy_sees|]. split; [exact some_types_c|]. split; [|split; [apply body_ok_sound; vm_compute; reflexivity|reflexivity]].
  steady_toy.
Qed.
Print Assumptions C59_runs_as_written_partial.

(** ** C35 *)
Lemma single_reading types (Ht : c_types types) text toks toks' tree l : reads text toks [] -> reads text toks' [] ->
  c_items_of types toks [tree] -> c_items_of types toks' l -> exists tree', l = [tree'] /\ stmt_values tree' = stmt_values tree.
Proof.
  intros Hr Hr' Hi Hi'. rewrite (reads_unique _ _ _ _ Hr' Hr) in Hi'. destruct (items_cut types Ht _ _ _ _ [] [] Hi' Hi eq_refl) as (_ & E & _).
  destruct l as [|t [|]]; try discriminate. injection E as E. eauto.
Qed.
(** The C text of a switch in an accepted module runs the body of the case that
    lists the value of the subject, the first one if there are several, and
    nothing else: at the end of the body, as at a break, the switch is over.
    Without such a case it runs the default, if there is one.  ([steady] and
    [plain_stmt] as in C59.) *)
Theorem C35_switch_partial : forall M types m p cm f G v cases def, translate m p = TrOk cm ->
  let S := site_of m p in
  let k := c_stmt S G (SSwitch false v cases def) in
  SpecAccept.stmt_of is_numeric (mod_elements m) f G (SSwitch false v cases def) ->
  obeys_c M -> sees_values M -> steady M S G (SSwitch false v cases def) -> c_types types -> plain_stmt types k ->
  c_occurs k (cfd_body (c_function S is_numeric f))
  /\ (exists toks tree, reads (format_statement k) toks [] /\ c_items_of types toks [tree])
  /\ forall toks l, reads (format_statement k) toks [] -> c_items_of types toks l -> exists tree, l = [tree]
       /\ forall r w o, c_runs M tree r w o <->
            o = Paused M w
            \/ (exists w', evals M (c_expr S G v) r w (Ends w') /\ o = Ended M w')
            \/ (exists w' x, evals M (c_expr S G v) r w (Gives w' x)
                 /\ picks M S G (fun l => equals M x (c_value S G l)) cases def (switched M) r w' o).
Proof.
  intros M types m p cm f G v cases def H S k Hst Ho Hv Hs Hty Hp. split; [exact (proj2 (statement_in m p cm f G _ H Hst))|].
  destruct (stmt_printed types k Hp) as (toks & Hr & Hi). destruct (switch_same M S Ho false v cases def G Hs) as (tree & E & Hd).
  fold k in E. rewrite E in Hi. split; [exists toks, tree; split; [apply Hr|exact Hi]|].
  intros toks' l Hr' Hi'. destruct (single_reading types Hty _ _ _ _ _ (Hr []) Hr' Hi Hi') as (tree' & -> & Ev).
  exists tree'. split; [reflexivity|]. intros r w o. rewrite (runs_values M Hv _ _ Ev r w o), (Hd r w o). apply switch_runs.
Qed.

(** ** C36 *)
(** The same for [switch str], where values are compared as strings; a break in
    it belongs to the loop or switch around it. *)
Theorem C36_switch_str_partial : forall M types m p cm f G v cases def, translate m p = TrOk cm ->
  let S := site_of m p in
  let k := c_stmt S G (SSwitch true v cases def) in
  SpecAccept.stmt_of is_numeric (mod_elements m) f G (SSwitch true v cases def) ->
  obeys_c M -> sees_values M -> steady M S G (SSwitch true v cases def) -> c_types types -> plain_stmt types k ->
  c_occurs k (cfd_body (c_function S is_numeric f))
  /\ (exists toks tree, reads (format_statement k) toks [] /\ c_items_of types toks [tree])
  /\ forall toks l, reads (format_statement k) toks [] -> c_items_of types toks l -> exists tree, l = [tree]
       /\ forall r w o, c_runs M tree r w o <->
            o = Paused M w
            \/ (exists w', evals M (c_expr S G v) r w (Ends w') /\ o = Ended M w')
            \/ (exists w' x, evals M (c_expr S G v) r w (Gives w' x)
                 /\ picks M S G (fun l => same_string M x (c_value S G l) r w') cases def (scoped M) r w' o).
Proof.
  intros M types m p cm f G v cases def H S k Hst Ho Hv Hs Hty Hp. split; [exact (proj2 (statement_in m p cm f G _ H Hst))|].
  destruct (stmt_printed types k Hp) as (toks & Hr & Hi). destruct (switch_same M S Ho true v cases def G Hs) as (tree & E & Hd).
  fold k in E. rewrite E in Hi. split; [exists toks, tree; split; [apply Hr|exact Hi]|].
  intros toks' l Hr' Hi'. destruct (single_reading types Hty _ _ _ _ _ (Hr []) Hr' Hi Hi') as (tree' & -> & Ev).
  exists tree'. split; [reflexivity|]. intros r w o. rewrite (runs_values M Hv _ _ Ev r w o), (Hd r w o). apply switch_str_runs.
Qed.
(** The two switches of the sample satisfy the conditions. *)
Example C35_example : exists f G v cases def,
  SpecAccept.stmt_of is_numeric (mod_elements (nth_mod 1)) f G (SSwitch false v cases (Some def))
  /\ steady toy (site_of (nth_mod 1) (nth_params 1)) G (SSwitch false v cases (Some def))
  /\ plain_stmt some_types (c_stmt (site_of (nth_mod 1) (nth_params 1)) G (SSwitch false v cases (Some def)))
  /\ List.length cases = 1.
Proof.
  do 5 eexists. split; [split; [vm_compute; right; right; right; left; reflexivity|do 3 apply Occ_after; apply Occ_here]|].
  split; [steady_toy|]. split; [apply stmt_ok_sound; vm_compute; reflexivity|reflexivity].
Qed.
Example C36_example : exists f G v cases def,
  SpecAccept.stmt_of is_numeric (mod_elements (nth_mod 1)) f G (SSwitch true v cases (Some def))
  /\ steady toy (site_of (nth_mod 1) (nth_params 1)) G (SSwitch true v cases (Some def))
  /\ plain_stmt some_types (c_stmt (site_of (nth_mod 1) (nth_params 1)) G (SSwitch true v cases (Some def)))
  /\ List.length cases = 2.
Proof.
  do 5 eexists. split; [split; [vm_compute; right; right; right; left; reflexivity|do 4 apply Occ_after; apply Occ_here]|].
  split; [steady_toy|]. split; [apply stmt_ok_sound; vm_compute; reflexivity|reflexivity].
Qed.
(** The subject of a [switch str] is computed anew for every value it is compared
    with: if computing it has effects the C text does something else.  Here
    [next] counts its calls. *)
Definition counting_text : string :=
"char *next() { return NULL; }
int main() {
  switch str (next()) {
    case ""ab"": { return 1; }
    case ""a"": { return 22; }
    default: { return 333; }
  }
}
".
Ltac toy_steps := repeat match goal with
  | H : scoped _ _ _ _ _ |- _ => destruct H as (? & H & ?)
  | H : seq _ _ _ _ _ _ |- _ => destruct H as [(? & ? & H & ?)|[? H]]
  | H : skip _ _ _ _ |- _ => destruct H
  | H : branch toy ?c _ _ _ ?w _ |- _ =>
      apply toy_branch in H; let v := eval vm_compute in (toy_eval c w) in change (toy_eval c w) with v in H; cbn [Nat.eqb] in H; destruct H as [H|H]
  | H : return_ toy (Some ?e) _ ?w _ |- _ =>
      apply toy_return in H; let v := eval vm_compute in (toy_eval e w) in change (toy_eval e w) with v in H; cbn match in H; destruct H as [H|H]
  | H : run toy ?e _ _ ?w _ |- _ =>
      apply toy_run in H; let v := eval vm_compute in (toy_eval e w) in change (toy_eval e w) with v in H; cbn match beta in H; destruct H as [H|H]
  | H : (if ?b then _ else _) _ _ _ |- _ => let v := eval vm_compute in b in change b with v in H; cbn match in H
  | H : choose _ _ _ _ _ _ _ _ _ _ |- _ => cbn [choose fst snd] in H
  | H : s_execs _ _ _ _ _ _ _ |- _ => cbn [s_execs s_exec option_map] in H
  | H : ?o = _ |- _ => is_var o; subst o
  end.
Theorem C36_subject_twice_refuted : exists cm f, translate (module_in counting_text) (params_in counting_text) = TrOk cm
  /\ In (MFunc f) (mod_elements (module_in counting_text))
  /\ let S := site_of (module_in counting_text) (params_in counting_text) in
     let G := inside is_numeric (mod_elements (module_in counting_text)) f in
     exists toks tree, reads (format_body (cfd_body (c_function S is_numeric f))) toks [] /\ c_stmt_of some_types toks tree
     /\ c_runs toy tree tt 1 (Returned toy 3 (Some 3)) /\ ~ s_runs toy S G (fd_body f) tt 1 (Returned toy 3 (Some 3))
     /\ s_runs toy S G (fd_body f) tt 1 (Returned toy 2 (Some 2)) /\ ~ c_runs toy tree tt 1 (Returned toy 2 (Some 2)).
Proof.
  eexists. eexists. split; [vm_compute; reflexivity|]. split; [vm_compute; right; left; reflexivity|]. cbn zeta.
  match goal with |- context [c_function ?S _ ?f] =>
    let b := eval vm_compute in (cfd_body (c_function S is_numeric f)) in
    change (cfd_body (c_function S is_numeric f)) with b;
    let H := fresh in assert (H : plain_body some_types b) by (apply body_ok_sound; vm_compute; reflexivity);
    destruct (body_printed some_types b H) as (toks & Hr & Ht)
  end.
  do 2 eexists. split; [exact Hr|]. split; [exact Ht|]. cbn [lowers lower app option_map]. clear. repeat split.
  - unfold c_runs. cbn [c_exec]. apply scoped_abrupt, seq_abrupt, toy_branch; [exact I|exact I|]. right. cbn [toy_eval after Nat.eqb].
    apply scoped_abrupt, scoped_abrupt, seq_abrupt, toy_branch; [exact I|exact I|exact I|]. right. cbn.
    apply scoped_abrupt, scoped_abrupt, seq_abrupt, toy_return; [exact I|exact I|exact I|]. right. reflexivity.
  - intros H. destruct H as (o & H & E). cbn [s_execs fd_body] in H. destruct H as [(r' & w' & H & H0)|[Ha H]].
    + apply s_switch_str in H. toy_steps; discriminate.
    + apply s_switch_str in H. toy_steps; discriminate.
  - apply scoped_abrupt, seq_abrupt, s_switch_str, toy_run; [exact I|exact I|]. right.
    match goal with |- match ?x with _ => _ end => let v := eval vm_compute in x in change x with v; cbn match beta end.
    cbn [choose existsb fst snd]. 
    match goal with |- (if ?b then _ else _) _ _ _ => let v := eval vm_compute in b in change b with v; cbn match end.
    match goal with |- (if ?b then _ else _) _ _ _ => let v := eval vm_compute in b in change b with v; cbn match end.
    apply scoped_abrupt, seq_abrupt, toy_return; [exact I|exact I|]. right. reflexivity.
  - unfold c_runs. cbn [c_exec]. intros H. toy_steps; discriminate.
Qed.
Print Assumptions C35_switch_partial.
Print Assumptions C36_switch_str_partial.
Print Assumptions C36_subject_twice_refuted.

(** ** C39 *)
(** In an accepted module a function that must return (one that is not void, or
    returns a pointer to void) does not come to the end of its body otherwise,
    if the body is [thorough]. *)
Theorem C39_returns_partial : forall M m p cm f, translate m p = TrOk cm -> In (MFunc f) (mod_elements m) ->
  is_void (fd_type f) = false \/ f_hops (fd_form f) = 1 ->
  let G := inside is_numeric (mod_elements m) f in
  knows_exit M -> thorough G (fd_body f) ->
  forall r w r' w', ~ s_runs M (site_of m p) G (fd_body f) r w (Next M r' w').
Proof.
  intros M m p cm f H Hf Hv G Hm Ht. apply thorough_returns; auto.
  assert (A : exists cm, translate m p = TrOk cm) by eauto. apply accepted_iff in A. destruct A as (A & _).
  unfold ok_elems in A. apply (proj1 (all_in _ _ _) A) in Hf. now apply Hf.
Qed.
(** Other bodies are accepted as well although they come to their end: *)
Definition function_of (body : string) : string := ("int f(int x) { " ++ body ++ " } int main() { return f(1); }")%string.
Definition escaping : list string :=
  [ function_of "if (x) { return 1; }";
    function_of "if (x) { return 1; } else { x++; }";
    function_of "while (x) { return 1; }";
    function_of "while (true) { x++; break; }";
    function_of "switch (x) { default: { if (!x) { break; } return 1; } }";
    "void **f(int x) { x++; } int main() { f(1); return 1; }" ]%string.
Theorem C39_returns_refuted : Forall (fun text => exists cm f, translate (module_in text) (params_in text) = TrOk cm
  /\ In (MFunc f) (mod_elements (module_in text))
  /\ (is_void (fd_type f) = false \/ f_hops (fd_form f) <> 0)
  /\ exists w', s_runs toy (site_of (module_in text) (params_in text)) (inside is_numeric (mod_elements (module_in text)) f) (fd_body f) tt 0 (Next toy tt w')) escaping.
Proof.
  Ltac escapes := eexists; eexists; split; [vm_compute; reflexivity|]; split; [vm_compute; left; reflexivity|]; split; [first [left; reflexivity | right; discriminate]|];
    exists 0; cbn [fd_body]; apply (scoped_next toy _ tt 0 tt); cbn [s_execs]; apply (seq_next toy _ _ tt 0 tt 0); [|now right].
  repeat apply Forall_cons; [..|apply Forall_nil].
  - escapes. rewrite s_if. apply toy_branch. right. reflexivity.
  - escapes. rewrite s_if. apply toy_branch. right. apply (scoped_next toy _ tt 0 tt). apply (seq_next toy _ _ tt 0 tt 0); [|now right]. apply toy_run. right. reflexivity.
  - escapes. rewrite s_while. apply Loop_stop. eexists. split; reflexivity.
  - escapes. rewrite s_while. eapply Loop_turn; [eexists; split; reflexivity| |apply Again_break].
    apply scoped_abrupt; [exact I|]. apply (seq_next toy _ _ tt 0 tt 0); [apply toy_run; right; reflexivity|]. apply seq_abrupt; [exact I|now right].
  - escapes. apply s_switch, toy_run. right. exists (Broke toy 0). split; [|reflexivity]. apply seq_abrupt; [exact I|]. rewrite s_if. apply toy_branch. right.
    apply scoped_abrupt, seq_abrupt; [exact I|exact I|now right].
  - escapes. apply toy_run. right. reflexivity.
Qed.
(** A thorough body. *)
Definition thorough_text : string := function_of "while (x) { x--; } if (x) { return 1; } else { switch (x) { case 1: { panic(""one""); } default: { while (true) { x++; } } } }".
Example C39_example : exists cm f, translate (module_in thorough_text) (params_in thorough_text) = TrOk cm
  /\ In (MFunc f) (mod_elements (module_in thorough_text)) /\ is_void (fd_type f) = false
  /\ knows_exit toy
  /\ thorough (inside is_numeric (mod_elements (module_in thorough_text)) f) (fd_body f).
Proof.
  eexists; eexists; split; [vm_compute; reflexivity|]; split; [vm_compute; left; reflexivity|]. split; [reflexivity|]. split; [exact toy_exit|].
  cbn [fd_body]. apply Thorough_more, Thorough_last, Thorough_if.
  - apply Thorough_last, Thorough_return.
  - apply (Closes []). apply Closing_switch; [intros c [<-|[]]; apply (Closes []), Closing_panic; reflexivity|]. apply (Closes []). now apply Closing_forever.
  - apply Thorough_last, Thorough_switch.
    + intros c [<-|[]]. split; [apply Thorough_last, Thorough_expr|]. intros _ s [<-|[]] H. inversion H.
    + apply Thorough_last, Thorough_while; [reflexivity|vm_compute; reflexivity|]. intros s [<-|[]] H. inversion H.
    + intros _ s [<-|[]] H. inversion H.
Qed.
Print Assumptions C39_returns_partial.
Print Assumptions C39_returns_refuted.
