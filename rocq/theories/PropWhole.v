(** The generated C program does what the source program does (C72).
    Specification: SpecRun.v. *)
From Verif Require Import Base Buf Lexer Nodes Types Resolve Cursor Preparser Parser CAst FormatC Translator Build BaseFacts.
From Verif Require Import SpecLex SpecScope SpecDecl SpecModule SpecExports SpecTarget SpecTyping SpecBuild SpecTame SpecC SpecCStmt CStmtFacts SpecClosed SpecTidy SpecNeat SpecLink SpecMeaning
  SpecExec SpecRun ElabFacts TargetFacts ClosedFacts ClosedModule OpenCheck MeaningFacts WholeNames WholeFacts PlainCheck ToyMachine ToyHost PropBuild PropClosed PropFile PropLink PropMeaning Samples.

(** ** C72 *)
(** On every lawful host, every call of a function and the whole program come to
    the same in the C files and in the source: the same values, the same worlds,
    the same ends, and they get as far.  [types i] are the words that the [i]-th
    file takes for names of types; the bodies of its functions are printed so
    that C reads them as they are meant (C41), and [body] is what C reads. *)
Theorem C72_runs_as_written_partial : forall (U : Unicode) w fuel main pr,
  parse_project w fuel main = BOk pr ->
  (forall i h m cm, unit_at pr i h m cm -> forall c, In c (mi_uniqid h) -> word_char c = true) ->
  (forall i h m cm, unit_at pr i h m cm -> distinct_exports (mi_uniqid h) (mod_elements m)) ->
  (forall i h m cm i' h' m' cm', unit_at pr i h m cm -> unit_at pr i' h' m' cm' -> same_directives (mod_elements m) (mod_elements m')) ->
  (forall i h m cm, unit_at pr i h m cm -> telling (mod_elements m)) ->
  (forall i h m cm i' h' m' cm', unit_at pr i h m cm -> unit_at pr i' h' m' cm' -> told_apart (mi_uniqid h') (mod_elements m) (mod_elements m')) ->
  forall system,
  (forall i h m cm, unit_at pr i h m cm -> tidy (site_of m (unit_params pr i h)) system) ->
  (forall i h m cm, unit_at pr i h m cm -> neat (site_of m (unit_params pr i h)) system) ->
  clear pr system ->
  discreet pr system ->
  let files := map cm_elements (pr_cmods pr) in
  forall types, (forall i, c_types (types i)) ->
  (forall i d, In (XFunc d) (file files i) -> plain_body (types i) (cfd_body d)) ->
  (exists body, readings types files body)
  /\ forall body H, readings types files body -> lawful files H ->
     (forall n i x args w o, calls H (c_program files body H) n i x args w o <-> calls H (s_program (pr_heads pr) (pr_mods pr) H) n i x args w o)
     /\ forall args w o, c_start files body H args w o <-> s_start (pr_heads pr) (pr_mods pr) H args w o.
Proof.
  intros U w fuel main pr B F X D T T' system Ti N C Di files types Ht Pl. split.
  - eapply readings_exist; eassumption.
  - intros body H R Lw. split.
    + exact (calls_same w fuel main pr B F X D T T' system Ti N C Di types body H Ht Pl R Lw).
    + exact (start_same w fuel main pr B F X D T T' system Ti N C Di types body H Ht Pl R Lw).
Qed.

(** Checks for the example. *)
Section Check.
Variable pr : project.
Definition no_macro_b (x : str) : bool := negb (str_in x (map lit added ++ defined_names pr)).
Lemma no_macro_by : forall x, no_macro_b x = true -> no_macro pr x.
Proof.
  intros x H. apply negb_true_iff, str_in_false in H. rewrite in_app_iff in H. split; [tauto |]. intros a M. apply PropMeaning.macro_in in M. tauto.
Qed.
Definition c_exports : list str := flat_map (fun hm => map (global_name (mi_uniqid (fst hm))) (flat_map (names_with true) (mod_elements (snd hm)))) (units_of pr).
Definition locals_b : bool :=
  forallb (fun hm => forallb (fun e => match e with
    | MFunc f => forallb (fun x => no_macro_b x
        && negb (str_in x (map lit (["strcmp"; "fprintf"; "stderr"; "exit"]%string ++ library_types) ++ flat_map SpecLink.type_name (mod_elements (snd hm)) ++ c_exports))) (local_names f)
      && negb (starts_with (ns_name (tn_name (fd_type f))) (L "static"))
    | _ => true end) (mod_elements (snd hm))) (units_of pr).
Lemma locals_by : locals_b = true -> forall i h m cm f, unit_at pr i h m cm -> In (MFunc f) (mod_elements m) ->
  starts_with (ns_name (tn_name (fd_type f))) (L "static") = false
  /\ forall x, In x (local_names f) ->
    ~ In x (map lit (["strcmp"; "fprintf"; "stderr"; "exit"]%string ++ library_types))
    /\ no_macro pr x /\ ~ none (UName x) /\ ~ none (UType x)
    /\ (forall e b, In e (mod_elements m) -> ~ type_of_elem e b x)
    /\ forall j h' m' cm' e y, unit_at pr j h' m' cm' -> In e (mod_elements m') -> of_elem e true y -> x <> global_name (mi_uniqid h') y.
Proof.
  intros H i h m cm f (Hh & Hm & _) If. unfold locals_b in H. rewrite forallb_forall in H. assert (I : In (h, m) (units_of pr)) by (eapply combined; eauto). apply H in I. cbn [fst snd] in I.
  rewrite forallb_forall in I. apply I in If. apply andb_true_iff in If as [If St]. split; [now apply negb_true_iff |]. intros x Ix. rewrite forallb_forall in If. apply If in Ix. apply andb_true_iff in Ix as [N O].
  apply negb_true_iff, str_in_false in O. rewrite !in_app_iff in O. split; [tauto |]. split; [now apply no_macro_by |]. split; [intros [] |]. split; [intros [] |]. split.
  - intros e b Ie Te. apply O. right. left. apply in_flat_map. exists e. split; [exact Ie |]. destruct e; cbn in Te; try (now destruct Te); destruct Te as [_ <-]; now left.
  - intros j h' m' cm' e y (Hh' & Hm' & _) Ie Oe E. apply O. right. right. apply in_flat_map. exists (h', m'). split; [eapply combined; eauto |]. cbn [fst snd]. rewrite E. apply in_map, in_flat_map. exists e. split; [exact Ie | now apply names_with_in].
Qed.
End Check.

(** Two modules: a loop, a recursive function, calls of the imported module,
    which has a variable, [switch str], [calloc!], [panic] and a macro. *)
Definition counter_text : string :=
"int sum = 3;
pub typedef { int step; } rule_t;
pub int add(rule_t *r, int n) {
  sum = sum + n * r->step + 1;
  return sum;
}
pub int twice(int n) { return n * 2; }
".
Definition jobs_text : string :=
"#import counter.c
#define UP 2
typedef { int left; counter.rule_t *rule; } job_t;
int fact(int n) {
  if (n < 2) { return 1; }
  return n * fact(n - 1);
}
int work(job_t *j) {
  while (j->left > 0) {
    j->left--;
    counter.add(j->rule, j->left);
  }
  return counter.add(j->rule, 0);
}
int main() {
  int total = 0;
  char *name = ""ab"";
  for (int i = 0; i < 2; i++) {
    if (i == 1) { continue; }
    total = total + fact(3);
  }
  switch str (name) {
    case ""a"": { total = 0; }
    case ""ab"", ""abc"": { total = total + counter.twice(total); }
    default: { panic(""bad name: %s"", name); }
  }
  job_t *j = calloc!(1, sizeof(job_t));
  j->left = UP;
  return total + work(j);
}
".
Definition jobs : bout project := build_of [("p/counter.c"%string, counter_text); ("p/main.c"%string, jobs_text)].
Definition the_jobs : project := Eval vm_compute in project_of jobs.
Definition job_types (s : str) : bool := existsb (str_eqb s) (map lit ["int"; "char"; "void"; "size_t"; "job_t"; "mod0_counter__rule_t"]%string).
Lemma job_types_c : c_types job_types.
Proof. intros w Hw. repeat (destruct Hw as [<-|Hw]; [vm_compute; reflexivity|]). destruct Hw. Qed.

(** Following the program on the toy host. *)
Section Steps.
Variables (heads : list modinfo) (mods : list module_) (i : nat) (T : t_table).
Notation act := (deed (scope nat) tworld nat).
Lemma go_bind : forall A B (m : effect tworld A -> Prop) (k : tworld -> A -> effect tworld B -> Prop) w a o, m (Gives w a) -> k w a o -> t_bind m k o.
Proof. intros A B m k w a o H K. left. eauto. Qed.
Lemma go_then : forall (a b : act) r w r' w' o, a r w (ONext r' w') -> b r' w' o -> and_then a b r w o.
Proof. intros a b r w r' w' o H K. left. eauto. Qed.
Lemma go_leave : forall (a b : act) r w o, a r w o -> is_abrupt _ _ _ o -> and_then a b r w o.
Proof. intros a b r w o H K. right. auto. Qed.
Lemma go_compute : forall A (d : meaning (scope nat) tworld A) (k : A -> act) r w w' v o, d r w (Gives w' v) -> k v r w' o -> compute d k r w o.
Proof. intros A d k r w w' v o H K. right. left. eauto. Qed.
Lemma go_extend : forall (d : meaning (scope nat) tworld (scope nat)) r w w' r' o, d r w (Gives w' r') -> o = ONext r' w' -> @extend _ _ nat d r w o.
Proof. intros d r w w' r' o H ->. right. left. eauto. Qed.
Lemma go_block : forall (a : act) r w o o', a r w o' -> o = match o' with ONext _ w' => ONext r w' | _ => o' end -> block a r w o.
Proof. intros a r w o o' H ->. exists o'. auto. Qed.
Lemma go_variable : forall x d v r w w1 w2 p o, h_alloc toy_host T d w (Gives w1 p) -> h_init toy_host T p (v ((x, p) :: r)) w1 (Gives w2 tt) -> o = Gives w2 ((x, p) :: r) ->
  new_variable toy_host T x d (Some v) r w o.
Proof. intros x d v r w w1 w2 p o H K ->. right. exists w1, p. split; [exact H |]. left. eauto. Qed.
Lemma go_stop : forall (c : meaning (scope nat) tworld nat) a (b : act) r w w' v o, c r w (Gives w' v) -> t_truth v = false -> o = ONext r w' -> cycle t_truth (Some c) a b r w o.
Proof. intros c a b r w w' v o H K ->. apply Cycle_stop. exists v. auto. Qed.
Lemma go_round : forall (c : meaning (scope nat) tworld nat) a (b : act) r w w1 v o1 w2 w3 o, c r w (Gives w1 v) -> t_truth v = true -> b r w1 o1 -> (o1 = OContinued w2 \/ exists r', o1 = ONext r' w2) ->
  performs (scope nat) tworld nat a r w2 w3 -> cycle t_truth (Some c) a b r w3 o -> cycle t_truth (Some c) a b r w o.
Proof. intros c a b r w w1 v o1 w2 w3 o H K Hb E Ha C. eapply Cycle_turn; [exists v; split; [exact H | exact K] | exact Hb |]. eapply Turn_again; eauto. Qed.
Lemma go_call : forall va ps t (b : act) args w o r w1 o1, enter toy_host T va ps args [] w (Gives w1 r) -> b r w1 o1 ->
  (exists w' v, o1 = OReturned w' (Some v) /\ o = Gives w' v) -> invoke toy_host T va ps t b args w o.
Proof. intros va ps t b args w o r w1 o1 H K (w' & v & -> & ->). right. exists r, w1, (OReturned w' (Some v)). split; [exact H |]. split; [exact K |]. reflexivity. Qed.
Lemma go_enter : forall va x d ps v args r w o w1 p w2, h_alloc toy_host T (d r) w (Gives w1 p) -> w2 = t_write w1 p v ->
  enter toy_host T va ps args ((x, p) :: r) w2 o -> enter toy_host T va ((x, d) :: ps) (v :: args) r w o.
Proof. intros va x d ps v args r w o w1 p w2 H -> K. left. exists w1, p, (t_write w1 p v). split; [exact H |]. split; [reflexivity | exact K]. Qed.
End Steps.
(** [o] becomes the value of the other side. *)
Ltac settle := hnf; match goal with |- ?o = ?x => let y := eval vm_compute in x in exact (eq_refl y) end.
Ltac is_it := match goal with |- t_is ?x ?o => let y := eval vm_compute in x in exact (eq_refl y) end.
Ltac assigned := match goal with |- t_assign ?t ?v ?w ?o =>
  let t' := eval vm_compute in t in
  lazymatch t' with
  | InCell ?p => let y := eval vm_compute in (Gives (t_write w p v) v) in exact (eq_refl y)
  | InGlobal ?i ?x => let y := eval vm_compute in (Gives (t_set w i x v) v) in exact (eq_refl y)
  end end.
Ltac go_eval new :=
  lazymatch goal with
  | |- t_evals ?T ?e ?w0 ?o =>
      let e' := eval vm_compute in e in
      lazymatch e' with
      | RBin "=" ?a ?b => change (t_bind (t_evals T b w0) (fun w v => t_assign (t_target_of a w) v w) o); eapply go_bind; [go_eval new | assigned]
      | RBin ?op ?a ?b => change (t_bind (t_evals T a w0) (fun w v => t_bind (t_evals T b w) (fun w v' => t_is (Gives w (t_arith op v v')))) o); eapply go_bind; [go_eval new | eapply go_bind; [go_eval new | is_it]]
      | RField ?op ?a ?x => change (t_bind (t_evals T a w0) (fun w v => t_is (Gives w (t_cell w (v + List.length (snd x))))) o); eapply go_bind; [go_eval new | is_it]
      | RPrefix ?op ?a => change (t_bind (t_evals T a w0) (fun w v => t_is (Gives w (t_unary op v w))) o); eapply go_bind; [go_eval new | is_it]
      | RPostfix ?op ?a => change (t_bind (t_assign (t_target_of a w0) (if String.eqb op "++" then Datatypes.S (t_const a w0) else t_const a w0 - 1) w0) (fun w' _ => t_is (Gives w' (t_const a w0))) o); eapply go_bind; [assigned | is_it]
      | RCall (RThing (TFunction ?i ?x)) ?l => change (t_bind (t_list T l w0) (fun w vs => T i x vs w) o); eapply go_bind; [go_list new | go_function new]
      | RCall (RThing (TKnown ?i (UName [115; 116; 114; 99; 109; 112]%N))) [?a; ?b] => change (t_bind (t_evals T b w0) (fun w v => t_is (Gives w (t_bool (negb (t_same v a w))))) o); eapply go_bind; [go_eval new | is_it]
      | RCall (RThing (TKnown ?i (UName ?x))) ?l => change (t_bind (t_list T l w0) (fun w vs => t_is (t_library x vs w)) o); eapply go_bind; [go_list new | is_it]
      | _ => change (t_is (Gives w0 (t_const e' w0)) o); is_it
      end
  end
with go_list new :=
  lazymatch goal with
  | |- t_list ?T [] ?w0 ?o => change (t_is (Gives w0 []) o); is_it
  | |- t_list ?T (?a :: ?l) ?w0 ?o => change (t_bind (t_evals T a w0) (fun w v => t_bind (t_list T l w) (fun w vs => t_is (Gives w (v :: vs)))) o); eapply go_bind; [go_eval new | eapply go_bind; [go_list new | is_it]]
  end
with go_value new :=
  lazymatch goal with |- value_of ?hs ?ms ?H ?i ?T ?e ?r ?w ?o => change (t_evals T (s_rx hs ms i r e) w o); go_eval new end
with go_function new :=
  lazymatch goal with
  | |- calls ?H (s_program ?hs ?ms ?H) (Datatypes.S ?n) ?i ?x ?vs ?w ?o =>
      let T := constr:(calls H (s_program hs ms H) n) in
      change (s_program hs ms H T i x vs w o);
      let found := eval vm_compute in (find (fun f => str_eqb (function_label hs i f) x) (source_functions (elems_of ms i))) in
      let g := lazymatch found with Some ?g => g | None => new_function end in
      exists g; split; [first [right; vm_compute; reflexivity | exact new] |];
      let b := eval cbv in (fd_body g) in let ps := eval cbn in (flat_map (fun t => map (fun k => (f_name k, s_rdecl (P := nat) hs ms i (taf_type t) k)) (taf_forms t)) (fp_list (fd_params g))) in
      change (invoke toy_host T (fp_ellipsis (fd_params g)) ps (s_rdecl (P := nat) hs ms i (fd_type g) (fd_form g) []) (block (s_body hs ms H i T b)) vs w o);
      eapply go_call; [go_params | eapply go_block; [go_body new | settle] | do 2 eexists; split; reflexivity]
  end
with go_params :=
  lazymatch goal with
  | |- enter _ _ _ [] _ _ _ _ => split; [right; reflexivity |]; eexists; split; [reflexivity | reflexivity]
  | |- enter _ _ _ (_ :: _) _ _ _ _ => eapply go_enter; [settle | settle | go_params]
  end
with go_body new :=
  lazymatch goal with
  | |- s_body ?hs ?ms ?H ?i ?T [] ?r ?w ?o => right; reflexivity
  | |- s_body ?hs ?ms ?H ?i ?T (?s :: ?l) ?r ?w ?o =>
      change (and_then (s_does hs ms H i T s) (s_body hs ms H i T l) r w o);
      lazymatch s with
      | SReturn _ => eapply go_leave; [go_stmt new | exact I]
      | SContinue => eapply go_leave; [go_stmt new | exact I]
      | _ => first [eapply go_then; [go_stmt new |]; [go_body new] | eapply go_leave; [go_stmt new | exact I]]
      end
  end
with go_decl new :=
  lazymatch goal with |- s_variable _ _ _ _ ?T _ _ (Some _) _ _ _ =>
    eapply go_extend; [eapply go_variable; [settle | lazymatch goal with |- h_init _ _ ?p ?e ?w0 ?o => change (t_bind (t_evals T e w0) (fun w u => t_is (Gives (t_write w p u) tt)) o); eapply go_bind; [go_eval new | is_it] end | reflexivity] | reflexivity]
  end
with go_cycle new :=
  first [eapply go_stop; [go_value new | reflexivity | reflexivity]
        | eapply go_round; [go_value new | reflexivity | eapply go_block; [go_body new | reflexivity] | first [left; reflexivity | right; eexists; reflexivity]
                           | first [reflexivity | eexists; go_value new] | go_cycle new]]
with go_stmt new :=
  lazymatch goal with
  | |- s_does ?hs ?ms ?H ?i ?T ?s ?r ?w ?o =>
      let body := constr:(s_body hs ms H i T) in
      let value := constr:(value_of hs ms H i T) in
      lazymatch s with
      | SContinue => right; reflexivity
      | SExpr ?e => change (compute (value e) (fun _ => done) r w o); eapply go_compute; [go_value new | reflexivity]
      | SVarDecl ?v => let x := eval cbn in (v_value v) in change (s_variable hs ms H i T (v_type v) (v_form v) x r w o); go_decl new
      | SIf ?c ?b None => change (compute (value c) (fun v => if t_truth v then block (body b) else done) r w o); eapply go_compute; [go_value new |]; cbv beta;
          lazymatch goal with |- (if ?t then _ else _) ?r ?w ?o =>
            let t' := eval vm_compute in t in
            lazymatch t' with
            | true => change (block (body b) r w o); eapply go_block; [go_body new | reflexivity]
            | false => reflexivity
            end
          end
      | SWhile ?c ?b => change (cycle t_truth (Some (value c)) None (block (body b)) r w o); go_cycle new
      | SFor (Some (FIDecl ?t ?f ?e)) (Some ?c) (Some ?a) ?b =>
          change (block (and_then (s_variable hs ms H i T t f (Some e)) (cycle t_truth (Some (value c)) (Some (value a)) (block (body b)))) r w o);
          eapply go_block; [eapply go_then; [go_decl new | go_cycle new] | reflexivity]
      | SReturn (Some ?e) => change (compute (value e) returning r w o); eapply go_compute; [go_value new | reflexivity]
      | SSwitch true ?v ?cases ?def => let x := eval vm_compute in (t_const (s_rx hs ms i r v) w) in eapply (go_compute _ (value v)); [go_value new |]; go_cases new hs ms i T x r w o cases
      end
  end
with go_cases new hs ms i T x r w o cases :=
  lazymatch cases with
  | (?vs, ?b) :: ?l =>
      let t := eval vm_compute in (existsb (fun k => t_same x (s_label hs ms i r k) w) vs) in
      lazymatch t with
      | true => change (block (s_body hs ms toy_host i T b) r w o); eapply go_block; [go_body new | reflexivity]
      | false => go_cases new hs ms i T x r w o l
      end
  end.
Definition start_world : tworld := mkT [7] [] [].
Lemma jobs_new : s_function (pr_heads the_jobs) (pr_mods the_jobs) 1 new_name new_function.
Proof.
  left. split; [reflexivity |]. split; [| reflexivity].
  assert (X : existsb (fun e => existsb (fun x => match x with ECall _ f _ => is_name f "calloc!" | _ => false end) (subs e)) (flat_map elem_exprs (elems_of (pr_mods the_jobs) 1)) = true) by (vm_cast_no_check (eq_refl true)).
  apply existsb_exists in X as (e & Ie & X). apply existsb_exists in X as (x & Ix & X). exists e, x. split; [exact Ie |]. split; [exact Ix |]. destruct x; try discriminate. exact X.
Qed.
Lemma jobs_run : exists w, s_start (pr_heads the_jobs) (pr_mods the_jobs) toy_host [] start_world (Gives w 26)
  /\ t_seen w = [(L "calloc", [1; 1])] /\ t_global w 0 (L "sum") = 8.
Proof.
  eexists. split; [eexists; eexists; exists 10; split; [settle |]; split; [vm_compute; reflexivity |]; go_function jobs_new |].
  split; vm_compute; reflexivity.
Qed.
Ltac each_unit := intros [| [| i]] h m cm (H & H' & _); [| | vm_compute in H; destruct i; discriminate]; vm_compute in H, H'; injection H as <-; injection H' as <-.
Ltac no_macros := repeat first [exact I | (apply no_macro_by; vm_compute; reflexivity) | apply conj | (intros X; repeat (destruct X as [X | X]; [discriminate X |]); exact X)].
Lemma jobs_discreet : discreet the_jobs none.
Proof.
  assert (X : locals_b the_jobs = true) by (vm_cast_no_check (eq_refl true)). constructor.
  - intros i h m cm f x Hu If Ix. exact (proj2 (locals_by _ X _ _ _ _ _ Hu If) x Ix).
  - intros i h m cm e Hu Ie. revert e Ie. apply Forall_forall. revert i h m cm Hu. each_unit; repeat (apply Forall_cons; [cbv -[no_macro the_jobs]; no_macros |]); apply Forall_nil.
  - intros i h m cm f Hu If. revert f If.
    assert (Y : Forall (fun e => match e with MFunc f => all (each_stmt (fun _ => True) (plain_switch the_jobs (local_names f))) (fd_body f) | _ => True end) (mod_elements m)).
    { revert i h m cm Hu. each_unit; repeat (apply Forall_cons; [cbv -[no_macro the_jobs]; no_macros |]); apply Forall_nil. }
    intros f If. rewrite Forall_forall in Y. exact (Y _ If).
  - intros i h m cm f Hu If. exact (proj1 (locals_by _ X _ _ _ _ _ Hu If)).
  - intros i h m cm Hu _. split.
    + assert (Y : forallb (fun m => negb (str_in new_name (flat_map (fun e => names_with true e ++ names_with false e) (mod_elements m)))) (pr_mods the_jobs) = true) by (vm_cast_no_check (eq_refl true)).
      intros e b Ie Oe. destruct Hu as (_ & Hm & _). rewrite forallb_forall in Y. apply nth_error_In, Y, negb_true_iff, str_in_false in Hm. apply Hm, in_flat_map. exists e. split; [exact Ie |].
      apply names_with_in in Oe. rewrite in_app_iff. destruct b; auto.
    + intros x [<- | [<- | [<- | []]]]; apply no_macro_by; vm_compute; reflexivity.
Qed.
Lemma jobs_plain : forall i d, In (XFunc d) (file (map cm_elements (pr_cmods the_jobs)) i) -> plain_body job_types (cfd_body d).
Proof.
  assert (X : forallb (fun cm => forallb (fun e => match e with XFunc d => body_ok job_types (cfd_body d) | _ => true end) (cm_elements cm)) (pr_cmods the_jobs) = true) by (vm_cast_no_check (eq_refl true)).
  intros i d Id. unfold file in Id. destruct (nth_in_or_default i (map cm_elements (pr_cmods the_jobs)) []) as [I | E]; [| rewrite E in Id; destruct Id].
  apply in_map_iff in I as (cm & E & Ic). rewrite <- E in Id. rewrite forallb_forall in X. apply X in Ic. rewrite forallb_forall in Ic. apply Ic in Id. now apply body_ok_sound.
Qed.
(** The program meets the conditions, the toy host is lawful, and there the C
    program gives 26 in the end. *)
Example C72_example : jobs = BOk the_jobs
  /\ (forall i h m cm, unit_at the_jobs i h m cm -> forall c, In c (mi_uniqid h) -> @word_char ascii_table c = true)
  /\ (forall i h m cm, unit_at the_jobs i h m cm -> distinct_exports (mi_uniqid h) (mod_elements m))
  /\ (forall i h m cm i' h' m' cm', unit_at the_jobs i h m cm -> unit_at the_jobs i' h' m' cm' -> same_directives (mod_elements m) (mod_elements m'))
  /\ (forall i h m cm, unit_at the_jobs i h m cm -> telling (mod_elements m))
  /\ (forall i h m cm i' h' m' cm', unit_at the_jobs i h m cm -> unit_at the_jobs i' h' m' cm' -> told_apart (mi_uniqid h') (mod_elements m) (mod_elements m'))
  /\ (forall i h m cm, unit_at the_jobs i h m cm -> tidy (site_of m (unit_params the_jobs i h)) none)
  /\ (forall i h m cm, unit_at the_jobs i h m cm -> neat (site_of m (unit_params the_jobs i h)) none)
  /\ clear the_jobs none
  /\ discreet the_jobs none
  /\ c_types job_types
  /\ (forall i d, In (XFunc d) (file (map cm_elements (pr_cmods the_jobs)) i) -> plain_body job_types (cfd_body d))
  /\ (forall files, lawful files toy_host)
  /\ (exists body, readings (fun _ => job_types) (map cm_elements (pr_cmods the_jobs)) body)
  /\ forall body, readings (fun _ => job_types) (map cm_elements (pr_cmods the_jobs)) body ->
     exists w, c_start (map cm_elements (pr_cmods the_jobs)) body toy_host [] start_world (Gives w 26).
Proof.
  assert (B' : jobs = BOk the_jobs) by (vm_compute; reflexivity).
  assert (B : @parse_project ascii_table (files_of [("p/counter.c"%string, counter_text); ("p/main.c"%string, jobs_text)]) sample_fuel (L "p/main.c") = BOk the_jobs) by (vm_compute; reflexivity).
  assert (F : forall i h m cm, unit_at the_jobs i h m cm -> forall c, In c (mi_uniqid h) -> @word_char ascii_table c = true).
  { each_unit; intros c I; vm_compute in I; repeat (destruct I as [<- | I]; [reflexivity |]); destruct I. }
  assert (X : forall i h m cm, unit_at the_jobs i h m cm -> distinct_exports (mi_uniqid h) (mod_elements m)) by (each_unit; apply distinct_by; reflexivity).
  assert (D : forall i h m cm i' h' m' cm', unit_at the_jobs i h m cm -> unit_at the_jobs i' h' m' cm' -> same_directives (mod_elements m) (mod_elements m')) by (apply directives_by; vm_cast_no_check (eq_refl true)).
  assert (T : forall i h m cm, unit_at the_jobs i h m cm -> telling (mod_elements m)).
  { assert (Y : forallb (fun m => telling_b (mod_elements m)) (pr_mods the_jobs) = true) by (vm_cast_no_check (eq_refl true)).
    intros i h m cm (_ & M & _). rewrite forallb_forall in Y. apply telling_by, Y. eapply nth_error_In; exact M. }
  assert (T' : forall i h m cm i' h' m' cm', unit_at the_jobs i h m cm -> unit_at the_jobs i' h' m' cm' -> told_apart (mi_uniqid h') (mod_elements m) (mod_elements m')) by (apply told_by; vm_cast_no_check (eq_refl true)).
  assert (Ti : forall i h m cm, unit_at the_jobs i h m cm -> tidy (site_of m (unit_params the_jobs i h)) none) by (each_unit; apply tidy_by; vm_compute; intuition (subst; discriminate)).
  assert (N : forall i h m cm, unit_at the_jobs i h m cm -> neat (site_of m (unit_params the_jobs i h)) none) by (each_unit; apply neat_by; vm_compute; intuition).
  assert (C : clear the_jobs none) by (apply clear_by; vm_cast_no_check (eq_refl true)).
  destruct (C72_runs_as_written_partial _ _ _ _ _ B F X D T T' none Ti N C jobs_discreet (fun _ => job_types) (fun _ => job_types_c) jobs_plain) as [R S].
  refine (conj B' (conj F (conj X (conj D (conj T (conj T' (conj Ti (conj N (conj C (conj jobs_discreet (conj job_types_c (conj jobs_plain (conj toy_lawful (conj R _)))))))))))))).
  intros body Hb. destruct jobs_run as (w & Hw & _). exists w. apply (proj2 (S body toy_host Hb (toy_lawful _))). exact Hw.
Qed.
Print Assumptions C72_runs_as_written_partial.

(** Without the conditions of [discreet] the claim fails.  The subject of a
    [switch str] is computed anew for every value it is compared with: here the
    C program may return 22 and the source program may not.  ([next] counts its
    calls.) *)
Definition polling_text : string :=
"int main() {
  switch str (OS.next()) {
    case ""ab"": { return 1; }
    case ""a"": { return 22; }
    default: { return 333; }
  }
}
".
Definition polling : bout project := build_of [("p/main.c"%string, polling_text)].
Definition the_polling : project := Eval vm_compute in project_of polling.
(** What C reads in the functions of a project. *)
Definition body_of (pr : project) (i : nat) (x : str) : cst :=
  match find (named_function x) (functions (file (map cm_elements (pr_cmods pr)) i)) with Some d => XBlock (lowers (cfd_body d)) | None => XBlock [] end.
Definition readable_b (pr : project) : bool :=
  forallb (fun cm => forallb (fun d => body_ok job_types (cfd_body d)
    && match filter (fun d' => named_function (cf_name (cfd_form d)) d') (functions (cm_elements cm)) with [_] => true | _ => false end) (functions (cm_elements cm))) (pr_cmods pr).
Lemma readable_by : forall pr, readable_b pr = true -> readings (fun _ => job_types) (map cm_elements (pr_cmods pr)) (body_of pr).
Proof.
  intros pr H i d Id. unfold body_of, file in *. destruct (nth_in_or_default i (map cm_elements (pr_cmods pr)) []) as [I | E]; [| rewrite E in Id; destruct Id].
  apply in_map_iff in I as (cm & E & Ic). rewrite <- E in *. unfold readable_b in H. rewrite forallb_forall in H. apply H in Ic. rewrite forallb_forall in Ic. apply TargetProps.functions_in in Id. pose proof (Ic d Id) as X.
  apply andb_true_iff in X as [X1 X2]. apply body_ok_sound in X1. destruct (body_printed job_types _ X1) as (toks & R1 & R2). exists toks. split; [exact R1 |].
  destruct (filter _ _) as [| a [| b l]] eqn:F in X2; try discriminate.
  assert (One : forall d', In d' (functions (cm_elements cm)) -> named_function (cf_name (cfd_form d)) d' = true -> d' = a).
  { intros d' I' N'. assert (J : In d' [a]) by (rewrite <- F; apply filter_In; auto). destruct J as [-> | []]. reflexivity. }
  destruct (find (named_function (cf_name (cfd_form d))) (functions (cm_elements cm))) as [d' |] eqn:Fd.
  - apply find_some in Fd as [F1 F2]. rewrite (One d' F1 F2), <- (One d Id (str_eqb_refl _)). exact R2.
  - pose proof (find_none _ _ Fd _ Id) as Y. unfold named_function in Y. rewrite str_eqb_refl in Y. discriminate.
Qed.
Theorem C72_runs_as_written_refuted : polling = BOk the_polling
  /\ let files := map cm_elements (pr_cmods the_polling) in
     exists body, readings (fun _ => job_types) files body /\ lawful files toy_host
     /\ (exists w, c_start files body toy_host [] start_world (Gives w 22))
     /\ ~ exists w, s_start (pr_heads the_polling) (pr_mods the_polling) toy_host [] start_world (Gives w 22).
Proof.
  split; [vm_compute; reflexivity |]. cbv zeta. exists (body_of the_polling). split; [apply readable_by; vm_cast_no_check (eq_refl true) |]. split; [apply toy_lawful |]. split.
  - set (files := map cm_elements (pr_cmods the_polling)). pose (asked := (L "next", @nil nat)). pose (w2 := mkT [7] [] [asked; asked]).
    exists w2. eexists. exists 0, 1. split; [settle |]. split; [vm_compute; reflexivity |]. cbn [calls]. eexists. split; [vm_compute; reflexivity |]. cbv zeta.
    right. exists [], start_world, (OReturned w2 (Some 22)). split; [split; [right; reflexivity |]; eexists; split; reflexivity |].
    split; [| reflexivity]. cbn [outcome_of].
    let b := eval vm_compute in (body_of the_polling 0 (L "main")) in change (body_of the_polling 0 (lit "main")) with b.
    match goal with |- c_runs (c_machine _ _ ?i ?l ?T) _ _ _ _ => set (M := c_machine files toy_host i l T); set (names := l); set (Tb := T) end.
    assert (Ev : forall e w o, t_evals Tb (c_rx files 0 names [] e) w o -> evals M e [] w o) by (intros e w o E; exact E).
    apply (scoped_abrupt M); [exact I |]. apply (seq_abrupt M); [exact I |].
    right. left. exists (mkT [7] [] [asked]), 0. split; [apply Ev; go_eval I |]. apply (scoped_abrupt M); [exact I |]. apply (scoped_abrupt M); [exact I |]. apply (seq_abrupt M); [exact I |].
    right. left. exists w2, 1. split; [apply Ev; go_eval I |]. apply (scoped_abrupt M); [exact I |]. apply (scoped_abrupt M); [exact I |]. apply (seq_abrupt M); [exact I |].
    right. left. exists w2, 22. split; [apply Ev; go_eval I | reflexivity].
  - set (heads := pr_heads the_polling). set (mods := pr_mods the_polling). intros (w & w1 & i & n & Hs & Hp & Hc). vm_compute in Hp. injection Hp as <-. hnf in Hs. vm_compute in Hs. subst w1.
    destruct n as [| n]; [discriminate Hc |]. destruct Hc as (f & [(Ef & _) | Ef] & Hi); [vm_compute in Ef; discriminate Ef |]. vm_compute in Ef. injection Ef as <-.
    destruct Hi as [(w' & _ & Q) | (r & w2 & o1 & He & (o2 & Hb & ->) & Hr)]; [discriminate Q |].
    destruct He as [_ (w' & Hw & Q)]. injection Q as -> ->. hnf in Hw. subst w'.
    assert (Only : forall o, s_does heads mods toy_host 0 (calls toy_host (s_program heads mods toy_host) n)
      (hd SBreak (fd_body (hd new_function (source_functions (elems_of mods 0))))) [] start_world o -> (exists w, o = OPaused w) \/ exists w, o = OReturned w (Some 333)).
    { clear. intros o Ho. set (T := calls _ _ n) in Ho.
      destruct Ho as [-> | [(w & v & Hv & Ho) | (w & Hv & ->)]]; [eauto | |].
      - assert (Ev : t_evals T (RCall (RThing (TKnown 0 (UName (L "next")))) []) start_world (Gives w v)) by exact Hv.
        destruct Ev as [(w' & vs & Ea & Q) | (w' & _ & Q)]; [| discriminate Q]. injection Ea as -> ->. vm_compute in Q. injection Q as -> ->.
        destruct Ho as (o' & [(r & w' & Ho & [-> | ->]) | (_ & Ho)] & ->); (destruct Ho as [Ho | [(w'' & v & Hu & Ho) | (w'' & Hu & Ho)]]; [| | discriminate Hu]); try discriminate Ho; try (injection Hu as -> ->; discriminate Ho).
        + subst o'. eauto.
        + injection Hu as -> ->. hnf in Ho. subst o'. right. eexists. reflexivity.
      - destruct Hv as [(w' & vs & Ea & Q) | (w' & Ea & Q)]; [| discriminate Ea]. injection Ea as -> ->. discriminate Q. }
    destruct Hb as [(r & w' & Ha & _) | (_ & Ha)]; apply Only in Ha; destruct Ha as [(w'' & Ha) | (w'' & Ha)]; try discriminate Ha; subst o2; try discriminate Hr; injection Hr; discriminate.
Qed.
Print Assumptions C72_runs_as_written_refuted.
(** A local variable takes the place of a function of another module if it has
    the name of this in C: the source program returns 1 and the C program does
    not. *)
Definition one_text : string := "pub int one() { return 1; }".
Definition hiding_text : string :=
"#import one.c
int main() {
  int mod0_one__one = one.one();
  return mod0_one__one;
}
".
Definition hiding : bout project := build_of [("p/one.c"%string, one_text); ("p/main.c"%string, hiding_text)].
Definition the_hiding : project := Eval vm_compute in project_of hiding.
Theorem C72_hidden_refuted : hiding = BOk the_hiding
  /\ let files := map cm_elements (pr_cmods the_hiding) in
     exists body, readings (fun _ => job_types) files body /\ lawful files toy_host
     /\ (exists w, s_start (pr_heads the_hiding) (pr_mods the_hiding) toy_host [] start_world (Gives w 1))
     /\ ~ exists w v, c_start files body toy_host [] start_world (Gives w v).
Proof.
  split; [vm_compute; reflexivity |]. cbv zeta. exists (body_of the_hiding). split; [apply readable_by; vm_cast_no_check (eq_refl true) |]. split; [apply toy_lawful |]. split.
  - eexists. eexists; eexists; exists 10; split; [settle |]; split; [vm_compute; reflexivity |]; go_function I.
  - set (files := map cm_elements (pr_cmods the_hiding)). intros (w & v & w1 & i & n & Hs & Hp & Hc). vm_compute in Hp. injection Hp as <-. hnf in Hs. vm_compute in Hs. subst w1.
    destruct n as [| n]; [discriminate Hc |]. destruct Hc as (d & Ef & Hi). vm_compute in Ef. injection Ef as <-. cbv zeta in Hi.
    destruct Hi as [(w' & _ & Q) | (r & w2 & o1 & He & Hb & Hr)]; [discriminate Q |].
    destruct He as [_ (w' & Hw & Q)]. injection Q as -> ->. hnf in Hw. subst w'.
    revert Hb. let b := eval vm_compute in (body_of the_hiding 1 (L "main")) in change (body_of the_hiding 1 (lit "main")) with b. intros Hb.
    match type of Hb with c_runs (c_machine _ _ ?i ?l ?T) ?b _ _ _ => set (names := l) in Hb; set (Tb := T) in Hb; set (tree := b) in Hb; set (M := c_machine files toy_host i names Tb) in Hb end.
    assert (Only : exists w, o1 = OPaused w).
    { clear Hr. destruct Hb as (o & Hb & Ho). cbn in Hb.
      assert (Dec : forall t f o, declare M t f (Some (CCall (CIdent (cf_name f)) [])) [] start_world o -> cf_name f = L "mod0_one__one" -> o = Paused M start_world).
      { clear. intros t f o Hd Nf. destruct Hd as [Hd | Hd]; [exact Hd | exfalso].
        assert (No : forall p o, ~ h_init toy_host Tb p (initializer (c_rx files 1 names [(cf_name f, p)] (CCall (CIdent (cf_name f)) []))) (mkT [7; 0] [] []) o).
        { rewrite Nf. intros p o' Hi. destruct Hi as [(w & a & [] & _) | (w & [] & _)]. }
        destruct Hd as [(r & w & Hd & _) | (w & Hd & _)]; (destruct Hd as [(w1 & Ha & _) | (w1 & p & Ha & Hi)]; [discriminate Ha |]; injection Ha as -> ->; destruct Hi as [(w2 & Hi & _) | (w2 & Hi & _)]; exact (No _ _ Hi)). }
      assert (o = Paused M start_world).
      { destruct Hb as [(r & w' & Hb & _) | (_ & Hb)].
        - destruct Hb as [(r1 & w1 & Hb & _) | ([] & _)]. apply Dec in Hb; [discriminate Hb | reflexivity].
        - destruct Hb as [(r1 & w1 & Hb & _) | (_ & Hb)]; (apply Dec in Hb; [| reflexivity]); [discriminate Hb | exact Hb]. }
      subst o. destruct o1; try discriminate Ho. eauto. }
    destruct Only as (w' & ->). discriminate Hr.
Qed.
Print Assumptions C72_hidden_refuted.
