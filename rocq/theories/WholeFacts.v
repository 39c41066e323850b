(** The generated program does what the source program does: C72. *)
From Verif Require Import Base BaseFacts Buf Lexer Nodes NodeInd Types Cspec Resolve Cursor Preparser Parser CAst FormatC Translator Build
  SpecLex LexFacts SpecGrammar TextFacts GapFacts ExportFacts.
From Verif Require Import SpecDecl SpecScope SpecExports SpecModule SpecTarget TargetFacts TargetProps SpecTyping ElabFacts SpecTame SpecCStmt CStmtFacts SpecClosed SpecTidy SpecNeat SpecLink ClosedFacts ClosedModule
  SpecBuild BuildFacts ProjectFacts BuildProps PathFacts ScopeFacts SpecAccept AcceptFacts ClosedProject ClosedOwn ClosedFile LinkFacts CompleteFacts SpecMeaning MeaningFacts SpecC SpecExec SpecRun WholeExec WholeNames
  CReadFacts CUnique CStmtUnique ExecFacts ValueFacts.

Lemma subs_each : forall (P : expr -> Prop) e, each_expr P e -> forall x, In x (subs e) -> P x.
Proof.
  intros P. induction e as [a i IHa IHi | p op a b IHa IHb | p op x f IH | b x IH | es IHe _ | p f args IHf IHa | l | n | op x IH
    | p op x IH | b | x IH] using expr_ind'; intros [E0 E] y Y; cbn [subs] in Y; (destruct Y as [<- | Y]; [exact E0 |]); try (now destruct Y); auto;
    try (apply in_app_iff in Y as [Y | Y]; destruct E as [E1 E2]; auto; fail).
  - rewrite all_in in E. rewrite Forall_forall in IHe. apply in_flat_map in Y as (a & A & Y). exact (IHe a A (E a A) y Y).
  - destruct E as [E1 E2]. rewrite all_in in E2. rewrite Forall_forall in IHa. apply in_app_iff in Y as [Y | Y]; [| now apply IHf]. apply in_flat_map in Y as (a & A & Y). exact (IHa a A (E2 a A) y Y).
Qed.

(** ** Calls *)
Section Invoke.
Variables (files : list (list celem)) (H : host) (i : nat).
Hypothesis law : lawful files H.
Variables (T T' : table (h_world H) (h_value H)).
Hypothesis HT : same_table H T T'.
Variables (heads : list modinfo) (mods : list module_) (S : site) (Gm : list decl).
Notation P := (h_place H).
Lemma without_all : forall (r : scope P) G f,
  (forall x, In x (map d_name G) -> place_of r x <> None \/ without x f) -> (forall x, place_of r x <> None -> In x (map d_name G)) ->
  each_form (tells_expr H G r) f.
Proof.
  intros r G f W1 W2. unfold without, each_form in *. rewrite all_in. intros o Io. destruct o as [e |]; cbn [all_opt]; [| exact I].
  assert (W : forall x, In x (map d_name G) -> place_of r x <> None \/ each_expr (fun e => match e with
                      | EName n => ~ (ns_ns n = [] /\ ns_name n = x)
                      | ECall _ g _ => is_name g "calloc!" = true -> x <> L "calloc_or_panic"
                      | _ => True
                      end) e).
  { intros x X. destruct (W1 x X) as [Q | Q]; [now left | right]. rewrite all_in in Q. exact (Q _ Io). }
  apply each_subs. intros x X. destruct x; cbn [tells_expr]; auto.
  - intros N _. cbn [ns_name]. split; [| apply W2]. intros Y. destruct (W _ Y) as [Q | Q]; [exact Q |]. exfalso. pose proof (subs_each _ _ Q _ X N) as Z. now apply Z.
  - intros N. split; [| apply W2]. intros Y. destruct (W _ Y) as [Q | Q]; [exact Q |]. exfalso. pose proof (subs_each _ _ Q _ X) as Z. cbn in Z. tauto.
Qed.

(** Parameters. *)
Section Enter.
Variables (locals : list str) (G : list decl).
Hypothesis Pr : private G.
Notation found_expr := (found_expr files H i locals heads mods S Gm).
Notation found_type := (found_type files H i locals heads mods S).
Definition c_param (q : typename * form) : str * (scope P -> rdecl P) := (f_name (snd q), c_rdecl files i locals (c_type S (fst q)) (local_form S (G ++ Gm) (snd q))).
Definition s_param (q : typename * form) : str * (scope P -> rdecl P) := (f_name (snd q), s_rdecl heads mods i (fst q) (snd q)).
Lemma enter_same : forall va qs r args w o, within H locals r -> (forall x, In x (map d_name G) <-> place_of r x <> None \/ In x (map (fun q => f_name (snd q)) qs)) ->
  (forall q, In q qs -> found_type (fst q) /\ type_known S (fst q) /\ each_form found_expr (snd q) /\ ok_form S (G ++ Gm) (snd q) /\ In (f_name (snd q)) locals) ->
  tidy_params (map snd qs) ->
  (enter H T va (map c_param qs) args r w o <-> enter H T' va (map s_param qs) args r w o)
  /\ forall w' r', enter H T' va (map s_param qs) args r w (Gives w' r') -> fits H locals G r'.
Proof.
  induction qs as [| q qs IH]; intros r args w o W N K Td; cbn [map enter c_param s_param].
  - split; [reflexivity |]. intros w' r' (_ & w1 & _ & E). injection E as -> ->. split; [exact W |]. intros x. rewrite (N x). cbn. tauto.
  - destruct args as [| v args]; [split; [reflexivity | intros ? ? []] |].
    destruct (K q (or_introl eq_refl)) as (K1 & K2 & K3 & K4 & K5). cbn [map] in Td. destruct Td as [Td1 Td2].
    assert (Sd : same_rdecl files H (c_rdecl files i locals (c_type S (fst q)) (local_form S (G ++ Gm) (snd q)) r) (s_rdecl heads mods i (fst q) (snd q) r)).
    { apply rdecl_same; auto. apply without_all.
      - intros x X. apply N in X as [X | X]; [now left | right]. apply Td1. cbn [map] in X |- *. rewrite map_map. exact X.
      - intros x X. apply N. now left. }
    pose proof (law_alloc _ _ law _ _ _ _ HT Sd) as A.
    assert (I' : forall p w o, (enter H T va (map c_param qs) args ((f_name (snd q), p) :: r) w o <-> enter H T' va (map s_param qs) args ((f_name (snd q), p) :: r) w o)
      /\ forall w' r', enter H T' va (map s_param qs) args ((f_name (snd q), p) :: r) w (Gives w' r') -> fits H locals G r').
    { intros p w0 o0. apply IH; auto.
      - intros x X. apply place_cons in X as [<- | X]; [exact K5 | now apply W].
      - intros x. rewrite place_cons, (N x). cbn [map In]. tauto.
      - intros q' Q. apply K. now right. }
    split.
    + split; (intros [(w1 & p & w2 & X & Y & Z) | (w1 & X & Y)]; [left; exists w1, p, w2 | right; exists w1]); (split; [now apply A |]); auto; (split; [exact Y |]); now apply I'.
    + intros w' r' [(w1 & p & w2 & X & Y & Z) | (w1 & X & Y)]; [| discriminate]. eapply I'; eauto.
Qed.
Lemma invoke_same : forall va qs d d' (b b' : scope P -> h_world H -> out (scope P) (h_world H) (h_value H) -> Prop) args w o,
  (forall x, In x (map d_name G) <-> In x (map (fun q => f_name (snd q)) qs)) ->
  (forall q, In q qs -> found_type (fst q) /\ type_known S (fst q) /\ each_form found_expr (snd q) /\ ok_form S (G ++ Gm) (snd q) /\ In (f_name (snd q)) locals) ->
  tidy_params (map snd qs) -> same_rdecl files H d d' -> (forall r w o, fits H locals G r -> (b r w o <-> b' r w o)) ->
  (invoke H T va (map c_param qs) d b args w o <-> invoke H T' va (map s_param qs) d' b' args w o).
Proof.
  intros va qs d d' b b' args w o N K Td Sd Bs.
  assert (W0 : within H locals []) by (intros x X; now destruct X).
  assert (N0 : forall x, In x (map d_name G) <-> place_of ([] : scope P) x <> None \/ In x (map (fun q => f_name (snd q)) qs)).
  { intros x. rewrite N. split; [now right | intros [X | X]; [now destruct X | exact X]]. }
  assert (En : forall o, enter H T va (map c_param qs) args [] w o <-> enter H T' va (map s_param qs) args [] w o) by (intros o0; now apply enter_same).
  assert (Ft : forall w' r', enter H T' va (map s_param qs) args [] w (Gives w' r') -> fits H locals G r') by (intros w' r'; now apply (enter_same va qs [] args w (Gives w' r'))).
  pose proof (law_result _ _ law d d') as R. unfold invoke. split; (intros [(w' & X & Y) | (r & w1 & o1 & X & Y & Z)]; [left; exists w'; split; [now apply En | exact Y] | right; exists r, w1, o1]).
  - apply En in X. split; [exact X |]. split; [apply Bs; [exact (Ft _ _ X) | exact Y] |]. destruct o1; auto; now apply (R _ Sd).
  - split; [now apply En |]. split; [apply Bs; [exact (Ft _ _ X) | exact Y] |]. destruct o1; auto; now apply (R _ Sd).
Qed.
End Enter.
End Invoke.

(** ** The names of a body *)
Lemma values_declared : forall s, declared_names (stmt_values s) = declared_names s.
Proof.
  fix IH 1. intros s. destruct s as [| e | t l | l | c s e | c s | x c a s | e s | v s | s | | | e]; cbn [stmt_values declared_names]; try reflexivity; try exact (IH s).
  - rewrite map_map. reflexivity.
  - induction l as [| s l IHl]; cbn [map flat_map]; [reflexivity |]. now rewrite IH, IHl.
  - rewrite IH. f_equal. destruct e as [e |]; cbn [option_map]; [apply IH | reflexivity].
  - rewrite IH. f_equal. destruct x as [[e | v] |]; reflexivity.
Qed.
Lemma labelled_declared : forall vs s, declared_names (labelled vs s) = declared_names s.
Proof. induction vs as [| v vs IH]; intros s; [reflexivity |]. exact (IH s). Qed.
Definition k_names (k : cstmt) : list str := flat_map declared_names (lower k).
Lemma lowers_names : forall l, flat_map declared_names (lowers l) = flat_map k_names l.
Proof. induction l as [| k l IH]; cbn [lowers flat_map]; [reflexivity |]. now rewrite flat_map_app, IH. Qed.
Lemma pads_names : forall l, flat_map declared_names (pads l) = flat_map k_names l.
Proof. induction l as [| k l IH]; cbn [pads flat_map]; [reflexivity |]. rewrite flat_map_app. cbn [flat_map declared_names app]. now rewrite IH. Qed.
Section Names.
Variable S : site.
Definition same_names (s : stmt) : Prop := forall G, ok_stmt S G s -> k_names (c_stmt S G s) = stmt_names s.
Lemma names_body : forall b, Forall same_names b -> forall G, ok_stmts S G b -> flat_map k_names (c_stmts S G b) = flat_map stmt_names b.
Proof.
  induction b as [| s b IH]; intros F G K; [reflexivity |]. inversion F as [| ? ? F1 F2]; subst. destruct K as [K1 K2]. cbn [c_stmts flat_map]. now rewrite (F1 G K1), (IH F2 _ K2).
Qed.
Lemma names_stmt : forall s, same_names s.
Proof.
  induction s as [| | v | c b e IHb IHe | x c a b IHb | c b IHb | e | is v cs d IHc IHd | e] using stmt_ind'; intros G K; apply ok_stmt_eq in K; unfold k_names; try rewrite c_stmt_eq; cbv beta iota zeta in *.
  - reflexivity.
  - reflexivity.
  - reflexivity.
  - rewrite lower_eq. cbn [flat_map declared_names stmt_names]. rewrite app_nil_r, lowers_names. destruct K as (_ & K1 & K2). rewrite (names_body _ IHb _ K1). f_equal.
    destruct e as [e |]; [| reflexivity]. cbn [option_map declared_names]. rewrite lowers_names. exact (names_body _ IHe _ K2).
  - rewrite lower_eq. cbn [flat_map declared_names stmt_names]. rewrite app_nil_r, lowers_names. destruct K as (_ & _ & _ & K1). rewrite (names_body _ IHb _ K1). f_equal.
    destruct x as [[e | t f e] |]; reflexivity.
  - rewrite lower_eq. cbn [flat_map declared_names stmt_names]. rewrite app_nil_r, lowers_names. now apply names_body.
  - destruct e; reflexivity.
  - destruct K as (_ & K1 & K2 & K3). destruct is.
    + specialize (K3 eq_refl). cbn [stmt_names]. change (k_names (chain S G v d cs) = flat_map (fun c => flat_map stmt_names (snd c)) cs ++ match d with Some b => flat_map stmt_names b | None => [] end).
      revert K1 K3 IHc. induction cs as [| c cs IHl]; intros K1 K3 IHc; [contradiction |]. inversion IHc as [| ? ? F1 F2]; subst. destruct K1 as [(_ & K0 & _) K1].
      destruct cs as [| c' cs].
      * cbn [chain flat_map]. unfold k_names. rewrite lower_eq. cbn [flat_map declared_names]. rewrite app_nil_r, lowers_names, (names_body _ F1 _ K0), app_nil_r. f_equal.
        destruct d as [d |]; [| reflexivity]. cbn [option_map declared_names]. rewrite lowers_names. exact (names_body _ IHd _ K2).
      * assert (Q := IHl K1 ltac:(discriminate) F2). set (l := c' :: cs) in *. change (chain S G v d (c :: l)) with (KIf (c_any S G (c_expr S G v) (fst c)) (c_stmts S G (snd c)) (Some [chain S G v d l])).
        unfold k_names in *. rewrite lower_eq. cbn [flat_map declared_names option_map lowers]. rewrite app_nil_r, lowers_names, (names_body _ F1 _ K0), app_nil_r, Q. now rewrite app_assoc.
    + rewrite lower_eq. cbn [flat_map declared_names stmt_names]. rewrite app_nil_r, flat_map_app. f_equal.
      * clear K2 K3. revert K1 IHc. induction cs as [| c cs IHl]; intros K1 IHc; [reflexivity |]. inversion IHc as [| ? ? F1 F2]; subst. destruct K1 as [(_ & K0 & _) K1].
        cbn [map flat_map]. rewrite (IHl K1 F2). f_equal. unfold case_tree. cbn [fst snd]. rewrite labelled_declared. cbn [declared_names]. rewrite flat_map_app, pads_names, (names_body _ F1 _ K0). cbn. now rewrite app_nil_r.
      * destruct d as [d |]; [| reflexivity]. cbn [option_map default_tree flat_map declared_names]. rewrite app_nil_r, pads_names. exact (names_body _ IHd _ K2).
  - cbn [stmt_names]. destruct e; try reflexivity. cbn [c_stmt]. destruct e; try reflexivity. destruct (is_name _ _); reflexivity.
Qed.
Lemma body_names : forall G l, ok_stmts S G l -> declared_names (XBlock (lowers (c_stmts S G l))) = flat_map stmt_names l.
Proof. intros G l K. cbn [declared_names]. rewrite lowers_names. apply names_body; [| exact K]. apply Forall_forall. intros s _. apply names_stmt. Qed.
End Names.

(** ** Functions *)
Section Function.
Variables (files : list (list celem)) (H : host) (i : nat).
Hypothesis law : lawful files H.
Variables (T T' : table (h_world H) (h_value H)).
Hypothesis HT : same_table H T T'.
Variables (heads : list modinfo) (mods : list module_) (S : site) (Gm : list decl) (f : funcdecl) (static : bool) (name : str).
Notation G := (param_decls (fd_params f)).
Notation l := (local_names f).
Notation found_expr l := (found_expr files H i l heads mods S Gm).
Notation found_type l := (found_type files H i l heads mods S).
Notation found_stmt l := (found_stmt files H i l heads mods S Gm).
Hypothesis here : nth_error heads i = Some (own S).
Hypothesis header : from_header files i "string" "strcmp".
Hypothesis okt : type_known S (fd_type f).
Hypothesis okf : ok_form S (G ++ Gm) (fd_form f).
Hypothesis okp : all (ok_fields S (G ++ Gm)) (fp_list (fd_params f)).
Hypothesis okb : ok_stmts S (G ++ Gm) (fd_body f).
Hypothesis tidyp : tidy_params (flat_map taf_forms (fp_list (fd_params f))).
Hypothesis tidyf : forall x, In x (param_names (fd_params f)) -> without x (fd_form f).
Hypothesis ready1 : each_form (found_expr []) (fd_form f).
Hypothesis ready2 : found_type [] (fd_type f).
Hypothesis ready3 : all (fun p => found_type l (taf_type p) /\ all (each_form (found_expr l)) (taf_forms p)) (fp_list (fd_params f)).
Hypothesis ready4 : all (each_stmt (found_expr l) (found_stmt l)) (fd_body f).
Hypothesis ready5 : forall x, In x ["strcmp"; "fprintf"; "stderr"; "exit"]%string -> forall r : scope (h_place H), c_thing files i l r (lit x) = TKnown i (UName (lit x)).
Variables (types : str -> bool) (tree : cst) (toks : list ctok).
Hypothesis typesc : c_types types.
Definition the_function : cfuncdef :=
  mkCfd static (c_type S (fd_type f)) (c_form S (G ++ Gm) name (fd_form f)) (c_params S (G ++ Gm) (fd_params f)) (c_stmts S (G ++ Gm) (fd_body f)).
Hypothesis plain : plain_body types (cfd_body the_function).
Hypothesis read : reads (format_body (cfd_body the_function)) toks [].
Hypothesis parse : c_stmt_of types toks tree.
Definition flat_params : list (typename * form) := flat_map (fun t => map (fun g => (taf_type t, g)) (taf_forms t)) (fp_list (fd_params f)).
Lemma flat_snd : map snd flat_params = flat_map taf_forms (fp_list (fd_params f)).
Proof. unfold flat_params. generalize (fp_list (fd_params f)) as ps. induction ps as [| t ts IH]; cbn [flat_map]; [reflexivity |]. rewrite map_app, map_map. cbn [snd]. rewrite map_id. f_equal. exact IH. Qed.
Lemma flat_names : map (fun q => f_name (snd q)) flat_params = param_names (fd_params f).
Proof. rewrite <- param_names_forms, <- flat_snd, map_map. reflexivity. Qed.
Lemma flat_c : map (fun p => (cf_name (ctf_form p), c_rdecl files i l (ctf_type p) (ctf_form p))) (cfp_list (cfd_params the_function)) = map (c_param files H i S Gm l G) flat_params.
Proof.
  cbn [the_function cfd_params c_params cfp_list]. unfold flat_params. generalize (fp_list (fd_params f)) as ps. induction ps as [| t ts IH]; cbn [flat_map]; [reflexivity |]. rewrite !map_app. rewrite IH. f_equal.
  unfold c_fields. rewrite !map_map. reflexivity.
Qed.
Lemma flat_s : flat_map (fun t => map (fun g => (f_name g, s_rdecl heads mods i (taf_type t) g)) (taf_forms t)) (fp_list (fd_params f)) = map (s_param H i heads mods) flat_params.
Proof.
  unfold flat_params. generalize (fp_list (fd_params f)) as ps. induction ps as [| t ts IH]; cbn [flat_map]; [reflexivity |]. rewrite map_app, IH. f_equal. rewrite map_map. reflexivity.
Qed.
Lemma flat_locals : map (fun p => cf_name (ctf_form p)) (cfp_list (cfd_params the_function)) = param_names (fd_params f).
Proof.
  cbn [the_function cfd_params c_params cfp_list]. unfold param_names. generalize (fp_list (fd_params f)) as ps. induction ps as [| t ts IH]; cbn [flat_map]; [reflexivity |]. rewrite map_app, IH. f_equal.
  unfold c_fields. rewrite map_map. reflexivity.
Qed.
Lemma tree_values : stmt_values tree = stmt_values (XBlock (lowers (cfd_body the_function))).
Proof. destruct (body_printed types _ plain) as (toks' & Hr & Ht). rewrite (reads_unique _ _ _ _ read Hr) in parse. exact (stmt_unique types typesc _ _ _ parse Ht). Qed.
Lemma tree_names : declared_names tree = flat_map stmt_names (fd_body f).
Proof. rewrite <- values_declared, tree_values, values_declared. now apply body_names. Qed.
Lemma param_decl_in : forall x, In x (map d_name G) <-> In x (param_names (fd_params f)).
Proof.
  intros x. unfold param_decls, param_names. rewrite map_rev, <- in_rev. generalize (fp_list (fd_params f)) as ps. induction ps as [| t ts IH]; cbn [flat_map]; [reflexivity |].
  rewrite map_app, !in_app_iff, IH, map_map. reflexivity.
Qed.
Lemma function_same : forall args w o,
  let ps := cfp_list (cfd_params the_function) in
  let locals := map (fun p => cf_name (ctf_form p)) ps ++ declared_names tree in
  invoke H T (cfp_variadic (cfd_params the_function))
    (map (fun p => (cf_name (ctf_form p), c_rdecl files i locals (ctf_type p) (ctf_form p))) ps)
    (c_rdecl files i [] (cfd_type the_function) (cfd_form the_function) [])
    (fun r w o => c_runs (c_machine files H i locals T) tree r w (outcome_of files o)) args w o
  <-> invoke H T' (fp_ellipsis (fd_params f))
    (flat_map (fun t => map (fun g => (f_name g, s_rdecl heads mods i (taf_type t) g)) (taf_forms t)) (fp_list (fd_params f)))
    (s_rdecl heads mods i (fd_type f) (fd_form f) [])
    (block (s_body heads mods H i T' (fd_body f))) args w o.
Proof.
  intros args w o ps locals. assert (El : locals = l) by (unfold locals, ps, local_names; now rewrite flat_locals, tree_names). clearbody locals. subst locals.
  unfold ps. rewrite flat_c, flat_s. apply (invoke_same files H i law T T' HT heads mods S Gm l G (params_private _)).
  - intros x. rewrite flat_names. apply param_decl_in.
  - intros q Q. unfold flat_params in Q. apply in_flat_map in Q as (t & It & Q). apply in_map_iff in Q as (g & <- & Ig). cbn [fst snd].
    rewrite all_in in okp, ready3. destruct (ready3 _ It) as (R1 & R2). pose proof (okp _ It) as O. unfold ok_fields in O. rewrite all_in in O, R2. destruct (O _ Ig) as [O1 O2].
    repeat (split; auto). unfold local_names. rewrite in_app_iff. left. unfold param_names. apply in_flat_map. exists t. split; [exact It | now apply in_map].
  - now rewrite flat_snd.
  - cbn [the_function cfd_type cfd_form]. apply rdecl_same; auto.
    + apply params_private.
    + intros x X. now destruct X.
    + apply without_all; [| intros x X; now destruct X]. intros x X. right. apply tidyf. now apply param_decl_in.
  - intros r w1 o1 F. rewrite (runs_values _ (c_sees files H i l T) _ _ tree_values r w1 (outcome_of files o1)).
    pose proof (c_obeys files H i l law T (ready5 "strcmp"%string ltac:(now left)) header) as Ob.
    pose proof (whole_steady files H i l law heads mods S Gm T (fd_body f) G (params_private _) okb ready4) as St.
    rewrite (body_does _ S Ob (G ++ Gm) (fd_body f) St r w1 (outcome_of files o1)).
    refine (proj1 (whole_agrees files H i l law heads mods S Gm T T' HT ready5 here (fd_body f) G (params_private _) okb ready4 _ _ r w1 F) o1).
    + intros x X. unfold local_names. rewrite in_app_iff. now right.
    + intros x X. unfold local_names. rewrite in_app_iff. left. now apply param_decl_in.
Qed.
End Function.

(** The function behind [calloc!]. *)
Lemma new_okay : forall S Gm, let G := param_decls (fd_params new_function) ++ Gm in
  type_known S (fd_type new_function) /\ ok_form S G (fd_form new_function) /\ all (ok_fields S G) (fp_list (fd_params new_function)) /\ ok_stmts S G (fd_body new_function).
Proof.
  intros S Gm G. assert (Os : forall t, ns_ns (tn_name t) = L "OS" -> type_known S t) by (intros t E; now left).
  assert (No : forall G x, typed S G (EName (mkNs (mkPos 0 0) (L "OS") x)) unknown_type) by (intros; now apply N_os).
  assert (Lo : forall G x, (exists d, look x G = Some d) -> exists t, typed S G (EName (mkNs (mkPos 0 0) [] x)) t) by (intros G0 x (d & E); exists (d_type d); now apply N_local).
  split; [now apply Os |]. split; [exact I |]. split.
  - cbn. repeat split; try exact I; now apply Os.
  - cbn [new_function fd_body ok_stmts]. split; [| split; [| split; [| exact I]]].
    + cbn [ok_stmt]. cbv zeta. split; [now apply Os |]. split; [exact I |]. cbn [v_value all_opt]. exists unknown_type. cbn [typed is_name]. split; [split; [| split; [| exact I]]; apply Lo; eexists; reflexivity |].
      exists unknown_type. split; [now apply N_os |]. now apply Call_unknown.
    + apply ok_stmt_eq. split; [| split; [| exact I]].
      * destruct (Lo (declares (SVarDecl (mkVar (mkPos 0 0) (mkTn false (mkNs (mkPos 0 0) (L "OS") (L "void"))) (mkForm (mkPos 0 0) (L "x") 1 []) None)) ++ G) (L "x")) as (t & Q); [eexists; reflexivity |].
        exists t_bool, t. split; [exact Q |]. right. left. split; reflexivity.
      * assert (Ca : forall G x args, is_name (EName (mkNs (mkPos 0 0) (L "OS") x)) "calloc!" = false -> all (ok_value S G) args -> ok_value S G (ECall (mkPos 0 0) (EName (mkNs (mkPos 0 0) (L "OS") x)) args)).
        { intros G0 x args Q A. exists unknown_type. cbn [typed]. split; [exact A |]. exists unknown_type. rewrite Q. split; [now apply N_os |]. now apply Call_unknown. }
        cbn [ok_stmts]. split; [| split; [| exact I]]; (apply Ca; [reflexivity |]).
        -- split; [exists unknown_type; now apply N_os |]. split; [| exact I]. eexists. reflexivity.
        -- split; [| exact I]. eexists. reflexivity.
    + cbn [ok_stmt all_opt]. apply Lo. eexists. reflexivity.
Qed.
Lemma new_helper : forall S Gm, helper = the_function S Gm new_function true new_name.
Proof. intros S Gm. reflexivity. Qed.
Lemma new_tidy : tidy_params (flat_map taf_forms (fp_list (fd_params new_function))) /\ forall x, In x (param_names (fd_params new_function)) -> without x (fd_form new_function).
Proof. split; [cbn; repeat split; intros; exact I | intros; exact I]. Qed.

(** ** Programs *)
Lemma find_map : forall A B (g : A -> B) (p : B -> bool) l, find p (map g l) = option_map g (find (fun x => p (g x)) l).
Proof. intros A B g p. induction l as [| a l IH]; cbn [map find]; [reflexivity |]. destruct (p (g a)); [reflexivity | exact IH]. Qed.
Lemma find_ext : forall A (p q : A -> bool) l, (forall a, In a l -> p a = q a) -> find p l = find q l.
Proof. intros A p q. induction l as [| a l IH]; intros E; cbn [find]; [reflexivity |]. rewrite (E a (or_introl eq_refl)), IH; [reflexivity |]. intros b Ib. apply E. now right. Qed.

Lemma position_same : forall A B (f : A -> bool) (g : B -> bool) l l', List.length l = List.length l' ->
  (forall i a b, nth_error l i = Some a -> nth_error l' i = Some b -> f a = g b) -> position f l = position g l'.
Proof.
  intros A B f g. induction l as [| a l IH]; intros [| b l'] E H; try discriminate; [reflexivity |]. cbn [position]. rewrite (H 0 a b eq_refl eq_refl). destruct (g b); [reflexivity |].
  rewrite (IH l'); [reflexivity | now injection E |]. intros i. exact (H (S i)).
Qed.
Lemma flat_map_2 : forall A B C (R : B -> C -> Prop) (f : A -> list B) (g : A -> list C) l, (forall a, In a l -> Forall2 R (f a) (g a)) -> Forall2 R (flat_map f l) (flat_map g l).
Proof.
  intros A B C R f g. induction l as [| a l IH]; intros H; cbn [flat_map]; [constructor |]. apply Forall2_app; [apply H; now left | apply IH; intros; apply H; now right].
Qed.
(** The variables of a file. *)
Definition variables (l : list celem) : list cvardecl := flat_map (fun e => match e with XVar v => [v] | _ => [] end) l.
Lemma variables_filter : forall l, variables l = variables (filter (in_group 5) l).
Proof.
  unfold variables. induction l as [| e l IH]; [auto |]. cbn [flat_map filter]. rewrite IH.
  destruct e; cbn [in_group group Nat.eqb]; reflexivity.
Qed.
Lemma variables_app : forall a b, variables (a ++ b) = variables a ++ variables b.
Proof. intros. unfold variables. apply flat_map_app. Qed.
Lemma variables_dedup : forall l, variables (reorder_elems l) = variables l.
Proof.
  intros l. rewrite variables_filter, reorder_group.
  assert (T := thinned_filter _ _ (in_group 5) _ _ (dedup_thins l [])).
  apply thinned_all in T.
  - rewrite <- T, <- variables_filter. reflexivity.
  - intros x I. apply filter_In in I. destruct I as [_ I]. destruct x; cbn in *; auto; discriminate.
Qed.
Lemma variables_none : forall l, (forall v, ~ In (XVar v) l) -> variables l = [].
Proof.
  induction l as [| e l IH]; intros N; [reflexivity |]. unfold variables in *. cbn [flat_map]. rewrite IH; [| intros v I0; apply (N v); now right].
  destruct e; try reflexivity. destruct (N v (or_introl eq_refl)).
Qed.
Lemma variables_list : forall A (g : cvardecl -> A) l, flat_map (fun e => match e with XVar v => [g v] | _ => [] end) l = map g (variables l).
Proof. intros A g. induction l as [| e l IH]; [reflexivity |]. unfold variables in *. cbn [flat_map]. rewrite map_app, IH. now destruct e. Qed.

Section Project.
Context {U : Unicode} (w : Resolve.world) (fuel : nat) (main : str) (pr : project).
Hypothesis B : parse_project w fuel main = BOk pr.
Hypothesis words : forall i h m cm, unit_at pr i h m cm -> forall c, In c (mi_uniqid h) -> word_char c = true.
Hypothesis exports : forall i h m cm, unit_at pr i h m cm -> distinct_exports (mi_uniqid h) (mod_elements m).
Hypothesis directives : forall i h m cm i' h' m' cm', unit_at pr i h m cm -> unit_at pr i' h' m' cm' -> same_directives (mod_elements m) (mod_elements m').
Hypothesis tells : forall i h m cm, unit_at pr i h m cm -> telling (mod_elements m).
Hypothesis told : forall i h m cm i' h' m' cm', unit_at pr i h m cm -> unit_at pr i' h' m' cm' -> told_apart (mi_uniqid h') (mod_elements m) (mod_elements m').
Variable system : cuse -> Prop.
Hypothesis Tidy : forall i h m cm, unit_at pr i h m cm -> tidy (site_of m (unit_params pr i h)) system.
Hypothesis Neat : forall i h m cm, unit_at pr i h m cm -> neat (site_of m (unit_params pr i h)) system.
Hypothesis Clear : clear pr system.
Hypothesis Discreet : discreet pr system.
Variables (types : nat -> str -> bool) (body : nat -> str -> cst) (H : host).
Notation files := (the_files pr).
Notation heads := (pr_heads pr).
Notation mods := (pr_mods pr).
Notation Si i h m := (site_of m (unit_params pr i h)).
Notation Gi m := (module_decls is_numeric (mod_elements m)).
Hypothesis typesc : forall i, c_types (types i).
Hypothesis plain : forall i d, In (XFunc d) (file files i) -> plain_body (types i) (cfd_body d).
Hypothesis read : readings types files body.
Hypothesis law : lawful files H.

Lemma in_units : forall i, i < List.length files -> exists h m cm, unit_at pr i h m cm.
Proof.
  intros i Hi. apply (unit_exists w fuel main pr i (project_built w _ _ _ B)). unfold the_files in Hi. rewrite map_length in Hi.
  pose proof (project_built w _ _ _ B) as [_ [L1 L2] _ _]. lia.
Qed.
Lemma lengths : List.length files = List.length mods.
Proof. unfold the_files. rewrite map_length. pose proof (project_built w _ _ _ B) as [_ [L1 L2] _ _]. lia. Qed.
Lemma function_source : forall m f, In f (source_functions (mod_elements m)) <-> In (MFunc f) (mod_elements m).
Proof.
  intros m f. unfold source_functions. rewrite in_flat_map. split.
  - intros (e & Ie & E). destruct e; try (now destruct E). destruct E as [<- | []]. exact Ie.
  - intros I0. exists (MFunc f). split; [exact I0 | now left].
Qed.
Lemma function_order : forall i h m cm f, unit_at pr i h m cm -> In (MFunc f) (mod_elements m) -> ok_elem (Si i h m) (Gi m) (MFunc f).
Proof.
  intros i h m cm f Hu If. destruct (proj1 (accepted_iff m (unit_params pr i h)) (ex_intro _ cm (unit_translated w _ _ _ B _ _ _ _ Hu))) as (O & _). unfold ok_elems in O.
  exact (proj1 (all_in _ _ _) O _ If).
Qed.
(** Functions of the file and of the module. *)
Definition pair_of (i : nat) (d : cfuncdef) (f : funcdecl) : Prop :=
  forall T T', same_table H T T' -> forall args w o,
  let ps := cfp_list (cfd_params d) in
  let tree := body i (cf_name (cfd_form d)) in
  let locals := map (fun p => cf_name (ctf_form p)) ps ++ declared_names tree in
  invoke H T (cfp_variadic (cfd_params d))
    (map (fun p => (cf_name (ctf_form p), c_rdecl files i locals (ctf_type p) (ctf_form p))) ps)
    (c_rdecl files i [] (cfd_type d) (cfd_form d) [])
    (fun r w o => c_runs (c_machine files H i locals T) tree r w (outcome_of files o)) args w o
  <-> invoke H T' (fp_ellipsis (fd_params f))
    (flat_map (fun t => map (fun g => (f_name g, s_rdecl heads mods i (taf_type t) g)) (taf_forms t)) (fp_list (fd_params f)))
    (s_rdecl heads mods i (fd_type f) (fd_form f) [])
    (block (s_body heads mods H i T' (fd_body f))) args w o.
Lemma pair_own : forall i h m cm f, unit_at pr i h m cm -> In (MFunc f) (mod_elements m) -> pair_of i (c_function (Si i h m) is_numeric f) f.
Proof.
  intros i h m cm f Hu If T T' HT args w0 o. pose proof (function_in m _ cm f (unit_translated w _ _ _ B _ _ _ _ Hu) If) as Ix.
  set (name := head_name (Si i h m) (inside is_numeric (mod_elements m) f) (f_name (fd_form f))).
  change (c_function (Si i h m) is_numeric f) with (the_function (Si i h m) (Gi m) f (negb (fd_pub f)) name) in *.
  assert (Ix' := Ix). rewrite <- (file_at pr _ _ _ _ Hu) in Ix'. destruct (read i _ Ix') as (toks & R1 & R2).
  destruct (function_order _ _ _ _ _ Hu If) as (O1 & O2 & O3 & O4 & _).
  destruct (Tidy _ _ _ _ Hu) as (_ & Th). destruct (Th _ If) as (_ & _ & Tp & Tf & _).
  pose proof (function_found w fuel main pr B words exports directives tells told system Tidy Neat Clear Discreet H i h m cm f [] Hu If ltac:(intros x [])) as F0.
  pose proof (function_found w fuel main pr B words exports directives tells told system Tidy Neat Clear Discreet H i h m cm f (local_names f) Hu If ltac:(auto)) as F1.
  destruct F0 as [A1 A2 _ _ _], F1 as [_ _ A3 A4 A5].
  assert (Hd : from_header files i "string" "strcmp") by (eapply header_of; eauto).
  exact (function_same files H i law T T' HT heads mods (Si i h m) (Gi m) f (negb (fd_pub f)) name (proj1 Hu) Hd O1 O2 O3 O4 Tp Tf A1 A2 A3 A4 A5 (types i) _ toks (typesc i) (plain i _ Ix') R1 R2 args w0 o).
Qed.
Lemma pair_new : forall i h m cm, unit_at pr i h m cm -> calls_calloc (mod_elements m) -> In (XFunc helper) (cm_elements cm) -> pair_of i helper new_function.
Proof.
  intros i h m cm Hu C Ix T T' HT args w0 o. rewrite (new_helper (Si i h m) (Gi m)) in *.
  assert (Ix' := Ix). rewrite <- (file_at pr _ _ _ _ Hu) in Ix'. destruct (read i _ Ix') as (toks & R1 & R2).
  destruct (new_okay (Si i h m) (Gi m)) as (O1 & O2 & O3 & O4). destruct new_tidy as (Tp & Tf).
  pose proof (new_ready w fuel main pr B words exports directives tells told system Tidy Neat Clear Discreet H i h m cm [] Hu C ltac:(intros x [])) as F0.
  pose proof (new_ready w fuel main pr B words exports directives tells told system Tidy Neat Clear Discreet H i h m cm (local_names new_function) Hu C ltac:(auto)) as F1.
  destruct F0 as [A1 A2 _ _ _], F1 as [_ _ A3 A4 A5].
  assert (Hd : from_header files i "string" "strcmp") by (eapply header_of; eauto).
  exact (function_same files H i law T T' HT heads mods (Si i h m) (Gi m) new_function true new_name (proj1 Hu) Hd O1 O2 O3 O4 Tp Tf A1 A2 A3 A4 A5 (types i) _ toks (typesc i) (plain i _ Ix') R1 R2 args w0 o).
Qed.
Lemma label_not_new : forall i h m cm f, unit_at pr i h m cm -> calls_calloc (mod_elements m) -> In (MFunc f) (mod_elements m) -> function_label heads i f <> new_name.
Proof.
  intros i h m cm f Hu C If E. rewrite (label_at pr _ _ _ _ _ Hu) in E. destruct (fd_pub f && negb (str_eqb (f_name (fd_form f)) (L "main"))) eqn:P; cbn [c_name] in E.
  - destruct (global_start w fuel main pr B _ _ _ _ (f_name (fd_form f)) Hu) as (r & Gs). unfold c_name in E. rewrite Gs in E. discriminate.
  - apply (proj1 (discreet_new _ _ Discreet _ _ _ _ Hu C) (MFunc f) (fd_pub f && negb (str_eqb (f_name (fd_form f)) (L "main"))) If). right. cbn [value_of_elem]. split; [reflexivity | exact E].
Qed.
(** Functions of a file have different names, so that their bodies have readings
    all together. *)
Lemma functions_differ : forall i d d', In (XFunc d) (file files i) -> In (XFunc d') (file files i) -> cf_name (cfd_form d) = cf_name (cfd_form d') -> d = d'.
Proof.
  intros i d d' Id Id' E. destruct (Nat.lt_ge_cases i (List.length files)) as [Hi | Hi]; [| unfold file in Id; rewrite (nth_overflow _ _ Hi) in Id; destruct Id].
  destruct (in_units i Hi) as (h & m & cm & Hu). rewrite (file_at pr _ _ _ _ Hu) in Id, Id'. apply functions_in in Id, Id'.
  assert (Own : forall f f', In f (source_functions (mod_elements m)) -> In f' (source_functions (mod_elements m)) ->
    cf_name (cfd_form (c_function (Si i h m) is_numeric f)) = cf_name (cfd_form (c_function (Si i h m) is_numeric f')) -> f = f').
  { intros f f' If If' Q. apply function_source in If, If'. rewrite (function_named w fuel main pr B tells _ _ _ _ _ Hu If), (function_named w fuel main pr B tells _ _ _ _ _ Hu If'), !(label_at pr _ _ _ _ _ Hu) in Q.
    set (b := fd_pub f && _) in Q. set (b' := fd_pub f' && _) in Q.
    assert (O : of_elem (MFunc f) b (f_name (fd_form f))) by (right; split; reflexivity). assert (O' : of_elem (MFunc f') b' (f_name (fd_form f'))) by (right; split; reflexivity).
    destruct (c_names_differ w _ _ _ B told _ _ _ _ _ _ _ _ _ _ _ _ _ _ Hu Hu If If' O O' Q) as (_ & En & _). rewrite <- En in O'.
    pose proof (same_elem m _ cm (unit_translated w _ _ _ B _ _ _ _ Hu) (tells _ _ _ _ Hu) _ _ _ _ _ If If' O O') as X. now injection X. }
  assert (New : forall f, calls_calloc (mod_elements m) -> In f (source_functions (mod_elements m)) -> cf_name (cfd_form (c_function (Si i h m) is_numeric f)) <> new_name).
  { intros f C If. apply function_source in If. rewrite (function_named w fuel main pr B tells _ _ _ _ _ Hu If). exact (label_not_new _ _ _ _ _ Hu C If). }
  destruct (module_functions m _ cm (unit_translated w _ _ _ B _ _ _ _ Hu)) as [[C Ef] | [_ Ef]]; rewrite Ef in Id, Id'.
  - destruct Id as [<- | Id], Id' as [<- | Id']; [reflexivity | | |].
    + apply in_map_iff in Id' as (f & <- & If). destruct (New f C If). now rewrite <- E.
    + apply in_map_iff in Id as (f & <- & If). destruct (New f C If). now rewrite E.
    + apply in_map_iff in Id as (f & <- & If), Id' as (f' & <- & If'). now rewrite (Own f f' If If' E).
  - apply in_map_iff in Id as (f & <- & If), Id' as (f' & <- & If'). now rewrite (Own f f' If If' E).
Qed.
Lemma readings_exist : exists body', readings types files body'.
Proof.
  exists (fun i x => match find (named_function x) (functions (file files i)) with Some d => XBlock (lowers (cfd_body d)) | None => XBlock [] end).
  intros i d Id. destruct (body_printed (types i) _ (plain i d Id)) as (toks & R1 & R2). exists toks. split; [exact R1 |].
  destruct (find (named_function (cf_name (cfd_form d))) (functions (file files i))) as [d' |] eqn:F.
  - apply find_some in F as [F1 F2]. apply functions_in in F1. apply str_eqb_eq in F2. now rewrite (functions_differ i d' d F1 Id F2).
  - apply functions_in in Id. pose proof (find_none _ _ F _ Id) as X. unfold named_function in X. rewrite str_eqb_refl in X. discriminate.
Qed.
Lemma program_same : forall T T', same_table H T T' -> same_table H (c_program files body H T) (s_program heads mods H T').
Proof.
  intros T T' HT i x args w0 o. unfold c_program, s_program. destruct (Nat.lt_ge_cases i (List.length files)) as [Hi | Hi].
  - destruct (in_units i Hi) as (h & m & cm & Hu). rewrite (file_at pr _ _ _ _ Hu).
    assert (Own : forall d, In d (source_functions (mod_elements m)) -> named_function x (c_function (Si i h m) is_numeric d) = str_eqb (function_label heads i d) x).
    { intros d Id. unfold named_function. now rewrite (function_named w fuel main pr B tells _ _ _ _ _ Hu (proj1 (function_source m d) Id)). }
    assert (Fm : find (named_function x) (map (c_function (Si i h m) is_numeric) (source_functions (mod_elements m)))
      = option_map (c_function (Si i h m) is_numeric) (find (fun f => str_eqb (function_label heads i f) x) (source_functions (mod_elements m)))).
    { rewrite find_map. f_equal. now apply find_ext. }
    assert (Both : forall f, find (fun f => str_eqb (function_label heads i f) x) (source_functions (mod_elements m)) = Some f ->
      pair_of i (c_function (Si i h m) is_numeric f) f /\ cf_name (cfd_form (c_function (Si i h m) is_numeric f)) = x).
    { intros f E. apply find_some in E as [E1 E2]. pose proof (Own f E1) as Q. rewrite E2 in Q. apply str_eqb_eq in Q. apply function_source in E1. split; [exact (pair_own _ _ _ _ _ Hu E1) | exact Q]. }
    assert (Own' : forall args w o, (exists d, find (named_function x) (map (c_function (Si i h m) is_numeric) (source_functions (mod_elements m))) = Some d
        /\ let ps := cfp_list (cfd_params d) in
           let locals := map (fun p => cf_name (ctf_form p)) ps ++ declared_names (body i x) in
           invoke H T (cfp_variadic (cfd_params d)) (map (fun p => (cf_name (ctf_form p), c_rdecl files i locals (ctf_type p) (ctf_form p))) ps)
             (c_rdecl files i [] (cfd_type d) (cfd_form d) []) (fun r w o => c_runs (c_machine files H i locals T) (body i x) r w (outcome_of files o)) args w o)
      <-> (exists f, find (fun f => str_eqb (function_label heads i f) x) (source_functions (mod_elements m)) = Some f
        /\ invoke H T' (fp_ellipsis (fd_params f)) (flat_map (fun t => map (fun g => (f_name g, s_rdecl heads mods i (taf_type t) g)) (taf_forms t)) (fp_list (fd_params f)))
             (s_rdecl heads mods i (fd_type f) (fd_form f) []) (block (s_body heads mods H i T' (fd_body f))) args w o)).
    { intros args' w' o'. rewrite Fm. split.
      - intros (d & E & X). destruct (find (fun f => str_eqb (function_label heads i f) x) _) as [f |] eqn:Ef in E |- *; [| discriminate]. injection E as <-. destruct (Both f Ef) as [Pf Nf]. exists f. split; [reflexivity |].
        apply (Pf T T' HT). rewrite Nf. exact X.
      - intros (f & E & X). destruct (Both f E) as [Pf Nf]. rewrite E. exists (c_function (Si i h m) is_numeric f). split; [reflexivity |]. apply (Pf T T' HT) in X. rewrite Nf in X. exact X. }
    unfold s_function. rewrite (elems_at pr _ _ _ _ Hu).
    destruct (module_functions m _ cm (unit_translated w _ _ _ B _ _ _ _ Hu)) as [[C E] | [C E]]; rewrite E.
    + assert (Ix : In (XFunc helper) (cm_elements cm)) by (apply functions_in; rewrite E; now left).
      pose proof (pair_new _ _ _ _ Hu C Ix) as Pn. cbn [find]. destruct (named_function x helper) eqn:Nx.
      * assert (Ex : cf_name (cfd_form helper) = x) by now apply str_eqb_eq. split.
        -- intros (d & Ed & X). injection Ed as <-. exists new_function. split; [left; repeat split; auto |]. apply (Pn T T' HT). rewrite Ex. exact X.
        -- intros (f & [(_ & _ & ->) | Ef] & X).
           ++ exists helper. split; [reflexivity |]. apply (Pn T T' HT) in X. rewrite Ex in X. exact X.
           ++ exfalso. apply find_some in Ef as [E1 E2]. apply str_eqb_eq in E2. apply function_source in E1. apply (label_not_new _ _ _ _ _ Hu C E1). now rewrite E2, <- Ex.
      * split.
        -- intros X. apply Own' in X as (f & Ef & X). exists f. split; [now right | exact X].
        -- intros (f & [(Ex & _) | Ef] & X); [exfalso; rewrite Ex in Nx; vm_compute in Nx; discriminate Nx |]. apply Own'. eauto.
    + split.
      * intros X. apply Own' in X as (f & Ef & X). exists f. split; [now right | exact X].
      * intros (f & [(_ & C' & _) | Ef] & X); [contradiction |]. apply Own'. eauto.
  - unfold file. rewrite (nth_overflow _ _ Hi).
    assert (E : elems_of mods i = []) by (unfold elems_of; rewrite (proj2 (nth_error_None mods i)); [reflexivity | rewrite <- lengths; exact Hi]).
    unfold s_function. rewrite E. split.
    + intros (d & X & _). discriminate.
    + intros (f & [(_ & (e & x' & Ie & _) & _) | X] & _); [destruct Ie | discriminate].
Qed.
Theorem calls_same : forall n, same_table H (calls H (c_program files body H) n) (calls H (s_program heads mods H) n).
Proof. induction n as [| n IH]; [intros i x args w0 o; reflexivity |]. cbn [calls]. now apply program_same. Qed.

(** Variables. *)
Lemma variables_same : forall i h m cm, unit_at pr i h m cm -> variables (cm_elements cm) = variables (c_elems (Si i h m) is_numeric).
Proof.
  intros i h m cm Hu. pose proof (unit_translated w _ _ _ B _ _ _ _ Hu) as Ht. apply translate_target in Ht. destruct Ht as (s & imps & _ & X & T & ->). cbn [cm_elements].
  rewrite variables_dedup, !variables_app. rewrite (variables_none imps); [| intros v I0; apply (imports_in _ _ _ X) in I0; discriminate].
  rewrite (variables_none (module_head s)); [reflexivity |]. intros v I0. unfold module_head in I0. rewrite !in_app_iff in I0. destruct I0 as [[I0 | []] | [I0 | [I0 | [I0 | []]]]]; try discriminate.
  - unfold std_includes in I0. apply in_map_iff in I0 as (n & I0 & _). discriminate.
  - destruct (str_in _ _); [| destruct I0]. destruct I0 as [I0 | []]. discriminate.
Qed.
Lemma variable_same : forall i h m cm v e, unit_at pr i h m cm -> In (MVar v) (mod_elements m) -> v_value v = Some e ->
  let d := mkCvar (c_type (Si i h m) (v_type v)) (c_form (Si i h m) (Gi m) (head_name (Si i h m) (Gi m) (f_name (v_form v))) (v_form v)) (c_expr (Si i h m) (Gi m) e) in
  same_static files H (i, cf_name (cv_form d), c_rdecl files i [] (cv_type d) (cv_form d) [], initializer (c_rx files i [] [] (cv_value d)))
    (i, f_name (v_form v), s_rdecl heads mods i (v_type v) (v_form v) [], initializer (s_rx heads mods i [] e)).
Proof.
  intros i h m cm v e Hu Iv Ve d. pose proof (unit_translated w _ _ _ B _ _ _ _ Hu) as Ht.
  destruct (variable_found w fuel main pr B words exports directives tells told system Tidy Neat Clear Discreet H i h m cm v Hu Iv) as (F1 & F2 & F3).
  destruct (proj1 (accepted_iff m (unit_params pr i h)) (ex_intro _ cm Ht)) as (O & _). unfold ok_elems in O.
  pose proof (proj1 (all_in _ _ _) O _ Iv) as Ov. destruct Ov as (O1 & O2 & e' & Ve' & O3). rewrite Ve in Ve'. injection Ve' as <-. rewrite Ve in F2. cbn [all_opt] in F2.
  assert (Pr : private []) by constructor. assert (W : within H [] []) by (intros x X; now destruct X).
  assert (Ft : fits H [] [] []) by (split; [exact W |]; intros x; split; [intros [] | intros X; now destruct X]).
  unfold same_static. cbn [fst snd]. split; [| split].
  - f_equal. destruct (elem_names _ _ _ Ht (tells _ _ _ _ Hu) (MVar v) (XVar d) (cf_name (cv_form d)) Iv ltac:(cbn [c_elem]; rewrite Ve; left; reflexivity) ltac:(left; reflexivity)) as (b & y & Oe & Ey).
    rewrite Ey. destruct Oe as [[] | Oe]. cbn [value_of_elem] in Oe. destruct Oe as [E1 E2]. subst b y. reflexivity.
  - apply (rdecl_same files H i [] heads mods (Si i h m) (Gi m) [] [] _ _ _ Pr W F3 O1 F1); [| exact O2]. apply without_all; [intros x [] | intros x X; now destruct X].
  - apply same_init. exact (value_same files H i [] heads mods (Si i h m) (Gi m) [] [] e Pr Ft F2 O3).
Qed.
Lemma statics_same : Forall2 (same_static files H) (c_statics files (h_place H)) (s_statics heads mods (h_place H)).
Proof.
  unfold c_statics, s_statics. rewrite <- lengths. apply flat_map_2. intros i Ii. apply in_seq in Ii. destruct (in_units i ltac:(lia)) as (h & m & cm & Hu).
  rewrite (file_at pr _ _ _ _ Hu), (elems_at pr _ _ _ _ Hu).
  rewrite (variables_list _ (fun v => (i, cf_name (cv_form v), c_rdecl files i [] (cv_type v) (cv_form v) [], initializer (c_rx files i [] [] (cv_value v))))), (variables_same _ _ _ _ Hu).
  unfold c_elems. change (elements (Si i h m)) with (mod_elements m).
  assert (Sub : forall e, In e (mod_elements m) -> In e (mod_elements m)) by auto. revert Sub. generalize (mod_elements m) at 1 4 5 as l. induction l as [| e l IH]; intros Sub; [constructor |].
  cbn [flat_map]. rewrite variables_app, map_app. apply Forall2_app; [| apply IH; intros; apply Sub; now right].
  pose proof (Sub e (or_introl eq_refl)) as Ie. destruct e as [mc | x | a | t | s | v | f]; cbn [c_elem]; try (now constructor).
  - destruct (_ || _); constructor.
  - destruct (v_value v) as [x |] eqn:Ve; [| constructor]. constructor; [| constructor]. now apply (variable_same _ _ _ cm).
  - cbv zeta. cbn. destruct (str_eqb _ _); constructor.
Qed.
(** The start. *)
Lemma main_same : forall i h m cm, unit_at pr i h m cm -> exports_function (L "main") (cm_elements cm) = has_main m.
Proof.
  intros i h m cm Hu. pose proof (unit_translated w _ _ _ B _ _ _ _ Hu) as Ht. apply eq_true_iff_eq. unfold exports_function, has_main. rewrite !existsb_exists. split.
  - intros (e & Ie & E). destruct e as [| | | | | | | | d]; try discriminate. apply andb_true_iff in E as [E1 E2]. apply negb_true_iff in E1. apply str_eqb_eq in E2.
    destruct (definition_of w fuel main pr B _ _ _ _ _ Hu Ie E1) as (f & If & -> & _). exists f. split; [now apply function_source |].
    destruct (function_text m _ cm f Ht If) as (_ & Nm & st & Lk & Fm & _). apply Nm in E2.
    destruct Lk as [[-> [Q | Q]] | (-> & _)].
    + exfalso. now apply (proj1 (proj2 (proj2 (exports _ _ _ _ Hu)) f If Q)).
    + destruct Q as (Q1 & Q2 & Q3). unfold is_start. rewrite Q1, Q2, Q3. reflexivity.
    + exfalso. rewrite Fm in E1. assert (X : starts_with (L "static " ++ format_type (cfd_type (c_function (Si i h m) is_numeric f)) ++ L " " ++ format_form (cfd_form (c_function (Si i h m) is_numeric f)) ++ L " " ++ fmt_func_params (cfd_params (c_function (Si i h m) is_numeric f)) ++ L " " ++ format_body (cfd_body (c_function (Si i h m) is_numeric f))) (L "static ") = true) by (apply starts_with_spec; eauto). congruence.
  - intros (f & If & E). apply function_source in If. unfold is_start in E. apply andb_true_iff in E as [E E3]. apply andb_true_iff in E as [E1 E2]. apply str_eqb_eq in E1. apply Nat.eqb_eq in E2.
    assert (E4 : f_indexes (fd_form f) = []) by (destruct (f_indexes (fd_form f)); [reflexivity | discriminate]).
    destruct (function_text m _ cm f Ht If) as (Ix & Nm & st & Lk & Fm & _). exists (XFunc (c_function (Si i h m) is_numeric f)). split; [exact Ix |].
    apply andb_true_iff. split; [| apply str_eqb_eq; now apply Nm].
    assert (st = []) as -> by (destruct Lk as [[-> _] | (_ & _ & Q)]; [reflexivity | destruct Q; repeat split; assumption]).
    rewrite Fm. cbn [app cfd_type c_function]. rewrite (format_not_static w fuel main pr B _ _ _ _ _ _ Hu); [reflexivity |]. exact (discreet_static _ _ Discreet _ _ _ _ _ Hu If).
Qed.
Theorem start_same : forall args w0 o, c_start files body H args w0 o <-> s_start heads mods H args w0 o.
Proof.
  intros args w0 o. unfold c_start, s_start.
  assert (Ps : position (exports_function (L "main")) files = position has_main mods).
  { apply position_same; [exact lengths |]. intros i a b Na Nb. destruct (in_units i ltac:(apply nth_error_Some; congruence)) as (h & m & cm & Hu). destruct Hu as (H1 & H2 & H3).
    unfold the_files in Na. rewrite nth_error_map, H3 in Na. injection Na as <-. rewrite H2 in Nb. injection Nb as <-. exact (main_same i h m cm (conj H1 (conj H2 H3))). }
  rewrite Ps. pose proof (law_statics _ _ law _ _ statics_same) as Ls.
  split; intros (w1 & i & n & X & Y & Z); exists w1, i, n; (split; [now apply Ls |]); (split; [exact Y |]); now apply calls_same.
Qed.
End Project.
