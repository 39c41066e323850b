(** The statements of the source and those of C agree if their names do: C72. *)
From Verif Require Import Base BaseFacts Buf Nodes NodeInd Resolve Preparser CAst FormatC Translator Build SpecDecl SpecScope SpecTarget SpecModule SpecLex SpecC SpecCStmt
  SpecTyping SpecTame SpecExec SpecBuild SpecClosed SpecTidy SpecLink SpecMeaning SpecRun TargetFacts ElabFacts ExecFacts ValueFacts ClosedFacts ClosedModule.

Section Whole.
Variables (files : list (list celem)) (H : host) (i : nat) (locals : list str).
Hypothesis law : lawful files H.
Notation P := (h_place H).
Notation same_rx := (same_rx files H).
Notation same_thing := (same_thing files H).
Notation same_type := (same_type files H).
Notation c_rx := (c_rx files i locals).
Notation named := (named files i locals).
Notation c_thing := (c_thing files i locals).

(** ** Initializers *)
Lemma zero_named : forall (r : scope P) l,
  zero_entries (map (fun x => (fst (fst x), match member_key (fst x) with Some y => Some (RWord (c_word files i y)) | None => option_map (named r) (snd (fst x)) end, named r (snd x))) l)
  = zero_list l.
Proof.
  intros r [| [[b k] e] [| y l]]; cbn [map fst snd]; [reflexivity | | now destruct b, k as [[] |], e].
  destruct b; [reflexivity |]. destruct k as [k |]; [now destruct k |]. cbn [member_key option_map zero_entries zero_list]. destruct e as [z |  | | | | | | | | | |]; try reflexivity; now destruct z.
Qed.
Lemma init_named : forall (r : scope P) e, initializer (named r (values e)) = named r (init_values e).
Proof.
  intros r. fix IH 1. intros e. destruct e as [z | l | | | | | | | | | |]; try reflexivity; [destruct z; reflexivity |].
  cbn [values SpecRun.named initializer init_values]. rewrite !map_map. cbn [fst snd].
  assert (E : map (fun x : bool * option cexpr * cexpr => (fst (fst x),
      match member_key (fst (fst x), option_map values (snd (fst x))) with Some y => Some (RWord (c_word files i y)) | None => option_map (named r) (option_map values (snd (fst x))) end,
      initializer (named r (values (snd x))))) l
    = map (fun x => (fst (fst x), match member_key (fst x) with Some y => Some (RWord (c_word files i y)) | None => option_map (named r) (snd (fst x)) end, named r (snd x)))
        (map (fun x => (fst (fst x), option_map values (snd (fst x)), init_values (snd x))) l)).
  { rewrite map_map. cbn [fst snd]. induction l as [| x l IHl]; [reflexivity |]. cbn [map]. rewrite IHl, (IH (snd x)). reflexivity. }
  rewrite E, zero_named. destruct (zero_list _); reflexivity.
Qed.
Scheme same_rx_mind := Minimality for SpecRun.same_rx Sort Prop with same_list_mind := Minimality for SpecRun.same_list Sort Prop with same_entries_mind := Minimality for SpecRun.same_entries Sort Prop.
Combined Scheme same_all_mind from same_rx_mind, same_list_mind, same_entries_mind.
Definition inits (l : list (bool * option (rx P) * rx P)) := map (fun x => (fst (fst x), snd (fst x), initializer (snd x))) l.
Lemma zero_same : forall l l', same_entries files H l l' -> zero_entries l = zero_entries l'.
Proof.
  intros l l' S. destruct S as [| b a a' l l' Sa Sl | b k k' a a' l l' Sk Sa Sl]; [reflexivity | |].
  - destruct b; [reflexivity |]. destruct Sl; destruct Sa; try reflexivity; now destruct l.
  - destruct b; reflexivity.
Qed.
Lemma same_init_all : (forall a b, same_rx a b -> same_rx (initializer a) (initializer b)) /\ (forall l l', same_list files H l l' -> True)
  /\ (forall l l', same_entries files H l l' -> same_entries files H (inits l) (inits l')).
Proof.
  apply (same_all_mind files H (fun a b => same_rx (initializer a) (initializer b)) (fun _ _ => True) (fun l l' => same_entries files H (inits l) (inits l')));
    intros; auto; try (cbn [initializer]; now constructor).
  - cbn [initializer]. fold (inits l) (inits l'). rewrite (zero_same _ _ H1). apply Same_comp. destruct (zero_entries _); [constructor | assumption].
Qed.
Lemma same_init : forall a b, same_rx a b -> same_rx (initializer a) (initializer b).
Proof. apply same_init_all. Qed.

(** ** The machine that runs a function *)
Section Machine.
Variable T : table (h_world H) (h_value H).
Notation M := (c_machine files H i locals T).
Lemma c_sees : sees_values M.
Proof.
  split.
  - intros e e' E r w o. cbn. unfold SpecRun.c_rx. rewrite E. reflexivity.
  - intros t f f' v v' Ef Ev r w o. cbn. unfold form_values in Ef. injection Ef as E1 E2 E3.
    assert (Er : c_rdecl files i locals t f r = c_rdecl files i locals t f' r).
    { unfold c_rdecl. rewrite E1. f_equal. assert (Q : forall l, map (option_map (c_rx r)) l = map (option_map (named r)) (map (option_map values) l)).
      { intros l. rewrite map_map. apply map_ext. now intros []. }
      now rewrite !Q, E3. }
    rewrite Er, E2. destruct v as [v |], v' as [v' |]; try discriminate; [| reflexivity]. injection Ev as Ev.
    assert (Ei : forall r, initializer (c_rx r v) = initializer (c_rx r v')) by (intros r'; unfold SpecRun.c_rx; now rewrite !init_named, Ev).
    unfold new_variable. cbn [option_map]. split; (intros [Q | (w1 & p & A & B)]; [now left | right; exists w1, p; split; [exact A |]]); [rewrite <- Ei | rewrite Ei]; exact B.
  - intros x v v' E. cbn. unfold SpecRun.c_rx. now rewrite E.
Qed.
Lemma c_settled : forall e r w v, settled M e r w v <-> gives H T (c_rx r e) w v.
Proof. reflexivity. Qed.
Hypothesis compares : forall r : scope P, c_thing r (L "strcmp") = TKnown i (UName (L "strcmp")).
Hypothesis header : from_header files i "string" "strcmp".
Lemma c_obeys : obeys_c M.
Proof.
  split.
  - intros e r w b. apply (law_not _ _ law).
  - intros e e' r w b b'. apply (law_or _ _ law).
  - intros l e r w v S. change (tests M (call "strcmp" [l; e]) r w) with (decides_on H T (RCall (RThing (c_thing r (L "strcmp"))) [c_rx r l; c_rx r e]) w).
    rewrite compares. exact (law_strcmp _ _ law _ _ _ _ _ _ header S).
  - intros e r w. apply (law_not_nothing _ _ law).
  - intros e e' r w. apply (law_or_nothing _ _ law).
  - intros l e r w S. change (stuck M (call "strcmp" [l; e]) r w) with (comes_to_nothing H T (RCall (RThing (c_thing r (L "strcmp"))) [c_rx r l; c_rx r e]) w).
    rewrite compares. exact (law_strcmp_nothing _ _ law _ _ _ _ _ header S).
Qed.
End Machine.

(** ** Expressions *)
Variables (heads : list modinfo) (mods : list module_) (S : site) (Gm : list decl).
Notation s_thing := (s_thing heads mods i).
Notation s_rx := (s_rx heads mods i).
Notation s_rtype := (s_rtype heads mods i).
(** The scope has the names of [G], as far as [n] goes. *)
Definition tells (G : list decl) (r : scope P) (n : nsname) : Prop := ns_ns n = [] -> (In (ns_name n) (map d_name G) <-> place_of r (ns_name n) <> None).
Definition within (r : scope P) : Prop := forall x, place_of r x <> None -> In x locals.
Definition found (n : nsname) : Prop := forall G r t, private G -> within r -> tells G r n -> name_typed S (G ++ Gm) n t ->
  same_thing (c_thing r (cname S (G ++ Gm) n)) (s_thing r n).
Definition found_type (t : typename) : Prop := forall r, within r -> type_known S t -> same_type (c_rtype files i locals r (c_type S t)) (s_rtype t).
Definition found_new (p : pos) : Prop := forall G r t, private G -> within r -> tells G r (mkNs p [] (L "calloc_or_panic")) ->
  name_typed S (G ++ Gm) (mkNs p [] (L "calloc_or_panic")) t ->
  same_thing (c_thing r (cname S (G ++ Gm) (mkNs p [] (L "calloc_or_panic")))) (TFunction i new_name).
Definition plain_word (x : str) : Prop := macro_in (file files i) x = false.
Definition plain_key (k : option expr) : Prop := match k with Some (EName n) => plain_word (ns_name n) | _ => True end.
Definition found_expr (e : expr) : Prop :=
  match e with
  | EName n => found n
  | ECall p f _ => is_name f "calloc!" = true -> found_new p
  | ECast t _ | ESizeofT t => found_type (btf_type t)
  | EComp es => all (fun x => fst (fst x) = false /\ plain_key (snd (fst x))) es
  | EField _ _ _ x => plain_word x
  | _ => True
  end.
Definition tells_expr (G : list decl) (r : scope P) (e : expr) : Prop :=
  match e with
  | EName n => tells G r n
  | ECall p f _ => is_name f "calloc!" = true -> tells G r (mkNs p [] (L "calloc_or_panic"))
  | _ => True
  end.
Lemma word_plain : forall x, plain_word x -> c_word files i x = (None, x).
Proof. intros x E. unfold c_word. now rewrite E. Qed.
Lemma same_map : forall A (f g : A -> rx P) l, (forall a, In a l -> same_rx (f a) (g a)) -> same_list files H (map f l) (map g l).
Proof. intros A f g l. induction l as [| a l IH]; intros K; cbn [map]; constructor; [apply K; now left | apply IH; intros; apply K; now right]. Qed.
Lemma expr_same : forall G r, private G -> within r -> forall e, each_expr found_expr e -> each_expr (tells_expr G r) e -> forall t, typed S (G ++ Gm) e t ->
  same_rx (c_rx r (c_expr S (G ++ Gm) e)) (s_rx r e).
Proof.
  intros G r Pr In_. unfold SpecRun.c_rx.
  induction e as [a k IHa IHk | p op a b IHa IHb | p op x f IH | b x IH | es IHe _ | p f args IHf IHa | l | n | op x IH
    | p op x IH | b | x IH] using expr_ind'; intros [F0 F] [E0 E] t T; cbn [SpecTarget.c_expr values SpecRun.named SpecRun.s_rx]; cbn [SpecTyping.typed] in T.
  - destruct T as (ta & ti & T1 & T2 & _). constructor; [eapply IHa | eapply IHk]; eauto; first [apply F | apply E].
  - destruct T as (ta & ti & T1 & T2 & _). constructor; [eapply IHa | eapply IHb]; eauto; first [apply F | apply E].
  - destruct T as (tx & T & _). rewrite (word_plain _ F0). constructor. eauto.
  - destruct T as ((tx & T) & K & _). constructor; [exact (F0 r In_ K) | eauto].
  - destruct T as [T _]. rewrite !map_map. cbn [fst snd]. constructor. cbn [found_expr] in F0. rewrite all_in in F0, F, E, T. rewrite Forall_forall in IHe.
    induction es as [| x es IHl]; cbn [map]; [constructor |].
    destruct (T x (or_introl eq_refl)) as [D (tx & Tx)]. destruct (F0 x (or_introl eq_refl)) as [B K].
    assert (V : same_rx (named r (values (c_expr S (G ++ Gm) (snd x)))) (s_rx r (snd x))).
    { apply (IHe x (or_introl eq_refl)) with (t := tx); auto; [apply F | apply E]; now left. }
    assert (R : same_entries files H (map (fun x => (fst (fst x), match member_key (fst (fst x), option_map values (option_map c_key (snd (fst x)))) with
        Some y => Some (RWord (c_word files i y)) | None => option_map (named r) (option_map values (option_map c_key (snd (fst x)))) end, named r (values (c_expr S (G ++ Gm) (snd x))))) es)
      (map (fun x => (fst (fst x), option_map s_key (snd (fst x)), s_rx r (snd x))) es)).
    { apply IHl; try exact I; intros y Y; first [exact (IHe y (or_intror Y)) | exact (F0 y (or_intror Y)) | exact (F y (or_intror Y)) | exact (E y (or_intror Y)) | exact (T y (or_intror Y))]. }
    rewrite B. destruct (snd (fst x)) as [k |]; cbn [option_map].
    + cbn [all_opt] in D. destruct k; try (now destruct D). cbn [plain_key] in K. cbn [c_key values member_key s_key]. rewrite (word_plain _ K). apply Same_key; [constructor | exact V | exact R].
    + cbn [member_key option_map]. apply Same_entry; [exact V | exact R].
  - destruct T as (Ta & tf & Tf & _). constructor.
    + destruct (is_name f "calloc!") eqn:N; cbn [values SpecRun.named].
      * constructor. exact (F0 N G r tf Pr In_ (E0 N) Tf).
      * eapply IHf; eauto; [apply F | apply E].
    + rewrite !map_map. apply same_map. intros a A. rewrite Forall_forall in IHa. destruct F as [_ F], E as [_ E]. rewrite all_in in F, E, Ta. destruct (Ta a A) as (ta & Tx). eapply IHa; eauto.
  - destruct l; constructor.
  - constructor. exact (F0 G r t Pr In_ E0 T).
  - destruct T as [T _]. constructor. eauto.
  - destruct T as (tx & T & _). constructor. eauto.
  - destruct T as [T _]. constructor. exact (F0 r In_ T).
  - destruct T as ((tx & T) & _). constructor. eauto.
Qed.

(** ** Executions *)
Definition fits (G : list decl) (r : scope P) : Prop := within r /\ forall x, In x (map d_name G) <-> place_of r x <> None.
Lemma fits_tells : forall G r e, fits G r -> each_expr (tells_expr G r) e.
Proof.
  intros G r e [_ F]. apply each_subs. intros x _. destruct x; cbn [tells_expr]; auto; intros; intros _; apply F.
Qed.
Lemma value_same : forall G r e, private G -> fits G r -> each_expr found_expr e -> ok_value S (G ++ Gm) e ->
  same_rx (c_rx r (c_expr S (G ++ Gm) e)) (s_rx r e).
Proof. intros G r e Pr F E (t & T). eapply expr_same; eauto; [apply F | now apply fits_tells]. Qed.

Variables (T T' : table (h_world H) (h_value H)).
Hypothesis HT : same_table H T T'.
Notation M := (c_machine files H i locals T).
Notation oo := (@outcome_of files H i locals T).
Notation act := (deed (scope P) (h_world H) (h_value H)).
Lemma all_outcomes : forall o : outcome M, exists o', o = oo o'.
Proof.
  intros [r w | w | w | w v | w | w]; [exists (ONext r w) | exists (OBroke w) | exists (OContinued w) | exists (OReturned w v) | exists (OEnded w) | exists (OPaused w)]; reflexivity.
Qed.
Lemma oo_inj : forall o o', oo o = oo o' -> o = o'.
Proof. intros [] [] E; cbn in E; try discriminate; injection E; intros; subst; reflexivity. Qed.
Lemma oo_next : forall o r w, oo o = Next M r w -> o = ONext r w.
Proof. intros [] ? ? E; cbn in E; try discriminate; injection E; intros; subst; reflexivity. Qed.
Lemma oo_paused : forall o w, oo o = Paused M w <-> o = OPaused w.
Proof. intros [] ?; cbn; split; intros E; try discriminate; injection E; intros; subst; reflexivity. Qed.
Lemma oo_ended : forall o w, oo o = Ended M w <-> o = OEnded w.
Proof. intros [] ?; cbn; split; intros E; try discriminate; injection E; intros; subst; reflexivity. Qed.
Lemma oo_abrupt : forall o, abrupt M (oo o) <-> is_abrupt _ _ _ o.
Proof. intros []; reflexivity. Qed.

(** From scopes that fit [G], the same happens, and the scopes it leads to fit
    [G']. *)
Definition agrees (G G' : list decl) (a : exec M) (b : act) : Prop :=
  forall r w, fits G r -> (forall o, a r w (oo o) <-> b r w o) /\ forall r' w', b r w (ONext r' w') -> fits G' r'.
Lemma ag_seq : forall G G1 G2 a a' b b', agrees G G1 a a' -> agrees G1 G2 b b' -> agrees G G2 (SpecExec.seq M a b) (and_then a' b').
Proof.
  intros G G1 G2 a a' b b' A B r w F. destruct (A r w F) as [A1 A2]. split.
  - intros o. unfold SpecExec.seq, and_then. rewrite oo_abrupt, A1. split; intros [(r' & w' & X & Y) | X]; auto; left; exists r', w'.
    + apply (A1 (ONext r' w')) in X. split; [exact X |]. apply B; [eapply A2; eauto | exact Y].
    + split; [now apply (A1 (ONext r' w')) |]. apply B; [eapply A2; eauto | exact Y].
  - intros r' w' [(r1 & w1 & X & Y) | [[] _]]. eapply B; [eapply A2; eauto | exact Y].
Qed.
Lemma ag_block : forall G G' a b, agrees G G' a b -> agrees G G (scoped M a) (block b).
Proof.
  intros G G' a b A r w F. destruct (A r w F) as [A1 A2]. split.
  - intros o. unfold scoped, block. split; intros (o' & X & Y).
    + destruct (all_outcomes o') as (o1 & ->). exists o1. split; [now apply A1 |]. destruct o1; cbn in Y; apply oo_inj; exact Y.
    + exists (oo o'). split; [now apply A1 |]. rewrite Y. destruct o'; reflexivity.
  - intros r' w' (o & X & Y). destruct o; try discriminate. injection Y as -> _. exact F.
Qed.
Lemma ag_switched : forall G G' a b, agrees G G' a b -> agrees G G (switched M a) (switch_block b).
Proof.
  intros G G' a b A r w F. destruct (A r w F) as [A1 A2]. split.
  - intros o. unfold switched, switch_block. split; intros (o' & X & Y).
    + destruct (all_outcomes o') as (o1 & ->). exists o1. split; [now apply A1 |]. destruct o1; cbn in Y; apply oo_inj; exact Y.
    + exists (oo o'). split; [now apply A1 |]. rewrite Y. destruct o'; reflexivity.
  - intros r' w' (o & X & Y). destruct o; try discriminate; injection Y as -> _; exact F.
Qed.
Lemma ag_skip : forall G, agrees G G (skip M) nothing.
Proof.
  intros G r w F. split.
  - intros o. unfold skip, nothing. rewrite oo_paused. split; intros [X | X]; auto; right; [now apply oo_next | now rewrite X].
  - intros r' w' [X | X]; [discriminate |]. now injection X as -> _.
Qed.
Lemma ag_now : forall G, agrees G G (now M (Next M)) done.
Proof.
  intros G r w F. split.
  - intros o. unfold now, done. split; intros X; [now apply oo_next | now rewrite X].
  - intros r' w' X. now injection X as -> _.
Qed.
Lemma ag_jump : forall G G' f f', (forall w, f w = oo (f' w)) -> (forall w r w', f' w <> ONext r w') -> agrees G G' (jump M f) (leave f').
Proof.
  intros G G' f f' E N r w F. split.
  - intros o. unfold jump, leave. rewrite oo_paused, E. split; intros [X | X]; auto; right; [now apply oo_inj | now rewrite X].
  - intros r' w' [X | X]; [discriminate |]. symmetry in X. destruct (N _ _ _ X).
Qed.
(** Evaluations that come to the same. *)
Definition equal_at (G : list decl) (e : cexpr) (d : meaning (scope P) (h_world H) (h_value H)) : Prop :=
  forall r w o, fits G r -> (evals M e r w o <-> d r w o).
Lemma value_equal : forall G e, private G -> each_expr found_expr e -> ok_value S (G ++ Gm) e ->
  equal_at G (c_expr S (G ++ Gm) e) (value_of heads mods H i T' e).
Proof. intros G e Pr E K r w o F. apply (law_evals _ _ law); [exact HT | now apply value_same]. Qed.
Lemma ag_run : forall G G' e d k k', equal_at G e d ->
  (forall v r w, fits G r -> (forall o, k w v r w (oo o) <-> k' v r w o) /\ forall r' w', k' v r w (ONext r' w') -> fits G' r') ->
  agrees G G' (run M e k) (compute d k').
Proof.
  intros G G' e d k k' E K r w F. split.
  - intros o. unfold run, compute. rewrite oo_paused. split; (intros [X | [(w' & v & X & Y) | (w' & X & Y)]]; [now left | right; left | right; right]).
    + exists w', v. split; [now apply E | now apply K].
    + exists w'. split; [now apply E | now apply oo_ended].
    + exists w', v. split; [now apply E | now apply K].
    + exists w'. split; [now apply E | now apply oo_ended].
  - intros r' w' [X | [(w1 & v & X & Y) | (w1 & X & Y)]]; try discriminate. eapply (K v r w1); eauto.
Qed.
Lemma ag_expression : forall G e d, equal_at G e d -> agrees G G (expression M e) (compute d (fun _ => done)).
Proof. intros G e d E. apply ag_run; [exact E |]. intros v r w F. exact (ag_now G r w F). Qed.
Lemma ag_branch : forall G G' c d a a' b b', equal_at G c d -> agrees G G' a a' -> agrees G G' b b' -> agrees G G' (branch M c a b) (choice (h_truth H) d a' b').
Proof.
  intros G G' c d a a' b b' E A B. unfold branch, choice. apply ag_run; [exact E |]. intros v r w F. change (truth M v) with (h_truth H v). destruct (h_truth H v); [now apply A | now apply B].
Qed.
Lemma ag_return : forall G G' e, private G -> all_opt (each_expr found_expr) e -> all_opt (ok_value S (G ++ Gm)) e ->
  agrees G G' (return_ M (option_map (fun e => c_expr S (G ++ Gm) e) e)) (match e with Some e => compute (value_of heads mods H i T' e) returning | None => leave (fun w => OReturned w None) end).
Proof.
  intros G G' [e |] Pr E K; cbn [option_map return_].
  - apply ag_run; [now apply value_equal |]. intros v r w F. split.
    + intros o. unfold now, returning. split; intros X; [destruct o; cbn in X; try discriminate; injection X as -> ->; reflexivity | now rewrite X].
    + intros r' w' X. discriminate.
  - apply ag_jump; [reflexivity | discriminate].
Qed.
(** Loops. *)
Definition equal_opt (G : list decl) (c : option cexpr) (d : option (meaning (scope P) (h_world H) (h_value H))) : Prop :=
  match c, d with Some c, Some d => equal_at G c d | None, None => True | _, _ => False end.
Lemma holds_equal : forall G c d r w b w', equal_opt G c d -> fits G r -> (SpecExec.decides M c r w b w' <-> holds _ _ _ (h_truth H) d r w b w').
Proof.
  intros G [c |] [d |] r w b w' E F; cbn in *; try (now destruct E).
  split; intros (v & X & Y); exists v; (split; [now apply (E r w (Gives w' v) F) | exact Y]).
Qed.
Lemma performs_equal : forall G c d r w w', equal_opt G c d -> fits G r -> (SpecExec.acts M c r w w' <-> performs _ _ _ d r w w').
Proof.
  intros G [c |] [d |] r w w' E F; cbn in *; try (now destruct E).
  split; intros (v & X); exists v; now apply (E r w (Gives w' v) F).
Qed.
Lemma finishes_equal : forall G c d r w w', equal_opt G c d -> fits G r -> (SpecExec.ends M c r w w' <-> finishes _ _ _ d r w w').
Proof. intros G [c |] [d |] r w w' E F; cbn in *; try (now destruct E). exact (E r w (Ends w') F). Qed.
Scheme cycle_mind := Minimality for cycle Sort Prop with turn_mind := Minimality for next_turn Sort Prop.
Combined Scheme cycle_turn_mind from cycle_mind, turn_mind.
Lemma ag_loop : forall G G' c d a e b b', equal_opt G c d -> equal_opt G a e -> agrees G G' b b' ->
  agrees G G (loop M c a b) (cycle (h_truth H) d e b').
Proof.
  intros G G' c d a e b b' Ec Ea Eb r w0 F.
  assert (K1 : (forall w O, loop M c a b r w O -> forall o, O = oo o -> cycle (h_truth H) d e b' r w o)
    /\ (forall O1 O, again M c a b r O1 O -> forall o1 o, O1 = oo o1 -> O = oo o -> next_turn _ _ _ (h_truth H) d e b' r o1 o)).
  { apply (loop_again_mind M c a b r (fun w O => forall o, O = oo o -> cycle (h_truth H) d e b' r w o) (fun O1 O => forall o1 o, O1 = oo o1 -> O = oo o -> next_turn _ _ _ (h_truth H) d e b' r o1 o)).
    - intros w o E. symmetry in E. apply oo_paused in E as ->. constructor.
    - intros w w' X o E. symmetry in E. apply oo_ended in E as ->. apply Cycle_ends. now apply (finishes_equal G c d r w w' Ec F).
    - intros w w' X o E. symmetry in E. apply oo_next in E as ->. apply Cycle_stop. now apply (holds_equal G c d r w false w' Ec F).
    - intros w w1 O1 O X Y _ Z o E. destruct (all_outcomes O1) as (o1 & ->). eapply Cycle_turn; [apply (holds_equal G c d r w true w1 Ec F); exact X | apply Eb; [exact F | exact Y] | now apply Z].
    - intros O1 w w' O X Y _ Z o1 o E1 E. apply (Turn_again _ _ _ _ _ _ _ _ _ w w').
      + destruct X as [X | (r' & X)]; rewrite X in E1; destruct o1; try discriminate E1; [left | right; eexists]; cbn in E1; f_equal; congruence.
      + now apply (performs_equal G a e r w w' Ea F).
      + now apply Z.
    - intros O1 w w' X Y o1 o E1 E. symmetry in E. apply oo_ended in E as ->. apply (Turn_ends _ _ _ _ _ _ _ _ _ w w').
      + destruct X as [X | (r' & X)]; rewrite X in E1; destruct o1; try discriminate E1; [left | right; eexists]; cbn in E1; f_equal; congruence.
      + now apply (finishes_equal G a e r w w' Ea F).
    - intros w o1 o E1 E. symmetry in E. apply oo_next in E as ->. destruct o1; try discriminate E1. injection E1 as <-. constructor.
    - intros O X o1 o -> E. apply oo_inj in E as <-. apply Turn_leave. destruct o1; cbn in X |- *; tauto. }
  assert (K2 : (forall w o, cycle (h_truth H) d e b' r w o -> loop M c a b r w (oo o) /\ forall r' w', o = ONext r' w' -> r' = r)
    /\ (forall o1 o, next_turn _ _ _ (h_truth H) d e b' r o1 o -> again M c a b r (oo o1) (oo o) /\ forall r' w', o = ONext r' w' -> r' = r)).
  { apply (cycle_turn_mind _ _ _ (h_truth H) d e b' r (fun w o => loop M c a b r w (oo o) /\ forall r' w', o = ONext r' w' -> r' = r) (fun o1 o => again M c a b r (oo o1) (oo o) /\ forall r' w', o = ONext r' w' -> r' = r)).
    - intros w. split; [constructor | discriminate].
    - intros w w' X. split; [| discriminate]. apply Loop_ends. now apply (finishes_equal G c d r w w' Ec F).
    - intros w w' X. split; [| intros ? ? [= <- _]; reflexivity]. apply Loop_stop. now apply (holds_equal G c d r w false w' Ec F).
    - intros w w1 o1 o X Y _ [Z1 Z2]. split; [| exact Z2]. eapply Loop_turn; [apply (holds_equal G c d r w true w1 Ec F); exact X | apply Eb; [exact F | exact Y] | exact Z1].
    - intros o1 w w' o X Y _ [Z1 Z2]. split; [| exact Z2]. apply (Again_turn M _ _ _ _ _ w w').
      + destruct X as [-> | (r' & ->)]; [left | right; eexists]; reflexivity.
      + now apply (performs_equal G a e r w w' Ea F).
      + exact Z1.
    - intros o1 w w' X Y. split; [| discriminate]. apply (Again_ends M _ _ _ _ _ w w').
      + destruct X as [-> | (r' & ->)]; [left | right; eexists]; reflexivity.
      + now apply (finishes_equal G a e r w w' Ea F).
    - intros w. split; [constructor | intros ? ? [= <- _]; reflexivity].
    - intros o X. split; [| intros r' w' ->; destruct X]. apply Again_leave. destruct o; cbn in X |- *; tauto. }
  split.
  - intros o. split; intros X; [exact (proj1 K1 _ _ X _ eq_refl) | exact (proj1 (proj1 K2 _ _ X))].
  - intros r' w' X. rewrite (proj2 (proj1 K2 _ _ X) _ _ eq_refl). exact F.
Qed.

(** ** Declarations *)
Lemma place_cons : forall (r : scope P) y p x, place_of ((y, p) :: r) x <> None <-> y = x \/ place_of r x <> None.
Proof.
  intros r y p x. unfold place_of. cbn [find fst]. destruct (str_eqb_spec y x) as [-> | N]; cbn [option_map]; [split; [now left | discriminate] |].
  split; [now right | intros [E | E]; [contradiction | exact E]].
Qed.
Lemma fits_new : forall G r d p, fits G r -> In (d_name d) locals -> fits (d :: G) ((d_name d, p) :: r).
Proof.
  intros G r d p [F1 F2] I. split.
  - intros x X. apply place_cons in X as [<- | X]; [exact I | now apply F1].
  - intros x. rewrite place_cons. cbn [map In]. now rewrite F2.
Qed.
Lemma without_tells : forall d G r f, fits G r -> without (d_name d) f -> each_form (tells_expr (d :: G) r) f.
Proof.
  intros d G r f [_ F] W. unfold without, each_form in *. rewrite all_in in *. intros o I. specialize (W o I). destruct o as [e |]; cbn [all_opt] in *; auto.
  eapply (expr_mp3 (fun _ => True)); [| | exact W].
  - intros x _ X. destruct x; cbn [tells_expr]; auto.
    + intros N E. cbn [ns_name map In] in *. rewrite <- F. split; [intros [Q | Q]; [destruct (X N Q) | exact Q] | now right].
    + intros E. cbn [map In]. rewrite <- F. split; [intros [Q | Q]; [destruct X; auto | exact Q] | now right].
  - apply each_subs. auto.
Qed.
Notation same_rdecl := (same_rdecl files H).
Lemma rdecl_same : forall G r name t f, private G -> within r -> found_type t -> type_known S t -> each_form found_expr f -> each_form (tells_expr G r) f -> ok_form S (G ++ Gm) f ->
  same_rdecl (c_rdecl files i locals (c_type S t) (c_form S (G ++ Gm) name f) r) (s_rdecl heads mods i t f r).
Proof.
  intros G r name t f Pr W Ft K E Te O. unfold SpecRun.same_rdecl, c_rdecl, s_rdecl. cbn [fst snd c_form cf_stars cf_indexes]. split; [exact (Ft r W K) |]. split; [apply repeat_length |].
  unfold each_form, ok_form in *. rewrite all_in in *. rewrite map_map.
  revert E Te O. induction (f_indexes f) as [| o l IH]; intros E Te O; cbn [map]; constructor.
  - specialize (E o (or_introl eq_refl)). specialize (Te o (or_introl eq_refl)). specialize (O o (or_introl eq_refl)). destruct o as [e |]; cbn in *; [| exact I].
    destruct O as (t' & T0). exact (expr_same G r Pr W e E Te t' T0).
  - apply IH; intros x X; [apply E | apply Te | apply O]; now right.
Qed.
Lemma new_same : forall x d d' v v' r w o, same_rdecl d d' ->
  (forall p, match v, v' with Some v, Some v' => same_rx (v ((x, p) :: r)) (v' ((x, p) :: r)) | None, None => True | _, _ => False end) ->
  (new_variable H T x d v r w o <-> new_variable H T' x d' v' r w o).
Proof.
  intros x d d' v v' r w o Sd Sv. unfold new_variable. pose proof (law_alloc _ _ law _ _ _ _ HT Sd) as A.
  destruct v as [v |], v' as [v' |].
  - assert (N : forall p w o, h_init H T p (v ((x, p) :: r)) w o <-> h_init H T' p (v' ((x, p) :: r)) w o) by (intros p w1 o1; apply (law_init _ _ law); [exact HT | apply Sv]).
    split; (intros [(w1 & X & Y) | (w1 & p & X & Y)]; [left; exists w1 | right; exists w1, p]); (split; [now apply A |]); auto;
      (destruct Y as [(w2 & Y & Z) | (w2 & Y & Z)]; [left | right]; exists w2; (split; [now apply N | exact Z])).
  - split; (intros [(w1 & X & Y) | (w1 & p & X & Y)]; [left; exists w1 | exfalso; exact (Sv p)]); (split; [now apply A |]); auto.
  - split; (intros [(w1 & X & Y) | (w1 & p & X & Y)]; [left; exists w1 | exfalso; exact (Sv p)]); (split; [now apply A |]); auto.
  - split; (intros [(w1 & X & Y) | (w1 & p & X & Y)]; [left; exists w1 | right; exists w1, p]); (split; [now apply A |]); auto.
Qed.
Lemma ag_declare : forall G t f v, private G -> In (f_name f) locals -> found_type t -> type_known S t -> each_form found_expr f -> without (f_name f) f ->
  ok_form S ((local t f :: G) ++ Gm) f -> all_opt (each_expr found_expr) v -> all_opt (ok_value S ((local t f :: G) ++ Gm)) v ->
  agrees G (local t f :: G) (declare M (c_type S t) (local_form S ((local t f :: G) ++ Gm) f) (option_map (fun e => c_expr S ((local t f :: G) ++ Gm) e) v))
    (s_variable heads mods H i T' t f v).
Proof.
  intros G t f v Pr I Ft K E W O Ev Ov r w F. set (d := local t f) in *.
  assert (Pr' : private (d :: G)) by (constructor; [reflexivity | exact Pr]).
  assert (N : forall o, makes M (c_type S t) (local_form S ((d :: G) ++ Gm) f) (option_map (fun e => c_expr S ((d :: G) ++ Gm) e) v) r w o
    <-> new_variable H T' (f_name f) (s_rdecl heads mods i t f r) (option_map (fun v r => initializer (s_rx r v)) v) r w o).
  { intros o. cbn [makes c_machine]. apply new_same.
    - apply rdecl_same; auto; [apply F |]. exact (without_tells d G r f F W).
    - intros p. destruct v as [v |]; cbn [option_map]; [| exact Logic.I]. apply same_init. apply value_same; auto. exact (fits_new G r d p F I). }
  split.
  - intros o. unfold declare, s_variable, extend. rewrite oo_paused. split; (intros [X | [(r' & w' & X & Y) | (w' & X & Y)]]; [now left | right; left; exists r', w' | right; right; exists w']);
      (split; [now apply N |]); [now apply oo_next | now apply oo_ended | now rewrite Y | now rewrite Y].
  - intros r' w' [X | [(r1 & w1 & X & Y) | (w1 & X & Y)]]; try discriminate. injection Y as -> ->.
    unfold new_variable in X. destruct X as [(w2 & _ & Q) | (w2 & p & _ & Q)]; [discriminate |].
    assert (Q' : r1 = (d_name d, p) :: r).
    { destruct v as [v |]; cbn [option_map] in Q; [destruct Q as [(w3 & _ & Q) | (w3 & _ & Q)] |]; try discriminate; now injection Q as _ ->. }
    rewrite Q'. now apply fits_new.
Qed.

(** ** Statements *)
Notation s_does := (s_does heads mods H i T').
Notation s_body := (s_body heads mods H i T').
Notation value_of := (value_of heads mods H i T').
Lemma body_fix : forall l, (fix body (l : list stmt) : act := match l with [] => nothing | s :: l => and_then (s_does s) (body l) end) l = s_body l.
Proof. induction l as [| s l IH]; [reflexivity |]. cbn [SpecRun.s_body]. now rewrite IH. Qed.
Fixpoint s_choose (same : switch_value -> bool) (def : option (list stmt)) (as_block : act -> act) (cases : list (list switch_value * list stmt)) : act :=
  match cases with
  | c :: l => if existsb same (fst c) then as_block (s_body (snd c)) else s_choose same def as_block l
  | [] => match def with Some b => as_block (s_body b) | None => done end
  end.
Lemma choose_fix : forall same def as_block cases,
  (fix choose (cases : list (list switch_value * list stmt)) : act :=
    match cases with
    | c :: l => if existsb same (fst c) then as_block ((fix body (l : list stmt) : act := match l with [] => nothing | s :: l => and_then (s_does s) (body l) end) (snd c)) else choose l
    | [] => match def with Some b => as_block ((fix body (l : list stmt) : act := match l with [] => nothing | s :: l => and_then (s_does s) (body l) end) b) | None => done end
    end) cases = s_choose same def as_block cases.
Proof.
  intros same def as_block. induction cases as [| c l IH]; cbn [s_choose].
  - destruct def as [b |]; [| reflexivity]. now rewrite body_fix.
  - rewrite IH, body_fix. reflexivity.
Qed.
Lemma does_if : forall c b e, s_does (SIf c b e) = choice (h_truth H) (value_of c) (block (s_body b)) (match e with Some b => block (s_body b) | None => done end).
Proof. reflexivity. Qed.
Lemma does_while : forall c b, s_does (SWhile c b) = cycle (h_truth H) (Some (value_of c)) None (block (s_body b)).
Proof. reflexivity. Qed.
Lemma does_for : forall x c a b, s_does (SFor x c a b) =
  block (and_then (s_init heads mods H i T' x) (cycle (h_truth H) (option_map value_of c) (option_map value_of a) (block (s_body b)))).
Proof. reflexivity. Qed.
Lemma agrees_ext : forall G G' a a' b b', agrees G G' a b -> (forall r w o, a r w o <-> a' r w o) -> (forall r w o, b r w o <-> b' r w o) -> agrees G G' a' b'.
Proof.
  intros G G' a a' b b' A Ea Eb r w F. destruct (A r w F) as [A1 A2]. split.
  - intros o. rewrite <- Ea, <- Eb. apply A1.
  - intros r' w' X. apply Eb in X. eauto.
Qed.

Definition found_label (v : switch_value) : Prop := match v with SVIdent n => found n | SVLit _ => True end.
Definition found_stmt (s : stmt) : Prop :=
  match s with
  | SVarDecl v => found_type (v_type v) /\ without (f_name (v_form v)) (v_form v)
  | SFor (Some (FIDecl t f _)) _ _ _ => found_type t /\ without (f_name f) f
  | SSwitch str v cs _ => all (fun c => all found_label (fst c)) cs
      /\ (str = false -> all (fun c => all (fun v => match v with SVIdent n => ns_ns n = [] -> ~ In (ns_name n) locals | SVLit _ => True end) (fst c)) cs)
      /\ (str = true -> forall G r, private G -> ok_value S (G ++ Gm) v -> calm files H (c_rx r (c_expr S (G ++ Gm) v)))
  | _ => True
  end.
(** What the generated code calls by itself. *)
Hypothesis generated : forall x, In x ["strcmp"; "fprintf"; "stderr"; "exit"]%string -> forall r : scope P, c_thing r (lit x) = TKnown i (UName (lit x)).
Hypothesis here : nth_error heads i = Some (own S).
Definition stmt_ag (s : stmt) : Prop := forall G, private G -> ok_stmt S (G ++ Gm) s -> each_stmt found_expr found_stmt s -> (forall x, In x (stmt_names s) -> In x locals) ->
  incl (map d_name G) locals -> agrees G (declares s ++ G) (s_exec M S (G ++ Gm) s) (s_does s).
Lemma body_ag : forall b, Forall stmt_ag b -> forall G, private G -> ok_stmts S (G ++ Gm) b -> all (each_stmt found_expr found_stmt) b ->
  (forall x, In x (flat_map stmt_names b) -> In x locals) -> incl (map d_name G) locals -> exists G', agrees G G' (s_execs M S (G ++ Gm) b) (s_body b).
Proof.
  induction b as [| s b IH]; intros F G Pr K E N Il; cbn [s_execs SpecRun.s_body]; [exists G; apply ag_skip |].
  inversion F as [| ? ? F1 F2]; subst. destruct K as [K1 K2], E as [E1 E2]. rewrite app_assoc in K2 |- *.
  assert (A : agrees G (declares s ++ G) (s_exec M S (G ++ Gm) s) (s_does s)) by (apply F1; auto; intros x X; apply N; cbn [flat_map]; rewrite in_app_iff; auto).
  destruct (IH F2 (declares s ++ G)) as (G' & B); auto.
  - apply Forall_app. split; [apply declares_private | exact Pr].
  - intros x X. apply N. cbn [flat_map]. rewrite in_app_iff. auto.
  - rewrite map_app. apply incl_app; [| exact Il]. intros x X. apply N. cbn [flat_map]. rewrite in_app_iff. left. destruct s; cbn in X |- *; tauto.
  - exists G'. eapply ag_seq; eauto.
Qed.
Lemma block_ag : forall b, Forall stmt_ag b -> forall G, private G -> ok_stmts S (G ++ Gm) b -> all (each_stmt found_expr found_stmt) b ->
  (forall x, In x (flat_map stmt_names b) -> In x locals) -> incl (map d_name G) locals -> agrees G G (scoped M (s_execs M S (G ++ Gm) b)) (block (s_body b)).
Proof. intros b F G Pr K E N Il. destruct (body_ag b F G Pr K E N Il) as (G' & A). eapply ag_block; eauto. Qed.
Lemma label_same : forall G r v, private G -> within r -> match v with SVIdent n => tells G r n | SVLit _ => True end -> ok_case S (G ++ Gm) v -> found_label v ->
  same_rx (c_rx r (c_value S (G ++ Gm) v)) (s_label heads mods i r v).
Proof.
  intros G r [n | l] Pr W Te K F; cbn in *; [| destruct l; constructor]. destruct K as (t & K). constructor. exact (F G r t Pr W Te K).
Qed.
Lemma choose_ag : forall G same same' def as_block as_block' cases, private G -> incl (map d_name G) locals ->
  (forall a b G', agrees G G' a b -> agrees G G (as_block a) (as_block' b)) ->
  (forall c v, In c cases -> In v (fst c) -> same v = same' v) ->
  all (fun c => ok_stmts S (G ++ Gm) (snd c)) cases -> all (fun c => all (each_stmt found_expr found_stmt) (snd c)) cases -> Forall (fun c => Forall stmt_ag (snd c)) cases ->
  all_opt (ok_stmts S (G ++ Gm)) def -> all_opt (all (each_stmt found_expr found_stmt)) def -> opt_all stmt_ag def ->
  (forall x, In x (flat_map (fun c => flat_map stmt_names (snd c)) cases ++ match def with Some b => flat_map stmt_names b | None => [] end) -> In x locals) ->
  agrees G G (choose M S (G ++ Gm) same def as_block cases) (s_choose same' def as_block' cases).
Proof.
  intros G same same' def as_block as_block' cases Pr Il Eb. induction cases as [| c l IH]; intros Es K E F Kd Ed Fd N; cbn [choose s_choose].
  - destruct def as [b |]; [| apply ag_now]. destruct (body_ag b Fd G Pr Kd Ed N Il) as (G' & A). exact (Eb _ _ _ A).
  - assert (Q : existsb same (fst c) = existsb same' (fst c)).
    { pose proof (fun v => Es c v (or_introl eq_refl)) as Ec. revert Ec. generalize (fst c). intros vs. induction vs as [| v vs IHv]; intros Ec; cbn [existsb]; [reflexivity |].
      rewrite (Ec v (or_introl eq_refl)), IHv; [reflexivity |]. intros v' I. apply Ec. now right. }
    rewrite Q. destruct K as [K1 K2], E as [E1 E2]. inversion F as [| ? ? F1 F2]; subst. cbn [flat_map] in N. destruct (existsb same' (fst c)).
    + destruct (body_ag (snd c) F1 G Pr K1 E1) as (G' & A); auto; [intros x X; apply N; rewrite !in_app_iff; auto |]. exact (Eb _ _ _ A).
    + apply IH; auto.
      * intros c' v I. apply Es. now right.
      * intros x X. apply N. rewrite !in_app_iff in *. tauto.
Qed.
Lemma panic_ag : forall G p args, private G -> all (ok_value S (G ++ Gm)) args -> all (each_expr found_expr) args ->
  agrees G G (scoped M (fold_right (fun e k => SpecExec.seq M (expression M e) k) (skip M) (panic_calls S p (map (fun a => c_expr S (G ++ Gm) a) args))))
    (block (fold_right (fun e b => and_then (compute (evaluate H T' e) (fun _ => done)) b) nothing (s_panic heads mods i p args))).
Proof.
  intros G p args Pr K E. eapply ag_block.
  assert (Q : forall e d, (forall r, fits G r -> same_rx (c_rx r e) (d r)) -> agrees G G (expression M e) (compute (evaluate H T' d) (fun _ => done))).
  { intros e d Ed. apply ag_expression. intros r w o F. apply (law_evals _ _ law); [exact HT | now apply Ed]. }
  assert (Q' : forall e d k b, (forall r, fits G r -> same_rx (c_rx r e) (d r)) -> agrees G G k b ->
    agrees G G (SpecExec.seq M (expression M e) k) (and_then (compute (evaluate H T' d) (fun _ => done)) b)).
  { intros e d k b Ed A. eapply ag_seq; [now apply Q | exact A]. }
  assert (St : forall r, same_rx (named r (values (CIdent (L "stderr")))) (stderr i)).
  { intros r. cbn [values SpecRun.named]. rewrite (generated "stderr" ltac:(cbn; tauto)). constructor. constructor. }
  assert (Cl : forall f r l l', In f ["strcmp"; "fprintf"; "stderr"; "exit"]%string -> same_list files H (map (named r) (map values l)) l' -> same_rx (c_rx r (call f l)) (library_call i f l')).
  { intros f r l l' I S'. unfold SpecRun.c_rx, call, library_call. cbn [values SpecRun.named]. constructor; [| exact S']. constructor. rewrite (generated f I). constructor. }
  unfold panic_calls, s_panic. cbn [fold_right].
  apply Q'; [intros r F; apply Cl; [cbn; tauto |]; cbn [map]; constructor; [apply St |]; constructor; [constructor |]; constructor; [| constructor] |].
  { unfold place. rewrite here. constructor. }
  apply Q'; [intros r F; apply Cl; [cbn; tauto |]; cbn [map]; constructor; [apply St |] |].
  { rewrite !map_map. apply same_map. intros a I. rewrite all_in in K, E. apply value_same; auto. }
  apply Q'; [intros r F; apply Cl; [cbn; tauto |]; cbn [map]; constructor; [apply St |]; constructor; [constructor |]; constructor |].
  apply Q'; [intros r F; apply Cl; [cbn; tauto |]; cbn [map]; constructor; constructor | apply ag_skip].
Qed.
Lemma stmt_agrees : forall s, stmt_ag s.
Proof.
  induction s as [| | v | c b e IHb IHe | x c a b IHb | c b IHb | e | is v cs d IHc IHd | e] using stmt_ind'; intros G Pr K E N Il; apply ok_stmt_eq in K.
  - apply ag_jump; [reflexivity | discriminate].
  - apply ag_jump; [reflexivity | discriminate].
  - destruct E as [[E1 E2] [E3 E4]]. cbn [ok_stmt] in K. cbv zeta in K. destruct K as (K1 & K2 & K3). cbn [s_exec SpecRun.s_does]. cbv zeta.
    apply (ag_declare G (v_type v) (v_form v) (v_value v)); auto. apply N. now left.
  - destruct K as (K1 & K2 & K3), E as (_ & E1 & E2 & E3). cbn [stmt_names] in N. rewrite s_if, does_if. cbn [declares app]. apply ag_branch.
    + now apply value_equal.
    + apply block_ag; auto. intros y Y. apply N. rewrite in_app_iff. auto.
    + destruct e as [e |]; [| apply ag_now]. apply block_ag; auto. intros y Y. apply N. rewrite in_app_iff. auto.
  - cbv zeta in K. destruct K as (K1 & K2 & K3 & K4), E as (E0 & E1 & E2 & E3 & E4). cbn [stmt_names] in N. rewrite s_for, does_for. cbv zeta. cbn [declares app].
    assert (Pr' : private (init_declares x ++ G)).
    { destruct x as [[? | t f y] |]; cbn; auto. constructor; [reflexivity | exact Pr]. }
    assert (Il' : incl (map d_name (init_declares x ++ G)) locals).
    { rewrite map_app. apply incl_app; [| exact Il]. intros y Y. apply N. rewrite in_app_iff. left. destruct x as [[? | t f z] |]; cbn in Y |- *; tauto. }
    rewrite app_assoc in K1, K2, K3, K4 |- *.
    eapply ag_block with (G' := init_declares x ++ G). eapply ag_seq with (G1 := init_declares x ++ G).
    + destruct x as [[y | t f y] |]; cbn [init_declares app option_map c_forinit for_init SpecRun.s_init].
      * apply ag_expression. now apply value_equal.
      * destruct E0 as [E0 E0'], E1 as [E1 E1'], K1 as (K1 & K1' & K1''). apply (ag_declare G t f (Some y)); auto. apply N. now left.
      * apply ag_skip.
    + eapply ag_loop with (G' := init_declares x ++ G).
      * destruct c as [c |]; cbn [option_map equal_opt]; [| exact I]. apply value_equal; auto. now apply cond_value.
      * destruct a as [a |]; cbn [option_map equal_opt]; [| exact I]. now apply value_equal.
      * apply block_ag; auto. intros y Y. apply N. rewrite in_app_iff. auto.
  - destruct K as (K1 & K2), E as (_ & E1 & E2). rewrite s_while, does_while. cbn [declares app]. eapply ag_loop with (G' := G).
    + apply value_equal; auto. now apply cond_value.
    + exact I.
    + apply block_ag; auto.
  - destruct E as [_ E]. cbn [ok_stmt] in K. cbn [s_exec SpecRun.s_does]. apply ag_return; auto.
  - destruct K as (K1 & K2 & K3 & _), E as (E0 & E1 & E2 & E3). cbn [found_stmt] in E0. destruct E0 as (E0 & E0' & _). cbn [stmt_names declares app] in N |- *.
    assert (K2' : all (fun c => ok_stmts S (G ++ Gm) (snd c)) cs) by (rewrite all_in in *; intros y Y; destruct (K2 y Y) as (_ & ? & _); auto).
    destruct is.
    + eapply agrees_ext; [| intros r w o; symmetry; apply (s_switch_str M S (G ++ Gm) v cs d r w o) | intros r w o; reflexivity].
      cbn [SpecRun.s_does]. apply ag_run; [now apply value_equal |]. intros x r w F. rewrite choose_fix.
      pose proof (choose_ag G (fun l => same_string M x (c_value S (G ++ Gm) l) r w) (fun l => h_same_string H x (s_label heads mods i r l) w) d (scoped M) block cs) as A.
      apply A; auto; try exact (fun a b G' => ag_block G G' a b).
      intros c y Ic Iy. rewrite all_in in K2, E0. destruct (K2 c Ic) as (K & _). specialize (E0 c Ic). rewrite all_in in K, E0.
      apply (law_same_string _ _ law). apply label_same; auto; [apply F |]. destruct y as [n |]; [| exact I]. intros _. apply F.
    + eapply agrees_ext; [| intros r w o; symmetry; apply (s_switch M S (G ++ Gm) v cs d r w o) | intros r w o; reflexivity].
      cbn [SpecRun.s_does]. apply ag_run; [now apply value_equal |]. intros x r w F. rewrite choose_fix.
      pose proof (choose_ag G (fun l => equals M x (c_value S (G ++ Gm) l)) (fun l => h_equals H x (s_label heads mods i [] l)) d (switched M) switch_block cs) as A.
      apply A; auto; try exact (fun a b G' => ag_switched G G' a b).
      intros c y Ic Iy. rewrite all_in in K2, E0. destruct (K2 c Ic) as (K & _). specialize (E0 c Ic). specialize (E0' eq_refl). rewrite all_in in E0'. specialize (E0' c Ic). rewrite all_in in K, E0, E0'.
      apply (law_equals _ _ law). apply label_same; auto; [intros z Z; now destruct Z |]. destruct y as [n |]; [| exact I]. intros En. specialize (E0' (SVIdent n) Iy En).
      split; [intros Q; destruct E0'; now apply Il | intros Q; now destruct Q].
  - destruct E as [_ E]. cbn [declares app].
    assert (O : ok_value S (G ++ Gm) e -> agrees G G (expression M (c_expr S (G ++ Gm) e)) (compute (value_of e) (fun _ => done))) by (intros V; apply ag_expression; now apply value_equal).
    cbn [ok_stmt s_exec SpecRun.s_does] in K |- *. destruct e; try (now apply O). destruct e; try (now apply O). cbn [is_name] in K |- *.
    destruct (_ && _) eqn:Np; [| now apply O]. apply panic_ag; auto. apply E.
Qed.
(** The body of a function. *)
Lemma whole_agrees : forall b G, private G -> ok_stmts S (G ++ Gm) b -> all (each_stmt found_expr found_stmt) b -> (forall x, In x (flat_map stmt_names b) -> In x locals) ->
  incl (map d_name G) locals -> agrees G G (s_runs M S (G ++ Gm) b) (block (s_body b)).
Proof. intros b G. apply block_ag. apply Forall_forall. intros s _. apply stmt_agrees. Qed.
Lemma stmt_steady : forall s G, private G -> ok_stmt S (G ++ Gm) s -> each_stmt found_expr found_stmt s -> steady M S (G ++ Gm) s.
Proof.
  assert (Bd : forall b, Forall (fun s => forall G, private G -> ok_stmt S (G ++ Gm) s -> each_stmt found_expr found_stmt s -> steady M S (G ++ Gm) s) b ->
    forall G, private G -> ok_stmts S (G ++ Gm) b -> all (each_stmt found_expr found_stmt) b -> steady_body M S (G ++ Gm) b).
  { induction b as [| s b IH]; intros F G Pr K E; [exact I |]. inversion F as [| ? ? F1 F2]; subst. destruct K as [K1 K2], E as [E1 E2]. split; [now apply F1 |].
    rewrite app_assoc in K2 |- *. apply IH; auto. apply Forall_app. split; [apply declares_private | exact Pr]. }
  induction s as [| | v | c b e IHb IHe | x c a b IHb | c b IHb | e | is v cs d IHc IHd | e] using stmt_ind'; intros G Pr K E; try exact I; apply ok_stmt_eq in K; cbn [steady].
  - destruct K as (K1 & K2 & K3), E as (_ & E1 & E2 & E3). rewrite (steady_inner M S (G ++ Gm) b). split; [now apply Bd |]. destruct e as [e |]; [| exact I].
    rewrite (steady_inner M S (G ++ Gm) e). now apply Bd.
  - cbv zeta in K. destruct K as (_ & _ & _ & K4), E as (_ & _ & _ & _ & E4). rewrite (steady_inner M S _ b). rewrite app_assoc in K4 |- *. apply Bd; auto.
    destruct x as [[? | t f y] |]; cbn; auto. constructor; [reflexivity | exact Pr].
  - destruct K as (K1 & K2), E as (_ & E1 & E2). rewrite (steady_inner M S _ b). now apply Bd.
  - destruct K as (K1 & K2 & K3 & K4), E as (E0 & E1 & E2 & E3). cbn [found_stmt] in E0. destruct E0 as (_ & _ & E0). split; [| split].
    + intros ->. split; [| auto]. intros r w. exact (law_calm _ _ law T _ (E0 eq_refl G r Pr K1) w).
    + destruct d as [d |]; [| exact I]. rewrite (steady_inner M S (G ++ Gm) d). now apply Bd.
    + revert K2 E2 IHc. clear K4 E0. induction cs as [| y l IHl]; intros K2 E2 IHc; [exact I |]. inversion IHc as [| ? ? F1 F2]; subst. destruct K2 as [(_ & K2 & K2') K], E2 as [E2 E].
      split; [exact K2' |]. rewrite (steady_inner M S (G ++ Gm) (snd y)). split; [now apply Bd | now apply IHl].
Qed.
Lemma whole_steady : forall b G, private G -> ok_stmts S (G ++ Gm) b -> all (each_stmt found_expr found_stmt) b -> steady_body M S (G ++ Gm) b.
Proof.
  induction b as [| s b IH]; intros G Pr K E; [exact I |]. destruct K as [K1 K2], E as [E1 E2]. split; [now apply stmt_steady |].
  rewrite app_assoc in K2 |- *. apply IH; auto. apply Forall_app. split; [apply declares_private | exact Pr].
Qed.
End Whole.
