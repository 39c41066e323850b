(** The generated statements do what the source statements do. *)
From Verif Require Import Base BaseFacts Buf Nodes NodeInd CAst SpecDecl SpecTarget TargetFacts SpecCStmt CStmtFacts SpecExec.

Section CstInd.
Variable P : cst -> Prop.
Definition Pcst (o : option cst) : Prop := match o with Some s => P s | None => True end.
Hypothesis HNull : P XNull.
Hypothesis HExpr : forall e, P (XExpr e).
Hypothesis HDecl : forall t l, P (XDecl t l).
Hypothesis HBlock : forall l, Forall P l -> P (XBlock l).
Hypothesis HIf : forall c s e, P s -> Pcst e -> P (XIf c s e).
Hypothesis HWhile : forall c s, P s -> P (XWhile c s).
Hypothesis HFor : forall i c a s, P s -> P (XFor i c a s).
Hypothesis HSwitch : forall e s, P s -> P (XSwitch e s).
Hypothesis HCase : forall v s, P s -> P (XCase v s).
Hypothesis HDefault : forall s, P s -> P (XDefault s).
Hypothesis HBreak : P XBreak.
Hypothesis HContinue : P XContinue.
Hypothesis HReturn : forall e, P (XReturn e).
Fixpoint cst_ind' (s : cst) : P s :=
  match s with
  | XNull => HNull
  | XExpr e => HExpr e
  | XDecl t l => HDecl t l
  | XBlock l => HBlock l ((fix all (l : list cst) : Forall P l :=
      match l with [] => Forall_nil _ | s :: r => Forall_cons _ (cst_ind' s) (all r) end) l)
  | XIf c s e => HIf c s e (cst_ind' s) (match e return Pcst e with Some s => cst_ind' s | None => I end)
  | XWhile c s => HWhile c s (cst_ind' s)
  | XFor i c a s => HFor i c a s (cst_ind' s)
  | XSwitch e s => HSwitch e s (cst_ind' s)
  | XCase v s => HCase v s (cst_ind' s)
  | XDefault s => HDefault s (cst_ind' s)
  | XBreak => HBreak
  | XContinue => HContinue
  | XReturn e => HReturn e
  end.
End CstInd.

Section Exec.
Variable M : machine.
Notation exec := (exec M).
Definition same (a b : exec) : Prop := forall r w o, a r w o <-> b r w o.
Infix "==" := same (at level 70).
Lemma same_refl a : a == a. Proof. intros r w o. tauto. Qed.
Lemma same_sym a b : a == b -> b == a. Proof. intros H r w o. symmetry. apply H. Qed.
Lemma same_trans a b c : a == b -> b == c -> a == c. Proof. intros H1 H2 r w o. unfold same in *. rewrite H1. apply H2. Qed.

Lemma seq_same a a' b b' : a == a' -> b == b' -> seq M a b == seq M a' b'.
Proof. intros Ha Hb r w o. unfold same in *; unfold seq. setoid_rewrite Ha. setoid_rewrite Hb. tauto. Qed.
Lemma inside_same a a' : a == a' -> scoped M a == scoped M a'.
Proof. intros Ha r w o. unfold same in *; unfold scoped. now setoid_rewrite Ha. Qed.
Lemma switched_same a a' : a == a' -> switched M a == switched M a'.
Proof. intros Ha r w o. unfold same in *; unfold switched. now setoid_rewrite Ha. Qed.
Lemma run_same e k k' : (forall w v, k w v == k' w v) -> run M e k == run M e k'.
Proof. intros Hk r w o. unfold same in *; unfold run. setoid_rewrite Hk. tauto. Qed.
Lemma branch_same c a a' b b' : a == a' -> b == b' -> branch M c a b == branch M c a' b'.
Proof. intros Ha Hb. apply run_same. intros w v. destruct (truth M v); auto. Qed.
Scheme loop_ind_m := Minimality for loop Sort Prop
with again_ind_m := Minimality for again Sort Prop.
Lemma loop_mono c a (b b' : exec) r : (forall r w o, b r w o -> b' r w o) -> forall w o, loop M c a b r w o -> loop M c a b' r w o.
Proof.
  intros Hb. apply (loop_ind_m M c a b r (fun w o => loop M c a b' r w o) (fun o1 o => again M c a b' r o1 o)).
  - intros w. apply Loop_pause.
  - intros w w' H. now apply Loop_ends.
  - intros w w' H. now apply Loop_stop.
  - intros w w1 o1 o Hd H1 _ Ha. eapply Loop_turn; eauto.
  - intros o1 w w' o H1 H2 _ H3. eapply Again_turn; eauto.
  - intros o1 w w' H1 H2. eapply Again_ends; eauto.
  - intros w. apply Again_break.
  - intros o H. now apply Again_leave.
Qed.
Lemma loop_same c a b b' : b == b' -> loop M c a b == loop M c a b'.
Proof. intros H r w o. split; apply loop_mono; intros; now apply H. Qed.

Definition pausable (a : exec) : Prop := forall r w, a r w (Paused M w).
Lemma skip_seq a : pausable a -> seq M (skip M) a == a.
Proof.
  intros Hp r w o. unfold seq, skip. split.
  - intros [(r' & w' & [H|H] & Ha)|[Hx [-> | ->]]]; [discriminate| |apply Hp|contradiction]. injection H as -> ->. exact Ha.
  - intros H. left. exists r, w. auto.
Qed.
Lemma seq_assoc a b c : seq M (seq M a b) c == seq M a (seq M b c).
Proof.
  intros r w o. unfold seq. split.
  - intros [(r' & w' & [(r1 & w1 & Ha & Hb)|[[] _]] & Hc)|[Hx [(r1 & w1 & Ha & Hb)|[_ Ha]]]].
    + left. exists r1, w1. split; [exact Ha|]. left. exists r', w'. auto.
    + left. exists r1, w1. split; [exact Ha|]. right. auto.
    + right. auto.
  - intros [(r1 & w1 & Ha & [(r' & w' & Hb & Hc)|[Hx Hb]])|[Hx Ha]].
    + left. exists r', w'. split; [|exact Hc]. left. exists r1, w1. auto.
    + right. split; [exact Hx|]. left. exists r1, w1. auto.
    + right. auto.
Qed.
Lemma seq_pausable a b : pausable a -> pausable (seq M a b).
Proof. intros H r w. right. split; [exact I|apply H]. Qed.
Lemma skip_pausable : pausable (skip M).
Proof. intros r w. now left. Qed.
Lemma run_pausable e k : pausable (run M e k).
Proof. intros r w. now left. Qed.
Lemma jump_pausable f : pausable (jump M f).
Proof. intros r w. now left. Qed.
Lemma inside_pausable a : pausable a -> pausable (scoped M a).
Proof. intros H r w. exists (Paused M w). auto. Qed.
Lemma return_pausable e : pausable (return_ M e).
Proof. destruct e; [apply run_pausable|apply jump_pausable]. Qed.
Lemma for_pausable i : pausable (for_init M i).
Proof. destruct i as [[e|v]|]; [apply run_pausable| |apply skip_pausable]. intros r w. now left. Qed.

(** ** C statements one after the other *)
Definition execs (l : list cst) (k : exec) : exec := fold_right (fun s k => seq M (c_runs M s) k) k l.
Lemma execs_app l m k : execs (l ++ m) k = execs l (execs m k).
Proof. apply fold_right_app. Qed.
Lemma execs_same l k k' : k == k' -> execs l k == execs l k'.
Proof. intros H. induction l as [|s l IH]; [exact H|]. apply seq_same; [apply same_refl|exact IH]. Qed.
Fixpoint c_block (jumping : bool) (hit : label -> bool) (l : list cst) : exec :=
  match l with
  | [] => if jumping then fun _ _ _ => False else skip M
  | s :: r =>
      if jumping then
        if has hit s then seq M (c_exec M true hit s) (c_block false hit r) else passing M s (c_block true hit r)
      else seq M (c_exec M false hit s) (c_block false hit r)
  end.
Lemma c_exec_block j hit l : c_exec M j hit (XBlock l) = scoped M (c_block j hit l).
Proof.
  cbn [c_exec]. f_equal. revert j. induction l as [|s l IH]; intros j; [reflexivity|]. cbn [c_block]. rewrite <- !IH. reflexivity.
Qed.

(** Without jumping the labels do not matter. *)
Lemma hit_same s : forall hit hit', c_exec M false hit s == c_exec M false hit' s.
Proof.
  induction s as [|e|t l|l Hl|c s e Hs He|c s Hs|i c a s Hs|e s Hs|v s Hs|s Hs| | |e] using cst_ind'; intros hit hit'; try exact (same_refl _).
  - rewrite !c_exec_block. apply inside_same. induction Hl as [|s l Hs Hl IH]; [apply same_refl|]. cbn [c_block]. apply seq_same; auto.
  - cbn [c_exec]. apply branch_same; [apply inside_same; auto|]. destruct e as [e|]; [apply inside_same; auto|apply same_refl].
  - cbn [c_exec]. apply loop_same. auto.
  - cbn [c_exec]. apply inside_same, seq_same; [apply same_refl|]. apply loop_same. auto.
  - apply Hs.
  - apply Hs.
Qed.
Lemma block_execs hit l : c_block false hit l == execs l (skip M).
Proof.
  induction l as [|s l IH]; [apply same_refl|]. cbn [c_block execs fold_right]. apply seq_same; [apply hit_same|exact IH].
Qed.
Lemma runs_block hit l : c_exec M false hit (XBlock l) == scoped M (execs l (skip M)).
Proof. rewrite c_exec_block. apply inside_same, block_execs. Qed.

(** ** Labels *)
Lemma labels_labelled vs s : labels (labelled vs s) = map (fun v => LCase (label_expr v)) vs ++ labels s.
Proof. induction vs as [|v vs IH]; [reflexivity|]. cbn. now rewrite <- IH. Qed.
Lemma flat_none l : Forall (fun s => labels s = []) l -> flat_map labels l = [].
Proof. induction 1 as [|s l Hs Hl IH]; [reflexivity|]. cbn. now rewrite Hs, IH. Qed.
Lemma lower_labels s : Forall (fun t => labels t = []) (lower s).
Proof.
  induction s as [l Hl| | |t forms vals|c b e Hb He|i c a b Hb|c b Hb|e|v cases def Hc Hd|e] using cstmt_rec'; rewrite lower_eq;
    try (repeat constructor; fail).
  all: assert (Hlow : forall l, Forall (fun s => Forall (fun t => labels t = []) (lower s)) l -> flat_map labels (lowers l) = [])
    by (intros l0 H0; apply flat_none; induction H0; [constructor|]; cbn [lowers]; apply Forall_app; auto).
  - constructor; [|constructor]. now apply Hlow.
  - constructor; [|constructor]. destruct e as [b2|]; cbn [option_map labels]; rewrite !Hlow; auto.
  - constructor; [|constructor]. now apply Hlow.
  - constructor; [|constructor]. now apply Hlow.
  - destruct e; repeat constructor.
Qed.
Lemma pads_labels l : flat_map labels (pads l) = [].
Proof.
  apply flat_none. induction l as [|s l IH]; [constructor|]. cbn [pads]. apply Forall_app. split; [apply lower_labels|]. now constructor.
Qed.
Lemma case_labels c : labels (case_tree c) = map (fun v => LCase (label_expr v)) (fst c).
Proof. unfold case_tree. rewrite labels_labelled. cbn [labels]. now rewrite flat_map_app, pads_labels, app_nil_r. Qed.
Lemma labelled_runs vs s hit : c_exec M false hit (labelled vs s) = c_exec M false hit s.
Proof. induction vs as [|v vs IH]; [reflexivity|]. exact IH. Qed.
Lemma labelled_jump vs s hit : existsb (fun v => hit (LCase (label_expr v))) vs = true -> c_exec M true hit (labelled vs s) = c_exec M false hit s.
Proof.
  induction vs as [|v vs IH]; [discriminate|]. cbn [existsb labelled fold_right c_exec]. destruct (hit (LCase (label_expr v))); intros H.
  - apply labelled_runs.
  - now apply IH.
Qed.
Lemma passing_case c k : passing M (case_tree c) k = k.
Proof. destruct c as [[|v vs] b]; reflexivity. Qed.

(** ** The source *)
Section Source.
Variable S : site.
Notation s_exec := (s_exec M S).
Notation s_execs := (s_execs M S).
Lemma body_inner G l :
  (fix body (G : list decl) (l : list stmt) : exec :=
    match l with [] => skip M | s :: r => seq M (s_exec G s) (body (declares s ++ G) r) end) G l = s_execs G l.
Proof. revert G. induction l as [|s l IH]; intros G; [reflexivity|]. cbn [SpecExec.s_execs]. now rewrite IH. Qed.
Fixpoint choose (G : list decl) (same : switch_value -> bool) (def : option (list stmt)) (leave : exec -> exec)
  (cases : list (list switch_value * list stmt)) : exec :=
  match cases with
  | c :: r => if existsb same (fst c) then leave (s_execs G (snd c)) else choose G same def leave r
  | [] => match def with Some b => leave (s_execs G b) | None => now M (Next M) end
  end.
Lemma choose_inner G f def leave cases :
  (fix choose (cases : list (list switch_value * list stmt)) : exec :=
    match cases with
    | c :: r => if existsb f (fst c) then leave ((fix body (G : list decl) (l : list stmt) : exec :=
    match l with [] => skip M | s :: r => seq M (s_exec G s) (body (declares s ++ G) r) end) G (snd c)) else choose r
    | [] => match def with Some b => leave ((fix body (G : list decl) (l : list stmt) : exec :=
    match l with [] => skip M | s :: r => seq M (s_exec G s) (body (declares s ++ G) r) end) G b) | None => now M (Next M) end
    end) cases = choose G f def leave cases.
Proof.
  induction cases as [|c r IH]; cbn [choose].
  - destruct def as [b|]; [|reflexivity]. now rewrite (body_inner G b).
  - rewrite IH, (body_inner G (snd c)). reflexivity.
Qed.
Lemma s_if G c b e : s_exec G (SIf c b e) =
  branch M (c_expr S G c) (scoped M (s_execs G b)) (match e with Some b => scoped M (s_execs G b) | None => now M (Next M) end).
Proof. cbn [SpecExec.s_exec]. rewrite (body_inner G b). destruct e as [b'|]; [|reflexivity]. now rewrite (body_inner G b'). Qed.
Lemma s_while G c b : s_exec G (SWhile c b) = loop M (Some (c_expr S G c)) None (scoped M (s_execs G b)).
Proof. cbn [SpecExec.s_exec]. now rewrite body_inner. Qed.
Lemma s_for G i c a b : s_exec G (SFor i c a b) =
  let G := init_declares i ++ G in
  scoped M (seq M (for_init M (option_map (c_forinit S G) i))
    (loop M (option_map (c_expr S G) c) (option_map (c_expr S G) a) (scoped M (s_execs G b)))).
Proof. cbn [SpecExec.s_exec]. now rewrite body_inner. Qed.
Lemma s_switch G v cases def : s_exec G (SSwitch false v cases def) ==
  run M (c_expr S G v) (fun _ x => choose G (fun l => equals M x (c_value S G l)) def (switched M) cases).
Proof. cbn [SpecExec.s_exec]. apply run_same. intros w x. rewrite choose_inner. exact (same_refl _). Qed.
Lemma s_switch_str G v cases def : s_exec G (SSwitch true v cases def) ==
  run M (c_expr S G v) (fun w x r => choose G (fun l => same_string M x (c_value S G l) r w) def (scoped M) cases r).
Proof. cbn [SpecExec.s_exec]. apply run_same. intros w x r w' o. now rewrite choose_inner. Qed.

Lemma s_pausable s G : pausable (s_exec G s).
Proof.
  destruct s as [| |v|c b e|i c a b|c b|e|[] v cs d|e].
  - apply jump_pausable.
  - apply jump_pausable.
  - intros r w. now left.
  - apply run_pausable.
  - cbn [SpecExec.s_exec]. apply inside_pausable, seq_pausable, for_pausable.
  - intros r w. apply Loop_pause.
  - apply return_pausable.
  - apply run_pausable.
  - apply run_pausable.
  - cbn [SpecExec.s_exec]. destruct e as [| | | | |p f args| | | | | | ]; try apply run_pausable. destruct f; try apply run_pausable.
    destruct (is_name _ _); [|apply run_pausable]. apply inside_pausable, seq_pausable, run_pausable.
Qed.
Lemma body_pausable l G : pausable (s_execs G l).
Proof. destruct l; [apply skip_pausable|]. apply seq_pausable, s_pausable. Qed.
(** What is reached is also a stage. *)
Definition settles (a : exec) : Prop := forall r w r' w', a r w (Next M r' w') -> a r w (Paused M w').
Lemma body_settles l : forall G, settles (s_execs G l).
Proof.
  induction l as [|s l IH]; intros G r w r' w' H.
  - destruct H as [H|H]; [discriminate|]. injection H as -> ->. now left.
  - destruct H as [(r1 & w1 & H1 & H2)|[[] _]]. left. exists r1, w1. split; [exact H1|]. eapply IH; eauto.
Qed.
Lemma seq_skip a : settles a -> seq M a (skip M) == a.
Proof.
  intros Ha r w o. split.
  - intros [(r' & w' & H & [-> | ->])|[_ H]]; [eapply Ha; eauto|exact H|exact H].
  - intros H. destruct o; try (right; split; [exact I|exact H]). left. exists r0, w0. split; [exact H|now right].
Qed.
Lemma inside_inside a : scoped M (scoped M a) == scoped M a.
Proof.
  intros r w o. unfold scoped. split.
  - intros (o' & (o'' & H & ->) & ->). exists o''. split; [exact H|]. now destruct o''.
  - intros (o' & H & ->). eexists. split; [exists o'; split; [exact H|reflexivity]|]. now destruct o'.
Qed.
Lemma inside_settles a : settles a -> settles (scoped M a).
Proof.
  intros Ha r w r' w' (o & H & Ho). destruct o; try discriminate. injection Ho as -> ->. exists (Paused M w0). split; [|reflexivity]. eapply Ha; eauto.
Qed.
Definition sealed (a : exec) : Prop := forall r w r' w', ~ a r w (Next M r' w').
Lemma sealed_seq a b : sealed a -> seq M a b == a.
Proof.
  intros Ha r w o. split.
  - intros [(r' & w' & H & _)|[_ H]]; [now apply Ha in H|exact H].
  - intros H. right. split; [|exact H]. destruct o; try exact I. now apply Ha in H.
Qed.
Lemma sealed_inside a : sealed a -> sealed (scoped M a).
Proof. intros Ha r w r' w' (o & H & Ho). destruct o; try discriminate. now apply Ha in H. Qed.
Lemma broke_sealed : sealed (jump M (Broke M)).
Proof. intros r w r' w' [H|H]; discriminate. Qed.
Lemma seq_sealed a b : sealed b -> sealed (seq M a b).
Proof. intros Hb r w r' w' [(r1 & w1 & _ & H)|[[] _]]. now apply Hb in H. Qed.
Lemma switched_inside a : switched M (scoped M a) == switched M a.
Proof.
  intros r w o. unfold switched, scoped. split.
  - intros (o' & (o'' & H & ->) & ->). exists o''. split; [exact H|]. now destruct o''.
  - intros (o' & H & ->). eexists. split; [exists o'; split; [exact H|reflexivity]|]. now destruct o'.
Qed.
Lemma switched_break a : settles a -> switched M (seq M a (jump M (Broke M))) == switched M a.
Proof.
  intros Ha r w o. split.
  - intros (o' & [(r' & w' & H & [-> | ->])|[Hx H]] & ->).
    + exists (Paused M w'). split; [eapply Ha; eauto|reflexivity].
    + exists (Next M r' w'). auto.
    + exists o'. auto.
  - intros (o' & H & ->). destruct o' as [r' w'|w'|w'|w' v'|w'|w'].
    + exists (Broke M w'). split; [|reflexivity]. left. exists r', w'. split; [exact H|now right].
    + exists (Broke M w'). split; [|reflexivity]. right. split; [exact I|exact H].
    + exists (Continued M w'). split; [|reflexivity]. right. split; [exact I|exact H].
    + exists (Returned M w' v'). split; [|reflexivity]. right. split; [exact I|exact H].
    + exists (Ended M w'). split; [|reflexivity]. right. split; [exact I|exact H].
    + exists (Paused M w'). split; [|reflexivity]. right. split; [exact I|exact H].
Qed.

(** ** Steadiness *)
Notation steady := (steady M S).
Notation steady_body := (steady_body M S).
Lemma steady_inner G l :
  (fix body (G : list decl) (l : list stmt) : Prop :=
    match l with [] => True | s :: r => steady G s /\ body (declares s ++ G) r end) G l = steady_body G l.
Proof. revert G. induction l as [|s l IH]; intros G; [reflexivity|]. cbn [SpecExec.steady_body]. now rewrite IH. Qed.
Definition steady_opt (G : list decl) (o : option (list stmt)) : Prop := match o with Some l => steady_body G l | None => True end.
Lemma steady_if G c b e : steady G (SIf c b e) -> steady_body G b /\ steady_opt G e.
Proof. cbn [SpecExec.steady]. rewrite (steady_inner G b). destruct e as [b'|]; [|tauto]. now rewrite (steady_inner G b'). Qed.
Lemma steady_while G c b : steady G (SWhile c b) -> steady_body G b.
Proof. cbn [SpecExec.steady]. now rewrite (steady_inner G b). Qed.
Lemma steady_for G i c a b : steady G (SFor i c a b) -> steady_body (init_declares i ++ G) b.
Proof. cbn [SpecExec.steady]. now rewrite (steady_inner _ b). Qed.
Lemma steady_switch G st v cases def : steady G (SSwitch st v cases def) ->
  (st = true -> quiet M (c_expr S G v) /\ cases <> []) /\ steady_opt G def
  /\ Forall (fun c => (st = true -> fst c <> []) /\ steady_body G (snd c)) cases.
Proof.
  cbn [SpecExec.steady]. intros (H1 & H2 & H3). split; [exact H1|]. split.
  - destruct def as [b|]; [|exact I]. now rewrite (steady_inner G b) in H2.
  - clear H1. induction cases as [|c r IH]; [constructor|]. destruct H3 as (H3 & H4 & H5). constructor; [|now apply IH].
    rewrite (steady_inner G (snd c)) in H4. auto.
Qed.

(** ** Statements *)
Hypothesis Hm : obeys_c M.
Definition does (s : stmt) : Prop := forall G, steady G s -> forall k, pausable k ->
  execs (lower (c_stmt S G s)) k == seq M (s_exec G s) k.
Lemma pausable_execs l k : Forall (fun s => pausable (c_runs M s)) l -> pausable k -> pausable (execs l k).
Proof. destruct 1; [auto|]. intros _. cbn. now apply seq_pausable. Qed.
Lemma lowers_do l : Forall does l -> forall G, steady_body G l -> forall k, pausable k ->
  execs (lowers (c_stmts S G l)) k == seq M (s_execs G l) k.
Proof.
  induction 1 as [|s l Hs Hl IH]; intros G Hst k Hk; cbn [c_stmts lowers SpecExec.s_execs].
  - apply same_sym. now apply skip_seq.
  - destruct Hst as [H1 H2]. rewrite execs_app. eapply same_trans; [apply execs_same; apply IH; auto|].
    eapply same_trans; [apply Hs; auto; now apply seq_pausable, body_pausable|]. apply same_sym, seq_assoc.
Qed.
Lemma pads_do l : Forall does l -> forall G, steady_body G l -> forall k, pausable k ->
  execs (pads (c_stmts S G l)) k == seq M (s_execs G l) k.
Proof.
  induction 1 as [|s l Hs Hl IH]; intros G Hst k Hk; cbn [c_stmts pads SpecExec.s_execs].
  - apply same_sym. now apply skip_seq.
  - destruct Hst as [H1 H2]. rewrite execs_app. cbn [execs fold_right]. fold (execs (pads (c_stmts S (declares s ++ G) l)) k).
    assert (Hp : pausable (seq M (s_execs (declares s ++ G) l) k)) by apply seq_pausable, body_pausable.
    eapply same_trans; [apply execs_same; eapply same_trans; [apply seq_same; [exact (same_refl _)|apply IH; auto]|exact (skip_seq _ Hp)]|].
    eapply same_trans; [apply Hs; auto|]. apply same_sym, seq_assoc.
Qed.
Lemma block_does hit l G : Forall does l -> steady_body G l -> c_exec M false hit (XBlock (lowers (c_stmts S G l))) == scoped M (s_execs G l).
Proof.
  intros Hl Hst. eapply same_trans; [apply runs_block|]. apply inside_same.
  eapply same_trans; [apply lowers_do; auto; apply skip_pausable|]. apply seq_skip, body_settles.
Qed.
Lemma pad_block_does hit l G : Forall does l -> steady_body G l -> c_exec M false hit (XBlock (pads (c_stmts S G l))) == scoped M (s_execs G l).
Proof.
  intros Hl Hst. eapply same_trans; [apply runs_block|]. apply inside_same.
  eapply same_trans; [apply pads_do; auto; apply skip_pausable|]. apply seq_skip, body_settles.
Qed.
Lemma case_block_does hit l G : Forall does l -> steady_body G l ->
  c_exec M false hit (XBlock (pads (c_stmts S G l) ++ [XBreak])) == scoped M (seq M (s_execs G l) (jump M (Broke M))).
Proof.
  intros Hl Hst. eapply same_trans; [apply runs_block|]. apply inside_same. rewrite execs_app.
  eapply same_trans; [apply pads_do; auto; apply seq_pausable, jump_pausable|]. apply seq_same; [exact (same_refl _)|].
  cbn [execs fold_right]. apply sealed_seq, broke_sealed.
Qed.
Lemma label_value G v : label_expr (c_case S G v) = c_value S G v.
Proof. now destruct v. Qed.

(** ** Switch *)
Definition c_cases (G : list decl) (cases : list (list switch_value * list stmt)) : list (list cswitch_value * list cstmt) :=
  map (fun c => (map (c_case S G) (fst c), c_stmts S G (snd c))) cases.
Lemma existsb_labels f (l : list cswitch_value) : existsb f (map (fun v => LCase (label_expr v)) l) = existsb (fun v => f (LCase (label_expr v))) l.
Proof. induction l as [|v l IH]; [reflexivity|]. cbn. now rewrite IH. Qed.
Lemma existsb_case G x l : existsb (fun v => is_case M x (LCase (label_expr v))) (map (c_case S G) l) = existsb (fun v => equals M x (c_value S G v)) l.
Proof. induction l as [|v l IH]; [reflexivity|]. cbn [map existsb]. rewrite IH. cbn [is_case]. now rewrite label_value. Qed.
Lemma has_case G x c : has (is_case M x) (case_tree (map (c_case S G) (fst c), c_stmts S G (snd c))) = existsb (fun v => equals M x (c_value S G v)) (fst c).
Proof. unfold has. rewrite case_labels. cbn [fst]. now rewrite existsb_labels, existsb_case. Qed.
Lemma has_default c : has is_default (case_tree c) = false.
Proof. unfold has. rewrite case_labels, existsb_labels. induction (fst c); [reflexivity|]. cbn. auto. Qed.
Lemma has_block hit l : has hit (XBlock l) = existsb (has hit) l.
Proof. unfold has. cbn [labels]. induction l as [|s l IH]; [reflexivity|]. cbn [flat_map existsb]. now rewrite existsb_app, IH. Qed.
Lemma default_case G x def : existsb (has (is_case M x)) (default_tree (option_map (c_stmts S G) def)) = false.
Proof. destruct def as [b|]; [|reflexivity]. cbn. unfold has. cbn [labels]. cbn. now rewrite pads_labels. Qed.

Lemma jump_to_case G x cases def : Forall (fun c => Forall does (snd c)) cases -> Forall (fun c => steady_body G (snd c)) cases ->
  existsb (has (is_case M x)) (map case_tree (c_cases G cases)) = true ->
  switched M (c_exec M true (is_case M x) (XBlock (map case_tree (c_cases G cases) ++ def)))
  == choose G (fun l => equals M x (c_value S G l)) None (switched M) cases.
Proof.
  intros Hd Hs Hx. rewrite c_exec_block. eapply same_trans; [apply switched_inside|].
  induction Hd as [|c r Hc Hr IH]; [discriminate|]. inversion Hs as [|? ? Hs1 Hs2]; subst. cbn [c_cases map existsb] in Hx. fold (c_cases G r) in Hx.
  cbn [c_cases map app c_block choose]. fold (c_cases G r). rewrite has_case in *.
  destruct (existsb (fun v => equals M x (c_value S G v)) (fst c)) eqn:E.
  - unfold case_tree at 1. cbn [fst snd]. rewrite labelled_jump by (now rewrite existsb_case).
    eapply same_trans; [apply switched_same; eapply same_trans; [apply seq_same; [apply case_block_does; auto|exact (same_refl _)]|]|].
    + apply sealed_seq, sealed_inside, seq_sealed, broke_sealed.
    + eapply same_trans; [apply switched_inside|]. apply switched_break, body_settles.
  - rewrite passing_case. apply IH; auto.
Qed.
Lemma jump_to_default G cases def : opt_all does def -> steady_opt G def ->
  existsb (has is_default) (map case_tree (c_cases G cases) ++ default_tree (option_map (c_stmts S G) def)) = (match def with Some _ => true | None => false end)
  /\ match def with
     | Some b => switched M (c_exec M true is_default (XBlock (map case_tree (c_cases G cases) ++ default_tree (option_map (c_stmts S G) def))))
                 == switched M (s_execs G b)
     | None => True
     end.
Proof.
  intros Hd Hs. split.
  - rewrite existsb_app. replace (existsb _ (map case_tree _)) with false; [now destruct def|].
    symmetry. induction (c_cases G cases) as [|c l IH]; [reflexivity|]. cbn [map existsb]. now rewrite has_default.
  - destruct def as [b|]; [|exact I]. rewrite c_exec_block. eapply same_trans; [apply switched_inside|].
    induction (c_cases G cases) as [|c l IH].
    + cbn [map app option_map default_tree c_block]. change (has is_default (XDefault (XBlock (pads (c_stmts S G b))))) with true. cbn match.
      change (c_exec M true is_default (XDefault (XBlock (pads (c_stmts S G b))))) with (c_exec M false is_default (XBlock (pads (c_stmts S G b)))).
      eapply same_trans; [apply switched_same; eapply same_trans; [apply seq_same; [apply pad_block_does; auto|exact (same_refl _)]|]|].
      * apply seq_skip, inside_settles, body_settles.
      * apply switched_inside.
    + cbn [map app c_block]. rewrite has_default, passing_case. exact IH.
Qed.
Lemma choose_none G f cases def leave : existsb (fun c => existsb f (fst c)) cases = false ->
  choose G f def leave cases = match def with Some b => leave (s_execs G b) | None => now M (Next M) end.
Proof. induction cases as [|c r IH]; [reflexivity|]. cbn [existsb choose]. destruct (existsb f (fst c)); [discriminate|]. exact IH. Qed.
Lemma choose_some G f cases def def' leave : existsb (fun c => existsb f (fst c)) cases = true ->
  choose G f def leave cases = choose G f def' leave cases.
Proof. induction cases as [|c r IH]; [discriminate|]. cbn [existsb choose]. destruct (existsb f (fst c)); [reflexivity|]. exact IH. Qed.
Lemma has_cases G x cases : existsb (has (is_case M x)) (map case_tree (c_cases G cases)) = existsb (fun c => existsb (fun v => equals M x (c_value S G v)) (fst c)) cases.
Proof. induction cases as [|c r IH]; [reflexivity|]. cbn [c_cases map existsb]. fold (c_cases G r). now rewrite has_case, IH. Qed.
Lemma switch_tree v cases def G : Forall (fun c => Forall does (snd c)) cases -> opt_all does def -> steady G (SSwitch false v cases def) ->
  exists t, lower (c_stmt S G (SSwitch false v cases def)) = [t] /\ c_runs M t == s_exec G (SSwitch false v cases def).
Proof.
  intros Hc Hd Hst. apply steady_switch in Hst. destruct Hst as (_ & Hs1 & Hs2).
  assert (E : c_stmt S G (SSwitch false v cases def) = KSwitch (c_expr S G v) (c_cases G cases) (option_map (c_stmts S G) def)).
  { reflexivity. }
  rewrite E, lower_eq. eexists. split; [reflexivity|].
  eapply same_trans; [|apply same_sym, s_switch]. unfold c_runs. cbn [c_exec]. apply run_same. intros w x.
  set (B := XBlock _). unfold target. assert (Hb : has (is_case M x) B = existsb (fun c => existsb (fun v => equals M x (c_value S G v)) (fst c)) cases).
  { subst B. now rewrite has_block, existsb_app, has_cases, default_case, orb_false_r. }
  assert (Hs3 : Forall (fun c => steady_body G (snd c)) cases) by (eapply Forall_impl; [|exact Hs2]; cbn; tauto).
  destruct (existsb _ cases) eqn:Ex; rewrite Hb.
  - rewrite (choose_some _ _ _ def None _ Ex), Hb. apply jump_to_case; auto. now rewrite has_cases.
  - rewrite (choose_none _ _ _ def _ Ex). destruct (jump_to_default G cases def Hd Hs1) as [J1 J2].
    subst B. rewrite has_block, J1. destruct def as [b|]; [exact J2|exact (same_refl _)].
Qed.
Lemma switch_does v cases def : Forall (fun c => Forall does (snd c)) cases -> opt_all does def -> does (SSwitch false v cases def).
Proof.
  intros Hc Hd G Hst k Hk. destruct (switch_tree v cases def G Hc Hd Hst) as (t & E & H). rewrite E. apply seq_same; [exact H|exact (same_refl _)].
Qed.

(** ** Switch over strings *)
Lemma run_tests e r w b k o : tests M e r w b ->
  (run M e (fun _ v => if truth M v then fst k else snd k) r w o <-> o = Paused M w \/ (if b then fst k else snd k) r w o).
Proof.
  intros [H1 [v [H2 H3]]]. unfold run. split.
  - intros [->|[(w' & v' & H & Hk)|(w' & H & _)]]; [now left| |].
    + destruct (H1 _ H) as (v2 & E & T). injection E as -> ->. rewrite T in Hk. now right.
    + destruct (H1 _ H) as (v2 & E & T). discriminate.
  - intros [->|H]; [now left|]. right. left. exists w, v. rewrite H3. auto.
Qed.
Lemma equals_tests G e r w x v : settled M e r w x -> tests M (c_equals S G e v) r w (same_string M x (c_value S G v) r w).
Proof. intros H. unfold c_equals. rewrite <- (negb_involutive (same_string _ _ _ _ _)). apply (c_not _ Hm), (c_strcmp _ Hm), H. Qed.
Lemma any_tests G e r w x vs : settled M e r w x -> vs <> [] ->
  tests M (c_any S G e vs) r w (existsb (fun v => same_string M x (c_value S G v) r w) vs).
Proof.
  intros H Hn. destruct vs as [|v vs]; [easy|]. cbn [c_any existsb].
  assert (Q : forall acc b, tests M acc r w b ->
    tests M (fold_left (fun acc v => CBin "||" acc (c_equals S G e v)) vs acc) r w (b || existsb (fun v => same_string M x (c_value S G v) r w) vs)).
  { induction vs as [|u vs IH]; intros acc b Ha; cbn [fold_left existsb]; [now rewrite orb_false_r|].
    rewrite orb_assoc. apply IH; [discriminate|]. apply (c_or _ Hm); [exact Ha|]. now apply equals_tests. }
  apply Q. now apply equals_tests.
Qed.
Lemma any_stuck G e r w vs : stuck M e r w -> vs <> [] -> stuck M (c_any S G e vs) r w.
Proof.
  intros H Hn. destruct vs as [|v vs]; [easy|]. cbn [c_any].
  assert (Q : forall acc, stuck M acc r w -> stuck M (fold_left (fun acc v => CBin "||" acc (c_equals S G e v)) vs acc) r w).
  { clear Hn. induction vs as [|u vs IH]; intros acc Ha; cbn [fold_left]; [exact Ha|]. apply IH, (c_or_stuck _ Hm), Ha. }
  apply Q, (c_not_stuck _ Hm), (c_strcmp_stuck _ Hm), H.
Qed.
Lemma choose_leaves G f def cases r w r' w' : choose G f def (scoped M) cases r w (Next M r' w') ->
  r' = r /\ (w' = w \/ choose G f def (scoped M) cases r w (Paused M w')).
Proof.
  assert (Q : forall l, scoped M (s_execs G l) r w (Next M r' w') -> r' = r /\ (w' = w \/ scoped M (s_execs G l) r w (Paused M w'))).
  { intros l H. split; [|right; eapply inside_settles; eauto; apply body_settles]. destruct H as (o & _ & Ho). destruct o; try discriminate. now injection Ho. }
  induction cases as [|c l IH]; cbn [choose].
  - destruct def as [b|]; [apply Q|]. intros H. injection H as -> ->. auto.
  - destruct (existsb f (fst c)); [apply Q|exact IH].
Qed.
Definition c_else (G : list decl) (e : cexpr) cases def : option cst :=
  option_map (fun l => XBlock (lowers l)) (c_chain_else S G e cases def).
Lemma chain_does G e r w x def cases : settled M e r w x -> opt_all does def -> steady_opt G def ->
  Forall (fun c => Forall does (snd c)) cases -> Forall (fun c => (fst c <> []) /\ steady_body G (snd c)) cases ->
  forall c, Forall does (snd c) -> fst c <> [] -> steady_body G (snd c) -> forall o,
  c_runs M (XIf (c_any S G e (fst c)) (XBlock (lowers (c_stmts S G (snd c)))) (c_else G e cases def)) r w o
  <-> o = Paused M w \/ choose G (fun l => same_string M x (c_value S G l) r w) def (scoped M) (c :: cases) r w o.
Proof.
  intros Hx Hd Hs Hc Hcs. induction Hc as [|c' cases Hc' Hc IH]; intros c D N St o.
  all: unfold c_runs; cbn [c_exec choose]; unfold branch;
    set (a := scoped M _); set (b := match c_else _ _ _ _ with Some e => _ | None => _ end);
    rewrite (run_tests _ _ _ _ (a, b) o (any_tests G e r w x (fst c) Hx N)); cbn [fst snd];
    destruct (existsb _ (fst c)); 
    [subst a; assert (Q := block_does is_default _ _ D St); rewrite (inside_same _ _ Q r w o), (inside_inside _ r w o); tauto|].
  - subst b. unfold c_else. cbn [c_chain_else choose]. destruct def as [d|]; cbn [option_map]; [|tauto].
    assert (Q := block_does is_default _ _ Hd Hs). rewrite (inside_same _ _ Q r w o), (inside_inside _ r w o). tauto.
  - inversion Hcs as [|? ? [N' S'] Hcs']; subst. specialize (IH Hcs' c' Hc' N' S'). subst b. unfold c_else at 1. cbn [c_chain_else option_map lowers].
    rewrite lower_eq. cbn [app]. fold (c_else G e cases def).
    set (T := XIf _ _ _) in *. rewrite (inside_same _ _ (runs_block is_default [T]) r w o), (inside_inside _ r w o). cbn [execs fold_right].
    fold (choose G (fun l => same_string M x (c_value S G l) r w) def (scoped M)) in *.
    set (K := choose G (fun l => same_string M x (c_value S G l) r w) def (scoped M) (c' :: cases)) in *.
    change (o = Paused M w \/ scoped M (seq M (c_runs M T) (skip M)) r w o <-> o = Paused M w \/ K r w o).
    assert (KL : forall r' w', K r w (Next M r' w') -> r' = r /\ (w' = w \/ K r w (Paused M w'))) by (intros; eapply choose_leaves; eauto).
    clearbody K. split.
    + intros [->|(o' & [(r' & w' & H & Ho)|[Ha H]] & ->)]; [now left| |].
      * apply IH in H. destruct H as [H|H]; [discriminate|]. destruct (KL _ _ H) as [-> J]. destruct Ho as [-> | ->]; [destruct J as [->|J]; auto|now right].
      * apply IH in H. destruct o'; [destruct Ha| | | | |]; exact H.
    + intros [->|H]; [now left|]. right. destruct o as [r' w'|w'|w'|w' v'|w'|w'].
      * destruct (KL _ _ H) as [-> _]. exists (Next M r w'). split; [|reflexivity]. left. exists r, w'. split; [apply IH; now right|now right].
      * exists (Broke M w'). split; [|reflexivity]. right. split; [exact I|apply IH; now right].
      * exists (Continued M w'). split; [|reflexivity]. right. split; [exact I|apply IH; now right].
      * exists (Returned M w' v'). split; [|reflexivity]. right. split; [exact I|apply IH; now right].
      * exists (Ended M w'). split; [|reflexivity]. right. split; [exact I|apply IH; now right].
      * exists (Paused M w'). split; [|reflexivity]. right. split; [exact I|apply IH; now right].
Qed.
Lemma switch_str_tree v cases def G : Forall (fun c => Forall does (snd c)) cases -> opt_all does def -> steady G (SSwitch true v cases def) ->
  exists t, lower (c_stmt S G (SSwitch true v cases def)) = [t] /\ c_runs M t == s_exec G (SSwitch true v cases def).
Proof.
  intros Hc Hd Hst. apply steady_switch in Hst. destruct Hst as (Hs0 & Hs1 & Hs2). destruct (Hs0 eq_refl) as [Hq Hn].
  destruct cases as [|c cases]; [easy|]. assert (E := c_chain_eq S G v cases def (fst c) (snd c)). rewrite <- surjective_pairing in E.
  rewrite E, lower_eq. eexists. split; [reflexivity|].
  eapply same_trans; [|apply same_sym, s_switch_str]. intros r w o. destruct (Hq r w) as [[x Hx]|Hx].
  2: { inversion Hs2 as [|? ? [Hs3 _] _]; subst. unfold c_runs. cbn [c_exec]. unfold branch, run.
       assert (Hx' := any_stuck G _ r w (fst c) Hx (Hs3 eq_refl)). split.
       - intros [->|[(w' & v' & H & _)|(w' & H & _)]]; [now left|destruct (Hx' _ H)|destruct (Hx' _ H)].
       - intros [->|[(w' & v' & H & _)|(w' & H & _)]]; [now left|destruct (Hx _ H)|destruct (Hx _ H)]. }
  inversion Hc as [|? ? Hc1 Hc2]; subst. inversion Hs2 as [|? ? [Hs3 Hs4] Hs5]; subst.
  assert (Hs6 : Forall (fun c => fst c <> [] /\ steady_body G (snd c)) cases) by (eapply Forall_impl; [|exact Hs5]; cbn; intros ? [? ?]; auto).
  rewrite (chain_does G _ r w x def cases Hx Hd Hs1 Hc2 Hs6 c Hc1 (Hs3 eq_refl) Hs4 o).
  unfold run. split.
  - intros [->|H]; [now left|]. right. left. exists w, x. split; [now apply Hx|exact H].
  - intros [->|[(w' & x' & H & Hk')|(w' & H & _)]]; [now left| |].
    + apply Hx in H. injection H as -> ->. now right.
    + apply Hx in H. discriminate.
Qed.
Lemma switch_str_does v cases def : Forall (fun c => Forall does (snd c)) cases -> opt_all does def -> does (SSwitch true v cases def).
Proof.
  intros Hc Hd G Hst k Hk. destruct (switch_str_tree v cases def G Hc Hd Hst) as (t & E & H). rewrite E. apply seq_same; [exact H|exact (same_refl _)].
Qed.

(** ** All statements *)
Lemma stmt_does s : does s.
Proof.
  induction s as [| | v | c b e IHb IHe | i c a b IHb | c b IHb | e | is v cs d IHc IHd | e] using stmt_ind'.
  - intros G _ k Hk. exact (same_refl _).
  - intros G _ k Hk. exact (same_refl _).
  - intros G _ k Hk. cbn [c_stmt]. rewrite lower_eq. cbn [combine execs fold_right].
    eapply same_trans; [apply (seq_assoc (declare M _ _ _) (skip M) k)|]. apply seq_same; [exact (same_refl _)|]. now apply skip_seq.
  - intros G Hst k Hk. apply steady_if in Hst. destruct Hst as [Hs1 Hs2]. rewrite s_if. cbn [c_stmt]. rewrite lower_eq. cbn [execs fold_right].
    apply seq_same; [|exact (same_refl _)]. unfold c_runs. cbn [c_exec]. rewrite c_stmts_inner. apply branch_same.
    + eapply same_trans; [apply inside_same, block_does; auto|apply inside_inside].
    + destruct e as [b'|]; [|exact (same_refl _)]. cbn [option_map]. rewrite c_stmts_inner.
      eapply same_trans; [apply inside_same, block_does; auto|apply inside_inside].
  - intros G Hst k Hk. apply steady_for in Hst. rewrite s_for. cbn [c_stmt]. rewrite lower_eq. cbn [execs fold_right].
    apply seq_same; [|exact (same_refl _)]. unfold c_runs. cbn [c_exec]. rewrite c_stmts_inner. apply inside_same, seq_same; [exact (same_refl _)|].
    apply loop_same. now apply block_does.
  - intros G Hst k Hk. apply steady_while in Hst. rewrite s_while. cbn [c_stmt]. rewrite lower_eq. cbn [execs fold_right].
    apply seq_same; [|exact (same_refl _)]. unfold c_runs. cbn [c_exec]. rewrite c_stmts_inner. apply loop_same. now apply block_does.
  - intros G _ k Hk. destruct e as [e|]; [exact (same_refl _)|]. cbn [c_stmt option_map]. rewrite lower_eq. cbn [execs fold_right].
    apply seq_same; [exact (same_refl _)|]. now apply (skip_seq k).
  - destruct is; [now apply switch_str_does|now apply switch_does].
  - intros G _ k Hk. cbn [c_stmt SpecExec.s_exec]. destruct e as [| | | | |p f args| | | | | | ]; try exact (same_refl _).
    destruct f; try exact (same_refl _). destruct (is_name _ _); exact (same_refl _).
Qed.
Lemma body_does G l : steady_body G l -> c_runs M (XBlock (lowers (c_stmts S G l))) == s_runs M S G l.
Proof. intros H. apply block_does; auto. apply Forall_forall. intros s _. apply stmt_does. Qed.
Lemma all_do (l : list stmt) : Forall does l.
Proof. apply Forall_forall. intros s _. apply stmt_does. Qed.
Lemma switch_same is v cases def G : steady G (SSwitch is v cases def) ->
  exists t, lower (c_stmt S G (SSwitch is v cases def)) = [t] /\ c_runs M t == s_exec G (SSwitch is v cases def).
Proof.
  intros H. assert (Hc : Forall (fun c => Forall does (snd c)) cases) by (apply Forall_forall; intros c _; apply all_do).
  assert (Hd : opt_all does def) by (destruct def; [apply all_do|exact I]).
  destruct is; [now apply switch_str_tree|now apply switch_tree].
Qed.
Lemma lists_existsb f c : lists f c <-> existsb f (fst c) = true.
Proof. unfold lists. now rewrite existsb_exists. Qed.
Lemma choose_picks G f def leave cases r w o : choose G f def leave cases r w o <-> picks M S G f cases def leave r w o.
Proof.
  unfold picks. induction cases as [|[vs b] cases IH]; cbn [choose fst snd].
  - split.
    + intros H. right. split; [intros c []|]. now destruct def.
    + intros [(before & ? & ? & ? & E & _)|[_ H]]; [now destruct before|]. now destruct def.
  - destruct (existsb f vs) eqn:E.
    + split.
      * intros H. left. exists [], vs, b, cases. split; [reflexivity|]. split; [intros c []|]. split; [now apply lists_existsb|exact H].
      * intros [(before & vs' & b' & after & Ec & Hb & Hl & H)|[Hn _]].
        -- destruct before as [|c before]; cbn in Ec; [now injection Ec as -> -> ->|]. injection Ec as <- _.
           exfalso. apply (Hb (vs, b)); [now left|]. now apply lists_existsb.
        -- exfalso. apply (Hn (vs, b)); [now left|]. now apply lists_existsb.
    + assert (Hv : ~ lists f (vs, b)) by (rewrite lists_existsb; cbn [fst]; congruence).
      rewrite IH. split.
      * intros [(before & vs' & b' & after & -> & Hb & Hl & H)|[Hn H]].
        -- left. exists ((vs, b) :: before), vs', b', after. split; [reflexivity|]. split; [intros c [<-|Hc]; auto|auto].
        -- right. split; [intros c [<-|Hc]; auto|exact H].
      * intros [(before & vs' & b' & after & Ec & Hb & Hl & H)|[Hn H]].
        -- destruct before as [|c before]; cbn in Ec; injection Ec; intros; subst; [contradiction|].
           left. exists before, vs', b', after. split; [reflexivity|]. split; [|auto]. intros c Hc. apply Hb. now right.
        -- right. split; [|exact H]. intros c Hc. apply Hn. now right.
Qed.
Lemma switch_runs G v cases def r w o : s_exec G (SSwitch false v cases def) r w o <->
  o = Paused M w
  \/ (exists w', evals M (c_expr S G v) r w (Ends w') /\ o = Ended M w')
  \/ (exists w' x, evals M (c_expr S G v) r w (Gives w' x)
       /\ picks M S G (fun l => equals M x (c_value S G l)) cases def (switched M) r w' o).
Proof.
  rewrite (s_switch G v cases def r w o). unfold run. setoid_rewrite choose_picks. tauto.
Qed.
Lemma switch_str_runs G v cases def r w o : s_exec G (SSwitch true v cases def) r w o <->
  o = Paused M w
  \/ (exists w', evals M (c_expr S G v) r w (Ends w') /\ o = Ended M w')
  \/ (exists w' x, evals M (c_expr S G v) r w (Gives w' x)
       /\ picks M S G (fun l => same_string M x (c_value S G l) r w') cases def (scoped M) r w' o).
Proof.
  rewrite (s_switch_str G v cases def r w o). unfold run. setoid_rewrite choose_picks. tauto.
Qed.
End Source.
End Exec.
