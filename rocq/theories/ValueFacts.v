(** Readings of a text that differ in nothing that matters are executed alike. *)
From Verif Require Import Base BaseFacts CAst SpecC SpecCStmt SpecExec ExecFacts.

Section Values.
Variable M : machine.
Hypothesis sees : sees_values M.
Notation "a == b" := (same M a b) (at level 70).
Definition label_values (l : label) : label := match l with LCase v => LCase (values v) | LDefault => LDefault end.
Definition agree (hit hit' : label -> bool) : Prop := forall l l', label_values l = label_values l' -> hit l = hit' l'.
Lemma labels_values s : labels (stmt_values s) = map label_values (labels s).
Proof.
  induction s as [|e|t l|l Hl|c s e Hs He|c s Hs|i c a s Hs|e s Hs|v s Hs|s Hs| | |e] using cst_ind'; cbn [stmt_values labels]; auto.
  - induction Hl as [|s l Hs Hl IH]; [reflexivity|]. cbn [map flat_map]. now rewrite Hs, IH, map_app.
  - destruct e as [e|]; cbn [option_map Pcst] in *; [now rewrite Hs, He, map_app|exact Hs].
  - now rewrite Hs.
  - now rewrite Hs.
Qed.
Lemma has_values hit hit' s s' : agree hit hit' -> stmt_values s = stmt_values s' -> has hit s = has hit' s'.
Proof.
  intros Ha E. apply (f_equal labels) in E. rewrite !labels_values in E. unfold has. revert E. generalize (labels s'). induction (labels s) as [|l ls IH]; intros [|l' ls'] E; try discriminate; [reflexivity|].
  cbn [map existsb] in *. injection E as E1 E2. now rewrite (Ha _ _ E1), (IH _ E2).
Qed.
Lemma run_values e e' k k' : values e = values e' -> (forall w v, k w v == k' w v) -> run M e k == run M e' k'.
Proof.
  intros E Hk r w o. unfold run. pose proof (sees_expr M sees _ _ E) as He. split; (intros [->|[(w' & v & H & H')|(w' & H & H')]]; [now left| |]; right; [left|right]).
  - exists w', v. split; [now apply He|now apply Hk].
  - exists w'. split; [now apply He|exact H'].
  - exists w', v. split; [now apply He|now apply Hk].
  - exists w'. split; [now apply He|exact H'].
Qed.
Lemma declare_values t f f' v v' : form_values f = form_values f' -> option_map init_values v = option_map init_values v' -> declare M t f v == declare M t f' v'.
Proof.
  intros Ef Ev r w o. unfold declare. pose proof (sees_decl M sees t _ _ _ _ Ef Ev) as He. split; (intros [->|[(r' & w' & H & H')|(w' & H & H')]]; [now left| |]; right; [left|right]);
    [exists r', w'|exists w'|exists r', w'|exists w']; (split; [now apply He|exact H']).
Qed.
Lemma cons_cut {A} (x y : A) l m : x :: l = y :: m -> x = y /\ l = m.
Proof. intros [= -> ->]. auto. Qed.
Lemma declares_values t l : forall l', map (fun d => (form_values (fst d), option_map init_values (snd d))) l = map (fun d => (form_values (fst d), option_map init_values (snd d))) l' ->
  declares_all M t l == declares_all M t l'.
Proof.
  induction l as [|d l IH]; intros [|d' l'] E; try discriminate; [apply same_refl|]. cbn [map] in E. apply cons_cut in E as [E1 E3]. apply pair_equal_spec in E1 as [E1 E2]. cbn [declares_all fold_right].
  apply seq_same; [now apply declare_values|now apply IH].
Qed.
Lemma passing_values s s' k k' : stmt_values s = stmt_values s' -> k == k' -> passing M s k == passing M s' k'.
Proof.
  intros E Hk. destruct s, s'; try discriminate E; cbn [passing]; try exact Hk. cbn [stmt_values] in E. injection E as -> E. apply seq_same; [|exact Hk]. apply declares_values.
  revert l0 E. induction l as [|d l IH]; intros [|d' l'] E; try discriminate; [reflexivity|]. cbn [map fst snd option_map] in *. apply cons_cut in E as [E1 E3]. apply pair_equal_spec in E1 as [E1 E2]. now rewrite E1, (IH _ E3).
Qed.
Lemma decides_values c c' r w b w' : option_map values c = option_map values c' -> decides M c r w b w' -> decides M c' r w b w'.
Proof.
  destruct c as [c|], c' as [c'|]; cbn [option_map]; intros E; try discriminate; [|auto]. injection E as E. intros (v & H & Hb). exists v. split; [now apply (sees_expr M sees _ _ E)|exact Hb].
Qed.
Lemma acts_values c c' r w w' : option_map values c = option_map values c' -> acts M c r w w' -> acts M c' r w w'.
Proof.
  destruct c as [c|], c' as [c'|]; cbn [option_map]; intros E; try discriminate; [|auto]. injection E as E. intros (v & H). exists v. now apply (sees_expr M sees _ _ E).
Qed.
Lemma ends_values c c' r w w' : option_map values c = option_map values c' -> ends M c r w w' -> ends M c' r w w'.
Proof.
  destruct c as [c|], c' as [c'|]; cbn [option_map]; intros E; try discriminate; [|auto]. injection E as E. apply (sees_expr M sees _ _ E).
Qed.
Scheme loop_mind := Minimality for loop Sort Prop with again_mind := Minimality for again Sort Prop.
Combined Scheme loop_again_mind from loop_mind, again_mind.
Lemma loop_values1 c c' a a' (b b' : exec M) r : option_map values c = option_map values c' -> option_map values a = option_map values a' ->
  (forall r w o, b r w o -> b' r w o) ->
  (forall w o, loop M c a b r w o -> loop M c' a' b' r w o) /\ (forall o1 o, again M c a b r o1 o -> again M c' a' b' r o1 o).
Proof.
  intros Ec Ea Hb. apply (loop_again_mind M c a b r (fun w o => loop M c' a' b' r w o) (fun o1 o => again M c' a' b' r o1 o)).
  - intros w. apply Loop_pause.
  - intros w w' H. apply Loop_ends. eapply ends_values; eauto.
  - intros w w' H. apply Loop_stop. eapply decides_values; eauto.
  - intros w w1 o1 o H H1 _ H2. eapply Loop_turn; eauto using decides_values.
  - intros o1 w w' o H H1 _ H2. eapply Again_turn; eauto using acts_values.
  - intros o1 w w' H H1. eapply Again_ends; eauto using ends_values.
  - intros w. apply Again_break.
  - intros o H. now apply Again_leave.
Qed.
Lemma loop_values c c' a a' b b' : option_map values c = option_map values c' -> option_map values a = option_map values a' -> b == b' -> loop M c a b == loop M c' a' b'.
Proof. intros Ec Ea Hb r w o. split; apply loop_values1; auto; intros; now apply Hb. Qed.
Lemma again_values c c' a a' b b' r o1 o : option_map values c = option_map values c' -> option_map values a = option_map values a' -> b == b' -> again M c a b r o1 o <-> again M c' a' b' r o1 o.
Proof. intros Ec Ea Hb. split; apply loop_values1; auto; intros; now apply Hb. Qed.
Lemma for_values_same i i' : option_map for_values i = option_map for_values i' -> for_init M i == for_init M i'.
Proof.
  destruct i as [[e|v]|], i' as [[e'|v']|]; cbn [option_map for_values]; intros E; try discriminate; cbn [for_init]; [| |apply same_refl].
  - injection E as E. apply run_values; [exact E|]. intros. apply same_refl.
  - injection E as -> E1 E2 E3 E4. apply declare_values; [|cbn; now rewrite E4]. unfold form_values. now rewrite E1, E2, E3.
Qed.
Lemma return_values e e' : option_map values e = option_map values e' -> return_ M e == return_ M e'.
Proof.
  destruct e as [e|], e' as [e'|]; cbn [option_map]; intros E; try discriminate; [|apply same_refl]. injection E as E. cbn [return_]. apply run_values; [exact E|]. intros. apply same_refl.
Qed.
Lemma target_values x s s' : stmt_values s = stmt_values s' -> agree (target M x s) (target M x s').
Proof.
  intros E. assert (A : agree (is_case M x) (is_case M x)).
  { intros [v|] [v'|] El; try discriminate; [|reflexivity]. injection El as El. cbn. now apply (sees_label M sees). }
  unfold target. rewrite (has_values _ _ _ _ A E). destruct (has _ _); [exact A|]. intros [v|] [v'|] El; try discriminate; reflexivity.
Qed.
Lemma exec_values s : forall s' j hit hit', agree hit hit' -> stmt_values s = stmt_values s' -> c_exec M j hit s == c_exec M j hit' s'.
Proof.
  induction s as [|e|t l|l Hl|c s e Hs He|c s Hs|i c a s Hs|e s Hs|v s Hs|s Hs| | |e] using cst_ind'; intros s' j hit hit' Ha E; destruct s' as [|e'|t' l'|l'|c' s' e'|c' s'|i' c' a' s'|e' s'|v' s'|s'| | |e']; try discriminate E;
    cbn [stmt_values] in E.
  - apply same_refl.
  - injection E as E. cbn [c_exec]. destruct j; [apply same_refl|]. apply run_values; [exact E|]. intros. apply same_refl.
  - injection E as -> E. cbn [c_exec]. destruct j; [apply same_refl|]. now apply declares_values.
  - injection E as E. rewrite !c_exec_block. apply inside_same. revert j l' E. induction Hl as [|s l Hs Hl IH]; intros j [|s' l'] E; try discriminate; [apply same_refl|].
    cbn [map] in E. injection E as E1 E2. cbn [c_block]. rewrite (has_values hit hit' s s' Ha E1). destruct j; [destruct (has hit' s')|].
    + apply seq_same; auto.
    + apply passing_values; auto.
    + apply seq_same; auto.
  - injection E as E1 E2 E3. cbn [c_exec]. rewrite (has_values hit hit' s s' Ha E2). destruct j; [destruct (has hit' s')|].
    + apply inside_same; auto.
    + destruct e as [e|], e' as [e'|]; try discriminate; [|apply same_refl]. injection E3 as E3. apply inside_same. now apply He.
    + apply run_values; [exact E1|]. intros w v. destruct (truth M v); [apply inside_same; auto|].
      destruct e as [e|], e' as [e'|]; try discriminate; [|apply same_refl]. injection E3 as E3. apply inside_same. now apply He.
  - injection E as E1 E2. cbn [c_exec]. assert (E1' : option_map values (Some c) = option_map values (Some c')) by (cbn; now rewrite E1). destruct j.
    + intros r w o. split; intros (o1 & H & H'); exists o1; (split; [now apply (Hs s' true hit hit')|]); revert H'; apply again_values; auto using same_sym.
    + apply loop_values; auto.
  - injection E as E1 E2 E3 E4. cbn [c_exec]. destruct j.
    + intros r w o. split; intros (o1 & H & H'); exists o1; (split; [now apply (Hs s' true hit hit')|]); revert H'; apply again_values; auto using same_sym.
    + apply inside_same, seq_same; [now apply for_values_same|]. apply loop_values; auto.
  - injection E as E1 E2. cbn [c_exec]. destruct j; [apply same_refl|]. apply run_values; [exact E1|]. intros w x.
    rewrite (has_values (target M x s) (target M x s') s s' (target_values x _ _ E2) E2). destruct (has _ _); [|apply same_refl]. apply switched_same. apply Hs; auto using target_values.
  - injection E as E1 E2. cbn [c_exec]. rewrite (Ha (LCase v) (LCase v')) by (cbn; now rewrite E1). now apply Hs.
  - injection E as E. cbn [c_exec]. rewrite (Ha LDefault LDefault eq_refl). now apply Hs.
  - apply same_refl.
  - apply same_refl.
  - injection E as E. cbn [c_exec]. destruct j; [apply same_refl|]. now apply return_values.
Qed.
Theorem runs_values s s' : stmt_values s = stmt_values s' -> c_runs M s == c_runs M s'.
Proof. apply exec_values. intros [v|] [v'|] E; try discriminate; reflexivity. Qed.
End Values.
