(** Functions that return on every path. *)
From Verif Require Import Base BaseFacts Buf Nodes NodeInd CAst SpecDecl SpecTarget SpecTyping SpecExec SpecReturn TargetFacts AcceptFacts ExecFacts.

Section Return.
Variable M : machine.
Variable S : site.
Notation s_exec := (s_exec M S).
Notation s_execs := (s_execs M S).
Notation choose := (choose M S).
Definition unbroke (a : exec M) : Prop := forall r w w', ~ a r w (Broke M w').

Lemma seq_unbroke a b : unbroke a -> unbroke b -> unbroke (seq M a b).
Proof. intros Ha Hb r w w' [(r1 & w1 & _ & H)|[_ H]]; [now apply Hb in H|now apply Ha in H]. Qed.
Lemma skip_unbroke : unbroke (skip M).
Proof. intros r w w' [H|H]; discriminate. Qed.
Lemma next_unbroke : unbroke (now M (Next M)).
Proof. intros r w w' H. discriminate. Qed.
Lemma scoped_unbroke a : unbroke a -> unbroke (scoped M a).
Proof. intros Ha r w w' (o & H & E). destruct o; try discriminate. now apply Ha in H. Qed.
Lemma switched_unbroke a : unbroke (switched M a).
Proof. intros r w w' (o & H & E). destruct o; discriminate. Qed.
Lemma run_unbroke e k : (forall w v, unbroke (k w v)) -> unbroke (run M e k).
Proof. intros Hk r w w' [H|[(w1 & v & _ & H)|(w1 & _ & H)]]; try discriminate. now apply Hk in H. Qed.
Lemma expression_unbroke e : unbroke (expression M e).
Proof. apply run_unbroke. intros w v. apply next_unbroke. Qed.
Lemma loop_unbroke c a b : unbroke (loop M c a b).
Proof.
  intros r w w' H.
  enough (Q : forall w o, loop M c a b r w o -> match o with Broke _ _ => False | _ => True end) by exact (Q _ _ H).
  clear w w' H. apply (loop_ind_m M c a b r (fun w o => match o with Broke _ _ => False | _ => True end)
    (fun o1 o => match o with Broke _ _ => False | _ => True end)); auto. intros o H. now destruct o.
Qed.
Lemma for_unbroke i : unbroke (for_init M i).
Proof.
  destruct i as [[e|v]|]; [apply expression_unbroke| |apply skip_unbroke].
  intros r w w' [H|[(? & ? & _ & H)|(? & _ & H)]]; discriminate.
Qed.
Lemma return_unbroke e : unbroke (return_ M e).
Proof. destruct e; [apply run_unbroke; intros w v r w1 w' H; discriminate|intros r w w' [H|H]; discriminate]. Qed.
Lemma choose_unbroke G f def leave cases : (forall c, In c cases -> unbroke (leave (s_execs G (snd c)))) ->
  (forall d, def = Some d -> unbroke (leave (s_execs G d))) -> unbroke (choose G f def leave cases).
Proof.
  intros Hc Hd. induction cases as [|c cases IH]; cbn [ExecFacts.choose].
  - destruct def as [d|]; [now apply Hd|apply next_unbroke].
  - destruct (existsb f (fst c)); [apply Hc; now left|]. apply IH. intros c' H. apply Hc. now right.
Qed.
Lemma unbroke_execs l : Forall (fun s => ~ breaks s -> forall G, unbroke (s_exec G s)) l -> unbroken l -> forall G, unbroke (s_execs G l).
Proof.
  induction 1 as [|s l Hs Hl IH]; intros Hu G; [apply skip_unbroke|]. cbn [SpecExec.s_execs]. apply seq_unbroke.
  - apply Hs, Hu. now left.
  - apply IH. intros x Hx. apply Hu. now right.
Qed.
Lemma breaks_only s : ~ breaks s -> forall G, unbroke (s_exec G s).
Proof.
  induction s as [| | v | c b e IHb IHe | i c a b IHb | c b IHb | e | is v cs d IHc IHd | e] using stmt_ind'; intros Hn G.
  - exfalso. apply Hn. constructor.
  - intros r w w' [H|H]; discriminate.
  - intros r w w' [H|[(? & ? & _ & H)|(? & _ & H)]]; discriminate.
  - rewrite s_if. apply run_unbroke. intros w v. destruct (truth M v).
    + apply scoped_unbroke, unbroke_execs; auto. intros s Hs Hb. apply Hn. eapply Breaks_then; eauto.
    + destruct e as [e|]; [|apply next_unbroke]. apply scoped_unbroke, unbroke_execs; auto. intros s Hs Hb. apply Hn. eapply Breaks_else; eauto.
  - rewrite s_for. apply scoped_unbroke, seq_unbroke; [apply for_unbroke|apply loop_unbroke].
  - rewrite s_while. apply loop_unbroke.
  - apply return_unbroke.
  - intros r w w' H. destruct is.
    + apply s_switch_str in H. destruct H as [H|[(w1 & x & _ & H)|(w1 & _ & H)]]; try discriminate. revert H. apply choose_unbroke.
      * intros c Hc. apply scoped_unbroke, unbroke_execs; [rewrite Forall_forall in IHc; now apply IHc|]. intros s Hs Hb. apply Hn. eapply Breaks_case; eauto.
      * intros d' ->. apply scoped_unbroke, unbroke_execs; auto. intros s Hs Hb. apply Hn. eapply Breaks_default; eauto.
    + apply s_switch in H. destruct H as [H|[(w1 & x & _ & H)|(w1 & _ & H)]]; try discriminate. revert H. apply choose_unbroke; intros; apply switched_unbroke.
  - assert (Q : unbroke (expression M (c_expr S G e))) by apply expression_unbroke.
    cbn [SpecExec.s_exec]. destruct e as [| | | | |p f args| | | | | | ]; try exact Q. destruct f; try exact Q.
    destruct (is_name _ _); [|exact Q]. apply scoped_unbroke. cbn [panic_calls fold_right].
    repeat (apply seq_unbroke; [apply expression_unbroke|]). apply skip_unbroke.
Qed.
Lemma unbroken_execs l G : unbroken l -> unbroke (s_execs G l).
Proof. intros H. apply unbroke_execs; auto. apply Forall_forall. intros s _. apply breaks_only. Qed.

(** ** No way out at the end *)
Hypothesis Hm : knows_exit M.
Notation sealed := (sealed M).
Lemma run_sealed e k : (forall w v, sealed (k w v)) -> sealed (run M e k).
Proof. intros Hk r w r' w' [H|[(w1 & v & _ & H)|(w1 & _ & H)]]; try discriminate. now apply Hk in H. Qed.
Lemma switched_sealed a : sealed a -> unbroke a -> sealed (switched M a).
Proof. intros Ha Hb r w r' w' (o & H & E). destruct o; try discriminate; [now apply Ha in H|now apply Hb in H]. Qed.
Lemma choose_sealed G f d leave cases : (forall c, In c cases -> sealed (leave (s_execs G (snd c)))) ->
  sealed (leave (s_execs G d)) -> sealed (choose G f (Some d) leave cases).
Proof.
  intros Hc Hd. induction cases as [|c cases IH]; cbn [ExecFacts.choose]; [exact Hd|].
  destruct (existsb f (fst c)); [apply Hc; now left|]. apply IH. intros c' H. apply Hc. now right.
Qed.
Lemma forever_sealed c b : (forall r w o, evals M c r w o -> exists w' v, o = Gives w' v /\ truth M v = true) -> unbroke b ->
  sealed (loop M (Some c) None b).
Proof.
  intros Hc Hb r w r' w' H.
  enough (Q : forall w o, loop M (Some c) None b r w o -> match o with Next _ _ _ => False | _ => True end) by exact (Q _ _ H).
  clear w r' w' H. intros w o H.
  refine (proj1 (conj (loop_ind_m M (Some c) None b r (fun w o => match o with Next _ _ _ => False | _ => True end)
    (fun o1 o => match o1 with Broke _ _ => True | _ => match o with Next _ _ _ => False | _ => True end end) _ _ _ _ _ _ _ _ w o H) I)).
  - exact (fun _ => I).
  - exact (fun _ _ _ => I).
  - intros w0 w1 (v & Hv & Ht). destruct (Hc _ _ _ Hv) as (w2 & v2 & E & Ht'). injection E as -> ->. congruence.
  - intros w0 w1 o1 o0 _ H1 _ H2. destruct o1; try exact H2. now apply Hb in H1.
  - intros o1 w0 w1 o0 H1 _ _ H2. destruct o1; exact H2 || exact I.
  - intros o1 w0 w1 _ _. now destruct o1.
  - exact (fun _ => I).
  - intros o0 H0. now destruct o0.
Qed.
Lemma body_sealed G s r : sealed (s_execs (declares s ++ G) r) -> sealed (s_execs G (s :: r)).
Proof. intros H. cbn [SpecExec.s_execs]. now apply seq_sealed. Qed.
Lemma last_sealed G s : sealed (s_exec G s) -> sealed (s_execs G [s]).
Proof. intros H r w r' w' [(r1 & w1 & H1 & _)|[[] _]]. now apply H in H1. Qed.

Lemma closes_last s : closes [s] -> closing s.
Proof. intros H. inversion H as [before x Hx E]. destruct before as [|y before]; cbn in E; [now injection E as <-|]. injection E as _ E. now destruct before. Qed.
Lemma closes_more s s' r : closes (s :: s' :: r) -> closes (s' :: r).
Proof.
  intros H. inversion H as [before x Hx E]. destruct before as [|y before]; cbn in E; [discriminate|]. injection E as _ <-. now constructor.
Qed.
Definition ends_well (s : stmt) : Prop := forall G, closing s -> thorough_end G s -> sealed (s_exec G s).
Lemma list_ends l : Forall ends_well l -> forall G, closes l -> thorough G l -> sealed (s_execs G l).
Proof.
  induction 1 as [|s l Hs Hl IH]; intros G Hc Ht; [inversion Ht|]. inversion Ht as [? s' r Ht'|? Ht']; subst.
  - apply body_sealed, IH; auto. now apply closes_more in Hc.
  - apply last_sealed, Hs; auto. now apply closes_last.
Qed.
Lemma stmt_ends s : ends_well s.
Proof.
  induction s as [| | v | c b e IHb IHe | i c a b IHb | c b IHb | e | is v cs d IHc IHd | e] using stmt_ind'; intros G Hc Ht; inversion Ht as [| |? ? ? T1 T2 T3|? ? T1 T2 T3|? ? ? ? T1 T2 T3]; subst.
  - rewrite s_if. apply run_sealed. intros w v. inversion Hc; subst. destruct (truth M v).
    + apply sealed_inside, list_ends; auto.
    + apply sealed_inside, list_ends; auto.
  - rewrite s_while. apply forever_sealed.
    + assert (E : c_expr S G c = CIdent (L "true")).
      { destruct c; try discriminate. cbn [is_name] in T1. apply andb_prop in T1 as [E1 E2]. apply str_eqb_eq in E1, E2. cbn [c_expr]. unfold cname. rewrite E1, E2. change (str_eqb [] (L "OS")) with false. change (str_eqb [] []) with true. cbn match. now rewrite T2. }
      rewrite E. apply (c_true M Hm).
    + now apply scoped_unbroke, unbroken_execs.
  - destruct e as [e|]; [apply run_sealed; intros w v r w0 r' w' H; discriminate|intros r w r' w' [H|H]; discriminate].
  - inversion Hc as [| | | | |? ? ? ? Hc1 Hc2]; subst. cbn [opt_all] in IHd. rewrite Forall_forall in IHc. intros r w r' w' H. destruct is.
    + apply s_switch_str in H. destruct H as [H|[(w1 & x & _ & H)|(w1 & _ & H)]]; try discriminate. revert H. apply choose_sealed.
      * intros c Hi. apply sealed_inside, list_ends; [now apply IHc|now apply Hc1|]. now apply T1.
      * apply sealed_inside, list_ends; auto.
    + apply s_switch in H. destruct H as [H|[(w1 & x & _ & H)|(w1 & _ & H)]]; try discriminate. revert H. apply choose_sealed.
      * intros c Hi. apply switched_sealed; [apply list_ends; [now apply IHc|now apply Hc1|now apply T1]|]. apply unbroken_execs. now apply T1.
      * apply switched_sealed; [apply list_ends; auto|]. apply unbroken_execs. auto.
  - inversion Hc as [|? ? ? Hp| | | |]; subst. destruct f; try discriminate. cbn [SpecExec.s_exec]. rewrite Hp. apply sealed_inside. cbn [panic_calls fold_right].
    do 3 apply seq_sealed. intros r w r' w' [(r1 & w1 & H2 & _)|[[] _]].
    destruct H2 as [H2|[(w2 & v & H2 & _)|(w2 & _ & H2)]]; try discriminate. apply (c_exit M Hm) in H2. now destruct H2.
Qed.
Lemma thorough_returns G l : closes l -> thorough G l -> forall r w r' w', ~ s_runs M S G l r w (Next M r' w').
Proof. intros Hc Ht. apply sealed_inside, list_ends; auto. apply Forall_forall. intros s _. apply stmt_ends. Qed.
End Return.
