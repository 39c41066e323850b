(** A small machine for the examples and counterexamples: numbers are values,
    the world counts the calls of functions, each of which gives the count. *)
From Verif Require Import Base BaseFacts Buf Nodes CAst SpecDecl SpecTarget SpecC SpecCStmt SpecExec SpecReturn.

Definition toy_same (v : nat) (e : cexpr) : bool :=
  match e with CLit (CLString s) => Nat.eqb v (List.length (string_value s)) | _ => false end.
Definition toy_equals (v : nat) (e : cexpr) : bool :=
  match e with CLit (CLNumber s) => Nat.eqb v (List.length s) | _ => false end.
Definition toy_bool (b : bool) : nat := if b then 1 else 0.
Definition after (x : effect nat nat) (k : nat -> nat -> effect nat nat) : effect nat nat :=
  match x with Gives w v => k w v | Ends w => Ends w end.
Fixpoint toy_eval (e : cexpr) (w : nat) : effect nat nat :=
  match e with
  | CLit (CLNumber s) => Gives w (List.length s)
  | CLit (CLString s) => Gives w (List.length (string_value s))
  | CIdent n => Gives w (toy_bool (str_eqb n (L "true")))
  | CPrefix op a => after (toy_eval a w) (fun w v => Gives w (if String.eqb op "!" then toy_bool (Nat.eqb v 0) else v))
  | CBin op a b =>
      after (toy_eval a w) (fun w v =>
        if String.eqb op "||" && negb (Nat.eqb v 0) then Gives w 1
        else after (toy_eval b w) (fun w u => Gives w (if String.eqb op "||" then toy_bool (negb (Nat.eqb u 0)) else v)))
  | CCall (CIdent n) args =>
      if str_eqb n (L "strcmp") then
        match args with
        | [l; a] => after (toy_eval a w) (fun w v => Gives w (toy_bool (negb (toy_same v l))))
        | _ => Gives w 0
        end
      else if str_eqb n (L "exit") then Ends w
      else Gives (Datatypes.S w) w
  | _ => Gives w 0
  end.
Definition toy : machine := mkMachine unit nat nat
  (fun e _ w o => o = toy_eval e w) (fun _ _ _ r w o => o = Gives w r)
  (fun v => negb (Nat.eqb v 0)) toy_equals (fun v e _ _ => toy_same v e).

Lemma toy_tests e r w b : tests toy e r w b <-> exists v, toy_eval e w = Gives w v /\ negb (Nat.eqb v 0) = b.
Proof.
  split.
  - intros [_ (v & H & Hv)]. exists v. cbn in *. auto.
  - intros (v & H & Hv). split; [|exists v; cbn; auto]. intros o ->. exists v. cbn. auto.
Qed.
Lemma toy_settled e r w v : settled toy e r w v <-> toy_eval e w = Gives w v.
Proof. split; [intros H; symmetry; now apply (H (Gives w v))|]. intros H o. cbn. now rewrite H. Qed.
Lemma toy_obeys : obeys_c toy.
Proof.
  split.
  - intros e r w b H. apply toy_tests in H as (v & H & Hv). apply toy_tests. cbn [toy_eval]. rewrite H. cbn.
    eexists. split; [reflexivity|]. subst b. now destruct v.
  - intros e e' r w b b' H H'. apply toy_tests in H as (v & H & Hv). apply toy_tests in H' as (v' & H' & Hv'). apply toy_tests.
    cbn [toy_eval]. rewrite H. cbn. destruct v as [|v]; cbn.
    + rewrite H'. cbn. eexists. split; [reflexivity|]. subst. now destruct v'.
    + eexists. split; [reflexivity|]. now subst.
  - intros l e r w v H. apply toy_settled in H. apply toy_tests. cbn [call toy_eval].
    change (str_eqb (lit "strcmp") (L "strcmp")) with true. cbn match. rewrite H. cbn [after].
    eexists. split; [reflexivity|]. cbn. now destruct (toy_same v l).
  - intros e r w H. destruct (H _ eq_refl).
  - intros e e' r w H. destruct (H _ eq_refl).
  - intros l e r w H. destruct (H _ eq_refl).
Qed.
Lemma values_string e e' : values e = values e' -> forall v, toy_same v e = toy_same v e'.
Proof. destruct e as [[]| | | | | | | | | | |], e' as [[]| | | | | | | | | | |]; intros E v; try discriminate E; cbn in *; try reflexivity. now injection E as ->. Qed.
Lemma values_number e e' : values e = values e' -> forall v, toy_equals v e = toy_equals v e'.
Proof. destruct e as [[]| | | | | | | | | | |], e' as [[]| | | | | | | | | | |]; intros E v; try discriminate E; cbn in *; try reflexivity. now injection E as ->. Qed.
Lemma toy_values : forall e e' w, values e = values e' -> toy_eval e w = toy_eval e' w.
Proof.
  fix go 1. intros e e' w E.
  destruct e as [l|es|s|op a b|op x f|op x|op x|t x|f args|t|x|a i], e' as [l'|es'|s'|op' a' b'|op' x' f'|op' x'|op' x'|t' x'|f' args'|t'|x'|a' i']; try (destruct l; discriminate E); try (destruct l'; discriminate E); try discriminate E;
    try reflexivity.
  - destruct l, l'; cbn in *; try discriminate E; try reflexivity; injection E as E; now rewrite ?E.
  - cbn in E. injection E as ->. reflexivity.
  - cbn [values] in E. injection E as -> E1 E2. cbn [toy_eval]. rewrite (go a a' w E1). destruct (toy_eval a' w) as [w' v|w']; [|reflexivity]. cbn [after]. destruct (_ && _); [reflexivity|]. now rewrite (go b b' w' E2).
  - cbn [values] in E. injection E as -> E1. cbn [toy_eval]. now rewrite (go x x' w E1).
  - cbn [values] in E. injection E as E1 E2. cbn [toy_eval]. destruct f, f'; try reflexivity; try discriminate E1; try (destruct l; discriminate E1).
    cbn in E1. injection E1 as ->. destruct (str_eqb _ _); [|reflexivity].
    destruct args as [|l [|a [|]]], args' as [|l' [|a' [|]]]; try discriminate E2; try reflexivity. cbn [map] in E2. injection E2 as E2 E3. rewrite (go a a' w E3).
    destruct (toy_eval a' w) as [w' v|w']; [|reflexivity]. cbn [after]. now rewrite (values_string _ _ E2).
Qed.
Lemma toy_sees : sees_values toy.
Proof.
  split.
  - intros e e' E r w o. cbn. now rewrite (toy_values _ _ w E).
  - intros. cbn. tauto.
  - intros x v v' E. cbn. now apply values_number.
Qed.
Lemma toy_exit : knows_exit toy.
Proof. split; [intros r w o ->; cbn; eauto|intros args r w o ->; cbn; eauto]. Qed.

(** Running on the toy machine. *)
Lemma toy_run e k r w o : run toy e k r w o <->
  o = Paused toy w \/ match toy_eval e w with Gives w' v => k w' v r w' o | Ends w' => o = Ended toy w' end.
Proof.
  unfold run. cbn [evals toy]. split.
  - intros [->|[(w' & v & E & H)|(w' & E & H)]]; [now left| |]; rewrite <- E; auto.
  - intros [->|H]; [now left|]. right. destruct (toy_eval e w) as [w' v|w'] eqn:E; [left; eauto|right; eauto].
Qed.
Lemma toy_branch c a b r w o : branch toy c a b r w o <->
  o = Paused toy w \/ match toy_eval c w with Gives w' v => (if Nat.eqb v 0 then b else a) r w' o | Ends w' => o = Ended toy w' end.
Proof.
  unfold branch. rewrite toy_run. destruct (toy_eval c w) as [w' v|w']; [|tauto]. cbn [truth toy]. destruct (Nat.eqb v 0); tauto.
Qed.
Lemma toy_return e r w o : return_ toy (Some e) r w o <->
  o = Paused toy w \/ match toy_eval e w with Gives w' v => o = Returned toy w' (Some v) | Ends w' => o = Ended toy w' end.
Proof. cbn [return_]. rewrite toy_run. reflexivity. Qed.
Lemma scoped_abrupt M (a : exec M) r w o : abrupt M o -> a r w o -> scoped M a r w o.
Proof. intros Ha H. exists o. split; [exact H|]. now destruct o. Qed.
Lemma scoped_next M (a : exec M) r w r' w' : a r w (Next M r' w') -> scoped M a r w (Next M r w').
Proof. intros H. now exists (Next M r' w'). Qed.
Lemma seq_abrupt M (a b : exec M) r w o : abrupt M o -> a r w o -> seq M a b r w o.
Proof. intros Ha H. now right. Qed.
Lemma seq_next M (a b : exec M) r w r' w' o : a r w (Next M r' w') -> b r' w' o -> seq M a b r w o.
Proof. intros H1 H2. left. eauto. Qed.
