(** A small host for the examples and counterexamples of C72.  Values are
    numbers; the world has cells for local variables, the values of the
    variables of files, and a record of the calls of library functions, each of
    which gives the number of the calls before it; calloc gives new cells. *)
From Verif Require Import Base BaseFacts Buf Nodes Resolve CAst FormatC Translator SpecDecl SpecTarget SpecC SpecCStmt SpecExec SpecClosed SpecRun.

Record tworld := mkT { t_cells : list nat; t_globals : list (nat * str * nat); t_seen : list (str * list nat) }.
Definition t_cell (w : tworld) (p : nat) : nat := nth p (t_cells w) 0.
Definition t_global (w : tworld) (i : nat) (x : str) : nat :=
  match find (fun g => Nat.eqb (fst (fst g)) i && str_eqb (snd (fst g)) x) (t_globals w) with Some g => snd g | None => 0 end.
Fixpoint t_put (l : list nat) (p v : nat) : list nat :=
  match l, p with [], _ => [] | _ :: l, 0 => v :: l | x :: l, Datatypes.S p => x :: t_put l p v end.
Definition t_write (w : tworld) (p v : nat) : tworld := mkT (t_put (t_cells w) p v) (t_globals w) (t_seen w).
Definition t_set (w : tworld) (i : nat) (x : str) (v : nat) : tworld := mkT (t_cells w) ((i, x, v) :: t_globals w) (t_seen w).
Definition t_log (w : tworld) (x : str) (args : list nat) : tworld := mkT (t_cells w) (t_globals w) (t_seen w ++ [(x, args)]).
Definition t_bool (b : bool) : nat := if b then 1 else 0.
Definition t_number (s : str) : nat := fold_left (fun n c => n * 10 + N.to_nat (c - 48)) s 0.
Definition t_literal (l : cliteral) : nat :=
  match l with CLNumber s => t_number s | CLString s => List.length s | CLChar s => List.length s | CLNull => 0 end.
Definition t_arith (op : string) (a b : nat) : nat :=
  if String.eqb op "+" then a + b else if String.eqb op "-" then a - b else if String.eqb op "*" then a * b
  else if String.eqb op "<" then t_bool (Nat.ltb a b) else if String.eqb op ">" then t_bool (Nat.ltb b a)
  else if String.eqb op "==" then t_bool (Nat.eqb a b) else if String.eqb op "!=" then t_bool (negb (Nat.eqb a b)) else 0.
(** Without evaluating: labels and first values of the variables of files. *)
Fixpoint t_const (e : rx nat) (w : tworld) : nat :=
  match e with
  | RLit l => t_literal l
  | RThing (TLocal p) => t_cell w p
  | RThing (TVariable i x) => t_global w i x
  | RThing (TKnown _ (UName x)) => if str_eqb x (L "false") then 0 else List.length x
  | RField _ a x => t_cell w (t_const a w + List.length (snd x))
  | RIndex a b => t_cell w (t_const a w + t_const b w)
  | RBin op a b => t_arith op (t_const a w) (t_const b w)
  | RSizeofT _ _ | RSizeofE _ => 1
  | _ => 0
  end.
(** What can be assigned to and what can be called. *)
Inductive t_target := InCell (p : nat) | InGlobal (i : nat) (x : str) | Nowhere.
Definition t_target_of (e : rx nat) (w : tworld) : t_target :=
  match e with
  | RThing (TLocal p) => InCell p
  | RThing (TVariable i x) => InGlobal i x
  | RField _ a x => InCell (t_const a w + List.length (snd x))
  | RIndex a b => InCell (t_const a w + t_const b w)
  | _ => Nowhere
  end.
Definition t_assign (t : t_target) (v : nat) (w : tworld) (o : effect tworld nat) : Prop :=
  match t with InCell p => o = Gives (t_write w p v) v | InGlobal i x => o = Gives (t_set w i x v) v | Nowhere => False end.
Inductive t_callee := Own (i : nat) (x : str) | Library (x : str) | Nobody.
Definition t_callee_of (e : rx nat) : t_callee :=
  match e with RThing (TFunction i x) => Own i x | RThing (TKnown _ (UName x)) => Library x | _ => Nobody end.
Definition t_address (t : t_target) : nat := match t with InCell p => p | _ => 0 end.
Definition t_unary (op : string) (v : nat) (w : tworld) : nat :=
  if String.eqb op "!" then t_bool (Nat.eqb v 0) else if String.eqb op "*" then t_cell w v else v.
Definition t_same (v : nat) (l : rx nat) (w : tworld) : bool := Nat.eqb v (t_const l w).
Definition t_truth (v : nat) : bool := negb (Nat.eqb v 0).
(** One evaluation after the other. *)
Definition t_bind {A B} (m : effect tworld A -> Prop) (k : tworld -> A -> effect tworld B -> Prop) (o : effect tworld B) : Prop :=
  (exists w a, m (Gives w a) /\ k w a o) \/ exists w, m (Ends w) /\ o = Ends w.
Definition t_is {A} (x : effect tworld A) (o : effect tworld A) : Prop := o = x.
Definition t_table : Type := table tworld nat.
Definition t_library (x : str) (vs : list nat) (w : tworld) : effect tworld nat :=
  if str_eqb x (L "exit") then Ends (t_log w x vs)
  else if str_eqb x (L "calloc") then Gives (mkT (t_cells w ++ repeat 0 16) (t_globals w) (t_seen w ++ [(x, vs)])) (List.length (t_cells w))
  else Gives (t_log w x vs) (List.length (t_seen w)).
Fixpoint t_evals (T : t_table) (e : rx nat) (w : tworld) : effect tworld nat -> Prop :=
  let list := fix list (l : list (rx nat)) (w : tworld) : effect tworld (list nat) -> Prop :=
    match l with
    | [] => t_is (Gives w [])
    | a :: l => t_bind (t_evals T a w) (fun w v => t_bind (list l w) (fun w vs => t_is (Gives w (v :: vs))))
    end in
  match e with
  | RBin op a b =>
      if str_in (lit op) (map lit assignments) then
        if String.eqb op "=" then t_bind (t_evals T b w) (fun w v => t_assign (t_target_of a w) v w) else fun _ => False
      else if String.eqb op "||" then
        t_bind (t_evals T a w) (fun w v => if t_truth v then t_is (Gives w 1) else t_bind (t_evals T b w) (fun w v => t_is (Gives w (t_bool (t_truth v)))))
      else if String.eqb op "&&" then
        t_bind (t_evals T a w) (fun w v => if t_truth v then t_bind (t_evals T b w) (fun w v => t_is (Gives w (t_bool (t_truth v)))) else t_is (Gives w 0))
      else t_bind (t_evals T a w) (fun w v => t_bind (t_evals T b w) (fun w v' => t_is (Gives w (t_arith op v v'))))
  | RField _ a x => t_bind (t_evals T a w) (fun w v => t_is (Gives w (t_cell w (v + List.length (snd x)))))
  | RIndex a b => t_bind (t_evals T a w) (fun w v => t_bind (t_evals T b w) (fun w v' => t_is (Gives w (t_cell w (v + v')))))
  | RPrefix op a =>
      if String.eqb op "++" then t_assign (t_target_of a w) (Datatypes.S (t_const a w)) w
      else if String.eqb op "--" then t_assign (t_target_of a w) (t_const a w - 1) w
      else if String.eqb op "&" then t_is (Gives w (t_address (t_target_of a w)))
      else t_bind (t_evals T a w) (fun w v => t_is (Gives w (t_unary op v w)))
  | RPostfix op a =>
      t_bind (t_assign (t_target_of a w) (if String.eqb op "++" then Datatypes.S (t_const a w) else t_const a w - 1) w) (fun w' _ => t_is (Gives w' (t_const a w)))
  | RCast _ _ a => t_evals T a w
  | RCall f l =>
      match t_callee_of f with
      | Own i x => t_bind (list l w) (fun w vs => T i x vs w)
      | Library x =>
          if str_eqb x (L "strcmp") then
            match l with
            | [a; b] => t_bind (t_evals T b w) (fun w v => t_is (Gives w (t_bool (negb (t_same v a w)))))
            | _ => fun _ => False
            end
          else t_bind (list l w) (fun w vs => t_is (t_library x vs w))
      | Nobody => fun _ => False
      end
  | e => t_is (Gives w (t_const e w))
  end.
Definition t_list (T : t_table) : list (rx nat) -> tworld -> effect tworld (list nat) -> Prop :=
  fix list l w :=
  match l with
  | [] => t_is (Gives w [])
  | a :: l => t_bind (t_evals T a w) (fun w v => t_bind (list l w) (fun w vs => t_is (Gives w (v :: vs))))
  end.
Definition toy_host : host := mkHost nat tworld nat t_evals
  (fun T d w o => o = Gives (mkT (t_cells w ++ [0]) (t_globals w) (t_seen w)) (List.length (t_cells w)))
  (fun T p e w o => t_bind (t_evals T e w) (fun w v => t_is (Gives (t_write w p v) tt)) o)
  (fun p v w w' => w' = t_write w p v)
  (fun vs w w' => w' = w)
  (fun d v w o => o = Gives w (match v with Some v => v | None => 0 end))
  (fun l w w' => w' = mkT (t_cells w) (map (fun x => (fst (fst x), t_const (snd x) w)) l ++ t_globals w) (t_seen w))
  (fun w => w)
  t_truth
  (fun v e => Nat.eqb v (t_const e (mkT [] [] [])))
  t_same.

Lemma t_bind_ext : forall A B (m m' : effect tworld A -> Prop) (k k' : tworld -> A -> effect tworld B -> Prop),
  (forall o, m o <-> m' o) -> (forall w a o, k w a o <-> k' w a o) -> forall o, t_bind m k o <-> t_bind m' k' o.
Proof.
  intros A B m m' k k' Hm Hk o. unfold t_bind. split; (intros [(w & a & X & Y) | (w & X & ->)]; [left; exists w, a; split; [now apply Hm | now apply Hk] | right; exists w; split; [now apply Hm | reflexivity]]).
Qed.
Lemma t_bind_is : forall A B w (a : A) (k : tworld -> A -> effect tworld B -> Prop) m, (forall o, m o <-> o = Gives w a) -> forall o, t_bind m k o <-> k w a o.
Proof.
  intros A B w a k m Hm o. split.
  - intros [(w' & a' & X & Y) | (w' & X & _)]; apply Hm in X; [now injection X as <- <- | discriminate].
  - intros Y. left. exists w, a. split; [now apply Hm | exact Y].
Qed.
Lemma t_bind_none : forall A B (k : tworld -> A -> effect tworld B -> Prop) m, (forall o, ~ m o) -> forall o, ~ t_bind m k o.
Proof. intros A B k m Hm o [(w & a & X & _) | (w & X & _)]; exact (Hm _ X). Qed.
Section Laws.
Variable files : list (list celem).
Notation same := (same_rx files toy_host).
Lemma t_const_same : forall e e', same e e' -> forall w, t_const e w = t_const e' w.
Proof.
  fix IH 3. intros e e' [l | x y Hx | x | l l' _ | op a a' b b' Ha Hb | op a a' x Ha | op a a' _ | op a a' _ | t t' n a a' _ _ | f f' l l' _ _ | t t' n _ | a a' _ | a a' b b' Ha Hb] w; try reflexivity.
  - destruct Hx as [x | i j u _]; reflexivity.
  - cbn [t_const]. now rewrite (IH a a' Ha w), (IH b b' Hb w).
  - cbn [t_const]. now rewrite (IH a a' Ha w).
  - cbn [t_const]. now rewrite (IH a a' Ha w), (IH b b' Hb w).
Qed.
Lemma t_target_same : forall e e', same e e' -> forall w, t_target_of e w = t_target_of e' w.
Proof.
  intros e e' [l | x y [x' | i j u _] | x | l l' _ | op a a' b b' Ha Hb | op a a' x Ha | op a a' _ | op a a' _ | t t' n a a' _ _ | f f' l l' _ _ | t t' n _ | a a' _ | a a' b b' Ha Hb] w; try reflexivity; cbn [t_target_of].
  - now rewrite (t_const_same _ _ Ha).
  - now rewrite (t_const_same _ _ Ha), (t_const_same _ _ Hb).
Qed.
Lemma t_callee_same : forall e e', same e e' -> t_callee_of e = t_callee_of e'.
Proof. intros e e' []; try reflexivity. match goal with H : same_thing _ _ _ _ |- _ => destruct H end; reflexivity. Qed.
Section Tables.
Variables T T' : t_table.
Hypothesis HT : same_table toy_host T T'.
Lemma t_evals_same : forall e e', same e e' -> forall w o, t_evals T e w o <-> t_evals T' e' w o
with t_list_same : forall l l', same_list files toy_host l l' -> forall w o, t_list T l w o <-> t_list T' l' w o.
Proof.
  - intros e e' [l | x y Hx | x | l l' _ | op a a' b b' Ha Hb | op a a' x Ha | op a a' Ha | op a a' Ha | t t' n a a' _ Ha | f f' l l' Hf Hl | t t' n _ | a a' _ | a a' b b' Ha Hb] w; try reflexivity.
    + intros o. cbn [t_evals]. now rewrite (t_const_same _ _ (Same_ref files toy_host _ _ Hx)).
    + cbn [t_evals]. pose proof (t_target_same _ _ Ha) as Ta. pose proof (t_evals_same _ _ Ha) as A. pose proof (t_evals_same _ _ Hb) as Bb.
      destruct (str_in (lit op) (map lit assignments)); [destruct (String.eqb op "="); [| reflexivity]; apply t_bind_ext; [apply Bb | intros w' v o; rewrite Ta; reflexivity] |].
      destruct (String.eqb op "||"); [| destruct (String.eqb op "&&")]; (apply t_bind_ext; [apply A |]); intros w' v; try destruct (t_truth v); try reflexivity; (apply t_bind_ext; [apply Bb | reflexivity]).
    + cbn [t_evals]. apply t_bind_ext; [apply (t_evals_same _ _ Ha) | reflexivity].
    + cbn [t_evals]. rewrite (t_target_same _ _ Ha). rewrite (t_const_same _ _ Ha). destruct (String.eqb op "++"); [reflexivity |]. destruct (String.eqb op "--"); [reflexivity |]. destruct (String.eqb op "&"); [reflexivity |].
      apply t_bind_ext; [apply (t_evals_same _ _ Ha) | reflexivity].
    + cbn [t_evals]. rewrite (t_target_same _ _ Ha), (t_const_same _ _ Ha). reflexivity.
    + cbn [t_evals]. apply (t_evals_same _ _ Ha).
    + cbn [t_evals]. fold (t_list T) (t_list T'). rewrite (t_callee_same _ _ Hf). pose proof (t_list_same _ _ Hl) as Ls. destruct (t_callee_of f') as [i x | x |].
      * apply t_bind_ext; [apply Ls | intros; apply HT].
      * destruct (str_eqb x (L "strcmp")).
        -- destruct Hl as [| a a' l l' Ha [| b b' l0 l0' Hb Hr]]; try reflexivity. destruct Hr; [| reflexivity]. apply t_bind_ext; [apply (t_evals_same _ _ Hb) |]. intros w' v o. unfold t_same. now rewrite (t_const_same _ _ Ha).
        -- apply t_bind_ext; [apply Ls | reflexivity].
      * reflexivity.
    + cbn [t_evals]. apply t_bind_ext; [apply (t_evals_same _ _ Ha) |]. intros w' v. apply t_bind_ext; [apply (t_evals_same _ _ Hb) | reflexivity].
  - intros l l' [| a a' r r' Ha Hr] w; [reflexivity |]. apply (t_bind_ext _ _ (t_evals T a w) (t_evals T' a' w)); [apply (t_evals_same _ _ Ha) |]. intros w' v. apply (t_bind_ext _ _ (t_list T r w') (t_list T' r' w')); [apply (t_list_same _ _ Hr) | reflexivity].
Qed.
End Tables.
Lemma str_in_lit : forall op l, ~ In op l -> str_in (lit op) (map lit l) = false.
Proof.
  intros op l N. apply str_in_false. intros H. apply in_map_iff in H as (x & E & I). apply N. now rewrite <- (lit_inj _ _ E).
Qed.
Lemma t_calm : forall T e, calm files toy_host e -> forall w, exists v, forall o, t_evals T e w o <-> o = Gives w v.
Proof.
  intros T e. induction e as [l | x | x | l | op a IHa b IHb | op a IH x | op a IH | op a IH | t n a IH | f IH l | t n | a IH | a IHa b IHb]; intros C w; try (eexists; intros o; cbn [t_evals]; unfold t_is; reflexivity); try (now destruct C).
  - destruct C as (N & Ca & Cb). cbn [t_evals]. rewrite (str_in_lit _ _ N). destruct (IHa Ca w) as (v & A), (IHb Cb w) as (v' & Bb).
    destruct (String.eqb op "||"); [| destruct (String.eqb op "&&")]; [destruct (t_truth v) eqn:Tv | destruct (t_truth v) eqn:Tv |]; eexists; intros o; rewrite (t_bind_is _ _ _ _ _ _ A);
      try rewrite Tv; try rewrite (t_bind_is _ _ _ _ _ _ Bb); unfold t_is; reflexivity.
  - destruct (IH C w) as (v & A). eexists. intros o. cbn [t_evals]. rewrite (t_bind_is _ _ _ _ _ _ A). unfold t_is; reflexivity.
  - destruct C as (N & Ca). cbn [t_evals]. destruct (String.eqb_spec op "++"); [destruct N; subst; now left |]. destruct (String.eqb_spec op "--"); [destruct N; subst; right; now left |].
    destruct (String.eqb op "&"); [eexists; intros o; unfold t_is; reflexivity |]. destruct (IH Ca w) as (v & A). eexists. intros o. rewrite (t_bind_is _ _ _ _ _ _ A). unfold t_is; reflexivity.
  - destruct (IH C w) as (v & A). exists v. exact A.
  - destruct C as (Ca & Cb). destruct (IHa Ca w) as (v & A), (IHb Cb w) as (v' & Bb). eexists. intros o. cbn [t_evals]. rewrite (t_bind_is _ _ _ _ _ _ A), (t_bind_is _ _ _ _ _ _ Bb). unfold t_is; reflexivity.
Qed.
Lemma t_decided : forall T e w b (k : tworld -> nat -> effect tworld nat -> Prop) b', decides_on toy_host T e w b ->
  (forall v, t_truth v = b -> (forall o, k w v o -> exists v', o = Gives w v' /\ t_truth v' = b') /\ exists v', k w v (Gives w v') /\ t_truth v' = b') ->
  (forall o, t_bind (t_evals T e w) k o -> exists v', o = Gives w v' /\ t_truth v' = b') /\ exists v', t_bind (t_evals T e w) k (Gives w v') /\ t_truth v' = b'.
Proof.
  intros T e w b k b' [D1 (v & D2 & D3)] K. cbn in D1, D2, D3. split.
  - intros o [(w' & u & X & Y) | (w' & X & _)].
    + destruct (D1 _ X) as (u' & E & Tu). injection E as -> <-. now apply (proj1 (K u Tu)).
    + destruct (D1 _ X) as (u' & E & _). discriminate.
  - destruct (proj2 (K v D3)) as (v' & K1 & K2). exists v'. split; [| exact K2]. left. exists w, v. auto.
Qed.
Lemma t_bool_truth : forall b, t_truth (t_bool b) = b.
Proof. now intros []. Qed.
Theorem toy_lawful : lawful files toy_host.
Proof.
  constructor.
  - intros T T' e e' HT He w o. exact (t_evals_same T T' HT e e' He w o).
  - intros T T' d d' _ _ w o. reflexivity.
  - intros T T' p e e' HT He w o. apply t_bind_ext; [exact (t_evals_same T T' HT e e' He w) | reflexivity].
  - intros d d' v _ w o. reflexivity.
  - intros l l' F w w'. assert (E : map (fun x => (fst (fst x), t_const (snd x) w)) l = map (fun x => (fst (fst x), t_const (snd x) w)) l').
    { induction F as [| x y r r' (E1 & _ & E2) F IH]; [reflexivity |]. cbn [map]. f_equal; [| exact IH]. f_equal; [exact E1 | exact (t_const_same _ _ E2 w)]. }
    change (w' = mkT (t_cells w) (map (fun x => (fst (fst x), t_const (snd x) w)) l ++ t_globals w) (t_seen w)
      <-> w' = mkT (t_cells w) (map (fun x => (fst (fst x), t_const (snd x) w)) l' ++ t_globals w) (t_seen w)). now rewrite E.
  - intros x e e' He. cbn. now rewrite (t_const_same _ _ He).
  - intros x e e' He w. cbn. unfold t_same. now rewrite (t_const_same _ _ He).
  - intros T e w b D. apply (t_decided T e w b _ (negb b) D). intros v <-. split.
    + intros o ->. eexists. split; [reflexivity |]. change (t_truth (t_bool (Nat.eqb v 0)) = negb (t_truth v)). rewrite t_bool_truth. unfold t_truth. now rewrite negb_involutive.
    + eexists. split; [reflexivity |]. change (t_truth (t_bool (Nat.eqb v 0)) = negb (t_truth v)). rewrite t_bool_truth. unfold t_truth. now rewrite negb_involutive.
  - intros T e e' w b b' D D'. apply (t_decided T e w b _ (b || b') D). intros v <-. destruct (t_truth v).
    + split; [intros o ->; eexists; split; reflexivity | eexists; split; reflexivity].
    + apply (t_decided T e' w b' _ b' D'). intros u <-. split; [intros o ->; eexists; split; [reflexivity | apply t_bool_truth] | eexists; split; [reflexivity | apply t_bool_truth]].
  - intros i T l e w v _ Gv.
    assert (E : forall o, t_evals T (strcmp_of toy_host i l e) w o <-> o = Gives w (t_bool (negb (t_same v l w)))).
    { intros o. cbn [strcmp_of t_evals t_callee_of]. change (str_eqb (L "strcmp") (L "strcmp")) with true. cbn match. rewrite (t_bind_is _ _ _ _ _ _ Gv). reflexivity. }
    split.
    + intros o X. apply E in X. subst o. eexists. split; [reflexivity |]. apply t_bool_truth.
    + eexists. split; [now apply E |]. apply t_bool_truth.
  - intros T e w N. exact (t_bind_none _ _ _ _ N).
  - intros T e e' w N. exact (t_bind_none _ _ _ _ N).
  - intros i T l e w _ N. intros o. cbn [strcmp_of h_evals toy_host t_evals t_callee_of]. change (str_eqb (L "strcmp") (L "strcmp")) with true. cbn match. exact (t_bind_none _ _ _ _ N o).
  - intros T e C w. left. exact (t_calm T e C w).
Qed.
End Laws.
