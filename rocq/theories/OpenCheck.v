(** Deciding that a function uses something that is not declared, for the
    counterexamples of C67. *)
From Verif Require Import Base BaseFacts Buf CAst SpecCStmt SpecClosed ClosedModule.

Lemma use_eqb_refl : forall u, use_eqb u u = true.
Proof. intros [x | x]; cbn; apply str_eqb_refl. Qed.
Definition declared_b (l : list celem) (u : cuse) : bool := existsb (fun e => existsb (use_eqb u) (declared e)) l.
Lemma declared_all : forall l u, declared_in l u -> declared_b l u = true.
Proof.
  intros l u (e & I & D). apply existsb_exists. exists e. split; [exact I |]. apply existsb_exists. exists u. split; [exact D | apply use_eqb_refl].
Qed.
Definition basic_b (u : cuse) : bool := existsb (fun t => use_eqb u (UType (lit t))) basic_types.
Lemma basic_all : forall u, basic u -> basic_b u = true.
Proof. intros u (t & I & ->). apply existsb_exists. exists t. split; [exact I | apply use_eqb_refl]. Qed.

(** Some function uses [u] and nothing before it declares [u]. *)
Definition undeclared (l : list celem) (u : cuse) : Prop :=
  exists bef d aft, l = bef ++ XFunc d :: aft /\ In u (function_uses d) /\ ~ declared_in bef u /\ ~ basic u.
Fixpoint open_in (u : cuse) (bef l : list celem) : bool :=
  match l with
  | [] => false
  | e :: r => (match e with
               | XFunc d => existsb (use_eqb u) (function_uses d) && negb (declared_b bef u)
               | _ => false
               end) || open_in u (bef ++ [e]) r
  end.
Lemma open_undeclared : forall l u, open_in u [] l = true -> basic_b u = false -> undeclared l u.
Proof.
  assert (G : forall l u bef, open_in u bef l = true -> basic_b u = false -> undeclared (bef ++ l) u).
  { induction l as [| e l IH]; intros u bef H N; [discriminate |]. cbn [open_in] in H. apply orb_true_iff in H as [H | H].
    - destruct e; try discriminate. apply andb_true_iff in H as [H1 H2]. apply existsb_exists in H1 as (v & I & E). apply use_eqb_eq in E. subst v.
      exists bef, f, l. split; [reflexivity |]. split; [exact I |]. split.
      + intros D. apply declared_all in D. rewrite D in H2. discriminate.
      + intros D. apply basic_all in D. congruence.
    - apply (IH _ _ H) in N. now rewrite <- app_assoc in N. }
  intros l u. apply (G l u []).
Qed.

(** The same for the elements of a file. *)
Definition file_undeclared (l : list celem) (u : cuse) : Prop :=
  exists bef y aft, l = bef ++ y :: aft /\ In u (elem_uses y) /\ ~ declared_in bef u /\ ~ basic u.
Fixpoint file_open (u : cuse) (bef l : list celem) : bool :=
  match l with
  | [] => false
  | e :: r => existsb (use_eqb u) (elem_uses e) && negb (declared_b bef u) || file_open u (bef ++ [e]) r
  end.
Lemma file_open_undeclared : forall l u, file_open u [] l = true -> basic_b u = false -> file_undeclared l u.
Proof.
  assert (G : forall l u bef, file_open u bef l = true -> basic_b u = false -> file_undeclared (bef ++ l) u).
  { induction l as [| e l IH]; intros u bef H N; [discriminate |]. cbn [file_open] in H. apply orb_true_iff in H as [H | H].
    - apply andb_true_iff in H as [H1 H2]. apply existsb_exists in H1 as (v & I & E). apply use_eqb_eq in E. subst v.
      exists bef, e, l. split; [reflexivity |]. split; [exact I |]. split.
      + intros D. apply declared_all in D. rewrite D in H2. discriminate.
      + intros D. apply basic_all in D. congruence.
    - apply (IH _ _ H) in N. now rewrite <- app_assoc in N. }
  intros l u. apply (G l u []).
Qed.
