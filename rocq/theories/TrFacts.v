(** Basic facts about the translator monad and the scoping of a successful
    translation. *)
From Verif Require Import Base BaseFacts Buf Nodes NodeQueries NodeInd Types Cspec Resolve Cursor
  Preparser Parser CAst FormatChe FormatC Translator SpecScope ScopeFacts.

Lemma tbind_ok : forall A B (m : TR A) (f : A -> TR B) s r, tbind m f s = TrOk r ->
  exists a s1, m s = TrOk (a, s1) /\ f a s1 = TrOk r.
Proof.
  intros A B m f s r H. unfold tbind in H. destruct (m s) as [[a s1] | |] eqn:E; try discriminate.
  eauto.
Qed.
Lemma tret_ok : forall A (a b : A) s s', tret a s = TrOk (b, s') -> a = b /\ s = s'.
Proof. intros A a b s s' H. unfold tret in H. injection H as -> ->. auto. Qed.

(** Break a successful sequence of steps into its steps. *)
Ltac tstep :=
  match goal with
  | H : tbind _ _ _ = TrOk _ |- _ =>
      let a := fresh "a" in let s1 := fresh "s1" in let E := fresh "E" in
      apply tbind_ok in H; destruct H as (a & s1 & E & H);
      match type of a with
      | (_ * _)%type => destruct a
      | unit => destruct a
      | _ => idtac
      end; cbv beta iota in H
  | H : tret _ _ = TrOk (_, _) |- _ => apply tret_ok in H; destruct H; subst
  | H : terr _ _ = TrOk _ |- _ => discriminate H
  | H : tpanic _ _ = TrOk _ |- _ => discriminate H
  end.
Ltac tsteps := repeat tstep.
(** One step of [H], its equation named [E]. *)
Ltac tone H E :=
  let a := fresh "a" in let s1 := fresh "s1" in
  apply tbind_ok in H; destruct H as (a & s1 & E & H);
  match type of a with
  | (_ * _)%type => destruct a
  | unit => destruct a
  | _ => idtac
  end; cbv beta iota in H.

Definition abs_b (b : binding) : ab := (b_name b, b_pub b, b_used b).
Definition abs (s : trst) : mstate := (map (map abs_b) (s_scopes s), s_ns s).

Lemma mark_last_abs : forall x sc,
  amark_last x (map abs_b sc) = option_map (map abs_b) (mark_last x sc).
Proof.
  induction sc as [| b r IH]; [auto |]. cbn [map amark_last mark_last]. rewrite IH.
  destruct (mark_last x r); [auto |]. cbn [option_map abs_b ab_name fst].
  destruct (str_eqb (b_name b) x); auto.
Qed.
Lemma mark_scopes_abs : forall x scs,
  amark x (map (map abs_b) scs)
  = map (map abs_b) (match mark_scopes x scs with Some r => r | None => scs end).
Proof.
  induction scs as [| sc r IH]; [auto |]. cbn [map amark mark_scopes]. rewrite mark_last_abs.
  destruct (mark_last x sc); [auto |]. cbn [option_map]. rewrite IH.
  destruct (mark_scopes x r); auto.
Qed.
Lemma mark_last_in : forall x sc sc', mark_last x sc = Some sc' -> In x (names (map abs_b sc)).
Proof.
  intros x sc sc' H. destruct (in_dec str_eq_dec x (names (map abs_b sc))) as [? | N]; [auto |].
  exfalso. revert sc' H. induction sc as [| b r IH]; intros sc' H; [discriminate |].
  cbn [mark_last] in H. cbn [map names In] in N.
  destruct (mark_last x r) eqn:E; [eapply IH; eauto |].
  destruct (str_eqb_spec (b_name b) x); [| discriminate]. apply N. left. auto.
Qed.
Lemma mark_scopes_visible : forall x scs r, mark_scopes x scs = Some r ->
  In x (visible (map (map abs_b) scs)).
Proof.
  induction scs as [| sc rr IH]; intros r H; [discriminate |]. cbn [mark_scopes] in H.
  cbn [map visible flat_map]. apply in_or_app.
  destruct (mark_last x sc) eqn:E; [left; eapply mark_last_in; eauto |].
  right. destruct (mark_scopes x rr); [| discriminate]. eapply IH; eauto.
Qed.

Section Sim.
Variable env : trenv.

(** What the translator demands of a reference. *)
Definition env_ok (vis : list str) (r : ref) : Prop :=
  let n := ref_name r in
  ns_ns n = L "OS"
  \/ (ns_ns n = [] /\
      match r with
      | RName _ => In (ns_name n) vis \/ find_sym (ns_name n) <> None
      | RType _ => find_type env (ns_name n) <> None
      end)
  \/ (ns_ns n <> [] /\ ns_ns n <> L "OS" /\
      exists h m, find_ns env (ns_ns n) = Some (h, m) /\
      match r with
      | RName _ => In (ns_name n) (map en_name (ex_consts (mod_exports m)))
                   \/ In (ns_name n) (map (fun f => f_name (fd_form f)) (ex_fns (mod_exports m)))
      | RType _ => exports_has (mod_exports m) (ns_name n) = true
      end).

Definition sim (l : list item) (s s' : trst) : Prop := run env_ok l (abs s) (abs s').

Lemma sim_nil : forall s, sim [] s s.
Proof. intros. constructor. Qed.
Lemma sim_app : forall l1 l2 a b c, sim l1 a b -> sim l2 b c -> sim (l1 ++ l2) a c.
Proof. intros l1 l2 a b c. apply run_app. Qed.

Lemma sim_local : forall n s s', ns_ns n = [] ->
  In (ns_name n) (visible (fst (abs s))) \/ find_sym (ns_name n) <> None ->
  abs s' = (amark (ns_name n) (fst (abs s)), snd (abs s)) ->
  sim [Ref (RName n)] s s'.
Proof.
  intros n s s' N V E. unfold sim. rewrite E. econstructor.
  - right; left. split; auto.
  - unfold ref_effect. cbn [ref_name]. rewrite N. cbn [str_eqb lit]. apply Run_nil.
Qed.

Lemma os_not_nil : L "OS" <> [].
Proof. discriminate. Qed.

Lemma getns_ok : forall ns s h m s', getns env ns s = TrOk ((h, m), s') -> find_ns env ns = Some (h, m) /\ s = s'.
Proof.
  intros ns s h m s' H. unfold getns in H. destruct (find_ns env ns); [| discriminate].
  apply tret_ok in H. destruct H; subst. auto.
Qed.

Lemma exports_has_spec : forall e n, exports_has e n = true <->
  In n (map en_name (ex_consts e)) \/ In n (map (fun f => f_name (fd_form f)) (ex_fns e))
  \/ In n (ex_types e).
Proof.
  intros e n. unfold exports_has. rewrite !Bool.orb_true_iff, !existsb_exists, !in_map_iff.
  split.
  - intros [[(x & A & B) | (x & A & B)] | (x & A & B)]; apply str_eqb_eq in B; subst; eauto.
  - intros [(x & A & B) | [(x & A & B) | A]].
    + left; left. exists x. split; auto. now apply str_eqb_eq.
    + left; right. exists x. split; auto. now apply str_eqb_eq.
    + right. exists n. split; auto. apply str_eqb_refl.
Qed.

Lemma tr_typename_sim : forall x c s s', tr_typename env x s = TrOk (c, s') ->
  sim [Ref (type_ref x)] s s'.
Proof.
  intros x c s s' H. unfold tr_typename in H.
  destruct (str_eqb_spec (ns_ns (tn_name x)) (L "OS")) as [E | E].
  - tsteps. econstructor; [left; auto |].
    unfold ref_effect. cbn [ref_name type_ref]. rewrite E. cbn [str_eqb lit]. apply Run_nil.
  - destruct (str_eqb_spec (ns_ns (tn_name x)) []) as [E' | E'].
    + destruct (find_type env (ns_name (tn_name x))) eqn:F; [| discriminate].
      tsteps. econstructor.
      * right; left. split; auto. cbn [type_ref ref_name]. congruence.
      * unfold ref_effect. cbn [ref_name type_ref]. rewrite E'. cbn [str_eqb lit]. apply Run_nil.
    + tstep. destruct (negb (exports_has _ _)) eqn:X; [discriminate |].
      apply Bool.negb_false_iff in X. apply getns_ok in E0. destruct E0 as [F <-].
      tsteps. unfold use_ns in E0. injection E0 as <-.
      econstructor.
      * right; right. cbn [type_ref ref_name]. repeat split; auto. eauto.
      * unfold ref_effect. cbn [ref_name type_ref].
        apply str_eqb_neq in E, E'. rewrite E, E'. apply Run_nil.
Qed.

Lemma mark_use : forall x s b s', mark_binding_use x s = TrOk (b, s') ->
  abs s' = (amark x (fst (abs s)), snd (abs s)) /\
  (b = true -> In x (visible (fst (abs s))) \/ find_sym x <> None).
Proof.
  intros x s b s' H. unfold mark_binding_use in H. unfold abs. cbn [fst snd].
  rewrite mark_scopes_abs. destruct (mark_scopes x (s_scopes s)) eqn:E.
  - injection H as <- <-. split; auto. intros _. left. eapply mark_scopes_visible; eauto.
  - injection H as <- <-. split; auto. intros H. right.
    destruct (find_sym x) eqn:F; [discriminate |]. apply str_eqb_eq in H. subst x. vm_compute in F. discriminate.
Qed.

Lemma tr_nsid_in_expr_sim : forall n r s s', tr_nsid_in_expr env n s = TrOk (r, s') ->
  sim [Ref (RName n)] s s'.
Proof.
  intros n r s s' H. unfold tr_nsid_in_expr in H. tstep.
  unfold tr_nsid in E.
  destruct (str_eqb_spec (ns_ns n) (L "OS")) as [EO | EO].
  - tsteps. econstructor; [left; auto |].
    unfold ref_effect. cbn [ref_name]. rewrite EO. cbn [str_eqb lit]. apply Run_nil.
  - destruct (str_eqb_spec (ns_ns n) []) as [E' | E']; cbn [negb] in E.
    + tone E E0. unfold lookup in E0. injection E0 as <- <-. tone E E0.
      match type of E0 with mark_binding_use _ _ = TrOk (?b, _) => destruct b end;
        cbn [negb] in E; [| discriminate]. apply mark_use in E0. destruct E0 as [E1 E2].
      apply tret_ok in E. destruct E as [_ <-]. tone H E0. unfold lookup in E0. injection E0 as <- <-.
      match type of E1 with abs ?x = _ => assert (x = s') end.
      { destruct (find_binding _ _); tsteps; auto.
        destruct (find_sym (ns_name n)); tsteps; auto. }
      subst. apply sim_local; auto.
    + tone E E0. unfold use_ns in E0. injection E0 as <-. tone E E0. apply getns_ok in E0. destruct E0 as [F1 <-].
      destruct (exports_has _ _); [| discriminate]. cbn [negb] in E. apply tret_ok in E. destruct E as [_ <-].
      tone H E0. apply getns_ok in E0. destruct E0 as [F2 <-].
      econstructor.
      * right; right. cbn [ref_name]. repeat split; auto. eexists _, _. split; [exact F2 |].
        destruct (existsb _ _) eqn:X.
        -- left. apply existsb_exists in X. destruct X as (c & I & X). apply str_eqb_eq in X.
           rewrite <- X. now apply in_map.
        -- destruct (find _ _) as [fd |] eqn:X2; [| discriminate].
           right. apply find_some in X2. destruct X2 as [I X2]. apply str_eqb_eq in X2.
           rewrite <- X2. apply (in_map (fun f => f_name (fd_form f))). exact I.
      * unfold ref_effect. cbn [ref_name]. apply str_eqb_neq in EO, E'. rewrite EO, E'.
        cbn [fst snd abs s_ns s_scopes].
        destruct (existsb _ _); [tsteps; apply Run_nil |].
        destruct (find _ _); tsteps. apply Run_nil.
Qed.

(** ** The nested loops of the translator as [tmap] *)

Lemma tbind_ext : forall A B (m m' : TR A) (f f' : A -> TR B) s,
  m s = m' s -> (forall a s, f a s = f' a s) -> tbind m f s = tbind m' f' s.
Proof.
  intros A B m m' f f' s H H2. unfold tbind. rewrite H. destruct (m' s) as [[a s1] | |]; auto.
Qed.

Lemma tmap_ext : forall A B (f g : A -> TR B) l, (forall a s, f a s = g a s) ->
  forall s, tmap f l s = tmap g l s.
Proof.
  intros A B f g l H. induction l as [| a r IH]; intros s; [auto |]. cbn [tmap].
  apply tbind_ext; [auto |]. intros x s1. apply tbind_ext; auto.
Qed.

Definition tr_entry (x : bool * option expr * expr) : TR (bool * option cexpr * cexpr) :=
  k <- tr_key (snd (fst x)) ;; ' (_, v') <- tr_expr env (snd x) ;; tret (fst (fst x), k, v').

Lemma tr_expr_comp : forall es s, tr_expr env (EComp es) s =
  (l <- tmap tr_entry es ;; tret (ty_complit, CComp l)) s.
Proof.
  intros es s. cbn [tr_expr]. apply tbind_ext; [| auto]. revert s.
  induction es as [| [[i k] v] r IH]; intros s; [auto |].
  cbn [tmap]. unfold tr_entry at 1. cbn [fst snd]. unfold tbind.
  destruct (tr_key k s) as [[k' s1] | |]; auto.
  destruct (tr_expr env v s1) as [[[t v'] s2] | |]; auto.
  cbn [tret]. unfold tret. rewrite IH. reflexivity.
Qed.

Lemma tr_expr_call : forall p f args s, tr_expr env (ECall p f args) s =
  (if is_ident f (L "calloc!") then
     use_custom (L "calloc_or_panic") ;;;
     aa <- tmap (tr_expr env) args ;;
     ' (t, v) <- tr_nsid_in_expr env (mkNs p [] (L "calloc_or_panic")) ;;
     call_result env p (t, CIdent v) aa
   else
     aa <- tmap (tr_expr env) args ;;
     ff <- tr_expr env f ;;
     call_result env p ff aa) s.
Proof.
  intros p f args s. cbn [tr_expr].
  assert (G : forall l s, (fix go (l : list expr) : TR (list (ty * cexpr)) :=
        match l with
        | [] => tret []
        | a :: r => x <- tr_expr env a ;; xs <- go r ;; tret (x :: xs)
        end) l s = tmap (tr_expr env) l s).
  { induction l as [| a r IH]; intros s0; [auto |]. cbn [tmap].
    apply tbind_ext; [auto |]. intros x s1. apply tbind_ext; auto. }
  destruct (is_ident f (L "calloc!")).
  - apply tbind_ext; [auto |]. intros _ s1. apply tbind_ext; auto.
  - apply tbind_ext; auto.
Qed.

Lemma call_result_state : forall p f args r s s', call_result env p f args s = TrOk (r, s') -> s = s'.
Proof.
  intros p f args r s s' H. unfold call_result in H. tone H E. tsteps.
  unfold lift in E. destruct (typeof_call _ _ _); tsteps; auto; discriminate.
Qed.
Lemma lift_state : forall p x r t s s', lift env p x r s = TrOk (t, s') -> s = s' /\ r = TOk t.
Proof.
  intros p x r t s s' H. unfold lift in H. destruct r; tsteps; try discriminate. auto.
Qed.

Lemma refs_app : forall a b, refs (a ++ b) = refs a ++ refs b.
Proof. intros. apply map_app. Qed.
Lemma refs_flat : forall A (f : A -> list ref) l, refs (flat_map f l) = flat_map (fun a => refs (f a)) l.
Proof. induction l as [| a r IH]; [auto |]. cbn [flat_map]. rewrite refs_app, IH. reflexivity. Qed.

Lemma tmap_sim : forall A B (f : A -> TR B) (g : A -> list item) l,
  (forall a, In a l -> forall b s s', f a s = TrOk (b, s') -> sim (g a) s s') ->
  forall r s s', tmap f l s = TrOk (r, s') -> sim (flat_map g l) s s'.
Proof.
  intros A B f g l. induction l as [| a l IH]; intros H r s s' E; cbn [tmap flat_map] in *.
  - tsteps. apply sim_nil.
  - tone E E1. tone E E2. tsteps. eapply sim_app; [eapply H; eauto; now left |].
    eapply IH; eauto. intros. eapply H; eauto. now right.
Qed.
Lemma topt_sim : forall A B (f : A -> TR B) (g : A -> list item) o,
  (forall a b s s', f a s = TrOk (b, s') -> sim (g a) s s') ->
  forall r s s', topt f o s = TrOk (r, s') -> sim (option_list g o) s s'.
Proof.
  intros A B f g [a |] H r s s' E; cbn [topt option_list] in *.
  - tone E E1. tsteps. eauto.
  - tsteps. apply sim_nil.
Qed.

Lemma sim_custom : forall x l s s' s'', use_custom x s = TrOk (tt, s') -> sim l s' s'' -> sim l s s''.
Proof.
  intros x l s s' s'' H. unfold use_custom in H. injection H as <-. auto.
Qed.

Lemma calloc_name_is : forall p f, is_ident f (L "calloc!") = true ->
  calloc_name p f = Some (RName (mkNs p [] (L "calloc_or_panic"))).
Proof. intros p [] H; cbn [is_ident calloc_name] in *; try discriminate. now rewrite H. Qed.
Lemma calloc_name_not : forall p f, is_ident f (L "calloc!") = false -> calloc_name p f = None.
Proof. intros p [] H; cbn [is_ident calloc_name] in *; try discriminate; auto. now rewrite H. Qed.

Lemma tr_key_state : forall k r s s', tr_key k s = TrOk (r, s') -> s = s'.
Proof.
  intros k r s s' H. unfold tr_key in H. destruct k as [[] |]; tsteps; auto.
  destruct (str_eqb _ _); tsteps; auto.
Qed.

Lemma tr_expr_sim : forall e r s s', tr_expr env e s = TrOk (r, s') -> sim (in_expr e) s s'.
Proof.
  unfold in_expr.
  induction e as [a i IHa IHi | p op a b IHa IHb | p op t f IHt | t x IHx | es IHes _ | p f args IHf IHa
    | l | n | op x IHx | p op x IHx | t | x IHx] using expr_ind'; intros r s s' H.
  - cbn [tr_expr] in H. tone H E1. tone H E2. tone H E3. apply lift_state in E3. destruct E3 as [<- _].
    tsteps. cbn [expr_refs]. rewrite refs_app. eapply sim_app; eauto.
  - cbn [tr_expr] in H. tone H E1. tone H E2. destruct (typeof_binop _ _ _ _); [| discriminate].
    tone H E3. apply lift_state in E3. destruct E3 as [<- _].
    tsteps. cbn [expr_refs]. rewrite refs_app. eapply sim_app; eauto.
  - cbn [tr_expr] in H. tone H E1. tsteps. eauto.
  - cbn [tr_expr] in H. tone H E1. tone H E2. tsteps. unfold tr_bare_typeform in E2. tone E2 E3. tsteps.
    cbn [expr_refs]. rewrite refs_app. eapply sim_app; eauto. eapply tr_typename_sim; eauto.
  - rewrite tr_expr_comp in H. tone H E1. tsteps. cbn [expr_refs]. rewrite refs_flat.
    eapply tmap_sim; [| exact E1]. intros x Hx b s1 s2 E.
    rewrite Forall_forall in IHes. unfold tr_entry in E. tone E E2. apply tr_key_state in E2. subst.
    tone E E3. tsteps. eapply IHes; eauto.
  - rewrite tr_expr_call in H. cbn [expr_refs]. rewrite refs_app, refs_flat. rewrite Forall_forall in IHa.
    destruct (is_ident f (L "calloc!")) eqn:C.
    + rewrite (calloc_name_is _ _ C). tone H E0. tone H E1. tone H E2. apply call_result_state in H. subst.
      eapply sim_custom; eauto. eapply sim_app.
      * eapply tmap_sim; [| exact E1]. intros; eapply IHa; eauto.
      * eapply tr_nsid_in_expr_sim; eauto.
    + rewrite (calloc_name_not _ _ C). tone H E1. tone H E2. apply call_result_state in H. subst.
      eapply sim_app; eauto. eapply tmap_sim; [| exact E1]. intros; eapply IHa; eauto.
  - cbn [tr_expr] in H. tsteps. apply sim_nil.
  - cbn [tr_expr] in H. tone H E. tsteps. eapply tr_nsid_in_expr_sim; eauto.
  - cbn [tr_expr] in H. tone H E. destruct (existsb _ _); tsteps. eauto.
  - cbn [tr_expr] in H. tone H E1. destruct (typeof_prefix _ _); [| discriminate].
    tone H E3. apply lift_state in E3. destruct E3 as [<- _]. tsteps. eauto.
  - cbn [tr_expr] in H. tone H E1. tsteps. unfold tr_bare_typeform in E1. tone E1 E3. tsteps.
    eapply tr_typename_sim; eauto.
  - cbn [tr_expr] in H. tone H E. tsteps. eauto.
Qed.

Lemma tr_val_sim : forall e r s s', tr_val env e s = TrOk (r, s') -> sim (in_expr e) s s'.
Proof. intros e r s s' H. unfold tr_val in H. tone H E. tsteps. eapply tr_expr_sim; eauto. Qed.
Lemma tr_opt_sim : forall o r s s', topt (tr_val env) o s = TrOk (r, s') -> sim (in_opt o) s s'.
Proof.
  intros o r s s' H. apply topt_sim with (g := in_expr) in H; [| intros; eapply tr_val_sim; eauto].
  destruct o; exact H.
Qed.
Lemma tr_cond_sim : forall e r s s', tr_cond env e s = TrOk (r, s') -> sim (in_expr e) s s'.
Proof.
  intros e r s s' H. unfold tr_cond in H. tone H E. destruct (is_booly _); tsteps.
  eapply tr_expr_sim; eauto.
Qed.
Lemma tr_form_sim : forall f b r s s', tr_form env f b s = TrOk (r, s') -> sim (in_form f) s s'.
Proof.
  intros f b r s s' H. unfold tr_form in H. tone H E1. tone H E2. unfold lookup in E2.
  injection E2 as <- <-. tsteps. unfold in_form. rewrite refs_flat.
  eapply tmap_sim; [| exact E1]. intros o _ x s1 s2 E. eapply tr_opt_sim. exact E.
Qed.

Lemma add_binding_run : forall x p b t s s' l s'',
  add_binding x p b t s = TrOk (tt, s') -> sim l s' s'' -> sim (Declare x b :: l) s s''.
Proof.
  intros x p b t s s' l s'' H H2. unfold add_binding in H.
  destruct (s_scopes s) as [| sc r] eqn:E; [discriminate |].
  destruct (existsb _ _) eqn:X; [discriminate |]. injection H as <-.
  unfold sim, abs in *. rewrite E. cbn [s_scopes s_ns map] in *. apply Run_declare.
  - intros I. unfold names in I. rewrite map_map in I. apply in_map_iff in I.
    destruct I as (b' & I1 & I2). cbn [abs_b ab_name fst] in I1.
    assert (existsb (fun b => str_eqb (b_name b) x) sc = true); [| congruence].
    apply existsb_exists. exists b'. split; auto. now apply str_eqb_eq.
  - rewrite map_app in H2. exact H2.
Qed.
Lemma sim_cons : forall i l s s1 s2, sim [i] s s1 -> sim l s1 s2 -> sim (i :: l) s s2.
Proof. intros i l s s1 s2 H1 H2. apply (sim_app [i] l s s1 s2); auto. Qed.

Lemma scope_run : forall l s s1 s2 s3, begin_scope s = TrOk (tt, s1) -> sim l s1 s2 ->
  end_scope env s2 = TrOk (tt, s3) -> sim [Scope l] s s3.
Proof.
  intros l s s1 s2 s3 H1 H2 H3. unfold begin_scope in H1. injection H1 as <-.
  unfold end_scope in H3. destruct (s_scopes s2) as [| sc r] eqn:E; [discriminate |].
  destruct (find _ sc) eqn:F; [discriminate |]. injection H3 as <-.
  unfold sim, abs in *. rewrite E in H2. cbn [s_scopes s_ns map] in *.
  eapply Run_scope; [exact H2 | | apply Run_nil].
  apply Forall_forall. intros b Hb. apply in_map_iff in Hb. destruct Hb as (b' & <- & Hb).
  apply (find_none _ _ F) in Hb. unfold fine. cbn [abs_b ab_pub ab_used fst snd].
  destruct (b_pub b'), (b_used b'); auto; discriminate.
Qed.

Lemma tr_vardecl_sim : forall v r s s', tr_vardecl env v s = TrOk (r, s') -> sim (in_vardecl v) s s'.
Proof.
  intros v r s s' H. unfold tr_vardecl in H. tone H E1. tone H E2. tone H E3. tone H E4. tsteps.
  eapply add_binding_run; eauto. eapply sim_app; [eapply tr_typename_sim; eauto |].
  eapply sim_app; [eapply tr_form_sim; eauto | eapply tr_opt_sim; eauto].
Qed.
Lemma tr_forinit_sim : forall i r s s', tr_forinit env i s = TrOk (r, s') -> sim (in_forinit i) s s'.
Proof.
  intros [e | t f e] r s s' H; unfold tr_forinit in H.
  - tone H E. tsteps. eapply tr_val_sim; eauto.
  - tone H E1. tone H E2. tone H E3. tone H E4. tsteps.
    eapply add_binding_run; eauto. eapply sim_app; [eapply tr_typename_sim; eauto |].
    eapply sim_app; [eapply tr_form_sim; eauto | eapply tr_val_sim; eauto].
Qed.
Lemma tr_case_value_sim : forall v r s s', tr_case_value env v s = TrOk (r, s') ->
  sim (refs (case_ref v)) s s'.
Proof.
  intros [n | l] r s s' H; unfold tr_case_value in H.
  - tone H E. tsteps. eapply tr_nsid_in_expr_sim; eauto.
  - tsteps. apply sim_nil.
Qed.
Lemma tr_case_values_sim : forall l r s s', tmap (tr_case_value env) l s = TrOk (r, s') ->
  sim (refs (flat_map case_ref l)) s s'.
Proof.
  intros l r s s' H. rewrite refs_flat. eapply tmap_sim; [| exact H].
  intros; eapply tr_case_value_sim; eauto.
Qed.
Lemma mk_switchstr_cond_sim : forall l sv r s s', mk_switchstr_cond env l sv s = TrOk (r, s') ->
  sim (refs (flat_map case_ref l)) s s'.
Proof.
  intros l sv r s s' H. unfold mk_switchstr_cond in H. tone H E.
  match type of E with _ = TrOk (?x, _) => destruct x end; tsteps.
  eapply tr_case_values_sim; eauto.
Qed.
Lemma tr_expr_stmt_sim : forall e r s s', tr_expr_stmt env e s = TrOk (r, s') -> sim (in_stmt (SExpr e)) s s'.
Proof.
  intros e r s s' H. unfold tr_expr_stmt in H.
  assert (D : (x <- tr_val env e ;; tret (KExpr x)) s = TrOk (r, s') -> sim (in_expr e) s s').
  { intros H'. tone H' E. tsteps. eapply tr_val_sim; eauto. }
  destruct e; try exact (D H). cbn [in_stmt]. unfold is_panic.
  destruct (is_ident e (L "panic")); [| exact (D H)].
  unfold mk_panic in H. tone H E. tsteps. rewrite refs_flat. eapply tmap_sim; [| exact E].
  intros; eapply tr_val_sim; eauto.
Qed.

Lemma tr_stmts_inner : forall l s,
  (fix go (l : list stmt) : TR (list cstmt) :=
    match l with
    | [] => tret []
    | s :: r => x <- tr_stmt env s ;; xs <- go r ;; tret (x :: xs)
    end) l s = tr_stmts env l s.
Proof.
  induction l as [| a r IH]; intros s; [auto |]. cbn [tr_stmts].
  apply tbind_ext; [auto |]. intros x s1. apply tbind_ext; auto.
Qed.
Lemma tr_stmts_tmap : forall l s, tr_stmts env l s = tmap (tr_stmt env) l s.
Proof.
  induction l as [| a r IH]; intros s; [auto |]. cbn [tr_stmts tmap].
  apply tbind_ext; [auto |]. intros x s1. apply tbind_ext; auto.
Qed.

Definition tr_case (c : list switch_value * list stmt) : TR (list cswitch_value * list cstmt) :=
  vs <- tmap (tr_case_value env) (fst c) ;; b <- tr_body env (snd c) ;; tret (vs, b).

(** The else chain of [switch str]. *)
Fixpoint str_chain (sv : cexpr) (cases : list (list switch_value * list stmt)) (def : option (list stmt))
  : TR (option (list cstmt)) :=
  match cases with
  | [] => topt (tr_body env) def
  | (vs, b) :: r =>
      c <- mk_switchstr_cond env vs sv ;;
      b' <- tr_body env b ;;
      eb <- str_chain sv r def ;;
      tret (Some [KIf c b' eb])
  end.

(** [tr_stmt] with the loops named. *)
Definition tr_stmt_flat (s : stmt) : TR cstmt :=
  match s with
  | SBreak => tret KBreak
  | SContinue => tret KContinue
  | SExpr e => tr_expr_stmt env e
  | SFor init cond action b =>
      begin_scope ;;;
      i <- topt (tr_forinit env) init ;;
      c <- topt (tr_cond env) cond ;;
      a <- topt (tr_val env) action ;;
      b' <- tr_body env b ;;
      end_scope env ;;;
      tret (KFor i c a b')
  | SIf cond b eb =>
      eb' <- topt (tr_body env) eb ;;
      c <- tr_val env cond ;;
      b' <- tr_body env b ;;
      tret (KIf c b' eb')
  | SReturn e => v <- topt (tr_val env) e ;; tret (KReturn v)
  | SSwitch false value cases def =>
      cs <- tmap tr_case cases ;;
      v <- tr_val env value ;;
      d <- topt (tr_body env) def ;;
      tret (KSwitch v cs d)
  | SSwitch true value cases def =>
      sv <- tr_val env value ;;
      match cases with
      | [] => tpanic "mk_str_switch: index out of bounds"
      | (vs, b) :: r =>
          c <- mk_switchstr_cond env vs sv ;;
          b' <- tr_body env b ;;
          eb <- str_chain sv r def ;;
          tret (KIf c b' eb)
      end
  | SVarDecl x => tr_vardecl env x
  | SWhile cond b =>
      c <- tr_cond env cond ;;
      b' <- tr_body env b ;;
      tret (KWhile c b')
  end.

Lemma tr_body_inner : forall b s,
  (begin_scope ;;; l <- (fix go (l : list stmt) : TR (list cstmt) :=
    match l with
    | [] => tret []
    | s :: r => x <- tr_stmt env s ;; xs <- go r ;; tret (x :: xs)
    end) b ;; end_scope env ;;; tret l) s = tr_body env b s.
Proof.
  intros b s. unfold tr_body. apply tbind_ext; [auto |]. intros _ s1.
  apply tbind_ext; [apply tr_stmts_inner | auto].
Qed.

Lemma tr_cases_inner : forall cs s,
  (fix go (l : list (list switch_value * list stmt))
               : TR (list (list cswitch_value * list cstmt)) :=
               match l with
               | [] => tret []
               | (vs, b) :: r =>
                   vs' <- tmap (tr_case_value env) vs ;;
                   b' <- tr_body env b ;;
                   r' <- go r ;;
                   tret ((vs', b') :: r')
               end) cs s = tmap tr_case cs s.
Proof.
  induction cs as [| [vs b] r IH]; intros s; [auto |]. cbn [tmap].
  unfold tr_case at 1. cbn [fst snd]. unfold tbind.
  destruct (tmap (tr_case_value env) vs s) as [[vs' s1] | |]; auto.
  destruct (tr_body env b s1) as [[b' s2] | |]; auto.
  unfold tret. rewrite IH. reflexivity.
Qed.

Ltac inner := first [apply tr_body_inner | reflexivity].
Lemma tr_stmt_eq : forall st s, tr_stmt env st s = tr_stmt_flat st s.
Proof.
  intros st s. destruct st as [| | v | c b e | i c a b | c b | e | is v cs d | e]; cbn [tr_stmt tr_stmt_flat]; try reflexivity.
  - destruct is.
    + apply tbind_ext; [auto |]. intros sv s1. destruct cs as [| [vs b] r]; [auto |].
      apply tbind_ext; [auto |]. intros c s2. apply tbind_ext; [inner |]. intros b' s3.
      apply tbind_ext; [| auto]. clear. revert s3.
      induction r as [| [vs b] r IH]; intros s3; cbn [str_chain].
      * destruct d; cbn [topt]; [| reflexivity]. apply tbind_ext; [inner | auto].
      * apply tbind_ext; [auto |]. intros c s4. apply tbind_ext; [inner |]. intros b' s5.
        apply tbind_ext; auto.
    + apply tbind_ext.
      * exact (tr_cases_inner cs s).
      * intros cs' s1. apply tbind_ext; [auto |]. intros v' s2. apply tbind_ext; [| auto].
        destruct d; cbn [topt]; [| reflexivity]. apply tbind_ext; [inner | auto].
Qed.

End Sim.
