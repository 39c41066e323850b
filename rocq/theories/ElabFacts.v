(** Expressions are accepted exactly when they are well typed. *)
From Verif Require Import Base BaseFacts Buf Nodes NodeQueries NodeInd Types Cspec Resolve Cursor
  Preparser Parser CAst FormatChe FormatC Translator TrFacts SpecTypes TypeFacts SpecDecl SpecTarget
  TargetFacts SpecTyping TypingFacts.
Open Scope tr_scope.

Lemma all_in : forall A (p : A -> Prop) l, all p l <-> (forall a, In a l -> p a).
Proof.
  induction l as [| a l IH]; cbn [all In]; [tauto |]. rewrite IH. split.
  - intros [H1 H2] b [<- | I]; auto.
  - intros H. split; [apply H; auto | intros b I; apply H; auto].
Qed.
Lemma all_ext : forall A (p q : A -> Prop) l, (forall a, In a l -> (p a <-> q a)) -> (all p l <-> all q l).
Proof.
  intros A p q l H. rewrite !all_in. split; intros X a I; apply (H a I); auto.
Qed.

(** [m] succeeds. *)
Definition works {A} (m : TR A) (s : trst) : Prop := exists a s', m s = TrOk (a, s').
Lemma works_ret : forall A (a : A) s, works (tret a) s.
Proof. intros. exists a, s. reflexivity. Qed.
Lemma works_bind : forall A B (m : TR A) (f : A -> TR B) s,
  works (tbind m f) s <-> exists a s1, m s = TrOk (a, s1) /\ works (f a) s1.
Proof.
  intros A B m f s. unfold works, tbind. split.
  - intros (b & s' & H). destruct (m s) as [[a s1] | |] eqn:E; try discriminate. eauto 6.
  - intros (a & s1 & E & b & s' & H). rewrite E. eauto.
Qed.

(** In the context [G], [m] works iff [P] holds, and declares nothing. *)
Definition decides {A} (G : list decl) (m : TR A) (P : Prop) : Prop := forall s, shows s G ->
  (works m s <-> P) /\ (forall a s', m s = TrOk (a, s') -> skel s' = skel s).
Lemma decides_ret : forall A G (a : A), decides G (tret a) True.
Proof.
  intros A G a s _. split; [split; auto; intros _; apply works_ret |].
  intros b s' H. unfold tret in H. now injection H as _ <-.
Qed.
Lemma decides_bind : forall A B G (m : TR A) (f : A -> TR B) P Q, decides G m P -> (forall a, decides G (f a) Q) ->
  decides G (tbind m f) (P /\ Q).
Proof.
  intros A B G m f P Q M F s R. destruct (M s R) as [M1 M2]. split.
  - rewrite works_bind. split.
    + intros (a & s1 & E & W). assert (R1 := shows_skel _ _ _ R (M2 _ _ E)). split.
      * apply M1. eexists _, _; eauto.
      * now apply (F a s1 R1).
    + intros [HP HQ]. apply M1 in HP. destruct HP as (a & s1 & E).
      assert (R1 := shows_skel _ _ _ R (M2 _ _ E)). exists a, s1. split; auto. now apply (F a s1 R1).
  - intros b s' H. tone H E. assert (K := M2 _ _ E). assert (R1 := shows_skel _ _ _ R K).
    destruct (F a s1 R1) as [_ F2]. apply F2 in H. congruence.
Qed.
Lemma decides_iff : forall A G (m : TR A) P Q, decides G m P -> (P <-> Q) -> decides G m Q.
Proof. intros A G m P Q M I s R. destruct (M s R) as [M1 M2]. split; [now rewrite M1 | auto]. Qed.
Lemma decides_ext : forall A G (m m' : TR A) P, decides G m P -> (forall s, m' s = m s) -> decides G m' P.
Proof.
  intros A G m m' P M I s R. destruct (M s R) as [M1 M2]. unfold works in *. setoid_rewrite I. split; auto.
Qed.
Lemma decides_then : forall A B G (m : TR A) (f : A -> B) P, decides G m P ->
  decides G (x <- m ;; tret (f x)) P.
Proof.
  intros A B G m f P M. eapply decides_iff; [apply decides_bind; [exact M | intros; apply decides_ret] | tauto].
Qed.
Lemma tmap_decides : forall A B G (f : A -> TR B) P l, (forall a, In a l -> decides G (f a) (P a)) ->
  decides G (tmap f l) (all P l).
Proof.
  induction l as [| a l IH]; intros H; cbn [tmap all]; [apply decides_ret |].
  apply decides_bind; [apply H; now left |]. intros x. apply decides_then, IH. intros y I. apply H. now right.
Qed.
Lemma topt_decides : forall A B G (f : A -> TR B) P o, (forall a, decides G (f a) (P a)) ->
  decides G (topt f o) (all_opt P o).
Proof. intros A B G f P [a |] H; cbn [topt all_opt]; [apply decides_then, H | apply decides_ret]. Qed.
Lemma tmap_length : forall A B (f : A -> TR B) l r s s', tmap f l s = TrOk (r, s') -> List.length r = List.length l.
Proof.
  induction l as [| a l IH]; intros r s s' H; cbn [tmap] in H; tsteps; [reflexivity |].
  cbn [List.length]. f_equal. eauto.
Qed.

Lemma existsb_in : forall op l, existsb (String.eqb op) l = true <-> In op l.
Proof.
  intros op l. rewrite existsb_exists. split.
  - intros (x & I & E). apply String.eqb_eq in E. now subst.
  - intros I. exists op. split; auto. apply String.eqb_refl.
Qed.
Lemma existsb_not : forall op l, existsb (String.eqb op) l = false <-> ~ In op l.
Proof. intros op l. rewrite <- existsb_in. destruct (existsb _ _); split; congruence. Qed.

Section Elab.
Variables (S : site) (env : trenv).
Hypothesis D : describes S env.

Lemma root_eq : forall t, root_type env t = root S t.
Proof.
  intros t. unfold root_type, root. destruct (str_eqb _ _); cbn [negb]; [| reflexivity].
  destruct (has_type _); [reflexivity |]. rewrite <- (ds_typedef _ _ D).
  destruct (assoc _ _); reflexivity.
Qed.

Lemma binop_iff : forall op a b t, typeof_binop env op a b = Some (TOk t) <-> binary_type S op a b t.
Proof.
  intros op a b t. unfold typeof_binop, binary_type. rewrite !root_eq.
  set (l1 := ["||"; "&&"]%string). set (l2 := ["=="; "<"; ">"; "!="; ">="; "<="]%string).
  set (l3 := ["-"; "+"]%string). set (l4 := ["*"; "/"; "%"; "<<"; ">>"; "&"; "|"; "^"]%string).
  set (l5 := ["="; "+="; "-="; "/="; "*="; "|="; "%="; "&="; "^="]%string).
  assert (X : forall l l' x, existsb (fun y => existsb (String.eqb y) l') l = false -> In x l -> ~ In x l').
  { intros l l' x H I J. assert (existsb (fun y => existsb (String.eqb y) l') l = true); [| congruence].
    apply existsb_exists. exists x. split; auto. now apply existsb_in. }
  assert (N12 := X l1 l2 op eq_refl). assert (N13 := X l1 l3 op eq_refl).
  assert (N14 := X l1 l4 op eq_refl). assert (N15 := X l1 l5 op eq_refl).
  assert (N23 := X l2 l3 op eq_refl). assert (N24 := X l2 l4 op eq_refl).
  assert (N25 := X l2 l5 op eq_refl). assert (N34 := X l3 l4 op eq_refl).
  assert (N35 := X l3 l5 op eq_refl). assert (N45 := X l4 l5 op eq_refl). clear X.
  assert (Y : forall r r', (Some r = Some (TOk t) <-> r') <-> (r = TOk t <-> r')).
  { intros. split; intros H; rewrite <- H; split; congruence. }
  destruct (existsb (String.eqb op) l1) eqn:E1; [apply existsb_in in E1 | apply existsb_not in E1];
    [rewrite Y, boolcomp_iff; tauto |].
  destruct (existsb (String.eqb op) l2) eqn:E2; [apply existsb_in in E2 | apply existsb_not in E2];
    [rewrite Y, cmp_iff; tauto |].
  destruct (existsb (String.eqb op) l3) eqn:E3; [apply existsb_in in E3 | apply existsb_not in E3];
    [rewrite Y, plus_iff; tauto |].
  destruct (existsb (String.eqb op) l4) eqn:E4; [apply existsb_in in E4 | apply existsb_not in E4];
    [rewrite Y, arith_iff; tauto |].
  destruct (existsb (String.eqb op) l5) eqn:E5; [apply existsb_in in E5 | apply existsb_not in E5].
  - rewrite Y. change (just "void") with t_void. split.
    + intros H. injection H as <-. tauto.
    + intros H. f_equal. symmetry. tauto.
  - split; [discriminate | tauto].
Qed.

Lemma prefix_iff : forall op a t, typeof_prefix op a = Some (TOk t) <-> prefix_type op a t.
Proof.
  intros op a t. unfold typeof_prefix, prefix_type. cbn [existsb].
  assert (Y : forall r r', (Some r = Some (TOk t) <-> r') <-> (r = TOk t <-> r')).
  { intros. split; intros H; rewrite <- H; split; congruence. }
  assert (Z : forall x, TOk x = TOk t <-> t = x) by (split; congruence).
  repeat match goal with
         | |- context[String.eqb op ?x] => destruct (String.eqb_spec op x) as [-> | ?]; cbn [orb]
         end; rewrite ?Y, ?Z, ?deref_iff;
    try (change (just "bool") with t_bool);
    try (change (typeof_addr a) with (address_of a));
    cbn [In];
    (split; intros H;
      [try discriminate; subst; auto 10
      | repeat match goal with
               | H : _ \/ _ |- _ => destruct H
               | H : _ /\ _ |- _ => destruct H
               end; subst; auto; try discriminate; try congruence; try contradiction]).
Qed.

Lemma field_forms : forall t f fs,
  field_in_forms t f fs
  = option_map snd (find (fun p => str_eqb (fst p) f) (map (fun x => (f_name x, declared_type t x)) fs)).
Proof.
  induction fs as [| x fs IH]; [auto |]. cbn [field_in_forms map find fst].
  destruct (str_eqb _ _); [reflexivity | exact IH].
Qed.
Lemma find_app : forall A (p : A -> bool) a b,
  find p (a ++ b) = match find p a with Some x => Some x | None => find p b end.
Proof. induction a as [| x a IH]; intros b; [auto |]. cbn [app find]. destruct (p x); auto. Qed.
Lemma field_entries : forall f es,
  match field_in_entries f es with Some r => r | None => ty_todo end
  = match find (fun p => str_eqb (fst p) f) (fields_of es) with Some (_, t) => t | None => unknown_type end.
Proof.
  induction es as [| [x | u] es IH]; [reflexivity | | reflexivity]. cbn [field_in_entries fields_of].
  rewrite field_forms, find_app.
  destruct (find _ (map _ _)) as [[? ?] |]; cbn [option_map snd]; auto.
Qed.
Lemma field_iff : forall t f r, typeof_struct_field env t f = r <-> field_type S t f r.
Proof.
  intros t f r. unfold typeof_struct_field, field_type, field_of.
  destruct (todo_cases t) as [[-> U] | [-> U]].
  - change ty_todo with unknown_type. split; [auto | intros [[_ ->] | [? _]]; tauto].
  - assert (X : forall x, (x = r <-> unknown t /\ r = unknown_type \/ ~ unknown t /\ r = x)).
    { intros x. split; [auto |]. intros [[? _] | [_ ?]]; [contradiction | auto]. }
    destruct (str_eqb _ _); [| apply X]. rewrite (ds_struct _ _ D).
    destruct (struct_named _ _); [| apply X]. rewrite field_entries. apply X.
Qed.

(** ** Calls *)

Lemma ellipsis_iff : forall t, is_ellipsis t = true <-> ellipsis t.
Proof.
  intros [b ops]. unfold is_ellipsis, ellipsis. rewrite str_eqb_eq. cbn [ty_ops ty_base].
  destruct ops as [| o r]; [cbn [ty_fmt]; tauto |]. split; [| intros [? _]; discriminate].
  destruct o; cbn [ty_fmt]; intros H; apply (f_equal (@hd N 0%N)) in H; discriminate H.
Qed.
Definition variadic (args : list ty) : bool := match rev args with x :: _ => is_ellipsis x | [] => false end.
Lemma variadic_iff : forall args, variadic args = true <-> exists fixed e, args = fixed ++ [e] /\ ellipsis e.
Proof.
  intros args. unfold variadic. destruct (rev args) as [| x l] eqn:E.
  - split; [discriminate |]. intros (fixed & e & -> & _). rewrite rev_app_distr in E. discriminate.
  - rewrite ellipsis_iff. assert (args = rev l ++ [x]) as ->.
    { rewrite <- (rev_involutive args), E. reflexivity. }
    split; [eauto |]. intros (fixed & e & H & X). apply app_inj_tail in H. destruct H as [_ ->]. exact X.
Qed.
Definition arity_fits (args : list ty) (n : nat) : bool :=
  if variadic args then negb (Nat.ltb n (List.length args - 1)) else Nat.eqb n (List.length args).
Lemma arity_iff : forall args n, arity_fits args n = true <-> arity_ok args n.
Proof.
  intros args n. unfold arity_fits, arity_ok. destruct (variadic args) eqn:V.
  - apply variadic_iff in V. destruct V as (fixed & e & -> & X). rewrite app_length. cbn [List.length].
    rewrite Bool.negb_true_iff, Nat.ltb_ge. split.
    + intros H. left. exists fixed, e. repeat split; auto; try apply X; lia.
    + intros [(f & e' & E & _ & H) | [H _]].
      * apply app_inj_tail in E. destruct E as [<- _]. lia.
      * exfalso. exact (H fixed e eq_refl X).
  - rewrite Nat.eqb_eq. assert (NV : ~ exists fixed e, args = fixed ++ [e] /\ ellipsis e).
    { rewrite <- variadic_iff. congruence. }
    split.
    + intros ->. right. split; auto. intros f e E X. apply NV. eauto.
    + intros [(f & e & E & X & _) | [_ H]]; [exfalso; apply NV; eauto | auto].
Qed.

(** One step of a call: an answer, a message, or an alias to follow. *)
Definition alias_of (t : ty) : option ty :=
  if is_todo t then None
  else match ty_ops t with
       | [] | [TDeref] => if str_eqb (ns_ns (ty_base t)) []
                          then option_map snd (typedef_named (elements S) (ns_name (ty_base t))) else None
       | _ => None
       end.
Definition call_now (t : ty) (n : nat) : option ty :=
  if is_todo t then Some unknown_type
  else match ty_ops t with
       | TCall args :: r => if arity_fits args n then Some (Ty (ty_base t) r) else None
       | _ => None
       end.
Lemma call_step : forall fuel t n r, typeof_call_aux env (Datatypes.S fuel) t n = TOk r <->
  call_now t n = Some r \/ exists d, alias_of t = Some d /\ typeof_call_aux env fuel d n = TOk r.
Proof.
  intros fuel t n r. cbn [typeof_call_aux]. unfold call_now, alias_of.
  destruct (is_todo t).
  - change ty_todo with unknown_type. split; [intros H; injection H as <-; auto |].
    intros [H | (d & H & _)]; congruence.
  - destruct (ty_ops t) as [| o l] eqn:E.
    + destruct (str_eqb _ _).
      * rewrite <- (ds_typedef _ _ D). destruct (assoc _ _); cbn [option_map snd].
        -- split; [eauto |]. intros [H | (d & H & X)]; [discriminate |]. now injection H as <-.
        -- split; [discriminate |]. intros [H | (d & H & X)]; discriminate.
      * split; [discriminate |]. intros [H | (d & H & X)]; discriminate.
    + destruct o as [| | args].
      * destruct l; [| split; [discriminate | intros [H | (d & H & X)]; discriminate]].
        destruct (str_eqb _ _).
        -- rewrite <- (ds_typedef _ _ D). destruct (assoc _ _); cbn [option_map snd].
           ++ split; [eauto |]. intros [H | (d & H & X)]; [discriminate |]. now injection H as <-.
           ++ split; [discriminate |]. intros [H | (d & H & X)]; discriminate.
        -- split; [discriminate |]. intros [H | (d & H & X)]; discriminate.
      * split; [discriminate | intros [H | (d & H & X)]; discriminate].
      * unfold arity_fits, variadic. destruct (match rev args with x :: _ => is_ellipsis x | [] => false end).
        -- destruct (Nat.ltb _ _); cbn [negb]; (split; [intros H; try discriminate; injection H as <-; auto |]);
             (intros [H | (d & H & X)]; [| discriminate]); congruence.
        -- destruct (Nat.eqb _ _); cbn [negb]; (split; [intros H; try discriminate; injection H as <-; auto |]);
             (intros [H | (d & H & X)]; [| discriminate]); congruence.
Qed.
Lemma callable_step : forall t n r, callable S t n r <->
  call_now t n = Some r \/ exists d, alias_of t = Some d /\ callable S d n r.
Proof.
  intros t n r. unfold call_now, alias_of. split.
  - intros H. destruct H as [t n U | b args l n A | t p d n r U O N T H].
    + left. apply is_todo_spec in U. now rewrite U.
    + left. destruct (todo_cases (Ty b (TCall args :: l))) as [[_ U] | [-> U]].
      * apply unknown_ops in U. discriminate.
      * cbn [ty_ops ty_base]. apply arity_iff in A. now rewrite A.
    + right. exists d. split; auto. destruct (todo_cases t) as [[_ X] | [-> _]]; [contradiction |].
      destruct O as [-> | ->]; rewrite N, str_eqb_refl, T; reflexivity.
  - destruct (todo_cases t) as [[-> U] | [-> U]].
    + intros [H | (d & H & _)]; [injection H as <-; now constructor | discriminate].
    + intros [H | (d & H & C)].
      * destruct t as [b ops]. cbn [ty_ops ty_base] in *. destruct ops as [| [] l]; try discriminate.
        destruct (arity_fits args n) eqn:A; [| discriminate]. injection H as <-. constructor.
        now apply arity_iff.
      * assert (O : ty_ops t = [] \/ ty_ops t = [TDeref]).
        { destruct (ty_ops t) as [| [] []]; auto; discriminate. }
        assert (X : (if str_eqb (ns_ns (ty_base t)) []
                     then option_map snd (typedef_named (elements S) (ns_name (ty_base t))) else None) = Some d).
        { destruct O as [O | O]; rewrite O in H; exact H. }
        destruct (str_eqb_spec (ns_ns (ty_base t)) []) as [N | N]; [| discriminate].
        destruct (typedef_named _ _) as [[p d'] |] eqn:T; [| discriminate]. injection X as ->.
        eapply Call_alias; eauto.
Qed.

(** Following aliases takes a definite number of steps, so it passes every
    typedef at most once. *)
Inductive steps : nat -> ty -> Prop :=
| Steps_end t : alias_of t = None -> steps 0 t
| Steps_more k t d : alias_of t = Some d -> steps k d -> steps (Datatypes.S k) t.
Lemma steps_unique : forall k t, steps k t -> forall k', steps k' t -> k = k'.
Proof.
  induction 1 as [t H | k t d H _ IH]; intros k' H'; inversion H'; subst; try congruence.
  f_equal. apply IH. congruence.
Qed.
Lemma callable_steps : forall t n r, callable S t n r -> exists k, steps k t.
Proof.
  intros t n r H. induction H as [t n U | b args l n A | t p d n r U O N T H (k & IH)].
  - exists 0. constructor. unfold alias_of. apply is_todo_spec in U. now rewrite U.
  - exists 0. constructor. unfold alias_of. destruct (is_todo _); reflexivity.
  - exists (Datatypes.S k). econstructor; [| exact IH]. unfold alias_of.
    destruct (todo_cases t) as [[_ X] | [-> _]]; [contradiction |].
    destruct O as [-> | ->]; rewrite N, str_eqb_refl, T; reflexivity.
Qed.
Lemma alias_named : forall t d, alias_of t = Some d ->
  option_map snd (typedef_named (elements S) (ns_name (ty_base t))) = Some d.
Proof.
  intros t d H. unfold alias_of in H. destruct (is_todo t); [discriminate |].
  destruct (ty_ops t) as [| [] []]; try discriminate; destruct (str_eqb _ _); congruence.
Qed.
Lemma assoc_in : forall V x (l : list (str * V)) v, assoc x l = Some v -> In x (map fst l).
Proof.
  induction l as [| [k w] l IH]; intros v H; [discriminate |]. cbn [assoc map fst In] in *.
  destruct (str_eqb_spec k x); [auto |]. right. eauto.
Qed.
(** The names passed, with how far each is from the end. *)
Lemma steps_names : forall k t, steps k t ->
  exists l, List.length l = k /\ NoDup l /\ incl l (map fst (en_typedefs env))
  /\ forall x, In x l -> exists d j, option_map snd (typedef_named (elements S) x) = Some d /\ steps j d /\ j < k.
Proof.
  induction 1 as [t H | k t d H K (l & LN & ND & I & P)].
  - exists []. repeat split; [constructor | intros x [] | intros x []].
  - exists (ns_name (ty_base t) :: l). assert (N := alias_named _ _ H). repeat split.
    + cbn [List.length]. congruence.
    + constructor; auto. intros X. destruct (P _ X) as (d' & j & E & J & LT).
      assert (d' = d) by congruence. subst d'. assert (j = k) by (eapply steps_unique; eauto). lia.
    + intros x [<- | X]; [| auto]. rewrite <- (ds_typedef _ _ D) in N.
      destruct (assoc _ _) eqn:A; [| discriminate]. eapply assoc_in; eauto.
    + intros x [<- | X].
      * exists d, k. repeat split; auto.
      * destruct (P _ X) as (d' & j & E & J & LT). exists d', j. repeat split; auto.
Qed.
Lemma steps_bound : forall k t, steps k t -> k <= List.length (en_typedefs env).
Proof.
  intros k t H. destruct (steps_names _ _ H) as (l & <- & ND & I & _).
  rewrite <- (map_length fst). now apply NoDup_incl_length.
Qed.
Lemma call_fuel : forall k t, steps k t -> forall fuel n r, k < fuel ->
  (typeof_call_aux env fuel t n = TOk r <-> callable S t n r).
Proof.
  induction 1 as [t H | k t d H K IH]; intros fuel n r LT; (destruct fuel as [| fuel]; [lia |]);
    rewrite call_step, callable_step, H.
  - split; (intros [X | (d & X & _)]; [auto | discriminate]).
  - split; (intros [X | (d' & X & Y)]; [auto |]; right; exists d'; split; auto; injection X as <-;
      revert Y; apply IH; lia).
Qed.
Lemma call_ok_steps : forall fuel t n r, typeof_call_aux env fuel t n = TOk r -> exists k, steps k t.
Proof.
  induction fuel as [| fuel IH]; intros t n r H; [discriminate |]. apply call_step in H.
  destruct (alias_of t) as [d |] eqn:A.
  - destruct H as [H | (d' & E & H)].
    + exfalso. unfold call_now, alias_of in *. destruct (is_todo t); [discriminate |].
      destruct (ty_ops t) as [| [] ?]; discriminate.
    + injection E as <-. apply IH in H. destruct H as (k & H). exists (Datatypes.S k). econstructor; eauto.
  - exists 0. now constructor.
Qed.
Lemma call_iff : forall t n r, typeof_call env t n = TOk r <-> callable S t n r.
Proof.
  intros t n r. unfold typeof_call. split; intros H.
  - destruct (call_ok_steps _ _ _ _ H) as (k & K). assert (B := steps_bound _ _ K).
    revert H. apply (call_fuel k); auto. lia.
  - destruct (callable_steps _ _ _ H) as (k & K). assert (B := steps_bound _ _ K).
    revert H. apply (call_fuel k); auto. lia.
Qed.

(** ** Names and expressions *)

Lemma typename_iff : forall x s, works (tr_typename env x) s <-> type_known S x.
Proof.
  intros x s. unfold tr_typename, type_known.
  destruct (str_eqb_spec (ns_ns (tn_name x)) (L "OS")) as [O | O].
  - split; [auto | intros _; apply works_ret].
  - destruct (str_eqb_spec (ns_ns (tn_name x)) []) as [N | N].
    + rewrite (ds_type _ _ D). destruct (type_status S _).
      * split; [| intros; apply works_ret]. intros _. right; left. split; [auto | discriminate].
      * split; [intros (a & s' & H); discriminate |].
        intros [H | [[_ H] | (H & _)]]; congruence.
    + rewrite works_bind. unfold getns. rewrite (ds_ns _ _ D). split.
      * intros (a & s1 & H & W). destruct (import S _) as [[h m] |] eqn:I; [| discriminate].
        injection H as <- <-. destruct (exports_has _ _) eqn:X; cbn [negb] in W.
        -- right; right. repeat split; auto. eauto.
        -- destruct W as (a & s2 & W). discriminate.
      * intros [H | [[H _] | (_ & _ & h & m & I & X)]]; try contradiction.
        rewrite I. exists (h, m), s. split; [reflexivity |]. rewrite X. cbn [negb]. eexists _, _. reflexivity.
Qed.
Lemma btf_iff : forall x s, works (tr_bare_typeform env x) s <-> type_known S (btf_type x).
Proof.
  intros x s. rewrite <- (typename_iff (btf_type x) s). unfold tr_bare_typeform. rewrite works_bind.
  split; [intros (a & s1 & H & _); exists a, s1; auto |].
  intros (a & s1 & H). exists a, s1. split; auto. apply works_ret.
Qed.

Lemma find_first : forall A (p : A -> bool) l x, find p l = Some x <->
  exists before after, l = before ++ x :: after /\ p x = true /\ forall y, In y before -> p y = false.
Proof.
  induction l as [| a l IH]; intros x; cbn [find].
  - split; [discriminate |]. intros (b & c & E & _). destruct b; discriminate.
  - destruct (p a) eqn:P.
    + split.
      * intros H. injection H as <-. exists [], l. repeat split; auto. intros y [].
      * intros (b & c & E & X & Y). destruct b as [| y b]; [injection E as <- _; auto |].
        injection E as <- _. rewrite (Y a) in P; [discriminate | now left].
    + rewrite IH. split.
      * intros (b & c & -> & X & Y). exists (a :: b), c. repeat split; auto.
        intros y [<- | I]; auto.
      * intros (b & c & E & X & Y). destruct b as [| y b]; injection E as <- E; [congruence |].
        exists b, c. repeat split; auto. intros z I. apply Y. now right.
Qed.
Lemma const_iff : forall x (l : list enum_entry),
  existsb (fun c => str_eqb (en_name c) x) l = true <-> In x (map en_name l).
Proof.
  intros x l. rewrite existsb_exists, in_map_iff. split; intros (c & A & B); exists c.
  - apply str_eqb_eq in B. auto.
  - split; auto. now apply str_eqb_eq.
Qed.
Lemma fn_iff : forall x (l : list funcdecl) f,
  find (fun f => str_eqb (f_name (fd_form f)) x) l = Some f <->
  exists before after, l = before ++ f :: after /\ f_name (fd_form f) = x
    /\ ~ In x (map (fun g => f_name (fd_form g)) before).
Proof.
  intros x l f. rewrite find_first. split; intros (b & c & E & X & Y); exists b, c; repeat split; auto.
  - now apply str_eqb_eq.
  - intros I. apply in_map_iff in I. destruct I as (g & G & I). apply Y in I.
    rewrite G, str_eqb_refl in I. discriminate.
  - now apply str_eqb_eq.
  - intros g I. apply str_eqb_neq. intros G. apply Y. rewrite <- G. now apply (in_map (fun g => f_name (fd_form g))).
Qed.

(** A visible name can be marked. *)
Lemma mark_last_some : forall x sc b, find_in_scope x sc = Some b -> exists sc', mark_last x sc = Some sc'.
Proof.
  unfold find_in_scope. induction sc as [| y r IH]; intros b H; [discriminate |]. cbn [find mark_last] in *.
  destruct (mark_last x r) as [r' |] eqn:E; [eauto |].
  destruct (str_eqb (b_name y) x); [eauto |]. destruct (IH _ H) as [? X]. congruence.
Qed.
Lemma mark_scopes_some : forall x scs b, find_in_scopes x scs = Some b -> exists scs', mark_scopes x scs = Some scs'.
Proof.
  induction scs as [| sc r IH]; intros b H; [discriminate |]. cbn [find_in_scopes mark_scopes] in *.
  destruct (mark_last x sc) eqn:E; [eauto |].
  destruct (find_in_scope x sc) eqn:F.
  - destruct (mark_last_some _ _ _ F) as [? X]. congruence.
  - destruct (IH _ H) as [? ->]. eexists. reflexivity.
Qed.
Lemma mark_last_none : forall x sc, find_in_scope x sc = None -> mark_last x sc = None.
Proof.
  unfold find_in_scope. induction sc as [| y r IH]; intros H; [auto |]. cbn [find mark_last] in *.
  destruct (str_eqb (b_name y) x); [discriminate |]. now rewrite IH.
Qed.
Lemma mark_scopes_none : forall x scs, find_in_scopes x scs = None -> mark_scopes x scs = None.
Proof.
  induction scs as [| sc r IH]; intros H; [auto |]. cbn [find_in_scopes mark_scopes] in *.
  destruct (find_in_scope x sc) eqn:F; [discriminate |]. rewrite (mark_last_none _ _ F), IH; auto.
Qed.
Lemma find_skel : forall s s' x, skel s' = skel s ->
  option_map decl_of (find_binding x s') = option_map decl_of (find_binding x s).
Proof. intros s s' x E. rewrite <- !look_ctx. unfold ctx. now rewrite E. Qed.

Lemma name_sound : forall n t v s s' G, tr_nsid_in_expr env n s = TrOk ((t, v), s') -> shows s G ->
  name_typed S G n t.
Proof.
  intros n t v s s' G H R. unfold tr_nsid_in_expr in H. tone H E.
  destruct (str_eqb_spec (ns_ns n) (L "OS")) as [O | O]; [tsteps; now apply N_os |].
  apply (tr_nsid_target S env D _ _ _ _ G) in E; auto. destruct E as [_ E].
  assert (R1 := shows_skel _ _ _ R E).
  destruct (str_eqb_spec (ns_ns n) []) as [N | N].
  - tone H E1. injection E1 as <- <-. assert (LK := shows_find _ _ (ns_name n) R1).
    destruct (find_binding _ _) as [b |]; cbn [option_map] in LK.
    + tsteps. exact (N_local S G n (decl_of b) N (eq_sym LK)).
    + destruct (find_sym _) eqn:F; tsteps. now apply N_library.
  - tone H E1. apply getns_ok in E1. destruct E1 as [E1 <-]. rewrite (ds_ns _ _ D) in E1.
    destruct (existsb _ _) eqn:X.
    + tsteps. apply const_iff in X. eapply N_constant; eauto.
    + assert (NX : ~ In (ns_name n) (map en_name (ex_consts (mod_exports m0)))).
      { rewrite <- const_iff. congruence. }
      destruct (find _ _) as [f |] eqn:F; tsteps. apply fn_iff in F. destruct F as (b & c & F1 & F2 & F3).
      change (typefrom_funcdecl f) with (function_type f). eapply N_function; eauto.
Qed.
Lemma name_complete : forall n t s G, shows s G -> name_typed S G n t ->
  exists v s', tr_nsid_in_expr env n s = TrOk ((t, v), s').
Proof.
  intros n t s G R H. unfold tr_nsid_in_expr, tr_nsid, tbind.
  assert (Q : forall h m, ns_ns n <> [] -> ns_ns n <> L "OS" -> import S (ns_ns n) = Some (h, m) ->
    exports_has (mod_exports m) (ns_name n) = true ->
    (if existsb (fun c => str_eqb (en_name c) (ns_name n)) (ex_consts (mod_exports m)) then t = ty_number
     else option_map typefrom_funcdecl
            (find (fun f => str_eqb (f_name (fd_form f)) (ns_name n)) (ex_fns (mod_exports m))) = Some t) ->
    exists v s', tr_nsid_in_expr env n s = TrOk ((t, v), s')).
  { intros h m N O I X T. apply str_eqb_neq in N, O. unfold tr_nsid_in_expr, tr_nsid, tbind, use_ns, getns.
    rewrite N, O. cbn [negb]. rewrite (ds_ns _ _ D), I. unfold tret. cbn [fst snd]. rewrite X. cbn [negb].
    destruct (existsb _ _); [rewrite T; eauto |].
    destruct (find _ _); cbn [option_map] in T; [injection T as <-; eauto | discriminate]. }
  destruct H as [O | d N LK | sym N LK F | h m N O I X | h m b f c N O I X E F NB].
  - rewrite O. cbn [str_eqb lit]. eexists _, _. reflexivity.
  - rewrite N. cbn [str_eqb lit negb]. unfold lookup. unfold mark_binding_use.
    assert (B := shows_find _ _ (ns_name n) R). rewrite LK in B.
    destruct (find_binding (ns_name n) s) as [y |] eqn:FB; [| discriminate]. cbn [option_map] in B.
    destruct (mark_scopes_some _ _ _ FB) as [scs MS]. rewrite MS. cbn [negb]. unfold tret.
    assert (K := find_skel s (mkSt scs (s_ns s) (s_customs s)) (ns_name n)). rewrite FB in K.
    cbn [option_map] in K. specialize (K (mark_scopes_skel _ _ _ MS)).
    destruct (find_binding (ns_name n) (mkSt scs (s_ns s) (s_customs s))) as [z |] eqn:FZ; [| discriminate].
    cbn [option_map] in K. injection K as _ _ K. injection B as <-. cbn [decl_of d_type]. rewrite <- K. eauto.
  - rewrite N. cbn [str_eqb lit negb]. unfold lookup. unfold mark_binding_use.
    assert (B := shows_find _ _ (ns_name n) R). rewrite LK in B.
    destruct (find_binding (ns_name n) s) as [y |] eqn:FB; [discriminate |].
    rewrite (mark_scopes_none _ _ FB), F. cbn [negb]. unfold tret. rewrite FB. eauto.
  - apply (Q h m); auto.
    + apply exports_has_spec. auto.
    + apply const_iff in X. rewrite X. reflexivity.
  - apply (Q h m); auto.
    + apply exports_has_spec. right; left. rewrite E, map_app, in_app_iff. right. left. exact F.
    + destruct (existsb _ _) eqn:Y; [now apply const_iff in Y |].
      assert (Z : find (fun f => str_eqb (f_name (fd_form f)) (ns_name n)) (ex_fns (mod_exports m)) = Some f).
      { apply fn_iff. eauto. }
      rewrite Z. reflexivity.
Qed.

Lemma lift_ok : forall p x r t s, r = TOk t -> lift env p x r s = TrOk (t, s).
Proof. intros p x r t s ->. reflexivity. Qed.

Lemma key_iff : forall k s, (exists c, tr_key k s = TrOk (c, s)) <-> all_opt designator k.
Proof.
  intros [k |] s; cbn [all_opt]; [| split; [auto | intros _; eexists; reflexivity]].
  unfold tr_key. destruct k; cbn [designator]; try (split; [intros [c H]; discriminate | intros []]).
  destruct (str_eqb_spec (ns_ns n) []) as [N | N]; split; auto; try contradiction.
  - intros _. eexists. reflexivity.
  - intros [c H]. discriminate.
Qed.

Lemma expr_decides' : forall G e, (forall t s, shows s G -> ((exists c s', tr_expr env e s = TrOk ((t, c), s')) <-> typed S G e t)) ->
  decides G (tr_expr env e) (exists t, typed S G e t).
Proof.
  intros G e H s R. split.
  - split.
    + intros ([t c] & s' & E). exists t. apply (H t s R). eauto.
    + intros (t & T). apply (H t s R) in T. destruct T as (c & s' & E). eexists _, _. exact E.
  - intros [t c] s' E. exact (proj2 (tr_expr_target S env D _ _ _ _ _ _ E R)).
Qed.
Lemma key_decides : forall G k, decides G (tr_key k) (all_opt designator k).
Proof.
  intros G k s R. split.
  - rewrite <- (key_iff k s). split.
    + intros (c & s' & E). assert (X := tr_key_state _ _ _ _ E). subst s'. eauto.
    + intros (c & E). eexists _, _. exact E.
  - intros c s' E. now rewrite (tr_key_state _ _ _ _ E).
Qed.
Lemma comp_decides : forall G es,
  Forall (fun x => forall t s, shows s G -> ((exists c s', tr_expr env (snd x) s = TrOk ((t, c), s')) <-> typed S G (snd x) t)) es ->
  decides G (tmap (tr_entry env) es) (all (fun x => all_opt designator (snd (fst x)) /\ exists tx, typed S G (snd x) tx) es).
Proof.
  intros G es H. apply tmap_decides. intros x I. unfold tr_entry. apply decides_bind; [apply key_decides |].
  intros k. eapply decides_iff; [apply decides_bind; [apply expr_decides' | intros [? ?]; apply decides_ret] | tauto].
  now apply (proj1 (Forall_forall _ _) H x I).
Qed.

(** An expression is accepted, with type [t], iff it has that type. *)
Lemma expr_iff : forall e t s G, shows s G ->
  ((exists c s', tr_expr env e s = TrOk ((t, c), s')) <-> typed S G e t).
Proof.
  intros e t s G R. revert t s R.
  induction e as [a i IHa IHi | p op a b IHa IHb | p op x f IHx | b x IHx | es IHes _ | p f args IHf IHa
    | l | n | op x IHx | p op x IHx | b | x IHx] using expr_ind'; intros t s R.
  - cbn [tr_expr typed]. split.
    + intros (c & s' & H). tone H E1. tone H E2. tone H E3. apply lift_state in E3. destruct E3 as [<- E3]. tsteps.
      assert (R1 := shows_skel _ _ _ R (proj2 (tr_expr_target S env D _ _ _ _ _ _ E1 R))).
      exists t0, t1. rewrite <- (IHa _ s), <- (IHi _ s1), <- index_iff; eauto 8.
    + intros (ta & ti & Ha & Hi & T). apply (IHa _ s R) in Ha. destruct Ha as (ca & s1 & Ea).
      assert (R1 := shows_skel _ _ _ R (proj2 (tr_expr_target S env D _ _ _ _ _ _ Ea R))).
      apply (IHi _ s1 R1) in Hi. destruct Hi as (ci & s2 & Ei). apply (index_iff _ ti) in T.
      unfold tbind. rewrite Ea, Ei, (lift_ok _ _ _ _ _ T). eexists _, _. reflexivity.
  - cbn [tr_expr typed]. split.
    + intros (c & s' & H). tone H E1. tone H E2. destruct (typeof_binop _ _ _ _) as [r |] eqn:B; [| discriminate].
      tone H E3. apply lift_state in E3. destruct E3 as [<- E3]. tsteps.
      assert (R1 := shows_skel _ _ _ R (proj2 (tr_expr_target S env D _ _ _ _ _ _ E1 R))).
      exists t0, t1. rewrite <- (IHa _ s), <- (IHb _ s1), <- binop_iff; eauto 8.
    + intros (ta & tb & Ha & Hb & T). apply (IHa _ s R) in Ha. destruct Ha as (ca & s1 & Ea).
      assert (R1 := shows_skel _ _ _ R (proj2 (tr_expr_target S env D _ _ _ _ _ _ Ea R))).
      apply (IHb _ s1 R1) in Hb. destruct Hb as (cb & s2 & Eb). apply binop_iff in T.
      unfold tbind. rewrite Ea, Eb, T. rewrite (lift_ok _ _ (TOk t) t); auto. eexists _, _. reflexivity.
  - cbn [tr_expr typed]. split.
    + intros (c & s' & H). tone H E1. tsteps. exists t0. rewrite <- (IHx _ s R), <- field_iff. eauto.
    + intros (tx & Hx & T). apply (IHx _ s R) in Hx. destruct Hx as (cx & s1 & Ex). apply field_iff in T.
      unfold tbind. rewrite Ex, T. eexists _, _. reflexivity.
  - cbn [tr_expr typed]. split.
    + intros (c & s' & H). tone H E1. tone H E2. tsteps. repeat split.
      * exists t0. rewrite <- (IHx _ s R). eauto.
      * apply (btf_iff b s1). exists a, s'. auto.
    + intros ((tx & Hx) & K & ->). apply (IHx _ s R) in Hx. destruct Hx as (cx & s1 & Ex).
      apply (btf_iff b s1) in K. destruct K as (cb & s2 & Eb).
      unfold tbind. rewrite Ex, Eb. eexists _, _. reflexivity.
  - cbn [typed]. rewrite tr_expr_comp. split.
    + intros (c & s' & H). tone H E. tsteps. split; [| reflexivity].
      apply (comp_decides G es IHes s R). eexists _, _. exact E.
    + intros [H ->]. apply (comp_decides G es IHes s R) in H. destruct H as (l & s1 & E).
      unfold tbind. rewrite E. eexists _, _. reflexivity.
  - cbn [typed].
    assert (DA : decides G (tmap (tr_expr env) args) (all (fun a => exists ta, typed S G a ta) args)).
    { apply tmap_decides. intros a I. apply expr_decides'. intros t0 s0 R0.
      now apply (proj1 (Forall_forall _ _) IHa a I). }
    split.
    + intros (c & s' & H). rewrite tr_expr_call, <- is_name_ident in H. destruct (is_name f "calloc!") eqn:C.
      * tone H E0. tone H E1. tone H E2. injection E0 as <-.
        assert (RC : shows (mkSt (s_scopes s) (s_ns s) (L "calloc_or_panic" :: s_customs s)) G) by exact R.
        destruct (DA _ RC) as [DA1 DA2]. assert (R1 := shows_skel _ _ _ RC (DA2 _ _ E1)).
        split; [apply DA1; eexists _, _; eauto |]. exists t0. split; [eapply name_sound; eauto |].
        unfold call_result in H. tone H E3. apply lift_state in E3. destruct E3 as [_ E3]. tsteps.
        apply call_iff in E3. cbn [fst] in E3. erewrite tmap_length in E3 by eauto. exact E3.
      * tone H E1. tone H E2. destruct (DA _ R) as [DA1 DA2]. assert (R1 := shows_skel _ _ _ R (DA2 _ _ E1)).
        split; [apply DA1; eexists _, _; eauto |]. exists t0. split; [apply (IHf _ s1 R1); eauto |].
        unfold call_result in H. tone H E3. apply lift_state in E3. destruct E3 as [_ E3]. tsteps.
        apply call_iff in E3. cbn [fst] in E3. erewrite tmap_length in E3 by eauto. exact E3.
    + intros (HA & tf & HF & HC). setoid_rewrite tr_expr_call. rewrite <- is_name_ident.
      apply call_iff in HC. destruct (is_name f "calloc!").
      * unfold tbind at 1. cbn [use_custom].
        assert (RC : shows (mkSt (s_scopes s) (s_ns s) (L "calloc_or_panic" :: s_customs s)) G) by exact R.
        destruct (DA _ RC) as [DA1 DA2]. apply DA1 in HA. destruct HA as (l & s1 & EA).
        assert (R1 := shows_skel _ _ _ RC (DA2 _ _ EA)).
        destruct (name_complete _ _ _ _ R1 HF) as (v & s2 & EN).
        unfold tbind at 1. rewrite EA. unfold tbind at 1. rewrite EN. unfold call_result, tbind. cbn [fst].
        rewrite (tmap_length _ _ _ _ _ _ _ EA), (lift_ok _ _ _ _ _ HC). eexists _, _. reflexivity.
      * destruct (DA _ R) as [DA1 DA2]. apply DA1 in HA. destruct HA as (l & s1 & EA).
        assert (R1 := shows_skel _ _ _ R (DA2 _ _ EA)).
        apply (IHf _ _ R1) in HF. destruct HF as (v & s2 & EN).
        unfold tbind at 1. rewrite EA. unfold tbind at 1. rewrite EN. unfold call_result, tbind. cbn [fst].
        rewrite (tmap_length _ _ _ _ _ _ _ EA), (lift_ok _ _ _ _ _ HC). eexists _, _. reflexivity.
  - cbn [tr_expr typed]. split.
    + intros (c & s' & H). tsteps. destruct l; reflexivity.
    + intros ->. destruct l; eexists _, _; reflexivity.
  - cbn [tr_expr typed]. split.
    + intros (c & s' & H). tone H E. tsteps. eapply name_sound; eauto.
    + intros H. destruct (name_complete _ _ _ _ R H) as (v & s' & E). unfold tbind. rewrite E.
      eexists _, _. reflexivity.
  - cbn [tr_expr typed]. split.
    + intros (c & s' & H). tone H E1. destruct (existsb _ _) eqn:X; [| discriminate]. tsteps.
      apply existsb_in in X. rewrite <- (IHx _ s R). eauto.
    + intros (Hx & X). apply existsb_in in X. apply (IHx _ s R) in Hx. destruct Hx as (cx & s1 & Ex).
      unfold tbind. rewrite Ex, X. eexists _, _. reflexivity.
  - cbn [tr_expr typed]. split.
    + intros (c & s' & H). tone H E1. destruct (typeof_prefix _ _) as [r |] eqn:B; [| discriminate].
      tone H E3. apply lift_state in E3. destruct E3 as [<- E3]. tsteps.
      exists t0. rewrite <- (IHx _ s), <- prefix_iff; eauto 8.
    + intros (tx & Hx & T). apply (IHx _ s R) in Hx. destruct Hx as (cx & s1 & Ex). apply prefix_iff in T.
      unfold tbind. rewrite Ex, T. rewrite (lift_ok _ _ (TOk t) t); auto. eexists _, _. reflexivity.
  - cbn [tr_expr typed]. split.
    + intros (c & s' & H). tone H E1. tsteps. split; [| reflexivity]. apply (btf_iff b s). eexists _, _; eauto.
    + intros [K ->]. apply (btf_iff b s) in K. destruct K as (cb & s2 & Eb).
      unfold tbind. rewrite Eb. eexists _, _. reflexivity.
  - cbn [tr_expr typed]. split.
    + intros (c & s' & H). tone H E1. tsteps. split; [| reflexivity]. exists t0. rewrite <- (IHx _ s R). eauto.
    + intros ((tx & Hx) & ->). apply (IHx _ s R) in Hx. destruct Hx as (cx & s1 & Ex).
      unfold tbind. rewrite Ex. eexists _, _. reflexivity.
Qed.
End Elab.
