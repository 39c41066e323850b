(** What the C code of a function uses is declared: the part about expressions
    and statements. *)
From Verif Require Import Base BaseFacts Buf Nodes NodeInd Cspec Resolve Preparser CAst FormatC SpecCStmt CStmtFacts SpecDecl SpecScope SpecExports
  SpecModule SpecTarget SpecTyping SpecTame SpecClosed SpecTidy ElabFacts.

(** ** [each] over conjunctions and implications *)
Section Mp.
Variables (P1 P2 P3 : expr -> Prop) (Q1 Q2 Q3 : stmt -> Prop).
Hypothesis HP : forall e, P1 e -> P2 e -> P3 e.
Hypothesis HQ : forall s, Q1 s -> Q2 s -> Q3 s.
Lemma all_mp3 : forall A (P Q R : A -> Prop) l, (forall a, In a l -> P a -> Q a -> R a) -> all P l -> all Q l -> all R l.
Proof. intros A P Q R l H. rewrite !all_in. auto. Qed.
Lemma opt_mp3 : forall A (P Q R : A -> Prop) o, (forall a, P a -> Q a -> R a) -> all_opt P o -> all_opt Q o -> all_opt R o.
Proof. intros A P Q R [a |] H; cbn; auto. Qed.
Lemma expr_mp3 : forall e, each_expr P1 e -> each_expr P2 e -> each_expr P3 e.
Proof.
  induction e as [a i IHa IHi | p op a b IHa IHb | p op t f IH | t x IH | es IHe _ | p f args IHf IHa | l | n | op x IH
    | p op x IH | t | x IH] using expr_ind'; intros [C H] [C' H']; (split; [now apply HP |]); try tauto.
  - rewrite Forall_forall in IHe. revert H H'. apply all_mp3. auto.
  - rewrite Forall_forall in IHa. split; [tauto |]. destruct H as [_ H]. destruct H' as [_ H']. revert H H'. apply all_mp3. auto.
Qed.
Lemma form_mp3 : forall f, each_form P1 f -> each_form P2 f -> each_form P3 f.
Proof. intros f. apply all_mp3. intros o _. apply opt_mp3, expr_mp3. Qed.
Lemma init_mp3 : forall i, each_init P1 i -> each_init P2 i -> each_init P3 i.
Proof. intros [e | t f e]; cbn [each_init]; [apply expr_mp3 |]. intros [] []. split; [now apply form_mp3 | now apply expr_mp3]. Qed.
Definition stmt_mp3' (st : stmt) : Prop := each_stmt P1 Q1 st -> each_stmt P2 Q2 st -> each_stmt P3 Q3 st.
Lemma body_mp3 : forall b, Forall stmt_mp3' b -> all (each_stmt P1 Q1) b -> all (each_stmt P2 Q2) b -> all (each_stmt P3 Q3) b.
Proof. intros b H. rewrite Forall_forall in H. apply all_mp3. intros a I. now apply H. Qed.
Lemma opt_body_mp3 : forall b, opt_all stmt_mp3' b -> all_opt (all (each_stmt P1 Q1)) b ->
  all_opt (all (each_stmt P2 Q2)) b -> all_opt (all (each_stmt P3 Q3)) b.
Proof. intros [b |] H; cbn; [now apply body_mp3 | auto]. Qed.
Lemma stmt_mp3 : forall st, stmt_mp3' st.
Proof.
  induction st as [| | v | c b e IHb IHe | i c a b IHb | c b IHb | e | is v cs d IHc IHd | e] using stmt_ind';
    intros [C H] [C' H']; (split; [now apply HQ |]); auto.
  - split; [now apply form_mp3 | eapply opt_mp3; [apply expr_mp3 | apply H | apply H']].
  - split; [now apply expr_mp3 |]. split; [now apply body_mp3 | now apply opt_body_mp3].
  - split; [eapply opt_mp3; [apply init_mp3 | apply H | apply H'] |].
    split; [eapply opt_mp3; [apply expr_mp3 | apply H | apply H'] |].
    split; [eapply opt_mp3; [apply expr_mp3 | apply H | apply H'] | now apply body_mp3].
  - split; [now apply expr_mp3 | now apply body_mp3].
  - eapply opt_mp3; [apply expr_mp3 | apply H | apply H'].
  - split; [now apply expr_mp3 |]. split; [| now apply opt_body_mp3].
    rewrite Forall_forall in IHc. destruct H as (_ & H & _), H' as (_ & H' & _). revert H H'. apply all_mp3.
    intros a I. now apply body_mp3, IHc.
  - now apply expr_mp3.
Qed.
Lemma stmts_mp3 : forall b, all (each_stmt P1 Q1) b -> all (each_stmt P2 Q2) b -> all (each_stmt P3 Q3) b.
Proof. intros b. apply body_mp3, Forall_forall. intros; apply stmt_mp3. Qed.
End Mp.

(** ** Expressions *)
Section Body.
Variable S : site.
Notation cname := (cname S).
Notation c_expr := (c_expr S).
Notation c_stmt := (c_stmt S).
Notation c_stmts := (c_stmts S).
Notation typed := (typed S).
Notation name_typed := (name_typed S).
Notation type_known := (type_known S).

(** What is asked of an expression for its uses to have [C]. *)
Definition meets (G : list decl) (C : cuse -> Prop) (e : expr) : Prop :=
  match e with
  | EName n => (exists t, name_typed G n t) -> C (UName (cname G n))
  | ECall p f _ => is_name f "calloc!" = true -> (exists t, name_typed G (mkNs p [] (L "calloc_or_panic")) t) ->
      C (UName (cname G (mkNs p [] (L "calloc_or_panic"))))
  | ECast t _ | ESizeofT t => type_known (btf_type t) -> C (UType (ctn_name (SpecTarget.c_type S (btf_type t))))
  | EComp es => all (fun x => fst (fst x) = false) es
  | _ => True
  end.
Lemma expr_uses : forall G C e, each_expr (meets G C) e -> forall t, typed G e t -> forall u, In u (uses (c_expr G e)) -> C u.
Proof.
  intros G C.
  induction e as [a i IHa IHi | p op a b IHa IHb | p op x f IH | b x IH | es IHe _ | p f args IHf IHa | l | n | op x IH
    | p op x IH | b | x IH] using expr_ind'; intros [M H] t T u U; cbn [SpecTarget.c_expr uses] in U; cbn [SpecTyping.typed] in T.
  - destruct T as (ta & ti & T1 & T2 & _). apply in_app_or in U as [U | U]; [eapply IHa | eapply IHi]; eauto; apply H.
  - destruct T as (ta & ti & T1 & T2 & _). apply in_app_or in U as [U | U]; [eapply IHa | eapply IHb]; eauto; apply H.
  - destruct T as (tx & T & _). eapply IH; eauto.
  - destruct T as ((tx & T) & K & _). destruct U as [<- | U]; [now apply M | eapply IH; eauto].
  - destruct T as [T _]. rewrite Forall_forall in IHe. apply in_flat_map in U as (y & Y & U). apply in_map_iff in Y as (x & <- & X).
    cbn [meets] in M. rewrite all_in in M, H, T. destruct (T x X) as (_ & tx & Tx). specialize (M x X). cbn in M.
    rewrite M in U. assert (U' : In u (uses (c_expr G (snd x)))).
    { destruct (option_map c_key (snd (fst x))); exact U. }
    eapply IHe; eauto.
  - destruct T as (Ta & tf & Tf & _). apply in_app_or in U as [U | U].
    + destruct (is_name f "calloc!") eqn:N.
      * destruct U as [<- | []]. apply M; eauto.
      * eapply IHf; eauto. apply H.
    + apply in_flat_map in U as (y & Y & U). apply in_map_iff in Y as (x & <- & X). rewrite Forall_forall in IHa.
      destruct H as [_ H]. rewrite all_in in H, Ta. destruct (Ta x X) as (ta & Tx). eapply IHa; eauto.
  - destruct U.
  - destruct U as [<- | []]. apply M. eauto.
  - destruct T as [T _]. eapply IH; eauto.
  - destruct T as (tx & T & _). eapply IH; eauto.
  - destruct T as [T _]. destruct U as [<- | []]. now apply M.
  - destruct T as ((tx & T) & _). eapply IH; eauto.
Qed.
Lemma value_uses : forall G C e, each_expr (meets G C) e -> ok_value S G e -> forall u, In u (uses (c_expr G e)) -> C u.
Proof. intros G C e M (t & T) u U. eapply expr_uses; eauto. Qed.
Lemma opt_value_uses : forall G C o, all_opt (each_expr (meets G C)) o -> all_opt (ok_value S G) o ->
  forall u, In u (opt_uses (option_map (c_expr G) o)) -> C u.
Proof. intros G C [e |] M K u U; [eapply value_uses; eauto | destruct U]. Qed.
Lemma form_uses : forall G C name f, each_form (meets G C) f -> ok_form S G f ->
  forall u, In u (sizes (c_form S G name f)) -> C u.
Proof.
  intros G C name f M K u U. unfold sizes in U. cbn [c_form cf_indexes] in U. apply in_flat_map in U as (y & Y & U).
  apply in_map_iff in Y as (o & <- & O). unfold each_form, ok_form in *. rewrite all_in in M, K.
  eapply opt_value_uses; [apply (M _ O) | apply (K _ O) | exact U].
Qed.

(** ** Statements *)
Variables (Gm : list decl) (prov : cuse -> Prop).
(** Covered by local names or from outside. *)
Definition cov (G : list decl) (u : cuse) : Prop := (exists x, u = UName x /\ In x (map d_name G)) \/ prov u.
Definition private (G : list decl) : Prop := Forall (fun d => d_pub d = false) G.
Definition given (n : nsname) : Prop :=
  forall G t, private G -> name_typed (G ++ Gm) n t -> (ns_ns n = [] -> ~ In (ns_name n) (map d_name G)) -> prov (UName (cname (G ++ Gm) n)).
Definition given_type (t : typename) : Prop := type_known t -> prov (UType (ctn_name (SpecTarget.c_type S t))).
Definition given_expr (e : expr) : Prop :=
  match e with
  | EName n => given n
  | ECall p f _ => is_name f "calloc!" = true -> given (mkNs p [] (L "calloc_or_panic"))
  | ECast t _ | ESizeofT t => given_type (btf_type t)
  | EComp es => all (fun x => fst (fst x) = false) es
  | _ => True
  end.
Definition given_label (v : switch_value) : Prop := match v with SVIdent n => given n | SVLit _ => True end.
Definition given_stmt (s : stmt) : Prop :=
  match s with
  | SVarDecl v => given_type (v_type v) /\ without (f_name (v_form v)) (v_form v)
  | SFor (Some (FIDecl t f _)) _ _ _ => given_type t /\ without (f_name f) f
  | SSwitch _ _ cs _ => all (fun c => all given_label (fst c)) cs
  | _ => True
  end.
(** What the generated code calls by itself. *)
Hypothesis generated : forall x, In x ["strcmp"; "fprintf"; "stderr"; "exit"]%string -> prov (UName (lit x)).

Lemma look_app : forall x G G', look x (G ++ G') = match look x G with Some d => Some d | None => look x G' end.
Proof. intros x G G'. unfold look. induction G as [| d G IH]; cbn; [reflexivity |]. destruct (str_eqb (d_name d) x); auto. Qed.
Lemma look_in : forall x G, In x (map d_name G) -> exists d, look x G = Some d.
Proof.
  intros x G H. unfold look. induction G as [| d G IH]; cbn in *; [destruct H |]. destruct (str_eqb_spec (d_name d) x); [eauto |].
  apply IH. tauto.
Qed.
Lemma look_is : forall x G d, look x G = Some d -> In d G /\ d_name d = x.
Proof. intros x G d H. unfold look in H. apply find_some in H as [H E]. split; [exact H | now apply str_eqb_eq]. Qed.
Lemma private_look : forall x G d, private G -> look x G = Some d -> d_pub d = false.
Proof. intros x G d P H. apply look_is in H as [H _]. unfold private in P. rewrite Forall_forall in P. auto. Qed.

Lemma cname_local : forall G n, ns_ns n = [] -> cname G n =
  match look (ns_name n) G with
  | Some d => if d_pub d then global_name (own_id S) (ns_name n) else ns_name n
  | None => ns_name n
  end.
Proof. intros G n E. unfold SpecTarget.cname. rewrite E. reflexivity. Qed.
Lemma name_cov : forall G n, private G -> given n -> (exists t, name_typed (G ++ Gm) n t) -> cov G (UName (cname (G ++ Gm) n)).
Proof.
  intros G n P H (t & T). destruct (str_eqb_spec (ns_ns n) []) as [E | E].
  - destruct (in_dec (list_eq_dec N.eq_dec) (ns_name n) (map d_name G)) as [I | I].
    + left. exists (ns_name n). split; [| exact I]. f_equal. rewrite (cname_local _ _ E), look_app. destruct (look_in _ _ I) as (d & D). rewrite D, (private_look _ _ _ P D). reflexivity.
    + right. eapply H; eauto.
  - right. eapply H; eauto.
Qed.
Lemma meets_cov : forall G e, private G -> given_expr e -> meets (G ++ Gm) (cov G) e.
Proof.
  intros G e P H. destruct e; cbn [meets given_expr] in *; auto; intros; try (right; auto; fail); apply name_cov; auto.
Qed.
(** A declarator that does not use [x]. *)
Lemma name_cov_without : forall d G n, private (d :: G) -> given n -> ~ (ns_ns n = [] /\ ns_name n = d_name d) ->
  (exists t, name_typed ((d :: G) ++ Gm) n t) -> cov G (UName (cname ((d :: G) ++ Gm) n)).
Proof.
  intros d G n P H X (t & T). destruct (str_eqb_spec (ns_ns n) []) as [E | E].
  - destruct (in_dec (list_eq_dec N.eq_dec) (ns_name n) (map d_name (d :: G))) as [I | I].
    + left. exists (ns_name n). destruct (look_in _ _ I) as (d' & D). split.
      * f_equal. rewrite (cname_local _ _ E), look_app, D, (private_look _ _ _ P D). reflexivity.
      * destruct I as [I | I]; [exfalso; auto | exact I].
    + right. eapply (H (d :: G)); eauto.
  - right. eapply (H (d :: G)); eauto.
Qed.
Definition without_expr (x : str) (e : expr) : Prop :=
  match e with
  | EName n => ~ (ns_ns n = [] /\ ns_name n = x)
  | ECall _ g _ => is_name g "calloc!" = true -> x <> L "calloc_or_panic"
  | _ => True
  end.
Lemma meets_cov_without : forall d G e, private (d :: G) -> given_expr e -> without_expr (d_name d) e ->
  meets ((d :: G) ++ Gm) (cov G) e.
Proof.
  intros d G e P H X. destruct e; cbn [meets given_expr without_expr] in *; auto; intros; try (right; auto; fail);
    apply name_cov_without; auto. cbn [ns_ns ns_name]. intros [_ E]. now apply X.
Qed.

Lemma hide_in : forall x l u, In u (hide x l) -> In u l /\ u <> UName x.
Proof.
  intros x l u H. unfold hide in H. apply filter_In in H as [H E]. split; [exact H |]. intros ->.
  rewrite str_eqb_refl in E. discriminate.
Qed.
Lemma cov_hide : forall d G u, cov (d :: G) u -> u <> UName (d_name d) -> cov G u.
Proof. intros d G u [(x & -> & [-> | H]) | H] N; [contradiction | left; eauto | now right]. Qed.

Lemma frees_app : forall a b k, frees (a ++ b) k = frees a (frees b k).
Proof. intros a b k. unfold frees. apply fold_right_app. Qed.
Lemma frees_block : forall l k, free (XBlock l) k = frees l [] ++ k.
Proof. reflexivity. Qed.
Lemma frees_pads : forall l k, frees (pads l) k = frees (lowers l) k.
Proof.
  induction l as [| s l IH]; intros k; cbn [pads lowers]; [reflexivity |]. rewrite !frees_app. f_equal. cbn. apply IH.
Qed.

(** A statement: what it uses is covered, or used by what follows and not
    declared by it. *)
Definition stmt_free (s : stmt) : Prop := forall G k u, private G -> ok_stmt S (G ++ Gm) s -> each_stmt given_expr given_stmt s ->
  In u (frees (lower (c_stmt (G ++ Gm) s)) k) ->
  cov G u \/ (In u k /\ forall d, In d (declares s) -> u <> UName (d_name d)).
Lemma declares_private : forall s, private (declares s).
Proof. intros []; repeat constructor. Qed.
Lemma body_free : forall b, Forall stmt_free b -> forall G u, private G -> ok_stmts S (G ++ Gm) b ->
  all (each_stmt given_expr given_stmt) b -> In u (frees (lowers (c_stmts (G ++ Gm) b)) []) -> cov G u.
Proof.
  induction b as [| s b IH]; intros F G u P K E U; cbn [SpecTarget.c_stmts lowers] in U; [destruct U |].
  inversion F as [| ? ? F1 F2]; subst. destruct K as [K1 K2], E as [E1 E2]. rewrite frees_app in U.
  destruct (F1 _ _ _ P K1 E1 U) as [H | [H N]]; [exact H |]. rewrite app_assoc in H, K2.
  assert (H' : cov (declares s ++ G) u).
  { apply IH in H; auto. unfold private. apply Forall_app. split; [apply declares_private | exact P]. }
  destruct s; cbn [declares app] in *; auto. eapply cov_hide; [exact H' |]. apply N. now left.
Qed.
Lemma value_cov : forall G e, private G -> ok_value S (G ++ Gm) e -> each_expr given_expr e ->
  forall u, In u (uses (c_expr (G ++ Gm) e)) -> cov G u.
Proof.
  intros G e P K E. eapply value_uses; [| exact K]. eapply (expr_mp3 (fun _ => True)); [| | exact E].
  - intros x _. now apply meets_cov.
  - clear. induction e using expr_ind'; cbn [each_expr]; auto.
    + split; [exact I |]. rewrite all_in. rewrite Forall_forall in *. auto.
    + split; [exact I |]. split; [exact IHe |]. rewrite all_in. rewrite Forall_forall in *. auto.
Qed.
Lemma opt_cov : forall G o, private G -> all_opt (ok_value S (G ++ Gm)) o -> all_opt (each_expr given_expr) o ->
  forall u, In u (opt_uses (option_map (c_expr (G ++ Gm)) o)) -> cov G u.
Proof. intros G [e |] P K E u U; [eapply value_cov; eauto | destruct U]. Qed.
Lemma cond_value : forall G e, ok_cond S G e -> ok_value S G e.
Proof. intros G e (t & T & _). now exists t. Qed.
Lemma form_cov : forall d G name f, private (d :: G) -> ok_form S ((d :: G) ++ Gm) f -> each_form given_expr f -> without (d_name d) f ->
  forall u, In u (sizes (c_form S ((d :: G) ++ Gm) name f)) -> cov G u.
Proof.
  intros d G name f P K E W. eapply form_uses; [| exact K]. eapply form_mp3; [| exact E | exact W].
  intros e H1 H2. apply meets_cov_without; auto.
Qed.
Lemma label_cov : forall G v, private G -> ok_case S (G ++ Gm) v -> given_label v ->
  forall u, In u (uses (c_value S (G ++ Gm) v)) -> cov G u.
Proof.
  intros G [n | l] P K E u U; cbn in *; [| destruct U]. destruct U as [<- | []]. now apply name_cov.
Qed.
Lemma equals_cov : forall G x v, private G -> (forall u, In u (uses x) -> cov G u) -> ok_case S (G ++ Gm) v -> given_label v ->
  forall u, In u (uses (c_equals S (G ++ Gm) x v)) -> cov G u.
Proof.
  intros G x v P X K E u U. cbn [c_equals call uses flat_map] in U. destruct U as [<- | U].
  - right. apply (generated "strcmp"). now left.
  - cbn [app] in U. rewrite app_nil_r in U. apply in_app_or in U as [U | U]; [eapply label_cov; eauto | now apply X].
Qed.
Lemma any_cov : forall G x vs, private G -> (forall u, In u (uses x) -> cov G u) -> all (ok_case S (G ++ Gm)) vs -> all given_label vs ->
  forall u, In u (uses (c_any S (G ++ Gm) x vs)) -> cov G u.
Proof.
  intros G x [| v vs] P X K E u U; [destruct U |]. cbn [c_any] in U. destruct K as [K1 K], E as [E1 E].
  assert (H : forall acc, (forall u, In u (uses acc) -> cov G u) ->
    forall u, In u (uses (fold_left (fun acc v => CBin "||" acc (c_equals S (G ++ Gm) x v)) vs acc)) -> cov G u).
  { clear U u. revert K E. induction vs as [| v' vs IH]; intros K E acc H u U; cbn [fold_left] in U; [auto |].
    destruct K as [K2 K], E as [E2 E]. eapply (IH K E); [| exact U]. intros u' U'. cbn [uses] in U'.
    apply in_app_or in U' as [U' | U']; [auto | exact (equals_cov G x v' P X K2 E2 u' U')]. }
  eapply H; [| exact U]. intros u' U'. exact (equals_cov G x v P X K1 E1 u' U').
Qed.
Lemma block_cov : forall b, Forall stmt_free b -> forall G u, private G -> ok_stmts S (G ++ Gm) b ->
  all (each_stmt given_expr given_stmt) b -> In u (free (XBlock (lowers (c_stmts (G ++ Gm) b))) []) -> cov G u.
Proof. intros b F G u P K E U. rewrite frees_block, app_nil_r in U. eapply body_free; eauto. Qed.
Lemma panic_cov : forall G p args, private G -> all (ok_value S (G ++ Gm)) args -> all (each_expr given_expr) args ->
  forall u k, In u (frees (lower (c_panic S p (map (c_expr (G ++ Gm)) args))) k) -> cov G u \/ In u k.
Proof.
  intros G p args P K E u k U. unfold c_panic in U. rewrite lower_eq in U. cbn in U.
  repeat (rewrite ?in_app_iff in U; cbn [In] in U).
  assert (H : In u (flat_map uses (map (c_expr (G ++ Gm)) args)) -> cov G u).
  { intros I. apply in_flat_map in I as (y & Y & I). apply in_map_iff in Y as (x & <- & X). rewrite all_in in K, E.
    eapply value_cov; eauto. }
  repeat match type of U with _ \/ _ => destruct U as [U | U] end; try (left; now apply H); try (right; exact U); try contradiction;
  subst u; left; right;
  first [apply (generated "fprintf") | apply (generated "stderr") | apply (generated "exit")]; cbn; tauto.
Qed.

Lemma stmts_inner : forall l G, (fix stmts (G : list decl) (l : list stmt) : list cstmt :=
    match l with [] => [] | s :: r => c_stmt G s :: stmts (declares s ++ G) r end) G l = c_stmts G l.
Proof. induction l as [| s l IH]; intros G; cbn [SpecTarget.c_stmts]; [reflexivity | now rewrite IH]. Qed.
Lemma ok_inner : forall l G, (fix ok_stmts (G : list decl) (l : list stmt) : Prop :=
    match l with [] => True | s :: r => ok_stmt S G s /\ ok_stmts (declares s ++ G) r end) G l = ok_stmts S G l.
Proof. induction l as [| s l IH]; intros G; cbn [SpecTyping.ok_stmts]; [reflexivity | now rewrite IH]. Qed.
Definition chain (G : list decl) (v : expr) (def : option (list stmt)) : list (list switch_value * list stmt) -> cstmt :=
  fix chain cs :=
    match cs with
    | [] => KBlock []
    | [c] => KIf (c_any S G (c_expr G v) (fst c)) (c_stmts G (snd c)) (option_map (c_stmts G) def)
    | c :: r => KIf (c_any S G (c_expr G v) (fst c)) (c_stmts G (snd c)) (Some [chain r])
    end.
Lemma c_stmt_eq : forall G s, c_stmt G s =
  match s with
  | SIf c b e => KIf (c_expr G c) (c_stmts G b) (option_map (c_stmts G) e)
  | SFor i c a b =>
      let G := init_declares i ++ G in
      KFor (option_map (c_forinit S G) i) (option_map (c_expr G) c) (option_map (c_expr G) a) (c_stmts G b)
  | SWhile c b => KWhile (c_expr G c) (c_stmts G b)
  | SSwitch false v cases def =>
      KSwitch (c_expr G v) (map (fun c => (map (c_case S G) (fst c), c_stmts G (snd c))) cases) (option_map (c_stmts G) def)
  | SSwitch true v cases def => chain G v def cases
  | s => c_stmt G s
  end.
Proof.
  intros G []; try reflexivity.
Qed.

Lemma labelled_free : forall vs s u, In u (free (labelled vs s) []) ->
  (exists v, In v vs /\ In u (uses (label_expr v))) \/ In u (free s []).
Proof.
  induction vs as [| v vs IH]; intros s u U; [now right |]. cbn [labelled fold_right free] in U. rewrite app_nil_r in U.
  apply in_app_or in U as [U | U]; [left; exists v; split; [now left | exact U] |].
  destruct (IH _ _ U) as [(v' & I & H) | H]; [left; exists v'; split; [now right | exact H] | now right].
Qed.
Lemma case_value : forall G v, label_expr (c_case S G v) = c_value S G v.
Proof. intros G []; reflexivity. Qed.
Lemma frees_in : forall l k u, In u (frees l k) -> (forall s, In s l -> forall k', In u (free s k') -> In u (free s []) \/ In u k') ->
  In u k \/ exists s, In s l /\ In u (free s []).
Proof.
  induction l as [| s l IH]; intros k u U H; [now left |]. cbn [frees fold_right] in U. change (fold_right free k l) with (frees l k) in U.
  destruct (H s (or_introl eq_refl) _ U) as [X | X]; [right; exists s; split; [now left | exact X] |].
  destruct (IH _ _ X) as [Y | (s' & I & Y)]; [intros s' I; apply H; now right | now left | right; exists s'; split; [now right | exact Y]].
Qed.
Lemma labelled_split : forall vs s k u, (forall k u, In u (free s k) -> In u (free s []) \/ In u k) ->
  In u (free (labelled vs s) k) -> In u (free (labelled vs s) []) \/ In u k.
Proof.
  intros [| v vs] s k u H U; [now apply H |]. cbn [labelled fold_right free] in *. rewrite !in_app_iff in *. tauto.
Qed.

Lemma free_default : forall s k, free (XDefault s) k = free s [] ++ k.
Proof. reflexivity. Qed.
Lemma switch_free : forall G v cases def u k, private G ->
  ok_value S (G ++ Gm) v -> each_expr given_expr v ->
  all (fun c => all (ok_case S (G ++ Gm)) (fst c) /\ ok_stmts S (G ++ Gm) (snd c)) cases ->
  all (fun c => all given_label (fst c)) cases -> all (fun c => all (each_stmt given_expr given_stmt) (snd c)) cases ->
  Forall (fun c => Forall stmt_free (snd c)) cases ->
  all_opt (ok_stmts S (G ++ Gm)) def -> all_opt (all (each_stmt given_expr given_stmt)) def -> opt_all stmt_free def ->
  In u (frees (lower (KSwitch (c_expr (G ++ Gm) v) (map (fun c => (map (c_case S (G ++ Gm)) (fst c), c_stmts (G ++ Gm) (snd c))) cases)
                 (option_map (c_stmts (G ++ Gm)) def))) k) -> cov G u \/ In u k.
Proof.
  intros G v cases def u k P K1 E1 K2 E2 E3 F2 K3 E4 F3 U. rewrite lower_eq in U. cbn [frees fold_right free] in U.
  rewrite app_nil_r, !in_app_iff in U. destruct U as [U | [U | U]]; [left; eapply value_cov; eauto | | now right]. left.
  change (In u (frees (map case_tree (map (fun c => (map (c_case S (G ++ Gm)) (fst c), c_stmts (G ++ Gm) (snd c))) cases)
                        ++ default_tree (option_map (c_stmts (G ++ Gm)) def)) [])) in U.
  apply frees_in in U.
  - destruct U as [[] | (s & I & U)]. apply in_app_or in I as [I | I].
    + apply in_map_iff in I as (c & <- & I). apply in_map_iff in I as (c' & <- & I). unfold case_tree in U. cbn [fst snd] in U.
      rewrite all_in in K2, E2, E3. rewrite Forall_forall in F2. specialize (K2 _ I). specialize (E2 _ I). specialize (E3 _ I).
      specialize (F2 _ I). cbn beta in *. destruct K2 as [K2 K2'].
      apply labelled_free in U as [(x & X & U) | U].
      * apply in_map_iff in X as (y & <- & Y). rewrite case_value in U. rewrite all_in in K2, E2. eapply label_cov; [exact P | apply (K2 _ Y) | apply (E2 _ Y) | exact U].
      * rewrite frees_block, app_nil_r, frees_app, frees_pads in U. cbn [frees fold_right free] in U. eapply body_free; eauto.
    + destruct def as [b |]; [| destruct I]. destruct I as [<- | []]. rewrite free_default, frees_block, !app_nil_r, frees_pads in U.
      eapply body_free; eauto.
  - intros s I k' X. apply in_app_or in I as [I | I].
    + apply in_map_iff in I as (c & <- & I). apply labelled_split; [| exact X]. intros k0 u0. rewrite !frees_block, !in_app_iff. tauto.
    + destruct def as [b |]; [| destruct I]. destruct I as [<- | []]. cbn [free] in *. rewrite !in_app_iff in *. tauto.
Qed.
Lemma chain_free : forall G v def, private G -> ok_value S (G ++ Gm) v -> each_expr given_expr v ->
  all_opt (ok_stmts S (G ++ Gm)) def -> all_opt (all (each_stmt given_expr given_stmt)) def -> opt_all stmt_free def ->
  forall cases u k,
  all (fun c => all (ok_case S (G ++ Gm)) (fst c) /\ ok_stmts S (G ++ Gm) (snd c)) cases ->
  all (fun c => all given_label (fst c)) cases -> all (fun c => all (each_stmt given_expr given_stmt) (snd c)) cases ->
  Forall (fun c => Forall stmt_free (snd c)) cases ->
  In u (frees (lower (chain (G ++ Gm) v def cases)) k) -> cov G u \/ In u k.
Proof.
  intros G v def P K1 E1 K3 E4 F3.
  induction cases as [| c r IH]; intros u k K2 E2 E3 F2 U; [cbn in U; now right |].
  destruct K2 as [[K2 K2'] Kr], E2 as [E2 Er], E3 as [E3 Er']. inversion F2 as [| ? ? F2' Fr]; subst.
  assert (A : forall u, In u (uses (c_any S (G ++ Gm) (c_expr (G ++ Gm) v) (fst c))) -> cov G u).
  { apply any_cov; auto. intros u' U'. eapply value_cov; eauto. }
  assert (B : forall u, In u (free (XBlock (lowers (c_stmts (G ++ Gm) (snd c)))) []) -> cov G u) by (intros u'; now apply block_cov).
  destruct r as [| c' r].
  - cbn [chain] in U. rewrite lower_eq in U. cbn [frees fold_right free] in U. rewrite !in_app_iff in U.
    destruct U as [U | [[U | []] | [U | U]]]; [left; now apply A | left; apply B; cbn [free]; rewrite app_nil_r; exact U | | now right].
    left. destruct def as [b |]; cbn [option_map] in U; [| destruct U]. exact (block_cov b F3 G u P K3 E4 U).
  - change (chain (G ++ Gm) v def (c :: c' :: r))
      with (KIf (c_any S (G ++ Gm) (c_expr (G ++ Gm) v) (fst c)) (c_stmts (G ++ Gm) (snd c)) (Some [chain (G ++ Gm) v def (c' :: r)])) in U.
    rewrite lower_eq in U. cbn [frees fold_right free option_map lowers] in U. rewrite !in_app_iff in U.
    destruct U as [U | [[U | []] | [[U | []] | U]]]; [left; now apply A | left; apply B; cbn [free]; rewrite app_nil_r; exact U | | now right].
    rewrite app_nil_r in U. change (In u (frees (lower (chain (G ++ Gm) v def (c' :: r))) [])) in U. apply IH in U; auto.
    destruct U as [U | []]. now left.
Qed.
Lemma ok_stmt_eq : forall G s, ok_stmt S G s <->
  match s with
  | SIf c b e => ok_value S G c /\ ok_stmts S G b /\ all_opt (ok_stmts S G) e
  | SFor i c a b =>
      let G := init_declares i ++ G in
      all_opt (ok_init S G) i /\ all_opt (ok_cond S G) c /\ all_opt (ok_value S G) a /\ ok_stmts S G b
  | SWhile c b => ok_cond S G c /\ ok_stmts S G b
  | SSwitch is_str v cases def =>
      ok_value S G v
      /\ all (fun c => all (ok_case S G) (fst c) /\ ok_stmts S G (snd c) /\ (is_str = true -> fst c <> [])) cases
      /\ all_opt (ok_stmts S G) def
      /\ (is_str = true -> cases <> [])
  | s => ok_stmt S G s
  end.
Proof. intros G []; reflexivity. Qed.

Lemma one_decl : forall G d f v k u, private (d :: G) -> cf_name f = d_name d ->
  (forall u, In u (sizes f) -> cov G u) -> (forall u, In u (opt_uses v) -> cov (d :: G) u) ->
  In u (declarator (f, v) k) -> cov G u \/ (In u k /\ u <> UName (d_name d)).
Proof.
  intros G d f v k u P N S1 S2 U. unfold declarator in U. cbn [fst snd] in U. apply in_app_or in U as [U | U]; [left; now apply S1 |].
  rewrite N in U. apply hide_in in U as [U D]. apply in_app_or in U as [U | U]; [left; eapply cov_hide; eauto | now right].
Qed.

Lemma stmt_free_all : forall s, stmt_free s.
Proof.
  induction s as [| | v | c b e IHb IHe | i c a b IHb | c b IHb | e | is v cs d IHc IHd | e] using stmt_ind';
    intros G k u P K E U; apply ok_stmt_eq in K; try rewrite c_stmt_eq in U.
  - right. split; [exact U | intros ? []].
  - right. split; [exact U | intros ? []].
  - destruct E as [[E1 E2] [E3 E4]]. cbn [ok_stmt] in K. cbv zeta in K. destruct K as (K1 & K2 & K3).
    set (d := local (v_type v) (v_form v)) in *. change (declares (SVarDecl v)) with [d] in *. cbn [app] in K2, K3.
    cbn [SpecTarget.c_stmt] in U. cbv zeta in U. rewrite lower_eq in U. cbn [combine frees fold_right free] in U.
    assert (P' : private (d :: G)) by (constructor; [reflexivity | exact P]).
    destruct U as [<- | U]; [left; right; now apply E1 |].
    eapply one_decl in U; [| exact P' | reflexivity | |].
    + destruct U as [U | [U N]]; [now left | right; split; [exact U |]]. intros d' [<- | []]. exact N.
    + intros u'. exact (form_cov d G _ _ P' K2 E3 E2 u').
    + intros u'. exact (opt_cov (d :: G) _ P' K3 E4 u').
  - destruct K as (K1 & K2 & K3), E as (_ & E1 & E2 & E3). rewrite lower_eq in U. cbn [frees fold_right free] in U.
    rewrite !in_app_iff in U. destruct U as [U | [[U | []] | [U | U]]].
    + left. eapply value_cov; eauto.
    + left. exact (body_free b IHb G u P K2 E2 U).
    + left. destruct e as [e |]; cbn [option_map] in U; [| destruct U]. exact (block_cov e IHe G u P K3 E3 U).
    + right. split; [exact U | intros ? []].
  - cbv zeta in K, U. destruct K as (K1 & K2 & K3 & K4), E as (E0 & E1 & E2 & E3 & E4).
    rewrite lower_eq in U. cbn [frees fold_right free] in U. apply in_app_or in U as [U | U]; [| right; split; [exact U | intros ? []]].
    left. assert (P' : private (init_declares i ++ G)).
    { destruct i as [[? | t f x] |]; cbn; auto. constructor; [reflexivity | exact P]. }
    rewrite app_assoc in K1, K2, K3, K4, U.
    assert (R : forall u, In u (opt_uses (option_map (c_expr ((init_declares i ++ G) ++ Gm)) c)
                  ++ opt_uses (option_map (c_expr ((init_declares i ++ G) ++ Gm)) a)
                  ++ fold_right (fun s r => free s r) [] (lowers (c_stmts ((init_declares i ++ G) ++ Gm) b)) ++ []) -> cov (init_declares i ++ G) u).
    { intros u' U'. rewrite !in_app_iff in U'. destruct U' as [U' | [U' | [U' | []]]].
      - eapply opt_cov; [exact P' | | exact E2 | exact U']. destruct c; cbn in *; auto. now apply cond_value.
      - eapply opt_cov; eauto.
      - exact (body_free b IHb _ u' P' K4 E4 U'). }
    destruct i as [[x | t f x] |]; cbn [for_clause option_map init_declares app c_forinit] in *.
    + apply in_app_or in U as [U | U]; [eapply value_cov; eauto | now apply R].
    + destruct E0 as [E0 E0'], E1 as [E1 E1'], K1 as (K1 & K1' & K1''). cbn [cv_type cv_form cv_value] in U.
      destruct U as [<- | U]; [right; now apply E0 |].
      eapply one_decl in U; [| exact P' | reflexivity | |].
      * destruct U as [U | [U N]]; [exact U |]. apply R in U. eapply cov_hide; eauto.
      * intros u'. exact (form_cov (local t f) G _ _ P' K1' E1 E0' u').
      * intros u'. exact (value_cov (local t f :: G) _ P' K1'' E1' u').
    + now apply R.
  - destruct K as (K1 & K2), E as (_ & E1 & E2). rewrite lower_eq in U. cbn [frees fold_right free] in U.
    rewrite !in_app_iff in U. destruct U as [U | [[U | []] | U]].
    + left. eapply value_cov; eauto. now apply cond_value.
    + left. exact (body_free b IHb G u P K2 E2 U).
    + right. split; [exact U | intros ? []].
  - destruct E as [_ E]. cbn [ok_stmt SpecTarget.c_stmt] in K, U. rewrite lower_eq in U.
    destruct e as [e |]; cbn [option_map frees fold_right free opt_uses app] in U.
    + apply in_app_or in U as [U | U]; [left; eapply value_cov; eauto | right; split; [exact U | intros ? []]].
    + right. split; [exact U | intros ? []].
  - destruct K as (K1 & K2 & K3 & _), E as (E0 & E1 & E2 & E3). cbn [given_stmt] in E0.
    assert (K2' : all (fun c => all (ok_case S (G ++ Gm)) (fst c) /\ ok_stmts S (G ++ Gm) (snd c)) cs).
    { rewrite all_in in *. intros x X. destruct (K2 x X) as (? & ? & _). auto. }
    assert (H : cov G u \/ In u k); [| destruct H as [H | H]; [now left | right; split; [exact H | intros ? []]]].
    destruct is; [eapply chain_free | eapply switch_free]; eauto.
  - destruct E as [_ E].
    assert (H : cov G u \/ In u k); [| destruct H as [H | H]; [now left | right; split; [exact H | intros ? []]]].
    assert (O : ok_value S (G ++ Gm) e -> In u (frees (lower (KExpr (c_expr (G ++ Gm) e))) k) -> cov G u \/ In u k).
    { intros V X. rewrite lower_eq in X. cbn [frees fold_right free] in X. apply in_app_or in X as [X | X]; [left; eapply value_cov; eauto | now right]. }
    cbn [ok_stmt SpecTarget.c_stmt] in K, U. destruct e; try (now apply O).
    destruct e; try (now apply O). cbn [is_name] in K, U.
    destruct (_ && _) eqn:N; [| now apply O]. eapply panic_cov; eauto. apply E.
Qed.
End Body.
