(** The types that expressions and statements need complete are those the source
    needs. *)
From Verif Require Import Base BaseFacts Buf Nodes NodeInd Resolve Preparser CAst FormatC SpecCStmt CStmtFacts SpecDecl
  SpecModule SpecTarget SpecTyping SpecTame SpecClosed ElabFacts ClosedFacts SpecComplete.

Section Sizes.
Variables (S : site) (known : typename -> Prop) (good : str -> Prop).
Hypothesis Good : forall t, known t -> good (ctn_name (c_type S t)).
Definition known_expr (e : expr) : Prop := match e with ESizeofT t => btf_hops t = 0 -> known (btf_type t) | _ => True end.
Definition known_form (t : typename) (f : form) : Prop := f_hops f = 0 -> known t.
Definition known_stmt (s : stmt) : Prop :=
  match s with
  | SVarDecl v => known_form (v_type v) (v_form v)
  | SFor (Some (FIDecl t f _)) _ _ _ => known_form t f
  | _ => True
  end.
Notation ok l := (forall x, In x l -> good x).
Lemma ok_nil : ok [].
Proof. intros x []. Qed.
Lemma ok_app : forall a b, ok a -> ok b -> ok (a ++ b).
Proof. intros a b A B x I. apply in_app_or in I as [I | I]; auto. Qed.
Lemma ok_flat : forall A (f : A -> list str) l, (forall a, In a l -> ok (f a)) -> ok (flat_map f l).
Proof. intros A f l H x I. apply in_flat_map in I as (a & Ia & I). exact (H a Ia x I). Qed.
Lemma ok_in_app : forall a b, ok (a ++ b) <-> ok a /\ ok b.
Proof. intros a b. split; [intros H; split; intros x I; apply H, in_app_iff; auto | intros [A B]; now apply ok_app]. Qed.

Lemma ok_expr : forall G e, each_expr known_expr e -> ok (measures (c_expr S G e)).
Proof.
  intros G. induction e as [a i IHa IHi | p op a b IHa IHb | p op t f IH | t x IH | es IHe _ | p f args IHf IHa | l | n | op x IH
    | p op x IH | t | x IH] using expr_ind'; intros [C H]; cbn [c_expr measures].
  - apply ok_app; tauto.
  - apply ok_app; tauto.
  - auto.
  - auto.
  - rewrite Forall_forall in IHe. rewrite all_in in H. apply ok_flat. intros y Y. apply in_map_iff in Y as ([[b k] v] & <- & Y). cbn [fst snd].
    apply ok_app; [| exact (IHe _ Y (H _ Y))]. destruct k as [k |]; cbn [option_map]; [| apply ok_nil]. destruct k; apply ok_nil.
  - destruct H as [H1 H2]. rewrite Forall_forall in IHa. rewrite all_in in H2. apply ok_app.
    + destruct (is_name f "calloc!"); [apply ok_nil | auto].
    + apply ok_flat. intros y Y. apply in_map_iff in Y as (a & <- & Y). exact (IHa a Y (H2 a Y)).
  - apply ok_nil.
  - apply ok_nil.
  - auto.
  - auto.
  - unfold measured. cbn [c_btf cbtf_hops cbtf_type]. cbn [known_expr] in C. destruct (btf_hops t); [| apply ok_nil]. intros x [<- | []]. auto.
  - auto.
Qed.
Lemma ok_opt : forall G e, all_opt (each_expr known_expr) e -> ok (opt_measures (option_map (c_expr S G) e)).
Proof. intros G [e |] H; [now apply ok_expr | apply ok_nil]. Qed.
Lemma ok_form : forall G name f, each_form known_expr f -> ok (form_measures (c_form S G name f)).
Proof.
  intros G name f H. unfold form_measures. apply ok_flat. cbn [c_form cf_indexes]. intros o I. apply in_map_iff in I as (e & <- & I).
  unfold each_form in H. rewrite all_in in H. now apply ok_opt, H.
Qed.
Lemma ok_object : forall G name t f, known_form t f -> ok (object (c_type S t) (c_form S G name f)).
Proof.
  intros G name t f H. unfold object. cbn [c_form cf_stars]. unfold known_form in H. destruct (f_hops f); [| apply ok_nil]. intros x [<- | []]. auto.
Qed.
Lemma ok_declares : forall G name t f v, known_form t f -> each_form known_expr f -> all_opt (each_expr known_expr) v ->
  ok (declares_object (c_type S t) (c_form S G name f, option_map (c_expr S G) v)).
Proof. intros G name t f v H1 H2 H3. unfold declares_object. cbn [fst snd]. apply ok_app; [now apply ok_object |]. apply ok_app; [now apply ok_form | now apply ok_opt]. Qed.

Notation body_needs G l := (flat_map stmt_needs (lowers (c_stmts S G l))).
Definition stmt_ok (s : stmt) : Prop := forall G, each_stmt known_expr known_stmt s -> ok (flat_map stmt_needs (lower (c_stmt S G s))).
Lemma ok_body : forall l, Forall stmt_ok l -> forall G, all (each_stmt known_expr known_stmt) l -> ok (body_needs G l).
Proof.
  induction 1 as [| s l Hs Hl IH]; intros G E; [apply ok_nil |]. destruct E as [E E']. cbn [c_stmts lowers]. rewrite flat_map_app.
  apply ok_app; [now apply Hs | now apply IH].
Qed.
Lemma needs_pads : forall l, flat_map stmt_needs (pads l) = flat_map stmt_needs (lowers l).
Proof. induction l as [| s l IH]; cbn [pads lowers]; [reflexivity |]. rewrite !flat_map_app. cbn [flat_map stmt_needs app]. now rewrite IH. Qed.
Lemma needs_block : forall l, stmt_needs (XBlock l) = flat_map stmt_needs l.
Proof. reflexivity. Qed.
Lemma ok_value_c : forall G v, ok (measures (c_value S G v)).
Proof. intros G [n | l]; apply ok_nil. Qed.
Lemma ok_any : forall G x vs, ok (measures x) -> ok (measures (c_any S G x vs)).
Proof.
  intros G x vs Hx. assert (E : forall v, ok (measures (c_equals S G x v))).
  { intros v. cbn. intros z Z. rewrite app_nil_r in Z. apply in_app_or in Z as [Z | Z]; [exfalso; destruct v; destruct Z | auto]. }
  destruct vs as [| v vs]; [apply ok_nil |]. cbn [c_any]. generalize (c_equals S G x v), (E v). induction vs as [| v' vs IH]; intros acc Ha; cbn [fold_left]; [exact Ha |].
  apply IH. cbn [measures]. apply ok_app; [exact Ha | exact (E v')].
Qed.
Lemma ok_labelled : forall vs s, ok (stmt_needs s) -> (forall v, In v vs -> ok (measures (label_expr v))) -> ok (stmt_needs (labelled vs s)).
Proof.
  induction vs as [| v vs IH]; intros s H V; cbn [labelled fold_right]; [exact H |]. cbn [stmt_needs]. apply ok_app; [apply V; now left |].
  apply IH; [exact H |]. intros v' I. apply V. now right.
Qed.
Lemma ok_chain : forall G v def, ok (measures (c_expr S G v)) -> (forall b, def = Some b -> ok (body_needs G b)) ->
  forall cases, (forall c, In c cases -> ok (body_needs G (snd c))) -> ok (flat_map stmt_needs (lower (chain S G v def cases))).
Proof.
  intros G v def Hv Hd. induction cases as [| c r IH]; intros Hc; [apply ok_nil |].
  assert (A : ok (measures (c_any S G (c_expr S G v) (fst c)))) by now apply ok_any.
  assert (B : ok (body_needs G (snd c))) by (apply Hc; now left). destruct r as [| c' r].
  - cbn [chain]. rewrite lower_eq. cbn [flat_map]. rewrite app_nil_r. cbn [stmt_needs]. apply ok_app; [exact A |]. apply ok_app; [exact B |].
    destruct def as [b |]; cbn [option_map]; [apply Hd; reflexivity | apply ok_nil].
  - change (chain S G v def (c :: c' :: r)) with (KIf (c_any S G (c_expr S G v) (fst c)) (c_stmts S G (snd c)) (Some [chain S G v def (c' :: r)])).
    rewrite lower_eq. cbn [flat_map]. rewrite app_nil_r. cbn [stmt_needs option_map lowers]. apply ok_app; [exact A |]. apply ok_app; [exact B |].
    rewrite app_nil_r. apply IH. intros c0 I. apply Hc. now right.
Qed.
Lemma stmt_ok_all : forall s, stmt_ok s.
Proof.
  induction s as [| | v | c b e IHb IHe | i c a b IHb | c b IHb | e | is v cs d IHc IHd | e] using stmt_ind'; intros G E; try rewrite c_stmt_eq.
  - apply ok_nil.
  - apply ok_nil.
  - destruct E as [E1 [E2 E3]]. cbn [c_stmt]. cbv zeta. rewrite lower_eq. cbn [combine flat_map stmt_needs]. rewrite !app_nil_r. now apply ok_declares.
  - destruct E as (_ & E1 & E2 & E3). rewrite lower_eq. cbn [flat_map stmt_needs]. rewrite app_nil_r. apply ok_app; [now apply ok_expr |].
    apply ok_app; [now apply ok_body |]. destruct e as [e |]; cbn [option_map]; [now apply ok_body | apply ok_nil].
  - destruct E as (E0 & E1 & E2 & E3 & E4). cbv zeta. rewrite lower_eq. cbn [flat_map stmt_needs]. rewrite app_nil_r.
    apply ok_app; [| apply ok_app; [now apply ok_opt |]; apply ok_app; [now apply ok_opt | now apply ok_body]].
    destruct i as [[x | t f x] |]; cbn [option_map c_forinit init_needs]; [now apply ok_expr | | apply ok_nil].
    cbn [cv_type cv_form cv_value]. destruct E1 as [E1 E1']. exact (ok_declares _ _ t f (Some x) E0 E1 E1').
  - destruct E as (_ & E1 & E2). rewrite lower_eq. cbn [flat_map stmt_needs]. rewrite app_nil_r. apply ok_app; [now apply ok_expr | now apply ok_body].
  - destruct E as (_ & E1). cbn [c_stmt]. rewrite lower_eq. destruct e as [e |]; cbn [option_map flat_map stmt_needs opt_measures].
    + rewrite app_nil_r. now apply ok_expr.
    + apply ok_nil.
  - destruct E as (_ & E1 & E2 & E3). rewrite Forall_forall in IHc. rewrite all_in in E2.
    assert (Hc : forall c, In c cs -> ok (body_needs G (snd c))) by (intros c I; apply ok_body; auto).
    assert (Hd : forall b, d = Some b -> ok (body_needs G b)) by (intros b ->; now apply ok_body).
    destruct is; [apply ok_chain; auto; now apply ok_expr |]. rewrite lower_eq. cbn [flat_map]. rewrite app_nil_r. cbn [stmt_needs].
    apply ok_app; [now apply ok_expr |]. rewrite flat_map_app. apply ok_app.
    + apply ok_flat. intros t I. apply in_map_iff in I as (c & <- & I). apply in_map_iff in I as (c' & <- & I). unfold case_tree. cbn [fst snd].
      apply ok_labelled.
      * rewrite needs_block, flat_map_app, needs_pads. apply ok_app; [now apply Hc | apply ok_nil].
      * intros v' V. apply in_map_iff in V as (v0 & <- & _). destruct v0; apply ok_nil.
    + destruct d as [b |]; cbn [option_map default_tree]; [| apply ok_nil]. cbn [flat_map stmt_needs]. rewrite app_nil_r.
      rewrite needs_pads. now apply Hd.
  - destruct E as [_ E]. assert (O : ok (flat_map stmt_needs (lower (KExpr (c_expr S G e))))).
    { rewrite lower_eq. cbn [flat_map stmt_needs]. rewrite app_nil_r. now apply ok_expr. }
    cbn [c_stmt]. destruct e; try exact O. destruct e; try exact O. destruct (is_name _ "panic"); [| exact O].
    unfold c_panic. rewrite lower_eq. cbn [flat_map]. rewrite app_nil_r, needs_block. cbn. repeat rewrite ?app_nil_r. destruct E as [_ [_ E]]. rewrite all_in in E.
    intros x I. apply in_flat_map in I as (y & Y & I). apply in_map_iff in Y as (z & <- & Z). exact (ok_expr G z (E _ Z) x I).
Qed.
Lemma ok_stmts_c : forall l G, all (each_stmt known_expr known_stmt) l -> ok (body_needs G l).
Proof. intros l. apply ok_body. apply Forall_forall. intros s _. apply stmt_ok_all. Qed.
Lemma ok_entry : forall G en, match en with
    | StPlain t => all (known_form (taf_type t)) (taf_forms t)
    | StUnion u => all (fun p => known_form (fst p) (snd p)) (u_fields u)
    end -> each_field known_expr en -> ok (flat_map member_needs (c_struct_entry S G en)).
Proof.
  intros G [t | u] H E; cbn [c_struct_entry each_field] in *.
  - apply ok_flat. intros it I. apply in_map_iff in I as (x & <- & I). unfold c_fields in I. apply in_map_iff in I as (f & <- & I).
    rewrite all_in in *. cbn [member_needs ctf_type ctf_form]. apply ok_app; [now apply ok_object, H | now apply ok_form, E].
  - destruct E as [E1 E2]. cbn [flat_map member_needs]. rewrite app_nil_r. apply ok_app; [now apply ok_form |]. apply ok_flat.
    intros q I. apply in_map_iff in I as (r & <- & I). cbn [fst snd]. rewrite all_in in *. apply ok_app; [now apply ok_object, H | now apply ok_form, E2].
Qed.
End Sizes.
