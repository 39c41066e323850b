(** What belongs to the grammar is accepted by the parser: expressions. *)
From Verif Require Import Base Buf Lexer Nodes Cursor Resolve Cspec Preparser Parser BaseFacts SpecGrammar GrammarSound.

Lemma bind_eval A B (m : M A) (k : A -> M B) c a c' : m c = (Ok a, c') -> bind m k c = k a c'.
Proof. unfold bind. intros ->. reflexivity. Qed.

Section Complete.
Variable ctx : parsectx.
Variable p : pos.
Notation e := (EndEof p).
Notation cur l := (mkCur l e).

Lemma We_eof : forall t, e = EndStuck t -> t_kind t = "error"%string.
Proof. discriminate. Qed.

(** ** Reading single tokens *)
Lemma expect_ev k w t r : is k t -> expect k w (cur (t :: r)) = (Ok t, cur r).
Proof.
  intros H. unfold expect, more, peek_unwrap, get_unwrap. cbn. apply kind_is_true in H. rewrite H. reflexivity.
Qed.
Lemma get_ev t r : get (cur (t :: r)) = (Ok (Some t), cur r).
Proof. reflexivity. Qed.
Lemma get_unwrap_ev w t r : get_unwrap w (cur (t :: r)) = (Ok t, cur r).
Proof. reflexivity. Qed.
Lemma peek_unwrap_ev w t r : peek_unwrap w (cur (t :: r)) = (Ok t, cur (t :: r)).
Proof. reflexivity. Qed.
Lemma peek_ev t r : peek (cur (t :: r)) = (Ok (Some t), cur (t :: r)).
Proof. reflexivity. Qed.
Lemma more_ev t r : more (cur (t :: r)) = (Ok true, cur (t :: r)).
Proof. reflexivity. Qed.
Lemma unget_ev t r : unget t (cur r) = (Ok tt, cur (t :: r)).
Proof. reflexivity. Qed.
Lemma follows_ev k l : follows k (cur l) = (Ok (head_kind k l), cur l).
Proof. destruct l; reflexivity. Qed.
Lemma follows_yes k t r : is k t -> follows k (cur (t :: r)) = (Ok true, cur (t :: r)).
Proof. intros H. rewrite follows_ev. cbn. apply kind_is_true in H. now rewrite H. Qed.
Lemma follows_no k l : head_kind k l = false -> follows k (cur l) = (Ok false, cur l).
Proof. intros H. now rewrite follows_ev, H. Qed.
Lemma eat_yes k t r : is k t -> eat k (cur (t :: r)) = (Ok true, cur r).
Proof. intros H. unfold eat. erewrite bind_eval by now apply follows_yes. reflexivity. Qed.
Lemma eat_no k l : head_kind k l = false -> eat k (cur l) = (Ok false, cur l).
Proof. intros H. unfold eat. erewrite bind_eval by now apply follows_no. reflexivity. Qed.
Lemma type_follows_ok l : exists b, type_follows ctx (cur l) = (Ok b, cur l) /\ (b = true <-> type_start ctx l).
Proof.
  assert (H : exists b, type_follows ctx (cur l) = (Ok b, cur l)).
  { unfold type_follows. destruct l as [|t r]; [eexists; reflexivity|].
    erewrite bind_eval by apply peek_ev. cbv beta iota. destruct (kind_is t "const"); [eexists; reflexivity|].
    destruct (negb (kind_is t "word")); [eexists; reflexivity|].
    unfold bind, peekn. cbn [c_toks c_end]. destruct (Nat.leb 3 (List.length (t :: r))).
    - destruct (qualified_type ctx (firstn 3 (t :: r))); eexists; reflexivity.
    - eexists; reflexivity. }
  destruct H as [b H]. exists b. split; auto. apply type_follows_sound in H; [tauto|apply We_eof].
Qed.
Lemma type_yes l : type_start ctx l -> type_follows ctx (cur l) = (Ok true, cur l).
Proof. intros H. destruct (type_follows_ok l) as (b & E & Hb). apply Hb in H as ->. exact E. Qed.
Lemma type_no l : ~ type_start ctx l -> type_follows ctx (cur l) = (Ok false, cur l).
Proof. intros H. destruct (type_follows_ok l) as (b & E & Hb). destruct b; auto. exfalso. apply H, Hb. auto. Qed.

(** ** Lists of tokens *)
Lemma head_starts ks k ts r : starts ks ts -> ~ In k ks -> head_kind k (ts ++ r) = false.
Proof. intros (t & r' & -> & H) Hn. cbn. apply kind_is_false. unfold is. congruence. Qed.
Lemma head_is k k' t r : is k t -> k <> k' -> head_kind k' (t :: r) = false.
Proof. unfold is. intros <- H. cbn. unfold kind_is. now apply String.eqb_neq. Qed.
Lemma kind_no k k' t : is k t -> k <> k' -> kind_is t k' = false.
Proof. unfold is, kind_is. intros <- H. now apply String.eqb_neq. Qed.
Lemma kind_yes k t : is k t -> kind_is t k = true.
Proof. apply kind_is_true. Qed.

(** [m] with enough fuel reads from [l] to [r] and ends with [o]. *)
Definition ends_in {A} (m : nat -> M A) (l : list token) (o : outcome A) (r : list token) : Prop :=
  exists F, forall f, F <= f -> m f (cur l) = (o, cur r).
(** It returns [a]. *)
Definition ev {A} (m : nat -> M A) (l : list token) (a : A) (r : list token) : Prop := ends_in m l (Ok a) r.

(** ** Names and types *)
Lemma read_ns_id_ev ts n r : name_of ctx ts n -> no_dot ctx ts r -> read_ns_id ctx (cur (ts ++ r)) = (Ok n, cur r).
Proof.
  intros Hn Hd. unfold read_ns_id. destruct Hn as [w Hw|w d x Hw Hns Hdot Hx]; cbn [app].
  - erewrite bind_eval by now apply expect_ev. cbv beta iota zeta. destruct (is_imported_ns ctx (t_content w)) eqn:E; auto.
    apply imported_namespace in E. unfold bind, peekn. cbn [c_toks c_end].
    destruct (Nat.leb 2 (List.length r)) eqn:E2; auto. apply Nat.leb_le in E2.
    destruct r as [|d [|x r]]; try (cbn in E2; lia). cbn [firstn].
    destruct (kind_is d "." && kind_is x "word") eqn:E3; auto.
    apply andb_true_iff in E3. rewrite !kind_is_true in E3. exfalso. eapply Hd; eauto.
  - erewrite bind_eval by now apply expect_ev. cbv beta iota zeta. apply imported_namespace in Hns. rewrite Hns.
    unfold bind, peekn. cbn. apply kind_is_true in Hdot, Hx. rewrite Hdot, Hx. reflexivity.
Qed.
Lemma parse_typename_ev ts n r : typename_of ctx ts n -> head_kind "." r = false ->
  parse_typename ctx (cur (ts ++ r)) = (Ok n, cur r).
Proof.
  intros Hn Hr. assert (Hd : forall ts, no_dot ctx ts r).
  { intros ts' w d x r' _ _ _ -> [A _]. cbn in Hr. apply kind_is_false in Hr. contradiction. }
  unfold parse_typename. destruct Hn as [ts n Hn|c ts n Hc Hn].
  - destruct (name_nonempty _ _ _ Hn) as (t & ts' & -> & Ht).
    erewrite bind_eval by (apply eat_no; eapply head_is; [eassumption|discriminate]). cbv beta iota.
    erewrite bind_eval by (apply read_ns_id_ev; eauto). reflexivity.
  - cbn [app]. erewrite bind_eval by now apply eat_yes. cbv beta iota.
    erewrite bind_eval by (apply read_ns_id_ev; eauto). reflexivity.
Qed.
Lemma count_stars_ev ss n r : stars_of ss n -> head_kind "*" r = false -> forall k,
  ev (fun f => count_stars f k) (ss ++ r) (k + n) r.
Proof.
  intros [Hs Hl] Hr. revert n Hl. induction Hs as [|s ss H Hs IH]; intros n <- k.
  - exists 1. intros f Hf. destruct f as [|f]; [lia|]. cbn [count_stars app].
    erewrite bind_eval by now apply follows_no. cbn [List.length]. rewrite Nat.add_0_r. reflexivity.
  - destruct (IH _ eq_refl (S k)) as [F HF]. exists (S F). intros f Hf. destruct f as [|f]; [lia|]. cbn [count_stars app].
    erewrite bind_eval by now apply follows_yes. cbv beta iota. erewrite bind_eval by apply get_ev. cbv beta iota.
    rewrite HF by lia. cbn [List.length]. do 2 f_equal. lia.
Qed.
Lemma typeform_ev ts t r : typeform_of ctx ts t -> head_kind "*" r = false -> head_kind "." r = false ->
  ev (fun f => parse_bare_typeform f ctx) (ts ++ r) t r.
Proof.
  intros [ts' t' ss n Ht Hs] H1 H2. destruct (count_stars_ev ss n r Hs H1 0) as [F HF].
  exists F. intros f Hf. unfold parse_bare_typeform. rewrite <- app_assoc.
  erewrite bind_eval.
  2:{ apply parse_typename_ev; eauto. destruct Hs as [Hs _]. destruct Hs as [|s ss Hs _]; auto.
      cbn [app]. eapply head_is; [eassumption|discriminate]. }
  cbv beta iota. erewrite bind_eval by (apply HF; lia). reflexivity.
Qed.
Lemma parse_literal_ev t x r : literal_of t x -> parse_literal (cur (t :: r)) = (Ok x, cur r).
Proof.
  intros H. unfold parse_literal. erewrite bind_eval by apply peek_unwrap_ev. cbv beta iota.
  destruct H as [t H|t H|t H]; rewrite ?(kind_yes _ _ H).
  - reflexivity.
  - rewrite (kind_no _ "string" _ H) by discriminate. reflexivity.
  - rewrite (kind_no _ "string" _ H), (kind_no _ "num" _ H) by discriminate. reflexivity.
Qed.

(** ** Expressions *)
Definition postfix_starts : list string := ["("; "["; "++"; "--"; "->"; "."]%string.
(** What follows does not go on with an expression of level [n]. *)
Definition stop (n : nat) (r : list token) : Prop :=
  forall t r', r = t :: r' -> ~ In (t_kind t) postfix_starts /\
    (is_op (t_kind t) = true -> exists s, operator_strength (t_kind t) = Some s /\ s < n).
Lemma stop_mono m n r : m <= n -> stop m r -> stop n r.
Proof. intros Hm H t r' E. destruct (H t r' E) as [A B]. split; auto. intros Ho. destruct (B Ho) as (s & Hs & Hl). exists s. split; auto. lia. Qed.
Lemma stop_nil n : stop n [].
Proof. intros t r' E. discriminate. Qed.
Lemma stop_term n k t r : is k t -> ~ In k postfix_starts -> is_op k = false -> stop n (t :: r).
Proof. unfold is. intros <- Hn Ho t' r' E. injection E as <- <-. split; auto. congruence. Qed.
Lemma stop_binary n op r : binary_op (t_kind op) n -> stop (S n) (op :: r).
Proof.
  intros H. destruct (binary_is_op _ _ H) as (A & B & C). intros t r' E. injection E as <- <-. split.
  - intros Hi. cbn in Hi. repeat (destruct Hi as [Hi|Hi]; [rewrite <- Hi in *; try discriminate; cbn in B; injection B as <-; lia|]). contradiction.
  - intros _. eauto.
Qed.
Lemma seq_stop n a r : stop n r -> ev (fun f => seq_loop ctx f n a) r a r.
Proof.
  intros H. exists 1. intros f Hf. destruct f as [|f]; [lia|]. cbn [seq_loop].
  destruct r as [|t r]; [reflexivity|]. erewrite bind_eval by apply peek_ev. cbv beta iota.
  destruct (H t r eq_refl) as [_ Hs]. destruct (is_op (t_kind t)); cbn [negb]; [|reflexivity].
  destruct (Hs eq_refl) as (s & -> & Hl). replace (Nat.eqb s n) with false; [reflexivity|]. symmetry. apply Nat.eqb_neq. lia.
Qed.
Lemma base_stop n a r : stop n r -> ev (fun f => base_loop ctx f a) r a r.
Proof.
  intros H. exists 1. intros f Hf. destruct f as [|f]; [lia|]. cbn [base_loop].
  destruct r as [|t r]; [reflexivity|]. erewrite bind_eval by apply peek_ev. cbv beta iota.
  destruct (H t r eq_refl) as [Hn _]. unfold postfix_starts in Hn. cbn in Hn. unfold kind_is, is_postfix_op, string_in. cbn [existsb].
  repeat match goal with |- context [String.eqb (t_kind t) ?k] => replace (String.eqb (t_kind t) k) with false
    by (symmetry; apply String.eqb_neq; intros E; rewrite E in Hn; tauto) end. reflexivity.
Qed.
Lemma no_dot_stop n ts r : stop n r -> no_dot ctx ts r.
Proof. intros H w d x r' _ _ _ -> [A _]. destruct (H d _ eq_refl) as [Hn _]. apply Hn. rewrite A. cbn. tauto. Qed.
Lemma no_dot_head ts r : head_kind "." r = false -> no_dot ctx ts r.
Proof. intros H w d x r' _ _ _ -> [A _]. cbn in H. apply kind_is_false in H. contradiction. Qed.

Definition complete_at (n : nat) (ts : list token) (a : expr) : Prop :=
  (n < 13 -> forall r o r', stop (S n) r -> ends_in (fun f => seq_loop ctx f n a) r o r' ->
     ends_in (fun f => parse_seq_expr ctx f n) (ts ++ r) o r') /\
  (n = 13 -> forall r, stop 13 r -> ev (parse_prefix_expr ctx) (ts ++ r) a r) /\
  (n = 14 -> starts ["word"; "num"; "string"; "char"; "("; "{"]%string ts /\ nocast ctx ts /\
     forall r o r', no_dot ctx ts r -> ends_in (fun f => base_loop ctx f a) r o r' -> ends_in (base ctx) (ts ++ r) o r').
Definition args_complete (ts : list token) (l : list expr) : Prop :=
  forall acc rp r, is ")" rp ->
    ev (fun f => bind (parse_expr ctx f 0) (fun a => call_args ctx f (acc ++ [a]))) (ts ++ rp :: r) (acc ++ l) (rp :: r).
Definition full_args_complete (ts : list token) (l : list expr) : Prop :=
  (ts = [] /\ l = []) \/ (starts expr_starts ts /\ args_complete ts l).
Definition entries_complete (ts : list token) (l : list (bool * option expr * expr)) : Prop :=
  forall acc rb r, is "}" rb -> ev (fun f => complit_loop ctx f acc) (ts ++ rb :: r) (EComp (acc ++ l)) r.
Definition entry_complete (ts : list token) (a : bool * option expr * expr) : Prop :=
  starts ("." :: "[" :: expr_starts)%string ts /\
  forall r, stop 0 r -> ev (parse_composite_literal_entry ctx) (ts ++ r) a r.

Lemma complete_parse n ts a r : n <= 13 -> complete_at n ts a -> stop n r -> ev (fun f => parse_expr ctx f n) (ts ++ r) a r.
Proof.
  intros Hn (H1 & H2 & _) Hs. destruct (Nat.eq_dec n 13) as [->|Hne].
  - destruct (H2 eq_refl r Hs) as [F HF]. exists (S F). intros f Hf. destruct f as [|f]; [lia|].
    change (parse_expr ctx (S f) 13) with (parse_prefix_expr ctx f). apply HF. lia.
  - destruct (H1 ltac:(lia) r (Ok a) r) as [F HF].
    + eapply stop_mono; [|eassumption]. lia.
    + now apply seq_stop.
    + exists (S F). intros f Hf. destruct f as [|f]; [lia|]. cbn [parse_expr].
      replace (Nat.ltb n 13) with true by (symmetry; apply Nat.ltb_lt; lia). apply HF. lia.
Qed.
(** Reading on after an atom. *)
Lemma atom_base ts a : (forall r, no_dot ctx ts r -> ev (read_expression_atom ctx) (ts ++ r) a r) ->
  forall r o r', no_dot ctx ts r -> ends_in (fun f => base_loop ctx f a) r o r' -> ends_in (base ctx) (ts ++ r) o r'.
Proof.
  intros H r res r' Hd [F1 H1]. destruct (H r Hd) as [F2 H2]. exists (S (F1 + F2)). intros f Hf. destruct f as [|f]; [lia|].
  cbn [base]. erewrite bind_eval by (apply H2; lia). apply H1. lia.
Qed.
Lemma nocast_app ts r : ts <> [] -> starts ["word"; "num"; "string"; "char"; "("; "{"]%string ts ->
  nocast ctx ts -> (forall x, ts <> [x]) -> nocast ctx (ts ++ r).
Proof.
  intros Hn Hs Hc Hl lp r' E Hlp. destruct ts as [|t [|t' ts]]; [congruence|exfalso; eapply Hl; eauto|].
  cbn in E. injection E as <- <-. specialize (Hc t (t' :: ts) eq_refl Hlp). intros (y & ys & Ey & A & B). injection Ey as <- <-.
  apply Hc. exists t', ts. auto.
Qed.
Lemma not_paren_single ts a : expr_of ctx 14 ts a -> forall x, ts = [x] -> ~ is "(" x.
Proof.
  intros H. remember 14 as n eqn:En. induction H; intros y E; try discriminate; try lia; subst.
  all: try (destruct ts; discriminate).
  all: try (exfalso; destruct ts; cbn in E; [match goal with He : expr_of _ _ [] _ |- _ => now apply expr_nil in He end|
         injection E as <- E; destruct ts; discriminate]).
  - inversion H; subst; unfold is in *; congruence.
  - injection E as <-. destruct H; unfold is in *; congruence.
Qed.

Ltac ev1 tac := erewrite bind_eval by tac; cbv beta iota zeta.
Ltac norm := cbn [app]; repeat (rewrite <- !app_assoc; cbn [app]).
Ltac fuel F := exists F; let f := fresh "f" in let Hf := fresh "Hf" in intros f Hf; destruct f as [|f]; [lia|].
Ltac exp_ := ev1 ltac:(now apply expect_ev).
Ltac get_ := ev1 ltac:(apply get_ev).
Ltac use H := ev1 ltac:(apply H; lia).

Lemma C_up n ts a : n < 14 -> expr_of ctx (S n) ts a -> complete_at (S n) ts a -> complete_at n ts a.
Proof.
  intros Hn He H. repeat split.
  - intros Hlt r res r' Hs [F1 H1]. destruct (complete_parse (S n) ts a r ltac:(lia) H Hs) as [F2 H2].
    fuel (S (F1 + F2)). cbn [parse_seq_expr]. use H2. apply H1. lia.
  - intros -> r Hs. destruct H as (_ & _ & H). destruct (H eq_refl) as (Hst & Hnc & Hb).
    destruct (Hb r (Ok a) r) as [F HF]. { eapply no_dot_stop; eauto. } { eapply base_stop; eauto. }
    fuel (S F). pose proof (not_paren_single _ _ He) as Hp. cbn [parse_prefix_expr].
    destruct Hst as (t & ts' & -> & Ht). cbn [app] in *. ev1 ltac:(apply get_unwrap_ev).
    replace (is_prefix_op (t_kind t)) with false.
    2:{ cbn in Ht. repeat (destruct Ht as [Ht|Ht]; [rewrite <- Ht; reflexivity|]). contradiction. }
    assert (Hs2 : kind_is t "sizeof" = false).
    { unfold kind_is. cbn in Ht. repeat (destruct Ht as [Ht|Ht]; [rewrite <- Ht; reflexivity|]). contradiction. }
    erewrite (bind_eval _ _ _ _ _ false (cur (ts' ++ r))).
    + cbv beta iota. rewrite Hs2. ev1 ltac:(apply unget_ev). apply HF. lia.
    + destruct (kind_is t "(") eqn:E; [|reflexivity]. apply kind_is_true in E.
      destruct ts' as [|t2 ts']; [exfalso; eapply Hp; eauto|]. cbn [app]. ev1 ltac:(apply peek_unwrap_ev).
      unfold ret. do 2 f_equal. apply not_true_is_false. intros Hc. apply andb_true_iff in Hc as [A B].
      apply kind_is_true in A. apply is_type_name in B. apply (Hnc t (t2 :: ts') eq_refl E). exists t2, ts'. auto.
  - lia.
  - lia.
  - lia.
Qed.
Lemma C_binary n ts op ts' a b : binary_op (t_kind op) n -> complete_at n ts a -> complete_at (S n) ts' b ->
  complete_at n (ts ++ op :: ts') (EBinary (t_pos op) (t_kind op) a b).
Proof.
  intros Ho Ha Hb. destruct (binary_is_op _ _ Ho) as (A & B & C). repeat split; try lia.
  intros Hlt r res r' Hs Hl. destruct Ha as (Ha & _ & _). norm. apply Ha; auto.
  { now apply stop_binary. }
  destruct Hl as [F1 H1]. destruct (complete_parse (S n) ts' b r ltac:(lia) Hb Hs) as [F2 H2].
  fuel (S (F1 + F2)). cbn [seq_loop]. ev1 ltac:(apply peek_ev). rewrite A, B, Nat.eqb_refl. cbn [negb].
  ev1 ltac:(apply get_unwrap_ev). use H2. apply H1. lia.
Qed.
Lemma C_prefix op ts a : prefix_op (t_kind op) -> complete_at 13 ts a -> complete_at 13 (op :: ts) (EPrefix (t_pos op) (t_kind op) a).
Proof.
  intros Ho (_ & H & _). repeat split; try lia. intros _ r Hs. destruct (H eq_refl r Hs) as [F HF].
  fuel (S F). cbn [parse_prefix_expr app]. ev1 ltac:(apply get_unwrap_ev).
  replace (is_prefix_op (t_kind op)) with true by (symmetry; now apply string_in_true). use HF. reflexivity.
Qed.
Lemma typeform_first ts t : typeform_of ctx ts t -> ts <> [].
Proof. intros [ts' t' ss n Ht _] E. apply app_eq_nil in E as [-> _]. apply typename_nonempty in Ht as (? & ? & ?). discriminate. Qed.
Lemma C_cast lp ts rp ts' t a : is "(" lp -> type_first ctx ts -> typeform_of ctx ts t -> is ")" rp -> complete_at 13 ts' a ->
  complete_at 13 (lp :: ts ++ rp :: ts') (ECast t a).
Proof.
  intros Hlp Hf Ht Hrp (_ & H & _). repeat split; try lia. intros _ r Hs. destruct (H eq_refl r Hs) as [F1 H1].
  destruct (typeform_ev ts t (rp :: ts' ++ r) Ht) as [F2 H2].
  { eapply head_is; [eassumption|discriminate]. } { eapply head_is; [eassumption|discriminate]. }
  norm. fuel (S (F1 + F2)). cbn [parse_prefix_expr]. ev1 ltac:(apply get_unwrap_ev).
  replace (is_prefix_op (t_kind lp)) with false by now rewrite Hlp.
  rewrite (kind_yes _ _ Hlp). destruct Hf as (w & ws & -> & Hw & Hty).
  erewrite (bind_eval _ _ _ _ _ true).
  2:{ cbn [app]. ev1 ltac:(apply peek_unwrap_ev). rewrite (kind_yes _ _ Hw). apply is_type_name in Hty. rewrite Hty. reflexivity. }
  cbv beta iota. use H2. exp_. use H1. reflexivity.
Qed.
Lemma C_sizeof_type s0 lp ts rp t : is "sizeof" s0 -> is "(" lp -> type_start ctx ts -> typeform_of ctx ts t -> is ")" rp ->
  complete_at 13 (s0 :: lp :: ts ++ [rp]) (ESizeofT t).
Proof.
  intros Hs0 Hlp Hst Ht Hrp. repeat split; try lia. intros _ r Hs.
  destruct (typeform_ev ts t (rp :: r) Ht) as [F2 H2].
  { eapply head_is; [eassumption|discriminate]. } { eapply head_is; [eassumption|discriminate]. }
  norm. exists (S (S F2)). intros f Hf. destruct f as [|[|f]]; try lia. cbn [parse_prefix_expr]. ev1 ltac:(apply get_unwrap_ev).
  replace (is_prefix_op (t_kind s0)) with false by now rewrite Hs0.
  rewrite (kind_no _ "(" _ Hs0) by discriminate. ev1 ltac:(reflexivity). rewrite (kind_yes _ _ Hs0).
  ev1 ltac:(apply unget_ev). cbn [parse_sizeof]. exp_. exp_.
  ev1 ltac:(apply type_yes; now apply start_mono). erewrite (bind_eval _ _ _ _ _ (ESizeofT t)).
  2:{ use H2. reflexivity. }
  cbv beta. exp_. reflexivity.
Qed.
Lemma expr_ne n ts a : expr_of ctx n ts a -> ts <> [].
Proof. intros H ->. now apply expr_nil in H. Qed.
Lemma C_sizeof_expr s0 lp ts rp a : is "sizeof" s0 -> is "(" lp -> ~ type_start ctx ts -> expr_of ctx 0 ts a ->
  complete_at 0 ts a -> is ")" rp -> complete_at 13 (s0 :: lp :: ts ++ [rp]) (ESizeofE a).
Proof.
  intros Hs0 Hlp Hst He H Hrp. repeat split; try lia. intros _ r Hs.
  destruct (complete_parse 0 ts a (rp :: r) ltac:(lia) H) as [F2 H2].
  { eapply stop_term; [eassumption| |reflexivity]. cbn. intuition discriminate. }
  norm. exists (S (S F2)). intros f Hf. destruct f as [|[|f]]; try lia. cbn [parse_prefix_expr]. ev1 ltac:(apply get_unwrap_ev).
  replace (is_prefix_op (t_kind s0)) with false by now rewrite Hs0.
  rewrite (kind_no _ "(" _ Hs0) by discriminate. ev1 ltac:(reflexivity). rewrite (kind_yes _ _ Hs0).
  ev1 ltac:(apply unget_ev). cbn [parse_sizeof]. exp_. exp_.
  assert (Hst' : ~ type_start ctx (ts ++ rp :: r)).
  { rewrite start_app_iff; auto. { eapply expr_ne; eauto. } all: unfold is in *; congruence. }
  ev1 ltac:(now apply type_no). erewrite (bind_eval _ _ _ _ _ (ESizeofE a)).
  2:{ use H2. reflexivity. }
  cbv beta. exp_. reflexivity.
Qed.
(** A postfix form continues the loop of the expression before it. *)
Lemma C_post ts a ts' b : ts' <> [] -> expr_of ctx 14 ts a -> complete_at 14 ts a ->
  (forall r, no_dot ctx ts (ts' ++ r)) ->
  (forall r o r', ends_in (fun f => base_loop ctx f b) r o r' -> ends_in (fun f => base_loop ctx f a) (ts' ++ r) o r') ->
  complete_at 14 (ts ++ ts') b.
Proof.
  intros Hn He (_ & _ & H) Hd Hl. destruct (H eq_refl) as (Hst & Hnc & Hb). repeat split; try lia.
  - now apply starts_app.
  - intros lp r E Hlp. destruct ts as [|t ts]; [now apply expr_nil in He|]. cbn in E. injection E as <- <-.
    destruct ts as [|t2 ts]; [exfalso; eapply not_paren_single; eauto|].
    specialize (Hnc t (t2 :: ts) eq_refl Hlp). intros (y & ys & Ey & A & B). injection Ey as <- <-. apply Hnc. exists t2, ts. auto.
  - intros r res r' _ Hr. norm. apply Hb; auto.
Qed.
Lemma C_call ts a lp ts' args rp : expr_of ctx 14 ts a -> complete_at 14 ts a -> is "(" lp -> full_args_complete ts' args -> is ")" rp ->
  complete_at 14 (ts ++ lp :: ts' ++ [rp]) (ECall (t_pos lp) a args).
Proof.
  intros He Ha Hlp Hargs Hrp. eapply C_post; eauto; [discriminate| |].
  - intros r. cbn [app]. apply no_dot_head. eapply head_is; [eassumption|discriminate].
  - intros r res r' [F1 H1]. norm.
    assert (Hc : ev (fun f => parse_call ctx f a) (lp :: ts' ++ rp :: r) (ECall (t_pos lp) a args) r).
    { destruct Hargs as [[-> ->]|[Hst Hargs]].
      - fuel 1. cbn [parse_call app]. exp_. ev1 ltac:(apply peek_ev).
        erewrite (bind_eval _ _ _ _ _ [] (cur (rp :: r))).
        + cbv beta. exp_. reflexivity.
        + rewrite (kind_yes _ _ Hrp). reflexivity.
      - destruct (Hargs [] rp r Hrp) as [F2 H2]. fuel (S F2). cbn [parse_call]. exp_.
        destruct Hst as (t & ts2 & -> & Ht). cbn [app] in *. ev1 ltac:(apply peek_ev).
        erewrite (bind_eval _ _ _ _ _ args (cur (rp :: r))).
        + cbv beta. exp_. reflexivity.
        + replace (kind_is t ")") with false.
          * cbn [negb]. apply (H2 f). lia.
          * symmetry. apply kind_is_false. intros E. rewrite E in Ht. cbn in Ht. intuition discriminate. }
    destruct Hc as [F2 H2]. fuel (S (F1 + F2)). cbn [base_loop]. ev1 ltac:(apply peek_ev). rewrite (kind_yes _ _ Hlp).
    use H2. apply H1. lia.
Qed.
Lemma C_index ts a lb ts' i rb : expr_of ctx 14 ts a -> complete_at 14 ts a -> is "[" lb -> complete_at 0 ts' i -> is "]" rb ->
  complete_at 14 (ts ++ lb :: ts' ++ [rb]) (EArrIndex a i).
Proof.
  intros He Ha Hlb Hi Hrb. eapply C_post; eauto; [discriminate| |].
  - intros r. cbn [app]. apply no_dot_head. eapply head_is; [eassumption|discriminate].
  - intros r res r' [F1 H1]. norm. destruct (complete_parse 0 ts' i (rb :: r) ltac:(lia) Hi) as [F2 H2].
    { eapply stop_term; [eassumption| |reflexivity]. cbn. intuition discriminate. }
    fuel (S (F1 + F2)). cbn [base_loop]. ev1 ltac:(apply peek_ev). rewrite (kind_no _ "(" _ Hlb) by discriminate.
    rewrite (kind_yes _ _ Hlb). exp_. use H2. exp_. apply H1. lia.
Qed.
Lemma C_postfix ts a op : expr_of ctx 14 ts a -> complete_at 14 ts a -> postfix_op (t_kind op) ->
  complete_at 14 (ts ++ [op]) (EPostfix (t_kind op) a).
Proof.
  intros He Ha Ho. eapply C_post; eauto; [discriminate| |].
  - intros r. cbn [app]. apply no_dot_head. cbn. apply kind_is_false. intros E. unfold postfix_op in Ho. rewrite E in Ho. cbn in Ho. intuition discriminate.
  - intros r res r' [F1 H1]. cbn [app]. fuel (S F1). cbn [base_loop]. ev1 ltac:(apply peek_ev).
    assert (Hk : kind_is op "(" = false /\ kind_is op "[" = false).
    { split; apply kind_is_false; intros E; unfold postfix_op in Ho; rewrite E in Ho; cbn in Ho; intuition discriminate. }
    destruct Hk as [-> ->]. replace (is_postfix_op (t_kind op)) with true by (symmetry; now apply string_in_true).
    ev1 ltac:(apply get_unwrap_ev). apply H1. lia.
Qed.
Lemma C_field ts a op x : expr_of ctx 14 ts a -> complete_at 14 ts a -> is "->" op \/ is "." op -> is "word" x ->
  ~ (is "." op /\ exists w, ts = [w] /\ is "word" w /\ namespace ctx (t_content w)) ->
  complete_at 14 (ts ++ [op; x]) (EField (t_pos op) (t_kind op) a (t_content x)).
Proof.
  intros He Ha Ho Hx Hns. eapply C_post; eauto; [discriminate| |].
  - intros r w d y r' -> Hw Hn E [A _]. cbn in E. injection E as <- <- <-. apply Hns. eauto.
  - intros r res r' [F1 H1]. cbn [app]. fuel (S F1). cbn [base_loop]. ev1 ltac:(apply peek_ev).
    assert (Hk : kind_is op "(" = false /\ kind_is op "[" = false /\ is_postfix_op (t_kind op) = false /\
       kind_is op "->" || kind_is op "." = true).
    { unfold kind_is, is in *. destruct Ho as [-> | ->]; repeat split; reflexivity. }
    destruct Hk as (-> & -> & -> & ->). ev1 ltac:(apply get_unwrap_ev). exp_. apply H1. lia.
Qed.
Lemma word_not_op ts n : name_of ctx ts n -> starts ["word"; "num"; "string"; "char"; "("; "{"]%string ts /\ nocast ctx ts.
Proof.
  intros H. destruct (name_nonempty _ _ _ H) as (t & r & -> & Ht). split.
  - exists t, r. split; auto. rewrite Ht. cbn. tauto.
  - intros lp r' E Hlp. injection E as <- <-. unfold is in *. congruence.
Qed.
Lemma ns_follows_ev l : exists b, ns_follows ctx (cur l) = (Ok b, cur l) /\
  (b = true <-> exists w r, l = w :: r /\ is "word" w /\ namespace ctx (t_content w)).
Proof.
  assert (H : exists b, ns_follows ctx (cur l) = (Ok b, cur l)).
  { unfold ns_follows. destruct l; eexists; reflexivity. }
  destruct H as [b H]. exists b. split; auto. apply ns_follows_sound in H; [tauto|apply We_eof].
Qed.
Lemma C_name ts n : name_of ctx ts n -> complete_at 14 ts (EName n).
Proof.
  intros H. destruct (word_not_op _ _ H) as [Hst Hnc]. repeat split; try lia; auto.
  apply atom_base. intros r Hd. fuel 1. pose proof (read_ns_id_ev ts n r H Hd) as Hr.
  cbn [read_expression_atom]. destruct (name_nonempty _ _ _ H) as (t & ts' & -> & Ht). cbn [app] in *.
  ev1 ltac:(apply more_ev). cbn [negb]. destruct (ns_follows_ev (t :: ts' ++ r)) as (b & Eb & Hb).
  ev1 ltac:(exact Eb). destruct b.
  - erewrite bind_eval by exact Hr. reflexivity.
  - ev1 ltac:(apply get_unwrap_ev). rewrite (kind_yes _ _ Ht). inversion H; subst.
    + reflexivity.
    + exfalso. assert (false = true); [|discriminate]. apply Hb. eauto.
Qed.
Lemma C_literal t x : literal_of t x -> complete_at 14 [t] (ELit x).
Proof.
  intros H. assert (Hk : is "num" t \/ is "string" t \/ is "char" t) by (destruct H; auto).
  repeat split; try lia.
  - exists t, []. split; auto. cbn. destruct Hk as [-> |[-> | ->]]; tauto.
  - intros lp r E Hlp. injection E as <- <-. unfold is in *. exfalso. intuition congruence.
  - apply atom_base. intros r _. fuel 1. cbn [read_expression_atom app]. ev1 ltac:(apply more_ev). cbn [negb].
    destruct (ns_follows_ev (t :: r)) as (b & Eb & Hb). ev1 ltac:(exact Eb). destruct b.
    { exfalso. destruct (proj1 Hb eq_refl) as (w & r' & E & Hw & _). injection E as <- <-. unfold is in *. intuition congruence. }
    ev1 ltac:(apply get_unwrap_ev).
    replace (kind_is t "word") with false by (unfold kind_is; destruct Hk as [-> |[-> | ->]]; reflexivity).
    replace (kind_is t "num" || kind_is t "string" || kind_is t "char") with true
      by (unfold kind_is; destruct Hk as [-> |[-> | ->]]; reflexivity).
    ev1 ltac:(apply unget_ev). erewrite bind_eval by (apply parse_literal_ev; eassumption). reflexivity.
Qed.
Lemma atom_paren f lp l : is "(" lp -> read_expression_atom ctx (S f) (cur (lp :: l)) =
  match parse_expr ctx f 0 (cur l) with
  | (Abort w, c') => (Abort w, c') | (NoFuel, c') => (NoFuel, c')
  | (e0, c') => match expect ")" (Some "parenthesized expression"%string) c' with
      | (Ok _, c'') => (e0, c'') | (Err x, c'') => (Err x, c'') | (Abort w, c'') => (Abort w, c'') | (NoFuel, c'') => (NoFuel, c'') end
  end.
Proof.
  intros Hlp. cbn [read_expression_atom]. ev1 ltac:(apply more_ev). cbn [negb].
  destruct (ns_follows_ev (lp :: l)) as (b & Eb & Hb). ev1 ltac:(exact Eb). destruct b.
  { exfalso. destruct (proj1 Hb eq_refl) as (w & r' & E & Hw & _). injection E as <- <-. unfold is in *. congruence. }
  ev1 ltac:(apply get_unwrap_ev). rewrite (kind_yes _ _ Hlp).
  rewrite (kind_no _ "word" _ Hlp), (kind_no _ "num" _ Hlp), (kind_no _ "string" _ Hlp), (kind_no _ "char" _ Hlp) by discriminate.
  reflexivity.
Qed.
Lemma C_paren lp ts a rp : is "(" lp -> ~ type_first ctx ts -> expr_of ctx 0 ts a -> complete_at 0 ts a -> is ")" rp ->
  complete_at 14 (lp :: ts ++ [rp]) a.
Proof.
  intros Hlp Hf He H Hrp. repeat split; try lia.
  - exists lp, (ts ++ [rp]). split; auto. rewrite Hlp. cbn. tauto.
  - intros l r E _. injection E as <- <-. rewrite type_first_app; auto. eapply expr_ne; eauto.
  - apply atom_base. intros r _. destruct (complete_parse 0 ts a (rp :: r) ltac:(lia) H) as [F2 H2].
    { eapply stop_term; [eassumption| |reflexivity]. cbn. intuition discriminate. }
    norm. fuel (S F2). rewrite atom_paren by auto. rewrite (H2 f) by lia. rewrite expect_ev by auto. reflexivity.
Qed.
Lemma C_composite lb ts l rb : is "{" lb -> entries_complete ts l -> is "}" rb -> complete_at 14 (lb :: ts ++ [rb]) (EComp l).
Proof.
  intros Hlb H Hrb. repeat split; try lia.
  - exists lb, (ts ++ [rb]). split; auto. rewrite Hlb. cbn. tauto.
  - intros l' r E Hl'. injection E as <- <-. unfold is in *. congruence.
  - apply atom_base. intros r _. destruct (H [] rb r Hrb) as [F2 H2]. norm.
    exists (S (S F2)). intros f Hf. destruct f as [|[|f]]; try lia.
    cbn [read_expression_atom]. ev1 ltac:(apply more_ev). cbn [negb].
    destruct (ns_follows_ev (lb :: ts ++ rb :: r)) as (b & Eb & Hb). ev1 ltac:(exact Eb). destruct b.
    { exfalso. destruct (proj1 Hb eq_refl) as (w & r' & E & Hw & _). injection E as <- <-. unfold is in *. congruence. }
    ev1 ltac:(apply get_unwrap_ev). rewrite (kind_yes _ _ Hlb).
    rewrite (kind_no _ "word" _ Hlb), (kind_no _ "num" _ Hlb), (kind_no _ "string" _ Hlb), (kind_no _ "char" _ Hlb), (kind_no _ "(" _ Hlb) by discriminate.
    cbn [orb]. ev1 ltac:(apply unget_ev). cbn [parse_composite_literal]. exp_. apply H2. lia.
Qed.
Lemma C_args_one ts a : complete_at 0 ts a -> args_complete ts [a].
Proof.
  intros H acc rp r Hrp. destruct (complete_parse 0 ts a (rp :: r) ltac:(lia) H) as [F2 H2].
  { eapply stop_term; [eassumption| |reflexivity]. cbn. intuition discriminate. }
  fuel (S F2). use H2. cbn [call_args]. ev1 ltac:(apply follows_no; eapply head_is; [eassumption|discriminate]). reflexivity.
Qed.
Lemma C_args_more ts a c ts' l : complete_at 0 ts a -> is "," c -> args_complete ts' l -> args_complete (ts ++ c :: ts') (a :: l).
Proof.
  intros H Hc Hl acc rp r Hrp. norm. destruct (complete_parse 0 ts a (c :: ts' ++ rp :: r) ltac:(lia) H) as [F2 H2].
  { eapply stop_term; [eassumption| |reflexivity]. cbn. intuition discriminate. }
  destruct (Hl (acc ++ [a]) rp r Hrp) as [F1 H1].
  fuel (S (F1 + F2)). use H2. cbn [call_args]. ev1 ltac:(now apply follows_yes). get_.
  change (a :: l) with ([a] ++ l). rewrite (app_assoc acc). rewrite <- (H1 f) by lia. reflexivity.
Qed.
Lemma entry_head ts a r : entry_complete ts a -> exists t ts', ts ++ r = t :: ts' /\ kind_is t "}" = false.
Proof.
  intros [(t & ts' & -> & Ht) _]. exists t, (ts' ++ r). split; auto. apply kind_is_false. intros E. rewrite E in Ht. cbn in Ht. intuition discriminate.
Qed.
Lemma C_entries_none : entries_complete [] [].
Proof.
  intros acc rb r Hrb. fuel 1. cbn [complit_loop app]. ev1 ltac:(apply peek_unwrap_ev). rewrite (kind_yes _ _ Hrb). exp_.
  rewrite app_nil_r. reflexivity.
Qed.
Lemma C_entries_one ts a : entry_complete ts a -> entries_complete ts [a].
Proof.
  intros H acc rb r Hrb. destruct (entry_head _ _ (rb :: r) H) as (t & ts' & E & Ht). destruct H as [_ H].
  destruct (H (rb :: r)) as [F HF]. { eapply stop_term; [eassumption| |reflexivity]. cbn. intuition discriminate. }
  fuel (S F). cbn [complit_loop]. rewrite E in *. ev1 ltac:(apply peek_unwrap_ev). rewrite Ht. use HF.
  ev1 ltac:(apply peek_unwrap_ev). rewrite (kind_no _ "," _ Hrb) by discriminate. exp_. reflexivity.
Qed.
Lemma C_entries_more ts a c ts' l : entry_complete ts a -> is "," c -> entries_complete ts' l -> entries_complete (ts ++ c :: ts') (a :: l).
Proof.
  intros H Hc Hl acc rb r Hrb. norm. destruct (entry_head _ _ (c :: ts' ++ rb :: r) H) as (t & ts2 & E & Ht). destruct H as [_ H].
  destruct (H (c :: ts' ++ rb :: r)) as [F HF]. { eapply stop_term; [eassumption| |reflexivity]. cbn. intuition discriminate. }
  destruct (Hl (acc ++ [a]) rb r Hrb) as [F1 H1].
  fuel (S (F + F1)). cbn [complit_loop]. rewrite E in *. ev1 ltac:(apply peek_unwrap_ev). rewrite Ht. use HF.
  ev1 ltac:(apply peek_unwrap_ev). rewrite (kind_yes _ _ Hc). get_.
  change (a :: l) with ([a] ++ l). rewrite (app_assoc acc). apply H1. lia.
Qed.
Lemma C_entry_plain ts a : expr_of ctx 0 ts a -> complete_at 0 ts a -> entry_complete ts (false, None, a).
Proof.
  intros He H. pose proof (expr_start _ _ _ _ He) as Hst. split.
  - eapply starts_sub; [|eassumption]. cbn. tauto.
  - intros r Hs. destruct (complete_parse 0 ts a r ltac:(lia) H Hs) as [F HF].
    fuel (S F). cbn [parse_composite_literal_entry]. destruct Hst as (t & ts' & -> & Ht). cbn [app] in *.
    ev1 ltac:(apply peek_unwrap_ev).
    assert (Hk : kind_is t "." = false /\ kind_is t "[" = false).
    { split; apply kind_is_false; intros E; rewrite E in Ht; cbn in Ht; intuition discriminate. }
    destruct Hk as [-> Hk]. ev1 ltac:(apply follows_no; exact Hk). use HF. reflexivity.
Qed.
Lemma C_entry_field d x q ts a : is "." d -> is "word" x -> is "=" q -> complete_at 0 ts a ->
  entry_complete (d :: x :: q :: ts) (false, Some (EName (mkNs (t_pos x) [] (t_content x))), a).
Proof.
  intros Hd Hx Hq H. split.
  - exists d, (x :: q :: ts). split; auto. rewrite Hd. cbn. tauto.
  - intros r Hs. destruct (complete_parse 0 ts a r ltac:(lia) H Hs) as [F HF].
    fuel (S F). cbn [parse_composite_literal_entry app]. ev1 ltac:(apply peek_unwrap_ev). rewrite (kind_yes _ _ Hd).
    exp_. exp_. exp_. use HF. reflexivity.
Qed.
Lemma C_entry_index lb ts k rb q ts' a : is "[" lb -> complete_at 0 ts k -> is "]" rb -> is "=" q -> complete_at 0 ts' a ->
  entry_complete (lb :: ts ++ rb :: q :: ts') (true, Some k, a).
Proof.
  intros Hlb Hk Hrb Hq H. split.
  - exists lb, (ts ++ rb :: q :: ts'). split; auto. rewrite Hlb. cbn. tauto.
  - intros r Hs. destruct (complete_parse 0 ts' a r ltac:(lia) H Hs) as [F HF]. norm.
    destruct (complete_parse 0 ts k (rb :: q :: ts' ++ r) ltac:(lia) Hk) as [F2 H2].
    { eapply stop_term; [eassumption| |reflexivity]. cbn. intuition discriminate. }
    fuel (S (F + F2)). cbn [parse_composite_literal_entry]. ev1 ltac:(apply peek_unwrap_ev).
    rewrite (kind_no _ "." _ Hlb) by discriminate. ev1 ltac:(now apply follows_yes). get_. use H2. exp_. exp_. use HF. reflexivity.
Qed.
Lemma expr_complete : forall n ts a, expr_of ctx n ts a -> complete_at n ts a.
Proof.
  apply (expr_ind_m ctx (fun n ts a _ => complete_at n ts a)
    (fun ts l _ => full_args_complete ts l) (fun ts l _ => starts expr_starts ts /\ args_complete ts l)
    (fun ts l _ => entries_complete ts l) (fun ts a _ => entry_complete ts a)); intros.
  - eapply C_up; eauto.
  - eapply C_binary; eauto.
  - eapply C_prefix; eauto.
  - eapply C_cast; eauto.
  - eapply C_sizeof_type; eauto.
  - eapply C_sizeof_expr; eauto.
  - eapply C_call; eauto.
  - eapply C_index; eauto.
  - eapply C_postfix; eauto.
  - eapply C_field; eauto.
  - eapply C_name; eauto.
  - eapply C_literal; eauto.
  - eapply C_paren; eauto.
  - eapply C_composite; eauto.
  - now left.
  - now right.
  - split; [eapply expr_start; eauto|]. now apply C_args_one.
  - split; [apply starts_app; eapply expr_start; eauto|]. apply C_args_more; tauto.
  - apply C_entries_none.
  - now apply C_entries_one.
  - now apply C_entries_more.
  - now apply C_entry_plain.
  - now apply C_entry_field.
  - now apply C_entry_index.
Qed.
Lemma parse_expr_ev n ts a r : n <= 13 -> expr_of ctx n ts a -> stop n r -> ev (fun f => parse_expr ctx f n) (ts ++ r) a r.
Proof. intros Hn He Hs. apply complete_parse; auto. now apply expr_complete. Qed.
(** An error behind an expression. *)
Lemma seq_out n ts a : expr_of ctx n ts a -> n < 13 -> forall r o r', stop (S n) r -> ends_in (fun f => seq_loop ctx f n a) r o r' ->
  ends_in (fun f => parse_seq_expr ctx f n) (ts ++ r) o r'.
Proof. intros H. exact (proj1 (expr_complete _ _ _ H)). Qed.
Lemma base_out ts a : expr_of ctx 14 ts a -> starts ["word"; "num"; "string"; "char"; "("; "{"]%string ts /\ nocast ctx ts /\
  forall r o r', no_dot ctx ts r -> ends_in (fun f => base_loop ctx f a) r o r' -> ends_in (base ctx) (ts ++ r) o r'.
Proof. intros H. exact (proj2 (proj2 (expr_complete _ _ _ H)) eq_refl). Qed.

End Complete.
