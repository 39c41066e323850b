(** What the parser accepts belongs to the grammar. *)
From Verif Require Import Base Buf Lexer Nodes Cursor Resolve Cspec Preparser Parser BaseFacts SpecGrammar.

Lemma kind_is_true t k : kind_is t k = true <-> is k t.
Proof. unfold kind_is, is. apply String.eqb_eq. Qed.
Lemma kind_is_false t k : kind_is t k = false <-> ~ is k t.
Proof. unfold kind_is, is. apply String.eqb_neq. Qed.
Lemma string_in_true s l : string_in s l = true <-> In s l.
Proof.
  unfold string_in. rewrite existsb_exists. split.
  - intros (x & Hi & He). apply String.eqb_eq in He. now subst.
  - intros Hi. exists s. split; auto. apply String.eqb_refl.
Qed.
Lemma str_in_true s l : str_in s l = true <-> In s l.
Proof.
  unfold str_in. rewrite existsb_exists. split.
  - intros (x & Hi & He). apply str_eqb_eq in He. now subst.
  - intros Hi. exists s. split; auto. now apply str_eqb_eq.
Qed.
Lemma is_op_binary k n : is_op k = true -> operator_strength k = Some n -> 2 <= n <= 12 -> binary_op k n.
Proof.
  intros Hi. apply string_in_true in Hi.
  cbn in Hi. repeat (destruct Hi as [<-|Hi]); try contradiction; cbn; intros E Hn; try discriminate;
    injection E as <-; try lia.
  all: match goal with |- binary_op _ ?n => exists (n - 2); cbn; eexists; repeat split; cbn; auto 12 end.
Qed.
Lemma is_op_low k n : is_op k = true -> operator_strength k = Some n -> 2 <= n.
Proof.
  intros Hi. apply string_in_true in Hi.
  cbn in Hi. repeat (destruct Hi as [<-|Hi]); try contradiction; cbn; intros E; try discriminate;
    injection E as <-; lia.
Qed.
Lemma binary_is_op k n : binary_op k n -> is_op k = true /\ operator_strength k = Some n /\ 2 <= n <= 12.
Proof.
  intros (i & ops & Hn & Hi & ->).
  do 11 (destruct i as [|i]; [cbn in Hn; injection Hn as <-; cbn in Hi;
    repeat (destruct Hi as [<-|Hi]); try contradiction; repeat split; lia|]).
  cbn in Hn. destruct i; discriminate.
Qed.

Section Names.
Variable ctx : parsectx.
Lemma is_type_name x : is_type x (mi_typedefs (thismod ctx)) = true <-> type_name ctx x.
Proof.
  unfold is_type, type_name. rewrite !orb_true_iff, !str_in_true. tauto.
Qed.
Lemma imported_namespace x : is_imported_ns ctx x = true <-> namespace ctx x.
Proof.
  unfold is_imported_ns, namespace. rewrite orb_true_iff, existsb_exists.
  split; (intros [H|(r & Hi & H)]; [left; now apply str_eqb_eq|right; exists r; split; auto; now apply str_eqb_eq]).
Qed.
Lemma qualified_foreign t0 t1 t2 : qualified_type ctx [t0; t1; t2] = true <->
  is "." t1 /\ is "word" t2 /\ foreign_type ctx (t_content t0) (t_content t2).
Proof.
  cbn. unfold foreign_type. destruct (kind_is t1 "." && kind_is t2 "word") eqn:E.
  - apply andb_true_iff in E. rewrite !kind_is_true in E.
    destruct (find _ (mi_imports (thismod ctx))) as [r|] eqn:E1.
    + destruct (find _ (allmods ctx)) as [m|] eqn:E2.
      * rewrite str_in_true. split.
        { intros Hi. repeat split; try tauto. exists r, m. auto. }
        { intros (_ & _ & r' & m' & Hr & Hm & Hi). injection Hr as <-. rewrite E2 in Hm. injection Hm as <-. auto. }
      * split; [discriminate|]. intros (_ & _ & r' & m' & Hr & Hm & Hi). injection Hr as <-. congruence.
    + split; [discriminate|]. intros (_ & _ & r' & m' & Hr & Hm & Hi). discriminate.
  - split; [discriminate|]. intros (H1 & H2 & _). apply kind_is_true in H1, H2. rewrite H1, H2 in E. discriminate.
Qed.
Lemma foreign_namespace ns x : foreign_type ctx ns x -> namespace ctx ns.
Proof.
  intros (r & m & Hr & _). apply find_some in Hr as [Hi He]. apply str_eqb_eq in He. right. eauto.
Qed.
Lemma type_first_dec ts : type_first ctx ts \/ ~ type_first ctx ts.
Proof.
  destruct ts as [|t r]; [right; intros (t & r & E & _); discriminate|].
  destruct (kind_is t "word" && is_type (t_content t) (mi_typedefs (thismod ctx))) eqn:E.
  - left. apply andb_true_iff in E as [H1 H2]. exists t, r. apply kind_is_true in H1. apply is_type_name in H2. auto.
  - right. intros (t' & r' & Et & H1 & H2). injection Et as <- <-.
    apply kind_is_true in H1. apply is_type_name in H2. rewrite H1, H2 in E. discriminate.
Qed.
End Names.

Lemma bind_ok A B (m : M A) (k : A -> M B) c b c' : bind m k c = (Ok b, c') ->
  exists a c1, m c = (Ok a, c1) /\ k a c1 = (Ok b, c').
Proof. unfold bind. destruct (m c) as [[a|x|w|] c1]; try discriminate. eauto. Qed.

Section Sound.
Variable ctx : parsectx.
Variable e : ending.
Hypothesis We : forall t, e = EndStuck t -> t_kind t = "error"%string.
Notation cur l := (mkCur l e).

(** The head of the list. *)
Definition head_kind (k : string) (l : list token) : bool :=
  match l with t :: _ => kind_is t k | [] => false end.

Lemma peek_sound l o c' : peek (cur l) = (Ok o, c') -> c' = cur l /\
  match l with
  | t :: _ => o = Some t
  | [] => (exists t, o = Some t /\ t_kind t = "error"%string) \/ (o = None /\ exists p, e = EndEof p)
  end.
Proof.
  unfold peek. cbn. destruct l; [|intros H; injection H as <- <-; auto].
  destruct e eqn:E; intros H; try discriminate; injection H as <- <-; split; auto; eauto.
Qed.
Lemma get_sound l o c' : get (cur l) = (Ok o, c') ->
  match l with
  | t :: r => o = Some t /\ c' = cur r
  | [] => c' = cur [] /\ ((exists t, o = Some t /\ t_kind t = "error"%string) \/ (o = None /\ exists p, e = EndEof p))
  end.
Proof.
  unfold get. cbn. destruct l; [|intros H; injection H as <- <-; auto].
  destruct e eqn:E; intros H; try discriminate; injection H as <- <-; split; auto; eauto.
Qed.
Lemma peek_unwrap_sound w l t c' : peek_unwrap w (cur l) = (Ok t, c') -> c' = cur l /\
  ((exists r, l = t :: r) \/ (l = [] /\ t_kind t = "error"%string)).
Proof.
  unfold peek_unwrap. intros H. apply bind_ok in H as (o & c1 & H1 & H). apply peek_sound in H1 as [-> Ho].
  destruct l as [|t' r].
  - destruct Ho as [(t' & -> & Hk)|[-> _]]; [|discriminate]. injection H as <- <-. auto.
  - subst o. injection H as <- <-. split; eauto.
Qed.
Lemma get_unwrap_sound w l t c' : get_unwrap w (cur l) = (Ok t, c') ->
  (exists r, l = t :: r /\ c' = cur r) \/ (l = [] /\ c' = cur [] /\ t_kind t = "error"%string).
Proof.
  unfold get_unwrap. intros H. apply bind_ok in H as (o & c1 & H1 & H). apply get_sound in H1.
  destruct l as [|t' r].
  - destruct H1 as [-> [(t' & -> & Hk)|[-> _]]]; [|discriminate]. injection H as <- <-. auto.
  - destruct H1 as [-> ->]. injection H as <- <-. left. eauto.
Qed.
Lemma follows_sound k l b c' : k <> "error"%string -> follows k (cur l) = (Ok b, c') ->
  c' = cur l /\ b = head_kind k l.
Proof.
  unfold follows. intros Hk H. apply bind_ok in H as (o & c1 & H1 & H). apply peek_sound in H1 as [-> Ho].
  injection H as <- <-. split; auto. destruct l as [|t r]; [|now subst o].
  destruct Ho as [(t & -> & Ht)|[-> _]]; auto. cbn. unfold kind_is. rewrite Ht. apply String.eqb_neq. congruence.
Qed.
Lemma head_kind_true k l : head_kind k l = true -> exists t r, l = t :: r /\ is k t.
Proof. destruct l as [|t r]; [discriminate|]. cbn. intros H. apply kind_is_true in H. eauto. Qed.
Lemma head_kind_false k l : head_kind k l = false -> forall t r, l = t :: r -> ~ is k t.
Proof. intros H t r ->. now apply kind_is_false. Qed.
Lemma eat_sound k l b c' : k <> "error"%string -> eat k (cur l) = (Ok b, c') ->
  if b then exists t r, l = t :: r /\ is k t /\ c' = cur r
  else c' = cur l /\ head_kind k l = false.
Proof.
  unfold eat. intros Hk H. apply bind_ok in H as (f & c1 & H1 & H). apply follows_sound in H1 as [-> ->]; auto.
  destruct (head_kind k l) eqn:E.
  - apply head_kind_true in E as (t & r & -> & Ht). cbn in H. injection H as <- <-. eauto.
  - injection H as <- <-. auto.
Qed.
Lemma expect_sound k w l t c' : k <> "error"%string -> expect k w (cur l) = (Ok t, c') ->
  exists r, l = t :: r /\ c' = cur r /\ is k t.
Proof.
  unfold expect. intros Hk H. apply bind_ok in H as (m & c1 & H1 & H).
  unfold more in H1. apply bind_ok in H1 as (o & c2 & H1 & H2). apply peek_sound in H1 as [-> _].
  injection H2 as Hm <-. destruct m; [|discriminate]. cbn [negb] in H.
  apply bind_ok in H as (n & c3 & H1 & H). apply peek_unwrap_sound in H1 as [-> Hn].
  destruct (kind_is n k) eqn:En; cbn [negb] in H.
  - destruct Hn as [(r & ->)|[-> Hn]].
    + unfold get_unwrap in H. cbn in H. injection H as <- <-. apply kind_is_true in En. eauto.
    + unfold kind_is in En. rewrite Hn in En. apply String.eqb_eq in En. congruence.
  - destruct (token_to_string n); discriminate.
Qed.
Lemma more_sound l b c' : more (cur l) = (Ok b, c') -> c' = cur l /\ (b = false -> l = []).
Proof.
  unfold more. intros H. apply bind_ok in H as (o & c1 & H1 & H). apply peek_sound in H1 as [-> Ho].
  injection H as <- <-. split; auto. destruct l; auto. subst o. discriminate.
Qed.
Lemma peekn_sound n l o c' : peekn n (cur l) = (Ok o, c') -> c' = cur l /\
  ((n <= List.length l /\ o = Some (firstn n l)) \/
   (List.length l < n /\ (o = None \/ exists t, t_kind t = "error"%string /\ o = Some (l ++ repeat t (n - List.length l))))).
Proof.
  unfold peekn. cbn [c_toks c_end]. destruct (Nat.leb n (List.length l)) eqn:E.
  - apply Nat.leb_le in E. intros H. injection H as <- <-. auto.
  - apply Nat.leb_gt in E. destruct e eqn:Ee; intros H; try discriminate; injection H as <- <-; split; auto; right; split; eauto.
Qed.
Lemma type_follows_sound l b c' : type_follows ctx (cur l) = (Ok b, c') ->
  c' = cur l /\ (b = true <-> type_start ctx l).
Proof.
  unfold type_follows. intros H. apply bind_ok in H as (o & c1 & H1 & H). apply peek_sound in H1 as [-> Ho].
  destruct l as [|t r].
  - assert (E : ret false (cur []) = (Ok b, c')).
    { destruct Ho as [(t & -> & Hk)|[-> _]]; auto. unfold kind_is in H. rewrite Hk in H. exact H. }
    injection E as <- <-. split; auto. split; [discriminate|]. intros Hs. inversion Hs.
  - subst o. destruct (kind_is t "const") eqn:Ec.
    { injection H as <- <-. split; auto. split; auto. intros _. apply Start_const. now apply kind_is_true. }
    destruct (kind_is t "word") eqn:Ew; cbn [negb] in H.
    2:{ injection H as <- <-. split; auto. split; [discriminate|]. intros Hs. apply kind_is_false in Ec, Ew.
        inversion Hs; subst; tauto. }
    apply bind_ok in H as (three & c2 & H1 & H). apply peekn_sound in H1 as [-> H1].
    apply kind_is_true in Ew. apply kind_is_false in Ec.
    assert (Hq : (match three with Some l => qualified_type ctx l | None => false end = true <->
                  exists d x r', r = d :: x :: r' /\ is "." d /\ is "word" x
                                 /\ foreign_type ctx (t_content t) (t_content x))).
    { destruct H1 as [[Hn ->]|[Hn [-> |(s & Hs & ->)]]].
      - destruct r as [|d [|x r]]; try (cbn in Hn; lia). cbn [firstn]. rewrite qualified_foreign. split.
        + intros (A & B & C). exists d, x, r. auto.
        + intros (d' & x' & r' & E & A & B & C). injection E as <- <- <-. auto.
      - split; [discriminate|]. intros (d & x & r' & -> & _). cbn in Hn. lia.
      - split.
        + intros Hq. destruct r as [|d [|x r]]; cbn [List.length app Nat.sub repeat] in Hq.
          * apply qualified_foreign in Hq as (A & _). unfold is in A. congruence.
          * apply qualified_foreign in Hq as (_ & A & _). unfold is in A. congruence.
          * cbn in Hn. lia.
        + intros (d & x & r' & -> & _). cbn in Hn. lia. }
    destruct (match three with Some l => qualified_type ctx l | None => false end) eqn:E.
    + injection H as <- <-. split; auto. split; auto. intros _.
      destruct (proj1 Hq eq_refl) as (d & x & r' & -> & A & B & C). now apply Start_foreign.
    + injection H as <- <-. split; auto. rewrite is_type_name. split.
      * intros Ht. now apply Start_name.
      * intros Hs. inversion Hs; subst; try tauto.
        assert (false = true) by (apply Hq; eauto 10). discriminate.
Qed.
Lemma ns_follows_sound l b c' : ns_follows ctx (cur l) = (Ok b, c') ->
  c' = cur l /\ (b = true <-> exists w r, l = w :: r /\ is "word" w /\ namespace ctx (t_content w)).
Proof.
  unfold ns_follows. intros H. apply bind_ok in H as (o & c1 & H1 & H). apply peek_sound in H1 as [-> Ho].
  destruct l as [|t r].
  - assert (E : ret false (cur []) = (Ok b, c')).
    { destruct Ho as [(t & -> & Hk)|[-> _]]; auto. unfold kind_is in H. rewrite Hk in H. exact H. }
    injection E as <- <-. split; auto. split; [discriminate|]. intros (w & r & E & _). discriminate.
  - subst o. injection H as <- <-. split; auto. rewrite andb_true_iff, kind_is_true, imported_namespace. split.
    + intros [A B]. eauto.
    + intros (w & r' & E & A & B). injection E as <- <-. auto.
Qed.

(** A parser that returns a value has read tokens [ts] with [Q ts rest value]. *)
Definition sound {A} (m : M A) (Q : list token -> list token -> A -> Prop) : Prop :=
  forall l a c', m (cur l) = (Ok a, c') -> exists ts r, l = ts ++ r /\ c' = cur r /\ Q ts r a.

(** The rest after a plain name of a namespace is not a dot and a word. *)
Definition no_dot (ts r : list token) : Prop :=
  forall w d x r', ts = [w] -> is "word" w -> namespace ctx (t_content w) -> r = d :: x :: r' -> ~ (is "." d /\ is "word" x).

Lemma read_ns_id_sound : sound (read_ns_id ctx) (fun ts r n => name_of ctx ts n /\ no_dot ts r).
Proof.
  intros l n c' H. unfold read_ns_id in H.
  apply bind_ok in H as (a & c1 & H1 & H). apply expect_sound in H1 as (r & -> & -> & Ha); [|discriminate].
  destruct (is_imported_ns ctx (t_content a)) eqn:Ei.
  - apply imported_namespace in Ei.
    apply bind_ok in H as (two & c2 & H1 & H). apply peekn_sound in H1 as [-> H1].
    assert (Hn : (exists x y r', r = x :: y :: r' /\ is "." x /\ is "word" y
                     /\ n = mkNs (t_pos a) (t_content a) (t_content y) /\ c' = cur r') \/
                 (no_dot [a] r /\ n = mkNs (t_pos a) [] (t_content a) /\ c' = cur r)).
    { destruct H1 as [[Hl ->]|[Hl [-> |(s & Hs & ->)]]].
      - destruct r as [|x [|y r]]; try (cbn in Hl; lia). cbn [firstn] in H.
        destruct (kind_is x "." && kind_is y "word") eqn:E.
        + left. apply andb_true_iff in E. rewrite !kind_is_true in E.
          cbn in H. injection H as <- <-. exists x, y, r. tauto.
        + right. injection H as <- <-. split; auto. intros w d x' r' _ _ _ Er [A B]. injection Er as <- <- <-.
          apply kind_is_true in A, B. rewrite A, B in E. discriminate.
      - right. injection H as <- <-. split; auto. intros w d x' r' _ _ _ -> _. cbn in Hl. lia.
      - right. assert (E : ret (mkNs (t_pos a) [] (t_content a)) (cur r) = (Ok n, c')).
        { destruct r as [|x [|y r]]; cbn [List.length app Nat.sub repeat] in H, Hl; try lia.
          - unfold kind_is in H. rewrite Hs in H. exact H.
          - unfold kind_is in H. rewrite Hs in H. cbn [String.eqb] in H. rewrite andb_false_r in H. exact H. }
        injection E as <- <-. split; auto. intros w d x' r' _ _ _ -> _. cbn in Hl. lia. }
    destruct Hn as [(x & y & r' & -> & A & B & -> & ->)|(A & -> & ->)].
    + exists [a; x; y], r'. repeat split; auto. { now constructor. } intros w d x' r'' E. discriminate.
    + exists [a], r. repeat split; auto. now constructor.
  - injection H as <- <-. exists [a], r. repeat split; auto. { now constructor. }
    intros w d x r' E _ Hn. injection E as ->. apply imported_namespace in Hn. congruence.
Qed.
Lemma name_nonempty ts n : name_of ctx ts n -> exists t r, ts = t :: r /\ is "word" t.
Proof. intros H. inversion H; subst; eauto. Qed.
Lemma typename_nonempty ts n : typename_of ctx ts n -> exists t r, ts = t :: r.
Proof. intros H. inversion H; subst; eauto. apply name_nonempty in H0 as (t & r & -> & _). eauto. Qed.

(** A type start is settled by the name of the type alone. *)
Lemma name_start ts n r : name_of ctx ts n -> no_dot ts r -> (type_start ctx (ts ++ r) <-> type_start ctx ts).
Proof.
  intros Hn Hd. split; intros Hs.
  - inversion Hn; subst; cbn in Hs; inversion Hs; subst.
    + now apply Start_const.
    + now apply Start_name.
    + exfalso. eapply Hd; eauto. eapply foreign_namespace; eauto.
    + now apply Start_const.
    + now apply Start_name.
    + now apply Start_foreign.
  - inversion Hs; subst; cbn.
    + now apply Start_const.
    + now apply Start_name.
    + now apply Start_foreign.
Qed.
Lemma parse_typename_sound : sound (parse_typename ctx)
  (fun ts r t => typename_of ctx ts t /\ (type_start ctx (ts ++ r) <-> type_start ctx ts)).
Proof.
  intros l t c' H. unfold parse_typename in H.
  apply bind_ok in H as (b & c1 & H1 & H). apply eat_sound in H1; [|discriminate].
  apply bind_ok in H as (n & c2 & H2 & H). injection H as <- <-.
  destruct b.
  - destruct H1 as (k & r & -> & Hk & ->). apply read_ns_id_sound in H2 as (ts & r' & -> & -> & Hn & Hd).
    exists (k :: ts), r'. repeat split; auto. { now constructor. } all: intros _; now apply Start_const.
  - destruct H1 as [-> _]. apply read_ns_id_sound in H2 as (ts & r' & -> & -> & Hn & Hd).
    exists ts, r'. split; auto. split; auto. split. { now constructor. } eapply name_start; eauto.
Qed.
Lemma count_stars_sound f : forall k, sound (count_stars f k) (fun ts r n => exists j, stars_of ts j /\ n = k + j).
Proof.
  induction f as [|f IH]; intros k l n c' H; [discriminate|]. cbn [count_stars] in H.
  apply bind_ok in H as (b & c1 & H1 & H). apply follows_sound in H1 as [-> ->]; [|discriminate].
  destruct (head_kind "*" l) eqn:E.
  - apply head_kind_true in E as (t & r & -> & Ht). apply bind_ok in H as (o & c1 & H1 & H).
    cbn in H1. injection H1 as <- <-. apply IH in H as (ts & r' & -> & -> & j & [Hs Hl] & ->).
    exists (t :: ts), r'. repeat split; auto. exists (S j). split; [|lia]. split; cbn; auto.
  - injection H as <- <-. exists [], l. repeat split; auto. exists 0. split; [|lia]. split; auto.
Qed.
Lemma typeform_sound f : sound (parse_bare_typeform f ctx)
  (fun ts r t => typeform_of ctx ts t /\ (type_start ctx (ts ++ r) <-> type_start ctx ts)).
Proof.
  intros l t c' H. unfold parse_bare_typeform in H.
  apply bind_ok in H as (n & c1 & H1 & H). apply parse_typename_sound in H1 as (ts & r & -> & -> & Hn & Hs).
  apply bind_ok in H as (h & c2 & H2 & H). apply count_stars_sound in H2 as (ss & r' & -> & -> & j & Hj & ->).
  injection H as <- <-. exists (ts ++ ss), r'. rewrite <- app_assoc. split; auto. split; auto. split; [now constructor|]. split.
  - intros Ht. rewrite Hs in Ht. inversion Ht; subst; cbn; [now apply Start_const|now apply Start_name|now apply Start_foreign].
  - intros Ht. rewrite Hs. assert (Hs' : type_start ctx (ts ++ ss) -> type_start ctx (ts ++ ss ++ r')).
    { rewrite app_assoc. clear. generalize (ts ++ ss). intros l Ht.
      inversion Ht; subst; cbn; [now apply Start_const|now apply Start_name|now apply Start_foreign]. }
    apply Hs, Hs', Ht.
Qed.
Lemma parse_literal_sound : sound parse_literal (fun ts r x =>
  exists t, ts = [t] /\ (literal_of t x \/ is "word" t)).
Proof.
  intros l x c' H. unfold parse_literal in H.
  apply bind_ok in H as (t & c1 & H1 & H). apply peek_unwrap_sound in H1 as [-> Ht].
  assert (Hk : is "string" t \/ is "num" t \/ is "char" t \/ is "word" t -> exists r, l = t :: r).
  { intros Hk. destruct Ht as [Ht|[_ Ht]]; auto. unfold is in Hk. rewrite Ht in Hk. intuition discriminate. }
  destruct (kind_is t "string") eqn:E1; [|destruct (kind_is t "num") eqn:E2; [|destruct (kind_is t "char") eqn:E3;
    [|destruct (kind_is t "word") eqn:E4; [|discriminate]]]].
  4: cbn [andb] in H; destruct (str_eqb (t_content t) (L "NULL")); [|discriminate].
  all: repeat match goal with Hx : kind_is _ _ = true |- _ => apply kind_is_true in Hx end.
  all: destruct Hk as (r & ->); [tauto|]; cbn in H; injection H as <- <-; exists [t], r; repeat split; auto;
    exists t; split; auto; left; now constructor.
Qed.

(** ** Expressions *)
Definition expr_starts : list string :=
  ["word"; "num"; "string"; "char"; "("; "{"; "sizeof"; "!"; "--"; "++"; "*"; "~"; "&"; "-"]%string.
Definition starts (ks : list string) (ts : list token) : Prop :=
  exists t r, ts = t :: r /\ In (t_kind t) ks.
Lemma starts_app ks ts r : starts ks ts -> starts ks (ts ++ r).
Proof. intros (t & r' & -> & H). exists t, (r' ++ r). auto. Qed.
Lemma starts_sub ks ks' ts : (forall k, In k ks -> In k ks') -> starts ks ts -> starts ks' ts.
Proof. intros Hs (t & r' & -> & H). exists t, r'. auto. Qed.
Lemma is_in k t (ks : list string) : is k t -> In k ks -> In (t_kind t) ks.
Proof. unfold is. intros ->. auto. Qed.
Lemma expr_start : forall n ts a, expr_of ctx n ts a -> starts expr_starts ts.
Proof.
  apply (expr_ind_m ctx (fun n ts a _ => starts expr_starts ts)
    (fun ts l _ => True) (fun ts l _ => True) (fun ts l _ => True) (fun ts l _ => True)); intros; auto using starts_app.
  all: try (eexists _, _; split; [cbn [app]; reflexivity|]).
  all: try (eapply is_in; [eassumption|cbn; tauto]).
  - unfold prefix_op in *. cbn in *. tauto.
  - match goal with Hn : name_of _ _ _ |- _ => apply name_nonempty in Hn as (t & r & -> & Ht) end. exists t, r. split; auto. eapply is_in; [eassumption|cbn; tauto].
  - match goal with Hn : literal_of _ _ |- _ => destruct Hn end; (eapply is_in; [eassumption|cbn; tauto]).
Qed.
Lemma expr_cons n ts a : expr_of ctx n ts a -> exists t r, ts = t :: r /\ In (t_kind t) expr_starts.
Proof. exact (expr_start n ts a). Qed.
Lemma expr_nil n a : ~ expr_of ctx n [] a.
Proof. intros H. apply expr_start in H as (t & r & E & _). discriminate. Qed.
Lemma expr_up m n ts a : m <= n -> n <= 14 -> expr_of ctx n ts a -> expr_of ctx m ts a.
Proof.
  intros H Hn He. revert Hn He. induction H as [|n' H IH]; auto. intros Hn He. apply IH; [lia|]. apply E_up; [lia|auto].
Qed.
Lemma type_first_app ts r : ts <> [] -> (type_first ctx (ts ++ r) <-> type_first ctx ts).
Proof.
  intros Hn. destruct ts as [|t ts]; [congruence|]. split; intros (x & r' & E & H1 & H2); injection E as <- <-; cbn; eexists _, _; eauto.
Qed.
Lemma type_first_start ts : type_first ctx ts -> type_start ctx ts.
Proof. intros (t & r & -> & H1 & H2). now apply Start_name. Qed.
(** A type start is settled before any token that is neither a dot nor a word. *)
Lemma start_app_iff ts t r : ts <> [] -> ~ is "." t -> ~ is "word" t ->
  (type_start ctx (ts ++ t :: r) <-> type_start ctx ts).
Proof.
  intros Hn Hd Hw. split; intros Hs.
  - destruct ts as [|a ts]; [congruence|].
    destruct ts as [|b [|c ts]]; cbn in Hs; inversion Hs; subst; try contradiction;
      [now apply Start_const|now apply Start_name|now apply Start_const|now apply Start_name|
       now apply Start_const|now apply Start_name|now apply Start_foreign].
  - inversion Hs; subst; cbn; [now apply Start_const|now apply Start_name|now apply Start_foreign].
Qed.

Definition nocast (l : list token) : Prop := forall lp r, l = lp :: r -> is "(" lp -> ~ type_first ctx r.
Definition tail_args (ts : list token) (l : list expr) : Prop :=
  (ts = [] /\ l = []) \/ exists c ts', ts = c :: ts' /\ is "," c /\ more_args_of ctx ts' l.

Definition expr_sound (f : nat) : Prop :=
  (forall n, n <= 13 -> sound (parse_expr ctx f n) (fun ts r a => expr_of ctx n ts a)) /\
  (forall n, n < 13 -> sound (parse_seq_expr ctx f n) (fun ts r a => expr_of ctx n ts a)) /\
  (forall n ts0 r0, n < 13 -> expr_of ctx n ts0 r0 ->
     sound (seq_loop ctx f n r0) (fun ts r a => expr_of ctx n (ts0 ++ ts) a)) /\
  sound (parse_prefix_expr ctx f) (fun ts r a => expr_of ctx 13 ts a) /\
  (forall l a c', nocast l -> base ctx f (cur l) = (Ok a, c') ->
     exists ts r, l = ts ++ r /\ c' = cur r /\ expr_of ctx 14 ts a) /\
  (forall ts0 r0 l a c', expr_of ctx 14 ts0 r0 -> no_dot ts0 l -> base_loop ctx f r0 (cur l) = (Ok a, c') ->
     exists ts r, l = ts ++ r /\ c' = cur r /\ expr_of ctx 14 (ts0 ++ ts) a) /\
  (forall l a c', nocast l -> read_expression_atom ctx f (cur l) = (Ok a, c') ->
     exists ts r, l = ts ++ r /\ c' = cur r /\ expr_of ctx 14 ts a /\ no_dot ts r) /\
  sound (parse_composite_literal ctx f) (fun ts r a => expr_of ctx 14 ts a /\ (forall w, ts <> [w])) /\
  (forall acc, sound (complit_loop ctx f acc) (fun ts r a => exists ts1 l1 rb,
     ts = ts1 ++ [rb] /\ is "}" rb /\ entries_of ctx ts1 l1 /\ a = EComp (acc ++ l1))) /\
  sound (parse_composite_literal_entry ctx f) (fun ts r a => entry_of ctx ts a) /\
  sound (parse_sizeof ctx f) (fun ts r a => expr_of ctx 13 ts a) /\
  (forall ts0 r0, expr_of ctx 14 ts0 r0 ->
     sound (parse_call ctx f r0) (fun ts r a => expr_of ctx 14 (ts0 ++ ts) a /\ ts <> [])) /\
  (forall acc, sound (call_args ctx f acc) (fun ts r a => exists l, a = acc ++ l /\ tail_args ts l)).

(** One step of an expected token, a fixed token kind, ... *)
Ltac exp H := let t := fresh "t" in let c := fresh "c" in let H1 := fresh "H" in let r := fresh "r" in let Ht := fresh "K" in
  apply bind_ok in H as (t & c & H1 & H); apply expect_sound in H1 as (r & -> & -> & Ht); [|discriminate].
Ltac bnd H x H1 := let c := fresh "c" in apply bind_ok in H as (x & c & H1 & H).

Lemma step_paren f :
  (forall n, n <= 13 -> sound (parse_expr ctx f n) (fun ts r a => expr_of ctx n ts a)) ->
  sound (fun c => match parse_expr ctx f 0 c with
    | (Abort w, c') => (Abort w, c') | (NoFuel, c') => (NoFuel, c')
    | (e0, c') => match expect ")" (Some "parenthesized expression"%string) c' with
        | (Ok _, c'') => (e0, c'') | (Err x, c'') => (Err x, c'') | (Abort w, c'') => (Abort w, c'') | (NoFuel, c'') => (NoFuel, c'') end
    end)
    (fun ts r a => exists ts1 rp, ts = ts1 ++ [rp] /\ is ")" rp /\ expr_of ctx 0 ts1 a).
Proof.
  intros HE l a c' H. destruct (parse_expr ctx f 0 (cur l)) as [[x|x|x|] c1] eqn:E; try discriminate.
  - apply HE in E as (ts & r & -> & -> & Hx); [|lia].
    destruct (expect ")" (Some "parenthesized expression"%string) (cur r)) as [[y|y|y|] c2] eqn:E2; try discriminate.
    apply expect_sound in E2 as (r' & -> & -> & Hy); [|discriminate]. injection H as <- <-.
    exists (ts ++ [y]), r'. rewrite <- app_assoc. repeat split; auto. eauto 6.
  - destruct (expect ")" (Some "parenthesized expression"%string) c1) as [[y|y|y|] c2]; discriminate.
Qed.

Lemma expr_sound_all f : expr_sound f.
Proof.
  induction f as [|f IH].
  - unfold expr_sound, sound. repeat split; intros; discriminate.
  - destruct IH as (IE & IS & IL & IP & IB & IBL & IA & IC & ICL & IEN & ISZ & ICA & IAR).
    unfold expr_sound. split; [|split; [|split; [|split; [|split; [|split; [|split; [|split; [|split; [|split; [|split; [|split]]]]]]]]]]].
    + intros n Hn l a c' H. cbn [parse_expr] in H. destruct (Nat.ltb n 13) eqn:E1.
      * apply Nat.ltb_lt in E1. eapply IS; eauto.
      * apply Nat.ltb_ge in E1. assert (n = 13) as -> by lia. cbn [Nat.eqb] in H. eapply IP; eauto.
    + intros n Hn l a c' H. cbn [parse_seq_expr] in H. bnd H x H1.
      apply IE in H1 as (ts & r & -> & -> & Hx); [|lia].
      apply (IL n ts x) in H as (ts' & r' & -> & -> & Hy); auto. 2: apply E_up; [lia|auto].
      exists (ts ++ ts'), r'. rewrite <- app_assoc. auto.
    + intros n ts0 r0 Hn H0 l a c' H. cbn [seq_loop] in H. bnd H o H1. apply peek_sound in H1 as [-> Ho].
      assert (Hdone : forall a c', ret r0 (cur l) = (Ok a, c') ->
         exists ts r, l = ts ++ r /\ c' = cur r /\ expr_of ctx n (ts0 ++ ts) a).
      { intros a' c2 E. injection E as <- <-. exists [], l. rewrite app_nil_r. auto. }
      destruct o as [next|]; [|auto].
      destruct (is_op (t_kind next)) eqn:Eo; cbn [negb] in H; [|auto].
      destruct (operator_strength (t_kind next)) as [k|] eqn:Ek; [|discriminate].
      destruct (Nat.eqb k n) eqn:En; cbn [negb] in H; [|auto]. apply Nat.eqb_eq in En as ->.
      destruct l as [|t l].
      { destruct Ho as [(t & E & Hk)|[E _]]; [|discriminate]. injection E as ->. rewrite Hk in Eo. discriminate. }
      injection Ho as ->. bnd H tok H1. unfold get_unwrap in H1. cbn in H1. injection H1 as <- <-.
      bnd H r2 H1. apply IE in H1 as (ts & r & -> & -> & Hr); [|lia].
      pose proof (is_op_low _ _ Eo Ek).
      apply (IL n (ts0 ++ t :: ts)) in H as (ts' & r' & -> & -> & Ha); auto.
      * exists (t :: ts ++ ts'), r'. rewrite <- !app_assoc in *. cbn in *. rewrite <- !app_assoc. auto.
      * apply E_binary; auto. apply is_op_binary; auto. lia.
    + intros l a c' H. cbn [parse_prefix_expr] in H. bnd H t H1. apply get_unwrap_sound in H1.
      destruct (is_prefix_op (t_kind t)) eqn:Ep.
      { apply string_in_true in Ep. bnd H x H2.
        destruct H1 as [(r & -> & ->)|(-> & -> & Hk)].
        2:{ exfalso. rewrite Hk in Ep. cbn in Ep. intuition discriminate. }
        apply IP in H2 as (ts & r' & -> & -> & Hx). injection H as <- <-.
        exists (t :: ts), r'. repeat split; auto. apply E_prefix; auto. }
      bnd H ic H2.
      assert (Hb : forall l1 a1 c1, nocast (t :: l1) -> base ctx f (cur (t :: l1)) = (Ok a1, c1) ->
         exists ts r, t :: l1 = ts ++ r /\ c1 = cur r /\ expr_of ctx 13 ts a1).
      { intros l1 a1 c1 Hnc Hb. apply IB in Hb as (ts & r & E & -> & Hx); auto. exists ts, r. repeat split; auto.
        apply E_up; [lia|auto]. }
      destruct H1 as [(r & -> & ->)|(-> & -> & Hk)].
      2:{ exfalso. unfold kind_is in H2. rewrite Hk in H2. cbn in H2. injection H2 as <- <-.
          unfold kind_is in H. rewrite Hk in H. cbn in H.
          apply Hb in H as (ts & r & E & -> & Hx).
          - apply expr_cons in Hx as (y & ys & -> & Hy). injection E as <- E. rewrite Hk in Hy. cbn in Hy. intuition discriminate.
          - intros lp r E Hlp. injection E as <- <-. unfold is in Hlp. congruence. }
      assert (Hc : c0 = cur r /\ (ic = true <-> is "(" t /\ type_first ctx r)).
      { destruct (kind_is t "(") eqn:Et.
        - apply kind_is_true in Et. bnd H2 y H3. apply peek_unwrap_sound in H3 as [-> Hy]. injection H2 as <- <-. split; auto.
          rewrite andb_true_iff, kind_is_true, is_type_name. split.
          + intros [A B]. split; auto. destruct Hy as [(r' & ->)|[_ Hy]]; [|unfold is in A; congruence]. exists y, r'. auto.
          + intros [_ (y' & r' & -> & A & B)]. destruct Hy as [(r'' & E)|[E _]]; [|discriminate]. injection E as <- <-. auto.
        - injection H2 as <- <-. split; auto. apply kind_is_false in Et. split; [discriminate|tauto]. }
      destruct Hc as [-> Hic]. destruct ic.
      { destruct (proj1 Hic eq_refl) as [Ht Hf].
        bnd H tf H3. apply typeform_sound in H3 as (ts & r' & -> & -> & Htf & _).
        exp H. bnd H x H4. apply IP in H4 as (ts' & r'' & -> & -> & Hx). injection H as <- <-.
        exists (t :: ts ++ t0 :: ts'), r''. split; [cbn; now rewrite <- app_assoc|]. split; auto.
        apply E_cast; auto. apply (type_first_app ts (t0 :: ts' ++ r'')); auto.
        destruct Htf. intros E. apply app_eq_nil in E as [-> _]. apply typename_nonempty in H as (? & ? & ?). discriminate. }
      assert (Hnc : nocast (t :: r)).
      { intros lp r' E Hlp Hf. injection E as <- <-. assert (false = true) by tauto. discriminate. }
      destruct (kind_is t "sizeof") eqn:Es.
      * bnd H u H3. cbn in H3. injection H3 as <- <-. apply ISZ in H as (ts & r' & E & -> & Hx). exists ts, r'. auto.
      * bnd H u H3. cbn in H3. injection H3 as <- <-. auto.
    + intros l a c' Hnc H. cbn [base] in H. bnd H x H1. apply IA in H1 as (ts & r & -> & -> & Hx & Hd); auto.
      apply (IBL ts x) in H as (ts' & r' & -> & -> & Hy); auto.
      exists (ts ++ ts'), r'. rewrite <- app_assoc. auto.
    + intros ts0 r0 l a c' H0 Hd H. cbn [base_loop] in H. bnd H o H1. apply peek_sound in H1 as [-> Ho].
      destruct (expr_cons _ _ _ H0) as (y & ys & Ey & _).
      assert (Hlong : forall z zs r, no_dot (ts0 ++ z :: zs) r).
      { intros z zs r w d x r' E. rewrite Ey in E. destruct ys; discriminate. }
      assert (Hdone : forall a c', ret r0 (cur l) = (Ok a, c') ->
         exists ts r, l = ts ++ r /\ c' = cur r /\ expr_of ctx 14 (ts0 ++ ts) a).
      { intros a' c2 E. injection E as <- <-. exists [], l. rewrite app_nil_r. auto. }
      destruct o as [next|]; [|auto].
      destruct l as [|t l].
      { destruct Ho as [(t & E & Hk)|[E _]]; [|discriminate]. injection E as ->.
        unfold kind_is in H. rewrite Hk in H. cbn in H. auto. }
      injection Ho as ->.
      destruct (kind_is t "(") eqn:E1.
      { bnd H x H1. apply (ICA ts0 r0) in H1 as (ts & r & E & -> & Hx & Hn); auto. rewrite E.
        apply (IBL (ts0 ++ ts) x) in H as (ts' & r' & -> & -> & Hy); auto.
        - exists (ts ++ ts'), r'. rewrite <- !app_assoc in *. auto.
        - destruct ts; [congruence|]. apply Hlong. }
      destruct (kind_is t "[") eqn:E2.
      { bnd H lb H1. apply expect_sound in H1 as (r & E & -> & K); [|discriminate]. injection E as <- <-. bnd H i H2. apply IE in H2 as (ts & r' & -> & -> & Hi); [|lia]. exp H.
        apply (IBL (ts0 ++ t :: ts ++ [t0])) in H as (ts' & r' & -> & -> & Hy); auto.
        - exists (t :: ts ++ t0 :: ts'), r'. split; [cbn; now rewrite <- app_assoc|]. split; auto.
          rewrite <- app_assoc in Hy. cbn in Hy. rewrite <- app_assoc in Hy. exact Hy.
        - now apply E_index. }
      destruct (is_postfix_op (t_kind t)) eqn:E3.
      { apply string_in_true in E3. bnd H x H1. unfold get_unwrap in H1. cbn in H1. injection H1 as <- <-.
        apply (IBL (ts0 ++ [t])) in H as (ts' & r' & -> & -> & Hy); auto.
        - exists (t :: ts'), r'. rewrite <- app_assoc in Hy. auto.
        - now apply E_postfix. }
      destruct (kind_is t "->" || kind_is t ".") eqn:E4; [|auto].
      apply orb_true_iff in E4. rewrite !kind_is_true in E4.
      bnd H x H1. unfold get_unwrap in H1. cbn in H1. injection H1 as <- <-. exp H.
      apply (IBL (ts0 ++ [t; t0])) in H as (ts' & r' & -> & -> & Hy); auto.
      * exists (t :: t0 :: ts'), r'. rewrite <- app_assoc in Hy. auto.
      * apply E_field; auto. intros [A (w & -> & B & C)]. eapply Hd; eauto.
    + intros l a c' Hnc H. cbn [read_expression_atom] in H. bnd H m H1. apply more_sound in H1 as [-> _].
      destruct m; cbn [negb] in H; [|discriminate].
      bnd H n H1. apply ns_follows_sound in H1 as [-> Hn].
      destruct n.
      { bnd H x H1. apply read_ns_id_sound in H1 as (ts & r & -> & -> & Hx & Hd). injection H as <- <-.
        exists ts, r. repeat split; auto. now apply E_name. }
      bnd H t H1. apply get_unwrap_sound in H1.
      destruct H1 as [(r & -> & ->)|(-> & -> & Hk)].
      2:{ exfalso. unfold kind_is in H. rewrite Hk in H. discriminate. }
      destruct (kind_is t "word") eqn:E1.
      { injection H as <- <-. apply kind_is_true in E1. exists [t], r. split; auto. split; auto. split.
        - apply E_name. now constructor.
        - intros w d x r' E _ Hns. injection E as ->. exfalso. assert (false = true) by (apply Hn; eauto). discriminate. }
      assert (Hnw : forall ts' r', (forall w, ts' = [w] -> ~ is "word" w) -> no_dot ts' r').
      { intros ts' r' Hf w d x r'' E Hw. exfalso. eapply Hf; eauto. }
      destruct (kind_is t "num" || kind_is t "string" || kind_is t "char") eqn:E2.
      { bnd H u H1. cbn in H1. injection H1 as <- <-. bnd H x H1.
        apply parse_literal_sound in H1 as (ts & r' & E & -> & t' & -> & Ht). injection E as <- <-. injection H as <- <-.
        apply kind_is_false in E1. exists [t], r. split; auto. split; auto. split.
        - apply E_literal. tauto.
        - apply Hnw. intros w E. injection E as <-. auto. }
      destruct (kind_is t "(") eqn:E3.
      { apply kind_is_true in E3. apply step_paren in H as (ts & r' & -> & -> & ts1 & rp & -> & Hrp & Hx); auto.
        exists (t :: ts1 ++ [rp]), r'. split; auto. split; auto. split.
        - apply E_paren; auto. intros Hf. apply (Hnc t ((ts1 ++ [rp]) ++ r')); auto.
          rewrite <- app_assoc. apply type_first_app; auto. intros ->. now apply expr_nil in Hx.
        - apply Hnw. intros w E. destruct ts1; discriminate. }
      destruct (kind_is t "{") eqn:E4; [|discriminate].
      bnd H u H1. cbn in H1. injection H1 as <- <-.
      apply IC in H as (ts & r' & E & -> & Hx & Hl). exists ts, r'. split; auto. split; auto. split; auto.
      apply Hnw. intros w ->. exfalso. eapply Hl; eauto.
    + intros l a c' H. cbn [parse_composite_literal] in H. exp H.
      apply ICL in H as (ts & r' & -> & -> & ts1 & l1 & rb & -> & Hrb & He & ->).
      exists (t :: ts1 ++ [rb]), r'. split; auto. split; auto. split.
      * now apply E_composite.
      * intros w E. destruct ts1; discriminate.
    + intros acc l a c' H. cbn [complit_loop] in H. bnd H t H1. apply peek_unwrap_sound in H1 as [-> _].
      destruct (kind_is t "}") eqn:E1.
      { exp H. injection H as <- <-. exists [t0], r. split; auto. split; auto. exists [], [], t0.
        rewrite app_nil_r. repeat split; auto. constructor. }
      bnd H x H1. apply IEN in H1 as (ts & r & -> & -> & Hx). bnd H t2 H2. apply peek_unwrap_sound in H2 as [-> Ht2].
      destruct (kind_is t2 ",") eqn:E2.
      { apply kind_is_true in E2. destruct Ht2 as [(r' & ->)|[_ Ht2]]; [|unfold is in E2; congruence].
        bnd H u H2. cbn in H2. injection H2 as <- <-.
        apply ICL in H as (ts' & r'' & -> & -> & ts1 & l1 & rb & -> & Hrb & He & ->).
        exists (ts ++ t2 :: ts1 ++ [rb]), r''. split; [rewrite <- !app_assoc; cbn; now rewrite <- app_assoc|]. split; auto.
        exists (ts ++ t2 :: ts1), (x :: l1), rb. split; [rewrite <- app_assoc; reflexivity|]. split; auto. split.
        - now apply Entries_more.
        - now rewrite <- app_assoc. }
      exp H. injection H as <- <-. exists (ts ++ [t0]), r0. split; [now rewrite <- app_assoc|]. split; auto.
      exists ts, [x], t0. repeat split; auto. now apply Entries_one.
    + intros l a c' H. cbn [parse_composite_literal_entry] in H. bnd H t H1. apply peek_unwrap_sound in H1 as [-> _].
      destruct (kind_is t ".") eqn:E1.
      { exp H. exp H. exp H. bnd H x H1. apply IE in H1 as (ts & r' & -> & -> & Hx); [|lia]. injection H as <- <-.
        exists (t0 :: t1 :: t2 :: ts), r'. repeat split; auto. now apply Entry_field. }
      bnd H b H1. apply follows_sound in H1 as [-> ->]; [|discriminate].
      destruct (head_kind "[" l) eqn:E2.
      { apply head_kind_true in E2 as (lb & r & -> & Hlb). bnd H u H1. cbn in H1. injection H1 as <- <-.
        bnd H k H1. apply IE in H1 as (ts & r' & -> & -> & Hk); [|lia]. exp H. exp H.
        bnd H x H3. apply IE in H3 as (ts' & r' & -> & -> & Hx); [|lia]. injection H as <- <-.
        exists (lb :: ts ++ t0 :: t1 :: ts'), r'. split; [cbn; now rewrite <- app_assoc|]. split; auto. now apply Entry_index. }
      bnd H x H1. apply IE in H1 as (ts & r' & -> & -> & Hx); [|lia]. injection H as <- <-.
      exists ts, r'. repeat split; auto. now apply Entry_plain.
    + intros l a c' H. cbn [parse_sizeof] in H. exp H. exp H. bnd H b H1. apply type_follows_sound in H1 as [-> Hb].
      bnd H x H1. destruct b.
      * bnd H1 y H2. injection H1 as <- <-. apply typeform_sound in H2 as (ts & r' & -> & -> & Hy & Hs).
        exp H. injection H as <- <-.
        exists (t :: t0 :: ts ++ [t1]), r. split; [cbn; now rewrite <- app_assoc|]. split; auto.
        apply E_sizeof_type; auto. apply Hs, Hb. auto.
      * bnd H1 y H2. injection H1 as <- <-. apply IE in H2 as (ts & r' & -> & -> & Hy); [|lia].
        exp H. injection H as <- <-.
        exists (t :: t0 :: ts ++ [t1]), r. split; [cbn; now rewrite <- app_assoc|]. split; auto.
        apply E_sizeof_expr; auto. intros Hf. assert (false = true); [|discriminate]. apply Hb. apply start_app_iff; auto.
        { intros ->. now apply expr_nil in Hy. }
        all: unfold is in *; congruence.
    + intros ts0 r0 H0 l a c' H. cbn [parse_call] in H. exp H. bnd H o H1. apply peek_sound in H1 as [-> Ho].
      bnd H args H1.
      assert (Ha : exists ts r1, r = ts ++ r1 /\ c = cur r1 /\ args_of ctx ts args).
      { destruct o as [y|].
        - destruct (kind_is y ")") eqn:E; cbn [negb] in H1.
          + injection H1 as <- <-. exists [], r. repeat split; auto. constructor.
          + bnd H1 x H2. apply IE in H2 as (ts & r' & -> & -> & Hx); [|lia].
            apply IAR in H1 as (ts' & r'' & -> & -> & l' & -> & Hl).
            exists (ts ++ ts'), r''. split; [now rewrite <- app_assoc|]. split; auto. apply Args_some.
            destruct Hl as [[-> ->]|(cm & ts'' & -> & Hc & Hl)].
            * rewrite app_nil_r. now constructor.
            * cbn. now apply Args_more.
        - injection H1 as <- <-. exists [], r. repeat split; auto. constructor. }
      destruct Ha as (ts & r1 & -> & -> & Ha). exp H. injection H as <- <-. exists (t :: ts ++ [t0]), r. split; [cbn; now rewrite <- app_assoc|]. split; auto.
      split; [|discriminate]. now apply E_call.
    + intros acc l a c' H. cbn [call_args] in H. bnd H b H1. apply follows_sound in H1 as [-> ->]; [|discriminate].
      destruct (head_kind "," l) eqn:E.
      * apply head_kind_true in E as (t & r & -> & Ht). bnd H u H1. cbn in H1. injection H1 as <- <-.
        bnd H x H1. apply IE in H1 as (ts & r' & -> & -> & Hx); [|lia].
        apply IAR in H as (ts' & r'' & -> & -> & l' & -> & Hl).
        exists (t :: ts ++ ts'), r''. split; [cbn; now rewrite <- app_assoc|]. split; auto.
        exists (x :: l'). split; [now rewrite <- app_assoc|]. right. exists t, (ts ++ ts'). repeat split; auto.
        destruct Hl as [[-> ->]|(c & ts'' & -> & Hc & Hl)].
        { rewrite app_nil_r. now constructor. }
        { cbn. now apply Args_more. }
      * injection H as <- <-. exists [], l. split; auto. split; auto. exists []. rewrite app_nil_r. split; auto. left; auto.
Qed.
Lemma parse_expr_sound f n : n <= 13 -> sound (parse_expr ctx f n) (fun ts r a => expr_of ctx n ts a).
Proof. apply (expr_sound_all f). Qed.

(** ** Declarations *)
Lemma start_mono ts r : type_start ctx ts -> type_start ctx (ts ++ r).
Proof. intros H. inversion H; subst; cbn; [now apply Start_const|now apply Start_name|now apply Start_foreign]. Qed.
Lemma head_app k ts r : head_kind k (ts ++ r) = false -> head_kind k ts = false.
Proof. destruct ts; auto. Qed.

Lemma form_indexes_sound f : forall acc, sound (form_indexes ctx f acc)
  (fun ts r a => exists l, a = acc ++ l /\ many (index_of ctx) ts l).
Proof.
  induction f as [|f IH]; intros acc l a c' H; [discriminate|]. cbn [form_indexes] in H.
  bnd H b H1. apply follows_sound in H1 as [-> ->]; [|discriminate]. destruct (head_kind "[" l) eqn:E.
  - apply head_kind_true in E as (lb & r & -> & Hlb). bnd H u H1. cbn in H1. injection H1 as <- <-.
    bnd H o H1. apply peek_sound in H1 as [-> Ho]. bnd H x H1.
    assert (Hx : exists ts r', r = ts ++ r' /\ c = cur r' /\ match x with Some v => expr_of ctx 0 ts v | None => ts = [] end).
    { destruct o as [y|].
      - destruct (kind_is y "]") eqn:Ey; cbn [negb] in H1.
        + injection H1 as <- <-. exists [], r. auto.
        + bnd H1 v H2. apply parse_expr_sound in H2 as (ts & r' & -> & -> & Hv); [|lia]. injection H1 as <- <-. eauto 6.
      - injection H1 as <- <-. exists [], r. auto. }
    destruct Hx as (ts & r' & -> & -> & Hx). exp H. apply IH in H as (ts' & r'' & -> & -> & l & -> & Hl).
    exists ((lb :: ts ++ [t]) ++ ts'), r''. split; [cbn; rewrite <- !app_assoc; reflexivity|]. split; auto.
    exists (x :: l). split; [now rewrite <- app_assoc|]. constructor; auto.
    destruct x; [now constructor|]. subst ts. now constructor.
  - injection H as <- <-. exists [], l. split; auto. split; auto. exists []. rewrite app_nil_r. split; auto. constructor.
Qed.
Lemma parse_form_sound f : sound (parse_form ctx f) (fun ts r a => form_of ctx ts a).
Proof.
  intros l a c' H. unfold parse_form in H. bnd H t H1. apply peek_unwrap_sound in H1 as [-> Ht].
  bnd H h H1. apply count_stars_sound in H1 as (ss & r & -> & -> & j & Hj & ->). exp H.
  destruct (t_content t0) as [|n ns] eqn:E; [discriminate|].
  bnd H ix H2. apply form_indexes_sound in H2 as (ixs & r' & -> & -> & l & -> & Hl). injection H as <- <-.
  exists (ss ++ t0 :: ixs), r'. split; [now rewrite <- app_assoc|]. split; auto.
  destruct Ht as [(r & Er)|[Er _]]; [|destruct ss; discriminate].
  assert (Hf : exists rest, ss ++ t0 :: ixs = t :: rest).
  { destruct ss as [|s0 ss]; cbn in *; injection Er as -> _; eauto. }
  destruct Hf as (rest & Hf). rewrite <- E. eapply Form; eauto. congruence.
Qed.
Lemma vardecl_sound f l s c' : type_start ctx l -> parse_variable_declaration ctx f (cur l) = (Ok s, c') ->
  exists ts r, l = ts ++ r /\ c' = cur r /\ stmt_of ctx ts s false.
Proof.
  intros Hs H. unfold parse_variable_declaration in H. bnd H t H1. apply peek_unwrap_sound in H1 as [-> Ht].
  bnd H tn H1. apply parse_typename_sound in H1 as (ts & r & -> & -> & Htn & Hst).
  bnd H fm H1. apply parse_form_sound in H1 as (ts' & r' & -> & -> & Hf).
  bnd H b H1. apply eat_sound in H1; [|discriminate]. bnd H v H2.
  assert (Hv : exists ts2 r2, r' = ts2 ++ r2 /\ c0 = cur r2 /\ init_of ctx ts2 v).
  { destruct b.
    - destruct H1 as (q & r2 & -> & Hq & ->). bnd H2 x H3. apply parse_expr_sound in H3 as (ts2 & r3 & -> & -> & Hx); [|lia].
      injection H2 as <- <-. exists (q :: ts2), r3. repeat split; auto. now constructor.
    - destruct H1 as [-> _]. injection H2 as <- <-. exists [], r'. repeat split; auto. constructor. }
  destruct Hv as (ts2 & r2 & -> & -> & Hv). exp H. injection H as <- <-.
  exists (ts ++ ts' ++ ts2 ++ [t0]), r. split; [now rewrite <- !app_assoc|]. split; auto.
  destruct (typename_nonempty _ _ Htn) as (t1 & rest & ->).
  destruct Ht as [(r0 & Er)|[Er _]]; [|discriminate]. injection Er as -> _.
  eapply S_decl; eauto. apply Hst, Hs.
Qed.
Lemma parse_return_sound f : sound (parse_return ctx f) (fun ts r s => stmt_of ctx ts s false).
Proof.
  intros l s c' H. unfold parse_return in H. exp H. bnd H y H1. apply peek_unwrap_sound in H1 as [-> Hy].
  destruct (kind_is y ";") eqn:E.
  - apply kind_is_true in E. destruct Hy as [(r' & ->)|[_ Hy]]; [|unfold is in E; congruence].
    bnd H u H1. cbn in H1. injection H1 as <- <-. injection H as <- <-. exists [t; y], r'. repeat split; auto. now constructor.
  - bnd H x H1. apply parse_expr_sound in H1 as (ts & r' & -> & -> & Hx); [|lia]. exp H. injection H as <- <-.
    exists (t :: ts ++ [t0]), r. split; [cbn; now rewrite <- app_assoc|]. split; auto. now constructor.
Qed.
Lemma commas_snoc A (P : list token -> A -> Prop) ts c ts' a l :
  P ts a -> is "," c -> commas P ts' l -> commas P (ts ++ c :: ts') (a :: l).
Proof. apply Commas_more. Qed.
Lemma case_values_sound f : forall acc, sound (case_values ctx f acc)
  (fun ts r a => exists l, a = acc ++ l /\ commas (value_of ctx) ts l).
Proof.
  induction f as [|f IH]; intros acc l a c' H; [discriminate|]. cbn [case_values] in H.
  bnd H b H1. apply follows_sound in H1 as [-> ->]; [|discriminate]. bnd H v H1.
  assert (Hv : exists ts r, l = ts ++ r /\ c = cur r /\ value_of ctx ts v).
  { destruct (head_kind "word" l) eqn:E.
    - bnd H1 x H2. apply read_ns_id_sound in H2 as (ts & r & -> & -> & Hx & _). injection H1 as <- <-.
      exists ts, r. repeat split; auto. now constructor.
    - bnd H1 x H2. apply parse_literal_sound in H2 as (ts & r & -> & -> & t & -> & Ht). injection H1 as <- <-.
      exists [t], r. repeat split; auto. cbn in E. apply kind_is_false in E. constructor. tauto. }
  destruct Hv as (ts & r & -> & -> & Hv).
  bnd H b H2. apply follows_sound in H2 as [-> ->]; [|discriminate]. destruct (head_kind "," r) eqn:E.
  - apply head_kind_true in E as (cm & r' & -> & Hc). bnd H u H2. cbn in H2. injection H2 as <- <-.
    apply IH in H as (ts' & r'' & -> & -> & l & -> & Hl).
    exists (ts ++ cm :: ts'), r''. split; [now rewrite <- app_assoc|]. split; auto. exists (v :: l).
    split; [now rewrite <- app_assoc|]. now constructor.
  - injection H as <- <-. exists ts, r. repeat split; auto. exists [v]. split; auto. now constructor.
Qed.
Lemma for_init_sound f : sound (for_init ctx f) (fun ts r a => forinit_of ctx ts a).
Proof.
  intros l a c' H. unfold for_init in H. bnd H b H1. apply follows_sound in H1 as [-> ->]; [|discriminate].
  destruct (head_kind ";" l) eqn:E.
  { injection H as <- <-. exists [], l. repeat split; auto. constructor. }
  bnd H t H1. apply peek_unwrap_sound in H1 as [-> Ht].
  destruct (kind_is t "word" && is_type (t_content t) (mi_typedefs (thismod ctx))) eqn:Et.
  - apply andb_true_iff in Et as [A B]. apply kind_is_true in A. apply is_type_name in B.
    destruct Ht as [(r & ->)|[_ Ht]]; [|unfold is in A; congruence].
    bnd H tn H1. apply parse_typename_sound in H1 as (ts & r' & Er & -> & Htn & _).
    bnd H fm H1. apply parse_form_sound in H1 as (ts' & r'' & -> & -> & Hf). exp H.
    bnd H v H2. apply parse_expr_sound in H2 as (ts2 & r2 & -> & -> & Hv); [|lia]. injection H as <- <-.
    exists (ts ++ ts' ++ t0 :: ts2), r2. split; [rewrite Er, <- !app_assoc; reflexivity|]. split; auto.
    apply Forinit_decl; auto. destruct (typename_nonempty _ _ Htn) as (t1 & rest & ->). injection Er as <- _. exists t, rest. auto.
  - bnd H v H1. apply parse_expr_sound in H1 as (ts & r & -> & -> & Hv); [|lia]. injection H as <- <-.
    exists ts, r. repeat split; auto. apply Forinit_expr; auto. intros (t1 & rest & -> & A & B).
    destruct Ht as [(r' & Er)|[Er _]]; [|discriminate]. injection Er as <- _.
    apply kind_is_true in A. apply is_type_name in B. rewrite A, B in Et. discriminate.
Qed.
Lemma optional_expr_sound f k : k <> "error"%string -> sound (optional_expr ctx f k) (fun ts r a => opt_expr_of ctx ts a).
Proof.
  intros Hk l a c' H. unfold optional_expr in H. bnd H b H1. apply follows_sound in H1 as [-> ->]; auto.
  destruct (head_kind k l).
  - injection H as <- <-. exists [], l. repeat split; auto. constructor.
  - bnd H v H1. apply parse_expr_sound in H1 as (ts & r & -> & -> & Hv); [|lia]. injection H as <- <-.
    exists ts, r. repeat split; auto. now constructor.
Qed.

(** ** Statements *)
Definition soundw {A} (m : M (werr A)) (Q : list token -> list token -> A -> Prop) : Prop :=
  forall l a c', m (cur l) = (Ok (a, []), c') -> exists ts r, l = ts ++ r /\ c' = cur r /\ Q ts r a.
Definition closed (o : bool) (r : list token) : Prop := o = true -> head_kind "else" r = false.

Lemma body_loop_S f ss es c : body_loop ctx (S f) ss es c =
  bind (follows "}") (fun b => if b : bool then bind (expect "}" None) (fun _ => ret (ss, es))
    else fun c => match parse_statement ctx f c with
        | (Ok (s, errs), c') => body_loop ctx f (ss ++ [s]) (es ++ errs) c'
        | (Err e, c') => bind (skip_statement f) (fun _ => body_loop ctx f ss (es ++ [e])) c'
        | (Abort w, c') => (Abort w, c')
        | (NoFuel, c') => (NoFuel, c')
        end) c.
Proof. reflexivity. Qed.
Lemma body_loop_errors f : forall ss es c b es' c', body_loop ctx f ss es c = (Ok (b, es'), c') -> exists x, es' = es ++ x.
Proof.
  induction f as [|f IH]; intros ss es c b es' c' H; [discriminate|]. rewrite body_loop_S in H.
  bnd H q H1. destruct q.
  - bnd H t H2. injection H as <- <- <-. exists []. now rewrite app_nil_r.
  - destruct (parse_statement ctx f c0) as [[[s e1]|x|x|] c2]; try discriminate.
    + apply IH in H as (x & ->). exists (e1 ++ x). now rewrite app_assoc.
    + bnd H u H2. apply IH in H as (y & ->). exists ([x] ++ y). now rewrite app_assoc.
Qed.
Lemma switch_cases_errors f : forall cs es c b es' c', switch_cases ctx f cs es c = (Ok (b, es'), c') -> exists x, es' = es ++ x.
Proof.
  induction f as [|f IH]; intros cs es c b es' c' H; [discriminate|]. cbn [switch_cases] in H.
  bnd H q H1. destruct q.
  - bnd H t H2. destruct t as [cc e1]. apply IH in H as (x & ->). exists (e1 ++ x). now rewrite app_assoc.
  - injection H as <- <- <-. exists []. now rewrite app_nil_r.
Qed.

Definition stmt_sound (f : nat) : Prop :=
  let Q := fun ts r s => exists o, stmt_of ctx ts s o /\ closed o r in
  soundw (parse_statement ctx f) Q /\ soundw (parse_while ctx f) Q /\ soundw (parse_if ctx f) Q /\
  soundw (parse_for ctx f) Q /\ soundw (read_switch ctx f) Q /\
  (forall cs, soundw (switch_cases ctx f cs []) (fun ts r a => exists l, a = cs ++ l /\ cases_of ctx ts l)) /\
  soundw (read_switch_case ctx f) (fun ts r a => exists k ts1 c ts2, ts = k :: ts1 ++ c :: ts2 /\ is "case" k /\ is ":" c
     /\ commas (value_of ctx) ts1 (fst a) /\ body_of ctx ts2 (snd a)) /\
  soundw (parse_statements_block ctx f) (fun ts r b => exists o, block_of ctx ts b o /\ closed o r) /\
  soundw (read_body ctx f) (fun ts r b => body_of ctx ts b) /\
  (forall ss, soundw (body_loop ctx f ss []) (fun ts r b => exists ts1 l rb,
     ts = ts1 ++ [rb] /\ is "}" rb /\ stmts_of ctx ts1 l /\ b = ss ++ l)).
Lemma closed_false r : closed false r.
Proof. intros H. discriminate. Qed.
Hint Resolve closed_false : core.

Lemma stmt_sound_all f : stmt_sound f.
Proof.
  induction f as [|f IH].
  - unfold stmt_sound, soundw. repeat split; intros; discriminate.
  - destruct IH as (IS & IW & II & IF & ISW & ISC & IRC & IB & IRB & IBL).
    unfold stmt_sound. split; [|split; [|split; [|split; [|split; [|split; [|split; [|split; [|split]]]]]]]].
    + intros l s c' H. cbn [parse_statement] in H. bnd H m H1. apply more_sound in H1 as [-> _].
      destruct m; cbn [negb] in H; [|discriminate].
      bnd H b H1. apply type_follows_sound in H1 as [-> Hb]. destruct b.
      { bnd H x H1. injection H as <- <-. apply vardecl_sound in H1 as (ts & r & -> & -> & Hx); [|tauto].
        exists ts, r. eauto 6. }
      assert (Hns : ~ type_start ctx l) by (intros Hc; apply Hb in Hc; discriminate).
      bnd H nx H1. apply peek_unwrap_sound in H1 as [-> Hnx].
      destruct (kind_is nx "break") eqn:E1.
      { apply kind_is_true in E1. destruct Hnx as [(r & ->)|[_ Hk]]; [|unfold is in E1; congruence].
        bnd H u H1. cbn in H1. injection H1 as <- <-. exp H. injection H as <- <-.
        exists [nx; t], r0. split; auto. split; auto. exists false. split; auto. now constructor. }
      destruct (kind_is nx "continue") eqn:E2.
      { apply kind_is_true in E2. destruct Hnx as [(r & ->)|[_ Hk]]; [|unfold is in E2; congruence].
        bnd H u H1. cbn in H1. injection H1 as <- <-. exp H. injection H as <- <-.
        exists [nx; t], r0. split; auto. split; auto. exists false. split; auto. now constructor. }
      destruct (kind_is nx "for") eqn:E3; [now apply IF|].
      destruct (kind_is nx "if") eqn:E4; [now apply II|].
      destruct (kind_is nx "return") eqn:E5.
      { bnd H x H1. injection H as <- <-. apply parse_return_sound in H1 as (ts & r & -> & -> & Hx). exists ts, r. eauto 6. }
      destruct (kind_is nx "switch") eqn:E6; [now apply ISW|].
      destruct (kind_is nx "while") eqn:E7; [now apply IW|].
      bnd H x H1. apply parse_expr_sound in H1 as (ts & r & -> & -> & Hx); [|lia]. exp H. injection H as <- <-.
      exists (ts ++ [t]), r0. split; [now rewrite <- app_assoc|]. split; auto. exists false. split; auto.
      constructor; auto. intros Hc. apply Hns. apply start_mono; auto.
    + intros l s c' H. cbn [parse_while] in H. exp H. exp H. bnd H x H1.
      apply parse_expr_sound in H1 as (ts & r' & -> & -> & Hx); [|lia]. exp H.
      bnd H b H2. destruct b as [b es]. injection H as <- -> <-.
      apply IB in H2 as (ts' & r' & -> & -> & o & Hb & Ho).
      exists (t :: t0 :: ts ++ t1 :: ts'), r'. split; [cbn; now rewrite <- app_assoc|]. split; auto. exists o. split; auto. now constructor.
    + intros l s c' H. cbn [parse_if] in H. exp H. exp H. bnd H x H1.
      apply parse_expr_sound in H1 as (ts & r' & -> & -> & Hx); [|lia]. exp H.
      bnd H b H2. destruct b as [b es]. bnd H el H3.
      assert (es = []) as ->.
      { destruct el; [|injection H; congruence]. bnd H u H4. bnd H b2 H5. destruct b2 as [b2 es2]. injection H as _ E _.
        apply app_eq_nil in E. tauto. }
      apply IB in H2 as (ts' & r' & -> & -> & o & Hb & Ho).
      apply follows_sound in H3 as [-> ->]; [|discriminate]. destruct (head_kind "else" r') eqn:E.
      * assert (o = false) as -> by (destruct o; auto; specialize (Ho eq_refl); congruence).
        apply head_kind_true in E as (k & r'' & -> & Hk). bnd H u H4. cbn in H4. injection H4 as <- <-.
        bnd H b2 H5. destruct b2 as [b2 es2]. injection H as <- -> <-.
        apply IB in H5 as (ts2 & r2 & -> & -> & o2 & Hb2 & Ho2).
        exists (t :: t0 :: ts ++ t1 :: ts' ++ k :: ts2), r2. split; [cbn; rewrite <- !app_assoc; cbn; now rewrite <- app_assoc|].
        split; auto. exists o2. split; auto. now constructor.
      * injection H as <- <-. exists (t :: t0 :: ts ++ t1 :: ts'), r'. split; [cbn; now rewrite <- app_assoc|]. split; auto.
        exists true. split; [econstructor; eauto|]. intros _. exact E.
    + intros l s c' H. cbn [parse_for] in H. exp H. exp H. bnd H i H1.
      apply for_init_sound in H1 as (ts & r' & -> & -> & Hi). exp H.
      bnd H cc H2. apply optional_expr_sound in H2 as (ts1 & r' & -> & -> & Hc); [|discriminate]. exp H.
      bnd H aa H3. apply optional_expr_sound in H3 as (ts2 & r' & -> & -> & Ha); [|discriminate]. exp H.
      bnd H b H4. destruct b as [b es]. injection H as <- -> <-.
      apply IB in H4 as (ts' & r' & -> & -> & o & Hb & Ho).
      exists (t :: t0 :: ts ++ t1 :: ts1 ++ t2 :: ts2 ++ t3 :: ts'), r'.
      split; [cbn; rewrite <- !app_assoc; cbn; rewrite <- !app_assoc; cbn; now rewrite <- app_assoc|]. split; auto. exists o. split; auto. now constructor.
    + intros l s c' H. cbn [read_switch] in H. exp H. bnd H o H1. apply peek_sound in H1 as [-> Ho].
      bnd H is_str H1.
      assert (Hw : exists ws r', r = ws ++ r' /\ c = cur r' /\
         if is_str then exists w, ws = [w] /\ is "word" w /\ t_content w = L "str" else ws = []).
      { destruct o as [w|].
        - destruct (kind_is w "word" && str_eqb (t_content w) (L "str")) eqn:E.
          + apply andb_true_iff in E as [A B]. apply kind_is_true in A. apply str_eqb_eq in B.
            destruct r as [|w' r].
            { destruct Ho as [(t' & E & Hk)|[E _]]; [|discriminate]. injection E as ->. unfold is in A. congruence. }
            injection Ho as ->. cbn in H1. injection H1 as <- <-. exists [w'], r. eauto 8.
          + injection H1 as <- <-. exists [], r. auto.
        - injection H1 as <- <-. exists [], r. auto. }
      destruct Hw as (ws & r' & -> & -> & Hw). exp H. bnd H x H2.
      apply parse_expr_sound in H2 as (ts & r' & -> & -> & Hx); [|lia]. exp H. exp H.
      bnd H cs H4. destruct cs as [cs es]. bnd H d H5. bnd H df H6. destruct df as [df es2]. bnd H t3 H7. injection H as <- -> <-.
      assert (Hes : es = []).
      { destruct d; [|injection H6; congruence]. bnd H6 y1 Hy1. bnd H6 y2 Hy2. bnd H6 y3 Hy3. destruct y3. injection H6 as _ E _.
        apply app_eq_nil in E. tauto. }
      subst es. apply ISC in H4 as (ts1 & r' & -> & -> & l & E & Hl). cbn in E. subst l.
      apply follows_sound in H5 as [-> ->]; [|discriminate].
      assert (Hd : exists ts2 r2, r' = ts2 ++ r2 /\ c1 = cur r2 /\ default_of ctx ts2 df).
      { destruct (head_kind "default" r').
        - exp H6. exp H6. bnd H6 bb H9. destruct bb as [bb es]. injection H6 as <- -> <-.
          apply IRB in H9 as (ts2 & r2 & -> & -> & Hbb).
          exists (t4 :: t5 :: ts2), r2. split; auto. split; auto. now constructor.
        - injection H6 as <- <-. exists [], r'. split; auto. split; auto. constructor. }
      destruct Hd as (ts2 & r2 & -> & -> & Hd).
      apply expect_sound in H7 as (r0 & -> & -> & K3); [|discriminate].
      destruct is_str.
      * destruct Hw as (w & -> & Hw & Hs).
        exists (t :: w :: t0 :: ts ++ t1 :: t2 :: ts1 ++ ts2 ++ [t3]), r0.
        split; [cbn; rewrite <- !app_assoc; cbn; rewrite <- !app_assoc; reflexivity|]. split; auto. exists false. split; auto. now constructor.
      * subst ws. exists (t :: t0 :: ts ++ t1 :: t2 :: ts1 ++ ts2 ++ [t3]), r0.
        split; [cbn; rewrite <- !app_assoc; cbn; rewrite <- !app_assoc; reflexivity|]. split; auto. exists false. split; auto. now constructor.
    + intros cs l a c' H. cbn [switch_cases] in H. bnd H b H1. apply follows_sound in H1 as [-> ->]; [|discriminate].
      destruct (head_kind "case" l) eqn:E.
      * bnd H cc H1. destruct cc as [cc es].
        assert (es = []) as ->.
        { apply switch_cases_errors in H as (x & Ex). symmetry in Ex. apply app_eq_nil in Ex as [Ex _]. exact Ex. }
        apply IRC in H1 as (ts & r & -> & -> & k & ts1 & c1 & ts2 & -> & Hk & Hc & Hv & Hb).
        apply ISC in H as (ts' & r' & -> & -> & l & -> & Hl).
        exists (k :: ts1 ++ c1 :: ts2 ++ ts'), r'. split; [cbn; rewrite <- !app_assoc; cbn; now rewrite <- app_assoc|]. split; auto.
        exists (cc :: l). split; [now rewrite <- app_assoc|]. destruct cc. now constructor.
      * injection H as <- <-. exists [], l. split; auto. split; auto. exists []. rewrite app_nil_r. split; auto. constructor.
    + intros l a c' H. cbn [read_switch_case] in H. exp H. bnd H v H1.
      apply case_values_sound in H1 as (ts & r' & -> & -> & l & E & Hl). cbn in E. subst l. exp H.
      bnd H b H2. destruct b as [b es]. injection H as <- -> <-.
      apply IRB in H2 as (ts' & r' & -> & -> & Hb).
      exists (t :: ts ++ t0 :: ts'), r'. split; [cbn; now rewrite <- app_assoc|]. split; auto. exists t, ts, t0, ts'. auto.
    + intros l a c' H. cbn [parse_statements_block] in H. bnd H b H1. apply follows_sound in H1 as [-> ->]; [|discriminate].
      destruct (head_kind "{" l) eqn:E.
      * apply IRB in H as (ts & r & -> & -> & Hb). exists ts, r. repeat split; auto. exists false. split; auto. now constructor.
      * bnd H x H1. destruct x as [x es]. injection H as <- -> <-. apply IS in H1 as (ts & r & -> & -> & o & Hx & Ho).
        exists ts, r. repeat split; auto. exists o. split; auto. constructor; auto. apply head_kind_false. eapply head_app; eauto.
    + intros l a c' H. cbn [read_body] in H. exp H. apply IBL in H as (ts & r' & -> & -> & ts1 & l & rb & -> & Hrb & Hl & E).
      cbn in E. subst l. exists (t :: ts1 ++ [rb]), r'. repeat split; auto.
    + intros ss l a c' H. rewrite body_loop_S in H. bnd H b H1. apply follows_sound in H1 as [-> ->]; [|discriminate].
      destruct (head_kind "}" l) eqn:E.
      * exp H. injection H as <- <-. exists [t], r. split; auto. split; auto. exists [], [], t. rewrite app_nil_r. repeat split; auto. constructor.
      * destruct (parse_statement ctx f (cur l)) as [[[s es]|x|x|] c2] eqn:Es; try discriminate.
        { assert (es = []) as ->.
          { apply body_loop_errors in H as (x & Ex). symmetry in Ex. apply app_eq_nil in Ex as [Ex _]. exact Ex. }
          apply IS in Es as (ts & r & -> & -> & o & Hs & Ho).
          apply IBL in H as (ts' & r' & -> & -> & ts1 & l & rb & -> & Hrb & Hl & ->).
          exists ((ts ++ ts1) ++ [rb]), r'. split; [now rewrite <- !app_assoc|]. split; auto.
          exists (ts ++ ts1), (s :: l), rb. split; auto. split; auto. split; [econstructor; eauto|]. now rewrite <- app_assoc. }
        { exfalso. bnd H u H2. apply body_loop_errors in H as (y & Ey). discriminate. }
Qed.

(** ** Elements of a module *)
Definition tail {A} (P : list token -> A -> Prop) (ts : list token) (l : list A) : Prop :=
  (ts = [] /\ l = []) \/ exists c ts', ts = c :: ts' /\ is "," c /\ commas P ts' l.
Lemma tail_commas A (P : list token -> A -> Prop) ts a ts' l : P ts a -> tail P ts' l -> commas P (ts ++ ts') (a :: l).
Proof.
  intros Ha [[-> ->]|(c & ts2 & -> & Hc & Hl)].
  - rewrite app_nil_r. now constructor.
  - now constructor.
Qed.
Lemma tail_nil A (P : list token -> A -> Prop) : tail P [] [].
Proof. left. auto. Qed.
Lemma tail_cons A (P : list token -> A -> Prop) c ts a ts' l : is "," c -> P ts a -> tail P ts' l -> tail P (c :: ts ++ ts') (a :: l).
Proof. intros Hc Ha Hl. right. exists c, (ts ++ ts'). repeat split; auto. now apply tail_commas. Qed.
Hint Resolve tail_nil tail_cons : core.

Definition tail_names (ts : list token) (l : list form) : Prop :=
  (ts = [] /\ l = []) \/ exists c ts', ts = c :: ts' /\ is "," c /\ ~ type_start ctx ts' /\ names_of ctx ts' l.
Lemma tail_names_of ts a ts' l : form_of ctx ts a -> tail_names ts' l -> names_of ctx (ts ++ ts') (a :: l).
Proof.
  intros Ha [[-> ->]|(c & ts2 & -> & Hc & Hn & Hl)].
  - rewrite app_nil_r. now constructor.
  - now constructor.
Qed.
Lemma param_forms_sound f : forall acc, sound (param_forms ctx f acc) (fun ts r a =>
  exists l, a = acc ++ l /\ tail_names ts l /\
    (head_kind "," r = true -> exists c r', r = c :: r' /\ (type_start ctx r' \/ head_kind "..." r' = true))).
Proof.
  induction f as [|f IH]; intros acc l a c' H; [discriminate|]. cbn [param_forms] in H.
  bnd H b H1. apply follows_sound in H1 as [-> ->]; [|discriminate]. destruct (head_kind "," l) eqn:E.
  - apply head_kind_true in E as (cm & r & -> & Hc). bnd H t H1. unfold get_unwrap in H1. cbn in H1. injection H1 as <- <-.
    bnd H tf H1. apply type_follows_sound in H1 as [-> Htf]. bnd H el H1.
    assert (Hel : c = cur r /\ (el = true <-> type_start ctx r \/ head_kind "..." r = true)).
    { destruct tf.
      - injection H1 as <- <-. split; auto. tauto.
      - apply follows_sound in H1 as [-> ->]; [|discriminate]. split; auto. intuition discriminate. }
    destruct Hel as [-> Hel]. destruct el.
    + bnd H u H2. cbn in H2. injection H2 as <- <-. injection H as <- <-.
      exists [], (cm :: r). split; auto. split; auto. exists []. rewrite app_nil_r. split; auto. split; [left; auto|].
      intros _. exists cm, r. split; auto. tauto.
    + bnd H x H2. apply parse_form_sound in H2 as (ts & r' & -> & -> & Hx).
      apply IH in H as (ts' & r'' & -> & -> & l & -> & Hl & Hr).
      exists (cm :: ts ++ ts'), r''. split; [cbn; now rewrite <- app_assoc|]. split; auto. exists (x :: l).
      split; [now rewrite <- app_assoc|]. split; auto.
      right. exists cm, (ts ++ ts'). split; auto. split; auto. split; [|now apply tail_names_of].
      intros Hs. assert (false = true); [|discriminate]. apply Hel. left. rewrite app_assoc. now apply start_mono.
  - injection H as <- <-. exists [], l. split; auto. split; auto. exists []. rewrite app_nil_r. split; auto. split; [left; auto|].
    congruence.
Qed.
Lemma parameter_sound f l a c' : type_start ctx l -> parse_function_parameter ctx f (cur l) = (Ok a, c') ->
  exists ts r, l = ts ++ r /\ c' = cur r /\ group_of ctx ts a /\
    (head_kind "," r = true -> exists c r', r = c :: r' /\ (type_start ctx r' \/ head_kind "..." r' = true)).
Proof.
  intros Hs H. unfold parse_function_parameter in H.
  bnd H tn H1. apply parse_typename_sound in H1 as (ts & r & -> & -> & Htn & Hst).
  bnd H x H1. apply parse_form_sound in H1 as (ts' & r' & -> & -> & Hx).
  bnd H fs H1. apply param_forms_sound in H1 as (ts2 & r2 & -> & -> & l & -> & Hl & Hr). injection H as <- <-.
  exists (ts ++ ts' ++ ts2), r2. split; [now rewrite <- !app_assoc|]. split; auto. split; auto.
  constructor; auto. { apply Hst, Hs. } now apply tail_names_of.
Qed.
Inductive plist : list token -> list type_and_forms -> list token -> Prop :=
| PL_nil r : plist [] [] r
| PL_last ts g r : group_of ctx ts g -> plist ts [g] r
| PL_more ts g c ts' l r : group_of ctx ts g -> is "," c ->
    (type_start ctx (ts' ++ r) \/ head_kind "..." (ts' ++ r) = true) ->
    (ts' = [] -> ~ type_start ctx r) -> plist ts' l r -> plist (ts ++ c :: ts') (g :: l) r.
Lemma plist_plain ts l r : plist ts l r -> head_kind "..." r = false -> params_of ctx ts l false.
Proof.
  intros H Hr. induction H.
  - constructor.
  - now constructor.
  - constructor; auto. intros ->. specialize (H2 eq_refl). cbn in H1. destruct H1; [auto|congruence].
Qed.
Lemma plist_dots ts l d r : plist ts l (d :: r) -> is "..." d -> params_of ctx (ts ++ [d]) l true.
Proof.
  intros H Hd. remember (d :: r) as r0 eqn:E. induction H.
  - now constructor.
  - now constructor.
  - rewrite <- app_assoc. cbn. constructor; auto. intros E'. destruct ts'; discriminate.
Qed.
Lemma group_nonempty ts g : group_of ctx ts g -> ts <> [].
Proof.
  intros [ts1 t ts2 fs _ Ht _] E. apply app_eq_nil in E as [-> _].
  apply typename_nonempty in Ht as (? & ? & Ht). discriminate.
Qed.
Lemma params_loop_sound f : forall acc, sound (params_loop ctx f acc) (fun ts r a =>
  exists l, a = acc ++ l /\ plist ts l r /\ (ts = [] -> ~ type_start ctx r)).
Proof.
  induction f as [|f IH]; intros acc l a c' H; [discriminate|]. cbn [params_loop] in H.
  bnd H b H1. apply type_follows_sound in H1 as [-> Hb]. destruct b.
  - bnd H p H1. apply parameter_sound in H1 as (ts & r & -> & -> & Hp & Hr); [|tauto].
    bnd H b H1. apply eat_sound in H1; [|discriminate]. destruct b.
    + destruct H1 as (cm & r' & -> & Hc & ->). apply IH in H as (ts' & r'' & -> & -> & l & -> & Hl & Hn).
      exists (ts ++ cm :: ts'), r''. split; [now rewrite <- app_assoc|]. split; auto. exists (p :: l).
      split; [now rewrite <- app_assoc|]. split.
      * destruct Hr as (c1 & r' & E & Hr); [cbn; now apply kind_is_true|]. injection E as <- <-. now apply PL_more.
      * intros E. destruct ts; discriminate.
    + destruct H1 as [-> _]. injection H as <- <-. exists ts, r. split; auto. split; auto. exists [p]. split; auto.
      split; [now constructor|]. intros E. now apply group_nonempty in Hp.
  - injection H as <- <-. exists [], l. split; auto. split; auto. exists []. rewrite app_nil_r. split; auto. split; [constructor|].
    intros _ Hs. apply Hb in Hs. discriminate.
Qed.
Lemma function_sound f pub tn fm p : soundw (parse_function_declaration ctx f pub tn fm p) (fun ts r a =>
  exists lp ps l v rp ts' b o, ts = lp :: ps ++ rp :: ts' /\ is "(" lp /\ params_of ctx ps l v /\ is ")" rp /\
    block_of ctx ts' b o /\ a = MFunc (mkFunc p pub tn fm (mkFp l v) b)).
Proof.
  intros l a c' H. unfold parse_function_declaration in H. exp H.
  bnd H ps H1. apply params_loop_sound in H1 as (ts & r' & -> & -> & l & E & Hl & _). cbn in E. subst l.
  bnd H v H1. apply eat_sound in H1; [|discriminate].
  assert (Hv : exists ps' r2, ts ++ r' = ps' ++ r2 /\ c = cur r2 /\ params_of ctx ps' ps v).
  { destruct v.
    - destruct H1 as (d & r2 & -> & Hd & ->). exists (ts ++ [d]), r2. split; [now rewrite <- app_assoc|]. split; auto.
      eapply plist_dots; eauto.
    - destruct H1 as [-> Hr]. exists ts, r'. split; auto. split; auto. eapply plist_plain; eauto. }
  destruct Hv as (ps' & r2 & -> & -> & Hps). exp H.
  bnd H b H2. destruct b as [b es]. injection H as <- -> <-.
  apply stmt_sound_all in H2 as (ts' & r3 & -> & -> & o & Hb & _).
  exists (t :: ps' ++ t0 :: ts'), r3. split; [cbn; now rewrite <- app_assoc|]. split; auto.
  exists t, ps', ps, v, t0, ts', b, o. repeat split; auto.
Qed.
Lemma enum_loop_sound f : forall acc, sound (enum_loop ctx f acc) (fun ts r a =>
  exists ts1 l tc co, ts = ts1 ++ tc /\ a = acc ++ l /\ commas (enum_entry_of ctx) ts1 l /\ optional "," tc co).
Proof.
  induction f as [|f IH]; intros acc l a c' H; [discriminate|]. cbn [enum_loop] in H. exp H.
  bnd H b H1. apply eat_sound in H1; [|discriminate]. bnd H v H2.
  assert (Hv : exists ts2 r2, r = ts2 ++ r2 /\ c0 = cur r2 /\ init_of ctx ts2 v).
  { destruct b.
    - destruct H1 as (q & r2 & -> & Hq & ->). bnd H2 x H3. apply parse_expr_sound in H3 as (ts2 & r3 & -> & -> & Hx); [|lia].
      injection H2 as <- <-. exists (q :: ts2), r3. repeat split; auto. now constructor.
    - destruct H1 as [-> _]. injection H2 as <- <-. exists [], r. repeat split; auto. constructor. }
  destruct Hv as (ts2 & r2 & -> & -> & Hv).
  assert (He : enum_entry_of ctx (t :: ts2) (mkEntry (t_content t) v)) by now constructor.
  bnd H cm H3. apply eat_sound in H3; [|discriminate]. destruct cm; cbn [negb] in H.
  - destruct H3 as (cm & r3 & -> & Hc & ->). bnd H cl H3. apply follows_sound in H3 as [-> ->]; [|discriminate].
    destruct (head_kind "}" r3).
    + injection H as <- <-. exists ((t :: ts2) ++ [cm]), r3. split; [cbn; now rewrite <- app_assoc|]. split; auto.
      exists (t :: ts2), [mkEntry (t_content t) v], [cm], true. repeat split; auto; now constructor.
    + apply IH in H as (ts & r4 & -> & -> & ts1 & l & tc & co & -> & -> & Hl & Ho).
      exists (((t :: ts2) ++ cm :: ts1) ++ tc), r4. split; [cbn; now rewrite <- !app_assoc|].
      split; auto. exists ((t :: ts2) ++ cm :: ts1), (mkEntry (t_content t) v :: l), tc, co.
      split; auto. split; [now rewrite <- app_assoc|]. split; auto. now apply Commas_more.
  - destruct H3 as [-> _]. injection H as <- <-. exists (t :: ts2), r2. split; auto. split; auto.
    exists (t :: ts2), [mkEntry (t_content t) v], [], false. rewrite app_nil_r. repeat split; auto; now constructor.
Qed.
Lemma enum_sound f pub p : sound (parse_enum ctx f pub) (fun ts r a => elem_of ctx p ts pub a).
Proof.
  intros l a c' H. unfold parse_enum in H. bnd H y H1. apply peek_unwrap_sound in H1 as [-> Hy]. exp H.
  destruct Hy as [(r0 & Er)|[Er _]]; [|discriminate]. injection Er as -> ->. exp H.
  bnd H es H2. apply enum_loop_sound in H2 as (ts & r' & -> & -> & ts1 & l & tc & co & -> & E & Hl & Ho). cbn in E. subst l.
  exp H. bnd H b H3. apply eat_sound in H3; [|discriminate]. injection H as <- <-.
  assert (Hs : exists ts2 r2, r = ts2 ++ r2 /\ c = cur r2 /\ optional ";" ts2 b).
  { destruct b.
    - destruct H3 as (q & r2 & -> & Hq & ->). exists [q], r2. repeat split; auto. now constructor.
    - destruct H3 as [-> _]. exists [], r. repeat split; auto. constructor. }
  destruct Hs as (ts2 & r2 & -> & -> & Hs).
  exists (y :: t :: ts1 ++ tc ++ t0 :: ts2), r2. split; [cbn; rewrite <- !app_assoc; reflexivity|]. split; auto.
  eapply El_enum; eauto.
Qed.
Lemma field_forms_sound f : forall acc, sound (field_forms ctx f acc) (fun ts r a =>
  exists l, a = acc ++ l /\ tail (form_of ctx) ts l).
Proof.
  induction f as [|f IH]; intros acc l a c' H; [discriminate|]. cbn [field_forms] in H.
  bnd H b H1. apply follows_sound in H1 as [-> ->]; [|discriminate]. destruct (head_kind "," l) eqn:E.
  - apply head_kind_true in E as (cm & r & -> & Hc). bnd H u H1. cbn in H1. injection H1 as <- <-.
    bnd H x H1. apply parse_form_sound in H1 as (ts & r' & -> & -> & Hx).
    apply IH in H as (ts' & r'' & -> & -> & l & -> & Hl).
    exists (cm :: ts ++ ts'), r''. split; [cbn; now rewrite <- app_assoc|]. split; auto. exists (x :: l).
    split; [now rewrite <- app_assoc|]. auto.
  - injection H as <- <-. exists [], l. split; auto. split; auto. exists []. rewrite app_nil_r. auto.
Qed.
Lemma plain_field_sound f : sound (parse_type_and_forms ctx f) (fun ts r a => field_of ctx ts (StPlain a)).
Proof.
  intros l a c' H. unfold parse_type_and_forms in H. bnd H b H1. apply follows_sound in H1 as [-> ->]; [|discriminate].
  destruct (head_kind "struct" l); [bnd H y H1; discriminate|].
  bnd H tn H1. apply parse_typename_sound in H1 as (ts & r & -> & -> & Htn & _).
  bnd H x H1. apply parse_form_sound in H1 as (ts' & r' & -> & -> & Hx).
  bnd H fs H1. apply field_forms_sound in H1 as (ts2 & r2 & -> & -> & l & -> & Hl). exp H. injection H as <- <-.
  exists (ts ++ (ts' ++ ts2) ++ [t]), r. split; [now rewrite <- !app_assoc|]. split; auto.
  constructor; auto. now apply tail_commas.
Qed.
Lemma union_fields_sound f : forall acc, sound (union_fields ctx f acc) (fun ts r a =>
  exists l, a = acc ++ l /\ many (union_field_of ctx) ts l).
Proof.
  induction f as [|f IH]; intros acc l a c' H; [discriminate|]. cbn [union_fields] in H.
  bnd H b H1. apply follows_sound in H1 as [-> ->]; [|discriminate]. destruct (head_kind "}" l) eqn:E.
  - injection H as <- <-. exists [], l. split; auto. split; auto. exists []. rewrite app_nil_r. split; auto. constructor.
  - bnd H tn H1. apply parse_typename_sound in H1 as (ts & r & -> & -> & Htn & _).
    bnd H x H1. apply parse_form_sound in H1 as (ts' & r' & -> & -> & Hx). exp H.
    apply IH in H as (ts2 & r'' & -> & -> & l & -> & Hl).
    exists ((ts ++ ts' ++ [t]) ++ ts2), r''. split; [rewrite <- !app_assoc; reflexivity|]. split; auto. exists ((tn, x) :: l).
    split; [now rewrite <- app_assoc|]. constructor; auto. now constructor.
Qed.
Lemma union_sound f : sound (parse_union ctx f) (fun ts r a => field_of ctx ts (StUnion a)).
Proof.
  intros l a c' H. unfold parse_union in H. exp H. exp H.
  bnd H fs H1. apply union_fields_sound in H1 as (ts & r' & -> & -> & l & E & Hl). cbn in E. subst l. exp H.
  bnd H x H2. apply parse_form_sound in H2 as (ts' & r' & -> & -> & Hx). exp H. injection H as <- <-.
  exists (t :: t0 :: ts ++ t1 :: ts' ++ [t2]), r. split; [cbn; rewrite <- !app_assoc; cbn; now rewrite <- app_assoc|]. split; auto.
  now constructor.
Qed.
Lemma struct_entries_sound f : forall acc, sound (struct_entries ctx f acc) (fun ts r a =>
  exists l, a = acc ++ l /\ many (field_of ctx) ts l).
Proof.
  induction f as [|f IH]; intros acc l a c' H; [discriminate|]. cbn [struct_entries] in H.
  assert (Hdone : forall a c', ret acc (cur l) = (Ok a, c') -> exists ts r, l = ts ++ r /\ c' = cur r /\
     exists l', a = acc ++ l' /\ many (field_of ctx) ts l').
  { intros a' c2 E. injection E as <- <-. exists [], l. split; auto. split; auto. exists []. rewrite app_nil_r. split; auto. constructor. }
  bnd H o H1. apply peek_sound in H1 as [-> Ho]. destruct o as [t|]; [|auto].
  destruct (kind_is t "}"); [auto|]. destruct (kind_is t "union").
  - bnd H u H1. apply union_sound in H1 as (ts & r & -> & -> & Hu). apply IH in H as (ts' & r' & -> & -> & l & -> & Hl).
    exists (ts ++ ts'), r'. split; [now rewrite <- app_assoc|]. split; auto. exists (StUnion u :: l).
    split; [now rewrite <- app_assoc|]. now constructor.
  - bnd H u H1. apply plain_field_sound in H1 as (ts & r & -> & -> & Hu). apply IH in H as (ts' & r' & -> & -> & l & -> & Hl).
    exists (ts ++ ts'), r'. split; [now rewrite <- app_assoc|]. split; auto. exists (StPlain u :: l).
    split; [now rewrite <- app_assoc|]. now constructor.
Qed.
Lemma anon_loop_sound f : forall acc, sound (anon_loop ctx f acc) (fun ts r a =>
  exists l ts1 ts2, snd a = acc ++ l /\ ts = ts1 ++ ts2 /\ tail (typeform_of ctx) ts1 l /\
    if fst a then exists c d, ts2 = [c; d] /\ is "," c /\ is "..." d else ts2 = []).
Proof.
  induction f as [|f IH]; intros acc l a c' H; [discriminate|]. cbn [anon_loop] in H.
  bnd H b H1. apply follows_sound in H1 as [-> ->]; [|discriminate]. destruct (head_kind "," l) eqn:E.
  - apply head_kind_true in E as (cm & r & -> & Hc). bnd H u H1. cbn in H1. injection H1 as <- <-.
    bnd H el H1. apply follows_sound in H1 as [-> ->]; [|discriminate]. destruct (head_kind "..." r) eqn:E.
    + apply head_kind_true in E as (d & r' & -> & Hd). bnd H u H1. cbn in H1. injection H1 as <- <-. injection H as <- <-.
      exists [cm; d], r'. split; auto. split; auto. exists [], [], [cm; d]. cbn. rewrite app_nil_r. repeat split; auto. eauto.
    + bnd H x H1. apply typeform_sound in H1 as (ts & r' & -> & -> & Hx & _).
      apply IH in H as (ts' & r'' & -> & -> & l & ts1 & ts2 & Ha & -> & Hl & Ht).
      exists ((cm :: ts ++ ts1) ++ ts2), r''. split; [cbn; now rewrite <- !app_assoc|]. split; auto. exists (x :: l), (cm :: ts ++ ts1), ts2.
      split; [now rewrite <- app_assoc in Ha|]. auto.
  - injection H as <- <-. exists [], l. split; auto. split; auto. exists [], [], []. cbn. rewrite app_nil_r. auto.
Qed.
Lemma anon_sound f : sound (parse_anonymous_parameters ctx f) (fun ts r a => anon_of ctx ts (Some a)).
Proof.
  intros l a c' H. unfold parse_anonymous_parameters in H. exp H.
  bnd H b H1. apply follows_sound in H1 as [-> ->]; [|discriminate]. bnd H p H1. destruct p as [el fs].
  destruct (head_kind ")" r).
  - injection H1 as <- <- <-. exp H. injection H as <- <-. exists [t; t0], r0. repeat split; auto. now constructor.
  - bnd H1 x H2. apply typeform_sound in H2 as (ts & r' & -> & -> & Hx & _).
    apply anon_loop_sound in H1 as (ts' & r2 & -> & -> & l & ts1 & ts2 & E & -> & Hl & Ht). cbn in E. subst fs.
    exp H. injection H as <- <-. exists (t :: ts ++ (ts1 ++ ts2) ++ [t0]), r.
    split; [cbn; now rewrite <- !app_assoc|]. split; auto. cbn [fst] in Ht. destruct el.
    + destruct Ht as (c1 & d & -> & Hc & Hd). rewrite <- app_assoc, app_assoc. cbn. apply Anon_dots; auto. now apply tail_commas.
    + subst ts2. rewrite app_nil_r, app_assoc. apply Anon_some; auto. now apply tail_commas.
Qed.
Lemma typedef_sound f pub p : sound (parse_typedef ctx f pub) (fun ts r a => elem_of ctx p ts pub a).
Proof.
  intros l a c' H. unfold parse_typedef in H. exp H. bnd H b H1. apply follows_sound in H1 as [-> ->]; [|discriminate].
  destruct (head_kind "{" r).
  { exp H. bnd H fs H2. apply struct_entries_sound in H2 as (ts & r' & -> & -> & l & E & Hl). cbn in E. subst l.
    exp H. exp H. exp H. injection H as <- <-. exists (t :: t0 :: ts ++ [t1; t2; t3]), r.
    split; [cbn; now rewrite <- !app_assoc|]. split; auto. now constructor. }
  bnd H s0 H1. apply eat_sound in H1; [|discriminate]. destruct s0.
  { destruct H1 as (st & r' & -> & Hst & ->). exp H. exp H. exp H. injection H as <- <-.
    eexists [t; st; t0; t1; t2], _. split; [reflexivity|]. split; auto. now apply El_alias. }
  destruct H1 as [-> _].
  bnd H tn H1. apply parse_typename_sound in H1 as (ts & r' & -> & -> & Htn & _).
  bnd H n H1. apply count_stars_sound in H1 as (ss & r & -> & -> & j & Hj & ->). exp H.
  bnd H b H2. apply follows_sound in H2 as [-> ->]; [|discriminate]. bnd H ps H2.
  assert (Hps : exists ts2 r2, r0 = ts2 ++ r2 /\ c = cur r2 /\ anon_of ctx ts2 ps).
  { destruct (head_kind "(" r0).
    - bnd H2 x H3. apply anon_sound in H3 as (ts2 & r2 & -> & -> & Hx). injection H2 as <- <-. eauto 6.
    - injection H2 as <- <-. exists [], r0. repeat split; auto. constructor. }
  destruct Hps as (ts2 & r2 & -> & -> & Hps).
  bnd H b H3. apply follows_sound in H3 as [-> ->]; [|discriminate]. bnd H z H3.
  assert (Hz : exists ts3 r3, r2 = ts3 ++ r3 /\ c = cur r3 /\ size_of ts3 z).
  { destruct (head_kind "[" r2) eqn:E.
    - apply head_kind_true in E as (lb & r3 & -> & Hlb). bnd H3 u H4. cbn in H4. injection H4 as <- <-. exp H3.
      destruct (parse_usize (t_content t1)) eqn:En; [|discriminate]. exp H3. injection H3 as <- <-.
      eexists [lb; t1; t2], _. split; [reflexivity|]. split; auto. now constructor.
    - injection H3 as <- <-. exists [], r2. repeat split; auto. constructor. }
  destruct Hz as (ts3 & r3 & -> & -> & Hz). exp H. injection H as <- <-.
  exists (t :: ts ++ ss ++ t0 :: ts2 ++ ts3 ++ [t1]), r.
  split; [cbn; rewrite <- !app_assoc; cbn; now rewrite <- !app_assoc|]. split; auto. now constructor.
Qed.
Lemma elem_nonempty p ts pub a : elem_of ctx p ts pub a -> ts <> [].
Proof.
  intros H. destruct H; try discriminate.
  all: destruct (typename_nonempty _ _ H) as (? & ? & ->); discriminate.
Qed.
Lemma object_sound f : soundw (parse_module_object ctx f) (fun ts r a =>
  exists pb pub ts1 first rest, ts = pb ++ ts1 /\ pb ++ ts1 = first :: rest /\ optional "pub" pb pub /\
    elem_of ctx (t_pos first) ts1 pub a).
Proof.
  intros l a c' H. unfold parse_module_object in H. bnd H y H1. apply peek_unwrap_sound in H1 as [-> Hy].
  bnd H pub H1. apply eat_sound in H1; [|discriminate].
  assert (Hp : exists pb r, l = pb ++ r /\ c = cur r /\ optional "pub" pb pub).
  { destruct pub.
    - destruct H1 as (k & r & -> & Hk & ->). exists [k], r. repeat split; auto. now constructor.
    - destruct H1 as [-> _]. exists [], l. repeat split; auto. constructor. }
  clear H1. destruct Hp as (pb & r & -> & -> & Hpb).
  assert (Hfirst : forall ts r', r = ts ++ r' -> ts <> [] -> exists rest, pb ++ ts = y :: rest).
  { intros ts r' -> Hn. destruct Hy as [(r0 & Er)|[Er _]].
    - destruct pb as [|k pb]; [destruct ts; [congruence|]|]; cbn in *; injection Er as <- _; eauto.
    - destruct pb; [destruct ts; [congruence|]|]; discriminate. }
  assert (Hfin : forall ts r', r = ts ++ r' -> ts <> [] -> elem_of ctx (t_pos y) ts pub a -> c' = cur r' ->
    exists ts0 r0, pb ++ r = ts0 ++ r0 /\ c' = cur r0 /\
    exists pb0 pub0 ts1 first rest, ts0 = pb0 ++ ts1 /\ pb0 ++ ts1 = first :: rest /\ optional "pub" pb0 pub0 /\
    elem_of ctx (t_pos first) ts1 pub0 a).
  { intros ts r' Er Hn He ->. destruct (Hfirst ts r' Er Hn) as (rest & Hrest). subst r. exists (pb ++ ts), r'.
    split; [now rewrite <- app_assoc|]. split; auto. exists pb, pub, ts, y, rest. auto. }
  bnd H b H1. apply follows_sound in H1 as [-> ->]; [|discriminate]. destruct (head_kind "enum" r).
  { bnd H x H1. injection H as <- <-. apply (enum_sound f pub (t_pos y)) in H1 as (ts & r' & Er & -> & Hx).
    eapply Hfin; eauto. eapply elem_nonempty; eauto. }
  bnd H b H1. apply follows_sound in H1 as [-> ->]; [|discriminate]. destruct (head_kind "typedef" r).
  { bnd H x H1. injection H as <- <-. apply (typedef_sound f pub (t_pos y)) in H1 as (ts & r' & Er & -> & Hx).
    eapply Hfin; eauto. eapply elem_nonempty; eauto. }
  bnd H tn H1. apply parse_typename_sound in H1 as (ts & r' & Er & -> & Htn & _).
  assert (Hne : ts <> []) by (destruct (typename_nonempty _ _ Htn) as (? & ? & ->); discriminate).
  bnd H fm H1. apply parse_form_sound in H1 as (ts' & r2 & -> & -> & Hf).
  bnd H nx H1. apply peek_unwrap_sound in H1 as [-> Hnx]. destruct (kind_is nx "(").
  - apply function_sound in H as (ts2 & r3 & -> & -> & lp & ps & l & v & rp & ts3 & b & o & -> & Hlp & Hps & Hrp & Hb & ->).
    apply (Hfin (ts ++ ts' ++ lp :: ps ++ rp :: ts3) r3); auto.
    + rewrite Er, <- !app_assoc. reflexivity.
    + destruct ts; [congruence|discriminate].
    + eapply El_func; eauto.
  - exp H. destruct pub; [discriminate|]. bnd H v H2. apply parse_expr_sound in H2 as (ts2 & r3 & -> & -> & Hv); [|lia].
    exp H. injection H as <- <-. apply (Hfin (ts ++ ts' ++ t :: ts2 ++ [t0]) r0); auto.
    + rewrite Er, <- !app_assoc. cbn. now rewrite <- app_assoc.
    + destruct ts; [congruence|discriminate].
    + now apply El_var.
Qed.
Lemma split_at_space_spec s a b : split_at_space s = Some (a, b) -> s = a ++ b /\ ~ In 32%N a /\ exists v, b = 32%N :: v.
Proof.
  revert a b. induction s as [|c s IH]; intros a b H; [discriminate|]. cbn in H. destruct (N.eqb c 32) eqn:E.
  - injection H as <- <-. apply N.eqb_eq in E as ->. repeat split; eauto.
  - destruct (split_at_space s) as [[a' b']|]; [|discriminate]. injection H as <- <-.
    destruct (IH _ _ eq_refl) as (-> & Hn & v & ->). split; [reflexivity|]. split; eauto.
    intros [->|Hi]; [discriminate|contradiction].
Qed.
Lemma bdrop_one s r : bdrop 1 s = Some r -> exists h, s = h :: r /\ (h < 128)%N.
Proof.
  destruct s as [|h s]; [discriminate|]. cbn. unfold ulen. destruct (N.ltb h 128) eqn:E.
  - intros H. assert (s = r) as <- by (destruct s; cbn in H; congruence). apply N.ltb_lt in E. eauto.
  - destruct (N.ltb h 2048); [discriminate|]. destruct (N.ltb h 65536); discriminate.
Qed.
Lemma macro_sound : sound parse_compat_macro (fun ts r a => exists t, ts = [t] /\ macro_of t a).
Proof.
  intros l a c' H. unfold parse_compat_macro in H. exp H.
  destruct (split_at_space (t_content t)) as [[nm v]|] eqn:E; [|discriminate].
  destruct (bdrop 1 nm) as [n|] eqn:Eb; [|discriminate]. injection H as <- <-.
  apply split_at_space_spec in E as (E & Hn & v' & ->). apply bdrop_one in Eb as (h & -> & Hh).
  exists [t], r. split; auto. split; auto. exists t. split; auto. eapply Macro; eauto.
  - intros ->. apply Hn. now left.
  - intros Hi. apply Hn. now right.
Qed.
End Sound.

Lemma module_loop_errors ctx f : forall os es c b es' c', module_loop f ctx os es c = (Ok (b, es'), c') -> exists x, es' = es ++ x.
Proof.
  induction f as [|f IH]; intros os es c b es' c' H; [discriminate|]. cbn [module_loop] in H.
  apply bind_ok in H as (o & c1 & H1 & H). destruct o as [t|].
  - destruct (kind_is t "import").
    { apply bind_ok in H as (u & c2 & H2 & H). eauto. }
    destruct (kind_is t "macro").
    + destruct (parse_compat_macro c1) as [[x|x|x|] c2]; try discriminate; eauto. injection H as <- <- <-. eauto.
    + destruct (parse_module_object ctx f c1) as [[[x ex]|x|x|] c2]; try discriminate.
      * apply IH in H as (y & ->). exists (ex ++ y). now rewrite app_assoc.
      * injection H as <- <- <-. eauto.
  - injection H as <- <- <-. exists []. now rewrite app_nil_r.
Qed.
Section Module.
Variable ctx : parsectx.
Variable e : ending.
Hypothesis We : forall t, e = EndStuck t -> t_kind t = "error"%string.
Lemma module_loop_sound f : forall os l b c', module_loop f ctx os [] (mkCur l e) = (Ok (b, []), c') ->
  exists ms, b = os ++ ms /\ module_of ctx l ms /\ exists p, e = EndEof p.
Proof.
  induction f as [|f IH]; intros os l b c' H; [discriminate|]. cbn [module_loop] in H.
  apply bind_ok in H as (o & c1 & H1 & H). apply (peek_sound _ We) in H1 as [-> Ho]. destruct o as [t|].
  - destruct (kind_is t "import") eqn:E1.
    { apply kind_is_true in E1. destruct l as [|t' l].
      { destruct Ho as [(t' & E & Hk)|[E _]]; [|discriminate]. injection E as ->. unfold is in E1. congruence. }
      injection Ho as ->. apply bind_ok in H as (u & c2 & H2 & H). cbn in H2. injection H2 as <- <-.
      apply IH in H as (ms & -> & Hm & Hp). exists ms. repeat split; auto. now constructor. }
    destruct (kind_is t "macro") eqn:E2.
    { destruct (parse_compat_macro (mkCur l e)) as [[x|x|x|] c2] eqn:Em; try discriminate.
      apply macro_sound in Em as (ts & r & -> & -> & t' & -> & Ht); auto.
      apply IH in H as (ms & -> & Hm & Hp). exists (x :: ms). rewrite <- app_assoc. repeat split; auto. now apply Module_macro. }
    destruct (parse_module_object ctx f (mkCur l e)) as [[[x ex]|x|x|] c2] eqn:Em; try discriminate.
    assert (ex = []) as ->.
    { apply module_loop_errors in H as (y & Ey). symmetry in Ey. apply app_eq_nil in Ey as [Ey _]. exact Ey. }
    apply object_sound in Em as (ts & r & -> & -> & pb & pub & ts1 & first & rest & -> & Hf & Hp & Hx); auto.
    apply IH in H as (ms & -> & Hm & Hend). exists (x :: ms). rewrite <- !app_assoc. split; auto. split; auto.
    eapply Module_elem; eauto.
  - destruct l as [|t l]; [|discriminate]. destruct Ho as [(t & E & _)|[_ Hp]]; [discriminate|].
    injection H as <- <-. exists []. rewrite app_nil_r. repeat split; auto. constructor.
Qed.
Theorem parse_module_sound f l m : parse_module f ctx (mkCur l e) = PModule m ->
  exists ms p, m = mkModule ms (get_exports ms) /\ module_of ctx l ms /\ e = EndEof p.
Proof.
  unfold parse_module. destruct (module_loop f ctx [] [] (mkCur l e)) as [[[os es]|x|x|] c'] eqn:E; try discriminate.
  destruct es; [|discriminate]. intros H. injection H as <-. apply module_loop_sound in E as (ms & Em & Hm & p & Hp).
  cbn in Em. subst os. eauto.
Qed.
End Module.
