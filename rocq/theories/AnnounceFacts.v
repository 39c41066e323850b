(** The pre-pass finds exactly what a file announces. *)
From Verif Require Import Base Buf Lexer Nodes Types Cursor Resolve Cspec Preparser Parser CAst Translator Build BaseFacts FuelFacts SpecLex LexFacts TokenFacts
  LexerRefine SpecGrammar GrammarSound GrammarExpr GrammarComplete ParseFacts PrepassFacts TextFacts SafeText SpecBuild SpecProject BuildFacts ProjectFacts PathFacts.

Lemma bal_balanced ts : bal ts <-> balanced ts.
Proof.
  split; intros H.
  - induction H as [| t ts H1 H2 H IH | lb a rb b H1 Ha IHa H2 Hb IHb]; [apply Balanced_nil | apply Balanced_token | apply Balanced_braces]; assumption.
  - induction H as [| t ts H1 H2 H IH | lb a rb b H1 Ha IHa H2 Hb IHb]; [apply Bal_nil | apply Bal_tok | apply Bal_braces]; assumption.
Qed.

Section Scan.
Variable p : pos.
Notation cur l := (mkCur l (EndEof p)).

Lemma is_dec k t : {is k t} + {~ is k t}.
Proof. unfold is. apply string_dec. Qed.

(** ** Soundness of the parts *)
Lemma follows_ok k l b c : follows k (cur l) = (Ok b, c) -> c = cur l /\ b = head_kind k l.
Proof. rewrite follows_ev. intros E. inversion E. auto. Qed.
Lemma pre_expect_ok k l t c : pre_expect k (cur l) = (Ok t, c) -> exists r, l = t :: r /\ is k t /\ c = cur r.
Proof.
  unfold pre_expect, more, peek_unwrap, get_unwrap. destruct l as [| t0 r]; cbn; [discriminate |].
  destruct (kind_is t0 k) eqn:E; cbn; [| discriminate]. intros H. inversion H; subst. exists r. split; [reflexivity |].
  split; [apply kind_is_true, E | reflexivity].
Qed.
Lemma on_err_ok A s (m : M A) c a c' : abort_on_err s m c = (Ok a, c') -> m c = (Ok a, c').
Proof. unfold abort_on_err. destruct (m c) as [[] ?]; congruence. Qed.
Lemma skip_sound : forall f, (forall l u c, skip_brackets f (cur l) = (Ok u, c) ->
    exists lb ts rb r, l = lb :: ts ++ rb :: r /\ is "{" lb /\ bal ts /\ is "}" rb /\ c = cur r)
  /\ (forall l u c, skip_loop f (cur l) = (Ok u, c) ->
    exists ts rb r, l = ts ++ rb :: r /\ bal ts /\ is "}" rb /\ c = cur r).
Proof.
  induction f as [| f [IH1 IH2]]; (split; intros l u c H; [| ]); try discriminate H.
  - cbn [skip_brackets] in H. apply bind_ok in H as (t & d & E & H). apply on_err_ok, pre_expect_ok in E.
    destruct E as (r & -> & Ht & ->). apply IH2 in H. destruct H as (ts & rb & r' & -> & Hb & Hr & ->).
    exists t, ts, rb, r'. auto.
  - cbn [skip_loop] in H. apply bind_ok in H as (m & d & E & H). destruct l as [| t r].
    { cbn in E. inversion E; subst. apply bind_ok in H as (t & d & E' & H). apply on_err_ok, pre_expect_ok in E'.
      destruct E' as (r & E' & _). discriminate E'. }
    cbn in E. inversion E; subst. clear E. cbv beta iota in H.
    apply bind_ok in H as (o & d & E & H). apply follows_ok in E. destruct E as [-> ->]. cbn [head_kind] in H.
    destruct (kind_is t "{") eqn:E1.
    + apply bind_ok in H as (u1 & d & E & H). apply IH1 in E. destruct E as (lb & ts & rb & r' & E & Hl & Hb & Hr & ->).
      inversion E; subst. apply IH2 in H. destruct H as (ts' & rb' & r'' & -> & Hb' & Hr' & ->).
      exists (lb :: ts ++ rb :: ts'), rb', r''. split; [cbn [app]; rewrite <- app_assoc; reflexivity |].
      split; [apply Bal_braces; assumption |]. auto.
    + apply bind_ok in H as (o & d & E & H). apply follows_ok in E. destruct E as [-> ->]. cbn [head_kind] in H.
      destruct (kind_is t "}") eqn:E2.
      * apply bind_ok in H as (t' & d & E & H). apply on_err_ok, pre_expect_ok in E. destruct E as (r' & E & Ht & ->).
        inversion E; subst. inversion H; subst. exists [], t', r'. split; [reflexivity |]. split; [constructor |]. auto.
      * apply bind_ok in H as (o & d & E & H). rewrite get_ev in E. inversion E; subst.
        apply IH2 in H. destruct H as (ts & rb & r' & -> & Hb & Hr & ->).
        exists (t :: ts), rb, r'. split; [reflexivity |]. split; [| auto].
        constructor; [intros K; apply kind_is_true in K; congruence | intros K; apply kind_is_true in K; congruence | exact Hb].
Qed.
Lemma until_sound : forall f acc l buf c, until_semicolon f acc (cur l) = (Ok buf, c) ->
  exists mid, Forall (fun t => ~ is ";" t) mid /\ buf = rev mid ++ acc
    /\ ((exists s r, is ";" s /\ l = mid ++ s :: r /\ c = cur r) \/ (l = mid /\ c = cur [])).
Proof.
  induction f as [| f IH]; intros acc l buf c H; [discriminate H |]. cbn [until_semicolon] in H.
  apply bind_ok in H as (m & d & E & H). destruct l as [| t r].
  - cbn in E. inversion E; subst. cbv beta iota in H. inversion H; subst. exists []. split; [constructor |]. split; [reflexivity |].
    right. split; reflexivity.
  - cbn in E. inversion E; subst. cbv beta iota in H. apply bind_ok in H as (t' & d & E' & H). rewrite get_unwrap_ev in E'.
    inversion E'; subst. destruct (kind_is t' ";") eqn:K.
    + inversion H; subst. exists []. split; [constructor |]. split; [reflexivity |]. left. exists t', r.
      split; [apply kind_is_true, K |]. split; reflexivity.
    + apply IH in H. destruct H as (mid & Hm & -> & D). exists (t' :: mid).
      split; [constructor; [intros K'; apply kind_is_true in K'; congruence | exact Hm] |].
      split; [cbn [rev]; rewrite <- app_assoc; reflexivity |].
      destruct D as [(s & r' & Hs & -> & ->) | (-> & ->)]; [left; exists s, r'; auto | right; auto].
Qed.

(** ** Names of typedefs *)
Lemma last_word_snoc ts x a : last_word ts x -> ~ is "word" a -> last_word (ts ++ [a]) x.
Proof.
  intros H Ha. destruct H as [y z b H1 H2]. rewrite <- app_assoc. cbn [app]. apply Last_word; [exact H1 |].
  apply Forall_app. split; [exact H2 |]. constructor; [exact Ha | constructor].
Qed.
Lemma find_last ts x : (exists t, find (fun t => kind_is t "word") (rev ts) = Some t /\ x = t_content t) <-> last_word ts x.
Proof.
  split.
  - intros (t & H & ->). rewrite <- (rev_involutive ts). revert H. generalize (rev ts). clear ts.
    induction l as [| a l IH]; [discriminate |]. cbn [find rev]. destruct (kind_is a "word") eqn:K.
    + intros E. inversion E; subst. apply (Last_word (rev l) t []); [apply kind_is_true, K | constructor].
    + intros E. apply IH in E. apply last_word_snoc; [exact E |]. intros K'. apply kind_is_true in K'. congruence.
  - intros H. destruct H as [a t b Ht Hb]. exists t. split; [| reflexivity]. rewrite rev_app_distr. cbn [rev]. rewrite <- app_assoc.
    apply Forall_rev in Hb. induction Hb as [| y l Hy Hb IH]; cbn [app find].
    + apply kind_is_true in Ht. rewrite Ht. reflexivity.
    + rewrite (not_kind _ _ Hy). exact IH.
Qed.
Lemma drop_params_sound : forall l, (exists b lp r, l = b ++ lp :: r /\ Forall (fun t => ~ is "(" t) b /\ is "(" lp /\ drop_params l = r)
  \/ drop_params l = [].
Proof.
  induction l as [| t l IH]; [right; reflexivity |]. cbn [drop_params]. destruct (kind_is t "(") eqn:K.
  - left. exists [], t, l. split; [reflexivity |]. split; [constructor |]. split; [apply kind_is_true, K | reflexivity].
  - destruct IH as [(b & lp & r & -> & Hb & Hl & E) | E]; [left | right; exact E].
    exists (t :: b), lp, r. split; [reflexivity |]. split; [| auto]. constructor; [| exact Hb].
    intros K'. apply kind_is_true in K'. congruence.
Qed.
Definition chosen (buf : list token) : option token :=
  match buf with
  | [] => None
  | t0 :: _ => find (fun t => kind_is t "word") (if kind_is t0 ")" then drop_params buf else buf)
  end.
Lemma chosen_word mid x : (exists t, chosen (rev mid) = Some t /\ x = t_content t) <-> typedef_word mid x.
Proof.
  split.
  - intros (t & H & ->). destruct mid as [| a m] using rev_ind; [discriminate |]. clear IHm. rewrite rev_app_distr in H. cbn [rev app chosen] in H.
    destruct (kind_is a ")") eqn:K.
    + destruct (drop_params_sound (a :: rev m)) as [(b & lp & r & E & Hb & Hl & Ed) | Ed]; rewrite Ed in H; [| discriminate].
      destruct b as [| a' b].
      { cbn in E. injection E as <- E2. exfalso. apply kind_is_true in K. unfold is in *. congruence. }
      cbn in E. injection E as <- E2. apply Forall_inv_tail in Hb.
      assert (Em : m = rev r ++ lp :: rev b).
      { rewrite <- (rev_involutive m), E2, rev_app_distr. cbn [rev]. rewrite <- app_assoc. reflexivity. }
      rewrite Em. rewrite <- app_assoc. cbn [app]. apply Word_params; [exact Hl | apply Forall_rev; assumption | apply kind_is_true, K |].
      apply find_last. rewrite rev_involutive. eauto.
    + apply Word_plain; [intros K'; apply kind_is_true in K'; congruence |]. apply find_last. rewrite rev_app_distr. cbn [rev app]. eauto.
  - intros H. destruct H as [a lp b rp x Hl Hb Hr Hx | a t x Ht Hx].
    + apply find_last in Hx. destruct Hx as (t & E & ->). exists t. split; [| reflexivity].
      rewrite rev_app_distr. cbn [rev]. rewrite rev_app_distr. cbn [rev app]. pose proof Hr as K. apply kind_is_true in K. cbn [chosen]. rewrite K.
      rewrite <- app_assoc. cbn [app].
      change (rp :: rev b ++ lp :: rev a) with ((rp :: rev b) ++ lp :: rev a). rewrite drop_params_ev; [exact E | | exact Hl].
      constructor; [unfold is in *; congruence | apply Forall_rev, Hb].
    + apply find_last in Hx. rewrite rev_app_distr in *. cbn [rev app chosen] in *. rewrite (not_kind _ _ Ht). exact Hx.
Qed.

(** ** get_typename *)
Inductive one_typedef : list token -> str -> list token -> Prop :=
| One_struct lb ts rb x s r : is "{" lb -> balanced ts -> is "}" rb -> is "word" x -> is ";" s ->
    one_typedef (lb :: ts ++ rb :: x :: s :: r) (t_content x) r
| One_plain mid s r x : (forall t m, mid = t :: m -> ~ is "{" t) -> Forall (fun t => ~ is ";" t) mid -> is ";" s -> typedef_word mid x ->
    one_typedef (mid ++ s :: r) x r
| One_open mid x : (forall t m, mid = t :: m -> ~ is "{" t) -> Forall (fun t => ~ is ";" t) mid -> typedef_word mid x ->
    one_typedef mid x [].
Lemma word_nonempty mid x : typedef_word mid x -> mid <> [].
Proof. intros H E. destruct H; [destruct a | destruct a]; discriminate E. Qed.
Lemma get_typename_sound f l x c : get_typename f (cur l) = (Ok x, c) -> exists r, one_typedef l x r /\ c = cur r.
Proof.
  intros H. unfold get_typename in H. apply bind_ok in H as (o & d & E & H). apply follows_ok in E. destruct E as [-> ->].
  destruct (head_kind "{" l) eqn:K.
  - apply bind_ok in H as (u & d & E & H). apply (proj1 (skip_sound f)) in E. destruct E as (lb & ts & rb & r & -> & Hl & Hb & Hr & ->).
    apply bind_ok in H as (t & d & E & H). apply on_err_ok, pre_expect_ok in E. destruct E as (r' & -> & Ht & ->).
    apply bind_ok in H as (s & d & E & H). apply pre_expect_ok in E. destruct E as (r'' & -> & Hs & ->). inversion H; subst.
    exists r''. split; [| reflexivity]. apply One_struct; auto. apply bal_balanced, Hb.
  - apply bind_ok in H as (buf & d & E & H). apply until_sound in E. destruct E as (mid & Hm & Eb & D). rewrite app_nil_r in Eb. subst buf.
    assert (N : forall t m, mid = t :: m -> ~ is "{" t).
    { intros t m -> Ht. apply kind_is_true in Ht. destruct D as [(s & r & _ & -> & _) | (-> & _)]; cbn in K; congruence. }
    assert (W : exists t, chosen (rev mid) = Some t /\ x = t_content t /\ c = d).
    { unfold chosen. destruct (rev mid) as [| t0 rr] eqn:E0; [discriminate H |].
      destruct (find (fun t => kind_is t "word") (if kind_is t0 ")" then drop_params (t0 :: rr) else t0 :: rr)) as [t |] eqn:Ef; [| discriminate H].
      exists t. inversion H. auto. }
    destruct W as (t & W & -> & ->). assert (W' : typedef_word mid (t_content t)) by (apply chosen_word; eauto).
    destruct D as [(s & r & Hs & -> & ->) | (-> & ->)]; eexists; (split; [| reflexivity]); [apply One_plain | apply One_open]; auto.
Qed.
Lemma until_open_ev ts : Forall (fun t => ~ is ";" t) ts -> forall acc,
  ev p (fun f => until_semicolon f acc) ts (rev ts ++ acc) [].
Proof.
  intros H. induction H as [|t ts Ht H IH]; intros acc; cbn [app].
  - exists 1. intros f Hf. destruct f as [|f]; [lia|]. reflexivity.
  - destruct (IH (t :: acc)) as [F HF]. exists (S F). intros f Hf. destruct f as [|f]; [lia|]. cbn [until_semicolon].
    rewrite (bind_eval _ _ _ _ _ true (cur (t :: ts))) by reflexivity. cbv beta iota.
    erewrite bind_eval by apply get_unwrap_ev. cbv beta. rewrite (not_kind _ _ Ht). cbn [rev]. rewrite <- app_assoc. cbn [app].
    apply HF. lia.
Qed.
Lemma get_typename_complete l x r : one_typedef l x r -> ev p get_typename l x r.
Proof.
  intros H. destruct H as [lb ts rb x s r Hlb Hb Hrb Hx Hs | mid s r x N Hm Hs Hw | mid x N Hm Hw].
  - apply bal_balanced in Hb. destruct (skip_brackets_ev p lb ts rb (x :: s :: r) Hlb Hb Hrb) as [F HF]. exists F. intros f Hf. unfold get_typename.
    rewrite (bind_eval _ _ _ _ _ true (cur (lb :: ts ++ rb :: x :: s :: r))) by now apply follows_yes. cbv beta iota.
    rewrite (bind_eval _ _ _ _ _ tt (cur (x :: s :: r))) by (apply HF; lia).
    erewrite bind_eval by now apply on_err_ev, pre_expect_ev. cbv beta. erewrite bind_eval by now apply pre_expect_ev. reflexivity.
  - pose proof (word_nonempty _ _ Hw) as Hn. apply chosen_word in Hw. destruct Hw as (t & W & ->).
    destruct (until_ev p mid Hm [] s r Hs) as [F HF]. rewrite app_nil_r in HF. exists F. intros f Hf. unfold get_typename.
    rewrite (bind_eval _ _ _ _ _ false (cur (mid ++ s :: r))).
    2:{ apply follows_no. destruct mid as [| t0 m]; [congruence |]. cbn. apply not_kind. eapply N; reflexivity. }
    cbv beta iota. rewrite (bind_eval _ _ _ _ _ (rev mid) (cur r)) by (apply HF; lia). cbv beta iota zeta.
    unfold chosen in W. destruct (rev mid) as [| t0 rr]; [discriminate |]. rewrite W. reflexivity.
  - pose proof (word_nonempty _ _ Hw) as Hn. apply chosen_word in Hw. destruct Hw as (t & W & ->).
    destruct (until_open_ev mid Hm []) as [F HF]. rewrite app_nil_r in HF. exists F. intros f Hf. unfold get_typename.
    rewrite (bind_eval _ _ _ _ _ false (cur mid)).
    2:{ apply follows_no. destruct mid as [| t0 m]; [congruence |]. cbn. apply not_kind. eapply N; reflexivity. }
    cbv beta iota. rewrite (bind_eval _ _ _ _ _ (rev mid) (cur [])) by (apply HF; lia). cbv beta iota zeta.
    unfold chosen in W. destruct (rev mid) as [| t0 rr]; [discriminate |]. rewrite W. reflexivity.
Qed.
Lemma announced_typedef k l x r names types : is "typedef" k -> one_typedef l x r -> announced r names types ->
  announced (k :: l) names (x :: types).
Proof.
  intros Hk H Ha. destruct H; try (constructor; assumption). inversion Ha; subst. apply An_typedef_open; assumption.
Qed.
End Scan.

(** ** The loop *)
Lemma hint_drop : forall s, bdrop 6 (L "#type" ++ s) =
  match s with c :: rest => if N.ltb c 128 then Some rest else None | [] => None end.
Proof.
  intros [| c rest]; [reflexivity |]. cbn. unfold ulen. destruct (N.ltb c 128) eqn:E; [cbn; destruct rest; reflexivity |].
  destruct (N.ltb c 2048); [reflexivity |]. destruct (N.ltb c 65536); reflexivity.
Qed.
Section Loop.
Context (w : world) (path : str) (p : pos).
Notation cur l := (mkCur l (EndEof p)).
Definition resolves (name : str) (r : modref) : Prop := resolve_import w path name = Done (inl r).
Lemma resolve_m_ok name c r d : resolve_m w path name c = (Ok r, d) <-> resolves name r /\ d = c.
Proof.
  unfold resolve_m, resolves. destruct (resolve_import w path name) as [[x | x] | |]; split; intros E; try (destruct E; congruence); inversion E; auto.
Qed.
Lemma kind_eq t k : kind_is t k = true -> is k t.
Proof. apply kind_is_true. Qed.
Lemma kind_ne t k : kind_is t k = false -> ~ is k t.
Proof. intros H K. apply kind_is_true in K. congruence. Qed.
Lemma loop_sound : forall f l im tn im' tn' c, preparse_loop f w path im tn (cur l) = (Ok (im', tn'), c) ->
  exists names refs types, announced l names types /\ Forall2 resolves names refs /\ im' = im ++ refs /\ tn' = tn ++ types.
Proof.
  induction f as [| f IH]; intros l im tn im' tn' c H; [discriminate |]. cbn [preparse_loop] in H.
  apply bind_ok in H as (o & d & E & H). destruct l as [| t r].
  { cbn in E. inversion E; subst. cbv beta iota in H. inversion H; subst. exists [], [], []. rewrite !app_nil_r. repeat split; constructor. }
  rewrite get_ev in E. inversion E; subst. clear E. cbv beta iota in H.
  destruct (kind_is t "error") eqn:K0; [discriminate |].
  destruct (kind_is t "import") eqn:K1.
  { apply bind_ok in H as (rr & d & E & H). apply resolve_m_ok in E. destruct E as [E ->].
    apply IH in H. destruct H as (names & refs & types & Ha & HF & -> & ->). exists (t_content t :: names), (rr :: refs), types.
    split; [apply An_import; [apply kind_eq, K1 | exact Ha] |]. split; [constructor; assumption |]. rewrite <- app_assoc. split; reflexivity. }
  destruct (kind_is t "typedef") eqn:K2.
  { apply bind_ok in H as (n & d & E & H). apply get_typename_sound in E. destruct E as (r' & Ho & ->).
    apply IH in H. destruct H as (names & refs & types & Ha & HF & -> & ->). exists names, refs, (n :: types).
    split; [eapply announced_typedef; [apply kind_eq, K2 | exact Ho | exact Ha] |]. split; [exact HF |]. rewrite <- app_assoc. split; reflexivity. }
  assert (O : ~ In (t_kind t) ["error"; "import"; "typedef"]%string).
  { apply kind_ne in K0, K1, K2. unfold is in *. cbn. intuition congruence. }
  destruct (kind_is t "macro" && starts_with (t_content t) (L "#type"))%bool eqn:K3.
  - apply andb_prop in K3. destruct K3 as [K3 K4]. apply starts_with_spec in K4. destruct K4 as [s Es].
    rewrite Es, hint_drop in H. destruct s as [| ch rest]; [discriminate |]. destruct (N.ltb ch 128) eqn:Ec; [| discriminate].
    apply IH in H. destruct H as (names & refs & types & Ha & HF & -> & ->). exists names, refs, (trim rest :: types).
    split; [eapply An_hint; [apply kind_eq, K3 | exact Es | apply N.ltb_lt, Ec | exact Ha] |]. split; [exact HF |].
    rewrite <- app_assoc. split; reflexivity.
  - apply IH in H. destruct H as (names & refs & types & Ha & HF & -> & ->). exists names, refs, types.
    split; [| auto]. apply An_other; [exact O | | exact Ha]. intros Hm rest Er. apply kind_is_true in Hm. rewrite Hm in K3.
    assert (X : starts_with (t_content t) (L "#type") = true) by (apply starts_with_spec; eauto). rewrite X in K3. discriminate.
Qed.
Lemma loop_complete : forall l names types, announced l names types -> forall refs im tn, Forall2 resolves names refs ->
  ev p (fun f => preparse_loop f w path im tn) l (im ++ refs, tn ++ types) [].
Proof.
  intros l names types H.
  assert (T : forall k l x r names types, is "typedef" k -> one_typedef l x r ->
    (forall refs im tn, Forall2 resolves names refs -> ev p (fun f => preparse_loop f w path im tn) r (im ++ refs, tn ++ types) []) ->
    forall refs im tn, Forall2 resolves names refs -> ev p (fun f => preparse_loop f w path im tn) (k :: l) (im ++ refs, tn ++ x :: types) []).
  { intros k l0 x r ns ts Hk Ho IH refs im tn HF. destruct (get_typename_complete p _ _ _ Ho) as [F1 H1].
    destruct (IH refs im (tn ++ [x]) HF) as [F2 H2]. exists (S (F1 + F2)). intros f Hf. destruct f as [| f]; [lia |].
    cbn [preparse_loop]. erewrite bind_eval by apply get_ev. cbv beta iota.
    rewrite (not_kind "error" k), (not_kind "import" k) by (unfold is in *; congruence).
    pose proof Hk as Hk'. apply kind_is_true in Hk'. rewrite Hk'. erewrite bind_eval by (apply H1; lia). cbv beta.
    rewrite <- app_assoc in H2. apply H2. lia. }
  induction H as [| t r names types Ht H IH | k lb ts rb x s r names types Hk Hlb Hb Hrb Hx Hs H IH
    | k mid s r x names types Hk N Hm Hs Hw H IH | k mid x Hk N Hm Hw | t ch rest r names types Ht Ec Hc H IH | t r names types Ht Hn H IH].
  - intros refs im tn HF. inversion HF; subst. exists 1. intros f Hf. destruct f as [| f]; [lia |]. rewrite !app_nil_r. reflexivity.
  - intros refs im tn HF. inversion HF as [| a rr ns rs Hr HF' E1 E2]; subst. destruct (IH rs (im ++ [rr]) tn HF') as [F HF2].
    exists (S F). intros f Hf. destruct f as [| f]; [lia |]. cbn [preparse_loop]. erewrite bind_eval by apply get_ev. cbv beta iota.
    rewrite (not_kind "error" t) by (unfold is in *; congruence). pose proof Ht as Ht'. apply kind_is_true in Ht'. rewrite Ht'.
    erewrite bind_eval by (apply resolve_m_ok; split; [exact Hr | reflexivity]). cbv beta. rewrite <- app_assoc in HF2. apply HF2. lia.
  - apply (T k _ _ r names types Hk); [| exact IH]. apply One_struct; assumption.
  - apply (T k _ _ r names types Hk); [| exact IH]. apply One_plain; assumption.
  - apply (T k _ _ [] [] [] Hk); [apply One_open; assumption |]. intros refs im tn HF. inversion HF; subst.
    exists 1. intros f Hf. destruct f as [| f]; [lia |]. rewrite !app_nil_r. reflexivity.
  - intros refs im tn HF. destruct (IH refs im (tn ++ [trim rest]) HF) as [F HF2].
    exists (S F). intros f Hf. destruct f as [| f]; [lia |]. cbn [preparse_loop]. erewrite bind_eval by apply get_ev. cbv beta iota.
    rewrite !(not_kind _ t) by (unfold is in *; congruence). pose proof Ht as Ht'. apply kind_is_true in Ht'. rewrite Ht'.
    assert (X : starts_with (t_content t) (L "#type") = true) by (apply starts_with_spec; eauto). rewrite X. cbn [andb].
    rewrite Ec, hint_drop. apply N.ltb_lt in Hc. rewrite Hc. rewrite <- app_assoc in HF2. apply HF2. lia.
  - intros refs im tn HF. destruct (IH refs im tn HF) as [F HF2].
    exists (S F). intros f Hf. destruct f as [| f]; [lia |]. cbn [preparse_loop]. erewrite bind_eval by apply get_ev. cbv beta iota.
    rewrite !(not_kind _ t) by (intros K; apply Ht; rewrite K; cbn; tauto).
    assert (X : (kind_is t "macro" && starts_with (t_content t) (L "#type"))%bool = false).
    { destruct (kind_is t "macro") eqn:K; [| reflexivity]. cbn [andb]. destruct (starts_with (t_content t) (L "#type")) eqn:K2; [| reflexivity].
      apply starts_with_spec in K2. destruct K2 as [s Es]. exfalso. eapply Hn; [apply kind_eq, K | exact Es]. }
    rewrite X. apply HF2. lia.
Qed.
End Loop.

(** ** Headers *)
Section Headers.
Context {U : Unicode} (w : world).
Lemma header_iff p h : header w p h <->
  exists toks names, tokens_in w p toks /\ announced toks names (mi_typedefs h) /\ Forall2 (resolves w p) names (mi_imports h)
    /\ mi_filepath h = p /\ mi_uniqid h = pre_uniqid p.
Proof.
  split.
  - intros [fuel E]. pose proof E as E0. unfold preparse in E. destruct (w_read w p) as [text |] eqn:Er; [| discriminate].
    destruct (prepass_reads_all fuel w p h text E0 Er) as (toks & q & Hl). rewrite (tokenize_of _ _ _ Hl) in E.
    destruct (preparse_loop fuel w p [] [] (mkCur toks (EndEof q))) as [[[im tn] | e | s |] c] eqn:El; try discriminate.
    inversion E; subst. cbn [mi_typedefs mi_imports mi_filepath mi_uniqid].
    destruct (loop_sound _ _ _ _ _ _ _ _ _ _ El) as (names & refs & types & Ha & HF & -> & ->). cbn [app].
    exists toks, names. split; [exists text, q; auto |]. auto.
  - intros (toks & names & (text & q & Er & Hl) & Ha & HF & Ep & Eu).
    destruct (loop_complete w p q _ _ _ Ha _ [] [] HF) as [F HF2]. exists F. unfold preparse. rewrite Er, (tokenize_of _ _ _ Hl), HF2 by lia.
    cbn [app]. destruct h; cbn in *; congruence.
Qed.
Lemma file_name_base p bn : file_name p bn -> bn = basename p.
Proof.
  intros [H1 H2]. unfold basename. destruct H2 as [-> | [d ->]].
  - rewrite split_none by exact H1. reflexivity.
  - change (d ++ L "/" ++ bn) with (d ++ slash :: bn). rewrite split_app by exact H1. rewrite last_last. reflexivity.
Qed.
Lemma resolves_iff p name r : plain_path p -> (resolves w p name r <-> refers_to w p name r).
Proof.
  intros (bn & Hf & Hp). split.
  - intros H. unfold resolves in H. destruct (looked_total w p bn name Hf Hp) as [path Hl]. rewrite (resolve_path _ _ _ _ Hl) in H.
    destruct (w_exists w path) eqn:Ee; [| discriminate]. unfold ns_of_path in H.
    destruct (Nat.ltb (blen (basename path)) 2) eqn:Eb; [discriminate |]. cbn [rbind] in H. inversion H; subst. cbn [r_path r_ns].
    split; [exact Hl |]. split; [exact Ee |]. exists (basename path). split; [apply basename_file | reflexivity].
  - intros (Hl & He & b & Hb & En). unfold resolves. rewrite (resolve_path _ _ _ _ Hl), He.
    destruct (ns_of_looked _ _ _ _ Hl) as (bn' & ns & Hf' & Ens & _ & _). rewrite Ens. cbn [rbind].
    assert (ns = r_ns r).
    { apply file_name_base in Hb. subst b. unfold ns_of_path in Ens. destruct (Nat.ltb (blen (basename (r_path r))) 2); [discriminate |].
      inversion Ens. congruence. }
    subst ns. destruct r; reflexivity.
Qed.
Lemma refers_plain p name r : refers_to w p name r -> plain_path (r_path r).
Proof.
  intros (Hl & _ & _). destruct (looked_up_c _ _ _ _ Hl) as [n E]. pose proof (basename_file (r_path r)) as Hb.
  exists (basename (r_path r)). split; [exact Hb |]. destruct (file_name_ext _ _ _ Hb E) as [b Eb]. destruct Hb as [Hb _].
  split; [exact Hb |]. rewrite Eb. split; intros K; destruct b as [| c b]; try discriminate K. destruct b; discriminate K.
Qed.
Lemma header_refers p h : plain_path p -> (header w p h <->
  exists toks names, tokens_in w p toks /\ announced toks names (mi_typedefs h) /\ Forall2 (refers_to w p) names (mi_imports h)
    /\ mi_filepath h = p /\ mi_uniqid h = pre_uniqid p).
Proof.
  intros Hp. rewrite header_iff.
  assert (G : forall names refs, Forall2 (resolves w p) names refs <-> Forall2 (refers_to w p) names refs).
  { intros names refs. split; intros HF; induction HF; constructor; auto; apply resolves_iff; auto. }
  split; intros (toks & names & H1 & H2 & H3 & H4 & H5); exists toks, names; repeat (split; [assumption || (apply G; assumption) |]); assumption.
Qed.
End Headers.

(** ** Files that follow the grammar *)
Section Grammatical.
Variable ctx : parsectx.
Let p0 : pos := mkPos 1 1.
Lemma one_typedef_fun l x r x' r' : one_typedef l x r -> one_typedef l x' r' -> x = x' /\ r = r'.
Proof.
  intros H H'. destruct (get_typename_complete p0 _ _ _ H) as [F E]. destruct (get_typename_complete p0 _ _ _ H') as [F' E'].
  specialize (E (F + F') ltac:(lia)). specialize (E' (F + F') ltac:(lia)). rewrite E in E'. inversion E'. auto.
Qed.
Lemma announced_plain t r names types : plain t -> announced (t :: r) names types -> announced r names types.
Proof.
  intros Hp H. inversion H; subst; auto; exfalso; apply Hp; cbn;
    match goal with K : is ?k t |- _ => unfold is in K; rewrite K; cbn; tauto end.
Qed.
Lemma announced_plains ts r names types : Forall plain ts -> announced (ts ++ r) names types -> announced r names types.
Proof. intros H. induction H; cbn [app]; auto. intros K. apply IHForall. eapply announced_plain; eauto. Qed.
Lemma plain_no_imports ts : Forall plain ts -> import_names ts = [].
Proof.
  intros H. unfold import_names. induction H as [| t ts Ht H IH]; [reflexivity |]. cbn [filter].
  destruct (String.eqb (t_kind t) "import") eqn:E; [| exact IH]. exfalso. apply String.eqb_eq in E. apply Ht. rewrite E. cbn. tauto.
Qed.
Lemma import_names_app a b : import_names (a ++ b) = import_names a ++ import_names b.
Proof. unfold import_names. rewrite filter_app, map_app. reflexivity. Qed.
Lemma announced_typedef_inv k l names types : is "typedef" k -> announced (k :: l) names types ->
  exists x r types', one_typedef l x r /\ announced r names types' /\ types = x :: types'.
Proof.
  intros Hk H. inversion H; subst; try (exfalso; unfold is in *; congruence).
  - eexists _, _, _. split; [apply One_struct; eauto |]. split; [eassumption | reflexivity].
  - eexists _, _, _. split; [apply One_plain; eauto |]. split; [eassumption | reflexivity].
  - eexists _, _, _. split; [apply One_open; eauto |]. split; [constructor | reflexivity].
  - exfalso. match goal with K : ~ In (t_kind k) _ |- _ => apply K end. unfold is in Hk. rewrite Hk. cbn. tauto.
Qed.
Lemma some_word ts : Exists (fun t => is "word" t) ts -> exists x, last_word ts x.
Proof.
  intros H. induction ts as [| t ts IH]; [inversion H |].
  assert (D : Forall (fun t => ~ is "word" t) ts \/ Exists (fun t => is "word" t) ts).
  { clear. induction ts as [| t ts [IH | IH]]; [left; constructor | | right; apply Exists_cons_tl, IH].
    destruct (is_dec "word" t); [right; apply Exists_cons_hd; assumption | left; constructor; assumption]. }
  destruct D as [D | D].
  - inversion H as [? ? K | ? ? K]; subst; [exists (t_content t); apply (Last_word [] t ts); assumption |].
    exfalso. apply Exists_exists in K. destruct K as (y & I & Ky). rewrite Forall_forall in D. exact (D y I Ky).
  - destruct (IH D) as [x Hx]. exists x. destruct Hx as [a y b H1 H2]. apply (Last_word (t :: a) y b); assumption.
Qed.
Lemma simple_no ts k : Forall simple ts -> ~ In k ["const"; "word"; "."; "*"; ","; "..."]%string -> Forall (fun t => ~ is k t) ts.
Proof. intros H Hk. eapply Forall_impl; [| exact H]. intros t Ht. eapply simple_not; eauto. Qed.
Lemma element_typedef q k ts pub a r : is "typedef" k -> elem_of ctx q (k :: ts) pub a ->
  Forall plain ts /\ exists x, one_typedef (ts ++ r) x r.
Proof.
  intros Hk H.
  assert (SP : forall t, simple t -> plain t).
  { intros t Ht K. unfold simple in Ht. cbn in *. intuition congruence. }
  inversion H as [k0 lb ts0 l tc co rb tse se pb Hk0 | k0 lb ts0 l rb x s0 pb Hk0 Hlb Hl Hrb Hx Hs E1 E2
    | k0 st x y s0 pb Hk0 Hst Hx Hy Hs | k0 ts0 t ss n x ps a0 sz z s0 pb Hk0 Ht Hss Hx Hps Hsz Hs
    | ts0 t ts1 fm lp ps l v rp ts2 b o pb Ht Hf Hlp Hps Hrp Hb E1 E2 | ts0 t ts1 fm eq ts2 x s0 Ht Hf Hq He Hs E1 E2]; subst.
  - exfalso. unfold is in *. congruence.
  - assert (Hb : clean ts0) by (apply (many_clean _ _ _ _ (field_clean ctx)) in Hl; exact Hl). destruct Hb as [Hb1 Hb2]. split.
    + constructor; [eapply plain_is; eauto; cbn; intuition discriminate |]. apply Forall_app. split; [exact Hb1 |].
      repeat constructor; (eapply plain_is; eauto; cbn; intuition discriminate).
    + exists (t_content x). cbn [app]. rewrite <- app_assoc. cbn [app]. apply One_struct; auto. apply bal_balanced, Hb2.
  - split; [repeat constructor; (eapply plain_is; eauto; cbn; intuition discriminate) |]. exists (t_content y).
    change ([st; x; y; s0] ++ r) with ([st; x; y] ++ s0 :: r). apply One_plain; auto.
    + intros t m E. inversion E; subst. unfold is in *. congruence.
    + repeat constructor; unfold is in *; congruence.
    + change [st; x; y] with ([st; x] ++ [y]). apply Word_plain; [unfold is in *; congruence |]. apply (Last_word [st; x] y []); [exact Hy | constructor].
  - pose proof (typename_simple _ _ _ Ht) as S1. pose proof (stars_simple _ _ Hss) as S2.
    assert (S3 : Forall plain ps /\ Forall (fun t => ~ is ";" t) ps /\ (ps = [] \/ exists lp b rp, ps = lp :: b ++ [rp] /\ is "(" lp /\ Forall (fun t => ~ is "(" t) b /\ is ")" rp)).
    { destruct Hps as [| lp rp Hlp Hrp | lp tz l rp Hlp Htz Hrp | lp tz l cm d rp Hlp Htz Hcm Hd Hrp].
      - repeat split; try constructor. reflexivity.
      - split; [repeat constructor; (eapply plain_is; eauto; cbn; intuition discriminate) |].
        split; [repeat constructor; unfold is in *; congruence |]. right. exists lp, [], rp. repeat split; auto.
      - pose proof (typeforms_simple _ _ _ Htz) as S. split; [| split].
        + constructor; [eapply plain_is; eauto; cbn; intuition discriminate |]. apply Forall_app. split; [eapply Forall_impl; [exact SP | exact S] |].
          repeat constructor; (eapply plain_is; eauto; cbn; intuition discriminate).
        + constructor; [unfold is in *; congruence |]. apply Forall_app. split; [eapply simple_no; eauto; cbn; intuition discriminate |].
          repeat constructor; unfold is in *; congruence.
        + right. exists lp, tz, rp. repeat split; auto. eapply simple_no; eauto; cbn; intuition discriminate.
      - pose proof (typeforms_simple _ _ _ Htz) as S. split; [| split].
        + constructor; [eapply plain_is; eauto; cbn; intuition discriminate |]. apply Forall_app. split; [eapply Forall_impl; [exact SP | exact S] |].
          repeat constructor; (eapply plain_is; eauto; cbn; intuition discriminate).
        + constructor; [unfold is in *; congruence |]. apply Forall_app. split; [eapply simple_no; eauto; cbn; intuition discriminate |].
          repeat constructor; unfold is in *; congruence.
        + right. exists lp, (tz ++ [cm; d]), rp. rewrite <- app_assoc. cbn [app]. split; [reflexivity |]. repeat split; auto.
          apply Forall_app. split; [eapply simple_no; eauto; cbn; intuition discriminate |]. repeat constructor; unfold is in *; congruence. }
    destruct S3 as (S3 & S4 & S5).
    assert (S6 : Forall plain sz /\ Forall (fun t => ~ is ";" t) sz /\ (sz = [] \/ exists b rb, sz = b ++ [rb] /\ ~ is ")" rb)).
    { destruct Hsz as [| lb num rb z Hlb Hn Hz Hrb]; [repeat split; try constructor; reflexivity |].
      split; [repeat constructor; (eapply plain_is; eauto; cbn; intuition discriminate) |].
      split; [repeat constructor; unfold is in *; congruence |]. right. exists [lb; num], rb. split; [reflexivity | unfold is in *; congruence]. }
    destruct S6 as (S6 & S7 & S8). split.
    + apply Forall_app. split; [eapply Forall_impl; [exact SP | exact S1] |]. apply Forall_app. split; [eapply Forall_impl; [exact SP | exact S2] |].
      constructor; [eapply plain_is; eauto; cbn; intuition discriminate |]. apply Forall_app. split; [exact S3 |]. apply Forall_app. split; [exact S6 |].
      constructor; [eapply plain_is; eauto; cbn; intuition discriminate | constructor].
    + assert (W : exists y, typedef_word (ts0 ++ ss ++ x :: ps ++ sz) y).
      { assert (EX : forall a b, exists y, last_word (a ++ x :: b) y).
        { intros u v. apply some_word. apply Exists_exists. exists x. split; [apply in_or_app; right; left; reflexivity | exact Hx]. }
        destruct S8 as [-> | (b & rb & -> & Hrb)].
        - destruct S5 as [-> | (lp & b & rp & -> & Hlp & Hb & Hrp)].
          + destruct (EX (ts0 ++ ss) []) as [y Hy]. exists y. cbn [app] in *. rewrite app_assoc. apply Word_plain; [unfold is in *; congruence | exact Hy].
          + destruct (EX (ts0 ++ ss) []) as [y Hy]. exists y. rewrite app_nil_r.
            replace (ts0 ++ ss ++ x :: lp :: b ++ [rp]) with (((ts0 ++ ss) ++ [x]) ++ lp :: b ++ [rp]) by (rewrite <- !app_assoc; reflexivity).
            apply Word_params; assumption.
        - destruct (EX (ts0 ++ ss) (ps ++ b ++ [rb])) as [y Hy]. exists y.
          replace (ts0 ++ ss ++ x :: ps ++ b ++ [rb]) with ((ts0 ++ ss ++ x :: ps ++ b) ++ [rb]) by (rewrite <- !app_assoc; cbn [app]; rewrite <- !app_assoc; reflexivity).
          apply Word_plain; [exact Hrb |]. revert Hy. replace ((ts0 ++ ss) ++ x :: ps ++ b ++ [rb]) with ((ts0 ++ ss ++ x :: ps ++ b) ++ [rb]) by (rewrite <- !app_assoc; cbn [app]; rewrite <- !app_assoc; reflexivity). auto. }
      destruct W as [y W]. exists y.
      replace ((ts0 ++ ss ++ x :: ps ++ sz ++ [s0]) ++ r) with ((ts0 ++ ss ++ x :: ps ++ sz) ++ s0 :: r)
        by (rewrite <- !app_assoc; cbn [app]; rewrite <- !app_assoc; reflexivity).
      apply One_plain; auto.
      * intros t1 m E. assert (St : simple t1).
        { destruct S1 as [| t2 ts2 S1 _]; [exfalso; inversion Ht as [? ? Hn |]; subst; inversion Hn |]. cbn in E. inversion E; subst. exact S1. }
        eapply simple_not; eauto. cbn. intuition discriminate.
      * apply Forall_app. split; [eapply simple_no; eauto; cbn; intuition discriminate |]. apply Forall_app.
        split; [eapply simple_no; eauto; cbn; intuition discriminate |]. constructor; [unfold is in *; congruence |]. apply Forall_app. auto.
  - exfalso. eapply typename_not_typedef; [exact Ht | exact E1 | exact Hk].
  - exfalso. eapply typename_not_typedef; [exact Ht | exact E1 | exact Hk].
Qed.
Lemma grammatical_imports l ms : module_of ctx l ms -> forall names types, announced l names types -> names = import_names l.
Proof.
  intros H. induction H as [| i ts l Hi H IH | t e ts l He H IH | pb pub ts e ts' l first rest Hpb Ef He H IH]; intros names types Ha.
  - inversion Ha. reflexivity.
  - inversion Ha; subst; try (exfalso; unfold is in *; congruence).
    + unfold import_names. cbn [filter]. unfold is in Hi. rewrite Hi. cbn [map String.eqb Ascii.eqb Bool.eqb]. f_equal. eapply IH; eauto.
    + exfalso. match goal with K : ~ In (t_kind i) _ |- _ => apply K end. unfold is in Hi. rewrite Hi. cbn. tauto.
  - assert (Hm : is "macro" t) by now destruct He.
    assert (En : import_names (t :: ts) = import_names ts) by (unfold import_names; cbn [filter]; unfold is in Hm; rewrite Hm; reflexivity).
    rewrite En. inversion Ha; subst; try (exfalso; unfold is in *; congruence); eapply IH; eauto.
  - assert (P : Forall plain pb).
    { destruct Hpb as [| t Ht]; constructor; [| constructor]. eapply plain_is; eauto. cbn. intuition discriminate. }
    apply announced_plains in Ha; [| exact P]. rewrite !import_names_app, (plain_no_imports pb P). cbn [app].
    assert (D : (exists k r, ts = k :: r /\ is "typedef" k) \/ (forall t r, ts = t :: r -> ~ is "typedef" t)).
    { destruct ts as [| k r]; [right; discriminate |]. destruct (is_dec "typedef" k); [left; eauto |]. right. intros t r' [= <- _]. assumption. }
    destruct D as [(k & r & -> & Hk) | Hn].
    + destruct (element_typedef _ _ _ _ _ ts' Hk He) as [Hpl [x Ho]]. cbn [app] in Ha.
      destruct (announced_typedef_inv _ _ _ _ Hk Ha) as (x' & r' & types' & Ho' & Ha' & _).
      destruct (one_typedef_fun _ _ _ _ _ Ho Ho') as [<- <-].
      assert (E : import_names (k :: r) = []).
      { change (k :: r) with ([k] ++ r). rewrite import_names_app, (plain_no_imports r Hpl), app_nil_r. unfold import_names. cbn [filter].
        unfold is in Hk. rewrite Hk. reflexivity. }
      rewrite E. cbn [app]. eapply IH; eauto.
    + pose proof (elem_clean _ _ _ _ _ He Hn) as Hc. rewrite (plain_no_imports ts Hc). cbn [app]. eapply IH. eapply announced_plains; eauto.
Qed.
End Grammatical.
