(** The pre-pass finds every type the parser finds. *)
From Verif Require Import Base Buf Lexer Nodes Cursor Resolve Cspec Preparser Parser BaseFacts FuelFacts SpecGrammar GrammarSound GrammarExpr GrammarComplete.

(** Tokens the pre-pass reads over. *)
Definition plain (t : token) : Prop := ~ In (t_kind t) ["typedef"; "import"; "macro"; "error"]%string.
Inductive bal : list token -> Prop :=
| Bal_nil : bal []
| Bal_tok t ts : ~ is "{" t -> ~ is "}" t -> bal ts -> bal (t :: ts)
| Bal_braces lb a rb b : is "{" lb -> bal a -> is "}" rb -> bal b -> bal (lb :: a ++ rb :: b).
Lemma bal_app a b : bal a -> bal b -> bal (a ++ b).
Proof.
  intros H Hb. induction H; cbn [app]; auto; [now constructor|]. rewrite <- app_assoc. cbn [app]. now apply Bal_braces.
Qed.
Lemma bal_braces lb a rb : is "{" lb -> bal a -> is "}" rb -> bal (lb :: a ++ [rb]).
Proof. intros. apply Bal_braces; auto. constructor. Qed.
Lemma bal_cons k t ts : is k t -> k <> "{"%string -> k <> "}"%string -> bal ts -> bal (t :: ts).
Proof. intros H H1 H2 Hb. constructor; auto; unfold is in *; congruence. Qed.
Lemma plain_is k t : is k t -> ~ In k ["typedef"; "import"; "macro"; "error"]%string -> plain t.
Proof. unfold is, plain. congruence. Qed.

Definition clean (ts : list token) : Prop := Forall plain ts /\ bal ts.
Lemma clean_nil : clean [].
Proof. split; constructor. Qed.
Lemma clean_app a b : clean a -> clean b -> clean (a ++ b).
Proof. intros [A B] [C D]. split; [apply Forall_app; auto|now apply bal_app]. Qed.
Lemma clean_cons k t ts : is k t -> ~ In k ["typedef"; "import"; "macro"; "error"; "{"; "}"]%string -> clean ts -> clean (t :: ts).
Proof.
  intros H Hn [A B]. split.
  - constructor; auto. eapply plain_is; eauto. cbn in *. tauto.
  - eapply bal_cons; eauto; intros ->; apply Hn; cbn; tauto.
Qed.
Lemma clean_kind t ts : ~ In (t_kind t) ["typedef"; "import"; "macro"; "error"; "{"; "}"]%string -> clean ts -> clean (t :: ts).
Proof. intros H. apply (clean_cons (t_kind t)); auto. reflexivity. Qed.
Lemma clean_braces lb a rb ts : is "{" lb -> clean a -> is "}" rb -> clean ts -> clean (lb :: a ++ rb :: ts).
Proof.
  intros H [A B] H2 [C D]. split.
  - constructor; [eapply plain_is; eauto; cbn; intuition discriminate|]. apply Forall_app. split; auto.
    constructor; auto. eapply plain_is; eauto; cbn; intuition discriminate.
  - now apply Bal_braces.
Qed.
Ltac cl := repeat first
  [ assumption | apply clean_nil
  | apply clean_app
  | (eapply clean_braces; [eassumption| |eassumption|])
  | (eapply clean_cons; [eassumption|cbn; intuition discriminate|]) ].

Section Clean.
Variable ctx : parsectx.
Lemma binary_clean k n : binary_op k n -> ~ In k ["typedef"; "import"; "macro"; "error"; "{"; "}"]%string.
Proof.
  intros (i & ops & H & Hi & _). unfold binary_levels in H.
  repeat (destruct i as [|i]; [injection H as <-; cbn in Hi; cbn; intuition (subst; discriminate)|]). destruct i; discriminate.
Qed.
Lemma name_clean ts n : name_of ctx ts n -> clean ts.
Proof. intros []; cl. Qed.
Lemma typename_clean ts n : typename_of ctx ts n -> clean ts.
Proof. intros [ts' m H|c ts' m Hc H]; apply name_clean in H; cl. Qed.
Lemma stars_clean ss n : stars_of ss n -> clean ss.
Proof. intros [H _]. induction H; cl. Qed.
Lemma typeform_clean ts t : typeform_of ctx ts t -> clean ts.
Proof. intros [ts' t' ss n H Hs]. apply typename_clean in H. apply stars_clean in Hs. cl. Qed.
Lemma literal_clean t l : literal_of t l -> clean [t].
Proof. intros []; cl. Qed.
Lemma expr_clean : forall n ts a, expr_of ctx n ts a -> clean ts.
Proof.
  apply (expr_ind_m ctx (fun n ts a _ => clean ts) (fun ts l _ => clean ts) (fun ts l _ => clean ts)
    (fun ts l _ => clean ts) (fun ts a _ => clean ts)); intros; cl.
  - apply clean_kind; auto. eapply binary_clean; eauto.
  - apply clean_kind; auto. unfold prefix_op in *. cbn in *. intuition congruence.
  - eapply typeform_clean; eauto.
  - eapply typeform_clean; eauto.
  - apply clean_kind; [|apply clean_nil]. unfold postfix_op in *. cbn in *. intuition congruence.
  - apply clean_kind; [|cl]. match goal with H : is "->" _ \/ _ |- _ => destruct H as [-> | ->] end; cbn; intuition discriminate.
  - eapply name_clean; eauto.
  - eapply literal_clean; eauto.
Qed.
Lemma commas_clean A (P : list token -> A -> Prop) ts l : (forall ts a, P ts a -> clean ts) -> commas P ts l -> clean ts.
Proof. intros HP H. induction H as [ts a H|ts c ts' a l H Hc Hl IH]; apply HP in H; cl. Qed.
Lemma many_clean A (P : list token -> A -> Prop) ts l : (forall ts a, P ts a -> clean ts) -> many P ts l -> clean ts.
Proof. intros HP H. induction H as [|ts ts' a l H Hl IH]; [apply clean_nil|]. apply HP in H. cl. Qed.
Lemma index_clean ts x : index_of ctx ts x -> clean ts.
Proof. intros []; cl. eapply expr_clean; eauto. Qed.
Lemma form_clean ts fm : form_of ctx ts fm -> clean ts.
Proof.
  intros [first ss n x ixs l rest Hs Hx _ Hi _]. apply stars_clean in Hs. apply (many_clean _ _ _ _ index_clean) in Hi. cl.
Qed.
Lemma init_clean ts v : init_of ctx ts v -> clean ts.
Proof. intros []; cl. eapply expr_clean; eauto. Qed.
Lemma value_clean ts v : value_of ctx ts v -> clean ts.
Proof. intros [ts' n H|t l H]; [eapply name_clean; eauto|eapply literal_clean; eauto]. Qed.
Lemma forinit_clean ts v : forinit_of ctx ts v -> clean ts.
Proof.
  intros [|ts' x _ H|ts1 t ts2 fm q ts3 x _ H1 H2 Hq H3]; cl;
    first [eapply expr_clean; eassumption | eapply typename_clean; eassumption | eapply form_clean; eassumption].
Qed.
Lemma opt_clean ts v : opt_expr_of ctx ts v -> clean ts.
Proof. intros []; cl. eapply expr_clean; eauto. Qed.
Lemma stmt_clean : (forall ts s o, stmt_of ctx ts s o -> clean ts) /\ (forall ts b o, block_of ctx ts b o -> clean ts).
Proof.
  assert (H : (forall ts s0 o, stmt_of ctx ts s0 o -> clean ts) /\
    (forall ts b o, block_of ctx ts b o -> clean ts) /\
    (forall ts b, body_of ctx ts b -> clean ts) /\
    (forall ts l, stmts_of ctx ts l -> clean ts) /\
    (forall ts l, cases_of ctx ts l -> clean ts) /\
    (forall ts d, default_of ctx ts d -> clean ts)).
  { apply (stmt_mutual ctx (fun ts s0 o _ => clean ts) (fun ts b o _ => clean ts)
      (fun ts b _ => clean ts) (fun ts l _ => clean ts) (fun ts l _ => clean ts)
      (fun ts d _ => clean ts)); intros; cl;
    try (eapply expr_clean; eassumption); try (eapply typename_clean; eassumption); try (eapply form_clean; eassumption);
    try (eapply init_clean; eassumption); try (eapply forinit_clean; eassumption); try (eapply opt_clean; eassumption).
    all: try (rewrite app_assoc; cl).
    all: try (eapply commas_clean; [apply value_clean|eassumption]). }
  tauto.
Qed.
Lemma group_clean ts g : group_of ctx ts g -> clean ts.
Proof.
  intros [ts1 t ts2 fs _ Ht Hn]. apply typename_clean in Ht. assert (clean ts2); [|cl].
  clear Ht. induction Hn as [tz fm H|tz fm c ts' fs' H Hc _ _ IH]; apply form_clean in H; cl.
Qed.
Lemma params_clean ts l v : params_of ctx ts l v -> clean ts.
Proof. intros H. induction H; cl; eapply group_clean; eauto. Qed.
Lemma entry_clean ts x : enum_entry_of ctx ts x -> clean ts.
Proof. intros [x0 ts' v Hx H]. apply init_clean in H. cl. Qed.
Lemma optional_clean k ts b : optional k ts b -> ~ In k ["typedef"; "import"; "macro"; "error"; "{"; "}"]%string -> clean ts.
Proof. intros [|t H] Hn; [apply clean_nil|]. eapply clean_cons; eauto. apply clean_nil. Qed.
Lemma union_clean ts x : union_field_of ctx ts x -> clean ts.
Proof. intros [ts1 t ts2 fm s0 H1 H2 Hs]. apply typename_clean in H1. apply form_clean in H2. cl. Qed.
Lemma field_clean ts x : field_of ctx ts x -> clean ts.
Proof.
  intros [ts1 t ts2 fs s0 H1 H2 Hs|u lb ts1 l rb ts2 fm s0 Hu Hlb H1 Hrb H2 Hs].
  - apply typename_clean in H1. apply (commas_clean _ _ _ _ form_clean) in H2. cl.
  - apply (many_clean _ _ _ _ union_clean) in H1. apply form_clean in H2. cl.
Qed.
Lemma elem_clean q ts pub a : elem_of ctx q ts pub a -> (forall t r, ts = t :: r -> ~ is "typedef" t) -> Forall plain ts.
Proof.
  intros H Hn. destruct H as [k lb ts0 l tc co rb ts' se pb Hk Hlb Hl Htc Hrb Hse| | | |ts0 t ts' fm lp ps l v rp ts'' b o pb Ht Hf Hlp Hps Hrp Hb
    |ts0 t ts' fm eq ts'' x s0 Ht Hf Heq Hx Hs0]; try (exfalso; eapply Hn; [reflexivity|assumption]).
  - apply (commas_clean _ _ _ _ entry_clean) in Hl. apply optional_clean in Htc; [|cbn; intuition discriminate].
    apply optional_clean in Hse; [|cbn; intuition discriminate]. assert (clean (k :: lb :: ts0 ++ tc ++ rb :: ts')) as [? _]; auto.
    rewrite app_assoc. cl.
  - apply typename_clean in Ht. apply form_clean in Hf. apply params_clean in Hps. apply (proj2 stmt_clean) in Hb.
    assert (clean (ts0 ++ ts' ++ lp :: ps ++ rp :: ts'')) as [? _]; auto. cl.
  - apply typename_clean in Ht. apply form_clean in Hf. apply expr_clean in Hx.
    assert (clean (ts0 ++ ts' ++ eq :: ts'' ++ [s0])) as [? _]; auto. cl.
Qed.
End Clean.

(** The pre-pass over the tokens of an element. *)
Section Pass.
Variable ctx : parsectx.
Variable p : pos.
Notation cur l := (mkCur l (EndEof p)).
Lemma pre_expect_ev k t r : is k t -> pre_expect k (cur (t :: r)) = (Ok t, cur r).
Proof.
  intros H. unfold pre_expect, more, peek_unwrap, get_unwrap. cbn. apply kind_is_true in H. rewrite H. reflexivity.
Qed.
Lemma on_err_ev A w (m : M A) c a c' : m c = (Ok a, c') -> abort_on_err w m c = (Ok a, c').
Proof. intros H. unfold abort_on_err. now rewrite H. Qed.
Lemma not_kind k t : ~ is k t -> kind_is t k = false.
Proof. intros H. destruct (kind_is t k) eqn:E; auto. apply kind_is_true in E. contradiction. Qed.
Lemma skip_loop_ev ts : bal ts -> forall rb r, is "}" rb -> ev p skip_loop (ts ++ rb :: r) tt r.
Proof.
  intros H. induction H as [|t ts H1 H2 Hb IH|lb a rb b Hlb Ha IHa Hrb Hb IHb]; intros q r Hq; cbn [app].
  - exists 1. intros f Hf. destruct f as [|f]; [lia|]. cbn [skip_loop].
    rewrite (bind_eval _ _ _ _ _ true (cur (q :: r))) by reflexivity. cbv beta iota.
    rewrite (bind_eval _ _ _ _ _ false (cur (q :: r))) by (apply follows_no; cbn; apply not_kind; unfold is in *; congruence).
    cbv beta iota. rewrite (bind_eval _ _ _ _ _ true (cur (q :: r))) by now apply follows_yes. cbv beta iota.
    erewrite bind_eval by now apply on_err_ev, pre_expect_ev. reflexivity.
  - destruct (IH q r Hq) as [F HF]. exists (S F). intros f Hf. destruct f as [|f]; [lia|]. cbn [skip_loop].
    rewrite (bind_eval _ _ _ _ _ true (cur (t :: ts ++ q :: r))) by reflexivity. cbv beta iota.
    rewrite (bind_eval _ _ _ _ _ false (cur (t :: ts ++ q :: r))) by (apply follows_no; now apply not_kind).
    cbv beta iota. rewrite (bind_eval _ _ _ _ _ false (cur (t :: ts ++ q :: r))) by (apply follows_no; now apply not_kind). cbv beta iota.
    erewrite bind_eval by apply get_ev. apply HF. lia.
  - rewrite <- app_assoc. cbn [app]. destruct (IHa rb (b ++ q :: r) Hrb) as [F HF]. destruct (IHb q r Hq) as [G HG].
    exists (S (S (F + G))). intros f Hf. destruct f as [|f]; [lia|]. cbn [skip_loop].
    rewrite (bind_eval _ _ _ _ _ true (cur (lb :: a ++ rb :: b ++ q :: r))) by reflexivity. cbv beta iota.
    rewrite (bind_eval _ _ _ _ _ true (cur (lb :: a ++ rb :: b ++ q :: r))) by now apply follows_yes. cbv beta iota.
    rewrite (bind_eval _ _ _ _ _ tt (cur (b ++ q :: r))).
    + apply HG. lia.
    + destruct f as [|f]; [lia|]. cbn [skip_brackets]. erewrite bind_eval by now apply on_err_ev, pre_expect_ev.
      apply HF. lia.
Qed.
Lemma skip_brackets_ev lb ts rb r : is "{" lb -> bal ts -> is "}" rb -> ev p skip_brackets (lb :: ts ++ rb :: r) tt r.
Proof.
  intros H Hb Hr. destruct (skip_loop_ev ts Hb rb r Hr) as [F HF]. exists (S F). intros f Hf. destruct f as [|f]; [lia|].
  cbn [skip_brackets]. erewrite bind_eval by now apply on_err_ev, pre_expect_ev. apply HF. lia.
Qed.
Lemma until_ev ts : Forall (fun t => ~ is ";" t) ts -> forall acc s0 r, is ";" s0 ->
  ev p (fun f => until_semicolon f acc) (ts ++ s0 :: r) (rev ts ++ acc) r.
Proof.
  intros H. induction H as [|t ts Ht H IH]; intros acc s0 r Hs; cbn [app].
  - exists 1. intros f Hf. destruct f as [|f]; [lia|]. cbn [until_semicolon].
    rewrite (bind_eval _ _ _ _ _ true (cur (s0 :: r))) by reflexivity. cbv beta iota.
    erewrite bind_eval by apply get_unwrap_ev. cbv beta. apply kind_is_true in Hs. now rewrite Hs.
  - destruct (IH (t :: acc) s0 r Hs) as [F HF]. exists (S F). intros f Hf. destruct f as [|f]; [lia|]. cbn [until_semicolon].
    rewrite (bind_eval _ _ _ _ _ true (cur (t :: ts ++ s0 :: r))) by reflexivity. cbv beta iota.
    erewrite bind_eval by apply get_unwrap_ev. cbv beta. rewrite (not_kind _ _ Ht). cbn [rev]. rewrite <- app_assoc. cbn [app].
    apply HF. lia.
Qed.
Lemma drop_params_ev ts lp r : Forall (fun t => ~ is "(" t) ts -> is "(" lp -> drop_params (ts ++ lp :: r) = r.
Proof.
  intros H Hl. induction H as [|t ts Ht H IH]; cbn.
  - apply kind_is_true in Hl. now rewrite Hl.
  - now rewrite (not_kind _ _ Ht).
Qed.

(** Tokens of a typedef up to its name and inside its parameters. *)
Definition simple (t : token) : Prop := In (t_kind t) ["const"; "word"; "."; "*"; ","; "..."]%string.
Lemma simple_is k t : is k t -> In k ["const"; "word"; "."; "*"; ","; "..."]%string -> simple t.
Proof. unfold is, simple. congruence. Qed.
Lemma typename_simple ts t : typename_of ctx ts t -> Forall simple ts.
Proof.
  intros H. assert (HN : forall ts n, name_of ctx ts n -> Forall simple ts).
  { intros tz n []; repeat (apply Forall_cons; [eapply simple_is; [eassumption|cbn; tauto]|]); apply Forall_nil. }
  destruct H as [ts n H|c ts n Hc H]; [eapply HN; eauto|]. constructor; [|eapply HN; eauto]. eapply simple_is; eauto; cbn; tauto.
Qed.
Lemma stars_simple ss n : stars_of ss n -> Forall simple ss.
Proof. intros [H _]. eapply Forall_impl; [|exact H]. intros t Ht. eapply simple_is; eauto; cbn; tauto. Qed.
Lemma typeforms_simple ts l : commas (typeform_of ctx) ts l -> Forall simple ts.
Proof.
  assert (HT : forall ts t, typeform_of ctx ts t -> Forall simple ts).
  { intros tz t [ts' t' ss n H Hs]. apply Forall_app. split; [eapply typename_simple; eauto|eapply stars_simple; eauto]. }
  intros H. induction H as [ts a H|ts c ts' a l H Hc _ IH]; [eapply HT; eauto|]. apply Forall_app. split; [eapply HT; eauto|].
  constructor; auto. eapply simple_is; eauto; cbn; tauto.
Qed.
Lemma simple_not k t : simple t -> ~ In k ["const"; "word"; "."; "*"; ","; "..."]%string -> ~ is k t.
Proof. unfold simple, is. congruence. Qed.

Lemma typename_not_typedef ts t r k r' : typename_of ctx ts t -> ts ++ r = k :: r' -> is "typedef" k -> False.
Proof.
  intros H E Hk. destruct H as [ts n H|c ts n Hc H]; [destruct H|]; injection E as <- _; unfold is in *; congruence.
Qed.

(** The name a typedef declares. *)
Inductive typedef_name : modelem -> str -> Prop :=
| Name_struct x : typedef_name (MStruct x) (st_name x)
| Name_alias x : typedef_name (MStructAlias x) (sa_typename x)
| Name_typedef x : typedef_name (MTypedef x) (td_alias x).
(** A typedef of a function type with an array size behind the parameters. *)
Definition function_array (ts : list token) : Prop :=
  exists td mid rp lb r, ts = td :: mid ++ rp :: lb :: r /\ is "typedef" td /\
    Forall (fun t => ~ is ";" t) mid /\ is ")" rp /\ is "[" lb.

Lemma find_first {A} (f : A -> bool) x l : f x = true -> find f (x :: l) = Some x.
Proof. intros H. cbn. now rewrite H. Qed.
Lemma find_skip {A} (f : A -> bool) x l : f x = false -> find f (x :: l) = find f l.
Proof. intros H. cbn. now rewrite H. Qed.
Lemma get_typename_ev q ts pub a r : elem_of ctx q ts pub a -> ~ function_array ts ->
  forall k ts', ts = k :: ts' -> is "typedef" k ->
  exists x, typedef_name a x /\ ev p get_typename (ts' ++ r) x r.
Proof.
  intros H Hfa k ts' E Hk. destruct H as [k0 lb ts0 l tc co rb tse se pb Hk0|k0 lb ts0 l rb x s0 pb Hk0 Hlb Hl Hrb Hx Hs
    |k0 st x y s0 pb Hk0 Hst Hx Hy Hs|k0 ts0 t ss n x ps a sz z s0 pb Hk0 Ht Hss Hx Hps Hsz Hs
    |ts0 t ts1 fm lp ps l v rp ts2 b o pb Ht|ts0 t ts1 fm eq ts2 x s0 Ht].
  - injection E as -> _. exfalso. unfold is in *. congruence.
  - injection E as -> <-. eexists. split; [constructor|].
    assert (Hb : bal ts0) by (apply (many_clean _ _ _ _ (field_clean ctx)) in Hl; apply Hl).
    cbn [app]. rewrite <- app_assoc. cbn [app].
    destruct (skip_brackets_ev lb ts0 rb (x :: s0 :: r) Hlb Hb Hrb) as [F HF]. exists F. intros f Hf. unfold get_typename.
    rewrite (bind_eval _ _ _ _ _ true (cur (lb :: ts0 ++ rb :: x :: s0 :: r))) by now apply follows_yes. cbv beta iota.
    rewrite (bind_eval _ _ _ _ _ tt (cur (x :: s0 :: r))) by (apply HF; lia).
    erewrite bind_eval by now apply on_err_ev, pre_expect_ev. cbv beta. erewrite bind_eval by now apply pre_expect_ev. reflexivity.
  - injection E as -> <-. eexists. split; [constructor|]. cbn [app].
    destruct (until_ev [st; x; y]) with (acc := @nil token) (s0 := s0) (r := r) as [F HF]; auto.
    { repeat constructor; unfold is in *; congruence. }
    exists F. intros f Hf. unfold get_typename.
    rewrite (bind_eval _ _ _ _ _ false (cur (st :: x :: y :: s0 :: r))) by (apply follows_no; cbn; apply not_kind; unfold is in *; congruence).
    cbv beta iota. rewrite (bind_eval _ _ _ _ _ [y; x; st] (cur r)) by (apply HF; lia). cbv beta iota zeta.
    rewrite (not_kind ")" y) by (unfold is in *; congruence). rewrite find_first by now apply kind_is_true. reflexivity.
  - injection E as -> <-. eexists. split; [constructor|]. cbn [td_alias].
    pose proof (typename_simple _ _ Ht) as S1. pose proof (stars_simple _ _ Hss) as S2.
    assert (W : kind_is x "word" = true) by now apply kind_is_true.
    assert (B : exists buf, Forall (fun t => ~ is ";" t) (ts0 ++ ss ++ x :: ps ++ sz) /\
      rev (ts0 ++ ss ++ x :: ps ++ sz) = buf /\
      match buf with [] => False | t0 :: _ => find (fun t => kind_is t "word") (if kind_is t0 ")" then drop_params buf else buf) = Some x end).
    { eexists. split; [|split; [reflexivity|]].
      - apply Forall_app. split; [eapply Forall_impl; [|exact S1]; intros; eapply simple_not; eauto; cbn; intuition discriminate|].
        apply Forall_app. split; [eapply Forall_impl; [|exact S2]; intros; eapply simple_not; eauto; cbn; intuition discriminate|].
        constructor; [unfold is in *; congruence|]. apply Forall_app. split.
        + destruct Hps as [|lp rp Hlp Hrp|lp tz l rp Hlp Htz Hrp|lp tz l cm d rp Hlp Htz Hcm Hd Hrp]; repeat constructor; try (unfold is in *; congruence).
          * apply Forall_app. split; [|repeat constructor; unfold is in *; congruence].
            eapply Forall_impl; [|apply (typeforms_simple _ _ Htz)]. intros; eapply simple_not; eauto; cbn; intuition discriminate.
          * apply Forall_app. split; [|repeat constructor; unfold is in *; congruence].
            eapply Forall_impl; [|apply (typeforms_simple _ _ Htz)]. intros; eapply simple_not; eauto; cbn; intuition discriminate.
        + destruct Hsz; repeat constructor; unfold is in *; congruence.
      - rewrite !rev_app_distr. cbn [rev]. rewrite !rev_app_distr. rewrite <- !app_assoc. cbn [app].
        destruct Hsz as [|lb num rb z Hlb Hn Hz Hrb].
        + cbn [rev app]. destruct Hps as [|lp rp Hlp Hrp|lp tz l rp Hlp Htz Hrp|lp tz l cm d rp Hlp Htz Hcm Hd Hrp].
          * cbn [rev app]. rewrite (not_kind ")" x) by (unfold is in *; congruence). now rewrite find_first.
          * cbn [rev app]. pose proof Hrp as Hrp'. apply kind_is_true in Hrp'. rewrite Hrp'.
            change (rp :: lp :: x :: rev ss ++ rev ts0) with ([rp] ++ lp :: x :: rev ss ++ rev ts0).
            rewrite drop_params_ev; [now rewrite find_first| |assumption]. repeat constructor; unfold is in *; congruence.
          * cbn [rev]. rewrite rev_app_distr. cbn [rev app]. pose proof Hrp as Hrp'. apply kind_is_true in Hrp'. rewrite Hrp'.
            rewrite <- app_assoc. cbn [app].
            change (rp :: rev tz ++ lp :: x :: rev ss ++ rev ts0) with ((rp :: rev tz) ++ lp :: x :: rev ss ++ rev ts0).
            rewrite drop_params_ev; [now rewrite find_first| |assumption].
            constructor; [unfold is in *; congruence|]. apply Forall_rev. eapply Forall_impl; [|apply (typeforms_simple _ _ Htz)].
            intros; eapply simple_not; eauto; cbn; intuition discriminate.
          * cbn [rev]. rewrite rev_app_distr. cbn [rev app]. pose proof Hrp as Hrp'. apply kind_is_true in Hrp'. rewrite Hrp'.
            rewrite <- app_assoc. cbn [app].
            change (rp :: d :: cm :: rev tz ++ lp :: x :: rev ss ++ rev ts0) with ((rp :: d :: cm :: rev tz) ++ lp :: x :: rev ss ++ rev ts0).
            rewrite drop_params_ev; [now rewrite find_first| |assumption].
            repeat (constructor; [unfold is in *; congruence|]). apply Forall_rev. eapply Forall_impl; [|apply (typeforms_simple _ _ Htz)].
            intros; eapply simple_not; eauto; cbn; intuition discriminate.
        + cbn [rev app]. rewrite (not_kind ")" rb) by (unfold is in *; congruence).
          rewrite find_skip by (apply not_kind; unfold is in *; congruence).
          rewrite find_skip by (apply not_kind; unfold is in *; congruence).
          rewrite find_skip by (apply not_kind; unfold is in *; congruence).
          assert (ps = []) as ->; [|cbn [rev app]; now rewrite find_first].
          destruct Hps as [|lp rp Hlp Hrp|lp tz l rp Hlp Htz Hrp|lp tz l cm d rp Hlp Htz Hcm Hd Hrp]; auto; exfalso; apply Hfa.
          all: assert (T : forall tz, Forall simple tz -> Forall (fun t => ~ is ";" t) tz)
              by (intros tq Hq; eapply Forall_impl; [|exact Hq]; intros; eapply simple_not; eauto; cbn; intuition discriminate).
          * exists k, (ts0 ++ ss ++ [x; lp]), rp, lb, [num; rb; s0]. split; [cbn [app]; rewrite <- !app_assoc; reflexivity|].
            repeat split; auto. apply Forall_app. split; auto. apply Forall_app. split; auto. repeat constructor; unfold is in *; congruence.
          * exists k, (ts0 ++ ss ++ x :: lp :: tz), rp, lb, [num; rb; s0]. split; [cbn [app]; rewrite <- !app_assoc; cbn [app]; rewrite <- ?app_assoc; reflexivity|].
            repeat split; auto. apply Forall_app. split; auto. apply Forall_app. split; auto.
            repeat (constructor; [unfold is in *; congruence|]). apply T. eapply typeforms_simple; eauto.
          * exists k, (ts0 ++ ss ++ x :: lp :: tz ++ [cm; d]), rp, lb, [num; rb; s0]. split; [cbn [app]; rewrite <- !app_assoc; cbn [app]; rewrite <- ?app_assoc; reflexivity|].
            repeat split; auto. apply Forall_app. split; auto. apply Forall_app. split; auto.
            repeat (constructor; [unfold is in *; congruence|]). apply Forall_app. split; [apply T; eapply typeforms_simple; eauto|].
            repeat constructor; unfold is in *; congruence. }
    destruct B as (buf & B1 & B2 & B3).
    replace ((ts0 ++ ss ++ x :: ps ++ sz ++ [s0]) ++ r) with ((ts0 ++ ss ++ x :: ps ++ sz) ++ s0 :: r)
      by (rewrite <- !app_assoc; cbn [app]; rewrite <- !app_assoc; reflexivity).
    destruct (until_ev _ B1 [] s0 r Hs) as [F HF]. rewrite app_nil_r, B2 in HF. exists F. intros f Hf. unfold get_typename.
    rewrite (bind_eval _ _ _ _ _ false (cur ((ts0 ++ ss ++ x :: ps ++ sz) ++ s0 :: r))).
    2:{ apply follows_no. destruct S1 as [|t1 ts1 S1 _]; [exfalso; inversion Ht as [? ? Hn|]; subst; inversion Hn|].
        cbn [app head_kind]. apply not_kind. eapply simple_not; eauto. cbn; intuition discriminate. }
    cbv beta iota. rewrite (bind_eval _ _ _ _ _ buf (cur r)) by (apply HF; lia). cbv beta iota zeta.
    destruct buf as [|t0 buf]; [contradiction|]. rewrite B3. reflexivity.
  - exfalso. eapply typename_not_typedef; eauto.
  - exfalso. eapply typename_not_typedef; eauto.
Qed.
Lemma bind_ok A B (m : M A) (k : A -> M B) c b c' : bind m k c = (Ok b, c') -> exists a d, m c = (Ok a, d) /\ k a d = (Ok b, c').
Proof. unfold bind. destruct (m c) as [[a|e|w|] d]; try discriminate. intros H. exists a, d. auto. Qed.
Lemma loop_grows f w path : forall im tn c im' tn' c', preparse_loop f w path im tn c = (Ok (im', tn'), c') -> incl tn tn'.
Proof.
  induction f as [|f IH]; intros im tn c im' tn' c' H; [discriminate|]. cbn [preparse_loop] in H.
  apply bind_ok in H as (o & d & _ & H). destruct o as [t|]; [|injection H as _ <- _; apply incl_refl].
  destruct (kind_is t "error"); [discriminate|]. destruct (kind_is t "import").
  { apply bind_ok in H as (rr & d' & _ & H). eapply IH; eauto. }
  destruct (kind_is t "typedef").
  { apply bind_ok in H as (n & d' & _ & H). apply IH in H. intros x Hx. apply H, in_or_app. auto. }
  destruct (kind_is t "macro" && starts_with (t_content t) (L "#type"))%bool; [|eapply IH; eauto].
  destruct (bdrop 6 (t_content t)); [|discriminate]. apply IH in H. intros x Hx. apply H, in_or_app. auto.
Qed.
Lemma loop_plain w path ts : Forall plain ts -> forall f im tn r im' tn' c',
  preparse_loop f w path im tn (cur (ts ++ r)) = (Ok (im', tn'), c') ->
  exists f', preparse_loop f' w path im tn (cur r) = (Ok (im', tn'), c').
Proof.
  intros H. induction H as [|t ts Ht H IH]; intros f im tn r im' tn' c' E; [eauto|].
  destruct f as [|f]; [discriminate|]. cbn [preparse_loop app] in E. erewrite bind_eval in E by apply get_ev. cbv beta iota in E.
  rewrite !(not_kind _ t) in E by (intros Hk; apply Ht; rewrite Hk; cbn; tauto). cbn [andb] in E. eapply IH; eauto.
Qed.
Lemma prepass_complete w path : forall l ms, module_of ctx l ms -> (forall pre suf, l = pre ++ suf -> ~ function_array suf) ->
  forall f im tn im' tn' c', preparse_loop f w path im tn (cur l) = (Ok (im', tn'), c') ->
  forall a x, In a ms -> typedef_name a x -> In x tn'.
Proof.
  intros l ms H. induction H as [|i ts l Hi H IH|t e ts l He H IH|pb pub ts e ts' l first rest Hpb Ef He H IH];
    intros Hfa f im tn im' tn' c' E a x Ha Hx; [contradiction| | |].
  - destruct f as [|f]; [discriminate|]. cbn [preparse_loop] in E. erewrite bind_eval in E by apply get_ev. cbv beta iota in E.
    rewrite (not_kind "error" i) in E by (unfold is in *; congruence). pose proof Hi as Hi'. apply kind_is_true in Hi'. rewrite Hi' in E.
    apply bind_ok in E as (rr & d & Er & E). assert (d = cur ts) as ->.
    { unfold resolve_m in Er. destruct (resolve_import w path (t_content i)) as [[?|?]| |]; congruence. }
    eapply IH; eauto. intros pre suf ->. apply (Hfa (i :: pre) suf). reflexivity.
  - destruct f as [|f]; [discriminate|]. cbn [preparse_loop] in E. erewrite bind_eval in E by apply get_ev. cbv beta iota in E.
    assert (Hm : is "macro" t) by now destruct He.
    rewrite !(not_kind _ t) in E by (unfold is in *; congruence).
    destruct Ha as [->|Ha]; [destruct He; inversion Hx|].
    assert (Hfa' : forall pre suf, ts = pre ++ suf -> ~ function_array suf) by (intros pre suf ->; apply (Hfa (t :: pre) suf); reflexivity).
    destruct (kind_is t "macro" && starts_with (t_content t) (L "#type"))%bool; [|eapply IH; eauto].
    destruct (bdrop 6 (t_content t)); [|discriminate]. eapply IH; eauto.
  - assert (P : Forall plain pb).
    { destruct Hpb as [|t Ht]; constructor; [|constructor]. eapply plain_is; eauto. cbn. intuition discriminate. }
    apply loop_plain in E as [g E]; auto.
    assert (Hfa' : forall pre suf, ts' = pre ++ suf -> ~ function_array suf).
    { intros pre suf ->. apply (Hfa (pb ++ ts ++ pre) suf). now rewrite <- !app_assoc. }
    assert (D : (exists k r, ts = k :: r /\ is "typedef" k) \/ (forall t r, ts = t :: r -> ~ is "typedef" t)).
    { destruct ts as [|k r]; [right; discriminate|]. destruct (kind_is k "typedef") eqn:Ek.
      - left. apply kind_is_true in Ek. eauto.
      - right. intros t r' [= <- _] Hk. apply kind_is_true in Hk. congruence. }
    destruct D as [(k & r & Et & Hk)|Hn].
    + destruct (get_typename_ev _ _ _ _ ts' He) with (k := k) (ts' := r) as (y & Hy & F & HF); auto.
      { intros (td & mid & rp & lb & z & -> & H1 & H2 & H3 & H4).
        apply (Hfa pb ((td :: mid ++ rp :: lb :: z) ++ ts')); auto.
        exists td, mid, rp, lb, (z ++ ts'). repeat split; auto. cbn [app]. rewrite <- app_assoc. reflexivity. }
      subst ts. destruct g as [|g]; [discriminate|]. cbn [preparse_loop app] in E. erewrite bind_eval in E by apply get_ev. cbv beta iota in E.
      rewrite (not_kind "error" k), (not_kind "import" k) in E by (unfold is in *; congruence).
      pose proof Hk as Hk'. apply kind_is_true in Hk'. rewrite Hk' in E.
      apply bind_ok in E as (n & d & En & E).
      assert (Eq : get_typename (g + F) (cur (r ++ ts')) = (Ok n, d)).
      { rewrite <- En. apply typename_stable; [lia|]. rewrite En. discriminate. }
      rewrite HF in Eq by lia. injection Eq as <- <-.
      destruct Ha as [<-|Ha].
      * apply (loop_grows _ _ _ _ _ _ _ _ _ E), in_or_app. right. left. destruct Hy; inversion Hx; reflexivity.
      * eapply IH; eauto.
    + destruct Ha as [->|Ha].
      * exfalso. destruct He; inversion Hx; subst; eapply Hn; reflexivity || assumption.
      * apply loop_plain in E as [g' E]; [|eapply elem_clean; eauto]. eapply IH; eauto.
Qed.
End Pass.
