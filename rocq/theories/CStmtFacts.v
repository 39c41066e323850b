(** What the formatter prints for a function body is read back by C as the
    statements it stands for. *)
From Verif Require Import Base BaseFacts SpecLex CAst FormatChe FormatC SpecC CReadFacts SpecCStmt.

(** ** Induction *)
Section CstmtInd.
Variable P : cstmt -> Prop.
Definition Popt (o : option (list cstmt)) : Prop := match o with Some l => Forall P l | None => True end.
Hypothesis HBlock : forall l, Forall P l -> P (KBlock l).
Hypothesis HBreak : P KBreak.
Hypothesis HContinue : P KContinue.
Hypothesis HVar : forall t f v, P (KVar t f v).
Hypothesis HIf : forall c b e, Forall P b -> Popt e -> P (KIf c b e).
Hypothesis HFor : forall i c a b, Forall P b -> P (KFor i c a b).
Hypothesis HWhile : forall c b, Forall P b -> P (KWhile c b).
Hypothesis HReturn : forall e, P (KReturn e).
Hypothesis HSwitch : forall v cases def, Forall (fun c => Forall P (snd c)) cases -> Popt def -> P (KSwitch v cases def).
Hypothesis HExpr : forall e, P (KExpr e).
Fixpoint cstmt_rec' (s : cstmt) : P s :=
  let all := fix all (l : list cstmt) : Forall P l :=
    match l with [] => Forall_nil _ | s :: r => Forall_cons _ (cstmt_rec' s) (all r) end in
  let opt := fun (o : option (list cstmt)) => match o return Popt o with Some l => all l | None => I end in
  match s with
  | KBlock l => HBlock l (all l)
  | KBreak => HBreak
  | KContinue => HContinue
  | KVar t f v => HVar t f v
  | KIf c b e => HIf c b e (all b) (opt e)
  | KFor i c a b => HFor i c a b (all b)
  | KWhile c b => HWhile c b (all b)
  | KReturn e => HReturn e
  | KSwitch v cases def =>
      HSwitch v cases def ((fix each (l : list (list cswitch_value * list cstmt)) : Forall (fun c => Forall P (snd c)) l :=
        match l with [] => Forall_nil _ | c :: r => Forall_cons _ (all (snd c)) (each r) end) cases) (opt def)
  | KExpr e => HExpr e
  end.
End CstmtInd.

(** ** The C statements *)
Definition label_expr (v : cswitch_value) : cexpr := match v with CSVIdent s => CIdent s | CSVLit l => CLit l end.
Definition labelled (vs : list cswitch_value) (s : cst) : cst := fold_right (fun v s => XCase (label_expr v) s) s vs.
Fixpoint lower (s : cstmt) : list cst :=
  let lowers := fix go (l : list cstmt) : list cst := match l with [] => [] | s :: r => lower s ++ go r end in
  let pads := fix go (l : list cstmt) : list cst := match l with [] => [] | s :: r => lower s ++ XNull :: go r end in
  match s with
  | KBlock l => [XBlock (lowers l)]
  | KBreak => [XBreak]
  | KContinue => [XContinue]
  | KVar t forms vals => [XDecl t (combine forms vals)]
  | KIf c b e => [XIf c (XBlock (lowers b)) (option_map (fun l => XBlock (lowers l)) e)]
  | KFor i c a b => [XFor i c a (XBlock (lowers b))]
  | KWhile c b => [XWhile c (XBlock (lowers b))]
  | KReturn None => [XReturn None; XNull]
  | KReturn (Some e) => [XReturn (Some e)]
  | KSwitch v cases def =>
      [XSwitch v (XBlock ((fix go (l : list (list cswitch_value * list cstmt)) : list cst :=
          match l with [] => [] | (vs, b) :: r => labelled vs (XBlock (pads b ++ [XBreak])) :: go r end) cases
        ++ match def with Some b => [XDefault (XBlock (pads b))] | None => [] end))]
  | KExpr e => [XExpr e]
  end.
Fixpoint lowers (l : list cstmt) : list cst := match l with [] => [] | s :: r => lower s ++ lowers r end.
Fixpoint pads (l : list cstmt) : list cst := match l with [] => [] | s :: r => lower s ++ XNull :: pads r end.
Definition case_tree (c : list cswitch_value * list cstmt) : cst := labelled (fst c) (XBlock (pads (snd c) ++ [XBreak])).
Definition default_tree (d : option (list cstmt)) : list cst := match d with Some b => [XDefault (XBlock (pads b))] | None => [] end.
Lemma lower_eq s : lower s = match s with
  | KBlock l => [XBlock (lowers l)]
  | KBreak => [XBreak]
  | KContinue => [XContinue]
  | KVar t forms vals => [XDecl t (combine forms vals)]
  | KIf c b e => [XIf c (XBlock (lowers b)) (option_map (fun l => XBlock (lowers l)) e)]
  | KFor i c a b => [XFor i c a (XBlock (lowers b))]
  | KWhile c b => [XWhile c (XBlock (lowers b))]
  | KReturn None => [XReturn None; XNull]
  | KReturn (Some e) => [XReturn (Some e)]
  | KSwitch v cases def => [XSwitch v (XBlock (map case_tree cases ++ default_tree def))]
  | KExpr e => [XExpr e]
  end.
Proof.
  destruct s; try reflexivity. cbn [lower]. do 4 f_equal. induction cases as [|[vs b] l IH]; [reflexivity|]. cbn [map]. rewrite <- IH. reflexivity.
Qed.

(** ** The text *)
Fixpoint case_stmts (l : list cstmt) : str :=
  match l with [] => [] | x :: r => tab ++ format_statement x ++ L ";" ++ nl ++ case_stmts r end.
Definition case_text (c : list cswitch_value * list cstmt) : str :=
  join nl (map (fun x => L "case " ++ fmt_case_value x ++ L ":") (fst c))
  ++ L " {" ++ nl ++ case_stmts (snd c) ++ tab ++ L "break;" ++ nl ++ L "}" ++ nl.
Lemma format_statement_eq s : format_statement s = match s with
  | KBlock l => format_body l
  | KBreak => L "break;"
  | KContinue => L "continue;"
  | KVar t forms values =>
      format_type t ++ L " " ++ join (L ", ") (fmt_declarators forms values) ++ L ";"
  | KIf c b e =>
      L "if (" ++ fmt_expr c ++ L ") " ++ format_body b ++
      match e with Some b2 => L " else " ++ format_body b2 | None => [] end
  | KFor init c a b =>
      L "for (" ++
      (match init with
       | Some (CFIExpr e) => fmt_expr e
       | Some (CFIDecl v) => fmt_vardecl v
       | None => []
       end) ++ L "; " ++ opt_expr c ++ L "; " ++ opt_expr a ++ L ") " ++ format_body b
  | KWhile c b => L "while (" ++ fmt_expr c ++ L ") " ++ format_body b
  | KReturn None => L "return;;"
  | KReturn (Some e) => L "return " ++ fmt_expr e ++ L ";"
  | KSwitch v cases def =>
      L "switch (" ++ fmt_expr v ++ L ") {" ++ nl ++ flat_map case_text cases ++
      (match def with
       | Some b => L "default: {" ++ nl ++ case_stmts b ++ L "}" ++ nl
       | None => []
       end) ++ L "}"
  | KExpr e => fmt_expr e ++ L ";"
  end.
Proof.
  destruct s; try reflexivity. cbn [format_statement]. do 4 f_equal.
  assert (H : forall l, (fix go (l : list (list cswitch_value * list cstmt)) : str :=
         match l with
         | [] => []
         | (vals, b) :: r =>
             join nl (map (fun x => L "case " ++ fmt_case_value x ++ L ":") vals)
             ++ L " {" ++ nl ++ case_stmts b ++ tab ++ L "break;" ++ nl ++ L "}" ++ nl ++ go r
         end) l = flat_map case_text l).
  { clear. induction l as [|[vs b] l IH]; [reflexivity|]. cbn [flat_map]. rewrite <- IH. unfold case_text. cbn [fst snd].
    repeat rewrite <- app_assoc. reflexivity. }
  apply (f_equal2 (@app char)); [apply H|reflexivity].
Qed.

(** ** Indentation *)
(** Tabs put after line breaks. *)
Inductive tabbed : str -> str -> Prop :=
| Tb_nil : tabbed [] []
| Tb_char c s s' : tabbed s s' -> tabbed (c :: s) (c :: s')
| Tb_break s s' : tabbed s s' -> tabbed (10%N :: s) (10%N :: 9%N :: s').
Lemma tabbed_refl s : tabbed s s.
Proof. induction s; now constructor. Qed.
Lemma tabbed_app a a' b b' : tabbed a a' -> tabbed b b' -> tabbed (a ++ b) (a' ++ b').
Proof. induction 1; intros Hb; cbn; [exact Hb|apply Tb_char; auto|apply Tb_break; auto]. Qed.
Lemma tabbed_split a : forall b t, tabbed (a ++ b) t -> exists a' b', t = a' ++ b' /\ tabbed a a' /\ tabbed b b'.
Proof.
  induction a as [|c a IH]; intros b t H; cbn [app] in H.
  - exists [], t. repeat split; auto. constructor.
  - inversion H as [|? ? s' Hs|? s' Hs]; subst.
    + destruct (IH _ _ Hs) as (a' & b' & -> & Ha & Hb). exists (c :: a'), b'. repeat split; auto. now constructor.
    + destruct (IH _ _ Hs) as (a' & b' & -> & Ha & Hb). exists (10%N :: 9%N :: a'), b'. repeat split; auto. now apply Tb_break.
Qed.
Lemma tabbed_line s t : ~ In 10%N s -> tabbed s t -> t = s.
Proof. intros Hn H. induction H as [|c s s' H IH|s s' H IH]; [reflexivity| |]; cbn in Hn; [f_equal|]; tauto. Qed.
Lemma tabbed_blank s t : tabbed s t -> all blank s -> all blank t.
Proof.
  unfold all. induction 1 as [|c s s' H IH|s s' H IH]; intros Hb; [constructor| |]; inversion Hb; subst; repeat constructor; auto.
Qed.
Lemma replace_tabbed s : tabbed s (replace1 10 (nl ++ tab) s).
Proof.
  induction s as [|c s IH]; [constructor|]. cbn [replace1]. destruct (N.eqb_spec c 10).
  - subst. now apply Tb_break.
  - now apply Tb_char.
Qed.
Lemma count_nl_split s : exists r, s = repeat 10%N (count_nl s) ++ r.
Proof.
  induction s as [|c s (r & IH)]; [exists []; reflexivity|].
  assert (H : c = 10%N \/ count_nl (c :: s) = 0).
  { cbn [count_nl]. repeat (destruct c as [|c]; [now right|]; try (now right)). destruct (N.eqb_spec (N.pos c) 10) as [E|E]; [now left|right].
    do 4 (destruct c as [c|c|]; try reflexivity). now destruct E. }
  destruct H as [-> | H].
  - exists r. cbn [count_nl repeat app]. now rewrite <- IH.
  - exists (c :: s). rewrite H. reflexivity.
Qed.
Lemma indent_tabbed s : exists t, indent s = tab ++ t /\ tabbed s t.
Proof.
  unfold indent. set (k := count_nl (rev s)). destruct (count_nl_split (rev s)) as (r & E). fold k in E.
  assert (Es : s = rev r ++ repeat 10%N k).
  { rewrite <- (rev_involutive s), E, rev_app_distr. f_equal. clear. induction k as [|k IH]; [reflexivity|]. cbn [repeat rev]. rewrite IH.
    clear. induction k as [|k IH]; [reflexivity|]. cbn [repeat app]. now rewrite IH. }
  exists (replace1 10 (nl ++ tab) (rev r) ++ repeat 10%N k). split.
  - f_equal. f_equal. f_equal. rewrite Es at 2. rewrite firstn_app. rewrite Es at 1. rewrite app_length, repeat_length.
    replace (List.length (rev r) + k - k) with (List.length (rev r)) by lia. rewrite firstn_all.
    rewrite Es, app_length, repeat_length. replace (List.length (rev r) + k - k - List.length (rev r)) with 0 by lia. cbn [firstn]. now rewrite app_nil_r.
  - rewrite Es at 1. apply tabbed_app; [apply replace_tabbed|apply tabbed_refl].
Qed.

(** What follows a token, up to the next line break. *)
Lemma tabbed_begins p r : ~ In 10%N p -> forall s t, tabbed s t -> begins (t ++ r) p -> begins (s ++ r) p.
Proof.
  intros Hp s t H. revert p Hp. induction H as [|c s s' H IH|s s' H IH]; intros p Hp [z E].
  - exists z. exact E.
  - destruct p as [|x p]; [exists (c :: s ++ r); reflexivity|]. cbn [app] in E. injection E as <- E.
    destruct (IH p) as [z' E']; [cbn in Hp; tauto|exists z; exact E|]. exists z'. cbn [app]. now rewrite E'.
  - destruct p as [|x p]; [exists (10%N :: s ++ r); reflexivity|]. cbn [app] in E. injection E as <- E. exfalso. apply Hp. now left.
Qed.
Lemma tabbed_stops p s t r : tabbed s t -> stops p (s ++ r) -> stops p (t ++ r).
Proof. destruct 1; auto. Qed.
Lemma punct_line op : In op punctuators -> ~ In 10%N (lit op).
Proof.
  intros H. assert (Hb : forallb (fun op => negb (existsb (N.eqb 10) (lit op))) punctuators = true) by (vm_compute; reflexivity).
  rewrite forallb_forall in Hb. specialize (Hb op H). intros Hi. apply negb_true_iff in Hb.
  assert (existsb (N.eqb 10) (lit op) = true) by (apply existsb_exists; exists 10%N; auto). congruence.
Qed.
Lemma tabbed_spells t0 s a b r : tabbed a b -> spells t0 s (a ++ r) -> spells t0 s (b ++ r).
Proof.
  intros Ht H. assert (Hb : forall x p, ~ In 10%N p -> begins (x ++ b ++ r) p -> begins (x ++ a ++ r) p).
  { intros x p Hp [z E]. revert p Hp E. induction x as [|c x IH]; intros p Hp E; cbn [app] in E.
    - apply (tabbed_begins p r Hp a b Ht). exists z. exact E.
    - destruct p as [|y p]; [exists ((c :: x) ++ a ++ r); reflexivity|]. cbn [app] in E. injection E as <- E.
      destruct (IH p) as [z' E']; [cbn in Hp; tauto|exact E|]. exists z'. cbn [app]. now rewrite E'. }
  inversion H as [c w rest Hc Hw Hs|s0 rest Hn Hs|s0 rest Hs|s0 rest Hn Hs|op rest Hi Hl H1 H2 H3]; subst.
  - constructor; auto. eapply tabbed_stops; eauto.
  - constructor; auto. destruct Hs as [S1 S2]. split; [eapply tabbed_stops; eauto|]. intros Hx. eapply tabbed_stops; eauto.
  - now constructor.
  - now constructor.
  - constructor; auto.
    + intros op' Hi' Hx. apply Hl; auto. apply Hb; auto. now apply punct_line.
    + intros Hx. apply H1. apply Hb; auto. cbn. intuition discriminate.
    + intros Hx. apply H2. apply Hb; auto. cbn. intuition discriminate.
    + intros E. eapply tabbed_stops; eauto.
Qed.
Lemma spells_line t s r : spells t s r -> ~ In 10%N s.
Proof.
  assert (Hch : forall q s, c_chars q s -> ~ In 10%N s).
  { intros q x. induction 1 as [|c x H1 H2 H3 H IH|c x H1 H IH]; cbn; [tauto| |].
    - intros [E|E]; congruence || tauto.
    - intros [E|[E|E]]; congruence || tauto. }
  assert (Hwd : forall w, all c_word_char w -> ~ In 10%N w).
  { intros w Hw Hi. unfold all in Hw. rewrite Forall_forall in Hw. specialize (Hw _ Hi). discriminate. }
  intros H. destruct H as [c w rest Hc Hw Hs|s rest Hn Hs|s rest Hs|s rest Hn Hs|op rest Hi].
  - intros [E|E]; [subst; discriminate|now apply Hwd in E].
  - clear Hs. induction Hn as [d Hd|d Hd|s c Hn IH Hc|s e c Hn IH He Hc].
    + intros [E|[]]. subst. discriminate.
    + intros [E|[E|[]]]; [discriminate|]. subst. discriminate.
    + rewrite in_app_iff. intros [E|[E|[]]]; [auto|]. subst. discriminate.
    + rewrite in_app_iff in *. intros [E|[E|[E|[]]]]; [tauto|cbn in IH; tauto|]. subst. discriminate.
  - cbn. rewrite in_app_iff. intros [E|[E|[E|[]]]]; try discriminate. revert E. now apply (Hch _ _ Hs).
  - cbn. rewrite in_app_iff. intros [E|[E|[E|[]]]]; try discriminate. revert E. now apply (Hch _ _ Hs).
  - now apply punct_line.
Qed.
Lemma tabbed_reads text toks rest : reads text toks rest -> forall t, tabbed text t -> reads t toks rest.
Proof.
  induction 1 as [ws rest Hw|ws t s text toks rest Hw Hs Hr IH]; intros u Hu.
  - constructor. eapply tabbed_blank; eauto.
  - apply tabbed_split in Hu as (ws' & u' & -> & Hws & Hu). apply tabbed_split in Hu as (s' & text' & -> & Hs' & Ht).
    apply tabbed_line in Hs'; [|eapply spells_line; eauto]. subst s'. constructor; [eapply tabbed_blank; eauto| |now apply IH].
    eapply tabbed_spells; eauto.
Qed.
Lemma indent_reads text toks rest : reads text toks rest -> reads (indent text) toks rest.
Proof.
  intros H. destruct (indent_tabbed text) as (t & -> & Ht). apply (line_blank t toks rest 9%N); [now right|].
  eapply tabbed_reads; eauto.
Qed.

(** ** Printing *)
Lemma reads_word w s ts rest : c_word w -> heads loose (s ++ rest) -> reads s ts rest -> reads (w ++ s) (TWord w :: ts) rest.
Proof. intros Hw Hr Hs. change (TWord w :: ts) with ([TWord w] ++ ts). apply reads_app; [now apply word_reads|exact Hs]. Qed.
Lemma reads_final op s ts rest : In op final_ops -> reads s ts rest -> reads (lit op ++ s) (TPunct op :: ts) rest.
Proof. intros H Hs. apply reads_tok; [now apply spells_final|exact Hs]. Qed.
Lemma reads_end op rest : In op final_ops -> reads (lit op) [TPunct op] rest.
Proof. intros H. apply reads_one. now apply spells_final. Qed.
Lemma reads_break s ts rest : reads s ts rest -> reads (nl ++ s) ts rest.
Proof. apply line_blank. now left. Qed.
Lemma reads_tab s ts rest : reads s ts rest -> reads (tab ++ s) ts rest.
Proof. apply line_blank. now right. Qed.
Lemma reads_nil rest : reads [] [] rest.
Proof. apply reads_blank. constructor. Qed.
Lemma reads_then a ta b tb rest : (forall rest, reads a ta rest) -> reads b tb rest -> reads (a ++ b) (ta ++ tb) rest.
Proof. intros Ha Hb. now apply reads_app. Qed.
Ltac final := cbn; tauto.
Ltac kw := eexists; eexists; split; [reflexivity|]; split; [reflexivity|repeat constructor].

Section Bodies.
Variable types : str -> bool.
Notation expr_of := (c_expr_of types).
Notation stmt_of := (c_stmt_of types).
Notation items_of := (c_items_of types).

Lemma items_app a la b lb : items_of a la -> items_of b lb -> items_of (a ++ b) (la ++ lb).
Proof.
  induction 1 as [|ts s ts' l Hs Hl IH|ts t ts' ds ts'' l Ht Hd Hl IH]; intros Hb.
  - exact Hb.
  - rewrite <- app_assoc. apply Ci_stmt; auto.
  - rewrite <- !app_assoc. cbn [app]. apply Ci_decl; auto.
Qed.
Lemma items_one ts s : stmt_of ts s -> items_of ts [s].
Proof. intros H. rewrite <- (app_nil_r ts). apply Ci_stmt; [exact H|constructor]. Qed.

Lemma plain_reads e : plain types e -> exists ts, (forall rest, heads tight rest -> reads (fmt_expr e) ts rest) /\ expr_of 2 ts e.
Proof.
  intros H. destruct (proj1 (plain_good types) e H) as (ts & Hr & He & _). exists ts. split.
  - intros rest Hh. apply Hr, tight_after, Hh.
  - pose proof (lvl_range types e H). eapply up_to; [exact He|lia|lia].
Qed.
Lemma plain_init_reads e : plain_init types e -> exists ts, (forall rest, heads tight rest -> reads (fmt_expr e) ts rest) /\ c_init_of types ts e.
Proof. apply (proj1 (init_good types)). Qed.
Lemma opt_reads e : plain_opt types e -> exists ts, (forall rest, heads tight rest -> reads (opt_expr e) ts rest) /\ c_opt_of types ts e.
Proof.
  destruct e as [e|]; intros H.
  - now apply plain_reads.
  - exists []. split; [|reflexivity]. intros rest _. apply reads_nil.
Qed.
Lemma type_reads t s ts rest : plain_type types t -> reads s ts rest ->
  exists tt, c_type_of types tt t /\ reads (format_type t ++ L " " ++ s) (tt ++ ts) rest.
Proof.
  intros H Hs. destruct (typeform_reads types _ H) as (tt & Ht & Hr). inversion Ht as [tt0 t0 n E E1 E2]; subst. cbn [repeat] in *. rewrite app_nil_r in *.
  exists tt0. split; [exact E|]. unfold fmt_bare_typeform in Hr. cbn [cbtf_type cbtf_hops] in Hr. change (stars 0) with ([] : str) in Hr. rewrite app_nil_r in Hr.
  apply reads_app; [apply Hr; cbn; tauto|now apply reads_space].
Qed.
Lemma hops_reads n x s ts rest : c_word x -> reads (x ++ s) ts rest -> reads (repeat 42%N n ++ x ++ s) (repeat (TPunct "*") n ++ ts) rest.
Proof.
  intros (c & w & -> & Hc & Hw) H. induction n as [|n IH]; [exact H|]. cbn [repeat app].
  change (42%N :: repeat 42%N n ++ c :: w ++ s) with (L "*" ++ repeat 42%N n ++ (c :: w) ++ s). apply reads_tok; [|exact IH].
  apply spells_punct; [cbn; tauto|discriminate| |discriminate]. destruct n as [|n]; cbn [repeat app]; [|reflexivity].
  apply extends_safe; [cbn; tauto|]. now rewrite Hc.
Qed.
Lemma indexes_reads l : Forall (fun i => match i with Some e => plain types e | None => True end) l -> exists ts,
  (forall rest, reads (flat_map (fun i => match i with Some e => L "[" ++ fmt_expr e ++ L "]" | None => L "[]" end) l) ts rest)
  /\ c_indexes_of types ts l.
Proof.
  induction 1 as [|i l Hi Hl (ts & Hr & Hx)].
  - exists []. split; [intros; apply reads_nil|constructor].
  - destruct i as [e|].
    + destruct (plain_reads e Hi) as (te & Re & Ee). exists (TPunct "[" :: te ++ TPunct "]" :: ts). split; [|now constructor].
      intros rest. cbn [flat_map]. rewrite <- !app_assoc. apply reads_final; [final|]. apply reads_app; [apply Re; final|].
      apply reads_final; [final|apply Hr].
    + exists (TPunct "[" :: TPunct "]" :: ts). split; [|now constructor]. intros rest. cbn [flat_map].
      change (L "[]") with (L "[" ++ L "]"). rewrite <- app_assoc. apply reads_final; [final|]. apply reads_final; [final|apply Hr].
Qed.
Lemma form_reads f : plain_form types f -> exists ts, (forall rest, heads loose rest -> reads (format_form f) ts rest) /\ c_declarator_of types ts f.
Proof.
  destruct f as [st x l]. intros ((n & Hn) & Hi & Hw & Hx). cbn [cf_stars cf_name cf_indexes] in *. subst st.
  destruct (indexes_reads l Hx) as (ts & Hr & Ht). exists (repeat (TPunct "*") n ++ TWord x :: ts). split; [|now constructor].
  intros rest Hh. unfold format_form. cbn [cf_stars cf_name cf_indexes]. apply hops_reads; [exact Hw|].
  apply reads_word; [exact Hw| |apply Hr]. destruct l as [|[e|] l]; [exact Hh|cbn; tauto|cbn; tauto].
Qed.
Lemma tight_loose rest : heads tight rest -> heads loose rest.
Proof. apply heads_incl. apply incl_appl, incl_refl. Qed.

Definition printed (s : cstmt) : Prop := exists ts, (forall rest, reads (format_statement s) ts rest) /\ items_of ts (lower s).
Lemma printed_stmts l : Forall printed l -> exists ts, (forall rest, reads (format_stmts l) ts rest) /\ items_of ts (lowers l).
Proof.
  induction 1 as [|s l (ts & Hr & Hi) Hl (tl & Hrl & Hil)].
  - exists []. split; [intros; apply reads_nil|constructor].
  - exists (ts ++ tl). split; [|now apply items_app]. intros rest. cbn [format_stmts]. apply reads_app; [apply Hr|]. apply reads_break, Hrl.
Qed.
Lemma printed_body l : Forall printed l -> exists ts, (forall rest, reads (format_body l) ts rest) /\ stmt_of ts (XBlock (lowers l)).
Proof.
  intros H. destruct (printed_stmts l H) as (ts & Hr & Hi). exists (TPunct "{" :: ts ++ [TPunct "}"]). split; [|now constructor].
  intros rest. unfold format_body. apply reads_final; [final|]. apply reads_break. apply reads_app; [apply indent_reads, Hr|].
  change [TPunct "}"] with ([TPunct "}"] ++ []). apply reads_app; [apply reads_end; final|]. apply reads_blank. repeat constructor.
Qed.
Lemma printed_pads l : Forall printed l -> exists ts, (forall rest, reads (case_stmts l) ts rest) /\ items_of ts (pads l).
Proof.
  induction 1 as [|s l (ts & Hr & Hi) Hl (tl & Hrl & Hil)].
  - exists []. split; [intros; apply reads_nil|constructor].
  - exists (ts ++ TPunct ";" :: tl). split.
    + intros rest. cbn [case_stmts]. apply reads_tab. apply reads_app; [apply Hr|]. apply reads_final; [final|]. apply reads_break, Hrl.
    + cbn [pads]. apply items_app; [exact Hi|]. change (TPunct ";" :: tl) with ([TPunct ";"] ++ tl). apply Ci_stmt; [constructor|exact Hil].
Qed.
Lemma label_reads v : plain_label types v -> exists ts, (forall rest, heads tight rest -> reads (fmt_case_value v) ts rest) /\ expr_of 3 ts (label_expr v).
Proof.
  destruct v as [s|l]; cbn [plain_label fmt_case_value label_expr]; intros H;
    destruct (proj1 (plain_good types) _ H) as (ts & Hr & He & _); exists ts; (split; [|eapply up_to; [exact He|cbn; lia|cbn; lia]]);
    intros rest Hh; apply Hr, tight_after, Hh.
Qed.
Lemma colon_reads (s : str) ts (rest : str) (c : char) (r : str) : s ++ rest = c :: r -> In c ([32; 10]%N : str) -> reads s ts rest -> reads (L ":" ++ s) (TPunct ":" :: ts) rest.
Proof.
  intros E Hc H. apply reads_tok; [|exact H]. rewrite E. apply spells_punct; [cbn; tauto|discriminate| |discriminate].
  cases Hc; subst; reflexivity.
Qed.
Lemma labels_reads vs s ts tree : vs <> [] -> Forall (plain_label types) vs -> (exists z, s = 32%N :: z) -> (forall rest, reads s ts rest) -> stmt_of ts tree ->
  exists ts', (forall rest, reads (join nl (map (fun x => L "case " ++ fmt_case_value x ++ L ":") vs) ++ s) ts' rest) /\ stmt_of ts' (labelled vs tree).
Proof.
  intros Hn Hv (z & ->) Hr Ht. induction Hv as [|v vs Hv Hvs IH]; [now destruct Hn|]. destruct (label_reads v Hv) as (tv & Rv & Ev).
  destruct vs as [|v' vs].
  - exists (TWord (L "case") :: tv ++ TPunct ":" :: ts). split; [|now constructor]. intros rest. cbn [map join].
    change (L "case ") with (L "case" ++ L " "). rewrite <- !app_assoc. apply reads_word; [kw|cbn; tauto|]. apply reads_space.
    apply reads_app; [apply Rv; cbn; tauto|]. eapply colon_reads; [reflexivity|cbn; tauto|apply Hr].
  - destruct IH as (ts' & Hr' & Ht'); [discriminate|]. exists (TWord (L "case") :: tv ++ TPunct ":" :: ts'). split; [|now constructor].
    intros rest. set (f := fun x => L "case " ++ fmt_case_value x ++ L ":") in *.
    change (join nl (map f (v :: v' :: vs))) with ((L "case " ++ fmt_case_value v ++ L ":") ++ nl ++ join nl (map f (v' :: vs))).
    change (L "case ") with (L "case" ++ L " "). rewrite <- !app_assoc. apply reads_word; [kw|cbn; tauto|]. apply reads_space.
    apply reads_app; [apply Rv; cbn; tauto|]. eapply colon_reads; [reflexivity|cbn; tauto|]. apply reads_break, Hr'.
Qed.

Lemma plain_all_eq l : (fix all (l : list cstmt) : Prop := match l with [] => True | s :: r => plain_stmt types s /\ all r end) l <-> plain_body types l.
Proof. induction l; cbn; tauto. Qed.
Lemma plain_each v cases def : plain_stmt types (KSwitch v cases def) -> plain types v
  /\ match def with Some b => plain_body types b | None => True end
  /\ Forall (fun c => (fst c <> [] /\ Forall (plain_label types) (fst c)) /\ plain_body types (snd c)) cases.
Proof.
  cbn [plain_stmt]. intros (Hv & Hd & Hc). split; [exact Hv|]. split; [destruct def; [now apply plain_all_eq|exact I]|].
  induction cases as [|[vs b] l IH]; [constructor|]. destruct Hc as (H1 & H2 & H3). constructor; [|now apply IH].
  cbn [fst snd]. split; [exact H1|now apply plain_all_eq].
Qed.
Lemma body_forall l : Forall (fun s => plain_stmt types s -> printed s) l -> plain_body types l -> Forall printed l.
Proof. induction 1 as [|s l Hs Hl IH]; intros Hp; [constructor|]. destruct Hp as [H1 H2]. constructor; auto. Qed.

Lemma case_printed c : (fst c <> [] /\ Forall (plain_label types) (fst c)) -> Forall printed (snd c) ->
  exists ts, (forall rest, reads (case_text c) ts rest) /\ stmt_of ts (case_tree c).
Proof.
  intros [Hn Hv] Hb. destruct (printed_pads _ Hb) as (tb & Rb & Ib). unfold case_text, case_tree.
  eapply labels_reads; [exact Hn|exact Hv|eexists; reflexivity| |].
  - intros rest. change (L " {") with (L " " ++ L "{"). rewrite <- app_assoc. apply reads_space. apply reads_final; [final|]. apply reads_break.
    apply reads_app; [apply Rb|]. apply reads_tab. change (L "break;") with (L "break" ++ L ";"). rewrite <- app_assoc.
    apply reads_word; [kw|cbn; tauto|]. apply reads_final; [final|]. apply reads_break. apply reads_final; [final|]. apply reads_blank. repeat constructor.
  - replace (TPunct "{" :: tb ++ [TWord (L "break"); TPunct ";"; TPunct "}"]) with (TPunct "{" :: (tb ++ [TWord (L "break"); TPunct ";"]) ++ [TPunct "}"]) by (rewrite <- app_assoc; reflexivity).
    constructor. apply items_app; [exact Ib|]. apply items_one. constructor.
Qed.
Lemma cases_printed cases : Forall (fun c => (fst c <> [] /\ Forall (plain_label types) (fst c)) /\ Forall printed (snd c)) cases ->
  exists ts, (forall rest, reads (flat_map case_text cases) ts rest) /\ items_of ts (map case_tree cases).
Proof.
  induction 1 as [|c l [Hc Hb] Hl (ts & Hr & Hi)].
  - exists []. split; [intros; apply reads_nil|constructor].
  - destruct (case_printed c Hc Hb) as (tc & Rc & Sc). exists (tc ++ ts). split.
    + intros rest. cbn [flat_map]. apply reads_app; [apply Rc|apply Hr].
    + cbn [map]. now apply Ci_stmt.
Qed.
Lemma default_printed def : match def with Some b => Forall printed b | None => True end ->
  exists ts, (forall rest, reads (match def with Some b => L "default: {" ++ nl ++ case_stmts b ++ L "}" ++ nl | None => [] end) ts rest)
    /\ items_of ts (default_tree def).
Proof.
  destruct def as [b|]; intros Hb; [|exists []; split; [intros; apply reads_nil|constructor]].
  destruct (printed_pads _ Hb) as (tb & Rb & Ib). exists (TWord (L "default") :: TPunct ":" :: TPunct "{" :: tb ++ [TPunct "}"]). split.
  - intros rest. change (L "default: {") with (L "default" ++ L ":" ++ L " " ++ L "{"). rewrite <- !app_assoc.
    apply reads_word; [kw|cbn; tauto|]. eapply colon_reads; [reflexivity|cbn; tauto|]. apply reads_space, reads_final; [final|]. apply reads_break.
    apply reads_app; [apply Rb|]. apply reads_final; [final|]. apply reads_blank. repeat constructor.
  - apply items_one. constructor. now constructor.
Qed.

Theorem stmt_printed s : plain_stmt types s -> printed s.
Proof.
  induction s as [l Hl| | |t forms vals|c b e Hb He|i c a b Hb|c b Hb|e|v cases def Hc Hd|e] using cstmt_rec';
    intros Hp; unfold printed; rewrite format_statement_eq, lower_eq.
  - cbn [plain_stmt] in Hp. apply plain_all_eq in Hp. destruct (printed_body l (body_forall l Hl Hp)) as (ts & Hr & Hs).
    exists ts. split; [exact Hr|now apply items_one].
  - exists [TWord (L "break"); TPunct ";"]. split; [|apply items_one; constructor]. intros rest. change (L "break;") with (L "break" ++ L ";").
    apply reads_word; [kw|cbn; tauto|]. apply reads_end. final.
  - exists [TWord (L "continue"); TPunct ";"]. split; [|apply items_one; constructor]. intros rest. change (L "continue;") with (L "continue" ++ L ";").
    apply reads_word; [kw|cbn; tauto|]. apply reads_end. final.
  - cbn [plain_stmt] in Hp. destruct forms as [|f [|? ?]]; [contradiction| |contradiction]. destruct vals as [|v [|? ?]]; [contradiction| |contradiction].
    destruct Hp as (Ht & Hf & Hv). destruct (form_reads f Hf) as (tf & Rf & Df).
    assert (H : exists td, (forall rest, reads (join (L ", ") (fmt_declarators [f] [v]) ++ L ";") (td ++ [TPunct ";"]) rest) /\ c_declarators_of types td [(f, v)]).
    { destruct v as [e|]; cbn [fmt_declarators join].
      - destruct (plain_init_reads e Hv) as (te & Re & Ee). exists (tf ++ TPunct "=" :: te). split; [|constructor; now constructor].
        intros rest. rewrite <- !app_assoc. apply reads_app; [apply Rf; cbn; tauto|]. change ((TPunct "=" :: te) ++ [TPunct ";"]) with (TPunct "=" :: te ++ [TPunct ";"]).
        apply (equals_reads types). apply reads_app; [apply Re; cbn; tauto|]. apply reads_end. final.
      - exists tf. split; [|constructor; now constructor]. intros rest. apply reads_app; [apply Rf; cbn; tauto|]. apply reads_end. final. }
    destruct H as (td & Rd & Dd). pose proof (typeform_reads types _ Ht) as (tt0 & Ht0 & Hr0).
    inversion Ht0 as [tt t0 n E E1 E2]; subst. cbn [repeat] in *. rewrite app_nil_r in *.
    unfold fmt_bare_typeform in Hr0. cbn [cbtf_type cbtf_hops] in Hr0. change (stars 0) with ([] : str) in Hr0. rewrite app_nil_r in Hr0.
    exists (tt ++ td ++ [TPunct ";"]). split.
    + intros rest. apply reads_app; [apply Hr0; cbn; tauto|]. apply reads_space, Rd.
    + cbn [combine]. apply Ci_decl; [exact E|exact Dd|constructor].
  - cbn [plain_stmt] in Hp. destruct Hp as (Hc & Hpb & Hpe). apply plain_all_eq in Hpb. destruct (printed_body b (body_forall b Hb Hpb)) as (tb & Rb & Sb).
    destruct (plain_reads c Hc) as (tc & Rc & Ec).
    assert (H : forall s ts, (forall rest, reads s ts rest) -> forall rest,
      reads (L "if (" ++ fmt_expr c ++ L ") " ++ format_body b ++ s) (TWord (L "if") :: TPunct "(" :: tc ++ TPunct ")" :: tb ++ ts) rest).
    { intros s ts Hs rest. change (L "if (") with (L "if" ++ L " " ++ L "("). change (L ") ") with (L ")" ++ L " "). rewrite <- !app_assoc.
      apply reads_word; [kw|cbn; tauto|]. apply reads_space, reads_final; [final|]. apply reads_app; [apply Rc; cbn; tauto|].
      apply reads_final; [final|]. apply reads_space. apply reads_app; [apply Rb|apply Hs]. }
    destruct e as [b2|]; cbn [option_map].
    + apply plain_all_eq in Hpe. destruct (printed_body b2 (body_forall b2 He Hpe)) as (t2 & R2 & S2).
      exists (TWord (L "if") :: TPunct "(" :: tc ++ TPunct ")" :: tb ++ TWord (L "else") :: t2). split.
      * apply H. intros rest. change (L " else ") with (L " " ++ L "else" ++ L " "). rewrite <- !app_assoc.
        apply reads_space, reads_word; [kw|cbn; tauto|]. apply reads_space, R2.
      * apply items_one. constructor; auto.
    + exists (TWord (L "if") :: TPunct "(" :: tc ++ TPunct ")" :: tb ++ []). split; [apply H; apply reads_nil|].
      apply items_one. rewrite app_nil_r. now constructor.
  - cbn [plain_stmt] in Hp. destruct Hp as (Hi & Hc & Ha & Hpb). apply plain_all_eq in Hpb. destruct (printed_body b (body_forall b Hb Hpb)) as (tb & Rb & Sb).
    destruct (opt_reads c Hc) as (tc & Rc & Ec). destruct (opt_reads a Ha) as (ta & Ra & Ea).
    assert (H : exists ti, (forall rest, heads tight rest -> reads (match i with Some (CFIExpr e) => fmt_expr e | Some (CFIDecl v) => fmt_vardecl v | None => [] end) ti rest)
      /\ c_for_init_of types ti i).
    { destruct i as [[e|v]|].
      - destruct (plain_reads e Hi) as (te & Re & Ee). exists te. split; [exact Re|now constructor].
      - destruct Hi as (Ht & Hf & Hv). destruct (form_reads _ Hf) as (tf & Rf & Df). destruct (plain_init_reads _ Hv) as (te & Re & Ee).
        pose proof (typeform_reads types _ Ht) as (tt0 & Ht0 & Hr0). inversion Ht0 as [tt t0 n E E1 E2]; subst. cbn [repeat] in *. rewrite app_nil_r in *.
        unfold fmt_bare_typeform in Hr0. cbn [cbtf_type cbtf_hops] in Hr0. change (stars 0) with ([] : str) in Hr0. rewrite app_nil_r in Hr0.
        exists (tt ++ tf ++ TPunct "=" :: te). split.
        + intros rest Hh. unfold fmt_vardecl. apply reads_app; [apply Hr0; cbn; tauto|]. apply reads_space. apply reads_app; [apply Rf; cbn; tauto|].
          apply (equals_reads types). now apply Re.
        + destruct v as [t f x]. now constructor.
      - exists []. split; [intros; apply reads_nil|constructor]. }
    destruct H as (ti & Ri & Ei). exists (TWord (L "for") :: TPunct "(" :: ti ++ TPunct ";" :: tc ++ TPunct ";" :: ta ++ TPunct ")" :: tb). split.
    + intros rest. change (L "for (") with (L "for" ++ L " " ++ L "("). change (L ") ") with (L ")" ++ L " "). change (L "; ") with (L ";" ++ L " "). rewrite <- !app_assoc.
      apply reads_word; [kw|cbn; tauto|]. apply reads_space, reads_final; [final|]. apply reads_app; [apply Ri; cbn; tauto|].
      apply reads_final; [final|]. apply reads_space, reads_app; [apply Rc; cbn; tauto|]. apply reads_final; [final|]. apply reads_space, reads_app; [apply Ra; cbn; tauto|].
      apply reads_final; [final|]. apply reads_space, Rb.
    + apply items_one. now constructor.
  - cbn [plain_stmt] in Hp. destruct Hp as (Hc & Hpb). apply plain_all_eq in Hpb. destruct (printed_body b (body_forall b Hb Hpb)) as (tb & Rb & Sb).
    destruct (plain_reads c Hc) as (tc & Rc & Ec). exists (TWord (L "while") :: TPunct "(" :: tc ++ TPunct ")" :: tb). split; [|apply items_one; now constructor].
    intros rest. change (L "while (") with (L "while" ++ L " " ++ L "("). change (L ") ") with (L ")" ++ L " "). rewrite <- !app_assoc.
    apply reads_word; [kw|cbn; tauto|]. apply reads_space, reads_final; [final|]. apply reads_app; [apply Rc; cbn; tauto|].
    apply reads_final; [final|]. apply reads_space, Rb.
  - destruct e as [e|].
    + destruct (plain_reads e Hp) as (te & Re & Ee). exists (TWord (L "return") :: te ++ [TPunct ";"]). split; [|apply items_one; now constructor].
      intros rest. change (L "return ") with (L "return" ++ L " "). rewrite <- !app_assoc. apply reads_word; [kw|cbn; tauto|]. apply reads_space, reads_app; [apply Re; cbn; tauto|].
      apply reads_end. final.
    + exists ((TWord (L "return") :: [] ++ [TPunct ";"]) ++ [TPunct ";"]). split.
      * intros rest. change (L "return;;") with (L "return" ++ L ";" ++ L ";"). apply reads_word; [kw|cbn; tauto|]. apply reads_final; [final|]. apply reads_end. final.
      * apply Ci_stmt; [now constructor|]. apply items_one. constructor.
  - apply plain_each in Hp as (Hv & Hpd & Hpc). destruct (plain_reads v Hv) as (tv & Rv & Ev).
    destruct (cases_printed cases) as (tc & Rc & Ic).
    { rewrite Forall_forall in *. intros x Hx. destruct (Hpc x Hx) as [H1 H2]. split; [exact H1|]. apply body_forall; auto. }
    destruct (default_printed def) as (td & Rd & Id).
    { destruct def as [b|]; [|exact I]. apply body_forall; auto. }
    exists (TWord (L "switch") :: TPunct "(" :: tv ++ TPunct ")" :: TPunct "{" :: (tc ++ td) ++ [TPunct "}"]). split.
    + intros rest. change (L "switch (") with (L "switch" ++ L " " ++ L "("). change (L ") {") with (L ")" ++ L " " ++ L "{"). rewrite <- !app_assoc.
      apply reads_word; [kw|cbn; tauto|]. apply reads_space, reads_final; [final|]. apply reads_app; [apply Rv; cbn; tauto|].
      apply reads_final; [final|]. apply reads_space, reads_final; [final|]. apply reads_break. apply reads_app; [apply Rc|]. apply reads_app; [apply Rd|].
      apply reads_end. final.
    + apply items_one. constructor; [exact Ev|]. constructor. now apply items_app.
  - destruct (plain_reads e Hp) as (te & Re & Ee). exists (te ++ [TPunct ";"]). split; [|apply items_one; now constructor].
    intros rest. apply reads_app; [apply Re; cbn; tauto|]. apply reads_end. final.
Qed.
Corollary body_printed l : plain_body types l -> exists ts, reads (format_body l) ts [] /\ stmt_of ts (XBlock (lowers l)).
Proof.
  intros H. destruct (printed_body l) as (ts & Hr & Hs); [|exists ts; split; [apply Hr|exact Hs]].
  apply body_forall; [|exact H]. apply Forall_forall. intros s _. apply stmt_printed.
Qed.
End Bodies.
