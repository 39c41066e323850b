(** What is shown of a declaration. *)
From Coq Require Import Lia.
From Verif Require Import Base Buf Lexer Nodes Resolve Cspec Cursor Preparser Parser FormatChe BaseFacts LexOps SpecLex SpecGrammar GrammarSound SpecShow.

Section Show.
Context `{U : Unicode}.
Definition kc (t : token) : string * str := (t_kind t, t_content t).

(** * Spelling *)
Lemma spells_app u v rest a b : spells u (v ++ rest) a -> spells v rest b -> spells (u ++ v) rest (a ++ b).
Proof.
  intros S. remember (v ++ rest) as r eqn:E. revert v rest E b. induction S as [r|g k c t u r ts G Lx Nk Nt S IH]; intros v rest -> b B; [exact B|].
  rewrite <- !app_assoc. cbn [app]. apply Sp_cons; rewrite <- ?app_assoc; auto.
Qed.
Lemma gap_space g post : gap g post -> gap (32%N :: g) post.
Proof.
  intros G. inversion G as [ws p A|ws c t g' p A Lx G']; subst.
  - apply Gap_blank. constructor; [reflexivity|exact A].
  - change (32%N :: ws ++ t ++ g') with ((32%N :: ws) ++ t ++ g'). apply Gap_comment with c; auto. constructor; [reflexivity|exact A].
Qed.
Lemma spells_space u rest t ts : spells u rest (t :: ts) -> spells (32%N :: u) rest (t :: ts).
Proof. intros S. inversion S; subst. rewrite app_comm_cons. apply Sp_cons; auto. apply gap_space. assumption. Qed.
Lemma one k c t rest : lexeme k c t rest -> k <> "comment"%string -> t <> [] -> spells t rest [(k, c)].
Proof.
  intros Lx Nk Nt. pose proof (Sp_cons [] k c t [] rest [] ltac:(apply Gap_blank; constructor) Lx Nk Nt (Sp_nil rest)) as S. cbn [app] in S. rewrite app_nil_r in S. exact S.
Qed.
Lemma spelled_lexes u ts : spells u [] ts -> forall pre, exists toks p, lexes pre u toks (EndEof p) /\ map kc toks = ts.
Proof.
  intros S. remember [] as r eqn:E in S. induction S as [r|g k c t u r ts G Lx Nk Nt S IH]; intros pre.
  - exists [], (position_after (pre ++ [])). split; [|reflexivity]. apply Lex_eof. apply Gap_blank. constructor.
  - subst r. rewrite app_nil_r in *. destruct (IH eq_refl (pre ++ g ++ t)) as (toks & p & Q & M). eexists _, p. split; [apply Lex_token; eauto|].
    + intros K. apply app_eq_nil in K. tauto.
    + cbn [map]. rewrite M. reflexivity.
Qed.
Lemma shown_text u ts : spells u [] ts -> exists toks, text_of u toks /\ map kc toks = ts.
Proof. intros S. destruct (spelled_lexes u ts S []) as (toks & p & Q & M). exists toks. split; [exists p; exact Q|exact M]. Qed.

(** What may come next behind names, numbers and types. *)
Definition quiet (rest : str) : Prop := match rest with [] => True | c :: _ => In c [32; 41; 91; 93; 42]%N end.
Lemma quiet_stops (p : char -> bool) rest : quiet rest -> forallb (fun c => negb (p c)) [32; 41; 91; 93; 42]%N = true -> stops p rest.
Proof. intros Q F. destruct rest as [|c r]; [exact I|]. cbn [stops]. rewrite forallb_forall in F. apply Bool.negb_true_iff. apply F, Q. Qed.
Lemma quiet_bang rest : quiet rest -> ~ begins rest (L "!").
Proof. intros Q (r & ->). cbn in Q. repeat (destruct Q as [Q|Q]; [discriminate|]). destruct Q. Qed.
Lemma word_spells x rest : identifier x -> quiet rest \/ begins rest (L ".") -> spells x rest [("word"%string, x)].
Proof.
  intros (c & w & -> & Hc & Hw & Nr) Q. apply one; [|discriminate|discriminate]. apply Lx_word; auto.
  - destruct Q as [Q|(r & ->)]; [apply quiet_stops; [exact Q|reflexivity]|reflexivity].
  - intros [_ B]. destruct Q as [Q|(r & ->)]; [exact (quiet_bang rest Q B)|]. destruct B as (r' & B). discriminate.
Qed.
Lemma number_spells ds rest : ds <> [] -> all digit ds -> quiet rest -> spells ds rest [("num"%string, ds)].
Proof.
  intros Hn Hd Q. apply one; [|discriminate|exact Hn]. apply Lx_decimal; [|apply quiet_stops; [exact Q|reflexivity]].
  assert (E : ds = ds ++ [] ++ [] ++ []) by (rewrite !app_nil_r; reflexivity). rewrite E at 1. apply Decimal; cbn [app]; auto; try (apply quiet_stops; [exact Q|reflexivity]).
  - intros (r & B). destruct ds as [|d [|e ds]]; [congruence| |].
    + cbn [app] in B. inversion B; subst. cbn in Q. repeat (destruct Q as [Q|Q]; [discriminate|]). destruct Q.
    + inversion B; subst. inversion Hd as [|? ? _ Hd']; subst. inversion Hd'; subst. discriminate.
  - left. split; [reflexivity|]. apply quiet_stops; [exact Q|reflexivity].
  - left. split; [reflexivity|]. apply quiet_stops; [exact Q|reflexivity].
  - constructor.
Qed.
Lemma begins_short s t r : begins (s ++ 32%N :: r) t -> ~ In 32%N t -> begins s t.
Proof.
  intros (q & E). revert s E. induction t as [|c t IH]; intros s E N; [exists s; reflexivity|].
  destruct s as [|x s]; cbn [app] in E; inversion E; subst; [destruct N; left; reflexivity|].
  destruct (IH s) as (z & ->); [assumption|intros K; apply N; right; exact K|]. exists z. reflexivity.
Qed.
Lemma begins_length s t : begins s t -> List.length t <= List.length s.
Proof. intros (r & ->). rewrite app_length. lia. Qed.
Lemma no_space op : In op operators -> ~ In 32%N (lit op).
Proof.
  intros Hi K. assert (G : forallb (fun op => negb (existsb (N.eqb 32) (lit op))) operators = true) by (vm_compute; reflexivity).
  rewrite forallb_forall in G. specialize (G op Hi). apply Bool.negb_true_iff in G. enough (existsb (N.eqb 32) (lit op) = true) by congruence. apply existsb_exists. exists 32%N. split; [exact K|reflexivity].
Qed.
Lemma op_spells op rest : In op operators -> spells (lit op) (32%N :: rest) [(op, [])].
Proof.
  intros Hi. assert (G : forallb (fun op => negb (starts_with (lit op) (L "//")) && negb (starts_with (lit op) (L "/*")) && negb (str_eqb (lit op) []) && negb (String.eqb op "comment")) operators = true) by (vm_compute; reflexivity).
  rewrite forallb_forall in G. specialize (G op Hi). apply andb_prop in G. destruct G as [G G4]. apply andb_prop in G. destruct G as [G G3]. apply andb_prop in G. destruct G as [G1 G2].
  assert (Sw : forall s t, begins s t -> starts_with s t = true). { intros s t B. apply starts_with_spec. exact B. }
  apply one.
  - apply Lx_operator; [exact Hi| | |].
    + intros op' Hi' B. apply begins_length, (begins_short _ _ rest B), no_space, Hi'.
    + intros B. apply begins_short in B; [|intros K; cbn in K; intuition discriminate]. apply Sw in B. rewrite B in G1. discriminate.
    + intros B. apply begins_short in B; [|intros K; cbn in K; intuition discriminate]. apply Sw in B. rewrite B in G2. discriminate.
  - intros ->. discriminate.
  - intros E. rewrite E in G3. discriminate.
Qed.
Ltac longest := let op := fresh in let Hi := fresh in let B := fresh in let r := fresh in let E := fresh in
  intros op Hi (r & E); cbn [In operators] in Hi; repeat (destruct Hi as [<-|Hi]; [try (cbn; lia); exfalso; inversion E; fail|]); destruct Hi.
Lemma bracket_spells op rest : In op ["("; ")"; "["; "]"]%string -> spells (lit op) rest [(op, [])].
Proof.
  intros Hi. apply one.
  - cbn [In] in Hi. destruct Hi as [<-|[<-|[<-|[<-|[]]]]]; (apply Lx_operator; [cbn; tauto|longest|intros (r & E); inversion E|intros (r & E); inversion E]).
  - intros ->. cbn in Hi. intuition discriminate.
  - cbn [In] in Hi. destruct Hi as [<-|[<-|[<-|[<-|[]]]]]; discriminate.
Qed.

(** * Types *)
Definition name_toks (n : nsname) : list (string * str) :=
  match ns_ns n with [] => [] | ns => [("word"%string, ns); ("."%string, [])] end ++ [("word"%string, ns_name n)].
Definition type_toks (t : typename) : list (string * str) := (if tn_const t then [("const"%string, [])] else []) ++ name_toks (tn_name t).
Lemma dot_spells rest x : identifier x -> spells (L ".") (x ++ rest) [("."%string, [])].
Proof.
  intros (c & w & -> & Hc & _). apply one; [|discriminate|discriminate]. change (L ".") with (lit "."). apply Lx_operator; [cbn; tauto| | |].
  - intros op Hi (r & E). cbn [In operators] in Hi. repeat (destruct Hi as [<-|Hi]; [try (cbn; lia); exfalso; cbn in E; inversion E; subst; discriminate|]). destruct Hi.
  - intros (r & E). inversion E.
  - intros (r & E). inversion E.
Qed.
Lemma type_spells ctx t rest : writable ctx t -> quiet rest -> spells (che_fmt_typename t) rest (type_toks t).
Proof.
  intros (Hn & Hs) Q. unfold che_fmt_typename, type_toks. destruct t as [k [p ns x]]. cbn [tn_const tn_name ns_ns ns_name] in *.
  assert (S : spells (match ns with [] => x | _ => ns ++ L "." ++ x end) rest (name_toks (mkNs p ns x))).
  { unfold name_toks. cbn [ns_ns ns_name]. destruct Hs as [->|[Hi _]]; [apply word_spells; auto|].
    assert (Ne : ns <> []) by (destruct Hi as (c & w & -> & _); discriminate).
    assert (G : spells (ns ++ L "." ++ x) rest ([("word"%string, ns)] ++ [("."%string, [])] ++ [("word"%string, x)])).
    { apply spells_app; [apply word_spells; [exact Hi|right; exists (x ++ rest); reflexivity]|]. apply spells_app; [apply dot_spells; exact Hn|apply word_spells; auto]. }
    destruct ns; [congruence|exact G]. }
  assert (Sp : forall t0 ts u, name_toks (mkNs p ns x) = t0 :: ts -> spells u rest (t0 :: ts) -> spells (L "const " ++ u) rest (("const"%string, []) :: t0 :: ts)).
  { intros t0 ts u _ Su. change (L "const " ++ u) with (L "const" ++ (32%N :: u)). apply (spells_app (L "const") (32%N :: u) rest [_]); [|apply spells_space; exact Su].
    apply one; [|discriminate|discriminate]. apply (Lx_keyword "const"); [cbn; tauto|reflexivity]. }
  assert (Em : match ns with [] => x | c :: l => (c :: l) ++ L "." ++ x end = match ns with [] => x | _ => ns ++ L "." ++ x end) by (destruct ns; reflexivity).
  rewrite Em. destruct k; [|exact S]. destruct (name_toks (mkNs p ns x)) as [|t0 ts] eqn:E; [unfold name_toks in E; cbn in E; destruct ns; discriminate|]. cbn [app]. apply (Sp t0 ts); [reflexivity|]. exact S.
Qed.
Lemma kc_is t k c : kc t = (k, c) -> is k t /\ t_content t = c.
Proof. unfold kc, is. intros E. inversion E. auto. Qed.
Lemma name_tokens ctx n toks : ns_ns n = [] \/ namespace ctx (ns_ns n) -> map kc toks = name_toks n -> exists n', name_of ctx toks n' /\ same_name n n'.
Proof.
  intros Hs M. unfold name_toks in M. destruct n as [p ns x]. cbn [ns_ns ns_name] in *. destruct ns as [|c ns].
  - destruct toks as [|w [|? ?]]; try discriminate. inversion M as [[K1 K2]]. eexists. split; [apply Name_plain; exact K1|]. split; reflexivity.
  - destruct Hs as [Hs|Hs]; [discriminate|]. destruct toks as [|w [|d [|y [|? ?]]]]; try discriminate. inversion M as [[K1 K2 K3 K4 K5 K6]]. eexists.
    split; [apply Name_qualified; [exact K1|rewrite K2; exact Hs|exact K3|exact (eq_trans K5 K1)]|]. split; cbn; congruence.
Qed.
Lemma type_tokens ctx t toks : writable ctx t -> map kc toks = type_toks t -> exists t', typename_of ctx toks t' /\ same_type t t'.
Proof.
  intros (_ & Hs) M. unfold type_toks in M. destruct t as [k n]. cbn [tn_const tn_name] in *. destruct k.
  - destruct toks as [|c toks]; [discriminate|]. cbn [map app] in M. inversion M as [[K1 K2 K3]]. destruct (name_tokens ctx n toks) as (n' & N & S); [tauto|exact K3|].
    eexists. split; [apply Typename_const; [exact K1|exact N]|]. split; [reflexivity|exact S].
  - destruct (name_tokens ctx n toks) as (n' & N & S); [tauto|exact M|]. eexists. split; [apply Typename_plain; exact N|]. split; [reflexivity|exact S].
Qed.
(** The type shown is the text of that type. *)
Theorem C114_type ctx t : writable ctx t -> exists toks t', text_of (che_fmt_typename t) toks /\ typename_of ctx toks t' /\ same_type t t'.
Proof.
  intros W. destruct (shown_text _ _ (type_spells ctx t [] W I)) as (toks & T & M). destruct (type_tokens ctx t toks W M) as (t' & A & B). exists toks, t'. auto.
Qed.

(** * Stars *)
Lemma stars_spells n rest : stops (N.eqb 61) rest -> spells (stars n) rest (repeat ("*"%string, []) n).
Proof.
  intros Hs. unfold stars. induction n as [|n IH]; [apply Sp_nil|]. cbn [repeat_str repeat]. apply (spells_app (L "*") _ rest [_]); [|exact IH].
  apply one; [|discriminate|discriminate]. change (L "*") with (lit "*").
  assert (Ne : forall r, repeat_str n (L "*") ++ rest <> 61%N :: r). { intros r E. destruct n; [|discriminate]. cbn in E. subst rest. discriminate. }
  apply Lx_operator; [cbn; tauto| | |].
  - intros op Hi (r & E). cbn [In operators] in Hi. repeat (destruct Hi as [<-|Hi]; [try (cbn; lia); exfalso; cbn in E; first [inversion E; fail | (apply Ne with r; inversion E; subst; first [assumption|reflexivity])]|]). destruct Hi.
  - intros (r & E). inversion E.
  - intros (r & E). inversion E.
Qed.
Lemma quiet_equals rest : quiet rest -> stops (N.eqb 61) rest.
Proof. intros Q. apply quiet_stops; [exact Q|reflexivity]. Qed.
Lemma stars_quiet n rest : quiet rest -> quiet (stars n ++ rest).
Proof. intros Q. destruct n; [exact Q|]. cbn. tauto. Qed.
Lemma stars_tokens n toks : map kc toks = repeat ("*"%string, []) n -> stars_of toks n.
Proof.
  revert toks. induction n as [|n IH]; intros [|t toks] M; try discriminate; [split; [constructor|reflexivity]|]. cbn [repeat map] in M. injection M as K1 K2 K3. destruct (IH toks K3) as [A B]. split; [constructor; [exact K1|exact A]|cbn; lia].
Qed.
(** The same for types with stars. *)
Theorem C114_typeform ctx t : writable ctx (btf_type t) -> exists toks t', text_of (che_fmt_btf t) toks /\ typeform_of ctx toks t' /\ same_typeform t t'.
Proof.
  intros W. destruct t as [t n]. cbn [btf_type] in W. assert (S : spells (che_fmt_btf (mkBtf t n)) [] (type_toks t ++ repeat ("*"%string, []) n)).
  { unfold che_fmt_btf. cbn [btf_type btf_hops]. apply spells_app; [apply (type_spells ctx); [exact W|apply stars_quiet; exact I]|apply stars_spells; exact I]. }
  destruct (shown_text _ _ S) as (toks & T & M). apply map_eq_app in M. destruct M as (a & b & -> & Ma & Mb). destruct (type_tokens ctx t a W Ma) as (t' & A & B).
  eexists _, _. split; [exact T|]. split; [apply Typeform; [exact A|apply stars_tokens; exact Mb]|]. split; [exact B|reflexivity].
Qed.

(** * Expressions *)
Fixpoint etoks (e : expr) : list (string * str) :=
  match e with
  | EName n => [("word"%string, ns_name n)]
  | ELit (LNumber ds) => [("num"%string, ds)]
  | EBinary _ op a b =>
      let side := fun (x : expr) (s : list (string * str)) =>
        match node_is_op x with
        | Some k => if Nat.ltb (strength k) (strength op) then ("("%string, []) :: s ++ [(")"%string, [])] else s
        | None => s
        end in
      side a (etoks a) ++ [(op, [])] ++ side b (etoks b)
  | _ => []
  end.
Lemma etoks_first ctx e : simple ctx e -> exists k c r, etoks e = (k, c) :: r /\ (k = "word"%string -> ~ type_name ctx c).
Proof.
  induction 1 as [p x Hi Ht|ds Hn Hd|p op n a b Hop A IHA B IHB Ap]; cbn [etoks].
  - exists "word"%string, x, []. split; [reflexivity|auto].
  - exists "num"%string, ds, []. split; [reflexivity|discriminate].
  - destruct IHA as (k & c & r & E & K). rewrite E. destruct (node_is_op a) as [q|]; [destruct (Nat.ltb _ _)|]; cbn [app]; eexists _, _, _; (split; [reflexivity|]); auto. discriminate.
Qed.
Lemma binary_operators op n : binary_op op n -> In op operators /\ op <> "."%string /\ op <> "->"%string /\ strength op = n /\ n <= 12.
Proof.
  intros B. destruct (binary_is_op op n B) as (_ & S & K). unfold strength. rewrite S.
  destruct B as (i & ops & Hn & Hi & _). assert (G : forallb (forallb (fun op => existsb (String.eqb op) operators && negb (String.eqb op ".") && negb (String.eqb op "->"))) binary_levels = true) by (vm_compute; reflexivity).
  rewrite forallb_forall in G. specialize (G ops (nth_error_In _ _ Hn)). rewrite forallb_forall in G. specialize (G op Hi). apply andb_prop in G. destruct G as [G G3]. apply andb_prop in G. destruct G as [G1 G2].
  apply existsb_exists in G1. destruct G1 as (o & Io & Eo). apply String.eqb_eq in Eo. subst o. split; [exact Io|]. split; [intros ->; discriminate|]. split; [intros ->; discriminate|]. split; [reflexivity|lia].
Qed.
Lemma paren_spells u rest t ts : (forall r, quiet r -> spells u r (t :: ts)) -> spells (L "(" ++ u ++ L ")") rest (("("%string, []) :: (t :: ts) ++ [(")"%string, [])]).
Proof.
  intros S. apply (spells_app (L "(") (u ++ L ")") rest [_]); [apply bracket_spells; cbn; tauto|]. apply spells_app; [apply S; cbn; tauto|apply bracket_spells; cbn; tauto].
Qed.
Lemma expr_spells ctx e : simple ctx e -> forall rest, quiet rest -> spells (che_fmt_expr e) rest (etoks e).
Proof.
  induction 1 as [p x Hi Ht|ds Hn Hd|p op n a b Hop A IHA B IHB Ap]; intros rest Q.
  - cbn [che_fmt_expr etoks ns_ns ns_name]. apply word_spells; auto.
  - cbn [che_fmt_expr che_fmt_literal etoks]. apply number_spells; auto.
  - destruct (binary_operators op n Hop) as (Io & N1 & N2 & _). cbn [che_fmt_expr etoks].
    apply String.eqb_neq in N1. apply String.eqb_neq in N2. rewrite N1, N2. cbn [orb].
    assert (Side : forall x, simple ctx x -> (forall rest, quiet rest -> spells (che_fmt_expr x) rest (etoks x)) -> exists t ts,
      match node_is_op x with Some k => if Nat.ltb (strength k) (strength op) then ("("%string, []) :: etoks x ++ [(")"%string, [])] else etoks x | None => etoks x end = t :: ts /\
      forall rest, quiet rest -> spells (match node_is_op x with Some k => if Nat.ltb (strength k) (strength op) then L "(" ++ che_fmt_expr x ++ L ")" else che_fmt_expr x | None => che_fmt_expr x end) rest (t :: ts)).
    { intros x Sx IHx. destruct (etoks_first ctx x Sx) as (k & c & r & E & _). rewrite E in *. destruct (node_is_op x) as [q|]; [destruct (Nat.ltb _ _)|]; eexists _, _; (split; [reflexivity|]); intros rest' Q'; auto.
      apply paren_spells. exact IHx. }
    destruct (Side a A IHA) as (ta & tsa & Ea & Sa). destruct (Side b B IHB) as (tb & tsb & Eb & Sb). rewrite Ea, Eb.
    apply spells_app; [apply Sa; cbn; tauto|]. change (L " " ++ lit op ++ L " " ++ ?z) with (32%N :: (lit op ++ 32%N :: z)). apply (spells_space _ rest (op, []) (tb :: tsb)).
    apply (spells_app (lit op) _ rest [(op, [])]); [apply op_spells; exact Io|]. apply spells_space. apply Sb. exact Q.
Qed.
Definition level (e : expr) : nat := match e with EBinary _ op _ _ => strength op | _ => 14 end.
Lemma lower ctx n ts e : expr_of ctx n ts e -> n <= 14 -> forall m, m <= n -> expr_of ctx m ts e.
Proof.
  intros X Hn m Hm. remember (n - m) as d eqn:D. revert m Hm D. induction d as [|d IH]; intros m Hm D; [replace m with n by lia; exact X|]. apply E_up; [lia|]. apply IH; lia.
Qed.
Lemma expr_tokens ctx e : simple ctx e -> level e <= 14 /\ forall toks, map kc toks = etoks e -> exists e', expr_of ctx (level e) toks e' /\ same_expr e e'.
Proof.
  induction 1 as [p x Hi Ht|ds Hn Hd|p op n a b Hop A IHA B IHB Ap].
  - split; [cbn; lia|]. intros toks M. destruct (name_tokens ctx (mkNs p [] x) toks) as (n' & N & S); [left; reflexivity|exact M|]. exists (EName n'). split; [apply E_name; exact N|apply Same_name; exact S].
  - split; [cbn; lia|]. intros toks M. cbn [etoks] in M. destruct toks as [|t [|? ?]]; try discriminate. injection M as K1 K2. exists (ELit (LNumber ds)). split; [|apply Same_literal]. cbn [level]. apply E_literal. rewrite <- K2. apply Lit_number. exact K1.
  - destruct (binary_operators op n Hop) as (_ & _ & _ & So & N12). cbn [level]. rewrite So. split; [lia|]. intros toks M. cbn [etoks] in M. rewrite So in M.
    apply map_eq_app in M. destruct M as (l1 & l2 & -> & Ma & M). destruct l2 as [|o l2]; [discriminate|]. cbn [map app] in M. injection M as K1 K2 Mb.
    assert (Side : forall x toks m, simple ctx x -> (level x <= 14 /\ forall toks, map kc toks = etoks x -> exists e', expr_of ctx (level x) toks e' /\ same_expr x e') ->
      map kc toks = match node_is_op x with Some k => if Nat.ltb (strength k) n then ("("%string, []) :: etoks x ++ [(")"%string, [])] else etoks x | None => etoks x end ->
      m <= 14 -> (n <= level x -> m <= level x) -> exists e', expr_of ctx m toks e' /\ same_expr x e').
    { intros x ts m Sx (Lx & IHx) Mx Hm Hl.
      assert (Plain : map kc ts = etoks x -> m <= level x -> exists e', expr_of ctx m ts e' /\ same_expr x e'). { intros E Hx. destruct (IHx ts E) as (e' & X & S). exists e'. split; [eapply lower; eassumption|exact S]. }
      inversion Sx as [q y Hy Ty|ds Hn Hd|q k nk x1 x2 Hk X1 X2 Apx]; subst x; cbn [node_is_op level] in *; [apply Plain; [exact Mx|exact Hm]|apply Plain; [exact Mx|exact Hm]|].
      destruct (Nat.ltb_spec (strength k) n) as [Hlt|Hge]; [|apply Plain; auto].
      destruct ts as [|lp ts]; [discriminate|]. cbn [map] in Mx. injection Mx as P1 P2 Mx. apply map_eq_app in Mx. destruct Mx as (inner & last & -> & Mi & Ml). destruct last as [|rp [|? ?]]; try discriminate. injection Ml as R1 R2.
      destruct (IHx inner Mi) as (e' & X & S). exists e'. split; [|exact S]. apply (lower ctx 14); [|lia|exact Hm]. apply E_paren; [exact P1| |eapply lower; [exact X|exact Lx|lia]|exact R1].
      intros (t & r & Et & Wt & Tt). destruct (etoks_first ctx _ Sx) as (kf & cf & rf & Ef & Nf). assert (Mi' : map kc inner = (kf, cf) :: rf) by (etransitivity; [exact Mi|exact Ef]). rewrite Et in Mi'. cbn [map] in Mi'. injection Mi' as F1 F2 _. apply Nf; [rewrite <- F1; exact Wt|rewrite <- F2; exact Tt]. }
    destruct (Side a l1 n A IHA Ma ltac:(lia) ltac:(auto)) as (a' & Xa & Sa).
    destruct (Side b l2 (S n) B IHB Mb ltac:(lia)) as (b' & Xb & Sb).
    { intros Hl. inversion B as [q y Hy Ty|ds Hn Hd|q op' n' y z Hop' Y Z Apb]; subst b; cbn [level] in *; try lia. destruct (binary_operators op' n' Hop') as (_ & _ & _ & S' & _). rewrite S' in *.
      destruct (Nat.eq_dec n n') as [<-|]; [|lia]. exfalso. exact (Ap q op' y z _ eq_refl Hop Hop'). }
    assert (Bo : binary_op (t_kind o) n) by (rewrite K1; exact Hop). rewrite <- So in *.
    exists (EBinary (t_pos o) (t_kind o) a' b'). split; [apply E_binary; assumption|]. rewrite K1. apply Same_binary; assumption.
Qed.
(** A shown expression is the text of that expression. *)
Theorem C114_expr_partial ctx e : simple ctx e -> exists toks e', text_of (che_fmt_expr e) toks /\ expr_of ctx 0 toks e' /\ same_expr e e'.
Proof.
  intros S. destruct (shown_text _ _ (expr_spells ctx e S [] I)) as (toks & T & M). destruct (expr_tokens ctx e S) as (Lv & G). destruct (G toks M) as (e' & X & E). exists toks, e'. split; [exact T|]. split; [eapply lower; [exact X|exact Lv|lia]|exact E].
Qed.

(** * Forms *)
Definition index_text (i : option expr) : str := match i with Some e => L "[" ++ che_fmt_expr e ++ L "]" | None => L "[]" end.
Definition index_toks (i : option expr) : list (string * str) := [("["%string, [])] ++ match i with Some e => etoks e | None => [] end ++ [("]"%string, [])].
Lemma index_spells ctx i rest : match i with Some e => simple ctx e | None => True end -> spells (index_text i) rest (index_toks i).
Proof.
  intros Hi. destruct i as [e|]; unfold index_text, index_toks.
  - apply spells_app; [apply bracket_spells; cbn; tauto|]. apply spells_app; [apply (expr_spells ctx); [exact Hi|cbn; tauto]|apply bracket_spells; cbn; tauto].
  - change (L "[]") with (L "[" ++ L "]"). apply spells_app; [apply bracket_spells; cbn; tauto|apply bracket_spells; cbn; tauto].
Qed.
Lemma indexes_spells ctx l rest : Forall (fun i => match i with Some e => simple ctx e | None => True end) l -> spells (List.concat (map index_text l)) rest (List.concat (map index_toks l)).
Proof. induction 1 as [|i l Hi F IH]; [apply Sp_nil|]. cbn [map List.concat]. apply spells_app; [apply (index_spells ctx); exact Hi|exact IH]. Qed.
Lemma index_tokens ctx i toks : match i with Some e => simple ctx e | None => True end -> map kc toks = index_toks i -> exists i', index_of ctx toks i' /\ same_index i i'.
Proof.
  intros Hi M. unfold index_toks in M. destruct toks as [|lb toks]; [discriminate|]. cbn [app map] in M. injection M as B1 B2 M. apply map_eq_app in M. destruct M as (l & r & -> & Ml & Mr). destruct r as [|rb [|? ?]]; try discriminate. injection Mr as R1 R2.
  destruct i as [e|].
  - destruct (expr_tokens ctx e Hi) as (Lv & G). destruct (G l Ml) as (e' & X & S). exists (Some e'). split; [apply Index_some; [exact B1|eapply lower; [exact X|exact Lv|lia]|exact R1]|apply Same_some; exact S].
  - destruct l; [|discriminate]. exists None. split; [apply Index_none; assumption|apply Same_none].
Qed.
Lemma indexes_tokens ctx l : Forall (fun i => match i with Some e => simple ctx e | None => True end) l -> forall toks, map kc toks = List.concat (map index_toks l) -> exists l', many (index_of ctx) toks l' /\ Forall2 same_index l l'.
Proof.
  induction 1 as [|i l Hi F IH]; intros toks M.
  - destruct toks; [|discriminate]. exists []. split; constructor.
  - cbn [map List.concat] in M. apply map_eq_app in M. destruct M as (a & b & -> & Ma & Mb). destruct (index_tokens ctx i a Hi Ma) as (i' & A & B). destruct (IH b Mb) as (l' & C & D). exists (i' :: l'). split; [apply Many_cons; assumption|constructor; assumption].
Qed.
Definition form_toks (f : form) : list (string * str) := repeat ("*"%string, []) (f_hops f) ++ [("word"%string, f_name f)] ++ List.concat (map index_toks (f_indexes f)).
Lemma form_spells ctx f rest : simple_form ctx f -> quiet rest -> spells (che_fmt_form f) rest (form_toks f).
Proof.
  intros (Hi & F) Q. unfold che_fmt_form, form_toks. fold index_text. pose proof Hi as (c & w & E & Hc & _).
  apply spells_app; [apply stars_spells; rewrite E; cbn [app stops]; destruct (N.eqb_spec 61 c) as [<-|]; [discriminate|reflexivity]|].
  apply spells_app; [|apply (indexes_spells ctx); exact F]. apply word_spells; [exact Hi|]. left. destruct (f_indexes f) as [|[e|] l]; cbn; auto.
Qed.
Lemma form_tokens ctx f toks : simple_form ctx f -> map kc toks = form_toks f -> exists f', form_of ctx toks f' /\ same_form f f'.
Proof.
  intros (Hi & F) M. unfold form_toks in M. apply map_eq_app in M. destruct M as (ss & r & -> & Ms & M). destruct r as [|x r]; [discriminate|]. cbn [app map] in M. injection M as K1 K2 M.
  destruct (indexes_tokens ctx (f_indexes f) F r M) as (l' & A & B). destruct (ss ++ x :: r) as [|first rest] eqn:E; [destruct ss; discriminate|].
  exists (mkForm (t_pos first) (t_content x) (f_hops f) l'). split; [|split; [exact (eq_sym K2)|split; [reflexivity|exact B]]]. rewrite <- E. apply Form with rest; [apply stars_tokens; exact Ms|exact K1| |exact A|exact E].
  rewrite K2. destruct Hi as (c & w & -> & _). discriminate.
Qed.
(** A shown name with its stars and indexes is the text of that form. *)
Theorem C114_form_partial ctx f : simple_form ctx f -> exists toks f', text_of (che_fmt_form f) toks /\ form_of ctx toks f' /\ same_form f f'.
Proof.
  intros S. destruct (shown_text _ _ (form_spells ctx f [] S I)) as (toks & T & M). destruct (form_tokens ctx f toks S M) as (f' & A & B). exists toks, f'. auto.
Qed.
(** A type and a form, with a space between them, as parameters are shown. *)
Theorem C114_declaration_partial ctx t f : writable ctx t -> simple_form ctx f -> exists ts fs t' f',
  text_of (che_fmt_typename t ++ L " " ++ che_fmt_form f) (ts ++ fs) /\ typename_of ctx ts t' /\ form_of ctx fs f' /\ same_type t t' /\ same_form f f'.
Proof.
  intros W S. assert (Sp : spells (che_fmt_typename t ++ L " " ++ che_fmt_form f) [] (type_toks t ++ form_toks f)).
  { apply spells_app; [apply (type_spells ctx); [exact W|cbn; tauto]|]. pose proof (form_spells ctx f [] S I) as G. destruct (form_toks f) as [|t0 ts] eqn:E; [unfold form_toks in E; destruct (f_hops f); discriminate|]. apply spells_space. exact G. }
  destruct (shown_text _ _ Sp) as (toks & T & M). apply map_eq_app in M. destruct M as (a & b & -> & Ma & Mb). destruct (type_tokens ctx t a W Ma) as (t' & A & B). destruct (form_tokens ctx f b S Mb) as (f' & C & D). exists a, b, t', f'. auto.
Qed.
End Show.

(** ** Cases *)
Definition no_modules : parsectx := mkPctx (mkInfo [] [] [] []) [].
Lemma ascii_identifier `{U : Unicode} x : match x with c :: w => word_start c && forallb (fun c => N.ltb c 128 && (letter c || digit c || N.eqb c 95)) w && negb (existsb (str_eqb x) (map lit reserved)) | [] => false end = true -> identifier x.
Proof.
  destruct x as [|c w]; [discriminate|]. intros E. apply andb_prop in E. destruct E as [E N]. apply andb_prop in E. destruct E as [C W]. exists c, w. split; [reflexivity|]. split; [exact C|]. split.
  - apply Forall_forall. intros y Hy. rewrite forallb_forall in W. specialize (W y Hy). apply andb_prop in W. destruct W as [W1 W2]. unfold word_char. rewrite W1. exact W2.
  - intros K. apply Bool.negb_true_iff in N. enough (existsb (str_eqb (c :: w)) (map lit reserved) = true) by congruence. apply existsb_exists. exists (c :: w). split; [exact K|apply str_eqb_refl].
Qed.
Definition var (x : str) : expr := EName (mkNs (mkPos 1 1) [] x).
Definition bin (op : string) (a b : expr) : expr := EBinary (mkPos 1 1) op a b.
Lemma var_simple `{U : Unicode} x : identifier x -> has_type x = false -> ~ In x [L "struct"; L "enum"; L "union"] -> simple no_modules (var x).
Proof. intros I T S. apply Simple_name; [exact I|]. intros [K|[K|K]]; [congruence|tauto|destruct K]. Qed.
Lemma level_plus : binary_op "+" 11. Proof. exists 9, ["+"; "-"]%string. cbn; tauto. Qed.
Lemma level_minus : binary_op "-" 11. Proof. exists 9, ["+"; "-"]%string. cbn; tauto. Qed.
Lemma level_times : binary_op "*" 12. Proof. exists 10, ["*"; "/"; "%"]%string. cbn; tauto. Qed.
Example C114_type_example `{U : Unicode} : writable no_modules (mkTn true (mkNs (mkPos 1 1) (L "OS") (L "size_t"))) /\ che_fmt_typename (mkTn true (mkNs (mkPos 1 1) (L "OS") (L "size_t"))) = L "const OS.size_t".
Proof. split; [split; [apply ascii_identifier; reflexivity|right; split; [apply ascii_identifier; reflexivity|left; reflexivity]]|reflexivity]. Qed.
Example C114_expr_example `{U : Unicode} : simple no_modules (bin "*" (bin "+" (var (L "a")) (var (L "b"))) (ELit (LNumber (L "10")))) /\
  che_fmt_expr (bin "*" (bin "+" (var (L "a")) (var (L "b"))) (ELit (LNumber (L "10")))) = L "(a + b) * 10".
Proof.
  assert (V : forall x, In x [L "a"; L "b"] -> simple no_modules (var x)). { intros x [<-|[<-|[]]]; (apply var_simple; [apply ascii_identifier; reflexivity|reflexivity|intros [K|[K|[K|[]]]]; discriminate]). }
  split; [|reflexivity]. apply Simple_binary with 12; [apply level_times| | |intros q op' x y n E; discriminate].
  - apply Simple_binary with 11; [apply level_plus|apply V; cbn; tauto|apply V; cbn; tauto|intros q op' x y n E; discriminate].
  - apply Simple_number; [discriminate|]. repeat constructor.
Qed.
(** A right operand of the same level is shown without its parentheses. *)
Theorem C114_expr_refuted : ~ forall e e', che_fmt_expr e = che_fmt_expr e' -> same_expr e e'.
Proof.
  intros H. specialize (H (bin "-" (var (L "a")) (bin "-" (var (L "b")) (var (L "c")))) (bin "-" (bin "-" (var (L "a")) (var (L "b"))) (var (L "c"))) eq_refl). inversion H as [| |? ? ? ? ? ? ? A B]; subst. inversion A.
Qed.

Print Assumptions C114_type.
Print Assumptions C114_typeform.
Print Assumptions C114_expr_partial.
Print Assumptions C114_form_partial.
Print Assumptions C114_declaration_partial.
Print Assumptions C114_expr_refuted.
