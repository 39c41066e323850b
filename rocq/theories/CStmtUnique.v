(** A C text has at most one reading as a statement. *)
From Verif Require Import Base BaseFacts SpecLex CAst FormatChe FormatC SpecC CReadFacts CUnique SpecCStmt.

Section Unique.
Variable types : str -> bool.
Notation expr_of := (c_expr_of types).
Hypothesis sane : c_types types.
Lemma sizeof_no_type : types (L "sizeof") = false. Proof. apply (sane "sizeof"%string). cbn. tauto. Qed.

(** ** Expressions *)
Definition closers : list string := [")"; "]"; ","; ";"; ":"; "}"]%string.
Lemma over_closer n op rest : In op closers -> over n (TPunct op :: rest).
Proof.
  intros H. cbn [over]. split; [|split].
  - intros _. cases H; subst; reflexivity.
  - intros m _ Hm. do 13 (destruct m as [|m]; [cases H; subst; try lia; reflexivity|]). lia.
  - intros _. cases H; subst; reflexivity.
Qed.
Lemma expr_closed n ts e op rest : expr_of n ts e -> 2 <= n -> In op closers ->
  exists b, eventually (fun f => read types f 2 (ts ++ TPunct op :: rest)) (values e, b, TPunct op :: rest).
Proof.
  intros H Hn Ho. pose proof (expr_opens types sizeof_no_type n ts e H) as [Hx _].
  assert (H2 : expr_of 2 ts e) by (eapply up_to; [exact H|lia|lia]).
  destruct (proj1 (reader types sizeof_no_type) _ _ _ H2 ltac:(lia)) as (b & Hb).
  destruct (readable_ends types 2 ts e (TPunct op :: rest)) as (b' & _ & Hr); [exists b; exact Hb|lia|now apply over_closer|lia|]. eauto.
Qed.
Lemma expr_cut n n' ts e ts' e' op op' r r' : expr_of n ts e -> expr_of n' ts' e' ->
  ts ++ TPunct op :: r = ts' ++ TPunct op' :: r' -> 2 <= n -> 2 <= n' -> In op closers -> In op' closers -> ts = ts' /\ values e = values e' /\ op = op' /\ r = r'.
Proof.
  intros H H' E Hn Hn' Ho Ho'. destruct (expr_closed n ts e op r H Hn Ho) as (b & k & Hk). destruct (expr_closed n' ts' e' op' r' H' Hn' Ho') as (b' & k' & Hk').
  specialize (Hk (k + k') ltac:(lia)). specialize (Hk' (k + k') ltac:(lia)). rewrite E in Hk. rewrite Hk in Hk'. injection Hk' as Ev _ Eo Er.
  subst. apply app_inv_tail in E. auto.
Qed.
(** The first token of an expression. *)
Definition head_ok (ts : list ctok) : Prop :=
  match ts with
  | TWord w :: _ => types w = false /\ (w = L "sizeof" \/ ~ In w (map lit c_keywords))
  | TPunct op :: _ => In op ["("; "&"; "*"; "+"; "-"; "~"; "!"; "++"; "--"]%string
  | [] => False
  | _ => True
  end.
Lemma head_app a b : head_ok a -> head_ok (a ++ b).
Proof. destruct a as [|[]]; cbn; tauto. Qed.
Lemma head_word w r : head_ok (TWord w :: r) -> types w = false /\ w <> L "const" /\ w <> L "else".
Proof.
  cbn [head_ok]. intros [H1 H2]. split; [exact H1|]. split; intros ->; (destruct H2 as [H2|H2]; [discriminate|]); apply H2, in_map; cbn; tauto.
Qed.
Lemma expr_head n ts e : expr_of n ts e -> head_ok ts.
Proof.
  revert n ts e. apply (c_expr_ind_m types (fun _ ts _ _ => head_ok ts) (fun _ _ _ => True) (fun _ _ _ => True)); intros;
    try exact I; try assumption; try (now apply head_app); try (cbn; tauto).
  - cbn. match goal with H : In _ _ |- _ => cases H; subst; tauto end.
  - cbn. split; [apply sizeof_no_type|now left].
  - cbn. split; [apply sizeof_no_type|now left].
  - cbn. match goal with H : c_identifier _ _ |- _ => destruct H end. auto.
  - destruct l; [contradiction|exact I].
Qed.

(** ** Types and declarators *)
Definition words_type (ws : list str) : ctypename :=
  match ws with
  | w :: ws' => if str_eqb w (L "const") then mkCtn true (join (L " ") ws') else mkCtn false (join (L " ") ws)
  | [] => mkCtn false []
  end.
Lemma type_words ts t : c_type_of types ts t -> exists ws, ts = map TWord ws /\ t = words_type ws /\ type_start types ts = true /\ ws <> [].
Proof.
  destruct 1 as [w ws H Hc|w ws H].
  - exists (w :: ws). split; [reflexivity|]. split; [|split; [cbn; now rewrite H|discriminate]]. cbn [words_type]. now apply str_eqb_neq in Hc as ->.
  - exists (L "const" :: w :: ws). split; [reflexivity|]. split; [reflexivity|]. split; [cbn; now rewrite orb_true_r|discriminate].
Qed.
Lemma words_map ws ws' r r' : (match r with TWord _ :: _ => False | _ => True end) -> (match r' with TWord _ :: _ => False | _ => True end) ->
  map TWord ws ++ r = map TWord ws' ++ r' -> ws = ws' /\ r = r'.
Proof.
  intros H H' E. assert (W : words (map TWord ws ++ r) = words (map TWord ws' ++ r')) by now rewrite E.
  rewrite !words_app in W by assumption. now injection W.
Qed.
Lemma stars_cut n n' r r' : (match r with TPunct op :: _ => op <> "*"%string | _ => True end) -> (match r' with TPunct op :: _ => op <> "*"%string | _ => True end) ->
  repeat (TPunct "*") n ++ r = repeat (TPunct "*") n' ++ r' -> n = n' /\ r = r'.
Proof.
  intros H H' E. assert (W : count_stars (repeat (TPunct "*") n ++ r) = count_stars (repeat (TPunct "*") n' ++ r')) by now rewrite E.
  rewrite !stars_count in W by assumption. now injection W.
Qed.
(** What can follow a declarator. *)
Definition stop (r : list ctok) : Prop := match r with TPunct op :: _ => op <> "*"%string /\ op <> "["%string | _ => False end.
Lemma indexes_cut ti l : c_indexes_of types ti l -> forall ti' l' r r', c_indexes_of types ti' l' -> stop r -> stop r' ->
  ti ++ r = ti' ++ r' -> ti = ti' /\ map (option_map values) l = map (option_map values) l' /\ r = r'.
Proof.
  assert (N : forall ts e r ts', expr_of 2 ts e -> ts ++ r <> TPunct "]" :: ts').
  { intros ts e r ts' He Ex. apply expr_head in He. apply (head_app _ r) in He. rewrite Ex in He. cbn in He. intuition discriminate. }
  induction 1 as [|ts l H IH|ts e ts2 l He H IH]; intros ti' l' r r' H' Hr Hr' E; inversion H' as [|ts' l1 H1 E1 E2|ts' e' ts2' l1 He' H1 E1 E2]; subst.
  - auto.
  - cbn in E. subst r. cbn in Hr. now destruct Hr.
  - cbn in E. subst r. cbn in Hr. now destruct Hr.
  - cbn in E. subst r'. cbn in Hr'. now destruct Hr'.
  - injection E as E. destruct (IH _ _ _ _ H1 Hr Hr' E) as (-> & El & Er). cbn [map]. rewrite El. auto.
  - injection E as E. symmetry in E. rewrite <- app_assoc in E. destruct (N _ _ _ _ He' E).
  - cbn in E. subst r'. cbn in Hr'. now destruct Hr'.
  - injection E as E. rewrite <- app_assoc in E. destruct (N _ _ _ _ He E).
  - injection E as E. rewrite <- !app_assoc in E. cbn [app] in E.
    destruct (expr_cut 2 2 _ _ _ _ _ _ _ _ He He' E) as (-> & Ev & _ & Er); [lia|lia|cbn; tauto|cbn; tauto|].
    destruct (IH _ _ _ _ H1 Hr Hr' Er) as (-> & El & Er'). cbn [map option_map]. rewrite El, Ev. auto.
Qed.
Lemma indexes_stop ti l r : c_indexes_of types ti l -> stop r -> exists op z, ti ++ r = TPunct op :: z /\ op <> "*"%string.
Proof. destruct 1; intros Hr; cbn; [destruct r as [|[]]; cbn in Hr; try contradiction; destruct Hr|..]; eauto; do 2 eexists; split; [reflexivity|discriminate|reflexivity|discriminate]. Qed.
Lemma declarator_cut td f td' f' r r' : c_declarator_of types td f -> c_declarator_of types td' f' -> stop r -> stop r' ->
  td ++ r = td' ++ r' -> td = td' /\ form_values f = form_values f' /\ r = r'.
Proof.
  intros [n x ti l Hx Hi] [n' x' ti' l' Hx' Hi'] Hr Hr' E. rewrite <- !app_assoc in E. cbn [app] in E.
  apply stars_cut in E; [|exact I|exact I]. destruct E as [-> E]. injection E as -> E.
  destruct (indexes_cut _ _ Hi _ _ _ _ Hi' Hr Hr' E) as (-> & El & Er). unfold form_values. cbn [cf_stars cf_name cf_indexes]. rewrite El. auto.
Qed.
Lemma declared_cut tt t td f tt' t' td' f' r r' : c_type_of types tt t -> c_declarator_of types td f -> c_type_of types tt' t' -> c_declarator_of types td' f' ->
  stop r -> stop r' -> tt ++ td ++ r = tt' ++ td' ++ r' -> tt = tt' /\ t = t' /\ td = td' /\ form_values f = form_values f' /\ r = r'.
Proof.
  intros Ht Hd Ht' Hd' Hr Hr' E. destruct (type_words _ _ Ht) as (ws & -> & -> & _ & _). destruct (type_words _ _ Ht') as (ws' & -> & -> & _ & _).
  assert (G : ws = ws' /\ td ++ r = td' ++ r').
  { destruct Hd as [n x ti l Hx Hi], Hd' as [n' x' ti' l' Hx' Hi']. rewrite <- !app_assoc in E. cbn [app] in E. rewrite <- !app_assoc. cbn [app].
    destruct (indexes_stop _ _ _ Hi Hr) as (op & z & Ez & Hop). destruct (indexes_stop _ _ _ Hi' Hr') as (op' & z' & Ez' & Hop'). rewrite Ez, Ez' in *.
    assert (J : forall ws x q, map TWord ws ++ TWord x :: q = map TWord (ws ++ [x]) ++ q) by (intros; rewrite map_app, <- app_assoc; reflexivity).
    destruct n as [|n], n' as [|n']; cbn [repeat app] in E |- *.
    - rewrite !J in E. apply words_map in E; [|exact I|exact I]. destruct E as [E1 E2]. apply app_inj_tail in E1 as [-> ->]. rewrite E2. auto.
    - rewrite J in E. apply words_map in E; [|exact I|exact I]. destruct E as [E1 E2]. exfalso. injection E2 as E2 _. now destruct Hop.
    - rewrite J in E. apply words_map in E; [|exact I|exact I]. destruct E as [E1 E2]. exfalso. injection E2 as E2 _. now destruct Hop'.
    - apply words_map in E; [|exact I|exact I]. destruct E as [-> E]. auto. }
  destruct G as [-> G]. destruct (declarator_cut _ _ _ _ _ _ Hd Hd' Hr Hr' G) as (-> & Ef & Er). auto 6.
Qed.

(** ** Initializers *)
Definition entry_values (x : bool * option cexpr * cexpr) : bool * option cexpr * cexpr :=
  (fst (fst x), option_map values (snd (fst x)), init_values (snd x)).
Definition list_values (l : list (bool * option cexpr * cexpr)) : cexpr := CComp (if zero_list l then [] else l).
Lemma init_list l : init_values (CComp l) = list_values (map entry_values l). Proof. reflexivity. Qed.
Lemma expr_no_list n ts e : expr_of n ts e -> init_values e = values e.
Proof.
  intros H. assert (G : match e with CComp _ => False | _ => True end); [|destruct e; try reflexivity; contradiction].
  revert n ts e H. apply (c_expr_ind_m types (fun _ _ e _ => match e with CComp _ => False | _ => True end) (fun _ _ _ => True) (fun _ _ _ => True)); intros; auto.
Qed.
Lemma init_head ts e : c_init_of types ts e -> head_ok ts \/ exists r, ts = TPunct "{" :: r.
Proof. destruct 1; eauto using expr_head. Qed.
Lemma head_not op r : head_ok (TPunct op :: r) -> In op ["{"; "}"; "["; "]"; "."; ";"; ","; ")"; ":"]%string -> False.
Proof. cbn. intros H H'. cases H'; subst; intuition discriminate. Qed.
(** The list of one zero. *)
Lemma zero_cut ts l r r' : c_entries_of types ts l -> TNum (L "0") :: TPunct "}" :: r = ts ++ TPunct "}" :: r' ->
  ts = [TNum (L "0")] /\ list_values (map entry_values l) = CComp [] /\ r = r'.
Proof.
  assert (Z : expr_of 2 [TNum (L "0")] (CLit (CLNumber (L "0")))) by (apply (up_to types 16); [apply C_number|lia|lia]).
  assert (G : forall ts x op q, c_entry_of types ts x -> In op closers -> TNum (L "0") :: TPunct "}" :: r = ts ++ TPunct op :: q ->
    ts = [TNum (L "0")] /\ entry_values x = (false, None, CLit (CLNumber (L "0"))) /\ op = "}"%string /\ r = q).
  { intros ts0 x op q He Ho E. destruct He as [ts0 e He|x ts0 e He|ts0 k ts1 e Hk He]; [|discriminate|discriminate].
    destruct He as [ts0 e He| |ts0 l0 He]; [|discriminate|discriminate].
    destruct (expr_cut 2 2 [TNum (L "0")] _ _ _ "}" op r q Z He E) as (<- & Ev & <- & Er); [lia|lia|cbn; tauto|exact Ho|].
    unfold entry_values. cbn [fst snd option_map]. rewrite (expr_no_list _ _ _ He), <- Ev. auto. }
  intros H E. destruct H as [ts x H|ts x ts' l H Hl].
  - destruct (G _ _ "}"%string r' H) as (-> & Ev & _ & Er); [cbn; tauto|exact E|]. cbn [map]. rewrite Ev. auto.
  - rewrite <- app_assoc in E. cbn [app] in E. destruct (G _ _ ","%string _ H ltac:(cbn; tauto) E) as (_ & _ & Eo & _). discriminate.
Qed.
Definition init_uniq ts e := forall ts' e' op op' r r', c_init_of types ts' e' -> ts ++ TPunct op :: r = ts' ++ TPunct op' :: r' ->
  In op closers -> In op' closers -> ts = ts' /\ init_values e = init_values e' /\ op = op' /\ r = r'.
Definition entries_uniq ts l := forall ts' l' r r', c_entries_of types ts' l' -> ts ++ TPunct "}" :: r = ts' ++ TPunct "}" :: r' ->
  ts = ts' /\ map entry_values l = map entry_values l' /\ r = r'.
Definition entry_uniq ts x := forall ts' x' op op' r r', c_entry_of types ts' x' -> ts ++ TPunct op :: r = ts' ++ TPunct op' :: r' ->
  In op closers -> In op' closers -> ts = ts' /\ entry_values x = entry_values x' /\ op = op' /\ r = r'.
Lemma init_unique_m : (forall ts e, c_init_of types ts e -> init_uniq ts e) /\ (forall ts l, c_entries_of types ts l -> entries_uniq ts l)
  /\ (forall ts x, c_entry_of types ts x -> entry_uniq ts x).
Proof.
  apply c_init_mutual.
  - intros ts e He ts' e' op op' r r' H' E Ho Ho'. destruct H' as [ts' e' He'| |ts' l He'].
    + destruct (expr_cut 2 2 _ _ _ _ _ _ _ _ He He' E) as (-> & Ev & -> & ->); auto. rewrite (expr_no_list _ _ _ He), (expr_no_list _ _ _ He'). auto.
    + apply expr_head in He. apply (head_app _ (TPunct op :: r)) in He. rewrite E in He. exfalso. eapply head_not; [exact He|cbn; tauto].
    + apply expr_head in He. apply (head_app _ (TPunct op :: r)) in He. rewrite E in He. exfalso. eapply head_not; [exact He|cbn; tauto].
  - intros ts' e' op op' r r' H' E Ho Ho'. destruct H' as [ts' e' He'| |ts' l He'].
    + apply expr_head in He'. apply (head_app _ (TPunct op' :: r')) in He'. rewrite <- E in He'. exfalso. eapply head_not; [exact He'|cbn; tauto].
    + injection E as -> ->. auto.
    + injection E as E. rewrite <- app_assoc in E. destruct (zero_cut _ _ _ _ He' E) as (-> & Ev & Er). injection Er as -> ->.
      rewrite !init_list, Ev. auto.
  - intros ts l Hl IH ts' e' op op' r r' H' E Ho Ho'. destruct H' as [ts' e' He'| |ts' l' He'].
    + apply expr_head in He'. apply (head_app _ (TPunct op' :: r')) in He'. rewrite <- E in He'. exfalso. eapply head_not; [exact He'|cbn; tauto].
    + injection E as E. rewrite <- app_assoc in E. symmetry in E. destruct (zero_cut _ _ _ _ Hl E) as (-> & Ev & Er). injection Er as -> ->.
      rewrite !init_list, Ev. auto.
    + injection E as E. rewrite <- !app_assoc in E. destruct (IH _ _ _ _ He' E) as (-> & Ev & Er). injection Er as -> ->. rewrite !init_list, Ev. auto.
  - intros ts x Hx IH ts' l' r r' H' E. destruct H' as [ts' x' H'|ts' x' ts2 l' H' Hl'].
    + destruct (IH _ _ _ _ _ _ H' E) as (-> & Ev & _ & ->); [cbn; tauto|cbn; tauto|]. cbn [map]. rewrite Ev. auto.
    + rewrite <- app_assoc in E. cbn [app] in E. destruct (IH _ _ _ _ _ _ H' E) as (_ & _ & Eo & _); [cbn; tauto|cbn; tauto|discriminate].
  - intros ts x ts2 l Hx IH Hl IHl ts' l' r r' H' E. rewrite <- app_assoc in E. cbn [app] in E. destruct H' as [ts' x' H'|ts' x' ts2' l' H' Hl'].
    + destruct (IH _ _ _ _ _ _ H' E) as (_ & _ & Eo & _); [cbn; tauto|cbn; tauto|discriminate].
    + rewrite <- app_assoc in E. cbn [app] in E. destruct (IH _ _ _ _ _ _ H' E) as (-> & Ev & _ & Er); [cbn; tauto|cbn; tauto|].
      destruct (IHl _ _ _ _ Hl' Er) as (-> & Evl & ->). cbn [map]. rewrite Ev, Evl. auto.
  - intros ts e He IH ts' x' op op' r r' H' E Ho Ho'. destruct H' as [ts' e' H'|x' ts' e' H'|ts' k' ts2 e' Hk' H'].
    + destruct (IH _ _ _ _ _ _ H' E Ho Ho') as (-> & Ev & -> & ->). unfold entry_values. cbn [fst snd option_map]. rewrite Ev. auto.
    + exfalso. destruct (init_head _ _ He) as [Hh|(z & ->)]; [|discriminate]. apply (head_app _ (TPunct op :: r)) in Hh. rewrite E in Hh. eapply head_not; [exact Hh|cbn; tauto].
    + exfalso. destruct (init_head _ _ He) as [Hh|(z & ->)]; [|discriminate]. apply (head_app _ (TPunct op :: r)) in Hh. rewrite E in Hh. eapply head_not; [exact Hh|cbn; tauto].
  - intros x ts e He IH ts' x' op op' r r' H' E Ho Ho'. destruct H' as [ts' e' H'|x' ts' e' H'|ts' k' ts2 e' Hk' H'].
    + exfalso. destruct (init_head _ _ H') as [Hh|(z & ->)]; [|discriminate]. apply (head_app _ (TPunct op' :: r')) in Hh. rewrite <- E in Hh. eapply head_not; [exact Hh|cbn; tauto].
    + injection E as -> E. destruct (IH _ _ _ _ _ _ H' E Ho Ho') as (-> & Ev & -> & ->). unfold entry_values. cbn [fst snd option_map]. rewrite Ev. auto.
    + discriminate.
  - intros ts k ts2 e Hk He IH ts' x' op op' r r' H' E Ho Ho'. destruct H' as [ts' e' H'|x' ts' e' H'|ts' k' ts2' e' Hk' H'].
    + exfalso. destruct (init_head _ _ H') as [Hh|(z & ->)]; [|discriminate]. apply (head_app _ (TPunct op' :: r')) in Hh. rewrite <- E in Hh. eapply head_not; [exact Hh|cbn; tauto].
    + discriminate.
    + injection E as E. rewrite <- !app_assoc in E. cbn [app] in E. destruct (expr_cut 3 3 _ _ _ _ _ _ _ _ Hk Hk' E) as (-> & Ek & _ & E2); [lia|lia|cbn; tauto|cbn; tauto|].
      injection E2 as E2. destruct (IH _ _ _ _ _ _ H' E2 Ho Ho') as (-> & Ev & -> & ->). unfold entry_values. cbn [fst snd option_map]. rewrite Ev, Ek. auto.
Qed.
Lemma init_cut ts e ts' e' op op' r r' : c_init_of types ts e -> c_init_of types ts' e' -> ts ++ TPunct op :: r = ts' ++ TPunct op' :: r' ->
  In op closers -> In op' closers -> ts = ts' /\ init_values e = init_values e' /\ op = op' /\ r = r'.
Proof. intros H H'. now apply (proj1 init_unique_m). Qed.

(** ** Declarations *)
Definition decl_values (d : cform * option cexpr) : cform * option cexpr := (form_values (fst d), option_map init_values (snd d)).
Lemma init_declarator_cut ts d ts' d' op op' r r' : c_init_declarator_of types ts d -> c_init_declarator_of types ts' d' ->
  ts ++ TPunct op :: r = ts' ++ TPunct op' :: r' -> In op closers -> In op' closers ->
  ts = ts' /\ decl_values d = decl_values d' /\ op = op' /\ r = r'.
Proof.
  assert (S1 : forall op r, In op closers -> stop (TPunct op :: r)) by (intros o q H; cbn; cases H; subst; split; discriminate).
  assert (S2 : forall r, stop (TPunct "=" :: r)) by (intros; cbn; split; discriminate).
  assert (N : forall op, In op closers -> op <> "="%string) by (intros o H; cases H; subst; discriminate).
  intros H H' E Ho Ho'. destruct H as [ts f H|ts f ti e H Hi], H' as [ts' f' H'|ts' f' ti' e' H' Hi'].
  - destruct (declarator_cut _ _ _ _ _ _ H H' (S1 _ _ Ho) (S1 _ _ Ho') E) as (-> & Ef & Er). injection Er as -> ->. unfold decl_values. cbn [fst snd]. rewrite Ef. auto.
  - rewrite <- app_assoc in E. cbn [app] in E. destruct (declarator_cut _ _ _ _ _ _ H H' (S1 _ _ Ho) (S2 _) E) as (_ & _ & Er). injection Er as -> _. now apply N in Ho.
  - rewrite <- app_assoc in E. cbn [app] in E. destruct (declarator_cut _ _ _ _ _ _ H H' (S2 _) (S1 _ _ Ho') E) as (_ & _ & Er). injection Er as <- _. now apply N in Ho'.
  - rewrite <- !app_assoc in E. cbn [app] in E. destruct (declarator_cut _ _ _ _ _ _ H H' (S2 _) (S2 _) E) as (-> & Ef & Er). injection Er as Er.
    destruct (init_cut _ _ _ _ _ _ _ _ Hi Hi' Er Ho Ho') as (-> & Ev & -> & ->). unfold decl_values. cbn [fst snd option_map]. rewrite Ef, Ev. auto.
Qed.
Lemma declarators_cut ts l : c_declarators_of types ts l -> forall ts' l' r r', c_declarators_of types ts' l' -> ts ++ TPunct ";" :: r = ts' ++ TPunct ";" :: r' ->
  ts = ts' /\ map decl_values l = map decl_values l' /\ r = r'.
Proof.
  induction 1 as [ts d H|ts d ts2 l H Hl IH]; intros ts' l' r r' H' E; destruct H' as [ts' d' H'|ts' d' ts2' l' H' Hl']; rewrite <- ?app_assoc in E; cbn [app] in E;
    destruct (init_declarator_cut _ _ _ _ _ _ _ _ H H' E) as (-> & Ed & Eo & Er); try (cbn; tauto); try discriminate.
  - subst. cbn [map]. rewrite Ed. auto.
  - destruct (IH _ _ _ _ Hl' Er) as (-> & El & ->). cbn [map]. rewrite Ed, El. auto.
Qed.

(** ** Statements *)
Definition kind_words : list (string * nat) :=
  [("if", 3); ("while", 4); ("for", 5); ("switch", 6); ("case", 7); ("default", 8); ("break", 9); ("continue", 10); ("return", 11)]%string.
Fixpoint find_kind (w : str) (l : list (string * nat)) : nat :=
  match l with [] => 1 | (k, n) :: r => if str_eqb w (lit k) then n else find_kind w r end.
Definition kind (ts : list ctok) : nat :=
  match ts with
  | TWord w :: _ => find_kind w kind_words
  | TPunct op :: _ => if String.eqb op ";" then 0 else if String.eqb op "{" then 2 else 1
  | _ => 1
  end.
Definition stmt_kind (s : cst) : nat :=
  match s with
  | XNull => 0 | XExpr _ | XDecl _ _ => 1 | XBlock _ => 2 | XIf _ _ _ => 3 | XWhile _ _ => 4 | XFor _ _ _ _ => 5 | XSwitch _ _ => 6
  | XCase _ _ => 7 | XDefault _ => 8 | XBreak => 9 | XContinue => 10 | XReturn _ => 11
  end.
Lemma find_other w l : (forall k n, In (k, n) l -> w <> lit k) -> find_kind w l = 1.
Proof.
  induction l as [|[k n] l IH]; intros H; [reflexivity|]. cbn [find_kind]. assert (w <> lit k) by (eapply H; now left).
  apply str_eqb_neq in H0 as ->. apply IH. intros k' n' Hi. apply (H k' n'). now right.
Qed.
Lemma head_kind ts : head_ok ts -> kind ts = 1.
Proof.
  destruct ts as [|[w|w|w|w|op] r]; cbn [head_ok kind]; try easy.
  - intros [_ H]. apply find_other. intros k n Hk ->. destruct H as [H|H].
    + revert H. unfold kind_words in Hk. cases Hk; injection Hk as <- <-; discriminate.
    + apply H. apply in_map. unfold kind_words in Hk. cases Hk; injection Hk as <- <-; cbn; tauto.
  - intros H. cases H; subst; reflexivity.
Qed.
Lemma stmt_kinds ts s r : c_stmt_of types ts s -> kind (ts ++ r) = stmt_kind s.
Proof.
  destruct 1; try reflexivity. cbn [stmt_kind]. apply head_kind. rewrite <- app_assoc. apply head_app. eapply expr_head; eauto.
Qed.
Definition no_else (r : list ctok) : Prop := match r with TWord w :: _ => w <> L "else" | _ => True end.
(** The first token of a statement. *)
Lemma stmt_starts ts s r : c_stmt_of types ts s -> type_start types (ts ++ r) = false /\ no_else (ts ++ r)
  /\ (forall z, ts ++ r <> TPunct "}" :: z).
Proof.
  assert (K : forall w, In w not_types -> type_start types (TWord (lit w) :: []) = false).
  { intros w H. cbn. rewrite (sane w H). cbn. unfold not_types in H. cases H; subst; reflexivity. }
  destruct 1; cbn [app]; try (split; [reflexivity|split; [exact I|discriminate]]);
    try (split; [match goal with |- type_start _ (TWord (lit ?w) :: _) = _ => exact (K w ltac:(cbn; tauto)) end|split; [cbn; discriminate|discriminate]]).
  apply expr_head in H. apply (head_app _ ([TPunct ";"] ++ r)) in H. rewrite <- app_assoc. destruct (ts ++ [TPunct ";"] ++ r) as [|[w|w|w|w|op] z]; [contradiction| |..].
  - apply head_word in H as (H1 & H2 & H3). cbn [type_start no_else]. rewrite H1. split; [now apply str_eqb_neq|]. split; [exact H3|discriminate].
  - split; [reflexivity|split; [exact I|discriminate]].
  - split; [reflexivity|split; [exact I|discriminate]].
  - split; [reflexivity|split; [exact I|discriminate]].
  - split; [reflexivity|]. split; [exact I|]. intros z' [= -> ->]. cbn in H. intuition discriminate.
Qed.
Lemma type_start_app' tt t r : c_type_of types tt t -> type_start types (tt ++ r) = true.
Proof. intros H. destruct (type_words _ _ H) as (ws & -> & _ & E & Hn). destruct ws; [contradiction|exact E]. Qed.
Lemma items_no_else ts l r : c_items_of types ts l -> no_else (ts ++ TPunct "}" :: r).
Proof.
  destruct 1 as [|ts s ts' l Hs Hl|ts t ts' ds ts'' l Ht Hd Hl]; [exact I| |]; rewrite <- app_assoc.
  - now apply (stmt_starts ts s (ts' ++ TPunct "}" :: r)) in Hs.
  - pose proof (type_start_app' ts t ((ts' ++ TPunct ";" :: ts'') ++ TPunct "}" :: r) Ht) as E.
    destruct (ts ++ (ts' ++ TPunct ";" :: ts'') ++ TPunct "}" :: r) as [|[w|w|w|w|op] z]; try exact I. cbn [no_else].
    intros ->. cbn [type_start] in E. rewrite (sane "else"%string) in E by (cbn; tauto). discriminate.
Qed.
Lemma opt_cut ts e ts' e' op op' r r' : c_opt_of types ts e -> c_opt_of types ts' e' -> ts ++ TPunct op :: r = ts' ++ TPunct op' :: r' ->
  In op closers -> In op' closers -> ts = ts' /\ option_map values e = option_map values e' /\ op = op' /\ r = r'.
Proof.
  assert (N : forall ts e op r z, expr_of 2 ts e -> In op closers -> ts ++ z <> TPunct op :: r).
  { intros t0 e0 o q z He Ho E. apply expr_head in He. apply (head_app _ z) in He. rewrite E in He. cbn in He. cases Ho; subst; intuition discriminate. }
  destruct e as [e|], e' as [e'|]; cbn [c_opt_of option_map]; intros H H' E Ho Ho'.
  - destruct (expr_cut 2 2 _ _ _ _ _ _ _ _ H H' E) as (-> & -> & -> & ->); auto.
  - subst ts'. exfalso. exact (N _ _ _ _ _ H Ho' E).
  - subst ts. symmetry in E. exfalso. exact (N _ _ _ _ _ H' Ho E).
  - subst. injection E as -> ->. auto.
Qed.
Lemma for_cut ts i ts' i' r r' : c_for_init_of types ts i -> c_for_init_of types ts' i' -> ts ++ TPunct ";" :: r = ts' ++ TPunct ";" :: r' ->
  ts = ts' /\ option_map for_values i = option_map for_values i' /\ r = r'.
Proof.
  assert (N : forall ts e z r, expr_of 2 ts e -> ts ++ z <> TPunct ";" :: r).
  { intros t0 e0 z q He E. apply expr_head in He. apply (head_app _ z) in He. rewrite E in He. cbn in He. intuition discriminate. }
  assert (T : forall ts e z tt t q, expr_of 2 ts e -> c_type_of types tt t -> ts ++ z <> tt ++ q).
  { intros t0 e0 z tt t q He Ht E. pose proof (type_start_app' tt t q Ht) as Hs. rewrite <- E in Hs. apply expr_head in He. apply (head_app _ z) in He.
    destruct (t0 ++ z) as [|[w|w|w|w|op] y]; try discriminate Hs. apply head_word in He as (H1 & H2 & _). cbn in Hs. rewrite H1 in Hs. cbn in Hs. now apply str_eqb_eq in Hs. }
  assert (D : forall tt t q r, c_type_of types tt t -> tt ++ q <> TPunct ";" :: r).
  { intros tt t q r0 Ht E. pose proof (type_start_app' tt t q Ht) as Hs. rewrite E in Hs. discriminate. }
  assert (S2 : forall r, stop (TPunct "=" :: r)) by (intros; cbn; split; discriminate).
  intros H H' E. destruct H as [|ts e He|ts t td f tv e Ht Hf He], H' as [|ts' e' He'|ts' t' td' f' tv' e' Ht' Hf' He'].
  - injection E as ->. auto.
  - symmetry in E. destruct (N _ _ _ _ He' E).
  - symmetry in E. rewrite <- app_assoc in E. destruct (D _ _ _ _ Ht' E).
  - destruct (N _ _ _ _ He E).
  - destruct (expr_cut 2 2 _ _ _ _ _ _ _ _ He He' E) as (-> & Ev & _ & ->); [lia|lia|cbn; tauto|cbn; tauto|]. cbn [option_map for_values]. rewrite Ev. auto.
  - rewrite <- (app_assoc ts') in E. destruct (T _ _ _ _ _ _ He Ht' E).
  - rewrite <- app_assoc in E. destruct (D _ _ _ _ Ht E).
  - rewrite <- (app_assoc ts) in E. symmetry in E. destruct (T _ _ _ _ _ _ He' Ht E).
  - rewrite <- !app_assoc in E. cbn [app] in E. destruct (declared_cut _ _ _ _ _ _ _ _ _ _ Ht Hf Ht' Hf' (S2 _) (S2 _) E) as (-> & -> & -> & Ef & Er). injection Er as Er.
    destruct (init_cut _ _ _ _ _ _ _ _ He He' Er) as (-> & Ev & _ & ->); [cbn; tauto|cbn; tauto|]. cbn [option_map for_values cv_type cv_form cv_value]. rewrite Ef, Ev. auto.
Qed.
Definition stmt_uniq ts s := forall ts' s' r r', c_stmt_of types ts' s' -> ts ++ r = ts' ++ r' -> (open_if s = true -> no_else r) -> (open_if s' = true -> no_else r') ->
  ts = ts' /\ stmt_values s = stmt_values s' /\ r = r'.
Definition items_uniq ts l := forall ts' l' r r', c_items_of types ts' l' -> ts ++ TPunct "}" :: r = ts' ++ TPunct "}" :: r' ->
  ts = ts' /\ map stmt_values l = map stmt_values l' /\ r = r'.
Ltac same_kind K := repeat match type of K with ?a = ?b => cbn [stmt_kind] in K; try discriminate K end.
Lemma stmt_unique_m : (forall ts s, c_stmt_of types ts s -> stmt_uniq ts s) /\ (forall ts l, c_items_of types ts l -> items_uniq ts l).
Proof.
  assert (KK : forall ts s ts' s' r r', c_stmt_of types ts s -> c_stmt_of types ts' s' -> ts ++ r = ts' ++ r' -> stmt_kind s = stmt_kind s').
  { intros ts s ts' s' r r' H H' E. rewrite <- (stmt_kinds ts s r H), <- (stmt_kinds ts' s' r' H'). now rewrite E. }
  apply c_stmt_mutual.
  - intros ts' s' r r' H' E Ho Ho'. pose proof (KK _ _ _ _ _ _ (Cs_null types) H' E) as K. destruct H'; try discriminate K. injection E as ->. auto.
  - intros ts e He ts' s' r r' H' E Ho Ho'. pose proof (KK _ _ _ _ _ _ (Cs_expr types _ _ He) H' E) as K. destruct H'; try discriminate K.
    rewrite <- !app_assoc in E. cbn [app] in E. destruct (expr_cut 2 2 _ _ _ _ _ _ _ _ He H E) as (-> & Ev & _ & ->); [lia|lia|cbn; tauto|cbn; tauto|]. cbn [stmt_values]. rewrite Ev. auto.
  - intros ts l Hl IH ts' s' r r' H' E Ho Ho'. pose proof (KK _ _ _ _ _ _ (Cs_block types _ _ Hl) H' E) as K. destruct H' as [| |ts' l' H'| | | | | | | | | |]; try discriminate K.
    injection E as E. rewrite <- !app_assoc in E. cbn [app] in E. destruct (IH _ _ _ _ H' E) as (-> & Ev & ->). cbn [stmt_values]. rewrite Ev. auto.
  - intros ts c ts2 s Hc Hs IH ts' s' r r' H' E Ho Ho'. pose proof (KK _ _ _ _ _ _ (Cs_if types _ _ _ _ Hc Hs) H' E) as K.
    destruct H' as [| | |ts' c' ts2' s' Hc' Hs'|ts' c' ts2' s' ts3' s2' Hc' Hs' Hn' Hs2'| | | | | | | |]; try discriminate K; injection E as E; rewrite <- !app_assoc in E; cbn [app] in E;
      (destruct (expr_cut 2 2 _ _ _ _ _ _ _ _ Hc Hc' E) as (-> & Ev & _ & Er); [lia|lia|cbn; tauto|cbn; tauto|]).
    + destruct (IH _ _ _ _ Hs' Er) as (-> & Es & ->); [intros _; now apply Ho|intros _; now apply Ho'|]. cbn [stmt_values option_map]. rewrite Ev, Es. auto.
    + rewrite <- app_assoc in Er. cbn [app] in Er. destruct (IH _ _ _ _ Hs' Er) as (_ & _ & ->); [intros _; now apply Ho|congruence|]. specialize (Ho eq_refl). cbn in Ho. now destruct Ho.
  - intros ts c ts2 s ts3 s2 Hc Hs IH Hn Hs2 IH2 ts' s' r r' H' E Ho Ho'. pose proof (KK _ _ _ _ _ _ (Cs_if_else types _ _ _ _ _ _ Hc Hs Hn Hs2) H' E) as K.
    destruct H' as [| | |ts' c' ts2' s' Hc' Hs'|ts' c' ts2' s' ts3' s2' Hc' Hs' Hn' Hs2'| | | | | | | |]; try discriminate K; injection E as E; rewrite <- !app_assoc in E; cbn [app] in E;
      (destruct (expr_cut 2 2 _ _ _ _ _ _ _ _ Hc Hc' E) as (-> & Ev & _ & Er); [lia|lia|cbn; tauto|cbn; tauto|]).
    + rewrite <- app_assoc in Er. cbn [app] in Er. destruct (IH _ _ _ _ Hs' Er) as (_ & _ & <-); [congruence|intros _; now apply Ho'|]. specialize (Ho' eq_refl). cbn in Ho'. now destruct Ho'.
    + rewrite <- !app_assoc in Er. cbn [app] in Er. destruct (IH _ _ _ _ Hs' Er) as (-> & Es & Er2); [congruence|congruence|]. injection Er2 as Er2.
      destruct (IH2 _ _ _ _ Hs2' Er2 Ho Ho') as (-> & Es2 & ->). cbn [stmt_values option_map]. rewrite Ev, Es, Es2. auto.
  - intros ts c ts2 s Hc Hs IH ts' s' r r' H' E Ho Ho'. pose proof (KK _ _ _ _ _ _ (Cs_while types _ _ _ _ Hc Hs) H' E) as K.
    destruct H' as [| | | | |ts' c' ts2' s' Hc' Hs'| | | | | | |]; try discriminate K. injection E as E. rewrite <- !app_assoc in E. cbn [app] in E.
    destruct (expr_cut 2 2 _ _ _ _ _ _ _ _ Hc Hc' E) as (-> & Ev & _ & Er); [lia|lia|cbn; tauto|cbn; tauto|].
    destruct (IH _ _ _ _ Hs' Er Ho Ho') as (-> & Es & ->). cbn [stmt_values]. rewrite Ev, Es. auto.
  - intros ti i tc c ta a ts s Hi Hc Ha Hs IH ts' s' r r' H' E Ho Ho'. pose proof (KK _ _ _ _ _ _ (Cs_for types _ _ _ _ _ _ _ _ Hi Hc Ha Hs) H' E) as K.
    destruct H' as [| | | | | |ti' i' tc' c' ta' a' ts' s' Hi' Hc' Ha' Hs'| | | | | |]; try discriminate K. injection E as E. repeat (rewrite <- !app_assoc in E; cbn [app] in E).
    destruct (for_cut _ _ _ _ _ _ Hi Hi' E) as (-> & Ei & E1).
    destruct (opt_cut _ _ _ _ _ _ _ _ Hc Hc' E1) as (-> & Ec & _ & E2); [cbn; tauto|cbn; tauto|].
    destruct (opt_cut _ _ _ _ _ _ _ _ Ha Ha' E2) as (-> & Ea & _ & E3); [cbn; tauto|cbn; tauto|].
    destruct (IH _ _ _ _ Hs' E3 Ho Ho') as (-> & Es & ->). cbn [stmt_values]. rewrite Ei, Ec, Ea, Es. auto.
  - intros ts c ts2 s Hc Hs IH ts' s' r r' H' E Ho Ho'. pose proof (KK _ _ _ _ _ _ (Cs_switch types _ _ _ _ Hc Hs) H' E) as K.
    destruct H' as [| | | | | | |ts' c' ts2' s' Hc' Hs'| | | | |]; try discriminate K. injection E as E. rewrite <- !app_assoc in E. cbn [app] in E.
    destruct (expr_cut 2 2 _ _ _ _ _ _ _ _ Hc Hc' E) as (-> & Ev & _ & Er); [lia|lia|cbn; tauto|cbn; tauto|].
    destruct (IH _ _ _ _ Hs' Er Ho Ho') as (-> & Es & ->). cbn [stmt_values]. rewrite Ev, Es. auto.
  - intros ts c ts2 s Hc Hs IH ts' s' r r' H' E Ho Ho'. pose proof (KK _ _ _ _ _ _ (Cs_case types _ _ _ _ Hc Hs) H' E) as K.
    destruct H' as [| | | | | | | |ts' c' ts2' s' Hc' Hs'| | | |]; try discriminate K. injection E as E. rewrite <- !app_assoc in E. cbn [app] in E.
    destruct (expr_cut 3 3 _ _ _ _ _ _ _ _ Hc Hc' E) as (-> & Ev & _ & Er); [lia|lia|cbn; tauto|cbn; tauto|].
    destruct (IH _ _ _ _ Hs' Er Ho Ho') as (-> & Es & ->). cbn [stmt_values]. rewrite Ev, Es. auto.
  - intros ts s Hs IH ts' s' r r' H' E Ho Ho'. pose proof (KK _ _ _ _ _ _ (Cs_default types _ _ Hs) H' E) as K.
    destruct H' as [| | | | | | | | |ts' s' Hs'| | |]; try discriminate K. injection E as E. destruct (IH _ _ _ _ Hs' E Ho Ho') as (-> & Es & ->). cbn [stmt_values]. rewrite Es. auto.
  - intros ts' s' r r' H' E Ho Ho'. pose proof (KK _ _ _ _ _ _ (Cs_break types) H' E) as K. destruct H'; try discriminate K. injection E as ->. auto.
  - intros ts' s' r r' H' E Ho Ho'. pose proof (KK _ _ _ _ _ _ (Cs_continue types) H' E) as K. destruct H'; try discriminate K. injection E as ->. auto.
  - intros ts e He ts' s' r r' H' E Ho Ho'. pose proof (KK _ _ _ _ _ _ (Cs_return types _ _ He) H' E) as K. destruct H' as [| | | | | | | | | | | |ts' e' He']; try discriminate K.
    injection E as E. rewrite <- !app_assoc in E. cbn [app] in E. destruct (opt_cut _ _ _ _ _ _ _ _ He He' E) as (-> & Ev & _ & ->); [cbn; tauto|cbn; tauto|].
    cbn [stmt_values]. rewrite Ev. auto.
  - intros ts' l' r r' H' E. destruct H' as [|ts' s' ts2' l' Hs' Hl'|ts' t' ts2' ds' ts3' l' Ht' Hd' Hl'].
    + injection E as ->. auto.
    + exfalso. symmetry in E. rewrite <- app_assoc in E. cbn [app] in E. now apply (proj2 (proj2 (stmt_starts _ _ _ Hs'))) in E.
    + exfalso. pose proof (type_start_app' _ _ ((ts2' ++ TPunct ";" :: ts3') ++ TPunct "}" :: r') Ht') as Et. rewrite <- app_assoc in E. cbn [app] in E. rewrite <- E in Et. discriminate.
  - intros ts s ts2 l Hs IH Hl IHl ts' l' r r' H' E. destruct H' as [|ts' s' ts2' l' Hs' Hl'|ts' t' ts2' ds' ts3' l' Ht' Hd' Hl'].
    + exfalso. rewrite <- app_assoc in E. cbn [app] in E. now apply (proj2 (proj2 (stmt_starts _ _ _ Hs))) in E.
    + rewrite <- !app_assoc in E. destruct (IH _ _ _ _ Hs' E) as (-> & Es & Er); [intros _; eapply items_no_else; eauto|intros _; eapply items_no_else; eauto|].
      destruct (IHl _ _ _ _ Hl' Er) as (-> & El & ->). cbn [map]. rewrite Es, El. auto.
    + exfalso. pose proof (type_start_app' _ _ ((ts2' ++ TPunct ";" :: ts3') ++ TPunct "}" :: r') Ht') as Et. rewrite <- (app_assoc ts), <- (app_assoc ts') in E. rewrite <- E in Et.
      rewrite (proj1 (stmt_starts _ _ _ Hs)) in Et. discriminate.
  - intros ts t ts2 ds ts3 l Ht Hd Hl IHl ts' l' r r' H' E. destruct H' as [|ts' s' ts2' l' Hs' Hl'|ts' t' ts2' ds' ts3' l' Ht' Hd' Hl'].
    + exfalso. pose proof (type_start_app' _ _ ((ts2 ++ TPunct ";" :: ts3) ++ TPunct "}" :: r) Ht) as Et. rewrite <- app_assoc in E. cbn [app] in E. rewrite E in Et. discriminate.
    + exfalso. pose proof (type_start_app' _ _ ((ts2 ++ TPunct ";" :: ts3) ++ TPunct "}" :: r) Ht) as Et. rewrite <- (app_assoc ts), <- (app_assoc ts') in E. rewrite E in Et.
      rewrite (proj1 (stmt_starts _ _ _ Hs')) in Et. discriminate.
    + repeat (rewrite <- !app_assoc in E; cbn [app] in E).
      assert (G : ts = ts' /\ t = t' /\ ts2 ++ TPunct ";" :: ts3 ++ TPunct "}" :: r = ts2' ++ TPunct ";" :: ts3' ++ TPunct "}" :: r').
      { assert (S0 : forall td f, c_declarator_of types td f -> forall d, c_init_declarator_of types td d -> True) by auto. clear S0.
        assert (D : forall td ds0 q, c_declarators_of types td ds0 -> exists td1 f q1, c_declarator_of types td1 f /\ stop q1 /\ td ++ TPunct ";" :: q = td1 ++ q1).
        { intros td ds0 q Hd0. destruct Hd0 as [td d Hd0|td d td2 l0 Hd0 _].
          - destruct Hd0 as [td f Hd0|td f ti e Hd0 _]; exists td, f; eexists; (split; [exact Hd0|]).
            + split; [|reflexivity]. cbn. split; discriminate.
            + rewrite <- app_assoc. split; [|reflexivity]. cbn. split; discriminate.
          - destruct Hd0 as [td f Hd0|td f ti e Hd0 _]; exists td, f; eexists; (split; [exact Hd0|]).
            + rewrite <- app_assoc. split; [|reflexivity]. cbn. split; discriminate.
            + rewrite <- !app_assoc. split; [|reflexivity]. cbn. split; discriminate. }
        destruct (D _ _ (ts3 ++ TPunct "}" :: r) Hd) as (td1 & f1 & q1 & D1 & S1 & E1). destruct (D _ _ (ts3' ++ TPunct "}" :: r') Hd') as (td2 & f2 & q2 & D2 & S2 & E2).
        rewrite E1, E2 in E |- *. destruct (declared_cut _ _ _ _ _ _ _ _ _ _ Ht D1 Ht' D2 S1 S2 E) as (-> & -> & -> & _ & ->). auto. }
      destruct G as (-> & -> & G). destruct (declarators_cut _ _ Hd _ _ _ _ Hd' G) as (-> & Ed & Er). destruct (IHl _ _ _ _ Hl' Er) as (-> & El & ->).
      cbn [map stmt_values]. rewrite El. unfold decl_values in Ed. rewrite Ed. auto.
Qed.
Theorem stmt_unique ts s s' : c_stmt_of types ts s -> c_stmt_of types ts s' -> stmt_values s = stmt_values s'.
Proof. intros H H'. destruct (proj1 stmt_unique_m _ _ H ts s' [] [] H' eq_refl) as (_ & E & _); auto; intros _; exact I. Qed.
Theorem items_cut ts l ts' l' r r' : c_items_of types ts l -> c_items_of types ts' l' -> ts ++ TPunct "}" :: r = ts' ++ TPunct "}" :: r' ->
  ts = ts' /\ map stmt_values l = map stmt_values l' /\ r = r'.
Proof. intros H H'. now apply (proj2 stmt_unique_m). Qed.
End Unique.
