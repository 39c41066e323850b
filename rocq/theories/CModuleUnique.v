(** A C text has at most one reading as a file. *)
From Verif Require Import Base BaseFacts SpecLex CAst FormatChe FormatC SpecC CReadFacts CUnique SpecCStmt CStmtFacts CStmtUnique SpecCModule CModuleFacts.

(** ** Pieces *)
Lemma spells_hash t s r z : spells t s r -> s ++ r = 35%N :: z -> hash t.
Proof.
  intros H E. destruct H as [c w rest Hc Hw Hs|s rest Hn Hs|s rest Hs|s rest Hn Hs|op rest Hi]; try discriminate E.
  - injection E as -> _. discriminate.
  - apply pp_first in Hn as (c & q & -> & Hc). injection E as -> _. discriminate.
  - unfold hash. apply in_map. cbn in Hi. repeat (destruct Hi as [<-|Hi]; [try discriminate E; cbn; tauto|]). destruct Hi.
Qed.
Lemma blank_cut ws ws' a b c d : all blank ws -> all blank ws' -> blank c = false -> blank d = false -> ws ++ c :: a = ws' ++ d :: b ->
  ws = ws' /\ c = d /\ a = b.
Proof.
  intros Hw Hw' Hc Hd E. apply (maximal_unique blank) in E as [-> E]; auto. injection E as -> ->. auto.
Qed.
Lemma line_cut a b x y : ~ In 10%N a -> ~ In 10%N b -> a ++ 10%N :: x = b ++ 10%N :: y -> a = b /\ x = y.
Proof.
  revert b. induction a as [|c a IH]; intros [|d b] Ha Hb E; cbn in *.
  - injection E as ->. auto.
  - injection E as <- _. exfalso. tauto.
  - injection E as -> _. exfalso. tauto.
  - injection E as -> E. destruct (IH b) as [-> ->]; tauto.
Qed.
Theorem pieces_unique fresh text ps : pieces fresh text ps -> forall ps', pieces fresh text ps' -> ps = ps'.
Proof.
  assert (B : forall ws ws' c q, all blank ws -> ws = ws' ++ c :: q -> blank c = true).
  { intros ws ws' c q Hw ->. apply Forall_app in Hw as [_ Hw]. now inversion Hw. }
  induction 1 as [fresh ws Hw|fresh ws t s text ps Hw Hh Hs Hp IH|fresh ws line text ps Hw Hf Hd Hp IH]; intros ps' H'.
  - inversion H' as [f ws' Hw' E1 E2|f ws' t' s' text' ps1 Hw' Hh' Hs' Hp' E1 E2|f ws' line' text' ps1 Hw' Hf' Hd' Hp' E1 E2]; subst; [reflexivity| |]; exfalso.
    + destruct (spells_ink _ _ _ Hs') as (c & z & -> & Hc). apply Forall_app in Hw as [_ Hw]. inversion Hw. congruence.
    + apply Forall_app in Hw as [_ Hw]. inversion Hw. discriminate.
  - destruct (spells_ink _ _ _ Hs) as (c & z & Es & Hc). inversion H' as [f ws' Hw' E1 E2|f ws' t' s' text' ps1 Hw' Hh' Hs' Hp' E1 E2|f ws' line' text' ps1 Hw' Hf' Hd' Hp' E1 E2]; subst.
    + exfalso. apply Forall_app in Hw' as [_ Hw']. inversion Hw'. congruence.
    + destruct (spells_ink _ _ _ Hs') as (c' & z' & Es' & Hc'). subst s'. cbn [app] in E2. apply blank_cut in E2; auto. destruct E2 as (-> & -> & E2).
      destruct (spells_unique _ _ _ _ _ _ Hs' Hs) as (-> & _ & ->); [cbn [app]; now rewrite E2|]. f_equal. now apply IH.
    + exfalso. cbn [app] in E2. apply (blank_cut ws' ws _ (z ++ text) 35%N c) in E2; auto. destruct E2 as (_ & <- & _).
      apply Hh. eapply spells_hash; [exact Hs|reflexivity].
  - inversion H' as [f ws' Hw' E1 E2|f ws' t' s' text' ps1 Hw' Hh' Hs' Hp' E1 E2|f ws' line' text' ps1 Hw' Hf' Hd' Hp' E1 E2]; subst.
    + exfalso. apply Forall_app in Hw' as [_ Hw']. inversion Hw'. discriminate.
    + exfalso. destruct (spells_ink _ _ _ Hs') as (c & z & -> & Hc). cbn [app] in E2. apply (blank_cut ws' ws (z ++ text') _ c 35%N) in E2; auto. destruct E2 as (_ & -> & _).
      apply Hh'. eapply spells_hash; [exact Hs'|reflexivity].
    + cbn [app] in E2. apply blank_cut in E2; auto. destruct E2 as (-> & _ & E2). apply line_cut in E2; [|apply Hd'|apply Hd]. destruct E2 as [-> ->]. f_equal. now apply IH.
Qed.

Section Unique.
Variable types : str -> bool.
Hypothesis sane : c_types types.
Notation type_of := (c_type_of types).
Notation declarator_of := (c_declarator_of types).

(** ** Declarations *)
Definition punct_head (r : list ctok) : Prop := match r with TPunct op :: _ => op <> "*"%string | _ => False end.
Lemma named_cut ws n x r ws' n' x' r' : punct_head r -> punct_head r' ->
  map TWord ws ++ repeat (TPunct "*") n ++ TWord x :: r = map TWord ws' ++ repeat (TPunct "*") n' ++ TWord x' :: r' ->
  ws = ws' /\ n = n' /\ x = x' /\ r = r'.
Proof.
  intros Hr Hr' E. destruct r as [|[w|w|w|w|op] z]; try contradiction. destruct r' as [|[w|w|w|w|op'] z']; try contradiction. cbn in Hr, Hr'.
  assert (J : forall ws x q, map TWord ws ++ TWord x :: q = map TWord (ws ++ [x]) ++ q) by (intros; rewrite map_app, <- app_assoc; reflexivity).
  destruct n as [|n], n' as [|n']; cbn [repeat app] in E.
  - rewrite !J in E. apply words_map in E; [|exact I|exact I]. destruct E as [E1 E2]. apply app_inj_tail in E1 as [-> ->]. rewrite E2. auto.
  - rewrite J in E. apply words_map in E; [|exact I|exact I]. destruct E as [E1 E2]. exfalso. injection E2 as E2 _. now destruct Hr.
  - rewrite J in E. apply words_map in E; [|exact I|exact I]. destruct E as [E1 E2]. exfalso. injection E2 as E2 _. now destruct Hr'.
  - apply words_map in E; [|exact I|exact I]. destruct E as [-> E]. injection E as E. apply stars_cut in E; [|exact I|exact I]. destruct E as [-> E]. injection E as -> <- <-. auto.
Qed.
(** The words at the beginning of a declaration. *)
Lemma declared_shape tt t td f r : type_of tt t -> declarator_of td f -> stop r ->
  exists ws op z, tt ++ td ++ r = map TWord ws ++ TPunct op :: z /\ ws <> []
    /\ (op = "*"%string \/ (2 <= List.length ws /\ (op = "["%string \/ r = TPunct op :: z))).
Proof.
  intros Ht Hd Hr. destruct (type_words types _ _ Ht) as (ws & -> & _ & _ & Hn). destruct Hd as [n x ti l Hx Hi].
  rewrite <- app_assoc. cbn [app]. destruct n as [|n].
  - exists (ws ++ [x]). cbn [repeat app]. destruct r as [|[w|w|w|w|op] z]; try contradiction.
    assert (Hl : 2 <= List.length (ws ++ [x])) by (rewrite app_length; destruct ws; [contradiction|cbn; lia]).
    destruct Hi as [|ti l Hi|ti e ti' l He Hi].
    + exists op, z. rewrite map_app, <- app_assoc. cbn [map app]. split; [reflexivity|]. split; [destruct ws; discriminate|auto].
    + do 2 eexists. rewrite map_app, <- app_assoc. cbn [map app]. split; [reflexivity|]. split; [destruct ws; discriminate|auto].
    + do 2 eexists. rewrite map_app, <- app_assoc. cbn [map app]. split; [reflexivity|]. split; [destruct ws; discriminate|auto].
  - exists ws. do 2 eexists. cbn [repeat app]. split; [reflexivity|]. split; [exact Hn|now left].
Qed.
Lemma shape_not tt t td f r ws op z : type_of tt t -> declarator_of td f -> stop r -> tt ++ td ++ r = map TWord ws ++ TPunct op :: z ->
  op <> "*"%string -> op <> "["%string -> 2 <= List.length ws /\ r = TPunct op :: z.
Proof.
  intros Ht Hd Hr E H1 H2. destruct (declared_shape _ _ _ _ _ Ht Hd Hr) as (ws' & op' & z' & E' & Hn & H). rewrite E' in E.
  apply words_map in E; [|exact I|exact I]. destruct E as [-> E]. injection E as -> ->. intuition congruence.
Qed.

(** What can follow a list of parameters. *)
Definition fin (q : list ctok) : Prop := (exists z, q = TPunct ")" :: z) \/ exists z, q = TPunct "," :: TPunct "..." :: z.
Lemma fin_stop q : fin q -> stop q.
Proof. intros [(z & ->)|(z & ->)]; cbn; split; discriminate. Qed.
Lemma fin_comma q z : fin q -> q = TPunct "," :: z -> exists y, z = TPunct "..." :: y.
Proof. intros [(y & ->)|(y & ->)]; [discriminate|]. intros [= <-]. eauto. Qed.
Lemma type_dots tt t q z : type_of tt t -> tt ++ q <> TPunct "..." :: z.
Proof. intros Ht E. pose proof (type_start_app' types tt t q Ht) as H. rewrite E in H. discriminate. Qed.
Lemma stop_comma z : stop (TPunct "," :: z). Proof. cbn. split; discriminate. Qed.
Lemma stop_semi z : stop (TPunct ";" :: z). Proof. cbn. split; discriminate. Qed.
Lemma param_list_first ts l : c_param_list_of types ts l -> exists tt t q, type_of tt t /\ ts = tt ++ q.
Proof. destruct 1; eauto 6. Qed.
Lemma param_list_cut ts l : c_param_list_of types ts l -> forall ts' l' q q', c_param_list_of types ts' l' -> fin q -> fin q' -> ts ++ q = ts' ++ q' ->
  ts = ts' /\ map typeform_values l = map typeform_values l' /\ q = q'.
Proof.
  induction 1 as [ts t td f Ht Hd|ts t td f ts2 l Ht Hd Hl IH]; intros ts' l' q q' H' Hq Hq' E;
    destruct H' as [ts' t' td' f' Ht' Hd'|ts' t' td' f' ts2' l' Ht' Hd' Hl']; repeat (rewrite <- !app_assoc in E; cbn [app] in E).
  - destruct (declared_cut types sane _ _ _ _ _ _ _ _ _ _ Ht Hd Ht' Hd' (fin_stop _ Hq) (fin_stop _ Hq') E) as (-> & -> & -> & Ef & ->).
    unfold typeform_values. cbn [map ctf_type ctf_form]. rewrite Ef. auto.
  - destruct (declared_cut types sane _ _ _ _ _ _ _ _ _ _ Ht Hd Ht' Hd' (fin_stop _ Hq) (stop_comma _) E) as (_ & _ & _ & _ & Er).
    exfalso. destruct (fin_comma _ _ Hq Er) as (y & Ey). destruct (param_list_first _ _ Hl') as (tt & t0 & q0 & Ht0 & ->). rewrite <- app_assoc in Ey. exact (type_dots _ _ _ _ Ht0 Ey).
  - destruct (declared_cut types sane _ _ _ _ _ _ _ _ _ _ Ht Hd Ht' Hd' (stop_comma _) (fin_stop _ Hq') E) as (_ & _ & _ & _ & Er).
    exfalso. symmetry in Er. destruct (fin_comma _ _ Hq' Er) as (y & Ey). destruct (param_list_first _ _ Hl) as (tt & t0 & q0 & Ht0 & ->). rewrite <- app_assoc in Ey. exact (type_dots _ _ _ _ Ht0 Ey).
  - destruct (declared_cut types sane _ _ _ _ _ _ _ _ _ _ Ht Hd Ht' Hd' (stop_comma _) (stop_comma _) E) as (-> & -> & -> & Ef & Er). injection Er as Er.
    destruct (IH _ _ _ _ Hl' Hq Hq' Er) as (-> & El & ->). cbn [map]. rewrite El. unfold typeform_values at 1 3. cbn [ctf_type ctf_form]. rewrite Ef. auto.
Qed.
Lemma void_list ts l q : c_param_list_of types ts l -> fin q -> forall z, TWord (L "void") :: TPunct ")" :: z <> ts ++ q.
Proof.
  intros H Hq z E. destruct H as [ts t td f Ht Hd|ts t td f ts2 l Ht Hd Hl]; repeat (rewrite <- !app_assoc in E; cbn [app] in E); symmetry in E;
    change (TWord (L "void") :: TPunct ")" :: z) with (map TWord [L "void"] ++ TPunct ")" :: z) in E; eapply shape_not in E; eauto using fin_stop, stop_comma; try discriminate;
    cbn in E; lia.
Qed.
Lemma params_cut ts p ts' p' r r' : c_params_of types ts p -> c_params_of types ts' p' -> ts ++ TPunct ")" :: r = ts' ++ TPunct ")" :: r' ->
  ts = ts' /\ params_values p = params_values p' /\ r = r'.
Proof.
  assert (F1 : forall z, fin (TPunct ")" :: z)) by (left; eauto). assert (F2 : forall z, fin (TPunct "," :: TPunct "..." :: z)) by (right; eauto).
  intros H H' E. destruct H as [|ts l H|ts l H], H' as [|ts' l' H'|ts' l' H']; repeat (rewrite <- !app_assoc in E; cbn [app] in E).
  - injection E as ->. auto.
  - destruct (void_list _ _ _ H' (F1 _) _ E).
  - destruct (void_list _ _ _ H' (F2 _) _ E).
  - symmetry in E. destruct (void_list _ _ _ H (F1 _) _ E).
  - destruct (param_list_cut _ _ H _ _ _ _ H' (F1 _) (F1 _) E) as (-> & El & Er). injection Er as ->. unfold params_values. cbn [cfp_list cfp_variadic]. rewrite El. auto.
  - destruct (param_list_cut _ _ H _ _ _ _ H' (F1 _) (F2 _) E) as (_ & _ & Er). discriminate.
  - symmetry in E. destruct (void_list _ _ _ H (F2 _) _ E).
  - destruct (param_list_cut _ _ H _ _ _ _ H' (F2 _) (F1 _) E) as (_ & _ & Er). discriminate.
  - destruct (param_list_cut _ _ H _ _ _ _ H' (F2 _) (F2 _) E) as (-> & El & Er). injection Er as ->. unfold params_values. cbn [cfp_list cfp_variadic]. rewrite El. auto.
Qed.
(** Without names. *)
Lemma typeform_cut ts t ts' t' r r' : c_typeform_of types ts t -> c_typeform_of types ts' t' -> punct_head r -> punct_head r' -> ts ++ r = ts' ++ r' ->
  ts = ts' /\ t = t' /\ r = r'.
Proof.
  intros [tt t0 n H] [tt' t0' n' H'] Hr Hr' E. destruct (type_words types _ _ H) as (ws & -> & -> & _ & _). destruct (type_words types _ _ H') as (ws' & -> & -> & _ & _).
  rewrite <- !app_assoc in E. destruct r as [|[w|w|w|w|op] z]; try contradiction. destruct r' as [|[w|w|w|w|op'] z']; try contradiction.
  apply words_map in E; [|destruct n; exact I|destruct n'; exact I]. destruct E as [-> E]. apply stars_cut in E; auto. destruct E as [-> ->]. auto.
Qed.
Lemma fin_punct q : fin q -> punct_head q.
Proof. intros [(z & ->)|(z & ->)]; discriminate. Qed.
Lemma anon_list_first ts l : c_anon_list_of types ts l -> exists tt t q, type_of tt t /\ ts = tt ++ q.
Proof. destruct 1 as [ts t H|ts t ts' l H]; destruct H; [eauto 6|]. do 3 eexists. split; [eassumption|]. now rewrite <- app_assoc. Qed.
Lemma anon_list_cut ts l : c_anon_list_of types ts l -> forall ts' l' q q', c_anon_list_of types ts' l' -> fin q -> fin q' -> ts ++ q = ts' ++ q' ->
  ts = ts' /\ l = l' /\ q = q'.
Proof.
  assert (C : forall z, punct_head (TPunct "," :: z)) by discriminate.
  induction 1 as [ts t Ht|ts t ts2 l Ht Hl IH]; intros ts' l' q q' H' Hq Hq' E;
    destruct H' as [ts' t' Ht'|ts' t' ts2' l' Ht' Hl']; repeat (rewrite <- !app_assoc in E; cbn [app] in E).
  - destruct (typeform_cut _ _ _ _ _ _ Ht Ht' (fin_punct _ Hq) (fin_punct _ Hq') E) as (-> & -> & ->). auto.
  - destruct (typeform_cut _ _ _ _ _ _ Ht Ht' (fin_punct _ Hq) (C _) E) as (_ & _ & Er).
    exfalso. destruct (fin_comma _ _ Hq Er) as (y & Ey). destruct (anon_list_first _ _ Hl') as (tt & t0 & q0 & Ht0 & ->). rewrite <- app_assoc in Ey. exact (type_dots _ _ _ _ Ht0 Ey).
  - destruct (typeform_cut _ _ _ _ _ _ Ht Ht' (C _) (fin_punct _ Hq') E) as (_ & _ & Er).
    exfalso. symmetry in Er. destruct (fin_comma _ _ Hq' Er) as (y & Ey). destruct (anon_list_first _ _ Hl) as (tt & t0 & q0 & Ht0 & ->). rewrite <- app_assoc in Ey. exact (type_dots _ _ _ _ Ht0 Ey).
  - destruct (typeform_cut _ _ _ _ _ _ Ht Ht' (C _) (C _) E) as (-> & -> & Er). injection Er as Er.
    destruct (IH _ _ _ _ Hl' Hq Hq' Er) as (-> & -> & ->). auto.
Qed.
Lemma void_anon ts l q z : c_anon_list_of types ts l -> fin q -> TWord (L "void") :: TPunct ")" :: z = ts ++ q -> ts = [TWord (L "void")] /\ q = TPunct ")" :: z.
Proof.
  assert (G : forall ts t q, c_typeform_of types ts t -> punct_head q -> TWord (L "void") :: TPunct ")" :: z = ts ++ q -> ts = [TWord (L "void")] /\ q = TPunct ")" :: z).
  { intros ts0 t0 q0 [tt t n H] Hq E. destruct (type_words types _ _ H) as (ws & -> & _ & _ & _). rewrite <- app_assoc in E.
    change (TWord (L "void") :: TPunct ")" :: z) with (map TWord [L "void"] ++ TPunct ")" :: z) in E.
    destruct q0 as [|[w|w|w|w|op] y]; try contradiction. apply words_map in E; [|exact I|destruct n; exact I]. destruct E as [<- E]. destruct n as [|n]; [|discriminate].
    rewrite app_nil_r. cbn [repeat app] in E. auto. }
  intros H Hq E. destruct H as [ts t H|ts t ts' l H Hl].
  - eapply G; eauto using fin_punct.
  - rewrite <- app_assoc in E. cbn [app] in E. apply (G _ _ _ H) in E; [|discriminate]. destruct E as [_ E]. discriminate.
Qed.
Lemma anon_cut ts p ts' p' r r' : c_anon_of types ts p -> c_anon_of types ts' p' -> ts ++ TPunct ")" :: r = ts' ++ TPunct ")" :: r' ->
  ts = ts' /\ p = p' /\ r = r'.
Proof.
  assert (F1 : forall z, fin (TPunct ")" :: z)) by (left; eauto). assert (F2 : forall z, fin (TPunct "," :: TPunct "..." :: z)) by (right; eauto).
  intros H H' E. destruct H as [|ts l H Hn|ts l H], H' as [|ts' l' H' Hn'|ts' l' H']; repeat (rewrite <- !app_assoc in E; cbn [app] in E).
  - injection E as ->. auto.
  - destruct (void_anon _ _ _ _ H' (F1 _) E) as [-> _]. contradiction.
  - destruct (void_anon _ _ _ _ H' (F2 _) E) as [_ Er]. discriminate.
  - symmetry in E. destruct (void_anon _ _ _ _ H (F1 _) E) as [-> _]. contradiction.
  - destruct (anon_list_cut _ _ H _ _ _ _ H' (F1 _) (F1 _) E) as (-> & -> & Er). injection Er as ->. auto.
  - destruct (anon_list_cut _ _ H _ _ _ _ H' (F1 _) (F2 _) E) as (_ & _ & Er). discriminate.
  - symmetry in E. destruct (void_anon _ _ _ _ H (F2 _) E) as [_ Er]. discriminate.
  - destruct (anon_list_cut _ _ H _ _ _ _ H' (F2 _) (F1 _) E) as (_ & _ & Er). discriminate.
  - destruct (anon_list_cut _ _ H _ _ _ _ H' (F2 _) (F2 _) E) as (-> & -> & Er). injection Er as ->. auto.
Qed.

(** ** Members *)
Lemma fields_first ts l : c_fields_of types ts l -> exists tt t q, type_of tt t /\ ts = tt ++ q.
Proof. destruct 1; eauto 6. Qed.
Lemma type_brace tt t q z : type_of tt t -> tt ++ q <> TPunct "}" :: z.
Proof. intros Ht E. pose proof (type_start_app' types tt t q Ht) as H. rewrite E in H. discriminate. Qed.
Lemma fields_cut ts l : c_fields_of types ts l -> forall ts' l' r r', c_fields_of types ts' l' -> ts ++ TPunct "}" :: r = ts' ++ TPunct "}" :: r' ->
  ts = ts' /\ map field_values l = map field_values l' /\ r = r'.
Proof.
  induction 1 as [ts t td f Ht Hd|ts t td f ts2 l Ht Hd Hl IH]; intros ts' l' r r' H' E;
    destruct H' as [ts' t' td' f' Ht' Hd'|ts' t' td' f' ts2' l' Ht' Hd' Hl']; repeat (rewrite <- !app_assoc in E; cbn [app] in E);
    destruct (declared_cut types sane _ _ _ _ _ _ _ _ _ _ Ht Hd Ht' Hd' (stop_semi _) (stop_semi _) E) as (-> & -> & -> & Ef & Er); injection Er as Er.
  - subst. unfold field_values. cbn [map fst snd]. rewrite Ef. auto.
  - exfalso. destruct (fields_first _ _ Hl') as (tt & t0 & q0 & Ht0 & ->). rewrite <- app_assoc in Er. symmetry in Er. exact (type_brace _ _ _ _ Ht0 Er).
  - exfalso. destruct (fields_first _ _ Hl) as (tt & t0 & q0 & Ht0 & ->). rewrite <- app_assoc in Er. exact (type_brace _ _ _ _ Ht0 Er).
  - destruct (IH _ _ _ _ Hl' Er) as (-> & El & ->). cbn [map]. rewrite El. unfold field_values at 1 3. cbn [fst snd]. rewrite Ef. auto.
Qed.
Lemma union_shape tt t td f z q : type_of tt t -> declarator_of td f -> TWord (L "union") :: TPunct "{" :: z <> tt ++ td ++ TPunct ";" :: q.
Proof.
  intros Ht Hd E. symmetry in E. change (TWord (L "union") :: TPunct "{" :: z) with (map TWord [L "union"] ++ TPunct "{" :: z) in E.
  eapply shape_not in E; eauto using stop_semi; try discriminate. destruct E. discriminate.
Qed.
Lemma member_cut ts m ts' m' r r' : c_member_of types ts m -> c_member_of types ts' m' -> ts ++ r = ts' ++ r' ->
  ts = ts' /\ member_values m = member_values m' /\ r = r'.
Proof.
  intros H H' E. destruct H as [ts t td f Ht Hd|ts l td f Hl Hd], H' as [ts' t' td' f' Ht' Hd'|ts' l' td' f' Hl' Hd']; repeat (rewrite <- !app_assoc in E; cbn [app] in E).
  - destruct (declared_cut types sane _ _ _ _ _ _ _ _ _ _ Ht Hd Ht' Hd' (stop_semi _) (stop_semi _) E) as (-> & -> & -> & Ef & Er). injection Er as ->.
    cbn [member_values]. unfold typeform_values. cbn [ctf_type ctf_form]. rewrite Ef. auto.
  - symmetry in E. destruct (union_shape _ _ _ _ _ _ Ht Hd E).
  - destruct (union_shape _ _ _ _ _ _ Ht' Hd' E).
  - injection E as E. repeat (rewrite <- !app_assoc in E; cbn [app] in E). destruct (fields_cut _ _ Hl _ _ _ _ Hl' E) as (-> & El & Er).
    destruct (declarator_cut types sane _ _ _ _ _ _ Hd Hd' (stop_semi _) (stop_semi _) Er) as (-> & Ef & Er'). injection Er' as ->. cbn [member_values]. rewrite El, Ef. auto.
Qed.
Lemma members_first ts l r : c_members_of types ts l -> forall z, ts ++ r <> TPunct "}" :: z.
Proof.
  intros H z. assert (G : forall ts m q, c_member_of types ts m -> ts ++ q <> TPunct "}" :: z).
  { intros ts0 m q [tt t td f Ht Hd|ts1 l1 td f Hl Hd]; [|discriminate]. rewrite <- app_assoc. now apply (type_brace _ t). }
  destruct H as [ts m H|ts m ts' l H]; [eauto|]. rewrite <- app_assoc. eauto.
Qed.
Lemma members_cut ts l : c_members_of types ts l -> forall ts' l' r r', c_members_of types ts' l' -> ts ++ TPunct "}" :: r = ts' ++ TPunct "}" :: r' ->
  ts = ts' /\ map member_values l = map member_values l' /\ r = r'.
Proof.
  induction 1 as [ts m Hm|ts m ts2 l Hm Hl IH]; intros ts' l' r r' H' E; destruct H' as [ts' m' Hm'|ts' m' ts2' l' Hm' Hl']; rewrite <- ?app_assoc in E;
    destruct (member_cut _ _ _ _ _ _ Hm Hm' E) as (-> & Em & Er).
  - injection Er as ->. cbn [map]. rewrite Em. auto.
  - symmetry in Er. destruct (members_first _ _ _ Hl' _ Er).
  - destruct (members_first _ _ _ Hl _ Er).
  - destruct (IH _ _ _ _ Hl' Er) as (-> & El & ->). cbn [map]. rewrite El, Em. auto.
Qed.
Lemma enumerators_cut : forall ts l, c_enumerators_of types ts l -> forall ts' l' r r', c_enumerators_of types ts' l' -> ts ++ TPunct "}" :: r = ts' ++ TPunct "}" :: r' ->
  ts = ts' /\ map enumerator_values l = map enumerator_values l' /\ r = r'.
Proof.
  assert (G : forall ts m ts' m' op op' r r', c_enumerator_of types ts m -> c_enumerator_of types ts' m' -> ts ++ TPunct op :: r = ts' ++ TPunct op' :: r' ->
    In op closers -> In op' closers -> ts = ts' /\ enumerator_values m = enumerator_values m' /\ op = op' /\ r = r').
  { intros ts m ts' m' op op' r r' H H' E Ho Ho'. destruct H as [x Hx|x ts e Hx He], H' as [x' Hx'|x' ts' e' Hx' He']; cbn [app] in E.
    - injection E as -> -> ->. auto.
    - injection E as -> -> _. exfalso. cbn in Ho. intuition discriminate.
    - injection E as -> <- _. exfalso. cbn in Ho'. intuition discriminate.
    - injection E as -> E. destruct (expr_cut types sane 3 3 _ _ _ _ _ _ _ _ He He' E) as (-> & Ev & -> & ->); auto. unfold enumerator_values. cbn [fst snd option_map]. rewrite Ev. auto. }
  induction 1 as [ts m Hm|ts m ts2 l Hm Hl IH]; intros ts' l' r r' H' E; destruct H' as [ts' m' Hm'|ts' m' ts2' l' Hm' Hl']; rewrite <- ?app_assoc in E; cbn [app] in E;
    destruct (G _ _ _ _ _ _ _ _ Hm Hm' E) as (-> & Em & Eo & Er); try (cbn; tauto); try discriminate.
  - subst. cbn [map]. rewrite Em. auto.
  - destruct (IH _ _ _ _ Hl' Er) as (-> & El & ->). cbn [map]. rewrite El, Em. auto.
Qed.

(** ** External declarations *)
Lemma typedef_params_cut tp p tz z tp' p' tz' z' r r' : c_typedef_params_of types tp p -> c_size_of types tz z -> c_typedef_params_of types tp' p' -> c_size_of types tz' z' ->
  tp ++ tz ++ TPunct ";" :: r = tp' ++ tz' ++ TPunct ";" :: r' -> tp = tp' /\ p = p' /\ tz = tz' /\ option_map values z = option_map values z' /\ r = r'.
Proof.
  intros Hp Hz Hp' Hz' E. assert (G : tp = tp' /\ p = p' /\ tz ++ TPunct ";" :: r = tz' ++ TPunct ";" :: r').
  { destruct Hp as [|tp p Hp], Hp' as [|tp' p' Hp']; cbn [app] in E; repeat (rewrite <- !app_assoc in E; cbn [app] in E).
    - auto.
    - destruct Hz; discriminate.
    - destruct Hz'; discriminate.
    - injection E as E. destruct (anon_cut _ _ _ _ _ _ Hp Hp' E) as (-> & -> & Er). auto. }
  destruct G as (-> & -> & G). split; [reflexivity|]. split; [reflexivity|]. destruct Hz as [|tz e Hz], Hz' as [|tz' e' Hz']; cbn [app] in G; try discriminate.
  - injection G as ->. auto.
  - injection G as G. rewrite <- !app_assoc in G. cbn [app] in G. destruct (expr_cut types sane 2 2 _ _ _ _ _ _ _ _ Hz Hz' G) as (-> & Ev & _ & Er); [lia|lia|cbn; tauto|cbn; tauto|].
    injection Er as ->. cbn [option_map]. rewrite Ev. auto.
Qed.
Lemma typedef_stop tp p tz z r : c_typedef_params_of types tp p -> c_size_of types tz z -> punct_head (tp ++ tz ++ TPunct ";" :: r).
Proof. intros [|] [|]; discriminate. Qed.
(** The declarations that start with a type. *)
Inductive typed_rest : list ctok -> (bool -> ctypename -> cform -> cext) -> Prop :=
| Tr_var ts v : c_init_of types ts v -> typed_rest (TPunct "=" :: ts ++ [TPunct ";"]) (fun b t f => EVar b t f v)
| Tr_proto ts p : c_params_of types ts p -> typed_rest (TPunct "(" :: ts ++ [TPunct ")"; TPunct ";"]) (fun b t f => EProto b t f p)
| Tr_func ts p ti l : c_params_of types ts p -> c_items_of types ti l ->
    typed_rest (TPunct "(" :: ts ++ TPunct ")" :: TPunct "{" :: ti ++ [TPunct "}"]) (fun b t f => EFunc b t f p l).
Definition typed_ext (ts : list ctok) (d : cext) : Prop := exists tb b tt t td f tr g,
  ts = tb ++ tt ++ td ++ tr /\ c_static_of tb b /\ type_of tt t /\ declarator_of td f /\ typed_rest tr g /\ d = g b t f.
Inductive plain_ext : list ctok -> cext -> Prop :=
| Pe_typedef ts t n x tp p tz z : type_of ts t -> types x = true -> c_typedef_params_of types tp p -> c_size_of types tz z ->
    plain_ext (TWord (L "typedef") :: ts ++ repeat (TPunct "*") n ++ TWord x :: tp ++ tz ++ [TPunct ";"]) (ETypedef t n x p z)
| Pe_struct_name x : plain_ext [TWord (L "struct"); TWord x; TPunct ";"] (EStructName x)
| Pe_struct x ts l : c_members_of types ts l ->
    plain_ext (TWord (L "struct") :: TWord x :: TPunct "{" :: ts ++ [TPunct "}"; TPunct ";"]) (EStruct x l)
| Pe_enum ts l : c_enumerators_of types ts l ->
    plain_ext (TWord (L "enum") :: TPunct "{" :: ts ++ [TPunct "}"; TPunct ";"]) (EEnum l).
Lemma ext_cases ts d : c_ext_of types ts d -> plain_ext ts d \/ typed_ext ts d.
Proof.
  destruct 1; [left; now constructor..| | |]; right.
  - exists tb, b, ts, t, ts', f, (TPunct "=" :: ts'' ++ [TPunct ";"]), (fun b t f => EVar b t f v). repeat (split; [eassumption || reflexivity|]). split; [now apply Tr_var|reflexivity].
  - exists tb, b, ts, t, ts', f, (TPunct "(" :: tp ++ [TPunct ")"; TPunct ";"]), (fun b t f => EProto b t f p). repeat (split; [eassumption || reflexivity|]). split; [now apply Tr_proto|reflexivity].
  - exists tb, b, ts, t, ts', f, (TPunct "(" :: tp ++ TPunct ")" :: TPunct "{" :: ti ++ [TPunct "}"]), (fun b t f => EFunc b t f p l).
    repeat (split; [eassumption || reflexivity|]). split; [now apply Tr_func|reflexivity].
Qed.
Lemma rest_stop tr g r : typed_rest tr g -> stop (tr ++ r).
Proof. destruct 1; cbn; split; discriminate. Qed.
Lemma rest_cut tr g tr' g' r r' : typed_rest tr g -> typed_rest tr' g' -> tr ++ r = tr' ++ r' ->
  tr = tr' /\ r = r' /\ forall b t f f', form_values f = form_values f' -> ext_values (g b t f) = ext_values (g' b t f').
Proof.
  intros H H' E. destruct H as [ts v H|ts p H|ts p ti l H Hi], H' as [ts' v' H'|ts' p' H'|ts' p' ti' l' H' Hi']; try discriminate E;
    injection E as E; repeat (rewrite <- !app_assoc in E; cbn [app] in E).
  - destruct (init_cut types sane _ _ _ _ _ _ _ _ H H' E) as (-> & Ev & _ & ->); [cbn; tauto|cbn; tauto|]. split; [reflexivity|]. split; [reflexivity|].
    intros b t f f' Ef. cbn [ext_values]. now rewrite Ev, Ef.
  - destruct (params_cut _ _ _ _ _ _ H H' E) as (-> & Ep & Er). injection Er as ->. split; [reflexivity|]. split; [reflexivity|].
    intros b t f f' Ef. cbn [ext_values]. now rewrite Ep, Ef.
  - destruct (params_cut _ _ _ _ _ _ H H' E) as (_ & _ & Er). discriminate.
  - destruct (params_cut _ _ _ _ _ _ H H' E) as (_ & _ & Er). discriminate.
  - destruct (params_cut _ _ _ _ _ _ H H' E) as (-> & Ep & Er). injection Er as Er.
    destruct (items_cut types sane _ _ _ _ _ _ Hi Hi' Er) as (-> & Ei & ->). split; [reflexivity|]. split; [reflexivity|].
    intros b t f f' Ef. cbn [ext_values]. now rewrite Ep, Ef, Ei.
Qed.
Lemma typed_cut ts d ts' d' r r' : typed_ext ts d -> typed_ext ts' d' -> ts ++ r = ts' ++ r' -> ts = ts' /\ ext_values d = ext_values d' /\ r = r'.
Proof.
  intros (tb & b & tt & t & td & f & tr & g & -> & Hb & Ht & Hd & Hg & ->) (tb' & b' & tt' & t' & td' & f' & tr' & g' & -> & Hb' & Ht' & Hd' & Hg' & ->) E.
  rewrite <- !app_assoc in E.
  assert (S0 : forall tt t q z, type_of tt t -> TWord (L "static") :: z <> tt ++ q).
  { intros t1 t0 q z H Ex. pose proof (type_start_app' types t1 t0 q H) as Hs. rewrite <- Ex in Hs. cbn [type_start] in Hs.
    rewrite (sane "static"%string) in Hs by (cbn; tauto). discriminate. }
  assert (G : tb = tb' /\ b = b' /\ tt ++ td ++ tr ++ r = tt' ++ td' ++ tr' ++ r').
  { unfold c_static_of in *. destruct b, b'; subst tb tb'; cbn [app] in E.
    - injection E as E. auto.
    - destruct (S0 _ _ _ _ Ht' E).
    - symmetry in E. destruct (S0 _ _ _ _ Ht E).
    - auto. }
  destruct G as (-> & -> & G). destruct (declared_cut types sane _ _ _ _ _ _ _ _ _ _ Ht Hd Ht' Hd' (rest_stop _ _ _ Hg) (rest_stop _ _ _ Hg') G) as (-> & -> & -> & Ef & Er).
  destruct (rest_cut _ _ _ _ _ _ Hg Hg' Er) as (-> & -> & Ev). auto.
Qed.
Lemma plain_typed ts d ts' d' r r' : plain_ext ts d -> typed_ext ts' d' -> ts ++ r <> ts' ++ r'.
Proof.
  intros H (tb & b & tt & t & td & f & tr & g & -> & Hb & Ht & Hd & Hg & ->) E.
  assert (K : forall w z, In w not_types -> w <> "static"%string -> TWord (lit w) :: z <> (tb ++ tt ++ td ++ tr) ++ r').
  { intros w z Hw Hs Ex. rewrite <- !app_assoc in Ex. unfold c_static_of in Hb. destruct b; subst tb; cbn [app] in Ex.
    - injection Ex as Ex _. unfold not_types in Hw. cases Hw; subst; try discriminate Ex. now destruct Hs.
    - pose proof (type_start_app' types tt t (td ++ tr ++ r') Ht) as Hy. rewrite <- Ex in Hy. cbn [type_start] in Hy. rewrite (sane w Hw) in Hy. cbn in Hy.
      apply str_eqb_eq in Hy. unfold not_types in Hw. cases Hw; subst; discriminate. }
  assert (N : forall w ws op z, w <> L "static" -> op <> "*"%string -> op <> "["%string -> op <> "="%string -> op <> "("%string ->
    map TWord (w :: ws) ++ TPunct op :: z <> (tb ++ tt ++ td ++ tr) ++ r').
  { intros w ws op z Hw H1 H2 H3 H4 Ex. rewrite <- !app_assoc in Ex. unfold c_static_of in Hb. destruct b; subst tb; cbn [app] in Ex.
    - injection Ex as Ex _. contradiction.
    - symmetry in Ex. destruct (shape_not _ _ _ _ _ _ _ _ Ht Hd (rest_stop _ _ r' Hg) Ex H1 H2) as [_ Er]. destruct Hg; injection Er as Er _; congruence. }
  destruct H as [ts t0 n x tp p tz z Ht0 Hx Hp Hz|x|x ts l Hl|ts l Hl].
  - cbn [app] in E. refine (K "typedef"%string _ _ _ E); [cbn; tauto|discriminate].
  - refine (N (L "struct") [x] ";"%string _ _ _ _ _ _ E); discriminate.
  - refine (N (L "struct") [x] "{"%string _ _ _ _ _ _ E); discriminate.
  - refine (N (L "enum") [] "{"%string _ _ _ _ _ _ E); discriminate.
Qed.
Lemma plain_cut ts d ts' d' r r' : plain_ext ts d -> plain_ext ts' d' -> ts ++ r = ts' ++ r' -> ts = ts' /\ ext_values d = ext_values d' /\ r = r'.
Proof.
  intros H H' E. destruct H as [ts t n x tp p tz z Ht Hx Hp Hz|x|x ts l Hl|ts l Hl], H' as [ts' t' n' x' tp' p' tz' z' Ht' Hx' Hp' Hz'|x'|x' ts' l' Hl'|ts' l' Hl']; try discriminate E.
  - injection E as E. repeat (rewrite <- !app_assoc in E; cbn [app] in E). destruct (type_words types _ _ Ht) as (ws & -> & -> & _ & _). destruct (type_words types _ _ Ht') as (ws' & -> & -> & _ & _).
    apply named_cut in E; [|eapply typedef_stop; eauto|eapply typedef_stop; eauto]. destruct E as (-> & -> & -> & E).
    destruct (typedef_params_cut _ _ _ _ _ _ _ _ _ _ Hp Hz Hp' Hz' E) as (-> & -> & -> & Ez & ->). cbn [ext_values]. rewrite Ez. auto.
  - injection E as -> ->. auto.
  - injection E as -> E. repeat (rewrite <- !app_assoc in E; cbn [app] in E). destruct (members_cut _ _ Hl _ _ _ _ Hl' E) as (-> & El & Er). injection Er as ->. cbn [ext_values]. rewrite El. auto.
  - injection E as E. repeat (rewrite <- !app_assoc in E; cbn [app] in E). destruct (enumerators_cut _ _ Hl _ _ _ _ Hl' E) as (-> & El & Er). injection Er as ->. cbn [ext_values]. rewrite El. auto.
Qed.
Lemma ext_cut ts d ts' d' r r' : c_ext_of types ts d -> c_ext_of types ts' d' -> ts ++ r = ts' ++ r' -> ts = ts' /\ ext_values d = ext_values d' /\ r = r'.
Proof.
  intros H H' E. destruct (ext_cases _ _ H) as [G|G], (ext_cases _ _ H') as [G'|G'].
  - eapply plain_cut; eauto.
  - destruct (plain_typed _ _ _ _ _ _ G G' E).
  - symmetry in E. destruct (plain_typed _ _ _ _ _ _ G' G E).
  - eapply typed_cut; eauto.
Qed.
(** ** Files *)
Fixpoint leading (ps : list piece) : list ctok := match ps with PTok t :: r => t :: leading r | _ => [] end.
Lemma leading_app ts ps : leading (map PTok ts ++ ps) = ts ++ leading ps.
Proof. induction ts as [|t ts IH]; cbn; [reflexivity|now rewrite IH]. Qed.
Lemma ext_nonempty ts d : c_ext_of types ts d -> ts <> [].
Proof.
  intros H ->. inversion H as [| | | |tb b ts t ts' f ts'' v Hb Ht Hf Hv E|tb b ts t ts' f tp p Hb Ht Hf Hv E|tb b ts t ts' f tp p ti l Hb Ht Hf Hv Hi E]; subst;
    destruct tb; try discriminate; destruct ts; try discriminate; destruct ts'; discriminate.
Qed.
Theorem file_unique ps us : c_file_of types ps us -> forall us', c_file_of types ps us' -> map unit_values us = map unit_values us'.
Proof.
  induction 1 as [|s ps us H IH|ts d ps us Hd H IH]; intros us' H'.
  - inversion H' as [E1 E2|s' ps' us1 H1 E1 E2|ts' d' ps' us1 Hd' H1 E1 E2]; subst; [reflexivity|]. apply app_eq_nil in E1 as [E1 _]. apply map_eq_nil in E1. subst. now apply ext_nonempty in Hd'.
  - inversion H' as [E1 E2|s' ps' us1 H1 E1 E2|ts' d' ps' us1 Hd' H1 E1 E2]; subst.
    + cbn [map]. now rewrite (IH _ H1).
    + exfalso. pose proof (ext_nonempty _ _ Hd'). destruct ts'; [contradiction|discriminate].
  - inversion H' as [E1 E2|s' ps' us1 H1 E1 E2|ts' d' ps' us1 Hd' H1 E1 E2]; subst.
    + exfalso. symmetry in E1. apply app_eq_nil in E1 as [E1 _]. apply map_eq_nil in E1. subst. now apply ext_nonempty in Hd.
    + exfalso. pose proof (ext_nonempty _ _ Hd). destruct ts; [contradiction|discriminate].
    + assert (E : ts ++ leading ps = ts' ++ leading ps') by (rewrite <- !leading_app; now rewrite E1).
      destruct (ext_cut _ _ _ _ _ _ Hd Hd' E) as (-> & Ed & _). apply app_inv_head in E1. subst. cbn [map unit_values]. now rewrite Ed, (IH _ H1).
Qed.
End Unique.
