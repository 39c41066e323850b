(** Addresses and the heads of CGI answers. *)
From Coq Require Import ZArith Lia List.
From Verif Require Import LibBase LibIO LibText LibTok LibUrl SpecIO SpecText SpecTok SpecHttp SpecUrl PropIO PropTok PropHttp.
Import ListNotations.

Notation at' := (at_ (fun s : bytes => s)).
Lemma H1 : reads mem_read (fun s : bytes => s).
Proof. exact (proj1 mem_reads_fully). Qed.

Lemma none_at : forall stops t d s, at' t d s ->
  exists t', url_none t stops = (match s with c :: _ => negb (existsb (N.eqb c) stops) | [] => true end, t') /\ at' t' d s.
Proof.
  induction stops as [|c stops IH]; intros t d s A; cbn [url_none].
  - exists t. destruct s; auto.
  - destruct (peek_at mem_read _ H1 t d s A) as (t1 & -> & A1). rewrite next_eqb. destruct (IH t1 d s A1) as (t2 & E & A2).
    destruct s as [|x s]; [exists t2; auto|]. cbn [existsb]. destruct (N.eqb_spec x c) as [->|]; [exists t1; auto|]. exists t2. auto.
Qed.
Lemma in_stops : forall stops c, existsb (N.eqb c) stops = true <-> In c stops.
Proof.
  intros stops c. rewrite existsb_exists. split.
  - intros (x & Hx & E). apply N.eqb_eq in E. subst. exact Hx.
  - intros H. exists c. split; [exact H|apply N.eqb_refl].
Qed.
Definition ends (stops r : bytes) : Prop := match r with [] => True | c :: _ => In c stops end.

Lemma upto_at : forall stops n x r t d fuel buf, at' t d (x ++ r) -> Forall is_byte x -> lacks stops x -> ends stops r -> List.length x < fuel ->
  (N.of_nat (List.length buf) < n)%N ->
  if (N.of_nat (List.length buf + List.length x) <? n)%N
  then exists t', url_upto fuel t stops buf n = ROk (buf ++ x, t') /\ at' t' (d ++ x) r
  else url_upto fuel t stops buf n = RUndefined.
Proof.
  intros stops n. induction x as [|c x IH]; intros r t d fuel buf A Hb Hs He Hf Hl; (destruct fuel as [|fuel]; [simpl in Hf; lia|]); cbn [url_upto].
  - destruct (N.ltb_spec (N.of_nat (List.length buf + List.length (@nil N))) n); [|simpl in *; lia]. rewrite !app_nil_r. cbn [app] in A.
    destruct (more_at mem_read _ H1 t d r A) as (t0 & -> & A0). destruct r as [|c r]; cbn [negb]; [exists t0; auto|].
    destruct (none_at stops t0 d _ A0) as (t1 & -> & A1). cbn [ends] in He. apply in_stops in He. rewrite He. cbn [negb]. exists t1. auto.
  - cbn [app] in A. destruct (more_at mem_read _ H1 t d _ A) as (t0 & -> & A0). cbn [negb].
    destruct (none_at stops t0 d _ A0) as (t1 & -> & A1).
    assert (E : existsb (N.eqb c) stops = false).
    { destruct (existsb (N.eqb c) stops) eqn:E; [|reflexivity]. apply in_stops in E. exfalso. exact (Hs c (or_introl eq_refl) E). }
    rewrite E. cbn [negb]. destruct (get_at mem_read _ H1 t1 d c _ A1) as (t2 & -> & A2). rewrite (z_byte_of c (Forall_inv Hb)).
    cbn [List.length] in *. destruct (N.ltb_spec (N.of_nat (List.length buf) + 1) n) as [Hlt|Hge].
    + assert (Hs' : lacks stops x) by (intros y Hy; apply Hs; right; exact Hy).
      assert (K := IH r t2 _ fuel (buf ++ [c]) A2 (Forall_inv_tail Hb) Hs' He ltac:(lia) ltac:(rewrite app_length; simpl; lia)).
      rewrite app_length in K. cbn [List.length] in K. replace (List.length buf + 1 + List.length x) with (List.length buf + S (List.length x)) in K by lia.
      destruct (N.ltb_spec (N.of_nat (List.length buf + S (List.length x))) n); [|exact K].
      destruct K as (t3 & -> & A3). exists t3. rewrite <- !app_assoc in *. auto.
    + destruct (N.ltb_spec (N.of_nat (List.length buf + S (List.length x))) n); [lia|reflexivity].
Qed.
Lemma split_at : forall stops s, exists x r, s = x ++ r /\ lacks stops x /\ ends stops r.
Proof.
  intros stops. induction s as [|c s (x & r & -> & Hx & Hr0)]; [exists [], []; split; [reflexivity|]; split; [intros ? []|exact I]|].
  destruct (existsb (N.eqb c) stops) eqn:E.
  - exists [], (c :: x ++ r). split; [reflexivity|]. split; [intros ? []|]. apply in_stops. exact E.
  - exists (c :: x), r. split; [reflexivity|]. split; [|exact Hr0]. intros y [<-|Hy]; [|exact (Hx y Hy)].
    intros Hi. apply in_stops in Hi. congruence.
Qed.
Lemma split_same : forall stops x r y q, lacks stops x -> ends stops r -> lacks stops y -> ends stops q -> x ++ r = y ++ q -> x = y /\ r = q.
Proof.
  intros stops. induction x as [|c x IH]; intros r [|e y] q Hx Hr0 Hy Hq E; cbn [app] in E.
  - auto.
  - subst r. cbn in Hr0. destruct (Hy e (or_introl eq_refl) Hr0).
  - subst q. cbn in Hq. destruct (Hx c (or_introl eq_refl) Hq).
  - injection E as -> E. destruct (IH r y q) as [-> ->]; auto; intros z Hz; [apply Hx|apply Hy]; right; exact Hz.
Qed.
Lemma gets_at : forall l t d s, at' t d s -> Forall is_byte l ->
  exists t', (exists q, s = l ++ q /\ url_gets t l = (true, t') /\ at' t' (d ++ l) q) \/ ((forall q, s <> l ++ q) /\ url_gets t l = (false, t')).
Proof.
  induction l as [|c l IH]; intros t d s A Hb; cbn [url_gets].
  - exists t. left. exists s. rewrite app_nil_r. auto.
  - destruct s as [|x s].
    + destruct (get_end mem_read _ H1 t d A) as (t1 & -> & _). destruct (Z.eqb_spec (-1) (Z.of_N c)); [lia|]. cbn [negb]. exists t1. right. split; [discriminate|reflexivity].
    + destruct (get_at mem_read _ H1 t d x s A) as (t1 & -> & A1). destruct (Z.eqb_spec (Z.of_N x) (Z.of_N c)) as [E|E]; cbn [negb].
      * apply N2Z.inj in E. subst x. destruct (IH t1 _ s A1 (Forall_inv_tail Hb)) as (t2 & [(q & -> & -> & A2)|(K & ->)]); exists t2.
        -- left. exists q. rewrite <- app_assoc in A2. auto.
        -- right. split; [|reflexivity]. intros q E. injection E as E. exact (K q E).
      * exists t1. right. split; [|reflexivity]. intros q K. injection K as K _. apply E. rewrite K. reflexivity.
Qed.

Lemma url_parts_once : forall s a b c d a' b' c' d', url_parts s a b c d -> url_parts s a' b' c' d' -> a = a' /\ b = b' /\ c = c' /\ d = d'.
Proof.
  assert (W : forall c d p, lacks (L "/") c -> (p = L ":" ++ c \/ p = [] /\ c = []) -> (d = [] \/ exists r, d = L "/" ++ r) -> ends (L ":/") (p ++ d)).
  { intros c d p _ [->|[-> ->]] [->|[r ->]]; cbn; auto. }
  intros s a b c d a' b' c' d' (p & E & Ha & Hb & Hc & Hp & Hd) (p' & E' & Ha' & Hb' & Hc' & Hp' & Hd').
  rewrite E in E'. apply (split_same (L ":")) in E'; [|exact Ha|left; reflexivity|exact Ha'|left; reflexivity]. destruct E' as [-> E2].
  apply app_inv_head in E2. apply (split_same (L ":/")) in E2; [|exact Hb|exact (W c d p Hc Hp Hd)|exact Hb'|exact (W c' d' p' Hc' Hp' Hd')].
  destruct E2 as [-> E3]. split; [reflexivity|]. split; [reflexivity|].
  assert (G : ends (L "/") d) by (destruct Hd as [->|[r ->]]; cbn; auto). assert (G' : ends (L "/") d') by (destruct Hd' as [->|[r ->]]; cbn; auto).
  destruct Hp as [->|[-> ->]], Hp' as [->|[-> ->]]; cbn [app] in E3.
  - injection E3 as E3. apply (split_same (L "/")) in E3; auto.
  - destruct Hd' as [->|[r ->]]; discriminate.
  - destruct Hd as [->|[r ->]]; discriminate.
  - auto.
Qed.

(** [parse] gives the parts of an address; without room for them C does not say what happens. *)
Theorem C101_url : forall s, plain s ->
  (forall a b c d, url_parts s a b c d -> url_fits a b c d ->
     url_parse s = ROk (Some (mkUrl a b c (match d with [] => L "/" | _ => d end)))) /\
  (forall u, url_parse s = ROk (Some u) -> exists d, url_parts s (ur_schema u) (ur_hostname u) (ur_port u) d /\
     ur_path u = match d with [] => L "/" | _ => d end) /\
  (url_parse s = ROk None -> forall a b c d, ~ url_parts s a b c d) /\
  ((exists u, url_parse s = ROk u) \/
   (url_parse s = RUndefined /\
    ((exists a r, s = a ++ r /\ lacks (L ":") a /\ ~ upto 9 a) \/ exists a b c d, url_parts s a b c d /\ ~ url_fits a b c d))).
Proof.
  intros s Hs. set (F := S (List.length s)).
  destruct (split_at (L ":") s) as (a & r1 & E1 & Ha & He1).
  assert (B1 := Hs). rewrite E1 in B1. apply plain_app in B1. destruct B1 as [Ba B1].
  assert (A0 : at' (tok_new s) [] (a ++ r1)) by (rewrite <- E1; apply new_at).
  assert (La : List.length a < F) by (unfold F; rewrite E1, app_length; lia).
  pose proof (upto_at (L ":") 10 a r1 _ _ F [] A0 (proj1 Ba) Ha He1 La ltac:(simpl; lia)) as K1. cbn [List.length plus app] in K1.
  destruct (N.ltb_spec (N.of_nat (List.length a)) 10) as [U1|U1].
  2: { assert (X : url_parse s = RUndefined) by (unfold url_parse; fold F; cbv zeta; rewrite K1; reflexivity). rewrite X.
       split; [|split; [discriminate|split; [discriminate|]]].
       - intros a' b c d (p & E & Ha' & _) [Ua _]. rewrite E1 in E. apply (split_same (L ":")) in E; [|exact Ha|exact He1|exact Ha'|left; reflexivity].
         destruct E as [<- _]. unfold upto in Ua. lia.
       - right. split; [reflexivity|]. left. exists a, r1. split; [exact E1|]. split; [exact Ha|]. unfold upto. lia. }
  destruct K1 as (t1 & K1 & A1).
  destruct (gets_at (L "://") t1 _ r1 A1) as (t2 & [(q & -> & K2 & A2)|(Hn & K2)]); [repeat constructor| |].
  2: { assert (X : url_parse s = ROk None) by (unfold url_parse; fold F; cbv zeta; rewrite K1; cbn [rbind]; rewrite K2; reflexivity). rewrite X.
       assert (Y : forall a b c d, ~ url_parts s a b c d).
       { intros a' b c d (p & E & Ha' & _). rewrite E1 in E. apply (split_same (L ":")) in E; [|exact Ha|exact He1|exact Ha'|left; reflexivity].
         destruct E as [_ E]. exact (Hn _ E). }
       split; [intros a' b c d K; destruct (Y _ _ _ _ K)|]. split; [discriminate|]. split; [intros _; exact Y|]. left. exists None. reflexivity. }
  destruct (split_at (L ":/") q) as (b & r2 & -> & Hb & He2).
  apply plain_app in B1. destruct B1 as [_ B1]. apply plain_app in B1. destruct B1 as [Bb B2].
  assert (Lb : List.length b < F) by (unfold F; rewrite E1, !app_length; unfold char; lia).
  pose proof (upto_at (L ":/") 100 b r2 _ _ F [] A2 (proj1 Bb) Hb He2 Lb ltac:(simpl; lia)) as K3. cbn [List.length plus app] in K3.
  assert (D : exists c d p, r2 = p ++ d /\ lacks (L "/") c /\ (p = L ":" ++ c \/ (p = [] /\ c = [])) /\ (d = [] \/ exists r, d = L "/" ++ r)).
  { destruct r2 as [|x r2]; [exists [], [], []; split; [reflexivity|]; split; [intros ? []|]; split; [right; auto|left; reflexivity]|].
    destruct He2 as [<-|[<-|[]]].
    - destruct (split_at (L "/") r2) as (c & d & -> & Hc & Hd). exists c, d, (L ":" ++ c). split; [reflexivity|]. split; [exact Hc|].
      split; [left; reflexivity|]. destruct d as [|y d]; [left; reflexivity|]. destruct Hd as [<-|[]]. right. exists d. reflexivity.
    - exists [], (47%N :: r2), []. split; [reflexivity|]. split; [intros ? []|]. split; [right; auto|]. right. exists r2. reflexivity. }
  destruct D as (c & d & p & -> & Hc & Hp & Hd).
  assert (P : url_parts s a b c d).
  { exists p. split; [rewrite E1; reflexivity|]. auto. }
  assert (X : (url_fits a b c d /\ url_parse s = ROk (Some (mkUrl a b c (match d with [] => L "/" | _ => d end)))) \/
              (~ url_fits a b c d /\ url_parse s = RUndefined)).
  { unfold url_parse. fold F. cbv zeta. rewrite K1. cbn [rbind]. rewrite K2. cbn [negb].
    destruct (N.ltb_spec (N.of_nat (List.length b)) 100) as [U2|U2].
    2: { right. rewrite K3. split; [|reflexivity]. intros (_ & U & _). unfold upto in U. lia. }
    destruct K3 as (t3 & -> & A3). cbn [rbind]. destruct (peek_at mem_read _ H1 t3 _ _ A3) as (t4 & -> & A4).
    change 58%Z with (Z.of_N 58). rewrite next_eqb.
    assert (Bc : plain c /\ plain d).
    { apply plain_app in B2. destruct B2 as [B2 B3]. split; [|exact B3]. destruct Hp as [->|[-> ->]]; [|exact B2]. apply plain_app in B2. exact (proj2 B2). }
    assert (Lcd : List.length c < F /\ List.length d < F).
    { unfold F. rewrite E1, !app_length. destruct Hp as [->|[-> ->]]; [rewrite app_length|]; unfold char in *; simpl; lia. }
    assert (Q : forall t5 d5, at' t5 d5 d ->
      (upto 99 d -> exists t6, (let '(c0, t) := tok_peek mem_read t5 in if (c0 =? 47)%Z then url_upto F t [] [] 100 else ROk (L "/", t)) =
         ROk (match d with [] => L "/" | _ => d end, t6)) /\
      (~ upto 99 d -> (let '(c0, t) := tok_peek mem_read t5 in if (c0 =? 47)%Z then url_upto F t [] [] 100 else ROk (L "/", t)) = RUndefined)).
    { intros t5 d5 A5. destruct (peek_at mem_read _ H1 t5 _ _ A5) as (t6 & -> & A6). change 47%Z with (Z.of_N 47). rewrite next_eqb.
      destruct Hd as [->|[r ->]]; [split; [intros _; exists t6; reflexivity|intros K; destruct K; unfold upto; simpl; lia]|].
      change (L "/" ++ r) with (47%N :: r) in *. cbn iota. change (47 =? 47)%N with true. cbn iota.
      assert (K4 := upto_at [] 100 (47%N :: r) [] t6 d5 F [] ltac:(rewrite app_nil_r; exact A6) (proj1 (proj2 Bc)) ltac:(intros ? ? []) I (proj2 Lcd) ltac:(simpl; lia)).
      cbn [plus app] in K4. change (0 + List.length (47%N :: r)) with (List.length (47%N :: r)) in K4. unfold upto.
      destruct (N.ltb_spec (N.of_nat (List.length (@nil N) + List.length (47%N :: r))) 100) as [U4|U4]; cbn [List.length plus] in U4 |- *.
      - split; [intros _|intros K; destruct K; lia]. destruct K4 as (t7 & -> & _). exists t7. reflexivity.
      - split; [intros K; lia|intros _; exact K4]. }
    destruct Hp as [->|[-> ->]].
    - change ((L ":" ++ c) ++ d) with (58%N :: (c ++ d)) in *. cbn iota. change (58 =? 58)%N with true. cbn iota.
      destruct (get_at mem_read _ H1 t4 _ _ _ A4) as (t5 & -> & A5).
      assert (Ed : ends (L "/") d) by (destruct Hd as [->|[r ->]]; cbn; auto).
      assert (K4 := upto_at (L "/") 10 c d t5 _ F [] A5 (proj1 (proj1 Bc)) Hc Ed (proj1 Lcd) ltac:(simpl; lia)).
      cbn [List.length plus app] in K4. destruct (N.ltb_spec (N.of_nat (List.length c)) 10) as [U3|U3].
      2: { right. rewrite K4. split; [|reflexivity]. intros (_ & _ & U & _). unfold upto in U. lia. }
      destruct K4 as (t6 & -> & A6). cbn [rbind]. destruct (Q t6 _ A6) as [Q1 Q2].
      destruct (N.leb_spec (N.of_nat (List.length d)) 99) as [U4|U4].
      + left. split; [unfold url_fits, upto; lia|]. destruct (Q1 U4) as (t7 & E7). destruct (tok_peek mem_read t6) as [c0 t0]. rewrite E7. reflexivity.
      + right. split; [unfold url_fits, upto; lia|]. destruct (tok_peek mem_read t6) as [c0 t0]. rewrite Q2 by (unfold upto; lia). reflexivity.
    - cbn [app] in A4 |- *. assert (E : match d with [] => false | x :: _ => (x =? 58)%N end = false) by (destruct Hd as [->|[r ->]]; reflexivity).
      rewrite E. cbn [rbind]. destruct (Q t4 _ A4) as [Q1 Q2].
      destruct (N.leb_spec (N.of_nat (List.length d)) 99) as [U4|U4].
      + left. split; [unfold url_fits, upto; simpl; lia|]. destruct (Q1 U4) as (t7 & E7). destruct (tok_peek mem_read t4) as [c0 t0]. rewrite E7. reflexivity.
      + right. split; [unfold url_fits, upto; simpl; lia|]. destruct (tok_peek mem_read t4) as [c0 t0]. rewrite Q2 by (unfold upto; lia). reflexivity. }
  destruct X as [(Fi & ->)|(Nf & ->)].
  - split; [|split; [|split; [discriminate|left; eexists; reflexivity]]].
    + intros a' b' c' d' P' _. destruct (url_parts_once _ _ _ _ _ _ _ _ _ P P') as (-> & -> & -> & ->). reflexivity.
    + intros u Eu. injection Eu as <-. exists d. auto.
  - split; [|split; [discriminate|split; [discriminate|]]].
    + intros a' b' c' d' P' Fi. destruct (url_parts_once _ _ _ _ _ _ _ _ _ P P') as (-> & -> & -> & ->). destruct (Nf Fi).
    + right. split; [reflexivity|]. right. exists a, b, c, d. auto.
Qed.
Example C101_url_case : url_parts (L "http://h.org:80/a/b?c") (L "http") (L "h.org") (L "80") (L "/a/b?c") /\
  url_parse (L "http://h.org:80/a/b?c") = ROk (Some (mkUrl (L "http") (L "h.org") (L "80") (L "/a/b?c"))) /\
  url_parse (L "http://h") = ROk (Some (mkUrl (L "http") (L "h") [] (L "/"))) /\ url_parse (L "h.org/a") = ROk None.
Proof.
  split; [|split; [vm_compute; reflexivity|split; vm_compute; reflexivity]].
  exists (L ":80"). split; [reflexivity|].
  assert (G : forall bad t : bytes, forallb (fun c => negb (existsb (N.eqb c) bad)) t = true -> lacks bad t).
  { intros bad t K c Hc Hi. rewrite forallb_forall in K. apply K in Hc. apply in_stops in Hi. rewrite Hi in Hc. discriminate. }
  split; [apply G; reflexivity|]. split; [apply G; reflexivity|]. split; [apply G; reflexivity|]. split; [left; reflexivity|].
  right. exists (L "a/b?c"). reflexivity.
Qed.
(** A host name of a hundred characters does not fit. *)
Theorem C101_room_refuted : let host := repeat 97%N (N.to_nat 100) in
  url_parts (L "http://" ++ host) (L "http") host [] [] /\ url_parse (L "http://" ++ host) = RUndefined.
Proof.
  cbv zeta. split; [|vm_compute; reflexivity].
  exists []. split; [rewrite !app_nil_r; reflexivity|].
  split; [intros c Hc [<-|[]]; repeat (destruct Hc as [Hc|Hc]; [discriminate|]); destruct Hc|].
  split; [intros c Hc; apply repeat_spec in Hc; subst c; intros [E|[E|[]]]; discriminate|].
  split; [intros c []|]. split; [right; auto|left; reflexivity].
Qed.

Lemma cgi_upto_at : forall stops x r buf, lacks stops x -> (exists c q, r = c :: q /\ In c stops) ->
  (N.of_nat (List.length buf + List.length x) <= 999)%N -> cgi_upto (x ++ r) stops buf = ROk (buf ++ x, r).
Proof.
  intros stops. induction x as [|c x IH]; intros r buf Hx (e & q & -> & He) Hl.
  - cbn [app cgi_upto]. apply in_stops in He. rewrite He, app_nil_r. reflexivity.
  - cbn [app cgi_upto]. assert (E : existsb (N.eqb c) stops = false).
    { destruct (existsb (N.eqb c) stops) eqn:E; [|reflexivity]. apply in_stops in E. destruct (Hx c (or_introl eq_refl) E). }
    rewrite E. cbn [List.length] in Hl. destruct (N.ltb_spec (N.of_nat (List.length buf) + 1) 1000); [|lia].
    rewrite IH; [rewrite <- app_assoc; reflexivity|intros y Hy; apply Hx; right; exact Hy|exists e, q; auto|rewrite app_length; simpl; lia].
Qed.
Lemma isspace_spec : forall c, c_isspace c = true -> (c = 32 \/ 9 <= c <= 13)%N.
Proof.
  intros c E. unfold c_isspace in E. destruct (N.eqb_spec c 32); [left; assumption|]. cbn [orb] in E. apply andb_prop in E. destruct E as [E1 E2].
  apply N.leb_le in E1. apply N.leb_le in E2. right. split; assumption.
Qed.
Lemma cgi_spaces_at : forall sp v r, Forall (fun c => c = 32%N \/ c = 9%N) sp -> (exists c q, v = c :: q /\ ~ (c = 32 \/ 9 <= c <= 13)%N) ->
  cgi_spaces (sp ++ v ++ r) = v ++ r.
Proof.
  induction sp as [|c sp IH]; intros v r Hs Hv.
  - destruct Hv as (c & q & -> & Hc). cbn [app cgi_spaces]. destruct (c_isspace c) eqn:E; [|reflexivity]. apply isspace_spec in E. destruct (Hc E).
  - cbn [app cgi_spaces]. assert (E : c_isspace c = true) by (destruct (Forall_inv Hs) as [->| ->]; reflexivity). rewrite E.
    exact (IH v r (Forall_inv_tail Hs) Hv).
Qed.
Lemma cgi_str_id : forall stops x, In 0%N stops -> lacks stops x -> cgi_str x = x.
Proof.
  intros stops. induction x as [|c x IH]; intros H0 H; cbn [cgi_str]; [reflexivity|].
  destruct (N.eqb_spec c 0) as [->|]; [destruct (H 0%N (or_introl eq_refl) H0)|]. rewrite IH; auto. intros y Hy. apply H. right. exact Hy.
Qed.
Lemma eol_at : forall e r, line_break e -> cgi_eol (e ++ r) = r.
Proof. intros e r [->| ->]; reflexivity. Qed.
Lemma head_first : forall hs t, cgi_head hs t -> exists c q, t = c :: q /\ c <> 10%N /\ c <> 13%N.
Proof.
  assert (G : forall n sp v r, cgi_line n sp v -> exists c q, n ++ L ":" ++ r = c :: q /\ c <> 10%N /\ c <> 13%N).
  { intros [|c n] sp v r (H & _); [exists 58%N, r; repeat split; discriminate|]. exists c, (n ++ L ":" ++ r). split; [reflexivity|].
    split; intros ->; apply (H _ (or_introl eq_refl)); cbn; auto. }
  intros hs t [n sp v e e' Hl _ _|n sp v e hs' t' Hl _ _]; eapply G; eauto.
Qed.
Lemma brk_in : forall e r, line_break e -> exists c q, e ++ r = c :: q /\ In c [10; 13]%N.
Proof. intros e r [->| ->]; eexists _, _; (split; [reflexivity|cbn; auto]). Qed.

Lemma cgi_one : forall n sp v e r f headers, cgi_line n sp v -> line_break e -> List.length headers < 100 ->
  cgi_loop (S f) headers (n ++ L ":" ++ sp ++ v ++ e ++ r) =
  match r with
  | c :: _ => if (c =? 13)%N || (c =? 10)%N then ROk (headers ++ [(n, v)], Some (cgi_eol r)) else cgi_loop f (headers ++ [(n, v)]) r
  | [] => cgi_loop f (headers ++ [(n, v)]) r
  end.
Proof.
  intros n sp v e r f headers (Hn & Hsp & Hv & Hv' & Un & Uv) He Hh. unfold upto in *. cbn [cgi_loop].
  rewrite (cgi_upto_at (L ":") n (L ":" ++ sp ++ v ++ e ++ r) []);
    [|intros c Hc Hi; apply (Hn c Hc); apply in_or_app; left; exact Hi|eexists _, _; split; [reflexivity|left; reflexivity]|simpl; exact Un].
  cbn [rbind]. change (L ":" ++ sp ++ v ++ e ++ r) with (58%N :: sp ++ v ++ e ++ r). cbn iota.
  rewrite (cgi_spaces_at sp v (e ++ r) Hsp Hv).
  assert (K := cgi_upto_at [10; 13]%N v (e ++ r) [] ltac:(intros c Hc Hi; apply (Hv' c Hc); right; exact Hi) (brk_in e r He) Uv).
  destruct Hv as (c & q & -> & Hc). cbn [app] in K |- *. rewrite K. cbn [rbind].
  assert (E : forall (A : Type) (x y : A), match e ++ r with [] => x | _ => y end = y) by (intros; destruct He as [->| ->]; reflexivity).
  rewrite E, (eol_at e r He). destruct (Nat.leb_spec 100 (List.length headers)); [lia|]. cbn [app].
  rewrite (cgi_str_id (L ":" ++ [0; 10; 13])%N n), (cgi_str_id [0; 10; 13]%N (c :: q)); auto; cbn; auto.
Qed.
Lemma cgi_all : forall hs t, cgi_head hs t -> forall r f headers, List.length t <= f -> List.length headers + List.length hs <= 100 ->
  cgi_loop f headers (t ++ r) = ROk (headers ++ hs, Some r).
Proof.
  induction 1 as [n sp v e e' Hl He He'|n sp v e hs t Hl He Hh IH]; intros r f headers Hf Hc;
    (destruct f as [|f]; [rewrite !app_length in Hf; simpl in Hf; lia|]); rewrite <- !app_assoc.
  - rewrite (cgi_one n sp v e (e' ++ r) f headers Hl He) by (simpl in Hc; lia). rewrite (eol_at e' r He').
    destruct He' as [->| ->]; reflexivity.
  - cbn [List.length] in Hc. rewrite (cgi_one n sp v e (t ++ r) f headers Hl He) by lia. destruct (head_first hs t Hh) as (c & q & E & N10 & N13).
    rewrite E at 1. cbn [app]. destruct (N.eqb_spec c 13); [contradiction|]. destruct (N.eqb_spec c 10); [contradiction|]. cbn [orb].
    rewrite IH; [rewrite <- app_assoc; reflexivity| |rewrite app_length; simpl; lia]. rewrite !app_length in Hf. simpl in Hf. lia.
Qed.

(** The head is read, and the answer is where the body starts. *)
Theorem C102_head : forall headers hs t body, cgi_head hs t -> List.length headers + List.length hs <= 100 ->
  cgi_parse_head headers (t ++ body) = ROk (headers ++ hs, List.length t).
Proof.
  intros headers hs t body H Hc. unfold cgi_parse_head. rewrite (cgi_all hs t H); [|rewrite app_length; lia|exact Hc].
  cbn [rbind]. rewrite app_length. do 2 f_equal. lia.
Qed.
Example C102_head_case : let t := L "Status: 200 OK" ++ [13; 10]%N ++ L "Content-Type:text/html" ++ [10; 13; 10]%N in
  cgi_head [(L "Status", L "200 OK"); (L "Content-Type", L "text/html")] t /\
  cgi_parse_head [] (t ++ L "<p>") = ROk ([(L "Status", L "200 OK"); (L "Content-Type", L "text/html")], List.length t).
Proof.
  cbv zeta. split; [|vm_compute; reflexivity].
  assert (G : forall bad t : bytes, forallb (fun c => negb (existsb (N.eqb c) bad)) t = true -> lacks bad t).
  { intros bad t K c Hc Hi. rewrite forallb_forall in K. apply K in Hc. apply in_stops in Hi. rewrite Hi in Hc. discriminate. }
  apply (ch_more (L "Status") (L " ") (L "200 OK") [13; 10]%N _ (L "Content-Type:text/html" ++ [10; 13; 10]%N)).
  - split; [apply G; reflexivity|]. split; [repeat constructor|]. split; [eexists _, _; split; [reflexivity|intros [E|[E1 E2]]; [discriminate|apply E2; reflexivity]]|].
    split; [apply G; reflexivity|]. split; unfold upto; simpl; lia.
  - right. reflexivity.
  - apply (ch_last (L "Content-Type") [] (L "text/html") [10]%N [13; 10]%N); [|left; reflexivity|right; reflexivity].
    split; [apply G; reflexivity|]. split; [repeat constructor|]. split; [eexists _, _; split; [reflexivity|intros [E|[E1 E2]]; [discriminate|apply E2; reflexivity]]|].
    split; [apply G; reflexivity|]. split; unfold upto; simpl; lia.
Qed.
Lemma cgi_upto_left : forall stops data buf b r, cgi_upto data stops buf = ROk (b, r) -> exists x, data = x ++ r.
Proof.
  intros stops. induction data as [|c data IH]; intros buf b r H; cbn [cgi_upto] in H; [injection H as _ <-; exists []; reflexivity|].
  destruct (existsb (N.eqb c) stops); [injection H as _ <-; exists []; reflexivity|]. destruct (_ <? _)%N; [|discriminate].
  apply IH in H. destruct H as (x & ->). exists (c :: x). reflexivity.
Qed.
Lemma cgi_upto_ends : forall stops data buf, exists o, cgi_upto data stops buf = o /\ o <> RFuel.
Proof.
  intros stops. induction data as [|c data IH]; intros buf; cbn [cgi_upto]; [eexists; split; [reflexivity|discriminate]|].
  destruct (existsb (N.eqb c) stops); [eexists; split; [reflexivity|discriminate]|]. destruct (_ <? _)%N; [apply IH|eexists; split; [reflexivity|discriminate]].
Qed.
Lemma cgi_spaces_left : forall data, exists x, data = x ++ cgi_spaces data.
Proof.
  induction data as [|c data (x & E)]; [exists []; reflexivity|]. cbn [cgi_spaces]. destruct (c_isspace c); [exists (c :: x); cbn; congruence|exists []; reflexivity].
Qed.
Lemma cgi_skip_left : forall c data, exists x, data = x ++ cgi_skip1 c data.
Proof. intros c [|y data]; [exists []; reflexivity|]. cbn [cgi_skip1]. destruct (y =? c)%N; [exists [y]|exists []]; reflexivity. Qed.
Lemma cgi_eol_left : forall data, exists x, data = x ++ cgi_eol data.
Proof.
  intros data. unfold cgi_eol. destruct (cgi_skip_left 13 data) as (x & E). destruct (cgi_skip_left 10 (cgi_skip1 13 data)) as (y & E').
  exists (x ++ y). rewrite <- app_assoc, <- E'. exact E.
Qed.
Lemma cgi_loop_left : forall f headers data, List.length data < f -> cgi_loop f headers data <> RFuel /\
  forall hs o, cgi_loop f headers data = ROk (hs, o) -> (exists more, hs = headers ++ more) /\ forall rest, o = Some rest ->
    exists x, data = x ++ rest /\ x <> [] /\ (exists n v more, hs = headers ++ (n, v) :: more).
Proof.
  induction f as [|f IH]; intros headers data Hf; [lia|]. cbn [cgi_loop].
  destruct (cgi_upto_ends (L ":") data []) as (o1 & E1 & N1). rewrite E1. destruct o1 as [[name d1]| | |]; [|split; [discriminate|intros; discriminate]|split; [discriminate|intros; discriminate]|congruence].
  cbn [rbind]. destruct (cgi_upto_left _ _ _ _ _ E1) as (x1 & D1).
  assert (Z : forall hs (o : option bytes), ROk (headers, @None bytes) = ROk (hs, o) -> (exists more, hs = headers ++ more) /\
    forall rest, o = Some rest -> exists x, data = x ++ rest /\ x <> [] /\ (exists n v more, hs = headers ++ (n, v) :: more)).
  { intros hs o E. injection E as <- <-. split; [exists []; rewrite app_nil_r; reflexivity|discriminate]. }
  destruct d1 as [|c1 d1]; [split; [discriminate|exact Z]|].
  destruct (cgi_spaces_left d1) as (x2 & D2). destruct (cgi_spaces d1) as [|c2 d2]; [split; [discriminate|exact Z]|].
  destruct (cgi_upto_ends [10; 13]%N (c2 :: d2) []) as (o3 & E3 & N3). rewrite E3. destruct o3 as [[value d3]| | |]; [|split; [discriminate|intros; discriminate]|split; [discriminate|intros; discriminate]|congruence].
  cbn [rbind]. destruct (cgi_upto_left _ _ _ _ _ E3) as (x3 & D3). destruct d3 as [|c3 d3]; [split; [discriminate|exact Z]|].
  destruct (cgi_eol_left (c3 :: d3)) as (x4 & D4). destruct (Nat.leb 100 _); [split; [discriminate|intros; discriminate]|].
  set (hd := (cgi_str name, cgi_str value)).
  assert (D : data = (x1 ++ [c1] ++ x2 ++ x3 ++ x4) ++ cgi_eol (c3 :: d3)).
  { rewrite D1, D2, D3. rewrite <- !app_assoc, <- D4. reflexivity. }
  clear D1 D2 D3 D4 E1 E3 N1 N3. remember (cgi_eol (c3 :: d3)) as d4 eqn:X. clear X.
  assert (Hx : x1 ++ [c1] ++ x2 ++ x3 ++ x4 <> []) by (destruct x1; discriminate).
  assert (W : forall rest hs o, ROk (headers ++ [hd], Some rest) = ROk (hs, o) -> (exists y, d4 = y ++ rest) -> (exists more, hs = headers ++ more) /\
    forall rest0, o = Some rest0 -> exists x, data = x ++ rest0 /\ x <> [] /\ (exists n v more, hs = headers ++ (n, v) :: more)).
  { intros rest hs o E (y & Ey). injection E as <- <-. split; [eexists; reflexivity|]. intros rest0 E. injection E as <-.
    exists ((x1 ++ [c1] ++ x2 ++ x3 ++ x4) ++ y). split; [rewrite D, Ey at 1; rewrite <- !app_assoc; reflexivity|].
    split; [intros E; apply app_eq_nil in E; exact (Hx (proj1 E))|]. exists (fst hd), (snd hd), []. reflexivity. }
  assert (R : cgi_loop f (headers ++ [hd]) d4 <> RFuel /\ forall hs o, cgi_loop f (headers ++ [hd]) d4 = ROk (hs, o) -> (exists more, hs = headers ++ more) /\
    forall rest0, o = Some rest0 -> exists x, data = x ++ rest0 /\ x <> [] /\ (exists n v more, hs = headers ++ (n, v) :: more)).
  { destruct (IH (headers ++ [hd]) d4) as [I1 I2]; [rewrite D, !app_length in Hf; simpl in Hf; lia|]. split; [exact I1|].
    intros hs o E. destruct (I2 hs o E) as [(more & ->) I3]. split; [exists (hd :: more); rewrite <- app_assoc; reflexivity|].
    intros rest Eo. destruct (I3 rest Eo) as (x & Ex & _ & _). exists ((x1 ++ [c1] ++ x2 ++ x3 ++ x4) ++ x).
    split; [rewrite D, Ex at 1; rewrite <- !app_assoc; reflexivity|]. split; [intros K; apply app_eq_nil in K; exact (Hx (proj1 K))|].
    exists (fst hd), (snd hd), more. rewrite <- app_assoc. reflexivity. }
  destruct d4 as [|c4 d4]; [exact R|]. destruct ((c4 =? 13)%N || (c4 =? 10)%N); [|exact R]. split; [discriminate|].
  intros hs o E. exact (W _ hs o E (cgi_eol_left _)).
Qed.
(** On any data the reader stops, keeps the fields it had, and an answer other than 0 lies
    within the data and comes with a field. *)
Theorem C102_any_data : forall headers data, cgi_parse_head headers data <> RFuel /\
  forall hs k, cgi_parse_head headers data = ROk (hs, k) -> (exists more, hs = headers ++ more) /\ k <= List.length data /\
    (k <> 0 -> exists n v more, hs = headers ++ (n, v) :: more).
Proof.
  intros headers data. unfold cgi_parse_head. destruct (cgi_loop_left (S (List.length data)) headers data) as [N K]; [lia|].
  destruct (cgi_loop _ headers data) as [[hs o]| | |]; cbn [rbind]; [|split; [discriminate|intros; discriminate]|split; [discriminate|intros; discriminate]|congruence].
  destruct (K hs o eq_refl) as [K1 K2]. split; [discriminate|]. intros hs' k E. injection E as <- <-. split; [exact K1|].
  destruct o as [rest|]; [|split; [lia|congruence]]. split; [lia|]. intros _. destruct (K2 rest eq_refl) as (x & _ & _ & K3). exact K3.
Qed.
Example C102_any_data_case : cgi_parse_head [] (L "no head here") = ROk ([], 0) /\ cgi_parse_head [] (L "a: b" ++ [10; 10]%N ++ L "x") = ROk ([(L "a", L "b")], 6).
Proof. split; vm_compute; reflexivity. Qed.
(** A field with nothing after its colon takes the next line as its value; an answer whose
    head is only the empty line is not accepted. *)
Theorem C102_empty_value_refuted :
  cgi_parse_head [] (L "A:" ++ [10]%N ++ L "B: c" ++ [10; 10]%N) = ROk ([(L "A", L "B: c")], 9) /\
  cgi_parse_head [] ([13; 10]%N ++ L "body") = ROk ([], 0).
Proof. split; vm_compute; reflexivity. Qed.

Print Assumptions C101_url.
Print Assumptions C101_room_refuted.
Print Assumptions C102_head.
Print Assumptions C102_any_data.
Print Assumptions C102_empty_value_refuted.
