(** Subtitles. *)
From Coq Require Import ZArith Lia List.
From Verif Require Import LibBase LibIO LibText LibTok LibUrl LibHttp LibTime LibSrt SpecTok SpecText SpecTime SpecSrt PropStrings PropTime.
Import ListNotations.
Local Open Scope nat_scope.

Lemma space_spec : forall c, c_isspace c = true <-> is_space c.
Proof. intros c. unfold c_isspace, is_space. rewrite Bool.orb_true_iff, Bool.andb_true_iff, N.eqb_eq, !N.leb_le. tauto. Qed.
Lemma space_spec' : forall c, c_isspace c = false <-> ~ is_space c.
Proof. intros c. rewrite <- space_spec. destruct (c_isspace c); split; congruence. Qed.
Lemma drop_spaces : forall a l, Forall is_space a -> (forall c t, l = c :: t -> ~ is_space c) -> drop_while c_isspace (a ++ l) = l.
Proof.
  induction 1 as [|c a Hc F IH]; intros Hl; cbn [app drop_while].
  - destruct l as [|c l]; [reflexivity|]. cbn [drop_while]. rewrite (proj2 (space_spec' c) (Hl c l eq_refl)). reflexivity.
  - rewrite (proj2 (space_spec c) Hc). apply IH, Hl.
Qed.
Lemma drop_none : forall l, (forall c t, l = c :: t -> ~ is_space c) -> drop_while c_isspace l = l.
Proof. intros l H. exact (drop_spaces [] l (Forall_nil _) H). Qed.
Lemma trimmed_is : forall s r, trimmed s r -> r = rev (drop_while c_isspace (rev (drop_while c_isspace s))).
Proof.
  intros s r (a & b & -> & Fa & Fb & H1 & H2). destruct r as [|c r].
  - cbn [app]. assert (E : drop_while c_isspace ((a ++ b) ++ []) = []) by (apply drop_spaces; [apply Forall_app; auto|discriminate]). rewrite app_nil_r in E. rewrite E. reflexivity.
  - rewrite drop_spaces by (auto; intros x t E; inversion E; subst; eauto). rewrite rev_app_distr, drop_spaces.
    + symmetry. apply rev_involutive.
    + apply Forall_rev. exact Fb.
    + intros x t E. apply (f_equal (@rev _)) in E. rewrite rev_involutive in E. cbn [rev] in E. eauto.
Qed.
Lemma trimmed_unique : forall s r r', trimmed s r -> trimmed s r' -> r = r'.
Proof. intros s r r' A B. rewrite (trimmed_is s r A), (trimmed_is s r' B). reflexivity. Qed.

(** * Lines *)
Definition clean (l : bytes) : Prop := Forall (fun c => c <> 0 /\ c <> 10 /\ c <> 13)%N l.
Lemma chars_at : forall l e r buf, clean l -> line_end e -> srt_chars (l ++ e ++ r) buf = (buf ++ l ++ [10%N], r, false).
Proof.
  induction l as [|c l IH]; intros e r buf F He.
  - destruct He as [->| ->]; reflexivity.
  - inversion F as [|? ? (A & B & C) F']; subst. cbn [app srt_chars]. apply N.eqb_neq in B. apply N.eqb_neq in C. rewrite B, C, IH by assumption. rewrite <- app_assoc. reflexivity.
Qed.
Lemma clean_str : forall l, clean l -> cgi_str (l ++ [10%N]) = l ++ [10%N].
Proof. induction 1 as [|c l (A & _) F IH]; [reflexivity|]. cbn [app cgi_str]. apply N.eqb_neq in A. rewrite A, IH. reflexivity. Qed.
Lemma load_at : forall l e r x ld, clean l -> line_end e -> (Z.of_nat (List.length l) < 4000)%Z ->
  srt_loadline (mkSrt (l ++ e ++ r) false x ld) = ROk (true, mkSrt r false (l ++ [10%N]) ld).
Proof.
  intros l e r x ld F He Hl. unfold srt_loadline. cbn [sr_in sr_eof sr_line sr_loaded]. rewrite chars_at by assumption. cbn [app].
  destruct (l ++ [10%N]) as [|c t] eqn:E; [destruct l; discriminate|]. rewrite <- E. destruct (N.leb_spec 4096 (N.of_nat (List.length (l ++ [10%N])))) as [K|_].
  - rewrite app_length in K. cbn [List.length] in K. lia.
  - rewrite clean_str by exact F. reflexivity.
Qed.
Lemma num_at : forall n ds, natural n ds -> (n < 2 ^ 31)%Z -> srt_num (ds ++ [10%N]) = ROk n.
Proof.
  intros n ds (D0 & D & V & _) Hn. change (2 ^ 31)%Z with 2147483648%Z in Hn. unfold srt_num. rewrite (readint_at ds [10%N]); [|split; [exact D0|exact D]|reflexivity|lia]. cbn [rbind]. rewrite V. reflexivity.
Qed.
Lemma digit_not_space : forall c, is_digit c -> ~ is_space c.
Proof. intros c [A B] [->|[C D]]; lia. Qed.
Lemma digits_span : forall l : bytes, exists a b, l = a ++ b /\ Forall is_digit a /\ (forall c t, b = c :: t -> c_isdigit c = false).
Proof.
  induction l as [|c l (a & b & -> & Fa & Hb)]; [exists [], []; repeat split; [constructor|discriminate]|].
  destruct (c_isdigit c) eqn:E.
  - exists (c :: a), b. split; [reflexivity|]. split; [|exact Hb]. constructor; [|exact Fa]. unfold c_isdigit in E. apply andb_prop in E. destruct E as [A B]. apply N.leb_le in A. apply N.leb_le in B. split; assumption.
  - exists [], (c :: a ++ b). split; [reflexivity|]. split; [constructor|]. intros x t K. inversion K; subst. exact E.
Qed.
Lemma drop_has : forall l c, In c l -> ~ is_space c -> drop_while c_isspace l <> [].
Proof.
  induction l as [|x l IH]; intros c Hi Hc; [destruct Hi|]. destruct Hi as [->|H]; cbn [drop_while].
  - rewrite (proj2 (space_spec' c) Hc). discriminate.
  - destruct (c_isspace x); [eapply IH; eassumption|discriminate].
Qed.
Lemma num_wording : forall l, wording l -> srt_num (l ++ [10%N]) = ROk 0%Z.
Proof.
  intros l (_ & Hw & Hd). unfold srt_num. destruct (digits_span l) as (a & b & E & Fa & Hb). pose proof (Hd a b E Fa) as Ha.
  assert (V : (0 <= digits_value a < 10 ^ 9)%Z). { pose proof (dv_bounds a Fa) as K. assert (10 ^ Z.of_nat (List.length a) <= 10 ^ 9)%Z by (apply Z.pow_le_mono_r; lia). lia. }
  change (10 ^ 9)%Z with 1000000000%Z in V.
  assert (R : readint (l ++ [10%N]) 0 = ROk (digits_value a, b ++ [10%N])).
  { rewrite E, <- app_assoc. apply (readint_fold a (b ++ [10%N]) 0 Fa); [|lia|change (dfold 0 a) with (digits_value a); lia]. destruct b as [|c b]; [reflexivity|]. exact (Hb c b eq_refl). }
  rewrite R. cbn [rbind]. destruct Hw as [Hs|(c & Ic & Nc & Dc)].
  - assert (a = []) as ->. { destruct a as [|c a]; [reflexivity|]. exfalso. rewrite E in Hs. inversion Hs; subst. inversion Fa; subst. eapply digit_not_space; eassumption. }
    destruct (drop_while c_isspace (b ++ [10%N])); reflexivity.
  - assert (K : drop_while c_isspace (b ++ [10%N]) <> []).
    { apply (drop_has _ c); [|exact Nc]. rewrite E in Ic. apply in_app_or in Ic. destruct Ic as [I|I]; [|apply in_or_app; left; exact I]. exfalso. apply Dc. rewrite Forall_forall in Fa. apply Fa, I. }
    destruct (drop_while c_isspace (b ++ [10%N])); [congruence|reflexivity].
Qed.
Lemma wording_clean : forall l, wording l -> clean l.
Proof. intros l (F & _). eapply Forall_impl; [|exact F]. cbn. tauto. Qed.

(** * The text of a block *)
Definition next_text (o : option (bytes * bytes * bytes)) : bytes := match o with Some (ds, e, r) => ds ++ e ++ r | None => [] end.
Definition next_ok (o : option (bytes * bytes * bytes)) : Prop :=
  match o with Some (ds, e, r) => line_end e /\ List.length ds <= 10 /\ exists n, natural n ds /\ (0 < n < 2 ^ 31)%Z | None => True end.
Definition next_state (o : option (bytes * bytes * bytes)) (last : bytes) : srt :=
  match o with Some (ds, e, r) => mkSrt r false (ds ++ [10%N]) true | None => mkSrt [] true last true end.
Lemma natural_clean : forall n ds, natural n ds -> clean ds.
Proof. intros n ds (_ & D & _). eapply Forall_impl; [|exact D]. intros c Hc. cbn beta in Hc. repeat split; intros ->; destruct Hc as [A B]; vm_compute in A; congruence. Qed.
Definition lines_text (ls : list (bytes * bytes)) : bytes := concat (map (fun l => fst l ++ snd l) ls).
Definition joined (ls : list (bytes * bytes)) : bytes := concat (map (fun l => fst l ++ [10%N]) ls).
Lemma text_at : forall ls l text o fuel, wording l -> Forall (fun l => wording (fst l) /\ line_end (snd l)) ls -> next_ok o ->
  (Z.of_nat (List.length (text ++ (l ++ [10%N]) ++ joined ls)) < 1000)%Z -> List.length ls + 2 <= fuel ->
  exists last, srt_text fuel (mkSrt (lines_text ls ++ next_text o) false (l ++ [10%N]) true) text = ROk (text ++ (l ++ [10%N]) ++ joined ls, next_state o last).
Proof.
  induction ls as [|[l1 e1] ls IH]; intros l text o fuel Hl F Ho Hn Hf; destruct fuel as [|fuel]; cbn [List.length] in Hf; try lia; cbn [srt_text sr_line]; rewrite num_wording by exact Hl; cbn [rbind negb Z.eqb];
    rewrite app_length in Hn; destruct (N.leb_spec 1000 (N.of_nat (List.length text + List.length (l ++ [10%N])))) as [K|_]; [rewrite app_length in Hn; lia| |rewrite app_length in Hn; lia|].
  - cbn [lines_text map concat app]. unfold joined. cbn [map concat]. rewrite app_nil_r. destruct o as [[[ds e] r]|].
    + destruct Ho as (He & L10 & n & Nn & Bn). exists []. cbn [next_text next_state]. rewrite (load_at ds e r _ true (natural_clean n ds Nn) He ltac:(lia)). cbn [rbind].
      destruct fuel as [|fuel]; [lia|]. cbn [srt_text sr_line]. rewrite (num_at n ds Nn) by lia. cbn [rbind]. destruct (Z.eqb_spec n 0); [lia|]. reflexivity.
    + exists (l ++ [10%N]). reflexivity.
  - inversion F as [|? ? [W1 E1] F']; subst. cbn [fst snd] in *. unfold lines_text. cbn [map concat fst snd]. fold (lines_text ls). rewrite <- !app_assoc.
    assert (Jl : joined ((l1, e1) :: ls) = (l1 ++ [10%N]) ++ joined ls) by reflexivity. rewrite Jl in *.
    rewrite (load_at l1 e1 _ _ true (wording_clean l1 W1) E1); [|rewrite !app_length in Hn; lia]. cbn [rbind].
    destruct (IH l1 (text ++ l ++ [10%N]) o fuel W1 F' Ho) as (last & E); [rewrite !app_length in *; lia|lia|]. exists last.
    replace (l ++ 10%N :: joined ((l1,e1)::ls)) with (l ++ 10%N :: joined ((l1,e1)::ls)) by reflexivity.
    rewrite E. f_equal. f_equal. rewrite <- !app_assoc. reflexivity.
Qed.

(** * Times *)
Lemma scan_at : forall ds r, digits ds -> past r -> (digits_value ds <= 2147483647)%Z -> scan_int (ds ++ r) = ROk (Some (digits_value ds, r)).
Proof.
  intros ds r D P V. pose proof D as [D0 D1]. unfold scan_int. assert (E : drop_while c_isspace (ds ++ r) = ds ++ r).
  { apply (drop_spaces [] (ds ++ r)); [constructor|]. intros c t E. destruct ds as [|x ds]; [congruence|]. inversion E; subst. inversion D1; subst. apply digit_not_space. assumption. }
  rewrite E. pose proof (readint_at ds r D P V) as R. destruct ds as [|c ds]; [congruence|]. inversion D1 as [|? ? Hc _]; subst. cbn [app] in *.
  destruct (N.eqb_spec c 45) as [->|]; [destruct Hc as [A _]; vm_compute in A; congruence|]. destruct (N.eqb_spec c 43) as [->|]; [destruct Hc as [A _]; vm_compute in A; congruence|].
  rewrite (digit_test c Hc), R. reflexivity.
Qed.
Lemma scan_then_at : forall ds c r k, digits ds -> c_isdigit c = false -> (digits_value ds <= 2147483647)%Z -> scan_then (ds ++ c :: r) c k = k (digits_value ds) r.
Proof. intros ds c r k D P V. unfold scan_then. rewrite (scan_at ds (c :: r) D P V). cbn [rbind]. rewrite N.eqb_refl. reflexivity. Qed.
Lemma stamp_at : forall us t, stamp us t -> srt_pos t = ROk us /\ List.length t = 12 /\ Forall (fun c => ~ is_space c /\ c <> 0%N) t.
Proof.
  intros us t (h & m & s & ms & (a & b & c & d & -> & A & La & B & Lb & C & Lc & D & Ld) & ->).
  destruct A as (Da & Va & _), B as (Db & Vb & _), C as (Dc & Vc & _), D as (Dd & Vd & _).
  assert (Bd : forall x k, digits x -> List.length x = k -> (0 <= digits_value x < 10 ^ Z.of_nat k)%Z) by (intros x k [_ F] <-; apply dv_bounds; exact F).
  pose proof (Bd a 2 Da La) as Ba. pose proof (Bd b 2 Db Lb) as Bb. pose proof (Bd c 2 Dc Lc) as Bc. pose proof (Bd d 3 Dd Ld) as Bdd. rewrite Va in Ba. rewrite Vb in Bb. rewrite Vc in Bc. rewrite Vd in Bdd.
  change (10 ^ Z.of_nat 2)%Z with 100%Z in *. change (10 ^ Z.of_nat 3)%Z with 1000%Z in *.
  split; [|split].
  - unfold srt_pos. change (a ++ L ":" ++ b ++ L ":" ++ c ++ L "," ++ d) with (a ++ 58%N :: b ++ 58%N :: c ++ 44%N :: d).
    rewrite scan_then_at by (auto; lia). rewrite scan_then_at by (auto; lia). rewrite scan_then_at by (auto; lia). rewrite Va, Vb, Vc.
    pose proof (scan_at d [] Dd I ltac:(lia)) as S. rewrite app_nil_r in S. rewrite S. cbn [rbind]. rewrite Vd.
    rewrite int_ok by lia. cbn [rbind]. rewrite int_ok by lia. cbn [rbind]. rewrite int_ok by lia. cbn [rbind]. rewrite int_ok by lia. cbn [rbind]. rewrite int_ok by lia. cbn [rbind]. rewrite int_ok by lia. reflexivity.
  - rewrite !app_length, La, Lb, Lc, Ld. reflexivity.
  - assert (G : forall x, digits x -> Forall (fun c => ~ is_space c /\ c <> 0%N) x).
    { intros x [_ F]. eapply Forall_impl; [|exact F]. intros y Hy. split; [apply digit_not_space; exact Hy|]. intros ->. destruct Hy as [Y _]. vm_compute in Y. congruence. }
    assert (P : forall k, k = 58%N \/ k = 44%N -> ~ is_space k /\ k <> 0%N). { intros k [->| ->]; (split; [|discriminate]); intros [E|[E1 E2]]; try discriminate; apply E2; reflexivity. }
    repeat (apply Forall_app; split); auto; (constructor; [apply P; auto|constructor]).
Qed.
Lemma word_at : forall w r, Forall (fun c => ~ is_space c /\ c <> 0%N) w -> (forall c t, r = c :: t -> is_space c) -> take_word (w ++ r) = (w, r).
Proof.
  induction w as [|c w IH]; intros r F Hr; cbn [app take_word].
  - destruct r as [|c r]; [reflexivity|]. cbn [take_word]. rewrite (proj2 (space_spec c) (Hr c r eq_refl)). reflexivity.
  - inversion F as [|? ? [A _] F']; subst. rewrite (proj2 (space_spec' c) A), IH by assumption. reflexivity.
Qed.
Lemma range_at : forall u v t1 t2, stamp u t1 -> stamp v t2 -> srt_range (str_trim ((t1 ++ L " --> " ++ t2) ++ [10%N])) = (t1, t2).
Proof.
  intros u v t1 t2 S1 S2. destruct (stamp_at u t1 S1) as (_ & L1 & F1). destruct (stamp_at v t2 S2) as (_ & L2 & F2).
  assert (H1 : forall c t r, t1 ++ r = c :: t -> ~ is_space c). { intros c t r E. destruct t1 as [|x t1]; [discriminate|]. inversion E; subst. inversion F1; subst. tauto. }
  assert (H2 : forall c t, t2 = c :: t -> ~ is_space c). { intros c t E. subst t2. inversion F2; subst. tauto. }
  assert (T : str_trim ((t1 ++ L " --> " ++ t2) ++ [10%N]) = t1 ++ L " --> " ++ t2).
  { unfold str_trim. rewrite drop_none by (intros c t E; rewrite <- app_assoc in E; eapply H1; exact E).
    unfold str_rtrim. rewrite rev_app_distr. change (rev [10%N] ++ rev (t1 ++ L " --> " ++ t2)) with (10%N :: rev (t1 ++ L " --> " ++ t2)).
    cbn [drop_while]. change (existsb (N.eqb 10) [32; 9; 13; 10]%N) with true. cbn iota.
    destruct (rev t2) as [|c q] eqn:E2; [apply (f_equal (@List.length _)) in E2; rewrite rev_length, L2 in E2; discriminate|].
    assert (Nc : existsb (N.eqb c) [32; 9; 13; 10]%N = false).
    { assert (I : In c t2) by (apply in_rev; rewrite E2; left; reflexivity). rewrite Forall_forall in F2. destruct (F2 c I) as [Ns _]. destruct (existsb (N.eqb c) [32; 9; 13; 10]%N) eqn:K; [|reflexivity]. exfalso. apply Ns.
      apply existsb_exists in K. destruct K as (x & Ix & Ex). apply N.eqb_eq in Ex. subst x. unfold is_space. cbn [In] in Ix. destruct Ix as [<-|[<-|[<-|[<-|[]]]]]; [left; reflexivity|right; split; discriminate..]. }
    assert (R : rev (t1 ++ L " --> " ++ t2) = c :: (q ++ rev (t1 ++ L " --> "))).
    { rewrite app_assoc, rev_app_distr. exact (f_equal (fun z => z ++ rev (t1 ++ L " --> ")) E2). }
    pose proof (f_equal (drop_while (fun c => existsb (N.eqb c) [32; 9; 13; 10]%N)) R) as R'. cbn [drop_while] in R'. rewrite Nc in R'.
    etransitivity; [exact (f_equal (@rev _) R')|]. etransitivity; [exact (f_equal (@rev _) (eq_sym R))|]. apply rev_involutive. }
  rewrite T. unfold srt_range. rewrite (drop_none (t1 ++ L " --> " ++ t2)) by (intros c t E; eapply H1; exact E).
  rewrite word_at; [|exact F1|intros c t E; inversion E; subst; left; reflexivity].
  change (drop_while c_isspace (L " --> " ++ t2)) with (45 :: 45 :: 62 :: 32 :: t2)%N. cbn iota.
  pose proof (drop_spaces [32%N] t2 ltac:(repeat constructor) H2) as D2. change ([32%N] ++ t2) with (32%N :: t2) in D2. rewrite D2.
  pose proof (word_at t2 [] F2 ltac:(discriminate)) as W. rewrite app_nil_r in W. rewrite W. reflexivity.
Qed.

(** * Blocks *)
Lemma block_at : forall p b o, part_of p b -> next_ok o -> exists last,
  srt_block (mkSrt (p_begin p ++ L " --> " ++ p_end p ++ p_e2 p ++ lines_text (p_lines p) ++ next_text o) false (p_number p ++ [10%N]) true) = ROk (Some b, next_state o last).
Proof.
  intros [ds e1 t1 t2 e2 ls] [n text u v] o (Bn & Nn & L10 & E1 & E2 & S1 & S2 & Hne & F & Hj & Tr) Ho. cbn [p_number p_e1 p_begin p_end p_e2 p_lines bl_index bl_text bl_begin bl_end] in *.
  destruct (stamp_at u t1 S1) as (P1 & L1 & F1). destruct (stamp_at v t2 S2) as (P2 & L2 & F2).
  unfold srt_block. cbn [sr_line]. rewrite (num_at n ds Nn) by lia. cbn [rbind].
  assert (Cr : clean (t1 ++ L " --> " ++ t2)).
  { assert (G : forall t, Forall (fun c => ~ is_space c /\ c <> 0%N) t -> clean t). { intros t Ft. eapply Forall_impl; [|exact Ft]. intros c [A B]. cbn beta. split; [exact B|]. split; intros ->; apply A; right; split; discriminate. }
    apply Forall_app. split; [apply G; exact F1|]. apply Forall_app. split; [repeat constructor; discriminate|apply G; exact F2]. }
  replace (t1 ++ L " --> " ++ t2 ++ e2 ++ lines_text ls ++ next_text o) with ((t1 ++ L " --> " ++ t2) ++ e2 ++ (lines_text ls ++ next_text o)) by (rewrite <- !app_assoc; reflexivity).
  assert (Lr : List.length (t1 ++ L " --> " ++ t2) = 29).
  { transitivity (List.length t1 + (5 + List.length t2)); [rewrite !app_length; reflexivity|rewrite L1; change (12 + (5 + List.length t2) = 12 + (5 + 12)); f_equal; f_equal; exact L2]. }
  rewrite (load_at _ e2 _ _ true Cr E2) by (rewrite Lr; lia). cbn [rbind sr_line]. rewrite (app_length _ [10%N]), Lr. change (Nat.leb 40 (29 + List.length [10%N])) with false. cbn iota.
  pose proof (range_at u v t1 t2 S1 S2) as Rg. set (rg := (t1 ++ L " --> " ++ t2) ++ [10%N]) in *. clearbody rg.
  destruct ls as [|[l0 e0] ls]; [congruence|]. inversion F as [|? ? [W0 E0] F']; subst. cbn [fst snd] in *.
  change (lines_text ((l0, e0) :: ls)) with ((l0 ++ e0) ++ lines_text ls). rewrite <- !app_assoc. cbn [concat map fst] in Hj, Tr. fold (joined ls) in Hj, Tr.
  rewrite (load_at l0 e0 _ _ true (wording_clean l0 W0) E0); [|rewrite !app_length in Hj; lia]. cbn [rbind sr_in].
  destruct (text_at ls l0 [] o (S (S (List.length (lines_text ls ++ next_text o)))) W0 F' Ho) as (last & E).
  { exact Hj. }
  { assert (K : List.length ls <= List.length (lines_text ls)).
    { clear -F'. induction F' as [|[l e] ls [_ He] F IH]; [reflexivity|]. cbn [snd] in He. unfold lines_text in *. cbn [map concat fst snd List.length]. rewrite !app_length. assert (1 <= List.length e) by (destruct He as [->| ->]; cbn; lia). lia. }
    rewrite app_length. lia. }
  rewrite E. cbn [rbind]. exists last. rewrite Rg. rewrite L1, L2. cbn [Nat.leb orb]. rewrite P1, P2. cbn [rbind]. do 4 f_equal.
  change ([] ++ (l0 ++ [10%N]) ++ joined ls) with ((l0 ++ [10%N]) ++ joined ls). apply trimmed_unique with ((l0 ++ [10%N]) ++ joined ls); [|exact Tr].
  assert (Nv : forall k, (k = 11 \/ k = 12)%N -> ~ In k ((l0 ++ [10%N]) ++ joined ls)).
  { intros k Hk I. assert (G : forall l, wording l -> ~ In k (l ++ [10%N])).
    { intros l (Fl & _) Il. apply in_app_or in Il. destruct Il as [Il|[<-|[]]]; [|destruct Hk; discriminate]. rewrite Forall_forall in Fl. specialize (Fl k Il). destruct Hk; tauto. }
    apply in_app_or in I. destruct I as [I|I]; [exact (G l0 W0 I)|]. unfold joined in I. apply in_concat in I. destruct I as (x & Ix & Ik). apply in_map_iff in Ix. destruct Ix as ([l e] & <- & Il).
    rewrite Forall_forall in F'. destruct (F' _ Il) as [Wl _]. exact (G l Wl Ik). }
  apply C81_trim_partial; apply Nv; auto.
Qed.
(** A program that reads until there are no more blocks gets those of the file. *)
Theorem C112_read_partial : forall f bs, subtitles f bs -> srt_all (S (List.length bs)) (srt_new f) = ROk bs.
Proof.
  intros f bs (ps & Hne & -> & F).
  assert (G : forall ps b0 bs p0, part_of p0 b0 -> Forall2 part_of ps bs ->
    srt_all (S (S (List.length bs))) (mkSrt (p_begin p0 ++ L " --> " ++ p_end p0 ++ p_e2 p0 ++ lines_text (p_lines p0) ++ concat (map part_text ps)) false (p_number p0 ++ [10%N]) true) = ROk (b0 :: bs)).
  { clear. induction ps as [|p1 ps IH]; intros b0 bs p0 P0 F; inversion F as [|? b1 ? bs1 P1 F']; subst.
    - destruct (block_at p0 b0 None P0 I) as (last & E). cbn [next_text next_state] in E. cbn [srt_all]. unfold srt_readblock at 1. cbn [sr_eof sr_loaded map concat]. rewrite E. reflexivity.
    - set (r := p_begin p1 ++ L " --> " ++ p_end p1 ++ p_e2 p1 ++ lines_text (p_lines p1) ++ concat (map part_text ps)).
      assert (Ho : next_ok (Some (p_number p1, p_e1 p1, r))) by (destruct P1 as (A & B & C & D & _); split; [exact D|]; split; [exact C|]; exists (bl_index b1); auto).
      destruct (block_at p0 b0 _ P0 Ho) as (last & E). cbn [next_text next_state] in E.
      assert (Er : concat (map part_text (p1 :: ps)) = p_number p1 ++ p_e1 p1 ++ r) by (cbn [map concat]; unfold part_text at 1, r, lines_text; rewrite <- !app_assoc; reflexivity).
      rewrite Er. specialize (IH b1 bs1 p1 P1 F'). fold r in IH. cbn [List.length].
      change (srt_all (S (S (S (List.length bs1)))) ?st) with (let* (o, st') := srt_readblock st in match o with None => ROk [] | Some b => rbind (srt_all (S (S (List.length bs1))) st') (fun l => ROk (b :: l)) end).
      unfold srt_readblock at 1. cbn [sr_eof sr_loaded]. rewrite E. cbn [rbind]. rewrite IH. reflexivity. }
  destruct ps as [|p0 ps]; [congruence|]. inversion F as [|? b0 ? bs0 P0 F']; subst. specialize (G ps b0 bs0 p0 P0 F').
  assert (Er : concat (map part_text (p0 :: ps)) = p_number p0 ++ p_e1 p0 ++ (p_begin p0 ++ L " --> " ++ p_end p0 ++ p_e2 p0 ++ lines_text (p_lines p0) ++ concat (map part_text ps)))
    by (cbn [map concat]; unfold part_text at 1, lines_text; rewrite <- !app_assoc; reflexivity).
  rewrite Er. set (r := p_begin p0 ++ _) in *. destruct P0 as (A & B & C & D & _).
  cbn [List.length]. rewrite <- G.
  assert (Eq : srt_readblock (srt_new (p_number p0 ++ p_e1 p0 ++ r)) = srt_readblock (mkSrt r false (p_number p0 ++ [10%N]) true)).
  { unfold srt_readblock, srt_new. cbn [sr_eof sr_loaded]. rewrite (load_at _ _ _ _ false (natural_clean _ _ B) D ltac:(lia)). reflexivity. }
  cbn [srt_all]. rewrite Eq. reflexivity.
Qed.
Definition sample_head : bytes := L "1" ++ [10%N] ++ L "00:01:32,320 --> 00:01:33,160" ++ [10%N].
Example C112_example : subtitles (sample_head ++ L "Over here." ++ [10; 10]%N) [mkBlock 1 (L "Over here.") 92320000 93160000].
Proof.
  exists [mkPart (L "1") [10%N] (L "00:01:32,320") (L "00:01:33,160") [10%N] [(L "Over here.", [10%N]); ([], [10%N])]].
  split; [discriminate|]. split; [reflexivity|]. constructor; [|constructor]. unfold part_of. cbn [bl_index bl_text bl_begin bl_end p_number p_e1 p_begin p_end p_e2 p_lines].
  assert (St : forall a b c d h m s ms, digits a -> digits b -> digits c -> digits d -> digits_value a = h -> digits_value b = m -> digits_value c = s -> digits_value d = ms ->
    List.length a = 2 -> List.length b = 2 -> List.length c = 2 -> List.length d = 3 -> stamp (1000 * (((h * 60 + m) * 60 + s) * 1000 + ms)) (a ++ L ":" ++ b ++ L ":" ++ c ++ L "," ++ d)).
  { intros a b c d h m s ms A B C D Va Vb Vc Vd La Lb Lc Ld. exists h, m, s, ms. split; [|reflexivity]. exists a, b, c, d. split; [reflexivity|].
    assert (N : forall w z t, digits t -> digits_value t = z -> List.length t = w -> num w z t /\ List.length t = w) by (intros w z t Dt Vt Lt; split; [|exact Lt]; split; [exact Dt|]; split; [exact Vt|]; split; lia).
    destruct (N 2 h a A Va La), (N 2 m b B Vb Lb), (N 2 s c C Vc Lc), (N 3 ms d D Vd Ld). repeat (split; [assumption|]). assumption. }
  split; [lia|]. split; [split; [discriminate|]; split; [repeat constructor; discriminate|]; split; [reflexivity|]; intros t E; inversion E|]. split; [cbn; lia|]. split; [left; reflexivity|]. split; [left; reflexivity|].
  split; [apply (St (L "00") (L "01") (L "32") (L "320") 0 1 32 320)%Z; try reflexivity; apply digits_ok; reflexivity|].
  split; [apply (St (L "00") (L "01") (L "33") (L "160") 0 1 33 160)%Z; try reflexivity; apply digits_ok; reflexivity|].
  split; [discriminate|]. split; [|split; [cbn; lia|]].
  - constructor; [|constructor; [|constructor]]; cbn [fst snd]; (split; [|left; reflexivity]).
    + split; [repeat constructor; discriminate|]. split; [right; exists 79%N; split; [left; reflexivity|]; split; [intros [E|[E1 E2]]; [discriminate|apply E2; reflexivity]|intros [E1 E2]; apply E2; reflexivity]|].
      intros [|c a] b E F; [cbn; lia|]. inversion E; subst. inversion F as [|? ? Hc _]; subst. destruct Hc as [_ E2]. exfalso. apply E2. reflexivity.
    + split; [constructor|]. split; [left; constructor|]. intros [|c a] b E F; [cbn; lia|discriminate].
  - exists [], [10; 10]%N. split; [reflexivity|]. split; [constructor|]. split; [constructor; [right; split; discriminate|constructor; [right; split; discriminate|constructor]]|]. split.
    + intros c t E. inversion E; subst. intros [K|[K1 K2]]; [discriminate|apply K2; reflexivity].
    + intros c t E. apply (f_equal (@rev _)) in E. rewrite rev_app_distr in E. cbn [rev app] in E. vm_compute in E. inversion E; subst. intros [K|[K1 K2]]; [discriminate|apply K2; reflexivity].
Qed.
(** A line of text that is a number is taken for the number of the next subtitle; an empty file
    ends the program. *)
Theorem C112_number_refuted :
  ~ (forall l, l <> [] -> Forall (fun c => 32 < c < 128)%N l -> (Z.of_nat (List.length l) < 900)%Z ->
       srt_all 3 (srt_new (sample_head ++ l ++ [10%N])) = ROk [mkBlock 1 l 92320000 93160000]) /\
  srt_all 3 (srt_new []) = RPanic.
Proof.
  split; [|vm_compute; reflexivity]. intros H.
  assert (K : srt_all 3 (srt_new (sample_head ++ L "1984" ++ [10%N])) = RPanic) by (vm_compute; reflexivity).
  enough (E : srt_all 3 (srt_new (sample_head ++ L "1984" ++ [10%N])) = ROk [mkBlock 1 (L "1984") 92320000 93160000]) by (rewrite K in E; discriminate).
  apply H; [discriminate|repeat constructor; reflexivity|cbn; lia].
Qed.
Example C112_two : srt_all 5 (srt_new (sample_head ++ L "a" ++ [13; 10; 10]%N ++ L "2" ++ [10%N] ++ L "00:01:34,000 --> 01:00:00,007" ++ [10%N] ++ L "b" ++ [10%N] ++ L "c" ++ [10%N])) =
  ROk [mkBlock 1 (L "a") 92320000 93160000; mkBlock 2 (L "b" ++ [10%N] ++ L "c") 94000000 3600007000].
Proof. vm_compute. reflexivity. Qed.

Print Assumptions C112_read_partial.
Print Assumptions C112_number_refuted.
