(** Subtitles with cues. *)
From Coq Require Import ZArith Lia List.
From Verif Require Import LibBase LibIO LibText LibTok LibUrl LibHttp LibTime LibSrt LibVtt SpecTok SpecText SpecTime SpecSrt SpecVtt ClipFacts PropStrings PropTime PropSrt.
Import ListNotations.
Local Open Scope nat_scope.

(** * Lines *)
Lemma fgets_at : forall l e r n, clean l -> line_end e -> List.length l + 2 <= n -> c_fgets (l ++ e ++ r) n = (l ++ e, r).
Proof.
  induction l as [|c l IH]; intros e r n F He Hn; cbn [List.length] in Hn.
  - destruct n as [|[|n]]; [lia|lia|]. destruct He as [->| ->]; reflexivity.
  - destruct n as [|n]; [lia|]. inversion F as [|? ? (A & B & C) F']; subst. cbn [app c_fgets]. apply N.eqb_neq in B. rewrite B, IH by (auto; lia). reflexivity.
Qed.
Lemma clean_cstr : forall l e, clean l -> line_end e -> cgi_str (l ++ e) = l ++ e.
Proof.
  intros l e F He. induction F as [|c l (A & _) F IH]; [destruct He as [->| ->]; reflexivity|]. cbn [app cgi_str]. apply N.eqb_neq in A. rewrite A. f_equal. exact IH.
Qed.
Lemma rtrim_at : forall l e, clean l -> line_end e -> str_rtrim (l ++ e) [13; 10]%N = l.
Proof.
  intros l e F He. unfold str_rtrim. rewrite rev_app_distr.
  assert (E : drop_while (fun c => existsb (N.eqb c) [13; 10]%N) (rev e ++ rev l) = drop_while (fun c => existsb (N.eqb c) [13; 10]%N) (rev l)) by (destruct He as [->| ->]; reflexivity).
  etransitivity; [exact (f_equal (@rev _) E)|].
  destruct (rev l) as [|c q] eqn:R; [apply (f_equal (@rev _)) in R; rewrite rev_involutive in R; symmetry; exact R|].
  assert (I : In c l) by (apply in_rev; rewrite R; left; reflexivity). unfold clean in F. rewrite Forall_forall in F. destruct (F c I) as (_ & A & B). apply N.eqb_neq in A. apply N.eqb_neq in B.
  cbn [drop_while existsb]. rewrite A, B. cbn [orb]. rewrite <- R. apply rev_involutive.
Qed.
Definition with_line (st : vtt) (r l : bytes) : vtt := mkVtt r l (vt_range st) (vt_text st) (vt_cap st) (vt_err st).
Lemma vload_at : forall st l e r, vt_in st = l ++ e ++ r -> clean l -> line_end e -> (N.of_nat (List.length l) < 4050)%N -> vtt_loadline st = (true, with_line st r l).
Proof.
  intros st l e r E F He Hn. unfold vtt_loadline. rewrite E. destruct (l ++ e ++ r) as [|c t] eqn:K.
  { exfalso. apply app_eq_nil in K. destruct K as [_ K]. apply app_eq_nil in K. destruct K as [K _]. destruct He; subst; discriminate. }
  rewrite <- K, fgets_at by (auto; lia). rewrite clean_cstr, rtrim_at by assumption. reflexivity.
Qed.
Lemma line_clean : forall l, line_of l -> clean l.
Proof. intros l F. eapply Forall_impl; [|exact F]. cbn. tauto. Qed.

(** * Headers *)
Lemma strstr_there : forall k v i, c_strstr (k ++ L ": " ++ v) (L ": ") i <> None.
Proof.
  intros k v i E. pose proof (strstr_spec (k ++ L ": " ++ v) (L ": ") i) as S. rewrite E in S. apply (S (List.length k)). exists k, v. split; reflexivity.
Qed.
Lemma headers_at : forall hs hts e r st fuel,
  Forall (fun h => line_of h /\ (N.of_nat (List.length h) < 4000)%N /\ exists k v, h = k ++ L ": " ++ v) hs -> Forall2 ended hs hts -> line_end e ->
  vt_in st = concat hts ++ e ++ r -> List.length hs < fuel -> vtt_headers fuel st = ROk (true, with_line st r []).
Proof.
  induction hs as [|h hs IH]; intros hts e r st fuel F E He Hin Hf; inversion E as [|? t ? hts' (e1 & He1 & ->) E']; subst; (destruct fuel as [|fuel]; [cbn in Hf; lia|]); cbn [vtt_headers].
  - rewrite (vload_at st [] e r Hin ltac:(constructor) He ltac:(cbn; lia)). reflexivity.
  - inversion F as [|? ? (Fh & Lh & k & v & Eh) F']; subst. cbn [concat] in Hin. rewrite <- !app_assoc in Hin.
    set (h := k ++ L ": " ++ v) in *. assert (Hin' : vt_in st = h ++ e1 ++ (concat hts' ++ e ++ r)) by (rewrite Hin; unfold h; rewrite <- !app_assoc; reflexivity).
    rewrite (vload_at st h e1 _ Hin' (line_clean h Fh) He1 ltac:(lia)). cbn [negb with_line vt_line].
    assert (S : c_strstr h (L ": ") 0 <> None) by apply strstr_there.
    assert (Z : h <> []) by (unfold h; destruct k; discriminate). clearbody h. destruct h as [|c h]; [congruence|].
    destruct (c_strstr (c :: h) (L ": ") 0); [|congruence]. rewrite (IH hts' e r) by (auto; cbn in Hf; lia). reflexivity.
Qed.

(** * Texts without tags *)
Lemma notags_plain : forall a r, ~ In 60%N a -> printnotags (a ++ r) false = a ++ printnotags r false.
Proof.
  induction a as [|c a IH]; intros r H; [reflexivity|]. cbn [app printnotags]. destruct (N.eqb_spec c 60) as [->|]; [destruct H; left; reflexivity|]. rewrite IH by (intros K; apply H; right; exact K). reflexivity.
Qed.
Lemma notags_tag : forall b r, ~ In 62%N b -> printnotags (b ++ r) true = printnotags r true.
Proof.
  induction b as [|c b IH]; intros r H; [reflexivity|]. cbn [app printnotags]. destruct (N.eqb_spec c 62) as [->|]; [destruct H; left; reflexivity|]. apply IH. intros K. apply H. right. exact K.
Qed.
Lemma notags_at : forall l t, untagged l t -> printnotags l false = t.
Proof.
  induction 1 as [l H|a b H1 H2|a b r t H1 H2 U IH].
  - pose proof (notags_plain l [] H) as K. rewrite app_nil_r in K. rewrite K. apply app_nil_r.
  - rewrite notags_plain by exact H1. cbn [printnotags]. rewrite N.eqb_refl. pose proof (notags_tag b [] H2) as K. rewrite app_nil_r in K. rewrite K. apply app_nil_r.
  - rewrite notags_plain by exact H1. cbn [printnotags]. rewrite N.eqb_refl. rewrite notags_tag by exact H2. cbn [printnotags]. rewrite N.eqb_refl. cbn [negb]. rewrite IH. reflexivity.
Qed.
Lemma notags_length : forall l tag, List.length (printnotags l tag) <= List.length l.
Proof.
  induction l as [|c l IH]; intros tag; [reflexivity|]. cbn [printnotags]. destruct tag; [pose proof (IH (negb (c =? 62)%N)); cbn; lia|]. destruct (c =? 60)%N; [pose proof (IH true); cbn; lia|pose proof (IH false); cbn; lia].
Qed.
Lemma notags_in : forall l tag k, In k (printnotags l tag) -> In k l.
Proof.
  induction l as [|c l IH]; intros tag k H; [destruct H|]. cbn [printnotags] in H. destruct tag; [right; eapply IH; exact H|]. destruct (c =? 60)%N; [right; eapply IH; exact H|]. destruct H as [->|H]; [left; reflexivity|right; eapply IH; exact H].
Qed.

(** What the reader puts together. *)
Definition add_text (text t : bytes) : bytes := match text with [] => [] | _ => text ++ [10%N] end ++ t.
Definition all_text (text : bytes) (ts : list bytes) : bytes := fold_left add_text ts text.
Lemma text_lines : forall ls ts texts e r st fuel,
  Forall (fun l => line_of l /\ l <> [] /\ List.length l <= 98) ls -> Forall2 ended ls ts -> Forall2 untagged ls texts -> line_end e ->
  vt_in st = concat ts ++ e ++ r -> List.length ls < fuel -> (100 <= vt_cap st)%N -> (N.of_nat (List.length (vt_text st)) + 1 <= vt_cap st)%N ->
  exists cap, (100 <= cap)%N /\ vtt_text fuel st = ROk (true, mkVtt r [] (vt_range st) (all_text (vt_text st) texts) cap (vt_err st)).
Proof.
  induction ls as [|l ls IH]; intros ts texts e r st fuel F E U He Hin Hf Hc Ht; inversion E as [|? t ? ts' (e1 & He1 & ->) E']; subst; inversion U as [|? x ? xs Ux U']; subst; (destruct fuel as [|fuel]; [cbn in Hf; lia|]); cbn [vtt_text].
  - rewrite (vload_at st [] e r Hin ltac:(constructor) He ltac:(cbn; lia)). exists (vt_cap st). split; [exact Hc|reflexivity].
  - inversion F as [|? ? (Fl & Nl & Ll) F']; subst. cbn [concat] in Hin. rewrite <- !app_assoc in Hin.
    rewrite (vload_at st l e1 _ Hin (line_clean l Fl) He1 ltac:(lia)). cbn [negb with_line vt_line vt_cap vt_text vt_in vt_range vt_err].
    pose proof (notags_length l false) as Lp. pose proof (notags_at l x Ux) as Ex. destruct l as [|c l]; [congruence|]. set (line := c :: l) in *. rewrite Ex in *. assert (Lx : List.length x <= List.length line) by exact Lp. clearbody line.
    set (cap := if (vt_cap st <? N.of_nat (List.length (vt_text st) + List.length line + 2))%N then (2 * vt_cap st)%N else vt_cap st).
    assert (Hcap : (vt_cap st <= cap)%N /\ (N.of_nat (List.length (vt_text st) + List.length line + 2) <= cap)%N) by (unfold cap; destruct (N.ltb_spec (vt_cap st) (N.of_nat (List.length (vt_text st) + List.length line + 2))); lia).
    change (match vt_text st with [] => [] | t :: l0 => (t :: l0) ++ [10%N] end ++ x) with (match vt_text st with [] => [] | _ => vt_text st ++ [10%N] end ++ x) || idtac.
    assert (Ea : (match vt_text st with [] => [] | t => t ++ [10%N] end) ++ x = add_text (vt_text st) x) by (unfold add_text; destruct (vt_text st); reflexivity). rewrite Ea.
    assert (La : List.length (add_text (vt_text st) x) <= List.length (vt_text st) + 1 + List.length line) by (unfold add_text; rewrite app_length; destruct (vt_text st); [cbn [List.length Nat.add]; lia|rewrite app_length; cbn [List.length]; lia]).
    destruct (N.ltb_spec cap (N.of_nat (List.length (add_text (vt_text st) x) + 1))) as [K|K2]; [lia|].
    apply (IH ts' xs e r (mkVtt (concat ts' ++ e ++ r) line (vt_range st) (add_text (vt_text st) x) cap (vt_err st)) fuel); auto; cbn [vt_in vt_cap vt_text]; cbn in Hf; lia.
Qed.
Lemma all_joined : forall ts text, text <> [] -> all_text text ts = match ts with [] => text | _ => text ++ [10%N] ++ joined_lines ts end.
Proof.
  induction ts as [|t ts IH]; intros text H; [reflexivity|]. unfold all_text. cbn [fold_left]. fold (all_text (add_text text t) ts).
  assert (E : add_text text t = text ++ [10%N] ++ t) by (unfold add_text; destruct text; [congruence|rewrite <- app_assoc; reflexivity]). rewrite E, IH by (destruct text; discriminate).
  destruct ts as [|u ts]; [reflexivity|]. change (joined_lines (t :: u :: ts)) with (t ++ [10%N] ++ joined_lines (u :: ts)). rewrite <- !app_assoc. reflexivity.
Qed.
Lemma all_trimmed : forall ts r, trimmed (all_text [] ts) r -> trimmed (joined_lines ts) r.
Proof.
  induction ts as [|t ts IH]; intros r H; [exact H|]. unfold all_text in H. cbn [fold_left] in H. change (add_text [] t) with t in H. fold (all_text t ts) in H. destruct t as [|c t].
  - specialize (IH r H). destruct ts as [|u ts]; [exact IH|]. destruct IH as (a & b & E & A & B). exists (10%N :: a), b. cbn [joined_lines app] in *. split; [f_equal; exact E|]. split; [|exact B]. constructor; [right; split; discriminate|exact A].
  - rewrite all_joined in H by discriminate. destruct ts; exact H.
Qed.

(** * Lines of times *)
Lemma clock_at : forall t, clock t -> (forall r, vtt_stamp (t ++ r) = Some r) /\ List.length t = 12 /\ clean t.
Proof.
  intros t (a & b & c & d & -> & F & La & Lb & Lc & Ld).
  destruct a as [|a1 [|a2 [|]]]; try discriminate. destruct b as [|b1 [|b2 [|]]]; try discriminate. destruct c as [|c1 [|c2 [|]]]; try discriminate. destruct d as [|d1 [|d2 [|d3 [|]]]]; try discriminate.
  cbn [app] in F. repeat match goal with H : Forall _ (_ :: _) |- _ => inversion H; clear H; subst end.
  split; [|split].
  - intros r. change (([a1; a2] ++ L ":" ++ [b1; b2] ++ L ":" ++ [c1; c2] ++ L "." ++ [d1; d2; d3]) ++ r) with (a1 :: a2 :: 58 :: b1 :: b2 :: 58 :: c1 :: c2 :: 46 :: d1 :: d2 :: d3 :: r)%N.
    unfold vtt_stamp, stamp_form. cbn [vtt_form]. repeat (rewrite digit_test by assumption; cbn iota). reflexivity.
  - reflexivity.
  - assert (G : forall x, is_digit x -> x <> 0%N /\ x <> 10%N /\ x <> 13%N) by (intros x [A B]; lia).
    change ([a1; a2] ++ L ":" ++ [b1; b2] ++ L ":" ++ [c1; c2] ++ L "." ++ [d1; d2; d3]) with [a1; a2; 58%N; b1; b2; 58%N; c1; c2; 46%N; d1; d2; d3].
    repeat constructor; try discriminate; apply G; assumption.
Qed.
Lemma cue_at : forall t1 t2 style, clock t1 -> clock t2 -> (style = [] \/ exists s, style = L " " ++ s) ->
  vtt_cue (t1 ++ L " --> " ++ t2 ++ style) = Some (t1 ++ L " --> " ++ t2 ++ firstn 1 style).
Proof.
  intros t1 t2 style C1 C2 Hs. destruct (clock_at t1 C1) as (S1 & L1 & _). destruct (clock_at t2 C2) as (S2 & L2 & _).
  unfold vtt_cue. rewrite S1. change (L " --> " ++ t2 ++ style) with (32 :: 45 :: 45 :: 62 :: 32 :: t2 ++ style)%N at 1. cbn iota. cbn [N.eqb Pos.eqb negb firstn skipn]. change (bytes_eqb [45; 45; 62; 32]%N (L "--> ")) with true. cbn [negb]. rewrite S2. f_equal.
  set (h := t1 ++ L " --> " ++ t2). assert (Lh : List.length h = 29).
  { unfold h. transitivity (List.length t1 + (5 + List.length t2)); [rewrite !app_length; reflexivity|rewrite L1; change (12 + (5 + List.length t2) = 12 + (5 + 12)); f_equal; f_equal; exact L2]. }
  assert (E : forall z, t1 ++ L " --> " ++ t2 ++ z = h ++ z) by (intros z; unfold h; rewrite <- !app_assoc; reflexivity). rewrite !E. clearbody h.
  destruct Hs as [->|(s & ->)].
  - cbn [firstn List.length]. rewrite !app_nil_r, Nat.sub_0_r. apply firstn_all.
  - change (L " " ++ s) with (32%N :: s). cbn [firstn]. change (32 =? 32)%N with true. cbn iota.
    assert (K : List.length (h ++ 32%N :: s) - List.length s = List.length (h ++ [32%N])).
    { rewrite (app_length h (32%N :: s)), (app_length h [32%N]). change (List.length h + S (List.length s) - List.length s = List.length h + 1). generalize (List.length s), (List.length h). clear. intros. lia. }
    transitivity (firstn (List.length (h ++ [32%N])) (h ++ 32%N :: s)); [exact (f_equal (fun n => firstn n (h ++ 32%N :: s)) K)|].
    replace (h ++ 32%N :: s) with ((h ++ [32%N]) ++ s) by (rewrite <- app_assoc; reflexivity). rewrite firstn_app, Nat.sub_diag. cbn [firstn]. rewrite app_nil_r. apply firstn_all.
Qed.

(** * Cues *)
Lemma skip_at : forall es l e r st fuel, Forall line_end es -> clean l -> l <> [] -> line_end e -> (N.of_nat (List.length l) < 4050)%N ->
  vt_in st = concat es ++ l ++ e ++ r -> List.length es < fuel -> vtt_skip fuel st = ROk (true, with_line st r l).
Proof.
  induction es as [|e1 es IH]; intros l e r st fuel F C N He Hl Hin Hf; (destruct fuel as [|fuel]; [cbn in Hf; lia|]); cbn [vtt_skip].
  - rewrite (vload_at st l e r Hin C He Hl). cbn [negb with_line vt_line]. destruct l; [congruence|reflexivity].
  - inversion F as [|? ? E1 F']; subst. cbn [concat] in Hin. rewrite <- !app_assoc in Hin.
    rewrite (vload_at st [] e1 _ Hin ltac:(constructor) E1 ltac:(cbn; lia)). cbn [negb with_line vt_line]. rewrite (IH l e r) by (auto; cbn in Hf; lia). reflexivity.
Qed.
Lemma skip_end : forall es st fuel, Forall line_end es -> vt_in st = concat es -> List.length es < fuel -> exists st', vtt_skip fuel st = ROk (false, st') /\ vt_err st' = vt_err st.
Proof.
  induction es as [|e1 es IH]; intros st fuel F Hin Hf; (destruct fuel as [|fuel]; [cbn in Hf; lia|]); cbn [vtt_skip].
  - unfold vtt_loadline. rewrite Hin. exists st. split; reflexivity.
  - inversion F as [|? ? E1 F']; subst. cbn [concat] in Hin. rewrite (vload_at st [] e1 _ Hin ltac:(constructor) E1 ltac:(cbn; lia)). cbn [negb with_line vt_line].
    destruct (IH (with_line st (concat es) []) fuel F' eq_refl ltac:(cbn in Hf; lia)) as (st' & E & G). exists st'. split; [exact E|exact G].
Qed.
Lemma ends_length : forall es, Forall line_end es -> List.length es <= List.length (concat es).
Proof. induction 1 as [|e es He F IH]; [reflexivity|]. cbn [concat List.length]. rewrite app_length. assert (1 <= List.length e) by (destruct He as [->| ->]; cbn; lia). lia. Qed.
Lemma ended_length : forall ls ts, Forall2 ended ls ts -> List.length ls <= List.length (concat ts).
Proof. induction 1 as [|l t ls ts (e & He & ->) F IH]; [reflexivity|]. cbn [concat List.length]. rewrite !app_length. assert (1 <= List.length e) by (destruct He as [->| ->]; cbn; lia). lia. Qed.
Lemma all_in : forall ts text k, In k (all_text text ts) -> In k text \/ k = 10%N \/ exists t, In t ts /\ In k t.
Proof.
  induction ts as [|t ts IH]; intros text k H; [left; exact H|]. unfold all_text in H. cbn [fold_left] in H. destruct (IH (add_text text t) k H) as [K|[K|(u & Iu & K)]].
  - unfold add_text in K. apply in_app_or in K. destruct K as [K|K]; [|right; right; exists t; split; [left; reflexivity|exact K]]. destruct text as [|c text]; [destruct K|]. apply in_app_or in K. destruct K as [K|[<-|[]]]; [left; exact K|right; left; reflexivity].
  - right. left. exact K.
  - right. right. exists u. split; [right; exact Iu|exact K].
Qed.
Lemma read_at : forall t c r st, cue_text t c -> vt_in st = t ++ r -> (100 <= vt_cap st)%N ->
  exists st', vtt_read st = ROk (true, st') /\ vt_in st' = r /\ (vt_range st', vt_text st') = c /\ (100 <= vt_cap st')%N /\ vt_err st' = vt_err st.
Proof.
  intros t [range text] r st (blank & t1 & t2 & style & line & ls & ts & texts & e & (es & Fe & ->) & C1 & C2 & Hs & (e1 & He1 & ->) & F & E & He & -> & Hr & U & Tr) Hin Hc. cbn [fst snd] in *.
  destruct (clock_at t1 C1) as (_ & L1 & K1). destruct (clock_at t2 C2) as (_ & L2 & K2).
  set (l := t1 ++ L " --> " ++ t2 ++ style) in *.
  assert (Cl : clean l). { unfold l. apply Forall_app. split; [exact K1|]. apply Forall_app. split; [repeat constructor; discriminate|]. apply Forall_app. split; [exact K2|]. destruct Hs as [->|(s & -> & Ls & _)]; [constructor|]. apply Forall_app. split; [repeat constructor; discriminate|apply line_clean; exact Ls]. }
  assert (Ll : (N.of_nat (List.length l) < 4050)%N).
  { assert (Q : List.length l = 12 + (5 + (12 + List.length style))). { unfold l. rewrite (app_length t1), L1. f_equal. change (5 + List.length (t2 ++ style) = 5 + (12 + List.length style)). f_equal. rewrite app_length. f_equal. exact L2. }
    destruct Hs as [->|(s & -> & _ & Ls)]; rewrite Q; [cbn; lia|]. change (List.length (L " " ++ s)) with (S (List.length s)). lia. }
  assert (Nl : l <> []) by (unfold l; destruct t1; discriminate).
  assert (Hcue : vtt_cue l = Some range). { unfold l. rewrite cue_at; [rewrite Hr; reflexivity|assumption|assumption|]. destruct Hs as [->|(s & -> & _)]; [left; reflexivity|right; exists s; reflexivity]. }
  clearbody l. rewrite <- !app_assoc in Hin.
  unfold vtt_read. pose proof (ends_length es Fe) as Le. pose proof (ended_length ls ts E) as Lt.
  assert (Lin : List.length es + List.length ls <= List.length (vt_in st)) by (rewrite Hin, !app_length; lia).
  rewrite (skip_at es l e1 (concat ts ++ e ++ r) st (S (S (List.length (vt_in st)))) Fe Cl Nl He1 Ll Hin ltac:(lia)). cbn [rbind negb with_line vt_line]. rewrite Hcue.
  destruct (text_lines ls ts texts e r (mkVtt (concat ts ++ e ++ r) l range [] (vt_cap st) (vt_err st)) (S (S (List.length (vt_in st)))) F E U He eq_refl ltac:(lia) Hc) as (cap & Hcap & Ex); [cbn [vt_text vt_cap List.length]; lia|].
  cbn [with_line vt_in vt_cap vt_err] in *. rewrite Ex. cbn [rbind negb]. eexists. split; [reflexivity|]. cbn [vt_in vt_range vt_text vt_cap vt_err]. split; [reflexivity|]. split; [|split; [exact Hcap|reflexivity]]. f_equal.
  apply trimmed_unique with (joined_lines texts); [|exact Tr]. apply all_trimmed.
  assert (Nv : forall k, (k = 11 \/ k = 12)%N -> ~ In k (all_text [] texts)).
  { intros k Hk I. destruct (all_in _ _ _ I) as [[]|[->|(u & Iu & Iku)]]; [destruct Hk; discriminate|].
    clear -U F Iu Iku Hk. induction U as [|a b ls texts Ua U IH]; [destruct Iu|]. inversion F as [|? ? (Fa & _) F']; subst. destruct Iu as [->|Iu]; [|exact (IH F' Iu)].
    rewrite <- (notags_at a u Ua) in Iku. apply notags_in in Iku. unfold line_of in Fa. rewrite Forall_forall in Fa. specialize (Fa k Iku). destruct Hk; tauto. }
  apply C81_trim_partial; apply Nv; auto.
Qed.
Lemma cues_at : forall ts cs blank st, Forall2 cue_text ts cs -> blank_lines blank -> vt_in st = concat ts ++ blank -> (100 <= vt_cap st)%N ->
  vtt_all (S (List.length cs)) st = ROk (cs, vt_err st).
Proof.
  induction ts as [|t ts IH]; intros cs blank st F B Hin Hc; inversion F as [|? c ? cs' P F']; subst; cbn [List.length].
  - destruct B as (es & Fe & ->). cbn [concat app] in Hin. cbn [vtt_all]. unfold vtt_read. destruct (skip_end es st (S (S (List.length (vt_in st)))) Fe Hin) as (st' & E & G); [rewrite Hin; pose proof (ends_length es Fe); lia|]. rewrite E. cbn [rbind negb]. rewrite G. reflexivity.
  - cbn [concat] in Hin. rewrite <- app_assoc in Hin. destruct (read_at t c _ st P Hin Hc) as (st' & E & I' & R & C' & G).
    change (vtt_all (S (S (List.length cs'))) st) with (let* (ok, st) := vtt_read st in if negb ok then ROk ([], vt_err st) else let* (l, e) := vtt_all (S (List.length cs')) st in ROk ((vt_range st, vt_text st) :: l, e)).
    rewrite E. cbn [rbind negb]. rewrite (IH cs' blank st' F' B I' C'). cbn [rbind]. rewrite R, G. reflexivity.
Qed.
(** The cues of a file are read, in order and without an error. *)
Theorem C113_read_partial : forall f cs, vtt_text_of f cs -> vtt_file (S (List.length cs)) f = ROk (cs, false).
Proof.
  intros f cs (first & hs & hts & e & ts & blank & (e0 & He0 & ->) & Fh & Eh & He & Fc & B & ->).
  unfold vtt_file, vtt_reader, vtt_init. set (st0 := mkVtt _ [] [] [] 100 false).
  assert (Hin : vt_in st0 = L "WEBVTT" ++ e0 ++ (concat hts ++ e ++ concat ts ++ blank)) by (unfold st0; cbn [vt_in]; rewrite <- !app_assoc; reflexivity).
  rewrite (vload_at st0 _ _ _ Hin ltac:(repeat constructor; discriminate) He0 ltac:(vm_compute; reflexivity)). cbn [negb with_line vt_line vt_in]. rewrite bytes_eqb_refl. cbn [negb].
  erewrite (headers_at hs hts e (concat ts ++ blank)); [|exact Fh|exact Eh|exact He|reflexivity|pose proof (ended_length hs hts Eh); rewrite app_length; lia].
  cbn [rbind]. erewrite (cues_at ts cs blank); [reflexivity|exact Fc|exact B|reflexivity|cbn; lia].
Qed.
(** A file that does not begin with the line WEBVTT is an error. *)
Theorem C113_first_line : forall l e r, line_of l -> (N.of_nat (List.length l) < 4000)%N -> line_end e -> l <> L "WEBVTT" ->
  exists st, vtt_reader (l ++ e ++ r) = ROk st /\ vt_err st = true.
Proof.
  intros l e r Hl Ln He Hn. unfold vtt_reader, vtt_init. rewrite (vload_at (mkVtt (l ++ e ++ r) [] [] [] 100 false) l e r eq_refl (line_clean l Hl) He ltac:(lia)). cbn [negb with_line vt_line].
  destruct (bytes_eqb l (L "WEBVTT")) eqn:E; [apply bytes_eqb_eq in E; congruence|]. cbn [negb rbind]. eexists. split; reflexivity.
Qed.
(** * Broken files *)
Lemma stamp_clock : forall s p, vtt_stamp s = Some p -> exists t, clock t /\ s = t ++ p.
Proof.
  intros s p H. unfold vtt_stamp, stamp_form in H.
  do 12 (destruct s as [|? s]; [cbn in H; repeat match type of H with (if ?b then _ else _) = _ => destruct b; [|discriminate H] end; discriminate H|]).
  cbn [vtt_form] in H.
  repeat match type of H with (if ?b then _ else _) = _ => let K := fresh "K" in destruct b eqn:K; [|discriminate H] end.
  injection H as <-.
  repeat match goal with K : (_ =? _)%N = true |- _ => apply N.eqb_eq in K; subst end.
  match goal with |- exists t, _ /\ ?a :: ?b :: _ :: ?c :: ?d :: _ :: ?e :: ?f :: _ :: ?g :: ?h :: ?i :: _ = _ => exists ([a; b] ++ L ":" ++ [c; d] ++ L ":" ++ [e; f] ++ L "." ++ [g; h; i]); split; [exists [a; b], [c; d], [e; f], [g; h; i]|reflexivity] end.
  split; [reflexivity|]. split; [|auto].
  repeat match goal with K : c_isdigit ?c = true |- _ => assert (is_digit c) by (unfold c_isdigit in K; apply andb_prop in K; destruct K as [A B]; apply N.leb_le in A; apply N.leb_le in B; split; assumption); clear K end.
  cbn [app]. repeat (first [apply Forall_nil | apply Forall_cons; [assumption|]]).
Qed.
Lemma cue_times : forall l r, vtt_cue l = Some r -> times_line l.
Proof.
  intros l r H. unfold vtt_cue in H. destruct (vtt_stamp l) as [p|] eqn:E1; [|discriminate]. destruct p as [|c p]; [discriminate|].
  destruct (N.eqb_spec c 32) as [->|]; [|discriminate]. cbn [negb] in H. destruct (bytes_eqb (firstn 4 p) (L "--> ")) eqn:E2; [|discriminate]. cbn [negb] in H.
  destruct (vtt_stamp (skipn 4 p)) as [q|] eqn:E3; [|discriminate].
  destruct (stamp_clock _ _ E1) as (t1 & C1 & ->). destruct (stamp_clock _ _ E3) as (t2 & C2 & K). apply bytes_eqb_eq in E2.
  exists t1, t2, q. split; [exact C1|]. split; [exact C2|]. rewrite <- (firstn_skipn 4 p), E2, K. reflexivity.
Qed.
(** A line that is not one of times is an error where one is needed, and the cues before it are read. *)
Theorem C113_broken : forall head e ts cs blank l t r, vtt_headers_of head -> line_end e -> Forall2 cue_text ts cs -> blank_lines blank -> some_line l t -> ~ times_line l ->
  vtt_file (S (List.length cs)) (head ++ e ++ concat ts ++ blank ++ t ++ r) = ROk (cs, true).
Proof.
  assert (G : forall ts cs blank l t r st, Forall2 cue_text ts cs -> blank_lines blank -> some_line l t -> ~ times_line l -> vt_in st = concat ts ++ blank ++ t ++ r -> (100 <= vt_cap st)%N -> vtt_all (S (List.length cs)) st = ROk (cs, true)).
  { induction ts as [|t0 ts IH]; intros cs blank l t r st F B Hl Ht Hin Hc; inversion F as [|? c ? cs' P F']; subst; cbn [List.length].
    - destruct B as (es & Fe & ->). destruct Hl as (Ll & Nl & Hn & (e & He & ->)). cbn [concat app] in Hin. rewrite <- app_assoc in Hin. cbn [vtt_all]. unfold vtt_read.
      rewrite (skip_at es l e r st (S (S (List.length (vt_in st)))) Fe (line_clean l Ll) Nl He ltac:(lia) Hin).
      2: { rewrite Hin, app_length. pose proof (ends_length es Fe). lia. }
      cbn [rbind negb with_line vt_line]. destruct (vtt_cue l) as [x|] eqn:E; [destruct (Ht (cue_times l x E))|]. reflexivity.
    - cbn [concat] in Hin. rewrite <- app_assoc in Hin. destruct (read_at t0 c _ st P Hin Hc) as (st' & R & Hin' & Hc' & Cap & _).
      change (vtt_all (S (S (List.length cs'))) st) with (let* (ok, st) := vtt_read st in if negb ok then ROk ([], vt_err st) else let* (l, e) := vtt_all (S (List.length cs')) st in ROk ((vt_range st, vt_text st) :: l, e)).
      rewrite R. cbn [rbind negb].
      rewrite (IH cs' blank l t r st' F' B Hl Ht Hin' Cap). cbn [rbind]. rewrite Hc'. reflexivity. }
  intros head e ts cs blank l t r (first & hs & hts & (e0 & He0 & ->) & Fh & Eh & ->) He Fc B Hl Ht.
  unfold vtt_file, vtt_reader, vtt_init. set (st0 := mkVtt _ [] [] [] 100 false).
  assert (Hin : vt_in st0 = L "WEBVTT" ++ e0 ++ (concat hts ++ e ++ concat ts ++ blank ++ t ++ r)) by (unfold st0; cbn [vt_in]; rewrite <- !app_assoc; reflexivity).
  rewrite (vload_at st0 _ _ _ Hin ltac:(repeat constructor; discriminate) He0 ltac:(vm_compute; reflexivity)). cbn [negb with_line vt_line vt_in]. rewrite bytes_eqb_refl. cbn [negb].
  erewrite (headers_at hs hts e (concat ts ++ blank ++ t ++ r)); [|exact Fh|exact Eh|exact He|reflexivity|pose proof (ended_length hs hts Eh); rewrite app_length; lia].
  cbn [rbind]. erewrite (G ts cs blank l t r); [reflexivity|exact Fc|exact B|exact Hl|exact Ht|reflexivity|cbn; lia].
Qed.
(** A header without a colon and a space is an error, and so is a file that ends in its headers
    or that is empty. *)
Theorem C113_headers : forall head rest, vtt_headers_of head -> rest = [] \/ (exists l t r, some_line l t /\ ~ (exists k v, l = k ++ L ": " ++ v) /\ rest = t ++ r) ->
  exists st, vtt_reader (head ++ rest) = ROk st /\ vt_err st = true.
Proof.
  assert (G : forall hs hts rest st fuel, Forall (fun h => line_of h /\ (N.of_nat (List.length h) < 4000)%N /\ exists k v, h = k ++ L ": " ++ v) hs -> Forall2 ended hs hts ->
    rest = [] \/ (exists l t r, some_line l t /\ ~ (exists k v, l = k ++ L ": " ++ v) /\ rest = t ++ r) -> vt_in st = concat hts ++ rest -> List.length hs < fuel -> exists st', vtt_headers fuel st = ROk (false, st')).
  { induction hs as [|h hs IH]; intros hts rest st fuel F E Hr Hin Hf; inversion E as [|? x ? hts' (e1 & He1 & E1) E']; subst; (destruct fuel as [|fuel]; [cbn in Hf; lia|]); cbn [vtt_headers].
    - cbn [concat app] in Hin. destruct Hr as [->|(l & t & r & (Ll & Nl & Hn & (e & He & ->)) & Hk & ->)].
      + unfold vtt_loadline. rewrite Hin. cbn [negb]. eexists. reflexivity.
      + rewrite <- app_assoc in Hin. rewrite (vload_at st l e r Hin (line_clean l Ll) He ltac:(lia)). cbn [negb with_line vt_line].
        destruct l as [|c l]; [congruence|]. destruct (c_strstr (c :: l) (L ": ") 0) as [i|] eqn:S; [|eexists; reflexivity]. exfalso. apply Hk.
        pose proof (strstr_spec (c :: l) (L ": ") 0) as P. rewrite S in P. destruct P as (j & _ & (k & v & Ek & _) & _). exists k, v. exact Ek.
    - inversion F as [|? ? (Lh & Hn & (k & v & Ek)) F']; subst. cbn [concat] in Hin. rewrite <- !app_assoc in Hin.
      erewrite (vload_at st (k ++ L ": " ++ v) e1); [|rewrite Hin, <- !app_assoc; reflexivity|exact (line_clean _ Lh)|exact He1|lia]. cbn [negb with_line vt_line].
      destruct (k ++ L ": " ++ v) as [|c l] eqn:Ekv; [destruct k; discriminate Ekv|]. rewrite <- Ekv. destruct (c_strstr (k ++ L ": " ++ v) (L ": ") 0) eqn:S; [|destruct (strstr_there _ _ _ S)].
      eapply IH; [exact F'|exact E'|exact Hr|reflexivity|cbn in Hf; lia]. }
  intros head rest (first & hs & hts & (e0 & He0 & ->) & Fh & Eh & ->) Hr.
  unfold vtt_reader, vtt_init. set (st0 := mkVtt _ [] [] [] 100 false).
  assert (Hin : vt_in st0 = L "WEBVTT" ++ e0 ++ (concat hts ++ rest)) by (unfold st0; cbn [vt_in]; rewrite <- !app_assoc; reflexivity).
  rewrite (vload_at st0 _ _ _ Hin ltac:(repeat constructor; discriminate) He0 ltac:(vm_compute; reflexivity)). cbn [negb with_line vt_line vt_in]. rewrite bytes_eqb_refl. cbn [negb].
  match goal with |- context [vtt_headers ?n ?s] => destruct (G hs hts rest s n Fh Eh Hr eq_refl) as (st' & ->) end; [pose proof (ended_length hs hts Eh); rewrite app_length; lia|].
  cbn [rbind]. eexists. split; reflexivity.
Qed.
Theorem C113_empty : exists st, vtt_reader [] = ROk st /\ vt_err st = true.
Proof. eexists. split; reflexivity. Qed.
Definition vtt_head : bytes := L "WEBVTT" ++ [10%N] ++ L "Kind: captions" ++ [10; 10]%N ++ L "00:00:00.120 --> 00:00:02.270 align:start" ++ [10%N].
Definition vtt_range_of : bytes := L "00:00:00.120 --> 00:00:02.270 ".
Example C113_example : vtt_text_of (vtt_head ++ L "so <c>we</c>" ++ [10; 10]%N) [(vtt_range_of, L "so we")].
Proof.
  exists (L "WEBVTT" ++ [10%N]), [L "Kind: captions"], [L "Kind: captions" ++ [10%N]], [10%N], [L "00:00:00.120 --> 00:00:02.270 align:start" ++ [10%N] ++ L "so <c>we</c>" ++ [10; 10]%N], [].
  assert (En : line_end [10%N]) by (left; reflexivity).
  assert (Lf : forall l, forallb (fun c => (13 <? c)%N) l = true -> line_of l). { intros l H. apply Forall_forall. intros c Hc. rewrite forallb_forall in H. specialize (H c Hc). apply N.ltb_lt in H. lia. }
  split; [exists [10%N]; auto|]. split; [constructor; [|constructor]; split; [apply Lf; reflexivity|]; split; [reflexivity|exists (L "Kind"), (L "captions"); reflexivity]|].
  split; [constructor; [exists [10%N]; auto|constructor]|]. split; [exact En|]. split; [|split; [exists []; split; [constructor|reflexivity]|reflexivity]].
  constructor; [|constructor]. exists [], (L "00:00:00.120"), (L "00:00:02.270"), (L " align:start"), (L "00:00:00.120 --> 00:00:02.270 align:start" ++ [10%N]), [L "so <c>we</c>"], [L "so <c>we</c>" ++ [10%N]], [L "so we"], [10%N].
  assert (Ck : forall a b c d, forallb c_isdigit (a ++ b ++ c ++ d) = true -> List.length a = 2 -> List.length b = 2 -> List.length c = 2 -> List.length d = 3 -> clock (a ++ L ":" ++ b ++ L ":" ++ c ++ L "." ++ d)).
  { intros a b c d H. exists a, b, c, d. split; [reflexivity|]. split; [|auto]. apply Forall_forall. intros x Hx. rewrite forallb_forall in H. specialize (H x Hx). unfold c_isdigit in H. apply andb_prop in H. destruct H as [A B]. apply N.leb_le in A. apply N.leb_le in B. split; assumption. }
  split; [exists []; split; [constructor|reflexivity]|]. split; [exact (Ck (L "00") (L "00") (L "00") (L "120") eq_refl eq_refl eq_refl eq_refl eq_refl)|]. split; [exact (Ck (L "00") (L "00") (L "02") (L "270") eq_refl eq_refl eq_refl eq_refl eq_refl)|].
  split; [right; exists (L "align:start"); split; [reflexivity|]; split; [apply Lf; reflexivity|reflexivity]|]. split; [exists [10%N]; auto|].
  split; [constructor; [|constructor]; split; [apply Lf; reflexivity|]; split; [discriminate|cbn; lia]|]. split; [constructor; [exists [10%N]; auto|constructor]|]. split; [exact En|]. split; [reflexivity|]. split; [reflexivity|].
  split.
  - constructor; [|constructor].
    assert (Ni : forall k l, existsb (N.eqb k) l = false -> ~ In k l). { intros k l H I. enough (existsb (N.eqb k) l = true) by congruence. apply existsb_exists. exists k. split; [exact I|apply N.eqb_refl]. }
    change (untagged (L "so " ++ 60%N :: L "c" ++ 62%N :: (L "we" ++ 60%N :: L "/c" ++ 62%N :: [])) (L "so " ++ (L "we" ++ []))).
    apply ut_tag; [apply Ni; reflexivity|apply Ni; reflexivity|]. apply ut_tag; [apply Ni; reflexivity|apply Ni; reflexivity|]. apply ut_plain. intros [].
  - exists [], []. split; [reflexivity|]. split; [constructor|]. split; [constructor|]. cbn [snd].
    split; intros c t H; [change (L "so we") with (115%N :: L "o we") in H; inversion H; subst|change (L "so we") with (L "so w" ++ [101%N]) in H; apply app_inj_tail in H; destruct H as [_ <-]]; intros [E|[E1 E2]]; try discriminate; apply E2; reflexivity.
Qed.
(** Without an empty line behind it the last cue is lost, and longer lines are written past the
    end of the text. *)
Theorem C113_lost_refuted :
  ~ (forall l, l <> [] -> Forall (fun c => 62 < c < 128)%N l -> (Z.of_nat (List.length l) < 98)%Z -> vtt_file 3 (vtt_head ++ l ++ [10%N]) = ROk ([(vtt_range_of, l)], false)) /\
  ~ (forall l, l <> [] -> Forall (fun c => 62 < c < 128)%N l -> (Z.of_nat (List.length l) < 4000)%Z -> vtt_file 3 (vtt_head ++ l ++ [10; 10]%N) = ROk ([(vtt_range_of, l)], false)).
Proof.
  split; intros H.
  - assert (K : vtt_file 3 (vtt_head ++ L "a" ++ [10%N]) = ROk ([], false)) by (vm_compute; reflexivity). rewrite H in K; [discriminate|discriminate|repeat constructor|cbn; lia].
  - assert (K : vtt_file 3 (vtt_head ++ repeat 97%N 200 ++ [10; 10]%N) = RUndefined) by (vm_compute; reflexivity). rewrite H in K; [discriminate|discriminate|apply Forall_forall; intros c Hc; apply repeat_spec in Hc; subst; split; reflexivity|rewrite repeat_length; lia].
Qed.

Print Assumptions C113_read_partial.
Print Assumptions C113_first_line.
Print Assumptions C113_lost_refuted.
(** A file whose second cue has no arrow, and a header without a colon. *)
Example C113_broken_example : vtt_headers_of (L "WEBVTT" ++ [10%N]) /\ some_line (L "00:00:00.120 00:00:02.270") (L "00:00:00.120 00:00:02.270" ++ [10%N]) /\ ~ times_line (L "00:00:00.120 00:00:02.270") /\
  ~ (exists k v, L "Kind captions" = k ++ L ": " ++ v) /\ vtt_file 1 (L "WEBVTT" ++ [10; 10]%N ++ L "00:00:00.120 00:00:02.270" ++ [10%N]) = ROk ([], true).
Proof.
  assert (Lf : forall l, forallb (fun c => (13 <? c)%N) l = true -> line_of l). { intros l H. apply Forall_forall. intros c Hc. rewrite forallb_forall in H. specialize (H c Hc). apply N.ltb_lt in H. lia. }
  split; [exists (L "WEBVTT" ++ [10%N]), [], []; split; [exists [10%N]; split; [left; reflexivity|reflexivity]|repeat constructor]|].
  split; [split; [apply Lf; reflexivity|split; [discriminate|split; [reflexivity|exists [10%N]; split; [left; reflexivity|reflexivity]]]]|].
  split; [intros (t1 & t2 & r & C1 & C2 & E)|split; [intros (k & v & E)|reflexivity]].
  - destruct (clock_at t1 C1) as (_ & L1 & _). apply (f_equal (skipn 13)) in E. do 12 (destruct t1 as [|? t1]; [discriminate L1|]). destruct t1; [|discriminate L1]. discriminate E.
  - apply (strstr_there k v 0). rewrite <- E. reflexivity.
Qed.

Print Assumptions C113_broken.
Print Assumptions C113_headers.
Print Assumptions C113_empty.
