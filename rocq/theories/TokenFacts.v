(** The token sequence of a whole file, and its agreement with SpecLex.v. *)
From Coq Require Import ZifyBool ZifyN.
From Verif Require Import Base Buf Lexer Nodes Cursor BaseFacts SpecLex LexFacts.

Section Tok.
Context `{Unicode}.

Inductive nstep (s : str) (p : pos) : res (option token * buf) -> Prop :=
| NStep_end : gap s [] -> nstep s p (Done (None, mkBuf [] (adv p s)))
| NStep_token g t post k c :
    s = g ++ t ++ post -> gap g (t ++ post) -> lexeme k c t post -> k <> "comment"%string ->
    nstep s p (Done (Some (mkTok k c (adv p (g ++ reported_after k c t))), mkBuf post (adv p (g ++ t))))
| NStep_panic g r why : s = g ++ r -> gap g r -> aborts r -> nstep s p (Panic why).

Lemma comment_length c t post : lexeme "comment" c t post -> 2 <= List.length t.
Proof.
  intros Hl. inversion Hl; subst; try (cbn [lit]; len; fail).
  all: exfalso; match goal with X : In "comment"%string _ |- _ => revert X; clear; cbn; intuition discriminate end.
Qed.

Lemma read_noncomment_step fuel : forall s p, List.length s < fuel ->
  nstep s p (read_noncomment fuel (mkBuf s p)).
Proof.
  induction fuel as [|fuel IH]; intros s p Hf; [lia|]. cbn [read_noncomment].
  pose proof (read_token_step s p) as Hs.
  destruct Hs as [Hb|ws t post k c -> Hws Hl|ws r why -> Hws Ha]; cbn [rbind].
  - apply NStep_end. constructor. exact Hb.
  - cbn [kind_is t_kind]. unfold kind_is. cbn [t_kind].
    destruct (String.eqb_spec k "comment") as [-> |Hk].
    + pose proof (comment_length _ _ _ Hl) as H2.
      specialize (IH post (adv p (ws ++ t)) ltac:(len)).
      destruct IH as [Hg|g t' post' k' c' -> Hg Hl' Hk'|g r why -> Hg Ha].
      * replace (adv (adv p (ws ++ t)) post) with (adv p (ws ++ t ++ post))
          by (rewrite !adv_app; reflexivity).
        apply NStep_end. eapply Gap_comment; eauto. rewrite app_nil_r. exact Hl.
      * replace (adv (adv p (ws ++ t)) (g ++ reported_after k' c' t'))
          with (adv p ((ws ++ t ++ g) ++ reported_after k' c' t')) by (rewrite !adv_app; reflexivity).
        replace (adv (adv p (ws ++ t)) (g ++ t')) with (adv p ((ws ++ t ++ g) ++ t'))
          by (rewrite !adv_app; reflexivity).
        eapply NStep_token; eauto.
        -- rewrite <- !app_assoc. reflexivity.
        -- eapply Gap_comment; eauto.
      * apply (NStep_panic _ p (ws ++ t ++ g) r why); auto.
        -- rewrite <- !app_assoc. reflexivity.
        -- eapply Gap_comment; eauto.
    + eapply NStep_token; eauto. constructor. exact Hws.
  - eapply NStep_panic; eauto. constructor. exact Hws.
Qed.

Lemma gap_skip g post : gap g post -> stops blank post -> forall p fuel, List.length (g ++ post) < fuel ->
  exists g0 ws fuel', g = g0 ++ ws /\ all blank ws /\ List.length (ws ++ post) < fuel' /\
    read_noncomment fuel (mkBuf (g ++ post) p) = read_noncomment fuel' (mkBuf (ws ++ post) (adv p g0)).
Proof.
  intros Hg Hst. induction Hg as [ws post Hws|ws c t g post Hws Hl Hg IH]; intros p fuel Hf.
  - exists [], ws, fuel. auto.
  - destruct fuel as [|fuel]; [lia|].
    pose proof (comment_length _ _ _ Hl) as H2.
    destruct (IH Hst (adv p (ws ++ t)) fuel ltac:(len)) as (g0 & ws' & f' & -> & Hws' & Hf' & E).
    exists (ws ++ t ++ g0), ws', f'. repeat split; auto.
    + rewrite <- !app_assoc. reflexivity.
    + cbn [read_noncomment]. rewrite <- !app_assoc.
      assert (step (ws ++ t ++ g0 ++ ws' ++ post) p
        (Done (Some (mkTok "comment" c (adv p (ws ++ reported_after "comment" c t))),
               mkBuf (g0 ++ ws' ++ post) (adv p (ws ++ t))))) as Hs.
      { rewrite <- app_assoc in Hl. eapply Step_token; eauto. }
      apply step_det in Hs; [|intros; discriminate]. rewrite Hs. cbn [rbind].
      change (kind_is _ "comment") with true. cbv iota.
      rewrite <- app_assoc in E. rewrite E. rewrite !adv_app. reflexivity.
Qed.

Lemma next_token_intro g t post k c p :
  gap g (t ++ post) -> lexeme k c t post -> k <> "comment"%string ->
  next_token (mkBuf (g ++ t ++ post) p) =
  Done (Some (mkTok k c (adv p (g ++ reported_after k c t))), mkBuf post (adv p (g ++ t))).
Proof.
  intros Hg Hl Hk. destruct (lexeme_start _ _ _ _ Hl) as [Hst _]. unfold next_token. cbn [b_rest].
  destruct (gap_skip g _ Hg Hst p (S (List.length (g ++ t ++ post)))) as (g0 & ws & f & -> & Hws & Hf & E); [lia|].
  rewrite E. destruct f as [|f]; [lia|]. cbn [read_noncomment].
  erewrite step_det; [|eapply Step_token; eauto|intros; discriminate]. cbn [rbind].
  unfold kind_is. cbn [t_kind]. destruct (String.eqb_spec k "comment"); [contradiction|].
  rewrite <- !adv_app, <- !app_assoc. reflexivity.
Qed.
Lemma next_token_end g p : gap g [] -> next_token (mkBuf g p) = Done (None, mkBuf [] (adv p g)).
Proof.
  intros Hg. unfold next_token. cbn [b_rest].
  destruct (gap_skip g [] Hg I p (S (List.length g))) as (g0 & ws & f & -> & Hws & Hf & E);
    [rewrite app_nil_r; lia|].
  rewrite !app_nil_r in E. rewrite E. destruct f as [|f]; [lia|]. cbn [read_noncomment].
  erewrite step_det; [|apply Step_end; exact Hws|intros; discriminate]. cbn [rbind].
  rewrite adv_app. reflexivity.
Qed.
Lemma next_token_panic g r p : gap g r -> aborts r -> exists why, next_token (mkBuf (g ++ r) p) = Panic why.
Proof.
  intros Hg Ha. destruct (aborts_start _ Ha) as [Hst _]. unfold next_token. cbn [b_rest].
  destruct (gap_skip g _ Hg Hst p (S (List.length (g ++ r)))) as (g0 & ws & f & -> & Hws & Hf & E); [lia|].
  rewrite E. destruct f as [|f]; [lia|]. cbn [read_noncomment].
  destruct (step_panic ws r (adv p g0) Hws Ha) as (why & ->). exists why. reflexivity.
Qed.
Lemma next_token_step s p : nstep s p (next_token (mkBuf s p)).
Proof. apply read_noncomment_step. cbn [b_rest]. lia. Qed.

(** ** Whole texts *)
Lemma tokenize_lexes fuel : forall pre s, List.length s < fuel ->
  lexes pre s (c_toks (tokenize_aux fuel (mkBuf s (position_after pre))))
              (c_end (tokenize_aux fuel (mkBuf s (position_after pre)))).
Proof.
  induction fuel as [|fuel IH]; intros pre s Hf; [lia|]. cbn [tokenize_aux].
  destruct (next_token_step s (position_after pre)) as [Hg|g t post k c -> Hg Hl Hk|g r why -> Hg Ha].
  - cbn [c_toks c_end b_pos]. rewrite <- position_after_app. constructor. exact Hg.
  - cbn [b_rest].
    destruct (Nat.eqb_spec (List.length post) (List.length (g ++ t ++ post))) as [He|He].
    + assert (g = []) as -> by (destruct g; [reflexivity|len]).
      assert (t = []) as -> by (destruct t; [reflexivity|len]).
      cbn [c_toks c_end app]. cbn [app] in Hl.
      replace (reported_after k c []) with (@nil char)
        by (unfold reported_after; destruct (_ && _); reflexivity).
      apply Lex_stuck. exact Hl.
    + cbn [c_toks c_end]. rewrite <- !position_after_app.
      apply Lex_token; auto.
      * intros E. apply app_eq_nil in E as [-> ->]. apply He. reflexivity.
      * apply IH. assert (g ++ t <> []) as Hne.
        { intros E. apply app_eq_nil in E as [-> ->]. apply He. reflexivity. }
        rewrite !app_length in Hf. destruct g; [destruct t; [contradiction|]|]; len.
  - cbn [c_toks c_end]. eapply Lex_abort; eauto.
Qed.

Lemma lexes_tokenize pre s toks e : lexes pre s toks e -> forall fuel, List.length s < fuel ->
  c_toks (tokenize_aux fuel (mkBuf s (position_after pre))) = toks /\
  same_end e (c_end (tokenize_aux fuel (mkBuf s (position_after pre)))).
Proof.
  intros Hl. induction Hl as [pre g Hg|pre g k c t post toks e Hg Hlx Hk Hne Hl IH|pre k c post Hlx|pre g r why Hg Ha];
    intros fuel Hf; (destruct fuel as [|fuel]; [lia|]); cbn [tokenize_aux].
  - rewrite (next_token_end _ _ Hg). cbn [c_toks c_end b_pos]. rewrite <- position_after_app. split; reflexivity.
  - rewrite (next_token_intro _ _ _ _ _ _ Hg Hlx Hk). cbn [b_rest].
    assert (List.length post < List.length (g ++ t ++ post)) as Hlt.
    { destruct g; [destruct t; [contradiction|]|]; len. }
    destruct (Nat.eqb_spec (List.length post) (List.length (g ++ t ++ post))) as [He|He]; [lia|].
    cbn [c_toks c_end]. rewrite <- !position_after_app.
    destruct (IH fuel ltac:(lia)) as [E1 E2]. split; [congruence|exact E2].
  - assert (k <> "comment"%string) as Hk.
    { intros ->. apply comment_length in Hlx. cbn in Hlx. lia. }
    pose proof (next_token_intro [] [] post k c (position_after pre) (Gap_blank [] _ (all_nil _)) Hlx Hk) as E.
    cbn [app] in E. rewrite E. cbn [b_rest]. rewrite Nat.eqb_refl. cbn [c_toks c_end].
    split; [reflexivity|].
    replace (reported_after k c []) with (@nil char)
      by (unfold reported_after; destruct (_ && _); reflexivity).
    reflexivity.
  - destruct (next_token_panic g r (position_after pre) Hg Ha) as (w & ->). cbn. auto.
Qed.
End Tok.
