(** Messages about tokens. *)
From Coq Require Import Lia.
From Verif Require Import Base Buf Lexer Nodes Cursor Preparser Parser BaseFacts SafeFacts SpecSafe SpecError.

Lemma replace_app d by_ a b : replace1 d by_ (a ++ b) = replace1 d by_ a ++ replace1 d by_ b.
Proof. induction a as [|c a IH]; [reflexivity|]. cbn [app replace1]. destruct (N.eqb c d); rewrite IH; [apply app_assoc|reflexivity]. Qed.
Lemma one_line s : replace1 9 (L "\t") (replace1 10 (L "\n") (replace1 13 (L "\r") s)) = on_one_line s.
Proof.
  induction s as [|c s IH]; [reflexivity|]. unfold on_one_line in *. cbn [map List.concat]. rewrite <- IH. cbn [replace1].
  destruct (N.eqb_spec c 13) as [->|N13]; [rewrite !replace_app; reflexivity|]. cbn [replace1]. destruct (N.eqb_spec c 10) as [->|N10]; [rewrite !replace_app; reflexivity|]. cbn [replace1]. destruct (N.eqb_spec c 9) as [->|N9]; reflexivity.
Qed.
Lemma lines_app a b : on_one_line (a ++ b) = on_one_line a ++ on_one_line b.
Proof. unfold on_one_line. rewrite map_app, concat_app. reflexivity. Qed.
Lemma shown_at t s : shown_token t s -> token_to_string t = Some s.
Proof.
  intros S. inversion S as [k p|k c p Hn Hl|k a b p Hb Ha]; subst; unfold token_to_string; cbn [t_content t_kind].
  - reflexivity.
  - destruct c as [|x c]; [congruence|]. destruct (Nat.ltb_spec 40 (blen (x :: c))); [lia|]. rewrite one_line. reflexivity.
  - destruct (a ++ b) as [|x c] eqn:E; [cbn in Hb; lia|]. destruct (Nat.ltb_spec 40 (blen (x :: c))); [|lia]. rewrite <- E, <- Ha, btake_boundary, one_line, lines_app, <- !app_assoc. reflexivity.
Qed.
(** An unexpected token is an error at its place that says what was expected and shows the token. *)
Theorem C115_unexpected : forall kind note t r e s, t_kind t <> kind -> shown_token t s ->
  fst (expect kind note (mkCur (t :: r) e)) = Err (mkErr (noted note (L "expected '" ++ lit kind ++ L "', got '" ++ s ++ L "'")) (t_pos t)).
Proof.
  intros kind note t r e s Hk S. unfold expect. cbn. apply String.eqb_neq in Hk. unfold kind_is. rewrite Hk. cbn. rewrite (shown_at t s S). reflexivity.
Qed.
(** At the end of the file the message says so. *)
Theorem C115_end : forall kind note p,
  fst (expect kind note (mkCur [] (EndEof p))) = Err (mkErr (noted note (L "expected '" ++ lit kind ++ L "', got end of file")) p).
Proof. reflexivity. Qed.
(** The message is one line. *)
Theorem C115_one_line : forall t s, shown_token t s -> ~ In 10%N (lit (t_kind t)) -> ~ In 10%N s.
Proof.
  assert (G : forall x, ~ In 10%N (on_one_line x)). { intros x K. unfold on_one_line in K. apply in_concat in K. destruct K as (l & Il & I10). apply in_map_iff in Il. destruct Il as (c & <- & _).
    destruct (N.eqb_spec c 13); [cbn in I10; intuition discriminate|]. destruct (N.eqb_spec c 10); [cbn in I10; intuition discriminate|]. destruct (N.eqb_spec c 9); [cbn in I10; intuition discriminate|]. destruct I10 as [E|[]]. congruence. }
  intros t s S Hk. inversion S; subst; cbn [t_kind] in Hk; intros K; repeat (apply in_app_or in K; destruct K as [K|K]); try (exact (Hk K)); try (exact (G _ K)); cbn in K; intuition discriminate.
Qed.
Lemma byte_boundary_dec n s : byte_boundary n s \/ ~ byte_boundary n s.
Proof.
  revert n. induction s as [|c s IH]; intros n.
  - destruct n as [|n]; [left; exists [], []; auto|right]. intros (a & b & E & Ha). destruct a; [discriminate Ha|discriminate E].
  - destruct n as [|n]; [left; exists [], (c :: s); auto|]. destruct (Compare_dec.le_lt_dec (ulen c) (S n)) as [Hc|Hc].
    + destruct (IH (S n - ulen c)) as [(a & b & E & Ha)|Hn].
      * left. exists (c :: a), b. split; [cbn; congruence|cbn [blen]; lia].
      * right. intros (a & b & E & Ha). destruct a as [|x a]; [discriminate Ha|]. injection E as -> E. apply Hn. exists a, b. split; [exact E|cbn [blen] in Ha; lia].
    + right. intros (a & b & E & Ha). destruct a as [|x a]; [discriminate Ha|]. injection E as -> E. cbn [blen] in Ha. lia.
Qed.
(** Which tokens can be shown: all but long ones that would be cut inside a character. *)
Theorem C115_which : forall t, (exists s, shown_token t s) <-> ~ unprintable t.
Proof.
  intros [k c p]. unfold unprintable. cbn [t_content]. split.
  - intros (s & S) (Hl & Hb). apply Hb. inversion S as [| |? a b ? Hab Ha]; subst; [cbn in Hl; lia|lia|]. exists a, b. auto.
  - intros H. destruct c as [|x c]; [eexists; apply Shown_kind|]. destruct (Compare_dec.le_lt_dec (blen (x :: c)) 40) as [Hl|Hl]; [eexists; apply Shown_whole; [discriminate|exact Hl]|].
    destruct (byte_boundary_dec 37 (x :: c)) as [(a & b & E & Ha)|Hn]; [|exfalso; auto]. rewrite E in *. eexists. apply Shown_cut; [exact Hl|exact Ha].
Qed.

(** A string that is not where a name is expected, and a comment that is cut. *)
Definition err_tok : token := mkTok "string" (L "a" ++ [10%N] ++ L "b") (mkPos 3 4).
Example C115_unexpected_example :
  t_kind err_tok <> "word"%string /\ shown_token err_tok (L "[string, a\nb]") /\
  fst (expect "word" (Some "name"%string) (mkCur [err_tok] (EndEof (mkPos 9 9)))) = Err (mkErr (L "name: expected 'word', got '[string, a\nb]'") (mkPos 3 4)).
Proof. split; [discriminate|]. split; [|reflexivity]. refine (Shown_whole _ _ _ _ _); [discriminate|vm_compute; lia]. Qed.
Example C115_cut_example : shown_token (mkTok "comment" (L "0123456789012345678901234567890123456" ++ L "789") (mkPos 0 0)) (L "[comment, 0123456789012345678901234567890123456...]") -> False.
Proof. intros S. apply shown_at in S. discriminate S. Qed.
Example C115_cut_example2 : shown_token (mkTok "comment" (L "0123456789012345678901234567890123456" ++ L "7890") (mkPos 0 0)) (L "[comment, 0123456789012345678901234567890123456...]").
Proof. refine (Shown_cut _ _ _ _ _ _); [vm_compute; lia|reflexivity]. Qed.
Example C115_end_example : fst (expect "}" None (mkCur [] (EndEof (mkPos 1 2)))) = Err (mkErr (L "expected '}', got end of file") (mkPos 1 2)).
Proof. exact (C115_end "}" None (mkPos 1 2)). Qed.
(** A string over two lines can be shown, and on one line. *)
Example C115_which_example : ~ unprintable err_tok.
Proof. apply C115_which. eexists. apply (proj1 (proj2 C115_unexpected_example)). Qed.
Example C115_one_line_example : ~ In 10%N (L "[string, a\nb]").
Proof. apply (C115_one_line err_tok); [apply C115_unexpected_example|cbn; intuition discriminate]. Qed.

Print Assumptions C115_unexpected.
Print Assumptions C115_end.
Print Assumptions C115_one_line.
Print Assumptions C115_which.
