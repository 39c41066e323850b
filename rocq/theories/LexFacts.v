(** The lexer of Lexer.v reads exactly the grammar of SpecLex.v. *)
From Coq Require Import ZifyBool ZifyN.
From Verif Require Import Base Buf Lexer BaseFacts SpecLex.

Ltac len := repeat (progress (cbn [List.length app] in *; rewrite ?app_length in *)); lia.

(** ** Positions *)
Definition adv (p : pos) (s : str) : pos := fold_left adv1 s p.

Lemma adv_app p a b : adv p (a ++ b) = adv (adv p a) b.
Proof. apply fold_left_app. Qed.

Lemma position_after_snoc pre c : position_after (pre ++ [c]) = adv1 (position_after pre) c.
Proof.
  unfold position_after, adv1, c_nl, char in *. rewrite rev_app_distr. cbn [rev app since_newline].
  rewrite count_occ_app. cbn [count_occ].
  destruct (N.eqb_spec c 10) as [-> | H].
  - destruct (N.eq_dec 10 10); [|congruence]. f_equal; cbn [p_line p_col]; lia.
  - destruct (N.eq_dec c 10); [congruence|]. f_equal; cbn [p_line p_col]; lia.
Qed.
Lemma position_after_app pre s : position_after (pre ++ s) = adv (position_after pre) s.
Proof.
  revert pre; induction s as [|c s IH]; intros pre; simpl.
  - rewrite app_nil_r. reflexivity.
  - rewrite <- position_after_snoc, <- IH, <- app_assoc. reflexivity.
Qed.
Lemma position_after_nil : position_after [] = mkPos 1 1.
Proof. reflexivity. Qed.

(** ** Character classes *)
Lemma blank_set c : existsb (N.eqb c) SPACES = blank c.
Proof. unfold SPACES, blank; cbn [existsb]; lia. Qed.
Lemma digit_set c : existsb (N.eqb c) DIGITS = digit c.
Proof. unfold DIGITS, digit; cbn -[N.eqb N.leb]; lia. Qed.
Lemma hex_set c : existsb (N.eqb c) HEXDIGITS = hex_digit c.
Proof. unfold HEXDIGITS, hex_digit, digit; cbn -[N.eqb N.leb]; lia. Qed.
Lemma uint_set c : existsb (N.eqb c) (L "UL") = uint_suffix c.
Proof. unfold uint_suffix; cbn -[N.eqb]; lia. Qed.
Lemma float_set c : existsb (N.eqb c) (L "ULf") = float_suffix c.
Proof. unfold float_suffix; cbn -[N.eqb]; lia. Qed.

(** ** Scanning primitives *)
Lemma all_cons p c s : all p (c :: s) <-> p c = true /\ all p s.
Proof. unfold all. rewrite Forall_cons_iff. tauto. Qed.
Lemma all_nil p : all p [].
Proof. constructor. Qed.
#[export] Hint Resolve all_nil : core.

Lemma take_while_intro f g t r q :
  (forall c, f c = g c) -> all g t -> stops g r -> take_while f (t ++ r) q = (t, mkBuf r (adv q t)).
Proof.
  intros Hfg. revert q; induction t as [|c t IH]; intros q Ha Hs; simpl.
  - destruct r as [|c r]; [reflexivity|]. simpl in *. rewrite Hfg, Hs. reflexivity.
  - apply all_cons in Ha as [H1 H2]. rewrite Hfg, H1, (IH (adv1 q c) H2 Hs). reflexivity.
Qed.
Lemma span_exists (p : char -> bool) s : exists t r, s = t ++ r /\ all p t /\ stops p r.
Proof.
  induction s as [|c s (t & r & -> & Ha & Hs)].
  - exists [], []. repeat split; auto.
  - destruct (p c) eqn:E.
    + exists (c :: t), r. repeat split; auto. apply all_cons; auto.
    + exists [], (c :: t ++ r). repeat split; auto.
Qed.
Lemma read_set_intro set g t r q :
  (forall c, existsb (N.eqb c) set = g c) -> all g t -> stops g r ->
  buf_read_set set (mkBuf (t ++ r) q) = (t, mkBuf r (adv q t)).
Proof. intros. unfold buf_read_set. cbn [b_rest b_pos]. eapply take_while_intro; eauto. Qed.

Lemma skip_app l r q : buf_skip (List.length l) (mkBuf (l ++ r) q) = mkBuf r (adv q l).
Proof. revert q; induction l as [|c l IH]; intros q; simpl; [reflexivity|]. apply IH. Qed.
Lemma skip_literal_intro l r q : buf_skip_literal l (mkBuf (l ++ r) q) = Some (mkBuf r (adv q l)).
Proof.
  unfold buf_skip_literal, buf_literal_follows. cbn [b_rest].
  replace (starts_with (l ++ r) l) with true by (symmetry; apply starts_with_spec; eauto).
  rewrite skip_app. reflexivity.
Qed.
Lemma skip_literal_none l s q : ~ begins s l -> buf_skip_literal l (mkBuf s q) = None.
Proof.
  intros H. unfold buf_skip_literal, buf_literal_follows. cbn [b_rest].
  replace (starts_with s l) with false; [reflexivity|].
  symmetry. apply starts_with_false. exact H.
Qed.
Lemma begins_dec s l : {begins s l} + {~ begins s l}.
Proof.
  destruct (starts_with s l) eqn:E.
  - left. apply starts_with_spec in E. exact E.
  - right. apply starts_with_false in E. exact E.
Qed.
Lemma skip_until_intro t r q :
  Forall (fun c => newline c = false) t -> stops (fun c => negb (newline c)) r ->
  buf_skip_until c_nl (mkBuf (t ++ r) q) = (t, mkBuf r (adv q t)).
Proof.
  intros Ht Hr. unfold buf_skip_until. cbn [b_rest b_pos].
  apply take_while_intro with (g := fun c => negb (newline c)).
  - reflexivity.
  - unfold all. eapply Forall_impl; [|exact Ht]. intros c ->. reflexivity.
  - exact Hr.
Qed.
Lemma line_exists s : exists t r, s = t ++ r /\ Forall (fun c => newline c = false) t
                               /\ stops (fun c => negb (newline c)) r.
Proof.
  destruct (span_exists (fun c => negb (newline c)) s) as (t & r & -> & Ha & Hs).
  exists t, r. repeat split; auto. unfold all in Ha. eapply Forall_impl; [|exact Ha].
  intros c Hc. cbn in Hc. destruct (newline c); [discriminate|reflexivity].
Qed.

(** ** What follows the blanks *)
Section Lex.
Context `{Unicode}.

(** [read_token] once blanks are skipped and a character remains. *)
Definition read_body (next : char) (r : str) (p : pos) : res (option token * buf) :=
  let b := mkBuf (next :: r) p in
  let ret := fun (tb : token * buf) => Done (Some (fst tb), snd tb) in
  match buf_skip_literal (L "#import") b with
  | Some b =>
      let '(_, b) := buf_read_set SPACES b in
      let '(s, b) := buf_skip_until c_nl b in
      Done (Some (mkTok "import" (trim s) p), b)
  | None =>
  if N.eqb next 35 then
    let '(s, b) := buf_skip_until c_nl b in
    Done (Some (mkTok "macro" s p), b)
  else if buf_literal_follows (L "/*") b then ret (read_multiline_comment b)
  else match buf_skip_literal (L "//") b with
  | Some b =>
      let '(s, b) := buf_skip_until c_nl b in
      Done (Some (mkTok "comment" s p), b)
  | None =>
  if is_ascii_alpha next || N.eqb next 95 then ret (read_word b)
  else if is_ascii_digit next then rbind (read_number b) ret
  else if N.eqb next 34 then rbind (read_string_literal b) ret
  else if N.eqb next 39 then rbind (read_char_literal b) ret
  else match read_symbol SYMBOLS b with
  | Some (s, b) => Done (Some (mkTok s [] p), b)
  | None => Done (Some (mkTok "error" (unexpected_char next) p), b)
  end end end.

Lemma read_token_blanks ws s q :
  all blank ws -> stops blank s ->
  read_token (mkBuf (ws ++ s) q) =
  match s with [] => Done (None, mkBuf [] (adv q ws)) | c :: r => read_body c r (adv q ws) end.
Proof.
  intros Hw Hs. unfold read_token.
  rewrite (read_set_intro SPACES blank ws s q blank_set Hw Hs).
  destruct s as [|c r]; reflexivity.
Qed.

(** ** Operators *)
Lemma read_symbol_intro syms op q post :
  In op syms -> ~ In EmptyString syms ->
  (forall op', In op' syms -> begins (lit op ++ post) (lit op') ->
               List.length (lit op') <= List.length (lit op)) ->
  (* the table lists longer operators first among those that are prefixes of one another *)
  (forall l1 l2 o, syms = l1 ++ o :: l2 -> forall o', In o' l2 -> begins (lit o') (lit o) -> o' = o) ->
  read_symbol syms (mkBuf (lit op ++ post) q) = Some (op, mkBuf post (adv q (lit op))).
Proof.
  intros Hin Hne Hlong Hord. induction syms as [|s syms IH]; [destruct Hin|].
  cbn [read_symbol].
  destruct (begins_dec (lit op ++ post) (lit s)) as [Hb|Hb].
  - assert (s = op) as ->.
    { destruct Hin as [-> | Hin]; [reflexivity|].
      symmetry. apply (Hord [] syms s eq_refl op Hin).
      pose proof (Hlong s (or_introl eq_refl) Hb) as Hl.
      destruct Hb as (r & Hr).
      exists (skipn (List.length (lit s)) (lit op)).
      rewrite <- (firstn_skipn (List.length (lit s)) (lit op)) at 1. f_equal.
      apply (f_equal (firstn (List.length (lit s)))) in Hr.
      rewrite !firstn_app, Nat.sub_diag, firstn_all in Hr. simpl in Hr.
      rewrite app_nil_r in Hr.
      replace (List.length (lit s) - List.length (lit op)) with 0 in Hr by lia.
      simpl in Hr. rewrite app_nil_r in Hr. exact Hr. }
    rewrite skip_literal_intro. reflexivity.
  - rewrite skip_literal_none by exact Hb. apply IH.
    + destruct Hin as [-> | Hin]; [|exact Hin]. exfalso. apply Hb. eexists; reflexivity.
    + intros Hi. apply Hne. right. exact Hi.
    + intros op' Hi. apply Hlong. right. exact Hi.
    + intros l1 l2 o -> o' Ho'. apply (Hord (s :: l1) l2 o eq_refl o' Ho').
Qed.
Lemma read_symbol_none syms s q :
  (forall op, In op syms -> ~ begins s (lit op)) -> read_symbol syms (mkBuf s q) = None.
Proof.
  intros Hn. induction syms as [|o syms IH]; [reflexivity|]. cbn [read_symbol].
  rewrite skip_literal_none by (apply Hn; left; reflexivity).
  apply IH. intros op Ho. apply Hn. right. exact Ho.
Qed.

Lemma symbols_operators op : In op SYMBOLS <-> In op operators.
Proof.
  assert (forall l1 l2, forallb (fun x => existsb (String.eqb x) l2) l1 = true -> In op l1 -> In op l2)
    as Haux.
  { intros l1 l2 Hf Hi. rewrite forallb_forall in Hf. specialize (Hf op Hi).
    apply existsb_exists in Hf as (y & Hy & He). apply String.eqb_eq in He. congruence. }
  split; apply Haux; vm_compute; reflexivity.
Qed.

Fixpoint ordered_table (l : list string) : bool :=
  match l with
  | [] => true
  | o :: r => forallb (fun o' => String.eqb o' o || negb (starts_with (lit o') (lit o))) r
              && ordered_table r
  end.
Lemma ordered_table_spec l : ordered_table l = true ->
  forall l1 l2 o, l = l1 ++ o :: l2 -> forall o', In o' l2 -> begins (lit o') (lit o) -> o' = o.
Proof.
  intros Ht l1. revert l Ht; induction l1 as [|x l1 IH]; intros l Ht l2 o -> o' Hi Hb.
  - simpl in Ht. apply andb_true_iff in Ht as [Ht _]. rewrite forallb_forall in Ht.
    specialize (Ht o' Hi). apply orb_true_iff in Ht as [Ht|Ht].
    + apply String.eqb_eq in Ht. exact Ht.
    + apply negb_true_iff, starts_with_false in Ht. exfalso. apply Ht, Hb.
  - simpl in Ht. apply andb_true_iff in Ht as [_ Ht]. eapply (IH _ Ht); eauto.
Qed.
Lemma symbols_ordered : ordered_table SYMBOLS = true.
Proof. vm_compute. reflexivity. Qed.

(** ** Words *)
Lemma word_char_eq c : word_char c = negb (negb (is_alphanumeric c) && negb (N.eqb c 95)).
Proof.
  unfold word_char, is_alphanumeric. change letter with is_ascii_alpha. change digit with is_ascii_digit.
  destruct (if (c <? 128)%N then is_ascii_alpha c || is_ascii_digit c else uni_alnum c), (N.eqb c 95); reflexivity.
Qed.
Lemma bang_not_word : word_char 33%N = false.
Proof. reflexivity. Qed.

Lemma read_word_aux_stop acc r q :
  stops word_char r -> ~ (rev acc = L "calloc" /\ begins r (L "!")) ->
  read_word_aux acc r q = (rev acc, mkBuf r q).
Proof.
  intros Hr Hn. destruct r as [|c r]; [reflexivity|]. cbn [read_word_aux].
  simpl in Hr. rewrite word_char_eq in Hr. apply negb_false_iff in Hr. rewrite Hr.
  destruct (str_eqb_spec (rev acc) (L "calloc")) as [He|He]; cbn [andb]; [|reflexivity].
  destruct (N.eqb_spec c 33) as [-> | Hc]; [|reflexivity].
  exfalso. apply Hn. split; [exact He|]. exists r. reflexivity.
Qed.
Lemma read_word_aux_run w : forall acc r q,
  all word_char w -> read_word_aux acc (w ++ r) q = read_word_aux (rev w ++ acc) r (adv q w).
Proof.
  induction w as [|c w IH]; intros acc r q Hw; [reflexivity|].
  apply all_cons in Hw as [Hc Hw]. cbn [app read_word_aux].
  assert (N.eqb c 33 = false) as Hb.
  { destruct (N.eqb_spec c 33) as [-> | ]; [|reflexivity]. rewrite bang_not_word in Hc. discriminate. }
  rewrite Hb, andb_false_r.
  rewrite word_char_eq in Hc. apply negb_true_iff in Hc. rewrite Hc.
  rewrite (IH (c :: acc) r (adv1 q c) Hw). cbn [rev].
  rewrite <- !app_assoc. reflexivity.
Qed.
Lemma read_word_aux_intro w r q :
  all word_char w -> stops word_char r -> ~ (w = L "calloc" /\ begins r (L "!")) ->
  read_word_aux [] (w ++ r) q = (w, mkBuf r (adv q w)).
Proof.
  intros Hw Hr Hn. rewrite read_word_aux_run by exact Hw. rewrite app_nil_r.
  rewrite read_word_aux_stop; rewrite ?rev_involutive; auto.
Qed.
Lemma read_word_aux_calloc r q :
  read_word_aux [] (L "calloc!" ++ r) q = (L "calloc!", mkBuf r (adv q (L "calloc!"))).
Proof.
  replace (L "calloc!" ++ r) with (L "calloc" ++ 33%N :: r) by reflexivity.
  rewrite read_word_aux_run by (repeat constructor). reflexivity.
Qed.

Lemma find_keyword_Some w k :
  find (fun k => str_eqb (lit k) w) KEYWORDS = Some k -> In k reserved /\ lit k = w.
Proof.
  intros Hf. apply find_some in Hf as [Hi He]. apply str_eqb_eq in He. split; [exact Hi|exact He].
Qed.
Lemma find_keyword_None w :
  find (fun k => str_eqb (lit k) w) KEYWORDS = None -> ~ In w (map lit reserved).
Proof.
  intros Hf Hi. apply in_map_iff in Hi as (k & <- & Hk).
  pose proof (find_none _ _ Hf k Hk) as Hn. cbn in Hn. rewrite str_eqb_refl in Hn. discriminate.
Qed.
Lemma find_keyword_intro k : In k reserved -> find (fun k' => str_eqb (lit k') (lit k)) KEYWORDS = Some k.
Proof.
  intros Hi. destruct (find (fun k' => str_eqb (lit k') (lit k)) KEYWORDS) as [k'|] eqn:E.
  - apply find_keyword_Some in E as [_ E]. apply lit_inj in E. congruence.
  - apply find_keyword_None in E. exfalso. apply E. apply in_map. exact Hi.
Qed.
Lemma keyword_word_chars k : In k reserved -> exists c w, lit k = c :: w /\ word_start c = true /\ all word_char w.
Proof.
  intros Hi. assert (forallb (fun k => match lit k with
     c :: w => word_start c && forallb (fun c => letter c) w | [] => false end) reserved = true) as Hf by reflexivity.
  rewrite forallb_forall in Hf. specialize (Hf k Hi). destruct (lit k) as [|c w]; [discriminate|].
  apply andb_true_iff in Hf as [H1 H2]. exists c, w. repeat split; auto.
  unfold all. rewrite forallb_forall in H2. apply Forall_forall. intros x Hx. specialize (H2 x Hx).
  unfold word_char. replace (N.ltb x 128) with true by (unfold letter in H2; lia).
  rewrite H2. reflexivity.
Qed.
Lemma word_start_char c : word_start c = true -> word_char c = true.
Proof.
  unfold word_start, word_char. intros Hc. destruct (N.eqb_spec c 95); [apply orb_true_r|].
  rewrite orb_false_r in *. replace (N.ltb c 128) with true by (unfold letter in Hc; lia).
  rewrite Hc. reflexivity.
Qed.

(** ** Strings *)
Lemma read_substr_close b : forall r q, escaped b ->
  read_substr (b ++ 34%N :: r) q = Done (b, mkBuf (34%N :: r) (adv q b)).
Proof.
  intros r q Hb. revert q. induction Hb as [|c s H1 H2 Hs IH|c s Hs IH]; intros q.
  - reflexivity.
  - cbn [app read_substr].
    replace (N.eqb c 34) with false by lia. replace (N.eqb c 92) with false by lia.
    rewrite IH. reflexivity.
  - cbn [app read_substr]. rewrite IH. reflexivity.
Qed.
Lemma read_substr_open b : forall q, escaped b -> read_substr b q = Done (b, mkBuf [] (adv q b)).
Proof.
  intros q Hb. revert q. induction Hb as [|c s H1 H2 Hs IH|c s Hs IH]; intros q.
  - reflexivity.
  - cbn [app read_substr].
    replace (N.eqb c 34) with false by lia. replace (N.eqb c 92) with false by lia.
    rewrite IH. reflexivity.
  - cbn [app read_substr]. rewrite IH. reflexivity.
Qed.
Lemma read_substr_panic b : forall q, escaped b ->
  read_substr (b ++ [92%N]) q = Panic "read_string_literal: unwrap at line 174".
Proof.
  intros q Hb. revert q. induction Hb as [|c s H1 H2 Hs IH|c s Hs IH]; intros q.
  - reflexivity.
  - cbn [app read_substr].
    replace (N.eqb c 34) with false by lia. replace (N.eqb c 92) with false by lia.
    rewrite IH. reflexivity.
  - cbn [app read_substr]. rewrite IH. reflexivity.
Qed.
Lemma escaped_exists n : forall s, List.length s <= n ->
  exists b, escaped b /\ (s = b \/ (exists r, s = b ++ 34%N :: r) \/ s = b ++ [92%N]).
Proof.
  induction n as [|n IH]; intros s Hl.
  - destruct s; [|simpl in Hl; lia]. exists []. split; [constructor|auto].
  - destruct s as [|c s]; [exists []; split; [constructor|auto]|].
    destruct (N.eq_dec c 34) as [-> | H1].
    { exists []. split; [constructor|]. right; left. exists s. reflexivity. }
    destruct (N.eq_dec c 92) as [-> | H2].
    + destruct s as [|c2 s].
      * exists []. split; [constructor|]. right; right. reflexivity.
      * destruct (IH s) as (b & Hb & Hs); [simpl in Hl; lia|].
        exists (92%N :: c2 :: b). split; [constructor; exact Hb|].
        destruct Hs as [-> | [(r & ->) | ->]]; [left|right; left; exists r|right; right]; reflexivity.
    + destruct (IH s) as (b & Hb & Hs); [simpl in Hl; lia|].
      exists (c :: b). split; [constructor; auto|].
      destruct Hs as [-> | [(r & ->) | ->]]; [left|right; left; exists r|right; right]; reflexivity.
Qed.

Lemma pieces_head c s : pieces c s -> s = [] \/ exists r, s = 34%N :: r.
Proof. intros Hp. destruct Hp; [left; reflexivity|right; eexists; reflexivity]. Qed.

(** Reading the complete pieces [s] and going on with [r]. *)
Lemma quoted_app b ws s : quoted b ++ ws ++ s = 34%N :: b ++ 34%N :: ws ++ s.
Proof. unfold quoted. cbn [app]. rewrite <- app_assoc. reflexivity. Qed.

Lemma read_pieces_step c s (Hp : pieces c s) : forall fuel p acc r q,
  stops blank r -> List.length (s ++ r) < fuel ->
  exists fuel', List.length r < fuel' /\
  read_pieces fuel p acc (mkBuf (s ++ r) q) = read_pieces fuel' p (acc ++ c) (mkBuf r (adv q s)).
Proof.
  induction Hp as [|b ws c s Hb Hw Hs Hp IH]; intros fuel p acc r q Hr Hf.
  - exists fuel. split; [exact Hf|]. rewrite app_nil_r. reflexivity.
  - destruct fuel as [|fuel]; [lia|].
    assert (List.length (s ++ r) < fuel) as Hf2.
    { rewrite quoted_app in Hf. len. }
    destruct (IH fuel p (acc ++ b) r (adv q (quoted b ++ ws)) Hr Hf2) as (f' & Hf' & He).
    exists f'. split; [exact Hf'|].
    replace ((quoted b ++ ws ++ s) ++ r) with (34%N :: b ++ 34%N :: ws ++ (s ++ r)).
    2: { rewrite quoted_app. cbn. rewrite <- !app_assoc. cbn. rewrite <- !app_assoc. reflexivity. }
    cbn [read_pieces buf_peek b_rest buf_skip buf_get b_pos].
    rewrite (read_substr_close b _ _ Hb). cbn [rbind buf_get b_rest b_pos].
    rewrite (read_set_intro SPACES blank ws (s ++ r) _ blank_set Hw).
    2: { destruct (pieces_head _ _ Hp) as [-> | (r' & ->)]; [exact Hr|reflexivity]. }
    replace (adv (adv1 (adv (adv1 q 34%N) b) 34%N) ws) with (adv q (quoted b ++ ws)).
    2: { rewrite adv_app. unfold quoted. change (34%N :: b ++ [34%N]) with ([34%N] ++ b ++ [34%N]).
         rewrite !adv_app. reflexivity. }
    rewrite He. rewrite <- app_assoc. rewrite <- adv_app, <- app_assoc. reflexivity.
Qed.

Lemma pieces_exists n : forall s, List.length s <= n -> stops blank s ->
  exists c t r, s = t ++ r /\ pieces c t /\ stops blank r /\
    (stops (N.eqb 34) r \/ exists b, escaped b /\ (r = 34%N :: b \/ r = 34%N :: b ++ [92%N])).
Proof.
  induction n as [|n IH]; intros s Hl Hs.
  - destruct s; [|simpl in Hl; lia]. exists [], [], []. repeat split; auto. constructor.
  - destruct s as [|c s]; [exists [], [], []; repeat split; auto; constructor|].
    destruct (N.eq_dec c 34) as [-> | Hc].
    2: { exists [], [], (c :: s). repeat split; auto; [constructor|]. left.
         cbn [stops]. apply N.eqb_neq. congruence. }
    destruct (escaped_exists _ s (Nat.le_refl _)) as (b & Hb & [-> | [(r & ->) | ->]]).
    + exists [], [], (34%N :: b). repeat split; auto; [constructor|]. right. exists b. auto.
    + destruct (span_exists blank r) as (ws & r' & -> & Hw & Hr').
      destruct (IH r') as (c & t & r & -> & Hp & Hr & Hend).
      { len. }
      { exact Hr'. }
      exists (b ++ c), (quoted b ++ ws ++ t), r. repeat split; auto.
      * rewrite quoted_app. cbn. rewrite <- !app_assoc. cbn. rewrite <- !app_assoc. reflexivity.
      * constructor; auto. destruct t; [exact I|exact Hr'].
    + exists [], [], (34%N :: b ++ [92%N]). repeat split; auto; [constructor|]. right. exists b. auto.
Qed.

(** ** Block comments *)
Lemma until_literal_intro l : forall t s q,
  (forall a b, a ++ b = t -> b <> [] -> ~ begins (b ++ s) l) -> (begins s l \/ s = []) ->
  until_literal_aux l (t ++ s) q = (t, mkBuf s (adv q t)).
Proof.
  induction t as [|c t IH]; intros s q Hn Hb; cbn [app].
  - destruct s as [|c s]; [reflexivity|]. cbn [until_literal_aux].
    replace (starts_with (c :: s) l) with true; [reflexivity|].
    symmetry. apply starts_with_spec. destruct Hb as [Hb|]; [exact Hb|discriminate].
  - cbn [until_literal_aux].
    replace (starts_with (c :: t ++ s) l) with false.
    2: { symmetry. apply starts_with_false. apply (Hn [] (c :: t)); [reflexivity|discriminate]. }
    rewrite (IH s (adv1 q c)); [reflexivity| |exact Hb].
    intros a b He Hne. apply (Hn (c :: a) b); [cbn; congruence|exact Hne].
Qed.
Lemma until_exists l s : l <> [] -> exists t r, s = t ++ r
  /\ (forall a b, a ++ b = t -> b <> [] -> ~ begins (b ++ r) l) /\ (begins r l \/ r = []).
Proof.
  intros Hl. induction s as [|c s (t & r & -> & Hn & Hb)].
  - exists [], []. repeat split; auto. intros a b He Hne. apply app_eq_nil in He as [_ ->]. congruence.
  - destruct (begins_dec (c :: t ++ r) l) as [Hx|Hx].
    + exists [], (c :: t ++ r). repeat split; auto.
      intros a b He Hne. apply app_eq_nil in He as [_ ->]. congruence.
    + exists (c :: t), r. repeat split; auto. intros a b He Hne.
      destruct a as [|x a]; [cbn in He; subst b; exact Hx|].
      cbn in He. injection He as -> He. apply (Hn a b He Hne).
Qed.

(** ** Numbers *)
(** The integer and fraction part, as [read_number] reads it. *)
Definition num_head (b : buf) : str * str * buf :=
  let '(num, b) := buf_read_set DIGITS b in
  match buf_peek b with
  | Some 46%N =>
      let b := buf_skip 1 b in
      let '(frac, b) := buf_read_set DIGITS b in
      (L "ULf", num ++ L "." ++ frac, b)
  | _ => (L "UL", num, b)
  end.
Definition num_exp (num : str) (b : buf) : res (str * buf) :=
  match buf_peek b with
  | Some c =>
      if N.eqb c 101 || N.eqb c 69 then
        let b := buf_skip 1 b in
        match buf_peek b with
        | None => Panic "read_number: unwrap at line 124"
        | Some c2 =>
            let '(num, b) :=
              if N.eqb c2 45 then (num ++ [c] ++ L "-", buf_skip 1 b) else (num ++ [c], b) in
            let '(ds, b) := buf_read_set DIGITS b in
            Done (num ++ ds, b)
        end
      else Done (num, b)
  | None => Done (num, b)
  end.
Definition num_tail (p : pos) (modifiers num : str) (b : buf) : res (token * buf) :=
  let '(suf, b) := buf_read_set modifiers b in
  let num := num ++ suf in
  match buf_peek b with
  | Some c => if is_ascii_alpha c
              then Done (mkTok "error" (unexpected_char c) (b_pos b), b)
              else Done (mkTok "num" num p, b)
  | None => Done (mkTok "num" num p, b)
  end.
Lemma read_number_eq b : buf_literal_follows (L "0x") b = false ->
  read_number b =
  let '(m, num, b') := num_head b in
  rbind (num_exp num b') (fun '(num, b'') => num_tail (b_pos b) m num b'').
Proof.
  intros Hf. unfold read_number. rewrite Hf. unfold num_head.
  destruct (buf_read_set DIGITS b) as [num b1].
  destruct (buf_peek b1) as [c|]; [|reflexivity].
  destruct c as [|p]; [reflexivity|].
  do 6 (destruct p as [p|p|]; try reflexivity).
Qed.

Definition suffix_of (frac : str) := match frac with [] => uint_suffix | _ => float_suffix end.
Definition modifiers_of (frac : str) := match frac with [] => L "UL" | _ => L "ULf" end.
Lemma modifiers_suffix frac c : existsb (N.eqb c) (modifiers_of frac) = suffix_of frac c.
Proof. destruct frac; [apply uint_set|apply float_set]. Qed.

Lemma num_head_intro int frac r q :
  all digit int -> stops digit (frac ++ r) ->
  (frac = [] /\ stops (N.eqb 46) r \/ exists ds, frac = 46%N :: ds /\ all digit ds /\ stops digit r) ->
  num_head (mkBuf (int ++ frac ++ r) q) = (modifiers_of frac, int ++ frac, mkBuf r (adv q (int ++ frac))).
Proof.
  intros Hi Hs Hf. unfold num_head.
  rewrite (read_set_intro DIGITS digit int (frac ++ r) q digit_set Hi Hs).
  destruct Hf as [[-> Hr]|(ds & -> & Hds & Hr)].
  - cbn [app]. rewrite !app_nil_r. cbn [buf_peek b_rest]. destruct r as [|c r]; [reflexivity|].
    cbn [stops] in Hr. destruct c as [|p]; [reflexivity|].
    do 6 (destruct p as [p|p|]; try reflexivity). discriminate.
  - cbn [app buf_peek b_rest buf_skip buf_get b_pos].
    rewrite (read_set_intro DIGITS digit ds r _ digit_set Hds Hr).
    rewrite adv_app. reflexivity.
Qed.
Lemma num_exp_intro num ex r q :
  (ex = [] /\ stops (fun c => N.eqb c 101 || N.eqb c 69) r
   \/ exists e sign ds, ex = e :: sign ++ ds /\ (e = 101 \/ e = 69)%N
          /\ (sign = [] /\ stops (N.eqb 45) (ds ++ r) \/ sign = [45%N])
          /\ all digit ds /\ stops digit r /\ sign ++ ds ++ r <> []) ->
  num_exp num (mkBuf (ex ++ r) q) = Done (num ++ ex, mkBuf r (adv q ex)).
Proof.
  intros [[-> Hr]|(e & sign & ds & -> & He & Hsign & Hds & Hr & Hne)]; unfold num_exp.
  - rewrite app_nil_r. destruct r as [|c r]; [reflexivity|].
    cbn [stops app buf_peek b_rest] in *. rewrite Hr. reflexivity.
  - cbn [app buf_peek b_rest buf_skip buf_get b_pos].
    replace (N.eqb e 101 || N.eqb e 69) with true by (destruct He as [-> | ->]; reflexivity).
    destruct Hsign as [[-> Hs]| ->].
    + cbn [app] in *. destruct (ds ++ r) as [|c2 r2] eqn:E; [congruence|].
      cbn [stops buf_peek b_rest] in *. rewrite N.eqb_sym in Hs. rewrite Hs. rewrite <- E.
      rewrite (read_set_intro DIGITS digit ds r _ digit_set Hds Hr).
      rewrite <- app_assoc. reflexivity.
    + cbn [app N.eqb Pos.eqb buf_peek buf_skip buf_get b_rest b_pos].
      rewrite (read_set_intro DIGITS digit ds r _ digit_set Hds Hr).
      rewrite <- app_assoc. reflexivity.
Qed.
Lemma num_tail_intro p num frac suf post q :
  all (suffix_of frac) suf -> stops (suffix_of frac) post ->
  num_tail p (modifiers_of frac) num (mkBuf (suf ++ post) q) =
  match post with
  | c :: _ => if letter c then Done (mkTok "error" (message_unexpected c) (adv q suf), mkBuf post (adv q suf))
              else Done (mkTok "num" (num ++ suf) p, mkBuf post (adv q suf))
  | [] => Done (mkTok "num" (num ++ suf) p, mkBuf post (adv q suf))
  end.
Proof.
  intros Hs Hp. unfold num_tail.
  rewrite (read_set_intro (modifiers_of frac) (suffix_of frac) suf post q (modifiers_suffix frac) Hs Hp).
  destruct post as [|c post]; reflexivity.
Qed.
Lemma follows_false l s q : ~ begins s l -> buf_literal_follows l (mkBuf s q) = false.
Proof. intros Hb. unfold buf_literal_follows. cbn. apply starts_with_false, Hb. Qed.
Lemma follows_true l s q : begins s l -> buf_literal_follows l (mkBuf s q) = true.
Proof. intros Hb. unfold buf_literal_follows. cbn. apply starts_with_spec, Hb. Qed.

Lemma read_number_decimal s post q : decimal s post ->
  read_number (mkBuf (s ++ post) q) =
  match post with
  | c :: _ => if letter c then Done (mkTok "error" (message_unexpected c) (adv q s), mkBuf post (adv q s))
              else Done (mkTok "num" s q, mkBuf post (adv q s))
  | [] => Done (mkTok "num" s q, mkBuf post (adv q s))
  end.
Proof.
  intros Hd. destruct Hd as [int frac ex suf post Hne Hi H0x Hsd Hfrac Hex Hsuf Hpost].
  replace ((int ++ frac ++ ex ++ suf) ++ post) with (int ++ frac ++ ex ++ suf ++ post)
    by (rewrite <- !app_assoc; reflexivity).
  rewrite read_number_eq by (apply follows_false; exact H0x).
  rewrite (num_head_intro int frac (ex ++ suf ++ post) q Hi Hsd Hfrac).
  rewrite (num_exp_intro (int ++ frac) ex (suf ++ post) _ Hex). cbn [rbind].
  rewrite (num_tail_intro q _ frac suf post _ Hsuf Hpost). cbn [b_pos].
  rewrite <- !app_assoc.
  replace (adv (adv (adv q (int ++ frac)) ex) suf) with (adv q (int ++ frac ++ ex ++ suf))
    by (rewrite !adv_app; reflexivity).
  reflexivity.
Qed.
Lemma read_number_panic int frac e q :
  all digit int -> ~ begins (int ++ frac ++ [e]) (L "0x") ->
  (frac = [] \/ exists ds, frac = 46%N :: ds /\ all digit ds) -> (e = 101 \/ e = 69)%N ->
  read_number (mkBuf (int ++ frac ++ [e]) q) = Panic "read_number: unwrap at line 124".
Proof.
  intros Hi H0 Hf He. rewrite read_number_eq by (apply follows_false; exact H0).
  rewrite (num_head_intro int frac [e] q Hi).
  - destruct He as [-> | ->]; reflexivity.
  - destruct Hf as [-> |(ds & -> & _)]; [|reflexivity]. destruct He as [-> | ->]; reflexivity.
  - destruct Hf as [-> |(ds & -> & Hds)].
    + left. split; [reflexivity|]. destruct He as [-> | ->]; reflexivity.
    + right. exists ds. repeat split; auto. destruct He as [-> | ->]; reflexivity.
Qed.
(** Every text that starts with a digit and not with [0x] is a decimal number or
    the aborting case. *)
Lemma decimal_exists c s : digit c = true -> ~ begins (c :: s) (L "0x") ->
  (exists t post, c :: s = t ++ post /\ t <> [] /\ decimal t post)
  \/ (exists int frac e, c :: s = int ++ frac ++ [e] /\ int <> [] /\ all digit int
         /\ (frac = [] \/ exists ds, frac = 46%N :: ds /\ all digit ds) /\ (e = 101 \/ e = 69)%N).
Proof.
  intros Hc H0.
  destruct (span_exists digit s) as (i & r & -> & Hi & Hr).
  assert (exists frac r1, r = frac ++ r1 /\ (frac = [] /\ stops (N.eqb 46) r1
      \/ exists ds, frac = 46%N :: ds /\ all digit ds /\ stops digit r1)) as (frac & r1 & -> & Hfrac).
  { destruct r as [|d r]; [exists [], []; split; auto; left; split; constructor|].
    destruct (N.eq_dec d 46) as [-> |Hd].
    - destruct (span_exists digit r) as (ds & r1 & -> & Hds & Hr1).
      exists (46%N :: ds), r1. split; [reflexivity|]. right. eauto.
    - exists [], (d :: r). split; [reflexivity|]. left. split; [reflexivity|].
      cbn [stops]. apply N.eqb_neq. congruence. }
  assert ((exists e, r1 = [e] /\ (e = 101 \/ e = 69)%N) \/ exists ex r2, r1 = ex ++ r2 /\
     (ex = [] /\ stops (fun c => N.eqb c 101 || N.eqb c 69) r2
     \/ exists e sign ds, ex = e :: sign ++ ds /\ (e = 101 \/ e = 69)%N
                     /\ (sign = [] /\ stops (N.eqb 45) (ds ++ r2) \/ sign = [45%N])
                     /\ all digit ds /\ stops digit r2 /\ sign ++ ds ++ r2 <> [])) as Hex.
  { destruct r1 as [|e r1].
    { right. exists [], []. split; [reflexivity|]. left. split; constructor. }
    destruct (N.eqb e 101 || N.eqb e 69) eqn:He.
    2: { right. exists [], (e :: r1). split; [reflexivity|]. left. split; [reflexivity|exact He]. }
    assert (e = 101 \/ e = 69)%N as He' by lia.
    destruct r1 as [|c2 r1]; [left; eauto|]. right.
    destruct (N.eq_dec c2 45) as [-> |Hc2].
    - destruct (span_exists digit r1) as (ds & r2 & -> & Hds & Hr2).
      exists (e :: [45%N] ++ ds), r2. split; [reflexivity|]. right.
      exists e, [45%N], ds. repeat split; auto. discriminate.
    - destruct (span_exists digit (c2 :: r1)) as (ds & r2 & E & Hds & Hr2).
      exists (e :: [] ++ ds), r2. split; [cbn; rewrite E; reflexivity|]. right.
      exists e, [], ds. repeat split; auto.
      + left. split; [reflexivity|]. rewrite <- E. cbn [stops]. apply N.eqb_neq. congruence.
      + cbn. rewrite <- E. discriminate. }
  destruct Hex as [(e & -> & He)|(ex & r2 & -> & Hex)].
  - right. exists (c :: i), frac, e. repeat split; auto; try discriminate.
    + apply all_cons; auto.
    + destruct Hfrac as [[-> _]|(ds & -> & Hds & _)]; eauto.
  - left. destruct (span_exists (suffix_of frac) r2) as (suf & post & -> & Hsuf & Hpost).
    exists ((c :: i) ++ frac ++ ex ++ suf), post.
    split; [cbn; rewrite <- !app_assoc; reflexivity|]. split; [discriminate|].
    apply Decimal; auto; try discriminate. apply all_cons; auto.
Qed.

(** ** Completeness: every token of the grammar is read back *)

Lemma stops_begins p s c r : s = c :: r -> p c = true -> ~ stops p s.
Proof. intros -> Hc. cbn. congruence. Qed.

Lemma begins_cons_ne c s x l : c <> x -> ~ begins (c :: s) (x :: l).
Proof. intros Hne (r & Hr). cbn in Hr. congruence. Qed.

Definition plain_start (c : char) : Prop := c <> 35%N /\ c <> 47%N.
Lemma read_body_plain c r p : plain_start c ->
  read_body c r p =
  let b := mkBuf (c :: r) p in
  let ret := fun (tb : token * buf) => Done (Some (fst tb), snd tb) in
  if is_ascii_alpha c || N.eqb c 95 then ret (read_word b)
  else if is_ascii_digit c then rbind (read_number b) ret
  else if N.eqb c 34 then rbind (read_string_literal b) ret
  else if N.eqb c 39 then rbind (read_char_literal b) ret
  else match read_symbol SYMBOLS b with
  | Some (s, b) => Done (Some (mkTok s [] p), b)
  | None => Done (Some (mkTok "error" (unexpected_char c) p), b)
  end.
Proof.
  intros [H1 H2]. unfold read_body.
  rewrite skip_literal_none by (apply begins_cons_ne; exact H1).
  replace (N.eqb c 35) with false by lia.
  rewrite follows_false by (apply begins_cons_ne; exact H2).
  rewrite skip_literal_none by (apply begins_cons_ne; exact H2). reflexivity.
Qed.
Definition read_sym (c : char) (r : str) (p : pos) : res (option token * buf) :=
  match read_symbol SYMBOLS (mkBuf (c :: r) p) with
  | Some (s, b) => Done (Some (mkTok s [] p), b)
  | None => Done (Some (mkTok "error" (unexpected_char c) p), mkBuf (c :: r) p)
  end.
Lemma read_body_symbol c r p :
  c <> 35%N -> c <> 34%N -> c <> 39%N -> word_start c = false -> digit c = false ->
  ~ begins (c :: r) (L "//") -> ~ begins (c :: r) (L "/*") ->
  read_body c r p = read_sym c r p.
Proof.
  intros H1 H2 H3 H4 H5 H6 H7. unfold read_body.
  rewrite skip_literal_none by (apply begins_cons_ne; exact H1).
  replace (N.eqb c 35) with false by lia.
  rewrite follows_false by exact H7. rewrite skip_literal_none by exact H6.
  change (is_ascii_alpha c || N.eqb c 95) with (word_start c). rewrite H4.
  change (is_ascii_digit c) with (digit c). rewrite H5.
  replace (N.eqb c 34) with false by lia. replace (N.eqb c 39) with false by lia. reflexivity.
Qed.
Definition sym_start (c : char) : bool :=
  negb (N.eqb c 35 || N.eqb c 34 || N.eqb c 39 || word_start c || digit c || blank c).
Lemma operator_start op : In op operators ->
  exists c w, lit op = c :: w /\ sym_start c = true.
Proof.
  intros Hi. assert (forallb (fun k => match lit k with
     c :: w => sym_start c | [] => false end) operators = true) as Hf by (vm_compute; reflexivity).
  rewrite forallb_forall in Hf. specialize (Hf op Hi). destruct (lit op) as [|c w]; [discriminate|]. eauto.
Qed.
Lemma sym_start_spec c : sym_start c = true ->
  c <> 35%N /\ c <> 34%N /\ c <> 39%N /\ word_start c = false /\ digit c = false /\ blank c = false.
Proof.
  unfold sym_start. intros Hc. apply negb_true_iff in Hc.
  repeat match goal with X : _ || _ = false |- _ => apply orb_false_iff in X as [X ?] end.
  repeat split; auto; apply N.eqb_neq; assumption.
Qed.

Lemma word_start_plain c : word_start c = true -> plain_start c /\ is_ascii_alpha c || N.eqb c 95 = true.
Proof.
  intros Hc. split; [|exact Hc]. unfold word_start, letter in Hc. split; intros ->; discriminate.
Qed.
Lemma read_word_body c w post p word r' :
  word_start c = true ->
  read_word_aux [] (c :: w ++ post) p = (word, r') ->
  read_body c (w ++ post) p =
  match find (fun k => str_eqb (lit k) word) KEYWORDS with
  | Some k => Done (Some (mkTok k [] p), r')
  | None => Done (Some (mkTok "word" word p), r')
  end.
Proof.
  intros Hc Hr. destruct (word_start_plain c Hc) as [Hp Ha].
  rewrite (read_body_plain _ _ _ Hp). cbv zeta. rewrite Ha. unfold read_word. cbn [b_rest b_pos].
  rewrite Hr. destruct (find _ _); reflexivity.
Qed.

Lemma reported_not_error k c t : k <> "error"%string -> reported_after k c t = [].
Proof.
  intros Hk. unfold reported_after. destruct (String.eqb_spec k "error"); [congruence|reflexivity].
Qed.

Lemma block_comment_cond inside post :
  (forall a b, inside ++ L "*" <> a ++ L "*/" ++ b) <->
  (forall a b, a ++ b = inside -> b <> [] -> ~ begins (b ++ L "*/" ++ post) (L "*/")).
Proof.
  split.
  - intros Hn a b <- Hb (r & Hr). destruct b as [|x [|y b]]; [congruence| |].
    + cbn in Hr. injection Hr as _ Hr. discriminate.
    + cbn in Hr. injection Hr as -> -> Hr. apply (Hn a (b ++ L "*")).
      rewrite <- app_assoc. reflexivity.
  - intros Hn a b He.
    destruct (exists_last (l := a ++ L "*/" ++ b)) as (l & x & Hl).
    { destruct a; discriminate. }
    rewrite Hl in He. apply app_inj_tail in He as [-> <-].
    destruct b as [|y b] using rev_ind.
    + rewrite app_nil_r in Hl. change (L "*/") with ([42; 47]%N) in Hl.
      replace (a ++ [42; 47]%N) with ((a ++ [42%N]) ++ [47%N]) in Hl by (rewrite <- app_assoc; reflexivity).
      apply app_inj_tail in Hl as [_ Hl]. discriminate.
    + rewrite !app_assoc in Hl. apply app_inj_tail in Hl as [<- _].
      apply (Hn a (L "*/" ++ b)); [rewrite <- app_assoc; reflexivity|discriminate|].
      exists (b ++ L "*/" ++ post). rewrite <- app_assoc. reflexivity.
Qed.
Lemma open_comment_cond inside :
  (forall a b, inside <> a ++ L "*/" ++ b) <->
  (forall a b, a ++ b = inside -> b <> [] -> ~ begins (b ++ []) (L "*/")).
Proof.
  split.
  - intros Hn a b <- Hb (r & Hr). rewrite app_nil_r in Hr. subst b. apply (Hn a r). reflexivity.
  - intros Hn a b ->. apply (Hn a (L "*/" ++ b)); [reflexivity|discriminate|].
    rewrite app_nil_r. eexists; reflexivity.
Qed.

Lemma lexeme_read k c t post : lexeme k c t post -> forall x r q,
  t ++ post = x :: r ->
  read_body x r q = Done (Some (mkTok k c (adv q (reported_after k c t))), mkBuf post (adv q t)).
Proof.
  intros Hl. destruct Hl; intros x r z Hx.
  - (* import *)
    cbn [app] in Hx.
    assert (x = 35%N /\ r = L "import" ++ ws ++ line ++ post) as [-> ->].
    { cbn in Hx. injection Hx as <- <-. rewrite <- !app_assoc. auto. }
    unfold read_body.
    change (35%N :: L "import" ++ ws ++ line ++ post) with (L "#import" ++ ws ++ line ++ post).
    rewrite skip_literal_intro.
    rewrite (read_set_intro SPACES blank ws (line ++ post) _ blank_set) by assumption.
    rewrite skip_until_intro by assumption.
    rewrite !adv_app. reflexivity.
  - (* macro *)
    injection Hx as <- <-. unfold read_body. rewrite skip_literal_none by assumption.
    cbn [N.eqb Pos.eqb].
    change (35%N :: line ++ post) with ((35%N :: line) ++ post).
    rewrite skip_until_intro; auto.
  - (* line comment *)
    assert (x = 47%N /\ r = 47%N :: line ++ post) as [-> ->] by (cbn in Hx; injection Hx as <- <-; auto).
    unfold read_body. rewrite skip_literal_none by (apply begins_cons_ne; discriminate).
    cbn [N.eqb Pos.eqb].
    rewrite follows_false by (intros (y & Hy); discriminate).
    change (47%N :: 47%N :: line ++ post) with (L "//" ++ line ++ post).
    rewrite skip_literal_intro, skip_until_intro by assumption. rewrite adv_app. reflexivity.
  - (* block comment *)
    assert (x = 47%N /\ r = 42%N :: inside ++ L "*/" ++ post) as [-> ->].
    { cbn in Hx. injection Hx as <- <-. rewrite <- !app_assoc. auto. }
    unfold read_body. rewrite skip_literal_none by (apply begins_cons_ne; discriminate).
    cbn [N.eqb Pos.eqb].
    rewrite follows_true by (eexists; reflexivity).
    unfold read_multiline_comment. cbn [b_pos buf_skip buf_get b_rest].
    unfold buf_until_literal. cbn [b_rest b_pos].
    rewrite until_literal_intro.
    2: { apply block_comment_cond. assumption. }
    2: { left. eexists; reflexivity. }
    rewrite skip_literal_intro. cbn [fst snd reported_after].
    rewrite <- !adv_app. reflexivity.
  - (* open comment *)
    rewrite app_nil_r in Hx.
    assert (x = 47%N /\ r = 42%N :: inside) as [-> ->] by (cbn in Hx; injection Hx as <- <-; auto).
    unfold read_body. rewrite skip_literal_none by (apply begins_cons_ne; discriminate).
    cbn [N.eqb Pos.eqb].
    rewrite follows_true by (eexists; reflexivity).
    unfold read_multiline_comment. cbn [b_pos buf_skip buf_get b_rest].
    unfold buf_until_literal. cbn [b_rest b_pos].
    pose proof (until_literal_intro (L "*/") inside [] (adv1 (adv1 z 47%N) 42%N)) as Hu.
    rewrite app_nil_r in Hu. rewrite Hu.
    2: { apply open_comment_cond. assumption. }
    2: { right. reflexivity. }
    rewrite skip_literal_none by (intros (y & Hy); discriminate). reflexivity.
  - (* keyword *)
    destruct (keyword_word_chars k H0) as (c & w & Hk & Hc & Hw).
    assert (x = c /\ r = w ++ post) as [-> ->].
    { rewrite Hk in Hx. cbn in Hx. injection Hx as <- <-. auto. }
    erewrite read_word_body; [|exact Hc|].
    2: { change (c :: w ++ post) with ((c :: w) ++ post). rewrite <- Hk. apply read_word_aux_intro.
         - rewrite Hk. apply all_cons. split; [apply word_start_char; exact Hc|exact Hw].
         - exact H1.
         - intros [He _]. apply (f_equal (fun s => str_in s (map lit reserved))) in He.
           replace (str_in (lit k) (map lit reserved)) with true in He; [discriminate|].
           symmetry. apply str_in_spec. apply in_map. exact H0. }
    rewrite find_keyword_intro by exact H0.
    rewrite reported_not_error; [reflexivity|].
    intros ->. revert H0. clear. cbn. intuition discriminate.
  - (* word *)
    injection Hx as <- <-.
    erewrite read_word_body; [|exact H0|].
    2: { change (c :: w ++ post) with ((c :: w) ++ post). apply read_word_aux_intro; auto.
         apply all_cons. split; [apply word_start_char; assumption|assumption]. }
    destruct (find _ KEYWORDS) as [k|] eqn:E.
    + apply find_keyword_Some in E as [Hk He]. exfalso. apply H3. rewrite <- He. apply in_map. exact Hk.
    + reflexivity.
  - (* calloc! *)
    assert (x = 99%N /\ r = L "alloc!" ++ post) as [-> ->] by (cbn in Hx; injection Hx as <- <-; auto).
    erewrite read_word_body; [|reflexivity|].
    2: { change (99%N :: L "alloc!" ++ post) with (L "calloc!" ++ post). apply read_word_aux_calloc. }
    reflexivity.
  - (* hex *)
    assert (x = 48%N /\ r = 120%N :: ds ++ suf ++ post) as [-> ->].
    { cbn in Hx. injection Hx as <- <-. rewrite <- !app_assoc. auto. }
    rewrite read_body_plain by (split; discriminate). cbv zeta.
    cbn [is_ascii_alpha is_ascii_digit N.leb N.compare Pos.compare Pos.compare_cont andb orb N.eqb Pos.eqb].
    unfold read_number. rewrite follows_true by (eexists; reflexivity).
    unfold read_hex. cbn [b_pos buf_skip buf_get b_rest].
    rewrite (read_set_intro HEXDIGITS hex_digit ds (suf ++ post) _ hex_set) by assumption.
    rewrite (read_set_intro (L "UL") uint_suffix suf post _ uint_set) by assumption.
    cbn [rbind fst snd reported_after]. rewrite <- !adv_app. reflexivity.
  - (* decimal *)
    pose proof H0 as Hd. destruct H0.
    destruct int as [|d int]; [congruence|]. apply all_cons in H2 as [Hdig H2].
    assert (x = d) as -> by (cbn in Hx; congruence).
    rewrite read_body_plain by (unfold digit in Hdig; split; intros ->; discriminate). cbv zeta.
    replace (is_ascii_alpha d || N.eqb d 95) with false by (unfold is_ascii_alpha, digit in *; lia).
    change (is_ascii_digit d) with (digit d). rewrite Hdig.
    rewrite <- Hx, (read_number_decimal _ _ _ Hd).
    destruct post as [|c post]; [reflexivity|]. cbn [stops] in H1. rewrite H1. reflexivity.
  - (* bad number *)
    pose proof H0 as Hd. inversion H0; subst.
    destruct int as [|d int]; [congruence|]. 
    match goal with X : all digit (d :: int) |- _ => apply all_cons in X as [Hdig _] end.
    assert (x = d) as -> by (cbn in Hx; congruence).
    rewrite read_body_plain by (unfold digit in Hdig; split; intros ->; discriminate). cbv zeta.
    replace (is_ascii_alpha d || N.eqb d 95) with false by (unfold is_ascii_alpha, digit in *; lia).
    change (is_ascii_digit d) with (digit d). rewrite Hdig.
    rewrite <- Hx, (read_number_decimal _ _ _ Hd). rewrite H1. reflexivity.
  - (* string *)
    assert (x = 34%N) as ->.
    { destruct (pieces_head _ _ H0) as [-> |(y & ->)]; [congruence|]. cbn in Hx. congruence. }
    rewrite read_body_plain by (split; discriminate). cbv zeta.
    cbn [is_ascii_alpha is_ascii_digit N.leb N.compare Pos.compare Pos.compare_cont andb orb N.eqb Pos.eqb].
    unfold read_string_literal. cbn [b_rest b_pos]. rewrite <- Hx.
    destruct (read_pieces_step c s H0 (S (List.length (s ++ post))) z [] post z H2) as (f & Hf & He); [lia|].
    rewrite He. destruct f as [|f]; [lia|]. cbn [read_pieces buf_peek b_rest].
    destruct post as [|y post]; [reflexivity|]. cbn [stops] in H3.
    destruct y as [|y]; [reflexivity|].
    do 6 (destruct y as [y|y|]; try reflexivity). discriminate.
  - (* open string *)
    rewrite app_nil_r in Hx.
    assert (x = 34%N) as ->.
    { destruct (pieces_head _ _ H0) as [-> |(y & ->)]; cbn in Hx; congruence. }
    rewrite read_body_plain by (split; discriminate). cbv zeta.
    cbn [is_ascii_alpha is_ascii_digit N.leb N.compare Pos.compare Pos.compare_cont andb orb N.eqb Pos.eqb].
    unfold read_string_literal. cbn [b_rest b_pos]. rewrite <- Hx.
    destruct (read_pieces_step c s H0 (S (List.length (s ++ 34%N :: b))) z [] (34%N :: b) z) as (f & Hf & He);
      [reflexivity|lia|].
    rewrite He. destruct f as [|f]; [lia|]. cbn [read_pieces buf_peek b_rest buf_skip buf_get b_pos].
    rewrite read_substr_open by assumption. cbn [rbind buf_get b_rest fst snd reported_after].
    rewrite adv_app. reflexivity.
  - (* char *)
    cbn in Hx. injection Hx as <- <-.
    rewrite read_body_plain by (split; discriminate). cbv zeta.
    cbn [is_ascii_alpha is_ascii_digit N.leb N.compare Pos.compare Pos.compare_cont andb orb N.eqb Pos.eqb].
    unfold read_char_literal. cbn [b_pos buf_skip buf_get b_rest buf_peek].
    destruct (N.eqb_spec c 92); [congruence|].
    destruct c as [|c]; [reflexivity|].
    do 7 (destruct c as [c|c|]; try reflexivity). congruence.
  - cbn in Hx. injection Hx as <- <-. reflexivity.
  - (* bad char *)
    cbn in Hx. injection Hx as <- <-.
    rewrite read_body_plain by (split; discriminate). cbv zeta.
    cbn [is_ascii_alpha is_ascii_digit N.leb N.compare Pos.compare Pos.compare_cont andb orb N.eqb Pos.eqb].
    unfold read_char_literal. cbn [b_pos buf_skip buf_get b_rest buf_peek].
    assert (N.eqb q 39 = false) as Hq by lia.
    destruct c as [|c]; [cbn [buf_get b_rest]; rewrite Hq; reflexivity|].
    do 7 (destruct c as [c|c|]; try (cbn [buf_get b_rest]; rewrite Hq; reflexivity)). congruence.
  - cbn in Hx. injection Hx as <- <-.
    rewrite read_body_plain by (split; discriminate). cbv zeta.
    cbn [is_ascii_alpha is_ascii_digit N.leb N.compare Pos.compare Pos.compare_cont andb orb N.eqb Pos.eqb].
    unfold read_char_literal. cbn [b_pos buf_skip buf_get b_rest buf_peek].
    replace (N.eqb q 39) with false by lia. reflexivity.
  - (* operator *)
    destruct (operator_start op H0) as (c & w & Hop & Hc).
    destruct (sym_start_spec c Hc) as (E1 & E2 & E3 & E4 & E5 & E6).
    assert (x = c) as -> by (rewrite Hop in Hx; cbn in Hx; congruence).
    rewrite Hx in *.
    rewrite read_body_symbol by assumption. unfold read_sym.
    rewrite <- Hx. rewrite read_symbol_intro.
    + rewrite reported_not_error; [reflexivity|].
      intros ->. revert H0. clear. cbn. intuition discriminate.
    + apply symbols_operators. exact H0.
    + cbn. intuition discriminate.
    + intros op' Hop' Hb. apply H1; [apply symbols_operators; exact Hop'|]. rewrite <- Hx. exact Hb.
    + apply ordered_table_spec, symbols_ordered.
  - (* unexpected *)
    cbn in Hx. injection Hx as <- <-.
    assert (~ begins (c :: post) (L "/")) as Hs by (apply H6; cbn; tauto).
    rewrite read_body_symbol; auto.
    + unfold read_sym. rewrite read_symbol_none; [reflexivity|].
      intros op Ho. apply H6, symbols_operators, Ho.
    + intros (y & Hy). apply Hs. exists (L "/" ++ y). exact Hy.
    + intros (y & Hy). apply Hs. exists (L "*" ++ y). exact Hy.
Qed.

(** ** The aborting texts *)
Lemma aborts_read s : aborts s -> forall x r q, s = x :: r -> exists why, read_body x r q = Panic why.
Proof.
  intros Ha. destruct Ha as [c s b Hp Hb|int frac e Hne Hi H0 Hf He| |c|c]; intros x r q Hx.
  - assert (x = 34%N) as ->.
    { destruct (pieces_head _ _ Hp) as [-> |(y & ->)]; cbn in Hx; congruence. }
    rewrite read_body_plain by (split; discriminate). cbv zeta.
    cbn [is_ascii_alpha is_ascii_digit N.leb N.compare Pos.compare Pos.compare_cont andb orb N.eqb Pos.eqb].
    unfold read_string_literal. cbn [b_rest b_pos]. rewrite <- Hx.
    destruct (read_pieces_step c s Hp (S (List.length (s ++ 34%N :: b ++ [92%N]))) q [] (34%N :: b ++ [92%N]) q)
      as (f & Hf & He); [reflexivity|lia|].
    rewrite He. destruct f as [|f]; [lia|]. cbn [read_pieces buf_peek b_rest buf_skip buf_get b_pos].
    rewrite read_substr_panic by assumption. cbn [rbind]. eauto.
  - destruct int as [|d int]; [congruence|]. pose proof Hi as Hi'. apply all_cons in Hi as [Hdig _].
    assert (x = d) as -> by (cbn in Hx; congruence).
    rewrite read_body_plain by (unfold digit in Hdig; split; intros ->; discriminate). cbv zeta.
    replace (is_ascii_alpha d || N.eqb d 95) with false by (unfold is_ascii_alpha, digit in *; lia).
    change (is_ascii_digit d) with (digit d). rewrite Hdig.
    rewrite <- Hx, read_number_panic by assumption. cbn [rbind]. eauto.
  - injection Hx as <- <-. eexists; reflexivity.
  - injection Hx as <- <-.
    rewrite read_body_plain by (split; discriminate). cbv zeta.
    cbn [is_ascii_alpha is_ascii_digit N.leb N.compare Pos.compare Pos.compare_cont andb orb N.eqb Pos.eqb].
    unfold read_char_literal. cbn [b_pos buf_skip buf_get b_rest buf_peek].
    destruct c as [|c]; [eexists; reflexivity|].
    do 7 (destruct c as [c|c|]; try (eexists; reflexivity)).
  - injection Hx as <- <-. eexists; reflexivity.
Qed.

(** ** Totality: every text starts with a token of the grammar or aborts *)
Lemma find_operator s :
  {op | In op operators /\ begins s (lit op) /\
        forall op', In op' operators -> begins s (lit op') -> List.length (lit op') <= List.length (lit op)}
  + {forall op, In op operators -> ~ begins s (lit op)}.
Proof.
  generalize operators as l. induction l as [|o l [(op & Hi & Hb & Hm)|Hn]].
  - right. intros op [].
  - left. destruct (begins_dec s (lit o)) as [Ho|Ho].
    + destruct (le_lt_dec (List.length (lit o)) (List.length (lit op))) as [Hle|Hlt].
      * exists op. split; [right; exact Hi|]. split; [exact Hb|].
        intros op' [<-|Hi'] Hb'; [exact Hle|auto].
      * exists o. split; [left; reflexivity|]. split; [exact Ho|].
        intros op' [<-|Hi'] Hb'; [lia|]. specialize (Hm op' Hi' Hb'). lia.
    + exists op. split; [right; exact Hi|]. split; [exact Hb|].
      intros op' [<-|Hi'] Hb'; [contradiction|auto].
  - destruct (begins_dec s (lit o)) as [Ho|Ho].
    + left. exists o. split; [left; reflexivity|]. split; [exact Ho|].
      intros op' [<-|Hi'] Hb'; [lia|]. exfalso. apply (Hn op' Hi' Hb').
    + right. intros op [<-|Hi]; auto.
Qed.

Lemma lexeme_total c r : blank c = false ->
  (exists k ct t post, c :: r = t ++ post /\ lexeme k ct t post) \/ aborts (c :: r).
Proof.
  intros Hb.
  destruct (begins_dec (c :: r) (L "#import")) as [(s & Hs)|Hnimp].
  { left. rewrite Hs. destruct (span_exists blank s) as (ws & s1 & -> & Hws & Hs1).
    destruct (line_exists s1) as (line & post & -> & Hl & Hp).
    exists "import"%string, (trim line), (L "#import" ++ ws ++ line), post.
    split; [rewrite <- !app_assoc; reflexivity|]. constructor; auto. }
  destruct (N.eq_dec c 35) as [-> |Hc35].
  { left. destruct (line_exists r) as (line & post & -> & Hl & Hp).
    exists "macro"%string, (35%N :: line), (35%N :: line), post. split; [reflexivity|]. constructor; auto. }
  destruct (begins_dec (c :: r) (L "/*")) as [(s & Hs)|Hnc].
  { left. rewrite Hs. destruct (until_exists (L "*/") s) as (t & s1 & -> & Hn & [(s2 & ->)| ->]); [discriminate| |].
    - exists "comment"%string, t, (L "/*" ++ t ++ L "*/"), s2.
      split; [rewrite <- !app_assoc; reflexivity|]. constructor. apply (block_comment_cond t s2). exact Hn.
    - exists "error"%string, (L "*/ expected"), (L "/*" ++ t), [].
      split; [rewrite <- !app_assoc; reflexivity|]. constructor. apply open_comment_cond. exact Hn. }
  destruct (begins_dec (c :: r) (L "//")) as [(s & Hs)|Hnl].
  { left. rewrite Hs. destruct (line_exists s) as (line & post & -> & Hl & Hp).
    exists "comment"%string, line, (L "//" ++ line), post. split; [rewrite <- !app_assoc; reflexivity|].
    constructor; auto. }
  destruct (word_start c) eqn:Hw.
  { left. destruct (span_exists word_char r) as (w & post & -> & Hwc & Hp).
    destruct (str_eq_dec (c :: w) (L "calloc")) as [He|He].
    - destruct (begins_dec post (L "!")) as [(s & ->)|Hnb].
      + exists "word"%string, (L "calloc!"), (L "calloc!"), s. split.
        * change (c :: w ++ L "!" ++ s) with ((c :: w) ++ L "!" ++ s). rewrite He. reflexivity.
        * apply Lx_calloc.
      + exists "word"%string, (c :: w), (c :: w), post. split; [reflexivity|].
        constructor; auto; [|tauto]. rewrite He. vm_compute. intuition discriminate.
    - destruct (in_dec str_eq_dec (c :: w) (map lit reserved)) as [Hi|Hi].
      + apply in_map_iff in Hi as (k & Hk & Hi). exists k, [], (lit k), post.
        split; [rewrite Hk; reflexivity|]. constructor; auto.
      + exists "word"%string, (c :: w), (c :: w), post. split; [reflexivity|]. constructor; auto; tauto. }
  destruct (digit c) eqn:Hd.
  { destruct (begins_dec (c :: r) (L "0x")) as [(s & Hs)|Hn0].
    - left. rewrite Hs. destruct (span_exists hex_digit s) as (ds & s1 & -> & Hds & Hs1).
      destruct (span_exists uint_suffix s1) as (suf & post & -> & Hsuf & Hpost).
      exists "num"%string, (L "0x" ++ ds ++ suf), (L "0x" ++ ds ++ suf), post.
      split; [rewrite <- !app_assoc; reflexivity|]. constructor; auto.
    - destruct (decimal_exists c r Hd Hn0) as [(t & post & He & Hne & Hdec)|(int & frac & e & He & Hne & Hi & Hf & Hee)].
      + left. rewrite He. destruct post as [|x post].
        * exists "num"%string, t, t, []. split; [reflexivity|]. constructor; [exact Hdec|exact I].
        * destruct (letter x) eqn:Hx.
          -- exists "error"%string, (message_unexpected x), t, (x :: post). split; [reflexivity|].
             constructor; auto.
          -- exists "num"%string, t, t, (x :: post). split; [reflexivity|]. constructor; auto.
      + right. rewrite He in *. constructor; auto. }
  destruct (N.eq_dec c 34) as [Hc34|Hc34].
  { destruct (pieces_exists _ (c :: r) (Nat.le_refl _) Hb)
      as (ct & t & post & He & Hp & Hpost & [Hq|(b & Hesc & [-> | ->])]).
    - left. rewrite He. exists "string"%string, ct, t, post. split; [reflexivity|]. constructor; auto.
      intros ->. cbn [app] in He. subst post. rewrite Hc34 in Hq. discriminate.
    - left. rewrite He. exists "error"%string, (L "Double quote expected"), (t ++ 34%N :: b), [].
      split; [rewrite app_nil_r; reflexivity|]. econstructor; eauto.
    - right. rewrite He. econstructor; eauto. }
  destruct (N.eq_dec c 39) as [-> |Hc39].
  { destruct r as [|c1 r]; [right; constructor|].
    destruct (N.eq_dec c1 92) as [-> |Hc1].
    - destruct r as [|c2 [|q post]]; [right; constructor..|]. left.
      destruct (N.eq_dec q 39) as [-> |Hq].
      + exists "char"%string, [92; c2]%N, [39; 92; c2; 39]%N, post. split; [reflexivity|constructor].
      + exists "error"%string, (L "Single quote expected"), [39; 92; c2; q]%N, post.
        split; [reflexivity|constructor; exact Hq].
    - destruct r as [|q post]; [right; constructor|]. left.
      destruct (N.eq_dec q 39) as [-> |Hq].
      + exists "char"%string, [c1]%N, [39; c1; 39]%N, post. split; [reflexivity|constructor; exact Hc1].
      + exists "error"%string, (L "Single quote expected"), [39; c1; q]%N, post.
        split; [reflexivity|constructor; auto]. }
  left. destruct (find_operator (c :: r)) as [(op & Hi & (post & He) & Hm)|Hn].
  - rewrite He in *. exists op, [], (lit op), post. split; [reflexivity|]. apply Lx_operator; auto.
  - exists "error"%string, (message_unexpected c), [], (c :: r). split; [reflexivity|]. apply Lx_unexpected; auto.
Qed.

(** ** What one call of [read_token] does *)
Lemma lexeme_start k c t post : lexeme k c t post -> stops blank (t ++ post) /\ t ++ post <> [].
Proof.
  intros Hl. destruct Hl; try (split; [reflexivity|discriminate]).
  - destruct (keyword_word_chars k H0) as (c & w & -> & Hc & _). split; [|discriminate].
    cbn. unfold word_start, letter, blank in *. lia.
  - split; [|discriminate]. cbn. unfold word_start, letter, blank in *. lia.
  - destruct H0. destruct int as [|d int]; [congruence|]. split; [|discriminate].
    apply all_cons in H2 as [H2 _]. cbn. unfold digit, blank in *. lia.
  - inversion H0; subst. destruct int as [|d int]; [congruence|]. split; [|discriminate].
    match goal with X : all digit (d :: int) |- _ => apply all_cons in X as [Hdig _] end.
    cbn. unfold digit, blank in *. lia.
  - destruct (pieces_head _ _ H0) as [-> |(y & ->)]; [congruence|]. split; [reflexivity|discriminate].
  - destruct (pieces_head _ _ H0) as [-> |(y & ->)]; (split; [reflexivity|discriminate]).
  - destruct (operator_start op H0) as (c & w & -> & Hc). split; [|discriminate].
    apply sym_start_spec in Hc. tauto.
  - split; [exact H0|discriminate].
Qed.
Lemma aborts_start s : aborts s -> stops blank s /\ s <> [].
Proof.
  intros Ha. destruct Ha; try (split; [reflexivity|discriminate]).
  - destruct (pieces_head _ _ H0) as [-> |(y & ->)]; (split; [reflexivity|discriminate]).
  - destruct int as [|d int]; [congruence|]. split; [|discriminate].
    apply all_cons in H1 as [H1 _]. cbn. unfold digit, blank in *. lia.
Qed.

Inductive step (s : str) (p : pos) : res (option token * buf) -> Prop :=
| Step_end : all blank s -> step s p (Done (None, mkBuf [] (adv p s)))
| Step_token ws t post k c :
    s = ws ++ t ++ post -> all blank ws -> lexeme k c t post ->
    step s p (Done (Some (mkTok k c (adv p (ws ++ reported_after k c t))), mkBuf post (adv p (ws ++ t))))
| Step_panic ws r why : s = ws ++ r -> all blank ws -> aborts r -> step s p (Panic why).

Theorem read_token_step s p : step s p (read_token (mkBuf s p)).
Proof.
  destruct (span_exists blank s) as (ws & r & -> & Hws & Hr).
  rewrite (read_token_blanks ws r p Hws Hr).
  destruct r as [|c r].
  - replace (adv p ws) with (adv p (ws ++ [])) by (rewrite app_nil_r; reflexivity).
    constructor. rewrite app_nil_r. exact Hws.
  - destruct (lexeme_total c r Hr) as [(k & ct & t & post & He & Hl)|Ha].
    + rewrite (lexeme_read _ _ _ _ Hl c r (adv p ws) (eq_sym He)). rewrite He, <- !adv_app.
      eapply Step_token; eauto.
    + destruct (aborts_read _ Ha c r (adv p ws) eq_refl) as (why & ->). eapply Step_panic; eauto.
Qed.

(** The grammar is unambiguous. *)
Lemma blanks_unique w1 r1 w2 r2 : all blank w1 -> all blank w2 -> stops blank r1 -> stops blank r2 ->
  w1 ++ r1 = w2 ++ r2 -> w1 = w2 /\ r1 = r2.
Proof.
  revert w2; induction w1 as [|c w1 IH]; intros w2 H1 H2 S1 S2 E.
  - destruct w2 as [|d w2]; [auto|]. exfalso. cbn in E. subst r1.
    apply all_cons in H2 as [H2 _]. cbn in S1. congruence.
  - apply all_cons in H1 as [Hc H1]. destruct w2 as [|d w2].
    + exfalso. cbn in E. subst r2. cbn in S2. congruence.
    + cbn in E. injection E as -> E. apply all_cons in H2 as [_ H2].
      destruct (IH w2 H1 H2 S1 S2 E) as [-> ->]. auto.
Qed.
Lemma step_det s p r : step s p r ->
  (forall why, r <> Panic why) -> read_token (mkBuf s p) = r.
Proof.
  intros Hs Hnp. destruct Hs.
  - pose proof (read_token_blanks s [] p H0 I) as E. rewrite app_nil_r in E. exact E.
  - subst s. destruct (lexeme_start _ _ _ _ H2) as [Hst Hne].
    rewrite (read_token_blanks ws (t ++ post) p H1 Hst).
    destruct (t ++ post) as [|x r] eqn:E; [congruence|].
    rewrite (lexeme_read _ _ _ _ H2 x r _ E). rewrite <- !adv_app. reflexivity.
  - exfalso. eapply Hnp; reflexivity.
Qed.
Lemma step_panic ws r p : all blank ws -> aborts r -> exists why, read_token (mkBuf (ws ++ r) p) = Panic why.
Proof.
  intros Hws Ha. destruct (aborts_start _ Ha) as [Hst Hne].
  rewrite (read_token_blanks ws r p Hws Hst). destruct r as [|x r]; [congruence|].
  eapply aborts_read; eauto.
Qed.
End Lex.
