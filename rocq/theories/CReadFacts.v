(** What the formatter prints for an expression is read back by C as the same
    tree. *)
From Verif Require Import Base BaseFacts Parser SpecLex CAst FormatChe FormatC SpecC.

(** ** Reading *)
Lemma reads_app a ta b tb r : reads a ta (b ++ r) -> reads b tb r -> reads (a ++ b) (ta ++ tb) r.
Proof.
  intros Ha Hb. remember (b ++ r) as br eqn:E. induction Ha as [ws rest Hw|ws t s text toks rest Hw Hs Ht IH]; subst.
  - cbn [app]. destruct Hb as [ws' rest Hw'|ws' t s text toks rest Hw' Hs Ht].
    + constructor. apply Forall_app. auto.
    + rewrite app_assoc. constructor; auto. apply Forall_app. auto.
  - rewrite <- !app_assoc. cbn [app]. constructor; auto. now rewrite <- app_assoc.
Qed.
Lemma reads_blank ws r : all blank ws -> reads ws [] r.
Proof. now constructor. Qed.
Lemma reads_one t s r : spells t s r -> reads s [t] r.
Proof.
  intros H. rewrite <- (app_nil_r s). change s with ([] ++ s). rewrite <- app_assoc. constructor; [constructor|exact H|].
  constructor. constructor.
Qed.
Lemma reads_tok t s b tb r : spells t s (b ++ r) -> reads b tb r -> reads (s ++ b) (t :: tb) r.
Proof. intros H1 H2. change (t :: tb) with ([t] ++ tb). apply reads_app; [now apply reads_one|exact H2]. Qed.
Lemma reads_space b tb r : reads b tb r -> reads (L " " ++ b) tb r.
Proof. intros H. change tb with ([] ++ tb). apply reads_app; [|exact H]. apply reads_blank. repeat constructor. Qed.

(** Punctuators. *)
Definition extends (op : string) (c : char) : bool := existsb (fun op' => starts_with (lit op') (lit op ++ [c])) punctuators.
Lemma longer_prefix A (a : list A) : forall c rest b r, a ++ c :: rest = b ++ r -> List.length a < List.length b -> exists z, b = a ++ c :: z.
Proof.
  induction a as [|x a IH]; intros c rest b r E Hl; destruct b as [|y b]; cbn in Hl; try lia; injection E as <- E.
  - exists b. reflexivity.
  - destruct (IH _ _ _ _ E) as [z ->]; [lia|]. exists z. reflexivity.
Qed.
Lemma longest op rest : match rest with [] => True | c :: _ => extends op c = false end ->
  forall op', In op' punctuators -> begins (lit op ++ rest) (lit op') -> List.length (lit op') <= List.length (lit op).
Proof.
  intros H op' Hi [r Hb]. destruct (Nat.le_gt_cases (List.length (lit op')) (List.length (lit op))) as [|Hl]; [assumption|exfalso].
  destruct rest as [|c rest].
  - apply (f_equal (@List.length char)) in Hb. rewrite !app_length in Hb. cbn in Hb. lia.
  - destruct (longer_prefix _ _ _ _ _ _ Hb Hl) as [z E].
    assert (Ht : extends op c = true).
    { unfold extends. apply existsb_exists. exists op'. split; [exact Hi|]. apply starts_with_spec.
      exists z. rewrite <- app_assoc. exact E. }
    congruence.
Qed.
Lemma spells_punct op rest : In op punctuators -> op <> "/"%string ->
  match rest with [] => True | c :: _ => extends op c = false end -> (op = "."%string -> stops digit rest) ->
  spells (TPunct op) (lit op) rest.
Proof.
  intros Hi Hn He Hd. constructor; auto.
  - now apply longest.
  - intros [r Hr]. cbn in Hi. repeat (destruct Hi as [<-|Hi]; [try discriminate; now destruct Hn|]). contradiction.
  - intros [r Hr]. cbn in Hi. repeat (destruct Hi as [<-|Hi]; [try discriminate; now destruct Hn|]). contradiction.
Qed.
(** Punctuators that no other one starts with. *)
Definition final_ops : list string := ["("; ")"; "["; "]"; "{"; "}"; ","; ";"; "~"; "++"; "--"; "->"; "?"]%string.
Lemma extends_final op c : In op final_ops -> extends op c = false.
Proof.
  intros H. cbn in H. repeat (destruct H as [<-|H]; [cbn; repeat (rewrite ?andb_false_r; try reflexivity); now rewrite ?N.eqb_refl|]). contradiction.
Qed.
Lemma spells_final op rest : In op final_ops -> spells (TPunct op) (lit op) rest.
Proof.
  intros H. assert (Hc : forall c, extends op c = false) by (intros c; now apply extends_final).
  apply spells_punct.
  - cbn in H. repeat (destruct H as [<-|H]; [cbn; tauto|]). contradiction.
  - cbn in H. repeat (destruct H as [<-|H]; [discriminate|]). contradiction.
  - destruct rest; auto.
  - cbn in H. repeat (destruct H as [<-|H]; [discriminate|]). contradiction.
Qed.

(** ** What may follow *)
Definition heads (l : list N) (rest : str) : Prop := match rest with [] => True | c :: _ => In c l end.
Definition tight : list N := [32; 41; 93; 44; 59; 10; 125; 58]%N.
Definition after (e : cexpr) : list N :=
  if postfix_form e then if number e then tight ++ [40; 91]%N else tight ++ [40; 91; 43; 45; 46]%N else tight.
Ltac cases H := cbn in H; repeat match type of H with _ \/ _ => destruct H as [H|H] | False => contradiction end.
Lemma heads_incl l l' rest : incl l l' -> heads l rest -> heads l' rest.
Proof. intros Hi. destruct rest; cbn; auto. Qed.
Lemma tight_after e rest : heads tight rest -> heads (after e) rest.
Proof.
  apply heads_incl. unfold after. destruct (postfix_form e); [|apply incl_refl].
  destruct (number e); apply incl_appl, incl_refl.
Qed.
Definition loose : list N := tight ++ [40; 91; 43; 45; 46]%N.
Lemma heads_stops l p rest : Forall (fun c => p c = false) l -> heads l rest -> stops p rest.
Proof. intros Hp. destruct rest as [|c r]; cbn; [auto|]. rewrite Forall_forall in Hp. apply Hp. Qed.
Lemma word_reads s rest : c_word s -> heads loose rest -> reads s [TWord s] rest.
Proof.
  intros (c & w & -> & Hc & Hw) Hr. apply reads_one. constructor; auto. eapply heads_stops; [|exact Hr]. repeat constructor.
Qed.
Lemma number_reads s rest : pp_number s -> heads (tight ++ [40; 91]%N) rest -> reads s [TNum s] rest.
Proof.
  intros H Hr. apply reads_one. constructor; auto. split; [|intros _]; eapply heads_stops; try exact Hr; repeat constructor.
Qed.

(** ** Levels *)
Lemma up_to types n m ts e : c_expr_of types n ts e -> m <= n -> n <= 16 -> c_expr_of types m ts e.
Proof.
  intros H Hm Hn. assert (E : n = (n - m) + m) by lia. revert E. generalize (n - m) as k. intros k. revert n H Hm Hn.
  induction k as [|k IH]; intros n H Hm Hn E; cbn in E; [now subst|]. subst n.
  apply (IH (k + m)); try lia. apply C_up; [lia|]. exact H.
Qed.
Lemma assign_strength op : c_assign_op op -> strength op = 2.
Proof. intros H. cases H; subst; reflexivity. Qed.
Lemma level_cases op n : c_binary_op op n -> exists i ops, nth_error c_levels i = Some ops /\ In op ops /\ n = i + 3 /\ i < 10.
Proof. intros (i & ops & H & Hi & ->). exists i, ops. repeat split; auto. change 10 with (List.length c_levels). apply nth_error_Some. congruence. Qed.
Ltac level_step i H Hi := destruct i as [|i]; [injection H as <-; cases Hi; subst|first [lia|level_step i H Hi]].
Ltac levels H := let i := fresh "i" in let ops := fresh "ops" in let Hi := fresh "Hi" in let Hlt := fresh "Hlt" in
  apply level_cases in H; destruct H as (i & ops & H & Hi & -> & Hlt); level_step i H Hi.
Lemma binary_strength op n : c_binary_op op n -> strength op = n.
Proof. intros H. levels H; reflexivity. Qed.
Lemma binary_range op n : c_binary_op op n -> 3 <= n <= 12.
Proof. intros H. apply level_cases in H as (i & ops & _ & _ & -> & Hi). lia. Qed.
Lemma punct_assign op : c_assign_op op -> In op punctuators.
Proof. intros H. cases H; subst; cbn; tauto. Qed.
Lemma punct_binary op n : c_binary_op op n -> In op punctuators.
Proof. intros H. levels H; cbn; tauto. Qed.

(** An operator between two blanks. *)
Lemma spells_spaced op rest : In op punctuators -> spells (TPunct op) (lit op) (32%N :: rest).
Proof.
  intros Hi. destruct (string_dec op "/") as [->|Hn].
  - constructor; auto.
    + apply longest. reflexivity.
    + intros [r Hr]. discriminate.
    + intros [r Hr]. discriminate.
    + discriminate.
  - apply spells_punct; auto; [|intros _; reflexivity].
    assert (H : forallb (fun op => negb (extends op 32%N)) punctuators = true) by (vm_compute; reflexivity).
    rewrite forallb_forall in H. specialize (H _ Hi). now destruct (extends op 32%N).
Qed.

(** ** String literals *)
Lemma split_aux_cur d s : forall cur, exists l0 ls, split_char_aux d [] s = l0 :: ls /\ split_char_aux d cur s = (rev cur ++ l0) :: ls.
Proof.
  induction s as [|c s IH]; intros cur; cbn [split_char_aux].
  - exists [], []. now rewrite app_nil_r.
  - destruct (N.eqb c d).
    + exists [], (split_char_aux d [] s). now rewrite app_nil_r.
    + destruct (IH [c]) as (l0 & ls & E & E1). destruct (IH (c :: cur)) as (l0' & ls' & E' & E2). rewrite E in E'. injection E' as <- <-.
      exists (c :: l0), ls. rewrite E1, E2. cbn. rewrite <- app_assoc. auto.
Qed.
Lemma split_char_cons d c s l0 ls : c <> d -> split_char d s = l0 :: ls -> split_char d (c :: s) = (c :: l0) :: ls.
Proof.
  unfold split_char. intros Hc E. cbn [split_char_aux]. apply N.eqb_neq in Hc. rewrite Hc.
  destruct (split_aux_cur d s [c]) as (l0' & ls' & E1 & E2). rewrite E in E1. injection E1 as <- <-. exact E2.
Qed.
Lemma split_char_break d s : split_char d (d :: s) = [] :: split_char d s.
Proof. unfold split_char. cbn [split_char_aux]. now rewrite N.eqb_refl. Qed.

Lemma lines_split s : c_lines s -> exists l0 ls, split_char 10%N s = l0 :: ls /\ Forall (c_chars 34%N) (l0 :: ls)
  /\ forall st, st <> Backslash -> value_from st s = value_from st l0 ++ flat_map (fun l => 10%N :: string_value l) ls.
Proof.
  induction 1 as [|s Hs (l0 & ls & E & Hc & Hv)|c s H1 H2 H3 Hs (l0 & ls & E & Hc & Hv)|c s H3 Hs (l0 & ls & E & Hc & Hv)].
  - exists [], []. repeat split; [repeat constructor|]. intros st _. now rewrite app_nil_r.
  - exists [], (l0 :: ls). rewrite split_char_break, E. repeat split; [constructor; [constructor|exact Hc]|].
    intros st Hst. cbn [value_from flat_map]. rewrite (Hv NoEscape) by discriminate.
    destruct st as [| |v n|v]; [reflexivity|contradiction|reflexivity|reflexivity].
  - exists (c :: l0), ls. inversion Hc as [|? ? Hc0 Hcs]; subst.
    split; [now apply split_char_cons|]. split; [constructor; [now constructor|exact Hcs]|].
    intros st Hst. cbn [value_from]. apply N.eqb_neq in H2. rewrite H2.
    destruct st as [| |v n|v]; [|contradiction| |].
    + rewrite (Hv NoEscape) by discriminate. reflexivity.
    + destruct (octal_digit c && Nat.ltb n 3); rewrite Hv by discriminate; reflexivity.
    + destruct (hex_digit c); rewrite Hv by discriminate; reflexivity.
  - exists (92%N :: c :: l0), ls. inversion Hc as [|? ? Hc0 Hcs]; subst.
    split; [apply split_char_cons; [discriminate|now apply split_char_cons]|]. split; [constructor; [now constructor|exact Hcs]|].
    assert (Hb : value_from Backslash (c :: s) = value_from Backslash (c :: l0) ++ flat_map (fun l => 10%N :: string_value l) ls).
    { cbn [value_from]. destruct (octal_digit c); [apply Hv; discriminate|]. destruct (N.eqb c 120); [apply Hv; discriminate|].
      cbn [app]. f_equal. apply Hv. discriminate. }
    intros st Hst. destruct st as [| |v n|v]; [|contradiction| |]; cbn [value_from]; cbn [N.eqb];
      change (N.eqb 92 92) with true; change (octal_digit 92%N) with false; change (hex_digit 92%N) with false; cbv iota; cbn [andb app];
      change (value_from Backslash (c :: s)) with (value_from Backslash (c :: s)) in *; cbn [value_from] in Hb; rewrite Hb; reflexivity.
Qed.
(** The tokens of a string: its lines, with \n between them. *)
Definition line_break : str := [92; 110]%N.
Definition line_tokens (l0 : str) (ls : list str) : list str := l0 :: flat_map (fun l => [line_break; l]) ls.
Lemma line_values l0 ls : strings_value (line_tokens l0 ls) = string_value l0 ++ flat_map (fun l => 10%N :: string_value l) ls.
Proof.
  unfold strings_value, line_tokens. cbn [flat_map]. f_equal. induction ls as [|l ls IH]; [reflexivity|]. cbn [flat_map app]. rewrite IH. reflexivity.
Qed.
Lemma reads_string l rest : c_chars 34%N l -> reads (dq ++ l ++ dq) [TStr l] rest.
Proof. intros H. apply reads_one. change (dq ++ l ++ dq) with (34%N :: l ++ [34%N]). now constructor. Qed.
Lemma reads_lines l0 ls rest : Forall (c_chars 34%N) (l0 :: ls) ->
  reads (join (dq ++ L "\n" ++ dq ++ nl) (map (fun line => dq ++ line ++ dq) (l0 :: ls))) (map TStr (line_tokens l0 ls)) rest.
Proof.
  revert l0. induction ls as [|l ls IH]; intros l0 H; inversion H as [|? ? H0 Hs]; subst; clear H.
  - now apply reads_string.
  - change (reads ((dq ++ l0 ++ dq) ++ ((dq ++ L "\n" ++ dq) ++ (nl ++ join (dq ++ L "\n" ++ dq ++ nl) (map (fun line => dq ++ line ++ dq) (l :: ls)))))
      ([TStr l0] ++ ([TStr line_break] ++ ([] ++ map TStr (line_tokens l ls)))) rest).
    apply reads_app; [now apply reads_string|]. apply reads_app.
    + apply (reads_string line_break). apply Chars_pair; [discriminate|constructor].
    + apply reads_app; [apply reads_blank; repeat constructor|]. now apply IH.
Qed.

Section Printing.
Variable types : str -> bool.
Notation expr_of := (c_expr_of types).

Definition lvl (e : cexpr) : nat :=
  match e with
  | CBin op _ _ => strength op
  | CPrefix _ _ | CSizeofE _ | CSizeofT _ => 14
  | CCast _ _ => 13
  | CLit _ | CIdent _ => 16
  | _ => 15
  end.
Definition first (e : cexpr) (s : str) : Prop := exists c r, s = c :: r /\
  match e with
  | CPrefix op _ => exists o, lit op = c :: o
  | CBin _ _ _ => True
  | _ => word_start c || digit c || N.eqb c 46 || quote c || N.eqb c 40 = true
  end.
Definition good (e : cexpr) : Prop := exists ts,
  (forall rest, heads (after e) rest -> reads (fmt_expr e) ts rest) /\ expr_of (lvl e) ts e /\ first e (fmt_expr e).
Lemma lvl_range e : plain types e -> 2 <= lvl e <= 16.
Proof.
  intros H. destruct H; cbn; try lia.
  - rewrite assign_strength by assumption. lia.
  - rewrite (binary_strength _ n) by assumption. apply binary_range in H. lia.
Qed.

Lemma paren_reads s ts rest : reads s ts (L ")" ++ rest) -> reads (paren s) (TPunct "(" :: ts ++ [TPunct ")"]) rest.
Proof.
  intros H. unfold paren. apply (reads_tok (TPunct "(") (L "(")).
  - apply spells_final. cbn. tauto.
  - apply reads_app; [exact H|]. apply reads_one. apply spells_final. cbn. tauto.
Qed.
Lemma close_tight rest : heads tight (L ")" ++ rest).
Proof. cbn. tauto. Qed.

(** In parentheses. *)
Lemma paren_good e : plain types e -> good e -> exists ts,
  (forall rest, reads (paren (fmt_expr e)) ts rest) /\ expr_of 16 ts e.
Proof.
  intros Hp (ts & Hr & He & _). eexists. split.
  - intros rest. apply paren_reads. apply Hr. apply tight_after, close_tight.
  - apply C_paren. pose proof (lvl_range e Hp). eapply up_to; [exact He|lia|lia].
Qed.

(** One side of a binary operator. *)
Definition level_of_side (op : string) (x : cexpr) : nat :=
  match c_is_op x with
  | Some k => if Nat.ltb (strength k) (strength op) || String.eqb op "&" || String.eqb op ">>" || String.eqb op "<<" then 16 else lvl x
  | None => lvl x
  end.
Lemma side_good op x : plain types x -> good x -> exists ts,
  (forall rest, heads tight rest -> reads (fmt_side op x (fmt_expr x)) ts rest) /\ expr_of (level_of_side op x) ts x.
Proof.
  intros Hp Hg. destruct (paren_good x Hp Hg) as (tp & Hr & He). destruct Hg as (ts & Hr' & He' & _).
  unfold fmt_side, level_of_side.
  assert (Hd : exists ts0, (forall rest, heads tight rest -> reads (fmt_expr x) ts0 rest) /\ expr_of (lvl x) ts0 x).
  { exists ts. split; auto. intros rest H. apply Hr', tight_after, H. }
  destruct (c_is_op x) as [k|]; [|exact Hd]. destruct (_ || _ || _ || _); [|exact Hd].
  exists tp. split; auto.
Qed.
Lemma side_range op x : plain types x -> 2 <= level_of_side op x <= 16.
Proof.
  intros H. pose proof (lvl_range x H). unfold level_of_side. destruct (c_is_op x); [|lia]. destruct (_ || _ || _ || _); lia.
Qed.
(** A side is at least as strong as the operator. *)
Lemma side_level op x : plain types x -> 2 <= strength op <= 12 -> strength op <= level_of_side op x.
Proof.
  intros Hx Hs. unfold level_of_side. destruct (c_is_op x) as [k|] eqn:Ek.
  - destruct (Nat.ltb (strength k) (strength op)) eqn:El; [cbn; lia|]. apply Nat.ltb_ge in El. cbn [orb].
    destruct (_ || _ || _); [lia|]. destruct x; try discriminate; injection Ek as <-; cbn [lvl]; try lia.
  - destruct x; try discriminate; cbn [lvl]; lia.
Qed.

(** Types. *)
Lemma words_reads w ws rest : Forall c_word (w :: ws) -> heads (42%N :: tight) rest ->
  reads (join (L " ") (w :: ws)) (map TWord (w :: ws)) rest.
Proof.
  revert w. induction ws as [|w' ws IH]; intros w Hf Hr; inversion Hf as [|? ? (c & v & -> & Hc & Hv) Hs]; subst; clear Hf.
  - apply reads_one. constructor; auto. eapply heads_stops; [|exact Hr]. repeat constructor.
  - change (reads ((c :: v) ++ L " " ++ join (L " ") (w' :: ws)) ([TWord (c :: v)] ++ map TWord (w' :: ws)) rest).
    apply reads_app.
    + apply reads_one. constructor; auto. reflexivity.
    + apply reads_space. now apply IH.
Qed.
Lemma stars_reads n rest : heads tight rest -> reads (stars n) (repeat (TPunct "*") n) rest.
Proof.
  intros Hr. unfold stars. induction n as [|n IH]; [apply reads_blank; constructor|].
  change (reads (L "*" ++ repeat_str n (L "*")) (TPunct "*" :: repeat (TPunct "*") n) rest). apply reads_tok; [|exact IH].
  apply spells_punct; [cbn; tauto|discriminate| |discriminate]. destruct n as [|n]; [|reflexivity].
  cbn. destruct rest as [|c r]; [exact I|]. cases Hr; subst; reflexivity.
Qed.
Lemma stars_heads n rest : heads tight rest -> heads (42%N :: tight) (stars n ++ rest).
Proof. intros H. destruct n; [|cbn; tauto]. cbn. destruct rest; [exact I|]. right. exact H. Qed.
Lemma typeform_reads t : c_type_ok types t -> exists ts, c_typeform_of types ts t
  /\ forall rest, heads tight rest -> reads (fmt_bare_typeform t) ts rest.
Proof.
  intros (w & ws & Hn & Ht & Hx & Hw). destruct t as [[cst name] n]. cbn in Hn. subst name.
  exists ((if cst then [TWord (L "const")] else []) ++ map TWord (w :: ws) ++ repeat (TPunct "*") n). split.
  - rewrite app_assoc. constructor. destruct cst; now constructor.
  - intros rest Hr. unfold fmt_bare_typeform, format_type. cbn [cbtf_type cbtf_hops ctn_const ctn_name].
    rewrite <- app_assoc. apply reads_app.
    + destruct cst; [|apply reads_blank; constructor]. change (L "const ") with (L "const" ++ L " ").
      change [TWord (L "const")] with ([TWord (L "const")] ++ []). apply reads_app; [|apply reads_blank; repeat constructor].
      apply reads_one. apply Sp_word; [reflexivity|repeat constructor|reflexivity].
    + apply reads_app; [|now apply stars_reads]. apply words_reads; [exact Hw|]. now apply stars_heads.
Qed.

(** Prefix operators. *)
Lemma prefix_reads op s ts rest c r : In op ["&"; "*"; "-"; "~"; "!"; "++"; "--"]%string -> s = c :: r -> extends op c = false ->
  reads s ts rest -> reads (lit op ++ s) (TPunct op :: ts) rest.
Proof.
  intros Hop -> Hc Hr. apply reads_tok; [|exact Hr]. apply spells_punct.
  - cases Hop; subst; cbn; tauto.
  - cases Hop; subst; discriminate.
  - exact Hc.
  - cases Hop; subst; discriminate.
Qed.
Lemma extends_safe op c : In op ["&"; "*"; "-"; "~"; "!"; "++"; "--"]%string ->
  word_start c || digit c || N.eqb c 46 || quote c || N.eqb c 40 = true -> extends op c = false.
Proof.
  intros Hop Hc. destruct (extends op c) eqn:E; [|reflexivity]. exfalso.
  assert (Hx : c = 38%N \/ c = 61%N \/ c = 45%N \/ c = 62%N).
  { unfold extends in E. apply existsb_exists in E as (op' & Hi & E). apply starts_with_spec in E as [z E].
    cases Hop; subst; cases Hi; subst; cbn in E; try discriminate; injection E as E; auto. }
  destruct Hx as [-> | [-> | [-> | ->]]]; discriminate.
Qed.
Lemma extends_prefix op k c o : In op ["&"; "*"; "-"; "~"; "!"; "++"; "--"]%string -> In k ["&"; "*"; "-"; "~"; "!"; "++"; "--"]%string ->
  ~ In (op, k) [("-", "-"); ("-", "--"); ("&", "&")]%string -> lit k = c :: o -> extends op c = false.
Proof.
  intros Hop Hk Hn E. cases Hop; subst; cases Hk; subst; injection E as <- <-; try reflexivity; exfalso; apply Hn; cbn; tauto.
Qed.
Lemma plain_prefix k x : plain types (CPrefix k x) -> In k ["&"; "*"; "-"; "~"; "!"; "++"; "--"]%string.
Proof. intros H. inversion H as [| | | | | |? ? Ho|? ? Ho| | | | | | |]; subst; cases Ho; subst; cbn; tauto. Qed.
Lemma first_text e s r : first e s -> exists c z, s ++ r = c :: z.
Proof. intros (c & z & -> & _). cbn. eauto. Qed.

(** The operand of a prefix operator. *)
Lemma operand_good op x : In op ["&"; "*"; "-"; "~"; "!"; "++"; "--"]%string -> plain types x -> good x -> ~ glued op x ->
  exists ts, (forall rest, heads tight rest -> reads (fmt_expr (CPrefix op x)) (TPunct op :: ts) rest)
    /\ expr_of (match x with CBin _ _ _ => 16 | _ => lvl x end) ts x.
Proof.
  intros Hop Hp Hg Hn. destruct (paren_good x Hp Hg) as (tp & Hr & He). destruct Hg as (ts & Hr' & He' & c & z & Ez & Hf).
  assert (Hd : match x with CBin _ _ _ => False | _ => True end ->
    exists ts0, (forall rest, heads tight rest -> reads (lit op ++ fmt_expr x) (TPunct op :: ts0) rest) /\ expr_of (lvl x) ts0 x).
  { intros Hx. exists ts. split; [|exact He']. intros rest H. eapply prefix_reads; eauto; [|apply Hr', tight_after, H].
    destruct x; try contradiction; try (now apply extends_safe).
    destruct Hf as [o Ho]. apply plain_prefix in Hp. eapply extends_prefix; eauto. intros Hi. apply Hn. exists operator, x. auto. }
  destruct x as [| | |k a b| | | | | | | |]; try (destruct (Hd I) as (ts0 & H1 & H2); exists ts0; split; [exact H1|exact H2]).
  exists tp. split; [|exact He]. intros rest _. cbn [fmt_expr c_is_binary_op].
  assert (E : Nat.ltb (strength k) (strength "prefix") = true).
  { apply Nat.ltb_lt. change (strength "prefix") with 13. inversion Hp as [| | | |? ? ? Ho|? ? ? ? Ho| | | | | | | | |]; subst.
    - rewrite assign_strength by assumption. lia.
    - rewrite (binary_strength _ _ Ho). apply binary_range in Ho. lia. }
  rewrite E. eapply prefix_reads; [exact Hop|reflexivity| |apply Hr]. now apply extends_safe.
Qed.
Lemma args_join args : (fix go (l : list cexpr) : list str := match l with [] => [] | a :: r => fmt_expr a :: go r end) args = map fmt_expr args.
Proof. induction args as [|a l IH]; cbn; congruence. Qed.
Definition good_args (args : list cexpr) : Prop := exists ts,
  (forall rest, heads tight rest -> reads (join (L ", ") (map fmt_expr args)) ts rest) /\ c_args_of types ts args.

Lemma pp_first s : pp_number s -> exists c r, s = c :: r /\ digit c || N.eqb c 46 = true.
Proof.
  induction 1 as [d Hd|d Hd|s c H (c0 & r & -> & Hc) _|s e c H (c0 & r & E & Hc) _ _].
  - exists d, []. now rewrite Hd.
  - exists 46%N, [d]. auto.
  - exists c0, (r ++ [c]). auto.
  - exists c0, (r ++ [c]). split; [|exact Hc]. change [e; c] with ([e] ++ [c]). rewrite app_assoc, E. reflexivity.
Qed.
Lemma dot_word c : word_start c = true -> extends "." c = false.
Proof.
  intros H. destruct (extends "." c) eqn:Ee; [exfalso|reflexivity].
  unfold extends in Ee. apply existsb_exists in Ee as (op' & Hi & Ee). apply starts_with_spec in Ee as [y Ee].
  cases Hi; subst; cbn in Ee; try discriminate. injection Ee as <- _. discriminate.
Qed.
Lemma word_no_digit c : word_start c = true -> digit c = false.
Proof.
  unfold word_start, letter, digit. intros H. destruct (N.leb_spec 48 c), (N.leb_spec c 57); try reflexivity.
  exfalso. unfold char in *. destruct (N.leb_spec 65 c), (N.leb_spec 97 c), (N.eqb_spec c 95); try lia; discriminate.
Qed.
Lemma side_first op x s : first x s -> exists c r, fmt_side op x s = c :: r.
Proof.
  intros (c & r & -> & _). unfold fmt_side. destruct (c_is_op x); [destruct (_ || _ || _ || _)|]; [exists 40%N|exists c|exists c]; cbn; eauto.
Qed.
Lemma binary_reads op a b sa sb rest : In op punctuators ->
  (forall rest, heads tight rest -> reads (fmt_side op a (fmt_expr a)) sa rest) ->
  (forall rest, heads tight rest -> reads (fmt_side op b (fmt_expr b)) sb rest) -> heads tight rest ->
  reads (fmt_expr (CBin op a b)) (sa ++ TPunct op :: sb) rest.
Proof.
  intros Hop Ha Hb Hr. cbn [fmt_expr]. apply reads_app; [apply Ha; cbn; tauto|]. apply reads_space.
  apply reads_tok; [now apply spells_spaced|]. apply reads_space. now apply Hb.
Qed.
Lemma postfix_lvl x : postfix_form x = true -> 15 <= lvl x.
Proof. destruct x; try discriminate; cbn; lia. Qed.
Lemma postfix_heads x c rest : postfix_form x = true -> In c [40; 91]%N \/ (number x = false /\ In c [43; 45; 46]%N) -> heads (after x) (c :: rest).
Proof.
  intros H Hc. unfold after. rewrite H. cbn [heads]. destruct (number x).
  - destruct Hc as [Hc|[Hc _]]; [|discriminate]. apply in_or_app. auto.
  - apply in_or_app. right. destruct Hc as [Hc|[_ Hc]]; cases Hc; subst; cbn; tauto.
Qed.
Lemma app_first (s r : str) : (exists c z, s = c :: z) -> exists c z, s ++ r = c :: z.
Proof. intros (c & z & ->). cbn. eauto. Qed.
Lemma safe_first e s r : first e s -> match e with CPrefix _ _ | CBin _ _ _ => False | _ => True end ->
  exists c z, s ++ r = c :: z /\ word_start c || digit c || N.eqb c 46 || quote c || N.eqb c 40 = true.
Proof. intros (c & z & -> & H) Hx. exists c, (z ++ r). split; [reflexivity|]. destruct e; try contradiction; exact H. Qed.
Lemma postfix_first x s r : first x s -> postfix_form x = true ->
  exists c z, s ++ r = c :: z /\ word_start c || digit c || N.eqb c 46 || quote c || N.eqb c 40 = true.
Proof. intros H Hx. eapply safe_first; eauto. destruct x; try discriminate; exact I. Qed.
Lemma sizeof_reads s ts rest : reads s ts (L ")" ++ rest) -> reads (L "sizeof(" ++ s ++ L ")") (TWord (L "sizeof") :: TPunct "(" :: ts ++ [TPunct ")"]) rest.
Proof.
  intros H. change (L "sizeof(" ++ s ++ L ")") with (L "sizeof" ++ paren s). apply reads_tok; [|now apply paren_reads].
  apply Sp_word; [reflexivity|repeat constructor|reflexivity].
Qed.
Lemma prefix_good op x ts : In op ["&"; "*"; "-"; "~"; "!"; "++"; "--"]%string ->
  (forall rest, heads tight rest -> reads (fmt_expr (CPrefix op x)) ts rest) -> expr_of 14 ts (CPrefix op x) -> good (CPrefix op x).
Proof.
  intros Hop H1 H2. exists ts. split; [exact H1|]. split; [exact H2|]. destruct (lit op) as [|c o] eqn:E.
  - cases Hop; subst; discriminate.
  - exists c. cbn [fmt_expr]. rewrite E. destruct (c_is_binary_op x); [destruct (Nat.ltb _ _)|]; cbn [app]; eauto.
Qed.

Theorem plain_good : (forall e, plain types e -> good e) /\ (forall l, plain_all types l -> good_args l).
Proof.
  apply plain_mutual.
  - (* name *) intros s Hi (c & w & -> & Hc & Hw). exists [TWord (c :: w)]. split; [|split].
    + intros rest Hr. apply word_reads; [exists c, w; auto|exact Hr].
    + now constructor.
    + exists c, w. split; [reflexivity|]. cbn. now rewrite Hc.
  - (* number *) intros s Hs. exists [TNum s]. split; [|split].
    + intros rest Hr. now apply number_reads.
    + apply C_number.
    + destruct (pp_first s Hs) as (c & r & -> & Hc). exists c, r. split; [reflexivity|].
      apply orb_true_iff in Hc as [-> | ->]; rewrite ?orb_true_r; reflexivity.
  - (* character *) intros s Hn Hs. exists [TChar s]. split; [|split].
    + intros rest _. apply reads_one. now constructor.
    + apply C_char.
    + exists 39%N, (s ++ L "'"). split; reflexivity.
  - (* string *) intros s Hs. destruct (lines_split s Hs) as (l0 & ls & E & Hc & Hv). exists (map TStr (line_tokens l0 ls)). split; [|split].
    + intros rest _. cbn [fmt_expr format_literal]. rewrite E. now apply reads_lines.
    + apply C_string; [discriminate|]. rewrite line_values. symmetry. apply Hv. discriminate.
    + cbn [fmt_expr format_literal]. rewrite E. exists 34%N. destruct ls; cbn; eauto.
  - (* assignment *) intros op a b Hop Ha Ga Hb Gb Hx. destruct (side_good op a Ha Ga) as (ta & Ra & Ea). destruct (side_good op b Hb Gb) as (tb & Rb & Eb).
    pose proof (assign_strength _ Hop) as Hs. exists (ta ++ TPunct op :: tb). split; [|split].
    + intros rest Hr. apply binary_reads; auto. now apply punct_assign.
    + cbn [lvl]. rewrite Hs. apply C_assign; auto.
      * eapply up_to; [exact Ea| |apply side_range; auto]. unfold level_of_side.
        destruct a; try contradiction; cbn [c_is_op lvl]; try lia; rewrite Hs; destruct (_ || _ || _ || _); lia.
      * eapply up_to; [exact Eb|apply side_range; auto|apply side_range; auto].
    + destruct Ga as (? & ? & ? & Fa). destruct (side_first op a _ Fa) as (c & r & E). cbn [fmt_expr]. rewrite E. exists c. cbn [app]. eauto.
  - (* binary *) intros op n a b Hop Ha Ga Hb Gb Hx. destruct (side_good op a Ha Ga) as (ta & Ra & Ea). destruct (side_good op b Hb Gb) as (tb & Rb & Eb).
    pose proof (binary_strength _ _ Hop) as Hs. pose proof (binary_range _ _ Hop) as Hn. exists (ta ++ TPunct op :: tb). split; [|split].
    + intros rest Hr. apply binary_reads; auto. eapply punct_binary; eauto.
    + cbn [lvl]. rewrite Hs. apply C_binary; auto.
      * eapply up_to; [exact Ea| |apply side_range; auto]. rewrite <- Hs. apply side_level; auto. lia.
      * eapply up_to; [exact Eb| |apply side_range; auto].
        assert (Hl : strength op <= level_of_side op b) by (apply side_level; auto; lia). rewrite Hs in Hl.
        apply Nat.le_lteq in Hl as [Hl|Hl]; [exact Hl|exfalso]. destruct Hx as [Hx|Hx].
        -- unfold level_of_side in Hl. destruct (c_is_op b) as [k|] eqn:Ek.
           ++ replace (_ || _ || _ || _) with true in Hl; [lia|]. cases Hx; subst op; cbn; now rewrite ?orb_true_r.
           ++ destruct b; try discriminate; cbn in Hl; lia.
        -- destruct b as [| | |k x y| | | | | | | |]; unfold level_of_side in Hl; cbn [c_is_op lvl] in Hl;
             try (destruct (_ || _ || _ || _); lia); try lia.
           destruct (_ || _ || _ || _); [lia|]. apply (Hx k x y eq_refl).
           inversion Hb as [| | | |? ? ? Ho|? ? ? ? Ho| | | | | | | | |]; subst.
           ++ pose proof (assign_strength _ Ho). lia.
           ++ pose proof (binary_strength _ _ Ho). congruence.
    + destruct Ga as (? & ? & ? & Fa). destruct (side_first op a _ Fa) as (c & r & E). cbn [fmt_expr]. rewrite E. exists c. cbn [app]. eauto.
  - (* unary *) intros op x Hop Hx Gx Hn.
    assert (Hop' : In op ["&"; "*"; "-"; "~"; "!"; "++"; "--"]%string) by (cases Hop; subst; cbn; tauto).
    destruct (operand_good op x Hop' Hx Gx Hn) as (ts & Hr & He). eapply prefix_good; eauto.
    apply C_unary; [cases Hop; subst; cbn; tauto|]. pose proof (lvl_range x Hx). eapply up_to; [exact He| |destruct x; lia].
    destruct x; cbn; lia.
  - (* step *) intros op x Hop Hx Gx Hn.
    assert (Hop' : In op ["&"; "*"; "-"; "~"; "!"; "++"; "--"]%string) by (cases Hop; subst; cbn; tauto).
    destruct (operand_good op x Hop' Hx Gx) as (ts & Hr & He).
    { intros (k & y & _ & Hi). cases Hop; subst; cases Hi; discriminate. }
    eapply prefix_good; eauto. apply C_step; [exact Hop|]. pose proof (lvl_range x Hx). eapply up_to; [exact He| |destruct x; lia].
    destruct x; try contradiction; cbn; lia.
  - (* cast *) intros t x Ht Hx Gx. destruct (typeform_reads t Ht) as (tt & Et & Rt). destruct (paren_good x Hx Gx) as (ts & Rx & Ex).
    exists (TPunct "(" :: tt ++ TPunct ")" :: ts). split; [|split].
    + intros rest _. cbn [fmt_expr]. replace (TPunct "(" :: tt ++ TPunct ")" :: ts) with ((TPunct "(" :: tt ++ [TPunct ")"]) ++ ts)
        by (cbn; now rewrite <- app_assoc). apply reads_app; [|apply Rx]. apply paren_reads, Rt, close_tight.
    + cbn [lvl]. apply C_cast; auto. eapply up_to; [exact Ex|lia|lia].
    + cbn [fmt_expr]. unfold paren at 1. exists 40%N. cbn [app]. eexists. split; reflexivity.
  - (* sizeof *) intros x Hx Gx. destruct Gx as (ts & Rx & Ex & Fx). exists (TWord (L "sizeof") :: TPunct "(" :: ts ++ [TPunct ")"]). split; [|split].
    + intros rest _. cbn [fmt_expr]. apply sizeof_reads, Rx, tight_after, close_tight.
    + cbn [lvl]. apply C_sizeof. eapply (up_to types 16); [apply C_paren|lia|lia]. pose proof (lvl_range x Hx). eapply up_to; [exact Ex|lia|lia].
    + exists 115%N. cbn [fmt_expr]. eexists. split; reflexivity.
  - intros t Ht. destruct (typeform_reads t Ht) as (tt & Et & Rt). exists (TWord (L "sizeof") :: TPunct "(" :: tt ++ [TPunct ")"]). split; [|split].
    + intros rest _. cbn [fmt_expr]. apply sizeof_reads, Rt, close_tight.
    + cbn [lvl]. now apply C_sizeof_type.
    + exists 115%N. cbn [fmt_expr]. eexists. split; reflexivity.
  - (* call *) intros f args Hf (tf & Rf & Ef & Ff) Hp Hargs (ta & Ra & Ea). exists (tf ++ TPunct "(" :: ta ++ [TPunct ")"]). split; [|split].
    + intros rest _. cbn [fmt_expr]. rewrite args_join. apply reads_app.
      * apply Rf. apply postfix_heads; [exact Hp|]. cbn. tauto.
      * apply paren_reads, Ra, close_tight.
    + cbn [lvl]. apply C_call; auto. eapply up_to; [exact Ef|now apply postfix_lvl|]. apply lvl_range, Hf.
    + cbn [fmt_expr]. apply postfix_first with (x := f); auto.
  - (* index *) intros a i Ha (ta & Ra & Ea & Fa) Hp Hi (ti & Ri & Ei & Fi). exists (ta ++ TPunct "[" :: ti ++ [TPunct "]"]). split; [|split].
    + intros rest _. cbn [fmt_expr]. apply reads_app.
      * apply Ra. apply postfix_heads; [exact Hp|]. cbn. tauto.
      * apply reads_tok; [apply spells_final; cbn; tauto|]. apply reads_app; [apply Ri, tight_after; cbn; tauto|].
        apply reads_one. apply spells_final. cbn. tauto.
    + cbn [lvl]. pose proof (lvl_range a Ha). pose proof (lvl_range i Hi). apply C_index; auto.
      * eapply up_to; [exact Ea|now apply postfix_lvl|lia].
      * eapply up_to; [exact Ei|lia|lia].
    + cbn [fmt_expr]. apply postfix_first with (x := a); auto.
  - (* postfix *) intros op x Hop Hx (ts & Rx & Ex & Fx) Hp Hn. exists (ts ++ [TPunct op]). split; [|split].
    + intros rest _. cbn [fmt_expr]. apply reads_app.
      * apply Rx. cases Hop; subst; apply postfix_heads; auto; right; cbn; tauto.
      * apply reads_one, spells_final. cases Hop; subst; cbn; tauto.
    + cbn [lvl]. apply C_postfix; auto. eapply up_to; [exact Ex|now apply postfix_lvl|]. apply lvl_range, Hx.
    + cbn [fmt_expr]. apply postfix_first with (x := x); auto.
  - (* field *) intros op x f Hop Hx Gx Hn Hnum Hf.
    assert (Hd : exists s ts, fmt_expr (CField op x f) = s ++ lit op ++ f /\ (forall rest, heads [45; 46]%N rest -> reads s ts rest)
      /\ expr_of 15 ts x /\ exists c z, s = c :: z /\ word_start c || digit c || N.eqb c 46 || quote c || N.eqb c 40 = true).
    { assert (Hk : strength op = 14) by (cases Hop; subst; reflexivity).
      destruct (paren_good x Hx Gx) as (tp & Rp & Ep). destruct Gx as (ts & Rx & Ex & Fx). cbn [fmt_expr]. rewrite Hk.
      destruct (c_is_op x) as [k|] eqn:Ek.
      - assert (E : Nat.ltb (strength k) 14 = true).
        { apply Nat.ltb_lt. destruct x; try discriminate; injection Ek as <-; try (cbn; lia).
          inversion Hx as [| | | |? ? ? Ho|? ? ? ? Ho| | | | | | | | |]; subst.
          - rewrite assign_strength by assumption. lia.
          - rewrite (binary_strength _ _ Ho). apply binary_range in Ho. lia. }
        rewrite E. exists (paren (fmt_expr x)), tp. split; [reflexivity|]. split; [auto|]. split; [eapply up_to; [exact Ep|lia|lia]|].
        exists 40%N. eexists. split; [reflexivity|reflexivity].
      - assert (Hp : postfix_form x = true) by (inversion Hx; subst; try discriminate; try contradiction; reflexivity).
        exists (fmt_expr x), ts. split; [reflexivity|]. split; [|split].
        + intros [|c rest] Hr; [exact (Rx [] I)|]. apply Rx. apply postfix_heads; auto. right. split; auto. cases Hr; subst; cbn; tauto.
        + eapply up_to; [exact Ex|now apply postfix_lvl|]. apply lvl_range, Hx.
        + destruct Fx as (c & z & E & Hc). exists c, z. split; [exact E|]. destruct x; try discriminate; exact Hc. }
    destruct Hd as (s & ts & E & Rs & Es & c & z & Ez & Hc). exists (ts ++ [TPunct op; TWord f]). split; [|split].
    + intros rest Hr. rewrite E. apply reads_app; [apply Rs; cases Hop; subst; cbn; tauto|].
      destruct Hf as (c0 & w & -> & Hc0 & Hw). apply reads_tok.
      * cases Hop; subst; [|apply spells_final; cbn; tauto]. apply spells_punct; [cbn; tauto|discriminate| |intros _].
        -- now apply dot_word.
        -- now apply word_no_digit.
      * apply word_reads; [exists c0, w; auto|exact Hr].
    + cbn [lvl]. now apply C_field.
    + rewrite E, Ez. exists c. cbn [app]. eexists. split; [reflexivity|exact Hc].
  - (* arguments *) exists []. split; [intros rest _; apply reads_blank; constructor|constructor].
  - intros e l He (te & Re & Ee & Fe) Hl (tl & Rl & El). pose proof (lvl_range e He) as Hv.
    assert (Ee2 : expr_of 2 te e) by (eapply up_to; [exact Ee|lia|lia]).
    destruct l as [|e' l].
    + exists te. split; [|apply C_args; now constructor]. intros rest Hr. cbn. apply Re, tight_after, Hr.
    + exists (te ++ TPunct "," :: tl). split.
      * intros rest Hr. change (join (L ", ") (map fmt_expr (e :: e' :: l))) with (fmt_expr e ++ L "," ++ L " " ++ join (L ", ") (map fmt_expr (e' :: l))).
        apply reads_app; [apply Re, tight_after; cbn; tauto|]. apply reads_tok; [apply spells_final; cbn; tauto|]. apply reads_space, Rl, Hr.
      * apply C_args. inversion El as [|? ? Hm]; subst. now constructor.
Qed.
Corollary expr_denotes e : plain types e -> exists ts, reads (fmt_expr e) ts [] /\ expr_of 2 ts e.
Proof.
  intros H. destruct (proj1 plain_good e H) as (ts & Hr & He & _). exists ts. split; [apply Hr; exact I|].
  pose proof (lvl_range e H). eapply up_to; [exact He|lia|lia].
Qed.

(** Initializers. *)
Definition good_init (e : cexpr) : Prop := exists ts,
  (forall rest, heads tight rest -> reads (fmt_expr e) ts rest) /\ c_init_of types ts e.
Definition fmt_entry (x : bool * option cexpr * cexpr) : str :=
  let '(is_index, key, v) := x in
  tab ++ match key with
         | Some k => if is_index : bool then L "[" ++ fmt_expr k ++ L "] = " ++ fmt_expr v else L "." ++ fmt_expr k ++ L " = " ++ fmt_expr v
         | None => fmt_expr v
         end.
Lemma fmt_list x l : fmt_expr (CComp (x :: l)) = L "{" ++ nl ++ join (L "," ++ nl) (map fmt_entry (x :: l)) ++ nl ++ L "}".
Proof.
  assert (H : forall l, (fix go (l : list (bool * option cexpr * cexpr)) : list str :=
            match l with
            | [] => []
            | (is_index, key, v) :: r =>
                (tab ++
                 match key with
                 | Some k => if is_index : bool
                             then L "[" ++ fmt_expr k ++ L "] = " ++ fmt_expr v
                             else L "." ++ fmt_expr k ++ L " = " ++ fmt_expr v
                 | None => fmt_expr v
                 end) :: go r
            end) l = map fmt_entry l).
  { clear. induction l as [|[[i k] v] l IH]; [reflexivity|]. cbn [map]. rewrite <- IH. reflexivity. }
  specialize (H (x :: l)). cbn [fmt_expr]. rewrite H. reflexivity.
Qed.
Definition good_entries (l : list (bool * option cexpr * cexpr)) : Prop :=
  l = [] \/ exists ts, (forall rest, heads tight rest -> reads (join (L "," ++ nl) (map fmt_entry l)) ts rest) /\ c_entries_of types ts l.
Lemma line_blank s ts rest c : c = 10%N \/ c = 9%N -> reads s ts rest -> reads ([c] ++ s) ts rest.
Proof. intros Hc H. change ts with ([] ++ ts). apply reads_app; [|exact H]. apply reads_blank. destruct Hc; subst; repeat constructor. Qed.
Lemma equals_reads s ts rest : reads s ts rest -> reads (L " = " ++ s) (TPunct "=" :: ts) rest.
Proof.
  intros H. change (L " = " ++ s) with (L " " ++ L "=" ++ L " " ++ s). apply reads_space. apply reads_tok; [|now apply reads_space].
  apply spells_spaced. cbn. tauto.
Qed.
Lemma entries_cons x l tx : (forall rest, heads tight rest -> reads (fmt_entry x) tx rest) -> c_entry_of types tx x -> good_entries l -> good_entries (x :: l).
Proof.
  intros Rx Ex [-> | (tl & Rl & El)]; right.
  - exists tx. split; [exact Rx|now constructor].
  - exists (tx ++ TPunct "," :: tl). split; [|now constructor]. intros rest Hr. destruct l as [|y l]; [inversion El|].
    change (join (L "," ++ nl) (map fmt_entry (x :: y :: l))) with (fmt_entry x ++ L "," ++ [10%N] ++ join (L "," ++ nl) (map fmt_entry (y :: l))).
    apply reads_app; [apply Rx; cbn; tauto|]. apply reads_tok; [apply spells_final; cbn; tauto|]. apply line_blank; auto.
Qed.
Theorem init_good : (forall e, plain_init types e -> good_init e) /\ (forall l, plain_entries types l -> good_entries l).
Proof.
  apply plain_init_mutual.
  - intros e He. destruct (proj1 plain_good e He) as (ts & Hr & Ht & _). exists ts. split.
    + intros rest H. apply Hr, tight_after, H.
    + apply C_init_expr. pose proof (lvl_range e He). eapply up_to; [exact Ht|lia|lia].
  - intros l _ [-> | (ts & Rs & Es)].
    + exists [TPunct "{"; TNum (L "0"); TPunct "}"]. split; [|apply C_init_empty]. intros rest _. cbn [fmt_expr].
      change (L "{0}") with (L "{" ++ L "0" ++ L "}"). apply reads_tok; [apply spells_final; cbn; tauto|].
      apply reads_tok; [|apply reads_one, spells_final; cbn; tauto]. constructor; [now constructor|]. split; [reflexivity|discriminate].
    + exists (TPunct "{" :: ts ++ [TPunct "}"]). split; [|now apply C_init_list]. intros rest _. destruct l as [|x l]; [inversion Es|].
      rewrite fmt_list. apply reads_tok; [apply spells_final; cbn; tauto|]. apply line_blank; [now left|].
      apply reads_app; [apply Rs; cbn; tauto|]. apply line_blank; [now left|]. apply reads_one, spells_final. cbn. tauto.
  - now left.
  - intros v l _ (ts & Rs & Es) _ Hl. eapply entries_cons; [|apply C_entry; exact Es|exact Hl].
    intros rest Hr. unfold fmt_entry. apply line_blank; auto.
  - intros x v l Hx _ (ts & Rs & Es) _ Hl. eapply entries_cons; [|apply C_entry_field; exact Es|exact Hl].
    intros rest Hr. unfold fmt_entry. apply line_blank; [now right|]. cbn [fmt_expr]. pose proof Hx as Hx'. destruct Hx' as (c & w & -> & Hc & Hw).
    apply reads_tok.
    + apply spells_punct; [cbn; tauto|discriminate| |intros _].
      * now apply dot_word.
      * now apply word_no_digit.
    + change (TWord (c :: w) :: TPunct "=" :: ts) with ([TWord (c :: w)] ++ TPunct "=" :: ts). apply reads_app; [apply word_reads; [exact Hx|cbn; tauto]|].
      apply equals_reads. auto.
  - intros k v l Hk Ha _ (ts & Rs & Es) _ Hl. destruct (proj1 plain_good k Hk) as (tk & Rk & Ek & _).
    eapply entries_cons; [|apply C_entry_index; [|exact Es]|exact Hl].
    + intros rest Hr. unfold fmt_entry. apply line_blank; [now right|]. apply reads_tok; [apply spells_final; cbn; tauto|].
      apply reads_app; [apply Rk, tight_after; cbn; tauto|]. change (L "] = " ++ fmt_expr v) with (L "]" ++ L " = " ++ fmt_expr v).
      apply reads_tok; [apply spells_final; cbn; tauto|]. apply equals_reads. auto.
    + pose proof (lvl_range k Hk). eapply up_to; [exact Ek| |lia]. destruct k; cbn; try lia.
      inversion Hk as [| | | |? ? ? Ho|? ? ? ? Ho| | | | | | | | |]; subst.
      * exfalso. eapply Ha; [reflexivity|exact Ho].
      * rewrite (binary_strength _ _ Ho). apply binary_range in Ho. lia.
Qed.
Corollary init_denotes e : plain_init types e -> exists ts, reads (fmt_expr e) ts [] /\ c_init_of types ts e.
Proof. intros H. destruct (proj1 init_good e H) as (ts & Hr & He). exists ts. split; [apply Hr; exact I|exact He]. Qed.
End Printing.
