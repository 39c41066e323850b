(** A test for the trees and bodies that survive printing. *)
From Verif Require Import Base BaseFacts SpecLex CAst FormatChe SpecC CReadFacts SpecCStmt CStmtFacts.

Definition word_ok (s : str) : bool := match s with c :: w => word_start c && forallb c_word_char w | [] => false end.
Lemma forallb_all p (s : str) : forallb p s = true -> all p s.
Proof. intros H. apply Forall_forall. intros c Hc. rewrite forallb_forall in H. now apply H. Qed.
Lemma word_ok_sound s : word_ok s = true -> c_word s.
Proof. destruct s as [|c w]; [discriminate|]. cbn. intros H. apply andb_prop in H as [H1 H2]. exists c, w. split; [reflexivity|]. split; [exact H1|now apply forallb_all]. Qed.

Fixpoint number_rest (last : char) (s : str) : bool :=
  match s with
  | [] => true
  | c :: r => (c_word_char c || N.eqb c 46 || (exponent last && sign c)) && number_rest c r
  end.
Definition number_ok (s : str) : bool :=
  match s with
  | c :: r => if digit c then number_rest c r
              else match r with d :: r => N.eqb c 46 && digit d && number_rest d r | [] => false end
  | [] => false
  end.
Lemma number_rest_sound s : forall p (c : char), pp_number (p ++ [c]) -> number_rest c s = true -> pp_number (p ++ c :: s).
Proof.
  induction s as [|d s IH]; intros p c Hp H; [exact Hp|]. cbn [number_rest] in H. apply andb_prop in H as [H1 H2].
  replace (p ++ c :: d :: s) with ((p ++ [c]) ++ d :: s) by now rewrite <- app_assoc.
  apply IH; [|exact H2]. apply orb_prop in H1 as [H1|H1]; [now apply Pp_more|].
  apply andb_prop in H1 as [H1 H3]. rewrite <- app_assoc. cbn [app]. now apply Pp_sign.
Qed.
Lemma number_ok_sound s : number_ok s = true -> pp_number s.
Proof.
  destruct s as [|c r]; [discriminate|]. cbn [number_ok]. destruct (digit c) eqn:E.
  - intros H. apply (number_rest_sound r [] c); [now apply Pp_digit|exact H].
  - destruct r as [|d r]; [discriminate|]. intros H. apply andb_prop in H as [H H2]. apply andb_prop in H as [H0 H1]. apply N.eqb_eq in H0. subst c.
    apply (number_rest_sound r [46%N] d); [now apply Pp_dot|exact H2].
Qed.

Fixpoint chars_ok (q : char) (s : str) : bool :=
  match s with
  | [] => true
  | c :: r =>
      if N.eqb c 92 then match r with d :: r => negb (N.eqb d 10) && chars_ok q r | [] => false end
      else negb (N.eqb c q) && negb (N.eqb c 10) && chars_ok q r
  end.
Lemma chars_ok_sound q : forall n s, List.length s <= n -> chars_ok q s = true -> c_chars q s.
Proof.
  induction n as [|n IH]; intros [|c r] Hn H; try (cbn in Hn; lia); try apply Chars_nil. cbn [chars_ok] in H.
  destruct (N.eqb_spec c 92) as [->|E].
  - destruct r as [|d r]; [discriminate|]. apply andb_prop in H as [H1 H2]. apply Chars_pair.
    + now destruct (N.eqb_spec d 10).
    + apply IH; [cbn in Hn; lia|exact H2].
  - apply andb_prop in H as [H H2]. apply andb_prop in H as [H0 H1]. apply Chars_char; auto.
    + now destruct (N.eqb_spec c q).
    + now destruct (N.eqb_spec c 10).
    + apply IH; [cbn in Hn; lia|exact H2].
Qed.
Fixpoint lines_ok (s : str) : bool :=
  match s with
  | [] => true
  | c :: r =>
      if N.eqb c 92 then match r with d :: r => negb (N.eqb d 10) && lines_ok r | [] => false end
      else if N.eqb c 10 then lines_ok r
      else negb (N.eqb c 34) && lines_ok r
  end.
Lemma lines_ok_sound : forall n s, List.length s <= n -> lines_ok s = true -> c_lines s.
Proof.
  induction n as [|n IH]; intros [|c r] Hn H; try (cbn in Hn; lia); try apply Lines_nil. cbn [lines_ok] in H.
  destruct (N.eqb_spec c 92) as [->|E].
  - destruct r as [|d r]; [discriminate|]. apply andb_prop in H as [H1 H2]. apply Lines_pair.
    + now destruct (N.eqb_spec d 10).
    + apply IH; [cbn in Hn; lia|exact H2].
  - destruct (N.eqb_spec c 10) as [->|E10].
    + apply Lines_break. apply IH; [cbn in Hn; lia|exact H].
    + apply andb_prop in H as [H1 H2]. apply Lines_char; auto; [now destruct (N.eqb_spec c 34)|]. apply IH; [cbn in Hn; lia|exact H2].
Qed.

(** The words of a type name. *)
Fixpoint words (s : str) : list str :=
  match s with
  | [] => [[]]
  | c :: r => if N.eqb c 32 then [] :: words r else match words r with w :: ws => (c :: w) :: ws | [] => [[c]] end
  end.
Lemma words_join s : words s <> [] /\ join (L " ") (words s) = s.
Proof.
  induction s as [|c s [IH1 IH2]]; [split; [discriminate|reflexivity]|]. cbn [words]. destruct (N.eqb_spec c 32) as [->|E].
  - split; [discriminate|]. destruct (words s) as [|w ws]; [easy|]. cbn [join app]. cbn [join] in IH2. now rewrite IH2.
  - destruct (words s) as [|w ws]; [easy|]. split; [discriminate|]. destruct ws; cbn [join app] in *; now rewrite IH2.
Qed.

Section Check.
Variable types : str -> bool.
Definition type_ok (t : ctypename) : bool :=
  match words (ctn_name t) with
  | w :: ws => types w && negb (str_eqb w (L "const")) && forallb word_ok (w :: ws)
  | [] => false
  end.
Lemma type_ok_sound t n : type_ok t = true -> c_type_ok types (mkCbtf t n).
Proof.
  unfold type_ok. destruct (words_join (ctn_name t)) as [Hn Hj]. destruct (words (ctn_name t)) as [|w ws]; [easy|].
  intros H. apply andb_prop in H as [H H2]. apply andb_prop in H as [H0 H1]. exists w, ws. split; [now cbn [cbtf_type]|].
  split; [exact H0|]. split; [apply str_eqb_neq; now destruct (str_eqb w (L "const"))|].
  apply Forall_forall. intros x Hx. rewrite forallb_forall in H2. now apply word_ok_sound, H2.
Qed.
Definition identifier_ok (s : str) : bool := negb (types s) && negb (existsb (str_eqb s) (map lit c_keywords)).
Lemma identifier_ok_sound s : identifier_ok s = true -> c_identifier types s.
Proof.
  intros H. apply andb_prop in H as [H1 H2]. split; [now destruct (types s)|]. intros H.
  assert (E : existsb (str_eqb s) (map lit c_keywords) = true) by (apply existsb_exists; exists s; split; [exact H|apply str_eqb_refl]).
  now rewrite E in H2.
Qed.
Definition mem (op : string) (l : list string) : bool := existsb (String.eqb op) l.
Lemma mem_In op l : mem op l = true -> In op l.
Proof. unfold mem. intros H. apply existsb_exists in H as (x & Hx & E). apply String.eqb_eq in E. now subst. Qed.
Definition assign_ops : list string := ["="; "+="; "-="; "*="; "/="; "%="; "<<="; ">>="; "&="; "^="; "|="]%string.
Definition binary_level (op : string) : bool := existsb (mem op) c_levels.
Lemma binary_level_sound op : binary_level op = true -> c_binary_op op (strength op).
Proof.
  intros H. unfold binary_level in H. apply existsb_exists in H as (ops & Ho & H). apply mem_In in H.
  apply In_nth_error in Ho as [i Hi]. assert (Q : c_binary_op op (i + 3)) by (exists i, ops; auto). now rewrite (binary_strength _ _ Q).
Qed.
Definition glued_ok (op : string) (e : cexpr) : bool :=
  match e with
  | CPrefix k _ => negb (existsb (fun p => String.eqb op (fst p) && String.eqb k (snd p)) [("-", "-"); ("-", "--"); ("&", "&")]%string)
  | _ => true
  end.
Lemma glued_ok_sound op e : glued_ok op e = true -> ~ glued op e.
Proof.
  intros H (k & x & -> & Hi). cbn [glued_ok] in H. apply negb_true_iff in H. rewrite <- not_true_iff_false in H. apply H.
  apply existsb_exists. exists (op, k). split; [exact Hi|]. cbn. now rewrite !String.eqb_refl.
Qed.
Fixpoint plain_ok (e : cexpr) : bool :=
  match e with
  | CLit (CLNumber s) => number_ok s
  | CLit (CLChar s) => match s with [] => false | _ => chars_ok 39%N s end
  | CLit (CLString s) => lines_ok s
  | CLit CLNull => false
  | CIdent s => identifier_ok s && word_ok s
  | CBin op a b =>
      plain_ok a && plain_ok b &&
      (if mem op assign_ops then match a with CBin _ _ _ | CCast _ _ => false | _ => true end
       else binary_level op
            && (mem op ["&"; "<<"; ">>"]%string || match b with CBin k _ _ => negb (Nat.eqb (strength k) (strength op)) | _ => true end))
  | CPrefix op x => plain_ok x && (if mem op ["&"; "*"; "-"; "~"; "!"]%string then glued_ok op x
                      else mem op ["++"; "--"]%string && match x with CCast _ _ => false | _ => true end)
  | CCast t x => type_ok (cbtf_type t) && plain_ok x
  | CSizeofE x => plain_ok x
  | CSizeofT t => type_ok (cbtf_type t)
  | CCall f args => plain_ok f && postfix_form f && forallb plain_ok args
  | CIndex a i => plain_ok a && postfix_form a && plain_ok i
  | CPostfix op x => mem op ["++"; "--"]%string && plain_ok x && postfix_form x && negb (number x)
  | CField op x f => mem op ["."; "->"]%string && plain_ok x && match x with CCast _ _ | CSizeofE _ | CSizeofT _ => false | _ => true end
                     && negb (number x) && word_ok f
  | CComp _ => false
  end.
Lemma plain_ok_sound : forall e, plain_ok e = true -> plain types e.
Proof.
  fix go 1. intros e H. destruct e as [l|es|s|op a b|op x f|op x|op x|t x|f args|t|x|a i]; cbn [plain_ok] in H.
  - destruct l as [s|s|s|]; [| | |discriminate].
    + destruct s; [discriminate|]. apply P_char; [discriminate|]. now apply (chars_ok_sound _ (List.length (c :: s))).
    + apply P_string. now apply (lines_ok_sound (List.length s)).
    + now apply P_number, number_ok_sound.
  - discriminate.
  - apply andb_prop in H as [H1 H2]. apply P_ident; [now apply identifier_ok_sound|now apply word_ok_sound].
  - apply andb_prop in H as [H H3]. apply andb_prop in H as [H1 H2]. destruct (mem op assign_ops) eqn:Em.
    + apply P_assign; [now apply mem_In in Em|now apply go|now apply go|]. now destruct a.
    + apply andb_prop in H3 as [H3 H4]. apply (P_binary _ op (strength op)); [now apply binary_level_sound|now apply go|now apply go|].
      apply orb_prop in H4 as [H4|H4]; [left; now apply mem_In|]. right. intros k x y -> Hk. apply binary_strength in Hk. rewrite Hk, Nat.eqb_refl in H4. discriminate.
  - apply andb_prop in H as [H H5]. apply andb_prop in H as [H H4]. apply andb_prop in H as [H H3]. apply andb_prop in H as [H1 H2].
    apply P_field; [now apply mem_In|now apply go|now destruct x|now apply negb_true_iff|now apply word_ok_sound].
  - apply andb_prop in H as [H1 H2]. destruct (mem op ["&"; "*"; "-"; "~"; "!"]%string) eqn:Em.
    + apply P_unary; [now apply mem_In|now apply go|now apply glued_ok_sound].
    + apply andb_prop in H2 as [H2 H3]. apply P_step; [now apply mem_In|now apply go|now destruct x].
  - apply andb_prop in H as [H H4]. apply andb_prop in H as [H H3]. apply andb_prop in H as [H1 H2].
    apply P_postfix; [now apply mem_In|now apply go|exact H3|now apply negb_true_iff].
  - apply andb_prop in H as [H1 H2]. apply P_cast; [|now apply go]. destruct t as [t n]. now apply type_ok_sound.
  - apply andb_prop in H as [H H3]. apply andb_prop in H as [H1 H2]. apply P_call; [now apply go|exact H2|].
    clear H1 H2. induction args as [|a args IH]; [apply P_nil|]. cbn [forallb] in H3. apply andb_prop in H3 as [H1 H2]. apply P_cons; [now apply go|now apply IH].
  - apply P_sizeof_type. destruct t as [t n]. now apply type_ok_sound.
  - now apply P_sizeof, go.
  - apply andb_prop in H as [H H3]. apply andb_prop in H as [H1 H2]. apply P_index; [now apply go|exact H2|now apply go].
Qed.
Fixpoint init_ok (e : cexpr) : bool :=
  match e with
  | CComp l => (fix entries (l : list (bool * option cexpr * cexpr)) : bool :=
      match l with
      | [] => true
      | (x, v) :: r => (match x with
                       | (false, None) => true
                       | (false, Some (CIdent x)) => word_ok x
                       | (true, Some k) => plain_ok k && match k with CBin op _ _ => negb (mem op assign_ops) | _ => true end
                       | _ => false
                       end) && init_ok v && entries r
      end) l
  | _ => plain_ok e
  end.
Lemma init_ok_sound : forall e, init_ok e = true -> plain_init types e.
Proof.
  fix go 1. intros e H. destruct e as [l|es|s|op a b|op x f|op x|op x|t x|f args|t|x|a i]; try (apply PI_expr, plain_ok_sound, H).
  cbn [init_ok] in H. apply PI_list. induction es as [|[[k x] v] r IH]; [apply PI_nil|].
  apply andb_prop in H as [H H3]. apply andb_prop in H as [H1 H2]. specialize (IH H3). apply go in H2.
  destruct k.
  - destruct x as [k|]; [|discriminate]. apply andb_prop in H1 as [H1 H4]. apply PI_index; [now apply plain_ok_sound| |exact H2|exact IH].
    intros op a b -> Ha. apply negb_true_iff in H4. unfold mem in H4. rewrite <- not_true_iff_false in H4. apply H4.
    apply existsb_exists. exists op. split; [exact Ha|apply String.eqb_refl].
  - destruct x as [x|]; [|now apply PI_plain]. destruct x; try discriminate. apply PI_field; [now apply word_ok_sound|exact H2|exact IH].
Qed.
Definition stars_ok (s : str) : bool := forallb (N.eqb 42) s.
Lemma stars_ok_sound s : stars_ok s = true -> exists n, s = repeat 42%N n.
Proof.
  induction s as [|c s IH]; [exists 0; reflexivity|]. cbn [stars_ok forallb]. intros H. apply andb_prop in H as [H1 H2]. apply N.eqb_eq in H1. subst c.
  destruct (IH H2) as [n ->]. now exists (S n).
Qed.
Definition form_ok (f : cform) : bool :=
  stars_ok (cf_stars f) && identifier_ok (cf_name f) && word_ok (cf_name f)
  && forallb (fun i => match i with Some e => plain_ok e | None => true end) (cf_indexes f).
Lemma form_ok_sound f : form_ok f = true -> plain_form types f.
Proof.
  intros H. unfold form_ok in H. apply andb_prop in H as [H H4]. apply andb_prop in H as [H H3]. apply andb_prop in H as [H1 H2].
  split; [now apply stars_ok_sound|]. split; [now apply identifier_ok_sound|]. split; [now apply word_ok_sound|].
  apply Forall_forall. intros i Hi. rewrite forallb_forall in H4. apply H4 in Hi. destruct i; [now apply plain_ok_sound|exact I].
Qed.
Definition opt_ok (e : option cexpr) : bool := match e with Some e => plain_ok e | None => true end.
Lemma opt_ok_sound e : opt_ok e = true -> plain_opt types e.
Proof. destruct e; [apply plain_ok_sound|intros _; exact I]. Qed.
Definition for_ok (i : option cforinit) : bool :=
  match i with
  | None => true
  | Some (CFIExpr e) => plain_ok e
  | Some (CFIDecl v) => type_ok (cv_type v) && form_ok (cv_form v) && init_ok (cv_value v)
  end.
Lemma for_ok_sound i : for_ok i = true -> plain_for types i.
Proof.
  destruct i as [[e|v]|]; cbn; [apply plain_ok_sound| |easy]. intros H. apply andb_prop in H as [H H3]. apply andb_prop in H as [H1 H2].
  split; [now apply type_ok_sound|]. split; [now apply form_ok_sound|now apply init_ok_sound].
Qed.
Definition label_ok (v : cswitch_value) : bool := plain_ok (label_expr v).
Lemma label_ok_sound v : label_ok v = true -> plain_label types v.
Proof. destruct v; apply plain_ok_sound. Qed.
Fixpoint stmt_ok (s : cstmt) : bool :=
  let all := fix all (l : list cstmt) : bool := match l with [] => true | s :: r => stmt_ok s && all r end in
  let opt := fun (o : option (list cstmt)) => match o with Some l => all l | None => true end in
  match s with
  | KBlock l => all l
  | KBreak | KContinue => true
  | KVar t [f] [v] => type_ok t && form_ok f && match v with Some e => init_ok e | None => true end
  | KVar _ _ _ => false
  | KIf c b e => plain_ok c && all b && opt e
  | KFor i c a b => for_ok i && opt_ok c && opt_ok a && all b
  | KWhile c b => plain_ok c && all b
  | KReturn e => opt_ok e
  | KSwitch v cases def => plain_ok v && opt def
      && (fix each (l : list (list cswitch_value * list cstmt)) : bool :=
            match l with
            | [] => true
            | (vs, b) :: r => match vs with [] => false | _ => forallb label_ok vs end && all b && each r
            end) cases
  | KExpr e => plain_ok e
  end.
Fixpoint body_ok (l : list cstmt) : bool := match l with [] => true | s :: r => stmt_ok s && body_ok r end.
Lemma body_ok_inner l : (fix all (l : list cstmt) : bool := match l with [] => true | s :: r => stmt_ok s && all r end) l = body_ok l.
Proof. induction l as [|s l IH]; [reflexivity|]. cbn [body_ok]. now rewrite <- IH. Qed.
Lemma all_inner l : (fix all (l : list cstmt) : Prop := match l with [] => True | s :: r => plain_stmt types s /\ all r end) l = plain_body types l.
Proof. induction l as [|s l IH]; [reflexivity|]. cbn [plain_body]. now rewrite <- IH. Qed.
Lemma body_sound l : Forall (fun s => stmt_ok s = true -> plain_stmt types s) l -> body_ok l = true -> plain_body types l.
Proof. induction 1 as [|s l Hs Hl IH]; [easy|]. cbn. intros H. apply andb_prop in H as [H1 H2]. auto. Qed.
Lemma stmt_ok_sound s : stmt_ok s = true -> plain_stmt types s.
Proof.
  induction s as [l Hl| | |t forms vals|c b e Hb He|i c a b Hb|c b Hb|e|v cases def Hc Hd|e] using cstmt_rec'; cbn [stmt_ok plain_stmt]; intros H.
  - rewrite body_ok_inner in H. rewrite all_inner. now apply body_sound.
  - exact I.
  - exact I.
  - destruct forms as [|f [|f' r]]; try discriminate. destruct vals as [|v [|v' r]]; try discriminate. 
    apply andb_prop in H as [H H3]. apply andb_prop in H as [H1 H2]. split; [now apply type_ok_sound|]. split; [now apply form_ok_sound|].
    destruct v; [now apply init_ok_sound|exact I].
  - apply andb_prop in H as [H H3]. apply andb_prop in H as [H1 H2]. rewrite body_ok_inner in H2. split; [now apply plain_ok_sound|]. rewrite all_inner. split; [now apply body_sound|].
    destruct e as [e|]; [|exact I]. rewrite body_ok_inner in H3. rewrite all_inner. now apply body_sound.
  - apply andb_prop in H as [H H4]. apply andb_prop in H as [H H3]. apply andb_prop in H as [H1 H2]. rewrite body_ok_inner in H4. rewrite all_inner.
    split; [now apply for_ok_sound|]. split; [now apply opt_ok_sound|]. split; [now apply opt_ok_sound|now apply body_sound].
  - apply andb_prop in H as [H1 H2]. rewrite body_ok_inner in H2. rewrite all_inner. split; [now apply plain_ok_sound|now apply body_sound].
  - now apply opt_ok_sound.
  - apply andb_prop in H as [H H3]. apply andb_prop in H as [H1 H2]. split; [now apply plain_ok_sound|]. split.
    + destruct def as [d|]; [|exact I]. rewrite body_ok_inner in H2. rewrite all_inner. now apply body_sound.
    + clear H1 H2. induction Hc as [|[vs b] r Hb Hr IH]; [exact I|]. apply andb_prop in H3 as [H H3]. apply andb_prop in H as [H1 H2].
      rewrite body_ok_inner in H2. rewrite all_inner. split; [|split; [now apply body_sound|now apply IH]].
      destruct vs as [|v0 vs]; [discriminate|]. split; [discriminate|]. apply Forall_forall. intros x Hx. rewrite forallb_forall in H1. now apply label_ok_sound, H1.
  - now apply plain_ok_sound.
Qed.
Lemma body_ok_sound l : body_ok l = true -> plain_body types l.
Proof. apply body_sound, Forall_forall. intros s _. apply stmt_ok_sound. Qed.
End Check.
