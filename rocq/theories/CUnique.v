(** C text has one reading: one sequence of tokens, and one tree up to the
    spelling of string literals. *)
From Verif Require Import Base BaseFacts SpecLex CAst FormatC SpecC CReadFacts.

(** ** Tokens *)
Lemma app_cases A (a : list A) : forall b x y, a ++ x = b ++ y ->
  (exists c z, b = a ++ c :: z) \/ (exists c z, a = b ++ c :: z) \/ (a = b /\ x = y).
Proof.
  induction a as [|h a IH]; intros b x y E; destruct b as [|k b]; cbn in E.
  - auto.
  - left. exists k, b. reflexivity.
  - right. left. exists h, a. reflexivity.
  - injection E as <- E. destruct (IH _ _ _ E) as [(c & z & ->)|[(c & z & ->)|[-> ->]]]; cbn; eauto 6.
Qed.
Lemma prefix_rest A (a b x y : list A) c z : a ++ x = b ++ y -> b = a ++ c :: z -> exists r, x = c :: r.
Proof. intros E ->. rewrite <- app_assoc in E. apply app_inv_head in E. subst. cbn. eauto. Qed.
Lemma pp_accepts x : pp_number x -> forall s c z, x = s ++ c :: z -> s <> [] ->
  c_word_char c || N.eqb c 46 = true \/ exponent (last s 0%N) = true /\ sign c = true.
Proof.
  induction 1 as [d Hd|d Hd|s0 c0 H IH Hc|s0 e c0 H IH He Hc]; intros s c z E Hs.
  - destruct s as [|? s]; [easy|]. destruct s; discriminate.
  - destruct s as [|? s]; [easy|]. destruct s as [|? s]; [|destruct s; discriminate]. injection E as -> -> ->. left.
    unfold c_word_char. rewrite Hd. now rewrite orb_true_r.
  - destruct (exists_last (l := c :: z)) as (z' & y & Ez); [discriminate|]. rewrite Ez, app_assoc in E.
    apply app_inj_tail in E as [E ->]. destruct z' as [|k z'].
    + rewrite app_nil_r in E. subst. injection Ez as -> ->. auto.
    + injection Ez as <- _. eapply IH; eauto.
  - destruct (exists_last (l := c :: z)) as (z' & y & Ez); [discriminate|]. rewrite Ez, app_assoc in E.
    change (s0 ++ [e; c0]) with (s0 ++ [e] ++ [c0]) in E. rewrite app_assoc in E.
    apply app_inj_tail in E as [E ->]. destruct z' as [|k z'].
    + rewrite app_nil_r in E. subst. injection Ez as -> ->. right. rewrite last_last. auto.
    + injection Ez as <- _. eapply IH; eauto.
Qed.
Lemma pp_nonempty s : pp_number s -> s <> [].
Proof. destruct 1; try discriminate; destruct s; discriminate. Qed.
Lemma number_unique s s' r r' : pp_number s -> number_stops s r -> pp_number s' -> number_stops s' r' ->
  s ++ r = s' ++ r' -> s = s' /\ r = r'.
Proof.
  assert (H : forall s s' r r', pp_number s -> number_stops s r -> pp_number s' -> s ++ r = s' ++ r' -> forall c z, s' = s ++ c :: z -> False).
  { clear. intros s s' r r' H [H1 H2] H' E c z Ez. destruct (prefix_rest _ _ _ _ _ _ _ E Ez) as [q ->].
    cbn in H1, H2. destruct (pp_accepts _ H' _ _ _ Ez (pp_nonempty _ H)) as [Hc|[He Hc]]; [congruence|].
    specialize (H2 He). congruence. }
  intros A B C D E. destruct (app_cases _ _ _ _ _ E) as [(c & z & Ez)|[(c & z & Ez)|?]]; [| |assumption]; exfalso.
  - exact (H _ _ _ _ A B C E _ _ Ez).
  - exact (H _ _ _ _ C D A (eq_sym E) _ _ Ez).
Qed.
Lemma chars_unique q s s' r r' : q <> 92%N -> c_chars q s -> c_chars q s' -> s ++ q :: r = s' ++ q :: r' -> s = s' /\ r = r'.
Proof.
  intros Hq H. revert s' r r'. induction H as [|c s H1 H2 H3 H IH|c s H1 H IH]; intros s' r r' H' E.
  - destruct H' as [|c s' H1 H2 H3 H'|c s' H1 H']; cbn in E; injection E as E; subst; auto; now contradict H1.
  - destruct H' as [|c' s' H1' H2' H3' H'|c' s' H1' H']; cbn in E.
    + injection E as E; subst. now contradict H1.
    + injection E as -> E. destruct (IH _ _ _ H' E) as [-> ->]. auto.
    + injection E as E; subst. now contradict H2.
  - destruct H' as [|c' s' H1' H2' H3' H'|c' s' H1' H']; cbn in E.
    + injection E as E; subst. now contradict Hq.
    + injection E as E; subst. now contradict H2'.
    + injection E as -> E. destruct (IH _ _ _ H' E) as [-> ->]. auto.
Qed.
Lemma maximal_unique (p : char -> bool) s s' r r' : all p s -> stops p r -> all p s' -> stops p r' -> s ++ r = s' ++ r' -> s = s' /\ r = r'.
Proof.
  assert (H : forall s s' r r', stops p r -> all p s' -> s ++ r = s' ++ r' -> forall c z, s' = s ++ c :: z -> False).
  { clear. intros s s' r r' H H' E c z Ez. destruct (prefix_rest _ _ _ _ _ _ _ E Ez) as [q ->]. cbn in H. subst s'.
    apply Forall_app in H' as [_ H']. inversion H' as [|? ? Hc]; subst. congruence. }
  intros A B C D E. destruct (app_cases _ _ _ _ _ E) as [(c & z & Ez)|[(c & z & Ez)|?]]; [| |assumption]; exfalso.
  - exact (H _ _ _ _ B C E _ _ Ez).
  - exact (H _ _ _ _ D A (eq_sym E) _ _ Ez).
Qed.
(** What a token begins with. *)
Inductive class := Word | Digit | DotDigit | Quote | Tick | Other | Dot.
Definition class_of (s : str) : class :=
  match s with
  | [] => Other
  | c :: r => if word_start c then Word else if digit c then Digit else if N.eqb c 34 then Quote else if N.eqb c 39 then Tick
              else if N.eqb c 46 then match r with d :: _ => if digit d then DotDigit else Dot | [] => Dot end else Other
  end.
Definition class_ok (t : ctok) (k : class) : Prop :=
  match t with
  | TWord _ => k = Word | TNum _ => k = Digit \/ k = DotDigit | TStr _ => k = Quote | TChar _ => k = Tick | TPunct _ => k = Other \/ k = Dot
  end.
Lemma digit_no_word c : digit c = true -> word_start c = false.
Proof. intros H. destruct (word_start c) eqn:E; [|reflexivity]. apply word_no_digit in E. congruence. Qed.
Lemma spells_class t s r : spells t s r -> class_ok t (class_of (s ++ r)).
Proof.
  destruct 1 as [c w rest H|s rest H _|s rest H|s rest Hn H|op rest H Hl H1 H2 Hd]; cbn.
  - now rewrite H.
  - assert (Hs : (exists d z, s = d :: z /\ digit d = true) \/ (exists d z, s = 46%N :: d :: z /\ digit d = true)).
    { induction H as [d Hd|d Hd|s c H [(d & z & -> & Hd)|(d & z & -> & Hd)] _|s e c H [(d & z & E & Hd)|(d & z & E & Hd)] _ _]; cbn; eauto 6.
      - left. exists d, (z ++ [c]). split; [|exact Hd]. change [e; c] with ([e] ++ [c]). rewrite app_assoc, E. reflexivity.
      - right. exists d, (z ++ [c]). split; [|exact Hd]. change [e; c] with ([e] ++ [c]). rewrite app_assoc, E. reflexivity. }
    destruct Hs as [(d & z & -> & Hd)|(d & z & -> & Hd)]; cbn.
    + rewrite (digit_no_word _ Hd), Hd. auto.
    + rewrite Hd. auto.
  - reflexivity.
  - reflexivity.
  - clear Hl H1 H2. cases H; subst; auto. cbn. specialize (Hd eq_refl). destruct rest as [|d z]; [auto|]. cbn in Hd. rewrite Hd. auto.
Qed.
Lemma spells_unique t s r t' s' r' : spells t s r -> spells t' s' r' -> s ++ r = s' ++ r' -> t = t' /\ s = s' /\ r = r'.
Proof.
  intros H H' E. pose proof (spells_class _ _ _ H) as K. pose proof (spells_class _ _ _ H') as K'. rewrite <- E in K'.
  destruct H as [c w rest Hc Hw Hr|s rest Hn Hr|s rest Hs|s rest Hn Hs|op rest Hi Hl _ _ _];
    destruct H' as [c' w' rest' Hc' Hw' Hr'|s' rest' Hn' Hr'|s' rest' Hs'|s' rest' Hn' Hs'|op' rest' Hi' Hl' _ _ _];
    cbn [class_ok] in K, K'; try (exfalso; intuition congruence).
  - cbn in E. injection E as <- E. assert (Hs : stops c_word_char rest) by (destruct rest; [exact I|]; cbn in *; now apply orb_false_iff in Hr as [? _]).
    assert (Hs' : stops c_word_char rest') by (destruct rest'; [exact I|]; cbn in *; now apply orb_false_iff in Hr' as [? _]).
    destruct (maximal_unique c_word_char _ _ _ _ Hw Hs Hw' Hs' E) as [-> ->]. auto.
  - destruct (number_unique _ _ _ _ Hn Hr Hn' Hr' E) as [-> ->]. auto.
  - cbn in E. injection E as E. rewrite <- !app_assoc in E. cbn in E. destruct (chars_unique 34%N _ _ _ _ ltac:(discriminate) Hs Hs' E) as [-> ->]. auto.
  - cbn in E. injection E as E. rewrite <- !app_assoc in E. cbn in E. destruct (chars_unique 39%N _ _ _ _ ltac:(discriminate) Hs Hs' E) as [-> ->]. auto.
  - assert (Hx : List.length (lit op) = List.length (lit op')).
    { apply Nat.le_antisymm.
      - apply (Hl' op); [exact Hi|]. exists rest. now symmetry.
      - apply (Hl op'); [exact Hi'|]. exists rest'. exact E. }
    destruct (app_cases _ _ _ _ _ E) as [(c & z & Ez)|[(c & z & Ez)|[E1 E2]]].
    + exfalso. rewrite Ez, app_length in Hx. cbn in Hx. lia.
    + exfalso. rewrite Ez, app_length in Hx. cbn in Hx. lia.
    + apply lit_inj in E1. subst. auto.
Qed.
Lemma spells_ink t s r : spells t s r -> exists c z, s = c :: z /\ blank c = false.
Proof.
  destruct 1 as [c w rest H|s rest H _|s rest H|s rest Hn H|op rest H Hl H1 H2 Hd].
  - exists c, w. split; [reflexivity|]. unfold blank. destruct (N.eqb_spec c 32); [subst; discriminate|].
    destruct (N.eqb_spec c 9); [subst; discriminate|]. destruct (N.eqb_spec c 10); [subst; discriminate|].
    destruct (N.eqb_spec c 13); [subst; discriminate|]. reflexivity.
  - destruct (pp_first _ H) as (c & z & -> & Hc). exists c, z. split; [reflexivity|].
    unfold blank. destruct (N.eqb_spec c 32); [subst; discriminate|].
    destruct (N.eqb_spec c 9); [subst; discriminate|]. destruct (N.eqb_spec c 10); [subst; discriminate|].
    destruct (N.eqb_spec c 13); [subst; discriminate|]. reflexivity.
  - eexists. eexists. split; reflexivity.
  - eexists. eexists. split; reflexivity.
  - clear Hl H1 H2 Hd. cases H; subst; eexists; eexists; split; reflexivity.
Qed.
Theorem reads_unique text toks toks' rest : reads text toks rest -> reads text toks' rest -> toks = toks'.
Proof.
  intros H. revert toks'. induction H as [ws rest Hw|ws t s text toks rest Hw Hs H IH]; intros toks' H'.
  - inversion H' as [|ws' t' s' text' toks'' rest' Hw' Hs' H'' E]; subst; [reflexivity|exfalso].
    destruct (spells_ink _ _ _ Hs') as (c & z & -> & Hc). apply Forall_app in Hw as [_ Hw]. inversion Hw; subst. congruence.
  - remember (ws ++ s ++ text) as all_ eqn:Ea. destruct H' as [ws' rest Hw'|ws' t' s' text' toks'' rest Hw' Hs' H''].
    + exfalso. subst. destruct (spells_ink _ _ _ Hs) as (c & z & -> & Hc). apply Forall_app in Hw' as [_ Hw']. inversion Hw'; subst. congruence.
    + assert (Ew : ws' = ws /\ s' ++ text' = s ++ text).
      { destruct (spells_ink _ _ _ Hs) as (c & z & -> & Hc). destruct (spells_ink _ _ _ Hs') as (c' & z' & -> & Hc').
        apply (maximal_unique blank); auto. }
      destruct Ew as [-> Et]. assert (E : s' ++ text' ++ rest = s ++ text ++ rest) by (rewrite !app_assoc; now rewrite Et).
      destruct (spells_unique _ _ _ _ _ _ Hs' Hs E) as (-> & -> & _). apply app_inv_head in Et. subst. f_equal. apply IH. exact H''.
Qed.

(** ** Trees *)
Section Reader.
Variable types : str -> bool.
Notation expr_of := (c_expr_of types).

(** A reader of expressions, by descent through the levels.  The flag says that
    the expression is unary, so that it can be assigned to. *)
Definition assign_op (op : string) : bool :=
  existsb (String.eqb op) ["="; "+="; "-="; "*="; "/="; "%="; "<<="; ">>="; "&="; "^="; "|="]%string.
Definition level_op (n : nat) (op : string) : bool := existsb (String.eqb op) (nth (n - 3) c_levels []).
Definition type_start (ts : list ctok) : bool :=
  match ts with TWord w :: _ => types w || str_eqb w (L "const") | _ => false end.
Fixpoint words (ts : list ctok) : list str * list ctok :=
  match ts with TWord w :: r => let '(l, r') := words r in (w :: l, r') | _ => ([], ts) end.
Fixpoint count_stars (ts : list ctok) : nat * list ctok :=
  match ts with
  | TPunct op :: r => if String.eqb op "*" then let '(n, r') := count_stars r in (S n, r') else (0, ts)
  | _ => (0, ts)
  end.
Fixpoint strings (ts : list ctok) : list str * list ctok :=
  match ts with TStr w :: r => let '(l, r') := strings r in (w :: l, r') | _ => ([], ts) end.
Definition read_type (ts : list ctok) : cbare_typeform * list ctok :=
  let '(ws, r) := words ts in
  let '(n, r') := count_stars r in
  (mkCbtf (match ws with
           | w :: ws' => if str_eqb w (L "const") then mkCtn true (join (L " ") ws') else mkCtn false (join (L " ") ws)
           | [] => mkCtn false []
           end) n, r').
Definition eat (op : string) (ts : list ctok) : option (list ctok) :=
  match ts with TPunct o :: r => if String.eqb o op then Some r else None | _ => None end.
Definition result : Type := option (cexpr * bool * list ctok).
Section Steps.
Variable read : nat -> list ctok -> result.
Variable more : nat -> cexpr -> bool -> list ctok -> result.
Variable suffixes : cexpr -> list ctok -> result.
Variable arguments : list ctok -> option (list cexpr * list ctok).
Definition with_prefix (g : cexpr -> cexpr) (r : result) : result :=
  match r with Some (e, _, r') => Some (g e, true, r') | None => None end.
Definition read_step (n : nat) (ts : list ctok) : result :=
  if Nat.leb n 2 then
    match read 3 ts with
    | Some (e, b, r) =>
        match r with
        | TPunct op :: r1 =>
            if assign_op op then
              if b then match read 2 r1 with Some (e', _, r') => Some (CBin op e e', false, r') | None => None end else None
            else Some (e, b, r)
        | _ => Some (e, b, r)
        end
    | None => None
    end
  else if Nat.leb n 12 then match read (S n) ts with Some (e, b, r) => more n e b r | None => None end
  else if Nat.leb n 13 then
    match eat "(" ts with
    | Some r =>
        if type_start r then
          let '(t, r') := read_type r in
          match eat ")" r' with
          | Some r1 => match read 13 r1 with Some (e, _, r2) => Some (CCast t e, false, r2) | None => None end
          | None => None
          end
        else read 14 ts
    | None => read 14 ts
    end
  else if Nat.leb n 14 then
    match ts with
    | TPunct op :: r =>
        if existsb (String.eqb op) ["++"; "--"]%string then with_prefix (CPrefix op) (read 14 r)
        else if existsb (String.eqb op) ["&"; "*"; "+"; "-"; "~"; "!"]%string then with_prefix (CPrefix op) (read 13 r)
        else read 15 ts
    | TWord w :: r =>
        if str_eqb w (L "sizeof") then
          match eat "(" r with
          | Some r1 =>
              if type_start r1 then
                let '(t, r2) := read_type r1 in
                match eat ")" r2 with Some r3 => Some (CSizeofT t, true, r3) | None => None end
              else with_prefix CSizeofE (read 14 r)
          | None => with_prefix CSizeofE (read 14 r)
          end
        else read 15 ts
    | _ => read 15 ts
    end
  else if Nat.leb n 15 then match read 16 ts with Some (e, _, r) => suffixes e r | None => None end
  else
    match ts with
    | TWord s :: r => Some (CIdent s, true, r)
    | TNum s :: r => Some (CLit (CLNumber s), true, r)
    | TChar s :: r => Some (CLit (CLChar s), true, r)
    | TStr _ :: _ => let '(l, r) := strings ts in Some (CLit (CLString (strings_value l)), true, r)
    | _ =>
        match eat "(" ts with
        | Some r => match read 2 r with
                    | Some (e, _, r') => match eat ")" r' with Some r1 => Some (e, true, r1) | None => None end
                    | None => None
                    end
        | None => None
        end
    end.
Definition more_step (n : nat) (e : cexpr) (b : bool) (ts : list ctok) : result :=
  match ts with
  | TPunct op :: r =>
      if level_op n op then match read (S n) r with Some (e', _, r') => more n (CBin op e e') false r' | None => None end
      else Some (e, b, ts)
  | _ => Some (e, b, ts)
  end.
Definition suffixes_step (e : cexpr) (ts : list ctok) : result :=
  match ts with
  | TPunct op :: r =>
      if String.eqb op "(" then
        match eat ")" r with
        | Some r' => suffixes (CCall e []) r'
        | None => match arguments r with
                  | Some (l, r1) => match eat ")" r1 with Some r' => suffixes (CCall e l) r' | None => None end
                  | None => None
                  end
        end
      else if String.eqb op "[" then
        match read 2 r with
        | Some (i, _, r1) => match eat "]" r1 with Some r' => suffixes (CIndex e i) r' | None => None end
        | None => None
        end
      else if existsb (String.eqb op) ["."; "->"]%string then
        match r with TWord x :: r' => suffixes (CField op e x) r' | _ => None end
      else if existsb (String.eqb op) ["++"; "--"]%string then suffixes (CPostfix op e) r
      else Some (e, true, ts)
  | _ => Some (e, true, ts)
  end.
Definition arguments_step (ts : list ctok) : option (list cexpr * list ctok) :=
  match read 2 ts with
  | Some (e, _, r) =>
      match eat "," r with
      | Some r1 => match arguments r1 with Some (l, r') => Some (e :: l, r') | None => None end
      | None => Some ([e], r)
      end
  | None => None
  end.
End Steps.
Fixpoint read (f n : nat) (ts : list ctok) {struct f} : result :=
  match f with 0 => None | S f => read_step (read f) (more f) (suffixes f) n ts end
with more (f n : nat) (e : cexpr) (b : bool) (ts : list ctok) {struct f} : result :=
  match f with 0 => None | S f => more_step (read f) (more f) n e b ts end
with suffixes (f : nat) (e : cexpr) (ts : list ctok) {struct f} : result :=
  match f with 0 => None | S f => suffixes_step (read f) (suffixes f) (arguments f) e ts end
with arguments (f : nat) (ts : list ctok) {struct f} : option (list cexpr * list ctok) :=
  match f with 0 => None | S f => arguments_step (read f) (arguments f) ts end.
Lemma read_S f n ts : read (S f) n ts = read_step (read f) (more f) (suffixes f) n ts. Proof. reflexivity. Qed.
Lemma more_S f n e b ts : more (S f) n e b ts = more_step (read f) (more f) n e b ts. Proof. reflexivity. Qed.
Lemma suffixes_S f e ts : suffixes (S f) e ts = suffixes_step (read f) (suffixes f) (arguments f) e ts. Proof. reflexivity. Qed.
Lemma arguments_S f ts : arguments (S f) ts = arguments_step (read f) (arguments f) ts. Proof. reflexivity. Qed.

(** With enough fuel. *)
Definition eventually {A} (g : nat -> option A) (r : A) : Prop := exists k, forall f, k <= f -> g f = Some r.
Definition postfix_op (op : string) : bool := existsb (String.eqb op) ["("; "["; "."; "->"; "++"; "--"]%string.
(** The rest does not continue an expression of level [n]. *)
Definition over (n : nat) (rest : list ctok) : Prop :=
  match rest with
  | [] => True
  | TPunct op :: _ => (n <= 14 -> postfix_op op = false) /\ (forall m, n < m -> 3 <= m <= 12 -> level_op m op = false) /\ (n <= 2 -> assign_op op = false)
  | _ => False
  end.
Definition goes_on (n : nat) (e : cexpr) (b : bool) (rest : list ctok) (r : cexpr * bool * list ctok) : Prop :=
  if Nat.leb n 2 then r = (e, b, rest)
  else if Nat.leb n 12 then eventually (fun f => more f n e b rest) r
  else if Nat.eqb n 15 then eventually (fun f => suffixes f e rest) r
  else r = (e, b, rest).
Definition readable_as (b : bool) (n : nat) (ts : list ctok) (e : cexpr) : Prop := (14 <= n -> b = true) /\
  forall rest r, over n rest -> goes_on n (values e) b rest r -> eventually (fun f => read f n (ts ++ rest)) r.
Definition readable (n : nat) (ts : list ctok) (e : cexpr) : Prop := exists b, readable_as b n ts e.
Definition readable_args (ts : list ctok) (l : list cexpr) : Prop := forall rest,
  eventually (fun f => arguments f (ts ++ TPunct ")" :: rest)) (map values l, TPunct ")" :: rest).

(** The first token. *)
Definition opens (n : nat) (ts : list ctok) : Prop :=
  match ts with
  | TWord w :: _ => types w = false /\ w <> L "const" /\ (w = L "sizeof" -> n <= 14)
  | TPunct op :: r => (op = "("%string /\ r <> [] /\ (14 <= n -> type_start r = false)) \/ (n <= 14 /\ In op ["&"; "*"; "+"; "-"; "~"; "!"; "++"; "--"]%string)
  | [] => False
  | _ => True
  end.
Lemma type_start_app r b : r <> [] -> type_start (r ++ b) = type_start r.
Proof. destruct r as [|[]]; easy. Qed.
Lemma opens_app n a b : opens n a -> opens n (a ++ b).
Proof.
  destruct a as [|[w|w|w|w|op] r]; cbn; auto; try contradiction. intros [(-> & Hr & H)|H]; [left|auto]. split; [reflexivity|].
  split; [destruct r; easy|]. intros Hn. rewrite type_start_app; auto.
Qed.
Lemma opens_type n ts : opens n ts -> type_start ts = false.
Proof.
  destruct ts as [|[w|w|w|w|op] r]; cbn; try easy. intros (H1 & H2 & _). rewrite H1. cbn. now apply str_eqb_neq.
Qed.
Hypothesis sizeof_type : types (L "sizeof") = false.
Lemma opens_up n ts : opens (S n) ts -> opens n ts.
Proof.
  destruct ts as [|[w|w|w|w|op] r]; cbn; auto.
  - intros (H1 & H2 & H3). repeat split; auto. intros E. specialize (H3 E). lia.
  - intros [(-> & Hr & H)|[Hn H]]; [left|right]; [split; [reflexivity|split; [exact Hr|intros Hx; apply H; lia]]|split; [lia|exact H]].
Qed.
Lemma opens_level n m ts : opens m ts -> n <= m -> opens n ts.
Proof. intros H Hn. induction Hn; auto. apply IHHn. now apply opens_up. Qed.
Lemma expr_opens n ts e : expr_of n ts e -> n <= 16 /\ opens n ts.
Proof.
  induction 1 as [n ts e Hn H [_ IH]|ts op ts' a b Ho H1 IH1 H2 IH2|n ts op ts' a b Ho H1 IH1 H2 IH2|tt t ts e Ht H IH|op ts e Ho H IH|op ts e Ho H IH
    |ts e H IH|tt t Ht|ts f ts' args H IH Ha|ts a ts' i H IH Hi IHi|op ts e x Ho H IH|op ts e Ho H IH|s Hs|s|s|l v Hl Hv|ts e H IH] using c_expr_of_ind; try (split; [lia|]).
  - now apply opens_up.
  - apply opens_app. apply opens_level with 14; [apply IH1|lia].
  - apply opens_app, IH1.
  - cbn. left. split; [reflexivity|]. split; [|lia]. destruct tt; discriminate.
  - cbn. right. split; [lia|]. cases Ho; subst; tauto.
  - cbn. right. split; [lia|]. cases Ho; subst; tauto.
  - cbn. split; [exact sizeof_type|]. split; [discriminate|lia].
  - cbn. split; [exact sizeof_type|]. split; [discriminate|lia].
  - apply opens_app, IH.
  - apply opens_app, IH.
  - apply opens_app, IH.
  - apply opens_app, IH.
  - cbn. destruct Hs as [H1 H2]. split; [exact H1|]. split; intros E; subst; exfalso; apply H2; cbn; tauto.
  - exact I.
  - exact I.
  - destruct l; [easy|exact I].
  - cbn. left. split; [reflexivity|]. split; [destruct ts; discriminate|]. intros _. destruct IH as [_ IH].
    rewrite type_start_app; [now apply opens_type in IH|]. destruct ts; [contradiction|discriminate].
Qed.

Lemma bin_level op n : c_binary_op op n -> 3 <= n <= 12 /\ level_op n op = true
  /\ (forall m, 3 <= m <= 12 -> m <> n -> level_op m op = false) /\ postfix_op op = false /\ assign_op op = false.
Proof.
  intros H. pose proof (binary_range _ _ H) as Hr. split; [exact Hr|].
  assert (Hm : forall m, 3 <= m <= 12 -> m <> n -> level_op m op = false).
  { intros m H1 H2. do 13 (destruct m as [|m]; [levels H; first [reflexivity|exfalso; cbn in *; lia]|]). lia. }
  split; [clear Hm Hr; levels H; reflexivity|split; [exact Hm|clear Hm Hr; levels H; split; reflexivity]].
Qed.
Lemma assign_level op : c_assign_op op -> assign_op op = true /\ postfix_op op = false /\ forall m, 3 <= m <= 12 -> level_op m op = false.
Proof.
  intros H. assert (Hm : forall m, 3 <= m <= 12 -> level_op m op = false).
  { intros m H1. do 13 (destruct m as [|m]; [cases H; subst; try lia; reflexivity|]). lia. }
  split; [|split; [|exact Hm]]; cases H; subst; reflexivity.
Qed.
Lemma over_up n rest : over n rest -> over (S n) rest.
Proof. destruct rest as [|[]]; cbn; auto. intros (H1 & H2 & H3). repeat split; intros; [apply H1|apply H2|apply H3]; lia. Qed.
Lemma over_le n m rest : over n rest -> n <= m -> over m rest.
Proof. intros H Hn. induction Hn; auto. now apply over_up. Qed.
Lemma over_close n op rest : In op [")"; "]"; ","]%string -> over n (TPunct op :: rest).
Proof.
  intros H. cbn [over]. split; [|split].
  - intros _. cases H; subst; reflexivity.
  - intros m _ Hm. do 13 (destruct m as [|m]; [cases H; subst; try lia; reflexivity|]). lia.
  - intros _. cases H; subst; reflexivity.
Qed.
Lemma over_binary n op rest : c_binary_op op n -> over n (TPunct op :: rest).
Proof.
  intros H. destruct (bin_level _ _ H) as (H1 & H2 & H3 & H4 & H5). cbn [over]. repeat split; auto. intros m Hm1 Hm2. apply H3; lia.
Qed.
Lemma over_postfix op rest : In op ["("; "["; "."; "->"; "++"; "--"]%string -> over 15 (TPunct op :: rest).
Proof. intros H. cbn [over]. repeat split; intros; lia. Qed.
Lemma over_assign n op rest : 3 <= n -> c_assign_op op -> over n (TPunct op :: rest).
Proof. intros Hn H. destruct (assign_level _ H) as (H1 & H2 & H3). cbn [over]. repeat split; intros; auto; lia. Qed.
Lemma more_over n e b rest : over n rest -> (match rest with TPunct op :: _ => level_op n op = false | _ => True end) ->
  eventually (fun f => more f n e b rest) (e, b, rest).
Proof.
  intros H Hl. exists 1. intros [|f] Hf; [lia|]. rewrite more_S. unfold more_step. destruct rest as [|[]]; auto. now rewrite Hl.
Qed.
Lemma suffixes_over e rest : over 14 rest -> eventually (fun f => suffixes f e rest) (e, true, rest).
Proof.
  intros H. exists 1. intros [|f] Hf; [lia|]. rewrite suffixes_S. unfold suffixes_step. destruct rest as [|[w|w|w|w|op] r]; auto.
  destruct H as [H _]. specialize (H (le_n _)). unfold postfix_op in H. cbn [existsb] in *.
  destruct (String.eqb op "("), (String.eqb op "["), (String.eqb op "."), (String.eqb op "->"), (String.eqb op "++"), (String.eqb op "--"); cbn in *; congruence.
Qed.
(** An expression followed by something that ends it. *)
Lemma readable_ends n ts e rest : readable n ts e -> 2 <= n <= 16 -> over (Nat.min n 14) rest ->
  (match rest with TPunct op :: _ => 3 <= n <= 12 -> level_op n op = false | _ => True end) ->
  exists b, (14 <= n -> b = true) /\ eventually (fun f => read f n (ts ++ rest)) (values e, b, rest).
Proof.
  intros (b & Hb & H) Hn Ho Hl. exists b. split; [exact Hb|]. apply H.
  - eapply over_le; [exact Ho|lia].
  - unfold goes_on. destruct (Nat.leb_spec n 2); [reflexivity|]. destruct (Nat.leb_spec n 12).
    + apply more_over; [eapply over_le; [exact Ho|lia]|]. destruct rest as [|[]]; auto.
    + destruct (Nat.eqb_spec n 15); [|reflexivity]. subst. rewrite Hb by lia. now apply suffixes_over.
Qed.
Lemma readable_closed ts e op rest : readable 2 ts e -> In op [")"; "]"; ","]%string ->
  exists b, eventually (fun f => read f 2 (ts ++ TPunct op :: rest)) (values e, b, TPunct op :: rest).
Proof.
  intros H Ho. destruct (readable_ends 2 ts e (TPunct op :: rest) H) as (b & _ & Hb); [lia|now apply over_close|lia|]. eauto.
Qed.
Lemma eat_same op r : eat op (TPunct op :: r) = Some r.
Proof. cbn. now rewrite String.eqb_refl. Qed.
Lemma words_app ws r : (match r with TWord _ :: _ => False | _ => True end) -> words (map TWord ws ++ r) = (ws, r).
Proof. intros H. induction ws as [|w ws IH]; cbn; [destruct r as [|[]]; easy|]. now rewrite IH. Qed.
Lemma stars_count n r : (match r with TPunct op :: _ => op <> "*"%string | _ => True end) -> count_stars (repeat (TPunct "*") n ++ r) = (n, r).
Proof.
  intros H. induction n as [|n IH]; cbn.
  - destruct r as [|[w|w|w|w|op] r]; try easy. cbn. destruct (String.eqb_spec op "*"); [contradiction|reflexivity].
  - now rewrite IH.
Qed.
Lemma strings_app l r : (match r with TStr _ :: _ => False | _ => True end) -> strings (map TStr l ++ r) = (l, r).
Proof. intros H. induction l as [|w ws IH]; cbn; [destruct r as [|[]]; easy|]. now rewrite IH. Qed.
Lemma type_reads ts t r : c_typeform_of types ts t -> read_type (ts ++ TPunct ")" :: r) = (t, TPunct ")" :: r) /\ type_start (ts ++ TPunct ")" :: r) = true.
Proof.
  destruct 1 as [ts t n H]. rewrite <- app_assoc. unfold read_type. destruct H as [w ws H Hc|w ws H].
  - rewrite words_app by (destruct n; exact I). rewrite stars_count by discriminate. split.
    + now apply str_eqb_neq in Hc as ->.
    + cbn. now rewrite H.
  - change (TWord (L "const") :: map TWord (w :: ws)) with (map TWord (L "const" :: w :: ws)).
    rewrite words_app by (destruct n; exact I). rewrite stars_count by discriminate. split; [reflexivity|]. cbn. now rewrite orb_true_r.
Qed.

Ltac fuel k := exists (S k); let f := fresh "f" in let Hf := fresh "Hf" in intros [|f] Hf; [lia|].
Lemma op_in (op : string) l : In op l -> existsb (String.eqb op) l = true.
Proof. intros H. apply existsb_exists. exists op. now rewrite String.eqb_refl. Qed.
Lemma not_open ts : opens 14 ts -> forall r, eat "(" ts = Some r -> type_start r = false.
Proof.
  destruct ts as [|[w|w|w|w|op] z]; cbn; try discriminate. intros [(-> & Hz & H)|[_ H]] r E.
  - injection E as <-. auto.
  - destruct (String.eqb_spec op "("); [|discriminate]. subst. cases H; discriminate.
Qed.
Lemma readable_up b n ts e : n < 16 -> 2 <= n -> opens (S n) ts -> readable_as b (S n) ts e -> readable_as b n ts e.
Proof.
  intros Hn H2 Hop (Hb & H). assert (Hn' : 13 <= n \/ n <= 12) by lia.
  split; [intros; apply Hb; lia|]. intros rest r Ho Hg.
  assert (Hop' : opens (S n) (ts ++ rest)) by now apply opens_app. pose proof (over_up _ _ Ho) as Ho'.
  unfold goes_on in Hg. destruct (Nat.leb_spec n 2).
  - assert (n = 2) by lia. subst n r. destruct (H rest (values e, b, rest) Ho') as [k Hk].
    + cbn. apply more_over; [exact Ho'|]. destruct rest as [|[]]; auto. apply Ho; lia.
    + fuel k. rewrite read_S. unfold read_step. cbn [Nat.leb]. rewrite Hk by lia. destruct rest as [|[]]; auto.
      destruct Ho as (_ & _ & Ho). now rewrite Ho.
  - destruct (Nat.leb_spec n 12).
    + destruct Hg as [k1 Hg]. destruct (H rest (values e, b, rest) Ho') as [k Hk].
      * unfold goes_on. destruct (Nat.leb_spec (S n) 2); [lia|]. destruct (Nat.leb_spec (S n) 12).
        -- apply more_over; [exact Ho'|]. destruct rest as [|[]]; auto. apply Ho; lia.
        -- destruct (Nat.eqb_spec (S n) 15); [lia|reflexivity].
      * fuel (k + k1). rewrite read_S. unfold read_step. destruct (Nat.leb_spec n 2); [lia|]. destruct (Nat.leb_spec n 12); [|lia].
        rewrite Hk by lia. apply Hg. lia.
    + assert (Hc : n = 13 \/ n = 14 \/ n = 15) by lia. destruct Hc as [-> | [-> | ->]]; cbn in Hg.
      * subst r. destruct (H rest (values e, b, rest) Ho' eq_refl) as [k Hk]. fuel k. rewrite read_S. unfold read_step. cbn [Nat.leb].
        destruct (eat "(" (ts ++ rest)) as [r|] eqn:Er; [|apply Hk; lia]. rewrite (not_open _ Hop' _ Er). apply Hk. lia.
      * subst r. rewrite Hb in * by lia. destruct (H rest (values e, true, rest) Ho') as [k Hk].
        { cbn. now apply suffixes_over. }
        fuel k. rewrite read_S. unfold read_step. cbn [Nat.leb]. destruct (ts ++ rest) as [|[w|w|w|w|op] z]; try (apply Hk; lia).
        -- destruct (str_eqb_spec w (L "sizeof")) as [E|E]; [|apply Hk; lia]. destruct Hop' as (_ & _ & Hw). specialize (Hw E). lia.
        -- destruct Hop' as [(-> & _)|[Hx _]]; [|lia]. cbn [existsb String.eqb]. apply Hk. lia.
      * destruct Hg as [k1 Hg]. rewrite Hb in * by lia. destruct (H rest (values e, true, rest) Ho' eq_refl) as [k Hk].
        fuel (k + k1). rewrite read_S. unfold read_step. cbn [Nat.leb]. rewrite Hk by lia. apply Hg. lia.
Qed.
(** A suffix of a postfix expression. *)
Lemma readable_suffix ts e e' (suffix : list ctok) op tail : readable 15 ts e -> suffix = TPunct op :: tail ->
  (forall rest r, over 15 rest -> eventually (fun f => suffixes f (values e') rest) r -> eventually (fun f => suffixes f (values e) (suffix ++ rest)) r) ->
  readable 15 (ts ++ suffix) e'.
Proof.
  intros (b & Hb & H) -> Hs. exists true. split; [reflexivity|]. intros rest r Ho Hg. rewrite <- app_assoc. apply H.
  - cbn [over app]. repeat split; intros; lia.
  - cbn in *. apply Hs; auto.
Qed.

Lemma readable_down b n m ts e : readable_as b m ts e -> opens m ts -> n <= m <= 16 -> 2 <= n -> readable_as b n ts e.
Proof.
  intros H Ho [Hn Hm]. revert Hm H Ho. induction Hn as [|m Hn IH]; intros Hm H Ho H2; [exact H|].
  apply IH; [lia| |now apply opens_up|exact H2]. apply readable_up; auto; lia.
Qed.

Theorem reader :
  (forall n ts e, expr_of n ts e -> 2 <= n -> readable n ts e)
  /\ (forall ts l, c_args_of types ts l -> (ts = [] /\ l = []) \/ (opens 2 ts /\ readable_args ts l))
  /\ (forall ts l, c_more_args_of types ts l -> opens 2 ts /\ readable_args ts l).
Proof.
  apply c_expr_mutual.
  - (* up *) intros n ts e Hn He IH H2. destruct (expr_opens _ _ _ He) as [_ Ho]. destruct IH as [b IH]; [lia|]. exists b. now apply readable_up.
  - (* assignment *) intros ts op ts' a b Hop Ha IHa Hb IHb H2. destruct IHa as [ba IHa]; [lia|]. destruct IHb as [bb [_ IHb]]; [lia|].
    destruct (assign_level _ Hop) as (Hx & Hx1 & Hx2). assert (ba = true) by (apply IHa; lia). subst ba.
    destruct (readable_down true 3 14 ts a IHa) as [_ H3]; [eapply expr_opens; eauto|lia|lia|].
    exists false. split; [lia|]. intros rest r Ho Hg. cbn in Hg. subst r.
    destruct (IHb rest (values b, bb, rest) Ho eq_refl) as [k Hk]. rewrite <- app_assoc. cbn [app].
    destruct (H3 (TPunct op :: ts' ++ rest) (values a, true, TPunct op :: ts' ++ rest)) as [k1 Hk1].
    + apply over_assign; [lia|exact Hop].
    + cbn. apply more_over; [apply over_assign; [lia|exact Hop]|apply Hx2; lia].
    + fuel (k + k1). rewrite read_S. unfold read_step. cbn [Nat.leb]. rewrite Hk1 by lia. rewrite Hx. rewrite Hk by lia. reflexivity.
  - (* binary *) intros n ts op ts' a b Hop Ha IHa Hb IHb H2. destruct IHa as [ba [_ IHa]]; [lia|]. destruct IHb as [bb IHb]; [lia|].
    destruct (bin_level _ _ Hop) as (Hr & Hx & _). exists false. split; [lia|]. intros rest r Ho Hg. rewrite <- app_assoc. cbn [app].
    assert (Hg' : eventually (fun f => more f n (CBin op (values a) (values b)) false rest) r).
    { unfold goes_on in Hg. destruct (Nat.leb_spec n 2); [lia|]. destruct (Nat.leb_spec n 12); [exact Hg|lia]. }
    destruct Hg' as [k1 Hk1]. destruct (readable_ends (S n) ts' b rest (ex_intro _ bb IHb)) as (b2 & _ & k2 & Hk2); [lia| | |].
    + eapply over_le; [exact Ho|lia].
    + destruct rest as [|[]]; auto. intros. apply Ho; lia.
    + apply IHa; [now apply over_binary|]. unfold goes_on. destruct (Nat.leb_spec n 2); [lia|]. destruct (Nat.leb_spec n 12); [|lia].
      fuel (k1 + k2). rewrite more_S. unfold more_step. rewrite Hx. rewrite Hk2 by lia. apply Hk1. lia.
  - (* cast *) intros tt t ts e Ht He IH H2. destruct IH as [b [_ IH]]; [lia|]. exists false. split; [lia|]. intros rest r Ho Hg. cbn in Hg. subst r.
    destruct (IH rest (values e, b, rest) Ho eq_refl) as [k Hk]. fuel k. rewrite read_S. unfold read_step. cbn [Nat.leb app]. rewrite eat_same.
    rewrite <- app_assoc. cbn [app]. destruct (type_reads tt t (ts ++ rest) Ht) as [-> ->]. rewrite eat_same, Hk by lia. reflexivity.
  - (* step *) intros op ts e Hop He IH H2. destruct IH as [b [_ IH]]; [lia|]. exists true. split; [reflexivity|]. intros rest r Ho Hg. cbn in Hg. subst r.
    destruct (IH rest (values e, b, rest) Ho eq_refl) as [k Hk]. fuel k. rewrite read_S. unfold read_step. cbn [Nat.leb app]. rewrite (op_in _ _ Hop), Hk by lia. reflexivity.
  - (* unary *) intros op ts e Hop He IH H2. destruct IH as [b [_ IH]]; [lia|]. exists true. split; [reflexivity|]. intros rest r Ho Hg. cbn in Hg. subst r.
    destruct (IH rest (values e, b, rest)) as [k Hk].
    + destruct rest as [|[]]; auto. destruct Ho as (O1 & O2 & O3). repeat split; intros; [apply O1; lia| |lia].
      apply O2; lia.
    + reflexivity.
    + fuel k. rewrite read_S. unfold read_step. cbn [Nat.leb app].
      replace (existsb (String.eqb op) ["++"; "--"]%string) with false by (cases Hop; subst; reflexivity). rewrite (op_in _ _ Hop), Hk by lia. reflexivity.
  - (* sizeof *) intros ts e He IH H2. destruct IH as [b [_ IH]]; [lia|]. exists true. split; [reflexivity|]. intros rest r Ho Hg. cbn in Hg. subst r.
    destruct (IH rest (values e, b, rest) Ho eq_refl) as [k Hk]. fuel k. rewrite read_S. unfold read_step. cbn [Nat.leb app].
    rewrite str_eqb_refl. rewrite Hk by lia. destruct (eat "(" (ts ++ rest)) as [r|] eqn:Er; [|reflexivity].
    destruct (expr_opens _ _ _ He) as [_ Hop]. rewrite (not_open _ (opens_app _ _ rest Hop) _ Er). reflexivity.
  - intros tt t Ht H2. exists true. split; [reflexivity|]. intros rest r Ho Hg. cbn in Hg. subst r.
    fuel 0. rewrite read_S. unfold read_step. cbn [Nat.leb app]. rewrite str_eqb_refl, eat_same. rewrite <- app_assoc. cbn [app].
    destruct (type_reads tt t rest Ht) as [-> ->]. rewrite eat_same. reflexivity.
  - (* call *) intros ts f ts' args Hf IHf Hargs IHargs H2. eapply readable_suffix; [apply IHf; lia|reflexivity|].
    intros rest r Ho [k Hk]. destruct IHargs as [[-> ->]|[Hop IHargs]].
    + fuel k. rewrite suffixes_S. unfold suffixes_step. cbn [app String.eqb]. rewrite eat_same. apply Hk. lia.
    + destruct (IHargs rest) as [k1 Hk1]. fuel (k + k1). rewrite suffixes_S. unfold suffixes_step. cbn [app]. rewrite String.eqb_refl, <- app_assoc. cbn [app].
      assert (En : eat ")" (ts' ++ TPunct ")" :: rest) = None).
      { destruct ts' as [|[w|w|w|w|op] z]; try reflexivity; [contradiction|]. cbn. destruct (String.eqb_spec op ")"); [|reflexivity]. subst.
        destruct Hop as [[? _]|[_ Hop]]; [discriminate|cases Hop; discriminate]. }
      rewrite En. rewrite Hk1 by lia. rewrite eat_same. apply Hk. lia.
  - (* index *) intros ts a ts' i Ha IHa Hi IHi H2. eapply readable_suffix; [apply IHa; lia|reflexivity|].
    intros rest r Ho [k Hk]. destruct (readable_closed ts' i "]" rest) as (b & k1 & Hk1); [apply IHi; lia|cbn; tauto|].
    fuel (k + k1). rewrite suffixes_S. unfold suffixes_step. cbn [app String.eqb Ascii.eqb Bool.eqb]. rewrite <- app_assoc. cbn [app].
    rewrite Hk1 by lia. rewrite eat_same. apply Hk. lia.
  - (* field *) intros op ts e x Hop He IH H2. eapply readable_suffix; [apply IH; lia|reflexivity|].
    intros rest r Ho [k Hk]. fuel k. rewrite suffixes_S. unfold suffixes_step. cbn [app].
    replace (String.eqb op "(") with false by (cases Hop; subst; reflexivity). replace (String.eqb op "[") with false by (cases Hop; subst; reflexivity).
    rewrite (op_in _ _ Hop). apply Hk. lia.
  - (* postfix *) intros op ts e Hop He IH H2. eapply readable_suffix; [apply IH; lia|reflexivity|].
    intros rest r Ho [k Hk]. fuel k. rewrite suffixes_S. unfold suffixes_step. cbn [app].
    replace (String.eqb op "(") with false by (cases Hop; subst; reflexivity). replace (String.eqb op "[") with false by (cases Hop; subst; reflexivity).
    replace (existsb (String.eqb op) ["."; "->"]%string) with false by (cases Hop; subst; reflexivity).
    rewrite (op_in _ _ Hop). apply Hk. lia.
  - (* name *) intros s Hs H2. exists true. split; [reflexivity|]. intros rest r Ho Hg. cbn in Hg. subst r. fuel 0. reflexivity.
  - intros s H2. exists true. split; [reflexivity|]. intros rest r Ho Hg. cbn in Hg. subst r. fuel 0. reflexivity.
  - intros s H2. exists true. split; [reflexivity|]. intros rest r Ho Hg. cbn in Hg. subst r. fuel 0. reflexivity.
  - (* strings *) intros l v Hl Hv H2. exists true. split; [reflexivity|]. intros rest r Ho Hg. cbn in Hg. subst r. fuel 0.
    rewrite read_S. unfold read_step. cbn [Nat.leb]. destruct l as [|w l]; [easy|]. cbn [map app].
    change (TStr w :: map TStr l ++ rest) with (map TStr (w :: l) ++ rest). rewrite strings_app by (destruct rest as [|[]]; easy). rewrite Hv. reflexivity.
  - (* parentheses *) intros ts e He IH H2. exists true. split; [reflexivity|]. intros rest r Ho Hg. cbn in Hg. subst r.
    destruct (readable_closed ts e ")" rest) as (b & k & Hk); [apply IH; lia|cbn; tauto|]. fuel k. rewrite read_S. unfold read_step. cbn [Nat.leb app].
    rewrite eat_same. rewrite <- app_assoc. cbn [app]. rewrite Hk by lia. rewrite eat_same. reflexivity.
  - auto.
  - auto.
  - intros ts e He IH. split; [eapply expr_opens; eauto|]. intros rest.
    destruct (readable_closed ts e ")" rest) as (b & k & Hk); [apply IH; lia|cbn; tauto|]. fuel k. rewrite arguments_S. unfold arguments_step.
    rewrite Hk by lia. reflexivity.
  - intros ts e ts' l He IH Hl [_ IHl]. split; [apply opens_app; eapply expr_opens; eauto|]. intros rest.
    destruct (readable_closed ts e "," (ts' ++ TPunct ")" :: rest)) as (b & k & Hk); [apply IH; lia|cbn; tauto|]. destruct (IHl rest) as [k1 Hk1].
    fuel (k + k1). rewrite arguments_S. unfold arguments_step. rewrite <- app_assoc. cbn [app]. rewrite Hk by lia. rewrite eat_same.
    rewrite Hk1 by lia. reflexivity.
Qed.

Theorem expr_unique ts e e' : expr_of 2 ts e -> expr_of 2 ts e' -> values e = values e'.
Proof.
  intros H H'. destruct (proj1 reader _ _ _ H ltac:(lia)) as (b & _ & Hr). destruct (proj1 reader _ _ _ H' ltac:(lia)) as (b' & _ & Hr').
  destruct (Hr [] (values e, b, []) I eq_refl) as [k Hk]. destruct (Hr' [] (values e', b', []) I eq_refl) as [k' Hk'].
  specialize (Hk (k + k') ltac:(lia)). specialize (Hk' (k + k') ltac:(lia)). congruence.
Qed.
End Reader.

(** ** What the formatter prints *)
Theorem expr_means types e : types (L "sizeof") = false -> plain types e -> exists toks,
  reads (fmt_expr e) toks [] /\ c_expr_of types 2 toks e
  /\ forall toks' e', reads (fmt_expr e) toks' [] -> c_expr_of types 2 toks' e' -> values e' = values e.
Proof.
  intros Hs Hp. destruct (expr_denotes types e Hp) as (toks & Hr & He). exists toks. split; [exact Hr|]. split; [exact He|].
  intros toks' e' Hr' He'. rewrite (reads_unique _ _ _ _ Hr' Hr) in He'. eapply expr_unique; eauto.
Qed.
Theorem one_reading types text toks toks' e e' : types (L "sizeof") = false ->
  reads text toks [] -> c_expr_of types 2 toks e -> reads text toks' [] -> c_expr_of types 2 toks' e' -> values e = values e'.
Proof. intros Hs Hr He Hr' He'. rewrite (reads_unique _ _ _ _ Hr' Hr) in He'. eapply expr_unique; eauto. Qed.
(** A tree whose text is read as another one. *)
Lemma misread types e e' : types (L "sizeof") = false -> values e' <> values e ->
  (exists toks, reads (fmt_expr e) toks [] /\ c_expr_of types 2 toks e') ->
  (exists toks, reads (fmt_expr e) toks [] /\ c_expr_of types 2 toks e')
  /\ ~ exists toks e'', reads (fmt_expr e) toks [] /\ c_expr_of types 2 toks e'' /\ values e'' = values e.
Proof.
  intros Hs Hn H. split; [exact H|]. destruct H as (toks & Hr & He). intros (toks' & e'' & Hr' & He' & Ev).
  apply Hn. rewrite <- Ev. exact (one_reading _ _ _ _ _ _ Hs Hr He Hr' He').
Qed.
Lemma printed_alike types e e' : plain types e' -> fmt_expr e = fmt_expr e' ->
  exists toks, reads (fmt_expr e) toks [] /\ c_expr_of types 2 toks e'.
Proof. intros Hp ->. now apply expr_denotes. Qed.
(** A field of a cast is printed like the cast of a field. *)
Lemma cast_field types t e op f : c_type_ok types t -> plain types e -> In op ["."; "->"]%string -> c_word f ->
  exists toks, reads (fmt_expr (CField op (CCast t e) f)) toks [] /\ c_expr_of types 2 toks (CCast t (CField op e f)).
Proof.
  intros Ht He Hop Hf. destruct (typeform_reads _ t Ht) as (tt & Et & Rt). destruct (paren_good types e He (proj1 (plain_good types) e He)) as (ts & Rx & Ex).
  exists ((TPunct "(" :: tt ++ [TPunct ")"]) ++ ts ++ [TPunct op; TWord f]). split.
  - cbn [fmt_expr c_is_op]. rewrite <- app_assoc. apply reads_app; [apply (paren_reads types), Rt, (close_tight types)|].
    apply reads_app; [apply Rx|]. destruct Hf as (c0 & w & -> & Hc0 & Hw). apply reads_tok.
    + cases Hop; subst; [|apply spells_final; cbn; tauto].
      apply spells_punct; [cbn; tauto|discriminate|now apply dot_word|intros _; now apply word_no_digit].
    + apply word_reads; [exists c0, w; auto|exact I].
  - cbn [app]. rewrite <- app_assoc. apply (up_to types 13); [|lia|lia]. apply C_cast; [exact Et|].
    apply (up_to types 15); [|lia|lia]. apply C_field; [exact Hop|]. apply (up_to types 16); [exact Ex|lia|lia].
Qed.
(** Concrete plain trees. *)
Ltac plain_word := eexists; eexists; split; [reflexivity|split; [reflexivity|apply Forall_forall; cbn; intuition (subst; reflexivity)]].
Ltac plain_right := first [left; cbn; tauto|right; discriminate
  |right; let k := fresh in let E := fresh in intros k ? ? E; injection E as <- _ _; let H := fresh in intros H; apply binary_strength in H; discriminate].
Ltac plain_type := match goal with |- c_type_ok _ ?t => let w := eval cbv in (ctn_name (cbtf_type t)) in
  exists w, []; split; [reflexivity|split; [reflexivity|split; [discriminate|apply Forall_cons; [plain_word|apply Forall_nil]]]] end.
Ltac plain_tree :=
  match goal with
  | |- plain _ (CIdent _) => apply P_ident; [split; [reflexivity|cbn; intuition discriminate]|plain_word]
  | |- plain _ (CBin ?op _ _) =>
      let n := eval compute in (FormatChe.strength op) in
      match n with
      | 2 => apply P_assign; [cbn; tauto|plain_tree|plain_tree|exact I]
      | _ => apply (P_binary _ op n); [exists (n - 3); eexists; split; [reflexivity|split; [cbn; tauto|reflexivity]]|plain_tree|plain_tree|plain_right]
      end
  | |- plain _ (CPrefix ?op _) =>
      first [apply P_unary; [cbn; tauto|plain_tree|intros (k & x & E & _); discriminate]
            |apply P_step; [cbn; tauto|plain_tree|exact I]]
  | |- plain _ (CCast _ _) => apply P_cast; [plain_type|plain_tree]
  | |- plain _ (CCall _ _) => apply P_call; [plain_tree|reflexivity|repeat (apply P_cons; [plain_tree|]); apply P_nil]
  | |- plain _ (CIndex _ _) => apply P_index; [plain_tree|reflexivity|plain_tree]
  | |- plain _ (CPostfix _ _) => apply P_postfix; [cbn; tauto|plain_tree|reflexivity|reflexivity]
  | |- plain _ (CField _ _ _) => apply P_field; [cbn; tauto|plain_tree|exact I|reflexivity|plain_word]
  end.
Lemma string_denotes s : c_lines s -> exists l,
  reads (fmt_expr (CLit (CLString s))) (map TStr l) [] /\ strings_value l = string_value s.
Proof.
  intros Hs. destruct (lines_split s Hs) as (l0 & ls & E & Hc & Hv). exists (line_tokens l0 ls). split.
  - cbn [fmt_expr format_literal]. rewrite E. now apply reads_lines.
  - rewrite line_values. symmetry. apply Hv. discriminate.
Qed.
(** A line that ends in a backslash. *)
Definition broken_line : str := lit "one\" ++ [10%N] ++ lit "two".
Lemma broken_line_unreadable : ~ exists toks, reads (fmt_expr (CLit (CLString broken_line))) toks [].
Proof.
  intros [toks H].
  change (fmt_expr (CLit (CLString broken_line))) with ((34%N :: lit "one\""" ++ [34%N]) ++ 92%N :: lit "n""" ++ [10%N] ++ lit """two""") in H.
  assert (Hs : forall r, spells (TStr (lit "one\""")) (34%N :: lit "one\""" ++ [34%N]) r).
  { intros r. constructor. do 3 (apply Chars_char; [discriminate|discriminate|discriminate|]). apply Chars_pair; [discriminate|constructor]. }
  inversion H as [ws rest Hw E|ws t s text toks' rest Hw Ht Hr E]; subst.
  - inversion Hw; discriminate.
  - destruct ws as [|c ws]; [|exfalso; cbn in E; injection E as E _; subst; inversion Hw; discriminate]. cbn [app] in E.
    rewrite app_nil_r in Ht. destruct (spells_unique _ _ _ _ _ _ Ht (Hs _) E) as (-> & -> & ->).
    inversion Hr as [ws rest Hw' E'|ws t s text toks'' rest Hw' Ht' Hr' E']; subst.
    + inversion Hw'; discriminate.
    + destruct ws as [|c ws]; [|exfalso; cbn in E'; injection E' as E' _; subst; inversion Hw'; discriminate]. cbn [app] in E'.
      pose proof (spells_class _ _ _ Ht') as K. rewrite app_nil_r, E' in K. destruct t as [w|w|w|w|op]; cbn in K; try (exfalso; intuition discriminate).
      inversion Ht' as [| | | |op' rest' Hi]; subst. cases Hi; subst; discriminate.
Qed.
