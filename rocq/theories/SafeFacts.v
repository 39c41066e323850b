(** What the parser does on text outside the grammar: how much fuel it needs,
    where it can be when it aborts, where its errors are. *)
From Verif Require Import Base Buf Lexer Nodes Cursor Resolve Cspec Preparser Parser BaseFacts SpecGrammar SpecSafe
  GrammarSound GrammarExpr GrammarComplete TextFacts.

(** ** Single steps of the expression parser *)
Section ExprSteps.
Variable ctx : parsectx.
Open Scope mon_scope.
Lemma parse_expr_S f strength : parse_expr ctx (S f) strength = (
      if Nat.ltb strength 13 then parse_seq_expr ctx f strength
      else if Nat.eqb strength 13 then parse_prefix_expr ctx f
      else if Nat.eqb strength 14 then base ctx f
      else abort "parse_expr: unexpected n")%mon.
Proof. reflexivity. Qed.
Lemma parse_seq_expr_S f strength : parse_seq_expr ctx (S f) strength = ( r <- parse_expr ctx f (S strength) ;; seq_loop ctx f strength r)%mon.
Proof. reflexivity. Qed.
Lemma seq_loop_S f strength r : seq_loop ctx (S f) strength r = (
      o <- peek ;;
      match o with
      | None => ret r
      | Some next =>
          if negb (is_op (t_kind next)) then ret r
          else match operator_strength (t_kind next) with
          | None => abort "operator_strength: unknown operator"
          | Some k =>
              if negb (Nat.eqb k strength) then ret r
              else
                tok <- get_unwrap "parse_seq_expr: line 215" ;;
                r2 <- parse_expr ctx f (S strength) ;;
                seq_loop ctx f strength (EBinary (t_pos tok) (t_kind tok) r r2)
          end
      end)%mon.
Proof. reflexivity. Qed.
Lemma parse_prefix_expr_S f  : parse_prefix_expr ctx (S f)  = (
      token <- get_unwrap "parse_prefix_expr: line 229" ;;
      if is_prefix_op (t_kind token) then
        r <- parse_prefix_expr ctx f ;;
        ret (EPrefix (t_pos token) (t_kind token) r)
      else
        is_cast <-
          (if kind_is token "(" then
             t <- peek_unwrap "parse_prefix_expr: line 245" ;;
             ret (kind_is t "word" && is_type (t_content t) (mi_typedefs (thismod ctx)))
           else ret false) ;;
        if is_cast : bool then
          tf <- parse_bare_typeform f ctx ;;
          expect ")" (Some "typecast"%string) ;;;
          e <- parse_prefix_expr ctx f ;;
          ret (ECast tf e)
        else if kind_is token "sizeof" then (unget token ;;; parse_sizeof ctx f)
        else (unget token ;;; base ctx f))%mon.
Proof. reflexivity. Qed.
Lemma base_S f  : base ctx (S f)  = ( r <- read_expression_atom ctx f ;; base_loop ctx f r)%mon.
Proof. reflexivity. Qed.
Lemma base_loop_S f r : base_loop ctx (S f) r = (
      o <- peek ;;
      match o with
      | None => ret r
      | Some next =>
          if kind_is next "(" then (r <- parse_call ctx f r ;; base_loop ctx f r)
          else if kind_is next "[" then
            (expect "[" (Some "array index"%string) ;;;
             index <- parse_expr ctx f 0 ;;
             expect "]" (Some "array index"%string) ;;;
             base_loop ctx f (EArrIndex r index))
          else if is_postfix_op (t_kind next) then
            (t <- get_unwrap "base: line 290" ;; base_loop ctx f (EPostfix (t_kind t) r))
          else if kind_is next "->" || kind_is next "." then
            (optok <- get_unwrap "base: line 297" ;;
             tok <- expect "word" (Some "field access field name - identifier"%string) ;;
             base_loop ctx f (EField (t_pos optok) (t_kind optok) r (t_content tok)))
          else ret r
      end)%mon.
Proof. reflexivity. Qed.
Lemma read_expression_atom_S f  : read_expression_atom ctx (S f)  = (
      m <- more ;;
      if negb m then fail_eof (L "id: unexpected end of input")
      else
        n <- ns_follows ctx ;;
        if n : bool then (x <- read_ns_id ctx ;; ret (EName x))
        else
          next <- get_unwrap "read_expression_atom: line 402" ;;
          if kind_is next "word" then ret (EName (mkNs (t_pos next) [] (t_content next)))
          else if kind_is next "num" || kind_is next "string" || kind_is next "char" then
            (unget next ;;; x <- parse_literal ;; ret (ELit x))
          else if kind_is next "(" then
            
            (fun c =>
               match parse_expr ctx f 0 c with
               | (Abort w, c') => (Abort w, c')
               | (NoFuel, c') => (NoFuel, c')
               | (e, c') =>
                   match expect ")" (Some "parenthesized expression"%string) c' with
                   | (Ok _, c'') => (e, c'')
                   | (Err x, c'') => (Err x, c'')
                   | (Abort w, c'') => (Abort w, c'')
                   | (NoFuel, c'') => (NoFuel, c'')
                   end
               end)
          else if kind_is next "{" then
            (unget next ;;; parse_composite_literal ctx f)
          else fail (mkErr (L "id: unexpected token " ++ token_display next) (t_pos next)))%mon.
Proof. reflexivity. Qed.
Lemma parse_composite_literal_S f  : parse_composite_literal ctx (S f)  = ( expect "{" (Some "composite literal"%string) ;;; complit_loop ctx f [])%mon.
Proof. reflexivity. Qed.
Lemma complit_loop_S f entries : complit_loop ctx (S f) entries = (
      t <- peek_unwrap "parse_composite_literal: line 621" ;;
      if kind_is t "}" then
        (expect "}" (Some "struct literal"%string) ;;; ret (EComp entries))
      else
        e <- parse_composite_literal_entry ctx f ;;
        t <- peek_unwrap "parse_composite_literal: line 625" ;;
        if kind_is t "," then (get ;;; complit_loop ctx f (entries ++ [e]))
        else (expect "}" (Some "struct literal"%string) ;;; ret (EComp (entries ++ [e]))))%mon.
Proof. reflexivity. Qed.
Lemma parse_composite_literal_entry_S f  : parse_composite_literal_entry ctx (S f)  = (
      t <- peek_unwrap "parse_composite_literal_entry: line 639" ;;
      if kind_is t "." then
        (expect "." (Some "struct literal member"%string) ;;;
         tok <- expect "word" (Some "struct literal entry - identifier"%string) ;;
         expect "=" (Some "struct literal member"%string) ;;;
         value <- parse_expr ctx f 0 ;;
         ret (false, Some (EName (mkNs (t_pos tok) [] (t_content tok))), value))
      else
        b <- follows "[" ;;
        if b : bool then
          (get ;;;
           key <- parse_expr ctx f 0 ;;
           expect "]" (Some "array literal index"%string) ;;;
           expect "=" (Some "array literal index"%string) ;;;
           value <- parse_expr ctx f 0 ;;
           ret (true, Some key, value))
        else (value <- parse_expr ctx f 0 ;; ret (false, None, value)))%mon.
Proof. reflexivity. Qed.
Lemma parse_sizeof_S f  : parse_sizeof ctx (S f)  = (
      expect "sizeof" None ;;;
      expect "(" None ;;;
      t <- type_follows ctx ;;
      e <- (if t : bool then (x <- parse_bare_typeform f ctx ;; ret (ESizeofT x))
            else (x <- parse_expr ctx f 0 ;; ret (ESizeofE x))) ;;
      expect ")" None ;;;
      ret e)%mon.
Proof. reflexivity. Qed.
Lemma parse_call_S f func : parse_call ctx (S f) func = (
      tok <- expect "(" None ;;
      o <- peek ;;
      args <-
        (match o with
         | Some t => if negb (kind_is t ")")
                     then (a <- parse_expr ctx f 0 ;; call_args ctx f [a])
                     else ret []
         | None => ret []
         end) ;;
      expect ")" None ;;;
      ret (ECall (t_pos tok) func args))%mon.
Proof. reflexivity. Qed.
Lemma call_args_S f args : call_args ctx (S f) args = (
      b <- follows "," ;;
      if b : bool then (get ;;; a <- parse_expr ctx f 0 ;; call_args ctx f (args ++ [a]))
      else ret args)%mon.
Proof. reflexivity. Qed.
End ExprSteps.

Lemma ulen_pos c : 0 < ulen c.
Proof. unfold ulen. repeat destruct (N.ltb _ _); lia. Qed.
Lemma btake_boundary a : forall b, btake (blen a) (a ++ b) = Some a.
Proof.
  induction a as [|c a IH]; intros b; [now destruct b|]. cbn [blen app]. pose proof (ulen_pos c).
  unfold btake. destruct (ulen c + blen a) as [|n] eqn:E; [lia|]. fold btake. rewrite <- E.
  replace (Nat.leb (ulen c) (ulen c + blen a)) with true by (symmetry; apply Nat.leb_le; lia).
  replace (ulen c + blen a - ulen c) with (blen a) by lia. now rewrite IH.
Qed.
Lemma bdrop_boundary a : forall b, bdrop (blen a) (a ++ b) = Some b.
Proof.
  induction a as [|c a IH]; intros b; [now destruct b|]. cbn [blen app]. pose proof (ulen_pos c).
  unfold bdrop. destruct (ulen c + blen a) as [|n] eqn:E; [lia|]. fold bdrop. rewrite <- E.
  replace (Nat.leb (ulen c) (ulen c + blen a)) with true by (symmetry; apply Nat.leb_le; lia).
  replace (ulen c + blen a - ulen c) with (blen a) by lia. now rewrite IH.
Qed.
Lemma bdrop_none n s : bdrop n s = None -> ~ byte_boundary n s.
Proof. intros H (a & b & -> & <-). rewrite bdrop_boundary in H. discriminate. Qed.
Lemma token_unprintable t : token_to_string t = None -> unprintable t.
Proof.
  unfold token_to_string, unprintable. destruct (t_content t) as [|c s] eqn:E; [discriminate|]. rewrite <- E. clear E.
  destruct (Nat.ltb 40 (blen (t_content t))) eqn:Eb; [|discriminate]. apply Nat.ltb_lt in Eb.
  destruct (btake 37 (t_content t)) eqn:E; [discriminate|]. intros _. split; [exact Eb|].
  intros (a & b & Ha & Hb). rewrite Ha, <- Hb, btake_boundary in E. discriminate.
Qed.

Section Safe.
Variable ctx : parsectx.
Variable p : pos.
Variable whole : list token.
Hypothesis macros : forall t, In t whole -> is "macro" t -> exists r, t_content t = 35%N :: r.
Notation cur l := (mkCur l (EndEof p)).

Definition suffix (l : list token) : Prop := exists pre, whole = pre ++ l.
Definition located (e : error) : Prop := error_at whole p e.

Definition post {A} (en : Prop) (hg : bool) (n1 n : nat) (Q : A -> Prop) (o : outcome A * cursor) : Prop :=
  match o with
  | (Ok a, c) => exists r, c = cur r /\ suffix r /\ List.length r < n1 /\ Q a
  | (Err e, c) => exists r, c = cur r /\ suffix r /\ List.length r <= n /\ located e
  | (Abort _, _) => exists pre r, whole = pre ++ r /\ culprit pre r
  | (NoFuel, c) => en -> if hg then c = cur [] else False
  end.
Definition W {A} (en : Prop) (hg : bool) (n1 n : nat) (Q : A -> Prop) (m : M A) (l : list token) : Prop :=
  suffix l -> post en hg n1 n Q (m (cur l)).
Notation len := (@List.length token).

Lemma suffix_tl t r : suffix (t :: r) -> suffix r.
Proof. intros [pre ->]. exists (pre ++ [t]). now rewrite <- app_assoc. Qed.
Lemma suffix_in t r : suffix (t :: r) -> In t whole.
Proof. intros [pre ->]. apply in_or_app. right. now left. Qed.
Lemma located_at m t : In t whole -> located (mkErr m (t_pos t)).
Proof. intros H. right. exists t. auto. Qed.

Section Rules.
Context {A B : Type} (en : Prop) (hg : bool) (n1 n : nat).
Implicit Types (Q : B -> Prop).

Lemma W_intro (Q : B -> Prop) m l : (suffix l -> W en hg n1 n Q m l) -> W en hg n1 n Q m l.
Proof. intros H Hs. now apply H. Qed.
Lemma W_bind k1 (Q1 : A -> Prop) (Q : B -> Prop) m k l : W en hg k1 n Q1 m l ->
  (forall a r, len r < k1 -> Q1 a -> W en hg n1 n Q (k a) r) -> W en hg n1 n Q (bind m k) l.
Proof.
  intros Hm Hk Hs. specialize (Hm Hs). unfold bind. destruct (m (cur l)) as [[a|e|w|] c].
  - destruct Hm as (r & -> & Hr & Hl & Ha). now apply Hk.
  - exact Hm.
  - exact Hm.
  - exact Hm.
Qed.
Lemma W_weak (en' : Prop) hg' n1' n' (Q' Q : B -> Prop) m l : W en' hg' n1' n' Q' m l -> (en -> en') -> (hg' = true -> hg = true) ->
  n1' <= n1 -> n' <= n -> (forall a, Q' a -> Q a) -> W en hg n1 n Q m l.
Proof.
  intros H He Hh H1 Hn HQ Hs. specialize (H Hs). unfold post in *. destruct (m (cur l)) as [[a|e|w|] c].
  - destruct H as (r & ? & ? & ? & ?). exists r. repeat split; auto. lia.
  - destruct H as (r & ? & ? & ? & ?). exists r. repeat split; auto; try lia.
  - exact H.
  - intros E. specialize (H (He E)). destruct hg'; [now rewrite Hh|contradiction].
Qed.
Lemma W_ret (Q : B -> Prop) a l : len l < n1 -> Q a -> W en hg n1 n Q (ret a) l.
Proof. intros H HQ Hs. exists l. auto. Qed.
Lemma W_fail (Q : B -> Prop) e l : len l <= n -> located e -> W en hg n1 n Q (fail e) l.
Proof. intros H HQ Hs. exists l. auto. Qed.
Lemma W_fail_eof (Q : B -> Prop) m l : len l <= n -> W en hg n1 n Q (fail_eof m) l.
Proof. intros H Hs. exists l. repeat split; auto. now left. Qed.
Lemma W_nofuel (Q : B -> Prop) l : ~ en -> W en hg n1 n Q nofuel l.
Proof. intros H _ E. contradiction. Qed.
Lemma W_abort (Q : B -> Prop) w l : (forall pre, whole = pre ++ l -> culprit pre l) -> W en hg n1 n Q (abort w) l.
Proof. intros H [pre Hs]. exists pre, l. auto. Qed.
Lemma culprit_end pre : culprit pre [].
Proof. now left. Qed.

Lemma W_peek (Q : B -> Prop) k l : (l = [] -> W en hg n1 n Q (k None) []) ->
  (forall t r, l = t :: r -> W en hg n1 n Q (k (Some t)) (t :: r)) -> W en hg n1 n Q (bind peek k) l.
Proof. intros H0 H1 Hs. destruct l as [|t r]; [apply H0|apply H1]; auto. Qed.
Lemma W_more (Q : B -> Prop) k l : (l = [] -> W en hg n1 n Q (k false) []) ->
  (forall t r, l = t :: r -> W en hg n1 n Q (k true) (t :: r)) -> W en hg n1 n Q (bind more k) l.
Proof. intros H0 H1 Hs. destruct l as [|t r]; [apply H0|apply H1]; auto. Qed.
Lemma W_get (Q : B -> Prop) k l : (l = [] -> W en hg n1 n Q (k None) []) ->
  (forall t r, l = t :: r -> suffix (t :: r) -> W en hg n1 n Q (k (Some t)) r) -> W en hg n1 n Q (bind get k) l.
Proof. intros H0 H1 Hs. destruct l as [|t r]; [apply H0|apply H1]; auto. now apply suffix_tl in Hs. Qed.
Lemma W_get_unwrap (Q : B -> Prop) w k l :
  (forall t r, l = t :: r -> suffix (t :: r) -> W en hg n1 n Q (k t) r) -> W en hg n1 n Q (bind (get_unwrap w) k) l.
Proof.
  intros H1 Hs. destruct l as [|t r]; [|apply H1; auto; now apply suffix_tl in Hs].
  destruct Hs as [pre Hs]. exists pre, []. split; auto. apply culprit_end.
Qed.
Lemma W_peek_unwrap (Q : B -> Prop) w k l :
  (forall t r, l = t :: r -> In t whole -> W en hg n1 n Q (k t) (t :: r)) -> W en hg n1 n Q (bind (peek_unwrap w) k) l.
Proof.
  intros H1 Hs. destruct l as [|t r]; [|apply H1; auto; eapply suffix_in; eauto].
  destruct Hs as [pre Hs]. exists pre, []. split; auto. apply culprit_end.
Qed.
Lemma W_unget (Q : B -> Prop) m t r : suffix (t :: r) -> W en hg n1 n Q m (t :: r) -> W en hg n1 n Q (bind (unget t) (fun _ => m)) r.
Proof. intros Hs H _. now apply H. Qed.
Lemma W_follows (Q : B -> Prop) kd k l : (forall b, head_kind kd l = b -> W en hg n1 n Q (k b) l) -> W en hg n1 n Q (bind (follows kd) k) l.
Proof. intros H Hs. rewrite (bind_eval _ _ _ _ _ _ _ (follows_ev p kd l)). now apply H. Qed.
Lemma W_eat (Q : B -> Prop) kd k l : (head_kind kd l = false -> W en hg n1 n Q (k false) l) ->
  (forall t r, l = t :: r -> is kd t -> W en hg n1 n Q (k true) r) -> W en hg n1 n Q (bind (eat kd) k) l.
Proof.
  intros H0 H1 Hs. destruct (head_kind kd l) eqn:E.
  - destruct l as [|t r]; [discriminate|]. cbn in E. apply kind_is_true in E.
    rewrite (bind_eval _ _ _ _ _ _ _ (eat_yes p kd t r E)). apply (H1 t r); auto. now apply suffix_tl in Hs.
  - rewrite (bind_eval _ _ _ _ _ _ _ (eat_no p kd l E)). now apply H0.
Qed.
Lemma W_expect (Q : B -> Prop) kd w k l : len l <= n ->
  (forall t r, l = t :: r -> is kd t -> In t whole -> W en hg n1 n Q (k t) r) -> W en hg n1 n Q (bind (expect kd w) k) l.
Proof.
  intros Hn H1 Hs. destruct l as [|t r].
  - exists []. repeat split; auto. now left.
  - destruct (kind_is t kd) eqn:E.
    + assert (Hi : is kd t) by now apply kind_is_true. rewrite (bind_eval _ _ _ _ _ _ _ (expect_ev p kd w t r Hi)).
      apply (H1 t r); auto; [eapply suffix_in; eauto|now apply suffix_tl in Hs].
    + unfold bind, expect, more, peek_unwrap. cbn. unfold bind. cbn. rewrite E. cbn.
      destruct (token_to_string t) as [s|] eqn:E2.
      * exists (t :: r). repeat split; auto. apply located_at. eapply suffix_in; eauto.
      * destruct Hs as [pre Hs]. exists pre, (t :: r). split; auto. right. right. left. exists t, r. split; [reflexivity|now apply token_unprintable].
Qed.
Lemma W_type (Q : B -> Prop) k l : (forall b, W en hg n1 n Q (k b) l) -> W en hg n1 n Q (bind (type_follows ctx) k) l.
Proof.
  intros H Hs. destruct (type_follows_ok ctx p l) as (b & E & _). rewrite (bind_eval _ _ _ _ _ _ _ E). now apply H.
Qed.
Lemma W_ns (Q : B -> Prop) k l : (forall b, W en hg n1 n Q (k b) l) -> W en hg n1 n Q (bind (ns_follows ctx) k) l.
Proof.
  intros H Hs. destruct (ns_follows_ev ctx p l) as (b & E & _). rewrite (bind_eval _ _ _ _ _ _ _ E). now apply H.
Qed.
End Rules.

(** Weaken everything but the bound and the value. *)
Lemma W_sub {A} (en en' : Prop) hg hg' n1 n n' (Q : A -> Prop) m l : W en' hg' n1 n' Q m l -> (en -> en') -> (hg' = true -> hg = true) ->
  n' <= n -> W en hg n1 n Q m l.
Proof. intros H He Hh Hn. eapply W_weak; eauto. Qed.

Lemma W_assoc {A B C} en hg n1 n (Q : C -> Prop) (m : M A) (k : A -> M B) (k' : B -> M C) l :
  W en hg n1 n Q (bind m (fun x => bind (k x) k')) l -> W en hg n1 n Q (bind (bind m k) k') l.
Proof. intros H Hs. specialize (H Hs). unfold bind in *. destruct (m (cur l)) as [[a|e|w|] c]; exact H. Qed.
Lemma W_ret_bind {A B} en hg n1 n (Q : B -> Prop) (a : A) k l : W en hg n1 n Q (k a) l -> W en hg n1 n Q (bind (ret a) k) l.
Proof. intros H Hs. exact (H Hs). Qed.
Lemma W_fail_bind {A B} en hg n1 n (Q : B -> Prop) (e : error) (k : A -> M B) l : W en hg n1 n Q (fail e) l -> W en hg n1 n Q (bind (fail e) k) l.
Proof. intros H Hs. exact (H Hs). Qed.
Lemma W_abort_bind {A B} en hg n1 n (Q : B -> Prop) w (k : A -> M B) l : W en hg n1 n Q (abort w) l -> W en hg n1 n Q (bind (abort w) k) l.
Proof. intros H Hs. exact (H Hs). Qed.

Ltac wlen := intros; try exact I; cbn [List.length] in *; lia.
Ltac weq := match goal with
  | |- ?l = _ -> _ => let E := fresh "E" in intros E; first [discriminate E | subst l | (injection E; intros; subst)]
  end; cbn [head_kind] in *; try discriminate.
Ltac callee := fail.
Ltac wcall := eapply W_bind; [eapply W_sub; [callee|wlen|auto|wlen]|cbv beta; intros].
Ltac wtail := eapply W_weak; [callee|wlen|auto|wlen|wlen|cbv beta; auto].
Ltac wstep := cbv beta iota zeta delta [negb]; match goal with
  | |- W _ _ _ _ _ (bind (bind _ _) _) _ => apply W_assoc
  | |- W _ _ _ _ _ (bind (ret _) _) _ => apply W_ret_bind
  | |- W _ _ _ _ _ (bind (fail _) _) _ => apply W_fail_bind
  | |- W _ _ _ _ _ (bind (abort _) _) _ => apply W_abort_bind
  | |- W _ _ _ _ _ (bind peek _) _ => apply W_peek; [weq|intros ? ?; weq]
  | |- W _ _ _ _ _ (bind more _) _ => apply W_more; [weq|intros ? ?; weq]
  | |- W _ _ _ _ _ (bind get _) _ => apply W_get; [weq|intros ? ?; weq; intros]
  | |- W _ _ _ _ _ (bind (get_unwrap _) _) _ => apply W_get_unwrap; intros ? ?; weq; intros
  | |- W _ _ _ _ _ (bind (peek_unwrap _) _) _ => apply W_peek_unwrap; intros ? ?; weq; intros
  | |- W _ _ _ _ _ (bind (unget _) _) _ => apply W_unget; [assumption|]
  | |- W _ _ _ _ _ (bind (follows _) _) _ => apply W_follows; intros [|] ?
  | |- W _ _ _ _ _ (bind (eat _) _) _ => apply W_eat; [intros|intros ? ?; weq; intros]
  | |- W _ _ _ _ _ (bind (expect _ _) _) _ => apply W_expect; [wlen|intros ? ?; weq; intros]
  | |- W _ _ _ _ _ (bind (type_follows _) _) _ => apply W_type; intros [|]
  | |- W _ _ _ _ _ (bind (ns_follows _) _) _ => apply W_ns; intros [|]
  | |- W _ _ _ _ _ (bind (if ?b then _ else _) _) _ => destruct b eqn:?
  | |- W _ _ _ _ _ (bind (match ?x with _ => _ end) _) _ => destruct x eqn:?
  | |- W _ _ _ _ _ (bind _ _) _ => wcall
  | |- W _ _ _ _ _ (ret _) _ => apply W_ret; [wlen|auto]
  | |- W _ _ _ _ _ nofuel _ => apply W_nofuel; wlen
  | |- W _ _ _ _ _ (fail _) _ => apply W_fail; [wlen|try (apply located_at; first [assumption|eapply suffix_in; eassumption])]
  | |- W _ _ _ _ _ (fail_eof _) _ => apply W_fail_eof; wlen
  | |- W _ _ _ _ _ (if ?b then _ else _) _ => destruct b eqn:?
  | |- W _ _ _ _ _ (match ?x with _ => _ end) _ => destruct x eqn:?
  | |- W _ _ _ _ _ _ _ => wtail
  end.
Ltac w := repeat wstep.

(** ** Names, types, literals *)
Notation any := (fun _ => True).
Lemma ns_id_W l : W True false (len l) (len l) any (read_ns_id ctx) l.
Proof.
  unfold read_ns_id. wstep. destruct (is_imported_ns ctx (t_content t)); [|w].
  intros Hs. unfold bind at 1. unfold peekn. cbn [c_toks c_end].
  destruct (Nat.leb 2 (len r)) eqn:E2.
  - apply Nat.leb_le in E2. destruct r as [|d [|x r]]; try (cbn in E2; lia). cbn [firstn].
    destruct (kind_is d "." && kind_is x "word"); eexists; (split; [reflexivity|]); repeat split; auto; try wlen.
    now apply suffix_tl in Hs; apply suffix_tl in Hs.
  - eexists; (split; [reflexivity|]); repeat split; auto; wlen.
Qed.
Ltac callee ::= apply ns_id_W.
Lemma typename_W l : W True false (len l) (len l) any (parse_typename ctx) l.
Proof. unfold parse_typename. w. Qed.
Lemma stars_W f : forall k l, W (len l < f) false (S (len l)) (len l) any (count_stars f k) l.
Proof. induction f as [|f IH]; intros k l; cbn [count_stars]; w. eapply W_weak; [apply IH|wlen|auto|wlen|wlen|auto]. Qed.
Ltac callee ::= first [apply ns_id_W | apply typename_W | apply stars_W].
Lemma bare_W f l : W (len l <= f) false (len l) (len l) any (parse_bare_typeform f ctx) l.
Proof. unfold parse_bare_typeform. w. Qed.
Lemma literal_W l : W True false (len l) (len l) any parse_literal l.
Proof. unfold parse_literal. w. Qed.
Ltac callee ::= first [apply ns_id_W | apply typename_W | apply stars_W | apply bare_W | apply literal_W].

(** ** Expressions *)
Lemma no_strength k : is_op k = true -> operator_strength k = None -> In k ["~"; "++"; "--"]%string.
Proof.
  unfold is_op, string_in. intros H. apply existsb_exists in H as (x & Hx & E). apply String.eqb_eq in E as ->.
  repeat (destruct Hx as [<-|Hx]; [cbn; (discriminate || tauto)|]). destruct Hx.
Qed.

Lemma expect_W kd w l : W True false (len l) (len l) any (expect kd w) l.
Proof.
  intros Hs. assert (H := W_expect True false (len l) (len l) any kd w ret l (Nat.le_refl _)). unfold bind in H.
  assert (H' : post True false (len l) (len l) any (let (o, c) := expect kd w (cur l) in
     match o with Ok a => ret a c | Err e => (Err e, c) | Abort x => (Abort x, c) | NoFuel => (NoFuel, c) end)).
  { apply H; auto. intros t r -> Hk Ht. apply W_ret; [wlen|exact I]. }
  destruct (expect kd w (cur l)) as [[a|x|x|] c]; exact H'.
Qed.

Definition expr_W_at (f : nat) : Prop :=
  (forall s l, s <= 13 -> W (64 * len l + (32 - 2 * s) <= f) false (len l) (len l) any (parse_expr ctx f s) l) /\
  (forall s l, s < 13 -> W (64 * len l + (31 - 2 * s) <= f) false (len l) (len l) any (parse_seq_expr ctx f s) l) /\
  (forall s a l, s < 13 -> W (64 * len l + 1 <= f) false (S (len l)) (len l) any (seq_loop ctx f s a) l) /\
  (forall l, W (64 * len l + 5 <= f) false (len l) (len l) any (parse_prefix_expr ctx f) l) /\
  (forall l, W (64 * len l + 4 <= f) false (len l) (len l) any (base ctx f) l) /\
  (forall a l, W (64 * len l + 2 <= f) false (S (len l)) (len l) any (base_loop ctx f a) l) /\
  (forall l, W (64 * len l + 3 <= f) false (len l) (len l) any (read_expression_atom ctx f) l) /\
  (forall l, W (64 * len l + 2 <= f) false (len l) (len l) any (parse_composite_literal ctx f) l) /\
  (forall es l, W (64 * len l + 34 <= f) false (len l) (len l) any (complit_loop ctx f es) l) /\
  (forall l, W (64 * len l + 33 <= f) false (len l) (len l) any (parse_composite_literal_entry ctx f) l) /\
  (forall l, W (64 * len l + 3 <= f) false (len l) (len l) any (parse_sizeof ctx f) l) /\
  (forall a l, W (64 * len l + 1 <= f) false (len l) (len l) any (parse_call ctx f a) l) /\
  (forall args l, W (64 * len l + 1 <= f) false (S (len l)) (len l) any (call_args ctx f args) l).

Lemma x1 f : expr_W_at f -> (forall s l, s <= 13 -> W (64 * len l + (32 - 2 * s) <= f) false (len l) (len l) any (parse_expr ctx f s) l).
Proof. intros H. apply H. Qed.
Lemma x2 f : expr_W_at f -> (forall s l, s < 13 -> W (64 * len l + (31 - 2 * s) <= f) false (len l) (len l) any (parse_seq_expr ctx f s) l).
Proof. intros H. apply H. Qed.
Lemma x3 f : expr_W_at f -> (forall s a l, s < 13 -> W (64 * len l + 1 <= f) false (S (len l)) (len l) any (seq_loop ctx f s a) l).
Proof. intros H. apply H. Qed.
Lemma x4 f : expr_W_at f -> (forall l, W (64 * len l + 5 <= f) false (len l) (len l) any (parse_prefix_expr ctx f) l).
Proof. intros H. apply H. Qed.
Lemma x5 f : expr_W_at f -> (forall l, W (64 * len l + 4 <= f) false (len l) (len l) any (base ctx f) l).
Proof. intros H. apply H. Qed.
Lemma x6 f : expr_W_at f -> (forall a l, W (64 * len l + 2 <= f) false (S (len l)) (len l) any (base_loop ctx f a) l).
Proof. intros H. apply H. Qed.
Lemma x7 f : expr_W_at f -> (forall l, W (64 * len l + 3 <= f) false (len l) (len l) any (read_expression_atom ctx f) l).
Proof. intros H. apply H. Qed.
Lemma x8 f : expr_W_at f -> (forall l, W (64 * len l + 2 <= f) false (len l) (len l) any (parse_composite_literal ctx f) l).
Proof. intros H. apply H. Qed.
Lemma x9 f : expr_W_at f -> (forall es l, W (64 * len l + 34 <= f) false (len l) (len l) any (complit_loop ctx f es) l).
Proof. intros H. apply H. Qed.
Lemma x10 f : expr_W_at f -> (forall l, W (64 * len l + 33 <= f) false (len l) (len l) any (parse_composite_literal_entry ctx f) l).
Proof. intros H. apply H. Qed.
Lemma x11 f : expr_W_at f -> (forall l, W (64 * len l + 3 <= f) false (len l) (len l) any (parse_sizeof ctx f) l).
Proof. intros H. apply H. Qed.
Lemma x12 f : expr_W_at f -> (forall a l, W (64 * len l + 1 <= f) false (len l) (len l) any (parse_call ctx f a) l).
Proof. intros H. apply H. Qed.
Lemma x13 f : expr_W_at f -> (forall args l, W (64 * len l + 1 <= f) false (S (len l)) (len l) any (call_args ctx f args) l).
Proof. intros H. apply H. Qed.

Lemma expr_W_all f : expr_W_at f.
Proof.
  induction f as [|f IH].
  - repeat split; intros; apply W_nofuel; lia.
  -     Ltac callee ::= match goal with
      | |- W _ _ _ _ _ (read_ns_id _) _ => apply ns_id_W
      | |- W _ _ _ _ _ (parse_typename _) _ => apply typename_W
      | |- W _ _ _ _ _ (count_stars _ _) _ => apply stars_W
      | |- W _ _ _ _ _ (parse_bare_typeform _ _) _ => apply bare_W
      | |- W _ _ _ _ _ parse_literal _ => apply literal_W
      | |- W _ _ _ _ _ (parse_expr ctx ?f _) _ => apply (x1 f ltac:(assumption)); lia
      | |- W _ _ _ _ _ (seq_loop ctx ?f _ _) _ => apply (x3 f ltac:(assumption)); lia
      | |- W _ _ _ _ _ (parse_prefix_expr ctx ?f) _ => apply (x4 f ltac:(assumption))
      | |- W _ _ _ _ _ (base ctx ?f) _ => apply (x5 f ltac:(assumption))
      | |- W _ _ _ _ _ (base_loop ctx ?f _) _ => apply (x6 f ltac:(assumption))
      | |- W _ _ _ _ _ (read_expression_atom ctx ?f) _ => apply (x7 f ltac:(assumption))
      | |- W _ _ _ _ _ (parse_composite_literal ctx ?f) _ => apply (x8 f ltac:(assumption))
      | |- W _ _ _ _ _ (complit_loop ctx ?f _) _ => apply (x9 f ltac:(assumption))
      | |- W _ _ _ _ _ (parse_composite_literal_entry ctx ?f) _ => apply (x10 f ltac:(assumption))
      | |- W _ _ _ _ _ (parse_sizeof ctx ?f) _ => apply (x11 f ltac:(assumption))
      | |- W _ _ _ _ _ (parse_call ctx ?f _) _ => apply (x12 f ltac:(assumption))
      | |- W _ _ _ _ _ (call_args ctx ?f _) _ => apply (x13 f ltac:(assumption))
      end.
    repeat split.
    + intros s l Hs. rewrite parse_expr_S. destruct (Nat.ltb s 13) eqn:E.
      * apply Nat.ltb_lt in E. eapply W_weak; [apply (x2 f IH); lia|wlen|auto|wlen|wlen|auto].
      * apply Nat.ltb_ge in E. assert (s = 13) as -> by lia. cbn [Nat.eqb]. eapply W_weak; [apply (x4 f IH)|wlen|auto|wlen|wlen|auto].
    + intros s l Hs. rewrite parse_seq_expr_S. eapply W_bind; [eapply W_sub; [apply (x1 f IH); lia|wlen|auto|wlen]|].
      intros a r Hr _. eapply W_weak; [apply (x3 f IH); lia|wlen|auto|wlen|wlen|auto].
    + intros s a l Hs. rewrite seq_loop_S. wstep; [w|]. destruct (is_op (t_kind t)) eqn:Eo; [|w].
      cbv iota. destruct (operator_strength (t_kind t)) as [k|] eqn:Ek.
      * destruct (Nat.eqb k s); [|w]. wstep. eapply W_bind; [eapply W_sub; [apply (x1 f IH); lia|wlen|auto|wlen]|].
        intros b r' Hr _. eapply W_weak; [apply (x3 f IH); lia|wlen|auto|wlen|wlen|auto].
      * apply W_abort. intros pre Hp. right. left. exists t, r. split; auto. now apply no_strength.
    + intros l. rewrite parse_prefix_expr_S. wstep. destruct (is_prefix_op (t_kind t)).
      { eapply W_bind; [eapply W_sub; [apply (x4 f IH)|wlen|auto|wlen]|]. intros; w. }
      w.
    + intros l. rewrite base_S. w.
    + intros a l. rewrite base_loop_S. w.
    + intros l. rewrite read_expression_atom_S. wstep; [w|]. wstep; [w|]. wstep. wstep; [w|]. wstep; [w|]. wstep; [|w].
      (* parentheses *)
      intros Hs. assert (Hr := x1 f IH 0 _ (Nat.le_0_l _) Hs).
      match type of Hs with suffix ?r => destruct (parse_expr ctx f 0 (cur r)) as [[a|e|x|] c'] end; try exact Hr.
      * destruct Hr as (r' & -> & Hr' & Hl & _). assert (He := expect_W ")" (Some "parenthesized expression"%string) r' Hr').
        destruct (expect ")" (Some "parenthesized expression"%string) (cur r')) as [[b|e|x|] c'']; cbn [post] in *.
        -- destruct He as (r2 & -> & H2 & Hl2 & _). exists r2. repeat split; auto. wlen.
        -- destruct He as (r2 & -> & H2 & Hl2 & Hp). exists r2. repeat split; auto. wlen.
        -- exact He.
        -- destruct (He I).
      * destruct Hr as (r' & -> & Hr' & Hl & Hp). assert (He := expect_W ")" (Some "parenthesized expression"%string) r' Hr').
        destruct (expect ")" (Some "parenthesized expression"%string) (cur r')) as [[b|e'|x|] c'']; cbn [post] in *.
        -- destruct He as (r2 & -> & H2 & Hl2 & _). exists r2. repeat split; auto. wlen.
        -- destruct He as (r2 & -> & H2 & Hl2 & Hp'). exists r2. repeat split; auto. wlen.
        -- exact He.
        -- destruct (He I).
      * intros En. apply Hr. wlen.
    + intros l. rewrite parse_composite_literal_S. w.
    + intros es l. rewrite complit_loop_S. w.
    + intros l. rewrite parse_composite_literal_entry_S. w.
    + intros l. rewrite parse_sizeof_S. w.
    + intros a l. rewrite parse_call_S. w.
    + intros args l. rewrite call_args_S. w.
Qed.

Lemma expr_W f s l : s <= 13 -> W (64 * len l + 32 <= f) false (len l) (len l) any (parse_expr ctx f s) l.
Proof. intros H. eapply W_weak; [apply (x1 f (expr_W_all f)); exact H|wlen|auto|wlen|wlen|auto]. Qed.
Ltac callee ::= match goal with
  | |- W _ _ _ _ _ (read_ns_id _) _ => apply ns_id_W
  | |- W _ _ _ _ _ (parse_typename _) _ => apply typename_W
  | |- W _ _ _ _ _ (count_stars _ _) _ => apply stars_W
  | |- W _ _ _ _ _ (parse_bare_typeform _ _) _ => apply bare_W
  | |- W _ _ _ _ _ parse_literal _ => apply literal_W
  | |- W _ _ _ _ _ (parse_expr _ _ _) _ => apply expr_W; lia
  | H : forall _ _, W _ _ _ _ _ (?fn ?c ?f _) _ |- W _ _ _ _ _ (?fn ?c ?f _) _ => apply H
  end.
Lemma indexes_W f : forall acc l, W (64 * len l + 1 <= f) false (S (len l)) (len l) any (form_indexes ctx f acc) l.
Proof. induction f as [|f IH]; intros acc l; [apply W_nofuel; lia|]. cbn [form_indexes]. w. Qed.
Lemma form_W f l : W (64 * len l + 1 <= f) false (len l) (len l) any (parse_form ctx f) l.
Proof.
  unfold parse_form. do 3 wstep. destruct (t_content t0) eqn:E; [w|].
  eapply W_bind; [eapply W_sub; [apply indexes_W|wlen|auto|wlen]|]. intros; w.
Qed.
Ltac callee ::= match goal with
  | |- W _ _ _ _ _ (read_ns_id _) _ => apply ns_id_W
  | |- W _ _ _ _ _ (parse_typename _) _ => apply typename_W
  | |- W _ _ _ _ _ (count_stars _ _) _ => apply stars_W
  | |- W _ _ _ _ _ (parse_bare_typeform _ _) _ => apply bare_W
  | |- W _ _ _ _ _ parse_literal _ => apply literal_W
  | |- W _ _ _ _ _ (parse_expr _ _ _) _ => apply expr_W; lia
  | |- W _ _ _ _ _ (parse_form _ _) _ => apply form_W
  | H : forall _ _, W _ _ _ _ _ (?fn ?c ?f _) _ |- W _ _ _ _ _ (?fn ?c ?f _) _ => apply H
  | H : forall _, W _ _ _ _ _ (?fn ?f) _ |- W _ _ _ _ _ (?fn ?f) _ => apply H
  end.
Lemma vardecl_W f l : W (64 * len l <= f) false (len l) (len l) any (parse_variable_declaration ctx f) l.
Proof. unfold parse_variable_declaration. w. Qed.
Lemma return_W f l : W (64 * len l <= f) false (len l) (len l) any (parse_return ctx f) l.
Proof. unfold parse_return. w. Qed.
Lemma values_W f : forall acc l, W (64 * len l + 1 <= f) false (len l) (len l) any (case_values ctx f acc) l.
Proof. induction f as [|f IH]; intros acc l; [apply W_nofuel; lia|]. cbn [case_values]. w. Qed.
Lemma init_W f l : W (64 * len l + 32 <= f) false (S (len l)) (len l) any (for_init ctx f) l.
Proof. unfold for_init. w. Qed.
Lemma optional_W f k l : W (64 * len l + 32 <= f) false (S (len l)) (len l) any (optional_expr ctx f k) l.
Proof. unfold optional_expr. w. Qed.
Lemma skip_W f : forall l, W (len l < f) false (S (len l)) (len l) any (skip_statement f) l.
Proof. induction f as [|f IH]; intros l; [apply W_nofuel; lia|]. cbn [skip_statement]. w. Qed.
(** It does not stop in front of a token other than "}". *)
Lemma skip_moves f t r : ~ is "}" t -> W (len (t :: r) < f) false (len (t :: r)) (len (t :: r)) any (skip_statement f) (t :: r).
Proof.
  intros Ht. destruct f as [|f]; [apply W_nofuel; lia|]. cbn [skip_statement]. apply W_peek; [discriminate|]. intros t' r' E0. injection E0 as <- <-.
  destruct (kind_is t "}") eqn:E; [exfalso; apply Ht; now apply kind_is_true|].
  wstep; [w|]. wstep. eapply W_weak; [apply skip_W|wlen|auto|wlen|wlen|auto].
Qed.

(** ** Statements *)
Definition errs_ok {A} (x : werr A) : Prop := Forall located (snd x).
Definition stmt_W_at (f : nat) : Prop :=
  (forall l, W (64 * len l + 40 <= f) true (len l) (len l) errs_ok (parse_statement ctx f) l) /\
  (forall l, W (64 * len l + 1 <= f) true (len l) (len l) errs_ok (parse_while ctx f) l) /\
  (forall l, W (64 * len l + 1 <= f) true (len l) (len l) errs_ok (parse_if ctx f) l) /\
  (forall l, W (64 * len l + 1 <= f) true (len l) (len l) errs_ok (parse_for ctx f) l) /\
  (forall l, W (64 * len l + 1 <= f) true (len l) (len l) errs_ok (read_switch ctx f) l) /\
  (forall cs es l, Forall located es -> W (64 * len l + 2 <= f) true (S (len l)) (len l) errs_ok (switch_cases ctx f cs es) l) /\
  (forall l, W (64 * len l + 1 <= f) true (len l) (len l) errs_ok (read_switch_case ctx f) l) /\
  (forall l, W (64 * len l + 41 <= f) true (len l) (len l) errs_ok (parse_statements_block ctx f) l) /\
  (forall l, W (64 * len l + 1 <= f) true (len l) (len l) errs_ok (read_body ctx f) l) /\
  (forall ss es l, Forall located es -> W (64 * len l + 42 <= f) true (len l) (len l) errs_ok (body_loop ctx f ss es) l).
Lemma y1 f : stmt_W_at f -> forall l, W (64 * len l + 40 <= f) true (len l) (len l) errs_ok (parse_statement ctx f) l.
Proof. intros H. apply H. Qed.
Lemma y2 f : stmt_W_at f -> forall l, W (64 * len l + 1 <= f) true (len l) (len l) errs_ok (parse_while ctx f) l.
Proof. intros H. apply H. Qed.
Lemma y3 f : stmt_W_at f -> forall l, W (64 * len l + 1 <= f) true (len l) (len l) errs_ok (parse_if ctx f) l.
Proof. intros H. apply H. Qed.
Lemma y4 f : stmt_W_at f -> forall l, W (64 * len l + 1 <= f) true (len l) (len l) errs_ok (parse_for ctx f) l.
Proof. intros H. apply H. Qed.
Lemma y5 f : stmt_W_at f -> forall l, W (64 * len l + 1 <= f) true (len l) (len l) errs_ok (read_switch ctx f) l.
Proof. intros H. apply H. Qed.
Lemma y6 f : stmt_W_at f -> forall cs es l, Forall located es -> W (64 * len l + 2 <= f) true (S (len l)) (len l) errs_ok (switch_cases ctx f cs es) l.
Proof. intros H. apply H. Qed.
Lemma y7 f : stmt_W_at f -> forall l, W (64 * len l + 1 <= f) true (len l) (len l) errs_ok (read_switch_case ctx f) l.
Proof. intros H. apply H. Qed.
Lemma y8 f : stmt_W_at f -> forall l, W (64 * len l + 41 <= f) true (len l) (len l) errs_ok (parse_statements_block ctx f) l.
Proof. intros H. apply H. Qed.
Lemma y9 f : stmt_W_at f -> forall l, W (64 * len l + 1 <= f) true (len l) (len l) errs_ok (read_body ctx f) l.
Proof. intros H. apply H. Qed.
Lemma y10 f : stmt_W_at f -> forall ss es l, Forall located es -> W (64 * len l + 42 <= f) true (len l) (len l) errs_ok (body_loop ctx f ss es) l.
Proof. intros H. apply H. Qed.

Lemma suffix_same l r : suffix l -> suffix r -> len l = len r -> l = r.
Proof.
  intros [a Ha] [b Hb] H. rewrite Ha in Hb.
  assert (E : List.length a = List.length b).
  { apply (f_equal (@List.length token)) in Hb. rewrite !app_length in Hb. lia. }
  clear Ha. revert b Hb E. induction a as [|x a IH]; intros [|y b] Hb E; cbn in Hb, E; try discriminate; auto.
  inversion Hb. inversion E. eauto.
Qed.
Lemma Forall_snoc {A} (P : A -> Prop) l x : Forall P l -> P x -> Forall P (l ++ [x]).
Proof. intros H1 H2. apply Forall_app. auto. Qed.

Ltac errs := unfold errs_ok in *; cbn [snd fst] in *; try (apply Forall_app; split); auto.
Ltac callee ::= match goal with
  | |- W _ _ _ _ _ (read_ns_id _) _ => apply ns_id_W
  | |- W _ _ _ _ _ (parse_typename _) _ => apply typename_W
  | |- W _ _ _ _ _ parse_literal _ => apply literal_W
  | |- W _ _ _ _ _ (parse_expr _ _ _) _ => apply expr_W; lia
  | |- W _ _ _ _ _ (parse_form _ _) _ => apply form_W
  | |- W _ _ _ _ _ (parse_variable_declaration _ _) _ => apply vardecl_W
  | |- W _ _ _ _ _ (parse_return _ _) _ => apply return_W
  | |- W _ _ _ _ _ (case_values _ _ _) _ => apply values_W
  | |- W _ _ _ _ _ (for_init _ _) _ => apply init_W
  | |- W _ _ _ _ _ (optional_expr _ _ _) _ => apply optional_W
  | |- W _ _ _ _ _ (parse_statement _ ?f) _ => apply (y1 f ltac:(assumption))
  | |- W _ _ _ _ _ (parse_while _ ?f) _ => apply (y2 f ltac:(assumption))
  | |- W _ _ _ _ _ (parse_if _ ?f) _ => apply (y3 f ltac:(assumption))
  | |- W _ _ _ _ _ (parse_for _ ?f) _ => apply (y4 f ltac:(assumption))
  | |- W _ _ _ _ _ (read_switch _ ?f) _ => apply (y5 f ltac:(assumption))
  | |- W _ _ _ _ _ (switch_cases _ ?f _ _) _ => apply (y6 f ltac:(assumption)); errs
  | |- W _ _ _ _ _ (read_switch_case _ ?f) _ => apply (y7 f ltac:(assumption))
  | |- W _ _ _ _ _ (parse_statements_block _ ?f) _ => apply (y8 f ltac:(assumption))
  | |- W _ _ _ _ _ (read_body _ ?f) _ => apply (y9 f ltac:(assumption))
  | |- W _ _ _ _ _ (body_loop _ ?f _ _) _ => apply (y10 f ltac:(assumption)); errs
  end.
Ltac w2 := repeat (wstep; errs).

Lemma body_step f ss es : body_loop ctx (S f) ss es = bind (follows "}") (fun b =>
  if b : bool then bind (expect "}" None) (fun _ => ret (ss, es))
  else fun c =>
    match parse_statement ctx f c with
    | (Ok (s, errs), c') => body_loop ctx f (ss ++ [s]) (es ++ errs) c'
    | (Err e, c') => bind (skip_statement f) (fun _ => body_loop ctx f ss (es ++ [e])) c'
    | (Abort w, c') => (Abort w, c')
    | (NoFuel, c') => (NoFuel, c')
    end).
Proof. reflexivity. Qed.

Lemma stmt_W_all f : stmt_W_at f.
Proof.
  induction f as [|f IH].
  - repeat split; intros; apply W_nofuel; lia.
  - repeat split.
    + intros l. rewrite parse_statement_S. w2.
    + intros l. rewrite parse_while_S. w2.
    + intros l. rewrite parse_if_S. w2.
    + intros l. rewrite parse_for_S. w2.
    + intros l. rewrite read_switch_S. w2.
    + intros cs es l Hes. rewrite switch_cases_S. w2.
    + intros l. rewrite read_switch_case_S. w2.
    + intros l. rewrite parse_statements_block_S. w2.
    + intros l. rewrite read_body_S. w2.
    + intros ss es l Hes. destruct l as [|t r].
      { intros _. rewrite body_at_end. intros _. reflexivity. }
      rewrite body_step. apply W_follows. intros [|] Hb; [w2|]. cbv beta iota.
      assert (Ht : ~ is "}" t) by (now apply kind_is_false). clear Hb.
      intros Hs. assert (H1 := y1 f IH (t :: r) Hs).
      destruct (parse_statement ctx f (cur (t :: r))) as [[[s0 e0]|e0|x|] c'].
      * destruct H1 as (r1 & -> & Hr1 & Hl1 & He). revert Hr1.
        change (W (64 * len (t :: r) + 42 <= S f) true (len (t :: r)) (len (t :: r)) errs_ok (body_loop ctx f (ss ++ [s0]) (es ++ e0)) r1). w2.
      * destruct H1 as (r1 & -> & Hr1 & Hl1 & He). 
        assert (Hm : W (64 * len (t :: r) + 42 <= S f) true (len (t :: r)) (len (t :: r)) any (skip_statement f) r1).
        { destruct (Nat.eq_dec (len r1) (len (t :: r))) as [El|El].
          - rewrite (suffix_same _ _ Hr1 Hs El). eapply W_weak; [apply skip_moves; exact Ht|wlen|discriminate|wlen|wlen|auto].
          - eapply W_weak; [apply skip_W|wlen|discriminate|wlen|wlen|auto]. }
        revert Hr1. 
        change (W (64 * len (t :: r) + 42 <= S f) true (len (t :: r)) (len (t :: r)) errs_ok (bind (skip_statement f) (fun _ => body_loop ctx f ss (es ++ [e0]))) r1).
        eapply W_bind; [exact Hm|]. intros a r2 Hr2 _. w2.
      * exact H1.
      * intros En. apply H1. wlen.
Qed.

Ltac callee ::= match goal with
  | |- W _ _ _ _ _ (read_ns_id _) _ => apply ns_id_W
  | |- W _ _ _ _ _ (parse_typename _) _ => apply typename_W
  | |- W _ _ _ _ _ (count_stars _ _) _ => apply stars_W
  | |- W _ _ _ _ _ (parse_bare_typeform _ _) _ => apply bare_W
  | |- W _ _ _ _ _ (parse_expr _ _ _) _ => apply expr_W; lia
  | |- W _ _ _ _ _ (parse_form _ _) _ => apply form_W
  | |- W _ _ _ _ _ (parse_statements_block _ ?f) _ => apply (y8 f (stmt_W_all f))
  | H : forall _ _, W _ _ _ _ _ (?fn ?c ?f _) _ |- W _ _ _ _ _ (?fn ?c ?f _) _ => apply H
  | H : forall _ _, W _ _ _ _ _ (?fn ?c ?f _) _ |- W _ _ _ _ _ (?fn ?c ?f _) _ => apply H
  | H : forall _, W _ _ _ _ _ ?m _ |- W _ _ _ _ _ ?m _ => apply H
  end.

(** ** Module elements *)
Lemma param_forms_W f : forall acc l, W (64 * len l + 1 <= f) false (S (len l)) (len l) any (param_forms ctx f acc) l.
Proof. induction f as [|f IH]; intros acc l; [apply W_nofuel; lia|]. cbn [param_forms]. w. Qed.
Lemma parameter_W f l : W (64 * len l <= f) false (len l) (len l) any (parse_function_parameter ctx f) l.
Proof. unfold parse_function_parameter. assert (H := param_forms_W f). w. Qed.
Lemma params_W f : forall acc l, W (64 * len l + 1 <= f) false (S (len l)) (len l) any (params_loop ctx f acc) l.
Proof. induction f as [|f IH]; intros acc l; [apply W_nofuel; lia|]. cbn [params_loop]. assert (H := parameter_W f). w. Qed.
Lemma function_W f is_pub tn fm q l : W (64 * len l <= f) true (len l) (len l) errs_ok (parse_function_declaration ctx f is_pub tn fm q) l.
Proof. unfold parse_function_declaration. assert (H := params_W f). w2. Qed.
Lemma enum_loop_W f : forall acc l, W (64 * len l + 1 <= f) false (len l) (len l) any (enum_loop ctx f acc) l.
Proof. induction f as [|f IH]; intros acc l; [apply W_nofuel; lia|]. cbn [enum_loop]. w. Qed.
Lemma enum_W f is_pub l : W (64 * len l <= f) false (len l) (len l) any (parse_enum ctx f is_pub) l.
Proof. unfold parse_enum. assert (H := enum_loop_W f). w. Qed.
Lemma field_forms_W f : forall acc l, W (64 * len l + 1 <= f) false (S (len l)) (len l) any (field_forms ctx f acc) l.
Proof. induction f as [|f IH]; intros acc l; [apply W_nofuel; lia|]. cbn [field_forms]. w. Qed.
Lemma taf_W f l : W (64 * len l <= f) false (len l) (len l) any (parse_type_and_forms ctx f) l.
Proof. unfold parse_type_and_forms. assert (H := field_forms_W f). w. Qed.
Lemma union_fields_W f : forall acc l, W (64 * len l + 1 <= f) false (S (len l)) (len l) any (union_fields ctx f acc) l.
Proof. induction f as [|f IH]; intros acc l; [apply W_nofuel; lia|]. cbn [union_fields]. w. Qed.
Lemma union_W f l : W (64 * len l <= f) false (len l) (len l) any (parse_union ctx f) l.
Proof. unfold parse_union. assert (H := union_fields_W f). w. Qed.
Lemma entries_W f : forall acc l, W (64 * len l + 1 <= f) false (S (len l)) (len l) any (struct_entries ctx f acc) l.
Proof. induction f as [|f IH]; intros acc l; [apply W_nofuel; lia|]. cbn [struct_entries]. assert (H := union_W f). assert (H' := taf_W f). w. Qed.
Lemma anon_W f : forall acc l, W (64 * len l + 1 <= f) false (S (len l)) (len l) any (anon_loop ctx f acc) l.
Proof. induction f as [|f IH]; intros acc l; [apply W_nofuel; lia|]. cbn [anon_loop]. w. Qed.
Lemma anon_params_W f l : W (64 * len l <= f) false (len l) (len l) any (parse_anonymous_parameters ctx f) l.
Proof. unfold parse_anonymous_parameters. assert (H := anon_W f). w. Qed.
Lemma size_culprit b t r pre : suffix (b :: t :: r) -> head_kind "[" (b :: t :: r) = true -> is "num" t ->
  parse_usize (t_content t) = None -> whole = pre ++ r -> culprit pre r.
Proof.
  intros [a Ha] Hb Ht Hu Hp. right. right. right. exists a, b, t. repeat split; auto.
  - rewrite Ha in Hp. change (a ++ b :: t :: r) with (a ++ [b; t] ++ r) in Hp. rewrite app_assoc in Hp.
    now apply app_inv_tail in Hp.
  - now apply kind_is_true.
Qed.
Lemma typedef_W f is_pub l : W (64 * len l <= f) false (len l) (len l) any (parse_typedef ctx f is_pub) l.
Proof.
  unfold parse_typedef. assert (H := entries_W f). assert (H' := anon_params_W f).
  Ltac size := wstep; [|w]; apply W_assoc; apply W_get; [weq|]; let b0 := fresh "b" in let r0 := fresh "r" in let Hb := fresh "Hb" in intros b0 r0; weq; intros Hb; cbv beta iota;
    apply W_assoc; apply W_expect; [wlen|]; let num := fresh "num" in let r1 := fresh "r" in let Hn := fresh "Hn" in intros num r1; weq; intros Hn _; cbv beta iota;
    match goal with |- context [parse_usize ?x] => destruct (parse_usize x) eqn:?Eu end;
    [w|apply W_abort_bind, W_abort; intros; eapply size_culprit; eauto].
  wstep. wstep. { w. } wstep. 2:{ w. }
  wstep. wstep. wstep. wstep.
  - wstep. wstep. wstep. size.
  - wstep. size.
Qed.
Lemma object_W f l : W (64 * len l + 1 <= f) true (len l) (len l) errs_ok (parse_module_object ctx f) l.
Proof.
  unfold parse_module_object. assert (H1 := enum_W f). assert (H2 := typedef_W f). assert (H3 := function_W f).
  Ltac callee ::= match goal with
  | |- W _ _ _ _ _ (parse_typename _) _ => apply typename_W
  | |- W _ _ _ _ _ (parse_expr _ _ _) _ => apply expr_W; lia
  | |- W _ _ _ _ _ (parse_form _ _) _ => apply form_W
  | |- W _ _ _ _ _ (parse_enum _ _ _) _ => apply enum_W
  | |- W _ _ _ _ _ (parse_typedef _ _ _) _ => apply typedef_W
  | |- W _ _ _ _ _ (parse_function_declaration _ _ _ _ _ _) _ => apply function_W
  end.
  w2.
Qed.
Lemma macro_W l : W True false (len l) (len l) any parse_compat_macro l.
Proof.
  unfold parse_compat_macro. apply W_expect; [wlen|]. intros t r -> Hk Ht.
  destruct (macros t Ht Hk) as [s Es]. rewrite Es. cbn [split_at_space]. destruct (N.eqb 35 32) eqn:E0; [discriminate|].
  destruct (split_at_space s) as [[a b]|]; [|wstep]. w. exfalso. destruct a; discriminate Heqo.
Qed.
Lemma module_W f : forall objs es l, Forall located es ->
  W (64 * len l + 2 <= f) true (S (len l)) (len l) errs_ok (module_loop f ctx objs es) l.
Proof.
  induction f as [|f IH]; intros objs es l Hes; [apply W_nofuel; lia|]. cbn [module_loop].
  apply W_peek; [intros ->; w2|]. intros t r ->. destruct (kind_is t "import").
  { wstep. eapply W_weak; [apply IH; auto|wlen|auto|wlen|wlen|auto]. }
  destruct (kind_is t "macro").
  - intros Hs. assert (H1 := macro_W (t :: r) Hs). destruct (parse_compat_macro (cur (t :: r))) as [[x|e|x|] c'].
    + destruct H1 as (r1 & -> & Hr1 & Hl1 & _). eapply (W_weak _ _ _ _ _ _ _ _ _ _ _ _ (IH _ _ r1 Hes)); auto; wlen.
    + destruct H1 as (r1 & -> & Hr1 & Hl1 & He). exists r1. repeat split; auto; [wlen|]. unfold errs_ok. cbn [snd]. now apply Forall_snoc.
    + exact H1.
    + destruct (H1 I).
  - intros Hs. assert (H1 := object_W f (t :: r) Hs). destruct (parse_module_object ctx f (cur (t :: r))) as [[[x e]|e|x|] c'].
    + destruct H1 as (r1 & -> & Hr1 & Hl1 & He). assert (Hes' : Forall located (es ++ e)) by (apply Forall_app; split; auto).
      eapply (W_weak _ _ _ _ _ _ _ _ _ _ _ _ (IH _ _ r1 Hes')); auto; wlen.
    + destruct H1 as (r1 & -> & Hr1 & Hl1 & He). exists r1. repeat split; auto; [wlen|]. unfold errs_ok. cbn [snd]. now apply Forall_snoc.
    + exact H1.
    + intros En. apply H1. wlen.
Qed.

Theorem module_outcome f l : whole = l -> post (64 * len l + 2 <= f) true (S (len l)) (len l) errs_ok (module_loop f ctx [] [] (cur l)).
Proof. intros Hw. apply module_W; [constructor|]. exists []. exact Hw. Qed.
End Safe.
