(** C84: lib/tokenizer. *)
From Coq Require Import ZArith NArith Lia.
From Verif Require Import LibBase LibIO LibText LibTok SpecTok ClipFacts.

(** The readers of memory and of files. *)
Lemma mem_reads_fully : reads_fully mem_read (fun s => s).
Proof.
  split; intros r n Hn; unfold mem_read.
  - destruct r as [|c r].
    + right. rewrite firstn_nil, skipn_nil. simpl. repeat split; lia.
    + left. destruct n; [lia|]. simpl firstn. simpl skipn. cbn [List.length].
      pose proof (firstn_le_length n r). rewrite firstn_length. repeat split; try lia.
      cbn [app]. rewrite firstn_skipn. reflexivity.
  - reflexivity.
Qed.
Lemma file_reads_fully : reads_fully file_read (fun s => s).
Proof.
  split; intros r n Hn; unfold file_read; destruct r as [|c r]; try congruence.
  - right. repeat split; lia.
  - left. destruct n; [lia|]. simpl firstn. simpl skipn. cbn [List.length].
    pose proof (firstn_le_length n r). rewrite firstn_length. repeat split; try lia.
    cbn [app]. rewrite firstn_skipn. reflexivity.
Qed.

(** The tokenizer [t] has gone over [d] and has [s] ahead. *)
Definition at_ {R} (content : R -> bytes) (t : tok R) (d s : bytes) : Prop :=
  tk_cache t ++ content (tk_src t) = s /\ position d (tk_row t) (tk_col t).

Lemma position_next : forall d r c x, position d r c ->
  position (d ++ [x]) (if (x =? 10)%N then S r else r) (if (x =? 10)%N then 0 else S c).
Proof.
  intros d r c x (rows & last & -> & H1 & H2 & -> & ->). destruct (N.eqb_spec x 10) as [->|Hx].
  - exists (rows ++ [last]), []. rewrite map_app, concat_app. cbn [List.map List.concat]. rewrite !app_nil_r, <- !app_assoc.
    split; [reflexivity|]. split; [apply Forall_app; split; [assumption|repeat constructor; assumption]|].
    split; [intros []|]. rewrite app_length. simpl. split; lia.
  - exists rows, (last ++ [x]). rewrite <- app_assoc. split; [reflexivity|]. split; [assumption|].
    split; [intros [H|[H|[]]]%in_app_or; [contradiction|congruence]|]. rewrite app_length. simpl. split; lia.
Qed.

Section Facts.
  Context {R : Type} (read : read_fn R) (content : R -> bytes).
  Hypothesis Hr : reads read content.
  Notation at' := (at_ content).

  Lemma prefetch1_at : forall t d s, at' t d s -> at' (tok_prefetch read t 1) d s /\ (tk_cache (tok_prefetch read t 1) = [] -> s = []).
  Proof.
    intros [cache src row col] d s [H1 H2]. simpl in H1, H2. unfold tok_prefetch. simpl tk_cache. simpl tk_src.
    destruct cache as [|c cache].
    - simpl Nat.leb. cbv iota. simpl List.length. replace (1 - 0) with 1 by lia.
      pose proof (Hr src 1 ltac:(lia)) as Hs. destruct (read src 1) as [[k x] src'].
      destruct Hs as [(A & B & C & D)|(A & B & C)].
      + destruct (Z.gtb_spec k 0); [|lia]. split; [split; [|exact H2]|].
        * simpl. rewrite <- D. exact H1.
        * simpl. intros ->. simpl in B. lia.
      + destruct (Z.gtb_spec k 0); [lia|]. split; [split; [|exact H2]|].
        * simpl in *. rewrite C. congruence.
        * intros _. simpl in H1. congruence.
    - simpl. split; [split; assumption|discriminate].
  Qed.

  Lemma peek_at : forall t d s, at' t d s -> exists t', tok_peek read t = (next s, t') /\ at' t' d s.
  Proof.
    intros t d s H. destruct (prefetch1_at t d s H) as [A B]. unfold tok_peek.
    exists (tok_prefetch read t 1). destruct (tk_cache (tok_prefetch read t 1)) as [|c r] eqn:E.
    - rewrite (B eq_refl). split; [reflexivity|]. rewrite <- (B eq_refl). exact A.
    - split; [|exact A]. destruct A as [A _]. rewrite E in A. rewrite <- A. reflexivity.
  Qed.

  Lemma more_at : forall t d s, at' t d s -> exists t', tok_more read t = (match s with [] => false | _ => true end, t') /\ at' t' d s.
  Proof.
    intros t d s H. unfold tok_more. destruct (tk_cache t) as [|c r] eqn:E.
    - destruct (peek_at t d s H) as (t' & -> & A). exists t'. split; [|exact A]. f_equal. destruct s as [|c s]; [reflexivity|].
      simpl. destruct (Z.eqb_spec (Z.of_N c) (-1)); [lia|reflexivity].
    - exists t. split; [|exact H]. destruct H as [<- _]. rewrite E. reflexivity.
  Qed.

  Lemma track_at : forall t d s c, at' t d s -> at' (tok_track t c) (d ++ [c]) s.
  Proof.
    intros t d s c [A B]. apply (position_next _ _ _ c) in B. unfold tok_track. destruct (N.eqb c 10); split; assumption.
  Qed.

  Lemma get_at : forall t d c s, at' t d (c :: s) -> exists t', tok_get read t = (Z.of_N c, t') /\ at' t' (d ++ [c]) s.
  Proof.
    intros [cache src row col] d c s [H1 H2]. simpl in H1, H2. unfold tok_get. simpl tk_cache. simpl tk_src.
    destruct cache as [|c' cache].
    - pose proof (Hr src 1 ltac:(lia)) as Hs. destruct (read src 1) as [[k x] src'].
      destruct Hs as [(A & B & C & D)|(A & B & C)]; [|simpl in H1; congruence].
      destruct x as [|c' [|]]; simpl in B, C; try lia. subst k. simpl. simpl in H1. rewrite H1 in D.
      injection D as -> ->. eexists. split; [reflexivity|]. apply track_at. split; [reflexivity|exact H2].
    - injection H1 as -> H1. eexists. split; [reflexivity|]. apply track_at. split; [exact H1|exact H2].
  Qed.

  Lemma get_end : forall t d, at' t d [] -> exists t', tok_get read t = ((-1)%Z, t') /\ at' t' d [].
  Proof.
    intros [cache src row col] d [H1 H2]. simpl in H1, H2. destruct cache; [|discriminate]. unfold tok_get. simpl.
    pose proof (Hr src 1 ltac:(lia)) as Hs. destruct (read src 1) as [[k x] src'].
    destruct Hs as [(A & B & C & D)|(A & B & C)].
    - simpl in H1. rewrite H1 in D. destruct x; [|discriminate]. simpl in B. lia.
    - destruct x as [|y x].
      + eexists. split; [reflexivity|]. split; [exact C|exact H2].
      + destruct (Z.eqb_spec k 1); [lia|]. eexists. split; [reflexivity|]. split; [exact C|exact H2].
  Qed.
End Facts.

(** The user's steps on a tokenizer. *)
Fixpoint run {R} (read : read_fn R) (steps : list step) (t : tok R) : list Z * tok R :=
  match steps with
  | [] => ([], t)
  | Peek :: r => let '(c, t) := tok_peek read t in let '(l, t) := run read r t in (c :: l, t)
  | More :: r => let '(b, t) := tok_more read t in let '(l, t) := run read r t in ((if b then 1 else 0)%Z :: l, t)
  | Get :: r => let '(c, t) := tok_get read t in let '(l, t) := run read r t in (c :: l, t)
  end.

(** On every reader, whatever it gives at a time: looking does not change what is
    ahead; getting a character moves over it; the position is that of what has
    been gone over. *)
Theorem C84_stream : forall R (read : read_fn R) content, reads read content ->
  forall r steps, exists t, run read steps (tok_new r) = (answers steps (content r), t) /\
    position (gone steps (content r)) (tk_row t) (tk_col t).
Proof.
  intros R read content Hr r steps.
  enough (G : forall steps t d s, at_ content t d s -> exists t', run read steps t = (answers steps s, t') /\
    position (d ++ gone steps s) (tk_row t') (tk_col t')).
  { apply (G steps (tok_new r) [] (content r)). split; [reflexivity|]. exists [], []. repeat split; auto; intros []. }
  clear r steps. induction steps as [|[| |] steps IH]; intros t d s H; cbn [run answers].
  - exists t. split; [reflexivity|]. unfold gone. simpl. rewrite app_nil_r. apply H.
  - destruct (peek_at read content Hr t d s H) as (t' & -> & A). destruct (IH t' d s A) as (t'' & -> & B).
    exists t''. split; [reflexivity|exact B].
  - destruct (more_at read content Hr t d s H) as (t' & -> & A). destruct (IH t' d s A) as (t'' & -> & B).
    exists t''. split; [destruct s; reflexivity|exact B].
  - destruct s as [|c s].
    + destruct (get_end read content Hr t d H) as (t' & -> & A). destruct (IH t' d [] A) as (t'' & -> & B).
      exists t''. split; [reflexivity|]. unfold gone in *. rewrite firstn_nil in *. exact B.
    + destruct (get_at read content Hr t d c s H) as (t' & -> & A). destruct (IH t' _ s A) as (t'' & -> & B).
      exists t''. split; [reflexivity|]. unfold gone in *. cbn [filter List.length firstn]. rewrite <- app_assoc in B. exact B.
Qed.

Example C84_stream_case : reads_fully mem_read (fun s => s) /\
  fst (run mem_read [Peek; Get; More; Get; Peek; Get] (tok_new [97; 10]%N)) = [97; 97; 1; 10; -1; -1]%Z.
Proof. split; [exact mem_reads_fully|reflexivity]. Qed.

(** * Spaces *)
Lemma z_isspace_next : forall s, z_isspace (next s) = match s with [] => false | c :: _ => c_isspace c end.
Proof.
  intros [|c s]; [reflexivity|]. unfold z_isspace, c_isspace. simpl next.
  destruct (N.eqb_spec c 32), (N.leb_spec 9 c), (N.leb_spec c 13), (Z.eqb_spec (Z.of_N c) 32), (Z.leb_spec 9 (Z.of_N c)), (Z.leb_spec (Z.of_N c) 13); try lia; reflexivity.
Qed.
Lemma z_isdigit_next : forall s, z_isdigit (next s) = match s with [] => false | c :: _ => c_isdigit c end.
Proof.
  intros [|c s]; [reflexivity|]. unfold z_isdigit, c_isdigit. simpl next. 
  destruct (N.leb_spec 48 c), (N.leb_spec c 57), (Z.leb_spec 48 (Z.of_N c)), (Z.leb_spec (Z.of_N c) 57); try lia; reflexivity.
Qed.
Lemma z_byte_of : forall c, is_byte c -> z_byte (Z.of_N c) = c.
Proof. intros c H. unfold is_byte in H. unfold z_byte. rewrite Z.mod_small by lia. apply N2Z.id. Qed.

Section Words.
  Context {R : Type} (read : read_fn R) (content : R -> bytes).
  Hypothesis Hr : reads read content.
  Notation at' := (at_ content).

  (** [spaces] goes over all spaces. *)
  Lemma spaces_at : forall s fuel t d, at' t d s -> List.length s < fuel ->
    exists t', tok_spaces read fuel t = ROk t' /\
      at' t' (d ++ firstn (List.length s - List.length (drop_while c_isspace s)) s) (drop_while c_isspace s).
  Proof.
    induction s as [|c s IH]; intros fuel t d H Hf; (destruct fuel as [|fuel]; [simpl in Hf; lia|]); cbn [tok_spaces].
    - destruct (peek_at read content Hr t d [] H) as (t1 & -> & A1). rewrite z_isspace_next. exists t1. split; [reflexivity|].
      simpl. rewrite app_nil_r. exact A1.
    - destruct (peek_at read content Hr t d _ H) as (t1 & -> & A1). rewrite z_isspace_next. cbn [drop_while].
      destruct (c_isspace c) eqn:Ec.
      + destruct (get_at read content Hr t1 d c s A1) as (t2 & -> & A2). simpl in Hf.
        destruct (IH fuel t2 _ A2 ltac:(lia)) as (t3 & -> & A3). exists t3. split; [reflexivity|].
        assert (Hd : forall s, List.length (drop_while c_isspace s) <= List.length s).
        { clear. induction s as [|c s IH]; simpl; [lia|]. destruct (c_isspace c); simpl; lia. }
        specialize (Hd s). cbn [List.length]. replace (S (List.length s) - List.length (drop_while c_isspace s)) with
          (S (List.length s - List.length (drop_while c_isspace s))) by lia.
        cbn [firstn]. rewrite <- app_assoc in A3. exact A3.
      + exists t1. split; [reflexivity|]. rewrite Nat.sub_diag. simpl. rewrite app_nil_r. exact A1.
  Qed.

  Lemma put_get_at : forall t d c s n buf, at' t d (c :: s) -> is_byte c -> List.length buf < n ->
    exists t', put_get read n buf t = ROk (buf ++ [c], t') /\ at' t' (d ++ [c]) s.
  Proof.
    intros t d c s n buf H Hc Hn. unfold put_get. destruct (get_at read content Hr t d c s H) as (t' & -> & A).
    rewrite (z_byte_of c Hc). unfold put. destruct (Nat.ltb_spec (List.length buf) n); [|lia].
    cbn [rbind]. exists t'. split; [reflexivity|exact A].
  Qed.

  Lemma is_digit_c : forall c, is_digit c <-> c_isdigit c = true.
  Proof. intros c. unfold is_digit, c_isdigit. rewrite Bool.andb_true_iff, !N.leb_le. tauto. Qed.

  Lemma digits_at : forall ds fuel t d r n buf, at' t d (ds ++ r) -> Forall is_digit ds -> starts_not is_digit r ->
    List.length ds < fuel -> List.length buf + List.length ds <= n ->
    exists t', tok_digits read fuel n buf t = ROk (buf ++ ds, t') /\ at' t' (d ++ ds) r.
  Proof.
    induction ds as [|c ds IH]; intros fuel t d r n buf H Hd Hs Hf Hn; (destruct fuel as [|fuel]; [simpl in Hf; lia|]); cbn [tok_digits].
    - cbn [app] in H. destruct (peek_at read content Hr t d _ H) as (t1 & -> & A1). rewrite z_isdigit_next.
      exists t1. rewrite !app_nil_r. split; [|exact A1]. destruct r as [|c r]; [reflexivity|].
      simpl in Hs. rewrite is_digit_c in Hs. destruct (c_isdigit c); [exfalso; apply Hs; reflexivity|reflexivity].
    - cbn [app] in H. destruct (peek_at read content Hr t d _ H) as (t1 & -> & A1). rewrite z_isdigit_next.
      pose proof (Forall_inv Hd) as Hc. rewrite (proj1 (is_digit_c c) Hc). simpl in Hf, Hn.
      destruct (put_get_at t1 d c _ n buf A1) as (t2 & -> & A2); [unfold is_digit in Hc; unfold is_byte; lia|lia|].
      cbn [rbind]. destruct (IH fuel t2 _ r n (buf ++ [c]) A2 (Forall_inv_tail Hd) Hs) as (t3 & -> & A3);
        [lia|rewrite app_length; simpl; lia|]. rewrite <- !app_assoc in *. exists t3. split; [reflexivity|exact A3].
  Qed.

  Ltac peek := match goal with
    | H : at_ _ ?t ?d ?s |- context [tok_peek read ?t] =>
        let t' := fresh "t" in let E := fresh in let A := fresh "A" in
        destruct (peek_at read content Hr t d s H) as (t' & E & A); rewrite E; clear E; cbv beta iota
    end.

  Lemma digits_next : forall ds r, digits ds -> z_isdigit (next (ds ++ r)) = true.
  Proof.
    intros ds r [H1 H2]. destruct ds as [|c ds]; [contradiction|]. rewrite z_isdigit_next. cbn [app].
    apply is_digit_c. exact (Forall_inv H2).
  Qed.
  Lemma next_eqb : forall s c, (next s =? Z.of_N c)%Z = match s with [] => false | x :: _ => (x =? c)%N end.
  Proof. intros [|x s] c; simpl next; [destruct (Z.eqb_spec (-1) (Z.of_N c)); [lia|reflexivity]|].
    destruct (N.eqb_spec x c), (Z.eqb_spec (Z.of_N x) (Z.of_N c)); try lia; reflexivity. Qed.
  Lemma digit_byte : forall c, is_digit c -> is_byte c.
  Proof. unfold is_digit, is_byte. lia. Qed.

  (** [num] reads exactly a number, if it fits the buffer. *)
  Lemma num_at : forall x r t d fuel n, number x -> number_ends r -> at' t d (x ++ r) -> List.length x < fuel -> List.length x < n ->
    exists t', tok_num read fuel t n = ROk (Some x, t') /\ at' t' (d ++ x) r.
  Proof.
    intros x r t d fuel n Hx Hends H Hf Hn. destruct Hx as [w f e Hw Hfr He]. rewrite <- !app_assoc in H. unfold tok_num.
    rewrite !app_length in Hf, Hn.
    (* the sign *)
    assert (Hw1 : exists sg dg, w = sg ++ dg /\ digits dg /\ List.length w = List.length sg + List.length dg /\
      exists t1 buf, (let '(c, t) := tok_peek read t in
        let* (buf, t) := if (c =? 45)%Z then put_get read n [] t else ROk ([], t) in ROk (buf, t)) = ROk (buf, t1) /\
        buf = sg /\ at' t1 (d ++ sg) (dg ++ f ++ e ++ r)).
    { destruct Hw as [dg Hdg|dg Hdg].
      - exists [], dg. split; [reflexivity|]. split; [exact Hdg|]. split; [reflexivity|]. peek.
        change 45%Z with (Z.of_N 45%N). rewrite next_eqb. destruct Hdg as [Hdg1 Hdg2]. destruct dg as [|c dg]; [contradiction|].
        pose proof (Forall_inv Hdg2) as Hc. unfold is_digit in Hc. cbn [app]. destruct (N.eqb_spec c 45); [lia|]. cbn [rbind].
        eexists _, _. split; [reflexivity|]. split; [reflexivity|]. rewrite app_nil_r. exact A.
      - exists [45%N], dg. split; [reflexivity|]. split; [exact Hdg|]. split; [reflexivity|]. peek.
        change 45%Z with (Z.of_N 45%N). rewrite next_eqb. cbn [app] in A |- *. rewrite N.eqb_refl.
        destruct (put_get_at t0 d 45%N _ n [] A) as (t2 & -> & A2); [reflexivity|cbn [List.length] in *; lia|].
        cbn [rbind]. eexists _, _. split; [reflexivity|]. split; [reflexivity|exact A2]. }
    destruct Hw1 as (sg & dg & -> & Hdg & Hlw & t1 & buf & E1 & -> & A1). rewrite Hlw in Hf, Hn. clear Hw Hlw.
    destruct (tok_peek read t) as [c t0].
    destruct (if (c =? 45)%Z then put_get read n [] t0 else ROk ([], t0)) as [[bb tt]| | |]; try discriminate.
    cbn [rbind] in E1 |- *. injection E1 as -> ->. clear H t c t0.
    peek. rewrite (digits_next _ _ Hdg). cbn [negb]. clear A1 t1.
    assert (S1 : starts_not is_digit (f ++ e ++ r)).
    { destruct Hfr; cbn [app starts_not]; [|unfold is_digit; lia].
      destruct He as [|e dd He _|e g dd He _ _]; cbn [app starts_not]; [|unfold is_digit; lia..].
      destruct r; cbn [starts_not]; [exact I|]. apply Hends. }
    destruct (digits_at dg fuel t _ _ n sg A (proj2 Hdg) S1 ltac:(lia) ltac:(lia)) as (t1 & -> & A1).
    cbn [rbind]. clear A t S1. peek. clear A1 t1.
    (* the fraction *)
    assert (Hf1 : exists t1, (if (next (f ++ e ++ r) =? 46)%Z then
           let* (buf, t) := put_get read n (sg ++ dg) t in
           let '(c, t) := tok_peek read t in
           if negb (z_isdigit c) then ROk (None, t)
           else let* (buf, t) := tok_digits read fuel n buf t in ROk (Some buf, t)
         else ROk (Some (sg ++ dg), t)) = ROk (Some (sg ++ dg ++ f), t1) /\ at' t1 (d ++ sg ++ dg ++ f) (e ++ r)).
    { change 46%Z with (Z.of_N 46%N). rewrite next_eqb. destruct Hfr as [|fd Hfd].
      - cbn [app] in A |- *. rewrite !app_nil_r. rewrite <- app_assoc in A.
        assert (Hne : match e ++ r with [] => false | x :: _ => (x =? 46)%N end = false).
        { destruct He as [|e dd He _|e g dd He _ _]; cbn [app]; [|apply N.eqb_neq; lia..].
          destruct r as [|c r]; [reflexivity|]. simpl in Hends. apply N.eqb_neq. tauto. }
        rewrite Hne. exists t. split; [reflexivity|exact A].
      - cbn [app] in A |- *. rewrite N.eqb_refl. cbn [List.length] in Hf, Hn.
        destruct (put_get_at t _ 46%N _ n (sg ++ dg) A) as (t2 & -> & A2); [reflexivity|rewrite app_length; lia|].
        cbn [rbind]. peek. rewrite (digits_next _ _ Hfd). cbn [negb].
        assert (S1 : starts_not is_digit (e ++ r)).
        { destruct He as [|e dd He _|e g dd He _ _]; cbn [app starts_not]; [|unfold is_digit; lia..].
          destruct r; cbn [starts_not]; [exact I|]. apply Hends. }
        destruct (digits_at fd fuel t0 _ _ n ((sg ++ dg) ++ [46%N]) A0 (proj2 Hfd) S1 ltac:(lia)) as (t3 & -> & A3);
          [rewrite !app_length; simpl; lia|]. cbn [rbind].
        rewrite <- !app_assoc. rewrite <- !app_assoc in A3. exists t3. split; [reflexivity|exact A3]. }
    destruct Hf1 as (t1 & -> & A1). cbn [rbind]. clear A t. peek. clear A1 t1.
    (* the exponent *)
    set (x := (sg ++ dg ++ f)) in *.
    assert (Lx : List.length x = List.length sg + List.length dg + List.length f) by (unfold x; rewrite !app_length; lia).
    assert (He1 : exists t1, (if ((next (e ++ r) =? 101) || (next (e ++ r) =? 69))%Z then
               let* (buf, t) := put_get read n x t in
               let '(c, t) := tok_peek read t in
               let* (buf, t) := if ((c =? 45) || (c =? 43))%Z then put_get read n buf t else ROk (buf, t) in
               let '(c, t) := tok_peek read t in
               if negb (z_isdigit c) then ROk (None, t)
               else let* (buf, t) := tok_digits read fuel n buf t in ROk (Some buf, t)
             else ROk (Some x, t)) = ROk (Some (x ++ e), t1) /\ at' t1 (d ++ x ++ e) r).
    { change 101%Z with (Z.of_N 101%N). change 69%Z with (Z.of_N 69%N). rewrite !next_eqb.
      assert (S1 : starts_not is_digit r). { destruct r; cbn [starts_not]; [exact I|]. apply Hends. }
      destruct He as [|e dd He Hdd|e g dd He Hg Hdd].
      - cbn [app] in A |- *. rewrite !app_nil_r.
        assert (Hne : match r with [] => false | x :: _ => (x =? 101)%N end || match r with [] => false | x :: _ => (x =? 69)%N end = false).
        { destruct r as [|c r]; [reflexivity|]. simpl in Hends. apply Bool.orb_false_iff. rewrite !N.eqb_neq. tauto. }
        rewrite Hne. exists t. split; [reflexivity|exact A].
      - cbn [app] in A |- *. replace (((e =? 101) || (e =? 69))%N) with true by (destruct He as [->| ->]; reflexivity).
        cbn [List.length] in Hf, Hn.
        destruct (put_get_at t _ e _ n x A) as (t2 & -> & A2); [unfold is_byte; lia|lia|].
        cbn [rbind]. peek. change 45%Z with (Z.of_N 45%N). change 43%Z with (Z.of_N 43%N). rewrite !next_eqb.
        assert (Hng : match dd ++ r with [] => false | x :: _ => (x =? 45)%N end || match dd ++ r with [] => false | x :: _ => (x =? 43)%N end = false).
        { destruct Hdd as [H1 H2]. destruct dd as [|c dd]; [contradiction|]. pose proof (Forall_inv H2) as Hc. unfold is_digit in Hc.
          cbn [app]. apply Bool.orb_false_iff. rewrite !N.eqb_neq. lia. }
        rewrite Hng. cbn [rbind]. peek. rewrite (digits_next _ _ Hdd). cbn [negb].
        destruct (digits_at dd fuel t1 _ _ n (x ++ [e]) A1 (proj2 Hdd) S1 ltac:(lia)) as (t3 & -> & A3);
          [rewrite !app_length; simpl; lia|]. cbn [rbind].
        rewrite <- !app_assoc. rewrite <- !app_assoc in A3. exists t3. split; [reflexivity|exact A3].
      - cbn [app] in A |- *. replace (((e =? 101) || (e =? 69))%N) with true by (destruct He as [->| ->]; reflexivity).
        cbn [List.length] in Hf, Hn.
        destruct (put_get_at t _ e _ n x A) as (t2 & -> & A2); [unfold is_byte; lia|lia|].
        cbn [rbind]. peek. change 45%Z with (Z.of_N 45%N). change 43%Z with (Z.of_N 43%N). rewrite !next_eqb.
        replace (((g =? 45) || (g =? 43))%N) with true by (destruct Hg as [->| ->]; reflexivity).
        destruct (put_get_at t0 _ g _ n (x ++ [e]) A0) as (t3 & -> & A3); [unfold is_byte; lia|rewrite app_length; simpl; lia|].
        cbn [rbind]. peek. rewrite (digits_next _ _ Hdd). cbn [negb].
        destruct (digits_at dd fuel t1 _ _ n ((x ++ [e]) ++ [g]) A1 (proj2 Hdd) S1 ltac:(lia)) as (t4 & -> & A4);
          [rewrite !app_length; simpl; lia|]. cbn [rbind].
        rewrite <- !app_assoc. rewrite <- !app_assoc in A4. exists t4. split; [reflexivity|exact A4]. }
    destruct He1 as (t1 & -> & A1). cbn [rbind]. unfold put. rewrite app_length.
    destruct (Nat.ltb_spec (List.length x + List.length e) n); [|lia]. cbn [rbind].
    exists t1. subst x. rewrite <- !app_assoc. rewrite <- !app_assoc in A1. split; [reflexivity|exact A1].
  Qed.

  Ltac peek_more := match goal with
    | H : at_ _ ?t ?d ?s |- context [tok_more read ?t] =>
        let t' := fresh "t" in let E := fresh in let A := fresh "A" in
        destruct (more_at read content Hr t d s H) as (t' & E & A); rewrite E; clear E; cbv beta iota
    end.

  Lemma z_name : forall c s, z_isalpha (next (c :: s)) || (next (c :: s) =? 95)%Z = true <-> name_start c.
  Proof.
    intros c s. simpl next. unfold z_isalpha, name_start. rewrite !Bool.orb_true_iff, !Bool.andb_true_iff, !Z.leb_le, Z.eqb_eq. lia.
  Qed.
  Lemma z_name_char : forall c s, negb (z_isalpha (next (c :: s))) && negb (z_isdigit (next (c :: s))) && negb (next (c :: s) =? 95)%Z = false <-> name_char c.
  Proof.
    intros c s. simpl next. unfold name_char, name_start, is_digit, z_isalpha, z_isdigit.
    rewrite !Bool.andb_false_iff, !Bool.negb_false_iff, !Bool.orb_true_iff, !Bool.andb_true_iff, !Z.leb_le, Z.eqb_eq. lia.
  Qed.
  Lemma name_char_byte : forall c, name_char c -> is_byte c.
  Proof. unfold name_char, name_start, is_digit, is_byte. lia. Qed.

  Lemma id_loop_at : forall x r t d fuel buf n, at' t d (x ++ r) -> Forall name_char x -> starts_not name_char r -> List.length x < fuel ->
    List.length buf <= n - 1 ->
    exists t', tok_id_loop read fuel t buf n = ROk (firstn (n - 1) (buf ++ x), t') /\ at' t' (d ++ x) r.
  Proof.
    induction x as [|c x IH]; intros r t d fuel buf n H Hx Hs Hf Hn; (destruct fuel as [|fuel]; [simpl in Hf; lia|]); cbn [tok_id_loop].
    - cbn [app] in H. rewrite !app_nil_r. rewrite firstn_all2 by lia. peek_more. destruct r as [|c r]; cbn [negb].
      + exists t0. split; [reflexivity|exact A].
      + peek. destruct (negb (z_isalpha (next (c :: r))) && negb (z_isdigit (next (c :: r))) && negb (next (c :: r) =? 95)%Z) eqn:E.
        * exists t1. split; [reflexivity|exact A0].
        * apply z_name_char in E. contradiction.
    - cbn [app] in H. peek_more. cbn [negb]. peek.
      rewrite (proj2 (z_name_char c _) (Forall_inv Hx)).
      destruct (get_at read content Hr t1 d c _ A0) as (t2 & -> & A2).
      simpl next. rewrite (z_byte_of c) by (apply name_char_byte; exact (Forall_inv Hx)).
      destruct (Nat.ltb_spec (List.length buf) (n - 1)).
      + destruct (IH r t2 _ fuel (buf ++ [c]) n A2 (Forall_inv_tail Hx) Hs) as (t3 & -> & A3);
          [simpl in Hf; lia|rewrite app_length; simpl; lia|].
        exists t3. rewrite <- !app_assoc. rewrite <- !app_assoc in A3. split; [reflexivity|exact A3].
      + destruct (IH r t2 _ fuel buf n A2 (Forall_inv_tail Hx) Hs) as (t3 & -> & A3); [simpl in Hf; lia|lia|].
        exists t3. split; [|rewrite <- !app_assoc in A3; exact A3]. do 2 f_equal.
        rewrite !firstn_app. replace (n - 1 - List.length buf) with 0 by lia. reflexivity.
  Qed.

  Lemma id_at : forall x r t d fuel n, name x -> starts_not name_char r -> at' t d (x ++ r) -> List.length x < fuel ->
    exists t', tok_id read fuel t n = ROk (Some (firstn (n - 1) x), t') /\ at' t' (d ++ x) r.
  Proof.
    intros x r t d fuel n Hx Hs H Hf. destruct Hx as [c x Hc Hx]. unfold tok_id. cbn [app] in H. peek.
    assert (P : forall a : bool, exists t2, (if a then (next (c :: x ++ r), t0) else tok_peek read t0) = (next (c :: x ++ r), t2) /\ at' t2 d (c :: x ++ r)).
    { intros a. destruct a; [exists t0; auto|]. destruct (peek_at read content Hr t0 d _ A) as (t2 & -> & A2). exists t2. auto. }
    destruct (P (z_isalpha (next (c :: x ++ r)))) as (t2 & -> & A2).
    assert (E : negb (z_isalpha (next (c :: x ++ r))) && negb (next (c :: x ++ r) =? 95)%Z = false).
    { rewrite <- Bool.negb_orb. apply Bool.negb_false_iff. apply z_name. exact Hc. }
    rewrite E. destruct (id_loop_at (c :: x) r t2 d fuel [] n A2) as (t3 & -> & A3); [constructor; [left; exact Hc|exact Hx]|exact Hs|exact Hf|simpl; lia|].
    cbn [rbind app]. exists t3. split; [reflexivity|exact A3].
  Qed.
  Lemma id_none : forall s t d fuel n, starts_not name_start s -> at' t d s ->
    exists t', tok_id read fuel t n = ROk (None, t') /\ at' t' d s.
  Proof.
    intros s t d fuel n Hs H. unfold tok_id. peek. destruct s as [|c s].
    - change (z_isalpha (next [])) with false. cbv iota. peek. exists t1. split; [reflexivity|exact A0].
    - assert (E : z_isalpha (next (c :: s)) || (next (c :: s) =? 95)%Z = false).
      { apply Bool.not_true_iff_false. rewrite z_name. exact Hs. }
      apply Bool.orb_false_iff in E. destruct E as [E1 E2]. rewrite E1. peek. rewrite E2. exists t1. split; [reflexivity|exact A0].
  Qed.

  Lemma read_until_at : forall x r t d fuel until buf len, at' t d (x ++ r) -> Forall is_byte x -> ~ In until x ->
    match r with [] => True | c :: _ => c = until end -> List.length x < fuel -> List.length buf + List.length x < len ->
    exists t', tok_read_until read fuel t until buf len = ROk (true, buf ++ x, t') /\ at' t' (d ++ x) r.
  Proof.
    induction x as [|c x IH]; intros r t d fuel until buf len H Hb Hi Hu Hf Hl; (destruct fuel as [|fuel]; [simpl in Hf; lia|]); cbn [tok_read_until].
    - cbn [app] in H. rewrite !app_nil_r. peek_more. destruct r as [|c r]; cbn [negb].
      + exists t0. split; [reflexivity|exact A].
      + subst c. peek. rewrite next_eqb, N.eqb_refl. exists t1. split; [reflexivity|exact A0].
    - cbn [app] in H. peek_more. cbn [negb]. peek. rewrite next_eqb.
      destruct (N.eqb_spec c until) as [->|]; [exfalso; apply Hi; left; reflexivity|].
      cbn [List.length] in Hl, Hf. destruct (Nat.eqb_spec (List.length buf) (len - 1)); [lia|].
      destruct (get_at read content Hr t1 d c _ A0) as (t2 & -> & A2). rewrite (z_byte_of c (Forall_inv Hb)).
      destruct (IH r t2 _ fuel until (buf ++ [c]) len A2 (Forall_inv_tail Hb)) as (t3 & -> & A3);
        [intros Hin; apply Hi; right; exact Hin|exact Hu|lia|rewrite app_length; simpl; lia|].
      exists t3. rewrite <- !app_assoc. rewrite <- !app_assoc in A3. split; [reflexivity|exact A3].
  Qed.
  Lemma read_until_full : forall x c r t d fuel until buf len, at' t d (x ++ c :: r) -> Forall is_byte x -> ~ In until x -> c <> until ->
    List.length x < fuel -> List.length buf + List.length x = len - 1 ->
    exists t', tok_read_until read fuel t until buf len = ROk (false, buf ++ x, t') /\ at' t' (d ++ x) (c :: r).
  Proof.
    induction x as [|y x IH]; intros c r t d fuel until buf len H Hb Hi Hu Hf Hl; (destruct fuel as [|fuel]; [simpl in Hf; lia|]); cbn [tok_read_until].
    - cbn [app] in H. rewrite !app_nil_r. peek_more. cbn [negb]. peek. rewrite next_eqb.
      destruct (N.eqb_spec c until) as [->|]; [contradiction|]. cbn [List.length] in Hl.
      destruct (Nat.eqb_spec (List.length buf) (len - 1)); [|lia]. exists t1. split; [reflexivity|exact A0].
    - cbn [app] in H. peek_more. cbn [negb]. peek. rewrite next_eqb.
      destruct (N.eqb_spec y until) as [->|]; [exfalso; apply Hi; left; reflexivity|].
      cbn [List.length] in Hl, Hf. destruct (Nat.eqb_spec (List.length buf) (len - 1)); [lia|].
      destruct (get_at read content Hr t1 d y _ A0) as (t2 & -> & A2). rewrite (z_byte_of y (Forall_inv Hb)).
      destruct (IH c r t2 _ fuel until (buf ++ [y]) len A2 (Forall_inv_tail Hb)) as (t3 & -> & A3);
        [intros Hin; apply Hi; right; exact Hin|exact Hu|lia|rewrite app_length; simpl; lia|].
      exists t3. rewrite <- !app_assoc. rewrite <- !app_assoc in A3. split; [reflexivity|exact A3].
  Qed.
End Words.

(** * Literals *)
Section Literals.
  Context {R : Type} (read : read_fn R) (content : R -> bytes).
  Hypothesis Hr : reads_fully read content.
  Notation at' := (at_ content).

  Lemma prefetch_at : forall t d s n, at' t d s ->
    at' (tok_prefetch read t n) d s /\ (n <= List.length (tk_cache (tok_prefetch read t n)) \/ tk_cache (tok_prefetch read t n) = s).
  Proof.
    intros [cache src row col] d s n [H1 H2]. simpl in H1, H2. unfold tok_prefetch. simpl tk_cache. simpl tk_src.
    destruct (Nat.leb_spec n (List.length cache)); [split; [split; assumption|left; simpl; lia]|].
    destruct Hr as [Hr1 Hr2]. specialize (Hr1 src (n - List.length cache) ltac:(lia)). specialize (Hr2 src (n - List.length cache) ltac:(lia)).
    destruct (read src (n - List.length cache)) as [[k x] src']. destruct Hr1 as [(A & B & C & D)|(A & B & C)].
    - destruct (Z.gtb_spec k 0); [|lia]. cbn [tk_cache tk_src tk_row tk_col]. split.
      + split; [cbn [tk_cache tk_src]; rewrite <- app_assoc, <- D; exact H1|exact H2].
      + assert (Hne : content src <> []) by (rewrite D; destruct x; simpl in B; [lia|discriminate]).
        specialize (Hr2 Hne). rewrite app_length. destruct (Nat.le_gt_cases (List.length (content src)) (n - List.length cache)) as [Hle|Hgt].
        * right. rewrite firstn_all2 in Hr2 by exact Hle. rewrite <- H1, <- Hr2. reflexivity.
        * left. rewrite Hr2, firstn_length. lia.
    - destruct (Z.gtb_spec k 0); [lia|]. cbn [tk_cache tk_src tk_row tk_col]. split.
      + split; [cbn [tk_cache tk_src]; rewrite C; rewrite B in H1; exact H1|exact H2].
      + right. rewrite B, app_nil_r in H1. exact H1.
  Qed.

  Lemma tok_same_ok : forall lit c r, Forall (fun x => x <> 0%N) lit -> List.length lit <= List.length c ->
    (tok_same c lit = true <-> exists q, c ++ r = lit ++ q).
  Proof.
    induction lit as [|b lit IH]; intros c r Hz Hl.
    - replace (tok_same c []) with true by (destruct c; reflexivity). split; [intros _; exists (c ++ r); reflexivity|reflexivity].
    - destruct c as [|a c]; [simpl in Hl; lia|]. cbn [tok_same]. pose proof (Forall_inv Hz) as Hb. cbv beta in Hb. simpl in Hl.
      destruct (N.eqb_spec a 0).
      { split; [discriminate|]. intros [q Hq]. cbn [app] in Hq. injection Hq as Hq _. congruence. }
      destruct (N.eqb_spec a b) as [->|Hab]; cbn [negb orb].
      + rewrite (IH c r (Forall_inv_tail Hz) ltac:(lia)). split; intros [q Hq]; exists q; cbn [app] in *; congruence.
      + split; [discriminate|]. intros [q Hq]. cbn [app] in Hq. injection Hq as Hq _. congruence.
  Qed.

  Lemma literal_at : forall t d s lit, at' t d s -> Forall (fun x => x <> 0%N) lit -> List.length lit <= 100 ->
    exists t' ok, tok_literal_follows read t lit = ROk (ok, t') /\ at' t' d s /\ (ok = true <-> exists q, s = lit ++ q).
  Proof.
    intros t d s lit H Hz Hl. unfold tok_literal_follows. destruct (Nat.ltb_spec 100 (List.length lit)); [lia|].
    destruct (prefetch_at t d s (List.length lit) H) as [A B]. set (t1 := tok_prefetch read t (List.length lit)) in *.
    cbv zeta. destruct (Nat.ltb_spec (List.length (tk_cache t1)) (List.length lit)) as [Hlt|Hge].
    - exists t1, false. split; [reflexivity|]. split; [exact A|]. split; [discriminate|]. intros [q Hq].
      destruct B as [B|B]; [lia|]. rewrite B, Hq, app_length in Hlt. lia.
    - exists t1, (tok_same (tk_cache t1) lit). split; [reflexivity|]. split; [exact A|].
      destruct A as [A _]. rewrite <- A. apply tok_same_ok; assumption.
  Qed.

  Lemma drop_at : forall x r t d, at' t d (x ++ r) -> at' (tok_drop read (List.length x) t) (d ++ x) r.
  Proof.
    induction x as [|c x IH]; intros r t d H; cbn [List.length tok_drop].
    - rewrite app_nil_r. exact H.
    - destruct (get_at read content (proj1 Hr) t d c (x ++ r) H) as (t' & E & A). rewrite E. cbn [snd].
      apply IH in A. rewrite <- app_assoc in A. exact A.
  Qed.

  Lemma skip_literal_at : forall t d s lit, at' t d s -> Forall (fun x => x <> 0%N) lit -> List.length lit <= 100 ->
    (forall q, s = lit ++ q -> exists t', tok_skip_literal read t lit = ROk (true, t') /\ at' t' (d ++ lit) q) /\
    ((forall q, s <> lit ++ q) -> exists t', tok_skip_literal read t lit = ROk (false, t') /\ at' t' d s).
  Proof.
    intros t d s lit H Hz Hl. destruct (literal_at t d s lit H Hz Hl) as (t1 & ok & E & A & B).
    unfold tok_skip_literal. rewrite E. cbn [rbind]. split.
    - intros q Hq. rewrite (proj2 B (ex_intro _ q Hq)). eexists. split; [reflexivity|]. apply drop_at. rewrite <- Hq. exact A.
    - intros Hn. destruct ok.
      + destruct (proj1 B eq_refl) as [q Hq]. destruct (Hn q Hq).
      + exists t1. split; [reflexivity|exact A].
  Qed.
End Literals.

(** [at_ content t d s]: the tokenizer [t] has gone over [d] and has [s] ahead, as
    it is after the steps of C84_stream. *)
Theorem C84_words : forall R (read : read_fn R) content, reads read content ->
  forall t d s fuel, at_ content t d s -> List.length s < fuel ->
  (* spaces *)
  (forall w r, s = w ++ r -> Forall (fun c => c_isspace c = true) w -> starts_not (fun c => c_isspace c = true) r ->
     exists t', tok_spaces read fuel t = ROk t' /\ at_ content t' (d ++ w) r) /\
  (* names, cut to the size of the buffer *)
  (forall x r n, s = x ++ r -> name x -> starts_not name_char r ->
     exists t', tok_id read fuel t n = ROk (Some (firstn (n - 1) x), t') /\ at_ content t' (d ++ x) r) /\
  (forall n, starts_not name_start s -> exists t', tok_id read fuel t n = ROk (None, t') /\ at_ content t' d s) /\
  (* numbers that fit the buffer *)
  (forall x r n, s = x ++ r -> number x -> number_ends r -> List.length x < n ->
     exists t', tok_num read fuel t n = ROk (Some x, t') /\ at_ content t' (d ++ x) r) /\
  (* everything before a character, or as much as fits the buffer *)
  (forall x r until len, s = x ++ r -> Forall is_byte x -> ~ In until x ->
     (match r with [] => True | c :: _ => c = until end) -> List.length x < len ->
     exists t', tok_read_until read fuel t until [] len = ROk (true, x, t') /\ at_ content t' (d ++ x) r) /\
  (forall x c r until len, s = x ++ c :: r -> Forall is_byte x -> ~ In until x -> c <> until -> List.length x = len - 1 ->
     exists t', tok_read_until read fuel t until [] len = ROk (false, x, t') /\ at_ content t' (d ++ x) (c :: r)).
Proof.
  intros R read content Hr t d s fuel H Hf. split; [|split; [|split; [|split; [|split]]]].
  - intros w r -> Hw Hs. destruct (spaces_at read content Hr _ fuel t d H Hf) as (t' & E & A).
    assert (Ed : drop_while c_isspace (w ++ r) = r).
    { clear - Hw Hs. induction Hw as [|c w Hc Hw IH]; cbn [app drop_while].
      - destruct r as [|c r]; [reflexivity|]. simpl in *. destruct (c_isspace c); [exfalso; apply Hs; reflexivity|reflexivity].
      - rewrite Hc. exact IH. }
    rewrite Ed in A. rewrite app_length in A. replace (List.length w + List.length r - List.length r) with (List.length w) in A by lia.
    rewrite firstn_app, Nat.sub_diag, firstn_all in A. cbn [firstn] in A. rewrite app_nil_r in A. exists t'. auto.
  - intros x r n -> Hx Hs. rewrite app_length in Hf. apply (id_at read content Hr); auto. lia.
  - intros n Hs. apply (id_none read content Hr); auto.
  - intros x r n -> Hx Hs Hn. rewrite app_length in Hf. apply (num_at read content Hr); auto. lia.
  - intros x r until len -> Hb Hi Hu Hl. rewrite app_length in Hf. apply (read_until_at read content Hr x r t d fuel until []); auto; simpl; lia.
  - intros x c r until len -> Hb Hi Hu Hl. rewrite app_length in Hf. apply (read_until_full read content Hr x c r t d fuel until []); auto; simpl; lia.
Qed.

Example C84_words_case : exists t, tok_num mem_read 20 (tok_new (L "-12.5e+3,")) 10 = ROk (Some (L "-12.5e+3"), t) /\
  number (L "-12.5e+3").
Proof.
  eexists. split; [vm_compute; reflexivity|].
  change (L "-12.5e+3") with ([45; 49; 50] ++ [46; 53] ++ [101; 43; 51])%N.
  constructor.
  - apply whole_neg. split; [discriminate|repeat constructor; lia].
  - constructor. split; [discriminate|repeat constructor; lia].
  - apply exponent_signed; [left; reflexivity|right; reflexivity|split; [discriminate|repeat constructor; lia]].
Qed.

(** Literals of at most 100 characters, on readers that give all the bytes asked
    for. *)
Theorem C84_literal_partial : forall R (read : read_fn R) content, reads_fully read content ->
  forall t d s lit, at_ content t d s -> Forall (fun x => x <> 0%N) lit -> List.length lit <= 100 ->
    (exists t' ok, tok_literal_follows read t lit = ROk (ok, t') /\ at_ content t' d s /\ (ok = true <-> exists q, s = lit ++ q)) /\
    (forall q, s = lit ++ q -> exists t', tok_skip_literal read t lit = ROk (true, t') /\ at_ content t' (d ++ lit) q) /\
    ((forall q, s <> lit ++ q) -> exists t', tok_skip_literal read t lit = ROk (false, t') /\ at_ content t' d s).
Proof.
  intros R read content Hr t d s lit H Hz Hl. split; [apply literal_at; assumption|].
  destruct (skip_literal_at read content Hr t d s lit H Hz Hl) as [A B]. split; assumption.
Qed.

(** On a reader that gives one byte at a time, as a terminal or the network may
    do, a literal that follows is not seen. *)
Definition slow_read : read_fn bytes := fun s n =>
  match s with [] => (0%Z, [], []) | c :: r => (1%Z, [c], r) end.
Theorem C84_literal_refuted : reads slow_read (fun s => s) /\
  exists t, tok_skip_literal slow_read (tok_new (L "null")) (L "null") = ROk (false, t).
Proof.
  split.
  - intros [|c r] n Hn; simpl.
    + right. repeat split; lia.
    + left. repeat split; lia.
  - eexists. vm_compute. reflexivity.
Qed.

(** [num] pays no regard to the size of its buffer. *)
Theorem C84_num_refuted : number (L "123456") /\ tok_num mem_read 20 (tok_new (L "123456,")) 6 = RUndefined.
Proof.
  split; [|vm_compute; reflexivity].
  change (L "123456") with ([49; 50; 51; 52; 53; 54] ++ [] ++ [])%N.
  constructor; constructor. split; [discriminate|repeat constructor; lia].
Qed.

Print Assumptions C84_stream.
Print Assumptions C84_words.
Print Assumptions C84_literal_partial.
Print Assumptions C84_literal_refuted.
Print Assumptions C84_num_refuted.
