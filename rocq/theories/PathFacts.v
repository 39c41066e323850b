(** Import resolution (C47), the linker's command line (C49) and the generated
    files (C50). *)
From Verif Require Import Base Buf Lexer Nodes Resolve Cursor Preparser Parser CAst FormatC Translator Build BaseFacts.
From Verif Require Import SpecScope SpecDecl SpecTarget SpecExports TargetFacts FuelFacts SpecBuild BuildFacts ProjectFacts BuildProps.

(** ** Splitting at slashes *)

Lemma split_aux_none : forall d s cur, ~ In d s -> split_char_aux d cur s = [rev cur ++ s].
Proof.
  intros d. induction s as [| c s IH]; intros cur H; cbn [split_char_aux]; [rewrite app_nil_r; reflexivity |].
  destruct (N.eqb_spec c d) as [-> | Hc]; [exfalso; apply H; left; reflexivity |].
  rewrite IH by (intros Hi; apply H; right; exact Hi). cbn. rewrite <- app_assoc. reflexivity.
Qed.
Lemma split_aux_app : forall d s f cur, ~ In d f ->
  split_char_aux d cur (s ++ d :: f) = split_char_aux d cur s ++ [f].
Proof.
  intros d. induction s as [| c s IH]; intros f cur H; cbn [split_char_aux app].
  - rewrite N.eqb_refl, split_aux_none by exact H. reflexivity.
  - destruct (N.eqb c d); [cbn; f_equal |]; apply IH, H.
Qed.
Lemma split_none : forall f, ~ In slash f -> split_char slash f = [f].
Proof. intros f H. unfold split_char. rewrite split_aux_none by exact H. reflexivity. Qed.
Lemma split_app : forall s f, ~ In slash f -> split_char slash (s ++ slash :: f) = split_char slash s ++ [f].
Proof. intros s f H. unfold split_char. apply split_aux_app, H. Qed.
Lemma split_ne : forall s cur, split_char_aux slash cur s <> [].
Proof. induction s as [| c s IH]; intros cur; cbn; [discriminate |]. destruct (N.eqb c slash); [discriminate | apply IH]. Qed.
Lemma join_cons : forall sep x l, l <> [] -> join sep (x :: l) = x ++ sep ++ join sep l.
Proof. intros sep x [| y l] H; [contradiction | reflexivity]. Qed.
Lemma join_split_aux : forall s cur, join [slash] (split_char_aux slash cur s) = rev cur ++ s.
Proof.
  induction s as [| c s IH]; intros cur; cbn [split_char_aux]; [rewrite app_nil_r; reflexivity |].
  destruct (N.eqb_spec c slash) as [-> | Hc].
  - rewrite join_cons by apply split_ne. rewrite IH. reflexivity.
  - rewrite IH. cbn. rewrite <- app_assoc. reflexivity.
Qed.
Lemma join_split : forall s, join [slash] (split_char slash s) = s.
Proof. intros s. unfold split_char. rewrite join_split_aux. reflexivity. Qed.

Lemma basename_file : forall p, file_name p (basename p).
Proof.
  intros p. unfold basename, file_name.
  assert (G : forall s cur, ~ In slash cur ->
    let l := split_char_aux slash cur s in
    ~ In slash (last l []) /\ (rev cur ++ s = last l [] \/ exists d, rev cur ++ s = d ++ L "/" ++ last l [])).
  { induction s as [| c s IH]; intros cur Hc; cbn [split_char_aux].
    - cbn. rewrite <- in_rev, app_nil_r. auto.
    - destruct (N.eqb_spec c slash) as [-> | Hn].
      + destruct (split_char_aux slash [] s) as [| x l] eqn:E; [destruct (split_ne _ _ E) |].
        destruct (IH [] (fun H => H)) as [H1 H2]. rewrite E in H1, H2. cbn [rev app] in H2.
        change (last (rev cur :: x :: l) []) with (last (x :: l) []). split; [exact H1 |].
        right. destruct H2 as [-> | [d ->]].
        * exists (rev cur). reflexivity.
        * exists (rev cur ++ slash :: d). rewrite <- app_assoc. reflexivity.
      + destruct (IH (c :: cur)) as [H1 H2]; [intros [E | Hi]; [congruence | contradiction] |].
        cbn [rev] in H2. rewrite <- app_assoc in H2. split; [exact H1 | exact H2]. }
  apply (G p [] (fun H => H)).
Qed.

Lemma file_name_ext : forall p bn n, file_name p bn -> p = n ++ L ".c" -> exists b, bn = b ++ L ".c".
Proof.
  intros p bn n [H1 [-> | [d ->]]] E; [eauto |].
  apply (f_equal (@rev char)) in E. rewrite !rev_app_distr in E. rewrite <- app_assoc in E. cbn in E.
  destruct (rev bn) as [| c1 [| c2 r]] eqn:Eb; cbn in E; try discriminate.
  exists (rev r). injection E as E1 E2 _. subst. rewrite <- (rev_involutive bn), Eb. cbn.
  rewrite <- app_assoc. reflexivity.
Qed.

(** ** The directory of a path *)

Lemma plain_not_skipped : forall f, plain_name f -> skipped_component f = false.
Proof.
  intros f (_ & H1 & H2). destruct f as [| c [| d r]]; [contradiction | |].
  - cbn. destruct c as [| p]; [reflexivity |]. repeat (destruct p; try reflexivity). exfalso. apply H2. reflexivity.
  - cbn. destruct c as [| p]; [reflexivity |]. repeat (destruct p; try reflexivity).
Qed.

(** Redundant parts are components that are skipped. *)
Lemma split_redundant : forall j, redundant j -> exists cs, (forall c, In c cs -> skipped_component c = true) /\
  (forall f, ~ In slash f -> split_char slash (j ++ f) = cs ++ [f])
  /\ forall s f, ~ In slash f -> split_char slash (s ++ slash :: j ++ f) = split_char slash s ++ cs ++ [f].
Proof.
  assert (G : forall j, redundant j -> exists cs, (forall c, In c cs -> skipped_component c = true) /\
    forall s f, ~ In slash f -> split_char slash (s ++ slash :: j ++ f) = split_char slash s ++ cs ++ [f]).
  { induction 1 as [| j H (cs & H1 & H2) | j H (cs & H1 & H2)].
    - exists []. split; [intros c [] |]. intros s f Hf. apply split_app, Hf.
    - exists ([] :: cs). split; [intros c [<- | Hc]; [reflexivity | apply H1, Hc] |]. intros s f Hf.
      replace (s ++ slash :: (L "/" ++ j) ++ f) with ((s ++ [slash]) ++ slash :: j ++ f) by (rewrite <- app_assoc; reflexivity).
      rewrite H2 by exact Hf. rewrite (split_app s []) by (intros []). rewrite <- app_assoc. reflexivity.
    - exists (L "." :: cs). split; [intros c [<- | Hc]; [reflexivity | apply H1, Hc] |]. intros s f Hf.
      replace (s ++ slash :: (L "./" ++ j) ++ f) with ((s ++ slash :: L ".") ++ slash :: j ++ f) by (rewrite <- app_assoc; reflexivity).
      rewrite H2 by exact Hf. rewrite (split_app s (L ".")) by (intros [E | []]; discriminate). rewrite <- app_assoc. reflexivity. }
  intros j H. destruct (G j H) as (cs & H1 & H2). exists cs. split; [exact H1 |]. split; [| exact H2].
  intros f Hf. specialize (H2 [] f Hf). unfold split_char in *. cbn [app split_char_aux] in H2. rewrite N.eqb_refl in H2.
  cbn in H2. injection H2 as H2. exact H2.
Qed.
Lemma drop_all : forall cs l, (forall c, In c cs -> skipped_component c = true) -> drop_skipped (cs ++ l) = drop_skipped l.
Proof.
  induction cs as [| c cs IH]; intros l H; [reflexivity |]. cbn [app drop_skipped].
  rewrite (H c (or_introl eq_refl)). apply IH. intros x Hx. apply H. right. exact Hx.
Qed.

(** How [path_parent] cuts a path: what it keeps in front and the rest. *)
Definition start_of (s : str) : nat :=
  if match s with 47%N :: _ => true | _ => false end
     || match s with [46%N] => true | 46%N :: 47%N :: _ => true | _ => false end then 1 else 0.
Lemma start_cases : forall s, start_of s = match s with
  | c :: r => if N.eqb c 47 then 1
              else if N.eqb c 46 && match r with [] => true | d :: _ => N.eqb d 47 end then 1 else 0
  | [] => 0 end.
Proof.
  intros [| c r]; [reflexivity |]. unfold start_of.
  destruct (N.eqb_spec c 47) as [-> | H1]; [reflexivity |].
  destruct (N.eqb_spec c 46) as [-> | H2].
  - cbn [orb andb]. destruct r as [| d r]; [reflexivity |].
    destruct (N.eqb_spec d 47) as [-> | H3]; [reflexivity |].
    destruct d as [| p]; [reflexivity |]. repeat (destruct p; try reflexivity). contradiction.
  - destruct c as [| p]; [reflexivity |]. repeat (destruct p; try reflexivity); try contradiction;
      destruct r; reflexivity.
Qed.
Lemma parent_last : forall s f comps, plain_name f ->
  split_char slash (skipn (start_of s) s) = comps ++ [f] ->
  path_parent s = Some (firstn (start_of s) s ++ join [slash] (rev (drop_skipped (rev comps)))).
Proof.
  intros s f comps Hf E. unfold path_parent. fold (start_of s). rewrite E, rev_app_distr.
  cbn [rev app drop_skipped]. rewrite (plain_not_skipped f Hf). reflexivity.
Qed.

Lemma plain_first : forall f, plain_name f -> start_of f = 0.
Proof.
  intros f (H1 & H2 & H3). rewrite start_cases. destruct f as [| c r]; [reflexivity |].
  destruct (N.eqb_spec c 47) as [-> | Hc]; [exfalso; apply H1; left; reflexivity |].
  destruct (N.eqb_spec c 46) as [-> |]; [| reflexivity].
  destruct r as [| d r]; [exfalso; apply H3; reflexivity |]. cbn [andb].
  destruct (N.eqb_spec d 47) as [-> |]; [exfalso; apply H1; right; left; reflexivity | reflexivity].
Qed.
Lemma start_le : forall d, start_of d <= List.length d.
Proof.
  intros d. rewrite start_cases. destruct d as [| c d]; [lia |]. cbn [List.length].
  destruct (N.eqb c 47); [lia |]. destruct (_ && _); lia.
Qed.
Lemma start_more : forall d r, d <> [] -> start_of (d ++ slash :: r) = start_of d.
Proof.
  intros d r H. rewrite !start_cases. destruct d as [| c [| c2 d]]; cbn [app]; try contradiction; reflexivity.
Qed.

(** The components of a path with a directory, after its root or leading dot. *)
Lemma dir_comps : forall p d, in_dir p d -> p <> [] /\
  exists comps f, plain_name f /\ split_char slash (skipn (start_of p) p) = comps ++ [f].
Proof.
  intros p d H. induction H as [f Hf | j f Hj Hf | j f Hj Hf | d d' j f Hd IH Hj Hf].
  - split; [apply Hf |]. exists [], f. split; [exact Hf |]. rewrite (plain_first f Hf). cbn [skipn].
    rewrite (split_none f) by apply Hf. reflexivity.
  - split; [discriminate |]. destruct (split_redundant j Hj) as (cs & _ & H2 & _). exists cs, f.
    split; [exact Hf |]. apply (H2 f (proj1 Hf)).
  - split; [discriminate |]. destruct (split_redundant j Hj) as (cs & _ & _ & H2). exists ([] :: cs), f.
    split; [exact Hf |]. apply (H2 [] f (proj1 Hf)).
  - destruct IH as (H1 & x & g & Hg & E). split; [intros E1; apply app_eq_nil in E1; destruct E1; contradiction |].
    destruct (split_redundant j Hj) as (cs & _ & _ & H2). exists ((x ++ [g]) ++ cs), f. split; [exact Hf |].
    change (L "/" ++ j ++ f) with (slash :: j ++ f). rewrite start_more by exact H1.
    rewrite skipn_app. pose proof (start_le d). replace (start_of d - List.length d) with 0 by lia. cbn [skipn].
    rewrite (H2 _ f (proj1 Hf)), E, <- !app_assoc. reflexivity.
Qed.

Lemma parent_dir : forall p d, in_dir p d -> path_parent p = Some d.
Proof.
  intros p d H. destruct H as [f Hf | j f Hj Hf | j f Hj Hf | d d' j f Hd Hj Hf].
  - rewrite (parent_last f f []); [| exact Hf |].
    + rewrite (plain_first f Hf). reflexivity.
    + rewrite (plain_first f Hf). apply split_none, Hf.
  - destruct (split_redundant j Hj) as (cs & H1 & H2 & _).
    rewrite (parent_last _ f cs Hf) by apply (H2 f (proj1 Hf)).
    rewrite <- (app_nil_r (rev cs)), drop_all by (intros c Hc; apply H1, in_rev, Hc). reflexivity.
  - destruct (split_redundant j Hj) as (cs & H1 & _ & H2).
    rewrite (parent_last _ f ([] :: cs) Hf) by apply (H2 [] f (proj1 Hf)).
    cbn [rev]. rewrite drop_all by (intros c Hc; apply H1, in_rev, Hc). reflexivity.
  - destruct (dir_comps d d' Hd) as (H0 & x & g & Hg & E).
    destruct (split_redundant j Hj) as (cs & H1 & _ & H2).
    change (L "/" ++ j ++ f) with (slash :: j ++ f). pose proof (start_le d).
    rewrite (parent_last _ f ((x ++ [g]) ++ cs) Hf).
    + rewrite start_more by exact H0. rewrite rev_app_distr, drop_all by (intros c Hc; apply H1, in_rev, Hc).
      rewrite rev_app_distr. cbn [rev app drop_skipped]. rewrite (plain_not_skipped g Hg).
      change (g :: rev x) with (rev [g] ++ rev x). rewrite <- rev_app_distr, rev_involutive, <- E, join_split.
      rewrite firstn_app. replace (start_of d - List.length d) with 0 by lia. cbn [firstn]. rewrite app_nil_r.
      rewrite firstn_skipn. reflexivity.
    + rewrite start_more by exact H0. rewrite skipn_app. replace (start_of d - List.length d) with 0 by lia. cbn [skipn].
      rewrite (H2 _ f (proj1 Hf)), E, <- !app_assoc. reflexivity.
Qed.

(** Every path that ends in a file name has a directory. *)
Lemma last_part : forall p, (~ In slash p) \/ exists d f, ~ In slash f /\ p = d ++ slash :: f.
Proof.
  intros p. destruct (basename_file p) as [H [E | [d E]]].
  - left. rewrite E. exact H.
  - right. exists d, (basename p). split; [exact H | exact E].
Qed.
Lemma name_cases : forall f, ~ In slash f -> plain_name f \/ f = [] \/ f = L ".".
Proof.
  intros f H. destruct (str_eqb_spec f []) as [| H1]; [auto |]. destruct (str_eqb_spec f (L ".")) as [| H2]; [auto |].
  left. split; auto.
Qed.
Lemma dir_exists : forall n d j f, List.length d <= n -> redundant j -> plain_name f ->
  exists dir, in_dir (d ++ slash :: j ++ f) dir.
Proof.
  induction n as [| n IH]; intros d j f Hn Hj Hf.
  - destruct d; [| cbn in Hn; lia]. eexists. apply Dir_root; assumption.
  - destruct (last_part d) as [Hd | (d2 & c & Hc & ->)].
    + destruct (name_cases d Hd) as [Hp | [-> | ->]].
      * eexists. eapply Dir_sub; [apply Dir_none, Hp | exact Hj | exact Hf].
      * eexists. apply Dir_root; assumption.
      * eexists. apply Dir_dot; assumption.
    + rewrite app_length in Hn. cbn in Hn. destruct (name_cases c Hc) as [Hp | [-> | ->]].
      * destruct (IH d2 [] c) as [dir Hdir]; [lia | constructor | exact Hp |].
        eexists. eapply Dir_sub; [exact Hdir | exact Hj | exact Hf].
      * destruct (IH d2 (L "/" ++ j) f) as [dir Hdir]; [lia | constructor; exact Hj | exact Hf |].
        exists dir. rewrite <- app_assoc. exact Hdir.
      * destruct (IH d2 (L "./" ++ j) f) as [dir Hdir]; [lia | constructor; exact Hj | exact Hf |].
        exists dir. rewrite <- app_assoc. exact Hdir.
Qed.
Lemma has_dir : forall p bn, file_name p bn -> plain_name bn -> exists dir, in_dir p dir.
Proof.
  intros p bn [H [-> | [d ->]]] Hp; [eexists; apply Dir_none, Hp |].
  apply (dir_exists (List.length d) d [] bn (le_n _) Red_none Hp).
Qed.

Lemma join_dir : forall p dir name, in_dir p dir -> name <> [] -> hd 0%N name <> 47%N ->
  path_join dir name = in_directory dir name.
Proof.
  intros p dir name H Hn Hh.
  assert (E : forall x, match name with 47%N :: _ => name | _ => x end = x).
  { intros x. destruct name as [| c r]; [reflexivity |]. cbn in Hh.
    destruct c as [| q]; [reflexivity |]. repeat (destruct q; try reflexivity). contradiction. }
  unfold path_join. rewrite E. unfold in_directory.
  inversion H as [f Hf | j f Hj Hf | j f Hj Hf | d d' j f Hd Hj Hf]; subst; try reflexivity.
  assert (Hl : exists a c, dir = a ++ [c] /\ c <> 47%N).
  { clear - Hd. destruct Hd as [f0 H0 | j f0 Hj H0 | j f0 Hj H0 | d0 d1 j f0 Hd0 Hj H0];
      destruct (exists_last (l := f0)) as (a & c & ->); try apply H0.
    - exists a, c. split; [reflexivity |]. intros ->. apply (proj1 H0), in_or_app. right. left. reflexivity.
    - exists (L "/" ++ j ++ a), c. rewrite <- !app_assoc. split; [reflexivity |]. intros ->. apply (proj1 H0), in_or_app. right. left. reflexivity.
    - exists (L "./" ++ j ++ a), c. rewrite <- !app_assoc. split; [reflexivity |]. intros ->. apply (proj1 H0), in_or_app. right. left. reflexivity.
    - exists (d0 ++ L "/" ++ j ++ a), c. rewrite <- !app_assoc. split; [reflexivity |]. intros ->. apply (proj1 H0), in_or_app. right. left. reflexivity. }
  destruct Hl as (a & c & -> & Hc). rewrite rev_app_distr. cbn [rev app].
  destruct (str_eqb_spec (a ++ [c]) []) as [E1 |]; [destruct a; discriminate |].
  destruct (str_eqb_spec (a ++ [c]) (L "/")) as [E1 |].
  - exfalso. destruct a as [| a1 [| a2 a]]; cbn in E1; inversion E1. contradiction.
  - destruct c as [| q]; [reflexivity |]. repeat (destruct q; try reflexivity). contradiction.
Qed.

(** ** Resolution *)

Lemma ends_c : forall n, ends_with (n ++ L ".c") (L ".c") = true.
Proof. intros n. unfold ends_with, starts_with. rewrite rev_app_distr. reflexivity. Qed.
Lemma ends_c_inv : forall s, ends_with s (L ".c") = true -> exists n, s = n ++ L ".c".
Proof.
  intros s H. unfold ends_with, starts_with in H.
  change (rev (L ".c")) with [99%N; 46%N] in H. cbn [strip_prefix] in H.
  destruct (rev s) as [| a r] eqn:E; [discriminate |].
  destruct (N.eqb_spec 99 a) as [<- |]; [| discriminate].
  destruct r as [| b r]; [discriminate |].
  destruct (N.eqb_spec 46 b) as [<- |]; [| discriminate].
  exists (rev r). rewrite <- (rev_involutive s), E. cbn. rewrite <- app_assoc. reflexivity.
Qed.

Lemma blen_ascii : forall s, ascii s -> blen s = List.length s.
Proof.
  induction s as [| c s IH]; intros H; [reflexivity |]. cbn [blen List.length].
  rewrite IH by (intros x Hx; apply H; right; exact Hx). unfold ulen.
  destruct (N.ltb_spec c 128) as [_ | Hc]; [reflexivity |]. specialize (H c (or_introl eq_refl)). unfold char in *. lia.
Qed.
Lemma blen_ge : forall s, List.length s <= blen s.
Proof.
  induction s as [| c s IH]; cbn [blen List.length]; [lia |]. unfold ulen.
  destruct (N.ltb c 128); [lia |]. destruct (N.ltb c 2048); [lia |]. destruct (N.ltb c 65536); lia.
Qed.

Lemma looked_up_c : forall home base name path, looked_up home base name path ->
  exists n, path = n ++ L ".c".
Proof.
  intros home base name path [dir n E H1 H2 | dir n E H1 H2 | H1].
  - subst. unfold in_directory. destruct (str_eqb _ _); [eauto |].
    destruct (str_eqb _ _); [exists (L "/" ++ n); rewrite app_assoc; reflexivity |].
    exists (dir ++ L "/" ++ n). rewrite <- !app_assoc. reflexivity.
  - eauto.
  - exists (home ++ L "/lib/" ++ name). rewrite <- !app_assoc. reflexivity.
Qed.

Lemma resolve_path : forall w base name path, looked_up (w_home w) base name path ->
  resolve_import w base name =
  if w_exists w path then rbind (ns_of_path path) (fun ns => Done (inl (mkRef path ns)))
  else Done (inr (L "can't find module '" ++ name ++ L "' (looked at " ++ path ++ L ")")).
Proof.
  intros w base name path H. unfold resolve_import.
  assert (E : (if ends_with name (L ".c") then
       rbind (unwrap "resolve_import: parent().unwrap()" (path_parent base))
             (fun d => Done (path_join d name))
     else Done (w_home w ++ L "/lib/" ++ name ++ L ".c")) = Done path).
  { destruct H as [dir n E H1 H2 | dir n E H1 H2 | H1].
    - rewrite E at 1. rewrite ends_c, (parent_dir base dir H2). cbn. f_equal. eapply join_dir; eauto.
      intros ->. destruct n; discriminate.
    - rewrite E at 1. rewrite ends_c, (parent_dir base dir H2). cbn. f_equal. unfold path_join.
      destruct name as [| c r]; [destruct n; discriminate |]. cbn in H1. subst c. reflexivity.
    - destruct (ends_with name (L ".c")) eqn:En; [| reflexivity].
      apply ends_c_inv in En. destruct En as [n En]. exfalso. apply (H1 n En). }
  rewrite E. cbn [rbind]. destruct (w_exists w path); reflexivity.
Qed.

Lemma ns_of_looked : forall home base name path, looked_up home base name path ->
  exists bn ns, file_name path bn /\ ns_of_path path = Done ns
    /\ (ascii bn -> bn = ns ++ L ".c") /\ exists b, bn = b ++ L ".c".
Proof.
  intros home base name path H. destruct (looked_up_c _ _ _ _ H) as [n E].
  pose proof (basename_file path) as Hb. destruct (file_name_ext _ _ _ Hb E) as [b Eb].
  exists (basename path). eexists. split; [exact Hb |]. unfold ns_of_path. rewrite Eb.
  assert (Hlen : Nat.ltb (blen (b ++ L ".c")) 2 = false).
  { apply Nat.ltb_ge. pose proof (blen_ge (b ++ L ".c")) as Hl. rewrite app_length in Hl. change (List.length (L ".c")) with 2 in Hl. lia. }
  rewrite Hlen. split; [reflexivity |]. split; [| eauto].
  intros Ha. rewrite (blen_ascii _ Ha), app_length.
  replace (List.length b + List.length (L ".c") - 2) with (List.length b) by (cbn; lia).
  rewrite firstn_app, firstn_all, Nat.sub_diag. cbn [firstn]. rewrite app_nil_r. reflexivity.
Qed.

(** ** Libraries *)

Lemma link_fold : forall l acc pres, (forall x, In x acc <-> In x pres) ->
  fold_left (fun link x => if str_in x link then link else link ++ [x]) l acc
  = acc ++ dedup_by (fun x : str => x) pres l.
Proof.
  induction l as [| a l IH]; intros acc pres H; cbn [fold_left dedup_by]; [rewrite app_nil_r; reflexivity |].
  assert (E : str_in a acc = str_in a pres).
  { destruct (str_in a acc) eqn:E1, (str_in a pres) eqn:E2; try reflexivity; exfalso.
    - apply str_in_spec in E1. apply str_in_false in E2. apply E2, H, E1.
    - apply str_in_spec in E2. apply str_in_false in E1. apply E1, H, E2. }
  rewrite E. destruct (str_in a pres); [apply IH, H |].
  rewrite (IH (acc ++ [a]) (a :: pres)).
  - rewrite <- app_assoc. reflexivity.
  - intros x. rewrite in_app_iff. cbn [In]. rewrite H. tauto.
Qed.
Lemma link_firsts : forall pr,
  firsts (fun x : str => x) [] (L "m" :: flat_map cm_link (pr_cmods pr)) (link_list pr).
Proof.
  intros pr. unfold link_list. rewrite (link_fold _ _ [L "m"]) by reflexivity.
  cbn [app]. apply Firsts_new; [intros [] |]. apply dedup_firsts.
Qed.

(** ** Generated files *)

Lemma written : forall md5 dir pr,
  List.length (pr_cmods pr) = List.length (pr_heads pr) ->
  map (fun f => fst (fst f)) (write_c99 md5 dir pr)
  = map (fun h => dir ++ L "/" ++ md5 (mi_filepath h) ++ L ".c") (pr_heads pr)
  /\ map snd (write_c99 md5 dir pr) = map mi_filepath (pr_heads pr)
  /\ map (fun f => snd (fst f)) (write_c99 md5 dir pr) = map format_module (pr_cmods pr).
Proof.
  intros md5 dir pr. unfold write_c99. generalize (pr_heads pr) as hs, (pr_cmods pr) as cs.
  induction hs as [| h hs IH]; intros [| c cs] E; try discriminate; [repeat split |].
  cbn in E. injection E as E. destruct (IH cs E) as (I1 & I2 & I3). cbn. rewrite I1, I2, I3. repeat split.
Qed.

Lemma nodup_map : forall (A B : Type) (f : A -> B) (l : list A), (forall a b : A, In a l -> In b l -> f a = f b -> a = b) -> NoDup l -> NoDup (map f l).
Proof.
  intros A B f l. induction l as [| a l IH]; intros H Hn; cbn; [constructor |].
  inversion Hn; subst. constructor.
  - intros Hi. apply in_map_iff in Hi. destruct Hi as (b & E & Hb).
    assert (b = a) by (apply H; [right; exact Hb | left; reflexivity | exact E]). subst. contradiction.
  - apply IH; [| assumption]. intros x y Hx Hy. apply H; right; assumption.
Qed.
Lemma written_nodup : forall (md5 : str -> str) (dir : str) (paths : list str),
  (forall p q, In p paths -> In q paths -> md5 p = md5 q -> p = q) -> NoDup paths ->
  NoDup (map (fun p => dir ++ L "/" ++ md5 p ++ L ".c") paths).
Proof.
  intros md5 dir paths H Hn. apply nodup_map; [| exact Hn]. intros a b Ha Hb E.
  apply app_inv_head in E. apply app_inv_head in E. apply app_inv_tail in E. apply H; assumption.
Qed.

Lemma looked_total : forall w base bn name, file_name base bn -> plain_name bn ->
  exists path, looked_up (w_home w) base name path.
Proof.
  intros w base bn name Hb Hp. destruct (has_dir base bn Hb Hp) as [dir Hd].
  destruct (ends_with name (L ".c")) eqn:E.
  - apply ends_c_inv in E. destruct E as [n E]. destruct (N.eq_dec (hd 0%N name) 47) as [Hh | Hh].
    + exists name. eapply Look_absolute; eauto.
    + eexists. eapply Look_relative; eauto.
  - eexists. apply Look_library. intros n En. rewrite En, ends_c in E. discriminate.
Qed.

Section Files.
Context {U : Unicode} (w : world).

Lemma definition_and_use : forall fuel main pr i h m cm q h' m',
  parse_project w fuel main = BOk pr -> unit_at pr i h m cm -> q <> [] -> q <> L "OS" ->
  let S := site_of m (unit_params pr i h) in
  import S q = Some (h', m') ->
  exists j cm', j < i /\ unit_at pr j h' m' cm'
  /\ (forall e en, In (MEnum e) (mod_elements m') -> enum_pub e = true -> In en (enum_entries e) ->
      forall p G, exists d v, In (XEnum d) (cm_elements cm') /\ ced_hidden d = false
       /\ In (cname S G (mkNs p q (en_name en)), v) (ced_entries d))
  /\ (forall f, In (MFunc f) (mod_elements m') -> fd_pub f = true -> f_name (fd_form f) <> L "main" ->
      ~ In (f_name (fd_form f)) (param_names (fd_params f)) ->
      forall p G,
      (exists d, In (XFunc d) (cm_elements cm') /\ cfd_static d = false
        /\ cf_name (cfd_form d) = cname S G (mkNs p q (f_name (fd_form f))))
      /\ (exists d, In (XForwardFunc d) (cm_elements cm') /\ cfw_static d = false
        /\ cf_name (cfw_form d) = cname S G (mkNs p q (f_name (fd_form f)))))
  /\ (forall x, pub_type (mod_elements m') x ->
      forall b p, exists d e, In e (cm_elements cm') /\ format_elem e = format_elem (XTypedef d)
        /\ ctdf_alias (ctd_form d) = ctn_name (c_type S (mkTn b (mkNs p q x)))).
Proof.
  intros fuel main pr i h m cm q h' m' H Hu H1 H2 S Hi.
  destruct (import_unit w _ _ _ _ _ _ _ _ _ _ H Hu Hi) as (j & cm' & Hlt & Hu').
  exists j, cm'. split; [exact Hlt |]. split; [exact Hu' |].
  pose proof (po_translated _ _ _ _ (project_built w _ _ _ H) j h' m' cm' Hu') as Ht.
  destruct (definitions _ _ _ Ht) as (D1 & D2 & D3). cbn [tp_mod unit_params] in D1, D2, D3.
  split; [| split].
  - intros e en He Hp Hen p G. rewrite (qualified_name S G p q _ h' m' H1 H2 Hi). eapply D1; eauto.
  - intros f Hf Hp Hm Hpar p G. rewrite (qualified_name S G p q _ h' m' H1 H2 Hi). apply D2; assumption.
  - intros x Hx b p. rewrite (qualified_type_name S b p q _ h' m' H1 H2 Hi). cbn [ctn_name]. apply D3, Hx.
Qed.

Lemma links_of : forall l, flat_map link_hint l = link_macros l.
Proof. induction l as [| [[] | | | | | |] l IH]; cbn; rewrite ?IH; reflexivity. Qed.

Lemma project_links : forall fuel main pr, parse_project w fuel main = BOk pr ->
  flat_map cm_link (pr_cmods pr) = flat_map link_hint (flat_map mod_elements (pr_mods pr)).
Proof.
  intros fuel main pr H. destruct (project_built w _ _ _ H) as [_ [L1 L2] _ Ht].
  assert (E : forall i h m cm, unit_at pr i h m cm -> cm_link cm = link_macros (mod_elements m)).
  { intros i h m cm Hu. apply Ht in Hu. apply translate_target in Hu. destruct Hu as (s & imps & _ & _ & _ & ->). reflexivity. }
  unfold unit_at in E. clear Ht H. revert L1 L2 E. generalize (pr_heads pr) as hs, (pr_mods pr) as ms, (pr_cmods pr) as cs.
  induction hs as [| h hs IH]; intros [| m ms] [| c cs] L1 L2 E; cbn in *; try discriminate; [reflexivity |].
  rewrite flat_map_app, links_of, (E 0 h m c) by (repeat split). f_equal.
  apply IH; [congruence | congruence |]. intros i h0 m0 c0 Hu. apply (E (Datatypes.S i) h0 m0 c0 Hu).
Qed.

Lemma heads_cmods : forall fuel main pr, parse_project w fuel main = BOk pr ->
  List.length (pr_cmods pr) = List.length (pr_heads pr).
Proof. intros fuel main pr H. destruct (project_built w _ _ _ H) as [_ [L1 L2] _ _]. congruence. Qed.

Lemma generated_files : forall fuel main pr md5 dir, parse_project w fuel main = BOk pr ->
  (forall p q, In p (map mi_filepath (pr_heads pr)) -> In q (map mi_filepath (pr_heads pr)) -> md5 p = md5 q -> p = q) ->
  let files := write_c99 md5 dir pr in
  NoDup (map (fun f => fst (fst f)) files)
  /\ List.length files = List.length (pr_heads pr)
  /\ forall i h m cm, unit_at pr i h m cm ->
     nth_error files i = Some (dir ++ L "/" ++ md5 (mi_filepath h) ++ L ".c", format_module cm, mi_filepath h).
Proof.
  intros fuel main pr md5 dir H Hmd files. pose proof (heads_cmods _ _ _ H) as Hl.
  destruct (written md5 dir pr Hl) as (W1 & W2 & W3). split; [| split].
  - unfold files. rewrite W1. rewrite <- (map_map mi_filepath (fun p => dir ++ L "/" ++ md5 p ++ L ".c")).
    apply written_nodup; [exact Hmd |]. apply (modules_in_order w _ _ _ H).
  - unfold files. apply (f_equal (@List.length _)) in W1. rewrite !map_length in W1. exact W1.
  - intros i h m cm (H1 & _ & H3). unfold files, write_c99. clear - H1 H3.
    revert i H1 H3. generalize (pr_heads pr) as hs, (pr_cmods pr) as cs.
    induction hs as [| h0 hs IH]; intros [| c cs] [| i] H1 H3; cbn in *; try discriminate.
    + inversion H1; inversion H3; subst. reflexivity.
    + apply IH; assumption.
Qed.
End Files.
