(** Searches in rune strings. *)
From Coq Require Import Lia.
From Verif Require Import LibBase LibIO LibText LibUtf LibRuneFind SpecRuneFind.

Lemma chr_head : forall fuel s c o, c <> 0%N -> runestrchr fuel s c = ROk o ->
  (s = [] /\ o = None) \/ (exists r, s = c :: r /\ o = Some 0).
Proof.
  intros fuel s c o Hc. unfold runestrchr. destruct (N.eqb_spec c 0); [contradiction|]. induction fuel as [|fuel IH]; cbn [chr_loop]; intros H; [discriminate|].
  destruct s as [|x s]; [injection H as <-; left; auto|]. destruct (N.eqb_spec x c) as [->|]; [injection H as <-; right; eauto|]. apply IH. exact H.
Qed.
Lemma stands_iff : forall pb pa, stands_at pa pb = true <-> exists b, pa = pb ++ b.
Proof.
  induction pb as [|c pb IH]; intros pa; [split; [intros _; exists pa; reflexivity|destruct pa; reflexivity]|].
  destruct pa as [|x pa]; cbn [stands_at]; [split; [discriminate|intros (b & E); discriminate]|]. destruct (N.eqb_spec c x) as [->|Hn].
  - rewrite IH. split; intros (b & E); exists b; [rewrite E; reflexivity|injection E as E; exact E].
  - split; [discriminate|]. intros (b & E). injection E as E _. congruence.
Qed.
Lemma occ_zero : forall w s, occurs_at w s 0 <-> exists b, s = w ++ b.
Proof. intros w s. split; [intros ([|x a] & b & E & Hl); [exists b; exact E|discriminate]|intros (b & E); exists [], b; auto]. Qed.
Lemma occ_succ : forall w x s k, occurs_at w (x :: s) (S k) <-> occurs_at w s k.
Proof.
  intros w x s k. split; [intros ([|y a] & b & E & Hl); [discriminate|injection E as _ E; injection Hl as Hl; exists a, b; auto]|intros (a & b & E & Hl); exists (x :: a), b; split; [rewrite E; reflexivity|cbn; lia]].
Qed.
Lemma occ_nil : forall c w k, ~ occurs_at (c :: w) [] k.
Proof. intros c w k (a & b & E & _). destruct a; discriminate. Qed.
Lemma strstr_at : forall fuel s at_ c0 w o, c0 <> 0%N -> strstr_loop fuel s at_ c0 w = ROk o ->
  exists o', first_place (c0 :: w) s o' /\ o = option_map (fun k => at_ + k) o'.
Proof.
  induction fuel as [|fuel IH]; intros s at_ c0 w o Hc H; [discriminate|]. cbn [strstr_loop] in H.
  destruct (runestrchr fuel s c0) as [q| | |] eqn:E; cbn [rbind] in H; try discriminate.
  destruct (chr_head _ _ _ _ Hc E) as [(-> & ->)|(r & -> & ->)].
  - injection H as <-. exists None. split; [intros k; apply occ_nil|reflexivity].
  - cbn [skipn] in H. destruct (stands_at r w) eqn:Es.
    + injection H as <-. exists (Some 0). split; [|reflexivity]. apply stands_iff in Es. destruct Es as (b & ->). split; [apply occ_zero; exists b; reflexivity|intros j Hj; lia].
    + assert (N0 : ~ occurs_at (c0 :: w) (c0 :: r) 0).
      { intros K. apply occ_zero in K. destruct K as (b & K). injection K as K. assert (T : stands_at r w = true) by (apply stands_iff; exists b; exact K). congruence. }
      destruct (IH _ _ _ _ _ Hc H) as (o' & Ho & ->). exists (option_map S o'). destruct o' as [k|]; cbn [option_map first_place] in *.
      * split; [|f_equal; lia]. destruct Ho as (H1 & H2). split; [apply occ_succ; exact H1|]. intros [|j] Hj; [exact N0|rewrite occ_succ; apply H2; lia].
      * split; [|reflexivity]. intros [|k]; [exact N0|rewrite occ_succ; apply Ho].
Qed.
(** If the search for a string gives an answer, it is the first place at which the string stands. *)
Theorem C119_find_partial : forall fuel s1 s2 o, ~ In 0%N s2 -> runestrstr fuel s1 s2 = ROk o -> first_place s2 s1 o.
Proof.
  intros fuel s1 s2 o Hz H. destruct s2 as [|c0 w].
  - injection H as <-. split; [apply occ_zero; exists s1; reflexivity|intros j Hj; lia].
  - destruct (strstr_at fuel s1 0 c0 w o) as (o' & Ho & ->); [intros ->; apply Hz; left; reflexivity|exact H|]. destruct o'; exact Ho.
Qed.
Lemma chr_here : forall fuel s c, c <> 0%N -> runestrchr (S fuel) (c :: s) c = ROk (Some 0).
Proof. intros fuel s c Hc. unfold runestrchr. destruct (N.eqb_spec c 0); [contradiction|]. cbn [chr_loop]. rewrite N.eqb_refl. reflexivity. Qed.
(** An answer comes if only the first rune of the string is met before the place. *)
Theorem C119_finds_partial : forall c w b k, c <> 0%N -> exists fuel o, runestrstr fuel (repeat c k ++ (c :: w) ++ b) (c :: w) = ROk (Some o).
Proof.
  intros c w b k Hc. exists (S (S k)). unfold runestrstr. generalize 0 as at_. induction k as [|k IH]; intros at_.
  - exists (at_ + 0). cbn [repeat app]. change (strstr_loop 2 (c :: w ++ b) at_ c w) with
      (rbind (runestrchr 1 (c :: w ++ b) c) (fun o => match o with None => ROk None | Some k => match skipn k (c :: w ++ b) with [] => RUndefined | _ :: pa => if stands_at pa w then ROk (Some (at_ + k)) else strstr_loop 1 pa (at_ + k + 1) c w end end)).
    rewrite chr_here by exact Hc. cbn [rbind skipn]. assert (T : stands_at (w ++ b) w = true) by (apply stands_iff; exists b; reflexivity). rewrite T. reflexivity.
  - set (rest := repeat c k ++ (c :: w) ++ b) in *. change (repeat c (S k) ++ (c :: w) ++ b) with (c :: rest).
    change (exists o, rbind (runestrchr (S (S k)) (c :: rest) c) (fun o => match o with None => ROk None | Some j => match skipn j (c :: rest) with [] => RUndefined | _ :: pa => if stands_at pa w then ROk (Some (at_ + j)) else strstr_loop (S (S k)) pa (at_ + j + 1) c w end end) = ROk (Some o)).
    rewrite chr_here by exact Hc. cbn [rbind skipn]. destruct (stands_at rest w); [eexists; reflexivity|apply IH].
Qed.
Lemma rrchr_at : forall fuel s at_ c r o, c <> 0%N -> rrchr_loop fuel s at_ c r = ROk o ->
  Forall (eq c) s /\ o = match s with [] => r | _ :: q => Some (at_ + List.length q) end.
Proof.
  induction fuel as [|fuel IH]; intros s at_ c r o Hc H; [discriminate|]. cbn [rrchr_loop] in H.
  destruct (runestrchr fuel s c) as [q| | |] eqn:E; cbn [rbind] in H; try discriminate.
  destruct (chr_head _ _ _ _ Hc E) as [(-> & ->)|(t & -> & ->)]; [injection H as <-; split; [constructor|reflexivity]|].
  cbn [skipn] in H. destruct (IH _ _ _ _ _ Hc H) as (Hf & ->). split; [constructor; [reflexivity|exact Hf]|]. destruct t; cbn [List.length]; f_equal; lia.
Qed.
Lemma rrchr_ends : forall s at_ c r, c <> 0%N -> Forall (eq c) s -> exists o, rrchr_loop (S (S (List.length s))) s at_ c r = ROk o.
Proof.
  induction s as [|x s IH]; intros at_ c r Hc Hf.
  - exists r. cbn. unfold runestrchr. destruct (N.eqb_spec c 0); [contradiction|reflexivity].
  - pose proof (Forall_inv Hf) as Hx. pose proof (Forall_inv_tail Hf) as Hf'. subst x. destruct (IH (at_ + 0 + 1) c (Some (at_ + 0)) Hc Hf') as (o & Ho). exists o.
    change (rrchr_loop (S (S (List.length (c :: s)))) (c :: s) at_ c r) with
      (rbind (runestrchr (S (S (List.length s))) (c :: s) c) (fun o => match o with None => ROk r | Some k => rrchr_loop (S (S (List.length s))) (skipn (S k) (c :: s)) (at_ + k + 1) c (Some (at_ + k)) end)).
    assert (E : runestrchr (S (S (List.length s))) (c :: s) c = ROk (Some 0)) by (unfold runestrchr; destruct (N.eqb_spec c 0); [contradiction|]; cbn [chr_loop]; rewrite N.eqb_refl; reflexivity).
    rewrite E. cbn [rbind skipn]. exact Ho.
Qed.
Lemma occ_one : forall c s k, occurs_at [c] s k -> k < List.length s /\ In c s.
Proof. intros c s k (a & b & -> & <-). rewrite !app_length. cbn. split; [lia|apply in_or_app; right; left; reflexivity]. Qed.
(** The search for the last place of a rune answers exactly for strings of only this rune, and then
    rightly. *)
Theorem C119_last_partial : forall s c, c <> 0%N ->
  (forall fuel o, runestrrchr fuel s c = ROk o -> last_place [c] s o) /\
  ((exists fuel o, runestrrchr fuel s c = ROk o) <-> Forall (eq c) s).
Proof.
  intros s c Hc. unfold runestrrchr. destruct (N.eqb_spec c 0); [contradiction|]. split; [|split].
  - intros fuel o H. apply rrchr_at in H; [|exact Hc]. destruct H as (Hf & ->). destruct s as [|x q]; [intros k; apply occ_nil|]. cbn [Nat.add last_place]. split.
    + assert (G : forall q x, Forall (eq c) (x :: q) -> occurs_at [c] (x :: q) (List.length q)).
      { clear. induction q as [|y q IH]; intros x Hf; pose proof (Forall_inv Hf) as Hx; pose proof (Forall_inv_tail Hf) as Hf'; subst x; [exists [], []; auto|]. cbn [List.length]. apply occ_succ. apply IH. exact Hf'. }
      apply G. exact Hf.
    + intros j Hj K. apply occ_one in K. cbn in K. lia.
  - intros (fuel & o & H). apply rrchr_at in H; [tauto|exact Hc].
  - intros Hf. eexists. apply rrchr_ends; assumption.
Qed.
(** No answer ever comes for a string in which the search meets another rune first. *)
Lemma chr_stuck : forall fuel x s c, c <> 0%N -> x <> c -> runestrchr fuel (x :: s) c = RFuel.
Proof.
  intros fuel x s c Hc Hx. unfold runestrchr. destruct (N.eqb_spec c 0); [contradiction|]. induction fuel as [|fuel IH]; [reflexivity|]. cbn [chr_loop]. destruct (N.eqb_spec x c); [contradiction|exact IH].
Qed.
Theorem C119_stuck_refuted : forall x s c w, c <> 0%N -> x <> c ->
  (forall fuel, runestrrchr fuel (x :: s) c = RFuel) /\ (forall fuel, runestrstr fuel (x :: s) (c :: w) = RFuel).
Proof.
  intros x s c w Hc Hx. unfold runestrrchr, runestrstr. destruct (N.eqb_spec c 0); [contradiction|].
  split; intros [|fuel]; try reflexivity; cbn [rrchr_loop strstr_loop]; rewrite chr_stuck by assumption; reflexivity.
Qed.
Example C119_example : runestrstr 9 [97; 97; 98]%N [97; 98]%N = ROk (Some 1) /\ runestrrchr 9 [97; 97]%N 97%N = ROk (Some 1) /\ runestrstr 9 [97; 97]%N [97; 98]%N = ROk None /\
  first_place [97; 98]%N [97; 97; 98]%N (Some 1).
Proof. split; [reflexivity|split; [reflexivity|split; [reflexivity|]]]. apply (C119_find_partial 9); [intros [K|[K|[]]]; discriminate|reflexivity]. Qed.

Print Assumptions C119_find_partial.
Print Assumptions C119_finds_partial.
Print Assumptions C119_last_partial.
Print Assumptions C119_stuck_refuted.
