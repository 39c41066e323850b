(** Rune strings: bounded copies and appending. *)
From Coq Require Import Lia.
From Verif Require Import LibBase LibIO LibText LibUtf LibRunes SpecRunes.

Lemma zero_fill_at : forall n d, n <= List.length d -> zero_fill n d = ROk (repeat 0%N n ++ skipn n d).
Proof. induction n as [|n IH]; intros d H; [reflexivity|]. destruct d as [|x d]; [cbn in H; lia|]. cbn [zero_fill]. rewrite IH by (cbn in H; lia). reflexivity. Qed.
(** A copy of at most n runes has n cells: the runes of the string, and zeros if it has fewer. *)
Theorem C118_ncpy_partial : forall s n cells, s <> [] -> rune_string s -> n <= List.length cells ->
  runestrncpy n cells s = ROk (written cells 0 (firstn n s ++ repeat 0%N (n - List.length s))).
Proof.
  assert (G : forall s n cells, s <> [] -> n <= List.length cells -> runestrncpy n cells s = ROk ((firstn n s ++ repeat 0%N (n - List.length s)) ++ skipn n cells)).
  { induction s as [|c s IH]; intros n cells N0 Hn; [congruence|]. destruct n as [|n]; [destruct cells; reflexivity|]. destruct cells as [|x d]; [cbn in Hn; lia|]. cbn in Hn.
    destruct s as [|c2 s].
    - cbn [runestrncpy]. rewrite zero_fill_at by lia. cbn [rbind]. cbn [firstn app List.length skipn]. destruct n; cbn [firstn Nat.sub app]; reflexivity.
    - cbn [runestrncpy]. rewrite (IH n d) by (try discriminate; lia). reflexivity. }
  intros s n cells N0 _ Hn. rewrite (G s n cells N0 Hn). unfold written. cbn [firstn app Nat.add]. f_equal. f_equal. f_equal.
  rewrite app_length, firstn_length, repeat_length. lia.
Qed.
Lemma at_end_at : forall s rest k, rune_string s -> at_end k (s ++ 0%N :: rest) = rbind (k (0%N :: rest)) (fun d => ROk (s ++ d)).
Proof.
  induction s as [|c s IH]; intros rest k H.
  - cbn. destruct (k (0%N :: rest)); reflexivity.
  - cbn [app at_end]. destruct (N.eqb_spec c 0) as [->|]; [destruct H; left; reflexivity|]. rewrite IH by (intros K; apply H; right; exact K). destruct (k (0%N :: rest)); reflexivity.
Qed.
Lemma cpy_at : forall s d, s <> [] -> List.length s <= List.length d -> runestrcpy d s = ROk (s ++ skipn (List.length s) d).
Proof.
  induction s as [|c s IH]; intros d N0 H; [congruence|]. destruct d as [|x d]; [cbn in H; lia|]. destruct s as [|c2 s]; [reflexivity|]. cbn [runestrcpy]. rewrite (IH d) by (try discriminate; cbn in *; lia). reflexivity.
Qed.
Lemma ncat_at : forall s n d, s <> [] -> List.length s <= S n -> List.length s <= List.length d -> ncat_loop n d s = ROk (s ++ skipn (List.length s) d).
Proof.
  induction s as [|c s IH]; intros n d N0 Hn H; [congruence|]. destruct d as [|x d]; [cbn in H; lia|]. destruct s as [|c2 s]; [destruct n; reflexivity|]. destruct n as [|n]; [cbn in Hn; lia|]. cbn [ncat_loop]. rewrite (IH n d) by (try discriminate; cbn in *; lia). reflexivity.
Qed.
Lemma ncat_cut : forall n s d, S n < List.length s -> n < List.length d -> ncat_loop n d s = ROk (firstn n s ++ 0%N :: skipn (S n) d).
Proof.
  induction n as [|n IH]; intros s d Hs Hd; (destruct d as [|x d]; [cbn in Hd; lia|]); (destruct s as [|c [|c2 s]]; [cbn in Hs; lia|cbn in Hs; lia|]); [reflexivity|].
  cbn [ncat_loop]. rewrite (IH (c2 :: s) d) by (cbn in *; lia). reflexivity.
Qed.
Lemma written_at : forall s rest w, written (s ++ rest) (List.length s) w = s ++ w ++ skipn (List.length w) rest.
Proof.
  intros s rest w. unfold written. rewrite firstn_app, Nat.sub_diag, firstn_all, firstn_O, app_nil_r. f_equal. f_equal. rewrite skipn_app. rewrite skipn_all2 by lia. cbn [app]. f_equal. lia.
Qed.
(** Appending writes the second string over the end of the first; the cell behind it stays as it was,
    so that there is a string only if that is zero. *)
Theorem C118_cat_partial : forall cells s1 s2, cells_hold cells s1 -> rune_string s2 -> s2 <> [] -> List.length s1 + List.length s2 < List.length cells ->
  runestrcat cells s2 = ROk (written cells (List.length s1) s2) /\
  (nth (List.length s1 + List.length s2) cells 1%N = 0%N -> cells_hold (written cells (List.length s1) s2) (s1 ++ s2)).
Proof.
  intros cells s1 s2 (R1 & rest & ->) R2 N2 Hl. rewrite app_length in Hl. unfold runestrcat. rewrite at_end_at by exact R1. rewrite cpy_at by (try exact N2; lia). cbn [rbind]. rewrite written_at. split; [reflexivity|].
  intros Hz. split; [intros K; apply in_app_or in K; destruct K; auto|]. rewrite app_nth2_plus in Hz.
  assert (E : exists q, skipn (List.length s2) (0%N :: rest) = 0%N :: q).
  { assert (Hs : List.length s2 < List.length (0%N :: rest)) by lia. revert Hz Hs. generalize (0%N :: rest) as l. generalize (List.length s2) as m. clear. induction m as [|m IH]; intros l Hz Hs; (destruct l as [|x l]; [cbn in Hs; lia|]).
    - cbn in Hz. subst x. exists l. reflexivity.
    - cbn in Hz, Hs |- *. apply IH; [exact Hz|lia]. }
  destruct E as (q & E). exists q. rewrite E, <- app_assoc. reflexivity.
Qed.
(** With a bound n, all of a string of at most n + 1 runes is appended, as above, and of a longer one n
    runes and a zero. *)
Theorem C118_ncat_partial : forall cells s1 s2 n, cells_hold cells s1 -> rune_string s2 -> s2 <> [] ->
  (List.length s2 <= n + 1 -> List.length s1 + List.length s2 <= List.length cells -> runestrncat n cells s2 = ROk (written cells (List.length s1) s2)) /\
  (n + 1 < List.length s2 -> List.length s1 + n < List.length cells -> runestrncat n cells s2 = ROk (written cells (List.length s1) (firstn n s2 ++ [0%N])) /\
     cells_hold (written cells (List.length s1) (firstn n s2 ++ [0%N])) (s1 ++ firstn n s2)).
Proof.
  intros cells s1 s2 n (R1 & rest & ->) R2 N2. unfold runestrncat. rewrite app_length. split; intros H1 H2.
  - rewrite at_end_at by exact R1. rewrite ncat_at by (try exact N2; lia). cbn [rbind]. rewrite written_at. reflexivity.
  - rewrite at_end_at by exact R1. rewrite ncat_cut by lia. cbn [rbind]. rewrite written_at. rewrite app_length, firstn_length, Nat.min_l by lia. cbn [List.length]. rewrite Nat.add_1_r, <- !app_assoc. split; [reflexivity|].
    split; [intros K; apply in_app_or in K; destruct K as [K|K]; [auto|apply R2; rewrite <- (firstn_skipn n s2); apply in_or_app; left; exact K]|]. eexists. rewrite <- app_assoc. reflexivity.
Qed.
Lemma ecpy_all : forall s e d, s <> [] -> List.length s <= e -> e <= List.length d -> ecpy_loop e d s = ROk (s ++ skipn (List.length s) d, List.length s).
Proof.
  induction s as [|c s IH]; intros e d N0 He H; [congruence|]. destruct d as [|x d]; [cbn in *; lia|]. destruct s as [|c2 s]; [destruct e; reflexivity|]. destruct e as [|[|e]]; [cbn in He; lia|cbn in He; lia|]. cbn [ecpy_loop]. rewrite (IH (S e) d) by (try discriminate; cbn in *; lia). reflexivity.
Qed.
Lemma ecpy_cut : forall e s d, S e < List.length s -> S e <= List.length d -> ecpy_loop (S e) d s = ROk (firstn e s ++ 0%N :: skipn (S e) d, e).
Proof.
  induction e as [|e IH]; intros s d Hs Hd; (destruct d as [|x d]; [cbn in Hd; lia|]); (destruct s as [|c [|c2 s]]; [cbn in Hs; lia|cbn in Hs; lia|]); [reflexivity|].
  cbn [ecpy_loop]. rewrite (IH (c2 :: s) d) by (cbn in *; lia). reflexivity.
Qed.
(** A copy up to a given end never goes beyond it: a string that has room is copied as it is, of a longer
    one what has room with a zero; the answer is the place behind the runes copied. *)
Theorem C118_ecpy_partial : forall cells s e, s <> [] -> rune_string s -> e <= List.length cells ->
  runestrecpy e cells s =
    ROk (if e =? 0 then (cells, 0)
         else if List.length s <=? e then (written cells 0 s, List.length s)
         else (written cells 0 (firstn (e - 1) s ++ [0%N]), e - 1)).
Proof.
  intros cells s e N0 _ He. unfold runestrecpy, written. destruct e as [|e]; [reflexivity|]. cbn [Nat.eqb firstn app Nat.add]. destruct (Nat.leb_spec (List.length s) (S e)).
  - apply ecpy_all; assumption.
  - rewrite ecpy_cut by lia. replace (S e - 1) with e by lia. rewrite app_length, firstn_length, Nat.min_l by lia. cbn [List.length]. rewrite Nat.add_1_r, <- app_assoc. reflexivity.
Qed.
(** Nothing ends what is appended, one rune too many can be appended, and an empty string can not be
    copied. *)
Theorem C118_strings_refuted :
  ~ (forall cells s1 s2, cells_hold cells s1 -> rune_string s2 -> List.length s1 + List.length s2 < List.length cells -> exists c, runestrcat cells s2 = ROk c /\ cells_hold c (s1 ++ s2)) /\
  ~ (forall cells s1 s2 n, cells_hold cells s1 -> rune_string s2 -> s2 <> [] -> List.length s1 + n < List.length cells -> exists c, runestrncat n cells s2 = ROk c /\ cells_hold c (s1 ++ firstn n s2)) /\
  ~ (forall cells s n, rune_string s -> n <= List.length cells -> exists c, runestrncpy n cells s = ROk c).
Proof.
  assert (N1 : rune_string [97%N]) by (intros [K|[]]; discriminate).
  split; [|split]; intros H.
  - destruct (H [97; 0; 98; 98]%N [97%N] [97%N]) as (c & E & (_ & rest & K)); [split; [exact N1|eexists; reflexivity]|exact N1|cbn; lia|]. vm_compute in E. injection E as <-. discriminate K.
  - destruct (H [0; 0; 0]%N [] [97; 97]%N 1) as (c & E & (_ & rest & K)); [split; [intros []|eexists; reflexivity]|intros [K|[K|[]]]; discriminate|discriminate|cbn; lia|]. vm_compute in E. injection E as <-. discriminate K.
  - destruct (H [0%N] [] 1) as (c & E); [intros []|cbn; lia|discriminate E].
Qed.
Example C118_example : cells_hold [97; 0; 0; 0; 0]%N [97%N] /\ runestrcat [97; 0; 0; 0; 0]%N [98; 99]%N = ROk [97; 98; 99; 0; 0]%N /\
  runestrncat 1 [97; 0; 7; 7; 7]%N [98; 99; 100]%N = ROk [97; 98; 0; 7; 7]%N /\ runestrncpy 4 [7; 7; 7; 7; 7]%N [98; 99]%N = ROk [98; 99; 0; 0; 7]%N /\
  runestrecpy 2 [7; 7; 7; 7]%N [98; 99; 100]%N = ROk ([98; 0; 7; 7]%N, 1).
Proof. split; [split; [intros [K|[]]; discriminate|eexists; reflexivity]|repeat split]. Qed.

Print Assumptions C118_ncpy_partial.
Print Assumptions C118_cat_partial.
Print Assumptions C118_ncat_partial.
Print Assumptions C118_ecpy_partial.
Print Assumptions C118_strings_refuted.
