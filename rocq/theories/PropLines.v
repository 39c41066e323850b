(** C92: lib/linereader.  C93: lib/strbuilder.  C94: lib/clip/stringtable. *)
From Coq Require Import ZArith NArith Lia.
From Verif Require Import LibBase LibIO LibText LibLines SpecLines ClipFacts.

(** * linereader *)

(** [n] calls of [read], and the line when the answer is true. *)
Fixpoint read_times (n : nat) (b : lr) : bres (list (option bytes)) :=
  match n with
  | O => ROk []
  | S n => rbind (lr_read b) (fun '(ok, b) =>
           rbind (read_times n b) (fun l => ROk ((if ok : bool then Some (lr_line b) else None) :: l)))
  end.

Definition room (buf : bytes) (size : N) : Prop := (N.of_nat (List.length buf) + 1 <= size)%N.

Lemma lr_put_ok : forall size buf c, room buf size -> lr_put size buf c = ROk (buf ++ [c]).
Proof. intros size buf c H. unfold lr_put, room in *. destruct (N.ltb_spec (N.of_nat (List.length buf)) size); [reflexivity|lia]. Qed.

Lemma grown : forall buf size, room buf size ->
  (N.of_nat (List.length buf) + 2 <= if size <? N.of_nat (List.length buf) + 2 then size * 2 else size)%N.
Proof. intros buf size H. unfold room in H. destruct (N.ltb_spec size (N.of_nat (List.length buf) + 2)); lia. Qed.

Lemma loop_line : forall l s buf size, ~ In 10%N l -> ~ In 255%N l -> room buf size ->
  exists size', room (buf ++ l) size' /\ lr_loop (l ++ s) buf size = lr_loop s (buf ++ l) size'.
Proof.
  induction l as [|c l IH]; intros s buf size H1 H2 Hr.
  - exists size. rewrite app_nil_r. split; [exact Hr|reflexivity].
  - cbn [app lr_loop]. destruct (N.eqb_spec c 255) as [->|_]; [exfalso; apply H2; left; reflexivity|].
    pose proof (grown buf size Hr) as G. revert G. generalize (if (size <? N.of_nat (List.length buf) + 2)%N then (size * 2)%N else size).
    intros size1 G. rewrite lr_put_ok by (unfold room; lia). cbn [rbind].
    destruct (N.eqb_spec c 10) as [->|_]; [exfalso; apply H1; left; reflexivity|].
    destruct (IH s (buf ++ [c]) size1) as (size2 & A & B).
    + intros X. apply H1. right. exact X.
    + intros X. apply H2. right. exact X.
    + unfold room. rewrite app_length. cbn [List.length]. lia.
    + exists size2. rewrite <- app_assoc in A, B. split; assumption.
Qed.

Lemma ended_nothing : forall n b, lr_ended b = true -> read_times n b = ROk (in_turn n []).
Proof. induction n as [|n IH]; intros b H; [reflexivity|]. cbn [read_times in_turn]. unfold lr_read. rewrite H. cbn [rbind]. rewrite (IH b H). reflexivity. Qed.

(** The text ends at the end of the file or at a byte 255. *)
Lemma reads_lines : forall a ls e, text_lines a ls -> ~ In 255%N a -> e = [] \/ (exists b, e = 255%N :: b) ->
  forall n buf size, (1 <= size)%N -> read_times n (mkLr (a ++ e) buf size false) = ROk (in_turn n ls).
Proof.
  intros a ls e H. induction H as [|l Hne Hl|l s ls Hl Hs IH]; intros Hf He n buf size Hsz.
  - destruct n as [|n]; [reflexivity|]. cbn [read_times in_turn app]. unfold lr_read. cbn [lr_ended lr_file lr_size].
    assert (E : exists f, lr_loop e [] size = ROk (f, [], size, true)).
    { destruct He as [->|[b ->]]; eexists; reflexivity. }
    destruct E as [f ->]. cbn [rbind]. rewrite lr_put_ok by (unfold room; cbn [List.length]; lia). cbn [rbind List.length Nat.ltb Nat.leb].
    rewrite ended_nothing by reflexivity. reflexivity.
  - destruct n as [|n]; [reflexivity|]. cbn [read_times in_turn]. unfold lr_read. cbn [lr_ended lr_file lr_size].
    destruct (loop_line l e [] size Hl Hf ltac:(unfold room; cbn [List.length]; lia)) as (size' & R & ->). cbn [app] in *.
    assert (E : exists f, lr_loop e l size' = ROk (f, l, size', true)).
    { destruct He as [->|[b ->]]; eexists; reflexivity. }
    destruct E as [f ->]. cbn [rbind]. rewrite lr_put_ok by exact R. cbn [rbind].
    destruct l as [|c l]; [congruence|]. cbn [List.length Nat.ltb Nat.leb]. rewrite ended_nothing by reflexivity. reflexivity.
  - destruct n as [|n]; [reflexivity|]. cbn [read_times in_turn]. unfold lr_read. cbn [lr_ended lr_file lr_size].
    assert (H1 : ~ In 255%N l) by (intros X; apply Hf, in_or_app; left; exact X).
    assert (H2 : ~ In 255%N s) by (intros X; apply Hf, in_or_app; right; right; exact X).
    rewrite <- !app_assoc.
    destruct (loop_line l ([10%N] ++ s ++ e) [] size Hl H1 ltac:(unfold room; cbn [List.length]; lia)) as (size' & R & ->). cbn [app lr_loop N.eqb Pos.eqb] in *.
    pose proof (grown l size' R) as G. revert G. generalize (if (size' <? N.of_nat (List.length l) + 2)%N then (size' * 2)%N else size').
    intros size1 G. rewrite lr_put_ok by (unfold room; lia). cbn [rbind].
    rewrite lr_put_ok by (unfold room; rewrite app_length; cbn [List.length]; lia). cbn [rbind].
    rewrite (IH H2 He n (l ++ [10%N]) size1 ltac:(lia)). cbn [rbind].
    replace (Nat.ltb 0 (List.length (l ++ [10%N]))) with true; [reflexivity|]. rewrite app_length. cbn [List.length].
    symmetry. apply Nat.ltb_lt. lia.
Qed.

(** Every text has lines. *)
Theorem C92_lines_exist : forall s, exists ls, text_lines s ls.
Proof.
  intros s. enough (G : forall s l, ~ In 10%N l -> exists ls, text_lines (l ++ s) ls) by (apply (G s []); intros []).
  clear s. induction s as [|c s IH]; intros l Hl.
  - rewrite app_nil_r. destruct l as [|c l]; [exists []; constructor|]. exists [c :: l]. constructor; [discriminate|exact Hl].
  - destruct (N.eq_dec c 10) as [->|Hc].
    + destruct (IH [] ltac:(intros [])) as [ls H]. exists ((l ++ [10%N]) :: ls). apply (a_line l s ls Hl H).
    + destruct (IH (l ++ [c])) as [ls H].
      { intros X. apply in_app_or in X. destruct X as [X|[X|[]]]; [exact (Hl X)|congruence]. }
      exists ls. rewrite <- app_assoc in H. exact H.
Qed.

(** The lines of a file without bytes 255 are read one after the other, of any length;
    then there is nothing more. *)
Theorem C92_lines_partial : forall file ls, text_lines file ls -> ~ In 255%N file ->
  forall n, read_times n (lr_new file) = ROk (in_turn n ls).
Proof.
  intros file ls H H2 n. unfold lr_new. rewrite <- (app_nil_r file). apply reads_lines; [exact H|exact H2|left; reflexivity|lia].
Qed.
Example C92_lines_case : text_lines (L "ab" ++ [10; 10]%N ++ L "c") [L "ab" ++ [10%N]; [10%N]; L "c"] /\
  read_times 4 (lr_new (L "ab" ++ [10; 10]%N ++ L "c")) = ROk [Some (L "ab" ++ [10%N]); Some [10%N]; Some (L "c"); None].
Proof.
  split; [|reflexivity]. apply (a_line (L "ab") ([10%N] ++ L "c")); [intros [H|[H|[]]]; discriminate|].
  apply (a_line [] (L "c")); [intros []|]. apply last_line; [discriminate|intros [H|[]]; discriminate].
Qed.

(** A byte 255 is taken for the end: whatever follows it is never read. *)
Theorem C92_byte_255_refuted : forall a ls rest, text_lines a ls -> ~ In 255%N a ->
  forall n, read_times n (lr_new (a ++ [255%N] ++ rest)) = ROk (in_turn n ls).
Proof. intros a ls rest H H2 n. unfold lr_new. apply reads_lines; [exact H|exact H2|right; exists rest; reflexivity|lia]. Qed.
Example C92_byte_255_case : read_times 3 (lr_new (L "a" ++ [255%N] ++ L "b" ++ [10%N] ++ L "c")) = ROk [Some (L "a"); None; None].
Proof. reflexivity. Qed.

(** * strbuilder *)

Fixpoint build (alloc : N -> bool) (ps : list piece) (s : sb) : bres (list bool * sb) :=
  match ps with
  | [] => ROk ([], s)
  | p :: r =>
      rbind (match p with
             | Byte c => sb_addc alloc s (Z.of_N c)
             | Text t => sb_adds alloc s t
             | Formatted t => sb_addf alloc s t
             | Anew => ROk (true, sb_clear s)
             end) (fun '(ok, s) => rbind (build alloc r s) (fun '(l, s) => ROk (ok :: l, s)))
  end.

(** The cells: the text, then zeros. *)
Definition has (s : sb) (t : bytes) : Prop :=
  sb_len s = List.length t /\ ((sb_data s = [] /\ t = []) \/ exists k, sb_data s = t ++ repeat 0%N (S k)).

Lemma firstn_exact : forall (a b : bytes), firstn (List.length a) (a ++ b) = a.
Proof. intros a b. rewrite firstn_app, Nat.sub_diag, firstn_all. apply app_nil_r. Qed.
Lemma skipn_exact : forall (a b : bytes), skipn (List.length a) (a ++ b) = b.
Proof. intros a b. rewrite skipn_app, Nat.sub_diag, skipn_all. reflexivity. Qed.

Lemma addc_step : forall alloc s t c, (c < 256)%N -> has s t ->
  (exists s', sb_addc alloc s (Z.of_N c) = ROk (true, s') /\ has s' (t ++ [c]) /\ sb_err s = false /\ sb_err s' = false) \/
  (exists s', sb_addc alloc s (Z.of_N c) = ROk (false, s') /\ has s' t /\ sb_err s' = true /\
     (sb_err s = true \/ (size_max / 2 < N.of_nat (List.length t) + 1)%N \/ exists n, alloc n = false)).
Proof.
  intros alloc [d n err] t c Hc [Hn Hd]. cbn [sb_len sb_data sb_err] in *. subst n. unfold sb_addc. cbn [sb_err sb_len sb_data].
  destruct err.
  { right. eexists. split; [reflexivity|]. split; [split; [reflexivity|exact Hd]|]. split; [reflexivity|]. left. reflexivity. }
  assert (Hz : Z.to_N (Z.of_N c mod 256) = c) by (rewrite Z.mod_small by lia; apply N2Z.id). rewrite Hz. clear Hz.
  (* writing where two zeros at least are left *)
  assert (W : forall k, exists s',
    (if Nat.ltb (List.length t) (List.length (t ++ repeat 0%N (S (S k))))
     then ROk (true, mkSb (firstn (List.length t) (t ++ repeat 0%N (S (S k))) ++ [c] ++ skipn (S (List.length t)) (t ++ repeat 0%N (S (S k)))) (S (List.length t)) false)
     else RUndefined) = ROk (true, s') /\ has s' (t ++ [c]) /\ sb_err s' = false).
  { intros k. rewrite app_length, repeat_length. destruct (Nat.ltb_spec (List.length t) (List.length t + S (S k))); [|lia].
    eexists. split; [reflexivity|]. split; [|reflexivity]. split; [cbn [sb_len]; rewrite app_length; cbn [List.length]; lia|].
    right. exists k. cbn [sb_data]. rewrite firstn_exact, <- app_assoc. f_equal. cbn [app]. f_equal.
    replace (t ++ repeat 0%N (S (S k))) with ((t ++ [0%N]) ++ repeat 0%N (S k)) by (rewrite <- app_assoc; reflexivity).
    replace (S (List.length t)) with (List.length (t ++ [0%N])) by (rewrite app_length; cbn [List.length]; lia). apply skipn_exact. }
  destruct Hd as [[-> ->]|[k ->]].
  - cbn [List.length plus Nat.leb]. unfold sb_grow. cbn [sb_data sb_len sb_err List.length].
    change (size_max / 2 <? N.of_nat 0)%N with false. change (N.of_nat 0 =? 0)%N with true. cbv iota.
    destruct (alloc 16%N) eqn:Ea.
    + left. destruct (W 14) as (s' & E & A & B). exists s'. change (firstn 0 [] ++ repeat 0%N (N.to_nat 16 - 0)) with ([] ++ repeat 0%N (S (S 14))).
      cbn [sb_len sb_data sb_err]. split; [exact E|]. split; [exact A|]. split; [reflexivity|exact B].
    + right. eexists. split; [reflexivity|]. split; [split; [reflexivity|left; split; reflexivity]|]. split; [reflexivity|].
      right. right. exists 16%N. exact Ea.
  - rewrite app_length, repeat_length. destruct (Nat.leb_spec (List.length t + S k) (List.length t + 1)) as [Hl|Hl].
    + assert (k = 0) by lia. subst k. unfold sb_grow. cbn [sb_data sb_len sb_err]. rewrite app_length, repeat_length.
      destruct (N.ltb_spec (size_max / 2) (N.of_nat (List.length t + 1))) as [Hm|Hm].
      * right. eexists. split; [reflexivity|]. split; [split; [reflexivity|right; exists 0; reflexivity]|]. split; [reflexivity|].
        right. left. lia.
      * destruct (N.eqb_spec (N.of_nat (List.length t + 1)) 0); [lia|].
        destruct (alloc (N.of_nat (List.length t + 1) * 2)%N) eqn:Ea.
        -- left. rewrite firstn_exact. replace (N.to_nat (N.of_nat (List.length t + 1) * 2) - List.length t) with (S (S (List.length t))) by lia.
           cbn [sb_len sb_data sb_err]. destruct (W (List.length t)) as (s' & E & A & B). exists s'. split; [exact E|]. split; [exact A|]. split; [reflexivity|exact B].
        -- right. eexists. split; [reflexivity|]. split; [split; [reflexivity|right; exists 0; reflexivity]|]. split; [reflexivity|].
           right. right. eexists. exact Ea.
    + left. destruct k as [|k]; [lia|]. destruct (W k) as (s' & E & A & B). cbn [sb_len sb_data sb_err]. 
      exists s'. split; [rewrite app_length, repeat_length in E; exact E|]. split; [exact A|]. split; [reflexivity|exact B].
Qed.

(** What adding may do: all of it, or a part and the error. *)
Lemma chars_step : forall alloc x s t, Forall is_byte x -> has s t -> sb_err s = false ->
  (exists s', sb_chars alloc s x = ROk (true, s') /\ has s' (t ++ x) /\ sb_err s' = false) \/
  (exists s' y z, sb_chars alloc s x = ROk (false, s') /\ x = y ++ z /\ z <> [] /\ has s' (t ++ y) /\ sb_err s' = true /\
     ((size_max / 2 < N.of_nat (List.length t + List.length x))%N \/ exists n, alloc n = false)).
Proof.
  intros alloc. induction x as [|c x IH]; intros s t Hb H He; cbn [sb_chars].
  - left. exists s. rewrite app_nil_r. split; [reflexivity|]. split; assumption.
  - inversion Hb as [|? ? Hc Hb']; subst. destruct (addc_step alloc s t c Hc H) as [(s1 & -> & H1 & _ & E1)|(s1 & -> & H1 & E1 & W)]; cbn [rbind].
    + destruct (IH s1 (t ++ [c]) Hb' H1 E1) as [(s2 & -> & H2 & E2)|(s2 & y & z & -> & -> & Hz & H2 & E2 & W)].
      * left. exists s2. rewrite <- app_assoc in H2. split; [reflexivity|]. split; assumption.
      * right. exists s2, (c :: y), z. rewrite <- app_assoc in H2. split; [reflexivity|]. split; [reflexivity|]. split; [exact Hz|].
        split; [exact H2|]. split; [exact E2|]. destruct W as [W|W]; [left|right; exact W]. rewrite app_length in W. cbn [List.length] in *. lia.
    + right. exists s1, [], (c :: x). rewrite app_nil_r. split; [reflexivity|]. split; [reflexivity|]. split; [discriminate|].
      split; [exact H1|]. split; [exact E1|]. destruct W as [W|[W|W]]; [congruence|left|right; exact W]. cbn [List.length]. lia.
Qed.

Lemma clear_has : forall s t, has s t -> has (sb_clear s) [].
Proof.
  intros [d n err] t [Hn Hd]. cbn [sb_len sb_data] in *. unfold sb_clear. cbn [sb_len sb_data sb_err].
  destruct (Nat.eqb_spec n 0) as [E|E].
  - split; [exact E|]. cbn [sb_data]. assert (t = []) as -> by (destruct t; [reflexivity|rewrite E in Hn; discriminate]). destruct Hd as [[-> _]|[k ->]]; [left; split; reflexivity|right; exists k; reflexivity].
  - split; [reflexivity|]. cbn [sb_data]. destruct Hd as [[-> ->]|[k ->]]; [exfalso; apply E; exact Hn|]. right.
    subst n. rewrite skipn_exact, <- repeat_app. exists (List.length t + k). cbn [app]. f_equal. apply Nat.add_succ_r.
Qed.
Lemma clear_err : forall s, sb_err (sb_clear s) = sb_err s.
Proof. intros s. unfold sb_clear. destruct (Nat.eqb _ _); reflexivity. Qed.

Definition piece_ok (p : piece) : Prop :=
  match p with Byte c => is_byte c | Text t => Forall is_byte t | Formatted t => Forall is_byte t | Anew => True end.
Definition short (p : piece) : Prop := match p with Formatted t => List.length t <= N.to_nat 999 | _ => True end.

(** What the user sees of the text. *)
Definition shows (s : sb) (t : bytes) : Prop :=
  sb_size s = List.length t /\ match sb_raw s with Some cells => c_string cells t | None => t = [] end.
Lemma has_shows : forall s t, has s t -> shows s t.
Proof.
  intros s t [Hn Hd]. split; [exact Hn|]. unfold sb_raw. destruct Hd as [[-> ->]|[k E]]; [reflexivity|].
  destruct (sb_data s) as [|x d] eqn:Ed; [destruct t; discriminate|]. exists (repeat 0%N k). exact E.
Qed.

(** As long as there is memory, the builder holds what has been put into it, as a C string
    and its length. *)
Theorem C93_text_partial : forall alloc, (forall n, alloc n = true) ->
  forall ps, Forall piece_ok ps -> Forall short ps -> (amount ps < size_max / 2)%N ->
  exists s, build alloc ps sb_new = ROk (List.map (fun _ => true) ps, s) /\ shows s (built ps []).
Proof.
  intros alloc Ha ps Hok Hsh Ham.
  enough (G : forall ps s t, Forall piece_ok ps -> Forall short ps -> has s t -> sb_err s = false ->
    (N.of_nat (List.length t) + amount ps < size_max / 2)%N ->
    exists s', build alloc ps s = ROk (List.map (fun _ => true) ps, s') /\ has s' (built ps t)).
  { destruct (G ps sb_new [] Hok Hsh) as (s' & E & H); [split; [reflexivity|left; split; reflexivity]|reflexivity|exact Ham|].
    exists s'. split; [exact E|apply has_shows, H]. }
  clear ps Hok Hsh Ham. induction ps as [|p ps IH]; intros s t Hok Hsh H He Hl.
  { exists s. split; [reflexivity|exact H]. }
  inversion Hok as [|? ? Hp Hok']; subst. inversion Hsh as [|? ? Hs Hsh']; subst. cbn [build List.map built].
  unfold amount in Hl. cbn [fold_right] in Hl. fold (amount ps) in Hl.
  assert (C : forall x, Forall is_byte x -> (N.of_nat (List.length t) + N.of_nat (List.length x) + amount ps < size_max / 2)%N ->
    exists s', rbind (sb_chars alloc s x) (fun '(ok, s) => rbind (build alloc ps s) (fun '(l, s) => ROk (ok :: l, s)))
               = ROk (true :: List.map (fun _ => true) ps, s') /\ has s' (built ps (t ++ x))).
  { intros x Hx Hlx. destruct (chars_step alloc x s t Hx H He) as [(s1 & -> & H1 & E1)|(s1 & y & z & _ & _ & _ & _ & _ & [W|[n W]])].
    - cbn [rbind]. destruct (IH s1 (t ++ x) Hok' Hsh' H1 E1) as (s2 & -> & H2); [rewrite app_length; lia|].
      cbn [rbind]. exists s2. split; [reflexivity|exact H2].
    - lia.
    - rewrite Ha in W. discriminate. }
  destruct p as [c|x|x|].
  - cbn [piece_ok] in Hp. destruct (addc_step alloc s t c Hp H) as [(s1 & -> & H1 & _ & E1)|(s1 & _ & _ & _ & [W|[W|[n W]]])].
    + cbn [rbind]. destruct (IH s1 (t ++ [c]) Hok' Hsh' H1 E1) as (s2 & -> & H2); [rewrite app_length; cbn [List.length]; lia|].
      cbn [rbind]. exists s2. split; [reflexivity|exact H2].
    + congruence.
    + lia.
    + rewrite Ha in W. discriminate.
  - unfold sb_adds. rewrite He. apply C; [exact Hp|lia].
  - unfold sb_addf, sb_adds. rewrite He. cbn [short] in Hs. rewrite firstn_all2 by exact Hs. apply C; [exact Hp|lia].
  - cbn [rbind]. destruct (IH (sb_clear s) [] Hok' Hsh' (clear_has s t H)) as (s2 & -> & H2).
    + rewrite clear_err. exact He.
    + cbn [List.length]. lia.
    + cbn [rbind]. exists s2. split; [reflexivity|exact H2].
Qed.
Definition seen (r : bres (list bool * sb)) : option (list bool * nat * option bytes) :=
  match r with ROk (l, s) => Some (l, sb_size s, sb_raw s) | _ => None end.
Example C93_text_case :
  seen (build (fun _ => true) [Text (L "abc"); Anew; Text (repeat 97%N 20); Byte 98%N; Formatted (L "1")] sb_new)
  = Some ([true; true; true; true; true], 22, Some (repeat 97%N 20 ++ L "b1" ++ repeat 0%N 10)).
Proof. vm_compute. reflexivity. Qed.

(** Of a longer formatted text only the first 999 bytes are added; the answer is still
    true. *)
Theorem C93_format_refuted : forall t, Forall is_byte t -> N.to_nat 999 < List.length t ->
  exists s, build (fun _ => true) [Formatted t] sb_new = ROk ([true], s) /\ shows s (firstn (N.to_nat 999) t) /\ ~ shows s t.
Proof.
  intros t Ht Hl. cbn [build]. unfold sb_addf, sb_adds. change (sb_err sb_new) with false. cbv iota.
  assert (Ht' : Forall is_byte (firstn (N.to_nat 999) t)).
  { apply Forall_forall. intros c H. rewrite Forall_forall in Ht. apply Ht. rewrite <- (firstn_skipn (N.to_nat 999) t). apply in_or_app. left. exact H. }
  destruct (chars_step (fun _ => true) _ sb_new [] Ht' ltac:(split; [reflexivity|left; split; reflexivity]) eq_refl)
    as [(s1 & E & H1 & E1)|(s1 & y & z & _ & _ & _ & _ & _ & [W|[n W]])].
  - rewrite E. cbn [rbind]. exists s1. split; [reflexivity|]. cbn [app] in H1. split; [apply has_shows, H1|].
    intros [A _]. apply has_shows in H1. destruct H1 as [B _]. rewrite B in A. rewrite firstn_length in A. lia.
  - exfalso. rewrite firstn_length in W. cbn [List.length plus] in W. revert W. rewrite N.lt_nge. intros W. apply W.
    apply (N.le_trans _ 999%N); [|vm_compute; discriminate]. lia.
  - discriminate.
Qed.
Example C93_format_case : Forall is_byte (repeat 97%N (N.to_nat 1000)) /\ N.to_nat 999 < List.length (repeat 97%N (N.to_nat 1000)).
Proof. split; [|rewrite repeat_length; lia]. apply Forall_forall. intros c H. apply repeat_spec in H. subst c. reflexivity. Qed.

(** The text of a builder to which nothing was added is the null pointer, not a string. *)
Theorem C93_null_refuted : sb_raw sb_new = None /\
  exists s, build (fun _ => true) [Text []] sb_new = ROk ([true], s) /\ sb_raw s = None.
Proof. split; [reflexivity|]. exists sb_new. split; reflexivity. Qed.

(** Whatever memory there is: nothing is ever written outside of the buffer, the builder
    holds a C string and its length; once an addition has failed, all further ones fail
    and change nothing. *)
Theorem C93_failure : forall alloc ps, Forall piece_ok ps ->
  exists l s, build alloc ps sb_new = ROk (l, s) /\ List.length l = List.length ps /\ (exists t, shows s t) /\
    (In false l -> forall p, p <> Anew -> build alloc [p] s = ROk ([false], s)).
Proof.
  intros alloc ps Hok.
  enough (G : forall ps s t, Forall piece_ok ps -> has s t ->
    exists l s', build alloc ps s = ROk (l, s') /\ List.length l = List.length ps /\ (exists t', has s' t') /\
      ((sb_err s = true \/ In false l) -> sb_err s' = true)).
  { destruct (G ps sb_new [] Hok) as (l & s & E & A & (t & B) & C); [split; [reflexivity|left; split; reflexivity]|].
    exists l, s. split; [exact E|]. split; [exact A|]. split; [exists t; apply has_shows, B|].
    intros Hin p Hp. pose proof (C (or_intror Hin)) as He. cbn [build].
    destruct p; [unfold sb_addc|unfold sb_adds|unfold sb_addf|congruence]; rewrite He; reflexivity. }
  clear ps Hok. induction ps as [|p ps IH]; intros s t Hok H.
  { exists [], s. split; [reflexivity|]. split; [reflexivity|]. split; [exists t; exact H|]. intros [X|[]]. exact X. }
  inversion Hok as [|? ? Hp Hok']; subst. cbn [build].
  assert (S : exists ok s1, (match p with
             | Byte c => sb_addc alloc s (Z.of_N c)
             | Text t => sb_adds alloc s t
             | Formatted t => sb_addf alloc s t
             | Anew => ROk (true, sb_clear s)
             end) = ROk (ok, s1) /\ (exists t1, has s1 t1) /\ ((sb_err s = true \/ ok = false) -> sb_err s1 = true)).
  { assert (C : forall x, Forall is_byte x -> exists ok s1, sb_adds alloc s x = ROk (ok, s1) /\ (exists t1, has s1 t1) /\
       ((sb_err s = true \/ ok = false) -> sb_err s1 = true)).
    { intros x Hx. unfold sb_adds. destruct (sb_err s) eqn:He.
      - exists false, s. split; [reflexivity|]. split; [exists t; exact H|]. intros _. exact He.
      - destruct (chars_step alloc x s t Hx H He) as [(s1 & -> & H1 & E1)|(s1 & y & z & -> & _ & _ & H1 & E1 & _)].
        + exists true, s1. split; [reflexivity|]. split; [eexists; exact H1|]. intros [X|X]; discriminate.
        + exists false, s1. split; [reflexivity|]. split; [eexists; exact H1|]. intros _. exact E1. }
    destruct p as [c|x|x|].
    - destruct (addc_step alloc s t c Hp H) as [(s1 & -> & H1 & E0 & E1)|(s1 & -> & H1 & E1 & _)].
      + exists true, s1. split; [reflexivity|]. split; [eexists; exact H1|]. intros [X|X]; congruence.
      + exists false, s1. split; [reflexivity|]. split; [eexists; exact H1|]. intros _. exact E1.
    - apply C, Hp.
    - assert (Ht' : Forall is_byte (firstn (N.to_nat 999) x)).
      { apply Forall_forall. intros c Hc. cbn [piece_ok] in Hp. rewrite Forall_forall in Hp. apply Hp.
        rewrite <- (firstn_skipn (N.to_nat 999) x). apply in_or_app. left. exact Hc. }
      destruct (C _ Ht') as (ok & s1 & E & A & B). unfold sb_addf. destruct (sb_err s) eqn:He.
      + exists false, s. split; [reflexivity|]. split; [exists t; exact H|]. intros _. exact He.
      + exists ok, s1. split; [exact E|]. split; [exact A|exact B].
    - exists true, (sb_clear s). split; [reflexivity|]. split; [exists []; exact (clear_has s t H)|]. intros [X|X]; [rewrite clear_err; exact X|discriminate]. }
  destruct S as (ok & s1 & -> & (t1 & H1) & E1). cbn [rbind]. destruct (IH s1 t1 Hok' H1) as (l & s2 & -> & A & B & C). cbn [rbind].
  exists (ok :: l), s2. split; [reflexivity|]. split; [cbn [List.length]; lia|]. split; [exact B|].
  intros [X|[X|X]]; apply C; [left; apply E1; left; exact X|left; apply E1; right; exact X|right; exact X].
Qed.
Example C93_failure_case : seen (build (fun n => n <? 32)%N [Text (repeat 97%N 20); Byte 98%N] sb_new)
  = Some ([false; false], 15, Some (repeat 97%N 15 ++ [0%N])).
Proof. vm_compute. reflexivity. Qed.

(** * stringtable *)

Fixpoint set_all (sets : list (bytes * bytes)) (st : stab) : bres stab :=
  match sets with
  | [] => ROk st
  | (k, v) :: r => rbind (stab_set st k v) (set_all r)
  end.

Definition lookup (items : list (bytes * bytes)) (k : bytes) : option bytes :=
  match find (fun e => bytes_eqb (fst e) k) items with Some e => Some (snd e) | None => None end.

Lemma replace_lookup : forall items k v,
  match stab_replace items k v with
  | Some items' => List.length items' = List.length items /\ forall k', lookup items' k' = if bytes_eqb k k' then Some v else lookup items k'
  | None => forall k', lookup (items ++ [(k, v)]) k' = if bytes_eqb k k' then Some v else lookup items k'
  end.
Proof.
  induction items as [|[k0 v0] items IH]; intros k v; cbn [stab_replace].
  - intros k'. unfold lookup. cbn [app find fst snd]. destruct (bytes_eqb k k'); reflexivity.
  - destruct (bytes_eqb k0 k) eqn:E.
    + apply bytes_eqb_eq in E. subst k0. split; [reflexivity|]. intros k'. unfold lookup. cbn [find fst snd]. destruct (bytes_eqb k k'); reflexivity.
    + specialize (IH k v). destruct (stab_replace items k v) as [items'|].
      * destruct IH as [A B]. split; [cbn [List.length]; lia|]. intros k'. specialize (B k'). unfold lookup in *. cbn [find fst snd].
        destruct (bytes_eqb k0 k') eqn:E2; [|exact B]. apply bytes_eqb_eq in E2. subst k0.
        destruct (bytes_eqb k k') eqn:E3; [|reflexivity]. apply bytes_eqb_eq in E3. subst k'. rewrite bytes_eqb_refl in E. discriminate.
      * intros k'. specialize (IH k'). unfold lookup in *. cbn [app find fst snd].
        destruct (bytes_eqb k0 k') eqn:E2; [|exact IH]. apply bytes_eqb_eq in E2. subst k0.
        destruct (bytes_eqb k k') eqn:E3; [|reflexivity]. apply bytes_eqb_eq in E3. subst k'. rewrite bytes_eqb_refl in E. discriminate.
Qed.

(** After any sets, [get] gives the value that was set last under the key, or the null
    pointer; nothing is written outside of the array. *)
Theorem C94_get : forall sets, exists st, set_all sets stab_new = ROk st /\ forall k, stab_get st k = last_set sets k.
Proof.
  intros sets.
  enough (G : forall sets st found, List.length (st_items st) <= st_cap st -> (forall k, lookup (st_items st) k = found k) ->
    exists st', set_all sets st = ROk st' /\ forall k, lookup (st_items st') k =
      fold_left (fun f e => if list_eq_dec N.eq_dec (fst e) k then Some (snd e) else f) sets (found k)).
  { destruct (G sets stab_new (fun _ => None)) as (st & E & H); [cbn; lia|reflexivity|]. exists st. split; [exact E|exact H]. }
  clear sets. induction sets as [|[k v] sets IH]; intros st found Hc Hf; cbn [set_all fold_left fst snd].
  - exists st. split; [reflexivity|exact Hf].
  - assert (Q : forall items cap, List.length items <= cap -> (forall k', lookup items k' = if bytes_eqb k k' then Some v else lookup (st_items st) k') ->
      exists st', set_all sets (mkStab items cap) = ROk st' /\ forall k0, lookup (st_items st') k0 =
        fold_left (fun f e => if list_eq_dec N.eq_dec (fst e) k0 then Some (snd e) else f) sets
          (if list_eq_dec N.eq_dec k k0 then Some v else found k0)).
    { intros items cap Hcap Hi. apply (IH (mkStab items cap) (fun k0 => if list_eq_dec N.eq_dec k k0 then Some v else found k0) Hcap).
      intros k'. cbn [st_items]. rewrite Hi, Hf. destruct (list_eq_dec N.eq_dec k k') as [->|Hk]; [rewrite bytes_eqb_refl; reflexivity|].
      apply bytes_eqb_neq in Hk. rewrite Hk. reflexivity. }
    unfold stab_set. pose proof (replace_lookup (st_items st) k v) as P. destruct (stab_replace (st_items st) k v) as [items|].
    + cbn [rbind]. destruct P as [A B]. apply Q; [lia|exact B].
    + destruct (Nat.eqb_spec (List.length (st_items st)) (st_cap st)) as [E|E].
      * destruct (Nat.ltb_spec (List.length (st_items st)) (st_cap st + 10)); [|lia]. cbn [rbind].
        apply Q; [rewrite app_length; cbn [List.length]; lia|exact P].
      * destruct (Nat.ltb_spec (List.length (st_items st)) (st_cap st)); [|lia]. cbn [rbind].
        apply Q; [rewrite app_length; cbn [List.length]; lia|exact P].
Qed.
Example C94_get_case : exists st, set_all [(L "a", L "1"); (L "b", L "2"); (L "a", L "3")] stab_new = ROk st /\
  stab_get st (L "a") = Some (L "3") /\ stab_get st (L "b") = Some (L "2") /\ stab_get st (L "c") = None.
Proof. eexists. split; [reflexivity|]. repeat split; reflexivity. Qed.

Print Assumptions C92_lines_exist. Print Assumptions C92_lines_partial. Print Assumptions C92_byte_255_refuted.
Print Assumptions C93_text_partial. Print Assumptions C93_format_refuted. Print Assumptions C93_null_refuted. Print Assumptions C93_failure.
Print Assumptions C94_get.
