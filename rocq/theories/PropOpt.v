(** Command lines (lib/opt.c). *)
From Coq Require Import ZArith Lia.
From Verif Require Import LibBase LibIO LibText LibOpt SpecText SpecTok SpecOpt ClipFacts.
Local Open Scope N_scope.

(** * Declarations *)
Fixpoint declare_all (specs : list optspec) (l : list optspec) : ores (list optspec) :=
  match l with
  | [] => ODone specs
  | s :: r => obind (declare specs (os_type s) (os_name s) (os_pointer s)) (fun specs => declare_all specs r)
  end.
Definition one_letter (s : optspec) : Prop := (List.length (os_name s) <= 1)%nat.
Theorem C98_declare : forall l, (Forall one_letter l /\ (List.length l <= 32)%nat -> declare_all [] l = ODone l) /\
  (~ (Forall one_letter l /\ (List.length l <= 32)%nat) -> exists w, declare_all [] l = OExit w).
Proof.
  intros l.
  assert (G : forall l specs, (Forall one_letter l /\ (l = [] \/ List.length specs + List.length l <= 32)%nat -> declare_all specs l = ODone (specs ++ l)) /\
    (~ (Forall one_letter l /\ (l = [] \/ List.length specs + List.length l <= 32)%nat) -> exists w, declare_all specs l = OExit w)).
  { clear l. induction l as [|s l IH]; intros specs; split.
    - intros _. cbn. rewrite app_nil_r. reflexivity.
    - intros H. destruct H. split; [constructor|left; reflexivity].
    - intros [F H]. inversion F; subst. destruct H as [H|H]; [discriminate|]. cbn [List.length] in H.
      cbn [declare_all]. unfold declare. destruct (Nat.ltb_spec 1 (List.length (os_name s))); [unfold one_letter in *; lia|].
      destruct (Nat.leb_spec 32 (List.length specs)); [lia|]. cbn [obind]. destruct s as [t nm p]. cbn [os_type os_name os_pointer].
      destruct (IH (specs ++ [mkSpec t nm p])) as [IH1 _]. rewrite IH1, <- app_assoc; [reflexivity|]. split; [assumption|]. right. rewrite app_length. cbn. lia.
    - intros H. cbn [declare_all]. unfold declare. destruct (Nat.ltb_spec 1 (List.length (os_name s))) as [|O1]; [eexists; reflexivity|].
      destruct (Nat.leb_spec 32 (List.length specs)) as [|O2]; [eexists; reflexivity|]. cbn [obind].
      apply IH. intros [F [->|Hl]]; apply H; (split; [constructor; [exact O1|try constructor; assumption]|right]); cbn; [lia|]. rewrite app_length in Hl. cbn in Hl. lia. }
  destruct (G l []) as [G1 G2]. split.
  - intros [F H]. apply G1. auto.
  - intros H. apply G2. intros [F [->|Hl]]; apply H; split; auto; cbn; lia.
Qed.

(** * Options *)
Lemma find_ok : forall specs c, Forall one_letter specs -> c <> 0 ->
  match opt_find specs c with Some s => declared specs c s | None => undeclared specs c end.
Proof.
  intros specs c W C. induction specs as [|s specs IH]; [intros s []|]. inversion W as [|? ? O W']; subst. cbn [opt_find].
  assert (N : (nth 0 (os_name s) 0 =? c) = true <-> os_name s = [c]).
  { unfold one_letter in O. destruct (os_name s) as [|x [|y q]] eqn:E; cbn [nth List.length] in *; [|rewrite N.eqb_eq; split; [intros ->; reflexivity|intros H; injection H; auto]|lia].
    rewrite N.eqb_eq. split; [congruence|discriminate]. }
  destruct (nth 0 (os_name s) 0 =? c).
  - exists [], specs. repeat split; [apply N; reflexivity|]. intros s' [].
  - assert (D : os_name s <> [c]) by (intros H; apply N in H; discriminate). specialize (IH W').
    destruct (opt_find specs c) as [s'|].
    + destruct IH as (l1 & l2 & -> & E & Q). exists (s :: l1), l2. repeat split; [exact E|]. intros x [<-|I]; auto.
    + intros x [<-|I]; auto.
Qed.
Lemma declared_fun : forall specs c s s', declared specs c s -> declared specs c s' -> s = s'.
Proof.
  induction specs as [|x specs IH]; intros c s s' (l1 & l2 & E & N & Q) (m1 & m2 & E' & N' & Q'); [destruct l1; discriminate|].
  destruct l1 as [|y l1], m1 as [|z m1]; injection E as -> E; injection E' as E0 E'.
  - congruence.
  - subst. destruct (Q' z); [left; reflexivity|exact N].
  - subst. destruct (Q s'); [left; reflexivity|exact N'].
  - apply (IH c); [exists l1, l2|exists m1, m2]; repeat split; auto; intros; [apply Q|apply Q']; right; assumption.
Qed.
Lemma find_declared : forall specs c s, Forall one_letter specs -> c <> 0 -> declared specs c s -> opt_find specs c = Some s.
Proof.
  intros specs c s W C D. pose proof (find_ok specs c W C) as H. destruct (opt_find specs c) as [s'|]; [f_equal; exact (declared_fun _ _ _ _ H D)|].
  destruct D as (l1 & l2 & -> & N & _). destruct (H s); [apply in_or_app; right; left; reflexivity|exact N].
Qed.
Lemma find_undeclared : forall specs c, Forall one_letter specs -> c <> 0 -> undeclared specs c -> opt_find specs c = None.
Proof.
  intros specs c W C D. pose proof (find_ok specs c W C) as H. destruct (opt_find specs c) as [s'|]; [|reflexivity].
  destruct H as (l1 & l2 & -> & N & _). destruct (D s'); [apply in_or_app; right; left; reflexivity|exact N].
Qed.

Lemma isdigit_ok : forall c, c_isdigit c = true <-> is_digit c.
Proof. intros c. unfold c_isdigit, is_digit. rewrite andb_true_iff, !N.leb_le. tauto. Qed.
Lemma isdigits_ok : forall s, forallb c_isdigit s = true <-> Forall is_digit s.
Proof. intros s. rewrite forallb_forall, Forall_forall. split; intros H x I; apply isdigit_ok, H, I. Qed.

Section Floats.
  Variable F : Type.
  Variable scan_float : bytes -> option F.
  Notation parse := (opt_parse F scan_float).
  Notation loop := (opt_loop F scan_float).

  Definition too_big (t : bytes) : Prop := exists v, number t v /\ ((2 ^ 31 <= v)%Z \/ (v < - 2 ^ 31)%Z).

  Lemma number_fun : forall t v v', number t v -> number t v' -> v = v'.
  Proof.
    intros t v v' H H'. inversion H as [? D|? D]; subst; inversion H' as [? D'|? D']; subst; try congruence; [destruct D as [_ DD]|destruct D' as [_ DD]]; inversion DD as [|? ? I]; unfold is_digit in I; lia.
  Qed.
  Lemma set_ok : forall s t, os_type s <> OptBool ->
    match set_flag F scan_float s t with
    | ODone (p, v) => p = os_pointer s /\ holds F scan_float (os_type s) t v
    | OExit _ => forall v, ~ holds F scan_float (os_type s) t v
    | OUndefined => too_big t /\ forall v, ~ holds F scan_float (os_type s) t v
    end.
  Proof.
    intros s t NB. unfold set_flag. destruct (os_type s) eqn:T; try congruence; cbn [opt_type_eqb andb].
    - split; [reflexivity|constructor].
    - destruct (is_numeric t) eqn:N; cbn [negb].
      + unfold scan_int. unfold is_numeric in N. destruct t as [|c r]; cbn [option_map].
        { intros v H. inversion H as [|? ? Hn| |]; subst. inversion Hn as [? [D _]|]; subst. congruence. }
        destruct (N.eqb_spec c 45) as [->|D].
        * destruct r as [|d r]; cbn [option_map].
          { intros v H. inversion H as [|? ? Hn| |]; subst. inversion Hn as [? [_ D]|? [D _]]; subst; [inversion D as [|? ? I]; unfold is_digit in I; lia|congruence]. }
          assert (Nu : number (45 :: d :: r) (- digits_value (d :: r))) by (constructor; split; [discriminate|apply isdigits_ok; exact N]).
          change (digits_value (d :: r)) with (dec_value (d :: r)) in Nu.
          destruct (Z.leb_spec (-2147483648) (- dec_value (d :: r))); [destruct (Z.leb_spec (- dec_value (d :: r)) 2147483647)|]; cbn [andb];
            [split; [reflexivity|constructor; [exact Nu|lia]]| |]; (split; [exists (- dec_value (d :: r))%Z; split; [exact Nu|lia]|]; intros v H'; inversion H' as [|? ? Hn| |]; subst; pose proof (number_fun _ _ _ Nu Hn); lia).
        * assert (Nu : number (c :: r) (digits_value (c :: r))) by (constructor; split; [discriminate|apply isdigits_ok; exact N]).
          change (digits_value (c :: r)) with (dec_value (c :: r)) in Nu. cbn [option_map].
          destruct (Z.leb_spec (-2147483648) (dec_value (c :: r))); [destruct (Z.leb_spec (dec_value (c :: r)) 2147483647)|]; cbn [andb];
            [split; [reflexivity|constructor; [exact Nu|lia]]| |]; (split; [exists (dec_value (c :: r))%Z; split; [exact Nu|lia]|]; intros v H'; inversion H' as [|? ? Hn| |]; subst; pose proof (number_fun _ _ _ Nu Hn); lia).
      + intros v H. inversion H as [|? ? Hn| |]; subst. unfold is_numeric in N. inversion Hn as [? [D1 D2]|? [D1 D2]]; subst; apply isdigits_ok in D2.
        * destruct t as [|c r]; [congruence|]. destruct (N.eqb_spec c 45) as [->|]; [discriminate D2|congruence].
        * cbn in N. congruence.
    - destruct (is_numeric t) eqn:N; cbn [negb].
      + unfold is_numeric in N. destruct t as [|c r]; cbn [nth].
        { cbn [N.eqb scan_size]. intros v H. inversion H as [| |? [D _]|]; subst. congruence. }
        destruct (N.eqb_spec c 45) as [->|D].
        * intros v H. inversion H as [| |? [_ D]|]; subst. inversion D as [|? ? I]; unfold is_digit in I; lia.
        * cbn [scan_size]. assert (Dg : digits (c :: r)) by (split; [discriminate|apply isdigits_ok; exact N]).
          destruct (Z.leb_spec (dec_value (c :: r)) 18446744073709551615).
          -- split; [reflexivity|]. apply holds_size; [exact Dg|]. change (digits_value (c :: r)) with (dec_value (c :: r)). lia.
          -- split; [exists (digits_value (c :: r)); split; [constructor; exact Dg|]; left; change (digits_value (c :: r)) with (dec_value (c :: r)); lia|].
             intros v H'. inversion H' as [| |? _ B|]; subst. change (digits_value (c :: r)) with (dec_value (c :: r)) in B. lia.
      + intros v H. inversion H as [| |? [D1 D2]|]; subst. unfold is_numeric in N. apply isdigits_ok in D2.
        destruct t as [|c r]; [congruence|]. destruct (N.eqb_spec c 45) as [->|]; [discriminate D2|congruence].
    - destruct (scan_float t) eqn:E; [split; [reflexivity|constructor; exact E]|]. intros v H. inversion H; subst. congruence.
  Qed.
  Lemma holds_fun : forall k t v v', holds F scan_float k t v -> holds F scan_float k t v' -> v = v'.
  Proof.
    intros k t v v' H H'. destruct H; inversion H'; subst; try reflexivity; [f_equal; eapply number_fun; eassumption|congruence].
  Qed.
  Lemma set_holds : forall s t v, holds F scan_float (os_type s) t v -> set_flag F scan_float s t = ODone (os_pointer s, v).
  Proof.
    intros s t v H. assert (NB : os_type s <> OptBool) by (intros E; rewrite E in H; inversion H).
    pose proof (set_ok s t NB) as G. destruct (set_flag F scan_float s t) as [[p v']|w|].
    - destruct G as [-> G]. rewrite (holds_fun _ _ _ _ H G). reflexivity.
    - destruct (G _ H).
    - destruct G as [_ G]. destruct (G _ H).
  Qed.

  Lemma run_flags : forall specs cs ss, Forall one_letter specs -> ~ In 0 cs ->
    Forall2 (fun c s => declared specs c s /\ os_type s = OptBool) cs ss ->
    boolrun F specs cs = ODone (List.map (fun s => (os_pointer s, VBool true)) ss).
  Proof.
    intros specs cs ss W Z. induction 1 as [|c s cs ss [D T] _ IH]; [reflexivity|]. cbn [boolrun].
    rewrite (find_declared specs c s W) by (try exact D; intros ->; apply Z; left; reflexivity). rewrite T. cbn [opt_type_eqb negb].
    rewrite IH by (intros I; apply Z; right; exact I). reflexivity.
  Qed.
  Lemma flags_run : forall specs cs l, Forall one_letter specs -> ~ In 0 cs -> boolrun F specs cs = ODone l ->
    exists ss, Forall2 (fun c s => declared specs c s /\ os_type s = OptBool) cs ss /\ l = List.map (fun s => (os_pointer s, VBool true)) ss.
  Proof.
    intros specs cs l W. revert l. induction cs as [|c cs IH]; intros l Z E; cbn [boolrun] in E.
    - injection E as <-. exists []. split; constructor.
    - pose proof (find_ok specs c W ltac:(intros ->; apply Z; left; reflexivity)) as G.
      destruct (opt_find specs c) as [s|]; [|destruct (c =? 104); discriminate E].
      destruct (os_type s) eqn:T; cbn [opt_type_eqb negb] in E; try discriminate E.
      destruct (boolrun F specs cs) as [l'| |] eqn:B; try discriminate E. cbn [obind] in E. injection E as <-.
      destruct (IH l' ltac:(intros I; apply Z; right; exact I) eq_refl) as (ss & F2 & ->).
      exists (s :: ss). split; [constructor; auto|reflexivity].
  Qed.

  Definition clean (args : list bytes) : Prop := Forall (fun a => ~ In 0 a) args.

  Lemma loop_options : forall specs pre log, Forall one_letter specs -> options F scan_float specs pre log -> clean pre -> forall rest,
    loop specs (pre ++ rest) = obind (loop specs rest) (fun '(k, left_) => ODone (log ++ k, left_)).
  Proof.
    intros specs pre log W. induction 1 as [|cs ss args l NE F2 O IH|c s t v args l D H O IH]; intros Cl rest.
    - cbn [app]. destruct (loop specs rest) as [[k x]| |]; reflexivity.
    - inversion Cl as [|? ? C1 C2]; subst. cbn [app opt_loop].
      destruct cs as [|c cs]; [congruence|]. cbn [bytes_eqb nth skipn List.length]. change (45 =? 45) with true. cbn [andb negb orb].
      assert (Z : ~ In 0 (c :: cs)) by (intros I; apply C1; right; exact I).
      destruct cs as [|c2 cs].
      + cbn [List.length Nat.ltb Nat.leb Nat.eqb]. inversion F2 as [|? s ? ss' [D T] F2']; subst. inversion F2'; subst. unfold readarg.
        rewrite (find_declared specs c s W) by (try exact D; intros ->; apply Z; left; reflexivity). rewrite T. cbn [opt_type_eqb obind].
        rewrite (IH C2). destruct (loop specs rest) as [[k x]| |]; reflexivity.
      + cbn [List.length Nat.ltb Nat.leb]. rewrite (run_flags specs _ ss W Z F2). cbn [obind]. rewrite (IH C2).
        destruct (loop specs rest) as [[k x]| |]; cbn [obind]; [rewrite app_assoc|..]; reflexivity.
    - inversion Cl as [|? ? C1 C2]; subst. inversion C2 as [|? ? C3 C4]; subst. cbn [app opt_loop].
      cbn [bytes_eqb nth skipn List.length]. change (45 =? 45) with true. cbn [andb negb orb Nat.ltb Nat.leb Nat.eqb]. unfold readarg.
      rewrite (find_declared specs c s W) by (try exact D; intros ->; apply C1; right; left; reflexivity).
      assert (NB : opt_type_eqb (os_type s) OptBool = false) by (destruct (os_type s); try reflexivity; inversion H).
      rewrite NB, (set_holds s t v H). cbn [obind]. rewrite (IH C4). destruct (loop specs rest) as [[k x]| |]; reflexivity.
  Qed.
  Lemma loop_stop : forall specs rest, options_stop rest -> loop specs rest = ODone ([], rest).
  Proof.
    intros specs [|a rest] H; [reflexivity|]. cbn [opt_loop]. destruct H as [->|H]; [reflexivity|].
    destruct a as [|c a]; [rewrite orb_true_r; reflexivity|]. cbn [nth]. destruct (N.eqb_spec c 45) as [->|]; [destruct (H a); reflexivity|]. rewrite orb_true_r. reflexivity.
  Qed.
  Lemma options_loop : forall n specs args log rest, (List.length args <= n)%nat -> Forall one_letter specs -> clean args -> loop specs args = ODone (log, rest) ->
    exists pre, args = pre ++ rest /\ options F scan_float specs pre log /\ options_stop rest.
  Proof.
    induction n as [|n IH]; intros specs args log rest Hn W Cl E.
    { destruct args; [|cbn in Hn; lia]. cbn in E. injection E as <- <-. exists []. repeat split; constructor. }
    destruct args as [|a args]; [cbn in E; injection E as <- <-; exists []; repeat split; constructor|].
    cbn [List.length] in Hn. inversion Cl as [|? ? C1 C2]; subst. cbn [opt_loop] in E.
    destruct (bytes_eqb a [45]) eqn:Dash; cbn [orb] in E.
    { injection E as <- <-. exists []. repeat split; [constructor|]. left. apply bytes_eqb_eq. exact Dash. }
    destruct (N.eqb_spec (nth 0 a 0) 45) as [H0|H0]; cbn [negb] in E.
    2:{ injection E as <- <-. exists []. repeat split; [constructor|]. right. intros t ->. apply H0. reflexivity. }
    destruct a as [|c0 a]; [discriminate H0|]. cbn [nth] in H0. subst c0. cbn [skipn] in E.
    assert (Z : ~ In 0 a) by (intros I; apply C1; right; exact I).
    destruct (Nat.ltb_spec 2 (List.length (45 :: a))) as [G|G].
    - destruct (boolrun F specs a) as [l| |] eqn:B; try discriminate E. cbn [obind] in E.
      destruct (loop specs args) as [[k x]| |] eqn:Lp; try discriminate E. cbn [obind] in E. injection E as <- <-.
      destruct (flags_run specs a l W Z B) as (ss & F2 & ->).
      destruct (IH specs args k x ltac:(lia) W C2 Lp) as (pre & -> & O & St).
      exists ((45 :: a) :: pre). split; [reflexivity|]. split; [|exact St]. apply options_flags; [intros ->; cbn in G; lia|exact F2|exact O].
    - destruct a as [|c [|? ?]]; [cbn in Dash; discriminate Dash| |cbn in G; lia].
      cbn [List.length Nat.eqb nth] in E. unfold readarg in E.
      pose proof (find_ok specs c W ltac:(intros ->; apply Z; left; reflexivity)) as D.
      destruct (opt_find specs c) as [s|]; [|destruct (c =? 104); discriminate E].
      destruct (opt_type_eqb (os_type s) OptBool) eqn:T; cbn [obind] in E.
      + destruct (loop specs args) as [[k x]| |] eqn:Lp; try discriminate E. cbn [obind] in E. injection E as <- <-.
        destruct (IH specs args k x ltac:(lia) W C2 Lp) as (pre & -> & O & St).
        exists ([45; c] :: pre). split; [reflexivity|]. split; [|exact St].
        apply (options_flags F scan_float specs [c] [s] pre k); [discriminate| |exact O]. constructor; [|constructor]. split; [exact D|destruct (os_type s); try discriminate T; reflexivity].
      + destruct args as [|v args]; [discriminate E|]. inversion C2 as [|? ? C3 C4]; subst.
        pose proof (set_ok s v ltac:(intros H; rewrite H in T; discriminate T)) as G2.
        destruct (set_flag F scan_float s v) as [[p w]| |]; try discriminate E. cbn [obind] in E. destruct G2 as [-> G2].
        destruct (loop specs args) as [[k x]| |] eqn:Lp; try discriminate E. cbn [obind] in E. injection E as <- <-.
        cbn [List.length] in Hn. destruct (IH specs args k x ltac:(lia) W C4 Lp) as (pre & -> & O & St).
        exists ([45; c] :: v :: pre). split; [reflexivity|]. split; [|exact St]. apply options_value; assumption.
  Qed.

  Lemma parse_loop : forall specs n args log rest, parse specs n args = ODone (log, rest) <->
    loop specs args = ODone (log, rest) /\ (forall k, n = Some k -> List.length rest = k).
  Proof.
    intros specs n args log rest. unfold opt_parse. destruct (loop specs args) as [[l x]| |]; cbn [obind]; [|split; [discriminate|intros [H _]; discriminate]..].
    destruct n as [k|].
    - destruct (Nat.eqb_spec k 0), (Nat.ltb_spec 0 (List.length x)); cbn [andb];
        try (split; [discriminate|intros [H' Hk]; injection H' as <- <-; specialize (Hk k eq_refl); lia]);
        destruct (Nat.eqb_spec (List.length x) k); cbn [negb];
        try (split; [discriminate|intros [H' Hk]; injection H' as <- <-; specialize (Hk k eq_refl); lia]);
        (split; [intros H'; injection H' as <- <-; split; [reflexivity|congruence]|tauto]).
    - split; [intros H; split; [exact H|discriminate]|tauto].
  Qed.

  (** What [parse] accepts, writes and returns. *)
  Theorem C98_parse : forall specs n args log rest, Forall one_letter specs -> clean args ->
    (parse specs n args = ODone (log, rest) <->
     (exists pre, args = pre ++ rest /\ options F scan_float specs pre log /\ options_stop rest) /\
     (forall k, n = Some k -> List.length rest = k)).
  Proof.
    intros specs n args log rest W Cl. rewrite parse_loop. split; intros [H1 H2]; (split; [|exact H2]).
    - exact (options_loop _ specs args log rest (le_n _) W Cl H1).
    - destruct H1 as (pre & -> & O & St). apply Forall_app in Cl as [Cl _]. rewrite (loop_options specs pre log W O Cl), (loop_stop specs rest St).
      cbn [obind]. rewrite app_nil_r. reflexivity.
  Qed.
  Theorem C98_one_meaning : forall specs pre pre' log log' rest rest', Forall one_letter specs -> clean (pre ++ rest) ->
    pre ++ rest = pre' ++ rest' -> options F scan_float specs pre log -> options F scan_float specs pre' log' -> options_stop rest -> options_stop rest' ->
    pre = pre' /\ log = log' /\ rest = rest'.
  Proof.
    intros specs pre pre' log log' rest rest' W Cl E O O' St St'.
    assert (A : parse specs None (pre ++ rest) = ODone (log, rest)) by (apply C98_parse; auto; split; [exists pre; auto|discriminate]).
    assert (B : parse specs None (pre ++ rest) = ODone (log', rest')) by (apply C98_parse; auto; split; [exists pre'; auto|discriminate]).
    rewrite A in B. injection B as <- <-. apply app_inv_tail in E. auto.
  Qed.

  (** Wrong options end the program, whatever comes before and behind them. *)
  Theorem C98_unknown : forall specs n pre log c rest, Forall one_letter specs -> clean pre -> c <> 0 ->
    options F scan_float specs pre log -> undeclared specs c ->
    parse specs n (pre ++ [45; c] :: rest) = OExit (if c =? 104 then Usage else UnknownFlag c).
  Proof.
    intros specs n pre log c rest W Cl C O U. unfold opt_parse. rewrite (loop_options specs pre log W O Cl).
    cbn [opt_loop bytes_eqb nth List.length]. change (45 =? 45) with true. cbn [andb negb orb Nat.ltb Nat.leb Nat.eqb]. unfold readarg.
    rewrite (find_undeclared specs c W C U). destruct (c =? 104); reflexivity.
  Qed.
  Theorem C98_no_value : forall specs n pre log c s, Forall one_letter specs -> clean pre -> c <> 0 ->
    options F scan_float specs pre log -> declared specs c s -> os_type s <> OptBool ->
    parse specs n (pre ++ [[45; c]]) = OExit (NeedsValue c).
  Proof.
    intros specs n pre log c s W Cl C O D T. unfold opt_parse. rewrite (loop_options specs pre log W O Cl).
    cbn [opt_loop bytes_eqb nth List.length]. change (45 =? 45) with true. cbn [andb negb orb Nat.ltb Nat.leb Nat.eqb]. unfold readarg.
    rewrite (find_declared specs c s W C D). destruct (os_type s); try congruence; reflexivity.
  Qed.

  (** Only a number that is too big can be undefined. *)
  Theorem C98_defined : forall specs n args, parse specs n args = OUndefined -> exists a, In a args /\ too_big a.
  Proof.
    intros specs n args H. assert (E : loop specs args = OUndefined).
    { unfold opt_parse in H. destruct (loop specs args) as [[l x]| |]; cbn [obind] in H; [|discriminate H|reflexivity].
      destruct n as [k|]; [|discriminate H]. destruct (_ && _); [discriminate H|]. destruct (negb _); discriminate H. }
    clear H n. assert (B : forall cs, boolrun F specs cs <> OUndefined).
    { induction cs as [|c cs IH]; [discriminate|]. cbn [boolrun]. destruct (opt_find specs c); [|destruct (c =? 104); discriminate].
      destruct (negb _); [discriminate|]. destruct (boolrun F specs cs); [discriminate..|congruence]. }
    assert (G : forall k args, (List.length args <= k)%nat -> loop specs args = OUndefined -> exists a, In a args /\ too_big a).
    { clear args E. induction k as [|k IH]; intros args Hk E; [destruct args; [discriminate E|cbn in Hk; lia]|].
      destruct args as [|a args]; [discriminate E|]. cbn [List.length] in Hk. cbn [opt_loop] in E.
      destruct (_ || _); [discriminate E|]. destruct (Nat.ltb 2 (List.length a)).
      - specialize (B (skipn 1 a)). destruct (boolrun F specs (skipn 1 a)); cbn [obind] in E; [|discriminate E|congruence].
        destruct (loop specs args) as [[? ?]| |] eqn:Lp; try discriminate E. destruct (IH args ltac:(lia) Lp) as (x & I & T). exists x. split; [right; exact I|exact T].
      - destruct (Nat.eqb (List.length a) 2); [|discriminate E]. unfold readarg in E.
        destruct (opt_find specs (nth 1 a 0)) as [s|]; [|destruct (_ =? 104); discriminate E].
        destruct (opt_type_eqb (os_type s) OptBool) eqn:T; cbn [obind] in E.
        + destruct (loop specs args) as [[? ?]| |] eqn:Lp; try discriminate E. destruct (IH args ltac:(lia) Lp) as (x & I & Tb). exists x. split; [right; exact I|exact Tb].
        + destruct args as [|v args]; [discriminate E|]. pose proof (set_ok s v ltac:(intros H; rewrite H in T; discriminate T)) as G2.
          destruct (set_flag F scan_float s v) as [[p w]| |]; cbn [obind] in E; [|discriminate E|exists v; split; [right; left; reflexivity|tauto]].
          destruct (loop specs args) as [[? ?]| |] eqn:Lp; try discriminate E. cbn [List.length] in Hk.
          destruct (IH args ltac:(lia) Lp) as (x & I & Tb). exists x. split; [right; right; exact I|exact Tb]. }
    exact (G _ args (le_n _) E).
  Qed.
End Floats.
(** And it can: 2147483648 for an int. *)
Theorem C98_range_refuted : forall F scan, opt_parse F scan [mkSpec OptInt (L "n") 0] None [L "-n"; L "2147483648"] = OUndefined.
Proof. intros. vm_compute. reflexivity. Qed.

(** * Subcommands *)
Lemma cmd_find_ok : forall cmds name, match cmd_find cmds name with
  | Some f => exists l1 l2, cmds = l1 ++ (name, f) :: l2 /\ ~ In name (List.map fst l1)
  | None => ~ In name (List.map fst cmds) end.
Proof.
  induction cmds as [|[n f] cmds IH]; intros name; cbn [cmd_find]; [intros []|]. destruct (bytes_eqb n name) eqn:E.
  - apply bytes_eqb_eq in E as ->. exists [], cmds. split; [reflexivity|intros []].
  - apply bytes_eqb_neq in E. specialize (IH name). destruct (cmd_find cmds name) as [g|].
    + destruct IH as (l1 & l2 & -> & H). exists ((n, f) :: l1), l2. split; [reflexivity|]. cbn. tauto.
    + cbn. tauto.
Qed.
(** The first command with the name is called, with the arguments from its name on;
    otherwise nothing is. *)
Theorem C98_dispatch : forall cmds argv f args, dispatch cmds argv = Some (f, args) <->
  exists prog name rest l1 l2, argv = prog :: name :: rest /\ args = name :: rest /\ cmds = l1 ++ (name, f) :: l2 /\ ~ In name (List.map fst l1).
Proof.
  intros cmds argv f args. unfold dispatch. split.
  - destruct argv as [|prog [|name rest]]; try discriminate. pose proof (cmd_find_ok cmds name) as H. destruct (cmd_find cmds name) as [g|]; [|discriminate].
    cbn [option_map]. intros E. injection E as E1 E2. subst f args. destruct H as (l1 & l2 & H & No). exists prog, name, rest, l1, l2. repeat split; assumption.
  - intros (prog & name & rest & l1 & l2 & -> & -> & -> & No). pose proof (cmd_find_ok (l1 ++ (name, f) :: l2) name) as H.
    assert (E : cmd_find (l1 ++ (name, f) :: l2) name = Some f).
    { clear H. induction l1 as [|[n g] l1 IH]; cbn [app cmd_find]; [rewrite bytes_eqb_refl; reflexivity|].
      destruct (bytes_eqb n name) eqn:E; [apply bytes_eqb_eq in E as ->; destruct No; left; reflexivity|]. apply IH. intros I. apply No. right. exact I. }
    rewrite E. reflexivity.
Qed.

(** Cases. *)
Definition sample : list optspec :=
  [mkSpec OptStr (L "s") 0; mkSpec OptInt (L "i") 1; mkSpec OptBool (L "p") 2; mkSpec OptBool (L "q") 3; mkSpec OptSize (L "z") 4].
Example C98_case : opt_parse N (fun _ => None) sample (Some 2%nat) [L "-s"; L "foo"; L "-i"; L "-10"; L "-pq"; L "-z"; L "7"; L "one"; L "-p"] =
  ODone ([(0%nat, VStr (L "foo")); (1%nat, VInt (-10)); (2%nat, VBool true); (3%nat, VBool true); (4%nat, VSize 7)], [L "one"; L "-p"]) /\
  Forall one_letter sample /\
  opt_parse N (fun _ => None) sample None [L "-p"; L "-h"] = OExit Usage /\ opt_parse N (fun _ => None) sample None [L "-px"] = OExit (UnknownFlag 120) /\
  opt_parse N (fun _ => None) sample None [L "-i"; L "-"] = OExit BadValue /\ opt_parse N (fun _ => None) sample None [L "-i"; L "1x"] = OExit NotNumeric /\
  opt_parse N (fun _ => None) sample None [L "-z"; L "-1"] = OExit Negative /\ declare_all [] sample = ODone sample.
Proof. split; [vm_compute; reflexivity|]. split; [repeat constructor|]. vm_compute. repeat split; reflexivity. Qed.
Example C98_dispatch_case : dispatch [(L "a", 0%nat); (L "b", 1%nat)] [L "prog"; L "b"; L "x"] = Some (1%nat, [L "b"; L "x"]).
Proof. reflexivity. Qed.

Print Assumptions C98_declare.
Print Assumptions C98_parse.
Print Assumptions C98_one_meaning.
Print Assumptions C98_unknown.
Print Assumptions C98_no_value.
Print Assumptions C98_defined.
Print Assumptions C98_range_refuted.
Print Assumptions C98_dispatch.
