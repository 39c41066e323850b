(** Declarations of the files of a program: C68 (linking) and C69 (one file).
    Specification: SpecLink.v. *)
From Verif Require Import Base Buf Lexer Nodes Types Resolve Cursor Preparser Parser CAst FormatC Translator Build BaseFacts.
From Verif Require Import SpecLex SpecScope SpecDecl SpecModule SpecExports SpecTarget SpecBuild SpecClosed SpecTidy SpecLink LinkFacts ClosedModule OpenCheck PropBuild PropClosed PropFile Samples.

(** ** C68 *)
(** Every prototype in a generated file declares a function that is defined, with
    the same linkage, type, declarator and parameters, in a file of the same
    program: in that very file if the function is static. *)
Theorem C68_prototypes_defined : forall (U : Unicode) w fuel main pr, parse_project w fuel main = BOk pr ->
  forall i h m cm p, unit_at pr i h m cm -> In (XForwardFunc p) (cm_elements cm) ->
  exists j h' m' cm' d, unit_at pr j h' m' cm' /\ In (XFunc d) (cm_elements cm') /\ function_head (XForwardFunc p) = function_head (XFunc d)
    /\ j <= i /\ (cfw_static p = true -> j = i).
Proof. exact @prototypes_defined. Qed.
(** No two definitions that the linker sees have one name, if the names of the
    modules can be told apart in C and only one module has a main function. *)
Theorem C68_one_definition_partial : forall (U : Unicode) w fuel main pr, parse_project w fuel main = BOk pr ->
  (forall i h m cm, unit_at pr i h m cm -> telling (mod_elements m)) ->
  (forall i h m cm i' h' m' cm', unit_at pr i h m cm -> unit_at pr i' h' m' cm' -> told_apart (mi_uniqid h') (mod_elements m) (mod_elements m')) ->
  (forall i h m cm i' h' m' cm' f f', unit_at pr i h m cm -> unit_at pr i' h' m' cm' ->
    In (MFunc f) (mod_elements m) -> In (MFunc f') (mod_elements m') -> f_name (fd_form f) = L "main" -> f_name (fd_form f') = L "main" -> i = i') ->
  forall i h m cm j h' m' cm' d d', unit_at pr i h m cm -> unit_at pr j h' m' cm' ->
  In (XFunc d) (cm_elements cm) -> In (XFunc d') (cm_elements cm') -> external d -> external d' ->
  cf_name (cfd_form d) = cf_name (cfd_form d') -> i = j /\ d = d'.
Proof. exact @one_definition. Qed.

(** ** C69 *)
(** A generated file declares no name twice, but for a function and its
    prototype, and none that a header of the C library declares. *)
Theorem C69_declared_once_partial : forall (U : Unicode) w fuel main pr, parse_project w fuel main = BOk pr ->
  (forall i h m cm, unit_at pr i h m cm -> telling (mod_elements m)) ->
  (forall i h m cm i' h' m' cm', unit_at pr i h m cm -> unit_at pr i' h' m' cm' -> told_apart (mi_uniqid h') (mod_elements m) (mod_elements m')) ->
  forall i h m cm, unit_at pr i h m cm -> well_declared (cm_elements cm).
Proof. exact @file_once. Qed.

(** Checks for the examples. *)
Definition names_with (pub : bool) (e : modelem) : list str :=
  types_of pub [e] ++
  match e with
  | MEnum d => if Bool.eqb (enum_pub d) pub then map en_name (enum_entries d) else []
  | MVar v => if pub then [] else [f_name (v_form v)]
  | MFunc f => if Bool.eqb (fd_pub f && negb (str_eqb (f_name (fd_form f)) (L "main"))) pub then [f_name (fd_form f)] else []
  | _ => []
  end.
Lemma names_with_in : forall e pub x, of_elem e pub x -> In x (names_with pub e).
Proof.
  intros e pub x [T | V]; unfold names_with; rewrite in_app_iff; [left | right].
  - eapply types_of_in; [now left | exact T].
  - destruct e; cbn in *; try contradiction; destruct V as [-> V].
    + rewrite Bool.eqb_reflx. exact V.
    + now left.
    + rewrite Bool.eqb_reflx. now left.
Qed.
Definition library_names : list str := flat_map (fun h => map lit (fst (snd h) ++ snd (snd h))) headers.
Fixpoint nodup_b (l : list str) : bool := match l with [] => true | x :: r => negb (str_in x r) && nodup_b r end.
Lemma nodup_sound : forall l, nodup_b l = true -> NoDup l.
Proof.
  induction l as [| x l IH]; cbn [nodup_b]; intros H; constructor; apply andb_true_iff in H as [H1 H2]; auto. apply negb_true_iff in H1. now apply str_in_false.
Qed.
Definition telling_b (elems : list modelem) : bool :=
  nodup_b (flat_map type_name elems)
  && forallb (fun x => negb (str_in x (flat_map type_name elems)))
       (flat_map (fun e => match e with
                           | MEnum d => map en_name (enum_entries d)
                           | MVar v => [f_name (v_form v)]
                           | MFunc f => [f_name (fd_form f)]
                           | _ => []
                           end) elems)
  && forallb (fun e => forallb (fun x => negb (str_eqb x (L "calloc_or_panic")) && negb (str_in x library_names)) (names_with false e)) elems
  && forallb (fun e => match e with MFunc f => negb (fd_pub f) || negb (str_in (f_name (fd_form f)) (param_names (fd_params f))) | _ => true end) elems.
Lemma telling_by : forall elems, telling_b elems = true -> telling elems.
Proof.
  intros elems H. apply andb_true_iff in H as [H H4]. apply andb_true_iff in H as [H H3]. apply andb_true_iff in H as [H1 H2].
  rewrite forallb_forall in H2, H3, H4. split; [now apply nodup_sound |]. split; [| split].
  - intros e e' b b' x I I' T V. assert (X : In x (flat_map type_name elems)).
    { apply in_flat_map. exists e. split; [exact I |]. destruct e; cbn in *; try contradiction; destruct T as [_ ->]; now left. }
    apply in_str in X. assert (Y : str_in x (flat_map type_name elems) = false); [| congruence]. apply negb_true_iff, H2, in_flat_map. exists e'. split; [exact I' |].
    destruct e'; cbn in *; try contradiction; destruct V as [_ V]; auto.
  - intros e x I O. specialize (H3 e I). rewrite forallb_forall in H3. apply names_with_in in O. apply H3, andb_true_iff in O as [O1 O2].
    apply negb_true_iff in O1, O2. split.
    + intros ->. now rewrite str_eqb_refl in O1.
    + intros h Ih J. apply str_in_false in O2. apply O2, in_flat_map. eauto.
  - intros f I P J. specialize (H4 _ I). cbn in H4. rewrite P, (in_str _ _ J) in H4. discriminate.
Qed.
Definition told_b (pr : project) : bool :=
  let privates := flat_map (fun m => flat_map (names_with false) (mod_elements m)) (pr_mods pr) in
  let exports := flat_map (fun hm => map (global_name (mi_uniqid (fst hm))) (flat_map (names_with true) (mod_elements (snd hm)))) (combine (pr_heads pr) (pr_mods pr)) in
  forallb (fun x => negb (str_in x exports)) privates.
Lemma combined : forall A B (l : list A) (l' : list B) i a b, nth_error l i = Some a -> nth_error l' i = Some b -> In (a, b) (combine l l').
Proof.
  intros A B l. induction l as [| x l IH]; intros [| y l'] [| i] a b H H'; try discriminate; cbn in *.
  - injection H as ->. injection H' as ->. now left.
  - right. eauto.
Qed.
Lemma told_by : forall pr, told_b pr = true -> forall i h m cm i' h' m' cm', unit_at pr i h m cm -> unit_at pr i' h' m' cm' ->
  told_apart (mi_uniqid h') (mod_elements m) (mod_elements m').
Proof.
  intros pr H i h m cm i' h' m' cm' (_ & M & _) (Hh & M' & _) e e' x y I I' O O' E. unfold told_b in H. cbv zeta in H. rewrite forallb_forall in H.
  apply names_with_in in O, O'.
  assert (X : negb (str_in x (flat_map (fun hm => map (global_name (mi_uniqid (fst hm))) (flat_map (names_with true) (mod_elements (snd hm)))) (combine (pr_heads pr) (pr_mods pr)))) = true).
  { apply H. apply in_flat_map. exists m. split; [eapply nth_error_In; exact M |]. apply in_flat_map. eauto. }
  apply negb_true_iff, str_in_false in X. apply X. apply in_flat_map. exists (h', m'). split; [eapply combined; eauto |]. cbn [fst snd]. rewrite E. apply in_map, in_flat_map. eauto.
Qed.

Example C68_example : shop = BOk the_shop
  /\ (exists h m cm p, unit_at the_shop 1 h m cm /\ In (XForwardFunc p) (cm_elements cm) /\ cf_name (cfw_form p) = L "mod0_store__sum" /\ cfw_static p = false)
  /\ (forall i h m cm, unit_at the_shop i h m cm -> telling (mod_elements m))
  /\ (forall i h m cm i' h' m' cm', unit_at the_shop i h m cm -> unit_at the_shop i' h' m' cm' -> told_apart (mi_uniqid h') (mod_elements m) (mod_elements m'))
  /\ (forall i h m cm i' h' m' cm' f f', unit_at the_shop i h m cm -> unit_at the_shop i' h' m' cm' ->
    In (MFunc f) (mod_elements m) -> In (MFunc f') (mod_elements m') -> f_name (fd_form f) = L "main" -> f_name (fd_form f') = L "main" -> i = i')
  /\ exists h m cm d, unit_at the_shop 0 h m cm /\ In (XFunc d) (cm_elements cm) /\ external d /\ cf_name (cfd_form d) = L "mod0_store__sum".
Proof.
  split; [vm_compute; reflexivity |]. split; [| split; [| split; [| split]]].
  - do 3 eexists. assert (X : exists p, In (XForwardFunc p) (cm_elements (nth 1 (pr_cmods the_shop) (mkCmod [] []))) /\ cf_name (cfw_form p) = L "mod0_store__sum" /\ cfw_static p = false).
    { assert (Y : existsb (fun e => match e with XForwardFunc p => str_eqb (cf_name (cfw_form p)) (L "mod0_store__sum") && negb (cfw_static p) | _ => false end)
        (cm_elements (nth 1 (pr_cmods the_shop) (mkCmod [] []))) = true) by (vm_cast_no_check (eq_refl true)).
      apply existsb_exists in Y as (e & I & Y). destruct e; try discriminate. apply andb_true_iff in Y as [Y1 Y2]. apply str_eqb_eq in Y1. apply negb_true_iff in Y2. eauto. }
    destruct X as (p & X). exists p. split; [repeat split; vm_compute; reflexivity |]. exact X.
  - assert (X : forallb (fun m => telling_b (mod_elements m)) (pr_mods the_shop) = true) by (vm_cast_no_check (eq_refl true)).
    intros i h m cm (_ & M & _). rewrite forallb_forall in X. apply telling_by, X. eapply nth_error_In; exact M.
  - apply told_by. vm_cast_no_check (eq_refl true).
  - assert (X : forall i h m cm f, unit_at the_shop i h m cm -> In (MFunc f) (mod_elements m) -> f_name (fd_form f) = L "main" -> i = 1).
    { intros [| [| i]] h m cm f (H & M & _) I E; [| reflexivity | destruct i; discriminate].
      exfalso. injection M as <-. assert (Y : existsb (fun e => match e with MFunc f => str_eqb (f_name (fd_form f)) (L "main") | _ => false end)
        (mod_elements (nth 0 (pr_mods the_shop) (mkModule [] (mkExports [] [] [] [])))) = false) by (vm_compute; reflexivity).
      apply not_true_iff_false in Y. apply Y, existsb_exists. exists (MFunc f). split; [exact I |]. rewrite E. reflexivity. }
    intros. transitivity 1; [| symmetry]; eauto.
  - do 3 eexists. assert (X : exists d, In (XFunc d) (cm_elements (nth 0 (pr_cmods the_shop) (mkCmod [] []))) /\ external d /\ cf_name (cfd_form d) = L "mod0_store__sum").
    { assert (Y : existsb (fun e => match e with XFunc d => str_eqb (cf_name (cfd_form d)) (L "mod0_store__sum") && negb (starts_with (format_elem e) (L "static ")) | _ => false end)
        (cm_elements (nth 0 (pr_cmods the_shop) (mkCmod [] []))) = true) by (vm_cast_no_check (eq_refl true)).
      apply existsb_exists in Y as (e & I & Y). destruct e; try discriminate. apply andb_true_iff in Y as [Y1 Y2]. apply str_eqb_eq in Y1. apply negb_true_iff in Y2. eauto. }
    destruct X as (d & X). exists d. split; [repeat split; vm_compute; reflexivity |]. exact X.
Qed.
Example C69_example : shop = BOk the_shop
  /\ (forall i h m cm, unit_at the_shop i h m cm -> telling (mod_elements m))
  /\ (forall i h m cm i' h' m' cm', unit_at the_shop i h m cm -> unit_at the_shop i' h' m' cm' -> told_apart (mi_uniqid h') (mod_elements m) (mod_elements m'))
  /\ exists h m cm, unit_at the_shop 1 h m cm.
Proof.
  destruct C68_example as (H1 & _ & H2 & H3 & _). repeat (split; [assumption |]). do 3 eexists. repeat split; vm_compute; reflexivity.
Qed.

(** Without the conditions the claims fail. *)
Definition twice_b (y z : celem) : bool :=
  existsb (fun x => str_in x (ordinary z)) (ordinary y)
  && match function_head y, function_head z with
     | Some (s, _, _, _), Some (s', _, _, _) => negb (Bool.eqb s s') || match y, z with XFunc _, XFunc _ => true | _, _ => false end
     | _, _ => true
     end.
Fixpoint clash_b (l : list celem) : bool :=
  match l with [] => false | y :: r => existsb (twice_b y) r || clash_b r end.
Definition header_clash_b (l : list celem) : bool :=
  existsb (fun i => match i with
                    | XInclude h => existsb (fun y => existsb (fun x => existsb (use_eqb (UName x)) (header_declares h)) (ordinary y)) l
                    | _ => false
                    end) l.
Lemma clash_sound : forall l, clash_b l = true -> ~ well_declared l.
Proof.
  assert (G : forall l pre, clash_b l = true -> ~ forall a y b z c, pre ++ l = a ++ y :: b ++ z :: c -> compatible y z).
  { induction l as [| y l IH]; intros pre H W; [discriminate |]. cbn [clash_b] in H. apply orb_true_iff in H as [H | H].
    - apply existsb_exists in H as (z & I & H). apply in_split in I as (b & c & ->). destruct (W pre y b z c eq_refl) as [C _].
      apply andb_true_iff in H as [H1 H2]. apply existsb_exists in H1 as (x & X & Z). apply str_in_spec in Z.
      destruct (C x X Z) as [(hd & S1 & S2) N]. rewrite S1, S2 in H2. destruct hd as [[[s t] f] q]. rewrite Bool.eqb_reflx in H2. cbn [negb orb] in H2.
      destruct y; try discriminate. destruct z; try discriminate. apply N. split; eexists; reflexivity.
    - apply (IH (pre ++ [y]) H). intros a y' b z c E. apply (W a y' b z c). rewrite <- E, <- app_assoc. reflexivity. }
  intros l H (_ & W & _). exact (G l [] H W).
Qed.
Lemma header_clash_sound : forall l, header_clash_b l = true -> ~ well_declared l.
Proof.
  intros l H (_ & _ & W). apply existsb_exists in H as (i & I & H). destruct i; try discriminate. apply existsb_exists in H as (y & Y & H).
  apply existsb_exists in H as (x & X & H). apply existsb_exists in H as (u & Iu & E). apply use_eqb_eq in E. subst u. exact (proj1 (W _ _ _ Y I X) Iu).
Qed.
(** The programs below are built, and the C file of the module of the given
    number declares something twice. *)
Definition clashing : list (list (string * string) * nat) :=
  [ (* a type declared twice; a type and a variable *)
    ([("p/main.c", "typedef int t; typedef char t; int main() { t x = 1; return x; }")], 0);
    ([("p/main.c", "typedef int t; enum { t = 1 } int main() { return t; }")], 0);
    (* a function of the C library *)
    ([("p/main.c", "int puts(int x) { return x; } int main() { return puts(1); }")], 0);
    (* the name of an export of another module *)
    ([("p/lib.c", "pub int f() { return 1; }");
      ("p/main.c", "#import lib.c
int mod0_lib__f() { return 2; } int main() { return mod0_lib__f() + lib.f(); }")], 1);
    (* the helper of calloc! *)
    ([("p/main.c", "void *calloc_or_panic(int a, b) { return calloc(a, b); } int main() { void *p = calloc!(1, 2); free(p); return 0; }")], 0) ]%string.
Definition clashing_b (x : list (string * string) * nat) : bool :=
  match build_of (fst x) with
  | BOk pr => match nth_error (pr_cmods pr) (snd x) with
              | Some cm => clash_b (cm_elements cm) || header_clash_b (cm_elements cm)
              | None => false
              end
  | _ => false
  end.
Theorem C69_declared_once_refuted : Forall (fun x => exists pr cm, build_of (fst x) = BOk pr
    /\ nth_error (pr_cmods pr) (snd x) = Some cm /\ ~ well_declared (cm_elements cm)) clashing.
Proof.
  assert (X : forallb clashing_b clashing = true) by (vm_cast_no_check (eq_refl true)).
  rewrite forallb_forall in X. apply Forall_forall. intros x I. specialize (X x I). unfold clashing_b in X.
  destruct (build_of (fst x)) as [pr | | |]; try discriminate. destruct (nth_error (pr_cmods pr) _) as [cm |] eqn:E; [| discriminate].
  exists pr, cm. split; [reflexivity |]. split; [exact E |]. apply orb_true_iff in X as [X | X]; [now apply clash_sound | now apply header_clash_sound].
Qed.
(** Two main functions; two pub functions each with a parameter of its own name. *)
Definition twice_defined : list (list (string * string)) :=
  [ [("p/lib.c", "pub int f() { return 1; } int main() { return 2; }");
     ("p/main.c", "#import lib.c
int main() { return lib.f(); }")];
    [("p/lib.c", "pub enum { RED } pub int f(int f) { return f; }"); ("p/main.c", "#import lib.c
pub int f(int f) { return f + lib.RED; } int main() { return 1; }")] ]%string.
Definition externals (cm : cmodule) : list str :=
  flat_map (fun e => match e with XFunc d => if starts_with (format_elem e) (L "static ") then [] else [cf_name (cfd_form d)] | _ => [] end) (cm_elements cm).
Theorem C68_one_definition_refuted : Forall (fun x => exists pr h m cm h' m' cm' d d', build_of x = BOk pr
    /\ unit_at pr 0 h m cm /\ unit_at pr 1 h' m' cm' /\ In (XFunc d) (cm_elements cm) /\ In (XFunc d') (cm_elements cm')
    /\ external d /\ external d' /\ cf_name (cfd_form d) = cf_name (cfd_form d')) twice_defined.
Proof.
  assert (X : forallb (fun x => match build_of x with
      | BOk (mkProject [h; h'] [m; m'] [a; b]) => existsb (fun n => str_in n (externals b)) (externals a)
      | _ => false
      end) twice_defined = true) by (vm_cast_no_check (eq_refl true)).
  assert (G : forall cm n, In n (externals cm) -> exists d, In (XFunc d) (cm_elements cm) /\ external d /\ cf_name (cfd_form d) = n).
  { intros cm n I. apply in_flat_map in I as (e & I & J). destruct e; try (now destruct J). destruct (starts_with _ _) eqn:S; [destruct J |].
    destruct J as [J | []]. eauto. }
  rewrite forallb_forall in X. apply Forall_forall. intros x I. specialize (X x I).
  destruct (build_of x) as [[hs ms cms] | | |]; try discriminate. destruct hs as [| h [| h' [|]]]; try discriminate. destruct ms as [| m [| m' [|]]]; try discriminate.
  destruct cms as [| a [| b [|]]]; try discriminate. apply existsb_exists in X as (n & Ia & Ib). apply str_in_spec in Ib.
  destruct (G _ _ Ia) as (d & D1 & D2 & D3). destruct (G _ _ Ib) as (d' & D1' & D2' & D3').
  exists (mkProject [h; h'] [m; m'] [a; b]), h, m, a, h', m', b, d, d'. repeat split; auto. congruence.
Qed.
Print Assumptions C68_prototypes_defined.
Print Assumptions C68_one_definition_partial.
Print Assumptions C68_one_definition_refuted.
Print Assumptions C69_declared_once_partial.
Print Assumptions C69_declared_once_refuted.
