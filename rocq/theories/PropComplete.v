(** Complete types in the generated C files (C70).  Specification: SpecComplete.v. *)
From Verif Require Import Base Buf Lexer Nodes Types Resolve Cursor Preparser Parser CAst FormatC Translator Build BaseFacts.
From Verif Require Import SpecLex SpecScope SpecDecl SpecModule SpecExports SpecTarget SpecTyping SpecBuild SpecTame SpecCStmt CStmtFacts SpecClosed SpecTidy SpecNeat SpecLink SpecComplete
  ElabFacts TargetFacts ClosedFacts ClosedModule OpenCheck CompleteFacts PropBuild PropClosed PropFile PropLink Samples.

(** ** C70 *)
(** Wherever an element of a generated file needs the size of a type, that type
    is complete: it is a basic type, or a struct or typedef that is defined above
    it in the same file, or a type that the system defines.  The conditions are
    those of C67 on names, those of C69 on what modules declare, and that in the
    sources themselves each such type has a known size when one reads structs and
    typedefs in the order of [sized_at]. *)
Theorem C70_types_complete_partial : forall (U : Unicode) w fuel main pr,
  parse_project w fuel main = BOk pr ->
  (forall i h m cm, unit_at pr i h m cm -> forall c, In c (mi_uniqid h) -> word_char c = true) ->
  (forall i h m cm, unit_at pr i h m cm -> distinct_exports (mi_uniqid h) (mod_elements m)) ->
  (forall i h m cm, unit_at pr i h m cm -> telling (mod_elements m)) ->
  (forall i h m cm i' h' m' cm', unit_at pr i h m cm -> unit_at pr i' h' m' cm' -> told_apart (mi_uniqid h') (mod_elements m) (mod_elements m')) ->
  forall system,
  (forall i h m cm, unit_at pr i h m cm -> neat (site_of m (unit_params pr i h)) system) ->
  forall whole,
  (forall i h m cm, unit_at pr i h m cm -> well_sized whole pr i (mod_elements m)) ->
  forall i h m cm bef y aft, unit_at pr i h m cm -> cm_elements cm = bef ++ y :: aft ->
  forall t, In t (elem_needs y) -> complete whole bef t.
Proof.
  intros U w fuel main pr B F X T T' system N whole Z i h m cm bef y aft Hu E t I.
  exact (proj1 (file_complete w fuel main pr B F X T T' system N whole Z i h m cm bef y aft Hu E t I)).
Qed.

(** Checks for the example. *)
Section Check.
Variable pr : project.
Let none : str -> Prop := fun _ => False.
Definition locate (i : nat) (q : str) : option nat :=
  match nth_error (pr_heads pr) i with
  | Some h => match find (fun r => str_eqb (r_ns r) q) (mi_imports h) with
              | Some r => position (fun h' => str_eqb (mi_filepath h') (r_path r)) (pr_heads pr)
              | None => None
              end
  | None => None
  end.
Definition contents (i : nat) : list modelem := match nth_error (pr_mods pr) i with Some m => mod_elements m | None => [] end.
Fixpoint sized_b (fuel i : nat) (early : list modelem) (deep : bool) (n : nsname) : bool :=
  match fuel with
  | 0 => false
  | S fuel =>
      let elem_b j early e := match e with
                              | MStruct _ => deep
                              | MTypedef t => match td_func_params t with None => true | _ => false end
                                  && (negb (Nat.eqb (td_derefs t) 0) || sized_b fuel j early deep (tn_name (td_type t)))
                              | _ => false
                              end in
      if str_eqb (ns_ns n) []
      then str_in (ns_name n) (map lit sized_types)
           || (negb (str_in (ns_name n) (map lit library_types))
               && existsb (fun e => typed_b (ns_name n) e && elem_b i early e) early)
      else negb (str_eqb (ns_ns n) (L "OS"))
           && match locate i (ns_ns n) with
              | Some j => existsb (fun e => str_in (ns_name n) (types_of true [e]) && elem_b j (contents j) e) (contents j)
              | None => false
              end
  end.
Hypothesis units : forall i h, nth_error (pr_heads pr) i = Some h -> exists m cm, unit_at pr i h m cm.
Lemma types_of_one : forall pub e x, In x (types_of pub [e]) -> type_of_elem e pub x.
Proof.
  intros pub e x I. destruct e; cbn in *; try contradiction;
    (match type of I with In _ ((if Bool.eqb ?a ?b then _ else _) ++ []) => destruct (Bool.eqb a b) eqn:Q; [| destruct I] end;
     apply eqb_prop in Q; destruct I as [I | []]; now split).
Qed.
Lemma locate_import : forall i q j h m cm, unit_at pr i h m cm -> locate i q = Some j ->
  exists h' m' cm', import (site_of m (unit_params pr i h)) q = Some (h', m') /\ unit_at pr j h' m' cm'.
Proof.
  intros i q j h m cm (H & _) Lo. unfold locate in Lo. rewrite H in Lo. destruct (find _ _) as [r |] eqn:F; [| discriminate].
  assert (N : exists h', nth_error (pr_heads pr) j = Some h').
  { revert Lo. clear. revert j. induction (pr_heads pr) as [| a l IH]; intros j; cbn [position]; [discriminate |].
    destruct (str_eqb (mi_filepath a) (r_path r)); [intros [= <-]; cbn; eauto |]. destruct (position _ l); [| discriminate]. intros [= <-]. cbn. auto. }
  destruct N as (h' & N). destruct (units _ _ N) as (m' & cm' & Hu). exists h', m', cm'. split; [| exact Hu].
  cbn [site_of import unit_params tp_mod tp_heads tp_mods]. unfold imported. rewrite F, (find_combine _ _ (fun h' => str_eqb (mi_filepath h') (r_path r))), Lo. destruct Hu as (-> & -> & _). reflexivity.
Qed.
Lemma sized_sound : forall fuel i el deep n h m cm (early : modelem -> Prop), unit_at pr i h m cm ->
  (forall e, In e el -> In e (mod_elements m) /\ early e) -> sized_b fuel i el deep n = true -> sized none pr i early deep n.
Proof.
  induction fuel as [| fuel IH]; intros i el deep n h m cm early Hu He H; [discriminate |]. cbn [sized_b] in H.
  destruct (str_eqb_spec (ns_ns n) []) as [En | En].
  - apply orb_true_iff in H as [H | H]; [apply str_in_spec in H; now apply Sz_basic |]. apply andb_true_iff in H as [H1 H2].
    apply existsb_exists in H2 as (e & Ie & H2). apply andb_true_iff in H2 as [H2 H3]. destruct (He e Ie) as [Im Ea].
    assert (T : exists b, type_of_elem e b (ns_name n)).
    { apply existsb_exists in H2 as (x & Ix & Q). apply str_eqb_eq in Q. subst x. apply in_app_or in Ix as [Ix | Ix]; apply types_of_one in Ix; eauto. }
    destruct T as (b & T). eapply Sz_own; eauto; [apply negb_true_iff in H1; now apply str_in_false |]. destruct e; try discriminate.
    + apply andb_true_iff in H3 as [H3 H4]. apply Se_typedef; [now destruct (td_func_params t) |]. intros Z. rewrite Z in H4. cbn in H4. eapply IH; eauto.
    + now apply Se_struct.
  - apply andb_true_iff in H as [H1 H2]. destruct (locate i (ns_ns n)) as [j |] eqn:Lo; [| discriminate].
    destruct (locate_import _ _ _ _ _ _ Hu Lo) as (h' & m' & cm' & Hi & Hj). apply existsb_exists in H2 as (e & Ie & H2).
    assert (Ec : contents j = mod_elements m') by (unfold contents; destruct Hj as (_ & -> & _); reflexivity). rewrite Ec in *.
    apply andb_true_iff in H2 as [H2 H3]. apply str_in_spec, types_of_one in H2.
    eapply Sz_import; eauto; [intros Q; rewrite Q in H1; discriminate |]. destruct e; try discriminate.
    + apply andb_true_iff in H3 as [H3 H4]. apply Se_typedef; [now destruct (td_func_params t) |]. intros Z. rewrite Z in H4. cbn in H4. eapply IH; eauto.
    + now apply Se_struct.
Qed.
Variables (i : nat) (fuel : nat).
Definition form_b (early : list modelem) (t : typename) (f : form) : Prop := negb (Nat.eqb (f_hops f) 0) || sized_b fuel i early true (tn_name t) = true.
Definition expr_b (early : list modelem) (e : expr) : Prop :=
  match e with ESizeofT t => negb (Nat.eqb (btf_hops t) 0) || sized_b fuel i early true (tn_name (btf_type t)) = true | _ => True end.
Definition stmt_b (early : list modelem) (s : stmt) : Prop :=
  match s with
  | SVarDecl v => form_b early (v_type v) (v_form v)
  | SFor (Some (FIDecl t f _)) _ _ _ => form_b early t f
  | _ => True
  end.
Definition others : list modelem := filter (fun e => match e with MStruct _ => false | _ => true end) (contents i).
Definition at_b (before : list modelem) (e : modelem) : Prop :=
  match e with
  | MMacro _ | MStructAlias _ => True
  | MTypedef t => N.eqb (td_array_size t) 0 || negb (Nat.eqb (td_derefs t) 0) || sized_b fuel i before false (tn_name (td_type t)) = true
  | MStruct s =>
      all (fun x => match x with
                    | StPlain t => all (form_b (before ++ others) (taf_type t)) (taf_forms t)
                    | StUnion u => all (fun p => form_b (before ++ others) (fst p) (snd p)) (u_fields u)
                    end) (st_entries s)
      /\ each_elem (expr_b (before ++ others)) (fun _ => True) e
  | MEnum _ => each_elem (expr_b (before ++ others)) (fun _ => True) e
  | MVar v => form_b (contents i) (v_type v) (v_form v) /\ each_elem (expr_b (contents i)) (fun _ => True) e
  | MFunc f =>
      (str_eqb (ns_ns (tn_name (fd_type f))) [] && str_eqb (ns_name (tn_name (fd_type f))) (L "void") = true \/ form_b (contents i) (fd_type f) (fd_form f))
      /\ all (fun t => all (form_b (contents i) (taf_type t)) (taf_forms t)) (fp_list (fd_params f))
      /\ each_elem (expr_b (contents i)) (stmt_b (contents i)) e
  end.
Fixpoint ats_b (before l : list modelem) : Prop := match l with [] => True | e :: r => at_b before e /\ ats_b (before ++ [e]) r end.
Variables (h : modinfo) (m : module_) (cm : cmodule).
Hypothesis Hu : unit_at pr i h m cm.
Lemma contents_own : contents i = mod_elements m.
Proof. unfold contents. destruct Hu as (_ & -> & _). reflexivity. Qed.
Lemma well_sized_by : ats_b [] (mod_elements m) -> well_sized none pr i (mod_elements m).
Proof.
  assert (A1 : forall e, In e (contents i) -> In e (mod_elements m) /\ True) by (rewrite contents_own; auto).
  assert (A2 : forall before e after, mod_elements m = before ++ e :: after -> forall x, In x (before ++ others) -> In x (mod_elements m) /\ structs_in before x).
  { intros before e after Q x I. apply in_app_or in I as [I | I].
    - split; [rewrite Q, in_app_iff; auto |]. destruct x; cbn; auto.
    - unfold others in I. rewrite contents_own in I. apply filter_In in I as [I K]. split; [exact I |]. now destruct x. }
  assert (F : forall el (early : modelem -> Prop), (forall e, In e el -> In e (mod_elements m) /\ early e) -> forall t f, form_b el t f -> sized_form none pr i early t f).
  { intros el early He t f H Z. unfold form_b in H. rewrite Z in H. cbn in H. eapply sized_sound; eauto. }
  assert (X : forall el (early : modelem -> Prop), (forall e, In e el -> In e (mod_elements m) /\ early e) -> forall x, expr_b el x -> sized_expr none pr i early x).
  { intros el early He x H. destruct x; try exact I. intros Z. cbn [expr_b] in H. rewrite Z in H. cbn in H. eapply sized_sound; eauto. }
  assert (Y : forall x, stmt_b (contents i) x -> sized_stmt none pr i (fun _ => True) x).
  { intros x H. destruct x as [| | vd | | fi | | | |]; try exact I; [| destruct fi as [[x | ty fm x] |]; try exact I]; cbn in *; eapply F; eauto. }
  assert (G : forall before e after, mod_elements m = before ++ e :: after -> at_b before e -> sized_at none pr i before e).
  { intros before e after Q H. specialize (A2 _ _ _ Q). destruct e as [d | x | a | t | s | v | f]; cbn [at_b sized_at] in *; try exact I.
    - revert H. apply each_elem_mono; [now apply X | auto].
    - intros Z D. rewrite D in H. apply orb_true_iff in H as [H | H].
      + apply orb_true_iff in H as [H | H]; [apply N.eqb_eq in H; contradiction | discriminate].
      + eapply sized_sound; eauto. intros x Ix. split; [rewrite Q, in_app_iff; now left | exact Ix].
    - destruct H as [H1 H2]. split; [| revert H2; apply each_elem_mono; [now apply X | auto]]. rewrite all_in in *. intros x Ix. specialize (H1 x Ix).
      destruct x; rewrite all_in in *; intros; eapply F; eauto.
    - destruct H as [H1 H2]. split; [eapply F; eauto |]. revert H2. apply each_elem_mono; [now apply X | auto].
    - destruct H as (H1 & H2 & H3). split; [| split].
      + intros V. destruct H1 as [H1 | H1]; [| eapply F; eauto]. exfalso. apply V. apply andb_true_iff in H1 as [K1 K2]. apply str_eqb_eq in K1, K2.
        destruct (tn_name (fd_type f)). cbn in *. now subst.
      + rewrite all_in in *. intros t It. specialize (H2 t It). cbv beta in *. rewrite all_in in *. intros g Ig. eapply F; eauto.
      + revert H3. apply each_elem_mono; [now apply X | exact Y]. }
  assert (R : forall l pre, mod_elements m = pre ++ l -> ats_b pre l -> forall before e after, l = before ++ e :: after -> sized_at none pr i (pre ++ before) e).
  { induction l as [| x l IH]; intros pre E H [| y before] e after Q; try discriminate; cbn [app] in Q; injection Q as -> ->; destruct H as [H1 H2].
    - rewrite app_nil_r. exact (G _ _ _ E H1).
    - change (y :: before) with ([y] ++ before). rewrite app_assoc. apply (IH (pre ++ [y])) with (after := after); auto. rewrite E, <- app_assoc. reflexivity. }
  intros H before e after Q. exact (R _ [] eq_refl H before e after Q).
Qed.
End Check.

(** Structs in structs, arrays, array types and sizes, across two files. *)
Definition depot_text : string :=
"pub enum { SLOTS = 4 }
pub typedef int num_t;
pub typedef num_t row_t[4];
pub typedef { row_t row; num_t *rest; } box_t;
typedef { box_t box; box_t *next; } crate_t;
pub int area(box_t b) {
  crate_t c = {.box = b};
  crate_t *p = &c;
  return sizeof(row_t) + p->box.row[0];
}
".
Definition yard_text : string :=
"#import depot.c
typedef depot.row_t grid_t[3];
typedef { depot.box_t box; grid_t grid; } load_t;
typedef { load_t loads[depot.SLOTS]; } tray_t;
tray_t *tray = NULL;
load_t first(tray_t t) { return t.loads[0]; }
int main() {
  tray_t t = {};
  tray = &t;
  depot.box_t b = {.rest = NULL};
  load_t l = first(t);
  if (l.box.rest == NULL) { return sizeof(tray_t); }
  return depot.area(b);
}
".
Definition yard : bout project := build_of [("p/depot.c"%string, depot_text); ("p/main.c"%string, yard_text)].
Definition the_yard : project := Eval vm_compute in project_of yard.
Lemma needs_by : forall ts l,
  existsb (fun e => forallb (fun t => str_in t (elem_needs e)) ts) l = true ->
  exists bef y aft, l = bef ++ y :: aft /\ forall t, In t ts -> In t (elem_needs y).
Proof.
  intros us l H. apply existsb_exists in H as (y & I & H). apply in_split in I as (bef & aft & ->). exists bef, y, aft. split; [reflexivity |].
  rewrite forallb_forall in H. intros u J. now apply str_in_spec, H.
Qed.
Example C70_example : yard = BOk the_yard
  /\ (forall i h m cm, unit_at the_yard i h m cm -> forall c, In c (mi_uniqid h) -> @word_char ascii_table c = true)
  /\ (forall i h m cm, unit_at the_yard i h m cm -> distinct_exports (mi_uniqid h) (mod_elements m))
  /\ (forall i h m cm, unit_at the_yard i h m cm -> telling (mod_elements m))
  /\ (forall i h m cm i' h' m' cm', unit_at the_yard i h m cm -> unit_at the_yard i' h' m' cm' -> told_apart (mi_uniqid h') (mod_elements m) (mod_elements m'))
  /\ (forall i h m cm, unit_at the_yard i h m cm -> neat (site_of m (unit_params the_yard i h)) (fun _ => False))
  /\ (forall i h m cm, unit_at the_yard i h m cm -> well_sized (fun _ => False) the_yard i (mod_elements m))
  /\ exists h m cm, unit_at the_yard 1 h m cm
     /\ forall ts, In ts [ (* a typedef, three structs, two functions *)
                           [L "mod0_depot__row_t"]; [L "mod0_depot__row_t"]; [L "mod0_depot__box_t"; L "grid_t"]; [L "load_t"];
                           [L "load_t"; L "tray_t"]; [L "tray_t"; L "mod0_depot__box_t"; L "load_t"; L "int"]] ->
        exists bef y aft, cm_elements cm = bef ++ y :: aft /\ forall t, In t ts -> In t (elem_needs y).
Proof.
  assert (Un : forall i h, nth_error (pr_heads the_yard) i = Some h -> exists m cm, unit_at the_yard i h m cm).
  { intros [| [| i]] h H; [| | destruct i; discriminate]; injection H as <-; do 2 eexists; repeat split; reflexivity. }
  split; [vm_compute; reflexivity |]. split; [| split; [| split; [| split; [| split; [| split]]]]].
  - intros [| [| i]] h m cm (H & _) c I; [| | vm_compute in H; destruct i; discriminate];
      vm_compute in H; injection H as <-; vm_compute in I; repeat (destruct I as [<- | I]; [reflexivity |]); destruct I.
  - intros [| [| i]] h m cm (H & H' & _); [| | vm_compute in H; destruct i; discriminate];
      vm_compute in H, H'; injection H as <-; injection H' as <-; apply distinct_by; reflexivity.
  - assert (X : forallb (fun m => telling_b (mod_elements m)) (pr_mods the_yard) = true) by (vm_cast_no_check (eq_refl true)).
    intros i h m cm (_ & M & _). rewrite forallb_forall in X. apply telling_by, X. eapply nth_error_In; exact M.
  - apply told_by. vm_cast_no_check (eq_refl true).
  - intros [| [| i]] h m cm (H & H' & _); [| | vm_compute in H; destruct i; discriminate];
      vm_compute in H, H'; injection H as <-; injection H' as <-; apply neat_by; vm_compute; intuition.
  - intros [| [| i]] h m cm Hu; [| | destruct Hu as (H & _); vm_compute in H; destruct i; discriminate];
      apply (well_sized_by the_yard Un _ 8 h m cm Hu); destruct Hu as (_ & H & _); vm_compute in H; injection H as <-; vm_compute; intuition.
  - do 3 eexists. split; [repeat split; vm_compute; reflexivity |].
    intros ts J. apply needs_by. revert ts J. apply Forall_forall. repeat constructor; vm_cast_no_check (eq_refl true).
Qed.

(** Without the order of the sources the claim fails. *)
Section Lacking.
Variable l : list celem.
Fixpoint incomplete_b (fuel : nat) (x : str) : bool :=
  match fuel with
  | 0 => false
  | S fuel =>
      negb (str_in x (map lit sized_types))
      && forallb (fun e => match e with
                           | XStruct s => negb (str_eqb (L "struct " ++ csd_name s) x)
                           | XTypedef t => negb (str_eqb (ctdf_alias (ctd_form t)) x)
                               || match ctdf_params (ctd_form t), ctdf_stars (ctd_form t) with
                                  | Some _, _ => true
                                  | None, [] => incomplete_b fuel (ctn_name (ctd_type t))
                                  | None, _ => false
                                  end
                           | _ => true
                           end) l
  end.
Lemma incomplete_sound : forall fuel x, incomplete_b fuel x = true -> ~ complete (fun _ => False) l x.
Proof.
  induction fuel as [| fuel IH]; intros x H; [discriminate |]. cbn [incomplete_b] in H. apply andb_true_iff in H as [H1 H2].
  apply negb_true_iff, str_in_false in H1. rewrite forallb_forall in H2. intros C. destruct C as [x I | x [] | s I | t I P C]; [contradiction | |].
  - apply H2 in I. rewrite str_eqb_refl in I. discriminate.
  - apply H2 in I. rewrite str_eqb_refl, P in I. cbn [negb orb] in I. destruct (ctdf_stars (ctd_form t)); [| discriminate]. exact (IH _ I (C eq_refl)).
Qed.
End Lacking.
Fixpoint lacking_b (before l : list celem) : bool :=
  match l with
  | [] => false
  | y :: r => existsb (incomplete_b before 8) (elem_needs y) || lacking_b (before ++ [y]) r
  end.
Definition lacking (l : list celem) : Prop :=
  exists bef y aft t, l = bef ++ y :: aft /\ In t (elem_needs y) /\ ~ complete (fun _ => False) bef t.
Lemma lacking_sound : forall l, lacking_b [] l = true -> lacking l.
Proof.
  intros l. enough (G : forall l pre, lacking_b pre l = true -> lacking (pre ++ l)) by exact (G l []).
  clear l. induction l as [| y l IH]; intros pre H; [discriminate |]. cbn [lacking_b] in H. apply orb_true_iff in H as [H | H].
  - apply existsb_exists in H as (t & I & H). exists pre, y, l, t. split; [reflexivity |]. split; [exact I |]. now apply incomplete_sound in H.
  - apply IH in H. rewrite <- app_assoc in H. exact H.
Qed.
(** The programs below are built, and in the C file of the module of the given
    number some element needs a type that is not complete there. *)
Definition lacking_programs : list (list (string * string) * nat) :=
  [ (* an array type of structs; the same of an imported struct *)
    ([("p/main.c", "typedef { int x; } foo_t; typedef foo_t foos_t[10]; int main() { foos_t f; f[0].x = 1; return f[0].x; }")], 0);
    ([("p/lib.c", "pub typedef { int x; } foo_t;");
      ("p/main.c", "#import lib.c
typedef lib.foo_t foos_t[10]; int main() { foos_t f; f[0].x = 1; return f[0].x; }")], 1);
    (* a member of a later struct; of the struct itself *)
    ([("p/main.c", "typedef { b_t b; } a_t; typedef { int x; } b_t; int main() { a_t a = {}; return a.b.x; }")], 0);
    ([("p/main.c", "typedef { a_t a; int x; } a_t; int main() { a_t a = {}; return a.x; }")], 0);
    (* a member of type void *)
    ([("p/main.c", "typedef { void v; int x; } a_t; int main() { a_t a = {}; return a.x; }")], 0) ]%string.
Definition lacks_b (x : list (string * string) * nat) : bool :=
  match build_of (fst x) with
  | BOk pr => match nth_error (pr_cmods pr) (snd x) with Some cm => lacking_b [] (cm_elements cm) | None => false end
  | _ => false
  end.
Theorem C70_types_complete_refuted : Forall (fun x => exists pr cm, build_of (fst x) = BOk pr
    /\ nth_error (pr_cmods pr) (snd x) = Some cm /\ lacking (cm_elements cm)) lacking_programs.
Proof.
  assert (X : forallb lacks_b lacking_programs = true) by (vm_cast_no_check (eq_refl true)).
  rewrite forallb_forall in X. apply Forall_forall. intros x I. specialize (X x I). unfold lacks_b in X.
  destruct (build_of (fst x)) as [pr | | |]; try discriminate. destruct (nth_error (pr_cmods pr) _) as [cm |] eqn:E; [| discriminate].
  exists pr, cm. split; [reflexivity |]. split; [exact E |]. now apply lacking_sound.
Qed.
Print Assumptions C70_types_complete_partial.
Print Assumptions C70_types_complete_refuted.
