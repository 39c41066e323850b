(** The meaning of repeated declarations in the generated C files (C71).
    Specification: SpecMeaning.v. *)
From Verif Require Import Base Buf Lexer Nodes Types Resolve Cursor Preparser Parser CAst FormatC Translator Build BaseFacts.
From Verif Require Import SpecLex SpecScope SpecDecl SpecModule SpecExports SpecTarget SpecTyping SpecBuild SpecTame SpecCStmt CStmtFacts SpecClosed SpecTidy SpecNeat SpecLink SpecMeaning
  ElabFacts TargetFacts ClosedFacts ClosedModule OpenCheck MeaningFacts PropBuild PropClosed PropFile PropLink Samples.

(** ** C71 *)
(** An export that two generated files declare is the same in both: the names it
    introduces and the names, types, structs and words it is made of stand for
    the same declarations in both files, which in turn are made of the same, and
    so on.  The conditions are those of C67 on names, those of C69 on what
    modules declare, and [clear]: no module has a private name, a macro or a
    struct that takes the place of something in the declarations of others. *)
Theorem C71_same_meaning_partial : forall (U : Unicode) w fuel main pr,
  parse_project w fuel main = BOk pr ->
  (forall i h m cm, unit_at pr i h m cm -> forall c, In c (mi_uniqid h) -> word_char c = true) ->
  (forall i h m cm, unit_at pr i h m cm -> distinct_exports (mi_uniqid h) (mod_elements m)) ->
  (forall i h m cm i' h' m' cm', unit_at pr i h m cm -> unit_at pr i' h' m' cm' -> same_directives (mod_elements m) (mod_elements m')) ->
  (forall i h m cm, unit_at pr i h m cm -> telling (mod_elements m)) ->
  (forall i h m cm i' h' m' cm', unit_at pr i h m cm -> unit_at pr i' h' m' cm' -> told_apart (mi_uniqid h') (mod_elements m) (mod_elements m')) ->
  forall system,
  (forall i h m cm, unit_at pr i h m cm -> tidy (site_of m (unit_params pr i h)) system) ->
  (forall i h m cm, unit_at pr i h m cm -> neat (site_of m (unit_params pr i h)) system) ->
  clear pr system ->
  forall i h m cm j h' m' cm', unit_at pr i h m cm -> unit_at pr j h' m' cm' ->
  (forall e x, In e (cm_elements cm) -> In e (cm_elements cm') -> offered e = true -> In x (introduces e ++ content e) ->
     alike (cm_elements cm) (cm_elements cm') x)
  (* so is a function that is used in one and defined in the other *)
  /\ forall p d x, In (XForwardFunc p) (cm_elements cm) -> cfw_static p = false -> In (XFunc d) (cm_elements cm') ->
     cf_name (cfw_form p) = cf_name (cfd_form d) ->
     face (XFunc d) = XForwardFunc p /\ (In x (content (XForwardFunc p)) -> alike (cm_elements cm) (cm_elements cm') x).
Proof.
  intros U w fuel main pr B F X D T T' system Ti N C i h m cm j h' m' cm' Hu Hu'. split.
  - intros e x. exact (same_meaning w fuel main pr B F X D T T' system Ti N C i h m cm j h' m' cm' e x Hu Hu').
  - exact (prototype_meaning w fuel main pr B F X D T T' system Ti N C i h m cm j h' m' cm' Hu Hu').
Qed.

(** Checks for the example. *)
Section Check.
Variable pr : project.
Definition none : cuse -> Prop := fun _ => False.
Definition units_of : list (modinfo * module_) := combine (pr_heads pr) (pr_mods pr).
Definition taken_names : list str :=
  flat_map (fun hm => flat_map (fun e =>
    let c := map (global_name (mi_uniqid (fst hm))) (names_with true e) ++ names_with false e in
    c ++ match e with MStruct _ => map struct_tag c | _ => [] end) (mod_elements (snd hm))) units_of.
Definition defines : list macro_ := filter (fun a => str_eqb (m_name a) (L "define")) (flat_map (fun hm => directives_of (snd hm)) units_of).
Definition defined_names : list str := flat_map (fun a => macro_names (m_value a)) defines.
Definition all_elements : list modelem := flat_map (fun hm => mod_elements (snd hm)) units_of.
Definition apart (l l' : list str) : bool := forallb (fun x => negb (str_in x l')) l.
Let added_names := map lit added.
Definition library_values : list str := flat_map (fun h => map lit (snd (snd h))) headers.
Definition clear_b : bool :=
  (apart (map lit basic_types) (taken_names ++ added_names) && apart taken_names added_names)
  && (apart defined_names (taken_names ++ added_names ++ map lit library_types ++ library_values)
      && forallb (fun a => forallb (fun b => apart (macro_names (m_value a)) (macro_names (m_value b)) || str_eqb (m_value a) (m_value b)) defines) defines)
  && (apart (flat_map inner_names all_elements) (added_names ++ defined_names)
      && apart (flat_map (fun e => match e with MStructAlias a => [sa_structname a] | _ => [] end) all_elements) (taken_names ++ added_names ++ defined_names)).
Lemma apart_by : forall l l', apart l l' = true -> forall x, In x l -> ~ In x l'.
Proof. intros l l' H x I J. unfold apart in H. rewrite forallb_forall in H. apply in_str in J. apply H in I. rewrite J in I. discriminate. Qed.
Lemma taken_in : forall x, taken pr x -> In x taken_names.
Proof.
  intros x (i & h & m & cm & e & b & y & (Hh & Hm & _) & Ie & Of & Ex). apply in_flat_map. exists (h, m). split; [eapply combined; eauto |]. apply in_flat_map. exists e. split; [exact Ie |].
  assert (C : In (if b then global_name (mi_uniqid h) y else y) (map (global_name (mi_uniqid h)) (names_with true e) ++ names_with false e)).
  { apply names_with_in in Of. rewrite in_app_iff. destruct b; [left; now apply in_map | now right]. }
  cbv zeta. rewrite in_app_iff. destruct Ex as [-> | [-> [s ->]]]; [now left | right; now apply in_map].
Qed.
Lemma macro_in : forall a x, macro_of pr a x -> In a defines /\ In x (macro_names (m_value a)) /\ In x defined_names.
Proof.
  intros a x (i & h & m & cm & (Hh & Hm & _) & Ia & N & Ix).
  assert (D : In a defines).
  { apply filter_In. split; [| rewrite N; apply str_eqb_refl]. apply in_flat_map. exists (h, m). split; [eapply combined; eauto | now apply directives_in]. }
  split; [exact D |]. split; [exact Ix |]. apply in_flat_map. eauto.
Qed.
Lemma elements_in : forall i h m cm e, unit_at pr i h m cm -> In e (mod_elements m) -> In e all_elements.
Proof. intros i h m cm e (Hh & Hm & _) I. apply in_flat_map. exists (h, m). split; [eapply combined; eauto | exact I]. Qed.
Lemma clear_by : clear_b = true -> clear pr none.
Proof.
  intros H. apply andb_true_iff in H as [H H3]. apply andb_true_iff in H as [H1 H2].
  apply andb_true_iff in H1 as [H1 H1'], H2 as [H2 H2'], H3 as [H3 H3'].
  pose proof (apart_by _ _ H1) as A1. pose proof (apart_by _ _ H1') as A2. pose proof (apart_by _ _ H2) as A3. pose proof (apart_by _ _ H3) as A4. pose proof (apart_by _ _ H3') as A5.
  constructor.
  - intros x [[] | [[] | I]]. apply A1 in I. rewrite in_app_iff in I. split; [intros T; apply taken_in in T |]; tauto.
  - intros x T. apply A2. now apply taken_in.
  - intros a x M. destruct (macro_in _ _ M) as (D & Ix & In1). apply A3 in In1. rewrite !in_app_iff in In1.
    split; [intros T; apply taken_in in T; tauto |]. split; [tauto |]. split; [intros [] |]. split; [intros [] |]. split; [tauto |]. split.
    + intros h Ih J. apply In1. do 3 right. apply in_flat_map. eauto.
    + intros a' M'. destruct (macro_in _ _ M') as (D' & Ix' & _). rewrite forallb_forall in H2'. specialize (H2' _ D). rewrite forallb_forall in H2'. specialize (H2' _ D').
      apply orb_true_iff in H2' as [Q | Q]; [destruct (apart_by _ _ Q _ Ix Ix') | now apply str_eqb_eq].
  - intros i h m cm e x Hu Ie Ix. assert (I : In x (flat_map inner_names all_elements)) by (apply in_flat_map; eauto using elements_in).
    apply A4 in I. rewrite in_app_iff in I. split; [tauto |]. intros a M. apply macro_in in M. tauto.
  - intros i h m cm a Hu Ia. assert (I : In (sa_structname a) (flat_map (fun e => match e with MStructAlias a => [sa_structname a] | _ => [] end) all_elements)).
    { apply in_flat_map. exists (MStructAlias a). split; [eauto using elements_in | now left]. }
    apply A5 in I. rewrite !in_app_iff in I. split; [intros T; apply taken_in in T; tauto |]. split; [tauto |]. intros d M. apply macro_in in M. tauto.
Qed.
End Check.

(** Three modules: constants, structs and types of the first one reach the third
    one directly and with the declarations of the second one. *)
Definition base_text : string :=
"#define SIDE 4
pub enum { LOW = 1, HIGH = LOW + SIDE }
pub typedef struct dirent entry_t;
pub typedef int num_t;
pub typedef { num_t at[HIGH]; entry_t *first; } grid_t;
typedef { grid_t *back; } note_t;
note_t *note = NULL;
pub num_t count(grid_t *grid, num_t from[SIDE]) {
  note = NULL;
  return grid->at[LOW] + from[0];
}
".
Definition middle_text : string :=
"#import base.c
pub typedef { base.grid_t grids[base.HIGH]; size_t len; } atlas_t;
pub size_t size(atlas_t *a, base.num_t n) { return a->len * n; }
".
Definition top_text : string :=
"#import base.c
#import middle.c
#define DEPTH 2
typedef { middle.atlas_t *atlas; base.num_t depth; } note_t;
int main() {
  note_t n = {.depth = DEPTH};
  base.grid_t g = {.first = NULL};
  base.num_t from[DEPTH];
  if (middle.size(n.atlas, n.depth) > 1) { return 0; }
  return base.count(&g, from);
}
".
Definition maps : bout project := build_of [("p/base.c"%string, base_text); ("p/middle.c"%string, middle_text); ("p/main.c"%string, top_text)].
Definition the_maps : project := Eval vm_compute in project_of maps.
(** The files have a declaration of an export in common that introduces the item
    or is made of it. *)
Definition repeated (l l' : list celem) (x : item) : Prop := exists e, In e l /\ In e l' /\ offered e = true /\ In x (introduces e ++ content e).
Definition item_eqb (x y : item) : bool :=
  match x, y with
  | IUse u, IUse v => use_eqb u v
  | ITag a, ITag b | IWord a, IWord b => str_eqb a b
  | _, _ => false
  end.
Lemma item_eqb_eq : forall x y, item_eqb x y = true -> x = y.
Proof. intros [u | a | a] [v | b | b] H; try discriminate; cbn in H; f_equal; try now apply str_eqb_eq. now apply use_eqb_eq. Qed.
Lemma item_eqb_refl : forall x, item_eqb x x = true.
Proof. intros [[a | a] | a | a]; cbn; apply str_eqb_refl. Qed.
Definition item_in (x : item) (l : list item) : bool := existsb (item_eqb x) l.
Lemma item_in_spec : forall x l, item_in x l = true <-> In x l.
Proof.
  intros x l. unfold item_in. rewrite existsb_exists. split; [intros (y & I & E); apply item_eqb_eq in E; now subst | intros I; exists x; split; [exact I | apply item_eqb_refl]].
Qed.
Lemma repeated_found : forall (f : celem -> list item), (forall x e, In x (f e) -> In x (introduces e ++ content e)) ->
  forall l l' x, let p e := offered e && item_in x (f e) in find p l = find p l' -> existsb p l = true -> repeated l l' x.
Proof.
  intros f Hf l l' x p E H. apply existsb_exists in H as (e0 & I & H). destruct (find p l) as [e |] eqn:F; [| rewrite (find_none _ _ F _ I) in H; discriminate].
  symmetry in E. apply find_some in F as [F P], E as [F' _]. apply andb_true_iff in P as [O P]. apply item_in_spec, Hf in P. exists e. auto.
Qed.
Example C71_example : maps = BOk the_maps
  /\ (forall i h m cm, unit_at the_maps i h m cm -> forall c, In c (mi_uniqid h) -> @word_char ascii_table c = true)
  /\ (forall i h m cm, unit_at the_maps i h m cm -> distinct_exports (mi_uniqid h) (mod_elements m))
  /\ (forall i h m cm i' h' m' cm', unit_at the_maps i h m cm -> unit_at the_maps i' h' m' cm' -> same_directives (mod_elements m) (mod_elements m'))
  /\ (forall i h m cm, unit_at the_maps i h m cm -> telling (mod_elements m))
  /\ (forall i h m cm i' h' m' cm', unit_at the_maps i h m cm -> unit_at the_maps i' h' m' cm' -> told_apart (mi_uniqid h') (mod_elements m) (mod_elements m'))
  /\ (forall i h m cm, unit_at the_maps i h m cm -> tidy (site_of m (unit_params the_maps i h)) none)
  /\ (forall i h m cm, unit_at the_maps i h m cm -> neat (site_of m (unit_params the_maps i h)) none)
  /\ clear the_maps none
  /\ exists h m cm h' m' cm', unit_at the_maps 0 h m cm /\ unit_at the_maps 2 h' m' cm'
     /\ forall x, In x [IUse (UName (L "mod0_base__HIGH")); IUse (UType (L "mod0_base__grid_t")); ITag (L "__mod0_base__grid_t_struct"); ITag (L "dirent");
                        IUse (UName (L "SIDE")); IUse (UName (L "mod0_base__count")); IUse (UType (L "int")); IWord (L "first"); IWord (L "grid")] ->
        repeated (cm_elements cm) (cm_elements cm') x.
Proof.
  split; [vm_compute; reflexivity |]. split; [| split; [| split; [| split; [| split; [| split; [| split; [| split]]]]]]].
  - intros [| [| [| i]]] h m cm (H & _) c I; [| | | vm_compute in H; destruct i; discriminate];
      vm_compute in H; injection H as <-; vm_compute in I; repeat (destruct I as [<- | I]; [reflexivity |]); destruct I.
  - intros [| [| [| i]]] h m cm (H & H' & _); [| | | vm_compute in H; destruct i; discriminate];
      vm_compute in H, H'; injection H as <-; injection H' as <-; apply distinct_by; reflexivity.
  - apply directives_by. vm_cast_no_check (eq_refl true).
  - assert (X : forallb (fun m => telling_b (mod_elements m)) (pr_mods the_maps) = true) by (vm_cast_no_check (eq_refl true)).
    intros i h m cm (_ & M & _). rewrite forallb_forall in X. apply telling_by, X. eapply nth_error_In; exact M.
  - apply told_by. vm_cast_no_check (eq_refl true).
  - intros [| [| [| i]]] h m cm (H & H' & _); [| | | vm_compute in H; destruct i; discriminate];
      vm_compute in H, H'; injection H as <-; injection H' as <-; apply tidy_by; vm_compute; intuition (subst; discriminate).
  - intros [| [| [| i]]] h m cm (H & H' & _); [| | | vm_compute in H; destruct i; discriminate];
      vm_compute in H, H'; injection H as <-; injection H' as <-; apply neat_by; vm_compute; intuition.
  - apply clear_by. vm_cast_no_check (eq_refl true).
  - do 6 eexists. split; [repeat split; vm_compute; reflexivity |]. split; [repeat split; vm_compute; reflexivity |].
    intros x [<- | [<- | [<- | [<- | [<- | [<- | [<- | [<- | [<- | []]]]]]]]]]; apply (repeated_found _ (fun _ _ I => I)); vm_compute; reflexivity.
Qed.

(** Without the conditions of [clear] the claim fails: the programs below are
    built, and both files declare an export that is made of the given item, which
    only the file of the main module has a declaration or a macro for. *)
Definition introduced_b (l : list celem) (x : item) : bool := existsb (fun e => item_in x (introduces e)) l.
Lemma not_alike : forall l l' x, introduced_b l x = false -> introduced_b l' x = true -> ~ alike l l' x.
Proof.
  intros l l' x H H' (same & Sx & S). apply existsb_exists in H' as (e & I & D). apply item_in_spec in D.
  destruct (proj2 (proj1 (S x Sx) (face e))) as (e' & I' & D' & _); [now exists e |].
  assert (X : introduced_b l x = true); [| congruence]. apply existsb_exists. exists e'. split; [exact I' | now apply item_in_spec].
Qed.
Definition unlike_programs : list (string * string * item) :=
  [ (* a type of the system's that the main module declares for itself *)
    ("pub typedef OS.dev_t id_t; pub int f(id_t *x) { if (x == NULL) { return 1; } return 2; }",
     "#import lib.c
typedef { int n; } dev_t; int main() { dev_t d = {}; lib.id_t *x = NULL; return lib.f(x) + d.n; }", IUse (UType (L "dev_t")));
    (* the same with a macro *)
    ("pub typedef OS.dev_t id_t; pub int f(id_t *x) { if (x == NULL) { return 1; } return 2; }",
     "#import lib.c
#define dev_t 8
int main() { lib.id_t *x = NULL; return lib.f(x) + dev_t; }", IUse (UType (L "dev_t")));
    (* a macro with the name of a member *)
    ("pub typedef { int size; } box_t; pub int f(box_t *b) { return b->size; }",
     "#import lib.c
#define size 8
int main() { lib.box_t b = {}; return lib.f(&b) + size; }", IWord (L "size"));
    (* a macro with the name of a parameter *)
    ("pub int f(int size) { return size; }",
     "#import lib.c
#define size 8
int main() { return lib.f(size); }", IWord (L "size"));
    (* an alias of a struct that has the tag of a struct of the main module *)
    ("pub typedef struct __box_t_struct other_t; pub int f(other_t *x) { if (x == NULL) { return 1; } return 2; }",
     "#import lib.c
typedef { int n; } box_t; int main() { box_t b = {}; return lib.f(NULL) + b.n; }", ITag (L "__box_t_struct")) ]%string.
Theorem C71_same_meaning_refuted : Forall (fun x => exists pr cm cm',
    build_of [("p/lib.c"%string, fst (fst x)); ("p/main.c"%string, snd (fst x))] = BOk pr
    /\ nth_error (pr_cmods pr) 0 = Some cm /\ nth_error (pr_cmods pr) 1 = Some cm'
    /\ repeated (cm_elements cm) (cm_elements cm') (snd x) /\ ~ alike (cm_elements cm) (cm_elements cm') (snd x)) unlike_programs.
Proof.
  repeat (apply Forall_cons; [do 3 eexists; split; [vm_compute; reflexivity |]; split; [reflexivity |]; split; [reflexivity |]; split;
    [apply (repeated_found content (fun x e I => in_or_app (introduces e) (content e) x (or_intror I))); vm_compute; reflexivity | apply not_alike; vm_compute; reflexivity] |]). apply Forall_nil.
Qed.
Print Assumptions C71_same_meaning_partial.
Print Assumptions C71_same_meaning_refuted.
