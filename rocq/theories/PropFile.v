(** The names used by the elements of the generated C files (C67, whole files).
    Specification: SpecClosed.v, SpecTidy.v, SpecNeat.v. *)
From Verif Require Import Base Buf Lexer Nodes Types Resolve Cursor Preparser Parser CAst FormatC Translator Build BaseFacts.
From Verif Require Import SpecLex SpecScope SpecDecl SpecModule SpecExports SpecTarget SpecTyping SpecBuild SpecTame SpecCStmt CStmtFacts SpecClosed SpecTidy SpecNeat
  ElabFacts TargetFacts ClosedFacts ClosedModule ClosedProject ClosedFile OpenCheck PropBuild PropClosed Samples.

(** ** C67 *)
(** Whatever an element of a generated file uses from outside, an element being
    a type, a struct, an enum, a prototype, a variable or a function, is declared
    above it in the same file, or is a basic type, or is something that the
    sources take from the system by [OS.x] or a directive.  Needed: file names
    made of letters, digits and underscores, exports that can be told apart in C,
    no two directives with the same text and different names, and modules that
    avoid the constructs listed in SpecTidy.v and SpecNeat.v. *)
Theorem C67_files_closed_partial : forall (U : Unicode) w fuel main pr,
  parse_project w fuel main = BOk pr ->
  (forall i h m cm, unit_at pr i h m cm -> forall c, In c (mi_uniqid h) -> word_char c = true) ->
  (forall i h m cm, unit_at pr i h m cm -> distinct_exports (mi_uniqid h) (mod_elements m)) ->
  (forall i h m cm i' h' m' cm', unit_at pr i h m cm -> unit_at pr i' h' m' cm' -> same_directives (mod_elements m) (mod_elements m')) ->
  forall system,
  (forall i h m cm, unit_at pr i h m cm -> tidy (site_of m (unit_params pr i h)) system) ->
  (forall i h m cm, unit_at pr i h m cm -> neat (site_of m (unit_params pr i h)) system) ->
  forall i h m cm bef y aft, unit_at pr i h m cm -> cm_elements cm = bef ++ y :: aft ->
  forall u, In u (elem_uses y) -> declared_in bef u \/ basic u \/ system u.
Proof. exact @file_closed. Qed.

(** Checks for the example. *)
Section Check.
Variable S : site.
Definition declares_b (x : str) (e : modelem) : bool := str_in x (map d_name (elem_decls is_numeric e)).
Definition constant_b (elems : list modelem) (x : str) : bool :=
  existsb (fun e => match e with MEnum e => enum_pub e && str_in x (map en_name (enum_entries e)) | _ => false end) elems.
(** [late] are the enums, [latev] the variables, that may not be used. *)
Definition outer_name_b (pub : bool) (known : list str) (late latev : list modelem) (fns : bool) (n : nsname) : bool :=
  fine_name n
  && (negb (str_eqb (ns_ns n) []) || str_in (ns_name n) known
      || forallb (fun e => negb (declares_b (ns_name n) e)
                           || match e with
                              | MMacro _ | MVar _ => true
                              | MEnum x => negb pub || enum_pub x
                              | MFunc _ => fns
                              | _ => false
                              end) (elements S)
         && forallb (fun e => match e with MEnum _ => negb (declares_b (ns_name n) e) | _ => true end) late
         && forallb (fun e => match e with MVar _ => negb (declares_b (ns_name n) e) | _ => true end) latev)
  && (str_eqb (ns_ns n) [] || fns || match import S (ns_ns n) with Some (h, m) => constant_b (mod_elements m) (ns_name n) | None => true end).
Definition typed_b (x : str) (e : modelem) : bool := existsb (str_eqb x) (types_of true [e] ++ types_of false [e]).
Definition outer_type_b (pub : bool) (t : typename) : bool :=
  fine_type S t && (negb pub || negb (str_eqb (ns_ns (tn_name t)) []) || negb (str_in (ns_name (tn_name t)) (types_of false (elements S)))).
Definition earlier_type_b (pub : bool) (late : list modelem) (t : typename) : bool :=
  outer_type_b pub t && (negb (str_eqb (ns_ns (tn_name t)) []) || forallb (fun e => negb (typed_b (ns_name (tn_name t)) e)) late).
Definition outer_expr_b (pub : bool) (known : list str) (late latev : list modelem) (fns : bool) (e : expr) : Prop :=
  match e with
  | EName n => outer_name_b pub known late latev fns n = true
  | ECast t _ | ESizeofT t => outer_type_b pub (btf_type t) = true
  | EComp es => forallb (fun x => negb (fst (fst x))) es = true
  | ECall _ f _ => is_name f "calloc!" = false
  | _ => True
  end.
Fixpoint entries_b (pub : bool) (late : list modelem) (known : list str) (l : list enum_entry) : Prop :=
  match l with
  | [] => True
  | en :: r => all_opt (each_expr (outer_expr_b pub known late (elements S) false)) (en_val en) /\ entries_b pub late (known ++ [en_name en]) r
  end.
Definition outer_elem_b (late : list modelem) (e : modelem) : Prop :=
  match e with
  | MMacro _ | MStructAlias _ => True
  | MEnum x => entries_b (enum_pub x) late [] (enum_entries x)
  | MTypedef t => earlier_type_b (td_pub t) late (td_type t) = true
      /\ all_opt (fun p => forallb (fun b => earlier_type_b (td_pub t) late (btf_type b)) (ap_forms p) = true) (td_func_params t)
  | MStruct s =>
      all (fun x => match x with
                    | StPlain t => outer_type_b (st_pub s) (taf_type t) = true
                    | StUnion u => forallb (fun p => outer_type_b (st_pub s) (fst p)) (u_fields u) = true
                    end) (st_entries s)
      /\ all (each_field (outer_expr_b (st_pub s) [] late (elements S) false)) (st_entries s)
  | MVar v =>
      outer_type_b false (v_type v) = true
      /\ each_form (outer_expr_b false [] [] late true) (v_form v)
      /\ all_opt (each_expr (outer_expr_b false [] [] late true)) (v_value v)
  | MFunc f =>
      let names := param_names (fd_params f) in
      outer_type_b (fd_pub f) (fd_type f) = true /\ forallb (fun t => outer_type_b (fd_pub f) (taf_type t)) (fp_list (fd_params f)) = true
      /\ each_form (outer_expr_b (fd_pub f) names [] (elements S) false) (fd_form f)
      /\ all (fun t => all (each_form (outer_expr_b (fd_pub f) names [] (elements S) false)) (taf_forms t)) (fp_list (fd_params f))
  end.
Fixpoint outer_elems_b (l : list modelem) : Prop := match l with [] => True | e :: r => outer_elem_b l e /\ outer_elems_b r end.

Let none : cuse -> Prop := fun _ => False.
Lemma in_str : forall x l, In x l -> str_in x l = true.
Proof. intros x l I. apply existsb_exists. exists x. split; [exact I | apply str_eqb_refl]. Qed.
Lemma outer_name_sound : forall pub known enums vars late latev fns n,
  (forall e, In e (elements S) -> In e enums \/ In e late) -> (forall e, In e (elements S) -> In e vars \/ In e latev) ->
  outer_name_b pub known late latev fns n = true -> outer_name S none pub known enums vars fns n.
Proof.
  intros pub known enums vars late latev fns n He Hv H. apply andb_true_iff in H as [H H3]. apply andb_true_iff in H as [H1 H2].
  split; [now apply fine_name_sound |]. split.
  - intros En Nk e Ie D. rewrite En in H2. cbn [str_eqb negb orb] in H2. destruct (str_in (ns_name n) known) eqn:K; [apply str_in_spec in K; contradiction |].
    cbn [orb] in H2. apply andb_true_iff in H2 as [H2 Hlv]. apply andb_true_iff in H2 as [H2 Hle]. rewrite forallb_forall in H2, Hlv, Hle.
    assert (Db : declares_b (ns_name n) e = true) by (apply in_str, D). specialize (H2 e Ie). rewrite Db in H2. cbn [negb orb] in H2.
    destruct e; try discriminate; auto.
    + split.
      * destruct (He _ Ie) as [? | L']; [auto |]. apply Hle in L'. rewrite Db in L'. discriminate.
      * intros ->. exact H2.
    + destruct (Hv _ Ie) as [? | L']; [auto |]. apply Hlv in L'. rewrite Db in L'. discriminate.
  - intros Nn _ h m Im. rewrite Im in H3. destruct (str_eqb_spec (ns_ns n) []) as [? | _]; [contradiction |]. cbn [orb] in H3.
    apply orb_true_iff in H3 as [H3 | H3]; [auto | right]. apply existsb_exists in H3 as (e & I & H3). destruct e; try discriminate.
    apply andb_true_iff in H3 as [Pe H3]. apply str_in_spec, in_map_iff in H3 as (en & Ee & Ien). exists e, en. auto.
Qed.
Lemma outer_type_sound : forall pub t, outer_type_b pub t = true -> outer_type S none pub t.
Proof.
  intros pub t H. apply andb_true_iff in H as [H1 H2]. split; [now apply fine_type_sound |]. intros -> En e Ie T.
  rewrite En in H2. cbn [negb str_eqb orb] in H2. rewrite (in_str _ _ (types_of_in _ _ _ _ Ie T)) in H2. discriminate.
Qed.
Lemma earlier_type_sound : forall pub before late t, (forall e, In e (elements S) -> In e before \/ In e late) ->
  earlier_type_b pub late t = true -> earlier_type S none pub before t.
Proof.
  intros pub before late t He H. apply andb_true_iff in H as [H1 H2]. split; [now apply outer_type_sound |]. intros En e b Ie T.
  rewrite En in H2. cbn [negb str_eqb orb] in H2. rewrite forallb_forall in H2. destruct (He _ Ie) as [? | L']; [auto |]. apply H2, negb_true_iff in L'.
  exfalso. assert (X : typed_b (ns_name (tn_name t)) e = true); [| congruence]. apply existsb_exists. exists (ns_name (tn_name t)).
  split; [| apply str_eqb_refl]. rewrite in_app_iff. destruct b; [left | right]; (eapply types_of_in; [now left | exact T]).
Qed.
Lemma outer_expr_sound : forall pub known enums vars late latev fns,
  (forall e, In e (elements S) -> In e enums \/ In e late) -> (forall e, In e (elements S) -> In e vars \/ In e latev) ->
  forall e, outer_expr_b pub known late latev fns e -> outer_expr S none pub known enums vars fns e.
Proof.
  intros pub known enums vars late latev fns He Hv [] H; cbn in *; eauto using outer_name_sound, outer_type_sound.
  rewrite all_in. rewrite forallb_forall in H. intros x I. apply H in I. now destruct (fst (fst x)).
Qed.
Lemma entries_sound : forall pub before late, (forall e, In e (elements S) -> In e before \/ In e late) ->
  forall l known, entries_b pub late known l ->
  forall a en b, l = a ++ en :: b -> all_opt (each_expr (outer_expr S none pub (known ++ map en_name a) before [] false)) (en_val en).
Proof.
  intros pub before late He l. induction l as [| x l IH]; intros known H [| y a] en b E; try discriminate; cbn [app] in E; injection E as -> ->; destruct H as [H1 H2].
  - cbn [map]. rewrite app_nil_r. destruct (en_val en); cbn [all_opt] in *; [| exact I].
    apply (expr_mp3 _ _ _ (fun e A _ => outer_expr_sound pub known before [] late (elements S) false He (fun _ I => or_intror I) e A) _ H1 H1).
  - cbn [map]. specialize (IH _ H2 a en b eq_refl). now rewrite <- app_assoc in IH.
Qed.
Lemma outer_elem_sound : forall before late e, (forall x, In x (elements S) -> In x before \/ In x late) ->
  outer_elem_b late e -> outer_elem S none before e.
Proof.
  intros before late e He H.
  assert (X : forall pub known enums vars le lv fns,
    (forall e, In e (elements S) -> In e enums \/ In e le) -> (forall e, In e (elements S) -> In e vars \/ In e lv) ->
    forall e, each_expr (outer_expr_b pub known le lv fns) e -> each_expr (outer_expr S none pub known enums vars fns) e).
  { intros pub known enums vars le lv fns A B e0 K. apply (expr_mp3 _ _ _ (fun e C _ => outer_expr_sound pub known enums vars le lv fns A B e C) _ K K). }
  assert (F : forall pub known enums vars le lv fns,
    (forall e, In e (elements S) -> In e enums \/ In e le) -> (forall e, In e (elements S) -> In e vars \/ In e lv) ->
    forall f, each_form (outer_expr_b pub known le lv fns) f -> each_form (outer_expr S none pub known enums vars fns) f).
  { intros pub known enums vars le lv fns A B f K. apply (form_mp3 _ _ _ (fun e C _ => outer_expr_sound pub known enums vars le lv fns A B e C) _ K K). }
  assert (Al : forall e : modelem, In e (elements S) -> In e (elements S) \/ In e []) by auto.
  assert (No : forall e : modelem, In e (elements S) -> In e [] \/ In e (elements S)) by auto.
  destruct e as [d | x | a | t | s | v | f]; cbn [outer_elem outer_elem_b] in *; auto.
  - intros a en b E. exact (entries_sound _ _ _ He _ _ H a en b E).
  - destruct H as [H1 H2]. split; [now apply (earlier_type_sound _ _ late) |]. destruct (td_func_params t); cbn [all_opt] in *; [| exact I].
    rewrite all_in. rewrite forallb_forall in H2. intros b J. apply (earlier_type_sound _ _ late); auto.
  - destruct H as [H1 H2]. rewrite all_in in H1, H2. split.
    + rewrite all_in. intros y J. apply H1 in J. destruct y; [now apply outer_type_sound |]. rewrite all_in. rewrite forallb_forall in J. intros p K.
      apply outer_type_sound. auto.
    + rewrite all_in. intros y J. specialize (H2 _ J). destruct y; cbn [each_field] in *.
      * rewrite all_in in *. intros f K. eapply F; eauto.
      * destruct H2 as [H2 H3]. split; [eapply F; eauto |]. rewrite all_in in *. intros p K. eapply F; eauto.
  - destruct H as (H1 & H2 & H3). split; [now apply outer_type_sound |]. split; [eapply F; eauto |]. destruct (v_value v); cbn [all_opt] in *; [| exact I]. eapply X; eauto.
  - destruct H as (H1 & H2 & H3 & H4). split; [now apply outer_type_sound |]. split.
    + rewrite all_in. rewrite forallb_forall in H2. intros t J. apply outer_type_sound. auto.
    + split; [eapply F; eauto |]. rewrite all_in in *. intros t J. specialize (H4 _ J). cbn beta in *. rewrite all_in in *. intros g K. eapply F; eauto.
Qed.
Lemma neat_by : outer_elems_b (elements S) -> neat S none.
Proof.
  assert (G : forall l pre, elements S = pre ++ l -> outer_elems_b l -> forall before e after, l = before ++ e :: after -> outer_elem S none (pre ++ before) e).
  { induction l as [| x l IH]; intros pre E H [| y before] e after Q; try discriminate; cbn [app] in Q; injection Q as -> ->; destruct H as [H1 H2].
    - rewrite app_nil_r. apply (outer_elem_sound pre (e :: after)); [| exact H1]. intros z Z. rewrite E in Z. now apply in_app_or.
    - change (y :: before) with ([y] ++ before). rewrite app_assoc. apply (IH (pre ++ [y])) with (after := after); auto. rewrite E, <- app_assoc. reflexivity. }
  intros H before e after Q. exact (G _ [] eq_refl H before e after Q).
Qed.
End Check.

(** A project of two files with declarations of every kind that use others. *)
Definition store_text : string :=
"#define MAX 8
pub enum { SMALL = 1, LARGE = SMALL + 3 }
enum { SPARE = LARGE + 1 }
pub typedef int num_t;
pub typedef num_t *nums_t;
pub typedef { num_t values[LARGE]; nums_t rest; } box_t;
typedef { int marks[SPARE]; } mark_t;
mark_t *seen = NULL;
pub num_t sum(box_t *b, num_t list[LARGE]) {
  seen = NULL;
  return b->values[0] + list[0] + MAX;
}
".
Definition shop_text : string :=
"#import store.c
#define WIDTH 4
enum { FIRST = store.LARGE, LAST = FIRST + WIDTH }
typedef store.box_t crate_t;
typedef { crate_t parts[LAST]; store.num_t count; } load_t;
load_t *current = NULL;
load_t **where = &current;
int count(store.box_t *b, int list[WIDTH]) { if (*where == current) { return 0; } return store.sum(b, list); }
int main() {
  store.box_t b = {.rest = NULL};
  int list[WIDTH];
  return count(&b, list);
}
".
Definition shop : bout project := build_of [("p/store.c"%string, store_text); ("p/main.c"%string, shop_text)].
Definition the_shop : project := Eval vm_compute in project_of shop.
Lemma element_by : forall us l,
  existsb (fun e => forallb (fun u => existsb (use_eqb u) (elem_uses e)) us) l = true ->
  exists bef y aft, l = bef ++ y :: aft /\ forall u, In u us -> In u (elem_uses y).
Proof.
  intros us l H. apply existsb_exists in H as (y & I & H). apply in_split in I as (bef & aft & ->). exists bef, y, aft. split; [reflexivity |].
  rewrite forallb_forall in H. intros u J. apply H, existsb_exists in J as (v & J & E). apply use_eqb_eq in E. now subst.
Qed.

(** The directives of the modules of a list. *)
Definition directives_of (m : module_) : list macro_ := flat_map (fun e => match e with MMacro d => [d] | _ => [] end) (mod_elements m).
Lemma directives_in : forall a m, In (MMacro a) (mod_elements m) -> In a (directives_of m).
Proof. intros a m I. apply in_flat_map. exists (MMacro a). split; [exact I | now left]. Qed.
Lemma directives_by : forall pr,
  forallb (fun a => forallb (fun b => negb (str_eqb (m_value a) (m_value b)) || str_eqb (m_name a) (m_name b)) (flat_map directives_of (pr_mods pr)))
          (flat_map directives_of (pr_mods pr)) = true ->
  forall i h m cm i' h' m' cm', unit_at pr i h m cm -> unit_at pr i' h' m' cm' -> same_directives (mod_elements m) (mod_elements m').
Proof.
  intros pr H i h m cm i' h' m' cm' (_ & M & _) (_ & M' & _) a b Ia Ib E. apply nth_error_In in M, M'. rewrite forallb_forall in H.
  specialize (H a ltac:(apply in_flat_map; eauto using directives_in)). rewrite forallb_forall in H.
  specialize (H b ltac:(apply in_flat_map; eauto using directives_in)). rewrite E, str_eqb_refl in H. now apply str_eqb_eq.
Qed.
Example C67_files_example : shop = BOk the_shop
  /\ (forall i h m cm, unit_at the_shop i h m cm -> forall c, In c (mi_uniqid h) -> @word_char ascii_table c = true)
  /\ (forall i h m cm, unit_at the_shop i h m cm -> distinct_exports (mi_uniqid h) (mod_elements m))
  /\ (forall i h m cm i' h' m' cm', unit_at the_shop i h m cm -> unit_at the_shop i' h' m' cm' -> same_directives (mod_elements m) (mod_elements m'))
  /\ (forall i h m cm, unit_at the_shop i h m cm -> tidy (site_of m (unit_params the_shop i h)) (fun _ => False))
  /\ (forall i h m cm, unit_at the_shop i h m cm -> neat (site_of m (unit_params the_shop i h)) (fun _ => False))
  /\ exists h m cm, unit_at the_shop 1 h m cm
     /\ forall us, In us [ (* an enum, a typedef, two structs, a prototype, a variable *)
                           [UName (L "mod0_store__LARGE"); UName (L "WIDTH")]; [UType (L "mod0_store__box_t")];
                           [UType (L "mod0_store__num_t"); UName (L "mod0_store__LARGE"); UType (L "mod0_store__nums_t")];
                           [UType (L "crate_t"); UName (L "LAST")]; [UType (L "mod0_store__box_t"); UName (L "WIDTH"); UType (L "int")];
                           [UName (L "current"); UType (L "load_t")]] ->
        exists bef y aft, cm_elements cm = bef ++ y :: aft /\ forall u, In u us -> In u (elem_uses y).
Proof.
  split; [vm_compute; reflexivity |]. split; [| split; [| split; [| split; [| split]]]].
  - intros [| [| i]] h m cm (H & _) c I.
    + vm_compute in H. injection H as <-. vm_compute in I. repeat (destruct I as [<- | I]; [reflexivity |]). destruct I.
    + vm_compute in H. injection H as <-. vm_compute in I. repeat (destruct I as [<- | I]; [reflexivity |]). destruct I.
    + vm_compute in H. destruct i; discriminate.
  - intros [| [| i]] h m cm (H & H' & _).
    + vm_compute in H, H'. injection H as <-. injection H' as <-. apply distinct_by; reflexivity.
    + vm_compute in H, H'. injection H as <-. injection H' as <-. apply distinct_by; reflexivity.
    + vm_compute in H. destruct i; discriminate.
  - apply directives_by. vm_cast_no_check (eq_refl true).
  - intros [| [| i]] h m cm (H & H' & _).
    + vm_compute in H, H'. injection H as <-. injection H' as <-. apply tidy_by; vm_compute; intuition (subst; discriminate).
    + vm_compute in H, H'. injection H as <-. injection H' as <-. apply tidy_by; vm_compute; intuition (subst; discriminate).
    + vm_compute in H. destruct i; discriminate.
  - intros [| [| i]] h m cm (H & H' & _).
    + vm_compute in H, H'. injection H as <-. injection H' as <-. apply neat_by. vm_compute. intuition.
    + vm_compute in H, H'. injection H as <-. injection H' as <-. apply neat_by. vm_compute. intuition.
    + vm_compute in H. destruct i; discriminate.
  - do 3 eexists. split; [repeat split; vm_compute; reflexivity |].
    intros us J. apply element_by. revert us J. apply Forall_forall. repeat constructor; vm_cast_no_check (eq_refl true).
Qed.

(** Without the conditions the claim fails: the programs below are built, and in
    the C file of the module of the given number some element uses the given
    name or type although nothing before it declares it. *)
Definition three (lib lib' text : string) (u : cuse) : list (string * string) * (nat * cuse) :=
  ([("p/lib.c"%string, lib); ("p/lib2.c"%string, lib'); ("p/main.c"%string, text)], (2, u)).
Definition open_files : list (list (string * string) * (nat * cuse)) :=
  [ (* a variable, a type, a constant before its declaration *)
    one "int a = b; int b = 1; int main() { return a; }" (UName (L "b"));
    one "typedef b_t a_t; typedef int b_t; int main() { a_t x = 1; return x; }" (UType (L "b_t"));
    one "enum { A = B, B = 1 } int main() { return A; }" (UName (L "B"));
    one "enum { A = B } enum { B = 1 } int main() { return A; }" (UName (L "B"));
    one "typedef { int x[B]; } box_t; enum { B = 1 } int main() { box_t b = {.x = 1}; return b.x[0]; }" (UName (L "B"));
    (* a variable in the size of a parameter, a function in an enum *)
    one "int n = 3; int f(int a[n]) { return a[0]; } int main() { int b[3]; return f(b); }" (UName (L "n"));
    one "int f() { return 1; } enum { A = f() } int main() { return A; }" (UName (L "f"));
    (* a private type or constant in a pub declaration, in the importing file *)
    two "typedef int t; pub t f(t x) { return x; }" "#import lib.c
int main() { return lib.f(1); }" (UType (L "t"));
    two "typedef int t; pub typedef t *u;" "#import lib.c
int main() { lib.u x = NULL; return x == NULL; }" (UType (L "t"));
    two "enum { A = 2 } pub enum { B = A }" "#import lib.c
int main() { return lib.B; }" (UName (L "A"));
    (* two directives with the same text *)
    three "#pragma N 3
pub int g() { return 1; }" "#define N 3
pub enum { B = N }" "#import lib.c
#import lib2.c
int main() { return lib.g() + lib2.B; }" (UName (L "N")) ].
Definition open_file (x : list (string * string) * (nat * cuse)) : bool :=
  match build_of (fst x) with
  | BOk pr => match nth_error (pr_cmods pr) (fst (snd x)) with
              | Some cm => file_open (snd (snd x)) [] (cm_elements cm) && negb (basic_b (snd (snd x)))
              | None => false
              end
  | _ => false
  end.
Theorem C67_files_closed_refuted : Forall (fun x => exists pr cm, build_of (fst x) = BOk pr
    /\ nth_error (pr_cmods pr) (fst (snd x)) = Some cm /\ file_undeclared (cm_elements cm) (snd (snd x))) open_files.
Proof.
  assert (X : forallb open_file open_files = true) by (vm_cast_no_check (eq_refl true)).
  rewrite forallb_forall in X. apply Forall_forall. intros x I. specialize (X x I). unfold open_file in X.
  destruct (build_of (fst x)) as [pr | | |]; try discriminate. destruct (nth_error (pr_cmods pr) _) as [cm |] eqn:E; [| discriminate].
  apply andb_true_iff in X as [X1 X2]. apply negb_true_iff in X2. exists pr, cm. split; [reflexivity |]. split; [exact E |]. now apply file_open_undeclared.
Qed.
Print Assumptions C67_files_closed_partial.
Print Assumptions C67_files_closed_refuted.
