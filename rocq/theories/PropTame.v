(** The translator and programs that the parser accepts (C54).
    Specification: SpecTame.v. *)
From Verif Require Import Base Buf Lexer Nodes Types Resolve Cursor Preparser Parser CAst FormatC Translator Build BaseFacts.
From Verif Require Import SpecScope SpecTypes SpecDecl SpecTarget SpecTyping SpecBuild SpecTame TargetFacts ElabFacts ProjectFacts
  TextFacts NamespaceFacts TameFacts Samples.

(** ** C54 *)
(** Whatever the translator is given that the parser made of the files of a
    program: it does not abort on a module without the careless constructs.  It
    may still reject it. *)
Theorem C54_no_abort_partial : forall (U : Unicode) w fuel main heads mods i h m done,
  front w fuel main = BOk (heads, mods) -> nth_error heads i = Some h -> nth_error mods i = Some m ->
  List.length done = i -> careful (site_of m (mkParams h heads done mods)) ->
  forall why, translate m (mkParams h heads done mods) <> TrPanic why.
Proof.
  intros U w fuel main heads mods i h m done F Hi Hm Hd (C1 & C2 & C3 & C4 & C5) why.
  assert (NS := namespaces_found w _ _ _ _ _ _ _ _ F Hi Hm Hd).
  destruct (front_ok w _ _ _ _ F) as [Hp Hpm]. destruct (Forall2_nth _ _ _ _ _ _ _ _ Hpm Hi Hm) as (text & _ & Hparse).
  destruct (module_sound _ _ _ _ Hparse) as (toks & q & ms & _ & Hmo & Em).
  set (p := mkParams h heads done mods) in *. change (elements (site_of m p)) with (mod_elements m) in *.
  assert (T : forall w, tr_elements (env_of m p) (mod_elements m) st0 <> TrPanic w).
  { apply (quiet_elements (site_of m p) (env_of m p) (site_describes m p) C4); auto.
    - rewrite Em in *. cbn [mod_elements] in *. apply module_cares in Hmo. rewrite all_in in *.
      intros e I. destruct (Hmo e I). split; [apply elem_mp; auto |]. split; auto.
    - intros r R. split; [now apply C3 |]. intros N1 N2.
      rewrite <- (ds_ns _ _ (site_describes m p)). destruct (every_ref_refers _ _ _ R _ NS) as (v & X). now apply X. }
  unfold translate. fold p. destruct (tr_elements (env_of m p) (mod_elements m) st0) as [[body s] | e | w'] eqn:E;
    [| discriminate | exfalso; now apply (T w')].
  destruct (check_imports (env_of m p) s); [discriminate |]. unfold expand_imports.
  destruct (synopses_found w main heads i h done (env_of m p) (mi_imports (en_mod (env_of m p))) Hp Hi eq_refl eq_refl Hd (fun x H => H)) as [l El].
  rewrite El. discriminate.
Qed.

Lemma translate_all : forall (U : Unicode) w fuel main heads mods, front w fuel main = BOk (heads, mods) ->
  (forall i h m done, nth_error heads i = Some h -> nth_error mods i = Some m -> careful (site_of m (mkParams h heads done mods))) ->
  forall todo k done, (forall j m h, nth_error todo j = Some (m, h) -> nth_error mods (k + j) = Some m /\ nth_error heads (k + j) = Some h) ->
  List.length done = k -> forall why, translate_mods mods heads done todo <> BPanic why.
Proof.
  intros U w fuel main heads mods F C. induction todo as [| [m h] todo IH]; intros k done N Hd why; cbn [translate_mods]; [discriminate |].
  destruct (N 0 m h eq_refl) as [Hm Hh]. rewrite Nat.add_0_r in *.
  destruct (translate m (mkParams h heads done mods)) as [cm | e | w'] eqn:E; [| discriminate |].
  - apply (IH (Datatypes.S k)); [| rewrite app_length; cbn; lia]. intros j m' h' Hj. specialize (N (Datatypes.S j) m' h' Hj).
    now rewrite Nat.add_succ_r in N.
  - exfalso. eapply C54_no_abort_partial with (done := done); eauto.
Qed.
Lemma combine_nth_inv : forall A B (l : list A) (l' : list B) i a b, nth_error (combine l l') i = Some (a, b) ->
  nth_error l i = Some a /\ nth_error l' i = Some b.
Proof.
  induction l as [| x l IH]; intros [| y l'] [| i] a b H; cbn in *; try discriminate; [now injection H as -> -> | auto].
Qed.
(** A program of careful files is built or rejected, once its files are parsed. *)
Theorem C54_no_abort_program_partial : forall (U : Unicode) w fuel main heads mods,
  front w fuel main = BOk (heads, mods) ->
  (forall i h m done, nth_error heads i = Some h -> nth_error mods i = Some m -> careful (site_of m (mkParams h heads done mods))) ->
  (exists pr, parse_project w fuel main = BOk pr) \/ (exists es, parse_project w fuel main = BErrs es).
Proof.
  intros U w fuel main heads mods F C. rewrite parse_project_front, F. cbn [bbind].
  destruct (translate_mods mods heads [] (combine mods heads)) as [cms | es | why |] eqn:E; cbn [bbind]; eauto.
  - exfalso. refine (translate_all U w fuel main heads mods F C _ 0 [] _ eq_refl why E). intros j m h Hj. apply combine_nth_inv in Hj. tauto.
  - exfalso. revert E. generalize (combine mods heads) ([] : list cmodule). induction l as [| [m h] l IH]; intros d; cbn [translate_mods]; [discriminate |].
    destruct (translate _ _); try discriminate. apply IH.
Qed.

(** The conditions can be checked. *)
Fixpoint item_refs (i : item) : list ref :=
  match i with
  | Ref r => [r]
  | Declare _ _ => []
  | Scope l => flat_map item_refs l
  end.
Lemma refs_listed : forall r l, refers r l -> In r (flat_map item_refs l).
Proof.
  intros r l H. induction H; cbn [flat_map item_refs app In]; auto; apply in_app_iff; auto.
Qed.
Definition fit_ref (S : site) (r : ref) : bool :=
  match r with
  | RName n => match import S (ns_ns n) with
      | Some (h, m) => negb (existsb (str_eqb (ns_name n)) (ex_types (mod_exports m)))
      | None => true
      end
  | RType _ => true
  end.
Lemma fit_ref_sound : forall S r, fit_ref S r = true -> careful_ref S r.
Proof.
  intros S [n | n]; cbn; auto. intros H h m _ _ E I. rewrite E in H. apply Bool.negb_true_iff in H.
  exfalso. apply Bool.not_true_iff_false in H. apply H, existsb_exists. exists (ns_name n). split; auto. now apply str_eqb_eq.
Qed.
Fixpoint chain_ends (n : nat) (elems : list modelem) (t : ty) : bool :=
  match n with
  | O => false
  | Datatypes.S n => match typedef_named elems (ns_name (ty_base t)) with
      | Some (_, d) => chain_ends n elems d
      | None => true
      end
  end.
Lemma chain_ends_sound : forall n elems t, chain_ends n elems t = true -> resolves elems t.
Proof.
  induction n as [| n IH]; intros elems t H; [discriminate |]. constructor. intros d (_ & _ & p & E).
  cbn in H. rewrite E in H. auto.
Qed.
Lemma last_of_in : forall A B (f : A -> option B) l b, last_of f l = Some b -> exists a, In a l /\ f a = Some b.
Proof.
  induction l as [| a l IH]; intros b H; cbn [last_of] in H; [discriminate |].
  destruct (last_of f l) as [c |]; [destruct (IH _ H) as (x & I & E); exists x; split; [now right | exact E] |].
  exists a. split; [now left | exact H].
Qed.
Definition typedefs_end (n : nat) (elems : list modelem) : bool :=
  forallb (fun e => match e with MTypedef t => chain_ends n elems (typedef_type t)
    | MStructAlias _ => chain_ends n elems unknown_type | _ => true end) elems.
Lemma typedefs_end_sound : forall n elems, typedefs_end n elems = true -> forall t, resolves elems t.
Proof.
  intros n elems H t. constructor. intros d (_ & _ & p & E). unfold typedefs_end in H. rewrite forallb_forall in H.
  apply (chain_ends_sound n). unfold typedef_named in E. apply last_of_in in E. destruct E as (e & I & E). specialize (H e I).
  destruct e; try discriminate.
  - destruct (str_eqb _ _); [| discriminate]. injection E as _ <-. exact H.
  - destruct (str_eqb _ _); [| discriminate]. injection E as _ <-. exact H.
Qed.

(** The sample program, and one that is rejected. *)
Definition rejected_text : string :=
"#define LIMIT 10
typedef int num;
typedef num *nump;
typedef void f_t(num);
int f(nump p) { *p |= 1; return *p; }
int main() {
  num x = 1 << 2;
  f_t *g = NULL;
  switch str (""a"") { case ""a"": { x |= LIMIT; } }
  g(1);
  return missing + f(&x);
}
".

Definition careful_site (n : nat) (S : site) : bool :=
  forallb (fit_ref S) (flat_map item_refs (in_module (elements S))) && typedefs_end n (elements S).
Lemma careful_by : forall n S, all (each_elem careful_expr careful_stmt) (elements S) -> all careful_define (elements S) ->
  careful_site n S = true -> declared_once [] (in_module (elements S)) -> careful S.
Proof.
  intros n S A B C D. unfold careful_site in C. apply Bool.andb_true_iff in C. destruct C as [C1 C2].
  split; [exact A |]. split; [exact B |]. split; [| split; [eapply typedefs_end_sound; eauto | exact D]].
  intros r R. apply refs_listed in R. rewrite forallb_forall in C1. apply fit_ref_sound, C1, R.
Qed.
Example C54_example : exists heads mods h m, @front ascii_table sample_world sample_fuel (L "p/main.c") = BOk (heads, mods)
  /\ nth_error heads 1 = Some h /\ nth_error mods 1 = Some m
  /\ careful (site_of m (mkParams h heads (firstn 1 (pr_cmods the_project)) mods)).
Proof.
  do 4 eexists. split; [vm_compute; reflexivity |]. split; [reflexivity |]. split; [reflexivity |].
  apply (careful_by 5).
  - vm_compute. intuition discriminate.
  - vm_compute. repeat split; eexists _, _, _; reflexivity.
  - vm_compute. reflexivity.
  - vm_compute. repeat constructor; vm_compute; intuition discriminate.
Qed.

(** This one is careful too, and rejected. *)
Example C54_example_rejected : exists heads mods h m,
  @front ascii_table (world_of [(L "p/main.c", lit rejected_text)]) sample_fuel (L "p/main.c") = BOk (heads, mods)
  /\ nth_error heads 0 = Some h /\ nth_error mods 0 = Some m
  /\ careful (site_of m (mkParams h heads [] mods)) /\ exists e, translate m (mkParams h heads [] mods) = TrErr e.
Proof.
  do 4 eexists. split; [vm_compute; reflexivity |]. split; [reflexivity |]. split; [reflexivity |]. split.
  - apply (careful_by 5).
    + vm_compute. intuition discriminate.
    + vm_compute. repeat split; eexists _, _, _; reflexivity.
    + vm_compute. reflexivity.
    + vm_compute. repeat constructor; vm_compute; intuition discriminate.
  - eexists. vm_compute. reflexivity.
Qed.

(** The parser accepts these programs and the translator aborts on them: each
    has one careless construct. *)
Definition careless_programs : list (list (str * str)) :=
  [ [(L "p/main.c", lit "int main() { int x = 1; x <<= 2; return x; }")];
    [(L "p/main.c", lit "int main() { int x = 1; x >>= 2; return x; }")];
    [(L "p/main.c", lit "int main() { switch str (""a"") { default: { } } return 1; }")];
    [(L "p/main.c", lit "int main() { int a[] = {[0] = 1}; return a[0]; }")];
    [(L "p/lib.c", lit lib_text); (L "p/main.c", lit "#import lib.c
int main() { return lib.num_t; }")];
    [(L "p/main.c", lit "int main() { int x = 1; int x = 2; return x; }")];
    [(L "p/main.c", lit "typedef a b;
typedef b a;
int main() { a f = NULL; return f(1); }")];
    [(L "p/main.c", lit "#define X 
int main() { return 1; }")] ].
Definition accepted_and_aborted (w : world) : bool :=
  match @front ascii_table w sample_fuel (L "p/main.c") with
  | BOk _ => crashes (@parse_project ascii_table w sample_fuel (L "p/main.c"))
  | _ => false
  end.
Theorem C54_no_abort_refuted : Forall (fun files => exists heads mods why,
    @front ascii_table (world_of files) sample_fuel (L "p/main.c") = BOk (heads, mods)
    /\ @parse_project ascii_table (world_of files) sample_fuel (L "p/main.c") = BPanic why) careless_programs.
Proof.
  assert (X : forallb (fun files => accepted_and_aborted (world_of files)) careless_programs = true) by (vm_cast_no_check (eq_refl true)).
  rewrite forallb_forall in X. apply Forall_forall. intros files I. specialize (X files I). unfold accepted_and_aborted in X.
  destruct (front _ _ _) as [[heads mods] | | |]; try discriminate.
  destruct (parse_project _ _ _) as [| | why |]; try discriminate. eauto.
Qed.
Print Assumptions C54_no_abort_partial.
Print Assumptions C54_no_abort_program_partial.
Print Assumptions C54_no_abort_refuted.
