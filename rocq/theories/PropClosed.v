(** The names used by the generated C functions (C67).  Specification:
    SpecClosed.v, SpecTidy.v. *)
From Verif Require Import Base Buf Lexer Nodes Types Resolve Cursor Preparser Parser CAst FormatC Translator Build BaseFacts.
From Verif Require Import SpecLex SpecScope SpecDecl SpecModule SpecExports SpecTarget SpecTyping SpecBuild SpecTame SpecCStmt CStmtFacts SpecClosed SpecTidy
  ElabFacts TargetFacts ClosedFacts ClosedModule ClosedProject OpenCheck PropBuild Samples.

(** ** C67 *)
(** Whatever a function of a generated file uses from outside is declared above
    it in the same file, or is a basic type, or is something that the source
    takes from the system by [OS.x] or a directive.  Needed: file names made of
    letters, digits and underscores, exports that can be told apart in C, and a
    module that avoids the constructs listed in SpecTidy.v. *)
Theorem C67_functions_closed_partial : forall (U : Unicode) w fuel main pr,
  parse_project w fuel main = BOk pr ->
  (forall i h m cm, unit_at pr i h m cm -> forall c, In c (mi_uniqid h) -> word_char c = true) ->
  (forall i h m cm, unit_at pr i h m cm -> distinct_exports (mi_uniqid h) (mod_elements m)) ->
  forall i h m cm system bef d aft, unit_at pr i h m cm -> tidy (site_of m (unit_params pr i h)) system ->
  cm_elements cm = bef ++ XFunc d :: aft ->
  forall u, In u (function_uses d) -> declared_in bef u \/ basic u \/ system u.
Proof. exact @project_closed. Qed.

(** Checks for the example. *)
Definition fine_name (n : nsname) : bool :=
  negb (str_eqb (ns_ns n) (L "OS"))
  && (negb (str_eqb (ns_ns n) []) || negb (str_in (ns_name n) (map lit (reserved_names ++ library_types)))).
Definition names_type (x : str) (e : modelem) : bool :=
  match e with
  | MStruct s => str_eqb (st_name s) x
  | MTypedef d => str_eqb (td_alias d) x
  | MStructAlias a => str_eqb (sa_typename a) x
  | _ => false
  end.
Definition pub_type_b (elems : list modelem) (x : str) : bool :=
  existsb (fun e => match e with
                    | MTypedef t => td_pub t && str_eqb (td_alias t) x
                    | MStruct s => st_pub s && str_eqb (st_name s) x
                    | _ => false
                    end) elems.
Definition fine_type (S : site) (t : typename) : bool :=
  let n := tn_name t in
  negb (str_eqb (ns_ns n) (L "OS"))
  && if str_eqb (ns_ns n) [] then str_in (ns_name n) (map lit library_types) || existsb (names_type (ns_name n)) (elements S)
     else match import S (ns_ns n) with Some (h, m) => pub_type_b (mod_elements m) (ns_name n) | None => true end.
Lemma fine_name_sound : forall n, fine_name n = true -> tidy_name (fun _ => False) n.
Proof.
  intros n H. apply andb_true_iff in H as [H1 H2]. split.
  - intros E. rewrite E in H1. discriminate.
  - intros E I. rewrite E in H2. cbn [negb orb str_eqb] in H2. assert (X : str_in (ns_name n) (map lit (reserved_names ++ library_types)) = true)
    by (apply existsb_exists; exists (ns_name n); split; [exact I | apply str_eqb_refl]).
    rewrite X in H2. discriminate.
Qed.
Lemma pub_type_sound : forall elems x, pub_type_b elems x = true -> pub_type elems x.
Proof.
  intros elems x H. apply existsb_exists in H as (e & I & H). destruct e; try discriminate; apply andb_true_iff in H as [H1 H2]; apply str_eqb_eq in H2.
  - left. eauto.
  - right. eauto.
Qed.
Lemma fine_type_sound : forall S t, fine_type S t = true -> tidy_type S (fun _ => False) t.
Proof.
  intros S t H. apply andb_true_iff in H as [H1 H2]. split; [| split].
  - intros E. rewrite E in H1. discriminate.
  - intros E N A1 A2 A3. rewrite E in H2. cbn [str_eqb] in H2. apply orb_true_iff in H2 as [H2 | H2].
    + exfalso. apply N, str_in_spec, H2.
    + apply existsb_exists in H2 as (e & I & H2). destruct e; try discriminate; apply str_eqb_eq in H2; exfalso; [eapply A3 | eapply A2 | eapply A1]; eauto.
  - intros N _ h m E. rewrite E in H2. destruct (str_eqb_spec (ns_ns (tn_name t)) []) as [X | X]; [contradiction |]. now apply pub_type_sound.
Qed.
Definition fine_expr (S : site) (e : expr) : bool :=
  match e with
  | EName n => fine_name n
  | ECast t _ | ESizeofT t => fine_type S (btf_type t)
  | EComp es => forallb (fun x => negb (fst (fst x))) es
  | _ => true
  end.
Lemma fine_expr_sound : forall S e, fine_expr S e = true -> tidy_expr S (fun _ => False) e.
Proof.
  intros S [] H; cbn in *; auto using fine_name_sound, fine_type_sound. rewrite all_in. rewrite forallb_forall in H. intros x I. apply H in I.
  now destruct (fst (fst x)).
Qed.
Definition fine_stmt (S : site) (s : stmt) : Prop :=
  match s with
  | SVarDecl v => fine_type S (v_type v) = true /\ without (f_name (v_form v)) (v_form v)
  | SFor (Some (FIDecl t f _)) _ _ _ => fine_type S t = true /\ without (f_name f) f
  | SSwitch _ _ cs _ => forallb (fun c => forallb (fun v => match v with SVIdent n => fine_name n | SVLit _ => true end) (fst c)) cs = true
  | _ => True
  end.
Lemma fine_stmt_sound : forall S s, fine_stmt S s -> tidy_stmt S (fun _ => False) s.
Proof.
  intros S [| | v | c b e | [[e | t f e] |] c a b | c b | e | is v cs d | e] H; cbn in *; auto.
  - destruct H. auto using fine_type_sound.
  - destruct H. auto using fine_type_sound.
  - rewrite all_in. rewrite forallb_forall in H. intros c I. apply H in I. rewrite all_in. rewrite forallb_forall in I. intros [n | l] J; [| exact Logic.I].
    apply I in J. now apply fine_name_sound.
Qed.
Lemma each_elem_mono : forall (P P' : expr -> Prop) (Q Q' : stmt -> Prop), (forall e, P e -> P' e) -> (forall s, Q s -> Q' s) ->
  forall e, each_elem P Q e -> each_elem P' Q' e.
Proof.
  intros P P' Q Q' HP HQ.
  assert (X : forall e, each_expr P e -> each_expr P' e) by (intros e A; apply (expr_mp3 P P P'); auto).
  assert (F : forall f, each_form P f -> each_form P' f) by (intros f A; apply (form_mp3 P P P'); auto).
  assert (O : forall o, all_opt (each_expr P) o -> all_opt (each_expr P') o) by (intros [o |]; cbn; auto).
  intros [m | x | a | t | s | v | f] H; cbn [each_elem] in *; auto.
  - rewrite all_in in *. auto.
  - rewrite all_in in *. intros [y | u] I; apply H in I; cbn [each_field] in *.
    + rewrite all_in in *. auto.
    + destruct I as [I1 I2]. split; [auto |]. rewrite all_in in *. auto.
  - destruct H. auto.
  - destruct H as (H1 & H2 & H3). split; [auto |]. split; [| apply (stmts_mp3 P P P' Q Q Q'); auto].
    rewrite all_in in *. intros p I. apply H2 in I. rewrite all_in in *. auto.
Qed.
Definition fine_head (S : site) (f : funcdecl) : Prop :=
  fine_type S (fd_type f) = true /\ forallb (fun t => fine_type S (taf_type t)) (fp_list (fd_params f)) = true
  /\ tidy_params (flat_map taf_forms (fp_list (fd_params f)))
  /\ (forall x, In x (param_names (fd_params f)) -> without x (fd_form f))
  /\ (fd_pub f = true -> ~ In (f_name (fd_form f)) (param_names (fd_params f))).
Lemma tidy_by : forall S, all (each_elem (fun e => fine_expr S e = true) (fine_stmt S)) (elements S) ->
  all (fun e => match e with MFunc f => fine_head S f | _ => True end) (elements S) -> tidy S (fun _ => False).
Proof.
  intros S A B. split.
  - rewrite all_in in *. intros e I. apply (each_elem_mono _ _ _ _ (fine_expr_sound S) (fine_stmt_sound S)). auto.
  - rewrite all_in in B. intros f I. apply B in I as (H1 & H2 & H3 & H4 & H5). split; [now apply fine_type_sound |]. split; [| now auto].
    rewrite all_in. rewrite forallb_forall in H2. intros t J. apply fine_type_sound. auto.
Qed.
(** The pub types of a list of elements, the private ones, and the pub values. *)
Definition types_of (pub : bool) (elems : list modelem) : list str :=
  flat_map (fun e => match e with
                     | MTypedef t => if Bool.eqb (td_pub t) pub then [td_alias t] else []
                     | MStruct s => if Bool.eqb (st_pub s) pub then [st_name s] else []
                     | MStructAlias a => if Bool.eqb (sa_pub a) pub then [sa_typename a] else []
                     | _ => []
                     end) elems.
Definition values_of (elems : list modelem) : list str :=
  flat_map (fun e => match e with
                     | MEnum x => if enum_pub x then map en_name (enum_entries x) else []
                     | MFunc f => if fd_pub f then [f_name (fd_form f)] else []
                     | _ => []
                     end) elems.
Lemma types_of_in : forall pub elems e x, In e elems -> type_of_elem e pub x -> In x (types_of pub elems).
Proof.
  intros pub elems e x I T. apply in_flat_map. exists e. split; [exact I |].
  destruct e; cbn in *; try contradiction; destruct T as [-> <-]; rewrite Bool.eqb_reflx; now left.
Qed.
Lemma values_of_in : forall elems x, pub_value elems x -> In x (values_of elems).
Proof.
  intros elems x [(e & en & I & P & J & <-) | (f & I & P & <-)]; apply in_flat_map; eexists; (split; [exact I |]); cbn; rewrite P; [| now left].
  apply in_map, J.
Qed.
Lemma distinct_by : forall id elems,
  forallb (fun x => negb (str_in x (values_of elems)) && negb (str_in (global_name id x) (types_of false elems))) (types_of true elems) = true ->
  forallb (fun e => match e with
                    | MFunc f => negb (fd_pub f) || negb (str_in (f_name (fd_form f)) (L "main" :: param_names (fd_params f)))
                    | _ => true
                    end) elems = true ->
  distinct_exports id elems.
Proof.
  assert (IN : forall x l, In x l -> str_in x l = true) by (intros x l I; apply existsb_exists; exists x; split; [exact I | apply str_eqb_refl]).
  intros id elems A B. rewrite forallb_forall in A, B. split; [| split].
  - intros e x I T V. apply (types_of_in _ _ _ _ I) in T. apply A, andb_true_iff in T as [T _]. rewrite (IN _ _ (values_of_in _ _ V)) in T. discriminate.
  - intros e e' x I I' T T'. apply (types_of_in _ _ _ _ I) in T. apply (types_of_in _ _ _ _ I') in T'. apply A, andb_true_iff in T as [_ T].
    rewrite (IN _ _ T') in T. discriminate.
  - intros f I P. apply B in I. rewrite P in I. cbn [negb orb] in I. apply negb_true_iff, str_in_false in I.
    split; intros J; apply I; [left; auto | right; auto].
Qed.

Lemma function_by : forall name us l,
  existsb (fun e => match e with
                    | XFunc d => str_eqb (cf_name (cfd_form d)) name && forallb (fun u => existsb (use_eqb u) (function_uses d)) us
                    | _ => false
                    end) l = true ->
  exists bef d aft, l = bef ++ XFunc d :: aft /\ cf_name (cfd_form d) = name /\ forall u, In u us -> In u (function_uses d).
Proof.
  intros name us l H. apply existsb_exists in H as (e & I & H). destruct e; try discriminate. apply andb_true_iff in H as [H1 H2]. apply str_eqb_eq in H1.
  apply in_split in I as (bef & aft & ->). exists bef, f, aft. split; [reflexivity |]. split; [exact H1 |]. rewrite forallb_forall in H2.
  intros u J. apply H2, existsb_exists in J as (v & J & E). apply use_eqb_eq in E. now subst.
Qed.

Example C67_example : exists h m cm, sample_project = BOk the_project
  /\ (forall i h m cm, unit_at the_project i h m cm -> forall c, In c (mi_uniqid h) -> @word_char ascii_table c = true)
  /\ (forall i h m cm, unit_at the_project i h m cm -> distinct_exports (mi_uniqid h) (mod_elements m))
  /\ unit_at the_project 1 h m cm /\ tidy (site_of m (unit_params the_project 1 h)) (fun _ => False)
  /\ exists bef d aft, cm_elements cm = bef ++ XFunc d :: aft /\ cf_name (cfd_form d) = L "main"
     /\ forall u, In u [UName (L "mod0_lib__add"); UType (L "mod0_lib__num_t"); UName (L "twice"); UName (L "LIMIT"); UName (L "calloc_or_panic");
                       UName (L "puts"); UName (L "strcmp"); UName (L "stderr"); UType (L "char")] -> In u (function_uses d).
Proof.
  do 3 eexists. split; [vm_compute; reflexivity |]. split; [| split; [| split; [repeat split; vm_compute; reflexivity |]]].
  - intros [| [| i]] h m cm (H & _) c I.
    + vm_compute in H. injection H as <-. vm_compute in I. repeat (destruct I as [<- | I]; [reflexivity |]). destruct I.
    + vm_compute in H. injection H as <-. vm_compute in I. repeat (destruct I as [<- | I]; [reflexivity |]). destruct I.
    + vm_compute in H. destruct i; discriminate.
  - intros [| [| i]] h m cm (H & H' & _).
    + vm_compute in H, H'. injection H as <-. injection H' as <-. apply distinct_by; reflexivity.
    + vm_compute in H, H'. injection H as <-. injection H' as <-. apply distinct_by; reflexivity.
    + vm_compute in H. destruct i; discriminate.
  - split.
    + apply tidy_by.
      * vm_compute. intuition discriminate.
      * vm_compute. intuition (subst; discriminate).
    + apply function_by. vm_cast_no_check (eq_refl true).
Qed.

(** Without the conditions the claim fails: the programs below are built, and in
    the C file of the module of the given number some function uses the given
    name or type although nothing before it declares it. *)
Definition one (text : string) (u : cuse) : list (string * string) * (nat * cuse) := ([("p/main.c"%string, text)], (0, u)).
Definition two (lib text : string) (u : cuse) : list (string * string) * (nat * cuse) :=
  ([("p/lib.c"%string, lib); ("p/main.c"%string, text)], (1, u)).
Definition open_programs : list (list (string * string) * (nat * cuse)) :=
  [ (* the program's main function calls itself *)
    one "int main(int argc) { return main(argc); }" (UName (L "mod0_main__main"));
    (* the helper of calloc! called by name *)
    one "int main() { void *p = calloc_or_panic(1, 2); free(p); return 0; }" (UName (L "calloc_or_panic"));
    (* a function that C does not have *)
    one "int main() { return atol_l(""1""); }" (UName (L "atol_l"));
    (* a designator of an array element *)
    one "pub enum { FIRST } int main() { int a[] = { [FIRST] = 1 }; return a[0]; }" (UName (L "FIRST"));
    (* a size with the name of the array *)
    one "int main() { int table[table]; return table[0]; }" (UName (L "table"));
    (* a size with a later parameter *)
    one "int f(int a[size], int size) { return a[size]; } int main() { int b[3]; return f(b, 3); }" (UName (L "size"));
    (* a pub function with a parameter of its own name, here and imported *)
    one "pub int f(int f) { return f; } int main() { return f(1); }" (UName (L "mod0_main__f"));
    (* an imported constant as a type *)
    two "pub enum { A }" "#import lib.c
lib.A f() { return 1; } int main() { return f(); }" (UType (L "mod0_lib__A"));
    (* a pub type and a pub function of one name *)
    two "pub typedef int f; pub int f(int x) { return x; }" "#import lib.c
int main() { return lib.f(1); }" (UName (L "mod0_lib__f"));
    (* an imported main function *)
    two "pub int main(int argc) { return argc; }" "#import lib.c
int main() { return lib.main(1); }" (UName (L "mod0_lib__main"));
    two "pub int f(int f) { return f; }" "#import lib.c
int main() { return lib.f(1); }" (UName (L "mod0_lib__f"));
    (* names of the system *)
    one "int main() { return OS.read(1); }" (UName (L "read"));
    one "#type thing_t
int main() { thing_t x = 1; return x; }" (UType (L "thing_t")) ].
Definition open_program (x : list (string * string) * (nat * cuse)) : bool :=
  match build_of (fst x) with
  | BOk pr => match nth_error (pr_cmods pr) (fst (snd x)) with
              | Some cm => open_in (snd (snd x)) [] (cm_elements cm) && negb (basic_b (snd (snd x)))
              | None => false
              end
  | _ => false
  end.
Theorem C67_functions_closed_refuted : Forall (fun x => exists pr cm, build_of (fst x) = BOk pr
    /\ nth_error (pr_cmods pr) (fst (snd x)) = Some cm /\ undeclared (cm_elements cm) (snd (snd x))) open_programs.
Proof.
  assert (X : forallb open_program open_programs = true) by (vm_cast_no_check (eq_refl true)).
  rewrite forallb_forall in X. apply Forall_forall. intros x I. specialize (X x I). unfold open_program in X.
  destruct (build_of (fst x)) as [pr | | |]; try discriminate. destruct (nth_error (pr_cmods pr) _) as [cm |] eqn:E; [| discriminate].
  apply andb_true_iff in X as [X1 X2]. apply negb_true_iff in X2. exists pr, cm. split; [reflexivity |]. split; [exact E |]. now apply open_undeclared.
Qed.
Print Assumptions C67_functions_closed_partial.
Print Assumptions C67_functions_closed_refuted.
