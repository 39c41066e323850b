(** Properties of builds of whole projects (C30, C31, C43-C47, C50).
    Specification: SpecBuild.v, SpecDecl.v, SpecTarget.v. *)
From Verif Require Import Base Buf Lexer Nodes Resolve Cursor Preparser Parser CAst FormatC Translator Build BaseFacts.
From Verif Require Import SpecScope SpecDecl SpecTarget SpecAccept SpecModule SpecExports TargetFacts TargetProps SpecBuild FuelFacts BuildFacts ProjectFacts BuildProps PathFacts Samples.

(** A project of the given files, built from p/main.c. *)
Definition files_of (files : list (string * string)) : world :=
  world_of (map (fun f => (lit (fst f), lit (snd f))) files).
Definition build_of (files : list (string * string)) : bout project :=
  @parse_project ascii_table (files_of files) sample_fuel (L "p/main.c").

(** ** C30 *)
(** Let [q] be the namespace of an import of the module [i], [S] its site.  The C
    file of the imported module defines its pub constants, functions and types
    under the very names that [q.x] has in the expressions and types of the
    module [i].  (A function named main, or named like one of its own
    parameters, is excluded: see C30_shadowed_refuted.) *)
Theorem C30_definition_and_use_partial : forall (U : Unicode) w fuel main pr i h m cm q h' m',
  parse_project w fuel main = BOk pr -> unit_at pr i h m cm -> q <> [] -> q <> L "OS" ->
  let S := site_of m (unit_params pr i h) in
  import S q = Some (h', m') ->
  exists j cm', j < i /\ unit_at pr j h' m' cm'
  /\ (forall e en, In (MEnum e) (mod_elements m') -> enum_pub e = true -> In en (enum_entries e) ->
      forall p G, exists d v, In (XEnum d) (cm_elements cm') /\ ced_hidden d = false
       /\ In (cname S G (mkNs p q (en_name en)), v) (ced_entries d))
  /\ (forall f, In (MFunc f) (mod_elements m') -> fd_pub f = true -> f_name (fd_form f) <> L "main" ->
      ~ In (f_name (fd_form f)) (param_names (fd_params f)) ->
      forall p G,
      (exists d, In (XFunc d) (cm_elements cm') /\ cfd_static d = false
        /\ cf_name (cfd_form d) = cname S G (mkNs p q (f_name (fd_form f))))
      /\ (exists d, In (XForwardFunc d) (cm_elements cm') /\ cfw_static d = false
        /\ cf_name (cfw_form d) = cname S G (mkNs p q (f_name (fd_form f)))))
  /\ (forall x, pub_type (mod_elements m') x ->
      forall b p, exists d e, In e (cm_elements cm') /\ format_elem e = format_elem (XTypedef d)
        /\ ctdf_alias (ctd_form d) = ctn_name (c_type S (mkTn b (mkNs p q x)))).
Proof. exact @definition_and_use. Qed.
(** [cname] and [c_type] are the names in the C code of the module: its own
    elements are those [c_elems] describes. *)
Theorem C30_names_used : forall m p cm e, translate m p = TrOk cm ->
  In e (c_elems (site_of m p) is_numeric) ->
  exists e', In e' (cm_elements cm) /\ format_elem e' = format_elem e.
Proof. exact own_text. Qed.
Example C30_example : exists pr h m cm h' m',
  sample_project = BOk pr /\ unit_at pr 1 h m cm
  /\ import (site_of m (unit_params pr 1 h)) (L "lib") = Some (h', m')
  /\ (exists f, In (MFunc f) (mod_elements m') /\ fd_pub f = true /\ f_name (fd_form f) = L "add"
        /\ ~ In (f_name (fd_form f)) (param_names (fd_params f)))
  /\ (exists e en, In (MEnum e) (mod_elements m') /\ enum_pub e = true /\ In en (enum_entries e))
  /\ pub_type (mod_elements m') (L "vec_t").
Proof.
  exists the_project. do 5 eexists. split; [vm_compute; reflexivity |].
  split; [repeat split; vm_compute; reflexivity |]. split; [vm_compute; reflexivity |]. split; [| split].
  - eexists. split; [cbn [mod_elements In]; do 5 right; left; reflexivity |]. split; [reflexivity |]. split; [reflexivity |].
    vm_compute. intros [H | [H | []]]; discriminate.
  - eexists. eexists. split; [left; reflexivity |]. split; [reflexivity |]. left. reflexivity.
  - right. eexists. split; [right; right; left; reflexivity |]. split; reflexivity.
Qed.
Print Assumptions C30_definition_and_use_partial.
Print Assumptions C30_names_used.

(** A pub function with a parameter of its own name is defined under its plain
    name, while importers use the prefixed one. *)
Definition shadow_files (body : string) : list (string * string) :=
  [("p/a.c", "pub int f(int f) { return f; }");
   ("p/b.c", "pub int f(int f) { return f + 1; }");
   ("p/main.c", body)]%string.
Definition shadow_main : string := "#import a.c
#import b.c
int main() { return a.f(1) + b.f(2); }".
Theorem C30_shadowed_refuted : exists pr h m cm f,
  build_of (shadow_files shadow_main) = BOk pr /\ unit_at pr 0 h m cm
  /\ In (MFunc f) (mod_elements m) /\ fd_pub f = true /\ f_name (fd_form f) <> L "main"
  /\ forall d, In (XFunc d) (cm_elements cm) \/ In (XForwardFunc (prototype_of d)) (cm_elements cm) ->
     cf_name (cfd_form d) <> global_name (mi_uniqid h) (f_name (fd_form f)).
Proof.
  do 5 eexists. split; [vm_compute; reflexivity |]. split; [repeat split; vm_compute; reflexivity |].
  split; [left; reflexivity |]. split; [reflexivity |]. split; [vm_compute; discriminate |].
  intros d H E.
  assert (X : In (cf_name (cfd_form d)) [L "f"; L "main"]); [| rewrite E in X; vm_compute in X; intuition discriminate].
  clear E. cbn [cm_elements In] in H.
  destruct d as [sd td [hd nd ixd] pd bd]; cbn [cfd_form cf_name prototype_of] in *.
  vm_compute in H. vm_compute.
  repeat match goal with
  | H : _ \/ _ |- _ => destruct H as [H | H]
  | H : False |- _ => destruct H
  | H : _ = XFunc _ |- _ => first [discriminate H | injection H; intros; subst; auto]
  | H : _ = XForwardFunc _ |- _ => first [discriminate H | injection H; intros; subst; auto]
  end.
Qed.
Print Assumptions C30_shadowed_refuted.

(** ** C31 *)
(** The C names of exported elements of a project are different when the modules
    or the names are. *)
Theorem C31_no_collisions_partial : forall (U : Unicode) w fuel main pr i h m cm j h' m' cm' x y,
  parse_project w fuel main = BOk pr ->
  unit_at pr i h m cm -> unit_at pr j h' m' cm' ->
  global_name (mi_uniqid h) x = global_name (mi_uniqid h') y -> i = j /\ x = y.
Proof. exact @names_differ. Qed.
(** These are the names exported elements are defined under, with the exception
    of C30. *)
Theorem C31_exported_names_partial : forall m p cm, translate m p = TrOk cm ->
  let id := mi_uniqid (tp_mod p) in
  (forall e en, In (MEnum e) (mod_elements m) -> enum_pub e = true -> In en (enum_entries e) ->
     exists d v, In (XEnum d) (cm_elements cm) /\ ced_hidden d = false
       /\ In (global_name id (en_name en), v) (ced_entries d))
  /\ (forall f, In (MFunc f) (mod_elements m) -> fd_pub f = true -> f_name (fd_form f) <> L "main" ->
      ~ In (f_name (fd_form f)) (param_names (fd_params f)) ->
      (exists d, In (XFunc d) (cm_elements cm) /\ cfd_static d = false
        /\ cf_name (cfd_form d) = global_name id (f_name (fd_form f)))
      /\ (exists d, In (XForwardFunc d) (cm_elements cm) /\ cfw_static d = false
        /\ cf_name (cfw_form d) = global_name id (f_name (fd_form f))))
  /\ (forall x, pub_type (mod_elements m) x ->
      exists d e, In e (cm_elements cm) /\ format_elem e = format_elem (XTypedef d)
        /\ ctdf_alias (ctd_form d) = global_name id x).
Proof. exact definitions. Qed.
Example C31_example : exists pr h m cm h' m' cm', sample_project = BOk pr
  /\ unit_at pr 0 h m cm /\ unit_at pr 1 h' m' cm'
  /\ global_name (mi_uniqid h) (L "f") = L "mod0_lib__f" /\ global_name (mi_uniqid h') (L "f") = L "mod1_main__f".
Proof. exists the_project. do 6 eexists. repeat split; vm_compute; reflexivity. Qed.
Print Assumptions C31_no_collisions_partial.
Print Assumptions C31_exported_names_partial.
(** Two functions of different modules, both visible to the linker as f. *)
Theorem C31_shadowed_refuted : exists pr h m cm h' m' cm' d d',
  build_of (shadow_files shadow_main) = BOk pr /\ unit_at pr 0 h m cm /\ unit_at pr 1 h' m' cm'
  /\ In (XFunc d) (cm_elements cm) /\ In (XFunc d') (cm_elements cm')
  /\ cfd_static d = false /\ cfd_static d' = false
  /\ cf_name (cfd_form d) = cf_name (cfd_form d').
Proof.
  do 9 eexists. split; [vm_compute; reflexivity |]. split; [repeat split; vm_compute; reflexivity |].
  split; [repeat split; vm_compute; reflexivity |].
  assert (G : forall x l, In x (rev l) -> In (A := celem) x l) by (intros x l Hx; apply in_rev, Hx).
  split; [apply G; cbn [cm_elements rev app]; left; reflexivity |].
  split; [apply G; cbn [cm_elements rev app]; left; reflexivity |]. repeat split; reflexivity.
Qed.
Print Assumptions C31_shadowed_refuted.

(** ** C43 *)
Theorem C43_modules_in_order : forall (U : Unicode) w fuel main pr, parse_project w fuel main = BOk pr ->
  let paths := map mi_filepath (pr_heads pr) in
  NoDup paths
  /\ (forall p, In p paths <-> part_of w main p)
  /\ (forall p q, part_of w main p -> imports w p q -> earlier q p paths)
  /\ exists l, paths = l ++ [main].
Proof. exact @modules_in_order. Qed.
Definition diamond : list (string * string) :=
  [("p/base.c", "pub int one() { return 1; }");
   ("p/a.c", "#import base.c
pub int two() { return base.one() + 1; }");
   ("p/b.c", "#import base.c
#import a.c
pub int three() { return a.two() + base.one(); }");
   ("p/main.c", "#import b.c
#import a.c
int main() { return a.two() + b.three(); }")]%string.
Example C43_example : exists pr, build_of diamond = BOk pr
  /\ map mi_filepath (pr_heads pr) = [L "p/base.c"; L "p/a.c"; L "p/b.c"; L "p/main.c"].
Proof. eexists. split; vm_compute; reflexivity. Qed.
Print Assumptions C43_modules_in_order.

(** ** C44 *)
(** The program consists of the given files and the pre-pass accepts each of
    them.  Then loading ends; with a cycle the build reports a walk along
    imports that comes back, without one it goes on to parse the program. *)
Theorem C44_cycles : forall (U : Unicode) w main files,
  (forall p, In p files <-> part_of w main p) ->
  (forall p, In p files -> exists i, header w p i) ->
  exists F, forall fuel, F <= fuel ->
    (cyclic w main /\ exists trail q, loop_from w main trail q
       /\ parse_project w fuel main
          = BErrs [mkBerr [] [] (L "import loop: " ++ join (L " -> ") trail ++ L " -> " ++ q)])
    \/ (~ cyclic w main /\ exists heads, program w main heads
       /\ parse_project w fuel main
          = bbind (parse_mods w fuel heads heads) (fun mods =>
            bbind (translate_mods mods heads [] (combine mods heads)) (fun cmods =>
            BOk (mkProject heads mods cmods)))).
Proof. exact @cycles_decide. Qed.
(** Whatever the fuel and the files: no project with a cycle is built. *)
Theorem C44_built_acyclic : forall (U : Unicode) w fuel main pr,
  parse_project w fuel main = BOk pr -> ~ cyclic w main.
Proof. exact @not_cyclic. Qed.
(** The outcomes of loading; a loop is only reported where there is one. *)
Theorem C44_loading : forall (U : Unicode) w main fuel,
  match load_tree w fuel [] main [] with
  | Ok (l, c) => ~ cyclic w main /\ forall p, part_of w main p -> exists i, header w p i
  | Err e => (exists trail q, loop_from w main trail q
                /\ e_msg e = L "import loop: " ++ join (L " -> ") trail ++ L " -> " ++ q)
             \/ exists f p, part_of w main p /\ preparse f w p = Err e
  | Abort s => exists f p, part_of w main p /\ preparse f w p = Abort s
  | NoFuel => True
  end.
Proof. exact @loading_cases. Qed.
Definition circle : list (string * string) :=
  [("p/a.c", "#import b.c
int x = 1;"); ("p/b.c", "#import main.c
int y = 1;"); ("p/main.c", "#import a.c
int main() { return 1; }")]%string.
Definition circle_paths : list str := [L "p/main.c"; L "p/a.c"; L "p/b.c"].
Definition at_fuel (p : str) : outcome modinfo := @preparse ascii_table sample_fuel (files_of circle) p.
Example C44_example :
  (forall p, In p circle_paths <-> @part_of ascii_table (files_of circle) (L "p/main.c") p)
  /\ (forall p, In p circle_paths -> exists i, @header ascii_table (files_of circle) p i)
  /\ @cyclic ascii_table (files_of circle) (L "p/main.c")
  /\ messages (build_of circle) = [L "import loop: p/main.c -> p/a.c -> p/b.c -> p/main.c"].
Proof.
  assert (H0 : forall p i, at_fuel p = Ok i -> @header ascii_table (files_of circle) p i) by (intros p i E; exists sample_fuel; exact E).
  assert (E1 : exists i, at_fuel (L "p/main.c") = Ok i /\ map r_path (mi_imports i) = [L "p/a.c"]) by (eexists; split; vm_compute; reflexivity).
  assert (E2 : exists i, at_fuel (L "p/a.c") = Ok i /\ map r_path (mi_imports i) = [L "p/b.c"]) by (eexists; split; vm_compute; reflexivity).
  assert (E3 : exists i, at_fuel (L "p/b.c") = Ok i /\ map r_path (mi_imports i) = [L "p/main.c"]) by (eexists; split; vm_compute; reflexivity).
  destruct E1 as (i1 & E1 & M1), E2 as (i2 & E2 & M2), E3 as (i3 & E3 & M3). apply H0 in E1, E2, E3.
  assert (I1 : @imports ascii_table (files_of circle) (L "p/main.c") (L "p/a.c")) by (eapply head_imports; [exact E1 | rewrite M1; left; reflexivity]).
  assert (I2 : @imports ascii_table (files_of circle) (L "p/a.c") (L "p/b.c")) by (eapply head_imports; [exact E2 | rewrite M2; left; reflexivity]).
  assert (I3 : @imports ascii_table (files_of circle) (L "p/b.c") (L "p/main.c")) by (eapply head_imports; [exact E3 | rewrite M3; left; reflexivity]).
  split; [| split; [| split]].
  - assert (Hc : forall p q, In p circle_paths -> @imports ascii_table (files_of circle) p q -> In q circle_paths).
    { intros p q [<- | [<- | [<- | []]]] Hq.
      - apply (imports_head _ _ _ _ E1) in Hq. rewrite M1 in Hq. right. left. destruct Hq as [<- | []]. reflexivity.
      - apply (imports_head _ _ _ _ E2) in Hq. rewrite M2 in Hq. right. right. left. destruct Hq as [<- | []]. reflexivity.
      - apply (imports_head _ _ _ _ E3) in Hq. rewrite M3 in Hq. left. destruct Hq as [<- | []]. reflexivity. }
    intros p. split.
    + intros [<- | [<- | [<- | []]]]; [left; reflexivity | right; apply Needs_one, I1 |].
      right. eapply Needs_more; [exact I1 | apply Needs_one, I2].
    + intros [-> | H]; [left; reflexivity |].
      assert (G : forall a b, @needs ascii_table (files_of circle) a b -> In a circle_paths -> In b circle_paths)
        by (induction 1; eauto). eapply G; [exact H | left; reflexivity].
  - intros p [<- | [<- | [<- | []]]]; eauto.
  - exists (L "p/main.c"). split; [left; reflexivity |]. eapply Needs_more; [exact I1 |]. eapply Needs_more; [exact I2 | apply Needs_one, I3].
  - vm_compute. reflexivity.
Qed.
Print Assumptions C44_cycles.
Print Assumptions C44_built_acyclic.
Print Assumptions C44_loading.

(** ** C45 *)
(** When the translation comes to the i-th module, the i modules before it are
    done.  Every import of the module is one of them, all headers, parsed
    modules and C codes found at the same index, and the lookups of the
    translation succeed. *)
Theorem C45_imports_available : forall (U : Unicode) w fuel main heads mods i h m done,
  front w fuel main = BOk (heads, mods) ->
  nth_error heads i = Some h -> nth_error mods i = Some m -> List.length done = i ->
  let env := env_of m (mkParams h heads done mods) in
  (forall r, In r (mi_imports h) ->
     exists j h' m' cm', nth_error heads j = Some h' /\ nth_error mods j = Some m' /\ nth_error done j = Some cm'
       /\ mi_filepath h' = r_path r
       /\ (find (fun x => str_eqb (r_ns x) (r_ns r)) (mi_imports h) = Some r ->
           find_ns env (r_ns r) = Some (h', m')))
  /\ (forall q, In q (map r_ns (mi_imports h)) -> find_ns env q <> None)
  /\ exists l, expand_imports env = TrOk l.
Proof. exact @imports_available. Qed.
(** [front] is the part of the build before the translation. *)
Theorem C45_front : forall (U : Unicode) w fuel main,
  parse_project w fuel main =
  bbind (front w fuel main) (fun '(heads, mods) =>
  bbind (translate_mods mods heads [] (combine mods heads)) (fun cmods =>
  BOk (mkProject heads mods cmods))).
Proof. exact @parse_project_front. Qed.
Example C45_example : exists heads mods h m, @front ascii_table sample_world sample_fuel (L "p/main.c") = BOk (heads, mods)
  /\ nth_error heads 1 = Some h /\ nth_error mods 1 = Some m /\ map r_ns (mi_imports h) = [L "lib"].
Proof. do 4 eexists. split; [vm_compute; reflexivity |]. repeat split. Qed.
Print Assumptions C45_imports_available.
Print Assumptions C45_front.

(** ** C46 *)
(** The C file of a module consists of the fixed head, of what its imports
    offer, with only the first element of each key, and of its own elements. *)
Theorem C46_injected : forall (U : Unicode) w fuel main pr i h m cm,
  parse_project w fuel main = BOk pr -> unit_at pr i h m cm ->
  exists s parts injected,
    Forall2 (fun r part => exists j h' m' cm', j < i /\ unit_at pr j h' m' cm' /\ mi_filepath h' = r_path r
               /\ part = filter offered (cm_elements cm')) (mi_imports h) parts
    /\ firsts key [] (List.concat parts) injected
    /\ cm_elements cm = reorder_elems (module_head s ++ injected ++ c_elems (site_of m (unit_params pr i h)) is_numeric).
Proof. exact @unit_gives. Qed.
(** Among them every key occurs once and none is missing. *)
Theorem C46_keys : forall (k : celem -> str) l l', firsts k [] l l' ->
  NoDup (map k l') /\ (forall a, In a l' -> In a l) /\ (forall a, In a l -> In (k a) (map k l')).
Proof.
  intros k l l' H. destruct (firsts_keys _ _ _ _ _ H) as (H1 & _ & H3). split; [exact H1 |].
  split; [apply (firsts_in _ _ _ _ _ H) |]. intros a Ha. destruct (H3 a Ha) as [[] | Hk]. exact Hk.
Qed.
(** Nothing private is offered: everything is a directive or comes from a pub
    element of a module of the project. *)
Theorem C46_nothing_private : forall (U : Unicode) w fuel main pr i h m cm e,
  parse_project w fuel main = BOk pr -> unit_at pr i h m cm ->
  In e (cm_elements cm) -> offered e = true ->
  (exists n v, e = XMacro n v)
  \/ exists k h m cm x, unit_at pr k h m cm /\ In x (mod_elements m) /\ is_pub x = true
     /\ In e (c_elem (site_of m (unit_params pr k h)) (module_decls is_numeric (mod_elements m)) x).
Proof. exact @offers_public. Qed.
Example C46_example : exists pr h m cm, build_of diamond = BOk pr /\ unit_at pr 3 h m cm
  /\ List.length (mi_imports h) = 2
  /\ List.length (filter (fun e => match e with XForwardFunc _ => true | _ => false end) (cm_elements cm)) = 3.
Proof.
  do 4 eexists. split; [vm_compute; reflexivity |]. split; [repeat split; vm_compute; reflexivity |].
  split; vm_compute; reflexivity.
Qed.
Print Assumptions C46_injected.
Print Assumptions C46_keys.
Print Assumptions C46_nothing_private.

(** ** C47 *)
(** The file looked for; an error names the import and that file. *)
Theorem C47_resolution : forall w base name path, looked_up (w_home w) base name path ->
  resolve_import w base name =
  if w_exists w path then rbind (ns_of_path path) (fun ns => Done (inl (mkRef path ns)))
  else Done (inr (L "can't find module '" ++ name ++ L "' (looked at " ++ path ++ L ")")).
Proof. exact resolve_path. Qed.
(** Every base path that ends in a file name has a directory, so that every
    import in such a file is looked for somewhere. *)
Theorem C47_total : forall w base bn name, file_name base bn -> plain_name bn ->
  exists path, looked_up (w_home w) base name path.
Proof. exact looked_total. Qed.
(** The namespace is the file name without .c, for ASCII names. *)
Theorem C47_namespace_partial : forall home base name path, looked_up home base name path ->
  exists bn ns, file_name path bn /\ ns_of_path path = Done ns
    /\ (ascii bn -> bn = ns ++ L ".c") /\ exists b, bn = b ++ L ".c".
Proof. exact ns_of_looked. Qed.
Example C47_example : looked_up (L "home") (L "src/a/main.c") (L "../x/lib.c") (L "src/a/../x/lib.c")
  /\ ns_of_path (L "src/a/../x/lib.c") = Done (L "lib")
  /\ looked_up (L "home") (L "main.c") (L "lib.c") (L "lib.c")
  /\ looked_up (L "home") (L "main.c") (L "strings") (L "home/lib/strings.c").
Proof.
  assert (P : forall s, existsb (N.eqb 47) s = false -> s <> [] -> s <> L "." -> plain_name s).
  { intros s H1 H2 H3. split; [| split; assumption]. intros Hi.
    assert (E : existsb (N.eqb 47) s = true) by (apply existsb_exists; exists 47%N; split; [exact Hi | reflexivity]). congruence. }
  split; [| split; [vm_compute; reflexivity | split]].
  - change (L "src/a/../x/lib.c") with (in_directory (L "src/a") (L "../x/lib.c")).
    apply (Look_relative _ _ _ _ (L "../x/lib")); [reflexivity | discriminate |].
    apply (Dir_sub (L "src/a") (L "src") [] (L "main.c")); [| constructor | apply P; [reflexivity | discriminate | discriminate]].
    apply (Dir_sub (L "src") [] [] (L "a")); [| constructor | apply P; [reflexivity | discriminate | discriminate]].
    apply Dir_none. apply P; [reflexivity | discriminate | discriminate].
  - change (L "lib.c") with (in_directory [] (L "lib.c")) at 2.
    apply (Look_relative _ _ _ _ (L "lib")); [reflexivity | discriminate |].
    apply Dir_none. apply P; [reflexivity | discriminate | discriminate].
  - apply Look_library. intros n E. assert (X : ends_with (L "strings") (L ".c") = true) by (rewrite E; apply ends_c). discriminate X.
Qed.
(** The length of the file name is taken in bytes but cut in characters. *)
Theorem C47_namespace_refuted : exists home base name path bn ns, looked_up home base name path
  /\ file_name path bn /\ ns_of_path path = Done ns /\ bn <> ns ++ L ".c".
Proof.
  exists (L "home"), (L "main.c"), [233%N; 46%N; 99%N], [233%N; 46%N; 99%N], [233%N; 46%N; 99%N], [233%N; 46%N].
  split; [| split; [| split; [reflexivity | discriminate]]].
  - change [233%N; 46%N; 99%N] with (in_directory [] [233%N; 46%N; 99%N]) at 2.
    apply (Look_relative _ _ _ _ [233%N]); [reflexivity | discriminate |]. apply Dir_none.
    split; [cbn; intuition discriminate |]. split; discriminate.
  - split; [cbn; intuition discriminate |]. left. reflexivity.
Qed.
Print Assumptions C47_resolution.
Print Assumptions C47_total.
Print Assumptions C47_namespace_partial.
Print Assumptions C47_namespace_refuted.

(** ** C50 *)
(** Each module is written to a file of its own, unless md5 gives two of the
    paths the same hash; the file holds the C code of the module, and the table
    for diagnostics gives the path of the module. *)
Theorem C50_generated_files : forall (U : Unicode) w fuel main pr md5 dir, parse_project w fuel main = BOk pr ->
  (forall p q, In p (map mi_filepath (pr_heads pr)) -> In q (map mi_filepath (pr_heads pr)) -> md5 p = md5 q -> p = q) ->
  let files := write_c99 md5 dir pr in
  NoDup (map (fun f => fst (fst f)) files)
  /\ List.length files = List.length (pr_heads pr)
  /\ forall i h m cm, unit_at pr i h m cm ->
     nth_error files i = Some (dir ++ L "/" ++ md5 (mi_filepath h) ++ L ".c", format_module cm, mi_filepath h).
Proof. exact @generated_files. Qed.
Example C50_example : exists pr, build_of diamond = BOk pr
  /\ (forall p q : str, In p (map mi_filepath (pr_heads pr)) -> In q (map mi_filepath (pr_heads pr)) ->
      (fun s => L "hash-" ++ s) p = (fun s => L "hash-" ++ s) q -> p = q)
  /\ List.length (pr_heads pr) = 4.
Proof. eexists. split; [vm_compute; reflexivity |]. split; [| reflexivity]. intros p q _ _ E. apply app_inv_head in E. exact E. Qed.
Print Assumptions C50_generated_files.
