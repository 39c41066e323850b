(** Which projects are built (C65), and what is read off the tokens of a file
    before it is parsed (C45, C48).  Specification: SpecProject.v. *)
From Verif Require Import Base Buf Lexer Nodes Resolve Cursor Preparser Parser CAst FormatC Translator Build BaseFacts.
From Verif Require Import SpecGrammar SpecScope SpecDecl SpecTarget SpecAccept SpecBuild SpecProject AnnounceFacts VisitFacts FuelFacts TextFacts Samples.

(** A main file, a library that it imports twice over, and a third file. *)
Definition three_files : world := world_of
  [(L "p/main.c", lit "#import a.c
#import b.c
int main() { a.t x = b.get(); return x; }
");
   (L "p/a.c", lit "#type FILE
typedef int t0;
#import b.c
pub typedef int t;
pub t one() { return b.get(); }
");
   (L "p/b.c", lit "pub typedef { int x; } s_t;
pub int get() { s_t v = {}; return v.x; }
")].

(** ** C65 *)
(** The build of a program succeeds, with these headers and modules, exactly if
    the program is well formed with them. *)
Theorem C65_built_iff : forall (U : Unicode) w main heads mods, plain_path main ->
  ((exists fuel cmods, parse_project w fuel main = BOk (mkProject heads mods cmods)) <-> well_formed w main heads mods).
Proof. exact @built_iff. Qed.
(** Well-formed programs have one meaning, and no more work changes the result. *)
Theorem C65_settled : forall (U : Unicode) w main heads mods, plain_path main -> well_formed w main heads mods ->
  (exists F cmods, forall fuel, F <= fuel -> parse_project w fuel main = BOk (mkProject heads mods cmods))
  /\ forall heads' mods', well_formed w main heads' mods' -> heads = heads' /\ mods = mods'.
Proof. intros U w main heads mods Hp H. split; [apply built_settled; assumption |]. intros. eapply well_formed_fun; eauto. Qed.
(** In a built program every #import directive of every file leads to a file, at
    the path and under the namespace that the language prescribes; there are no
    other imports. *)
Theorem C65_imports : forall (U : Unicode) w main heads mods, well_formed w main heads mods ->
  forall i h, nth_error heads i = Some h ->
  exists toks, tokens_in w (mi_filepath h) toks /\ Forall2 (refers_to w (mi_filepath h)) (import_names toks) (mi_imports h).
Proof. exact @well_formed_imports. Qed.
Lemma main_plain : plain_path (L "p/main.c").
Proof.
  exists (L "main.c"). split; [split; [vm_compute; intuition discriminate | right; exists (L "p"); reflexivity] |].
  repeat split; [vm_compute; intuition discriminate | discriminate | discriminate].
Qed.
Definition summary (r : bout project) : list str * list (list str) * list (list str) :=
  match r with
  | BOk p => (map mi_filepath (pr_heads p), map (fun h => map r_path (mi_imports h)) (pr_heads p), map mi_typedefs (pr_heads p))
  | _ => ([], [], [])
  end.
Lemma summary_built (U : Unicode) w fuel main a b c : plain_path main -> summary (parse_project w fuel main) = (a, b, c) -> a <> [] ->
  exists heads mods, well_formed w main heads mods /\ map mi_filepath heads = a
  /\ map (fun h => map r_path (mi_imports h)) heads = b /\ map mi_typedefs heads = c.
Proof.
  intros Hp E Ha. destruct (parse_project w fuel main) as [[heads mods cmods] | | |] eqn:Ep; cbn in E;
    try (exfalso; apply Ha; congruence). injection E as <- <- <-.
  exists heads, mods. split; [| auto]. apply C65_built_iff; [exact Hp | eauto].
Qed.
Example C65_example : exists heads mods, @well_formed ascii_table three_files (L "p/main.c") heads mods
  /\ map mi_filepath heads = [L "p/b.c"; L "p/a.c"; L "p/main.c"]
  /\ map (fun h => map r_path (mi_imports h)) heads = [[]; [L "p/b.c"]; [L "p/a.c"; L "p/b.c"]]
  /\ map mi_typedefs heads = [[L "s_t"]; [L "FILE"; L "t0"; L "t"]; []].
Proof.
  refine (summary_built _ _ 600 _ _ _ _ main_plain _ _); [vm_cast_no_check (eq_refl ([L "p/b.c"; L "p/a.c"; L "p/main.c"], [[]; [L "p/b.c"]; [L "p/a.c"; L "p/b.c"]],
      [[L "s_t"]; [L "FILE"; L "t0"; L "t"]; []])) | discriminate].
Qed.
(** A file with an import that leads nowhere is no program. *)
Definition lost_import : world := world_of [(L "p/main.c", lit "#import b.c
int main() { return 0; }
")].
Lemma preparse_refused (U : Unicode) w p fuel : plain_path p -> (match preparse fuel w p with Err _ => true | _ => false end) = true ->
  forall heads mods, ~ well_formed w p heads mods.
Proof.
  intros Hp E heads mods (l & paths & Hv & _). inversion Hv as [p' toks names types refs l0 Ht Ha HF _]. subst.
  destruct (known_header _ _ _ _ _ _ Hp Ht Ha HF) as [f Ef].
  destruct (preparse fuel w p) as [h' | e | |] eqn:E'; try discriminate E.
  pose proof (preparse_stable U w p f (max f fuel) ltac:(lia) ltac:(congruence)) as E1.
  pose proof (preparse_stable U w p fuel (max f fuel) ltac:(lia) ltac:(congruence)) as E2. congruence.
Qed.
Example C65_example_missing : forall heads mods, ~ @well_formed ascii_table lost_import (L "p/main.c") heads mods.
Proof. apply (preparse_refused _ _ _ 600 main_plain). vm_cast_no_check (eq_refl true). Qed.
Print Assumptions C65_built_iff.
Print Assumptions C65_settled.
Print Assumptions C65_imports.

(** ** C45, third part *)
(** Before the modules are parsed, the compiler finds in each file exactly the
    imports and the type names that its tokens announce, or it refuses the file. *)
Theorem C45_announced : forall (U : Unicode) w p h, plain_path p -> (header w p h <->
  exists toks names, tokens_in w p toks /\ announced toks names (mi_typedefs h) /\ Forall2 (refers_to w p) names (mi_imports h)
    /\ mi_filepath h = p /\ mi_uniqid h = pre_uniqid p).
Proof. exact @header_refers. Qed.
(** In a file that follows the grammar, these are all its #import directives. *)
Theorem C45_import_directives : forall ctx toks elems names types, module_of ctx toks elems ->
  announced toks names types -> names = import_names toks.
Proof. intros ctx toks elems names types H. eapply grammatical_imports; eauto. Qed.
Lemma import_names_of (U : Unicode) w p text l : w_read w p = inl text ->
  import_names (c_toks (tokenize (buf_new text))) = l -> forall toks, tokens_in w p toks -> import_names toks = l.
Proof.
  intros Er E toks (text' & e & Er' & Hl). assert (text' = text) by congruence. subst text'.
  rewrite (tokenize_of _ _ _ Hl) in E. exact E.
Qed.
Example C45_import_example : exists toks, @tokens_in ascii_table three_files (L "p/main.c") toks
  /\ import_names toks = [L "a.c"; L "b.c"].
Proof.
  destruct C65_example as (heads & mods & Hw & E1 & _).
  destruct heads as [| h0 [| h1 [| h2 [| ]]]]; try discriminate E1. injection E1 as _ _ E1.
  destruct (C65_imports _ _ _ _ _ Hw 2 h2 eq_refl) as (toks & Ht & _). rewrite E1 in Ht. exists toks. split; [exact Ht |].
  eapply (import_names_of ascii_table); [| | exact Ht]; [reflexivity | vm_compute; reflexivity].
Qed.
Print Assumptions C45_announced.
Print Assumptions C45_import_directives.
