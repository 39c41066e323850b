(** Calls of the C library (C58). Specification: SpecLib.v. *)
From Verif Require Import Base Buf Lexer Nodes Types Cspec Resolve Cursor Preparser Parser CAst Translator
  Build SpecDecl SpecTyping SpecModule SpecAccept SpecLib LibFacts TypeProps Samples.

(** C58: where a name of the C library is not redeclared, calling it is accepted
    iff the arguments are and C lets the function be called with that many.
    Missing: the four functions the compiler's table declares otherwise. *)
Theorem C58_library_calls_partial : forall m p s G q n args f proto,
  in_force s G -> ns_ns n = [] -> ns_name n = lit f -> look (lit f) G = None ->
  In (f, proto) prototypes -> ~ In f ["abort"; "setvbuf"; "strtof"; "strtold"]%string ->
  accepted_at m p s (ECall q (EName n) args) <-> Forall (accepted_at m p s) args /\ c_takes proto (List.length args).
Proof. exact library_calls. Qed.
(** There are no other functions that can be called without a declaration. *)
Theorem C58_no_other_functions : forall x s params r, find_sym x = Some s -> ty_ops (cs_t s) = TCall params :: r ->
  exists f, x = lit f /\ (In f (map fst prototypes) \/ In f extensions).
Proof. exact library_known. Qed.

(** The rest: C's own way to call them is rejected, another is accepted. *)
Definition calling (call : string) : bout project := single ("int main() { " ++ call ++ "; return 0; }").
Theorem C58_library_calls_refuted : Forall (fun x : string * (string * string) =>
    In (fst x) (map fst prototypes) /\ messages (calling (fst (snd x))) <> [] /\ built (calling (snd (snd x))) = true)
  [ ("abort", ("abort()", "abort(1)"));
    ("setvbuf", ("setvbuf(stdout, NULL, 0, 1)", "setvbuf(stdout)"));
    ("strtof", ("strtof(""1"", NULL)", "strtof(""1"")"));
    ("strtold", ("strtold(""1"", NULL)", "strtold(""1"")")) ]%string.
Proof.
  repeat (apply Forall_cons; [cbn [fst snd]; split; [cbn; tauto|]; split; [vm_compute; discriminate|vm_compute; reflexivity]|]).
  apply Forall_nil.
Qed.
Definition no_decls : list decl := [].
Example C58_example :
  in_force st0 no_decls /\ look (lit "strcmp") no_decls = None /\ In ("strcmp", (2, false))%string prototypes
  /\ accepted_at (nth_mod 1) (nth_params 1) st0 (ELit (LString (L "a")))
  /\ built (calling "strcmp(""a"", ""b"")") = true /\ List.length (messages (calling "strcmp(""a"")")) = 1
  /\ built (calling "printf(""%d %d"", 1, 2)") = true /\ List.length (messages (calling "printf()")) = 1
  /\ built (single "int f(int strcmp) { return strcmp; } int main() { return f(1); }") = true.
Proof.
  split; [intros x; reflexivity|]. split; [reflexivity|]. split; [cbn; tauto|].
  split; [eexists; eexists; eexists; vm_compute; reflexivity|]. repeat split; vm_compute; reflexivity.
Qed.
Print Assumptions C58_library_calls_partial.
Print Assumptions C58_no_other_functions.
Print Assumptions C58_library_calls_refuted.
