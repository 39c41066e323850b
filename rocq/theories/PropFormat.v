(** C38, C41: what the generated C text means.
    The specification is in SpecC.v. *)
From Verif Require Import Base Nodes CAst FormatChe FormatC SpecLex SpecC CReadFacts CUnique Resolve Build Samples.

(** The C code of the functions of a program of one file. *)
Definition main_body (text : string) : list cstmt :=
  match single text with
  | BOk pr => flat_map (fun x => match x with XFunc f => cfd_body f | _ => [] end) (flat_map cm_elements (pr_cmods pr))
  | _ => []
  end.
(** The C files. *)
Definition c_files (text : string) : list str :=
  match single text with BOk pr => map format_module (pr_cmods pr) | _ => [] end.

(** ** C38 *)
(** A string is printed as string literals whose characters together are those
    of the source literal, a raw newline being one, provided that no line ends
    in a lone backslash and that no quote is bare (the lexer leaves none). *)
Theorem C38_string_value_partial : forall s, c_lines s -> exists l,
  reads (fmt_expr (CLit (CLString s))) (map TStr l) [] /\ strings_value l = string_value s.
Proof. exact string_denotes. Qed.
Example C38_example : exists s, c_lines s /\ string_value s = lit "one ""1""" ++ [10%N; 10%N] ++ lit "t" ++ [9%N; 10%N]
  /\ fmt_expr (CLit (CLString s)) = lit """one \""1\""""""\n""
""""""\n""
""t\t\n""".
Proof.
  exists (lit "one \""1\""

t\t\n"). split; [|split; vm_compute; reflexivity].
  repeat first [apply Lines_nil | apply Lines_break | apply Lines_char; [discriminate|discriminate|discriminate|] | apply Lines_pair; [discriminate|]].
Qed.
(** A backslash at the end of a line protects the quote that the formatter puts
    there, and the text is no sequence of C tokens at all. *)
Theorem C38_string_value_refuted : ~ exists toks, reads (fmt_expr (CLit (CLString broken_line))) toks [].
Proof. exact broken_line_unreadable. Qed.
(** The compiler accepts such a file and prints this literal. *)
Definition broken_text : string := "int main() { puts(""one\
two""); return 1; }".
Example C38_refuted_example : In (KExpr (CCall (CIdent (L "puts")) [CLit (CLString broken_line)])) (main_body broken_text).
Proof. vm_compute. auto. Qed.
Print Assumptions C38_string_value_partial.
Print Assumptions C38_string_value_refuted.

(** ** C41 *)
(** The text printed for a plain tree (see SpecC.v) is C, has one reading and
    is read as that tree.  [types] are the words that start a type. *)
Theorem C41_same_tree_partial : forall types e, types (L "sizeof") = false -> plain types e -> exists toks,
  reads (fmt_expr e) toks [] /\ c_expr_of types 2 toks e
  /\ forall toks' e', reads (fmt_expr e) toks' [] -> c_expr_of types 2 toks' e' -> values e' = values e.
Proof. exact expr_means. Qed.
(** The initial values of variables. *)
Theorem C41_initializers_partial : forall types e, plain_init types e -> exists toks,
  reads (fmt_expr e) toks [] /\ c_init_of types toks e.
Proof. exact init_denotes. Qed.
(** C text has at most one reading. *)
Theorem C41_one_reading : forall types text toks toks' e e', types (L "sizeof") = false ->
  reads text toks [] -> c_expr_of types 2 toks e -> reads text toks' [] -> c_expr_of types 2 toks' e' -> values e = values e'.
Proof. exact one_reading. Qed.
(** Trees that are not plain are read as another tree: parentheses are missing,
    or two operators become one. *)
Definition int_type : cbare_typeform := mkCbtf (mkCtn false (L "foo_t")) 1.
Definition foo_type (s : str) : bool := str_eqb s (L "foo_t").
Definition name (s : string) : cexpr := CIdent (lit s).
Definition misprinted : list (cexpr * string * cexpr) :=
  [ (CBin "-" (name "a") (CBin "-" (name "b") (name "c")), "a - b - c", CBin "-" (CBin "-" (name "a") (name "b")) (name "c"));
    (CBin "/" (name "a") (CBin "*" (name "b") (name "c")), "a / b * c", CBin "*" (CBin "/" (name "a") (name "b")) (name "c"));
    (CField "->" (CCast int_type (name "p")) (lit "x"), "(foo_t*)(p)->x", CCast int_type (CField "->" (name "p") (lit "x")));
    (CIndex (CPrefix "*" (name "p")) (name "i"), "*p[i]", CPrefix "*" (CIndex (name "p") (name "i")));
    (CCall (CPrefix "*" (name "f")) [name "x"], "*f(x)", CPrefix "*" (CCall (name "f") [name "x"]));
    (CPostfix "++" (CPrefix "*" (name "p")), "*p++", CPrefix "*" (CPostfix "++" (name "p")));
    (CIndex (CBin "+" (name "a") (name "b")) (name "i"), "a + b[i]", CBin "+" (name "a") (CIndex (name "b") (name "i")));
    (CPrefix "-" (CPrefix "-" (name "x")), "--x", CPrefix "--" (name "x"));
    (CBin "=" (CBin "=" (name "a") (name "b")) (name "c"), "a = b = c", CBin "=" (name "a") (CBin "=" (name "b") (name "c"))) ]%string.
Theorem C41_same_tree_refuted : Forall (fun '(e, text, e') => fmt_expr e = lit text
  /\ (exists toks, reads (fmt_expr e) toks [] /\ c_expr_of foo_type 2 toks e')
  /\ ~ exists toks e'', reads (fmt_expr e) toks [] /\ c_expr_of foo_type 2 toks e'' /\ values e'' = values e) misprinted.
Proof.
  repeat (apply Forall_cons; [split; [reflexivity|apply misread; [reflexivity|discriminate|]]|]); [..|apply Forall_nil].
  all: unfold name.
  3: apply cast_field; [plain_type|plain_tree|cbn; tauto|plain_word].
  all: apply printed_alike; [|reflexivity]; plain_tree.
Qed.
(** Each of these trees comes from a program that the compiler accepts. *)
Definition returning (params body : string) : string := ("typedef { int x; } foo_t; typedef int fn_t(int); pub int g(" ++ params ++ ") { return " ++ body ++ "; }
int main() { return 1; }")%string.
Example C41_refuted_example : Forall2 (fun text x => In (KReturn (Some (fst (fst x)))) (main_body text))
  [ returning "int a, b, c" "a - (b - c)"; returning "int a, b, c" "a / (b * c)"; returning "char *p" "((foo_t*)p)->x";
    returning "int **p, int i" "(*p)[i]"; returning "fn_t *f, int x" "(*f)(x)"; returning "int *p" "(*p)++";
    returning "int *a, int b, int i" "(a + b)[i]"; returning "int x" "-(-x)"; returning "int a, b, c" "(a = b) = c" ] misprinted.
Proof. repeat (apply Forall2_cons; [vm_compute; auto|]). apply Forall2_nil. Qed.
(** Two programs that differ in their parentheses give the same C files. *)
Theorem C41_programs_refuted : exists text text', c_files text = c_files text' /\ c_files text <> [] /\ main_body text <> main_body text'.
Proof.
  exists (returning "int a, b, c" "a - (b - c)"), (returning "int a, b, c" "a - b - c").
  split; [vm_compute; reflexivity|]. split; vm_compute; discriminate.
Qed.
Definition plain_sample : cexpr :=
  CBin "=" (CField "->" (CPrefix "&" (CIndex (name "v") (CBin "-" (CBin "+" (name "i") (name "j")) (name "k")))) (lit "x"))
    (CBin "*" (CBin "+" (CCall (CField "." (name "m") (lit "f")) [name "a"; CCast int_type (CPrefix "-" (name "b"))]) (name "c"))
       (CBin "<<" (name "d") (CBin "<<" (CPostfix "++" (name "e")) (name "f"))))%string.
Example C41_example : foo_type (L "sizeof") = false /\ plain foo_type plain_sample
  /\ fmt_expr plain_sample = L "(&v[i + j - k])->x = (m.f(a, (foo_t*)(-b)) + c) * (d << ((e++) << f))".
Proof.
  split; [reflexivity|]. split; [|reflexivity]. unfold plain_sample, name. plain_tree.
Qed.
Example C41_initializers_example : plain_init foo_type (CComp [(false, Some (name "x"), plain_sample); (true, Some (name "k"), CComp [(false, None, name "y")])])%string.
Proof.
  assert (H : plain foo_type plain_sample) by (unfold plain_sample, name; plain_tree). unfold name.
  apply PI_list, PI_field; [plain_word|now apply PI_expr|]. apply PI_index; [plain_tree|discriminate| |apply PI_nil].
  apply PI_list, PI_plain; [|apply PI_nil]. apply PI_expr. plain_tree.
Qed.
Print Assumptions C41_same_tree_partial.
Print Assumptions C41_initializers_partial.
Print Assumptions C41_one_reading.
Print Assumptions C41_same_tree_refuted.
Print Assumptions C41_programs_refuted.
