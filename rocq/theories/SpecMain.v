(** What the commands print, what they do to the system and how they end. *)
From Verif Require Import Base Buf Nodes Lexer Resolve Cursor Preparser Parser CAst FormatChe FormatC Translator Build
  Mains SpecBuild SpecExports.

(** The dependency tree of a file: its path, indented by its depth, and below it
    the trees of its imports in order, one level deeper. *)
Inductive tree `{Unicode} (w : world) : nat -> str -> str -> Prop :=
| Tree depth path i parts : header w path i ->
    Forall2 (fun r part => tree w (S depth) (r_path r) part) (mi_imports i) parts ->
    tree w depth path
      (repeat_str depth (L "  ") ++ (if Nat.eqb depth 0 then [] else L "- ") ++ path ++ [c_nl]
       ++ List.concat parts).

(** ** The parts of a history *)
Definition printed (h : history) : str :=
  List.concat (map (fun e => match e with Out s => s | _ => [] end) h).
Definition complained (h : history) : str :=
  List.concat (map (fun e => match e with ErrOut s => s | _ => [] end) h).
(** What is left of the process after it ended: everything but the printing. *)
Definition silent (e : effect) : bool := match e with Out _ | ErrOut _ => false | _ => true end.
Definition touched (h : history) : list effect := filter silent h.
(** Printing and making a directory for files. *)
Definition harmless (e : effect) : bool :=
  match e with Out _ | ErrOut _ | MakeDir _ => true | _ => false end.

(** One line for each error: where it is and what it says. *)
Definition error_lines (errors : list build_error) : str :=
  List.concat (map (fun e => be_path e ++ L ":" ++ be_pos e ++ L ": " ++ be_msg e ++ [c_nl]) errors).

(** ** Building *)
Section Build.
Context (w : world) (sys : system).

(** The files made from a project in a directory: for each module its C text,
    under the hash of its path. *)
Definition c_file (dir : str) (h : modinfo) : str := dir ++ L "/" ++ sy_md5 sys (mi_filepath h) ++ L ".c".
Definition files_written (dir : str) (pr : project) : list effect :=
  map (fun '(h, cm) => WriteFile (c_file dir h) (format_module cm)) (combine (pr_heads pr) (pr_cmods pr)).

(** The directory is there, or it is made. *)
Definition dir_made (dir : str) (l : list effect) : Prop := l = [] \/ l = [MakeDir dir].

(** The arguments of the C compiler: options, the files of all modules, the
    output, and -l for the first occurrence of every text among m and the #link
    hints of the modules. *)
Definition cc_args (pr : project) (out : str) (args : list str) : Prop :=
  exists libs,
    firsts (fun x => x) [] (L "m" :: flat_map link_hint (flat_map mod_elements (pr_mods pr))) libs
    /\ args = c99_flags (sy_macos sys) ++ map (c_file (w_home w ++ L "/tmp")) (pr_heads pr)
              ++ [L "-o"; out] ++ flat_map (fun x => [L "-l"; trim x]) libs.

(** A project was built: all its files were written and then the compiler was
    run on them, once, with this result. *)
Definition compiled (pr : project) (out : str) (ok : bool) (l : list effect) : Prop :=
  exists made args, dir_made (w_home w ++ L "/tmp") made /\ cc_args pr out args
    /\ l = made ++ files_written (w_home w ++ L "/tmp") pr ++ [RunCC args ok].

(** The system lets the process down after a history: a directory or file
    cannot be written, the C compiler or a test cannot be started, a text is not
    UTF-8, a directory cannot be read. *)
Definition fails_at (h : history) : Prop :=
  (exists d, sy_exists sys h d = false /\ sy_mkdir sys h d = false)
  \/ (exists p t, sy_write sys h p t = false)
  \/ (exists a, sy_cc sys h a = None)
  \/ (exists a l ok, sy_cc sys h a = Some (l, ok) /\ In None l)
  \/ sy_test sys h = None
  \/ (exists x ok, sy_test sys h = Some (None, x, ok) \/ sy_test sys h = Some (x, None, ok))
  \/ (exists d, sy_list sys h d = None).
Definition let_down (h : history) : Prop := exists h1 h2, h = h1 ++ h2 /\ fails_at h1.

(** [s'] is [s] with [to] for every occurrence of [pat], from left to right. *)
Definition occurs (pat s : str) : Prop := exists a b, s = a ++ pat ++ b.
Inductive replaced (pat to : str) : str -> str -> Prop :=
| Rep_none s : ~ occurs pat s -> replaced pat to s s
| Rep_first a b b' : ~ occurs pat (a ++ removelast pat) -> replaced pat to b b' ->
    replaced pat to (a ++ pat ++ b) (a ++ to ++ b').
(** A line of the C compiler as it is shown: the path of the source before the
    path of each generated file. *)
Inductive explained (dir : str) : list modinfo -> str -> str -> Prop :=
| Expl_nil s : explained dir [] s s
| Expl_cons h l s s1 s2 : replaced (c_file dir h) (mi_filepath h ++ L " -> " ++ c_file dir h) s s1 ->
    explained dir l s1 s2 -> explained dir (h :: l) s s2.

End Build.

(** ** Command lines *)
(** A file name [file] is [n] with an extension behind its last dot; a name with no dot
    but at its beginning, like [.c], has no extension. *)
Definition has_stem (file n : str) : Prop :=
  (exists ext, file = n ++ L "." ++ ext /\ ~ In 46%N ext) \/ (file = n /\ ~ In 46%N (tl n)).
(** A source path with a file name [n.c], or with another extension, or none. *)
Definition source_named (path n : str) : Prop :=
  n <> [] /\ n <> L "." /\ n <> L ".." /\ exists file, file_name path file /\ has_stem file n.
(** The command lines that build the program [src] into the file [out]. *)
Inductive makes (w : world) (sys : system) : list str -> str -> str -> Prop :=
| Makes_build src out : makes w sys [L "build"; src; out] src out
| Makes_build_here src n : source_named src n -> makes w sys [L "build"; src] src n
| Makes_install src n : sy_home_set sys = true -> source_named src n ->
    makes w sys [L "install"; src] src (w_home w ++ L "/bin/" ++ n).
(** The command lines that work on the program [src]. *)
Inductive about (w : world) (sys : system) : list str -> str -> Prop :=
| About_makes args src out : makes w sys args src out -> about w sys args src
| About_run src args : about w sys (L "run" :: src :: args) src
| About_deptree src : about w sys [L "deptree"; src] src
| About_genc src dir args : about w sys (L "genc" :: src :: dir :: args) src
| About_exports src args : about w sys (L "exports" :: src :: args) src.

(** ** Listings of exports *)
Definition section (title : string) (lines : list str) : str :=
  match lines with
  | [] => []
  | _ => lit title ++ [c_nl] ++ List.concat (map (fun x => [9%N] ++ x ++ [c_nl]) lines)
  end.
(** A parameter and the parameters of a function. *)
Definition param_text (p : type_and_forms) : str :=
  che_fmt_typename (taf_type p) ++ L " " ++ join (L ", ") (map che_fmt_form (taf_forms p)).
Definition signature (f : funcdecl) : str :=
  che_fmt_form (fd_form f) ++ L " (" ++ join (L ", ") (map param_text (fp_list (fd_params f)))
  ++ (if fp_ellipsis (fd_params f) then L ", ..." else []) ++ L ")".
(** The lines of functions: the type, spaces and the signature, where all names
    begin in one column (counted in bytes), with at least three columns between
    the longest type and the names; a star may stand in the last of them. *)
Definition longest (fns : list funcdecl) (n : nat) : Prop :=
  (exists f, In f fns /\ n = blen (che_fmt_typename (fd_type f)))
  /\ forall f, In f fns -> blen (che_fmt_typename (fd_type f)) <= n.
Definition function_line (sign : funcdecl -> str) (n : nat) (f : funcdecl) (line : str) : Prop :=
  exists gap, line = che_fmt_typename (fd_type f) ++ gap ++ sign f
    /\ (forall c, In c gap -> c = 32%N)
    /\ blen (che_fmt_typename (fd_type f) ++ gap) = n + (if starts_with (sign f) (L "*") then 2 else 3).
Definition function_lines (sign : funcdecl -> str) (fns : list funcdecl) (lines : list str) : Prop :=
  match fns with
  | [] => lines = []
  | _ => exists n, longest fns n /\ Forall2 (function_line sign n) fns lines
  end.
(** The listing of a module. *)
Definition listing (path : str) (elems : list modelem) (text : str) : Prop :=
  exists lines, function_lines signature (functions_in_order elems) lines
    /\ text = L "mod " ++ path ++ [c_nl]
              ++ section "constants" (map en_name (constants_in_order elems))
              ++ section "types" (types_in_order elems)
              ++ section "functions" lines.
(** The listing of a file: that of its module in the project it is the main
    file of. *)
Definition lists_file `{Unicode} (w : world) (fuel : nat) (path text : str) : Prop :=
  exists pr i h m cm, parse_project w fuel path = BOk pr /\ unit_at pr i h m cm /\ mi_filepath h = path
    /\ listing path (mod_elements m) text.
(** No declaration of parameters like (int a, b). *)
Definition no_groups (elems : list modelem) : Prop :=
  forall f p, In f (functions_in_order elems) -> In p (fp_list (fd_params f)) -> exists x, taf_forms p = [x].

(** ** Tests *)
Inductive below (ls : str -> option (list (str * bool))) : str -> str -> Prop :=
| Below_here dir entries path is_dir : ls dir = Some entries -> In (path, is_dir) entries ->
    ends_with path (L ".test.c") = true -> below ls dir path
| Below_sub dir entries sub path : ls dir = Some entries -> In (sub, true) entries ->
    ends_with sub (L ".test.c") = false -> below ls sub path -> below ls dir path.

(** What che test does about one test, and whether the test failed: its program
    has errors, the C compiler refuses it, or it is built and run. *)
Inductive tested `{Unicode} (w : world) (sys : system) (fuel : nat) (path : str) : list effect -> bool -> Prop :=
| Tested_refused errors made : parse_project w fuel path = BErrs errors -> dir_made (w_home w ++ L "/tmp") made ->
    tested w sys fuel path made true
| Tested_not_built pr l : parse_project w fuel path = BOk pr -> compiled w sys pr (L "test.out") false l ->
    tested w sys fuel path l true
| Tested_run pr l ok : parse_project w fuel path = BOk pr -> compiled w sys pr (L "test.out") true l ->
    tested w sys fuel path (l ++ [RunTest ok]) (negb ok).
