(** The names a piece of C uses and the names declared where it stands (C99
    6.2.1), for the trees of SpecCStmt.v and the elements of a generated file.
    Written from the standard. *)
From Verif Require Import Base Buf CAst FormatC SpecCStmt CStmtFacts.

(** ** Uses *)
(** An identifier in an expression, or a type. *)
Inductive cuse := UName (x : str) | UType (x : str).
(** Members and their designators are no identifiers of this kind (6.2.3); the
    designator of an array element is an expression. *)
Definition type_use (t : ctypename) : cuse := UType (ctn_name t).
Fixpoint uses (e : cexpr) : list cuse :=
  match e with
  | CLit _ => []
  | CIdent x => [UName x]
  | CIndex a i => uses a ++ uses i
  | CBin _ a b => uses a ++ uses b
  | CField _ t _ => uses t
  | CCall f args => uses f ++ flat_map uses args
  | CPrefix _ x => uses x
  | CPostfix _ x => uses x
  | CCast t x => type_use (cbtf_type t) :: uses x
  | CSizeofE x => uses x
  | CSizeofT t => [type_use (cbtf_type t)]
  | CComp l => flat_map (fun x => match x with
                                  | (true, Some k, v) => uses k ++ uses v
                                  | (_, _, v) => uses v
                                  end) l
  end.
Definition opt_uses (e : option cexpr) : list cuse := match e with Some e => uses e | None => [] end.
(** The sizes in a declarator. *)
Definition sizes (f : cform) : list cuse := flat_map opt_uses (cf_indexes f).

(** ** Scopes *)
(** The uses left when [x] is declared before them. *)
Definition hide (x : str) (l : list cuse) : list cuse :=
  filter (fun u => match u with UName y => negb (str_eqb x y) | UType _ => true end) l.
(** What is used from outside by a declaration with the uses [rest] behind it:
    a name is in scope from the end of its declarator, its own initializer
    included. *)
Definition declarator (d : cform * option cexpr) (rest : list cuse) : list cuse :=
  sizes (fst d) ++ hide (cf_name (fst d)) (opt_uses (snd d) ++ rest).
Definition for_clause (i : option cforinit) (rest : list cuse) : list cuse :=
  match i with
  | None => rest
  | Some (CFIExpr e) => uses e ++ rest
  | Some (CFIDecl v) => type_use (cv_type v) :: declarator (cv_form v, Some (cv_value v)) rest
  end.
(** Likewise for a statement followed by [rest] in its block. *)
Fixpoint free (s : cst) (rest : list cuse) : list cuse :=
  match s with
  | XNull | XBreak | XContinue => rest
  | XExpr e => uses e ++ rest
  | XDecl t l => type_use t :: fold_right declarator rest l
  | XBlock l => fold_right (fun s r => free s r) [] l ++ rest
  | XIf c s e => uses c ++ free s [] ++ match e with Some e => free e [] | None => [] end ++ rest
  | XWhile c s => uses c ++ free s [] ++ rest
  | XFor i c a s => for_clause i (opt_uses c ++ opt_uses a ++ free s []) ++ rest
  | XSwitch e s => uses e ++ free s [] ++ rest
  | XCase v s => uses v ++ free s [] ++ rest
  | XDefault s => free s [] ++ rest
  | XReturn e => opt_uses e ++ rest
  end.
Definition frees (l : list cst) (rest : list cuse) : list cuse := fold_right free rest l.
(** A function: its type, the parameters one after the other, the body, where
    the name of the function is known too. *)
Definition parameter (p : ctypeform) (rest : list cuse) : list cuse :=
  type_use (ctf_type p) :: declarator (ctf_form p, None) rest.
Definition function_uses (d : cfuncdef) : list cuse :=
  type_use (cfd_type d) :: sizes (cfd_form d)
  ++ fold_right parameter (hide (cf_name (cfd_form d)) (frees (lowers (cfd_body d)) [])) (cfp_list (cfd_params d)).

(** The other elements of a file.  The tags of structs need no declaration
    (6.7.2.3); an enumerator is in scope from its end on (6.2.1). *)
Definition tagged (t : ctypename) : bool := starts_with (ctn_name t) (L "struct ").
Definition enumerator (e : str * option cexpr) (rest : list cuse) : list cuse := opt_uses (snd e) ++ hide (fst e) rest.
Definition member (m : cstruct_item) : list cuse :=
  match m with
  | CSField x => type_use (ctf_type x) :: sizes (ctf_form x)
  | CSUnion f l => sizes f ++ flat_map (fun x => type_use (fst x) :: sizes (snd x)) l
  end.
Definition elem_uses (e : celem) : list cuse :=
  match e with
  | XInclude _ | XMacro _ _ | XForwardStruct _ => []
  | XTypedef x => (if tagged (ctd_type x) then [] else [type_use (ctd_type x)])
      ++ match ctdf_params (ctd_form x) with
         | Some p => map (fun b => type_use (cbtf_type b)) (cap_forms p)
         | None => []
         end
  | XStruct x => flat_map member (csd_fields x)
  | XEnum x => fold_right enumerator [] (ced_entries x)
  | XForwardFunc x => type_use (cfw_type x) :: sizes (cfw_form x) ++ fold_right parameter [] (cfp_list (cfw_params x))
  | XVar v => type_use (cv_type v) :: declarator (cv_form v, Some (cv_value v)) []
  | XFunc d => function_uses d
  end.

(** ** The C library *)
(** The headers: the types, and the functions, objects and macros, that they
    declare, as far as the language knows them (C99 section 7; M_PI is from
    X/Open). *)
Definition headers : list (string * (list string * list string)) :=
  [ ("assert", ([], ["assert"]));
    ("ctype", ([], ["isalpha"; "isdigit"; "isgraph"; "islower"; "isprint"; "isspace"; "tolower"; "toupper"]));
    ("errno", ([], ["errno"]));
    ("limits", ([], ["INT_MAX"]));
    ("math", ([], ["M_PI"; "acos"; "ceil"; "ceilf"; "cos"; "cosf"; "exp"; "expm1"; "fabs"; "floor"; "floorf"; "fmod"; "lgamma"; "log";
                   "log10"; "log1p"; "pow"; "round"; "roundf"; "sin"; "sinf"; "sqrt"; "sqrtf"]));
    ("stdarg", (["va_list"], ["va_end"; "va_start"]));
    ("stdbool", (["bool"], ["true"; "false"]));
    ("stddef", (["ptrdiff_t"; "size_t"], ["NULL"]));
    ("stdint", (["int8_t"; "int16_t"; "int32_t"; "int64_t"; "uint8_t"; "uint16_t"; "uint32_t"; "uint64_t"], ["SIZE_MAX"]));
    ("stdio", (["FILE"; "size_t"],
       ["NULL"; "BUFSIZ"; "EOF"; "SEEK_CUR"; "SEEK_END"; "SEEK_SET"; "stderr"; "stdin"; "stdout"; "fclose"; "feof"; "ferror"; "fflush"; "fgetc";
        "fgets"; "fopen"; "fprintf"; "fputc"; "fputs"; "fread"; "fseek"; "ftell"; "fwrite"; "getc"; "getchar"; "printf"; "putc"; "putchar"; "puts";
        "remove"; "rename"; "rewind"; "scanf"; "setvbuf"; "snprintf"; "sprintf"; "sscanf"; "tmpfile"; "ungetc"; "vfprintf"; "vprintf"; "vsnprintf";
        "vsprintf"]));
    ("stdlib", (["size_t"], ["NULL"; "abort"; "atof"; "atoi"; "atol"; "atoll"; "calloc"; "exit"; "free"; "qsort"; "realloc"; "strtod"; "strtof";
                             "strtold"; "strtoull"]));
    ("string", (["size_t"], ["NULL"; "memcmp"; "memcpy"; "memmove"; "memset"; "strcat"; "strchr"; "strcmp"; "strcpy"; "strerror"; "strlen";
                             "strncat"; "strncmp"; "strrchr"; "strstr"]));
    ("time", (["time_t"; "size_t"], ["NULL"; "strftime"; "localtime"; "time"]));
    ("setjmp", (["jmp_buf"], ["longjmp"; "setjmp"]));
    ("signal", ([], ["signal"; "SIGABRT"; "SIGFPE"; "SIGILL"; "SIGINT"; "SIGSEGV"; "SIGTERM"; "SIG_DFL"; "SIG_IGN"])) ]%string.
Definition header_declares (x : str) : list cuse :=
  flat_map (fun h => if str_eqb x (L "<" ++ lit (fst h) ++ L ".h>")
                     then map (fun t => UType (lit t)) (fst (snd h)) ++ map (fun n => UName (lit n)) (snd (snd h))
                     else []) headers.
(** The types that need no declaration. *)
Definition basic_types : list string := ["char"; "double"; "float"; "int"; "void"]%string.
Definition basic (u : cuse) : Prop := exists t, In t basic_types /\ u = UType (lit t).
Definition library_types : list string := basic_types ++ flat_map (fun h => fst (snd h)) headers.

(** ** Declarations of a file *)
(** The name of a macro: the first word, up to the parenthesis if it has
    parameters. *)
Fixpoint before_paren (s : str) : str :=
  match s with [] => [] | c :: r => if N.eqb c 40 then [] else c :: before_paren r end.
Definition macro_names (s : str) : list str :=
  match split_whitespace (trim s) with x :: _ => [x; before_paren x] | [] => [] end.
Definition declared (e : celem) : list cuse :=
  match e with
  | XTypedef x => [UType (ctdf_alias (ctd_form x))]
  | XEnum x => map (fun p => UName (fst p)) (ced_entries x)
  | XVar v => [UName (cf_name (cv_form v))]
  | XForwardFunc x => [UName (cf_name (cfw_form x))]
  | XFunc d => [UName (cf_name (cfd_form d))]
  | XMacro n v => if str_eqb n (L "define") then map UName (macro_names v) else []
  | XInclude x => header_declares x
  | XForwardStruct _ | XStruct _ => []
  end.
Definition declared_in (l : list celem) (u : cuse) : Prop := exists e, In e l /\ In u (declared e).
