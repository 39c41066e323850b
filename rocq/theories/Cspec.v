(** Model of src/cspec.rs: the table of C standard library symbols. *)
From Verif Require Import Base Buf Nodes Types.

(** src/cspec.rs:9-20 [Kind], [CSymbol]. *)
Inductive csym_kind := KTYPE | KSYM.
Record csymbol := mkCsym { cs_kind : csym_kind; cs_name : str; cs_t : ty }.

(** src/cspec.rs:38-51 [t]. *)
Definition c_type (name : string) : csymbol := mkCsym KTYPE (lit name) (just name).
(** src/cspec.rs:54-60 [c]. *)
Definition c_const (name : string) (t : ty) : csymbol := mkCsym KSYM (lit name) t.
(** src/cspec.rs:63-75 [f]. *)
Definition c_func (name : string) (args : list ty) (ret : ty) : csymbol :=
  mkCsym KSYM (lit name) (Ty (ty_base ret) (TCall args :: ty_ops ret)).

(** src/cspec.rs:90-259: the list in [buildmap]. *)
Definition csym_list : list csymbol :=
  [ c_type "char";
    c_type "double";
    c_type "float";
    c_type "int";
    c_type "void";
    c_const "NULL" (justp "void");
    c_type "ptrdiff_t";
    c_type "size_t";
    c_type "int16_t";
    c_type "int32_t";
    c_type "int64_t";
    c_type "int8_t";
    c_type "uint16_t";
    c_type "uint32_t";
    c_type "uint64_t";
    c_type "uint8_t";
    c_type "bool";
    c_const "false" (just "bool");
    c_const "true" (just "bool");
    c_const "INT_MAX" (just "int");
    c_const "SIZE_MAX" (just "size_t");
    c_const "BUFSIZ" (just "size_t");
    c_const "SEEK_END" (just "int");
    c_const "SEEK_SET" (just "int");
    c_const "SEEK_CUR" (just "int");
    c_const "EOF" (just "int");
    c_const "stderr" (justp "FILE");
    c_const "stdin" (justp "FILE");
    c_const "stdout" (justp "FILE");
    c_func "fclose" [(justp "FILE")] (just "int");
    c_func "feof" [(justp "FILE")] (just "bool");
    c_func "ferror" [(justp "FILE")] (just "bool");
    c_func "fflush" [(justp "FILE")] (just "int");
    c_func "fgetc" [(justp "FILE")] (just "int");
    c_func "fgets" [(justp "void"); (just "size_t"); (justp "FILE")] (justp "char");
    c_func "fopen" [(justp "char"); (justp "char")] (justp "FILE");
    c_func "fprintf" [(justp "FILE"); (justp "char"); ty_ellipsis] (just "void");
    c_func "fputc" [(just "int"); (justp "FILE")] (just "int");
    c_func "fputs" [(justp "char"); (justp "FILE")] (just "int");
    c_func "fread" [(justp "void"); (just "size_t"); (just "size_t"); (justp "FILE")] (just "size_t");
    c_func "fseek" [(justp "FILE"); (just "int32_t"); (just "int")] (just "int");
    c_func "ftell" [(justp "FILE")] (just "int32_t");
    c_func "fwrite" [(justp "void"); (just "size_t"); (just "size_t"); (justp "FILE")] (just "size_t");
    c_func "getc" [(justp "FILE")] (just "int");
    c_func "getchar" [] (just "int");
    c_func "printf" [(justp "char"); ty_ellipsis] (just "int");
    c_func "putc" [(just "int"); (justp "FILE")] (just "int");
    c_func "putchar" [(just "int")] (just "int");
    c_func "puts" [(justp "char")] (just "int");
    c_func "remove" [(justp "char")] (just "int");
    c_func "rename" [(justp "char"); (justp "char")] (just "int");
    c_func "rewind" [(justp "FILE")] (just "void");
    c_func "scanf" [(justp "char"); ty_ellipsis] (just "int");
    c_func "setvbuf" [ty_todo] ty_todo;
    c_func "snprintf" [(justp "void"); (just "size_t"); (justp "char"); ty_ellipsis] ty_todo;
    c_func "sprintf" [(justp "char"); (justp "char"); ty_ellipsis] ty_todo;
    c_func "sscanf" [(justp "void"); (justp "char"); ty_ellipsis] (just "int");
    c_func "tmpfile" [] (justp "FILE");
    c_func "ungetc" [(just "int"); (justp "FILE")] (just "int");
    c_func "vfprintf" [(justp "FILE"); (justp "char"); ty_todo] (just "int");
    c_func "vprintf" [(justp "char"); ty_todo] (just "int");
    c_func "vsnprintf" [(justp "void"); (just "size_t"); (justp "char"); ty_todo] (just "int");
    c_func "vsprintf" [(justp "void"); (justp "char"); ty_todo] (just "int");
    c_type "FILE";
    c_func "isalpha" [(just "int")] (just "bool");
    c_func "isdigit" [(just "int")] (just "bool");
    c_func "isgraph" [(just "int")] (just "bool");
    c_func "islower" [(just "int")] (just "bool");
    c_func "isprint" [(just "int")] (just "bool");
    c_func "isspace" [(just "int")] (just "bool");
    c_func "tolower" [(just "int")] (just "int");
    c_func "toupper" [(just "int")] (just "int");
    c_func "abort" [ty_todo] (just "void");
    c_func "atof" [ty_todo] ty_todo;
    c_func "atoi" [ty_todo] ty_todo;
    c_func "atol_l" [ty_todo] ty_todo;
    c_func "atol" [ty_todo] ty_todo;
    c_func "atoll_l" [ty_todo] ty_todo;
    c_func "atoll" [ty_todo] ty_todo;
    c_func "calloc" [(just "size_t"); (just "size_t")] (justp "void");
    c_func "exit" [(just "int")] (just "void");
    c_func "free" [(justp "void")] (just "void");
    c_func "qsort" [(justp "void"); (just "size_t"); (just "size_t"); ty_todo] (just "void");
    c_func "realloc" [(justp "void"); (just "size_t")] (justp "void");
    c_func "strtod" [ty_todo; ty_todo] ty_todo;
    c_func "strtof" [ty_todo] ty_todo;
    c_func "strtold" [ty_todo] ty_todo;
    c_func "strtoull" [ty_todo; ty_todo; ty_todo] ty_todo;
    c_const "M_PI" (just "double");
    c_func "acos" [(just "double")] (just "double");
    c_func "ceil" [(just "double")] (just "double");
    c_func "ceilf" [(just "float")] (just "float");
    c_func "cos" [(just "double")] (just "double");
    c_func "cosf" [(just "float")] (just "float");
    c_func "exp" [(just "double")] (just "double");
    c_func "expm1" [(just "double")] (just "double");
    c_func "fabs" [(just "double")] (just "double");
    c_func "floor" [(just "double")] (just "double");
    c_func "floorf" [(just "float")] (just "float");
    c_func "fmod" [(just "double"); (just "double")] (just "double");
    c_func "lgamma" [(just "double")] (just "double");
    c_func "log" [(just "double")] (just "double");
    c_func "log10" [(just "double")] (just "double");
    c_func "log1p" [(just "double")] (just "double");
    c_func "pow" [(just "double"); (just "double")] (just "double");
    c_func "round" [(just "double")] (just "double");
    c_func "roundf" [(just "float")] (just "float");
    c_func "sin" [(just "double")] (just "double");
    c_func "sinf" [(just "float")] (just "float");
    c_func "sqrt" [(just "double")] (just "double");
    c_func "sqrtf" [(just "float")] (just "float");
    c_func "memcmp" [(justp "void"); (justp "void"); (just "size_t")] (just "int");
    c_func "memcpy" [(justp "void"); (justp "void"); (just "size_t")] (just "void");
    c_func "memmove" [(justp "void"); (justp "void"); (just "size_t")] (just "void");
    c_func "memset" [(justp "void"); (just "int"); (just "size_t")] (just "void");
    c_func "strcat" [(justp "char"); (justp "char")] (justp "char");
    c_func "strchr" [(justp "char"); (just "int")] (justp "char");
    c_func "strcmp" [(justp "char"); (justp "char")] (just "int");
    c_func "strcpy" [(justp "char"); (justp "char")] (justp "char");
    c_func "strerror" [(just "int")] (justp "char");
    c_func "strlen" [(justp "char")] (just "size_t");
    c_func "strncat" [(justp "char"); (justp "char"); (just "size_t")] (just "char");
    c_func "strncmp" [(justp "char"); (justp "char"); (just "size_t")] (just "int");
    c_func "strrchr" [(justp "char"); (just "int")] (justp "char");
    c_func "strstr" [(justp "char"); (justp "char")] (justp "char");
    c_type "time_t";
    c_func "strftime" [ty_todo; ty_todo; ty_todo; ty_todo] ty_todo;
    c_func "localtime" [ty_todo] ty_todo;
    c_func "time" [ty_todo] (just "time_t");
    c_type "jmp_buf";
    c_func "longjmp" [ty_todo; ty_todo] ty_todo;
    c_func "setjmp" [ty_todo] ty_todo;
    c_type "va_list";
    c_func "va_end" [ty_todo] (just "void");
    c_func "va_start" [ty_todo; ty_todo] (just "void");
    c_const "SIGABRT" (just "int");
    c_const "SIGFPE" (just "int");
    c_const "SIGILL" (just "int");
    c_const "SIGINT" (just "int");
    c_const "SIGSEGV" (just "int");
    c_const "SIGTERM" (just "int");
    c_const "SIG_DFL" (just "int");
    c_const "SIG_IGN" (just "int");
    c_func "signal" [ty_todo; ty_todo] (just "int");
    c_func "assert" [ty_todo] (just "void");
    c_const "errno" (just "int");
    c_func "nelem" [ty_todo] (just "size_t");
    c_func "calloc_or_panic" [(just "size_t"); (just "size_t")] (justp "void") ]%string.

(** src/cspec.rs:29-35, 260-264 [find_sym], [buildmap]: later insertions into
    the map replace earlier ones, hence the reversed list. *)
Definition find_sym (s : str) : option csymbol :=
  find (fun x => str_eqb (cs_name x) s) (rev csym_list).

(** src/cspec.rs:25-27 [has_type]. *)
Definition has_type (name : str) : bool :=
  match find_sym name with
  | Some x => match cs_kind x with KTYPE => true | KSYM => false end
  | None => false
  end.
