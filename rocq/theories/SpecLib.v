(** The functions of the C library that the language offers, as declared by the C
    standard (C99, section 7): name, number of parameters, whether more
    arguments may follow. *)
From Verif Require Import Base.

Definition prototypes : list (string * (nat * bool)) :=
  (* stdio.h *)
  [ ("fclose", (1, false)); ("feof", (1, false)); ("ferror", (1, false)); ("fflush", (1, false)); ("fgetc", (1, false));
    ("fgets", (3, false)); ("fopen", (2, false)); ("fprintf", (2, true)); ("fputc", (2, false)); ("fputs", (2, false));
    ("fread", (4, false)); ("fseek", (3, false)); ("ftell", (1, false)); ("fwrite", (4, false)); ("getc", (1, false));
    ("getchar", (0, false)); ("printf", (1, true)); ("putc", (2, false)); ("putchar", (1, false)); ("puts", (1, false));
    ("remove", (1, false)); ("rename", (2, false)); ("rewind", (1, false)); ("scanf", (1, true)); ("setvbuf", (4, false));
    ("snprintf", (3, true)); ("sprintf", (2, true)); ("sscanf", (2, true)); ("tmpfile", (0, false)); ("ungetc", (2, false));
    ("vfprintf", (3, false)); ("vprintf", (2, false)); ("vsnprintf", (4, false)); ("vsprintf", (3, false));
    (* ctype.h *)
    ("isalpha", (1, false)); ("isdigit", (1, false)); ("isgraph", (1, false)); ("islower", (1, false)); ("isprint", (1, false));
    ("isspace", (1, false)); ("tolower", (1, false)); ("toupper", (1, false));
    (* stdlib.h *)
    ("abort", (0, false)); ("atof", (1, false)); ("atoi", (1, false)); ("atol", (1, false)); ("atoll", (1, false));
    ("calloc", (2, false)); ("exit", (1, false)); ("free", (1, false)); ("qsort", (4, false)); ("realloc", (2, false));
    ("strtod", (2, false)); ("strtof", (2, false)); ("strtold", (2, false)); ("strtoull", (3, false));
    (* math.h *)
    ("acos", (1, false)); ("ceil", (1, false)); ("ceilf", (1, false)); ("cos", (1, false)); ("cosf", (1, false));
    ("exp", (1, false)); ("expm1", (1, false)); ("fabs", (1, false)); ("floor", (1, false)); ("floorf", (1, false));
    ("fmod", (2, false)); ("lgamma", (1, false)); ("log", (1, false)); ("log10", (1, false)); ("log1p", (1, false));
    ("pow", (2, false)); ("round", (1, false)); ("roundf", (1, false)); ("sin", (1, false)); ("sinf", (1, false));
    ("sqrt", (1, false)); ("sqrtf", (1, false));
    (* string.h *)
    ("memcmp", (3, false)); ("memcpy", (3, false)); ("memmove", (3, false)); ("memset", (3, false)); ("strcat", (2, false));
    ("strchr", (2, false)); ("strcmp", (2, false)); ("strcpy", (2, false)); ("strerror", (1, false)); ("strlen", (1, false));
    ("strncat", (3, false)); ("strncmp", (3, false)); ("strrchr", (2, false)); ("strstr", (2, false));
    (* time.h, setjmp.h, stdarg.h, signal.h, assert.h *)
    ("strftime", (4, false)); ("localtime", (1, false)); ("time", (1, false)); ("longjmp", (2, false)); ("setjmp", (1, false));
    ("va_end", (1, false)); ("va_start", (2, false)); ("signal", (2, false)); ("assert", (1, false)) ]%string.

(** Not in the C standard: two of another system, two of this compiler. *)
Definition extensions : list string := ["atol_l"; "atoll_l"; "nelem"; "calloc_or_panic"]%string.

(** C lets the function be called with this many arguments. *)
Definition c_takes (proto : nat * bool) (nargs : nat) : Prop :=
  if snd proto then fst proto <= nargs else nargs = fst proto.
