(** Model of src/main.rs, src/main_*.rs and the last part of src/build.rs: what
    the commands print, which files they write and which programs they start. *)
From Verif Require Import Base Buf Lexer Nodes Resolve Cursor Preparser Parser CAst FormatChe FormatC
  Translator Build.

(** ** The process *)

(** What a process does, in order.  An effect that gets an answer records it.
    [Out] and [ErrOut] are texts printed to the standard output and to the
    standard error. *)
Inductive effect :=
| Out (s : str)
| ErrOut (s : str)
| MakeDir (path : str)
| WriteFile (path text : str)
| RunCC (args : list str) (ok : bool)     (* c99 was run and ended; did it succeed? *)
| RunTest (ok : bool)                     (* ./test.out was run and ended *)
| Exec (path : str) (args : list str).    (* the process became another program *)
Definition history := list effect.

(** How a process ends: with the value passed to [exit], by a panic, or not
    within the given number of steps. *)
Inductive ended := Exit (code : nat) | Crash (why : string) | Running.

(** The status a parent process sees: the low eight bits (Unix), 101 for a Rust
    panic. *)
Definition status (e : ended) : option nat :=
  match e with
  | Exit n => Some (Nat.modulo n 256)
  | Crash _ => Some 101
  | Running => None
  end.

(** The system around the process.  Its answers may depend on everything that
    the process did before.  The files that are read as source texts and the
    directory of libraries are in [world] and do not change. *)
Record system := mkSystem {
  sy_md5 : str -> str;                              (* md5::compute, in hexadecimal *)
  sy_macos : bool;                                  (* env::consts::OS == "macos" *)
  sy_home_set : bool;                               (* is $CHELANG_HOME set? *)
  sy_exists : history -> str -> bool;               (* fs::metadata(..).is_ok() *)
  sy_mkdir : history -> str -> bool;                (* fs::create_dir succeeds *)
  sy_write : history -> str -> str -> bool;         (* fs::write succeeds *)
  sy_cc : history -> list str -> option (list (option str) * bool);
     (* c99 is started ([None]: it cannot be): the lines of its stderr ([None]: not
        UTF-8) and whether it succeeds *)
  sy_exec : history -> str -> list str -> str + ended;
     (* the error of [exec], or how the program that replaced the process ends *)
  sy_test : history -> option (option str * option str * bool);
     (* ./test.out is run: its stdout and stderr ([None]: not UTF-8) and whether it
        exits with 0 *)
  sy_list : history -> str -> option (list (str * bool))
     (* fs::read_dir: the paths in a directory, and whether each is a directory *)
}.

(** A part of the process: it goes on with a value, or the process ends there. *)
Definition io (A : Type) : Type := history -> (A + ended) * history.
Definition iret {A} (a : A) : io A := fun h => (inl a, h).
Definition iend {A} (e : ended) : io A := fun h => (inr e, h).
Definition ibind {A B} (m : io A) (f : A -> io B) : io B :=
  fun h => match m h with
           | (inl a, h) => f a h
           | (inr e, h) => (inr e, h)
           end.
Definition does_ (e : effect) : io unit := fun h => (inl tt, h ++ [e]).
Definition asks {A} (f : history -> A) : io A := fun h => (inl (f h), h).
Notation "x <~ a ;~ b" := (ibind a (fun x => b)) (at level 61, a at next level, right associativity).
Notation "a ;~ b" := (ibind a (fun _ => b)) (at level 61, right associativity).

(** [println!] and [eprintln!]. *)
Definition println (s : str) : io unit := does_ (Out (s ++ [c_nl])).
Definition eprintln (s : str) : io unit := does_ (ErrOut (s ++ [c_nl])).
Fixpoint each {A} (f : A -> io unit) (l : list A) : io unit :=
  match l with
  | [] => iret tt
  | a :: r => f a ;~ each f r
  end.

(** A computation without effects. *)
Definition pure_ {A} (r : bout A) : io (A + list build_error) :=
  match r with
  | BOk a => iret (inl a)
  | BErrs l => iret (inr l)
  | BPanic w => iend (Crash w)
  | BNoFuel => iend Running
  end.

(** [str::replace(pat, to)] for a pattern that is not empty; [skip] is the
    number of characters left of the occurrence that was just replaced. *)
Fixpoint replace_aux (pat to : str) (skip : nat) (s : str) : str :=
  match s with
  | [] => []
  | c :: r =>
      match skip with
      | S k => replace_aux pat to k r
      | O => if starts_with s pat then to ++ replace_aux pat to (List.length pat - 1) r
             else c :: replace_aux pat to 0 r
      end
  end.
Definition replace_str (pat to s : str) : str := replace_aux pat to 0 s.

(** [str::trim_end]. *)
Definition trim_end (s : str) : str := rev (drop_while is_space (rev s)).

(** std: Path::new(p).with_extension("").file_name(), [None] when the path has
    no file name.  File names that reduce to "." are not covered. *)
Fixpoint split_last_dot (s : str) : option (str * str) :=
  match s with
  | [] => None
  | c :: r =>
      match split_last_dot r with
      | Some (a, b) => Some (c :: a, b)
      | None => if N.eqb c 46 then Some ([], r) else None
      end
  end.
Definition stem (name : str) : str :=
  match split_last_dot name with
  | Some ((_ :: _) as a, _) => a
  | _ => name
  end.
Definition output_name (path : str) : option str :=
  match drop_skipped (rev (split_char slash path)) with
  | [] => None
  | c :: _ => if str_eqb c (L "..") || str_eqb (stem c) (L "..") then None else Some (stem c)
  end.

Section Mains.
Context `{Unicode} (w : world) (sys : system) (fuel : nat).

(** ** Building *)

(** src/build.rs:35-37, src/main_genc.rs:7-9. *)
Definition ensure_dir (dir : str) : io unit :=
  there <~ asks (fun h => sy_exists sys h dir) ;~
  if there : bool then iret tt
  else made <~ asks (fun h => sy_mkdir sys h dir) ;~
       if made : bool then does_ (MakeDir dir) else iend (Crash "create_dir: unwrap").

(** src/build.rs:222-242 [write_c99]; the list of files is in Build.v. *)
Definition write_files (files : list (str * str * str)) : io unit :=
  each (fun '(path, text, _) =>
    done <~ asks (fun h => sy_write sys h path text) ;~
    if done : bool then does_ (WriteFile path text) else iend (Crash "write: unwrap")) files.

(** src/build.rs:83-90: the lines of the C compiler's messages, with the path of
    the source before the path of every generated file. *)
Definition relay (files : list (str * str * str)) (line : str) : str :=
  fold_left (fun line '(path, _, id) => replace_str path (id ++ L " -> " ++ path) line) files line.
Definition relay_all (files : list (str * str * str)) (lines : list (option str)) : io unit :=
  each (fun l => match l with
                 | Some line => println (relay files line)
                 | None => iend (Crash "lines: unwrap")
                 end) lines.

(** src/build.rs:32-100 [build_prog].  The compiler is taken to have ended when
    its messages are shown. *)
Definition build_prog (src out : str) : io (unit + list build_error) :=
  let dir := w_home w ++ L "/tmp" in
  ensure_dir dir ;~
  r <~ pure_ (parse_project w fuel src) ;~
  match r with
  | inr errors => iret (inr errors)
  | inl p =>
      let files := write_c99 (sy_md5 sys) dir p in
      write_files files ;~
      let args := c99_args (sy_macos sys) (map (fun f => fst (fst f)) files) out (link_list p) in
      answer <~ asks (fun h => sy_cc sys h args) ;~
      match answer with
      | None => iend (Crash "spawn: unwrap")
      | Some (lines, ok) =>
          does_ (RunCC args ok) ;~
          relay_all files lines ;~
          iret (if ok : bool then inl tt else inr [mkBerr [] [] (L "build failed")])
      end
  end.

(** [eprintln!("{}:{}: {}", err.path, err.pos, err.message)]. *)
Definition error_line (e : build_error) : str :=
  be_path e ++ L ":" ++ be_pos e ++ L ": " ++ be_msg e.
Definition report (errors : list build_error) : io unit := each (fun e => eprintln (error_line e)) errors.

(** ** The commands: the value returned by each [run] *)

(** src/main_build.rs:4-34. *)
Definition build_and_count (path out : str) : io nat :=
  r <~ build_prog path out ;~
  match r with
  | inl _ => iret 0
  | inr errors =>
      report errors ;~
      eprintln (dec (N.of_nat (List.length errors)) ++ L " errors") ;~
      iret 1
  end.
Definition main_build (argv : list str) : io nat :=
  match argv with
  | [path] =>
      match output_name path with
      | None => iend (Crash "main_build: unwrap")
      | Some out => build_and_count path out
      end
  | [path; out] => build_and_count path out
  | _ => eprintln (L "usage: build <source-path> [<output-path>]") ;~ iret 1
  end.

(** src/main_deptree.rs:35-44 [Printer::writeline]. *)
Definition tree_line (ind : nat) (first : bool) (s : str) : str :=
  repeat_str ind (L "  ") ++ (if Nat.ltb 0 ind && first then L "- " else []) ++ s ++ [c_nl].

(** src/main_deptree.rs:55-68 [render_tree]: the output.  [first_line] is set
    by [indent] and [unindent] before every call (lines 45-52).  [None] when the
    recursion is deeper than [fuel] or an unwrap fails. *)
Fixpoint render_tree (fuel : nat) (heads : list modinfo) (ind : nat) (first : bool) (p : nat)
  : option str :=
  match fuel with
  | O => None
  | S f =>
      match nth_error heads p with
      | None => None
      | Some h =>
          let fix go (l : list modref) : option str :=
            match l with
            | [] => Some []
            | imp :: r =>
                match position (fun x => str_eqb (mi_filepath x) (r_path imp)) heads with
                | None => None
                | Some q =>
                    match render_tree f heads (S ind) true q, go r with
                    | Some a, Some b => Some (a ++ b)
                    | _, _ => None
                    end
                end
            end in
          option_map (fun s => tree_line ind first (mi_filepath h) ++ s) (go (mi_imports h))
      end
  end.

(** src/main_deptree.rs:4-27. *)
Definition main_deptree (argv : list str) : io nat :=
  match argv with
  | [path] =>
      r <~ pure_ (parse_project w fuel path) ;~
      match r with
      | inl p =>
          match List.length (pr_heads p) with
          | O => iend (Crash "main_deptree: subtraction overflow")
          | S n => match render_tree (S n) (pr_heads p) 0 true n with
                   | Some s => does_ (Out s) ;~ iret 0
                   | None => iend (Crash "main_deptree")
                   end
          end
      | inr errors => report errors ;~ iret 1
      end
  | _ => eprintln (L "usage: deptree <source-path>") ;~ iret 1
  end.

(** src/main_exports.rs:45-62: the parameters of a function. *)
Definition show_param (p : type_and_forms) : str :=
  che_fmt_typename (taf_type p) ++ L " " ++ List.concat (map che_fmt_form (taf_forms p)).
Definition show_params (p : func_params) : str :=
  L "(" ++ join (L ", ") (map show_param (fp_list p)) ++ (if fp_ellipsis p then L ", ..." else []) ++ L ")".
(** src/main_exports.rs:64-79: one line of the table of functions. *)
Definition show_form (f : funcdecl) : str := che_fmt_form (fd_form f) ++ L " " ++ show_params (fd_params f).
Definition type_width (fns : list funcdecl) : nat :=
  fold_left (fun width f => let n := blen (che_fmt_typename (fd_type f)) in if Nat.ltb width n then n else width) fns 0.
Definition show_function (width : nat) (f : funcdecl) : str :=
  let t := che_fmt_typename (fd_type f) in
  [9%N] ++ t ++ repeat_str (width - blen t + 2) (L " ")
  ++ (if starts_with (show_form f) (L "*") then [] else L " ") ++ show_form f.
(** src/main_exports.rs:27-81 [print_exports]. *)
Definition print_exports (e : exports) : io unit :=
  (match ex_consts e with
   | [] => iret tt
   | l => println (L "constants") ;~ each (fun c => println ([9%N] ++ en_name c)) l
   end) ;~
  (match ex_types e with
   | [] => iret tt
   | l => println (L "types") ;~ each (fun t => println ([9%N] ++ t)) l
   end) ;~
  match ex_fns e with
  | [] => iret tt
  | l => println (L "functions") ;~ each (fun f => println (show_function (type_width l) f)) l
  end.

(** src/main_exports.rs:5-25. *)
Fixpoint main_exports (argv : list str) : io nat :=
  match argv with
  | [] => iret 0
  | path :: rest =>
      r <~ pure_ (parse_project w fuel path) ;~
      match r with
      | inl p =>
          match List.length (pr_mods p) with
          | O => iend (Crash "main_exports: subtraction overflow")
          | S n =>
              match nth_error (pr_mods p) n, nth_error (pr_heads p) n with
              | Some m, Some h =>
                  println (L "mod " ++ mi_filepath h) ;~
                  print_exports (mod_exports m) ;~
                  main_exports rest
              | _, _ => iend (Crash "main_exports: index out of bounds")
              end
          end
      | inr errors => report errors ;~ iret 1
      end
  end.

(** src/main_genc.rs:4-22. *)
Definition main_genc (argv : list str) : io nat :=
  match argv with
  | path :: dir :: _ =>
      ensure_dir dir ;~
      r <~ pure_ (parse_project w fuel path) ;~
      match r with
      | inl p => write_files (write_c99 (sy_md5 sys) dir p) ;~ iret 0
      | inr errors => report errors ;~ iret 1
      end
  | _ => iend (Crash "main_genc: index out of bounds")
  end.

(** src/main_install.rs:4-32. *)
Definition main_install (argv : list str) : io nat :=
  match argv with
  | [path] =>
      if sy_home_set sys then
        match output_name path with
        | None => iend (Crash "main_install: unwrap")
        | Some out => build_and_count path (w_home w ++ L "/bin/" ++ out)
        end
      else iend (Crash "main_install: unwrap")
  | _ => eprintln (L "usage: install <name>") ;~ iret 1
  end.

(** src/main_run.rs:6-27. *)
Definition main_run (argv : list str) : io nat :=
  match argv with
  | [] => eprintln (L "usage: che run <source-path> [<args>...]") ;~ iret 1
  | src :: args =>
      r <~ build_prog src (L "/tmp/chebuild") ;~
      match r with
      | inr errors => report errors ;~ iret 1
      | inl _ =>
          answer <~ asks (fun h => sy_exec sys h (L "/tmp/chebuild") args) ;~
          match answer with
          | inl err => eprintln (L "exec failed: " ++ err) ;~ iret 1
          | inr e => does_ (Exec (L "/tmp/chebuild") args) ;~ iend e
          end
      end
  end.

(** src/main_test.rs:72-84 [find_tests]; [depth] bounds the depth of the
    directories. *)
Fixpoint find_tests (depth : nat) (dir : str) : io (list str) :=
  match depth with
  | O => iend Running
  | S d =>
      entries <~ asks (fun h => sy_list sys h dir) ;~
      match entries with
      | None => iend (Crash "find_tests: unwrap")
      | Some entries =>
          (fix go (l : list (str * bool)) : io (list str) :=
             match l with
             | [] => iret []
             | (path, is_dir) :: r =>
                 here <~ (if ends_with path (L ".test.c") then iret [path]
                           else if is_dir : bool then find_tests d path else iret []) ;~
                 rest <~ go r ;~
                 iret (here ++ rest)
             end) entries
      end
  end.

(** src/main_test.rs:39-67, one test: 1 if it counts as failed. *)
Definition run_test (path : str) : io nat :=
  r <~ build_prog path (L "test.out") ;~
  match r with
  | inr errors => report errors ;~ println (L "FAIL " ++ path) ;~ iret 0
  | inl _ =>
      answer <~ asks (sy_test sys) ;~
      match answer with
      | None => iend (Crash "output: unwrap")
      | Some (out, err, ok) =>
          does_ (RunTest ok) ;~
          match err, out with
          | Some errstr, Some out =>
              let outstr := trim_end out in
              (if ok : bool
               then match outstr with
                    | [] => println (L "OK " ++ path)
                    | _ => println (L "OK " ++ path ++ L ": " ++ outstr)
                    end
               else println (L "FAIL " ++ path) ;~ println (L "stdout:" ++ [c_nl] ++ outstr)) ;~
              (match errstr with [] => iret tt | _ => println (L "stderr:" ++ [c_nl] ++ errstr) end) ;~
              iret (if ok then 0 else 1)
          | _, _ => iend (Crash "from_utf8: unwrap")
          end
      end
  end.
(** src/main_test.rs:33-70 [run_arg]: the number of failures and of tests; the
    counters are i32. *)
Fixpoint run_tests (paths : list str) : io nat :=
  match paths with
  | [] => iret 0
  | p :: r => n <~ run_test p ;~ m <~ run_tests r ;~ iret (n + m)
  end.
Definition run_arg (arg : str) : io (nat * nat) :=
  tests <~ find_tests fuel arg ;~
  n <~ run_tests tests ;~
  println (dec (N.of_nat (List.length tests)) ++ L " tests") ;~
  iret (n, List.length tests).
Fixpoint run_args (args : list str) : io (nat * nat) :=
  match args with
  | [] => iret (0, 0)
  | a :: r =>
      x <~ run_arg a ;~
      y <~ run_args r ;~
      iret (fst x + fst y, snd x + snd y)
  end.
(** src/main_test.rs:12-31 [run]. *)
Definition main_test (argv : list str) : io nat :=
  x <~ run_args argv ;~
  (match fst x with
   | O => println (L "OK " ++ dec (N.of_nat (snd x)) ++ L " tests")
   | n => println (L "fails: " ++ dec (N.of_nat n) ++ L ", total: " ++ dec (N.of_nat (snd x)))
   end) ;~
  iret (fst x).

(** src/main.rs:28-45, 60-66 [SUBCOMMANDS], [usage]. *)
Definition SUBCOMMANDS : list (string * string) :=
  [("build", "Build executable from a source file");
   ("run", "Build from a source file and run");
   ("deptree", "Print dependency tree");
   ("exports", "Print module exports");
   ("genc", "Generate C code");
   ("install", "Build and install executable in $CHELANG_HOME/bin");
   ("test", "Run tests")]%string.
Definition usage : io unit :=
  eprintln (L "Usage: che <command>" ++ [c_nl]) ;~
  eprintln (L "Commands:") ;~
  each (fun '(name, desc) => eprintln ([9%N] ++ lit name ++ [9%N] ++ lit desc)) SUBCOMMANDS.

(** src/main.rs:47-58 [main]; [args] are the arguments after the program name. *)
Definition command (cmd : str) (argv : list str) : option (io nat) :=
  if str_eqb cmd (L "build") then Some (main_build argv)
  else if str_eqb cmd (L "run") then Some (main_run argv)
  else if str_eqb cmd (L "deptree") then Some (main_deptree argv)
  else if str_eqb cmd (L "exports") then Some (main_exports argv)
  else if str_eqb cmd (L "genc") then Some (main_genc argv)
  else if str_eqb cmd (L "install") then Some (main_install argv)
  else if str_eqb cmd (L "test") then Some (main_test argv)
  else None.
Definition main_ (args : list str) : io nat :=
  match args with
  | [] => usage ;~ iret 1
  | cmd :: argv =>
      match command cmd argv with
      | Some run => run
      | None => usage ;~ iret 0
      end
  end.

(** A run of the program from the beginning: how it ends and what it did. *)
Definition che (args : list str) : ended * history :=
  match main_ args [] with
  | (inl code, h) => (Exit code, h)
  | (inr e, h) => (e, h)
  end.

End Mains.
