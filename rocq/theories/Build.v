(** Model of src/build.rs. *)
From Verif Require Import Base Buf Lexer Nodes Resolve Cursor Preparser Parser CAst FormatC Translator.

(** Result of a build step: a value, a list of diagnostics, a panic (the process
    aborts), or not finished within the given number of steps. *)
Inductive bout (A : Type) : Type :=
| BOk (a : A)
| BErrs (l : list build_error)
| BPanic (why : string)
| BNoFuel.
Arguments BOk {A} a. Arguments BErrs {A} l. Arguments BPanic {A} why. Arguments BNoFuel {A}.

Definition bbind {A B} (m : bout A) (f : A -> bout B) : bout B :=
  match m with
  | BOk a => f a
  | BErrs l => BErrs l
  | BPanic w => BPanic w
  | BNoFuel => BNoFuel
  end.

(** src/build.rs:20-25 [Project]. *)
Record project := mkProject {
  pr_heads : list modinfo; pr_mods : list module_; pr_cmods : list cmodule }.

Section Build.
Context `{Unicode} (w : world).

(** The cache of preparsed modules, newest first. *)
Definition cache := list (str * modinfo).

(** src/build.rs:102-110 [preparse]. *)
Definition cached_preparse (fuel : nat) (c : cache) (path : str) : outcome (modinfo * cache) :=
  match assoc path c with
  | Some i => Ok (i, c)
  | None =>
      match preparse fuel w path with
      | Ok i => Ok (i, (path, i) :: c)
      | Err e => Err e
      | Abort s => Abort s
      | NoFuel => NoFuel
      end
  end.

(** src/build.rs:112-129 [load_tree]. *)
Fixpoint load_tree (fuel : nat) (c : cache) (path : str) (crumbs : list str)
  : outcome (list str * cache) :=
  match fuel with
  | O => NoFuel
  | S f =>
      if str_in path crumbs
      then Err (mkErr (L "import loop: " ++ join (L " -> ") crumbs ++ L " -> " ++ path) (mkPos 0 0))
      else
        match cached_preparse f c path with
        | Ok (head, c) =>
            let fix load (imps : list modref) (c : cache) : outcome (list str * cache) :=
              match imps with
              | [] => Ok ([], c)
              | imp :: r =>
                  match load_tree f c (r_path imp) (crumbs ++ [path]) with
                  | Ok (l, c) =>
                      match load r c with
                      | Ok (l', c) => Ok (l ++ l', c)
                      | x => x
                      end
                  | x => x
                  end
              end in
            match load (mi_imports head) c with
            | Ok (l, c) => Ok (path :: l, c)
            | x => x
            end
        | Err e => Err e
        | Abort s => Abort s
        | NoFuel => NoFuel
        end
  end.

(** src/build.rs:131-142 [uniq]. *)
Definition uniq (l : list str) : list str := dedup_by (fun p => p) [] l.

(** [str::replace(".c", "")]. *)
Fixpoint remove_dot_c (s : str) : str :=
  match s with
  | 46%N :: (99%N :: r) => remove_dot_c r
  | a :: r => a :: remove_dot_c r
  | [] => []
  end.

(** src/build.rs:190-192: the printed module id. *)
Definition module_id (i : nat) (path : str) : str :=
  L "mod" ++ dec (N.of_nat i) ++ L "_" ++ remove_dot_c (basename path).
Fixpoint with_ids (i : nat) (l : list modinfo) : list modinfo :=
  match l with
  | [] => []
  | m :: r => mkInfo (mi_imports m) (mi_typedefs m) (mi_filepath m) (module_id i (mi_filepath m))
              :: with_ids (S i) r
  end.

(** src/build.rs:183-186. *)
Fixpoint heads_of (c : cache) (paths : list str) : option (list modinfo) :=
  match paths with
  | [] => Some []
  | p :: r =>
      match assoc p c, heads_of c r with
      | Some h, Some l => Some (h :: l)
      | _, _ => None
      end
  end.

(** src/build.rs:144-166 [parse_mods]. *)
Fixpoint parse_mods (fuel : nat) (all heads : list modinfo) : bout (list module_) :=
  match heads with
  | [] => BOk []
  | m :: r =>
      match w_read w (mi_filepath m) with
      | inr _ => BPanic "parse_mods: unwrap"
      | inl text =>
          match parse_module fuel (mkPctx m all) (tokenize (buf_new text)) with
          | PModule x =>
              match parse_mods fuel all r with
              | BOk l => BOk (x :: l)
              | y => y
              end
          | PErrors errs =>
              BErrs (map (fun e => mkBerr (mi_filepath m) (pos_fmt (e_pos e)) (e_msg e)) errs)
          | PAbort s => BPanic s
          | PNoFuel => BNoFuel
          end
      end
  end.

(** src/build.rs:203-220 [translate_mods]; [done] are the C modules so far. *)
Fixpoint translate_mods (mods : list module_) (metas : list modinfo) (done : list cmodule)
         (todo : list (module_ * modinfo)) : bout (list cmodule) :=
  match todo with
  | [] => BOk done
  | (m, h) :: r =>
      match translate m (mkParams h metas done mods) with
      | TrOk cm => translate_mods mods metas (done ++ [cm]) r
      | TrErr e => BErrs [e]
      | TrPanic s => BPanic s
      end
  end.

(** src/build.rs:168-201 [parse_project]. *)
Definition parse_project (fuel : nat) (mainpath : str) : bout project :=
  match load_tree fuel [] mainpath [] with
  | NoFuel => BNoFuel
  | Abort s => BPanic s
  | Err e => BErrs [mkBerr [] [] (e_msg e)]
  | Ok (paths, c) =>
      match heads_of c (uniq (rev paths)) with
      | None => BPanic "parse_project: unwrap"
      | Some heads0 =>
          let heads := with_ids 0 heads0 in
          bbind (parse_mods fuel heads heads) (fun mods =>
          bbind (translate_mods mods heads [] (combine mods heads)) (fun cmods =>
          BOk (mkProject heads mods cmods)))
      end
  end.

End Build.

(** src/build.rs:222-242 [write_c99]: the files written, each with the path of
    its source.  [md5] is the hexadecimal digest function of the md5 crate; the
    writing itself is in Mains.v. *)
Definition gen_path (md5 : str -> str) (dir path : str) : str :=
  dir ++ L "/" ++ md5 path ++ L ".c".
Definition write_c99 (md5 : str -> str) (dir : str) (p : project) : list (str * str * str) :=
  map (fun '(h, cm) => (gen_path md5 dir (mi_filepath h), format_module cm, mi_filepath h))
      (combine (pr_heads p) (pr_cmods p)).

(** src/build.rs:44-55: libraries to link. *)
Definition link_list (p : project) : list str :=
  fold_left (fun link l => if str_in l link then link else link ++ [l])
            (flat_map cm_link (pr_cmods p)) [L "m"].

(** src/build.rs:57-79: the C compiler's command line. *)
Definition c99_flags (macos : bool) : list str :=
  if macos then [L "-g"]
  else [L "-Wall"; L "-Wextra"; L "-Werror"; L "-pedantic"; L "-pedantic-errors";
        L "-fmax-errors=1"; L "-Wno-parentheses"; L "-g"].
Definition c99_args (macos : bool) (paths : list str) (output : str) (link : list str) : list str :=
  c99_flags macos ++ paths ++ [L "-o"; output] ++ flat_map (fun l => [L "-l"; trim l]) link.
