(** Model of src/resolve.rs and of the parts of std::path it uses. *)
From Verif Require Import Base Buf Nodes.

(** The environment of the process: $CHELANG_HOME (or "."), which files exist
    and what they contain.  It does not change while the compiler runs. *)
Record world := mkWorld {
  w_home : str;                       (* src/resolve.rs:16-18 [homepath] *)
  w_exists : str -> bool;             (* std::fs::metadata(path).is_ok() *)
  w_read : str -> str + str           (* fs::read_to_string: text or OS error *)
}.

(** src/resolve.rs:6-13 [ModuleRef]. *)
Record modref := mkRef { r_path : str; r_ns : str }.

Definition slash : char := 47%N.

(** The components that [Components::parse_single_component] skips. *)
Definition skipped_component (c : str) : bool :=
  match c with [] => true | [46%N] => true | _ => false end.

Fixpoint drop_skipped (l : list str) : list str :=
  match l with
  | [] => []
  | c :: r => if skipped_component c then drop_skipped r else l
  end.

(** std::path::Path::parent on Unix.  [pre] is the root or the leading "."
    component, which is kept apart from the body. *)
Definition path_parent (s : str) : option str :=
  let root := match s with 47%N :: _ => true | _ => false end in
  let curdir := match s with [46%N] => true | 46%N :: 47%N :: _ => true | _ => false end in
  let start := if root || curdir then 1 else 0 in
  let pre := firstn start s in
  let comps := rev (split_char slash (skipn start s)) in
  match drop_skipped comps with
  | [] => if root then None else if curdir then Some [] else None
  | _ :: r => Some (pre ++ join [slash] (rev (drop_skipped r)))
  end.

(** std::path::Path::join on Unix. *)
Definition path_join (base name : str) : str :=
  match name with
  | 47%N :: _ => name
  | _ => match rev base with
         | [] => name
         | 47%N :: _ => base ++ name
         | _ => base ++ [slash] ++ name
         end
  end.

(** src/resolve.rs:38-40 [basename]. *)
Definition basename (s : str) : str := last (split_char slash s) [].

(** src/resolve.rs:33-34: the namespace of a module path.  [len] is in bytes,
    [substring] counts characters. *)
Definition ns_of_path (path : str) : res str :=
  let bn := basename path in
  if Nat.ltb (blen bn) 2 then Panic "resolve_import: subtraction overflow"
  else Done (firstn (blen bn - 2) bn).

(** src/resolve.rs:20-36 [resolve_import]; [inr] is the error message. *)
Definition resolve_import (w : world) (base_path name : str) : res (modref + str) :=
  rbind
    (if ends_with name (L ".c") then
       rbind (unwrap "resolve_import: parent().unwrap()" (path_parent base_path))
             (fun d => Done (path_join d name))
     else Done (w_home w ++ L "/lib/" ++ name ++ L ".c"))
    (fun path =>
       if negb (w_exists w path)
       then Done (inr (L "can't find module '" ++ name ++ L "' (looked at " ++ path ++ L ")"))
       else rbind (ns_of_path path) (fun ns => Done (inl (mkRef path ns)))).
