(** The import graph of a set of files and what a build makes of it. *)
From Verif Require Import Base Buf Lexer Nodes Resolve Cursor Preparser Parser.

Section Graph.
Context `{Unicode} (w : world).

(** The pre-pass over the file [p] succeeds and finds [i]. *)
Definition header (p : str) (i : modinfo) : Prop := exists fuel, preparse fuel w p = Ok i.

(** The file [p] imports the file [q]. *)
Definition imports (p q : str) : Prop := exists i r, header p i /\ In r (mi_imports i) /\ r_path r = q.

(** [q] is imported by [p] directly or through other files. *)
Inductive needs : str -> str -> Prop :=
| Needs_one p q : imports p q -> needs p q
| Needs_more p q r : imports p q -> needs q r -> needs p r.
Definition part_of (main q : str) : Prop := q = main \/ needs main q.

(** Some file of the program needs itself. *)
Definition cyclic (main : str) : Prop := exists p, part_of main p /\ needs p p.

(** A walk along imports. *)
Fixpoint walk (l : list str) : Prop :=
  match l with
  | a :: r => match r with b :: _ => imports a b | [] => True end /\ walk r
  | [] => True
  end.
(** A walk from [main] that comes back to a file already on it. *)
Definition loop_from (main : str) (trail : list str) (q : str) : Prop :=
  (exists l, trail = main :: l) /\ walk (trail ++ [q]) /\ In q trail.

End Graph.

(** [a] stands before [b] in the list. *)
Definition earlier {A} (a b : A) (l : list A) : Prop :=
  exists i j, i < j /\ nth_error l i = Some a /\ nth_error l j = Some b.

From Verif Require Import CAst Translator Build.

(** The [i]-th module of a project: its header, its contents and its C code. *)
Definition unit_at (pr : project) (i : nat) (h : modinfo) (m : module_) (cm : cmodule) : Prop :=
  nth_error (pr_heads pr) i = Some h /\ nth_error (pr_mods pr) i = Some m
  /\ nth_error (pr_cmods pr) i = Some cm.
(** What the translation of the [i]-th module works from: all headers and parsed
    modules, and the C code of the modules before it. *)
Definition unit_params (pr : project) (i : nat) (h : modinfo) : trparams :=
  mkParams h (pr_heads pr) (firstn i (pr_cmods pr)) (pr_mods pr).

(** The declarations a generated C file offers to importing modules: pub types
    and structs, pub enums, prototypes of functions that are not static, and all
    directives. *)
Definition offered (e : celem) : bool :=
  match e with
  | XTypedef x => ctd_pub x
  | XStruct x => csd_pub x
  | XEnum x => negb (ced_hidden x)
  | XForwardFunc x => negb (cfw_static x)
  | XMacro _ _ => true
  | XInclude _ | XForwardStruct _ | XVar _ | XFunc _ => false
  end.
(** What identifies a declaration: the C name it declares, the names of its
    constants, or the text after the directive's name. *)
Definition key (e : celem) : str :=
  match e with
  | XTypedef x => ctdf_alias (ctd_form x)
  | XStruct x => csd_name x
  | XEnum x => L "enum-" ++ join (L ",") (map fst (ced_entries x))
  | XForwardFunc x => cf_name (cfw_form x)
  | XMacro _ v => v
  | XInclude x => x
  | XForwardStruct x => x
  | XVar _ | XFunc _ => []
  end.

(** [l'] is [l] with only the first element of every key, in order; [seen] are
    keys met before. *)
Inductive firsts {A} (k : A -> str) : list str -> list A -> list A -> Prop :=
| Firsts_nil seen : firsts k seen [] []
| Firsts_old seen a l l' : In (k a) seen -> firsts k seen l l' -> firsts k seen (a :: l) l'
| Firsts_new seen a l l' : ~ In (k a) seen -> firsts k (k a :: seen) l l' ->
    firsts k seen (a :: l) (a :: l').

(** Is this element pub? *)
Definition is_pub (e : modelem) : bool :=
  match e with
  | MEnum x => enum_pub x
  | MTypedef x => td_pub x
  | MStruct x => st_pub x
  | MStructAlias x => sa_pub x
  | MFunc x => fd_pub x
  | MVar _ | MMacro _ => false
  end.

(** Paths: a file name without slashes, and the directory of a path. *)
Definition plain_name (f : str) : Prop := ~ In 47%N f /\ f <> [] /\ f <> L ".".
(** Redundant separators and dots: [/], [./] any number of times. *)
Inductive redundant : str -> Prop :=
| Red_none : redundant []
| Red_slash j : redundant j -> redundant (L "/" ++ j)
| Red_dot j : redundant j -> redundant (L "./" ++ j).
Inductive in_dir : str -> str -> Prop :=
| Dir_none f : plain_name f -> in_dir f []
| Dir_root j f : redundant j -> plain_name f -> in_dir (L "/" ++ j ++ f) (L "/")
| Dir_dot j f : redundant j -> plain_name f -> in_dir (L "./" ++ j ++ f) (L ".")
| Dir_sub d d' j f : in_dir d d' -> redundant j -> plain_name f -> in_dir (d ++ L "/" ++ j ++ f) d.
(** The file [name] in directory [dir]. *)
Definition in_directory (dir name : str) : str :=
  if str_eqb dir [] then name
  else if str_eqb dir (L "/") then L "/" ++ name
  else dir ++ L "/" ++ name.
(** The last part of a path. *)
Definition file_name (path bn : str) : Prop :=
  ~ In 47%N bn /\ (path = bn \/ exists d, path = d ++ L "/" ++ bn).
Definition ascii (s : str) : Prop := forall c, In c s -> (c < 128)%N.

(** Where an import is looked for. *)
Inductive looked_up (home base name : str) : str -> Prop :=
| Look_relative dir n : name = n ++ L ".c" -> hd 0%N name <> 47%N -> in_dir base dir ->
    looked_up home base name (in_directory dir name)
| Look_absolute dir n : name = n ++ L ".c" -> hd 0%N name = 47%N -> in_dir base dir ->
    looked_up home base name name
| Look_library : (forall n, name <> n ++ L ".c") ->
    looked_up home base name (home ++ L "/lib/" ++ name ++ L ".c").

(** The libraries named by the #link hints of the elements, as written. *)
Definition link_hint (e : modelem) : list str :=
  match e with
  | MMacro (mkMacro name value _) => if str_eqb name (L "link") then [value] else []
  | _ => []
  end.
