(** Model of src/types.rs. *)
From Verif Require Import Base Buf Nodes.

(** src/types.rs:4-19 [TypeOp], [Type]. *)
Inductive ty := Ty (base : nsname) (ops : list tyop)
with tyop := TDeref | TIndex | TCall (args : list ty).

Definition ty_base (t : ty) : nsname := match t with Ty b _ => b end.
Definition ty_ops (t : ty) : list tyop := match t with Ty _ o => o end.

(** src/types.rs:22-44 [Type::fmt]. *)
Definition base_fmt (b : nsname) : str :=
  match ns_ns b with [] => ns_name b | _ => ns_ns b ++ L "." ++ ns_name b end.
Fixpoint ty_fmt (t : ty) : str :=
  match t with
  | Ty b ops =>
      (fix go (ops : list tyop) : str :=
         match ops with
         | [] => base_fmt b
         | TDeref :: r => L "pointer to " ++ go r
         | TIndex :: r => L "array of " ++ go r
         | TCall args :: r =>
             L "func (" ++
             join (L ", ") ((fix fmts (l : list ty) : list str :=
                               match l with [] => [] | a :: l' => ty_fmt a :: fmts l' end) args)
             ++ L ") -> " ++ go r
         end) ops
  end.

(** src/types.rs:342-348 [nsname]. *)
Definition mk_nsname (ns name : str) : nsname := mkNs (mkPos 0 0) ns name.

(** src/types.rs:305-340: constructor wrappers. *)
Definition just (name : string) : ty := Ty (mk_nsname [] (lit name)) [].
Definition justp (name : string) : ty := Ty (mk_nsname [] (lit name)) [TDeref].
Definition ty_ellipsis : ty := just "...".
Definition ty_number : ty := just "number".
Definition ty_complit : ty := just "::complit".
Definition ty_todo : ty := just "*** TODO *** ".
Definition ty_mk (ops : list tyop) (ns name : str) : ty := Ty (mk_nsname ns name) ops.

(** src/types.rs:139-145 [is_ellipsis], [is_todo]. *)
Definition is_ellipsis (t : ty) : bool := str_eqb (ty_fmt t) (L "...").
Definition is_todo (t : ty) : bool := str_eqb (ty_fmt t) (L "*** TODO *** ").

(** src/types.rs:47-58 [Class]. *)
Inductive class := CONSTNUM | PTR | SINT | UINT | CHAR | ARR | UNK | FLT | BOOL | NONE.

Definition fmt_in (t : ty) (l : list string) : bool :=
  existsb (fun s => str_eqb (ty_fmt t) (lit s)) l.

(** src/types.rs:60-98 [classify]. *)
Definition classify (x : ty) : class :=
  match ty_ops x with
  | TDeref :: _ => PTR
  | TIndex :: _ => ARR
  | _ =>
    if fmt_in x ["int"; "int16_t"; "int32_t"; "int64_t"; "int8_t"; "ptrdiff_t"] then SINT
    else if fmt_in x ["size_t"; "uint16_t"; "uint32_t"; "uint64_t"; "uint8_t"] then UINT
    else if fmt_in x ["float"; "double"] then FLT
    else if fmt_in x ["number"] then CONSTNUM
    else if fmt_in x ["char"] then CHAR
    else if is_todo x then UNK
    else if fmt_in x ["bool"] then BOOL
    else NONE
  end%string.

(** src/types.rs:100-120 [typesize]; [None] is the todo! panic. *)
Definition typesize (x : ty) : option N :=
  let f := ty_fmt x in
  let fix look (l : list (string * N)) : option N :=
    match l with
    | [] => None
    | (k, n) :: r => if str_eqb f (lit k) then Some n else look r
    end in
  look [("size_t", 64); ("uint64_t", 64); ("int64_t", 64); ("uint32_t", 32); ("int32_t", 32);
        ("uint16_t", 16); ("int16_t", 16); ("uint8_t", 8); ("int8_t", 8); ("int", 32);
        ("char", 8); ("double", 64); ("float", 32); ("time_t", 32); ("ptrdiff_t", 64)]%string%N.

(** Result of a typing rule: a type, an error message, or a panic. *)
Inductive tres := TOk (t : ty) | TErr (m : str) | TPanic.

(** src/types.rs:122-128 [widest_type]. *)
Definition widest_type (x y : ty) : tres :=
  match typesize x, typesize y with
  | Some a, Some b => TOk (if N.ltb b a then x else y)
  | _, _ => TPanic
  end.

(** src/types.rs:131-137 [is_booly]. *)
Definition is_booly (t : ty) : bool :=
  match classify t with PTR | SINT | UINT | BOOL | UNK => true | _ => false end.

(** src/types.rs:147-154 [typeof_addr]. *)
Definition typeof_addr (t : ty) : ty :=
  Ty (mk_nsname (ns_ns (ty_base t)) (ns_name (ty_base t))) (ty_ops t ++ [TDeref]).

(** src/types.rs:156-167 [typeof_deref]. *)
Definition typeof_deref (t : ty) : tres :=
  if is_todo t then TOk t
  else match ty_ops t with
       | TDeref :: r => TOk (Ty (ty_base t) r)
       | _ => TErr (L "dereference of a non-pointer (" ++ ty_fmt t ++ L ")")
       end.

(** src/types.rs:169-196 [typeof_arith]. *)
Definition typeof_arith (a b : ty) : tres :=
  match classify a, classify b with
  | CONSTNUM, CONSTNUM => TOk a
  | FLT, FLT => widest_type a b
  | SINT, SINT => widest_type a b
  | UINT, UINT => widest_type a b
  | CHAR, CONSTNUM => TOk (just "int")
  | CONSTNUM, CHAR => TOk (just "int")
  | CONSTNUM, (FLT | SINT | UINT) => TOk b
  | (FLT | SINT | UINT), CONSTNUM => TOk a
  | _, UNK => TOk b
  | UNK, _ => TOk a
  | UINT, SINT => widest_type a b
  | SINT, UINT => widest_type a b
  | (SINT | UINT), FLT => TOk b
  | FLT, (SINT | UINT) => TOk a
  | _, _ => TErr (L "arith on " ++ ty_fmt a ++ L ", " ++ ty_fmt b)
  end.

(** src/types.rs:198-228 [typeof_plusminus]. *)
Definition typeof_plusminus (op : string) (a b : ty) : tres :=
  match classify a, classify b with
  | CONSTNUM, CONSTNUM => TOk a
  | SINT, SINT => widest_type a b
  | UINT, UINT => widest_type a b
  | FLT, FLT => widest_type a b
  | CONSTNUM, (SINT | UINT | FLT) => TOk b
  | (SINT | UINT | FLT), CONSTNUM => TOk b
  | UNK, _ => TOk a
  | _, UNK => TOk b
  | ca, cb =>
      if String.eqb op "-" && match ca, cb with PTR, PTR => true | _, _ => false end
      then TOk (just "ptrdiff_t")
      else match ca, cb with
           | (PTR | ARR), (CONSTNUM | SINT | UINT) => TOk a
           | (CONSTNUM | SINT | UINT), (PTR | ARR) => TOk a
           | _, _ => TErr (L "'" ++ lit op ++ L "' operation between " ++ ty_fmt a
                            ++ L " and " ++ ty_fmt b)
           end
  end.

(** src/types.rs:231-264 [typeof_cmp]. *)
Definition typeof_cmp (a b : ty) : tres :=
  match classify a, classify b with
  | FLT, FLT | SINT, SINT | UINT, UINT | CHAR, CHAR => TOk (just "bool")
  | BOOL, BOOL => TOk (just "boo")
  | (FLT | SINT | UINT), CONSTNUM => TOk (just "bool")
  | CONSTNUM, (FLT | SINT | UINT) => TOk (just "bool")
  | CHAR, CONSTNUM => TOk (just "bool")
  | CONSTNUM, CHAR => TOk (just "bool")
  | CHAR, SINT => TOk (just "bool")
  | SINT, CHAR => TOk (just "bool")
  | UNK, _ => TOk (just "bool")
  | _, UNK => TOk (just "bool")
  | PTR, PTR => TOk (just "bool")
  | CONSTNUM, CONSTNUM => TOk (just "bool")
  | _, _ => TErr (L "comparison between " ++ ty_fmt a ++ L " and " ++ ty_fmt b)
  end.

(** src/types.rs:266-274 [typeof_boolcomp]. *)
Definition typeof_boolcomp (a b : ty) : tres :=
  if negb (is_booly a) then TErr (ty_fmt a ++ L " used as boolean")
  else if negb (is_booly b) then TErr (ty_fmt b ++ L " used as boolean")
  else TOk (just "bool").

(** src/types.rs:276-299 [typeof_index]. *)
Definition typeof_index (arr ind : ty) : tres :=
  if is_todo arr then TOk arr
  else match ty_ops arr with
       | [] => TOk ty_todo
       | TIndex :: r => TOk (Ty (ty_base arr) r)
       | TDeref :: r => TOk (Ty (ty_base arr) r)
       | _ => TErr (L "index: (" ++ ty_fmt arr ++ L ")[" ++ ty_fmt ind ++ L "]")
       end.
