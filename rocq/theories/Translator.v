(** Model of src/translator.rs.

    The translator context [TrCtx] (lines 107-117) is split in two: [trenv], the
    part that does not change while the module elements are translated, and
    [trst], the part that does.  The debug switches DEBUG_TYPES and TRACE (lines
    15-16) are constant false and their branches are left out. *)
From Verif Require Import Base Buf Nodes NodeQueries Types Cspec Resolve Cursor Preparser Parser
  CAst FormatChe FormatC.

(** Result of a translation step: a value, a build error, or a panic. *)
Inductive tout (A : Type) : Type :=
| TrOk (a : A)
| TrErr (e : build_error)
| TrPanic (why : string).
Arguments TrOk {A} a. Arguments TrErr {A} e. Arguments TrPanic {A} why.

(** src/translator.rs:64-71 [Binding]. *)
Record binding := mkB { b_name : str; b_bpos : pos; b_pub : bool; b_typ : ty; b_used : bool }.

(** src/translator.rs:73-77 [TI]. *)
Record tinfo := mkTI { ti_pub : bool; ti_t : ty }.

(** src/translator.rs:107-117 [TrCtx], immutable part.  Hash maps are
    association lists, newest first. *)
Record trenv := mkEnv {
  en_mod : modinfo;
  en_heads : list modinfo;
  en_cmods : list cmodule;
  en_mods : list module_;
  en_structs : list (str * struct_typedef);
  en_typedefs : list (str * tinfo) }.

(** src/translator.rs:107-117 [TrCtx], mutable part.  The innermost scope comes
    first (the code pushes at the end of a vector); inside a scope bindings are
    in declaration order as in the code. *)
Record trst := mkSt { s_scopes : list (list binding); s_ns : list str; s_customs : list str }.

Definition TR (A : Type) : Type := trst -> tout (A * trst).
Definition tret {A} (a : A) : TR A := fun s => TrOk (a, s).
Definition terr {A} (e : build_error) : TR A := fun _ => TrErr e.
Definition tpanic {A} (w : string) : TR A := fun _ => TrPanic w.
Definition tbind {A B} (m : TR A) (f : A -> TR B) : TR B := fun s =>
  match m s with
  | TrOk (a, s') => f a s'
  | TrErr e => TrErr e
  | TrPanic w => TrPanic w
  end.
Declare Scope tr_scope.
Delimit Scope tr_scope with tr.
Notation "x <- m ;; f" := (tbind m (fun x => f))
  (at level 61, m at next level, right associativity) : tr_scope.
Notation "' p <- m ;; f" := (tbind m (fun p => f))
  (at level 61, p pattern, m at next level, right associativity) : tr_scope.
Notation "m ;;; f" := (tbind m (fun _ => f)) (at level 61, right associativity) : tr_scope.
Close Scope mon_scope.
Open Scope tr_scope.

(** [f] applied to every element, left to right. *)
Fixpoint tmap {A B} (f : A -> TR B) (l : list A) : TR (list B) :=
  match l with
  | [] => tret []
  | a :: r => x <- f a ;; xs <- tmap f r ;; tret (x :: xs)
  end.
Definition topt {A B} (f : A -> TR B) (o : option A) : TR (option B) :=
  match o with
  | Some a => x <- f a ;; tret (Some x)
  | None => tret None
  end.

(** [HashMap::get]. *)
Fixpoint assoc {V} (k : str) (m : list (str * V)) : option V :=
  match m with
  | [] => None
  | (k', v) :: r => if str_eqb k' k then Some v else assoc k r
  end.

(** src/translator.rs:1792-1794 [nsprefix]. *)
Definition nsprefix (prefix id : str) : str := prefix ++ L "__" ++ id.

(** src/translator.rs:25-62 [get_module_synopsis]. *)
Definition in_synopsis (e : celem) : bool :=
  match e with
  | XTypedef x => ctd_pub x
  | XStruct x => csd_pub x
  | XForwardFunc x => negb (cfw_static x)
  | XMacro _ _ => true
  | XEnum x => negb (ced_hidden x)
  | _ => false
  end.
Definition get_module_synopsis (m : cmodule) : list celem := filter in_synopsis (cm_elements m).

(** src/translator.rs:409-429 [get_obj_key]; the two panicking cases never occur
    in a synopsis and give the empty key here. *)
Definition get_obj_key (e : celem) : str :=
  match e with
  | XEnum x => L "enum-" ++ join (L ",") (map fst (ced_entries x))
  | XTypedef x => ctdf_alias (ctd_form x)
  | XStruct x => csd_name x
  | XInclude x => x
  | XMacro _ v => v
  | XForwardStruct x => x
  | XForwardFunc x => cf_name (cfw_form x)
  | XVar _ | XFunc _ => []
  end.

(** First position of an element satisfying [f] ([Iterator::position]). *)
Fixpoint position {A} (f : A -> bool) (l : list A) : option nat :=
  match l with
  | [] => None
  | a :: r => if f a then Some 0 else option_map S (position f r)
  end.

(** Keep the first element for every key not yet in [present]. *)
Fixpoint dedup_by {A} (key : A -> str) (present : list str) (l : list A) : list A :=
  match l with
  | [] => []
  | a :: r => if str_in (key a) present then dedup_by key present r
              else a :: dedup_by key (key a :: present) r
  end.

(** src/translator.rs:431-458 [expand_imports]. *)
Fixpoint import_synopses (env : trenv) (imps : list modref) : tout (list celem) :=
  match imps with
  | [] => TrOk []
  | imp :: r =>
      match position (fun x => str_eqb (mi_filepath x) (r_path imp)) (en_heads env) with
      | None => TrPanic "expand_imports: unwrap"
      | Some p =>
          match nth_error (en_cmods env) p with
          | None => TrPanic "expand_imports: index out of bounds"
          | Some cm =>
              match import_synopses env r with
              | TrOk l => TrOk (get_module_synopsis cm ++ l)
              | x => x
              end
          end
      end
  end.
Definition expand_imports (env : trenv) : tout (list celem) :=
  match import_synopses env (mi_imports (en_mod env)) with
  | TrOk l => TrOk (dedup_by get_obj_key [] l)
  | x => x
  end.

(** src/translator.rs:369-379: the group of an element. *)
Definition elem_order (e : celem) : nat :=
  match e with
  | XInclude _ | XMacro _ _ => 0
  | XForwardStruct _ => 1
  | XTypedef _ => 2
  | XStruct _ | XEnum _ => 3
  | XForwardFunc _ => 4
  | XVar _ => 5
  | XFunc _ => 6
  end.

(** src/translator.rs:381-398: drop repeated typedefs and structs. *)
Fixpoint dedup_elems (set : list str) (l : list celem) : list celem :=
  match l with
  | [] => []
  | e :: r =>
      match (match e with
             | XTypedef x => Some (format_typedef x)
             | XStruct x => Some (format_struct_def x)
             | _ => None
             end) with
      | Some s => if str_in s set then dedup_elems set r else e :: dedup_elems (s :: set) r
      | None => e :: dedup_elems set r
      end
  end.

(** src/translator.rs:362-407 [reorder_elems]: seven groups, in order. *)
Definition reorder_elems (l : list celem) : list celem :=
  let d := dedup_elems [] l in
  flat_map (fun g => filter (fun e => Nat.eqb (elem_order e) g) d) [0; 1; 2; 3; 4; 5; 6].

(** src/translator.rs:1624-1633 [typefrom_typename]. *)
Definition typefrom_typename (t : typename) (f : form) : ty :=
  ty_mk (map (fun _ => TIndex) (f_indexes f) ++ repeat TDeref (f_hops f))
        (ns_ns (tn_name t)) (ns_name (tn_name t)).

(** src/translator.rs:1635-1641 [typefrom_baretypeform]. *)
Definition typefrom_btf (x : bare_typeform) : ty :=
  ty_mk (repeat TDeref (btf_hops x)) (ns_ns (tn_name (btf_type x))) (ns_name (tn_name (btf_type x))).

(** src/translator.rs:1643-1671 [typefrom_typedef]. *)
Definition typefrom_typedef (x : typedef_) : ty :=
  ty_mk ((match td_func_params x with
          | Some p => [TCall (map typefrom_btf (ap_forms p)
                              ++ if ap_ellipsis p then [ty_ellipsis] else [])]
          | None => []
          end)
         ++ (if N.ltb 0 (td_array_size x) then [TIndex] else [])
         ++ repeat TDeref (td_derefs x))
        (ns_ns (tn_name (td_type x))) (ns_name (tn_name (td_type x))).

(** src/translator.rs:1180-1193 [typefrom_funcdecl]. *)
Definition typefrom_funcdecl (f : funcdecl) : ty :=
  let t := typefrom_typename (fd_type f) (fd_form f) in
  let args := flat_map (fun p => map (typefrom_typename (taf_type p)) (taf_forms p))
                       (fp_list (fd_params f))
              ++ (if fp_ellipsis (fd_params f) then [ty_ellipsis] else []) in
  Ty (ty_base t) (TCall args :: ty_ops t).

(** src/translator.rs:1673-1675 [is_numeric]: the strings accepted by
    [str::parse::<f64>] (sign, digits with an optional point and exponent, or
    inf, infinity, nan in any case). *)
Definition lower (c : char) : char := if N.leb 65 c && N.leb c 90 then (c + 32)%N else c.
Definition strip_sign (s : str) : str :=
  match s with
  | c :: r => if N.eqb c 43 || N.eqb c 45 then r else s
  | [] => []
  end.
Definition exponent_ok (s : str) : bool :=
  match s with
  | [] => true
  | c :: r =>
      if N.eqb (lower c) 101
      then let d := strip_sign r in
           match d with [] => false | _ => forallb is_ascii_digit d end
      else false
  end.
Fixpoint span_digits (s : str) : str * str :=
  match s with
  | c :: r => if is_ascii_digit c then let '(a, b) := span_digits r in (c :: a, b) else ([], s)
  | [] => ([], [])
  end.
Definition is_numeric (s : str) : bool :=
  let t := strip_sign s in
  let '(d1, r1) := span_digits t in
  let '(d2, r2) := match r1 with
                   | c :: r => if N.eqb c 46 then span_digits r else ([], r1)
                   | [] => ([], [])
                   end in
  str_in (map lower t) [L "inf"; L "infinity"; L "nan"]
  || (negb (str_eqb (d1 ++ d2) []) && exponent_ok r2).

(** src/translator.rs:1692-1699 [typeof_literal]. *)
Definition typeof_literal (l : literal) : ty :=
  match l with
  | LChar _ => just "char"
  | LString _ => justp "char"
  | LNumber _ => ty_number
  | LNull => just "null"
  end.

(** src/translator.rs:1464-1472 [tr_literal]. *)
Definition tr_literal (l : literal) : cliteral :=
  match l with
  | LChar s => CLChar s
  | LString s => CLString s
  | LNumber s => CLNumber s
  | LNull => CLNull
  end.

(** src/translator.rs:1474-1483, 1597-1620: builders of C nodes. *)
Definition mk_id (s : string) : cexpr := CIdent (lit s).
Definition mk_call_expr (f : string) (args : list cexpr) : cexpr := CCall (mk_id f) args.
Definition mk_call_st (f : string) (args : list cexpr) : cstmt := KExpr (mk_call_expr f args).
Definition mk_str (s : str) : cexpr := CLit (CLString s).
Definition mk_exit1 : cstmt := mk_call_st "exit" [CLit (CLNumber (L "1"))].
Definition mk_neg (e : cexpr) : cexpr := CPrefix "!" e.
Definition mk_or (a b : cexpr) : cexpr := CBin "||" a b.

(** src/translator.rs:1513-1595 [mk_calloc_or_panic]. *)
Definition mk_calloc_or_panic : celem :=
  let tn := fun s : string => mkCtn false (lit s) in
  let fm := fun (st s : string) => mkCform (lit st) (lit s) [] in
  XFunc (mkCfd true (tn "void") (fm "*" "calloc_or_panic")
    (mkCfp [mkCtf (tn "size_t") (fm "" "count"); mkCtf (tn "size_t") (fm "" "size")] false)
    [ KVar (tn "void") [fm "*" "x"] [Some (mk_call_expr "calloc" [mk_id "count"; mk_id "size"])];
      KIf (mk_neg (mk_id "x"))
          [mk_call_st "fprintf" [mk_id "stderr"; mk_str (L "calloc failed")]; mk_exit1] None;
      KReturn (Some (mk_id "x")) ])%string.

(** src/translator.rs:664-673 [tr_macro]. *)
Definition tr_macro (x : macro_) : list celem :=
  if str_eqb (m_name x) (L "type") || str_eqb (m_name x) (L "link") then []
  else [XMacro (m_name x) (m_value x)].

Section Tr.
Context (env : trenv).

Definition berr (pos msg : str) : build_error := mkBerr (mi_filepath (en_mod env)) pos msg.

(** src/translator.rs:119-133 [getnspos], followed by the indexing that all its
    callers do: the header and the parsed form of the namespace's module. *)
Definition find_ns (ns : str) : option (modinfo * module_) :=
  match find (fun x => str_eqb (r_ns x) ns) (mi_imports (en_mod env)) with
  | None => None
  | Some imp =>
      match position (fun x => str_eqb (mi_filepath x) (r_path imp)) (en_heads env) with
      | None => None
      | Some p =>
          match nth_error (en_heads env) p, nth_error (en_mods env) p with
          | Some h, Some m => Some (h, m)
          | _, _ => None
          end
      end
  end.
Definition getns (ns : str) : TR (modinfo * module_) :=
  match find_ns ns with
  | Some r => tret r
  | None => tpanic "getnspos: unwrap"
  end.

(** src/translator.rs:84-98 [find_type]: is the type public, if known. *)
Definition find_type (name : str) : option bool :=
  if has_type name then Some false
  else match assoc name (en_structs env) with
       | Some t => Some (st_pub t)
       | None =>
           match assoc name (en_typedefs env) with
           | Some t => Some (ti_pub t)
           | None => if str_in name (mi_typedefs (en_mod env)) then Some false else None
           end
       end.

(** src/translator.rs:135-137 [begin_scope]. *)
Definition begin_scope : TR unit := fun s =>
  TrOk (tt, mkSt ([] :: s_scopes s) (s_ns s) (s_customs s)).

(** src/translator.rs:139-157 [end_scope]. *)
Definition end_scope : TR unit := fun s =>
  match s_scopes s with
  | [] => TrPanic "end_scope: unwrap"
  | sc :: r =>
      match find (fun b => negb (b_pub b) && negb (b_used b)) sc with
      | Some b => TrErr (berr (pos_fmt (b_bpos b)) (b_name b ++ L " is unused"))
      | None => TrOk (tt, mkSt r (s_ns s) (s_customs s))
      end
  end.

(** src/translator.rs:159-164 [find_binding]. *)
Definition find_in_scope (name : str) (sc : list binding) : option binding :=
  find (fun b => str_eqb (b_name b) name) sc.
Fixpoint find_in_scopes (name : str) (scs : list (list binding)) : option binding :=
  match scs with
  | [] => None
  | sc :: r => match find_in_scope name sc with Some b => Some b | None => find_in_scopes name r end
  end.
Definition find_binding (name : str) (s : trst) : option binding := find_in_scopes name (s_scopes s).

(** src/translator.rs:166-185 [mark_binding_use]: the last match in the
    innermost scope that has one. *)
Definition set_used (b : binding) : binding := mkB (b_name b) (b_bpos b) (b_pub b) (b_typ b) true.
Fixpoint mark_last (name : str) (sc : list binding) : option (list binding) :=
  match sc with
  | [] => None
  | b :: r =>
      match mark_last name r with
      | Some r' => Some (b :: r')
      | None => if str_eqb (b_name b) name then Some (set_used b :: r) else None
      end
  end.
Fixpoint mark_scopes (name : str) (scs : list (list binding)) : option (list (list binding)) :=
  match scs with
  | [] => None
  | sc :: r =>
      match mark_last name sc with
      | Some sc' => Some (sc' :: r)
      | None => option_map (cons sc) (mark_scopes name r)
      end
  end.
Definition mark_binding_use (name : str) : TR bool := fun s =>
  match mark_scopes name (s_scopes s) with
  | Some scs => TrOk (true, mkSt scs (s_ns s) (s_customs s))
  | None => TrOk (match find_sym name with Some _ => true | None => str_eqb name (L "nelem") end, s)
  end.

(** src/translator.rs:187-199 [add_binding]. *)
Definition add_binding (name : str) (p : pos) (ispub : bool) (t : ty) : TR unit := fun s =>
  match s_scopes s with
  | [] => TrPanic "add_binding: no scope"
  | sc :: r =>
      if existsb (fun b => str_eqb (b_name b) name) sc
      then TrPanic "was already defined"
      else TrOk (tt, mkSt ((sc ++ [mkB name p ispub t false]) :: r) (s_ns s) (s_customs s))
  end.

Definition use_ns (ns : str) : TR unit := fun s =>
  TrOk (tt, mkSt (s_scopes s) (ns :: s_ns s) (s_customs s)).
Definition use_custom (c : str) : TR unit := fun s =>
  TrOk (tt, mkSt (s_scopes s) (s_ns s) (c :: s_customs s)).
Definition lookup (name : str) : TR (option binding) := fun s => TrOk (find_binding name s, s).

(** A typing rule's result; the error gets the given position. *)
Definition lift (p : str) (extra : str) (r : tres) : TR ty :=
  match r with
  | TOk t => tret t
  | TErr m => terr (berr p (m ++ extra))
  | TPanic => tpanic "typesize: todo"
  end.

Definition not_exported (x : nsname) : build_error :=
  berr (pos_fmt (ns_pos x)) (ns_ns x ++ L " doesn't have exported " ++ ns_name x).

(** src/translator.rs:1094-1139 [tr_typename]. *)
Definition tr_typename (x : typename) : TR ctypename :=
  let n := tn_name x in
  if str_eqb (ns_ns n) (L "OS") then tret (mkCtn (tn_const x) (ns_name n))
  else if str_eqb (ns_ns n) [] then
    match find_type (ns_name n) with
    | None => terr (berr (pos_fmt (ns_pos n)) (L "unknown type: " ++ ns_name n))
    | Some ispub =>
        tret (mkCtn (tn_const x)
                    (if ispub then nsprefix (mi_uniqid (en_mod env)) (ns_name n) else ns_name n))
    end
  else
    ' (h, m) <- getns (ns_ns n) ;;
    if negb (exports_has (mod_exports m) (ns_name n)) then terr (not_exported n)
    else use_ns (ns_ns n) ;;;
         tret (mkCtn (tn_const x) (nsprefix (mi_uniqid h) (ns_name n))).

(** src/translator.rs:1003-1012 [tr_bare_typeform]. *)
Definition tr_bare_typeform (x : bare_typeform) : TR cbare_typeform :=
  t <- tr_typename (btf_type x) ;; tret (mkCbtf t (btf_hops x)).

(** src/translator.rs:1195-1231 [tr_nsid]. *)
Definition tr_nsid (x : nsname) : TR str :=
  if str_eqb (ns_ns x) (L "OS") then tret (ns_name x)
  else if negb (str_eqb (ns_ns x) []) then
    use_ns (ns_ns x) ;;;
    ' (h, m) <- getns (ns_ns x) ;;
    if negb (exports_has (mod_exports m) (ns_name x)) then terr (not_exported x)
    else tret (nsprefix (mi_uniqid h) (ns_name x))
  else
    b <- lookup (ns_name x) ;;
    let name := match b with
                | Some b => if b_pub b then nsprefix (mi_uniqid (en_mod env)) (ns_name x)
                            else ns_name x
                | None => ns_name x
                end in
    ok <- mark_binding_use (ns_name x) ;;
    if negb ok then terr (berr (pos_fmt (ns_pos x)) (L "nsid: " ++ ns_name x ++ L " is undefined"))
    else tret name.

(** src/translator.rs:1141-1178 [tr_nsid_in_expr]. *)
Definition tr_nsid_in_expr (x : nsname) : TR (ty * str) :=
  v <- tr_nsid x ;;
  if str_eqb (ns_ns x) (L "OS") then tret (ty_todo, v)
  else if str_eqb (ns_ns x) [] then
    b <- lookup (ns_name x) ;;
    match b with
    | Some b => tret (b_typ b, v)
    | None => match find_sym (ns_name x) with
              | Some s => tret (cs_t s, v)
              | None => tpanic "tr_nsid_in_expr: todo"
              end
    end
  else
    ' (_, m) <- getns (ns_ns x) ;;
    if existsb (fun c => str_eqb (en_name c) (ns_name x)) (ex_consts (mod_exports m))
    then tret (ty_number, v)
    else match find (fun f => str_eqb (f_name (fd_form f)) (ns_name x)) (ex_fns (mod_exports m)) with
         | Some f => tret (typefrom_funcdecl f, v)
         | None => tpanic "tr_nsid_in_expr: todo"
         end.

(** src/translator.rs:720-737 [root_type]. *)
Definition root_type (t : ty) : ty :=
  if negb (str_eqb (ns_ns (ty_base t)) []) then ty_todo
  else if has_type (ns_name (ty_base t)) then t
  else match assoc (ns_name (ty_base t)) (en_typedefs env) with
       | Some b => Ty (ty_base (ti_t b)) (ty_ops t ++ ty_ops (ti_t b))
       | None => t
       end.

(** src/translator.rs:747-756: the type of a binary operation; [None] is todo!. *)
Definition typeof_binop (op : string) (a b : ty) : option tres :=
  let is_in := fun l : list string => existsb (String.eqb op) l in
  if is_in ["||"; "&&"]%string then Some (typeof_boolcomp a b)
  else if is_in ["=="; "<"; ">"; "!="; ">="; "<="]%string then Some (typeof_cmp (root_type a) (root_type b))
  else if is_in ["-"; "+"]%string then Some (typeof_plusminus op (root_type a) (root_type b))
  else if is_in ["*"; "/"; "%"; "<<"; ">>"; "&"; "|"; "^"]%string
       then Some (typeof_arith (root_type a) (root_type b))
  else if is_in ["="; "+="; "-="; "/="; "*="; "|="; "%="; "&="; "^="]%string then Some (TOk (just "void"))
  else None.

(** src/translator.rs:784-795: the type of a prefix operation. *)
Definition typeof_prefix (op : string) (t : ty) : option tres :=
  let is_in := fun l : list string => existsb (String.eqb op) l in
  if is_in ["++"; "--"]%string then Some (TOk t)
  else if is_in ["!"]%string then Some (TOk (just "bool"))
  else if is_in ["-"; "~"]%string then Some (TOk t)
  else if is_in ["&"]%string then Some (TOk (typeof_addr t))
  else if is_in ["*"]%string then Some (typeof_deref t)
  else None.

(** src/translator.rs:1701-1736 [typeof_struct_field] (never an error). *)
Fixpoint field_in_forms (t : typename) (field : str) (fs : list form) : option ty :=
  match fs with
  | [] => None
  | f :: r => if str_eqb (f_name f) field then Some (typefrom_typename t f)
              else field_in_forms t field r
  end.
Fixpoint field_in_entries (field : str) (es : list struct_entry) : option ty :=
  match es with
  | [] => None
  | StPlain x :: r => match field_in_forms (taf_type x) field (taf_forms x) with
                      | Some t => Some t
                      | None => field_in_entries field r
                      end
  | StUnion _ :: _ => Some ty_todo
  end.
Definition typeof_struct_field (t : ty) (field : str) : ty :=
  if is_todo t then ty_todo
  else if str_eqb (ns_ns (ty_base t)) [] then
    match assoc (ns_name (ty_base t)) (en_structs env) with
    | Some x => match field_in_entries field (st_entries x) with Some r => r | None => ty_todo end
    | None => ty_todo
    end
  else ty_todo.

(** src/translator.rs:1738-1790 [typeof_call].  The recursion follows typedef
    names; more steps than there are typedefs means that it goes round a cycle
    and overflows the stack. *)
Fixpoint typeof_call_aux (fuel : nat) (t : ty) (nargs : nat) : tres :=
  match fuel with
  | O => TPanic
  | S fuel =>
      if is_todo t then TOk ty_todo
      else match ty_ops t with
      | TCall args :: rest =>
          let variadic := match rev args with x :: _ => is_ellipsis x | [] => false end in
          if variadic
          then if Nat.ltb nargs (List.length args - 1)
               then TErr (L "expected at least " ++ dec (N.of_nat (List.length args - 1))
                          ++ L " arguments, got " ++ dec (N.of_nat nargs))
               else TOk (Ty (ty_base t) rest)
          else if negb (Nat.eqb nargs (List.length args))
               then TErr (L "expected " ++ dec (N.of_nat (List.length args))
                          ++ L " arguments, got " ++ dec (N.of_nat nargs))
               else TOk (Ty (ty_base t) rest)
      | ops =>
          let err := TErr (L "call of a non-function (" ++ ty_fmt t ++ L ")") in
          match ops with
          | [] | [TDeref] =>
              if str_eqb (ns_ns (ty_base t)) [] then
                match assoc (ns_name (ty_base t)) (en_typedefs env) with
                | Some d => typeof_call_aux fuel (ti_t d) nargs
                | None => err
                end
              else err
          | _ => err
          end
      end
  end.
Definition typeof_call (t : ty) (nargs : nat) : tres :=
  typeof_call_aux (S (List.length (en_typedefs env))) t nargs.

(** src/translator.rs:902-916: the designator of a composite literal entry. *)
Definition tr_key (k : option expr) : TR (option cexpr) :=
  match k with
  | None => tret None
  | Some (EName n) => if str_eqb (ns_ns n) [] then tret (Some (CIdent (ns_name n)))
                      else tpanic "expected field name"
  | Some _ => tpanic "unexpected entry"
  end.

(** src/translator.rs:976-1000: the end of [tr_call]. *)
Definition call_result (p : pos) (f : ty * cexpr) (args : list (ty * cexpr)) : TR (ty * cexpr) :=
  t <- lift (pos_fmt p) [] (typeof_call (fst f) (List.length args)) ;;
  tret (t, CCall (snd f) (map snd args)).

(** src/translator.rs:472-492 [tr_expr]; 739-779 [tr_binary_op]; 781-808
    [tr_prefop]; 810-827 [tr_postop]; 829-847 [tr_cast]; 849-865 [tr_arr_index];
    871-896 [tr_field_access]; 898-934 [tr_comp_literal]; 936-946 [tr_sizeof];
    960-1001 [tr_call]. *)
Fixpoint tr_expr (e : expr) : TR (ty * cexpr) :=
  match e with
  | ELit l => tret (typeof_literal l, CLit (tr_literal l))
  | EName n => ' (t, v) <- tr_nsid_in_expr n ;; tret (t, CIdent v)
  | EArrIndex a i =>
      ' (ta, va) <- tr_expr a ;;
      ' (ti, vi) <- tr_expr i ;;
      t <- lift (L "?") [] (typeof_index ta ti) ;;
      tret (t, CIndex va vi)
  | EBinary p op a b =>
      ' (ta, va) <- tr_expr a ;;
      ' (tb, vb) <- tr_expr b ;;
      match typeof_binop op ta tb with
      | None => tpanic "binop: todo"
      | Some r =>
          t <- lift (pos_fmt p) (L ": " ++ che_fmt_expr e) r ;;
          tret (t, CBin op va vb)
      end
  | EField _ op target f =>
      ' (t0, vt) <- tr_expr target ;;
      tret (typeof_struct_field t0 f, CField op vt f)
  | EComp entries =>
      es <- (fix go (l : list (bool * option expr * expr)) : TR (list (bool * option cexpr * cexpr)) :=
               match l with
               | [] => tret []
               | (is_index, key, v) :: r =>
                   k <- tr_key key ;;
                   ' (_, v') <- tr_expr v ;;
                   r' <- go r ;;
                   tret ((is_index, k, v') :: r')
               end) entries ;;
      tret (ty_complit, CComp es)
  | EPrefix p op x =>
      ' (t0, v) <- tr_expr x ;;
      match typeof_prefix op t0 with
      | None => tpanic "prefix op: todo"
      | Some r => t <- lift (pos_fmt p) [] r ;; tret (t, CPrefix op v)
      end
  | EPostfix op x =>
      ' (t, v) <- tr_expr x ;;
      if existsb (String.eqb op) ["++"; "--"]%string then tret (t, CPostfix op v)
      else tpanic "postfix op: todo"
  | ECast tf x =>
      ' (_, v) <- tr_expr x ;;
      ct <- tr_bare_typeform tf ;;
      tret (typefrom_btf tf, CCast ct v)
  | ECall p f args =>
      let tr_args := fix go (l : list expr) : TR (list (ty * cexpr)) :=
        match l with
        | [] => tret []
        | a :: r => x <- tr_expr a ;; xs <- go r ;; tret (x :: xs)
        end in
      if is_ident f (L "calloc!") then
        use_custom (L "calloc_or_panic") ;;;
        aa <- tr_args args ;;
        ' (t, v) <- tr_nsid_in_expr (mkNs p [] (L "calloc_or_panic")) ;;
        call_result p (t, CIdent v) aa
      else
        aa <- tr_args args ;;
        ff <- tr_expr f ;;
        call_result p ff aa
  | ESizeofE x => ' (_, v) <- tr_expr x ;; tret (just "size_t", CSizeofE v)
  | ESizeofT t => ct <- tr_bare_typeform t ;; tret (just "size_t", CSizeofT ct)
  end.

(** The translated expression without its type. *)
Definition tr_val (e : expr) : TR cexpr := ' (_, v) <- tr_expr e ;; tret v.

(** src/translator.rs:684-706 [tr_form]. *)
Definition tr_form (f : form) (publishable : bool) : TR cform :=
  ix <- tmap (topt tr_val) (f_indexes f) ;;
  b <- lookup (f_name f) ;;
  let name := match b with
              | Some b => if publishable && b_pub b && negb (str_eqb (f_name f) (L "main"))
                          then nsprefix (mi_uniqid (en_mod env)) (f_name f) else f_name f
              | None => f_name f
              end in
  tret (mkCform (stars (f_hops f)) name ix).

(** src/translator.rs:1448-1457, 1265-1276: a checked loop condition. *)
Definition tr_cond (e : expr) : TR cexpr :=
  ' (t, v) <- tr_expr e ;;
  if is_booly t then tret v
  else terr (berr (pos_fmt (expression_pos e)) (ty_fmt t ++ L " used as condition")).

(** src/translator.rs:1428-1446 [tr_vardecl]. *)
Definition tr_vardecl (x : vardecl) : TR cstmt :=
  add_binding (f_name (v_form x)) (f_pos (v_form x)) false
              (typefrom_typename (v_type x) (v_form x)) ;;;
  t <- tr_typename (v_type x) ;;
  f <- tr_form (v_form x) false ;;
  v <- topt tr_val (v_value x) ;;
  tret (KVar t [f] [v]).

(** src/translator.rs:1237-1263: the first part of a for loop. *)
Definition tr_forinit (i : forinit) : TR cforinit :=
  match i with
  | FIExpr e => v <- tr_val e ;; tret (CFIExpr v)
  | FIDecl t f value =>
      add_binding (f_name f) (f_pos f) false (typefrom_typename t f) ;;;
      t' <- tr_typename t ;;
      f' <- tr_form f false ;;
      v <- tr_val value ;;
      tret (CFIDecl (mkCvar t' f' v))
  end.

(** src/translator.rs:1338-1343: a case value. *)
Definition tr_case_value (v : switch_value) : TR cswitch_value :=
  match v with
  | SVIdent x => ' (_, s) <- tr_nsid_in_expr x ;; tret (CSVIdent s)
  | SVLit l => tret (CSVLit (tr_literal l))
  end.

Definition case_value_expr (v : cswitch_value) : cexpr :=
  match v with CSVIdent s => CIdent s | CSVLit l => CLit l end.

(** src/translator.rs:1375-1402 [mk_switchstr_cond]. *)
Definition str_test (sv : cexpr) (v : cswitch_value) : cexpr :=
  mk_neg (mk_call_expr "strcmp" [case_value_expr v; sv]).
Definition mk_switchstr_cond (values : list switch_value) (sv : cexpr) : TR cexpr :=
  vs <- tmap tr_case_value values ;;
  match vs with
  | [] => tpanic "mk_switchstr_cond: index out of bounds"
  | v :: r => tret (fold_left (fun root x => mk_or root (str_test sv x)) r (str_test sv v))
  end.

(** src/translator.rs:1485-1511 [mk_panic]. *)
Definition mk_panic (pos_ : str) (args : list expr) : TR cstmt :=
  aa <- tmap tr_val args ;;
  tret (KBlock
    [ mk_call_st "fprintf" [mk_id "stderr"; mk_str (L "*** panic at %s ***\n");
                            mk_str (mi_filepath (en_mod env) ++ L ":" ++ pos_)];
      mk_call_st "fprintf" (mk_id "stderr" :: aa);
      mk_call_st "fprintf" [mk_id "stderr"; mk_str (L "\n")];
      mk_exit1 ]).

(** src/translator.rs:501-516: an expression statement. *)
Definition tr_expr_stmt (e : expr) : TR cstmt :=
  match e with
  | ECall _ f args =>
      if is_ident f (L "panic") then mk_panic (pos_fmt (expression_pos e)) args
      else v <- tr_val e ;; tret (KExpr v)
  | _ => v <- tr_val e ;; tret (KExpr v)
  end.

(** src/translator.rs:494-527 [tr_body], one statement at a time; 1233-1291
    [tr_for]; 1293-1306 [tr_if]; 1308-1317 [tr_return]; 1319-1359 [tr_switch],
    [mk_old_switch]; 1361-1373, 1404-1426 [mk_str_switch], [mk_switchstr_else];
    1448-1462 [tr_while]. *)
Fixpoint tr_stmt (s : stmt) : TR cstmt :=
  let tr_stmts := fix go (l : list stmt) : TR (list cstmt) :=
    match l with
    | [] => tret []
    | s :: r => x <- tr_stmt s ;; xs <- go r ;; tret (x :: xs)
    end in
  let tr_body := fun b : list stmt =>
    begin_scope ;;; l <- tr_stmts b ;; end_scope ;;; tret l in
  match s with
  | SBreak => tret KBreak
  | SContinue => tret KContinue
  | SExpr e => tr_expr_stmt e
  | SFor init cond action b =>
      begin_scope ;;;
      i <- topt tr_forinit init ;;
      c <- topt tr_cond cond ;;
      a <- topt tr_val action ;;
      b' <- tr_body b ;;
      end_scope ;;;
      tret (KFor i c a b')
  | SIf cond b eb =>
      eb' <- match eb with
             | Some x => x' <- tr_body x ;; tret (Some x')
             | None => tret None
             end ;;
      c <- tr_val cond ;;
      b' <- tr_body b ;;
      tret (KIf c b' eb')
  | SReturn e => v <- topt tr_val e ;; tret (KReturn v)
  | SSwitch false value cases def =>
      cs <- (fix go (l : list (list switch_value * list stmt))
               : TR (list (list cswitch_value * list cstmt)) :=
               match l with
               | [] => tret []
               | (vs, b) :: r =>
                   vs' <- tmap tr_case_value vs ;;
                   b' <- tr_body b ;;
                   r' <- go r ;;
                   tret ((vs', b') :: r')
               end) cases ;;
      v <- tr_val value ;;
      d <- match def with
           | Some x => x' <- tr_body x ;; tret (Some x')
           | None => tret None
           end ;;
      tret (KSwitch v cs d)
  | SSwitch true value cases def =>
      sv <- tr_val value ;;
      match cases with
      | [] => tpanic "mk_str_switch: index out of bounds"
      | (vs, b) :: r =>
          c <- mk_switchstr_cond vs sv ;;
          b' <- tr_body b ;;
          eb <- (fix go (l : list (list switch_value * list stmt)) : TR (option (list cstmt)) :=
                   match l with
                   | [] => match def with
                           | Some x => x' <- tr_body x ;; tret (Some x')
                           | None => tret None
                           end
                   | (vs, b) :: r =>
                       c <- mk_switchstr_cond vs sv ;;
                       b' <- tr_body b ;;
                       eb <- go r ;;
                       tret (Some [KIf c b' eb])
                   end) r ;;
          tret (KIf c b' eb)
      end
  | SVarDecl x => tr_vardecl x
  | SWhile cond b =>
      c <- tr_cond cond ;;
      b' <- tr_body b ;;
      tret (KWhile c b')
  end.

(** src/translator.rs:494-527 [tr_body]. *)
Fixpoint tr_stmts (l : list stmt) : TR (list cstmt) :=
  match l with
  | [] => tret []
  | s :: r => x <- tr_stmt s ;; xs <- tr_stmts r ;; tret (x :: xs)
  end.
Definition tr_body (b : body) : TR (list cstmt) :=
  begin_scope ;;; l <- tr_stmts b ;; end_scope ;;; tret l.

Definition pub_name (ispub : bool) (name : str) : str :=
  if ispub then nsprefix (mi_uniqid (en_mod env)) name else name.

(** src/translator.rs:529-548 [tr_struct_alias]. *)
Definition tr_struct_alias (x : struct_alias) : list celem :=
  [XTypedef (mkCtd (sa_pub x) (mkCtn false (L "struct " ++ sa_structname x))
     (mkCtdf [] None 0 (pub_name (sa_pub x) (sa_typename x))))].

(** src/translator.rs:550-581 [tr_typedef]. *)
Definition tr_typedef (x : typedef_) : TR (list celem) :=
  params <- topt (fun p => fs <- tmap tr_bare_typeform (ap_forms p) ;;
                           tret (mkCanon (ap_ellipsis p) fs)) (td_func_params x) ;;
  t <- tr_typename (td_type x) ;;
  tret [XTypedef (mkCtd (td_pub x) t
          (mkCtdf (stars (td_derefs x)) params (td_array_size x) (pub_name (td_pub x) (td_alias x))))].

(** src/translator.rs:708-718 [tr_union]. *)
Definition tr_union (x : union_) : TR cstruct_item :=
  f <- tr_form (u_form x) false ;;
  fs <- tmap (fun p => t <- tr_typename (fst p) ;; f <- tr_form (snd p) false ;; tret (t, f))
             (u_fields x) ;;
  tret (CSUnion f fs).

(** src/translator.rs:1018-1025 and 605-612: one type with several forms. *)
Definition tr_taf (x : type_and_forms) : TR (list ctypeform) :=
  tmap (fun f => t <- tr_typename (taf_type x) ;; f' <- tr_form f false ;; tret (mkCtf t f'))
       (taf_forms x).

(** src/translator.rs:583-639 [tr_struct_typedef]. *)
Definition tr_struct_entry (e : struct_entry) : TR (list cstruct_item) :=
  match e with
  | StPlain x => l <- tr_taf x ;; tret (map CSField l)
  | StUnion x => u <- tr_union x ;; tret [u]
  end.
Definition struct_cname (name : str) : str := L "__" ++ name ++ L "_struct".
Definition tr_struct_typedef (x : struct_typedef) : TR (list celem) :=
  let name := pub_name (st_pub x) (st_name x) in
  fs <- tmap tr_struct_entry (st_entries x) ;;
  tret [ XForwardStruct (struct_cname name);
         XStruct (mkCsd (struct_cname name) (List.concat fs) (st_pub x));
         XTypedef (mkCtd (st_pub x) (mkCtn false (L "struct " ++ struct_cname name))
                     (mkCtdf [] None 0 name)) ].

(** src/translator.rs:641-662 [tr_enum]. *)
Definition tr_enum (x : enum_) : TR (list celem) :=
  es <- tmap (fun e => v <- topt tr_val (en_val e) ;; tret (pub_name (enum_pub x) (en_name e), v))
             (enum_entries x) ;;
  tret [XEnum (mkCed (negb (enum_pub x)) es)].

(** src/translator.rs:675-682 [tr_modvar]. *)
Definition tr_modvar (x : vardecl) : TR (list celem) :=
  t <- tr_typename (v_type x) ;;
  f <- tr_form (v_form x) true ;;
  match v_value x with
  | None => tpanic "tr_modvar: unwrap"
  | Some e => v <- tr_val e ;; tret [XVar (mkCvar t f v)]
  end.

(** src/translator.rs:1014-1030 [tr_func_params]. *)
Definition tr_func_params (x : func_params) : TR cfunc_params :=
  l <- tmap tr_taf (fp_list x) ;; tret (mkCfp (List.concat l) (fp_ellipsis x)).

(** src/translator.rs:1036-1046: the parameters as bindings. *)
Fixpoint bind_forms (t : typename) (fs : list form) : TR unit :=
  match fs with
  | [] => tret tt
  | f :: r => add_binding (f_name f) (f_pos f) false (typefrom_typename t f) ;;; bind_forms t r
  end.
Fixpoint bind_params (l : list type_and_forms) : TR unit :=
  match l with
  | [] => tret tt
  | p :: r => bind_forms (taf_type p) (taf_forms p) ;;; bind_params r
  end.

(** src/translator.rs:1032-1079 [tr_func_decl]. *)
Definition tr_func_decl (x : funcdecl) : TR (list celem) :=
  let is_main := str_eqb (f_name (fd_form x)) (L "main") in
  begin_scope ;;;
  bind_params (fp_list (fd_params x)) ;;;
  b <- tr_body (fd_body x) ;;
  t <- tr_typename (fd_type x) ;;
  f <- tr_form (fd_form x) true ;;
  ps <- tr_func_params (fd_params x) ;;
  fw <- (if is_main then tret []
         else t2 <- tr_typename (fd_type x) ;;
              f2 <- tr_form (fd_form x) true ;;
              ps2 <- tr_func_params (fd_params x) ;;
              tret [XForwardFunc (mkCfwd (negb (fd_pub x)) t2 f2 ps2)]) ;;
  end_scope ;;;
  if (negb (is_void (fd_type x)) || Nat.eqb (f_hops (fd_form x)) 1) && negb (body_returns (fd_body x))
  then terr (berr (pos_fmt (fd_pos x)) (f_name (fd_form x) ++ L ": missing return"))
  else tret (XFunc (mkCfd (negb (fd_pub x)) t f ps b) :: fw).

(** src/translator.rs:460-470 [tr_mod_elem]. *)
Definition tr_mod_elem (e : modelem) : TR (list celem) :=
  match e with
  | MTypedef x => tr_typedef x
  | MStructAlias x => tret (tr_struct_alias x)
  | MStruct x => tr_struct_typedef x
  | MFunc x => tr_func_decl x
  | MEnum x => tr_enum x
  | MMacro x => tret (tr_macro x)
  | MVar x => tr_modvar x
  end.

(** src/translator.rs:237-253: the binding made by a #define. *)
Definition bind_define (x : macro_) : TR unit :=
  if str_eqb (m_name x) (L "type") then tret tt
  else if str_eqb (m_name x) (L "define") then
    match split_whitespace (trim (m_value x)) with
    | id :: v :: _ =>
        add_binding id (m_pos x) false (if is_numeric v then ty_number else ty_todo)
    | _ => tpanic "define: unwrap"
    end
  else tret tt.

(** src/translator.rs:235-295: module-level bindings. *)
Definition bind_elem (e : modelem) : TR unit :=
  match e with
  | MMacro x => bind_define x
  | MEnum x => tmap (fun en => add_binding (en_name en) (enum_pos x) (enum_pub x) ty_number)
                    (enum_entries x) ;;; tret tt
  | MStructAlias _ | MTypedef _ | MStruct _ => tret tt
  | MVar x => add_binding (f_name (v_form x)) (v_pos x) false
                          (typefrom_typename (v_type x) (v_form x))
  | MFunc x => add_binding (f_name (fd_form x)) (fd_pos x)
                           (fd_pub x || str_eqb (f_name (fd_form x)) (L "main"))
                           (typefrom_funcdecl x)
  end.

(** src/translator.rs:297-315: everything up to the unused import check. *)
Definition tr_elements (elems : list modelem) : TR (list celem) :=
  begin_scope ;;;
  tmap bind_elem elems ;;;
  b <- tmap tr_mod_elem elems ;;
  end_scope ;;;
  tret (List.concat b).

Definition check_imports (s : trst) : option build_error :=
  match find (fun imp => negb (str_in (r_ns imp) (s_ns s))) (mi_imports (en_mod env)) with
  | Some imp => Some (berr (L "1:1") (L "unused import: " ++ r_ns imp))
  | None => None
  end.

(** src/translator.rs:329-336: the standard headers. *)
Definition std_includes : list celem :=
  map (fun n => XInclude (L "<" ++ lit n ++ L ".h>"))
    ["assert"; "ctype"; "errno"; "limits"; "math"; "stdarg"; "stdbool"; "stddef"; "stdint";
     "stdio"; "stdlib"; "string"; "time"; "setjmp"; "signal"]%string.

(** src/translator.rs:321-345: the head before the imported declarations. *)
Definition module_head (s : trst) : list celem :=
  [XMacro (L "define") (L "_XOPEN_SOURCE 700")] ++ std_includes
  ++ (if str_in (L "calloc_or_panic") (s_customs s) then [mk_calloc_or_panic] else [])
  ++ [XMacro (L "define") (L "nelem(x) (sizeof (x)/sizeof (x)[0])")].

End Tr.

(** src/translator.rs:230-232, 259-279: the type maps. *)
Fixpoint struct_map (elems : list modelem) : list (str * struct_typedef) :=
  match elems with
  | [] => []
  | MStruct x :: r => struct_map r ++ [(st_name x, x)]
  | _ :: r => struct_map r
  end.
Fixpoint typedef_map (elems : list modelem) : list (str * tinfo) :=
  match elems with
  | [] => []
  | MStructAlias x :: r => typedef_map r ++ [(sa_typename x, mkTI (sa_pub x) ty_todo)]
  | MTypedef x :: r => typedef_map r ++ [(td_alias x, mkTI (td_pub x) (typefrom_typedef x))]
  | _ :: r => typedef_map r
  end.

(** src/translator.rs:208-220: libraries named by #link. *)
Definition link_macros (elems : list modelem) : list str :=
  flat_map (fun e => match e with
                     | MMacro x => if str_eqb (m_name x) (L "link") then [m_value x] else []
                     | _ => []
                     end) elems.

(** src/translator.rs:100-105 [TrParams]. *)
Record trparams := mkParams {
  tp_mod : modinfo; tp_heads : list modinfo; tp_cmods : list cmodule; tp_mods : list module_ }.

Definition env_of (m : module_) (p : trparams) : trenv :=
  mkEnv (tp_mod p) (tp_heads p) (tp_cmods p) (tp_mods p)
        (struct_map (mod_elements m)) (typedef_map (mod_elements m)).

Definition st0 : trst := mkSt [] [] [].

(** src/translator.rs:206-360 [translate]. *)
Definition translate (m : module_) (p : trparams) : tout cmodule :=
  let env := env_of m p in
  match tr_elements env (mod_elements m) st0 with
  | TrPanic w => TrPanic w
  | TrErr e => TrErr e
  | TrOk (body, s) =>
      match check_imports env s with
      | Some e => TrErr e
      | None =>
          match expand_imports env with
          | TrPanic w => TrPanic w
          | TrErr e => TrErr e
          | TrOk imported =>
              TrOk (mkCmod (reorder_elems (module_head s ++ imported ++ body))
                           (link_macros (mod_elements m)))
          end
      end
  end.
