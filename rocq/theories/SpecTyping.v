(** Typing rules and well-formedness of modules, as predicates on the source:
    no translation, no state. *)
From Verif Require Import Base Buf Nodes Types Cspec Resolve Preparser Parser SpecDecl SpecTypes SpecTarget.

Definition t_bool : ty := plain [] (L "bool") [].
Definition t_int : ty := plain [] (L "int") [].
Definition t_void : ty := plain [] (L "void") [].
Definition t_size : ty := plain [] (L "size_t") [].
Definition t_ptrdiff : ty := plain [] (L "ptrdiff_t") [].
Definition t_complit : ty := plain [] (L "::complit") [].

(** Sizes of the number types. *)
Definition bits (t : ty) (n : N) : Prop :=
  (one_of t ["int8_t"; "uint8_t"]%string /\ n = 8%N)
  \/ (one_of t ["int16_t"; "uint16_t"]%string /\ n = 16%N)
  \/ (one_of t ["int"; "int32_t"; "uint32_t"; "float"]%string /\ n = 32%N)
  \/ (one_of t ["int64_t"; "uint64_t"; "size_t"; "ptrdiff_t"; "double"]%string /\ n = 64%N).
(** The larger of two types, the second if they are equally large. *)
Definition wider (a b t : ty) : Prop :=
  exists m n, bits a m /\ bits b n /\ t = if N.ltb n m then a else b.

(** [a * b] has type [t]; likewise for [/ % << >> & | ^]. *)
Definition arith_type (a b t : ty) : Prop :=
  (unknown b /\ t = b)
  \/ (unknown a /\ ~ unknown b /\ t = a)
  \/ (both constant a b /\ t = a)
  \/ ((both floating a b \/ both integer a b) /\ wider a b t)
  \/ (integer a /\ floating b /\ t = b)
  \/ (floating a /\ integer b /\ t = a)
  \/ (constant a /\ number b /\ t = b)
  \/ (number a /\ constant b /\ t = a)
  \/ (either_way character constant a b /\ t = t_int).

(** [a + b] or [a - b] has type [t]. *)
Definition plus_type (op : string) (a b t : ty) : Prop :=
  (unknown a /\ t = a)
  \/ (unknown b /\ ~ unknown a /\ t = b)
  \/ (both constant a b /\ t = a)
  \/ ((both signed a b \/ both unsigned a b \/ both floating a b) /\ wider a b t)
  \/ (either_way constant number a b /\ t = b)
  \/ (op = "-"%string /\ both pointer a b /\ t = t_ptrdiff)
  \/ ((either_way pointer integer a b \/ either_way array integer a b
       \/ either_way pointer constant a b \/ either_way array constant a b) /\ t = a).

(** [a == b] has type [t]; likewise for the other comparisons.  (The type of a
    comparison of two bools is misspelt in the code.) *)
Definition cmp_type (a b t : ty) : Prop :=
  (both boolean a b /\ t = plain [] (L "boo") [])
  \/ (~ both boolean a b /\ comparable a b /\ t = t_bool).

Definition element_type (a t : ty) : Prop :=
  (unknown a /\ t = a)
  \/ (~ unknown a /\ ty_ops a = [] /\ t = unknown_type)
  \/ (exists r, (ty_ops a = TIndex :: r \/ ty_ops a = TDeref :: r) /\ t = Ty (ty_base a) r).
Definition target_type (a t : ty) : Prop :=
  (unknown a /\ t = a)
  \/ (exists r, ty_ops a = TDeref :: r /\ t = Ty (ty_base a) r).

Definition literal_type (l : literal) : ty :=
  match l with
  | LChar _ => plain [] (L "char") []
  | LString _ => plain [] (L "char") [TDeref]
  | LNumber _ => number_type
  | LNull => plain [] (L "null") []
  end.

(** [p] holds for all of the list. *)
Definition all {A} (p : A -> Prop) : list A -> Prop :=
  fix all l := match l with [] => True | a :: r => p a /\ all r end.
Definition all_opt {A} (p : A -> Prop) (o : option A) : Prop :=
  match o with Some a => p a | None => True end.

(** A parameter list ending in an ellipsis takes at least the others. *)
Definition ellipsis (t : ty) : Prop := ty_ops t = [] /\ base_fmt (ty_base t) = L "...".
Definition arity_ok (params : list ty) (nargs : nat) : Prop :=
  (exists fixed e, params = fixed ++ [e] /\ ellipsis e /\ List.length fixed <= nargs)
  \/ ((forall fixed e, params = fixed ++ [e] -> ~ ellipsis e) /\ nargs = List.length params).

Section Typing.
Variable S : site.

Definition type_known (t : typename) : Prop :=
  let n := tn_name t in
  ns_ns n = L "OS"
  \/ (ns_ns n = [] /\ type_status S (ns_name n) <> None)
  \/ (ns_ns n <> [] /\ ns_ns n <> L "OS"
      /\ exists h m, import S (ns_ns n) = Some (h, m) /\ exports_has (mod_exports m) (ns_name n) = true).

(** [n] used in an expression denotes something of type [t]. *)
Inductive name_typed (G : list decl) (n : nsname) : ty -> Prop :=
| N_os : ns_ns n = L "OS" -> name_typed G n unknown_type
| N_local d : ns_ns n = [] -> look (ns_name n) G = Some d -> name_typed G n (d_type d)
| N_library s : ns_ns n = [] -> look (ns_name n) G = None -> find_sym (ns_name n) = Some s ->
    name_typed G n (cs_t s)
| N_constant h m : ns_ns n <> [] -> ns_ns n <> L "OS" -> import S (ns_ns n) = Some (h, m) ->
    In (ns_name n) (map en_name (ex_consts (mod_exports m))) -> name_typed G n number_type
| N_function h m before f after : ns_ns n <> [] -> ns_ns n <> L "OS" -> import S (ns_ns n) = Some (h, m) ->
    ~ In (ns_name n) (map en_name (ex_consts (mod_exports m))) ->
    ex_fns (mod_exports m) = before ++ f :: after ->
    f_name (fd_form f) = ns_name n ->
    ~ In (ns_name n) (map (fun g => f_name (fd_form g)) before) ->
    name_typed G n (function_type f).

(** What a type stands for, one typedef resolved; foreign types are opaque. *)
Definition root (t : ty) : ty :=
  if str_eqb (ns_ns (ty_base t)) [] then
    if has_type (ns_name (ty_base t)) then t
    else match typedef_named (elements S) (ns_name (ty_base t)) with
         | Some (_, d) => Ty (ty_base d) (ty_ops t ++ ty_ops d)
         | None => t
         end
  else unknown_type.

(** Calling a [t] with [nargs] arguments gives an [r]: a function of the right
    arity, or the name of one (or of a pointer to one). *)
Inductive callable : ty -> nat -> ty -> Prop :=
| Call_unknown t nargs : unknown t -> callable t nargs unknown_type
| Call_function b params r nargs : arity_ok params nargs ->
    callable (Ty b (TCall params :: r)) nargs (Ty b r)
| Call_alias t p d nargs r : ~ unknown t -> ty_ops t = [] \/ ty_ops t = [TDeref] -> ns_ns (ty_base t) = [] ->
    typedef_named (elements S) (ns_name (ty_base t)) = Some (p, d) ->
    callable d nargs r -> callable t nargs r.

(** The fields of a struct up to the first union in it. *)
Fixpoint fields_of (es : list struct_entry) : list (str * ty) :=
  match es with
  | StPlain x :: r => map (fun f => (f_name f, declared_type (taf_type x) f)) (taf_forms x) ++ fields_of r
  | _ => []
  end.
Definition field_of (t : ty) (f : str) : ty :=
  match (if str_eqb (ns_ns (ty_base t)) [] then struct_named (elements S) (ns_name (ty_base t)) else None) with
  | Some s => match find (fun p => str_eqb (fst p) f) (fields_of (st_entries s)) with
              | Some (_, t) => t
              | None => unknown_type
              end
  | None => unknown_type
  end.
Definition field_type (t : ty) (f : str) (r : ty) : Prop :=
  (unknown t /\ r = unknown_type) \/ (~ unknown t /\ r = field_of t f).

Definition address_of (t : ty) : ty := plain (ns_ns (ty_base t)) (ns_name (ty_base t)) (ty_ops t ++ [TDeref]).

Definition binary_type (op : string) (a b t : ty) : Prop :=
  (In op ["||"; "&&"]%string /\ booly a /\ booly b /\ t = t_bool)
  \/ (In op ["=="; "<"; ">"; "!="; ">="; "<="]%string /\ cmp_type (root a) (root b) t)
  \/ (In op ["-"; "+"]%string /\ plus_type op (root a) (root b) t)
  \/ (In op ["*"; "/"; "%"; "<<"; ">>"; "&"; "|"; "^"]%string /\ arith_type (root a) (root b) t)
  \/ (In op ["="; "+="; "-="; "/="; "*="; "|="; "%="; "&="; "^="]%string /\ t = t_void).
Definition prefix_type (op : string) (a t : ty) : Prop :=
  (In op ["++"; "--"; "-"; "~"]%string /\ t = a)
  \/ (op = "!"%string /\ t = t_bool)
  \/ (op = "&"%string /\ t = address_of a)
  \/ (op = "*"%string /\ target_type a t).

(** The designator of a field in a composite literal. *)
Definition designator (k : expr) : Prop :=
  match k with EName n => ns_ns n = [] | _ => False end.

Fixpoint typed (G : list decl) (e : expr) (t : ty) : Prop :=
  match e with
  | ELit l => t = literal_type l
  | EName n => name_typed G n t
  | EArrIndex a i => exists ta ti, typed G a ta /\ typed G i ti /\ element_type ta t
  | EBinary _ op a b => exists ta tb, typed G a ta /\ typed G b tb /\ binary_type op ta tb t
  | EField _ _ x f => exists tx, typed G x tx /\ field_type tx f t
  | EComp es =>
      all (fun x => all_opt designator (snd (fst x)) /\ exists tx, typed G (snd x) tx) es /\ t = t_complit
  | EPrefix _ op x => exists tx, typed G x tx /\ prefix_type op tx t
  | EPostfix op x => typed G x t /\ In op ["++"; "--"]%string
  | ECast b x => (exists tx, typed G x tx) /\ type_known (btf_type b) /\ t = bare_type b
  | ECall p f args =>
      all (fun a => exists ta, typed G a ta) args
      /\ exists tf, (if is_name f "calloc!" then name_typed G (mkNs p [] (L "calloc_or_panic")) tf
                     else typed G f tf)
                    /\ callable tf (List.length args) t
  | ESizeofE x => (exists tx, typed G x tx) /\ t = t_size
  | ESizeofT b => type_known (btf_type b) /\ t = t_size
  end.

Definition ok_value (G : list decl) (e : expr) : Prop := exists t, typed G e t.
(** A loop condition. *)
Definition ok_cond (G : list decl) (e : expr) : Prop := exists t, typed G e t /\ booly t.
(** The array sizes of a declarator. *)
Definition ok_form (G : list decl) (f : form) : Prop := all (all_opt (ok_value G)) (f_indexes f).
Definition ok_case (G : list decl) (v : switch_value) : Prop :=
  match v with SVIdent n => exists t, name_typed G n t | SVLit _ => True end.
Definition ok_init (G : list decl) (i : forinit) : Prop :=
  match i with
  | FIExpr e => ok_value G e
  | FIDecl t f e => type_known t /\ ok_form G f /\ ok_value G e
  end.

Fixpoint ok_stmt (G : list decl) (s : stmt) : Prop :=
  let ok_stmts := fix ok_stmts (G : list decl) (l : list stmt) : Prop :=
    match l with
    | [] => True
    | s :: r => ok_stmt G s /\ ok_stmts (declares s ++ G) r
    end in
  match s with
  | SBreak | SContinue => True
  | SExpr (ECall _ f args as e) =>
      if is_name f "panic" then all (ok_value G) args else ok_value G e
  | SExpr e => ok_value G e
  | SVarDecl v =>
      let G := declares s ++ G in
      type_known (v_type v) /\ ok_form G (v_form v) /\ all_opt (ok_value G) (v_value v)
  | SIf c b e => ok_value G c /\ ok_stmts G b /\ all_opt (ok_stmts G) e
  | SFor i c a b =>
      let G := init_declares i ++ G in
      all_opt (ok_init G) i /\ all_opt (ok_cond G) c /\ all_opt (ok_value G) a /\ ok_stmts G b
  | SWhile c b => ok_cond G c /\ ok_stmts G b
  | SReturn e => all_opt (ok_value G) e
  | SSwitch is_str v cases def =>
      ok_value G v
      /\ all (fun c => all (ok_case G) (fst c) /\ ok_stmts G (snd c)
                       /\ (is_str = true -> fst c <> [])) cases
      /\ all_opt (ok_stmts G) def
      /\ (is_str = true -> cases <> [])
  end.
Fixpoint ok_stmts (G : list decl) (l : list stmt) : Prop :=
  match l with
  | [] => True
  | s :: r => ok_stmt G s /\ ok_stmts (declares s ++ G) r
  end.

(** The syntactic check that a body ends in a return: its last statement is a
    return, a panic, an if whose body does (whatever the else part), a while
    that is endless or whose body does, a switch with a default all of whose
    parts do. *)
Inductive closes : list stmt -> Prop :=
| Closes before s : closing s -> closes (before ++ [s])
with closing : stmt -> Prop :=
| Closing_return e : closing (SReturn e)
| Closing_panic p f args : is_name f "panic" = true -> closing (SExpr (ECall p f args))
| Closing_if c b e : closes b -> closing (SIf c b e)
| Closing_forever c b : is_name c "true" = true -> closing (SWhile c b)
| Closing_while c b : closes b -> closing (SWhile c b)
| Closing_switch is_str v cases def : (forall c, In c cases -> closes (snd c)) -> closes def ->
    closing (SSwitch is_str v cases (Some def)).

Definition ok_fields (G : list decl) (t : type_and_forms) : Prop :=
  all (fun f => type_known (taf_type t) /\ ok_form G f) (taf_forms t).
Definition ok_struct_entry (G : list decl) (e : struct_entry) : Prop :=
  match e with
  | StPlain x => ok_fields G x
  | StUnion u => ok_form G (u_form u)
                 /\ all (fun p => type_known (fst p) /\ ok_form G (snd p)) (u_fields u)
  end.
Definition ok_elem (G : list decl) (e : modelem) : Prop :=
  match e with
  | MMacro m => m_name m = L "define" ->
      exists id v r, split_whitespace (trim (m_value m)) = id :: v :: r
  | MEnum x => all (fun en => all_opt (ok_value G) (en_val en)) (enum_entries x)
  | MStructAlias _ => True
  | MTypedef t => all_opt (fun p => all (fun b => type_known (btf_type b)) (ap_forms p)) (td_func_params t)
                  /\ type_known (td_type t)
  | MStruct s => all (ok_struct_entry G) (st_entries s)
  | MVar v => type_known (v_type v) /\ ok_form G (v_form v) /\ exists e, v_value v = Some e /\ ok_value G e
  | MFunc f =>
      let G := param_decls (fd_params f) ++ G in
      type_known (fd_type f) /\ ok_form G (fd_form f) /\ all (ok_fields G) (fp_list (fd_params f))
      /\ ok_stmts G (fd_body f)
      /\ (is_void (fd_type f) = false \/ f_hops (fd_form f) = 1 -> closes (fd_body f))
  end.

(** All names and types of the module are in order. *)
Definition ok_elems (numeric : str -> bool) : Prop :=
  all (ok_elem (module_decls numeric (elements S))) (elements S).

End Typing.
