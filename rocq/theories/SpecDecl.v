(** Declarations and what surrounds a module: the vocabulary shared by the
    specifications of the generated code (SpecTarget.v) and of the typing rules
    (SpecTyping.v). *)
From Verif Require Import Base Buf Nodes Types Cspec Resolve Preparser.

(** The type a declarator gives its name: arrays of pointers to the base. *)
Definition plain (ns name : str) (ops : list tyop) : ty := Ty (mkNs (mkPos 0 0) ns name) ops.
Definition declared_type (t : typename) (f : form) : ty :=
  plain (ns_ns (tn_name t)) (ns_name (tn_name t))
        (map (fun _ => TIndex) (f_indexes f) ++ repeat TDeref (f_hops f)).
Definition bare_type (t : bare_typeform) : ty :=
  plain (ns_ns (tn_name (btf_type t))) (ns_name (tn_name (btf_type t))) (repeat TDeref (btf_hops t)).
Definition variadic_mark : ty := plain [] (L "...") [].
Definition param_types (p : func_params) : list ty :=
  flat_map (fun t => map (declared_type (taf_type t)) (taf_forms t)) (fp_list p)
  ++ (if fp_ellipsis p then [variadic_mark] else []).
(** The type of a function: a call of it gives the declared type. *)
Definition function_type (f : funcdecl) : ty :=
  let r := declared_type (fd_type f) (fd_form f) in
  Ty (ty_base r) (TCall (param_types (fd_params f)) :: ty_ops r).
(** What a typedef name stands for. *)
Definition typedef_type (t : typedef_) : ty :=
  plain (ns_ns (tn_name (td_type t))) (ns_name (tn_name (td_type t)))
    (match td_func_params t with
     | Some p => [TCall (map bare_type (ap_forms p) ++ if ap_ellipsis p then [variadic_mark] else [])]
     | None => []
     end
     ++ (if N.ltb 0 (td_array_size t) then [TIndex] else [])
     ++ repeat TDeref (td_derefs t)).

Definition number_type : ty := plain [] (L "number") [].
Definition unknown_type : ty := plain [] (L "*** TODO *** ") [].

(** A declaration in force at some place; lists of them have the nearest first. *)
Record decl := mkDecl { d_name : str; d_pub : bool; d_type : ty }.
Definition look (x : str) (G : list decl) : option decl :=
  find (fun d => str_eqb (d_name d) x) G.
Definition local (t : typename) (f : form) : decl := mkDecl (f_name f) false (declared_type t f).
Definition param_decls (p : func_params) : list decl :=
  rev (flat_map (fun t => map (local (taf_type t)) (taf_forms t)) (fp_list p)).

(** What a statement declares for those that follow it. *)
Definition declares (s : stmt) : list decl :=
  match s with SVarDecl v => [local (v_type v) (v_form v)] | _ => [] end.
Definition init_declares (i : option forinit) : list decl :=
  match i with Some (FIDecl t f _) => [local t f] | _ => [] end.

(** What the elements of a module declare, for all of them to see.  [numeric]
    tells which macro values are numbers. *)
Definition elem_decls (numeric : str -> bool) (e : modelem) : list decl :=
  match e with
  | MMacro m =>
      if str_eqb (m_name m) (L "define")
      then match split_whitespace (trim (m_value m)) with
           | id :: v :: _ => [mkDecl id false (if numeric v then number_type else unknown_type)]
           | _ => []
           end
      else []
  | MEnum x => map (fun e => mkDecl (en_name e) (enum_pub x) number_type) (enum_entries x)
  | MVar v => [local (v_type v) (v_form v)]
  | MFunc f => [mkDecl (f_name (fd_form f)) (fd_pub f || str_eqb (f_name (fd_form f)) (L "main"))
                       (function_type f)]
  | MStructAlias _ | MTypedef _ | MStruct _ => []
  end.
Definition module_decls (numeric : str -> bool) (elems : list modelem) : list decl :=
  rev (flat_map (elem_decls numeric) elems).

(** The module an import clause leads to: its header and its contents. *)
Definition imported (own : modinfo) (heads : list modinfo) (mods : list module_) (q : str)
  : option (modinfo * module_) :=
  match find (fun i => str_eqb (r_ns i) q) (mi_imports own) with
  | Some i => find (fun hm => str_eqb (mi_filepath (fst hm)) (r_path i)) (combine heads mods)
  | None => None
  end.

(** The last value of [f] along a list. *)
Fixpoint last_of {A B} (f : A -> option B) (l : list A) : option B :=
  match l with
  | [] => None
  | a :: r => match last_of f r with Some b => Some b | None => f a end
  end.
(** The struct and the typedef of a name; should a name be declared again the
    last declaration counts. *)
Definition struct_named (elems : list modelem) (x : str) : option struct_typedef :=
  last_of (fun e => match e with
                    | MStruct s => if str_eqb (st_name s) x then Some s else None
                    | _ => None
                    end) elems.
Definition typedef_named (elems : list modelem) (x : str) : option (bool * ty) :=
  last_of (fun e => match e with
                    | MTypedef t => if str_eqb (td_alias t) x then Some (td_pub t, typedef_type t) else None
                    | MStructAlias a => if str_eqb (sa_typename a) x then Some (sa_pub a, unknown_type) else None
                    | _ => None
                    end) elems.

(** What the names in a module depend on. *)
Record site := mkSite {
  own : modinfo;                               (* this module *)
  elements : list modelem;                     (* what it contains *)
  import : str -> option (modinfo * module_)   (* the module behind a namespace *)
}.
Definition import_id (S : site) (q : str) : str :=
  match import S q with Some (h, _) => mi_uniqid h | None => [] end.
(** Is this unqualified type name one of a pub type of this module?  C types
    come first, structs before typedefs. *)
Definition type_status (S : site) (x : str) : option bool :=
  if has_type x then Some false
  else match struct_named (elements S) x with
       | Some s => Some (st_pub s)
       | None => match typedef_named (elements S) x with
                 | Some (p, _) => Some p
                 | None => if str_in x (mi_typedefs (own S)) then Some false else None
                 end
       end.
