(** Model of src/nodes.rs: the syntax tree.  Struct types with a single use are
    flattened into constructor arguments, in the order of the Rust fields
    unless a comment says otherwise; [Body] is a list of statements. *)
From Verif Require Import Base Buf.

(** src/nodes.rs:147-151 [NsName]. *)
Record nsname := mkNs { ns_pos : pos; ns_ns : str; ns_name : str }.

(** src/nodes.rs:140-143 [Typename]. *)
Record typename := mkTn { tn_const : bool; tn_name : nsname }.

(** src/nodes.rs:287-290 [BareTypeform]. *)
Record bare_typeform := mkBtf { btf_type : typename; btf_hops : nat }.

(** src/nodes.rs:309-314 [Literal]. *)
Inductive literal :=
| LChar (s : str) | LString (s : str) | LNumber (s : str) | LNull.

(** src/nodes.rs:51-63 [Expr] with the payload structs of lines 153-226.
    [Sizeof] with its two kinds of argument is two constructors; a composite
    literal entry is (is_index, key, value). *)
Inductive expr :=
| EArrIndex (array index : expr)
| EBinary (p : pos) (op : string) (a b : expr)
| EField (p : pos) (op : string) (target : expr) (field_name : str)
| ECast (typeform : bare_typeform) (operand : expr)
| EComp (entries : list (bool * option expr * expr))
| ECall (p : pos) (func : expr) (args : list expr)
| ELit (l : literal)
| EName (n : nsname)
| EPostfix (operator : string) (operand : expr)
| EPrefix (p : pos) (operator : string) (operand : expr)
| ESizeofT (arg : bare_typeform)
| ESizeofE (arg : expr).

(** src/nodes.rs:279-284 [Form]. *)
Record form := mkForm { f_pos : pos; f_name : str; f_hops : nat; f_indexes : list (option expr) }.

(** src/nodes.rs:236-241 [VarDecl]. *)
Record vardecl := mkVar { v_pos : pos; v_type : typename; v_form : form; v_value : option expr }.

(** src/nodes.rs:293-300 [ForInit]. *)
Inductive forinit :=
| FIExpr (e : expr)
| FIDecl (t : typename) (f : form) (value : expr).

(** src/nodes.rs:303-306 [SwitchCaseValue]. *)
Inductive switch_value :=
| SVIdent (n : nsname)
| SVLit (l : literal).

(** src/nodes.rs:37-47 [Statement] with lines 229-275, 317-320. *)
Inductive stmt :=
| SBreak
| SContinue
| SVarDecl (v : vardecl)
| SIf (condition : expr) (body : list stmt) (else_body : option (list stmt))
| SFor (init : option forinit) (condition action : option expr) (body : list stmt)
| SWhile (cond : expr) (body : list stmt)
| SReturn (expression : option expr)
| SSwitch (is_str : bool) (value : expr) (cases : list (list switch_value * list stmt))
          (default_case : option (list stmt))
| SExpr (e : expr).

Definition body := list stmt.

(** src/nodes.rs:329-333 [TypeAndForms]. *)
Record type_and_forms := mkTaf { taf_type : typename; taf_forms : list form }.

(** src/nodes.rs:323-326 [FuncParams]. *)
Record func_params := mkFp { fp_list : list type_and_forms; fp_ellipsis : bool }.

(** src/nodes.rs:98-105 [FuncDecl]. *)
Record funcdecl := mkFunc {
  fd_pos : pos; fd_pub : bool; fd_type : typename; fd_form : form;
  fd_params : func_params; fd_body : body }.

(** src/nodes.rs:348-351 [AnonymousParameters]. *)
Record anon_params := mkAnon { ap_ellipsis : bool; ap_forms : list bare_typeform }.

(** src/nodes.rs:108-115 [Typedef]. *)
Record typedef_ := mkTypedef {
  td_pub : bool; td_alias : str; td_type : typename; td_derefs : nat;
  td_array_size : N; td_func_params : option anon_params }.

(** src/nodes.rs:336-345 [Union], [UnionField]. *)
Record union_ := mkUnion { u_form : form; u_fields : list (typename * form) }.

(** src/nodes.rs:126-129 [StructEntry]. *)
Inductive struct_entry :=
| StPlain (x : type_and_forms)
| StUnion (x : union_).

(** src/nodes.rs:119-123 [StructTypedef]. *)
Record struct_typedef := mkStruct { st_pub : bool; st_entries : list struct_entry; st_name : str }.

(** src/nodes.rs:90-94 [EnumEntry]. *)
Record enum_entry := mkEntry { en_name : str; en_val : option expr }.

(** src/nodes.rs:83-87 [Enum]. *)
Record enum_ := mkEnum { enum_pub : bool; enum_entries : list enum_entry; enum_pos : pos }.

(** src/nodes.rs:75-79 [Macro]. *)
Record macro_ := mkMacro { m_name : str; m_value : str; m_pos : pos }.

(** src/nodes.rs:68-72 [StructAlias]. *)
Record struct_alias := mkAlias { sa_pub : bool; sa_structname : str; sa_typename : str }.

(** src/nodes.rs:25-33 [ModElem]. *)
Inductive modelem :=
| MMacro (m : macro_)
| MEnum (e : enum_)
| MStructAlias (s : struct_alias)
| MTypedef (t : typedef_)
| MStruct (s : struct_typedef)
| MVar (v : vardecl)
| MFunc (f : funcdecl).

(** src/nodes.rs:10-15 [Exports]. *)
Record exports := mkExports {
  ex_consts : list enum_entry; ex_fns : list funcdecl;
  ex_types : list str; ex_structs : list struct_typedef }.

(** src/nodes.rs:4-7 [Module]. *)
Record module_ := mkModule { mod_elements : list modelem; mod_exports : exports }.

(** src/nodes.rs:17-21 [exports_has]. *)
Definition exports_has (e : exports) (name : str) : bool :=
  existsb (fun x => str_eqb (en_name x) name) (ex_consts e)
  || existsb (fun x => str_eqb (f_name (fd_form x)) name) (ex_fns e)
  || existsb (fun x => str_eqb x name) (ex_types e).

(** src/nodes.rs:353-360 [is_op]. *)
Definition node_is_op (e : expr) : option string :=
  match e with
  | EBinary _ op _ _ => Some op
  | EPostfix _ _ => Some "prefix"%string
  | EPrefix _ _ _ => Some "prefix"%string
  | _ => None
  end.

(** src/nodes.rs:362-367 [is_binary_op]. *)
Definition is_binary_op (e : expr) : option string :=
  match e with EBinary _ op _ _ => Some op | _ => None end.

(** src/nodes.rs:370-375 [is_ident]. *)
Definition is_ident (e : expr) (name : str) : bool :=
  match e with
  | EName n => str_eqb (ns_ns n) [] && str_eqb (ns_name n) name
  | _ => false
  end.

(** src/nodes.rs:377-379 [is_void]. *)
Definition is_void (t : typename) : bool :=
  str_eqb (ns_ns (tn_name t)) [] && str_eqb (ns_name (tn_name t)) (L "void").

(** src/errors.rs:9-12 [Error]. *)
Record error := mkErr { e_msg : str; e_pos : pos }.

(** src/errors.rs:3-7 [BuildError]. *)
Record build_error := mkBerr { be_path : str; be_pos : str; be_msg : str }.
