(** Model of src/c.rs: the syntax tree of the generated C code. *)
From Verif Require Import Base.

(** src/c.rs:253-256 [Typename]. *)
Record ctypename := mkCtn { ctn_const : bool; ctn_name : str }.

(** src/c.rs:233-236 [BareTypeform]. *)
Record cbare_typeform := mkCbtf { cbtf_type : ctypename; cbtf_hops : nat }.

(** src/c.rs:245-250 [CLiteral]. *)
Inductive cliteral := CLChar (s : str) | CLString (s : str) | CLNumber (s : str) | CLNull.

(** src/c.rs:96-149, 165-168 [Expr] and its payloads; sizeof is two constructors
    and a composite literal entry is (is_index, key, val). *)
Inductive cexpr :=
| CLit (l : cliteral)
| CComp (entries : list (bool * option cexpr * cexpr))
| CIdent (s : str)
| CBin (op : string) (a b : cexpr)
| CField (op : string) (target : cexpr) (field_name : str)
| CPrefix (operator : string) (operand : cexpr)
| CPostfix (operator : string) (operand : cexpr)
| CCast (type_name : cbare_typeform) (operand : cexpr)
| CCall (func : cexpr) (args : list cexpr)
| CSizeofT (arg : cbare_typeform)
| CSizeofE (arg : cexpr)
| CIndex (array index : cexpr).

(** src/c.rs:158-162 [Form]; [stars] is a string of "*", kept as is. *)
Record cform := mkCform { cf_stars : str; cf_name : str; cf_indexes : list (option cexpr) }.

(** src/c.rs:39-43 [VarDecl]. *)
Record cvardecl := mkCvar { cv_type : ctypename; cv_form : cform; cv_value : cexpr }.

(** src/c.rs:152-155 [ForInit]. *)
Inductive cforinit := CFIExpr (e : cexpr) | CFIDecl (v : cvardecl).

(** src/c.rs:239-242 [CSwitchCaseValue]. *)
Inductive cswitch_value := CSVIdent (s : str) | CSVLit (l : cliteral).

(** src/c.rs:171-216 [Statement], [Switch], [CSwitchCase]; a [CBody] is the list
    of its statements. *)
Inductive cstmt :=
| KBlock (statements : list cstmt)
| KBreak
| KContinue
| KVar (t : ctypename) (forms : list cform) (values : list (option cexpr))
| KIf (condition : cexpr) (body : list cstmt) (else_body : option (list cstmt))
| KFor (init : option cforinit) (condition action : option cexpr) (body : list cstmt)
| KWhile (cond : cexpr) (body : list cstmt)
| KReturn (e : option cexpr)
| KSwitch (value : cexpr) (cases : list (list cswitch_value * list cstmt))
          (default : option (list cstmt))
| KExpr (e : cexpr).

(** src/c.rs:259-262 [CTypeForm]. *)
Record ctypeform := mkCtf { ctf_type : ctypename; ctf_form : cform }.

(** src/c.rs:85-88 [FuncParams]. *)
Record cfunc_params := mkCfp { cfp_list : list ctypeform; cfp_variadic : bool }.

(** src/c.rs:227-230 [CAnonymousParameters]. *)
Record canon_params := mkCanon { cap_ellipsis : bool; cap_forms : list cbare_typeform }.

(** src/c.rs:219-224 [TypedefForm]. *)
Record ctypedef_form := mkCtdf {
  ctdf_stars : str; ctdf_params : option canon_params; ctdf_size : N; ctdf_alias : str }.

(** src/c.rs:31-35 [Typedef]. *)
Record ctypedef := mkCtd { ctd_pub : bool; ctd_type : ctypename; ctd_form : ctypedef_form }.

(** src/c.rs:265-280 [CStructItem], [CUnion], [CUnionField]. *)
Inductive cstruct_item :=
| CSField (x : ctypeform)
| CSUnion (f : cform) (fields : list (ctypename * cform)).

(** src/c.rs:46-50 [StructDef]. *)
Record cstructdef := mkCsd { csd_name : str; csd_fields : list cstruct_item; csd_pub : bool }.

(** src/c.rs:18-27 [EnumDef], [EnumEntry]. *)
Record cenumdef := mkCed { ced_hidden : bool; ced_entries : list (str * option cexpr) }.

(** src/c.rs:54-59 [ForwardFunc]. *)
Record cforward := mkCfwd {
  cfw_static : bool; cfw_type : ctypename; cfw_form : cform; cfw_params : cfunc_params }.

(** src/c.rs:63-69 [FuncDef]. *)
Record cfuncdef := mkCfd {
  cfd_static : bool; cfd_type : ctypename; cfd_form : cform; cfd_params : cfunc_params;
  cfd_body : list cstmt }.

(** src/c.rs:72-82 [ModElem]. *)
Inductive celem :=
| XInclude (s : str)
| XMacro (name value : str)
| XForwardStruct (s : str)
| XForwardFunc (f : cforward)
| XEnum (e : cenumdef)
| XTypedef (t : ctypedef)
| XStruct (s : cstructdef)
| XVar (v : cvardecl)
| XFunc (f : cfuncdef).

(** src/c.rs:2-6 [CModule]. *)
Record cmodule := mkCmod { cm_elements : list celem; cm_link : list str }.
