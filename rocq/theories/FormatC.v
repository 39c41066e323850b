(** Model of src/format_c.rs: printing of the C syntax tree.

    As in FormatChe.v an operator outside the strength table counts as strength
    0 where the code would panic; the operators of the parser, and those that the
    translator adds, are in the table. *)
From Verif Require Import Base CAst FormatChe.

(** src/format_c.rs:107-109 [format_type]. *)
Definition format_type (t : ctypename) : str :=
  (if ctn_const t then L "const " else []) ++ ctn_name t.

(** src/format_c.rs:235-237 [fmt_bare_typeform]. *)
Definition fmt_bare_typeform (t : cbare_typeform) : str :=
  format_type (cbtf_type t) ++ stars (cbtf_hops t).

Definition dq : str := [34%N].
Definition nl : str := [10%N].
Definition tab : str := [9%N].

(** src/format_c.rs:364-377 [format_literal]. *)
Definition format_literal (l : cliteral) : str :=
  match l with
  | CLChar v => L "'" ++ v ++ L "'"
  | CLString v =>
      join (dq ++ L "\n" ++ dq ++ nl)
           (map (fun line => dq ++ line ++ dq) (split_char 10%N v))
  | CLNumber v => v
  | CLNull => L "NULL"
  end.

(** src/format_c.rs:246-253 [is_op]. *)
Definition c_is_op (e : cexpr) : option string :=
  match e with
  | CBin op _ _ => Some op
  | CPostfix _ _ => Some "prefix"%string
  | CPrefix _ _ => Some "prefix"%string
  | _ => None
  end.

(** src/format_c.rs:239-244 [is_binary_op]. *)
Definition c_is_binary_op (e : cexpr) : option string :=
  match e with CBin op _ _ => Some op | _ => None end.

Definition paren (s : str) : str := L "(" ++ s ++ L ")".

(** src/format_c.rs:257-271: one side of a binary operator. *)
Definition fmt_side (op : string) (x : cexpr) (s : str) : str :=
  match c_is_op x with
  | Some k =>
      if Nat.ltb (strength k) (strength op)
         || String.eqb op "&" || String.eqb op ">>" || String.eqb op "<<"
      then paren s else s
  | None => s
  end.

(** src/format_c.rs:124-233, 255-273 [fmt_expr], [format_binary_op]. *)
Fixpoint fmt_expr (e : cexpr) : str :=
  match e with
  | CCast t x => paren (fmt_bare_typeform t) ++ paren (fmt_expr x)
  | CCall f args =>
      fmt_expr f ++ L "(" ++
      join (L ", ") ((fix go (l : list cexpr) : list str :=
                        match l with [] => [] | a :: r => fmt_expr a :: go r end) args)
      ++ L ")"
  | CLit l => format_literal l
  | CIdent s => s
  | CComp [] => L "{0}"
  | CComp entries =>
      L "{" ++ nl ++
      join (L "," ++ nl)
        ((fix go (l : list (bool * option cexpr * cexpr)) : list str :=
            match l with
            | [] => []
            | (is_index, key, v) :: r =>
                (tab ++
                 match key with
                 | Some k => if is_index : bool
                             then L "[" ++ fmt_expr k ++ L "] = " ++ fmt_expr v
                             else L "." ++ fmt_expr k ++ L " = " ++ fmt_expr v
                 | None => fmt_expr v
                 end) :: go r
            end) entries)
      ++ nl ++ L "}"
  | CSizeofT t => L "sizeof(" ++ fmt_bare_typeform t ++ L ")"
  | CSizeofE x => L "sizeof(" ++ fmt_expr x ++ L ")"
  | CField op t f =>
      match c_is_op t with
      | Some k => if Nat.ltb (strength k) (strength op)
                  then paren (fmt_expr t) ++ lit op ++ f
                  else fmt_expr t ++ lit op ++ f
      | None => fmt_expr t ++ lit op ++ f
      end
  | CBin op a b => fmt_side op a (fmt_expr a) ++ L " " ++ lit op ++ L " " ++ fmt_side op b (fmt_expr b)
  | CPrefix op x =>
      match c_is_binary_op x with
      | Some k => if Nat.ltb (strength k) (strength "prefix")
                  then lit op ++ paren (fmt_expr x)
                  else lit op ++ fmt_expr x
      | None => lit op ++ fmt_expr x
      end
  | CPostfix op x => fmt_expr x ++ lit op
  | CIndex a i => fmt_expr a ++ L "[" ++ fmt_expr i ++ L "]"
  end.

(** src/format_c.rs:111-122 [format_form]. *)
Definition format_form (f : cform) : str :=
  cf_stars f ++ cf_name f ++
  flat_map (fun i => match i with Some e => L "[" ++ fmt_expr e ++ L "]" | None => L "[]" end)
           (cf_indexes f).

(** src/format_c.rs:71-89 [fmt_func_params]. *)
Definition fmt_func_params (p : cfunc_params) : str :=
  L "(" ++ join (L ", ") (map (fun x => format_type (ctf_type x) ++ L " " ++ format_form (ctf_form x))
                              (cfp_list p))
  ++ (if cfp_variadic p then L ", ..." else [])
  ++ (match cfp_list p with [] => L "void" | _ => [] end) ++ L ")".

(** src/format_c.rs:492-509 [fmt_anon_params]. *)
Definition fmt_anon_params (p : canon_params) : str :=
  match cap_forms p with
  | [] => L "(void)"
  | forms => L "(" ++ join (L ", ") (map fmt_bare_typeform forms)
             ++ (if cap_ellipsis p then L ", ..." else []) ++ L ")"
  end.

(** src/format_c.rs:478-490 [format_typedef]. *)
Definition format_typedef (x : ctypedef) : str :=
  let f := ctd_form x in
  L "typedef " ++ format_type (ctd_type x) ++ L " " ++
  ctdf_stars f ++ ctdf_alias f ++
  (match ctdf_params f with Some p => fmt_anon_params p | None => [] end) ++
  (if N.ltb 0 (ctdf_size f) then L "[" ++ dec (ctdf_size f) ++ L "]" else []) ++
  L ";" ++ nl.

(** src/format_c.rs:275-280 [indent]: trailing newlines are kept as they are. *)
Fixpoint count_nl (s : str) : nat :=
  match s with 10%N :: r => S (count_nl r) | _ => 0 end.
Definition indent (text : str) : str :=
  let k := count_nl (rev text) in
  tab ++ replace1 10 (nl ++ tab) (firstn (List.length text - k) text) ++ repeat 10%N k.

(** src/format_c.rs:316-323 [format_enum_member]. *)
Definition format_enum_member (m : str * option cexpr) : str :=
  fst m ++ match snd m with Some v => L " = " ++ fmt_expr v | None => [] end.

(** src/format_c.rs:28-38 [fmt_enumdef]. *)
Definition fmt_enumdef (x : cenumdef) : str :=
  L "enum {" ++ nl ++
  join (L "," ++ nl) (map (fun m => tab ++ format_enum_member m) (ced_entries x))
  ++ nl ++ L "};" ++ nl.

(** src/format_c.rs:91-105 [format_union]. *)
Definition format_union (f : cform) (fields : list (ctypename * cform)) : str :=
  L "union {" ++ nl ++
  flat_map (fun x => tab ++ format_type (fst x) ++ L " " ++ format_form (snd x) ++ L ";" ++ nl) fields
  ++ nl ++ L "} " ++ format_form f ++ L ";" ++ nl.

(** src/format_c.rs:295-314 [format_compat_struct_definition]. *)
Definition format_struct_def (x : cstructdef) : str :=
  let s := flat_map (fun i => match i with
                              | CSField t => format_type (ctf_type t) ++ L " "
                                             ++ format_form (ctf_form t) ++ L ";" ++ nl
                              | CSUnion f fs => format_union f fs
                              end) (csd_fields x) in
  L "struct " ++ csd_name x ++ L " {" ++ nl ++ indent s ++ nl ++ L "};" ++ nl.

(** src/format_c.rs:355-362 [fmt_vardecl]. *)
Definition fmt_vardecl (v : cvardecl) : str :=
  format_type (cv_type v) ++ L " " ++ format_form (cv_form v) ++ L " = " ++ fmt_expr (cv_value v).

(** src/format_c.rs:386-407: declarators with their values.  The two lists have
    the same length (the translator always makes one of each). *)
Fixpoint fmt_declarators (forms : list cform) (values : list (option cexpr)) : list str :=
  match forms, values with
  | f :: fs, v :: vs =>
      (match v with Some x => format_form f ++ L " = " ++ fmt_expr x | None => format_form f end)
      :: fmt_declarators fs vs
  | _, _ => []
  end.

Definition fmt_case_value (v : cswitch_value) : str :=
  match v with CSVIdent x => x | CSVLit l => format_literal l end.

Definition opt_expr (o : option cexpr) : str :=
  match o with Some e => fmt_expr e | None => [] end.

(** src/format_c.rs:282-289, 325-353, 379-476 [format_body], [format_for],
    [format_statement], [fmt_switch]. *)
Fixpoint format_statement (s : cstmt) : str :=
  let format_stmts := fix go (l : list cstmt) : str :=
    match l with [] => [] | x :: r => format_statement x ++ nl ++ go r end in
  let format_body := fun (b : list cstmt) =>
    L "{" ++ nl ++ indent (format_stmts b) ++ L "}" ++ nl in
  let case_stmts := fix go (l : list cstmt) : str :=
    match l with [] => [] | x :: r => tab ++ format_statement x ++ L ";" ++ nl ++ go r end in
  match s with
  | KBlock l => format_body l
  | KBreak => L "break;"
  | KContinue => L "continue;"
  | KVar t forms values =>
      format_type t ++ L " " ++ join (L ", ") (fmt_declarators forms values) ++ L ";"
  | KIf c b e =>
      L "if (" ++ fmt_expr c ++ L ") " ++ format_body b ++
      match e with Some b2 => L " else " ++ format_body b2 | None => [] end
  | KFor init c a b =>
      L "for (" ++
      (match init with
       | Some (CFIExpr e) => fmt_expr e
       | Some (CFIDecl v) => fmt_vardecl v
       | None => []
       end) ++ L "; " ++ opt_expr c ++ L "; " ++ opt_expr a ++ L ") " ++ format_body b
  | KWhile c b => L "while (" ++ fmt_expr c ++ L ") " ++ format_body b
  | KReturn None => L "return;;"
  | KReturn (Some e) => L "return " ++ fmt_expr e ++ L ";"
  | KSwitch v cases def =>
      L "switch (" ++ fmt_expr v ++ L ") {" ++ nl ++
      (fix go (l : list (list cswitch_value * list cstmt)) : str :=
         match l with
         | [] => []
         | (vals, b) :: r =>
             join nl (map (fun x => L "case " ++ fmt_case_value x ++ L ":") vals)
             ++ L " {" ++ nl ++ case_stmts b ++ tab ++ L "break;" ++ nl ++ L "}" ++ nl ++ go r
         end) cases ++
      (match def with
       | Some b => L "default: {" ++ nl ++ case_stmts b ++ L "}" ++ nl
       | None => []
       end) ++ L "}"
  | KExpr e => fmt_expr e ++ L ";"
  end.
Fixpoint format_stmts (l : list cstmt) : str :=
  match l with [] => [] | x :: r => format_statement x ++ nl ++ format_stmts r end.
Definition format_body (b : list cstmt) : str :=
  L "{" ++ nl ++ indent (format_stmts b) ++ L "}" ++ nl.

(** src/format_c.rs:40-54 [fmt_func_def]. *)
Definition fmt_func_def (x : cfuncdef) : str :=
  let f := format_form (cfd_form x) in
  (if cfd_static x && negb (str_eqb f (L "main")) then L "static " else []) ++
  format_type (cfd_type x) ++ L " " ++ f ++ L " " ++ fmt_func_params (cfd_params x) ++ L " "
  ++ format_body (cfd_body x).

(** src/format_c.rs:56-69 [fmt_forward_func]. *)
Definition fmt_forward_func (x : cforward) : str :=
  let f := format_form (cfw_form x) in
  (if cfw_static x && negb (str_eqb f (L "main")) then L "static " else []) ++
  format_type (cfw_type x) ++ L " " ++ f ++ L " " ++ fmt_func_params (cfw_params x) ++ L ";" ++ nl.

(** src/format_c.rs:8-23: one element. *)
Definition format_elem (e : celem) : str :=
  match e with
  | XVar v => L "static " ++ format_type (cv_type v) ++ L " " ++ format_form (cv_form v)
              ++ L " = " ++ fmt_expr (cv_value v) ++ L ";" ++ nl
  | XTypedef t => format_typedef t
  | XMacro n v => L "#" ++ n ++ L " " ++ v ++ nl
  | XInclude x => L "#include " ++ x ++ nl
  | XEnum x => fmt_enumdef x
  | XForwardStruct x => L "struct " ++ x ++ L ";" ++ nl
  | XStruct x => format_struct_def x
  | XForwardFunc x => fmt_forward_func x
  | XFunc x => fmt_func_def x
  end.

(** src/format_c.rs:5-26 [format_module]. *)
Definition format_module (m : cmodule) : str := flat_map format_elem (cm_elements m).
