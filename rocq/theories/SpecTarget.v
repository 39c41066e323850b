(** The C code a module stands for, as a plain function of the source: no
    checking, no state. *)
From Verif Require Import Base Buf Nodes Resolve Preparser CAst SpecDecl.

Section Target.
Variable S : site.

Definition own_id : str := mi_uniqid (own S).
Definition is_pub_type (x : str) : bool :=
  match type_status S x with Some p => p | None => false end.

(** The C name of an element of the module with the given id. *)
Definition global_name (id x : str) : str := id ++ L "__" ++ x.
Definition cname (G : list decl) (n : nsname) : str :=
  if str_eqb (ns_ns n) (L "OS") then ns_name n
  else if str_eqb (ns_ns n) [] then
    match look (ns_name n) G with
    | Some d => if d_pub d then global_name (own_id) (ns_name n) else ns_name n
    | None => ns_name n
    end
  else global_name (import_id S (ns_ns n)) (ns_name n).
Definition c_type (t : typename) : ctypename :=
  let n := tn_name t in
  mkCtn (tn_const t)
    (if str_eqb (ns_ns n) (L "OS") then ns_name n
     else if str_eqb (ns_ns n) [] then
       (if is_pub_type (ns_name n) then global_name (own_id) (ns_name n) else ns_name n)
     else global_name (import_id S (ns_ns n)) (ns_name n)).
Definition c_btf (t : bare_typeform) : cbare_typeform := mkCbtf (c_type (btf_type t)) (btf_hops t).

Definition c_lit (l : literal) : cliteral :=
  match l with
  | LChar s => CLChar s
  | LString s => CLString s
  | LNumber s => CLNumber s
  | LNull => CLNull
  end.

(** Expressions: the same tree, names replaced, [calloc!] by its helper.  (A
    designator is a field name and stays.) *)
Definition c_key (k : expr) : cexpr :=
  match k with EName n => CIdent (ns_name n) | _ => CIdent [] end.
Definition is_name (e : expr) (x : string) : bool :=
  match e with EName n => str_eqb (ns_ns n) [] && str_eqb (ns_name n) (lit x) | _ => false end.
Fixpoint c_expr (G : list decl) (e : expr) : cexpr :=
  match e with
  | ELit l => CLit (c_lit l)
  | EName n => CIdent (cname G n)
  | EArrIndex a i => CIndex (c_expr G a) (c_expr G i)
  | EBinary _ op a b => CBin op (c_expr G a) (c_expr G b)
  | EField _ op t f => CField op (c_expr G t) f
  | EComp es => CComp (map (fun x => (fst (fst x), option_map c_key (snd (fst x)), c_expr G (snd x))) es)
  | EPrefix _ op x => CPrefix op (c_expr G x)
  | EPostfix op x => CPostfix op (c_expr G x)
  | ECast t x => CCast (c_btf t) (c_expr G x)
  | ECall p f args =>
      CCall (if is_name f "calloc!" then CIdent (cname G (mkNs p [] (L "calloc_or_panic")))
             else c_expr G f)
            (map (c_expr G) args)
  | ESizeofE x => CSizeofE (c_expr G x)
  | ESizeofT t => CSizeofT (c_btf t)
  end.

(** A declarator; [name] is the C name of the declared thing. *)
Definition c_form (G : list decl) (name : str) (f : form) : cform :=
  mkCform (repeat 42%N (f_hops f)) name (map (option_map (c_expr G)) (f_indexes f)).
Definition local_form (G : list decl) (f : form) : cform := c_form G (f_name f) f.

(** Statements. *)
Definition c_forinit (G : list decl) (i : forinit) : cforinit :=
  match i with
  | FIExpr e => CFIExpr (c_expr G e)
  | FIDecl t f e => CFIDecl (mkCvar (c_type t) (local_form G f) (c_expr G e))
  end.
Definition c_case (G : list decl) (v : switch_value) : cswitch_value :=
  match v with
  | SVIdent n => CSVIdent (cname G n)
  | SVLit l => CSVLit (c_lit l)
  end.
Definition c_value (G : list decl) (v : switch_value) : cexpr :=
  match v with
  | SVIdent n => CIdent (cname G n)
  | SVLit l => CLit (c_lit l)
  end.
Definition call (f : string) (args : list cexpr) : cexpr := CCall (CIdent (lit f)) args.
(** [!strcmp(v1, x) || !strcmp(v2, x) || ..] *)
Definition c_equals (G : list decl) (x : cexpr) (v : switch_value) : cexpr :=
  CPrefix "!" (call "strcmp" [c_value G v; x]).
Definition c_any (G : list decl) (x : cexpr) (vs : list switch_value) : cexpr :=
  match vs with
  | [] => CLit (CLNumber (L "0"))
  | v :: r => fold_left (fun acc v => CBin "||" acc (c_equals G x v)) r (c_equals G x v)
  end.
(** The place of a statement as the user sees it. *)
Definition place (p : pos) : str := mi_filepath (own S) ++ L ":" ++ dec (p_line p) ++ L ":" ++ dec (p_col p).
Definition c_panic (p : pos) (args : list cexpr) : cstmt :=
  KBlock [ KExpr (call "fprintf" [CIdent (L "stderr"); CLit (CLString (L "*** panic at %s ***\n"));
                                  CLit (CLString (place p))]);
           KExpr (call "fprintf" (CIdent (L "stderr") :: args));
           KExpr (call "fprintf" [CIdent (L "stderr"); CLit (CLString (L "\n"))]);
           KExpr (call "exit" [CLit (CLNumber (L "1"))]) ].

Fixpoint c_stmt (G : list decl) (s : stmt) : cstmt :=
  let stmts := fix stmts (G : list decl) (l : list stmt) : list cstmt :=
    match l with
    | [] => []
    | s :: r => c_stmt G s :: stmts (declares s ++ G) r
    end in
  match s with
  | SBreak => KBreak
  | SContinue => KContinue
  | SExpr (ECall _ (EName n as f) args as e) =>
      if is_name f "panic" then c_panic (ns_pos n) (map (c_expr G) args) else KExpr (c_expr G e)
  | SExpr e => KExpr (c_expr G e)
  | SVarDecl v =>
      let G := declares s ++ G in
      KVar (c_type (v_type v)) [local_form G (v_form v)] [option_map (c_expr G) (v_value v)]
  | SIf c b e => KIf (c_expr G c) (stmts G b) (option_map (stmts G) e)
  | SFor i c a b =>
      let G := init_declares i ++ G in
      KFor (option_map (c_forinit G) i) (option_map (c_expr G) c) (option_map (c_expr G) a) (stmts G b)
  | SWhile c b => KWhile (c_expr G c) (stmts G b)
  | SReturn e => KReturn (option_map (c_expr G) e)
  | SSwitch false v cases def =>
      KSwitch (c_expr G v) (map (fun c => (map (c_case G) (fst c), stmts G (snd c))) cases)
              (option_map (stmts G) def)
  | SSwitch true v cases def =>
      (fix chain (cs : list (list switch_value * list stmt)) : cstmt :=
         match cs with
         | [] => KBlock []
         | [c] => KIf (c_any G (c_expr G v) (fst c)) (stmts G (snd c)) (option_map (stmts G) def)
         | c :: r => KIf (c_any G (c_expr G v) (fst c)) (stmts G (snd c)) (Some [chain r])
         end) cases
  end.
Fixpoint c_stmts (G : list decl) (l : list stmt) : list cstmt :=
  match l with
  | [] => []
  | s :: r => c_stmt G s :: c_stmts (declares s ++ G) r
  end.

(** Elements of a module. *)
Definition exported_as (pub : bool) (x : str) : str := if pub then global_name (own_id) x else x.
Definition c_fields (G : list decl) (t : type_and_forms) : list ctypeform :=
  map (fun f => mkCtf (c_type (taf_type t)) (local_form G f)) (taf_forms t).
Definition c_params (G : list decl) (p : func_params) : cfunc_params :=
  mkCfp (flat_map (c_fields G) (fp_list p)) (fp_ellipsis p).
Definition c_struct_entry (G : list decl) (e : struct_entry) : list cstruct_item :=
  match e with
  | StPlain x => map CSField (c_fields G x)
  | StUnion u => [CSUnion (local_form G (u_form u))
                          (map (fun p => (c_type (fst p), local_form G (snd p))) (u_fields u))]
  end.
(** The name a module-level thing is declared under, where [G] is in force. *)
Definition head_name (G : list decl) (x : str) : str :=
  match look x G with
  | Some d => if d_pub d && negb (str_eqb x (L "main")) then global_name (own_id) x else x
  | None => x
  end.
Definition struct_tag (x : str) : str := L "__" ++ x ++ L "_struct".
Definition c_elem (G : list decl) (e : modelem) : list celem :=
  match e with
  | MMacro m => if str_eqb (m_name m) (L "type") || str_eqb (m_name m) (L "link") then []
                else [XMacro (m_name m) (m_value m)]
  | MEnum x => [XEnum (mkCed (negb (enum_pub x))
                 (map (fun e => (exported_as (enum_pub x) (en_name e), option_map (c_expr G) (en_val e)))
                      (enum_entries x)))]
  | MStructAlias a => [XTypedef (mkCtd (sa_pub a) (mkCtn false (L "struct " ++ sa_structname a))
                        (mkCtdf [] None 0 (exported_as (sa_pub a) (sa_typename a))))]
  | MTypedef t =>
      [XTypedef (mkCtd (td_pub t) (c_type (td_type t))
         (mkCtdf (repeat 42%N (td_derefs t))
                 (option_map (fun p => mkCanon (ap_ellipsis p) (map c_btf (ap_forms p))) (td_func_params t))
                 (td_array_size t) (exported_as (td_pub t) (td_alias t))))]
  | MStruct s =>
      let x := exported_as (st_pub s) (st_name s) in
      [ XForwardStruct (struct_tag x);
        XStruct (mkCsd (struct_tag x) (flat_map (c_struct_entry G) (st_entries s)) (st_pub s));
        XTypedef (mkCtd (st_pub s) (mkCtn false (L "struct " ++ struct_tag x)) (mkCtdf [] None 0 x)) ]
  | MVar v =>
      match v_value v with
      | Some e => [XVar (mkCvar (c_type (v_type v)) (c_form G (head_name G (f_name (v_form v))) (v_form v))
                                (c_expr G e))]
      | None => []
      end
  | MFunc f =>
      let G := param_decls (fd_params f) ++ G in
      let form := c_form G (head_name G (f_name (fd_form f))) (fd_form f) in
      XFunc (mkCfd (negb (fd_pub f)) (c_type (fd_type f)) form (c_params G (fd_params f))
                   (c_stmts G (fd_body f)))
      :: (if str_eqb (f_name (fd_form f)) (L "main") then []
          else [XForwardFunc (mkCfwd (negb (fd_pub f)) (c_type (fd_type f)) form (c_params G (fd_params f)))])
  end.

(** All elements, in source order. *)
Definition c_elems (numeric : str -> bool) : list celem :=
  flat_map (c_elem (module_decls numeric (elements S))) (elements S).

End Target.
