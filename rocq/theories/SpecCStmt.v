(** Statements of C (C99 6.7, 6.8), as far as the compiler writes them: without
    goto, labels of goto and do.  Written from the standard. *)
From Verif Require Import Base SpecLex CAst SpecC.

(** ** Trees *)
Inductive cst :=
| XNull
| XExpr (e : cexpr)
| XDecl (t : ctypename) (l : list (cform * option cexpr))
| XBlock (l : list cst)
| XIf (c : cexpr) (s : cst) (e : option cst)
| XWhile (c : cexpr) (s : cst)
| XFor (i : option cforinit) (c a : option cexpr) (s : cst)
| XSwitch (e : cexpr) (s : cst)
| XCase (v : cexpr) (s : cst)
| XDefault (s : cst)
| XBreak
| XContinue
| XReturn (e : option cexpr).

(** The statement ends in an if without else. *)
Fixpoint open_if (s : cst) : bool :=
  match s with
  | XIf _ _ None => true
  | XIf _ _ (Some s) | XWhile _ s | XFor _ _ _ s | XSwitch _ s | XCase _ s | XDefault s => open_if s
  | _ => false
  end.
Definition declaration (s : cst) : bool := match s with XDecl _ _ => true | _ => false end.

Section Grammar.
Variable types : str -> bool.
Notation expr_of := (c_expr_of types).

(** ** Declarations (6.7) *)
Inductive c_indexes_of : list ctok -> list (option cexpr) -> Prop :=
| Cix_nil : c_indexes_of [] []
| Cix_open ts l : c_indexes_of ts l -> c_indexes_of (TPunct "[" :: TPunct "]" :: ts) (None :: l)
| Cix_size ts e ts' l : expr_of 2 ts e -> c_indexes_of ts' l ->
    c_indexes_of (TPunct "[" :: ts ++ TPunct "]" :: ts') (Some e :: l).
Inductive c_declarator_of : list ctok -> cform -> Prop :=
| Cdeclarator n x ts l : c_identifier types x -> c_indexes_of ts l ->
    c_declarator_of (repeat (TPunct "*") n ++ TWord x :: ts) (mkCform (repeat 42%N n) x l).
Inductive c_init_declarator_of : list ctok -> cform * option cexpr -> Prop :=
| Cdecl_plain ts f : c_declarator_of ts f -> c_init_declarator_of ts (f, None)
| Cdecl_init ts f ts' e : c_declarator_of ts f -> c_init_of types ts' e ->
    c_init_declarator_of (ts ++ TPunct "=" :: ts') (f, Some e).
Inductive c_declarators_of : list ctok -> list (cform * option cexpr) -> Prop :=
| Cdecls_one ts d : c_init_declarator_of ts d -> c_declarators_of ts [d]
| Cdecls_more ts d ts' l : c_init_declarator_of ts d -> c_declarators_of ts' l ->
    c_declarators_of (ts ++ TPunct "," :: ts') (d :: l).

(** ** Statements (6.8) *)
Definition c_opt_of (ts : list ctok) (e : option cexpr) : Prop :=
  match e with Some e => expr_of 2 ts e | None => ts = [] end.
Inductive c_for_init_of : list ctok -> option cforinit -> Prop :=
| Cfor_none : c_for_init_of [] None
| Cfor_expr ts e : expr_of 2 ts e -> c_for_init_of ts (Some (CFIExpr e))
| Cfor_decl ts t ts' f ts'' e : c_type_of types ts t -> c_declarator_of ts' f -> c_init_of types ts'' e ->
    c_for_init_of (ts ++ ts' ++ TPunct "=" :: ts'') (Some (CFIDecl (mkCvar t f e))).
Inductive c_stmt_of : list ctok -> cst -> Prop :=
| Cs_null : c_stmt_of [TPunct ";"] XNull
| Cs_expr ts e : expr_of 2 ts e -> c_stmt_of (ts ++ [TPunct ";"]) (XExpr e)
| Cs_block ts l : c_items_of ts l -> c_stmt_of (TPunct "{" :: ts ++ [TPunct "}"]) (XBlock l)
| Cs_if ts c ts' s : expr_of 2 ts c -> c_stmt_of ts' s ->
    c_stmt_of (TWord (L "if") :: TPunct "(" :: ts ++ TPunct ")" :: ts') (XIf c s None)
(** An else belongs to the nearest if. *)
| Cs_if_else ts c ts' s ts'' s' : expr_of 2 ts c -> c_stmt_of ts' s -> open_if s = false -> c_stmt_of ts'' s' ->
    c_stmt_of (TWord (L "if") :: TPunct "(" :: ts ++ TPunct ")" :: ts' ++ TWord (L "else") :: ts'') (XIf c s (Some s'))
| Cs_while ts c ts' s : expr_of 2 ts c -> c_stmt_of ts' s ->
    c_stmt_of (TWord (L "while") :: TPunct "(" :: ts ++ TPunct ")" :: ts') (XWhile c s)
| Cs_for ti i tc c ta a ts s : c_for_init_of ti i -> c_opt_of tc c -> c_opt_of ta a -> c_stmt_of ts s ->
    c_stmt_of (TWord (L "for") :: TPunct "(" :: ti ++ TPunct ";" :: tc ++ TPunct ";" :: ta ++ TPunct ")" :: ts) (XFor i c a s)
| Cs_switch ts e ts' s : expr_of 2 ts e -> c_stmt_of ts' s ->
    c_stmt_of (TWord (L "switch") :: TPunct "(" :: ts ++ TPunct ")" :: ts') (XSwitch e s)
| Cs_case ts v ts' s : expr_of 3 ts v -> c_stmt_of ts' s ->
    c_stmt_of (TWord (L "case") :: ts ++ TPunct ":" :: ts') (XCase v s)
| Cs_default ts s : c_stmt_of ts s -> c_stmt_of (TWord (L "default") :: TPunct ":" :: ts) (XDefault s)
| Cs_break : c_stmt_of [TWord (L "break"); TPunct ";"] XBreak
| Cs_continue : c_stmt_of [TWord (L "continue"); TPunct ";"] XContinue
| Cs_return ts e : c_opt_of ts e -> c_stmt_of (TWord (L "return") :: ts ++ [TPunct ";"]) (XReturn e)
with c_items_of : list ctok -> list cst -> Prop :=
| Ci_nil : c_items_of [] []
| Ci_stmt ts s ts' l : c_stmt_of ts s -> c_items_of ts' l -> c_items_of (ts ++ ts') (s :: l)
| Ci_decl ts t ts' ds ts'' l : c_type_of types ts t -> c_declarators_of ts' ds -> c_items_of ts'' l ->
    c_items_of (ts ++ ts' ++ TPunct ";" :: ts'') (XDecl t ds :: l).
Scheme c_stmt_ind_m := Induction for c_stmt_of Sort Prop
with c_items_ind_m := Induction for c_items_of Sort Prop.
Combined Scheme c_stmt_mutual from c_stmt_ind_m, c_items_ind_m.

(** ** Bodies that survive printing: their expressions do, names are names. *)
Definition plain_type (t : ctypename) : Prop := c_type_ok types (mkCbtf t 0).
Definition plain_form (f : cform) : Prop :=
  (exists n, cf_stars f = repeat 42%N n) /\ c_identifier types (cf_name f) /\ c_word (cf_name f)
  /\ Forall (fun i => match i with Some e => plain types e | None => True end) (cf_indexes f).
Definition plain_opt (e : option cexpr) : Prop := match e with Some e => plain types e | None => True end.
Definition plain_for (i : option cforinit) : Prop :=
  match i with
  | None => True
  | Some (CFIExpr e) => plain types e
  | Some (CFIDecl v) => plain_type (cv_type v) /\ plain_form (cv_form v) /\ plain_init types (cv_value v)
  end.
Definition plain_label (v : cswitch_value) : Prop :=
  match v with CSVIdent s => plain types (CIdent s) | CSVLit l => plain types (CLit l) end.
Fixpoint plain_stmt (s : cstmt) : Prop :=
  let all := fix all (l : list cstmt) : Prop := match l with [] => True | s :: r => plain_stmt s /\ all r end in
  let opt := fun (o : option (list cstmt)) => match o with Some l => all l | None => True end in
  match s with
  | KBlock l => all l
  | KBreak | KContinue => True
  | KVar t [f] [v] => plain_type t /\ plain_form f /\ match v with Some e => plain_init types e | None => True end
  | KVar _ _ _ => False
  | KIf c b e => plain types c /\ all b /\ opt e
  | KFor i c a b => plain_for i /\ plain_opt c /\ plain_opt a /\ all b
  | KWhile c b => plain types c /\ all b
  | KReturn e => plain_opt e
  | KSwitch v cases def => plain types v /\ opt def
      /\ (fix each (l : list (list cswitch_value * list cstmt)) : Prop :=
            match l with
            | [] => True
            | (vs, b) :: r => (vs <> [] /\ Forall plain_label vs) /\ all b /\ each r
            end) cases
  | KExpr e => plain types e
  end.
Fixpoint plain_body (l : list cstmt) : Prop :=
  match l with [] => True | s :: r => plain_stmt s /\ plain_body r end.
End Grammar.

(** ** Readings that differ in nothing that matters *)
(** The trees with the string literals replaced by their characters and with
    [{0}], which also stands for the empty list, by the empty list. *)
Definition zero_list (l : list (bool * option cexpr * cexpr)) : bool :=
  match l with [(false, None, CLit (CLNumber z))] => str_eqb z (L "0") | _ => false end.
Fixpoint init_values (e : cexpr) : cexpr :=
  match e with
  | CComp l =>
      let l' := map (fun x => (fst (fst x), option_map values (snd (fst x)), init_values (snd x))) l in
      CComp (if zero_list l' then [] else l')
  | e => values e
  end.
Definition form_values (f : cform) : cform := mkCform (cf_stars f) (cf_name f) (map (option_map values) (cf_indexes f)).
Definition for_values (i : cforinit) : cforinit :=
  match i with
  | CFIExpr e => CFIExpr (values e)
  | CFIDecl v => CFIDecl (mkCvar (cv_type v) (form_values (cv_form v)) (init_values (cv_value v)))
  end.
Fixpoint stmt_values (s : cst) : cst :=
  match s with
  | XNull => XNull
  | XExpr e => XExpr (values e)
  | XDecl t l => XDecl t (map (fun d => (form_values (fst d), option_map init_values (snd d))) l)
  | XBlock l => XBlock (map stmt_values l)
  | XIf c s e => XIf (values c) (stmt_values s) (option_map stmt_values e)
  | XWhile c s => XWhile (values c) (stmt_values s)
  | XFor i c a s => XFor (option_map for_values i) (option_map values c) (option_map values a) (stmt_values s)
  | XSwitch e s => XSwitch (values e) (stmt_values s)
  | XCase v s => XCase (values v) (stmt_values s)
  | XDefault s => XDefault (stmt_values s)
  | XBreak => XBreak
  | XContinue => XContinue
  | XReturn e => XReturn (option_map values e)
  end.
(** The words of statements, operators and storage classes start no type. *)
Definition not_types : list string :=
  ["sizeof"; "if"; "else"; "while"; "for"; "switch"; "case"; "default"; "break"; "continue"; "return"; "static"; "typedef"]%string.
Definition c_types (types : str -> bool) : Prop := forall w, In w not_types -> types (lit w) = false.
