(** The grammar of the language, over token sequences.  Of the parser only its
    context is used: the imports and the type names found by the pre-parser.  A token sequence belongs to a syntax tree; where the grammar of
    C would leave a choice (casts, declarations, qualified names, dangling
    else) a side condition says how it is settled. *)
From Verif Require Import Base Buf Lexer Nodes Resolve Cspec Preparser Parser.

Definition is (k : string) (t : token) : Prop := t_kind t = k.

(** ** Lists *)
Inductive many {A} (P : list token -> A -> Prop) : list token -> list A -> Prop :=
| Many_nil : many P [] []
| Many_cons ts ts' a l : P ts a -> many P ts' l -> many P (ts ++ ts') (a :: l).
(** One or more, separated by commas. *)
Inductive commas {A} (P : list token -> A -> Prop) : list token -> list A -> Prop :=
| Commas_one ts a : P ts a -> commas P ts [a]
| Commas_more ts c ts' a l : P ts a -> is "," c -> commas P ts' l ->
    commas P (ts ++ c :: ts') (a :: l).

(** ** Operators *)
(** Binary operators from the weakest to the strongest; the levels count from 2,
    1 would be the comma, 13 are prefix forms and 14 postfix forms. *)
Definition binary_levels : list (list string) :=
  [ ["="; "+="; "-="; "*="; "/="; "%="; "<<="; ">>="; "&="; "^="; "|="];
    ["||"]; ["&&"]; ["|"]; ["^"]; ["&"]; ["=="; "!="]; ["<"; ">"; "<="; ">="];
    ["<<"; ">>"]; ["+"; "-"]; ["*"; "/"; "%"] ]%string.
Definition binary_op (op : string) (level : nat) : Prop :=
  exists i ops, nth_error binary_levels i = Some ops /\ In op ops /\ level = i + 2.
Definition prefix_op (op : string) : Prop := In op ["!"; "--"; "++"; "*"; "~"; "&"; "-"]%string.
Definition postfix_op (op : string) : Prop := In op ["++"; "--"]%string.

Section Grammar.
Variable ctx : parsectx.

(** ** Names and types *)
(** Names that stand for a type in this file: C types, words that start a type,
    and the types declared anywhere in the file. *)
Definition type_name (x : str) : Prop :=
  has_type x = true \/ In x [L "struct"; L "enum"; L "union"] \/ In x (mi_typedefs (thismod ctx)).
(** A namespace: OS or that of an import. *)
Definition namespace (x : str) : Prop :=
  x = L "OS" \/ exists r, In r (mi_imports (thismod ctx)) /\ r_ns r = x.
(** [ns.x] is a type: the first import with this namespace declares it. *)
Definition foreign_type (ns x : str) : Prop :=
  exists r m, find (fun r => str_eqb (r_ns r) ns) (mi_imports (thismod ctx)) = Some r
    /\ find (fun m => str_eqb (mi_filepath m) (r_path r)) (allmods ctx) = Some m
    /\ In x (mi_typedefs m).
(** These tokens start like a type. *)
Inductive type_start : list token -> Prop :=
| Start_const t r : is "const" t -> type_start (t :: r)
| Start_name t r : is "word" t -> type_name (t_content t) -> type_start (t :: r)
| Start_foreign t d x r : is "word" t -> is "." d -> is "word" x ->
    foreign_type (t_content t) (t_content x) -> type_start (t :: d :: x :: r).
(** The first token is the name of a type. *)
Definition type_first (ts : list token) : Prop :=
  exists t r, ts = t :: r /\ is "word" t /\ type_name (t_content t).

Inductive name_of : list token -> nsname -> Prop :=
| Name_plain w : is "word" w -> name_of [w] (mkNs (t_pos w) [] (t_content w))
| Name_qualified w d x : is "word" w -> namespace (t_content w) -> is "." d -> is "word" x ->
    name_of [w; d; x] (mkNs (t_pos w) (t_content w) (t_content x)).
Inductive typename_of : list token -> typename -> Prop :=
| Typename_plain ts n : name_of ts n -> typename_of ts (mkTn false n)
| Typename_const c ts n : is "const" c -> name_of ts n -> typename_of (c :: ts) (mkTn true n).
Definition stars_of (ts : list token) (n : nat) : Prop := Forall (is "*") ts /\ List.length ts = n.
Inductive typeform_of : list token -> bare_typeform -> Prop :=
| Typeform ts t ss n : typename_of ts t -> stars_of ss n -> typeform_of (ts ++ ss) (mkBtf t n).

Inductive literal_of : token -> literal -> Prop :=
| Lit_string t : is "string" t -> literal_of t (LString (t_content t))
| Lit_number t : is "num" t -> literal_of t (LNumber (t_content t))
| Lit_char t : is "char" t -> literal_of t (LChar (t_content t)).

(** ** Expressions *)
Inductive expr_of : nat -> list token -> expr -> Prop :=
(** An expression of a level is one of every weaker level. *)
| E_up n ts e : n < 14 -> expr_of (S n) ts e -> expr_of n ts e
(** Binary operators associate to the left. *)
| E_binary n ts op ts' a b : binary_op (t_kind op) n -> expr_of n ts a -> expr_of (S n) ts' b ->
    expr_of n (ts ++ op :: ts') (EBinary (t_pos op) (t_kind op) a b)
| E_prefix op ts e : prefix_op (t_kind op) -> expr_of 13 ts e ->
    expr_of 13 (op :: ts) (EPrefix (t_pos op) (t_kind op) e)
(** A parenthesis with the name of a type behind it is a cast. *)
| E_cast lp ts rp ts' t e : is "(" lp -> type_first ts -> typeform_of ts t -> is ")" rp -> expr_of 13 ts' e ->
    expr_of 13 (lp :: ts ++ rp :: ts') (ECast t e)
| E_sizeof_type s lp ts rp t : is "sizeof" s -> is "(" lp -> type_start ts -> typeform_of ts t -> is ")" rp ->
    expr_of 13 (s :: lp :: ts ++ [rp]) (ESizeofT t)
| E_sizeof_expr s lp ts rp e : is "sizeof" s -> is "(" lp -> ~ type_start ts -> expr_of 0 ts e -> is ")" rp ->
    expr_of 13 (s :: lp :: ts ++ [rp]) (ESizeofE e)
| E_call ts f lp ts' args rp : expr_of 14 ts f -> is "(" lp -> args_of ts' args -> is ")" rp ->
    expr_of 14 (ts ++ lp :: ts' ++ [rp]) (ECall (t_pos lp) f args)
| E_index ts a lb ts' i rb : expr_of 14 ts a -> is "[" lb -> expr_of 0 ts' i -> is "]" rb ->
    expr_of 14 (ts ++ lb :: ts' ++ [rb]) (EArrIndex a i)
| E_postfix ts e op : expr_of 14 ts e -> postfix_op (t_kind op) ->
    expr_of 14 (ts ++ [op]) (EPostfix (t_kind op) e)
(** A dot after a namespace is not a field access. *)
| E_field ts e op x : expr_of 14 ts e -> is "->" op \/ is "." op -> is "word" x ->
    ~ (is "." op /\ exists w, ts = [w] /\ is "word" w /\ namespace (t_content w)) ->
    expr_of 14 (ts ++ [op; x]) (EField (t_pos op) (t_kind op) e (t_content x))
| E_name ts n : name_of ts n -> expr_of 14 ts (EName n)
| E_literal t l : literal_of t l -> expr_of 14 [t] (ELit l)
| E_paren lp ts e rp : is "(" lp -> ~ type_first ts -> expr_of 0 ts e -> is ")" rp ->
    expr_of 14 (lp :: ts ++ [rp]) e
| E_composite lb ts l rb : is "{" lb -> entries_of ts l -> is "}" rb ->
    expr_of 14 (lb :: ts ++ [rb]) (EComp l)
with args_of : list token -> list expr -> Prop :=
| Args_none : args_of [] []
| Args_some ts l : more_args_of ts l -> args_of ts l
with more_args_of : list token -> list expr -> Prop :=
| Args_one ts e : expr_of 0 ts e -> more_args_of ts [e]
| Args_more ts e c ts' l : expr_of 0 ts e -> is "," c -> more_args_of ts' l ->
    more_args_of (ts ++ c :: ts') (e :: l)
(** Entries of a composite literal; a comma may follow the last one. *)
with entries_of : list token -> list (bool * option expr * expr) -> Prop :=
| Entries_none : entries_of [] []
| Entries_one ts e : entry_of ts e -> entries_of ts [e]
| Entries_more ts e c ts' l : entry_of ts e -> is "," c -> entries_of ts' l ->
    entries_of (ts ++ c :: ts') (e :: l)
with entry_of : list token -> bool * option expr * expr -> Prop :=
| Entry_plain ts e : expr_of 0 ts e -> entry_of ts (false, None, e)
| Entry_field d x q ts e : is "." d -> is "word" x -> is "=" q -> expr_of 0 ts e ->
    entry_of (d :: x :: q :: ts) (false, Some (EName (mkNs (t_pos x) [] (t_content x))), e)
| Entry_index lb ts k rb q ts' e : is "[" lb -> expr_of 0 ts k -> is "]" rb -> is "=" q -> expr_of 0 ts' e ->
    entry_of (lb :: ts ++ rb :: q :: ts') (true, Some k, e).

(** ** Declarations *)
Inductive index_of : list token -> option expr -> Prop :=
| Index_none lb rb : is "[" lb -> is "]" rb -> index_of [lb; rb] None
| Index_some lb ts e rb : is "[" lb -> expr_of 0 ts e -> is "]" rb -> index_of (lb :: ts ++ [rb]) (Some e).
(** A form is a name with stars before and indexes behind it. *)
Inductive form_of : list token -> form -> Prop :=
| Form first ss n x ixs l rest : stars_of ss n -> is "word" x -> t_content x <> [] -> many index_of ixs l ->
    ss ++ x :: ixs = first :: rest ->
    form_of (ss ++ x :: ixs) (mkForm (t_pos first) (t_content x) n l).
Inductive init_of : list token -> option expr -> Prop :=
| Init_none : init_of [] None
| Init_some q ts e : is "=" q -> expr_of 0 ts e -> init_of (q :: ts) (Some e).

(** ** Statements *)
Inductive value_of : list token -> switch_value -> Prop :=
| Value_name ts n : name_of ts n -> value_of ts (SVIdent n)
| Value_literal t l : literal_of t l -> value_of [t] (SVLit l).
Inductive forinit_of : list token -> option forinit -> Prop :=
| Forinit_none : forinit_of [] None
| Forinit_expr ts e : ~ type_first ts -> expr_of 0 ts e -> forinit_of ts (Some (FIExpr e))
| Forinit_decl ts t ts' f q ts'' e : type_first ts -> typename_of ts t -> form_of ts' f ->
    is "=" q -> expr_of 0 ts'' e -> forinit_of (ts ++ ts' ++ q :: ts'') (Some (FIDecl t f e)).
Inductive opt_expr_of : list token -> option expr -> Prop :=
| Opt_none : opt_expr_of [] None
| Opt_some ts e : expr_of 0 ts e -> opt_expr_of ts (Some e).

(** The flag says that an [else] behind the tokens would belong to an [if]
    inside them. *)
Inductive stmt_of : list token -> stmt -> bool -> Prop :=
| S_break k s : is "break" k -> is ";" s -> stmt_of [k; s] SBreak false
| S_continue k s : is "continue" k -> is ";" s -> stmt_of [k; s] SContinue false
| S_return k s : is "return" k -> is ";" s -> stmt_of [k; s] (SReturn None) false
| S_return_value k ts e s : is "return" k -> expr_of 0 ts e -> is ";" s ->
    stmt_of (k :: ts ++ [s]) (SReturn (Some e)) false
(** What starts like a type is a declaration. *)
| S_decl first rest ts t ts' f ts'' v s :
    typename_of ts t -> form_of ts' f -> init_of ts'' v -> is ";" s -> ts = first :: rest -> type_start ts ->
    stmt_of (ts ++ ts' ++ ts'' ++ [s]) (SVarDecl (mkVar (t_pos first) t f v)) false
| S_expr ts e s : ~ type_start ts -> expr_of 0 ts e -> is ";" s -> stmt_of (ts ++ [s]) (SExpr e) false
| S_while k lp ts e rp ts' b o : is "while" k -> is "(" lp -> expr_of 0 ts e -> is ")" rp -> block_of ts' b o ->
    stmt_of (k :: lp :: ts ++ rp :: ts') (SWhile e b) o
| S_for k lp i fi s1 c oc s2 a oa rp ts b o : is "for" k -> is "(" lp -> forinit_of i fi -> is ";" s1 ->
    opt_expr_of c oc -> is ";" s2 -> opt_expr_of a oa -> is ")" rp -> block_of ts b o ->
    stmt_of (k :: lp :: i ++ s1 :: c ++ s2 :: a ++ rp :: ts) (SFor fi oc oa b) o
| S_if k lp ts e rp ts' b o : is "if" k -> is "(" lp -> expr_of 0 ts e -> is ")" rp -> block_of ts' b o ->
    stmt_of (k :: lp :: ts ++ rp :: ts') (SIf e b None) true
| S_if_else k lp ts e rp ts' b el ts'' b2 o : is "if" k -> is "(" lp -> expr_of 0 ts e -> is ")" rp ->
    block_of ts' b false -> is "else" el -> block_of ts'' b2 o ->
    stmt_of (k :: lp :: ts ++ rp :: ts' ++ el :: ts'') (SIf e b (Some b2)) o
| S_switch k lp ts e rp lb ts' cases ts'' def rb : is "switch" k -> is "(" lp -> expr_of 0 ts e -> is ")" rp ->
    is "{" lb -> cases_of ts' cases -> default_of ts'' def -> is "}" rb ->
    stmt_of (k :: lp :: ts ++ rp :: lb :: ts' ++ ts'' ++ [rb]) (SSwitch false e cases def) false
| S_switch_str k w lp ts e rp lb ts' cases ts'' def rb : is "switch" k -> is "word" w -> t_content w = L "str" ->
    is "(" lp -> expr_of 0 ts e -> is ")" rp ->
    is "{" lb -> cases_of ts' cases -> default_of ts'' def -> is "}" rb ->
    stmt_of (k :: w :: lp :: ts ++ rp :: lb :: ts' ++ ts'' ++ [rb]) (SSwitch true e cases def) false
with block_of : list token -> list stmt -> bool -> Prop :=
| Block_body ts b : body_of ts b -> block_of ts b false
(** A brace opens a body, never a statement that starts with a composite literal. *)
| Block_single ts s o : stmt_of ts s o -> (forall t r, ts = t :: r -> ~ is "{" t) -> block_of ts [s] o
with body_of : list token -> list stmt -> Prop :=
| Body lb ts l rb : is "{" lb -> stmts_of ts l -> is "}" rb -> body_of (lb :: ts ++ [rb]) l
with stmts_of : list token -> list stmt -> Prop :=
| Stmts_nil : stmts_of [] []
| Stmts_cons ts s o ts' l : stmt_of ts s o -> stmts_of ts' l -> stmts_of (ts ++ ts') (s :: l)
with cases_of : list token -> list (list switch_value * list stmt) -> Prop :=
| Cases_nil : cases_of [] []
| Cases_cons k ts vs c ts' b ts'' l : is "case" k -> commas value_of ts vs -> is ":" c -> body_of ts' b ->
    cases_of ts'' l -> cases_of (k :: ts ++ c :: ts' ++ ts'') ((vs, b) :: l)
with default_of : list token -> option (list stmt) -> Prop :=
| Default_none : default_of [] None
| Default_some k c ts b : is "default" k -> is ":" c -> body_of ts b -> default_of (k :: c :: ts) (Some b).

(** ** Elements of a module *)
(** Names of one type; a name after a comma does not start like a type. *)
Inductive group_of : list token -> type_and_forms -> Prop :=
| Group ts t ts' fs : type_start ts -> typename_of ts t -> names_of ts' fs -> group_of (ts ++ ts') (mkTaf t fs)
with names_of : list token -> list form -> Prop :=
| Names_one ts f : form_of ts f -> names_of ts [f]
| Names_more ts f c ts' fs : form_of ts f -> is "," c -> ~ type_start ts' -> names_of ts' fs ->
    names_of (ts ++ c :: ts') (f :: fs).
(** Parameters: groups separated by commas, at the end perhaps an ellipsis, for
    which the comma may be left out. *)
Inductive params_of : list token -> list type_and_forms -> bool -> Prop :=
| Params_none : params_of [] [] false
| Params_dots d : is "..." d -> params_of [d] [] true
| Params_last ts g : group_of ts g -> params_of ts [g] false
| Params_last_dots ts g d : group_of ts g -> is "..." d -> params_of (ts ++ [d]) [g] true
| Params_more ts g c ts' l v : group_of ts g -> is "," c -> params_of ts' l v -> ts' <> [] ->
    params_of (ts ++ c :: ts') (g :: l) v.

Inductive enum_entry_of : list token -> enum_entry -> Prop :=
| Enum_entry x ts v : is "word" x -> init_of ts v -> enum_entry_of (x :: ts) (mkEntry (t_content x) v).

Inductive union_field_of : list token -> typename * form -> Prop :=
| Union_field ts t ts' f s : typename_of ts t -> form_of ts' f -> is ";" s -> union_field_of (ts ++ ts' ++ [s]) (t, f).
Inductive field_of : list token -> struct_entry -> Prop :=
| Field_plain ts t ts' fs s : typename_of ts t -> commas form_of ts' fs -> is ";" s ->
    field_of (ts ++ ts' ++ [s]) (StPlain (mkTaf t fs))
| Field_union u lb ts l rb ts' f s : is "union" u -> is "{" lb -> many union_field_of ts l -> is "}" rb ->
    form_of ts' f -> is ";" s ->
    field_of (u :: lb :: ts ++ rb :: ts' ++ [s]) (StUnion (mkUnion f l)).

(** The parameters of a function type. *)
Inductive anon_of : list token -> option anon_params -> Prop :=
| Anon_none : anon_of [] None
| Anon_empty lp rp : is "(" lp -> is ")" rp -> anon_of [lp; rp] (Some (mkAnon false []))
| Anon_some lp ts l rp : is "(" lp -> commas typeform_of ts l -> is ")" rp ->
    anon_of (lp :: ts ++ [rp]) (Some (mkAnon false l))
| Anon_dots lp ts l c d rp : is "(" lp -> commas typeform_of ts l -> is "," c -> is "..." d -> is ")" rp ->
    anon_of (lp :: ts ++ [c; d; rp]) (Some (mkAnon true l)).
Inductive size_of : list token -> N -> Prop :=
| Size_none : size_of [] 0%N
| Size_some lb x rb n : is "[" lb -> is "num" x -> parse_usize (t_content x) = Some n -> is "]" rb ->
    size_of [lb; x; rb] n.
Inductive optional (k : string) : list token -> bool -> Prop :=
| Optional_no : optional k [] false
| Optional_yes t : is k t -> optional k [t] true.

(** An element that starts at the position [p], without the word pub. *)
Inductive elem_of (p : pos) : list token -> bool -> modelem -> Prop :=
| El_enum k lb ts l tc co rb ts' se pub : is "enum" k -> is "{" lb -> commas enum_entry_of ts l ->
    optional "," tc co -> is "}" rb -> optional ";" ts' se ->
    elem_of p (k :: lb :: ts ++ tc ++ rb :: ts') pub
      (MEnum (mkEnum pub l (t_pos k)))
| El_struct k lb ts l rb x s pub : is "typedef" k -> is "{" lb -> many field_of ts l -> is "}" rb ->
    is "word" x -> is ";" s ->
    elem_of p (k :: lb :: ts ++ [rb; x; s]) pub (MStruct (mkStruct pub l (t_content x)))
| El_alias k st x y s pub : is "typedef" k -> is "struct" st -> is "word" x -> is "word" y -> is ";" s ->
    elem_of p [k; st; x; y; s] pub (MStructAlias (mkAlias pub (t_content x) (t_content y)))
| El_typedef k ts t ss n x ps a sz z s pub : is "typedef" k -> typename_of ts t -> stars_of ss n -> is "word" x ->
    anon_of ps a -> size_of sz z -> is ";" s ->
    elem_of p (k :: ts ++ ss ++ x :: ps ++ sz ++ [s]) pub (MTypedef (mkTypedef pub (t_content x) t n z a))
| El_func ts t ts' f lp ps l v rp ts'' b o pub : typename_of ts t -> form_of ts' f -> is "(" lp ->
    params_of ps l v -> is ")" rp -> block_of ts'' b o ->
    elem_of p (ts ++ ts' ++ lp :: ps ++ rp :: ts'') pub (MFunc (mkFunc p pub t f (mkFp l v) b))
(** A variable is never pub. *)
| El_var ts t ts' f q ts'' e s : typename_of ts t -> form_of ts' f -> is "=" q -> expr_of 0 ts'' e -> is ";" s ->
    elem_of p (ts ++ ts' ++ q :: ts'' ++ [s]) false (MVar (mkVar p t f (Some e))).

(** A directive, cut at its first space; the name without the #. *)
Inductive macro_of : token -> modelem -> Prop :=
| Macro t h name value : is "macro" t -> t_content t = h :: name ++ 32%N :: value -> h <> 32%N -> (h < 128)%N ->
    ~ In 32%N name ->
    macro_of t (MMacro (mkMacro name (32%N :: value) (t_pos t))).

(** A whole file. *)
Inductive module_of : list token -> list modelem -> Prop :=
| Module_nil : module_of [] []
| Module_import i ts l : is "import" i -> module_of ts l -> module_of (i :: ts) l
| Module_macro t e ts l : macro_of t e -> module_of ts l -> module_of (t :: ts) (e :: l)
| Module_elem pb pub ts e ts' l first rest : optional "pub" pb pub -> pb ++ ts = first :: rest ->
    elem_of (t_pos first) ts pub e -> module_of ts' l ->
    module_of (pb ++ ts ++ ts') (e :: l).

End Grammar.

Scheme expr_ind_m := Induction for expr_of Sort Prop
  with args_ind_m := Induction for args_of Sort Prop
  with more_args_ind_m := Induction for more_args_of Sort Prop
  with entries_ind_m := Induction for entries_of Sort Prop
  with entry_ind_m := Induction for entry_of Sort Prop.
Combined Scheme expr_mutual from expr_ind_m, args_ind_m, more_args_ind_m, entries_ind_m, entry_ind_m.
Scheme stmt_ind_m := Induction for stmt_of Sort Prop
  with block_ind_m := Induction for block_of Sort Prop
  with body_ind_m := Induction for body_of Sort Prop
  with stmts_ind_m := Induction for stmts_of Sort Prop
  with cases_ind_m := Induction for cases_of Sort Prop
  with default_ind_m := Induction for default_of Sort Prop.
Combined Scheme stmt_mutual from stmt_ind_m, block_ind_m, body_ind_m, stmts_ind_m, cases_ind_m, default_ind_m.
