(** Files with broken statements: the vocabulary of C73.  [faulty_module toks l]
    says that [toks] would be a module of the grammar if it were not for some
    broken statements in the bodies of functions, and that [l] are the places of
    the first wrong token of each of them, in order. *)
From Verif Require Import Base Buf Lexer Nodes Resolve Cspec Preparser Parser SpecGrammar SpecSafe ParseFacts.

(** Tokens that an expression can start with, and the words that start the other
    statements. *)
Definition first_of_expression : list string :=
  ["word"; "num"; "string"; "char"; "("; "{"; "sizeof"; "!"; "--"; "++"; "*"; "~"; "&"; "-"]%string.
Definition first_of_statement : list string :=
  ["break"; "continue"; "return"; "while"; "for"; "if"; "switch"; "const"]%string.
(** A token that ends neither a statement nor a body. *)
Definition inner (t : token) : Prop := ~ is ";" t /\ ~ is "}" t.
Definition no_operand (t : token) : Prop := inner t /\ ~ In (t_kind t) first_of_expression.

Section Faulty.
Variable ctx : parsectx.

(** The token does not go on with an expression before it, and can be named in a
    message. *)
Definition interrupts (t : token) : Prop := ends_expression [t] /\ ~ unprintable t.

(** The beginning of an expression of a level, and the first wrong token: an
    operand, a closing bracket or the name of a field is missing. *)
Inductive stuck : nat -> list token -> token -> Prop :=
| Stuck_operand n t : n <= 14 -> no_operand t -> stuck n [] t
| Stuck_up n ts t : n < 14 -> stuck (S n) ts t -> stuck n ts t
| Stuck_binary n ts op ts' a t : binary_op (t_kind op) n -> expr_of ctx n ts a -> stuck (S n) ts' t -> stuck n (ts ++ op :: ts') t
| Stuck_prefix op ts t : prefix_op (t_kind op) -> stuck 13 ts t -> stuck 13 (op :: ts) t
| Stuck_cast lp ts rp ts' tf t : is "(" lp -> type_first ctx ts -> typeform_of ctx ts tf -> is ")" rp -> stuck 13 ts' t ->
    stuck 13 (lp :: ts ++ rp :: ts') t
| Stuck_sizeof s t : is "sizeof" s -> ~ is "(" t -> ~ unprintable t -> stuck 13 [s] t
| Stuck_sizeof_operand s lp ts t : is "sizeof" s -> is "(" lp -> (forall r, ~ type_start ctx (ts ++ t :: r)) -> stuck 0 ts t ->
    stuck 13 (s :: lp :: ts) t
| Stuck_sizeof_end s lp ts a t : is "sizeof" s -> is "(" lp -> (forall r, ~ type_start ctx (ts ++ t :: r)) -> expr_of ctx 0 ts a ->
    interrupts t -> ~ is ")" t -> stuck 13 (s :: lp :: ts) t
| Stuck_call ts f lp ts' t : expr_of ctx 14 ts f -> is "(" lp -> stuck_args ts' t -> stuck 14 (ts ++ lp :: ts') t
| Stuck_index ts a lb ts' t : expr_of ctx 14 ts a -> is "[" lb -> stuck 0 ts' t -> stuck 14 (ts ++ lb :: ts') t
| Stuck_index_end ts a lb ts' i t : expr_of ctx 14 ts a -> is "[" lb -> expr_of ctx 0 ts' i -> interrupts t -> ~ is "]" t ->
    stuck 14 (ts ++ lb :: ts') t
| Stuck_field ts a op t : expr_of ctx 14 ts a -> is "->" op \/ is "." op -> ~ is "word" t -> ~ unprintable t -> stuck 14 (ts ++ [op]) t
| Stuck_paren_end lp ts a t : is "(" lp -> ~ type_first ctx ts -> expr_of ctx 0 ts a -> interrupts t -> ~ is ")" t -> stuck 14 (lp :: ts) t
with stuck_args : list token -> token -> Prop :=
| Stuck_first ts t : stuck 0 ts t -> (ts = [] -> ~ is ")" t) -> stuck_args ts t
| Stuck_next ts l c ts' t : more_args_of ctx ts l -> is "," c -> stuck 0 ts' t -> stuck_args (ts ++ c :: ts') t
| Stuck_args_end ts l t : more_args_of ctx ts l -> interrupts t -> ~ is "," t -> ~ is ")" t -> stuck_args ts t.

(** The beginning of a simple statement, and the first wrong token. *)
Inductive begun : list token -> token -> Prop :=
| Begun_nothing t : no_operand t -> ~ In (t_kind t) first_of_statement -> begun [] t
| Begun_stuck ts t : ts <> [] -> stuck 0 ts t -> (forall r, ~ type_start ctx (ts ++ t :: r)) -> begun ts t
| Begun_expression ts a t : expr_of ctx 0 ts a -> (forall r, ~ type_start ctx (ts ++ t :: r)) -> interrupts t -> ~ is ";" t -> begun ts t
| Begun_jump k t : is "break" k \/ is "continue" k -> ~ is ";" t -> ~ unprintable t -> begun [k] t
| Begun_return k ts t : is "return" k -> stuck 0 ts t -> begun (k :: ts) t
| Begun_return_value k ts a t : is "return" k -> expr_of ctx 0 ts a -> interrupts t -> ~ is ";" t -> begun (k :: ts) t
| Begun_name ts n ss k t : type_start ctx ts -> typename_of ctx ts n -> stars_of ss k -> ~ is "*" t -> ~ is "word" t -> ~ is "." t -> ~ unprintable t ->
    begun (ts ++ ss) t
| Begun_value ts n ts' f q ts'' t : type_start ctx ts -> typename_of ctx ts n -> form_of ctx ts' f -> is "=" q -> stuck 0 ts'' t ->
    begun (ts ++ ts' ++ q :: ts'') t
| Begun_variable ts n ts' f ts'' v t : type_start ctx ts -> typename_of ctx ts n -> form_of ctx ts' f -> init_of ctx ts'' v -> interrupts t ->
    ~ is ";" t -> begun (ts ++ ts' ++ ts'') t.

(** A statement, possibly with broken statements in the bodies inside it.  The
    flag is that of [stmt_of]. *)
Inductive faulty_stmt : list token -> list pos -> bool -> Prop :=
| Faulty_not ts s o : stmt_of ctx ts s o -> faulty_stmt ts [] o
| Faulty_while k lp ts e rp ts' l o : is "while" k -> is "(" lp -> expr_of ctx 0 ts e -> is ")" rp -> faulty_block ts' l o ->
    faulty_stmt (k :: lp :: ts ++ rp :: ts') l o
| Faulty_for k lp i fi s1 c oc s2 a oa rp ts l o : is "for" k -> is "(" lp -> forinit_of ctx i fi -> is ";" s1 ->
    opt_expr_of ctx c oc -> is ";" s2 -> opt_expr_of ctx a oa -> is ")" rp -> faulty_block ts l o ->
    faulty_stmt (k :: lp :: i ++ s1 :: c ++ s2 :: a ++ rp :: ts) l o
| Faulty_if k lp ts e rp ts' l o : is "if" k -> is "(" lp -> expr_of ctx 0 ts e -> is ")" rp -> faulty_block ts' l o ->
    faulty_stmt (k :: lp :: ts ++ rp :: ts') l true
| Faulty_if_else k lp ts e rp ts' l el ts'' l2 o : is "if" k -> is "(" lp -> expr_of ctx 0 ts e -> is ")" rp ->
    faulty_block ts' l false -> is "else" el -> faulty_block ts'' l2 o ->
    faulty_stmt (k :: lp :: ts ++ rp :: ts' ++ el :: ts'') (l ++ l2) o
| Faulty_switch k w str_ lp ts e rp lb ts' l ts'' l2 rb : is "switch" k -> optional "word" w str_ ->
    (forall t, In t w -> t_content t = L "str") -> is "(" lp -> expr_of ctx 0 ts e -> is ")" rp ->
    is "{" lb -> faulty_cases ts' l -> faulty_default ts'' l2 -> is "}" rb ->
    faulty_stmt (k :: w ++ lp :: ts ++ rp :: lb :: ts' ++ ts'' ++ [rb]) (l ++ l2) false
with faulty_block : list token -> list pos -> bool -> Prop :=
| Faulty_body ts l : faulty_body ts l -> faulty_block ts l false
| Faulty_single ts l o : faulty_stmt ts l o -> (forall t r, ts = t :: r -> ~ is "{" t) -> faulty_block ts l o
with faulty_body : list token -> list pos -> Prop :=
| Faulty_braces lb ts l rb : is "{" lb -> faults rb ts l -> is "}" rb -> faulty_body (lb :: ts ++ [rb]) l
(** The statements in front of the brace [rb]. *)
with faults : token -> list token -> list pos -> Prop :=
| Faults_nil rb : faults rb [] []
| Faults_stmt rb ts l o ts' l' : faulty_stmt ts l o -> (o = true -> forall t r, ts' = t :: r -> ~ is "else" t) -> faults rb ts' l' ->
    faults rb (ts ++ ts') (l ++ l')
(** A broken statement up to its semicolon. *)
| Faults_broken rb ts t more s ts' l : begun ts t -> inner t -> Forall inner more -> is ";" s -> faults rb ts' l ->
    faults rb (ts ++ t :: more ++ s :: ts') (t_pos t :: l)
(** Its first wrong token may be the semicolon. *)
| Faults_semicolon rb ts s ts' l : begun ts s -> is ";" s -> faults rb ts' l -> faults rb (ts ++ s :: ts') (t_pos s :: l)
(** A broken statement at the end of a body: with or without tokens behind the
    wrong one. *)
| Faults_last rb ts t more : begun ts t -> inner t -> Forall inner more -> faults rb (ts ++ t :: more) [t_pos t]
| Faults_open rb ts : begun ts rb -> faults rb ts [t_pos rb]
with faulty_cases : list token -> list pos -> Prop :=
| Faulty_no_case : faulty_cases [] []
| Faulty_case k ts vs c ts' l ts'' l2 : is "case" k -> commas (value_of ctx) ts vs -> is ":" c -> faulty_body ts' l ->
    faulty_cases ts'' l2 -> faulty_cases (k :: ts ++ c :: ts' ++ ts'') (l ++ l2)
with faulty_default : list token -> list pos -> Prop :=
| Faulty_no_default : faulty_default [] []
| Faulty_default k c ts l : is "default" k -> is ":" c -> faulty_body ts l -> faulty_default (k :: c :: ts) l.

(** A file whose functions may contain broken statements. *)
Inductive faulty_module : list token -> list pos -> Prop :=
| Faulty_nothing : faulty_module [] []
| Faulty_import i ts l : is "import" i -> faulty_module ts l -> faulty_module (i :: ts) l
| Faulty_macro t e ts l : macro_of t e -> faulty_module ts l -> faulty_module (t :: ts) l
| Faulty_elem pb pub ts e ts' l first rest : optional "pub" pb pub -> pb ++ ts = first :: rest ->
    elem_of ctx (t_pos first) ts pub e -> faulty_module ts' l -> faulty_module (pb ++ ts ++ ts') l
| Faulty_function pb pub ts n ts' f lp ps ql v rp ts'' l o rest l' : optional "pub" pb pub ->
    typename_of ctx ts n -> form_of ctx ts' f -> is "(" lp -> params_of ctx ps ql v -> is ")" rp -> faulty_block ts'' l o ->
    faulty_module rest l' -> faulty_module (pb ++ ts ++ ts' ++ lp :: ps ++ rp :: ts'' ++ rest) (l ++ l').
End Faulty.

Scheme stuck_m := Induction for stuck Sort Prop with stuck_args_m := Induction for stuck_args Sort Prop.
Scheme faulty_stmt_m := Induction for faulty_stmt Sort Prop
  with faulty_block_m := Induction for faulty_block Sort Prop
  with faulty_body_m := Induction for faulty_body Sort Prop
  with faults_m := Induction for faults Sort Prop
  with faulty_cases_m := Induction for faulty_cases Sort Prop
  with faulty_default_m := Induction for faulty_default Sort Prop.
Combined Scheme faulty_mutual from faulty_stmt_m, faulty_block_m, faulty_body_m, faults_m, faulty_cases_m, faulty_default_m.
