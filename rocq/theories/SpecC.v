(** The part of C that the compiler writes: tokens, string values, expressions.
    Written from the C standard (6.4, 6.5), without reference to the formatter.
    The syntax trees are those of CAst.v. *)
From Verif Require Import Base SpecLex CAst.

(** ** Tokens (C99 6.4) *)
Inductive ctok :=
| TWord (s : str)         (* identifier or keyword *)
| TNum (s : str)
| TStr (s : str)          (* what is between the quotes *)
| TChar (s : str)
| TPunct (op : string).

Definition c_word_char (c : char) : bool := letter c || digit c || N.eqb c 95.
Definition quote (c : char) : bool := N.eqb c 34 || N.eqb c 39.

Definition punctuators : list string :=
  ["["; "]"; "("; ")"; "{"; "}"; "."; "->"; "++"; "--"; "&"; "*"; "+"; "-"; "~"; "!"; "/"; "%"; "<<"; ">>";
   "<"; ">"; "<="; ">="; "=="; "!="; "^"; "|"; "&&"; "||"; "?"; ":"; ";"; "..."; "="; "*="; "/="; "%="; "+=";
   "-="; "<<="; ">>="; "&="; "^="; "|="; ","; "#"; "##"; "<:"; ":>"; "<%"; "%>"; "%:"; "%:%:"]%string.

(** Preprocessing numbers (6.4.8). *)
Definition exponent (c : char) : bool := N.eqb c 101 || N.eqb c 69 || N.eqb c 112 || N.eqb c 80.
Definition sign (c : char) : bool := N.eqb c 43 || N.eqb c 45.
Inductive pp_number : str -> Prop :=
| Pp_digit d : digit d = true -> pp_number [d]
| Pp_dot d : digit d = true -> pp_number [46%N; d]
| Pp_more s c : pp_number s -> c_word_char c || N.eqb c 46 = true -> pp_number (s ++ [c])
| Pp_sign s e c : pp_number (s ++ [e]) -> exponent e = true -> sign c = true -> pp_number (s ++ [e; c]).
Definition number_stops (s rest : str) : Prop :=
  stops (fun c => c_word_char c || N.eqb c 46) rest /\ (exponent (last s 0%N) = true -> stops sign rest).

(** The inside of a string or character literal with the given quote: no line
    break, no bare quote, backslashes with the character they protect. *)
Inductive c_chars (q : char) : str -> Prop :=
| Chars_nil : c_chars q []
| Chars_char c s : c <> q -> c <> 92%N -> c <> 10%N -> c_chars q s -> c_chars q (c :: s)
| Chars_pair c s : c <> 10%N -> c_chars q s -> c_chars q (92%N :: c :: s).

(** [spells t s rest]: token [t] is written [s] in front of [rest]; it is the
    longest token that can be read there. *)
Inductive spells : ctok -> str -> str -> Prop :=
| Sp_word c w rest : word_start c = true -> all c_word_char w -> stops (fun c => c_word_char c || quote c) rest ->
    spells (TWord (c :: w)) (c :: w) rest
| Sp_number s rest : pp_number s -> number_stops s rest -> spells (TNum s) s rest
| Sp_string s rest : c_chars 34%N s -> spells (TStr s) (34%N :: s ++ [34%N]) rest
| Sp_char s rest : s <> [] -> c_chars 39%N s -> spells (TChar s) (39%N :: s ++ [39%N]) rest
| Sp_punct op rest : In op punctuators ->
    (forall op', In op' punctuators -> begins (lit op ++ rest) (lit op') -> List.length (lit op') <= List.length (lit op)) ->
    ~ begins (lit op ++ rest) (L "//") -> ~ begins (lit op ++ rest) (L "/*") ->
    (op = "."%string -> stops digit rest) ->
    spells (TPunct op) (lit op) rest.

(** [reads text toks rest]: the text, in front of [rest], consists of these
    tokens and of blanks. *)
Inductive reads : str -> list ctok -> str -> Prop :=
| Reads_blank ws rest : all blank ws -> reads ws [] rest
| Reads_token ws t s text toks rest : all blank ws -> spells t s (text ++ rest) -> reads text toks rest ->
    reads (ws ++ s ++ text) (t :: toks) rest.

(** ** The characters of a string literal (6.4.4.4, 6.4.5) *)
Definition octal_digit (c : char) : bool := N.leb 48 c && N.leb c 55.
Definition hex_value (c : char) : N :=
  if digit c then c - 48 else if N.leb c 70 then c - 55 else c - 87.
(** Simple escapes; other characters stand for themselves. *)
Definition simple_escape (c : char) : N :=
  match c with
  | 110 => 10 | 116 => 9 | 114 => 13 | 97 => 7 | 98 => 8 | 102 => 12 | 118 => 11 | _ => c
  end%N.
(** What has been read of an escape sequence. *)
Inductive escape := NoEscape | Backslash | Octal (v : N) (digits : nat) | Hex (v : N).
Definition pending (e : escape) : list N :=
  match e with NoEscape | Backslash => [] | Octal v _ => [v] | Hex v => [v] end.
Fixpoint value_from (e : escape) (s : str) : list N :=
  match s with
  | [] => pending e
  | c :: r =>
      let afresh := if N.eqb c 92 then value_from Backslash r else c :: value_from NoEscape r in
      match e with
      | NoEscape => afresh
      | Backslash =>
          if octal_digit c then value_from (Octal (c - 48) 1) r
          else if N.eqb c 120 then value_from (Hex 0) r
          else simple_escape c :: value_from NoEscape r
      | Octal v n =>
          if octal_digit c && Nat.ltb n 3 then value_from (Octal (8 * v + (c - 48)) (S n)) r else v :: afresh
      | Hex v => if hex_digit c then value_from (Hex (16 * v + hex_value c)) r else v :: afresh
      end
  end%N.
(** The characters a literal stands for.  In the source a literal may contain
    line breaks, which stand for themselves. *)
Definition string_value (s : str) : list N := value_from NoEscape s.
(** Adjacent literals are one (5.1.1.2, phase 6: after the escapes). *)
Definition strings_value (l : list str) : list N := flat_map string_value l.

(** ** Expressions (6.5, without the comma and the conditional) *)
Definition c_assign_op (op : string) : Prop :=
  In op ["="; "+="; "-="; "*="; "/="; "%="; "<<="; ">>="; "&="; "^="; "|="]%string.
(** From [||] (level 3) to the multiplicative operators (level 12). *)
Definition c_levels : list (list string) :=
  [ ["||"]; ["&&"]; ["|"]; ["^"]; ["&"]; ["=="; "!="]; ["<"; ">"; "<="; ">="]; ["<<"; ">>"]; ["+"; "-"]; ["*"; "/"; "%"] ]%string.
Definition c_binary_op (op : string) (level : nat) : Prop :=
  exists i ops, nth_error c_levels i = Some ops /\ In op ops /\ level = i + 3.

Definition c_keywords : list string :=
  ["auto"; "break"; "case"; "char"; "const"; "continue"; "default"; "do"; "double"; "else"; "enum"; "extern";
   "float"; "for"; "goto"; "if"; "inline"; "int"; "long"; "register"; "restrict"; "return"; "short"; "signed";
   "sizeof"; "static"; "struct"; "switch"; "typedef"; "union"; "unsigned"; "void"; "volatile"; "while"]%string.

Section Grammar.
(** The words that start a type: keywords like int and struct, typedef names. *)
Variable types : str -> bool.

Definition c_identifier (s : str) : Prop := types s = false /\ ~ In s (map lit c_keywords).

(** Type names as they are written in casts and in sizeof: words, the first of
    which starts a type, and stars. *)
Inductive c_type_of : list ctok -> ctypename -> Prop :=
| Ctype w ws : types w = true -> w <> L "const" -> c_type_of (map TWord (w :: ws)) (mkCtn false (join (L " ") (w :: ws)))
| Ctype_const w ws : types w = true -> c_type_of (TWord (L "const") :: map TWord (w :: ws)) (mkCtn true (join (L " ") (w :: ws))).
Inductive c_typeform_of : list ctok -> cbare_typeform -> Prop :=
| Ctypeform ts t n : c_type_of ts t -> c_typeform_of (ts ++ repeat (TPunct "*") n) (mkCbtf t n).

(** Levels: 2 assignment, 3 to 12 binary operators, 13 cast, 14 unary, 15
    postfix, 16 primary. *)
Inductive c_expr_of : nat -> list ctok -> cexpr -> Prop :=
| C_up n ts e : n < 16 -> c_expr_of (S n) ts e -> c_expr_of n ts e
| C_assign ts op ts' a b : c_assign_op op -> c_expr_of 14 ts a -> c_expr_of 2 ts' b ->
    c_expr_of 2 (ts ++ TPunct op :: ts') (CBin op a b)
| C_binary n ts op ts' a b : c_binary_op op n -> c_expr_of n ts a -> c_expr_of (S n) ts' b ->
    c_expr_of n (ts ++ TPunct op :: ts') (CBin op a b)
| C_cast tt t ts e : c_typeform_of tt t -> c_expr_of 13 ts e ->
    c_expr_of 13 (TPunct "(" :: tt ++ TPunct ")" :: ts) (CCast t e)
| C_step op ts e : In op ["++"; "--"]%string -> c_expr_of 14 ts e -> c_expr_of 14 (TPunct op :: ts) (CPrefix op e)
| C_unary op ts e : In op ["&"; "*"; "+"; "-"; "~"; "!"]%string -> c_expr_of 13 ts e ->
    c_expr_of 14 (TPunct op :: ts) (CPrefix op e)
| C_sizeof ts e : c_expr_of 14 ts e -> c_expr_of 14 (TWord (L "sizeof") :: ts) (CSizeofE e)
| C_sizeof_type tt t : c_typeform_of tt t ->
    c_expr_of 14 (TWord (L "sizeof") :: TPunct "(" :: tt ++ [TPunct ")"]) (CSizeofT t)
| C_call ts f ts' args : c_expr_of 15 ts f -> c_args_of ts' args ->
    c_expr_of 15 (ts ++ TPunct "(" :: ts' ++ [TPunct ")"]) (CCall f args)
| C_index ts a ts' i : c_expr_of 15 ts a -> c_expr_of 2 ts' i ->
    c_expr_of 15 (ts ++ TPunct "[" :: ts' ++ [TPunct "]"]) (CIndex a i)
| C_field op ts e x : In op ["."; "->"]%string -> c_expr_of 15 ts e ->
    c_expr_of 15 (ts ++ [TPunct op; TWord x]) (CField op e x)
| C_postfix op ts e : In op ["++"; "--"]%string -> c_expr_of 15 ts e -> c_expr_of 15 (ts ++ [TPunct op]) (CPostfix op e)
| C_ident s : c_identifier s -> c_expr_of 16 [TWord s] (CIdent s)
| C_number s : c_expr_of 16 [TNum s] (CLit (CLNumber s))
| C_char s : c_expr_of 16 [TChar s] (CLit (CLChar s))
(** Adjacent string literals: any tree with the same characters. *)
| C_string l v : l <> [] -> strings_value l = string_value v -> c_expr_of 16 (map TStr l) (CLit (CLString v))
| C_paren ts e : c_expr_of 2 ts e -> c_expr_of 16 (TPunct "(" :: ts ++ [TPunct ")"]) e
with c_args_of : list ctok -> list cexpr -> Prop :=
| C_no_args : c_args_of [] []
| C_args ts l : c_more_args_of ts l -> c_args_of ts l
with c_more_args_of : list ctok -> list cexpr -> Prop :=
| C_one_arg ts e : c_expr_of 2 ts e -> c_more_args_of ts [e]
| C_more_args ts e ts' l : c_expr_of 2 ts e -> c_more_args_of ts' l -> c_more_args_of (ts ++ TPunct "," :: ts') (e :: l).

(** Initializers (6.7.8): an expression or a list in braces.  [{0}] also stands
    for the empty list, which C does not have. *)
Inductive c_init_of : list ctok -> cexpr -> Prop :=
| C_init_expr ts e : c_expr_of 2 ts e -> c_init_of ts e
| C_init_empty : c_init_of [TPunct "{"; TNum (L "0"); TPunct "}"] (CComp [])
| C_init_list ts l : c_entries_of ts l -> c_init_of (TPunct "{" :: ts ++ [TPunct "}"]) (CComp l)
with c_entries_of : list ctok -> list (bool * option cexpr * cexpr) -> Prop :=
| C_one_entry ts x : c_entry_of ts x -> c_entries_of ts [x]
| C_more_entries ts x ts' l : c_entry_of ts x -> c_entries_of ts' l -> c_entries_of (ts ++ TPunct "," :: ts') (x :: l)
with c_entry_of : list ctok -> bool * option cexpr * cexpr -> Prop :=
| C_entry ts e : c_init_of ts e -> c_entry_of ts (false, None, e)
| C_entry_field x ts e : c_init_of ts e ->
    c_entry_of (TPunct "." :: TWord x :: TPunct "=" :: ts) (false, Some (CIdent x), e)
| C_entry_index ts k ts' e : c_expr_of 3 ts k -> c_init_of ts' e ->
    c_entry_of (TPunct "[" :: ts ++ TPunct "]" :: TPunct "=" :: ts') (true, Some k, e).

(** The tree with its string literals replaced by their characters. *)
Fixpoint values (e : cexpr) : cexpr :=
  match e with
  | CLit (CLString s) => CLit (CLString (string_value s))
  | CLit l => CLit l
  | CIdent s => CIdent s
  | CBin op a b => CBin op (values a) (values b)
  | CPrefix op a => CPrefix op (values a)
  | CPostfix op a => CPostfix op (values a)
  | CCast t a => CCast t (values a)
  | CSizeofE a => CSizeofE (values a)
  | CSizeofT t => CSizeofT t
  | CCall f args => CCall (values f) (map values args)
  | CIndex a i => CIndex (values a) (values i)
  | CField op a f => CField op (values a) f
  | CComp l => CComp (map (fun x => (fst (fst x), option_map values (snd (fst x)), values (snd x))) l)
  end.

(** ** Trees that survive printing *)
(** A tree is plain if
    - its names, numbers and literals are C names, numbers and literals; no line
      of a string ends in a lone backslash,
    - the right operand of a binary operator is not itself an operation of the
      same level (except for [&], [<<] and [>>]),
    - the left side of an assignment is no binary operation and no cast,
    - what is called, indexed or followed by [++] or [--] is a name, a literal, a
      call, an element, a field or again followed by [++] or [--],
    - the record whose field is taken is no cast and no sizeof,
    - two minus signs or two ampersands do not meet. *)
Definition c_word (s : str) : Prop := exists c w, s = c :: w /\ word_start c = true /\ all c_word_char w.
Definition c_type_ok (t : cbare_typeform) : Prop :=
  exists w ws, ctn_name (cbtf_type t) = join (L " ") (w :: ws) /\ types w = true /\ w <> L "const" /\ Forall c_word (w :: ws).
(** Like [c_chars 34], with line breaks. *)
Inductive c_lines : str -> Prop :=
| Lines_nil : c_lines []
| Lines_break s : c_lines s -> c_lines (10%N :: s)
| Lines_char c s : c <> 34%N -> c <> 92%N -> c <> 10%N -> c_lines s -> c_lines (c :: s)
| Lines_pair c s : c <> 10%N -> c_lines s -> c_lines (92%N :: c :: s).
Definition postfix_form (e : cexpr) : bool :=
  match e with CLit _ | CIdent _ | CCall _ _ | CIndex _ _ | CPostfix _ _ | CField _ _ _ => true | _ => false end.
Definition number (e : cexpr) : bool := match e with CLit (CLNumber _) => true | _ => false end.
Definition glued (op : string) (e : cexpr) : Prop :=
  exists k x, e = CPrefix k x /\ In (op, k) [("-", "-"); ("-", "--"); ("&", "&")]%string.

Inductive plain : cexpr -> Prop :=
| P_ident s : c_identifier s -> c_word s -> plain (CIdent s)
| P_number s : pp_number s -> plain (CLit (CLNumber s))
| P_char s : s <> [] -> c_chars 39%N s -> plain (CLit (CLChar s))
| P_string s : c_lines s -> plain (CLit (CLString s))
| P_assign op a b : c_assign_op op -> plain a -> plain b ->
    match a with CBin _ _ _ | CCast _ _ => False | _ => True end -> plain (CBin op a b)
| P_binary op n a b : c_binary_op op n -> plain a -> plain b ->
    In op ["&"; "<<"; ">>"]%string \/ (forall k x y, b = CBin k x y -> ~ c_binary_op k n) -> plain (CBin op a b)
| P_unary op x : In op ["&"; "*"; "-"; "~"; "!"]%string -> plain x -> ~ glued op x -> plain (CPrefix op x)
| P_step op x : In op ["++"; "--"]%string -> plain x -> match x with CCast _ _ => False | _ => True end -> plain (CPrefix op x)
| P_cast t x : c_type_ok t -> plain x -> plain (CCast t x)
| P_sizeof x : plain x -> plain (CSizeofE x)
| P_sizeof_type t : c_type_ok t -> plain (CSizeofT t)
| P_call f args : plain f -> postfix_form f = true -> plain_all args -> plain (CCall f args)
| P_index a i : plain a -> postfix_form a = true -> plain i -> plain (CIndex a i)
| P_postfix op x : In op ["++"; "--"]%string -> plain x -> postfix_form x = true -> number x = false -> plain (CPostfix op x)
| P_field op x f : In op ["."; "->"]%string -> plain x ->
    match x with CCast _ _ | CSizeofE _ | CSizeofT _ => False | _ => True end -> number x = false -> c_word f -> plain (CField op x f)
with plain_all : list cexpr -> Prop :=
| P_nil : plain_all []
| P_cons e l : plain e -> plain_all l -> plain_all (e :: l).

(** The same for initializers. *)
Inductive plain_init : cexpr -> Prop :=
| PI_expr e : plain e -> plain_init e
| PI_list l : plain_entries l -> plain_init (CComp l)
with plain_entries : list (bool * option cexpr * cexpr) -> Prop :=
| PI_nil : plain_entries []
| PI_plain v l : plain_init v -> plain_entries l -> plain_entries ((false, None, v) :: l)
| PI_field x v l : c_word x -> plain_init v -> plain_entries l -> plain_entries ((false, Some (CIdent x), v) :: l)
| PI_index k v l : plain k -> (forall op a b, k = CBin op a b -> ~ c_assign_op op) -> plain_init v -> plain_entries l ->
    plain_entries ((true, Some k, v) :: l).
End Grammar.
Scheme c_expr_ind_m := Induction for c_expr_of Sort Prop
with c_args_ind_m := Induction for c_args_of Sort Prop
with c_more_args_ind_m := Induction for c_more_args_of Sort Prop.
Combined Scheme c_expr_mutual from c_expr_ind_m, c_args_ind_m, c_more_args_ind_m.
Scheme plain_ind_m := Induction for plain Sort Prop
with plain_all_ind_m := Induction for plain_all Sort Prop.
Combined Scheme plain_mutual from plain_ind_m, plain_all_ind_m.
Scheme plain_init_ind_m := Induction for plain_init Sort Prop
with plain_entries_ind_m := Induction for plain_entries Sort Prop.
Combined Scheme plain_init_mutual from plain_init_ind_m, plain_entries_ind_m.
Scheme c_init_ind_m := Induction for c_init_of Sort Prop
with c_entries_ind_m := Induction for c_entries_of Sort Prop
with c_entry_ind_m := Induction for c_entry_of Sort Prop.
Combined Scheme c_init_mutual from c_init_ind_m, c_entries_ind_m, c_entry_ind_m.
