(** Specification of the lexical grammar, written without reference to how the
    lexer reads its input. *)
From Verif Require Import Base Buf Lexer Nodes Cursor LexOps.

(** ** Positions *)

(** Line and column of the character that follows the text [pre]. *)
Fixpoint since_newline (rev_pre : str) : N :=
  match rev_pre with
  | [] => 0
  | c :: r => if N.eqb c 10 then 0 else 1 + since_newline r
  end%N.
Definition position_after (pre : str) : pos :=
  mkPos (1 + N.of_nat (count_occ N.eq_dec pre 10%N)) (1 + since_newline (rev pre)).

(** ** Character classes *)

Definition blank (c : char) : bool :=
  N.eqb c 32 || N.eqb c 9 || N.eqb c 10 || N.eqb c 13.
Definition letter (c : char) : bool :=
  (N.leb 65 c && N.leb c 90) || (N.leb 97 c && N.leb c 122).
Definition digit (c : char) : bool := N.leb 48 c && N.leb c 57.
Definition hex_digit (c : char) : bool :=
  digit c || (N.leb 65 c && N.leb c 70) || (N.leb 97 c && N.leb c 102).
Definition word_start (c : char) : bool := letter c || N.eqb c 95.
Definition word_char `{Unicode} (c : char) : bool :=
  (if N.ltb c 128 then letter c || digit c else uni_alnum c) || N.eqb c 95.
Definition uint_suffix (c : char) : bool := N.eqb c 85 || N.eqb c 76.
Definition float_suffix (c : char) : bool := N.eqb c 85 || N.eqb c 76 || N.eqb c 102.
Definition newline (c : char) : bool := N.eqb c 10.

Definition all (p : char -> bool) (s : str) : Prop := Forall (fun c => p c = true) s.
(** [s] is empty or starts with a character outside [p]. *)
Definition stops (p : char -> bool) (s : str) : Prop :=
  match s with [] => True | c :: _ => p c = false end.
Definition begins (s p : str) : Prop := exists r, s = p ++ r.

(** ** Tables *)

Definition reserved : list string :=
  ["break"; "case"; "const"; "continue"; "default"; "else"; "enum"; "for"; "if"; "pub";
   "return"; "sizeof"; "struct"; "switch"; "typedef"; "union"; "while"]%string.
Definition operators : list string :=
  ["!"; "!="; "%"; "%="; "&"; "&&"; "&="; "("; ")"; "*"; "*="; "+"; "++"; "+="; ","; "-"; "--";
   "-="; "->"; "."; "..."; "/"; "/="; ":"; ";"; "<"; "<<"; "<<="; "<="; "="; "=="; ">"; ">=";
   ">>"; ">>="; "?"; "["; "]"; "^"; "^="; "{"; "|"; "|="; "||"; "}"; "~"]%string.

(** ** Numbers *)

(** Fraction, exponent and suffix of a decimal number: [parts] says whether
    there is a fraction, [s] is the text.  Each run of digits is maximal with
    respect to what follows. *)
Inductive decimal : str -> str -> Prop :=
| Decimal int frac ex suf post :
    int <> [] -> all digit int ->
    ~ begins (int ++ frac ++ ex ++ suf ++ post) (L "0x") ->
    stops digit (frac ++ ex ++ suf ++ post) ->
    (frac = [] /\ stops (N.eqb 46) (ex ++ suf ++ post)
     \/ exists ds, frac = 46%N :: ds /\ all digit ds /\ stops digit (ex ++ suf ++ post)) ->
    (ex = [] /\ stops (fun c => N.eqb c 101 || N.eqb c 69) (suf ++ post)
     \/ exists e sign ds, ex = e :: sign ++ ds /\ (e = 101 \/ e = 69)%N
                     /\ (sign = [] /\ stops (N.eqb 45) (ds ++ suf ++ post) \/ sign = [45%N])
                     /\ all digit ds /\ stops digit (suf ++ post) /\ sign ++ ds ++ suf ++ post <> []) ->
    all (match frac with [] => uint_suffix | _ => float_suffix end) suf ->
    stops (match frac with [] => uint_suffix | _ => float_suffix end) post ->
    decimal (int ++ frac ++ ex ++ suf) post.

(** ** String literals *)

(** The inside of a string literal: no bare quote, backslashes in pairs with the
    character they protect. *)
Inductive escaped : str -> Prop :=
| Esc_nil : escaped []
| Esc_char c s : c <> 34%N -> c <> 92%N -> escaped s -> escaped (c :: s)
| Esc_pair c s : escaped s -> escaped (92%N :: c :: s).

Definition quoted (b : str) : str := 34%N :: b ++ [34%N].

(** Zero or more quoted pieces, each followed by blanks; first argument: the
    concatenation of their insides. *)
Inductive pieces : str -> str -> Prop :=
| Pieces_nil : pieces [] []
| Pieces_cons b ws c s :
    escaped b -> all blank ws -> stops blank s -> pieces c s ->
    pieces (b ++ c) (quoted b ++ ws ++ s).

(** ** Tokens *)

Definition message_unexpected (c : char) : str := L "Unexpected character: '" ++ [c] ++ L "'".

(** [lexeme kind content text post]: a token of the given kind and content is
    spelled [text] when [post] is what follows in the file. *)
Inductive lexeme `{Unicode} : string -> str -> str -> str -> Prop :=
| Lx_import ws line post :
    all blank ws -> stops blank (line ++ post) ->
    Forall (fun c => newline c = false) line -> stops (fun c => negb (newline c)) post ->
    lexeme "import" (trim line) (L "#import" ++ ws ++ line) post
| Lx_macro line post :
    ~ begins (35%N :: line ++ post) (L "#import") ->
    Forall (fun c => newline c = false) line -> stops (fun c => negb (newline c)) post ->
    lexeme "macro" (35%N :: line) (35%N :: line) post
| Lx_line_comment line post :
    Forall (fun c => newline c = false) line -> stops (fun c => negb (newline c)) post ->
    lexeme "comment" line (L "//" ++ line) post
| Lx_block_comment inside post :
    (forall a b, inside ++ L "*" <> a ++ L "*/" ++ b) ->
    lexeme "comment" inside (L "/*" ++ inside ++ L "*/") post
| Lx_open_comment inside :
    (forall a b, inside <> a ++ L "*/" ++ b) ->
    lexeme "error" (L "*/ expected") (L "/*" ++ inside) []
| Lx_keyword k post :
    In k reserved -> stops word_char post ->
    lexeme k [] (lit k) post
| Lx_word c w post :
    word_start c = true -> all word_char w -> stops word_char post ->
    ~ In (c :: w) (map lit reserved) ->
    ~ (c :: w = L "calloc" /\ begins post (L "!")) ->
    lexeme "word" (c :: w) (c :: w) post
| Lx_calloc post :
    lexeme "word" (L "calloc!") (L "calloc!") post
| Lx_hex ds suf post :
    all hex_digit ds -> stops hex_digit (suf ++ post) ->
    all uint_suffix suf -> stops uint_suffix post ->
    lexeme "num" (L "0x" ++ ds ++ suf) (L "0x" ++ ds ++ suf) post
| Lx_decimal s post :
    decimal s post -> stops letter post ->
    lexeme "num" s s post
| Lx_bad_number s c post :
    decimal s (c :: post) -> letter c = true ->
    lexeme "error" (message_unexpected c) s (c :: post)
| Lx_string c s post :
    pieces c s -> s <> [] -> stops blank post -> stops (N.eqb 34) post ->
    lexeme "string" c s post
| Lx_open_string c s b :
    pieces c s -> escaped b ->
    lexeme "error" (L "Double quote expected") (s ++ 34%N :: b) []
| Lx_char c post :
    c <> 92%N ->
    lexeme "char" [c] [39; c; 39]%N post
| Lx_escaped_char c post :
    lexeme "char" [92; c]%N [39; 92; c; 39]%N post
| Lx_bad_char c q post :
    c <> 92%N -> q <> 39%N ->
    lexeme "error" (L "Single quote expected") [39; c; q]%N post
| Lx_bad_escaped_char c q post :
    q <> 39%N ->
    lexeme "error" (L "Single quote expected") [39; 92; c; q]%N post
| Lx_operator op post :
    In op operators ->
    (forall op', In op' operators -> begins (lit op ++ post) (lit op') ->
                 List.length (lit op') <= List.length (lit op)) ->
    ~ begins (lit op ++ post) (L "//") -> ~ begins (lit op ++ post) (L "/*") ->
    lexeme op [] (lit op) post
| Lx_unexpected c post :
    blank c = false -> c <> 35%N -> c <> 34%N -> c <> 39%N ->
    word_start c = false -> digit c = false ->
    (forall op, In op operators -> ~ begins (c :: post) (lit op)) ->
    lexeme "error" (message_unexpected c) [] (c :: post).

(** The texts on which the lexer aborts: a string whose last character is an
    unpaired backslash, a number ending right after the exponent letter, a
    character literal cut off by the end of the file. *)
Inductive aborts : str -> Prop :=
| Ab_string c s b : pieces c s -> escaped b -> aborts (s ++ 34%N :: b ++ [92%N])
| Ab_number int frac e :
    int <> [] -> all digit int -> ~ begins (int ++ frac ++ [e]) (L "0x") ->
    (frac = [] \/ exists ds, frac = 46%N :: ds /\ all digit ds) ->
    (e = 101 \/ e = 69)%N -> aborts (int ++ frac ++ [e])
| Ab_char0 : aborts [39%N]
| Ab_char1 c : aborts [39%N; c]
| Ab_char2 c : aborts [39; 92; c]%N.

(** A token is reported at its first character; a malformed number is reported
    at the character that does not belong there. *)
Definition reported_after (kind : string) (content text : str) : str :=
  if String.eqb kind "error" && starts_with content (L "Unexpected character") then text else [].

(** ** Files *)

(** Blanks and comments, when [post] follows. *)
Inductive gap `{Unicode} : str -> str -> Prop :=
| Gap_blank ws post : all blank ws -> gap ws post
| Gap_comment ws c t g post :
    all blank ws -> lexeme "comment" c t (g ++ post) -> gap g post ->
    gap (ws ++ t ++ g) post.

(** [lexes pre text toks e]: the text that follows [pre] in the file is the
    spelling of the tokens [toks], separated by gaps, and ends as [e] says. *)
Inductive lexes `{Unicode} : str -> str -> list token -> ending -> Prop :=
| Lex_eof pre g :
    gap g [] -> lexes pre g [] (EndEof (position_after (pre ++ g)))
| Lex_token pre g k c t post toks e :
    gap g (t ++ post) -> lexeme k c t post -> k <> "comment"%string -> g ++ t <> [] ->
    lexes (pre ++ g ++ t) post toks e ->
    lexes pre (g ++ t ++ post)
          (mkTok k c (position_after (pre ++ g ++ reported_after k c t)) :: toks) e
| Lex_stuck pre k c post :
    lexeme k c [] post ->
    lexes pre post [] (EndStuck (mkTok k c (position_after pre)))
| Lex_abort pre g r why :
    gap g r -> aborts r -> lexes pre (g ++ r) [] (EndPanic why).

(** Equal endings; the text of an abort message is not specified. *)
Definition same_end (a b : ending) : Prop :=
  match a, b with
  | EndPanic _, EndPanic _ => True
  | _, _ => a = b
  end.

(** [spells u rest ts]: the text [u], followed in the file by [rest], is the
    spelling of complete tokens whose kinds and contents are [ts]. *)
Inductive spells `{Unicode} : str -> str -> list (string * str) -> Prop :=
| Sp_nil rest : spells [] rest []
| Sp_cons g k c t u rest ts :
    gap g (t ++ u ++ rest) -> lexeme k c t (u ++ rest) -> k <> "comment"%string -> t <> [] ->
    spells u rest ts -> spells (g ++ t ++ u) rest ((k, c) :: ts).

(** [g] keeps the token [last] apart from what follows: it starts with a blank
    (with a newline after a directive), and [last] is not a string literal,
    which would absorb the blank. *)
Definition separates (last : string * str) (g : str) : Prop :=
  match g with
  | [] => False
  | b :: _ => blank b = true /\ fst last <> "string"%string
              /\ (fst last = "import"%string \/ fst last = "macro"%string -> b = 10%N)
  end.

Fixpoint lastk (ts : list (string * str)) : option (string * str) :=
  match ts with [] => None | [x] => Some x | _ :: r => lastk r end.
(** [g] may stand between the tokens [ts] and what follows. *)
Definition kept_apart (ts : list (string * str)) (g : str) : Prop :=
  match lastk ts with Some l => separates l g | None => g <> [] end.

(** Answers without positions. *)
Definition forget_pos (a : answer) : option (option (string * str)) :=
  match a with
  | ATok o => Some (match o with Some t => Some (t_kind t, t_content t) | None => None end)
  | _ => None
  end.
Definition shapes (r : list answer * bool) := (map forget_pos (fst r), snd r).

(** The error token for a character no token starts with. *)
Definition unexpected (t : token) : Prop :=
  t_kind t = "error"%string /\ exists c, t_content t = message_unexpected c.
