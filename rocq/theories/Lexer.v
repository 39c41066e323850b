(** Model of src/lexer.rs. *)
From Verif Require Import Base Buf.

(** [char::is_alphanumeric] outside ASCII is decided by Unicode tables; the
    model takes it as a parameter. *)
Class Unicode := { uni_alnum : char -> bool }.

(** src/lexer.rs:206 [ch.is_alphanumeric()]. *)
Definition is_alphanumeric `{Unicode} (c : char) : bool :=
  if N.ltb c 128 then is_ascii_alpha c || is_ascii_digit c else uni_alnum c.

(** src/lexer.rs:9-13 [Token].  [kind] is always one of the source's ASCII
    literals (or a keyword), hence a Coq [string]. *)
Record token := mkTok { t_kind : string; t_content : str; t_pos : pos }.

Definition kind_is (t : token) (k : string) : bool := String.eqb (t_kind t) k.

(** src/lexer.rs:15-20 [Display for Token]. *)
Definition token_display (t : token) : str :=
  L "[" ++ lit (t_kind t) ++ L " " ++ firstn 40 (t_content t) ++ L "]".

(** src/lexer.rs:22. *)
Definition SPACES : str := [13; 10; 9; 32]%N.

(** src/lexer.rs:24-27. *)
Definition KEYWORDS : list string :=
  ["break"; "case"; "const"; "continue"; "default"; "else"; "enum"; "for"; "if"; "pub";
   "return"; "sizeof"; "struct"; "switch"; "typedef"; "union"; "while"]%string.

(** src/lexer.rs:84-88. *)
Definition SYMBOLS : list string :=
  ["<<="; ">>="; "..."; "++"; "--"; "->"; "<<"; ">>"; "<="; ">="; "&&"; "||"; "+="; "-=";
   "*="; "/="; "%="; "&="; "^="; "|="; "=="; "!="; "!"; "~"; "&"; "^"; "*"; "/"; "%"; "=";
   "|"; ":"; ","; "<"; ">"; "+"; "-"; "{"; "}"; ";"; "["; "]"; "("; ")"; "."; "?"]%string.

Definition DIGITS : str := L "0123456789".
Definition HEXDIGITS : str := L "0123456789ABCDEFabcdef".

Definition unexpected_char (c : char) : str :=
  L "Unexpected character: '" ++ [c] ++ L "'".

(** src/lexer.rs:147-161 [read_hex]. *)
Definition read_hex (b : buf) : token * buf :=
  let p := b_pos b in
  let b := buf_skip 2 b in
  let '(num, b) := buf_read_set HEXDIGITS b in
  let '(suf, b) := buf_read_set (L "UL") b in
  (mkTok "num" (L "0x" ++ num ++ suf) p, b).

(** src/lexer.rs:106-145 [read_number].  The panic is the unwrap on line 124
    when the input ends after the exponent letter. *)
Definition read_number (b : buf) : res (token * buf) :=
  if buf_literal_follows (L "0x") b then Done (read_hex b) else
  let p := b_pos b in
  let '(num, b) := buf_read_set DIGITS b in
  let '(modifiers, num, b) :=
    match buf_peek b with
    | Some 46%N =>
        let b := buf_skip 1 b in
        let '(frac, b) := buf_read_set DIGITS b in
        (L "ULf", num ++ L "." ++ frac, b)
    | _ => (L "UL", num, b)
    end in
  rbind
    (match buf_peek b with
     | Some c =>
         if N.eqb c 101 || N.eqb c 69 then
           let b := buf_skip 1 b in
           match buf_peek b with
           | None => Panic "read_number: unwrap at line 124"
           | Some c2 =>
               let '(num, b) :=
                 if N.eqb c2 45 then (num ++ [c] ++ L "-", buf_skip 1 b) else (num ++ [c], b) in
               let '(ds, b) := buf_read_set DIGITS b in
               Done (num ++ ds, b)
           end
         else Done (num, b)
     | None => Done (num, b)
     end)
    (fun '(num, b) =>
       let '(suf, b) := buf_read_set modifiers b in
       let num := num ++ suf in
       match buf_peek b with
       | Some c => if is_ascii_alpha c
                   then Done (mkTok "error" (unexpected_char c) (b_pos b), b)
                   else Done (mkTok "num" num p, b)
       | None => Done (mkTok "num" num p, b)
       end).

(** src/lexer.rs:170-176: the inner loop of [read_string_literal]; panics on a
    backslash at the end of the input. *)
Fixpoint read_substr (s : str) (q : pos) : res (str * buf) :=
  match s with
  | [] => Done ([], mkBuf [] q)
  | c :: r =>
      if N.eqb c 34 then Done ([], mkBuf s q)
      else if N.eqb c 92 then
        match r with
        | [] => Panic "read_string_literal: unwrap at line 174"
        | c2 :: r2 =>
            rbind (read_substr r2 (adv1 (adv1 q c) c2))
                  (fun '(t, b) => Done (c :: c2 :: t, b))
        end
      else rbind (read_substr r (adv1 q c)) (fun '(t, b) => Done (c :: t, b))
  end.

(** src/lexer.rs:167-186: the loop over the pieces of a string literal. *)
Fixpoint read_pieces (fuel : nat) (p : pos) (s : str) (b : buf) : res (token * buf) :=
  match fuel with
  | O => Oof
  | S f =>
      match buf_peek b with
      | Some 34%N =>
          let b := buf_skip 1 b in
          rbind (read_substr (b_rest b) (b_pos b))
            (fun '(sub, b) =>
               match buf_get b with
               | None => Done (mkTok "error" (L "Double quote expected") p, b)
               | Some (c, b) =>
                   if N.eqb c 34 then
                     let '(_, b) := buf_read_set SPACES b in
                     read_pieces f p (s ++ sub) b
                   else Done (mkTok "error" (L "Double quote expected") p, b)
               end)
      | _ => Done (mkTok "string" s p, b)
      end
  end.

(** src/lexer.rs:163-192 [read_string_literal].  Each piece consumes at least
    one character, so the length of the input is enough fuel. *)
Definition read_string_literal (b : buf) : res (token * buf) :=
  read_pieces (S (List.length (b_rest b))) (b_pos b) [] b.

(** src/lexer.rs:197-210: the loop of [read_word].  [word] is the reversed word
    read so far. *)
Fixpoint read_word_aux `{Unicode} (word : str) (s : str) (q : pos) : str * buf :=
  match s with
  | [] => (rev word, mkBuf [] q)
  | c :: r =>
      if str_eqb (rev word) (L "calloc") && N.eqb c 33
      then (rev (c :: word), mkBuf r (adv1 q c))
      else if negb (is_alphanumeric c) && negb (N.eqb c 95)
      then (rev word, mkBuf s q)
      else read_word_aux (c :: word) r (adv1 q c)
  end.

(** src/lexer.rs:194-224 [read_word]. *)
Definition read_word `{Unicode} (b : buf) : token * buf :=
  let p := b_pos b in
  let '(word, b) := read_word_aux [] (b_rest b) (b_pos b) in
  match find (fun k => str_eqb (lit k) word) KEYWORDS with
  | Some k => (mkTok k [] p, b)
  | None => (mkTok "word" word p, b)
  end.

(** src/lexer.rs:226-248 [read_char_literal]; both unwraps (235, 236) panic at
    the end of the input. *)
Definition read_char_literal (b : buf) : res (token * buf) :=
  let p := b_pos b in
  let b := buf_skip 1 b in
  let '(pre, b) :=
    match buf_peek b with
    | Some 92%N => ([92%N], buf_skip 1 b)
    | _ => ([], b)
    end in
  match buf_get b with
  | None => Panic "read_char_literal: unwrap at line 235"
  | Some (c, b) =>
      match buf_get b with
      | None => Panic "read_char_literal: unwrap at line 236"
      | Some (q, b) =>
          if N.eqb q 39 then Done (mkTok "char" (pre ++ [c]) p, b)
          else Done (mkTok "error" (L "Single quote expected") p, b)
      end
  end.

(** src/lexer.rs:250-266 [read_multiline_comment]. *)
Definition read_multiline_comment (b : buf) : token * buf :=
  let p := b_pos b in
  let b := buf_skip 2 b in
  let '(comment, b) := buf_until_literal (L "*/") b in
  match buf_skip_literal (L "*/") b with
  | None => (mkTok "error" (L "*/ expected") p, b)
  | Some b => (mkTok "comment" comment p, b)
  end.

(** src/lexer.rs:89-97: the loop over the operator table. *)
Fixpoint read_symbol (syms : list string) (b : buf) : option (string * buf) :=
  match syms with
  | [] => None
  | s :: r => match buf_skip_literal (lit s) b with
              | Some b' => Some (s, b')
              | None => read_symbol r b
              end
  end.

(** src/lexer.rs:29-104 [read_token]. *)
Definition read_token `{Unicode} (b : buf) : res (option token * buf) :=
  let '(_, b) := buf_read_set SPACES b in
  match buf_peek b with
  | None => Done (None, b)
  | Some next =>
      let p := b_pos b in
      let ret := fun (tb : token * buf) => Done (Some (fst tb), snd tb) in
      match buf_skip_literal (L "#import") b with
      | Some b =>
          let '(_, b) := buf_read_set SPACES b in
          let '(s, b) := buf_skip_until c_nl b in
          Done (Some (mkTok "import" (trim s) p), b)
      | None =>
      if N.eqb next 35 then
        let '(s, b) := buf_skip_until c_nl b in
        Done (Some (mkTok "macro" s p), b)
      else if buf_literal_follows (L "/*") b then ret (read_multiline_comment b)
      else match buf_skip_literal (L "//") b with
      | Some b =>
          let '(s, b) := buf_skip_until c_nl b in
          Done (Some (mkTok "comment" s p), b)
      | None =>
      if is_ascii_alpha next || N.eqb next 95 then ret (read_word b)
      else if is_ascii_digit next then rbind (read_number b) ret
      else if N.eqb next 34 then rbind (read_string_literal b) ret
      else if N.eqb next 39 then rbind (read_char_literal b) ret
      else match read_symbol SYMBOLS b with
      | Some (s, b) => Done (Some (mkTok s [] p), b)
      | None => Done (Some (mkTok "error" (unexpected_char next) p), b)
      end end end
  end.

(** src/lexer.rs:428-433 [Lexer]. *)
Record lexer := mkLexer { lx_buf : buf; lx_next : list token }.

(** src/lexer.rs:453-462: the loop of [Lexer::get], also lines 478-487 of
    [peekn]: the next token that is not a comment.  A comment consumes at least
    two characters, so the length of the input is enough fuel. *)
Fixpoint read_noncomment `{Unicode} (fuel : nat) (b : buf) : res (option token * buf) :=
  match fuel with
  | O => Oof
  | S f => rbind (read_token b)
             (fun '(o, b) =>
                match o with
                | Some t => if kind_is t "comment" then read_noncomment f b else Done (Some t, b)
                | None => Done (None, b)
                end)
  end.
Definition next_token `{Unicode} (b : buf) : res (option token * buf) :=
  read_noncomment (S (List.length (b_rest b))) b.

(** src/lexer.rs:449-463 [Lexer::get]. *)
Definition lx_get `{Unicode} (l : lexer) : res (option token * lexer) :=
  match lx_next l with
  | t :: r => Done (Some t, mkLexer (lx_buf l) r)
  | [] => rbind (next_token (lx_buf l)) (fun '(o, b) => Done (o, mkLexer b []))
  end.

(** src/lexer.rs:465-467 [Lexer::unget]. *)
Definition lx_unget (t : token) (l : lexer) : lexer := mkLexer (lx_buf l) (t :: lx_next l).

(** src/lexer.rs:436-443 [Lexer::more]. *)
Definition lx_more `{Unicode} (l : lexer) : res (bool * lexer) :=
  rbind (lx_get l) (fun '(o, l) =>
    match o with
    | None => Done (false, l)
    | Some t => Done (true, lx_unget t l)
    end).

(** src/lexer.rs:445-447 [Lexer::pos]. *)
Definition lx_pos (l : lexer) : pos := b_pos (lx_buf l).

(** src/lexer.rs:476-493 [Lexer::peekn]: [k] more tokens have to be queued. *)
Fixpoint lx_fill `{Unicode} (k : nat) (l : lexer) : res (bool * lexer) :=
  match k with
  | O => Done (true, l)
  | S k' => rbind (next_token (lx_buf l)) (fun '(o, b) =>
              match o with
              | None => Done (false, mkLexer b (lx_next l))
              | Some t => lx_fill k' (mkLexer b (lx_next l ++ [t]))
              end)
  end.
Definition lx_peekn `{Unicode} (n : nat) (l : lexer) : res (option (list token) * lexer) :=
  rbind (lx_fill (n - List.length (lx_next l)) l) (fun '(ok, l) =>
    Done (if ok : bool then Some (firstn n (lx_next l)) else None, l)).

(** src/lexer.rs:470-472 [Lexer::peek]. *)
Definition lx_peek `{Unicode} (l : lexer) : res (option token * lexer) :=
  rbind (lx_peekn 1 l) (fun '(o, l) =>
    Done (match o with Some (t :: _) => Some t | _ => None end, l)).

(** src/lexer.rs:495-497 [Lexer::follows]. *)
Definition lx_follows `{Unicode} (k : string) (l : lexer) : res (bool * lexer) :=
  rbind (lx_more l) (fun '(m, l) =>
    if m : bool then
      rbind (lx_peek l) (fun '(o, l) =>
        match o with
        | Some t => Done (kind_is t k, l)
        | None => Panic "follows: unwrap at line 496"
        end)
    else Done (false, l)).

(** src/lexer.rs:499-505 [Lexer::eat]. *)
Definition lx_eat `{Unicode} (k : string) (l : lexer) : res (bool * lexer) :=
  rbind (lx_follows k l) (fun '(f, l) =>
    if f : bool then rbind (lx_get l) (fun '(_, l) => Done (true, l)) else Done (false, l)).

(** src/lexer.rs:418-426 [for_file] after the file has been read. *)
Definition lx_new (text : str) : lexer := mkLexer (buf_new text) [].
