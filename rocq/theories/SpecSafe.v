(** Where the parser can give up, and where its messages point: the vocabulary
    of C11, C12 and C13. *)
From Verif Require Import Base Buf Lexer Nodes Cursor Resolve Parser SpecLex SpecGrammar.

(** The message points at one of the tokens of the file, or at its end. *)
Definition error_at (toks : list token) (eof : pos) (e : error) : Prop :=
  e_pos e = eof \/ exists t, In t toks /\ e_pos e = t_pos t.

(** Byte [n] of the UTF-8 encoding of [s] is the first byte of a character, or
    the end. *)
Definition byte_boundary (n : nat) (s : str) : Prop := exists a b, s = a ++ b /\ blen a = n.

(** A token that cannot be shown in a message: longer than 40 bytes, with byte
    37 in the middle of a character. *)
Definition unprintable (t : token) : Prop := 40 < blen (t_content t) /\ ~ byte_boundary 37 (t_content t).

(** [pre] has been read, [r] has not.  The parser aborts only
    - at the end of the file, in the middle of something,
    - in front of an operator that has no binary meaning,
    - in front of a token that cannot be shown in a message,
    - behind an array size that is no decimal number or too big for a usize. *)
Definition culprit (pre r : list token) : Prop :=
  r = [] \/
  (exists t r', r = t :: r' /\ In (t_kind t) ["~"; "++"; "--"]%string) \/
  (exists t r', r = t :: r' /\ unprintable t) \/
  (exists pre' b t, pre = pre' ++ [b; t] /\ is "[" b /\ is "num" t /\ parse_usize (t_content t) = None).

(** The same for the pre-pass.  It aborts only
    - at the end of the file, inside the braces of a typedef or behind them,
    - between the closing brace of a typedef and something that is no name,
    - behind a macro "#type" with nothing behind it that could be cut off,
    - behind an import in a file without a directory. *)
Definition prepass_culprit (path : str) (pre r : list token) : Prop :=
  r = [] \/
  (exists pre' b t r', pre = pre' ++ [b] /\ is "}" b /\ r = t :: r' /\ ~ is "word" t) \/
  (exists pre' t, pre = pre' ++ [t] /\ is "macro" t /\ begins (t_content t) (L "#type") /\ ~ byte_boundary 6 (t_content t)) \/
  (exists pre' t, pre = pre' ++ [t] /\ is "import" t /\ path_parent path = None).
