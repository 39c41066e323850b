(** The token stream of a file, seen from the parser.

    src/lexer.rs keeps a lazily filled queue of tokens.  The parser and the
    pre-parser only look at it through more / get / unget / peek / peekn /
    follows / eat, so here the same operations are given on the whole token
    sequence of the file.  File LexerRefine.v proves that for every history of
    operations the lazy lexer of Lexer.v answers exactly like this cursor. *)
From Verif Require Import Base Buf Lexer Nodes.

(** How a token sequence ends: at the end of the text (with the position there),
    with an abort of the lexer, or with the "unexpected character" error token
    that is returned again and again because it consumes nothing. *)
Inductive ending := EndEof (p : pos) | EndPanic (why : string) | EndStuck (t : token).

Record cursor := mkCur { c_toks : list token; c_end : ending }.

(** The token sequence of a buffer; the length of the text is enough fuel. *)
Fixpoint tokenize_aux `{Unicode} (fuel : nat) (b : buf) : cursor :=
  match fuel with
  | O => mkCur [] (EndPanic "tokenize: out of fuel")
  | S f =>
      match next_token b with
      | Done (None, b') => mkCur [] (EndEof (b_pos b'))
      | Done (Some t, b') =>
          if Nat.eqb (List.length (b_rest b')) (List.length (b_rest b))
          then mkCur [] (EndStuck t)
          else let r := tokenize_aux f b' in mkCur (t :: c_toks r) (c_end r)
      | Panic w => mkCur [] (EndPanic w)
      | Oof => mkCur [] (EndPanic "next_token: out of fuel")
      end
  end.
Definition tokenize `{Unicode} (b : buf) : cursor :=
  tokenize_aux (S (List.length (b_rest b))) b.

(** Outcome of a parsing function: a value, a reported error, a process abort,
    or fuel exhausted.  The cursor is returned in every case because error
    recovery goes on from the place of the error. *)
Inductive outcome (A : Type) : Type :=
| Ok (a : A) | Err (e : error) | Abort (why : string) | NoFuel.
Arguments Ok {A}. Arguments Err {A}. Arguments Abort {A}. Arguments NoFuel {A}.

Definition M (A : Type) := cursor -> outcome A * cursor.
Definition ret {A} (a : A) : M A := fun c => (Ok a, c).
Definition fail {A} (e : error) : M A := fun c => (Err e, c).
Definition abort {A} (w : string) : M A := fun c => (Abort w, c).
Definition nofuel {A} : M A := fun c => (NoFuel, c).
Definition bind {A B} (m : M A) (f : A -> M B) : M B := fun c =>
  match m c with
  | (Ok a, c') => f a c'
  | (Err e, c') => (Err e, c')
  | (Abort w, c') => (Abort w, c')
  | (NoFuel, c') => (NoFuel, c')
  end.
Declare Scope mon_scope.
Delimit Scope mon_scope with mon.
Notation "x <- m ;; f" := (bind m (fun x => f))
  (at level 61, m at next level, right associativity) : mon_scope.
Notation "' p <- m ;; f" := (bind m (fun p => f))
  (at level 61, p pattern, m at next level, right associativity) : mon_scope.
Notation "m ;;; f" := (bind m (fun _ => f)) (at level 61, right associativity) : mon_scope.

(** src/lexer.rs:449-463 [Lexer::get]. *)
Definition get : M (option token) := fun c =>
  match c_toks c with
  | t :: r => (Ok (Some t), mkCur r (c_end c))
  | [] => match c_end c with
          | EndEof _ => (Ok None, c)
          | EndPanic w => (Abort w, c)
          | EndStuck t => (Ok (Some t), c)
          end
  end.

(** src/lexer.rs:470-472 [Lexer::peek]. *)
Definition peek : M (option token) := fun c =>
  match c_toks c with
  | t :: _ => (Ok (Some t), c)
  | [] => match c_end c with
          | EndEof _ => (Ok None, c)
          | EndPanic w => (Abort w, c)
          | EndStuck t => (Ok (Some t), c)
          end
  end.

(** src/lexer.rs:436-443 [Lexer::more]. *)
Definition more : M bool :=
  bind peek (fun o => ret (match o with Some _ => true | None => false end)).

(** src/lexer.rs:465-467 [Lexer::unget]. *)
Definition unget (t : token) : M unit := fun c => (Ok tt, mkCur (t :: c_toks c) (c_end c)).

(** src/lexer.rs:476-493 [Lexer::peekn]. *)
Definition peekn (n : nat) : M (option (list token)) := fun c =>
  let k := List.length (c_toks c) in
  if Nat.leb n k then (Ok (Some (firstn n (c_toks c))), c)
  else match c_end c with
       | EndEof _ => (Ok None, c)
       | EndPanic w => (Abort w, c)
       | EndStuck t => (Ok (Some (c_toks c ++ repeat t (n - k))), c)
       end.

(** src/lexer.rs:495-497 [Lexer::follows]. *)
Definition follows (k : string) : M bool :=
  bind peek (fun o => ret (match o with Some t => kind_is t k | None => false end)).

(** src/lexer.rs:499-505 [Lexer::eat]. *)
Definition eat (k : string) : M bool :=
  bind (follows k) (fun f => if f : bool then bind get (fun _ => ret true) else ret false).

(** src/lexer.rs:445-447 [Lexer::pos].  The parser reads it only after [more]
    has returned false, that is at the end of the text. *)
Definition eof_pos (c : cursor) : pos :=
  match c_end c with EndEof p => p | _ => mkPos 0 0 end.

(** [l.peek().unwrap()] and [l.get().unwrap()]. *)
Definition peek_unwrap (w : string) : M token :=
  bind peek (fun o => match o with Some t => ret t | None => abort w end).
Definition get_unwrap (w : string) : M token :=
  bind get (fun o => match o with Some t => ret t | None => abort w end).
