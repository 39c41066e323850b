(** Histories of lexer operations: what a user of the lexer does and sees. *)
From Verif Require Import Base Buf Lexer Nodes Cursor.

Inductive lop :=
| OMore | OGet | OPeek | OPeekn (n : nat) | OFollows (k : string) | OEat (k : string)
| OUnget (t : token).
Inductive answer := ABool (b : bool) | ATok (o : option token) | AToks (o : option (list token)) | AUnit.

Definition lazy_do `{Unicode} (o : lop) (l : lexer) : res (answer * lexer) :=
  match o with
  | OMore => rbind (lx_more l) (fun '(b, l) => Done (ABool b, l))
  | OGet => rbind (lx_get l) (fun '(t, l) => Done (ATok t, l))
  | OPeek => rbind (lx_peek l) (fun '(t, l) => Done (ATok t, l))
  | OPeekn n => rbind (lx_peekn n l) (fun '(t, l) => Done (AToks t, l))
  | OFollows k => rbind (lx_follows k l) (fun '(b, l) => Done (ABool b, l))
  | OEat k => rbind (lx_eat k l) (fun '(b, l) => Done (ABool b, l))
  | OUnget t => Done (AUnit, lx_unget t l)
  end.
Definition cursor_do (o : lop) (c : cursor) : outcome answer * cursor :=
  match o with
  | OMore => bind more (fun b => ret (ABool b)) c
  | OGet => bind get (fun t => ret (ATok t)) c
  | OPeek => bind peek (fun t => ret (ATok t)) c
  | OPeekn n => bind (peekn n) (fun t => ret (AToks t)) c
  | OFollows k => bind (follows k) (fun b => ret (ABool b)) c
  | OEat k => bind (eat k) (fun b => ret (ABool b)) c
  | OUnget t => bind (unget t) (fun _ => ret AUnit) c
  end.
(** The answers given until the history ends or the process aborts; the flag
    says which. *)
Fixpoint lazy_run `{Unicode} (ops : list lop) (l : lexer) : list answer * bool :=
  match ops with
  | [] => ([], false)
  | o :: r => match lazy_do o l with
              | Done (a, l) => let '(an, f) := lazy_run r l in (a :: an, f)
              | Panic _ | Oof => ([], true)
              end
  end.
Fixpoint cursor_run (ops : list lop) (c : cursor) : list answer * bool :=
  match ops with
  | [] => ([], false)
  | o :: r => match cursor_do o c with
              | (Ok a, c) => let '(an, f) := cursor_run r c in (a :: an, f)
              | _ => ([], true)
              end
  end.

(** [n] calls of [get] on a fresh lexer for [text]. *)
Definition gets `{Unicode} (text : str) (n : nat) : list answer * bool :=
  lazy_run (repeat OGet n) (lx_new text).
(** What [n] reads from a fixed token sequence give. *)
Fixpoint reads (toks : list token) (e : ending) (n : nat) : list answer * bool :=
  match n with
  | O => ([], false)
  | S n' =>
      match toks, e with
      | t :: r, _ => let '(an, f) := reads r e n' in (ATok (Some t) :: an, f)
      | [], EndEof _ => let '(an, f) := reads [] e n' in (ATok None :: an, f)
      | [], EndStuck t => let '(an, f) := reads [] e n' in (ATok (Some t) :: an, f)
      | [], EndPanic _ => ([], true)
      end
  end.
