(** Model of src/buf.rs. *)
From Verif Require Import Base.

(** src/buf.rs:11-15 [Pos].  usize counters are unbounded [N]. *)
Record pos := mkPos { p_line : N; p_col : N }.

(** src/buf.rs:18-20 [Pos::fmt]. *)
Definition pos_fmt (p : pos) : str := dec (p_line p) ++ L ":" ++ dec (p_col p).

(** src/buf.rs:2-9 [Buf].  Simplification: instead of the pair (whole text,
    index) the record keeps the unread suffix; the text before the index is
    never read again.  [linelengths] is written but never read, so it is
    dropped. *)
Record buf := mkBuf { b_rest : str; b_pos : pos }.

(** src/buf.rs:23-32 [new]. *)
Definition buf_new (s : str) : buf := mkBuf s (mkPos 1 1).

(** src/buf.rs:69-75: the position update of [Buf::get]. *)
Definition adv1 (p : pos) (c : char) : pos :=
  if N.eqb c c_nl then mkPos (p_line p + 1) 1 else mkPos (p_line p) (p_col p + 1).

(** src/buf.rs:39-41 [Buf::more]. *)
Definition buf_more (b : buf) : bool :=
  match b_rest b with [] => false | _ => true end.

(** src/buf.rs:35-37 [Buf::ended]. *)
Definition buf_ended (b : buf) : bool := negb (buf_more b).

(** src/buf.rs:50-56 [Buf::peek]. *)
Definition buf_peek (b : buf) : option char :=
  match b_rest b with [] => None | c :: _ => Some c end.

(** src/buf.rs:62-77 [Buf::get]. *)
Definition buf_get (b : buf) : option (char * buf) :=
  match b_rest b with
  | [] => None
  | c :: r => Some (c, mkBuf r (adv1 (b_pos b) c))
  end.

(** The common shape of the reading loops: take characters while [p] holds. *)
Fixpoint take_while (p : char -> bool) (s : str) (q : pos) : str * buf :=
  match s with
  | [] => ([], mkBuf [] q)
  | c :: r => if p c
              then let '(t, b) := take_while p r (adv1 q c) in (c :: t, b)
              else ([], mkBuf s q)
  end.

(** src/buf.rs:93-106 [Buf::read_set]. *)
Definition buf_read_set (set : str) (b : buf) : str * buf :=
  take_while (fun c => existsb (N.eqb c) set) (b_rest b) (b_pos b).

(** src/buf.rs:126-138 [Buf::literal_follows].  All literals in the code are
    ASCII, so bytes and characters coincide. *)
Definition buf_literal_follows (l : str) (b : buf) : bool := starts_with (b_rest b) l.

(** src/buf.rs:112-114: [n] calls of [get]. *)
Fixpoint buf_skip (n : nat) (b : buf) : buf :=
  match n with
  | O => b
  | S m => match buf_get b with Some (_, b') => buf_skip m b' | None => b end
  end.

(** src/buf.rs:108-116 [Buf::skip_literal]: [None] = false, buffer unchanged. *)
Definition buf_skip_literal (l : str) (b : buf) : option buf :=
  if buf_literal_follows l b then Some (buf_skip (List.length l) b) else None.

(** src/buf.rs:118-124 [Buf::until_literal]. *)
Fixpoint until_literal_aux (l : str) (s : str) (q : pos) : str * buf :=
  match s with
  | [] => ([], mkBuf [] q)
  | c :: r => if starts_with s l then ([], mkBuf s q)
              else let '(t, b) := until_literal_aux l r (adv1 q c) in (c :: t, b)
  end.
Definition buf_until_literal (l : str) (b : buf) : str * buf :=
  until_literal_aux l (b_rest b) (b_pos b).

(** src/buf.rs:143-149 [Buf::skip_until]. *)
Definition buf_skip_until (c : char) (b : buf) : str * buf :=
  take_while (fun x => negb (N.eqb x c)) (b_rest b) (b_pos b).
