(** Rust strings, results and the standard-library string functions that the
    code in /repo/src calls.  No proofs about the compiler here. *)
From Coq Require Export NArith ZArith String Ascii Bool Lia List.
Export ListNotations.
#[export] Set Warnings "-notation-overridden".
Global Open Scope list_scope.
Global Open Scope bool_scope.

(** A Rust [char] is a Unicode code point; a Rust [String] is modelled as the
    list of its code points (its UTF-8 byte length is [blen] below). *)
Definition char := N.
Definition str := list char.

(** ASCII literals of the Rust source. *)
Fixpoint lit (s : string) : str :=
  match s with
  | EmptyString => []
  | String a r => N_of_ascii a :: lit r
  end.
Notation "'L' s" := (lit s%string) (at level 1, s at level 0, only parsing).

Definition ch (a : ascii) : char := N_of_ascii a.
Definition c_nl : char := 10%N.

(** String equality ([==] on String / &str). *)
Fixpoint str_eqb (a b : str) : bool :=
  match a, b with
  | [], [] => true
  | x :: a', y :: b' => N.eqb x y && str_eqb a' b'
  | _, _ => false
  end.

(** [Vec<String>::contains]. *)
Definition str_in (x : str) (l : list str) : bool := existsb (str_eqb x) l.

(** [str::starts_with] and the rest after the prefix. *)
Fixpoint strip_prefix (p s : str) : option str :=
  match p, s with
  | [], _ => Some s
  | x :: p', y :: s' => if N.eqb x y then strip_prefix p' s' else None
  | _ :: _, [] => None
  end.
Definition starts_with (s p : str) : bool :=
  match strip_prefix p s with Some _ => true | None => false end.
Definition ends_with (s p : str) : bool := starts_with (rev s) (rev p).

(** Number of bytes of the UTF-8 encoding of one code point. *)
Definition ulen (c : char) : nat :=
  if N.ltb c 128 then 1 else if N.ltb c 2048 then 2 else if N.ltb c 65536 then 3 else 4.
(** [String::len]: the length in bytes. *)
Fixpoint blen (s : str) : nat :=
  match s with [] => 0 | c :: r => ulen c + blen r end.

(** [s[n..]] and [s[0..n]] with a byte index [n]: [None] is the panic raised
    when the index is out of range or inside a character. *)
Fixpoint bdrop (n : nat) (s : str) : option str :=
  match n with
  | O => Some s
  | _ => match s with
         | [] => None
         | c :: r => if Nat.leb (ulen c) n then bdrop (n - ulen c) r else None
         end
  end.
Fixpoint btake (n : nat) (s : str) : option str :=
  match n with
  | O => Some []
  | _ => match s with
         | [] => None
         | c :: r => if Nat.leb (ulen c) n
                     then match btake (n - ulen c) r with
                          | Some t => Some (c :: t) | None => None end
                     else None
         end
  end.

(** Unicode White_Space, the set used by [char::is_whitespace], [str::trim]
    and [str::split_whitespace]. *)
Definition is_space (c : char) : bool :=
  (N.leb 9 c && N.leb c 13) || N.eqb c 32 || N.eqb c 133 || N.eqb c 160
  || N.eqb c 5760 || (N.leb 8192 c && N.leb c 8202) || N.eqb c 8232
  || N.eqb c 8233 || N.eqb c 8239 || N.eqb c 8287 || N.eqb c 12288.

Fixpoint drop_while (p : char -> bool) (s : str) : str :=
  match s with
  | [] => []
  | c :: r => if p c then drop_while p r else s
  end.
Definition trim (s : str) : str :=
  rev (drop_while is_space (rev (drop_while is_space s))).

(** [str::split_whitespace]. *)
Fixpoint split_ws_aux (cur : str) (s : str) : list str :=
  match s with
  | [] => match cur with [] => [] | _ => [rev cur] end
  | c :: r => if is_space c
              then match cur with [] => split_ws_aux [] r
                                | _ => rev cur :: split_ws_aux [] r end
              else split_ws_aux (c :: cur) r
  end.
Definition split_whitespace (s : str) : list str := split_ws_aux [] s.

(** [str::split] on a single character. *)
Fixpoint split_char_aux (d : char) (cur : str) (s : str) : list str :=
  match s with
  | [] => [rev cur]
  | c :: r => if N.eqb c d then rev cur :: split_char_aux d [] r
              else split_char_aux d (c :: cur) r
  end.
Definition split_char (d : char) (s : str) : list str := split_char_aux d [] s.

(** [str::replace] where the pattern is one character. *)
Fixpoint replace1 (d : char) (by_ : str) (s : str) : str :=
  match s with
  | [] => []
  | c :: r => if N.eqb c d then by_ ++ replace1 d by_ r else c :: replace1 d by_ r
  end.

Arguments replace1 d%N by_ s.

(** [[...].join(sep)]. *)
Fixpoint join (sep : str) (l : list str) : str :=
  match l with
  | [] => []
  | [x] => x
  | x :: r => x ++ sep ++ join sep r
  end.

Fixpoint repeat_str (n : nat) (s : str) : str :=
  match n with O => [] | S m => s ++ repeat_str m s end.

(** Decimal notation of an unsigned integer ([format!("{}", n)]). *)
Fixpoint uint_digits (u : Decimal.uint) : str :=
  match u with
  | Decimal.Nil => []
  | Decimal.D0 u => 48%N :: uint_digits u
  | Decimal.D1 u => 49%N :: uint_digits u
  | Decimal.D2 u => 50%N :: uint_digits u
  | Decimal.D3 u => 51%N :: uint_digits u
  | Decimal.D4 u => 52%N :: uint_digits u
  | Decimal.D5 u => 53%N :: uint_digits u
  | Decimal.D6 u => 54%N :: uint_digits u
  | Decimal.D7 u => 55%N :: uint_digits u
  | Decimal.D8 u => 56%N :: uint_digits u
  | Decimal.D9 u => 57%N :: uint_digits u
  end.
Definition dec (n : N) : str := uint_digits (N.to_uint n).

(** ASCII classes. *)
Definition is_ascii_digit (c : char) : bool := N.leb 48 c && N.leb c 57.
Definition is_ascii_alpha (c : char) : bool :=
  (N.leb 65 c && N.leb c 90) || (N.leb 97 c && N.leb c 122).

(** [str::parse::<usize>()] on a 64-bit target: an optional "+", then at least
    one digit, and the value must fit in 64 bits. *)
Fixpoint digits_val (acc : N) (s : str) : option N :=
  match s with
  | [] => Some acc
  | c :: r => if is_ascii_digit c then digits_val (acc * 10 + (c - 48))%N r else None
  end.
Definition parse_usize (s : str) : option N :=
  let s := match s with 43%N :: r => r | _ => s end in
  match s with
  | [] => None
  | _ => match digits_val 0 s with
         | Some v => if N.ltb v 18446744073709551616 then Some v else None
         | None => None
         end
  end.

(** Results of code that may abort the process.  [Oof] = the model's fuel ran
    out; non-termination of the code shows up as [Oof] for every fuel. *)
Inductive res (A : Type) : Type :=
| Done (a : A)
| Panic (why : string)
| Oof.
Arguments Done {A}. Arguments Panic {A}. Arguments Oof {A}.

Definition rbind {A B} (r : res A) (f : A -> res B) : res B :=
  match r with Done a => f a | Panic w => Panic w | Oof => Oof end.

(** [Option::unwrap]. *)
Definition unwrap {A} (why : string) (o : option A) : res A :=
  match o with Some a => Done a | None => Panic why end.
