(** Models of lib/strings.c, lib/formats/bencode.c and
    lib/formats/bencode_writer.c. *)
From Coq Require Export ZArith.
From Verif Require Import LibBase LibIO.

(** * strings *)

(** [tolower] and [isspace] of C in the "C" locale. *)
Definition c_tolower (c : byte) : byte := if c_isupper c then (c + 32)%N else c.
Definition c_isspace (c : byte) : bool := (c =? 32)%N || (9 <=? c)%N && (c <=? 13)%N.

(** lib/strings.c:109-120 [starts_with]. *)
Fixpoint str_starts_with (x y : bytes) : bool :=
  match x, y with
  | a :: x', b :: y' => if negb (a =? b)%N then false else str_starts_with x' y'
  | _, [] => true
  | _, _ => false
  end.

(** lib/strings.c:122-133 [starts_with_i]. *)
Fixpoint str_starts_with_i (x y : bytes) : bool :=
  match x, y with
  | a :: x', b :: y' => if negb (c_tolower a =? c_tolower b)%N then false else str_starts_with_i x' y'
  | _, [] => true
  | _, _ => false
  end.

(** lib/strings.c:95-106 [casecmp]. *)
Fixpoint str_casecmp (x y : bytes) : bool :=
  match x, y with
  | a :: x', b :: y' => if negb (c_tolower a =? c_tolower b)%N then false else str_casecmp x' y'
  | [], [] => true
  | _, _ => false
  end.

(** lib/strings.c:135-148 [ends_with]: [i] and [j] are the positions of [x] and
    [y]; the strings are seen with their final zeros. *)
Fixpoint ends_loop (s suf : bytes) (i j : nat) : bool :=
  match i, j with
  | S i', S j' =>
      if negb (nth i (s ++ [0%N]) 0%N =? nth j (suf ++ [0%N]) 0%N)%N then false else ends_loop s suf i' j'
  | _, _ => Nat.eqb j 0
  end.
Definition str_ends_with (s suf : bytes) : bool := ends_loop s suf (List.length s) (List.length suf).

(** lib/strings.c:46-52 [rtrim]. *)
Fixpoint drop_while (p : byte -> bool) (s : bytes) : bytes :=
  match s with [] => [] | c :: r => if p c then drop_while p r else s end.
Definition str_rtrim (s set : bytes) : bytes := rev (drop_while (fun c => existsb (N.eqb c) set) (rev s)).

(** lib/strings.c:32-43 [trim]. *)
Definition str_trim (s : bytes) : bytes := str_rtrim (drop_while c_isspace s) [32; 9; 13; 10]%N.

(** [strstr] of C: the first position at which the second string occurs. *)
Fixpoint c_strstr (s sep : bytes) (i : nat) : option nat :=
  if str_starts_with s sep then Some i
  else match s with [] => None | _ :: r => c_strstr r sep (S i) end.

(** lib/strings.c:69-89, the loop of [split]; [n] is the number of slots left.
    With no slot at all the results are written outside of the array. *)
Fixpoint split_loop (sep cur : bytes) (n : nat) : option (list bytes) :=
  match n with
  | O => None
  | S O => Some [cur]
  | S m =>
      match c_strstr cur sep 0 with
      | Some pos => option_map (cons (firstn pos cur)) (split_loop sep (skipn (pos + List.length sep) cur) m)
      | None => Some [cur]
      end
  end.
(** lib/strings.c:61-91 [split]; [None] for [str] is the null pointer. *)
Definition str_split (sep : bytes) (str : option bytes) (result_size : nat) : option (list bytes) :=
  match str with None => Some [] | Some s => split_loop sep s result_size end.

(** lib/strings.c:155-162 [allupper]. *)
Definition str_allupper (s : bytes) : bool := forallb (fun c => negb (c_islower c)) s.

(** lib/strings.c:183-188 [ascii_digit]; [None] is the panic. *)
Definition ascii_digit (n : Z) : option byte :=
  if ((n <? 0) || (9 <? n))%Z then None else Some (48 + Z.to_N n)%N.
(** lib/strings.c:193-198 [num_from_ascii]. *)
Definition num_from_ascii (c : byte) : Z := if c_isdigit c then Z.of_N (c - 48) else (-1)%Z.

(** * bencode writer *)

(** lib/formats/bencode_writer.c:8-28 [t], [tobuf]: the bytes written and the
    size of the buffer.  The writer to a file is not modelled. *)
Record bwriter := mkBwriter { wb_data : bytes; wb_size : nat }.
Definition bw_tobuf (size : nat) : bwriter := mkBwriter [] size.

(** lib/formats/bencode_writer.c:37-55 [byte]. *)
Definition bw_byte (w : bwriter) (b : byte) : bool * bwriter :=
  if Nat.leb (wb_size w) (List.length (wb_data w)) then (false, w)
  else (true, mkBwriter (wb_data w ++ [b]) (wb_size w)).

(** lib/formats/bencode_writer.c:62-67 [begin]; [None] is the panic. *)
Definition bw_begin (w : bwriter) (type : byte) : option (bool * bwriter) :=
  if negb (type =? 108)%N && negb (type =? 100)%N then None else Some (bw_byte w type).
(** lib/formats/bencode_writer.c:70-72 [end]. *)
Definition bw_end (w : bwriter) : bool * bwriter := bw_byte w 101%N.

(** lib/formats/bencode_writer.c:101-105: the magnitude; at most 19 steps, as a
    size_t has at most 20 digits. *)
Fixpoint magnitude (fuel : nat) (m n : Z) : Z :=
  match fuel with
  | O => m
  | S f => if (m * 10 <=? n)%Z then magnitude f (m * 10)%Z n else m
  end.
(** lib/formats/bencode_writer.c:108-113: the digits. *)
Fixpoint write_digits (fuel : nat) (w : bwriter) (n N m : Z) : option (bool * bwriter) :=
  match fuel with
  | O => None
  | S f =>
      if (m >? 0)%Z then
        obind (ascii_digit (N / m)) (fun d =>
        let '(ok, w') := bw_byte w d in
        if ok then write_digits f w' n (n mod m)%Z (m / 10)%Z else Some (false, w'))
      else Some (true, w)
  end.
(** lib/formats/bencode_writer.c:93-115 [_writenum].  Negating the least int is
    not defined in C. *)
Definition bw_writenum (w : bwriter) (n : Z) : option (bool * bwriter) :=
  if (n <=? -2147483648)%Z || (2147483647 <? n)%Z then None
  else
    let '(ok, w, n) := if (n <? 0)%Z then let '(ok, w) := bw_byte w 45%N in (ok, w, (- n)%Z) else (true, w, n) in
    if ok then write_digits 25 w n n (magnitude 20 1 n) else Some (false, w).

(** lib/formats/bencode_writer.c:78-82 [num]. *)
Definition bw_num (w : bwriter) (n : Z) : option (bool * bwriter) :=
  let '(ok, w) := bw_byte w 105%N in
  if ok then obind (bw_writenum w n) (fun '(ok, w) => if ok then Some (bw_byte w 101%N) else Some (false, w))
  else Some (false, w).

Fixpoint bw_bytes (w : bwriter) (d : bytes) : bool * bwriter :=
  match d with
  | [] => (true, w)
  | b :: r => let '(ok, w') := bw_byte w b in if ok then bw_bytes w' r else (false, w')
  end.
(** lib/formats/bencode_writer.c:84-91 [buf]. *)
Definition bw_buf_ (w : bwriter) (d : bytes) : option (bool * bwriter) :=
  obind (bw_writenum w (Z.of_nat (List.length d))) (fun '(ok, w) =>
  if ok then let '(ok, w) := bw_byte w 58%N in if ok then Some (bw_bytes w d) else Some (false, w)
  else Some (false, w)).

(** * bencode reader *)

(** A result, the panic, or something that C does not define: reading outside of
    the data, or an int that overflows.  [RFuel] is for loops of the model that
    run out of steps; they are given enough of them. *)
Inductive bres (A : Type) := ROk (a : A) | RPanic | RUndefined | RFuel.
Arguments ROk {A}. Arguments RPanic {A}. Arguments RUndefined {A}. Arguments RFuel {A}.
Definition rbind {A B} (x : bres A) (f : A -> bres B) : bres B :=
  match x with ROk a => f a | RPanic => RPanic | RUndefined => RUndefined | RFuel => RFuel end.

(** lib/formats/bencode.c:3-11 [reader_t]: only the size of the stack matters. *)
Record breader := mkBreader { rb_data : bytes; rb_pos : nat; rb_stack : nat }.
(** lib/formats/bencode.c:16-21 [newreader]. *)
Definition rb_new (data : bytes) : breader := mkBreader data 0 0.

(** lib/formats/bencode.c:187-192 [peek]: a signed char, EOF is -1. *)
Definition schar (b : byte) : Z := if (b <? 128)%N then Z.of_N b else (Z.of_N b - 256)%Z.
Definition rb_peek (r : breader) : Z :=
  match nth_error (rb_data r) (rb_pos r) with Some b => schar b | None => (-1)%Z end.
(** lib/formats/bencode.c:214-216 [pop]. *)
Definition rb_pop (r : breader) : bres (byte * breader) :=
  match nth_error (rb_data r) (rb_pos r) with
  | Some b => ROk (b, mkBreader (rb_data r) (S (rb_pos r)) (rb_stack r))
  | None => RUndefined
  end.
(** lib/formats/bencode.c:179-184 [consume]. *)
Definition rb_consume (r : breader) (c : byte) : bres breader :=
  rbind (rb_pop r) (fun '(b, r) => if (b =? c)%N then ROk r else RPanic).

(** lib/formats/bencode.c:33-38 [more]. *)
Definition rb_more (r : breader) : bool :=
  if Nat.ltb 0 (rb_stack r) then negb (rb_peek r =? 101)%Z else negb (rb_peek r =? -1)%Z.
(** lib/formats/bencode.c:44-52 [type]. *)
Definition rb_type (r : breader) : Z :=
  let p := rb_peek r in
  if (p =? -1)%Z then 0%Z else if (p =? 105)%Z then 105%Z
  else if (p =? 100)%Z then 100%Z else if (p =? 108)%Z then 108%Z else 115%Z.
(** lib/formats/bencode.c:68-73 [enter]. *)
Definition rb_enter (r : breader) : bres breader :=
  if Nat.eqb (rb_stack r) 10 then RPanic
  else rbind (rb_pop r) (fun '(_, r) => ROk (mkBreader (rb_data r) (rb_pos r) (S (rb_stack r)))).
(** lib/formats/bencode.c:78-84 [leave]. *)
Definition rb_leave (r : breader) : bres breader :=
  rbind (rb_consume r 101%N) (fun r => ROk (mkBreader (rb_data r) (rb_pos r) (rb_stack r - 1))).

(** [isdigit] of C; for negative chars it gives false, as common C libraries do. *)
Definition z_isdigit (c : Z) : bool := ((48 <=? c) && (c <=? 57))%Z.
(** lib/formats/bencode.c:204-207: overflow of int is not defined. *)
Fixpoint rb_digits (fuel : nat) (r : breader) (n : Z) : bres (Z * breader) :=
  match fuel with
  | O => RFuel
  | S f =>
      if z_isdigit (rb_peek r) then
        rbind (rb_pop r) (fun '(c, r) =>
        let n := (n * 10 + num_from_ascii c)%Z in
        if (2147483647 <? n)%Z then RUndefined else rb_digits f r n)
      else ROk (n, r)
  end.
(** lib/formats/bencode.c:194-212 [num]. *)
Definition rb_num (r : breader) : bres (Z * breader) :=
  rbind (if (rb_peek r =? 45)%Z then rbind (rb_pop r) (fun '(_, r) => ROk (true, r)) else ROk (false, r)) (fun '(neg, r) =>
  if negb (z_isdigit (rb_peek r)) then RPanic
  else rbind (rb_digits (S (List.length (rb_data r))) r 0) (fun '(n, r) => ROk ((if neg then n * -1 else n)%Z, r))).

(** lib/formats/bencode.c:98-103 [strsize]. *)
Definition rb_strsize (r : breader) : bres Z := rbind (rb_num r) (fun '(n, _) => ROk n).

Fixpoint rb_pops (n : nat) (r : breader) : bres (bytes * breader) :=
  match n with
  | O => ROk ([], r)
  | S m => rbind (rb_pop r) (fun '(b, r) => rbind (rb_pops m r) (fun '(d, r) => ROk (b :: d, r)))
  end.
(** lib/formats/bencode.c:91-93, 108-132 [key], [readbuf], [_readbuf] with a
    buffer of the given size: the first bytes of the buffer, as many as the
    answer says. *)
Definition rb_readbuf (r : breader) (len : nat) : bres (bytes * breader) :=
  rbind (rb_num r) (fun '(n, r) =>
  if (n <? 0)%Z then RPanic
  else if Nat.ltb len (Z.to_nat n) then RPanic
  else rbind (rb_consume r 58%N) (fun r => rb_pops (Z.to_nat n) r)).

(** lib/formats/bencode.c:137-142 [readnum]. *)
Definition rb_readnum (r : breader) : bres (Z * breader) :=
  rbind (rb_consume r 105%N) (fun r => rbind (rb_num r) (fun '(n, r) =>
  rbind (rb_consume r 101%N) (fun r => ROk (n, r)))).

(** lib/formats/bencode.c:148-173 [skip] and its loop over a list. *)
Fixpoint rb_skip (fuel : nat) (r : breader) : bres (bool * breader) :=
  match fuel with
  | O => RFuel
  | S f =>
      let p := rb_peek r in
      if (p =? -1)%Z then ROk (false, r)
      else if (p =? 105)%Z then rbind (rb_readnum r) (fun '(_, r) => ROk (true, r))
      else if (p =? 108)%Z || (p =? 100)%Z then
        rbind (rb_enter r) (fun r =>
        rbind ((fix loop (k : nat) (r : breader) : bres breader :=
                  match k with
                  | O => RFuel
                  | S k' => if rb_more r then rbind (rb_skip f r) (fun '(_, r) => loop k' r) else ROk r
                  end) f r) (fun r =>
        rbind (rb_leave r) (fun r => ROk (true, r))))
      else rbind (rb_num r) (fun '(n, r) => rbind (rb_consume r 58%N) (fun r =>
           rbind (rb_pops (Z.to_nat n) r) (fun '(_, r) => ROk (true, r))))
  end.
