(** What a user of the encoders in lib/enc and of lib/bits expects. *)
From Coq Require Import ZArith.
From Verif Require Import LibBase.

(** A writer does what it says: [out] is what has arrived; a call passes on a
    beginning of the data and gives its length, or passes on nothing and gives a
    negative number. *)
Definition honest {W} (put : W -> bytes -> Z * W) (out : W -> bytes) : Prop :=
  forall w d, let '(r, w') := put w d in
    ((r < 0)%Z /\ out w' = out w) \/
    ((0 <= r <= Z.of_nat (List.length d))%Z /\ out w' = out w ++ firstn (Z.to_nat r) d).

(** A reader hands out the bytes of [rest] one after the other: asked for [n]
    bytes it gives [n] of them, or all that are left. *)
Definition steady {R} (get : R -> nat -> Z * bytes * R) (rest : R -> bytes) : Prop :=
  forall s n, 0 < n -> rest s <> [] ->
    let '(r, d, s') := get s n in
    d = firstn n (rest s) /\ r = Z.of_nat (List.length d) /\ rest s' = skipn n (rest s).
(** At the end it gives a negative number. *)
Definition ends {R} (get : R -> nat -> Z * bytes * R) (rest : R -> bytes) : Prop :=
  forall s n, rest s = [] -> let '(r, d, s') := get s n in (r < 0)%Z /\ rest s' = [].

(** * Hexadecimal digits *)
Definition hex_digit (c : byte) : option N :=
  if (48 <=? c)%N && (c <=? 57)%N then Some (c - 48)%N
  else if (97 <=? c)%N && (c <=? 102)%N then Some (c - 87)%N
  else if (65 <=? c)%N && (c <=? 70)%N then Some (c - 55)%N
  else None.

(** Reading hexadecimal text back. *)
Fixpoint unhex (s : bytes) : option bytes :=
  match s with
  | [] => Some []
  | a :: b :: r =>
      match hex_digit a, hex_digit b, unhex r with
      | Some x, Some y, Some l => Some ((16 * x + y)%N :: l)
      | _, _, _ => None
      end
  | _ => None
  end.

(** Reading percent-encoded text back (RFC 3986, 2.1); letters and digits stand
    for themselves, nothing else may stand unescaped. *)
Definition is_alnum (c : byte) : bool :=
  (48 <=? c)%N && (c <=? 57)%N || (65 <=? c)%N && (c <=? 90)%N || (97 <=? c)%N && (c <=? 122)%N.
Fixpoint unpercent (s : bytes) : option bytes :=
  match s with
  | [] => Some []
  | c :: r =>
      if (c =? 37)%N then
        match r with
        | a :: b :: r' =>
            match hex_digit a, hex_digit b, unpercent r' with
            | Some x, Some y, Some l => Some ((16 * x + y)%N :: l)
            | _, _, _ => None
            end
        | _ => None
        end
      else if is_alnum c then option_map (cons c) (unpercent r) else None
  end.

(** * Numbers as bytes *)
(** The number whose bytes are given, least significant first. *)
Fixpoint value_le (bs : bytes) : N :=
  match bs with [] => 0 | b :: r => b + 256 * value_le r end%N.
Definition value_be (bs : bytes) : N := value_le (rev bs).

(** * Bits *)
(** The bits of a byte in the two orders. *)
Definition byte_bits (lsb_first : bool) (b : byte) : list bool :=
  let l := List.map (N.testbit b) [0;1;2;3;4;5;6;7]%N in if lsb_first then l else rev l.
Definition stream_bits (lsb_first : bool) (bs : bytes) : list bool :=
  List.concat (List.map (byte_bits lsb_first) bs).
(** The number whose bits are given, most significant first. *)
Definition bits_value (bits : list bool) : Z :=
  fold_left (fun v (b : bool) => 2 * v + (if b then 1 else 0))%Z bits 0%Z.
