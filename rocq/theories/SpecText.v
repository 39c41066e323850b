(** What a user of lib/strings and of the bencode modules expects. *)
From Coq Require Import ZArith.
From Verif Require Import LibBase.

(** * Strings *)

(** ASCII letters without regard to case. *)
Definition fold_case (c : byte) : byte := if ((65 <=? c) && (c <=? 90))%N then (c + 32)%N else c.

(** Spaces, tabs, line feeds, vertical tabs, form feeds, carriage returns. *)
Definition is_space (c : byte) : Prop := c = 32%N \/ (9 <= c <= 13)%N.

(** [r] is [s] without the spaces at both ends. *)
Definition trimmed (s r : bytes) : Prop :=
  exists a b, s = a ++ r ++ b /\ Forall is_space a /\ Forall is_space b /\
    (forall c t, r = c :: t -> ~ is_space c) /\ (forall c t, r = t ++ [c] -> ~ is_space c).

Definition occurs_at (sep s : bytes) (i : nat) : Prop := exists a b, s = a ++ sep ++ b /\ List.length a = i.

(** The pieces of a string, cut at the first separator, then at the first one
    behind that, and so on, at most [n] pieces. *)
Inductive pieces (sep : bytes) : nat -> bytes -> list bytes -> Prop :=
| pieces_last : forall s, pieces sep 1 s [s]
| pieces_none : forall n s, (forall i, ~ occurs_at sep s i) -> pieces sep (S n) s [s]
| pieces_cut : forall n p r l, (forall i, occurs_at sep (p ++ sep ++ r) i -> List.length p <= i) ->
    pieces sep (S n) r l -> pieces sep (S (S n)) (p ++ sep ++ r) (p :: l).

(** The string with the separator between the pieces. *)
Fixpoint join (sep : bytes) (l : list bytes) : bytes :=
  match l with
  | [] => []
  | [p] => p
  | p :: r => p ++ sep ++ join sep r
  end.

(** * Bencode (BEP 3) *)
Inductive bvalue :=
| BNum (n : Z)
| BStr (s : bytes)
| BList (l : list bvalue)
| BDict (l : list (bytes * bvalue)).

(** Decimal numbers without needless zeros. *)
Definition digits_value (ds : bytes) : Z := fold_left (fun v d => (10 * v + Z.of_N (d - 48))%Z) ds 0%Z.
Definition natural (n : Z) (ds : bytes) : Prop :=
  ds <> [] /\ Forall (fun d => (48 <= d <= 57)%N) ds /\ digits_value ds = n /\
  (forall t, ds = 48%N :: t -> t = []).
Inductive decimal : Z -> bytes -> Prop :=
| dec_pos : forall n ds, natural n ds -> decimal n ds
| dec_neg : forall n ds, (0 < n)%Z -> natural n ds -> decimal (- n) (45%N :: ds).

Inductive encodes : bvalue -> bytes -> Prop :=
| enc_num : forall n ds, decimal n ds -> encodes (BNum n) (105%N :: ds ++ [101%N])
| enc_str : forall s e, encodes_str s e -> encodes (BStr s) e
| enc_list : forall l e, encodes_list l e -> encodes (BList l) (108%N :: e ++ [101%N])
| enc_dict : forall l e, encodes_dict l e -> encodes (BDict l) (100%N :: e ++ [101%N])
with encodes_str : bytes -> bytes -> Prop :=
| enc_bytes : forall s ds, natural (Z.of_nat (List.length s)) ds -> encodes_str s (ds ++ 58%N :: s)
with encodes_list : list bvalue -> bytes -> Prop :=
| enc_nil : encodes_list [] []
| enc_cons : forall v l e e', encodes v e -> encodes_list l e' -> encodes_list (v :: l) (e ++ e')
with encodes_dict : list (bytes * bvalue) -> bytes -> Prop :=
| enc_dnil : encodes_dict [] []
| enc_dcons : forall k v l ek e e', encodes_str k ek -> encodes v e -> encodes_dict l e' ->
    encodes_dict ((k, v) :: l) (ek ++ e ++ e').

(** Numbers and lengths that fit an int other than the least one. *)
Inductive fits : bvalue -> Prop :=
| fits_num : forall n, (-2147483648 < n <= 2147483647)%Z -> fits (BNum n)
| fits_str : forall s, (Z.of_nat (List.length s) <= 2147483647)%Z -> fits (BStr s)
| fits_list : forall l, Forall fits l -> fits (BList l)
| fits_dict : forall l, Forall (fun kv => (Z.of_nat (List.length (fst kv)) <= 2147483647)%Z) l ->
    Forall (fun kv => fits (snd kv)) l -> fits (BDict l).

(** How deep lists and dictionaries are nested. *)
Fixpoint depth (v : bvalue) : nat :=
  match v with
  | BNum _ | BStr _ => 0
  | BList l => S (fold_right (fun v n => Nat.max (depth v) n) 0 l)
  | BDict l => S (fold_right (fun kv n => Nat.max (depth (snd kv)) n) 0 l)
  end.
