(** MD5 as RFC 1321 defines it, and what is expected of a file in memory. *)
From Coq Require Import NArith ZArith.
From Verif Require Import LibBase SpecIO SpecSha1.

(** * MD5 *)
Section md5.
Local Open Scope N_scope.

(** Section 3.4: four functions on words of 32 bits; [plus], [rotl] and [compl] are
    addition modulo 2^32, rotation to the left and complement (SpecSha1). *)
Definition F (x y z : N) := N.lor (conj x y) (conj (compl x) z).
Definition G (x y z : N) := N.lor (conj x z) (conj y (compl z)).
Definition H (x y z : N) := xor (xor x y) z.
Definition I (x y z : N) := xor y (N.lor x (compl z)).

(** An operation [abcd k s i]; it is given with its function and with T[i]. *)
Definition operation : Type := (N -> N -> N -> N) * nat * N * N.
Definition round (f : N -> N -> N -> N) (ks : list nat) (ss ts : list N) : list operation :=
  List.map (fun x => let '(k, (s, t)) := x in (f, k, s, t)) (List.combine ks (List.combine (ss ++ ss ++ ss ++ ss) ts)).

Definition operations : list operation :=
  round F [0; 1; 2; 3; 4; 5; 6; 7; 8; 9; 10; 11; 12; 13; 14; 15]%nat [7; 12; 17; 22]
    [0xd76aa478; 0xe8c7b756; 0x242070db; 0xc1bdceee; 0xf57c0faf; 0x4787c62a; 0xa8304613; 0xfd469501;
     0x698098d8; 0x8b44f7af; 0xffff5bb1; 0x895cd7be; 0x6b901122; 0xfd987193; 0xa679438e; 0x49b40821] ++
  round G [1; 6; 11; 0; 5; 10; 15; 4; 9; 14; 3; 8; 13; 2; 7; 12]%nat [5; 9; 14; 20]
    [0xf61e2562; 0xc040b340; 0x265e5a51; 0xe9b6c7aa; 0xd62f105d; 0x02441453; 0xd8a1e681; 0xe7d3fbc8;
     0x21e1cde6; 0xc33707d6; 0xf4d50d87; 0x455a14ed; 0xa9e3e905; 0xfcefa3f8; 0x676f02d9; 0x8d2a4c8a] ++
  round H [5; 8; 11; 14; 1; 4; 7; 10; 13; 0; 3; 6; 9; 12; 15; 2]%nat [4; 11; 16; 23]
    [0xfffa3942; 0x8771f681; 0x6d9d6122; 0xfde5380c; 0xa4beea44; 0x4bdecfa9; 0xf6bb4b60; 0xbebfbc70;
     0x289b7ec6; 0xeaa127fa; 0xd4ef3085; 0x04881d05; 0xd9d4d039; 0xe6db99e5; 0x1fa27cf8; 0xc4ac5665] ++
  round I [0; 7; 14; 5; 12; 3; 10; 1; 8; 15; 6; 13; 4; 11; 2; 9]%nat [6; 10; 15; 21]
    [0xf4292244; 0x432aff97; 0xab9423a7; 0xfc93a039; 0x655b59c3; 0x8f0ccc92; 0xffeff47d; 0x85845dd1;
     0x6fa87e4f; 0xfe2ce6e0; 0xa3014314; 0x4e0811a1; 0xf7537e82; 0xbd3af235; 0x2ad7d2bb; 0xeb86d391].

Definition words4 : Type := N * N * N * N.

(** a = b + ((a + f(b,c,d) + X[k] + T[i]) <<< s); the next operation is on d, a, b, c. *)
Definition operate (X : nat -> N) (v : words4) (o : operation) : words4 :=
  let '(a, b, c, d) := v in
  let '(f, k, s, t) := o in
  (d, plus b (rotl s (plus (plus (plus a (f b c d)) (X k)) t)), b, c).

(** A block of 64 bytes, 16 words with the low-order byte first. *)
Definition block_word (block : bytes) (k : nat) : N := value_le (firstn 4 (skipn (4 * k) block)).
Definition digest_block (v : words4) (block : bytes) : words4 :=
  let '(a, b, c, d) := v in
  let '(a', b', c', d') := fold_left (operate (block_word block)) operations v in
  (plus a a', plus b b', plus c c', plus d d').

Inductive digests : words4 -> bytes -> words4 -> Prop :=
| digests_end : forall v, digests v [] v
| digests_block : forall v block r v', List.length block = 64%nat -> digests (digest_block v block) r v' ->
    digests v (block ++ r) v'.

(** Sections 3.1 and 3.2: a bit 1, the least number of bits 0, the length in bits
    with the low-order byte first. *)
Definition padded5 (m p : bytes) : Prop :=
  exists k len, p = m ++ [128] ++ repeat 0 k ++ len /\
    (k < 64)%nat /\ Nat.modulo (List.length p) 64 = 0%nat /\
    List.length len = 8%nat /\ Forall is_byte len /\ value_le len = 8 * N.of_nat (List.length m).

(** Section 3.3 and 3.5: the digest, 16 bytes, is A, B, C, D with the low-order byte
    first. *)
Definition is_md5 (m d : bytes) : Prop :=
  exists p A B C D, padded5 m p /\ digests (0x67452301, 0xefcdab89, 0x98badcfe, 0x10325476) p (A, B, C, D) /\
    List.length d = 16%nat /\ Forall is_byte d /\
    List.map value_le [firstn 4 d; firstn 4 (skipn 4 d); firstn 4 (skipn 8 d); firstn 4 (skipn 12 d)] = [A; B; C; D].

End md5.

(** * A file in memory *)

(** Contents and a position. *)
Definition file : Type := bytes * nat.

Inductive fop := WriteBytes (buf : bytes) | PutChar (ch : Z) | ReadBytes (n : nat) | GetChar | ToStart | Empty | Where.
Inductive fresult := Count (n : nat) | Char (c : Z) | Bytes (b : bytes) | Done.

(** Writing replaces what is at the position and goes on behind the end; reading
    takes what is there; a character is read as a number from 0 to 255, or EOF
    (-1). *)
Definition written (f : file) (buf : bytes) : file :=
  (firstn (snd f) (fst f) ++ buf ++ skipn (snd f + List.length buf) (fst f), snd f + List.length buf).
Definition file_step (f : file) (o : fop) : fresult * file :=
  match o with
  | WriteBytes buf => (Count (List.length buf), written f buf)
  | PutChar ch => (Char ch, written f [Z.to_N ch])
  | ReadBytes n => let d := firstn n (skipn (snd f) (fst f)) in (Bytes d, (fst f, snd f + List.length d))
  | GetChar =>
      match nth_error (fst f) (snd f) with
      | Some b => (Char (Z.of_N b), (fst f, S (snd f)))
      | None => (Char (-1), f)
      end
  | ToStart => (Done, (fst f, 0))
  | Empty => (Done, ([], 0))
  | Where => (Count (snd f), f)
  end.
Fixpoint file_run (f : file) (os : list fop) : list fresult :=
  match os with [] => [] | o :: r => let '(x, f') := file_step f o in x :: file_run f' r end.
