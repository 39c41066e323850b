(** Models of lib/mem.c (a file in memory) and lib/crypt/md5.c. *)
From Coq Require Export ZArith.
From Verif Require Import LibBase LibIO LibText LibSha1.

(** * mem *)

(** lib/mem.c:3-8 [mem_t]: the data up to [datalen], the position and the allocated
    size.  Allocation succeeds. *)
Record mem := mkMem { mm_data : bytes; mm_pos : nat; mm_size : nat }.

(** lib/mem.c:13-16 [memopen]. *)
Definition memopen : mem := mkMem [] 0 0.
(** lib/mem.c:29-31 [rewind], 34-37 [reset], 40-42 [memtell]. *)
Definition mem_rewind (m : mem) : mem := mkMem (mm_data m) 0 (mm_size m).
Definition mem_reset (m : mem) : mem := mkMem [] 0 (mm_size m).
Definition memtell (m : mem) : nat := mm_pos m.

(** lib/mem.c:157-160: doubling until it is enough. *)
Fixpoint double_to (fuel next need : nat) : nat :=
  match fuel with O => next | S f => if Nat.ltb next need then double_to f (next * 2) need else next end.
(** lib/mem.c:148-170 [makespace]: the new size. *)
Definition makespace (m : mem) (size : nat) : mem :=
  let need := mm_pos m + size in
  if Nat.leb need (mm_size m) then m
  else mkMem (mm_data m) (mm_pos m) (double_to need (if Nat.eqb (mm_size m) 0 then 32 else mm_size m) need).

(** Cells written one by one from position [p]; the data grows when they pass its
    end. *)
Fixpoint store (data : bytes) (p : nat) (buf : bytes) : bytes :=
  match p, data with
  | S p, x :: r => x :: store r p buf
  | S _, [] => []
  | O, _ => buf ++ skipn (List.length buf) data
  end.

(** lib/mem.c:48-66 [memputc]; [ch] is an int. *)
Definition memputc (ch : Z) (m : mem) : Z * mem :=
  if (ch =? -1)%Z then ((-1)%Z, m)
  else
    let m := makespace m 1 in
    (ch, mkMem (store (mm_data m) (mm_pos m) [Z.to_N (ch mod 256)]) (S (mm_pos m)) (mm_size m)).

(** A byte read as a (signed) char. *)
Definition schar (b : byte) : Z := if (b <? 128)%N then Z.of_N b else (Z.of_N b - 256)%Z.
(** lib/mem.c:71-79 [memgetc]. *)
Definition memgetc (m : mem) : Z * mem :=
  match skipn (mm_pos m) (mm_data m) with
  | [] => ((-1)%Z, m)
  | b :: _ => (schar b, mkMem (mm_data m) (S (mm_pos m)) (mm_size m))
  end.

(** lib/mem.c:85-103 [memwrite]. *)
Definition memwrite (m : mem) (buf : bytes) : nat * mem :=
  let m := makespace m (List.length buf) in
  (List.length buf, mkMem (store (mm_data m) (mm_pos m) buf) (mm_pos m + List.length buf) (mm_size m)).

(** lib/mem.c:131-141 [memread]. *)
Definition memread (m : mem) (size : nat) : bytes * mem :=
  let d := firstn size (skipn (mm_pos m) (mm_data m)) in
  (d, mkMem (mm_data m) (mm_pos m + List.length d) (mm_size m)).

(** lib/mem.c:105-125 [memprintf], given the formatted text.  What it writes is
    behind the end of the data, or overwrites data from the position on, followed
    by a zero; neither the position nor the length of the data changes.  The second
    [vsnprintf] has the room of the first one. *)
Definition memprintf (m : mem) (text : bytes) : Z * mem :=
  let available := mm_size m - List.length (mm_data m) in
  let m := if Nat.leb available (List.length text) then makespace m (List.length text + 1) else m in
  let written := if Nat.eqb available 0 then [] else firstn (available - 1) text ++ [0%N] in
  (Z.of_nat (List.length text),
   mkMem (firstn (List.length (mm_data m)) (store (mm_data m) (mm_pos m) written)) (mm_pos m) (mm_size m)).

(** * md5 *)

(** lib/crypt/md5.c:258-275 [T]. *)
Definition md5_T : list N := [
  0xd76aa478; 0xe8c7b756; 0x242070db; 0xc1bdceee; 0xf57c0faf; 0x4787c62a; 0xa8304613; 0xfd469501;
  0x698098d8; 0x8b44f7af; 0xffff5bb1; 0x895cd7be; 0x6b901122; 0xfd987193; 0xa679438e; 0x49b40821;
  0xf61e2562; 0xc040b340; 0x265e5a51; 0xe9b6c7aa; 0xd62f105d; 0x02441453; 0xd8a1e681; 0xe7d3fbc8;
  0x21e1cde6; 0xc33707d6; 0xf4d50d87; 0x455a14ed; 0xa9e3e905; 0xfcefa3f8; 0x676f02d9; 0x8d2a4c8a;
  0xfffa3942; 0x8771f681; 0x6d9d6122; 0xfde5380c; 0xa4beea44; 0x4bdecfa9; 0xf6bb4b60; 0xbebfbc70;
  0x289b7ec6; 0xeaa127fa; 0xd4ef3085; 0x04881d05; 0xd9d4d039; 0xe6db99e5; 0x1fa27cf8; 0xc4ac5665;
  0xf4292244; 0x432aff97; 0xab9423a7; 0xfc93a039; 0x655b59c3; 0x8f0ccc92; 0xffeff47d; 0x85845dd1;
  0x6fa87e4f; 0xfe2ce6e0; 0xa3014314; 0x4e0811a1; 0xf7537e82; 0xbd3af235; 0x2ad7d2bb; 0xeb86d391]%N.

(** lib/crypt/md5.c:377-388 [F], [G], [H], [I]; 390-392 [rotate]. *)
Definition md5_F (x y z : N) : N := N.lor (N.land x y) (N.land (not32 x) z).
Definition md5_G (x y z : N) : N := N.lor (N.land x z) (N.land y (not32 z)).
Definition md5_H (x y z : N) : N := N.lxor (N.lxor x y) z.
Definition md5_I (x y z : N) : N := N.lxor y (N.lor x (not32 z)).
Definition md5_rotate (value bits : N) : N := N.lor (u32 (N.shiftl value bits)) (N.shiftr value (32 - bits)).

(** lib/crypt/md5.c:308-313 [V]. *)
Definition md5_V : list N := [7;12;17;22; 5;9;14;20; 4;11;16;23; 6;10;15;21]%N.

(** lib/crypt/md5.c:315-371: the body of the four loops; [k], [v] and [g] are
    those of the loop. *)
Definition md5_op (f : N -> N -> N -> N) (k v g : nat) (block tmp : list N) (i : nat) : list N :=
  let p := 3 * i in
  let a := at_ tmp (p mod 4) in
  let b := at_ tmp ((p + 1) mod 4) in
  let c := at_ tmp ((p + 2) mod 4) in
  let d := at_ tmp ((p + 3) mod 4) in
  let s := at_ md5_V (v + i mod 4) in
  upd (p mod 4) (u32 (b + md5_rotate (u32 (f b c d + a + at_ block k + at_ md5_T g)) s)) tmp.

(** lib/crypt/md5.c:291-375 [md5_feed]. *)
Definition md5_feed (buf block : list N) : list N :=
  let tmp := buf in
  let tmp := fold_left (fun tmp i => md5_op md5_F (i mod 16) 0 i block tmp i) (List.seq 0 16) tmp in
  let tmp := fold_left (fun tmp i => md5_op md5_G ((1 + 5 * i) mod 16) 4 (16 + i) block tmp i) (List.seq 0 16) tmp in
  let tmp := fold_left (fun tmp i => md5_op md5_H ((5 + 3 * i) mod 16) 8 (32 + i) block tmp i) (List.seq 0 16) tmp in
  let tmp := fold_left (fun tmp i => md5_op md5_I ((7 * i) mod 16) 12 (48 + i) block tmp i) (List.seq 0 16) tmp in
  List.map (fun j => u32 (at_ buf j + at_ tmp j)) (List.seq 0 4).

(** lib/crypt/md5.c:280-286 [md5_init]. *)
Definition md5_init : list N := [0x67452301; 0xEFCDAB89; 0x98BADCFE; 0x10325476]%N.

(** lib/crypt/md5.c:18-29 [src_t]; [length] is modulo 2^64. *)
Record md5_src := mkSrc {
  sr_stream : mem; sr_length : N; sr_more_data : bool; sr_zeros : nat; sr_lenbuf : bytes; sr_lenpos : nat; sr_more : bool }.

(** lib/crypt/md5.c:133-176 [init_padding].  The length in bytes is put into an int;
    the model is for lengths where neither that nor 9 + l overflows. *)
Definition md5_padding (s : md5_src) : md5_src :=
  let low := N.land (sr_length s) 0xFFFFFFFF in
  let high := N.land (N.shiftr (sr_length s) 32) 0xFFFFFFFF in
  let four w := List.map (fun i => N.land (N.shiftr w (N.of_nat i * 8)) 255) (List.seq 0 4) in
  let l := (sr_length s / 8)%N in
  let n := ((9 + l) / 64)%N in
  let n := if ((9 + l) mod 64 =? 0)%N then n else (n + 1)%N in
  mkSrc (sr_stream s) (sr_length s) (sr_more_data s) (N.to_nat (64 * n - 9 - l)) (four low ++ four high) 0 (sr_more s).

(** lib/crypt/md5.c:91-131 [next_byte]. *)
Definition md5_next_byte (s : md5_src) : bres (byte * md5_src) :=
  let tail s :=
    match sr_zeros s with
    | S z => ROk (0%N, mkSrc (sr_stream s) (sr_length s) (sr_more_data s) z (sr_lenbuf s) (sr_lenpos s) (sr_more s))
    | O =>
        if Nat.ltb (sr_lenpos s) 8 then
          let p := S (sr_lenpos s) in
          ROk (nth (sr_lenpos s) (sr_lenbuf s) 0%N,
               mkSrc (sr_stream s) (sr_length s) (sr_more_data s) 0 (sr_lenbuf s) p (if Nat.eqb p 8 then false else sr_more s))
        else RPanic
    end in
  if sr_more_data s then
    let '(c, m) := memgetc (sr_stream s) in
    if (c =? -1)%Z then
      ROk (128%N, md5_padding (mkSrc m (sr_length s) false (sr_zeros s) (sr_lenbuf s) (sr_lenpos s) (sr_more s)))
    else
      ROk (Z.to_N (c mod 256), mkSrc m ((sr_length s + 8) mod 18446744073709551616)%N true (sr_zeros s) (sr_lenbuf s) (sr_lenpos s) (sr_more s))
  else tail s.

(** lib/crypt/md5.c:76-89 [next_word]: [k] more bytes, [pos] bits so far.  [b << 24]
    is an int in the program and overflows for bytes from 128 on; it is taken to
    wrap, as it does in practice. *)
Fixpoint md5_next_word (k : nat) (s : md5_src) (word pos : N) : bres (N * md5_src) :=
  match k with
  | O => ROk (word, s)
  | S k => rbind (md5_next_byte s) (fun '(b, s) => md5_next_word k s (u32 (word + u32 (N.shiftl b pos))) (pos + 8)%N)
  end.

(** lib/crypt/md5.c:51-53: the words of a block. *)
Fixpoint md5_block (k : nat) (s : md5_src) : bres (list N * md5_src) :=
  match k with
  | O => ROk ([], s)
  | S k =>
      rbind (md5_next_word 4 s 0 0) (fun '(w, s) =>
      rbind (md5_block k s) (fun '(l, s) => ROk (w :: l, s)))
  end.

(** lib/crypt/md5.c:34-57 [md5]. *)
Fixpoint md5_loop (fuel : nat) (s : md5_src) (digest : list N) : bres (list N) :=
  match fuel with
  | O => RFuel
  | S f =>
      if sr_more s then rbind (md5_block 16 s) (fun '(block, s) => md5_loop f s (md5_feed digest block))
      else ROk digest
  end.
Definition md5 (fuel : nat) (stream : mem) : bres (list N) :=
  md5_loop fuel (mkSrc stream 0 true 0 (repeat 0%N 8) 0 true) md5_init.

(** lib/crypt/md5.c:196-205 [md5_buf], 188-191 [md5_str]. *)
Definition md5_buf (fuel : nat) (buf : bytes) : bres (list N) :=
  let '(n, z) := memwrite memopen buf in
  if Nat.eqb n (List.length buf) then md5 fuel (mem_rewind z) else RPanic.

(** lib/crypt/md5.c:210-218 [md5_eq]. *)
Definition md5_eq (a b : list N) : bool := forallb (fun i => (at_ a i =? at_ b i)%N) (List.seq 0 4).

(** lib/crypt/md5.c:231-242 [md5_sprint], 220-229 [md5_print]: two hexadecimal
    digits ("%02x") for each byte, the lowest first. *)
Definition md5_sprint (s : list N) : bytes :=
  List.concat (List.map (fun w =>
    List.concat (List.map (fun j => hex_writebyte (N.land (N.shiftr w (N.of_nat j * 8)) 255)) (List.seq 0 4))) (firstn 4 s)).
