(** Model of lib/bytereader.c on a file that can be read to its end. *)
From Coq Require Import ZArith.
From Verif Require Import LibBase LibIO LibText LibTime.

(** lib/bytereader.c:1-13 [reader_t], [newreader]: what is left of the file, and whether its end
    was met. *)
Record breader := mkBr { br_left : bytes; br_end : bool }.
Definition br_new (f : bytes) : breader := mkBr f false.
(** lib/bytereader.c:15-17 [ended]; there are no read errors. *)
Definition br_ended (r : breader) : bool := br_end r.
(** lib/bytereader.c:24-28 [readc]: fgetc; EOF is -1. *)
Definition br_readc (r : breader) : Z * breader :=
  match br_left r with
  | [] => ((-1)%Z, mkBr [] true)
  | c :: l => (Z.of_N c, mkBr l (br_end r))
  end.
(** lib/bytereader.c:30-34 [peekc]: fgetc and ungetc, which does nothing for EOF and else takes
    back that the end was met. *)
Definition br_peekc (r : breader) : Z * breader :=
  match br_left r with
  | [] => ((-1)%Z, mkBr [] true)
  | c :: l => (Z.of_N c, mkBr (c :: l) false)
  end.
(** lib/bytereader.c:37-45 [read16]: converted to uint16_t. *)
Definition br_read16 (r : breader) : Z * breader :=
  let '(a, r) := br_readc r in
  let '(b, r) := br_readc r in
  (((a * 256 + b) mod 65536)%Z, r).
(** lib/bytereader.c:48-64 [read32]: computed in int, converted to uint32_t. *)
Definition br_more (v : Z) (r : breader) : bres (Z * breader) :=
  let '(c, r) := br_readc r in
  rbind (int_ (v * 256)) (fun v => rbind (int_ (v + c)) (fun v => ROk (v, r))).
Definition br_read32 (r : breader) : bres (Z * breader) :=
  let '(a, r) := br_readc r in
  rbind (br_more a r) (fun '(v, r) => rbind (br_more v r) (fun '(v, r) => rbind (br_more v r) (fun '(v, r) => ROk ((v mod 4294967296)%Z, r)))).
