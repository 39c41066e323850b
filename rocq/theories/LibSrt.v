(** Model of lib/formats/srt.c without printblock.  The standard input is the bytes left of
    it and whether its end was met. *)
From Coq Require Export ZArith.
From Verif Require Import LibBase LibIO LibText LibTok LibUrl LibHttp LibTime.

(** lib/formats/srt.c:4-7 [reader_t] and the input. *)
Record srt := mkSrt { sr_in : bytes; sr_eof : bool; sr_line : bytes; sr_loaded : bool }.
Definition srt_new (f : bytes) : srt := mkSrt f false [] false.
(** lib/formats/srt.c:9-14 [block_t] without the range; times are microseconds. *)
Record block := mkBlock { bl_index : Z; bl_text : bytes; bl_begin : Z; bl_end : Z }.

(** lib/formats/srt.c:90-96: the line, what is left, and whether the end was met. *)
Fixpoint srt_chars (l buf : bytes) : bytes * bytes * bool :=
  match l with
  | [] => (buf, [], true)
  | c :: r => if (c =? 13)%N then srt_chars r buf else if (c =? 10)%N then (buf ++ [c], r, false) else srt_chars r (buf ++ [c])
  end.
(** lib/formats/srt.c:88-102 [loadline]: the line buffer has 4096 cells. *)
Definition srt_loadline (st : srt) : bres (bool * srt) :=
  let '(b, r, e) := srt_chars (sr_in st) [] in
  match b with
  | [] => ROk (false, mkSrt r (sr_eof st || e) (sr_line st) (sr_loaded st))
  | _ => if (4096 <=? N.of_nat (List.length b))%N then RUndefined else ROk (true, mkSrt r (sr_eof st || e) (cgi_str b) (sr_loaded st))
  end.
(** lib/formats/srt.c:104-117 [parse_num]. *)
Definition srt_num (s : bytes) : bres Z :=
  let* (n, p) := readint s 0 in ROk (match drop_while c_isspace p with [] => n | _ => 0%Z end).
(** lib/formats/srt.c:33-40: the text; its array has 1000 cells. *)
Fixpoint srt_text (fuel : nat) (st : srt) (text : bytes) : bres (bytes * srt) :=
  match fuel with
  | O => RFuel
  | S f =>
      rbind (srt_num (sr_line st)) (fun k =>
      if negb (k =? 0)%Z then ROk (text, st)
      else if (1000 <=? N.of_nat (List.length text + List.length (sr_line st)))%N then RPanic
      else
        let text := text ++ sr_line st in
        let* (ok, st) := srt_loadline st in
        if ok : bool then srt_text f st text else ROk (text, st))
  end.
(** sscanf's %s: a word and the rest. *)
Fixpoint take_word (l : bytes) : bytes * bytes :=
  match l with c :: r => if c_isspace c then ([], l) else let '(w, q) := take_word r in (c :: w, q) | [] => ([], []) end.
(** lib/formats/srt.c:49-51: sscanf with "%s --> %s" into zeroed arrays of 20 cells. *)
Definition srt_range (range : bytes) : bytes * bytes :=
  let '(b, r) := take_word (drop_while c_isspace range) in
  match drop_while c_isspace r with
  | (45 :: 45 :: 62 :: r)%N => (b, fst (take_word (drop_while c_isspace r)))
  | _ => (b, [])
  end.
(** sscanf's %d: blanks, a sign and digits; [None] if there are no digits. *)
Definition scan_int (l : bytes) : bres (option (Z * bytes)) :=
  let l := drop_while c_isspace l in
  let '(neg, l) := match l with c :: r => if (c =? 45)%N then (true, r) else if (c =? 43)%N then (false, r) else (false, l) | [] => (false, l) end in
  match l with
  | c :: _ => if c_isdigit c then let* (n, q) := readint l 0 in ROk (Some ((if neg : bool then - n else n)%Z, q)) else ROk None
  | [] => ROk None
  end.
(** A number and the character behind it. *)
Definition scan_then (l : bytes) (c : byte) (k : Z -> bytes -> bres Z) : bres Z :=
  rbind (scan_int l) (fun o => match o with
  | Some (n, x :: r) => if (x =? c)%N then k n r else RPanic
  | _ => RPanic
  end).
(** lib/formats/srt.c:58-75 [parsepos]. *)
Definition srt_pos (buf : bytes) : bres Z :=
  scan_then buf 58 (fun h r => scan_then r 58 (fun m r => scan_then r 44 (fun s r =>
  rbind (scan_int r) (fun o => match o with
  | None => RPanic
  | Some (ms, _) =>
      rbind (int_ (h * 60)) (fun v => rbind (int_ (v + m)) (fun v => rbind (int_ (v * 60)) (fun v => rbind (int_ (v + s)) (fun v =>
      rbind (int_ (v * 1000)) (fun v => rbind (int_ (v + ms)) (fun v => ROk (1000 * v)%Z))))))
  end)))).
(** lib/formats/srt.c:26-54: a block whose first line is loaded. *)
Definition srt_block (st : srt) : bres (option block * srt) :=
  rbind (srt_num (sr_line st)) (fun index =>
  let* (_, st) := srt_loadline st in
  let range := sr_line st in
  if Nat.leb 40 (List.length range) then RUndefined else
  let* (_, st) := srt_loadline st in
  let* (text, st) := srt_text (S (S (List.length (sr_in st)))) st [] in
  let '(b, e) := srt_range (str_trim range) in
  if Nat.leb 20 (List.length b) || Nat.leb 20 (List.length e) then RUndefined else
  rbind (srt_pos b) (fun b => rbind (srt_pos e) (fun e =>
  ROk (Some (mkBlock index (str_trim text) b e), st)))).
(** lib/formats/srt.c:17-55 [readblock]; [None] is false. *)
Definition srt_readblock (st : srt) : bres (option block * srt) :=
  if sr_eof st then ROk (None, st)
  else if sr_loaded st then srt_block st
  else let* (_, st) := srt_loadline st in srt_block (mkSrt (sr_in st) (sr_eof st) (sr_line st) true).
(** A program that reads blocks until there are no more. *)
Fixpoint srt_all (fuel : nat) (st : srt) : bres (list block) :=
  match fuel with
  | O => RFuel
  | S f =>
      let* (o, st) := srt_readblock st in
      match o with None => ROk [] | Some b => rbind (srt_all f st) (fun l => ROk (b :: l)) end
  end.
