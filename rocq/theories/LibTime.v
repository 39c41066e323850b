(** Model of lib/time.c.  Texts are C strings (their bytes are not zero).  Doubles are IEEE
    binary64, computed without excess precision.  Not modelled: the format "logfile" of
    [dur_fmt], which prints a double; [now], [fromunix], [sub] and [sleep], which ask the
    system; the texts of errors. *)
From Coq Require Export ZArith.
From Coq Require Import Floats.SpecFloat.
From Verif Require Import LibBase LibIO LibText LibTok LibHttp.

Local Open Scope Z_scope.

Definition int_max : Z := 2147483647.
(** An int computed from ints: beyond its range C does not say what happens. *)
Definition int_ (z : Z) : bres Z := if (- int_max - 1 <=? z) && (z <=? int_max) then ROk z else RUndefined.
(** Conversion of a wider integer to int, as gcc does it. *)
Definition to_int (z : Z) : Z := (z + 2147483648) mod 4294967296 - 2147483648.

(** printf's %0[w]d; [w] = 0 is %d. *)
Definition pad (w : nat) (z : Z) : bytes :=
  let sg := if z <? 0 then [45%N] else [] in
  let ds := dec_text 20 (Z.abs_N z) in
  sg ++ repeat 48%N (w - List.length sg - List.length ds) ++ ds.
(** snprintf into [n] cells: what is in the buffer before the zero. *)
Definition snprintf (n : nat) (t : bytes) : bytes := firstn (n - 1) t.

(** lib/time.c:22-25 [iso_t]. *)
Record iso := mkIso { i_Y : Z; i_M : Z; i_D : Z; i_h : Z; i_m : Z; i_s : Z; i_ms : Z; i_zh : Z; i_zm : Z }.

(** lib/time.c:27-32. *)
Definition SECONDS : Z := 1000000.

(** lib/time.c:45-48 [dur_add], on int64_t. *)
Definition dur_add (a b : Z) : bres Z :=
  let r := a + b in if (- 2 ^ 63 <=? r) && (r <? 2 ^ 63) then ROk r else RUndefined.

(** lib/time.c:50-68 [tzoffset], given the minutes of the day that localtime and gmtime
    report. *)
Definition tzoffset (local gm : Z) : Z :=
  let mins := local in
  let mins := mins - gm in
  let min := - (12 * 60 + 45) in
  let max := 14 * 60 + 45 in
  if mins <? min then mins + 24 * 60
  else if max <? mins then mins - 24 * 60
  else mins.

(** lib/time.c:83-97 [sdur_t], [sdur]: microseconds, milliseconds, seconds, minutes, hours. *)
Record sdur_t := mkSdur { d_us : Z; d_ms : Z; d_s : Z; d_m : Z; d_h : Z }.
Definition sdur (val : Z) : sdur_t :=
  let us := Z.rem val 1000 in let val := Z.quot val 1000 in
  let ms := Z.rem val 1000 in let val := Z.quot val 1000 in
  let s := Z.rem val 60 in let val := Z.quot val 60 in
  let m := Z.rem val 60 in let val := Z.quot val 60 in
  mkSdur us ms s m (to_int val).
(** lib/time.c:105-144: the text for each format. *)
Definition dur_text (us : Z) (fmt : bytes) : bres bytes :=
  let pp := sdur us in
  if bytes_eqb fmt (L "mm:ss") then
    rbind (int_ (60 * d_h pp)) (fun x => rbind (int_ (d_m pp + x)) (fun mm =>
    ROk (pad 2 mm ++ L ":" ++ pad 2 (d_s pp))))
  else if bytes_eqb fmt (L "mm:ss.ms") then
    rbind (int_ (60 * d_h pp)) (fun x => rbind (int_ (d_m pp + x)) (fun mm =>
    ROk (pad 2 mm ++ L ":" ++ pad 2 (d_s pp) ++ L "." ++ pad 3 (d_ms pp))))
  else if bytes_eqb fmt (L "hh:mm:ss,ms") then
    ROk (pad 2 (d_h pp) ++ L ":" ++ pad 2 (d_m pp) ++ L ":" ++ pad 2 (d_s pp) ++ L "," ++ pad 0 (d_ms pp))
  else if bytes_eqb fmt (L "[h]:mm:ss.mmm") then
    ROk (if 0 <? d_h pp
         then pad 0 (d_h pp) ++ L ":" ++ pad 2 (d_m pp) ++ L ":" ++ pad 2 (d_s pp) ++ L "." ++ pad 3 (d_ms pp)
         else pad 0 (d_m pp) ++ L ":" ++ pad 2 (d_s pp) ++ L "." ++ pad 3 (d_ms pp))
  else RPanic.
(** lib/time.c:101-146 [dur_fmt]: the answer and the text in the buffer. *)
Definition dur_fmt (us : Z) (bufsize : nat) (fmt : bytes) : bres (bool * bytes) :=
  rbind (dur_text us fmt) (fun t => ROk (Nat.leb (List.length t + 1) bufsize, snprintf bufsize t)).

(** lib/time.c:212-221 [readint]: the number and the rest. *)
Fixpoint readint (p : bytes) (n : Z) : bres (Z * bytes) :=
  match p with
  | c :: r => if c_isdigit c then
                rbind (int_ (n * 10)) (fun n => rbind (int_ (n + (Z.of_N c - 48))) (fun n => readint r n))
              else ROk (n, p)
  | [] => ROk (n, p)
  end.
(** lib/time.c:168-171, 172-175: a colon and a number, or nothing. *)
Definition colon_int (p : bytes) (nums : list Z) : bres (list Z * bytes) :=
  match p with
  | c :: r => if (c =? 58)%N then let* (k, q) := readint r 0 in ROk (nums ++ [k], q) else ROk (nums, p)
  | [] => ROk (nums, p)
  end.
(** lib/time.c:192-203: the digits of the fraction; the value and the power of ten. *)
Fixpoint frac_digits (p : bytes) (digits : nat) (fracsize val : Z) : Z * Z :=
  match p with
  | c :: r =>
      if c_isdigit c then
        if Nat.ltb 6 digits then frac_digits r digits fracsize val
        else frac_digits r (S digits) (fracsize * 10) (val * 10 + (Z.of_N c - 48))
      else (val, fracsize)
  | [] => (val, fracsize)
  end.
(** Doubles: of an integer below 2^53, and cut off to an integer. *)
Definition dbl (z : Z) : spec_float := binary_normalize 53 1024 z 0 false.
Definition trunc (x : spec_float) : Z :=
  match x with
  | S754_finite s m e =>
      let a := if 0 <=? e then Zpos m * 2 ^ e else Zpos m / 2 ^ (- e) in if s then - a else a
  | _ => 0
  end.
(** lib/time.c:204. *)
Definition frac_us (val fracsize : Z) : Z :=
  trunc (SFmul 53 1024 (dbl SECONDS) (SFdiv 53 1024 (dbl val) (dbl fracsize))).
(** lib/time.c:151-210 [parse_duration]: the microseconds; [None] is false.  Minutes, seconds
    and [SECONDS] are ints. *)
Definition parse_duration (s : bytes) : bres (option Z) :=
  match s with
  | [] => ROk None
  | _ =>
      let* (n0, p) := readint s 0 in
      if Nat.eqb (List.length p) (List.length s) then ROk None else
      let* (nums, p) := colon_int p [n0] in
      let* (nums, p) := colon_int p nums in
      match nums with
      | [a; b] =>
          rbind (int_ (a * 60)) (fun x => rbind (int_ (x + b)) (fun x => rbind (int_ (x * SECONDS)) (fun us =>
          match p with
          | c :: r => if (c =? 46)%N then let '(val, size) := frac_digits r 0 1 0 in ROk (Some (us + frac_us val size))
                      else ROk (Some us)
          | [] => ROk (Some us)
          end)))
      | _ => ROk None
      end
  end.

(** lib/time.c:255, 258, 261, 264, 267, 281: one expected character. *)
Definition expect (c : byte) (p : bytes) : bres bytes :=
  match p with x :: r => if (x =? c)%N then ROk r else RPanic | [] => RPanic end.
(** lib/time.c:248-287 [parse_iso]. *)
Definition parse_iso (p : bytes) : bres iso :=
  let* (Y, q) := readint p 0 in
  rbind (expect 45 q) (fun q =>
  let* (M, q) := readint q 0 in
  rbind (expect 45 q) (fun q =>
  let* (D, q) := readint q 0 in
  rbind (expect 84 q) (fun q =>
  let* (h, q) := readint q 0 in
  rbind (expect 58 q) (fun q =>
  let* (m, q) := readint q 0 in
  rbind (expect 58 q) (fun q =>
  let* (s, q) := readint q 0 in
  let* (ms, q) := match q with c :: r => if (c =? 46)%N then readint r 0 else ROk (0, q) | [] => ROk (0, q) end in
  match q with
  | c :: r =>
      if (c =? 90)%N then ROk (mkIso Y M D h m s ms 0 0)
      else if (c =? 43)%N then
        let* (zh, q) := readint r 0 in
        rbind (expect 58 q) (fun q =>
        let* (zm, q) := readint q 0 in
        ROk (mkIso Y M D h m s ms zh zm))
      else RPanic
  | [] => RPanic
  end))))).

(** lib/time.c:317-320 [fmt_iso_iso]: the answer and the text in the buffer. *)
Definition fmt_iso_iso (v : iso) (bufsize : nat) : bool * bytes :=
  (true, snprintf bufsize (pad 0 (i_Y v) ++ L "-" ++ pad 2 (i_M v) ++ L "-" ++ pad 2 (i_D v) ++ L "T" ++
     pad 2 (i_h v) ++ L ":" ++ pad 2 (i_m v) ++ L ":" ++ pad 2 (i_s v) ++ L "." ++ pad 3 (i_ms v) ++ L "Z")).

(** lib/time.c:327-330: the loop. *)
Fixpoint carry (fuel : nat) (m h : Z) : bres (Z * Z) :=
  match fuel with
  | O => RFuel
  | S f => if 60 <? m then carry f (m - 60) (h + 1) else ROk (m, h)
  end.
(** lib/time.c:322-335 [iso_tolocal], given the offset; minutes are ints. *)
Definition iso_tolocal (v : iso) (offset : Z) : bres iso :=
  if negb (i_zh v =? 0) || negb (i_zm v =? 0) then RPanic
  else
    rbind (int_ (i_m v + offset)) (fun m =>
    let* (m, h) := carry (S (Z.to_nat (m / 60))) m (i_h v) in
    ROk (mkIso (i_Y v) (i_M v) (i_D v) h m (i_s v) (i_ms v) (i_zh v) (i_zm v))).
