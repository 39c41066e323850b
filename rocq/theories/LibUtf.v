(** Model of lib/utf.c, without the tables of letters and cases.

    A string of chars or runes is given by what is before its terminator; a pointer into
    it is what is left from there on.  To read the terminator is allowed, to read behind
    it is [RUndefined]. *)
From Coq Require Export ZArith.
From Verif Require Import LibBase LibIO LibText.
Local Open Scope N_scope.

(** lib/utf.c:78-84, 250-273: the constants. *)
Definition Runesync : N := 128.
Definition Runeself : N := 128.
Definition Runeerror : N := 65533.
Definition Runemax : N := 1114111.
Definition Bitx : N := 6.
Definition Tx : N := N.lxor (2 ^ (6 + 1) - 1) 255.
Definition T2 : N := N.lxor (2 ^ (5 + 1) - 1) 255.
Definition T3 : N := N.lxor (2 ^ (4 + 1) - 1) 255.
Definition T4 : N := N.lxor (2 ^ (3 + 1) - 1) 255.
Definition T5 : N := N.lxor (2 ^ (2 + 1) - 1) 255.
Definition Rune1 : N := 2 ^ (7 + 0 * 6) - 1.
Definition Rune2 : N := 2 ^ (5 + 1 * 6) - 1.
Definition Rune3 : N := 2 ^ (4 + 2 * 6) - 1.
Definition Rune4 : N := 2 ^ (3 + 3 * 6) - 1.
Definition Maskx : N := 2 ^ 6 - 1.
Definition Testx : N := N.lxor Maskx 255.

(** Reading [s[i]], and [s + n]. *)
Definition char_at (s : bytes) (i : nat) : bres byte :=
  match nth_error (s ++ [0]) i with Some c => ROk c | None => RUndefined end.
Definition advance (s : bytes) (n : nat) : bres bytes :=
  if Nat.leb n (List.length s) then ROk (skipn n s) else RUndefined.

(** lib/utf.c:276-356 [get_rune]: the rune and the number of bytes. *)
Definition get_rune (str : bytes) : bres (N * nat) :=
  rbind (char_at str 0) (fun c =>
  if c <? Tx then ROk (c, 1%nat)
  else
  rbind (char_at str 1) (fun b1 =>
  let c1 := N.lxor b1 Tx in
  if negb (N.land c1 Testx =? 0) then ROk (Runeerror, 1%nat)
  else if c <? T3 then
    if c <? T2 then ROk (Runeerror, 1%nat)
    else
      let l := N.land (N.lor (N.shiftl c Bitx) c1) Rune2 in
      if l <=? Rune1 then ROk (Runeerror, 1%nat) else ROk (l, 2%nat)
  else
  rbind (char_at str 2) (fun b2 =>
  let c2 := N.lxor b2 Tx in
  if negb (N.land c2 Testx =? 0) then ROk (Runeerror, 1%nat)
  else if c <? T4 then
    let l := N.land (N.lor (N.shiftl (N.lor (N.shiftl c Bitx) c1) Bitx) c2) Rune3 in
    if l <=? Rune2 then ROk (Runeerror, 1%nat) else ROk (l, 3%nat)
  else
  rbind (char_at str 3) (fun b3 =>
  let c3 := N.lxor b3 Tx in
  if negb (N.land c3 Testx =? 0) then ROk (Runeerror, 1%nat)
  else if c <? T5 then
    let l := N.land (N.lor (N.shiftl (N.lor (N.shiftl (N.lor (N.shiftl c Bitx) c1) Bitx) c2) Bitx) c3) Rune4 in
    if (l <=? Rune3) || (Runemax <? l) then ROk (Runeerror, 1%nat) else ROk (l, 4%nat)
  else ROk (Runeerror, 1%nat))))).

(** lib/utf.c:1506-1547 [runetochar]: the bytes written; the answer is their number.  The
    rune goes through an [int32_t], which is negative from 2^31 on, and a byte keeps the
    low eight bits of it. *)
Definition runetochar (rune : N) : bytes :=
  if (2 ^ 31 <=? rune) || (rune <=? Rune1) then [rune mod 256]
  else if rune <=? Rune2 then
    [N.lor T2 (N.shiftr rune Bitx); N.lor Tx (N.land rune Maskx)]
  else
    let c := if Runemax <? rune then Runeerror else rune in
    if c <=? Rune3 then
      [N.lor T3 (N.shiftr c (2 * Bitx)); N.lor Tx (N.land (N.shiftr c Bitx) Maskx); N.lor Tx (N.land c Maskx)]
    else
      [N.lor T4 (N.shiftr c (3 * Bitx)); N.lor Tx (N.land (N.shiftr c (2 * Bitx)) Maskx);
       N.lor Tx (N.land (N.shiftr c Bitx) Maskx); N.lor Tx (N.land c Maskx)].

(** lib/utf.c:1550-1554 [runelen]. *)
Definition runelen (c : Z) : nat := List.length (runetochar (Z.to_N (c mod 2 ^ 32))).

(** lib/utf.c:360-374 [runenlen], on as many runes as [nrune] says. *)
Fixpoint runenlen (r : list N) : nat :=
  match r with
  | [] => O
  | c :: r =>
      ((if (2 ^ 31 <=? c)%N || (c <=? Rune1)%N then 1
       else if (c <=? Rune2)%N then 2
       else if (c <=? Rune3)%N || (Runemax <? c)%N then 3
       else 4) + runenlen r)%nat
  end.

(** lib/utf.c:386-400 [fullrune]. *)
Definition fullrune (str : bytes) (n : Z) : bres bool :=
  if (n <=? 0)%Z then ROk false
  else rbind (char_at str 0) (fun c =>
    ROk (if c <? Tx then true
         else if c <? T3 then (2 <=? n)%Z
         else if c <? T4 then (3 <=? n)%Z
         else (4 <=? n)%Z)).

(** lib/utf.c:1573-1585: the loop of [runecount]. *)
Fixpoint count_loop (fuel : nat) (s : bytes) (n : nat) : bres nat :=
  match fuel with
  | O => RFuel
  | S fuel =>
      rbind (char_at s 0) (fun c =>
      if c <? Runeself then
        if c =? 0 then ROk n else rbind (advance s 1) (fun s => count_loop fuel s (S n))
      else
        rbind (get_rune s) (fun '(_, k) => rbind (advance s k) (fun s => count_loop fuel s (S n))))
  end.
(** lib/utf.c:1569-1587 [runecount]; every round takes a byte. *)
Definition runecount (s : bytes) : bres nat := count_loop (S (List.length s)) s 0.

(** lib/utf.c:1636-1647: the loop of [utfnlen]; [n] is [es - s]. *)
Fixpoint nlen_loop (fuel : nat) (s : bytes) (n : Z) (count : nat) : bres nat :=
  match fuel with
  | O => RFuel
  | S fuel =>
      if (0 <? n)%Z then
        rbind (char_at s 0) (fun c =>
        if c <? Runeself then
          if c =? 0 then ROk count else rbind (advance s 1) (fun s => nlen_loop fuel s (n - 1)%Z (S count))
        else
          rbind (fullrune s n) (fun full =>
          if negb full then ROk count
          else rbind (get_rune s) (fun '(_, k) => rbind (advance s k) (fun s => nlen_loop fuel s (n - Z.of_nat k)%Z (S count)))))
      else ROk count
  end.
(** lib/utf.c:1630-1649 [utfnlen]. *)
Definition utfnlen (s : bytes) (n : Z) : bres nat := nlen_loop (S (List.length s)) s n 0.

(** [strchr] and [strrchr] of C, the terminator included. *)
Fixpoint c_strchr (s : bytes) (c : byte) (i : nat) : option nat :=
  match s with
  | [] => if c =? 0 then Some i else None
  | x :: r => if x =? c then Some i else c_strchr r c (S i)
  end.
Fixpoint c_strrchr (s : bytes) (c : byte) (i : nat) (last : option nat) : option nat :=
  match s with
  | [] => if c =? 0 then Some i else last
  | x :: r => c_strrchr r c (S i) (if x =? c then Some i else last)
  end.

(** lib/utf.c:1662-1675: the loop of [utfrune]; [at_] is the place of [s]. *)
Fixpoint rune_loop (fuel : nat) (s : bytes) (c : N) (at_ : nat) : bres (option nat) :=
  match fuel with
  | O => RFuel
  | S fuel =>
      rbind (char_at s 0) (fun c1 =>
      if c1 <? Runeself then
        if c1 =? 0 then ROk None
        else if c1 =? c then ROk (Some at_)
        else rbind (advance s 1) (fun s => rune_loop fuel s c (S at_))
      else
        rbind (get_rune s) (fun '(r, n) =>
        if r =? c then ROk (Some at_) else rbind (advance s n) (fun s => rune_loop fuel s c (at_ + n)%nat)))
  end.
(** lib/utf.c:1653-1677 [utfrune]: the place of the rune in [s]. *)
Definition utfrune (s : bytes) (c : N) : bres (option nat) :=
  if c <? Runesync then ROk (c_strchr s c 0) else rune_loop (S (List.length s)) s c 0.

(** lib/utf.c:1688-1702: the loop of [utfrrune]. *)
Fixpoint rrune_loop (fuel : nat) (s : bytes) (c : N) (at_ : nat) (s1 : option nat) : bres (option nat) :=
  match fuel with
  | O => RFuel
  | S fuel =>
      rbind (char_at s 0) (fun c1 =>
      if c1 <? Runeself then
        if c1 =? 0 then ROk s1
        else rbind (advance s 1) (fun s => rrune_loop fuel s c (S at_) (if c1 =? c then Some at_ else s1))
      else
        rbind (get_rune s) (fun '(r, n) =>
        rbind (advance s n) (fun s => rrune_loop fuel s c (at_ + n)%nat (if r =? c then Some at_ else s1))))
  end.
(** lib/utf.c:1680-1703 [utfrrune]. *)
Definition utfrrune (s : bytes) (c : N) : bres (option nat) :=
  if c <? Runesync then ROk (c_strrchr s c 0 None) else rrune_loop (S (List.length s)) s c 0 None.

(** lib/utf.c:1718-1725: the loop of [utfutf]; [strncmp] with the length of [s2] asks
    whether [p] starts with it. *)
Fixpoint utf_loop (fuel : nat) (p s2 : bytes) (f : N) (n1 : nat) (at_ : nat) : bres (option nat) :=
  match fuel with
  | O => RFuel
  | S fuel =>
      rbind (utfrune p f) (fun q =>
      match q with
      | None => ROk None
      | Some k =>
          rbind (advance p k) (fun p =>
          if str_starts_with p s2 then ROk (Some (at_ + k)%nat)
          else rbind (advance p n1) (fun p => utf_loop fuel p s2 f n1 (at_ + k + n1)%nat))
      end)
  end.
(** lib/utf.c:1707-1727 [utfutf]. *)
Definition utfutf (s1 s2 : bytes) : bres (option nat) :=
  rbind (get_rune s2) (fun '(r, n1) =>
  if r <=? Runesync then ROk (c_strstr s1 s2 0)
  else utf_loop (S (List.length s1)) s1 s2 r n1 0).

(** * Copying *)

(** lib/utf.c:1611-1622 [nih_memcpy], which moves neither pointer: the first byte of
    [src] is written over the first byte of [dest], [n] times at most.  The answer is
    whether the byte was [c]. *)
Fixpoint nih_memcpy (n : nat) (dest : bytes) (src : byte) (c : byte) : bytes * bool :=
  match n with
  | O => (dest, false)
  | S n =>
      let dest := match dest with [] => [] | _ :: r => src :: r end in
      if src =? c then (dest, true) else nih_memcpy n dest src c
  end.
(** lib/utf.c:1602-1603: [end] goes back over the bytes in the middle of a sequence. *)
Fixpoint back_loop (dest : bytes) (end_ : nat) : nat :=
  match end_ with
  | O => O
  | S e => if N.land (nth e dest 0) 192 =? 128 then back_loop dest e else e
  end.
Definition put_at (dest : bytes) (i : nat) (c : byte) : bytes := firstn i dest ++ c :: skipn (S i) dest.
(** lib/utf.c:1595-1609 [utfecpy]: what is in the destination then, and where the answer
    points.  [dest] is what is between [to] and [e]. *)
Definition utfecpy (dest from : bytes) : bytes * nat :=
  match dest with
  | [] => (dest, O)
  | _ =>
      let '(dest, found) := nih_memcpy (List.length dest) dest (nth 0 (from ++ [0]) 0) 0 in
      if found then (dest, O)
      else let e := back_loop dest (List.length dest - 1) in (put_at dest e 0, e)
  end.

(** * Strings of runes *)

(** lib/utf.c:96-98: the second loop of [runestrchr], in which [s] does not move. *)
Fixpoint chr_loop (fuel : nat) (s : list N) (c : N) : bres (option nat) :=
  match fuel with
  | O => RFuel
  | S fuel =>
      match s with
      | [] => ROk None
      | x :: _ => if x =? c then ROk (Some O) else chr_loop fuel s c
      end
  end.
(** lib/utf.c:91-100 [runestrchr], with so many rounds. *)
Definition runestrchr (fuel : nat) (s : list N) (c : N) : bres (option nat) :=
  if c =? 0 then ROk (Some (List.length s)) else chr_loop fuel s c.

(** lib/utf.c:193-208 [runestrcmp]. *)
Fixpoint runestrcmp (s1 s2 : list N) : Z :=
  match s1, s2 with
  | [], [] => 0
  | [], c2 :: _ => if negb (0 =? c2)%N then (if (c2 <? 0)%N then 1 else -1) else 0
  | c1 :: _, [] => if negb (c1 =? 0)%N then (if (0 <? c1)%N then 1 else -1) else 0
  | c1 :: r1, c2 :: r2 => if negb (c1 =? c2)%N then (if (c2 <? c1)%N then 1 else -1) else runestrcmp r1 r2
  end%Z.
(** lib/utf.c:174-191 [runestrncmp]. *)
Fixpoint runestrncmp (n : nat) (s1 s2 : list N) : Z :=
  match n with
  | O => 0
  | S n =>
      match s1, s2 with
      | [], [] => 0
      | [], c2 :: _ => if negb (0 =? c2)%N then (if (c2 <? 0)%N then 1 else -1) else 0
      | c1 :: _, [] => if negb (c1 =? 0)%N then (if (0 <? c1)%N then 1 else -1) else 0
      | c1 :: r1, c2 :: r2 => if negb (c1 =? c2)%N then (if (c2 <? c1)%N then 1 else -1) else runestrncmp n r1 r2
      end
  end%Z.

(** lib/utf.c:210-219 [runestrcpy]: the cells of the destination after it. *)
Fixpoint runestrcpy (dest s2 : list N) : bres (list N) :=
  match dest with
  | [] => RUndefined
  | _ :: d =>
      match s2 with
      | [] => RUndefined
      | [c] => ROk (c :: d)
      | c :: r => rbind (runestrcpy d r) (fun d => ROk (c :: d))
      end
  end.
(** lib/utf.c:149-153 [runestrdup]: the cells of the copy; [calloc] fills with zeros. *)
Definition runestrdup (s : list N) : bres (list N) := runestrcpy (repeat 0 (S (List.length s))) s.
