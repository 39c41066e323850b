(** Model of further string functions of lib/utf.c.  A string that is read is the list of its
    runes; what is written to is a list of cells. *)
From Verif Require Import LibBase LibIO LibText LibUtf.

(** lib/utf.c:226-228: zeros in the next cells. *)
Fixpoint zero_fill (n : nat) (dest : list N) : bres (list N) :=
  match n, dest with
  | O, _ => ROk dest
  | S _, [] => RUndefined
  | S n, _ :: d => rbind (zero_fill n d) (fun d => ROk (0%N :: d))
  end.
(** lib/utf.c:221-233 [runestrncpy], for [n] not below zero; of an empty string it looks behind the
    end. *)
Fixpoint runestrncpy (n : nat) (dest s2 : list N) : bres (list N) :=
  match n, dest, s2 with
  | O, _, _ => ROk dest
  | S _, [], _ => RUndefined
  | S _, _, [] => RUndefined
  | S n, _ :: d, [c] => rbind (zero_fill n d) (fun d => ROk (c :: d))
  | S n, _ :: d, c :: r => rbind (runestrncpy n d r) (fun d => ROk (c :: d))
  end.
(** lib/utf.c:91-95 [runestrchr] for 0, in cells: what [k] does from the end of the string on. *)
Fixpoint at_end (k : list N -> bres (list N)) (cells : list N) : bres (list N) :=
  match cells with
  | [] => RUndefined
  | c :: r => if (c =? 0)%N then k cells else rbind (at_end k r) (fun d => ROk (c :: d))
  end.
(** lib/utf.c:86-89 [runestrcat]. *)
Definition runestrcat (s1 s2 : list N) : bres (list N) := at_end (fun d => runestrcpy d s2) s1.
(** lib/utf.c:160-169: the loop of [runestrncat], for [n] not below zero. *)
Fixpoint ncat_loop (n : nat) (dest s2 : list N) : bres (list N) :=
  match dest, s2 with
  | [], _ => RUndefined
  | _, [] => RUndefined
  | _ :: d, [c] => ROk (c :: d)
  | _ :: d, c :: r => match n with O => ROk (0%N :: d) | S n => rbind (ncat_loop n d r) (fun d => ROk (c :: d)) end
  end.
(** lib/utf.c:155-171 [runestrncat]. *)
Definition runestrncat (n : nat) (s1 s2 : list N) : bres (list N) := at_end (fun d => ncat_loop n d s2) s1.
(** lib/utf.c:106-115: the loop of [runestrecpy], [e] cells before the end; also how far it came. *)
Fixpoint ecpy_loop (e : nat) (dest s2 : list N) : bres (list N * nat) :=
  match dest, s2 with
  | [], _ => RUndefined
  | _, [] => RUndefined
  | _ :: d, [c] => ROk (c :: d, 1)
  | _ :: d, c :: r =>
      match e with
      | S (S e) => rbind (ecpy_loop (S e) d r) (fun '(d, k) => ROk (c :: d, S k))
      | _ => ROk (0%N :: d, 0)
      end
  end.
(** lib/utf.c:102-117 [runestrecpy], with [e] cells from the first one to the end that is given. *)
Definition runestrecpy (e : nat) (dest s2 : list N) : bres (list N * nat) :=
  match e with O => ROk (dest, 0) | _ => ecpy_loop e dest s2 end.
