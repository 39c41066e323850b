(** Model of the searches in rune strings of lib/utf.c.  Strings are lists of their runes, places in
    them are numbers. *)
From Verif Require Import LibBase LibIO LibText LibUtf.

(** lib/utf.c:135-143: whether the rest of the second string [pb] stands at [pa]; at the end of [pa]
    zero is read, which is no rune of [pb]. *)
Fixpoint stands_at (pa pb : list N) : bool :=
  match pb, pa with
  | [], _ => true
  | _ :: _, [] => false
  | c :: pb, x :: pa => if (c =? x)%N then stands_at pa pb else false
  end.
(** lib/utf.c:133-145: the loop of [runestrstr] at [s], which is at place [at_]. *)
Fixpoint strstr_loop (fuel : nat) (s : list N) (at_ : nat) (c0 : N) (s2 : list N) : bres (option nat) :=
  match fuel with
  | O => RFuel
  | S fuel =>
      rbind (runestrchr fuel s c0) (fun o =>
        match o with
        | None => ROk None
        | Some k =>
            match skipn k s with
            | [] => RUndefined
            | _ :: pa => if stands_at pa s2 then ROk (Some (at_ + k)) else strstr_loop fuel pa (at_ + k + 1) c0 s2
            end
        end)
  end.
(** lib/utf.c:122-147 [runestrstr]. *)
Definition runestrstr (fuel : nat) (s1 s2 : list N) : bres (option nat) :=
  match s2 with [] => ROk (Some 0) | c0 :: s2 => strstr_loop fuel s1 0 c0 s2 end.
(** lib/utf.c:240-246: the loop of [runestrrchr]; [r] is the last place found. *)
Fixpoint rrchr_loop (fuel : nat) (s : list N) (at_ : nat) (c : N) (r : option nat) : bres (option nat) :=
  match fuel with
  | O => RFuel
  | S fuel =>
      rbind (runestrchr fuel s c) (fun o =>
        match o with
        | None => ROk r
        | Some k => rrchr_loop fuel (skipn (S k) s) (at_ + k + 1) c (Some (at_ + k))
        end)
  end.
(** lib/utf.c:236-248 [runestrrchr]. *)
Definition runestrrchr (fuel : nat) (s : list N) (c : N) : bres (option nat) :=
  if (c =? 0)%N then runestrchr fuel s 0%N else rrchr_loop fuel s 0 c None.
