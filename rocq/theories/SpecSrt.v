(** What a user of lib/formats/srt expects. *)
From Coq Require Import ZArith.
From Verif Require Import LibBase LibIO LibText LibSrt SpecTok SpecText SpecTime.

Definition line_end (e : bytes) : Prop := e = [10%N] \/ e = [13; 10]%N.
(** hh:mm:ss,mmm as microseconds. *)
Definition stamp (us : Z) (t : bytes) : Prop :=
  exists h m s ms, (exists a b c d, t = a ++ L ":" ++ b ++ L ":" ++ c ++ L "," ++ d /\
    num 2 h a /\ List.length a = 2 /\ num 2 m b /\ List.length b = 2 /\ num 2 s c /\ List.length c = 2 /\ num 3 ms d /\ List.length d = 3) /\
  us = (1000 * (((h * 60 + m) * 60 + s) * 1000 + ms))%Z.
(** A line of text: blank, or with something in it that is no digit; it does not begin with
    more than nine digits. *)
Definition wording (l : bytes) : Prop :=
  Forall (fun c => c <> 0 /\ c <> 10 /\ c <> 11 /\ c <> 12 /\ c <> 13)%N l /\
  (Forall is_space l \/ exists c, In c l /\ ~ is_space c /\ ~ is_digit c) /\
  (forall a b, l = a ++ b -> Forall is_digit a -> List.length a <= 9).
(** The lines of a subtitle: its number, its times, its text and blank lines. *)
Record part := mkPart { p_number : bytes; p_e1 : bytes; p_begin : bytes; p_end : bytes; p_e2 : bytes; p_lines : list (bytes * bytes) }.
Definition part_text (p : part) : bytes :=
  p_number p ++ p_e1 p ++ p_begin p ++ L " --> " ++ p_end p ++ p_e2 p ++ concat (map (fun l => fst l ++ snd l) (p_lines p)).
Definition part_of (p : part) (b : block) : Prop :=
  (0 < bl_index b < 2 ^ 31)%Z /\ natural (bl_index b) (p_number p) /\ List.length (p_number p) <= 10 /\ line_end (p_e1 p) /\ line_end (p_e2 p) /\
  stamp (bl_begin b) (p_begin p) /\ stamp (bl_end b) (p_end p) /\
  p_lines p <> [] /\ Forall (fun l => wording (fst l) /\ line_end (snd l)) (p_lines p) /\
  let joined := concat (map (fun l => fst l ++ [10%N]) (p_lines p)) in
  (Z.of_nat (List.length joined) < 1000)%Z /\ trimmed joined (bl_text b).
(** A file of subtitles. *)
Definition subtitles (f : bytes) (bs : list block) : Prop :=
  exists ps, ps <> [] /\ f = concat (map part_text ps) /\ Forall2 part_of ps bs.
