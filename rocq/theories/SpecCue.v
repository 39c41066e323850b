(** What a user of lib/formats/cue expects. *)
From Coq Require Import ZArith.
From Verif Require Import LibBase SpecTok SpecText SpecSrt.

Definition blank (c : byte) : Prop := c = 32%N \/ c = 9%N.
(** Text within a line. *)
Definition in_line (n : nat) (x : bytes) : Prop := Forall (fun c => (c < 256)%N /\ c <> 10%N) x /\ List.length x < n.
(** Text in quotes. *)
Definition quoted (x q : bytes) : Prop := in_line 100 x /\ ~ In 34%N x /\ q = [34%N] ++ x ++ [34%N].
Definition short_number (n : nat) (z : Z) (ds : bytes) : Prop := digits ds /\ List.length ds <= n /\ digits_value ds = z.

(** What a line says. *)
Inductive said := Nothing | TitleIs (x : bytes) | NewTrack | StartsAt (us : Z).
(** What stands behind the first word of a line and its blanks, with the end of the line. *)
Inductive line_data : bytes -> bytes -> said -> Prop :=
| d_rem : forall x e, in_line 900 x -> starts_not blank x -> line_end e -> line_data (L "REM") (x ++ e) Nothing
| d_performer : forall x q e, quoted x q -> line_end e -> line_data (L "PERFORMER") (q ++ e) Nothing
| d_file : forall x q s kind e, quoted x q -> Forall blank s -> in_line 18 kind -> starts_not blank kind -> line_end e ->
    line_data (L "FILE") (q ++ s ++ kind ++ e) Nothing
| d_title : forall x q e, quoted x q -> line_end e -> line_data (L "TITLE") (q ++ e) (TitleIs x)
| d_track : forall n z s kind e, short_number 9 z n -> Forall blank s -> in_line 18 kind -> starts_not blank kind -> starts_not is_digit (s ++ kind) -> line_end e ->
    line_data (L "TRACK") (n ++ s ++ kind ++ e) NewTrack
| d_index : forall i z a min b sec c frames e, short_number 9 z i -> (z = 0 \/ z = 1)%Z -> short_number 6 min a -> short_number 6 sec b -> short_number 6 frames c -> line_end e ->
    line_data (L "INDEX") (i ++ L " " ++ a ++ L ":" ++ b ++ L ":" ++ c ++ e) (StartsAt (1000000 * (60 * min + sec + frames / 75))).
Definition cue_line (l : bytes) (w : said) : Prop :=
  exists b word s d, Forall blank b /\ Forall blank s /\ line_data word d w /\ l = b ++ word ++ L " " ++ s ++ d.

(** The last title and the last position that are given. *)
Definition last_title (ws : list said) : bytes := fold_left (fun x w => match w with TitleIs y => y | _ => x end) ws [].
Definition last_start (ws : list said) : Z := fold_left (fun x w => match w with StartsAt y => y | _ => x end) ws 0%Z.
(** A track: its first line and what is said of it. *)
Definition cue_track (b : bytes) (t : bytes * Z) : Prop :=
  exists l ls ws, cue_line l NewTrack /\ Forall2 cue_line ls ws /\ ~ In NewTrack ws /\ b = l ++ concat ls /\ t = (last_title ws, last_start ws).
(** A sheet: lines about the whole, and tracks. *)
Definition cue_sheet (f : bytes) (ts : list (bytes * Z)) : Prop :=
  exists ls ws bs, Forall2 cue_line ls ws /\ Forall (fun w => w = Nothing \/ exists x, w = TitleIs x) ws /\
    Forall2 cue_track bs ts /\ f = concat ls ++ concat bs.
(** What does not begin with the end of a line. *)
Definition no_break (r : bytes) : Prop := match r with [] => True | c :: _ => c <> 10%N /\ c <> 13%N end.
(** What can not be read: an unknown word, a title that is not closed, a track without a number. *)
Inductive broken : bytes -> Prop :=
| b_word : forall w r, Forall (fun c => (c < 256)%N /\ c <> 32%N) w -> starts_not blank w -> no_break w -> w <> [] -> List.length w < 100 ->
    ~ In w [L "REM"; L "PERFORMER"; L "TITLE"; L "TRACK"; L "INDEX"; L "FILE"] -> broken (w ++ L " " ++ r)
| b_title : forall x, in_line 100 x -> ~ In 34%N x -> broken (L "TITLE " ++ [34%N] ++ x)
| b_track : forall r, starts_not is_digit r -> starts_not blank r -> broken (L "TRACK " ++ r).
