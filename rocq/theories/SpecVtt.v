(** What a user of lib/formats/vtt expects. *)
From Coq Require Import List NArith.
From Verif Require Import LibBase SpecTok SpecText SpecSrt.
Import ListNotations.

(** Characters of a line. *)
Definition line_of (l : bytes) : Prop := Forall (fun c => c <> 0 /\ c <> 10 /\ c <> 11 /\ c <> 12 /\ c <> 13)%N l.
(** hh:mm:ss.mmm *)
Definition clock (t : bytes) : Prop :=
  exists a b c d, t = a ++ L ":" ++ b ++ L ":" ++ c ++ L "." ++ d /\ Forall is_digit (a ++ b ++ c ++ d) /\
    List.length a = 2 /\ List.length b = 2 /\ List.length c = 2 /\ List.length d = 3.
(** [untagged l t]: [t] is [l] without its tags; a tag that is not closed goes on to the end. *)
Inductive untagged : bytes -> bytes -> Prop :=
| ut_plain : forall l, ~ In 60%N l -> untagged l l
| ut_open : forall a b, ~ In 60%N a -> ~ In 62%N b -> untagged (a ++ 60%N :: b) a
| ut_tag : forall a b r t, ~ In 60%N a -> ~ In 62%N b -> untagged r t -> untagged (a ++ 60%N :: b ++ 62%N :: r) (a ++ t).
(** Lines put together with line ends between them. *)
Fixpoint joined_lines (ls : list bytes) : bytes :=
  match ls with [] => [] | [l] => l | l :: r => l ++ [10%N] ++ joined_lines r end.
(** Blank lines. *)
Definition blank_lines (t : bytes) : Prop := exists es, Forall line_end es /\ t = concat es.
(** A line with its end. *)
Definition ended (l t : bytes) : Prop := exists e, line_end e /\ t = l ++ e.
(** A cue: its line of times, perhaps with a style, its lines of text and an empty line. *)
Definition cue_text (t : bytes) (c : bytes * bytes) : Prop :=
  exists blank t1 t2 style line ls ts texts e,
    blank_lines blank /\ clock t1 /\ clock t2 /\
    (style = [] \/ exists s, style = L " " ++ s /\ line_of s /\ (N.of_nat (List.length s) < 4000)%N) /\
    ended (t1 ++ L " --> " ++ t2 ++ style) line /\
    Forall (fun l => line_of l /\ l <> [] /\ List.length l <= 98) ls /\ Forall2 ended ls ts /\ line_end e /\
    t = blank ++ line ++ concat ts ++ e /\
    fst c = t1 ++ L " --> " ++ t2 ++ firstn 1 style /\
    Forall2 untagged ls texts /\ trimmed (joined_lines texts) (snd c).
(** A file: a first line, headers, an empty line, and cues. *)
Definition vtt_text_of (f : bytes) (cs : list (bytes * bytes)) : Prop :=
  exists first hs hts e ts blank,
    ended (L "WEBVTT") first /\
    Forall (fun h => line_of h /\ (N.of_nat (List.length h) < 4000)%N /\ exists k v, h = k ++ L ": " ++ v) hs /\ Forall2 ended hs hts /\ line_end e /\
    Forall2 cue_text ts cs /\ blank_lines blank /\
    f = first ++ concat hts ++ e ++ concat ts ++ blank.
(** The first line and headers of a file. *)
Definition vtt_headers_of (f : bytes) : Prop :=
  exists first hs hts, ended (L "WEBVTT") first /\
    Forall (fun h => line_of h /\ (N.of_nat (List.length h) < 4000)%N /\ exists k v, h = k ++ L ": " ++ v) hs /\ Forall2 ended hs hts /\
    f = first ++ concat hts.
(** A line that begins with two times and an arrow between them. *)
Definition times_line (l : bytes) : Prop := exists t1 t2 r, clock t1 /\ clock t2 /\ l = t1 ++ L " --> " ++ t2 ++ r.
(** A line that is not empty, with its end. *)
Definition some_line (l t : bytes) : Prop := line_of l /\ l <> [] /\ (N.of_nat (List.length l) < 4000)%N /\ ended l t.
