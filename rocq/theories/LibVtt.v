(** Model of lib/formats/vtt.c.  The file is the bytes left of it; memory suffices. *)
From Verif Require Import LibBase LibIO LibText LibTok LibUrl.

(** lib/formats/vtt.c:3-10 [reader_t]; of the error only whether there is one. *)
Record vtt := mkVtt { vt_in : bytes; vt_line : bytes; vt_range : bytes; vt_text : bytes; vt_cap : N; vt_err : bool }.
(** [fgets] of C: at most [n] bytes, up to a line end and with it; and what is left. *)
Fixpoint c_fgets (l : bytes) (n : nat) : bytes * bytes :=
  match l, n with
  | c :: r, S k => if (c =? 10)%N then ([c], r) else let '(b, q) := c_fgets r k in (c :: b, q)
  | _, _ => ([], l)
  end.
(** lib/formats/vtt.c:97-104 [loadline]: the array has 4096 cells. *)
Definition vtt_loadline (st : vtt) : bool * vtt :=
  match vt_in st with
  | [] => (false, st)
  | l => let '(b, r) := c_fgets l (N.to_nat 4095) in
         (true, mkVtt r (str_rtrim (cgi_str b) [13; 10]%N) (vt_range st) (vt_text st) (vt_cap st) (vt_err st))
  end.
(** lib/formats/vtt.c:126-136 [seterror]. *)
Definition vtt_seterror (st : vtt) : vtt := mkVtt (vt_in st) (vt_line st) (vt_range st) (vt_text st) (vt_cap st) true.
(** lib/formats/vtt.c:47-60: the headers; what is done to the line is not seen, as it is read over. *)
Fixpoint vtt_headers (fuel : nat) (st : vtt) : bres (bool * vtt) :=
  match fuel with
  | O => RFuel
  | S f =>
      let '(ok, st) := vtt_loadline st in
      if negb ok then ROk (false, st)
      else match vt_line st with
           | [] => ROk (true, st)
           | _ => match c_strstr (vt_line st) (L ": ") 0 with None => ROk (false, vtt_seterror st) | Some _ => vtt_headers f st end
           end
  end.
(** lib/formats/vtt.c:38-61 [init]. *)
Definition vtt_init (st : vtt) : bres (bool * vtt) :=
  let '(ok, st) := vtt_loadline st in
  if negb ok then ROk (false, st)
  else if negb (bytes_eqb (vt_line st) (L "WEBVTT")) then ROk (false, vtt_seterror st)
  else vtt_headers (S (List.length (vt_in st))) st.
(** lib/formats/vtt.c:13-22 [reader]. *)
Definition vtt_reader (f : bytes) : bres vtt :=
  let* (ok, st) := vtt_init (mkVtt f [] [] [] 100 false) in ROk (if ok : bool then st else vtt_seterror st).

(** lib/formats/vtt.c:106-124 [printnotags]. *)
Fixpoint printnotags (s : bytes) (tag : bool) : bytes :=
  match s with
  | [] => []
  | c :: r =>
      if tag then printnotags r (negb (c =? 62)%N)
      else if (c =? 60)%N then printnotags r true else c :: printnotags r false
  end.
(** lib/formats/vtt.c:166-177: digits are [None]. *)
Definition stamp_form : list (option byte) :=
  [None; None; Some 58; None; None; Some 58; None; None; Some 46; None; None; None]%N.
Fixpoint vtt_form (form : list (option byte)) (s : bytes) : option bytes :=
  match form, s with
  | [], _ => Some s
  | None :: f, c :: r => if c_isdigit c then vtt_form f r else None
  | Some x :: f, c :: r => if (c =? x)%N then vtt_form f r else None
  | _, [] => None
  end.
(** lib/formats/vtt.c:162-179 [timestamp]. *)
Definition vtt_stamp (s : bytes) : option bytes := vtt_form stamp_form s.
(** lib/formats/vtt.c:139-158 [cue]: strstr finds "--> " at the beginning of p if p begins with it. *)
Definition vtt_cue (line : bytes) : option bytes :=
  match vtt_stamp line with
  | None => None
  | Some p =>
      match p with
      | c :: p =>
          if negb (c =? 32)%N then None
          else if negb (bytes_eqb (firstn 4 p) (L "--> ")) then None
          else match vtt_stamp (skipn 4 p) with
               | None => None
               | Some p =>
                   let p := match p with c :: r => if (c =? 32)%N then r else p | [] => p end in
                   Some (firstn (List.length line - List.length p) line)
               end
      | [] => None
      end
  end.
(** lib/formats/vtt.c:66-69. *)
Fixpoint vtt_skip (fuel : nat) (st : vtt) : bres (bool * vtt) :=
  match fuel with
  | O => RFuel
  | S f => let '(ok, st) := vtt_loadline st in
           if negb ok then ROk (false, st) else match vt_line st with [] => vtt_skip f st | _ => ROk (true, st) end
  end.
(** lib/formats/vtt.c:79-92: writing past the end of the text is undefined. *)
Fixpoint vtt_text (fuel : nat) (st : vtt) : bres (bool * vtt) :=
  match fuel with
  | O => RFuel
  | S f =>
      let '(ok, st) := vtt_loadline st in
      if negb ok then ROk (false, st)
      else match vt_line st with
      | [] => ROk (true, st)
      | line =>
          let cap := if (vt_cap st <? N.of_nat (List.length (vt_text st) + List.length line + 2))%N then (2 * vt_cap st)%N else vt_cap st in
          let text := match vt_text st with [] => [] | t => t ++ [10%N] end ++ printnotags line false in
          if (cap <? N.of_nat (List.length text + 1))%N then RUndefined
          else vtt_text f (mkVtt (vt_in st) line (vt_range st) text cap (vt_err st))
      end
  end.
(** lib/formats/vtt.c:64-95 [read]. *)
Definition vtt_read (st : vtt) : bres (bool * vtt) :=
  let fuel := S (S (List.length (vt_in st))) in
  let* (ok, st) := vtt_skip fuel st in
  if negb ok then ROk (false, st)
  else match vtt_cue (vt_line st) with
  | None => ROk (false, vtt_seterror st)
  | Some range =>
      let* (ok, st) := vtt_text fuel (mkVtt (vt_in st) (vt_line st) range [] (vt_cap st) (vt_err st)) in
      if negb ok then ROk (false, st)
      else ROk (true, mkVtt (vt_in st) (vt_line st) (vt_range st) (str_trim (vt_text st)) (vt_cap st) (vt_err st))
  end.
(** A program that reads cues until there are no more and then looks for an error. *)
Fixpoint vtt_all (fuel : nat) (st : vtt) : bres (list (bytes * bytes) * bool) :=
  match fuel with
  | O => RFuel
  | S f =>
      let* (ok, st) := vtt_read st in
      if negb ok then ROk ([], vt_err st)
      else let* (l, e) := vtt_all f st in ROk ((vt_range st, vt_text st) :: l, e)
  end.
(** The same for a new reader. *)
Definition vtt_file (fuel : nat) (f : bytes) : bres (list (bytes * bytes) * bool) :=
  rbind (vtt_reader f) (fun st => vtt_all fuel st).
