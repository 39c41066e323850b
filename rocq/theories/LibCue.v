(** Model of lib/formats/cue.c, on a text in memory; memory suffices. *)
From Verif Require Import LibBase LibIO LibText LibTok LibTime LibSrt.

(** lib/formats/cue.c:104-114 [entry_t]: of an entry what [readcue] looks at. *)
Inductive entry := EOther | ETitle (t : bytes) | ETrack | EIndex (min sec frames : Z).

(** lib/formats/cue.c:162-174 [num]; an int that is too large is undefined. *)
Fixpoint cue_num (fuel : nat) (t : tok bytes) (n : Z) (ok : bool) : bres (Z * tok bytes) :=
  match fuel with
  | O => RFuel
  | S f =>
      let '(m, t) := tok_more mem_read t in
      let '(c, t) := if m : bool then tok_peek mem_read t else ((-1)%Z, t) in
      if z_isdigit c then
        let '(c, t) := tok_get mem_read t in
        rbind (int_ (n * 10)) (fun n => rbind (int_ (n + (c - 48))) (fun n => cue_num f t n true))
      else if ok then ROk (n, t) else RPanic
  end.
(** lib/formats/cue.c:177-187 [title]. *)
Definition cue_title (fuel : nat) (t : tok bytes) : bres (bytes * tok bytes) :=
  let '(c, t) := tok_get mem_read t in
  if negb (c =? 34)%Z then RPanic else
  rbind (tok_read_until mem_read fuel t 34%N [] 100) (fun '(ok, b, t) =>
  if negb ok then RPanic else
  let '(c, t) := tok_get mem_read t in
  if negb (c =? 34)%Z then RPanic else ROk (b, t)).
(** lib/formats/cue.c:192-199: a line with its end; the array has 300 cells. *)
Fixpoint cue_val (fuel : nat) (t : tok bytes) (val : bytes) : bres (bytes * tok bytes) :=
  match fuel with
  | O => RFuel
  | S f =>
      let '(m, t) := tok_more mem_read t in
      if Nat.leb 300 (List.length val) then RUndefined
      else if negb m then ROk (val, t)
      else let '(c, t) := tok_get mem_read t in
           if (c =? 10)%Z then (if Nat.leb 299 (List.length val) then RUndefined else ROk (val ++ [z_byte c], t))
           else cue_val f t (val ++ [z_byte c])
  end.
(** lib/formats/cue.c:201: sscanf with "%d %d:%d:%d"; [RPanic] if there are not four numbers. *)
Definition cue_scan (val : bytes) : bres (Z * Z * Z * Z) :=
  rbind (scan_int val) (fun o => match o with
  | None => RPanic
  | Some (num, r) =>
      rbind (scan_int r) (fun o => match o with
      | Some (min, x :: r) =>
          if negb (x =? 58)%N then RPanic else
          rbind (scan_int r) (fun o => match o with
          | Some (sec, x :: r) =>
              if negb (x =? 58)%N then RPanic else
              rbind (scan_int r) (fun o => match o with Some (frames, _) => ROk (num, min, sec, frames) | None => RPanic end)
          | _ => RPanic
          end)
      | _ => RPanic
      end)
  end).
(** lib/formats/cue.c:189-211 [index]. *)
Definition cue_index (fuel : nat) (t : tok bytes) : bres (entry * tok bytes) :=
  rbind (cue_val fuel t []) (fun '(val, t) =>
  rbind (cue_scan val) (fun '(num, min, sec, frames) =>
  if ((num =? 0) || (num =? 1))%Z then ROk (EIndex min sec frames, t) else RPanic)).
(** lib/formats/cue.c:125-152: what follows the type of an entry.  Whether all of a remark or a
    kind fits its array is not looked at. *)
Definition cue_data (fuel : nat) (type : bytes) (t : tok bytes) : bres (entry * tok bytes) :=
  if bytes_eqb type (L "REM") then rbind (tok_read_until mem_read fuel t 10%N [] 1000) (fun '(_, _, t) => ROk (EOther, t))
  else if bytes_eqb type (L "PERFORMER") then rbind (cue_title fuel t) (fun '(_, t) => ROk (EOther, t))
  else if bytes_eqb type (L "TITLE") then rbind (cue_title fuel t) (fun '(b, t) => ROk (ETitle b, t))
  else if bytes_eqb type (L "TRACK") then
    rbind (cue_num fuel t 0 false) (fun '(_, t) => rbind (tok_hspaces mem_read fuel t) (fun t =>
    rbind (tok_read_until mem_read fuel t 10%N [] 20) (fun '(_, _, t) => ROk (ETrack, t))))
  else if bytes_eqb type (L "INDEX") then cue_index fuel t
  else if bytes_eqb type (L "FILE") then
    rbind (cue_title fuel t) (fun '(_, t) => rbind (tok_hspaces mem_read fuel t) (fun t =>
    rbind (tok_read_until mem_read fuel t 10%N [] 20) (fun '(_, _, t) => ROk (EOther, t))))
  else RPanic.
(** lib/formats/cue.c:117-159 [readentry]. *)
Definition cue_entry (fuel : nat) (t : tok bytes) : bres (option entry * tok bytes) :=
  let '(m, t) := tok_more mem_read t in
  if negb m then ROk (None, t) else
  rbind (tok_hspaces mem_read fuel t) (fun t =>
  rbind (tok_read_until mem_read fuel t 32%N [] 100) (fun '(_, type, t) =>
  rbind (tok_hspaces mem_read fuel t) (fun t =>
  rbind (cue_data fuel type t) (fun '(e, t) =>
  let t := snd (tok_skip mem_read t 13%N) in
  let t := snd (tok_skip mem_read t 10%N) in
  ROk (Some e, t))))).
(** lib/formats/cue.c:213-218 [index_pos], in microseconds. *)
Definition cue_pos (min sec frames : Z) : bres Z :=
  rbind (int_ (Z.quot frames 75 + sec)) (fun a => rbind (int_ (60 * min)) (fun b => rbind (int_ (a + b)) (fun s => ROk (s * 1000000)%Z))).
(** lib/formats/cue.c:51-85 [readcue]: the tracks so far, the last of them first; [None] is an error. *)
Fixpoint cue_read (rounds fuel : nat) (t : tok bytes) (ts : list (bytes * Z)) : bres (option (list (bytes * Z))) :=
  match rounds with
  | O => RFuel
  | S k =>
      rbind (cue_entry fuel t) (fun '(e, t) =>
      match e with
      | None => ROk (Some (rev ts))
      | Some EOther => cue_read k fuel t ts
      | Some (ETitle x) => cue_read k fuel t (match ts with [] => [] | (_, p) :: r => (x, p) :: r end)
      | Some ETrack => if Nat.eqb (List.length ts) 100 then ROk None else cue_read k fuel t (([], 0%Z) :: ts)
      | Some (EIndex min sec frames) =>
          match ts with
          | [] => ROk None
          | (x, _) :: r => rbind (cue_pos min sec frames) (fun p => cue_read k fuel t ((x, p) :: r))
          end
      end)
  end.
(** lib/formats/cue.c:39-49, 228-236 [parse]: titles and positions of the tracks. *)
Definition cue_parse (s : bytes) : bres (option (list (bytes * Z))) :=
  cue_read (S (List.length s)) (S (List.length s)) (tok_new s) [].
