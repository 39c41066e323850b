(** Model of lib/formats/csv.c. *)
From Coq Require Export ZArith.
From Verif Require Import LibBase LibIO LibText LibTok.

(** lib/formats/csv.c:3-9 [reader_t]: the tokenizer, [firstval], and what [valbuf] holds
    before the terminator that was written last. *)
Record csv (R : Type) := mkCsv { cv_b : tok R; cv_first : bool; cv_buf : bytes }.
Arguments mkCsv {R}. Arguments cv_b {R}. Arguments cv_first {R}. Arguments cv_buf {R}.

(** lib/formats/csv.c:6: the size of [valbuf]. *)
Definition valsize : nat := N.to_nat 4096.

(** lib/formats/csv.c:12-17 [newreader], on any reader instead of stdin. *)
Definition csv_new {R} (r : R) : csv R := mkCsv (tok_new r) true [].

(** lib/formats/csv.c:80-82 [val]: a C string. *)
Fixpoint until_zero (s : bytes) : bytes :=
  match s with [] => [] | c :: r => if (c =? 0)%N then [] else c :: until_zero r end.
Definition csv_val {R} (r : csv R) : bytes := until_zero (cv_buf r).

Section Reader.
  Context {R : Type} (read : read_fn R).

  (** lib/formats/csv.c:54-63 [peekany]. *)
  Fixpoint peekany (t : tok R) (chars : bytes) : bool * tok R :=
    match chars with
    | [] => (false, t)
    | p :: r => let '(c, t) := tok_peek read t in if (c =? Z.of_N p)%Z then (true, t) else peekany t r
    end.

  (** lib/formats/csv.c:46-50: an unquoted value; the last [put] is the terminator. *)
  Fixpoint csv_plain (fuel : nat) (t : tok R) (buf : bytes) : bres (bytes * tok R) :=
    match fuel with
    | O => RFuel
    | S f =>
        let stop t := let* _ := put valsize buf 0%N in ROk (buf, t) in
        let '(m, t) := tok_more read t in
        if negb m then stop t
        else
          let '(p, t) := peekany t [44; 13; 10]%N in
          if p then stop t
          else let* (buf, t) := put_get read valsize buf t in csv_plain f t buf
    end.

  (** lib/formats/csv.c:93-110: the rest of a quoted value. *)
  Fixpoint csv_quoted (fuel : nat) (t : tok R) (buf : bytes) : bres (bytes * tok R) :=
    match fuel with
    | O => RFuel
    | S f =>
        let '(c, t) := tok_get read t in
        if (c =? -1)%Z then RPanic
        else if (c =? 34)%Z then
          let '(n, t) := tok_peek read t in
          if (n =? 34)%Z then
            let '(_, t) := tok_get read t in
            let* buf := put valsize buf (z_byte c) in csv_quoted f t buf
          else let* _ := put valsize buf 0%N in ROk (buf, t)
        else let* buf := put valsize buf (z_byte c) in csv_quoted f t buf
    end.

  (** lib/formats/csv.c:84-111 [read_quoted_value]. *)
  Definition read_quoted_value (fuel : nat) (t : tok R) : bres (bytes * tok R) :=
    let '(ok, t) := tok_skip read t 34%N in
    if ok then csv_quoted fuel t [] else RPanic.

  (** lib/formats/csv.c:27-52 [readval]. *)
  Definition csv_readval (fuel : nat) (r : csv R) : bres (bool * csv R) :=
    let '(go, t) :=
      if cv_first r then (true, cv_b r)
      else
        let '(c, t) := tok_peek read (cv_b r) in
        if negb (c =? 44)%Z then (false, t) else let '(_, t) := tok_get read t in (true, t) in
    if negb go then ROk (false, mkCsv t (cv_first r) (cv_buf r))
    else
      let '(next, t) := tok_peek read t in
      if (next =? 10)%Z || (next =? 13)%Z then ROk (false, mkCsv t false (cv_buf r))
      else
        let '(m, t) := tok_more read t in
        if negb m then ROk (false, mkCsv t false (cv_buf r))
        else
          let* (v, t) := if (next =? 34)%Z then read_quoted_value fuel t else csv_plain fuel t [] in
          ROk (true, mkCsv t false v).

  (** lib/formats/csv.c:68: discarding the columns that are left. *)
  Fixpoint csv_discard (fuel loops : nat) (r : csv R) : bres (csv R) :=
    match loops with
    | O => RFuel
    | S n => let* (ok, r) := csv_readval fuel r in if ok then csv_discard fuel n r else ROk r
    end.

  (** lib/formats/csv.c:70-74: the line breaks. *)
  Fixpoint csv_breaks (fuel : nat) (t : tok R) (ok : bool) : bres (bool * tok R) :=
    match fuel with
    | O => RFuel
    | S f =>
        let '(c, t) := tok_peek read t in
        let '(c', t) := if (c =? 13)%Z then (c, t) else tok_peek read t in
        if (c =? 13)%Z || (c' =? 10)%Z then let '(_, t) := tok_get read t in csv_breaks f t true
        else ROk (ok, t)
    end.

  (** lib/formats/csv.c:66-77 [nextline]. *)
  Definition csv_nextline (fuel : nat) (r : csv R) : bres (bool * csv R) :=
    let* r := csv_discard fuel fuel r in
    let* (ok, t) := csv_breaks fuel (cv_b r) false in
    ROk (ok, mkCsv t true (cv_buf r)).
End Reader.

(** lib/formats/csv.c:113-116 [writer_t]: what has been written, and [col]. *)
Record csvw := mkCsvw { cw_out : bytes; cw_col : nat }.

(** lib/formats/csv.c:120-137 [writeval]; [None] is the null pointer.  Writing succeeds. *)
Definition csv_writeval (w : csvw) (x : option bytes) : csvw :=
  match x with
  | None => mkCsvw (cw_out w ++ [10%N]) 0
  | Some v =>
      mkCsvw (cw_out w ++ (if Nat.ltb 0 (cw_col w) then [44%N] else []) ++ [34%N] ++
                flat_map (fun c => if (c =? 34)%N then [92%N; c] else [c]) v ++ [34%N])
             (S (cw_col w))
  end.
