(** Model of lib/formats/json.c. *)
From Coq Require Export ZArith.
From Verif Require Import LibBase LibIO LibText LibTok.

(** lib/formats/json.c:9-31: values.  Numbers are doubles; their type is left
    open.  Null pointers as values are not modelled. *)
Inductive jval (D : Type) :=
| JNull
| JBool (b : bool)
| JNum (d : D)
| JStr (s : bytes)
| JArr (l : list (jval D))
| JObj (l : list (bytes * jval D)).
Arguments JNull {D}. Arguments JBool {D}. Arguments JNum {D}. Arguments JStr {D}. Arguments JArr {D}. Arguments JObj {D}.

(** The texts of the errors. *)
Inductive jerr :=
| ENoMore                       (** no more input *)
| EEnd                          (** unexpected end of input *)
| EExpected (c : byte) (got : Z)
| EUnexpected (c : Z)           (** unexpected character *)
| ENumber                       (** failed to read number *)
| EEscape.                      (** Unexpected end of input *)

(** lib/formats/json.c:102-126 [json_put] on an object: the entries. *)
Fixpoint json_put {D} (l : list (bytes * jval D)) (k : bytes) (v : jval D) : list (bytes * jval D) :=
  match l with
  | [] => [(k, v)]
  | (k', v') :: r => if bytes_eqb k' k then (k', v) :: r else (k', v') :: json_put r k v
  end.
(** lib/formats/json.c:196-206 [get] on an object. *)
Fixpoint json_get {D} (l : list (bytes * jval D)) (k : bytes) : option (jval D) :=
  match l with
  | [] => None
  | (k', v') :: r => if bytes_eqb k' k then Some v' else json_get r k
  end.

(** lib/formats/json.c:71-85: the loops of [clone]; [None] is the panic. *)
Definition json_clone_members {D} (clone : jval D -> option (jval D)) : list (bytes * jval D) -> list (bytes * jval D) -> option (list (bytes * jval D)) :=
  fix go l acc :=
    match l with
    | [] => Some acc
    | (k, x) :: r => match clone x with Some y => go r (json_put acc k y) | None => None end
    end.
Definition json_clone_elements {D} (clone : jval D -> option (jval D)) : list (jval D) -> list (jval D) -> option (list (jval D)) :=
  fix go l acc :=
    match l with
    | [] => Some acc
    | x :: r => match clone x with Some y => go r (acc ++ [y]) | None => None end
    end.
(** lib/formats/json.c:64-100 [clone]; a [case] of che does not run into the next
    one. *)
Fixpoint json_clone {D} (v : jval D) : option (jval D) :=
  match v with
  | JObj l => option_map JObj (json_clone_members json_clone l [])
  | JArr l => option_map JArr (json_clone_elements json_clone l [])
  | JStr s => Some (JStr s)
  | JNum d => Some (JNum d)
  | JBool b => Some (JBool b)
  | JNull => None
  end.

(** * Parser *)
Section Parser.
  Context {D : Type} (scan : bytes -> D) {R : Type} (read : read_fn R) (fuel : nat).
  Notation tk := (tok R).

  (** lib/formats/json.c:401-404 [tok_more]. *)
  Definition js_more (t : tk) : bres (bool * tk) :=
    let* t := tok_spaces read fuel t in ROk (tok_more read t).
  (** lib/formats/json.c:407-410 [tok_peek]. *)
  Definition js_peek (t : tk) : bres (Z * tk) :=
    let* t := tok_spaces read fuel t in ROk (tok_peek read t).
  (** lib/formats/json.c:414-420 [eat]. *)
  Definition js_eat (t : tk) (c : byte) : bres (bool * tk) :=
    let* (p, t) := js_peek t in
    if (p =? Z.of_N c)%Z then ROk (true, snd (tok_get read t)) else ROk (false, t).
  (** lib/formats/json.c:422-432 [expect]; the answer is an error or not. *)
  Definition js_expect (t : tk) (c : byte) : bres (option jerr * tk) :=
    let '(m, t) := tok_more read t in
    if negb m then ROk (Some EEnd, t)
    else
      let* (ok, t) := js_eat t c in
      if ok then ROk (None, t)
      else
        let* (p, t) := js_peek t in
        let* (_, t) := js_peek t in
        ROk (Some (EExpected c p), t).

  (** lib/formats/json.c:373-392, the loop of [readstr]. *)
  Fixpoint js_chars (n : nat) (t : tk) (s : bytes) : bres ((bytes + jerr) * tk) :=
    match n with
    | O => RFuel
    | S n' =>
        let '(m, t) := tok_more read t in
        if negb m then ROk (inl s, t)
        else
          let '(p, t) := tok_peek read t in
          if (p =? 34)%Z then ROk (inl s, t)
          else
            let '(c, t) := tok_get read t in
            if (c =? 92)%Z then
              let '(c, t) := tok_get read t in
              if (c =? -1)%Z then ROk (inr EEscape, t) else js_chars n' t (s ++ [z_byte c])
            else js_chars n' t (s ++ [z_byte c])
    end.
  (** lib/formats/json.c:366-398 [readstr]. *)
  Definition js_readstr (t : tk) : bres ((bytes + jerr) * tk) :=
    let* (e, t) := js_expect t 34%N in
    match e with
    | Some e => ROk (inr e, t)
    | None =>
        let* (s, t) := js_chars fuel t [] in
        match s with
        | inr e => ROk (inr e, t)
        | inl s =>
            let* (e, t) := js_expect t 34%N in
            match e with Some e => ROk (inr e, t) | None => ROk (inl s, t) end
        end
    end.

  (** lib/formats/json.c:332-346 [read_num]; [scan] stands for sscanf with %lf. *)
  Definition js_read_num (t : tk) : bres ((jval D + jerr) * tk) :=
    let* (o, t) := tok_num read fuel t 100 in
    match o with
    | None => ROk (inr ENumber, t)
    | Some b => ROk (inl (JNum (scan b)), t)
    end.

  (** lib/formats/json.c:348-364 [read_kw]. *)
  Definition js_read_kw (t : tk) : bres ((jval D + jerr) * tk) :=
    let* (ok, t) := tok_skip_literal read t (L "true") in
    if ok then ROk (inl (JBool true), t)
    else
      let* (ok, t) := tok_skip_literal read t (L "false") in
      if ok then ROk (inl (JBool false), t)
      else
        let* (ok, t) := tok_skip_literal read t (L "null") in
        if ok then ROk (inl JNull, t)
        else let* (p, t) := js_peek t in ROk (inr (EUnexpected p), t).

  (** lib/formats/json.c:269-279, the loop of [read_array]. *)
  Fixpoint js_elements (node : tk -> bres ((jval D + jerr) * tk)) (n : nat) (t : tk) (acc : list (jval D)) : bres ((list (jval D) + jerr) * tk) :=
    match n with
    | O => RFuel
    | S n' =>
        let* (m, t) := js_more t in
        if negb m then ROk (inl acc, t)
        else
          let* (x, t) := node t in
          match x with
          | inr e => ROk (inr e, t)
          | inl x =>
              let acc := acc ++ [x] in
              let* (ok, t) := js_eat t 44%N in
              if ok then js_elements node n' t acc else ROk (inl acc, t)
          end
    end.
  (** lib/formats/json.c:261-285 [read_array]. *)
  Definition js_read_array (node : tk -> bres ((jval D + jerr) * tk)) (t : tk) : bres ((jval D + jerr) * tk) :=
    let* (e, t) := js_expect t 91%N in
    match e with
    | Some e => ROk (inr e, t)
    | None =>
        let* (ok, t) := js_eat t 93%N in
        if ok then ROk (inl (JArr []), t)
        else
          let* (r, t) := js_elements node fuel t [] in
          match r with
          | inr e => ROk (inr e, t)
          | inl acc =>
              let* (e, t) := js_expect t 93%N in
              match e with Some e => ROk (inr e, t) | None => ROk (inl (JArr acc), t) end
          end
    end.

  (** lib/formats/json.c:295-314, the loop of [read_dict]. *)
  Fixpoint js_members (node : tk -> bres ((jval D + jerr) * tk)) (n : nat) (t : tk) (acc : list (bytes * jval D)) : bres ((list (bytes * jval D) + jerr) * tk) :=
    match n with
    | O => RFuel
    | S n' =>
        let* (m, t) := js_more t in
        if negb m then ROk (inl acc, t)
        else
          let* (k, t) := js_readstr t in
          match k with
          | inr e => ROk (inr e, t)
          | inl k =>
              let* (e, t) := js_expect t 58%N in
              match e with
              | Some e => ROk (inr e, t)
              | None =>
                  let* (x, t) := node t in
                  match x with
                  | inr e => ROk (inr e, t)
                  | inl x =>
                      let acc := json_put acc k x in
                      let* (ok, t) := js_eat t 44%N in
                      if ok then js_members node n' t acc else ROk (inl acc, t)
                  end
              end
          end
    end.
  (** lib/formats/json.c:287-320 [read_dict]. *)
  Definition js_read_dict (node : tk -> bres ((jval D + jerr) * tk)) (t : tk) : bres ((jval D + jerr) * tk) :=
    let* (e, t) := js_expect t 123%N in
    match e with
    | Some e => ROk (inr e, t)
    | None =>
        let* (ok, t) := js_eat t 125%N in
        if ok then ROk (inl (JObj []), t)
        else
          let* (r, t) := js_members node fuel t [] in
          match r with
          | inr e => ROk (inr e, t)
          | inl acc =>
              let* (e, t) := js_expect t 125%N in
              match e with Some e => ROk (inr e, t) | None => ROk (inl (JObj acc), t) end
          end
    end.

  (** lib/formats/json.c:322-330 [read_str]. *)
  Definition js_read_str (t : tk) : bres ((jval D + jerr) * tk) :=
    let* (s, t) := js_readstr t in
    match s with inr e => ROk (inr e, t) | inl s => ROk (inl (JStr s), t) end.

  (** lib/formats/json.c:241-259 [read_node].  [depth] bounds the nesting, [fuel]
      the rounds of each loop. *)
  Fixpoint js_node (depth : nat) (t : tk) : bres ((jval D + jerr) * tk) :=
    match depth with
    | O => RFuel
    | S depth' =>
        let* (m, t) := js_more t in
        if negb m then ROk (inr ENoMore, t)
        else
        let* (p, t) := js_peek t in
        if (p =? 91)%Z then js_read_array (js_node depth') t
        else
        let* (p, t) := js_peek t in
        if (p =? 123)%Z then js_read_dict (js_node depth') t
        else
        let* (p, t) := js_peek t in
        if (p =? 34)%Z then js_read_str t
        else
        let* (p, t) := js_peek t in
        if z_isdigit p then js_read_num t
        else
        let* (p, t) := js_peek t in
        if (p =? 45)%Z then js_read_num t
        else js_read_kw t
    end.
End Parser.

(** lib/formats/json.c:232-237 [parse] of a C string. *)
Definition json_parse {D} (scan : bytes -> D) (s : bytes) : bres (jval D + jerr) :=
  let n := S (S (List.length s)) in
  let* (r, _) := js_node scan mem_read n n (tok_new s) in ROk r.

(** * Writer *)

(** lib/formats/json.c:506-529 [writestr]: the text between the quotes.  The
    string builder always has room. *)
Definition js_escape (c : byte) : bytes :=
  (if c =? 10 then [92; 92; 110]
   else if c =? 9 then [92; 92; 116]
   else if (c =? 92) || (c =? 34) || (c =? 47) then [92; c]
   else [c])%N.
Definition js_writestr (s : bytes) : bytes := 34%N :: List.concat (List.map js_escape s) ++ [34%N].

Section Writer.
  Context {D : Type} (print : D -> bytes).

  (** lib/formats/json.c:531-540 [writenum]: [print] stands for sprintf with
      %.0f or %f into a buffer of 100 bytes. *)
  Definition js_writenum (d : D) : bres bytes :=
    if Nat.ltb (List.length (print d)) 100 then ROk (print d) else RUndefined.

  (** lib/formats/json.c:496-501, the loop of [writearr]. *)
  Definition js_write_elements (write : jval D -> bres bytes) : list (jval D) -> bres bytes :=
    fix go l :=
      match l with
      | [] => ROk []
      | x :: r =>
          let* b := write x in
          let* c := go r in
          ROk (b ++ (match r with [] => [] | _ => [44%N] end) ++ c)
      end.
  (** lib/formats/json.c:479-488, the loop of [writeobj]. *)
  Definition js_write_members (write : jval D -> bres bytes) : list (bytes * jval D) -> bres bytes :=
    fix go l :=
      match l with
      | [] => ROk []
      | (k, x) :: r =>
          let* b := write x in
          let* c := go r in
          ROk ([34%N] ++ k ++ [34; 58]%N ++ b ++ (match r with [] => [] | _ => [44%N] end) ++ c)
      end.
  (** lib/formats/json.c:464-504, 542-548 [writenode], [writeobj], [writearr], [writebool]. *)
  Fixpoint js_write (v : jval D) : bres bytes :=
    match v with
    | JObj l => let* b := js_write_members js_write l in ROk ([123%N] ++ b ++ [125%N])
    | JArr l => let* b := js_write_elements js_write l in ROk ([91%N] ++ b ++ [93%N])
    | JStr s => ROk (js_writestr s)
    | JNum d => js_writenum d
    | JBool true => ROk (L "true")
    | JBool false => ROk (L "false")
    | JNull => ROk (L "null")
    end.
End Writer.
(** lib/formats/json.c:455-462 [format]. *)
Definition json_format {D} (print : D -> bytes) (v : jval D) : bres bytes := js_write print v.

(** lib/formats/json.c:438-451 [formatwr]: the bytes of [s] are written from its
    start each time, [n] of them. *)
Fixpoint js_writeall {W} (put : write_fn W) (fuel : nat) (w : W) (s : bytes) (n : nat) : bres W :=
  match fuel with
  | O => RFuel
  | S f =>
      match n with
      | O => ROk w
      | _ =>
          let '(r, w) := put w (firstn n s) in
          if (r <=? 0)%Z then RPanic else js_writeall put f w s (n - Z.to_nat r)
      end
  end.
Definition json_formatwr {D W} (print : D -> bytes) (put : write_fn W) (w : W) (v : jval D) : bres W :=
  let* s := json_format print v in js_writeall put (S (List.length s)) w s (List.length s).
