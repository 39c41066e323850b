(** Model of lib/url.c and lib/protocols/cgi.c. *)
From Coq Require Export ZArith.
From Verif Require Import LibBase LibIO LibText LibTok.

(** * Addresses *)

(** lib/url.c:3-8 [t]: the strings in its arrays of 10, 100, 10 and 100 cells. *)
Record url := mkUrl { ur_schema : bytes; ur_hostname : bytes; ur_port : bytes; ur_path : bytes }.

(** The next character is none of [stops]; every test is a [peek] of its own. *)
Fixpoint url_none (t : tok bytes) (stops : bytes) : bool * tok bytes :=
  match stops with
  | [] => (true, t)
  | c :: r => let '(p, t) := tok_peek mem_read t in if (p =? Z.of_N c)%Z then (false, t) else url_none t r
  end.
(** lib/url.c:16-18, 29-31, 36-38, 44-46: [while (more(buf) && peek(buf) != ...) *q++ = get(buf)]
    into [n] cells.  A text that leaves no room for a final zero counts as undefined. *)
Fixpoint url_upto (fuel : nat) (t : tok bytes) (stops : bytes) (buf : bytes) (n : N) : bres (bytes * tok bytes) :=
  match fuel with
  | O => RFuel
  | S f =>
      let '(m, t) := tok_more mem_read t in
      if negb m then ROk (buf, t)
      else
        let '(go, t) := url_none t stops in
        if negb go then ROk (buf, t)
        else
          let '(c, t) := tok_get mem_read t in
          if (N.of_nat (List.length buf) + 1 <? n)%N then url_upto f t stops (buf ++ [z_byte c]) n else RUndefined
  end.
(** lib/url.c:21: the three characters in turn. *)
Fixpoint url_gets (t : tok bytes) (l : bytes) : bool * tok bytes :=
  match l with
  | [] => (true, t)
  | c :: r => let '(g, t) := tok_get mem_read t in if negb (g =? Z.of_N c)%Z then (false, t) else url_gets t r
  end.
(** lib/url.c:10-51 [parse]; the inner [None] is the null pointer. *)
Definition url_parse (s : bytes) : bres (option url) :=
  let fuel := S (List.length s) in
  let t := tok_new s in
  let* (schema, t) := url_upto fuel t (L ":") [] 10 in
  let '(ok, t) := url_gets t (L "://") in
  if negb ok then ROk None else
  let* (host, t) := url_upto fuel t (L ":/") [] 100 in
  let '(c, t) := tok_peek mem_read t in
  let* (port, t) :=
    if (c =? 58)%Z then let '(_, t) := tok_get mem_read t in url_upto fuel t (L "/") [] 10 else ROk ([], t) in
  let '(c, t) := tok_peek mem_read t in
  let* (path, t) := if (c =? 47)%Z then url_upto fuel t [] [] 100 else ROk (L "/", t) in
  ROk (Some (mkUrl schema host port path)).

(** * Heads of CGI answers *)

(** lib/protocols/cgi.c:18-21, 37-40: the bytes up to one of [stops], into 1000 cells; what
    is left of the data. *)
Fixpoint cgi_upto (data : bytes) (stops : bytes) (buf : bytes) : bres (bytes * bytes) :=
  match data with
  | [] => ROk (buf, [])
  | c :: r =>
      if existsb (N.eqb c) stops then ROk (buf, data)
      else if (N.of_nat (List.length buf) + 1 <? 1000)%N then cgi_upto r stops (buf ++ [c]) else RUndefined
  end.
(** lib/protocols/cgi.c:28-30. *)
Fixpoint cgi_spaces (data : bytes) : bytes :=
  match data with c :: r => if c_isspace c then cgi_spaces r else data | [] => [] end.
(** lib/protocols/cgi.c:42-43, 48-49: one line end. *)
Definition cgi_skip1 (c : byte) (data : bytes) : bytes :=
  match data with x :: r => if (x =? c)%N then r else data | [] => [] end.
Definition cgi_eol (data : bytes) : bytes := cgi_skip1 10%N (cgi_skip1 13%N data).
(** [strcpy] of what was read: up to the first zero. *)
Fixpoint cgi_str (b : bytes) : bytes := match b with [] => [] | c :: r => if (c =? 0)%N then [] else c :: cgi_str r end.

(** lib/protocols/cgi.c:13-52: the loop of [parse_head]; the headers so far and what is left
    of the data.  [None] is the answer 0.  The array has 100 cells. *)
Fixpoint cgi_loop (fuel : nat) (headers : list (bytes * bytes)) (data : bytes) : bres (list (bytes * bytes) * option bytes) :=
  match fuel with
  | O => RFuel
  | S f =>
      let* (name, data) := cgi_upto data (L ":") [] in
      match data with
      | [] => ROk (headers, None)
      | _ :: data =>
          match cgi_spaces data with
          | [] => ROk (headers, None)
          | data =>
              let* (value, data) := cgi_upto data [10; 13]%N [] in
              match data with
              | [] => ROk (headers, None)
              | _ =>
                  let data := cgi_eol data in
                  if Nat.leb 100 (List.length headers) then RUndefined
                  else
                    let headers := headers ++ [(cgi_str name, cgi_str value)] in
                    match data with
                    | c :: _ => if (c =? 13)%N || (c =? 10)%N then ROk (headers, Some (cgi_eol data)) else cgi_loop f headers data
                    | [] => cgi_loop f headers data
                    end
              end
          end
      end
  end.
(** lib/protocols/cgi.c:11-53 [parse_head]: the headers of [r] then, and the answer. *)
Definition cgi_parse_head (headers : list (bytes * bytes)) (data : bytes) : bres (list (bytes * bytes) * nat) :=
  let* (hs, o) := cgi_loop (S (List.length data)) headers data in
  ROk (hs, match o with Some rest => List.length data - List.length rest | None => 0 end).
