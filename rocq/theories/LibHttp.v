(** Model of lib/protocols/http.c.  Texts that are set through the interface are C strings
    (their bytes are not zero).  [net.write] is taken to succeed and to take all bytes.
    Not modelled: [errstr], [servefile], [freereq]. *)
From Coq Require Export ZArith.
From Verif Require Import LibBase LibIO LibText LibTok LibLines.

(** What C's string functions see of a buffer. *)
Fixpoint cstr (b : bytes) : bytes := match b with [] => [] | c :: r => if (c =? 0)%N then [] else c :: cstr r end.
(** [strcpy] into an array of [n] cells. *)
Definition strcpy (n : N) (s : bytes) : bres bytes := if (N.of_nat (List.length s) <? n)%N then ROk s else RUndefined.
Definition crlf : bytes := [13; 10]%N.

(** lib/protocols/http.c:11-16: the methods. *)
Definition http_GET : Z := 1. Definition http_POST : Z := 2. Definition http_HEAD : Z := 3.
(** lib/protocols/http.c:22-27 [method_from_string]. *)
Definition http_method_from_string (s : bytes) : Z :=
  if str_casecmp s (L "GET") then http_GET
  else if str_casecmp s (L "POST") then http_POST
  else if str_casecmp s (L "HEAD") then http_HEAD
  else 0%Z.

(** lib/protocols/http.c:29-54 [header_t], [kv_t], [request_t]: names with values; the first
    [nparams] and [nheaders] cells.  The error code is not modelled. *)
Record request := mkReq {
  rq_version : bytes; rq_method : bytes; rq_path : bytes;
  rq_params : list (bytes * bytes); rq_headers : list (bytes * bytes);
  rq_uri : bytes; rq_filename : bytes; rq_query : bytes }.
(** lib/protocols/http.c:56-65 [response_t]. *)
Record response := mkRes {
  rs_version : bytes; rs_status : Z; rs_headers : list (bytes * bytes); rs_body : bytes; rs_content_length : Z }.

(** lib/protocols/http.c:102-118 [init_request]; [None] is false. *)
Definition http_init (method : Z) (path : bytes) : bres (option request) :=
  let name :=
    if (method =? http_GET)%Z then Some (L "GET")
    else if (method =? http_POST)%Z then Some (L "POST")
    else if (method =? http_HEAD)%Z then Some (L "HEAD")
    else None in
  match name with
  | None => ROk None
  | Some m =>
      let* m := strcpy 10 m in
      let* u := strcpy 1024 path in
      let* v := strcpy 10 (L "HTTP/1.0") in
      ROk (Some (mkReq v m [] [] [] u [] []))
  end.
(** lib/protocols/http.c:79-85 [newreq]. *)
Definition http_newreq (method : Z) (path : bytes) : bres request :=
  let* o := http_init method path in
  match o with Some r => ROk r | None => RPanic end.

(** lib/protocols/http.c:91-100 [reqparams], [reqparam]; the array of parameters has 100
    cells. *)
Definition http_reqparam (r : request) (name data : bytes) : bres request :=
  if Nat.leb 100 (List.length (rq_params r)) then RUndefined
  else
    let* name := strcpy 1024 name in
    if (1024 <? N.of_nat (List.length data))%N then RUndefined
    else ROk (mkReq (rq_version r) (rq_method r) (rq_path r) (rq_params r ++ [(name, data)]) (rq_headers r)
                    (rq_uri r) (rq_filename r) (rq_query r)).
(** lib/protocols/http.c:120-125 [set_header]. *)
Definition http_set_header (r : request) (name value : bytes) : bres request :=
  if Nat.leb 100 (List.length (rq_headers r)) then RUndefined
  else
    let* name := strcpy 1024 name in
    let* value := strcpy 1024 value in
    ROk (mkReq (rq_version r) (rq_method r) (rq_path r) (rq_params r) (rq_headers r ++ [(name, value)])
               (rq_uri r) (rq_filename r) (rq_query r)).

(** Memory for the string builder never ends. *)
Definition adds (b : sb) (t : bytes) : bres sb := let* (_, b) := sb_adds (fun _ => true) b t in ROk b.

(** lib/protocols/http.c:146-151: the percent-encoded value in [tmp].  When [tmp] is full
    there is no zero behind the text. *)
Definition http_encoded (value : bytes) : bres bytes :=
  let size := N.to_nat 1000 in
  let '(_, w) := url_write mem_write (static_buffer size) value 0 in
  if Nat.ltb (List.length (mb_data w)) size then ROk (cstr (mb_data w)) else RUndefined.
(** lib/protocols/http.c:136-152: the parameters; [sep] is the character before the next one. *)
Fixpoint http_write_params (b : sb) (sep : bytes) (params : list (bytes * bytes)) : bres sb :=
  match params with
  | [] => ROk b
  | (name, value) :: r =>
      let* b := adds b sep in
      let* b := adds b name in
      let* b := adds b (L "=") in
      let* e := http_encoded value in
      let* b := adds b e in
      http_write_params b (L "&") r
  end.
(** lib/protocols/http.c:159-165: the headers. *)
Fixpoint http_write_headers (b : sb) (headers : list (bytes * bytes)) : bres sb :=
  match headers with
  | [] => ROk b
  | (name, value) :: r =>
      let* b := adds b name in
      let* b := adds b (L ": ") in
      let* b := adds b value in
      let* b := adds b crlf in
      http_write_headers b r
  end.
(** lib/protocols/http.c:130-169: the text of a request. *)
Definition http_request_text (r : request) : bres bytes :=
  let* (_, b) := sb_addf (fun _ => true) sb_new (rq_method r ++ L " " ++ rq_uri r) in
  let* b := http_write_params b (L "?") (rq_params r) in
  let* b := adds b (L " ") in
  let* b := adds b (rq_version r) in
  let* b := adds b crlf in
  let* b := http_write_headers b (rq_headers r) in
  let* b := adds b crlf in
  match sb_raw b with Some cells => ROk (cstr cells) | None => RUndefined end.
(** lib/protocols/http.c:129-175 [write_request]. *)
Definition http_write_request {W} (put : write_fn W) (w : W) (r : request) : bres (Z * W) :=
  let* s := http_request_text r in
  let '(len, w) := put w s in
  ROk (if (len =? Z.of_nat (List.length s))%Z then len else (-1)%Z, w).

(** lib/protocols/http.c:178-198 [get_header], [get_res_header]; [None] is the null pointer. *)
Fixpoint http_get_header (headers : list (bytes * bytes)) (name : bytes) : option (bytes * bytes) :=
  match headers with
  | [] => None
  | h :: r => if bytes_eqb name (cstr (fst h)) then Some h else http_get_header r name
  end.

(** lib/protocols/http.c:204-208: the path, and the rest of the address. *)
Fixpoint http_path (u : bytes) : bytes * bytes :=
  match u with
  | [] => ([], [])
  | c :: r => if (c =? 0)%N || (c =? 63)%N then ([], u) else let '(p, q) := http_path r in (c :: p, q)
  end.
(** lib/protocols/http.c:220-226: what is behind the last slash. *)
Fixpoint http_behind_slash (p : bytes) : option bytes :=
  match p with
  | [] => None
  | c :: r => match http_behind_slash r with Some f => Some f | None => if (c =? 47)%N then Some r else None end
  end.
(** lib/protocols/http.c:202-228 [parse_query]; the path, the query and the file name are
    not longer than the address, so that they fit. *)
Definition http_parse_query (r : request) : request :=
  let '(path, rest) := http_path (rq_uri r) in
  let query := match rest with c :: q => if (c =? 63)%N then cstr q else [] | [] => [] end in
  let filename := match http_behind_slash path with Some f => f | None => [] end in
  mkReq (rq_version r) (rq_method r) path (rq_params r) (rq_headers r) (rq_uri r) filename query.

Section Reading.
  Context {R : Type} (read : read_fn R).

  (** lib/protocols/http.c:363-368: one header of a request. *)
  Definition http_header_line (fuel : nat) (t : tok R) : bres (option (bytes * bytes) * tok R) :=
    let* (ok, name, t) := tok_read_until read fuel t 58%N [] (N.to_nat 1024) in
    if negb ok then ROk (None, t) else
    let* (ok, t) := tok_skip_literal read t (L ": ") in
    if negb ok then ROk (None, t) else
    let* (ok, value, t) := tok_read_until read fuel t 13%N [] (N.to_nat 1024) in
    if negb ok then ROk (None, t) else
    let* (ok, t) := tok_skip_literal read t crlf in
    if negb ok then ROk (None, t) else ROk (Some (name, value), t).
  (** lib/protocols/http.c:358-369: the headers of a request, at most [rounds] of them in
      the model; the array has 100 cells. *)
  Fixpoint http_headers (fuel rounds : nat) (t : tok R) (hs : list (bytes * bytes)) : bres (bool * list (bytes * bytes) * tok R) :=
    match rounds with
    | O => RFuel
    | S k =>
        let* (e, t) := tok_skip_literal read t crlf in
        if e : bool then ROk (true, hs, t)
        else if Nat.leb 100 (List.length hs) then RUndefined
        else
          let* (h, t) := http_header_line fuel t in
          match h with
          | Some h => http_headers fuel k t (hs ++ [h])
          | None => ROk (false, hs, t)
          end
    end.
  (** lib/protocols/http.c:343-372 [read_request]; [None] is false. *)
  Definition http_read_request (fuel : nat) (src : R) : bres (option request * tok R) :=
    let t := tok_new src in
    let* (ok, method, t) := tok_read_until read fuel t 32%N [] 10 in
    if negb ok then ROk (None, t) else
    let '(ok, t) := tok_skip read t 32%N in
    if negb ok then ROk (None, t) else
    let* (ok, uri, t) := tok_read_until read fuel t 32%N [] (N.to_nat 1024) in
    if negb ok then ROk (None, t) else
    let '(ok, t) := tok_skip read t 32%N in
    if negb ok then ROk (None, t) else
    let* (ok, version, t) := tok_read_until read fuel t 13%N [] 10 in
    if negb ok then ROk (None, t) else
    let* (ok, t) := tok_skip_literal read t crlf in
    if negb ok then ROk (None, t) else
    let q := http_parse_query (mkReq version method [] [] [] uri [] []) in
    let* (ok, hs, t) := http_headers fuel fuel t [] in
    if negb ok then ROk (None, t)
    else ROk (Some (mkReq version method (rq_path q) [] hs uri (rq_filename q) (rq_query q)), t).

  (** lib/protocols/http.c:321-324, 331-333: [while (more(b) && peek(b) != until) *tmp++ = get(b)]
      into [n] cells.  A text that leaves no room for a final zero counts as undefined. *)
  Fixpoint http_upto (fuel : nat) (t : tok R) (until : byte) (buf : bytes) (n : N) : bres (bytes * tok R) :=
    match fuel with
    | O => RFuel
    | S f =>
        let '(m, t) := tok_more read t in
        if negb m then ROk (buf, t)
        else
          let '(c, t) := tok_peek read t in
          if (c =? Z.of_N until)%Z then ROk (buf, t)
          else
            let '(c, t) := tok_get read t in
            if (N.of_nat (List.length buf) + 1 <? n)%N then http_upto f t until (buf ++ [z_byte c]) n else RUndefined
    end.
  (** lib/protocols/http.c:307-309: the status text is thrown away. *)
  Fixpoint http_skip_upto (fuel : nat) (t : tok R) (until : byte) : bres (tok R) :=
    match fuel with
    | O => RFuel
    | S f =>
        let '(m, t) := tok_more read t in
        if negb m then ROk t
        else
          let '(c, t) := tok_peek read t in
          if (c =? Z.of_N until)%Z then ROk t else let '(_, t) := tok_get read t in http_skip_upto f t until
    end.

  Fixpoint http_gets (n : nat) (t : tok R) : bytes * tok R :=
    match n with
    | O => ([], t)
    | S m => let '(c, t) := tok_get read t in let '(l, t) := http_gets m t in (z_byte c :: l, t)
    end.
  (** lib/protocols/http.c:294-302: the digits of the status; [None] is false. *)
  Fixpoint http_status (n : nat) (t : tok R) (v : Z) : option Z * tok R :=
    match n with
    | O => (Some v, t)
    | S m =>
        let '(c, t) := tok_get read t in
        let d := num_from_ascii (z_byte c) in
        if (d <? 0)%Z then (None, t) else http_status m t (v * 10 + d)%Z
    end.
  (** lib/protocols/http.c:283-318 [read_status_line]; [None] is false. *)
  Definition http_status_line (fuel : nat) (t : tok R) : bres (option (bytes * Z) * tok R) :=
    let '(version, t) := http_gets 8 t in
    if negb (bytes_eqb (cstr version) (L "HTTP/1.0")) && negb (bytes_eqb (cstr version) (L "HTTP/1.1")) then ROk (None, t) else
    let '(c, t) := tok_get read t in
    if negb (c =? 32)%Z then ROk (None, t) else
    let '(o, t) := http_status 3 t 0 in
    match o with
    | None => ROk (None, t)
    | Some status =>
        let '(c, t) := tok_get read t in
        if negb (c =? 32)%Z then ROk (None, t) else
        let* t := http_skip_upto fuel t 13%N in
        let* (ok, t) := tok_skip_literal read t crlf in
        ROk (if ok : bool then Some (version, status) else None, t)
    end.

  (** lib/protocols/http.c:320-339 [read_header]; [None] is false. *)
  Definition http_read_header (fuel : nat) (t : tok R) : bres (option (bytes * bytes) * tok R) :=
    let* (name, t) := http_upto fuel t 58%N [] 1024 in
    let* (ok, t) := tok_skip_literal read t (L ": ") in
    if negb ok then ROk (None, t) else
    let* (value, t) := http_upto fuel t 13%N [] 1024 in
    let* (ok, t) := tok_skip_literal read t crlf in
    ROk (if ok : bool then Some (name, value) else None, t).
  (** lib/protocols/http.c:238-247: the headers of a response; [None] is false. *)
  Fixpoint http_res_headers (fuel rounds : nat) (t : tok R) (hs : list (bytes * bytes)) : bres (option (list (bytes * bytes)) * tok R) :=
    match rounds with
    | O => RFuel
    | S k =>
        let '(m, t) := tok_more read t in
        if negb m then ROk (Some hs, t)
        else
          let* (e, t) := tok_skip_literal read t crlf in
          if e : bool then ROk (Some hs, t)
          else if Nat.leb 100 (List.length hs) then RUndefined
          else
            let* (h, t) := http_read_header fuel t in
            match h with
            | Some h => http_res_headers fuel k t (hs ++ [h])
            | None => ROk (None, t)
            end
    end.

  (** [atoi] of C; a number that is no int is not defined. *)
  Fixpoint digits_prefix (s : bytes) : bytes :=
    match s with [] => [] | c :: r => if c_isdigit c then c :: digits_prefix r else [] end.
  Definition c_atoi (s : bytes) : bres Z :=
    let s := drop_while c_isspace s in
    let v :=
      match s with
      | [] => 0%Z
      | c :: r =>
          let value ds := fold_left (fun v d => (10 * v + Z.of_N (d - 48))%Z) ds 0%Z in
          if (c =? 45)%N then (- value (digits_prefix r))%Z
          else if (c =? 43)%N then value (digits_prefix r)
          else value (digits_prefix s)
      end in
    if (v <? -2147483648)%Z || (2147483647 <? v)%Z then RUndefined else ROk v.

  (** lib/protocols/http.c:257-263: a body of [n] bytes; the array has 1000 cells.  The byte
      is kept in a char and compared with EOF. *)
  Fixpoint http_body (n : nat) (t : tok R) (body : bytes) : bres (bool * bytes * tok R) :=
    match n with
    | O => ROk (true, body, t)
    | S m =>
        let '(c, t) := tok_get read t in
        if (schar (z_byte c) =? -1)%Z then ROk (false, body, t)
        else if (N.of_nat (List.length body) <? 1000)%N then http_body m t (body ++ [z_byte c])
        else RUndefined
    end.
  (** lib/protocols/http.c:270-276: all that is left. *)
  Fixpoint http_rest (fuel : nat) (t : tok R) (body : bytes) : bres (bytes * tok R) :=
    match fuel with
    | O => RFuel
    | S f =>
        let '(m, t) := tok_more read t in
        if negb m then ROk (body, t)
        else if (N.of_nat (List.length body) + 1 =? 1000)%N then RPanic
        else let '(c, t) := tok_get read t in http_rest f t (body ++ [z_byte c])
    end.
  (** lib/protocols/http.c:253-281 [read_body]: the answer, the body, the length. *)
  Definition http_read_body (fuel : nat) (t : tok R) (hs : list (bytes * bytes)) : bres (bool * bytes * Z * tok R) :=
    match http_get_header hs (L "Content-Length") with
    | Some h =>
        let* n := c_atoi (cstr (snd h)) in
        let* (ok, body, t) := http_body (Z.to_nat n) t [] in
        ROk (ok, body, n, t)
    | None =>
        match http_get_header hs (L "Connection") with
        | None => RUndefined
        | Some h =>
            if bytes_eqb (cstr (snd h)) (L "close") then
              let* (body, t) := http_rest fuel t [] in ROk (true, body, 0%Z, t)
            else RPanic
        end
    end.
  (** lib/protocols/http.c:232-251 [parse_response] into an empty response; [None] is false. *)
  Definition http_parse_response (fuel : nat) (src : R) : bres (option response * tok R) :=
    let* (o, t) := http_status_line fuel (tok_new src) in
    match o with
    | None => ROk (None, t)
    | Some (version, status) =>
        let* (o, t) := http_res_headers fuel fuel t [] in
        match o with
        | None => ROk (None, t)
        | Some hs =>
            let* (ok, body, n, t) := http_read_body fuel t hs in
            ROk (if ok : bool then Some (mkRes version status hs body n) else None, t)
        end
    end.
End Reading.

(** [%ld] of a length: at most 20 digits. *)
Fixpoint dec_text (fuel : nat) (n : N) : bytes :=
  match fuel with
  | O => []
  | S f => (if (n <? 10)%N then [] else dec_text f (n / 10)%N) ++ [(48 + n mod 10)%N]
  end.
(** [sprintf] into 1000 cells. *)
Definition sprintf1000 (s : bytes) : bres bytes := strcpy 1000 s.

(** lib/protocols/http.c:374-432 [write_404], [write_405], [write_501]: what goes to the
    connection. *)
Definition http_write_error (version status msg : bytes) : bres bytes :=
  sprintf1000 (version ++ L " " ++ status ++ [10%N] ++
    L "Content-Length: " ++ dec_text 20 (N.of_nat (List.length msg)) ++ [10%N] ++
    L "Content-Type: text/plain" ++ [10%N] ++ [10%N] ++ [10%N] ++ msg).
Definition http_write_404 (version : bytes) : bres bytes :=
  http_write_error version (L "404 Not Found") (L "The file was not found on the server.").
Definition http_write_405 (version : bytes) : bres bytes :=
  http_write_error version (L "405 Method Not Allowed") (L "This method is not allowed for this path.").
Definition http_write_501 (version : bytes) : bres bytes :=
  http_write_error version (L "501 Not Implemented") (L "method not implemented" ++ [10%N]).
(** lib/protocols/http.c:434-449 [serve_text]. *)
Definition http_serve_text (version s content_type : bytes) : bres bytes :=
  let* head := sprintf1000 (version ++ L " 200 OK" ++ [10%N] ++
    L "Content-Length: " ++ dec_text 20 (N.of_nat (List.length s)) ++ [10%N] ++
    L "Content-Type: " ++ content_type ++ [10%N] ++ [10%N]) in
  ROk (head ++ s).
