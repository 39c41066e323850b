(** What users of lib/url and lib/protocols/cgi expect. *)
From Verif Require Import LibBase SpecText SpecHttp.

(** schema://host[:port][/path] *)
Definition url_parts (s schema host port path : bytes) : Prop :=
  exists p, s = schema ++ L "://" ++ host ++ p ++ path /\
    lacks (L ":") schema /\ lacks (L ":/") host /\ lacks (L "/") port /\
    (p = L ":" ++ port \/ (p = [] /\ port = [])) /\ (path = [] \/ exists r, path = L "/" ++ r).
(** The parts that fit the library's arrays. *)
Definition url_fits (schema host port path : bytes) : Prop :=
  upto 9 schema /\ upto 99 host /\ upto 9 port /\ upto 99 path.

(** The head of a CGI answer: lines of a name, a colon, spaces and a value; an empty line. *)
Definition line_break (e : bytes) : Prop := e = [10%N] \/ e = [13; 10]%N.
Definition cgi_line (n sp v : bytes) : Prop :=
  lacks (L ":" ++ [0; 10; 13])%N n /\ Forall (fun c => c = 32%N \/ c = 9%N) sp /\
  (exists c r, v = c :: r /\ ~ (c = 32 \/ 9 <= c <= 13)%N) /\ lacks [0; 10; 13]%N v /\ upto 999 n /\ upto 999 v.
Inductive cgi_head : list (bytes * bytes) -> bytes -> Prop :=
| ch_last : forall n sp v e e', cgi_line n sp v -> line_break e -> line_break e' ->
    cgi_head [(n, v)] (n ++ L ":" ++ sp ++ v ++ e ++ e')
| ch_more : forall n sp v e hs t, cgi_line n sp v -> line_break e -> cgi_head hs t ->
    cgi_head ((n, v) :: hs) (n ++ L ":" ++ sp ++ v ++ e ++ t).
