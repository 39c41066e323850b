(** What users of lib/protocols/http expect: messages as in RFC 7230 (and RFC 1945). *)
From Coq Require Import ZArith.
From Verif Require Import LibBase SpecIO SpecText.

Definition line_end : bytes := [13; 10]%N.
(** Header fields, each a name with a value. *)
Definition field_line (h : bytes * bytes) : bytes := fst h ++ L ": " ++ snd h ++ line_end.
Definition head_text (start : bytes) (fields : list (bytes * bytes)) : bytes :=
  start ++ line_end ++ List.concat (List.map field_line fields) ++ line_end.
Definition request_line (method target version : bytes) : bytes := method ++ L " " ++ target ++ L " " ++ version.
Definition status_line (version status reason : bytes) : bytes := version ++ L " " ++ status ++ L " " ++ reason.

(** Texts of at most so many bytes without some characters. *)
Definition lacks (bad : bytes) (t : bytes) : Prop := forall c, In c t -> ~ In c bad.
Definition upto (n : N) (t : bytes) : Prop := (N.of_nat (List.length t) <= n)%N.
(** A field name has no colon, does not look like the end of the head; a value is a line. *)
Definition field (h : bytes * bytes) : Prop :=
  lacks (L ":") (fst h) /\ (forall r, fst h ++ L ": " <> line_end ++ r) /\ lacks [13%N] (snd h) /\
  upto 1023 (fst h) /\ upto 1023 (snd h).
(** The request heads that fit the library's buffers. *)
Definition request_head (text method target version : bytes) (fields : list (bytes * bytes)) (rest : bytes) : Prop :=
  text = head_text (request_line method target version) fields ++ rest /\
  lacks (L " ") method /\ lacks (L " ") target /\ lacks [13%N] version /\
  upto 9 method /\ upto 1023 target /\ upto 9 version /\ Forall field fields.

(** The path of an address, its query, the last part of the path. *)
Definition has_query (target path query : bytes) : Prop :=
  lacks (L "?") path /\ (target = path ++ L "?" ++ query \/ (target = path /\ query = [])).
Definition has_filename (path file : bytes) : Prop :=
  lacks (L "/") file /\ ((exists dir, path = dir ++ L "/" ++ file) \/ (lacks (L "/") path /\ file = [])).

(** The value of a field: the first one with the name, letter by letter. *)
Inductive field_value (name : bytes) : list (bytes * bytes) -> option bytes -> Prop :=
| fv_none : field_value name [] None
| fv_here : forall v r, field_value name ((name, v) :: r) (Some v)
| fv_later : forall n v r o, n <> name -> field_value name r o -> field_value name ((n, v) :: r) o.

(** Parameters behind an address: each one's value percent-encoded. *)
Inductive params_text : bytes -> list (bytes * bytes) -> bytes -> Prop :=
| pt_none : forall sep, params_text sep [] []
| pt_more : forall sep n v e r t, unpercent e = Some v -> params_text (L "&") r t ->
    params_text sep ((n, v) :: r) (sep ++ n ++ L "=" ++ e ++ t).
Definition method_name (m : Z) (name : bytes) : Prop :=
  (m = 1%Z /\ name = L "GET") \/ (m = 2%Z /\ name = L "POST") \/ (m = 3%Z /\ name = L "HEAD").

(** A message with single line feeds, as RFC 7230, 3.5 lets a recipient take it: the first
    line, the fields, and as many bytes as the field Content-Length says. *)
Definition lf_line (h : bytes * bytes) : bytes := fst h ++ L ": " ++ snd h ++ [10%N].
Definition carries (text : bytes) (body : bytes) : Prop :=
  exists start fields rest ds, text = start ++ [10%N] ++ List.concat (List.map lf_line fields) ++ [10%N] ++ body ++ rest /\
    ~ In 10%N start /\ Forall (fun h => fst h <> [] /\ lacks (10%N :: L ":") (fst h) /\ ~ In 10%N (snd h)) fields /\
    field_value (L "Content-Length") fields (Some ds) /\ natural (Z.of_nat (List.length body)) ds.

(** The length of a text when it is percent-encoded. *)
Definition percent_length (v : bytes) : N := fold_right (fun c n => (if is_alnum c then 1 else 3) + n)%N 0%N v.

(** Bytes that make a C string. *)
Definition plain (s : bytes) : Prop := Forall is_byte s /\ ~ In 0%N s.
(** Parameters and fields that fit a request. *)
Definition param (p : bytes * bytes) : Prop :=
  plain (fst p) /\ upto 1023 (fst p) /\ Forall is_byte (snd p) /\ upto 1024 (snd p) /\ (percent_length (snd p) < 1000)%N.
Definition sendable (h : bytes * bytes) : Prop := plain (fst h) /\ plain (snd h) /\ upto 1023 (fst h) /\ upto 1023 (snd h).

(** The response heads that fit the library's buffers. *)
Definition response_head (text version code reason : bytes) (fields : list (bytes * bytes)) (rest : bytes) : Prop :=
  text = head_text (status_line version code reason) fields ++ rest /\
  (version = L "HTTP/1.0" \/ version = L "HTTP/1.1") /\
  List.length code = 3 /\ Forall (fun d => (48 <= d <= 57)%N) code /\ lacks [13%N] reason /\ Forall field fields.
(** The length a response announces. *)
Definition announces (fields : list (bytes * bytes)) (n : nat) : Prop :=
  exists ds, field_value (L "Content-Length") fields (Some ds) /\ ds <> [] /\ Forall (fun d => (48 <= d <= 57)%N) ds /\
    digits_value ds = Z.of_nat n.
Definition until_closed (fields : list (bytes * bytes)) : Prop :=
  field_value (L "Content-Length") fields None /\ field_value (L "Connection") fields (Some (L "close")).
