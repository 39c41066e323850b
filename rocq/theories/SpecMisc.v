(** What users of lib/formats/conf, lib/table and lib/mime expect. *)
From Verif Require Import LibBase LibText LibMisc SpecTok SpecText.

(** A character of a line of text: not zero, not the line end, not 255. *)
Definition plain (c : byte) : Prop := c <> 0%N /\ c <> 10%N /\ c <> 255%N.
(** What may follow a pair in its line. *)
Inductive remark : bytes -> Prop :=
| rm_none : remark []
| rm_text : forall t, Forall plain t -> remark (35%N :: t).
(** [key = value]: the parts of the line. *)
Record pair_text (k v t : bytes) : Prop := {
  pt_key : k <> [] /\ Forall (fun c => plain c /\ c <> 61 /\ c <> 32 /\ c <> 35)%N k /\ c_isspace (hd 0%N k) = false;
  pt_val : v <> [] /\ Forall (fun c => plain c /\ c <> 35)%N v /\ hd 0%N v <> 61%N /\ hd 0%N v <> 32%N;
  pt_all : exists a b, t = k ++ repeat 32%N a ++ 61%N :: repeat 32%N b ++ v }.
(** A file and the pairs in it. *)
Inductive config : bytes -> list (bytes * bytes) -> Prop :=
| cf_end : config [] []
| cf_space : forall c l ps, c_isspace c = true -> config l ps -> config (c :: l) ps
| cf_remark : forall t l ps, remark (35%N :: t) -> config l ps -> config (35%N :: t ++ 10%N :: l) ps
| cf_last_remark : forall t, remark (35%N :: t) -> config (35%N :: t) []
| cf_pair : forall k v t m l ps, pair_text k v t -> List.length t < 256 -> List.length k < 100 -> List.length v < 200 -> remark m ->
    config l ps -> config (t ++ m ++ 10%N :: l) ((k, v) :: ps)
| cf_last_pair : forall k v t m, pair_text k v t -> List.length t < 256 -> List.length k < 100 -> List.length v < 200 -> remark m ->
    config (t ++ m) [(k, v)].

(** Values laid out in [ncols] columns of the given widths, from the [i]th on. *)
Fixpoint laid_out (ncols : nat) (width : nat -> nat) (i : nat) (values : list bytes) : bytes :=
  match values with
  | [] => []
  | v :: r => v ++ repeat 32%N (width (i mod ncols) - List.length v) ++
              (if Nat.eqb (S i mod ncols) 0 then [10%N] else []) ++ laid_out ncols width (S i) r
  end.

(** Media types as they are registered. *)
Definition registered : list (bytes * bytes) :=
  [(L "aac", L "audio/aac"); (L "avif", L "image/avif"); (L "bmp", L "image/bmp"); (L "css", L "text/css"); (L "csv", L "text/csv");
   (L "doc", L "application/msword"); (L "docx", L "application/vnd.openxmlformats-officedocument.wordprocessingml.document");
   (L "epub", L "application/epub+zip"); (L "gif", L "image/gif"); (L "gz", L "application/gzip"); (L "htm", L "text/html"); (L "html", L "text/html");
   (L "ico", L "image/vnd.microsoft.icon"); (L "ics", L "text/calendar"); (L "jpeg", L "image/jpeg"); (L "jpg", L "image/jpeg"); (L "js", L "text/javascript");
   (L "json", L "application/json"); (L "jsonld", L "application/ld+json"); (L "mjs", L "text/javascript"); (L "mp3", L "audio/mpeg"); (L "mp4", L "video/mp4");
   (L "mpeg", L "video/mpeg"); (L "odp", L "application/vnd.oasis.opendocument.presentation"); (L "ods", L "application/vnd.oasis.opendocument.spreadsheet");
   (L "odt", L "application/vnd.oasis.opendocument.text"); (L "oga", L "audio/ogg"); (L "ogv", L "video/ogg"); (L "ogx", L "application/ogg"); (L "otf", L "font/otf");
   (L "pdf", L "application/pdf"); (L "png", L "image/png"); (L "rar", L "application/vnd.rar"); (L "rtf", L "application/rtf"); (L "svg", L "image/svg+xml");
   (L "tif", L "image/tiff"); (L "tiff", L "image/tiff"); (L "ttf", L "font/ttf"); (L "txt", L "text/plain"); (L "weba", L "audio/webm"); (L "woff2", L "font/woff2");
   (L "xhtml", L "application/xhtml+xml"); (L "xls", L "application/vnd.ms-excel");
   (L "xlsx", L "application/vnd.openxmlformats-officedocument.spreadsheetml.sheet"); (L "xml", L "application/xml"); (L "zip", L "application/zip")].
(** Registered types of other extensions. *)
Definition registered_too : list (bytes * bytes) :=
  [(L "webm", L "video/webm"); (L "webp", L "image/webp"); (L "ppt", L "application/vnd.ms-powerpoint"); (L "opus", L "audio/ogg"); (L "woff", L "font/woff")].
