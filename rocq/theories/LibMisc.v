(** Model of lib/formats/conf.c, lib/table.c and lib/mime.c. *)
From Coq Require Export ZArith.
From Verif Require Import LibBase LibIO LibText LibTok LibUrl.

(** * Config files.  The line number, which only messages show, is not modelled. *)

(** lib/formats/conf.c:5-10 [reader_t]: what is left of the stream and whether its end was
    met. *)
Record conf := mkConf { cf_in : bytes; cf_eof : bool }.
(** lib/formats/conf.c:22-27 [new]. *)
Definition conf_new (f : bytes) : conf := mkConf f false.
(** lib/formats/conf.c:12-16, 73: [peek] and [getc] until no space is next; a byte 255, as a
    char, equals EOF and is not put back. *)
Fixpoint conf_spaces (l : bytes) : bytes :=
  match l with
  | [] => []
  | c :: r => if (c =? 255)%N then r else if c_isspace c then conf_spaces r else l
  end.
(** lib/formats/conf.c:75-98: the text of the line, what is left, and whether the end was met;
    [buf] has 256 cells. *)
Fixpoint conf_chars (l : bytes) (comment : bool) (buf : bytes) : bres (bytes * conf) :=
  match l with
  | [] => ROk (buf, mkConf [] true)
  | c :: r =>
      if (c =? 255)%N then ROk (buf, mkConf r false)
      else if (c =? 35)%N then conf_chars r true buf
      else if (c =? 10)%N then ROk (buf, mkConf r false)
      else if comment then conf_chars r comment buf
      else if Nat.leb 256 (S (List.length buf)) then RPanic
      else conf_chars r comment (buf ++ [c])
  end.
(** lib/formats/conf.c:67-100 [next_line]. *)
Definition conf_next_line (st : conf) : bres (bytes * conf) :=
  let* (buf, st) := conf_chars (conf_spaces (cf_in st)) false [] in ROk (cgi_str buf, st).
(** lib/formats/conf.c:45-46: the key and the rest. *)
Fixpoint conf_key (l key : bytes) : bytes * bytes :=
  match l with
  | c :: r => if (c =? 61)%N || (c =? 32)%N then (key, l) else conf_key r (key ++ [c])
  | [] => (key, [])
  end.
(** lib/formats/conf.c:54. *)
Fixpoint conf_skip (l : bytes) : bytes :=
  match l with c :: r => if (c =? 61)%N || (c =? 32)%N then conf_skip r else l | [] => [] end.
(** lib/formats/conf.c:35-65 [next]: the pair, if there is one; [exit] is a panic; the arrays have
    100 and 200 cells. *)
Fixpoint conf_next (fuel : nat) (st : conf) : bres (option (bytes * bytes) * conf) :=
  match fuel with
  | O => RFuel
  | S f =>
      if cf_eof st then ROk (None, st)
      else
        let* (line, st) := conf_next_line st in
        match line with
        | [] => conf_next f st
        | _ =>
            match conf_key line [] with
            | (_, []) => RPanic
            | (key, _ :: r) =>
                match conf_skip r with
                | [] => RPanic
                | val =>
                    if Nat.leb 100 (List.length key) || Nat.leb 200 (List.length val) then RUndefined
                    else ROk (Some (key, val), st)
                end
            end
        end
  end.
(** A program that reads the pairs until there are no more. *)
Fixpoint conf_all (fuel : nat) (st : conf) : bres (list (bytes * bytes)) :=
  match fuel with
  | O => RFuel
  | S f =>
      let* (o, st) := conf_next (S (S (List.length (cf_in st)))) st in
      match o with None => ROk [] | Some kv => rbind (conf_all f st) (fun l => ROk (kv :: l)) end
  end.

(** * Tables *)

(** lib/table.c:41-47: the width of each column; [widths] has a cell for each column. *)
Fixpoint tab_set (ws : list nat) (col w : nat) : list nat :=
  match ws, col with [], _ => [] | _ :: r, O => w :: r | x :: r, S k => x :: tab_set r k w end.
Fixpoint tab_widths (ncols : nat) (values : list bytes) (i : nat) (ws : list nat) : list nat :=
  match values with
  | [] => ws
  | v :: r =>
      let col := i mod ncols in
      let len := List.length v in
      tab_widths ncols r (S i) (if Nat.ltb (nth col ws 0) len then tab_set ws col (len + 2) else ws)
  end.
(** lib/table.c:68-80 [printwidth]. *)
Fixpoint printwidth (s : bytes) (n w : nat) : bytes :=
  match s with
  | [] => repeat 32%N (w - n)
  | c :: r => c :: (if Nat.eqb (S n) w then [] else printwidth r (S n) w)
  end.
(** lib/table.c:49-55. *)
Fixpoint tab_cells (ncols : nat) (ws : list nat) (values : list bytes) (i : nat) : bytes :=
  match values with
  | [] => []
  | v :: r =>
      let col := i mod ncols in
      printwidth v 0 (nth col ws 0) ++ (if Nat.eqb col (ncols - 1) then [10%N] else []) ++ tab_cells ncols ws r (S i)
  end.
(** lib/table.c:38-58 [print]: the values are those of the calls of [pushval]; without columns
    C divides by zero. *)
Definition tab_print (ncols : nat) (values : list bytes) : bres bytes :=
  if Nat.eqb ncols 0 then match values with [] => ROk [] | _ => RUndefined end
  else ROk (tab_cells ncols (tab_widths ncols values 0 (repeat 0 ncols)) values 0).

(** * Media types *)

(** lib/mime.c:4-79 [table]. *)
Definition mime_table : list (bytes * bytes) :=
  [(L "aac", L "audio/aac");
   (L "abw", L "application/x-abiword");
   (L "arc", L "application/x-freearc");
   (L "avif", L "image/avif");
   (L "avi", L "video/x-msvideo");
   (L "azw", L "application/vnd.amazon.ebook");
   (L "bin", L "application/octet-stream");
   (L "bmp", L "image/bmp");
   (L "bz", L "application/x-bzip");
   (L "bz2", L "application/x-bzip2");
   (L "cda", L "application/x-cdf");
   (L "csh", L "application/x-csh");
   (L "css", L "text/css");
   (L "csv", L "text/csv");
   (L "doc", L "application/msword");
   (L "docx", L "application/vnd.openxmlformats-officedocument.wordprocessingml.document");
   (L "eot", L "application/vnd.ms-fontobject");
   (L "epub", L "application/epub+zip");
   (L "gz", L "application/gzip");
   (L "gif", L "image/gif");
   (L "htm", L "text/html");
   (L "html", L "text/html");
   (L "ico", L "image/vnd.microsoft.icon");
   (L "ics", L "text/calendar");
   (L "jar", L "application/java-archive");
   (L "jpeg", L "image/jpeg");
   (L "jpg", L "image/jpeg");
   (L "js", L "text/javascript");
   (L "json", L "application/json");
   (L "jsonld", L "application/ld+json");
   (L "mid", L "audio/midi");
   (L "midi", L "audio/midi");
   (L "mjs", L "text/javascript");
   (L "mp3", L "audio/mpeg");
   (L "mp4", L "video/mp4");
   (L "mpeg", L "video/mpeg");
   (L "mpkg", L "application/vnd.apple.installer+xml");
   (L "odp", L "application/vnd.oasis.opendocument.presentation");
   (L "ods", L "application/vnd.oasis.opendocument.spreadsheet");
   (L "odt", L "application/vnd.oasis.opendocument.text");
   (L "oga", L "audio/ogg");
   (L "ogv", L "video/ogg");
   (L "ogx", L "application/ogg");
   (L "opus", L "audio/opus");
   (L "otf", L "font/otf");
   (L "png", L "image/png");
   (L "pdf", L "application/pdf");
   (L "php", L "application/x-httpd-php");
   (L "ppt", L "application.vnd.openxmlformats-officedocument.presentationml.presentation");
   (L "rar", L "application/vnd.rar");
   (L "rtf", L "application/rtf");
   (L "svg", L "image/svg+xml");
   (L "tar", L "application/x-tar");
   (L "tif", L "image/tiff");
   (L "tiff", L "image/tiff");
   (L "ts", L "video/mp2t");
   (L "ttf", L "font/ttf");
   (L "txt", L "text/plain");
   (L "vsd", L "application/vnd.visio");
   (L "wav", L "audio/wav");
   (L "weba", L "audio/webm");
   (L "webm", L "audio/webm");
   (L "webp", L "audio/webp");
   (L "woff2", L "font/woff2");
   (L "xhtml", L "application/xhtml+xml");
   (L "xls", L "application/vnd.ms-excel");
   (L "xlsx", L "application/vnd.openxmlformats-officedocument.spreadsheetml.sheet");
   (L "xml", L "application/xml");
   (L "xul", L "application/vnd.mozilla.xul+xml");
   (L "zip", L "application/zip");
   (L "3gp", L "video/3gpp");
   (L "3g2", L "video/3gpp");
   (L "7z", L "application/x-7z-compressed")].
(** lib/mime.c:85-94 [lookup]. *)
Fixpoint mime_find (t : list (bytes * bytes)) (ext : bytes) : option bytes :=
  match t with [] => None | (k, v) :: r => if bytes_eqb k ext then Some v else mime_find r ext end.
Definition mime_lookup (ext : bytes) : option bytes := mime_find mime_table ext.
