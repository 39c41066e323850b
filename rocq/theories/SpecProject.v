(** Which files form a program and when it is built, stated from the texts of
    the files alone. *)
From Verif Require Import Base Buf Lexer Nodes Types Resolve Cursor Preparser Parser CAst Translator Build.
From Verif Require Import SpecLex SpecGrammar SpecDecl SpecScope SpecTypes SpecTarget SpecTyping SpecAccept SpecBuild SpecExports.

(** ** What a file announces *)
(** Tokens with matching braces. *)
Inductive balanced : list token -> Prop :=
| Balanced_nil : balanced []
| Balanced_token t ts : ~ is "{" t -> ~ is "}" t -> balanced ts -> balanced (t :: ts)
| Balanced_braces lb a rb b : is "{" lb -> balanced a -> is "}" rb -> balanced b -> balanced (lb :: a ++ rb :: b).
(** The last word among some tokens. *)
Inductive last_word : list token -> str -> Prop :=
| Last_word a x b : is "word" x -> Forall (fun t => ~ is "word" t) b -> last_word (a ++ x :: b) (t_content x).
(** The name that a typedef gives: the last word, or the last one before the
    parameters if it ends with parameters. *)
Inductive typedef_word : list token -> str -> Prop :=
| Word_params a lp b rp x : is "(" lp -> Forall (fun t => ~ is "(" t) b -> is ")" rp -> last_word a x ->
    typedef_word (a ++ lp :: b ++ [rp]) x
| Word_plain a t x : ~ is ")" t -> last_word (a ++ [t]) x -> typedef_word (a ++ [t]) x.
(** The imports and the type names announced by the tokens of a file: #import
    directives, typedefs and #type directives, in order. *)
Inductive announced : list token -> list str -> list str -> Prop :=
| An_nil : announced [] [] []
| An_import t r names types : is "import" t -> announced r names types ->
    announced (t :: r) (t_content t :: names) types
| An_struct k lb ts rb x s r names types : is "typedef" k -> is "{" lb -> balanced ts -> is "}" rb ->
    is "word" x -> is ";" s -> announced r names types ->
    announced (k :: lb :: ts ++ rb :: x :: s :: r) names (t_content x :: types)
| An_typedef k mid s r x names types : is "typedef" k -> (forall t m, mid = t :: m -> ~ is "{" t) ->
    Forall (fun t => ~ is ";" t) mid -> is ";" s -> typedef_word mid x -> announced r names types ->
    announced (k :: mid ++ s :: r) names (x :: types)
| An_typedef_open k mid x : is "typedef" k -> (forall t m, mid = t :: m -> ~ is "{" t) ->
    Forall (fun t => ~ is ";" t) mid -> typedef_word mid x ->
    announced (k :: mid) [] [x]
| An_hint t c rest r names types : is "macro" t -> t_content t = L "#type" ++ c :: rest -> (c < 128)%N ->
    announced r names types -> announced (t :: r) names (trim rest :: types)
| An_other t r names types : ~ In (t_kind t) ["error"; "import"; "typedef"]%string ->
    (is "macro" t -> forall rest, t_content t <> L "#type" ++ rest) ->
    announced r names types -> announced (t :: r) names types.
(** All #import directives. *)
Definition import_names (toks : list token) : list str :=
  map t_content (filter (fun t => String.eqb (t_kind t) "import") toks).

(** ** Files and programs *)
(** A path that ends with a file name (not a dot or a slash). *)
Definition plain_path (p : str) : Prop := exists bn, file_name p bn /\ plain_name bn.
Section Files.
Context `{Unicode} (w : world).

(** The file [p] can be read and consists of the tokens [toks]. *)
Definition tokens_in (p : str) (toks : list token) : Prop :=
  exists text e, w_read w p = inl text /\ lexes [] text toks (EndEof e).
(** An import of [name] in the file [base] means the file and namespace [r]: the
    path is looked up as the language says, the file exists, and the namespace is
    the file name without its last two bytes. *)
Definition refers_to (base name : str) (r : modref) : Prop :=
  looked_up (w_home w) base name (r_path r) /\ w_exists w (r_path r) = true
  /\ exists bn, file_name (r_path r) bn /\ r_ns r = firstn (blen bn - 2) bn.

(** The files met on the way from [p] along its imports, in depth-first order,
    each as often as it is met. *)
Inductive visit : str -> list str -> Prop :=
| Visit p toks names types refs l : tokens_in p toks -> announced toks names types ->
    Forall2 (refers_to p) names refs -> visits (map r_path refs) l -> visit p (p :: l)
with visits : list str -> list str -> Prop :=
| Visits_nil : visits [] []
| Visits_cons p ps l ls : visit p l -> visits ps ls -> visits (p :: ps) (l ++ ls).

(** The program of [main]: its files in the order of their last visit, latest
    first; each is announced by [heads] and parsed to [mods], knowing all the
    announcements, and follows the rules. *)
Definition well_formed (main : str) (heads : list modinfo) (mods : list module_) : Prop :=
  exists l paths, visit main l /\ firsts (fun p => p) [] (rev l) paths
  /\ List.length heads = List.length paths /\ List.length mods = List.length paths
  /\ forall i p h m, nth_error paths i = Some p -> nth_error heads i = Some h -> nth_error mods i = Some m ->
     mi_filepath h = p /\ mi_uniqid h = module_id i p
     /\ exists toks names, tokens_in p toks
        /\ announced toks names (mi_typedefs h) /\ Forall2 (refers_to p) names (mi_imports h)
        /\ module_of (mkPctx h heads) toks (mod_elements m)
        /\ mod_exports m = mkExports (constants_in_order (mod_elements m)) (functions_in_order (mod_elements m))
             (types_in_order (mod_elements m)) (structs_in_order (mod_elements m))
        /\ in_order (mkSite h (mod_elements m) (imported h heads mods)) is_numeric heads i.

End Files.
