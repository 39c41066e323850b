(** Model of src/preparser.rs. *)
From Verif Require Import Base Buf Lexer Nodes Cursor Resolve.
Open Scope mon_scope.

(** src/preparser.rs:5-17 [ModuleInfo]. *)
Record modinfo := mkInfo {
  mi_imports : list modref; mi_typedefs : list str; mi_filepath : str; mi_uniqid : str }.

(** Errors of this file are plain strings; they are carried in [e_msg]. *)
Definition sfail {A} (m : str) : M A := fail (mkErr m (mkPos 0 0)).

(** src/preparser.rs:133-160 [expect], [with_comment] (all calls pass [None]). *)
Definition pre_expect (kind : string) : M token :=
  bind more (fun m =>
    if negb m then sfail (L "expected '" ++ lit kind ++ L "', got end of file")
    else bind (peek_unwrap "preparser expect") (fun next =>
      if negb (kind_is next kind)
      then sfail (L "expected '" ++ lit kind ++ L "', got '" ++ lit (t_kind next)
                  ++ L "' at " ++ pos_fmt (t_pos next))
      else get_unwrap "preparser expect")).

(** [expect(...).unwrap()]: an error aborts. *)
Definition abort_on_err {A} (w : string) (m : M A) : M A := fun c =>
  match m c with
  | (Err _, c') => (Abort w, c')
  | r => r
  end.

(** src/preparser.rs:118-131 [skip_brackets]; [in_loop] is the while loop of
    lines 120-129 together with the final expect. *)
Fixpoint skip_brackets (fuel : nat) : M unit :=
  match fuel with
  | O => nofuel
  | S f => abort_on_err "skip_brackets: unwrap at line 119" (pre_expect "{") ;;; skip_loop f
  end
with skip_loop (fuel : nat) : M unit :=
  match fuel with
  | O => nofuel
  | S f =>
      m <- more ;;
      if m then
        o <- follows "{" ;;
        if o then (skip_brackets f ;;; skip_loop f)
        else
          c <- follows "}" ;;
          if c then (abort_on_err "skip_brackets: unwrap at line 130" (pre_expect "}") ;;; ret tt)
          else (get ;;; skip_loop f)
      else (abort_on_err "skip_brackets: unwrap at line 130" (pre_expect "}") ;;; ret tt)
  end.

(** src/preparser.rs:76-82: all tokens until the semicolon, newest first. *)
Fixpoint until_semicolon (fuel : nat) (acc : list token) : M (list token) :=
  match fuel with
  | O => nofuel
  | S f =>
      m <- more ;;
      if m then
        t <- get_unwrap "get_typename: line 77" ;;
        if kind_is t ";" then ret acc else until_semicolon f (t :: acc)
      else ret acc
  end.

(** src/preparser.rs:92-99: drop up to and including the "(" token. *)
Fixpoint drop_params (l : list token) : list token :=
  match l with
  | [] => []
  | t :: r => if kind_is t "(" then r else drop_params r
  end.

(** src/preparser.rs:61-116 [get_typename]. *)
Definition get_typename (fuel : nat) : M str :=
  o <- follows "{" ;;
  if o then
    (skip_brackets fuel ;;;
     t <- abort_on_err "get_typename: unwrap at line 69" (pre_expect "word") ;;
     pre_expect ";" ;;;
     ret (t_content t))
  else
    buf <- until_semicolon fuel [] ;;
    match buf with
    | [] => sfail (L "No tokens after 'typedef'")
    | t0 :: _ =>
        let buf := if kind_is t0 ")" then drop_params buf else buf in
        match find (fun t => kind_is t "word") buf with
        | Some t => ret (t_content t)
        | None => sfail (L "Type name expected in the typedef")
        end
    end.

(** Lifting [resolve_import] into the monad. *)
Definition resolve_m (w : world) (path name : str) : M modref := fun c =>
  match resolve_import w path name with
  | Done (inl r) => (Ok r, c)
  | Done (inr m) => (Err (mkErr m (mkPos 0 0)), c)
  | Panic s => (Abort s, c)
  | Oof => (NoFuel, c)
  end.

(** src/preparser.rs:23-49: the loop of [preparse]. *)
Fixpoint preparse_loop (fuel : nat) (w : world) (path : str)
         (imports : list modref) (typenames : list str) : M (list modref * list str) :=
  match fuel with
  | O => nofuel
  | S f =>
      o <- get ;;
      match o with
      | None => ret (imports, typenames)
      | Some t =>
          if kind_is t "error" then
            sfail (t_content t ++ L " at " ++ path ++ L ":" ++ pos_fmt (t_pos t))
          else if kind_is t "import" then
            r <- resolve_m w path (t_content t) ;;
            preparse_loop f w path (imports ++ [r]) typenames
          else if kind_is t "typedef" then
            n <- get_typename f ;;
            preparse_loop f w path imports (typenames ++ [n])
          else if kind_is t "macro" && starts_with (t_content t) (L "#type") then
            match bdrop 6 (t_content t) with
            | Some s => preparse_loop f w path imports (typenames ++ [trim s])
            | None => abort "preparse: slice at line 43"
            end
          else preparse_loop f w path imports typenames
      end
  end.

(** src/preparser.rs:54-57: the module id, later overwritten by build.rs. *)
Definition pre_uniqid (path : str) : str :=
  L "ns_" ++ replace1 45 (L "_") (replace1 46 (L "_") (replace1 47 (L "_") path)).

(** src/preparser.rs:19-59 [preparse]. *)
Definition preparse `{Unicode} (fuel : nat) (w : world) (path : str) : outcome modinfo :=
  match w_read w path with
  | inr e => Err (mkErr (L "could not read " ++ path ++ L ": " ++ e) (mkPos 0 0))
  | inl text =>
      match preparse_loop fuel w path [] [] (tokenize (buf_new text)) with
      | (Ok (imports, typenames), _) =>
          Ok (mkInfo imports typenames path (pre_uniqid path))
      | (Err e, _) => Err e
      | (Abort s, _) => Abort s
      | (NoFuel, _) => NoFuel
      end
  end.
