(** Model of src/parser.rs.  Every recursive call and every loop iteration
    spends one unit of fuel. *)
From Verif Require Import Base Buf Lexer Nodes Cursor Resolve Cspec Preparser.
Open Scope mon_scope.

(** src/parser.rs:9-12 [ParseCtx]. *)
Record parsectx := mkPctx { thismod : modinfo; allmods : list modinfo }.

(** src/parser.rs:15-25 [is_imported_ns]. *)
Definition is_imported_ns (ctx : parsectx) (ns : str) : bool :=
  str_eqb ns (L "OS") || existsb (fun x => str_eqb (r_ns x) ns) (mi_imports (thismod ctx)).

Definition string_in (s : string) (l : list string) : bool := existsb (String.eqb s) l.

(** src/parser.rs:433-440 [is_op]. *)
Definition is_op (k : string) : bool :=
  string_in k
    ["+"; "-"; "*"; "/"; "="; "|"; "&"; "~"; "^"; "<"; ">"; "%"; "+="; "-="; "*="; "/="; "%=";
     "&="; "^="; "|="; "++"; "--"; "->"; "."; ">>"; "<<"; "<="; ">="; "&&"; "||"; "=="; "!=";
     "<<="; ">>="]%string.

(** src/parser.rs:445-463: the table in [operator_strength]. *)
Definition strength_map : list (list string) :=
  [ [","];
    ["="; "+="; "-="; "*="; "/="; "%="; "<<="; ">>="; "&="; "^="; "|="];
    ["||"];
    ["&&"];
    ["|"];
    ["^"];
    ["&"];
    ["!="; "=="];
    [">"; "<"; ">="; "<="];
    ["<<"; ">>"];
    ["+"; "-"];
    ["*"; "/"; "%"];
    ["prefix"; "unary"; "cast"; "deref"; "sizeof"; "address"];
    ["->"; "."; "index"; "call"; "suffix"] ]%string.

Fixpoint strength_in (op : string) (i : nat) (m : list (list string)) : option nat :=
  match m with
  | [] => None
  | ops :: r => if string_in op ops then Some (S i) else strength_in op (S i) r
  end.

(** src/parser.rs:442-470 [operator_strength]; [None] is the panic on line 469. *)
Definition operator_strength (op : string) : option nat := strength_in op 0 strength_map.

(** src/parser.rs:472-477 [is_postfix_op]. *)
Definition is_postfix_op (k : string) : bool := string_in k ["++"; "--"]%string.

(** src/parser.rs:479-482 [is_prefix_op]. *)
Definition is_prefix_op (k : string) : bool :=
  string_in k ["!"; "--"; "++"; "*"; "~"; "&"; "-"]%string.

(** src/parser.rs:484-489 [is_type]. *)
Definition is_type (name : str) (typenames : list str) : bool :=
  has_type name || str_in name [L "struct"; L "enum"; L "union"] || str_in name typenames.

(** src/parser.rs:491-496 [with_comment]. *)
Definition with_comment (comment : option string) (m : str) : str :=
  match comment with Some s => lit s ++ L ": " ++ m | None => m end.

(** src/parser.rs:1221-1237 [token_to_string]; [None] is the panic of the byte
    slice on line 1229. *)
Definition token_to_string (t : token) : option str :=
  match t_content t with
  | [] => Some (L "[" ++ lit (t_kind t) ++ L "]")
  | content =>
      match (if Nat.ltb 40 (blen content)
             then match btake 37 content with Some s => Some (s ++ L "...") | None => None end
             else Some content) with
      | None => None
      | Some c =>
          let c := replace1 13 (L "\r") c in
          let c := replace1 10 (L "\n") c in
          let c := replace1 9 (L "\t") c in
          Some (L "[" ++ lit (t_kind t) ++ L ", " ++ c ++ L "]")
      end
  end.

(** An error placed at the end of the file ([pos: l.pos()]). *)
Definition fail_eof {A} (m : str) : M A := fun c => (Err (mkErr m (eof_pos c)), c).

(** src/parser.rs:498-516 [expect]. *)
Definition expect (kind : string) (comment : option string) : M token :=
  m <- more ;;
  if negb m then fail_eof (with_comment comment (L "expected '" ++ lit kind ++ L "', got end of file"))
  else
    next <- peek_unwrap "expect" ;;
    if negb (kind_is next kind) then
      match token_to_string next with
      | None => abort "token_to_string: slice at line 1229"
      | Some s => fail (mkErr (with_comment comment
                     (L "expected '" ++ lit kind ++ L "', got '" ++ s ++ L "'")) (t_pos next))
      end
    else get_unwrap "expect".

(** src/parser.rs:313-350 [type_follows]. *)
Definition qualified_type (ctx : parsectx) (three : list token) : bool :=
  match three with
  | [t0; t1; t2] =>
      if kind_is t1 "." && kind_is t2 "word" then
        match find (fun x => str_eqb (r_ns x) (t_content t0)) (mi_imports (thismod ctx)) with
        | Some imp =>
            match find (fun x => str_eqb (mi_filepath x) (r_path imp)) (allmods ctx) with
            | Some m => str_in (t_content t2) (mi_typedefs m)
            | None => false
            end
        | None => false
        end
      else false
  | _ => false
  end.
Definition type_follows (ctx : parsectx) : M bool :=
  o <- peek ;;
  match o with
  | None => ret false
  | Some t =>
      if kind_is t "const" then ret true
      else if negb (kind_is t "word") then ret false
      else
        three <- peekn 3 ;;
        if match three with Some l => qualified_type ctx l | None => false end then ret true
        else ret (is_type (t_content t) (mi_typedefs (thismod ctx)))
  end.

(** src/parser.rs:352-361 [ns_follows]. *)
Definition ns_follows (ctx : parsectx) : M bool :=
  o <- peek ;;
  match o with
  | None => ret false
  | Some t => ret (kind_is t "word" && is_imported_ns ctx (t_content t))
  end.

(** src/parser.rs:365-389 [read_ns_id]. *)
Definition read_ns_id (ctx : parsectx) : M nsname :=
  a <- expect "word" (Some "nsid"%string) ;;
  let plain := ret (mkNs (t_pos a) [] (t_content a)) in
  if is_imported_ns ctx (t_content a) then
    two <- peekn 2 ;;
    match two with
    | Some [x; y] =>
        if kind_is x "." && kind_is y "word" then
          (get ;;;
           b <- get_unwrap "read_ns_id: line 373" ;;
           ret (mkNs (t_pos a) (t_content a) (t_content b)))
        else plain
    | _ => plain
    end
  else plain.

(** src/parser.rs:518-522 [parse_typename]. *)
Definition parse_typename (ctx : parsectx) : M typename :=
  is_const <- eat "const" ;;
  name <- read_ns_id ctx ;;
  ret (mkTn is_const name).

(** src/parser.rs:526-530, 813-816, 1166-1170: counting stars. *)
Fixpoint count_stars (fuel : nat) (k : nat) : M nat :=
  match fuel with
  | O => nofuel
  | S f => s <- follows "*" ;; if s then (get ;;; count_stars f (S k)) else ret k
  end.

(** src/parser.rs:524-535 [parse_bare_typeform]. *)
Definition parse_bare_typeform (fuel : nat) (ctx : parsectx) : M bare_typeform :=
  t <- parse_typename ctx ;;
  h <- count_stars fuel 0 ;;
  ret (mkBtf t h).

(** src/parser.rs:559-581 [parse_literal]. *)
Definition parse_literal : M literal :=
  next <- peek_unwrap "parse_literal: line 560" ;;
  if kind_is next "string" then (get ;;; ret (LString (t_content next)))
  else if kind_is next "num" then (get ;;; ret (LNumber (t_content next)))
  else if kind_is next "char" then (get ;;; ret (LChar (t_content next)))
  else if kind_is next "word" && str_eqb (t_content next) (L "NULL") then (get ;;; ret LNull)
  else fail (mkErr (L "literal expected, got " ++ token_display next) (t_pos next)).

Section Expr.
Context (ctx : parsectx).

(** Expressions: src/parser.rs:193-311, 391-431, 615-703. *)
Fixpoint parse_expr (fuel : nat) (strength : nat) {struct fuel} : M expr :=
  (* 193-205 *)
  match fuel with
  | O => nofuel
  | S f =>
      if Nat.ltb strength 13 then parse_seq_expr f strength
      else if Nat.eqb strength 13 then parse_prefix_expr f
      else if Nat.eqb strength 14 then base f
      else abort "parse_expr: unexpected n"
  end
with parse_seq_expr (fuel : nat) (strength : nat) {struct fuel} : M expr :=
  (* 207-208 *)
  match fuel with
  | O => nofuel
  | S f => r <- parse_expr f (S strength) ;; seq_loop f strength r
  end
with seq_loop (fuel : nat) (strength : nat) (r : expr) {struct fuel} : M expr :=
  (* 209-225 *)
  match fuel with
  | O => nofuel
  | S f =>
      o <- peek ;;
      match o with
      | None => ret r
      | Some next =>
          if negb (is_op (t_kind next)) then ret r
          else match operator_strength (t_kind next) with
          | None => abort "operator_strength: unknown operator"
          | Some k =>
              if negb (Nat.eqb k strength) then ret r
              else
                tok <- get_unwrap "parse_seq_expr: line 215" ;;
                r2 <- parse_expr f (S strength) ;;
                seq_loop f strength (EBinary (t_pos tok) (t_kind tok) r r2)
          end
      end
  end
with parse_prefix_expr (fuel : nat) {struct fuel} : M expr :=
  (* 228-263 *)
  match fuel with
  | O => nofuel
  | S f =>
      token <- get_unwrap "parse_prefix_expr: line 229" ;;
      if is_prefix_op (t_kind token) then
        r <- parse_prefix_expr f ;;
        ret (EPrefix (t_pos token) (t_kind token) r)
      else
        is_cast <-
          (if kind_is token "(" then
             t <- peek_unwrap "parse_prefix_expr: line 245" ;;
             ret (kind_is t "word" && is_type (t_content t) (mi_typedefs (thismod ctx)))
           else ret false) ;;
        if is_cast : bool then
          tf <- parse_bare_typeform f ctx ;;
          expect ")" (Some "typecast"%string) ;;;
          e <- parse_prefix_expr f ;;
          ret (ECast tf e)
        else if kind_is token "sizeof" then (unget token ;;; parse_sizeof f)
        else (unget token ;;; base f)
  end
with base (fuel : nat) {struct fuel} : M expr :=
  (* 265-267 *)
  match fuel with
  | O => nofuel
  | S f => r <- read_expression_atom f ;; base_loop f r
  end
with base_loop (fuel : nat) (r : expr) {struct fuel} : M expr :=
  (* 268-310 *)
  match fuel with
  | O => nofuel
  | S f =>
      o <- peek ;;
      match o with
      | None => ret r
      | Some next =>
          if kind_is next "(" then (r <- parse_call f r ;; base_loop f r)
          else if kind_is next "[" then
            (expect "[" (Some "array index"%string) ;;;
             index <- parse_expr f 0 ;;
             expect "]" (Some "array index"%string) ;;;
             base_loop f (EArrIndex r index))
          else if is_postfix_op (t_kind next) then
            (t <- get_unwrap "base: line 290" ;; base_loop f (EPostfix (t_kind t) r))
          else if kind_is next "->" || kind_is next "." then
            (optok <- get_unwrap "base: line 297" ;;
             tok <- expect "word" (Some "field access field name - identifier"%string) ;;
             base_loop f (EField (t_pos optok) (t_kind optok) r (t_content tok)))
          else ret r
      end
  end
with read_expression_atom (fuel : nat) {struct fuel} : M expr :=
  (* 391-431 *)
  match fuel with
  | O => nofuel
  | S f =>
      m <- more ;;
      if negb m then fail_eof (L "id: unexpected end of input")
      else
        n <- ns_follows ctx ;;
        if n : bool then (x <- read_ns_id ctx ;; ret (EName x))
        else
          next <- get_unwrap "read_expression_atom: line 402" ;;
          if kind_is next "word" then ret (EName (mkNs (t_pos next) [] (t_content next)))
          else if kind_is next "num" || kind_is next "string" || kind_is next "char" then
            (unget next ;;; x <- parse_literal ;; ret (ELit x))
          else if kind_is next "(" then
            (* 417-421: the closing parenthesis is demanded before the inner
               result is looked at *)
            (fun c =>
               match parse_expr f 0 c with
               | (Abort w, c') => (Abort w, c')
               | (NoFuel, c') => (NoFuel, c')
               | (e, c') =>
                   match expect ")" (Some "parenthesized expression"%string) c' with
                   | (Ok _, c'') => (e, c'')
                   | (Err x, c'') => (Err x, c'')
                   | (Abort w, c'') => (Abort w, c'')
                   | (NoFuel, c'') => (NoFuel, c'')
                   end
               end)
          else if kind_is next "{" then
            (unget next ;;; parse_composite_literal f)
          else fail (mkErr (L "id: unexpected token " ++ token_display next) (t_pos next))
  end
with parse_composite_literal (fuel : nat) {struct fuel} : M expr :=
  (* 615-619 *)
  match fuel with
  | O => nofuel
  | S f => expect "{" (Some "composite literal"%string) ;;; complit_loop f []
  end
with complit_loop (fuel : nat) (entries : list (bool * option expr * expr)) {struct fuel} : M expr :=
  (* 620-632 *)
  match fuel with
  | O => nofuel
  | S f =>
      t <- peek_unwrap "parse_composite_literal: line 621" ;;
      if kind_is t "}" then
        (expect "}" (Some "struct literal"%string) ;;; ret (EComp entries))
      else
        e <- parse_composite_literal_entry f ;;
        t <- peek_unwrap "parse_composite_literal: line 625" ;;
        if kind_is t "," then (get ;;; complit_loop f (entries ++ [e]))
        else (expect "}" (Some "struct literal"%string) ;;; ret (EComp (entries ++ [e])))
  end
with parse_composite_literal_entry (fuel : nat) {struct fuel} : M (bool * option expr * expr) :=
  (* 635-671 *)
  match fuel with
  | O => nofuel
  | S f =>
      t <- peek_unwrap "parse_composite_literal_entry: line 639" ;;
      if kind_is t "." then
        (expect "." (Some "struct literal member"%string) ;;;
         tok <- expect "word" (Some "struct literal entry - identifier"%string) ;;
         expect "=" (Some "struct literal member"%string) ;;;
         value <- parse_expr f 0 ;;
         ret (false, Some (EName (mkNs (t_pos tok) [] (t_content tok))), value))
      else
        b <- follows "[" ;;
        if b : bool then
          (get ;;;
           key <- parse_expr f 0 ;;
           expect "]" (Some "array literal index"%string) ;;;
           expect "=" (Some "array literal index"%string) ;;;
           value <- parse_expr f 0 ;;
           ret (true, Some key, value))
        else (value <- parse_expr f 0 ;; ret (false, None, value))
  end
with parse_sizeof (fuel : nat) {struct fuel} : M expr :=
  (* 673-685 *)
  match fuel with
  | O => nofuel
  | S f =>
      expect "sizeof" None ;;;
      expect "(" None ;;;
      t <- type_follows ctx ;;
      e <- (if t : bool then (x <- parse_bare_typeform f ctx ;; ret (ESizeofT x))
            else (x <- parse_expr f 0 ;; ret (ESizeofE x))) ;;
      expect ")" None ;;;
      ret e
  end
with parse_call (fuel : nat) (func : expr) {struct fuel} : M expr :=
  (* 687-703 *)
  match fuel with
  | O => nofuel
  | S f =>
      tok <- expect "(" None ;;
      o <- peek ;;
      args <-
        (match o with
         | Some t => if negb (kind_is t ")")
                     then (a <- parse_expr f 0 ;; call_args f [a])
                     else ret []
         | None => ret []
         end) ;;
      expect ")" None ;;;
      ret (ECall (t_pos tok) func args)
  end
with call_args (fuel : nat) (args : list expr) {struct fuel} : M (list expr) :=
  (* 692-695 *)
  match fuel with
  | O => nofuel
  | S f =>
      b <- follows "," ;;
      if b : bool then (get ;;; a <- parse_expr f 0 ;; call_args f (args ++ [a]))
      else ret args
  end.

(** src/parser.rs:827-837: the index brackets of a form. *)
Fixpoint form_indexes (fuel : nat) (acc : list (option expr)) : M (list (option expr)) :=
  match fuel with
  | O => nofuel
  | S f =>
      b <- follows "[" ;;
      if b : bool then
        (get ;;;
         o <- peek ;;
         e <- (match o with
               | Some t => if negb (kind_is t "]") then (x <- parse_expr f 0 ;; ret (Some x))
                           else ret None
               | None => ret None
               end) ;;
         expect "]" None ;;;
         form_indexes f (acc ++ [e]))
      else ret acc
  end.

(** src/parser.rs:802-839 [parse_form]. *)
Definition parse_form (fuel : nat) : M form :=
  t <- peek_unwrap "parse_form: line 810" ;;
  h <- count_stars fuel 0 ;;
  tok <- expect "word" (Some "form"%string) ;;
  match t_content tok with
  | [] => fail (mkErr (L "missing word content") (t_pos tok))
  | name =>
      idx <- form_indexes fuel [] ;;
      ret (mkForm (t_pos t) name h idx)
  end.

(** src/parser.rs:771-787 [parse_variable_declaration]. *)
Definition parse_variable_declaration (fuel : nat) : M stmt :=
  t <- peek_unwrap "parse_variable_declaration: line 772" ;;
  tn <- parse_typename ctx ;;
  fm <- parse_form fuel ;;
  b <- eat "=" ;;
  value <- (if b : bool then (e <- parse_expr fuel 0 ;; ret (Some e)) else ret None) ;;
  expect ";" None ;;;
  ret (SVarDecl (mkVar (t_pos t) tn fm value)).

(** src/parser.rs:789-800 [parse_return]. *)
Definition parse_return (fuel : nat) : M stmt :=
  expect "return" None ;;;
  t <- peek_unwrap "parse_return: line 791" ;;
  if kind_is t ";" then (get ;;; ret (SReturn None))
  else (e <- parse_expr fuel 0 ;; expect ";" None ;;; ret (SReturn (Some e))).

(** src/parser.rs:974-986: the values of a case. *)
Fixpoint case_values (fuel : nat) (acc : list switch_value) : M (list switch_value) :=
  match fuel with
  | O => nofuel
  | S f =>
      w <- follows "word" ;;
      v <- (if w : bool then (x <- read_ns_id ctx ;; ret (SVIdent x))
            else (x <- parse_literal ;; ret (SVLit x))) ;;
      b <- follows "," ;;
      if b : bool then (get ;;; case_values f (acc ++ [v])) else ret (acc ++ [v])
  end.

(** src/parser.rs:878-894: the initializer of a for loop. *)
Definition for_init (fuel : nat) : M (option forinit) :=
  b <- follows ";" ;;
  if b : bool then ret None
  else
    t <- peek_unwrap "parse_for: line 880" ;;
    if kind_is t "word" && is_type (t_content t) (mi_typedefs (thismod ctx)) then
      (tn <- parse_typename ctx ;;
       fm <- parse_form fuel ;;
       expect "=" None ;;;
       v <- parse_expr fuel 0 ;;
       ret (Some (FIDecl tn fm v)))
    else (e <- parse_expr fuel 0 ;; ret (Some (FIExpr e))).

(** src/parser.rs:897-908: an optional expression before token [k]. *)
Definition optional_expr (fuel : nat) (k : string) : M (option expr) :=
  b <- follows k ;;
  if b : bool then ret None else (e <- parse_expr fuel 0 ;; ret (Some e)).

(** src/parser.rs:1090-1095: skip to the end of the broken statement. *)
Fixpoint skip_statement (fuel : nat) : M unit :=
  match fuel with
  | O => nofuel
  | S f =>
      o <- peek ;;
      match o with
      | None => ret tt
      | Some t =>
          if kind_is t "}" then ret tt
          else if kind_is t ";" then (get ;;; ret tt)
          else (get ;;; skip_statement f)
      end
  end.

(** A parsed object together with the errors recovered from inside it
    (src/errors.rs:14-17 [TWithErrors]). *)
Definition werr (A : Type) := (A * list error)%type.

(** Statements: src/parser.rs:705-769, 841-996, 1064-1105. *)
Fixpoint parse_statement (fuel : nat) {struct fuel} : M (werr stmt) :=
  (* 720-769 *)
  match fuel with
  | O => nofuel
  | S f =>
      m <- more ;;
      if negb m then fail_eof (L "reached end of file while parsing statement")
      else
        t <- type_follows ctx ;;
        if t : bool then (s <- parse_variable_declaration f ;; ret (s, []))
        else
          next <- peek_unwrap "parse_statement: line 734" ;;
          if kind_is next "break" then
            (get ;;; expect ";" (Some "break statement"%string) ;;; ret (SBreak, []))
          else if kind_is next "continue" then
            (get ;;; expect ";" (Some "continue statement"%string) ;;; ret (SContinue, []))
          else if kind_is next "for" then parse_for f
          else if kind_is next "if" then parse_if f
          else if kind_is next "return" then (s <- parse_return f ;; ret (s, []))
          else if kind_is next "switch" then read_switch f
          else if kind_is next "while" then parse_while f
          else
            (e <- parse_expr f 0 ;;
             expect ";" (Some "parsing statement"%string) ;;;
             ret (SExpr e, []))
  end
with parse_while (fuel : nat) {struct fuel} : M (werr stmt) :=
  (* 705-718 *)
  match fuel with
  | O => nofuel
  | S f =>
      expect "while" None ;;;
      expect "(" None ;;;
      c <- parse_expr f 0 ;;
      expect ")" None ;;;
      '(b, errs) <- parse_statements_block f ;;
      ret (SWhile c b, errs)
  end
with parse_if (fuel : nat) {struct fuel} : M (werr stmt) :=
  (* 841-871 *)
  match fuel with
  | O => nofuel
  | S f =>
      expect "if" (Some "if statement"%string) ;;;
      expect "(" (Some "if statement"%string) ;;;
      c <- parse_expr f 0 ;;
      expect ")" (Some "if statement"%string) ;;;
      '(b, errs) <- parse_statements_block f ;;
      e <- follows "else" ;;
      if e : bool then
        (get ;;;
         '(b2, errs2) <- parse_statements_block f ;;
         ret (SIf c b (Some b2), errs ++ errs2))
      else ret (SIf c b None, errs)
  end
with parse_for (fuel : nat) {struct fuel} : M (werr stmt) :=
  (* 873-922 *)
  match fuel with
  | O => nofuel
  | S f =>
      expect "for" None ;;;
      expect "(" None ;;;
      init <- for_init f ;;
      expect ";" (Some "for loop initializer"%string) ;;;
      cond <- optional_expr f ";" ;;
      expect ";" (Some "for loop condition"%string) ;;;
      action <- optional_expr f ")" ;;
      expect ")" (Some "for loop postaction"%string) ;;;
      '(b, errs) <- parse_statements_block f ;;
      ret (SFor init cond action b, errs)
  end
with read_switch (fuel : nat) {struct fuel} : M (werr stmt) :=
  (* 924-969 *)
  match fuel with
  | O => nofuel
  | S f =>
      expect "switch" None ;;;
      o <- peek ;;
      is_str <- (match o with
                 | Some t => if kind_is t "word" && str_eqb (t_content t) (L "str")
                             then (get ;;; ret true) else ret false
                 | None => ret false
                 end) ;;
      expect "(" None ;;;
      value <- parse_expr f 0 ;;
      expect ")" None ;;;
      expect "{" None ;;;
      '(cases, errs) <- switch_cases f [] [] ;;
      d <- follows "default" ;;
      '(def, errs) <-
        (if d : bool then
           (expect "default" None ;;;
            expect ":" None ;;;
            '(b, errs2) <- read_body f ;;
            ret (Some b, errs ++ errs2))
         else ret (None, errs)) ;;
      expect "}" None ;;;
      ret (SSwitch is_str value cases def, errs)
  end
with switch_cases (fuel : nat) (cases : list (list switch_value * body)) (errs : list error)
       {struct fuel} : M (werr (list (list switch_value * body))) :=
  (* 942-948 *)
  match fuel with
  | O => nofuel
  | S f =>
      b <- follows "case" ;;
      if b : bool then
        ('(c, errs2) <- read_switch_case f ;;
         switch_cases f (cases ++ [c]) (errs ++ errs2))
      else ret (cases, errs)
  end
with read_switch_case (fuel : nat) {struct fuel} : M (werr (list switch_value * body)) :=
  (* 971-996 *)
  match fuel with
  | O => nofuel
  | S f =>
      expect "case" None ;;;
      values <- case_values f [] ;;
      expect ":" None ;;;
      '(b, errs) <- read_body f ;;
      ret ((values, b), errs)
  end
with parse_statements_block (fuel : nat) {struct fuel} : M (werr body) :=
  (* 1064-1075 *)
  match fuel with
  | O => nofuel
  | S f =>
      o <- follows "{" ;;
      if o : bool then read_body f
      else ('(s, errs) <- parse_statement f ;; ret ([s], errs))
  end
with read_body (fuel : nat) {struct fuel} : M (werr body) :=
  (* 1077-1080 *)
  match fuel with
  | O => nofuel
  | S f => expect "{" None ;;; body_loop f [] []
  end
with body_loop (fuel : nat) (statements : body) (errors : list error) {struct fuel}
       : M (werr body) :=
  (* 1081-1104 *)
  match fuel with
  | O => nofuel
  | S f =>
      b <- follows "}" ;;
      if b : bool then (expect "}" None ;;; ret (statements, errors))
      else fun c =>
        match parse_statement f c with
        | (Ok (s, errs), c') => body_loop f (statements ++ [s]) (errors ++ errs) c'
        | (Err e, c') => (skip_statement f ;;; body_loop f statements (errors ++ [e])) c'
        | (Abort w, c') => (Abort w, c')
        | (NoFuel, c') => (NoFuel, c')
        end
  end.

(** src/parser.rs:1047-1056: the further names of one parameter group. *)
Fixpoint param_forms (fuel : nat) (forms : list form) : M (list form) :=
  match fuel with
  | O => nofuel
  | S f =>
      b <- follows "," ;;
      if b : bool then
        (t <- get_unwrap "parse_function_parameter: line 1050" ;;
         tf <- type_follows ctx ;;
         el <- (if tf : bool then ret true else follows "...") ;;
         if el : bool then (unget t ;;; ret forms)
         else (x <- parse_form f ;; param_forms f (forms ++ [x])))
      else ret forms
  end.

(** src/parser.rs:1042-1062 [parse_function_parameter]. *)
Definition parse_function_parameter (fuel : nat) : M type_and_forms :=
  tn <- parse_typename ctx ;;
  x <- parse_form fuel ;;
  forms <- param_forms fuel [x] ;;
  ret (mkTaf tn forms).

(** src/parser.rs:1013-1018: the parameter groups. *)
Fixpoint params_loop (fuel : nat) (acc : list type_and_forms) : M (list type_and_forms) :=
  match fuel with
  | O => nofuel
  | S f =>
      t <- type_follows ctx ;;
      if t : bool then
        (p <- parse_function_parameter f ;;
         b <- eat "," ;;
         if b : bool then params_loop f (acc ++ [p]) else ret (acc ++ [p]))
      else ret acc
  end.

(** src/parser.rs:998-1040 [parse_function_declaration]. *)
Definition parse_function_declaration (fuel : nat) (is_pub : bool) (tn : typename) (fm : form)
           (p : pos) : M (werr modelem) :=
  expect "(" None ;;;
  params <- params_loop fuel [] ;;
  variadic <- eat "..." ;;
  expect ")" (Some "parse_function_declaration"%string) ;;;
  '(b, errs) <- parse_statements_block fuel ;;
  ret (MFunc (mkFunc p is_pub tn fm (mkFp params variadic) b), errs).

(** src/parser.rs:588-605: the entries of an enum. *)
Fixpoint enum_loop (fuel : nat) (acc : list enum_entry) : M (list enum_entry) :=
  match fuel with
  | O => nofuel
  | S f =>
      name <- expect "word" (Some "enum entry - identifier"%string) ;;
      b <- eat "=" ;;
      val <- (if b : bool then (e <- parse_expr f 0 ;; ret (Some e)) else ret None) ;;
      let acc := acc ++ [mkEntry (t_content name) val] in
      comma <- eat "," ;;
      if negb comma then ret acc
      else
        close <- follows "}" ;;
        if close : bool then ret acc else enum_loop f acc
  end.

(** src/parser.rs:583-613 [parse_enum]. *)
Definition parse_enum (fuel : nat) (is_pub : bool) : M modelem :=
  t <- peek_unwrap "parse_enum: line 584" ;;
  expect "enum" (Some "enum definition"%string) ;;;
  expect "{" (Some "enum definition"%string) ;;;
  entries <- enum_loop fuel [] ;;
  expect "}" (Some "enum definition"%string) ;;;
  eat ";" ;;;
  ret (MEnum (mkEnum is_pub entries (t_pos t))).

(** src/parser.rs:1208-1211: the further forms of a struct field. *)
Fixpoint field_forms (fuel : nat) (forms : list form) : M (list form) :=
  match fuel with
  | O => nofuel
  | S f =>
      b <- follows "," ;;
      if b : bool then (get ;;; x <- parse_form f ;; field_forms f (forms ++ [x])) else ret forms
  end.

(** src/parser.rs:1195-1219 [parse_type_and_forms]. *)
Definition parse_type_and_forms (fuel : nat) : M type_and_forms :=
  b <- follows "struct" ;;
  if b : bool then
    (t <- peek_unwrap "parse_type_and_forms: line 1199" ;;
     fail (mkErr (L "Unexpected struct") (t_pos t)))
  else
    tn <- parse_typename ctx ;;
    x <- parse_form fuel ;;
    forms <- field_forms fuel [x] ;;
    expect ";" None ;;;
    ret (mkTaf tn forms).

(** src/parser.rs:1111-1116: the fields of a union. *)
Fixpoint union_fields (fuel : nat) (acc : list (typename * form)) : M (list (typename * form)) :=
  match fuel with
  | O => nofuel
  | S f =>
      b <- follows "}" ;;
      if b : bool then ret acc
      else
        (tn <- parse_typename ctx ;;
         fm <- parse_form f ;;
         expect ";" None ;;;
         union_fields f (acc ++ [(tn, fm)]))
  end.

(** src/parser.rs:1107-1121 [parse_union]. *)
Definition parse_union (fuel : nat) : M union_ :=
  expect "union" None ;;;
  expect "{" None ;;;
  fields <- union_fields fuel [] ;;
  expect "}" None ;;;
  fm <- parse_form fuel ;;
  expect ";" None ;;;
  ret (mkUnion fm fields).

(** src/parser.rs:1131-1137: the entries of a struct. *)
Fixpoint struct_entries (fuel : nat) (acc : list struct_entry) : M (list struct_entry) :=
  match fuel with
  | O => nofuel
  | S f =>
      o <- peek ;;
      match o with
      | None => ret acc
      | Some t =>
          if kind_is t "}" then ret acc
          else if kind_is t "union" then
            (u <- parse_union f ;; struct_entries f (acc ++ [StUnion u]))
          else (x <- parse_type_and_forms f ;; struct_entries f (acc ++ [StPlain x]))
      end
  end.

(** src/parser.rs:545-553: the further parameters. *)
Fixpoint anon_loop (fuel : nat) (acc : list bare_typeform) : M (bool * list bare_typeform) :=
  match fuel with
  | O => nofuel
  | S f =>
      b <- follows "," ;;
      if b : bool then
        (get ;;;
         el <- follows "..." ;;
         if el : bool then (get ;;; ret (true, acc))
         else (x <- parse_bare_typeform f ctx ;; anon_loop f (acc ++ [x])))
      else ret (false, acc)
  end.

(** src/parser.rs:537-557 [parse_anonymous_parameters]. *)
Definition parse_anonymous_parameters (fuel : nat) : M anon_params :=
  expect "(" (Some "anonymous function parameters"%string) ;;;
  close <- follows ")" ;;
  '(el, forms) <-
    (if close : bool then ret (false, [])
     else (x <- parse_bare_typeform fuel ctx ;; anon_loop fuel [x])) ;;
  expect ")" (Some "anonymous function parameters"%string) ;;;
  ret (mkAnon el forms).

(** src/parser.rs:1123-1193 [parse_typedef]. *)
Definition parse_typedef (fuel : nat) (is_pub : bool) : M modelem :=
  expect "typedef" None ;;;
  b <- follows "{" ;;
  if b : bool then
    (expect "{" (Some "struct type definition"%string) ;;;
     fields <- struct_entries fuel [] ;;
     expect "}" None ;;;
     tok <- expect "word" (Some "typedef typename - identifier"%string) ;;
     expect ";" (Some "typedef"%string) ;;;
     ret (MStruct (mkStruct is_pub fields (t_content tok))))
  else
    s <- eat "struct" ;;
    if s : bool then
      (n <- expect "word" (Some "struct name"%string) ;;
       a <- expect "word" (Some "struct type alias"%string) ;;
       expect ";" (Some "typedef"%string) ;;;
       ret (MStructAlias (mkAlias is_pub (t_content n) (t_content a))))
    else
      (tn <- parse_typename ctx ;;
       stars <- count_stars fuel 0 ;;
       tok <- expect "word" (Some "typedef alias - identifier"%string) ;;
       p <- follows "(" ;;
       params <- (if p : bool then (x <- parse_anonymous_parameters fuel ;; ret (Some x))
                  else ret None) ;;
       a <- follows "[" ;;
       size <- (if a : bool then
                  (get ;;;
                   num <- expect "num" None ;;
                   match parse_usize (t_content num) with
                   | None => abort "parse_typedef: unwrap at line 1181"
                   | Some n => expect "]" None ;;; ret n
                   end)
                else ret 0%N) ;;
       expect ";" (Some "typedef"%string) ;;;
       ret (MTypedef (mkTypedef is_pub (t_content tok) tn stars size params))).

(** src/parser.rs:144-191 [parse_module_object]. *)
Definition parse_module_object (fuel : nat) : M (werr modelem) :=
  t <- peek_unwrap "parse_module_object: line 146" ;;
  is_pub <- eat "pub" ;;
  e <- follows "enum" ;;
  if e : bool then (x <- parse_enum fuel is_pub ;; ret (x, []))
  else
    d <- follows "typedef" ;;
    if d : bool then (x <- parse_typedef fuel is_pub ;; ret (x, []))
    else
      tn <- parse_typename ctx ;;
      fm <- parse_form fuel ;;
      next <- peek_unwrap "parse_module_object: line 165" ;;
      if kind_is next "(" then parse_function_declaration fuel is_pub tn fm (t_pos t)
      else
        (expect "=" (Some "module variable"%string) ;;;
         if is_pub : bool then
           fail (mkErr (L "module variables can't be exported") (t_pos t))
         else
           (value <- parse_expr fuel 0 ;;
            expect ";" (Some "module variable declaration"%string) ;;;
            ret (MVar (mkVar (t_pos t) tn fm (Some value)), []))).

End Expr.

(** src/parser.rs:128-135: position of the first space. *)
Fixpoint split_at_space (s : str) : option (str * str) :=
  match s with
  | [] => None
  | c :: r => if N.eqb c 32 then Some ([], s)
              else match split_at_space r with
                   | Some (a, b) => Some (c :: a, b)
                   | None => None
                   end
  end.

(** src/parser.rs:125-142 [parse_compat_macro]; [name[1..]] drops the "#". *)
Definition parse_compat_macro : M modelem :=
  tok <- expect "macro" None ;;
  match split_at_space (t_content tok) with
  | None => fail (mkErr (L "can't get macro name from '" ++ t_content tok ++ L "'") (t_pos tok))
  | Some (name, value) =>
      match bdrop 1 name with
      | None => abort "parse_compat_macro: slice at line 138"
      | Some name => ret (MMacro (mkMacro name value (t_pos tok)))
      end
  end.

(** src/parser.rs:74-123 [get_exports]. *)
Fixpoint get_exports_aux (elems : list modelem) (ex : exports) : exports :=
  match elems with
  | [] => ex
  | e :: r =>
      get_exports_aux r
        (match e with
         | MEnum x =>
             if enum_pub x
             then mkExports (ex_consts ex ++ enum_entries x) (ex_fns ex) (ex_types ex) (ex_structs ex)
             else ex
         | MTypedef x =>
             if td_pub x
             then mkExports (ex_consts ex) (ex_fns ex) (ex_types ex ++ [td_alias x]) (ex_structs ex)
             else ex
         | MStruct x =>
             if st_pub x
             then mkExports (ex_consts ex) (ex_fns ex) (ex_types ex ++ [st_name x])
                            (ex_structs ex ++ [x])
             else ex
         | MFunc f =>
             if fd_pub f
             then mkExports (ex_consts ex) (ex_fns ex ++ [f]) (ex_types ex) (ex_structs ex)
             else ex
         | _ => ex
         end)
  end.
Definition get_exports (elems : list modelem) : exports :=
  get_exports_aux elems (mkExports [] [] [] []).

(** src/parser.rs:31-63: the loop of [parse_module]; returns the elements and
    the errors collected. *)
Fixpoint module_loop (fuel : nat) (ctx : parsectx) (objs : list modelem) (errors : list error)
  : M (werr (list modelem)) :=
  match fuel with
  | O => nofuel
  | S f =>
      o <- peek ;;
      match o with
      | None => ret (objs, errors)
      | Some t =>
          if kind_is t "import" then (get ;;; module_loop f ctx objs errors)
          else if kind_is t "macro" then fun c =>
            match parse_compat_macro c with
            | (Ok x, c') => module_loop f ctx (objs ++ [x]) errors c'
            | (Err e, c') => (Ok (objs, errors ++ [e]), c')
            | (Abort w, c') => (Abort w, c')
            | (NoFuel, c') => (NoFuel, c')
            end
          else fun c =>
            match parse_module_object ctx f c with
            | (Ok (x, errs), c') => module_loop f ctx (objs ++ [x]) (errors ++ errs) c'
            | (Err e, c') => (Ok (objs, errors ++ [e]), c')
            | (Abort w, c') => (Abort w, c')
            | (NoFuel, c') => (NoFuel, c')
            end
      end
  end.

(** Result of parsing a module. *)
Inductive parse_result :=
| PModule (m : module_)
| PErrors (es : list error)
| PAbort (why : string)
| PNoFuel.

(** src/parser.rs:28-72 [parse_module]. *)
Definition parse_module (fuel : nat) (ctx : parsectx) (c : cursor) : parse_result :=
  match module_loop fuel ctx [] [] c with
  | (Ok (objs, []), _) => PModule (mkModule objs (get_exports objs))
  | (Ok (_, errors), _) => PErrors errors
  | (Err e, _) => PErrors [e]     (* module_loop never fails: [module_loop_no_err] in SafeText.v *)
  | (Abort w, _) => PAbort w
  | (NoFuel, _) => PNoFuel
  end.
