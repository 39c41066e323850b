(** How statements are executed: those of C (C99 6.8) and those of the source
    language.  What expressions do is left open: the statements below hold for
    every machine. *)
From Verif Require Import Base Buf Nodes CAst SpecDecl SpecTarget SpecC SpecCStmt.

(** What evaluating an expression comes to: a value, or the end of the program.
    (Nothing, if it does not end; anything that C allows, if there is a choice.) *)
Inductive effect (W V : Type) := Gives (w : W) (v : V) | Ends (w : W).
Arguments Gives {W V}. Arguments Ends {W V}.
Record machine := mkMachine {
  env : Type;                                                        (* the variables in scope *)
  world : Type;
  value : Type;
  evals : cexpr -> env -> world -> effect world value -> Prop;
  makes : ctypename -> cform -> option cexpr -> env -> world -> effect world env -> Prop;  (* a declaration *)
  truth : value -> bool;
  equals : value -> cexpr -> bool;                                   (* to a case label *)
  same_string : value -> cexpr -> env -> world -> bool }.            (* as the string a label stands for *)

Section Exec.
Variable M : machine.
Notation E := (env M).
Notation W := (world M).

(** What executing a statement comes to.  [Paused]: the execution has got this
    far; so executions that never end are compared as well. *)
Inductive outcome :=
| Next (r : E) (w : W)
| Broke (w : W)
| Continued (w : W)
| Returned (w : W) (v : option (value M))
| Ended (w : W)
| Paused (w : W).
Definition exec : Type := E -> W -> outcome -> Prop.
Definition abrupt (o : outcome) : Prop := match o with Next _ _ => False | _ => True end.

(** ** Building blocks *)
Definition skip : exec := fun r w o => o = Paused w \/ o = Next r w.
Definition seq (a b : exec) : exec := fun r w o =>
  (exists r' w', a r w (Next r' w') /\ b r' w' o) \/ (abrupt o /\ a r w o).
(** A block: its variables end with it. *)
Definition scoped (a : exec) : exec := fun r w o =>
  exists o', a r w o' /\ o = match o' with Next _ w' => Next r w' | _ => o' end.
Definition jump (f : W -> outcome) : exec := fun r w o => o = Paused w \/ o = f w.
Definition run (e : cexpr) (k : W -> value M -> exec) : exec := fun r w o =>
  o = Paused w
  \/ (exists w' v, evals M e r w (Gives w' v) /\ k w' v r w' o)
  \/ (exists w', evals M e r w (Ends w') /\ o = Ended w').
Definition now (o : E -> W -> outcome) : exec := fun r w o' => o' = o r w.
Definition expression (e : cexpr) : exec := run e (fun _ _ => now Next).
Definition branch (c : cexpr) (a b : exec) : exec := run c (fun _ v => if truth M v then a else b).
Definition declare (t : ctypename) (f : cform) (v : option cexpr) : exec := fun r w o =>
  o = Paused w
  \/ (exists r' w', makes M t f v r w (Gives w' r') /\ o = Next r' w')
  \/ (exists w', makes M t f v r w (Ends w') /\ o = Ended w').
Definition return_ (e : option cexpr) : exec :=
  match e with
  | Some e => run e (fun _ v => now (fun _ w => Returned w (Some v)))
  | None => jump (fun w => Returned w None)
  end.
(** Loops: a missing condition is true, a missing action does nothing. *)
Definition decides (c : option cexpr) (r : E) (w : W) (b : bool) (w' : W) : Prop :=
  match c with
  | Some c => exists v, evals M c r w (Gives w' v) /\ truth M v = b
  | None => b = true /\ w' = w
  end.
Definition acts (a : option cexpr) (r : E) (w w' : W) : Prop :=
  match a with Some a => exists v, evals M a r w (Gives w' v) | None => w' = w end.
Definition ends (e : option cexpr) (r : E) (w w' : W) : Prop :=
  match e with Some e => evals M e r w (Ends w') | None => False end.
Inductive loop (c a : option cexpr) (body : exec) (r : E) : W -> outcome -> Prop :=
| Loop_pause w : loop c a body r w (Paused w)
| Loop_ends w w' : ends c r w w' -> loop c a body r w (Ended w')
| Loop_stop w w' : decides c r w false w' -> loop c a body r w (Next r w')
| Loop_turn w w1 o1 o : decides c r w true w1 -> body r w1 o1 -> again c a body r o1 o -> loop c a body r w o
(** What follows a turn with outcome [o1]. *)
with again (c a : option cexpr) (body : exec) (r : E) : outcome -> outcome -> Prop :=
| Again_turn o1 w w' o : o1 = Continued w \/ (exists r', o1 = Next r' w) -> acts a r w w' -> loop c a body r w' o ->
    again c a body r o1 o
| Again_ends o1 w w' : o1 = Continued w \/ (exists r', o1 = Next r' w) -> ends a r w w' -> again c a body r o1 (Ended w')
| Again_break w : again c a body r (Broke w) (Next r w)
| Again_leave o : match o with Returned _ _ | Ended _ | Paused _ => True | _ => False end -> again c a body r o o.
Definition for_init (i : option cforinit) : exec :=
  match i with
  | None => skip
  | Some (CFIExpr e) => expression e
  | Some (CFIDecl v) => declare (cv_type v) (cv_form v) (Some (cv_value v))
  end.
(** A break inside a switch ends the switch. *)
Definition switched (a : exec) : exec := fun r w o =>
  exists o', a r w o' /\ o = match o' with Next _ w' | Broke w' => Next r w' | _ => o' end.

(** ** C *)
Inductive label := LCase (v : cexpr) | LDefault.
(** The labels in a statement that belong to the switch around it. *)
Fixpoint labels (s : cst) : list label :=
  match s with
  | XCase v s => LCase v :: labels s
  | XDefault s => LDefault :: labels s
  | XBlock l => flat_map labels l
  | XIf _ s None => labels s
  | XIf _ s (Some e) => labels s ++ labels e
  | XWhile _ s | XFor _ _ _ s => labels s
  | _ => []
  end.
Definition has (hit : label -> bool) (s : cst) : bool := existsb hit (labels s).
(** The label a value jumps to: its case if there is one, else the default. *)
Definition is_case (x : value M) (l : label) : bool := match l with LCase v => equals M x v | LDefault => false end.
Definition is_default (l : label) : bool := match l with LCase _ => false | LDefault => true end.
Definition target (x : value M) (s : cst) : label -> bool := if has (is_case x) s then is_case x else is_default.

Definition declares_all (t : ctypename) (l : list (cform * option cexpr)) : exec :=
  fold_right (fun d k => seq (declare t (fst d) (snd d)) k) skip l.
(** Continuing after the declarations, which get no value, of a statement that
    is jumped over. *)
Definition passing (s : cst) (k : exec) : exec :=
  match s with XDecl t l => seq (declares_all t (map (fun d => (fst d, None)) l)) k | _ => k end.

(** [c_exec false _ s]: executing [s]; [c_exec true hit s]: jumping to the first
    label in [s] that [hit] accepts and going on from there. *)
Fixpoint c_exec (jumping : bool) (hit : label -> bool) (s : cst) : exec :=
  let block := fix block (jumping : bool) (l : list cst) : exec :=
    match l with
    | [] => if jumping then fun _ _ _ => False else skip
    | s :: r =>
        if jumping then
          if has hit s then seq (c_exec true hit s) (block false r) else passing s (block true r)
        else seq (c_exec false hit s) (block false r)
    end in
  match s with
  | XBlock l => scoped (block jumping l)
  | XCase v s => c_exec (jumping && negb (hit (LCase v))) hit s
  | XDefault s => c_exec (jumping && negb (hit LDefault)) hit s
  | XIf c s e =>
      if jumping then
        if has hit s then scoped (c_exec true hit s)
        else match e with Some e => scoped (c_exec true hit e) | None => fun _ _ _ => False end
      else branch c (scoped (c_exec false hit s)) (match e with Some e => scoped (c_exec false hit e) | None => now Next end)
  | XWhile c s =>
      if jumping then fun r w o => exists o1, c_exec true hit s r w o1 /\ again (Some c) None (c_exec false hit s) r o1 o
      else loop (Some c) None (c_exec false hit s)
  | XFor i c a s =>
      if jumping then fun r w o => exists o1, c_exec true hit s r w o1 /\ again c a (c_exec false hit s) r o1 o
      else scoped (seq (for_init i) (loop c a (c_exec false hit s)))
  | _ =>
    if jumping then fun _ _ _ => False else
    match s with
    | XNull => skip
    | XExpr e => expression e
    | XDecl t l => declares_all t l
    | XSwitch e s => run e (fun _ x =>
        if has (target x s) s then switched (c_exec true (target x s) s) else now Next)
    | XBreak => jump Broke
    | XContinue => jump Continued
    | XReturn e => return_ e
    | _ => fun _ _ _ => False
    end
  end.
Definition c_runs (s : cst) : exec := c_exec false is_default s.

(** ** The source language *)
Section Source.
Variable S : site.
Notation expr G e := (c_expr S G e).

(** Panicking: three messages and the end of the program. *)
Definition panic_calls (p : pos) (args : list cexpr) : list cexpr :=
  [ call "fprintf" [CIdent (L "stderr"); CLit (CLString (L "*** panic at %s ***\n")); CLit (CLString (place S p))];
    call "fprintf" (CIdent (L "stderr") :: args);
    call "fprintf" [CIdent (L "stderr"); CLit (CLString (L "\n"))];
    call "exit" [CLit (CLNumber (L "1"))] ].
Fixpoint s_exec (G : list decl) (s : stmt) : exec :=
  let body := fix body (G : list decl) (l : list stmt) : exec :=
    match l with
    | [] => skip
    | s :: r => seq (s_exec G s) (body (declares s ++ G) r)
    end in
  (** The body of the first case that has one of the values. *)
  let choose := fun (G : list decl) (same : switch_value -> bool) (def : option (list stmt)) (leave : exec -> exec) =>
    fix choose (cases : list (list switch_value * list stmt)) : exec :=
    match cases with
    | c :: r => if existsb same (fst c) then leave (body G (snd c)) else choose r
    | [] => match def with Some b => leave (body G b) | None => now Next end
    end in
  match s with
  | SBreak => jump Broke
  | SContinue => jump Continued
  | SExpr e =>
      match e with
      | ECall _ (EName n as f) args =>
          if is_name f "panic" then
            scoped (fold_right (fun e k => seq (expression e) k) skip (panic_calls (ns_pos n) (map (fun a => expr G a) args)))
          else expression (expr G e)
      | _ => expression (expr G e)
      end
  | SVarDecl v =>
      let G := declares s ++ G in
      declare (c_type S (v_type v)) (local_form S G (v_form v)) (option_map (fun e => expr G e) (v_value v))
  | SIf c b e => branch (expr G c) (scoped (body G b)) (match e with Some b => scoped (body G b) | None => now Next end)
  | SWhile c b => loop (Some (expr G c)) None (scoped (body G b))
  | SFor i c a b =>
      let G := init_declares i ++ G in
      scoped (seq (for_init (option_map (c_forinit S G) i))
                  (loop (option_map (fun e => expr G e) c) (option_map (fun e => expr G e) a) (scoped (body G b))))
  | SReturn e => return_ (option_map (fun e => expr G e) e)
  | SSwitch false v cases def => run (expr G v) (fun _ x =>
      choose G (fun l => equals M x (c_value S G l)) def switched cases)
  | SSwitch true v cases def => run (expr G v) (fun w x => fun r =>
      choose G (fun l => same_string M x (c_value S G l) r w) def scoped cases r)
  end.
Fixpoint s_execs (G : list decl) (l : list stmt) : exec :=
  match l with
  | [] => skip
  | s :: r => seq (s_exec G s) (s_execs (declares s ++ G) r)
  end.
Definition s_runs (G : list decl) (l : list stmt) : exec := scoped (s_execs G l).

(** What a switch picks, spelled out: the body of the first case one of whose
    values is the [same]; without such a case the default, if there is one. *)
Definition lists (same : switch_value -> bool) (c : list switch_value * list stmt) : Prop :=
  exists v, In v (fst c) /\ same v = true.
Definition picks (G : list decl) (same : switch_value -> bool) (cases : list (list switch_value * list stmt))
  (def : option (list stmt)) (leave : exec -> exec) : exec := fun r w o =>
  (exists before vs b after, cases = before ++ (vs, b) :: after
     /\ (forall c, In c before -> ~ lists same c) /\ lists same (vs, b) /\ leave (s_execs G b) r w o)
  \/ ((forall c, In c cases -> ~ lists same c)
      /\ match def with Some b => leave (s_execs G b) r w o | None => o = Next r w end).

(** ** What is asked of a machine to make sense of a text *)
(** The spelling of string literals does not matter, and in a declaration [{0}]
    is the same as a list without entries. *)
Record sees_values : Prop := {
  sees_expr : forall e e', values e = values e' -> forall r w o, evals M e r w o <-> evals M e' r w o;
  sees_decl : forall t f f' v v', form_values f = form_values f' -> option_map init_values v = option_map init_values v' ->
    forall r w o, makes M t f v r w o <-> makes M t f' v' r w o;
  sees_label : forall x v v', values v = values v' -> equals M x v = equals M x v' }.

(** ** What is asked of a machine for [switch str] *)
(** Evaluating [e] gives [v] and changes nothing. *)
Definition settled (e : cexpr) (r : E) (w : W) (v : value M) : Prop := forall o, evals M e r w o <-> o = Gives w v.
(** Evaluating [e] decides [b] and changes nothing. *)
Definition tests (e : cexpr) (r : E) (w : W) (b : bool) : Prop :=
  (forall o, evals M e r w o -> exists v, o = Gives w v /\ truth M v = b)
  /\ exists v, evals M e r w (Gives w v) /\ truth M v = b.
(** Evaluating [e] comes to nothing: it never ends, or C leaves it undefined. *)
Definition stuck (e : cexpr) (r : E) (w : W) : Prop := forall o, ~ evals M e r w o.
(** The meaning of [!], [||] (6.5.3.3, 6.5.14) and strcmp (7.21.4.2). *)
Record obeys_c : Prop := {
  c_not : forall e r w b, tests e r w b -> tests (CPrefix "!" e) r w (negb b);
  c_or : forall e e' r w b b', tests e r w b -> tests e' r w b' -> tests (CBin "||" e e') r w (b || b');
  c_strcmp : forall l e r w v, settled e r w v ->
    tests (call "strcmp" [l; e]) r w (negb (same_string M v l r w));
  c_not_stuck : forall e r w, stuck e r w -> stuck (CPrefix "!" e) r w;
  c_or_stuck : forall e e' r w, stuck e r w -> stuck (CBin "||" e e') r w;
  c_strcmp_stuck : forall l e r w, stuck e r w -> stuck (call "strcmp" [l; e]) r w }.

(** The subject of every [switch str] changes nothing; every [switch str] has a
    case and every case a value. *)
Definition quiet (e : cexpr) : Prop := forall r w, (exists v, settled e r w v) \/ stuck e r w.
Fixpoint steady (G : list decl) (s : stmt) : Prop :=
  let body := fix body (G : list decl) (l : list stmt) : Prop :=
    match l with [] => True | s :: r => steady G s /\ body (declares s ++ G) r end in
  let opt := fun G (o : option (list stmt)) => match o with Some l => body G l | None => True end in
  match s with
  | SIf _ b e => body G b /\ opt G e
  | SFor i _ _ b => body (init_declares i ++ G) b
  | SWhile _ b => body G b
  | SSwitch str v cases def =>
      (str = true -> quiet (expr G v) /\ cases <> [])
      /\ opt G def
      /\ (fix each (l : list (list switch_value * list stmt)) : Prop :=
           match l with [] => True | c :: r => (str = true -> fst c <> []) /\ body G (snd c) /\ each r end) cases
  | _ => True
  end.
Fixpoint steady_body (G : list decl) (l : list stmt) : Prop :=
  match l with [] => True | s :: r => steady G s /\ steady_body (declares s ++ G) r end.
End Source.
End Exec.
