(** What a whole program does: the one that the generated files make up (C99
    6.2.1, 6.2.2, 6.8, 6.9) and the one that the modules of the source make up.
    The vocabulary of C72.  What the operations of C and the functions of the
    library do is left open: the statements hold for every host. *)
From Verif Require Import Base Buf Nodes Resolve Preparser CAst FormatC Translator Build SpecDecl SpecScope SpecTarget SpecModule SpecLex SpecC SpecCStmt
  SpecTyping SpecTame SpecExec SpecBuild SpecClosed SpecTidy SpecLink SpecMeaning TargetFacts.

(** ** Expressions whose names have been looked up *)
(** What a name stands for.  Functions and variables are those of the [i]-th
    module or of the file made of it; the name is the one they have in C. *)
Inductive thing (P : Type) :=
| TLocal (p : P)                     (* a variable or parameter of the function *)
| TFunction (i : nat) (x : str)
| TVariable (i : nat) (x : str)
| TKnown (i : nat) (u : cuse).       (* anything else, as it is known in the [i]-th file *)
Arguments TLocal {P}. Arguments TFunction {P}. Arguments TVariable {P}. Arguments TKnown {P}.
(** The name of a member; [Some i] if it is a macro of the [i]-th file instead. *)
Definition word : Type := option nat * str.
(** A type: whether it is const, and its name. *)
Definition rtype (P : Type) : Type := bool * thing P.
Inductive rx (P : Type) :=
| RLit (l : cliteral)
| RThing (x : thing P)
| RWord (x : word)                                   (* a designator of a member *)
| RComp (l : list (bool * option (rx P) * rx P))
| RBin (op : string) (a b : rx P)
| RField (op : string) (a : rx P) (x : word)
| RPrefix (op : string) (a : rx P)
| RPostfix (op : string) (a : rx P)
| RCast (t : rtype P) (hops : nat) (a : rx P)
| RCall (f : rx P) (args : list (rx P))
| RSizeofT (t : rtype P) (hops : nat)
| RSizeofE (a : rx P)
| RIndex (a i : rx P).
Arguments RLit {P}. Arguments RThing {P}. Arguments RWord {P}. Arguments RComp {P}. Arguments RBin {P}. Arguments RField {P}. Arguments RPrefix {P}.
Arguments RPostfix {P}. Arguments RCast {P}. Arguments RCall {P}. Arguments RSizeofT {P}. Arguments RSizeofE {P}. Arguments RIndex {P}.
(** A string literal is its characters. *)
Definition literal_value (l : cliteral) : cliteral := match l with CLString s => CLString (string_value s) | l => l end.
(** In an initializer [{0}] is the same as a list without entries. *)
Definition zero_entries {P} (l : list (bool * option (rx P) * rx P)) : bool :=
  match l with [(false, None, RLit (CLNumber z))] => str_eqb z (L "0") | _ => false end.
Fixpoint initializer {P} (e : rx P) : rx P :=
  match e with
  | RComp l =>
      let l' := map (fun x => (fst (fst x), snd (fst x), initializer (snd x))) l in
      RComp (if zero_entries l' then [] else l')
  | e => e
  end.
(** A declarator without its name: the type, the pointers, the sizes. *)
Definition rdecl (P : Type) : Type := rtype P * nat * list (option (rx P)).

(** ** Hosts *)
(** A host is what runs a program.  It is given the functions of the program as
    a table: what calling the function [x] of the [i]-th module with arguments
    comes to. *)
Definition table (W V : Type) : Type := nat -> str -> list V -> W -> effect W V -> Prop.
Record host := mkHost {
  h_place : Type;                                                  (* where a local variable is kept *)
  h_world : Type;
  h_value : Type;
  h_evals : table h_world h_value -> rx h_place -> h_world -> effect h_world h_value -> Prop;
  h_alloc : table h_world h_value -> rdecl h_place -> h_world -> effect h_world h_place -> Prop;  (* a new variable *)
  h_init : table h_world h_value -> h_place -> rx h_place -> h_world -> effect h_world unit -> Prop;  (* its first value *)
  h_store : h_place -> h_value -> h_world -> h_world -> Prop;      (* an argument becomes the value of a parameter *)
  h_rest : list h_value -> h_world -> h_world -> Prop;             (* what an ellipsis takes *)
  h_result : rdecl h_place -> option h_value -> h_world -> effect h_world h_value -> Prop;  (* what a function returns *)
  h_statics : list (nat * str * rdecl h_place * rx h_place) -> h_world -> h_world -> Prop;  (* the variables of files and their values *)
  h_stopped : h_world -> h_world;                                  (* the execution has got this far *)
  h_truth : h_value -> bool;
  h_equals : h_value -> rx h_place -> bool;                        (* to a case label *)
  h_same_string : h_value -> rx h_place -> h_world -> bool }.      (* as the string a label stands for *)

(** Places of local variables, the nearest first. *)
Definition scope (P : Type) : Type := list (str * P).
Definition place_of {P} (r : scope P) (x : str) : option P := option_map snd (find (fun b => str_eqb (fst b) x) r).

(** ** Building blocks *)
(** Executions as in SpecExec.v, of meanings instead of C expressions. *)
Section Blocks.
Variables (E W V : Type) (truth : V -> bool).
Inductive out :=
| ONext (r : E) (w : W)
| OBroke (w : W)
| OContinued (w : W)
| OReturned (w : W) (v : option V)
| OEnded (w : W)
| OPaused (w : W).
Definition deed : Type := E -> W -> out -> Prop.
Definition meaning (A : Type) : Type := E -> W -> effect W A -> Prop.
Definition is_abrupt (o : out) : Prop := match o with ONext _ _ => False | _ => True end.
Definition nothing : deed := fun r w o => o = OPaused w \/ o = ONext r w.
Definition and_then (a b : deed) : deed := fun r w o =>
  (exists r' w', a r w (ONext r' w') /\ b r' w' o) \/ (is_abrupt o /\ a r w o).
Definition block (a : deed) : deed := fun r w o =>
  exists o', a r w o' /\ o = match o' with ONext _ w' => ONext r w' | _ => o' end.
Definition switch_block (a : deed) : deed := fun r w o =>
  exists o', a r w o' /\ o = match o' with ONext _ w' | OBroke w' => ONext r w' | _ => o' end.
Definition leave (f : W -> out) : deed := fun r w o => o = OPaused w \/ o = f w.
Definition compute {A} (d : meaning A) (k : A -> deed) : deed := fun r w o =>
  o = OPaused w
  \/ (exists w' v, d r w (Gives w' v) /\ k v r w' o)
  \/ (exists w', d r w (Ends w') /\ o = OEnded w').
Definition done : deed := fun r w o => o = ONext r w.
Definition returning (v : V) : deed := fun r w o => o = OReturned w (Some v).
Definition choice (c : meaning V) (a b : deed) : deed := compute c (fun v => if truth v then a else b).
(** A declaration changes the scope. *)
Definition extend (d : meaning E) : deed := fun r w o =>
  o = OPaused w
  \/ (exists r' w', d r w (Gives w' r') /\ o = ONext r' w')
  \/ (exists w', d r w (Ends w') /\ o = OEnded w').
(** Loops: a missing condition is true, a missing action does nothing. *)
Definition holds (c : option (meaning V)) (r : E) (w : W) (b : bool) (w' : W) : Prop :=
  match c with Some c => exists v, c r w (Gives w' v) /\ truth v = b | None => b = true /\ w' = w end.
Definition performs (a : option (meaning V)) (r : E) (w w' : W) : Prop :=
  match a with Some a => exists v, a r w (Gives w' v) | None => w' = w end.
Definition finishes (e : option (meaning V)) (r : E) (w w' : W) : Prop :=
  match e with Some e => e r w (Ends w') | None => False end.
Inductive cycle (c a : option (meaning V)) (body : deed) (r : E) : W -> out -> Prop :=
| Cycle_pause w : cycle c a body r w (OPaused w)
| Cycle_ends w w' : finishes c r w w' -> cycle c a body r w (OEnded w')
| Cycle_stop w w' : holds c r w false w' -> cycle c a body r w (ONext r w')
| Cycle_turn w w1 o1 o : holds c r w true w1 -> body r w1 o1 -> next_turn c a body r o1 o -> cycle c a body r w o
with next_turn (c a : option (meaning V)) (body : deed) (r : E) : out -> out -> Prop :=
| Turn_again o1 w w' o : o1 = OContinued w \/ (exists r', o1 = ONext r' w) -> performs a r w w' -> cycle c a body r w' o ->
    next_turn c a body r o1 o
| Turn_ends o1 w w' : o1 = OContinued w \/ (exists r', o1 = ONext r' w) -> finishes a r w w' -> next_turn c a body r o1 (OEnded w')
| Turn_break w : next_turn c a body r (OBroke w) (ONext r w)
| Turn_leave o : match o with OReturned _ _ | OEnded _ | OPaused _ => True | _ => False end -> next_turn c a body r o o.
End Blocks.
Arguments ONext {E W V}. Arguments OBroke {E W V}. Arguments OContinued {E W V}. Arguments OReturned {E W V}. Arguments OEnded {E W V}. Arguments OPaused {E W V}.
Arguments nothing {E W V}. Arguments and_then {E W V}. Arguments block {E W V}. Arguments switch_block {E W V}. Arguments leave {E W V}.
Arguments compute {E W V A}. Arguments done {E W V}. Arguments returning {E W V}. Arguments extend {E W V}. Arguments choice {E W V}. Arguments cycle {E W V}.

(** ** Calls *)
Section Calls.
Variable H : host.
Notation P := (h_place H).
Notation W := (h_world H).
Notation V := (h_value H).
(** Parameters get their places and values one after the other; the sizes in a
    declarator may use the parameters before it.  Arguments may be left for an
    ellipsis only. *)
Fixpoint enter (T : table W V) (variadic : bool) (ps : list (str * (scope P -> rdecl P))) (args : list V)
  (r : scope P) (w : W) (o : effect W (scope P)) : Prop :=
  match ps, args with
  | [], _ => (variadic = true \/ args = []) /\ exists w', h_rest H args w w' /\ o = Gives w' r
  | (x, d) :: ps, v :: args =>
      (exists w1 p w2, h_alloc H T (d r) w (Gives w1 p) /\ h_store H p v w1 w2 /\ enter T variadic ps args ((x, p) :: r) w2 o)
      \/ exists w1, h_alloc H T (d r) w (Ends w1) /\ o = Ends w1
  | _ :: _, [] => False
  end.
(** The call of a function with the given parameters, type and body.  If the body
    has got somewhere, so has the call. *)
Definition invoke (T : table W V) (variadic : bool) (ps : list (str * (scope P -> rdecl P))) (type : rdecl P)
  (body : scope P -> W -> out (scope P) W V -> Prop) (args : list V) (w : W) (o : effect W V) : Prop :=
  (exists w', enter T variadic ps args [] w (Ends w') /\ o = Ends w')
  \/ exists r w1 o1, enter T variadic ps args [] w (Gives w1 r) /\ body r w1 o1
     /\ match o1 with
        | OReturned w' v => h_result H type v w' o
        | ONext _ w' => h_result H type None w' o
        | OEnded w' => o = Ends w'
        | OPaused w' => o = Ends (h_stopped H w')
        | OBroke _ | OContinued _ => False
        end.
(** A new variable called [x], with a first value. *)
Definition new_variable (T : table W V) (x : str) (d : rdecl P) (v : option (scope P -> rx P)) : meaning (scope P) W (scope P) := fun r w o =>
  (exists w1, h_alloc H T d w (Ends w1) /\ o = Ends w1)
  \/ exists w1 p, h_alloc H T d w (Gives w1 p)
     /\ match v with
        | None => o = Gives w1 ((x, p) :: r)
        | Some v => (exists w2, h_init H T p (v ((x, p) :: r)) w1 (Gives w2 tt) /\ o = Gives w2 ((x, p) :: r))
                    \/ exists w2, h_init H T p (v ((x, p) :: r)) w1 (Ends w2) /\ o = Ends w2
        end.
(** Calls nested less than [n] deep, for a program that makes of a table of
    calls that of its functions. *)
Fixpoint calls (program : table W V -> table W V) (n : nat) : table W V :=
  match n with
  | 0 => fun _ _ _ w o => o = Ends (h_stopped H w)
  | S n => program (calls program n)
  end.
End Calls.

(** ** Files of C *)
Section Files.
Variable files : list (list celem).
Definition file (i : nat) : list celem := nth i files [].
Definition macro_in (l : list celem) (x : str) : bool :=
  existsb (fun e => match e with XMacro n v => str_eqb n (L "define") && str_in x (macro_names v) | _ => false end) l.
Definition declares_function (static : bool) (x : str) (e : celem) : bool :=
  match function_head e with
  | Some (s, _, f, _) => Bool.eqb s static && str_eqb (cf_name f) x
  | None => false
  end.
Definition declares_variable (x : str) (e : celem) : bool :=
  match e with XVar v => str_eqb (cf_name (cv_form v)) x | _ => false end.
(** The linker looks for a definition that is not static. *)
Definition exports_function (x : str) (l : list celem) : bool :=
  existsb (fun e => match e with
                    | XFunc d => negb (starts_with (format_elem (XFunc d)) (L "static ")) && str_eqb (cf_name (cfd_form d)) x
                    | _ => false
                    end) l.

Section File.
Variable i : nat.
(** The names that the function declares somewhere: no other name is local. *)
Variable locals : list str.
Context {P : Type}.
Definition local_place (r : scope P) (x : str) : option P := if str_in x locals then place_of r x else None.
Definition outer_thing (x : str) : thing P :=
  if existsb (declares_function true x) (file i) then TFunction i x
  else if existsb (declares_function false x) (file i) then
    match position (exports_function x) files with Some j => TFunction j x | None => TKnown i (UName x) end
  else if existsb (declares_variable x) (file i) then TVariable i x
  else TKnown i (UName x).
(** Macros come first, whatever a name stands for. *)
Definition c_thing (r : scope P) (x : str) : thing P :=
  if macro_in (file i) x then TKnown i (UName x)
  else match local_place r x with Some p => TLocal p | None => outer_thing x end.
Definition c_type_thing (r : scope P) (x : str) : thing P :=
  if macro_in (file i) x then TKnown i (UType x)
  else match local_place r x with Some p => TLocal p | None => TKnown i (UType x) end.
Definition c_word (x : str) : word := (if macro_in (file i) x then Some i else None, x).
Definition c_rtype (r : scope P) (t : ctypename) : rtype P := (ctn_const t, c_type_thing r (ctn_name t)).
(** A designator is that of a member or of an array element. *)
Definition member_key (k : bool * option cexpr) : option str := match k with (false, Some (CIdent y)) => Some y | _ => None end.
Fixpoint named (r : scope P) (e : cexpr) : rx P :=
  match e with
  | CLit l => RLit l
  | CIdent x => RThing (c_thing r x)
  | CComp l => RComp (map (fun x => (fst (fst x),
      match member_key (fst x) with Some y => Some (RWord (c_word y)) | None => option_map (named r) (snd (fst x)) end,
      named r (snd x))) l)
  | CBin op a b => RBin op (named r a) (named r b)
  | CField op a x => RField op (named r a) (c_word x)
  | CPrefix op a => RPrefix op (named r a)
  | CPostfix op a => RPostfix op (named r a)
  | CCast t a => RCast (c_rtype r (cbtf_type t)) (cbtf_hops t) (named r a)
  | CCall f args => RCall (named r f) (map (named r) args)
  | CSizeofT t => RSizeofT (c_rtype r (cbtf_type t)) (cbtf_hops t)
  | CSizeofE a => RSizeofE (named r a)
  | CIndex a k => RIndex (named r a) (named r k)
  end.
Definition c_rx (r : scope P) (e : cexpr) : rx P := named r (values e).
Definition c_rdecl (t : ctypename) (f : cform) (r : scope P) : rdecl P :=
  (c_rtype r t, List.length (cf_stars f), map (option_map (c_rx r)) (cf_indexes f)).
End File.

(** A function runs on a machine as in SpecExec.v. *)
Section Function.
Variables (H : host) (i : nat) (locals : list str) (T : table (h_world H) (h_value H)).
Definition c_machine : machine :=
  mkMachine (scope (h_place H)) (h_world H) (h_value H)
    (fun e r w o => h_evals H T (c_rx i locals r e) w o)
    (fun t f v r w o => new_variable H T (cf_name f) (c_rdecl i locals t f r) (option_map (fun v r => initializer (c_rx i locals r v)) v) r w o)
    (h_truth H)
    (fun x l => h_equals H x (c_rx i locals [] l))
    (fun x l r w => h_same_string H x (c_rx i locals r l) w).
End Function.
(** The names a statement declares, at any depth. *)
Fixpoint declared_names (s : cst) : list str :=
  match s with
  | XDecl _ l => map (fun d => cf_name (fst d)) l
  | XBlock l => flat_map declared_names l
  | XIf _ s e => declared_names s ++ match e with Some e => declared_names e | None => [] end
  | XWhile _ s | XSwitch _ s | XCase _ s | XDefault s => declared_names s
  | XFor i _ _ s => match i with Some (CFIDecl v) => [cf_name (cv_form v)] | _ => [] end ++ declared_names s
  | _ => []
  end.
Definition outcome_of {H i locals T} (o : out (scope (h_place H)) (h_world H) (h_value H)) : outcome (c_machine H i locals T) :=
  let M := c_machine H i locals T in
  match o with
  | ONext r w => Next M r w
  | OBroke w => Broke M w
  | OContinued w => Continued M w
  | OReturned w v => Returned M w v
  | OEnded w => Ended M w
  | OPaused w => Paused M w
  end.

(** [body i x] is a reading of the body of the function [x] in the [i]-th file. *)
Variable body : nat -> str -> cst.
Definition named_function (x : str) (d : cfuncdef) : bool := str_eqb (cf_name (cfd_form d)) x.
Definition c_program (H : host) (T : table (h_world H) (h_value H)) : table (h_world H) (h_value H) := fun i x args w o =>
  exists d, find (named_function x) (functions (file i)) = Some d
    /\ let ps := cfp_list (cfd_params d) in
       let locals := map (fun p => cf_name (ctf_form p)) ps ++ declared_names (body i x) in
       invoke H T (cfp_variadic (cfd_params d))
         (map (fun p => (cf_name (ctf_form p), c_rdecl i locals (ctf_type p) (ctf_form p))) ps)
         (c_rdecl i [] (cfd_type d) (cfd_form d) [])
         (fun r w o => c_runs (c_machine H i locals T) (body i x) r w (outcome_of o)) args w o.
(** The program: the variables get their values, then main is called. *)
Definition c_statics (P : Type) : list (nat * str * rdecl P * rx P) :=
  flat_map (fun i => flat_map (fun e =>
    match e with
    | XVar v => [(i, cf_name (cv_form v), c_rdecl i [] (cv_type v) (cv_form v) [], initializer (c_rx i [] [] (cv_value v)))]
    | _ => []
    end) (file i)) (List.seq 0 (List.length files)).
Definition c_start (H : host) (args : list (h_value H)) (w : h_world H) (o : effect (h_world H) (h_value H)) : Prop :=
  exists w1 i n, h_statics H (c_statics (h_place H)) w w1 /\ position (exports_function (L "main")) files = Some i
    /\ calls H (c_program H) n i (L "main") args w1 o.
End Files.

(** ** Modules of the source *)
Section Modules.
Variables (heads : list modinfo) (mods : list module_).
(** The module that an import clause of the [i]-th one leads to. *)
Definition import_index (i : nat) (q : str) : option nat :=
  match nth_error heads i with
  | Some h => match find (fun r => str_eqb (r_ns r) q) (mi_imports h) with
              | Some r => position (fun h => str_eqb (mi_filepath h) (r_path r)) heads
              | None => None
              end
  | None => None
  end.
Definition id_of (i : nat) : str := match nth_error heads i with Some h => mi_uniqid h | None => [] end.
Definition elems_of (i : nat) : list modelem := match nth_error mods i with Some m => mod_elements m | None => [] end.
(** Functions, variables and constants of a module; pub ones have a prefix in C,
    main has not. *)
Definition function_label (i : nat) (f : funcdecl) : str :=
  let x := f_name (fd_form f) in if fd_pub f && negb (str_eqb x (L "main")) then global_name (id_of i) x else x.
Definition is_variable (x : str) (e : modelem) : bool := match e with MVar v => str_eqb (f_name (v_form v)) x | _ => false end.
Definition is_pub_constant (x : str) (e : modelem) : bool :=
  match e with MEnum d => enum_pub d && existsb (fun en => str_eqb (en_name en) x) (enum_entries d) | _ => false end.
Definition module_thing {P} (i : nat) (x : str) : thing P :=
  match find (fun f => str_eqb (f_name (fd_form f)) x) (source_functions (elems_of i)) with
  | Some f => TFunction i (function_label i f)
  | None => if existsb (is_variable x) (elems_of i) then TVariable i x
            else TKnown i (UName (if existsb (is_pub_constant x) (elems_of i) then global_name (id_of i) x else x))
  end.
(** A type of a module: pub ones have a prefix in C. *)
Definition is_pub_typedef (x : str) (e : modelem) : bool :=
  match e with
  | MTypedef t => td_pub t && str_eqb (td_alias t) x
  | MStruct s => st_pub s && str_eqb (st_name s) x
  | MStructAlias a => sa_pub a && str_eqb (sa_typename a) x
  | _ => false
  end.
Definition module_type {P} (i : nat) (x : str) : thing P :=
  TKnown i (UType (if existsb (is_pub_typedef x) (elems_of i) then global_name (id_of i) x else x)).

Section Module.
Variable i : nat.
Context {P : Type}.
(** A name in a function: the nearest local variable, else what the module
    declares, else something of the library. *)
Definition s_thing (r : scope P) (n : nsname) : thing P :=
  if str_eqb (ns_ns n) (L "OS") then TKnown i (UName (ns_name n))
  else if str_eqb (ns_ns n) [] then
    match place_of r (ns_name n) with Some p => TLocal p | None => module_thing i (ns_name n) end
  else match import_index i (ns_ns n) with Some j => module_thing j (ns_name n) | None => TKnown i (UName (ns_name n)) end.
(** A type; unqualified, the types of C come first. *)
Definition s_rtype (t : typename) : rtype P :=
  let n := tn_name t in
  (tn_const t,
   if str_eqb (ns_ns n) (L "OS") then TKnown i (UType (ns_name n))
   else if str_eqb (ns_ns n) [] then (if Cspec.has_type (ns_name n) then TKnown i (UType (ns_name n)) else module_type i (ns_name n))
   else match import_index i (ns_ns n) with Some j => module_type j (ns_name n) | None => TKnown i (UType (ns_name n)) end).
Definition s_key (k : expr) : rx P := RWord (None, match k with EName n => ns_name n | _ => [] end).
(** [calloc!] calls a function that the module gets with it. *)
Definition new_name : str := L "calloc_or_panic".
Fixpoint s_rx (r : scope P) (e : expr) : rx P :=
  match e with
  | ELit l => RLit (literal_value (c_lit l))
  | EName n => RThing (s_thing r n)
  | EArrIndex a k => RIndex (s_rx r a) (s_rx r k)
  | EBinary _ op a b => RBin op (s_rx r a) (s_rx r b)
  | EField _ op a x => RField op (s_rx r a) (None, x)
  | EComp l => RComp (map (fun x => (fst (fst x), option_map s_key (snd (fst x)), s_rx r (snd x))) l)
  | EPrefix _ op a => RPrefix op (s_rx r a)
  | EPostfix op a => RPostfix op (s_rx r a)
  | ECast t a => RCast (s_rtype (btf_type t)) (btf_hops t) (s_rx r a)
  | ECall _ f args => RCall (if is_name f "calloc!" then RThing (TFunction i new_name) else s_rx r f) (map (s_rx r) args)
  | ESizeofE a => RSizeofE (s_rx r a)
  | ESizeofT t => RSizeofT (s_rtype (btf_type t)) (btf_hops t)
  end.
Definition s_rdecl (t : typename) (f : form) (r : scope P) : rdecl P := (s_rtype t, f_hops f, map (option_map (s_rx r)) (f_indexes f)).
Definition s_label (r : scope P) (v : switch_value) : rx P :=
  match v with SVIdent n => RThing (s_thing r n) | SVLit l => RLit (literal_value (c_lit l)) end.
(** Panicking: three messages and the end of the program. *)
Definition library_call (f : string) (args : list (rx P)) : rx P := RCall (RThing (TKnown i (UName (lit f)))) args.
Definition stderr : rx P := RThing (TKnown i (UName (L "stderr"))).
Definition s_panic (p : pos) (args : list expr) : list (scope P -> rx P) :=
  let at_ := match nth_error heads i with Some h => mi_filepath h | None => [] end ++ L ":" ++ dec (p_line p) ++ L ":" ++ dec (p_col p) in
  [ fun r => library_call "fprintf" [stderr; RLit (CLString (string_value (L "*** panic at %s ***\n"))); RLit (CLString (string_value at_))];
    fun r => library_call "fprintf" (stderr :: map (s_rx r) args);
    fun r => library_call "fprintf" [stderr; RLit (CLString (string_value (L "\n")))];
    fun r => library_call "exit" [RLit (CLNumber (L "1"))] ].
End Module.

(** Statements. *)
Section Statements.
Variables (H : host) (i : nat) (T : table (h_world H) (h_value H)).
Notation P := (h_place H).
Notation W := (h_world H).
Notation V := (h_value H).
Notation act := (deed (scope P) W V).
Definition evaluate (e : scope P -> rx P) : meaning (scope P) W V := fun r w o => h_evals H T (e r) w o.
Definition value_of (e : expr) : meaning (scope P) W V := evaluate (fun r => s_rx i r e).
Definition s_variable (t : typename) (f : form) (v : option expr) : act :=
  extend (fun r w o => new_variable H T (f_name f) (s_rdecl i t f r) (option_map (fun v r => initializer (s_rx i r v)) v) r w o).
Definition s_init (x : option forinit) : act :=
  match x with
  | None => nothing
  | Some (FIExpr e) => compute (value_of e) (fun _ => done)
  | Some (FIDecl t f e) => s_variable t f (Some e)
  end.
Fixpoint s_does (s : stmt) : act :=
  let body := fix body (l : list stmt) : act := match l with [] => nothing | s :: l => and_then (s_does s) (body l) end in
  let choose := fun (same : switch_value -> bool) (def : option (list stmt)) (as_block : act -> act) =>
    fix choose (cases : list (list switch_value * list stmt)) : act :=
    match cases with
    | c :: l => if existsb same (fst c) then as_block (body (snd c)) else choose l
    | [] => match def with Some b => as_block (body b) | None => done end
    end in
  match s with
  | SBreak => leave OBroke
  | SContinue => leave OContinued
  | SExpr e =>
      match e with
      | ECall _ (EName n as f) args =>
          if is_name f "panic" then
            block (fold_right (fun e b => and_then (compute (evaluate e) (fun _ => done)) b) nothing (s_panic i (ns_pos n) args))
          else compute (value_of e) (fun _ => done)
      | _ => compute (value_of e) (fun _ => done)
      end
  | SVarDecl v => s_variable (v_type v) (v_form v) (v_value v)
  | SIf c b e => choice (h_truth H) (value_of c) (block (body b)) (match e with Some b => block (body b) | None => done end)
  | SWhile c b => cycle (h_truth H) (Some (value_of c)) None (block (body b))
  | SFor x c a b =>
      block (and_then (s_init x) (cycle (h_truth H) (option_map value_of c) (option_map value_of a) (block (body b))))
  | SReturn e => match e with Some e => compute (value_of e) returning | None => leave (fun w => OReturned w None) end
  | SSwitch false v cases def => compute (value_of v) (fun x =>
      choose (fun l => h_equals H x (s_label i [] l)) def switch_block cases)
  | SSwitch true v cases def => compute (value_of v) (fun x => fun r w =>
      choose (fun l => h_same_string H x (s_label i r l) w) def block cases r w)
  end.
Fixpoint s_body (l : list stmt) : act := match l with [] => nothing | s :: l => and_then (s_does s) (s_body l) end.
End Statements.

(** The function that a module with [calloc!] gets:
    void *calloc_or_panic(size_t count, size_t size) {
      void *x = OS.calloc(count, size);
      if (!x) { OS.fprintf(OS.stderr, "calloc failed"); OS.exit(1); }
      return x;
    } *)
Definition new_function : funcdecl :=
  let p := mkPos 0 0 in
  let os := fun x : string => mkNs p (L "OS") (lit x) in
  let var := fun x : string => EName (mkNs p [] (lit x)) in
  let ty := fun x : string => mkTn false (os x) in
  let fm := fun (n : nat) (x : string) => mkForm p (lit x) n [] in
  mkFunc p false (ty "void"%string) (fm 1 "calloc_or_panic"%string)
    (mkFp [mkTaf (ty "size_t"%string) [fm 0 "count"%string]; mkTaf (ty "size_t"%string) [fm 0 "size"%string]] false)
    [ SVarDecl (mkVar p (ty "void"%string) (fm 1 "x"%string) (Some (ECall p (EName (os "calloc"%string)) [var "count"%string; var "size"%string])));
      SIf (EPrefix p "!"%string (var "x"%string))
          [ SExpr (ECall p (EName (os "fprintf"%string)) [EName (os "stderr"%string); ELit (LString (L "calloc failed"))]);
            SExpr (ECall p (EName (os "exit"%string)) [ELit (LNumber (L "1"))]) ] None;
      SReturn (Some (var "x"%string)) ].
Definition s_function (i : nat) (x : str) (f : funcdecl) : Prop :=
  (x = new_name /\ calls_calloc (elems_of i) /\ f = new_function)
  \/ find (fun f => str_eqb (function_label i f) x) (source_functions (elems_of i)) = Some f.
Definition s_program (H : host) (T : table (h_world H) (h_value H)) : table (h_world H) (h_value H) := fun i x args w o =>
  exists f, s_function i x f
    /\ invoke H T (fp_ellipsis (fd_params f))
         (flat_map (fun t => map (fun g => (f_name g, s_rdecl i (taf_type t) g)) (taf_forms t)) (fp_list (fd_params f)))
         (s_rdecl i (fd_type f) (fd_form f) [])
         (block (s_body H i T (fd_body f))) args w o.
Definition s_statics (P : Type) : list (nat * str * rdecl P * rx P) :=
  flat_map (fun i => flat_map (fun e =>
    match e with
    | MVar v => match v_value v with
                | Some x => [(i, f_name (v_form v), s_rdecl i (v_type v) (v_form v) [], initializer (s_rx i [] x))]
                | None => []
                end
    | _ => []
    end) (elems_of i)) (List.seq 0 (List.length mods)).
(** A program starts with main, which returns neither a pointer nor an array. *)
Definition is_start (f : funcdecl) : bool :=
  str_eqb (f_name (fd_form f)) (L "main") && (f_hops (fd_form f) =? 0) && match f_indexes (fd_form f) with [] => true | _ => false end.
Definition has_main (m : module_) : bool := existsb is_start (source_functions (mod_elements m)).
Definition s_start (H : host) (args : list (h_value H)) (w : h_world H) (o : effect (h_world H) (h_value H)) : Prop :=
  exists w1 i n, h_statics H (s_statics (h_place H)) w w1 /\ position has_main mods = Some i
    /\ calls H (s_program H) n i (L "main") args w1 o.
End Modules.

(** ** What is asked of a host *)
Section Laws.
Variables (files : list (list celem)) (H : host).
Notation P := (h_place H).
Notation W := (h_world H).
Notation V := (h_value H).
(** What a name stands for in a file depends on what the file has for it. *)
Inductive same_thing : thing P -> thing P -> Prop :=
| Same_thing x : same_thing x x
| Same_known i j u : alike (file files i) (file files j) (IUse u) -> same_thing (TKnown i u) (TKnown j u).
Definition same_type (t t' : rtype P) : Prop := fst t = fst t' /\ same_thing (snd t) (snd t').
Inductive same_rx : rx P -> rx P -> Prop :=
| Same_lit l : same_rx (RLit l) (RLit l)
| Same_ref x y : same_thing x y -> same_rx (RThing x) (RThing y)
| Same_word x : same_rx (RWord x) (RWord x)
| Same_comp l l' : same_entries l l' -> same_rx (RComp l) (RComp l')
| Same_bin op a a' b b' : same_rx a a' -> same_rx b b' -> same_rx (RBin op a b) (RBin op a' b')
| Same_field op a a' x : same_rx a a' -> same_rx (RField op a x) (RField op a' x)
| Same_prefix op a a' : same_rx a a' -> same_rx (RPrefix op a) (RPrefix op a')
| Same_postfix op a a' : same_rx a a' -> same_rx (RPostfix op a) (RPostfix op a')
| Same_cast t t' n a a' : same_type t t' -> same_rx a a' -> same_rx (RCast t n a) (RCast t' n a')
| Same_call f f' l l' : same_rx f f' -> same_list l l' -> same_rx (RCall f l) (RCall f' l')
| Same_sizeof_t t t' n : same_type t t' -> same_rx (RSizeofT t n) (RSizeofT t' n)
| Same_sizeof_e a a' : same_rx a a' -> same_rx (RSizeofE a) (RSizeofE a')
| Same_index a a' b b' : same_rx a a' -> same_rx b b' -> same_rx (RIndex a b) (RIndex a' b')
with same_list : list (rx P) -> list (rx P) -> Prop :=
| Same_nil : same_list [] []
| Same_cons a a' l l' : same_rx a a' -> same_list l l' -> same_list (a :: l) (a' :: l')
with same_entries : list (bool * option (rx P) * rx P) -> list (bool * option (rx P) * rx P) -> Prop :=
| Same_none : same_entries [] []
| Same_entry b a a' l l' : same_rx a a' -> same_entries l l' -> same_entries ((b, None, a) :: l) ((b, None, a') :: l')
| Same_key b k k' a a' l l' : same_rx k k' -> same_rx a a' -> same_entries l l' -> same_entries ((b, Some k, a) :: l) ((b, Some k', a') :: l').
Definition same_size (a b : option (rx P)) : Prop :=
  match a, b with Some a, Some b => same_rx a b | None, None => True | _, _ => False end.
Definition same_rdecl (d d' : rdecl P) : Prop :=
  same_type (fst (fst d)) (fst (fst d')) /\ snd (fst d) = snd (fst d') /\ Forall2 same_size (snd d) (snd d').
Definition same_static (x y : nat * str * rdecl P * rx P) : Prop :=
  fst (fst x) = fst (fst y) /\ same_rdecl (snd (fst x)) (snd (fst y)) /\ same_rx (snd x) (snd y).
Definition same_table (T T' : table W V) : Prop := forall i x args w o, T i x args w o <-> T' i x args w o.

(** As in SpecExec.v: evaluating gives a value and changes nothing; decides [b]
    and changes nothing; comes to nothing. *)
Definition gives (T : table W V) (e : rx P) (w : W) (v : V) : Prop := forall o, h_evals H T e w o <-> o = Gives w v.
Definition decides_on (T : table W V) (e : rx P) (w : W) (b : bool) : Prop :=
  (forall o, h_evals H T e w o -> exists v, o = Gives w v /\ h_truth H v = b)
  /\ exists v, h_evals H T e w (Gives w v) /\ h_truth H v = b.
Definition comes_to_nothing (T : table W V) (e : rx P) (w : W) : Prop := forall o, ~ h_evals H T e w o.
(** No calls, assignments, increments, decrements, and no macros, which could
    hide them. *)
Definition assignments : list string := ["="; "+="; "-="; "/="; "*="; "|="; "%="; "&="; "^="; "<<="; ">>="]%string.
Fixpoint calm (e : rx P) : Prop :=
  match e with
  | RLit _ | RWord _ | RSizeofT _ _ => True
  | RThing (TKnown i (UName x)) => macro_in (file files i) x = false
  | RThing _ => True
  | RBin op a b => ~ In op assignments /\ calm a /\ calm b
  | RPrefix op a => ~ In op ["++"; "--"]%string /\ calm a
  | RField _ a _ | RCast _ _ a | RSizeofE a => calm a
  | RIndex a b => calm a /\ calm b
  | RComp _ | RPostfix _ _ | RCall _ _ => False
  end.
(** The file has nothing for the name but what a header of C declares. *)
Definition from_header (i : nat) (h x : string) : Prop :=
  In (XInclude (L "<" ++ lit h ++ L ".h>")) (file files i)
  /\ forall e, In e (file files i) -> In (IUse (UName (lit x))) (introduces e) -> exists h, e = XInclude h.
Definition strcmp_of (i : nat) (a b : rx P) : rx P := RCall (RThing (TKnown i (UName (L "strcmp")))) [a; b].
Record lawful : Prop := {
  law_evals : forall T T' e e', same_table T T' -> same_rx e e' -> forall w o, h_evals H T e w o <-> h_evals H T' e' w o;
  law_alloc : forall T T' d d', same_table T T' -> same_rdecl d d' -> forall w o, h_alloc H T d w o <-> h_alloc H T' d' w o;
  law_init : forall T T' p e e', same_table T T' -> same_rx e e' -> forall w o, h_init H T p e w o <-> h_init H T' p e' w o;
  law_result : forall d d' v, same_rdecl d d' -> forall w o, h_result H d v w o <-> h_result H d' v w o;
  law_statics : forall l l', Forall2 same_static l l' -> forall w w', h_statics H l w w' <-> h_statics H l' w w';
  law_equals : forall x e e', same_rx e e' -> h_equals H x e = h_equals H x e';
  law_same_string : forall x e e', same_rx e e' -> forall w, h_same_string H x e w = h_same_string H x e' w;
  (* the meaning of [!], [||] (6.5.3.3, 6.5.14) and strcmp (7.21.4.2) *)
  law_not : forall T e w b, decides_on T e w b -> decides_on T (RPrefix "!" e) w (negb b);
  law_or : forall T e e' w b b', decides_on T e w b -> decides_on T e' w b' -> decides_on T (RBin "||" e e') w (b || b');
  law_strcmp : forall i T l e w v, from_header i "string" "strcmp" -> gives T e w v ->
    decides_on T (strcmp_of i l e) w (negb (h_same_string H v l w));
  law_not_nothing : forall T e w, comes_to_nothing T e w -> comes_to_nothing T (RPrefix "!" e) w;
  law_or_nothing : forall T e e' w, comes_to_nothing T e w -> comes_to_nothing T (RBin "||" e e') w;
  law_strcmp_nothing : forall i T l e w, from_header i "string" "strcmp" -> comes_to_nothing T e w -> comes_to_nothing T (strcmp_of i l e) w;
  (* evaluating a calm expression changes nothing, if it comes to anything *)
  law_calm : forall T e, calm e -> forall w, (exists v, gives T e w v) \/ comes_to_nothing T e w }.
End Laws.

(** ** Sources *)
Section Discreet.
Variable pr : Build.project.
Variable system : cuse -> Prop.
(** The local names of a function. *)
Fixpoint stmt_names (s : stmt) : list str :=
  match s with
  | SVarDecl v => [f_name (v_form v)]
  | SIf _ b e => flat_map stmt_names b ++ match e with Some b => flat_map stmt_names b | None => [] end
  | SFor i _ _ b => match i with Some (FIDecl _ f _) => [f_name f] | _ => [] end ++ flat_map stmt_names b
  | SWhile _ b => flat_map stmt_names b
  | SSwitch _ _ cs d => flat_map (fun c => flat_map stmt_names (snd c)) cs ++ match d with Some b => flat_map stmt_names b | None => [] end
  | _ => []
  end.
Definition local_names (f : funcdecl) : list str := param_names (fd_params f) ++ flat_map stmt_names (fd_body f).
(** No macro. *)
Definition no_macro (x : str) : Prop := ~ In x (map lit added) /\ forall a, ~ macro_of pr a x.
(** No calls, assignments, increments, decrements, macros. *)
Fixpoint calm_expr (e : expr) : Prop :=
  match e with
  | ELit _ | ESizeofT _ => True
  | EName n => no_macro (ns_name n)
  | EBinary _ op a b => ~ In op assignments /\ calm_expr a /\ calm_expr b
  | EPrefix _ op a => ~ In op ["++"; "--"]%string /\ calm_expr a
  | EField _ _ a _ | ECast _ a | ESizeofE a => calm_expr a
  | EArrIndex a b => calm_expr a /\ calm_expr b
  | EComp _ | EPostfix _ _ | ECall _ _ _ => False
  end.
(** The names of members are no macros. *)
Definition plain_members (e : expr) : Prop :=
  match e with
  | EField _ _ _ x => no_macro x
  | EComp l => all (fun x => match snd (fst x) with Some (EName n) => no_macro (ns_name n) | _ => True end) l
  | _ => True
  end.
(** The labels of a switch are no local names, the subject of a [switch str]
    changes nothing. *)
Definition plain_switch (locals : list str) (s : stmt) : Prop :=
  match s with
  | SSwitch false _ cs _ => all (fun c => all (fun v => match v with SVIdent n => ns_ns n = [] -> ~ In (ns_name n) locals | SVLit _ => True end) (fst c)) cs
  | SSwitch true v _ _ => calm_expr v
  | _ => True
  end.
Record discreet : Prop := {
  (* a local name is none that the C code needs for something else *)
  discreet_local : forall i h m cm f x, unit_at pr i h m cm -> In (MFunc f) (mod_elements m) -> In x (local_names f) ->
    ~ In x (map lit (["strcmp"; "fprintf"; "stderr"; "exit"] ++ library_types))%string
    /\ no_macro x /\ ~ system (UName x) /\ ~ system (UType x)
    /\ (forall e b, In e (mod_elements m) -> ~ type_of_elem e b x)
    /\ forall j h' m' cm' e y, unit_at pr j h' m' cm' -> In e (mod_elements m') -> of_elem e true y -> x <> global_name (mi_uniqid h') y;
  discreet_members : forall i h m cm e, unit_at pr i h m cm -> In e (mod_elements m) -> each_elem plain_members (fun _ => True) e;
  discreet_switch : forall i h m cm f, unit_at pr i h m cm -> In (MFunc f) (mod_elements m) ->
    all (each_stmt (fun _ => True) (plain_switch (local_names f))) (fd_body f);
  (* no function returns a type called static *)
  discreet_static : forall i h m cm f, unit_at pr i h m cm -> In (MFunc f) (mod_elements m) -> starts_with (ns_name (tn_name (fd_type f))) (L "static") = false;
  (* a module with [calloc!] does not call anything like the function it gets, nor
     are the names in that function macros *)
  discreet_new : forall i h m cm, unit_at pr i h m cm -> calls_calloc (mod_elements m) ->
    (forall e b, In e (mod_elements m) -> ~ of_elem e b new_name)
    /\ forall x, In x ["count"; "size"; "x"]%string -> no_macro (lit x) }.
End Discreet.
(** Readings of the bodies of functions. *)
Definition readings (types : nat -> str -> bool) (files : list (list celem)) (body : nat -> str -> cst) : Prop :=
  forall i d, In (XFunc d) (file files i) ->
  exists toks, reads (format_body (cfd_body d)) toks [] /\ c_stmt_of (types i) toks (body i (cf_name (cfd_form d))).
