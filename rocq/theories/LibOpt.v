(** Model of lib/opt.c, without the texts on the error output. *)
From Coq Require Export ZArith.
From Verif Require Import LibBase LibIO LibText.
Local Open Scope N_scope.

(** lib/opt.c:4-10: the types of options. *)
Inductive opt_type := OptStr | OptInt | OptBool | OptSize | OptFloat.
Definition opt_type_eqb (a b : opt_type) : bool :=
  match a, b with
  | OptStr, OptStr | OptInt, OptInt | OptBool, OptBool | OptSize, OptSize | OptFloat, OptFloat => true
  | _, _ => false
  end.

(** lib/opt.c:15-20 [optspec_t], without [desc]; a pointer is a number. *)
Record optspec := mkSpec { os_type : opt_type; os_name : bytes; os_pointer : nat }.

(** Why the program ends with status 1. *)
Inductive opt_exit := LongName | TooManyFlags | Usage | UnknownFlag (c : byte) | NeedsValue (c : byte)
  | NotNumeric | Negative | BadValue | BadGroup | BadCount.
(** [OUndefined]: C does not say what happens. *)
Inductive ores (A : Type) := ODone (a : A) | OExit (why : opt_exit) | OUndefined.
Arguments ODone {A}. Arguments OExit {A}. Arguments OUndefined {A}.
Definition obind {A B} (x : ores A) (f : A -> ores B) : ores B :=
  match x with ODone a => f a | OExit w => OExit w | OUndefined => OUndefined end.

(** lib/opt.c:54-69 [declare]. *)
Definition declare (specs : list optspec) (t : opt_type) (name : bytes) (pointer : nat) : ores (list optspec) :=
  if Nat.ltb 1 (List.length name) then OExit LongName
  else if Nat.leb 32 (List.length specs) then OExit TooManyFlags
  else ODone (specs ++ [mkSpec t name pointer]).

(** lib/opt.c:238-246 [find]; the first char of an empty name is the terminator. *)
Fixpoint opt_find (specs : list optspec) (c : byte) : option optspec :=
  match specs with
  | [] => None
  | s :: r => if nth 0 (os_name s) 0 =? c then Some s else opt_find r c
  end.

(** lib/opt.c:291-299 [is_numeric]. *)
Definition is_numeric (s : bytes) : bool :=
  forallb c_isdigit (match s with c :: r => if c =? 45 then r else s | [] => s end).

(** [sscanf] of C with "%d" and "%zu", on a text that [is_numeric] took: no number, a
    number, or (the inner [None]) a number too big for its type. *)
Definition dec_value (ds : bytes) : Z := fold_left (fun v d => (10 * v + Z.of_N (d - 48))%Z) ds 0%Z.
Definition scan_int (s : bytes) : option (option Z) :=
  let v := match s with
           | [] => None
           | c :: r => if c =? 45 then (match r with [] => None | _ => Some (- dec_value r)%Z end) else Some (dec_value s)
           end in
  option_map (fun v => if ((-2147483648 <=? v) && (v <=? 2147483647))%Z then Some v else None) v.
Definition scan_size (s : bytes) : option (option Z) :=
  match s with
  | [] => None
  | _ => Some (if (dec_value s <=? 18446744073709551615)%Z then Some (dec_value s) else None)
  end.

Section Floats.
  (** What [sscanf] makes of a text with "%f": the type of floats and the function are
      not modelled. *)
  Variable F : Type.
  Variable scan_float : bytes -> option F.

  Inductive oval := VStr (s : bytes) | VInt (z : Z) | VBool (b : bool) | VSize (z : Z) | VFloat (f : F).

  (** lib/opt.c:190-234 [set_flag]: the value written through the pointer of [spec]. *)
  Definition set_flag (spec : optspec) (arg : bytes) : ores (nat * oval) :=
    match os_type spec with
    | OptStr => ODone (os_pointer spec, VStr arg)
    | OptInt | OptSize =>
        if negb (is_numeric arg) then OExit NotNumeric
        else if opt_type_eqb (os_type spec) OptSize && (nth 0 arg 0 =? 45) then OExit Negative
        else if opt_type_eqb (os_type spec) OptSize then
          match scan_size arg with None => OExit BadValue | Some None => OUndefined | Some (Some v) => ODone (os_pointer spec, VSize v) end
        else
          match scan_int arg with None => OExit BadValue | Some None => OUndefined | Some (Some v) => ODone (os_pointer spec, VInt v) end
    | OptFloat => match scan_float arg with None => OExit BadValue | Some f => ODone (os_pointer spec, VFloat f) end
    | OptBool => OExit BadValue
    end.

  (** lib/opt.c:171-188 [boolrun]: what is written, in order. *)
  Fixpoint boolrun (specs : list optspec) (arg : bytes) : ores (list (nat * oval)) :=
    match arg with
    | [] => ODone []
    | c :: r =>
        match opt_find specs c with
        | None => if c =? 104 then OExit Usage else OExit (UnknownFlag c)
        | Some flag =>
            if negb (opt_type_eqb (os_type flag) OptBool) then OExit (NeedsValue c)
            else obind (boolrun specs r) (fun l => ODone ((os_pointer flag, VBool true) :: l))
        end
    end.

  (** lib/opt.c:145-169 [readarg] on the argument whose second char is [c]; [rest] are the
      arguments behind it: what is written, and whether the next argument is taken. *)
  Definition readarg (specs : list optspec) (c : byte) (rest : list bytes) : ores ((nat * oval) * bool) :=
    match opt_find specs c with
    | None => if c =? 104 then OExit Usage else OExit (UnknownFlag c)
    | Some flag =>
        if opt_type_eqb (os_type flag) OptBool then ODone ((os_pointer flag, VBool true), false)
        else match rest with
             | [] => OExit (NeedsValue c)
             | v :: _ => obind (set_flag flag v) (fun w => ODone (w, true))
             end
    end.

  (** lib/opt.c:98-116: the loop of [parse]: what is written, in order, and the arguments
      left. *)
  Fixpoint opt_loop (specs : list optspec) (args : list bytes) : ores (list (nat * oval) * list bytes) :=
    match args with
    | [] => ODone ([], [])
    | arg :: rest =>
        if bytes_eqb arg [45] || negb (nth 0 arg 0 =? 45) then ODone ([], args)
        else if Nat.ltb 2 (List.length arg) then
          obind (boolrun specs (skipn 1 arg)) (fun l => obind (opt_loop specs rest) (fun '(k, left_) => ODone (l ++ k, left_)))
        else if Nat.eqb (List.length arg) 2 then
          obind (readarg specs (nth 1 arg 0) rest) (fun '(w, took) =>
            obind (match took, rest with true, _ :: rest' => opt_loop specs rest' | _, _ => opt_loop specs rest end)
              (fun '(k, left_) => ODone (w :: k, left_)))
        else OExit BadGroup
    end.

  (** lib/opt.c:93-143 [parse] on the arguments behind the name of the program;
      [expect_nargs] is [None] when it was not set. *)
  Definition opt_parse (specs : list optspec) (expect_nargs : option nat) (args : list bytes) : ores (list (nat * oval) * list bytes) :=
    obind (opt_loop specs args) (fun '(l, left_) =>
      match expect_nargs with
      | None => ODone (l, left_)
      | Some n =>
          if Nat.eqb n 0 && Nat.ltb 0 (List.length left_) then OExit BadCount
          else if negb (Nat.eqb (List.length left_) n) then OExit BadCount
          else ODone (l, left_)
      end).
End Floats.
Arguments VStr {F}. Arguments VInt {F}. Arguments VBool {F}. Arguments VSize {F}. Arguments VFloat {F}.

(** * Subcommands *)

(** lib/opt.c:303-317 [addcmd]: the array has ten places; a function is a number. *)
Definition addcmd (cmds : list (bytes * nat)) (name : bytes) (f : nat) : ores (list (bytes * nat)) :=
  if Nat.ltb (List.length cmds) 10 then ODone (cmds ++ [(name, f)]) else OUndefined.

(** lib/opt.c:326-333: the loop of [dispatch]. *)
Fixpoint cmd_find (cmds : list (bytes * nat)) (name : bytes) : option nat :=
  match cmds with [] => None | (n, f) :: r => if bytes_eqb n name then Some f else cmd_find r name end.
(** lib/opt.c:319-335 [dispatch]: the function called and its arguments, or [None] for the
    status 1 with a message. *)
Definition dispatch (cmds : list (bytes * nat)) (argv : list bytes) : option (nat * list bytes) :=
  match argv with
  | _ :: ((name :: _) as args) => option_map (fun f => (f, args)) (cmd_find cmds name)
  | _ => None
  end.
