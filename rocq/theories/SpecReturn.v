(** Bodies that the compiler's check for a missing return is right about. *)
From Verif Require Import Base Buf Nodes CAst SpecDecl SpecTarget SpecTyping SpecExec.

(** A break in the statement that leaves the loop or switch around it.
    ([switch str] is a chain of ifs.) *)
Inductive breaks : stmt -> Prop :=
| Breaks_here : breaks SBreak
| Breaks_then c b e s : In s b -> breaks s -> breaks (SIf c b e)
| Breaks_else c b e s : In s e -> breaks s -> breaks (SIf c b (Some e))
| Breaks_case v cases def c s : In c cases -> In s (snd c) -> breaks s -> breaks (SSwitch true v cases def)
| Breaks_default v cases def s : In s def -> breaks s -> breaks (SSwitch true v cases (Some def)).
Definition unbroken (l : list stmt) : Prop := forall s, In s l -> ~ breaks s.

(** If the body ends in an if, that has an else part, which ends in a return as
    well; if in a loop, it is [while (true)], where [true] is not a variable, and
    no break leaves it; if in a switch, no break leaves it. *)
Inductive thorough (G : list decl) : list stmt -> Prop :=
| Thorough_more s s' r : thorough (declares s ++ G) (s' :: r) -> thorough G (s :: s' :: r)
| Thorough_last s : thorough_end G s -> thorough G [s]
with thorough_end (G : list decl) : stmt -> Prop :=
| Thorough_return e : thorough_end G (SReturn e)
| Thorough_expr e : thorough_end G (SExpr e)
| Thorough_if c b e : thorough G b -> closes e -> thorough G e -> thorough_end G (SIf c b (Some e))
| Thorough_while c b : is_name c "true" = true -> look (L "true") G = None -> unbroken b -> thorough_end G (SWhile c b)
| Thorough_switch is_str v cases def :
    (forall c, In c cases -> thorough G (snd c) /\ (is_str = false -> unbroken (snd c))) ->
    thorough G def -> (is_str = false -> unbroken def) -> thorough_end G (SSwitch is_str v cases (Some def)).

(** [true] is true and exit does not come back. *)
Record knows_exit (M : machine) : Prop := {
  c_true : forall r w o, evals M (CIdent (L "true")) r w o -> exists w' v, o = Gives w' v /\ truth M v = true;
  c_exit : forall args r w o, evals M (call "exit" args) r w o -> exists w', o = Ends w' }.
