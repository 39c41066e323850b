(** When a module is accepted, as a predicate on its source and its imports. *)
From Verif Require Import Base Buf Nodes Types Resolve Preparser Parser CAst Translator SpecDecl SpecScope SpecTypes
  SpecTarget SpecTyping.

(** The first loaded module of that path has been translated: [done] of the
    loaded modules have, in order. *)
Definition translated (heads : list modinfo) (done : nat) (path : str) : Prop :=
  exists before h after, heads = before ++ h :: after /\ mi_filepath h = path
    /\ (forall x, In x before -> mi_filepath x <> path)
    /\ List.length before < done.

(** Names and types are right, nothing is declared twice, nothing private is
    unused, the imports are there and used. *)
Definition in_order (S : site) (numeric : str -> bool) (heads : list modinfo) (done : nat) : Prop :=
  ok_elems S numeric
  /\ declared_once [] (in_module (elements S))
  /\ all_used (in_module (elements S))
  /\ forall imp, In imp (mi_imports (own S)) ->
       translated heads done (r_path imp)
       /\ r_ns imp <> [] /\ r_ns imp <> L "OS"
       /\ exists r, refers r (in_module (elements S)) /\ ns_ns (ref_name r) = r_ns imp.

(** Statement [st] occurs in a list of statements at a place where the
    declarations [G'] are in force, [G] being in force before the list. *)
Inductive occurs (G' : list decl) (st : stmt) : list decl -> list stmt -> Prop :=
| Occ_here r : occurs G' st G' (st :: r)
| Occ_after G s r : occurs G' st (declares s ++ G) r -> occurs G' st G (s :: r)
| Occ_then G c b e r : occurs G' st G b -> occurs G' st G (SIf c b e :: r)
| Occ_else G c b e r : occurs G' st G e -> occurs G' st G (SIf c b (Some e) :: r)
| Occ_for G i c a b r : occurs G' st (init_declares i ++ G) b -> occurs G' st G (SFor i c a b :: r)
| Occ_while G c b r : occurs G' st G b -> occurs G' st G (SWhile c b :: r)
| Occ_case G k v cs d c r : In c cs -> occurs G' st G (snd c) -> occurs G' st G (SSwitch k v cs d :: r)
| Occ_default G k v cs d r : occurs G' st G d -> occurs G' st G (SSwitch k v cs (Some d) :: r).
(** Statement [st] of a function [f] of the module. *)
Definition stmt_of (numeric : str -> bool) (elems : list modelem) (f : funcdecl) (G : list decl) (st : stmt) : Prop :=
  In (MFunc f) elems
  /\ occurs G st (param_decls (fd_params f) ++ module_decls numeric elems) (fd_body f).

(** The number of parameters of a function, however they are grouped. *)
Definition param_count (f : funcdecl) : nat :=
  List.length (flat_map taf_forms (fp_list (fd_params f))).
Definition right_count (f : funcdecl) (n : nat) : Prop :=
  if fp_ellipsis (fd_params f) then param_count f <= n else n = param_count f.

(** Loop conditions. *)
Definition loop_condition (st : stmt) (c : expr) : Prop :=
  (exists b, st = SWhile c b) \/ (exists i a b, st = SFor i (Some c) a b).
(** The declarations its condition sees. *)
Definition loop_scope (st : stmt) (G : list decl) : list decl :=
  match st with SFor i _ _ _ => init_declares i ++ G | _ => G end.

(** Operators whose operands may be exchanged; those that compute a value. *)
Definition symmetric_op (op : string) : Prop :=
  In op ["=="; "<"; ">"; "!="; ">="; "<="; "-"; "+"; "*"; "/"; "%"; "<<"; ">>"; "&"; "|"; "^"; "&&"; "||"]%string.

Definition value_op (op : string) : Prop :=
  In op ["=="; "<"; ">"; "!="; ">="; "<="; "-"; "+"; "*"; "/"; "%"; "<<"; ">>"; "&"; "|"; "^"]%string.

(** The checker gives [e] the type [t] in state [s]. *)
Definition has_type_at (m : module_) (p : trparams) (s : trst) (e : expr) (t : ty) : Prop :=
  exists c s', tr_expr (env_of m p) e s = TrOk ((t, c), s').
Definition accepted_at (m : module_) (p : trparams) (s : trst) (e : expr) : Prop :=
  exists t, has_type_at m p s e t.

