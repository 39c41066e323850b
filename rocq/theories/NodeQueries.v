(** Model of src/node_queries.rs. *)
From Verif Require Import Base Buf Nodes.

(** src/node_queries.rs:3-37 [body_returns]: looks at the last statement only.
    Written as a function on statements, [body_returns] applies it to the last
    one. *)
Fixpoint stmt_returns (s : stmt) : bool :=
  let body_returns := fix body_returns (b : list stmt) : bool :=
    match b with
    | [] => false
    | [x] => stmt_returns x
    | _ :: r => body_returns r
    end in
  match s with
  | SReturn _ => true
  | SIf _ b _ => body_returns b
  | SSwitch _ _ cases default_case =>
      match default_case with
      | None => false
      | Some d =>
          if negb (body_returns d) then false
          else (fix all (cs : list (list switch_value * list stmt)) : bool :=
                  match cs with
                  | [] => true
                  | (_, b) :: r => if negb (body_returns b) then false else all r
                  end) cases
      end
  | SWhile c b => is_ident c (L "true") || body_returns b
  | SExpr (ECall _ f _) => is_ident f (L "panic")
  | _ => false
  end.

Fixpoint body_returns (b : body) : bool :=
  match b with
  | [] => false
  | [x] => stmt_returns x
  | _ :: r => body_returns r
  end.

(** src/node_queries.rs:61-78 [expression_pos]. *)
Fixpoint expression_pos (e : expr) : pos :=
  match e with
  | EArrIndex a _ => expression_pos a
  | EBinary _ _ a _ => expression_pos a
  | EField _ _ t _ => expression_pos t
  | ECast _ _ => mkPos 0 0
  | EComp _ => mkPos 0 0
  | ECall _ f _ => expression_pos f
  | ELit _ => mkPos 0 0
  | EName n => ns_pos n
  | EPostfix _ x => expression_pos x
  | EPrefix _ _ x => expression_pos x
  | ESizeofT _ => mkPos 0 0
  | ESizeofE _ => mkPos 0 0
  end.
