(** Model of src/format_che.rs (used in error messages and by che exports).

    [operator_strength] panics on an operator that is not in its table; here
    such an operator counts as strength 0.  Operators produced by the parser
    are always in the table ([binary_is_op] in GrammarSound.v). *)
From Verif Require Import Base Buf Nodes Lexer Cursor Preparser Parser.

Definition strength (op : string) : nat :=
  match operator_strength op with Some n => n | None => 0 end.

Definition stars (n : nat) : str := repeat_str n (L "*").

(** src/format_che.rs:122-129 [fmt_typename]. *)
Definition che_fmt_typename (t : typename) : str :=
  let name := match ns_ns (tn_name t) with
              | [] => ns_name (tn_name t)
              | ns => ns ++ L "." ++ ns_name (tn_name t) end in
  (if tn_const t then L "const " else []) ++ name.

(** src/format_che.rs:142-144 [fmt_bare_typeform]. *)
Definition che_fmt_btf (x : bare_typeform) : str :=
  che_fmt_typename (btf_type x) ++ stars (btf_hops x).

(** src/format_che.rs:178-185 [fmt_literal]. *)
Definition che_fmt_literal (l : literal) : str :=
  match l with
  | LChar v => L "'" ++ v ++ L "'"
  | LString v => [34%N] ++ v ++ [34%N]
  | LNumber v => v
  | LNull => L "NULL"
  end.

(** src/format_che.rs:5-120, 146-176 [fmt_expr], [fmt_field_access], [fmt_binop]. *)
Fixpoint che_fmt_expr (e : expr) : str :=
  match e with
  | EField _ op t f => che_fmt_expr t ++ lit op ++ f
  | ECast tf x => L "(" ++ che_fmt_btf tf ++ L ")(" ++ che_fmt_expr x ++ L ")"
  | EName n => match ns_ns n with [] => ns_name n | ns => ns ++ L "." ++ ns_name n end
  | ECall _ f args =>
      che_fmt_expr f ++ L "(" ++
      join (L ", ") ((fix go (l : list expr) : list str :=
                        match l with [] => [] | a :: r => che_fmt_expr a :: go r end) args)
      ++ L ")"
  | ELit l => che_fmt_literal l
  | EComp [] => L "{0}"
  | EComp entries =>
      L "{" ++ [c_nl] ++
      join (L "," ++ [c_nl])
        ((fix go (l : list (bool * option expr * expr)) : list str :=
            match l with
            | [] => []
            | (is_index, key, v) :: r =>
                ([9%N] ++
                 match key with
                 | Some k => if is_index : bool
                             then L "[" ++ che_fmt_expr k ++ L "] = " ++ che_fmt_expr v
                             else L "." ++ che_fmt_expr k ++ L " = " ++ che_fmt_expr v
                 | None => che_fmt_expr v
                 end) :: go r
            end) entries)
      ++ [c_nl] ++ L "}"
  | ESizeofT t => L "sizeof(" ++ che_fmt_btf t ++ L ")"
  | ESizeofE x => L "sizeof(" ++ che_fmt_expr x ++ L ")"
  | EBinary _ op a b =>
      let side := fun (x : expr) (s : str) =>
        match node_is_op x with
        | Some k => if Nat.ltb (strength k) (strength op) then L "(" ++ s ++ L ")" else s
        | None => s
        end in
      let glue := if String.eqb op "." || String.eqb op "->" then [] else L " " in
      side a (che_fmt_expr a) ++ glue ++ lit op ++ glue ++ side b (che_fmt_expr b)
  | EPrefix _ op x =>
      match is_binary_op x with
      | Some k => if Nat.ltb (strength k) (strength "prefix")
                  then lit op ++ L "(" ++ che_fmt_expr x ++ L ")"
                  else lit op ++ che_fmt_expr x
      | None => lit op ++ che_fmt_expr x
      end
  | EPostfix op x => che_fmt_expr x ++ lit op
  | EArrIndex a i => che_fmt_expr a ++ L "[" ++ che_fmt_expr i ++ L "]"
  end.

(** src/format_che.rs:131-140 [fmt_form]. *)
Definition che_fmt_form (x : form) : str :=
  stars (f_hops x) ++ f_name x
  ++ List.concat (map (fun i => match i with
                                | Some e => L "[" ++ che_fmt_expr e ++ L "]"
                                | None => L "[]"
                                end) (f_indexes x)).
