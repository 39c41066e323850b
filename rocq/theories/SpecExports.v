(** What a module offers to others. *)
From Verif Require Import Base Buf Nodes.

(** [x] is a constant of a pub enum of the module. *)
Definition pub_constant (elems : list modelem) (x : str) : Prop :=
  exists e en, In (MEnum e) elems /\ enum_pub e = true /\ In en (enum_entries e) /\ en_name en = x.
(** [x] is a pub function. *)
Definition pub_function (elems : list modelem) (x : str) : Prop :=
  exists f, In (MFunc f) elems /\ fd_pub f = true /\ f_name (fd_form f) = x.
(** [x] is a type made by a pub typedef (of a type or of a struct body). *)
Definition pub_type (elems : list modelem) (x : str) : Prop :=
  (exists t, In (MTypedef t) elems /\ td_pub t = true /\ td_alias t = x)
  \/ (exists s, In (MStruct s) elems /\ st_pub s = true /\ st_name s = x).
Definition pub_value (elems : list modelem) (x : str) : Prop :=
  pub_constant elems x \/ pub_function elems x.
Definition pub_element (elems : list modelem) (x : str) : Prop :=
  pub_value elems x \/ pub_type elems x.

(** The pub elements of a kind, in source order. *)
Definition constants_in_order (elems : list modelem) : list enum_entry :=
  flat_map (fun e => match e with
                     | MEnum x => if enum_pub x then enum_entries x else []
                     | _ => []
                     end) elems.
Definition functions_in_order (elems : list modelem) : list funcdecl :=
  flat_map (fun e => match e with MFunc f => if fd_pub f then [f] else [] | _ => [] end) elems.
Definition types_in_order (elems : list modelem) : list str :=
  flat_map (fun e => match e with
                     | MTypedef t => if td_pub t then [td_alias t] else []
                     | MStruct s => if st_pub s then [st_name s] else []
                     | _ => []
                     end) elems.
Definition structs_in_order (elems : list modelem) : list struct_typedef :=
  flat_map (fun e => match e with MStruct s => if st_pub s then [s] else [] | _ => [] end) elems.
