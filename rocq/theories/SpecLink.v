(** Declarations of one file and of the files of one program (C99 6.2.2, 6.2.3,
    6.7, 6.9), for the elements of generated files, and the sources whose names
    can be told apart in C.  The vocabulary of C68 and C69. *)
From Verif Require Import Base Buf Nodes Resolve Preparser CAst FormatC SpecDecl SpecScope SpecExports SpecTarget SpecBuild SpecClosed SpecTidy.

(** ** Files of C *)
(** Types, constants, variables and functions share one name space; structs have
    another one. *)
Definition ordinary (e : celem) : list str :=
  match e with
  | XTypedef x => [ctdf_alias (ctd_form x)]
  | XEnum x => map fst (ced_entries x)
  | XVar v => [cf_name (cv_form v)]
  | XForwardFunc x => [cf_name (cfw_form x)]
  | XFunc d => [cf_name (cfd_form d)]
  | XInclude _ | XMacro _ _ | XForwardStruct _ | XStruct _ => []
  end.
Definition tags (e : celem) : list str := match e with XStruct x => [csd_name x] | _ => [] end.
(** The declaration of a function: whether it is static, its type, declarator
    and parameters. *)
Definition function_head (e : celem) : option (bool * ctypename * cform * cfunc_params) :=
  match e with
  | XForwardFunc x => Some (cfw_static x, cfw_type x, cfw_form x, cfw_params x)
  | XFunc d => Some (cfd_static d, cfd_type d, cfd_form d, cfd_params d)
  | _ => None
  end.
Definition same_function (y z : celem) : Prop := exists head, function_head y = Some head /\ function_head z = Some head.
Definition is_definition (e : celem) : Prop := exists d, e = XFunc d.
(** Two elements of one file: what both declare is one function, and it is not
    defined twice. *)
Definition compatible (y z : celem) : Prop :=
  (forall x, In x (ordinary y) -> In x (ordinary z) -> same_function y z /\ ~ (is_definition y /\ is_definition z))
  /\ forall x, In x (tags y) -> ~ In x (tags z).
Definition well_declared (l : list celem) : Prop :=
  (forall y, In y l -> NoDup (ordinary y))
  /\ (forall a y b z c, l = a ++ y :: b ++ z :: c -> compatible y z)
  (* nor do the headers declare it *)
  /\ forall y h x, In y l -> In (XInclude h) l -> In x (ordinary y) -> ~ In (UName x) (header_declares h) /\ ~ In (UType x) (header_declares h).
(** Visible to the linker. *)
Definition external (d : cfuncdef) : Prop := starts_with (format_elem (XFunc d)) (L "static ") = false.

(** ** Sources *)
(** The element declares the constant, variable or function [x]; main is never
    exported. *)
Definition value_of_elem (e : modelem) (pub : bool) (x : str) : Prop :=
  match e with
  | MEnum d => enum_pub d = pub /\ In x (map en_name (enum_entries d))
  | MVar v => pub = false /\ f_name (v_form v) = x
  | MFunc f => fd_pub f && negb (str_eqb (f_name (fd_form f)) (L "main")) = pub /\ f_name (fd_form f) = x
  | _ => False
  end.
Definition of_elem (e : modelem) (pub : bool) (x : str) : Prop := type_of_elem e pub x \/ value_of_elem e pub x.
Definition type_name (e : modelem) : list str :=
  match e with
  | MTypedef t => [td_alias t]
  | MStruct s => [st_name s]
  | MStructAlias a => [sa_typename a]
  | _ => []
  end.
(** A module: no type is declared twice or has the name of a value; no private
    name is one that the C library or the translation uses; no pub function has a
    parameter of its own name. *)
Definition telling (elems : list modelem) : Prop :=
  NoDup (flat_map type_name elems)
  /\ (forall e e' b b' x, In e elems -> In e' elems -> type_of_elem e b x -> ~ value_of_elem e' b' x)
  /\ (forall e x, In e elems -> of_elem e false x -> x <> L "calloc_or_panic"
      /\ forall h, In h headers -> ~ In x (map lit (fst (snd h) ++ snd (snd h))))
  /\ forall f, In (MFunc f) elems -> fd_pub f = true -> ~ In (f_name (fd_form f)) (param_names (fd_params f)).
(** Two modules: no private name of the one is the C name of an export of the
    other, whose prefix is [id]. *)
Definition told_apart (id : str) (elems elems' : list modelem) : Prop :=
  forall e e' x y, In e elems -> In e' elems' -> of_elem e false x -> of_elem e' true y -> x <> global_name id y.
