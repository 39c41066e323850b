(** Complete types (C99 6.2.5, 6.7.2.1, 6.7.5, 6.9.1): where a file of C needs to
    know the size of a type, and when it does; and the sources whose types stand
    in such an order.  The vocabulary of C70. *)
From Verif Require Import Base Buf Nodes Resolve Preparser Translator Build CAst FormatC SpecDecl SpecModule SpecTarget SpecBuild SpecTyping SpecCStmt CStmtFacts TargetFacts SpecTame SpecClosed SpecTidy.

(** The types that the system defines beyond the library, such as [struct tm]. *)
Section Complete.
Variable whole : str -> Prop.

(** ** C *)
Definition sized_types : list string := ["char"; "double"; "float"; "int"]%string ++ flat_map (fun h => fst (snd h)) headers.
(** The type named [x] is complete behind the elements [l].  A struct is complete
    from the end of its definition on; a typedef, unless it is one of a function
    type, stands for a pointer or needs its type to be complete. *)
Inductive complete (l : list celem) : str -> Prop :=
| Co_basic x : In x (map lit sized_types) -> complete l x
| Co_system x : whole x -> complete l x
| Co_struct s : In (XStruct s) l -> complete l (L "struct " ++ csd_name s)
| Co_typedef t : In (XTypedef t) l -> ctdf_params (ctd_form t) = None ->
    (ctdf_stars (ctd_form t) = [] -> complete l (ctn_name (ctd_type t))) -> complete l (ctdf_alias (ctd_form t)).

(** The types an expression takes the size of. *)
Definition measured (t : cbare_typeform) : list str := match cbtf_hops t with 0 => [ctn_name (cbtf_type t)] | _ => [] end.
Fixpoint measures (e : cexpr) : list str :=
  match e with
  | CLit _ | CIdent _ => []
  | CIndex a i => measures a ++ measures i
  | CBin _ a b => measures a ++ measures b
  | CField _ t _ => measures t
  | CCall f args => measures f ++ flat_map measures args
  | CPrefix _ x | CPostfix _ x | CCast _ x | CSizeofE x => measures x
  | CSizeofT t => measured t
  | CComp l => flat_map (fun x => match snd (fst x) with Some k => measures k | None => [] end ++ measures (snd x)) l
  end.
Definition opt_measures (e : option cexpr) : list str := match e with Some e => measures e | None => [] end.
Definition form_measures (f : cform) : list str := flat_map opt_measures (cf_indexes f).
(** The type of an object that is no pointer; of the elements of an array. *)
Definition object (t : ctypename) (f : cform) : list str := match cf_stars f with [] => [ctn_name t] | _ => [] end.
Definition array (t : ctypename) (f : cform) : list str := match cf_indexes f with [] => [] | _ => object t f end.
Definition declares_object (t : ctypename) (d : cform * option cexpr) : list str :=
  object t (fst d) ++ form_measures (fst d) ++ opt_measures (snd d).
(** Statements. *)
Definition init_needs (i : cforinit) : list str :=
  match i with
  | CFIExpr e => measures e
  | CFIDecl v => declares_object (cv_type v) (cv_form v, Some (cv_value v))
  end.
Fixpoint stmt_needs (s : cst) : list str :=
  match s with
  | XNull | XBreak | XContinue => []
  | XExpr e => measures e
  | XDecl t l => flat_map (declares_object t) l
  | XBlock l => flat_map stmt_needs l
  | XIf c s e => measures c ++ stmt_needs s ++ match e with Some e => stmt_needs e | None => [] end
  | XWhile c s => measures c ++ stmt_needs s
  | XFor i c a s => match i with Some i => init_needs i | None => [] end ++ opt_measures c ++ opt_measures a ++ stmt_needs s
  | XSwitch e s => measures e ++ stmt_needs s
  | XCase v s => measures v ++ stmt_needs s
  | XDefault s => stmt_needs s
  | XReturn e => opt_measures e
  end.
(** The types that have to be complete where an element of a file stands: those
    of members, variables, parameters and results of functions that are defined
    there, elements of arrays, operands of sizeof.  (A function may return void;
    a parameter could also have a function type, which C takes for a pointer.) *)
Definition member_needs (m : cstruct_item) : list str :=
  match m with
  | CSField x => object (ctf_type x) (ctf_form x) ++ form_measures (ctf_form x)
  | CSUnion f l => form_measures f ++ flat_map (fun x => object (fst x) (snd x) ++ form_measures (snd x)) l
  end.
Definition result (t : ctypename) (f : cform) : list str := if str_eqb (ctn_name t) (L "void") then [] else object t f.
Definition elem_needs (e : celem) : list str :=
  match e with
  | XInclude _ | XMacro _ _ | XForwardStruct _ => []
  | XTypedef x => match ctdf_size (ctd_form x), ctdf_stars (ctd_form x) with
                  | 0%N, _ => []
                  | _, [] => [ctn_name (ctd_type x)]
                  | _, _ => []
                  end
  | XStruct x => flat_map member_needs (csd_fields x)
  | XEnum x => flat_map (fun p => opt_measures (snd p)) (ced_entries x)
  | XForwardFunc x => form_measures (cfw_form x) ++ flat_map (fun p => array (ctf_type p) (ctf_form p) ++ form_measures (ctf_form p)) (cfp_list (cfw_params x))
  | XVar v => declares_object (cv_type v) (cv_form v, Some (cv_value v))
  | XFunc d => result (cfd_type d) (cfd_form d) ++ form_measures (cfd_form d)
      ++ flat_map (fun p => object (ctf_type p) (ctf_form p) ++ form_measures (ctf_form p)) (cfp_list (cfd_params d))
      ++ flat_map stmt_needs (lowers (cfd_body d))
  end.

(** ** Sources *)
Section Source.
Variable pr : project.
(** In the [i]-th module, the name [n] stands for a type of known size, if only
    the definitions in [early] are used and, unless [deep], no structs. *)
Inductive sized (i : nat) (early : modelem -> Prop) (deep : bool) : nsname -> Prop :=
| Sz_basic n : ns_ns n = [] -> In (ns_name n) (map lit sized_types) -> sized i early deep n
| Sz_system n : ns_ns n = L "OS" -> whole (ns_name n) -> sized i early deep n
| Sz_directive n h m cm : unit_at pr i h m cm -> ns_ns n = [] -> (forall e b, In e (mod_elements m) -> ~ type_of_elem e b (ns_name n)) ->
    whole (ns_name n) -> sized i early deep n
| Sz_own n h m cm e b : unit_at pr i h m cm -> ns_ns n = [] -> ~ In (ns_name n) (map lit library_types) ->
    In e (mod_elements m) -> type_of_elem e b (ns_name n) -> early e -> sized_elem i early deep e -> sized i early deep n
| Sz_import n h m cm j h' m' cm' e : unit_at pr i h m cm -> ns_ns n <> [] -> ns_ns n <> L "OS" ->
    import (site_of m (unit_params pr i h)) (ns_ns n) = Some (h', m') -> unit_at pr j h' m' cm' ->
    In e (mod_elements m') -> type_of_elem e true (ns_name n) -> sized_elem j (fun _ => True) deep e -> sized i early deep n
with sized_elem (i : nat) (early : modelem -> Prop) (deep : bool) : modelem -> Prop :=
| Se_struct s : deep = true -> sized_elem i early deep (MStruct s)
| Se_typedef t : td_func_params t = None -> (td_derefs t = 0 -> sized i early deep (tn_name (td_type t))) ->
    sized_elem i early deep (MTypedef t)
| Se_alias a : whole (L "struct " ++ sa_structname a) -> sized_elem i early deep (MStructAlias a).

Variable i : nat.
Section Places.
Variable early : modelem -> Prop.
Definition sized_form (t : typename) (f : form) : Prop := f_hops f = 0 -> sized i early true (tn_name t).
Definition sized_expr (e : expr) : Prop := match e with ESizeofT t => btf_hops t = 0 -> sized i early true (tn_name (btf_type t)) | _ => True end.
Definition sized_stmt (s : stmt) : Prop :=
  match s with
  | SVarDecl v => sized_form (v_type v) (v_form v)
  | SFor (Some (FIDecl t f _)) _ _ _ => sized_form t f
  | _ => True
  end.
End Places.
(** The definitions before a struct or an enum: only earlier structs, and the
    typedefs, which all come first in C. *)
Definition structs_in (before : list modelem) (e : modelem) : Prop := match e with MStruct _ => In e before | _ => True end.
Definition sized_at (before : list modelem) (e : modelem) : Prop :=
  match e with
  | MMacro _ | MStructAlias _ => True
  | MTypedef t => td_array_size t <> 0%N -> td_derefs t = 0 -> sized i (fun e => In e before) false (tn_name (td_type t))
  | MStruct s =>
      all (fun x => match x with
                    | StPlain t => all (sized_form (structs_in before) (taf_type t)) (taf_forms t)
                    | StUnion u => all (fun p => sized_form (structs_in before) (fst p) (snd p)) (u_fields u)
                    end) (st_entries s)
      /\ each_elem (sized_expr (structs_in before)) (fun _ => True) e
  | MEnum _ => each_elem (sized_expr (structs_in before)) (fun _ => True) e
  | MVar v => sized_form (fun _ => True) (v_type v) (v_form v) /\ each_elem (sized_expr (fun _ => True)) (fun _ => True) e
  | MFunc f =>
      (tn_name (fd_type f) <> mkNs (ns_pos (tn_name (fd_type f))) [] (L "void") -> sized_form (fun _ => True) (fd_type f) (fd_form f))
      /\ all (fun t => all (sized_form (fun _ => True) (taf_type t)) (taf_forms t)) (fp_list (fd_params f))
      /\ each_elem (sized_expr (fun _ => True)) (sized_stmt (fun _ => True)) e
  end.
Definition well_sized (elems : list modelem) : Prop := forall before e after, elems = before ++ e :: after -> sized_at before e.
End Source.
End Complete.
