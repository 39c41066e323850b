(** Files of C (C99 6.7.2, 6.9, 6.10), as far as the compiler writes them.
    Written from the standard.  Macros are not expanded: the name of a macro
    counts as an identifier.  Comments and lines spliced by a backslash are not
    covered: the texts that contain them have no reading. *)
From Verif Require Import Base SpecLex CAst SpecC SpecCStmt CStmtFacts.

(** ** Pieces: tokens and directives (6.10) *)
Inductive piece := PTok (t : ctok) | PLine (s : str).
(** What follows the # of a directive, up to the end of the line. *)
Definition directive (s : str) : Prop :=
  ~ In 10%N s /\ (forall z, s <> z ++ [92%N]) /\ (forall a b, s <> a ++ L "/*" ++ b).
Definition hash (t : ctok) : Prop := In t (map TPunct ["#"; "##"; "%:"; "%:%:"]%string).
(** The flag says that no token has been read on this line: there a # begins a
    directive. *)
Inductive pieces : bool -> str -> list piece -> Prop :=
| Pieces_end fresh ws : all blank ws -> pieces fresh ws []
| Pieces_token fresh ws t s text ps : all blank ws -> ~ hash t -> spells t s text -> pieces false text ps ->
    pieces fresh (ws ++ s ++ text) (PTok t :: ps)
| Pieces_line (fresh : bool) ws line text ps : all blank ws -> fresh = true \/ In 10%N ws -> directive line -> pieces true text ps ->
    pieces fresh (ws ++ L "#" ++ line ++ [10%N] ++ text) (PLine line :: ps).

(** ** External declarations *)
Inductive cext :=
| ETypedef (t : ctypename) (stars : nat) (x : str) (params : option canon_params) (size : option cexpr)
| EStructName (x : str)
| EStruct (x : str) (members : list cstruct_item)
| EEnum (l : list (str * option cexpr))
| EVar (static : bool) (t : ctypename) (f : cform) (v : cexpr)
| EProto (static : bool) (t : ctypename) (f : cform) (p : cfunc_params)
| EFunc (static : bool) (t : ctypename) (f : cform) (p : cfunc_params) (body : list cst).
Inductive cunit := ULine (s : str) | UExt (d : cext).

Section Grammar.
(** The words that start a type, among them the names that the typedefs of the
    file declare. *)
Variable types : str -> bool.
Notation expr_of := (c_expr_of types).
Notation type_of := (c_type_of types).
Notation declarator_of := (c_declarator_of types).

(** Parameters (6.7.5.3): [void] alone stands for none. *)
Inductive c_param_list_of : list ctok -> list ctypeform -> Prop :=
| Cpl_one ts t ts' f : type_of ts t -> declarator_of ts' f -> c_param_list_of (ts ++ ts') [mkCtf t f]
| Cpl_more ts t ts' f ts'' l : type_of ts t -> declarator_of ts' f -> c_param_list_of ts'' l ->
    c_param_list_of (ts ++ ts' ++ TPunct "," :: ts'') (mkCtf t f :: l).
Inductive c_params_of : list ctok -> cfunc_params -> Prop :=
| Cpar_void : c_params_of [TWord (L "void")] (mkCfp [] false)
| Cpar_list ts l : c_param_list_of ts l -> c_params_of ts (mkCfp l false)
| Cpar_dots ts l : c_param_list_of ts l -> c_params_of (ts ++ [TPunct ","; TPunct "..."]) (mkCfp l true).
(** Parameters without names. *)
Inductive c_anon_list_of : list ctok -> list cbare_typeform -> Prop :=
| Cal_one ts t : c_typeform_of types ts t -> c_anon_list_of ts [t]
| Cal_more ts t ts' l : c_typeform_of types ts t -> c_anon_list_of ts' l -> c_anon_list_of (ts ++ TPunct "," :: ts') (t :: l).
Inductive c_anon_of : list ctok -> canon_params -> Prop :=
| Can_void : c_anon_of [TWord (L "void")] (mkCanon false [])
| Can_list ts l : c_anon_list_of ts l -> ts <> [TWord (L "void")] -> c_anon_of ts (mkCanon false l)
| Can_dots ts l : c_anon_list_of ts l -> c_anon_of (ts ++ [TPunct ","; TPunct "..."]) (mkCanon true l).

(** Members of structures and unions (6.7.2.1); there is at least one. *)
Inductive c_fields_of : list ctok -> list (ctypename * cform) -> Prop :=
| Cfl_one ts t ts' f : type_of ts t -> declarator_of ts' f -> c_fields_of (ts ++ ts' ++ [TPunct ";"]) [(t, f)]
| Cfl_more ts t ts' f ts'' l : type_of ts t -> declarator_of ts' f -> c_fields_of ts'' l ->
    c_fields_of (ts ++ ts' ++ TPunct ";" :: ts'') ((t, f) :: l).
Inductive c_member_of : list ctok -> cstruct_item -> Prop :=
| Cmb_field ts t ts' f : type_of ts t -> declarator_of ts' f -> c_member_of (ts ++ ts' ++ [TPunct ";"]) (CSField (mkCtf t f))
| Cmb_union ts l ts' f : c_fields_of ts l -> declarator_of ts' f ->
    c_member_of (TWord (L "union") :: TPunct "{" :: ts ++ TPunct "}" :: ts' ++ [TPunct ";"]) (CSUnion f l).
Inductive c_members_of : list ctok -> list cstruct_item -> Prop :=
| Cms_one ts m : c_member_of ts m -> c_members_of ts [m]
| Cms_more ts m ts' l : c_member_of ts m -> c_members_of ts' l -> c_members_of (ts ++ ts') (m :: l).

(** Enumerations (6.7.2.2). *)
Inductive c_enumerator_of : list ctok -> str * option cexpr -> Prop :=
| Cen_plain x : c_identifier types x -> c_enumerator_of [TWord x] (x, None)
| Cen_value x ts e : c_identifier types x -> expr_of 3 ts e -> c_enumerator_of (TWord x :: TPunct "=" :: ts) (x, Some e).
Inductive c_enumerators_of : list ctok -> list (str * option cexpr) -> Prop :=
| Cens_one ts m : c_enumerator_of ts m -> c_enumerators_of ts [m]
| Cens_more ts m ts' l : c_enumerator_of ts m -> c_enumerators_of ts' l -> c_enumerators_of (ts ++ TPunct "," :: ts') (m :: l).

Definition c_static_of (ts : list ctok) (b : bool) : Prop := ts = if b then [TWord (L "static")] else [].
Inductive c_typedef_params_of : list ctok -> option canon_params -> Prop :=
| Ctp_none : c_typedef_params_of [] None
| Ctp_some ts p : c_anon_of ts p -> c_typedef_params_of (TPunct "(" :: ts ++ [TPunct ")"]) (Some p).
Inductive c_size_of : list ctok -> option cexpr -> Prop :=
| Csz_none : c_size_of [] None
| Csz_some ts e : expr_of 2 ts e -> c_size_of (TPunct "[" :: ts ++ [TPunct "]"]) (Some e).

Inductive c_ext_of : list ctok -> cext -> Prop :=
| Ce_typedef ts t n x tp p tz z : type_of ts t -> types x = true -> c_typedef_params_of tp p -> c_size_of tz z ->
    c_ext_of (TWord (L "typedef") :: ts ++ repeat (TPunct "*") n ++ TWord x :: tp ++ tz ++ [TPunct ";"]) (ETypedef t n x p z)
| Ce_struct_name x : c_ext_of [TWord (L "struct"); TWord x; TPunct ";"] (EStructName x)
| Ce_struct x ts l : c_members_of ts l ->
    c_ext_of (TWord (L "struct") :: TWord x :: TPunct "{" :: ts ++ [TPunct "}"; TPunct ";"]) (EStruct x l)
| Ce_enum ts l : c_enumerators_of ts l ->
    c_ext_of (TWord (L "enum") :: TPunct "{" :: ts ++ [TPunct "}"; TPunct ";"]) (EEnum l)
| Ce_var tb b ts t ts' f ts'' v : c_static_of tb b -> type_of ts t -> declarator_of ts' f -> c_init_of types ts'' v ->
    c_ext_of (tb ++ ts ++ ts' ++ TPunct "=" :: ts'' ++ [TPunct ";"]) (EVar b t f v)
| Ce_proto tb b ts t ts' f tp p : c_static_of tb b -> type_of ts t -> declarator_of ts' f -> c_params_of tp p ->
    c_ext_of (tb ++ ts ++ ts' ++ TPunct "(" :: tp ++ [TPunct ")"; TPunct ";"]) (EProto b t f p)
| Ce_func tb b ts t ts' f tp p ti l : c_static_of tb b -> type_of ts t -> declarator_of ts' f -> c_params_of tp p -> c_items_of types ti l ->
    c_ext_of (tb ++ ts ++ ts' ++ TPunct "(" :: tp ++ TPunct ")" :: TPunct "{" :: ti ++ [TPunct "}"]) (EFunc b t f p l).

(** ** Files (6.9) *)
Inductive c_file_of : list piece -> list cunit -> Prop :=
| Cf_end : c_file_of [] []
| Cf_line s ps us : c_file_of ps us -> c_file_of (PLine s :: ps) (ULine s :: us)
| Cf_ext ts d ps us : c_ext_of ts d -> c_file_of ps us -> c_file_of (map PTok ts ++ ps) (UExt d :: us).
End Grammar.

(** Readings that differ in nothing that matters (SpecCStmt.v). *)
Definition field_values (x : ctypename * cform) : ctypename * cform := (fst x, form_values (snd x)).
Definition typeform_values (x : ctypeform) : ctypeform := mkCtf (ctf_type x) (form_values (ctf_form x)).
Definition params_values (p : cfunc_params) : cfunc_params := mkCfp (map typeform_values (cfp_list p)) (cfp_variadic p).
Definition member_values (m : cstruct_item) : cstruct_item :=
  match m with CSField x => CSField (typeform_values x) | CSUnion f l => CSUnion (form_values f) (map field_values l) end.
Definition enumerator_values (m : str * option cexpr) : str * option cexpr := (fst m, option_map values (snd m)).
Definition ext_values (d : cext) : cext :=
  match d with
  | ETypedef t n x p z => ETypedef t n x p (option_map values z)
  | EStructName x => EStructName x
  | EStruct x l => EStruct x (map member_values l)
  | EEnum l => EEnum (map enumerator_values l)
  | EVar b t f v => EVar b t (form_values f) (init_values v)
  | EProto b t f p => EProto b t (form_values f) (params_values p)
  | EFunc b t f p l => EFunc b t (form_values f) (params_values p) (map stmt_values l)
  end.
Definition unit_values (u : cunit) : cunit := match u with ULine s => ULine s | UExt d => UExt (ext_values d) end.

(** ** What the elements of a generated module are in C *)
(** The function main has external linkage. *)
Definition is_main (f : cform) : bool :=
  match f with mkCform [] x [] => str_eqb x (L "main") | _ => false end.
Definition unit_of (x : celem) : cunit :=
  match x with
  | XInclude s => ULine (L "include " ++ s)
  | XMacro n v => ULine (n ++ L " " ++ v)
  | XForwardStruct s => UExt (EStructName s)
  | XForwardFunc f => UExt (EProto (cfw_static f && negb (is_main (cfw_form f))) (cfw_type f) (cfw_form f) (cfw_params f))
  | XEnum e => UExt (EEnum (ced_entries e))
  | XTypedef t =>
      let f := ctd_form t in
      UExt (ETypedef (ctd_type t) (List.length (ctdf_stars f)) (ctdf_alias f) (ctdf_params f)
              (if N.ltb 0 (ctdf_size f) then Some (CLit (CLNumber (dec (ctdf_size f)))) else None))
  | XStruct s => UExt (EStruct (csd_name s) (csd_fields s))
  | XVar v => UExt (EVar true (cv_type v) (cv_form v) (cv_value v))
  (* [lowers] gives the statements of the body as C statements (CStmtFacts.v) *)
  | XFunc f => UExt (EFunc (cfd_static f && negb (is_main (cfd_form f))) (cfd_type f) (cfd_form f) (cfd_params f) (lowers (cfd_body f)))
  end.

(** ** Modules that survive printing *)
Section Plain.
Variable types : str -> bool.
Definition plain_field (x : ctypename * cform) : Prop := plain_type types (fst x) /\ plain_form types (snd x).
Definition plain_typeform (x : ctypeform) : Prop := plain_type types (ctf_type x) /\ plain_form types (ctf_form x).
(** Three dots stand after a parameter. *)
Definition plain_params (p : cfunc_params) : Prop :=
  Forall plain_typeform (cfp_list p) /\ (cfp_variadic p = true -> cfp_list p <> []).
Definition plain_anon (p : canon_params) : Prop :=
  Forall (c_type_ok types) (cap_forms p) /\ (cap_ellipsis p = true -> cap_forms p <> [])
  /\ (cap_ellipsis p = false -> cap_forms p <> [mkCbtf (mkCtn false (L "void")) 0]).
Definition plain_member (m : cstruct_item) : Prop :=
  match m with
  | CSField x => plain_typeform x
  | CSUnion f l => plain_form types f /\ l <> [] /\ Forall plain_field l
  end.
Definition plain_enumerator (m : str * option cexpr) : Prop :=
  c_identifier types (fst m) /\ c_word (fst m)
  /\ match snd m with Some e => plain types e /\ (forall op a b, e = CBin op a b -> ~ c_assign_op op) | None => True end.
Definition plain_elem (x : celem) : Prop :=
  match x with
  | XInclude s => directive (L "include " ++ s)
  | XMacro n v => directive (n ++ L " " ++ v)
  | XForwardStruct s => c_word s
  | XForwardFunc f => plain_type types (cfw_type f) /\ plain_form types (cfw_form f) /\ plain_params (cfw_params f)
  | XEnum e => ced_entries e <> [] /\ Forall plain_enumerator (ced_entries e)
  | XTypedef t =>
      let f := ctd_form t in
      plain_type types (ctd_type t) /\ (exists n, ctdf_stars f = repeat 42%N n) /\ types (ctdf_alias f) = true /\ c_word (ctdf_alias f)
      /\ match ctdf_params f with Some p => plain_anon p | None => True end
  | XStruct s => c_word (csd_name s) /\ csd_fields s <> [] /\ Forall plain_member (csd_fields s)
  | XVar v => plain_type types (cv_type v) /\ plain_form types (cv_form v) /\ plain_init types (cv_value v)
  | XFunc f => plain_type types (cfd_type f) /\ plain_form types (cfd_form f) /\ plain_params (cfd_params f) /\ plain_body types (cfd_body f)
  end.
End Plain.
