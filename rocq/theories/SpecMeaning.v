(** What the declarations of one file mean in another (C99 6.2.1, 6.2.7, 6.10.3):
    the vocabulary of C71.  A generated file repeats declarations of the modules
    it imports; each of them uses names that its new surroundings have to
    explain as the old ones do. *)
From Verif Require Import Base Buf Nodes Resolve Preparser CAst SpecDecl SpecScope SpecTarget SpecBuild SpecClosed SpecTidy SpecLink.

(** ** Files of C *)
(** What can be looked up in a file: a name or a type, the tag of a struct; any
    word could be a macro. *)
Inductive item := IUse (u : cuse) | ITag (x : str) | IWord (x : str).
(** A definition of a function declares what its prototype does. *)
Definition face (e : celem) : celem :=
  match e with XFunc d => XForwardFunc (mkCfwd (cfd_static d) (cfd_type d) (cfd_form d) (cfd_params d)) | e => e end.
(** What an element introduces.  A macro replaces a word whatever it stands for.
    Of the directives only the definitions of macros count; the text that a macro
    stands for is not looked into. *)
Definition introduces (e : celem) : list item :=
  match e with
  | XMacro n v => if str_eqb n (L "define") then flat_map (fun x => [IUse (UName x); IUse (UType x); ITag x; IWord x]) (macro_names v) else []
  | e => map IUse (declared e) ++ map ITag (tags e)
  end.
(** What an element is made of: the names and types it uses, the struct behind a
    type, the names of members and parameters. *)
Definition member_words (m : cstruct_item) : list str :=
  match m with
  | CSField x => [cf_name (ctf_form x)]
  | CSUnion f l => cf_name f :: map (fun x => cf_name (snd x)) l
  end.
Definition content (e : celem) : list item :=
  map IUse (elem_uses e) ++
  match e with
  | XTypedef x => if tagged (ctd_type x) then [ITag (skipn 7 (ctn_name (ctd_type x)))] else []
  | XStruct x => map IWord (flat_map member_words (csd_fields x))
  | XForwardFunc x => map (fun p => IWord (cf_name (ctf_form p))) (cfp_list (cfw_params x))
  | _ => []
  end.
(** [f] is what the file [l] has for the item. *)
Definition stands (l : list celem) (x : item) (f : celem) : Prop := exists e, In e l /\ In x (introduces e) /\ face e = f.
(** The files [l] and [l'] have the same for an item, and for everything this is
    made of, and so on. *)
Definition alike (l l' : list celem) (x : item) : Prop :=
  exists same : item -> Prop, same x
    /\ forall y, same y -> (forall f, stands l y f <-> stands l' y f)
                           /\ forall f z, stands l y f -> In z (content f) -> same z.

(** ** Sources *)
Section Clear.
Variable pr : Build.project.
Variable system : cuse -> Prop.
(** The C names of the elements of all modules, with the tags of their structs. *)
Definition taken (x : str) : Prop := exists i h m cm e b y, unit_at pr i h m cm /\ In e (mod_elements m)
  /\ let c := if b : bool then global_name (mi_uniqid h) y else y in
     of_elem e b y /\ (x = c \/ x = struct_tag c /\ exists s, e = MStruct s).
(** The names that the translation adds to every file. *)
Definition added : list string := ["calloc_or_panic"; "nelem"; "nelem(x)"; "_XOPEN_SOURCE"]%string.
Definition macro_of (a : macro_) (x : str) : Prop := exists i h m cm, unit_at pr i h m cm /\ In (MMacro a) (mod_elements m)
  /\ m_name a = L "define" /\ In x (macro_names (m_value a)).
(** The names of members and parameters. *)
Definition inner_names (e : modelem) : list str :=
  match e with
  | MStruct s => flat_map (fun x => match x with
                                    | StPlain t => map f_name (taf_forms t)
                                    | StUnion u => f_name (u_form u) :: map (fun p => f_name (snd p)) (u_fields u)
                                    end) (st_entries s)
  | MFunc f => param_names (fd_params f)
  | _ => []
  end.
Record clear : Prop := {
  (* no element has the name of a basic type or of something of the system's *)
  clear_system : forall x, system (UName x) \/ system (UType x) \/ In x (map lit basic_types) -> ~ taken x /\ ~ In x (map lit added);
  (* nor of something the translation adds *)
  clear_added : forall x, taken x -> ~ In x (map lit added);
  (* a macro has a name of its own *)
  clear_macro : forall a x, macro_of a x -> ~ taken x /\ ~ In x (map lit added) /\ ~ system (UName x) /\ ~ system (UType x)
    /\ ~ In x (map lit library_types) /\ (forall h, In h headers -> ~ In x (map lit (snd (snd h))))
    /\ forall a', macro_of a' x -> m_value a = m_value a';
  clear_inner : forall i h m cm e x, unit_at pr i h m cm -> In e (mod_elements m) -> In x (inner_names e) ->
    ~ In x (map lit added) /\ forall a, ~ macro_of a x;
  (* the structs that aliases name are none of the modules' and no macros *)
  clear_alias : forall i h m cm a, unit_at pr i h m cm -> In (MStructAlias a) (mod_elements m) ->
    ~ taken (sa_structname a) /\ ~ In (sa_structname a) (map lit added) /\ forall d, ~ macro_of d (sa_structname a) }.
End Clear.
