(** A test for the modules that survive printing. *)
From Verif Require Import Base BaseFacts SpecLex CAst FormatChe FormatC SpecC CReadFacts SpecCStmt CStmtFacts SpecCModule PlainCheck.

Fixpoint no_comment (s : str) : bool :=
  match s with c :: ((d :: _) as r) => negb (N.eqb c 47 && N.eqb d 42) && no_comment r | _ => true end.
Lemma no_comment_sound s : no_comment s = true -> forall a b, s <> a ++ L "/*" ++ b.
Proof.
  intros H a b ->. induction a as [|c a IH]; [discriminate|]. apply IH.
  change ((c :: a) ++ L "/*" ++ b) with (c :: (a ++ L "/*" ++ b)) in H. destruct (a ++ L "/*" ++ b); [reflexivity|]. cbn [no_comment] in H. now apply andb_prop in H as [_ H].
Qed.
Definition directive_ok (s : str) : bool :=
  negb (existsb (N.eqb 10) s) && negb (match rev s with c :: _ => N.eqb c 92 | [] => false end) && no_comment s.
Lemma directive_ok_sound s : directive_ok s = true -> directive s.
Proof.
  intros H. apply andb_prop in H as [H H3]. apply andb_prop in H as [H1 H2]. apply negb_true_iff in H1, H2. split; [|split; [|now apply no_comment_sound]].
  - intros Hi. rewrite <- not_true_iff_false, existsb_exists in H1. apply H1. exists 10%N. auto.
  - intros z ->. rewrite rev_unit in H2. discriminate.
Qed.
Section Check.
Variable types : str -> bool.
Notation form_ok := (form_ok types).
Notation type_ok := (type_ok types).
Definition typeform_ok (x : ctypeform) : bool := type_ok (ctf_type x) && form_ok (ctf_form x).
Definition field_ok (x : ctypename * cform) : bool := type_ok (fst x) && form_ok (snd x).
Definition some {A} (l : list A) : bool := match l with [] => false | _ => true end.
Lemma some_sound {A} (l : list A) : some l = true -> l <> []. Proof. now destruct l. Qed.
Definition params_ok (p : cfunc_params) : bool := forallb typeform_ok (cfp_list p) && (negb (cfp_variadic p) || some (cfp_list p)).
Definition anon_ok (p : canon_params) : bool :=
  forallb (fun t => type_ok (cbtf_type t)) (cap_forms p) && (negb (cap_ellipsis p) || some (cap_forms p))
  && (cap_ellipsis p || match cap_forms p with [mkCbtf (mkCtn c w) O] => c || negb (str_eqb w (L "void")) | _ => true end).
Definition member_ok (m : cstruct_item) : bool :=
  match m with CSField x => typeform_ok x | CSUnion f l => form_ok f && some l && forallb field_ok l end.
Definition enumerator_ok (m : str * option cexpr) : bool :=
  identifier_ok types (fst m) && word_ok (fst m)
  && match snd m with Some e => plain_ok types e && match e with CBin op _ _ => negb (mem op assign_ops) | _ => true end | None => true end.
Definition elem_ok (x : celem) : bool :=
  match x with
  | XInclude s => directive_ok (L "include " ++ s)
  | XMacro n v => directive_ok (n ++ L " " ++ v)
  | XForwardStruct s => word_ok s
  | XForwardFunc f => type_ok (cfw_type f) && form_ok (cfw_form f) && params_ok (cfw_params f)
  | XEnum e => some (ced_entries e) && forallb enumerator_ok (ced_entries e)
  | XTypedef t =>
      let f := ctd_form t in
      type_ok (ctd_type t) && stars_ok (ctdf_stars f) && types (ctdf_alias f) && word_ok (ctdf_alias f)
      && match ctdf_params f with Some p => anon_ok p | None => true end
  | XStruct s => word_ok (csd_name s) && some (csd_fields s) && forallb member_ok (csd_fields s)
  | XVar v => type_ok (cv_type v) && form_ok (cv_form v) && init_ok types (cv_value v)
  | XFunc f => type_ok (cfd_type f) && form_ok (cfd_form f) && params_ok (cfd_params f) && body_ok types (cfd_body f)
  end.
Lemma typeform_ok_sound x : typeform_ok x = true -> plain_typeform types x.
Proof. intros H. apply andb_prop in H as [H1 H2]. split; [now apply type_ok_sound|now apply form_ok_sound]. Qed.
Lemma field_ok_sound x : field_ok x = true -> plain_field types x.
Proof. intros H. apply andb_prop in H as [H1 H2]. split; [now apply type_ok_sound|now apply form_ok_sound]. Qed.
Lemma forallb_sound {A} (f : A -> bool) (P : A -> Prop) l : (forall x, f x = true -> P x) -> forallb f l = true -> Forall P l.
Proof. intros Hf H. apply Forall_forall. intros x Hx. rewrite forallb_forall in H. now apply Hf, H. Qed.
Lemma params_ok_sound p : params_ok p = true -> plain_params types p.
Proof.
  intros H. apply andb_prop in H as [H1 H2]. split; [exact (forallb_sound _ _ _ typeform_ok_sound H1)|]. intros Hv. rewrite Hv in H2. now apply some_sound.
Qed.
Lemma anon_ok_sound p : anon_ok p = true -> plain_anon types p.
Proof.
  intros H. apply andb_prop in H as [H H3]. apply andb_prop in H as [H1 H2]. split; [|split].
  - refine (forallb_sound _ _ _ _ H1). intros [t n] Ht. now apply type_ok_sound.
  - intros Hv. rewrite Hv in H2. now apply some_sound.
  - intros Hv E. rewrite Hv, E in H3. discriminate.
Qed.
Lemma member_ok_sound m : member_ok m = true -> plain_member types m.
Proof.
  destruct m as [x|f l]; cbn [member_ok plain_member]; [apply typeform_ok_sound|]. intros H. apply andb_prop in H as [H H3]. apply andb_prop in H as [H1 H2].
  split; [now apply form_ok_sound|]. split; [now apply some_sound|exact (forallb_sound _ _ _ field_ok_sound H3)].
Qed.
Lemma enumerator_ok_sound m : enumerator_ok m = true -> plain_enumerator types m.
Proof.
  intros H. apply andb_prop in H as [H H3]. apply andb_prop in H as [H1 H2]. split; [now apply identifier_ok_sound|]. split; [now apply word_ok_sound|].
  destruct (snd m) as [e|]; [|exact I]. apply andb_prop in H3 as [H3 H4]. split; [now apply plain_ok_sound|]. intros op a b -> Ha. apply negb_true_iff in H4.
  rewrite <- not_true_iff_false in H4. apply H4. apply existsb_exists. exists op. split; [exact Ha|apply String.eqb_refl].
Qed.
Lemma elem_ok_sound x : elem_ok x = true -> plain_elem types x.
Proof.
  destruct x; cbn [elem_ok plain_elem]; intros H; repeat match goal with H : _ && _ = true |- _ => apply andb_prop in H as [H ?] end.
  - now apply directive_ok_sound.
  - now apply directive_ok_sound.
  - now apply word_ok_sound.
  - split; [now apply type_ok_sound|]. split; [now apply form_ok_sound|now apply params_ok_sound].
  - split; [now apply some_sound|]. now apply (forallb_sound enumerator_ok); [apply enumerator_ok_sound|].
  - split; [now apply type_ok_sound|]. split; [now apply stars_ok_sound|]. split; [assumption|]. split; [now apply word_ok_sound|].
    destruct (ctdf_params _); [now apply anon_ok_sound|exact I].
  - split; [now apply word_ok_sound|]. split; [now apply some_sound|]. now apply (forallb_sound member_ok); [apply member_ok_sound|].
  - split; [now apply type_ok_sound|]. split; [now apply form_ok_sound|now apply init_ok_sound].
  - split; [now apply type_ok_sound|]. split; [now apply form_ok_sound|]. split; [now apply params_ok_sound|now apply body_ok_sound].
Qed.
Lemma module_ok_sound l : forallb elem_ok l = true -> Forall (plain_elem types) l.
Proof. apply forallb_sound, elem_ok_sound. Qed.
End Check.
