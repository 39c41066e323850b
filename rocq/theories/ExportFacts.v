(** Exports are the pub elements. *)
From Verif Require Import Base BaseFacts Buf Lexer Nodes Cursor Preparser Parser SpecExports.

Lemma get_exports_aux_spec : forall elems ex,
  get_exports_aux elems ex =
  mkExports (ex_consts ex ++ constants_in_order elems) (ex_fns ex ++ functions_in_order elems)
            (ex_types ex ++ types_in_order elems) (ex_structs ex ++ structs_in_order elems).
Proof.
  induction elems as [| e r IH]; intros [c f t s]; cbn [get_exports_aux ex_consts ex_fns ex_types ex_structs].
  - unfold constants_in_order, functions_in_order, types_in_order, structs_in_order. cbn [flat_map].
    rewrite !app_nil_r. reflexivity.
  - rewrite IH. unfold constants_in_order, functions_in_order, types_in_order, structs_in_order. cbn [flat_map].
    destruct e as [m | x | a | x | x | v | x]; cbn [app ex_consts ex_fns ex_types ex_structs]; auto;
      [destruct (enum_pub x) | destruct (td_pub x) | destruct (st_pub x) | destruct (fd_pub x)];
      cbn [app ex_consts ex_fns ex_types ex_structs]; rewrite <- ?app_assoc; reflexivity.
Qed.
Lemma get_exports_spec : forall elems, get_exports elems =
  mkExports (constants_in_order elems) (functions_in_order elems) (types_in_order elems) (structs_in_order elems).
Proof. intros. unfold get_exports. rewrite get_exports_aux_spec. reflexivity. Qed.

Lemma in_constants : forall elems x, In x (map en_name (constants_in_order elems)) <-> pub_constant elems x.
Proof.
  intros. unfold constants_in_order, pub_constant. rewrite in_map_iff. setoid_rewrite in_flat_map. split.
  - intros (en & <- & e & I & J). destruct e; try destruct J. destruct (enum_pub e) eqn:P; [| destruct J].
    exists e, en. auto.
  - intros (e & en & I & P & J & <-). exists en. split; auto. exists (MEnum e). rewrite P. auto.
Qed.
Lemma in_functions : forall elems x,
  In x (map (fun f => f_name (fd_form f)) (functions_in_order elems)) <-> pub_function elems x.
Proof.
  intros. unfold functions_in_order, pub_function. rewrite in_map_iff. setoid_rewrite in_flat_map. split.
  - intros (en & <- & e & I & J). destruct e as [| | | | | | f]; try destruct J.
    destruct (fd_pub f) eqn:P; [| destruct J]. destruct J as [-> | []]. exists en. auto.
  - intros (f & I & P & <-). exists f. split; auto. exists (MFunc f). rewrite P. cbn. auto.
Qed.
Lemma in_types : forall elems x, In x (types_in_order elems) <-> pub_type elems x.
Proof.
  intros. unfold types_in_order, pub_type. rewrite in_flat_map. split.
  - intros (e & I & J). destruct e as [| | | t | s | |]; try destruct J.
    + destruct (td_pub t) eqn:P; [| destruct J]. destruct J as [<- | []]. left. eauto.
    + destruct (st_pub s) eqn:P; [| destruct J]. destruct J as [<- | []]. right. eauto.
  - intros [(t & I & P & <-) | (s & I & P & <-)]; eexists; (split; [exact I |]); cbn; rewrite P; cbn; auto.
Qed.

Lemma parse_module_exports : forall fuel ctx c m, parse_module fuel ctx c = PModule m ->
  mod_exports m = get_exports (mod_elements m).
Proof.
  intros fuel ctx c m H. unfold parse_module in H.
  destruct (module_loop fuel ctx [] [] c) as [[[objs [| e es]] | | |] c']; try discriminate.
  injection H as <-. reflexivity.
Qed.

Lemma exports_pub_get : forall elems x, exports_has (get_exports elems) x = true <-> pub_element elems x.
Proof.
  intros elems x. unfold exports_has. rewrite !Bool.orb_true_iff, !existsb_exists, get_exports_spec.
  cbn [ex_consts ex_fns ex_types]. unfold pub_element, pub_value.
  rewrite <- in_constants, <- in_functions, <- in_types. rewrite !in_map_iff. split.
  - intros [[(a & I & E) | (a & I & E)] | (a & I & E)]; apply str_eqb_eq in E; subst; eauto.
  - intros [[(a & <- & I) | (a & <- & I)] | I]; [left; left | left; right | right];
      eexists; (split; [eauto | apply str_eqb_refl]).
Qed.
Lemma exports_pub : forall fuel ctx c m x, parse_module fuel ctx c = PModule m ->
  exports_has (mod_exports m) x = true <-> pub_element (mod_elements m) x.
Proof. intros fuel ctx c m x H. rewrite (parse_module_exports _ _ _ _ H). apply exports_pub_get. Qed.
