(** What the formatter prints for a module is read back by C as the elements of
    the module. *)
From Coq Require DecimalPos.
From Verif Require Import Base BaseFacts SpecLex CAst FormatChe FormatC SpecC CReadFacts SpecCStmt CStmtFacts SpecCModule.

(** ** No token of the grammar is a hash *)
Definition clean (ts : list ctok) : Prop := Forall (fun t => ~ hash t) ts.
Lemma clean_nil : clean []. Proof. constructor. Qed.
Lemma clean_cons t ts : ~ hash t -> clean ts -> clean (t :: ts). Proof. now constructor. Qed.
Lemma clean_app a b : clean a -> clean b -> clean (a ++ b).
Proof. intros Ha Hb. apply Forall_app. auto. Qed.
Lemma hash_word w : ~ hash (TWord w). Proof. intros H. cbn in H. intuition discriminate. Qed.
Lemma hash_num w : ~ hash (TNum w). Proof. intros H. cbn in H. intuition discriminate. Qed.
Lemma hash_char w : ~ hash (TChar w). Proof. intros H. cbn in H. intuition discriminate. Qed.
Lemma hash_str w : ~ hash (TStr w). Proof. intros H. cbn in H. intuition discriminate. Qed.
Definition mark (op : string) : bool := existsb (String.eqb op) ["#"; "##"; "%:"; "%:%:"]%string.
Lemma hash_punct op : mark op = false -> ~ hash (TPunct op).
Proof.
  intros H Hh. unfold hash in Hh. apply in_map_iff in Hh as (k & E & Hk). injection E as ->.
  assert (mark op = true) by (apply existsb_exists; exists op; split; [exact Hk|apply String.eqb_refl]). congruence.
Qed.
Lemma mark_in op l : forallb (fun o => negb (mark o)) l = true -> In op l -> mark op = false.
Proof. intros H Hi. rewrite forallb_forall in H. specialize (H op Hi). now apply negb_true_iff in H. Qed.
Lemma mark_assign op : c_assign_op op -> mark op = false.
Proof. apply mark_in. reflexivity. Qed.
Lemma mark_binary op n : c_binary_op op n -> mark op = false.
Proof.
  intros (i & ops & H & Hi & _). apply nth_error_In in H. apply (mark_in op (concat c_levels)); [reflexivity|].
  apply in_concat. eauto.
Qed.
Lemma clean_words l : clean (map TWord l).
Proof. induction l; constructor; [apply hash_word|assumption]. Qed.
Lemma clean_strs l : clean (map TStr l).
Proof. induction l; constructor; [apply hash_str|assumption]. Qed.
Lemma clean_stars n : clean (repeat (TPunct "*") n).
Proof. induction n; constructor; [now apply hash_punct|assumption]. Qed.
Ltac cl := repeat first [assumption | apply clean_nil | apply clean_app | apply clean_words | apply clean_strs | apply clean_stars | apply clean_cons
  | apply hash_word | apply hash_num | apply hash_char | apply hash_str | apply hash_punct; first
      [ reflexivity | now apply mark_assign | (eapply mark_binary; eassumption)
      | match goal with H : In ?op ?l |- mark ?op = false => apply (mark_in op l); [reflexivity|exact H] end ] ].

Section Module.
Variable types : str -> bool.
Lemma clean_type ts t : c_type_of types ts t -> clean ts.
Proof. destruct 1; cl; change (clean (map TWord (w :: ws))); cl. Qed.
Lemma clean_typeform ts t : c_typeform_of types ts t -> clean ts.
Proof. destruct 1. apply clean_app; [eapply clean_type; eauto|cl]. Qed.
Lemma clean_expr_m : (forall n ts e, c_expr_of types n ts e -> clean ts) /\ (forall ts l, c_args_of types ts l -> clean ts)
  /\ (forall ts l, c_more_args_of types ts l -> clean ts).
Proof.
  apply c_expr_mutual; intros; try assumption; try match goal with H : c_typeform_of _ _ _ |- _ => apply clean_typeform in H end; cl.
Qed.
Lemma clean_expr n ts e : c_expr_of types n ts e -> clean ts. Proof. apply clean_expr_m. Qed.
Ltac known := repeat match goal with
  | H : c_expr_of _ _ _ _ |- _ => apply clean_expr in H
  | H : c_type_of _ _ _ |- _ => apply clean_type in H
  | H : c_typeform_of _ _ _ |- _ => apply clean_typeform in H
  end.
Lemma clean_init ts e : c_init_of types ts e -> clean ts.
Proof.
  revert ts e. apply (c_init_ind_m types (fun ts _ _ => clean ts) (fun ts _ _ => clean ts) (fun ts _ _ => clean ts)); intros; known; cl.
Qed.
Lemma clean_indexes ts l : c_indexes_of types ts l -> clean ts.
Proof. induction 1; known; cl. Qed.
Lemma clean_declarator ts f : c_declarator_of types ts f -> clean ts.
Proof. destruct 1 as [n x ts l Hx Hi]. apply clean_indexes in Hi. cl. Qed.
Lemma clean_init_declarator ts d : c_init_declarator_of types ts d -> clean ts.
Proof.
  destruct 1 as [ts f H|ts f ts' e H Hi]; apply clean_declarator in H; [exact H|]. apply clean_init in Hi. cl.
Qed.
Lemma clean_declarators ts l : c_declarators_of types ts l -> clean ts.
Proof. induction 1; match goal with H : c_init_declarator_of _ _ _ |- _ => apply clean_init_declarator in H end; cl. Qed.
Lemma clean_opt ts e : c_opt_of types ts e -> clean ts.
Proof. destruct e; cbn; intros H; [now apply clean_expr in H|subst; cl]. Qed.
Lemma clean_for_init ts i : c_for_init_of types ts i -> clean ts.
Proof.
  destruct 1 as [|ts e H|ts t ts' f ts'' e Ht Hf He]; [cl|now apply clean_expr in H|]. apply clean_type in Ht. apply clean_declarator in Hf. apply clean_init in He. cl.
Qed.
Ltac more_known := repeat match goal with
  | H : c_opt_of _ _ _ |- _ => apply clean_opt in H
  | H : c_for_init_of _ _ _ |- _ => apply clean_for_init in H
  | H : c_declarators_of _ _ _ |- _ => apply clean_declarators in H
  | H : c_declarator_of _ _ _ |- _ => apply clean_declarator in H
  | H : c_init_of _ _ _ |- _ => apply clean_init in H
  end; known.
Lemma clean_stmt_m : (forall ts s, c_stmt_of types ts s -> clean ts) /\ (forall ts l, c_items_of types ts l -> clean ts).
Proof. apply c_stmt_mutual; intros; more_known; cl. Qed.
Lemma clean_items ts l : c_items_of types ts l -> clean ts. Proof. apply clean_stmt_m. Qed.
Lemma clean_param_list ts l : c_param_list_of types ts l -> clean ts.
Proof. induction 1; more_known; cl. Qed.
Lemma clean_params ts p : c_params_of types ts p -> clean ts.
Proof. destruct 1; try match goal with H : c_param_list_of _ _ _ |- _ => apply clean_param_list in H end; cl. Qed.
Lemma clean_anon_list ts l : c_anon_list_of types ts l -> clean ts.
Proof. induction 1; more_known; cl. Qed.
Lemma clean_anon ts p : c_anon_of types ts p -> clean ts.
Proof. destruct 1; try match goal with H : c_anon_list_of _ _ _ |- _ => apply clean_anon_list in H end; cl. Qed.
Lemma clean_fields ts l : c_fields_of types ts l -> clean ts.
Proof. induction 1; more_known; cl. Qed.
Lemma clean_member ts m : c_member_of types ts m -> clean ts.
Proof. destruct 1; try match goal with H : c_fields_of _ _ _ |- _ => apply clean_fields in H end; more_known; cl. Qed.
Lemma clean_members ts l : c_members_of types ts l -> clean ts.
Proof. induction 1; match goal with H : c_member_of _ _ _ |- _ => apply clean_member in H end; cl. Qed.
Lemma clean_enumerators ts l : c_enumerators_of types ts l -> clean ts.
Proof.
  induction 1 as [ts m H|ts m ts' l H]; destruct H; more_known; cl.
Qed.
Lemma clean_ext ts d : c_ext_of types ts d -> clean ts.
Proof.
  destruct 1 as [ts t n x tp p tz z Ht Hx Hp Hz| |x ts l H|ts l H|tb b ts t ts' f ts'' v Hb Ht Hf Hv|tb b ts t ts' f tp p Hb Ht Hf Hp|tb b ts t ts' f tp p ti l Hb Ht Hf Hp Hi];
    more_known; try (assert (clean tb) by (rewrite Hb; destruct b; cl)).
  - destruct Hp as [|tp p Hp], Hz as [|tz z Hz]; try apply clean_anon in Hp; known; cl.
  - cl.
  - apply clean_members in H. cl.
  - apply clean_enumerators in H. cl.
  - cl.
  - apply clean_params in Hp. cl.
  - apply clean_params in Hp. apply clean_items in Hi. cl.
Qed.

(** ** From texts to pieces *)
Lemma pieces_blank ws text ps fresh : all blank ws -> fresh = true \/ In 10%N ws -> pieces true text ps -> pieces fresh (ws ++ text) ps.
Proof.
  intros Hw Hf H. inversion H as [f ws' Hw' E1 E2|f ws' t s text' ps' Hw' Hh Hs Hp E1 E2|f ws' line text' ps' Hw' Hl Hd Hp E1 E2]; subst.
  - constructor. now apply Forall_app.
  - rewrite app_assoc. constructor; auto. now apply Forall_app.
  - rewrite app_assoc. constructor; auto; [now apply Forall_app|]. rewrite in_app_iff. destruct Hf; auto.
Qed.
Lemma reads_pieces a ts text : reads a ts text -> forall rest ps fresh, text = nl ++ rest -> clean ts -> pieces true rest ps ->
  pieces fresh (a ++ text) (map PTok ts ++ ps).
Proof.
  induction 1 as [ws text Hw|ws t s a ts text Hw Hs Hr IH]; intros rest ps fresh -> Hc Hp.
  - cbn [map app]. rewrite app_assoc. apply pieces_blank; [|right; rewrite in_app_iff; right; now left|exact Hp]. apply Forall_app. split; [exact Hw|repeat constructor].
  - inversion Hc; subst. cbn [map app]. rewrite <- !app_assoc. constructor; auto. eapply IH; eauto.
Qed.
Lemma reads_line text ts rest : reads text ts rest -> forall a, text = a ++ nl -> reads a ts (nl ++ rest).
Proof.
  induction 1 as [ws rest Hw|ws t s text ts rest Hw Hs Hr IH]; intros a E.
  - subst. apply Forall_app in Hw as [Hw _]. now constructor.
  - destruct text as [|c text] using rev_ind.
    + rewrite app_nil_r in E. apply spells_line in Hs as Hn. destruct s as [|c s] using rev_ind.
      * inversion Hs as [| s' r Hp Hq | | | op r Hi ? ? ? ?]; subst; [inversion Hp; subst; destruct s; discriminate|].
        exfalso. revert Hi. cbn. intuition (subst; discriminate).
      * rewrite app_assoc in E. apply app_inj_tail in E as [_ ->]. exfalso. apply Hn. rewrite in_app_iff. right. now left.
    + clear IHtext. rewrite !app_assoc in E. apply app_inj_tail in E as [<- ->]. rewrite <- app_assoc. constructor; auto. now rewrite <- app_assoc in Hs.
Qed.

(** ** Declarations *)
Lemma type_printed t : plain_type types t -> exists tt, c_type_of types tt t
  /\ forall s ts rest, reads s ts rest -> reads (format_type t ++ L " " ++ s) (tt ++ ts) rest.
Proof.
  intros H. destruct (typeform_reads types _ H) as (tt & Ht & Hr). inversion Ht as [tt0 t0 n E E1 E2]; subst. cbn [repeat] in *. rewrite app_nil_r in *.
  exists tt0. split; [exact E|]. unfold fmt_bare_typeform in Hr. cbn [cbtf_type cbtf_hops] in Hr. change (stars 0) with ([] : str) in Hr. rewrite app_nil_r in Hr.
  intros s ts rest Hs. apply reads_app; [apply Hr; cbn; tauto|now apply reads_space].
Qed.
Lemma declared_printed t f : plain_type types t -> plain_form types f -> exists tt tf, c_type_of types tt t /\ c_declarator_of types tf f
  /\ forall s ts rest, heads loose (s ++ rest) -> reads s ts rest -> reads (format_type t ++ L " " ++ format_form f ++ s) (tt ++ tf ++ ts) rest.
Proof.
  intros Ht Hf. destruct (type_printed t Ht) as (tt & Ct & Rt). destruct (form_reads types f Hf) as (tf & Rf & Cf).
  exists tt, tf. split; [exact Ct|]. split; [exact Cf|]. intros s ts rest Hh Hs. apply Rt. apply reads_app; [now apply Rf|exact Hs].
Qed.
Lemma dots_reads s ts rest : reads s ts rest -> match s ++ rest with [] => True | c :: _ => extends "..." c = false end ->
  reads (L ", ..." ++ s) (TPunct "," :: TPunct "..." :: ts) rest.
Proof.
  intros Hs He. change (L ", ..." ++ s) with (L "," ++ L " " ++ L "..." ++ s). apply reads_final; [final|]. apply reads_space.
  apply reads_tok; [|exact Hs]. apply spells_punct; [cbn; tauto|discriminate|exact He|discriminate].
Qed.
Lemma param_list_printed l : l <> [] -> Forall (plain_typeform types) l -> exists ts, c_param_list_of types ts l
  /\ forall s ts' rest, heads loose (s ++ rest) -> reads s ts' rest ->
       reads (join (L ", ") (map (fun x => format_type (ctf_type x) ++ L " " ++ format_form (ctf_form x)) l) ++ s) (ts ++ ts') rest.
Proof.
  intros Hn H. induction H as [|[t f] l [Ht Hf] Hl IH]; [now destruct Hn|]. cbn [ctf_type ctf_form] in *.
  destruct (declared_printed t f Ht Hf) as (tt & tf & Ct & Cf & R). destruct l as [|y l].
  - exists (tt ++ tf). split; [now constructor|]. intros s ts' rest Hh Hs. cbn [map join ctf_type ctf_form]. rewrite <- !app_assoc. now apply R.
  - destruct IH as (ts & C & Rl); [discriminate|]. exists (tt ++ tf ++ TPunct "," :: ts). split; [now constructor|]. intros s ts' rest Hh Hs.
    set (g := fun x => format_type (ctf_type x) ++ L " " ++ format_form (ctf_form x)) in *.
    change (join (L ", ") (map g (mkCtf t f :: y :: l))) with (g (mkCtf t f) ++ L ", " ++ join (L ", ") (map g (y :: l))).
    unfold g at 1. cbn [ctf_type ctf_form]. rewrite <- !app_assoc. apply R; [cbn; tauto|].
    change (L ", ") with (L "," ++ L " "). rewrite <- app_assoc. cbn [app]. apply (reads_final ","); [final|]. apply reads_space. now apply Rl.
Qed.
Lemma params_printed p : plain_params types p -> exists ts, c_params_of types ts p
  /\ forall s ts' rest, reads s ts' rest -> reads (fmt_func_params p ++ s) (TPunct "(" :: ts ++ TPunct ")" :: ts') rest.
Proof.
  destruct p as [l v]. unfold plain_params, fmt_func_params. cbn [cfp_list cfp_variadic]. intros [Hl Hv]. destruct l as [|x l].
  - assert (v = false) by (destruct v; [now destruct Hv|reflexivity]). subst v. exists [TWord (L "void")]. split; [constructor|].
    intros s ts' rest Hs. cbn [map join app]. change (L "(" ++ L "void" ++ L ")") with (L "(" ++ L "void" ++ L ")"). rewrite <- !app_assoc.
    apply reads_final; [final|]. apply reads_word; [kw|cbn; tauto|]. apply reads_final; [final|exact Hs].
  - destruct (param_list_printed (x :: l)) as (ts & C & R); [discriminate|exact Hl|]. destruct v.
    + exists (ts ++ [TPunct ","; TPunct "..."]). split; [now constructor|]. intros s ts' rest Hs. rewrite <- !app_assoc. apply reads_final; [final|].
      cbn [app]. apply R; [cbn; tauto|]. apply dots_reads; [|reflexivity]. apply (reads_final ")"); [final|exact Hs].
    + exists ts. split; [now constructor|]. intros s ts' rest Hs. rewrite <- !app_assoc. apply reads_final; [final|]. cbn [app]. apply R; [cbn; tauto|].
      apply (reads_final ")"); [final|exact Hs].
Qed.
Lemma anon_list_printed l : l <> [] -> Forall (c_type_ok types) l -> exists ts, c_anon_list_of types ts l
  /\ forall s ts' rest, heads tight (s ++ rest) -> reads s ts' rest -> reads (join (L ", ") (map fmt_bare_typeform l) ++ s) (ts ++ ts') rest.
Proof.
  intros Hn H. induction H as [|t l Ht Hl IH]; [now destruct Hn|]. destruct (typeform_reads types t Ht) as (tt & Ct & Rt). destruct l as [|y l].
  - exists tt. split; [now constructor|]. intros s ts' rest Hh Hs. cbn [map join]. apply reads_app; [now apply Rt|exact Hs].
  - destruct IH as (ts & C & Rl); [discriminate|]. exists (tt ++ TPunct "," :: ts). split; [now constructor|]. intros s ts' rest Hh Hs.
    change (join (L ", ") (map fmt_bare_typeform (t :: y :: l))) with (fmt_bare_typeform t ++ L ", " ++ join (L ", ") (map fmt_bare_typeform (y :: l))).
    change (L ", ") with (L "," ++ L " "). rewrite <- !app_assoc. apply reads_app; [apply Rt; cbn; tauto|]. cbn [app]. apply (reads_final ","); [final|].
    apply reads_space. now apply Rl.
Qed.
Lemma void_type ts l : c_anon_list_of types ts l -> ts = [TWord (L "void")] -> l = [mkCbtf (mkCtn false (L "void")) 0].
Proof.
  intros H. destruct H as [ts t H|ts t ts' l H H']; intros E.
  - destruct H as [ts t n H]. destruct n as [|n]; [|cbn [repeat] in E; destruct ts as [|? [|? ?]]; discriminate].
    cbn [repeat] in E. rewrite app_nil_r in E. subst. inversion H as [w ws H1 H2 E1 E2|w ws H1 E1 E2]; subst. destruct ws; [reflexivity|discriminate].
  - exfalso. destruct ts as [|? [|? ?]]; try discriminate.
Qed.
Lemma anon_printed p : plain_anon types p -> exists ts, c_anon_of types ts p
  /\ forall s ts' rest, reads s ts' rest -> reads (fmt_anon_params p ++ s) (TPunct "(" :: ts ++ TPunct ")" :: ts') rest.
Proof.
  destruct p as [v l]. unfold plain_anon, fmt_anon_params. cbn [cap_forms cap_ellipsis]. intros (Hl & Hv & Hx). destruct l as [|x l].
  - assert (v = false) by (destruct v; [now destruct Hv|reflexivity]). subst v. exists [TWord (L "void")]. split; [constructor|].
    intros s ts' rest Hs. change (L "(void)") with (L "(" ++ L "void" ++ L ")"). rewrite <- !app_assoc.
    apply reads_final; [final|]. apply reads_word; [kw|cbn; tauto|]. apply reads_final; [final|exact Hs].
  - destruct (anon_list_printed (x :: l)) as (ts & C & R); [discriminate|exact Hl|]. destruct v.
    + exists (ts ++ [TPunct ","; TPunct "..."]). split; [now constructor|]. intros s ts' rest Hs. rewrite <- !app_assoc. apply reads_final; [final|].
      cbn [app]. apply R; [cbn; tauto|]. apply dots_reads; [|reflexivity]. apply (reads_final ")"); [final|exact Hs].
    + exists ts. split; [constructor; [exact C|intros E; apply (Hx eq_refl); eapply void_type; eauto]|]. intros s ts' rest Hs. rewrite <- !app_assoc.
      apply reads_final; [final|]. cbn [app]. apply R; [cbn; tauto|]. apply (reads_final ")"); [final|exact Hs].
Qed.
Definition field_text (x : ctypename * cform) : str := format_type (fst x) ++ L " " ++ format_form (snd x) ++ L ";" ++ nl.
Lemma fields_printed l : l <> [] -> Forall (plain_field types) l -> exists ts, c_fields_of types ts l
  /\ forall rest, reads (flat_map (fun x => tab ++ field_text x) l) ts rest.
Proof.
  intros Hn H. induction H as [|[t f] l [Ht Hf] Hl IH]; [now destruct Hn|]. cbn [fst snd] in *.
  destruct (declared_printed t f Ht Hf) as (tt & tf & Ct & Cf & R). destruct l as [|y l].
  - exists (tt ++ tf ++ [TPunct ";"]). split; [now constructor|]. intros rest. cbn [flat_map]. rewrite app_nil_r. unfold field_text. cbn [fst snd].
    apply reads_tab. apply R; [cbn; tauto|]. apply reads_final; [final|]. apply reads_blank. repeat constructor.
  - destruct IH as (ts & C & Rl); [discriminate|]. exists (tt ++ tf ++ TPunct ";" :: ts). split; [now constructor|]. intros rest.
    change (flat_map (fun x => tab ++ field_text x) ((t, f) :: y :: l)) with ((tab ++ field_text (t, f)) ++ flat_map (fun x => tab ++ field_text x) (y :: l)).
    unfold field_text at 1. cbn [fst snd]. rewrite <- !app_assoc. apply reads_tab. apply R; [cbn; tauto|]. apply reads_final; [final|]. apply reads_break, Rl.
Qed.
Definition member_text (i : cstruct_item) : str :=
  match i with
  | CSField t => format_type (ctf_type t) ++ L " " ++ format_form (ctf_form t) ++ L ";" ++ nl
  | CSUnion f fs => format_union f fs
  end.
Lemma member_printed m : plain_member types m -> exists ts, c_member_of types ts m /\ forall rest, reads (member_text m) ts rest.
Proof.
  destruct m as [[t f]|f l]; cbn [plain_member member_text].
  - intros [Ht Hf]. cbn [ctf_type ctf_form] in *. destruct (declared_printed t f Ht Hf) as (tt & tf & Ct & Cf & R).
    exists (tt ++ tf ++ [TPunct ";"]). split; [now constructor|]. intros rest. apply R; [cbn; tauto|]. apply reads_final; [final|]. apply reads_blank. repeat constructor.
  - intros (Hf & Hn & Hl). destruct (fields_printed l Hn Hl) as (ts & C & R). destruct (form_reads types f Hf) as (tf & Rf & Cf).
    exists (TWord (L "union") :: TPunct "{" :: ts ++ TPunct "}" :: tf ++ [TPunct ";"]). split; [now constructor|]. intros rest. unfold format_union.
    change (L "union {") with (L "union" ++ L " " ++ L "{"). change (L "} ") with (L "}" ++ L " "). rewrite <- !app_assoc.
    apply reads_word; [kw|cbn; tauto|]. apply reads_space, reads_final; [final|]. apply reads_break. apply reads_app; [apply R|]. apply reads_break.
    apply reads_final; [final|]. apply reads_space. apply reads_app; [apply Rf; cbn; tauto|]. apply reads_final; [final|]. apply reads_blank. repeat constructor.
Qed.
Lemma members_printed l : l <> [] -> Forall (plain_member types) l -> exists ts, c_members_of types ts l /\ forall rest, reads (flat_map member_text l) ts rest.
Proof.
  intros Hn H. induction H as [|m l Hm Hl IH]; [now destruct Hn|]. destruct (member_printed m Hm) as (tm & Cm & Rm). destruct l as [|y l].
  - exists tm. split; [now constructor|]. intros rest. cbn [flat_map]. rewrite app_nil_r. apply Rm.
  - destruct IH as (ts & C & R); [discriminate|]. exists (tm ++ ts). split; [now constructor|]. intros rest.
    change (flat_map member_text (m :: y :: l)) with (member_text m ++ flat_map member_text (y :: l)). apply reads_app; [apply Rm|apply R].
Qed.
Lemma plain_constant e : plain types e -> (forall op a b, e = CBin op a b -> ~ c_assign_op op) ->
  exists ts, (forall rest, heads tight rest -> reads (fmt_expr e) ts rest) /\ c_expr_of types 3 ts e.
Proof.
  intros Hk Ha. destruct (proj1 (plain_good types) e Hk) as (tk & Rk & Ek & _). exists tk. split; [intros rest Hh; apply Rk, tight_after, Hh|].
  pose proof (lvl_range types e Hk). destruct (Nat.eq_dec (lvl e) 2) as [E|E]; [|eapply up_to; [exact Ek|lia|lia]].
  exfalso. destruct Hk; cbn in E; try lia; try discriminate.
  - now apply (Ha op a b).
  - rewrite (binary_strength op n) in E by assumption. pose proof (binary_range op n). intuition lia.
Qed.
Lemma enumerator_printed m : plain_enumerator types m -> exists ts, c_enumerator_of types ts m
  /\ forall rest, heads tight rest -> reads (format_enum_member m) ts rest.
Proof.
  destruct m as [x [e|]]; intros (Hi & Hw & He); cbn [fst snd] in *; unfold format_enum_member; cbn [fst snd].
  - destruct He as [He Ha]. destruct (plain_constant e He Ha) as (te & Re & Ce). exists (TWord x :: TPunct "=" :: te). split; [now constructor|].
    intros rest Hh. apply reads_word; [exact Hw|cbn; tauto|]. apply (equals_reads types). now apply Re.
  - exists [TWord x]. split; [now constructor|]. intros rest Hh. rewrite app_nil_r. apply word_reads; [exact Hw|now apply tight_loose].
Qed.
Lemma enumerators_printed l : l <> [] -> Forall (plain_enumerator types) l -> exists ts, c_enumerators_of types ts l
  /\ forall rest, heads tight rest -> reads (join (L "," ++ nl) (map (fun m => tab ++ format_enum_member m) l)) ts rest.
Proof.
  intros Hn H. induction H as [|m l Hm Hl IH]; [now destruct Hn|]. destruct (enumerator_printed m Hm) as (tm & Cm & Rm). destruct l as [|y l].
  - exists tm. split; [now constructor|]. intros rest Hh. cbn [map join]. apply reads_tab. now apply Rm.
  - destruct IH as (ts & C & R); [discriminate|]. exists (tm ++ TPunct "," :: ts). split; [now constructor|]. intros rest Hh.
    set (g := fun m => tab ++ format_enum_member m) in *.
    change (join (L "," ++ nl) (map g (m :: y :: l))) with (g m ++ L "," ++ nl ++ join (L "," ++ nl) (map g (y :: l))).
    unfold g at 1. rewrite <- !app_assoc. apply reads_tab. apply reads_app; [apply Rm; cbn; tauto|]. apply reads_final; [final|]. apply reads_break. now apply R.
Qed.

(** ** Decimal numbers *)
Lemma digits_number u : u <> Decimal.Nil -> pp_number (uint_digits u).
Proof.
  assert (H : forall u s, pp_number s -> pp_number (s ++ uint_digits u)).
  { induction u0 as [| | | | | | | | | |]; intros s Hs; cbn [uint_digits]; [rewrite app_nil_r; exact Hs|..];
      match goal with |- pp_number (_ ++ ?d :: ?r) => change (d :: r) with ([d] ++ r) end; rewrite app_assoc; apply IHu0; constructor; auto. }
  destruct u; intros Hn; [now destruct Hn|..]; cbn [uint_digits]; match goal with |- pp_number (?d :: ?r) => change (d :: r) with ([d] ++ r) end;
    apply H; now constructor.
Qed.
Lemma dec_number n : pp_number (dec n).
Proof.
  apply digits_number. destruct n as [|p]; [discriminate|]. cbn. intros E. pose proof (DecimalPos.Unsigned.to_uint_nonnil p). contradiction.
Qed.

(** ** Elements *)
Lemma main_form f : plain_form types f -> str_eqb (format_form f) (L "main") = is_main f.
Proof.
  destruct f as [st x l]. intros ((n & Hn) & _ & (c & w & Hx & Hc & Hw) & _). cbn [cf_stars cf_name] in *. subst st.
  unfold format_form. cbn [cf_stars cf_name cf_indexes]. destruct n as [|n].
  - cbn [repeat app is_main]. destruct l as [|i l]; [now rewrite app_nil_r|]. apply str_eqb_neq. intros E.
    assert (Hb : In 91%N (L "main")). { rewrite <- E, in_app_iff. right. cbn [flat_map]. rewrite in_app_iff. left. destruct i; now left. }
    cbn in Hb. intuition discriminate.
  - cbn [repeat app is_main]. apply str_eqb_neq. discriminate.
Qed.
Lemma static_printed (b : bool) s ts rest : reads s ts rest ->
  reads ((if b then L "static " else []) ++ s) ((if b then [TWord (L "static")] else []) ++ ts) rest.
Proof.
  intros H. destruct b; [|exact H]. change (L "static ") with (L "static" ++ L " "). rewrite <- app_assoc. cbn [app].
  apply reads_word; [kw|cbn; tauto|]. now apply reads_space.
Qed.
Definition ends_line (s : str) : Prop := exists a, s = a ++ nl.
Lemma ends_app a b : ends_line b -> ends_line (a ++ b).
Proof. intros (z & ->). exists (a ++ z). now rewrite app_assoc. Qed.
Lemma ends_nl : ends_line nl. Proof. exists []. reflexivity. Qed.

Theorem elem_printed x : plain_elem types x ->
  match unit_of x with
  | ULine s => format_elem x = L "#" ++ s ++ nl /\ directive s
  | UExt d => exists ts, c_ext_of types ts d /\ (forall rest, reads (format_elem x) ts rest) /\ ends_line (format_elem x)
  end.
Proof.
  destruct x as [s|n v|s|f|e|t|s|v|f]; cbn [plain_elem unit_of format_elem].
  - intros H. split; [|exact H]. reflexivity.
  - intros H. split; [|exact H]. now rewrite <- !app_assoc.
  - intros H. eexists. split; [constructor|]. split; [|repeat apply ends_app; apply ends_nl]. intros rest.
    change (L "struct ") with (L "struct" ++ L " "). rewrite <- !app_assoc. apply reads_word; [kw|cbn; tauto|]. apply reads_space.
    apply reads_word; [exact H|cbn; tauto|]. apply reads_final; [final|]. apply reads_blank. repeat constructor.
  - intros (Ht & Hf & Hp). destruct (declared_printed _ _ Ht Hf) as (tt & tf & Ct & Cf & R). destruct (params_printed _ Hp) as (tp & Cp & Rp).
    eexists. split; [apply Ce_proto; [reflexivity|exact Ct|exact Cf|exact Cp]|]. unfold fmt_forward_func. split; [|repeat apply ends_app; apply ends_nl].
    intros rest. rewrite (main_form _ Hf). apply static_printed. apply R; [cbn; tauto|]. apply reads_space. apply Rp.
    apply reads_final; [final|]. apply reads_blank. repeat constructor.
  - intros (Hn & Hl). destruct (enumerators_printed _ Hn Hl) as (ts & C & R). eexists. split; [apply Ce_enum; exact C|]. unfold fmt_enumdef.
    split; [|repeat apply ends_app; apply ends_nl]. intros rest. change (L "enum {") with (L "enum" ++ L " " ++ L "{"). change (L "};") with (L "}" ++ L ";").
    rewrite <- !app_assoc. apply reads_word; [kw|cbn; tauto|]. apply reads_space, reads_final; [final|]. apply reads_break.
    apply reads_app; [apply R; cbn; tauto|]. apply reads_break. apply reads_final; [final|]. apply reads_final; [final|]. apply reads_blank. repeat constructor.
  - destruct t as [pub t [st p z x]]. cbn [ctd_type ctd_form ctdf_stars ctdf_params ctdf_size ctdf_alias]. intros (Ht & (n & ->) & Hx & Hw & Hp).
    destruct (type_printed t Ht) as (tt & Ct & Rt). rewrite repeat_length.
    assert (P : exists tp, c_typedef_params_of types tp p /\ forall s ts rest, heads loose (s ++ rest) -> reads s ts rest ->
      reads (match p with Some p => fmt_anon_params p | None => [] end ++ s) (tp ++ ts) rest
      /\ heads loose ((match p with Some p => fmt_anon_params p | None => [] end ++ s) ++ rest)).
    { destruct p as [p|].
      - destruct (anon_printed p Hp) as (tp & Cp & Rp). exists (TPunct "(" :: tp ++ [TPunct ")"]). split; [now constructor|]. intros s ts rest Hh Hs.
        split; [|unfold fmt_anon_params; destruct (cap_forms p); cbn; tauto]. cbn [app]. rewrite <- app_assoc. now apply Rp.
      - exists []. split; [constructor|]. auto. }
    assert (Z : exists tz, c_size_of types tz (if N.ltb 0 z then Some (CLit (CLNumber (dec z))) else None) /\ forall s ts rest, heads loose (s ++ rest) -> reads s ts rest ->
      reads ((if N.ltb 0 z then L "[" ++ dec z ++ L "]" else []) ++ s) (tz ++ ts) rest
      /\ heads loose (((if N.ltb 0 z then L "[" ++ dec z ++ L "]" else []) ++ s) ++ rest)).
    { destruct (N.ltb 0 z).
      - exists (TPunct "[" :: [TNum (dec z)] ++ [TPunct "]"]). split; [constructor; apply (up_to types 16); [apply C_number|lia|lia]|]. intros s ts rest Hh Hs.
        split; [|cbn; tauto]. rewrite <- !app_assoc.
        change ((TPunct "[" :: [TNum (dec z)] ++ [TPunct "]"]) ++ ts) with (TPunct "[" :: [TNum (dec z)] ++ TPunct "]" :: ts). apply reads_final; [final|]. apply reads_app; [apply number_reads; [apply dec_number|cbn; tauto]|].
        apply reads_final; [final|exact Hs].
      - exists []. split; [constructor|]. auto. }
    destruct P as (tp & Cp & Rp). destruct Z as (tz & Cz & Rz). eexists. split; [apply Ce_typedef; [exact Ct|exact Hx|exact Cp|exact Cz]|].
    unfold format_typedef. cbn [ctd_type ctd_form ctdf_stars ctdf_params ctdf_size ctdf_alias]. split; [|repeat apply ends_app; apply ends_nl].
    intros rest. change (L "typedef ") with (L "typedef" ++ L " "). rewrite <- !app_assoc. apply reads_word; [kw|cbn; tauto|]. apply reads_space.
    apply Rt. apply (hops_reads types); [exact Hw|].
    destruct (Rz (L ";" ++ nl) [TPunct ";"] rest) as [Z1 Z2]; [cbn; tauto|apply reads_final; [final|apply reads_blank; repeat constructor]|].
    destruct (Rp _ _ _ Z2 Z1) as [P1 P2]. apply reads_word; [exact Hw|exact P2|exact P1].
  - intros (Hw & Hn & Hl). destruct (members_printed _ Hn Hl) as (ts & C & R). eexists. split; [apply Ce_struct; exact C|]. unfold format_struct_def.
    split; [|repeat apply ends_app; apply ends_nl]. intros rest. change (L "struct ") with (L "struct" ++ L " "). change (L " {") with (L " " ++ L "{"). change (L "};") with (L "}" ++ L ";").
    rewrite <- !app_assoc. apply reads_word; [kw|cbn; tauto|]. apply reads_space. apply reads_word; [exact Hw|cbn; tauto|]. apply reads_space, reads_final; [final|]. apply reads_break.
    apply reads_app; [apply indent_reads; apply R|]. apply reads_break. apply reads_final; [final|]. apply reads_final; [final|]. apply reads_blank. repeat constructor.
  - intros (Ht & Hf & Hv). destruct (declared_printed _ _ Ht Hf) as (tt & tf & Ct & Cf & R). destruct (plain_init_reads types _ Hv) as (tv & Rv & Cv).
    eexists. split; [apply Ce_var; [reflexivity|exact Ct|exact Cf|exact Cv]|]. split; [|repeat apply ends_app; apply ends_nl].
    intros rest. apply (static_printed true). apply R; [cbn; tauto|]. apply (equals_reads types). apply reads_app; [apply Rv; cbn; tauto|].
    apply reads_final; [final|]. apply reads_blank. repeat constructor.
  - intros (Ht & Hf & Hp & Hb). destruct (declared_printed _ _ Ht Hf) as (tt & tf & Ct & Cf & R). destruct (params_printed _ Hp) as (tp & Cp & Rp).
    destruct (printed_stmts types (cfd_body f)) as (tb & Rb & Ib).
    { apply (body_forall types); [|exact Hb]. apply Forall_forall. intros s _. apply stmt_printed. }
    eexists. split; [apply Ce_func; [reflexivity|exact Ct|exact Cf|exact Cp|exact Ib]|]. unfold fmt_func_def, format_body. split; [|repeat apply ends_app; apply ends_nl].
    intros rest. rewrite (main_form _ Hf). apply static_printed. apply R; [cbn; tauto|]. apply reads_space. apply Rp.
    apply reads_space, reads_final; [final|]. apply reads_break. apply reads_app; [apply indent_reads, Rb|].
    apply reads_final; [final|]. apply reads_blank. repeat constructor.
Qed.
Theorem module_printed m : Forall (plain_elem types) (cm_elements m) ->
  exists ps, pieces true (format_module m) ps /\ c_file_of types ps (map unit_of (cm_elements m)).
Proof.
  unfold format_module. induction 1 as [|x l Hx Hl (ps & Hp & Hc)].
  - exists []. split; [apply Pieces_end; constructor|constructor].
  - cbn [flat_map map]. apply elem_printed in Hx. destruct (unit_of x) as [s|d].
    + destruct Hx as [-> Hd]. exists (PLine s :: ps). split; [|now constructor]. rewrite <- !app_assoc. apply (Pieces_line true []); auto. constructor.
    + destruct Hx as (ts & Ce & Hr & a & E). exists (map PTok ts ++ ps). split; [|now constructor]. rewrite E, <- app_assoc.
      eapply reads_pieces; [eapply reads_line; [apply Hr|exact E]|reflexivity|eapply clean_ext; eauto|exact Hp].
Qed.
End Module.
