(** Writing out the lists of names in parameters and struct fields changes
    nothing. *)
From Verif Require Import Base BaseFacts Buf Nodes NodeQueries NodeInd Types Cspec Resolve Cursor
  Preparser Parser CAst FormatChe FormatC Translator SpecDecl SpecTarget SpecScope ScopeFacts TrFacts
  TargetFacts SpecModule.

Lemma tbind_assoc' : forall A B C (m : TR A) (f : A -> TR B) (g : B -> TR C) s,
  tbind (tbind m f) g s = tbind m (fun a => tbind (f a) g) s.
Proof. intros. unfold tbind. destruct (m s) as [[a s1] | |]; auto. Qed.
Lemma tbind_tret : forall A (m : TR A) s, tbind m tret s = m s.
Proof. intros. unfold tbind, tret. destruct (m s) as [[a s1] | |]; auto. Qed.
Lemma tmap_app : forall A B (f : A -> TR B) a b s,
  tmap f (a ++ b) s = (x <- tmap f a ;; y <- tmap f b ;; tret (x ++ y)) s.
Proof.
  intros A B f a b. induction a as [| e a IH]; intros s; cbn [app tmap].
  - unfold tbind at 1, tret at 1. symmetry. apply tbind_tret.
  - rewrite tbind_assoc'. apply tbind_ext; [auto |]. intros x s1.
    unfold tbind at 1. rewrite IH. unfold tbind. destruct (tmap f a s1) as [[xs s2] | |]; auto.
    cbn [tret]. destruct (tmap f b s2) as [[ys s3] | |]; auto.
Qed.

(** [concat] after [tmap] over a list that is split up. *)
Definition tflat {A B} (f : A -> TR (list B)) (l : list A) : TR (list B) :=
  x <- tmap f l ;; tret (List.concat x).
Lemma tflat_app : forall A B (f : A -> TR (list B)) a b s,
  tflat f (a ++ b) s = (x <- tflat f a ;; y <- tflat f b ;; tret (x ++ y)) s.
Proof.
  intros A B f a b s. unfold tflat. unfold tbind. rewrite tmap_app. unfold tbind.
  destruct (tmap f a s) as [[x s1] | |]; auto. cbn [tret].
  destruct (tmap f b s1) as [[y s2] | |]; auto. unfold tret. now rewrite concat_app.
Qed.
Lemma tflat_flat : forall A B C (f : A -> TR (list B)) (g : C -> list A) (h : C -> TR (list B)) l,
  (forall c s, tflat f (g c) s = h c s) -> forall s, tflat f (flat_map g l) s = tflat h l s.
Proof.
  intros A B C f g h l H. induction l as [| c l IH]; intros s; cbn [flat_map]; [reflexivity |].
  rewrite tflat_app. unfold tflat at 3. cbn [tmap]. unfold tbind. rewrite H.
  destruct (h c s) as [[x s1] | |]; auto. rewrite IH. unfold tflat, tbind.
  destruct (tmap h l s1) as [[y s2] | |]; auto.
Qed.
Lemma tflat_single : forall A B (f : A -> TR B) l s, tflat (fun a => x <- f a ;; tret [x]) l s = tmap f l s.
Proof.
  intros A B f l. induction l as [| a l IH]; intros s; [reflexivity |]. unfold tflat. cbn [tmap].
  unfold tbind. destruct (f a s) as [[x s1] | |]; auto. cbn [tret]. rewrite <- IH. unfold tflat, tbind.
  destruct (tmap _ l s1) as [[y s2] | |]; auto.
Qed.
Lemma tmap_map : forall A B C (f : B -> TR C) (g : A -> B) l s, tmap f (map g l) s = tmap (fun a => f (g a)) l s.
Proof.
  intros A B C f g l. induction l as [| a l IH]; intros s; [reflexivity |]. cbn [map tmap].
  apply tbind_ext; [auto |]. intros x s1. apply tbind_ext; auto.
Qed.
Lemma tmap_map_ext : forall A B C (f : B -> TR C) (f' : A -> TR C) (g : A -> B) l,
  (forall a s, f (g a) s = f' a s) -> forall s, tmap f (map g l) s = tmap f' l s.
Proof. intros A B C f f' g l H s. rewrite tmap_map. apply tmap_ext. auto. Qed.
Lemma topt_ext : forall A B (f g : A -> TR B) o, (forall a s, f a s = g a s) -> forall s, topt f o s = topt g o s.
Proof. intros A B f g [a |] H s; [| auto]. cbn [topt]. apply tbind_ext; auto. Qed.

(** ** The environment of the written out module *)
Definition spread (env : trenv) : trenv :=
  mkEnv (en_mod env) (en_heads env) (en_cmods env) (map ungroup_module (en_mods env))
        (map (fun x => (fst x, ungroup_fields (snd x))) (en_structs env)) (en_typedefs env).

Section Spread.
Variable env : trenv.
Let env' := spread env.

Lemma spread_assoc : forall x l, assoc x (map (fun y : str * struct_typedef => (fst y, ungroup_fields (snd y))) l)
  = option_map ungroup_fields (assoc x l).
Proof.
  intros x l. induction l as [| [k v] l IH]; [auto |]. cbn [map assoc fst snd]. destruct (str_eqb k x); auto.
Qed.
Lemma spread_find_type : forall x, find_type env' x = find_type env x.
Proof.
  intros x. unfold find_type. cbn [en_structs en_typedefs en_mod env' spread]. rewrite spread_assoc.
  destruct (assoc x (en_structs env)); reflexivity.
Qed.
Lemma forms_app : forall t x a b, field_in_forms t x (a ++ b)
  = match field_in_forms t x a with Some r => Some r | None => field_in_forms t x b end.
Proof. intros t x a b. induction a as [| f a IH]; [auto |]. cbn [app field_in_forms]. destruct (str_eqb _ _); auto. Qed.
Lemma spread_entries : forall x es, field_in_entries x (flat_map (fun e => match e with
      | StPlain x => map StPlain (ungroup [x]) | StUnion u => [StUnion u] end) es) = field_in_entries x es.
Proof.
  intros x es. induction es as [| [[t fs] | u] es IH]; [auto | |]; cbn [flat_map app field_in_entries].
  - rewrite <- IH. clear IH. generalize (flat_map (fun e => match e with
      | StPlain x => map StPlain (ungroup [x]) | StUnion u => [StUnion u] end) es) as rest. intros rest.
    unfold ungroup. cbn [flat_map taf_type taf_forms]. rewrite app_nil_r.
    induction fs as [| f fs IH]; [auto |]. cbn [map app field_in_entries field_in_forms taf_type taf_forms].
    destruct (str_eqb _ _); auto.
  - reflexivity.
Qed.
Lemma spread_field : forall t x, typeof_struct_field env' t x = typeof_struct_field env t x.
Proof.
  intros t x. unfold typeof_struct_field. destruct (is_todo t); [auto |]. destruct (str_eqb _ _); [| auto].
  cbn [en_structs env' spread]. rewrite spread_assoc. destruct (assoc _ (en_structs env)) as [s |]; [| auto].
  cbn [option_map]. unfold ungroup_fields. cbn [st_entries]. now rewrite spread_entries.
Qed.

Lemma ungroup_types : forall l,
  flat_map (fun p => map (typefrom_typename (taf_type p)) (taf_forms p)) (ungroup l)
  = flat_map (fun p => map (typefrom_typename (taf_type p)) (taf_forms p)) l.
Proof.
  unfold ungroup. induction l as [| [t fs] l IH]; [auto |]. cbn [flat_map taf_type taf_forms].
  rewrite flat_map_app, IH. f_equal. clear. induction fs as [| f fs IH]; [auto |].
  cbn [map flat_map taf_type taf_forms app]. now rewrite IH.
Qed.
Lemma spread_functype : forall f, typefrom_funcdecl (ungroup_params f) = typefrom_funcdecl f.
Proof.
  intros f. unfold typefrom_funcdecl, ungroup_params. cbn [fd_type fd_form fd_params fp_list fp_ellipsis].
  now rewrite ungroup_types.
Qed.

Lemma spread_find_ns : forall q, find_ns env' q
  = option_map (fun hm => (fst hm, ungroup_module (snd hm))) (find_ns env q).
Proof.
  intros q. unfold find_ns. cbn [en_mod en_heads en_mods env' spread].
  destruct (find _ _) as [i |]; [| auto]. destruct (position _ _) as [n |]; [| auto].
  destruct (nth_error (en_heads env) n); [| auto]. rewrite nth_error_map.
  destruct (nth_error (en_mods env) n); auto.
Qed.
Lemma spread_getns : forall A q (f g : modinfo * module_ -> TR A) s,
  (forall h m s, f (h, ungroup_module m) s = g (h, m) s) -> tbind (getns env' q) f s = tbind (getns env q) g s.
Proof.
  intros A q f g s H. unfold getns. rewrite spread_find_ns. destruct (find_ns env q) as [[h m] |]; [| reflexivity].
  cbn [option_map fst snd]. unfold tbind, tret. apply H.
Qed.
Lemma existsb_map : forall A B (f : B -> bool) (g : A -> B) l, existsb f (map g l) = existsb (fun a => f (g a)) l.
Proof. intros. induction l as [| a l IH]; [auto |]. cbn [map existsb]. now rewrite IH. Qed.
Lemma spread_has : forall m x, exports_has (mod_exports (ungroup_module m)) x = exports_has (mod_exports m) x.
Proof.
  intros m x. unfold exports_has, ungroup_module. cbn [mod_exports ex_consts ex_fns ex_types]. now rewrite existsb_map.
Qed.

Lemma spread_typename : forall x s, tr_typename env' x s = tr_typename env x s.
Proof.
  intros x s. unfold tr_typename. cbv zeta. destruct (str_eqb _ _); [auto |]. destruct (str_eqb _ _).
  - rewrite spread_find_type. reflexivity.
  - apply spread_getns. intros h m s1. cbv beta iota. rewrite spread_has. reflexivity.
Qed.
Lemma spread_btf : forall x s, tr_bare_typeform env' x s = tr_bare_typeform env x s.
Proof. intros x s. unfold tr_bare_typeform. apply tbind_ext; [apply spread_typename | auto]. Qed.
Lemma find_map : forall A B (f : B -> bool) (g : A -> B) l, find f (map g l) = option_map g (find (fun a => f (g a)) l).
Proof. intros. induction l as [| a l IH]; [auto |]. cbn [map find]. destruct (f (g a)); auto. Qed.
Lemma spread_nsid : forall x s, tr_nsid_in_expr env' x s = tr_nsid_in_expr env x s.
Proof.
  intros x s. unfold tr_nsid_in_expr. apply tbind_ext.
  - unfold tr_nsid. destruct (str_eqb _ _); [auto |]. destruct (negb _); [| reflexivity].
    apply tbind_ext; [auto |]. intros _ s1. apply spread_getns. intros h m s2. cbv beta iota. rewrite spread_has. reflexivity.
  - intros v s1. destruct (str_eqb _ _); [auto |]. destruct (str_eqb _ _); [reflexivity |].
    apply spread_getns. intros h m s2. cbv beta iota. unfold ungroup_module. cbn [mod_exports ex_consts ex_fns].
    destruct (existsb _ _); [auto |]. rewrite find_map. cbn [ungroup_params fd_form].
    change (fun a : funcdecl => str_eqb (f_name (fd_form (ungroup_params a))) (ns_name x))
      with (fun a : funcdecl => str_eqb (f_name (fd_form a)) (ns_name x)).
    destruct (find _ _); [| auto]. cbn [option_map]. rewrite spread_functype. reflexivity.
Qed.

Lemma spread_expr : forall e s, tr_expr env' e s = tr_expr env e s.
Proof.
  induction e as [a i IHa IHi | p op a b IHa IHb | p op t f IHt | t x IHx | es IHes _ | p f args IHf IHa
    | l | n | op x IHx | p op x IHx | t | x IHx] using expr_ind'; intros s.
  - cbn [tr_expr]. apply tbind_ext; [auto |]. intros [ta va] s1. apply tbind_ext; [auto |]. intros [ti vi] s2. reflexivity.
  - cbn [tr_expr]. apply tbind_ext; [auto |]. intros [ta va] s1. apply tbind_ext; [auto |]. intros [ti vi] s2. reflexivity.
  - cbn [tr_expr]. apply tbind_ext; [auto |]. intros [ta va] s1. rewrite spread_field. reflexivity.
  - cbn [tr_expr]. apply tbind_ext; [auto |]. intros [ta va] s1. apply tbind_ext; [apply spread_btf | auto].
  - rewrite !tr_expr_comp. apply tbind_ext; [| auto]. revert s. induction IHes as [| [[i k] v] es H IHes IH]; intros s; [auto |].
    cbn [tmap]. apply tbind_ext; [| intros x s1; apply tbind_ext; auto].
    unfold tr_entry. cbn [fst snd] in *. apply tbind_ext; [auto |]. intros k' s1. apply tbind_ext; [auto | intros [? ?]; auto].
  - rewrite !tr_expr_call.
    assert (HA : forall s, tmap (tr_expr env') args s = tmap (tr_expr env) args s).
    { clear - IHa. induction IHa as [| a args H IHa IH]; intros s; [auto |]. cbn [tmap].
      apply tbind_ext; [auto |]. intros x s1. apply tbind_ext; auto. }
    destruct (is_ident _ _).
    + apply tbind_ext; [auto |]. intros _ s1. apply tbind_ext; [auto |]. intros aa s2.
      apply tbind_ext; [apply spread_nsid |]. intros [t v] s3. reflexivity.
    + apply tbind_ext; [auto |]. intros aa s1. apply tbind_ext; [auto |]. intros ff s2. reflexivity.
  - reflexivity.
  - cbn [tr_expr]. apply tbind_ext; [apply spread_nsid | auto].
  - cbn [tr_expr]. apply tbind_ext; auto.
  - cbn [tr_expr]. apply tbind_ext; [auto |]. intros [t v] s1. reflexivity.
  - cbn [tr_expr]. apply tbind_ext; [apply spread_btf | auto].
  - cbn [tr_expr]. apply tbind_ext; auto.
Qed.
Lemma spread_val : forall e s, tr_val env' e s = tr_val env e s.
Proof. intros e s. unfold tr_val. apply tbind_ext; [apply spread_expr | auto]. Qed.
Lemma spread_opt : forall o s, topt (tr_val env') o s = topt (tr_val env) o s.
Proof. intros o s. apply topt_ext. apply spread_val. Qed.
Lemma spread_cond : forall e s, tr_cond env' e s = tr_cond env e s.
Proof. intros e s. unfold tr_cond. apply tbind_ext; [apply spread_expr |]. intros [t v] s1. reflexivity. Qed.
Lemma spread_form : forall f b s, tr_form env' f b s = tr_form env f b s.
Proof.
  intros f b s. unfold tr_form. apply tbind_ext; [| auto]. apply tmap_ext. intros. apply spread_opt.
Qed.
Lemma spread_vardecl : forall v s, tr_vardecl env' v s = tr_vardecl env v s.
Proof.
  intros v s. unfold tr_vardecl. apply tbind_ext; [auto |]. intros _ s1. apply tbind_ext; [apply spread_typename |].
  intros t s2. apply tbind_ext; [apply spread_form |]. intros f s3. apply tbind_ext; [apply spread_opt | auto].
Qed.
Lemma spread_forinit : forall i s, tr_forinit env' i s = tr_forinit env i s.
Proof.
  intros [e | t f e] s; cbn [tr_forinit].
  - apply tbind_ext; [apply spread_val | auto].
  - apply tbind_ext; [auto |]. intros _ s1. apply tbind_ext; [apply spread_typename |].
    intros t' s2. apply tbind_ext; [apply spread_form |]. intros f' s3. apply tbind_ext; [apply spread_val | auto].
Qed.
Lemma spread_case_values : forall l s, tmap (tr_case_value env') l s = tmap (tr_case_value env) l s.
Proof.
  intros l s. apply tmap_ext. intros [n | x] s1; cbn [tr_case_value]; [| auto].
  apply tbind_ext; [apply spread_nsid | auto].
Qed.
Lemma spread_strcond : forall l sv s, mk_switchstr_cond env' l sv s = mk_switchstr_cond env l sv s.
Proof. intros l sv s. unfold mk_switchstr_cond. apply tbind_ext; [apply spread_case_values | auto]. Qed.
Lemma spread_expr_stmt : forall e s, tr_expr_stmt env' e s = tr_expr_stmt env e s.
Proof.
  intros e s. assert (D : forall e s, (v <- tr_val env' e ;; tret (KExpr v)) s = (v <- tr_val env e ;; tret (KExpr v)) s).
  { intros. apply tbind_ext; [apply spread_val | auto]. }
  unfold tr_expr_stmt. destruct e; try apply D. destruct (is_ident _ _); [| apply D].
  unfold mk_panic. apply tbind_ext; [apply tmap_ext; intros; apply spread_val |]. intros aa s1. reflexivity.
Qed.
Definition same_stmt (st : stmt) : Prop := forall s, tr_stmt env' st s = tr_stmt env st s.
Lemma spread_body' : forall b, Forall same_stmt b -> forall s, tr_body env' b s = tr_body env b s.
Proof.
  intros b H s. unfold tr_body. apply tbind_ext; [auto |]. intros _ s1. apply tbind_ext; [| auto].
  revert s1. induction H as [| st b H Hb IH]; intros s1; [auto |]. cbn [tr_stmts].
  apply tbind_ext; [apply H |]. intros x s2. apply tbind_ext; auto.
Qed.
Lemma spread_opt_body : forall o, opt_all same_stmt o -> forall s, topt (tr_body env') o s = topt (tr_body env) o s.
Proof. intros [b |] H s; [| auto]. cbn [topt]. apply tbind_ext; [apply spread_body'; exact H | auto]. Qed.
Lemma spread_stmt : forall st, same_stmt st.
Proof.
  induction st as [| | v | c b e IHb IHe | i c a b IHb | c b IHb | e | is v cs d IHc IHd | e] using stmt_ind';
    intros s; rewrite !tr_stmt_eq; cbn [tr_stmt_flat].
  - reflexivity.
  - reflexivity.
  - apply spread_vardecl.
  - apply tbind_ext; [apply spread_opt_body; exact IHe |]. intros e' s1. apply tbind_ext; [apply spread_val |].
    intros c' s2. apply tbind_ext; [apply spread_body'; exact IHb | auto].
  - apply tbind_ext; [auto |]. intros _ s0. apply tbind_ext; [apply topt_ext, spread_forinit |]. intros i' s1.
    apply tbind_ext; [apply topt_ext, spread_cond |]. intros c' s2. apply tbind_ext; [apply spread_opt |].
    intros a' s3. apply tbind_ext; [apply spread_body'; exact IHb |]. intros b' s4. reflexivity.
  - apply tbind_ext; [apply spread_cond |]. intros c' s1. apply tbind_ext; [apply spread_body'; exact IHb | auto].
  - apply tbind_ext; [apply spread_opt | auto].
  - destruct is.
    + apply tbind_ext; [apply spread_val |]. intros sv s1. destruct IHc as [| [vs b] cs Hb Hc]; [reflexivity |].
      apply tbind_ext; [apply spread_strcond |]. intros c s2. apply tbind_ext; [apply spread_body'; exact Hb |].
      intros b' s3. apply tbind_ext; [| auto]. revert s3.
      induction Hc as [| [vs2 b2] cs Hb2 Hc IH]; intros s3; cbn [str_chain]; [apply spread_opt_body; exact IHd |].
      apply tbind_ext; [apply spread_strcond |]. intros c2 s4. apply tbind_ext; [apply spread_body'; exact Hb2 |].
      intros b2' s5. apply tbind_ext; auto.
    + apply tbind_ext.
      * revert s. induction IHc as [| [vs b] cs Hb Hc IH]; intros s; [auto |]. cbn [tmap].
        apply tbind_ext; [| intros x s1; apply tbind_ext; auto]. unfold tr_case. cbn [fst snd].
        apply tbind_ext; [apply spread_case_values |]. intros vs' s1. apply tbind_ext; [apply spread_body'; exact Hb | auto].
      * intros cs' s1. apply tbind_ext; [apply spread_val |]. intros v' s2.
        apply tbind_ext; [apply spread_opt_body; exact IHd | auto].
  - apply spread_expr_stmt.
Qed.
Lemma spread_body : forall b s, tr_body env' b s = tr_body env b s.
Proof. intros b s. apply spread_body'. apply Forall_forall. intros. apply spread_stmt. Qed.

(** ** Parameters and fields *)
Definition tr_one (t : typename) (f : form) : TR ctypeform :=
  t' <- tr_typename env t ;; f' <- tr_form env f false ;; tret (mkCtf t' f').
Lemma taf_eq : forall x s, tr_taf env' x s = tr_taf env x s.
Proof.
  intros x s. unfold tr_taf. apply tmap_ext. intros f s1. apply tbind_ext; [apply spread_typename |].
  intros t s2. apply tbind_ext; [apply spread_form | auto].
Qed.
Lemma taf_single : forall t f s, tr_taf env (mkTaf t [f]) s = (x <- tr_one t f ;; tret [x]) s.
Proof.
  intros t f s. unfold tr_taf, tr_one. cbn [taf_forms taf_type tmap]. apply tbind_ext; auto.
Qed.
Lemma taf_spread : forall x s, tflat (tr_taf env) (map (fun f => mkTaf (taf_type x) [f]) (taf_forms x)) s = tr_taf env x s.
Proof.
  intros [t fs] s. cbn [taf_type taf_forms]. unfold tflat. unfold tbind at 1. rewrite tmap_map.
  rewrite (tmap_ext _ _ _ (fun f => x <- tr_one t f ;; tret [x])); [| intros; apply taf_single].
  change (tflat (fun f => x <- tr_one t f ;; tret [x]) fs s = tr_taf env (mkTaf t fs) s).
  rewrite tflat_single. reflexivity.
Qed.
Lemma spread_params : forall p s, tr_func_params env' (mkFp (ungroup (fp_list p)) (fp_ellipsis p)) s = tr_func_params env p s.
Proof.
  intros p s. unfold tr_func_params. cbn [fp_list fp_ellipsis].
  assert (E : forall (l : list type_and_forms) s, tmap (tr_taf env') l s = tmap (tr_taf env) l s) by (intros; apply tmap_ext, taf_eq).
  unfold tbind. rewrite E.
  assert (X := tflat_flat _ _ _ (tr_taf env) (fun t => map (fun f => mkTaf (taf_type t) [f]) (taf_forms t))
            (tr_taf env) (fp_list p) taf_spread s).
  fold (ungroup (fp_list p)) in X. unfold tflat, tbind in X.
  destruct (tmap (tr_taf env) (ungroup (fp_list p)) s) as [[a s1] | |],
    (tmap (tr_taf env) (fp_list p) s) as [[b s2] | |]; try discriminate; cbn in *; unfold tret in *; congruence.
Qed.
Lemma bind_params_app : forall a b s, bind_params (a ++ b) s = (bind_params a ;;; bind_params b) s.
Proof.
  induction a as [| x a IH]; intros b s; [reflexivity |]. cbn [app bind_params]. rewrite tbind_assoc'.
  apply tbind_ext; [auto |]. intros _ s1. apply IH.
Qed.
Lemma spread_bind : forall l s, bind_params (ungroup l) s = bind_params l s.
Proof.
  unfold ungroup. induction l as [| [t fs] l IH]; intros s; [reflexivity |]. cbn [flat_map bind_params taf_type taf_forms].
  rewrite bind_params_app. unfold tbind at 1 2.
  assert (E : bind_params (map (fun f => mkTaf t [f]) fs) s = bind_forms t fs s).
  { clear. revert s. induction fs as [| f fs IH]; intros s; [reflexivity |]. cbn [map bind_params bind_forms taf_type taf_forms].
    rewrite tbind_assoc'. apply tbind_ext; [auto |]. intros _ s1. unfold tbind, tret. rewrite IH.
    destruct (bind_forms t fs s1) as [[? ?] | |]; auto. }
  rewrite E. destruct (bind_forms t fs s) as [[u s1] | |]; auto.
Qed.

Lemma spread_func : forall f s, tr_func_decl env' (ungroup_params f) s = tr_func_decl env f s.
Proof.
  intros f s. unfold tr_func_decl. cbv zeta. cbn [ungroup_params fd_pos fd_pub fd_type fd_form fd_params fd_body fp_list].
  apply tbind_ext; [auto |]. intros _ s1. apply tbind_ext; [apply spread_bind |]. intros _ s2.
  apply tbind_ext; [apply spread_body |]. intros b s3. apply tbind_ext; [apply spread_typename |]. intros t s4.
  apply tbind_ext; [apply spread_form |]. intros f' s5. apply tbind_ext; [apply spread_params |]. intros ps s6.
  apply tbind_ext.
  - destruct (str_eqb _ _); [auto |]. apply tbind_ext; [apply spread_typename |]. intros t2 s7.
    apply tbind_ext; [apply spread_form |]. intros f2 s8. apply tbind_ext; [apply spread_params |]. auto.
  - intros fw s7. reflexivity.
Qed.

Lemma spread_entry_list : forall e s, tflat (tr_struct_entry env)
    match e with StPlain x => map StPlain (ungroup [x]) | StUnion u => [StUnion u] end s = tr_struct_entry env e s.
Proof.
  intros [[t fs] | u] s.
  - unfold ungroup. cbn [flat_map taf_type taf_forms]. rewrite app_nil_r, map_map. unfold tflat. unfold tbind at 1.
    rewrite tmap_map.
    rewrite (tmap_ext _ _ _ (fun f => y <- (x <- tr_one t f ;; tret (CSField x)) ;; tret [y])).
    2: { intros f s1. cbn [tr_struct_entry]. unfold tbind. rewrite taf_single. unfold tbind.
         destruct (tr_one t f s1) as [[? ?] | |]; reflexivity. }
    change (tflat (fun f => y <- (x <- tr_one t f ;; tret (CSField x)) ;; tret [y]) fs s = tr_struct_entry env (StPlain (mkTaf t fs)) s).
    rewrite tflat_single. cbn [tr_struct_entry]. unfold tr_taf. cbn [taf_forms taf_type]. fold (tr_one t).
    change (tmap (fun f => x <- tr_one t f ;; tret (CSField x)) fs s = (l <- tmap (tr_one t) fs ;; tret (map CSField l)) s).
    revert s. induction fs as [| f fs IH]; intros s; [reflexivity |]. cbn [tmap]. unfold tbind.
    destruct (tr_one t f s) as [[x s1] | |]; auto. cbn [tret]. rewrite IH. unfold tbind.
    destruct (tmap (tr_one t) fs s1) as [[y s2] | |]; auto.
  - unfold tflat. cbn [tmap]. unfold tbind. destruct (tr_struct_entry env (StUnion u) s) as [[x s1] | |]; auto.
    unfold tret. cbn [List.concat]. now rewrite app_nil_r.
Qed.
Lemma entry_eq : forall e s, tr_struct_entry env' e s = tr_struct_entry env e s.
Proof.
  intros [x | u] s; cbn [tr_struct_entry].
  - apply tbind_ext; [apply taf_eq | auto].
  - apply tbind_ext; [| auto]. unfold tr_union. apply tbind_ext; [apply spread_form |]. intros f s1.
    apply tbind_ext; [| auto]. apply tmap_ext. intros q s2. apply tbind_ext; [apply spread_typename |].
    intros t s3. apply tbind_ext; [apply spread_form | auto].
Qed.
Lemma spread_struct : forall x s, tr_struct_typedef env' (ungroup_fields x) s = tr_struct_typedef env x s.
Proof.
  intros x s. unfold tr_struct_typedef. cbv zeta. cbn [ungroup_fields st_pub st_entries st_name].
  assert (E : forall l s, tmap (tr_struct_entry env') l s = tmap (tr_struct_entry env) l s) by (intros; apply tmap_ext, entry_eq).
  unfold tbind. rewrite E.
  assert (X := tflat_flat _ _ _ (tr_struct_entry env) _ (tr_struct_entry env) (st_entries x) spread_entry_list s).
  unfold tflat, tbind in X.
  match type of X with match ?u with _ => _ end = match ?v with _ => _ end =>
    destruct u as [[a s1] | |], v as [[b s2] | |] end; try discriminate; cbn in *; unfold tret in *; try congruence.
  injection X as -> ->. reflexivity.
Qed.

Lemma spread_elem : forall e s, tr_mod_elem env' (ungroup_elem e) s = tr_mod_elem env e s.
Proof.
  intros [m | x | a | t | x | v | f] s; cbn [ungroup_elem tr_mod_elem].
  - reflexivity.
  - unfold tr_enum. apply tbind_ext; [| auto]. apply tmap_ext. intros en s1. apply tbind_ext; [apply spread_opt | auto].
  - reflexivity.
  - unfold tr_typedef. apply tbind_ext.
    + apply topt_ext. intros p s1. apply tbind_ext; [| auto]. apply tmap_ext, spread_btf.
    + intros ps s1. apply tbind_ext; [apply spread_typename | auto].
  - apply spread_struct.
  - unfold tr_modvar. apply tbind_ext; [apply spread_typename |]. intros t s1. apply tbind_ext; [apply spread_form |].
    intros f s2. destruct (v_value v); [| auto]. apply tbind_ext; [apply spread_val | auto].
  - apply spread_func.
Qed.
Lemma spread_bind_elem : forall e s, bind_elem (ungroup_elem e) s = bind_elem e s.
Proof.
  intros [m | x | a | t | x | v | f] s; try reflexivity. cbn [ungroup_elem bind_elem].
  rewrite spread_functype. reflexivity.
Qed.
Lemma spread_elements : forall l s, tr_elements env' (map ungroup_elem l) s = tr_elements env l s.
Proof.
  intros l s. unfold tr_elements. apply tbind_ext; [auto |]. intros _ s1.
  apply tbind_ext; [apply tmap_map_ext, spread_bind_elem |]. intros _ s2.
  apply tbind_ext; [apply tmap_map_ext, spread_elem |]. intros b s3. reflexivity.
Qed.
End Spread.

Definition ungroup_params_of (p : trparams) : trparams :=
  mkParams (tp_mod p) (tp_heads p) (tp_cmods p) (map ungroup_module (tp_mods p)).

Lemma spread_env : forall m p, env_of (ungroup_module m) (ungroup_params_of p) = spread (env_of m p).
Proof.
  intros m p. unfold env_of, spread, ungroup_params_of, ungroup_module. cbn. f_equal.
  - induction (mod_elements m) as [| e l IH]; [auto |].
    destruct e; cbn [map ungroup_elem struct_map]; auto. rewrite IH, map_app. reflexivity.
  - induction (mod_elements m) as [| e l IH]; [auto |].
    destruct e; cbn [map ungroup_elem typedef_map]; auto; now rewrite IH.
Qed.
Lemma ungroup_translate : forall m p, translate (ungroup_module m) (ungroup_params_of p) = translate m p.
Proof.
  intros m p. unfold translate. cbv zeta. rewrite spread_env.
  replace (mod_elements (ungroup_module m)) with (map ungroup_elem (mod_elements m)) by reflexivity.
  rewrite spread_elements.
  assert (K : link_macros (map ungroup_elem (mod_elements m)) = link_macros (mod_elements m)).
  { unfold link_macros. induction (mod_elements m) as [| e l IH]; [auto |]. cbn [map flat_map]. rewrite IH.
    destruct e; reflexivity. }
  assert (X : expand_imports (spread (env_of m p)) = expand_imports (env_of m p)).
  { unfold expand_imports. replace (import_synopses (spread (env_of m p)) (mi_imports (en_mod (spread (env_of m p)))))
      with (import_synopses (env_of m p) (mi_imports (en_mod (env_of m p)))); [reflexivity |].
    cbn [spread en_mod]. induction (mi_imports (en_mod (env_of m p))) as [| i r IH]; [reflexivity |].
    cbn [import_synopses]. cbn [spread en_heads en_cmods]. now rewrite IH. }
  rewrite K, X. reflexivity.
Qed.
Lemma ungroup_exports : forall l, get_exports (map ungroup_elem l)
  = mod_exports (ungroup_module (mkModule l (get_exports l))).
Proof.
  intros l. unfold get_exports, ungroup_module. cbn [mod_exports].
  assert (G : forall l ex, get_exports_aux (map ungroup_elem l)
     (mkExports (ex_consts ex) (map ungroup_params (ex_fns ex)) (ex_types ex) (map ungroup_fields (ex_structs ex)))
   = let r := get_exports_aux l ex in
     mkExports (ex_consts r) (map ungroup_params (ex_fns r)) (ex_types r) (map ungroup_fields (ex_structs r))).
  { clear. induction l as [| e l IH]; intros ex; [reflexivity |]. cbn [map get_exports_aux]. rewrite <- IH.
    f_equal. destruct e; cbn [ungroup_elem]; auto.
    - destruct (enum_pub e); reflexivity.
    - destruct (td_pub t); reflexivity.
    - cbn [ungroup_fields st_pub st_name]. destruct (st_pub s); [| reflexivity]. cbn. now rewrite map_app.
    - cbn [ungroup_params fd_pub]. destruct (fd_pub f); [| reflexivity]. cbn. now rewrite map_app. }
  apply (G l (mkExports [] [] [] [])).
Qed.
