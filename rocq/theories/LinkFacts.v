(** Declarations of generated files and of whole programs: C68 and C69. *)
From Verif Require Import Base BaseFacts Buf Lexer Nodes Types Cspec Resolve Cursor Preparser Parser CAst FormatC Translator Build
  SpecLex LexFacts SpecGrammar TextFacts GapFacts ExportFacts.
From Verif Require Import SpecDecl SpecScope SpecExports SpecModule SpecTarget TargetFacts TargetProps SpecTyping ElabFacts SpecTame SpecClosed SpecTidy SpecLink ClosedFacts ClosedModule
  SpecBuild BuildFacts ProjectFacts BuildProps PathFacts ScopeFacts ScopeProps.

(** ** Pairs of places in a list *)
Section Pairs.
Context {A : Type} (R : A -> A -> Prop).
Lemma pairs_app : forall a b, ForallOrdPairs R (a ++ b) <-> ForallOrdPairs R a /\ ForallOrdPairs R b /\ forall x y, In x a -> In y b -> R x y.
Proof.
  induction a as [| x a IH]; intros b; cbn [app].
  - split; [intros H; split; [constructor |]; split; [exact H | intros ? ? []] | tauto].
  - split.
    + intros H. inversion H as [| ? ? H1 H2]; subst. apply IH in H2 as (H2 & H3 & H4). rewrite Forall_forall in H1.
      split; [constructor; [apply Forall_forall; intros y Y; apply H1, in_app_iff; auto | exact H2] |]. split; [exact H3 |].
      intros p q [<- | P] Q; [apply H1, in_app_iff; auto | auto].
    + intros (H1 & H2 & H3). inversion H1 as [| ? ? H4 H5]; subst. constructor.
      * apply Forall_forall. intros y Y. rewrite Forall_forall in H4. apply in_app_or in Y as [Y | Y]; [auto | apply H3; [now left | exact Y]].
      * apply IH. split; [exact H5 |]. split; [exact H2 |]. intros p q P Q. apply H3; [now right | exact Q].
Qed.
Lemma pairs_at : forall l, ForallOrdPairs R l <-> forall a y b z c, l = a ++ y :: b ++ z :: c -> R y z.
Proof.
  intros l. split.
  - intros H a y b z c ->. apply pairs_app in H as (_ & H & _). inversion H as [| ? ? H1 H2]; subst. rewrite Forall_forall in H1. apply H1, in_elt.
  - induction l as [| x l IH]; intros H; constructor.
    + apply Forall_forall. intros y Y. apply in_split in Y as (b & c & ->). exact (H [] x b y c eq_refl).
    + apply IH. intros a y b z c ->. exact (H (x :: a) y b z c eq_refl).
Qed.
Lemma pairs_thinned : forall D a b, thinned D a b -> ForallOrdPairs R a -> ForallOrdPairs R b.
Proof.
  intros D a b T. induction T as [| x a b T IH | x a b _ T IH]; intros H; [constructor | |]; inversion H as [| ? ? H1 H2]; subst; auto.
  constructor; auto. apply Forall_forall. intros y Y. rewrite Forall_forall in H1. apply H1. eapply thinned_in; eauto.
Qed.
Lemma pairs_filter : forall p l, ForallOrdPairs R l -> ForallOrdPairs R (filter p l).
Proof.
  intros p l H. induction H as [| x l H1 H2 IH]; cbn [filter]; [constructor |]. destruct (p x); [| exact IH]. constructor; [| exact IH].
  apply Forall_forall. intros y Y. apply filter_In in Y as [Y _]. rewrite Forall_forall in H1. auto.
Qed.
Lemma pairs_of : (forall x y, R x y -> R y x) -> forall l x y, ForallOrdPairs R l -> In x l -> In y l -> x <> y -> R x y.
Proof.
  intros Sy l x y H. induction H as [| z l H1 H2 IH]; intros Ix Iy N; [destruct Ix |]. rewrite Forall_forall in H1.
  destruct Ix as [-> | Ix], Iy as [-> | Iy]; auto. contradiction.
Qed.
Lemma pairs_flat_map : forall B (f : B -> list A) l, (forall b, In b l -> ForallOrdPairs R (f b)) ->
  (forall a b c d e x y, l = a ++ b :: c ++ d :: e -> In x (f b) -> In y (f d) -> R x y) -> ForallOrdPairs R (flat_map f l).
Proof.
  intros B f. induction l as [| b l IH]; intros H1 H2; cbn [flat_map]; [constructor |]. apply pairs_app. split; [apply H1; now left |]. split.
  - apply IH; [intros c C; apply H1; now right |]. intros a c d e g x y ->. exact (H2 (b :: a) c d e g x y eq_refl).
  - intros x y X Y. apply in_flat_map in Y as (d & D & Y). apply in_split in D as (c & e & ->). exact (H2 [] b c d e x y eq_refl X Y).
Qed.
End Pairs.

Lemma compatible_sym : forall y z, compatible y z -> compatible z y.
Proof.
  intros y z [H1 H2]. split.
  - intros x X Y. destruct (H1 x Y X) as [(hd & S1 & S2) N]. split; [exists hd; auto | tauto].
  - intros x X Y. exact (H2 x Y X).
Qed.
Lemma compatible_reorder : forall l, ForallOrdPairs compatible l -> ForallOrdPairs compatible (reorder_elems l).
Proof.
  intros l H. apply (pairs_thinned _ type_definition _ (dedup_elems [] l)) in H; [| apply dedup_thins]. unfold reorder_elems. cbv zeta.
  set (d := dedup_elems [] l) in *. apply pairs_flat_map.
  - intros g _. now apply pairs_filter.
  - intros a g c g' e x y E X Y. apply filter_In in X as [X Gx], Y as [Y Gy]. apply Nat.eqb_eq in Gx, Gy.
    apply (pairs_of _ compatible_sym d); auto. intros ->. assert (N : NoDup (a ++ g :: c ++ g' :: e)) by (rewrite <- E; exact (seq_NoDup 7 0)).
    apply NoDup_remove_2 in N. apply N. rewrite Gx in Gy. rewrite Gy. rewrite !in_app_iff. right. right. now left.
Qed.

(** ** One module *)
Definition c_name (id : str) (pub : bool) (x : str) : str := if pub then global_name id x else x.
Section Module.
Variables (m : module_) (p : trparams) (cm : cmodule).
Hypothesis Ht : translate m p = TrOk cm.
Let S := site_of m p.
Let G := module_decls is_numeric (mod_elements m).
Let id := mi_uniqid (tp_mod p).

Lemma value_decl : forall e b x, In e (mod_elements m) -> value_of_elem e b x -> exists d, In d G /\ d_name d = x /\ In x (map d_name (elem_decls is_numeric e)).
Proof.
  intros e b x I V. assert (D : exists d, In d (elem_decls is_numeric e) /\ d_name d = x).
  { destruct e as [| d | | | | v | f]; cbn [value_of_elem elem_decls] in *; try contradiction; destruct V as [_ V].
    - apply in_map_iff in V as (en & <- & V). exists (mkDecl (en_name en) (enum_pub d) number_type). split; [| reflexivity]. apply in_map_iff. eauto.
    - exists (local (v_type v) (v_form v)). split; [now left | exact V].
    - eexists. split; [now left | exact V]. }
  destruct D as (d & D & E). exists d. split; [| split; [exact E |]].
  - unfold G, module_decls. rewrite <- in_rev. apply in_flat_map. eauto.
  - rewrite <- E. now apply in_map.
Qed.
Lemma values_once : NoDup (map d_name (flat_map (elem_decls is_numeric) (mod_elements m))).
Proof.
  apply no_duplicates in Ht. unfold in_module in Ht. inversion Ht as [| | | here l' l H1 H2 E1 E2]; subst. apply once_names in H1 as [H1 _].
  rewrite declared_app in H1. apply nodup_app in H1 as [H1 _]. now apply decls_nodup.
Qed.

Hypothesis T : telling (mod_elements m).
(** The names of the C elements of a source element. *)
Lemma elem_names : forall e y x, In e (mod_elements m) -> In y (c_elem S G e) -> In x (ordinary y) ->
  exists b n, of_elem e b n /\ x = c_name id b n.
Proof.
  intros e y x I Y X. destruct T as (_ & _ & _ & Par). unfold of_elem.
  destruct e as [mc | d | a | t | s | v | f]; cbn [c_elem] in Y.
  - destruct (_ || _); [destruct Y |]. destruct Y as [<- | []]. destruct X.
  - destruct Y as [<- | []]. cbn [ordinary ced_entries] in X. rewrite map_map in X. cbn [fst] in X. apply in_map_iff in X as (en & <- & X).
    exists (enum_pub d), (en_name en). split; [right; cbn; split; [reflexivity | now apply in_map] | reflexivity].
  - destruct Y as [<- | []]. destruct X as [<- | []]. exists (sa_pub a), (sa_typename a). split; [left; cbn; auto | reflexivity].
  - destruct Y as [<- | []]. destruct X as [<- | []]. exists (td_pub t), (td_alias t). split; [left; cbn; auto | reflexivity].
  - destruct Y as [<- | [<- | [<- | []]]]; [destruct X | destruct X |]. destruct X as [<- | []].
    exists (st_pub s), (st_name s). split; [left; cbn; auto | reflexivity].
  - destruct (v_value v); [| destruct Y]. destruct Y as [<- | []]. destruct X as [<- | []]. exists false, (f_name (v_form v)). split; [right; cbn; auto |].
    cbn [cv_form c_form cf_name c_name]. unfold head_name, G.
    pose proof (module_look m p cm (local (v_type v) (v_form v)) Ht) as Hl. cbn [local d_name] in Hl. rewrite Hl; [reflexivity |].
    unfold module_decls. rewrite <- in_rev. apply in_flat_map. exists (MVar v). split; [exact I |]. left. reflexivity.
  - assert (X' : x = head_name S (param_decls (fd_params f) ++ G) (f_name (fd_form f))).
    { destruct Y as [<- | Y]; [destruct X as [<- | []]; reflexivity |]. destruct (str_eqb _ _); [destruct Y |]. destruct Y as [<- | []].
      destruct X as [<- | []]. reflexivity. }
    exists (fd_pub f && negb (str_eqb (f_name (fd_form f)) (L "main"))), (f_name (fd_form f)). split; [right; cbn; auto |]. rewrite X'.
    destruct (str_eqb_spec (f_name (fd_form f)) (L "main")) as [M | M]; cbn [negb].
    + rewrite andb_false_r. cbn [c_name]. rewrite M. now apply head_name_main.
    + rewrite andb_true_r. destruct (fd_pub f) eqn:P; cbn [c_name].
      * pose proof (pub_head m p cm f Ht I P M (Par f I P)) as Hn. exact Hn.
      * unfold head_name. rewrite look_app. destruct (look _ (param_decls (fd_params f))) as [q |] eqn:Q.
        -- assert (d_pub q = false) as ->; [| reflexivity]. apply find_some in Q as [Q _]. unfold param_decls in Q. rewrite <- in_rev in Q.
           apply in_flat_map in Q as (t & _ & Q). apply in_map_iff in Q as (g & <- & _). reflexivity.
        -- pose proof (module_look m p cm (mkDecl (f_name (fd_form f)) (fd_pub f || str_eqb (f_name (fd_form f)) (L "main")) (function_type f)) Ht) as Hl.
           cbn [d_name] in Hl. unfold G. rewrite Hl.
           ++ cbn [d_pub]. rewrite P. destruct (str_eqb_spec (f_name (fd_form f)) (L "main")); [contradiction |]. reflexivity.
           ++ unfold module_decls. rewrite <- in_rev. apply in_flat_map. exists (MFunc f). split; [exact I |]. left. reflexivity.
Qed.
(** A name belongs to one source element. *)
Lemma elems_differ : forall a e b e' c x b1 b2, mod_elements m = a ++ e :: b ++ e' :: c -> of_elem e b1 x -> ~ of_elem e' b2 x.
Proof.
  intros a e b e' c x b1 b2 E H H'. destruct T as (Ty & Tv & _).
  assert (I : In e (mod_elements m)) by (rewrite E; apply in_elt).
  assert (I' : In e' (mod_elements m)) by (rewrite E; rewrite in_app_iff; right; right; apply in_elt).
  destruct H as [H | H], H' as [H' | H'].
  - rewrite E, flat_map_app in Ty. cbn [flat_map] in Ty. rewrite flat_map_app in Ty. cbn [flat_map] in Ty. apply nodup_app in Ty as (_ & Ty & _).
    apply nodup_app in Ty as (_ & _ & Ty). apply (Ty x).
    + destruct e; cbn in H |- *; try contradiction; destruct H as [_ H]; now left.
    + rewrite !in_app_iff. right. left. destruct e'; cbn in H' |- *; try contradiction; destruct H' as [_ H']; now left.
  - exact (Tv _ _ _ _ _ I I' H H').
  - exact (Tv _ _ _ _ _ I' I H' H).
  - pose proof values_once as N. destruct (value_decl _ _ _ I H) as (_ & _ & _ & D). destruct (value_decl _ _ _ I' H') as (_ & _ & _ & D').
    rewrite E, flat_map_app in N. cbn [flat_map] in N. rewrite flat_map_app in N. cbn [flat_map] in N. rewrite !map_app in N.
    apply nodup_app in N as (_ & N & _). apply nodup_app in N as (_ & _ & N). apply (N x D). rewrite !in_app_iff. auto.
Qed.
Lemma same_elem : forall e e' x b1 b2, In e (mod_elements m) -> In e' (mod_elements m) -> of_elem e b1 x -> of_elem e' b2 x -> e = e'.
Proof.
  intros e e' x b1 b2 I I' H H'. apply in_split in I as (l1 & l2 & E). rewrite E in I'. apply in_app_or in I' as [I' | [I' | I']]; [| exact I' |].
  - exfalso. apply in_split in I' as (l3 & l4 & ->). rewrite <- app_assoc in E. exact (elems_differ _ _ _ _ _ _ _ _ E H' H).
  - exfalso. apply in_split in I' as (l3 & l4 & ->). exact (elems_differ _ _ _ _ _ _ _ _ E H H').
Qed.
(** The pub flag of a name is settled. *)
Lemma flag_settled : forall e b1 b2 x, of_elem e b1 x -> of_elem e b2 x -> b1 = b2.
Proof. intros e b1 b2 x [H | H] [H' | H']; destruct e; cbn in *; try contradiction; destruct H, H'; congruence. Qed.
(** The struct tags. *)
Lemma elem_tags : forall e y x, In y (c_elem S G e) -> In x (tags y) -> exists s, e = MStruct s /\ x = struct_tag (c_name id (st_pub s) (st_name s)).
Proof.
  intros e y x Y X. destruct e as [mc | d | a | t | s | v | f]; cbn [c_elem] in Y.
  - destruct (_ || _); [destruct Y |]. destruct Y as [<- | []]. destruct X.
  - destruct Y as [<- | []]. destruct X.
  - destruct Y as [<- | []]. destruct X.
  - destruct Y as [<- | []]. destruct X.
  - destruct Y as [<- | [<- | [<- | []]]]; [destruct X | | destruct X]. destruct X as [<- | []]. exists s. split; reflexivity.
  - destruct (v_value v); [| destruct Y]. destruct Y as [<- | []]. destruct X.
  - destruct Y as [<- | Y]; [destruct X |]. destruct (str_eqb _ _); [destruct Y |]. destruct Y as [<- | []]. destruct X.
Qed.
(** The C elements of one source element go together. *)
Lemma elem_pairs : forall e, ForallOrdPairs compatible (c_elem S G e).
Proof.
  assert (One : forall y, ForallOrdPairs compatible [y]) by (intros y; repeat constructor).
  intros e. destruct e as [mc | d | a | t | s | v | f]; cbn [c_elem]; auto.
  - destruct (_ || _); [constructor | auto].
  - assert (C : forall y z, (ordinary y = [] \/ ordinary z = []) -> (tags y = [] \/ tags z = []) -> compatible y z).
    { intros y z O K. split; intros x X Z; [destruct O as [O | O] | destruct K as [K | K]]; rewrite ?O, ?K in *; now try destruct X; try destruct Z. }
    constructor; [| constructor; [| auto]]; (repeat (apply Forall_cons; [apply C; cbn; auto |]); apply Forall_nil).
  - destruct (v_value v); [auto | constructor].
  - destruct (str_eqb _ _); [auto |]. constructor; [| auto]. constructor; [| constructor]. split; [| intros ? []].
    intros x _ _. split; [eexists; split; reflexivity |]. intros [_ [d D]]. discriminate.
Qed.
Lemma elem_once : forall e y, In e (mod_elements m) -> In y (c_elem S G e) -> NoDup (ordinary y).
Proof.
  assert (Z : NoDup (@nil str)) by constructor. assert (O : forall x : str, NoDup [x]) by (intros x; constructor; [intros [] | constructor]).
  intros e y I Y. destruct e as [mc | d | a | t | s | v | f]; cbn [c_elem] in Y.
  - destruct (_ || _); [destruct Y |]. destruct Y as [<- | []]. exact Z.
  - destruct Y as [<- | []]. cbn [ordinary ced_entries]. rewrite map_map. cbn [fst].
    assert (N : NoDup (map en_name (enum_entries d))).
    { pose proof values_once as N. apply in_split in I as (l1 & l2 & I). rewrite I, flat_map_app in N. cbn [flat_map elem_decls] in N. rewrite !map_app, map_map in N.
      apply nodup_app in N as (_ & N & _). apply nodup_app in N as (N & _). exact N. }
    rewrite <- (map_map en_name (exported_as S (enum_pub d))). apply nodup_map; [| exact N].
    intros a b _ _. unfold exported_as. destruct (enum_pub d); [| intros K; exact K]. unfold global_name. intros K. apply app_inv_head in K. cbn in K.
    injection K. intros K'. exact K'.
  - destruct Y as [<- | []]. apply O.
  - destruct Y as [<- | []]. apply O.
  - destruct Y as [<- | [<- | [<- | []]]]; [exact Z | exact Z | apply O].
  - destruct (v_value v); [| destruct Y]. destruct Y as [<- | []]. apply O.
  - destruct Y as [<- | Y]; [apply O |]. destruct (str_eqb _ _); [destruct Y |]. destruct Y as [<- | []]. apply O.
Qed.
End Module.

(** ** A project *)
Section Project.
Context {U : Unicode}.
Variables (w : world) (fuel : nat) (main : str) (pr : project).
Hypothesis B : parse_project w fuel main = BOk pr.
Let Si i (h : modinfo) m := site_of m (unit_params pr i h).
Let Gi m := module_decls is_numeric (mod_elements m).
Lemma unit_translated : forall i h m cm, unit_at pr i h m cm -> translate m (unit_params pr i h) = TrOk cm.
Proof. intros i h m cm H. exact (po_translated _ _ _ _ (project_built w _ _ _ B) i h m cm H). Qed.

(** Where the elements of a file come from: the head, a pub element of an
    earlier module, or an element of this one. *)
Definition source_of (z : celem) (k : nat) (h : modinfo) (m : module_) (x : modelem) : Prop :=
  exists cm, unit_at pr k h m cm /\ In x (mod_elements m) /\ In z (c_elem (Si k h m) (Gi m) x).
Lemma all_from : forall i h m cm z, unit_at pr i h m cm -> In z (cm_elements cm) ->
  (exists s, In z (module_head s)) \/ (exists k h' m' x, k < i /\ offered z = true /\ source_of z k h' m' x) \/ exists x, source_of z i h m x.
Proof.
  induction i as [i IH] using lt_wf_ind. intros h m cm z Hu Iz.
  destruct (unit_gives w _ _ _ _ _ _ _ B Hu) as (s & parts & inj & Hg & Hf & E).
  rewrite E in Iz. apply reorder_in, (thinned_in _ _ _ _ _ (dedup_thins _ _)) in Iz. apply in_app_or in Iz as [Iz | Iz]; [left; eauto |].
  apply in_app_or in Iz as [Iz | Iz].
  - apply (firsts_in _ _ _ _ _ Hf), in_concat in Iz. destruct Iz as (part & Hp & Iz).
    assert (Hr : exists r, gives pr i r part) by (clear - Hg Hp; induction Hg; [destruct Hp |]; destruct Hp as [<- | Hp]; eauto).
    destruct Hr as (r & j & h' & m' & cm' & Lt & Hu' & _ & ->). apply filter_In in Iz as [Iz O].
    destruct (IH j Lt _ _ _ _ Hu' Iz) as [H | [(k & h2 & m2 & x & Lk & O' & H) | (x & H)]]; [now left | |].
    + right. left. exists k, h2, m2, x. split; [lia | auto].
    + right. left. exists j, h', m', x. auto.
  - right. right. unfold c_elems in Iz. apply in_flat_map in Iz as (x & Hx & Iz). exists x, cm. auto.
Qed.

(** *** Prototypes *)
Lemma function_pair : forall z k h m x cm, unit_at pr k h m cm -> In x (mod_elements m) -> In z (c_elem (Si k h m) (Gi m) x) ->
  forall fw, z = XForwardFunc fw -> exists d, In (XFunc d) (cm_elements cm) /\ function_head z = function_head (XFunc d).
Proof.
  intros z k h m x cm Hu Ix Iz fw ->. destruct x as [mc | d | a | t | s | v | f]; cbn [c_elem] in Iz.
  - destruct (_ || _); [destruct Iz |]. destruct Iz as [Iz | []]. discriminate.
  - destruct Iz as [Iz | []]. discriminate.
  - destruct Iz as [Iz | []]. discriminate.
  - destruct Iz as [Iz | []]. discriminate.
  - destruct Iz as [Iz | [Iz | [Iz | []]]]; discriminate.
  - destruct (v_value v); [| destruct Iz]. destruct Iz as [Iz | []]. discriminate.
  - destruct Iz as [Iz | Iz]; [discriminate |]. destruct (str_eqb _ _); [destruct Iz |]. destruct Iz as [<- | []].
    exists (c_function (Si k h m) is_numeric f). split; [| reflexivity].
    exact (proj1 (function_text m (unit_params pr k h) cm f (unit_translated _ _ _ _ Hu) Ix)).
Qed.
Theorem prototypes_defined : forall i h m cm p, unit_at pr i h m cm -> In (XForwardFunc p) (cm_elements cm) ->
  exists j h' m' cm' d, unit_at pr j h' m' cm' /\ In (XFunc d) (cm_elements cm') /\ function_head (XForwardFunc p) = function_head (XFunc d)
    /\ j <= i /\ (cfw_static p = true -> j = i).
Proof.
  intros i h m cm p Hu Ip. destruct (all_from _ _ _ _ _ Hu Ip) as [(s & H) | [(k & h' & m' & x & Lk & O & cm' & Hu' & Ix & Iz) | (x & cm' & Hu' & Ix & Iz)]].
  - exfalso. unfold module_head in H. rewrite !in_app_iff in H. destruct H as [[H | []] | [H | [H | [H | []]]]]; try discriminate.
    + unfold std_includes in H. apply in_map_iff in H as (n & H & _). discriminate.
    + destruct (str_in _ _); [| destruct H]. destruct H as [H | []]. discriminate.
  - destruct (function_pair _ _ _ _ _ _ Hu' Ix Iz _ eq_refl) as (d & Id & Hd). exists k, h', m', cm', d. repeat split; auto; try apply Hu'; [lia |].
    cbn [offered] in O. intros K. rewrite K in O. discriminate.
  - destruct (function_pair _ _ _ _ _ _ Hu' Ix Iz _ eq_refl) as (d & Id & Hd). exists i, h, m, cm', d. repeat split; auto; apply Hu'.
Qed.

(** *** One declaration *)
Hypothesis tells : forall i h m cm, unit_at pr i h m cm -> telling (mod_elements m).
Hypothesis told : forall i h m cm i' h' m' cm', unit_at pr i h m cm -> unit_at pr i' h' m' cm' -> told_apart (mi_uniqid h') (mod_elements m) (mod_elements m').

Lemma source_names : forall z k h m x n, source_of z k h m x -> In n (ordinary z) ->
  exists cm b y, unit_at pr k h m cm /\ In x (mod_elements m) /\ of_elem x b y /\ n = c_name (mi_uniqid h) b y.
Proof.
  intros z k h m x n (cm & Hu & Ix & Iz) In_. destruct (elem_names _ _ _ (unit_translated _ _ _ _ Hu) (tells _ _ _ _ Hu) _ _ _ Ix Iz In_) as (b & y & O & ->).
  exists cm, b, y. repeat split; auto; apply Hu.
Qed.
(** Equal C names come from equal source names, and exports from one module. *)
Lemma c_names_differ : forall k h m cm x b y k' h' m' cm' x' b' y', unit_at pr k h m cm -> unit_at pr k' h' m' cm' ->
  In x (mod_elements m) -> In x' (mod_elements m') -> of_elem x b y -> of_elem x' b' y' -> c_name (mi_uniqid h) b y = c_name (mi_uniqid h') b' y' ->
  b = b' /\ y = y' /\ (b = true -> k = k').
Proof.
  intros k h m cm x b y k' h' m' cm' x' b' y' Hu Hu' Ix Ix' O O' E. destruct b, b'; cbn [c_name] in E.
  - destruct (names_differ w _ _ _ _ _ _ _ _ _ _ _ _ _ B Hu Hu' E) as [-> ->]. auto.
  - exfalso. exact (told _ _ _ _ _ _ _ _ Hu' Hu _ _ _ _ Ix' Ix O' O (eq_sym E)).
  - exfalso. exact (told _ _ _ _ _ _ _ _ Hu Hu' _ _ _ _ Ix Ix' O O' E).
  - split; [reflexivity |]. split; [exact E |]. discriminate.
Qed.
Lemma same_unit_at : forall k h m cm h' m' cm', unit_at pr k h m cm -> unit_at pr k h' m' cm' -> h = h' /\ m = m' /\ cm = cm'.
Proof. intros k h m cm h' m' cm' (H1 & H2 & H3) (H4 & H5 & H6). repeat split; congruence. Qed.
Lemma offered_pub : forall z k h m x n, source_of z k h m x -> offered z = true -> In n (ordinary z) -> forall b y, of_elem x b y -> n = c_name (mi_uniqid h) b y -> b = true.
Proof.
  intros z k h m x n (cm & Hu & Ix & Iz) O In_ b y Oy E. destruct x as [mc | d | a | t | s | v | f]; cbn [c_elem] in Iz.
  - destruct (_ || _); [destruct Iz |]. destruct Iz as [<- | []]. destruct In_.
  - destruct Iz as [<- | []]. cbn [offered ced_hidden] in O. rewrite negb_involutive in O. destruct Oy as [[] | [<- _]]. exact O.
  - destruct Iz as [<- | []]. cbn [offered ctd_pub] in O. destruct Oy as [[<- _] | []]. exact O.
  - destruct Iz as [<- | []]. cbn [offered ctd_pub] in O. destruct Oy as [[<- _] | []]. exact O.
  - destruct Iz as [<- | [<- | [<- | []]]]; [discriminate | destruct In_ |]. cbn [offered ctd_pub] in O. destruct Oy as [[<- _] | []]. exact O.
  - destruct (v_value v); [| destruct Iz]. destruct Iz as [<- | []]. discriminate.
  - destruct Iz as [<- | Iz]; [discriminate |]. destruct (str_eqb _ _) eqn:M; [destruct Iz |]. destruct Iz as [<- | []]. cbn [offered cfw_static] in O.
    rewrite negb_involutive in O. destruct Oy as [[] | [<- _]]. rewrite O, M. reflexivity.
Qed.
(** Of the C elements of a source element, a name in an offered one settles which. *)
Lemma offered_one : forall k h m x z z' n n', In z (c_elem (Si k h m) (Gi m) x) -> In z' (c_elem (Si k h m) (Gi m) x) -> offered z = true -> offered z' = true ->
  In n (ordinary z) -> In n' (ordinary z') -> z = z'.
Proof.
  intros k h m x z z' n n' Iz Iz' O O' N N'. destruct x as [mc | d | a | t | s | v | f]; cbn [c_elem] in Iz, Iz'.
  - destruct (_ || _); [destruct Iz |]. destruct Iz as [<- | []]. destruct N.
  - destruct Iz as [<- | []], Iz' as [<- | []]. reflexivity.
  - destruct Iz as [<- | []], Iz' as [<- | []]. reflexivity.
  - destruct Iz as [<- | []], Iz' as [<- | []]. reflexivity.
  - destruct Iz as [<- | [<- | [<- | []]]]; [discriminate | destruct N |]. destruct Iz' as [<- | [<- | [<- | []]]]; [discriminate | destruct N' |]. reflexivity.
  - destruct (v_value v); [| destruct Iz]. destruct Iz as [<- | []]. discriminate.
  - destruct Iz as [<- | Iz]; [discriminate |]. destruct Iz' as [<- | Iz']; [discriminate |]. destruct (str_eqb _ _); [destruct Iz |].
    destruct Iz as [<- | []], Iz' as [<- | []]. reflexivity.
Qed.
Lemma tag_inj : forall a b, struct_tag a = struct_tag b -> a = b.
Proof. intros a b E. unfold struct_tag in E. apply app_inv_head in E. now apply app_inv_tail in E. Qed.
Lemma offered_tags : forall k h m x z n, In z (c_elem (Si k h m) (Gi m) x) -> offered z = true -> In n (tags z) ->
  exists s, x = MStruct s /\ st_pub s = true /\ n = struct_tag (global_name (mi_uniqid h) (st_name s)).
Proof.
  intros k h m x z n Iz O N. destruct (elem_tags m (unit_params pr k h) _ _ _ Iz N) as (s & -> & ->). exists s. split; [reflexivity |].
  destruct Iz as [<- | [<- | [<- | []]]]; [discriminate | | destruct N]. cbn [offered csd_pub] in O. rewrite O. split; reflexivity.
Qed.

Lemma head_alone : forall s z, In z (module_head s) -> ordinary z = [] \/ z = mk_calloc_or_panic.
Proof.
  intros s z H. unfold module_head in H. rewrite !in_app_iff in H. destruct H as [[<- | []] | [H | [H | [<- | []]]]]; auto.
  - unfold std_includes in H. apply in_map_iff in H as (n & <- & _). auto.
  - destruct (str_in _ _); [| destruct H]. destruct H as [<- | []]. auto.
Qed.
Lemma head_tags : forall s z, In z (module_head s) -> tags z = [].
Proof.
  intros s z H. unfold module_head in H. rewrite !in_app_iff in H. destruct H as [[<- | []] | [H | [H | [<- | []]]]]; auto.
  - unfold std_includes in H. apply in_map_iff in H as (n & <- & _). auto.
  - destruct (str_in _ _); [| destruct H]. destruct H as [<- | []]. auto.
Qed.
Lemma head_pairs : forall s, ForallOrdPairs compatible (module_head s).
Proof.
  intros s. apply pairs_at. intros a y b z c E. assert (Iy : In y (module_head s)) by (rewrite E; apply in_elt).
  assert (Iz : In z (module_head s)) by (rewrite E, in_app_iff; right; right; apply in_elt).
  split; [| intros x X; rewrite (head_tags _ _ Iy) in X; destruct X]. intros x X Z. exfalso.
  destruct (head_alone _ _ Iy) as [Y | ->]; [rewrite Y in X; destruct X |]. destruct (head_alone _ _ Iz) as [Y | ->]; [rewrite Y in Z; destruct Z |].
  assert (C : count_occ Bool.bool_dec (map (fun e => match e with XFunc _ => true | _ => false end) (module_head s)) true <= 1).
  { unfold module_head. destruct (str_in _ _); cbn; lia. }
  rewrite E, map_app in C. cbn [map] in C. rewrite map_app in C. cbn [map] in C. rewrite count_occ_app in C. cbn [mk_calloc_or_panic count_occ] in C.
  rewrite count_occ_app in C. cbn [count_occ] in C. destruct (Bool.bool_dec true true); [lia | congruence].
Qed.
Lemma source_head : forall s y z k h m x n, In y (module_head s) -> source_of z k h m x -> In n (ordinary y) -> ~ In n (ordinary z).
Proof.
  intros s y z k h m x n Iy Sz Y Z. destruct (head_alone _ _ Iy) as [E | ->]; [rewrite E in Y; destruct Y |].
  destruct (source_names _ _ _ _ _ _ Sz Z) as (cm & b & q & Hu & Ix & O & E). destruct Y as [Y | []]. destruct b; cbn [c_name] in E.
  - rewrite (unit_id w _ _ _ _ _ _ _ B Hu) in E. rewrite <- Y in E. vm_compute in E. discriminate.
  - destruct (tells _ _ _ _ Hu) as (_ & _ & T & _). destruct (T _ _ Ix O) as [T1 _]. apply T1. rewrite <- E, <- Y. reflexivity.
Qed.

(** The elements of a file before they are put in order. *)
Lemma elems_compatible : forall i h m cm s parts inj, unit_at pr i h m cm -> Forall2 (gives pr i) (mi_imports h) parts ->
  firsts key [] (List.concat parts) inj -> ForallOrdPairs compatible (module_head s ++ inj ++ c_elems (Si i h m) is_numeric).
Proof.
  intros i h m cm s parts inj Hu Hg Hf.
  assert (Inj : forall z, In z inj -> offered z = true /\ ((exists s, In z (module_head s)) \/ exists k h' m' x, k < i /\ source_of z k h' m' x)).
  { intros z Iz. apply (firsts_in _ _ _ _ _ Hf), in_concat in Iz. destruct Iz as (part & Hp & Iz).
    assert (Hr : exists r, gives pr i r part) by (clear - Hg Hp; induction Hg; [destruct Hp |]; destruct Hp as [<- | Hp]; eauto).
    destruct Hr as (r & j & h' & m' & cm' & Lt & Hu' & _ & ->). apply filter_In in Iz as [Iz O]. split; [exact O |].
    destruct (all_from _ _ _ _ _ Hu' Iz) as [H | [(k & h2 & m2 & x & Lk & O' & H) | (x & H)]]; [now left | |]; right.
    - exists k, h2, m2, x. split; [lia | auto].
    - exists j, h', m', x. auto. }
  assert (Own : forall z, In z (c_elems (Si i h m) is_numeric) -> exists x, source_of z i h m x).
  { intros z Iz. unfold c_elems in Iz. apply in_flat_map in Iz as (x & Hx & Iz). exists x, cm. auto. }
  assert (Quiet : forall s z, In z (module_head s) -> offered z = true -> ordinary z = []).
  { intros s' z Iz O. destruct (head_alone _ _ Iz) as [Q | ->]; [exact Q | discriminate]. }
  apply pairs_app. split; [apply head_pairs |]. split; [apply pairs_app; split; [| split] |].
  - (* within the imported declarations *)
    apply pairs_at. intros a y b z c Ei. assert (Iy : In y inj) by (rewrite Ei; apply in_elt).
    assert (Iz : In z inj) by (rewrite Ei, in_app_iff; right; right; apply in_elt).
    assert (K : key y <> key z).
    { destruct (firsts_keys _ _ _ _ _ Hf) as (N & _). rewrite Ei, map_app in N. cbn [map] in N. rewrite map_app in N. cbn [map] in N.
      apply nodup_app in N as (_ & N & _). apply NoDup_cons_iff in N as [N _]. intros K. apply N. rewrite K. apply in_elt. }
    destruct (Inj _ Iy) as [Oy Sy], (Inj _ Iz) as [Oz Sz]. split.
    + intros n Ny Nz. exfalso. destruct Sy as [(s' & Sy) | (k & h1 & m1 & x & _ & Sy)]; [rewrite (Quiet _ _ Sy Oy) in Ny; destruct Ny |].
      destruct Sz as [(s' & Sz) | (k' & h2 & m2 & x' & _ & Sz)]; [rewrite (Quiet _ _ Sz Oz) in Nz; destruct Nz |].
      destruct (source_names _ _ _ _ _ _ Sy Ny) as (cm1 & b1 & n1 & Hu1 & Ix1 & Of1 & E1). destruct (source_names _ _ _ _ _ _ Sz Nz) as (cm2 & b2 & n2 & Hu2 & Ix2 & Of2 & E2).
      pose proof (offered_pub _ _ _ _ _ _ Sy Oy Ny _ _ Of1 E1) as P1.
      destruct (c_names_differ _ _ _ _ _ _ _ _ _ _ _ _ _ _ Hu1 Hu2 Ix1 Ix2 Of1 Of2 (eq_trans (eq_sym E1) E2)) as (_ & <- & Kk). specialize (Kk P1). subst k'.
      destruct (same_unit_at _ _ _ _ _ _ _ Hu1 Hu2) as (<- & <- & <-).
      pose proof (same_elem _ _ _ (unit_translated _ _ _ _ Hu1) (tells _ _ _ _ Hu1) _ _ _ _ _ Ix1 Ix2 Of1 Of2) as <-.
      destruct Sy as (c1 & _ & _ & Yy), Sz as (c2 & _ & _ & Yz). apply K. f_equal. exact (offered_one _ _ _ _ _ _ _ _ Yy Yz Oy Oz Ny Nz).
    + intros n Ny Nz. destruct Sy as [(s' & Sy) | (k & h1 & m1 & x & _ & cm1 & Hu1 & Ix1 & Yy)]; [rewrite (head_tags _ _ Sy) in Ny; destruct Ny |].
      destruct Sz as [(s' & Sz) | (k' & h2 & m2 & x' & _ & cm2 & Hu2 & Ix2 & Yz)]; [rewrite (head_tags _ _ Sz) in Nz; destruct Nz |].
      apply K. destruct y; try (now destruct Ny). destruct z; try (now destruct Nz). destruct Ny as [Ny | []], Nz as [Nz | []]. cbn [key]. congruence.
  - (* within the module's own *)
    unfold c_elems. unfold Si. apply pairs_flat_map; [intros x _; apply elem_pairs|]. cbn [site_of elements].
    intros a e b e' c y z Em Iy Iz. assert (Ie : In e (mod_elements m)) by (rewrite Em; apply in_elt).
    assert (Ie' : In e' (mod_elements m)) by (rewrite Em, in_app_iff; right; right; apply in_elt). pose proof (unit_translated _ _ _ _ Hu) as Ht. split.
    + intros n Ny Nz. exfalso. destruct (elem_names _ _ _ Ht (tells _ _ _ _ Hu) _ _ _ Ie Iy Ny) as (b1 & n1 & Of1 & E1).
      destruct (elem_names _ _ _ Ht (tells _ _ _ _ Hu) _ _ _ Ie' Iz Nz) as (b2 & n2 & Of2 & E2). cbn [unit_params tp_mod] in E1, E2.
      destruct (c_names_differ _ _ _ _ _ _ _ _ _ _ _ _ _ _ Hu Hu Ie Ie' Of1 Of2 (eq_trans (eq_sym E1) E2)) as (_ & <- & _).
      exact (elems_differ _ _ _ Ht (tells _ _ _ _ Hu) _ _ _ _ _ _ _ _ Em Of1 Of2).
    + intros n Ny Nz. destruct (elem_tags m (unit_params pr i h) _ _ _ Iy Ny) as (s1 & -> & E1). destruct (elem_tags m (unit_params pr i h) _ _ _ Iz Nz) as (s2 & -> & E2).
      rewrite E1 in E2. apply tag_inj in E2. cbn [unit_params tp_mod] in E2.
      assert (Of1 : of_elem (MStruct s1) (st_pub s1) (st_name s1)) by (left; cbn; auto). assert (Of2 : of_elem (MStruct s2) (st_pub s2) (st_name s2)) by (left; cbn; auto).
      destruct (c_names_differ _ _ _ _ _ _ _ _ _ _ _ _ _ _ Hu Hu Ie Ie' Of1 Of2 E2) as (_ & N & _). rewrite N in Of1.
      exact (elems_differ _ _ _ Ht (tells _ _ _ _ Hu) _ _ _ _ _ _ _ _ Em Of1 Of2).
  - (* imported and own *)
    intros y z Iy Iz. destruct (Inj _ Iy) as [Oy Sy], (Own _ Iz) as (x' & Sz). split.
    + intros n Ny Nz. exfalso. destruct Sy as [(s' & Sy) | (k & h1 & m1 & x & Lk & Sy)]; [rewrite (Quiet _ _ Sy Oy) in Ny; destruct Ny |].
      destruct (source_names _ _ _ _ _ _ Sy Ny) as (cm1 & b1 & n1 & Hu1 & Ix1 & Of1 & E1). destruct (source_names _ _ _ _ _ _ Sz Nz) as (cm2 & b2 & n2 & Hu2 & Ix2 & Of2 & E2).
      pose proof (offered_pub _ _ _ _ _ _ Sy Oy Ny _ _ Of1 E1) as P1.
      destruct (c_names_differ _ _ _ _ _ _ _ _ _ _ _ _ _ _ Hu1 Hu2 Ix1 Ix2 Of1 Of2 (eq_trans (eq_sym E1) E2)) as (_ & _ & Kk). specialize (Kk P1). lia.
    + intros n Ny Nz. destruct Sy as [(s' & Sy) | (k & h1 & m1 & x & Lk & cm1 & Hu1 & Ix1 & Yy)]; [rewrite (head_tags _ _ Sy) in Ny; destruct Ny |].
      destruct Sz as (cm2 & Hu2 & Ix2 & Yz). destruct (offered_tags _ _ _ _ _ _ Yy Oy Ny) as (s1 & -> & P1 & E1).
      destruct (elem_tags m (unit_params pr i h) _ _ _ Yz Nz) as (s2 & -> & E2). rewrite E1 in E2. apply tag_inj in E2. cbn [unit_params tp_mod] in E2.
      assert (Of1 : of_elem (MStruct s1) true (st_name s1)) by (left; cbn; auto). assert (Of2 : of_elem (MStruct s2) (st_pub s2) (st_name s2)) by (left; cbn; auto).
      destruct (c_names_differ _ _ _ _ _ _ _ _ _ _ _ _ _ _ Hu1 Hu2 Ix1 Ix2 Of1 Of2 E2) as (_ & _ & Kk). specialize (Kk eq_refl). lia.
  - (* the head and the rest *)
    intros y z Iy Iz. split; [| intros n Ny; rewrite (head_tags _ _ Iy) in Ny; destruct Ny]. intros n Ny Nz. exfalso. apply in_app_or in Iz as [Iz | Iz].
    + destruct (Inj _ Iz) as [Oz [(s' & Sz) | (k & h1 & m1 & x & _ & Sz)]]; [rewrite (Quiet _ _ Sz Oz) in Nz; destruct Nz |].
      exact (source_head _ _ _ _ _ _ _ _ Iy Sz Ny Nz).
    + destruct (Own _ Iz) as (x & Sz). exact (source_head _ _ _ _ _ _ _ _ Iy Sz Ny Nz).
Qed.

Theorem file_once : forall i h m cm, unit_at pr i h m cm -> well_declared (cm_elements cm).
Proof.
  intros i h m cm Hu. split; [| split].
  - intros y Y. destruct (all_from _ _ _ _ _ Hu Y) as [(s & H) | [(k & h' & m' & x & _ & _ & cm' & Hu' & Ix & Iz) | (x & cm' & Hu' & Ix & Iz)]].
    + destruct (head_alone _ _ H) as [E | ->]; [rewrite E; constructor | constructor; [intros [] | constructor]].
    + eapply elem_once; [apply (unit_translated _ _ _ _ Hu') | exact Ix | exact Iz].
    + eapply elem_once; [apply (unit_translated _ _ _ _ Hu') | exact Ix | exact Iz].
  - apply pairs_at. destruct (unit_gives w _ _ _ _ _ _ _ B Hu) as (s & parts & inj & Hg & Hf & E). rewrite E. apply compatible_reorder.
    exact (elems_compatible _ _ _ _ _ _ _ Hu Hg Hf).
  - (* headers *)
    intros y hd n Iy _ N.
    assert (Apart : ~ exists h, In h headers /\ In n (map lit (fst (snd h) ++ snd (snd h)))).
    { intros (hd' & Ih & J).
      assert (Src : forall k h' m' x, source_of y k h' m' x -> False).
      { intros k h' m' x Sy. destruct (source_names _ _ _ _ _ _ Sy N) as (cm' & b & q & Hu' & Ix & O & E). destruct b; cbn [c_name] in E.
        - rewrite (unit_id w _ _ _ _ _ _ _ B Hu') in E. subst n.
          assert (Q : forallb (fun s => negb (starts_with (lit s) (L "mo"))) (flat_map (fun h => fst (snd h) ++ snd (snd h)) headers) = true) by (vm_compute; reflexivity).
          rewrite forallb_forall in Q. apply in_map_iff in J as (s & E & J). specialize (Q s ltac:(apply in_flat_map; eauto)). rewrite E in Q. discriminate.
        - destruct (tells _ _ _ _ Hu') as (_ & _ & T & _). destruct (T _ _ Ix O) as [_ T2]. apply (T2 _ Ih). rewrite <- E. exact J. }
      destruct (all_from _ _ _ _ _ Hu Iy) as [(s & H) | [(k & h' & m' & x & _ & _ & S) | (x & S)]]; eauto.
      destruct (head_alone _ _ H) as [E | ->]; [rewrite E in N; destruct N |]. destruct N as [N | []].
      assert (Q : forallb (fun s => negb (str_eqb (lit s) (L "calloc_or_panic"))) (flat_map (fun h => fst (snd h) ++ snd (snd h)) headers) = true) by (vm_compute; reflexivity).
      rewrite forallb_forall in Q. apply in_map_iff in J as (q & E & J). specialize (Q q ltac:(apply in_flat_map; eauto)). rewrite E, <- N in Q. discriminate. }
    unfold header_declares. split; intros J; apply in_flat_map in J as (hd' & Ih & J); destruct (str_eqb _ _); try (now destruct J); apply Apart; exists hd'; split; auto;
      rewrite map_app, in_app_iff; apply in_app_or in J as [J | J]; apply in_map_iff in J as (q & E & J); try discriminate; injection E as <-;
      [right | left]; apply in_map, J.
Qed.

(** *** One definition *)
Hypothesis one_main : forall i h m cm i' h' m' cm' f f', unit_at pr i h m cm -> unit_at pr i' h' m' cm' ->
  In (MFunc f) (mod_elements m) -> In (MFunc f') (mod_elements m') -> f_name (fd_form f) = L "main" -> f_name (fd_form f') = L "main" -> i = i'.
Lemma definition_of : forall i h m cm d, unit_at pr i h m cm -> In (XFunc d) (cm_elements cm) -> external d ->
  exists f, In (MFunc f) (mod_elements m) /\ d = c_function (Si i h m) is_numeric f
    /\ (fd_pub f = true \/ f_name (fd_form f) = L "main").
Proof.
  intros i h m cm d Hu Id Ex. destruct (all_from _ _ _ _ _ Hu Id) as [(s & H) | [(k & h' & m' & x & _ & O & _) | (x & cm' & Hu' & Ix & Iz)]].
  - exfalso. unfold module_head in H. rewrite !in_app_iff in H. destruct H as [[H | []] | [H | [H | [H | []]]]]; try discriminate.
    + unfold std_includes in H. apply in_map_iff in H as (n & H & _). discriminate.
    + destruct (str_in _ _); [| destruct H]. destruct H as [H | []]. injection H as <-. vm_compute in Ex. discriminate.
  - discriminate.
  - destruct x as [mc | e | a | t | s | v | f]; cbn [c_elem] in Iz.
    + destruct (_ || _); [destruct Iz |]. destruct Iz as [Iz | []]. discriminate.
    + destruct Iz as [Iz | []]. discriminate.
    + destruct Iz as [Iz | []]. discriminate.
    + destruct Iz as [Iz | []]. discriminate.
    + destruct Iz as [Iz | [Iz | [Iz | []]]]; discriminate.
    + destruct (v_value v); [| destruct Iz]. destruct Iz as [Iz | []]. discriminate.
    + destruct Iz as [Iz | Iz]; [| destruct (str_eqb _ _); [destruct Iz |]; destruct Iz as [Iz | []]; discriminate].
      exists f. split; [exact Ix |]. injection Iz as <-. split; [reflexivity |]. destruct (fd_pub f) eqn:P; [now left | right].
      unfold external in Ex. cbn [format_elem] in Ex. unfold fmt_func_def in Ex. cbn [cfd_static cfd_form negb andb] in Ex.
      destruct (str_eqb_spec (format_form (c_form (Si i h m) (param_decls (fd_params f) ++ Gi m) (head_name (Si i h m) (param_decls (fd_params f) ++ Gi m) (f_name (fd_form f))) (fd_form f))) (L "main")) as [E | E].
      * apply form_text_main in E. destruct E as (E & _). now apply head_name_main in E.
      * exfalso. cbn in Ex. discriminate.
Qed.
Theorem one_definition : forall i h m cm j h' m' cm' d d', unit_at pr i h m cm -> unit_at pr j h' m' cm' ->
  In (XFunc d) (cm_elements cm) -> In (XFunc d') (cm_elements cm') -> external d -> external d' ->
  cf_name (cfd_form d) = cf_name (cfd_form d') -> i = j /\ d = d'.
Proof.
  intros i h m cm j h' m' cm' d d' Hu Hu' Id Id' Ex Ex' E.
  destruct (definition_of _ _ _ _ _ Hu Id Ex) as (f & If & -> & P). destruct (definition_of _ _ _ _ _ Hu' Id' Ex') as (f' & If' & -> & P').
  destruct (elem_names _ _ _ (unit_translated _ _ _ _ Hu) (tells _ _ _ _ Hu) (MFunc f) (XFunc (c_function (Si i h m) is_numeric f)) _ If (or_introl eq_refl) (or_introl eq_refl)) as (b & y & O & Ey).
  destruct (elem_names _ _ _ (unit_translated _ _ _ _ Hu') (tells _ _ _ _ Hu') (MFunc f') (XFunc (c_function (Si j h' m') is_numeric f')) _ If' (or_introl eq_refl) (or_introl eq_refl)) as (b' & y' & O' & Ey').
  destruct (c_names_differ _ _ _ _ _ _ _ _ _ _ _ _ _ _ Hu Hu' If If' O O' (eq_trans (eq_sym Ey) (eq_trans E Ey'))) as (<- & <- & K).
  assert (i = j) as <-.
  { destruct b; [auto |]. destruct O as [[] | [F N]], O' as [[] | [F' N']]. apply (one_main _ _ _ _ _ _ _ _ f f' Hu Hu' If If').
    - destruct P as [P | P]; [| exact P]. rewrite P in F. cbn [andb] in F. apply negb_false_iff, str_eqb_eq in F. exact F.
    - destruct P' as [P' | P']; [| exact P']. rewrite P' in F'. cbn [andb] in F'. apply negb_false_iff, str_eqb_eq in F'. exact F'. }
  destruct (same_unit_at _ _ _ _ _ _ _ Hu Hu') as (<- & <- & <-). split; [reflexivity |].
  pose proof (same_elem _ _ _ (unit_translated _ _ _ _ Hu) (tells _ _ _ _ Hu) _ _ _ _ _ If If' O O') as Q. now injection Q as ->.
Qed.
End Project.
