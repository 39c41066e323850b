(** Images, bitmaps and pixmaps. *)
From Coq Require Import ZArith Lia List Floats.SpecFloat.
From Verif Require Import LibBase LibIO LibText LibTok LibHttp LibTime LibImage SpecText SpecTok SpecImage PropHttpRes.
Import ListNotations.

Lemma put_length : forall l i c, List.length (put_at i c l) = List.length l.
Proof. induction l as [|x l IH]; intros [|i] c; cbn [put_at List.length]; auto. Qed.
Lemma put_nth : forall l i c j, i < List.length l -> nth_error (put_at i c l) j = if Nat.eqb j i then Some c else nth_error l j.
Proof.
  induction l as [|x l IH]; intros [|i] c [|j] H; cbn [put_at nth_error List.length Nat.eqb] in *; try lia; auto. apply IH. lia.
Qed.
Lemma index_lt : forall w h x y, x < w -> y < h -> y * w + x < w * h.
Proof. intros. nia. Qed.
Lemma index_same : forall w x y x' y', x < w -> x' < w -> y * w + x = y' * w + x' -> x = x' /\ y = y'.
Proof. intros. assert (y = y') by nia. subst. split; lia. Qed.

(** An image of known size and colors. *)
Definition pic (img : image) (w h : nat) (F : nat -> nat -> rgba) : Prop :=
  im_w img = w /\ im_h img = h /\ List.length (im_data img) = w * h /\
  forall x y, x < w -> y < h -> nth_error (im_data img) (y * w + x) = Some (F x y).
Lemma pic_ext : forall img w h F G, pic img w h F -> (forall x y, x < w -> y < h -> F x y = G x y) -> pic img w h G.
Proof. intros img w h F G (A & B & C & D) H. repeat (split; [assumption|]). intros x y Hx Hy. rewrite <- H by assumption. auto. Qed.
Lemma pic_drawn : forall img, drawn img -> pic img (im_w img) (im_h img) (fun x y => nth (y * im_w img + x) (im_data img) black).
Proof.
  intros img H. split; [reflexivity|]. split; [reflexivity|]. split; [exact H|]. intros x y Hx Hy. apply nth_error_nth'. rewrite H. apply index_lt; assumption.
Qed.
Lemma store_pic : forall img w h F x y c, pic img w h F -> x < w -> y < h ->
  exists img', im_store img x y c = ROk img' /\ pic img' w h (fun X Y => if Nat.eqb X x && Nat.eqb Y y then c else F X Y).
Proof.
  intros [w0 h0 d] w h F x y c (A & B & C & D) Hx Hy. cbn [im_w im_h im_data] in *. subst w0 h0. unfold im_store, im_index. cbn [im_w im_h im_data].
  pose proof (index_lt w h x y Hx Hy) as Hi. destruct (Nat.ltb_spec (y * w + x) (List.length d)); [|lia]. eexists. split; [reflexivity|].
  split; [reflexivity|]. split; [reflexivity|]. cbn [im_data]. split; [rewrite put_length; exact C|]. intros X Y HX HY. rewrite put_nth by lia.
  destruct (Nat.eqb_spec (Y * w + X) (y * w + x)) as [E|E].
  - destruct (index_same w X Y x y HX Hx E) as [-> ->]. rewrite !Nat.eqb_refl. reflexivity.
  - rewrite D by assumption. destruct (Nat.eqb_spec X x) as [->|], (Nat.eqb_spec Y y) as [->|]; cbn [andb]; congruence.
Qed.
Lemma check_in : forall img x y, x < im_w img -> y < im_h img -> im_check img (Z.of_nat x) (Z.of_nat y) = true.
Proof.
  intros img x y Hx Hy. unfold im_check. destruct (Z.ltb_spec (Z.of_nat x) 0); [lia|]. destruct (Z.ltb_spec (Z.of_nat y) 0); [lia|].
  destruct (Z.leb_spec (Z.of_nat (im_w img)) (Z.of_nat x)); [lia|]. destruct (Z.leb_spec (Z.of_nat (im_h img)) (Z.of_nat y)); [lia|]. reflexivity.
Qed.
Lemma set_pic : forall img w h F x y c, pic img w h F -> x < w -> y < h ->
  exists img', im_set img (Z.of_nat x) (Z.of_nat y) c = ROk img' /\ pic img' w h (fun X Y => if Nat.eqb X x && Nat.eqb Y y then c else F X Y).
Proof.
  intros img w h F x y c P Hx Hy. unfold im_set. rewrite check_in by (destruct P as (A & B & _); rewrite ?A, ?B; assumption). rewrite !Nat2Z.id. eapply store_pic; eassumption.
Qed.
Lemma get_pic : forall img w h F x y, pic img w h F -> x < w -> y < h -> im_get img (Z.of_nat x) (Z.of_nat y) = ROk (F x y).
Proof.
  intros img w h F x y (A & B & C & D) Hx Hy. unfold im_get. rewrite check_in by (rewrite ?A, ?B; assumption). rewrite !Nat2Z.id. unfold im_load, im_index.
  rewrite A, D by assumption. reflexivity.
Qed.
Lemma for_until_rule : forall (Inv : nat -> image -> Prop) stop body n i img, Inv i img ->
  (forall j img, i <= j < i + n -> stop j = false -> Inv j img -> exists img', body j img = ROk img' /\ Inv (S j) img') ->
  exists img' j, for_until n i stop body img = ROk img' /\ i <= j <= i + n /\ (j = i + n \/ stop j = true) /\ Inv j img'.
Proof.
  intros Inv stop body. induction n as [|n IH]; intros i img H0 Hs; cbn [for_until].
  - exists img, i. split; [reflexivity|]. split; [lia|]. split; [left; lia|exact H0].
  - destruct (stop i) eqn:E; [exists img, i; split; [reflexivity|]; split; [lia|]; auto|].
    destruct (Hs i img ltac:(lia) E H0) as (img1 & E1 & H1). rewrite E1. cbn [rbind].
    destruct (IH (S i) img1 H1) as (img2 & j & E2 & Hj & Hd & H2); [intros j img2 Hj; apply Hs; lia|].
    exists img2, j. split; [exact E2|]. split; [lia|]. split; [|exact H2]. destruct Hd; [left; lia|right; assumption].
Qed.
Lemma for_rule : forall (Inv : nat -> image -> Prop) body n img, Inv 0 img ->
  (forall j img, j < n -> Inv j img -> exists img', body j img = ROk img' /\ Inv (S j) img') ->
  exists img', for_ n body img = ROk img' /\ Inv n img'.
Proof.
  intros Inv body n img H0 Hs. unfold for_.
  destruct (for_until_rule Inv (fun _ => false) body n 0 img H0) as (img' & j & E & _ & [->|K] & H); [intros j i1 Hj _; apply Hs; lia| |discriminate].
  exists img'. auto.
Qed.
Ltac cases := cbv beta; repeat match goal with
  | |- context [Nat.eqb ?a ?b] => destruct (Nat.eqb_spec a b)
  | |- context [Nat.ltb ?a ?b] => destruct (Nat.ltb_spec a b)
  | |- context [Nat.leb ?a ?b] => destruct (Nat.leb_spec a b) end; cbn [andb orb]; try reflexivity; try lia.
Lemma painted_pic : forall img img' G, drawn img -> pic img' (im_w img) (im_h img) (fun x y => G (Z.of_nat x) (Z.of_nat y) (nth (y * im_w img + x) (im_data img) black)) ->
  painted img img' G.
Proof.
  intros img img' G D (A & B & C & E). split; [exact A|]. split; [exact B|]. split; [unfold drawn; rewrite A, B; exact C|].
  intros x y [Hx Hy]. exists (nth (Z.to_nat y * im_w img + Z.to_nat x) (im_data img) black). split.
  - rewrite <- (Z2Nat.id x), <- (Z2Nat.id y) at 1 by lia. rewrite (get_pic img _ _ _ (Z.to_nat x) (Z.to_nat y) (pic_drawn img D)) by lia. reflexivity.
  - assert (P : pic img' (im_w img) (im_h img) (fun x y => G (Z.of_nat x) (Z.of_nat y) (nth (y * im_w img + x) (im_data img) black))) by (split; auto).
    rewrite <- (Z2Nat.id x), <- (Z2Nat.id y) at 1 by lia. rewrite (get_pic _ _ _ _ (Z.to_nat x) (Z.to_nat y) P) by lia. rewrite !Z2Nat.id by lia. reflexivity.
Qed.

(** A pixel is set and no other one; [get] reads it; outside the image the program ends. *)
Theorem C107_set : forall img x y c, drawn img ->
  (inside img x y -> exists img', im_set img x y c = ROk img' /\ painted img img' (fun X Y old => if (X =? x)%Z && (Y =? y)%Z then c else old)) /\
  (~ inside img x y -> im_set img x y c = RPanic /\ im_get img x y = RPanic).
Proof.
  intros img x y c D. split.
  - intros [Hx Hy]. destruct (set_pic img _ _ _ (Z.to_nat x) (Z.to_nat y) c (pic_drawn img D)) as (img' & E & P); [lia|lia|]. rewrite !Z2Nat.id in E by lia.
    exists img'. split; [exact E|]. apply painted_pic; [exact D|]. eapply pic_ext; [exact P|]. intros X Y _ _. cbn beta.
    destruct (Nat.eqb_spec X (Z.to_nat x)), (Z.eqb_spec (Z.of_nat X) x); try lia; destruct (Nat.eqb_spec Y (Z.to_nat y)), (Z.eqb_spec (Z.of_nat Y) y); try lia; reflexivity.
  - intros H. unfold im_set, im_get. assert (E : im_check img x y = false); [|rewrite E; auto].
    unfold im_check. destruct (Z.ltb_spec x 0); [reflexivity|]. destruct (Z.ltb_spec y 0); [reflexivity|].
    destruct (Z.leb_spec (Z.of_nat (im_w img)) x); [reflexivity|]. destruct (Z.leb_spec (Z.of_nat (im_h img)) y); [reflexivity|]. destruct H. split; lia.
Qed.
(** A new image is black; [clear] makes it so again. *)
Theorem C107_new : forall w h, drawn (im_new w h) /\ im_w (im_new w h) = w /\ im_h (im_new w h) = h /\
  (forall x y, inside (im_new w h) x y -> im_get (im_new w h) x y = ROk black) /\
  forall img, drawn img -> painted img (im_clear img) (fun _ _ _ => black).
Proof.
  assert (P : forall w h, pic (im_new w h) w h (fun _ _ => black)).
  { intros w h. unfold im_new. split; [reflexivity|]. split; [reflexivity|]. cbn [im_data]. split; [apply repeat_length|]. intros x y Hx Hy.
    rewrite (nth_error_nth' _ black) by (rewrite repeat_length; apply index_lt; assumption). f_equal. apply nth_repeat. }
  intros w h. split; [exact (proj1 (proj2 (proj2 (P w h))))|]. split; [reflexivity|]. split; [reflexivity|]. split.
  - intros x y [Hx Hy]. cbn [im_new im_w im_h] in Hx, Hy. rewrite <- (Z2Nat.id x), <- (Z2Nat.id y) by lia. apply (get_pic _ w h _ _ _ (P w h)); lia.
  - intros img D. apply painted_pic; [exact D|]. exact (P (im_w img) (im_h img)).
Qed.
(** [fill] paints every pixel; [apply] changes every pixel once. *)
Theorem C107_fill : forall img c, drawn img -> exists img', im_fill img c = ROk img' /\ painted img img' (fun _ _ _ => c).
Proof.
  intros img c D. set (F := fun x y => nth (y * im_w img + x) (im_data img) black).
  destruct (for_rule (fun x i => pic i (im_w img) (im_h img) (fun X Y => if Nat.ltb X x then c else F X Y))
    (fun x => for_ (im_h img) (fun y img => im_store img x y c)) (im_w img) img) as (img' & E & P).
  - eapply pic_ext; [exact (pic_drawn img D)|]. intros X Y _ _. cases.
  - intros x i Hx Pi.
    destruct (for_rule (fun y i => pic i (im_w img) (im_h img) (fun X Y => if Nat.ltb X x || (Nat.eqb X x && Nat.ltb Y y) then c else F X Y))
      (fun y img => im_store img x y c) (im_h img) i) as (i' & E' & P').
    + eapply pic_ext; [exact Pi|]. intros X Y _ _. cases.
    + intros y j Hy Pj. destruct (store_pic j _ _ _ x y c Pj Hx Hy) as (j' & Ej & Pj'). exists j'. split; [exact Ej|]. eapply pic_ext; [exact Pj'|]. intros X Y _ _. cases.
    + exists i'. split; [exact E'|]. eapply pic_ext; [exact P'|]. intros X Y _ HY. cases.
  - exists img'. split; [exact E|]. apply painted_pic; [exact D|]. eapply pic_ext; [exact P|]. intros X Y HX _. cases.
Qed.
Theorem C107_apply : forall img f, drawn img -> exists img', im_apply img f = ROk img' /\ painted img img' (fun _ _ old => f old).
Proof.
  intros img f D. set (F := fun x y => nth (y * im_w img + x) (im_data img) black).
  destruct (for_rule (fun y i => pic i (im_w img) (im_h img) (fun X Y => if Nat.ltb Y y then f (F X Y) else F X Y))
    (fun y => for_ (im_w img) (fun x img => rbind (im_get img (Z.of_nat x) (Z.of_nat y)) (fun color => im_set img (Z.of_nat x) (Z.of_nat y) (f color)))) (im_h img) img) as (img' & E & P).
  - eapply pic_ext; [exact (pic_drawn img D)|]. intros X Y _ _. cases.
  - intros y i Hy Pi.
    destruct (for_rule (fun x i => pic i (im_w img) (im_h img) (fun X Y => if Nat.ltb Y y || (Nat.eqb Y y && Nat.ltb X x) then f (F X Y) else F X Y))
      (fun x img => rbind (im_get img (Z.of_nat x) (Z.of_nat y)) (fun color => im_set img (Z.of_nat x) (Z.of_nat y) (f color))) (im_w img) i) as (i' & E' & P').
    + eapply pic_ext; [exact Pi|]. intros X Y _ _. cases.
    + intros x j Hx Pj. rewrite (get_pic j _ _ _ x y Pj Hx Hy). cbn [rbind].
      destruct (set_pic j _ _ _ x y (f (F x y)) Pj Hx Hy) as (j' & Ej & Pj'). exists j'.
      split; [rewrite <- Ej; f_equal; f_equal; cases|]. eapply pic_ext; [exact Pj'|]. intros X Y _ _. cases; subst; reflexivity.
    + exists i'. split; [exact E'|]. eapply pic_ext; [exact P'|]. intros X Y HX _. cases.
  - exists img'. split; [exact E|]. apply painted_pic; [exact D|]. eapply pic_ext; [exact P|]. intros X Y _ HY. fold (F X Y). cases.
Qed.
(** The enlarged copy has each pixel in a square of n times n. *)
Theorem C107_explode : forall img n, drawn img -> exists big, im_explode img n = ROk big /\ drawn big /\ im_w big = im_w img * n /\ im_h big = im_h img * n /\
  forall X Y, X < im_w img * n -> Y < im_h img * n -> exists c,
    im_get img (Z.of_nat (X / n)) (Z.of_nat (Y / n)) = ROk c /\ im_get big (Z.of_nat X) (Z.of_nat Y) = ROk c.
Proof.
  intros img n D. set (w := im_w img). set (h := im_h img). set (F := fun x y => nth (y * w + x) (im_data img) black).
  assert (PF : pic img w h F) by exact (pic_drawn img D). set (G := fun X Y => F (X / n) (Y / n)).
  assert (Q : forall x j, j < n -> (x * n + j) / n = x). { intros x j Hj. rewrite Nat.add_comm, Nat.div_add by lia. rewrite Nat.div_small by lia. lia. }
  assert (P0 : pic (im_new (w * n) (h * n)) (w * n) (h * n) (fun _ _ => black)).
  { unfold im_new. split; [reflexivity|]. split; [reflexivity|]. cbn [im_data]. split; [apply repeat_length|]. intros x y Hx Hy.
    rewrite (nth_error_nth' _ black) by (rewrite repeat_length; apply index_lt; assumption). f_equal. apply nth_repeat. }
  unfold im_explode. fold w h.
  match goal with |- context [for_ h ?b _] => set (body := b) end.
  destruct (for_rule (fun y big => pic big (w * n) (h * n) (fun X Y => if Nat.ltb Y (y * n) then G X Y else black)) body h (im_new (w * n) (h * n))) as (big & E & P).
  - eapply pic_ext; [exact P0|]. intros X Y _ _. cases.
  - intros y b Hy Pb. unfold body.
    match goal with |- context [for_ n ?b _] => set (body1 := b) end.
    destruct (for_rule (fun i big => pic big (w * n) (h * n) (fun X Y => if Nat.ltb Y (y * n + i) then G X Y else black)) body1 n b) as (b1 & E1 & P1).
    + eapply pic_ext; [exact Pb|]. intros X Y _ _. cases.
    + intros i b2 Hi Pb2. unfold body1.
      match goal with |- context [for_ w ?b _] => set (body2 := b) end.
      destruct (for_rule (fun x big => pic big (w * n) (h * n) (fun X Y => if Nat.ltb Y (y * n + i) || (Nat.eqb Y (y * n + i) && Nat.ltb X (x * n)) then G X Y else black)) body2 w b2) as (b3 & E3 & P3).
      * eapply pic_ext; [exact Pb2|]. intros X Y _ _. cases.
      * intros x b4 Hx Pb4. unfold body2. rewrite (get_pic img w h F x y PF Hx Hy). cbn [rbind].
        destruct (for_rule (fun j big => pic big (w * n) (h * n) (fun X Y => if Nat.ltb Y (y * n + i) || (Nat.eqb Y (y * n + i) && Nat.ltb X (x * n + j)) then G X Y else black))
          (fun j big => im_set big (Z.of_nat (x * n + j)) (Z.of_nat (y * n + i)) (F x y)) n b4) as (b5 & E5 & P5).
        -- eapply pic_ext; [exact Pb4|]. intros X Y _ _. cases.
        -- intros j b6 Hj Pb6. destruct (set_pic b6 _ _ _ (x * n + j) (y * n + i) (F x y) Pb6) as (b7 & E7 & P7); [nia|nia|].
           exists b7. split; [exact E7|]. eapply pic_ext; [exact P7|]. intros X Y _ _. cases; subst; unfold G; rewrite !Q by assumption; reflexivity.
        -- exists b5. split; [exact E5|]. eapply pic_ext; [exact P5|]. intros X Y _ _. replace (S x * n) with (x * n + n) by lia. reflexivity.
      * exists b3. split; [exact E3|]. eapply pic_ext; [exact P3|]. intros X Y HX _. cases.
    + exists b1. split; [exact E1|]. eapply pic_ext; [exact P1|]. intros X Y _ _. replace (S y * n) with (y * n + n) by lia. reflexivity.
  - exists big. split; [exact E|]. destruct P as (A & B & C & P). split; [unfold drawn; rewrite A, B; exact C|]. split; [exact A|]. split; [exact B|].
    intros X Y HX HY. exists (G X Y). split; [apply (get_pic img w h F); [exact PF| |]; apply Nat.div_lt_upper_bound; nia|].
    rewrite (get_pic big (w * n) (h * n) (fun X Y => if Nat.ltb Y (h * n) then G X Y else black)); [cases|repeat (split; [assumption|]); exact P|exact HX|exact HY].
Qed.
(** Another image is pasted: its pixels that fall inside are seen, all others are as before. *)
Theorem C107_paste : forall img p x y, drawn img -> drawn p -> (0 <= x)%Z -> (0 <= y)%Z ->
  exists img', im_paste img p x y = ROk img' /\ im_w img' = im_w img /\ im_h img' = im_h img /\ drawn img' /\
  forall X Y, inside img X Y ->
    (inside p (X - x) (Y - y) -> im_get img' X Y = im_get p (X - x) (Y - y)) /\ (~ inside p (X - x) (Y - y) -> im_get img' X Y = im_get img X Y).
Proof.
  intros img p x y D Dp Hx0 Hy0. set (w := im_w img). set (h := im_h img). set (F := fun x y => nth (y * w + x) (im_data img) black).
  assert (PF : pic img w h F) by exact (pic_drawn img D). set (P := fun X Y => nth (Y * im_w p + X) (im_data p) black).
  assert (PP : pic p (im_w p) (im_h p) P) by exact (pic_drawn p Dp).
  rewrite <- (Z2Nat.id x), <- (Z2Nat.id y) by assumption. set (x0 := Z.to_nat x). set (y0 := Z.to_nat y). clearbody x0 y0.
  set (R := fun xp yp X Y => if Nat.leb y0 Y && Nat.ltb Y (y0 + yp) && (Nat.leb x0 X && Nat.ltb X (x0 + xp)) then P (X - x0) (Y - y0) else F X Y).
  unfold im_paste. match goal with |- context [for_until (im_h p) 0 ?s ?b img] => set (stop := s); set (body := b) end.
  destruct (for_until_rule (fun yp i => pic i w h (R (im_w p) yp)) stop body (im_h p) 0 img) as (img' & yj & E & Hj & Hd & H).
  - eapply pic_ext; [exact PF|]. intros X Y _ _. unfold R. cases.
  - intros yp i Hyp Sy Pi. unfold stop in Sy. fold h in Sy. apply Z.leb_gt in Sy. unfold body.
    match goal with |- context [for_until (im_w p) 0 ?s ?b i] => set (stop1 := s); set (body1 := b) end.
    destruct (for_until_rule (fun xp i => pic i w h (fun X Y => if Nat.eqb Y (y0 + yp) && (Nat.leb x0 X && Nat.ltb X (x0 + xp)) then P (X - x0) (Y - y0) else R (im_w p) yp X Y))
      stop1 body1 (im_w p) 0 i) as (i' & xj & E' & Hxj & Hxd & H').
    + eapply pic_ext; [exact Pi|]. intros X Y _ _. cases.
    + intros xp j Hxp Sx Pj. unfold stop1 in Sx. destruct PF as (W & _). apply Z.leb_gt in Sx.
      assert (Wi : im_w i = w) by (destruct Pi; assumption). fold w in Sx. unfold body1.
      rewrite (get_pic p _ _ P xp yp PP) by lia. cbn [rbind]. rewrite <- !Nat2Z.inj_add.
      destruct (set_pic j w h _ (x0 + xp) (y0 + yp) (P xp yp) Pj) as (j' & Ej & Pj'); [lia|lia|]. exists j'. split; [exact Ej|].
      eapply pic_ext; [exact Pj'|]. intros X Y _ _. cases; subst; f_equal; lia.
    + exists i'. split; [exact E'|]. eapply pic_ext; [exact H'|]. intros X Y HX HY. unfold R.
      assert (K : X < x0 + xj <-> X < x0 + im_w p).
      { destruct Hxd as [->|Sx]; [reflexivity|]. unfold stop1 in Sx. apply Z.leb_le in Sx. assert (Wi : im_w i = w) by (destruct Pi; assumption). fold w in Sx. lia. }
      cases.
  - exists img'. split; [exact E|]. destruct H as (A & B & C & H). split; [exact A|]. split; [exact B|]. split; [unfold drawn; rewrite A, B; exact C|].
    intros X Y [HX HY]. fold w in HX. fold h in HY.
    assert (G : im_get img' X Y = ROk (R (im_w p) yj (Z.to_nat X) (Z.to_nat Y))).
    { rewrite <- (Z2Nat.id X), <- (Z2Nat.id Y) at 1 by lia. apply (get_pic img' w h); [split; auto|lia|lia]. }
    assert (K : Z.to_nat Y < y0 + yj <-> Z.to_nat Y < y0 + im_h p).
    { destruct Hd as [->|Sy]; [reflexivity|]. unfold stop in Sy. apply Z.leb_le in Sy. fold h in Sy. lia. }
    rewrite G. split.
    + intros [Ix Iy].
      replace (X - Z.of_nat x0)%Z with (Z.of_nat (Z.to_nat X - x0)) by lia. replace (Y - Z.of_nat y0)%Z with (Z.of_nat (Z.to_nat Y - y0)) by lia.
      rewrite (get_pic p _ _ P) by (try exact PP; lia). f_equal. unfold R. cases.
    + intros N. rewrite <- (Z2Nat.id X), <- (Z2Nat.id Y) by lia. rewrite (get_pic img w h F) by (try exact PF; lia). f_equal. rewrite !Nat2Z.id. unfold R. cases.
      exfalso. apply N. split; lia.
Qed.
(** An image that begins left of the other or above it is not clipped: the program ends. *)
Theorem C107_paste_negative_refuted : ~ forall img p x y, drawn img -> drawn p -> exists img', im_paste img p x y = ROk img'.
Proof. intros H. destruct (H (im_new 2 2) (im_new 2 2) (-1)%Z 0%Z eq_refl eq_refl) as [i E]. vm_compute in E. discriminate. Qed.
(** Blending with opacity 1 gives the new color, and with opacity 0 should keep the old one. *)
Definition red : rgba := mkRgba 255 0 0 0.
Theorem C107_blend_refuted : ~ forall img x y c img', drawn img -> im_blend img x y c (flt 0) = ROk img' -> im_get img' x y = im_get img x y.
Proof.
  intros H. specialize (H (mkImage 1 1 [red]) 0%Z 0%Z black (mkImage 1 1 [mkRgba (-255) 0 0 0]) eq_refl). specialize (H ltac:(vm_compute; reflexivity)). vm_compute in H. discriminate.
Qed.

(** * Files *)
Lemma nth_rows : forall A (rows : list (list A)) s i k r, Forall (fun r => List.length r = s) rows -> k < s -> nth_error rows i = Some r ->
  nth_error (concat rows) (i * s + k) = nth_error r k.
Proof.
  intros A rows s i. revert rows. induction i as [|i IH]; intros [|x rows] k r Hf Hk E; try discriminate; inversion Hf as [|? ? Hx Hr]; subst; cbn [concat nth_error Nat.mul Nat.add] in *.
  - inversion E; subst. apply nth_error_app1. exact Hk.
  - rewrite nth_error_app2 by lia. replace (List.length x + i * List.length x + k - List.length x) with (i * List.length x + k) by lia. apply IH; assumption.
Qed.
Lemma rows_length : forall A (rows : list (list A)) s, Forall (fun r => List.length r = s) rows -> List.length (concat rows) = List.length rows * s.
Proof. induction 1 as [|r rows Hr Hf IH]; [reflexivity|]. cbn [concat List.length Nat.mul]. rewrite app_length, Hr, IH. reflexivity. Qed.
Definition byte_of (z : Z) : N := Z.to_N (z mod 256).
Definition bgr (c : rgba) : bytes := [byte_of (c_blue c); byte_of (c_green c); byte_of (c_red c)].
Lemma bmp_pixels_at : forall img w h F y n x b, pic img w h F -> y < h -> x + n <= w ->
  bmp_pixels img y n x b = ROk (b ++ concat (map (fun x => bgr (F x y)) (seq x n))).
Proof.
  intros img w h F y n. induction n as [|n IH]; intros x b P Hy Hn; cbn [bmp_pixels seq map concat]; [rewrite app_nil_r; reflexivity|].
  unfold im_load, im_index. destruct P as (A & B & C & D). rewrite A, D by lia. cbn [rbind]. rewrite IH by (try split; auto; lia).
  unfold write1, file_put. cbn [snd]. rewrite <- !app_assoc. reflexivity.
Qed.
Lemma bmp_zeros_at : forall n b, bmp_zeros n b = b ++ repeat 0%N n.
Proof. induction n as [|n IH]; intros b; cbn [bmp_zeros repeat]; [rewrite app_nil_r; reflexivity|]. rewrite IH. unfold write1, file_put. cbn [snd]. rewrite <- app_assoc. reflexivity. Qed.
Definition bmp_row (F : nat -> nat -> rgba) (w y : nat) : bytes := concat (map (fun x => bgr (F x y)) (seq 0 w)) ++ repeat 0%N (bmp_pad w).
Fixpoint down (n : nat) : list nat := match n with O => [] | S n => n :: down n end.
Lemma bmp_rows_at : forall img w h F n b, pic img w h F -> n <= h -> bmp_rows img n b = ROk (b ++ concat (map (bmp_row F w) (down n))).
Proof.
  intros img w h F n. induction n as [|n IH]; intros b P Hn; cbn [bmp_rows down map concat]; [rewrite app_nil_r; reflexivity|].
  pose proof (proj1 P) as A. rewrite A. rewrite (bmp_pixels_at img w h F) by (auto; lia). cbn [rbind]. rewrite bmp_zeros_at, IH by (auto; lia).
  unfold bmp_row. rewrite <- !app_assoc. reflexivity.
Qed.
Lemma down_nth : forall n i, i < n -> nth_error (down n) i = Some (n - 1 - i).
Proof. induction n as [|n IH]; intros [|i] H; cbn [down nth_error]; try lia; [f_equal; lia|]. rewrite IH by lia. f_equal. lia. Qed.
Lemma down_length : forall n, List.length (down n) = n.
Proof. induction n; cbn [down List.length]; congruence. Qed.
Lemma pixels_length : forall (g : nat -> bytes) k x n, (forall x, List.length (g x) = k) -> List.length (concat (map g (seq x n))) = n * k.
Proof. intros g k x n H. rewrite (rows_length _ _ k), map_length, seq_length; [reflexivity|]. apply Forall_forall. intros r Hr. apply in_map_iff in Hr. destruct Hr as (a & <- & _). apply H. Qed.
Lemma pixels_nth : forall (g : nat -> bytes) k n x i, (forall x, List.length (g x) = k) -> i < k -> x < n -> nth_error (concat (map g (seq 0 n))) (x * k + i) = nth_error (g x) i.
Proof.
  intros g k n x i H Hi Hx. apply nth_rows; [|exact Hi|].
  - apply Forall_forall. intros r Hr. apply in_map_iff in Hr. destruct Hr as (a & <- & _). apply H.
  - rewrite nth_error_map, (nth_error_nth' _ 0) by (rewrite seq_length; exact Hx). cbn [option_map]. rewrite seq_nth by exact Hx. reflexivity.
Qed.
Lemma stride_pad : forall w, 3 * w + bmp_pad w = (3 * w + 3) / 4 * 4.
Proof.
  intros w. unfold bmp_pad. replace (w * 3) with (3 * w) by lia. pose proof (Nat.div_mod (3 * w) 4 ltac:(lia)) as E. pose proof (Nat.mod_upper_bound (3 * w) 4 ltac:(lia)) as Lq.
  set (q := 3 * w / 4) in *. set (r := (3 * w) mod 4) in *. clearbody q r. rewrite E.
  destruct r as [|[|[|[|r]]]]; [| | | |lia].
  - replace (4 * q + 0 + 3) with (3 + q * 4) by lia. rewrite Nat.div_add by lia. change (3 / 4) with 0. change ((4 - 0) mod 4) with 0. lia.
  - replace (4 * q + 1 + 3) with (0 + (q + 1) * 4) by lia. rewrite Nat.div_add by lia. change (0 / 4) with 0. change ((4 - 1) mod 4) with 3. lia.
  - replace (4 * q + 2 + 3) with (1 + (q + 1) * 4) by lia. rewrite Nat.div_add by lia. change (1 / 4) with 0. change ((4 - 2) mod 4) with 2. lia.
  - replace (4 * q + 3 + 3) with (2 + (q + 1) * 4) by lia. rewrite Nat.div_add by lia. change (2 / 4) with 0. change ((4 - 3) mod 4) with 1. lia.
Qed.
Definition le4 (v : N) : bytes := [v mod 256; v / 256 mod 256; v / 256 / 256 mod 256; v / 256 / 256 / 256 mod 256]%N.
Definition le2 (v : N) : bytes := [v mod 256; v / 256 mod 256]%N.
Lemma le4_value : forall v, (v < 4294967296)%N -> le_value (le4 v) = v.
Proof.
  intros v H. unfold le_value, le4. cbn [fold_right]. pose proof (N.div_mod v 256 ltac:(discriminate)) as A. pose proof (N.div_mod (v / 256) 256 ltac:(discriminate)) as B.
  pose proof (N.div_mod (v / 256 / 256) 256 ltac:(discriminate)) as C. assert (D : (v / 256 / 256 / 256 < 256)%N) by (repeat (apply N.div_lt_upper_bound; [discriminate|]); lia).
  rewrite (N.mod_small _ _ D). lia.
Qed.
Lemma w4_le : forall b v, (v < 4294967296)%N -> w4 b v = b ++ le4 v.
Proof. intros b v H. unfold w4, write4le, file_put, u32. rewrite (N.mod_small v 4294967296) by exact H. reflexivity. Qed.
Lemma w2_le : forall b v, (v < 4294967296)%N -> w2 b v = b ++ le2 v.
Proof. intros b v H. unfold w2, write2le, file_put, u32. rewrite (N.mod_small v 4294967296) by exact H. reflexivity. Qed.
Lemma bmp_head_at : forall w h fs ds, fs = 54 + ds -> ds = h * (w * 3 + bmp_pad w) -> (Z.of_nat fs < 2 ^ 31)%Z -> (Z.of_nat w < 2 ^ 31)%Z -> (Z.of_nat h < 2 ^ 31)%Z ->
  bmp_head w h = [66; 77]%N ++ le4 (N.of_nat fs) ++ le4 0 ++ le4 54 ++ le4 40 ++ le4 (N.of_nat w) ++ le4 (N.of_nat h) ++ le2 1 ++ le2 24 ++ le4 0 ++
    le4 (N.of_nat ds) ++ le4 0 ++ le4 0 ++ le4 0 ++ le4 0.
Proof.
  intros w h fs ds Ef Ed Hf Hw Hh. change (2 ^ 31)%Z with 2147483648%Z in *. unfold bmp_head. cbv zeta. rewrite <- Ed. change (14 + 40) with 54. rewrite <- Ef.
  rewrite !w4_le, !w2_le by lia. unfold write1, file_put. cbn [snd]. rewrite <- !app_assoc. reflexivity.
Qed.
Lemma byte_is : forall z, (0 <= z < 256)%Z -> Z.of_N (byte_of z) = z.
Proof. intros z H. unfold byte_of. rewrite Z.mod_small by exact H. apply Z2N.id. lia. Qed.
(** The file of an image is a bitmap of it. *)
Theorem C108_bmp : forall img, drawn img -> Forall byte_color (im_data img) ->
  (Z.of_nat (im_w img) < 2 ^ 31)%Z -> (Z.of_nat (im_h img) < 2 ^ 31)%Z -> (Z.of_nat (54 + (3 * im_w img + 3) / 4 * 4 * im_h img) < 2 ^ 31)%Z ->
  exists f, bmp_write img = ROk f /\ bitmap img f.
Proof.
  intros img D Hb Hw Hh Hf. pose proof (pic_drawn img D) as P. set (w := im_w img) in *. set (h := im_h img) in *. set (F := fun x y => nth (y * w + x) (im_data img) black) in *.
  set (ds := h * (w * 3 + bmp_pad w)). set (stride := (3 * w + 3) / 4 * 4) in *.
  assert (St : w * 3 + bmp_pad w = stride) by (unfold stride; rewrite <- stride_pad; lia).
  assert (Eds : ds = stride * h) by (unfold ds; rewrite St; lia).
  pose proof (bmp_head_at w h (54 + ds) ds eq_refl eq_refl) as Hd. rewrite Eds in Hd at 1 2. specialize (Hd Hf Hw Hh).
  unfold bmp_write. fold w h. rewrite (bmp_rows_at img w h F h _ P (Nat.le_refl _)). eexists. split; [reflexivity|].
  set (rows := concat (map (bmp_row F w) (down h))).
  assert (Lr : Forall (fun r => List.length r = stride) (map (bmp_row F w) (down h))).
  { apply Forall_forall. intros r Hr. apply in_map_iff in Hr. destruct Hr as (y & <- & _). unfold bmp_row. rewrite app_length, repeat_length, (pixels_length _ 3) by reflexivity. exact St. }
  assert (Lf : List.length (bmp_head w h ++ rows) = 54 + stride * h).
  { rewrite app_length, Hd. unfold rows. rewrite (rows_length _ _ stride Lr), map_length, down_length. rewrite (Nat.mul_comm h). reflexivity. }
  rewrite Hd in *. clear Hd. change (2 ^ 31)%Z with 2147483648%Z in *.
  unfold bitmap. cbv zeta. fold w h stride. rewrite Lf.
  assert (Fi : forall f k v, (v < 4294967296)%N -> firstn 4 (skipn k f) = le4 v -> field f k 4 v).
  { intros f k v Hv E. unfold field. rewrite E. split; [reflexivity|]. apply le4_value, Hv. }
  split; [reflexivity|]. rewrite <- Eds in *.
  split; [apply Fi; [lia|reflexivity]|]. split; [apply Fi; [lia|reflexivity]|]. split; [apply Fi; [lia|reflexivity]|]. split; [apply Fi; [lia|reflexivity]|].
  split; [apply Fi; [lia|reflexivity]|]. split; [split; reflexivity|]. split; [split; reflexivity|]. split; [split; reflexivity|]. split; [reflexivity|].
  intros x y Hx Hy. exists (F x y). split; [apply (get_pic img w h F); assumption|].
  assert (Bc : byte_color (F x y)).
  { eapply Forall_forall; [exact Hb|]. apply nth_In. rewrite D. apply index_lt; assumption. }
  assert (At : forall k, k < 3 -> nth_error (([66; 77]%N ++ le4 (N.of_nat (54 + ds)) ++ le4 0 ++ le4 54 ++ le4 40 ++ le4 (N.of_nat w) ++ le4 (N.of_nat h) ++ le2 1 ++ le2 24 ++ le4 0 ++
    le4 (N.of_nat ds) ++ le4 0 ++ le4 0 ++ le4 0 ++ le4 0) ++ rows) (54 + (h - 1 - y) * stride + 3 * x + k) = nth_error (bgr (F x y)) k).
  { intros k Hk. rewrite nth_error_app2 by (match goal with |- ?l <= _ => change l with 54 end; generalize ((h - 1 - y) * stride); intros; lia).
    match goal with |- nth_error rows (_ - ?l) = _ => change l with 54 end.
    replace (54 + (h - 1 - y) * stride + 3 * x + k - 54) with ((h - 1 - y) * stride + (3 * x + k)) by (generalize ((h - 1 - y) * stride); intros; lia).
    unfold rows. rewrite (nth_rows _ _ stride _ _ (bmp_row F w y) Lr).
    - unfold bmp_row. rewrite nth_error_app1 by (rewrite (pixels_length _ 3) by reflexivity; lia).
      replace (3 * x + k) with (x * 3 + k) by lia. apply pixels_nth; [reflexivity|exact Hk|exact Hx].
    - rewrite <- St. lia.
    - rewrite nth_error_map, down_nth by lia. cbn [option_map]. do 2 f_equal. lia. }
  destruct Bc as (Br & Bg & Bb). unfold byte_at.
  split; [exists (byte_of (c_blue (F x y)))|split; [exists (byte_of (c_green (F x y)))|exists (byte_of (c_red (F x y)))]]; (split; [|apply byte_is; assumption]).
  - rewrite <- (Nat.add_0_r (_ + 3 * x)). rewrite At by lia. reflexivity.
  - rewrite At by lia. reflexivity.
  - rewrite At by lia. reflexivity.
Qed.
Example C108_bmp_example : let img := mkImage 2 2 [red; black; black; mkRgba 1 2 3 0] in drawn img /\ Forall byte_color (im_data img) /\
  bmp_write img = ROk (bmp_head 2 2 ++ [0; 0; 0; 3; 2; 1; 0; 0;  0; 0; 255; 0; 0; 0; 0; 0])%N.
Proof. split; [reflexivity|]. split; [repeat constructor; cbn; lia|]. vm_compute. reflexivity. Qed.

(** * Pixmaps *)
Definition swapped (c : rgba) : rgba := mkRgba (c_blue c) (c_green c) (c_red c) (c_transparency c).
Lemma lor_shift : forall x k a, (a < 2 ^ k)%N -> N.lor (N.shiftl x k) a = (x * 2 ^ k + a)%N.
Proof.
  intros x k a Ha. rewrite <- N.shiftl_mul_pow2. symmetry. rewrite N.add_nocarry_lxor, N.lxor_lor; auto.
  all: apply N.bits_inj; intros n; rewrite N.land_spec, N.bits_0; destruct (N.lt_ge_cases n k) as [Hn|Hn];
    [rewrite N.shiftl_spec_low by exact Hn; reflexivity|].
  all: assert (N.testbit a n = false) as ->; [|apply Bool.andb_false_r].
  all: destruct (N.eq_dec a 0) as [->|Hz]; [apply N.bits_0|]; apply N.bits_above_log2; apply N.lt_le_trans with k; [|exact Hn]; apply N.log2_lt_pow2; lia.
Qed.
Lemma ppm_pixel_at : forall c, byte_color c -> ppm_pixel c = [byte_of (c_blue c); byte_of (c_green c); byte_of (c_red c)].
Proof.
  intros c (Hr & Hg & Hb). unfold ppm_pixel, byte_of. rewrite !Z.mod_small by assumption. set (r := Z.to_N (c_red c)). set (g := Z.to_N (c_green c)). set (b := Z.to_N (c_blue c)).
  assert (r < 256 /\ g < 256 /\ b < 256)%N as (R & G & B) by (unfold r, g, b; lia). clearbody r g b. clear Hr Hg Hb.
  assert (E : N.lor (N.lor (N.shiftl r 16) (N.shiftl g 8)) b = (r * 65536 + g * 256 + b)%N).
  { rewrite <- N.lor_assoc, (lor_shift g 8 b) by exact B. change (2 ^ 8)%N with 256%N. rewrite lor_shift by (change (2 ^ 16)%N with 65536%N; lia). change (2 ^ 16)%N with 65536%N. lia. }
  rewrite E, w4_le by lia. unfold le4. cbn [app firstn]. rewrite !N.div_div by discriminate. change (256 * 256)%N with 65536%N.
  assert (E1 : ((r * 65536 + g * 256 + b) mod 256 = b)%N) by (symmetry; apply N.mod_unique with (r * 256 + g)%N; lia).
  assert (E2 : ((r * 65536 + g * 256 + b) / 256 = r * 256 + g)%N) by (symmetry; apply N.div_unique with b; lia).
  assert (E2' : ((r * 256 + g) mod 256 = g)%N) by (symmetry; apply N.mod_unique with r; lia).
  assert (E3 : ((r * 65536 + g * 256 + b) / 65536 = r)%N) by (symmetry; apply N.div_unique with (g * 256 + b)%N; lia).
  rewrite E1, E2, E2', E3, (N.mod_small r 256) by exact R. reflexivity.
Qed.
Lemma ppm_row_at : forall img w h F y n x f, pic img w h F -> y < h -> x + n <= w ->
  ppm_row img y n x f = ROk (f ++ concat (map (fun x => ppm_pixel (F x y)) (seq x n))).
Proof.
  intros img w h F y n. induction n as [|n IH]; intros x f P Hy Hn; cbn [ppm_row seq map concat]; [rewrite app_nil_r; reflexivity|].
  rewrite (get_pic img w h F x y P) by lia. cbn [rbind]. rewrite IH by (auto; lia). rewrite <- app_assoc. reflexivity.
Qed.
Lemma ppm_rows_at : forall img w h F n y f, pic img w h F -> y + n <= h ->
  ppm_rows img n y f = ROk (f ++ concat (map (fun y => concat (map (fun x => ppm_pixel (F x y)) (seq 0 w))) (seq y n))).
Proof.
  intros img w h F n. induction n as [|n IH]; intros y f P Hn; cbn [ppm_rows seq map concat]; [rewrite app_nil_r; reflexivity|].
  pose proof (proj1 P) as A. rewrite A. rewrite (ppm_row_at img w h F) by (auto; lia). cbn [rbind]. rewrite IH by (auto; lia). rewrite <- app_assoc. reflexivity.
Qed.
Lemma pad_natural : forall n, (Z.of_nat n < 10 ^ 20)%Z -> natural (Z.of_nat n) (pad 0 (Z.of_nat n)).
Proof.
  intros n H. unfold pad. destruct (Z.ltb_spec (Z.of_nat n) 0); [lia|]. cbn [app Nat.sub repeat].
  replace (Z.abs_N (Z.of_nat n)) with (N.of_nat n) by lia. rewrite <- (nat_N_Z n). apply length_text. change (10 ^ 20)%Z with 100000000000000000000%Z in H. change (10 ^ 20)%N with 100000000000000000000%N. lia.
Qed.
(** The file of an image is the pixmap of the image with red and blue exchanged ... *)
Theorem C108_ppm : forall img, drawn img -> Forall byte_color (im_data img) -> (Z.of_nat (im_w img) < 2 ^ 31)%Z -> (Z.of_nat (im_h img) < 2 ^ 31)%Z ->
  exists f, ppm_write img = ROk f /\ pixmap (mkImage (im_w img) (im_h img) (map swapped (im_data img))) f.
Proof.
  intros img D Hb Hw Hh. pose proof (pic_drawn img D) as P. set (w := im_w img) in *. set (h := im_h img) in *. set (F := fun x y => nth (y * w + x) (im_data img) black) in *.
  unfold ppm_write. fold w h. rewrite (ppm_rows_at img w h F h 0 _ P (Nat.le_refl _)). eexists. split; [reflexivity|].
  unfold pixmap. cbn [im_w im_h]. exists (pad 0 (Z.of_nat w)), (pad 0 (Z.of_nat h)).
  split; [apply pad_natural; lia|]. split; [apply pad_natural; lia|]. cbv zeta.
  match goal with |- context [firstn (List.length ?h) _ = _] => set (head := h) end.
  set (g := fun y => concat (map (fun x => ppm_pixel (F x y)) (seq 0 w))).
  assert (L3 : forall c, List.length (ppm_pixel c) = 3) by reflexivity.
  assert (Lg : forall y, List.length (g y) = w * 3) by (intros y; apply pixels_length; intros; apply L3).
  split; [rewrite firstn_app, Nat.sub_diag, firstn_all; cbn [firstn]; apply app_nil_r|].
  split; [rewrite app_length, (pixels_length g (w * 3) 0 h Lg); clear; f_equal; nia|].
  intros x y Hx Hy. exists (swapped (F x y)). split.
  - unfold im_get. rewrite check_in by assumption. rewrite !Nat2Z.id. unfold im_load, im_index. cbn [im_w im_data]. rewrite nth_error_map. destruct P as (_ & _ & _ & E). rewrite E by assumption. reflexivity.
  - assert (Bc : byte_color (F x y)) by (eapply Forall_forall; [exact Hb|]; apply nth_In; rewrite D; apply index_lt; assumption).
    assert (At : forall k, k < 3 -> nth_error (head ++ concat (map g (seq 0 h))) (List.length head + 3 * (y * w + x) + k) = nth_error (bgr (F x y)) k).
    { intros k Hk. rewrite nth_error_app2 by lia. replace (List.length head + 3 * (y * w + x) + k - List.length head) with (y * (w * 3) + (x * 3 + k)) by lia.
      rewrite (pixels_nth g (w * 3) h y) by (try exact Lg; lia). unfold g. rewrite pixels_nth by (auto; lia). rewrite ppm_pixel_at by exact Bc. reflexivity. }
    destruct Bc as (Br & Bg & Bb). cbn [swapped c_red c_green c_blue]. unfold byte_at.
    split; [exists (byte_of (c_blue (F x y)))|split; [exists (byte_of (c_green (F x y)))|exists (byte_of (c_red (F x y)))]]; (split; [|apply byte_is; assumption]).
    + rewrite <- (Nat.add_0_r (_ + 3 * _)). rewrite At by lia. reflexivity.
    + rewrite At by lia. reflexivity.
    + rewrite At by lia. reflexivity.
Qed.
(** ... and so is not a pixmap of the image. *)
Theorem C108_ppm_refuted : ~ forall img f, drawn img -> Forall byte_color (im_data img) -> ppm_write img = ROk f -> pixmap img f.
Proof.
  intros H. specialize (H (mkImage 1 1 [red]) (L "P6" ++ [10%N] ++ L "1 1" ++ [10%N] ++ L "255" ++ [10; 0; 0; 255]%N) eq_refl).
  assert (B : Forall byte_color [red]) by (repeat constructor; cbn; lia). specialize (H B ltac:(vm_compute; reflexivity)).
  destruct H as (w & h & Nw & Nh & H1 & H2 & H3). cbn [im_w im_h] in *.
  destruct (H3 0 0 ltac:(lia) ltac:(lia)) as (c & Ec & (b & Eb & Vb) & _). vm_compute in Ec. inversion Ec; subst c. cbn [c_red] in Vb.
  assert (Lh : List.length (L "P6" ++ [10%N] ++ w ++ L " " ++ h ++ [10%N] ++ L "255" ++ [10%N]) = 11).
  { match goal with |- ?l = _ => change (14 = l + 3) in H2 end. lia. }
  rewrite Lh in Eb. cbn in Eb. inversion Eb; subst b. discriminate.
Qed.
Example C107_example : drawn (im_new 3 2) /\ inside (im_new 3 2) 2 1 /\ ~ inside (im_new 3 2) 3 0 /\
  im_paste (im_new 2 2) (mkImage 2 1 [red; black]) 1 1 = ROk (mkImage 2 2 [black; black; black; red]) /\
  im_explode (mkImage 2 1 [red; black]) 2 = ROk (mkImage 4 2 [red; red; black; black; red; red; black; black]).
Proof. split; [reflexivity|]. split; [split; cbn; lia|]. split; [intros [A _]; cbn in A; lia|]. split; vm_compute; reflexivity. Qed.

Print Assumptions C107_set.
Print Assumptions C107_new.
Print Assumptions C107_fill.
Print Assumptions C107_apply.
Print Assumptions C107_explode.
Print Assumptions C107_paste.
Print Assumptions C107_paste_negative_refuted.
Print Assumptions C107_blend_refuted.
Print Assumptions C108_bmp.
Print Assumptions C108_ppm.
Print Assumptions C108_ppm_refuted.
