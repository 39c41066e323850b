(** What users of lib/image, lib/formats/bmp and lib/formats/ppm expect. *)
From Coq Require Import ZArith.
From Verif Require Import LibBase LibText LibImage SpecTok SpecText.

(** An image with a color for each of its places. *)
Definition drawn (img : image) : Prop := List.length (im_data img) = im_w img * im_h img.
Definition inside (img : image) (x y : Z) : Prop := (0 <= x < Z.of_nat (im_w img) /\ 0 <= y < Z.of_nat (im_h img))%Z.
(** The images are of the same size and differ as [color] says. *)
Definition painted (img img' : image) (color : Z -> Z -> rgba -> rgba) : Prop :=
  im_w img' = im_w img /\ im_h img' = im_h img /\ drawn img' /\
  forall x y, inside img x y -> exists c, im_get img x y = ROk c /\ im_get img' x y = ROk (color x y c).

(** A number of [n] bytes, the lowest first, at a place in a file. *)
Definition le_value (l : bytes) : N := fold_right (fun b v => (b + 256 * v)%N) 0%N l.
Definition field (f : bytes) (at_ n : nat) (v : N) : Prop :=
  List.length (firstn n (skipn at_ f)) = n /\ le_value (firstn n (skipn at_ f)) = v.
(** A byte at a place of a file. *)
Definition byte_at (f : bytes) (i : nat) (z : Z) : Prop := exists b, nth_error f i = Some b /\ Z.of_N b = z.
Definition byte_color (c : rgba) : Prop := (0 <= c_red c < 256 /\ 0 <= c_green c < 256 /\ 0 <= c_blue c < 256)%Z.

(** A Windows bitmap of 24 bits per pixel without compression: the rows, from the lowest one,
    are padded to a multiple of four bytes. *)
Definition bitmap (img : image) (f : bytes) : Prop :=
  let stride := (3 * im_w img + 3) / 4 * 4 in
  firstn 2 f = L "BM" /\ field f 2 4 (N.of_nat (List.length f)) /\ field f 10 4 54 /\ field f 14 4 40 /\
  field f 18 4 (N.of_nat (im_w img)) /\ field f 22 4 (N.of_nat (im_h img)) /\ field f 26 2 1 /\ field f 28 2 24 /\ field f 30 4 0 /\
  List.length f = 54 + stride * im_h img /\
  forall x y, x < im_w img -> y < im_h img -> exists c, im_get img (Z.of_nat x) (Z.of_nat y) = ROk c /\
    let at_ := 54 + (im_h img - 1 - y) * stride + 3 * x in
    byte_at f at_ (c_blue c) /\ byte_at f (at_ + 1) (c_green c) /\ byte_at f (at_ + 2) (c_red c).

(** A portable pixmap: a head of texts, then red, green and blue of each pixel row by row. *)
Definition pixmap (img : image) (f : bytes) : Prop :=
  exists w h, natural (Z.of_nat (im_w img)) w /\ natural (Z.of_nat (im_h img)) h /\
  let head := L "P6" ++ [10%N] ++ w ++ L " " ++ h ++ [10%N] ++ L "255" ++ [10%N] in
  firstn (List.length head) f = head /\ List.length f = List.length head + 3 * (im_w img * im_h img) /\
  forall x y, x < im_w img -> y < im_h img -> exists c, im_get img (Z.of_nat x) (Z.of_nat y) = ROk c /\
    let at_ := List.length head + 3 * (y * im_w img + x) in
    byte_at f at_ (c_red c) /\ byte_at f (at_ + 1) (c_green c) /\ byte_at f (at_ + 2) (c_blue c).
