(** Model of lib/image.c, lib/formats/bmp.c and lib/formats/ppm.c.  Sizes are such that the
    products computed are ints.  Not modelled: [mix] and the functions built on it, [from_hsl]
    and [from_hsv], [testimage]; files are taken to open and to take all bytes. *)
From Coq Require Export ZArith.
From Coq Require Import Floats.SpecFloat.
From Verif Require Import LibBase LibIO LibText LibTok LibHttp LibTime.

(** lib/image.c:3-9 [rgba_t], [image_t]: the pixels row by row. *)
Record rgba := mkRgba { c_red : Z; c_green : Z; c_blue : Z; c_transparency : Z }.
Record image := mkImage { im_w : nat; im_h : nat; im_data : list rgba }.
Definition black : rgba := mkRgba 0 0 0 0.

(** lib/image.c:14-20 [new]. *)
Definition im_new (w h : nat) : image := mkImage w h (repeat black (w * h)).
(** lib/image.c:28-30 [getpixel]: where the pixel is. *)
Definition im_index (img : image) (x y : nat) : nat := y * im_w img + x.
(** lib/image.c:44-51 [checkcoords]. *)
Definition im_check (img : image) (x y : Z) : bool :=
  negb ((x <? 0) || (y <? 0))%Z && negb ((Z.of_nat (im_w img) <=? x) || (Z.of_nat (im_h img) <=? y))%Z.
Fixpoint put_at (i : nat) (c : rgba) (l : list rgba) : list rgba :=
  match l, i with [], _ => [] | _ :: r, O => c :: r | x :: r, S i => x :: put_at i c r end.
(** Writing through the pointer of [getpixel]. *)
Definition im_store (img : image) (x y : nat) (c : rgba) : bres image :=
  if Nat.ltb (im_index img x y) (List.length (im_data img))
  then ROk (mkImage (im_w img) (im_h img) (put_at (im_index img x y) c (im_data img))) else RUndefined.
(** Reading through it. *)
Definition im_load (img : image) (x y : nat) : bres rgba :=
  match nth_error (im_data img) (im_index img x y) with Some c => ROk c | None => RUndefined end.
(** lib/image.c:33-36 [set]. *)
Definition im_set (img : image) (x y : Z) (c : rgba) : bres image :=
  if im_check img x y then im_store img (Z.to_nat x) (Z.to_nat y) c else RPanic.
(** lib/image.c:39-42 [get]. *)
Definition im_get (img : image) (x y : Z) : bres rgba :=
  if im_check img x y then im_load img (Z.to_nat x) (Z.to_nat y) else RPanic.
(** lib/image.c:54-56 [clear]. *)
Definition im_clear (img : image) : image := mkImage (im_w img) (im_h img) (repeat black (im_w img * im_h img)).

(** A loop that counts from [i], [n] times at most, and breaks when [stop] holds. *)
Fixpoint for_until (n i : nat) (stop : nat -> bool) (body : nat -> image -> bres image) (img : image) : bres image :=
  match n with
  | O => ROk img
  | S n => if stop i then ROk img else rbind (body i img) (fun img => for_until n (S i) stop body img)
  end.
Definition for_ (n : nat) (body : nat -> image -> bres image) (img : image) : bres image := for_until n 0 (fun _ => false) body img.

(** lib/image.c:59-65 [fill]. *)
Definition im_fill (img : image) (color : rgba) : bres image :=
  for_ (im_w img) (fun x => for_ (im_h img) (fun y img => im_store img x y color)) img.
(** lib/image.c:83-91 [apply]; [f] is what the callback does to a color. *)
Definition im_apply (img : image) (f : rgba -> rgba) : bres image :=
  for_ (im_h img) (fun y => for_ (im_w img) (fun x img =>
    rbind (im_get img (Z.of_nat x) (Z.of_nat y)) (fun color => im_set img (Z.of_nat x) (Z.of_nat y) (f color)))) img.
(** lib/image.c:94-113 [explode]; [bigx] and [bigy] count the passes of the inner loops. *)
Definition im_explode (img : image) (n : nat) : bres image :=
  for_ (im_h img) (fun y => for_ n (fun i => for_ (im_w img) (fun x big =>
    rbind (im_get img (Z.of_nat x) (Z.of_nat y)) (fun c =>
    for_ n (fun j big => im_set big (Z.of_nat (x * n + j)) (Z.of_nat (y * n + i)) c) big)))) (im_new (im_w img * n) (im_h img * n)).
(** lib/image.c:116-133 [paste] of another image. *)
Definition im_paste (img p : image) (x y : Z) : bres image :=
  for_until (im_h p) 0 (fun yp => (Z.of_nat (im_h img) <=? y + Z.of_nat yp)%Z) (fun yp =>
    for_until (im_w p) 0 (fun xp => (Z.of_nat (im_w img) <=? x + Z.of_nat xp)%Z) (fun xp img =>
      rbind (im_get p (Z.of_nat xp) (Z.of_nat yp)) (fun c => im_set img (x + Z.of_nat xp) (y + Z.of_nat yp) c))) img.

(** Single precision, as gcc for x86-64 computes it. *)
Definition flt (z : Z) : spec_float := binary_normalize 24 128 z 0 false.
(** lib/image.c:76-80 [blendcolor]. *)
Definition blendcolor (old new : Z) (opacity : spec_float) : Z :=
  let oldpart := SFmul 24 128 (SFsub 24 128 opacity (flt 1)) (flt old) in
  let newpart := SFmul 24 128 opacity (flt new) in
  trunc (SFadd 24 128 oldpart newpart).
(** lib/image.c:68-74 [blend]. *)
Definition im_blend (img : image) (x y : Z) (color : rgba) (opacity : spec_float) : bres image :=
  rbind (im_get img x y) (fun c =>
  im_set img x y (mkRgba (blendcolor (c_red c) (c_red color) opacity) (blendcolor (c_green c) (c_green color) opacity)
                         (blendcolor (c_blue c) (c_blue color) opacity) (c_transparency c))).

(** A file being written, as a writer. *)
Definition file_put : write_fn bytes := fun w d => (Z.of_nat (List.length d), w ++ d).
(** lib/enc/endian.c:71-74 [write1] of an int: its low eight bits. *)
Definition write1 (w : bytes) (z : Z) : bytes := snd (file_put w [Z.to_N (z mod 256)]).
Definition w4 (w : bytes) (v : N) : bytes := snd (write4le file_put w (u32 v)).
Definition w2 (w : bytes) (v : N) : bytes := snd (write2le file_put w (u32 v)).
(** lib/formats/bmp.c:17-18. *)
Definition bmp_pad (width : nat) : nat := (4 - (width * 3) mod 4) mod 4.
(** lib/formats/bmp.c:23-63: the headers. *)
Definition bmp_head (width height : nat) : bytes :=
  let headers_size := 14 + 40 in
  let image_data_size := height * (width * 3 + bmp_pad width) in
  let file_size := headers_size + image_data_size in
  let w := write1 (write1 [] 0x42) 0x4d in
  let w := w4 w (N.of_nat file_size) in
  let w := w4 w 0 in
  let w := w4 w (N.of_nat headers_size) in
  let w := w4 w 40 in
  let w := w4 w (N.of_nat width) in
  let w := w4 w (N.of_nat height) in
  let w := w2 w 1 in
  let w := w2 w 24 in
  let w := w4 w 0 in
  let w := w4 w (N.of_nat image_data_size) in
  let w := w4 w 0 in
  let w := w4 w 0 in
  let w := w4 w 0 in
  w4 w 0.
(** lib/formats/bmp.c:66-74: one row. *)
Fixpoint bmp_pixels (img : image) (y : nat) (n x : nat) (w : bytes) : bres bytes :=
  match n with
  | O => ROk w
  | S n => rbind (im_load img x y) (fun c => bmp_pixels img y n (S x) (write1 (write1 (write1 w (c_blue c)) (c_green c)) (c_red c)))
  end.
Fixpoint bmp_zeros (n : nat) (w : bytes) : bytes := match n with O => w | S n => bmp_zeros n (write1 w 0) end.
(** lib/formats/bmp.c:65-75: the rows [n-1] down to 0. *)
Fixpoint bmp_rows (img : image) (n : nat) (w : bytes) : bres bytes :=
  match n with
  | O => ROk w
  | S y => rbind (bmp_pixels img y (im_w img) 0 w) (fun w => bmp_rows img y (bmp_zeros (bmp_pad (im_w img)) w))
  end.
(** lib/formats/bmp.c:6-79 [write]: what is in the file. *)
Definition bmp_write (img : image) : bres bytes := bmp_rows img (im_h img) (bmp_head (im_w img) (im_h img)).

(** lib/formats/ppm.c:14-15: the low three bytes of a little-endian word, for components
    that fit a byte. *)
Definition ppm_pixel (c : rgba) : bytes :=
  let buf := N.lor (N.lor (N.shiftl (Z.to_N (c_red c)) 16) (N.shiftl (Z.to_N (c_green c)) 8)) (Z.to_N (c_blue c)) in
  firstn 3 (w4 [] buf).
Fixpoint ppm_row (img : image) (y n x : nat) (f : bytes) : bres bytes :=
  match n with O => ROk f | S n => rbind (im_get img (Z.of_nat x) (Z.of_nat y)) (fun c => ppm_row img y n (S x) (f ++ ppm_pixel c)) end.
Fixpoint ppm_rows (img : image) (n y : nat) (f : bytes) : bres bytes :=
  match n with O => ROk f | S n => rbind (ppm_row img y (im_w img) 0 f) (fun f => ppm_rows img n (S y) f) end.
(** lib/formats/ppm.c:5-18 [writeimg]: what is in the file. *)
Definition ppm_write (img : image) : bres bytes :=
  ppm_rows img (im_h img) 0 (L "P6" ++ [10%N] ++ pad 0 (Z.of_nat (im_w img)) ++ L " " ++ pad 0 (Z.of_nat (im_h img)) ++ [10%N] ++ L "255" ++ [10%N]).
