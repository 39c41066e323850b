(** Model of lib/rnd.c and of lib/stats.c.  Values of series are doubles that are only
    compared and copied: integers stand for them.  Not modelled: NaN, [sum], [avg], [sd],
    [normalize], failing allocation. *)
From Coq Require Export ZArith.
From Coq Require Import Floats.SpecFloat.
From Verif Require Import LibBase LibText LibTok LibTime.

(** lib/rnd.c:3-6: whether the generator is seeded, and its value, 64 bits wide. *)
Record rnd := mkRnd { rnd_seeded : bool; rnd_value : N }.
Definition pcg_m : N := 0x9b60933458e17d7d.
Definition pcg_a : N := 0xd737232eeccdf7ed.
Definition u64 (n : N) : N := (n mod 2 ^ 64)%N.
Definition u32 (n : N) : N := (n mod 2 ^ 32)%N.
(** lib/rnd.c:22-25 [seed]. *)
Definition rnd_seed (s : N) (st : rnd) : rnd := mkRnd true (u64 s).
(** lib/rnd.c:8-17 [pcg32]; [auto] is the sum of the time and the process number. *)
Definition rnd_pcg32 (auto : N) (st : rnd) : N * rnd :=
  let st := if rnd_seeded st then st else rnd_seed auto st in
  let v := u64 (rnd_value st * pcg_m + pcg_a) in
  let shift := (29 - N.shiftr v 61)%N in
  (u32 (N.shiftr v shift), mkRnd (rnd_seeded st) v).
(** lib/rnd.c:29-35 [intn]. *)
Definition rnd_intn (auto : N) (n : N) (st : rnd) : bres (N * rnd) :=
  if (n =? 0)%N then RPanic
  else let '(x, st) := rnd_pcg32 auto st in ROk ((x mod n)%N, st).
(** lib/rnd.c:38-40 [u]. *)
Definition rnd_u (auto : N) (st : rnd) : spec_float * rnd :=
  let '(x, st) := rnd_pcg32 auto st in (SFdiv 53 1024 (dbl (Z.of_N x)) (dbl 4294967295), st).

(** lib/stats.c:148-151: the sum of the frequencies, a size_t. *)
Fixpoint freq_sum (l : list N) (sum : N) : N := match l with [] => sum | f :: r => freq_sum r (u64 (sum + f)) end.
(** lib/stats.c:157-163: the first index whose cumulative frequency is above [x]. *)
Fixpoint freq_pick (l : list N) (x cdf : N) (i : nat) : option nat :=
  match l with
  | [] => None
  | f :: r => let cdf := u64 (cdf + f) in if (x <? cdf)%N then Some i else freq_pick r x cdf (S i)
  end.
(** lib/stats.c:147-166 [sample_from_distribution]; [intn] takes 32 bits. *)
Definition sample_from_distribution (auto : N) (freqs : list N) (st : rnd) : bres (nat * rnd) :=
  let* (x, st) := rnd_intn auto (u32 (freq_sum freqs 0)) st in
  match freq_pick freqs x 0 0 with Some i => ROk (i, st) | None => RPanic end.

(** lib/stats.c:3-12 [series_t]: the values, the sorted copy if there is one, and the
    extremes. *)
Record series := mkSeries { se_values : list Z; se_sorted : option (list Z); se_min : Z; se_max : Z }.
(** lib/stats.c:14-16 [newseries]. *)
Definition newseries : series := mkSeries [] None 0 0.
(** lib/stats.c:26-47 [add]. *)
Definition se_add (s : series) (val : Z) : series :=
  let first := match se_values s with [] => true | _ => false end in
  mkSeries (se_values s ++ [val]) None
    (if first || (val <? se_min s)%Z then val else se_min s)
    (if first || (se_max s <? val)%Z then val else se_max s).
(** lib/stats.c:52-54 [count]. *)
Definition se_count (s : series) : nat := List.length (se_values s).
(** lib/stats.c:100, 111-117: what qsort with [doublecmp] gives: the values in ascending
    order. *)
Fixpoint insert (v : Z) (l : list Z) : list Z :=
  match l with [] => [v] | x :: r => if (v <=? x)%Z then v :: l else x :: insert v r end.
Fixpoint qsort (l : list Z) : list Z := match l with [] => [] | x :: r => insert x (qsort r) end.
(** lib/stats.c:91-105 [percentile]: reading behind the array is undefined; the product
    of the length and [p] fits a size_t, as the array is in memory. *)
Definition se_percentile (s : series) (p : Z) : bres (Z * series) :=
  if (p <? 0)%Z || (100 <? p)%Z then ROk (0%Z, s)
  else
    let sorted := match se_sorted s with Some l => l | None => qsort (se_values s) end in
    let s := mkSeries (se_values s) (Some sorted) (se_min s) (se_max s) in
    match nth_error sorted (se_count s * Z.to_nat p / 100) with Some v => ROk (v, s) | None => RUndefined end.
(** lib/stats.c:107-109 [median]. *)
Definition se_median (s : series) : bres (Z * series) := se_percentile s 50.
