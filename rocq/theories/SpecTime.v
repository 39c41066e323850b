(** What users of lib/time expect. *)
From Coq Require Import ZArith.
From Verif Require Import LibBase SpecText SpecTok.

Local Open Scope Z_scope.

(** A number written with at least [w] digits, with zeros in front only up to [w]. *)
Definition num (w : nat) (z : Z) (t : bytes) : Prop :=
  digits t /\ digits_value t = z /\ (w <= List.length t)%nat /\ ((w < List.length t)%nat -> forall r, t = 48%N :: r -> r = []).

(** A duration in hours, minutes, seconds and whole milliseconds. *)
Definition clock (us h m s ms : Z) : Prop :=
  0 <= h /\ 0 <= m < 60 /\ 0 <= s < 60 /\ 0 <= ms < 1000 /\
  1000 * (((h * 60 + m) * 60 + s) * 1000 + ms) <= us < 1000 * (((h * 60 + m) * 60 + s) * 1000 + ms) + 1000.

(** The text of a duration in each format. *)
Inductive shows (us : Z) : bytes -> bytes -> Prop :=
| sh_mmss : forall h m s ms a b, clock us h m s ms -> num 2 (h * 60 + m) a -> num 2 s b ->
    shows us (L "mm:ss") (a ++ L ":" ++ b)
| sh_mmssms : forall h m s ms a b c, clock us h m s ms -> num 2 (h * 60 + m) a -> num 2 s b -> num 3 ms c ->
    shows us (L "mm:ss.ms") (a ++ L ":" ++ b ++ L "." ++ c)
| sh_hhmmssms : forall h m s ms a b c d, clock us h m s ms -> num 2 h a -> num 2 m b -> num 2 s c -> num 3 ms d ->
    shows us (L "hh:mm:ss,ms") (a ++ L ":" ++ b ++ L ":" ++ c ++ L "," ++ d)
| sh_long : forall h m s ms a b c d, clock us h m s ms -> 0 < h -> num 0 h a -> num 2 m b -> num 2 s c -> num 3 ms d ->
    shows us (L "[h]:mm:ss.mmm") (a ++ L ":" ++ b ++ L ":" ++ c ++ L "." ++ d)
| sh_short : forall m s ms b c d, clock us 0 m s ms -> num 0 m b -> num 2 s c -> num 3 ms d ->
    shows us (L "[h]:mm:ss.mmm") (b ++ L ":" ++ c ++ L "." ++ d).

(** The texts mm:ss and mm:ss.f, and the microseconds they stand for, rounded down. *)
Inductive duration_text : bytes -> Z -> Prop :=
| dt_whole : forall a b, digits a -> digits b ->
    duration_text (a ++ L ":" ++ b) ((digits_value a * 60 + digits_value b) * 1000000)
| dt_frac : forall a b f, digits a -> digits b -> digits f ->
    duration_text (a ++ L ":" ++ b ++ L "." ++ f)
      ((digits_value a * 60 + digits_value b) * 1000000 + digits_value f * 1000000 / 10 ^ Z.of_nat (List.length f)).

(** A moment as ISO 8601 writes it: year, month, day, hour, minute, second, milliseconds
    rounded down, the offset of the zone in hours and minutes; and the texts of the fraction
    and the zone. *)
Inductive fraction_ms : bytes -> Z -> Prop :=
| fm_none : fraction_ms [] 0
| fm_some : forall d, digits d -> fraction_ms (L "." ++ d) (digits_value d * 1000 / 10 ^ Z.of_nat (List.length d)).
Inductive zone : bytes -> Z -> Z -> Prop :=
| zone_utc : zone (L "Z") 0 0
| zone_east : forall a b, digits a -> digits b -> zone (L "+" ++ a ++ L ":" ++ b) (digits_value a) (digits_value b)
| zone_west : forall a b, digits a -> digits b -> zone (L "-" ++ a ++ L ":" ++ b) (- digits_value a) (- digits_value b).
Inductive iso_text : bytes -> bytes -> bytes -> list Z -> Prop :=
| it_make : forall Y M D h m s f z ms zh zm,
    digits Y -> digits M -> digits D -> digits h -> digits m -> digits s -> fraction_ms f ms -> zone z zh zm ->
    iso_text (Y ++ L "-" ++ M ++ L "-" ++ D ++ L "T" ++ h ++ L ":" ++ m ++ L ":" ++ s ++ f ++ z) f z
      [digits_value Y; digits_value M; digits_value D; digits_value h; digits_value m; digits_value s; ms; zh; zm].
(** The full form for UTC, with four digits for the year and three for the milliseconds. *)
Inductive iso_full : list Z -> bytes -> Prop :=
| if_make : forall Y M D h m s ms y mo d ho mi se l,
    num 4 Y y -> num 2 M mo -> num 2 D d -> num 2 h ho -> num 2 m mi -> num 2 s se -> num 3 ms l ->
    iso_full [Y; M; D; h; m; s; ms] (y ++ L "-" ++ mo ++ L "-" ++ d ++ L "T" ++ ho ++ L ":" ++ mi ++ L ":" ++ se ++ L "." ++ l ++ L "Z").
(** An int of C. *)
Definition int_range (z : Z) : Prop := -2147483648 <= z <= 2147483647.
