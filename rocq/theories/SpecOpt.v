(** What a command line means to a program that uses lib/opt. *)
From Coq Require Export ZArith.
From Verif Require Import LibBase SpecText SpecTok LibOpt.

(** The option named [c] is [s]: the first one declared with that name. *)
Definition declared (specs : list optspec) (c : byte) (s : optspec) : Prop :=
  exists l1 l2, specs = l1 ++ s :: l2 /\ os_name s = [c] /\ forall s', In s' l1 -> os_name s' <> [c].
Definition undeclared (specs : list optspec) (c : byte) : Prop := forall s, In s specs -> os_name s <> [c].

(** Whole numbers. *)
Inductive number : bytes -> Z -> Prop :=
| number_pos : forall ds, digits ds -> number ds (digits_value ds)
| number_neg : forall ds, digits ds -> number (45%N :: ds) (- digits_value ds).

Section Floats.
  Variable F : Type.
  Variable scan_float : bytes -> option F.

  (** The value that a text gives to an option. *)
  Inductive holds : opt_type -> bytes -> oval F -> Prop :=
  | holds_str : forall t, holds OptStr t (VStr t)
  | holds_int : forall t v, number t v -> (- 2 ^ 31 <= v < 2 ^ 31)%Z -> holds OptInt t (VInt v)
  | holds_size : forall t, digits t -> (digits_value t < 2 ^ 64)%Z -> holds OptSize t (VSize (digits_value t))
  | holds_float : forall t f, scan_float t = Some f -> holds OptFloat t (VFloat f).

  (** Arguments that are options, and what they set, in order: [-abc] for flags, or
      [-k value]. *)
  Inductive options (specs : list optspec) : list bytes -> list (nat * oval F) -> Prop :=
  | options_end : options specs [] []
  | options_flags : forall cs ss args l, cs <> [] ->
      Forall2 (fun c s => declared specs c s /\ os_type s = OptBool) cs ss ->
      options specs args l ->
      options specs ((45%N :: cs) :: args) (List.map (fun s => (os_pointer s, VBool true)) ss ++ l)
  | options_value : forall c s t v args l,
      declared specs c s -> holds (os_type s) t v ->
      options specs args l ->
      options specs ([45%N; c] :: t :: args) ((os_pointer s, v) :: l).
End Floats.

(** Where the options end: at an argument that is a lone dash or starts with no dash. *)
Definition options_stop (rest : list bytes) : Prop :=
  match rest with
  | [] => True
  | a :: _ => a = [45%N] \/ forall t, a <> 45%N :: t
  end.
