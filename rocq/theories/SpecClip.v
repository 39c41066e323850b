(** What a user of the containers in lib/clip expects, as answers to a history
    of calls.  Nothing here mentions clips, slots, buckets or capacities. *)
From Verif Require Import LibBase.

(** Run a container through a list of calls: the answers, or [None] when a call
    panics or touches memory outside its objects. *)
Fixpoint run_calls {S Op Out} (step : S -> Op -> option (Out * S)) (s : S) (ops : list Op) : option (list Out) :=
  match ops with
  | [] => Some []
  | o :: r =>
      match step s o with
      | None => None
      | Some (out, s') =>
          match run_calls step s' r with None => None | Some outs => Some (out :: outs) end
      end
  end.

(** * A queue of bytes *)
Inductive qop := QWrite (bs : bytes) | QRead (n : nat) | QSize.
Inductive qout := QWrote (ok : bool) | QGot (bs : bytes) | QSized (n : nat).

(** Reads give the bytes in the order they were written, as many as asked for
    or as there are.  Writing nothing reports a failure. *)
Fixpoint queue (q : bytes) (ops : list qop) : list qout :=
  match ops with
  | [] => []
  | QWrite bs :: r => QWrote (match bs with [] => false | _ => true end) :: queue (q ++ bs) r
  | QRead n :: r => QGot (firstn n q) :: queue (skipn n q) r
  | QSize :: r => QSized (List.length q) :: queue q r
  end.

(** * A growing array of items of one size *)
Inductive vop := VPush (x : bytes) | VAlloc | VPut (i : nat) (x : bytes) | VGet (i : nat) | VLen.
Inductive vout := VDone | VItem (x : bytes) | VNum (n : nat).

(** [None]: the history is not one the user may ask for (an index outside the
    array, an item of another size). *)
Fixpoint array (itemsize : nat) (items : list bytes) (ops : list vop) : option (list vout) :=
  match ops with
  | [] => Some []
  | VPush x :: r =>
      if Nat.eqb (List.length x) itemsize
      then option_map (cons VDone) (array itemsize (items ++ [x]) r) else None
  | VAlloc :: r => option_map (cons VDone) (array itemsize (items ++ [repeat 0%N itemsize]) r)
  | VPut i x :: r =>
      if Nat.ltb i (List.length items) && Nat.eqb (List.length x) itemsize
      then option_map (cons VDone) (array itemsize (upd i x items) r) else None
  | VGet i :: r =>
      match nth_error items i with
      | Some x => option_map (cons (VItem x)) (array itemsize items r)
      | None => None
      end
  | VLen :: r => option_map (cons (VNum (List.length items))) (array itemsize items r)
  end.

(** * A map *)
Inductive mop := MSet (k v : bytes) | MGet (k : bytes) | MHas (k : bytes) | MSize | MIter.
Inductive mout := MDone | MVal (v : option bytes) | MYes (b : bool) | MNum (n : nat) | MAll (l : list (bytes * bytes)).

(** The value last set for the key. *)
Fixpoint last_set (k : bytes) (past : list mop) : option bytes :=
  match past with
  | [] => None
  | MSet k' v :: r =>
      match last_set k r with
      | Some w => Some w
      | None => if bytes_eqb k k' then Some v else None
      end
  | _ :: r => last_set k r
  end.

(** The keys that have been set, each once, in the order of their first setting. *)
Fixpoint keys_set (seen : list bytes) (past : list mop) : list bytes :=
  match past with
  | [] => seen
  | MSet k _ :: r => keys_set (if existsb (bytes_eqb k) seen then seen else seen ++ [k]) r
  | _ :: r => keys_set seen r
  end.

Definition answer (past : list mop) (o : mop) : mout :=
  match o with
  | MSet _ _ => MDone
  | MGet k => MVal (last_set k past)
  | MHas k => MYes (match last_set k past with Some _ => true | None => false end)
  | MSize => MNum (List.length (keys_set [] past))
  | MIter => MAll (List.map (fun k => (k, match last_set k past with Some v => v | None => [] end)) (keys_set [] past))
  end.

Fixpoint answers (past ops : list mop) : list mout :=
  match ops with
  | [] => []
  | o :: r => answer past o :: answers (past ++ [o]) r
  end.

(** Every key is not empty and every value has the given size. *)
Definition map_history (valsize : nat) (ops : list mop) : Prop :=
  forall k v, In (MSet k v) ops -> k <> [] /\ List.length v = valsize.

(** Every key is not empty, and a key that is set again is set to a value of the
    same size. *)
Definition map2_history (ops : list mop) : Prop :=
  (forall k v, In (MSet k v) ops -> k <> []) /\
  (forall k v w, In (MSet k v) ops -> In (MSet k w) ops -> List.length v = List.length w) /\
  (forall o, In o ops -> match o with MSet _ _ | MGet _ => True | _ => False end).
