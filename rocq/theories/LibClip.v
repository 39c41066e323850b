(** Models of lib/clip/buffer.c, lib/clip/vec.c, lib/clip/map.c and
    lib/clip/map2.c. *)
From Verif Require Import LibBase.

(** * buffer *)

(** lib/clip/buffer.c:15-27 [clip_t]: the data and how much of it has been
    read; the size is the length of the data. *)
Record clip := mkClip { cl_data : bytes; cl_pos : nat }.

(** lib/clip/buffer.c:5-8 [t]: the clips reachable from [first], and whether
    [last] is set.  When it is set and [first] is not, [last] points to a clip
    that has been freed. *)
Record buffer := mkBuf { bf_first : list clip; bf_last : bool }.

(** lib/clip/buffer.c:29-32 [new]. *)
Definition buffer_new : buffer := mkBuf [] false.

(** lib/clip/buffer.c:44-52 [size]. *)
Definition buffer_size (b : buffer) : nat :=
  fold_left (fun total c => total + (List.length (cl_data c) - cl_pos c)) (bf_first b) 0.

(** lib/clip/buffer.c:58-75 [write]. *)
Definition buffer_write (b : buffer) (buf : bytes) : option (bool * buffer) :=
  match buf with
  | [] => Some (false, b)
  | _ =>
      let c := mkClip buf 0 in
      if bf_last b then
        match bf_first b with
        | [] => None
        | l => Some (true, mkBuf (l ++ [c]) true)
        end
      else Some (true, mkBuf [c] true)
  end.

(** lib/clip/buffer.c:81-99 [read]; the bytes moved so far come first. *)
Fixpoint buffer_read (b : buffer) (bufsize : nat) : option (bytes * buffer) :=
  match bufsize with
  | O => Some ([], b)
  | S n =>
      match bf_first b with
      | [] => Some ([], b)
      | c :: next =>
          obind (nth_error (cl_data c) (cl_pos c)) (fun x =>
          let pos := S (cl_pos c) in
          let b' := if Nat.eqb pos (List.length (cl_data c))
                    then mkBuf next (match next with [] => false | _ => bf_last b end)
                    else mkBuf (mkClip (cl_data c) pos :: next) (bf_last b) in
          obind (buffer_read b' n) (fun '(p, b'') => Some (x :: p, b'')))
      end
  end.

(** * vec *)

(** lib/clip/vec.c:1-6 [t]: [data] has room for [cap] items. *)
Record vec := mkVec { vc_cap : nat; vc_len : nat; vc_itemsize : nat; vc_data : bytes }.

(** lib/clip/vec.c:11-15 [new]. *)
Definition vec_new (itemsize : nat) : vec := mkVec 0 0 itemsize [].

(** Writing the bytes [x] at offset [at_] of an object, and reading [n] bytes. *)
Definition mem_put (d : bytes) (at_ : nat) (x : bytes) : option bytes :=
  if Nat.leb (at_ + List.length x) (List.length d)
  then Some (firstn at_ d ++ x ++ skipn (at_ + List.length x) d) else None.
Definition mem_get (d : bytes) (at_ n : nat) : option bytes :=
  if Nat.leb (at_ + n) (List.length d) then Some (firstn n (skipn at_ d)) else None.

Section Vec.
(** What realloc leaves in the new part of the memory. *)
Context (junk : nat -> bytes) (junk_len : forall n, List.length (junk n) = n).

(** lib/clip/vec.c:30-44 [alloc]; the new item is the one at the old length. *)
Definition vec_alloc (l : vec) : option (nat * vec) :=
  obind (if Nat.eqb (vc_len l) (vc_cap l) then
           let newcap := vc_cap l * 2 in
           let newcap := if Nat.eqb newcap 0 then 16 else newcap in
           let size := newcap * vc_itemsize l in
           let newdata := firstn size (vc_data l) ++ junk (size - List.length (vc_data l)) in
           obind (mem_put newdata (vc_itemsize l * vc_len l)
                    (repeat 0%N (vc_itemsize l * (newcap - vc_len l)))) (fun d =>
           Some (mkVec newcap (vc_len l) (vc_itemsize l) d))
         else Some l) (fun l =>
  Some (vc_len l, mkVec (vc_cap l) (S (vc_len l)) (vc_itemsize l) (vc_data l))).

(** Using the pointer returned by [index] (lib/clip/vec.c:47-51) to write or to
    read one item. *)
Definition vec_put (l : vec) (i : nat) (x : bytes) : option vec :=
  obind (mem_put (vc_data l) (vc_itemsize l * i) x) (fun d =>
  Some (mkVec (vc_cap l) (vc_len l) (vc_itemsize l) d)).
Definition vec_item (l : vec) (i : nat) : option bytes :=
  mem_get (vc_data l) (vc_itemsize l * i) (vc_itemsize l).

(** lib/clip/vec.c:24-27 [push]. *)
Definition vec_push (l : vec) (x : bytes) : option vec :=
  obind (vec_alloc l) (fun '(pos, l) => vec_put l pos (firstn (vc_itemsize l) x)).
End Vec.

(** * map *)

(** lib/clip/map.c:1-8 [entry_t]. *)
Record entry := mkEntry { e_key : bytes; e_value : bytes }.
(** The zeroed entry of line 109. *)
Definition entry0 : entry := mkEntry [] (repeat 0%N 8).

(** lib/clip/map.c:10-17 [map_t]: [entries] has [cap] cells. *)
Record map := mkMap { mp_size : nat; mp_entries : list entry; mp_valsize : nat }.
Definition mp_cap (m : map) : nat := List.length (mp_entries m).

(** lib/clip/map.c:21-33 [new]. *)
Definition map_new (valsize : nat) : option map :=
  if Nat.ltb 8 valsize then None else Some (mkMap 0 (repeat entry0 16) valsize).

(** lib/clip/map.c:89-99 [find]: the position of the entry. *)
Fixpoint find_entry (key : bytes) (i size : nat) (ee : list entry) : option nat :=
  match size, ee with
  | S n, e :: r => if bytes_eqb key (e_key e) then Some i else find_entry key (S i) n r
  | _, _ => None
  end.
Definition map_find (m : map) (key : bytes) : option nat := find_entry key 0 (mp_size m) (mp_entries m).

(** lib/clip/map.c:101-111 [create]: the position of the new entry. *)
Definition map_create (m : map) : option (nat * map) :=
  let ee := if Nat.eqb (mp_size m) (mp_cap m)
            then mp_entries m ++ repeat entry0 (mp_cap m) else mp_entries m in
  if Nat.ltb (mp_size m) (List.length ee)
  then Some (mp_size m, mkMap (S (mp_size m)) (upd (mp_size m) entry0 ee) (mp_valsize m))
  else None.

(** lib/clip/map.c:46-59 [set].  [realloc] with size zero may give NULL, which
    panics (line 54). *)
Definition map_set (m : map) (key val : bytes) : option map :=
  obind (match map_find m key with Some i => Some (i, m) | None => map_create m end) (fun '(i, m) =>
  match key with
  | [] => None
  | _ =>
      obind (nth_error (mp_entries m) i) (fun e =>
      obind (mem_put (e_value e) 0 (firstn (mp_valsize m) val)) (fun v =>
      Some (mkMap (mp_size m) (upd i (mkEntry key v) (mp_entries m)) (mp_valsize m))))
  end).

(** lib/clip/map.c:63-68 [get]. *)
Definition map_get (m : map) (key : bytes) : option bytes :=
  obind (map_find m key) (fun i =>
  obind (nth_error (mp_entries m) i) (fun e => Some (firstn (mp_valsize m) (e_value e)))).

(** lib/clip/map.c:71-73 [has]. *)
Definition map_has (m : map) (key : bytes) : bool :=
  match map_find m key with Some _ => true | None => false end.

(** lib/clip/map.c:115-148 [iter], [next], [itkey] with a buffer that is large
    enough, [itval]: the entries met, in order. *)
Fixpoint map_iter_from (m : map) (fuel pos : nat) : option (list (bytes * bytes)) :=
  match fuel with
  | O => Some []
  | S f =>
      if Nat.leb (mp_size m) pos then Some []
      else obind (nth_error (mp_entries m) pos) (fun e =>
           obind (map_iter_from m f (S pos)) (fun r =>
           Some ((e_key e, firstn (mp_valsize m) (e_value e)) :: r)))
  end.
Definition map_iter (m : map) : option (list (bytes * bytes)) := map_iter_from m (S (mp_size m)) 0.

(** * map2 *)

(** lib/clip/map2.c:66-70 [slot_t]; a key or value is the bytes pointed to, if
    any, and the recorded size.  [bucket_index] is only printed. *)
Record slot := mkSlot { sl_hash : N; sl_key : option bytes; sl_keysize : nat;
                        sl_val : option bytes; sl_valsize : nat }.
Definition slot0 : slot := mkSlot 0 None 0 None 0.

(** lib/clip/map2.c:60-64 [innermap_t]. *)
Record innermap := mkInner { im_nbuckets : nat; im_bucketsize : nat; im_slots : list slot; im_size : nat }.

(** lib/clip/map2.c:72-74 [cap]. *)
Definition im_cap (m : innermap) : nat := im_nbuckets m * im_bucketsize m.

(** lib/clip/map2.c:76-82 [innermap]. *)
Definition inner_new (nbuckets bucketsize : nat) : innermap :=
  mkInner nbuckets bucketsize (repeat slot0 (nbuckets * bucketsize)) 0.

(** lib/clip/map2.c:186-193 [hash], modulo 2^32. *)
Definition hash (s : bytes) : N := fold_left (fun r b => ((r * 31 + b) mod 4294967296)%N) s 0%N.

(** lib/clip/map2.c:7-9 [slice_eq]: the sizes, then so many bytes. *)
Definition slot_is (key : bytes) (h : N) (s : slot) : bool :=
  N.eqb (sl_hash s) h && Nat.eqb (sl_keysize s) (List.length key)
  && match sl_key s with
     | Some k => bytes_eqb (firstn (List.length key) k) key
     | None => match key with [] => true | _ => false end
     end.
Definition slot_free (s : slot) : bool := match sl_key s with None => true | Some _ => false end.

(** lib/clip/map2.c:158-164, 174-182: try all slots from [pos] on. *)
Fixpoint probe (p : slot -> bool) (slots : list slot) (n pos i : nat) : option nat :=
  match i with
  | O => None
  | S j =>
      match nth_error slots pos with
      | Some s => if p s then Some pos else probe p slots n ((pos + 1) mod n) j
      | None => None
      end
  end.
Definition home (m : innermap) (h : N) : nat :=
  N.to_nat (h mod N.of_nat (im_nbuckets m)) * im_bucketsize m.

(** lib/clip/map2.c:153-166 [find_slot]. *)
Definition find_slot (m : innermap) (key : bytes) : option nat :=
  let h := hash key in probe (slot_is key h) (im_slots m) (im_cap m) (home m h) (im_cap m).

(** lib/clip/map2.c:168-184 [alloc_slot]; [None] is the panic. *)
Definition alloc_slot (m : innermap) (key : bytes) : option nat :=
  let h := hash key in probe slot_free (im_slots m) (im_cap m) (home m h) (im_cap m).

(** lib/clip/map2.c:97-112 [inner_set]: an overwritten value keeps its recorded
    size. *)
Definition inner_set (m : innermap) (key val : bytes) : option innermap :=
  match find_slot m key with
  | Some i =>
      obind (nth_error (im_slots m) i) (fun s =>
      Some (mkInner (im_nbuckets m) (im_bucketsize m)
              (upd i (mkSlot (sl_hash s) (sl_key s) (sl_keysize s) (Some val) (sl_valsize s)) (im_slots m))
              (im_size m)))
  | None =>
      obind (alloc_slot m key) (fun i =>
      Some (mkInner (im_nbuckets m) (im_bucketsize m)
              (upd i (mkSlot (hash key) (Some key) (List.length key) (Some val) (List.length val)) (im_slots m))
              (S (im_size m))))
  end.

(** lib/clip/map2.c:114-120 [inner_get]: the bytes pointed to. *)
Definition inner_get (m : innermap) (key : bytes) : option bytes :=
  obind (find_slot m key) (fun i => obind (nth_error (im_slots m) i) (fun s => sl_val s)).

(** lib/clip/map2.c:122-134 [inner_copy]: as many bytes as recorded. *)
Fixpoint copy_slots (dest : innermap) (ss : list slot) : option innermap :=
  match ss with
  | [] => Some dest
  | s :: r =>
      match sl_key s with
      | None => copy_slots dest r
      | Some k =>
          obind (sl_val s) (fun v =>
          if Nat.leb (sl_keysize s) (List.length k) && Nat.leb (sl_valsize s) (List.length v)
          then obind (inner_set dest (firstn (sl_keysize s) k) (firstn (sl_valsize s) v)) (fun dest =>
               copy_slots dest r)
          else None)
      end
  end.
Definition inner_copy (dest src : innermap) : option innermap :=
  if Nat.ltb (im_cap dest) (im_cap src) then None else copy_slots dest (im_slots src).

(** lib/clip/map2.c:22-27 [new]. *)
Definition map2_new : innermap := inner_new 1 32.

(** lib/clip/map2.c:35-51 [set]. *)
Definition map2_set (cur : innermap) (key val : bytes) : option innermap :=
  obind (if Nat.ltb 75 (im_size cur * 100 / im_cap cur)
         then inner_copy (inner_new (im_nbuckets cur * 2) (im_bucketsize cur)) cur
         else Some cur) (fun m => inner_set m key val).

(** lib/clip/map2.c:55-58 [get]. *)
Definition map2_get (m : innermap) (key : bytes) : option bytes := inner_get m key.
