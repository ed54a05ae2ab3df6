(** * Model of /repo/src/python.rs: indexing, reading and fill values from Python.

    Python integers are unbounded; isize and c_long have 64 bits. *)
From Verif Require Import Base Extent Chunk Dataset Slicer Filters Reader IndexTree.

Definition IMAX : Z := 9223372036854775807.   (* isize::MAX *)
Definition IMIN : Z := (-9223372036854775808)%Z.  (* isize::MIN *)
Definition W64Z : Z := 18446744073709551616.

(** An element of the index expression: a slice object (bounds and step may be None; bounds
    that are not integers are not modelled), an int (or bool), anything else. *)
(** python.rs 196-203. *)
Inductive pykey : Type :=
| PySlice (start stop step : option Z)
| PyInt (i : Z)
| PyOther.

(** The whole index expression: a tuple, or a single object. *)
(** python.rs 189. *)
Inductive pyarg : Type := PyTuple (l : list pykey) | PySingle (k : pykey).

(** python.rs 198-205: every key as a slice object.  `extract().unwrap()` panics outside
    isize; `ind + 1` is isize arithmetic; other objects hit `unimplemented!()`. *)
Definition py_slice (m : mode) (k : pykey) : res (option Z * option Z * option Z) :=
  match k with
  | PySlice a b s => Ok (a, b, s)
  | PyInt i =>
      if ((IMIN <=? i) && (i <=? IMAX))%Z%bool then
        if (i =? IMAX)%Z
        then match m with Debug => Panic | Release => Ok (Some i, Some IMIN, Some 1%Z) end
        else Ok (Some i, Some (i + 1)%Z, Some 1%Z)
      else Panic
  | PyOther => Panic
  end.

(** CPython's _PyEval_SliceIndex: integers are clamped to isize. *)
(** python.rs 208: done by [PySlice::indices]. *)
Definition clamp (x : Z) : Z := Z.max IMIN (Z.min IMAX x).

(** CPython's PySlice_AdjustIndices for one bound. *)
(** python.rs 189-227: done by [PySlice::indices]. *)
Definition adjust (x len step : Z) : Z :=
  if (x <? 0)%Z then
    if (x + len <? 0)%Z then (if (step <? 0)%Z then -1 else 0)%Z else (x + len)%Z
  else if (len <=? x)%Z then (if (step <? 0)%Z then len - 1 else len)%Z
  else x.

(** `as u64`. *)
Definition as_u64 (x : Z) : N := Z.to_N (x mod W64Z).

(** python.rs 208-211: [PySlice::indices] (PySlice_GetIndicesEx = PySlice_Unpack, which
    rejects step 0, then PySlice_AdjustIndices) with its `expect`; the dimension must fit
    in c_long; (start, (count, step)). *)
Definition py_axis (s : option Z * option Z * option Z) (dim : N) : res (N * N * N) :=
  let '(a, b, st) := s in
  let* _ := assert_ (Z.of_N dim <=? IMAX)%Z in
  let step := match st with None => 1%Z | Some x => Z.max (- IMAX) (clamp x) end in
  if (step =? 0)%Z then Panic else
  let len := Z.of_N dim in
  let start := adjust (match a with Some x => clamp x | None => if (step <? 0)%Z then IMAX else 0%Z end) len step in
  let stop := adjust (match b with Some x => clamp x | None => if (step <? 0)%Z then IMIN else IMAX end) len step in
  Ok (as_u64 start, as_u64 (stop - start), as_u64 step).

(** python.rs 196-213: the keys zipped with the shape.  `zip` asks for the key first, so
    the first surplus key is still converted and then dropped; further ones are not looked
    at. *)
Fixpoint py_axes (m : mode) (keys : list pykey) (shape : list N) : res (list (N * N * N)) :=
  match keys, shape with
  | [], _ => Ok []
  | k :: _, [] => let* _ := py_slice m k in Ok []
  | k :: keys', d :: shape' =>
      let* s := py_slice m k in
      let* t := py_axis s d in
      let* r := py_axes m keys' shape' in
      Ok (t :: r)
  end.

(** python.rs 189-219: from the index expression to (indices, counts). *)
Definition py_plan (m : mode) (shape : list N) (arg : pyarg) : res (list N * list N) :=
  match arg with
  | PySingle _ => Err EType                                             (* 189: `slice: &PyTuple` *)
  | PyTuple keys =>
      let* l := py_axes m keys shape in
      let indices := map (fun t => fst (fst t)) l ++ repeat 0 (length shape - length l) in  (* 215 *)
      let strides := map snd l ++ repeat 1 (length shape - length l) in                     (* 216 *)
      let counts := map (fun t => snd (fst t)) l ++ skipn (length l) shape in               (* 217 *)
      let* _ := assert_ (forallb (fun x => x =? 1) strides) in                              (* 219 *)
      Ok (indices, counts)
  end.

(** python.rs 222-233 (and 246-257): the element type of the array for a datatype. *)
Definition py_type (dt : datatype) : res (kind * nat) :=
  match dt with
  | UInt s | Int s =>
      if s =? 1 then Ok (KInt, 1%nat) else if s =? 2 then Ok (KInt, 2%nat)
      else if s =? 4 then Ok (KInt, 4%nat) else if s =? 8 then Ok (KInt, 8%nat) else Panic
  | Float s => if s =? 4 then Ok (KFloat, 4%nat) else if s =? 8 then Ok (KFloat, 8%nat) else Panic
  | Custom _ => Panic
  end.

(** python.rs 100-109: the shape of the array. *)
Definition py_dims (counts : list N) : list N :=
  match filter (fun d => 1 <? d) counts with [] => [1] | l => l end.

(** python.rs 89-124: [read_py_array], as a relation over the schedules of the parallel
    read.  NumPy refuses (a panic) arrays of 2^63 bytes or more.  [mem n] is the content
    of n bytes of newly allocated memory (`PyArray::new` does not initialise it). *)
Inductive py_read (m : mode) (h : host) (inflate : bytes -> option bytes)
    (sort : list gsegment -> list gsegment) (fuel : nat) (ds : dataset) (file : option bytes)
    (mem : N -> bytes) (k : kind) (w : nat) (idx cnt : list N) : res (list N * bytes) -> Prop :=
| py_big : (IMAX < Z.of_N (prodN (py_dims cnt) * N.of_nat w))%Z ->
    py_read m h inflate sort fuel ds file mem k w idx cnt Panic
| py_new x : (Z.of_N (prodN (py_dims cnt) * N.of_nat w) <= IMAX)%Z ->
    direct_new m ds file = x -> (forall r, x <> Ok r) ->
    py_read m h inflate sort fuel ds file mem k w idx cnt (failed x)
| py_ext r x : (Z.of_N (prodN (py_dims cnt) * N.of_nat w) <= IMAX)%Z ->
    direct_new m ds file = Ok r -> extents_of_pairs idx cnt = x -> (forall e, x <> Ok e) ->
    py_read m h inflate sort fuel ds file mem k w idx cnt (failed x)
| py_run r e x d : (Z.of_N (prodN (py_dims cnt) * N.of_nat w) <= IMAX)%Z ->
    direct_new m ds file = Ok r -> extents_of_pairs idx cnt = Ok e ->
    par_read m inflate sort fuel r e (mem (prodN (py_dims cnt) * N.of_nat w)) x d ->
    py_read m h inflate sort fuel ds file mem k w idx cnt
      (let* _ := x in Ok (py_dims cnt, to_native_slice h k w (d_order ds) d)).

(** python.rs 189-234: [Dataset.__getitem__]: the shape and bytes of the array. *)
Inductive py_get (m : mode) (h : host) (inflate : bytes -> option bytes)
    (sort : list gsegment -> list gsegment) (fuel : nat) (ds : dataset) (file : option bytes)
    (mem : N -> bytes) (arg : pyarg) : res (list N * bytes) -> Prop :=
| pg_plan x : py_plan m (d_shape ds) arg = x -> (forall p, x <> Ok p) ->
    py_get m h inflate sort fuel ds file mem arg (failed x)
| pg_type p x : py_plan m (d_shape ds) arg = Ok p -> py_type (d_dtype ds) = x -> (forall t, x <> Ok t) ->
    py_get m h inflate sort fuel ds file mem arg (failed x)
| pg_read idx cnt k w x : py_plan m (d_shape ds) arg = Ok (idx, cnt) -> py_type (d_dtype ds) = Ok (k, w) ->
    py_read m h inflate sort fuel ds file mem k w idx cnt x ->
    py_get m h inflate sort fuel ds file mem arg x.

(** python.rs 148-168: [apply_fill_value_impl] on the elements of the array.  [cond], [fv]:
    the arguments converted to the element type, if they can be; [arr]: the array, if its
    element type is the dataset's.  All three are unwrapped. *)
Definition apply_fill {V} (eqb : V -> V -> bool) (cond fv : option V) (arr : option (list V)) : res (list V) :=
  match cond, fv, arr with
  | Some c, Some f, Some l => Ok (map (fun v => if eqb v c then f else v) l)
  | _, _, _ => Panic
  end.

(** rayon's [par_mapv_inplace]: the elements are updated in some order, each once. *)
(** python.rs 167. *)
Fixpoint fill_in_order {V} (eqb : V -> V -> bool) (c f : V) (sched : list nat) (l : list V) : list V :=
  match sched with
  | [] => l
  | i :: sched' =>
      fill_in_order eqb c f sched'
        (match nth_error l i with
         | Some v => firstn i l ++ (if eqb v c then f else v) :: skipn (S i) l
         | None => l
         end)
  end.

(** python.rs 38-48, 50-52: [Index.dataset]: a handle holds the index, the group name and
    the dataset name. *)
Record pyhandle : Type := mkHandle { ph_idx : index; ph_group : option str; ph_ds : str }.

(** python.rs 39-42. *)
Definition py_lookup (i : index) (group : option str) (s : str) : option dataset :=
  match group with
  | Some g => match gi_group (i_root i) g with Some g' => gi_dataset g' s | None => None end
  | None => gi_dataset (i_root i) s
  end.
(** python.rs 38-48. *)
Definition py_dataset (i : index) (s : str) (group : option str) : option pyhandle :=
  match py_lookup i group s with Some _ => Some (mkHandle i group s) | None => None end.

(** python.rs 54-64: [Index.datasets]. *)
Definition py_datasets (i : index) (group : option str) : list str :=
  match group with
  | Some g => match gi_group (i_root i) g with Some g' => map fst (gi_datasets g') | None => [] end
  | None => map fst (gi_datasets (i_root i))
  end.

(** python.rs 80-87: the dataset of a handle; both lookups are unwrapped. *)
Definition py_handle (p : pyhandle) : res dataset :=
  match ph_group p with
  | Some g =>
      match gi_group (i_root (ph_idx p)) g with
      | Some g' => match gi_dataset g' (ph_ds p) with Some d => Ok d | None => Panic end
      | None => Panic
      end
  | None => match gi_dataset (i_root (ph_idx p)) (ph_ds p) with Some d => Ok d | None => Panic end
  end.
