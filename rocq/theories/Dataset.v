(** * Model of /repo/src/idx/dataset/dataset.rs (construction, lookup) and types.rs. *)
From Verif Require Import Base Extent Chunk.

(** types.rs 3-9. *)
Inductive datatype : Type := UInt (sz : N) | Int (sz : N) | Float (sz : N) | Custom (sz : N).

(** types.rs 12-18: [Datatype::dsize]. *)
Definition dt_size (d : datatype) : N :=
  match d with UInt s => s | Int s => s | Float s => s | Custom s => s end.

(** filters/byteorder.rs 4-8. *)
Inductive order : Type := BE | LE | Unknown.

(** dataset.rs 21-49: [struct Dataset<D>].  [StrengthReducedU64] is its divisor. *)
Record dataset : Type := mkDataset {
  d_dtype : datatype;
  d_dsize : N;
  d_order : order;
  d_chunks : list chunk;
  d_shape : list N;
  d_chunk_shape : list N;
  d_chunk_shape_reduced : list N;
  d_scaled_dim_sz : list N;
  d_dim_sz : list N;
  d_chunk_dim_sz : list N;
  d_shuffle : bool;
  d_gzip : option N
}.

(** dataset.rs 199-203, 216-220, 233-237: the [scan] of running products. *)
Fixpoint scan_mul (m : mode) (p : N) (l : list N) : res (list N) :=
  match l with
  | [] => Ok []
  | c :: l' => let* p' := mul64 m p c in
               let* r := scan_mul m p' l' in Ok (p :: r)
  end.
(** `.rev().scan(..).collect()` followed by `reverse()`. *)
Definition strides (m : mode) (l : list N) : res (list N) :=
  let* r := scan_mul m 1 (rev l) in Ok (rev r).

(** [StrengthReducedU64::new] panics for a zero divisor (strength_reduce crate). *)
Definition sr_new (d : N) : res N := if d =? 0 then Panic else Ok d.

(** dataset.rs 167-259: [Dataset::new].  The rank D of the type is [length shape]
    and equals [length chunk_shape] by typing. *)
Definition dataset_new (m : mode) (dt : datatype) (o : order) (shape : list N)
    (chunks : list chunk) (chunk_shape : list N) (shuffle : bool) (gzip : option N)
    : res dataset :=
  let* reduced := mapM sr_new chunk_shape in
  let* grid := mapM (fun '(d, z) => div_ceil64 d z) (combine shape chunk_shape) in
  let* scaled := strides m grid in
  let* dim := strides m shape in
  let* cdim := strides m chunk_shape in
  Ok (mkDataset dt (dt_size dt) o chunks shape chunk_shape reduced scaled dim cdim
        shuffle gzip).

(** dataset.rs 263-265: [Dataset::size]. *)
Definition dataset_size (m : mode) (ds : dataset) : res N := product64 m (d_shape ds).

(** dataset.rs 268-270: [is_scalar]. *)
Definition is_scalar (ds : dataset) : bool :=
  match d_shape ds with [] => true | _ => false end.

(** dataset.rs 273-283: [Dataset::valid]. *)
Fixpoint valid_loop (m : mode) (cs : list N) (l : list chunk) : res bool :=
  match l with
  | [] => Ok true
  | c :: l' =>
      let* o := contains m c (c_offset c) cs in
      match o with Eq => valid_loop m cs l' | _ => Err EValid end
  end.
Definition valid (m : mode) (ds : dataset) : res bool :=
  valid_loop m (d_chunk_shape ds) (d_chunks ds).

(** dataset.rs 362-368: the fold of [chunk_at_coord]. *)
Fixpoint coord_fold (m : mode) (acc : N) (idx cs sz : list N) : res N :=
  match idx, cs, sz with
  | i :: idx', c :: cs', z :: sz' =>
      let* q := div64 i c in
      let* p := mul64 m q z in
      let* acc' := add64 m acc p in
      coord_fold m acc' idx' cs' sz'
  | _, _, _ => Ok acc
  end.

(** dataset.rs 358-371: [chunk_at_coord]. *)
Definition chunk_at_coord (m : mode) (ds : dataset) (indices : list N) : res chunk :=
  let* _ := dbg m (length indices =? length (d_chunk_shape ds))%nat in
  let* _ := dbg m (length indices =? length (d_scaled_dim_sz ds))%nat in
  let* off := coord_fold m 0 indices (d_chunk_shape_reduced ds) (d_scaled_dim_sz ds) in
  match nth_error (d_chunks ds) (N.to_nat off) with
  | Some c => Ok c
  | None => Panic
  end.

(** ** Indexing (dataset.rs 52-165).  The HDF5 library's answers are inputs. *)

(** hdf5::filters::Filter as matched in dataset.rs 62-68. *)
Inductive h5filter : Type := FShuffle | FDeflate (level : N) | FOther.

(** What the indexer asks HDF5 about a dataset: rank/shape, chunk shape,
    [is_chunked()], [offset()], [storage_size()], the list of chunks in the order
    [chunks_visit] reports them, filters, datatype, byte order. *)
Record h5ds : Type := mkH5 {
  h_shape : list N;
  h_chunk : option (list N);
  h_is_chunked : bool;
  h_offset : option N;
  h_storage : N;
  h_visit : list chunk;
  h_filters : list h5filter;
  h_dtype : datatype;
  h_order : order
}.

(** dataset.rs 59-68: filter flags; note that the order of filters is dropped. *)
Fixpoint scan_filters (l : list h5filter) (sh : bool) (gz : option N)
    : res (bool * option N) :=
  match l with
  | [] => Ok (sh, gz)
  | FShuffle :: l' => scan_filters l' true gz
  | FDeflate z :: l' => scan_filters l' sh (Some z)
  | FOther :: _ => Err EFilter
  end.

(** dataset.rs 52-165: [Dataset::<D>::index].  Simplification: errors of the HDF5
    library itself (the `?` on lines 70 and 122) are not modelled; the conversions
    to fixed-size arrays succeed because ranks agree (checked on line 55). *)
Definition dataset_index (m : mode) (h : h5ds) : res dataset :=
  let* (sh, gz) := scan_filters (h_filters h) false None in
  let chunk_shape := match h_chunk h with Some c => c | None => h_shape h end in
  let* chunks :=
    match h_is_chunked h, h_offset h with
    | false, Some off =>
        Ok [mkChunk off (h_storage h) (map (fun _ => 0) (h_shape h))]
    | true, None => Ok (h_visit h)
    | _, _ => Err ELayout
    end in
  let sorted := chunk_sort chunks in
  let* grid := mapM (fun '(s, c) => div_ceil64 s c) (combine (h_shape h) chunk_shape) in
  let* expected := product64 m grid in
  let* _ := ensure (lenN sorted =? expected) ENumChunks in
  dataset_new m (h_dtype h) (h_order h) (h_shape h) sorted chunk_shape sh gz.
