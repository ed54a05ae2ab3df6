(** * SpecApi: specifications of the API's notions (selectors, chunks, datasets).

    Only the data types of the model are used here, none of its functions except
    field projections and [dt_size]. *)
From Verif Require Import Base Spec Extent Chunk Dataset Slicer.

(** ** Selectors *)

(** ** What a selector denotes: a set of indices, given the dimension size. *)
Definition denotes (s : selector) (n x : N) : Prop :=
  match s with
  | SelIndex i => x = i
  | SelRange a b => a <= x < b
  | SelFrom a => a <= x < n
  | SelTo b => x < b
  | SelToIncl b => x <= b
  | SelIncl a b => a <= x <= b
  | SelFull => x < n
  | SelPair s c => s <= x < s + c
  end.

(** Values that fit in a u64. *)
Definition sel_u64 (s : selector) : Prop :=
  match s with
  | SelIndex i | SelFrom i | SelTo i | SelToIncl i => i < W64
  | SelRange a b | SelIncl a b | SelPair a b => a < W64 /\ b < W64
  | SelFull => True
  end.

(** Inclusive end u64::MAX. *)
Definition sel_incl_max (s : selector) : Prop :=
  match s with SelToIncl b | SelIncl _ b => b + 1 = W64 | _ => False end.

(** An element that selects a unit-step range or index with non-negative bounds. *)
Definition plain_elem (s : slice_elem) : Prop :=
  match s with
  | ElSlice a e st => (0 <= a)%Z /\ st = 1%Z /\ match e with Some e => (0 <= e)%Z | None => True end
  | ElIndex i => (0 <= i)%Z
  | ElNewAxis => False
  end.
(** The selector it stands for. *)
Definition elem_selector (s : slice_elem) : selector :=
  match s with
  | ElSlice a (Some e) _ => SelRange (Z.to_N a) (Z.to_N e)
  | ElSlice a None _ => SelFrom (Z.to_N a)
  | ElIndex i => SelIndex (Z.to_N i)
  | ElNewAxis => SelFull
  end.

(** ** Chunks *)

(** The comparison [contains] should give: by the first dimension outside the box. *)
Inductive box_side : list N -> list N -> list N -> comparison -> Prop :=
| bs_nil : box_side [] [] [] Eq
| bs_lt x o z i off cs : x < o -> box_side (x :: i) (o :: off) (z :: cs) Lt
| bs_gt x o z i off cs : o + z <= x -> o <= x -> box_side (x :: i) (o :: off) (z :: cs) Gt
| bs_in x o z i off cs r : o <= x < o + z -> box_side i off cs r ->
    box_side (x :: i) (o :: off) (z :: cs) r.

(** Lexicographic order on equally long lists. *)
Inductive lex_lt : list N -> list N -> Prop :=
| lex_head x y a b : x < y -> length a = length b -> lex_lt (x :: a) (y :: b)
| lex_tail x a b : lex_lt a b -> lex_lt (x :: a) (x :: b).

(** ** Datasets *)

(** A dataset whose derived fields are what [Dataset::new] should compute. *)
Record well_made (ds : dataset) : Prop := {
  wm_rank : length (d_chunk_shape ds) = length (d_shape ds);
  wm_pos : Forall (fun x => 0 < x) (d_chunk_shape ds);
  wm_dsize : d_dsize ds = dt_size (d_dtype ds);
  wm_reduced : d_chunk_shape_reduced ds = d_chunk_shape ds;
  wm_scaled : d_scaled_dim_sz ds = row_strides (grid_dims (d_shape ds) (d_chunk_shape ds));
  wm_dim : d_dim_sz ds = row_strides (d_shape ds);
  wm_cdim : d_chunk_dim_sz ds = row_strides (d_chunk_shape ds)
}.

(** Sizes representable in 64 bits, with room for one chunk past the end. *)
Definition sizes_ok (shape cs : list N) : Prop :=
  prodN shape < W64 /\ prodN cs < W64 /\ Forall2 (fun s c => s + c < W64) shape cs.

(** The hypotheses on a dataset: its derived fields are right, it has a full chunk
    table, and its sizes are representable. *)
Record full_dataset (ds : dataset) : Prop := {
  fd_made : well_made ds;
  fd_grid : map c_offset (d_chunks ds) = grid_offsets (d_shape ds) (d_chunk_shape ds);
  fd_sizes : sizes_ok (d_shape ds) (d_chunk_shape ds)
}.

(** The place (chunk, position) of an element. *)
Definition place (ds : dataset) (x : list N) : option chunk * N :=
  (nth_error (d_chunks ds) (N.to_nat (chunk_number (d_shape ds) (d_chunk_shape ds) x)),
   pos_in_chunk (d_chunk_shape ds) x).

(** The elements of a segment: (chunk, position) pairs. *)
Definition seg_elems (sg : segment) : list (chunk * N) :=
  let '(c, a, b) := sg in map (fun k => (c, k)) (seqN a (N.to_nat (b - a))).

(** ** Indexing *)

(** What a correct HDF5 library may report for a chunked dataset: distinct chunks,
    each on the grid. *)
Definition reports_grid (shape cs : list N) (vs : list chunk) : Prop :=
  NoDup (map c_offset vs) /\ Forall (fun c => In (c_offset c) (grid_offsets shape cs)) vs.

(** Every leading product is representable too. *)
Definition fits64_lead (dims : list N) : Prop := forall k, prodN (firstn k dims) < W64.

(** Filters the indexer supports. *)
Definition supported (fs : list h5filter) : Prop := ~ In FOther fs.

Fixpoint last_deflate (fs : list h5filter) (d : option N) : option N :=
  match fs with
  | [] => d
  | FDeflate z :: fs' => last_deflate fs' (Some z)
  | _ :: fs' => last_deflate fs' d
  end.


(** ** Places of elements *)

(** [holds ds x (c, k)]: the element at coordinate [x] is element number [k] (row-major
    in the full chunk box) of chunk [c] of the dataset. *)
Definition holds (ds : dataset) (x : list N) (ck : chunk * N) : Prop :=
  In (fst ck) (d_chunks ds) /\
  in_box x (c_offset (fst ck)) (d_chunk_shape ds) /\
  snd ck = row_major (d_chunk_shape ds) (map2 N.sub x (c_offset (fst ck))).

(** ** Grouped segments *)

(** A sort by chunk address: any address-ordered permutation (sort_unstable_by_key
    promises no more). *)
Definition addr_sort (sort : list gsegment -> list gsegment) : Prop :=
  forall l, Permutation (sort l) l /\
    forall i j g h, (i < j)%nat -> nth_error (sort l) i = Some g -> nth_error (sort l) j = Some h ->
      c_addr (fst (fst (fst g))) <= c_addr (fst (fst (fst h))).

(** Destination range of a grouped segment (in elements). *)
Definition g_dest (g : gsegment) : N := snd (fst (fst g)).
Definition g_len (g : gsegment) : N := snd g - snd (fst g).
Definition g_chunk (g : gsegment) : chunk := fst (fst (fst g)).
Definition g_from (g : gsegment) : N := snd (fst g).

(** ** Right segments *)

(** The segments, joined, visit exactly the selected elements, in row-major order, and
    none is empty or runs past its chunk. *)
Definition right_segments (ds : dataset) (idx cnt : list N) (segs : list segment) : Prop :=
  Forall2 (holds ds) (slab idx cnt) (flat_map seg_elems segs) /\
  Forall (fun '(c, a, b) => a < b /\ b <= prodN (d_chunk_shape ds) /\ In c (d_chunks ds)) segs.

(** Iterating the segments of the selection [e] ends after at most as many segments as
    there are selected elements, and the segments are right. *)
Definition reads_right (m : mode) (ds : dataset) (e : extents) (idx cnt : list N) : Prop :=
  exists segs, (forall fuel, (N.to_nat (prodN cnt) < fuel)%nat ->
                  chunk_slices m fuel ds e = (segs, SDone)) /\
    right_segments ds idx cnt segs.
