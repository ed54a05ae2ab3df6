(** * Property theorems C01-C10, C46: selectors, chunks, construction, indexing, lookup.

    Each theorem is followed by a concrete case meeting its hypotheses. *)
From Verif Require Import Base Spec Safe Chunk Extent Dataset Slicer SpecApi
  ChunkProofs DatasetProofs ExtentProofs IndexProofs ApiLemmas Examples.

(** ** C01 *)

(** Any list of selectors of the right rank resolves, and the resolved (start, count)
    arrays select exactly the coordinates the selectors denote. *)
Theorem C01_selection m ss dims :
  Forall sel_u64 ss -> Forall (fun s => ~ sel_incl_max s) ss -> length ss = length dims ->
  exists e idx cnt,
    extents_of m ss = Ok e /\ get_start_count e dims = Ok (idx, cnt) /\
    length idx = length dims /\ length cnt = length dims /\
    forall x, In x (slab idx cnt) <->
      length x = length dims /\
      forall j s d v, nth_error ss j = Some s -> nth_error dims j = Some d ->
                      nth_error x j = Some v -> denotes s d v.
Proof. exact (selection_ok m ss dims). Qed.
Print Assumptions C01_selection.
Example C01_case :
  let ss := [SelIncl 1 2; SelFrom 3; SelIndex 0; SelRange 5 2] in
  Forall sel_u64 ss /\ Forall (fun s => ~ sel_incl_max s) ss /\ length ss = length [4; 6; 1; 9].
Proof. cbn. repeat (apply conj || apply Forall_cons || apply Forall_nil); cbn; try reflexivity; try discriminate; auto. Qed.

(** `..` selects the whole array. *)
Theorem C01_all dims x :
  exists idx cnt, get_start_count All dims = Ok (idx, cnt) /\
    (In x (slab idx cnt) <-> in_shape x dims).
Proof. exact (selection_all dims x). Qed.
Print Assumptions C01_all.

(** The exception: an inclusive range ending at u64::MAX panics when overflow is
    checked and selects nothing when it wraps. *)
Theorem C01_inclusive_max ss dims :
  Exists sel_incl_max ss ->
  extents_of Debug ss = Panic /\
  (length ss = length dims ->
   exists e idx cnt, extents_of Release ss = Ok e /\ get_start_count e dims = Ok (idx, cnt) /\
     slab idx cnt = []).
Proof. intros H. exact (conj (incl_max_debug ss H) (incl_max_release ss dims H)). Qed.
Print Assumptions C01_inclusive_max.
Example C01_max_case : Exists sel_incl_max [SelFull; SelToIncl (W64 - 1)].
Proof. apply Exists_cons_tl, Exists_cons_hd. reflexivity. Qed.

(** ** C02 (resolution; the readers' part is in Properties3) *)

Theorem C02_resolution e dims :
  (forall l, e = Extents l -> length l <> length dims ->
     get_start_count e dims = Err ERank /\ get_counts e dims = Err ERank) /\
  ((e = All \/ exists l, e = Extents l /\ length l = length dims) ->
     exists idx cnt, get_start_count e dims = Ok (idx, cnt) /\ get_counts e dims = Ok cnt /\
       length idx = length dims /\ length cnt = length dims).
Proof. exact (resolution_ok e dims). Qed.
Print Assumptions C02_resolution.

(** (starts, counts) pairs of different lengths are refused, others taken as they are. *)
Theorem C02_pairs starts counts dims :
  (length starts <> length counts -> extents_of_pairs starts counts = Err ELenMismatch) /\
  (length starts = length counts -> length counts = length dims ->
   exists e, extents_of_pairs starts counts = Ok e /\
             get_start_count e dims = Ok (starts, counts)).
Proof. exact (pairs_ok starts counts dims). Qed.
Print Assumptions C02_pairs.

(** ** C03 *)

Theorem C03_ndarray_slice m l :
  (Forall plain_elem l ->
     exists e, extents_of_slice l = Ok e /\ extents_of m (map elem_selector l) = Ok e) /\
  (~ Forall plain_elem l -> extents_of_slice l = Err ESlice).
Proof. exact (slice_both m l). Qed.
Print Assumptions C03_ndarray_slice.
Example C03_case : Forall plain_elem [ElSlice 1 (Some 5%Z) 1; ElIndex 3; ElSlice 2 None 1] /\
  ~ Forall plain_elem [ElIndex 3; ElSlice 0 None 2].
Proof.
  split; [repeat apply Forall_cons; try apply Forall_nil; cbn; lia|].
  intros H. inversion H as [|? ? _ H2]; inversion H2 as [|? ? E _]; cbn in E; lia.
Qed.

(** ** C04 *)

Theorem C04_contains m ch x cs :
  length x = length cs -> length x = length (c_offset ch) ->
  Forall2 (fun o c => o + c < W64) (c_offset ch) cs ->
  exists r, contains m ch x cs = Ok r /\
    (r = Eq <-> in_box x (c_offset ch) cs) /\ box_side x (c_offset ch) cs r.
Proof. exact (contains_box m ch x cs). Qed.
Print Assumptions C04_contains.
Example C04_case : Forall2 (fun o c => o + c < W64) [10; 20] [5; 5].
Proof. repeat constructor. Qed.

(** A point of the wrong rank is a panic. *)
Theorem C04_rank m ch x cs :
  length x <> length cs \/ length x <> length (c_offset ch) -> contains m ch x cs = Panic.
Proof. exact (contains_rank m ch x cs). Qed.
Print Assumptions C04_rank.

(** ** C05 *)

Theorem C05_order D a b c :
  length (c_offset a) = D -> length (c_offset b) = D -> length (c_offset c) = D ->
  (chunk_cmp a b = Lt <-> lex_lt (c_offset a) (c_offset b)) /\
  (chunk_cmp a b = Gt <-> lex_lt (c_offset b) (c_offset a)) /\
  (chunk_cmp a b = Eq <-> c_offset a = c_offset b) /\
  chunk_cmp a a = Eq /\
  chunk_cmp b a = CompOpp (chunk_cmp a b) /\
  (chunk_cmp a b <> Gt -> chunk_cmp b c <> Gt -> chunk_cmp a c <> Gt).
Proof. exact (chunk_order D a b c). Qed.
Print Assumptions C05_order.

(** ** C06 *)

(** The part that holds. *)
Theorem C06_eq_hash_partial a b c :
  chunk_eqb a a = true /\ chunk_eqb a b = chunk_eqb b a /\
  (chunk_eqb a b = true -> chunk_eqb b c = true -> chunk_eqb a c = true) /\
  (chunk_eqb a b = true -> chunk_hash a = chunk_hash b).
Proof. exact (eq_hash a b c). Qed.
Print Assumptions C06_eq_hash_partial.

(** The part that does not: two chunks that compare Equal but are different, and two
    that are equal but compare Less. *)
Theorem C06_ord_eq_refuted :
  (exists a b, chunk_cmp a b = Eq /\ chunk_eqb a b = false) /\
  (exists a b, chunk_cmp a b = Lt /\ chunk_eqb a b = true).
Proof. exact ord_eq_refuted. Qed.
Print Assumptions C06_ord_eq_refuted.

(** It does hold within the chunk table of an indexed dataset whose chunks have
    distinct addresses. *)
Theorem C06_ord_eq_within_dataset_partial ds a b :
  full_dataset ds -> NoDup (map c_addr (d_chunks ds)) ->
  In a (d_chunks ds) -> In b (d_chunks ds) ->
  (chunk_cmp a b = Eq <-> chunk_eqb a b = true).
Proof. exact (ord_eq_within ds a b). Qed.
Print Assumptions C06_ord_eq_within_dataset_partial.
Example C06_case : full_dataset ex_ds /\ NoDup (map c_addr (d_chunks ex_ds)).
Proof. split; [exact ex_full|]. cbn. repeat constructor; cbn; intuition discriminate. Qed.

(** ** C07 *)

Theorem C07_round_trip D l :
  Forall (fun c => length (c_offset c) = D) l ->
  slice_from_u64s D (slice_as_u64s l) = Ok l /\
  Forall (fun c => from_u64s D (as_u64s c) = Ok c) l /\
  length (slice_as_u64s l) = (length l * (2 + D))%nat.
Proof. exact (words_all_round_trip D l). Qed.
Print Assumptions C07_round_trip.

Theorem C07_words D w :
  ((length w mod (2 + D))%nat <> 0%nat -> slice_from_u64s D w = Panic) /\
  ((length w mod (2 + D))%nat = 0%nat ->
   exists l, slice_from_u64s D w = Ok l /\ slice_as_u64s l = w /\
     Forall (fun c => length (c_offset c) = D) l /\ length w = (length l * (2 + D))%nat).
Proof. exact (conj (words_bad D w) (words_good D w)). Qed.
Print Assumptions C07_words.

(** ** C08 *)

Theorem C08_construction m dt o shape chunks cs sh gz :
  length cs = length shape -> fits64 shape -> fits64 cs ->
  (Forall (fun c => 0 < c) cs ->
   exists ds, dataset_new m dt o shape chunks cs sh gz = Ok ds /\
     d_dim_sz ds = row_strides shape /\
     d_chunk_dim_sz ds = row_strides cs /\
     d_scaled_dim_sz ds = row_strides (grid_dims shape cs) /\
     d_dsize ds = dt_size dt /\ d_dtype ds = dt /\ d_order ds = o /\
     d_shape ds = shape /\ d_chunk_shape ds = cs /\ d_chunk_shape_reduced ds = cs /\
     d_chunks ds = chunks /\ d_shuffle ds = sh /\ d_gzip ds = gz) /\
  (In 0 cs -> dataset_new m dt o shape chunks cs sh gz = Panic).
Proof. exact (construction_ok m dt o shape chunks cs sh gz). Qed.
Print Assumptions C08_construction.
Example C08_case : fits64 [4; 6] /\ fits64 [2; 3].
Proof. split; apply fits64_pos; repeat constructor. Qed.

(** ** C09 *)

Theorem C09_chunked m h cs :
  h_is_chunked h = true -> h_offset h = None -> h_chunk h = Some cs ->
  length cs = length (h_shape h) -> Forall (fun c => 0 < c) cs ->
  fits64 (h_shape h) -> fits64_lead (h_shape h) -> sizes_ok (h_shape h) cs ->
  supported (h_filters h) -> reports_grid (h_shape h) cs (h_visit h) ->
  (lenN (h_visit h) = prodN (grid_dims (h_shape h) cs) ->
   exists ds, dataset_index m h = Ok ds /\ full_dataset ds /\
     d_shape ds = h_shape h /\ d_chunk_shape ds = cs /\
     d_dtype ds = h_dtype h /\ d_order ds = h_order h /\
     Permutation (d_chunks ds) (h_visit h) /\
     map c_offset (d_chunks ds) = grid_offsets (h_shape h) cs /\
     (d_shuffle ds = true <-> In FShuffle (h_filters h)) /\
     d_gzip ds = last_deflate (h_filters h) None) /\
  (lenN (h_visit h) <> prodN (grid_dims (h_shape h) cs) ->
   dataset_index m h = Err ENumChunks).
Proof. exact (indexing_chunked m h cs). Qed.
Print Assumptions C09_chunked.
Example C09_case :
  supported (h_filters ex_h5) /\ reports_grid [4; 6] [2; 3] (h_visit ex_h5) /\
  fits64_lead [4; 6] /\ sizes_ok [4; 6] [2; 3] /\
  lenN (h_visit ex_h5) = prodN (grid_dims [4; 6] [2; 3]).
Proof.
  split; [cbn; intros [H|[H|[]]]; discriminate|]. split.
  - split; [repeat constructor; cbn; intuition discriminate|].
    cbn [h_visit ex_h5 map c_offset]. repeat apply Forall_cons; try apply Forall_nil; vm_compute; intuition.
  - split; [apply fits64_lead_pos; repeat constructor|].
    split; [apply ex_full|reflexivity].
Qed.

(** The order in which HDF5 reports the chunks does not matter. *)
Theorem C09_order_irrelevant m h h' cs :
  h_is_chunked h = true -> h_offset h = None -> h_chunk h = Some cs ->
  length cs = length (h_shape h) -> Forall (fun c => 0 < c) cs ->
  reports_grid (h_shape h) cs (h_visit h) ->
  Permutation (h_visit h) (h_visit h') ->
  h' = mkH5 (h_shape h) (h_chunk h) true None (h_storage h) (h_visit h') (h_filters h)
            (h_dtype h) (h_order h) ->
  dataset_index m h' = dataset_index m h.
Proof. exact (indexing_order m h h' cs). Qed.
Print Assumptions C09_order_irrelevant.

Theorem C09_contiguous m h off :
  h_is_chunked h = false -> h_offset h = Some off -> h_chunk h = None ->
  Forall (fun s => 0 < s) (h_shape h) -> sizes_ok (h_shape h) (h_shape h) ->
  supported (h_filters h) ->
  exists ds, dataset_index m h = Ok ds /\ full_dataset ds /\
    d_shape ds = h_shape h /\ d_chunk_shape ds = h_shape h /\
    d_dtype ds = h_dtype h /\ d_order ds = h_order h /\
    d_chunks ds = [mkChunk off (h_storage h) (map (fun _ => 0) (h_shape h))].
Proof. exact (indexing_contiguous m h off). Qed.
Print Assumptions C09_contiguous.
Example C09_contiguous_case : sizes_ok [3; 5] [3; 5] /\ Forall (fun s => 0 < s) [3; 5].
Proof. repeat split; repeat constructor. Qed.

(** Unsupported filters and layouts are errors, whatever else is reported. *)
Theorem C09_unsupported m h :
  (In FOther (h_filters h) -> dataset_index m h = Err EFilter) /\
  (supported (h_filters h) ->
   (h_is_chunked h = true <-> h_offset h <> None) -> dataset_index m h = Err ELayout).
Proof. exact (indexing_unsupported m h). Qed.
Print Assumptions C09_unsupported.

(** ** C10 *)

Theorem C10_lookup m ds x :
  full_dataset ds -> fits64 (d_shape ds) -> in_shape x (d_shape ds) ->
  exists c, chunk_at_coord m ds x = Ok c /\ In c (d_chunks ds) /\
    in_box x (c_offset c) (d_chunk_shape ds) /\
    (forall c', In c' (d_chunks ds) -> in_box x (c_offset c') (d_chunk_shape ds) -> c' = c).
Proof. exact (lookup_ok m ds x). Qed.
Print Assumptions C10_lookup.
Example C10_case : full_dataset ex_ds /\ fits64 (d_shape ex_ds) /\ in_shape [3; 2] (d_shape ex_ds).
Proof. split; [exact ex_full|]. split; [apply fits64_pos|]; repeat constructor. Qed.

(** ** C46 *)

(** What [valid] does decide. *)
Theorem C46_valid_partial m ds :
  Forall (fun c => length (c_offset c) = length (d_chunk_shape ds)) (d_chunks ds) ->
  Forall (fun c => Forall2 (fun o z => o + z < W64) (c_offset c) (d_chunk_shape ds)) (d_chunks ds) ->
  (valid m ds = Ok true <-> d_chunks ds = [] \/ Forall (fun c => 0 < c) (d_chunk_shape ds)) /\
  (valid m ds = Ok true \/ valid m ds = Err EValid).
Proof. exact (valid_ok m ds). Qed.
Print Assumptions C46_valid_partial.

(** It accepts a dataset whose chunk table is not a layout at all: chunks overlapping,
    off the grid and outside the dataset. *)
Theorem C46_valid_refuted :
  exists ds, valid Debug ds = Ok true /\ valid Release ds = Ok true /\
    d_shape ds = [4] /\ d_chunk_shape ds = [2] /\ well_made ds /\
    map c_offset (d_chunks ds) = [[1]; [2]; [90]].
Proof. exact valid_refuted. Qed.
Print Assumptions C46_valid_refuted.
