(** * SpecEnd: what it means for an HDF5 file to hold the values of a dataset, in terms of what
    the HDF5 library says of the dataset and of the bytes of the file.  Nothing of the index is
    used. *)
From Verif Require Import Base Spec Chunk Dataset SpecApi SpecFilter FilterProps SpecReader.

(** The chunk shape and the stored blocks of a dataset: those of a chunked dataset all of whose
    chunks are allocated, reported in any order; or the one block of a contiguous one, which
    has no filters. *)
Inductive h5_layout (h : h5ds) : list N -> list chunk -> Prop :=
| lay_chunked cs : h_is_chunked h = true -> h_offset h = None -> h_chunk h = Some cs ->
    length cs = length (h_shape h) -> Forall (fun c => 0 < c) cs ->
    reports_grid (h_shape h) cs (h_visit h) -> lenN (h_visit h) = prodN (grid_dims (h_shape h) cs) ->
    h5_layout h cs (h_visit h)
| lay_contiguous off : h_is_chunked h = false -> h_offset h = Some off -> h_chunk h = None -> h_filters h = [] ->
    h5_layout h (h_shape h) [mkChunk off (h_storage h) (map (fun _ => 0) (h_shape h))].

(** The file holds the dataset, whose element [x] has the bytes [value x].  At most nine
    dimensions, none of them zero; element sizes the library supports; sizes representable in
    64 bits; the filters are none, shuffle, deflate, or shuffle and then deflate. *)
Record h5_stores (inflate : bytes -> option bytes) (file : bytes) (h : h5ds) (cs : list N) (value : list N -> bytes) : Prop := {
  hs_rank : (length (h_shape h) <= 9)%nat;
  hs_pos : Forall (fun s => 0 < s) (h_shape h);
  hs_sizes : sizes_ok (h_shape h) cs;
  hs_elem : 0 < dt_size (h_dtype h) < 16;
  hs_chunk : prodN cs * dt_size (h_dtype h) < W64;
  hs_filters : exists sh gz, std_filters (h_filters h) sh gz;
  hs_shuffle : In FShuffle (h_filters h) -> In (dt_size (h_dtype h)) [1; 2; 4; 8];
  hs_blocks : exists chunks, h5_layout h cs chunks /\
    (forall c c', In c chunks -> In c' chunks -> c_addr c = c_addr c' -> c_size c = c_size c') /\
    forall c, In c chunks ->
      c_addr c + c_size c <= lenN file /\
      exists raw,
        pipeline inflate (N.to_nat (dt_size (h_dtype h))) (h_filters h) raw (file_bytes file (c_addr c) (c_size c)) /\
        lenN raw = prodN cs * dt_size (h_dtype h) /\
        forall x, in_shape x (h_shape h) -> in_box x (c_offset c) cs ->
          word (N.to_nat (dt_size (h_dtype h))) (N.to_nat (row_major cs (map2 N.sub x (c_offset c)))) raw = value x
}.
