(** * SpecReader: what it means for a file to hold the values of a dataset.

    Only data types and specifications are used, and [get_start_count], the resolution of
    a selector (characterised by C01, C02); none of the model's other functions. *)
From Verif Require Import Base Spec Safe Extent Chunk Dataset SpecApi SpecFilter.

(** Two chunks at the same address of the file are the same bytes of the file. *)
Definition same_addr (ds : dataset) : Prop :=
  forall c c', In c (d_chunks ds) -> In c' (d_chunks ds) -> c_addr c = c_addr c' -> c_size c = c_size c'.

(** Distinct chunks occupy disjoint ranges of the file. *)
Definition disjoint_chunks (ds : dataset) : Prop :=
  forall c c', In c (d_chunks ds) -> In c' (d_chunks ds) -> c <> c' ->
    c_addr c + c_size c <= c_addr c' \/ c_addr c' + c_size c' <= c_addr c.

(** The bytes [addr, addr+size) of a file. *)
Definition file_bytes (file : bytes) (addr size : N) : bytes :=
  firstn (N.to_nat size) (skipn (N.to_nat addr) file).

(** The filters of a dataset in the order in which the reader takes them to have been
    applied (HDF5 lists in another order are the subject of C20). *)
Definition filters_of (ds : dataset) : list h5filter :=
  (if d_shuffle ds then [FShuffle] else []) ++
  (match d_gzip ds with Some z => [FDeflate z] | None => [] end).

(** Element sizes and chunk sizes the readers support. *)
Record supported_sizes (ds : dataset) : Prop := {
  ss_pos : 0 < d_dsize ds;
  ss_small : d_dsize ds < 16;
  ss_shuffle : d_shuffle ds = true -> In (d_dsize ds) [1; 2; 4; 8];
  ss_chunk : prodN (d_chunk_shape ds) * d_dsize ds < W64
}.

(** [file] holds the dataset with element [x] having the bytes [value x]: every chunk lies
    in the file and is the filtered form of the full chunk box, whose elements inside the
    dataset have these values. *)
Record stores (inflate : bytes -> option bytes) (file : bytes) (ds : dataset)
    (value : list N -> bytes) : Prop := {
  st_sizes : supported_sizes ds;
  st_addr : same_addr ds;
  st_chunk : forall c, In c (d_chunks ds) ->
    c_addr c + c_size c <= lenN file /\
    exists raw,
      pipeline inflate (N.to_nat (d_dsize ds)) (filters_of ds) raw (file_bytes file (c_addr c) (c_size c)) /\
      lenN raw = prodN (d_chunk_shape ds) * d_dsize ds /\
      forall x k, in_shape x (d_shape ds) -> holds ds x (c, k) ->
        word (N.to_nat (d_dsize ds)) (N.to_nat k) raw = value x
}.

(** Datasets whose stored chunks have the sizes the format prescribes: uncompressed
    chunks are stored in full (compressed ones have any size). *)
Record regular (ds : dataset) : Prop := {
  rg_sizes : supported_sizes ds;
  rg_addr : same_addr ds;
  rg_plain : d_gzip ds = None -> forall c, In c (d_chunks ds) ->
    c_size c = prodN (d_chunk_shape ds) * d_dsize ds
}.

(** A chunk that can be read and decoded: its bytes are in the file and, if it is
    compressed, they decompress to no more than a chunk. *)
Definition readable (inflate : bytes -> option bytes) (file : bytes) (ds : dataset) (c : chunk) : Prop :=
  (c_size c = 0 \/ c_addr c + c_size c <= lenN file) /\
  (d_gzip ds <> None -> exists o, inflate (file_bytes file (c_addr c) (c_size c)) = Some o /\
     lenN o <= prodN (d_chunk_shape ds) * d_dsize ds).

(** The chunks a selection needs. *)
Definition needs (ds : dataset) (idx cnt : list N) (c : chunk) : Prop :=
  exists x k, In x (slab idx cnt) /\ holds ds x (c, k).

(** A regular dataset in a file of which some chunks may be unreadable: the chunks that
    are readable hold the values. *)
Record stores_readable (inflate : bytes -> option bytes) (file : bytes) (ds : dataset)
    (value : list N -> bytes) : Prop := {
  sr_reg : regular ds;
  sr_chunk : forall c, In c (d_chunks ds) -> readable inflate file ds c ->
    exists raw,
      pipeline inflate (N.to_nat (d_dsize ds)) (filters_of ds) raw (file_bytes file (c_addr c) (c_size c)) /\
      lenN raw = prodN (d_chunk_shape ds) * d_dsize ds /\
      forall x k, in_shape x (d_shape ds) -> holds ds x (c, k) ->
        word (N.to_nat (d_dsize ds)) (N.to_nat k) raw = value x
}.

(** The XDR form of an element: big-endian, 8- and 16-bit integers widened to 32 bits. *)
Definition xdr_of (dt : datatype) (o : order) (v r : bytes) : Prop :=
  match dt with
  | UInt s => lenN r = N.max 4 s /\ int_value false BE r = int_value false o v
  | Int s => lenN r = N.max 4 s /\ int_value true BE r = int_value true o v
  | Float s => lenN r = s /\ num_in BE r = num_in o v
  | Custom _ => r = v
  end.

(** Datatypes the indexer produces. *)
Definition indexed_type (dt : datatype) : Prop :=
  match dt with
  | UInt s | Int s => In s [1; 2; 4; 8]
  | Float s => In s [4; 8]
  | Custom _ => True
  end.

(** An in-bounds selection [idx, idx+cnt) of a regular dataset with a full chunk table, in
    the class [sel_safe] for which the segments are proved right (C11, C50), and a
    destination that can hold it.  [fuel] bounds the number of segments the model looks
    at; it must exceed the number of selected elements. *)
Record safe_read (ds : dataset) (e : extents) (idx cnt : list N) (dst : bytes) (fuel : nat) : Prop := {
  sf_full : full_dataset ds;
  sf_reg : regular ds;
  sf_sel : get_start_count e (d_shape ds) = Ok (idx, cnt);
  sf_in : sel_in (d_shape ds) idx cnt;
  sf_safe : sel_safe (d_shape ds) (d_chunk_shape ds) idx cnt = true;
  sf_cap : prodN cnt * d_dsize ds <= lenN dst;
  sf_len : lenN dst < W64;
  sf_fuel : (N.to_nat (prodN cnt) < fuel)%nat
}.

(** The same for a stream, which has no destination. *)
Record safe_stream (ds : dataset) (e : extents) (idx cnt : list N) (fuel : nat) : Prop := {
  ss_full : full_dataset ds;
  ss_reg : regular ds;
  ss_sel : get_start_count e (d_shape ds) = Ok (idx, cnt);
  ss_in : sel_in (d_shape ds) idx cnt;
  ss_safe : sel_safe (d_shape ds) (d_chunk_shape ds) idx cnt = true;
  ss_fuel : (N.to_nat (prodN cnt) < fuel)%nat
}.
