(** * Conformance: the repository's own unit tests, run on the model.

    These are tests of the model, not properties: each [Example] is a `#[test]` (or an
    assertion in a benchmark) of /repo whose inputs do not need an HDF5 file, with the same
    inputs and the same expected values, evaluated by the model.  They guard against the
    model drifting from the code.  In both build modes where the code is the same in both. *)
From Verif Require Import Base Spec Safe Extent Chunk Dataset Slicer Filters SpecFilter S3 IndexTree Python.

Definition modes (P : mode -> Prop) : Prop := P Debug /\ P Release.
Ltac both := split; vm_compute; reflexivity.

(** ** src/idx/chunk.rs *)

(** chunk.rs 220-239: `ordering`. *)
Example t_ordering :
  map c_offset (chunk_sort [mkChunk 5 10 [10; 0; 0]; mkChunk 50 10 [0; 0; 0]; mkChunk 1 1 [10; 10; 0];
                            mkChunk 1 1 [0; 10; 0]; mkChunk 1 1 [0; 0; 10]])
  = [[0; 0; 0]; [0; 0; 10]; [0; 10; 0]; [10; 0; 0]; [10; 10; 0]].
Proof. reflexivity. Qed.

(** chunk.rs `contains`. *)
Example t_contains : modes (fun m =>
  map (fun i => contains m (mkChunk 0 10 [10; 10]) i [10; 10])
    [[0; 0]; [5; 0]; [10; 0]; [10; 10]; [5; 10]; [10; 15]; [15; 15]; [15; 10]; [20; 20]; [25; 20]; [25; 10];
     [10; 25]; [5; 25]; [25; 5]]
  = map (fun c => Ok c) [Lt; Lt; Lt; Eq; Lt; Eq; Eq; Eq; Gt; Gt; Gt; Gt; Lt; Gt]).
Proof. both. Qed.

(** chunk.rs `as_u64s`, `from_u64s`, `roundtrip`, `slice_as_u64s`, `slice_from_u64s`. *)
Example t_as_u64s :
  as_u64s (mkChunk 2 7 [10; 10]) = [2; 7; 10; 10] /\
  as_u64s (mkChunk 2 7 [10; 5; 10]) = [2; 7; 10; 5; 10] /\
  as_u64s (mkChunk 2 7 [10; 5; 3; 10]) = [2; 7; 10; 5; 3; 10].
Proof. repeat split. Qed.
Example t_from_u64s :
  from_u64s 2 [2; 7; 10; 10] = Ok (mkChunk 2 7 [10; 10]) /\
  from_u64s 3 [2; 7; 10; 5; 10] = Ok (mkChunk 2 7 [10; 5; 10]) /\
  from_u64s 4 [2; 7; 10; 5; 3; 10] = Ok (mkChunk 2 7 [10; 5; 3; 10]).
Proof. repeat split. Qed.
Example t_slice_u64s :
  slice_as_u64s [mkChunk 2 7 [10; 10]; mkChunk 3 17 [20; 20]] = [2; 7; 10; 10; 3; 17; 20; 20] /\
  slice_as_u64s [mkChunk 2 7 [10; 10; 15]; mkChunk 3 17 [20; 20; 30]] = [2; 7; 10; 10; 15; 3; 17; 20; 20; 30] /\
  slice_from_u64s 2 [2; 7; 10; 10; 3; 17; 20; 20] = Ok [mkChunk 2 7 [10; 10]; mkChunk 3 17 [20; 20]] /\
  slice_from_u64s 3 [2; 7; 10; 10; 15; 3; 17; 20; 20; 30] = Ok [mkChunk 2 7 [10; 10; 15]; mkChunk 3 17 [20; 20; 30]].
Proof. repeat split. Qed.

(** ** src/idx/dataset.rs *)

(** dataset.rs 20-37: `test_dataset`. *)
Definition t_chunk (k : nat) : chunk :=
  nth k [mkChunk 0 400 [0; 0]; mkChunk 400 400 [0; 10]; mkChunk 800 400 [10; 0]; mkChunk 1200 400 [10; 10]]
    (mkChunk 0 0 []).
Definition test_dataset (m : mode) : res dataset :=
  dataset_new m (Float 2) BE [20; 20] (map t_chunk [0; 1; 2; 3]%nat) [10; 10] false None.

(** `chunk_slices((&starts, &counts)).collect()`; [None] stands for a panic, an error or a
    run that does not end within the fuel. *)
Definition slices (m : mode) (d : res dataset) (starts counts : list N) : option (list segment) :=
  match d, extents_of_pairs starts counts with
  | Ok ds, Ok e => match chunk_slices m 5000 ds e with (l, SDone) => Some l | _ => None end
  | _, _ => None
  end.
Definition t_slices m starts counts := slices m (test_dataset m) starts counts.

(** dataset.rs 39-60: `chunk_slice_1` (must not panic). *)
Example t_chunk_slice_1 : modes (fun m =>
  exists ds, dataset_new m (UInt 4) BE [31] (map (fun i => mkChunk (i * 16) 16 [i]) (seqN 0 31)) [1] false None = Ok ds /\
  snd (chunk_slices m 100 ds All) = SDone /\ length (fst (chunk_slices m 100 ds All)) = 31%nat /\
  slices m (Ok ds) [0] [4] = Some (map (fun i => (mkChunk (i * 16) 16 [i], 0, 1)) (seqN 0 4))).
Proof. split; eexists; (split; [vm_compute; reflexivity|]); vm_compute; auto. Qed.

(** dataset.rs 62-84: `chunk_slice_11n` (must not panic; 64 whole chunks). *)
Example t_chunk_slice_11n : modes (fun m =>
  option_map (fun l => (length l, fold_left (fun n s => n + (snd s - snd (fst s))) l 0))
    (slices m (dataset_new m (Int 2) BE [2; 32; 580]
       (flat_map (fun i => map (fun j => mkChunk (i * 32 + j * 1000) 635000 [i; j; 0]) (seqN 0 32)) (seqN 0 2))
       [1; 1; 580] false None) [0; 0; 0] [2; 32; 580])
  = Some (64%nat, 2 * 32 * 580)).
Proof. both. Qed.

(** dataset.rs 86-90: `chunk_slice_zero_count`. *)
Example t_zero_count : modes (fun m => t_slices m [0; 0] [1; 0] = Some []).
Proof. both. Qed.

(** dataset.rs 106-133: the assertions of `chunk_at_coord`. *)
Example t_chunk_at_coord : modes (fun m => exists ds, test_dataset m = Ok ds /\
  map (fun i => match chunk_at_coord m ds i with Ok c => c_offset c | _ => [] end)
    [[0; 0]; [0; 5]; [5; 5]; [0; 10]; [0; 15]; [10; 0]; [10; 1]; [15; 1]]
  = [[0; 0]; [0; 0]; [0; 0]; [0; 10]; [0; 10]; [10; 0]; [10; 0]; [10; 0]]).
Proof. split; eexists; (split; [vm_compute; reflexivity|]); vm_compute; reflexivity. Qed.

(** dataset.rs 135-213: `chunk_slices_scenarios`. *)
Example t_scenarios : modes (fun m =>
  t_slices m [0; 0] [1; 10] = Some [(t_chunk 0, 0, 10)] /\
  t_slices m [0; 0] [1; 20] = Some [(t_chunk 0, 0, 10); (t_chunk 1, 0, 10)] /\
  t_slices m [0; 5] [1; 15] = Some [(t_chunk 0, 5, 10); (t_chunk 1, 0, 10)] /\
  t_slices m [0; 0] [2; 10] = Some [(t_chunk 0, 0, 20)] /\
  t_slices m [0; 5] [2; 10] = Some [(t_chunk 0, 5, 10); (t_chunk 1, 0, 5); (t_chunk 0, 15, 20); (t_chunk 1, 10, 15)] /\
  t_slices m [0; 0] [2; 20] = Some [(t_chunk 0, 0, 10); (t_chunk 1, 0, 10); (t_chunk 0, 10, 20); (t_chunk 1, 10, 20)] /\
  t_slices m [2; 0] [1; 10] = Some [(t_chunk 0, 20, 30)] /\
  t_slices m [2; 5] [1; 10] = Some [(t_chunk 0, 25, 30); (t_chunk 1, 20, 25)] /\
  t_slices m [2; 5] [4; 1] = Some [(t_chunk 0, 25, 26); (t_chunk 0, 35, 36); (t_chunk 0, 45, 46); (t_chunk 0, 55, 56)] /\
  t_slices m [2; 15] [4; 1] = Some [(t_chunk 1, 25, 26); (t_chunk 1, 35, 36); (t_chunk 1, 45, 46); (t_chunk 1, 55, 56)]).
Proof. split; vm_compute; repeat split. Qed.

(** dataset.rs 215-345: `coads_slice_all`, with the index the test file has (12 chunks of
    one month each, 64800 bytes, from address 31749). *)
Definition coads (m : mode) : res dataset :=
  dataset_new m (Float 4) BE [12; 90; 180] (map (fun i => mkChunk (31749 + i * 64800) 64800 [i; 0; 0]) (seqN 0 12))
    [1; 90; 180] false None.
Example t_coads : modes (fun m => exists ds, coads m = Ok ds /\
  chunk_slices m 13 ds All = (map (fun i => (mkChunk (31749 + i * 64800) 64800 [i; 0; 0], 0, 16200)) (seqN 0 12), SDone)).
Proof. split; eexists; (split; [vm_compute; reflexivity|]); vm_compute; reflexivity. Qed.

(** ** Selections that the integration tests read and compare with the HDF5 library: the
    classes proved right contain them all. *)

(** tests/read_dims.rs (100 x 100 in 50 x 50, 100^3 in 50^3, 40^4 in 20^4); tests/read_s3.rs
    [3..7, 10..80, 0..90] of coads and [0..100, 10..40] of 100 x 100; test_slice.py and the
    full read of coads. *)
Example t_read_tests :
  sel_safe [100; 100] [50; 50] [0; 0] [100; 100] = true /\
  sel_safe [100; 100] [50; 50] [10; 10] [15; 15] = true /\
  sel_safe [100; 100] [50; 50] [0; 10] [100; 30] = true /\
  sel_safe [100; 100; 100] [50; 50; 50] [0; 0; 0] [100; 100; 100] = true /\
  sel_safe [100; 100; 100] [50; 50; 50] [10; 10; 10] [1; 2; 1] = true /\
  sel_safe [40; 40; 40; 40] [20; 20; 20; 20] [0; 0; 0; 0] [40; 40; 40; 40] = true /\
  sel_safe [40; 40; 40; 40] [20; 20; 20; 20] [10; 10; 10; 5] [15; 15; 15; 14] = true /\
  sel_safe [12; 90; 180] [1; 90; 180] [3; 10; 0] [4; 70; 90] = true /\
  sel_safe [12; 90; 180] [1; 90; 180] [0; 0; 0] [2; 90; 180] = true /\
  sel_safe [12; 90; 180] [1; 90; 180] [0; 0; 0] [12; 90; 180] = true /\
  sel_safe [10000; 100] [100; 10] [0; 0] [10000; 100] = true.
Proof. repeat split; vm_compute; reflexivity. Qed.

(** ** src/filters *)

(** shuffle.rs `shuffle_hdf5_example`: the words 1, 23, 43, 56, 35, big-endian. *)
Definition t_ints : bytes := [0; 0; 0; 1; 0; 0; 0; 23; 0; 0; 0; 43; 0; 0; 0; 56; 0; 0; 0; 35].
Example t_shuffle :
  shuffle 4 t_ints (repeat 0 20) = Ok [0; 0; 0; 0; 0; 0; 0; 0; 0; 0; 0; 0; 0; 0; 0; 1; 23; 43; 56; 35].
Proof. reflexivity. Qed.
(** shuffle.rs `shuffle_unshuffle` (little-endian words). *)
Definition t_ints_le : bytes := concat (map (fun v => [v; 0; 0; 0]) [1; 23; 43; 56; 35]).
Example t_unshuffle :
  (let* d := shuffle 4 t_ints_le (repeat 0 20) in unshuffle 4 d (repeat 0 20)) = Ok t_ints_le.
Proof. vm_compute. reflexivity. Qed.

(** xdr.rs `dsize`. *)
Example t_dsize : map xdr_factor [Int 2; Int 4; UInt 1; UInt 2; UInt 4; Custom 7; Custom 1]
  = map (fun n => Ok n) [2; 1; 4; 2; 1; 1; 1].
Proof. reflexivity. Qed.
(** xdr.rs `test_u16`, `test_u8`, `test_f32`, `test_i16`, on a little-endian host; the
    results are compared after swapping the bytes of the expected value. *)
Example t_xdr :
  xdr HostLE true true [0; 0; 10; 0] (UInt 2) LE = Ok [0; 0; 0; 0; 0; 0; 0; 10] /\
  xdr HostLE true true [0; 10] (UInt 1) LE = Ok [0; 0; 0; 0; 0; 0; 0; 10] /\
  xdr HostLE true true [0; 0; 0; 0; 0; 0; 32; 65] (Float 4) LE = Ok [0; 0; 0; 0; 65; 32; 0; 0] /\
  xdr HostLE true true [1; 0; 128; 0] (Int 2) LE = Ok [0; 0; 0; 1; 0; 0; 0; 128].
Proof. repeat split; vm_compute; reflexivity. Qed.

(** ** src/reader/s3.rs: `group_coalesced`, `group_slices_of_same_chunk`,
    `group_max_request_size`, `group_empty`. *)
Definition s3_ch (k : nat) : chunk :=
  nth k [mkChunk 1000 500 [0]; mkChunk 1500 500 [10]; mkChunk 2500 500 [20]; mkChunk (3000 + 2 * COALESCE_GAP) 500 [30]]
    (mkChunk 0 0 []).
Example t_coalesced : modes (fun m =>
  match group_requests m (map (fun k => (s3_ch k, 0, 0, 10)) [0; 1; 2; 3]%nat) with
  | Ok [q; p] => q_start q = 1000 /\ q_end q = 3000 /\ length (q_chunks q) = 3%nat /\
                 q_start p = 3000 + 2 * COALESCE_GAP /\ length (q_chunks p) = 1%nat
  | _ => False
  end).
Proof. split; vm_compute; repeat split. Qed.
Example t_same_chunk : modes (fun m =>
  match group_requests m [(s3_ch 0, 0, 0, 10); (s3_ch 0, 10, 20, 30); (s3_ch 1, 20, 0, 10)] with
  | Ok [q] => length (q_chunks q) = 2%nat /\
              option_map snd (nth_error (q_chunks q) 0) = Some [(0, 0, 10); (10, 20, 30)]
  | _ => False
  end).
Proof. split; vm_compute; repeat split. Qed.
Example t_max_request : modes (fun m =>
  match group_requests m [(mkChunk 1000 (MAX_REQUEST_SZ - 500) [0], 0, 0, 10);
                          (mkChunk (1000 + MAX_REQUEST_SZ - 500) 1000 [10], 0, 0, 10)] with
  | Ok [_; _] => True
  | _ => False
  end).
Proof. split; vm_compute; exact I. Qed.
Example t_empty : modes (fun m => group_requests m [] = Ok []).
Proof. both. Qed.

(** ** src/extent.rs: `test_extent`, `test_extents`: the conversions that must succeed, and
    the one that must not (`s![2..;4, 4]`). *)
Definition succeeds {A} (x : res A) : bool := match x with Ok _ => true | _ => false end.
Example t_extent : modes (fun m =>
  forallb (fun s => succeeds (extent_of m s))
    [SelIndex 1; SelFrom 1; SelRange 1 5; SelTo 5; SelToIncl 5; SelIncl 4 5; SelPair 5 4; SelRange 1 0; SelIncl 1 1; SelIncl 1 2]
  = true).
Proof. both. Qed.
Example t_extents : modes (fun m =>
  forallb (fun l => succeeds (extents_of m l))
    [[SelIndex 1]; [SelFrom 1]; [SelRange 1 5]; [SelTo 5]; [SelToIncl 5]; [SelIncl 4 5];
     [SelFull; SelFull]; [SelIndex 1; SelIndex 2]; [SelFrom 1; SelFrom 2]; [SelRange 1 5; SelRange 2 6];
     [SelTo 5; SelTo 6]; [SelToIncl 5; SelToIncl 6]; [SelIncl 4 50; SelIncl 5 8]; [SelFrom 1; SelIndex 2];
     [SelFrom 1; SelIndex 2; SelTo 6]; [SelPair 1 2; SelPair 3 4]]
  = true /\ succeeds (extents_of_pairs [1; 2] [3; 4]) = true).
Proof. split; vm_compute; auto. Qed.
Example t_slice_info : succeeds (extents_of_slice [ElSlice 2 (Some 5%Z) 1; ElIndex 4]) = true /\
  extents_of_slice [ElSlice 2 None 4; ElIndex 4] = Err ESlice.
Proof. split; reflexivity. Qed.

(** ** tests/python/test_xarray_group.py: equivalent spellings of a group, and
    src/idx/index.rs `test_index_groups`. *)
Definition t_x : dataset := mkDataset (Int 4) 4 LE [mkChunk 4096 40 [0]] [10] [10] [10] [1] [1] [1] false None.
Definition t_leaf (sub : hmap gindex) : gindex := mkGroup None [([120], t_x)] sub.
Definition t_root : gindex :=  (* x, a/b/x, a/b/c/x *)
  mkGroup None [([120], t_x)] [([97], mkGroup None [] [([98], t_leaf [([99], t_leaf [])])])].
Example t_groups :
  length (gi_datasets t_root) = 1%nat /\ length (gi_groups t_root) = 1%nat /\
  gi_dataset t_root [120] = Some t_x /\
  option_map (fun g => length (gi_groups g)) (gi_group t_root [97]) = Some 1%nat /\
  option_map (fun g => length (gi_groups g)) (gi_group t_root [97; 47; 98]) = Some 1%nat /\
  gi_dataset t_root [97; 47; 98; 47; 120] = Some t_x /\
  gi_dataset t_root [97; 47; 98; 47; 99; 47; 120] = Some t_x.
Proof. repeat split. Qed.
Example t_spellings :
  map (fun g => option_map (fun g => hget [120] (gi_datasets g)) (gi_group t_root g))
    [[97; 47; 98]; [47; 97; 47; 98]; [97; 47; 98; 47]; [47; 97; 47; 98; 47]]
  = repeat (Some (Some t_x)) 4.
Proof. reflexivity. Qed.
