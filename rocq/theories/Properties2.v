(** * Property theorems C11-C13, C15, C16, C50: chunk segments.

    Each theorem is followed by a concrete case meeting its hypotheses. *)
From Verif Require Import Base Spec Safe Chunk Extent Dataset Slicer SpecApi
  ApiLemmas Termination GroupProofs SliceProps SlicerExact3 Examples.

(** ** C11 *)

(** For every dataset with a full chunk table and every in-bounds selection meeting the
    condition [sel_safe] on its shape (Safe.v), in both build modes.  Missing for the
    full property: the selections that do not meet it; for some of those the property is
    false of the code, see [C11_refuted]. *)
Theorem C11_segments_partial m ds e idx cnt :
  full_dataset ds -> get_start_count e (d_shape ds) = Ok (idx, cnt) ->
  sel_in (d_shape ds) idx cnt ->
  sel_safe (d_shape ds) (d_chunk_shape ds) idx cnt = true ->
  exists segs, (forall fuel, (N.to_nat (prodN cnt) < fuel)%nat ->
                  chunk_slices m fuel ds e = (segs, SDone)) /\
    Forall2 (holds ds) (slab idx cnt) (flat_map seg_elems segs).
Proof.
  intros A B C D. destruct (safe_right m ds e idx cnt A B C D) as (segs & H & H1 & _).
  now exists segs.
Qed.
Print Assumptions C11_segments_partial.
Example C11_case :
  full_dataset ex_ds /\
  get_start_count (Extents [SliceEnd 1 4; Slice 2]) (d_shape ex_ds) = Ok ([1; 2], [3; 4]) /\
  sel_in (d_shape ex_ds) [1; 2] [3; 4] /\
  sel_safe (d_shape ex_ds) (d_chunk_shape ex_ds) [1; 2] [3; 4] = true.
Proof. split; [exact ex_full|]. split; [reflexivity|]. split; [exact ex_sel|exact ex_safe]. Qed.

(** False in general.  Reading all of a 4 x 3 x 5 dataset in 2 x 2 x 5 chunks, or
    [0..2, 0, ..] of a contiguous 10 x 10 x 10 dataset, silently visits wrong elements in
    both build modes; the last column of a 4 x 11 dataset in 2 x 10 chunks panics in
    debug builds and yields more elements than selected in release builds. *)
Theorem C11_refuted :
  (forall m, full_dataset bad_ds /\ d_shape bad_ds = [4; 3; 5] /\ d_chunk_shape bad_ds = [2; 2; 5] /\
     exists segs, (forall fuel, (60 < fuel)%nat -> chunk_slices m fuel bad_ds All = (segs, SDone)) /\
       ~ right_segments bad_ds [0; 0; 0] [4; 3; 5] segs) /\
  (forall m, full_dataset cont_ds /\ d_shape cont_ds = [10; 10; 10] /\ d_chunk_shape cont_ds = [10; 10; 10] /\
     exists segs, (forall fuel, (20 < fuel)%nat ->
         chunk_slices m fuel cont_ds (Extents [SliceCount 0 2; Index 0; Slice 0]) = (segs, SDone)) /\
       ~ right_segments cont_ds [0; 0; 0] [2; 1; 10] segs) /\
  (full_dataset col_ds /\ d_shape col_ds = [4; 11] /\ d_chunk_shape col_ds = [2; 10] /\
   (forall fuel, (0 < fuel)%nat -> chunk_slices Debug fuel col_ds col_sel = ([], SPanic)) /\
   exists segs, (forall fuel, (4 < fuel)%nat -> chunk_slices Release fuel col_ds col_sel = (segs, SDone)) /\
     ~ right_segments col_ds [0; 10] [4; 1] segs /\
     4 < sumN (map (fun '(_, a, b) => b - a) segs)).
Proof.
  split; [|split].
  - intros m. split; [exact bad_full|]. do 2 (split; [reflexivity|]). exact (bad_wrong m).
  - intros m. split; [exact cont_full|]. do 2 (split; [reflexivity|]). exact (cont_wrong m).
  - split; [exact col_full|]. do 2 (split; [reflexivity|]). exact col_wrong.
Qed.
Print Assumptions C11_refuted.

(** In builds with debug assertions the condition is exact: an in-bounds selection of a
    full dataset is iterated rightly (the iteration ends, no assertion fails, and the
    segments joined together are the hyperslab) if and only if it is [sel_safe]. *)
Theorem C11_exact ds e idx cnt :
  full_dataset ds -> get_start_count e (d_shape ds) = Ok (idx, cnt) ->
  sel_in (d_shape ds) idx cnt ->
  ((exists segs, (forall fuel, (N.to_nat (prodN cnt) < fuel)%nat ->
                    chunk_slices Debug fuel ds e = (segs, SDone)) /\
      Forall2 (holds ds) (slab idx cnt) (flat_map seg_elems segs)) <->
   sel_safe (d_shape ds) (d_chunk_shape ds) idx cnt = true).
Proof.
  intros A B C. split.
  - intros (segs & H & H1). exact (reads_right_safe ds e idx cnt segs _ A B C (H _ (Nat.lt_succ_diag_r _)) H1).
  - intros D. destruct (safe_right Debug ds e idx cnt A B C D) as (segs & H & H1 & _). now exists segs.
Qed.
Print Assumptions C11_exact.

(** A selection a debug build iterates rightly is iterated rightly by a release build. *)
Theorem C11_release_partial ds e idx cnt :
  full_dataset ds -> get_start_count e (d_shape ds) = Ok (idx, cnt) ->
  sel_in (d_shape ds) idx cnt ->
  reads_right Debug ds e idx cnt -> reads_right Release ds e idx cnt.
Proof.
  intros A B C (segs & H & H1 & _). apply safe_right; auto.
  exact (reads_right_safe ds e idx cnt segs _ A B C (H _ (Nat.lt_succ_diag_r _)) H1).
Qed.
Print Assumptions C11_release_partial.

(** ** C12 *)

(** Debug builds: every dataset (well-formed or not), every selection. *)
Theorem C12_debug_partial ds e fuel :
  (forall idx cnt, get_start_count e (d_shape ds) = Ok (idx, cnt) ->
     (N.to_nat (N.max 1 (prodN cnt)) < fuel)%nat) -> (0 < fuel)%nat ->
  snd (chunk_slices Debug fuel ds e) <> SFuel /\
  (forall idx cnt, get_start_count e (d_shape ds) = Ok (idx, cnt) ->
     lenN (fst (chunk_slices Debug fuel ds e)) <= prodN cnt).
Proof. exact (slices_debug ds e fuel). Qed.
Print Assumptions C12_debug_partial.

(** Release builds agree with debug builds whenever the latter do not panic; in
    particular they terminate then. *)
Theorem C12_release_partial ds e fuel segs :
  chunk_slices Debug fuel ds e = (segs, SDone) -> chunk_slices Release fuel ds e = (segs, SDone).
Proof. exact (slices_refine ds e fuel segs). Qed.
Print Assumptions C12_release_partial.
Example C12_case : snd (chunk_slices Debug 13 ex_ds (Extents [SliceEnd 1 4; Slice 2])) = SDone.
Proof. reflexivity. Qed.

(** False in release builds: reading all of a 2 x 5 x 1 x 1 dataset in 1 x 2 x 6 x 1
    chunks never ends, whatever bound is put on the number of segments. *)
Theorem C12_release_refuted :
  full_dataset loop_ds /\ d_shape loop_ds = [2; 5; 1; 1] /\ d_chunk_shape loop_ds = [1; 2; 6; 1] /\
  forall fuel, snd (chunk_slices Release fuel loop_ds All) = SFuel /\
               length (fst (chunk_slices Release fuel loop_ds All)) = fuel.
Proof.
  split; [exact loop_full|]. do 2 (split; [reflexivity|]). intros fuel.
  split; [apply release_loops|]. apply fuel_length, release_loops.
Qed.
Print Assumptions C12_release_refuted.

(** ** C13 (segments; the readers' part is in Properties4) *)

(** Sums that stay below 2^64: any dataset. *)
Theorem C13_segments m ds e idx cnt fuel :
  get_start_count e (d_shape ds) = Ok (idx, cnt) ->
  Forall2 (fun i n => i + n < W64) idx cnt ->
  (In 0 cnt \/ exists j i n s, nth_error idx j = Some i /\ nth_error cnt j = Some n /\
                              nth_error (d_shape ds) j = Some s /\ s < i + n) ->
  (0 < fuel)%nat ->
  chunk_slices m fuel ds e = ([], SDone).
Proof. exact (oob_segments m ds e idx cnt fuel). Qed.
Print Assumptions C13_segments.
Example C13_case :
  get_start_count (Extents [SliceEnd 1 4; SliceCount 3 4]) (d_shape ex_ds) = Ok ([1; 3], [3; 4]) /\
  Forall2 (fun i n => i + n < W64) [1; 3] [3; 4] /\
  nth_error [1; 3] 1 = Some 3 /\ nth_error [3; 4] 1 = Some 4 /\ nth_error (d_shape ex_ds) 1 = Some 6 /\ 6 < 3 + 4.
Proof. repeat split; repeat constructor. Qed.

(** ** C15 *)

Theorem C15_bounds_partial m ds e idx cnt :
  full_dataset ds -> get_start_count e (d_shape ds) = Ok (idx, cnt) ->
  sel_in (d_shape ds) idx cnt ->
  sel_safe (d_shape ds) (d_chunk_shape ds) idx cnt = true ->
  exists segs, (forall fuel, (N.to_nat (prodN cnt) < fuel)%nat ->
                  chunk_slices m fuel ds e = (segs, SDone)) /\
    Forall (fun '(c, a, b) => a < b /\ b <= prodN (d_chunk_shape ds) /\ In c (d_chunks ds)) segs /\
    sumN (map (fun '(_, a, b) => b - a) segs) = prodN cnt.
Proof.
  intros A B C D. destruct (safe_right m ds e idx cnt A B C D) as (segs & H & H1 & H2).
  exists segs. split; auto. split; auto. apply right_total with (ds := ds) (idx := idx); [|split; auto].
  destruct C as (L1 & L2 & _). congruence.
Qed.
Print Assumptions C15_bounds_partial.

(** In debug builds no dataset (well-formed or not) and no selection yields an empty
    segment or one that runs past its chunk. *)
Theorem C15_debug_partial ds e fuel c a b :
  In (c, a, b) (fst (chunk_slices Debug fuel ds e)) ->
  a < b /\ (d_shape ds <> [] -> b <= prodN (d_chunk_shape ds)) /\ In c (d_chunks ds).
Proof. exact (debug_bounds ds e fuel c a b). Qed.
Print Assumptions C15_debug_partial.

(** False in release builds (the last column of 4 x 11 in 2 x 10 chunks, as above): 11
    elements for a selection of 4; and a full read with segments whose end is before
    their start. *)
Theorem C15_refuted :
  (exists segs, chunk_slices Release 5 col_ds col_sel = (segs, SDone) /\
     sumN (map (fun '(_, a, b) => b - a) segs) = 11) /\
  (exists c a b, In (c, a, b) (fst (chunk_slices Release 10 loop_ds All)) /\ b < a).
Proof.
  split.
  - eexists. split; [vm_compute; reflexivity|reflexivity].
  - do 3 eexists. split; [vm_compute; auto 12|reflexivity].
Qed.
Print Assumptions C15_refuted.

(** ** C16 *)

Theorem C16_grouped_partial m ds e idx cnt fuel sort :
  addr_sort sort ->
  full_dataset ds -> get_start_count e (d_shape ds) = Ok (idx, cnt) ->
  sel_in (d_shape ds) idx cnt ->
  sel_safe (d_shape ds) (d_chunk_shape ds) idx cnt = true ->
  (N.to_nat (prodN cnt) < fuel)%nat ->
  exists segs G,
    chunk_slices m fuel ds e = (segs, SDone) /\
    group_chunk_slices sort m fuel ds e = Ok G /\
    Permutation (map (fun g => (g_chunk g, g_from g, snd g)) G) segs /\
    (forall i j g h, (i < j)%nat -> nth_error G i = Some g -> nth_error G j = Some h ->
       c_addr (g_chunk g) <= c_addr (g_chunk h)) /\
    (forall g, In g G -> g_from g < snd g /\ g_dest g + g_len g <= prodN cnt) /\
    (forall p, p < prodN cnt ->
       exists i g, nth_error G i = Some g /\ g_dest g <= p < g_dest g + g_len g /\
         forall j h, nth_error G j = Some h -> g_dest h <= p < g_dest h + g_len h -> j = i) /\
    (forall g k x, In g G -> k < g_len g ->
       nth_error (slab idx cnt) (N.to_nat (g_dest g + k)) = Some x ->
       holds ds x (g_chunk g, g_from g + k)).
Proof. exact (group_ok m ds e idx cnt fuel sort). Qed.
Print Assumptions C16_grouped_partial.
Example C16_case : addr_sort sort_by_addr.
Proof. exact sort_by_addr_ok. Qed.

(** In debug builds, for every dataset and selection on which the iteration ends: the
    grouped segments are the segments, sorted by address, each with the destination that
    sequential output gives it, so the destinations tile [0, total). *)
Theorem C16_debug_partial sort ds e fuel segs G :
  addr_sort sort ->
  chunk_slices Debug fuel ds e = (segs, SDone) ->
  group_chunk_slices sort Debug fuel ds e = Ok G ->
  Permutation (map (fun g => (g_chunk g, g_from g, snd g)) G) segs /\
  (forall i j g h, (i < j)%nat -> nth_error G i = Some g -> nth_error G j = Some h ->
     c_addr (g_chunk g) <= c_addr (g_chunk h)) /\
  (forall g, In g G -> exists before after,
     segs = before ++ (g_chunk g, g_from g, snd g) :: after /\
     g_dest g = sumN (map (fun '(_, a, b) => b - a) before)) /\
  (forall p, p < sumN (map (fun '(_, a, b) => b - a) segs) ->
     exists i g, nth_error G i = Some g /\ g_dest g <= p < g_dest g + g_len g /\
       forall j h, nth_error G j = Some h -> g_dest h <= p < g_dest h + g_len h -> j = i).
Proof. exact (group_debug sort ds e fuel segs G). Qed.
Print Assumptions C16_debug_partial.

(** ** C50 *)

(** One dimension: every chunk layout, every in-bounds selection. *)
Theorem C50_one_dimension m ds e i n s :
  full_dataset ds -> d_shape ds = [s] -> get_start_count e [s] = Ok ([i], [n]) ->
  0 < n -> i + n <= s ->
  exists segs, (forall fuel, (N.to_nat n < fuel)%nat -> chunk_slices m fuel ds e = (segs, SDone)) /\
    right_segments ds [i] [n] segs.
Proof.
  intros A B C D E. destruct (rank1_right m ds e i n s A B C D E) as (segs & H & H1).
  exists segs. split; auto. intros fuel HF. apply H. cbn [prodN]. lia.
Qed.
Print Assumptions C50_one_dimension.

(** Any rank: selections that, in the last dimension, are not exactly the extent of one
    chunk (clipped to the dataset). *)
Theorem C50_last_dimension m ds e shape s idx i cnt n cs c :
  full_dataset ds -> d_shape ds = shape ++ [s] -> d_chunk_shape ds = cs ++ [c] ->
  get_start_count e (shape ++ [s]) = Ok (idx ++ [i], cnt ++ [n]) ->
  sel_in (shape ++ [s]) (idx ++ [i]) (cnt ++ [n]) ->
  ~ (i mod c = 0 /\ n = N.min c (s - i)) ->
  reads_right m ds e (idx ++ [i]) (cnt ++ [n]).
Proof. exact (last_right m ds e shape s idx i cnt n cs c). Qed.
Print Assumptions C50_last_dimension.
Example C50_last_case :
  d_shape ex_ds = [4] ++ [6] /\ d_chunk_shape ex_ds = [2] ++ [3] /\
  sel_in ([4] ++ [6]) ([1] ++ [2]) ([3] ++ [4]) /\ ~ (2 mod 3 = 0 /\ 4 = N.min 3 (6 - 2)).
Proof. split; [reflexivity|]. split; [reflexivity|]. split; [exact ex_sel|]. intros [H _]. discriminate. Qed.

(** Any rank: any part of a single row. *)
Theorem C50_row m ds e shape s idx i cnt n :
  full_dataset ds -> d_shape ds = shape ++ [s] ->
  get_start_count e (shape ++ [s]) = Ok (idx ++ [i], cnt ++ [n]) ->
  sel_in (shape ++ [s]) (idx ++ [i]) (cnt ++ [n]) ->
  Forall (fun k => k = 1) cnt ->
  reads_right m ds e (idx ++ [i]) (cnt ++ [n]).
Proof. exact (row_right m ds e shape s idx i cnt n). Qed.
Print Assumptions C50_row.

(** Two dimensions, chunks no wider than the dataset: any range of whole rows, in
    particular the full read. *)
Theorem C50_whole_rows m ds e s c s1 c1 i n :
  full_dataset ds -> d_shape ds = [s; s1] -> d_chunk_shape ds = [c; c1] -> c1 <= s1 ->
  get_start_count e [s; s1] = Ok ([i; 0], [n; s1]) -> 0 < n -> i + n <= s ->
  reads_right m ds e [i; 0] [n; s1].
Proof. exact (rows_right m ds e s c s1 c1 i n). Qed.
Print Assumptions C50_whole_rows.
Example C50_rows_case : get_start_count All [4; 6] = Ok ([0; 0], [4; 6]) /\ 3 <= 6.
Proof. split; [reflexivity|lia]. Qed.

(** Any rank: chunks spanning all dimensions but the first (each of size at least 2); any
    range of the first dimension. *)
Theorem C50_outer m ds e s c i n dims :
  full_dataset ds -> d_shape ds = s :: dims -> d_chunk_shape ds = c :: dims ->
  Forall (fun d => 2 <= d) dims ->
  get_start_count e (s :: dims) = Ok (i :: map (fun _ => 0) dims, n :: dims) ->
  0 < n -> i + n <= s ->
  reads_right m ds e (i :: map (fun _ => 0) dims) (n :: dims).
Proof. exact (outer_right m ds e s c i n dims). Qed.
Print Assumptions C50_outer.
Example C50_outer_case :
  get_start_count (Extents [SliceCount 3 4; Slice 0; Slice 0]) [10; 10; 10] =
    Ok (3 :: map (fun _ => 0) [10; 10], 4 :: [10; 10]) /\ full_dataset cont_ds.
Proof. split; [reflexivity|exact cont_full]. Qed.

(** Contiguous datasets of any rank: some indices and ranges, then one dimension read
    in part, then whole dimensions. *)
Theorem C50_contiguous m ds e pre d dims ipre npre i n :
  full_dataset ds -> d_shape ds = pre ++ d :: dims -> d_chunk_shape ds = pre ++ d :: dims ->
  get_start_count e (pre ++ d :: dims) = Ok (ipre ++ i :: map (fun _ => 0) dims, npre ++ n :: dims) ->
  length ipre = length pre -> length npre = length pre ->
  sel_in (pre ++ d :: dims) (ipre ++ i :: map (fun _ => 0) dims) (npre ++ n :: dims) ->
  Forall (fun d => 2 <= d) dims -> 2 <= d -> n < d -> i + n <= d ->
  (2 <= n \/ Forall (fun k => k = 1) npre) ->
  reads_right m ds e (ipre ++ i :: map (fun _ => 0) dims) (npre ++ n :: dims).
Proof. exact (contiguous_right m ds e pre d dims ipre npre i n). Qed.
Print Assumptions C50_contiguous.
