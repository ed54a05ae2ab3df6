(** * Property theorems C11, C21 and C35 in release builds: the class of selections that a
    build with wrapping arithmetic iterates rightly. *)
From Verif Require Import Base Spec SpecApi SpecReader Radix Safe Chunk Extent Dataset Slicer Filters SpecFilter Reader
  SlicerTheorems SliceProps ReaderProps Examples ExamplesReader SafeWrap SlicerWrap WrapProps SlicerExact3 SlicerRelease2 SlicerWrap4 Properties4 Properties22.

(** Selections of the class of the build mode ([sel_safe] in debug builds, the larger
    [sel_wrap] in release builds; SafeWrap.v) are iterated rightly. *)
Theorem C11_class_partial m ds e idx cnt :
  full_dataset ds -> get_start_count e (d_shape ds) = Ok (idx, cnt) ->
  sel_in (d_shape ds) idx cnt ->
  sel_right m (d_shape ds) (d_chunk_shape ds) idx cnt = true ->
  exists segs, (forall fuel, (N.to_nat (prodN cnt) < fuel)%nat ->
                  chunk_slices m fuel ds e = (segs, SDone)) /\
    Forall2 (holds ds) (slab idx cnt) (flat_map seg_elems segs).
Proof.
  intros A B C D. destruct (class_right m ds e idx cnt A B C D) as (segs & H & H1 & _). now exists segs.
Qed.
Print Assumptions C11_class_partial.
(** The release class is larger: rows 1 to 3 of the 5 x 1 x 1 dataset in 2 x 1 x 1 chunks. *)
Example C11_class_case :
  full_dataset thin_ds /\ get_start_count thin_sel (d_shape thin_ds) = Ok ([1; 0; 0], [3; 1; 1]) /\
  sel_in (d_shape thin_ds) [1; 0; 0] [3; 1; 1] /\
  sel_right Release (d_shape thin_ds) (d_chunk_shape thin_ds) [1; 0; 0] [3; 1; 1] = true /\
  sel_right Debug (d_shape thin_ds) (d_chunk_shape thin_ds) [1; 0; 0] [3; 1; 1] = false.
Proof. split; [exact thin_full|]. split; [reflexivity|]. split; [sel_in_tac|]. split; reflexivity. Qed.

(** What a release build has right contains what a debug build has right. *)
Theorem C11_class_grows ds idx cnt :
  full_dataset ds -> sel_in (d_shape ds) idx cnt ->
  sel_right Debug (d_shape ds) (d_chunk_shape ds) idx cnt = true ->
  sel_right Release (d_shape ds) (d_chunk_shape ds) idx cnt = true.
Proof. intros A B. exact (right_of_safe Release ds idx cnt A B). Qed.
Print Assumptions C11_class_grows.

(** Room for the exact statement: none is needed in debug builds.  In release builds the
    counts must stay clear of 2^64, by more for selections of one index in each of the two
    last dimensions with chunks one wide in the last. *)
Definition far_from_64 (m : mode) (cs cnt : list N) : Prop :=
  match m with
  | Debug => True
  | Release => 2 * prodN cnt + 3 * prodN cs < W64 /\
      (single_end cs cnt = true -> 8 * (N.of_nat (length cnt) * (prodN cnt * prodN cs)) < W64)
  end.

(** Which selections come out right, exactly, in both build modes: those of the class of the
    build mode, and no others. *)
Theorem C11_class_exact m ds e idx cnt :
  full_dataset ds -> get_start_count e (d_shape ds) = Ok (idx, cnt) ->
  sel_in (d_shape ds) idx cnt -> far_from_64 m (d_chunk_shape ds) cnt ->
  ((exists segs, (forall fuel, (N.to_nat (prodN cnt) < fuel)%nat ->
                    chunk_slices m fuel ds e = (segs, SDone)) /\
      Forall2 (holds ds) (slab idx cnt) (flat_map seg_elems segs)) <->
   sel_right m (d_shape ds) (d_chunk_shape ds) idx cnt = true).
Proof.
  intros A B C S. split.
  - intros (segs & H & H1). destruct m.
    + exact (reads_right_safe ds e idx cnt segs _ A B C (H _ (Nat.lt_succ_diag_r _)) H1).
    + destruct S as [S1 S2].
      exact (reads_right_wrap ds e idx cnt segs _ A B C S1 S2 (H _ (Nat.lt_succ_diag_r _)) H1).
  - intros D. destruct (class_right m ds e idx cnt A B C D) as (segs & H & H1 & _). now exists segs.
Qed.
Print Assumptions C11_class_exact.
(** Cases: rows 1 to 3 come out right in release builds only, rows 1 and 2 in neither. *)
Example C11_exact_cases :
  full_dataset thin_ds /\
  (get_start_count thin_sel (d_shape thin_ds) = Ok ([1; 0; 0], [3; 1; 1]) /\
   sel_in (d_shape thin_ds) [1; 0; 0] [3; 1; 1] /\
   (forall m, far_from_64 m (d_chunk_shape thin_ds) [3; 1; 1]) /\
   sel_right Release (d_shape thin_ds) (d_chunk_shape thin_ds) [1; 0; 0] [3; 1; 1] = true /\
   sel_right Debug (d_shape thin_ds) (d_chunk_shape thin_ds) [1; 0; 0] [3; 1; 1] = false) /\
  (get_start_count (Extents [SliceCount 1 2; Index 0; Index 0]) (d_shape thin_ds) = Ok ([1; 0; 0], [2; 1; 1]) /\
   sel_in (d_shape thin_ds) [1; 0; 0] [2; 1; 1] /\
   (forall m, far_from_64 m (d_chunk_shape thin_ds) [2; 1; 1]) /\
   single_end (d_chunk_shape thin_ds) [2; 1; 1] = true /\
   forall m, sel_right m (d_shape thin_ds) (d_chunk_shape thin_ds) [1; 0; 0] [2; 1; 1] = false).
Proof.
  split; [exact thin_full|]. split.
  - split; [reflexivity|]. split; [sel_in_tac|]. split; [intros []; cbn; auto; split; reflexivity|]. split; reflexivity.
  - split; [reflexivity|]. split; [sel_in_tac|]. split; [intros []; cbn; auto; split; reflexivity|].
    split; [reflexivity|]. intros []; reflexivity.
Qed.
