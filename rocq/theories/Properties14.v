(** * Property theorems C55: exactly which two-dimensional reads, and which full reads of
    three-dimensional datasets, are right.

    [reads_right] (SpecApi.v): the iteration over the segments of the selection ends, and
    the segments joined together are the selected elements in row-major order.  The
    conditions below are in terms of the shapes, start and count only. *)
From Verif Require Import Base Spec Safe Chunk Extent Dataset Slicer SpecApi
  ExtentProofs SlicerTheorems SliceProps SlicerExact3 PlaneProofs Examples.

(** Two dimensions, any in-bounds selection, both build modes: wrong exactly if it starts
    on a chunk boundary in the second dimension, runs to the end of the dataset there and
    is narrower than a chunk, and takes more than one row of chunks more than one row
    high, other than two rows in two different chunks. *)
Theorem C55_plane m ds e s0 s1 c0 c1 i0 i1 n0 n1 :
  full_dataset ds -> d_shape ds = [s0; s1] -> d_chunk_shape ds = [c0; c1] ->
  get_start_count e [s0; s1] = Ok ([i0; i1], [n0; n1]) -> sel_in [s0; s1] [i0; i1] [n0; n1] ->
  (reads_right m ds e [i0; i1] [n0; n1] <->
   ~ (i1 mod c1 = 0 /\ i1 + n1 = s1 /\ n1 < c1 /\ n0 <> 1 /\ c0 <> 1 /\
      ~ (n0 = 2 /\ i0 mod c0 = c0 - 1))).
Proof.
  intros Hfd Es Ec He Hsel.
  pose proof (wm_pos _ (fd_made _ Hfd)) as HP. rewrite Ec in HP.
  inversion HP as [|? ? P0 HP']; subst. inversion HP' as [|? ? P1 _]; subst.
  pose proof Hsel as (_ & _ & HN & _).
  inversion HN as [|? ? N0 HN']; subst. inversion HN' as [|? ? N1 _]; subst.
  change (reads_right m ds e [i0; i1] [n0; n1] <-> ~ plane_bad s1 c0 c1 i0 i1 n0 n1).
  rewrite <- (plane_safe s0) by assumption. rewrite <- Es, <- Ec. rewrite <- Es in He, Hsel.
  split; [|intros; now apply safe_right].
  intros (segs & H & H1 & _). destruct m.
  - exact (reads_right_safe ds e _ _ segs _ Hfd He Hsel (H _ (Nat.lt_succ_diag_r _)) H1).
  - rewrite Es, Ec, (plane_safe s0) by assumption. intros Hbad. rewrite Es in Hsel.
    specialize (H _ (Nat.lt_succ_diag_r _)). unfold chunk_slices in H.
    rewrite (chunk_slicer_ok Release ds e [i0; i1] [n0; n1]) in H by (auto; now rewrite Es).
    exact (plane_wrong ds s0 s1 c0 c1 i0 i1 n0 n1 _ segs Hfd Es Ec Hsel Hbad H H1).
Qed.
Print Assumptions C55_plane.
Example C55_plane_case :
  full_dataset ex_ds /\ d_shape ex_ds = [4; 6] /\ d_chunk_shape ex_ds = [2; 3] /\
  get_start_count (Extents [SliceEnd 1 4; Slice 2]) [4; 6] = Ok ([1; 2], [3; 4]) /\
  sel_in [4; 6] [1; 2] [3; 4].
Proof. split; [exact ex_full|]. do 3 (split; [reflexivity|]). exact ex_sel. Qed.
(** Both sides of the equivalence occur: the last column of a 4 x 11 dataset in 2 x 10
    chunks is read wrongly by both builds. *)
Example C55_plane_wrong m : ~ reads_right m col_ds col_sel [0; 10] [4; 1].
Proof.
  intros H. apply (C55_plane m col_ds col_sel 4 11 2 10 0 10 4 1 col_full) in H; try reflexivity.
  - apply H. repeat (split; [reflexivity || discriminate|]). intros [? _]. discriminate.
  - sel_in_tac.
Qed.

(** Reading a whole two-dimensional dataset, both build modes. *)
Theorem C55_plane_full m ds s0 s1 c0 c1 :
  full_dataset ds -> d_shape ds = [s0; s1] -> d_chunk_shape ds = [c0; c1] -> 0 < s0 -> 0 < s1 ->
  (reads_right m ds All [0; 0] [s0; s1] <-> c1 <= s1 \/ s0 = 1 \/ c0 = 1).
Proof.
  intros Hfd Es Ec H0 H1.
  pose proof (wm_pos _ (fd_made _ Hfd)) as HP. rewrite Ec in HP.
  inversion HP as [|? ? P0 HP']; subst. inversion HP' as [|? ? P1 _]; subst.
  rewrite (C55_plane m ds All s0 s1 c0 c1); auto using get_start_count_all.
  - rewrite !N.mod_0_l by lia. lia.
  - split; [reflexivity|]. split; [reflexivity|]. split; [auto|].
    intros [|[|j]] a b d; cbn [nth_error]; [..|destruct j; discriminate];
      intros [= <-] [= <-] [= <-]; lia.
Qed.
Print Assumptions C55_plane_full.

(** Full reads of three-dimensional datasets: [C55_space_full] (Properties22.v). *)
