(** * Property theorems C11 and C55 in release builds: exactly which selections are iterated
    rightly when arithmetic wraps.

    Each theorem is followed by a concrete case meeting its hypotheses. *)
From Verif Require Import Base Spec Safe Chunk Extent Dataset Slicer SpecApi
  Radix ApiLemmas ExtentProofs SlicerMain SlicerTheorems SlicerExact SliceProps SlicerExact3 SafeProofs PlaneProofs SlicerRelease2 SpaceProofs Examples.

(** The twin of [C11_exact] for builds whose arithmetic wraps and whose debug assertions
    are off: an in-bounds selection of a full dataset is iterated rightly if and only if it
    is [sel_safe].  Outside it: selections with [single_end] (one index in each of the two
    last dimensions, chunks one wide in the last), where release builds get right some
    selections on which debug builds panic ([C11_release_larger]), and selections so large
    that twice their size plus three chunks passes 2^64 elements. *)
Theorem C11_release_exact ds e idx cnt :
  full_dataset ds -> get_start_count e (d_shape ds) = Ok (idx, cnt) ->
  sel_in (d_shape ds) idx cnt ->
  2 * prodN cnt + 3 * prodN (d_chunk_shape ds) < W64 ->
  single_end (d_chunk_shape ds) cnt = false ->
  ((exists segs, (forall fuel, (N.to_nat (prodN cnt) < fuel)%nat ->
                    chunk_slices Release fuel ds e = (segs, SDone)) /\
      Forall2 (holds ds) (slab idx cnt) (flat_map seg_elems segs)) <->
   sel_safe (d_shape ds) (d_chunk_shape ds) idx cnt = true).
Proof.
  intros A B C S1 S2. split.
  - intros (segs & H & H1).
    exact (reads_right_safe_rel ds e idx cnt segs _ A B C S1 S2 (H _ (Nat.lt_succ_diag_r _)) H1).
  - intros D. destruct (safe_right Release ds e idx cnt A B C D) as (segs & H & H1 & _). now exists segs.
Qed.
Print Assumptions C11_release_exact.
(** Cases on both sides: part of a plane read rightly, a full read that goes wrong. *)
Example C11_release_case :
  (full_dataset bad_ds /\
   get_start_count All (d_shape bad_ds) = Ok ([0; 0; 0], [4; 3; 5]) /\
   sel_in (d_shape bad_ds) [0; 0; 0] [4; 3; 5] /\
   2 * prodN [4; 3; 5] + 3 * prodN (d_chunk_shape bad_ds) < W64 /\
   single_end (d_chunk_shape bad_ds) [4; 3; 5] = false /\
   sel_safe (d_shape bad_ds) (d_chunk_shape bad_ds) [0; 0; 0] [4; 3; 5] = false) /\
  (full_dataset ex_ds /\
   get_start_count (Extents [SliceEnd 1 4; Slice 2]) (d_shape ex_ds) = Ok ([1; 2], [3; 4]) /\
   sel_in (d_shape ex_ds) [1; 2] [3; 4] /\
   2 * prodN [3; 4] + 3 * prodN (d_chunk_shape ex_ds) < W64 /\
   single_end (d_chunk_shape ex_ds) [3; 4] = false /\
   sel_safe (d_shape ex_ds) (d_chunk_shape ex_ds) [1; 2] [3; 4] = true).
Proof.
  split.
  - split; [exact bad_full|]. split; [reflexivity|]. split; [sel_in_tac|]. repeat split; reflexivity.
  - split; [exact ex_full|]. split; [reflexivity|]. split; [exact ex_sel|]. split; [reflexivity|].
    split; [reflexivity|exact ex_safe].
Qed.

(** In the same terms, both build modes agree outside the two exceptions: what a release
    build iterates rightly is what a debug build does. *)
Theorem C11_modes_agree ds e idx cnt :
  full_dataset ds -> get_start_count e (d_shape ds) = Ok (idx, cnt) ->
  sel_in (d_shape ds) idx cnt ->
  2 * prodN cnt + 3 * prodN (d_chunk_shape ds) < W64 ->
  single_end (d_chunk_shape ds) cnt = false ->
  (reads_right Release ds e idx cnt <-> reads_right Debug ds e idx cnt).
Proof.
  intros A B C S1 S2. split.
  - intros (segs & H & H1 & _). apply safe_right; auto.
    exact (reads_right_safe_rel ds e idx cnt segs _ A B C S1 S2 (H _ (Nat.lt_succ_diag_r _)) H1).
  - intros (segs & H & H1 & _). apply safe_right; auto.
    exact (reads_right_safe ds e idx cnt segs _ A B C (H _ (Nat.lt_succ_diag_r _)) H1).
Qed.
Print Assumptions C11_modes_agree.

(** With [single_end] the release build's class is strictly larger: rows 1 to 3 of a
    5 x 1 x 1 dataset in 2 x 1 x 1 chunks.  The debug build panics, the release build's
    wrapped subtraction happens to give the right length. *)
Definition thin_ds : dataset :=
  mkDataset (Int 4) 4 LE
    [mkChunk 1000 8 [0;0;0]; mkChunk 2000 8 [2;0;0]; mkChunk 3000 8 [4;0;0]]
    [5;1;1] [2;1;1] [2;1;1] [1;1;1] [1;1;1] [1;1;1] false None.
Lemma thin_full : full_dataset thin_ds.
Proof.
  constructor; [constructor|..]; try reflexivity.
  - repeat constructor.
  - repeat split; repeat constructor.
Qed.
Definition thin_sel : extents := Extents [SliceCount 1 3; Index 0; Index 0].
Example C11_release_larger :
  full_dataset thin_ds /\ get_start_count thin_sel (d_shape thin_ds) = Ok ([1; 0; 0], [3; 1; 1]) /\
  sel_in (d_shape thin_ds) [1; 0; 0] [3; 1; 1] /\
  single_end (d_chunk_shape thin_ds) [3; 1; 1] = true /\
  sel_safe (d_shape thin_ds) (d_chunk_shape thin_ds) [1; 0; 0] [3; 1; 1] = false /\
  chunk_slices Release 4 thin_ds thin_sel =
    ([(mkChunk 1000 8 [0;0;0], 1, 2); (mkChunk 2000 8 [2;0;0], 0, 2)], SDone) /\
  snd (chunk_slices Debug 4 thin_ds thin_sel) = SPanic.
Proof.
  split; [exact thin_full|]. split; [reflexivity|]. split; [sel_in_tac|].
  repeat split; vm_compute; reflexivity.
Qed.

(** ** C55: every full read of a three-dimensional dataset, in both build modes *)

Theorem C55_space_full m ds s0 s1 s2 c0 c1 c2 :
  full_dataset ds -> d_shape ds = [s0; s1; s2] -> d_chunk_shape ds = [c0; c1; c2] ->
  0 < s0 -> 0 < s1 -> 0 < s2 ->
  (m = Release -> 2 * (s0 * s1 * s2) + 3 * (c0 * c1 * c2) < W64) ->
  let inner := c1 < s1 /\ c1 <> 1 /\ s1 mod c1 <> 1 in
  (reads_right m ds All [0; 0; 0] [s0; s1; s2] <->
    c2 < s2 \/
    (s2 < c2 /\ (s0 = 1 \/ c0 = 1) /\ (s1 = 1 \/ c1 = 1)) \/
    (c2 = s2 /\ 1 < s2 /\ (s0 = 1 \/ c0 = 1 \/ c1 = s1 \/ inner)) \/
    (c2 = s2 /\ s2 = 1 /\ (s0 = 1 \/ (c1 = s1 /\ (s1 <> 1 \/ c0 <> 1)) \/ inner \/
                           (1 < s1 /\ s1 < c1 /\ c0 = 1)))).
Proof.
  intros Hfd Es Ec H0 H1 H2 Hsz inner.
  pose proof (wm_pos _ (fd_made _ Hfd)) as HP. rewrite Ec in HP.
  inversion HP as [|? ? P0 HP']; subst. inversion HP' as [|? ? P1 HP'']; subst. inversion HP'' as [|? ? P2 _]; subst.
  assert (Hsel : sel_in (d_shape ds) [0; 0; 0] [s0; s1; s2]).
  { rewrite Es. split; [reflexivity|]. split; [reflexivity|]. split; [repeat constructor; lia|].
    intros [|[|[|j]]] a b d; cbn [nth_error]; [..|destruct j; discriminate];
      intros [= <-] [= <-] [= <-]; lia. }
  assert (He : get_start_count All (d_shape ds) = Ok ([0; 0; 0], [s0; s1; s2])).
  { rewrite Es. exact (get_start_count_all _). }
  transitivity (sel_safe (d_shape ds) (d_chunk_shape ds) [0; 0; 0] [s0; s1; s2] = true).
  2:{ rewrite Es, Ec. unfold inner. destruct (N.eq_dec s2 1) as [->|E2].
      - rewrite column_safe by auto. unfold column_good.
        destruct (N.eq_dec c2 1); [|destruct (N.lt_ge_cases 1 c2)]; split; intros; intuition lia.
      - rewrite space_safe by (auto; lia). unfold space_good.
        destruct (N.lt_trichotomy c2 s2) as [|[|]]; split; intros; intuition lia. }
  split; [|now apply safe_right].
  intros (segs & H & H3 & _). specialize (H _ (Nat.lt_succ_diag_r _)).
  destruct m.
  { exact (reads_right_safe ds All _ _ segs _ Hfd He Hsel H H3). }
  specialize (Hsz eq_refl).
  destruct (single_end (d_chunk_shape ds) [s0; s1; s2]) eqn:SE.
  2:{ refine (reads_right_safe_rel ds All _ _ segs _ Hfd He Hsel _ SE H H3).
      rewrite Ec. cbn [prodN]. rewrite !N.mul_1_r, (N.mul_assoc s0), (N.mul_assoc c0). exact Hsz. }
  rewrite Ec in SE. unfold single_end in SE. cbn [rev app] in SE.
  rewrite !andb_true_iff, !N.eqb_eq in SE. destruct SE as [[-> ->] ->].
  destruct (sel_safe _ _ _ _) eqn:SS; [reflexivity|]. exfalso.
  assert (NG : ~ column_good s0 1 c0 c1 1).
  { intros G. rewrite Es, Ec in SS. apply column_safe in G; auto. congruence. }
  unfold column_good in NG.
  unfold chunk_slices in H. rewrite (chunk_slicer_ok Release ds All _ _ Hfd He Hsel) in H.
  pose proof Hsel as (L1 & L2 & L3 & _). rewrite slab_seq in H3 by (auto; congruence).
  assert (Ee : prodN [s0; 1; 1] = s0) by (cbn [prodN]; lia). rewrite Ee in *.
  assert (S2 : 2 <= s0) by (destruct (N.eq_dec s0 1) as [->|]; [exfalso; apply NG; auto|lia]).
  eapply (thin_wrong ds s0 c0 c1 Hfd Es Ec); [lia|exact S2| | |left; reflexivity|exact H|].
  3:{ rewrite N.sub_0_r. exact H3. }
  2:{ rewrite N.add_0_l. exact S2. }
  destruct (N.le_gt_cases 2 c1) as [|H4]; [auto|]. right. assert (E1 : c1 = 1) by lia. split; [|auto].
  destruct (N.eq_dec c0 1) as [|H5]; [auto|]. exfalso. apply NG. left. split; [auto|]. right. left. auto.
Qed.
Print Assumptions C55_space_full.
(** Both sides in both modes: a 4 x 3 x 5 dataset in 2 x 2 x 5 chunks is read wrongly, 4 x 3 x 5
    in 2 x 3 x 5 chunks rightly. *)
Definition good_ds : dataset :=
  mkDataset (Int 4) 4 LE
    [mkChunk 1000 120 [0;0;0]; mkChunk 2000 120 [2;0;0]]
    [4;3;5] [2;3;5] [2;3;5] [1;1;1] [15;5;1] [15;5;1] false None.
Lemma good_full : full_dataset good_ds.
Proof.
  constructor; [constructor|..]; try reflexivity.
  - repeat constructor.
  - repeat split; repeat constructor.
Qed.
Example C55_space_full_case m :
  ~ reads_right m bad_ds All [0; 0; 0] [4; 3; 5] /\ reads_right m good_ds All [0; 0; 0] [4; 3; 5].
Proof.
  split.
  - rewrite (C55_space_full m bad_ds 4 3 5 2 2 5 bad_full); try reflexivity. cbn. intuition lia.
  - rewrite (C55_space_full m good_ds 4 3 5 2 3 5 good_full); try reflexivity. cbn. intuition lia.
Qed.
(** The 5 x 1 x 1 dataset in 2 x 1 x 1 chunks is read rightly as a whole; in 1 x 1 x 1 chunks
    it would not be. *)
Example C55_space_thin m : reads_right m thin_ds All [0; 0; 0] [5; 1; 1].
Proof. rewrite (C55_space_full m thin_ds 5 1 1 2 1 1 thin_full); try reflexivity. cbn. intuition lia. Qed.
