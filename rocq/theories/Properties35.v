(** * C66: series along the first dimension, at one point of the others. *)
From Verif Require Import Base Spec SpecApi Radix Safe Chunk Extent Dataset Slicer Filters
  SlicerTheorems SeriesProofs SliceProps SpecFilter FilterProofs FilterProps Properties22.

Local Arguments N.add : simpl never.
Local Arguments N.sub : simpl never.
Local Arguments N.mul : simpl never.
Local Arguments N.div : simpl never.
Local Arguments N.modulo : simpl never.
Local Arguments N.min : simpl never.

(** The dataset is chunked along its first dimension only, [c] elements to a chunk; the
    selection is [n] elements from [i] on, at one point of the other [length ss]
    dimensions.  Each [t] with [(i + t) mod c = 0] is where the selection enters a new
    chunk.  A build with overflow checks reads the series rightly exactly if every part
    of it before such a place is at least as long as there are other dimensions; one
    without exactly if more elements than that are left at the start of each such part. *)
Theorem C66_series m ds e s ss c i is n :
  full_dataset ds -> d_shape ds = s :: ss -> d_chunk_shape ds = c :: repeat 1 (length ss) ->
  get_start_count e (d_shape ds) = Ok (i :: is, n :: repeat 1 (length ss)) ->
  sel_in (d_shape ds) (i :: is) (n :: repeat 1 (length ss)) ->
  let others := N.of_nat (length ss) in
  (reads_right m ds e (i :: is) (n :: repeat 1 (length ss)) <->
   forall t, 0 < t -> t < n -> (i + t) mod c = 0 ->
     match m with
     | Debug => others <= N.min t c
     | Release => others < n - (t - c)
     end).
Proof.
  intros Hfd Hsh Hcs He Hsel others.
  pose proof (chunk_slicer_ok m ds e _ _ Hfd He Hsel) as Hst.
  rewrite Hsh in Hsel.
  assert (Hn : prodN (n :: repeat 1 (length ss)) = n).
  { change (n * prodN (repeat 1 (length ss)) = n). rewrite prodN_ones. lia. }
  assert (Hslab : slab (i :: is) (n :: repeat 1 (length ss)) =
    map (slab_coord (i :: is) (n :: repeat 1 (length ss))) (seqN 0 (N.to_nat (n - 0)))).
  { destruct Hsel as (L1 & L2 & HN & _). rewrite slab_seq by (auto; congruence).
    now rewrite Hn, N.sub_0_r. }
  assert (Hfit : forall t, fits_at c n ss m t <->
     match m with Debug => others <= N.min t c | Release => others < n - (t - c) end).
  { intros t. unfold fits_at, others. destruct m; [|reflexivity].
    replace (t - (t - c)) with (N.min t c) by lia. reflexivity. }
  split.
  - intros (segs & R & F & _) t H1 H2 H3. apply Hfit.
    apply (series_only_if ds s c i n ss is Hfd Hsh Hcs Hsel m (N.to_nat (n - 0)) 0 eq_refl); auto; [lia|].
    assert (R1 := R _ (Nat.lt_succ_diag_r _)). unfold chunk_slices in R1. rewrite Hst in R1.
    eexists _, segs. split; [exact R1|]. rewrite <- Hslab. exact F.
  - intros H.
    destruct (series_if ds s c i n ss is Hfd Hsh Hcs Hsel m (N.to_nat (n - 0)) 0 eq_refl) as (segs & R & F); auto; [lia| |].
    { intros t H1 H2 H3. now apply Hfit, H. }
    exists segs. split.
    + intros fuel Hf. unfold chunk_slices. rewrite Hst. apply R. rewrite Hn in Hf. now rewrite N.sub_0_r.
    + unfold right_segments. rewrite Hslab. exact F.
Qed.
Print Assumptions C66_series.

(** What a build with overflow checks reads rightly, one without does. *)
Theorem C66_modes ds e s ss c i is n :
  full_dataset ds -> d_shape ds = s :: ss -> d_chunk_shape ds = c :: repeat 1 (length ss) ->
  get_start_count e (d_shape ds) = Ok (i :: is, n :: repeat 1 (length ss)) ->
  sel_in (d_shape ds) (i :: is) (n :: repeat 1 (length ss)) ->
  reads_right Debug ds e (i :: is) (n :: repeat 1 (length ss)) ->
  reads_right Release ds e (i :: is) (n :: repeat 1 (length ss)).
Proof.
  intros A B C D E H. rewrite (C66_series Debug ds e s ss c i is n A B C D E) in H.
  rewrite (C66_series Release ds e s ss c i is n A B C D E).
  intros t H1 H2 H3. specialize (H t H1 H2 H3). cbn beta iota in *. revert H H1 H2. clear. lia.
Qed.
Print Assumptions C66_modes.

(** Chunks at least as long as there are other dimensions, read from a chunk's start on:
    always right. *)
Theorem C66_aligned m ds e s ss c i is n :
  full_dataset ds -> d_shape ds = s :: ss -> d_chunk_shape ds = c :: repeat 1 (length ss) ->
  get_start_count e (d_shape ds) = Ok (i :: is, n :: repeat 1 (length ss)) ->
  sel_in (d_shape ds) (i :: is) (n :: repeat 1 (length ss)) ->
  i mod c = 0 -> N.of_nat (length ss) <= c ->
  reads_right m ds e (i :: is) (n :: repeat 1 (length ss)).
Proof.
  intros A B C D E Hi Hc. rewrite (C66_series m ds e s ss c i is n A B C D E). cbv zeta.
  intros t H1 H2 H3.
  assert (c <= t).
  { destruct (N.eq_dec c 0) as [->|Hc0]; [lia|]. apply N.mod_divide in Hi; auto. apply N.mod_divide in H3; auto.
    destruct Hi as [x ->]. destruct H3 as [y E3]. assert (x < y) by nia. nia. }
  destruct m; lia.
Qed.
Print Assumptions C66_aligned.

(** Two dimensions: a column of a table chunked by rows of one column is always right. *)
Theorem C66_column m ds e s0 s1 c i j n :
  full_dataset ds -> d_shape ds = [s0; s1] -> d_chunk_shape ds = [c; 1] ->
  get_start_count e (d_shape ds) = Ok ([i; j], [n; 1]) -> sel_in (d_shape ds) [i; j] [n; 1] ->
  reads_right m ds e [i; j] [n; 1].
Proof.
  intros A B C D E. assert (Hc : 0 < c).
  { pose proof (wm_pos _ (fd_made _ A)) as H. rewrite C in H. now inversion H. }
  apply (C66_series m ds e s0 [s1] c i [j] n A B C D E). cbn [length]. intros t H1 H2 _.
  destruct m; lia.
Qed.
Print Assumptions C66_column.

(** Three dimensions (time, latitude, longitude), chunks of [c] times at one point: which
    time series at a point are right. *)
Theorem C66_cube m ds e s0 s1 s2 c i y x n :
  full_dataset ds -> d_shape ds = [s0; s1; s2] -> d_chunk_shape ds = [c; 1; 1] ->
  get_start_count e (d_shape ds) = Ok ([i; y; x], [n; 1; 1]) -> sel_in (d_shape ds) [i; y; x] [n; 1; 1] ->
  (reads_right m ds e [i; y; x] [n; 1; 1] <->
   n = 1 \/
   (1 < c /\ match m with
             | Debug => (i + 1) mod c <> 0
             | Release => ~ (n = 2 /\ (i + 1) mod c = 0)
             end)).
Proof.
  intros A B C D E. assert (Hc : 0 < c).
  { pose proof (wm_pos _ (fd_made _ A)) as H. rewrite C in H. now inversion H. }
  assert (Hn : 0 < n) by (destruct E as (_ & _ & H & _); now inversion H).
  pose proof (C66_series m ds e s0 [s1; s2] c i [y; x] n A B C D E) as H. cbn [length] in H. cbv zeta in H.
  change (n :: repeat 1 2) with [n; 1; 1] in H. rewrite H. clear H.
  destruct (N.eq_dec c 1) as [->|Hc1].
  - split.
    + intros H. left. destruct (N.eq_dec n 1) as [|Hn1]; auto. exfalso.
      specialize (H (n - 1) ltac:(lia) ltac:(lia) ltac:(apply N.mod_1_r)). destruct m; lia.
    + intros [-> | [H _]]; [|lia]. intros t H1 H2. lia.
  - destruct (N.eq_dec n 1) as [->|Hn1].
    + split; [now left|]. intros _ t H1 H2. lia.
    + split.
      * intros H. right. split; [lia|]. destruct m.
        -- intros H1. specialize (H 1 ltac:(lia) ltac:(lia) H1). cbn beta iota in H. lia.
        -- intros [-> H1]. specialize (H 1 ltac:(lia) ltac:(lia) H1). cbn beta iota in H. lia.
      * intros [? | [_ H]]; [lia|]. intros t H1 H2 H3. destruct m.
        -- assert (t <> 1) by (intros ->; auto). lia.
        -- destruct (N.eq_dec t 1) as [->|]; [|lia].
           assert (n <> 2) by (intros ->; auto). lia.
Qed.
Print Assumptions C66_cube.

(** Cases: five times in chunks of two at one point.  From the second time on, three
    elements come out right without overflow checks and not with them; two elements
    across the chunk border in neither; from the start on, all in both. *)
Example C66_case :
  full_dataset thin_ds /\ d_shape thin_ds = [5; 1; 1] /\ d_chunk_shape thin_ds = [2; 1; 1] /\
  sel_in (d_shape thin_ds) [1; 0; 0] [3; 1; 1] /\ sel_in (d_shape thin_ds) [1; 0; 0] [2; 1; 1] /\
  reads_right Release thin_ds thin_sel [1; 0; 0] [3; 1; 1] /\
  ~ reads_right Debug thin_ds thin_sel [1; 0; 0] [3; 1; 1] /\
  (forall m, ~ reads_right m thin_ds (Extents [SliceCount 1 2; Index 0; Index 0]) [1; 0; 0] [2; 1; 1]) /\
  (forall m, reads_right m thin_ds All [0; 0; 0] [5; 1; 1]).
Proof.
  assert (S1 : sel_in (d_shape thin_ds) [1; 0; 0] [3; 1; 1]) by sel_in_tac.
  assert (S2 : sel_in (d_shape thin_ds) [1; 0; 0] [2; 1; 1]) by sel_in_tac.
  assert (S3 : sel_in (d_shape thin_ds) [0; 0; 0] [5; 1; 1]) by sel_in_tac.
  split; [exact thin_full|]. repeat (split; [assumption || reflexivity|]).
  split; [|split; [|split]].
  - rewrite (C66_cube Release thin_ds thin_sel 5 1 1 2 1 0 0 3 thin_full eq_refl eq_refl eq_refl S1).
    right. split; [reflexivity|]. now intros [? _].
  - rewrite (C66_cube Debug thin_ds thin_sel 5 1 1 2 1 0 0 3 thin_full eq_refl eq_refl eq_refl S1).
    intros [H|[_ H]]; [discriminate|now apply H].
  - intros m.
    rewrite (C66_cube m thin_ds (Extents [SliceCount 1 2; Index 0; Index 0]) 5 1 1 2 1 0 0 2 thin_full eq_refl eq_refl eq_refl S2).
    intros [H|[_ H]]; [discriminate|]. destruct m; now apply H.
  - intros m. rewrite (C66_cube m thin_ds All 5 1 1 2 0 0 0 5 thin_full eq_refl eq_refl eq_refl S3).
    right. split; [reflexivity|]. destruct m; [discriminate|]. now intros [? _].
Qed.

(** ** Converting one value to big-endian: a value of unknown order is left as it is. *)
Theorem C36_scalar h o v :
  (forall x, num_in o v = Some x -> num_in BE (to_big_e_scalar h KInt o v) = Some x) /\
  (num_in o v = None -> to_big_e_scalar h KInt o v = v) /\
  length (to_big_e_scalar h KInt o v) = length v.
Proof.
  destruct o; cbn [to_big_e_scalar swap num_in].
  - repeat split; auto.
  - split; [|split; [discriminate|apply rev_length]]. intros x [= <-]. f_equal.
    rewrite num_be_rev, rev_involutive. reflexivity.
  - repeat split; auto. discriminate.
Qed.
Print Assumptions C36_scalar.
Example C36_scalar_case : to_big_e_scalar HostLE KInt LE [1; 2] = [2; 1] /\
  to_big_e_scalar HostLE KInt Unknown [1; 2] = [1; 2].
Proof. now split. Qed.
