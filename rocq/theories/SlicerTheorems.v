(** * Theorems about chunk_slices and group_chunk_slices for safe selections. *)
From Verif Require Import Base Spec SpecApi Radix Safe Chunk Extent Dataset Slicer
  SlicerProofs SlicerStep ChunkProofs DatasetProofs ExtentProofs SlicerMain.

Lemma any_oob_ok m shape : forall cs idx cnt,
  Forall2 (fun s c => s + c < W64) shape cs -> sel_in shape idx cnt ->
  any_oob m idx cnt shape = Ok false.
Proof.
  induction shape as [|s shape IH]; intros cs idx cnt HS (L1 & L2 & HN & HB); inversion HS; subst.
  - destruct idx; [reflexivity|discriminate].
  - destruct idx as [|i idx]; [discriminate|]. destruct cnt as [|n cnt]; [discriminate|].
    cbn [any_oob length] in *. inversion HN; subst.
    pose proof (HB 0%nat i n s eq_refl eq_refl eq_refl).
    rewrite add64_ok by lia. cbn [bind].
    destruct (N.ltb_spec s (i + n)); [lia|].
    eapply IH; eauto. split; [lia|]. split; [lia|]. split; auto. intros j. apply (HB (S j)).
Qed.

Lemma all_in_bounds_ok m shape : forall cs idx cnt,
  Forall2 (fun s c => s + c < W64) shape cs -> sel_in shape idx cnt ->
  all_in_bounds m idx cnt shape = Ok true.
Proof.
  induction shape as [|s shape IH]; intros cs idx cnt HS (L1 & L2 & HN & HB); inversion HS; subst.
  - destruct idx; [reflexivity|discriminate].
  - destruct idx as [|i idx]; [discriminate|]. destruct cnt as [|n cnt]; [discriminate|].
    cbn [all_in_bounds length] in *. inversion HN; subst.
    pose proof (HB 0%nat i n s eq_refl eq_refl eq_refl).
    rewrite add64_ok by lia. cbn [bind].
    destruct (N.leb_spec (i + n) s); [|lia].
    eapply IH; eauto. split; [lia|]. split; [lia|]. split; auto. intros j. apply (HB (S j)).
Qed.

Lemma existsb_zero l : Forall (fun n => 0 < n) l -> existsb (fun c => c =? 0) l = false.
Proof.
  induction 1 as [|n l Hn HF IH]; cbn [existsb]; auto.
  destruct (N.eqb_spec n 0); [lia|auto].
Qed.

Lemma chunk_slicer_ok m ds e idx cnt :
  full_dataset ds -> get_start_count e (d_shape ds) = Ok (idx, cnt) ->
  sel_in (d_shape ds) idx cnt ->
  chunk_slicer m ds e = Ok (state_at idx cnt 0).
Proof.
  intros [Hwm Hg Hsz] He Hsel.
  destruct (sel_in_fits _ _ _ _ Hsel Hsz) as [Hfit Hle].
  destruct Hsz as (S1 & S2 & S3).
  pose proof Hsel as (L1 & L2 & HN & HB).
  unfold chunk_slicer. rewrite He. cbn [unwrap bind].
  rewrite (any_oob_ok m _ _ _ _ S3 Hsel). cbn [bind]. rewrite existsb_zero by auto. cbn [orb].
  unfold slicer_new.
  assert (Ep : (if is_scalar ds then let* _ := assert_ (length idx =? 0)%nat in Ok 1
                else product64 m cnt) = Ok (prodN cnt)).
  { unfold is_scalar. destruct (d_shape ds).
    - destruct idx; [|discriminate]. destruct cnt; [reflexivity|discriminate].
    - apply product64_ok; auto. lia. }
  rewrite Ep. cbn [bind].
  rewrite L1, L2, Nat.eqb_refl. rewrite dbg_ok by reflexivity. cbn [bind].
  rewrite (all_in_bounds_ok m _ _ _ _ S3 Hsel).
  replace (dbg_res m (Ok true)) with (Ok tt) by (destruct m; reflexivity). cbn [bind].
  rewrite sr_new_ok by auto. cbn [bind]. unfold state_at. f_equal. f_equal.
  rewrite dig_zero, map_rev, rev_involutive.
  assert (G : forall (a b : list N), length a = length b -> map (fun _ => 0) a = map (fun _ => 0) b).
  { induction a as [|x a IH]; intros [|y b] H; cbn [length] in H; try discriminate; cbn [map]; auto.
    f_equal. apply IH. lia. }
  apply G. auto.
Qed.

(** If every run start has a step, the chunk segments are the selected hyperslab. *)
Lemma chunk_slices_by m ds e idx cnt fuel :
  full_dataset ds -> get_start_count e (d_shape ds) = Ok (idx, cnt) ->
  sel_in (d_shape ds) idx cnt ->
  (d_shape ds <> [] ->
   forall p, bnd (rev (mk_dims (d_shape ds) (d_chunk_shape ds) idx cnt)) p -> p < prodN cnt ->
   exists a, step_ok m (prodN cnt) 0 1 (rev (mk_dims (d_shape ds) (d_chunk_shape ds) idx cnt)) p a /\
             bnd (rev (mk_dims (d_shape ds) (d_chunk_shape ds) idx cnt)) (p + a)) ->
  (N.to_nat (prodN cnt) < fuel)%nat ->
  exists segs,
    chunk_slices m fuel ds e = (segs, SDone) /\
    map (fun '(c, k) => (Some c, k)) (flat_map seg_elems segs) =
      map (place ds) (slab idx cnt) /\
    Forall (fun '(c, a, b) => a < b /\ b <= prodN (d_chunk_shape ds) /\ In c (d_chunks ds)) segs.
Proof.
  intros Hfd He Hsel Hstep Hfuel.
  unfold chunk_slices. rewrite (chunk_slicer_ok m ds e idx cnt) by auto.
  pose proof Hsel as (L1 & L2 & HN & HB).
  rewrite slab_seq by (auto; congruence). rewrite map_map.
  destruct (d_shape ds) as [|s sh] eqn:Esh.
  - (* scalar *)
    destruct idx; [|discriminate]. destruct cnt; [|discriminate].
    destruct Hfd as [Hwm Hg Hsz]. pose proof (wm_rank _ Hwm) as HR.
    rewrite Esh in *. destruct (d_chunk_shape ds) as [|? ?] eqn:Ecs; [|discriminate].
    cbn in Hg. destruct (d_chunks ds) as [|c [|c' l]] eqn:Ec; try discriminate.
    cbn [prodN] in Hfuel. destruct fuel as [|[|fuel]]; try (change (N.to_nat 1) with 1%nat in Hfuel; lia).
    exists [(c, 0, 1)]. cbn [slicer_run]. unfold slicer_next, state_at.
    cbn [s_end s_offset s_coords s_indices s_counts prodN].
    unfold is_scalar. rewrite Esh, Ec. cbn [N.leb N.compare length Nat.eqb].
    rewrite dbg_ok by reflexivity. cbn [bind].
    rewrite add64_ok by reflexivity. cbn [bind]. rewrite N.add_0_l.
    cbn [s_end s_offset]. replace (1 <=? 1) with true by reflexivity.
    split; [reflexivity|]. split.
    + cbn. unfold place. rewrite Esh, Ecs, Ec. reflexivity.
    + constructor; [|constructor]. split; [lia|]. split; [cbn; lia|now left].
  - rewrite <- Esh in *.
    apply (run_by m ds idx cnt Hfd); auto; try lia.
    + congruence.
    + apply Hstep. congruence.
    + apply bnd_zero, Forall_rev, mk_dims_wf; auto.
      * apply Hfd.
      * apply Hfd.
Qed.

(** The chunk segments of a safe selection are the selected hyperslab. *)
Lemma chunk_slices_ok m ds e idx cnt fuel :
  full_dataset ds -> get_start_count e (d_shape ds) = Ok (idx, cnt) ->
  sel_in (d_shape ds) idx cnt ->
  sel_safe (d_shape ds) (d_chunk_shape ds) idx cnt = true ->
  (N.to_nat (prodN cnt) < fuel)%nat ->
  exists segs,
    chunk_slices m fuel ds e = (segs, SDone) /\
    map (fun '(c, k) => (Some c, k)) (flat_map seg_elems segs) =
      map (place ds) (slab idx cnt) /\
    Forall (fun '(c, a, b) => a < b /\ b <= prodN (d_chunk_shape ds) /\ In c (d_chunks ds)) segs.
Proof.
  intros Hfd He Hsel Hsafe Hfuel. apply chunk_slices_by; auto. intros Hsc. now apply safe_steps.
Qed.
