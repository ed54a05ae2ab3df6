(** * WrapProps: the selections of the class of the build mode are iterated rightly. *)
From Verif Require Import Base Spec Radix Safe Chunk Extent Dataset Slicer SpecApi
  ChunkProofs DatasetProofs ExtentProofs SlicerProofs SlicerMain SlicerTheorems IndexProofs ApiLemmas SliceProps
  SafeWrap SlicerWrap.

Lemma class_right m ds e idx cnt :
  full_dataset ds -> get_start_count e (d_shape ds) = Ok (idx, cnt) ->
  sel_in (d_shape ds) idx cnt ->
  sel_right m (d_shape ds) (d_chunk_shape ds) idx cnt = true ->
  reads_right m ds e idx cnt.
Proof.
  intros Hfd He Hsel Hsafe.
  destruct (chunk_slices_right m ds e idx cnt (S (N.to_nat (prodN cnt)))) as (segs & E1 & E2 & E3); auto.
  exists segs. split; [intros fuel Hf; eapply slices_more; eauto|]. split; auto.
  destruct (sel_in_fits _ _ _ _ Hsel (fd_sizes _ Hfd)) as [HF _].
  assert (HI : Forall (fun x => in_shape x (d_shape ds)) (slab idx cnt)).
  { apply Forall_forall. intros x Hx. eapply slab_in_shape; eauto. }
  clear - E2 HI HF Hfd. revert E2 HI. generalize (slab idx cnt), (flat_map seg_elems segs).
  intros l1 l2; revert l1; induction l2 as [|ck l2 IH]; intros [|x l1] E HI; cbn [map] in E; try discriminate;
    constructor; inversion HI; subst; injection E as E E'.
  - eapply place_holds; eauto.
  - apply IH; auto.
Qed.
