(** * Properties46: C12, when iteration ends in a release build.

    In a release build a subtraction of the slicer can wrap around, and there are selections
    for which iteration never ends (C12_release_refuted).  The theorems here settle which: only
    selections of one index in each of the two last dimensions, with chunks one element wide
    in the last ([single_end]), and only for datasets of four or more dimensions. *)
From Verif Require Import Base Spec SpecApi Radix Safe Chunk Extent Dataset Slicer
  SlicerProofs SlicerStep ChunkProofs DatasetProofs SlicerMain SlicerTheorems SlicerExact SlicerExact2 SlicerExact3 SlicerRelease SlicerRelease2
  ApiLemmas ExtentProofs SlicerEnds SlicerEnds3 Examples SliceProps Termination Properties2 Properties22.

(** Elements of a box as large as the selection and as a chunk in each dimension. *)
Definition reach (cnt cs : list N) : N := prodN (map2 N.max cnt cs).

Lemma pm_reach shape cs idx cnt : length idx = length shape -> length cnt = length shape -> length cs = length shape ->
  pm (rev (mk_dims shape cs idx cnt)) = reach cnt cs.
Proof.
  intros L1 L2 L3. unfold pm, reach. rewrite map_rev, prodN_rev. revert cs idx cnt L1 L2 L3.
  induction shape as [|s sh IH]; intros [|c cs] [|i idx] [|n cnt] L1 L2 L3; try discriminate; [reflexivity|].
  cbn [mk_dims map prodN map2 n_ c_]. f_equal. apply IH; auto.
Qed.

(** A selection is either inside the dataset or of the kind C13 is about. *)
Lemma sel_in_or ds e idx cnt : get_start_count e (d_shape ds) = Ok (idx, cnt) ->
  sel_in (d_shape ds) idx cnt \/
  (In 0 cnt \/ exists j i n s, nth_error idx j = Some i /\ nth_error cnt j = Some n /\
                              nth_error (d_shape ds) j = Some s /\ s < i + n).
Proof.
  intros He. destruct (get_start_count_cases e (d_shape ds)) as [E|(i' & c' & E & L1 & L2)]; rewrite He in E; [discriminate|].
  injection E as <- <-. destruct (in_dec N.eq_dec 0 cnt) as [H0|H0]; [auto|].
  assert (HPos : Forall (fun x => 0 < x) cnt).
  { apply Forall_forall. intros x Hx. destruct (N.eq_dec x 0) as [->|]; [contradiction|lia]. }
  assert (Hd : forall shape i c, length i = length shape -> length c = length shape ->
     (forall j a n s, nth_error i j = Some a -> nth_error c j = Some n -> nth_error shape j = Some s -> a + n <= s) \/
     exists j a n s, nth_error i j = Some a /\ nth_error c j = Some n /\ nth_error shape j = Some s /\ s < a + n).
  { clear. induction shape as [|s sh IH]; intros [|a i] [|n c] L1 L2; try discriminate.
    - left. intros [|j]; discriminate.
    - destruct (N.le_gt_cases (a + n) s) as [L|L].
      + destruct (IH i c) as [H|(j & x & y & z & H)]; auto.
        * left. intros [|j] x y z; cbn [nth_error]; [intros; congruence|apply H].
        * right. exists (S j), x, y, z. exact H.
      + right. exists 0%nat, a, n, s. auto. }
  destruct (Hd (d_shape ds) idx cnt L1 L2) as [H|H]; [left|right; right; exact H].
  repeat split; auto.
Qed.

(** ** Not [single_end]: iteration ends *)
Theorem C12_release_ends ds e idx cnt :
  full_dataset ds -> get_start_count e (d_shape ds) = Ok (idx, cnt) ->
  Forall2 (fun i n => i + n < W64) idx cnt ->
  prodN cnt + 4 * reach cnt (d_chunk_shape ds) < W64 ->
  single_end (d_chunk_shape ds) cnt = false ->
  exists segs, (forall fuel, (N.to_nat (prodN cnt) < fuel)%nat -> chunk_slices Release fuel ds e = (segs, SDone)) /\
    lenN segs <= prodN cnt /\
    Forall (fun '(c, a, b) => In c (d_chunks ds) /\ a < prodN (d_chunk_shape ds) /\ a < b) segs /\
    (sel_in (d_shape ds) idx cnt -> prodN cnt <= sumN (map (fun '(_, a, b) => b - a) segs)).
Proof.
  intros Hfd He HI HB Hse.
  destruct (sel_in_or ds e idx cnt He) as [Hsel|Hout].
  2:{ exists []. split; [intros fuel Hf; apply (oob_segments Release ds e idx cnt fuel He HI Hout); lia|].
      split; [apply N.le_0_l|]. split; [constructor|]. intros (_ & _ & Hp & Hb). exfalso.
      destruct Hout as [H0|(j & i & n & s & X1 & X2 & X3 & X4)].
      - rewrite Forall_forall in Hp. specialize (Hp 0 H0). lia.
      - specialize (Hb j i n s X1 X2 X3). lia. }
  destruct (list_eq_dec N.eq_dec (d_shape ds) []) as [E|E].
  { destruct (C15_bounds_partial Release ds e idx cnt Hfd He Hsel) as (segs & R1 & R2 & R3).
    { unfold sel_safe. rewrite E. reflexivity. }
    assert (Hlen : forall l : list segment, Forall (fun '(c, a, b) => a < b /\ b <= prodN (d_chunk_shape ds) /\ In c (d_chunks ds)) l ->
       lenN l <= sumN (map (fun '(_, a, b) => b - a) l)).
    { induction 1 as [|[[c a] b] l (X & _) _ IH]; [reflexivity|]. unfold lenN in *. cbn [length map sumN]. lia. }
    exists segs. split; [exact R1|]. split; [|split].
    - rewrite <- R3. auto.
    - eapply Forall_impl; [|exact R2]. intros [[c a] b] (X & Y & Z). split; [exact Z|]. split; [lia|exact X].
    - intros _. rewrite R3. lia. }
  pose proof Hsel as (L1 & L2 & _ & _).
  pose proof (wm_rank _ (fd_made _ Hfd)) as HR.
  pose proof (x_wf ds idx cnt Hfd Hsel) as HD. pose proof (x_wfr ds idx cnt Hfd Hsel) as HF. pose proof (x_pn ds idx cnt Hfd Hsel) as Hpn.
  assert (Hap : apart (rev (mk_dims (d_shape ds) (d_chunk_shape ds) idx cnt))).
  { apply apart_of. destruct (x_proj ds idx cnt Hfd Hsel) as (_ & -> & _ & ->). exact Hse. }
  assert (HQ : pm (rev (mk_dims (d_shape ds) (d_chunk_shape ds) idx cnt)) <= reach cnt (d_chunk_shape ds)).
  { rewrite pm_reach by congruence. lia. }
  destruct (run_ends ds idx cnt Hfd E Hsel _ HQ HB HD HF Hpn Hap (N.to_nat (prodN cnt)) 0 0) as (segs & R1 & R2 & R3 & R4 & _ & _).
  { rewrite N.sub_0_r. lia. } { apply pn_pos, HF. } { right. apply calm_zero, HF. }
  exists segs. split; [|split; [|split]].
  - intros fuel Hf. unfold chunk_slices. rewrite (chunk_slicer_ok Release ds e idx cnt) by auto. apply R1. exact Hf.
  - unfold lenN. lia.
  - eapply Forall_impl; [|exact R3]. intros [[c a] b]. unfold seg_fair. tauto.
  - intros _. exact R4.
Qed.
Print Assumptions C12_release_ends.

(** ** C15: the segments are as they should be exactly when a debug build does not panic

    Outside [single_end] a release build iterates [segs] to the end; a debug build iterates the
    same if each segment ends inside its chunk and the lengths add up to the size of the
    selection, and otherwise panics on the way. *)
Theorem C15_release_exact ds e idx cnt :
  full_dataset ds -> get_start_count e (d_shape ds) = Ok (idx, cnt) -> sel_in (d_shape ds) idx cnt ->
  prodN cnt + 4 * reach cnt (d_chunk_shape ds) < W64 ->
  single_end (d_chunk_shape ds) cnt = false ->
  exists segs,
    let sound := Forall (fun '(_, a, b) => a < b /\ b <= prodN (d_chunk_shape ds)) segs /\
                 sumN (map (fun '(_, a, b) => b - a) segs) = prodN cnt in
    (forall fuel, (N.to_nat (prodN cnt) < fuel)%nat -> chunk_slices Release fuel ds e = (segs, SDone)) /\
    Forall (fun '(c, a, b) => In c (d_chunks ds) /\ a < prodN (d_chunk_shape ds) /\ a < b /\
              b <= a + 3 * reach cnt (d_chunk_shape ds)) segs /\
    (forall l sg l', segs = l ++ sg :: l' -> sumN (map (fun '(_, a, b) => b - a) l) < prodN cnt) /\
    prodN cnt <= sumN (map (fun '(_, a, b) => b - a) segs) /\
    (sound -> forall fuel, (N.to_nat (prodN cnt) < fuel)%nat -> chunk_slices Debug fuel ds e = (segs, SDone)) /\
    (~ sound -> forall fuel, (N.to_nat (prodN cnt) < fuel)%nat ->
       exists l l', segs = l ++ l' /\ chunk_slices Debug fuel ds e = (l, SPanic)).
Proof.
  intros Hfd He Hsel HB Hse.
  destruct (list_eq_dec N.eq_dec (d_shape ds) []) as [E|E].
  { assert (Hs : sel_safe (d_shape ds) (d_chunk_shape ds) idx cnt = true) by (unfold sel_safe; now rewrite E).
    destruct (C15_bounds_partial Release ds e idx cnt Hfd He Hsel Hs) as (segs & R1 & R2 & R3).
    destruct (C15_bounds_partial Debug ds e idx cnt Hfd He Hsel Hs) as (segs' & R1' & _ & _).
    assert (Eq : segs' = segs).
    { specialize (R1' _ (Nat.lt_succ_diag_r _)). apply slices_refine in R1'.
      rewrite (R1 _ (Nat.lt_succ_diag_r _)) in R1'. congruence. }
    subst segs'. exists segs. cbv zeta. split; [exact R1|].
    split. { eapply Forall_impl; [|exact R2]. intros [[c a] b] (X & Y & Z). split; [exact Z|]. split; [lia|]. split; [exact X|].
      pose proof (wm_rank _ (fd_made _ Hfd)) as HR. rewrite E in HR. destruct (d_chunk_shape ds); [|discriminate]. cbn [prodN] in Y. 
      pose proof Hsel as (_ & L2 & _ & _). rewrite E in L2. destruct cnt; [|discriminate]. unfold reach. cbn [map2 prodN]. lia. }
    split. { intros l sg l' X. rewrite <- R3, X, map_app, sumN_app. cbn [map sumN]. rewrite X in R2. apply Forall_app in R2 as [_ R2].
      inversion R2 as [|[[c a] b] ? (Y & _) _]; subst. lia. }
    split; [rewrite R3; lia|].
    split; [intros _; exact R1'|].
    intros HN. exfalso. apply HN. split; [|exact R3]. eapply Forall_impl; [|exact R2]. intros [[c a] b]. tauto. }
  pose proof Hsel as (L1 & L2 & _ & _).
  pose proof (wm_rank _ (fd_made _ Hfd)) as HR.
  pose proof (x_wf ds idx cnt Hfd Hsel) as HD. pose proof (x_wfr ds idx cnt Hfd Hsel) as HF. pose proof (x_pn ds idx cnt Hfd Hsel) as Hpn.
  assert (Hap : apart (rev (mk_dims (d_shape ds) (d_chunk_shape ds) idx cnt))).
  { apply apart_of. destruct (x_proj ds idx cnt Hfd Hsel) as (_ & -> & _ & ->). exact Hse. }
  assert (HQ : pm (rev (mk_dims (d_shape ds) (d_chunk_shape ds) idx cnt)) <= reach cnt (d_chunk_shape ds)).
  { rewrite pm_reach by congruence. lia. }
  destruct (run_ends ds idx cnt Hfd E Hsel _ HQ HB HD HF Hpn Hap (N.to_nat (prodN cnt)) 0 0) as (segs & R1 & R2 & R3 & R4 & R6 & R5).
  { rewrite N.sub_0_r. lia. } { apply pn_pos, HF. } { right. apply calm_zero, HF. }
  specialize (R5 ltac:(lia)). rewrite N.add_0_l in R4, R5.
  assert (Eb : forall P, forallb (fun '(_, _, b) => b <=? P) segs = true <-> Forall (fun '(_, _, b) => b <= P) segs).
  { intros P. clear. induction segs as [|[[c a] b] l IH]; cbn [forallb]; [split; auto|].
    rewrite andb_true_iff, N.leb_le, IH. split; [intros [X Y]; constructor; auto|intros H; inversion H; auto]. }
  exists segs. cbv zeta. unfold chunk_slices.
  setoid_rewrite (chunk_slicer_ok Release ds e idx cnt Hfd He Hsel). setoid_rewrite (chunk_slicer_ok Debug ds e idx cnt Hfd He Hsel).
  split; [exact R1|]. split; [exact R3|]. split; [exact R6|]. split; [exact R4|]. split.
  - intros [HS HT] fuel Hf. destruct (R5 fuel Hf) as (l & l' & X1 & X2 & X3).
    assert (HP : Forall (fun '(_, _, b) => b <= prodN (d_chunk_shape ds)) segs).
    { eapply Forall_impl; [|exact HS]. intros [[c a] b]. tauto. }
    rewrite (X3 HT HP), app_nil_r in X1. subst l.
    unfold state_at. rewrite X2. rewrite (proj2 (Eb _) HP). cbn [andb]. replace (_ =? _) with true by (symmetry; apply N.eqb_eq; exact HT). reflexivity.
  - intros HN fuel Hf. destruct (R5 fuel Hf) as (l & l' & X1 & X2 & _). exists l, l'. split; [exact X1|].
    unfold state_at. rewrite X2. destruct (_ && _) eqn:C; [|reflexivity]. exfalso. apply HN.
    apply andb_true_iff in C as [C1 C2]. apply N.eqb_eq in C2. split; [|exact C2].
    apply (proj1 (Eb _)) in C1. clear - R3 C1. induction R3 as [|[[c a] b] l (_ & _ & X & _) _ IH]; [constructor|]. inversion C1; subst. constructor; auto.
Qed.
Print Assumptions C15_release_exact.
(** A dataset on each side: the last column of 4 x 11 in 2 x 10 chunks, of which a release build
    makes 11 elements, and part of a plane. *)
Example C15_release_case :
  (full_dataset col_ds /\ get_start_count col_sel (d_shape col_ds) = Ok ([0; 10], [4; 1]) /\ sel_in (d_shape col_ds) [0; 10] [4; 1] /\
   prodN [4; 1] + 4 * reach [4; 1] (d_chunk_shape col_ds) < W64 /\ single_end (d_chunk_shape col_ds) [4; 1] = false /\
   snd (chunk_slices Debug 5 col_ds col_sel) = SPanic /\
   sumN (map (fun '(_, a, b) => b - a) (fst (chunk_slices Release 5 col_ds col_sel))) = 11) /\
  (full_dataset ex_ds /\ get_start_count (Extents [SliceEnd 1 4; Slice 2]) (d_shape ex_ds) = Ok ([1; 2], [3; 4]) /\ sel_in (d_shape ex_ds) [1; 2] [3; 4] /\
   prodN [3; 4] + 4 * reach [3; 4] (d_chunk_shape ex_ds) < W64 /\ single_end (d_chunk_shape ex_ds) [3; 4] = false /\
   snd (chunk_slices Debug 13 ex_ds (Extents [SliceEnd 1 4; Slice 2])) = SDone).
Proof.
  split.
  - split; [exact col_full|]. split; [reflexivity|]. split; [sel_in_tac|]. repeat split; vm_compute; reflexivity.
  - split; [exact ex_full|]. split; [reflexivity|]. split; [exact ex_sel|]. repeat split; vm_compute; reflexivity.
Qed.

(** ** At most three dimensions: iteration ends *)
Lemma single_end_dims ds idx cnt : full_dataset ds -> sel_in (d_shape ds) idx cnt ->
  single_end (d_chunk_shape ds) cnt = true ->
  exists r0 r1 rest, rev (mk_dims (d_shape ds) (d_chunk_shape ds) idx cnt) = r0 :: r1 :: rest /\ c_ r0 = 1 /\ n_ r0 = 1 /\ n_ r1 = 1.
Proof.
  intros Hfd Hsel Hse. destruct (x_proj ds idx cnt Hfd Hsel) as (_ & E2 & _ & E4).
  assert (Hse' : single_end (map c_ (mk_dims (d_shape ds) (d_chunk_shape ds) idx cnt)) (map n_ (mk_dims (d_shape ds) (d_chunk_shape ds) idx cnt)) = true) by now rewrite E2, E4.
  clear - Hse'. rename Hse' into Hse. unfold single_end in Hse. rewrite <- !map_rev in Hse.
  destruct (rev (mk_dims (d_shape ds) (d_chunk_shape ds) idx cnt)) as [|r0 [|r1 rest]]; cbn [map] in Hse; try discriminate.
  exists r0, r1, rest. split; [reflexivity|]. apply andb_true_iff in Hse as [Hse H3]. apply andb_true_iff in Hse as [H1 H2].
  apply N.eqb_eq in H1, H2, H3. auto.
Qed.

Theorem C12_release_rank3 ds e idx cnt :
  full_dataset ds -> (length (d_shape ds) <= 3)%nat ->
  get_start_count e (d_shape ds) = Ok (idx, cnt) ->
  Forall2 (fun i n => i + n < W64) idx cnt ->
  prodN cnt + 4 * reach cnt (d_chunk_shape ds) < W64 ->
  exists segs, (forall fuel, (N.to_nat (prodN cnt) < fuel)%nat -> chunk_slices Release fuel ds e = (segs, SDone)) /\
    lenN segs <= prodN cnt.
Proof.
  intros Hfd Hrk He HI HB.
  destruct (single_end (d_chunk_shape ds) cnt) eqn:Hse.
  2:{ destruct (C12_release_ends ds e idx cnt) as (segs & R1 & R2 & _); eauto. }
  destruct (sel_in_or ds e idx cnt He) as [Hsel|Hout].
  2:{ exists []. split; [|apply N.le_0_l]. intros fuel Hf. apply (oob_segments Release ds e idx cnt fuel He HI Hout). lia. }
  destruct (single_end_dims ds idx cnt Hfd Hsel Hse) as (r0 & r1 & rest & Er & Ec0 & En0 & En1).
  pose proof (x_wf ds idx cnt Hfd Hsel) as HD. pose proof (x_wfr ds idx cnt Hfd Hsel) as HF. pose proof (x_pn ds idx cnt Hfd Hsel) as Hpn.
  pose proof Hsel as (L1 & L2 & _ & _). pose proof (wm_rank _ (fd_made _ Hfd)) as HR.
  assert (HQ : pm (rev (mk_dims (d_shape ds) (d_chunk_shape ds) idx cnt)) <= reach cnt (d_chunk_shape ds)).
  { rewrite pm_reach by congruence. lia. }
  assert (Hlen : length (rev (mk_dims (d_shape ds) (d_chunk_shape ds) idx cnt)) = length (d_shape ds)).
  { rewrite rev_length. rewrite <- (map_length s_). now rewrite (proj1 (x_proj ds idx cnt Hfd Hsel)). }
  assert (Hne : d_shape ds <> []).
  { intros X. rewrite X in Hlen. cbn [length] in Hlen. rewrite <- X, Er in Hlen. discriminate. }
  unfold chunk_slices. setoid_rewrite (chunk_slicer_ok Release ds e idx cnt Hfd He Hsel).
  destruct rest as [|r2 [|r3 rest]].
  - (* two dimensions: one element *)
    assert (Ee : prodN cnt = 1).
    { rewrite <- Hpn, Er. unfold pn. cbn [map prodN]. rewrite En0, En1. reflexivity. }
    rewrite Er in HF. inversion HF as [|? ? D0 HF1]; subst. inversion HF1 as [|? ? D1 _]; subst.
    pose proof D0 as (_ & _ & Hs0 & _).
    assert (Hd : N.min (n_ r0) ((i_ r0 + 0 mod n_ r0) / c_ r0 * c_ r0 + N.min (c_ r0) (s_ r0 - (i_ r0 + 0 mod n_ r0) / c_ r0 * c_ r0) - i_ r0) - (0 mod n_ r0 + 0) mod n_ r0 = 1).
    { rewrite Ec0, En0, !N.mod_1_r, N.add_0_r, N.div_1_r, N.mul_1_r. clear - Hs0 En0. lia. }
    destruct (main_step Release 1 1 r0 [r1] 0 0 0 0 D0) as (_ & _ & M); try lia.
    rewrite Hd in M. change (0 + 1 * 1) with 1 in M. change (1 <? 1) with false in M. rewrite andb_false_r in M. cbn [dbg bind] in M.
    set (k := (0 mod n_ r0 + 0) / n_ r0 + _) in M.
    destruct (next_done ds idx cnt Hfd Hne Hsel _ HQ HB HD (x_wfr ds idx cnt Hfd Hsel) Hpn 0 0
      _ _ k _ _ (dig (map n_ [r1]) (0 / n_ r0 + k)) ltac:(lia) ltac:(rewrite Er, Ee; exact M)) as [sg C3].
    { apply carry_loop_dig; [auto|]. unfold k. rewrite En0, !N.div_1_r. rewrite !N.mod_1_r. match goal with |- context [N.min 1 ?x] => generalize x end. intros x. unfold W64. lia. }
    exists [sg]. split; [|rewrite Ee; reflexivity]. rewrite Ee in *. intros [|[|fuel]] Hf; [lia|change (N.to_nat 1) with 1%nat in Hf; lia|].
    unfold state_at. cbn [slicer_run]. rewrite Ee. rewrite C3. unfold slicer_next. cbn [s_end s_offset]. reflexivity.
  - destruct (column_run ds idx cnt Hfd Hne Hsel _ HQ HB HD HF Hpn r0 r1 r2 Er Ec0 En0 En1 (N.to_nat (prodN cnt)) 0 0) as (segs & R1 & R2).
    { rewrite <- Hpn, Er. unfold pn. cbn [map prodN]. rewrite En0, En1. lia. }
    { right. rewrite Er in HF. inversion HF as [|? ? _ HF1]; subst. inversion HF1 as [|? ? _ HF2]; subst. inversion HF2 as [|? ? (Hn & _) _]; subst.
      split; [exact Hn|]. unfold along. destruct (_ && _); [auto|lia]. }
    exists segs. split; [exact R1|]. unfold lenN. lia.
  - exfalso. rewrite Er in Hlen. cbn [length] in Hlen. lia.
Qed.
Print Assumptions C12_release_rank3.

(** A read that goes wrong, but ends. *)
Example C12_release_ends_case :
  full_dataset bad_ds /\ get_start_count All (d_shape bad_ds) = Ok ([0; 0; 0], [4; 3; 5]) /\
  Forall2 (fun i n => i + n < W64) [0; 0; 0] [4; 3; 5] /\
  prodN [4; 3; 5] + 4 * reach [4; 3; 5] (d_chunk_shape bad_ds) < W64 /\
  single_end (d_chunk_shape bad_ds) [4; 3; 5] = false /\
  sel_safe (d_shape bad_ds) (d_chunk_shape bad_ds) [0; 0; 0] [4; 3; 5] = false /\
  snd (chunk_slices Release 61 bad_ds All) = SDone.
Proof. split; [exact bad_full|]. split; [reflexivity|]. split; [repeat constructor|]. vm_compute. auto 8. Qed.

(** Three dimensions with [single_end]: the subtraction wraps (the debug build panics). *)
Example C12_release_rank3_case :
  full_dataset thin_ds /\ (length (d_shape thin_ds) <= 3)%nat /\
  get_start_count thin_sel (d_shape thin_ds) = Ok ([1; 0; 0], [3; 1; 1]) /\
  Forall2 (fun i n => i + n < W64) [1; 0; 0] [3; 1; 1] /\
  prodN [3; 1; 1] + 4 * reach [3; 1; 1] (d_chunk_shape thin_ds) < W64 /\
  single_end (d_chunk_shape thin_ds) [3; 1; 1] = true /\
  snd (chunk_slices Debug 4 thin_ds thin_sel) = SPanic.
Proof. split; [exact thin_full|]. split; [repeat constructor|]. split; [reflexivity|]. split; [repeat constructor|]. vm_compute. auto. Qed.

(** Both conditions are needed: four dimensions with [single_end] (C12_release_refuted). *)
Example C12_release_sharp :
  length (d_shape loop_ds) = 4%nat /\ get_start_count All (d_shape loop_ds) = Ok ([0; 0; 0; 0], [2; 5; 1; 1]) /\
  single_end (d_chunk_shape loop_ds) [2; 5; 1; 1] = true /\
  prodN [2; 5; 1; 1] + 4 * reach [2; 5; 1; 1] (d_chunk_shape loop_ds) < W64 /\
  forall fuel, snd (chunk_slices Release fuel loop_ds All) = SFuel.
Proof. repeat split; try reflexivity. intros fuel. apply C12_release_refuted. Qed.
