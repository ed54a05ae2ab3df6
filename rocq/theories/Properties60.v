(** * C84: with debug assertions every segment starts at an element of the selection
      that lies in the segment's chunk, whatever the index says. *)
From Coq Require Import List NArith Lia Bool.
From Verif Require Import Base Extent Chunk Dataset Slicer Spec SpecSerde SlicerProofs SliceProps Termination ApiLemmas Properties45.
Import ListNotations.
Open Scope N_scope.

(** ** Specification *)

(** The position of [coord] in a chunk at [off] whose elements are stored with the
    strides [sz]. *)
Fixpoint strided (coord off sz : list N) : N :=
  match coord, off, sz with
  | x :: coord', o :: off', z :: sz' => (x - o) * z + strided coord' off' sz'
  | _, _, _ => 0
  end.

(** ** Proof *)

Lemma contains_eq off : forall i cs, length i = length off -> length i = length cs ->
  contains_loop Debug off i cs = Ok Eq -> in_box i off cs.
Proof.
  induction off as [|o off IH]; intros [|x i] [|c cs] H1 H2 H; cbn [length] in *; try lia.
  - repeat split; auto; destruct j; discriminate.
  - cbn [contains_loop] in H. destruct (N.ltb_spec x o); [discriminate|].
    debind H. apply add64_debug in E as [-> _]. destruct (N.leb_spec (o + c) x); [discriminate|].
    apply IH in H as (_ & _ & H); try lia. split; [cbn; lia|]. split; [cbn; lia|].
    intros [|j] x' o' z'; cbn [nth_error]; [intros [= <-] [= <-] [= <-]; lia|apply H].
Qed.

Lemma start_debug coords : forall off sz acc r, chunk_start Debug acc coords off sz = Ok r ->
  r = acc + strided coords off sz.
Proof.
  induction coords as [|x coords IH]; intros [|o off] [|z sz] acc r H; cbn [chunk_start strided] in *;
    try (injection H as <-; lia).
  debind H. debind H. debind H. apply sub64_debug in E as [-> _]. apply mul64_debug in E0 as [-> _].
  apply add64_debug in E1 as [-> _]. apply IH in H. lia.
Qed.

Lemma add_lists_debug a : forall b r, length a = length b -> add_lists Debug a b = Ok r -> r = map2 N.add a b.
Proof.
  induction a as [|x a IH]; intros [|y b] r HL H; cbn [add_lists length map2] in *; try lia; try congruence.
  debind H. apply add64_debug in E as [-> _]. debind H. injection H as <-. f_equal. apply IH; auto.
Qed.

Lemma rem64_lt a b r : 0 < b -> rem64 a b = Ok r -> r < b.
Proof.
  intros Hb. unfold rem64. destruct (N.eqb_spec b 0); [lia|]. intros [= <-]. apply N.mod_lt. auto.
Qed.

Definition under (p : row * N) (o : N) : Prop := o < r_cnt (fst p).

Lemma adv_coords e rs : forall carry adv soff vis rest k adv' soff',
  Forall (fun p => 0 < r_cnt (fst p)) rs ->
  adv_loop Debug e rs carry adv soff = Ok (vis, rest, k, adv', soff') ->
  exists pre, rs = pre ++ rest /\ Forall2 under pre vis.
Proof.
  induction rs as [|[r o] rs IH]; intros carry adv soff vis rest k adv' soff' HP H; cbn [adv_loop] in H.
  - injection H as <- <- <- <- <-. exists []. split; auto.
  - inversion HP as [|? ? P0 P1]; subst. cbn [fst] in P0. debind H. debind H. destruct (_ && negb _).
    + debind H. debind H. debind H. apply bind_ok in H as ([[[[v1 r1] k1] a1'] f1] & E4 & H).
      injection H as <- <- <- <- <-. apply IH in E4 as (pre & -> & F); auto.
      exists ((r, o) :: pre). split; auto. constructor; auto. unfold under. cbn [fst]. eapply rem64_lt; eauto.
    + debind H. debind H. debind H. debind H. debind H. debind H. debind H. debind H. debind H. debind H.
      debind H. debind H. debind H.
      destruct (_ && _ && _).
      * apply bind_ok in H as ([[[[v1 r1] k1] a1'] f1] & EX & H). injection H as <- <- <- <- <-.
        apply IH in EX as (pre & -> & F); auto.
        exists ((r, o) :: pre). split; auto. constructor; auto. unfold under. cbn [fst]. eapply rem64_lt; eauto.
      * debind H. injection H as <- <- <- <- <-. exists [(r, o)]. split; auto. constructor; auto.
        unfold under. cbn [fst]. eapply rem64_lt; eauto.
Qed.

Lemma carry_coords rs : forall k os, Forall (fun p => snd p < r_cnt (fst p)) rs ->
  carry_loop Debug rs k = Ok os -> Forall2 under rs os.
Proof.
  induction rs as [|[r o] rs IH]; intros k os HP H; cbn [carry_loop] in H; [injection H as <-; constructor|].
  inversion HP as [|? ? P0 P1]; subst. cbn [fst snd] in P0. debind H. debind H. debind H.
  assert (R : a1 < r_cnt r) by (eapply rem64_lt; eauto; lia).
  destruct (_ =? 0).
  - injection H as <-. constructor; [exact R|]. clear - P1. induction P1 as [|[r o] rs P _ IHP]; cbn [map]; constructor; auto.
  - debind H. injection H as <-. constructor; [exact R|eauto].
Qed.

(** The states of one iteration. *)
Record going (ds : dataset) (idx cnt : list N) (st : slicer) : Prop := {
  g_idx : s_indices st = idx;
  g_cnt : s_counts st = cnt;
  g_len : length idx = length cnt;
  g_coords : Forall2 N.lt (s_coords st) cnt
}.

Lemma rows_under idx : forall cnt co c v s coords os,
  length idx = length cnt -> length co = length cnt -> length c = length cnt ->
  length v = length cnt -> length s = length cnt -> length coords = length cnt ->
  Forall2 under (combine (mk_rows idx cnt co c v s) coords) os -> Forall2 N.lt os cnt.
Proof.
  induction idx as [|i idx IH]; intros [|n cnt] [|o co] [|k c] [|w v] [|z s] [|x coords] os;
    cbn [length mk_rows combine]; intros; try lia.
  - inversion H5; subst. constructor.
  - inversion H5 as [|? ? ? ? U F]; subst. constructor; [exact U|]. eapply (IH cnt co c v s coords); eauto; lia.
Qed.
Lemma rows_in idx : forall cnt co c v s coords,
  Forall2 N.lt coords cnt ->
  Forall (fun p => snd p < r_cnt (fst p)) (combine (mk_rows idx cnt co c v s) coords).
Proof.
  induction idx as [|i idx IH]; intros [|n cnt] [|o co] [|k c] [|w v] [|z s] [|x coords] H;
    cbn [mk_rows combine]; try constructor; inversion H; subst; auto.
Qed.

Lemma coords_in_box idx : forall coords cnt, length idx = length cnt -> Forall2 N.lt coords cnt ->
  in_box (map2 N.add idx coords) idx cnt.
Proof.
  induction idx as [|i idx IH]; intros coords [|n cnt] HL H; cbn [length] in HL; try lia.
  - inversion H; subst. repeat split; auto; destruct j; discriminate.
  - inversion H as [|x ? ? ? U F]; subst. cbn [map2].
    assert (HL' : length idx = length cnt) by (clear - HL; lia).
    destruct (IH _ _ HL' F) as (A & B & C).
    split; [cbn; lia|]. split; [cbn; lia|].
    intros [|j] y o z; cbn [nth_error]; [intros [= <-] [= <-] [= <-]; lia|apply C].
Qed.

Definition starts_inside (ds : dataset) (idx cnt : list N) (c : chunk) (a b : N) : Prop :=
  In c (d_chunks ds) /\ a < b <= prodN (d_chunk_shape ds) /\
  exists x, in_box x idx cnt /\ in_box x (c_offset c) (d_chunk_shape ds) /\
    a = strided x (c_offset c) (d_chunk_dim_sz ds).

Lemma next_starts D ds idx cnt st c a b st' : typed_dataset D ds -> length cnt = D -> going ds idx cnt st ->
  slicer_next Debug ds st = Ok (Some ((c, a, b), st')) ->
  going ds idx cnt st' /\ starts_inside ds idx cnt c a b.
Proof.
  intros T HD [GI GC GL GO] H.
  destruct (next_debug_bounds _ _ _ _ _ _ H) as (B1 & B2 & B3).
  assert (TC : typed_chunk D c) by (eapply Forall_forall; [apply T|exact B3]).
  destruct TC as (_ & _ & TL & _).
  destruct (ty_shape _ _ T) as [TS _]. destruct (ty_chunk_shape _ _ T) as [TK _].
  destruct (ty_chunk_dim _ _ T) as [TV _].
  pose proof (DatasetProofs.Forall2_length' _ _ _ GO) as LO.
  unfold slicer_next in H. destruct (N.leb_spec (s_end st) (s_offset st)); [discriminate|].
  destruct (is_scalar ds) eqn:ES.
  - unfold is_scalar in ES. destruct (d_shape ds) eqn:Es; [|discriminate]. cbn [length] in TS.
    debind H. debind H. destruct (d_chunks ds) as [|c0 cs] eqn:EC; [discriminate|]. injection H as <- <- <- <-.
    destruct cnt as [|]; [|cbn in *; lia]. destruct idx; [|cbn in *; lia].
    destruct (d_chunk_shape ds) eqn:Ek; [|cbn in *; lia].
    split; [split; auto|]. split; [rewrite EC; left; auto|]. split; [rewrite Ek; cbn; lia|].
    exists []. destruct (c_offset c0); [|cbn in *; lia]. rewrite Ek.
    repeat split; auto; try (destruct j; discriminate).
  - debind H. debind H. debind H. debind H.
    apply bind_ok in H as ([[[[v1 r1] k1] adv] soff] & EA & H).
    debind H. debind H. debind H. debind H. injection H as -> -> <- <-.
    rewrite GI, GC in *.
    apply add_lists_debug in E; [|lia]. subst a0.
    assert (LX : length (map2 N.add idx (s_coords st)) = D) by (rewrite map2_length; lia).
    split.
    + split; auto. cbn [s_coords].
      assert (HR := rows_in idx cnt (c_offset c) (d_chunk_shape ds) (d_chunk_dim_sz ds) (d_shape ds) _ GO).
      apply adv_coords in EA as (pre & EP & F1).
      2:{ apply Forall_rev. eapply Forall_impl; [|exact HR]. cbn beta. intros; lia. }
      assert (HR' : Forall (fun p => snd p < r_cnt (fst p)) (pre ++ r1)) by (rewrite <- EP; now apply Forall_rev).
      apply Forall_app in HR' as [_ HR'].
      apply carry_coords in E3; [|exact HR'].
      pose proof (Forall2_app F1 E3) as F. rewrite <- EP in F. apply Forall2_rev_ in F.
      rewrite rev_involutive in F.
      eapply (rows_under idx cnt (c_offset c) (d_chunk_shape ds) (d_chunk_dim_sz ds) (d_shape ds) (s_coords st));
        [..|exact F]; lia.
    + split; auto. split.
      { split; auto. apply B2. unfold is_scalar in ES. destruct (d_shape ds); [discriminate|congruence]. }
      exists (map2 N.add idx (s_coords st)). split; [apply coords_in_box; auto; lia|]. split.
      * unfold dbg_res in E1. debind E1. debind E. unfold contains in E7. debind E7. debind E7.
        injection E as <-. destruct a1; cbn in E1; try discriminate.
        apply contains_eq; auto; lia.
      * apply start_debug in E2. lia.
Qed.

Lemma run_starts D ds idx cnt c a b : typed_dataset D ds -> length cnt = D ->
  forall fuel st, going ds idx cnt st ->
  In (c, a, b) (fst (slicer_run Debug fuel ds st)) -> starts_inside ds idx cnt c a b.
Proof.
  intros T HD. induction fuel as [|fuel IH]; intros st G; cbn [slicer_run]; [easy|].
  destruct (slicer_next Debug ds st) as [[[[[c1 a1] b1] st']|]| | | |] eqn:E; try easy.
  destruct (next_starts D ds idx cnt st c1 a1 b1 st' T HD G E) as [G' S].
  specialize (IH st' G'). destruct (slicer_run Debug fuel ds st') as [l s]. cbn [fst In] in *.
  intros [[= -> -> ->]|H]; auto.
Qed.

(** C84: any dataset value a program can hold, any selection, debug assertions on: every
    segment names a chunk of the dataset, is not empty and ends inside the chunk, and
    starts at an element that is in the selection and in that chunk. *)
Theorem C84_starts D ds e fuel c a b : typed_dataset D ds ->
  In (c, a, b) (fst (chunk_slices Debug fuel ds e)) ->
  exists idx cnt, get_start_count e (d_shape ds) = Ok (idx, cnt) /\ sel_in (d_shape ds) idx cnt /\
    In c (d_chunks ds) /\ a < b <= prodN (d_chunk_shape ds) /\
    exists x, in_box x idx cnt /\ in_box x (c_offset c) (d_chunk_shape ds) /\
      a = strided x (c_offset c) (d_chunk_dim_sz ds).
Proof.
  intros T H. unfold chunk_slices in H.
  destruct (chunk_slicer Debug ds e) as [st| | | |] eqn:E; try easy.
  unfold chunk_slicer in E. apply bind_ok in E as ([idx cnt] & E1 & E).
  assert (E1' : get_start_count e (d_shape ds) = Ok (idx, cnt)).
  { destruct (get_start_count e (d_shape ds)); cbn [unwrap] in E1; congruence. }
  debind E. destruct (a0 || existsb (fun c => c =? 0) cnt) eqn:Eo.
  - injection E as <-. destruct fuel; [easy|]. rewrite empty_run in H by lia. easy.
  - apply orb_false_iff in Eo as [-> Hz].
    exists idx, cnt. split; auto.
    assert (HP : Forall (fun n => 0 < n) cnt).
    { apply Forall_forall. intros x Hx. destruct (N.eq_dec x 0) as [->|]; [|lia].
      assert (existsb (fun c => c =? 0) cnt = true) by (apply existsb_exists; exists 0; auto). congruence. }
    unfold slicer_new in E. debind E. debind E. debind E. debind E. debind E. injection E as <-.
    unfold dbg, assert_ in E3, E4.
    destruct (Nat.eqb_spec (length idx) (length (d_shape ds))) as [L1|]; [|discriminate].
    destruct (Nat.eqb_spec (length cnt) (length (d_shape ds))) as [L2|]; [|discriminate].
    assert (L3 : length (d_shape ds) = D) by apply T.
    assert (G : going ds idx cnt (mkSlicer 0 (map (fun _ => 0) (d_shape ds)) idx cnt a0)).
    { split; cbn [s_indices s_counts s_coords]; auto; [lia|]. revert L2. generalize (d_shape ds). clear - HP.
      induction HP as [|n cnt P _ IH]; intros [|z s] L; cbn [map length] in *; try lia; constructor; auto. }
    split.
    + repeat split; auto. clear - E0 L1 L2.
      assert (L : length idx = length cnt) by congruence. clear L1. revert idx cnt L2 L E0.
      induction (d_shape ds) as [|s sh IH]; intros [|i idx] [|n cnt] L2 L H; cbn [length] in *; try lia;
        [intros [|] ? ? ?; discriminate|].
      cbn [any_oob] in H. debind H. apply add64_debug in E as [-> _].
      destruct (N.ltb_spec s (i + n)); [discriminate|].
      intros [|j] i' n' s'; cbn [nth_error]; [intros [= <-] [= <-] [= <-]; lia|].
      apply (IH idx cnt); auto; lia.
    + destruct (run_starts D ds idx cnt c a b T ltac:(lia) fuel _ G H) as (A & B & C). auto.
Qed.

(** Without debug assertions this is false.  A 2 x 4 dataset in two chunks of 2 x 2 whose
    entries are exchanged in the index: a program built with debug assertions stops, one
    built without takes the first element of the second chunk, which is (0, 2), for the
    element (1, 0). *)
Definition swapped : dataset :=
  mkDataset (UInt 1) 1 LE [mkChunk 40 4 [0; 2]; mkChunk 36 4 [0; 0]] [2; 4] [2; 2] [2; 2] [2; 1] [4; 1] [2; 1]
    false None.
Lemma swapped_typed : typed_dataset 2 swapped.
Proof. constructor; cbn; try easy; try lia; repeat constructor. Qed.

Theorem C84_release_refuted :
  typed_dataset 2 swapped /\
  (forall fuel, chunk_slices Debug (S fuel) swapped (Extents [SliceCount 1 1; SliceCount 0 1]) = ([], SPanic)) /\
  (forall fuel, chunk_slices Release (S (S fuel)) swapped (Extents [SliceCount 1 1; SliceCount 0 1])
     = ([(mkChunk 40 4 [0; 2], 0, 1)], SDone)) /\
  forall x, in_box x [1; 0] [1; 1] -> ~ in_box x [0; 2] [2; 2].
Proof.
  split; [apply swapped_typed|]. split; [intros; reflexivity|]. split; [intros; reflexivity|].
  intros x (L & _ & H) (_ & _ & H'). destruct x as [|x0 [|x1 [|]]]; try discriminate.
  specialize (H 1%nat x1 0 1 eq_refl eq_refl eq_refl). specialize (H' 1%nat x1 2 2 eq_refl eq_refl eq_refl). lia.
Qed.

(** The hypotheses of [C84_starts] on a dataset that is not well formed: the same index,
    a selection whose elements are where it says.  (The chunk of (0, 2) is found for (0, 0)
    and refused; nothing is produced for the whole dataset.)  And a dataset with a wrong
    chunk size in the index, which does produce segments. *)
Definition short_rows : dataset :=
  mkDataset (UInt 1) 1 LE [mkChunk 36 4 [0; 0]; mkChunk 40 4 [0; 2]] [2; 4] [2; 2] [2; 2] [2; 1] [9; 9] [3; 1]
    false None.
Example C84_case :
  typed_dataset 2 short_rows /\
  In (mkChunk 40 4 [0; 2], 1, 2) (fst (chunk_slices Debug 9 short_rows (Extents [SliceCount 0 1; SliceCount 3 1]))) /\
  (strided [0; 3] [0; 2] [3; 1] = 1) /\
  chunk_slices Debug 9 swapped All = ([], SPanic).
Proof.
  split; [constructor; cbn; try easy; try lia; repeat constructor|].
  split; [vm_compute; auto|]. split; reflexivity.
Qed.
