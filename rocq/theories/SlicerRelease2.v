(** * SlicerRelease2: which selections a release build iterates rightly. *)
From Verif Require Import Base Spec SpecApi Radix Safe Chunk Extent Dataset Slicer
  SlicerProofs SlicerStep ChunkProofs DatasetProofs SlicerMain SlicerTheorems SlicerExact SlicerExact2 SlicerExact3 SlicerRelease.

Local Arguments N.add : simpl never.
Local Arguments N.sub : simpl never.
Local Arguments N.mul : simpl never.
Local Arguments N.div : simpl never.
Local Arguments N.modulo : simpl never.
Local Arguments N.min : simpl never.
Local Arguments N.max : simpl never.

(** The two last dimensions are selected at one index each, and chunks are one element
    wide in the last. *)
Definition single_end (cs cnt : list N) : bool :=
  match rev cs, rev cnt with
  | c0 :: _, n0 :: n1 :: _ => (c0 =? 1) && (n0 =? 1) && (n1 =? 1)
  | _, _ => false
  end.

Lemma apart_of D : single_end (map c_ D) (map n_ D) = false -> apart (rev D).
Proof.
  unfold single_end. rewrite <- !map_rev. destruct (rev D) as [|r0 [|r1 l]]; cbn [map apart]; auto.
  intros H (E1 & E2 & E3). rewrite E1, E2, E3 in H. discriminate.
Qed.

Section Rel.
Context (ds : dataset) (idx cnt : list N).
Hypothesis Hfd : full_dataset ds.
Hypothesis Hsc : d_shape ds <> [].
Hypothesis Hsel : sel_in (d_shape ds) idx cnt.
Let D := mk_dims (d_shape ds) (d_chunk_shape ds) idx cnt.
Let rs := rev D.
Let e := prodN cnt.
Hypothesis HD : Forall dwf D.
Hypothesis HF : Forall dwf rs.
Hypothesis Hpn : pn rs = e.

Lemma r_pc : pc rs = prodN (d_chunk_shape ds).
Proof. unfold rs, D. rewrite pc_rev. now rewrite (proj1 (proj2 (x_proj ds idx cnt Hfd Hsel))). Qed.

Lemma r_cpos p : cpos rs p < prodN (d_chunk_shape ds).
Proof.
  destruct (x_proj ds idx cnt Hfd Hsel) as (_ & E2 & _).
  fold D in E2. unfold rs. rewrite cpos_spec by exact HD. rewrite E2. apply pos_lt.
  - apply (wm_pos _ (fd_made _ Hfd)).
  - apply (x_len ds idx cnt Hfd Hsel).
Qed.

(** ** One call of [next], in either build mode *)
Lemma next_none m off p :
  off < e -> slicer_next m ds (mkSlicer off (rev (dig (rev cnt) p)) idx cnt e) <> Ok None.
Proof.
  intros Ho En. unfold slicer_next in En. cbn [s_end s_offset s_coords s_indices s_counts] in En.
  replace (e <=? off) with false in En by (symmetry; apply N.leb_gt; lia).
  replace (is_scalar ds) with false in En.
  2:{ unfold is_scalar. destruct (d_shape ds); [congruence|reflexivity]. }
  destruct (add_lists _ _ _); try discriminate. cbn [bind] in En.
  destruct (chunk_at_coord _ _ _); try discriminate. cbn [bind] in En.
  destruct (dbg_res _ _); try discriminate. cbn [bind] in En.
  destruct (chunk_start _ _ _ _ _); try discriminate. cbn [bind] in En.
  destruct (adv_loop _ _ _ _ _ _) as [[[[[? ?] ?] ?] ?]| | | |]; try discriminate. cbn [bind] in En.
  destruct (carry_loop _ _ _); try discriminate. cbn [bind] in En.
  destruct (dbg _ _); try discriminate. cbn [bind] in En.
  destruct (add64 _ _ _); try discriminate. cbn [bind] in En.
  destruct (dbg_res _ _); discriminate.
Qed.

Lemma next_any m off p c a b st' :
  off < e ->
  slicer_next m ds (mkSlicer off (rev (dig (rev cnt) p)) idx cnt e) = Ok (Some ((c, a, b), st')) ->
  exists A vis rest k os F,
    (c_offset c = chunk_corner (d_chunk_shape ds) (coord_of D p) /\ In c (d_chunks ds)) /\
    a = cpos rs p /\ add64 m a A = Ok b /\
    adv_loop m e (mkrs 1 rs p) 0 0 off = Ok (vis, rest, k, A, F) /\
    carry_loop m rest k = Ok os /\
    st' = mkSlicer F (rev (vis ++ os)) idx cnt e.
Proof.
  intros Ho H. pose proof (x_proj ds idx cnt Hfd Hsel) as (E1 & E2 & E3 & E4).
  fold D in E1, E2, E3, E4.
  destruct (sel_in_fits _ _ _ _ Hsel (fd_sizes _ Hfd)) as [Hfit Hcle].
  pose proof (fd_made _ Hfd) as Hwm. pose proof (wm_pos _ Hwm) as HP. pose proof (wm_cdim _ Hwm) as Hcd.
  destruct (fd_sizes _ Hfd) as (Hs1 & Hs2 & Hs3).
  destruct (chunk_at_coord_ok m ds (coord_of D p) Hwm Hfit (fd_grid _ Hfd)) as (ch & C1 & C2 & C3).
  { rewrite <- E1. now apply coord_of_in_shape. }
  unfold slicer_next in H. cbn [s_end s_offset s_coords s_indices s_counts] in H.
  replace (e <=? off) with false in H by (symmetry; apply N.leb_gt; lia).
  replace (is_scalar ds) with false in H.
  2:{ unfold is_scalar. destruct (d_shape ds); [congruence|reflexivity]. }
  rewrite <- E3 in H at 1. rewrite <- E4 in H at 1. rewrite add_lists_ok in H by exact HD. cbn [bind] in H.
  rewrite C2 in H. cbn [bind] in H.
  destruct (dbg_res m _) as [[]| | | |]; try discriminate. cbn [bind] in H.
  rewrite C3, Hcd in H.
  pose proof (pos_lt (d_chunk_shape ds) (coord_of D p) HP (x_len ds idx cnt Hfd Hsel p)) as Hpl.
  rewrite chunk_start_ok in H by (auto; try apply (x_len ds idx cnt Hfd Hsel); lia). cbn [bind] in H. rewrite N.add_0_l in H.
  pose proof (rows_mkrs D p HD) as Hrows. rewrite E1, E2, E3, E4 in Hrows.
  rewrite Hrows in H. fold rs in H.
  destruct (adv_loop m e (mkrs 1 rs p) 0 0 off) as [[[[[vis rest] k] A] F]| | | |] eqn:EA; try discriminate.
  cbn [bind] in H.
  destruct (carry_loop m rest k) as [os| | | |] eqn:EC; try discriminate. cbn [bind] in H.
  destruct (dbg m (0 <? A)) as [[]| | | |]; try discriminate. cbn [bind] in H.
  destruct (add64 m _ A) as [cend| | | |] eqn:EB; try discriminate.
  cbn [bind] in H. destruct (dbg_res m _) as [[]| | | |]; try discriminate. cbn [bind] in H.
  injection H as <- <- <- <-.
  exists A, vis, rest, k, os, F. split; [split; [auto|eapply nth_error_In; exact C1]|].
  split. { unfold rs. rewrite cpos_spec by exact HD. now rewrite E2. }
  repeat split; auto.
Qed.

(** A segment that is right is a run. *)
Lemma first_same p c a A l :
  p <= e -> c_offset c = chunk_corner (d_chunk_shape ds) (coord_of D p) -> a = cpos rs p ->
  Forall2 (holds ds) (map (slab_coord idx cnt) (seqN p (N.to_nat (e - p)))) (seg_elems (c, a, a + A) ++ l) ->
  p + A <= e /\ sameplace rs p A /\
  Forall2 (holds ds) (map (slab_coord idx cnt) (seqN (p + A) (N.to_nat (e - (p + A))))) l.
Proof.
  intros Hp C Ea HA.
  assert (Elen : N.to_nat A = length (seg_elems (c, a, a + A))).
  { unfold seg_elems. rewrite map_length, seqN_length. f_equal. lia. }
  pose proof (Forall2_length' _ _ _ HA) as HL. rewrite map_length, seqN_length, app_length, <- Elen in HL.
  assert (HpA : p + A <= e) by lia.
  replace (N.to_nat (e - p)) with (N.to_nat A + N.to_nat (e - (p + A)))%nat in HA by lia.
  rewrite map_seqN_split in HA. replace (p + N.of_nat (N.to_nat A)) with (p + A) in HA by lia.
  apply Forall2_app_same in HA as [HF1 HF2]; [|rewrite map_length, seqN_length; auto].
  split; [auto|]. split; [|auto]. intros j Hj.
  assert (Hh : holds ds (coord_of D (p + j)) (c, a + j)).
  { rewrite <- (x_coord ds idx cnt Hfd Hsel).
    assert (N1 : nth_error (map (slab_coord idx cnt) (seqN p (N.to_nat A))) (N.to_nat j)
                 = Some (slab_coord idx cnt (p + j))).
    { apply map_nth_error. rewrite nth_error_seqN by lia. f_equal. lia. }
    assert (N2 : nth_error (seg_elems (c, a, a + A)) (N.to_nat j) = Some (c, a + j)).
    { unfold seg_elems. rewrite (map_nth_error _ _ _ (d := a + j)); auto.
      rewrite nth_error_seqN by lia. f_equal. lia. }
    clear - HF1 N1 N2. revert N1 N2. generalize (N.to_nat j).
    induction HF1; intros [|n]; cbn [nth_error]; try discriminate; eauto. now intros [= <-] [= <-]. }
  destruct (x_holds ds idx cnt Hfd Hsel (p + j) p c (a + j) C Hh) as [Y1 Y2]. split; auto.
  fold D in Y2. fold rs in Y2. rewrite <- Y2. lia.
Qed.

(** ** The whole iteration *)
Hypothesis Hsz : 2 * e + 3 * prodN (d_chunk_shape ds) < W64.
Hypothesis Hap : apart rs.

Section Judge.
(** What is known of the segments from place [p] on: enough to tell that the first of
    them is a run of the selection, and the same of the others. *)
Context (P : N -> list segment -> Prop).
Hypothesis HP : forall p c a A l, p < e -> In c (d_chunks ds) ->
  c_offset c = chunk_corner (d_chunk_shape ds) (coord_of D p) -> a = cpos rs p ->
  a < prodN (d_chunk_shape ds) -> a + A <= e + 3 * prodN (d_chunk_shape ds) -> P p ((c, a, a + A) :: l) ->
  p + A <= e /\ sameplace rs p A /\ P (p + A) l.

Lemma run_judged fuel : forall p segs,
  bnd rs p -> p <= e ->
  slicer_run Release fuel ds (state_at idx cnt p) = (segs, SDone) ->
  P p segs ->
  (forall q, bnd rs q -> q < p -> exists a, stepw e 0 1 rs q a) ->
  forall q, bnd rs q -> q < e -> exists a, stepw e 0 1 rs q a.
Proof.
  pose proof (x_eW ds idx cnt Hfd Hsel) as HeW. fold e in HeW. pose proof r_pc as Hpc.
  induction fuel as [|fuel IH]; intros p segs Hb Hp Hrun HA HQ q Hq Hqe; cbn [slicer_run] in Hrun; [discriminate|].
  destruct (N.eq_dec p e) as [Epe|Epe]; [apply HQ; auto; lia|].
  assert (Hpe : p < e) by lia.
  assert (En : slicer_next Release ds (state_at idx cnt p) <> Ok None) by (apply next_none; auto).
  destruct (slicer_next Release ds (state_at idx cnt p)) as [[[[[c a] b] st']|]| | | |] eqn:Ex; try discriminate; [|congruence].
  clear En. destruct (slicer_run Release fuel ds st') as [segs' s] eqn:Er. injection Hrun as <- ->.
  destruct (next_any Release p p c a b st' Hpe Ex) as (A & vis & rest & k & os & F & [C C'] & Ea & Eb & Hadv & Hcar & Est).
  destruct (xfer e rs 0 1 p) as (A' & X1 & X2 & X3); auto.
  all: try (rewrite ?Hpn, ?Hpc; lia).
  { intros _. split; [reflexivity|]. split; [|exact Hap]. unfold rs, D.
    destruct Hsel as (L1 & L2 & _). pose proof (wm_rank _ (fd_made _ Hfd)) as L3.
    clear - L1 L2 L3 Hsc. destruct (d_shape ds) as [|z0 zz]; [congruence|].
    destruct (d_chunk_shape ds) as [|c0 cc]; [discriminate|]. destruct idx as [|i0 ii]; [discriminate|].
    destruct cnt as [|n0 nn]; [discriminate|]. cbn [mk_dims rev].
    intros E. apply app_eq_nil in E as [_ E]. discriminate. }
  rewrite N.mul_1_r, Hpc in X2.
  unfold xstep in X3. rewrite !N.mul_0_l, !N.add_0_r, !N.mul_1_r in X3.
  assert (EA : A = A' /\ F = p + A').
  { destruct X3 as [X3|[(v1 & r1 & k1 & L1) _]].
    - destruct (X3 Release) as (v1 & r1 & k1 & o1 & L1 & _). rewrite L1 in Hadv. injection Hadv; auto.
    - rewrite L1 in Hadv. injection Hadv; auto. }
  destruct EA as [-> ->].
  assert (Eb' : b = a + A').
  { pose proof (r_cpos p) as Hc. rewrite add64_ok in Eb by (rewrite Ea; lia). injection Eb; auto. }
  subst b. pose proof (r_cpos p) as Hcp. rewrite <- Ea in Hcp.
  destruct (HP p c a A' segs' Hpe C' C Ea Hcp ltac:(lia) HA) as (HpA & Hsame & HF2).
  destruct X3 as [X3|[_ X3]]; [|exfalso; apply X3; rewrite Hpn; auto].
  assert (Hst : stepw e 0 1 rs p A').
  { destruct (X3 Debug) as (v1 & r1 & k1 & o1 & L1 & _).
    exists v1, r1, k1. rewrite !N.mul_0_l, !N.add_0_r, !N.mul_1_r, Hpn. auto. }
  assert (Hb' : bnd rs (p + A')).
  { apply (step_max e rs 0 1 p A' HF Hb); auto; try lia; rewrite Hpn; lia. }
  assert (Est' : st' = state_at idx cnt (p + A')).
  { destruct (X3 Release) as (v1 & r1 & k1 & o1 & L1 & L2 & L3).
    rewrite L1 in Hadv. injection Hadv as <- <- <-. rewrite L2 in Hcar. injection Hcar as <-.
    rewrite Est, L3. unfold state_at. fold e. do 2 f_equal. f_equal. unfold rs, D. rewrite map_rev.
    now rewrite (proj2 (proj2 (proj2 (x_proj ds idx cnt Hfd Hsel)))). }
  rewrite Est' in Er.
  apply (IH (p + A') segs'); auto.
  intros q' H1 H2. destruct (N.lt_ge_cases q' p) as [Hlt|Hge]; [apply HQ; auto|].
  destruct (N.eq_dec q' p) as [->|Hne]; [exists A'; auto|].
  exfalso. apply (bnd_inside rs p q' A' HF Hb Hsame); auto; try lia.
Qed.

Lemma judged_rel fuel segs : slicer_run Release fuel ds (state_at idx cnt 0) = (segs, SDone) -> P 0 segs ->
  sel_safe (d_shape ds) (d_chunk_shape ds) idx cnt = true.
Proof.
  intros Hrun HA. unfold sel_safe. fold D. fold rs.
  apply (safe_nec e); auto; try lia.
  - intros q Hq Hle. rewrite N.add_0_r. split.
    + intros Hlt. rewrite Hpn in Hlt. apply (run_judged fuel 0 segs) with (q := q); auto; try lia.
      apply bnd_zero, HF.
    + intros _. apply sameplace_one. lia.
Qed.
End Judge.

Lemma right_rel : (exists fuel segs,
    slicer_run Release fuel ds (state_at idx cnt 0) = (segs, SDone) /\
    Forall2 (holds ds) (slab idx cnt) (flat_map seg_elems segs)) ->
  sel_safe (d_shape ds) (d_chunk_shape ds) idx cnt = true.
Proof.
  intros (fuel & segs & Hrun & HA). pose proof Hsel as (L1 & L2 & HN & HB).
  rewrite slab_seq in HA by (auto; congruence).
  apply (judged_rel (fun p segs => Forall2 (holds ds)
    (map (slab_coord idx cnt) (seqN p (N.to_nat (e - p)))) (flat_map seg_elems segs))) with (fuel := fuel) (segs := segs); auto.
  - intros p c a A l Hp _ C Ea _ _ HF'. cbn [flat_map] in HF'. apply (first_same p c a A _ ltac:(lia) C Ea HF').
  - now rewrite N.sub_0_r.
Qed.
End Rel.

(** Right iteration in a release build forces the selection into the class. *)
Lemma reads_right_safe_rel ds ex idx cnt segs fuel :
  full_dataset ds -> get_start_count ex (d_shape ds) = Ok (idx, cnt) ->
  sel_in (d_shape ds) idx cnt ->
  2 * prodN cnt + 3 * prodN (d_chunk_shape ds) < W64 ->
  single_end (d_chunk_shape ds) cnt = false ->
  chunk_slices Release fuel ds ex = (segs, SDone) ->
  Forall2 (holds ds) (slab idx cnt) (flat_map seg_elems segs) ->
  sel_safe (d_shape ds) (d_chunk_shape ds) idx cnt = true.
Proof.
  intros Hfd He Hsel Hsz Hse Hrun HA.
  destruct (list_eq_dec N.eq_dec (d_shape ds) []) as [E|E].
  { unfold sel_safe. rewrite E. reflexivity. }
  apply right_rel; auto.
  - apply (x_wf ds idx cnt Hfd Hsel).
  - apply (x_wfr ds idx cnt Hfd Hsel).
  - apply (x_pn ds idx cnt Hfd Hsel).
  - apply apart_of. destruct (x_proj ds idx cnt Hfd Hsel) as (_ & -> & _ & ->). exact Hse.
  - unfold chunk_slices in Hrun. rewrite (chunk_slicer_ok Release ds ex idx cnt) in Hrun by auto. eauto.
Qed.
