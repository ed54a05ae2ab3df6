(** * SlicerWrap4: what a release build iterates rightly, for every selection. *)
From Verif Require Import Base Spec SpecApi Radix Safe Chunk Extent Dataset Slicer SlicerProofs SlicerStep ChunkProofs DatasetProofs
  ExtentProofs SlicerExact SlicerExact2 SlicerExact3 SlicerRelease SlicerRelease2 SlicerFill SafeWrap SlicerWrap SlicerKill SlicerWrap2
  SlicerWrap3 SlicerMain SlicerTheorems.

Local Arguments N.add : simpl never.
Local Arguments N.sub : simpl never.
Local Arguments N.mul : simpl never.
Local Arguments N.div : simpl never.
Local Arguments N.modulo : simpl never.
Local Arguments N.min : simpl never.
Local Arguments N.max : simpl never.

(** ** The whole iteration *)
Section RelR.
Context (ds : dataset) (idx cnt : list N).
Hypothesis Hfd : full_dataset ds.
Hypothesis Hsc : d_shape ds <> [].
Hypothesis Hsel : sel_in (d_shape ds) idx cnt.
Let D := mk_dims (d_shape ds) (d_chunk_shape ds) idx cnt.
Let rs := rev D.
Let e := prodN cnt.
Hypothesis HD : Forall dwf D.
Hypothesis HF : Forall dwf rs.
Hypothesis Hpn : pn rs = e.
Hypothesis Hsz : 4 * e + 4 * prodN (d_chunk_shape ds) < W64.
Hypothesis Hst0 : start 0 1 rs.
Hypothesis HK : killer 0 1 rs = false.

Section JudgeR.
Context (P : N -> list segment -> Prop).
Hypothesis HP : forall p c a A l, p < e -> In c (d_chunks ds) ->
  c_offset c = chunk_corner (d_chunk_shape ds) (coord_of D p) -> a = cpos rs p ->
  a < prodN (d_chunk_shape ds) -> 0 < A -> a + A <= 3 * e + 3 * prodN (d_chunk_shape ds) -> P p ((c, a, a + A) :: l) ->
  p + A <= e /\ sameplace rs p A /\ P (p + A) l.

Lemma run_judgedR fuel : forall p segs,
  bnd rs p -> p <= e ->
  slicer_run Release fuel ds (state_at idx cnt p) = (segs, SDone) ->
  P p segs ->
  (forall q, bnd rs q -> q < p -> exists a, goodR e 0 1 rs q a) ->
  forall q, bnd rs q -> q < e -> exists a, goodR e 0 1 rs q a.
Proof.
  pose proof (x_eW ds idx cnt Hfd Hsel) as HeW. fold e in HeW. pose proof (r_pc ds idx cnt Hfd Hsel) as Hpc.
  fold D in Hpc. fold rs in Hpc.
  induction fuel as [|fuel IH]; intros p segs Hb Hp Hrun HA HQ q Hq Hqe; cbn [slicer_run] in Hrun; [discriminate|].
  destruct (N.eq_dec p e) as [Epe|Epe]; [apply HQ; auto; lia|].
  assert (Hpe : p < e) by lia.
  assert (En : slicer_next Release ds (state_at idx cnt p) <> Ok None) by (apply (next_none ds idx cnt Hsc); auto).
  destruct (slicer_next Release ds (state_at idx cnt p)) as [[[[[c a] b] st']|]| | | |] eqn:Ex; try discriminate; [|congruence].
  clear En. destruct (slicer_run Release fuel ds st') as [segs' s] eqn:Er. injection Hrun as <- ->.
  destruct (next_any ds idx cnt Hfd Hsc Hsel HD HF Hpn Release p p c a b st' Hpe Ex) as (A & vis & rest & k & os & F & [C C'] & Ea & Eb & Hadv & Hcar & Est).
  fold D in C, Ea, Hadv. fold rs in Ea, Hadv. fold e in Hadv, Est.
  destruct (xferR e rs 0 1 p) as (A' & X1 & X2 & X3); auto; try lia.
  all: try (rewrite ?Hpn, ?Hpc; lia).
  rewrite N.mul_1_l, N.mul_1_r, Hpc in X2.
  assert (EA : A = A' /\ F = p + A').
  { assert (R : relr e 1 rs p 0 (0 * 1) ((p + 0) * 1) (A' * 1) ((p + A') * 1)).
    { destruct X3 as [X3|[X3 _]]; [now apply outR_relr in X3|exact X3]. }
    destruct R as (v1 & r1 & k1 & L1). rewrite !N.mul_1_r, N.add_0_r, Hadv in L1. injection L1; auto. }
  destruct EA as [-> ->].
  pose proof (r_cpos ds idx cnt Hfd Hsel HD p) as Hcp. fold D in Hcp. fold rs in Hcp. rewrite <- Ea in Hcp.
  assert (Eb' : b = a + A').
  { rewrite add64_ok in Eb by lia. injection Eb; auto. }
  subst b.
  destruct (HP p c a A' segs' Hpe C' C Ea Hcp X1 ltac:(lia) HA) as (HpA & Hsame & HF2).
  destruct X3 as [X3|[_ X3]]; [|exfalso; apply X3; rewrite Hpn; auto].
  assert (Hst : goodR e 0 1 rs p A') by (split; [exact X3|]; rewrite Hpn; auto).
  destruct X3 as [(v1 & r1 & k1 & o1 & L1 & L2 & L3) X4].
  assert (Hb' : bnd rs (p + A')) by (apply X4; auto; rewrite Hpn; auto).
  assert (Est' : st' = state_at idx cnt (p + A')).
  { rewrite !N.mul_1_r, N.add_0_r, Hadv in L1. injection L1 as -> -> ->. rewrite L2 in Hcar. injection Hcar as <-.
    rewrite Est, L3. unfold state_at. fold e. do 2 f_equal. f_equal. unfold rs, D. rewrite map_rev.
    now rewrite (proj2 (proj2 (proj2 (x_proj ds idx cnt Hfd Hsel)))). }
  rewrite Est' in Er.
  apply (IH (p + A') segs'); auto.
  intros q' H1 H2. destruct (N.lt_ge_cases q' p) as [Hlt|Hge]; [apply HQ; auto|].
  destruct (N.eq_dec q' p) as [->|Hne]; [exists A'; auto|].
  exfalso. apply (bnd_inside rs p q' A' HF Hb Hsame); auto; try lia.
Qed.

Lemma judgedR fuel segs : slicer_run Release fuel ds (state_at idx cnt 0) = (segs, SDone) -> P 0 segs ->
  sel_wrap (d_shape ds) (d_chunk_shape ds) idx cnt = true.
Proof.
  intros Hrun HA. unfold sel_wrap. fold D. fold rs.
  pose proof (r_pc ds idx cnt Hfd Hsel) as Hpc. fold D in Hpc. fold rs in Hpc.
  apply (necR e); auto; try lia.
  split.
  - intros q Hq Hlt. rewrite N.add_0_r, Hpn in Hlt. apply (run_judgedR fuel 0 segs) with (q := q); auto; try lia.
    apply bnd_zero, HF.
  - intros q t0 _ Ht _. apply sameplace_one. lia.
Qed.
End JudgeR.
End RelR.

(** ** Every selection, in release builds *)
Section AllR.
Context (ds : dataset) (idx cnt : list N).
Hypothesis Hfd : full_dataset ds.
Hypothesis Hsc : d_shape ds <> [].
Hypothesis Hsel : sel_in (d_shape ds) idx cnt.
Let D := mk_dims (d_shape ds) (d_chunk_shape ds) idx cnt.
Let rs := rev D.
Let e := prodN cnt.
Hypothesis Hse : single_end (d_chunk_shape ds) cnt = true.
Hypothesis Hsz : 8 * (N.of_nat (length cnt) * (prodN cnt * prodN (d_chunk_shape ds))) < W64.

Lemma end_start : start 0 1 rs.
Proof.
  right; right; right. split; [auto|]. split; [auto|].
  assert (H : single_end (map c_ D) (map n_ D) = true).
  { destruct (x_proj ds idx cnt Hfd Hsel) as (_ & E2 & _ & E4). unfold D. rewrite E2, E4. exact Hse. }
  unfold single_end in H. rewrite <- !map_rev in H.
  unfold rs. destruct (rev D) as [|r0 [|r1 l]]; cbn [map] in H; try discriminate.
  apply andb_true_iff in H as [H H3]. apply andb_true_iff in H as [H1 H2].
  apply N.eqb_eq in H1, H2, H3. auto.
Qed.

Let top := 6 * (N.of_nat (length cnt) * (prodN cnt * prodN (d_chunk_shape ds))).

Lemma all_sizes : 4 * e + 4 * prodN (d_chunk_shape ds) < W64 /\
  2 * e + 3 * prodN (d_chunk_shape ds) + 2 * span 1 rs < W64 /\
  prodN (d_chunk_shape ds) + span 1 rs <= top /\ 3 * e + 3 * prodN (d_chunk_shape ds) <= top.
Proof.
  assert (HF : Forall dwf rs) by exact (x_wfr ds idx cnt Hfd Hsel).
  assert (Hpn : pn rs = e) by exact (x_pn ds idx cnt Hfd Hsel).
  assert (Hpc : pc rs = prodN (d_chunk_shape ds)) by exact (r_pc ds idx cnt Hfd Hsel).
  pose proof (span_le rs 1 HF) as HS. pose proof (pn_pos rs HF) as P1. pose proof (pc_pos rs HF) as P2.
  assert (Hlen : length rs = length cnt).
  { unfold rs. rewrite rev_length, <- (map_length n_). f_equal. apply (x_proj ds idx cnt Hfd Hsel). }
  assert (H1 : 1 <= N.of_nat (length cnt)).
  { destruct cnt; [cbn in Hse; unfold single_end in Hse; destruct (rev (d_chunk_shape ds)); discriminate|cbn [length]; lia]. }
  rewrite Hlen, Hpn, Hpc, N.mul_1_l in HS. rewrite Hpn in P1. rewrite Hpc in P2.
  assert (Hx := Hsz). unfold top. fold e in Hx. fold e. clear - HS P1 P2 H1 Hx. revert HS P1 P2 H1 Hx.
  generalize e, (prodN (d_chunk_shape ds)), (N.of_nat (length cnt)), (span 1 rs). intros E C R S HS P1 P2 H1 Hx.
  assert (Q1 : E <= E * C) by nia. assert (Q2 : C <= E * C) by nia.
  assert (Q3 : E * C <= R * (E * C)) by nia. revert HS Hx Q1 Q2 Q3. generalize (R * (E * C)), (E * C). intros. lia.
Qed.

(** A judge of the segments: enough to tell that the first of them that holds anything is a
    run of the selection, at the place expected, and the same of the others. *)
Context (P : N -> list segment -> Prop).
Hypothesis P_nil : forall m, m < e -> ~ P m [].
Hypothesis P_empty : forall m c a b l, In c (d_chunks ds) -> a < prodN (d_chunk_shape ds) -> b <= a -> P m ((c, a, b) :: l) -> P m l.
Hypothesis P_some : forall m p c a b l, m < e -> p < e -> In c (d_chunks ds) ->
  c_offset c = chunk_corner (d_chunk_shape ds) (coord_of D p) -> a = cpos rs p -> a < prodN (d_chunk_shape ds) -> a < b ->
  b < W64 -> b <= top \/ W64 <= b + top ->
  P m ((c, a, b) :: l) ->
  m = p /\ p + (b - a) <= e /\ sameplace rs p (b - a) /\ P (p + (b - a)) l.

Lemma judged_all fuel segs : slicer_run Release fuel ds (state_at idx cnt 0) = (segs, SDone) -> P 0 segs ->
  sel_wrap (d_shape ds) (d_chunk_shape ds) idx cnt = true.
Proof.
  intros Hrun HA. destruct all_sizes as (S1 & S2 & S3 & S4).
  destruct (killer 0 1 rs) eqn:EK.
  - exfalso. apply (killed ds idx cnt Hfd Hsc Hsel EK S2 P) with (fuel := fuel) (segs := segs); auto.
    intros m p c a b l H1 H2 H3 H4 H5 H6 H7 HbW H8 H9.
    assert (H8' : b <= top \/ W64 <= b + top) by (fold D in H8; fold rs in H8; clear - H8 S3; clearbody top; lia).
    destruct (P_some m p c a b l H1 H2 H3 H4 H5 H6 H7 HbW H8' H9) as (A1 & A2 & A3 & A4). auto.
  - apply (judgedR ds idx cnt Hfd Hsc Hsel (x_wf ds idx cnt Hfd Hsel) (x_wfr ds idx cnt Hfd Hsel)
      (x_pn ds idx cnt Hfd Hsel) S1 end_start EK P) with (fuel := fuel) (segs := segs); auto.
    intros p c a A l H1 H2 H3 H4 H5 H6 H7 H8.
    destruct (P_some p p c a (a + A) l H1 H1 H2 H3 H4 H5 ltac:(lia) ltac:(clear - H7 S1; lia) ltac:(left; clear - H7 S4; clearbody top; lia) H8) as (_ & A2 & A3 & A4).
    replace (a + A - a) with A in * by lia. auto.
Qed.
End AllR.

Lemma right_all ds idx cnt : full_dataset ds -> d_shape ds <> [] -> sel_in (d_shape ds) idx cnt ->
  single_end (d_chunk_shape ds) cnt = true ->
  8 * (N.of_nat (length cnt) * (prodN cnt * prodN (d_chunk_shape ds))) < W64 ->
  (exists fuel segs,
    slicer_run Release fuel ds (state_at idx cnt 0) = (segs, SDone) /\
    Forall2 (holds ds) (slab idx cnt) (flat_map seg_elems segs)) ->
  sel_wrap (d_shape ds) (d_chunk_shape ds) idx cnt = true.
Proof.
  intros Hfd Hsc Hsel Hse Hsz (fuel & segs & Hrun & HA). pose proof Hsel as (L1 & L2 & HN & HB).
  rewrite slab_seq in HA by (auto; congruence).
  assert (HF : Forall dwf (rev (mk_dims (d_shape ds) (d_chunk_shape ds) idx cnt))) by exact (x_wfr ds idx cnt Hfd Hsel).
  assert (Hpn : pn (rev (mk_dims (d_shape ds) (d_chunk_shape ds) idx cnt)) = prodN cnt) by exact (x_pn ds idx cnt Hfd Hsel).
  apply (judged_all ds idx cnt Hfd Hsc Hsel Hse Hsz (fun p segs => Forall2 (holds ds)
    (map (slab_coord idx cnt) (seqN p (N.to_nat (prodN cnt - p)))) (flat_map seg_elems segs))) with (fuel := fuel) (segs := segs); auto.
  - intros m Hm H. apply (Forall2_length' _ _ _) in H. rewrite map_length, seqN_length in H. cbn in H. lia.
  - intros m c a b l _ _ Hab H. cbn [flat_map] in H. unfold seg_elems at 1 in H.
    replace (N.to_nat (b - a)) with O in H by lia. exact H.
  - intros m p c a b l Hm Hp Hc C Ea _ Hab _ _ H. cbn [flat_map] in H.
    assert (E : m = p).
    { assert (Eh : holds ds (slab_coord idx cnt m) (c, a)).
      { unfold seg_elems at 1 in H. replace (N.to_nat (b - a)) with (S (N.to_nat (b - a - 1))) in H by lia.
        replace (N.to_nat (prodN cnt - m)) with (S (N.to_nat (prodN cnt - m - 1))) in H by lia.
        cbn [seqN map app] in H. inversion H; auto. }
      rewrite (x_coord ds idx cnt Hfd Hsel) in Eh.
      destruct (x_holds ds idx cnt Hfd Hsel m p c a C Eh) as [Y1 Y2].
      apply (place_inj (rev (mk_dims (d_shape ds) (d_chunk_shape ds) idx cnt))); auto; try lia; try congruence. }
    subst m. split; [auto|]. replace b with (a + (b - a)) in H by lia.
    apply (first_same ds idx cnt Hfd Hsel Hpn p c a (b - a)); auto; lia.
  - now rewrite N.sub_0_r.
Qed.

Lemma reads_right_wrap ds ex idx cnt segs fuel :
  full_dataset ds -> get_start_count ex (d_shape ds) = Ok (idx, cnt) ->
  sel_in (d_shape ds) idx cnt ->
  2 * prodN cnt + 3 * prodN (d_chunk_shape ds) < W64 ->
  (single_end (d_chunk_shape ds) cnt = true ->
     8 * (N.of_nat (length cnt) * (prodN cnt * prodN (d_chunk_shape ds))) < W64) ->
  chunk_slices Release fuel ds ex = (segs, SDone) ->
  Forall2 (holds ds) (slab idx cnt) (flat_map seg_elems segs) ->
  sel_wrap (d_shape ds) (d_chunk_shape ds) idx cnt = true.
Proof.
  intros Hfd He Hsel Hsz Hsz' Hrun HA.
  destruct (single_end (d_chunk_shape ds) cnt) eqn:Hse.
  - destruct (list_eq_dec N.eq_dec (d_shape ds) []) as [E|E].
    { unfold sel_wrap. rewrite E. reflexivity. }
    apply right_all; auto.
    unfold chunk_slices in Hrun. rewrite (chunk_slicer_ok Release ds ex idx cnt) in Hrun by auto. eauto.
  - apply sel_safe_wrap; [exact (x_wf ds idx cnt Hfd Hsel)|].
    eapply reads_right_safe_rel; eauto.
Qed.
