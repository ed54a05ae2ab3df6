(** * ExactFamily: right bytes force right segments, in both build modes and with any filters
    (proofs; theorems C21_distinct, C21_release_exact, ...). *)
From Verif Require Import Base Spec Radix Safe Extent Chunk Dataset Slicer Filters SpecApi SpecFilter SpecReader
  FilterProofs FilterProps DatasetProofs ApiLemmas Termination GroupProofs SliceProps Writes Reader CacheProofs DirectProofs
  ParProofs ReadProofs ReaderProps SlicerProofs SlicerStep SlicerMain SlicerTheorems SlicerExact SlicerExact2 SlicerExact3
  ExactReads SlicerRelease SlicerRelease2.

Local Arguments N.add : simpl never.
Local Arguments N.sub : simpl never.
Local Arguments N.mul : simpl never.
Local Arguments N.div : simpl never.
Local Arguments N.modulo : simpl never.

Lemma app_inj_len {A} (x y u v : list A) : length x = length y -> x ++ u = y ++ v -> x = y /\ u = v.
Proof.
  revert y. induction x as [|z x IH]; intros [|t y] HL E; try discriminate; auto.
  injection E as -> E. destruct (IH y ltac:(now injection HL) E) as [-> ->]. auto.
Qed.

Lemma concat_map_len {A} (f : A -> bytes) w l : Forall (fun a => length (f a) = w) l ->
  length (concat (map f l)) = (length l * w)%nat.
Proof.
  induction 1 as [|a l H1 H2 IH]; [reflexivity|]. cbn [map concat length]. rewrite app_length, H1, IH. lia.
Qed.

(** ** A family of files with the same layout *)
Section Family.
Context (ds : dataset) {Fam : Type} (F0 : Fam) (value : Fam -> list N -> bytes)
  (cell : Fam -> chunk * N -> bytes) (L : Fam -> chunk -> res bytes).
Notation w := (d_dsize ds).
Notation PC := (prodN (d_chunk_shape ds)).
Hypothesis HD : full_dataset ds.
Hypothesis Hw : 0 < w.
Hypothesis HCs : csize ds < W64.
Hypothesis Hload : forall F c, In c (d_chunks ds) -> exists data, L F c = Ok data /\ lenN data = csize ds /\
  forall k, k < PC -> word (N.to_nat w) (N.to_nat k) data = cell F (c, k).
Hypothesis Hval : forall F x ck, in_shape x (d_shape ds) -> holds ds x ck -> value F x = cell F ck.
(** Two cells that are the same in every file of the family are the same. *)
Hypothesis Hdist : forall ck ck', valid ds ck -> valid ds ck' ->
  (forall F, cell F ck = cell F ck') -> ck = ck'.

Lemma fam_cell_len F ck : valid ds ck -> length (cell F ck) = N.to_nat w.
Proof.
  destruct ck as [c k]. intros [A B]. cbn [fst snd] in *. destruct (Hload F c A) as (data & _ & E & H).
  rewrite <- H by auto. unfold word. rewrite firstn_length, skipn_length. unfold lenN, csize in E.
  assert (k * w + w <= PC * w) by nia. nia.
Qed.

Lemma fam_seg m F c a b o : In c (d_chunks ds) ->
  mul64 m a w = Ok (a * w) -> mul64 m b w = Ok (b * w) -> a <= b ->
  seg_ok m (L F) w (c, a, b) o ->
  b <= PC /\ o = concat (map (cell F) (seg_elems (c, a, b))) /\ length o = (N.to_nat (b - a) * N.to_nat w)%nat.
Proof.
  intros Hc Ma Mb Hab (s & e & data & E1 & E2 & E3 & E4 & E5 & ->).
  rewrite Ma in E1. rewrite Mb in E2. injection E1 as <-. injection E2 as <-.
  destruct (Hload F c Hc) as (data' & H1 & H2 & H3). rewrite H1 in E4. injection E4 as <-.
  assert (Hb : b <= PC) by (unfold csize in H2; rewrite H2 in E5; nia).
  split; [auto|]. assert (EE : firstn (N.to_nat (b * w - a * w)) (skipn (N.to_nat (a * w)) data') =
    concat (map (cell F) (seg_elems (c, a, b)))).
  { rewrite <- N.mul_sub_distr_r, !N2Nat.inj_mul.
    rewrite word_split by (unfold lenN in E5; nia).
    unfold seg_elems. rewrite seqN_seq, !map_map. f_equal. apply map_ext_in. intros j Hj. apply in_seq in Hj.
    rewrite <- H3 by lia. f_equal. lia. }
  split; [exact EE|]. rewrite firstn_length, skipn_length. unfold lenN in *.
  rewrite <- N.mul_sub_distr_r. nia.
Qed.

Hypothesis Hfit : fits64 (d_shape ds).

Lemma fam_place x : in_shape x (d_shape ds) -> exists ck, holds ds x ck /\ valid ds ck.
Proof. intros H. destruct (place_some ds HD Hfit x H) as (c & k & _ & A & B). eauto. Qed.

Lemma fam_val_len F x : in_shape x (d_shape ds) -> length (value F x) = N.to_nat w.
Proof.
  intros H. destruct (fam_place x H) as (ck & A & B). rewrite (Hval F x ck H A). now apply fam_cell_len.
Qed.

Lemma fam_holds x ck : in_shape x (d_shape ds) -> valid ds ck ->
  (forall F, value F x = cell F ck) -> holds ds x ck.
Proof.
  intros H V E. destruct (fam_place x H) as (ck' & A & B).
  replace ck with ck'; auto. apply Hdist; auto. intros F. rewrite <- E. symmetry. now apply Hval.
Qed.

(** ** The reads *)
Context (ex : extents) (idx cnt : list N) (dst : bytes) (fuel : nat).
Hypothesis Hsc : get_start_count ex (d_shape ds) = Ok (idx, cnt).
Hypothesis Hsel : sel_in (d_shape ds) idx cnt.
Hypothesis Hcap : prodN cnt * w <= lenN dst.

Definition fam_right (m : mode) : Prop := forall F, exists out,
  read_writes m (L F) fuel ds ex (lenN dst) out /\
  concat (map (value F) (slab idx cnt)) ++ skipn (N.to_nat (prodN cnt * w)) dst = splice dst 0 out.

Lemma fam_slab : Forall (fun x => in_shape x (d_shape ds)) (slab idx cnt).
Proof. apply Forall_forall; intros x Hx; eapply slab_in_shape; eauto. Qed.

Lemma fam_debug : fam_right Debug -> sel_safe (d_shape ds) (d_chunk_shape ds) idx cnt = true.
Proof.
  intros H. pose proof fam_slab as HSh.
  destruct (list_eq_dec N.eq_dec (d_shape ds) []) as [E0|E0]; [unfold sel_safe; now rewrite E0|].
  destruct (chunk_slices Debug fuel ds ex) as [segs st] eqn:ES.
  assert (R0 : forall F, st = SDone /\ exists os, Forall2 (seg_ok Debug (L F) w) segs os /\
       lenN (concat os) <= lenN dst /\
       concat (map (value F) (slab idx cnt)) ++ skipn (N.to_nat (prodN cnt * w)) dst = splice dst 0 (concat os)).
  { intros F. destruct (H F) as (out & (segs' & os & E1 & E2 & -> & E3) & E4).
    rewrite ES in E1. injection E1 as <- ->. split; auto. exists os. auto. }
  destruct (R0 F0) as (-> & _).
  assert (HW : Forall (seg_wf ds) segs).
  { apply Forall_forall. intros [[c a] b] Hin.
    destruct (debug_bounds ds ex fuel c a b) as (A & B & C); [rewrite ES; auto|]. repeat split; auto. }
  pose proof (slices_debug_total ds ex fuel idx cnt segs HD Hsel Hsc ES) as HT.
  assert (HL : length (slab idx cnt) = length (flat_map seg_elems segs)).
  { rewrite flat_len, HT. destruct Hsel as (L1 & L2 & _).
    pose proof (slab_length idx cnt ltac:(congruence)) as SL. unfold lenN in SL. lia. }
  pose proof (flat_valid ds segs HW) as HV.
  assert (SB : forall F os, Forall2 (seg_ok Debug (L F) w) segs os ->
     concat os = concat (map (cell F) (flat_map seg_elems segs))).
  { intros F os HO. clear - HO HW Hload Hw HCs. induction HO as [|sg o segs os H HO IH]; [reflexivity|].
    inversion HW as [|? ? W1 W2]; subst. cbn [concat flat_map]. rewrite map_app, concat_app, <- IH by auto. f_equal.
    destruct sg as [[c a] b]. destruct W1 as (W1 & W1' & W1'').
    destruct (seg_muls Debug ds c a b HCs (conj W1 (conj W1' W1''))) as (M1 & M2 & _).
    now destruct (fam_seg Debug F c a b o W1'' M1 M2 ltac:(lia) H) as (_ & -> & _). }
  assert (R1 : forall F, Forall2 (fun x ck => value F x = cell F ck) (slab idx cnt) (flat_map seg_elems segs)).
  { intros F. destruct (R0 F) as (_ & os & O1 & O2 & O3).
    assert (VL : Forall (fun x => length (value F x) = N.to_nat w) (slab idx cnt)).
    { eapply Forall_impl; [|exact HSh]. intros x Hx. now apply fam_val_len. }
    assert (EL : Forall (fun ck => length (cell F ck) = N.to_nat w) (flat_map seg_elems segs)).
    { eapply Forall_impl; [|exact HV]. intros ck Hv. now apply fam_cell_len. }
    apply (blocks_inj _ _ (N.to_nat w)); auto.
    rewrite (SB F os O1) in O2, O3.
    pose proof (concat_map_len _ _ _ VL) as CV. pose proof (concat_map_len _ _ _ EL) as CE.
    unfold splice in O3. cbn [N.to_nat firstn app] in O3.
    apply app_inj_len in O3; [tauto|]. congruence. }
  apply (reads_right_safe ds ex idx cnt segs fuel HD Hsc Hsel ES).
  apply Forall2_ofnth; auto. intros k x ck Ex Eck.
  assert (Hx : in_shape x (d_shape ds)) by (rewrite Forall_forall in HSh; apply HSh; eapply nth_error_In; eauto).
  assert (Hck : valid ds ck) by (rewrite Forall_forall in HV; apply HV; eapply nth_error_In; eauto).
  apply fam_holds; auto. intros F. exact (Forall2_nth _ _ _ (R1 F) k x ck Ex Eck).
Qed.

Lemma fam_release : lenN dst = prodN cnt * w -> (2 * prodN cnt + 3 * PC) * w < W64 ->
  single_end (d_chunk_shape ds) cnt = false ->
  fam_right Release -> sel_safe (d_shape ds) (d_chunk_shape ds) idx cnt = true.
Proof.
  intros Hdst Hsz Hse H. pose proof fam_slab as HSh.
  destruct (list_eq_dec N.eq_dec (d_shape ds) []) as [E0|E0]; [unfold sel_safe; now rewrite E0|].
  destruct (chunk_slices Release fuel ds ex) as [segs st] eqn:ES.
  pose proof Hsel as (L1 & L2 & HN & HB). rewrite slab_seq in HSh by (auto; congruence).
  assert (R0 : forall F, st = SDone /\ exists os tl, Forall2 (seg_ok Release (L F) w) segs os /\
       concat (map (value F) (map (slab_coord idx cnt) (seqN 0 (N.to_nat (prodN cnt - 0))))) = concat os ++ tl).
  { intros F. destruct (H F) as (out & (segs' & os & E1 & E2 & -> & E3) & E4).
    rewrite ES in E1. injection E1 as <- ->. split; auto. exists os, (skipn (length (concat os)) dst). split; auto.
    rewrite N.sub_0_r. rewrite <- slab_seq by (auto; congruence).
    unfold splice in E4. cbn [N.to_nat firstn app Nat.add] in E4. rewrite <- E4.
    rewrite skipn_all2 by (unfold lenN in Hdst; lia). now rewrite app_nil_r. }
  destruct (R0 F0) as (-> & _).
  unfold chunk_slices in ES. rewrite (chunk_slicer_ok Release ds ex idx cnt HD Hsc Hsel) in ES.
  set (D := mk_dims (d_shape ds) (d_chunk_shape ds) idx cnt).
  refine (judged_rel ds idx cnt HD E0 Hsel (x_wf ds idx cnt HD Hsel) (x_wfr ds idx cnt HD Hsel) (x_pn ds idx cnt HD Hsel)
    _ _ (fun p segs => forall F, exists os tl, Forall2 (seg_ok Release (L F) w) segs os /\
       concat (map (value F) (map (slab_coord idx cnt) (seqN p (N.to_nat (prodN cnt - p))))) = concat os ++ tl)
    _ fuel segs ES _).
  - nia.
  - apply apart_of. destruct (x_proj ds idx cnt HD Hsel) as (_ & -> & _ & ->). exact Hse.
  - cbn beta. intros p c a A l Hp Hc Hco Ea Ha HaA HP. fold D in Hco, Ea.
    assert (Hin : forall j, p + j < prodN cnt -> in_shape (slab_coord idx cnt (p + j)) (d_shape ds)).
    { intros j Hj. rewrite Forall_forall in HSh. apply HSh. apply in_map. apply in_seqN. lia. }
    assert (Ma : mul64 Release a w = Ok (a * w)) by (apply mul64_ok; nia).
    assert (Mb : mul64 Release (a + A) w = Ok ((a + A) * w)) by (apply mul64_ok; nia).
    assert (VL : forall F q n, q + N.of_nat n <= prodN cnt -> p <= q ->
       Forall (fun x => length (value F x) = N.to_nat w) (map (slab_coord idx cnt) (seqN q n))).
    { intros F q n Hq Hpq. apply Forall_forall. intros x Hx. apply in_map_iff in Hx as (z & <- & Hz). apply in_seqN in Hz.
      apply fam_val_len. replace z with (p + (z - p)) by lia. apply Hin. lia. }
    assert (Hone : forall F, p + A <= prodN cnt /\ a + A <= PC /\
       Forall2 (fun x ck => value F x = cell F ck) (map (slab_coord idx cnt) (seqN p (N.to_nat A))) (seg_elems (c, a, a + A)) /\
       exists os tl, Forall2 (seg_ok Release (L F) w) l os /\
         concat (map (value F) (map (slab_coord idx cnt) (seqN (p + A) (N.to_nat (prodN cnt - (p + A)))))) = concat os ++ tl).
    { intros F. destruct (HP F) as (os' & tl & HO & E). inversion HO as [|? o ? os Ho HOs]; subst.
      destruct (fam_seg Release F c _ _ o Hc Ma Mb ltac:(lia) Ho) as (Hb & Eo & Hlo).
      replace (cpos (rev D) p + A - cpos (rev D) p) with A in Hlo by lia.
      cbn [concat] in E. rewrite <- app_assoc in E.
      assert (HpA : p + A <= prodN cnt).
      { apply (f_equal (@length N)) in E. rewrite app_length, Hlo in E.
        rewrite (concat_map_len _ (N.to_nat w)) in E by (apply VL; lia).
        rewrite map_length, seqN_length in E.
        assert (N.to_nat A * N.to_nat w <= N.to_nat (prodN cnt - p) * N.to_nat w)%nat by lia. nia. }
      replace (N.to_nat (prodN cnt - p)) with (N.to_nat A + N.to_nat (prodN cnt - (p + A)))%nat in E by lia.
      rewrite map_seqN_split in E. replace (p + N.of_nat (N.to_nat A)) with (p + A) in E by lia.
      rewrite map_app, concat_app in E. apply app_inj_len in E as [E1 E2].
      2:{ rewrite Hlo. rewrite (concat_map_len _ (N.to_nat w)) by (apply VL; lia). now rewrite map_length, seqN_length. }
      split; [auto|]. split; [auto|]. split; [|exists os, tl; auto].
      rewrite Eo in E1. apply (blocks_inj _ _ (N.to_nat w)); auto.
      - unfold seg_elems. rewrite !map_length, !seqN_length. f_equal. lia.
      - apply VL; lia.
      - apply Forall_forall. intros ck Hck. apply fam_cell_len. unfold seg_elems in Hck.
        apply in_map_iff in Hck as (z & <- & Hz). apply in_seqN in Hz. split; cbn [fst snd]; auto. lia. }
    destruct (Hone F0) as (HpA & Hb & _ & _). split; [auto|]. split.
    + intros j Hj.
      assert (N1 : nth_error (map (slab_coord idx cnt) (seqN p (N.to_nat A))) (N.to_nat j)
                 = Some (slab_coord idx cnt (p + j))).
      { apply map_nth_error. rewrite nth_error_seqN by lia. f_equal. lia. }
      assert (N2 : nth_error (seg_elems (c, a, a + A)) (N.to_nat j) = Some (c, a + j)).
      { unfold seg_elems. rewrite (map_nth_error _ _ _ (d := a + j)); auto.
        rewrite nth_error_seqN by lia. f_equal. lia. }
      assert (Hh : holds ds (slab_coord idx cnt (p + j)) (c, a + j)).
      { apply fam_holds.
        - apply Hin. lia.
        - split; cbn [fst snd]; auto. lia.
        - intros F. destruct (Hone F) as (_ & _ & HF2 & _). exact (Forall2_nth _ _ _ HF2 _ _ _ N1 N2). }
      rewrite (x_coord ds idx cnt HD Hsel) in Hh.
      destruct (x_holds ds idx cnt HD Hsel (p + j) p c (a + j) Hco Hh) as [Y1 Y2]. fold D in Y1, Y2. fold D. split; [auto|].
      rewrite <- Y2. lia.
    + intros F. now destruct (Hone F) as (_ & _ & _ & HO).
  - cbn beta. intros F. apply (R0 F).
Qed.
End Family.
