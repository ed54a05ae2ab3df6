(** * ExactFamily2: right bytes force right segments in release builds, for every selection. *)
From Verif Require Import Base Spec Radix Safe Extent Chunk Dataset Slicer Filters SpecApi SpecFilter SpecReader
  FilterProofs FilterProps DatasetProofs ApiLemmas Termination GroupProofs SliceProps Writes Reader CacheProofs DirectProofs
  ParProofs ReadProofs ReaderProps SlicerProofs SlicerStep SlicerMain SlicerTheorems SlicerExact SlicerExact2 SlicerExact3
  ExactReads SlicerRelease SlicerRelease2 SafeWrap SlicerKill SlicerWrap4 ExactFamily.

Local Arguments N.add : simpl never.
Local Arguments N.sub : simpl never.
Local Arguments N.mul : simpl never.
Local Arguments N.div : simpl never.
Local Arguments N.modulo : simpl never.

(** A product past 2^64, when the factor is little below 2^64. *)
Lemma mul_near b w d : b < W64 -> W64 <= b + d -> 0 < w -> d * w < W64 ->
  exists s, mul64 Release b w = Ok s /\ W64 <= s + d * w.
Proof.
  intros Hb Hd Hw Hdw. unfold mul64.
  destruct (N.ltb_spec (b * w) W64) as [H|H]; eexists; split; try reflexivity.
  - assert (W64 * w <= (b + d) * w) by (apply N.mul_le_mono_r; auto). assert (W64 <= W64 * w) by nia. lia.
  -
    set (k := W64 - b). assert (Hk : 0 < k /\ k <= d) by (unfold k; lia).
    assert (Ew : b * w = (W64 - k * w) + (w - 1) * W64).
    { assert (Hkw : k * w <= d * w) by (apply N.mul_le_mono_r; lia).
      replace b with (W64 - k) by (unfold k; lia). rewrite N.mul_sub_distr_r.
      assert (W64 * w = W64 + (w - 1) * W64) by nia. lia. }
    rewrite Ew, N.mod_add, N.mod_small by (try discriminate; nia).
    assert (k * w <= d * w) by (apply N.mul_le_mono_r; lia). lia.
Qed.

Section Family2.
Context (ds : dataset) {Fam : Type} (F0 : Fam) (value : Fam -> list N -> bytes)
  (cell : Fam -> chunk * N -> bytes) (L : Fam -> chunk -> res bytes).
Notation w := (d_dsize ds).
Notation PC := (prodN (d_chunk_shape ds)).
Hypothesis HD : full_dataset ds.
Hypothesis Hw : 0 < w.
Hypothesis HCs : csize ds < W64.
Hypothesis Hload : forall F c, In c (d_chunks ds) -> exists data, L F c = Ok data /\ lenN data = csize ds /\
  forall k, k < PC -> word (N.to_nat w) (N.to_nat k) data = cell F (c, k).
Hypothesis Hval : forall F x ck, in_shape x (d_shape ds) -> holds ds x ck -> value F x = cell F ck.
Hypothesis Hdist : forall ck ck', valid ds ck -> valid ds ck' ->
  (forall F, cell F ck = cell F ck') -> ck = ck'.
Hypothesis Hfit : fits64 (d_shape ds).
Context (ex : extents) (idx cnt : list N) (dst : bytes) (fuel : nat).
Hypothesis Hsc : get_start_count ex (d_shape ds) = Ok (idx, cnt).
Hypothesis Hsel : sel_in (d_shape ds) idx cnt.
Hypothesis Hcap : prodN cnt * w <= lenN dst.
(** No element is in its place in the buffer already, whatever the file. *)
Hypothesis Hnew : forall p, p < prodN cnt -> exists F, value F (slab_coord idx cnt p) <> word (N.to_nat w) (N.to_nat p) dst.

Lemma fam_release_all : lenN dst = prodN cnt * w ->
  8 * (N.of_nat (length cnt) * (prodN cnt * PC)) * w < W64 ->
  single_end (d_chunk_shape ds) cnt = true ->
  fam_right ds value L ex idx cnt dst fuel Release -> sel_wrap (d_shape ds) (d_chunk_shape ds) idx cnt = true.
Proof.
  intros Hdst Hsz Hse H.
  pose proof (fam_slab ds idx cnt Hsel) as HSh.
  destruct (list_eq_dec N.eq_dec (d_shape ds) []) as [E0|E0]; [unfold sel_wrap; now rewrite E0|].
  destruct (chunk_slices Release fuel ds ex) as [segs st] eqn:ES.
  pose proof Hsel as (L1 & L2 & HN & HB). rewrite slab_seq in HSh by (auto; congruence).
  set (e := prodN cnt) in *. set (wn := N.to_nat w).
  set (vals := fun F m => concat (map (value F) (map (slab_coord idx cnt) (seqN m (N.to_nat (e - m)))))).
  assert (R0 : forall F, st = SDone /\ exists os, Forall2 (seg_ok Release (L F) w) segs os /\
       vals F 0 = concat os ++ skipn (N.to_nat 0 * wn + length (concat os)) dst).
  { intros F. destruct (H F) as (out & (segs' & os & E1 & E2 & -> & E3) & E4).
    rewrite ES in E1. injection E1 as <- ->. split; auto. exists os. split; auto.
    unfold vals. rewrite N.sub_0_r. unfold e. rewrite <- slab_seq by (auto; congruence).
    unfold splice in E4. cbn [N.to_nat firstn app Nat.add] in E4. cbn [N.to_nat Nat.mul Nat.add]. rewrite <- E4.
    rewrite skipn_all2 by (unfold lenN in Hdst; fold e in E4; lia). now rewrite app_nil_r. }
  destruct (R0 F0) as (-> & _).
  unfold chunk_slices in ES. rewrite (chunk_slicer_ok Release ds ex idx cnt HD Hsc Hsel) in ES.
  assert (Hin : forall q, q < e -> in_shape (slab_coord idx cnt q) (d_shape ds)).
  { intros q Hq. rewrite Forall_forall in HSh. apply HSh. apply in_map. apply in_seqN. lia. }
  assert (VL : forall F q n, q + N.of_nat n <= e ->
       Forall (fun x => length (value F x) = wn) (map (slab_coord idx cnt) (seqN q n))).
  { intros F q n Hq. apply Forall_forall. intros x Hx. apply in_map_iff in Hx as (z & <- & Hz). apply in_seqN in Hz.
    apply (fam_val_len ds value cell L HD Hw HCs Hload Hval Hfit). apply Hin. lia. }
  set (rk := N.of_nat (length cnt)) in *.
  assert (Hrk : 1 <= rk).
  { unfold rk. destruct cnt; [unfold single_end in Hse; destruct (rev (d_chunk_shape ds)); discriminate|cbn [length]; lia]. }
  assert (He : 0 < e) by (apply prodN_pos; exact HN).
  assert (HPC : 0 < PC) by (apply prodN_pos; apply (wm_pos _ (fd_made _ HD))).
  set (top := 6 * (rk * (e * PC))).
  assert (Htw : (top + PC) * w < W64).
  { unfold top. eapply N.le_lt_trans; [|exact Hsz]. apply N.mul_le_mono_r.
    assert (PC <= e * PC) by nia. assert (e * PC <= rk * (e * PC)) by nia. lia. }
  refine (judged_all ds idx cnt HD E0 Hsel Hse _ (fun m segs => forall F, exists os, Forall2 (seg_ok Release (L F) w) segs os /\
       vals F m = concat os ++ skipn (N.to_nat m * wn + length (concat os)) dst) _ _ _ fuel segs ES _).
  - fold e rk. eapply N.le_lt_trans; [|exact Hsz]. rewrite <- (N.mul_1_r (8 * _)) at 1. apply N.mul_le_mono_l. lia.
  - intros m Hm HP. fold e in Hm. destruct (Hnew m Hm) as [F HF]. apply HF. destruct (HP F) as (os & HO & E).
    inversion HO; subst os. cbn [concat app length] in E. rewrite Nat.add_0_r in E.
    unfold word. fold wn. rewrite <- E. unfold vals.
    replace (N.to_nat (e - m)) with (S (N.to_nat (e - m - 1))) by lia. cbn [seqN map concat].
    rewrite firstn_app, firstn_all2, (proj2 (Nat.sub_0_le wn _)).
    + now rewrite firstn_O, app_nil_r.
    + rewrite (fam_val_len ds value cell L HD Hw HCs Hload Hval Hfit F _ (Hin m Hm)). fold wn. lia.
    + rewrite (fam_val_len ds value cell L HD Hw HCs Hload Hval Hfit F _ (Hin m Hm)). fold wn. lia.
  - intros m c a b l Hc Ha Hab HP F. destruct (HP F) as (os' & HO & E). inversion HO as [|? o ? os Ho HOs]; subst.
    exists os. split; [auto|]. destruct Ho as (s & t & data & E1 & E2 & E3 & E4 & E5 & ->).
    unfold csize in HCs.
    rewrite mul64_ok in E1 by nia. rewrite mul64_ok in E2 by nia. injection E1 as <-. injection E2 as <-.
    assert (b * w <= a * w) by (apply N.mul_le_mono_r; auto).
    replace (b * w - a * w) with 0 in E by lia. cbn [N.to_nat firstn concat app] in E. exact E.
  - set (D := mk_dims (d_shape ds) (d_chunk_shape ds) idx cnt).
    intros m p c a b l Hm Hp Hc Hco Ea Ha Hab HbW Hbb HP. fold e in Hm, Hp. fold e rk top in Hbb.
    assert (Ma : mul64 Release a w = Ok (a * w)) by (apply mul64_ok; unfold csize in HCs; nia).
    assert (Mb : mul64 Release b w = Ok (b * w)).
    { destruct Hbb as [Hbb|Hbb].
      - apply mul64_ok. eapply N.le_lt_trans; [|exact Htw]. apply N.mul_le_mono_r. lia.
      - exfalso. destruct (HP F0) as (os & HO & _). inversion HO as [|? o ? os' Ho HOs]; subst.
        destruct Ho as (s & t & data & E1 & E2 & E3 & E4 & E5 & _).
        destruct (mul_near b w top HbW Hbb Hw) as (s' & M1 & M2).
        { eapply N.le_lt_trans; [|exact Htw]. apply N.mul_le_mono_r. lia. }
        rewrite M1 in E2. injection E2 as <-. destruct (Hload F0 c Hc) as (data' & D1 & D2 & _).
        rewrite D1 in E4. injection E4 as <-. rewrite D2 in E5. unfold csize in E5. rewrite N.mul_add_distr_r in Htw. lia. }
    set (A := b - a). assert (EA : b = a + A) by (unfold A; lia). clearbody A. subst b.
    assert (Hone : forall F, m + A <= e /\ a + A <= PC /\
       Forall2 (fun x ck => value F x = cell F ck) (map (slab_coord idx cnt) (seqN m (N.to_nat A))) (seg_elems (c, a, a + A)) /\
       exists os, Forall2 (seg_ok Release (L F) w) l os /\
         vals F (m + A) = concat os ++ skipn (N.to_nat (m + A) * wn + length (concat os)) dst).
    { intros F. destruct (HP F) as (os' & HO & E). inversion HO as [|? o ? os Ho HOs]; subst.
      destruct (fam_seg ds cell L Hw HCs Hload Release F c _ _ o Hc Ma Mb ltac:(lia) Ho) as (Hb & Eo & Hlo).
      replace (cpos (rev D) p + A - cpos (rev D) p) with A in Hlo by lia. fold wn in Hlo.
      cbn [concat] in E. rewrite <- app_assoc in E. unfold vals in E.
      assert (HpA : m + A <= e).
      { apply (f_equal (@length N)) in E. rewrite app_length, Hlo in E.
        rewrite (concat_map_len _ wn) in E by (apply VL; lia).
        rewrite map_length, seqN_length in E.
        assert (N.to_nat A * wn <= N.to_nat (e - m) * wn)%nat by lia.
        assert (0 < wn)%nat by (unfold wn; lia). nia. }
      replace (N.to_nat (e - m)) with (N.to_nat A + N.to_nat (e - (m + A)))%nat in E by lia.
      rewrite map_seqN_split in E. replace (m + N.of_nat (N.to_nat A)) with (m + A) in E by lia.
      rewrite map_app, concat_app in E. apply app_inj_len in E as [E1 E2].
      2:{ rewrite Hlo. rewrite (concat_map_len _ wn) by (apply VL; lia). now rewrite map_length, seqN_length. }
      split; [auto|]. split; [auto|]. split.
      - rewrite Eo in E1. apply (blocks_inj _ _ wn); auto.
        + unfold seg_elems. rewrite !map_length, !seqN_length. f_equal. lia.
        + apply VL; lia.
        + apply Forall_forall. intros ck Hck. apply (fam_cell_len ds cell L Hw HCs Hload). unfold seg_elems in Hck.
          apply in_map_iff in Hck as (z & <- & Hz). apply in_seqN in Hz. split; cbn [fst snd]; auto. lia.
      - exists os. split; [auto|]. unfold vals. rewrite E2. f_equal. f_equal. rewrite app_length, Hlo.
        rewrite N2Nat.inj_add, Nat.mul_add_distr_r. lia. }
    destruct (Hone F0) as (HpA & Hb & _ & _).
    assert (Hpl : forall j, j < A -> cidx (rev D) (m + j) = cidx (rev D) p /\ cpos (rev D) (m + j) = a + j).
    { intros j Hj.
      assert (N1 : nth_error (map (slab_coord idx cnt) (seqN m (N.to_nat A))) (N.to_nat j)
                 = Some (slab_coord idx cnt (m + j))).
      { apply map_nth_error. rewrite nth_error_seqN by lia. f_equal. lia. }
      assert (N2 : nth_error (seg_elems (c, a, a + A)) (N.to_nat j) = Some (c, a + j)).
      { unfold seg_elems. rewrite (map_nth_error _ _ _ (d := a + j)); auto.
        rewrite nth_error_seqN by lia. f_equal. lia. }
      assert (Hh : holds ds (slab_coord idx cnt (m + j)) (c, a + j)).
      { apply (fam_holds ds value cell HD Hval Hdist Hfit).
        - apply Hin. lia.
        - split; cbn [fst snd]; auto. lia.
        - intros F. destruct (Hone F) as (_ & _ & HF2 & _). exact (Forall2_nth _ _ _ HF2 _ _ _ N1 N2). }
      rewrite (x_coord ds idx cnt HD Hsel) in Hh.
      destruct (x_holds ds idx cnt HD Hsel (m + j) p c (a + j) Hco Hh) as [Y1 Y2]. fold D in Y1, Y2. auto. }
    assert (Emp : m = p).
    { destruct (Hpl 0 ltac:(lia)) as [Y1 Y2]. rewrite N.add_0_r in Y1, Y2. rewrite N.add_0_r in Y2.
      assert (Hpn : pn (rev D) = e) by exact (x_pn ds idx cnt HD Hsel).
      apply (place_inj (rev D)); try (rewrite Hpn); auto; try congruence. exact (x_wfr ds idx cnt HD Hsel). }
    subst m. replace (a + A - a) with A by lia. split; [auto|]. split; [auto|]. split.
    + intros j Hj. destruct (Hpl j Hj) as [Y1 Y2]. split; [auto|]. rewrite Y2, Ea. lia.
    + intros F. now destruct (Hone F) as (_ & _ & _ & HO).
  - intros F. apply (R0 F).
Qed.
End Family2.
