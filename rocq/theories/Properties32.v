(** * A read that succeeds leaves nothing of what the buffer held in the selection's bytes (C64).

    Each theorem is followed by a concrete case meeting its hypotheses. *)
From Verif Require Import Base Spec Safe Chunk Extent Dataset Slicer SpecApi ExtentProofs SerdeProofs TreeProofs Filters SpecFilter FilterProofs FilterProps ApiLemmas
  Reader SpecReader DirectProofs ParProofs ReaderProps ReadProofs CacheProofs StreamProofs ExamplesReader Examples SliceProps ExactReads
  SlicerProofs SlicerMain SlicerTheorems SlicerExact SlicerExact2 SlicerExact3 SlicerRelease SlicerRelease2 SlicerFill
  ExactFamily IndexTree Python SpecPython PythonProofs Xarray
  Properties1 Properties4 Properties5 Properties6 Properties7 Properties8 Properties9 Properties10 Properties12 Properties23 Properties24 Properties27 Properties31.
From Verif Require GroupProofs.

Local Arguments N.add : simpl never.
Local Arguments N.sub : simpl never.
Local Arguments N.mul : simpl never.

(** In builds without overflow checks: no product of sizes comes near 2^64. *)
Definition roomy (m : mode) (ds : dataset) (cnt : list N) : Prop :=
  m = Release -> N.of_nat (length cnt + 3) * (prodN cnt * prodN (d_chunk_shape ds)) * d_dsize ds < W64.

(** What a successful read writes is at least as long as the selection. *)
Lemma fill_writes m L fuel ds e idx cnt dlen out : full_dataset ds -> 0 < d_dsize ds ->
  get_start_count e (d_shape ds) = Ok (idx, cnt) -> sel_in (d_shape ds) idx cnt ->
  (forall c data, In c (d_chunks ds) -> L c = Ok data -> lenN data = csize ds) -> roomy m ds cnt ->
  read_writes m L fuel ds e dlen out ->
  prodN cnt * d_dsize ds <= lenN out /\ (m = Debug -> lenN out = prodN cnt * d_dsize ds).
Proof.
  intros Hfd Hd He Hsel HL HR (segs & os & E & HO & -> & _).
  unfold chunk_slices in E. rewrite (chunk_slicer_ok m ds e idx cnt) in E by auto. unfold state_at in E.
  pose proof Hsel as (L1 & L2 & HN & _).
  destruct (d_shape ds) as [|s sh] eqn:Esh.
  - destruct idx; [|discriminate]. destruct cnt; [|discriminate].
    destruct Hfd as [Hwm Hg Hsz]. pose proof (wm_rank _ Hwm) as HK.
    rewrite Esh in *. destruct (d_chunk_shape ds) as [|? ?] eqn:Ecs; [|discriminate].
    cbn in Hg. destruct (d_chunks ds) as [|c [|c' l]] eqn:Ec; try discriminate.
    destruct fuel as [|fuel]; [discriminate|]. cbn [slicer_run] in E. unfold slicer_next in E.
    cbn [s_end s_offset s_coords s_indices s_counts prodN] in E.
    unfold is_scalar in E. rewrite Esh, Ec in E. cbn [N.leb N.compare length Nat.eqb] in E.
    rewrite dbg_ok in E by reflexivity. cbn [bind] in E. rewrite add64_ok in E by reflexivity. cbn [bind] in E.
    destruct fuel as [|fuel]; [discriminate|]. cbn [slicer_run] in E. unfold slicer_next in E.
    cbn [s_end s_offset] in E. change (1 <=? 0 + 1) with true in E. cbv iota in E. injection E as <-.
    inversion HO as [|sg0 o sl0 os2 Hseg HO' Eq1 Eq2]; subst. inversion HO'; subst. cbn [seg_ok] in Hseg.
    destruct Hseg as (s1 & s2 & data & M1 & M2 & M3 & EL & M4 & Eo).
    assert (Lo : lenN o = s2 - s1) by (rewrite Eo; now apply slice_len).
    cbn [concat]. rewrite app_nil_r, Lo. cbn [prodN].
    pose proof (mul64_0 m (d_dsize ds)) as M0. 
    assert (s1 = 0) as -> by congruence.
    assert (s2 = d_dsize ds) as ->; [|lia].
    assert (HW : d_dsize ds < W64 \/ W64 <= d_dsize ds) by lia. unfold mul64 in M2. rewrite N.mul_1_l in M2. destruct HW as [HW|HW].
    + rewrite (proj2 (N.ltb_lt _ _) HW) in M2. congruence.
    + rewrite (proj2 (N.ltb_ge _ _) HW) in M2. destruct m; [discriminate|]. specialize (HR eq_refl).
      cbn [length prodN] in HR. rewrite Ecs in HR. cbn [prodN] in HR. change (N.of_nat (0 + 3)) with 3 in HR. lia.
  - rewrite <- Esh in *.
    assert (Hne : d_shape ds <> []) by congruence.
    pose proof (run_fill ds idx cnt Hfd Hne Hsel m L Hd) as RF.
    assert (H : prodN cnt * d_dsize ds <= 0 * d_dsize ds + lenN (concat os) /\
      (m = Debug -> 0 <= prodN cnt -> prodN cnt * d_dsize ds = 0 * d_dsize ds + lenN (concat os))).
    2:{ destruct H as [H1 H2]. split; [lia|]. intros M. specialize (H2 M ltac:(lia)). lia. }
    apply (RF HL) with (fuel := fuel) (p := 0) (segs := segs); auto; [|reflexivity].
    intros M. specialize (HR M). clear RF.
    pose proof (x_wfr ds idx cnt Hfd Hsel) as HF.
    pose proof (x_pn ds idx cnt Hfd Hsel) as Hpn. pose proof (r_pc ds idx cnt Hfd Hsel) as Hpc.
    set (rs := rev (mk_dims (d_shape ds) (d_chunk_shape ds) idx cnt)) in *.
    pose proof (span_le rs 1 HF) as SL. rewrite Hpn, Hpc in SL. rewrite N.mul_1_l in SL.
    assert (LR : length rs = length cnt).
    { destruct (x_proj ds idx cnt Hfd Hsel) as (_ & _ & _ & EN). apply (f_equal (@length N)) in EN. rewrite map_length in EN.
      unfold rs. rewrite rev_length. exact EN. }
    rewrite LR in SL.
    assert (PC : 0 < prodN (d_chunk_shape ds)) by (apply prodN_pos, Hfd).
    assert (PE : 0 < prodN cnt) by (apply prodN_pos, HN).
    set (C := prodN (d_chunk_shape ds)) in *. set (E0 := prodN cnt) in *. set (S := span 1 rs) in *.
    replace (N.of_nat (length cnt + 3)) with (N.of_nat (length cnt) + 3) in HR by lia.
    set (K := N.of_nat (length cnt)) in *. clearbody C E0 S K.
    assert (B : S + 2 * C + E0 <= (K + 3) * (E0 * C)) by (clear - SL PC PE; nia).
    eapply N.le_lt_trans; [|exact HR]. now apply N.mul_le_mono_r.
Qed.

Lemma splice_out (dst out : bytes) : splice dst 0 out = out ++ skipn (length out) dst.
Proof. reflexivity. Qed.

Lemma load_len m inflate file ds : regular ds ->
  forall c data, In c (d_chunks ds) -> load m inflate file ds (csize ds) c = Ok data -> lenN data = csize ds.
Proof.
  intros HReg c data Hc EL. destruct (load_total m inflate file ds c HReg Hc) as [(_ & d & E & L)|(_ & x & E)]; rewrite E in EL; congruence.
Qed.

(** The cached reader, in any state it can be in, after any history, in both build modes and
    for any file: if the read succeeds there are bytes [out], at least as many as the
    selection has, that the read puts at the front of this buffer and of every other buffer of
    this size, whatever it holds. *)
Theorem C64_filled m inflate fuel ds file r e idx cnt dst v d :
  full_dataset ds -> regular ds -> get_start_count e (d_shape ds) = Ok (idx, cnt) -> sel_in (d_shape ds) idx cnt ->
  roomy m ds cnt -> reachable m inflate ds file r ->
  fst (cache_read m inflate fuel r e dst) = (Ok v, d) ->
  exists out, prodN cnt * d_dsize ds <= lenN out <= lenN dst /\ d = out ++ skipn (length out) dst /\
    forall dst', lenN dst' = lenN dst ->
      fst (cache_read m inflate fuel r e dst') = (Ok v, out ++ skipn (length out) dst').
Proof.
  intros HFull HReg He Hsel HR HC H.
  assert (HA : same_addr ds) by apply HReg. assert (Hd : 0 < d_dsize ds) by apply HReg.
  rewrite (cache_read_reachable m inflate ds file r fuel e dst HA HC) in H.
  destruct (reachable_inv m inflate ds file r HA HC) as (_ & _ & HZ & _).
  apply csize_fresh in HZ; [|apply HFull|apply HReg].
  destruct (proj1 (plain_read_iff m inflate fuel file ds _ e dst v d) H) as (Hv & out & HW & ->).
  exists out. split.
  { split; [|now destruct HW as (? & ? & _ & _ & _ & ?)].
    rewrite HZ in HW. exact (proj1 (fill_writes m _ fuel ds e idx cnt _ out HFull Hd He Hsel (load_len m inflate file ds HReg) HR HW)). }
  split; [apply splice_out|]. intros dst' HL.
  rewrite (cache_read_reachable m inflate ds file r fuel e dst' HA HC).
  apply plain_read_iff. split; [unfold read_size in *; now rewrite HL|]. exists out. rewrite HL. split; auto.
Qed.
Print Assumptions C64_filled.

(** A read outside the dataset that succeeds writes nothing; so for a selection that is not
    empty, what the buffer holds afterwards at the place of the selection does not depend on
    what it held before if and only if the selection is inside the dataset. *)
Theorem C64_exact m inflate fuel ds file r e idx cnt dst v d :
  full_dataset ds -> regular ds -> get_start_count e (d_shape ds) = Ok (idx, cnt) -> ~ In 0 cnt ->
  Forall2 (fun i n => i + n < W64) idx cnt -> prodN cnt * d_dsize ds <= lenN dst ->
  roomy m ds cnt -> reachable m inflate ds file r ->
  fst (cache_read m inflate fuel r e dst) = (Ok v, d) ->
  ((forall dst' v' d', lenN dst' = lenN dst -> fst (cache_read m inflate fuel r e dst') = (Ok v', d') ->
      firstn (N.to_nat (prodN cnt * d_dsize ds)) d' = firstn (N.to_nat (prodN cnt * d_dsize ds)) d) <->
   sel_in (d_shape ds) idx cnt).
Proof.
  intros HFull HReg He H0 HI Hcap HR HC H. split.
  2:{ intros Hsel dst' v' d' HL H'.
      destruct (C64_filled m inflate fuel ds file r e idx cnt dst v d HFull HReg He Hsel HR HC H) as (out & [HO _] & -> & HF).
      rewrite (HF dst' HL) in H'. injection H' as _ <-. unfold lenN in HO.
      rewrite !firstn_app. replace (N.to_nat (prodN cnt * d_dsize ds) - length out)%nat with 0%nat by lia. now rewrite !firstn_O. }
  intros HAll. assert (HPos : Forall (fun x => 0 < x) cnt).
  { apply Forall_forall. intros x Hx. destruct (N.eq_dec x 0) as [->|]; [contradiction|lia]. }
  destruct (get_start_count_cases e (d_shape ds)) as [E|(i' & c' & E & L1 & L2)]; rewrite He in E; [discriminate|].
  injection E as <- <-. split; [exact L1|]. split; [exact L2|]. split; [exact HPos|].
  intros j i n s Hi Hn Hs. destruct (N.le_gt_cases (i + n) s) as [|Hout]; auto. exfalso.
  assert (HA : same_addr ds) by apply HReg. assert (Hd : 0 < d_dsize ds) by apply HReg.
  rewrite (cache_read_reachable m inflate ds file r fuel e dst HA HC) in H.
  destruct (proj1 (plain_read_iff m inflate fuel file ds _ e dst v d) H) as (Hv & out & HW & Ed).
  assert (Hfuel : (0 < fuel)%nat).
  { destruct fuel; [|lia]. destruct HW as (sg & os & E & _). exfalso. unfold chunk_slices in E.
    destruct (chunk_slicer m ds e); cbn [slicer_run] in E; discriminate. }
  pose proof (oob_segments m ds e idx cnt fuel He HI) as HS.
  specialize (HS ltac:(right; exists j, i, n, s; auto) Hfuel).
  assert (out = []) as ->.
  { destruct HW as (sg & os & E & HO & -> & _). rewrite HS in E. injection E as <-. inversion HO; subst. reflexivity. }
  rewrite splice_out in Ed. cbn [length app skipn] in Ed. subst d.
  set (dst' := map (fun b => (b + 1) mod 256) dst).
  assert (HL : lenN dst' = lenN dst) by (unfold lenN, dst'; now rewrite map_length).
  specialize (HAll dst' v dst' HL). rewrite (cache_read_reachable m inflate ds file r fuel e dst' HA HC) in HAll.
  assert (HX : plain_read m inflate fuel file ds (cr_csz r) e dst' = (Ok v, dst')).
  { apply plain_read_iff. split; [unfold read_size in *; now rewrite HL|]. exists []. split; [|now rewrite splice_out].
    exists [], []. repeat split; auto. cbn. lia. }
  specialize (HAll HX).
  assert (PE : 0 < prodN cnt) by (apply prodN_pos; auto).
  destruct (N.to_nat (prodN cnt * d_dsize ds)) as [|q] eqn:Eq; [clear - Eq PE Hd; nia|].
  destruct dst as [|b dst]; [unfold lenN in Hcap; cbn [length] in Hcap; clear - Hcap PE Hd; nia|].
  unfold dst' in HAll. cbn [map firstn] in HAll. injection HAll as HB _.
  clear - HB. destruct (N.lt_ge_cases b 255) as [L|L].
  - rewrite N.mod_small in HB; lia.
  - pose proof (N.mod_lt (b + 1) 256 ltac:(lia)) as HM. pose proof (N.div_mod (b + 1) 256 ltac:(lia)) as HD. rewrite HB in *. lia.
Qed.
Print Assumptions C64_exact.

(** Reading 3 x 4 of the 4 x 6 dataset succeeds and is inside; reading 4 x 4 from column 3 on
    succeeds too, outside: nothing is written.  The whole of [bad_ds] (4 x 3 x 5 in chunks of
    2 x 2 x 5) is outside the class of right reads, but still nothing of the buffer is left. *)
Example C64_filled_case m sort : addr_sort sort ->
  full_dataset st_ds /\ regular st_ds /\ get_start_count st_sel (d_shape st_ds) = Ok ([1; 2], [3; 4]) /\
  sel_in (d_shape st_ds) [1; 2] [3; 4] /\ roomy m st_ds [3; 4] /\
  (exists r v d, reachable m toy_inflate st_ds st_file r /\
     fst (cache_read m toy_inflate 13 r st_sel (repeat 77 30)) = (Ok v, d)) /\
  (let e := Extents [SliceCount 0 4; SliceCount 3 4] in
   get_start_count e (d_shape st_ds) = Ok ([0; 3], [4; 4]) /\ ~ In 0 [4; 4] /\ Forall2 (fun i n => i + n < W64) [0; 3] [4; 4] /\
   prodN [4; 4] * d_dsize st_ds <= lenN (repeat 77 40) /\ roomy m st_ds [4; 4] /\ ~ sel_in (d_shape st_ds) [0; 3] [4; 4] /\
   exists r v d, reachable m toy_inflate st_ds st_file r /\
     fst (cache_read m toy_inflate 13 r e (repeat 77 40)) = (Ok v, d)) /\
  (full_dataset bad_ds /\ regular bad_ds /\ get_start_count All (d_shape bad_ds) = Ok ([0; 0; 0], [4; 3; 5]) /\
   sel_in (d_shape bad_ds) [0; 0; 0] [4; 3; 5] /\ roomy m bad_ds [4; 3; 5] /\
   sel_safe (d_shape bad_ds) (d_chunk_shape bad_ds) [0; 0; 0] [4; 3; 5] = false).
Proof.
  intros HSort. split; [exact st_full|]. split; [exact st_regular|]. split; [reflexivity|]. split; [sel_in_tac|].
  split; [intros _; reflexivity|].
  destruct (new_sized m st_ds st_file st_full (rg_sizes _ st_regular)) as [[rc Hrc] _]. apply (rc_new m toy_inflate) in Hrc.
  split.
  { assert (SR : safe_read st_ds st_sel [1; 2] [3; 4] (repeat 77 30) 13) by (apply st_safe; [vm_compute; discriminate|reflexivity|lia]).
    destruct (C21_cached_partial m toy_inflate st_file st_ds st_value st_sel [1; 2] [3; 4] (repeat 77 30) 13 rc st_stores SR Hrc) as [E _].
    exists rc. do 2 eexists. split; [exact Hrc|exact E]. }
  split.
  { cbn zeta. split; [reflexivity|]. split; [intros [|[|[]]]; discriminate|]. split; [repeat constructor|].
    split; [vm_compute; discriminate|]. split; [intros _; reflexivity|]. split.
    { intros (_ & _ & _ & H). specialize (H 1%nat 3 4 6 eq_refl eq_refl eq_refl). lia. }
    destruct (C14_refuted m (repeat 77 40) sort HSort ltac:(vm_compute; discriminate)) as (_ & _ & _ & H & _).
    exists rc, 32, (repeat 77 40). split; [exact Hrc|].
    destruct (reachable_inv m toy_inflate st_ds st_file rc (rg_addr _ st_regular) Hrc) as (HD & _).
    specialize (H rc HD). unfold cache_read in *. rewrite HD in *.
    change (chunk_slices m 13 st_ds (Extents [SliceCount 0 4; SliceCount 3 4])) with
      (chunk_slices m 1 st_ds (Extents [SliceCount 0 4; SliceCount 3 4])). now rewrite H. }
  split; [exact bad_full|]. split; [exact bad_regular|]. split; [reflexivity|]. split; [sel_in_tac|]. split; [intros _; reflexivity|].
  reflexivity.
Qed.

(** The direct reader, *)
Theorem C64_direct m inflate sort fuel ds file rd e idx cnt dst v d :
  addr_sort sort -> full_dataset ds -> regular ds -> get_start_count e (d_shape ds) = Ok (idx, cnt) ->
  sel_in (d_shape ds) idx cnt -> roomy m ds cnt -> lenN dst < W64 -> direct_new m ds (Some file) = Ok rd ->
  direct_read m inflate sort fuel rd e dst = (Ok v, d) ->
  exists out, prodN cnt * d_dsize ds <= lenN out <= lenN dst /\ d = out ++ skipn (length out) dst /\
    forall dst', lenN dst' = lenN dst ->
      direct_read m inflate sort fuel rd e dst' = (Ok v, out ++ skipn (length out) dst').
Proof.
  intros HSort HFull HReg He Hsel HR HW Hrd H.
  assert (HA : same_addr ds) by apply HReg. assert (Hd : 0 < d_dsize ds) by apply HReg.
  destruct (new_sized m ds file HFull (rg_sizes _ HReg)) as [[rc Hrc] _]. apply (rc_new m inflate) in Hrc.
  apply (C24_agree m inflate sort fuel ds file rc rd e dst v d HSort HA Hd HW Hrc Hrd) in H.
  destruct (C64_filled m inflate fuel ds file rc e idx cnt dst v d HFull HReg He Hsel HR Hrc H) as (out & HO & E & HF).
  exists out. split; [exact HO|]. split; [exact E|]. intros dst' HL.
  apply (C24_agree m inflate sort fuel ds file rc rd e dst' _ _ HSort HA Hd ltac:(now rewrite HL) Hrc Hrd). auto.
Qed.
Print Assumptions C64_direct.

(** and the parallel one: if one schedule succeeds, all do, on all buffers of this size. *)
Theorem C64_par m inflate sort fuel ds file rd e idx cnt dst v d :
  addr_sort sort -> full_dataset ds -> regular ds -> get_start_count e (d_shape ds) = Ok (idx, cnt) ->
  sel_in (d_shape ds) idx cnt -> roomy m ds cnt -> lenN dst < W64 -> direct_new m ds (Some file) = Ok rd ->
  par_read m inflate sort fuel rd e dst (Ok v) d ->
  exists out, prodN cnt * d_dsize ds <= lenN out <= lenN dst /\ d = out ++ skipn (length out) dst /\
    forall dst' x d', lenN dst' = lenN dst -> par_read m inflate sort fuel rd e dst' x d' ->
      x = Ok v /\ d' = out ++ skipn (length out) dst'.
Proof.
  intros HSort HFull HReg He Hsel HR HW Hrd H.
  assert (HA : same_addr ds) by apply HReg. assert (Hd : 0 < d_dsize ds) by apply HReg.
  destruct (C25_schedules m inflate sort fuel ds file rd e dst HSort HA Hd HW Hrd) as (_ & _ & S1 & _).
  apply S1 in H.
  destruct (C64_direct m inflate sort fuel ds file rd e idx cnt dst v d HSort HFull HReg He Hsel HR HW Hrd H) as (out & HO & E & HF).
  exists out. split; [exact HO|]. split; [exact E|]. intros dst' x d' HL HP.
  destruct (C25_schedules m inflate sort fuel ds file rd e dst' HSort HA Hd ltac:(now rewrite HL) Hrd) as (_ & _ & _ & S2).
  exact (S2 _ _ (HF dst' HL) x d' HP).
Qed.
Print Assumptions C64_par.
Example C64_par_case m : exists rd v d, direct_new m st_ds (Some st_file) = Ok rd /\
  direct_read m toy_inflate sort_by_addr 13 rd st_sel (repeat 77 30) = (Ok v, d) /\
  (exists d, par_read m toy_inflate sort_by_addr 13 rd st_sel (repeat 77 30) (Ok v) d) /\ lenN (repeat 77 30) < W64.
Proof.
  exists (mkDirect st_ds (Some st_file) 12), 24.
  eexists. split; [destruct m; reflexivity|]. split; [destruct m; vm_compute; reflexivity|]. split; [|reflexivity].
  destruct (C25_schedules m toy_inflate sort_by_addr 13 st_ds st_file (mkDirect st_ds (Some st_file) 12) st_sel (repeat 77 30)
    GroupProofs.sort_by_addr_ok (rg_addr _ st_regular) ltac:(reflexivity) ltac:(reflexivity) ltac:(destruct m; reflexivity)) as ((x & d & HP) & _ & _ & S2).
  destruct (S2 24 _ ltac:(destruct m; vm_compute; reflexivity) x d HP) as [-> _]. exists d. exact HP.
Qed.

(** [values_dyn_par]: the array it returns does not depend on what its new memory held, nor on
    the schedule, whatever the element type asked for. *)
Theorem C64_dyn m h inflate sort fuel ds file rd e idx cnt k w al garbage garbage' read read' x :
  addr_sort sort -> full_dataset ds -> regular ds -> get_start_count e (d_shape ds) = Ok (idx, cnt) ->
  sel_in (d_shape ds) idx cnt -> roomy m ds cnt -> direct_new m ds (Some file) = Ok rd ->
  (forall n, lenN (garbage n) = n) -> (forall n, lenN (garbage' n) = n) -> prodN cnt * N.of_nat w < W64 ->
  (let g := garbage (prodN cnt * N.of_nat w) in par_read m inflate sort fuel rd e g (fst (read e g)) (snd (read e g))) ->
  (let g := garbage' (prodN cnt * N.of_nat w) in par_read m inflate sort fuel rd e g (fst (read' e g)) (snd (read' e g))) ->
  values_dyn_par m h k w al ds read garbage e = Ok x ->
  values_dyn_par m h k w al ds read' garbage' e = Ok x.
Proof.
  intros HSort HFull HReg He Hsel HR Hrd HG HG' HW64 H1 H2 H. cbn zeta in H1, H2.
  assert (Hd : 0 < d_dsize ds) by apply HReg.
  unfold values_dyn_par in *. rewrite (counts_of _ _ _ _ He) in *. cbn [bind] in *.
  assert (HP : prodN cnt < W64) by exact (x_eW ds idx cnt HFull Hsel).
  rewrite product64_lead in * by exact (sel_lead _ _ _ Hsel HP). cbn [bind] in *.
  apply bind_ok in H as (n & En & H). apply bind_ok in H as (vsz & Ev & H). apply bind_ok in H as (rem & Er & H).
  apply bind_ok in H as (u & E1 & H). apply bind_ok in H as (q & Eq & H). apply bind_ok in H as (rem2 & E2 & H).
  apply bind_ok in H as (u' & E3 & H). rewrite En; cbn [bind]; rewrite Ev; cbn [bind]; rewrite Er; cbn [bind]; rewrite E1; cbn [bind]; rewrite Eq; cbn [bind]; rewrite E2; cbn [bind]; rewrite E3; cbn [bind].
  set (N0 := prodN cnt * N.of_nat w) in *.
  unfold values_to in *. destruct (read e (garbage N0)) as [y d] eqn:Ey. cbn [fst snd] in H1.
  destruct y as [v| | | |]; cbn [bind] in H; try discriminate. injection H as <-.
  assert (EN : n = prodN cnt * d_dsize ds).
  { unfold mul64 in En. destruct (N.ltb_spec (prodN cnt * d_dsize ds) W64) as [|B]; [congruence|].
    destruct m; [discriminate|]. exfalso. specialize (HR eq_refl). clear - HR B Hd HFull Hsel.
    assert (PC : 0 < prodN (d_chunk_shape ds)) by (apply prodN_pos, HFull).
    assert (PE : 0 < prodN cnt) by (apply prodN_pos, Hsel).
    set (C := prodN (d_chunk_shape ds)) in *. set (E := prodN cnt) in *. set (K := N.of_nat (length cnt + 3)) in *.
    assert (HK : 3 <= K) by (unfold K; lia). clearbody C E K. set (z := d_dsize ds) in *. clearbody z.
    assert (HH : E <= K * (E * C)) by (assert (H : E <= E * C) by (clear - PC; nia); set (X := E * C) in *; clearbody X; clear - HK H; nia). apply (N.mul_le_mono_r _ _ z) in HH. clear - HH HR B. lia. }
  destruct (C64_par m inflate sort fuel ds file rd e idx cnt (garbage N0) v d HSort HFull HReg He Hsel HR ltac:(now rewrite HG) Hrd H1)
    as (out & [HO HO2] & Ed & HAll).
  rewrite HG in HO2.
  assert (Hw : d_dsize ds <= N.of_nat w).
  { assert (PE : 0 < prodN cnt) by (apply prodN_pos, Hsel). unfold N0 in *. clear - HO HO2 PE. nia. }
  destruct (HAll (garbage' N0) _ _ ltac:(now rewrite HG, HG') H2) as [F1 F2].
  destruct (read' e (garbage' N0)) as [y' d']. cbn [fst snd] in F1, F2. subst y' d' d. cbn [bind].
  assert (Ew : N.of_nat w = d_dsize ds).
  { unfold rem64 in Er. destruct (N.eqb_spec (N.of_nat w) 0); [discriminate|]. injection Er as <-. unfold ensure in E1.
    destruct (N.eqb_spec (d_dsize ds mod N.of_nat w) 0) as [Z|]; [|discriminate].
    apply N.mod_divide in Z; auto. apply N.divide_pos_le in Z; lia. }
  assert (LO : lenN out = N0) by (unfold N0 in *; rewrite Ew in *; lia).
  pose proof (HG N0) as G1. pose proof (HG' N0) as G2. unfold lenN in LO, G1, G2.
  rewrite !skipn_all2 by lia. reflexivity.
Qed.
Print Assumptions C64_dyn.
Example C64_dyn_case m : exists x,
  values_dyn_par m HostLE KInt 2 2 st_ds (direct_read m toy_inflate sort_by_addr 13 (mkDirect st_ds (Some st_file) 12))
    (fun n => repeat 77 (N.to_nat n)) st_sel = Ok x /\
  prodN [3; 4] * N.of_nat 2 < W64 /\
  (let g := repeat 77 (N.to_nat (prodN [3; 4] * N.of_nat 2)) in
   let read := direct_read m toy_inflate sort_by_addr 13 (mkDirect st_ds (Some st_file) 12) in
   par_read m toy_inflate sort_by_addr 13 (mkDirect st_ds (Some st_file) 12) st_sel g (fst (read st_sel g)) (snd (read st_sel g))).
Proof.
  eexists. split; [destruct m; vm_compute; reflexivity|]. split; [reflexivity|]. cbn zeta.
  set (g := repeat 77 (N.to_nat (prodN [3; 4] * N.of_nat 2))).
  destruct (C25_schedules m toy_inflate sort_by_addr 13 st_ds st_file (mkDirect st_ds (Some st_file) 12) st_sel g
    GroupProofs.sort_by_addr_ok (rg_addr _ st_regular) ltac:(reflexivity) ltac:(reflexivity) ltac:(destruct m; reflexivity)) as ((x & d & HP) & _ & _ & S2).
  destruct (direct_read m toy_inflate sort_by_addr 13 (mkDirect st_ds (Some st_file) 12) st_sel g) as [y d'] eqn:E. cbn [fst snd].
  assert (exists v, y = Ok v) as [v ->].
  { exists 24. apply (f_equal fst) in E. cbn [fst] in E. rewrite <- E. destruct m; vm_compute; reflexivity. }
  destruct (S2 _ _ eq_refl x d HP) as [-> ->]. exact HP.
Qed.

(** ** From Python *)

(** Every axis of a plan is inside the dataset, empty, or (a negative length) huge. *)
Lemma axis_cases m n k i c : (let* s := py_slice m k in py_axis s n) = Ok (i, c, 1) ->
  i + c <= n \/ c = 0 \/ (IMAX < Z.of_N c)%Z.
Proof.
  destruct (py_slice m k) as [[[a b] st]| | | |]; cbn [bind]; try discriminate. unfold py_axis.
  destruct (Z.leb_spec (Z.of_N n) IMAX) as [Hn|]; cbn [assert_ bind]; try discriminate.
  assert (HB : (- IMAX <= match st with None => 1 | Some x => Z.max (- IMAX) (clamp x) end <= IMAX)%Z).
  { destruct st as [x|]; unfold clamp, IMAX, IMIN; lia. }
  revert HB. generalize (match st with None => 1 | Some x => Z.max (- IMAX) (clamp x) end)%Z as step. intros step HB.
  destruct (Z.eqb_spec step 0); try discriminate. intros E. injection E as Ei Ec Es.
  assert (HS : (0 < step)%Z).
  { unfold as_u64, W64Z in Es. destruct (Z.lt_ge_cases 0 step); auto. exfalso.
    rewrite <- (Z_mod_plus_full step 1) in Es. rewrite Z.mod_small in Es by (unfold IMAX in *; lia). unfold IMAX in *. lia. }
  assert (HA : forall x, (0 <= adjust x (Z.of_N n) step <= Z.of_N n)%Z).
  { intros x. unfold adjust. rewrite (proj2 (Z.ltb_ge step 0)) by lia.
    destruct (Z.ltb_spec x 0); [destruct (Z.ltb_spec (x + Z.of_N n) 0)|destruct (Z.leb_spec (Z.of_N n) x)]; lia. }
  set (lo := adjust _ (Z.of_N n) step) in Ei, Ec. set (hi := adjust _ (Z.of_N n) step) in Ec.
  assert (R1 : (0 <= lo <= Z.of_N n)%Z) by apply HA. assert (R2 : (0 <= hi <= Z.of_N n)%Z) by apply HA. clearbody lo hi.
  unfold as_u64, W64Z in Ei, Ec. unfold IMAX in *. rewrite Z.mod_small in Ei by lia.
  destruct (Z.lt_ge_cases hi lo) as [HL|HL].
  - right. right. subst c. rewrite <- (Z_mod_plus_full (hi - lo) 1). rewrite Z.mod_small by lia. lia.
  - left. rewrite Z.mod_small in Ec by lia. lia.
Qed.

Lemma plan_cases m shape keys idx cnt : py_plan m shape (PyTuple keys) = Ok (idx, cnt) ->
  In 0 cnt \/ (exists b, In b cnt /\ (IMAX < Z.of_N b)%Z) \/ sel_in shape idx cnt.
Proof.
  intros HP. destruct (py_plan_lengths _ _ _ _ _ HP) as [L1 L2].
  destruct (in_dec N.eq_dec 0 cnt) as [H0|H0]; [now left|]. right.
  destruct (existsb (fun b => (IMAX <? Z.of_N b)%Z) cnt) eqn:EB.
  { left. apply existsb_exists in EB as (b & Hb & EB). exists b. split; auto. now apply Z.ltb_lt. }
  right. split; [auto|]. split; [auto|]. split.
  { apply Forall_forall. intros x Hx. destruct (N.eq_dec x 0) as [->|]; [contradiction|lia]. }
  intros j i n s Hi Hn Hs. destruct (nth_error keys j) as [k|] eqn:Hk.
  - destruct (py_plan_nth m shape keys idx cnt j s k HP Hs Hk) as (i' & c & Ei & Ec & EA).
    rewrite Hi in Ei. injection Ei as <-. rewrite Hn in Ec. injection Ec as <-.
    destruct (axis_cases m s k i n EA) as [H|[-> |H]]; auto.
    + exfalso. apply H0. exact (nth_error_In _ _ Hn).
    + exfalso. assert (T : existsb (fun b => (IMAX <? Z.of_N b)%Z) cnt = true); [|congruence].
      apply existsb_exists. exists n. split; [exact (nth_error_In _ _ Hn)|now apply Z.ltb_lt].
  - apply nth_error_None in Hk. destruct (py_plan_full m shape keys idx cnt j s HP Hs Hk) as [Ei Ec].
    rewrite Hi in Ei. rewrite Hn in Ec. injection Ei as ->. injection Ec as ->. lia.
Qed.

Lemma py_width ds k w : full_dataset ds -> py_type (d_dtype ds) = Ok (k, w) -> d_dsize ds = N.of_nat w.
Proof. intros HFull HT. rewrite (wm_dsize _ (fd_made _ HFull)). exact (py_type_width _ _ _ HT). Qed.

(** An index expression, any at all, that returns an array and has no empty axis returns the
    same array whatever the memory of the new array held and whatever the schedule. *)
Theorem C64_python m h inflate sort fuel ds file mem mem' keys idx cnt x y :
  addr_sort sort -> full_dataset ds -> regular ds -> py_plan m (d_shape ds) (PyTuple keys) = Ok (idx, cnt) -> ~ In 0 cnt ->
  roomy m ds cnt -> (forall n, lenN (mem n) = n) -> (forall n, lenN (mem' n) = n) ->
  py_get m h inflate sort fuel ds (Some file) mem (PyTuple keys) (Ok x) ->
  py_get m h inflate sort fuel ds (Some file) mem' (PyTuple keys) y -> y = Ok x.
Proof.
  intros HSort HFull HReg HP H0 HR HM HM' HG HG'.
  assert (Hd : 0 < d_dsize ds) by apply HReg.
  destruct (py_plan_lengths _ _ _ _ _ HP) as [L1 L2].
  inversion HG as [z E1 E2 E0|p z E1 E2 E3 E0|idx' cnt' k w z E1 HT HRd]; subst.
  { exfalso. rewrite HP in E2. now apply (E2 (idx, cnt)). }
  { exfalso. destruct (py_type (d_dtype ds)) as [t| | | |]; cbn [failed] in E0; try discriminate. }
  rewrite HP in E1. injection E1 as <- <-.
  assert (Hw : (0 < w)%nat) by exact (py_type_pos _ _ _ HT). assert (HWd := py_width _ _ _ HFull HT).
  destruct (plan_cases m (d_shape ds) keys idx cnt HP) as [?|[(b & Hb & HB)|Hsel]]; [contradiction| |].
  { exfalso. pose proof (py_read_huge _ _ _ _ _ _ _ _ _ _ _ _ _ _ Hw Hb HB HRd). discriminate. }
  destruct (extents_of_pairs_ok idx cnt (d_shape ds)) as (e & Ee & Eg); [congruence|auto|].
  inversion HG' as [z E1 E2 E0|p z E1 E2 E3 E0|idx' cnt' k' w' z E1 HT' HRd']; subst.
  { exfalso. rewrite HP in E2. now apply (E2 (idx, cnt)). }
  { exfalso. rewrite HT in E3. now apply (E3 (k, w)). }
  rewrite HP in E1. injection E1 as <- <-. rewrite HT in HT'. injection HT' as <- <-.
  inversion HRd as [HBig E0|z HB E4 E5 E0|r z HB E4 E5 E6 E0|r e' z d HB E4 E5 E6 E0]; subst.
  { exfalso. destruct (direct_new m ds (Some file)) eqn:EN; cbn [failed] in E0; discriminate. }
  { exfalso. rewrite Ee in E6. now apply (E6 e). }
  rewrite Ee in E5. injection E5 as <-. destruct z as [v| | | |]; cbn [bind] in E0; try discriminate. injection E0 as <-.
  inversion HRd' as [HBig' E0|z HB' E4' E5' E0|r' z HB' E4' E5' E6' E0|r' e' z d' HB' E4' E5' E6' E0]; subst.
  { exfalso. lia. }
  { exfalso. rewrite E4 in E5'. now apply (E5' r). }
  { exfalso. rewrite Ee in E6'. now apply (E6' e). }
  rewrite Ee in E5'. injection E5' as <-. rewrite E4 in E4'. injection E4' as <-.
  assert (HPos : Forall (fun x => 0 < x) cnt) by apply Hsel.
  assert (HPr : prodN (py_dims cnt) * N.of_nat w = prodN cnt * d_dsize ds) by (now rewrite prod_dims, HWd).
  rewrite HPr in *. set (n := prodN cnt * d_dsize ds) in *.
  assert (HW64 : n < W64) by (clear - HB; unfold IMAX, W64 in *; lia).
  destruct (C64_par m inflate sort fuel ds file r e idx cnt (mem n) v d HSort HFull HReg Eg Hsel HR ltac:(now rewrite HM) E4 E6)
    as (out & [HO HO2] & -> & HAll).
  destruct (HAll (mem' n) z d' ltac:(now rewrite HM, HM') E6') as [-> ->]. cbn [bind]. do 2 f_equal.
  fold n in HO. rewrite HM in HO2. pose proof (HM n) as G1. pose proof (HM' n) as G2. unfold lenN in *.
  rewrite !skipn_all2 by lia. reflexivity.
Qed.
Print Assumptions C64_python.

(** For every index expression that returns an array: the array is the same whatever the new
    memory held if and only if no axis of the selection is empty. *)
Theorem C64_python_exact m h inflate sort fuel ds file mem keys idx cnt x :
  addr_sort sort -> full_dataset ds -> regular ds -> py_plan m (d_shape ds) (PyTuple keys) = Ok (idx, cnt) ->
  roomy m ds cnt -> (forall n, lenN (mem n) = n) -> (0 < fuel)%nat ->
  py_get m h inflate sort fuel ds (Some file) mem (PyTuple keys) (Ok x) ->
  ((forall mem' y, (forall n, lenN (mem' n) = n) -> py_get m h inflate sort fuel ds (Some file) mem' (PyTuple keys) y -> y = Ok x) <->
   ~ In 0 cnt).
Proof.
  intros HSort HFull HReg HP HR HM HFuel HG. split.
  2:{ intros H0 mem' y HM' HG'. exact (C64_python m h inflate sort fuel ds file mem mem' keys idx cnt x y HSort HFull HReg HP H0 HR HM HM' HG HG'). }
  intros HAll H0.
  assert (HX : exists k w r, py_type (d_dtype ds) = Ok (k, w) /\ (Z.of_N (prodN (py_dims cnt) * N.of_nat w) <= IMAX)%Z /\
    direct_new m ds (Some file) = Ok r).
  { inversion HG as [z E1 E2 E0|p z E1 E2 E3 E0|idx' cnt' k w z E1 HT HRd]; subst.
    - exfalso. rewrite HP in E2. now apply (E2 (idx, cnt)).
    - exfalso. destruct (py_type (d_dtype ds)) as [t| | | |]; cbn [failed] in E0; try discriminate.
    - rewrite HP in E1. injection E1 as <- <-.
      inversion HRd as [HBig E0|z HB E4 E5 E0|r z HB E4 E5 E6 E0|r e' z d HB E4 E5 E6 E0]; subst.
      + exfalso. destruct (direct_new m ds (Some file)) eqn:EN; cbn [failed] in E0; discriminate.
      + exists k, w, r. auto.
      + exists k, w, r. auto. }
  destruct HX as (k & w & r & HT & HB & HN).
  assert (Hw : (0 < w)%nat) by exact (py_type_pos _ _ _ HT).
  assert (HM' : forall n, lenN (map (fun b => (b + 1) mod 256) (mem n)) = n) by (intros n; unfold lenN; rewrite map_length; apply HM).
  destruct (py_get_total m h inflate sort fuel ds (Some file) (fun n => map (fun b => (b + 1) mod 256) (mem n)) (PyTuple keys)) as [y HG'].
  pose proof (HAll _ y HM' HG') as ->.
  destruct (C45_empty_refuted m h inflate sort fuel ds file mem _ idx cnt k w r _ HSort HP H0 HT HB HN HFuel HG) as (E & P & _).
  destruct (C45_empty_refuted m h inflate sort fuel ds file _ _ idx cnt k w r _ HSort HP H0 HT HB HN HFuel HG') as (E' & _ & _).
  rewrite E in E'. injection E' as E'. set (n := prodN (py_dims cnt) * N.of_nat w) in *.
  pose proof (HM n) as G. unfold lenN in G.
  apply (to_native_inj h k w (d_order ds) _ _ (N.to_nat (prodN (py_dims cnt)))) in E'; auto; try (rewrite ?map_length; unfold n in *; lia).
  destruct (mem n) as [|b l]; [cbn [length] in G; unfold n in G; clear - G P Hw; nia|].
  cbn [map] in E'. injection E' as HBt _.
  clear - HBt. destruct (N.lt_ge_cases b 255) as [L|L].
  - rewrite N.mod_small in HBt; lia.
  - pose proof (N.mod_lt (b + 1) 256 ltac:(lia)) as HM. pose proof (N.div_mod (b + 1) 256 ltac:(lia)) as HD. rewrite <- HBt in *. lia.
Qed.
Print Assumptions C64_python_exact.

(** `ds[0:0]` of the 4 x 6 dataset returns whatever was in memory; `ds[:]` never does. *)
Example C64_python_case m h mem : (forall n, lenN (mem n) = n) ->
  full_dataset st_ds /\ regular st_ds /\
  py_plan m (d_shape st_ds) (PyTuple [PySlice (Some 0%Z) (Some 0%Z) None]) = Ok ([0; 0], [0; 6]) /\ In 0 [0; 6] /\ roomy m st_ds [0; 6] /\
  py_plan m (d_shape st_ds) (PyTuple [PySlice None None None]) = Ok ([0; 0], [4; 6]) /\ ~ In 0 [4; 6] /\ roomy m st_ds [4; 6] /\
  (exists x, py_get m h toy_inflate sort_by_addr 25 st_ds (Some st_file) mem (PyTuple [PySlice (Some 0%Z) (Some 0%Z) None]) (Ok x)) /\
  (exists x, py_get m h toy_inflate sort_by_addr 25 st_ds (Some st_file) mem (PyTuple [PySlice None None None]) (Ok x)).
Proof.
  intros HM. split; [exact st_full|]. split; [exact st_regular|].
  assert (HP1 : py_plan m (d_shape st_ds) (PyTuple [PySlice (Some 0%Z) (Some 0%Z) None]) = Ok ([0; 0], [0; 6])) by (destruct m; reflexivity).
  assert (HP2 : py_plan m (d_shape st_ds) (PyTuple [PySlice None None None]) = Ok ([0; 0], [4; 6])) by (destruct m; reflexivity).
  split; [exact HP1|]. split; [now left|]. split; [intros _; reflexivity|]. split; [exact HP2|].
  assert (H0 : ~ In 0 [4; 6]) by (intros [|[|[]]]; discriminate).
  split; [exact H0|]. split; [intros _; reflexivity|]. split.
  - destruct (py_get_total m h toy_inflate sort_by_addr 25 st_ds (Some st_file) mem (PyTuple [PySlice (Some 0%Z) (Some 0%Z) None])) as [x HX].
    destruct (C45_empty_refuted m h toy_inflate sort_by_addr 25 st_ds st_file mem _ [0; 0] [0; 6] KInt 2 (mkDirect st_ds (Some st_file) 12) x
      GroupProofs.sort_by_addr_ok HP1 ltac:(now left) ltac:(reflexivity) ltac:(vm_compute; discriminate) ltac:(destruct m; reflexivity) ltac:(lia) HX) as (E & _).
    rewrite E in HX. eauto.
  - destruct (C45_values_partial m h toy_inflate sort_by_addr 25 st_ds st_file st_value mem [PySlice None None None] [0; 0] [4; 6] KInt 2
      GroupProofs.sort_by_addr_ok st_full st_regular st_stores) as [(x & HX) HE]; auto.
    + unfold dims_fit. cbn [d_shape st_ds]. repeat (apply Forall_cons; [vm_compute; discriminate|]). apply Forall_nil.
    + vm_compute; lia.
    + intros [|j] n k Hn Hk; [|destruct j; discriminate]. injection Hn as <-. injection Hk as <-. cbn. vm_compute. intuition discriminate.
    + vm_compute. discriminate.
    + rewrite (HE x HX) in HX. eauto.
Qed.
