(** * Properties47: builds with and without debug assertions complete the same reads (C76),
      and when the parallel reader of a release build writes outside the buffer (C26).

    A debug build panics where a release build would go on with wrong lengths.  The theorems say
    that a release build does not get away with it: reading into a buffer of the size of the
    selection, it panics too, or, in the parallel reader, writes past the end of the buffer. *)
From Coq Require Import Permutation.
From Verif Require Import Base Spec SpecApi SpecReader Radix Safe Chunk Extent Dataset Slicer Filters Reader
  SlicerProofs SlicerMain SlicerTheorems SlicerExact SlicerRelease2 ApiLemmas ExtentProofs SpecReader
  CacheProofs GroupProofs DirectProofs ParProofs ReadProofs ReaderProps SliceProps Examples ExamplesReader
  Properties2 Properties4 Properties19 Properties46.

(** Reading a selection of a dataset into a buffer of exactly its size. *)
Record exact_read (ds : dataset) (e : extents) (idx cnt : list N) (dst : bytes) (fuel : nat) : Prop := {
  er_full : full_dataset ds;
  er_reg : regular ds;
  er_start : get_start_count e (d_shape ds) = Ok (idx, cnt);
  er_sel : sel_in (d_shape ds) idx cnt;
  er_single : single_end (d_chunk_shape ds) cnt = false;
  er_sizes : (prodN cnt + 4 * reach cnt (d_chunk_shape ds)) * d_dsize ds < W64;
  er_dst : lenN dst = prodN cnt * d_dsize ds;
  er_fuel : (N.to_nat (prodN cnt) < fuel)%nat
}.
(** A debug build iterates the selection to its end. *)
Definition debug_completes (ds : dataset) (e : extents) (fuel : nat) : Prop :=
  snd (chunk_slices Debug fuel ds e) = SDone.

Lemma reach_chunk cnt cs : length cnt = length cs -> Forall (fun n => 0 < n) cnt -> prodN cs <= reach cnt cs /\ prodN cnt <= reach cnt cs.
Proof.
  unfold reach. revert cs. induction cnt as [|n cnt IH]; intros [|c cs] HL HP; try discriminate; cbn [map2 prodN]; [lia|].
  inversion HP; subst. destruct (IH cs) as [A B]; auto. split; apply N.mul_le_mono; auto; lia.
Qed.

Definition n_lt_dec a b : {a < b} + {~ a < b}.
Proof. destruct (a <? b) eqn:E; [left; now apply N.ltb_lt|right; now apply N.ltb_nlt]. Defined.
Definition n_le_dec a b : {a <= b} + {~ a <= b}.
Proof. destruct (a <=? b) eqn:E; [left; now apply N.leb_le|right; now apply N.leb_nle]. Defined.

Lemma fail_panic {A B} (x : res A) : x = Panic -> (failed x : res B) = Panic.
Proof. now intros ->. Qed.

(** Copies succeed or panic. *)
Lemma copy_slice_ok_or m data s e sz pos dst : (exists d, copy_slice m data s e sz pos dst = Ok d) \/ copy_slice m data s e sz pos dst = Panic.
Proof.
  unfold copy_slice. destruct (dbg m (s <=? lenN data)) as [[]| | | |] eqn:E1; try (destruct m, (s <=? lenN data); discriminate); cbn [bind]; auto.
  destruct (dbg m (e <=? lenN data)) as [[]| | | |] eqn:E2; try (destruct m, (e <=? lenN data); discriminate); cbn [bind]; auto.
  destruct (pos + sz <=? lenN dst); cbn [assert_ bind]; auto. unfold slice_range. destruct (_ && _); cbn [bind]; eauto.
Qed.
Lemma arith_ok_or (f : mode -> N -> N -> res N) m a b : f = mul64 \/ f = add64 \/ f = sub64 -> (exists r, f m a b = Ok r) \/ f m a b = Panic.
Proof. intros [-> |[-> | ->]]; unfold mul64, add64, sub64; destruct (_ : bool), m; eauto. Qed.
Lemma byte_range_ok_or m dsz a b : (exists t, byte_range m dsz a b = Ok t) \/ byte_range m dsz a b = Panic.
Proof.
  unfold byte_range.
  destruct (arith_ok_or mul64 m a dsz) as [[s ->]| ->]; auto. cbn [bind]. destruct (arith_ok_or mul64 m b dsz) as [[s2 ->]| ->]; auto. cbn [bind].
  destruct (dbg m (s <=? s2)) as [[]| | | |] eqn:E1; try (destruct m, (s <=? s2); discriminate); cbn [bind]; auto.
  destruct (arith_ok_or sub64 m s2 s) as [[s3 ->]| ->]; auto. cbn [bind]. eauto.
Qed.
Lemma plain_loop_ok_or m L dsz st : st <> SFuel -> forall segs pos dst, Forall (fun '(c, _, _) => exists d, L c = Ok d) (segs : list segment) ->
  exists d, plain_loop m L dsz segs st pos dst = (Ok tt, d) \/ plain_loop m L dsz segs st pos dst = (Panic, d).
Proof.
  intros Hst. induction segs as [|[[c a] b] segs IH]; intros pos dst HF; cbn [plain_loop].
  - destruct st; cbn [stop_res]; eauto. congruence.
  - apply Forall_cons_iff in HF as [[data EL] HF']. unfold seg_copy.
    destruct (byte_range_ok_or m dsz a b) as [[[[s e] sz] ->]| ->]; cbn [bind failed]; eauto. rewrite EL. cbn [bind].
    destruct (copy_slice_ok_or m data s e sz pos dst) as [[d ->]| ->]; cbn [bind failed]; eauto.
Qed.
Lemma plain_loop_panic m L dsz : forall segs pos dst, Forall (fun '(c, _, _) => exists d, L c = Ok d) (segs : list segment) ->
  exists d, plain_loop m L dsz segs SPanic pos dst = (Panic, d).
Proof.
  intros segs pos dst HF. destruct (plain_loop_ok_or m L dsz SPanic ltac:(discriminate) segs pos dst HF) as [d [H|H]]; eauto.
  exfalso. revert pos dst H. induction segs as [|[[c a] b] segs IH]; intros pos dst H; cbn [plain_loop] in H; [discriminate|].
  apply Forall_cons_iff in HF as [_ HF']. destruct (seg_copy m L dsz (c, a, b) pos dst) as [[d' p']| | | |]; cbn [failed] in H; try discriminate. eauto.
Qed.

Section Exact.
Context (inflate : bytes -> option bytes) (file : bytes) (ds : dataset) (e : extents) (idx cnt : list N) (dst : bytes) (fuel : nat).
Hypothesis HE : exact_read ds e idx cnt dst fuel.
Hypothesis HL : forall c, In c (d_chunks ds) -> readable inflate file ds c.

Lemma e_load c : In c (d_chunks ds) -> exists data, lenN data = csize ds /\ forall m, load m inflate file ds (csize ds) c = Ok data.
Proof.
  intros Hc. destruct (load_total Debug inflate file ds c (er_reg _ _ _ _ _ _ HE) Hc) as [(_ & data & E & L)|(HN & _)].
  - exists data. split; [exact L|]. intros m. rewrite load_mode by apply (er_reg _ _ _ _ _ _ HE). exact E.
  - exfalso. auto.
Qed.
Lemma e_dsize : 0 < d_dsize ds.
Proof. exact (ss_pos _ (rg_sizes _ (er_reg _ _ _ _ _ _ HE))). Qed.
Lemma e_bound : prodN cnt + 4 * reach cnt (d_chunk_shape ds) < W64 /\ prodN (d_chunk_shape ds) <= reach cnt (d_chunk_shape ds).
Proof.
  pose proof (er_sizes _ _ _ _ _ _ HE) as HB. pose proof e_dsize as Hd. pose proof (er_sel _ _ _ _ _ _ HE) as (_ & L2 & HP & _).
  pose proof (wm_rank _ (fd_made _ (er_full _ _ _ _ _ _ HE))) as HR.
  destruct (reach_chunk cnt (d_chunk_shape ds)) as [A _]; [congruence|exact HP|]. split; [|exact A].
  eapply N.le_lt_trans; [|exact HB]. rewrite <- (N.mul_1_r (prodN cnt + _)) at 1. apply N.mul_le_mono_l. lia.
Qed.
Lemma e_size m : read_size m ds e dst = Ok (prodN cnt * d_dsize ds).
Proof.
  pose proof (er_sizes _ _ _ _ _ _ HE) as HB. pose proof (er_sel _ _ _ _ _ _ HE) as Hsel.
  unfold read_size. rewrite (counts_of _ _ _ _ (er_start _ _ _ _ _ _ HE)). cbn [bind].
  rewrite product64_ok. 2:{ destruct Hsel as (_ & _ & HP & _). exact HP. } 2:{ pose proof e_bound. lia. }
  cbn [bind]. rewrite mul64_ok by (rewrite N.mul_add_distr_r in HB; lia). cbn [bind].
  rewrite (er_dst _ _ _ _ _ _ HE), N.leb_refl. reflexivity.
Qed.

(** What both builds iterate. *)
Lemma e_segs : exists segs,
  chunk_slices Release fuel ds e = (segs, SDone) /\
  Forall (fun '(c, a, b) => In c (d_chunks ds) /\ a < prodN (d_chunk_shape ds) /\ a < b /\ b <= a + 3 * reach cnt (d_chunk_shape ds)) segs /\
  (forall l sg l', segs = l ++ sg :: l' -> total l < prodN cnt) /\ prodN cnt <= total segs /\
  ((debug_completes ds e fuel /\ chunk_slices Debug fuel ds e = (segs, SDone) /\
    Forall (fun '(_, a, b) => a < b /\ b <= prodN (d_chunk_shape ds)) segs /\ total segs = prodN cnt) \/
   (~ debug_completes ds e fuel /\ exists l l', segs = l ++ l' /\ chunk_slices Debug fuel ds e = (l, SPanic) /\
    ~ (Forall (fun '(_, a, b) => a < b /\ b <= prodN (d_chunk_shape ds)) segs /\ total segs = prodN cnt))).
Proof.
  pose proof (er_fuel _ _ _ _ _ _ HE) as Hf.
  destruct (C15_release_exact ds e idx cnt (er_full _ _ _ _ _ _ HE) (er_start _ _ _ _ _ _ HE) (er_sel _ _ _ _ _ _ HE) (proj1 e_bound) (er_single _ _ _ _ _ _ HE))
    as (segs & R1 & R2 & R3 & R6 & R4 & R5). cbv zeta in *.
  exists segs. split; [now apply R1|]. split; [exact R2|]. split; [exact R3|]. split; [exact R6|].
  assert (Hdec : {Forall (fun '(_, a, b) => a < b /\ b <= prodN (d_chunk_shape ds)) segs /\ total segs = prodN cnt} +
                 {~ (Forall (fun '(_, a, b) => a < b /\ b <= prodN (d_chunk_shape ds)) segs /\ total segs = prodN cnt)}).
  { destruct (Forall_dec (fun '(_, a, b) => a < b /\ b <= prodN (d_chunk_shape ds)) (fun sg : segment => let '(_, a, b) := sg in
      match n_lt_dec a b, n_le_dec b (prodN (d_chunk_shape ds)) with left X, left Y => left (conj X Y) | right X, _ => right (fun H => X (proj1 H)) | _, right Y => right (fun H => Y (proj2 H)) end) segs) as [A|A]; [|right; tauto].
    destruct (N.eq_dec (total segs) (prodN cnt)); [left; auto|right; tauto]. }
  destruct Hdec as [HS|HS].
  - left. unfold debug_completes. rewrite (R4 HS fuel Hf). auto.
  - right. destruct (R5 HS fuel Hf) as (l & l' & X1 & X2). unfold debug_completes. rewrite X2. cbn [snd].
    split; [discriminate|]. exists l, l'. auto.
Qed.

(** Release bounds. *)
Lemma e_byte m k : k <= prodN cnt + 4 * reach cnt (d_chunk_shape ds) -> mul64 m k (d_dsize ds) = Ok (k * d_dsize ds).
Proof.
  intros Hk. apply mul64_ok. eapply N.le_lt_trans; [|exact (er_sizes _ _ _ _ _ _ HE)]. now apply N.mul_le_mono_r.
Qed.

Lemma e_writes m segs os : Forall (fun '(c, a, b) => In c (d_chunks ds) /\ a < prodN (d_chunk_shape ds) /\ a < b /\ b <= a + 3 * reach cnt (d_chunk_shape ds)) segs ->
  Forall2 (seg_ok m (load m inflate file ds (csize ds)) (d_dsize ds)) segs os ->
  Forall (fun '(_, a, b) => a < b /\ b <= prodN (d_chunk_shape ds)) segs /\ lenN (concat os) = total segs * d_dsize ds.
Proof.
  pose proof e_bound as [_ HQ]. pose proof e_dsize as Hd. intros HF H. induction H as [|[[c a] b] o segs os Hsg H IH]; [split; [constructor|reflexivity]|].
  apply Forall_cons_iff in HF as [(Hc & Ha & Hab & Hb) HF]. destruct (IH HF) as [I1 I2]. destruct Hsg as (s & t & data & Es & Et & Hst & EL & Hdl & ->).
  rewrite e_byte in Es by lia. rewrite e_byte in Et by lia. injection Es as <-. injection Et as <-.
  destruct (e_load c Hc) as (data' & Ld & E'). rewrite E' in EL. injection EL as <-. split.
  - constructor; auto. split; [exact Hab|]. rewrite Ld in Hdl. unfold csize in Hdl. apply N.mul_le_mono_pos_r in Hdl; auto.
  - cbn [concat]. rewrite lenN_app, slice_len, I2 by auto. unfold total. cbn [map sumN]. rewrite N.mul_add_distr_r, N.mul_sub_distr_r. reflexivity.
Qed.

Lemma plain_both :
  (debug_completes ds e fuel -> exists d, forall m, plain_read m inflate fuel file ds (csize ds) e dst = (Ok (prodN cnt * d_dsize ds), d)) /\
  (~ debug_completes ds e fuel -> forall m, exists d, plain_read m inflate fuel file ds (csize ds) e dst = (Panic, d)).
Proof.
  destruct e_segs as (segs & R1 & R2 & R3 & R6 & R4). pose proof e_bound as [_ HQ]. split.
  - intros HC. destruct R4 as [(_ & D1 & D2 & D3)|[HN _]]; [|contradiction].
    assert (HW : forall m, exists os, Forall2 (seg_ok m (load m inflate file ds (csize ds)) (d_dsize ds)) segs os).
    { intros m. clear R1 R3 R6 D1 D3. induction segs as [|[[c a] b] segs IH]; [exists []; constructor|].
      apply Forall_cons_iff in R2 as [(Hc & Ha & Hab & Hb) R2]. apply Forall_cons_iff in D2 as [(_ & HP) D2]. destruct (IH R2 D2) as (os & Hos).
      destruct (e_load c Hc) as (data & Ld & E').
      exists (firstn (N.to_nat (b * d_dsize ds - a * d_dsize ds)) (skipn (N.to_nat (a * d_dsize ds)) data) :: os). constructor; [|exact Hos].
      exists (a * d_dsize ds), (b * d_dsize ds), data. rewrite !e_byte by lia. repeat split; auto.
      - apply N.mul_le_mono_r. lia.
      - rewrite Ld. unfold csize. now apply N.mul_le_mono_r. }
    destruct (HW Debug) as (os & Hos).
    assert (Hlen : lenN (concat os) <= lenN dst).
    { rewrite (proj2 (e_writes _ _ _ R2 Hos)), D3, (er_dst _ _ _ _ _ _ HE). lia. }
    exists (splice dst 0 (concat os)). intros m. apply plain_read_iff. split; [apply e_size|]. exists (concat os). split; [|reflexivity].
    exists segs, os. split; [destruct m; assumption|]. split; [|auto]. clear - Hos HE HL R2 HQ.
    induction Hos as [|[[c a] b] o segs os Hsg H IH]; constructor; [|apply IH; now apply Forall_cons_iff in R2].
    apply Forall_cons_iff in R2 as [(Hc & Ha & Hab & Hb) _].
    destruct Hsg as (s & t & data & Es & Et & Hst & EL & Hdl & ->). rewrite e_byte in Es by lia. rewrite e_byte in Et by lia. injection Es as <-. injection Et as <-.
    destruct (e_load c Hc) as (data' & Ld & E'). rewrite E' in EL. injection EL as <-.
    exists (a * d_dsize ds), (b * d_dsize ds), data'. rewrite !e_byte by lia. repeat split; auto.
  - intros HC m. destruct R4 as [(HY & _)|(_ & l & l' & -> & D1 & D2)]; [contradiction|].
    assert (HLd : forall m k, Forall (fun '(c, a, b) => In c (d_chunks ds) /\ a < prodN (d_chunk_shape ds) /\ a < b /\ b <= a + 3 * reach cnt (d_chunk_shape ds)) k ->
      Forall (fun '(c, _, _) => exists d, load m inflate file ds (csize ds) c = Ok d) (k : list segment)).
    { intros m0 k Hk. eapply Forall_impl; [|exact Hk]. intros [[c a] b] (Hc & _). destruct (e_load c Hc) as (data & _ & E'). eauto. }
    destruct m.
    + unfold plain_read. rewrite e_size, D1. apply Forall_app in R2 as [R2 _].
      destruct (plain_loop_panic Debug (load Debug inflate file ds (csize ds)) (d_dsize ds) l 0 dst (HLd _ _ R2)) as (d & ->). eauto.
    + destruct (plain_loop_ok_or Release (load Release inflate file ds (csize ds)) (d_dsize ds) SDone ltac:(discriminate) (l ++ l') 0 dst (HLd _ _ R2)) as (d & [X|X]).
      * exfalso. assert (HP : plain_read Release inflate fuel file ds (csize ds) e dst = (Ok (prodN cnt * d_dsize ds), d)).
        { unfold plain_read. now rewrite e_size, R1, X. }
        apply plain_read_iff in HP as (_ & out & (segs & os & EC & Hos & -> & Hle) & _). rewrite R1 in EC. injection EC as <-.
        destruct (e_writes _ _ _ R2 Hos) as [W1 W2]. apply D2. split; [exact W1|].
        rewrite W2, (er_dst _ _ _ _ _ _ HE) in Hle. apply N.mul_le_mono_pos_r in Hle; [lia|exact e_dsize].
      * exists d. unfold plain_read. now rewrite e_size, R1, X.
Qed.
End Exact.

(** ** What tasks and the sequential direct reader can end with *)
Lemma bind_ok_or {A B} (x : res A) (f : A -> res B) : (exists r, x = Ok r) \/ x = Panic ->
  (forall r, (exists t, f r = Ok t) \/ f r = Panic) -> (exists t, bind x f = Ok t) \/ bind x f = Panic.
Proof. intros [[r ->]| ->] H; cbn [bind]; auto. Qed.
Lemma dbg_ok_or m b : (exists r, dbg m b = Ok r) \/ dbg m b = Panic.
Proof. destruct m, b; cbn; eauto. Qed.
Lemma assert_ok_or b : (exists r, assert_ b = Ok r) \/ assert_ b = Panic.
Proof. destruct b; cbn; eauto. Qed.
Lemma slice_range_ok_or {A} (l : list A) a b : (exists r, slice_range l a b = Ok r) \/ slice_range l a b = Panic.
Proof. unfold slice_range. destruct (_ && _); eauto. Qed.
Lemma copy_at_ok_or m data dsz cur a b dst : (exists d, copy_at m data dsz cur a b dst = Ok d) \/ copy_at m data dsz cur a b dst = Panic.
Proof.
  unfold copy_at. do 3 (apply bind_ok_or; [apply arith_ok_or; auto|intros ?]). do 2 (apply bind_ok_or; [apply dbg_ok_or|intros _]).
  do 2 (apply bind_ok_or; [apply arith_ok_or; auto|intros ?]). apply bind_ok_or; [apply assert_ok_or|intros _].
  apply bind_ok_or; [apply slice_range_ok_or|intros ?]. apply bind_ok_or; [apply assert_ok_or|intros _]. eauto.
Qed.
Lemma scan_ok_or m : forall l off, (exists r, scan_dest m off l = Ok r) \/ scan_dest m off l = Panic.
Proof.
  induction l as [|[[c a] b] l IH]; intros off; cbn [scan_dest]; [eauto|].
  do 2 (apply bind_ok_or; [apply arith_ok_or; auto|intros ?]). apply bind_ok_or; [apply IH|eauto].
Qed.
Lemma group_ok_or sort m fuel ds e : snd (chunk_slices m fuel ds e) <> SFuel ->
  (exists G, group_chunk_slices sort m fuel ds e = Ok G) \/ group_chunk_slices sort m fuel ds e = Panic.
Proof.
  unfold group_chunk_slices, dest_slices. destruct (chunk_slices m fuel ds e) as [l []]; cbn [snd]; intros H; [|cbn [bind]; auto|congruence].
  apply bind_ok_or; [apply scan_ok_or|eauto].
Qed.
Lemma direct_loop_ok_or m inflate r file : forall G last dst, Forall (fun g => exists d, load m inflate file (dr_ds r) (dr_csz r) (g_chunk g) = Ok d) G ->
  exists d, direct_loop m inflate r file G last dst = (Ok tt, d) \/ direct_loop m inflate r file G last dst = (Panic, d).
Proof.
  induction G as [|[[[c cur] a] b] G IH]; intros last dst HF; cbn [direct_loop]; [eauto|].
  apply Forall_cons_iff in HF as [[data EL] HF]. unfold g_chunk in EL. cbn [fst] in EL.
  assert (exists data', direct_load m inflate r file last c = Ok data') as (data' & ->).
  { unfold direct_load. destruct last as [[k dd]|]; [destruct (k =? c_addr c); eauto|eauto]. }
  destruct (copy_at_ok_or m data' (d_dsize (dr_ds r)) cur a b dst) as [[d ->]| ->]; cbn [failed]; eauto.
Qed.
Lemma direct_ok_or m inflate sort fuel r file e dst : addr_sort sort -> dr_file r = Some file -> (exists v, read_size m (dr_ds r) e dst = Ok v) ->
  snd (chunk_slices m fuel (dr_ds r) e) <> SFuel ->
  (forall c, In c (d_chunks (dr_ds r)) -> exists d, load m inflate file (dr_ds r) (dr_csz r) c = Ok d) ->
  exists d, (exists v, direct_read m inflate sort fuel r e dst = (Ok v, d)) \/ direct_read m inflate sort fuel r e dst = (Panic, d).
Proof.
  intros HS Hf (v & Ev) HN HL. unfold direct_read. rewrite Ev, Hf.
  destruct (group_ok_or sort m fuel (dr_ds r) e HN) as [(G & EG)|EG]; rewrite EG; cbn [failed]; [|eauto].
  pose proof (group_chunks _ _ _ _ _ _ HS EG) as HG.
  destruct (direct_loop_ok_or m inflate r file G None dst) as (d & [-> | ->]); cbn [bind]; eauto.
  eapply Forall_impl; [|exact HG]. intros g Hg. auto.
Qed.
Lemma par_seg_no_err m data dsz cur a b dlen y : par_seg m data dsz cur a b dlen <> Err y.
Proof.
  unfold par_seg. intros H.
  repeat match type of H with bind ?t _ = _ => let E := fresh in assert (E : (exists r, t = Ok r) \/ t = Panic) by
    first [apply arith_ok_or; now auto|apply dbg_ok_or|apply assert_ok_or|apply slice_range_ok_or];
    destruct E as [[? E]|E]; rewrite E in H; cbn [bind] in H; [|discriminate] end.
  destruct (_ <=? _); discriminate.
Qed.
Lemma par_segs_no_err m data dsz dlen y : forall gs, snd (par_segs m data dsz dlen gs) <> FErr y.
Proof.
  induction gs as [|[[[c cur] a] b] gs IH]; cbn [par_segs]; [discriminate|].
  pose proof (par_seg_no_err m data dsz cur a b dlen) as HP.
  destruct (par_seg m data dsz cur a b dlen) as [ws|z| | |]; cbn [snd fin_of]; try discriminate.
  - destruct (par_segs m data dsz dlen gs). cbn [snd] in *. exact IH.
  - intros _. now apply (HP z).
Qed.
Lemma par_no_err m inflate sort fuel r file e dst x d : addr_sort sort -> dr_file r = Some file -> (exists v, read_size m (dr_ds r) e dst = Ok v) ->
  snd (chunk_slices m fuel (dr_ds r) e) <> SFuel ->
  (forall c, In c (d_chunks (dr_ds r)) -> exists d, load m inflate file (dr_ds r) (dr_csz r) c = Ok d) ->
  par_read m inflate sort fuel r e dst x d -> (exists v, x = Ok v) \/ x = Panic \/ x = Ub.
Proof.
  intros HS Hf (v & Ev) HN HL HR.
  inversion HR as [x' E1 E2|v' x' E1 E2 E3|v' G final d' x' E1 E2 E3 E4 E5]; subst.
  - now destruct (E2 v).
  - destruct (group_ok_or sort m fuel (dr_ds r) e HN) as [(G & EG)| ->]; [now destruct (E3 G)|auto].
  - destruct x' as [[]|z| | |]; cbn [bind]; eauto.
    + exfalso. rewrite map_waiting in E3. pose proof (par_result_from _ _ _ _ _ E3 E5) as HF. cbv beta iota in HF.
      change (map _ (chunk_by_addr G)) with (tasks_of m inflate r (lenN dst) G) in HF.
      apply in_tasks in HF as (grp & Hg & HF). pose proof (group_chunks _ _ _ _ _ _ HS E2) as HG.
      unfold par_task in HF. rewrite Hf in HF. destruct grp as [|[[[c cur] a] b] grp]; [discriminate|].
      assert (Hc : In c (d_chunks (dr_ds r))).
      { rewrite Forall_forall in HG. apply (HG (c, cur, a, b)). rewrite <- (chunk_by_concat G). apply in_concat. exists ((c, cur, a, b) :: grp). split; [exact Hg|now left]. }
      destruct (HL c Hc) as (data & EL). rewrite EL in HF. symmetry in HF. now apply par_segs_no_err in HF.
    + exfalso. rewrite map_waiting in E3. now pose proof (par_result_from _ _ _ _ _ E3 E5).
Qed.

(** ** C76: builds with and without debug assertions complete the same reads *)
Section Builds.
Context (inflate : bytes -> option bytes) (file : bytes) (ds : dataset) (e : extents) (idx cnt : list N) (dst : bytes) (fuel : nat).
Hypothesis HE : exact_read ds e idx cnt dst fuel.
Hypothesis HL : forall c, In c (d_chunks ds) -> readable inflate file ds c.

Lemma b_same : same_addr ds.
Proof. apply (er_reg _ _ _ _ _ _ HE). Qed.
Lemma b_csz m csz : chunk_bytes m ds = Ok csz -> csz = csize ds.
Proof. apply csize_fresh; [apply (fd_made _ (er_full _ _ _ _ _ _ HE))|apply (er_reg _ _ _ _ _ _ HE)]. Qed.
Lemma b_len : lenN dst < W64.
Proof. pose proof (er_sizes _ _ _ _ _ _ HE). rewrite (er_dst _ _ _ _ _ _ HE). rewrite N.mul_add_distr_r in *. lia. Qed.
Lemma b_nofuel m : snd (chunk_slices m fuel ds e) <> SFuel.
Proof.
  destruct (e_segs ds e idx cnt dst fuel HE) as (segs & R1 & _ & _ & _ & [(_ & R2 & _)|(_ & l & l' & _ & R2 & _)]); destruct m; rewrite ?R1, ?R2; discriminate.
Qed.
Lemma b_load m c : In c (d_chunks ds) -> exists d, load m inflate file ds (csize ds) c = Ok d.
Proof. intros Hc. destruct (e_load inflate file ds e idx cnt dst fuel HE HL c Hc) as (d & _ & H). eauto. Qed.

End Builds.

Theorem C76_same_completions inflate sort file ds e idx cnt dst fuel :
  exact_read ds e idx cnt dst fuel -> addr_sort sort -> (forall c, In c (d_chunks ds) -> readable inflate file ds c) ->
  let size := prodN cnt * d_dsize ds in
  (debug_completes ds e fuel -> exists d, forall m,
     (forall r, reachable m inflate ds file r -> fst (cache_read m inflate fuel r e dst) = (Ok size, d)) /\
     (forall r, direct_new m ds (Some file) = Ok r ->
        direct_read m inflate sort fuel r e dst = (Ok size, d) /\
        forall x d', par_read m inflate sort fuel r e dst x d' -> x = Ok size /\ d' = d)) /\
  (~ debug_completes ds e fuel -> forall m,
     (forall r, reachable m inflate ds file r -> exists d, fst (cache_read m inflate fuel r e dst) = (Panic, d)) /\
     (forall r, direct_new m ds (Some file) = Ok r ->
        (exists d, direct_read m inflate sort fuel r e dst = (Panic, d)) /\
        forall x d', par_read m inflate sort fuel r e dst x d' -> x = Panic \/ m = Release /\ x = Ub)).
Proof.
  intros HE HS HL size. pose proof (b_same _ _ _ _ _ _ HE) as HA. pose proof (e_dsize _ _ _ _ _ _ HE) as Hd. pose proof (b_len _ _ _ _ _ _ HE) as HW.
  assert (HC : forall m r, reachable m inflate ds file r -> fst (cache_read m inflate fuel r e dst) = plain_read m inflate fuel file ds (csize ds) e dst).
  { intros m r Hr. rewrite (cache_read_reachable m inflate ds file r fuel e dst HA Hr).
    destruct (reachable_inv _ _ _ _ _ HA Hr) as (_ & _ & E & _). now rewrite (b_csz _ _ _ _ _ _ HE _ _ E). }
  assert (HD : forall m r, direct_new m ds (Some file) = Ok r -> dr_ds r = ds /\ dr_file r = Some file /\ dr_csz r = csize ds).
  { intros m r Hr. unfold direct_new in Hr. apply bind_ok in Hr as (csz & E & Hr). injection Hr as <-. cbn [dr_ds dr_file dr_csz].
    split; [reflexivity|]. split; [reflexivity|]. exact (b_csz _ _ _ _ _ _ HE _ _ E). }
  destruct (plain_both inflate file ds e idx cnt dst fuel HE HL) as [P1 P2]. split.
  - intros Hc. destruct (P1 Hc) as (d & P). exists d. intros m. split; [intros r Hr; rewrite (HC m r Hr); apply P|].
    intros r Hr. destruct (HD m r Hr) as (D1 & D2 & D3). rewrite <- D1 in HA, Hd. specialize (P m). split.
    + apply (direct_read_iff m inflate sort fuel r file); auto. now rewrite D1, D3.
    + intros x d' HR. apply (par_of_plain m inflate sort fuel r file e dst size d x d'); auto. now rewrite D1, D3.
  - intros Hc m. destruct (P2 Hc m) as (d & P). split; [intros r Hr; exists d; now rewrite (HC m r Hr)|].
    intros r Hr. destruct (HD m r Hr) as (D1 & D2 & D3).
    assert (HSz : exists v, read_size m (dr_ds r) e dst = Ok v) by (rewrite D1; eexists; eapply e_size; exact HE).
    assert (HNF : snd (chunk_slices m fuel (dr_ds r) e) <> SFuel) by (rewrite D1; eapply b_nofuel; exact HE).
    assert (HLd : forall c, In c (d_chunks (dr_ds r)) -> exists d, load m inflate file (dr_ds r) (dr_csz r) c = Ok d).
    { rewrite D1, D3. eapply b_load; eauto. }
    rewrite <- D1 in HA, Hd. split.
    + destruct (direct_ok_or m inflate sort fuel r file e dst HS D2 HSz HNF HLd) as (d1 & [(v & X)|X]); [|eauto].
      exfalso. apply (direct_read_iff m inflate sort fuel r file) in X; auto. rewrite D1, D3, P in X. discriminate.
    + intros x d' HR. destruct (par_no_err m inflate sort fuel r file e dst x d' HS D2 HSz HNF HLd HR) as [(v & ->)|[-> | ->]]; [|auto|].
      * exfalso. apply (plain_of_par m inflate sort fuel r file) in HR; auto. rewrite D1, D3, P in HR. discriminate.
      * right. destruct m; [|auto]. exfalso. now destruct (par_debug _ _ _ _ _ _ _ _ HS HR).
Qed.
Print Assumptions C76_same_completions.

(** ** C26: when the parallel reader of a release build writes outside the buffer

    Outside [single_end], reading into a buffer of the size of the selection from a file whose
    chunks are all readable: only if the segments go beyond the selection, and then the last one
    does, and is inside its chunk.  If all segments are inside their chunks, every schedule of such
    a read writes outside the buffer. *)
Lemma par_seg_release data dsz cur a b dlen : cur * dsz <= dlen -> dlen < W64 -> a <= b -> b * dsz < W64 ->
  (b * dsz <= lenN data -> (cur + (b - a)) * dsz <= dlen -> exists ws, par_seg Release data dsz cur a b dlen = Ok ws) /\
  (b * dsz <= lenN data -> dlen < (cur + (b - a)) * dsz -> par_seg Release data dsz cur a b dlen = Ub) /\
  (lenN data < b * dsz -> par_seg Release data dsz cur a b dlen = Panic).
Proof.
  intros Hc HW Hab Hb. unfold par_seg. assert (Hm : a * dsz <= b * dsz) by now apply N.mul_le_mono_r.
  rewrite !mul64_ok by lia. cbn [bind dbg]. rewrite sub64_ok by exact Hm. cbn [bind]. rewrite (proj2 (N.leb_le _ _) Hc). cbn [assert_ bind].
  unfold slice_range. rewrite (proj2 (N.leb_le _ _) Hm). cbn [andb].
  rewrite N.mul_add_distr_r, N.mul_sub_distr_r. split; [|split].
  - intros X Y. rewrite (proj2 (N.leb_le _ _) X). cbn [bind]. rewrite (proj2 (N.leb_le _ _) Y). eauto.
  - intros X Y. rewrite (proj2 (N.leb_le _ _) X). cbn [bind]. rewrite (proj2 (N.leb_gt _ _) Y). reflexivity.
  - intros X. rewrite (proj2 (N.leb_gt _ _) X). reflexivity.
Qed.
Lemma par_segs_in m data dsz dlen f : forall gs, snd (par_segs m data dsz dlen gs) = f -> f <> FOk ->
  exists c cur a b, In (c, cur, a, b) gs /\ fin_of (par_seg m data dsz cur a b dlen) = f.
Proof.
  induction gs as [|[[[c cur] a] b] gs IH]; cbn [par_segs]; intros H Hf; [cbn in H; congruence|].
  destruct (par_seg m data dsz cur a b dlen) as [ws|z| | |] eqn:E; cbn [snd] in H.
  2-5: exists c, cur, a, b; split; [now left|]; rewrite E; exact H.
  destruct (par_segs m data dsz dlen gs) as [ws' f']. cbn [snd] in *. destruct (IH H Hf) as (c' & cur' & a' & b' & X & Y).
  exists c', cur', a', b'. split; [now right|exact Y].
Qed.
Lemma dests_in_split l : forall off c cur a b, In (c, cur, a, b) (dests off l) -> exists l1 l2, l = l1 ++ (c, a, b) :: l2 /\ cur = off + total l1.
Proof.
  unfold total. induction l as [|[[c' a'] b'] l IH]; intros off c cur a b H; cbn [dests In] in H; [easy|].
  destruct H as [H|H].
  - injection H as <- <- <- <-. exists [], l. split; [reflexivity|]. cbn. lia.
  - destruct (IH _ _ _ _ _ H) as (l1 & l2 & -> & ->). exists ((c', a', b') :: l1), l2. split; [reflexivity|]. cbn [map sumN]. lia.
Qed.

Theorem C26_release_exact inflate sort file ds e idx cnt dst fuel r x d :
  exact_read ds e idx cnt dst fuel -> addr_sort sort -> (forall c, In c (d_chunks ds) -> readable inflate file ds c) ->
  direct_new Release ds (Some file) = Ok r -> par_read Release inflate sort fuel r e dst x d ->
  let segs := fst (chunk_slices Release fuel ds e) in
  let elements := sumN (map (fun '(_, a, b) => b - a) segs) in
  (x = Ub -> prodN cnt < elements /\ exists l c a b, segs = l ++ [(c, a, b)] /\ b <= prodN (d_chunk_shape ds)) /\
  (Forall (fun '(_, _, b) => b <= prodN (d_chunk_shape ds)) segs -> (x = Ub <-> prodN cnt < elements)).
Proof.
  intros HE HS HL Hr HR. pose proof (b_same _ _ _ _ _ _ HE) as HA. pose proof (e_dsize _ _ _ _ _ _ HE) as Hd. pose proof (b_len _ _ _ _ _ _ HE) as HW.
  assert (HD : dr_ds r = ds /\ dr_file r = Some file /\ dr_csz r = csize ds).
  { unfold direct_new in Hr. apply bind_ok in Hr as (csz & E & Hr). injection Hr as <-. cbn [dr_ds dr_file dr_csz].
    split; [reflexivity|]. split; [reflexivity|]. exact (b_csz _ _ _ _ _ _ HE _ _ E). }
  destruct HD as (D1 & D2 & D3).
  destruct (e_segs ds e idx cnt dst fuel HE) as (segs & R1 & R2 & R3 & R6 & R4). pose proof (e_bound ds e idx cnt dst fuel HE) as [_ HQ].
  cbv zeta. rewrite R1. cbn [fst]. fold (total segs).
  assert (HSz : read_size Release (dr_ds r) e dst = Ok (prodN cnt * d_dsize ds)) by (rewrite D1; eapply e_size; exact HE).
  assert (HT : total segs <= prodN cnt + 3 * reach cnt (d_chunk_shape ds)).
  { destruct segs as [|s0 segs0] using rev_ind; [unfold total; cbn; lia|]. clear IHsegs0. specialize (R3 segs0 s0 [] eq_refl).
    unfold total in *. rewrite map_app, sumN_app. cbn [map sumN]. apply Forall_app in R2 as [_ R2]. apply Forall_cons_iff in R2 as [R2 _].
    destruct s0 as [[c a] b]. apply N.add_le_mono; [apply N.lt_le_incl; exact R3|]. clear - R2. lia. }
  pose proof (er_sizes _ _ _ _ _ _ HE) as HB. pose proof (e_bound ds e idx cnt dst fuel HE) as [HB1 _].
  assert (ES : scan_dest Release 0 segs = Ok (dests 0 segs)).
  { apply scan_dest_ok; [|lia]. eapply Forall_impl; [|exact R2]. intros [[c a] b]. intros. lia. }
  assert (EG : group_chunk_slices sort Release fuel (dr_ds r) e = Ok (sort (dests 0 segs))).
  { unfold group_chunk_slices, dest_slices. now rewrite D1, R1, ES. }
  set (G := sort (dests 0 segs)) in *. assert (PG : Permutation G (dests 0 segs)) by apply HS.
  assert (HG : forall c cur a b, In (c, cur, a, b) G -> exists l1 l2, segs = l1 ++ (c, a, b) :: l2 /\ cur = total l1 /\ cur < prodN cnt /\
             In c (d_chunks ds) /\ a < b /\ b * d_dsize ds < W64).
  { intros c cur a b Hg. apply (Permutation_in _ PG), dests_in_split in Hg as (l1 & l2 & E & ->). exists l1, l2. rewrite N.add_0_l.
    split; [exact E|]. split; [reflexivity|]. split; [eapply R3; exact E|]. rewrite E in R2. apply Forall_app in R2 as [_ R2]. apply Forall_cons_iff in R2 as [(X1 & X2 & X3 & X4) _].
    split; [exact X1|]. split; [exact X3|]. eapply N.le_lt_trans; [|exact HB]. apply N.mul_le_mono_r. clear - X2 X3 X4 HQ. lia. }
  (* what a task that fails does *)
  assert (HK : forall f, In f (map snd (tasks_of Release inflate r (lenN dst) G)) -> f <> FOk ->
     exists l1 l2 c a b, segs = l1 ++ (c, a, b) :: l2 /\
       (f = FUb -> b <= prodN (d_chunk_shape ds) /\ prodN cnt < total l1 + (b - a)) /\ (f <> FUb -> prodN (d_chunk_shape ds) < b)).
  { intros f Hf Hne. apply in_tasks in Hf as (grp & Hgrp & Hf). symmetry in Hf. unfold par_task in Hf. rewrite D2 in Hf.
    assert (Hin : forall g, In g grp -> In g G).
    { intros g Hg. rewrite <- (chunk_by_concat G). apply in_concat. eauto. }
    pose proof (chunk_by_ok G) as CK. rewrite Forall_forall in CK. specialize (CK grp Hgrp).
    destruct grp as [|[[[c0 cur0] a0] b0] grp0]; [contradiction|]. 
    destruct (HG c0 cur0 a0 b0) as (_ & _ & _ & _ & _ & Hc0 & _); [apply Hin; now left|].
    rewrite D1, D3 in Hf. destruct (e_load inflate file ds e idx cnt dst fuel HE HL c0 Hc0) as (data & Ld & EL). rewrite EL in Hf.
    apply par_segs_in in Hf as (c & cur & a & b & Hg & Hfin); [|exact Hne].
    destruct (HG c cur a b (Hin _ Hg)) as (l1 & l2 & E & -> & Hlt & Hc & Hab & Hbw). exists l1, l2, c, a, b. split; [exact E|].
    assert (Hp : total l1 * d_dsize ds <= lenN dst) by (rewrite (er_dst _ _ _ _ _ _ HE); apply N.mul_le_mono_r; lia).
    destruct (par_seg_release data (d_dsize ds) (total l1) a b (lenN dst) Hp HW ltac:(lia) Hbw) as (K1 & K2 & K3).
    destruct (N.le_gt_cases b (prodN (d_chunk_shape ds))) as [Hin'|Hout].
    - assert (X : b * d_dsize ds <= lenN data) by (rewrite Ld; unfold csize; now apply N.mul_le_mono_r).
      destruct (N.le_gt_cases ((total l1 + (b - a)) * d_dsize ds) (lenN dst)) as [Y|Y].
      + destruct (K1 X Y) as (ws & E'). rewrite E' in Hfin. cbn [fin_of] in Hfin. congruence.
      + rewrite (K2 X Y) in Hfin. cbn [fin_of] in Hfin. subst f. split; [|congruence]. intros _. split; [exact Hin'|].
        rewrite (er_dst _ _ _ _ _ _ HE) in Y. apply N.mul_lt_mono_pos_r in Y; auto.
    - assert (X : lenN data < b * d_dsize ds) by (rewrite Ld; unfold csize; now apply N.mul_lt_mono_pos_r).
      rewrite (K3 X) in Hfin. cbn [fin_of] in Hfin. subst f. split; [discriminate|]. auto. }
  assert (HU : x = Ub -> prodN cnt < total segs /\ exists l c a b, segs = l ++ [(c, a, b)] /\ b <= prodN (d_chunk_shape ds)).
  { intros ->. inversion HR as [x' E1 E2|v' x' E1 E2 E3 E6|v' G' final d' x' E1 E2 E3 E4 E5 E6]; subst.
    - congruence.
    - rewrite EG in E3. now destruct (E3 G).
    - rewrite EG in E2. injection E2 as <-. rewrite map_waiting in E3. fold (tasks_of Release inflate r (lenN dst) G) in E3.
      pose proof (par_result_from _ _ _ _ _ E3 E5) as HF. destruct x' as [[]| | | |]; cbn [bind] in E6; try discriminate.
      destruct (HK FUb HF ltac:(discriminate)) as (l1 & l2 & c & a & b & E & HU & _). destruct (HU eq_refl) as [U1 U2].
      destruct l2 as [|s2 l2].
      + split; [|exists l1, c, a, b; auto]. rewrite E. unfold total in *. rewrite map_app, sumN_app. cbn [map sumN]. lia.
      + exfalso. specialize (R3 (l1 ++ [(c, a, b)]) s2 l2). rewrite <- app_assoc in R3. specialize (R3 E). unfold total in *.
        rewrite map_app, sumN_app in R3. cbn [map sumN] in R3. lia. }
  split; [exact HU|]. intros HP. split; [intros Hx; now apply HU|]. intros Hmore.
  destruct R4 as [(_ & _ & _ & HT')|(HN & _)]; [lia|].
  destruct (C76_same_completions inflate sort file ds e idx cnt dst fuel HE HS HL) as [_ B].
  destruct (B HN Release) as [_ B2]. destruct (B2 r Hr) as [_ B3]. destruct (B3 x d HR) as [-> |[_ ->]]; [|reflexivity]. exfalso.
  inversion HR as [x' E1 E2|v' x' E1 E2 E3 E6|v' G' final d' x' E1 E2 E3 E4 E5 E6]; subst.
  - congruence.
  - rewrite EG in E3. now destruct (E3 G).
  - rewrite EG in E2. injection E2 as <-. rewrite map_waiting in E3. fold (tasks_of Release inflate r (lenN dst) G) in E3.
    pose proof (par_result_from _ _ _ _ _ E3 E5) as HF. destruct x' as [[]| | | |]; cbn [bind] in E6; try discriminate.
    destruct (HK FPanic HF ltac:(discriminate)) as (l1 & l2 & c & a & b & E & _ & HU'). specialize (HU' ltac:(discriminate)).
    rewrite E in HP. apply Forall_app in HP as [_ HP]. apply Forall_cons_iff in HP as [HP _]. lia.
Qed.
Print Assumptions C26_release_exact.

(** Reads on each side: part of a stored dataset, and the last column of 4 x 11 in 2 x 10 chunks. *)
Example C76_case :
  (exact_read st_ds st_sel [1; 2] [3; 4] (repeat 0 24) 13 /\ debug_completes st_ds st_sel 13 /\
   forall c, In c (d_chunks st_ds) -> readable toy_inflate st_file st_ds c) /\
  (exact_read col_ds col_sel [0; 10] [4; 1] (repeat 0 16) 5 /\ ~ debug_completes col_ds col_sel 5 /\
   (forall c, In c (d_chunks col_ds) -> readable toy_inflate (repeat 7 5000) col_ds c) /\
   Forall (fun '(_, _, b) => b <= prodN (d_chunk_shape col_ds)) (fst (chunk_slices Release 5 col_ds col_sel)) /\
   prodN [4; 1] < sumN (map (fun '(_, a, b) => b - a) (fst (chunk_slices Release 5 col_ds col_sel))) /\
   exists r, direct_new Release col_ds (Some (repeat 7 5000)) = Ok r).
Proof.
  split.
  - destruct (st_safe (repeat 0 24) 13) as [S1 S2 S3 S4]; [vm_compute; discriminate|reflexivity|lia|]. split; [|split].
    + constructor; try assumption; try reflexivity; try (exact st_full); try (exact st_regular); lia.
    + reflexivity.
    + intros c Hc. destruct (load_stores Debug toy_inflate st_file st_ds st_value c st_stores Hc) as (raw & E & _).
      destruct (load_total Debug toy_inflate st_file st_ds c st_regular Hc) as [[H _]|[_ (z & H)]]; [exact H|congruence].
  - destruct (C26_release_refuted toy_inflate) as (A & B & C & D & F & G & _). split; [|split; [|split; [|split; [|split]]]].
    + constructor; try assumption; try reflexivity. vm_compute. lia.
    + discriminate.
    + exact F.
    + replace (fst (chunk_slices Release 5 col_ds col_sel)) with [(mkChunk 2000 80 [0; 10], 0, 11)] by (vm_compute; reflexivity).
      constructor; [vm_compute; discriminate|constructor].
    + vm_compute. reflexivity.
    + eexists. apply G.
Qed.
