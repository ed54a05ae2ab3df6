(** * Typed reads, reads from Python and the whole chain from the HDF5 file are exact for
    every selection, in both build modes (C45, C47, C52, C54).

    Each theorem is followed by a concrete case meeting its hypotheses. *)
From Verif Require Import Base Spec Safe SafeWrap Chunk Extent Dataset Slicer SpecApi ExtentProofs SerdeProofs TreeProofs Filters SpecFilter FilterProofs FilterProps ApiLemmas
  Reader SpecReader DirectProofs ParProofs ReaderProps ReadProofs CacheProofs StreamProofs ExamplesReader Examples SliceProps ExactReads
  SlicerRelease2 ExactFamily WrapProps IndexTree Serde SpecTree SpecSerde SpecEnd Python SpecPython PythonProofs Xarray
  Properties1 Properties4 Properties5 Properties6 Properties7 Properties8 Properties10 Properties12 Properties13 Properties16 Properties22 Properties23 Properties24
  Properties27 Properties31 Properties50.

(** ** [values] *)

Lemma values_reads_class m h k w al inflate file ds value e idx cnt fuel read :
  class_stream m inflate file ds value e idx cnt fuel ->
  d_dsize ds * (prodN cnt * d_dsize ds) < W64 ->
  d_dsize ds = N.of_nat w -> 0 < al -> N.of_nat w mod al = 0 ->
  let dst := repeat 0 (N.to_nat (prodN cnt * d_dsize ds)) in
  (forall v d, read e dst = (Ok v, d) -> lenN d = lenN dst /\ v = prodN cnt * d_dsize ds) ->
  (values m h k w al ds read e = Ok (native_values h k w ds value idx cnt) <->
   read e dst = (Ok (prodN cnt * d_dsize ds), concat (map value (slab idx cnt)))).
Proof.
  intros [A1 A2 A3 A4 A5 A6 A7 A8 A9] HW2 Hsz Hal Hwal dst Hlen.
  assert (Hw : (0 < w)%nat) by (pose proof (ss_pos _ (rg_sizes _ A2)); lia).
  assert (HF : fits64_lead cnt) by (apply (sel_lead _ idx cnt A6); clear - A7 Hsz Hw; nia).
  destruct (C47_values m h k w al ds read e idx cnt A5 HF A7 HW2 Hw Hal Hwal) as [_ HV].
  rewrite HV by (rewrite Hsz; apply N.mod_same; lia). clear HV. fold dst.
  assert (LD : lenN dst = prodN cnt * d_dsize ds) by (unfold lenN, dst; rewrite repeat_length; lia).
  assert (EN : native_values h k w ds value idx cnt = to_native_slice h k w (d_order ds) (concat (map value (slab idx cnt)))).
  { unfold native_values. rewrite to_native_concat, map_map; auto. apply Forall_forall. intros b Hb.
    apply in_map_iff in Hb as (c & <- & Hc).
    rewrite (value_length inflate file ds value idx cnt c A1 A3 A6 Hc), Hsz, Nat2N.id. apply Nat.mod_same. lia. }
  pose proof (slab_bytes_len inflate file ds value idx cnt A1 A3 A6) as LV.
  assert (LN : N.to_nat (prodN cnt * d_dsize ds) = (w * N.to_nat (prodN cnt))%nat) by (rewrite Hsz; lia).
  split; intros H.
  - destruct (read e dst) as [[v| | | |] d] eqn:ER; cbn [failed] in H; try discriminate.
    destruct (Hlen v d eq_refl) as [L1 ->]. injection H as H. rewrite EN in H.
    apply to_native_inj with (n := N.to_nat (prodN cnt)) in H; auto; [now rewrite H| |]; unfold lenN in *; lia.
  - rewrite H. now rewrite EN.
Qed.

Lemma word_zero w p n : (p < n)%nat -> word w p (repeat 0 (n * w)) = repeat 0 w.
Proof.
  intros H. unfold word. replace (n * w)%nat with (p * w + (w + (n - p - 1) * w))%nat by nia.
  rewrite repeat_app, skipn_app, skipn_all2 by (rewrite repeat_length; lia). rewrite repeat_length, Nat.sub_diag. cbn [app skipn].
  rewrite repeat_app, firstn_app, repeat_length, Nat.sub_diag, firstn_O, app_nil_r. apply firstn_all2. rewrite repeat_length. lia.
Qed.

(** [values] starts from a buffer of zeros: an element that is all zero bytes would look right
    without being written. *)
Definition no_zeros (m : mode) (ds : dataset) (value : list N -> bytes) (idx cnt : list N) : Prop :=
  m = Release -> single_end (d_chunk_shape ds) cnt = true ->
  forall x, In x (slab idx cnt) -> value x <> repeat 0 (N.to_nat (d_dsize ds)).
Lemma class_zero m inflate file ds value e idx cnt fuel :
  class_stream m inflate file ds value e idx cnt fuel -> no_zeros m ds value idx cnt ->
  class_case m inflate file ds value e idx cnt (repeat 0 (N.to_nat (prodN cnt * d_dsize ds))) fuel.
Proof.
  intros [A1 A2 A3 A4 A5 A6 A7 A8 A9] HZ. set (dst := repeat 0 (N.to_nat (prodN cnt * d_dsize ds))).
  assert (L : lenN dst = prodN cnt * d_dsize ds) by (unfold lenN, dst; rewrite repeat_length; lia).
  constructor; auto; try (rewrite L; auto; apply N.le_refl).
  - intros M. destruct (A8 M). rewrite L. auto.
  - intros M S p x Hx. assert (HL : length idx = length cnt) by (destruct A6 as (? & ? & _); congruence).
    pose proof (slab_length idx cnt HL) as SL.
    assert (Hp : (p < N.to_nat (prodN cnt))%nat).
    { assert (p < length (slab idx cnt))%nat by (apply nth_error_Some; congruence). unfold lenN in SL. lia. }
    unfold dst. rewrite N2Nat.inj_mul, word_zero by exact Hp. apply (HZ M S x). exact (nth_error_In _ _ Hx).
Qed.

(** [values] from a cached reader in any state: exactly the selected values, in the host's order,
    if the selection is in the class of the build - and something else, or an error, whenever
    it is not. *)
Theorem C47_class_distinct m h k w al inflate file ds value e idx cnt fuel rc :
  class_stream m inflate file ds value e idx cnt fuel -> no_zeros m ds value idx cnt ->
  d_dsize ds * (prodN cnt * d_dsize ds) < W64 ->
  d_dsize ds = N.of_nat w -> 0 < al -> N.of_nat w mod al = 0 ->
  reachable m inflate ds file rc ->
  (values m h k w al ds (fun e dst => fst (cache_read m inflate fuel rc e dst)) e = Ok (native_values h k w ds value idx cnt) <->
   sel_right m (d_shape ds) (d_chunk_shape ds) idx cnt = true).
Proof.
  intros HD HNZ HW2 Hsz Hal Hwal HC. pose proof HD as [A1 A2 A3 A4 A5 A6 A7 A8 A9].
  assert (HA : same_addr ds) by apply A3.
  assert (HF : fits64_lead cnt) by (apply (sel_lead _ idx cnt A6); pose proof (ss_pos _ (rg_sizes _ A2)); clear - A7 H; nia).
  rewrite (values_reads_class m h k w al inflate file ds value e idx cnt fuel _ HD HW2 Hsz Hal Hwal)
    by (intros v d H; exact (cache_read_v m inflate fuel ds file rc e idx cnt _ v d HA HC A5 HF A7 H)).
  set (dst := repeat 0 (N.to_nat (prodN cnt * d_dsize ds))).
  assert (L : lenN dst = prodN cnt * d_dsize ds) by (unfold lenN, dst; rewrite repeat_length; lia).
  rewrite <- (C21_class_distinct m inflate file ds value e idx cnt dst fuel rc (class_zero _ _ _ _ _ _ _ _ _ HD HNZ) HC).
  rewrite skipn_all2 by (unfold lenN in L; lia). now rewrite app_nil_r.
Qed.
Print Assumptions C47_class_distinct.

(** The same for the direct reader. *)
Theorem C47_class_distinct_direct m h k w al inflate sort file ds value e idx cnt fuel rd : addr_sort sort ->
  class_stream m inflate file ds value e idx cnt fuel -> no_zeros m ds value idx cnt ->
  d_dsize ds * (prodN cnt * d_dsize ds) < W64 ->
  d_dsize ds = N.of_nat w -> 0 < al -> N.of_nat w mod al = 0 ->
  direct_new m ds (Some file) = Ok rd ->
  (values m h k w al ds (direct_read m inflate sort fuel rd) e = Ok (native_values h k w ds value idx cnt) <->
   sel_right m (d_shape ds) (d_chunk_shape ds) idx cnt = true).
Proof.
  intros HSort HD HNZ HW2 Hsz Hal Hwal HN. pose proof HD as [A1 A2 A3 A4 A5 A6 A7 A8 A9].
  assert (HA : same_addr ds) by apply A3. assert (Hd : 0 < d_dsize ds) by apply A3.
  assert (HF : fits64_lead cnt) by (apply (sel_lead _ idx cnt A6); clear - A7 Hd; nia).
  destruct (new_sized m ds file A1 (rg_sizes _ A2)) as [[rc Hrc] _]. apply (rc_new m inflate) in Hrc.
  set (dst := repeat 0 (N.to_nat (prodN cnt * d_dsize ds))).
  assert (L : lenN dst = prodN cnt * d_dsize ds) by (unfold lenN, dst; rewrite repeat_length; lia).
  assert (AG : forall v d, fst (cache_read m inflate fuel rc e dst) = (Ok v, d) <-> direct_read m inflate sort fuel rd e dst = (Ok v, d)).
  { intros v d. apply (C24_agree m inflate sort fuel ds file rc rd e dst v d HSort HA Hd); auto. now rewrite L. }
  rewrite (values_reads_class m h k w al inflate file ds value e idx cnt fuel _ HD HW2 Hsz Hal Hwal).
  2:{ intros v d H. apply AG in H. exact (cache_read_v m inflate fuel ds file rc e idx cnt _ v d HA Hrc A5 HF A7 H). }
  fold dst. rewrite <- (C24_class_distinct m inflate sort file ds value e idx cnt dst fuel rd HSort (class_zero _ _ _ _ _ _ _ _ _ HD HNZ) HN).
  rewrite skipn_all2 by (unfold lenN in L; lia). now rewrite app_nil_r.
Qed.
Print Assumptions C47_class_distinct_direct.

(** ** Python *)

(** An indexing expression with a forward plan: what it ends in is what the parallel reader
    ends in. *)
Lemma py_get_par m h inflate sort fuel ds file mem keys idx cnt k w : full_dataset ds -> regular ds ->
  dims_fit (d_shape ds) -> (length keys <= length (d_shape ds))%nat -> on_axes forward (d_shape ds) keys ->
  py_plan m (d_shape ds) (PyTuple keys) = Ok (idx, cnt) -> ~ In 0 cnt ->
  py_type (d_dtype ds) = Ok (k, w) -> (Z.of_N (prodN cnt * d_dsize ds) <= IMAX)%Z ->
  d_dsize ds = N.of_nat w /\ (0 < w)%nat /\ sel_in (d_shape ds) idx cnt /\ prodN (py_dims cnt) = prodN cnt /\
  exists e rd, get_start_count e (d_shape ds) = Ok (idx, cnt) /\ direct_new m ds (Some file) = Ok rd /\
    forall x, py_get m h inflate sort fuel ds (Some file) mem (PyTuple keys) x <->
      exists y d, par_read m inflate sort fuel rd e (mem (prodN cnt * d_dsize ds)) y d /\
        x = (let* _ := y in Ok (py_dims cnt, to_native_slice h k w (d_order ds) d)).
Proof.
  intros HFull HReg HD HL HF HP HZ HT HB.
  assert (HPos : Forall (fun x => 0 < x) cnt).
  { apply Forall_forall. intros x Hx. destruct (N.eq_dec x 0) as [->|]; [contradiction|lia]. }
  destruct (py_plan_lengths _ _ _ _ _ HP) as [L1 L2].
  assert (HW : d_dsize ds = N.of_nat w).
  { rewrite (wm_dsize _ (fd_made _ HFull)). exact (py_type_width _ _ _ HT). }
  assert (Hw : (0 < w)%nat) by exact (py_type_pos _ _ _ HT).
  assert (HPd : prodN (py_dims cnt) = prodN cnt) by (now apply prod_dims).
  assert (HPr : prodN (py_dims cnt) * N.of_nat w = prodN cnt * d_dsize ds) by (now rewrite HPd, HW).
  assert (HSel : sel_in (d_shape ds) idx cnt) by exact (plan_sel_in m _ keys _ _ HD HL HF HP HZ).
  destruct (extents_of_pairs_ok idx cnt (d_shape ds)) as (e & Ee & Eg); [congruence|auto|].
  destruct (new_sized m ds file HFull (rg_sizes _ HReg)) as [_ [rd ED]].
  split; [exact HW|]. split; [exact Hw|]. split; [exact HSel|]. split; [exact HPd|]. exists e, rd. split; [exact Eg|]. split; [exact ED|].
  intros x. split.
  - intros HG. inversion HG as [y E1 E2|p y E1 E2 E3|idx' cnt' kd' w' y E1 E2 E3]; subst.
    + exfalso. rewrite HP in E2. now apply (E2 (idx, cnt)).
    + exfalso. rewrite HT in E3. now apply (E3 (k, w)).
    + rewrite HP in E1. injection E1 as <- <-. rewrite HT in E2. injection E2 as <- <-.
      inversion E3 as [HBig|y HB' E4 E5|r y HB' E4 E5 E6|r e' y d HB' E4 E5 E6]; subst.
      * rewrite HPr in HBig. lia.
      * exfalso. rewrite ED in E5. now apply (E5 rd).
      * exfalso. rewrite Ee in E6. now apply (E6 e).
      * rewrite ED in E4. injection E4 as <-. rewrite Ee in E5. injection E5 as <-. rewrite HPr in E6. eauto.
  - intros (y & d & HR & ->). eapply pg_read; eauto. eapply py_run; eauto; rewrite HPr; auto.
Qed.

(** A read from Python of a file no two cells of which have the same bytes. *)
Record class_py (m : mode) (inflate : bytes -> option bytes) (file : bytes) (ds : dataset) (value : list N -> bytes)
    (keys : list pykey) (idx cnt : list N) (k : kind) (w : nat) (fuel : nat) : Prop := {
  cp_full : full_dataset ds;
  cp_reg : regular ds;
  cp_stores : stores inflate file ds value;
  cp_distinct : distinct_cells inflate file ds;
  cp_fit : dims_fit (d_shape ds);
  cp_keys : (length keys <= length (d_shape ds))%nat;
  cp_forward : on_axes forward (d_shape ds) keys;
  cp_plan : py_plan m (d_shape ds) (PyTuple keys) = Ok (idx, cnt);
  cp_some : ~ In 0 cnt;
  cp_type : py_type (d_dtype ds) = Ok (k, w);
  cp_bytes : (Z.of_N (prodN cnt * d_dsize ds) <= IMAX)%Z;
  cp_mode : m = Release -> (2 * prodN cnt + 3 * prodN (d_chunk_shape ds)) * d_dsize ds < W64 /\
    (single_end (d_chunk_shape ds) cnt = true ->
     8 * (N.of_nat (length cnt) * (prodN cnt * prodN (d_chunk_shape ds))) * d_dsize ds < W64);
  cp_fuel : (N.to_nat (prodN cnt) < fuel)%nat
}.
(** The newly allocated memory has none of the elements in its place beforehand. *)
Definition mem_new (m : mode) (ds : dataset) (value : list N -> bytes) (idx cnt : list N) (mem : N -> bytes) : Prop :=
  m = Release -> single_end (d_chunk_shape ds) cnt = true -> forall p x, nth_error (slab idx cnt) p = Some x ->
    value x <> word (N.to_nat (d_dsize ds)) p (mem (prodN cnt * d_dsize ds)).

(** Selections of the class: the selected values under every schedule, whatever the memory
    held. *)
Lemma py_class_right m h inflate sort fuel ds file value mem keys idx cnt k w x :
  addr_sort sort -> class_py m inflate file ds value keys idx cnt k w fuel -> (forall n, lenN (mem n) = n) ->
  sel_right m (d_shape ds) (d_chunk_shape ds) idx cnt = true ->
  py_get m h inflate sort fuel ds (Some file) mem (PyTuple keys) x ->
  x = Ok (py_dims cnt, to_native_slice h k w (d_order ds) (concat (map value (slab idx cnt)))).
Proof.
  intros HSort [HFull HReg HS HDist HD HL HF HP HZ HT HB HMo HFuel] HM HR HG.
  destruct (py_get_par m h inflate sort fuel ds file mem keys idx cnt k w HFull HReg HD HL HF HP HZ HT HB)
    as (HW & Hw & HSel & _ & e & rd & Eg & ED & HI).
  apply HI in HG as (y & d & PR & ->). set (n := prodN cnt * d_dsize ds) in *.
  assert (HW64 : n < W64) by (clear - HB; unfold IMAX, W64 in *; lia).
  assert (LM : lenN (mem n) = n) by apply HM.
  destruct (new_sized m ds file HFull (rg_sizes _ HReg)) as [[rc Hrc] _]. apply (rc_new m inflate) in Hrc.
  assert (HA : same_addr ds) by apply HReg. assert (Hd : 0 < d_dsize ds) by apply HReg.
  assert (CR : fst (cache_read m inflate fuel rc e (mem n)) = (Ok n, concat (map value (slab idx cnt)) ++ skipn (N.to_nat n) (mem n))).
  { apply (C21_cached_right_partial m inflate file ds value e idx cnt (mem n) fuel rc); auto.
    constructor; auto; try (rewrite LM; auto; apply N.le_refl). now apply class_right. }
  apply (C24_agree m inflate sort fuel ds file rc rd e (mem n)) in CR; auto; [|now rewrite LM].
  destruct (C25_schedules m inflate sort fuel ds file rd e (mem n) HSort HA Hd) as (_ & _ & _ & S); [now rewrite LM|exact ED|].
  destruct (S _ _ CR _ _ PR) as [-> ->]. cbn [bind]. rewrite skipn_all2, app_nil_r by (unfold lenN in LM; lia). reflexivity.
Qed.
Theorem C45_class_distinct m h inflate sort fuel ds file value mem keys idx cnt k w x :
  addr_sort sort -> class_py m inflate file ds value keys idx cnt k w fuel ->
  (forall n, lenN (mem n) = n) -> mem_new m ds value idx cnt mem ->
  py_get m h inflate sort fuel ds (Some file) mem (PyTuple keys) x ->
  (x = Ok (py_dims cnt, to_native_slice h k w (d_order ds) (concat (map value (slab idx cnt)))) <->
   sel_right m (d_shape ds) (d_chunk_shape ds) idx cnt = true).
Proof.
  intros HSort HC HM HN HG. split; [|intros HR; eapply py_class_right; eauto].
  destruct HC as [HFull HReg HS HDist HD HL HF HP HZ HT HB HMo HFuel].
  destruct (py_get_par m h inflate sort fuel ds file mem keys idx cnt k w HFull HReg HD HL HF HP HZ HT HB)
    as (HW & Hw & HSel & _ & e & rd & Eg & ED & HI).
  apply HI in HG as (y & d & PR & ->). set (n := prodN cnt * d_dsize ds) in *.
  assert (HW64 : n < W64) by (clear - HB; unfold IMAX, W64 in *; lia).
  assert (LM : lenN (mem n) = n) by apply HM. intros E.
  destruct y as [v| | | |]; cbn [bind] in E; try discriminate. injection E as E.
  assert (HA : same_addr ds) by apply HReg. assert (Hd : 0 < d_dsize ds) by apply HReg.
  assert (HLd : fits64_lead cnt) by (apply (sel_lead _ idx cnt HSel); unfold n in HW64; clear - HW64 Hd; nia).
  destruct (C25_schedules m inflate sort fuel ds file rd e (mem n) HSort HA Hd) as (_ & _ & S1 & _); [now rewrite LM|exact ED|].
  pose proof (S1 v d PR) as DR.
  destruct (new_sized m ds file HFull (rg_sizes _ HReg)) as [[rc Hrc] _]. apply (rc_new m inflate) in Hrc.
  assert (AG : fst (cache_read m inflate fuel rc e (mem n)) = (Ok v, d)).
  { apply (C24_agree m inflate sort fuel ds file rc rd e (mem n) v d HSort HA Hd); auto. now rewrite LM. }
  destruct (cache_read_v m inflate fuel ds file rc e idx cnt (mem n) v d HA Hrc Eg HLd HW64 AG) as [LD ->].
  pose proof (slab_bytes_len inflate file ds value idx cnt HFull HS HSel) as LV.
  apply (to_native_inj h k w (d_order ds) d _ (N.to_nat (prodN cnt))) in E; auto;
    [|unfold lenN, n in *; clear - LD LM HW; lia|unfold lenN in *; clear - LV HW; lia].
  subst d. rewrite <- (C21_class_distinct m inflate file ds value e idx cnt (mem n) fuel rc); auto.
  - fold n. rewrite skipn_all2, app_nil_r by (unfold lenN in LM; lia). exact AG.
  - constructor; auto; try (rewrite LM; auto; apply N.le_refl). intros M. destruct (HMo M). rewrite LM. auto.
Qed.
Print Assumptions C45_class_distinct.

(** If an expression NumPy accepts is right whatever the memory held, no element of it is -1
    and no axis is empty. *)
Lemma py_right_plain m h inflate sort fuel ds file value keys k w :
  addr_sort sort -> full_dataset ds -> regular ds ->
  dims_fit (d_shape ds) -> (length keys <= length (d_shape ds))%nat -> on_axes np_valid (d_shape ds) keys ->
  let idx := np_starts (d_shape ds) keys in
  let cnt := np_lens (d_shape ds) keys in
  py_type (d_dtype ds) = Ok (k, w) -> (0 < fuel)%nat ->
  (forall mem x, (forall n, lenN (mem n) = n) -> py_get m h inflate sort fuel ds (Some file) mem (PyTuple keys) x ->
      exists dims, x = Ok (dims, to_native_slice h k w (d_order ds) (concat (map value (slab idx cnt)))) /\ prodN dims = prodN cnt) ->
  on_axes forward (d_shape ds) keys /\ py_plan m (d_shape ds) (PyTuple keys) = Ok (idx, cnt) /\ ~ In 0 cnt /\ ~ In (PyInt (-1)) keys.
Proof.
  intros HSort HFull HReg HD HL HV idx cnt HT Hfu.
  assert (HW : d_dsize ds = N.of_nat w).
  { rewrite (wm_dsize _ (fd_made _ HFull)). exact (py_type_width _ _ _ HT). }
  assert (Hw : (0 < w)%nat) by exact (py_type_pos _ _ _ HT).
  assert (HPlan : on_axes forward (d_shape ds) keys -> py_plan m (d_shape ds) (PyTuple keys) = Ok (idx, cnt)).
  { intros HF. rewrite py_plan_plain; auto.
    - destruct (forward_plan_np _ _ HL HD HF) as [-> ->]. reflexivity.
    - intros j n k0 Hn Hk. apply (forward_plain n k0); [|exact (HF j n k0 Hn Hk)].
      exact (proj1 (Forall_forall _ _) HD n (nth_error_In _ _ Hn)). }
  intros HAll.
  (* an empty axis in the plan: the array holds what the memory held *)
  assert (HE : forall idx' cnt', py_plan m (d_shape ds) (PyTuple keys) = Ok (idx', cnt') -> ~ In 0 cnt').
  { intros idx' cnt' HP HZ.
    assert (Hget : forall b, exists dims d, to_native_slice h k w (d_order ds) d = to_native_slice h k w (d_order ds) (concat (map value (slab idx cnt))) /\
       d = repeat b (N.to_nat (prodN dims * N.of_nat w)) /\ 0 < prodN dims /\ dims = py_dims cnt').
    { intros b. set (mem := fun n : N => repeat b (N.to_nat n)).
      assert (HM : forall n, lenN (mem n) = n) by (intros n; unfold mem, lenN; rewrite repeat_length; lia).
      destruct (py_get_total m h inflate sort fuel ds (Some file) mem (PyTuple keys)) as [x HG].
      destruct (HAll mem x HM HG) as (dims & -> & _).
      assert (HX : (Z.of_N (prodN (py_dims cnt') * N.of_nat w) <= IMAX)%Z /\ exists r, direct_new m ds (Some file) = Ok r).
      { inversion HG as [y E1 E2 E0|p y E1 E2 E3 E0|idx2 cnt2 kd2 w2 y E1 E2 E3]; subst.
        - exfalso. rewrite HP in E2. now apply (E2 (idx', cnt')).
        - exfalso. rewrite HT in E3. now apply (E3 (k, w)).
        - rewrite HP in E1. injection E1 as <- <-. rewrite HT in E2. injection E2 as <- <-.
          inversion E3 as [HBig|y HB' E4 E5 E0|r y HB' E4 E5 E6 E0|r e' y d HB' E4 E5 E6 E0]; subst.
          + destruct (direct_new m ds (Some file)) eqn:EN; cbn [failed] in E0; discriminate.
          + split; eauto.
          + split; eauto. }
      destruct HX as [HX [r HR]].
      destruct (C45_empty_refuted m h inflate sort fuel ds file mem _ idx' cnt' k w r _ HSort HP HZ HT HX HR ltac:(lia) HG) as (E & P & _).
      injection E as Ed Eb. exists (py_dims cnt'), (mem (prodN (py_dims cnt') * N.of_nat w)). split; [now symmetry|].
      split; [reflexivity|]. auto. }
    destruct (Hget 0) as (d0 & b0 & E0 & -> & P0 & ->). destruct (Hget 1) as (d1 & b1 & E1 & -> & P1 & ->).
    rewrite <- E1 in E0. apply (to_native_inj h k w (d_order ds) _ _ (N.to_nat (prodN (py_dims cnt')))) in E0; auto;
      try (rewrite repeat_length; lia).
    destruct (N.to_nat (prodN (py_dims cnt') * N.of_nat w)) as [|q] eqn:Eq; [lia|]. cbn [repeat] in E0. discriminate. }
  set (mem := fun n : N => repeat 0 (N.to_nat n)).
  assert (HM : forall n, lenN (mem n) = n) by (intros n; unfold mem, lenN; rewrite repeat_length; lia).
  destruct (py_get_total m h inflate sort fuel ds (Some file) mem (PyTuple keys)) as [x HG].
  destruct (HAll mem x HM HG) as (dims & Ex & _).
  assert (HF : on_axes forward (d_shape ds) keys).
  { destruct (not_forward _ _ HV) as [HF|(j & n & k0 & Hn & Hk & [HBk|HLo] & _)]; auto; exfalso.
    - assert (HA : on_axis backward (d_shape ds) keys) by (exists j, n, k0; auto).
      rewrite (C44_backward_refuted m h inflate sort fuel ds (Some file) mem keys x HA HG) in Ex. discriminate.
    - assert (HA : on_axis lost_int (d_shape ds) keys) by (exists j, n, k0; auto).
      destruct (py_plan m (d_shape ds) (PyTuple keys)) as [[idx' cnt']| | | |] eqn:HP.
      + exact (HE idx' cnt' eq_refl (proj1 (C44_lost_refuted m _ _ _ _ HA HP))).
      + pose proof (py_plan_fails m _ _ _ HP) as E. discriminate E. discriminate.
      + inversion HG as [y E1 E2 E0|p y E1|idx2 cnt2 kd2 w2 y E1]; subst; try congruence; rewrite HP in *; cbn [failed] in *; discriminate.
      + pose proof (py_plan_fails m _ _ _ HP) as E. discriminate E. discriminate.
      + pose proof (py_plan_fails m _ _ _ HP) as E. discriminate E. discriminate. }
  pose proof (HPlan HF) as HP. split; [exact HF|]. split; [exact HP|]. split; [exact (HE _ _ HP)|].
  intros HIn. apply In_nth_error in HIn as [j Hj].
  assert (Hlt : (j < length (d_shape ds))%nat) by (assert (j < length keys)%nat by (apply nth_error_Some; congruence); lia).
  destruct (nth_error (d_shape ds) j) as [n|] eqn:En; [|apply nth_error_None in En; lia].
  destruct (HF j n _ En Hj) as [_ Hne]. now apply Hne.
Qed.

(** Indexing a dataset of a file whose cells are all different, with any tuple NumPy accepts:
    the values of the elements NumPy selects are returned, whatever the newly allocated memory
    held and whatever the schedule, if and only if no element is -1, the selection is not empty,
    and it is in the class of the build. *)
Theorem C45_class_exact m h inflate sort fuel ds file value keys k w :
  addr_sort sort -> full_dataset ds -> regular ds -> stores inflate file ds value -> distinct_cells inflate file ds ->
  dims_fit (d_shape ds) -> (length keys <= length (d_shape ds))%nat -> on_axes np_valid (d_shape ds) keys ->
  let idx := np_starts (d_shape ds) keys in
  let cnt := np_lens (d_shape ds) keys in
  py_type (d_dtype ds) = Ok (k, w) -> (Z.of_N (prodN cnt * d_dsize ds) <= IMAX)%Z ->
  (m = Release -> (2 * prodN cnt + 3 * prodN (d_chunk_shape ds)) * d_dsize ds < W64 /\
    (single_end (d_chunk_shape ds) cnt = true ->
     8 * (N.of_nat (length cnt) * (prodN cnt * prodN (d_chunk_shape ds))) * d_dsize ds < W64)) ->
  (N.to_nat (prodN cnt) < fuel)%nat ->
  ((forall mem x, (forall n, lenN (mem n) = n) -> py_get m h inflate sort fuel ds (Some file) mem (PyTuple keys) x ->
      exists dims, x = Ok (dims, to_native_slice h k w (d_order ds) (concat (map value (slab idx cnt)))) /\ prodN dims = prodN cnt) <->
   ~ In (PyInt (-1)) keys /\ ~ In 0 cnt /\ sel_right m (d_shape ds) (d_chunk_shape ds) idx cnt = true).
Proof.
  intros HSort HFull HReg HS HDist HD HL HV idx cnt HT HB HMo HFuel. split.
  - intros HAll. destruct (py_right_plain m h inflate sort fuel ds file value keys k w HSort HFull HReg HD HL HV HT ltac:(lia) HAll) as (HF & HP & HZ & H1).
    fold idx cnt in HP, HZ. split; [exact H1|]. split; [exact HZ|].
    assert (HSel : sel_in (d_shape ds) idx cnt) by exact (plan_sel_in m _ keys _ _ HD HL HF HP HZ).
    destruct (other_bytes inflate file ds value idx cnt HFull HS HSel) as (dst & Ld & Hnew).
    set (n0 := prodN cnt * d_dsize ds) in *.
    set (mem := fun n : N => if n =? n0 then dst else repeat 0 (N.to_nat n)).
    assert (HM : forall n, lenN (mem n) = n).
    { intros n. unfold mem. destruct (N.eqb_spec n n0) as [->|]; auto. unfold lenN. rewrite repeat_length. lia. }
    destruct (py_get_total m h inflate sort fuel ds (Some file) mem (PyTuple keys)) as [x HG].
    destruct (HAll mem x HM HG) as (dims & Ex & _).
    assert (HC : class_py m inflate file ds value keys idx cnt k w fuel) by (constructor; auto).
    apply (C45_class_distinct m h inflate sort fuel ds file value mem keys idx cnt k w x HSort HC HM); auto.
    + intros _ _ p y Hy. unfold mem. fold n0. rewrite N.eqb_refl. now apply Hnew.
    + destruct (py_get_par m h inflate sort fuel ds file mem keys idx cnt k w HFull HReg HD HL HF HP HZ HT HB)
        as (_ & _ & _ & _ & e & rd & _ & _ & HI).
      apply HI in HG as (y & d & _ & HG). rewrite Ex in HG |- *. destruct y as [v| | | |]; cbn [bind] in HG; try discriminate.
      injection HG as -> HG. reflexivity.
  - intros (H1 & H2 & HR) mem x HM HG.
    assert (HF : on_axes forward (d_shape ds) keys).
    { destruct (not_forward _ _ HV) as [HF|(j & n & k0 & Hn & Hk & _ & [->|E])]; auto; exfalso.
      - exact (H1 (nth_error_In _ _ Hk)).
      - apply H2. rewrite <- E. exact (np_lens_nth _ _ _ _ _ Hn Hk). }
    assert (HP : py_plan m (d_shape ds) (PyTuple keys) = Ok (idx, cnt)).
    { rewrite py_plan_plain; auto.
      - destruct (forward_plan_np _ _ HL HD HF) as [-> ->]. reflexivity.
      - intros j n k0 Hn Hk. apply (forward_plain n k0); [|exact (HF j n k0 Hn Hk)].
        exact (proj1 (Forall_forall _ _) HD n (nth_error_In _ _ Hn)). }
    exists (py_dims cnt). split; [|apply prod_dims, Forall_forall; intros y Hy; destruct (N.eq_dec y 0) as [->|]; [contradiction|lia]].
    assert (HC : class_py m inflate file ds value keys idx cnt k w fuel) by (constructor; auto).
    exact (py_class_right m h inflate sort fuel ds file value mem keys idx cnt k w x HSort HC HM HR HG).
Qed.
Print Assumptions C45_class_exact.

(** ** xarray *)

(** A variable read through xarray, without a fill value and with an element type in which
    different bytes are different values: the values of the selected elements if the selection
    is in the class of the build, under no schedule if it is not. *)
Theorem C52_class_distinct {O V} (py_nan : O) conv (dec : datatype -> bytes -> V) el_eq
    m h inflate sort fuel i name group file value mem p ds keys idx cnt k w x :
  addr_sort sort -> py_dataset i name group = Some p -> py_handle p = Ok ds ->
  class_py m inflate file ds value keys idx cnt k w fuel ->
  (forall n, lenN (mem n) = n) -> mem_new m ds value idx cnt mem ->
  (forall u v, length u = w -> length v = w -> dec (d_dtype ds) u = dec (d_dtype ds) v -> u = v) ->
  xr_get py_nan conv dec el_eq m h inflate sort fuel i name group None (Some file) mem keys x ->
  (x = Ok (py_dims cnt, map (fun c => dec (d_dtype ds) (to_native_slice h k w (d_order ds) (value c))) (slab idx cnt)) <->
   sel_right m (d_shape ds) (d_chunk_shape ds) idx cnt = true).
Proof.
  intros HSort HP1 HP2 D HM HN HI HG. pose proof D as [HFull HReg HS HDist HD HL HF HP HZ HT HB HMo HFuel].
  destruct (py_get_par m h inflate sort fuel ds file mem keys idx cnt k w HFull HReg HD HL HF HP HZ HT HB)
    as (HW & Hw & HSel & HPd & e & rd & Eg & ED & HGI).
  destruct (py_plan_lengths _ _ _ _ _ HP) as [L1 L2].
  assert (HVL : forall c, In c (slab idx cnt) -> length (value c) = w).
  { intros c Hc. rewrite (value_length inflate file ds value idx cnt c HFull HS HSel Hc), HW. apply Nat2N.id. }
  assert (HNL : forall c, In c (slab idx cnt) -> length (to_native_slice h k w (d_order ds) (value c)) = w).
  { intros c Hc. rewrite (to_native_length h k w (d_order ds) (value c) 1); auto; rewrite HVL; auto; lia. }
  pose proof (slab_bytes_len inflate file ds value idx cnt HFull HS HSel) as LV.
  set (vs := to_native_slice h k w (d_order ds) (concat (map value (slab idx cnt)))).
  assert (Lvs : length vs = (w * N.to_nat (prodN cnt))%nat).
  { unfold vs. assert (L3 : length (concat (map value (slab idx cnt))) = (w * N.to_nat (prodN cnt))%nat)
      by (unfold lenN in LV; clear - LV HW; lia).
    rewrite (to_native_length h k w (d_order ds) _ (N.to_nat (prodN cnt)) Hw L3). exact L3. }
  assert (EV : elements dec (d_dtype ds) w (N.to_nat (prodN cnt)) vs =
               map (fun c => dec (d_dtype ds) (to_native_slice h k w (d_order ds) (value c))) (slab idx cnt)).
  { unfold vs. rewrite to_native_concat; auto.
    2:{ apply Forall_forall. intros z Hb. apply in_map_iff in Hb as (c & <- & Hc). rewrite HVL by auto. now apply Nat.mod_same; lia. }
    rewrite map_map. unfold elements.
    rewrite <- (map_map (fun j => word w j (concat (map (fun c => to_native_slice h k w (d_order ds) (value c)) (slab idx cnt)))) (dec (d_dtype ds))).
    assert (EN : N.to_nat (prodN cnt) = length (map (fun c => to_native_slice h k w (d_order ds) (value c)) (slab idx cnt))).
    { rewrite map_length. assert (HLn : lenN (slab idx cnt) = prodN cnt) by (apply slab_length; congruence).
      unfold lenN in HLn. clear - HLn. lia. }
    rewrite EN, Properties12.word_concat; [now rewrite map_map|]. apply Forall_forall. intros z Hb. apply in_map_iff in Hb as (c & <- & Hc). auto. }
  assert (LPR : forall v d, par_read m inflate sort fuel rd e (mem (prodN cnt * d_dsize ds)) (Ok v) d -> length d = (w * N.to_nat (prodN cnt))%nat).
  { intros v d PR. pose proof (HM (prodN cnt * d_dsize ds)) as LM.
    assert (HW64 : prodN cnt * d_dsize ds < W64) by (clear - HB; unfold IMAX, W64 in *; lia).
    destruct (C25_schedules m inflate sort fuel ds file rd e (mem (prodN cnt * d_dsize ds)) HSort (rg_addr _ HReg)) as (_ & _ & S1 & _);
      [apply HReg|now rewrite LM|exact ED|].
    apply S1 in PR. apply (proj2 (Properties16.C57_length m inflate sort fuel e _)) in PR. unfold lenN in LM. clear - PR LM HW. lia. }
  inversion HG as [E1|p' y E1 E2 E3 E0|p' ds' y E1 E2 E3 E4 E0|p' ds' dims b k' w' E1 E2 E3 E4 E0]; subst.
  - rewrite HP1 in E1. discriminate.
  - rewrite HP1 in E1. injection E1 as <-. rewrite HP2 in E3. now elim (E3 ds).
  - rewrite HP1 in E1. injection E1 as <-. rewrite HP2 in E2. injection E2 as <-.
    split; [intros E; destruct y; cbn [failed] in E; discriminate|]. intros HR. exfalso.
    rewrite (py_class_right m h inflate sort fuel ds file value mem keys idx cnt k w y HSort D HM HR E3) in E4. exact (E4 _ eq_refl).
  - rewrite HP1 in E1. injection E1 as <-. rewrite HP2 in E2. injection E2 as <-. rewrite HT in E4. injection E4 as <- <-.
    rewrite <- (C45_class_distinct m h inflate sort fuel ds file value mem keys idx cnt k w _ HSort D HM HN E3).
    apply HGI in E3 as (y & d & PR & E3). destruct y as [v| | | |]; cbn [bind] in E3; try discriminate. injection E3 as -> ->.
    fold vs. rewrite HPd, <- EV. cbn [bind]. split.
    + intros E. injection E as E. f_equal. f_equal.
      apply (elements_inj dec (d_dtype ds) w (N.to_nat (prodN cnt)) _ vs Hw HI); auto.
      rewrite (to_native_length h k w (d_order ds) d (N.to_nat (prodN cnt)) Hw); exact (LPR _ _ PR).
    + intros E. injection E as E. now rewrite E.
Qed.
Print Assumptions C52_class_distinct.

(** ** From the HDF5 file *)

(** An HDF5 file is indexed, the index perhaps written out and read back in.  If no two
    elements of the dataset have the same bytes, each of the readers of the dataset found under
    its path reads the values in the file if and only if the selection is in the class of the
    build: the cached reader after any number of reads, the direct reader, the parallel
    reader under each schedule, the stream, and [values].  In release builds and when a chunk
    is a single element at its end, the buffer must not have had an element in its place. *)
Theorem C54_class_exact m p root i i' k gs x h cs inflate sort file value :
  addr_sort sort -> named root -> typed_tree root -> lenN p < W64 -> utf8_path (Some p) ->
  index_file m (Some p) root = Ok i ->
  (i' = i \/ exists b, bincode_serialize i = Ok b /\ bincode_deserialize b = Ok i') ->
  Forall (fun c => c <> [] /\ slash_free c) (gs ++ [x]) -> h5_dataset root gs x h ->
  h5_stores inflate file h cs value -> h5_distinct inflate file h cs ->
  exists ds, gi_open (i_root i') (slashes k ++ joined (gs ++ [x])) = Ok (p, ds) /\
    forall e idx cnt fuel,
    get_start_count e (h_shape h) = Ok (idx, cnt) -> sel_in (h_shape h) idx cnt ->
    let sz := dt_size (h_dtype h) in
    let n := prodN cnt * sz in
    let vs := concat (map value (slab idx cnt)) in
    let right := sel_right m (h_shape h) cs idx cnt = true in
    let fresh dst := m = Release -> single_end cs cnt = true ->
      forall q c, nth_error (slab idx cnt) q = Some c -> value c <> word (N.to_nat sz) q dst in
    n < W64 -> (N.to_nat (prodN cnt) < fuel)%nat ->
    (m = Release -> (2 * prodN cnt + 3 * prodN cs) * sz < W64 /\
       (single_end cs cnt = true -> 8 * (N.of_nat (length cnt) * (prodN cnt * prodN cs)) * sz < W64)) ->
    (forall dst, lenN dst = n -> fresh dst ->
      (forall rc, reachable m inflate ds file rc -> (fst (cache_read m inflate fuel rc e dst) = (Ok n, vs) <-> right)) /\
      (forall rd, direct_new m ds (Some file) = Ok rd ->
         (direct_read m inflate sort fuel rd e dst = (Ok n, vs) <-> right) /\
         (forall y d, par_read m inflate sort fuel rd e dst y d -> (y = Ok n /\ d = vs <-> right)))) /\
    (forall rs, streamer_new m ds (Some file) = Ok rs ->
       ((exists items, stream m inflate fuel rs e = Ok (items, SEnd) /\ concat items = vs) <-> right)) /\
    (forall hst kd w al rc, reachable m inflate ds file rc -> sz = N.of_nat w -> 0 < al -> N.of_nat w mod al = 0 -> sz * n < W64 ->
       fresh (repeat 0 (N.to_nat n)) ->
       (values m hst kd w al ds (fun e dst => fst (cache_read m inflate fuel rc e dst)) e =
          Ok (concat (map (fun c => to_native_slice hst kd w (h_order h) (value c)) (slab idx cnt))) <-> right)).
Proof.
  intros HSort HN HT HPL HU E HI HFp HD HS HX.
  assert (i' = i) as ->.
  { destruct HI as [->|(b & E1 & E2)]; auto. destruct (C41_indexed m (Some p) root i HN HT) as (b' & E3 & E4); auto; [intros s [= <-]; auto|].
    congruence. }
  destruct (indexed_stores m inflate file h cs value HS) as (ds & D1 & D2 & D3 & D4 & D5 & D6 & D7 & D8 & D9 & D10 & chunks & D11 & D12).
  destruct (C43_exact m (Some p) root i HN E) as (K1 & _ & K2 & _).
  exists ds. split.
  { assert (G : gi_dataset (i_root i) (slashes k ++ joined (gs ++ [x])) = Some ds) by (apply K1; eauto).
    assert (GP : gi_path (i_root i) = Some p) by (apply (K2 []); constructor).
    unfold gi_open. now rewrite GP, G. }
  assert (FE : filters_of ds = h_filters h).
  { destruct (hs_filters _ _ _ _ _ HS) as (sh & gz & HFl). unfold datasetd_index in D1.
    destruct (length (h_shape h) <=? 9)%nat; [|discriminate]. now apply (std_filters_of m h ds sh gz). }
  assert (DC : distinct_cells inflate file ds).
  { intros c c' raw raw' j j' Hc Hc' P P' Hj Hj' W. rewrite D9, FE in P, P'. rewrite D6 in Hj, Hj'. rewrite D9 in W.
    exact (HX chunks D11 c c' raw raw' j j' (Permutation_in _ D12 Hc) (Permutation_in _ D12 Hc') P P' Hj Hj' W). }
  intros e idx cnt fuel HG HIn sz n vs right fresh Hn HFuel HM.
  assert (DT : class_stream m inflate file ds value e idx cnt fuel).
  { constructor; rewrite ?D5, ?D6, ?D9; auto. }
  assert (DCa : forall dst, lenN dst = n -> fresh dst -> class_case m inflate file ds value e idx cnt dst fuel).
  { intros dst L HFr. destruct DT as [A1 A2 A3 A4 A5 A6 A7 A8 A9]. unfold n, sz in L. rewrite <- D9 in L.
    constructor; auto; try (rewrite L; auto; apply N.le_refl).
    - intros M. destruct (A8 M). rewrite L. auto.
    - intros M S. rewrite D9. apply HFr; auto. now rewrite <- D6. }
  assert (SK : forall dst : bytes, lenN dst = n -> skipn (N.to_nat n) dst = []) by (intros dst L; apply skipn_all2; unfold lenN in L; lia).
  unfold right. split; [|split].
  - intros dst L HFr. specialize (DCa dst L HFr). specialize (SK dst L). unfold vs, n, sz in *. rewrite <- D5, <- D6, <- D9 in *. split.
    + intros rc HR. rewrite <- (C21_class_distinct m inflate file ds value e idx cnt dst fuel rc DCa HR). now rewrite SK, app_nil_r.
    + intros rd HR. split.
      * rewrite <- (C24_class_distinct m inflate sort file ds value e idx cnt dst fuel rd HSort DCa HR). now rewrite SK, app_nil_r.
      * intros y d HP. rewrite <- (C25_class_distinct m inflate sort file ds value e idx cnt dst fuel rd y d HSort DCa HR HP). now rewrite SK, app_nil_r.
  - intros rs HR. rewrite <- D5, <- D6. exact (C35_class_distinct m inflate file ds value e idx cnt fuel rs DT HR).
  - intros hst kd w al rc HR Hw Hal Hwal HW2 HFr. clear DCa. unfold fresh, n, sz in *. clear fresh n sz. rewrite <- D5, <- D6, <- D9, <- D8 in *.
    apply (C47_class_distinct m hst kd w al inflate file ds value e idx cnt fuel rc DT); auto.
    intros M S c Hc. apply In_nth_error in Hc as [q Hq]. specialize (HFr M S q c Hq).
    rewrite N2Nat.inj_mul, word_zero in HFr; auto.
    assert (HL : length idx = length cnt) by (destruct HIn as (? & ? & _); congruence).
    pose proof (slab_length idx cnt HL) as SL. assert (q < length (slab idx cnt))%nat by (apply nth_error_Some; congruence).
    unfold lenN in SL. lia.
Qed.
Print Assumptions C54_class_exact.

(** ** Cases: `ds[1:4]` of the 5 x 1 x 1 dataset is right in release builds only, `ds[1:3]` in
    neither. *)
Definition thin_keys : list pykey := [PySlice (Some 1%Z) (Some 4%Z) None].
Definition thin_keys2 : list pykey := [PySlice (Some 1%Z) (Some 3%Z) None].
Lemma thin_forward : on_axes forward (d_shape thin_ds) thin_keys /\ on_axes forward (d_shape thin_ds) thin_keys2.
Proof.
  split; intros [|[|j]] n k Hn Hk; cbn in Hn, Hk; try discriminate; injection Hn as <-; injection Hk as <-;
    (split; [unfold unit_step; auto|vm_compute; discriminate]).
Qed.
Example C45_class_case m inflate :
  class_py m inflate words_file thin_ds (value_of thin_ds words_file) thin_keys [1; 0; 0] [3; 1; 1] KInt 4 4 /\
  class_py m inflate words_file thin_ds (value_of thin_ds words_file) thin_keys2 [1; 0; 0] [2; 1; 1] KInt 4 3 /\
  mem_new m thin_ds (value_of thin_ds words_file) [1; 0; 0] [3; 1; 1] (fun n => repeat 7 (N.to_nat n)) /\
  on_axes np_valid (d_shape thin_ds) thin_keys /\ np_starts (d_shape thin_ds) thin_keys = [1; 0; 0] /\
  np_lens (d_shape thin_ds) thin_keys = [3; 1; 1] /\
  no_zeros m thin_ds (value_of thin_ds words_file) [1; 0; 0] [3; 1; 1] /\
  sel_right m (d_shape thin_ds) (d_chunk_shape thin_ds) [1; 0; 0] [3; 1; 1] = match m with Debug => false | Release => true end /\
  sel_right m (d_shape thin_ds) (d_chunk_shape thin_ds) [1; 0; 0] [2; 1; 1] = false.
Proof.
  destruct (C21_class_distinct_case m inflate) as ([A1 A2 A3 A4 A5 A6 A7 A8 A9 A10 A11] & [B1 B2 B3 B4 B5 B6 B7 B8 B9 B10 B11]).
  assert (DF : dims_fit (d_shape thin_ds)).
  { unfold dims_fit. cbn [d_shape thin_ds]. repeat (apply Forall_cons; [vm_compute; discriminate|]). apply Forall_nil. }
  split; [|split; [|split; [|split; [|split; [reflexivity|split; [reflexivity|split; [|split; destruct m; reflexivity]]]]]]].
  - constructor; auto; try reflexivity; try (cbn; lia); try apply thin_forward; try (destruct m; reflexivity);
      try (vm_compute; discriminate); try (intros [H|[H|[H|[]]]]; discriminate).
    all: intros _; repeat split.
  - constructor; auto; try reflexivity; try (cbn; lia); try apply thin_forward; try (destruct m; reflexivity);
      try (vm_compute; discriminate); try (intros [H|[H|[H|[]]]]; discriminate).
    all: intros _; repeat split.
  - exact A10.
  - intros [|[|j]] n k Hn Hk; cbn in Hn, Hk; try discriminate; injection Hn as <-; injection Hk as <-; cbn; unfold unit_step; auto.
  - intros _ _ x Hx. assert (E : x = [1; 0; 0] \/ x = [2; 0; 0] \/ x = [3; 0; 0]).
    { vm_compute in Hx. destruct Hx as [<-|[<-|[<-|[]]]]; auto. }
    destruct E as [-> | [-> | ->]]; vm_compute; discriminate.
Qed.
Example C47_class_case m inflate : exists rc, reachable m inflate thin_ds words_file rc /\
  class_stream m inflate words_file thin_ds (value_of thin_ds words_file) thin_sel [1; 0; 0] [3; 1; 1] 4 /\
  no_zeros m thin_ds (value_of thin_ds words_file) [1; 0; 0] [3; 1; 1] /\ d_dsize thin_ds = N.of_nat 4.
Proof.
  destruct (C35_class_case m inflate) as (A & _ & _). destruct (C45_class_case m inflate) as (_ & _ & _ & _ & _ & _ & B & _).
  destruct (new_sized m thin_ds words_file thin_full (rg_sizes _ thin_regular)) as [[rc Hrc] _].
  apply (rc_new m inflate) in Hrc. exists rc. repeat (split; [auto|]). reflexivity.
Qed.
