(** * Reads from Python are exact (C45, C52).

    Each theorem is followed by a concrete case meeting its hypotheses. *)
From Verif Require Import Base Spec Safe Chunk Extent Dataset Slicer SpecApi ExtentProofs SerdeProofs TreeProofs Filters SpecFilter FilterProofs FilterProps ApiLemmas
  Reader SpecReader DirectProofs ParProofs ReaderProps ReadProofs CacheProofs StreamProofs ExamplesReader Examples SliceProps ExactReads
  SlicerRelease2 ExactFamily IndexTree Python SpecPython PythonProofs Xarray
  Properties1 Properties4 Properties5 Properties6 Properties7 Properties8 Properties10 Properties12 Properties23 Properties24 Properties27.

(** ** C45 *)

(** A read from Python of a file no two cells of which have the same bytes. *)
Record distinct_py (m : mode) (inflate : bytes -> option bytes) (file : bytes) (ds : dataset) (value : list N -> bytes)
    (mem : N -> bytes) (keys : list pykey) (idx cnt : list N) (k : kind) (w : nat) (fuel : nat) : Prop := {
  dp_full : full_dataset ds;
  dp_reg : regular ds;
  dp_stores : stores inflate file ds value;
  dp_distinct : distinct_cells inflate file ds;
  dp_fit : dims_fit (d_shape ds);
  dp_keys : (length keys <= length (d_shape ds))%nat;
  dp_forward : on_axes forward (d_shape ds) keys;
  dp_plan : py_plan m (d_shape ds) (PyTuple keys) = Ok (idx, cnt);
  dp_some : ~ In 0 cnt;
  dp_type : py_type (d_dtype ds) = Ok (k, w);
  dp_bytes : (Z.of_N (prodN cnt * d_dsize ds) <= IMAX)%Z;
  dp_mode : m = Release -> (2 * prodN cnt + 3 * prodN (d_chunk_shape ds)) * d_dsize ds < W64 /\
    single_end (d_chunk_shape ds) cnt = false;
  dp_mem : forall n, lenN (mem n) = n;
  dp_fuel : (N.to_nat (prodN cnt) < fuel)%nat
}.

(** Whatever array comes out has the dimensions of the selection and its size; it is what
    [par_read] left in the memory, in the host's order. *)
Lemma py_get_array m h inflate sort fuel ds file value mem keys idx cnt k w dims b :
  addr_sort sort -> distinct_py m inflate file ds value mem keys idx cnt k w fuel ->
  py_get m h inflate sort fuel ds (Some file) mem (PyTuple keys) (Ok (dims, b)) ->
  d_dsize ds = N.of_nat w /\ (0 < w)%nat /\ sel_in (d_shape ds) idx cnt /\ dims = py_dims cnt /\
  prodN (py_dims cnt) = prodN cnt /\ length b = (w * N.to_nat (prodN cnt))%nat /\
  exists r e d, direct_new m ds (Some file) = Ok r /\ b = to_native_slice h k w (d_order ds) d /\
    length d = (w * N.to_nat (prodN cnt))%nat /\
    par_read m inflate sort fuel r e (mem (prodN cnt * d_dsize ds)) (Ok (prodN cnt * d_dsize ds)) d /\
    distinct_case m inflate file ds value e idx cnt (mem (prodN cnt * d_dsize ds)) fuel.
Proof.
  intros HSort [HFull HReg HS HDist HD HL HF HP HZ HT HB HMo HM HFuel] HG.
  assert (HPos : Forall (fun x => 0 < x) cnt).
  { apply Forall_forall. intros x Hx. destruct (N.eq_dec x 0) as [->|]; [contradiction|lia]. }
  destruct (py_plan_lengths _ _ _ _ _ HP) as [L1 L2].
  assert (HW : d_dsize ds = N.of_nat w).
  { rewrite (wm_dsize _ (fd_made _ HFull)). exact (py_type_width _ _ _ HT). }
  assert (Hw : (0 < w)%nat) by exact (py_type_pos _ _ _ HT).
  assert (HPr : prodN (py_dims cnt) * N.of_nat w = prodN cnt * d_dsize ds) by (now rewrite prod_dims, HW).
  assert (HSel : sel_in (d_shape ds) idx cnt) by exact (plan_sel_in m _ keys _ _ HD HL HF HP HZ).
  destruct (extents_of_pairs_ok idx cnt (d_shape ds)) as (e & Ee & Eg); [congruence|auto|].
  split; [exact HW|]. split; [exact Hw|]. split; [exact HSel|].
  inversion HG as [y E1 E2 E0|p y E1 E2 E3 E0|idx' cnt' kd' w' y E1 E2 E3]; subst.
  - exfalso. rewrite HP in E2. now apply (E2 (idx, cnt)).
  - exfalso. rewrite HT in E3. now apply (E3 (k, w)).
  - rewrite HP in E1. injection E1 as <- <-. rewrite HT in E2. injection E2 as <- <-.
    inversion E3 as [HBig|y HB' E4 E5 E0|r y HB' E4 E5 E6 E0|r e' y d HB' E4 E5 E6 E0]; subst.
    + exfalso. destruct (direct_new m ds (Some file)) eqn:EN; cbn [failed] in E0; discriminate.
    + exfalso. rewrite Ee in E6. now apply (E6 e).
    + rewrite Ee in E5. injection E5 as <-. rewrite HPr in *. set (n := prodN cnt * d_dsize ds) in *.
      destruct y as [v| | | |]; cbn [bind] in E0; try discriminate. injection E0 as E00 E0. subst dims b.
      assert (LM : lenN (mem n) = n) by apply HM.
      assert (HW64 : n < W64) by (clear - HB; unfold IMAX, W64 in *; lia).
      assert (DC : distinct_case m inflate file ds value e idx cnt (mem n) fuel).
      { constructor; auto; try (rewrite LM; auto; apply N.le_refl). intros M. destruct (HMo M). rewrite LM. auto. }
      assert (HA : same_addr ds) by apply HS. assert (Hd : 0 < d_dsize ds) by (clear - HW Hw; lia).
      assert (HLd : fits64_lead cnt) by (apply (sel_lead _ idx cnt HSel); unfold n in HW64; clear - HW64 Hd; nia).
      destruct (C25_schedules m inflate sort fuel ds file r e (mem n) HSort HA Hd) as (_ & _ & S1 & _); [now rewrite LM|exact E4|].
      pose proof (S1 v d E6) as DR.
      destruct (new_sized m ds file HFull (rg_sizes _ HReg)) as [[rc Hrc] _]. apply (rc_new m inflate) in Hrc.
      assert (AG : fst (cache_read m inflate fuel rc e (mem n)) = (Ok v, d)).
      { apply (C24_agree m inflate sort fuel ds file rc r e (mem n) v d HSort HA Hd); auto. now rewrite LM. }
      destruct (cache_read_v m inflate fuel ds file rc e idx cnt (mem n) v d HA Hrc Eg HLd HW64 AG) as [LD ->].
      assert (Ld : length d = (w * N.to_nat (prodN cnt))%nat).
      { unfold lenN, n in *. clear - LD LM HW. lia. }
      split; [reflexivity|]. split; [now apply prod_dims|].
      split; [rewrite (to_native_length h k w (d_order ds) d (N.to_nat (prodN cnt))); auto|].
      exists r, e, d. auto.
Qed.

(** What an indexing expression can end in: the array of the selected values under every
    schedule if the selection is in the class [sel_safe], under none if it is not. *)
Theorem C45_distinct m h inflate sort fuel ds file value mem keys idx cnt k w x :
  addr_sort sort -> distinct_py m inflate file ds value mem keys idx cnt k w fuel ->
  py_get m h inflate sort fuel ds (Some file) mem (PyTuple keys) x ->
  (x = Ok (py_dims cnt, to_native_slice h k w (d_order ds) (concat (map value (slab idx cnt)))) <->
   sel_safe (d_shape ds) (d_chunk_shape ds) idx cnt = true).
Proof.
  intros HSort [HFull HReg HS HDist HD HL HF HP HZ HT HB HMo HM HFuel] HG. split.
  2:{ intros HSafe.
      exact (proj2 (C45_values_partial m h inflate sort fuel ds file value mem keys idx cnt k w HSort HFull HReg HS HD HL HF HP HZ HSafe HT HB HM HFuel) x HG). }
  intros ->.
  assert (DP : distinct_py m inflate file ds value mem keys idx cnt k w fuel) by (constructor; auto).
  destruct (py_get_array m h inflate sort fuel ds file value mem keys idx cnt k w _ _ HSort DP HG)
    as (HW & Hw & HSel & _ & _ & LB & r & e & d & E4 & E0 & LD & E6 & DC).
  pose proof (slab_bytes_len inflate file ds value idx cnt HFull HS HSel) as LV.
  symmetry in E0. apply (to_native_inj h k w (d_order ds) d _ (N.to_nat (prodN cnt))) in E0; auto.
  2: unfold lenN in *; clear - LV HW; lia.
  apply (C25_distinct m inflate sort file ds value e idx cnt _ fuel r _ d HSort DC E4 E6).
  split; auto. assert (LM := HM (prodN cnt * d_dsize ds)). rewrite skipn_all2 by (unfold lenN in LM; lia). now rewrite app_nil_r.
Qed.
Print Assumptions C45_distinct.

Lemma distinct_py_whole m inflate mem : (forall n, lenN (mem n) = n) ->
  distinct_py m inflate words_file bad_ds bad_value mem [] [0; 0; 0] [4; 3; 5] KInt 4 61.
Proof.
  intros HM. destruct (C21_distinct_case m inflate) as (_ & _ & [B1 B2 B3 B4 B5 B6 B7 B8 B9 B10] & _).
  constructor; auto; try reflexivity.
  - unfold dims_fit. cbn [d_shape bad_ds]. repeat (apply Forall_cons; [vm_compute; discriminate|]). apply Forall_nil.
  - cbn. lia.
  - intros [|j] n k _ H; discriminate.
  - intros [H|[H|[H|[]]]]; discriminate.
  - vm_compute. discriminate.
Qed.

(** A dataset of 4 x 3 x 5 elements in chunks of 2 x 2 x 5 (so the last chunks stick out): one row
    in the class, and the whole dataset, outside of it: no schedule ever returns its values. *)
Example C45_distinct_case m h inflate sort mem : addr_sort sort -> (forall n, lenN (mem n) = n) ->
  distinct_py m inflate words_file bad_ds bad_value mem [] [0; 0; 0] [4; 3; 5] KInt 4 61 /\
  sel_safe (d_shape bad_ds) (d_chunk_shape bad_ds) [0; 0; 0] [4; 3; 5] = false /\
  ~ py_get m h inflate sort 61 bad_ds (Some words_file) mem (PyTuple [])
      (Ok ([4; 3; 5], to_native_slice h KInt 4 LE (concat (map bad_value (slab [0; 0; 0] [4; 3; 5]))))).
Proof.
  intros HSort HM. pose proof (distinct_py_whole m inflate mem HM) as D. split; [exact D|]. split; [reflexivity|].
  intros G. pose proof (proj1 (C45_distinct m h inflate sort 61 bad_ds words_file bad_value mem [] _ _ _ _ _ HSort D G) eq_refl). discriminate.
Qed.

(** ** C52 *)

Lemma elements_inj {V} (dec : datatype -> bytes -> V) dt w n b b' : (0 < w)%nat ->
  (forall u v, length u = w -> length v = w -> dec dt u = dec dt v -> u = v) ->
  length b = (w * n)%nat -> length b' = (w * n)%nat ->
  elements dec dt w n b = elements dec dt w n b' -> b = b'.
Proof.
  intros Hw HI L L' E. unfold elements in E.
  assert (HE : forall j, (j < n)%nat -> word w j b = word w j b').
  { intros j Hj. apply HI.
    - apply word_length with (n := n); auto. 
    - apply word_length with (n := n); auto.
    - assert (H : forall l, map (fun j => dec dt (word w j b)) l = map (fun j => dec dt (word w j b')) l ->
                     In j l -> dec dt (word w j b) = dec dt (word w j b')).
      { induction l as [|a l IH]; cbn [map In]; [tauto|]. intros [= H1 H2] [<-|H3]; auto. }
      apply (H (seq 0 n)); auto. apply in_seq. lia. }
  assert (HC : forall l, length l = (w * n)%nat -> concat (map (fun j => word w j l) (seq 0 n)) = l).
  { intros l Hl. transitivity (concat (words w n l)); [f_equal|now apply words_concat]. pose proof (words_length w n l) as W1. pose proof (words_all w n l Hl) as W2.
    pose proof (Properties12.word_concat w (words w n l) W2) as W. rewrite W1, (words_concat w n l Hl) in W. exact W. }
  rewrite <- (HC b L), <- (HC b' L'). f_equal. apply map_ext_in. intros j Hj. apply in_seq in Hj. apply HE. lia.
Qed.

(** A variable read through xarray, without a fill value and with an element type in which
    different bytes are different values: the values of the selected elements under every
    schedule if the selection is in the class [sel_safe], under none if it is not. *)
Theorem C52_distinct {O V} (py_nan : O) conv (dec : datatype -> bytes -> V) el_eq
    m h inflate sort fuel i name group file value mem p ds keys idx cnt k w x :
  addr_sort sort -> py_dataset i name group = Some p -> py_handle p = Ok ds ->
  distinct_py m inflate file ds value mem keys idx cnt k w fuel ->
  (forall u v, length u = w -> length v = w -> dec (d_dtype ds) u = dec (d_dtype ds) v -> u = v) ->
  xr_get py_nan conv dec el_eq m h inflate sort fuel i name group None (Some file) mem keys x ->
  (x = Ok (py_dims cnt, map (fun c => dec (d_dtype ds) (to_native_slice h k w (d_order ds) (value c))) (slab idx cnt)) <->
   sel_safe (d_shape ds) (d_chunk_shape ds) idx cnt = true).
Proof.
  intros HSort HP1 HP2 D HI HG. pose proof D as [HFull HReg HS HDist HD HL HF HP HZ HT HB HMo HM HFuel]. split.
  2:{ intros HSafe.
      exact (proj2 (C52_values_partial py_nan conv dec el_eq m h inflate sort fuel i name group None None file value mem p ds keys idx cnt k w
        HSort HP1 HP2 HFull HReg HS HD HL HF HP HZ HSafe HT HB HM HFuel eq_refl) x HG). }
  intros ->. inversion HG as [E1|p' y E1 E2 E3 E0|p' ds' y E1 E2 E3 E4 E0|p' ds' dims b k' w' E1 E2 E3 E4 E0]; subst.
  - destruct (py_handle p') as [z| | | |] eqn:EH; cbn [failed] in E0; discriminate.
  - destruct y; cbn [failed] in E0; discriminate.
  - rewrite HP1 in E1. injection E1 as <-. rewrite HP2 in E2. injection E2 as <-. rewrite HT in E4. injection E4 as <- <-.
    destruct (py_get_array m h inflate sort fuel ds file value mem keys idx cnt k w _ _ HSort D E3)
      as (HW & Hw & HSel & _ & HPd & LB & _).
    match goal with H : elements _ _ _ _ _ = _ |- _ => rename H into EE end. rewrite HPd in EE. rename EE into E0.
    destruct (py_plan_lengths _ _ _ _ _ HP) as [L1 L2].
    assert (HVL : forall c, In c (slab idx cnt) -> length (value c) = w).
    { intros c Hc. rewrite (value_length inflate file ds value idx cnt c HFull HS HSel Hc), HW. apply Nat2N.id. }
    assert (HNL : forall c, In c (slab idx cnt) -> length (to_native_slice h k w (d_order ds) (value c)) = w).
    { intros c Hc. rewrite (to_native_length h k w (d_order ds) (value c) 1); auto; rewrite HVL; auto; lia. }
    pose proof (slab_bytes_len inflate file ds value idx cnt HFull HS HSel) as LV.
    set (vs := to_native_slice h k w (d_order ds) (concat (map value (slab idx cnt)))).
    assert (Lvs : length vs = (w * N.to_nat (prodN cnt))%nat).
    { unfold vs. assert (L3 : length (concat (map value (slab idx cnt))) = (w * N.to_nat (prodN cnt))%nat)
        by (unfold lenN in LV; clear - LV HW; lia).
      rewrite (to_native_length h k w (d_order ds) _ (N.to_nat (prodN cnt)) Hw L3). exact L3. }
    assert (EV : elements dec (d_dtype ds) w (N.to_nat (prodN cnt)) vs =
                 map (fun c => dec (d_dtype ds) (to_native_slice h k w (d_order ds) (value c))) (slab idx cnt)).
    { unfold vs. rewrite to_native_concat; auto.
      2:{ apply Forall_forall. intros z Hb. apply in_map_iff in Hb as (c & <- & Hc). rewrite HVL by auto. now apply Nat.mod_same; lia. }
      rewrite map_map. unfold elements.
      rewrite <- (map_map (fun j => word w j (concat (map (fun c => to_native_slice h k w (d_order ds) (value c)) (slab idx cnt)))) (dec (d_dtype ds))).
      assert (EN : N.to_nat (prodN cnt) = length (map (fun c => to_native_slice h k w (d_order ds) (value c)) (slab idx cnt))).
      { rewrite map_length. assert (HLn : lenN (slab idx cnt) = prodN cnt) by (apply slab_length; congruence).
        unfold lenN in HLn. clear - HLn. lia. }
      rewrite EN, word_concat; [now rewrite map_map|]. apply Forall_forall. intros z Hb. apply in_map_iff in Hb as (c & <- & Hc). auto. }
    rewrite <- EV in E0. apply elements_inj in E0; auto. subst b.
    exact (proj1 (C45_distinct m h inflate sort fuel ds file value mem keys idx cnt k w _ HSort D E3) eq_refl).
Qed.
Print Assumptions C52_distinct.

(** The dataset of [C45_distinct_case] as variable "x" in a group "g", its elements decoded to
    their bytes: its values are never what is returned for the whole variable. *)
Definition xr_words : index := mkIndex None (mkGroup None [] [([103], mkGroup None [([120], bad_ds)] [])]).
Example C52_distinct_case m h inflate sort mem conv el_eq : addr_sort sort -> (forall n, lenN (mem n) = n) ->
  exists p, py_dataset xr_words [120] (Some [103]) = Some p /\ py_handle p = Ok bad_ds /\
  ~ xr_get tt conv (fun _ b => b) el_eq m h inflate sort 61 xr_words [120] (Some [103]) None (Some words_file) mem []
      (Ok ([4; 3; 5], map (fun c => to_native_slice h KInt 4 LE (bad_value c)) (slab [0; 0; 0] [4; 3; 5]))).
Proof.
  intros HSort HM. pose proof (distinct_py_whole m inflate mem HM) as D. eexists. split; [reflexivity|]. split; [reflexivity|].
  intros G. assert (HP : exists p, py_dataset xr_words [120] (Some [103]) = Some p /\ py_handle p = Ok bad_ds) by (eexists; split; reflexivity).
  destruct HP as (p & H1 & H2).
  pose proof (proj1 (C52_distinct tt conv (fun _ b => b) el_eq m h inflate sort 61 xr_words [120] (Some [103]) words_file bad_value mem p bad_ds
    [] _ _ _ _ _ HSort H1 H2 D (fun u v _ _ E => E) G) eq_refl). discriminate.
Qed.

(** ** Every index expression NumPy accepts *)

(** The box is what NumPy selects. *)
Lemma np_box : forall shape keys, (length keys <= length shape)%nat -> on_axes np_valid shape keys ->
  forall c, In c (slab (np_starts shape keys) (np_lens shape keys)) <-> np_select shape keys c.
Proof.
  induction shape as [|n shape IH]; intros [|k keys] HL HV c; cbn [length] in HL; try lia; cbn [np_starts np_lens].
  - cbn. split; [intros [<-|[]]; constructor|inversion 1; auto].
  - destruct c as [|x c]; [split; [intros H; exfalso; exact (slab_cons_nil _ _ _ _ H)|inversion 1]|].
    rewrite slab_cons, (IH [] ) by (cbn; try lia; intros [|j] ? ? ? E; discriminate).
    split; [intros [H1 H2]; constructor; auto; lia|]. inversion 1; subst. split; auto. lia.
  - destruct c as [|x c]; [split; [intros H; exfalso; exact (slab_cons_nil _ _ _ _ H)|inversion 1]|].
    apply on_axes_cons in HV as [Hk HV]. rewrite slab_cons, (IH keys) by (auto; lia).
    assert (HA : np_start n k <= x < np_start n k + np_len n k <-> np_axis n k x).
    { destruct k as [a b st|i|]; cbn [np_valid np_start np_len] in *; [| |easy].
      - pose proof (np_lo_range (Z.of_N n) a (N2Z.is_nonneg n)). split.
        + intros H1. constructor; auto. lia.
        + inversion 1; subst. lia.
      - unfold in_range in Hk. split.
        + intros H1. destruct (Z.ltb_spec i 0); constructor; lia.
        + inversion 1; subst. destruct (Z.ltb_spec i 0); lia. }
    rewrite HA. split; [intros [H1 H2]; constructor; auto|]. inversion 1; subst. auto.
Qed.

(** A valid element is forward, or backward or lost. *)
Lemma valid_cases n k : np_valid n k -> forward n k \/ (backward n k \/ lost_int n k) /\ (k = PyInt (-1) \/ np_len n k = 0).
Proof.
  destruct k as [a b st|i|]; cbn [np_valid forward backward lost_int np_len]; [| |easy].
  - intros H. destruct (Z.le_gt_cases (np_lo (Z.of_N n) a) (np_hi (Z.of_N n) b)) as [L|L]; [left; auto|].
    right. split; [auto|]. right. lia.
  - intros H. destruct (Z.eq_dec i (-1)) as [->|Hi]; [|left; auto]. unfold in_range in H.
    right. split; [|now left]. destruct (N.eq_dec n 1) as [->|Hn]; [right; right; auto|left; split; [auto|lia]].
Qed.

Lemma forward_np n k : (Z.of_N n <= IMAX)%Z -> forward n k ->
  np_start n k = Z.to_N (key_lo n k) /\ np_len n k = as_u64 (key_hi n k - key_lo n k).
Proof.
  intros Hn H. destruct (forward_plain n k Hn H) as [_ HL]. rewrite key_count by auto.
  destruct k as [a b st|i|]; cbn [forward np_start np_len] in *; [split; reflexivity| |easy].
  destruct H as [H Hi]. destruct (int_bounds n i H Hi) as [E3 E2]. split; [now rewrite E3|]. rewrite E2. lia.
Qed.

Lemma forward_plan_np : forall shape keys, (length keys <= length shape)%nat -> dims_fit shape -> on_axes forward shape keys ->
  plan_idx shape keys = np_starts shape keys /\ plan_cnt shape keys = np_lens shape keys.
Proof.
  induction shape as [|n shape IH]; intros [|k keys] HL HD HF; cbn [length] in HL; try lia; [split; reflexivity| |].
  - inversion HD as [|? ? Hn HD']; subst. destruct (plan_nil n shape) as [-> ->]. cbn [np_starts np_lens].
    destruct (IH [] ) as [-> ->]; auto; [cbn; lia|]. intros [|j] ? ? ? E; discriminate.
  - inversion HD as [|? ? Hn HD']; subst. apply on_axes_cons in HF as [Hk HF]. destruct (plan_cons n shape k keys) as [-> ->].
    cbn [np_starts np_lens]. destruct (IH keys) as [-> ->]; auto; [lia|]. destruct (forward_np n k Hn Hk) as [-> ->]. auto.
Qed.

Lemma not_forward : forall shape keys, on_axes np_valid shape keys ->
  on_axes forward shape keys \/
  on_axis (fun n k => (backward n k \/ lost_int n k) /\ (k = PyInt (-1) \/ np_len n k = 0)) shape keys.
Proof.
  induction shape as [|n shape IH]; intros [|k keys] HV.
  - left. intros [|j] ? ? E; discriminate.
  - left. intros [|j] ? ? E; discriminate.
  - left. intros [|j] ? ? ? E; discriminate.
  - apply on_axes_cons in HV as [Hk HV]. destruct (valid_cases n k Hk) as [H|H].
    + destruct (IH keys HV) as [H1|(j & n' & k' & H1 & H2 & H3)].
      * left. intros [|j] n' k' E1 E2; cbn in E1, E2; [congruence|exact (H1 j n' k' E1 E2)].
      * right. exists (S j), n', k'. auto.
    + right. exists 0%nat, n, k. auto.
Qed.

Lemma np_lens_nth : forall shape keys j n k, nth_error shape j = Some n -> nth_error keys j = Some k ->
  In (np_len n k) (np_lens shape keys).
Proof.
  induction shape as [|n0 shape IH]; intros [|k0 keys] [|j] n k Hn Hk; cbn in Hn, Hk; try discriminate; cbn [np_lens].
  - left. congruence.
  - right. exact (IH keys j n k Hn Hk).
Qed.

(** Something always comes out (perhaps a panic). *)
Lemma py_get_total m h inflate sort fuel ds file mem arg : exists x, py_get m h inflate sort fuel ds file mem arg x.
Proof.
  assert (D : forall A (x : res A), (exists a, x = Ok a) \/ (forall a, x <> Ok a)).
  { intros A [a| | | |]; [left; eauto|right; discriminate..]. }
  destruct (D _ (py_plan m (d_shape ds) arg)) as [([idx cnt] & E)|E]; [|eexists; eapply pg_plan; eauto].
  destruct (D _ (py_type (d_dtype ds))) as [([k w] & E1)|E1]; [|eexists; eapply pg_type; eauto].
  destruct (Z.le_gt_cases (Z.of_N (prodN (py_dims cnt) * N.of_nat w)) IMAX) as [HB|HB].
  2:{ eexists. eapply pg_read; eauto. apply py_big. lia. }
  destruct (D _ (direct_new m ds file)) as [(r & E2)|E2]; [|eexists; eapply pg_read; eauto; eapply py_new; eauto].
  destruct (D _ (extents_of_pairs idx cnt)) as [(e & E3)|E3]; [|eexists; eapply pg_read; eauto; eapply py_ext; eauto].
  destruct (par_read_total m inflate sort fuel r e (mem (prodN (py_dims cnt) * N.of_nat w))) as (x & d & H).
  eexists. eapply pg_read; eauto. eapply py_run; eauto.
Qed.

(** Indexing a dataset of a file whose cells are all different, with any tuple NumPy accepts:
    the values of the elements NumPy selects are returned, whatever the newly allocated memory
    held and whatever the schedule, if and only if no element is -1, the selection is not empty,
    and it is in the class [sel_safe]. *)
Theorem C45_exact m h inflate sort fuel ds file value keys k w :
  addr_sort sort -> full_dataset ds -> regular ds -> stores inflate file ds value -> distinct_cells inflate file ds ->
  dims_fit (d_shape ds) -> (length keys <= length (d_shape ds))%nat -> on_axes np_valid (d_shape ds) keys ->
  let idx := np_starts (d_shape ds) keys in
  let cnt := np_lens (d_shape ds) keys in
  py_type (d_dtype ds) = Ok (k, w) -> (Z.of_N (prodN cnt * d_dsize ds) <= IMAX)%Z ->
  (m = Release -> (2 * prodN cnt + 3 * prodN (d_chunk_shape ds)) * d_dsize ds < W64 /\
    single_end (d_chunk_shape ds) cnt = false) ->
  (N.to_nat (prodN cnt) < fuel)%nat ->
  ((forall mem x, (forall n, lenN (mem n) = n) -> py_get m h inflate sort fuel ds (Some file) mem (PyTuple keys) x ->
      exists dims, x = Ok (dims, to_native_slice h k w (d_order ds) (concat (map value (slab idx cnt)))) /\ prodN dims = prodN cnt) <->
   ~ In (PyInt (-1)) keys /\ ~ In 0 cnt /\ sel_safe (d_shape ds) (d_chunk_shape ds) idx cnt = true).
Proof.
  intros HSort HFull HReg HS HDist HD HL HV idx cnt HT HB HMo HFuel.
  assert (HW : d_dsize ds = N.of_nat w).
  { rewrite (wm_dsize _ (fd_made _ HFull)). exact (py_type_width _ _ _ HT). }
  assert (Hw : (0 < w)%nat) by exact (py_type_pos _ _ _ HT).
  assert (HPlan : on_axes forward (d_shape ds) keys -> py_plan m (d_shape ds) (PyTuple keys) = Ok (idx, cnt)).
  { intros HF. rewrite py_plan_plain; auto.
    - destruct (forward_plan_np _ _ HL HD HF) as [-> ->]. reflexivity.
    - intros j n k0 Hn Hk. apply (forward_plain n k0); [|exact (HF j n k0 Hn Hk)].
      exact (proj1 (Forall_forall _ _) HD n (nth_error_In _ _ Hn)). }
  split.
  2:{ intros (H1 & H2 & HSafe) mem x HM HG.
      assert (HF : on_axes forward (d_shape ds) keys).
      { destruct (not_forward _ _ HV) as [HF|(j & n & k0 & Hn & Hk & _ & [->|E])]; auto; exfalso.
        - exact (H1 (nth_error_In _ _ Hk)).
        - apply H2. rewrite <- E. exact (np_lens_nth _ _ _ _ _ Hn Hk). }
      pose proof (HPlan HF) as HP. exists (py_dims cnt).
      split; [|apply prod_dims, Forall_forall; intros y Hy; destruct (N.eq_dec y 0) as [->|]; [contradiction|lia]].
      exact (proj2 (C45_values_partial m h inflate sort fuel ds file value mem keys idx cnt k w HSort HFull HReg HS HD HL HF HP H2 HSafe HT HB HM HFuel) x HG). }
  intros HAll.
  (* an empty axis in the plan: the array holds what the memory held *)
  assert (HE : forall idx' cnt', py_plan m (d_shape ds) (PyTuple keys) = Ok (idx', cnt') -> ~ In 0 cnt').
  { intros idx' cnt' HP HZ.
    assert (Hget : forall b, exists dims d, to_native_slice h k w (d_order ds) d = to_native_slice h k w (d_order ds) (concat (map value (slab idx cnt))) /\
       d = repeat b (N.to_nat (prodN dims * N.of_nat w)) /\ 0 < prodN dims /\ dims = py_dims cnt').
    { intros b. set (mem := fun n : N => repeat b (N.to_nat n)).
      assert (HM : forall n, lenN (mem n) = n) by (intros n; unfold mem, lenN; rewrite repeat_length; lia).
      destruct (py_get_total m h inflate sort fuel ds (Some file) mem (PyTuple keys)) as [x HG].
      destruct (HAll mem x HM HG) as (dims & -> & _).
      assert (HX : (Z.of_N (prodN (py_dims cnt') * N.of_nat w) <= IMAX)%Z /\ exists r, direct_new m ds (Some file) = Ok r).
      { inversion HG as [y E1 E2 E0|p y E1 E2 E3 E0|idx2 cnt2 kd2 w2 y E1 E2 E3]; subst.
        - exfalso. rewrite HP in E2. now apply (E2 (idx', cnt')).
        - exfalso. rewrite HT in E3. now apply (E3 (k, w)).
        - rewrite HP in E1. injection E1 as <- <-. rewrite HT in E2. injection E2 as <- <-.
          inversion E3 as [HBig|y HB' E4 E5 E0|r y HB' E4 E5 E6 E0|r e' y d HB' E4 E5 E6 E0]; subst.
          + destruct (direct_new m ds (Some file)) eqn:EN; cbn [failed] in E0; discriminate.
          + split; eauto.
          + split; eauto. }
      destruct HX as [HX [r HR]].
      destruct (C45_empty_refuted m h inflate sort fuel ds file mem _ idx' cnt' k w r _ HSort HP HZ HT HX HR ltac:(lia) HG) as (E & P & _).
      injection E as Ed Eb. exists (py_dims cnt'), (mem (prodN (py_dims cnt') * N.of_nat w)). split; [now symmetry|].
      split; [reflexivity|]. auto. }
    destruct (Hget 0) as (d0 & b0 & E0 & -> & P0 & ->). destruct (Hget 1) as (d1 & b1 & E1 & -> & P1 & ->).
    rewrite <- E1 in E0. apply (to_native_inj h k w (d_order ds) _ _ (N.to_nat (prodN (py_dims cnt')))) in E0; auto;
      try (rewrite repeat_length; lia).
    destruct (N.to_nat (prodN (py_dims cnt') * N.of_nat w)) as [|q] eqn:Eq; [lia|]. cbn [repeat] in E0. discriminate. }
  set (mem := fun n : N => repeat 0 (N.to_nat n)).
  assert (HM : forall n, lenN (mem n) = n) by (intros n; unfold mem, lenN; rewrite repeat_length; lia).
  destruct (py_get_total m h inflate sort fuel ds (Some file) mem (PyTuple keys)) as [x HG].
  destruct (HAll mem x HM HG) as (dims & Ex & _).
  assert (HF : on_axes forward (d_shape ds) keys).
  { destruct (not_forward _ _ HV) as [HF|(j & n & k0 & Hn & Hk & [HBk|HLo] & _)]; auto; exfalso.
    - assert (HA : on_axis backward (d_shape ds) keys) by (exists j, n, k0; auto).
      rewrite (C44_backward_refuted m h inflate sort fuel ds (Some file) mem keys x HA HG) in Ex. discriminate.
    - assert (HA : on_axis lost_int (d_shape ds) keys) by (exists j, n, k0; auto).
      destruct (py_plan m (d_shape ds) (PyTuple keys)) as [[idx' cnt']| | | |] eqn:HP.
      + exact (HE idx' cnt' eq_refl (proj1 (C44_lost_refuted m _ _ _ _ HA HP))).
      + pose proof (py_plan_fails m _ _ _ HP) as E. discriminate E. discriminate.
      + inversion HG as [y E1 E2 E0|p y E1|idx2 cnt2 kd2 w2 y E1]; subst; try congruence; rewrite HP in *; cbn [failed] in *; discriminate.
      + pose proof (py_plan_fails m _ _ _ HP) as E. discriminate E. discriminate.
      + pose proof (py_plan_fails m _ _ _ HP) as E. discriminate E. discriminate. }
  pose proof (HPlan HF) as HP. pose proof (HE _ _ HP) as HZ.
  split.
  { intros HIn. apply In_nth_error in HIn as [j Hj].
    assert (Hlt : (j < length (d_shape ds))%nat) by (assert (j < length keys)%nat by (apply nth_error_Some; congruence); lia).
    destruct (nth_error (d_shape ds) j) as [n|] eqn:En; [|apply nth_error_None in En; lia].
    destruct (HF j n _ En Hj) as [_ Hne]. now apply Hne. }
  split; [exact HZ|].
  assert (DP : distinct_py m inflate file ds value mem keys idx cnt k w fuel) by (constructor; auto).
  apply (C45_distinct m h inflate sort fuel ds file value mem keys idx cnt k w x HSort DP HG).
  subst x. f_equal. f_equal.
  destruct (py_get_array m h inflate sort fuel ds file value mem keys idx cnt k w _ _ HSort DP HG) as (_ & _ & _ & E & _). exact E.
Qed.
Print Assumptions C45_exact.
(** The 4 x 6 dataset: `ds[-3:, 2:100:1]` is right; `ds[-1]`, `ds[2:2]` and the whole of [bad_ds]
    are not. *)
Example C45_exact_case : full_dataset st_ds /\ regular st_ds /\ stores toy_inflate st_file st_ds st_value /\
  distinct_cells toy_inflate st_file st_ds /\ dims_fit (d_shape st_ds) /\ py_type (d_dtype st_ds) = Ok (KInt, 2%nat) /\
  on_axes np_valid (d_shape st_ds) py_keys /\
  np_starts (d_shape st_ds) py_keys = [1; 2] /\ np_lens (d_shape st_ds) py_keys = [3; 4] /\
  ~ In (PyInt (-1)) py_keys /\ ~ In 0 [3; 4] /\ sel_safe (d_shape st_ds) (d_chunk_shape st_ds) [1; 2] [3; 4] = true /\
  on_axes np_valid (d_shape st_ds) [PyInt (-1)] /\
  on_axes np_valid (d_shape st_ds) [PySlice (Some 2%Z) (Some 2%Z) None] /\
  np_lens (d_shape st_ds) [PySlice (Some 2%Z) (Some 2%Z) None] = [0; 6] /\
  on_axes np_valid (d_shape bad_ds) [] /\
  sel_safe (d_shape bad_ds) (d_chunk_shape bad_ds) (np_starts (d_shape bad_ds) []) (np_lens (d_shape bad_ds) []) = false.
Proof.
  destruct (C21_distinct_filtered Debug) as [A1 A2 A3 A4 _ _ _ _ _ _].
  split; [exact A1|]. split; [exact A2|]. split; [exact A3|]. split; [exact A4|].
  split; [unfold dims_fit; cbn [d_shape st_ds]; repeat (apply Forall_cons; [vm_compute; discriminate|]); apply Forall_nil|].
  split; [reflexivity|].
  split; [intros [|[|[|j]]] n k Hn Hk; cbn in Hn, Hk; try discriminate; injection Hn as <-; injection Hk as <-; cbn; unfold unit_step; auto|].
  split; [reflexivity|]. split; [reflexivity|].
  split; [intros [H|[H|[]]]; discriminate|]. split; [intros [H|[H|[]]]; discriminate|]. split; [reflexivity|].
  split; [intros [|[|j]] n k Hn Hk; cbn in Hn, Hk; try discriminate; injection Hn as <-; injection Hk as <-; cbn; unfold in_range; lia|].
  split; [intros [|[|j]] n k Hn Hk; cbn in Hn, Hk; try discriminate; injection Hn as <-; injection Hk as <-; cbn; unfold unit_step; auto|].
  split; [reflexivity|]. split; [intros [|j] n k Hn Hk; discriminate|reflexivity].
Qed.

(** ** C44: exactly which expressions select what NumPy selects *)

Lemma last_corner : forall idx cnt, Forall (fun c => 0 < c) cnt -> length idx = length cnt ->
  In (map2 (fun i c => i + c - 1) idx cnt) (slab idx cnt) /\
  forall j i c, nth_error idx j = Some i -> nth_error cnt j = Some c ->
    nth_error (map2 (fun i c => i + c - 1) idx cnt) j = Some (i + c - 1).
Proof.
  induction idx as [|i idx IH]; intros [|c cnt] HP HL; cbn [length] in HL; try lia.
  - split; [now left|]. intros [|j] ? ? E; discriminate.
  - inversion HP; subst. destruct (IH cnt) as [I1 I2]; [assumption|lia|]. cbn [map2]. split.
    + apply slab_cons. split; [lia|exact I1].
    + intros [|j] i' c' E1 E2; cbn in *; [congruence|auto].
Qed.

Lemma np_select_bounds : forall shape keys c, np_select shape keys c -> (length keys <= length shape)%nat -> on_axes np_valid shape keys ->
  forall j n x, nth_error shape j = Some n -> nth_error c j = Some x -> x < n.
Proof.
  induction 1 as [|n shape x xs Hx HS IH|n shape k keys x xs Hx HS IH]; intros HL HV j n' x' Hn Hc.
  - destruct j; discriminate.
  - destruct j as [|j]; cbn in Hn, Hc; [congruence|]. apply (IH ltac:(cbn; lia) ltac:(intros [|q] ? ? ? E; discriminate) j); auto.
  - apply on_axes_cons in HV as [Hk HV]. destruct j as [|j]; cbn in Hn, Hc.
    + injection Hn as <-. injection Hc as <-. inversion Hx; subst; auto.
      match goal with H : (_ <= _ < np_hi (Z.of_N n) ?b)%Z |- _ => pose proof (np_hi_range (Z.of_N n) b (N2Z.is_nonneg n)) end. lia.
    + cbn [length] in HL. apply (IH ltac:(lia) HV j); auto.
Qed.

(** An index expression NumPy accepts, selecting something: the plan selects what NumPy
    selects if and only if no element is -1. *)
Theorem C44_exact m shape keys :
  dims_fit shape -> (length keys <= length shape)%nat -> on_axes np_valid shape keys ->
  (exists c, np_select shape keys c) ->
  ((exists idx cnt, py_plan m shape (PyTuple keys) = Ok (idx, cnt) /\
      forall c, In c (slab idx cnt) <-> np_select shape keys c) <->
   ~ In (PyInt (-1)) keys).
Proof.
  intros HD HL HV [c0 Hc0]. split.
  - intros (idx & cnt & HP & HI) HIn. destruct (py_plan_lengths _ _ _ _ _ HP) as [L1 L2].
    apply In_nth_error in HIn as [j Hj].
    assert (Hlt : (j < length shape)%nat) by (assert (j < length keys)%nat by (apply nth_error_Some; congruence); lia).
    destruct (nth_error shape j) as [n|] eqn:En; [|apply nth_error_None in En; lia].
    pose proof (HV j n _ En Hj) as Hr. cbn [np_valid] in Hr. unfold in_range in Hr.
    destruct (N.eq_dec n 1) as [->|Hn1].
    + assert (HA : on_axis lost_int shape keys) by (exists j, 1, (PyInt (-1)); repeat split; auto; right; auto).
      exact (proj2 (C44_lost_refuted m _ _ _ _ HA HP) c0 (proj2 (HI c0) Hc0)).
    + destruct (py_plan_nth m _ _ _ _ _ _ _ HP En Hj) as (i & c & Ei & Ec & E).
      assert (HB : backward n (PyInt (-1))) by (split; [auto|lia]).
      pose proof (backward_count m n _ i c HB E) as Hbig.
      assert (HPos : Forall (fun c => 0 < c) cnt).
      { apply Forall_forall. intros y Hy. destruct (N.eq_dec y 0) as [->|]; [|lia]. exfalso.
        assert (P0 : prodN cnt = 0).
        { clear -Hy. induction cnt as [|a cnt IH]; [easy|]. cbn [prodN]. destruct Hy as [->|H]; [lia|]. rewrite IH by auto. lia. }
        assert (HLn : lenN (slab idx cnt) = 0) by (rewrite slab_length by congruence; auto).
        apply HI in Hc0. destruct (slab idx cnt); [easy|]. unfold lenN in HLn. cbn [length] in HLn. lia. }
      destruct (last_corner idx cnt HPos ltac:(congruence)) as [I1 I2]. apply HI in I1.
      pose proof (np_select_bounds _ _ _ I1 HL HV j n _ En (I2 j i c Ei Ec)) as H.
      pose proof (proj1 (Forall_forall _ _) HD n (nth_error_In _ _ En)) as HM. cbn beta in HM. lia.
  - intros HNo.
    assert (HF : on_axes forward shape keys).
    { destruct (not_forward _ _ HV) as [HF|(j & n & k & Hn & Hk & _ & [->|E])]; auto; exfalso.
      - exact (HNo (nth_error_In _ _ Hk)).
      - pose proof (np_lens_nth _ _ _ _ _ Hn Hk) as HIn. rewrite E in HIn. apply (np_box _ _ HL HV) in Hc0.
        assert (P0 : prodN (np_lens shape keys) = 0).
        { clear -HIn. induction (np_lens shape keys) as [|a l IH]; [easy|]. cbn [prodN]. destruct HIn as [->|H]; [lia|]. rewrite IH by auto. lia. }
        assert (HLs : forall shape keys, length (np_starts shape keys) = length (np_lens shape keys)).
        { clear. induction shape as [|n shape IH]; intros [|k keys]; cbn; auto. }
        assert (HLn : lenN (slab (np_starts shape keys) (np_lens shape keys)) = 0) by (rewrite slab_length by apply HLs; auto).
        destruct (slab _ _); [easy|]. unfold lenN in HLn. cbn [length] in HLn. lia. }
    destruct (C44_selects_partial m shape keys HD HL HF) as (idx & cnt & H1 & _ & _ & H2). eauto.
Qed.
Print Assumptions C44_exact.
Example C44_exact_case : dims_fit [4; 6] /\ on_axes np_valid [4; 6] [PyInt (-1)] /\ np_select [4; 6] [PyInt (-1)] [3; 5] /\
  on_axes np_valid [4; 6] [PyInt (-2)] /\ np_select [4; 6] [PyInt (-2)] [2; 5].
Proof.
  split; [unfold dims_fit; repeat (apply Forall_cons; [vm_compute; discriminate|]); apply Forall_nil|].
  split; [intros [|[|j]] n k Hn Hk; cbn in Hn, Hk; try discriminate; injection Hn as <-; injection Hk as <-; cbn; unfold in_range; lia|].
  split; [repeat (constructor; try reflexivity); right; reflexivity|].
  split; [intros [|[|j]] n k Hn Hk; cbn in Hn, Hk; try discriminate; injection Hn as <-; injection Hk as <-; cbn; unfold in_range; lia|].
  repeat (constructor; try reflexivity); right; reflexivity.
Qed.
