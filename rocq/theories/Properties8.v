(** * Property theorems C44, C45, C49, C51: the Python interface.

    [np_select], [forward], [backward], [lost_int], [on_axes], [on_axis] are in SpecPython. *)
From Verif Require Import Base Spec Safe Extent Chunk Dataset Slicer SpecApi ExtentProofs ApiLemmas Termination
  GroupProofs SliceProps Filters SpecFilter FilterProofs FilterProps Reader SpecReader CacheProofs DirectProofs ParProofs
  ReadProofs ReaderProps Examples ExamplesReader Properties4 IndexTree SpecTree SerdeProofs TreeProofs Properties7
  Python SpecPython PythonProofs.

(** ** C44 *)

(** Ints in range other than -1 and forward slices: the selection is NumPy's. *)
Theorem C44_selects_partial m shape keys :
  dims_fit shape -> (length keys <= length shape)%nat -> on_axes forward shape keys ->
  exists idx cnt, py_plan m shape (PyTuple keys) = Ok (idx, cnt) /\
    length idx = length shape /\ length cnt = length shape /\
    forall x, In x (slab idx cnt) <-> np_select shape keys x.
Proof.
  intros HD HL HF.
  assert (HP : on_axes (fun _ => plain_key) shape keys).
  { intros j n k Hn Hk. apply (forward_plain n k); [|exact (HF j n k Hn Hk)].
    exact (proj1 (Forall_forall _ _) HD n (nth_error_In _ _ Hn)). }
  exists (plan_idx shape keys), (plan_cnt shape keys).
  split; [now apply py_plan_plain|]. destruct (plan_lengths shape keys HL) as [-> ->].
  split; [auto|]. split; [auto|]. now apply plan_selects.
Qed.
Print Assumptions C44_selects_partial.

Definition py_keys : list pykey := [PySlice (Some (-3)) None None; PySlice (Some 2) (Some 100) (Some 1)]%Z.
Lemma py_keys_forward : on_axes forward [4; 6] py_keys.
Proof.
  intros [|[|[|j]]] n k Hn Hk; cbn in Hn, Hk; try discriminate; injection Hn as <-; injection Hk as <-;
    (split; [unfold unit_step; auto|vm_compute; discriminate]).
Qed.
Example C44_case m : dims_fit [4; 6] /\ on_axes forward [4; 6] py_keys /\
  py_plan m [4; 6] (PyTuple py_keys) = Ok ([1; 2], [3; 4]) /\
  py_plan m [4; 6] (PyTuple [PyInt (-2)]) = Ok ([2; 0], [1; 6]).
Proof.
  split; [repeat constructor; discriminate|]. split; [exact py_keys_forward|].
  split; destruct m; vm_compute; reflexivity.
Qed.

(** False of the code: -1 (the last of several elements) and slices whose bounds are out of
    order (in NumPy: an empty selection) panic, in every build, for every dataset, file,
    schedule and whatever the other elements are. *)
Theorem C44_backward_refuted m h inflate sort fuel ds file mem keys x :
  on_axis backward (d_shape ds) keys ->
  py_get m h inflate sort fuel ds file mem (PyTuple keys) x -> x = Panic.
Proof.
  intros (j & n & k & Hn & Hk & HB) HG.
  inversion HG as [y E1 E2|p y E1 E2 E3|idx cnt kd w y E1 E2 E3]; subst.
  - rewrite (py_plan_fails m _ _ _ eq_refl E2). reflexivity.
  - now rewrite (py_type_fails _ _ eq_refl E3).
  - destruct (py_plan_nth m _ _ _ _ _ _ _ E1 Hn Hk) as (i & c & _ & Ec & E).
    apply (py_read_huge m h inflate sort fuel ds file mem kd w idx cnt c); auto.
    + exact (py_type_pos _ _ _ E2).
    + exact (nth_error_In _ _ Ec).
    + exact (backward_count m n k i c HB E).
Qed.
Print Assumptions C44_backward_refuted.
Example C44_backward_case : on_axis backward (d_shape st_ds) [PyInt (-1)] /\
  np_select (d_shape st_ds) [PyInt (-1)] [3; 5] /\
  on_axis backward (d_shape st_ds) [PySlice (Some 3%Z) (Some 1%Z) None].
Proof.
  split; [exists 0%nat, 4, (PyInt (-1)); repeat split|].
  split; [repeat (constructor; try reflexivity); right; reflexivity|].
  exists 0%nat, 4, (PySlice (Some 3%Z) (Some 1%Z) None). repeat split; now left.
Qed.

(** False of the code: an int out of range is no error but selects nothing, and neither does
    -1 select the only element of an axis of length 1. *)
Theorem C44_lost_refuted m shape keys idx cnt :
  on_axis lost_int shape keys -> py_plan m shape (PyTuple keys) = Ok (idx, cnt) ->
  In 0 cnt /\ forall x, ~ In x (slab idx cnt).
Proof.
  intros (j & n & k & Hn & Hk & HB) E.
  destruct (py_plan_nth m _ _ _ _ _ _ _ E Hn Hk) as (i & c & Ei & Ec & E2).
  rewrite (lost_count m n k i c HB E2) in Ec. split; [exact (nth_error_In _ _ Ec)|].
  intros x Hx. destruct (py_plan_lengths _ _ _ _ _ E) as [L1 L2]. apply in_slab in Hx as [HL H]; [|congruence].
  assert (HJ : (j < length x)%nat) by (rewrite HL; apply nth_error_Some; congruence).
  destruct (nth_error x j) as [y|] eqn:Ey; [|apply nth_error_None in Ey; lia].
  specialize (H j y i 0 Ey Ei Ec). lia.
Qed.
Print Assumptions C44_lost_refuted.
Example C44_lost_case m : on_axis lost_int [4; 6] [PyInt 9] /\ py_plan m [4; 6] (PyTuple [PyInt 9]) = Ok ([4; 0], [0; 6]) /\
  on_axis lost_int [1; 6] [PyInt (-1)] /\ np_select [1; 6] [PyInt (-1)] [0; 2] /\
  py_plan m [1; 6] (PyTuple [PyInt (-1)]) = Ok ([0; 0], [0; 6]).
Proof.
  split; [exists 0%nat, 4, (PyInt 9); repeat split; left; unfold in_range, IMIN, IMAX; lia|].
  split; [destruct m; vm_compute; reflexivity|].
  split; [exists 0%nat, 1, (PyInt (-1)); repeat split; right; split; reflexivity|].
  split; [repeat (constructor; try reflexivity); right; reflexivity|destruct m; vm_compute; reflexivity].
Qed.

(** False of the code: surplus elements are no error (NumPy: IndexError); the first is only
    required to be an int or a slice, the others are not looked at. *)
Theorem C44_surplus_refuted m shape keys k more : length keys = length shape ->
  (exists s, py_slice m k = Ok s) ->
  py_plan m shape (PyTuple (keys ++ k :: more)) = py_plan m shape (PyTuple keys).
Proof.
  intros HL [s Hs].
  assert (E : forall keys shape, length keys = length shape -> py_axes m (keys ++ k :: more) shape = py_axes m keys shape).
  { clear HL keys shape. induction keys as [|k0 keys IH]; intros [|n shape] HL; cbn [length] in HL; try lia; cbn [app py_axes].
    - now rewrite Hs.
    - now rewrite (IH shape) by lia. }
  unfold py_plan. now rewrite E.
Qed.
Print Assumptions C44_surplus_refuted.
Example C44_surplus_case m : length [PyInt 0; PyInt 1] = length [4; 6] /\ (exists s, py_slice m (PyInt 7) = Ok s) /\
  py_plan m [4; 6] (PyTuple [PyInt 0; PyInt 1; PyInt 7; PyOther]) = Ok ([0; 1], [1; 1]).
Proof. split; [reflexivity|]. split; [eexists; reflexivity|destruct m; vm_compute; reflexivity]. Qed.

(** Other steps, other objects and ints beyond 64 bits on an axis of the dataset panic; an
    expression that is not a tuple (`ds[3]`, `ds[0:2]`) is a TypeError. *)
Theorem C44_unsupported m shape keys :
  on_axis (fun _ k => match k with
                      | PySlice _ _ (Some s) => s <> 1%Z
                      | PySlice _ _ None => False
                      | PyInt i => (i < IMIN \/ IMAX < i)%Z
                      | PyOther => True
                      end) shape keys ->
  py_plan m shape (PyTuple keys) = Panic.
Proof.
  intros (j & n & k & Hn & Hk & HB).
  destruct (py_plan m shape (PyTuple keys)) as [[idx cnt]| | | |] eqn:E; try (apply py_plan_fails in E; [congruence|discriminate]).
  exfalso. destruct (py_plan_nth m _ _ _ _ _ _ _ E Hn Hk) as (i & c & _ & _ & E2).
  destruct k as [a b [st|]|z|]; cbn [py_slice bind] in E2; try easy.
  - unfold py_axis in E2. destruct (Z.leb_spec (Z.of_N n) IMAX); cbn [assert_ bind] in E2; try discriminate.
    destruct (Z.eqb_spec (Z.max (- IMAX) (clamp st)) 0) as [|H0]; try discriminate. injection E2 as _ _ E2.
    unfold clamp, IMAX, IMIN in E2, H0.
    destruct (Z.ltb_spec 0 st).
    + rewrite as_u64_small in E2 by (unfold W64Z; lia). apply (f_equal Z.of_N) in E2. rewrite Z2N.id in E2 by lia. lia.
    + assert (st < 0)%Z by lia. rewrite as_u64_neg in E2 by (unfold W64Z; lia). apply (f_equal Z.of_N) in E2.
      rewrite Z2N.id in E2 by (unfold W64Z; lia). unfold W64Z in E2. lia.
  - assert (B : ((IMIN <=? z)%Z && (z <=? IMAX)%Z)%bool = false).
    { apply andb_false_iff. destruct HB; [left|right]; apply Z.leb_gt; auto. }
    rewrite B in E2. discriminate.
Qed.
Print Assumptions C44_unsupported.
Theorem C44_single_refuted m h inflate sort fuel ds file mem k x :
  py_get m h inflate sort fuel ds file mem (PySingle k) x -> x = Err EType.
Proof. intros HG. inversion HG as [y E1 E2|p y E1 E2 E3|idx cnt kd w y E1 E2 E3]; subst; try discriminate. reflexivity. Qed.
Print Assumptions C44_single_refuted.
Example C44_unsupported_case : on_axis (fun _ k => match k with
                      | PySlice _ _ (Some s) => s <> 1%Z
                      | PySlice _ _ None => False
                      | PyInt i => (i < IMIN \/ IMAX < i)%Z
                      | PyOther => True
                      end) [4; 6] [PyInt 1; PySlice None None (Some 2%Z)].
Proof. exists 1%nat, 6, (PySlice None None (Some 2%Z)). repeat split. discriminate. Qed.

(** ** C45 *)

(** The array of a plan without an empty axis has as many elements as are selected. *)
Theorem C45_size m shape arg idx cnt : py_plan m shape arg = Ok (idx, cnt) -> ~ In 0 cnt ->
  prodN (py_dims cnt) = lenN (slab idx cnt).
Proof.
  intros E H. destruct (py_plan_lengths _ _ _ _ _ E) as [L1 L2]. rewrite slab_length by congruence.
  apply prod_dims. apply Forall_forall. intros x Hx. destruct (N.eq_dec x 0) as [->|]; [contradiction|lia].
Qed.
Print Assumptions C45_size.

(** A plan for such keys selects elements of the dataset. *)
Lemma plan_sel_in m shape keys idx cnt :
  dims_fit shape -> (length keys <= length shape)%nat -> on_axes forward shape keys ->
  py_plan m shape (PyTuple keys) = Ok (idx, cnt) -> ~ In 0 cnt -> sel_in shape idx cnt.
Proof.
  intros HD HL HF HP HZ. destruct (py_plan_lengths _ _ _ _ _ HP) as [L1 L2].
  assert (HPos : Forall (fun x => 0 < x) cnt).
  { apply Forall_forall. intros x Hx. destruct (N.eq_dec x 0) as [->|]; [contradiction|lia]. }
  split; [auto|]. split; [auto|]. split; [auto|]. 
    assert (HP' := HP). rewrite py_plan_plain in HP'; auto.
    2:{ intros j n k0 Hn Hk. apply (forward_plain n k0); [|exact (HF j n k0 Hn Hk)].
        exact (proj1 (Forall_forall _ _) HD n (nth_error_In _ _ Hn)). }
    injection HP' as <- <-. pose proof (plan_inside _ _ HL HD HF) as PI.
    intros j i n s Hi Hn Hs.
    assert (Hc : nth_error (combine (plan_idx shape keys) (plan_cnt shape keys)) j = Some (i, n)).
    { clear -Hi Hn. revert j Hi Hn. generalize (plan_idx shape keys), (plan_cnt shape keys).
      induction l as [|a l IH]; intros [|b l0] [|j]; cbn; intros; try discriminate; [congruence|auto]. }
    clear -PI Hc Hs. revert PI Hc. generalize (combine (plan_idx shape keys) (plan_cnt shape keys)) as q.
    intros q PI Hc. revert j Hc Hs. induction PI as [|a b la lb Hab PI IH]; intros [|j]; cbn [nth_error]; intros Hc Hs; try discriminate.
    - assert (a = (i, n)) by congruence. assert (b = s) by congruence. subst a b. exact Hab.
    - exact (IH j Hc Hs).
Qed.

(** Forward keys with no empty axis, in the class of selections for which reading is right:
    whatever was in the newly allocated memory, every schedule returns the array of the
    selected values in the host's byte order, and some schedule does.  Missing: selections
    outside [sel_safe], keys outside [forward]. *)
Theorem C45_values_partial m h inflate sort fuel ds file value mem keys idx cnt k w :
  addr_sort sort -> full_dataset ds -> regular ds -> stores inflate file ds value ->
  dims_fit (d_shape ds) -> (length keys <= length (d_shape ds))%nat -> on_axes forward (d_shape ds) keys ->
  py_plan m (d_shape ds) (PyTuple keys) = Ok (idx, cnt) -> ~ In 0 cnt ->
  sel_safe (d_shape ds) (d_chunk_shape ds) idx cnt = true ->
  py_type (d_dtype ds) = Ok (k, w) -> (Z.of_N (prodN cnt * d_dsize ds) <= IMAX)%Z ->
  (forall n, lenN (mem n) = n) -> (N.to_nat (prodN cnt) < fuel)%nat ->
  (exists x, py_get m h inflate sort fuel ds (Some file) mem (PyTuple keys) x) /\
  forall x, py_get m h inflate sort fuel ds (Some file) mem (PyTuple keys) x ->
    x = Ok (py_dims cnt, to_native_slice h k w (d_order ds) (concat (map value (slab idx cnt)))).
Proof.
  intros HSort HFull HReg HS HD HL HF HP HZ HSafe HT HB HM HFuel.
  assert (HPos : Forall (fun x => 0 < x) cnt).
  { apply Forall_forall. intros x Hx. destruct (N.eq_dec x 0) as [->|]; [contradiction|lia]. }
  destruct (py_plan_lengths _ _ _ _ _ HP) as [L1 L2].
  assert (HW : d_dsize ds = N.of_nat w).
  { rewrite (wm_dsize _ (fd_made _ HFull)). exact (py_type_width _ _ _ HT). }
  assert (HPr : prodN (py_dims cnt) * N.of_nat w = prodN cnt * d_dsize ds) by (now rewrite prod_dims, HW).
  assert (HSel : sel_in (d_shape ds) idx cnt) by exact (plan_sel_in m _ keys _ _ HD HL HF HP HZ).
  destruct (extents_of_pairs_ok idx cnt (d_shape ds)) as (e & Ee & Eg); [congruence|auto|].
  assert (ED : exists r, direct_new m ds (Some file) = Ok r).
  { unfold direct_new. pose proof (chunk_bytes_ok m ds (wm_pos _ (fd_made _ HFull)) (rg_sizes _ HReg)) as E. rewrite E. cbn [bind]. eauto. }
  destruct ED as [rd ED].
  assert (EC : exists rc, cache_new m ds file = Ok rc).
  { unfold cache_new. rewrite (chunk_bytes_ok m ds (wm_pos _ (fd_made _ HFull)) (rg_sizes _ HReg)). cbn [bind].
    unfold cache_cap, div64. assert (HC : 0 < csize ds).
    { unfold csize. pose proof (prodN_pos _ (wm_pos _ (fd_made _ HFull))). pose proof (ss_pos _ (rg_sizes _ HReg)). nia. }
    unfold csize in HC. rewrite (proj2 (N.eqb_neq (prodN (d_chunk_shape ds) * d_dsize ds) 0)) by lia. cbn [bind]. eauto. }
  destruct EC as [rc EC]. assert (RC : reachable m inflate ds file rc) by (now constructor).
  set (n := prodN (py_dims cnt) * N.of_nat w) in *.
  assert (SR : safe_read ds e idx cnt (mem n) fuel).
  { constructor; auto; rewrite HM; [lia|]. unfold IMAX, W64 in *. lia. }
  destruct (C21_cached_partial m inflate file ds value e idx cnt (mem n) fuel rc HS SR RC) as [CR CL].
  assert (HA : same_addr ds) by apply HReg.
  assert (Hd : 0 < d_dsize ds) by apply HReg.
  assert (HLen : lenN (mem n) < W64) by apply SR.
  pose proof CR as DR. apply (C24_agree m inflate sort fuel ds file rc rd e (mem n)) in DR; auto.
  destruct (C25_schedules m inflate sort fuel ds file rd e (mem n) HSort HA Hd HLen ED) as ((x0 & d0 & P0) & _ & _ & S).
  specialize (S _ _ DR).
  assert (ET : skipn (N.to_nat (prodN cnt * d_dsize ds)) (mem n) = []).
  { apply skipn_all2. specialize (HM n). unfold lenN in HM. lia. }
  rewrite ET, app_nil_r in S. split.
  - exists (let* _ := x0 in Ok (py_dims cnt, to_native_slice h k w (d_order ds) d0)).
    eapply pg_read; eauto. eapply py_run; eauto. fold n. rewrite HPr. exact HB.
  - intros x HG. inversion HG as [y E1 E2|p y E1 E2 E3|idx' cnt' kd' w' y E1 E2 E3]; subst.
    + exfalso. rewrite HP in E2. now apply (E2 (idx, cnt)).
    + exfalso. rewrite HT in E3. now apply (E3 (k, w)).
    + rewrite HP in E1. injection E1 as <- <-. rewrite HT in E2. injection E2 as <- <-.
      inversion E3 as [HBig|y HB' E4 E5|r y HB' E4 E5 E6|r e' y d HB' E4 E5 E6]; subst.
      * fold n in HBig. rewrite HPr in HBig. lia.
      * exfalso. rewrite ED in E5. now apply (E5 rd).
      * exfalso. rewrite Ee in E6. now apply (E6 e).
      * rewrite ED in E4. injection E4 as <-. rewrite Ee in E5. injection E5 as <-. fold n in E6.
        destruct (S _ _ E6) as [-> ->]. reflexivity.
Qed.
Print Assumptions C45_values_partial.
Example C45_case m : py_plan m (d_shape st_ds) (PyTuple py_keys) = Ok ([1; 2], [3; 4]) /\ ~ In 0 [3; 4] /\
  sel_safe (d_shape st_ds) (d_chunk_shape st_ds) [1; 2] [3; 4] = true /\ py_type (d_dtype st_ds) = Ok (KInt, 2%nat) /\
  stores toy_inflate st_file st_ds st_value /\ regular st_ds /\ full_dataset st_ds.
Proof.
  split; [destruct m; vm_compute; reflexivity|]. split; [intros [H|[H|[]]]; discriminate|].
  split; [reflexivity|]. split; [reflexivity|]. split; [exact st_stores|]. split; [exact st_regular|exact st_full].
Qed.

(** False of the code: when some axis is empty, every schedule returns an array of at least
    one element, which nothing was written to: what it holds is what the newly allocated
    memory held (in the dataset's byte order).  Any dataset, selection and build. *)
Theorem C45_empty_refuted m h inflate sort fuel ds file mem arg idx cnt k w rd x :
  addr_sort sort -> py_plan m (d_shape ds) arg = Ok (idx, cnt) -> In 0 cnt ->
  py_type (d_dtype ds) = Ok (k, w) -> (Z.of_N (prodN (py_dims cnt) * N.of_nat w) <= IMAX)%Z ->
  direct_new m ds (Some file) = Ok rd -> (0 < fuel)%nat ->
  py_get m h inflate sort fuel ds (Some file) mem arg x ->
  x = Ok (py_dims cnt, to_native_slice h k w (d_order ds) (mem (prodN (py_dims cnt) * N.of_nat w))) /\
  0 < prodN (py_dims cnt) /\ forall c, ~ In c (slab idx cnt).
Proof.
  intros HSort HP HZ HT HB ED HF HG. destruct (py_plan_lengths _ _ _ _ _ HP) as [L1 L2].
  assert (HPos : 0 < prodN (py_dims cnt)) by (apply prodN_pos, dims_pos).
  assert (P0 : prodN cnt = 0).
  { clear -HZ. induction cnt as [|c cnt IH]; [easy|]. cbn [prodN]. destruct HZ as [->|H]; [lia|]. rewrite IH by auto. lia. }
  assert (HEmpty : forall c, ~ In c (slab idx cnt)).
  { assert (HLn : lenN (slab idx cnt) = 0) by (rewrite slab_length by congruence; auto).
    intros c Hc. destruct (slab idx cnt); [easy|]. unfold lenN in HLn. cbn [length] in HLn. lia. }
  split; [|auto].
  destruct (extents_of_pairs_ok idx cnt (d_shape ds)) as (e & Ee & Eg); [congruence|auto|].
  assert (Hw : (0 < w)%nat) by exact (py_type_pos _ _ _ HT).
  assert (HCnt : Forall (fun c => c <= prodN (py_dims cnt)) cnt).
  { apply Forall_forall. intros c Hc. destruct (N.lt_ge_cases 1 c); [now apply dims_big|lia]. }
  assert (HW : Forall2 (fun i n => i + n < W64) idx cnt).
  { pose proof (plan_idx_small m _ _ _ _ HP) as HI. clear -HI HCnt HB L1 L2 Hw.
    assert (HL : length idx = length cnt) by congruence. clear L1 L2. revert HCnt. generalize (prodN (py_dims cnt)) as M, HB. clear HB.
    intros M HB. revert cnt HL. induction HI as [|i idx Hi HI IH]; intros [|c cnt] HL HC; cbn [length] in HL; try lia; constructor.
    - inversion HC; subst. unfold IMAX, W64 in *. nia.
    - inversion HC; subst. apply IH; auto. }
  assert (DR : dr_ds rd = ds /\ dr_file rd = Some file).
  { unfold direct_new in ED. apply bind_ok in ED as (csz & _ & ED). injection ED as <-. auto. }
  destruct DR as [DR1 DR2].
  assert (HFits : fits64_lead cnt /\ prodN cnt * d_dsize ds <= lenN (mem (prodN (py_dims cnt) * N.of_nat w)) /\ prodN cnt * d_dsize ds < W64).
  { rewrite P0. split; [|split; [lia|reflexivity]]. intros j. pose proof (lead_le_dims cnt j). unfold IMAX, W64 in *. nia. }
  inversion HG as [y E1 E2|p y E1 E2 E3|idx' cnt' kd' w' y E1 E2 E3]; subst.
  - exfalso. rewrite HP in E2. now apply (E2 (idx, cnt)).
  - exfalso. rewrite HT in E3. now apply (E3 (k, w)).
  - rewrite HP in E1. injection E1 as <- <-. rewrite HT in E2. injection E2 as <- <-.
    inversion E3 as [HBig|y HB' E4 E5|r y HB' E4 E5 E6|r e' y d HB' E4 E5 E6]; subst.
    * lia.
    * exfalso. rewrite ED in E5. now apply (E5 rd).
    * exfalso. rewrite Ee in E6. now apply (E6 e).
    * rewrite ED in E4. injection E4 as <-. rewrite Ee in E5. injection E5 as <-.
      destruct (C13_readers m inflate sort (dr_ds rd) e idx cnt fuel (mem (prodN (py_dims cnt) * N.of_nat w)) HSort Eg HW (or_introl HZ) HF)
        as [_ HDir]. destruct (HDir rd file eq_refl DR2) as [_ HPar].
      destruct (HPar _ _ E6) as [-> HX]. rewrite (HX HFits). reflexivity.
Qed.
Print Assumptions C45_empty_refuted.
(** `ds[0:0]` of the 4 x 6 dataset: NumPy gives an array of shape (0, 6). *)
Example C45_empty_case m : py_plan m (d_shape st_ds) (PyTuple [PySlice (Some 0%Z) (Some 0%Z) None]) = Ok ([0; 0], [0; 6]) /\
  py_dims [0; 6] = [6] /\ py_type (d_dtype st_ds) = Ok (KInt, 2%nat) /\ direct_new m st_ds (Some st_file) = Ok (mkDirect st_ds (Some st_file) 12).
Proof. split; [destruct m; vm_compute; reflexivity|]. split; [reflexivity|]. split; [reflexivity|destruct m; vm_compute; reflexivity]. Qed.

(** ** C49 *)

(** Every element equal to the condition is replaced, no other, whatever the order in which
    the elements are visited. *)
Theorem C49_fill {V} (eqb : V -> V -> bool) c f (l out : list V) :
  apply_fill eqb (Some c) (Some f) (Some l) = Ok out ->
  length out = length l /\
  (forall i v, nth_error l i = Some v -> nth_error out i = Some (if eqb v c then f else v)) /\
  forall sched, Permutation sched (seq 0 (length l)) -> fill_in_order eqb c f sched l = out.
Proof.
  cbn [apply_fill]. intros E. injection E as <-. split; [apply map_length|]. split.
  { intros i v H. now rewrite nth_error_map, H. }
  set (g := fun v => if eqb v c then f else v).
  set (upd := fun (i : nat) (l : list V) => match nth_error l i with Some v => firstn i l ++ g v :: skipn (S i) l | None => l end).
  assert (U : forall i l j, nth_error (upd i l) j = if (i =? j)%nat then option_map g (nth_error l j) else nth_error l j).
  { unfold upd. induction i as [|i IH]; intros l0 j.
    - destruct l0 as [|a l0], j as [|j]; reflexivity.
    - destruct l0 as [|a l0].
      + destruct j as [|j]; cbn [nth_error Nat.eqb]; [reflexivity|]. destruct (i =? j)%nat; reflexivity.
      + cbn [nth_error]. destruct j as [|j]; cbn [Nat.eqb].
        * destruct (nth_error l0 i); reflexivity.
        * etransitivity; [|exact (IH l0 j)]. destruct (nth_error l0 i); reflexivity. }
  assert (ext : forall a b : list V, (forall j, nth_error a j = nth_error b j) -> a = b).
  { induction a as [|x a IH]; intros [|y b] H; auto; try (specialize (H 0%nat); discriminate).
    f_equal; [specialize (H 0%nat); now injection H|]. apply IH. intros j. exact (H (S j)). }
  assert (F : forall sched l0, NoDup sched -> forall j, nth_error (fill_in_order eqb c f sched l0) j =
            if in_dec Nat.eq_dec j sched then option_map g (nth_error l0 j) else nth_error l0 j).
  { induction sched as [|i sched IH]; intros l0 HN j; [reflexivity|]. inversion HN as [|? ? Hi HN']; subst.
    etransitivity; [exact (IH (upd i l0) HN' j)|]. rewrite U.
    destruct (Nat.eqb_spec i j) as [<-|Hij].
    - destruct (in_dec Nat.eq_dec i sched); [contradiction|]. destruct (in_dec Nat.eq_dec i (i :: sched)) as [|H]; auto. exfalso. apply H. now left.
    - destruct (in_dec Nat.eq_dec j sched) as [H|H]; destruct (in_dec Nat.eq_dec j (i :: sched)) as [H'|H']; auto.
      + exfalso. apply H'. now right.
      + destruct H'; [contradiction|contradiction]. }
  intros sched HP. apply ext. intros j.
  rewrite F by (apply Permutation_sym in HP; exact (Permutation_NoDup HP (seq_NoDup _ _))). rewrite nth_error_map. fold g.
  destruct (in_dec Nat.eq_dec j sched) as [H|H]; auto.
  assert (HJ : ~ (j < length l)%nat). { intros HJ. apply H. apply (Permutation_in j (Permutation_sym HP)). apply in_seq. lia. }
  rewrite (proj2 (nth_error_None l j)) by lia. reflexivity.
Qed.
Print Assumptions C49_fill.
(** A condition that equals nothing (NaN) changes nothing. *)
Theorem C49_nan {V} (eqb : V -> V -> bool) c f (l : list V) : (forall v, eqb v c = false) ->
  apply_fill eqb (Some c) (Some f) (Some l) = Ok l.
Proof.
  intros H. cbn [apply_fill]. f_equal. rewrite <- (map_id l) at 2. apply map_ext. intros v. now rewrite H.
Qed.
Print Assumptions C49_nan.
(** A fill value or condition that is not of the element type (as NaN for integers, which is
    what the xarray backend passes), or an array of another type: a panic. *)
Theorem C49_type_refuted {V} (eqb : V -> V -> bool) c f l :
  (c = None \/ f = None \/ l = None) -> apply_fill eqb c f l = Panic.
Proof. intros [->|[->| ->]]; [reflexivity|destruct c; reflexivity|destruct c, f; reflexivity]. Qed.
Print Assumptions C49_type_refuted.
Example C49_case : apply_fill N.eqb (Some 7) (Some 0) (Some [7; 1; 7; 2]) = Ok [0; 1; 0; 2] /\
  Permutation [2; 0; 3; 1]%nat (seq 0 (length [7; 1; 7; 2])) /\ fill_in_order N.eqb 7 0 [2; 0; 3; 1]%nat [7; 1; 7; 2] = [0; 1; 0; 2].
Proof.
  split; [reflexivity|]. split; [|reflexivity]. cbn [length seq].
  apply Permutation_sym. apply (Permutation_cons_app [2]%nat [3; 1]%nat). cbn [app].
  apply (Permutation_cons_app [2; 3]%nat []). cbn [app]. apply Permutation_refl.
Qed.

(** ** C51 *)

(** A handle is given out exactly for datasets that exist, and using it never fails: it
    gives that dataset. *)
Theorem C51_handles i s group p : py_dataset i s group = Some p ->
  exists d, py_handle p = Ok d /\
    match group with
    | Some g => exists g', gi_group (i_root i) g = Some g' /\ gi_dataset g' s = Some d
    | None => gi_dataset (i_root i) s = Some d
    end.
Proof.
  unfold py_dataset, py_lookup. intros E. destruct group as [g|].
  - destruct (gi_group (i_root i) g) as [g'|] eqn:Eg; [|discriminate]. destruct (gi_dataset g' s) as [d|] eqn:Ed; [|discriminate].
    injection E as <-. exists d. split; [|eauto]. unfold py_handle. cbn [ph_group ph_idx ph_ds]. now rewrite Eg, Ed.
  - destruct (gi_dataset (i_root i) s) as [d|] eqn:Ed; [|discriminate]. injection E as <-. exists d. split; auto.
    unfold py_handle. cbn [ph_group ph_idx ph_ds]. now rewrite Ed.
Qed.
Print Assumptions C51_handles.

Lemma in_group_keyed g gs g' : keyed g -> in_group g gs g' -> keyed g'.
Proof.
  intros K HG. induction HG as [|g c g1 cs g' Hin HG IH]; auto. apply IH.
  destruct (keyed_inv g K) as (_ & _ & HF). exact (HF c g1 Hin).
Qed.
Lemma h5_group_named g gs g' : named g -> h5_group g gs g' -> named g'.
Proof.
  intros K HG. induction HG as [|g c g1 cs g' Hin HG IH]; auto. apply IH. inversion K as [b l _ _ H]; subst.
  exact (H c g1 Hin).
Qed.

(** For the index of a file: [datasets(group)] lists exactly the names of the datasets with
    storage directly in that group of the file, and every listed name can be opened with
    [dataset(name, group)], giving that dataset.  [gs = []]: no group argument. *)
Theorem C51_listing m path root i k j gs : named root -> index_file m path root = Ok i ->
  Forall slash_free gs -> Forall (fun c => c <> []) gs ->
  let group := match gs with [] => None | _ => Some (slashes k ++ joined gs ++ slashes j) end in
  (forall x, In x (py_datasets i group) <-> exists d, h5_dataset root gs x d /\ has_storage d) /\
  (forall x, In x (py_datasets i group) -> exists p d h, py_dataset i x group = Some p /\ py_handle p = Ok d /\
     h5_dataset root gs x h /\ has_storage h /\ datasetd_index m h = Ok d).
Proof.
  intros HN E HF HE group.
  destruct (C43_exact m path root i HN E) as (_ & K & _ & _).
  pose proof E as E0. unfold index_file in E0. apply bind_ok in E0 as (r & Er & E0). apply ok_inj in E0. subst i. cbn [i_root] in *.
  pose proof (datasets_match m path root [] r HN Er gs) as DM.
  destruct (index_all_ok m path root [] r HN Er) as (_ & HAll & _).
  (* the group *)
  assert (HG : forall g, in_group r gs g <-> match group with Some s => gi_group r s = Some g | None => g = r end).
  { intros g. unfold group. destruct gs as [|c gs].
    - split; [now inversion 1|intros ->; constructor].
    - symmetry. apply group_spec; auto; [discriminate|]. right. split; [exact (Forall_inv HE)|].
      assert (HL : In (last (c :: gs) []) (c :: gs)).
      { destruct (@exists_last _ (c :: gs)) as (l' & a & ->); [discriminate|]. rewrite last_last. apply in_app_iff. right. now left. }
      exact (proj1 (Forall_forall _ _) HE _ HL). }
  assert (HListed : forall x, In x (py_datasets (mkIndex path r) group) <-> exists g ds, in_group r gs g /\ In (x, ds) (gi_datasets g)).
  { intros x. assert (HM : forall (g : gindex), In x (map fst (gi_datasets g)) <-> exists ds, In (x, ds) (gi_datasets g)).
    { intros g. rewrite in_map_iff. split; [intros ([y d] & <- & H); eauto|intros (d & H); exists (x, d); auto]. }
    unfold py_datasets. cbn [i_root]. destruct group as [s|].
    - destruct (gi_group r s) as [g'|] eqn:Eg.
      + rewrite HM. split; [intros (d & H); exists g', d; split; auto; now apply HG|].
        intros (g & d & H1 & H2). apply HG in H1. injection H1 as ->. eauto.
      + split; [easy|]. intros (g & d & H1 & _). apply HG in H1. discriminate.
    - rewrite HM. split; [intros (d & H); exists r, d; split; auto; now apply HG|].
      intros (g & d & H1 & H2). apply HG in H1. subst g. eauto. }
  split.
  - intros x. rewrite HListed. split.
    + intros (g & ds & H1 & H2). destruct (proj1 (DM x ds)) as (d & A & B & _); eauto.
    + intros (d & A & B). destruct (HAll gs x d A B) as (ds & C). destruct (proj2 (DM x ds)) as (g & H1 & H2); eauto.
  - intros x Hx. apply HListed in Hx as (g & ds & H1 & H2).
    destruct (proj1 (DM x ds)) as (d & A & B & C); [eauto|].
    assert (HX : slash_free x).
    { destruct A as (hg & HA & HB). pose proof (h5_group_named _ _ _ HN HA) as HNG. inversion HNG as [b l _ HFn _]; subst.
      cbn [h_members] in HB. exact (proj2 (proj1 (Forall_forall _ _) HFn (x, HData d) HB)). }
    assert (HD : gi_dataset g x = Some ds).
    { apply (dataset_spec g 0 [] x ds); [exact (in_group_keyed _ _ _ K H1)|now repeat constructor|now left|].
      exists g. split; [constructor|auto]. }
    assert (HL : py_lookup (mkIndex path r) group x = Some ds).
    { unfold py_lookup. cbn [i_root]. apply HG in H1. destruct group as [s|]; [now rewrite H1|now subst g]. }
    exists (mkHandle (mkIndex path r) group x), ds, d. split; [unfold py_dataset; now rewrite HL|].
    split; [|auto]. unfold py_handle. cbn [ph_group ph_idx ph_ds]. unfold py_lookup in HL.
    destruct group as [s|]; [destruct (gi_group _ s); [|discriminate]|]; now rewrite HL.
Qed.
Print Assumptions C51_listing.
Example C51_case : named ex_tree /\ index_file Debug tree_path ex_tree = Ok ex_index /\
  py_datasets ex_index (Some [47; 103]) = [[120]] /\ exists p, py_dataset ex_index [120] (Some [47; 103]) = Some p /\ py_handle p = Ok ex_ds.
Proof.
  split; [exact ex_tree_named|]. split; [exact (ex_tree_indexed Debug)|]. split; [reflexivity|]. eexists. split; reflexivity.
Qed.
