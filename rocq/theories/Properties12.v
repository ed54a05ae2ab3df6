(** * Property theorems C52: the xarray backend.

    Each theorem is followed by a concrete case meeting its hypotheses. *)
From Verif Require Import Base Spec Safe Chunk Extent Dataset Slicer SpecApi ApiLemmas Filters SpecFilter FilterProofs FilterProps Reader SpecReader
  ParProofs ReaderProps ReadProofs StreamProofs ExamplesReader Examples IndexTree Serde SpecTree SpecSerde TreeProofs
  Python SpecPython PythonProofs Properties4 Properties5 Properties7 Properties8 Xarray.

(** ** The shape of the result *)

(** The shape NumPy (and xarray) gives an indexed array: an int drops its axis, a slice keeps
    it, and so does an axis with no key. *)
Fixpoint np_dims (shape : list N) (keys : list pykey) : list N :=
  match shape, keys with
  | n :: shape', PySlice a b _ :: keys' => Z.to_N (np_hi (Z.of_N n) b - np_lo (Z.of_N n) a) :: np_dims shape' keys'
  | _ :: shape', _ :: keys' => np_dims shape' keys'
  | _, _ => shape
  end.

Lemma filter_dims shape : forall keys, (length keys <= length shape)%nat -> dims_fit shape -> on_axes forward shape keys ->
  ~ In 0 (plan_cnt shape keys) ->
  filter (fun d => 1 <? d) (plan_cnt shape keys) = filter (fun d => 1 <? d) (np_dims shape keys) /\ ~ In 0 (np_dims shape keys).
Proof.
  induction shape as [|n shape IH]; intros [|k keys] HL HD HF H0; cbn [length] in HL; try lia; auto.
  destruct (plan_cons n shape k keys) as [_ EC]. rewrite EC in *. inversion HD as [|? ? Hn HD']; subst.
    apply on_axes_cons in HF as [Hk HF]. destruct (forward_plain n k Hn Hk) as [Hp HO].
    destruct (IH keys ltac:(lia) HD' HF) as [I1 I2]; [intros H; apply H0; now right|].
    rewrite key_count in * by auto. destruct k as [a b st|i|]; cbn [forward] in Hk; [| |easy].
    + cbn [np_dims filter]. rewrite I1. change (key_hi n (PySlice a b st)) with (np_hi (Z.of_N n) b) in *.
      change (key_lo n (PySlice a b st)) with (np_lo (Z.of_N n) a) in *. split; auto.
      intros [E|E]; auto. apply H0. left. exact E.
    + cbn [np_dims filter]. destruct (int_bounds n i (proj1 Hk) (proj2 Hk)) as [_ ->].
      replace (key_lo n (PyInt i) + 1 - key_lo n (PyInt i))%Z with 1%Z by lia. cbn. auto.
Qed.

(** For keys NumPy accepts (other than -1) that select something on every axis: the array has
    NumPy's shape exactly if that is one element on a single axis, or has some axis and no
    axis of length one.  Missing for the full property: all other shapes, which are wrong. *)
Theorem C52_shape_partial m shape keys idx cnt :
  dims_fit shape -> (length keys <= length shape)%nat -> on_axes forward shape keys ->
  py_plan m shape (PyTuple keys) = Ok (idx, cnt) -> ~ In 0 cnt ->
  (py_dims cnt = np_dims shape keys <->
   np_dims shape keys = [1] \/ (np_dims shape keys <> [] /\ Forall (fun n => 1 < n) (np_dims shape keys))).
Proof.
  intros HD HL HF HP H0.
  rewrite py_plan_plain in HP; auto.
  2:{ intros j n k0 Hn Hk. apply (forward_plain n k0); [|exact (HF j n k0 Hn Hk)].
      exact (proj1 (Forall_forall _ _) HD n (nth_error_In _ _ Hn)). }
  injection HP as <- <-. destruct (filter_dims shape keys HL HD HF H0) as [E Z]. unfold py_dims. rewrite E. clear E H0.
  set (l := np_dims shape keys) in *.
  assert (FL : forall l, ~ In 0 l -> filter (fun d => 1 <? d) l = l <-> Forall (fun n => 1 < n) l).
  { clear. intros l _. induction l as [|x l IH]; [split; auto|]. cbn [filter]. destruct (N.ltb_spec 1 x).
    - split; [intros [= E]; constructor; auto; now apply IH|]. inversion 1; subst. f_equal. now apply IH.
    - split; [|inversion 1; subst; lia]. intros E. exfalso.
      assert (HL0 : (length (filter (fun d => (1 <? d)%N) l) <= length l)%nat).
      { clear. revert l. intros l. induction l as [|y l IH]; cbn [filter length]; [lia|]. destruct (1 <? y); cbn [length]; lia. }
      rewrite E in HL0. cbn [length] in HL0. lia. }
  specialize (FL l Z). destruct (filter (fun d => 1 <? d) l) as [|y q] eqn:EF.
  - split; [intros <-; now left|]. intros [->|[Hne HA]]; auto. apply FL in HA. now rewrite <- HA in Hne.
  - split.
    + intros E. right. rewrite E in FL. split; [rewrite <- E; discriminate|now apply FL].
    + intros [E|[_ HA]]; [|now apply FL]. rewrite E in EF. discriminate.
Qed.
Print Assumptions C52_shape_partial.
(** Right for [1:3, 0] of 4 x 6, wrong for [1:2, :] and [1, 2]. *)
Example C52_shape_case m :
  on_axes forward [4; 6] [PySlice (Some 1%Z) (Some 3%Z) None; PyInt 0] /\
  np_dims [4; 6] [PySlice (Some 1%Z) (Some 3%Z) None; PyInt 0] = [2] /\
  py_plan m [4; 6] (PyTuple [PySlice (Some 1%Z) (Some 3%Z) None; PyInt 0]) = Ok ([1; 0], [2; 1]) /\ py_dims [2; 1] = [2] /\
  np_dims [4; 6] [PySlice (Some 1%Z) (Some 2%Z) None] = [1; 6] /\
  py_plan m [4; 6] (PyTuple [PySlice (Some 1%Z) (Some 2%Z) None]) = Ok ([1; 0], [1; 6]) /\ py_dims [1; 6] = [6] /\
  np_dims [4; 6] [PyInt 1; PyInt 2] = [] /\
  py_plan m [4; 6] (PyTuple [PyInt 1; PyInt 2]) = Ok ([1; 2], [1; 1]) /\ py_dims [1; 1] = [1].
Proof.
  split.
  - intros [|[|[|j]]] n k; cbn [nth_error]; intros; try discriminate;
      repeat match goal with H : Some _ = Some _ |- _ => injection H as <- end; cbn.
    + split; [now left|]. lia.
    + unfold in_range. lia.
  - destruct m; repeat split; reflexivity.
Qed.

(** ** The fill value *)

(** The fill value is the one attribute that is given, or the common value of both; two that
    differ, for Python's `==`, are an AssertionError. *)
Theorem C52_fill_value {O} (py_eq : O -> O -> bool) f mv :
  (forall x, xr_fill py_eq f mv = Ok x -> match f, mv with Some a, Some b => x = Some a /\ py_eq b a = true | Some a, None => x = Some a | None, b => x = b end) /\
  ((exists x, xr_fill py_eq f mv = Ok x) <-> (forall a b, f = Some a -> mv = Some b -> py_eq b a = true)).
Proof.
  unfold xr_fill. destruct f as [a|], mv as [b|]; cbn; repeat split; try (intros; congruence); try (eauto; fail).
  - destruct (py_eq b a) eqn:E; congruence.
  - destruct (py_eq b a) eqn:E; congruence.
  - intros [x H] a' b' [= <-] [= <-]. destruct (py_eq b a); congruence.
  - intros H. rewrite (H a b eq_refl eq_refl). eauto.
Qed.
Print Assumptions C52_fill_value.

(** A float variable whose `_FillValue` and `missing_value` are both NaN, which is not equal to
    itself, cannot be opened. *)
Theorem C52_nan_refuted {O} (py_eq : O -> O -> bool) nan : py_eq nan nan = false ->
  xr_fill py_eq (Some nan) (Some nan) = Panic.
Proof. intros H. unfold xr_fill. now rewrite H. Qed.
Print Assumptions C52_nan_refuted.
Example C52_fill_case : xr_fill N.eqb (Some 7) (Some 7) = Ok (Some 7) /\ xr_fill N.eqb None (Some 7) = Ok (Some 7) /\
  xr_fill N.eqb (Some 7) (Some 8) = Panic /\ (fun a b => negb (a =? 9) && (a =? b)) 9 9 = false.
Proof. repeat split. Qed.

(** ** The values *)

Lemma word_concat w (l : list bytes) : Forall (fun b => length b = w) l ->
  map (fun j => word w j (concat l)) (seq 0 (length l)) = l.
Proof.
  induction 1 as [|b l Hb HF IH]; [reflexivity|]. cbn [length seq map concat]. f_equal.
  - unfold word. cbn [Nat.mul skipn]. rewrite <- Hb. rewrite firstn_app, Nat.sub_diag, firstn_all. cbn [firstn]. apply app_nil_r.
  - rewrite <- IH at 2. rewrite <- seq_shift, map_map. apply map_ext. intros j. unfold word.
    replace (S j * w)%nat with (length b + j * w)%nat by lia.
    now rewrite skipn_app, skipn_all2, Nat.add_comm, Nat.add_sub by lia.
Qed.
Lemma py_lookup_get i name group p ds : py_dataset i name group = Some p -> py_handle p = Ok ds -> py_lookup i group name = Some ds.
Proof.
  unfold py_dataset. destruct (py_lookup i group name) as [d|] eqn:E; [|discriminate]. intros [= <-]. unfold py_handle. cbn.
  unfold py_lookup in E. destruct group as [g|].
  - destruct (gi_group (i_root i) g); [|discriminate]. rewrite E. congruence.
  - rewrite E. congruence.
Qed.

Lemma value_length inflate file ds value idx cnt c : full_dataset ds -> stores inflate file ds value ->
  sel_in (d_shape ds) idx cnt -> In c (slab idx cnt) -> length (value c) = N.to_nat (d_dsize ds).
Proof.
  intros HD HS HSel Hc. assert (HI := slab_in_shape _ _ _ _ HSel Hc).
  assert (HFit : fits64 (d_shape ds)) by (apply (sel_in_fits _ idx cnt); auto; apply HD).
  destruct (lookup_ok Debug ds c HD HFit HI) as (ch & _ & HIn & HB & _).
  destruct (st_chunk _ _ _ _ HS ch HIn) as (_ & raw & _ & HL & HV).
  rewrite <- (HV c (row_major (d_chunk_shape ds) (map2 N.sub c (c_offset ch))) HI (conj HIn (conj HB eq_refl))).
  apply word_length with (n := N.to_nat (prodN (d_chunk_shape ds))).
  - unfold lenN in HL. nia.
  - pose proof (row_major_box _ _ _ HB). lia.
Qed.

(** What an element is with a fill value: NaN if it equals the fill value. *)
Definition masked {V} (el_eq : V -> V -> bool) (fill : option (V * V)) (v : V) : V :=
  match fill with Some (f, nan) => if el_eq v f then nan else v | None => v end.

(** Every schedule of reading a variable gives the values of the selected elements, in row-major
    order, decoded in the host's order from the dataset's, with those equal to the fill value
    replaced by NaN.  Missing for the full property: selections outside the class [sel_safe],
    fill values that cannot be converted (below), and the shape of the result (above). *)
Theorem C52_values_partial {O V} (py_nan : O) conv (dec : datatype -> bytes -> V) el_eq
    m h inflate sort fuel i name group fill f' file value mem p ds keys idx cnt k w :
  addr_sort sort -> py_dataset i name group = Some p -> py_handle p = Ok ds ->
  full_dataset ds -> regular ds -> stores inflate file ds value ->
  dims_fit (d_shape ds) -> (length keys <= length (d_shape ds))%nat -> on_axes forward (d_shape ds) keys ->
  py_plan m (d_shape ds) (PyTuple keys) = Ok (idx, cnt) -> ~ In 0 cnt ->
  sel_safe (d_shape ds) (d_chunk_shape ds) idx cnt = true ->
  py_type (d_dtype ds) = Ok (k, w) -> (Z.of_N (prodN cnt * d_dsize ds) <= IMAX)%Z ->
  (forall n, lenN (mem n) = n) -> (N.to_nat (prodN cnt) < fuel)%nat ->
  match fill with
  | None => f' = None
  | Some f => exists a b, conv (d_dtype ds) f = Some a /\ conv (d_dtype ds) py_nan = Some b /\ f' = Some (a, b)
  end ->
  (exists x, xr_get py_nan conv dec el_eq m h inflate sort fuel i name group fill (Some file) mem keys x) /\
  forall x, xr_get py_nan conv dec el_eq m h inflate sort fuel i name group fill (Some file) mem keys x ->
    x = Ok (py_dims cnt, map (fun c => masked el_eq f' (dec (d_dtype ds) (to_native_slice h k w (d_order ds) (value c)))) (slab idx cnt)).
Proof.
  intros HSort HP1 HP2 HFull HReg HS HD HL HF HP HZ HSafe HT HB HM HFuel HC.
  destruct (C45_values_partial m h inflate sort fuel ds file value mem keys idx cnt k w HSort HFull HReg HS HD HL HF HP HZ HSafe HT HB HM HFuel)
    as [(x0 & G0) GA].
  assert (HW : d_dsize ds = N.of_nat w).
  { rewrite (wm_dsize _ (fd_made _ HFull)). exact (py_type_width _ _ _ HT). }
  assert (Hw : (0 < w)%nat) by exact (py_type_pos _ _ _ HT).
  destruct (py_plan_lengths _ _ _ _ _ HP) as [L1 L2].
  assert (HSel := plan_sel_in m _ keys _ _ HD HL HF HP HZ).
  assert (HPos : Forall (fun x => 0 < x) cnt).
  { apply Forall_forall. intros x Hx. destruct (N.eq_dec x 0) as [->|]; [contradiction|lia]. }
  assert (HVL : forall c, In c (slab idx cnt) -> length (value c) = w).
  { intros c Hc. rewrite <- (Nat2N.id w), <- HW. exact (value_length inflate file ds value idx cnt c HFull HS HSel Hc). }
  assert (HNL : forall c, In c (slab idx cnt) -> length (to_native_slice h k w (d_order ds) (value c)) = w).
  { intros c Hc. rewrite (to_native_length h k w (d_order ds) (value c) 1); auto; rewrite HVL; auto; lia. }
  assert (HEl : elements dec (d_dtype ds) w (N.to_nat (prodN (py_dims cnt))) (to_native_slice h k w (d_order ds) (concat (map value (slab idx cnt)))) =
                map (fun c => dec (d_dtype ds) (to_native_slice h k w (d_order ds) (value c))) (slab idx cnt)).
  { rewrite to_native_concat; auto.
    2:{ apply Forall_forall. intros b Hb. apply in_map_iff in Hb as (c & <- & Hc). rewrite HVL by auto. now apply Nat.mod_same; lia. }
    rewrite map_map. unfold elements.
    rewrite <- (map_map (fun j => word w j (concat (map (fun c => to_native_slice h k w (d_order ds) (value c)) (slab idx cnt)))) (dec (d_dtype ds))).
    assert (EN : N.to_nat (prodN (py_dims cnt)) = length (map (fun c => to_native_slice h k w (d_order ds) (value c)) (slab idx cnt))).
    { rewrite map_length, prod_dims by exact HPos. assert (HLn : lenN (slab idx cnt) = prodN cnt) by (apply slab_length; congruence).
      unfold lenN in HLn. lia. }
    rewrite EN, word_concat; [now rewrite map_map|]. apply Forall_forall. intros b Hb. apply in_map_iff in Hb as (c & <- & Hc). auto. }
  assert (HR : forall dims b, py_get m h inflate sort fuel ds (Some file) mem (PyTuple keys) (Ok (dims, b)) ->
    (let els := elements dec (d_dtype ds) w (N.to_nat (prodN dims)) b in
     match fill with
     | None => Ok (dims, els)
     | Some f => let* out := apply_fill el_eq (conv (d_dtype ds) f) (conv (d_dtype ds) py_nan) (Some els) in Ok (dims, out)
     end) = Ok (py_dims cnt, map (fun c => masked el_eq f' (dec (d_dtype ds) (to_native_slice h k w (d_order ds) (value c)))) (slab idx cnt))).
  { intros dims b G. specialize (GA _ G). injection GA as -> ->. cbn zeta. rewrite HEl. destruct fill as [f|].
    - destruct HC as (a & b & -> & -> & ->). cbn [apply_fill bind masked]. now rewrite map_map.
    - subst f'. reflexivity. }
  split.
  - pose proof G0 as G1. specialize (GA _ G0). subst x0. eexists. eapply xg_data; eauto.
  - intros x HG. inversion HG as [E1|p' y E1 E2 E3|p' ds' y E1 E2 E3 E4|p' ds' dims b k' w' E1 E2 E3 E4]; subst.
    + congruence.
    + exfalso. rewrite HP1 in E1. injection E1 as <-. now apply (E3 ds).
    + exfalso. rewrite HP1 in E1. injection E1 as <-. rewrite HP2 in E2. injection E2 as <-. exact (E4 _ (GA _ E3)).
    + rewrite HP1 in E1. injection E1 as <-. rewrite HP2 in E2. injection E2 as <-. rewrite HT in E4. injection E4 as <- <-.
      now apply HR.
Qed.
Print Assumptions C52_values_partial.
(** The toy dataset of [C45_case], in a group "g" as variable "x", with fill value 5. *)
Definition xr_index : index := mkIndex None (mkGroup None [] [([103], mkGroup None [([120], st_ds)] [])]).
Example C52_values_case m : exists p, py_dataset xr_index [120] (Some [103]) = Some p /\ py_handle p = Ok st_ds /\
  py_plan m (d_shape st_ds) (PyTuple py_keys) = Ok ([1; 2], [3; 4]) /\
  sel_safe (d_shape st_ds) (d_chunk_shape st_ds) [1; 2] [3; 4] = true /\
  stores toy_inflate st_file st_ds st_value /\ regular st_ds /\ full_dataset st_ds /\
  masked N.eqb (Some (5, 0)) 5 = 0 /\ masked N.eqb (Some (5, 0)) 6 = 6.
Proof.
  eexists. split; [reflexivity|]. split; [reflexivity|]. split; [destruct m; vm_compute; reflexivity|]. split; [reflexivity|].
  split; [exact st_stores|]. split; [exact st_regular|]. split; [exact st_full|]. auto.
Qed.

(** False of the code: a variable with a fill value whose element type has no NaN (as integers
    have none) cannot be read, whatever is selected; nor can one whose fill value is not of the
    element type. *)
Theorem C52_integer_refuted {O V} (py_nan : O) conv (dec : datatype -> bytes -> V) el_eq
    m h inflate sort fuel i name group f file mem p ds keys x :
  py_dataset i name group = Some p -> py_handle p = Ok ds ->
  conv (d_dtype ds) py_nan = None \/ conv (d_dtype ds) f = None ->
  xr_get py_nan conv dec el_eq m h inflate sort fuel i name group (Some f) file mem keys x -> forall r, x <> Ok r.
Proof.
  intros HP1 HP2 HC HG r. inversion HG as [E1|p' y E1 E2 E3|p' ds' y E1 E2 E3 E4|p' ds' dims b k' w' E1 E2 E3 E4]; subst.
  - discriminate.
  - rewrite HP1 in E1. injection E1 as <-. now destruct (E3 ds).
  - destruct y; cbn; try discriminate.
  - rewrite HP1 in E1. injection E1 as <-. rewrite HP2 in E2. injection E2 as <-.
    cbn zeta. unfold apply_fill. destruct HC as [->| ->]; [|discriminate]. destruct (conv (d_dtype ds) f); discriminate.
Qed.
Print Assumptions C52_integer_refuted.
(** 16-bit integers and a conversion that knows no NaN (here 99) for them. *)
Example C52_integer_case : exists p, py_dataset xr_index [120] (Some [103]) = Some p /\ py_handle p = Ok st_ds /\
  (fun dt (o : N) => match dt with Float _ => Some o | _ => if o =? 99 then None else Some o end) (d_dtype st_ds) 99 = None.
Proof. eexists. repeat split. Qed.

(** ** The variables *)

Lemma variables_ok {A} (vars : str -> option A) names : forall l,
  mapM (fun k => match vars k with Some v => Ok (k, v) | None => Err EMissing end) names = Ok l <->
  map fst l = names /\ Forall (fun kv => vars (fst kv) = Some (snd kv)) l.
Proof.
  induction names as [|k names IH]; intros l; cbn [mapM].
  - split; [intros [= <-]; split; constructor|]. intros [E _]. now destruct l.
  - split.
    + intros E. apply bind_ok in E as (b & E1 & E). apply bind_ok in E as (bs & E2 & E). injection E as <-.
      destruct (vars k) as [v|] eqn:EV; [|discriminate]. injection E1 as <-. apply IH in E2 as [E3 E4]. cbn [map fst]. split; [congruence|].
      constructor; auto.
    + intros [E HF]. destruct l as [|[k' v] l]; [discriminate|]. injection E as -> <-. inversion HF as [|? ? HV HF']; subst.
      cbn [fst snd] in HV. rewrite HV. cbn [bind]. rewrite (proj2 (IH l)) by auto. reflexivity.
Qed.

(** The variables of an opened dataset are the datasets of the group that have storage, once
    each, with what netCDF4 knows of them; opening fails if netCDF4 knows nothing of one. *)
Theorem C52_variables m path root i k j gs {A} (vars : str -> option A) :
  named root -> index_file m path root = Ok i -> Forall slash_free gs -> Forall (fun c => c <> []) gs ->
  let group := match gs with [] => None | _ => Some (slashes k ++ joined gs ++ slashes j) end in
  let stored x := exists d, h5_dataset root gs x d /\ has_storage d in
  (forall l, xr_variables i group vars = Ok l ->
     (forall x, In x (map fst l) <-> stored x) /\ (forall x v, In (x, v) l -> vars x = Some v)) /\
  ((exists l, xr_variables i group vars = Ok l) <-> (forall x, stored x -> vars x <> None)).
Proof.
  intros HN E HF HE group stored. destruct (C51_listing m path root i k j gs HN E HF HE) as [HL _]. fold group in HL.
  unfold xr_variables. split.
  - intros l El. apply variables_ok in El as [E1 E2]. split.
    + intros x. rewrite E1. apply HL.
    + intros x v Hin. exact (proj1 (Forall_forall _ _) E2 (x, v) Hin).
  - split.
    + intros (l & El) x Hx. apply variables_ok in El as [E1 E2]. apply HL in Hx. rewrite <- E1 in Hx. apply in_map_iff in Hx as ([x' v] & <- & Hin).
      pose proof (proj1 (Forall_forall _ _) E2 _ Hin) as Hv. cbn [fst snd] in *. now rewrite Hv.
    + intros HV. assert (HV' : forall x, In x (py_datasets i group) -> vars x <> None) by (intros x Hx; now apply HV, HL).
      revert HV'. generalize (py_datasets i group) as names. intros names HV'. induction names as [|x names IH]; [exists []; reflexivity|].
      destruct IH as (l & El); [intros y Hy; apply HV'; now right|]. destruct (vars x) as [v|] eqn:EV; [|destruct (HV' x (or_introl eq_refl) EV)].
      exists ((x, v) :: l). cbn [mapM]. rewrite EV. cbn [bind]. now rewrite El.
Qed.
Print Assumptions C52_variables.

Lemma nodup_unique {K X} (l : list (K * X)) k a b : NoDup (map fst l) -> In (k, a) l -> In (k, b) l -> a = b.
Proof.
  induction l as [|[k' x] l IH]; intros HN Ha Hb; [easy|]. inversion HN as [|? ? N1 N2]; subst.
  assert (HK : forall y, In (k, y) l -> In k (map fst l)) by (intros y Hy; apply in_map_iff; now exists (k, y)).
  destruct Ha as [Ea|Ha], Hb as [Eb|Hb]; [congruence| | |auto].
  - injection Ea as -> ->. now destruct (N1 (HK b Hb)).
  - injection Eb as -> ->. now destruct (N1 (HK a Ha)).
Qed.
Lemma h5_group_unique g cs a b : named g -> h5_group g cs a -> h5_group g cs b -> a = b /\ named a.
Proof.
  intros HN Ha. revert b HN. induction Ha as [g|g c g1 cs g' H1 H2 IH]; intros b HN Hb; inversion Hb as [|? ? g2 ? ? H3 H4]; subst; [auto|].
  inversion HN as [bb l N1 N2 N3]; subst. cbn [h_members] in *. pose proof (nodup_unique l c _ _ N1 H1 H3) as E. injection E as <-.
  apply IH; auto. exact (N3 c g1 H1).
Qed.
Lemma h5_dataset_unique g cs x d d' : named g -> h5_dataset g cs x d -> h5_dataset g cs x d' -> d = d'.
Proof.
  intros HN (a & H1 & H2) (b & H3 & H4). destruct (h5_group_unique g cs a b HN H1 H3) as [<- HA].
  inversion HA as [bb l N1 N2 N3]; subst. pose proof (nodup_unique l x _ _ N1 H2 H4) as E. now injection E as <-.
Qed.

(** False of the code: a variable of the file that was never written to is missing from the
    opened dataset, without an error. *)
Theorem C52_unwritten_refuted m path root i k j gs {A} (vars : str -> option A) l x d :
  named root -> index_file m path root = Ok i -> Forall slash_free gs -> Forall (fun c => c <> []) gs ->
  h5_dataset root gs x d -> ~ has_storage d ->
  xr_variables i (match gs with [] => None | _ => Some (slashes k ++ joined gs ++ slashes j) end) vars = Ok l ->
  ~ In x (map fst l).
Proof.
  intros HN E HF HE HD HS El Hin. destruct (C52_variables m path root i k j gs vars HN E HF HE) as [H _].
  apply (H l El) in Hin as (d' & H1 & H2). rewrite (h5_dataset_unique root gs x d' d HN H1 HD) in H2. auto.
Qed.
Print Assumptions C52_unwritten_refuted.
(** "y" of group "g". *)
Example C52_variables_case : named ex_tree /\ index_file Debug tree_path ex_tree = Ok ex_index /\
  xr_variables ex_index (Some [103]) (fun k => Some k) = Ok [([120], [120])] /\
  h5_dataset ex_tree [[103]] [121] unalloc_h5 /\ ~ has_storage unalloc_h5.
Proof.
  split; [exact ex_tree_named|]. split; [exact (ex_tree_indexed Debug)|]. split; [reflexivity|]. split.
  - eexists. split; [eapply hg_down; [right; left; reflexivity|constructor]|right; left; reflexivity].
  - intros [H|H]; [discriminate|now apply H].
Qed.
