(** * From an HDF5 file to a value in xarray (C82).

    Each theorem is followed by a concrete case meeting its hypotheses. *)
From Coq Require Import String.
From Verif Require Import Base Spec Safe SafeWrap Chunk Extent Dataset Slicer SpecApi ExtentProofs SerdeProofs TreeProofs Filters SpecFilter FilterProofs FilterProps ApiLemmas
  Reader SpecReader DirectProofs ParProofs ReaderProps ReadProofs CacheProofs StreamProofs ExamplesReader Examples SliceProps ExactReads
  SlicerRelease2 ExactFamily WrapProps IndexTree Serde SpecTree SpecSerde SpecEnd Python SpecPython PythonProofs Xarray XarrayStore SpecText
  Properties1 Properties4 Properties5 Properties6 Properties7 Properties8 Properties10 Properties12 Properties13 Properties16 Properties22 Properties23 Properties24
  Properties27 Properties31 Properties50 Properties52 Properties57.
Close Scope string_scope.

(** ** Specification *)

(** The value the attributes of a variable name as missing: `_FillValue`, or `missing_value`
    if there is no `_FillValue`. *)
Definition names_missing {O T} (v : @ncvar O T) (o : O) : Prop :=
  attribute v "_FillValue" o \/ attribute v "missing_value" o /\ ~ exists f, attribute v "_FillValue" f.

(** What of it a read replaces by what: as values of the element type, if both can be
    converted. *)
Inductive replaced {O T V} (conv : datatype -> O -> option V) (py_nan : O) (dt : datatype) (v : @ncvar O T) : option (V * V) -> Prop :=
| rp_none : (forall o, ~ names_missing v o) -> replaced conv py_nan dt v None
| rp_some o a b : names_missing v o -> conv dt o = Some a -> conv dt py_nan = Some b -> replaced conv py_nan dt v (Some (a, b)).

(** ** Proofs *)

(** The keys NumPy accepts, without -1 and with no empty axis, are planned as NumPy does. *)
Lemma valid_plan m shape keys : dims_fit shape -> (length keys <= length shape)%nat -> on_axes np_valid shape keys ->
  ~ In (PyInt (-1)) keys -> ~ In 0 (np_lens shape keys) ->
  on_axes forward shape keys /\ py_plan m shape (PyTuple keys) = Ok (np_starts shape keys, np_lens shape keys).
Proof.
  intros HD HL HV H1 H2.
  assert (HF : on_axes forward shape keys).
  { destruct (not_forward _ _ HV) as [HF|(j & n & k0 & Hn & Hk & _ & [->|E])]; auto; exfalso.
    - exact (H1 (nth_error_In _ _ Hk)).
    - apply H2. rewrite <- E. exact (np_lens_nth _ _ _ _ _ Hn Hk). }
  split; auto. rewrite py_plan_plain; auto.
  - destruct (forward_plan_np _ _ HL HD HF) as [-> ->]. reflexivity.
  - intros j n k0 Hn Hk. apply (forward_plain n k0); [|exact (HF j n k0 Hn Hk)].
    exact (proj1 (Forall_forall _ _) HD n (nth_error_In _ _ Hn)).
Qed.

(** The selections of the class are read whatever the elements are: as [py_class_right]. *)
Lemma py_right m h inflate sort fuel ds file value mem keys idx cnt k w :
  addr_sort sort -> full_dataset ds -> regular ds -> stores inflate file ds value ->
  dims_fit (d_shape ds) -> (length keys <= length (d_shape ds))%nat -> on_axes forward (d_shape ds) keys ->
  py_plan m (d_shape ds) (PyTuple keys) = Ok (idx, cnt) -> ~ In 0 cnt ->
  py_type (d_dtype ds) = Ok (k, w) -> (Z.of_N (prodN cnt * d_dsize ds) <= IMAX)%Z ->
  (m = Release -> (2 * prodN cnt + 3 * prodN (d_chunk_shape ds)) * d_dsize ds < W64 /\
    (single_end (d_chunk_shape ds) cnt = true ->
     8 * (N.of_nat (length cnt) * (prodN cnt * prodN (d_chunk_shape ds))) * d_dsize ds < W64)) ->
  (N.to_nat (prodN cnt) < fuel)%nat -> (forall n, lenN (mem n) = n) ->
  sel_right m (d_shape ds) (d_chunk_shape ds) idx cnt = true ->
  (exists x, py_get m h inflate sort fuel ds (Some file) mem (PyTuple keys) x) /\
  forall x, py_get m h inflate sort fuel ds (Some file) mem (PyTuple keys) x ->
    x = Ok (py_dims cnt, to_native_slice h k w (d_order ds) (concat (map value (slab idx cnt)))).
Proof.
  intros HSort HFull HReg HS HD HL HF HP HZ HT HB HMo HFuel HM HR.
  destruct (py_get_par m h inflate sort fuel ds file mem keys idx cnt k w HFull HReg HD HL HF HP HZ HT HB)
    as (HW & Hw & HSel & _ & e & rd & Eg & ED & HI). set (n := prodN cnt * d_dsize ds) in *.
  split.
  { destruct (par_read_total m inflate sort fuel rd e (mem n)) as (y & d & PR). eexists. apply HI. exists y, d. split; [exact PR|reflexivity]. }
  intros x HG. apply HI in HG as (y & d & PR & ->).
  assert (HW64 : n < W64) by (clear - HB; unfold IMAX, W64 in *; lia).
  assert (LM : lenN (mem n) = n) by apply HM.
  destruct (new_sized m ds file HFull (rg_sizes _ HReg)) as [[rc Hrc] _]. apply (rc_new m inflate) in Hrc.
  assert (HA : same_addr ds) by apply HReg. assert (Hd : 0 < d_dsize ds) by apply HReg.
  assert (CR : fst (cache_read m inflate fuel rc e (mem n)) = (Ok n, concat (map value (slab idx cnt)) ++ skipn (N.to_nat n) (mem n))).
  { apply (C21_cached_right_partial m inflate file ds value e idx cnt (mem n) fuel rc); auto.
    constructor; auto; try (rewrite LM; auto; apply N.le_refl). now apply class_right. }
  apply (C24_agree m inflate sort fuel ds file rc rd e (mem n)) in CR; auto; [|now rewrite LM].
  destruct (C25_schedules m inflate sort fuel ds file rd e (mem n) HSort HA Hd) as (_ & _ & _ & S); [now rewrite LM|exact ED|].
  destruct (S _ _ CR _ _ PR) as [-> ->]. cbn [bind]. rewrite skipn_all2, app_nil_r by (unfold lenN in LM; lia). reflexivity.
Qed.

(** The elements of the array of such a read. *)
Lemma array_elements {V} (dec : datatype -> bytes -> V) h k inflate file ds value idx cnt w :
  full_dataset ds -> stores inflate file ds value -> d_dsize ds = N.of_nat w -> (0 < w)%nat -> sel_in (d_shape ds) idx cnt ->
  length idx = length cnt -> prodN (py_dims cnt) = prodN cnt ->
  elements dec (d_dtype ds) w (N.to_nat (prodN (py_dims cnt))) (to_native_slice h k w (d_order ds) (concat (map value (slab idx cnt)))) =
  map (fun c => dec (d_dtype ds) (to_native_slice h k w (d_order ds) (value c))) (slab idx cnt).
Proof.
  intros HFull HS HW Hw HSel HLe HPd.
  assert (HVL : forall c, In c (slab idx cnt) -> length (value c) = w).
  { intros c Hc. rewrite (value_length inflate file ds value idx cnt c HFull HS HSel Hc), HW. apply Nat2N.id. }
  assert (HNL : forall c, In c (slab idx cnt) -> length (to_native_slice h k w (d_order ds) (value c)) = w).
  { intros c Hc. rewrite (to_native_length h k w (d_order ds) (value c) 1); auto; rewrite HVL; auto; lia. }
  rewrite to_native_concat; auto.
  2:{ apply Forall_forall. intros b Hb. apply in_map_iff in Hb as (c & <- & Hc). rewrite HVL by auto. now apply Nat.mod_same; lia. }
  rewrite map_map. unfold elements.
  rewrite <- (map_map (fun j => word w j (concat (map (fun c => to_native_slice h k w (d_order ds) (value c)) (slab idx cnt)))) (dec (d_dtype ds))).
  assert (EN : N.to_nat (prodN (py_dims cnt)) = length (map (fun c => to_native_slice h k w (d_order ds) (value c)) (slab idx cnt))).
  { rewrite map_length, HPd. assert (HLn : lenN (slab idx cnt) = prodN cnt) by (now apply slab_length).
    unfold lenN in HLn. clear - HLn. lia. }
  rewrite EN, Properties12.word_concat; [now rewrite map_map|]. apply Forall_forall. intros b Hb. apply in_map_iff in Hb as (c & <- & Hc). auto.
Qed.

(** The box NumPy selects is within the shape. *)
Lemma np_sel_in : forall shape keys, on_axes np_valid shape keys -> ~ In 0 (np_lens shape keys) ->
  sel_in shape (np_starts shape keys) (np_lens shape keys).
Proof.
  assert (LN : forall shape keys, length (np_starts shape keys) = length shape /\ length (np_lens shape keys) = length shape).
  { induction shape as [|n shape IH]; intros [|k keys]; cbn [np_starts np_lens length]; auto; [destruct (IH []) as [E1 E2]|destruct (IH keys) as [E1 E2]]; split; congruence. }
  intros shape keys HV HZ. destruct (LN shape keys) as [L1 L2]. split; [exact L1|]. split; [exact L2|]. split.
  { apply Forall_forall. intros x Hx. destruct (N.eq_dec x 0) as [->|]; [contradiction|lia]. }
  clear L1 L2. intros j. revert shape keys HV HZ. induction j as [|j IH]; intros [|n shape] [|k keys] HV HZ i c s Hi Hc Hs;
    cbn [np_starts np_lens nth_error] in *; try discriminate.
  - injection Hi as <-. injection Hc as <-. injection Hs as <-. lia.
  - injection Hi as <-. injection Hc as <-. injection Hs as <-. specialize (HV O n k eq_refl eq_refl).
    assert (HK : np_len n k <> 0) by (intros E0; apply HZ; now left).
    destruct k as [a b st|z|]; cbn [np_valid np_start np_len] in *; [| |contradiction].
    + unfold np_lo, np_hi in *. destruct a as [a|], b as [b|]; unfold np_bound in *; try (destruct (Z.ltb_spec a 0)); try (destruct (Z.ltb_spec b 0)); lia.
    + unfold in_range in HV. destruct (Z.ltb_spec z 0); lia.
  - assert (HV0 : on_axes np_valid shape []) by (intros [|q] ? ? ? Hq; discriminate).
    assert (HZ0 : ~ In 0 (np_lens shape [])) by (intros H; apply HZ; now right).
    exact (IH shape [] HV0 HZ0 i c s Hi Hc Hs).
  - assert (HV0 : on_axes np_valid shape keys) by (intros q n0 k0 Hn Hk; exact (HV (S q) n0 k0 Hn Hk)).
    assert (HZ0 : ~ In 0 (np_lens shape keys)) by (intros H; apply HZ; now right).
    exact (IH shape keys HV0 HZ0 i c s Hi Hc Hs).
Qed.

(** The array has as many bytes as its shape says. *)
Lemma py_get_length m h inflate sort fuel ds file mem arg dims b k w :
  addr_sort sort -> same_addr ds -> 0 < d_dsize ds -> py_type (d_dtype ds) = Ok (k, w) -> (forall n, lenN (mem n) = n) ->
  py_get m h inflate sort fuel ds (Some file) mem arg (Ok (dims, b)) -> 0 < prodN dims /\ length b = (w * N.to_nat (prodN dims))%nat.
Proof.
  intros HSort HA Hd HT HM HG. assert (Hw : (0 < w)%nat) by exact (py_type_pos _ _ _ HT).
  inversion HG as [x E1 E2 E0|p x E1 E2 E3 E0|idx cnt k' w' x E1 E2 E3 E0]; subst.
  - destruct (py_plan m (d_shape ds) arg); cbn [failed] in E0; discriminate.
  - destruct (py_type (d_dtype ds)); cbn [failed] in E0; discriminate.
  - rewrite HT in E2. injection E2 as <- <-.
    inversion E3 as [|x F1 F2 F3 F0|r x F1 F2 F3 F4 F0|r e x d F1 F2 F3 F4 F0]; subst.
    + destruct (direct_new m ds (Some file)); cbn [failed] in F0; discriminate.
    + destruct (extents_of_pairs idx cnt); cbn [failed] in F0; discriminate.
    + destruct x as [v| | | |]; cbn [bind] in F0; try discriminate. injection F0 as <- <-.
      set (n := prodN (py_dims cnt) * N.of_nat w) in *. pose proof (HM n) as LM.
      assert (HW64 : n < W64) by (clear - F1; unfold IMAX, W64 in *; lia).
      destruct (C25_schedules m inflate sort fuel ds file r e (mem n) HSort HA Hd) as (_ & _ & S1 & _); [now rewrite LM|exact F2|].
      apply S1 in F4. apply (proj2 (Properties16.C57_length m inflate sort fuel e _)) in F4.
      assert (L : length d = (w * N.to_nat (prodN (py_dims cnt)))%nat).
      { rewrite F4. unfold lenN in LM. unfold n in LM at 2. clear - LM. fold n in LM. set (q := length (mem n)) in *. clearbody q. lia. }
      split; [apply prodN_pos, dims_pos|]. now rewrite (to_native_length h k w (d_order ds) d (N.to_nat (prodN (py_dims cnt))) Hw L).
Qed.

Section Opened.
Context {O T V : Type} (py_eq : O -> O -> bool) (is_bytes_type : T -> bool) (to_bytes : O -> O)
        (py_nan : O) (conv : datatype -> O -> option V) (dec : datatype -> bytes -> V) (el_eq : V -> V -> bool).

(** *** C82: the variables of an opened file

    A file (or a group of it) is indexed and opened.  If that succeeds, the variables are its
    datasets with storage, and only these, once each; otherwise netCDF4 has no such variable
    for one of these, or a variable with attributes in conflict. *)
Theorem C82_variables m p root i k j gs (vars : str -> option (@ncvar O T)) :
  named root -> index_file m (Some p) root = Ok i -> Forall slash_free gs -> Forall (fun c => c <> []) gs ->
  (forall x v, vars x = Some v -> described v) ->
  let group := match gs with [] => None | _ => Some (slashes k ++ joined gs ++ slashes j) end in
  let stored x := exists d, h5_dataset root gs x d /\ has_storage d in
  (forall l, get_variables py_eq is_bytes_type to_bytes i group p vars = Ok l -> forall x, In x (map fst l) <-> stored x) /\
  ((exists l, get_variables py_eq is_bytes_type to_bytes i group p vars = Ok l) <->
   (forall x, stored x -> exists v, vars x = Some v /\ ~ conflicting py_eq v)).
Proof.
  intros HN E HF HE HD group stored. destruct (C51_listing m (Some p) root i k j gs HN E HF HE) as [HL _]. fold group in HL.
  destruct (C81_store py_eq is_bytes_type to_bytes i group p vars HD) as (A & B & _). split.
  - intros l El x. rewrite (proj1 (B l El)). apply HL.
  - rewrite A. split; intros H x Hx; apply H; now apply HL.
Qed.

(** *** C82: reading a variable

    A file is indexed, it or a group of it is opened, and a variable [x] of it is indexed with
    ints (other than -1) and unit-step slices, none of them empty, NumPy's selection being in
    the class of the build.  Then every schedule gives the values the file stores for these
    elements in row-major order, with those equal to the value the attributes name as missing
    replaced by NaN. *)
Theorem C82_read m hst inflate sort fuel p root i kk j gs vars l x xv h cs file value keys mem kd w :
  addr_sort sort -> named root -> index_file m (Some p) root = Ok i ->
  Forall slash_free gs -> Forall (fun c => c <> []) gs -> (forall y v, vars y = Some v -> described v) ->
  let group := match gs with [] => None | _ => Some (slashes kk ++ joined gs ++ slashes j) end in
  get_variables py_eq is_bytes_type to_bytes i group p vars = Ok l -> In (x, xv) l ->
  h5_dataset root gs x h -> h5_stores inflate file h cs value ->
  dims_fit (h_shape h) -> (length keys <= length (h_shape h))%nat -> on_axes np_valid (h_shape h) keys ->
  let idx := np_starts (h_shape h) keys in
  let cnt := np_lens (h_shape h) keys in
  let sz := dt_size (h_dtype h) in
  ~ In (PyInt (-1)) keys -> ~ In 0 cnt -> sel_right m (h_shape h) cs idx cnt = true ->
  py_type (h_dtype h) = Ok (kd, w) -> (Z.of_N (prodN cnt * sz) <= IMAX)%Z ->
  (m = Release -> (2 * prodN cnt + 3 * prodN cs) * sz < W64 /\
    (single_end cs cnt = true -> 8 * (N.of_nat (length cnt) * (prodN cnt * prodN cs)) * sz < W64)) ->
  (N.to_nat (prodN cnt) < fuel)%nat -> (forall n, lenN (mem n) = n) ->
  let read := xr_get py_nan conv dec el_eq m hst inflate sort fuel i x group (xv_fill xv) (Some file) mem keys in
  exists v, vars x = Some v /\ (exists r, read r) /\
    (forall f, replaced conv py_nan (h_dtype h) v f -> forall r, read r ->
       exists dims, prodN dims = prodN cnt /\
         r = Ok (dims, map (fun c => masked el_eq f (dec (h_dtype h) (to_native_slice hst kd w (h_order h) (value c)))) (slab idx cnt))) /\
    ((forall f, ~ replaced conv py_nan (h_dtype h) v f) -> forall r, read r -> r = Panic).
Proof.
  intros HSort HN E HFp HEp HDv group HV Hin HDs HS HD HL HVal idx cnt sz H1 HZ HR HT HB HMo HFuel HM read.
  destruct (C81_store py_eq is_bytes_type to_bytes i group p vars HDv) as (_ & SB & _).
  destruct (SB l HV) as [SN SV]. destruct (SV x xv Hin) as (v & Ev & Eo). clear SB SV. exists v. split; [exact Ev|].
  destruct (C51_listing m (Some p) root i kk j gs HN E HFp HEp) as [_ HLk]. fold group in HLk.
  assert (Hx : In x (py_datasets i group)) by (rewrite <- SN; apply in_map_iff; now exists (x, xv)).
  destruct (HLk x Hx) as (pp & ds & h' & P1 & P2 & P3 & P4 & P5). clear HLk.
  assert (h' = h) as -> by (eapply h5_dataset_unique; eauto).
  destruct (indexed_stores m inflate file h cs value HS) as (ds' & D1 & D2 & D3 & D4 & D5 & D6 & D7 & D8 & D9 & D10 & _).
  rewrite P5 in D1. injection D1 as <-.
  destruct (valid_plan m _ _ HD HL HVal H1 HZ) as [HF HP].
  rewrite <- D7 in HT. unfold sz, idx, cnt in *. clear sz idx cnt. rewrite <- D5, <- D6, <- D9 in *.
  set (idx := np_starts (d_shape ds) keys) in *. set (cnt := np_lens (d_shape ds) keys) in *.
  destruct (py_right m hst inflate sort fuel ds file value mem keys idx cnt kd w) as [[x0 G0] GA]; auto.
  destruct (py_get_par m hst inflate sort fuel ds file mem keys idx cnt kd w D2 D3 HD HL HF HP HZ HT HB) as (HW & Hw & HSel & HPd & _).
  destruct (py_plan_lengths _ _ _ _ _ HP) as [L1 L2].
  pose proof (array_elements dec hst kd inflate file ds value idx cnt w D2 D4 HW Hw HSel ltac:(congruence) HPd) as HEl.
  destruct (C81_variable py_eq is_bytes_type to_bytes p v (HDv x v Ev)) as (_ & _ & VV).
  destruct (VV xv Eo) as (_ & _ & _ & _ & _ & _ & VF & _). clear VV.
  assert (HR' : forall r, read r -> r = (let els := map (fun c => dec (d_dtype ds) (to_native_slice hst kd w (d_order ds) (value c))) (slab idx cnt) in
     match xv_fill xv with
     | None => Ok (py_dims cnt, els)
     | Some f => let* out := apply_fill el_eq (conv (d_dtype ds) f) (conv (d_dtype ds) py_nan) (Some els) in Ok (py_dims cnt, out)
     end)).
  { intros r HG. inversion HG as [E1|p' y E1 E2 E3|p' ds' y E1 E2 E3 E4|p' ds' dims b k' w' E1 E2 E3 E4]; subst.
    + congruence.
    + exfalso. rewrite P1 in E1. injection E1 as <-. now apply (E3 ds).
    + exfalso. rewrite P1 in E1. injection E1 as <-. rewrite P2 in E2. injection E2 as <-. exact (E4 _ (GA _ E3)).
    + rewrite P1 in E1. injection E1 as <-. rewrite P2 in E2. injection E2 as <-. rewrite HT in E4. injection E4 as <- <-.
      specialize (GA _ E3). injection GA as -> ->. cbn zeta. now rewrite HEl. }
  split; [|split].
  - pose proof (GA _ G0) as G1. subst x0. eexists. eapply xg_data; eauto.
  - intros f Hf r Hr. apply HR' in Hr. cbn zeta in Hr. exists (py_dims cnt). split; [exact HPd|]. subst r.
    rewrite <- D7, <- D8 in *. destruct Hf as [Hno|o a b Ho Ea Eb].
    + destruct (xv_fill xv) as [o|] eqn:EF; [exfalso; apply (Hno o); now apply VF|]. reflexivity.
    + apply VF in Ho. rewrite Ho, Ea, Eb. cbn [apply_fill bind masked]. now rewrite map_map.
  - intros Hno r Hr. apply HR' in Hr. cbn zeta in Hr. subst r. rewrite <- D7 in *.
    destruct (xv_fill xv) as [o|] eqn:EF.
    + assert (Ho : names_missing v o) by (now apply VF). unfold apply_fill.
      destruct (conv (d_dtype ds) o) as [a|] eqn:Ea; [|reflexivity]. destruct (conv (d_dtype ds) py_nan) as [b|] eqn:Eb; [|reflexivity].
      exfalso. apply (Hno (Some (a, b))). eapply rp_some; eauto.
    + exfalso. apply (Hno None). apply rp_none. intros o Ho. apply VF in Ho. congruence.
Qed.

(** *** C82: exactly when

    Of a dataset no two elements of which have the same bytes, an element type in which
    different bytes are different values, and a variable whose attributes name no missing
    value: every read, whatever the schedule and whatever the new memory held, gives the values
    in the file if and only if no key is -1, no axis is empty and the selection is in the class
    of the build. *)
Theorem C82_exact m hst inflate sort fuel p root i kk j gs vars l x xv v h cs file value keys kd w :
  addr_sort sort -> named root -> index_file m (Some p) root = Ok i ->
  Forall slash_free gs -> Forall (fun c => c <> []) gs -> (forall y v, vars y = Some v -> described v) ->
  let group := match gs with [] => None | _ => Some (slashes kk ++ joined gs ++ slashes j) end in
  get_variables py_eq is_bytes_type to_bytes i group p vars = Ok l -> In (x, xv) l ->
  vars x = Some v -> (forall o, ~ names_missing v o) ->
  h5_dataset root gs x h -> h5_stores inflate file h cs value -> h5_distinct inflate file h cs ->
  (forall b b', length b = w -> length b' = w -> dec (h_dtype h) b = dec (h_dtype h) b' -> b = b') ->
  dims_fit (h_shape h) -> (length keys <= length (h_shape h))%nat -> on_axes np_valid (h_shape h) keys ->
  let idx := np_starts (h_shape h) keys in
  let cnt := np_lens (h_shape h) keys in
  let sz := dt_size (h_dtype h) in
  py_type (h_dtype h) = Ok (kd, w) -> (Z.of_N (prodN cnt * sz) <= IMAX)%Z ->
  (m = Release -> (2 * prodN cnt + 3 * prodN cs) * sz < W64 /\
    (single_end cs cnt = true -> 8 * (N.of_nat (length cnt) * (prodN cnt * prodN cs)) * sz < W64)) ->
  (N.to_nat (prodN cnt) < fuel)%nat ->
  ((forall mem r, (forall n, lenN (mem n) = n) ->
      xr_get py_nan conv dec el_eq m hst inflate sort fuel i x group (xv_fill xv) (Some file) mem keys r ->
      exists dims, prodN dims = prodN cnt /\
        r = Ok (dims, map (fun c => dec (h_dtype h) (to_native_slice hst kd w (h_order h) (value c))) (slab idx cnt))) <->
   ~ In (PyInt (-1)) keys /\ ~ In 0 cnt /\ sel_right m (h_shape h) cs idx cnt = true).
Proof.
  intros HSort HN E HFp HEp HDv group HV Hin Ev Hno HDs HS HX HI HD HL HVal idx cnt sz HT HB HMo HFuel. split.
  2:{ intros (H1 & HZ & HR) mem r HM HG.
      destruct (C82_read m hst inflate sort fuel p root i kk j gs vars l x xv h cs file value keys mem kd w
        HSort HN E HFp HEp HDv HV Hin HDs HS HD HL HVal H1 HZ HR HT HB HMo HFuel HM) as (v' & Ev' & _ & A & _).
      rewrite Ev in Ev'. injection Ev' as <-. destruct (A None (rp_none _ _ _ _ Hno) r HG) as (dims & HP & ->). exists dims. split; [exact HP|].
      reflexivity. }
  intros HAll.
  destruct (C81_store py_eq is_bytes_type to_bytes i group p vars HDv) as (_ & SB & _).
  destruct (SB l HV) as [SN SV]. destruct (SV x xv Hin) as (v' & Ev' & Eo). clear SB SV. rewrite Ev in Ev'. injection Ev' as <-.
  destruct (C51_listing m (Some p) root i kk j gs HN E HFp HEp) as [_ HLk]. fold group in HLk.
  assert (Hx : In x (py_datasets i group)) by (rewrite <- SN; apply in_map_iff; now exists (x, xv)).
  destruct (HLk x Hx) as (pp & ds & h' & P1 & P2 & P3 & P4 & P5). clear HLk.
  assert (h' = h) as -> by (eapply h5_dataset_unique; eauto).
  destruct (indexed_stores m inflate file h cs value HS) as (ds' & D1 & D2 & D3 & D4 & D5 & D6 & D7 & D8 & D9 & D10 & chunks & D11 & D12).
  rewrite P5 in D1. injection D1 as <-.
  destruct (C81_variable py_eq is_bytes_type to_bytes p v (HDv x v Ev)) as (_ & _ & VV).
  destruct (VV xv Eo) as (_ & _ & _ & _ & _ & _ & VF & _). clear VV.
  assert (EF : xv_fill xv = None) by (destruct (xv_fill xv) as [o|]; [exfalso; apply (Hno o); now apply VF|reflexivity]).
  rewrite EF in HAll.
  assert (FE : filters_of ds = h_filters h).
  { destruct (hs_filters _ _ _ _ _ HS) as (sh & gz & HFl). pose proof P5 as Q. unfold datasetd_index in Q.
    destruct (length (h_shape h) <=? 9)%nat; [|discriminate]. now apply (std_filters_of m h ds sh gz). }
  assert (DC : distinct_cells inflate file ds).
  { intros c c' raw raw' q q' Hc Hc' P P' Hj Hj' W. rewrite D9, FE in P, P'. rewrite D6 in Hj, Hj'. rewrite D9 in W.
    exact (HX chunks D11 c c' raw raw' q q' (Permutation_in _ D12 Hc) (Permutation_in _ D12 Hc') P P' Hj Hj' W). }
  clear HX FE. unfold sz, idx, cnt in *. clear sz idx cnt. rewrite <- D5, <- D6, <- D7, <- D8, <- D9 in *.
  set (idx := np_starts (d_shape ds) keys) in *. set (cnt := np_lens (d_shape ds) keys) in *.
  apply (C45_class_exact m hst inflate sort fuel ds file value keys kd w); auto. fold idx cnt.
  intros mem r HM HG.
  assert (HW : d_dsize ds = N.of_nat w).
  { rewrite (wm_dsize _ (fd_made _ D2)). exact (py_type_width _ _ _ HT). }
  assert (Hw : (0 < w)%nat) by exact (py_type_pos _ _ _ HT).
  destruct r as [[dims b]|er| | |].
  2,3,4,5: exfalso; match goal with H : py_get _ _ _ _ _ _ _ _ _ ?y |- _ =>
    destruct (HAll mem (failed y) HM) as (? & _ & F); [eapply xg_fail; eauto; intros a; discriminate|cbn [failed] in F; discriminate] end.
  destruct (py_get_length m hst inflate sort fuel ds file mem (PyTuple keys) dims b kd w HSort (rg_addr _ D3) (ss_pos _ (rg_sizes _ D3)) HT HM HG) as [HP HLb].
  destruct (HAll mem _ HM (xg_data py_nan conv dec el_eq m hst inflate sort fuel i x group None (Some file) mem keys pp ds dims b kd w P1 P2 HG HT))
    as (dims' & HPd & F). cbn zeta in F. injection F as <- F. exists dims. split; [|exact HPd]. f_equal. f_equal.
  assert (HZ : ~ In 0 cnt).
  { intros HZ. assert (prodN cnt = 0); [|lia]. clear -HZ. induction cnt as [|c l IH]; [easy|]. cbn [prodN]. destruct HZ as [->|H]; [lia|]. rewrite IH by auto. lia. }
  assert (HSel : sel_in (d_shape ds) idx cnt) by (now apply np_sel_in).
  pose proof HSel as (L1 & L2 & _).
  rewrite HPd in F, HLb.
  rewrite <- (array_elements dec hst kd inflate file ds value idx cnt w D2 D4 HW Hw HSel) in F; [|congruence|].
  2:{ apply prod_dims. apply HSel. }
  rewrite prod_dims in F by apply HSel.
  apply (elements_inj dec (d_dtype ds) w (N.to_nat (prodN cnt))) in F; auto.
  pose proof (slab_bytes_len inflate file ds value idx cnt D2 D4 HSel) as LV.
  assert (L3 : length (concat (map value (slab idx cnt))) = (w * N.to_nat (prodN cnt))%nat) by (unfold lenN in LV; clear - LV HW; lia).
  now rewrite (to_native_length hst kd w (d_order ds) _ (N.to_nat (prodN cnt)) Hw L3).
Qed.
End Opened.
Print Assumptions C82_variables.
Print Assumptions C82_read.
Print Assumptions C82_exact.

(** The file of [C54_case]: dataset "x" of the group "g", opened with attributes that name 5
    as missing value (as both attributes), and without. *)
Definition xo_var (attrs : hmap N) : @ncvar N N := mkVar attrs [text "y"; text "x"] [4; 6] 16 None (Some (Chunks [2; 3])).
Definition xo_vars (attrs : hmap N) : str -> option (@ncvar N N) := fun _ => Some (xo_var attrs).
Definition xo_attrs : hmap N := [(text "missing_value", 5); (text "units", 1); (text "_FillValue", 5)].
Example C82_case m :
  (exists i l xv, index_file m (Some [47; 116]) st_tree = Ok i /\
     get_variables N.eqb (fun _ => false) (fun o => o) i (Some [103]) [47; 116] (xo_vars xo_attrs) = Ok l /\ In ([120], xv) l) /\
  (exists i l xv, index_file m (Some [47; 116]) st_tree = Ok i /\
     get_variables N.eqb (fun _ => false) (fun o => o) i (Some [103]) [47; 116] (xo_vars []) = Ok l /\ In ([120], xv) l) /\
  named st_tree /\ h5_dataset st_tree [[103]] [120] st_h5 /\
  h5_stores toy_inflate st_file st_h5 [2; 3] st_value /\ h5_distinct toy_inflate st_file st_h5 [2; 3] /\
  (forall y v, xo_vars xo_attrs y = Some v -> described v) /\ (forall y v, xo_vars [] y = Some v -> described v) /\
  names_missing (xo_var xo_attrs) 5 /\ (forall o, ~ names_missing (xo_var []) o) /\
  on_axes np_valid (h_shape st_h5) py_keys /\ np_starts (h_shape st_h5) py_keys = [1; 2] /\ np_lens (h_shape st_h5) py_keys = [3; 4] /\
  ~ In (PyInt (-1)) py_keys /\ sel_right m (h_shape st_h5) [2; 3] [1; 2] [3; 4] = true /\ py_type (h_dtype st_h5) = Ok (KInt, 2%nat).
Proof.
  destruct (C54_case m) as (A1 & _ & A2 & A3 & (i & A4) & _). destruct C54_exact_case as (_ & B & _).
  assert (HDs : forall attrs, NoDup (map fst attrs) -> forall y v, xo_vars attrs y = Some v -> described v).
  { intros attrs HNd y v [= <-]. constructor; [exact HNd|intros f; discriminate]. }
  split; [|split; [|split; [exact A1|split; [exact A2|split; [exact A3|split; [exact B|]]]]]].
  - destruct m; (eexists; eexists; eexists; split; [vm_compute; reflexivity|split; [vm_compute; reflexivity|now left]]).
  - destruct m; (eexists; eexists; eexists; split; [vm_compute; reflexivity|split; [vm_compute; reflexivity|now left]]).
  - split; [|split; [|split; [|split; [|split; [|split; [reflexivity|split; [reflexivity|split; [|split; [destruct m; reflexivity|reflexivity]]]]]]]]].
    + apply HDs. cbn [xo_attrs map fst]. repeat (constructor; [cbn [In]; intros H; repeat (destruct H as [H|H]; [discriminate H|]); exact H|]). constructor.
    + apply HDs. constructor.
    + left. right. right. now left.
    + intros o [H|[H _]]; exact H.
    + intros [|[|q]] n k0 Hn Hk; cbn in Hn, Hk; try (destruct q; discriminate); injection Hn as <-; injection Hk as <-; cbn; unfold unit_step; auto.
    + intros [H|[H|[]]]; discriminate.
Qed.
