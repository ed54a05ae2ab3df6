(** * C54, C63: typed values of an HDF5 file, for the exact class of selections.

    Extends [C54_values_partial] (Properties13.v) and [C63_values_partial] (Properties29.v) from [sel_safe] to the class for which
    the slicer is right in the build's mode (in debug builds the same, in release builds larger); outside it values are wrong
    (C54_class_exact). *)
From Coq Require Import Lia.
From Verif Require Import Base Spec Safe Chunk Extent Dataset Slicer SpecApi ExtentProofs ApiLemmas Filters SpecFilter FilterProofs FilterProps Reader SpecReader
  ParProofs ReaderProps ReadProofs CacheProofs StreamProofs ExamplesReader Examples IndexTree Serde SpecTree SpecSerde TreeProofs SerdeProofs
  SafeWrap WrapProps Properties1 Properties4 Properties5 Properties12 SpecEnd Properties13 Properties23 Properties24 H5Types Properties29 Properties77.

(** [values] of a type of the size of the element: the elements the file stores, converted to the host's order. *)
Theorem C54_class_values m p root i i' k gs x h cs inflate sort file value hst kd w al :
  addr_sort sort -> named root -> typed_tree root -> lenN p < W64 -> utf8_path (Some p) ->
  index_file m (Some p) root = Ok i ->
  (i' = i \/ exists b, bincode_serialize i = Ok b /\ bincode_deserialize b = Ok i') ->
  Forall (fun c => c <> [] /\ slash_free c) (gs ++ [x]) -> h5_dataset root gs x h ->
  h5_stores inflate file h cs value ->
  (0 < w)%nat -> dt_size (h_dtype h) = N.of_nat w -> 0 < al -> N.of_nat w mod al = 0 ->
  exists ds, gi_open (i_root i') (slashes k ++ joined (gs ++ [x])) = Ok (p, ds) /\
    forall e idx cnt fuel,
    get_start_count e (h_shape h) = Ok (idx, cnt) -> sel_in (h_shape h) idx cnt ->
    sel_right m (h_shape h) cs idx cnt = true ->
    N.of_nat w * (prodN cnt * N.of_nat w) < W64 -> (N.to_nat (prodN cnt) < fuel)%nat ->
    let good := Ok (concat (map (fun c => to_native_slice hst kd w (h_order h) (value c)) (slab idx cnt))) in
    (forall rc, reachable m inflate ds file rc ->
       values m hst kd w al ds (fun e dst => fst (cache_read m inflate fuel rc e dst)) e = good) /\
    (forall rd, direct_new m ds (Some file) = Ok rd ->
       values m hst kd w al ds (direct_read m inflate sort fuel rd) e = good).
Proof.
  intros HSort HN HT HPL HU E HI HFp HD HS Hw Hsz Hal Hwal.
  destruct (opened_stores m p root i i' k gs x h cs inflate file value HN HT HPL HU E HI HFp HD HS) as (ds & G & ST & SZ & FD & RG & Es & Ec & Et & Eo).
  exists ds. split; [exact G|]. intros e idx cnt fuel HG HIn HRi HW HFuel good.
  assert (Z : d_dsize ds = N.of_nat w) by congruence. assert (HW1 : prodN cnt * d_dsize ds < W64) by (rewrite Z; nia).
  assert (HF : fits64_lead cnt) by (apply (sel_lead _ idx cnt HIn); rewrite Z in HW1; nia).
  rewrite <- Es in HG, HIn, HRi. rewrite <- Ec in HRi.
  set (dst := repeat 0 (N.to_nat (prodN cnt * d_dsize ds))).
  assert (HDst : lenN dst = prodN cnt * d_dsize ds) by (unfold lenN, dst; rewrite repeat_length; lia).
  destruct (class_reads m inflate sort file ds value e idx cnt dst fuel HSort FD RG ST HG HIn HRi) as (_ & XC & XD & _); [lia|lia|exact HFuel|].
  assert (V : forall rd : extents -> bytes -> res N * bytes, rd e dst = (Ok (prodN cnt * d_dsize ds), elements value idx cnt ++ skipn (N.to_nat (prodN cnt * d_dsize ds)) dst) ->
    values m hst kd w al ds rd e = good).
  { intros rd HR. destruct (C47_values m hst kd w al ds rd e idx cnt HG HF HW1) as [_ HV]; auto; [rewrite Z; exact HW|].
    rewrite HV by (rewrite Z; apply N.mod_same; lia). fold dst. rewrite HR. unfold good.
    rewrite skipn_all2 by (unfold lenN in HDst; lia). rewrite app_nil_r, Eo. f_equal. unfold elements.
    rewrite to_native_concat, map_map; auto. apply Forall_forall. intros b Hb. apply in_map_iff in Hb as (c & <- & Hc).
    rewrite (value_length inflate file ds value idx cnt c FD ST HIn Hc), Z, Nat2N.id. apply Nat.mod_same. lia. }
  split; [intros rc Hrc; apply V; now apply XC|intros rd RD; apply V; now apply XD].
Qed.
Print Assumptions C54_class_values.

(** The numbers themselves: each is, in the byte order of the reading host, the number stored. *)
Theorem C63_class_values m p root i i' k gs x h cs inflate sort file value hi t hst kd w al :
  addr_sort sort -> named root -> typed_tree root -> lenN p < W64 -> utf8_path (Some p) ->
  index_file m (Some p) root = Ok i ->
  (i' = i \/ exists b, bincode_serialize i = Ok b /\ bincode_deserialize b = Ok i') ->
  Forall (fun c => c <> [] /\ slash_free c) (gs ++ [x]) -> h5_dataset root gs x h ->
  h5_stores inflate file h cs value -> h5_typed hi t h -> t_order t <> Vax -> t_order t <> Mixed -> t_order t <> NoOrder ->
  (0 < w)%nat -> t_size t = N.of_nat w -> 0 < al -> N.of_nat w mod al = 0 -> (kd = KInt \/ hst = HostLE) ->
  exists ds, gi_open (i_root i') (slashes k ++ joined (gs ++ [x])) = Ok (p, ds) /\
    forall e idx cnt fuel,
    get_start_count e (h_shape h) = Ok (idx, cnt) -> sel_in (h_shape h) idx cnt ->
    sel_right m (h_shape h) cs idx cnt = true ->
    N.of_nat w * (prodN cnt * N.of_nat w) < W64 -> (N.to_nat (prodN cnt) < fuel)%nat ->
    exists vs, Forall2 (fun c v => length v = w /\ num_in (native hst) v = num_in (order_of (t_order t)) (value c)) (slab idx cnt) vs /\
    (forall rc, reachable m inflate ds file rc ->
       values m hst kd w al ds (fun e dst => fst (cache_read m inflate fuel rc e dst)) e = Ok (concat vs)) /\
    (forall rd, direct_new m ds (Some file) = Ok rd ->
       values m hst kd w al ds (direct_read m inflate sort fuel rd) e = Ok (concat vs)).
Proof.
  intros HSort HN HT HPL HU E HI HFp HD HS [T1 T2] O1 O2 O3 Hw Hsz Hal Hwal HK.
  assert (HZ : dt_size (h_dtype h) = N.of_nat w) by (rewrite T1; destruct (C63_types hi t) as [-> _]; exact Hsz).
  destruct (opened_stores m p root i i' k gs x h cs inflate file value HN HT HPL HU E HI HFp HD HS) as (ds & G & ST & SZ & FD & RG & Es & Ec & Et & Eo).
  destruct (C54_class_values m p root i i' k gs x h cs inflate sort file value hst kd w al HSort HN HT HPL HU E HI HFp HD HS Hw HZ Hal Hwal) as (ds' & G' & HV).
  assert (ds' = ds) as -> by (rewrite G in G'; congruence). exists ds. split; [exact G|].
  intros e idx cnt fuel HG HIn HRi HW HFu. eexists. split; [|exact (HV e idx cnt fuel HG HIn HRi HW HFu)].
  assert (VL : Forall (fun c => length (value c) = w) (slab idx cnt)).
  { apply Forall_forall. intros c Hc. rewrite <- Es in HIn. rewrite (value_length inflate file ds value idx cnt c FD ST HIn Hc), SZ, HZ. lia. }
  rewrite T2. clear - VL O1 O2 O3 HK Hw. induction VL as [|c l Hc VL IH]; cbn [map]; constructor; auto.
  destruct (to_native_ok hst kd w 1 (order_of (t_order t)) (value c) Hw ltac:(lia) HK) as (L & HO & _).
  split; [congruence|].
  assert (HK' : order_of (t_order t) <> Unknown) by (destruct (t_order t); cbn; congruence).
  specialize (HO HK' 0%nat ltac:(lia)). unfold word in HO. cbn [Nat.mul skipn] in HO.
  rewrite !firstn_all2 in HO by lia. exact HO.
Qed.
Print Assumptions C63_class_values.
(** The file of [C54_case] (and [C101_case], for the other hypotheses), whose elements are 16-bit integers. *)
Example C54_class_values_case m : dt_size (h_dtype st_h5) = N.of_nat 2 /\ h5_typed HostLE (mkT (CInt true) 2 LittleEndian true) st_h5 /\
  get_start_count st_sel (h_shape st_h5) = Ok ([1; 2], [3; 4]) /\ sel_right m (h_shape st_h5) [2; 3] [1; 2] [3; 4] = true /\
  N.of_nat 2 * (prodN [3; 4] * N.of_nat 2) < W64.
Proof. split; [reflexivity|]. split; [split; reflexivity|]. split; [reflexivity|]. split; [destruct m; reflexivity|reflexivity]. Qed.
