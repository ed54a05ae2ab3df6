(** * [values] and the whole chain from the HDF5 file are exact (C37, C47, C54).

    Each theorem is followed by a concrete case meeting its hypotheses. *)
From Verif Require Import Base Spec Safe Chunk Extent Dataset Slicer SpecApi Filters SpecFilter FilterProofs FilterProps ApiLemmas
  Reader SpecReader DirectProofs ParProofs ReaderProps ReadProofs CacheProofs StreamProofs ExamplesReader Examples SliceProps ExactReads
  SlicerRelease2 ExactFamily IndexTree Serde SpecTree SpecSerde TreeProofs SerdeProofs SpecEnd
  Properties1 Properties4 Properties5 Properties6 Properties7 Properties10 Properties12 Properties13 Properties23 Properties24.

(** ** [values] *)

Lemma to_native_twice h k w o l n : (0 < w)%nat -> length l = (w * n)%nat ->
  to_native_slice h k w o (to_native_slice h k w o l) = l.
Proof.
  intros Hw HL.
  assert (Hsw : forall v, length v = w -> length (swap h k v) = w).
  { intros v Hv. destruct k, h; cbn [swap]; auto; now rewrite rev_length. }
  assert (HT : map_words w (swap h k) (map_words w (swap h k) l) = l).
  { destruct (map_words_length w n (swap h k) l Hw HL Hsw) as [A B].
    unfold map_words at 1. rewrite A, HL.
    replace (w * n / w)%nat with n by (rewrite Nat.mul_comm, Nat.div_mul; lia). rewrite B, map_map.
    erewrite map_ext; [rewrite map_id; now apply words_concat|].
    intros v. destruct k, h; cbn [swap]; auto; apply rev_involutive. }
  destruct h, o; cbn [to_native_slice]; auto.
Qed.

Lemma to_native_inj h k w o l l' n : (0 < w)%nat -> length l = (w * n)%nat -> length l' = (w * n)%nat ->
  to_native_slice h k w o l = to_native_slice h k w o l' -> l = l'.
Proof.
  intros Hw HL HL' E. rewrite <- (to_native_twice h k w o l n Hw HL), E. now apply to_native_twice with (n := n).
Qed.

(** The bytes [values] has to return: every selected element, in the host's order. *)
Definition native_values (h : host) (k : kind) (w : nat) (ds : dataset) (value : list N -> bytes) (idx cnt : list N) : bytes :=
  concat (map (fun x => to_native_slice h k w (d_order ds) (value x)) (slab idx cnt)).

(** [values] over any reader that returns the destination unchanged in length, for a Rust type
    with the size of the element: the values are returned if and only if the reader returns the
    bytes of the selection. *)
Lemma values_reads m h k w al inflate file ds value e idx cnt fuel read :
  distinct_stream m inflate file ds value e idx cnt fuel ->
  d_dsize ds * (prodN cnt * d_dsize ds) < W64 ->
  d_dsize ds = N.of_nat w -> 0 < al -> N.of_nat w mod al = 0 ->
  let dst := repeat 0 (N.to_nat (prodN cnt * d_dsize ds)) in
  (forall v d, read e dst = (Ok v, d) -> lenN d = lenN dst /\ v = prodN cnt * d_dsize ds) ->
  (values m h k w al ds read e = Ok (native_values h k w ds value idx cnt) <->
   read e dst = (Ok (prodN cnt * d_dsize ds), concat (map value (slab idx cnt)))).
Proof.
  intros [A1 A2 A3 A4 A5 A6 A7 A8 A9] HW2 Hsz Hal Hwal dst Hlen.
  assert (Hw : (0 < w)%nat) by (pose proof (ss_pos _ (rg_sizes _ A2)); lia).
  assert (HF : fits64_lead cnt) by (apply (sel_lead _ idx cnt A6); clear - A7 Hsz Hw; nia).
  destruct (C47_values m h k w al ds read e idx cnt A5 HF A7 HW2 Hw Hal Hwal) as [_ HV].
  rewrite HV by (rewrite Hsz; apply N.mod_same; lia). clear HV. fold dst.
  assert (LD : lenN dst = prodN cnt * d_dsize ds) by (unfold lenN, dst; rewrite repeat_length; lia).
  assert (EN : native_values h k w ds value idx cnt = to_native_slice h k w (d_order ds) (concat (map value (slab idx cnt)))).
  { unfold native_values. rewrite to_native_concat, map_map; auto. apply Forall_forall. intros b Hb.
    apply in_map_iff in Hb as (c & <- & Hc).
    rewrite (value_length inflate file ds value idx cnt c A1 A3 A6 Hc), Hsz, Nat2N.id. apply Nat.mod_same. lia. }
  pose proof (slab_bytes_len inflate file ds value idx cnt A1 A3 A6) as LV.
  assert (LN : N.to_nat (prodN cnt * d_dsize ds) = (w * N.to_nat (prodN cnt))%nat) by (rewrite Hsz; lia).
  split; intros H.
  - destruct (read e dst) as [[v| | | |] d] eqn:ER; cbn [failed] in H; try discriminate.
    destruct (Hlen v d eq_refl) as [L1 ->]. injection H as H. rewrite EN in H.
    apply to_native_inj with (n := N.to_nat (prodN cnt)) in H; auto; [now rewrite H| |]; unfold lenN in *; lia.
  - rewrite H. now rewrite EN.
Qed.

Lemma cache_read_v m inflate fuel ds file rc e idx cnt dst v d : same_addr ds -> reachable m inflate ds file rc ->
  get_start_count e (d_shape ds) = Ok (idx, cnt) -> fits64_lead cnt -> prodN cnt * d_dsize ds < W64 ->
  fst (cache_read m inflate fuel rc e dst) = (Ok v, d) -> lenN d = lenN dst /\ v = prodN cnt * d_dsize ds.
Proof.
  intros HA HC HG HF HW H. pose proof (cache_read_len m inflate fuel rc e dst) as HL. rewrite H in HL. cbn [snd] in HL.
  split; [exact HL|]. destruct (reachable_inv m inflate ds file rc HA HC) as (HD & _). unfold cache_read in H. rewrite HD in H.
  rewrite (read_size_eq m ds e dst idx cnt HG HF HW) in H. destruct (_ <=? _); [|discriminate].
  destruct (chunk_slices m fuel ds e) as [segs st]. destruct (cache_loop _ _ _ _ _ _ _ _) as [[x d'] c].
  destruct x as [u| | | |]; cbn [fst bind] in H; congruence.
Qed.

(** [values] from a cached reader in any state, with a type of the size of the element (as the
    library chooses for a dataset): exactly the selected values, in the host's order, if the
    selection is in the class - and something else, or an error, whenever it is not.
    (Both build modes; in release the sizes have to be far from 2^64.) *)
Theorem C47_distinct m h k w al inflate file ds value e idx cnt fuel rc :
  distinct_stream m inflate file ds value e idx cnt fuel ->
  d_dsize ds * (prodN cnt * d_dsize ds) < W64 ->
  d_dsize ds = N.of_nat w -> 0 < al -> N.of_nat w mod al = 0 ->
  reachable m inflate ds file rc ->
  (values m h k w al ds (fun e dst => fst (cache_read m inflate fuel rc e dst)) e = Ok (native_values h k w ds value idx cnt) <->
   sel_safe (d_shape ds) (d_chunk_shape ds) idx cnt = true).
Proof.
  intros HD HW2 Hsz Hal Hwal HC. pose proof HD as [A1 A2 A3 A4 A5 A6 A7 A8 A9].
  assert (HA : same_addr ds) by apply A3.
  assert (HF : fits64_lead cnt) by (apply (sel_lead _ idx cnt A6); pose proof (ss_pos _ (rg_sizes _ A2)); clear - A7 H; nia).
  rewrite (values_reads m h k w al inflate file ds value e idx cnt fuel _ HD HW2 Hsz Hal Hwal)
    by (intros v d H; exact (cache_read_v m inflate fuel ds file rc e idx cnt _ v d HA HC A5 HF A7 H)).
  set (dst := repeat 0 (N.to_nat (prodN cnt * d_dsize ds))).
  assert (L : lenN dst = prodN cnt * d_dsize ds) by (unfold lenN, dst; rewrite repeat_length; lia).
  rewrite <- (C21_distinct m inflate file ds value e idx cnt dst fuel rc); auto.
  - rewrite skipn_all2 by (unfold lenN in L; lia). now rewrite app_nil_r.
  - constructor; auto; try (rewrite L; auto; apply N.le_refl). intros M. destruct (A8 M). rewrite L. auto.
Qed.
Print Assumptions C47_distinct.

(** The same for the direct reader, *)
Theorem C47_distinct_direct m h k w al inflate sort file ds value e idx cnt fuel rd : addr_sort sort ->
  distinct_stream m inflate file ds value e idx cnt fuel ->
  d_dsize ds * (prodN cnt * d_dsize ds) < W64 ->
  d_dsize ds = N.of_nat w -> 0 < al -> N.of_nat w mod al = 0 ->
  direct_new m ds (Some file) = Ok rd ->
  (values m h k w al ds (direct_read m inflate sort fuel rd) e = Ok (native_values h k w ds value idx cnt) <->
   sel_safe (d_shape ds) (d_chunk_shape ds) idx cnt = true).
Proof.
  intros HSort HD HW2 Hsz Hal Hwal HN. pose proof HD as [A1 A2 A3 A4 A5 A6 A7 A8 A9].
  assert (HA : same_addr ds) by apply A3. assert (Hd : 0 < d_dsize ds) by apply A3.
  assert (HF : fits64_lead cnt) by (apply (sel_lead _ idx cnt A6); clear - A7 Hd; nia).
  destruct (new_sized m ds file A1 (rg_sizes _ A2)) as [[rc Hrc] _]. apply (rc_new m inflate) in Hrc.
  set (dst := repeat 0 (N.to_nat (prodN cnt * d_dsize ds))).
  assert (L : lenN dst = prodN cnt * d_dsize ds) by (unfold lenN, dst; rewrite repeat_length; lia).
  assert (AG : forall v d, fst (cache_read m inflate fuel rc e dst) = (Ok v, d) <-> direct_read m inflate sort fuel rd e dst = (Ok v, d)).
  { intros v d. apply (C24_agree m inflate sort fuel ds file rc rd e dst v d HSort HA Hd); auto. now rewrite L. }
  rewrite (values_reads m h k w al inflate file ds value e idx cnt fuel _ HD HW2 Hsz Hal Hwal).
  2:{ intros v d H. apply AG in H. exact (cache_read_v m inflate fuel ds file rc e idx cnt _ v d HA Hrc A5 HF A7 H). }
  fold dst. rewrite <- (C24_distinct m inflate sort file ds value e idx cnt dst fuel rd); auto.
  - rewrite skipn_all2 by (unfold lenN in L; lia). now rewrite app_nil_r.
  - constructor; auto; try (rewrite L; auto; apply N.le_refl). intros M. destruct (A8 M). rewrite L. auto.
Qed.
Print Assumptions C47_distinct_direct.

Example C47_distinct_case m inflate h : exists rc,
  distinct_stream m inflate words_file bad_ds bad_value All [0; 0; 0] [4; 3; 5] 61 /\
  reachable m inflate bad_ds words_file rc /\ d_dsize bad_ds = N.of_nat 4 /\
  sel_safe (d_shape bad_ds) (d_chunk_shape bad_ds) [0; 0; 0] [4; 3; 5] = false /\
  values m h KInt 4 4 bad_ds (fun e dst => fst (cache_read m inflate 61 rc e dst)) All <>
    Ok (native_values h KInt 4 bad_ds bad_value [0; 0; 0] [4; 3; 5]).
Proof.
  destruct (C35_distinct_case m inflate) as (_ & _ & D & S & _ & _). 
  destruct (new_sized m bad_ds words_file (dt_full _ _ _ _ _ _ _ _ _ D) (rg_sizes _ (dt_reg _ _ _ _ _ _ _ _ _ D))) as [[rc Hrc] _].
  apply (rc_new m inflate) in Hrc. exists rc. repeat (split; auto).
  intros H. apply (C47_distinct m h KInt 4 4 inflate words_file bad_ds bad_value All [0; 0; 0] [4; 3; 5] 61 rc D) in H; auto; try reflexivity.
  rewrite S in H. discriminate.
Qed.

(** ** From the HDF5 file *)

(** No two cells of the decoded chunks of the file, padding included, have the same bytes. *)
Definition h5_distinct (inflate : bytes -> option bytes) (file : bytes) (h : h5ds) (cs : list N) : Prop :=
  let w := N.to_nat (dt_size (h_dtype h)) in
  forall chunks, h5_layout h cs chunks ->
  forall c c' raw raw' k k', In c chunks -> In c' chunks ->
    pipeline inflate w (h_filters h) raw (file_bytes file (c_addr c) (c_size c)) ->
    pipeline inflate w (h_filters h) raw' (file_bytes file (c_addr c') (c_size c')) ->
    k < prodN cs -> k' < prodN cs ->
    word w (N.to_nat k) raw = word w (N.to_nat k') raw' -> c = c' /\ k = k'.

(** An HDF5 file is indexed, the index perhaps written out and read back in.  If no two
    elements of the dataset have the same bytes, each of the readers of the dataset found under
    its path reads the values in the file if and only if the selection is in the class
    [sel_safe]: the cached reader after any number of reads, the direct reader, the parallel
    reader under each schedule, the stream, and [values].  *)
Theorem C54_exact m p root i i' k gs x h cs inflate sort file value :
  addr_sort sort -> named root -> typed_tree root -> lenN p < W64 -> utf8_path (Some p) ->
  index_file m (Some p) root = Ok i ->
  (i' = i \/ exists b, bincode_serialize i = Ok b /\ bincode_deserialize b = Ok i') ->
  Forall (fun c => c <> [] /\ slash_free c) (gs ++ [x]) -> h5_dataset root gs x h ->
  h5_stores inflate file h cs value -> h5_distinct inflate file h cs ->
  exists ds, gi_open (i_root i') (slashes k ++ joined (gs ++ [x])) = Ok (p, ds) /\
    forall e idx cnt fuel,
    get_start_count e (h_shape h) = Ok (idx, cnt) -> sel_in (h_shape h) idx cnt ->
    let sz := dt_size (h_dtype h) in
    let n := prodN cnt * sz in
    let vs := concat (map value (slab idx cnt)) in
    let dst := repeat 0 (N.to_nat n) in
    n < W64 -> (N.to_nat (prodN cnt) < fuel)%nat ->
    (m = Release -> (2 * prodN cnt + 3 * prodN cs) * sz < W64 /\ single_end cs cnt = false) ->
    (forall rc, reachable m inflate ds file rc ->
       (fst (cache_read m inflate fuel rc e dst) = (Ok n, vs) <-> sel_safe (h_shape h) cs idx cnt = true)) /\
    (forall rd, direct_new m ds (Some file) = Ok rd ->
       (direct_read m inflate sort fuel rd e dst = (Ok n, vs) <-> sel_safe (h_shape h) cs idx cnt = true) /\
       (forall y d, par_read m inflate sort fuel rd e dst y d ->
          (y = Ok n /\ d = vs <-> sel_safe (h_shape h) cs idx cnt = true))) /\
    (forall rs, streamer_new m ds (Some file) = Ok rs ->
       ((exists items, stream m inflate fuel rs e = Ok (items, SEnd) /\ concat items = vs) <->
        sel_safe (h_shape h) cs idx cnt = true)) /\
    (forall hst kd w al rc, reachable m inflate ds file rc -> sz = N.of_nat w -> 0 < al -> N.of_nat w mod al = 0 -> sz * n < W64 ->
       (values m hst kd w al ds (fun e dst => fst (cache_read m inflate fuel rc e dst)) e =
          Ok (concat (map (fun c => to_native_slice hst kd w (h_order h) (value c)) (slab idx cnt))) <->
        sel_safe (h_shape h) cs idx cnt = true)).
Proof.
  intros HSort HN HT HPL HU E HI HFp HD HS HX.
  assert (i' = i) as ->.
  { destruct HI as [->|(b & E1 & E2)]; auto. destruct (C41_indexed m (Some p) root i HN HT) as (b' & E3 & E4); auto; [intros s [= <-]; auto|].
    congruence. }
  destruct (indexed_stores m inflate file h cs value HS) as (ds & D1 & D2 & D3 & D4 & D5 & D6 & D7 & D8 & D9 & D10 & chunks & D11 & D12).
  destruct (C43_exact m (Some p) root i HN E) as (K1 & _ & K2 & _).
  exists ds. split.
  { assert (G : gi_dataset (i_root i) (slashes k ++ joined (gs ++ [x])) = Some ds) by (apply K1; eauto).
    assert (GP : gi_path (i_root i) = Some p) by (apply (K2 []); constructor).
    unfold gi_open. now rewrite GP, G. }
  assert (FE : filters_of ds = h_filters h).
  { destruct (hs_filters _ _ _ _ _ HS) as (sh & gz & HFl). unfold datasetd_index in D1.
    destruct (length (h_shape h) <=? 9)%nat; [|discriminate]. now apply (std_filters_of m h ds sh gz). }
  assert (DC : distinct_cells inflate file ds).
  { intros c c' raw raw' j j' Hc Hc' P P' Hj Hj' W. rewrite D9, FE in P, P'. rewrite D6 in Hj, Hj'. rewrite D9 in W.
    exact (HX chunks D11 c c' raw raw' j j' (Permutation_in _ D12 Hc) (Permutation_in _ D12 Hc') P P' Hj Hj' W). }
  intros e idx cnt fuel HG HIn sz n vs dst Hn HFuel HM.
  assert (DT : distinct_stream m inflate file ds value e idx cnt fuel).
  { constructor; rewrite ?D5, ?D6, ?D9; auto. }
  assert (L : lenN dst = prodN cnt * d_dsize ds) by (unfold lenN, dst, n, sz; rewrite repeat_length, D9; lia).
  assert (DCa : distinct_case m inflate file ds value e idx cnt dst fuel).
  { destruct DT as [A1 A2 A3 A4 A5 A6 A7 A8 A9]. constructor; auto; try (rewrite L; auto; apply N.le_refl).
    intros M. destruct (A8 M). rewrite L. auto. }
  assert (SK : skipn (N.to_nat (prodN cnt * d_dsize ds)) dst = []) by (apply skipn_all2; unfold lenN in L; lia).
  unfold n, sz, vs in *. rewrite <- D5, <- D6, <- D9, <- D8 in *. split; [|split; [|split]].
  - intros rc HR. rewrite <- (C21_distinct m inflate file ds value e idx cnt dst fuel rc DCa HR). now rewrite SK, app_nil_r.
  - intros rd HR. split.
    + rewrite <- (C24_distinct m inflate sort file ds value e idx cnt dst fuel rd HSort DCa HR). now rewrite SK, app_nil_r.
    + intros y d HP. rewrite <- (C25_distinct m inflate sort file ds value e idx cnt dst fuel rd y d HSort DCa HR HP). now rewrite SK, app_nil_r.
  - intros rs HR. exact (C35_distinct m inflate file ds value e idx cnt fuel rs DT HR).
  - intros hst kd w al rc HR Hw Hal Hwal HW2. exact (C47_distinct m hst kd w al inflate file ds value e idx cnt fuel rc DT HW2 Hw Hal Hwal HR).
Qed.
Print Assumptions C54_exact.

(** The file of [C54_case]: its elements are all different; [h5_distinct] is what [st_cells] says. *)
Example C54_exact_case : h5_stores toy_inflate st_file st_h5 [2; 3] st_value /\ h5_distinct toy_inflate st_file st_h5 [2; 3] /\
  sel_safe [4; 6] [2; 3] [1; 2] [3; 4] = true.
Proof.
  split; [exact st_h5_stores|]. split; [|reflexivity].
  unfold h5_distinct. intros chunks HL c c' raw raw' k k' Hc Hc' P P' Hk Hk' W.
  assert (HC : forall c, In c chunks -> In c (d_chunks st_ds)).
  { inversion HL; subst. intros a Ha. cbn in Ha |- *. tauto. }
  exact (st_cells c c' raw raw' k k' (HC c Hc) (HC c' Hc') P P' Hk Hk' W).
Qed.
