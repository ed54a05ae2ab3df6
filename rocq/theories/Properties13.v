(** * Property theorems C54: from the HDF5 file to the values, end to end.

    Each theorem is followed by a concrete case meeting its hypotheses. *)
From Verif Require Import Base Spec Safe Chunk Extent Dataset Slicer SpecApi ExtentProofs ApiLemmas Filters SpecFilter FilterProofs FilterProps Reader SpecReader
  ParProofs ReaderProps ReadProofs StreamProofs ExamplesReader Examples IndexTree Serde SpecTree SpecSerde TreeProofs SerdeProofs
  S3 SpecS3 Properties1 Properties4 Properties5 Properties6 Properties7 Properties12 SpecEnd.
From Verif Require S3Errors.

Lemma std_filters_of m h ds sh gz : std_filters (h_filters h) sh gz -> dataset_index m h = Ok ds ->
  filters_of ds = h_filters h /\ (d_gzip ds = None -> gz = false) /\ (d_shuffle ds = true <-> In FShuffle (h_filters h)).
Proof.
  intros HS HI. unfold dataset_index in HI. apply bind_ok in HI as ([s g] & Eg & HI).
  apply bind_ok in HI as (chunks & _ & HI). apply bind_ok in HI as (grid & _ & HI).
  apply bind_ok in HI as (ex & _ & HI). apply bind_ok in HI as ([] & _ & HI).
  unfold dataset_new in HI. repeat (apply bind_ok in HI as (? & _ & HI)). injection HI as <-.
  unfold filters_of. cbn [d_gzip d_shuffle].
  inversion HS as [E|E|z E|z E]; subst; rewrite <- E in *; cbn in Eg; injection Eg as <- <-; cbn;
    repeat split; auto; try (intros; discriminate); try (intros [H|[]]; discriminate); easy.
Qed.

Lemma lead_pos l : Forall (fun s => 0 < s) l -> prodN l < W64 -> fits64_lead l.
Proof.
  intros HP HW k. rewrite <- (firstn_skipn k l) in HP, HW. apply Forall_app in HP as [H1 H2].
  rewrite prodN_app in HW. pose proof (prodN_pos _ H2). nia.
Qed.

(** The indexer's dataset describes the file. *)
Lemma indexed_stores m inflate file h cs value : h5_stores inflate file h cs value ->
  exists ds, datasetd_index m h = Ok ds /\ full_dataset ds /\ regular ds /\ stores inflate file ds value /\
    d_shape ds = h_shape h /\ d_chunk_shape ds = cs /\ d_dtype ds = h_dtype h /\ d_order ds = h_order h /\
    d_dsize ds = dt_size (h_dtype h) /\ has_storage h /\
    (exists chunks, h5_layout h cs chunks /\ Permutation (d_chunks ds) chunks).
Proof.
  intros [HR HP HZ HE HC (sh & gz & HF) HSh (chunks & HL & HA & HB)].
  assert (HSup : supported (h_filters h)) by (unfold supported; inversion HF as [E|E|z E|z E]; intros H; cbn in H; intuition discriminate).
  assert (EX : exists ds, dataset_index m h = Ok ds /\ full_dataset ds /\ d_shape ds = h_shape h /\ d_chunk_shape ds = cs /\
            d_dtype ds = h_dtype h /\ d_order ds = h_order h /\ Permutation (d_chunks ds) chunks /\ has_storage h).
  { destruct HZ as (Z1 & Z2 & Z3). inversion HL as [cs0 L1 L2 L3 L4 L5 L6 L7|off L1 L2 L3 L4]; subst.
    - destruct (C09_chunked m h cs L1 L2 L3 L4 L5) as [H _]; auto; [now apply fits64_pos|now apply lead_pos|repeat split; auto|].
      destruct (H L7) as (ds & E1 & E2 & E3 & E4 & E5 & E6 & E7 & _). exists ds. repeat (split; [assumption|]). now left.
    - destruct (C09_contiguous m h off L1 L2 L3 HP) as (ds & E1 & E2 & E3 & E4 & E5 & E6 & E7); auto; [repeat split; auto|].
      exists ds. rewrite E7. repeat (split; [assumption|]). split; [apply Permutation_refl|]. right. now rewrite L2. }
  destruct EX as (ds & E1 & E2 & E3 & E4 & E5 & E6 & E7 & E8).
  destruct (std_filters_of m h ds sh gz HF E1) as (F1 & F2 & F3).
  assert (E9 : d_dsize ds = dt_size (h_dtype h)) by (rewrite <- E5; apply E2).
  assert (HIn : forall c, In c (d_chunks ds) -> In c chunks) by (intros c; apply (Permutation_in c E7)).
  assert (HSS : supported_sizes ds).
  { constructor; rewrite ?E9, ?E4; try lia. intros H. apply HSh. now apply F3. }
  assert (HSA : same_addr ds) by (intros c c' H1 H2; apply HA; auto).
  exists ds. split; [unfold datasetd_index; now rewrite (proj2 (Nat.leb_le _ _) HR)|].
  split; auto. split; [|split; [|repeat (split; [assumption|]); exists chunks; auto]].
  - constructor; auto. intros HG c Hc. destruct (HB c (HIn c Hc)) as (B1 & raw & B2 & B3 & _). rewrite E4, E9, <- B3.
    apply (pipeline_length _ _ _ _ _ _ _ HF) in B2; auto. unfold file_bytes in B2. rewrite firstn_length, skipn_length in B2.
    unfold lenN in *. lia.
  - constructor; auto. intros c Hc. destruct (HB c (HIn c Hc)) as (B1 & raw & B2 & B3 & B4). split; auto. exists raw.
    rewrite F1, E9, E4, E3. split; auto. split; auto. intros x k Hx (_ & Hb & Hk). cbn [fst snd] in *. rewrite E4 in *. subst k. now apply B4.
Qed.

Lemma stores_are_readable inflate file ds value : stores inflate file ds value -> regular ds -> stores_readable inflate file ds value.
Proof. intros HS HR. constructor; auto. intros c Hc _. destruct (st_chunk _ _ _ _ HS c Hc) as (_ & H). exact H. Qed.

(** An HDF5 file is indexed, the index perhaps written out and read back in; then every reader
    of the dataset found under its path reads the values in the file: the cached reader after
    any number of reads, the direct reader, the parallel reader under every schedule, the
    stream, and the S3 reader with every honest server and order of completion.
    Missing for the full property: selections outside [sel_safe]. *)
Theorem C54_end_to_end_partial m p root i i' k gs x h cs inflate sort file value :
  addr_sort sort -> named root -> typed_tree root -> lenN p < W64 -> utf8_path (Some p) ->
  index_file m (Some p) root = Ok i ->
  (i' = i \/ exists b, bincode_serialize i = Ok b /\ bincode_deserialize b = Ok i') ->
  Forall (fun c => c <> [] /\ slash_free c) (gs ++ [x]) -> h5_dataset root gs x h ->
  h5_stores inflate file h cs value ->
  exists ds, gi_open (i_root i') (slashes k ++ joined (gs ++ [x])) = Ok (p, ds) /\
    d_shape ds = h_shape h /\ d_dtype ds = h_dtype h /\ d_order ds = h_order h /\
    (exists rc, cache_new m ds file = Ok rc) /\ (exists rd, direct_new m ds (Some file) = Ok rd) /\
    (exists rs, streamer_new m ds (Some file) = Ok rs) /\
    forall e idx cnt dst fuel,
    get_start_count e (h_shape h) = Ok (idx, cnt) -> sel_in (h_shape h) idx cnt ->
    sel_safe (h_shape h) cs idx cnt = true ->
    let n := prodN cnt * dt_size (h_dtype h) in
    let vs := concat (map value (slab idx cnt)) in
    n <= lenN dst -> lenN dst < W64 -> (N.to_nat (prodN cnt) < fuel)%nat ->
    lenN vs = n /\
    (forall rc, reachable m inflate ds file rc -> fst (cache_read m inflate fuel rc e dst) = (Ok n, vs ++ skipn (N.to_nat n) dst)) /\
    (forall rd, direct_new m ds (Some file) = Ok rd ->
       direct_read m inflate sort fuel rd e dst = (Ok n, vs ++ skipn (N.to_nat n) dst) /\
       (exists y d, par_read m inflate sort fuel rd e dst y d) /\
       (forall y d, par_read m inflate sort fuel rd e dst y d -> y = Ok n /\ d = vs ++ skipn (N.to_nat n) dst)) /\
    (forall rs, streamer_new m ds (Some file) = Ok rs ->
       exists items, stream m inflate fuel rs e = Ok (items, SEnd) /\ concat items = vs) /\
    (forall srv r, honours file srv -> s3_new m ds srv = Ok r ->
       (forall c, In c (d_chunks ds) -> 0 < c_size c) -> lenN file < W64 ->
       (exists y d, s3_read m inflate sort fuel r e dst y d) /\
       (forall y d, s3_read m inflate sort fuel r e dst y d -> y = Ok n /\ d = vs ++ skipn (N.to_nat n) dst)).
Proof.
  intros HSort HN HT HPL HU E HI HFp HD HS.
  assert (i' = i) as ->.
  { destruct HI as [->|(b & E1 & E2)]; auto. destruct (C41_indexed m (Some p) root i HN HT) as (b' & E3 & E4); auto; [intros s [= <-]; auto|].
    congruence. }
  destruct (indexed_stores m inflate file h cs value HS) as (ds & D1 & D2 & D3 & D4 & D5 & D6 & D7 & D8 & D9 & D10 & _).
  destruct (C43_exact m (Some p) root i HN E) as (K1 & _ & K2 & _).
  exists ds. split.
  { assert (G : gi_dataset (i_root i) (slashes k ++ joined (gs ++ [x])) = Some ds) by (apply K1; eauto).
    assert (GP : gi_path (i_root i) = Some p) by (apply (K2 []); constructor).
    unfold gi_open. now rewrite GP, G. }
  do 3 (split; [assumption|]).
  pose proof (chunk_bytes_ok m ds (wm_pos _ (fd_made _ D2)) (rg_sizes _ D3)) as ECB.
  assert (EC : exists rc, cache_new m ds file = Ok rc).
  { unfold cache_new. rewrite ECB. cbn [bind].
    unfold cache_cap, div64. assert (HC : 0 < csize ds).
    { unfold csize. pose proof (prodN_pos _ (wm_pos _ (fd_made _ D2))). pose proof (ss_pos _ (rg_sizes _ D3)). nia. }
    unfold csize in HC. rewrite (proj2 (N.eqb_neq (prodN (d_chunk_shape ds) * d_dsize ds) 0)) by lia. cbn [bind]. eauto. }
  split; [exact EC|].
  split; [unfold direct_new; rewrite ECB; cbn [bind]; eauto|]. split; [unfold streamer_new; rewrite ECB; cbn [bind]; eauto|].
  intros e idx cnt dst fuel HG HIn HSafe n vs Hn HW HFuel.
  assert (SR : safe_read ds e idx cnt dst fuel).
  { constructor; auto; rewrite ?D5, ?D6, ?D9; auto. }
  assert (HCached : forall rc, reachable m inflate ds file rc -> fst (cache_read m inflate fuel rc e dst) = (Ok n, vs ++ skipn (N.to_nat n) dst) /\ lenN vs = n).
  { intros rc HR. unfold n, vs. rewrite <- D9. exact (C21_cached_partial m inflate file ds value e idx cnt dst fuel rc D4 SR HR). }
  assert (HA : same_addr ds) by apply D3.
  assert (Hd : 0 < d_dsize ds) by apply D3.
  destruct EC as [rc0 EC]. assert (R0 : reachable m inflate ds file rc0) by (now constructor).
  destruct (HCached rc0 R0) as [C0 CL].
  split; auto. split; [intros rc HR; now apply HCached|]. split; [|split].
  - intros rd ED. pose proof C0 as DR. apply (C24_agree m inflate sort fuel ds file rc0 rd e dst) in DR; auto. split; auto.
    destruct (C25_schedules m inflate sort fuel ds file rd e dst HSort HA Hd HW ED) as (P1 & _ & _ & P2). split; auto.
  - intros rs ES. destruct (C35_agrees m inflate fuel ds file rc0 rs e dst _ _ HA R0 ES C0) as (items & E1 & E2).
    exists items. split; auto.
    destruct (C35_stream_partial m inflate file ds value e idx cnt fuel rs (stores_are_readable _ _ _ _ D4 D3)) as (it & z & q & E3 & E4 & E5 & _); auto.
    { destruct SR. constructor; auto. }
    rewrite E1 in E3. injection E3 as <- <-. destruct E5 as [(-> & _ & _)|(y & c & kk & er & _ & _ & _ & E5)]; [|discriminate].
    rewrite firstn_all in E4. exact E4.
  - intros srv r HH ER HZ HFL. split; [apply S3Errors.s3_exists|]. intros y d HY. unfold n, vs. rewrite <- D9.
    apply (C33_values m inflate sort fuel ds file srv r value e idx cnt dst) with (x := y) (d := d) in ER; auto.
    intros c Hc. split; auto. destruct (st_chunk _ _ _ _ D4 c Hc) as (Hle & _). lia.
Qed.
Print Assumptions C54_end_to_end_partial.

(** [values] of the dataset found, from a reader in any state: the values in the host's order. *)
Theorem C54_values_partial m p root i k gs x h cs inflate file value hst kd w al :
  named root -> index_file m (Some p) root = Ok i ->
  Forall (fun c => c <> [] /\ slash_free c) (gs ++ [x]) -> h5_dataset root gs x h ->
  h5_stores inflate file h cs value ->
  (0 < w)%nat -> dt_size (h_dtype h) = N.of_nat w -> 0 < al -> N.of_nat w mod al = 0 ->
  exists ds, gi_open (i_root i) (slashes k ++ joined (gs ++ [x])) = Ok (p, ds) /\
    forall e idx cnt fuel rc,
    get_start_count e (h_shape h) = Ok (idx, cnt) -> sel_in (h_shape h) idx cnt ->
    sel_safe (h_shape h) cs idx cnt = true ->
    N.of_nat w * (prodN cnt * N.of_nat w) < W64 -> (N.to_nat (prodN cnt) < fuel)%nat ->
    reachable m inflate ds file rc ->
    values m hst kd w al ds (fun e dst => fst (cache_read m inflate fuel rc e dst)) e =
      Ok (concat (map (fun c => to_native_slice hst kd w (h_order h) (value c)) (slab idx cnt))).
Proof.
  intros HN E HFp HD HS Hw Hsz Hal Hwal.
  destruct (indexed_stores m inflate file h cs value HS) as (ds & D1 & D2 & D3 & D4 & D5 & D6 & D7 & D8 & D9 & D10 & _).
  destruct (C43_exact m (Some p) root i HN E) as (K1 & _ & K2 & _).
  exists ds. split.
  { assert (G : gi_dataset (i_root i) (slashes k ++ joined (gs ++ [x])) = Some ds) by (apply K1; eauto).
    assert (GP : gi_path (i_root i) = Some p) by (apply (K2 []); constructor).
    unfold gi_open. now rewrite GP, G. }
  intros e idx cnt fuel rc HG HIn HSafe HW HFuel HR.
  assert (HW1 : prodN cnt * d_dsize ds < W64) by (rewrite D9, Hsz; nia).
  assert (HF : fits64_lead cnt) by (apply (sel_lead _ idx cnt HIn); rewrite D9, Hsz in HW1; nia).
  rewrite <- D5 in HG, HIn, HSafe. rewrite <- D6 in HSafe.
  destruct (C47_values m hst kd w al ds (fun e dst => fst (cache_read m inflate fuel rc e dst)) e idx cnt HG HF HW1) as [_ HV]; auto.
  { rewrite D9, Hsz. exact HW. }
  rewrite HV by (rewrite D9, Hsz; apply N.mod_same; lia). clear HV.
  set (dst := repeat 0 (N.to_nat (prodN cnt * d_dsize ds))).
  assert (HDst : lenN dst = prodN cnt * d_dsize ds) by (unfold lenN, dst; rewrite repeat_length; lia).
  assert (SR : safe_read ds e idx cnt dst fuel) by (constructor; auto; lia).
  destruct (C21_cached_partial m inflate file ds value e idx cnt dst fuel rc D4 SR HR) as [-> _].
  rewrite skipn_all2 by (unfold lenN in HDst; lia). rewrite app_nil_r, D8. f_equal.
  rewrite to_native_concat, map_map; auto. apply Forall_forall. intros b Hb. apply in_map_iff in Hb as (c & <- & Hc).
  rewrite (value_length inflate file ds value idx cnt c D2 D4 HIn Hc), D9, Hsz, Nat2N.id. apply Nat.mod_same. lia.
Qed.
Print Assumptions C54_values_partial.

(** The size of a dataset is the number of its elements. *)
Theorem C54_size m ds : fits64_lead (d_shape ds) ->
  dataset_size m ds = Ok (lenN (slab (map (fun _ => 0) (d_shape ds)) (d_shape ds))) /\
  (forall x, In x (slab (map (fun _ => 0) (d_shape ds)) (d_shape ds)) <-> in_shape x (d_shape ds)) /\
  (is_scalar ds = true <-> length (d_shape ds) = 0%nat).
Proof.
  intros H. split; [|split].
  - unfold dataset_size. rewrite slab_length by apply map_length. now apply product64_lead.
  - intros x. destruct (selection_all (d_shape ds) x) as (idx & cnt & E & HI). rewrite get_start_count_all in E.
    injection E as <- <-. exact HI.
  - unfold is_scalar. destruct (d_shape ds); cbn [length]; split; intros; auto; discriminate.
Qed.
Print Assumptions C54_size.

(** The file of ExamplesReader.v, its dataset as "/g/x", chunks reported in some order. *)
Definition st_h5 : h5ds := mkH5 [4; 6] (Some [2; 3]) true None 0
  [mkChunk 43 13 [2; 3]; mkChunk 4 13 [0; 0]; mkChunk 17 13 [2; 0]; mkChunk 30 13 [0; 3]] [FShuffle; FDeflate 4] (Int 2) LE.
Definition st_tree : h5group := mkHG true [([103], HGroup (mkHG true [([120], HData st_h5)]))].
Lemma st_h5_stores : h5_stores toy_inflate st_file st_h5 [2; 3] st_value.
Proof.
  constructor.
  - cbn. lia.
  - repeat constructor.
  - repeat split; repeat constructor.
  - split; reflexivity.
  - reflexivity.
  - exists true, true. constructor.
  - intros _. right. now left.
  - exists (h_visit st_h5). assert (HC : forall c, In c (h_visit st_h5) -> In c (d_chunks st_ds)).
    { intros c. cbn. tauto. }
    split; [|split].
    + apply lay_chunked; try reflexivity; [repeat constructor|]. split.
      * repeat constructor; cbn; intuition discriminate.
      * apply Forall_forall. intros c Hc. cbn in Hc. destruct Hc as [<-|[<-|[<-|[<-|[]]]]]; vm_compute; auto.
    + intros c c' H1 H2. exact (rg_addr _ st_regular c c' (HC c H1) (HC c' H2)).
    + intros c Hc. destruct (st_chunk _ _ _ _ st_stores c (HC c Hc)) as (H1 & raw & H2 & H3 & H4). split; auto.
      exists raw. split; [exact H2|]. split; [exact H3|]. intros x Hx Hb. apply H4; auto. split; [exact (HC c Hc)|]. split; auto.
Qed.
Example C54_case m : named st_tree /\ typed_tree st_tree /\ h5_dataset st_tree [[103]] [120] st_h5 /\
  h5_stores toy_inflate st_file st_h5 [2; 3] st_value /\
  (exists i, index_file m (Some [47; 116]) st_tree = Ok i) /\
  get_start_count st_sel (h_shape st_h5) = Ok ([1; 2], [3; 4]) /\ sel_safe [4; 6] [2; 3] [1; 2] [3; 4] = true.
Proof.
  assert (S1 : slash_free [103]) by (apply slash_free_b; reflexivity).
  assert (S2 : slash_free [120]) by (apply slash_free_b; reflexivity).
  split; [|split; [|split; [|split; [exact st_h5_stores|split; [|split; reflexivity]]]]].
  - constructor.
    + repeat constructor. cbn. tauto.
    + repeat constructor; cbn; auto. discriminate.
    + intros c g [E|[]]. injection E as _ <-. constructor.
      * repeat constructor. cbn. tauto.
      * repeat constructor; cbn; auto. discriminate.
      * intros c' g' [E|[]]. discriminate.
  - assert (HT : typed_h5 st_h5).
    { constructor.
      - small.
      - repeat constructor.
      - intros c [= <-]. split; [reflexivity|repeat constructor].
      - discriminate.
      - reflexivity.
      - repeat constructor.
      - reflexivity.
      - intros z [E|[E|[]]]; [discriminate|]. injection E as <-. reflexivity.
      - reflexivity. }
    constructor.
    + repeat constructor.
    + reflexivity.
    + intros k d [E|[]]. discriminate.
    + intros k g [E|[]]. injection E as _ <-. constructor.
      * repeat constructor.
      * reflexivity.
      * intros k' d [E|[]]. injection E as _ <-. exact HT.
      * intros k' g' [E|[]]. discriminate.
  - eexists. split; [eapply hg_down; [left; reflexivity|constructor]|]. now left.
  - destruct m; eexists; reflexivity.
Qed.
