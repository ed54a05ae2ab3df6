(** * Streams are exact (C35) and streams that end determine reads.

    Each theorem is followed by a concrete case meeting its hypotheses. *)
From Verif Require Import Base Spec Safe Chunk Extent Dataset Slicer SpecApi Filters SpecFilter FilterProofs FilterProps ApiLemmas
  Reader SpecReader DirectProofs ParProofs ReaderProps ReadProofs CacheProofs StreamProofs ExamplesReader Examples SliceProps ExactReads
  SlicerRelease2 ExactFamily Properties4 Properties5 Properties10 Properties12 Properties23.

Lemma mul64_lt m a b r : mul64 m a b = Ok r -> r < W64.
Proof.
  unfold mul64. destruct (N.ltb_spec (a * b) W64); [intros [= <-]; auto|].
  destruct m; [discriminate|]. intros [= <-]. apply N.mod_lt. discriminate.
Qed.

(** If the stream ends without error every segment was within its chunk. *)
Lemma segs_of_splain m L dsz : forall segs l items, byte_slices m dsz segs = Ok l ->
  splain m L (Ok 1) l = (items, SEnd) -> Forall2 (seg_ok m L dsz) segs items.
Proof.
  induction segs as [|[[c a] b] segs IH]; intros l items HL HS.
  - injection HL as <-. injection HS as <-. constructor.
  - cbn [byte_slices] in HL. apply bind_ok in HL as (s & Es & HL). apply bind_ok in HL as (e & Ee & HL).
    apply bind_ok in HL as (l' & El & HL). injection HL as <-. cbn [splain] in HS. unfold srange in HS. cbn [bind] in HS.
    pose proof (mul64_lt _ _ _ _ Es) as Hs. pose proof (mul64_lt _ _ _ _ Ee) as He.
    rewrite !mul64_ok in HS by lia. cbn [bind] in HS. rewrite !N.mul_1_r in HS.
    set (R := let* (s0, e0) := let* _ := dbg m (s <=? e) in Ok (s, e) in
              let* data := L c in take_slice m data s0 e0) in *.
    destruct R as [o| | | |] eqn:ER; try discriminate.
    destruct (splain m L (Ok 1) l') as [bs z] eqn:E'. injection HS as <- ->.
    constructor; [|eapply IH; eauto].
    unfold R in ER. apply bind_ok in ER as ([s0 e0] & E0 & ER). apply bind_ok in E0 as (u & _ & E0). injection E0 as <- <-.
    apply bind_ok in ER as (data & ED & ER). unfold take_slice in ER.
    apply bind_ok in ER as (u1 & _ & ER). apply bind_ok in ER as (u2 & _ & ER).
    apply slice_range_ok in ER as (B1 & B2 & ->). exists s, e, data. auto 10.
Qed.

Lemma segs_of_stream m inflate fuel file ds csz e items : same_addr ds ->
  stream m inflate fuel (mkStreamer ds (Some file) csz) e = Ok (items, SEnd) ->
  exists segs, chunk_slices m fuel ds e = (segs, SDone) /\ Forall2 (seg_ok m (load m inflate file ds csz) (d_dsize ds)) segs items.
Proof.
  intros HA H. unfold stream in H. cbn [sr_ds sr_file sr_csz] in H.
  apply bind_ok in H as (l & El & H). apply bind_ok in H as (cap & Ecap & H). injection H as H.
  unfold collect_slices in El. destruct (chunk_slices m fuel ds e) as [segs st] eqn:EX.
  apply bind_ok in El as (l' & El & E'). apply bind_ok in E' as (u & Est & E'). injection E' as ->.
  destruct st; try discriminate. exists segs. split; auto.
  apply segs_of_splain with (l := l); auto. rewrite <- H. symmetry.
  apply (stream_loop_plain m _ cap (Ok 1) (fun c => In c (d_chunks ds))).
  - intros c c' H1 H2 H3. apply load_same; auto.
  - pose proof (slices_in m fuel ds e) as SI. rewrite EX in SI. cbn [fst] in SI.
    clear - El SI. revert l El. induction SI as [|[[c a] b] segs H1 HF IH]; intros l El.
    + injection El as <-. constructor.
    + cbn [byte_slices] in El. apply bind_ok in El as (s & _ & El). apply bind_ok in El as (e' & _ & El).
      apply bind_ok in El as (l' & El' & El). injection El as <-. constructor; auto.
  - intros k w. discriminate.
Qed.

(** The converse of [C35_agrees]: if a stream over a selection ends without error and its
    items fit in a buffer that the reader accepts, the cached reader, in any cache state,
    reads exactly the bytes of the items into it.  Any dataset, any selection, any file. *)
Theorem C35_converse m inflate fuel ds file rc rs e dst items v :
  same_addr ds -> reachable m inflate ds file rc -> streamer_new m ds (Some file) = Ok rs ->
  stream m inflate fuel rs e = Ok (items, SEnd) ->
  read_size m ds e dst = Ok v -> lenN (concat items) <= lenN dst ->
  fst (cache_read m inflate fuel rc e dst) = (Ok v, concat items ++ skipn (length (concat items)) dst).
Proof.
  intros HA HC HN HS HV HL. rewrite (cache_read_reachable m inflate ds file rc fuel e dst HA HC).
  destruct (reachable_inv m inflate ds file rc HA HC) as (_ & _ & HZ & _ & _).
  unfold streamer_new in HN. apply bind_ok in HN as (csz & EZ & HN). injection HN as <-.
  rewrite HZ in EZ. injection EZ as <-.
  destruct (segs_of_stream _ _ _ _ _ _ _ _ HA HS) as (segs & E1 & E2).
  apply plain_read_iff. split; auto. exists (concat items). split; [|reflexivity].
  exists segs, items. auto.
Qed.
Print Assumptions C35_converse.

(** What the exactness of streams needs: [distinct_case] without a destination. *)
Record distinct_stream (m : mode) (inflate : bytes -> option bytes) (file : bytes) (ds : dataset) (value : list N -> bytes)
    (e : extents) (idx cnt : list N) (fuel : nat) : Prop := {
  dt_full : full_dataset ds;
  dt_reg : regular ds;
  dt_stores : stores inflate file ds value;
  dt_distinct : distinct_cells inflate file ds;
  dt_sel : get_start_count e (d_shape ds) = Ok (idx, cnt);
  dt_in : sel_in (d_shape ds) idx cnt;
  dt_bytes : prodN cnt * d_dsize ds < W64;
  dt_mode : m = Release -> (2 * prodN cnt + 3 * prodN (d_chunk_shape ds)) * d_dsize ds < W64 /\
    single_end (d_chunk_shape ds) cnt = false;
  dt_fuel : (N.to_nat (prodN cnt) < fuel)%nat
}.

Lemma stream_dst m inflate file ds value e idx cnt fuel : distinct_stream m inflate file ds value e idx cnt fuel ->
  exists dst, lenN dst = prodN cnt * d_dsize ds /\ distinct_case m inflate file ds value e idx cnt dst fuel.
Proof.
  intros [A1 A2 A3 A4 A5 A6 A7 A8 A9]. exists (repeat 0 (N.to_nat (prodN cnt * d_dsize ds))).
  assert (L : lenN (repeat 0 (N.to_nat (prodN cnt * d_dsize ds))) = prodN cnt * d_dsize ds)
    by (unfold lenN; rewrite repeat_length; lia).
  split; [exact L|]. constructor; auto; try (rewrite L; auto; apply N.le_refl).
  intros M. destruct (A8 M). rewrite L. auto.
Qed.

Lemma slab_bytes_len inflate file ds value idx cnt : full_dataset ds -> stores inflate file ds value ->
  sel_in (d_shape ds) idx cnt -> lenN (concat (map value (slab idx cnt))) = prodN cnt * d_dsize ds.
Proof.
  intros HD HS HI. assert (HL : length idx = length cnt) by (destruct HI as (? & ? & _); congruence).
  pose proof (slab_length idx cnt HL) as SL. unfold lenN in *.
  rewrite (concat_map_len value (N.to_nat (d_dsize ds))).
  - rewrite Nat2N.inj_mul, SL, N2Nat.id. reflexivity.
  - apply Forall_forall. intros x Hx. eapply value_length; eauto.
Qed.

(** A stream over a selection of such a file ends without error after exactly the
    elements of the selection if and only if the selection is in the class. *)
Theorem C35_distinct m inflate file ds value e idx cnt fuel rs :
  distinct_stream m inflate file ds value e idx cnt fuel -> streamer_new m ds (Some file) = Ok rs ->
  ((exists items, stream m inflate fuel rs e = Ok (items, SEnd) /\ concat items = concat (map value (slab idx cnt))) <->
   sel_safe (d_shape ds) (d_chunk_shape ds) idx cnt = true).
Proof.
  intros HD HN. destruct (stream_dst _ _ _ _ _ _ _ _ _ HD) as (dst & Ld & HC).
  pose proof HD as [A1 A2 A3 A4 A5 A6 A7 A8 A9].
  assert (HA : same_addr ds) by apply A3. assert (HZ : supported_sizes ds) by apply A3.
  destruct (new_sized m ds file A1 HZ) as [[rc Hrc] _]. apply (rc_new m inflate) in Hrc.
  assert (Hs : skipn (N.to_nat (prodN cnt * d_dsize ds)) dst = []) by (apply skipn_all2; unfold lenN in Ld; lia).
  rewrite <- (C21_distinct m inflate file ds value e idx cnt dst fuel rc HC Hrc). rewrite Hs, app_nil_r. split.
  - intros (items & ES & EI).
    pose proof (slab_bytes_len inflate file ds value idx cnt A1 A3 A6) as LV.
    rewrite (C35_converse m inflate fuel ds file rc rs e dst items (prodN cnt * d_dsize ds) HA Hrc HN ES).
    + rewrite EI. rewrite skipn_all2, app_nil_r by (unfold lenN in *; lia). reflexivity.
    + rewrite (read_size_eq m ds e dst idx cnt A5).
      * rewrite Ld. now rewrite leb_true by lia.
      * apply (sel_lead _ idx cnt A6). destruct HZ as [Z _ _ _]. clear - A7 Z. nia.
      * exact A7.
    + rewrite EI. lia.
  - intros H. destruct (C35_agrees m inflate fuel ds file rc rs e dst _ _ HA Hrc HN H) as (items & ES & EI).
    exists items. split; auto.
    assert (SF : sel_safe (d_shape ds) (d_chunk_shape ds) idx cnt = true).
    { apply (C21_distinct m inflate file ds value e idx cnt dst fuel rc HC Hrc). now rewrite Hs, app_nil_r. }
    destruct (C35_stream_partial m inflate file ds value e idx cnt fuel rs (stores_stores_readable _ _ _ _ A2 A3)) as (it & z & q & E3 & E4 & E5 & _); auto.
    { constructor; auto. }
    rewrite ES in E3. injection E3 as <- <-. destruct E5 as [(-> & _ & _)|(y & c & kk & er & _ & _ & _ & E5)]; [|discriminate].
    rewrite firstn_all in E4. exact E4.
Qed.
Print Assumptions C35_distinct.

Example C35_distinct_case m inflate :
  distinct_stream m inflate words_file bad_ds bad_value (Extents [Index 1; SliceCount 0 3; SliceCount 1 3])
    [1; 0; 1] [1; 3; 3] 10 /\
  sel_safe (d_shape bad_ds) (d_chunk_shape bad_ds) [1; 0; 1] [1; 3; 3] = true /\
  distinct_stream m inflate words_file bad_ds bad_value All [0; 0; 0] [4; 3; 5] 61 /\
  sel_safe (d_shape bad_ds) (d_chunk_shape bad_ds) [0; 0; 0] [4; 3; 5] = false /\
  distinct_stream m toy_inflate st_file st_ds st_value st_sel [1; 2] [3; 4] 13 /\
  exists rs, streamer_new m bad_ds (Some words_file) = Ok rs.
Proof.
  destruct (C21_distinct_case m inflate) as ([A1 A2 A3 A4 A5 A6 A7 A8 A9 A10] & S1 & [B1 B2 B3 B4 B5 B6 B7 B8 B9 B10] & S2).
  destruct (C21_distinct_filtered m) as [D1 D2 D3 D4 D5 D6 D7 D8 D9 D10].
  split; [|split; [exact S1|split; [|split; [exact S2|split; [|destruct m; eexists; reflexivity]]]]].
  - constructor; auto; try reflexivity; intros _; repeat split.
  - constructor; auto; try reflexivity; intros _; repeat split.
  - constructor; auto; try reflexivity; intros _; repeat split.
Qed.
