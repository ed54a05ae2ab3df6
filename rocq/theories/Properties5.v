(** * Property theorems C35-C38, C47: streams and typed reads.

    Each theorem is followed by a concrete case meeting its hypotheses. *)
From Verif Require Import Base Spec Safe Extent Chunk Dataset Slicer SpecApi ExtentProofs ApiLemmas Termination
  GroupProofs SliceProps Filters SpecFilter FilterProofs FilterProps Reader SpecReader CacheProofs DirectProofs ParProofs
  ReadProofs ReaderProps StreamProofs Examples ExamplesReader Properties4.

Lemma safe_stream_good m ds e idx cnt fuel : safe_stream ds e idx cnt fuel -> stream_good m ds e idx cnt fuel.
Proof. intros [A B C D E F]. constructor; auto. now apply safe_right. Qed.

Lemma stores_stores_readable inflate file ds value : regular ds -> stores inflate file ds value ->
  stores_readable inflate file ds value.
Proof.
  intros HR HS. constructor; auto. intros c Hc _. now destruct (st_chunk _ _ _ _ HS c Hc) as [_ H].
Qed.

(** ** C35 *)

(** The items of a stream are the values of the first [n] selected elements, in row-major
    order.  Either these are all of them and the stream just ends; or the chunk of the
    [n]-th one is unreadable, those before it were all readable, and the stream ends
    with one error.
    Missing for the full property: selections outside [sel_safe]. *)
Theorem C35_stream_partial m inflate file ds value e idx cnt fuel r :
  stores_readable inflate file ds value -> safe_stream ds e idx cnt fuel ->
  streamer_new m ds (Some file) = Ok r ->
  exists items z n, stream m inflate fuel r e = Ok (items, z) /\
    concat items = concat (map value (firstn n (slab idx cnt))) /\
    ((n = length (slab idx cnt) /\ z = SEnd /\ forall c, needs ds idx cnt c -> readable inflate file ds c) \/
     (exists y c k er, nth_error (slab idx cnt) n = Some y /\ holds ds y (c, k) /\
        ~ readable inflate file ds c /\ z = SErr er)) /\
    Forall (fun x => exists c k, holds ds x (c, k) /\ readable inflate file ds c) (firstn n (slab idx cnt)).
Proof.
  intros HS HR HN. apply streamer_made in HN; [|apply HR|apply HR]. subst r.
  apply stream_cases; auto. now apply safe_stream_good.
Qed.
Print Assumptions C35_stream_partial.

(** Any dataset, any selection, any build: whenever a read succeeds, with whatever bytes,
    the stream ends without an error and its bytes are those the read wrote. *)
Theorem C35_agrees m inflate fuel ds file rc rs e dst v d :
  same_addr ds -> reachable m inflate ds file rc -> streamer_new m ds (Some file) = Ok rs ->
  fst (cache_read m inflate fuel rc e dst) = (Ok v, d) ->
  exists items, stream m inflate fuel rs e = Ok (items, SEnd) /\
    d = concat items ++ skipn (length (concat items)) dst.
Proof.
  intros HA HC HN E. rewrite (cache_read_reachable m inflate ds file rc fuel e dst HA HC) in E.
  destruct (reachable_inv m inflate ds file rc HA HC) as (_ & _ & HZ & HP & _).
  unfold streamer_new in HN. apply bind_ok in HN as (csz & EZ & HN). injection HN as <-.
  rewrite HZ in EZ. injection EZ as <-.
  assert (0 < cr_csz rc).
  { unfold cache_cap, div64 in HP. destruct (N.eqb_spec (cr_csz rc) 0); [discriminate|lia]. }
  destruct (stream_of_read m inflate fuel file ds (cr_csz rc) e dst v d HA H E) as (items & ES & -> & _).
  exists items. split; auto. 
Qed.
Print Assumptions C35_agrees.
Example C35_case m : exists r,
  stores_readable toy_inflate st_file st_ds st_value /\ safe_stream st_ds st_sel [1; 2] [3; 4] 13 /\
  streamer_new m st_ds (Some st_file) = Ok r /\
  stream m toy_inflate 13 r st_sel =
    Ok ([[12;201]; [13;201; 14;201; 15;201]; [22;202]; [23;202; 24;202; 25;202]; [32;203]; [33;203; 34;203; 35;203]], SEnd) /\
  stream m toy_inflate 13 (mkStreamer st_ds (Some (firstn 55 st_file)) 12) st_sel =
    Ok ([[12;201]; [13;201; 14;201; 15;201]; [22;202]], SErr EIo).
Proof.
  eexists. split; [apply stores_stores_readable; [exact st_regular|exact st_stores]|].
  split; [|split; [destruct m; vm_compute; reflexivity|split; destruct m; vm_compute; reflexivity]].
  destruct (st_safe (repeat 9 30) 13); [vm_compute; discriminate|reflexivity|lia|]. now constructor.
Qed.

(** ** C36 *)

(** [xdr_of] (SpecReader.v): big-endian, small integers widened.  The file and what inflate
    returns consist of bytes.  Missing for the full property: selections outside
    [sel_safe], integers of unknown byte order (C48). *)
Theorem C36_xdr_partial m h inflate file ds value e idx cnt fuel r f :
  stores_readable inflate file ds value -> safe_stream ds e idx cnt fuel ->
  is_bytes file -> (forall a b, inflate a = Some b -> is_bytes b) ->
  indexed_type (d_dtype ds) -> (d_order ds <> Unknown \/ exists s, d_dtype ds = Custom s) ->
  xdr_factor (d_dtype ds) = Ok f -> prodN (d_chunk_shape ds) * d_dsize ds * f < W64 ->
  streamer_new m ds (Some file) = Ok r ->
  exists items z n vs, stream_xdr m h true true inflate fuel r e = Ok (items, z) /\
    Forall2 (fun x v => xdr_of (d_dtype ds) (d_order ds) (value x) v) (firstn n (slab idx cnt)) vs /\
    concat items = concat vs /\
    ((n = length (slab idx cnt) /\ z = SEnd /\ forall c, needs ds idx cnt c -> readable inflate file ds c) \/
     exists y c k er, nth_error (slab idx cnt) n = Some y /\ holds ds y (c, k) /\
       ~ readable inflate file ds c /\ z = SErr er).
Proof.
  intros HS HR HB HI HT Ho Hf HW HN. apply streamer_made in HN; [|apply HR|apply HR]. subst r.
  apply xdr_stream_cases with (f := f); auto; [now apply safe_stream_good|].
  destruct (d_dtype ds) as [s|s|s|s]; cbn in Hf, HT;
    repeat match type of HT with _ \/ _ => destruct HT as [HT|HT] end; try contradiction; subst;
    try (injection Hf as <-; reflexivity); try (vm_compute in Hf; injection Hf as <-; reflexivity).
Qed.
Print Assumptions C36_xdr_partial.
Example C36_case m h : exists f,
  is_bytes st_file /\ indexed_type (d_dtype st_ds) /\ d_order st_ds <> Unknown /\
  xdr_factor (d_dtype st_ds) = Ok f /\ prodN (d_chunk_shape st_ds) * d_dsize st_ds * f < W64 /\
  stream_xdr m h true true toy_inflate 13 (mkStreamer st_ds (Some st_file) 12) st_sel =
    Ok ([[255;255;201;12]; [255;255;201;13; 255;255;201;14; 255;255;201;15];
         [255;255;202;22]; [255;255;202;23; 255;255;202;24; 255;255;202;25];
         [255;255;203;32]; [255;255;203;33; 255;255;203;34; 255;255;203;35]], SEnd).
Proof.
  exists 2. split; [vm_compute; repeat constructor|]. split; [cbn; auto|]. split; [discriminate|].
  split; [reflexivity|]. split; [reflexivity|]. destruct m, h; vm_compute; reflexivity.
Qed.

(** ** C38 *)

(** False of the code: the bytes of a stream of a little-endian dataset are little-endian
    (C35: they are the stored bytes, whatever the order of the dataset). *)
Theorem C38_refuted m : exists items rest,
  stream m toy_inflate 13 (mkStreamer st_ds (Some st_file) 12) st_sel = Ok (items, SEnd) /\
  concat items = [12; 201] ++ rest /\
  num_in BE [12; 201] <> num_in (d_order st_ds) (st_value [1; 2]) /\ st_value [1; 2] = [12; 201].
Proof.
  eexists. eexists. split; [destruct m; vm_compute; reflexivity|]. split; [vm_compute; reflexivity|].
  split; [vm_compute; discriminate|]. reflexivity.
Qed.
Print Assumptions C38_refuted.

(** ** C47 *)

Lemma zeros_len n w : lenN (repeat 0 (N.to_nat n * w)) = n * N.of_nat w.
Proof. unfold lenN. rewrite repeat_length. lia. Qed.

Lemma div_mul_exact d p w : 0 < w -> d mod w = 0 -> p * d / w * w = p * d.
Proof.
  intros Hw Hd. apply N.mod_divide in Hd as [q ->]; [|lia].
  replace (p * (q * w)) with (p * q * w) by lia. rewrite N.div_mul; lia.
Qed.

Lemma to_native_length h k w o l n : (0 < w)%nat -> length l = (w * n)%nat ->
  length (to_native_slice h k w o l) = length l.
Proof.
  intros Hw HL. unfold to_native_slice.
  assert (Hsw : forall v, length v = w -> length (swap h k v) = w).
  { intros v Hv. destruct k, h; cbn [swap]; auto; now rewrite rev_length. }
  destruct (map_words_length w n (swap h k) l Hw HL Hsw) as [A _]. destruct h, o; auto.
Qed.

(** [values::<T>] for a type of [w] bytes with alignment [al] dividing [w], over any way of
    reading ([read]): element size not a multiple of [w]: an error, and nothing is read (the
    result does not depend on [read]); otherwise the bytes are read into a zeroed buffer of
    exactly the size of the selection, and converted to native order. *)
Theorem C47_values m h k w al ds read e idx cnt :
  get_start_count e (d_shape ds) = Ok (idx, cnt) -> fits64_lead cnt ->
  prodN cnt * d_dsize ds < W64 -> d_dsize ds * (prodN cnt * d_dsize ds) < W64 ->
  (0 < w)%nat -> 0 < al -> N.of_nat w mod al = 0 ->
  (d_dsize ds mod N.of_nat w <> 0 -> values m h k w al ds read e = Err ESize) /\
  (d_dsize ds mod N.of_nat w = 0 ->
     values m h k w al ds read e =
       match read e (repeat 0 (N.to_nat (prodN cnt * d_dsize ds))) with
       | (Ok _, d) => Ok (to_native_slice h k w (d_order ds) d)
       | (x, _) => failed x
       end).
Proof.
  intros HG HF HW HW2 Hw Hal Hwal. unfold values. rewrite (counts_of _ _ _ _ HG). cbn [bind].
  rewrite product64_lead by auto. cbn [bind]. rewrite mul64_ok by auto. cbn [bind].
  unfold div64, rem64. destruct (N.eqb_spec (N.of_nat w) 0) as [?|_]; [lia|]. cbn [bind].
  unfold ensure. split; intros Hd.
  - destruct (N.eqb_spec (d_dsize ds mod N.of_nat w) 0); [congruence|]. reflexivity.
  - rewrite Hd, N.eqb_refl. cbn [bind].
    pose proof (div_mul_exact (d_dsize ds) (prodN cnt) (N.of_nat w) ltac:(lia) Hd) as HX.
    assert (Hle : prodN cnt * d_dsize ds / N.of_nat w <= prodN cnt * d_dsize ds) by nia.
    rewrite mul64_ok by nia. cbn [bind]. destruct (N.eqb_spec al 0); [lia|]. cbn [bind].
    assert (Hm : (d_dsize ds * (prodN cnt * d_dsize ds / N.of_nat w)) mod al = 0).
    { apply N.mod_divide; [lia|]. apply N.divide_mul_l. apply N.divide_trans with (N.of_nat w); apply N.mod_divide; auto; lia. }
    rewrite Hm, N.eqb_refl. cbn [bind].
    replace (N.to_nat (prodN cnt * d_dsize ds / N.of_nat w) * w)%nat with (N.to_nat (prodN cnt * d_dsize ds)) by lia.
    unfold values_to. destruct (read e (repeat 0 (N.to_nat (prodN cnt * d_dsize ds)))) as [[v| | | |] d]; reflexivity.
Qed.
Print Assumptions C47_values.

(** No read changes the length of the destination. *)
Lemma copy_slice_len m data s e sz pos dst d : sub64 m e s = Ok sz -> copy_slice m data s e sz pos dst = Ok d -> lenN d = lenN dst.
Proof.
  unfold copy_slice. intros Hs H. apply bind_ok in H as ([] & _ & H). apply bind_ok in H as ([] & _ & H).
  apply bind_ok in H as ([] & H1 & H). apply bind_ok in H as (src & H2 & H). injection H as <-.
  apply slice_range_ok in H2 as (A & B & ->).
  unfold sub64 in Hs. rewrite leb_true in Hs by auto. injection Hs as <-.
  apply splice_len. rewrite slice_len by auto.
  unfold assert_ in H1. destruct (N.leb_spec (pos + (e - s)) (lenN dst)); [auto|discriminate].
Qed.
Lemma cache_loop_len m inflate r st : forall segs cache pos dst,
  lenN (snd (fst (cache_loop m inflate r segs st cache pos dst))) = lenN dst.
Proof.
  induction segs as [|[[c a] b] segs IH]; intros cache pos dst; cbn [cache_loop]; [reflexivity|].
  unfold cache_seg, byte_range.
  destruct (mul64 m a _) as [s| | | |]; cbn [bind]; try reflexivity.
  destruct (mul64 m b _) as [e| | | |]; cbn [bind]; try reflexivity.
  destruct (dbg m (s <=? e)) as [[]| | | |]; cbn [bind]; try reflexivity.
  destruct (sub64 m e s) as [sz| | | |] eqn:Es; cbn [bind]; try reflexivity.
  destruct (lru_get (c_addr c) cache) as [[data cache']|].
  - destruct (copy_slice m data s e sz pos dst) eqn:EC; cbn [bind fst snd]; try reflexivity.
    rewrite IH. eapply copy_slice_len; eauto.
  - destruct (load m inflate _ _ _ c) as [data| | | |]; try reflexivity.
    destruct (copy_slice m data s e sz pos dst) eqn:EC; cbn [fst snd]; try reflexivity.
    rewrite IH. eapply copy_slice_len; eauto.
Qed.
Lemma cache_read_len m inflate fuel r e dst : lenN (snd (fst (cache_read m inflate fuel r e dst))) = lenN dst.
Proof.
  unfold cache_read. destruct (read_size m (cr_ds r) e dst); try reflexivity.
  destruct (chunk_slices m fuel (cr_ds r) e) as [segs st].
  pose proof (cache_loop_len m inflate r st segs (cr_cache r) 0 dst) as H.
  destruct (cache_loop _ _ _ _ _ _ _ _) as [[x d] c]. exact H.
Qed.

(** The number of values returned: the selected count times the element size over the size
    of T, for every reader that does not change the length of its buffer (none does: [cache_read_len], C24, C25). *)
Theorem C47_length m h k w al ds read e idx cnt out :
  get_start_count e (d_shape ds) = Ok (idx, cnt) -> fits64_lead cnt ->
  prodN cnt * d_dsize ds < W64 -> d_dsize ds * (prodN cnt * d_dsize ds) < W64 ->
  (0 < w)%nat -> 0 < al -> N.of_nat w mod al = 0 ->
  (forall dst, lenN (snd (read e dst)) = lenN dst) ->
  values m h k w al ds read e = Ok out ->
  d_dsize ds mod N.of_nat w = 0 /\ lenN out = prodN cnt * d_dsize ds /\
  lenN out / N.of_nat w = prodN cnt * (d_dsize ds / N.of_nat w).
Proof.
  intros HG HF HW HW2 Hw Hal Hwal HL E.
  destruct (C47_values m h k w al ds read e idx cnt HG HF HW HW2 Hw Hal Hwal) as [A B].
  destruct (N.eq_dec (d_dsize ds mod N.of_nat w) 0) as [Hd|Hd]; [|rewrite A in E by auto; discriminate].
  rewrite B in E by auto. specialize (HL (repeat 0 (N.to_nat (prodN cnt * d_dsize ds)))).
  destruct (read e _) as [[v| | | |] d]; try discriminate. injection E as <-. cbn [snd] in HL.
  assert (L : lenN d = prodN cnt * d_dsize ds) by (rewrite HL; unfold lenN; rewrite repeat_length; lia).
  split; auto.
  assert (L2 : lenN (to_native_slice h k w (d_order ds) d) = prodN cnt * d_dsize ds).
  { apply N.mod_divide in Hd as [q Hq]; [|lia]. unfold lenN in *.
    rewrite (to_native_length h k w (d_order ds) d (N.to_nat (prodN cnt * q))); auto; nia. }
  rewrite L2. split; auto. apply N.mod_divide in Hd as [q ->]; [|lia].
  replace (prodN cnt * (q * N.of_nat w)) with (prodN cnt * q * N.of_nat w) by lia. rewrite !N.div_mul; lia.
Qed.
Print Assumptions C47_length.
Example C47_case m h : get_start_count st_sel (d_shape st_ds) = Ok ([1; 2], [3; 4]) /\ fits64_lead [3; 4] /\
  d_dsize st_ds * (prodN [3; 4] * d_dsize st_ds) < W64 /\ d_dsize st_ds mod N.of_nat 2 = 0 /\
  (forall dst, lenN (snd (fst (cache_read m toy_inflate 13 (mkCR st_ds st_file 2796202 12 []) st_sel dst))) = lenN dst) /\
  (exists out, values m h KInt 2 2 st_ds (fun e dst => fst (cache_read m toy_inflate 13 (mkCR st_ds st_file 2796202 12 []) e dst)) st_sel = Ok out) /\
  d_dsize st_ds mod N.of_nat 4 <> 0.
Proof.
  split; [reflexivity|]. split; [intros [|[|[|k]]]; reflexivity|]. split; [reflexivity|]. split; [reflexivity|].
  split; [|split; [destruct m, h; eexists; vm_compute; reflexivity|discriminate]].
  intros dst. apply cache_read_len.
Qed.

(** [values_dyn_par] allocates one T per selected element, so for a T smaller than the
    element size it fails although the size check passes (every reader refuses the
    buffer: C27). *)
Theorem C47_dyn_refuted m h k w al ds read garbage e idx cnt :
  get_start_count e (d_shape ds) = Ok (idx, cnt) -> fits64_lead cnt -> 0 < prodN cnt ->
  d_dsize ds * (prodN cnt * d_dsize ds) < W64 -> (0 < w)%nat -> 0 < al -> N.of_nat w mod al = 0 ->
  d_dsize ds mod N.of_nat w = 0 -> N.of_nat w < d_dsize ds ->
  (forall n, lenN (garbage n) = n) ->
  (forall dst, lenN dst < prodN cnt * d_dsize ds -> read e dst = (Err ECapacity, dst)) ->
  values_dyn_par m h k w al ds read garbage e = Err ECapacity.
Proof.
  intros HG HF HP HW2 Hw Hal Hwal Hd Hlt HGar HRd. unfold values_dyn_par. rewrite (counts_of _ _ _ _ HG). cbn [bind].
  assert (HW : prodN cnt * d_dsize ds < W64) by nia.
  rewrite product64_lead by auto. cbn [bind]. rewrite mul64_ok by auto. cbn [bind].
  unfold div64, rem64. destruct (N.eqb_spec (N.of_nat w) 0) as [?|_]; [lia|]. cbn [bind].
  unfold ensure. rewrite Hd, N.eqb_refl. cbn [bind].
  pose proof (div_mul_exact (d_dsize ds) (prodN cnt) (N.of_nat w) ltac:(lia) Hd) as HX.
  assert (Hle : prodN cnt * d_dsize ds / N.of_nat w <= prodN cnt * d_dsize ds) by nia.
  rewrite mul64_ok by nia. cbn [bind]. destruct (N.eqb_spec al 0); [lia|]. cbn [bind].
  assert (Hm : (d_dsize ds * (prodN cnt * d_dsize ds / N.of_nat w)) mod al = 0).
  { apply N.mod_divide; [lia|]. apply N.divide_mul_l. apply N.divide_trans with (N.of_nat w); apply N.mod_divide; auto; lia. }
  rewrite Hm, N.eqb_refl. cbn [bind]. unfold values_to. rewrite HRd; [reflexivity|]. rewrite HGar. nia.
Qed.
Print Assumptions C47_dyn_refuted.
Example C47_dyn_case m h : 
  values_dyn_par m h KInt 1 1 st_ds (direct_read m toy_inflate sort_by_addr 13 (mkDirect st_ds (Some st_file) 12))
    (fun n => repeat 77 (N.to_nat n)) st_sel = Err ECapacity /\
  values m h KInt 1 1 st_ds (direct_read m toy_inflate sort_by_addr 13 (mkDirect st_ds (Some st_file) 12)) st_sel =
    Ok [12;201; 13;201; 14;201; 15;201; 22;202; 23;202; 24;202; 25;202; 32;203; 33;203; 34;203; 35;203].
Proof. split; destruct m, h; vm_compute; reflexivity. Qed.

(** ** C37 *)

Lemma seg_ok_mod m L dsz w sg o : In w [1; 2; 4; 8]%nat -> dsz mod N.of_nat w = 0 -> seg_ok m L dsz sg o ->
  (length o mod w = 0)%nat.
Proof.
  intros Hw Hd. destruct sg as [[c a] b]. intros (s & e & data & Es & Ee & Hse & _ & Hb & ->).
  assert (W : exists q, W64 = q * N.of_nat w /\ (0 < w)%nat).
  { cbn in Hw. destruct Hw as [<-|[<-|[<-|[<-|[]]]]]; [exists (2^64)|exists (2^63)|exists (2^62)|exists (2^61)]; (split; [reflexivity|lia]). }
  destruct W as (q & HW & Hpos).
  assert (MM : forall x y, mul64 m x dsz = Ok y -> y mod N.of_nat w = 0).
  { intros x y E. apply N.mod_divide; [lia|]. apply N.mod_divide in Hd as [z ->]; [|lia].
    unfold mul64 in E. destruct (x * (z * N.of_nat w) <? W64).
    - injection E as <-. exists (x * z). lia.
    - destruct m; [discriminate|]. injection E as <-. rewrite HW.
      replace (x * (z * N.of_nat w)) with (x * z * N.of_nat w) by lia.
      exists ((x * z) mod q). destruct (N.eq_dec q 0) as [->|]; [unfold W64 in HW; discriminate|]. rewrite N.mul_mod_distr_r; lia. }
  apply MM in Es. apply MM in Ee. clear MM.
  apply N.mod_divide in Es as [x ->]; [|lia]. apply N.mod_divide in Ee as [y ->]; [|lia].
  rewrite firstn_length, skipn_length. apply Nat.mod_divides; [lia|].
  exists (N.to_nat (y - x)). unfold lenN in Hb. nia.
Qed.

(** Safe selections: [values] and [stream_values] both give the same values, or both an
    error.  ([true]: the items of the stream are aligned for the type.)
    Missing for the full property: selections outside [sel_safe], for which the next
    theorem says how the two are related. *)
Theorem C37_values_partial m h k w al inflate fuel ds file rc rs e idx cnt :
  safe_stream ds e idx cnt fuel -> reachable m inflate ds file rc -> streamer_new m ds (Some file) = Ok rs ->
  In w [1; 2; 4; 8]%nat -> 0 < al -> N.of_nat w mod al = 0 -> d_dsize ds mod N.of_nat w = 0 ->
  d_dsize ds * (prodN cnt * d_dsize ds) < W64 ->
  let read := fun e dst => fst (cache_read m inflate fuel rc e dst) in
  (exists out items vs, values m h k w al ds read e = Ok out /\ stream m inflate fuel rs e = Ok (items, SEnd) /\
     stream_values h k w true (d_order ds) items = map Ok vs /\ concat vs = out) \/
  (exists z items z', values m h k w al ds read e = Err z /\ stream m inflate fuel rs e = Ok (items, SErr z')).
Proof.
  intros HR HC HN Hw Hal Hwal Hd HW2 read.
  assert (Hpos : (0 < w)%nat) by (cbn in Hw; lia).
  assert (HA : same_addr ds) by apply HR.
  assert (Hdp : 0 < d_dsize ds) by apply HR.
  assert (HW : prodN cnt * d_dsize ds < W64) by nia.
  apply streamer_made in HN; [|apply HR|apply HR]. subst rs.
  pose proof (safe_stream_good m _ _ _ _ _ HR) as HG.
  destruct HR as [A B C D E F].
  assert (HFL : fits64_lead cnt) by (apply (sel_lead _ _ _ D); clear -HW Hdp; nia).
  destruct (C47_values m h k w al ds read e idx cnt C HFL HW HW2 Hpos Hal Hwal) as [_ V].
  specialize (V Hd). set (dst := repeat 0 (N.to_nat (prodN cnt * d_dsize ds))) in *.
  assert (Ldst : lenN dst = prodN cnt * d_dsize ds) by (unfold dst, lenN; rewrite repeat_length; lia).
  assert (HO : read_ok m ds e idx cnt dst fuel).
  { constructor; auto; try (rewrite Ldst; auto; lia). now apply safe_right. }
  assert (ER : read e dst = plain_read m inflate fuel file ds (csize ds) e dst).
  { unfold read. rewrite (cache_read_reachable m inflate ds file rc fuel e dst HA HC).
    destruct (reachable_inv m inflate ds file rc HA HC) as (_ & _ & HZ & _).
    apply csize_fresh in HZ; [|apply A|apply B]. now rewrite HZ. }
  destruct (plain_cases m inflate file ds e idx cnt dst fuel HO) as [[HRd (d & EP)]|[(c & Hc & NR) (x & d & EP)]].
  - left. destruct (stream_of_read m inflate fuel file ds (csize ds) e dst _ d HA (csize_pos ds A B) EP)
      as (items & ES & Ed & Hle & segs & EX & HF).
    assert (HT : total segs = prodN cnt).
    { destruct (safe_right m ds e idx cnt A C D E) as (segs' & HX & HT). specialize (HX fuel F). rewrite EX in HX.
      injection HX as ->. apply right_total with (ds := ds) (idx := idx); auto. destruct D as (L1 & L2 & _). congruence. }
    assert (Hwf : Forall (seg_wf ds) segs).
    { destruct (safe_right m ds e idx cnt A C D E) as (segs' & HX & HT'). specialize (HX fuel F). rewrite EX in HX.
      injection HX as ->. eapply right_wf; eauto. }
    assert (HLen : lenN (concat items) = total segs * d_dsize ds).
    { clear -HF Hwf B. assert (HC1 : csize ds < W64) by apply B.
      induction HF as [|[[c a] b] o segs os H HF IH]; [reflexivity|]. inversion Hwf as [|? ? W1 W2]; subst.
      destruct H as (s & e & data & Es & Ee & Hse & _ & Hb & ->).
      destruct (seg_muls m ds c a b HC1 W1) as (E1 & E2 & _). rewrite E1 in Es. rewrite E2 in Ee.
      injection Es as <-. injection Ee as <-. cbn [concat]. rewrite lenN_app, IH by auto.
      rewrite slice_len by auto. unfold total. cbn [map sumN]. destruct W1 as (? & _). nia. }
    rewrite HT in HLen.
    assert (EC : d = concat items).
    { rewrite Ed. unfold splice. cbn [N.to_nat firstn app Nat.add]. rewrite skipn_all2; [apply app_nil_r|].
      unfold lenN in *. lia. }
    destruct (stream_values_ok h k w (d_order ds) items Hpos) as (vs & E1 & E2).
    { apply Forall_forall. intros o Ho. destruct (Forall2_in_r _ _ _ _ HF Ho) as (sg & _ & Hsg). eapply seg_ok_mod; eauto. }
    exists (to_native_slice h k w (d_order ds) d), items, vs. rewrite V, ER, EP. rewrite E2, EC. auto.
  - right. destruct (stream_ends m inflate file ds e idx cnt fuel HG) as (items & z & ES & [[_ H]|(c' & er & _ & _ & ->)]).
    + now apply H in Hc.
    + exists x, items, er. rewrite V, ER, EP. auto.
Qed.
Print Assumptions C37_values_partial.
Example C37_case (h : host) : safe_stream st_ds st_sel [1; 2] [3; 4] 13 /\ d_dsize st_ds mod N.of_nat 2 = 0 /\
  d_dsize st_ds * (prodN [3; 4] * d_dsize st_ds) < W64 /\
  stream_values h KInt 2 true LE [[12;201]; [13;201; 14;201; 15;201]] =
    map Ok (match h with HostLE => [[12;201]; [13;201; 14;201; 15;201]] | HostBE => [[201;12]; [201;13; 201;14; 201;15]] end).
Proof.
  split; [|split; [reflexivity|split; [reflexivity|destruct h; reflexivity]]].
  destruct (st_safe (repeat 9 30) 13); [vm_compute; discriminate|reflexivity|lia|]. now constructor.
Qed.

(** Any dataset, any selection: what [values] returns is the stream of values, followed by
    the zeros of the buffer for elements of which nothing was read (out-of-bounds
    selections, C14). *)
Theorem C37_any m h k w al inflate fuel ds file rc rs e idx cnt out :
  same_addr ds -> reachable m inflate ds file rc -> streamer_new m ds (Some file) = Ok rs ->
  get_start_count e (d_shape ds) = Ok (idx, cnt) -> fits64_lead cnt ->
  In w [1; 2; 4; 8]%nat -> 0 < al -> N.of_nat w mod al = 0 ->
  prodN cnt * d_dsize ds < W64 -> d_dsize ds * (prodN cnt * d_dsize ds) < W64 ->
  values m h k w al ds (fun e dst => fst (cache_read m inflate fuel rc e dst)) e = Ok out ->
  exists items vs n, stream m inflate fuel rs e = Ok (items, SEnd) /\
     stream_values h k w true (d_order ds) items = map Ok vs /\ out = concat vs ++ repeat 0 n.
Proof.
  intros HA HC HN HG HF Hw Hal Hwal HW HW2 HV. set (read := fun e dst => fst (cache_read m inflate fuel rc e dst)) in *.
  assert (Hpos : (0 < w)%nat) by (cbn in Hw; lia).
  destruct (C47_values m h k w al ds read e idx cnt HG HF HW HW2 Hpos Hal Hwal) as [V0 V].
  destruct (N.eq_dec (d_dsize ds mod N.of_nat w) 0) as [Hd|Hd]; [|rewrite V0 in HV by auto; discriminate].
  rewrite (V Hd) in HV. set (dst := repeat 0 (N.to_nat (prodN cnt * d_dsize ds))) in *.
  destruct (read e dst) as [[v| | | |] d] eqn:ER; try discriminate. injection HV as <-.
  unfold read in ER. rewrite (cache_read_reachable m inflate ds file rc fuel e dst HA HC) in ER.
  destruct (reachable_inv m inflate ds file rc HA HC) as (_ & _ & HZ & HP & _).
  unfold streamer_new in HN. apply bind_ok in HN as (csz & EZ & HN). injection HN as <-.
  rewrite HZ in EZ. injection EZ as <-.
  assert (0 < cr_csz rc).
  { unfold cache_cap, div64 in HP. destruct (N.eqb_spec (cr_csz rc) 0); [discriminate|lia]. }
  destruct (stream_of_read m inflate fuel file ds (cr_csz rc) e dst v d HA H ER) as (items & ES & Ed & Hle & segs & EX & HFS).
  assert (HM : Forall (fun b : bytes => (length b mod w = 0)%nat) items).
  { apply Forall_forall. intros o Ho. destruct (Forall2_in_r _ _ _ _ HFS Ho) as (sg & _ & Hsg). eapply seg_ok_mod; eauto. }
  destruct (stream_values_ok h k w (d_order ds) items Hpos HM) as (vs & E1 & E2).
  set (n := (N.to_nat (prodN cnt * d_dsize ds) - length (concat items))%nat).
  exists items, vs, n. split; auto. split; auto. rewrite E2, Ed.
  unfold splice. cbn [N.to_nat firstn app Nat.add].
  assert (Hc : exists q, length (concat items) = (w * q)%nat).
  { clear -HM Hpos. induction HM as [|b items Hb HF (q & IH)]; [exists 0%nat; cbn; lia|].
    cbn [concat]. rewrite app_length. apply Nat.mod_divides in Hb as [x Hx]; [|lia]. exists (x + q)%nat. nia. }
  destruct Hc as (q & Hq). apply N.mod_divide in Hd as [z Hz]; [|lia].
  assert (Hn : n = (w * (N.to_nat (prodN cnt * z) - q))%nat) by (unfold n; rewrite Hq, Hz; nia).
  assert (SK : skipn (length (concat items)) dst = repeat 0 n).
  { unfold dst, n. generalize (length (concat items)). clear. intros x. generalize (N.to_nat (prodN cnt * d_dsize ds)). induction x as [|x IH]; intros [|y]; cbn [repeat skipn Nat.sub]; auto. }
  rewrite SK. rewrite (to_native_app h k w (d_order ds) _ _ q (N.to_nat (prodN cnt * z) - q)%nat); auto; [|now rewrite repeat_length].
  f_equal. rewrite Hn. generalize (N.to_nat (prodN cnt * z) - q)%nat. clear -Hpos. intros r.
  assert (RZ : forall x, rev (repeat 0 x) = repeat 0 x).
  { induction x as [|x IH]; [reflexivity|]. cbn [repeat rev]. rewrite IH. clear. induction x; cbn [repeat app]; congruence. }
  assert (G : map_words w (swap h k) (repeat 0 (w * r)) = repeat 0 (w * r)).
  { unfold map_words. rewrite repeat_length, mul_div by auto.
    assert (SZ : swap h k (repeat 0 w) = repeat 0 w) by (destruct k, h; cbn [swap]; auto).
    induction r as [|r IH]; [now rewrite Nat.mul_0_r|]. replace (w * S r)%nat with (w + w * r)%nat by lia.
    rewrite repeat_app. cbn [words map concat]. rewrite firstn_app, skipn_app, repeat_length, Nat.sub_diag.
    cbn [firstn skipn]. rewrite app_nil_r, firstn_all2, skipn_all2 by (rewrite repeat_length; lia). cbn [app].
    now rewrite SZ, IH. }
  unfold to_native_slice. destruct h, (d_order ds); auto.
Qed.
Print Assumptions C37_any.
