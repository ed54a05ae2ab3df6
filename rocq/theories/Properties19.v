(** * Property theorems C60: reads of one file are consistent with each other, whatever it
    holds. *)
From Verif Require Import Base Spec Safe Extent Chunk Dataset Slicer SpecApi ExtentProofs ApiLemmas Termination
  DatasetProofs GroupProofs SliceProps Filters SpecFilter FilterProps Reader SpecReader CacheProofs Writes DirectProofs
  ParProofs FilterProofs ReadProofs ReaderProps StreamProofs S3 SpecS3 S3Proofs S3Errors ExactReads Properties4 Properties5 Properties6 Properties10
  Examples ExamplesReader.

Lemma load_mode m inflate file ds c : regular ds ->
  load m inflate file ds (csize ds) c = load Debug inflate file ds (csize ds) c.
Proof.
  intros [[S1 S2 S3 S4] _ _]. unfold load, read_chunk.
  destruct (read_exact file (c_addr c) (c_size c)) as [a| | | |]; cbn [bind]; auto.
  unfold decode_chunk. rewrite !dbg_ok by (now apply N.ltb_lt). cbn [bind].
  destruct (is_some (d_gzip ds)); auto.
  destruct (decompress_cases inflate a (csize ds)) as [(o & _ & _ & d & -> & Hd)|[_ ->]]; cbn [bind]; auto.
  now rewrite !dbg_ok by (now apply N.eqb_eq).
Qed.

(** What a file holds for the element [x]: its place in the decoded chunk. *)
Definition content (inflate : bytes -> option bytes) (file : bytes) (ds : dataset) (x : list N) : bytes :=
  match chunk_at_coord Debug ds x with
  | Ok c => match load Debug inflate file ds (csize ds) c with
            | Ok raw => word (N.to_nat (d_dsize ds)) (N.to_nat (row_major (d_chunk_shape ds) (map2 N.sub x (c_offset c)))) raw
            | _ => []
            end
  | _ => []
  end.

Lemma content_loads m inflate file ds c : full_dataset ds -> fits64 (d_shape ds) -> regular ds -> In c (d_chunks ds) ->
  readable inflate file ds c -> loads ds (content inflate file ds) (load m inflate file ds (csize ds)) c.
Proof.
  intros HD HF HR Hc HA. destruct (load_total m inflate file ds c HR Hc) as [[_ (raw & E & L)]|[N _]]; [|contradiction].
  exists raw. split; auto. split; auto. intros x k Hx (_ & H2 & H3). cbn [fst snd] in *.
  unfold content. destruct (lookup_ok Debug ds x HD HF Hx) as (c0 & E0 & _ & _ & U). rewrite E0.
  rewrite <- (U c Hc H2). rewrite load_mode in E by auto. rewrite E. now rewrite H3.
Qed.

Lemma plain_content m inflate file ds e idx cnt dst fuel v d : safe_read ds e idx cnt dst fuel ->
  plain_read m inflate fuel file ds (csize ds) e dst = (Ok v, d) ->
  v = prodN cnt * d_dsize ds /\
  d = concat (map (content inflate file ds) (slab idx cnt)) ++ skipn (N.to_nat (prodN cnt * d_dsize ds)) dst.
Proof.
  intros HS H. pose proof (safe_read_ok m _ _ _ _ _ _ HS) as HO.
  destruct (plain_cases m inflate file ds e idx cnt dst fuel HO) as [[A _]|[_ (x & d' & E)]]; [|congruence].
  destruct HS as [S1 S2 S3 S4 S5 S6 S7 S8].
  destruct (plain_read_values m inflate file ds (content inflate file ds) e idx cnt dst fuel) as [E _]; auto; try apply S2.
  - intros c Hc. apply content_loads; auto.
    + eapply sel_in_fits; eauto. apply S1.
    + destruct Hc as (x & k & _ & Hh & _). exact Hh.
  - now apply safe_right.
  - rewrite H in E. injection E as -> ->. auto.
Qed.

(** Every file has one content: a function from coordinates to elements such that every
    successful read of a safe selection - by a cached reader in any state, the direct
    reader, the parallel reader under any schedule, an S3 reader of the same
    bytes, in either build mode - returns exactly the content of the selected elements, in
    row-major order, and leaves the rest of the buffer; a stream yields a prefix of it, and
    all of it unless it ends in an error.  Nothing is assumed of the file:
    chunks may be damaged, missing or overlapping. *)
Theorem C60_content inflate file ds : full_dataset ds -> regular ds -> exists value,
  (forall m e idx cnt dst fuel r v d, safe_read ds e idx cnt dst fuel -> reachable m inflate ds file r ->
     fst (cache_read m inflate fuel r e dst) = (Ok v, d) ->
     v = prodN cnt * d_dsize ds /\
     d = concat (map value (slab idx cnt)) ++ skipn (N.to_nat (prodN cnt * d_dsize ds)) dst) /\
  (forall m sort e idx cnt dst fuel r v d, addr_sort sort -> safe_read ds e idx cnt dst fuel ->
     direct_new m ds (Some file) = Ok r ->
     direct_read m inflate sort fuel r e dst = (Ok v, d) \/ par_read m inflate sort fuel r e dst (Ok v) d ->
     v = prodN cnt * d_dsize ds /\
     d = concat (map value (slab idx cnt)) ++ skipn (N.to_nat (prodN cnt * d_dsize ds)) dst) /\
  (forall m e idx cnt fuel r items z, safe_stream ds e idx cnt fuel -> streamer_new m ds (Some file) = Ok r ->
     stream m inflate fuel r e = Ok (items, z) ->
     exists n, concat items = concat (map value (firstn n (slab idx cnt))) /\ (z = SEnd -> n = length (slab idx cnt))) /\
  (forall m sort srv e idx cnt dst fuel r v d, addr_sort sort -> sizes_ok ds -> honours file srv ->
     safe_read ds e idx cnt dst fuel -> s3_new m ds srv = Ok r -> s3_read m inflate sort fuel r e dst (Ok v) d ->
     v = prodN cnt * d_dsize ds /\
     d = concat (map value (slab idx cnt)) ++ skipn (N.to_nat (prodN cnt * d_dsize ds)) dst) /\
  (forall x, in_shape x (d_shape ds) -> (exists c k, holds ds x (c, k) /\ readable inflate file ds c) ->
     lenN (value x) = d_dsize ds).
Proof.
  intros HD HR. assert (HA : same_addr ds) by apply HR. exists (content inflate file ds).
  assert (PC : forall m e idx cnt dst fuel r v d, safe_read ds e idx cnt dst fuel -> reachable m inflate ds file r ->
     fst (cache_read m inflate fuel r e dst) = (Ok v, d) ->
     v = prodN cnt * d_dsize ds /\
     d = concat (map (content inflate file ds) (slab idx cnt)) ++ skipn (N.to_nat (prodN cnt * d_dsize ds)) dst).
  { intros m e idx cnt dst fuel r v d HS HC H. rewrite (cache_read_reachable m inflate ds file r fuel e dst HA HC) in H.
    destruct (reachable_inv m inflate ds file r HA HC) as (_ & _ & HZ & _).
    apply csize_fresh in HZ; [|apply HD|apply HR]. rewrite HZ in H. exact (plain_content m inflate file ds e idx cnt dst fuel v d HS H). }
  assert (NEW : forall m, exists r, reachable m inflate ds file r).
  { intros m. destruct (new_ok m ds file HD HR) as [[r Hr] _]. exists r. now apply rc_new. }
  split; [exact PC|]. split; [|split; [|split]].
  - intros m sort e idx cnt dst fuel r v d HSort HS HN H. destruct (NEW m) as (rc & HC).
    pose proof (ss_pos _ (rg_sizes _ (sf_reg _ _ _ _ _ _ HS))) as Hd. pose proof (sf_len _ _ _ _ _ _ HS) as HW.
    apply (PC m e idx cnt dst fuel rc v d HS HC).
    apply (C24_agree m inflate sort fuel ds file rc r e dst v d HSort HA Hd HW HC HN).
    destruct H as [H|H]; auto.
    now apply (C25_schedules m inflate sort fuel ds file r e dst HSort HA Hd HW HN).
  - intros m e idx cnt fuel r items z HS HN H. apply streamer_made in HN; auto. subst r.
    pose proof (safe_stream_good m _ _ _ _ _ HS) as HG.
    destruct (cap_exists (csize ds) (csize_pos ds HD HR)) as (cap & Ecap).
    assert (HC : csize ds * 1 < W64) by (rewrite N.mul_1_r; apply HR).
    destruct (stream_general m ds e idx cnt fuel (load m inflate file ds (csize ds)) 1 cap
                (fun x v => v = content inflate file ds x) HG ltac:(lia) HC) as (l & items' & z' & n & vs & E1 & E2 & F & C & HE).
    + intros c c' H1 H2. now apply load_same.
    + intros c Hc. destruct (load_total m inflate file ds c HR Hc) as [[A _]|[_ A]]; [left|right; auto].
      apply loads_gives. apply content_loads; auto. eapply sel_in_fits; [apply HS|apply HD].
    + unfold stream in H. cbn [sr_ds sr_file sr_csz] in H. rewrite E1 in H. cbn [bind] in H. rewrite Ecap in H. cbn [bind] in H.
      rewrite E2 in H. injection H as <- <-. exists n. split.
      * rewrite C. f_equal. now apply Forall2_eq_map.
      * intros ->. destruct HE as [(-> & _)|(? & ? & ? & ? & _ & _ & _ & ?)]; [reflexivity|discriminate].
  - intros m sort srv e idx cnt dst fuel r v d HSort HZ HH HS HN H. destruct (NEW m) as (rc & HC).
    pose proof (ss_pos _ (rg_sizes _ (sf_reg _ _ _ _ _ _ HS))) as Hd. pose proof (sf_len _ _ _ _ _ _ HS) as HW.
    apply (PC m e idx cnt dst fuel rc v d HS HC).
    now apply (C33_agree m inflate sort fuel ds file srv r rc e dst HSort HA Hd HZ HW HH HN HC).
  - intros x Hx (c & k & Hh & HRd). assert (HF : fits64 (d_shape ds)).
    { apply fits64_pos; [|apply HD]. clear -Hx. unfold in_shape in Hx. induction Hx; constructor; auto. lia. }
    destruct (content_loads Debug inflate file ds c HD HF HR (proj1 Hh) HRd) as (raw & E & L & HV).
    rewrite <- (HV x k Hx Hh). destruct Hh as (_ & Hb & Hk). cbn [fst snd] in *.
    apply row_major_box in Hb. unfold lenN in *.
    rewrite (word_length _ (N.to_nat (prodN (d_chunk_shape ds)))); [lia| |lia]. unfold csize in L. nia.
Qed.
Print Assumptions C60_content.

(** ** Overlapping reads and paging *)

Lemma seqN_app a n k : seqN a (n + k) = seqN a n ++ seqN (a + N.of_nat n) k.
Proof.
  revert a. induction n as [|n IH]; intros a; cbn [seqN plus app]; [f_equal; lia|].
  f_equal. rewrite IH. do 2 f_equal. lia.
Qed.

Lemma slab_split i n1 n2 idx cnt :
  slab (i :: idx) (n1 + n2 :: cnt) = slab (i :: idx) (n1 :: cnt) ++ slab (i + n1 :: idx) (n2 :: cnt).
Proof.
  cbn [slab]. rewrite N2Nat.inj_add, seqN_app, flat_map_app, N2Nat.id. reflexivity.
Qed.

Lemma word_concat {A} (value : A -> bytes) w : forall xs n x rest, nth_error xs n = Some x ->
  (forall y, In y xs -> lenN (value y) = N.of_nat w) -> word w n (concat (map value xs) ++ rest) = value x.
Proof.
  induction xs as [|y xs IH]; intros n x rest Hn HL; [destruct n; discriminate|].
  pose proof (HL y (or_introl eq_refl)) as Ly. unfold lenN in Ly.
  destruct n as [|n]; cbn [nth_error map concat] in *.
  - injection Hn as ->. unfold word. cbn [mult skipn]. rewrite <- app_assoc, firstn_app.
    replace (w - length (value x))%nat with 0%nat by lia. cbn [firstn]. rewrite app_nil_r.
    apply firstn_all2. lia.
  - unfold word. replace (S n * w)%nat with (length (value y) + n * w)%nat by lia.
    rewrite <- app_assoc. rewrite skipn_app, skipn_all2 by lia. cbn [app].
    replace (length (value y) + n * w - length (value y))%nat with (n * w)%nat by lia.
    apply IH; auto. intros z Hz. apply HL. now right.
Qed.

Lemma safe_success m inflate ds file r e idx cnt dst fuel : safe_read ds e idx cnt dst fuel ->
  reachable m inflate ds file r ->
  (exists v d, fst (cache_read m inflate fuel r e dst) = (Ok v, d)) <->
  (forall c, needs ds idx cnt c -> readable inflate file ds c).
Proof.
  intros HS HC. pose proof (safe_read_ok m _ _ _ _ _ _ HS) as HO.
  assert (HA : same_addr ds) by apply HS.
  rewrite (cache_read_reachable m inflate ds file r fuel e dst HA HC).
  destruct (reachable_inv m inflate ds file r HA HC) as (_ & _ & HZ & _).
  apply csize_fresh in HZ; [|apply HS|apply HS]. rewrite HZ.
  destruct (plain_cases m inflate file ds e idx cnt dst fuel HO) as [[A (d & E)]|[(c & B1 & B2) (x & d & E)]]; rewrite E.
  - split; eauto.
  - split; [intros (? & ? & ?); discriminate|]. intros H. now destruct B2; apply H.
Qed.

(** Two successful reads of the same file, of selections that may overlap, at any time, by
    readers in any state and in either build mode, give every element selected by both the
    same bytes. *)
Theorem C60_overlap inflate file ds m1 m2 e1 idx1 cnt1 dst1 fuel1 r1 v1 d1 e2 idx2 cnt2 dst2 fuel2 r2 v2 d2 :
  safe_read ds e1 idx1 cnt1 dst1 fuel1 -> reachable m1 inflate ds file r1 ->
  safe_read ds e2 idx2 cnt2 dst2 fuel2 -> reachable m2 inflate ds file r2 ->
  fst (cache_read m1 inflate fuel1 r1 e1 dst1) = (Ok v1, d1) ->
  fst (cache_read m2 inflate fuel2 r2 e2 dst2) = (Ok v2, d2) ->
  forall x p q, nth_error (slab idx1 cnt1) p = Some x -> nth_error (slab idx2 cnt2) q = Some x ->
    word (N.to_nat (d_dsize ds)) p d1 = word (N.to_nat (d_dsize ds)) q d2.
Proof.
  intros S1 R1 S2 R2 H1 H2 x p q Hp Hq.
  destruct (C60_content inflate file ds (sf_full _ _ _ _ _ _ S1) (sf_reg _ _ _ _ _ _ S1)) as (value & HV & _ & _ & _ & HL).
  destruct (HV _ _ _ _ _ _ _ _ _ S1 R1 H1) as [_ ->]. destruct (HV _ _ _ _ _ _ _ _ _ S2 R2 H2) as [_ ->].
  assert (LL : forall m e idx cnt dst fuel r v d, safe_read ds e idx cnt dst fuel -> reachable m inflate ds file r ->
    fst (cache_read m inflate fuel r e dst) = (Ok v, d) ->
    forall y, In y (slab idx cnt) -> lenN (value y) = N.of_nat (N.to_nat (d_dsize ds))).
  { intros m e idx cnt dst fuel r v d HS HC HX y Hy. rewrite N2Nat.id.
    assert (Hy' : in_shape y (d_shape ds)) by (eapply slab_in_shape; [apply HS|exact Hy]).
    assert (HF : fits64 (d_shape ds)) by (eapply sel_in_fits; [apply HS|apply HS]).
    destruct (lookup_ok Debug ds y (sf_full _ _ _ _ _ _ HS) HF Hy') as (c & _ & C1 & C2 & _).
    apply HL; auto. exists c, (row_major (d_chunk_shape ds) (map2 N.sub y (c_offset c))).
    assert (HH : holds ds y (c, row_major (d_chunk_shape ds) (map2 N.sub y (c_offset c)))) by (split; auto).
    split; auto. apply (proj1 (safe_success m inflate ds file r e idx cnt dst fuel HS HC)); eauto.
    exists y, (row_major (d_chunk_shape ds) (map2 N.sub y (c_offset c))). auto. }
  rewrite (word_concat value _ _ p x _ Hp (LL _ _ _ _ _ _ _ _ _ S1 R1 H1)).
  rewrite (word_concat value _ _ q x _ Hq (LL _ _ _ _ _ _ _ _ _ S2 R2 H2)). reflexivity.
Qed.
Print Assumptions C60_overlap.

(** Paging: rows [i, i+n1) and [i+n1, i+n1+n2) read one after the other (into buffers of
    the right sizes) are the rows [i, i+n1+n2) read at once; and the one read succeeds if
    and only if both pages do. *)
Theorem C60_paging inflate file ds m1 m2 m e1 e2 e i n1 n2 idx cnt dst1 dst2 dst fuel r1 r2 r :
  safe_read ds e1 (i :: idx) (n1 :: cnt) dst1 fuel -> lenN dst1 = prodN (n1 :: cnt) * d_dsize ds ->
  safe_read ds e2 (i + n1 :: idx) (n2 :: cnt) dst2 fuel -> lenN dst2 = prodN (n2 :: cnt) * d_dsize ds ->
  safe_read ds e (i :: idx) (n1 + n2 :: cnt) dst fuel -> lenN dst = prodN (n1 + n2 :: cnt) * d_dsize ds ->
  reachable m1 inflate ds file r1 -> reachable m2 inflate ds file r2 -> reachable m inflate ds file r ->
  (forall v1 v2 v d1 d2 d,
    fst (cache_read m1 inflate fuel r1 e1 dst1) = (Ok v1, d1) ->
    fst (cache_read m2 inflate fuel r2 e2 dst2) = (Ok v2, d2) ->
    fst (cache_read m inflate fuel r e dst) = (Ok v, d) -> d = d1 ++ d2 /\ v = v1 + v2) /\
  ((exists v d, fst (cache_read m inflate fuel r e dst) = (Ok v, d)) <->
   (exists v d, fst (cache_read m1 inflate fuel r1 e1 dst1) = (Ok v, d)) /\
   (exists v d, fst (cache_read m2 inflate fuel r2 e2 dst2) = (Ok v, d))).
Proof.
  intros S1 L1 S2 L2 S L R1 R2 R. split.
  - intros v1 v2 v d1 d2 d H1 H2 H.
    destruct (C60_content inflate file ds (sf_full _ _ _ _ _ _ S) (sf_reg _ _ _ _ _ _ S)) as (value & HV & _).
    destruct (HV _ _ _ _ _ _ _ _ _ S1 R1 H1) as [-> ->]. destruct (HV _ _ _ _ _ _ _ _ _ S2 R2 H2) as [-> ->].
    destruct (HV _ _ _ _ _ _ _ _ _ S R H) as [-> ->].
    rewrite <- L1, <- L2, <- L. unfold lenN. rewrite !Nat2N.id, !skipn_all, !app_nil_r.
    rewrite slab_split, map_app, concat_app. split; auto. fold (lenN dst) (lenN dst1) (lenN dst2).
    rewrite L, L1, L2. cbn [prodN]. lia.
  - rewrite (safe_success m inflate ds file r e _ _ _ _ S R), (safe_success m1 inflate ds file r1 e1 _ _ _ _ S1 R1),
      (safe_success m2 inflate ds file r2 e2 _ _ _ _ S2 R2).
    unfold needs. rewrite slab_split. split.
    + intros H. split; intros c (x & k & Hx & Hh); apply H; exists x, k; split; auto; apply in_or_app; auto.
    + intros [A B] c (x & k & Hx & Hh). apply in_app_or in Hx as [Hx|Hx]; [apply A|apply B]; eauto.
Qed.
Print Assumptions C60_paging.

(** The example file, rows 1..4 in pages of one and two rows. *)
Example C60_case : exists r d1 d2 d,
  reachable Debug toy_inflate st_ds st_file r /\
  safe_read st_ds (Extents [SliceCount 1 1; Slice 0]) [1; 0] [1; 6] (repeat 9 12) 19 /\
  safe_read st_ds (Extents [SliceCount 2 2; Slice 0]) [1 + 1; 0] [2; 6] (repeat 9 24) 19 /\
  safe_read st_ds (Extents [SliceCount 1 3; Slice 0]) [1; 0] [1 + 2; 6] (repeat 9 36) 19 /\
  fst (cache_read Debug toy_inflate 19 r (Extents [SliceCount 1 1; Slice 0]) (repeat 9 12)) = (Ok 12, d1) /\
  fst (cache_read Debug toy_inflate 19 r (Extents [SliceCount 2 2; Slice 0]) (repeat 9 24)) = (Ok 24, d2) /\
  fst (cache_read Debug toy_inflate 19 r (Extents [SliceCount 1 3; Slice 0]) (repeat 9 36)) = (Ok 36, d) /\
  d = d1 ++ d2 /\ d1 <> [] /\
  nth_error (slab [1; 0] [1 + 2; 6]) 7 = nth_error (slab [1 + 1; 0] [2; 6]) 1.
Proof.
  eexists _, _, _, _. split; [apply rc_new; reflexivity|].
  split; [|split; [|split]].
  1-3: constructor; try reflexivity; [exact st_full|exact st_regular|sel_in_tac|cbn; lia].
  split; [vm_compute; reflexivity|]. split; [vm_compute; reflexivity|]. split; [vm_compute; reflexivity|].
  split; [reflexivity|]. split; [discriminate|reflexivity].
Qed.
