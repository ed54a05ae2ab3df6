(** * C101: from an HDF5 file to any number of threads and streams. *)
From Coq Require Import Lia.
From Verif Require Import Base Spec Safe Chunk Extent Dataset Slicer SpecApi ExtentProofs ApiLemmas Filters SpecFilter FilterProofs FilterProps Reader SpecReader
  GroupProofs ParProofs ReaderProps ReadProofs StreamProofs ExamplesReader Examples IndexTree Serde SpecTree SpecSerde TreeProofs SerdeProofs
  S3 SpecS3 Properties1 Properties4 Properties5 Properties6 Properties7 Properties12 SpecEnd Properties13 StreamPoll Syscalls ParSys Faults
  SafeWrap WrapProps Properties17 Properties23 SlicerRelease2 Properties24 Properties27 Properties39 Properties52 Properties66 Properties67 SeqSys Properties74 StreamSys Properties76.

(** ** Specification *)

(** The selection [e] of a dataset of [shape] in chunks of [cs]: the elements at [idx], [cnt] along each dimension, for which
    the slicer is right in builds of mode [m] (C11: the class is exact), into a buffer of [len] bytes. *)
Definition selects (m : mode) (shape cs : list N) (sz : N) (e : extents) (idx cnt : list N) (len : N) (fuel : nat) : Prop :=
  get_start_count e shape = Ok (idx, cnt) /\ sel_in shape idx cnt /\ sel_right m shape cs idx cnt = true /\
  prodN cnt * sz <= len /\ len < W64 /\ (N.to_nat (prodN cnt) < fuel)%nat.
(** The selection's elements in the file, in order. *)
Definition elements (value : list N -> bytes) (idx cnt : list N) : bytes := concat (map value (slab idx cnt)).

(** ** Proof *)

Lemma partly_mixed dsz dst good d : length good = length dst -> partly dsz dst good d -> mixed dsz dst good d.
Proof.
  intros L (k & Hk & ->). set (K := N.to_nat (k * dsz)) in *.
  assert (LF : length (firstn K good) = K) by (rewrite firstn_length; lia). split; [rewrite app_length, LF, skipn_length; lia|].
  intros j. destruct (N.lt_ge_cases j k) as [J|J]; [right|left]; intros i Hi.
  - assert (Hik : (N.to_nat i < K)%nat) by (unfold K; nia). rewrite nth_error_app1 by lia. 
    rewrite <- (firstn_skipn K good) at 2. rewrite nth_error_app1 by lia. reflexivity.
  - assert (Hik : (K <= N.to_nat i)%nat) by (unfold K; nia). rewrite nth_error_app2 by lia. rewrite LF.
    rewrite <- (firstn_skipn K dst) at 2. assert (LD : length (firstn K dst) = K) by (rewrite firstn_length; lia).
    rewrite nth_error_app2 by lia. now rewrite LD.
Qed.

Lemma plain_in m inflate fuel ds file r l r' en : plain_reads m inflate fuel r l r' -> cache_new m ds file = Ok r -> In en l ->
  exists r1, reachable m inflate ds file r1 /\ let '(e, dst, x, d) := en in fst (cache_read m inflate fuel r1 e dst) = (x, d).
Proof.
  intros H HN Hin. assert (Y : reachable m inflate ds file r' /\
    (In en l -> exists r1, reachable m inflate ds file r1 /\ let '(e, dst, x, d) := en in fst (cache_read m inflate fuel r1 e dst) = (x, d))); [|now apply Y].
  clear Hin. induction H as [r|r l r1 e dst x d r2 H IH E]; [split; [now constructor|intros []]|].
  destruct (IH HN) as [T I]. split.
  - replace r2 with (snd (cache_read m inflate fuel r1 e dst)) by now rewrite E. now constructor.
  - intros X. apply in_app_iff in X as [X|[<-|[]]]; [auto|]. exists r1. rewrite E. auto.
Qed.

(** The dataset that is opened is the one the file's block layout is of. *)
Lemma opened_stores m p root i i' k gs x h cs inflate file value :
  named root -> typed_tree root -> lenN p < W64 -> utf8_path (Some p) -> index_file m (Some p) root = Ok i ->
  (i' = i \/ exists b, bincode_serialize i = Ok b /\ bincode_deserialize b = Ok i') ->
  Forall (fun c => c <> [] /\ slash_free c) (gs ++ [x]) -> h5_dataset root gs x h -> h5_stores inflate file h cs value ->
  exists ds, gi_open (i_root i') (slashes k ++ joined (gs ++ [x])) = Ok (p, ds) /\ stores inflate file ds value /\ d_dsize ds = dt_size (h_dtype h) /\
    full_dataset ds /\ regular ds /\ d_shape ds = h_shape h /\ d_chunk_shape ds = cs /\ d_dtype ds = h_dtype h /\ d_order ds = h_order h.
Proof.
  intros HN HT HPL HU E HI HFp HD HS.
  assert (i' = i) as ->.
  { destruct HI as [->|(b & E1 & E2)]; auto. destruct (C41_indexed m (Some p) root i HN HT) as (b' & E3 & E4); auto; [intros s [= <-]; auto|].
    congruence. }
  destruct (indexed_stores m inflate file h cs value HS) as (ds & D1 & D2 & D3 & D4 & D5 & D6 & D7 & D8 & D9 & D10 & _).
  destruct (C43_exact m (Some p) root i HN E) as (K1 & _ & K2 & _).
  exists ds. split; [|repeat (split; [assumption|]); assumption].
  assert (G : gi_dataset (i_root i) (slashes k ++ joined (gs ++ [x])) = Some ds) by (apply K1; eauto).
  assert (GP : gi_path (i_root i) = Some p) by (apply (K2 []); constructor).
  unfold gi_open. now rewrite GP, G.
Qed.
Lemma stores_low inflate file ds value : stores inflate file ds value -> 0 < lenN file < 2 ^ 63 -> low_ds ds.
Proof.
  intros HS HF c Hc. destruct (st_chunk _ _ _ _ HS c Hc) as (H & _). lia.
Qed.

(** What one reader does with such a selection. *)
Lemma class_reads m inflate sort file ds value e idx cnt dst fuel : addr_sort sort ->
  full_dataset ds -> regular ds -> stores inflate file ds value -> get_start_count e (d_shape ds) = Ok (idx, cnt) ->
  sel_in (d_shape ds) idx cnt -> sel_right m (d_shape ds) (d_chunk_shape ds) idx cnt = true ->
  let n := prodN cnt * d_dsize ds in let good := elements value idx cnt ++ skipn (N.to_nat n) dst in
  n <= lenN dst -> lenN dst < W64 -> (N.to_nat (prodN cnt) < fuel)%nat ->
  lenN (elements value idx cnt) = n /\
  (forall rc, reachable m inflate ds file rc -> fst (cache_read m inflate fuel rc e dst) = (Ok n, good)) /\
  (forall rd, direct_new m ds (Some file) = Ok rd -> direct_read m inflate sort fuel rd e dst = (Ok n, good) /\
     forall y d, par_read m inflate sort fuel rd e dst y d -> y = Ok n /\ d = good) /\
  (forall rs, streamer_new m ds (Some file) = Ok rs -> exists items, stream m inflate fuel rs e = Ok (items, SEnd) /\ concat items = elements value idx cnt).
Proof.
  intros HSort FD RG ST He Hin HR n good Hn HL Hf. pose proof (class_right m ds e idx cnt FD He Hin HR) as RR.
  assert (HA : same_addr ds) by apply ST. assert (Hd : 0 < d_dsize ds) by apply ST.
  assert (XC : forall rc, reachable m inflate ds file rc -> fst (cache_read m inflate fuel rc e dst) = (Ok n, good)).
  { intros rc Hrc. apply (C21_cached_right_partial m inflate file ds value e idx cnt dst fuel rc ST); [constructor; auto|exact Hrc]. }
  split; [exact (slab_bytes_len inflate file ds value idx cnt FD ST Hin)|]. split; [exact XC|]. split.
  - intros rd RD. destruct (new_sized m ds file FD (st_sizes _ _ _ _ ST)) as [[rc RC] _].
    assert (D : direct_read m inflate sort fuel rd e dst = (Ok n, good)).
    { apply (C24_agree m inflate sort fuel ds file rc rd e dst n good HSort HA Hd HL (rc_new m inflate _ _ _ RC) RD). apply XC. now constructor. }
    split; [exact D|]. intros y d. exact (proj2 (proj2 (proj2 (C25_schedules m inflate sort fuel ds file rd e dst HSort HA Hd HL RD))) n good D y d).
  - intros rs RS. apply streamer_made in RS; auto. subst rs.
    destruct (stream_cases m inflate file ds value e idx cnt fuel) as (items & z & k & E1 & E2 & E3 & _);
      [now constructor|now apply stores_are_readable|].
    destruct E3 as [(-> & -> & _)|(y & c & k' & er & _ & [Hc _] & E4 & _)]; [exists items; split; auto; now rewrite E2, firstn_all|].
    exfalso. cbn [fst] in Hc. destruct (load_pipeline m inflate file ds value c ST Hc) as (raw & EL & _).
    destruct (load_total m inflate file ds c RG Hc) as [[R _]|[_ [e' R]]]; [now apply E4|congruence].
Qed.

(** A stream that has said that it is over, without an error, has given all of a stream that ends without one. *)
Lemma ending_end z k n (bs : list bytes) : In PEnd (firstn k (map PItem bs ++ ending z n)) ->
  (forall er, ~ In (PErr er) (firstn k (map PItem bs ++ ending z n))) -> z = SEnd.
Proof.
  rewrite firstn_app, map_length. intros P Q.
  assert (NI : ~ In PEnd (firstn k (map PItem bs))).
  { intros I. assert (J : In PEnd (map PItem bs)) by (rewrite <- (firstn_skipn k (map PItem bs)); apply in_app_iff; now left).
    apply in_map_iff in J as (? & J & _). discriminate. }
  apply in_app_iff in P as [P|P]; [contradiction|]. destruct z as [|er|]; [reflexivity|exfalso..].
  - apply (Q er). apply in_app_iff. right. cbn [ending] in *. destruct (k - length bs)%nat; [destruct P|now left].
  - cbn [ending] in P. assert (J : In PEnd (repeat PPanic n)) by (rewrite <- (firstn_skipn (k - length bs) (repeat PPanic n)); apply in_app_iff; now left).
    apply repeat_spec in J. discriminate.
Qed.
Lemma C100_complete faults m starts now0 now l1 p l2 p0 inflate fuel ds csz e f hist bs z : Forall (made_some m) starts ->
  isteps faults m (now0, starts) (now, l1 ++ p :: l2) -> nth_error starts (length l1) = Some p0 -> low_ds ds -> p_hist p = Some f :: hist ->
  (sys_stream m inflate fuel ds csz e = Ok p0 /\ stream m inflate fuel (mkStreamer ds (Some f) csz) e = Ok (bs, z)) \/
  (exists h al1 al2, sys_xdr m h al1 al2 inflate fuel ds csz e = Ok p0 /\ stream_xdr m h al1 al2 inflate fuel (mkStreamer ds (Some f) csz) e = Ok (bs, z)) ->
  In PEnd (p_outs p) -> (forall er, ~ In (PErr er) (p_outs p)) -> items_of (p_outs p) = bs /\ z = SEnd.
Proof.
  intros HM H HN HL HH HS P Q.
  split; [now apply (C100_items faults m starts now0 now l1 p l2 p0 inflate fuel ds csz e f hist bs z HM H HN HL HH HS)|].
  assert (X : exists ps st, made m inflate fuel ds csz e p0 ps st /\ fst (fst (polls m ps (p_hist p) st)) =
    firstn (length (p_hist p)) (map PItem bs ++ ending z (length (p_hist p)))).
  { rewrite HH. destruct HS as [[S1 S2]|(h & al1 & al2 & S1 & S2)].
    - pose proof S1 as S1'. unfold sys_stream in S1'. apply bind_ok in S1' as (l & El & S1'). apply bind_ok in S1' as (cap & Ec & _).
      assert (E : stream_start m inflate fuel ds csz e = Ok (mkPS (fun file => load m inflate file ds csz) (Ok 1) cap, Fresh l)) by (unfold stream_start; rewrite El; cbn [bind]; rewrite Ec; reflexivity).
      do 2 eexists. split; [split; [exact HL|left; eauto]|]. apply (C69_items m inflate fuel ds csz e _ _ f hist bs z E S2).
    - pose proof S1 as S1'. unfold sys_xdr in S1'. apply bind_ok in S1' as (l & El & S1'). apply bind_ok in S1' as (cap & Ec & _).
      assert (E : exists ps, xdr_start m h al1 al2 inflate fuel ds csz e = Ok (ps, Fresh l)) by (unfold xdr_start; rewrite El; cbn [bind]; rewrite Ec; cbn [bind]; eauto).
      destruct E as [ps E]. do 2 eexists. split; [split; [exact HL|right; eauto 6]|]. apply (C69_xdr_items m h al1 al2 inflate fuel ds csz e _ _ f hist bs z E S2). }
  destruct X as (ps & st & M & E). destruct (C100_failing faults m _ _ _ _ _ _ _ _ _ _ _ _ _ _ HM H HN M) as [A|(k & er & K1 & _ & A)].
  - unfold right_so_far in A. rewrite E, firstn_firstn in A. rewrite A in P, Q. now apply ending_end in P.
  - exfalso. apply (Q er). rewrite A. apply in_or_app. right. now left.
Qed.

(** ** The theorems *)

(** Whatever the threads do, every read of a selection that the slicer gets right gives the elements of the HDF5 file; only
    if calls may fail it may fail, and then each element of the buffer is the one of the file or what was there before. *)
Theorem C101_threads m p root i i' k gs x h cs inflate sort file value fuel :
  addr_sort sort -> named root -> typed_tree root -> lenN p < W64 -> utf8_path (Some p) ->
  index_file m (Some p) root = Ok i ->
  (i' = i \/ exists b, bincode_serialize i = Ok b /\ bincode_deserialize b = Ok i') ->
  Forall (fun c => c <> [] /\ slash_free c) (gs ++ [x]) -> h5_dataset root gs x h ->
  h5_stores inflate file h cs value -> 0 < lenN file < 2 ^ 63 ->
  exists ds, gi_open (i_root i') (slashes k ++ joined (gs ++ [x])) = Ok (p, ds) /\
    forall fl threads ts c t e dst y d idx cnt,
    Forall free threads -> Forall (fun c => low_ds (client_ds c)) threads ->
    msteps fl m inflate sort fuel (map (fun c => (c, [])) threads) ts ->
    In (c, t) (combine threads ts) -> reads_of m ds file c -> In (e, dst, y, d) (snd t) ->
    selects m (h_shape h) cs (dt_size (h_dtype h)) e idx cnt (lenN dst) fuel ->
    let n := prodN cnt * dt_size (h_dtype h) in
    let good := elements value idx cnt ++ skipn (N.to_nat n) dst in
    (y = Ok n /\ d = good) \/
    (fl = true /\ (forall v, y <> Ok v) /\ (In (dt_size (h_dtype h)) [1; 2; 4; 8] -> mixed (dt_size (h_dtype h)) dst good d)).
Proof.
  intros HSort HN HT HPL HU E HI HFp HD HS HFile.
  destruct (opened_stores m p root i i' k gs x h cs inflate file value HN HT HPL HU E HI HFp HD HS) as (ds & G & ST & SZ & FD & RG & Es & Ec & _).
  destruct (new_sized m ds file FD (st_sizes _ _ _ _ ST)) as [[rc0 RC0] [rd0 RD0]]. exists ds. split; [exact G|].
  intros fl threads ts c t e dst y d idx cnt HFree HLow HM Hct HR Hin (S1 & S2 & S3 & S4 & S5 & S6) n good.
  destruct (class_reads m inflate sort file ds value e idx cnt dst fuel HSort FD RG ST) as (LV & XC & XD & _); rewrite ?Es, ?Ec, ?SZ; auto.
  rewrite SZ in XC, XD, LV. fold n in XC, XD, LV. fold good in XC, XD.
  destruct (XD rd0 RD0) as (XD1 & XP2). pose proof (XC rc0 (rc_new _ _ _ _ _ RC0)) as XC0.
  assert (HA : same_addr ds) by apply ST. assert (Hd : 0 < d_dsize ds) by apply ST. pose proof (stores_low _ _ _ _ ST HFile) as HL.
  assert (LG : length good = length dst).
  { unfold good. rewrite app_length, skipn_length. unfold lenN in LV. fold n in S4. unfold lenN in S4. lia. }
  destruct (res_dec y) as [(v & ->)|NO].
  { left. pose proof (C98_right fl m inflate sort fuel ds file rd0 threads ts c t e dst v d HSort HA HL Hd S5 RD0 HFree HLow HM Hct HR Hin) as R.
    rewrite XD1 in R. injection R as <- <-. auto. }
  destruct fl.
  - right. split; [reflexivity|]. split; [exact NO|]. intros H8. rewrite <- SZ in *.
    pose proof (C98_alone true m inflate sort fuel threads ts HSort HFree HLow HM) as A.
    assert (A1 : alone true m inflate sort fuel c (snd t)).
    { clear - A Hct. induction A as [|c1 t1 cs ts A1 _ IH]; [destruct Hct|]. destruct Hct as [Hct|Hct]; [injection Hct as <- <-; auto|auto]. }
    destruct c as [r fp| |r| |r|]; cbn [alone reads_of] in *; try contradiction.
    + destruct A1 as (r' & A1). destruct (cached_in _ _ _ _ _ _ _ ds file _ HR A1 Hin) as (r1 & os & r2 & T1 & E1).
      destruct (C91_recovers m inflate ds file r1 rc0 fuel e dst HA T1 RC0) as [R' _]. rewrite XC0 in R'.
      destruct (C91_buffer m inflate sort fuel ds file r1 rd0 e dst n good HSort HA H8 S5 T1 RD0 R') as (B & _).
      specialize (B os). rewrite E1 in B. cbn [fst snd] in B. now apply partly_mixed.
    + rewrite RD0 in HR. injection HR as <-. rewrite Forall_forall in A1. specialize (A1 _ Hin). cbn in A1. destruct A1 as (opens & os & _ & E1).
      destruct (C91_buffer m inflate sort fuel ds file rc0 rd0 e dst n good HSort HA H8 S5 (tr_new _ _ _ _ _ RC0) RD0 XC0) as (_ & B & _).
      specialize (B opens os). rewrite E1 in B. exact B.
    + rewrite RD0 in HR. injection HR as <-. rewrite Forall_forall in A1. specialize (A1 _ Hin). cbn in A1.
      destruct (C91_buffer m inflate sort fuel ds file rc0 rd0 e dst n good HSort HA H8 S5 (tr_new _ _ _ _ _ RC0) RD0 XC0) as (_ & _ & B).
      exact (B _ _ A1).
  - exfalso. pose proof (C98_plain m inflate sort fuel threads ts HSort HFree HLow HM) as A.
    assert (A1 : plain m inflate sort fuel c (snd t)).
    { clear - A Hct. induction A as [|c1 t1 cs ts A1 _ IH]; [destruct Hct|]. destruct Hct as [Hct|Hct]; [injection Hct as <- <-; auto|auto]. }
    destruct c as [r fp| |r| |r|]; cbn [plain reads_of] in *; try contradiction.
    + destruct A1 as (r' & A1). destruct (plain_in m inflate fuel ds file r _ r' _ A1 HR Hin) as (r1 & R1 & E1). rewrite (XC r1 R1) in E1.
      injection E1 as <- _. now apply (NO n).
    + rewrite RD0 in HR. injection HR as <-. rewrite Forall_forall in A1. specialize (A1 _ Hin). cbn in A1. rewrite XD1 in A1. injection A1 as <- _. now apply (NO n).
    + rewrite RD0 in HR. injection HR as <-. rewrite Forall_forall in A1. specialize (A1 _ Hin). cbn in A1. destruct (XP2 _ _ A1) as [-> _]. now apply (NO n).
Qed.
Print Assumptions C101_threads.

(** Whatever is polled, fails and becomes of the path: the bytes a stream has given that opened the file are the first ones of
    the selection's elements; all of them, once it has ended without an error. *)
Theorem C101_streams m p root i i' k gs x h cs inflate file value fuel :
  named root -> typed_tree root -> lenN p < W64 -> utf8_path (Some p) ->
  index_file m (Some p) root = Ok i ->
  (i' = i \/ exists b, bincode_serialize i = Ok b /\ bincode_deserialize b = Ok i') ->
  Forall (fun c => c <> [] /\ slash_free c) (gs ++ [x]) -> h5_dataset root gs x h ->
  h5_stores inflate file h cs value -> 0 < lenN file < 2 ^ 63 ->
  exists ds rs, gi_open (i_root i') (slashes k ++ joined (gs ++ [x])) = Ok (p, ds) /\ streamer_new m ds (Some file) = Ok rs /\
    forall e idx cnt len, selects m (h_shape h) cs (dt_size (h_dtype h)) e idx cnt len fuel ->
    exists p0, sys_stream m inflate fuel ds (sr_csz rs) e = Ok p0 /\
    forall fl starts now0 now l1 q l2 hist, Forall (made_some m) starts ->
    isteps fl m (now0, starts) (now, l1 ++ q :: l2) -> nth_error starts (length l1) = Some p0 -> p_hist q = Some file :: hist ->
    (exists rest, elements value idx cnt = concat (items_of (p_outs q)) ++ rest) /\
    (In PEnd (p_outs q) -> (forall er, ~ In (PErr er) (p_outs q)) -> concat (items_of (p_outs q)) = elements value idx cnt).
Proof.
  intros HN HT HPL HU E HI HFp HD HS HFile.
  destruct (opened_stores m p root i i' k gs x h cs inflate file value HN HT HPL HU E HI HFp HD HS) as (ds & G & ST & SZ & FD & RG & Es & Ec & _).
  assert (exists rs, streamer_new m ds (Some file) = Ok rs) as (rs & RS).
  { unfold streamer_new. rewrite (chunk_bytes_ok m ds (wm_pos _ (fd_made _ FD)) (st_sizes _ _ _ _ ST)). cbn [bind]. eauto. }
  exists ds, rs. split; [exact G|]. split; [exact RS|].
  intros e idx cnt len (S1 & S2 & S3 & S4 & S5 & S6).
  destruct (class_reads m inflate sort_by_addr file ds value e idx cnt (repeat 0 (N.to_nat len)) fuel sort_by_addr_ok FD RG ST) as (_ & _ & _ & XS);
    rewrite ?Es, ?Ec, ?SZ; auto; [unfold lenN; rewrite repeat_length; lia..|].
  destruct (XS rs RS) as (items & E1 & E2). clear XS.
  assert (RS' : rs = mkStreamer ds (Some file) (sr_csz rs)).
  { unfold streamer_new in RS. apply bind_ok in RS as (csz & _ & RS). injection RS as <-. reflexivity. }
  assert (EP : exists p0, sys_stream m inflate fuel ds (sr_csz rs) e = Ok p0).
  { rewrite RS' in E1. unfold stream in E1. cbn [sr_ds sr_csz] in E1. unfold sys_stream. destruct (collect_slices m fuel ds e); cbn [bind] in *; try discriminate.
    destruct (cache_cap (sr_csz rs)); cbn [bind] in *; try discriminate. eauto. }
  destruct EP as (p0 & EP). exists p0. split; [exact EP|]. intros fl starts now0 now l1 q l2 hist HM H HN0 HH. rewrite RS' in E1.
  destruct (C100_items fl m starts now0 now l1 q l2 p0 inflate fuel ds (sr_csz rs) e file hist items SEnd HM H HN0 (stores_low _ _ _ _ ST HFile) HH) as [(j & A) B];
    [left; split; assumption|]. split.
  - exists (concat (skipn j items)). rewrite A, <- concat_app, firstn_skipn. now rewrite E2.
  - intros P Q. rewrite (B P Q). exact E2.
Qed.
Print Assumptions C101_streams.

(** The same of the XDR streams of integers and floats of known byte order (and of bytes of another type): their bytes are
    the first ones of the XDR forms of the selection's elements. *)
Theorem C101_xdr m p root i i' k gs x h cs inflate file value fuel f hst :
  named root -> typed_tree root -> lenN p < W64 -> utf8_path (Some p) ->
  index_file m (Some p) root = Ok i ->
  (i' = i \/ exists b, bincode_serialize i = Ok b /\ bincode_deserialize b = Ok i') ->
  Forall (fun c => c <> [] /\ slash_free c) (gs ++ [x]) -> h5_dataset root gs x h ->
  h5_stores inflate file h cs value -> 0 < lenN file < 2 ^ 63 ->
  is_bytes file -> (forall a b, inflate a = Some b -> is_bytes b) ->
  indexed_type (h_dtype h) -> (h_order h <> Unknown \/ exists s, h_dtype h = Custom s) ->
  xdr_factor (h_dtype h) = Ok f -> prodN cs * dt_size (h_dtype h) * f < W64 ->
  exists ds rs, gi_open (i_root i') (slashes k ++ joined (gs ++ [x])) = Ok (p, ds) /\ streamer_new m ds (Some file) = Ok rs /\
    forall e idx cnt len, selects m (h_shape h) cs (dt_size (h_dtype h)) e idx cnt len fuel ->
    exists xs p0, Forall2 (fun y v => xdr_of (h_dtype h) (h_order h) (value y) v) (slab idx cnt) xs /\
    sys_xdr m hst true true inflate fuel ds (sr_csz rs) e = Ok p0 /\
    forall fl starts now0 now l1 q l2 hist, Forall (made_some m) starts ->
    isteps fl m (now0, starts) (now, l1 ++ q :: l2) -> nth_error starts (length l1) = Some p0 -> p_hist q = Some file :: hist ->
    (exists rest, concat xs = concat (items_of (p_outs q)) ++ rest) /\
    (In PEnd (p_outs q) -> (forall er, ~ In (PErr er) (p_outs q)) -> concat (items_of (p_outs q)) = concat xs).
Proof.
  intros HN HT HPL HU E HI HFp HD HS HFile HB HIf HTy Ho Hf HW.
  destruct (opened_stores m p root i i' k gs x h cs inflate file value HN HT HPL HU E HI HFp HD HS) as (ds & G & ST & SZ & FD & RG & Es & Ec & Et & Eo).
  assert (exists rs, streamer_new m ds (Some file) = Ok rs) as (rs & RS).
  { unfold streamer_new. rewrite (chunk_bytes_ok m ds (wm_pos _ (fd_made _ FD)) (st_sizes _ _ _ _ ST)). cbn [bind]. eauto. }
  exists ds, rs. split; [exact G|]. split; [exact RS|]. pose proof (streamer_made _ _ _ _ FD RG RS) as ER.
  intros e idx cnt len (S1 & S2 & S3 & S4 & S5 & S6).
  assert (HF0 : 0 < f).
  { clear - Hf HTy. destruct (h_dtype h) as [s|s|s|s]; cbn in Hf, HTy;
      repeat match type of HTy with _ \/ _ => destruct HTy as [HTy|HTy] end; try contradiction; subst;
      try (injection Hf as <-; reflexivity); try (vm_compute in Hf; injection Hf as <-; reflexivity). }
  destruct (xdr_stream_cases m hst inflate file ds value e idx cnt fuel f) as (items & z & n & xs & E1 & E2 & E3 & E4); auto;
    try (unfold csize; rewrite ?Et, ?Eo, ?Ec, ?SZ; assumption).
  - constructor; auto; [now rewrite Es..|]. apply class_right; rewrite ?Es, ?Ec; auto.
  - now apply stores_are_readable.
  - rewrite <- ER in E1. destruct E4 as [(-> & -> & _)|(y & c & k' & er & _ & [Hc _] & E4 & _)].
    2:{ exfalso. cbn [fst] in Hc. destruct (load_pipeline m inflate file ds value c ST Hc) as (raw & EL & _).
        destruct (load_total m inflate file ds c RG Hc) as [[R _]|[_ [e' R]]]; [now apply E4|congruence]. }
    rewrite firstn_all, Et, Eo in E2.
    assert (RS' : rs = mkStreamer ds (Some file) (sr_csz rs)).
    { unfold streamer_new in RS. apply bind_ok in RS as (csz & _ & RS). injection RS as <-. reflexivity. }
    rewrite RS' in E1.
    assert (EP : exists p0, sys_xdr m hst true true inflate fuel ds (sr_csz rs) e = Ok p0).
    { unfold stream_xdr in E1. cbn [sr_ds sr_csz] in E1. unfold sys_xdr. destruct (collect_slices m fuel ds e); cbn [bind] in *; try discriminate.
      destruct (cache_cap (sr_csz rs)); cbn [bind] in *; try discriminate. eauto. }
    destruct EP as (p0 & EP). exists xs, p0. split; [exact E2|]. split; [exact EP|]. intros fl starts now0 now l1 q l2 hist HM H HN0 HH.
    destruct (C100_items fl m starts now0 now l1 q l2 p0 inflate fuel ds (sr_csz rs) e file hist items SEnd HM H HN0 (stores_low _ _ _ _ ST HFile) HH) as [(j & A) B];
      [right; exists hst, true, true; split; assumption|]. rewrite <- E3. split.
    + exists (concat (skipn j items)). now rewrite A, <- concat_app, firstn_skipn.
    + intros P Q. now rewrite (B P Q).
Qed.
Print Assumptions C101_xdr.

(** And of no other selection: in a file whose elements all differ, a read into a buffer of the selection's size that
    succeeds gives the elements if and only if the selection is of that class; so for a stream that ends without an error.
    [fresh]: in release builds the buffer does not have the elements beforehand, where the slicer may leave some unwritten. *)
Theorem C101_exact m p root i i' k gs x h cs inflate sort file value fuel :
  addr_sort sort -> named root -> typed_tree root -> lenN p < W64 -> utf8_path (Some p) ->
  index_file m (Some p) root = Ok i ->
  (i' = i \/ exists b, bincode_serialize i = Ok b /\ bincode_deserialize b = Ok i') ->
  Forall (fun c => c <> [] /\ slash_free c) (gs ++ [x]) -> h5_dataset root gs x h ->
  h5_stores inflate file h cs value -> h5_distinct inflate file h cs -> 0 < lenN file < 2 ^ 63 ->
  exists ds rs, gi_open (i_root i') (slashes k ++ joined (gs ++ [x])) = Ok (p, ds) /\ streamer_new m ds (Some file) = Ok rs /\
    forall e idx cnt, get_start_count e (h_shape h) = Ok (idx, cnt) -> sel_in (h_shape h) idx cnt ->
    let sz := dt_size (h_dtype h) in let n := prodN cnt * sz in
    let right := sel_right m (h_shape h) cs idx cnt = true in
    let fresh dst := m = Release -> single_end cs cnt = true ->
      forall q c, nth_error (slab idx cnt) q = Some c -> value c <> word (N.to_nat sz) q dst in
    n < W64 -> (N.to_nat (prodN cnt) < fuel)%nat ->
    (m = Release -> (2 * prodN cnt + 3 * prodN cs) * sz < W64 /\
       (single_end cs cnt = true -> 8 * (N.of_nat (length cnt) * (prodN cnt * prodN cs)) * sz < W64)) ->
    (forall fl threads ts c t dst v d,
       Forall free threads -> Forall (fun c => low_ds (client_ds c)) threads ->
       msteps fl m inflate sort fuel (map (fun c => (c, [])) threads) ts ->
       In (c, t) (combine threads ts) -> reads_of m ds file c -> In (e, dst, Ok v, d) (snd t) -> lenN dst = n -> fresh dst ->
       (v = n /\ d = elements value idx cnt <-> right)) /\
    (forall fl starts now0 now l1 q l2 p0 hist, sys_stream m inflate fuel ds (sr_csz rs) e = Ok p0 -> Forall (made_some m) starts ->
       isteps fl m (now0, starts) (now, l1 ++ q :: l2) -> nth_error starts (length l1) = Some p0 -> p_hist q = Some file :: hist ->
       In PEnd (p_outs q) -> (forall er, ~ In (PErr er) (p_outs q)) ->
       (concat (items_of (p_outs q)) = elements value idx cnt <-> right)).
Proof.
  intros HSort HN HT HPL HU E HI HFp HD HS HX HFile.
  destruct (opened_stores m p root i i' k gs x h cs inflate file value HN HT HPL HU E HI HFp HD HS) as (ds & G & ST & SZ & FD & RG & Es & Ec & _).
  destruct (C54_class_exact m p root i i' k gs x h cs inflate sort file value HSort HN HT HPL HU E HI HFp HD HS HX) as (ds' & G' & X).
  assert (ds' = ds) as -> by (rewrite G in G'; congruence).
  assert (exists rs, streamer_new m ds (Some file) = Ok rs) as (rs & RS).
  { unfold streamer_new. rewrite (chunk_bytes_ok m ds (wm_pos _ (fd_made _ FD)) (st_sizes _ _ _ _ ST)). cbn [bind]. eauto. }
  destruct (new_sized m ds file FD (st_sizes _ _ _ _ ST)) as [_ [rd0 RD0]].
  exists ds, rs. split; [exact G|]. split; [exact RS|]. intros e idx cnt He Hin sz n right fresh Hn Hf HM.
  specialize (X e idx cnt fuel He Hin Hn Hf HM). cbv zeta in X. destruct X as (XR & XS & _). fold (elements value idx cnt) in XR, XS. fold sz n right in XR, XS.
  assert (HA : same_addr ds) by apply ST. assert (Hd : 0 < d_dsize ds) by apply ST. pose proof (stores_low _ _ _ _ ST HFile) as HL.
  split.
  - intros fl threads ts c t dst v d HFree HLow HMs Hct HR Hi HLen HFr.
    assert (HW : lenN dst < W64) by lia.
    pose proof (C98_right fl m inflate sort fuel ds file rd0 threads ts c t e dst v d HSort HA HL Hd HW RD0 HFree HLow HMs Hct HR Hi) as R.
    destruct (XR dst HLen HFr) as (_ & XD). destruct (XD rd0 RD0) as [XD1 _]. rewrite <- XD1, R. split; [intros [-> ->]; reflexivity|intros [= -> ->]; auto].
  - intros fl starts now0 now l1 q l2 p0 hist EP HMade H HN0 HH P Q. rewrite <- (XS rs RS).
    assert (RS' : rs = mkStreamer ds (Some file) (sr_csz rs)).
    { unfold streamer_new in RS. apply bind_ok in RS as (csz & _ & RS). injection RS as <-. reflexivity. }
    assert (exists items z, stream m inflate fuel rs e = Ok (items, z)) as (items & z & E1).
    { rewrite RS'. unfold stream. cbn [sr_ds sr_csz sr_file]. unfold sys_stream in EP. destruct (collect_slices m fuel ds e); cbn [bind] in *; try discriminate.
      destruct (cache_cap (sr_csz rs)); cbn [bind] in *; try discriminate.
      match goal with |- exists a b, Ok ?x = _ => destruct x as [a b]; eauto end. }
    rewrite RS' in E1 at 1.
    destruct (C100_complete fl m starts now0 now l1 q l2 p0 inflate fuel ds (sr_csz rs) e file hist items z HMade H HN0 HL HH (or_introl (conj EP E1)) P Q) as [Y ->].
    rewrite Y, <- RS' in *. split; [intros C; eauto|intros (it & C1 & C2); congruence].
Qed.
Print Assumptions C101_exact.

(** The example file, indexed: its dataset is that of C98's and C100's cases, whose threads and streams read this selection. *)
Example C101_case m : exists i, index_file m (Some [47; 116]) st_tree = Ok i /\ named st_tree /\ typed_tree st_tree /\
  h5_dataset st_tree [[103]] [120] st_h5 /\ h5_stores toy_inflate st_file st_h5 [2; 3] st_value /\ 0 < lenN st_file < 2 ^ 63 /\
  gi_open (i_root i) (slashes 0 ++ joined ([[103]] ++ [[120]])) = Ok ([47; 116], st_ds) /\
  selects m (h_shape st_h5) [2; 3] (dt_size (h_dtype st_h5)) st_sel [1; 2] [3; 4] (lenN (repeat 9 24)) 13 /\
  exists rc rd ts t dst d, reads_of m st_ds st_file (CFree rc 0) /\ reads_of m st_ds st_file (DFree rd) /\ reads_of m st_ds st_file (PFree rd) /\
    msteps false m toy_inflate sort_by_addr 13 (map (fun c => (c, [])) [CFree rc 0; DFree rd; PFree rd]) ts /\
    In (CFree rc 0, t) (combine [CFree rc 0; DFree rd; PFree rd] ts) /\ In (st_sel, dst, Ok 24, d) (snd t) /\ dst = repeat 9 24.
Proof.
  destruct (C54_case m) as (H1 & H2 & H3 & H4 & (i & H5) & H6 & H7). exists i. split; [exact H5|]. do 4 (split; [assumption|]).
  split; [vm_compute; split; reflexivity|].
  split; [destruct m; vm_compute in H5; injection H5 as <-; vm_compute; reflexivity|].
  split. { split; [exact H6|]. split; [|split; [destruct m; vm_compute; reflexivity|split; [vm_compute; discriminate|split; [reflexivity|vm_compute; lia]]]].
    split; [reflexivity|split; [reflexivity|split; [repeat constructor|]]].
    intros [|[|[|j]]] a b c A B C; cbn in A, B, C; try discriminate; injection A as <-; injection B as <-; vm_compute in C; injection C as <-; vm_compute; discriminate. }
  destruct (C98_case m) as (rc & rd & good & _ & _ & _ & _ & _ & HR & _ & _ & _ & c1 & c2 & c3 & _ & M1 & d1 & d2 & d3 & _ & M2).
  inversion HR as [|? ? R1 HR']; subst. inversion HR' as [|? ? R2 HR'']; subst. inversion HR'' as [|? ? R3 _]; subst.
  do 6 eexists. split; [exact R1|]. split; [exact R2|]. split; [exact R3|]. split; [eapply msteps_trans; [exact M1|exact M2]|].
  split; [left; reflexivity|]. split; [left; reflexivity|reflexivity].
Qed.
(** The further hypotheses of the XDR streams.  What a program inflates are bytes: [only_bytes] gives up where the toy one
    would not give bytes, which it does only for what is no file. *)
Definition only_bytes (inflate : bytes -> option bytes) (s : bytes) : option bytes :=
  match inflate s with Some l => if forallb (fun b => b <? 256) l then Some l else None | None => None end.
Lemma only_bytes_bytes inflate a b : only_bytes inflate a = Some b -> is_bytes b.
Proof.
  unfold only_bytes. destruct (inflate a) as [l|]; [|discriminate]. destruct (forallb _ l) eqn:E; [|discriminate]. intros [= <-].
  unfold is_bytes. rewrite forallb_forall in E. apply Forall_forall. intros x Hx. apply N.ltb_lt. now apply E.
Qed.
Lemma only_bytes_pipeline inflate w fs l r : (0 < w)%nat -> (forall a b, is_bytes a -> inflate a = Some b -> is_bytes b) ->
  pipeline inflate w fs l r -> is_bytes r -> is_bytes l /\ pipeline (only_bytes inflate) w fs l r.
Proof.
  intros Hw HI. induction 1 as [l|fs l n s r H1 H2 IH|fs l z s r H1 H2 IH]; intros HB.
  - split; [exact HB|constructor].
  - destruct (IH HB) as [B1 B2]. split; [eapply shuffled_bytes; eauto|econstructor; eauto].
  - destruct (IH HB) as [B1 B2]. assert (B3 := HI _ _ B1 H1). split; [exact B3|]. econstructor; eauto. unfold only_bytes. rewrite H1.
    replace (forallb (fun b => b <? 256) l) with true; [reflexivity|]. symmetry. apply forallb_forall. intros y Hy. apply N.ltb_lt.
    unfold is_bytes in B3. rewrite Forall_forall in B3. now apply B3.
Qed.
Lemma only_bytes_h5 inflate file h cs value : (forall a b, is_bytes a -> inflate a = Some b -> is_bytes b) -> is_bytes file ->
  h5_stores inflate file h cs value -> h5_stores (only_bytes inflate) file h cs value.
Proof.
  intros HI HB [A1 A2 A3 A4 A5 A6 A7 (chunks & C1 & C2 & C3)]. constructor; auto. exists chunks. split; [exact C1|]. split; [exact C2|].
  intros c Hc. destruct (C3 c Hc) as (D1 & raw & D2 & D3). split; [exact D1|]. exists raw. split; [|exact D3].
  apply only_bytes_pipeline; auto; [lia|now apply is_bytes_file].
Qed.
Example C101_xdr_case : is_bytes st_file /\ (forall a b, only_bytes toy_inflate a = Some b -> is_bytes b) /\
  h5_stores (only_bytes toy_inflate) st_file st_h5 [2; 3] st_value /\ indexed_type (h_dtype st_h5) /\
  h_order st_h5 <> Unknown /\ xdr_factor (h_dtype st_h5) = Ok 2 /\ prodN [2; 3] * dt_size (h_dtype st_h5) * 2 < W64.
Proof.
  assert (B : is_bytes st_file) by (vm_compute; repeat constructor).
  split; [exact B|]. split; [exact (only_bytes_bytes toy_inflate)|]. split.
  - apply only_bytes_h5; [|exact B|exact st_h5_stores]. unfold toy_inflate. intros [|a l] b H E; [discriminate|].
    destruct (a =? 120); [|discriminate]. injection E as <-. now inversion H.
  - split; [cbn; auto|split; [discriminate|split; reflexivity]].
Qed.
