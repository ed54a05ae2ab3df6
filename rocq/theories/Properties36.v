(** * C66, the readers: a series at a point is read rightly or not at all. *)
From Verif Require Import Base Spec SpecApi SpecReader Radix Safe Chunk Extent Dataset Slicer Filters SpecFilter Reader
  SlicerTheorems SliceProps ReadProofs CacheProofs ReaderProps DirectProofs ParProofs SeriesProofs Properties4 Properties10 Properties22 Properties32 Properties35.

Local Arguments N.add : simpl never.
Local Arguments N.sub : simpl never.
Local Arguments N.mul : simpl never.
Local Arguments N.div : simpl never.
Local Arguments N.modulo : simpl never.
Local Arguments N.min : simpl never.

(** The dataset, selection and file of such a series, with sizes a 64-bit machine can hold. *)
Record series (inflate : bytes -> option bytes) (file : bytes) (ds : dataset) (value : list N -> bytes)
    (e : extents) (s : N) (ss : list N) (c i : N) (is : list N) (n : N) (dst : bytes) (fuel : nat) : Prop := {
  sr_full : full_dataset ds;
  sr_regular : regular ds;
  sr_shape : d_shape ds = s :: ss;
  sr_chunks : d_chunk_shape ds = c :: repeat 1 (length ss);
  sr_start : get_start_count e (d_shape ds) = Ok (i :: is, n :: repeat 1 (length ss));
  sr_in : sel_in (d_shape ds) (i :: is) (n :: repeat 1 (length ss));
  sr_stores : stores inflate file ds value;
  sr_bytes : (s + c) * d_dsize ds < W64;
  sr_cap : n * d_dsize ds <= lenN dst;
  sr_dst : lenN dst < W64;
  sr_fuel : (N.to_nat n < fuel)%nat
}.

Theorem C66_read m inflate file ds value e s ss c i is n dst fuel rc :
  series inflate file ds value e s ss c i is n dst fuel -> reachable m inflate ds file rc ->
  let others := N.of_nat (length ss) in
  let right := (Ok (n * d_dsize ds),
                concat (map value (slab (i :: is) (n :: repeat 1 (length ss)))) ++
                skipn (N.to_nat (n * d_dsize ds)) dst) in
  (* right exactly under the condition of C66_series *)
  (fst (cache_read m inflate fuel rc e dst) = right <->
   forall t, 0 < t -> t < n -> (i + t) mod c = 0 ->
     match m with Debug => others <= N.min t c | Release => others < n - (t - c) end) /\
  (* and never silently wrong *)
  (forall v d, fst (cache_read m inflate fuel rc e dst) = (Ok v, d) -> (Ok v, d) = right).
Proof.
  intros [HF HReg Hsh Hcs He Hsel HS HW Hcap Hdst Hfuel] HC others right.
  assert (Hn : prodN (n :: repeat 1 (length ss)) = n).
  { change (n * prodN (repeat 1 (length ss)) = n). rewrite prodN_ones. lia. }
  assert (Hc : prodN (d_chunk_shape ds) = c).
  { rewrite Hcs. change (c * prodN (repeat 1 (length ss)) = c). rewrite prodN_ones. lia. }
  pose proof (C66_series m ds e s ss c i is n HF Hsh Hcs He Hsel) as HE. cbv zeta in HE. fold others in HE.
  assert (Hright : reads_right m ds e (i :: is) (n :: repeat 1 (length ss)) ->
    fst (cache_read m inflate fuel rc e dst) = right).
  { intros H. unfold right. rewrite <- Hn at 1 3.
    apply (C21_cached_right_partial m inflate file ds value e); auto. constructor; auto; rewrite Hn; auto. }
  assert (Hok : forall v d, fst (cache_read m inflate fuel rc e dst) = (Ok v, d) ->
    reads_right m ds e (i :: is) (n :: repeat 1 (length ss))).
  { intros v d H. apply HE. intros t H1 H2 H3.
    assert (HA : same_addr ds) by apply HReg.
    rewrite (cache_read_reachable m inflate ds file rc fuel e dst HA HC) in H.
    destruct (reachable_inv m inflate ds file rc HA HC) as (_ & _ & HZ & _).
    apply csize_fresh in HZ; [|apply HF|apply HReg]. rewrite HZ in H.
    apply plain_read_iff in H as (_ & out & (segs & os & ES & HO & _ & _) & _).
    unfold chunk_slices in ES. rewrite (chunk_slicer_ok m ds e _ _ HF He Hsel) in ES.
    rewrite Hsh in Hsel.
    assert (HI : inside_some ds s c i n ss is m 0).
    { exists fuel, segs. split; [exact ES|].
      assert (Hd : 0 < d_dsize ds) by apply HReg.
      clear - HO HReg Hd HW Hc.
      induction HO as [|[[c0 a0] b0] o l os Hseg HO IH]; constructor; [|exact IH].
      intros Hin Hlt. destruct Hseg as (s1 & s2 & data & _ & M2 & _ & EL & M4 & _).
      rewrite (load_len m inflate file ds HReg c0 data Hin EL) in M4.
      rewrite mul64_ok in M2 by nia. injection M2 as <-. unfold csize in M4. rewrite Hc in M4. nia. }
    pose proof (series_inside ds s c i n ss is HF Hsh Hcs Hsel m (N.to_nat (n - 0)) 0 eq_refl ltac:(lia) (or_introl eq_refl) HI t H1 H2 H3) as Hf.
    unfold fits_at in Hf. destruct m; [|exact Hf]. replace (N.min t c) with (t - (t - c)) by lia. exact Hf. }
  split.
  - split.
    + intros H. apply HE. apply (Hok _ _ H).
    + intros H. apply Hright, HE, H.
  - intros v d H. rewrite <- H. apply Hright, (Hok _ _ H).
Qed.
Print Assumptions C66_read.

(** The direct and the parallel reader; the parallel one under every schedule. *)
Theorem C66_direct m inflate sort file ds value e s ss c i is n dst fuel rd :
  series inflate file ds value e s ss c i is n dst fuel -> addr_sort sort ->
  direct_new m ds (Some file) = Ok rd ->
  let others := N.of_nat (length ss) in
  let right := (Ok (n * d_dsize ds),
                concat (map value (slab (i :: is) (n :: repeat 1 (length ss)))) ++
                skipn (N.to_nat (n * d_dsize ds)) dst) in
  let fits := forall t, 0 < t -> t < n -> (i + t) mod c = 0 ->
     match m with Debug => others <= N.min t c | Release => others < n - (t - c) end in
  (direct_read m inflate sort fuel rd e dst = right <-> fits) /\
  (forall v d, direct_read m inflate sort fuel rd e dst = (Ok v, d) -> (Ok v, d) = right) /\
  (forall x d, par_read m inflate sort fuel rd e dst x d -> ((x, d) = right <-> fits)) /\
  (forall v d, par_read m inflate sort fuel rd e dst (Ok v) d -> (Ok v, d) = right).
Proof.
  intros HS HSort HD others right fits.
  assert (HA : same_addr ds) by apply (sr_regular _ _ _ _ _ _ _ _ _ _ _ _ _ HS).
  assert (Hd : 0 < d_dsize ds) by apply (sr_regular _ _ _ _ _ _ _ _ _ _ _ _ _ HS).
  assert (HW : lenN dst < W64) by apply (sr_dst _ _ _ _ _ _ _ _ _ _ _ _ _ HS).
  destruct (new_ok m ds file (sr_full _ _ _ _ _ _ _ _ _ _ _ _ _ HS) (sr_regular _ _ _ _ _ _ _ _ _ _ _ _ _ HS)) as [[rc Hrc] _].
  assert (HC : reachable m inflate ds file rc) by now constructor.
  destruct (C66_read m inflate file ds value e s ss c i is n dst fuel rc HS HC) as [R1 R2].
  fold others in R1. fold right in R1, R2. fold fits in R1.
  pose proof (fun v d => C24_agree m inflate sort fuel ds file rc rd e dst v d HSort HA Hd HW HC HD) as AG.
  destruct (C25_schedules m inflate sort fuel ds file rd e dst HSort HA Hd HW HD) as (_ & _ & P1 & P2).
  assert (D1 : direct_read m inflate sort fuel rd e dst = right <-> fits).
  { rewrite <- R1. symmetry. apply AG. }
  assert (D2 : forall v d, direct_read m inflate sort fuel rd e dst = (Ok v, d) -> (Ok v, d) = right).
  { intros v d H. apply R2. now apply AG. }
  split; [exact D1|]. split; [exact D2|]. split.
  - intros x d H. split.
    + intros E. apply D1. injection E as -> ->. exact (P1 _ _ H).
    + intros Hf. apply D1 in Hf. destruct (P2 _ _ Hf x d H) as [-> ->]. reflexivity.
  - intros v d H. apply D2, P1, H.
Qed.
Print Assumptions C66_direct.

(** A case: five one-byte elements in chunks of two. *)
Definition ser_ds : dataset :=
  mkDataset (UInt 1) 1 LE
    [mkChunk 0 2 [0;0;0]; mkChunk 2 2 [2;0;0]; mkChunk 4 2 [4;0;0]]
    [5;1;1] [2;1;1] [2;1;1] [1;1;1] [1;1;1] [1;1;1] false None.
Definition ser_file : bytes := [10; 11; 12; 13; 14; 15].
Definition ser_value (x : list N) : bytes := [10 + nth 0 x 0].
Lemma ser_full : full_dataset ser_ds.
Proof.
  constructor; [constructor|..]; try reflexivity.
  - repeat constructor.
  - repeat split; repeat constructor.
Qed.
Lemma ser_regular : regular ser_ds.
Proof.
  constructor; [constructor; [reflexivity|reflexivity|discriminate|reflexivity]| |].
  - intros c c'. cbn [ser_ds d_chunks In]. intros [<-|[<-|[<-|[]]]] [<-|[<-|[<-|[]]]]; reflexivity || discriminate.
  - intros _ c. cbn [ser_ds d_chunks In]. intros [<-|[<-|[<-|[]]]]; reflexivity.
Qed.
Lemma ser_stores inflate : stores inflate ser_file ser_ds ser_value.
Proof.
  constructor; [apply ser_regular|apply ser_regular|].
  assert (G : forall a o, (a = 0 /\ o = 0) \/ (a = 2 /\ o = 2) \/ (a = 4 /\ o = 4) ->
    forall x k, holds ser_ds x (mkChunk a 2 [o; 0; 0], k) ->
      word 1 (N.to_nat k) (file_bytes ser_file a 2) = ser_value x).
  { intros a o HC x k (_ & (L1 & L2 & H) & Hk). cbn [fst snd c_offset ser_ds d_chunk_shape length] in *.
    destruct x as [|t [|y [|z [|? ?]]]]; try discriminate.
    pose proof (H 0%nat t o 2 eq_refl eq_refl eq_refl) as H0. pose proof (H 1%nat y 0 1 eq_refl eq_refl eq_refl) as H1.
    pose proof (H 2%nat z 0 1 eq_refl eq_refl eq_refl) as H2.
    cbn [map2 row_major prodN] in Hk. assert (y = 0) by lia. assert (z = 0) by lia. subst y z.
    assert (Ek : k = t - o) by lia. subst k. assert (T : t = o \/ t = o + 1) by lia.
    destruct HC as [(-> & ->)|[(-> & ->)|(-> & ->)]]; destruct T as [-> | ->]; reflexivity. }
  intros c Hc. cbn [ser_ds d_chunks In] in Hc. destruct Hc as [<-|[<-|[<-|[]]]];
    (split; [vm_compute; discriminate|]; eexists; split; [constructor|split; [reflexivity|]]; intros x k _ Hh; cbn [c_addr c_size];
     eapply G; [|exact Hh]; auto).
Qed.
Lemma ser_series inflate e i n dst fuel : 
  get_start_count e [5; 1; 1] = Ok ([i; 0; 0], [n; 1; 1]) -> sel_in [5; 1; 1] [i; 0; 0] [n; 1; 1] ->
  n <= lenN dst -> lenN dst < W64 -> (N.to_nat n < fuel)%nat ->
  series inflate ser_file ser_ds ser_value e 5 [1; 1] 2 i [0; 0] n dst fuel.
Proof.
  intros. constructor; auto; try reflexivity.
  - exact ser_full.
  - exact ser_regular.
  - apply ser_stores.
  - cbn [ser_ds d_dsize]. now rewrite N.mul_1_r.
Qed.
(** Three elements from the last one of a chunk on: refused with overflow checks, right without. *)
Example C66_read_case m inflate rc : reachable m inflate ser_ds ser_file rc ->
  fst (cache_read m inflate 9 rc (Extents [SliceCount 1 3; Index 0; Index 0]) [7; 7; 7; 7]) <> (Ok 3, [11; 12; 13; 7])
  <-> m = Debug.
Proof.
  intros HC.
  assert (S1 : sel_in [5; 1; 1] [1; 0; 0] [3; 1; 1]) by sel_in_tac.
  destruct (C66_read m inflate ser_file ser_ds ser_value (Extents [SliceCount 1 3; Index 0; Index 0]) 5 [1; 1] 2 1 [0; 0] 3
    [7; 7; 7; 7] 9 rc) as [H _]; auto.
  { apply ser_series; [reflexivity|exact S1|vm_compute; discriminate|reflexivity|vm_compute; repeat constructor]. }
  cbv zeta in H. change (3 * d_dsize ser_ds) with 3 in H.
  change (concat (map ser_value (slab [1; 0; 0] (3 :: repeat 1 (length [1; 1])))) ++ skipn (N.to_nat 3) [7; 7; 7; 7])
    with [11; 12; 13; 7] in H.
  rewrite H. cbn [length]. split.
  - intros N. destruct m; auto. exfalso. apply N. intros t H1 H2 H3. assert (t = 1 \/ t = 2) as [-> | ->] by lia; reflexivity || discriminate.
  - intros -> N. specialize (N 1 ltac:(lia) ltac:(lia) eq_refl). vm_compute in N. now apply N.
Qed.
