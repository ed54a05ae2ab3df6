(** * The XDR stream is exact (C36).

    Each theorem is followed by a concrete case meeting its hypotheses. *)
From Verif Require Import Base Spec Safe Chunk Extent Dataset Slicer SpecApi Filters SpecFilter FilterProofs FilterProps ApiLemmas
  Reader SpecReader DirectProofs ParProofs ReaderProps ReadProofs CacheProofs StreamProofs ExamplesReader Examples SliceProps ExactReads
  SlicerRelease2 ExactFamily Properties4 Properties5 Properties10 Properties12 Properties20 Properties23 Properties24 Properties13.

(** ** An element is determined by its XDR form *)

Lemma num_le_inj a : forall b, is_bytes a -> is_bytes b -> length a = length b -> num_le a = num_le b -> a = b.
Proof.
  induction a as [|x a IH]; intros [|y b] HA HB HL E; cbn [length] in HL; try discriminate; auto.
  inversion HA as [|? ? X1 X2]; inversion HB as [|? ? Y1 Y2]; subst. cbn [num_le] in E.
  assert (x = y /\ num_le a = num_le b) as [-> E'] by lia.
  f_equal. apply IH; auto.
Qed.

Lemma num_in_inj o a b : is_bytes a -> is_bytes b -> length a = length b -> o <> Unknown -> num_in o a = num_in o b -> a = b.
Proof.
  intros HA HB HL Ho. destruct o; [| |now elim Ho]; cbn [num_in]; intros [= E].
  2: now apply num_le_inj.
  - rewrite !num_be_rev in E. rewrite <- (rev_involutive a), <- (rev_involutive b). f_equal.
    apply num_le_inj; auto; try (apply Forall_rev; assumption). now rewrite !rev_length.
Qed.

Lemma num_in_bound o a v : is_bytes a -> num_in o a = Some v -> v < 2 ^ (8 * lenN a).
Proof.
  intros HA. assert (B : forall l, is_bytes l -> num_le l < 2 ^ (8 * lenN l)).
  { induction 1 as [|x l Hx HF IH]; [cbn; lia|]. cbn [num_le]. rewrite lenN_cons, N.mul_add_distr_l, N.pow_add_r.
    change (2 ^ (8 * 1)) with 256. nia. }
  destruct o; cbn [num_in]; intros [= <-]; auto. rewrite num_be_rev. replace (lenN a) with (lenN (rev a)) by (unfold lenN; now rewrite rev_length).
  apply B. now apply Forall_rev.
Qed.

Lemma as_signed_inj w v v' : v < 2 ^ (8 * N.of_nat w) -> v' < 2 ^ (8 * N.of_nat w) -> as_signed w v = as_signed w v' -> v = v'.
Proof.
  intros H H'. unfold as_signed. generalize dependent (2 ^ (8 * N.of_nat w)). generalize (2 ^ (8 * N.of_nat w - 1)). intros p q H H'.
  destruct (N.ltb_spec v p), (N.ltb_spec v' p); lia.
Qed.

Lemma int_value_inj sg o a b : is_bytes a -> is_bytes b -> length a = length b -> o <> Unknown ->
  int_value sg o a = int_value sg o b -> a = b.
Proof.
  intros HA HB HL Ho E. apply (num_in_inj o); auto. unfold int_value in E.
  destruct (num_in o a) as [v|] eqn:Ea; [|destruct (num_in o b); [discriminate|reflexivity]].
  destruct (num_in o b) as [v'|] eqn:Eb; [|discriminate]. f_equal. injection E as E.
  pose proof (num_in_bound _ _ _ HA Ea) as Ba. pose proof (num_in_bound _ _ _ HB Eb) as Bb. unfold lenN in *. rewrite <- HL in *.
  destruct sg; [now apply as_signed_inj in E|lia].
Qed.

Lemma xdr_of_inj dt o a b r : is_bytes a -> is_bytes b -> length a = length b -> (o <> Unknown \/ exists s, dt = Custom s) ->
  xdr_of dt o a r -> xdr_of dt o b r -> a = b.
Proof.
  intros HA HB HL Ho. assert (Ho' : o <> Unknown \/ exists s, dt = Custom s) by exact Ho.
  destruct dt as [s|s|s|s]; cbn [xdr_of]; [| | |congruence];
    (destruct Ho as [Ho|[s' Ho]]; [|discriminate]); intros [_ E1] [_ E2].
  - apply (int_value_inj false o); auto; congruence.
  - apply (int_value_inj true o); auto; congruence.
  - apply (num_in_inj o); auto; congruence.
Qed.

Lemma xdr_of_len dt o v r : (forall s, dt <> Custom s) -> xdr_of dt o v r -> length r = N.to_nat (xdr_width dt).
Proof.
  destruct dt as [s|s|s|s]; cbn [xdr_of xdr_width]; intros HC H; [| | |now elim (HC s)]; destruct H as [H _]; unfold lenN in H; lia.
Qed.

Lemma same_words w (a b : list bytes) : (0 < w)%nat -> Forall (fun v => length v = w) a -> Forall (fun v => length v = w) b ->
  concat a = concat b -> a = b.
Proof.
  intros Hw HA HB E. pose proof (FilterProofs.concat_length w a HA) as LA. pose proof (FilterProofs.concat_length w b HB) as LB. rewrite E, LB in LA.
  apply Nat.mul_cancel_l in LA; [|lia].
  rewrite <- (words_of_concat w a HA), <- (words_of_concat w b HB), E. f_equal. symmetry. exact LA.
Qed.

(** ** If the XDR stream ends, so does the plain one *)

Lemma splain_conv m h inflate file ds csz f :
  (m = Debug \/ f = 1) -> 0 < f ->
  (forall c data, In c (d_chunks ds) -> load m inflate file ds csz c = Ok data -> is_bytes data /\
     forall r, xdr h true true data (d_dtype ds) (d_order ds) = Ok r -> lenN r = lenN data * f) ->
  forall l items', Forall (fun t => In (fst (fst t)) (d_chunks ds) /\ snd (fst t) < W64 /\ snd t < W64) l ->
  splain m (fun c => let* data := load m inflate file ds csz c in xdr h true true data (d_dtype ds) (d_order ds)) (Ok f) l = (items', SEnd) ->
  exists items, splain m (load m inflate file ds csz) (Ok 1) l = (items, SEnd) /\ Forall is_bytes items.
Proof.
  intros HM Hf HL. induction l as [|[[c s] e] l IH]; intros items' HF E; cbn [splain] in *.
  - exists []. split; [reflexivity|constructor].
  - inversion HF as [|? ? (F1 & F2 & F3) F4]; subst. cbn [fst snd] in *.
    match type of E with match ?X with _ => _ end = _ => destruct X as [b| | | |] eqn:EB; try discriminate end.
    destruct (splain m _ (Ok f) l) as [bs z] eqn:ES in E. injection E as <- ->.
    destruct (IH _ F4 ES) as (items & E1 & E2).
    apply bind_ok in EB as ([s' e'] & ER & EB). apply bind_ok in EB as (r & EG & EB). apply bind_ok in EG as (data & ED & EX).
    destruct (HL c data F1 ED) as [B1 B2]. specialize (B2 r EX).
    unfold srange in ER. cbn [bind] in ER. apply bind_ok in ER as (s1 & M1 & ER). apply bind_ok in ER as (e1 & M2 & ER).
    apply bind_ok in ER as (? & _ & ER). injection ER as <- <-.
    assert (s1 = s * f /\ e1 = e * f) as [-> ->].
    { destruct HM as [-> | ->].
      - unfold mul64 in M1, M2. destruct (_ <? _) in M1; [|discriminate]. destruct (_ <? _) in M2; [|discriminate].
        injection M1 as <-. injection M2 as <-. auto.
      - rewrite mul64_ok in M1, M2 by lia. split; congruence. }
    unfold take_slice in EB. apply bind_ok in EB as (? & _ & EB). apply bind_ok in EB as (? & _ & EB).
    apply slice_range_ok in EB as (R1 & R2 & _). rewrite B2 in R2.
    assert (S1 : s <= e) by nia. assert (S2 : e <= lenN data) by nia. clear R1 R2 M1 M2.
    unfold srange. cbn [bind]. rewrite !mul64_ok by lia. cbn [bind]. rewrite !N.mul_1_r. rewrite dbg_ok by (now apply N.leb_le). cbn [bind].
    rewrite ED. cbn [bind]. unfold take_slice. rewrite !dbg_ok by (apply N.leb_le; lia). cbn [bind].
    unfold slice_range. rewrite !leb_true by lia. cbn [andb]. rewrite E1. eexists. split; [reflexivity|].
    constructor; auto. apply Forall_firstn_. now apply Forall_skipn_.
Qed.

(** The XDR form of elements: [r] is [v1' v2' ...], each the XDR form of the corresponding element. *)
Definition xdr_elems (dt : datatype) (o : order) (vs : list bytes) (r : bytes) : Prop :=
  exists rs, r = concat rs /\ Forall2 (xdr_of dt o) vs rs.

(** The stream of XDR values ends without an error having delivered the XDR form of exactly the
    selected elements if and only if the selection is in the class.  (In a release build for
    types that XDR does not widen: 32- and 64-bit numbers and custom types.) *)
Theorem C36_distinct m h inflate file ds value e idx cnt fuel rs f :
  distinct_stream m inflate file ds value e idx cnt fuel ->
  is_bytes file -> (forall a b, inflate a = Some b -> is_bytes b) ->
  indexed_type (d_dtype ds) -> (d_order ds <> Unknown \/ exists s, d_dtype ds = Custom s) ->
  xdr_factor (d_dtype ds) = Ok f -> prodN (d_chunk_shape ds) * d_dsize ds * f < W64 -> (m = Debug \/ f = 1) ->
  streamer_new m ds (Some file) = Ok rs ->
  ((exists items, stream_xdr m h true true inflate fuel rs e = Ok (items, SEnd) /\
      xdr_elems (d_dtype ds) (d_order ds) (map value (slab idx cnt)) (concat items)) <->
   sel_safe (d_shape ds) (d_chunk_shape ds) idx cnt = true).
Proof.
  intros HD HB HI HT Ho Hf HW HM HN. pose proof HD as [A1 A2 A3 A4 A5 A6 A7 A8 A9].
  assert (HA : same_addr ds) by apply A3. assert (HZ : supported_sizes ds) by apply A3.
  assert (ED : d_dsize ds = dt_size (d_dtype ds)) by apply A1.
  pose proof (ss_pos _ HZ) as Hd.
  assert (FX : 0 < f).
  { destruct (d_dtype ds) as [s|s|s|s]; cbn [indexed_type] in HT; cbn in HT;
      repeat match type of HT with _ \/ _ => destruct HT as [HT|HT] end; try contradiction; subst;
      try (vm_compute in Hf; injection Hf as <-; reflexivity). }
  split.
  2:{ intros HS. destruct (C36_xdr_partial m h inflate file ds value e idx cnt fuel rs f) as (items & z & n & vs & E1 & E2 & E3 & E4); auto.
      - apply stores_are_readable; auto.
      - constructor; auto.
      - destruct E4 as [(-> & -> & _)|(y & c & k & er & _ & [Hc _] & E4 & _)].
        + exists items. split; auto. rewrite firstn_all in E2. exists vs. split; auto. clear - E2. induction E2; cbn [map]; constructor; auto.
        + exfalso. cbn [fst] in Hc. destruct (load_pipeline m inflate file ds value c A3 Hc) as (raw & EL & _).
          destruct (load_total m inflate file ds c A2 Hc) as [[R _]|[_ [e' R]]]; [now apply E4|congruence]. }
  intros (items' & EX & rs' & ER & HF2).
  pose proof HN as HN'. unfold streamer_new in HN. apply bind_ok in HN as (csz & EZ & HN). injection HN as <-.
  pose proof (csize_fresh m ds csz (wm_pos _ (fd_made _ A1)) HZ EZ) as ->.
  assert (HWC : whole_chunks ds f).
  { intros G c Hc. rewrite (rg_plain _ A2 G c Hc). split; [apply N.mod_mul; lia|auto]. }
  assert (HDATA : forall c data, In c (d_chunks ds) -> load m inflate file ds (csize ds) c = Ok data -> is_bytes data /\
     forall r, xdr h true true data (d_dtype ds) (d_order ds) = Ok r -> lenN r = lenN data * f).
  { intros c data Hc EL. destruct (load_whole m inflate file ds c data (csize ds) HB HI) as (B1 & B2 & B3); auto.
    - unfold csize. apply N.mod_mul. lia.
    - intros G. now apply (HWC G c Hc).
    - split; auto. intros r Er. apply N.mod_divide in B2 as [n En]; [|lia].
      destruct (xdr_words h (d_dtype ds) (d_order ds) data (N.to_nat n) B1 HT Ho) as (r' & f' & X1 & X2 & X3 & X4 & X5 & _).
      { unfold lenN in En. rewrite <- ED. lia. }
      rewrite X1 in Er. injection Er as <-. rewrite Hf in X2. injection X2 as <-. unfold lenN in *. rewrite X5, En, <- X3, <- ED.
      rewrite Nat2N.inj_mul, !N2Nat.id. lia. }
  (* the plain stream ends *)
  assert (exists items, stream m inflate fuel (mkStreamer ds (Some file) (csize ds)) e = Ok (items, SEnd) /\ Forall is_bytes items) as (items & ES & BI).
  { unfold stream, stream_xdr in *. cbn [sr_ds sr_file sr_csz] in *.
    apply bind_ok in EX as (l & EL & EX). apply bind_ok in EX as (cap & ECAP & EX). injection EX as EX.
    rewrite EL. cbn [bind]. rewrite ECAP. cbn [bind].
    assert (HG : forall c c', In c (d_chunks ds) -> In c' (d_chunks ds) -> c_addr c = c_addr c' ->
       load m inflate file ds (csize ds) c = load m inflate file ds (csize ds) c') by (intros; apply load_same; auto).
    rewrite (stream_is_plain m _ (Ok 1) fuel ds e l cap HG EL).
    rewrite (stream_is_plain m _ _ fuel ds e l cap) in EX
      by (auto; intros c c' H1 H2 H3; now rewrite (HG c c' H1 H2 H3)).
    rewrite Hf in EX.
    destruct (splain_conv m h inflate file ds (csize ds) f HM FX HDATA l items') as (items & E1 & E2); auto; [|exists items; rewrite E1; auto].
    unfold collect_slices in EL; pose proof (slices_in m fuel ds e) as SI;
    destruct (chunk_slices m fuel ds e) as [segs st]; apply bind_ok in EL as (l' & El & EL);
    apply bind_ok in EL as (? & _ & EL); injection EL as ->; cbn [fst] in SI.
    clear - El SI. revert l El. induction SI as [|[[c a] b] segs H1 HF IH]; intros l El.
    - injection El as <-. constructor.
    - cbn [byte_slices] in El. apply bind_ok in El as (s & Es & El). apply bind_ok in El as (e' & Ee & El).
      apply bind_ok in El as (l' & El' & El). injection El as <-. constructor; auto. cbn [fst snd].
      apply mul64_lt in Es, Ee. auto. }
  destruct (C36_agrees m h inflate fuel ds file _ e items f HA HWC HB HI HT ED Ho Hf HN') as (items2 & E2 & HR2); auto.
  rewrite EX in E2. injection E2 as <-.
  apply (C35_distinct m inflate file ds value e idx cnt fuel _ HD HN'). exists items. split; auto.
  (* the bytes agree *)
  assert (VL : Forall (fun v => is_bytes v /\ length v = N.to_nat (d_dsize ds)) (map value (slab idx cnt))).
  { apply Forall_map, Forall_forall. intros c Hc.
    assert (HIs := slab_in_shape _ _ _ _ A6 Hc). split; [|exact (value_length inflate file ds value idx cnt c A1 A3 A6 Hc)].
    assert (HFit : fits64 (d_shape ds)) by (apply (sel_in_fits _ idx cnt); auto; apply A1).
    destruct (lookup_ok Debug ds c A1 HFit HIs) as (ch & _ & HIn & HBx & _).
    destruct (st_chunk _ _ _ _ A3 ch HIn) as (_ & raw & HP & _ & HV).
    rewrite <- (HV c (row_major (d_chunk_shape ds) (map2 N.sub c (c_offset ch))) HIs (conj HIn (conj HBx eq_refl))).
    apply is_bytes_word. apply pipeline_bytes in HP; auto; [lia|]. now apply is_bytes_file. }
  assert (BC : is_bytes (concat items)) by (unfold is_bytes; apply Forall_concat; exact BI).
  clear - HR2 ER HF2 VL BC Ho ED HT Hd. rename ER into EV.
  destruct (d_dtype ds) as [s|s|s|s] eqn:ET; cycle 3.
  { assert (concat items' = concat items) as <- by (clear - HR2; cbn [xdr_run] in HR2; induction HR2 as [|b b' l l' -> HR2 IH]; cbn [concat]; congruence).
    rewrite EV. f_equal. clear - HF2. induction HF2 as [|a b l l' H1 HF2 IH]; auto. cbn [xdr_of] in H1. congruence. }
  all: rewrite <- ET in *; assert (HCu : forall s', d_dtype ds <> Custom s') by (intros s'; rewrite ET; discriminate).
  all: assert (exists vs rs, concat items = concat vs /\ concat items' = concat rs /\
           Forall (fun v => lenN v = dt_size (d_dtype ds)) vs /\ Forall2 (xdr_of (d_dtype ds) (d_order ds)) vs rs) as (vs & rs & V1 & V2 & V3 & V4).
  1,3,5: clear - HR2 ET; unfold xdr_run in HR2; rewrite ET in *;
     induction HR2 as [|b b' l l' (vs & rs & -> & -> & H1 & H2) HX (vs' & rs' & E1 & E2 & H3 & H4)]; cbn [concat];
      [exists [], []; repeat split; auto; constructor|];
    exists (vs ++ vs'), (rs ++ rs'); rewrite !concat_app, E1, E2; split; [reflexivity|]; split; [reflexivity|];
    split; [apply Forall_app; auto|now apply Forall2_app].
  all: assert (HWd : (0 < N.to_nat (xdr_width (d_dtype ds)))%nat) by (rewrite ET in *; cbn [xdr_width dt_size] in *; lia).
  all: assert (rs = rs') as ->.
  1,3,5: apply (same_words (N.to_nat (xdr_width (d_dtype ds)))); auto; [| |congruence];
    [clear - V4 HCu; induction V4; constructor; auto; eapply xdr_of_len; eauto
    |clear - HF2 HCu; induction HF2; constructor; auto; eapply xdr_of_len; eauto].
  all: rewrite V1; f_equal.
  all: assert (VB : Forall (fun v => is_bytes v /\ length v = N.to_nat (d_dsize ds)) vs).
  1,3,5: rewrite V1 in BC; unfold is_bytes in BC; clear - BC V3 ED; induction V3 as [|v vs Hv V3 IH]; constructor;
    cbn [concat] in BC; apply Forall_app in BC as [B1 B2]; [split; [exact B1|rewrite ED; unfold lenN in Hv; lia]|now apply IH].
  all: clear - V4 HF2 VL VB Ho; revert VL HF2; generalize (map value (slab idx cnt)) as us; induction V4 as [|v r vs rs H4 V4 IH]; intros us VL HF2;
    inversion HF2 as [|u ? us' ? H5 HF2']; subst; auto;
    inversion VL as [|? ? [L1 L2] VL']; inversion VB as [|? ? [B1 B2] VB']; subst;
    f_equal; [eapply (xdr_of_inj (d_dtype ds) (d_order ds)); eauto; congruence|now apply IH].
Qed.
Print Assumptions C36_distinct.

Example C36_distinct_case m h inflate : exists rs,
  distinct_stream m inflate words_file bad_ds bad_value All [0; 0; 0] [4; 3; 5] 61 /\
  is_bytes words_file /\ indexed_type (d_dtype bad_ds) /\ d_order bad_ds <> Unknown /\ xdr_factor (d_dtype bad_ds) = Ok 1 /\
  prodN (d_chunk_shape bad_ds) * d_dsize bad_ds * 1 < W64 /\ streamer_new m bad_ds (Some words_file) = Ok rs /\
  ((forall a b, inflate a = Some b -> is_bytes b) ->
   ~ exists items, stream_xdr m h true true inflate 61 rs All = Ok (items, SEnd) /\
      xdr_elems (d_dtype bad_ds) (d_order bad_ds) (map bad_value (slab [0; 0; 0] [4; 3; 5])) (concat items)).
Proof.
  destruct (C35_distinct_case m inflate) as (_ & _ & D & S & _ & rs & HN). exists rs.
  assert (B : is_bytes words_file).
  { assert (Q : forallb (fun b => b <? 256) words_file = true) by (vm_compute; reflexivity).
    apply Forall_forall. intros b Hb. rewrite forallb_forall in Q. now apply N.ltb_lt, Q. }
  split; [exact D|]. split; [exact B|]. split; [cbn; auto|]. split; [discriminate|]. split; [reflexivity|]. split; [reflexivity|].
  split; [exact HN|]. intros HI H. apply (C36_distinct m h inflate words_file bad_ds bad_value All [0; 0; 0] [4; 3; 5] 61 rs 1 D) in H; auto.
  - rewrite S in H. discriminate.
  - cbn; auto.
  - left. discriminate.
  - reflexivity.
Qed.
