(** * The direct reader agrees with the cached one: sequential part. *)
From Verif Require Import Base Spec Extent Chunk Dataset Slicer Filters SpecApi SpecFilter SpecReader
  FilterProofs Termination GroupProofs SliceProps Writes Reader CacheProofs.

(** ** Segments fit in 64 bits *)

Lemma add64_lt m a b r : add64 m a b = Ok r -> r < W64.
Proof.
  unfold add64. destruct (N.ltb_spec (a + b) W64); [intros [= <-]; auto|].
  destruct m; [discriminate|]. intros [= <-]. apply N.mod_lt. discriminate.
Qed.
Lemma chunk_start_lt m x : forall acc o z r, acc < W64 -> chunk_start m acc x o z = Ok r -> r < W64.
Proof.
  induction x as [|v x IH]; intros acc [|o os] [|z zs] r Ha H; cbn [chunk_start] in H;
    try (injection H as <-; auto; fail).
  debind H. debind H. debind H. eapply IH; [|exact H]. eapply add64_lt; eauto.
Qed.
Definition seg64 (sg : segment) : Prop := let '(c, a, b) := sg in a < W64 /\ b < W64.
Lemma next_64 m ds st sg st' : slicer_next m ds st = Ok (Some (sg, st')) -> seg64 sg.
Proof.
  unfold slicer_next. destruct (_ <=? _); [discriminate|]. destruct (is_scalar ds).
  - intros H. debind H. debind H. destruct (d_chunks ds); [discriminate|]. injection H as <- _. split; reflexivity.
  - intros H. debind H. debind H. debind H. apply bind_ok in H as (cs & Ecs & H).
    apply bind_ok in H as ([[[[v1 r1] k1] av] f1] & E4 & H).
    debind H. debind H. apply bind_ok in H as (ce & Ece & H). debind H. injection H as <- _. split.
    + eapply chunk_start_lt; [|exact Ecs]. reflexivity.
    + eapply add64_lt; eauto.
Qed.
Lemma slices_64 m fuel ds e : Forall seg64 (fst (chunk_slices m fuel ds e)).
Proof.
  unfold chunk_slices. destruct (chunk_slicer m ds e) as [st| | | |]; try constructor.
  revert st. induction fuel as [|fuel IH]; intros st; cbn [slicer_run]; [constructor|].
  destruct (slicer_next m ds st) as [[[sg st']|]| | | |] eqn:E; try constructor.
  specialize (IH st'). destruct (slicer_run m fuel ds st') as [l s]. cbn [fst] in *.
  constructor; auto. eapply next_64; eauto.
Qed.

(** ** One segment *)

(** The bytes a segment contributes. *)
Definition seg_ok (m : mode) (L : chunk -> res bytes) (dsz : N) (sg : segment) (o : bytes) : Prop :=
  let '(c, a, b) := sg in
  exists s e data, mul64 m a dsz = Ok s /\ mul64 m b dsz = Ok e /\ s <= e /\ L c = Ok data /\
    e <= lenN data /\ o = firstn (N.to_nat (e - s)) (skipn (N.to_nat s) data).

Lemma slice_len (data : bytes) s e : s <= e -> e <= lenN data ->
  lenN (firstn (N.to_nat (e - s)) (skipn (N.to_nat s) data)) = e - s.
Proof. unfold lenN. intros. rewrite firstn_length, skipn_length. lia. Qed.
Lemma slice_range_ok {A} (l : list A) a b r : slice_range l a b = Ok r ->
  a <= b /\ b <= lenN l /\ r = firstn (N.to_nat (b - a)) (skipn (N.to_nat a) l).
Proof.
  unfold slice_range. destruct (N.leb_spec a b), (N.leb_spec b (lenN l)); cbn [andb]; try discriminate.
  intros [= <-]. auto.
Qed.
Lemma slice_range_eq {A} (l : list A) a b : a <= b -> b <= lenN l ->
  slice_range l a b = Ok (firstn (N.to_nat (b - a)) (skipn (N.to_nat a) l)).
Proof. unfold slice_range. intros H1 H2. apply N.leb_le in H1, H2. now rewrite H1, H2. Qed.
Lemma leb_true a b : a <= b -> (a <=? b) = true. Proof. apply N.leb_le. Qed.
Lemma assert_ok b x : assert_ b = Ok x -> b = true. Proof. now destruct b. Qed.

Lemma seg_copy_iff m L dsz sg pos dst r :
  seg_copy m L dsz sg pos dst = Ok r <->
  exists o, seg_ok m L dsz sg o /\ pos + lenN o <= lenN dst /\ r = (splice dst pos o, pos + lenN o).
Proof.
  destruct sg as [[c a] b]. unfold seg_copy, seg_ok, byte_range, copy_slice. split.
  - intros H. apply bind_ok in H as ([[s e] sz] & E1 & H).
    apply bind_ok in E1 as (s' & Es & E1). apply bind_ok in E1 as (e' & Ee & E1). debind E1.
    apply bind_ok in E1 as (sz' & Esz & E1). injection E1 as -> -> ->.
    apply bind_ok in H as (data & EL & H). apply bind_ok in H as (dst' & H1 & H). injection H as <-.
    debind H1. debind H1. apply bind_ok in H1 as ([] & EA & H1). apply assert_ok, N.leb_le in EA.
    apply bind_ok in H1 as (src & Esrc & H1). injection H1 as <-.
    apply slice_range_ok in Esrc as (Hse & Hed & ->).
    rewrite sub64_ok in Esz by auto. injection Esz as <-.
    eexists. split; [exists s, e, data; repeat split; eauto|]. rewrite slice_len by auto. auto.
  - intros (o & (s & e & data & Es & Ee & Hse & EL & Hed & ->) & Hb & ->).
    rewrite slice_len in Hb by auto.
    rewrite Es, Ee. cbn [bind]. rewrite dbg_ok by now apply leb_true. cbn [bind].
    rewrite sub64_ok by auto. cbn [bind]. rewrite EL. cbn [bind].
    rewrite dbg_ok by (apply leb_true; lia). rewrite dbg_ok by (apply leb_true; lia). cbn [bind].
    rewrite (leb_true _ _ Hb). cbn [assert_ bind]. rewrite slice_range_eq by auto. cbn [bind].
    rewrite slice_len by auto. reflexivity.
Qed.

Lemma splice_len {A} (l : list A) p s : p + lenN s <= lenN l -> lenN (splice l p s) = lenN l.
Proof. intros H. unfold lenN. now rewrite splice_length. Qed.

Lemma plain_loop_iff m L dsz st : forall segs pos dst dst', pos <= lenN dst ->
  (plain_loop m L dsz segs st pos dst = (Ok tt, dst') <->
   st = SDone /\ exists os, Forall2 (seg_ok m L dsz) segs os /\ pos + lenN (concat os) <= lenN dst /\
     dst' = splice dst pos (concat os)).
Proof.
  induction segs as [|sg segs IH]; intros pos dst dst' Hp; cbn [plain_loop].
  - split.
    + intros [= E <-]. split; [destruct st; auto; discriminate|]. exists []. cbn [concat].
      rewrite splice_nil. repeat split; auto. cbn. lia.
    + intros (-> & os & HF & _ & ->). inversion HF; subst. cbn [concat]. now rewrite splice_nil.
  - pose proof (seg_copy_iff m L dsz sg pos dst) as SI.
    destruct (seg_copy m L dsz sg pos dst) as [[d1 p1]| | | |].
    + destruct (proj1 (SI _) eq_refl) as (o & Ho & Hb & E). injection E as -> ->.
      rewrite IH by (rewrite splice_len; auto). rewrite splice_len by auto. split.
      * intros (-> & os & HF & Hb2 & ->). split; auto. exists (o :: os). cbn [concat].
        rewrite lenN_app. split; [now constructor|]. split; [lia|]. rewrite splice_app; auto; lia.
      * intros (-> & os & HF & Hb2 & ->). split; auto. inversion HF as [|? o' ? os' H1 H2]; subst.
        assert (o' = o).
        { destruct sg as [[c a] b]. cbn in Ho, H1.
          destruct Ho as (s & e & d & E1 & E2 & _ & E3 & _ & ->), H1 as (s' & e' & d' & F1 & F2 & _ & F3 & _ & ->).
          congruence. }
        subst o'. cbn [concat] in *. rewrite lenN_app in Hb2. exists os'. split; auto. split; [lia|].
        rewrite splice_app; auto; lia.
    + split; [discriminate|]. intros (-> & os & HF & Hb & ->). inversion HF as [|? o ? os' H1 H2]; subst.
      cbn [concat] in Hb. rewrite lenN_app in Hb. assert (Hb' : pos + lenN o <= lenN dst) by lia.
      discriminate (proj2 (SI _) (ex_intro _ o (conj H1 (conj Hb' eq_refl)))).
    + split; [discriminate|]. intros (-> & os & HF & Hb & ->). inversion HF as [|? o ? os' H1 H2]; subst.
      cbn [concat] in Hb. rewrite lenN_app in Hb. assert (Hb' : pos + lenN o <= lenN dst) by lia.
      discriminate (proj2 (SI _) (ex_intro _ o (conj H1 (conj Hb' eq_refl)))).
    + split; [discriminate|]. intros (-> & os & HF & Hb & ->). inversion HF as [|? o ? os' H1 H2]; subst.
      cbn [concat] in Hb. rewrite lenN_app in Hb. assert (Hb' : pos + lenN o <= lenN dst) by lia.
      discriminate (proj2 (SI _) (ex_intro _ o (conj H1 (conj Hb' eq_refl)))).
    + split; [discriminate|]. intros (-> & os & HF & Hb & ->). inversion HF as [|? o ? os' H1 H2]; subst.
      cbn [concat] in Hb. rewrite lenN_app in Hb. assert (Hb' : pos + lenN o <= lenN dst) by lia.
      discriminate (proj2 (SI _) (ex_intro _ o (conj H1 (conj Hb' eq_refl)))).
Qed.

(** ** One grouped segment *)

Definition gseg_ok (m : mode) (L : chunk -> res bytes) (dsz dlen : N) (g : gsegment) (ws : list (N * N)) : Prop :=
  exists p o, mul64 m (g_dest g) dsz = Ok p /\ seg_ok m L dsz (g_chunk g, g_from g, snd g) o /\
    p + lenN o <= dlen /\ ws = combine (seqN p (length o)) o.

Lemma gseg_bounds m L dsz dlen g ws : gseg_ok m L dsz dlen g ws -> in_bounds dlen ws.
Proof. intros (p & o & _ & _ & H & ->). now apply in_bounds_combine. Qed.
Lemma seg_ok_fun m L dsz sg o o' : seg_ok m L dsz sg o -> seg_ok m L dsz sg o' -> o = o'.
Proof.
  destruct sg as [[c a] b]. cbn.
  intros (s & e & d & E1 & E2 & _ & E3 & _ & ->) (s' & e' & d' & F1 & F2 & _ & F3 & _ & ->). congruence.
Qed.
Lemma gseg_fun m L dsz dlen g w w' : gseg_ok m L dsz dlen g w -> gseg_ok m L dsz dlen g w' -> w = w'.
Proof.
  intros (p & o & E1 & E2 & _ & ->) (p' & o' & F1 & F2 & _ & ->).
  rewrite (seg_ok_fun _ _ _ _ _ _ E2 F2). congruence.
Qed.

Lemma copy_at_iff m L dsz c cur a b data dst r : lenN dst < W64 -> L c = Ok data ->
  (copy_at m data dsz cur a b dst = Ok r <->
   exists ws, gseg_ok m L dsz (lenN dst) (c, cur, a, b) ws /\ r = apply_writes ws dst).
Proof.
  intros HW EL. unfold copy_at, gseg_ok, seg_ok, g_dest, g_chunk, g_from. cbn [fst snd]. split.
  - intros H. apply bind_ok in H as (s & Es & H). apply bind_ok in H as (e & Ee & H).
    apply bind_ok in H as (p & Ep & H). debind H. debind H. apply bind_ok in H as (sz & Esz & H).
    apply bind_ok in H as (q & Eq & H). apply bind_ok in H as ([] & EA & H).
    apply assert_ok, andb_true_iff in EA as [EA1 EA2]. apply N.leb_le in EA1, EA2.
    apply bind_ok in H as (src & Esrc & H). apply slice_range_ok in Esrc as (Hse & Hed & Esrc).
    debind H. injection H as <-. rewrite sub64_ok in Esz by auto. injection Esz as <-.
    assert (LS : lenN src = e - s) by (rewrite Esrc; now apply slice_len).
    assert (Hq : q = p + (e - s)).
    { unfold add64 in Eq. destruct (N.ltb_spec (p + (e - s)) W64); [now injection Eq|].
      destruct m; [discriminate|]. injection Eq as Eq.
      assert (q - p = lenN src).
      { apply assert_ok in E1. now apply N.eqb_eq in E1. }
      lia. }
    exists (combine (seqN p (length src)) src). split.
    + exists p, src. split; auto. split; [exists s, e, data; repeat split; auto|]. split; [lia|auto].
    + rewrite apply_combine; auto. lia.
  - intros (ws & (p & o & Ep & (s & e & data' & Es & Ee & Hse & EL' & Hed & Eo) & Hb & ->) & ->).
    assert (data' = data) by congruence. subst data'.
    rewrite apply_combine by auto.
    assert (LS : lenN o = e - s) by (rewrite Eo; now apply slice_len).
    rewrite Es, Ee, Ep. cbn [bind].
    rewrite dbg_ok by (apply leb_true; lia). rewrite dbg_ok by (apply leb_true; lia). cbn [bind].
    rewrite sub64_ok by auto. cbn [bind]. rewrite add64_ok by lia. cbn [bind].
    rewrite (leb_true p) by lia. rewrite (leb_true (p + (e - s))) by lia. cbn [andb assert_ bind].
    rewrite slice_range_eq by auto. cbn [bind]. rewrite <- Eo, LS.
    replace (p + (e - s) - p) with (e - s) by lia. rewrite N.eqb_refl. reflexivity.
Qed.

(** The loop of the direct reader. *)
Definition last_ok (ds : dataset) (L : chunk -> res bytes) (last : option (N * bytes)) : Prop :=
  match last with
  | Some (a, data) => exists c, In c (d_chunks ds) /\ c_addr c = a /\ L c = Ok data
  | None => True
  end.

Definition dload (m : mode) (inflate : bytes -> option bytes) (r : direct) (file : bytes) : chunk -> res bytes :=
  load m inflate file (dr_ds r) (dr_csz r).

Lemma direct_load_eq m inflate r file last c :
  same_addr (dr_ds r) -> In c (d_chunks (dr_ds r)) -> last_ok (dr_ds r) (dload m inflate r file) last ->
  direct_load m inflate r file last c = dload m inflate r file c.
Proof.
  intros HA Hin HL. unfold direct_load. destruct last as [[a data]|]; auto.
  destruct (N.eqb_spec a (c_addr c)) as [->|]; auto.
  destruct HL as (c0 & H0 & Ea & E). rewrite <- E. unfold dload. apply load_same; auto.
Qed.

Lemma direct_loop_iff m inflate r file : same_addr (dr_ds r) -> forall G last dst dst',
  lenN dst < W64 -> Forall (fun g => In (g_chunk g) (d_chunks (dr_ds r))) G ->
  last_ok (dr_ds r) (dload m inflate r file) last ->
  (direct_loop m inflate r file G last dst = (Ok tt, dst') <->
   exists wss, Forall2 (gseg_ok m (dload m inflate r file) (d_dsize (dr_ds r)) (lenN dst)) G wss /\
     dst' = apply_writes (concat wss) dst).
Proof.
  intros HA. induction G as [|g G IH]; intros last dst dst' HW HF HL.
  - cbn [direct_loop]. split.
    + intros [= <-]. exists []. split; [constructor|reflexivity].
    + intros (wss & H & ->). inversion H; subst. reflexivity.
  - destruct g as [[[c cur] a] b]. cbn [direct_loop]. inversion HF as [|? ? H1 H2]; subst.
    unfold g_chunk in H1. cbn [fst] in H1. rewrite direct_load_eq by auto.
    destruct (dload m inflate r file c) as [data| | | |] eqn:EL.
    + pose proof (fun x => copy_at_iff m (dload m inflate r file) (d_dsize (dr_ds r)) c cur a b data dst x HW EL) as CI.
      destruct (copy_at m data (d_dsize (dr_ds r)) cur a b dst) as [d1| | | |].
      * destruct (proj1 (CI d1) eq_refl) as (ws & Hws & ->).
        assert (EN : lenN (apply_writes ws dst) = lenN dst).
        { unfold lenN. rewrite apply_length; auto. eapply gseg_bounds; eauto. }
        rewrite IH; rewrite ?EN; auto; [|exists c; auto]. split.
        -- intros (wss & HH & ->). exists (ws :: wss). split; [now constructor|]. cbn [concat].
           now rewrite apply_app.
        -- intros (wss & HH & ->). inversion HH as [|? w ? wss' W1 W2]; subst.
           rewrite (gseg_fun _ _ _ _ _ _ _ W1 Hws). exists wss'. split; auto. cbn [concat].
           now rewrite apply_app.
      * split; [discriminate|]. intros (wss & HH & ->). inversion HH as [|? w ? wss' W1 W2]; subst.
        discriminate (proj2 (CI _) (ex_intro _ w (conj W1 eq_refl))).
      * split; [discriminate|]. intros (wss & HH & ->). inversion HH as [|? w ? wss' W1 W2]; subst.
        discriminate (proj2 (CI _) (ex_intro _ w (conj W1 eq_refl))).
      * split; [discriminate|]. intros (wss & HH & ->). inversion HH as [|? w ? wss' W1 W2]; subst.
        discriminate (proj2 (CI _) (ex_intro _ w (conj W1 eq_refl))).
      * split; [discriminate|]. intros (wss & HH & ->). inversion HH as [|? w ? wss' W1 W2]; subst.
        discriminate (proj2 (CI _) (ex_intro _ w (conj W1 eq_refl))).
    + split; [discriminate|]. intros (wss & HH & ->). inversion HH as [|? w ? wss' W1 W2]; subst.
      destruct W1 as (p1 & o1 & _ & (s1 & e1 & d1 & _ & _ & _ & E & _) & _). cbn in E. congruence.
    + split; [discriminate|]. intros (wss & HH & ->). inversion HH as [|? w ? wss' W1 W2]; subst.
      destruct W1 as (p1 & o1 & _ & (s1 & e1 & d1 & _ & _ & _ & E & _) & _). cbn in E. congruence.
    + split; [discriminate|]. intros (wss & HH & ->). inversion HH as [|? w ? wss' W1 W2]; subst.
      destruct W1 as (p1 & o1 & _ & (s1 & e1 & d1 & _ & _ & _ & E & _) & _). cbn in E. congruence.
    + split; [discriminate|]. intros (wss & HH & ->). inversion HH as [|? w ? wss' W1 W2]; subst.
      destruct W1 as (p1 & o1 & _ & (s1 & e1 & d1 & _ & _ & _ & E & _) & _). cbn in E. congruence.
Qed.

(** ** Destinations *)

(** 64-bit results up to multiples of 2^64. *)
Lemma mod_cong x : exists k, (Z.of_N (x mod W64) = Z.of_N x + k * Z.of_N W64)%Z.
Proof.
  exists (- (Z.of_N (x / W64)))%Z. pose proof (N.div_mod x W64 ltac:(discriminate)) as D. nia.
Qed.
Lemma mul64_cong m a b r : mul64 m a b = Ok r ->
  r < W64 /\ exists k, (Z.of_N r = Z.of_N a * Z.of_N b + k * Z.of_N W64)%Z.
Proof.
  unfold mul64. destruct (N.ltb_spec (a * b) W64).
  - intros [= <-]. split; auto. exists 0%Z. lia.
  - destruct m; [discriminate|]. intros [= <-]. split; [apply N.mod_lt; discriminate|].
    destruct (mod_cong (a * b)) as [k E]. exists k. rewrite E. lia.
Qed.
Lemma mul64_0 m d : mul64 m 0 d = Ok 0.
Proof. apply (mul64_ok m 0 d). reflexivity. Qed.
Lemma mul64_release a b : mul64 Release a b = Ok ((a * b) mod W64).
Proof. unfold mul64. destruct (N.ltb_spec (a * b) W64); auto. now rewrite N.mod_small. Qed.
Lemma add64_release a b : add64 Release a b = Ok ((a + b) mod W64).
Proof. unfold add64. destruct (N.ltb_spec (a + b) W64); auto. now rewrite N.mod_small. Qed.
Lemma sub64_release a b : a < W64 -> b < W64 -> sub64 Release a b = Ok ((a + W64 - b) mod W64).
Proof.
  unfold sub64. intros Ha Hb. destruct (N.leb_spec b a); auto.
  replace (a + W64 - b) with (a - b + 1 * W64) by lia. rewrite N.mod_add by discriminate.
  rewrite N.mod_small; auto. lia.
Qed.
Lemma cong_eq x y : x < W64 -> y < W64 -> (exists k, (Z.of_N x = Z.of_N y + k * Z.of_N W64)%Z) -> x = y.
Proof.
  intros Hx Hy [k E].
  assert (k = 0%Z) by (destruct (Z.lt_trichotomy k 0) as [?|[?|?]]; auto; unfold W64 in *; exfalso; nia).
  subst k. lia.
Qed.

Lemma dest_step m dsz off pos a b s e :
  0 < dsz -> off < W64 -> a < W64 -> b < W64 ->
  mul64 m off dsz = Ok pos -> mul64 m a dsz = Ok s -> mul64 m b dsz = Ok e ->
  s <= e -> pos + (e - s) < W64 ->
  exists sz off', sub64 m b a = Ok sz /\ add64 m off sz = Ok off' /\ off' < W64 /\
    mul64 m off' dsz = Ok (pos + (e - s)).
Proof.
  intros Hd Ho Ha Hb Ep Es Ee Hse HW. destruct m.
  - apply mul64_debug in Ep as [-> _], Es as [-> _], Ee as [-> _].
    assert (a <= b) by nia. exists (b - a), (off + (b - a)).
    assert (E : (off + (b - a)) * dsz = off * dsz + (b * dsz - a * dsz)) by nia.
    assert (off + (b - a) < W64) by nia.
    rewrite sub64_ok, add64_ok, mul64_ok; auto; try lia.
    split; auto. split; auto. split; auto. now rewrite E.
  - rewrite sub64_release by auto. do 2 eexists. split; [reflexivity|]. rewrite add64_release.
    split; [reflexivity|]. split; [apply N.mod_lt; discriminate|]. rewrite mul64_release. f_equal.
    destruct (mul64_cong _ _ _ _ Ep) as (_ & k1 & E1), (mul64_cong _ _ _ _ Es) as (_ & k2 & E2),
      (mul64_cong _ _ _ _ Ee) as (_ & k3 & E3).
    apply cong_eq; [apply N.mod_lt; discriminate|auto|].
    set (q := (b + W64 - a) mod W64). destruct (mod_cong (b + W64 - a)) as [k4 E4]. fold q in E4.
    set (t := (off + q) mod W64). destruct (mod_cong (off + q)) as [k5 E5]. fold t in E5.
    destruct (mod_cong (t * dsz)) as [k6 E6]. rewrite E6, N2Z.inj_mul, E5, N2Z.inj_add, E4.
    rewrite N2Z.inj_add, (N2Z.inj_sub e s) by auto. rewrite E1, E2, E3.
    rewrite (N2Z.inj_sub (b + W64) a) by lia. rewrite N2Z.inj_add.
    exists (Z.of_N dsz + k4 * Z.of_N dsz + k5 * Z.of_N dsz + k6 - k1 - k3 + k2)%Z. ring.
Qed.

Lemma dests_fwd m L dsz dlen : 0 < dsz -> dlen < W64 -> forall segs os off pos,
  Forall seg64 segs -> off < W64 -> mul64 m off dsz = Ok pos ->
  Forall2 (seg_ok m L dsz) segs os -> pos + lenN (concat os) <= dlen ->
  exists D wss, scan_dest m off segs = Ok D /\ Forall2 (gseg_ok m L dsz dlen) D wss /\
    concat wss = combine (seqN pos (length (concat os))) (concat os).
Proof.
  intros Hd HW. induction segs as [|[[c a] b] segs IH]; intros os off pos H64 Ho Ep HF Hb.
  - inversion HF; subst. exists [], []. split; [reflexivity|]. split; [constructor|reflexivity].
  - inversion HF as [|? o ? os' H1 H2]; subst. inversion H64 as [|? ? A H64']; subst. unfold seg64 in A. destruct A as [A1 A2].
    cbn [concat] in Hb. rewrite lenN_app in Hb. pose proof H1 as H1'.
    unfold seg_ok in H1. destruct H1 as (s & e & data & Es & Ee & Hse & EL & Hed & Eo).
    assert (LO : lenN o = e - s) by (rewrite Eo; now apply slice_len).
    destruct (dest_step m dsz off pos a b s e) as (sz & off' & F1 & F2 & F3 & F4); auto; try lia.
    rewrite <- LO in F4.
    destruct (IH os' off' (pos + lenN o) H64' F3 F4 H2 ltac:(lia)) as (D & wss & G1 & G2 & G3).
    exists ((c, off, a, b) :: D), (combine (seqN pos (length o)) o :: wss).
    cbn [scan_dest]. rewrite F1. cbn [bind]. rewrite F2. cbn [bind]. rewrite G1. cbn [bind].
    split; auto. split.
    + constructor; auto. exists pos, o. split; auto. split; auto. split; [lia|auto].
    + cbn [concat]. rewrite G3, app_length, seqN_app, combine_app by now rewrite seqN_length.
      reflexivity.
Qed.

Lemma dests_bwd m L dsz dlen : 0 < dsz -> dlen < W64 -> forall segs D off pos,
  Forall seg64 segs -> off < W64 -> mul64 m off dsz = Ok pos -> pos <= dlen ->
  scan_dest m off segs = Ok D -> Forall (fun g => exists ws, gseg_ok m L dsz dlen g ws) D ->
  exists os, Forall2 (seg_ok m L dsz) segs os /\ pos + lenN (concat os) <= dlen.
Proof.
  intros Hd HW. induction segs as [|[[c a] b] segs IH]; intros D off pos H64 Ho Ep Hp HS HF.
  - exists []. split; [constructor|]. cbn. lia.
  - inversion H64 as [|? ? A H64']; subst. unfold seg64 in A. destruct A as [A1 A2]. cbn [scan_dest] in HS.
    apply bind_ok in HS as (sz & F1 & HS). apply bind_ok in HS as (off' & F2 & HS).
    apply bind_ok in HS as (D' & G1 & HS). injection HS as <-.
    inversion HF as [|? ? (ws & p & o & Ep' & Ho' & Hb & _) HF']; subst.
    cbn in Ep'. assert (p = pos) by congruence. subst p. cbn in Ho'. pose proof Ho' as Ho''.
    destruct Ho' as (s & e & data & Es & Ee & Hse & EL & Hed & Eo).
    assert (LO : lenN o = e - s) by (rewrite Eo; now apply slice_len).
    destruct (dest_step m dsz off pos a b s e) as (sz' & off2 & F1' & F2' & F3 & F4); auto; try lia.
    rewrite F1 in F1'. injection F1' as <-. rewrite F2 in F2'. injection F2' as <-.
    rewrite <- LO in F4.
    destruct (IH D' off' (pos + lenN o) H64' F3 F4 Hb G1 HF') as (os & O1 & O2).
    exists (o :: os). split; [now constructor|]. cbn [concat]. rewrite lenN_app. lia.
Qed.

Lemma dests_in m : forall segs off D (P : chunk -> Prop), scan_dest m off segs = Ok D ->
  Forall (fun sg => P (fst (fst sg))) segs -> Forall (fun g => P (g_chunk g)) D.
Proof.
  induction segs as [|[[c a] b] segs IH]; intros off D P HS HF; cbn [scan_dest] in HS.
  - injection HS as <-. constructor.
  - debind HS. debind HS. apply bind_ok in HS as (D' & G1 & HS). injection HS as <-.
    inversion HF; subst. constructor; auto. eapply IH; eauto.
Qed.

(** ** Writes of a whole read *)

(** The read succeeds, with these byte writes (in the order of the output). *)
Definition read_writes (m : mode) (L : chunk -> res bytes) (fuel : nat) (ds : dataset) (e : extents) (dlen : N)
    (out : bytes) : Prop :=
  exists segs os, chunk_slices m fuel ds e = (segs, SDone) /\ Forall2 (seg_ok m L (d_dsize ds)) segs os /\
    out = concat os /\ lenN out <= dlen.

Lemma plain_read_iff m inflate fuel file ds csz e dst v dst' :
  plain_read m inflate fuel file ds csz e dst = (Ok v, dst') <->
  read_size m ds e dst = Ok v /\
  exists out, read_writes m (load m inflate file ds csz) fuel ds e (lenN dst) out /\ dst' = splice dst 0 out.
Proof.
  unfold plain_read, read_writes. destruct (read_size m ds e dst) as [vsz| | | |];
    try (split; [discriminate|intros [? _]; discriminate]).
  destruct (chunk_slices m fuel ds e) as [segs st].
  pose proof (plain_loop_iff m (load m inflate file ds csz) (d_dsize ds) st segs 0 dst) as PI.
  destruct (plain_loop m (load m inflate file ds csz) (d_dsize ds) segs st 0 dst) as [x d1]. split.
  - intros H. destruct x as [[]| | | |]; cbn [bind] in H; try discriminate. injection H as <- <-. split; auto.
    destruct (proj1 (PI d1 ltac:(lia)) eq_refl) as (-> & os & HF & Hb & ->).
    exists (concat os). split; auto. exists segs, os. repeat split; auto. 
  - intros (Ev & out & (segs' & os & E & HF & -> & Hb) & ->). injection Ev as ->. injection E as <- ->.
    assert (E : (x, d1) = (Ok tt, splice dst 0 (concat os))).
    { apply PI; [lia|]. split; auto. exists os. repeat split; auto. }
    injection E as -> ->. reflexivity.
Qed.

Lemma Forall2_perm {A B} (R : A -> B -> Prop) l l' m : Permutation l l' -> Forall2 R l m ->
  exists m', Permutation m m' /\ Forall2 R l' m'.
Proof. intros P H. eapply Permutation_Forall2 in H as (m' & ? & ?); eauto. Qed.

Lemma perm_concat {A} (l l' : list (list A)) : Permutation l l' -> Permutation (concat l) (concat l').
Proof.
  induction 1 as [|x l l' H IH|x y l|l l1 l2 H1 IH1 H2 IH2]; cbn [concat]; auto.
  - now apply Permutation_app_head.
  - rewrite !app_assoc. apply Permutation_app_tail, Permutation_app_comm.
  - now rewrite IH1.
Qed.

(** The grouped writes of a successful read: the same bytes at the same places. *)
Definition group_writes (m : mode) (L : chunk -> res bytes) (sort : list gsegment -> list gsegment) (fuel : nat)
    (ds : dataset) (e : extents) (dlen : N) (G : list gsegment) (wss : list (list (N * N))) : Prop :=
  group_chunk_slices sort m fuel ds e = Ok G /\ Forall2 (gseg_ok m L (d_dsize ds) dlen) G wss.

Lemma group_of_read m L sort fuel ds e dlen out : addr_sort sort -> 0 < d_dsize ds -> dlen < W64 ->
  read_writes m L fuel ds e dlen out ->
  exists G wss, group_writes m L sort fuel ds e dlen G wss /\
    Permutation (concat wss) (combine (seqN 0 (length out)) out).
Proof.
  intros HS Hd HW (segs & os & E & HF & -> & Hb).
  pose proof (slices_64 m fuel ds e) as H64. rewrite E in H64. cbn [fst] in H64.
  destruct (dests_fwd m L (d_dsize ds) dlen Hd HW segs os 0 0 H64) as (D & wss & G1 & G2 & G3);
    auto; try reflexivity; try apply mul64_0; try lia.
  destruct (HS D) as [HP _].
  destruct (Forall2_perm _ _ _ _ (Permutation_sym HP) G2) as (wss' & P2 & F2).
  exists (sort D), wss'. split.
  - split; auto. unfold group_chunk_slices, dest_slices. rewrite E, G1. reflexivity.
  - rewrite <- G3. apply perm_concat. now symmetry.
Qed.

Lemma read_of_group m L sort fuel ds e dlen G wss : addr_sort sort -> 0 < d_dsize ds -> dlen < W64 ->
  group_writes m L sort fuel ds e dlen G wss ->
  exists out, read_writes m L fuel ds e dlen out.
Proof.
  intros HS Hd HW [E HF]. unfold group_chunk_slices, dest_slices in E.
  pose proof (slices_64 m fuel ds e) as H64.
  destruct (chunk_slices m fuel ds e) as [segs st] eqn:Ec. cbn [fst] in H64.
  apply bind_ok in E as (D & ED & E). injection E as <-. destruct st; try discriminate.
  destruct (HS D) as [HP _].
  destruct (dests_bwd m L (d_dsize ds) dlen Hd HW segs D 0 0 H64) as (os & O1 & O2);
    auto; try reflexivity; try apply mul64_0; try lia.
  { apply Forall_forall. intros g Hg. apply (Permutation_in _ (Permutation_sym HP)) in Hg.
    clear -HF Hg. induction HF as [|x y l l' H HF IH]; [easy|]. destruct Hg as [->|Hg]; eauto. }
  exists (concat os), segs, os. rewrite Ec. auto.
Qed.

Lemma group_chunks m sort fuel ds e G : addr_sort sort -> group_chunk_slices sort m fuel ds e = Ok G ->
  Forall (fun g => In (g_chunk g) (d_chunks ds)) G.
Proof.
  intros HS E. unfold group_chunk_slices, dest_slices in E.
  pose proof (slices_in m fuel ds e) as HF.
  destruct (chunk_slices m fuel ds e) as [segs st]. cbn [fst] in HF.
  apply bind_ok in E as (D & ED & E). injection E as <-. destruct st; try discriminate.
  apply Forall_forall. intros g Hg. apply (Permutation_in _ (proj1 (HS D))) in Hg.
  pose proof (dests_in m segs 0 D (fun c => In c (d_chunks ds)) ED HF) as HD.
  rewrite Forall_forall in HD. auto.
Qed.

Lemma direct_read_iff m inflate sort fuel r file e dst v dst' :
  addr_sort sort -> same_addr (dr_ds r) -> 0 < d_dsize (dr_ds r) -> lenN dst < W64 -> dr_file r = Some file ->
  (direct_read m inflate sort fuel r e dst = (Ok v, dst') <->
   plain_read m inflate fuel file (dr_ds r) (dr_csz r) e dst = (Ok v, dst')).
Proof.
  intros HS HA Hd HW Hf. rewrite plain_read_iff. unfold direct_read. rewrite Hf.
  destruct (read_size m (dr_ds r) e dst) as [vsz| | | |];
    try (split; [discriminate|intros [? _]; discriminate]).
  split.
  - intros H. destruct (group_chunk_slices sort m fuel (dr_ds r) e) as [G| | | |] eqn:EG; try discriminate.
    pose proof (group_chunks _ _ _ _ _ _ HS EG) as HG.
    pose proof (fun d => direct_loop_iff m inflate r file HA G None dst d HW HG I) as DI.
    destruct (direct_loop m inflate r file G None dst) as [x d1].
    destruct x as [[]| | | |]; cbn [bind] in H; try discriminate. injection H as <- <-. split; auto.
    destruct (proj1 (DI d1) eq_refl) as (wss & HF & ->).
    assert (GW : group_writes m (dload m inflate r file) sort fuel (dr_ds r) e (lenN dst) G wss) by (split; auto).
    destruct (read_of_group _ _ _ _ _ _ _ _ _ HS Hd HW GW) as (out & RW).
    exists out. split; auto.
    destruct (group_of_read _ _ sort _ _ _ _ _ HS Hd HW RW) as (G' & wss' & [EG' HF'] & P).
    rewrite EG in EG'. injection EG' as <-.
    assert (wss' = wss).
    { clear -HF HF'. revert wss' HF'. induction HF as [|g w G wss H HF IH]; intros wss' HF'; inversion HF'; subst; auto.
      f_equal; [eapply gseg_fun; eauto|auto]. }
    subst wss'. destruct RW as (segs & os & _ & _ & _ & Hb).
    assert (EF : map fst (combine (seqN 0 (length out)) out) = seqN 0 (length out))
      by (apply map_fst_combine; apply seqN_length).
    rewrite <- (apply_combine out 0 dst) by lia. symmetry. apply apply_perm.
    + now symmetry.
    + rewrite EF. apply seqN_NoDup.
    + apply in_bounds_combine. lia.
  - intros (Ev & out & RW & ->). injection Ev as ->.
    destruct (group_of_read _ _ sort _ _ _ _ _ HS Hd HW RW) as (G & wss & [EG HF] & P). rewrite EG.
    pose proof (group_chunks _ _ _ _ _ _ HS EG) as HG.
    assert (E : direct_loop m inflate r file G None dst = (Ok tt, apply_writes (concat wss) dst)).
    { apply (direct_loop_iff m inflate r file HA G None dst _ HW HG I). exists wss. auto. }
    rewrite E. cbn [bind]. f_equal. destruct RW as (segs & os & _ & _ & _ & Hb).
    assert (EF : map fst (combine (seqN 0 (length out)) out) = seqN 0 (length out))
      by (apply map_fst_combine; apply seqN_length).
    rewrite <- (apply_combine out 0 dst) by lia. symmetry. apply apply_perm.
    + now symmetry.
    + rewrite EF. apply seqN_NoDup.
    + apply in_bounds_combine. lia.
Qed.
