(** * ApiLemmas: proofs of the property statements about selectors, chunks and indexing. *)
From Verif Require Import Base Spec Radix Safe Chunk Extent Dataset Slicer SpecApi
  ChunkProofs DatasetProofs ExtentProofs SlicerProofs SlicerMain SlicerTheorems IndexProofs.
From Coq Require Import Sorted.

(** ** Selectors *)

Lemma extents_of_resolves m ss :
  Forall sel_u64 ss -> Forall (fun s => ~ sel_incl_max s) ss ->
  exists l, extents_of m ss = Ok (Extents l) /\ length l = length ss.
Proof.
  intros HU HM. unfold extents_of.
  assert (exists l, mapM (extent_of m) ss = Ok l) as [l El].
  { revert HM; induction HU as [|s ss Hs HU IH]; intros HM; cbn [mapM]; eauto.
    inversion HM; subst. destruct (selector_resolves m s) as [e Ee]; auto.
    destruct IH as [l El]; auto. rewrite Ee. cbn [bind]. rewrite El. cbn [bind]. eauto. }
  rewrite El. cbn [bind]. exists l. split; auto. eapply mapM_ok_length; eauto.
Qed.

Lemma mapM_nth {A B} (f : A -> res B) l bs : mapM f l = Ok bs ->
  forall j a, nth_error l j = Some a -> exists b, nth_error bs j = Some b /\ f a = Ok b.
Proof.
  revert bs; induction l as [|x l IH]; intros bs E j a Hj; [destruct j; discriminate|].
  cbn [mapM] in E. apply bind_ok in E as (b & E1 & E). apply bind_ok in E as (bs' & E2 & E).
  injection E as <-. destruct j as [|j]; cbn [nth_error] in *.
  - injection Hj as <-. eauto.
  - eauto.
Qed.

Lemma selection_ok m ss dims :
  Forall sel_u64 ss -> Forall (fun s => ~ sel_incl_max s) ss -> length ss = length dims ->
  exists e idx cnt,
    extents_of m ss = Ok e /\ get_start_count e dims = Ok (idx, cnt) /\
    length idx = length dims /\ length cnt = length dims /\
    forall x, In x (slab idx cnt) <->
      length x = length dims /\
      forall j s d v, nth_error ss j = Some s -> nth_error dims j = Some d ->
                      nth_error x j = Some v -> denotes s d v.
Proof.
  intros HU HM HL. destruct (extents_of_resolves m ss HU HM) as (l & El & Ll).
  destruct (get_start_count_ok (Extents l) dims) as (idx & cnt & Eg & L1 & L2); [right; eexists; split; eauto; congruence|].
  exists (Extents l), idx, cnt. split; auto. split; auto. split; auto. split; auto.
  intros x. rewrite in_slab by congruence. rewrite L1.
  unfold extents_of in El. apply bind_ok in El as (l' & El & E). injection E as ->.
  apply and_iff_compat_l. split.
  - intros H j s d v Hs Hd Hv.
    destruct (mapM_nth _ _ _ El j s Hs) as (ex & Hx & Ee).
    destruct (get_start_count_nth _ _ _ _ Eg j ex d Hx Hd) as [Hi Hc].
    destruct (canonicalise_count ex d) as [c Ec]. rewrite Ec in Hc.
    eapply (selector_denotes m s d ex); eauto.
    + rewrite Forall_forall in HU. apply HU. eapply nth_error_In; eauto.
    + rewrite Forall_forall in HM. apply HM. eapply nth_error_In; eauto.
  - intros H j v i n Hv Hi Hn.
    assert (Hj : (j < length dims)%nat).
    { rewrite <- L1. apply nth_error_Some. congruence. }
    destruct (nth_error dims j) as [d|] eqn:Hd; [|apply nth_error_None in Hd; lia].
    destruct (nth_error ss j) as [s|] eqn:Hs; [|apply nth_error_None in Hs; lia].
    destruct (mapM_nth _ _ _ El j s Hs) as (ex & Hx & Ee).
    destruct (get_start_count_nth _ _ _ _ Eg j ex d Hx Hd) as [Hi' Hc'].
    destruct (canonicalise_count ex d) as [c Ec]. rewrite Ec in Hc'.
    assert (i = extent_start (extent_canonicalise ex d)) as -> by congruence.
    assert (n = c) as -> by congruence.
    eapply (selector_denotes m s d ex); eauto.
    + rewrite Forall_forall in HU. apply HU. eapply nth_error_In; eauto.
    + rewrite Forall_forall in HM. apply HM. eapply nth_error_In; eauto.
Qed.

Lemma selection_all dims x :
  exists idx cnt, get_start_count All dims = Ok (idx, cnt) /\
    (In x (slab idx cnt) <-> in_shape x dims).
Proof.
  do 2 eexists. split; [apply get_start_count_all|].
  rewrite in_slab by (rewrite map_length; auto). rewrite map_length. unfold in_shape. split.
  - intros [HL H]. revert x HL H. induction dims as [|d dims IH]; intros [|v x] HL H; cbn [length] in HL;
      try discriminate; constructor.
    + specialize (H 0%nat v 0 d eq_refl eq_refl eq_refl). lia.
    + apply IH; [lia|]. intros j. apply (H (S j)).
  - induction 1 as [|v d x dims Hv HF [HL IH]]; [split; auto; intros [|j]; discriminate|].
    split; [cbn [length]; lia|]. intros [|j] y i n; cbn [nth_error map].
    + intros [= <-] [= <-] [= <-]. lia.
    + apply IH.
Qed.

Lemma incl_max_debug ss :
  Exists sel_incl_max ss -> extents_of Debug ss = Panic.
Proof.
  intros HE. unfold extents_of.
  assert (E : mapM (extent_of Debug) ss = Panic).
  { induction HE as [s ss Hs|s ss HE IH]; cbn [mapM].
    - now rewrite (proj1 (selector_overflow s Hs)).
    - rewrite IH.
      assert (Z : (exists e, extent_of Debug s = Ok e) \/ extent_of Debug s = Panic).
      { destruct s; cbn [extent_of]; eauto; unfold add64; destruct (_ <? W64); cbn [bind]; eauto. }
      destruct Z as [[e ->]| ->]; reflexivity. }
  now rewrite E.
Qed.

Lemma extent_of_release s : exists e, extent_of Release s = Ok e.
Proof.
  destruct s; cbn [extent_of]; eauto; unfold add64; destruct (_ <? W64); cbn [bind]; eauto.
Qed.

Lemma prodN_zero l : In 0 l -> prodN l = 0.
Proof. induction l as [|x l IH]; cbn [In prodN]; [easy|]. intros [->|H]; [lia|]. rewrite IH by auto. lia. Qed.

Lemma slab_nil idx cnt : length idx = length cnt -> In 0 cnt -> slab idx cnt = [].
Proof.
  intros HL H. pose proof (slab_length idx cnt HL) as E. rewrite prodN_zero in E by auto.
  destruct (slab idx cnt); [reflexivity|]. unfold lenN in E. cbn [length] in E. lia.
Qed.

Lemma incl_max_release ss dims :
  Exists sel_incl_max ss -> length ss = length dims ->
  exists e idx cnt, extents_of Release ss = Ok e /\ get_start_count e dims = Ok (idx, cnt) /\
    slab idx cnt = [].
Proof.
  intros HE HL.
  assert (exists l, mapM (extent_of Release) ss = Ok l) as [l El].
  { clear. induction ss as [|s ss [l IH]]; cbn [mapM]; eauto.
    destruct (extent_of_release s) as [e ->]. cbn [bind]. rewrite IH. cbn [bind]. eauto. }
  pose proof (mapM_ok_length _ _ _ El) as Ll.
  destruct (get_start_count_ok (Extents l) dims) as (idx & cnt & Eg & L1 & L2);
    [right; eexists; split; eauto; congruence|].
  exists (Extents l), idx, cnt. unfold extents_of. rewrite El. split; auto. split; auto.
  apply slab_nil; [congruence|].
  apply Exists_exists in HE as (s & Hin & Hs). apply In_nth_error in Hin as [j Hj].
  destruct (mapM_nth _ _ _ El j s Hj) as (ex & Hx & Ee).
  assert (exists d, nth_error dims j = Some d) as [d Hd].
  { destruct (nth_error dims j) eqn:E; eauto. apply nth_error_None in E.
    assert (j < length ss)%nat by (apply nth_error_Some; congruence). lia. }
  destruct (get_start_count_nth _ _ _ _ Eg j ex d Hx Hd) as [_ Hc].
  destruct (selector_overflow s Hs) as [_ (e' & E' & Z)]. rewrite Ee in E'. injection E' as <-.
  rewrite Z in Hc. eapply nth_error_In; eauto.
Qed.

(** ** Chunks *)

Lemma chunk_order_spec a b :
  length (c_offset a) = length (c_offset b) ->
  (chunk_cmp a b = Lt <-> lex_lt (c_offset a) (c_offset b)) /\
  (chunk_cmp a b = Eq <-> c_offset a = c_offset b) /\
  (chunk_cmp a b = Gt <-> lex_lt (c_offset b) (c_offset a)).
Proof. intros H. apply cmp_offsets_iff; auto. Qed.

Lemma chunk_le_trans a b c :
  length (c_offset a) = length (c_offset b) -> length (c_offset b) = length (c_offset c) ->
  chunk_cmp a b <> Gt -> chunk_cmp b c <> Gt -> chunk_cmp a c <> Gt.
Proof.
  intros H1 H2 Hab Hbc Hac.
  destruct (chunk_order_spec a b H1) as (A1 & A2 & A3).
  destruct (chunk_order_spec b c H2) as (B1 & B2 & B3).
  destruct (chunk_order_spec a c) as (C1 & C2 & C3); [congruence|].
  apply C3 in Hac.
  assert (X : c_offset a = c_offset b \/ lex_lt (c_offset a) (c_offset b)).
  { destruct (chunk_cmp a b); intuition congruence. }
  assert (Y : c_offset b = c_offset c \/ lex_lt (c_offset b) (c_offset c)).
  { destruct (chunk_cmp b c); intuition congruence. }
  destruct X as [X|X], Y as [Y|Y].
  - rewrite X, Y in Hac. now apply lex_lt_irrefl in Hac.
  - rewrite X in Hac. now apply (lex_lt_asym _ _ Hac) in Y.
  - rewrite <- Y in Hac. now apply (lex_lt_asym _ _ Hac) in X.
  - apply (lex_lt_asym _ _ Hac). eapply lex_lt_trans; eauto.
Qed.

Lemma words_round_trip D l :
  Forall (fun c => length (c_offset c) = D) l ->
  slice_from_u64s D (slice_as_u64s l) = Ok l.
Proof.
  intros H. unfold slice_from_u64s. rewrite (slice_as_u64s_length D) by auto.
  rewrite Nat.mod_mul, Nat.div_mul by lia. cbn [Nat.eqb assert_ bind].
  pose proof (split_records_view D l [] H) as E. rewrite app_nil_r in E. now rewrite E.
Qed.

Lemma words_bad D w : (length w mod (2 + D))%nat <> 0%nat -> slice_from_u64s D w = Panic.
Proof. intros H. unfold slice_from_u64s. apply Nat.eqb_neq in H. now rewrite H. Qed.

Lemma words_good D w : (length w mod (2 + D))%nat = 0%nat ->
  exists l, slice_from_u64s D w = Ok l /\ slice_as_u64s l = w /\
            Forall (fun c => length (c_offset c) = D) l /\ length w = (length l * (2 + D))%nat.
Proof.
  intros H. unfold slice_from_u64s. apply Nat.eqb_eq in H as H'. rewrite H'. cbn [assert_ bind].
  assert (HL : length w = (length w / (2 + D) * (2 + D))%nat).
  { pose proof (Nat.div_mod (length w) (2 + D)). lia. }
  destruct (split_records_inv D _ w HL) as (A & B & C).
  eexists. split; [reflexivity|]. split; auto. split; auto. lia.
Qed.

Lemma one_round_trip c : from_u64s (length (c_offset c)) (as_u64s c) = Ok c.
Proof. unfold from_u64s. cbn [as_u64s length Nat.add]. rewrite Nat.eqb_refl. destruct c; reflexivity. Qed.

Lemma from_bad D w : length w <> (2 + D)%nat -> from_u64s D w = Panic.
Proof. intros H. unfold from_u64s. apply Nat.eqb_neq in H. now rewrite H. Qed.

(** ** Lookup *)

Lemma in_shape_length x shape : in_shape x shape -> length x = length shape.
Proof. apply Forall2_length'. Qed.

Lemma corner_in_box : forall cs x, Forall (fun c => 0 < c) cs -> length x = length cs ->
  in_box x (chunk_corner cs x) cs /\ map2 N.sub x (chunk_corner cs x) = map2 N.modulo x cs.
Proof.
  unfold chunk_corner.
  induction cs as [|c cs IH]; intros [|v x] HP HL; cbn [length] in HL; try discriminate.
  - cbn [map2]. split; auto. split; auto. split; auto. intros [|j]; discriminate.
  - inversion HP; subst. destruct (IH x) as [B E]; auto. cbn [map2].
    pose proof (divmod_eq v c ltac:(lia)) as Hd. assert (Hm : v mod c < c) by (apply N.mod_lt; lia).
    rewrite (N.mul_comm (v / c)). split.
    + destruct B as (L1 & L2 & B). split; [cbn [length]; lia|]. split; [cbn [length]; lia|].
      intros [|j] y o z; cbn [nth_error].
      * intros [= <-] [= <-] [= <-]. set (r := v mod c) in *. set (g := c * (v / c)) in *.
        clearbody r g. lia.
      * apply B.
    + rewrite E. f_equal. set (r := v mod c) in *. set (g := c * (v / c)) in *. clearbody r g. lia.
Qed.

Lemma in_box_corner cs : forall x g, Forall (fun c => 0 < c) cs ->
  length g = length cs ->
  in_box x (map2 N.mul g cs) cs -> map2 N.mul g cs = chunk_corner cs x.
Proof.
  unfold chunk_corner.
  induction cs as [|c cs IH]; intros x [|a g] HP HG (L1 & L2 & B); cbn [map2 length] in *; try discriminate.
  - destruct x; [reflexivity|discriminate].
  - destruct x as [|v x]; [discriminate|]. inversion HP; subst. cbn [map2].
    rewrite map2_length in *. cbn [length] in *.
    rewrite <- (IH x g); auto.
    + f_equal. specialize (B 0%nat v (a * c) c eq_refl eq_refl eq_refl).
      f_equal. symmetry. apply (div_unique_N _ _ _ (v - a * c)); nia.
    + split; [rewrite map2_length; lia|]. split; [lia|]. intros j. apply (B (S j)).
Qed.

Lemma lookup_ok m ds x :
  full_dataset ds -> fits64 (d_shape ds) -> in_shape x (d_shape ds) ->
  exists c, chunk_at_coord m ds x = Ok c /\ In c (d_chunks ds) /\
    in_box x (c_offset c) (d_chunk_shape ds) /\
    (forall c', In c' (d_chunks ds) -> in_box x (c_offset c') (d_chunk_shape ds) -> c' = c).
Proof.
  intros [Hwm Hg Hsz] HF HI.
  destruct (chunk_at_coord_ok m ds x Hwm HF Hg HI) as (c & Hn & Hc & Ho).
  exists c. split; auto. split; [eapply nth_error_In; eauto|].
  pose proof (in_shape_length _ _ HI) as HL.
  pose proof (wm_rank _ Hwm) as HR. pose proof (wm_pos _ Hwm) as HP.
  rewrite Ho. split; [apply corner_in_box; auto; congruence|].
  intros c' Hc' Hb.
  assert (HO : c_offset c' = c_offset c).
  { assert (In (c_offset c') (grid_offsets (d_shape ds) (d_chunk_shape ds))) as Hin.
    { rewrite <- Hg. now apply in_map. }
    unfold grid_offsets in Hin. apply in_map_iff in Hin as (g & Eg & Hgr).
    apply in_slab in Hgr as [Lg _]; [|rewrite zeros_length, grid_dims_length; auto].
    rewrite zeros_length in Lg.
    rewrite Ho, <- Eg. apply in_box_corner; auto; [congruence|]. now rewrite Eg. }
  assert (ND : NoDup (map c_offset (d_chunks ds))).
  { rewrite Hg. apply StronglySorted_NoDup, grid_offsets_sorted; auto. }
  clear - HO ND Hc' Hn. apply nth_error_In in Hn.
  induction (d_chunks ds) as [|z l IH]; [easy|]. cbn [map] in ND. inversion ND; subst.
  destruct Hc' as [->|Hc'], Hn as [->|Hn]; auto.
  - exfalso. apply H1. rewrite HO. now apply in_map.
  - exfalso. apply H1. rewrite <- HO. now apply in_map.
Qed.

(** The place of an element, in terms of [holds]. *)
Lemma place_holds ds x : full_dataset ds -> fits64 (d_shape ds) -> in_shape x (d_shape ds) ->
  forall ck, (let '(c, k) := ck in (Some c, k)) = place ds x -> holds ds x ck.
Proof.
  intros [Hwm Hg Hsz] HF HI [c k] E. unfold place in E. injection E as E1 E2.
  destruct (chunk_at_coord_ok Release ds x Hwm HF Hg HI) as (c' & Hn & _ & Ho).
  assert (c' = c) as -> by congruence.
  pose proof (in_shape_length _ _ HI) as HL.
  pose proof (wm_rank _ Hwm) as HR. pose proof (wm_pos _ Hwm) as HP.
  destruct (corner_in_box (d_chunk_shape ds) x HP) as [B EM]; [congruence|].
  split; [cbn [fst]; eapply nth_error_In; eauto|]. cbn [fst snd]. rewrite Ho. split; auto.
  rewrite EM. rewrite E2. reflexivity.
Qed.

Lemma slab_in_shape shape idx cnt x :
  sel_in shape idx cnt -> In x (slab idx cnt) -> in_shape x shape.
Proof.
  intros (L1 & L2 & HN & HB) HI. apply in_slab in HI as [HL H]; [|congruence].
  revert idx cnt x L1 L2 HN HB HL H. unfold in_shape.
  induction shape as [|s shape IH]; intros [|i idx] [|n cnt] [|v x] L1 L2 HN HB HL H;
    cbn [length] in *; try discriminate; constructor.
  - specialize (H 0%nat v i n eq_refl eq_refl eq_refl).
    specialize (HB 0%nat i n s eq_refl eq_refl eq_refl). lia.
  - inversion HN; subst. apply (IH idx cnt); auto; try lia.
    + intros j. apply (HB (S j)).
    + intros j. apply (H (S j)).
Qed.

Lemma segments_ok m ds e idx cnt fuel :
  full_dataset ds -> get_start_count e (d_shape ds) = Ok (idx, cnt) ->
  sel_in (d_shape ds) idx cnt ->
  sel_safe (d_shape ds) (d_chunk_shape ds) idx cnt = true ->
  (N.to_nat (prodN cnt) < fuel)%nat ->
  exists segs,
    chunk_slices m fuel ds e = (segs, SDone) /\
    Forall2 (holds ds) (slab idx cnt) (flat_map seg_elems segs) /\
    Forall (fun '(c, a, b) => a < b /\ b <= prodN (d_chunk_shape ds) /\ In c (d_chunks ds)) segs.
Proof.
  intros Hfd He Hsel Hsafe Hfuel.
  destruct (chunk_slices_ok m ds e idx cnt fuel) as (segs & E1 & E2 & E3); auto.
  exists segs. split; auto. split; auto.
  destruct (sel_in_fits _ _ _ _ Hsel (fd_sizes _ Hfd)) as [HF _].
  assert (HI : Forall (fun x => in_shape x (d_shape ds)) (slab idx cnt)).
  { apply Forall_forall. intros x Hx. eapply slab_in_shape; eauto. }
  clear - E2 HI HF Hfd. revert E2 HI. generalize (slab idx cnt), (flat_map seg_elems segs).
  intros l1 l2; revert l1; induction l2 as [|ck l2 IH]; intros [|x l1] E HI; cbn [map] in E; try discriminate;
    constructor; inversion HI; subst; injection E as E E'.
  - eapply place_holds; eauto.
  - apply IH; auto.
Qed.

Lemma seg_elems_length segs :
  Forall (fun '(c, a, b) => a < b) (segs : list segment) ->
  lenN (flat_map seg_elems segs) = sumN (map (fun '(_, a, b) => b - a) segs).
Proof.
  induction 1 as [|[[c a] b] l H HF IH]; [reflexivity|]. cbn [flat_map map sumN].
  rewrite lenN_app, IH. f_equal. unfold seg_elems, lenN. rewrite map_length, seqN_length. lia.
Qed.

Lemma segments_sum m ds e idx cnt fuel :
  full_dataset ds -> get_start_count e (d_shape ds) = Ok (idx, cnt) ->
  sel_in (d_shape ds) idx cnt ->
  sel_safe (d_shape ds) (d_chunk_shape ds) idx cnt = true ->
  (N.to_nat (prodN cnt) < fuel)%nat ->
  exists segs, chunk_slices m fuel ds e = (segs, SDone) /\
    Forall (fun '(c, a, b) => a < b /\ b <= prodN (d_chunk_shape ds) /\ In c (d_chunks ds)) segs /\
    sumN (map (fun '(_, a, b) => b - a) segs) = prodN cnt.
Proof.
  intros Hfd He Hsel Hsafe Hfuel.
  destruct (segments_ok m ds e idx cnt fuel) as (segs & E1 & E2 & E3); auto.
  exists segs. split; auto. split; auto.
  rewrite <- seg_elems_length.
  - unfold lenN. rewrite <- (Forall2_length' _ _ _ E2). fold (lenN (slab idx cnt)).
    apply slab_length. destruct Hsel; intuition congruence.
  - eapply Forall_impl; [|exact E3]. intros [[c a] b]; intuition.
Qed.

(** ** Out-of-bounds and empty selections *)

Lemma any_oob_true m : forall idx cnt shape,
  length idx = length shape -> length cnt = length shape ->
  Forall2 (fun i n => i + n < W64) idx cnt ->
  any_oob m idx cnt shape =
    Ok (existsb (fun '(i, n, s) => s <? i + n) (combine (combine idx cnt) shape)).
Proof.
  induction idx as [|i idx IH]; intros [|n cnt] [|s shape] H1 H2 HF; cbn [length] in *; try discriminate; auto.
  inversion HF; subst. cbn [any_oob combine existsb]. rewrite add64_ok by auto. cbn [bind].
  destruct (s <? i + n); auto. cbn [orb]. apply IH; auto.
Qed.

Lemma empty_run m fuel ds : (0 < fuel)%nat -> slicer_run m fuel ds (slicer_empty ds) = ([], SDone).
Proof. intros H. destruct fuel; [lia|]. reflexivity. Qed.

Lemma oob_segments m ds e idx cnt fuel :
  get_start_count e (d_shape ds) = Ok (idx, cnt) ->
  Forall2 (fun i n => i + n < W64) idx cnt ->
  (In 0 cnt \/ exists j i n s, nth_error idx j = Some i /\ nth_error cnt j = Some n /\
                              nth_error (d_shape ds) j = Some s /\ s < i + n) ->
  (0 < fuel)%nat ->
  chunk_slices m fuel ds e = ([], SDone).
Proof.
  intros He HF HO Hf.
  assert (HLs : length idx = length (d_shape ds) /\ length cnt = length (d_shape ds)).
  { destruct (get_start_count_cases e (d_shape ds)) as [E|(i' & c' & E & A & B)]; rewrite He in E; [discriminate|].
    injection E as <- <-. auto. }
  destruct HLs as [L1 L2].
  unfold chunk_slices, chunk_slicer. rewrite He. cbn [unwrap bind].
  rewrite any_oob_true by auto. cbn [bind].
  assert (G : existsb (fun '(i, n, s) => s <? i + n) (combine (combine idx cnt) (d_shape ds))
              || existsb (fun c => c =? 0) cnt = true).
  { apply orb_true_iff. destruct HO as [HO|(j & i & n & s & H1 & H2 & H3 & H4)].
    - right. apply existsb_exists. exists 0. split; auto.
    - left. apply existsb_exists. exists (i, n, s). split; [|now apply N.ltb_lt].
      clear - H1 H2 H3. revert j cnt H1 H2 H3. generalize (d_shape ds).
      induction idx as [|i0 idx IH]; intros shape j cnt H1 H2 H3; [destruct j; discriminate|].
      destruct cnt as [|n0 cnt]; [destruct j; discriminate|].
      destruct shape as [|s0 shape]; [destruct j; discriminate|].
      destruct j as [|j]; cbn [nth_error combine] in *.
      + injection H1 as ->. injection H2 as ->. injection H3 as ->. now left.
      + right. eapply IH; eauto. }
  rewrite G. now apply empty_run.
Qed.

(** ** Statements assembled for the property files *)

Lemma resolution_ok e dims :
  (forall l, e = Extents l -> length l <> length dims ->
     get_start_count e dims = Err ERank /\ get_counts e dims = Err ERank) /\
  ((e = All \/ exists l, e = Extents l /\ length l = length dims) ->
     exists idx cnt, get_start_count e dims = Ok (idx, cnt) /\ get_counts e dims = Ok cnt /\
       length idx = length dims /\ length cnt = length dims).
Proof.
  split.
  - intros l -> H. split; [now apply get_start_count_rank|now apply get_counts_rank].
  - intros H. destruct (get_start_count_ok e dims H) as (idx & cnt & E & L1 & L2).
    exists idx, cnt. split; auto. split; auto. eapply get_start_count_counts; eauto.
Qed.

Lemma pairs_ok starts counts dims :
  (length starts <> length counts -> extents_of_pairs starts counts = Err ELenMismatch) /\
  (length starts = length counts -> length counts = length dims ->
   exists e, extents_of_pairs starts counts = Ok e /\
             get_start_count e dims = Ok (starts, counts)).
Proof.
  split; [|apply extents_of_pairs_ok].
  intros H. unfold extents_of_pairs. apply Nat.eqb_neq in H. now rewrite H.
Qed.

Lemma slice_both m l :
  (Forall plain_elem l ->
     exists e, extents_of_slice l = Ok e /\ extents_of m (map elem_selector l) = Ok e) /\
  (~ Forall plain_elem l -> extents_of_slice l = Err ESlice).
Proof.
  split; [|apply slice_err]. intros H.
  rewrite (slice_ok m l H). unfold extents_of.
  assert (exists es, mapM (extent_of m) (map elem_selector l) = Ok es) as [es ->].
  { induction H as [|s l Hs HF [es IH]]; cbn [map mapM]; eauto.
    assert (exists x, extent_of m (elem_selector s) = Ok x) as [x ->].
    { destruct s as [a [e|] st|i|]; cbn; eauto. }
    cbn [bind]. rewrite IH. cbn [bind]. eauto. }
  cbn [bind]. eauto.
Qed.

Lemma contains_box m ch x cs :
  length x = length cs -> length x = length (c_offset ch) ->
  Forall2 (fun o c => o + c < W64) (c_offset ch) cs ->
  exists r, contains m ch x cs = Ok r /\
    (r = Eq <-> in_box x (c_offset ch) cs) /\ box_side x (c_offset ch) cs r.
Proof.
  intros H1 H2 HF. destruct (contains_spec m ch x cs H1 H2 HF) as (r & E & B).
  exists r. split; auto. split; auto. now apply box_side_eq.
Qed.

Lemma cmp_refl a : cmp_offsets a a = Eq.
Proof. induction a as [|x a IH]; cbn [cmp_offsets]; auto. now rewrite N.compare_refl. Qed.
Lemma cmp_opp a : forall b, cmp_offsets b a = CompOpp (cmp_offsets a b).
Proof.
  induction a as [|x a IH]; intros [|y b]; cbn [cmp_offsets]; auto.
  rewrite N.compare_antisym. destruct (N.compare x y); cbn [CompOpp]; auto.
Qed.

Lemma chunk_order D a b c :
  length (c_offset a) = D -> length (c_offset b) = D -> length (c_offset c) = D ->
  (chunk_cmp a b = Lt <-> lex_lt (c_offset a) (c_offset b)) /\
  (chunk_cmp a b = Gt <-> lex_lt (c_offset b) (c_offset a)) /\
  (chunk_cmp a b = Eq <-> c_offset a = c_offset b) /\
  chunk_cmp a a = Eq /\
  chunk_cmp b a = CompOpp (chunk_cmp a b) /\
  (chunk_cmp a b <> Gt -> chunk_cmp b c <> Gt -> chunk_cmp a c <> Gt).
Proof.
  intros H1 H2 H3. destruct (chunk_order_spec a b) as (A & B & C); [congruence|].
  split; auto. split; auto. split; auto. split; [apply cmp_refl|]. split; [apply cmp_opp|].
  apply chunk_le_trans; congruence.
Qed.

Lemma eq_hash a b c :
  chunk_eqb a a = true /\ chunk_eqb a b = chunk_eqb b a /\
  (chunk_eqb a b = true -> chunk_eqb b c = true -> chunk_eqb a c = true) /\
  (chunk_eqb a b = true -> chunk_hash a = chunk_hash b).
Proof.
  unfold chunk_eqb, chunk_hash. split; [apply N.eqb_refl|]. split; [apply N.eqb_sym|].
  split; rewrite ?N.eqb_eq; congruence.
Qed.

Lemma ord_eq_refuted :
  (exists a b, chunk_cmp a b = Eq /\ chunk_eqb a b = false) /\
  (exists a b, chunk_cmp a b = Lt /\ chunk_eqb a b = true).
Proof.
  split.
  - exists (mkChunk 100 4 [0; 0]), (mkChunk 200 4 [0; 0]). now split.
  - exists (mkChunk 100 4 [0; 0]), (mkChunk 100 4 [0; 5]). now split.
Qed.

Lemma grid_offsets_rank shape cs o :
  length cs = length shape -> In o (grid_offsets shape cs) -> length o = length shape.
Proof.
  intros HL Hin. unfold grid_offsets in Hin. apply in_map_iff in Hin as (g & <- & Hg).
  apply in_slab in Hg as [Hg _]; [|rewrite zeros_length, grid_dims_length; auto].
  rewrite zeros_length in Hg. rewrite map2_length. lia.
Qed.

Lemma NoDup_map_inj {A B} (f : A -> B) l a b :
  NoDup (map f l) -> In a l -> In b l -> f a = f b -> a = b.
Proof.
  induction l as [|z l IH]; cbn [map]; intros ND Ha Hb E; [easy|]. inversion ND; subst.
  destruct Ha as [->|Ha], Hb as [->|Hb]; auto; exfalso; apply H1.
  - rewrite E. now apply in_map.
  - rewrite <- E. now apply in_map.
Qed.

Lemma ord_eq_within ds a b :
  full_dataset ds -> NoDup (map c_addr (d_chunks ds)) ->
  In a (d_chunks ds) -> In b (d_chunks ds) ->
  (chunk_cmp a b = Eq <-> chunk_eqb a b = true).
Proof.
  intros [Hwm Hg _] ND Ha Hb. pose proof (wm_rank _ Hwm) as HR. pose proof (wm_pos _ Hwm) as HP.
  assert (R : forall c, In c (d_chunks ds) -> length (c_offset c) = length (d_shape ds)).
  { intros c Hc. apply (grid_offsets_rank _ (d_chunk_shape ds)); auto. rewrite <- Hg. now apply in_map. }
  destruct (chunk_order_spec a b) as (_ & E & _); [rewrite !R; auto|].
  rewrite E. unfold chunk_eqb. rewrite N.eqb_eq.
  assert (ND2 : NoDup (map c_offset (d_chunks ds))).
  { rewrite Hg. apply StronglySorted_NoDup, grid_offsets_sorted; auto. }
  split; intros H.
  - f_equal. eapply (NoDup_map_inj c_offset); eauto.
  - f_equal. eapply (NoDup_map_inj c_addr); eauto.
Qed.

Lemma words_all_round_trip D l :
  Forall (fun c => length (c_offset c) = D) l ->
  slice_from_u64s D (slice_as_u64s l) = Ok l /\
  Forall (fun c => from_u64s D (as_u64s c) = Ok c) l /\
  length (slice_as_u64s l) = (length l * (2 + D))%nat.
Proof.
  intros H. split; [now apply words_round_trip|]. split; [|now apply slice_as_u64s_length].
  eapply Forall_impl; [|exact H]. intros c <-. apply one_round_trip.
Qed.

Lemma construction_ok m dt o shape chunks cs sh gz :
  length cs = length shape -> fits64 shape -> fits64 cs ->
  (Forall (fun c => 0 < c) cs ->
   exists ds, dataset_new m dt o shape chunks cs sh gz = Ok ds /\
     d_dim_sz ds = row_strides shape /\
     d_chunk_dim_sz ds = row_strides cs /\
     d_scaled_dim_sz ds = row_strides (grid_dims shape cs) /\
     d_dsize ds = dt_size dt /\ d_dtype ds = dt /\ d_order ds = o /\
     d_shape ds = shape /\ d_chunk_shape ds = cs /\ d_chunk_shape_reduced ds = cs /\
     d_chunks ds = chunks /\ d_shuffle ds = sh /\ d_gzip ds = gz) /\
  (In 0 cs -> dataset_new m dt o shape chunks cs sh gz = Panic).
Proof.
  intros HL H1 H2. split; [|apply dataset_new_zero]. intros HP.
  eexists. split; [now apply dataset_new_ok|]. cbn. repeat split.
Qed.

Lemma existsb_shuffle fs :
  existsb (fun f => match f with FShuffle => true | _ => false end) fs = true <-> In FShuffle fs.
Proof.
  rewrite existsb_exists. split.
  - intros (f & Hf & E). destruct f; try discriminate. auto.
  - intros H. exists FShuffle. auto.
Qed.

Lemma indexing_chunked m h cs :
  h_is_chunked h = true -> h_offset h = None -> h_chunk h = Some cs ->
  length cs = length (h_shape h) -> Forall (fun c => 0 < c) cs ->
  fits64 (h_shape h) -> fits64_lead (h_shape h) -> sizes_ok (h_shape h) cs ->
  supported (h_filters h) -> reports_grid (h_shape h) cs (h_visit h) ->
  (lenN (h_visit h) = prodN (grid_dims (h_shape h) cs) ->
   exists ds, dataset_index m h = Ok ds /\ full_dataset ds /\
     d_shape ds = h_shape h /\ d_chunk_shape ds = cs /\
     d_dtype ds = h_dtype h /\ d_order ds = h_order h /\
     Permutation (d_chunks ds) (h_visit h) /\
     map c_offset (d_chunks ds) = grid_offsets (h_shape h) cs /\
     (d_shuffle ds = true <-> In FShuffle (h_filters h)) /\
     d_gzip ds = last_deflate (h_filters h) None) /\
  (lenN (h_visit h) <> prodN (grid_dims (h_shape h) cs) ->
   dataset_index m h = Err ENumChunks).
Proof.
  intros H1 H2 H3 HL HP F1 F2 Hsz HS HR.
  assert (F3 : fits64 cs) by (apply fits64_pos; auto; apply Hsz).
  destruct (index_chunked m h cs) as [A B]; auto. split; auto.
  intros HE. destruct (A HE) as (ds & E & Hwm & E1 & E2 & E3 & E4 & E5 & E6 & E7 & E8).
  exists ds. split; auto. split; [constructor; rewrite ?E1, ?E2; auto|].
  do 6 (split; [auto|]). split; auto. rewrite E7. apply existsb_shuffle.
Qed.

Lemma indexing_order m h h' cs :
  h_is_chunked h = true -> h_offset h = None -> h_chunk h = Some cs ->
  length cs = length (h_shape h) -> Forall (fun c => 0 < c) cs ->
  reports_grid (h_shape h) cs (h_visit h) ->
  Permutation (h_visit h) (h_visit h') ->
  h' = mkH5 (h_shape h) (h_chunk h) true None (h_storage h) (h_visit h') (h_filters h)
            (h_dtype h) (h_order h) ->
  dataset_index m h' = dataset_index m h.
Proof.
  intros H1 H2 H3 HL HP HR HP' E.
  assert (S : chunk_sort (h_visit h') = chunk_sort (h_visit h)).
  { pose proof (reports_rank _ _ _ HL HR) as Hrk. destruct HR as [ND HF].
    apply sorted_perm_unique.
    - eapply chunk_sort_sorted.
      + unfold same_rank in *. rewrite Forall_forall in *. intros c Hc. apply Hrk.
        eapply Permutation_in; [apply Permutation_sym|]; eauto.
      + eapply Permutation_NoDup; [|exact ND]. now apply Permutation_map.
    - eapply chunk_sort_sorted; eauto.
    - rewrite !chunk_sort_perm. now apply Permutation_sym. }
  rewrite E. unfold dataset_index. cbn [h_filters h_chunk h_shape h_is_chunked h_offset h_visit h_storage h_dtype h_order].
  rewrite H1, H2.
  destruct (scan_filters (h_filters h) false None) as [[sh gz]| | | |]; cbn [bind]; auto.
  now rewrite S.
Qed.

Lemma indexing_contiguous m h off :
  h_is_chunked h = false -> h_offset h = Some off -> h_chunk h = None ->
  Forall (fun s => 0 < s) (h_shape h) -> sizes_ok (h_shape h) (h_shape h) ->
  supported (h_filters h) ->
  exists ds, dataset_index m h = Ok ds /\ full_dataset ds /\
    d_shape ds = h_shape h /\ d_chunk_shape ds = h_shape h /\
    d_dtype ds = h_dtype h /\ d_order ds = h_order h /\
    d_chunks ds = [mkChunk off (h_storage h) (map (fun _ => 0) (h_shape h))].
Proof.
  intros H1 H2 H3 HP Hsz HS.
  destruct (index_contiguous m h off) as (ds & E & Hwm & E1 & E2 & E3 & E4 & E5 & E6); auto; [apply Hsz|].
  exists ds. split; auto. split; [constructor; rewrite ?E1, ?E2; auto|]. auto.
Qed.

Lemma indexing_unsupported m h :
  (In FOther (h_filters h) -> dataset_index m h = Err EFilter) /\
  (supported (h_filters h) ->
   (h_is_chunked h = true <-> h_offset h <> None) -> dataset_index m h = Err ELayout).
Proof.
  unfold dataset_index. split.
  - intros H. now rewrite scan_filters_bad.
  - intros HS H. rewrite scan_filters_ok by auto. cbn [bind].
    destruct (h_is_chunked h), (h_offset h); try reflexivity; exfalso; intuition congruence.
Qed.

(** ** valid *)

Lemma box_self o : forall cs, length o = length cs ->
  (in_box o o cs <-> Forall (fun c => 0 < c) cs).
Proof.
  unfold in_box. induction o as [|x o IH]; intros [|c cs] HL; cbn [length] in HL; try discriminate.
  - split; [constructor|]. intros _. repeat split; auto; destruct j; discriminate.
  - specialize (IH cs ltac:(lia)). split.
    + intros (_ & _ & H). constructor.
      * specialize (H 0%nat x x c eq_refl eq_refl eq_refl). lia.
      * apply IH. split; auto. split; [lia|]. intros j. apply (H (S j)).
    + intros H; inversion H; subst. split; auto. split; [cbn [length]; lia|].
      intros [|j] y a b; cbn [nth_error].
      * intros [= <-] [= <-] [= <-]. lia.
      * apply IH; auto.
Qed.

Lemma valid_ok m ds :
  Forall (fun c => length (c_offset c) = length (d_chunk_shape ds)) (d_chunks ds) ->
  Forall (fun c => Forall2 (fun o z => o + z < W64) (c_offset c) (d_chunk_shape ds)) (d_chunks ds) ->
  (valid m ds = Ok true <-> d_chunks ds = [] \/ Forall (fun c => 0 < c) (d_chunk_shape ds)) /\
  (valid m ds = Ok true \/ valid m ds = Err EValid).
Proof.
  unfold valid. generalize (d_chunks ds), (d_chunk_shape ds). intros l cs HR HW.
  induction l as [|c l IH]; cbn [valid_loop].
  - intuition.
  - inversion HR; subst. inversion HW; subst.
    destruct (contains_box m c (c_offset c) cs) as (r & -> & Hr & _); auto. cbn [bind].
    rewrite (box_self (c_offset c) cs) in Hr by auto.
    destruct IH as [IH1 IH2]; auto.
    destruct r.
    + assert (HP : Forall (fun c => 0 < c) cs) by now apply Hr.
      split; [|auto]. rewrite IH1. split; auto.
    + split; auto. split; [discriminate|]. intros [E|E]; [discriminate|]. apply Hr in E. discriminate.
    + split; auto. split; [discriminate|]. intros [E|E]; [discriminate|]. apply Hr in E. discriminate.
Qed.

Lemma valid_refuted :
  exists ds, valid Debug ds = Ok true /\ valid Release ds = Ok true /\
    d_shape ds = [4] /\ d_chunk_shape ds = [2] /\ well_made ds /\
    map c_offset (d_chunks ds) = [[1]; [2]; [90]].
Proof.
  exists (mkDataset (Int 4) 4 LE [mkChunk 0 8 [1]; mkChunk 0 8 [2]; mkChunk 0 8 [90]]
            [4] [2] [2] [1] [1] [1] false None).
  repeat split; try reflexivity. repeat constructor.
Qed.
