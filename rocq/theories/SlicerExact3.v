(** * SlicerExact3: with debug assertions, only [sel_safe] selections are iterated rightly. *)
From Verif Require Import Base Spec SpecApi Radix Safe Chunk Extent Dataset Slicer
  SlicerProofs SlicerStep ChunkProofs DatasetProofs SlicerMain SlicerTheorems SlicerExact SlicerExact2.

Local Arguments N.add : simpl never.
Local Arguments N.sub : simpl never.
Local Arguments N.mul : simpl never.
Local Arguments N.div : simpl never.
Local Arguments N.modulo : simpl never.

(** ** Digits *)

Lemma dig_surj rs : forall os, Forall2 (fun o r => o < n_ r) os rs ->
  exists p, p < pn rs /\ os = dig (map n_ rs) p.
Proof.
  induction rs as [|r rs IH]; intros os H; inversion H; subst.
  - exists 0. split; [reflexivity|reflexivity].
  - destruct (IH _ H4) as (p & Hp & ->). exists (n_ r * p + x).
    split.
    + rewrite pnc. assert (n_ r * (p + 1) <= n_ r * pn rs) by (apply N.mul_le_mono_l; lia). lia.
    + cbn [map dig]. f_equal.
      * symmetry. apply (mod_unique_N _ _ p); lia.
      * f_equal. symmetry. apply (div_unique_N _ _ _ x); lia.
Qed.

Lemma dig_range rs : forall p, Forall dwf rs -> Forall2 (fun o r => o < n_ r) (dig (map n_ rs) p) rs.
Proof.
  induction rs as [|r rs IH]; intros p HF; inversion HF; subst; cbn [map dig]; constructor; auto.
  apply N.mod_lt. destruct H1. lia.
Qed.

Lemma carry_range rs : forall V q k os, Forall dwf rs ->
  carry_loop Debug (mkrs V rs q) k = Ok os -> Forall2 (fun o r => o < n_ r) os rs.
Proof.
  induction rs as [|r rs IH]; intros V q k os HF H; cbn [mkrs carry_loop] in H.
  - injection H as <-. constructor.
  - inversion HF; subst. pose proof H2 as (Hn & _). cbn [r_cnt] in H.
    destruct (add64 Debug (q mod n_ r) k) as [o1| | | |]; try discriminate. cbn [bind] in H.
    unfold div64, rem64 in H. destruct (N.eqb_spec (n_ r) 0) as [E|_]; [lia|]. cbn [bind] in H.
    assert (o1 mod n_ r < n_ r) by (apply N.mod_lt; lia).
    destruct (o1 / n_ r =? 0).
    + injection H as <-. rewrite mkrs_snd. constructor; auto. apply dig_range; auto.
    + destruct (carry_loop Debug _ _) as [os'| | | |] eqn:E; try discriminate. cbn [bind] in H.
      injection H as <-. constructor; auto. eapply IH; eauto.
Qed.

Lemma nth_error_seqN n : forall a k, (k < n)%nat -> nth_error (seqN a n) k = Some (a + N.of_nat k).
Proof.
  induction n as [|n IH]; intros a [|k] H; try lia; cbn [seqN nth_error].
  - f_equal. lia.
  - rewrite IH by lia. f_equal. lia.
Qed.

Lemma Forall2_app_same {A B} (R : A -> B -> Prop) l1 l2 m1 m2 : length l1 = length m1 ->
  Forall2 R (l1 ++ l2) (m1 ++ m2) -> Forall2 R l1 m1 /\ Forall2 R l2 m2.
Proof.
  revert m1; induction l1 as [|x l1 IH]; intros [|y m1] HL H; cbn [length app] in *; try discriminate; auto.
  inversion H; subst. destruct (IH m1) as [X Y]; auto.
Qed.

(** ** Places determine elements *)

Lemma place_inj rs : forall p p', Forall dwf rs -> p < pn rs -> p' < pn rs ->
  cidx rs p = cidx rs p' -> cpos rs p = cpos rs p' -> p = p'.
Proof.
  induction rs as [|r rs IH]; intros p p' HF H1 H2 E1 E2.
  - unfold pn in *. cbn in H1, H2. lia.
  - inversion HF; subst. pose proof H3 as (Hn & Hc & _). rewrite pnc in H1, H2.
    cbn [cidx cpos] in E1, E2. injection E1 as D E1.
    assert (L : forall x, x < n_ r * pn rs -> x / n_ r < pn rs) by (intros; apply N.div_lt_upper_bound; lia).
    assert (M1 : (i_ r + p mod n_ r) mod c_ r < c_ r) by (apply N.mod_lt; lia).
    assert (M2 : (i_ r + p' mod n_ r) mod c_ r < c_ r) by (apply N.mod_lt; lia).
    set (m1 := (i_ r + p mod n_ r) mod c_ r) in *. set (m2 := (i_ r + p' mod n_ r) mod c_ r) in *.
    assert (Em : m1 = m2 /\ cpos rs (p / n_ r) = cpos rs (p' / n_ r)).
    { split.
      - rewrite <- (mod_unique_N (m1 + c_ r * cpos rs (p / n_ r)) (c_ r) (cpos rs (p / n_ r)) m1) by (auto; lia).
        rewrite E2. apply (mod_unique_N _ _ (cpos rs (p' / n_ r))); auto; lia.
      - rewrite <- (div_unique_N (m1 + c_ r * cpos rs (p / n_ r)) (c_ r) (cpos rs (p / n_ r)) m1) by (auto; lia).
        rewrite E2. apply (div_unique_N _ _ _ m2); auto; lia. }
    destruct Em as [Em Ep].
    assert (Eq : p / n_ r = p' / n_ r) by (apply IH; auto).
    pose proof (divmod_eq (i_ r + p mod n_ r) (c_ r) ltac:(lia)) as X1. fold m1 in X1.
    pose proof (divmod_eq (i_ r + p' mod n_ r) (c_ r) ltac:(lia)) as X2. fold m2 in X2.
    rewrite D in X1. rewrite Em in X1.
    pose proof (divmod_eq p (n_ r) ltac:(lia)) as Y1.
    pose proof (divmod_eq p' (n_ r) ltac:(lia)) as Y2. rewrite Eq in Y1. mlia.
Qed.

(** An element of the chunk at the corner of another element's chunk. *)
Lemma in_box_corner cs : forall x x', Forall (fun c => 0 < c) cs -> length x' = length cs ->
  in_box x (chunk_corner cs x') cs ->
  map2 N.div x cs = map2 N.div x' cs /\ map2 N.sub x (chunk_corner cs x') = map2 N.modulo x cs.
Proof.
  induction cs as [|c cs IH]; intros x x' HP HL (B1 & B2 & B3).
  - destruct x; [|discriminate]. destruct x'; [|discriminate]. auto.
  - destruct x as [|v x]; [discriminate|]. destruct x' as [|v' x']; [discriminate|].
    inversion HP; subst. unfold chunk_corner in *. cbn [map2 length] in *.
    destruct (IH x x') as [E1 E2]; auto.
    { split; [|split]; try lia. intros j. apply (B3 (S j)). }
    specialize (B3 0%nat _ _ _ eq_refl eq_refl eq_refl).
    assert (Ed : v / c = v' / c) by (apply (div_unique_N _ _ _ (v - v' / c * c)); lia).
    pose proof (divmod_eq v c ltac:(lia)) as Ev.
    rewrite E1, E2, Ed. split; [reflexivity|]. f_equal. rewrite Ed in Ev. mlia.
Qed.

Section Exact.
Context (ds : dataset) (idx cnt : list N).
Hypothesis Hfd : full_dataset ds.
Hypothesis Hsc : d_shape ds <> [].
Hypothesis Hsel : sel_in (d_shape ds) idx cnt.
Let D := mk_dims (d_shape ds) (d_chunk_shape ds) idx cnt.
Let rs := rev D.
Let e := prodN cnt.

Lemma x_wf : Forall dwf D.
Proof.
  destruct Hfd as [Hwm _ Hsz]. destruct Hsz as (_ & _ & Hs3). apply mk_dims_wf; auto. apply Hwm.
Qed.
Lemma x_wfr : Forall dwf rs.
Proof. apply Forall_rev, x_wf. Qed.
Lemma x_proj : map s_ D = d_shape ds /\ map c_ D = d_chunk_shape ds /\ map i_ D = idx /\ map n_ D = cnt.
Proof.
  destruct Hsel as (L1 & L2 & _). apply mk_dims_proj; auto. apply Hfd.
Qed.
Lemma x_pn : pn rs = e.
Proof. unfold rs, e. rewrite pn_rev. now rewrite (proj2 (proj2 (proj2 x_proj))). Qed.
Lemma x_eW : e < W64.
Proof.
  destruct (sel_in_fits _ _ _ _ Hsel (fd_sizes _ Hfd)) as [_ H]. destruct (fd_sizes _ Hfd) as (H1 & _).
  unfold e. lia.
Qed.
Lemma x_coord q : slab_coord idx cnt q = coord_of D q.
Proof. unfold coord_of. now destruct x_proj as (_ & _ & -> & ->). Qed.
Lemma x_len q : length (coord_of D q) = length (d_chunk_shape ds).
Proof.
  pose proof (coord_of_in_shape D q x_wf) as Hq. apply Forall2_length' in Hq.
  destruct x_proj as (E1 & _). rewrite E1 in Hq. rewrite Hq. symmetry. apply Hfd.
Qed.

(** The place of an element held by the chunk of another one. *)
Lemma x_holds q p c z :
  c_offset c = chunk_corner (d_chunk_shape ds) (coord_of D p) ->
  holds ds (coord_of D q) (c, z) -> cidx rs q = cidx rs p /\ z = cpos rs q.
Proof.
  intros Ec (_ & B & Ez). cbn [fst snd] in *. rewrite Ec in B, Ez.
  destruct (in_box_corner _ _ _ (wm_pos _ (fd_made _ Hfd)) (x_len p) B) as [E1 E2].
  unfold rs. rewrite !cidx_spec, cpos_spec by apply x_wf.
  destruct x_proj as (_ & -> & _). rewrite E1. split; [reflexivity|].
  rewrite Ez, E2. reflexivity.
Qed.

(** ** One call of [next] that returns *)
Lemma next_inv off p c a b st' :
  off < e ->
  slicer_next Debug ds (mkSlicer off (rev (dig (rev cnt) p)) idx cnt e) = Ok (Some ((c, a, b), st')) ->
  exists A vis rest k os F,
    c_offset c = chunk_corner (d_chunk_shape ds) (coord_of D p) /\
    a = cpos rs p /\ b = a + A /\ 0 < A /\
    adv_loop Debug e (mkrs 1 rs p) 0 0 off = Ok (vis, rest, k, A, F) /\
    carry_loop Debug rest k = Ok os /\
    st' = mkSlicer F (rev (vis ++ os)) idx cnt e.
Proof.
  intros Ho H. pose proof x_wf as HD. pose proof x_proj as (E1 & E2 & E3 & E4).
  destruct (sel_in_fits _ _ _ _ Hsel (fd_sizes _ Hfd)) as [Hfit Hcle].
  pose proof (fd_made _ Hfd) as Hwm. pose proof (wm_pos _ Hwm) as HP. pose proof (wm_cdim _ Hwm) as Hcd.
  destruct (fd_sizes _ Hfd) as (Hs1 & Hs2 & Hs3).
  destruct (chunk_at_coord_ok Debug ds (coord_of D p) Hwm Hfit (fd_grid _ Hfd)) as (ch & C1 & C2 & C3).
  { rewrite <- E1. now apply coord_of_in_shape. }
  unfold slicer_next in H. cbn [s_end s_offset s_coords s_indices s_counts] in H.
  replace (e <=? off) with false in H by (symmetry; apply N.leb_gt; lia).
  replace (is_scalar ds) with false in H.
  2:{ unfold is_scalar. destruct (d_shape ds); [congruence|reflexivity]. }
  rewrite <- E3 in H at 1. rewrite <- E4 in H at 1. rewrite add_lists_ok in H by auto. cbn [bind] in H.
  rewrite C2 in H. cbn [bind] in H.
  destruct (dbg_res Debug _) as [[]| | | |]; try discriminate. cbn [bind] in H.
  rewrite C3, Hcd in H.
  pose proof (pos_lt (d_chunk_shape ds) (coord_of D p) HP (x_len p)) as Hpl.
  rewrite chunk_start_ok in H by (auto; try apply x_len; lia). cbn [bind] in H. rewrite N.add_0_l in H.
  pose proof (rows_mkrs D p HD) as Hrows. rewrite E1, E2, E3, E4 in Hrows.
  rewrite Hrows in H. fold rs in H.
  destruct (adv_loop Debug e (mkrs 1 rs p) 0 0 off) as [[[[[vis rest] k] A] F]| | | |] eqn:EA; try discriminate.
  cbn [bind] in H.
  destruct (carry_loop Debug rest k) as [os| | | |] eqn:EC; try discriminate. cbn [bind] in H.
  unfold dbg at 1 in H. destruct (N.ltb_spec 0 A) as [HA|]; [|discriminate]. cbn [assert_ bind] in H.
  destruct (add64 Debug _ A) as [cend| | | |] eqn:EB; try discriminate. apply add64_debug in EB as [-> _].
  cbn [bind] in H. destruct (dbg_res Debug _) as [[]| | | |]; try discriminate. cbn [bind] in H.
  injection H as <- <- <- <-.
  exists A, vis, rest, k, os, F. split; [auto|].
  split. { unfold rs. rewrite cpos_spec by auto. now rewrite E2. }
  repeat split; auto.
Qed.

Lemma adv_state vis rest k A F os p :
  adv_loop Debug e (mkrs 1 rs p) 0 0 p = Ok (vis, rest, k, A, F) ->
  carry_loop Debug rest k = Ok os ->
  F = p + A /\ exists p', p' < e /\ vis ++ os = dig (rev cnt) p'.
Proof.
  intros H1 H2. pose proof x_wfr as HF.
  destruct (adv_gen _ _ _ _ _ _ _ _ _ _ _ _ HF N.lt_0_1 H1)
    as ((d & D1 & D2) & _ & r1 & r2 & V2 & q2 & E1 & E2 & E3).
  split; [lia|].
  rewrite E1 in HF. apply Forall_app in HF as [HF1 HF2]. subst rest.
  pose proof (carry_range _ _ _ _ _ HF2 H2) as R.
  destruct (dig_surj rs (vis ++ os)) as (p' & L & E).
  { rewrite E1. now apply Forall2_app. }
  exists p'. rewrite x_pn in L. split; auto. rewrite E. f_equal. unfold rs. rewrite map_rev.
  now destruct x_proj as (_ & _ & _ & ->).
Qed.

(** ** The whole iteration *)
Lemma run_inv fuel : forall p segs,
  bnd rs p -> p <= e ->
  slicer_run Debug fuel ds (state_at idx cnt p) = (segs, SDone) ->
  Forall2 (holds ds) (map (slab_coord idx cnt) (seqN p (N.to_nat (e - p)))) (flat_map seg_elems segs) ->
  forall q, bnd rs q -> p <= q -> q < e -> exists a, stepw e 0 1 rs q a.
Proof.
  induction fuel as [|fuel IH]; intros p segs Hb Hp Hrun HF q Hq Hpq Hqe; cbn [slicer_run] in Hrun; [discriminate|].
  destruct (slicer_next Debug ds (state_at idx cnt p)) as [[[[[c a] b] st']|]| | | |] eqn:En; try discriminate.
  2:{ exfalso. unfold slicer_next, state_at in En. cbn [s_end s_offset s_coords s_indices s_counts] in En.
      fold e in En. replace (e <=? p) with false in En by (symmetry; apply N.leb_gt; lia).
      replace (is_scalar ds) with false in En.
      2:{ unfold is_scalar. destruct (d_shape ds); [congruence|reflexivity]. }
      destruct (add_lists _ _ _); try discriminate. cbn [bind] in En.
      destruct (chunk_at_coord _ _ _); try discriminate. cbn [bind] in En.
      destruct (dbg_res _ _); try discriminate. cbn [bind] in En.
      destruct (chunk_start _ _ _ _ _); try discriminate. cbn [bind] in En.
      destruct (adv_loop _ _ _ _ _ _) as [[[[[? ?] ?] ?] ?]| | | |]; try discriminate. cbn [bind] in En.
      destruct (carry_loop _ _ _); try discriminate. cbn [bind] in En.
      destruct (dbg _ _); try discriminate. cbn [bind] in En.
      destruct (add64 _ _ _); try discriminate. cbn [bind] in En.
      destruct (dbg_res _ _); discriminate. }
  destruct (slicer_run Debug fuel ds st') as [segs' s] eqn:Er. injection Hrun as <- ->.
  destruct (next_inv p p c a b st' ltac:(lia) En) as (A & vis & rest & k & os & F & C & Ea & Eb & HA & Hadv & Hcar & Est).
  destruct (adv_state _ _ _ _ _ _ _ Hadv Hcar) as (EF & p' & Hp' & Edig).
  subst F. cbn [flat_map] in HF.
  assert (Elen : N.to_nat A = length (seg_elems (c, a, b))).
  { unfold seg_elems. rewrite map_length, seqN_length. f_equal. lia. }
  pose proof (Forall2_length' _ _ _ HF) as HL. rewrite map_length, seqN_length, app_length, <- Elen in HL.
  assert (HpA : p + A <= e) by lia.
  replace (N.to_nat (e - p)) with (N.to_nat A + N.to_nat (e - (p + A)))%nat in HF by lia.
  rewrite map_seqN_split in HF. replace (p + N.of_nat (N.to_nat A)) with (p + A) in HF by lia.
  apply Forall2_app_same in HF as [HF1 HF2]; [|rewrite map_length, seqN_length; auto].
  assert (Hsame : sameplace rs p A).
  { intros j Hj.
    assert (Hh : holds ds (coord_of D (p + j)) (c, a + j)).
    { rewrite <- x_coord.
      assert (N1 : nth_error (map (slab_coord idx cnt) (seqN p (N.to_nat A))) (N.to_nat j)
                   = Some (slab_coord idx cnt (p + j))).
      { apply map_nth_error. rewrite nth_error_seqN by lia. f_equal. lia. }
      assert (N2 : nth_error (seg_elems (c, a, b)) (N.to_nat j) = Some (c, a + j)).
      { unfold seg_elems. rewrite (map_nth_error _ _ _ (d := a + j)); auto.
        rewrite nth_error_seqN by lia. f_equal. lia. }
      clear - HF1 N1 N2. revert N1 N2. generalize (N.to_nat j).
      induction HF1; intros [|n]; cbn [nth_error]; try discriminate; eauto. now intros [= <-] [= <-]. }
    destruct (x_holds (p + j) p c (a + j) C Hh) as [X1 X2]. split; auto. rewrite <- X2. lia. }
  assert (Hst : stepw e 0 1 rs p A).
  { exists vis, rest, k. rewrite !N.mul_0_l, !N.add_0_r, !N.mul_1_r. rewrite x_pn. auto. }
  destruct (N.eq_dec q p) as [->|Hne]; [exists A; auto|].
  destruct (N.lt_ge_cases q (p + A)) as [Hlt|Hge].
  { exfalso. apply (bnd_inside rs p q A x_wfr Hb Hsame); auto; try lia. rewrite x_pn. lia. }
  assert (Hb' : bnd rs (p + A)).
  { apply (step_max e rs 0 1 p A x_wfr Hb); auto; try lia.
    - rewrite x_pn. lia.
    - apply x_eW.
    - rewrite x_pn. lia. }
  assert (p' = p + A) as ->.
  { rewrite Edig in Est. subst st'. destruct fuel as [|fuel]; [discriminate|]. cbn [slicer_run] in Er.
    destruct (slicer_next Debug ds (mkSlicer (p + A) (rev (dig (rev cnt) p')) idx cnt e))
      as [[[[[c2 a2] b2] st2]|]| | | |] eqn:En2; try discriminate.
    - assert (Hlt2 : p + A < e) by lia.
      destruct (next_inv _ _ _ _ _ _ Hlt2 En2) as (A2 & ? & ? & ? & ? & ? & C2 & Ea2 & Eb2 & HA2 & _).
      destruct (slicer_run Debug fuel ds st2) as [segs2 s2]. injection Er as <- ->.
      cbn [flat_map] in HF2. unfold seg_elems in HF2.
      replace (N.to_nat (b2 - a2)) with (S (N.to_nat (A2 - 1))) in HF2 by lia.
      replace (N.to_nat (e - (p + A))) with (S (N.to_nat (e - (p + A) - 1))) in HF2 by lia.
      cbn [seqN map app] in HF2. inversion HF2 as [|? ? ? ? Hh _]; subst.
      rewrite x_coord in Hh. destruct (x_holds _ p' _ _ C2 Hh) as [X1 X2].
      symmetry. apply (place_inj rs); auto; try rewrite x_pn; try lia. apply x_wfr.
    - injection Er as <-. apply Forall2_length' in HF2. rewrite map_length, seqN_length in HF2.
      cbn [flat_map length] in HF2. lia. }
  rewrite Edig in Est. subst st'.
  apply (IH (p + A) segs'); auto.
Qed.

Lemma right_safe : (exists fuel segs,
    slicer_run Debug fuel ds (state_at idx cnt 0) = (segs, SDone) /\
    Forall2 (holds ds) (slab idx cnt) (flat_map seg_elems segs)) ->
  sel_safe (d_shape ds) (d_chunk_shape ds) idx cnt = true.
Proof.
  intros (fuel & segs & Hrun & HF). unfold sel_safe. fold D. fold rs.
  pose proof Hsel as (L1 & L2 & HN & HB).
  rewrite slab_seq in HF by (auto; congruence).
  apply (safe_nec e); auto using x_wfr, x_eW; try lia.
  - rewrite x_pn. lia.
  - intros q Hq Hle. rewrite N.add_0_r. split.
    + intros Hlt. rewrite x_pn in Hlt. apply (run_inv fuel 0 segs) with (q := q); auto; try lia.
      * apply bnd_zero, x_wfr.
      * now rewrite N.sub_0_r.
    + intros _. apply sameplace_one. lia.
Qed.
End Exact.

(** Right iteration in a debug build forces the selection into the class. *)
Lemma reads_right_safe ds ex idx cnt segs fuel :
  full_dataset ds -> get_start_count ex (d_shape ds) = Ok (idx, cnt) ->
  sel_in (d_shape ds) idx cnt -> chunk_slices Debug fuel ds ex = (segs, SDone) ->
  Forall2 (holds ds) (slab idx cnt) (flat_map seg_elems segs) ->
  sel_safe (d_shape ds) (d_chunk_shape ds) idx cnt = true.
Proof.
  intros Hfd He Hsel Hrun HF.
  destruct (list_eq_dec N.eq_dec (d_shape ds) []) as [E|E].
  { unfold sel_safe. rewrite E. reflexivity. }
  apply right_safe; auto.
  unfold chunk_slices in Hrun. rewrite (chunk_slicer_ok Debug ds ex idx cnt) in Hrun by auto. eauto.
Qed.
