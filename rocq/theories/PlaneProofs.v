(** * PlaneProofs: [sel_safe] in words, for two-dimensional datasets. *)
From Verif Require Import Base Spec Radix Safe Chunk Extent Dataset Slicer SpecApi
  DatasetProofs ChunkProofs SlicerProofs SlicerMain SlicerTheorems SlicerExact SlicerExact3 ApiLemmas SafeProofs SliceProps.

(** The selection covers exactly the clipped last chunk of the second dimension, more than
    one row of chunks that are more than one row high; the exception is two rows that
    fall in two different chunks. *)
Definition plane_bad (s1 c0 c1 i0 i1 n0 n1 : N) : Prop :=
  i1 mod c1 = 0 /\ i1 + n1 = s1 /\ n1 < c1 /\ n0 <> 1 /\ c0 <> 1 /\
  ~ (n0 = 2 /\ i0 mod c0 = c0 - 1).

Lemma safe_outer1 r : 0 < n_ r -> 0 < c_ r -> safe 1 1 [r] = true.
Proof.
  intros Hn Hc. cbn [safe]. rewrite pn_cons. change (pn []) with 1. rewrite N.mul_1_r.
  destruct (N.leb_spec (n_ r) 1).
  { cbn [block ones forallb orb]. rewrite single_one by lia. reflexivity. }
  assert (i_ r mod c_ r < c_ r) by (apply N.mod_lt; lia).
  replace (1 <=? _) with true by (symmetry; apply N.leb_le; lia). rewrite orb_true_r. cbn [negb].
  cbn [still ones forallb orb andb negb]. change (1 =? 1) with true. cbn [andb orb negb].
  destruct (exact r); [reflexivity|]. now destruct (clipped r).
Qed.

Lemma plane_safe s0 s1 c0 c1 i0 i1 n0 n1 :
  0 < c0 -> 0 < c1 -> 0 < n0 -> 0 < n1 ->
  (sel_safe [s0; s1] [c0; c1] [i0; i1] [n0; n1] = true <-> ~ plane_bad s1 c0 c1 i0 i1 n0 n1).
Proof.
  intros C0 C1 N0 N1. unfold sel_safe. cbn [mk_dims rev app].
  set (r1 := mkDim i1 n1 c1 s1). set (r0 := mkDim i0 n0 c0 s0).
  cbn [safe]. rewrite !pn_cons. change (pn []) with 1. cbn [n_ r1 r0].
  destruct (N.leb_spec (n1 * (n0 * 1)) 0); [nia|].
  replace (0 <=? _) with true by (symmetry; apply N.leb_le; lia). rewrite orb_true_r.
  replace (negb (1 =? 1)) with false by reflexivity. cbn [andb negb].
  rewrite (portion_pos r1) by assumption. rewrite andb_false_r.
  destruct (exact r1) eqn:Ee.
  { split; [|intros _].
    - intros _ (A & B & C & _). unfold exact, r1 in Ee. cbn [i_ n_ c_] in Ee. apply andb_true_iff in Ee as [_ Ee]. apply N.eqb_eq in Ee. lia.
    - change (safe (0 / c1 + 1) (1 * c1) [r0] = true). rewrite N.div_0_l by lia. rewrite N.add_0_l, N.mul_1_l.
      destruct (N.eq_dec c1 1) as [->|]; [now apply safe_outer1|]. apply safe_outer; [lia|exact N0|exact C0]. }
  unfold clipped, plane_bad, r1. cbn [i_ n_ c_ s_].
  destruct (N.eqb_spec (i1 mod c1) 0) as [A|A]; [|split; [tauto|auto]].
  destruct (N.eqb_spec (i1 + n1) s1) as [B|B]; [|split; [tauto|auto]].
  destruct (N.ltb_spec n1 c1) as [D|D]; [|split; [lia|auto]].
  cbn [still ones forallb orb andb]. cbn [i_ n_ c_ s_ r0].
  destruct (N.eqb_spec n0 1) as [E|E]; [destruct (thin r0); split; [tauto|auto|tauto|auto]|].
  destruct (N.eqb_spec c0 1) as [F|F]; [split; [tauto|auto]|].
  rewrite andb_true_r, andb_true_iff, !N.eqb_eq. split; [tauto|]. intros G.
  destruct (N.eq_dec n0 2); [|exfalso; tauto]. destruct (N.eq_dec (i0 mod c0) (c0 - 1)); [auto|exfalso; tauto].
Qed.

(** ** Release builds: outside the class the iteration is wrong *)

(** One call of [next] in a release build, from the result of its two loops. *)
Lemma next_release ds idx cnt p vis rest k A F os :
  full_dataset ds -> d_shape ds <> [] -> sel_in (d_shape ds) idx cnt -> p < prodN cnt ->
  let D := mk_dims (d_shape ds) (d_chunk_shape ds) idx cnt in
  adv_loop Release (prodN cnt) (mkrs 1 (rev D) p) 0 0 p = Ok (vis, rest, k, A, F) ->
  carry_loop Release rest k = Ok os -> cpos (rev D) p + A < W64 ->
  exists ch, c_offset ch = chunk_corner (d_chunk_shape ds) (coord_of D p) /\
    slicer_next Release ds (state_at idx cnt p) =
      Ok (Some ((ch, cpos (rev D) p, cpos (rev D) p + A), mkSlicer F (rev (vis ++ os)) idx cnt (prodN cnt))).
Proof.
  intros Hfd Hsc Hsel Hp D HA HC HW.
  pose proof (x_wf ds idx cnt Hfd Hsel) as HD. pose proof (x_proj ds idx cnt Hfd Hsel) as (E1 & E2 & E3 & E4).
  pose proof (x_len ds idx cnt Hfd Hsel) as HL. fold D in HD, E1, E2, E3, E4, HL.
  destruct (sel_in_fits _ _ _ _ Hsel (fd_sizes _ Hfd)) as [Hfit Hcle].
  pose proof (fd_made _ Hfd) as Hwm. pose proof (wm_pos _ Hwm) as HP. pose proof (wm_cdim _ Hwm) as Hcd.
  destruct (fd_sizes _ Hfd) as (Hs1 & Hs2 & Hs3).
  destruct (chunk_at_coord_ok Release ds (coord_of D p) Hwm Hfit (fd_grid _ Hfd)) as (ch & C1 & C2 & C3).
  { rewrite <- E1. now apply coord_of_in_shape. }
  exists ch. split; [auto|].
  unfold slicer_next, state_at. cbn [s_end s_offset s_coords s_indices s_counts].
  replace (prodN cnt <=? p) with false by (symmetry; apply N.leb_gt; lia).
  replace (is_scalar ds) with false.
  2:{ unfold is_scalar. destruct (d_shape ds); [congruence|reflexivity]. }
  rewrite <- E3 at 1. rewrite <- E4 at 1. rewrite add_lists_ok by auto. cbn [bind].
  rewrite C2. cbn [bind dbg_res].
  rewrite C3, Hcd.
  pose proof (pos_lt (d_chunk_shape ds) (coord_of D p) HP (HL p)) as Hpl.
  rewrite chunk_start_ok by (auto; try apply HL; lia). cbn [bind]. rewrite N.add_0_l.
  pose proof (rows_mkrs D p HD) as Hrows. rewrite E1, E2, E3, E4 in Hrows. rewrite Hrows.
  rewrite HA. cbn [bind]. rewrite HC. cbn [bind dbg].
  rewrite <- E2. rewrite <- cpos_spec by auto.
  rewrite add64_ok by lia. cbn [bind]. reflexivity.
Qed.

Section Plane.
Context (s0 s1 c0 c1 i0 i1 n0 n1 : N).
Let r0 := mkDim i0 n0 c0 s0.
Let r1 := mkDim i1 n1 c1 s1.
Let rs := [r1; r0].
Hypothesis H0 : dwf r0.
Hypothesis H1 : dwf r1.
Hypothesis Hc : c0 * c1 < W64.
Hypothesis Hs : n0 * n1 < W64.
Hypothesis Ha : i1 mod c1 = 0.
Hypothesis Hb : i1 + n1 = s1.
Hypothesis Hlt : n1 < c1.

Lemma pl_inner k : k < n0 ->
  mkrs 1 rs (k * n1) = [(mkRow i1 n1 i1 c1 1 s1, 0); (mkRow i0 n0 ((i0 + k) / c0 * c0) c0 c1 s0, k)] /\
  cpos rs (k * n1) = c1 * ((i0 + k) mod c0).
Proof.
  intros Hk. destruct H0 as (A & B & C & D). destruct H1 as (A1 & B1 & C1 & D1). cbn [n_ c_ i_ s_ r0 r1] in *.
  unfold rs. cbn [mkrs cpos n_ c_ i_ s_ r0 r1].
  rewrite N.mod_mul, N.div_mul, N.mul_1_l, N.add_0_r by lia.
  rewrite (N.mod_small k n0) by lia. rewrite Ha, N.mul_0_r, N.add_0_l, N.add_0_r.
  split; [|reflexivity]. repeat f_equal.
  pose proof (divmod_eq i1 c1 ltac:(lia)). lia.
Qed.

(** A row that is not the last one selected, in a chunk more than one row high. *)
Lemma pl_adv k cl : k + 1 < n0 -> cl = N.min c0 (s0 - (i0 + k) / c0 * c0) -> cl <> 1 ->
  let o2 := N.min n0 ((i0 + k) / c0 * c0 + cl - i0) in
  k < o2 /\ c1 * ((i0 + k) mod c0) + (n1 + (o2 - (k + 1)) * c1) < W64 /\
  exists F, (o2 = k + 1 -> F = (k + 1) * n1) /\
  adv_loop Release (n0 * n1) (mkrs 1 rs (k * n1)) 0 0 (k * n1) =
  Ok ([0; o2 mod n0], [], o2 / n0, n1 + (o2 - (k + 1)) * c1, F).
Proof.
  intros Hk Ecl Hcl o2. rewrite (proj1 (pl_inner k ltac:(lia))).
  destruct H0 as (A & B & C & D). destruct H1 as (A1 & B1 & C1 & D1). cbn [n_ c_ i_ s_ r0 r1] in *.
  pose proof (divmod_eq (i0 + k) c0 ltac:(lia)) as E. pose proof (N.mod_lt (i0 + k) c0 ltac:(lia)) as L.
  set (Q := (i0 + k) / c0) in *. set (R := (i0 + k) mod c0) in *.
  assert (HcoE : i0 + k = Q * c0 + R) by lia.
  assert (Hroom : R < cl) by (rewrite Ecl; lia).
  assert (Ho2 : k < o2) by (unfold o2; lia). split; [exact Ho2|].
  assert (Hd : o2 - (k + 1) + (R + 1) <= c0) by (unfold o2; lia).
  assert (Hd2 : c1 * R + (n1 + (o2 - (k + 1)) * c1) < W64).
  { apply (N.lt_le_trans _ (c0 * c1)); [|lia].
    assert ((o2 - (k + 1) + (R + 1)) * c1 <= c0 * c1) by (apply N.mul_le_mono_r; exact Hd). lia. }
  split; [exact Hd2|].
  assert (Hkn : (k + 1) * n1 <= n0 * n1) by (apply N.mul_le_mono_r; lia).
  assert (Hdm : (o2 - (k + 1)) * c1 < W64) by lia.
  cbn [adv_loop r_co r_c r_s r_v r_cnt r_idx bind].
  rewrite (add64_ok _ i1 c1) by lia. cbn [bind].
  destruct (N.ltb_spec s1 (i1 + c1)); [|lia].
  rewrite (sub64_ok _ (i1 + c1) s1) by lia. cbn [bind]. rewrite sub64_ok by lia. cbn [bind].
  replace (c1 - (i1 + c1 - s1)) with n1 by lia.
  change (negb (1 =? 1)) with false. rewrite andb_false_r.
  rewrite (add64_ok _ 0 0) by reflexivity. cbn [bind]. rewrite N.add_0_l.
  unfold div64, rem64. destruct (N.eqb_spec n1 0); [lia|]. cbn [bind].
  rewrite N.div_0_l, N.mod_0_l by lia. cbn [dbg bind].
  rewrite (add64_ok _ i1 n1) by lia. cbn [bind]. rewrite sub64_ok by lia. cbn [bind].
  replace (i1 + n1 - i1) with n1 by lia. rewrite N.min_id. rewrite sub64_ok by lia. cbn [bind].
  rewrite (N.sub_0_r n1). rewrite (mul64_ok _ n1 1) by lia. cbn [bind]. rewrite N.mul_1_r.
  rewrite (add64_ok _ 0 n1) by lia. cbn [bind]. rewrite N.add_0_l.
  rewrite (add64_ok _ (k * n1) n1) by lia. cbn [bind].
  rewrite N.div_same, N.mod_same by lia. rewrite (add64_ok _ 0 1) by reflexivity. cbn [bind]. rewrite N.add_0_l.
  rewrite !N.eqb_refl. cbn [andb].
  assert (Hlast : k * n1 + n1 < n0 * n1).
  { assert ((k + 2) * n1 <= n0 * n1) by (apply N.mul_le_mono_r; lia). lia. }
  destruct (N.ltb_spec (k * n1 + n1) (n0 * n1)); [|lia].
  assert (Ecde : Q * c0 + c0 < W64) by lia.
  rewrite (add64_ok _ (Q * c0) c0) by lia. cbn [bind].
  assert (Eclip : (if s0 <? Q * c0 + c0
      then let* x := sub64 Release (Q * c0 + c0) s0 in sub64 Release c0 x else Ok c0) = Ok cl).
  { destruct (N.ltb_spec s0 (Q * c0 + c0)).
    - rewrite sub64_ok by lia. cbn [bind]. rewrite sub64_ok by lia. f_equal. lia.
    - f_equal. lia. }
  rewrite Eclip. cbn [bind].
  destruct (N.eqb_spec cl 1); [contradiction|]. cbn [andb].
  rewrite (add64_ok _ k 1) by lia. cbn [bind].
  destruct (N.eqb_spec n0 0); [lia|]. cbn [bind].
  rewrite (N.div_small (k + 1) n0), (N.mod_small (k + 1) n0) by lia. cbn [bind].
  rewrite (add64_ok _ (Q * c0) cl) by lia. cbn [bind]. rewrite sub64_ok by lia. cbn [bind].
  fold o2. rewrite (sub64_ok _ o2 (k + 1)) by lia. cbn [bind].
  rewrite mul64_ok by lia. cbn [bind]. rewrite (add64_ok _ n1) by lia. cbn [bind].
  destruct (add64 Release (k * n1 + n1) ((o2 - (k + 1)) * c1)) as [F| | | |] eqn:EF.
  2-5: unfold add64 in EF; clear - EF; destruct (_ <? W64) in EF; discriminate.
  cbn [bind].
  assert (o2 / n0 <= 1) by (apply N.lt_succ_r, N.div_lt_upper_bound; lia).
  rewrite (add64_ok _ 0 (o2 / n0)) by (change W64 with 18446744073709551616; lia). cbn [bind]. rewrite N.add_0_l.
  exists F. split.
  { intros Eo. rewrite Eo, N.sub_diag, N.mul_0_l in EF. rewrite add64_ok in EF by lia. injection EF as <-. lia. }
  destruct (_ && _); reflexivity.
Qed.

(** A segment longer than one row runs on into an element outside the dataset. *)
Lemma pl_place k : k + 1 < n0 -> cpos rs (k * n1 + n1) = cpos rs (k * n1) + n1 -> False.
Proof.
  intros Hk E. replace (k * n1 + n1) with ((k + 1) * n1) in E by lia.
  rewrite (proj2 (pl_inner (k + 1) ltac:(lia))), (proj2 (pl_inner k ltac:(lia))) in E.
  destruct H0 as (A & B & C & D). destruct H1 as (A1 & B1 & C1 & D1). cbn [n_ c_ i_ s_ r0 r1] in *.
  set (x := (i0 + (k + 1)) mod c0) in *. set (y := (i0 + k) mod c0) in *.
  destruct (N.le_gt_cases x y) as [L|L].
  - apply (N.mul_le_mono_l _ _ c1) in L. lia.
  - assert (L' : y + 1 <= x) by lia. apply (N.mul_le_mono_l _ _ c1) in L'. lia.
Qed.
End Plane.

(** The element at place [j] of the first of the segments that start at place [p]. *)
Lemma first_segment ds idx cnt p c a b segs j :
  full_dataset ds -> sel_in (d_shape ds) idx cnt ->
  let D := mk_dims (d_shape ds) (d_chunk_shape ds) idx cnt in
  c_offset c = chunk_corner (d_chunk_shape ds) (coord_of D p) -> a = cpos (rev D) p ->
  Forall2 (holds ds) (map (slab_coord idx cnt) (seqN p (N.to_nat (prodN cnt - p))))
    (flat_map seg_elems ((c, a, b) :: segs)) ->
  a + j < b -> p + j < prodN cnt -> cpos (rev D) (p + j) = cpos (rev D) p + j.
Proof.
  intros Hfd Hsel D Hco Ha HF Hj Hp.
  assert (N1 : nth_error (map (slab_coord idx cnt) (seqN p (N.to_nat (prodN cnt - p)))) (N.to_nat j)
               = Some (slab_coord idx cnt (p + j))).
  { apply map_nth_error. rewrite nth_error_seqN by lia. f_equal. lia. }
  assert (N2 : nth_error (flat_map seg_elems ((c, a, b) :: segs)) (N.to_nat j) = Some (c, a + j)).
  { cbn [flat_map]. rewrite nth_error_app1.
    - unfold seg_elems. rewrite (map_nth_error _ _ _ (d := a + j)); auto.
      rewrite nth_error_seqN by lia. f_equal. lia.
    - unfold seg_elems. rewrite map_length, seqN_length. lia. }
  pose proof (Forall2_nth _ _ _ HF _ _ _ N1 N2) as Hh.
  rewrite (x_coord ds idx cnt Hfd Hsel) in Hh. fold D in Hh.
  destruct (x_holds ds idx cnt Hfd Hsel (p + j) p c (a + j) Hco Hh) as [_ X]. fold D in X. lia.
Qed.

(** One step from the start of a row that is not the last one selected: the iteration can
    only be right if the row is the last one of its chunk. *)
Lemma plane_step ds s0 s1 c0 c1 i0 i1 n0 n1 k fuel segs :
  full_dataset ds -> d_shape ds = [s0; s1] -> d_chunk_shape ds = [c0; c1] ->
  sel_in [s0; s1] [i0; i1] [n0; n1] -> i1 mod c1 = 0 -> i1 + n1 = s1 -> n1 < c1 ->
  k + 1 < n0 -> N.min c0 (s0 - (i0 + k) / c0 * c0) <> 1 ->
  slicer_run Release fuel ds (state_at [i0; i1] [n0; n1] (k * n1)) = (segs, SDone) ->
  Forall2 (holds ds) (map (slab_coord [i0; i1] [n0; n1])
     (seqN (k * n1) (N.to_nat (prodN [n0; n1] - k * n1)))) (flat_map seg_elems segs) ->
  (i0 + k) / c0 * c0 + N.min c0 (s0 - (i0 + k) / c0 * c0) = i0 + k + 1 /\
  exists fuel' segs',
    slicer_run Release fuel' ds (state_at [i0; i1] [n0; n1] ((k + 1) * n1)) = (segs', SDone) /\
    Forall2 (holds ds) (map (slab_coord [i0; i1] [n0; n1])
      (seqN ((k + 1) * n1) (N.to_nat (prodN [n0; n1] - (k + 1) * n1)))) (flat_map seg_elems segs').
Proof.
  intros Hfd Es Ec Hsel A B C Hk Hcl Hrun HF.
  assert (Hsel' : sel_in (d_shape ds) [i0; i1] [n0; n1]) by now rewrite Es.
  pose proof (x_wf ds _ _ Hfd Hsel') as HD. rewrite Es, Ec in HD. cbn [mk_dims] in HD.
  inversion HD as [|? ? W0 HD']; subst. inversion HD' as [|? ? W1 _]; subst.
  destruct (fd_sizes _ Hfd) as (Hs1 & Hs2 & Hs3). rewrite Es in Hs1. rewrite Ec in Hs2. cbn [prodN] in Hs1, Hs2.
  rewrite !N.mul_1_r in Hs1, Hs2.
  pose proof W0 as (P0 & Q0 & R0 & T0). pose proof W1 as (P1 & Q1 & R1 & T1). cbn [n_ c_ i_ s_] in *.
  assert (Hnn : n0 * n1 < W64).
  { apply (N.le_lt_trans _ (s0 * (i1 + n1))); [|exact Hs1]. apply N.mul_le_mono; lia. }
  assert (Ee : prodN [n0; n1] = n0 * n1) by (cbn [prodN]; lia).
  assert (Hkn : (k + 2) * n1 <= n0 * n1) by (apply N.mul_le_mono_r; lia).
  set (D := mk_dims (d_shape ds) (d_chunk_shape ds) [i0; i1] [n0; n1]).
  assert (ED : rev D = [mkDim i1 n1 c1 (i1 + n1); mkDim i0 n0 c0 s0]) by (unfold D; rewrite Es, Ec; reflexivity).
  set (cl := N.min c0 (s0 - (i0 + k) / c0 * c0)) in *.
  destruct (pl_adv s0 (i1 + n1) c0 c1 i0 i1 n0 n1 W0 W1 Hs2 Hnn A eq_refl C k cl Hk eq_refl Hcl)
    as (Ho2 & HW & F & HF1 & Hadv).
  set (o2 := N.min n0 ((i0 + k) / c0 * c0 + cl - i0)) in *.
  destruct (pl_inner s0 (i1 + n1) c0 c1 i0 i1 n0 n1 W0 W1 Hs2 Hnn A eq_refl C k ltac:(lia)) as [_ Epos].
  rewrite <- ED in Hadv, Epos. rewrite <- Ee in Hadv.
  assert (Hd0 : d_shape ds <> []) by (rewrite Es; discriminate).
  assert (Hp0 : k * n1 < prodN [n0; n1]) by lia.
  assert (HW' : cpos (rev D) (k * n1) + (n1 + (o2 - (k + 1)) * c1) < W64) by (rewrite Epos; exact HW).
  destruct (next_release ds [i0; i1] [n0; n1] (k * n1) _ _ _ _ _ [] Hfd Hd0 Hsel' Hp0 Hadv eq_refl HW') as (ch & Hco & Hnext).
  fold D in Hco, Hnext.
  destruct fuel as [|fuel]; [discriminate|]. cbn [slicer_run] in Hrun. rewrite Hnext in Hrun.
  destruct (slicer_run Release fuel ds _) as [segs' st] eqn:Er. injection Hrun as <- ->.
  set (a := cpos (rev D) (k * n1)) in *.
  (* not longer than the row *)
  assert (Eo : o2 = k + 1).
  { destruct (N.eq_dec o2 (k + 1)) as [|Hne]; auto. exfalso.
    assert (1 * c1 <= (o2 - (k + 1)) * c1) by (apply N.mul_le_mono_r; lia).
    apply (pl_place s0 (i1 + n1) c0 c1 i0 i1 n0 n1 W0 W1 Hs2 Hnn A eq_refl C k Hk).
    rewrite <- ED.
    apply (first_segment ds [i0; i1] [n0; n1] (k * n1) ch a _ segs' n1 Hfd Hsel' Hco eq_refl HF); lia. }
  split.
  { unfold o2 in Eo. lia. }
  exists fuel, segs'. specialize (HF1 Eo). subst F.
  assert (Est : state_at [i0; i1] [n0; n1] ((k + 1) * n1) =
    mkSlicer ((k + 1) * n1) (rev ([0; o2 mod n0] ++ [])) [i0; i1] [n0; n1] (prodN [n0; n1])).
  { unfold state_at. cbn [rev app dig]. rewrite N.mod_mul, N.div_mul by lia. now rewrite Eo. }
  rewrite Est. split; [exact Er|].
  cbn [flat_map] in HF. rewrite Eo, N.sub_diag, N.mul_0_l, N.add_0_r in HF.
  replace (N.to_nat (prodN [n0; n1] - k * n1))
    with (N.to_nat n1 + N.to_nat (prodN [n0; n1] - (k + 1) * n1))%nat in HF by lia.
  rewrite map_seqN_split in HF. apply Forall2_app_same in HF as [_ HF].
  - replace (k * n1 + N.of_nat (N.to_nat n1)) with ((k + 1) * n1) in HF by lia. exact HF.
  - unfold seg_elems. rewrite !map_length, !seqN_length. lia.
Qed.

Lemma plane_wrong ds s0 s1 c0 c1 i0 i1 n0 n1 fuel segs :
  full_dataset ds -> d_shape ds = [s0; s1] -> d_chunk_shape ds = [c0; c1] ->
  sel_in [s0; s1] [i0; i1] [n0; n1] -> plane_bad s1 c0 c1 i0 i1 n0 n1 ->
  slicer_run Release fuel ds (state_at [i0; i1] [n0; n1] 0) = (segs, SDone) ->
  Forall2 (holds ds) (slab [i0; i1] [n0; n1]) (flat_map seg_elems segs) -> False.
Proof.
  intros Hfd Es Ec Hsel (A & B & C & N1' & C1' & Hx) Hrun HF.
  assert (Hsel' : sel_in (d_shape ds) [i0; i1] [n0; n1]) by now rewrite Es.
  pose proof (x_wf ds _ _ Hfd Hsel') as HD. rewrite Es, Ec in HD. cbn [mk_dims] in HD.
  inversion HD as [|? ? W0 HD']; subst. inversion HD' as [|? ? W1 _]; subst.
  pose proof W0 as (P0 & Q0 & R0 & T0). pose proof W1 as (P1 & Q1 & R1 & T1). cbn [n_ c_ i_ s_] in *.
  rewrite slab_seq in HF by (auto; destruct Hsel as (L1 & L2 & L3 & _); auto).
  assert (HF0 : Forall2 (holds ds) (map (slab_coord [i0; i1] [n0; n1])
     (seqN (0 * n1) (N.to_nat (prodN [n0; n1] - 0 * n1)))) (flat_map seg_elems segs)).
  { rewrite N.mul_0_l, N.sub_0_r. exact HF. }
  pose proof (divmod_eq i0 c0 ltac:(lia)) as E. pose proof (N.mod_lt i0 c0 ltac:(lia)) as L.
  destruct (plane_step ds s0 (i1 + n1) c0 c1 i0 i1 n0 n1 0 fuel segs) as (S1 & fuel' & segs' & S2 & S3);
    auto; try lia; try (rewrite N.add_0_r; mlia).
  rewrite N.add_0_r in S1.
  assert (Hr : i0 mod c0 = c0 - 1) by mlia.
  assert (Hn : 2 < n0) by (destruct (N.eq_dec n0 2); [exfalso; tauto|lia]).
  assert (Ed : (i0 + 1) / c0 = i0 / c0 + 1) by (apply (div_unique_N _ _ _ 0); mlia).
  destruct (plane_step ds s0 (i1 + n1) c0 c1 i0 i1 n0 n1 (0 + 1) fuel' segs') as (S4 & _);
    auto; try lia; rewrite ?N.add_0_l, ?Ed in *; mlia.
Qed.

(** ** Full reads of three-dimensional datasets *)

(** Reading all of [s0] x [s1] x [s2] in chunks of [c0] x [c1] x [c2]. *)
Definition space_good (s0 s1 s2 c0 c1 c2 : N) : Prop :=
  c2 < s2 \/
  (c2 = s2 /\ (s0 = 1 \/ c0 = 1 \/ c1 = s1 \/ (c1 < s1 /\ c1 <> 1 /\ s1 mod c1 <> 1))) \/
  (s2 < c2 /\ (s0 = 1 \/ c0 = 1) /\ (s1 = 1 \/ c1 = 1)).

Lemma still_one s c n : 0 < n -> 0 < c ->
  (still [mkDim 0 n c s] = true <-> n = 1 \/ c = 1).
Proof.
  intros Hn Hc. cbn [still i_ n_ c_ s_ ones forallb orb].
  destruct (N.eqb_spec n 1) as [|A]; [destruct (thin _); split; auto|].
  destruct (N.eqb_spec c 1) as [|B]; [split; auto|].
  rewrite N.mod_0_l by lia. rewrite andb_true_r, andb_true_iff, !N.eqb_eq. split; lia.
Qed.

Lemma thin_one s c : 0 < s -> 0 < c -> (thin (mkDim 0 s c s) = true <-> s = 1 \/ c = 1).
Proof.
  intros Hs Hc. unfold thin. cbn [c_ i_ s_]. rewrite N.mod_0_l by lia.
  destruct (N.eqb_spec c 1); [split; auto|]. cbn [orb andb N.eqb].
  rewrite N.eqb_eq. lia.
Qed.

Lemma last_rows s c : 0 < s -> 0 < c -> let L := (0 + s - 1) / c in
  1 <= s - L * c /\ s - L * c <= c /\ ((s - L * c = 1) <-> (s mod c = 1 mod c)).
Proof.
  intros Hs Hc L. subst L. rewrite N.add_0_l.
  pose proof (divmod_eq (s - 1) c ltac:(lia)) as E. pose proof (N.mod_lt (s - 1) c ltac:(lia)) as M.
  set (Q := (s - 1) / c) in *. set (R := (s - 1) mod c) in *.
  split; [lia|]. split; [lia|].
  replace s with (R + 1 + Q * c) at 2 by lia. rewrite N.mod_add by lia.
  destruct (N.eq_dec (R + 1) c) as [Ec|Ec].
  - rewrite Ec, N.mod_same by lia. destruct (N.eq_dec c 1) as [E1|E1].
    + split; intros; [now rewrite E1|lia].
    + rewrite (N.mod_small 1) by lia. lia.
  - rewrite (N.mod_small (R + 1)) by lia. rewrite (N.mod_small 1) by lia. lia.
Qed.

Lemma safe_eq t V r rs : safe t V (r :: rs) =
  if pn (r :: rs) <=? t then block (r :: rs)
  else if negb (single r || (t <=? c_ r - i_ r mod c_ r)) then false
  else if negb (V =? 1) && thin r then
    if c_ r =? 1 then (if n_ r =? 1 then safe t V rs else forallb thin rs)
    else (t <=? 1) && still rs
  else if exact r then safe (t / c_ r + 1) (V * c_ r) rs
  else if negb (V =? 1) && (N.min (c_ r) (s_ r - last_chunk r * c_ r) =? 1)
    then ((t <=? 1) || ones rs) && still rs
  else if negb (ones rs) && (portion r <=? t) then false
  else if clipped r then still rs
  else true.
Proof. reflexivity. Qed.

Lemma still_eq r rs : still (r :: rs) =
  if n_ r =? 1 then (if thin r then still rs else ones rs)
  else if c_ r =? 1 then forallb thin rs
  else (n_ r =? 2) && (i_ r mod c_ r =? c_ r - 1)
       && (ones rs || ((i_ r + 2 =? s_ r) && still rs)).
Proof. reflexivity. Qed.

Lemma space_safe s0 s1 s2 c0 c1 c2 :
  0 < s0 -> 0 < s1 -> 2 <= s2 -> 0 < c0 -> 0 < c1 -> 0 < c2 ->
  (sel_safe [s0; s1; s2] [c0; c1; c2] [0; 0; 0] [s0; s1; s2] = true <-> space_good s0 s1 s2 c0 c1 c2).
Proof.
  intros S0 S1 S2 C0 C1 C2. unfold sel_safe. cbn [mk_dims rev app].
  set (r2 := mkDim 0 s2 c2 s2). set (r1 := mkDim 0 s1 c1 s1). set (r0 := mkDim 0 s0 c0 s0).
  rewrite safe_eq. rewrite !pn_cons. change (pn []) with 1. rewrite N.mul_1_r. cbn [n_ r2 r1 r0].
  assert (P10 : 0 < s1 * s0) by nia.
  destruct (N.leb_spec (s2 * (s1 * s0)) 0); [nia|].
  replace (0 <=? _) with true by (symmetry; apply N.leb_le; lia). rewrite orb_true_r.
  replace (negb (1 =? 1)) with false by reflexivity. cbn [andb negb].
  rewrite (portion_pos r2) by (cbn; lia). rewrite andb_false_r.
  assert (EX : exact r2 = (s2 =? c2)) by (unfold exact; cbn [i_ n_ c_ r2]; now rewrite N.mod_0_l by lia).
  assert (EC : clipped r2 = (s2 <? c2)).
  { unfold clipped. cbn [i_ n_ c_ s_ r2]. now rewrite N.mod_0_l, N.add_0_l, !N.eqb_refl by lia. }
  rewrite EX, EC. unfold space_good. cbn [c_ r2].
  destruct (N.lt_trichotomy c2 s2) as [L|[L|L]].
  { destruct (N.eqb_spec s2 c2); [lia|]. destruct (N.ltb_spec s2 c2); [lia|]. split; auto. }
  2:{ destruct (N.eqb_spec s2 c2); [lia|]. destruct (N.ltb_spec s2 c2); [|lia].
      transitivity ((s1 = 1 \/ c1 = 1) /\ (s0 = 1 \/ c0 = 1)); [|clear - L; lia].
      rewrite still_eq. cbn [n_ c_ i_ s_ r1]. rewrite N.mod_0_l by lia.
      destruct (N.eqb_spec s1 1) as [E1|E1].
      - assert (T1 : thin r1 = true) by (apply thin_one; auto). rewrite T1.
        unfold r0. rewrite still_one by auto. tauto.
      - destruct (N.eqb_spec c1 1) as [E2|E2].
        + cbn [forallb]. rewrite andb_true_r. unfold r0. rewrite thin_one by auto. tauto.
        + destruct (N.eqb_spec 0 (c1 - 1)); [lia|]. rewrite andb_false_r. cbn [andb].
          split; [discriminate|tauto]. }
  subst c2. rewrite N.eqb_refl.
  transitivity (s0 = 1 \/ c0 = 1 \/ c1 = s1 \/ (c1 < s1 /\ c1 <> 1 /\ s1 mod c1 <> 1)); [|clear - S2; lia].
  rewrite N.div_0_l by lia. rewrite N.add_0_l, N.mul_1_l. rewrite safe_eq.
  rewrite !pn_cons. change (pn []) with 1. rewrite N.mul_1_r. cbn [n_ r1 r0].
  destruct (N.leb_spec (s1 * s0) 1) as [Hle|Hgt].
  { assert (s1 = 1) by nia. assert (s0 = 1) by nia. subst. cbn [block].
    unfold single, last_chunk, r1, r0, ones. cbn [i_ n_ c_ forallb]. split; auto. }
  assert (Hroom : (1 <=? c_ r1 - i_ r1 mod c_ r1) = true).
  { cbn [c_ i_ r1]. rewrite N.mod_0_l by lia. apply N.leb_le. lia. }
  rewrite Hroom, orb_true_r. cbn [negb].
  assert (HV : (s2 =? 1) = false) by (apply N.eqb_neq; lia). rewrite HV. cbn [negb andb].
  change (1 <=? 1) with true. cbn [andb orb].
  destruct (thin r1) eqn:T1.
  { apply thin_one in T1; auto. cbn [c_ n_ r1].
    destruct (N.eqb_spec c1 1) as [E2|E2].
    - destruct (N.eqb_spec s1 1) as [E3|E3].
      + rewrite safe_outer by (auto; lia). split; [|reflexivity]. intros _. right. right. left. congruence.
      + cbn [forallb]. rewrite andb_true_r. unfold r0. rewrite thin_one by auto. lia.
    - unfold r0. rewrite still_one by auto. lia. }
  assert (T2 : s1 <> 1 /\ c1 <> 1).
  { destruct (N.eq_dec s1 1); [|destruct (N.eq_dec c1 1); auto];
      assert (thin r1 = true) by (apply thin_one; auto); congruence. }
  destruct T2 as [T2 T3].
  destruct (exact r1) eqn:X1.
  { unfold exact in X1. apply andb_true_iff in X1 as [_ X1]. cbn [n_ c_ r1] in X1. apply N.eqb_eq in X1.
    cbn [c_ r1]. rewrite N.div_small by lia. rewrite N.add_0_l.
    rewrite safe_outer; [|nia|auto|auto]. split; [|reflexivity]. intros _. right. right. left. congruence. }
  assert (X2 : c1 <> s1).
  { intros ->. unfold exact in X1. cbn [i_ n_ c_ r1] in X1. rewrite N.mod_0_l, !N.eqb_refl in X1 by lia. discriminate. }
  destruct (last_rows s1 c1 S1 C1) as (Y1 & Y2 & Y3). rewrite (N.mod_small 1 c1) in Y3 by lia.
  assert (Elc : last_chunk r1 = (0 + s1 - 1) / c1) by reflexivity.
  set (Lc := (0 + s1 - 1) / c1) in *. rewrite Elc. cbn [c_ s_ r1].
  assert (Epo : portion r1 = s1 - Lc * c1).
  { unfold portion. rewrite Elc. cbn [i_ n_ c_ r1]. rewrite N.add_0_l, N.max_0_l. reflexivity. }
  rewrite Epo. rewrite N.min_r by lia.
  destruct (N.eqb_spec (s1 - Lc * c1) 1) as [Z|Z].
  { unfold r0. rewrite still_one by auto. tauto. }
  destruct (N.leb_spec (s1 - Lc * c1) 1); [lia|]. rewrite andb_false_r.
  unfold clipped. cbn [i_ n_ c_ s_ r1]. rewrite N.mod_0_l by lia. rewrite N.add_0_l, !N.eqb_refl. cbn [andb].
  destruct (N.ltb_spec s1 c1).
  { unfold r0. rewrite still_one by auto. lia. }
  split; [|reflexivity]. intros _. right. right. right. split; [lia|]. split; [auto|]. tauto.
Qed.
