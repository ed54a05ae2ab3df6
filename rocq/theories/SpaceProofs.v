(** * SpaceProofs: full reads of three-dimensional datasets, every size. *)
From Verif Require Import Base Spec SpecApi Radix Safe Chunk Extent Dataset Slicer
  SlicerProofs SlicerStep ChunkProofs DatasetProofs SlicerMain SlicerTheorems SlicerExact SlicerExact2 SlicerExact3
  SafeProofs ApiLemmas SliceProps PlaneProofs SlicerRelease SlicerRelease2.

Local Arguments N.add : simpl never.
Local Arguments N.sub : simpl never.
Local Arguments N.mul : simpl never.
Local Arguments N.div : simpl never.
Local Arguments N.modulo : simpl never.
Local Arguments N.min : simpl never.
Local Arguments N.max : simpl never.

(** Reading all of [s0] x [s1] x [1]. *)
Definition column_good (s0 s1 c0 c1 c2 : N) : Prop :=
  (c2 = 1 /\ (s0 = 1 \/ (c1 = s1 /\ (s1 <> 1 \/ c0 <> 1)) \/ (c1 < s1 /\ c1 <> 1 /\ s1 mod c1 <> 1) \/
              (1 < s1 /\ s1 < c1 /\ c0 = 1))) \/
  (1 < c2 /\ (s0 = 1 \/ c0 = 1) /\ (s1 = 1 \/ c1 = 1)).

Lemma column_safe s0 s1 c0 c1 c2 :
  0 < s0 -> 0 < s1 -> 0 < c0 -> 0 < c1 -> 0 < c2 ->
  (sel_safe [s0; s1; 1] [c0; c1; c2] [0; 0; 0] [s0; s1; 1] = true <-> column_good s0 s1 c0 c1 c2).
Proof.
  intros S0 S1 C0 C1 C2. unfold sel_safe. cbn [mk_dims rev app].
  set (r2 := mkDim 0 1 c2 1). set (r1 := mkDim 0 s1 c1 s1). set (r0 := mkDim 0 s0 c0 s0).
  rewrite safe_eq. rewrite !pn_cons. change (pn []) with 1. rewrite N.mul_1_r. cbn [n_ r2 r1 r0].
  assert (P10 : 0 < s1 * s0) by nia.
  destruct (N.leb_spec (1 * (s1 * s0)) 0); [nia|].
  replace (0 <=? _) with true by (symmetry; apply N.leb_le; lia). rewrite orb_true_r.
  replace (negb (1 =? 1)) with false by reflexivity. cbn [andb negb].
  rewrite (portion_pos r2) by (cbn; lia). rewrite andb_false_r.
  assert (EX : exact r2 = (1 =? c2)) by (unfold exact; cbn [i_ n_ c_ r2]; now rewrite N.mod_0_l by lia).
  assert (EC : clipped r2 = (1 <? c2)).
  { unfold clipped. cbn [i_ n_ c_ s_ r2]. now rewrite N.mod_0_l, N.add_0_l, !N.eqb_refl by lia. }
  rewrite EX, EC. unfold column_good. cbn [c_ r2].
  destruct (N.eq_dec c2 1) as [L|L].
  2:{ destruct (N.eqb_spec 1 c2); [lia|]. destruct (N.ltb_spec 1 c2); [|lia].
      transitivity ((s1 = 1 \/ c1 = 1) /\ (s0 = 1 \/ c0 = 1)); [|clear - L C2; lia].
      rewrite still_eq. cbn [n_ c_ i_ s_ r1]. rewrite N.mod_0_l by lia.
      destruct (N.eqb_spec s1 1) as [E1|E1].
      - assert (T1 : thin r1 = true) by (apply thin_one; auto). rewrite T1.
        unfold r0. rewrite still_one by auto. tauto.
      - destruct (N.eqb_spec c1 1) as [E2|E2].
        + cbn [forallb]. rewrite andb_true_r. unfold r0. rewrite thin_one by auto. tauto.
        + destruct (N.eqb_spec 0 (c1 - 1)); [lia|]. rewrite andb_false_r. cbn [andb].
          split; [discriminate|tauto]. }
  subst c2. rewrite N.eqb_refl.
  transitivity (s0 = 1 \/ (c1 = s1 /\ (s1 <> 1 \/ c0 <> 1)) \/ (c1 < s1 /\ c1 <> 1 /\ s1 mod c1 <> 1) \/
              (1 < s1 /\ s1 < c1 /\ c0 = 1)); [|clear; lia].
  rewrite N.div_0_l by lia. rewrite N.add_0_l, N.mul_1_l. rewrite safe_eq.
  rewrite !pn_cons. change (pn []) with 1. rewrite N.mul_1_r. cbn [n_ r1 r0].
  destruct (N.leb_spec (s1 * s0) 1) as [Hle|Hgt].
  { assert (s1 = 1) by nia. assert (s0 = 1) by nia. subst. cbn [block].
    unfold single, last_chunk, r1, r0, ones. cbn [i_ n_ c_ forallb]. split; auto. }
  assert (Hroom : (1 <=? c_ r1 - i_ r1 mod c_ r1) = true).
  { cbn [c_ i_ r1]. rewrite N.mod_0_l by lia. apply N.leb_le. lia. }
  rewrite Hroom, orb_true_r. cbn [negb].
  change (1 =? 1) with true. cbn [negb andb].
  destruct (exact r1) eqn:X1.
  { unfold exact in X1. apply andb_true_iff in X1 as [_ X1]. cbn [n_ c_ r1] in X1. apply N.eqb_eq in X1.
    cbn [c_ r1]. rewrite N.mul_1_l. destruct (N.eq_dec c1 1) as [E1|E1].
    - rewrite E1. change (1 / 1 + 1) with 2. rewrite safe_eq, pn_cons. change (pn []) with 1.
      rewrite N.mul_1_r. cbn [n_ r0 block ones forallb andb negb].
      assert (SG : single r0 = true <-> s0 <= c0).
      { unfold single, last_chunk. cbn [i_ n_ c_ r0]. rewrite N.add_0_l, N.div_0_l by lia.
        rewrite N.eqb_eq. pose proof (N.div_small_iff (s0 - 1) c0 ltac:(lia)). lia. }
      destruct (N.leb_spec s0 2).
      + cbn [block]. destruct (single r0) eqn:Q.
        * assert (s0 <= c0) by now apply SG. cbn. split; [lia|auto].
        * assert (~ s0 <= c0) by (intros Z; apply SG in Z; congruence). cbn. split; [|lia].
          intros Z. unfold single, ones in *. cbn in *. discriminate.
      + destruct (single r0) eqn:Q.
        * assert (s0 <= c0) by now apply SG. cbn [orb negb]. change (1 =? 1) with true. cbn [negb andb].
          split; [lia|]. intros _. destruct (exact r0); [reflexivity|]. destruct (clipped r0); reflexivity.
        * assert (~ s0 <= c0) by (intros Z; apply SG in Z; congruence). cbn [orb c_ i_ r0].
          rewrite N.mod_0_l, N.sub_0_r by lia. destruct (N.leb_spec 2 c0); cbn [negb].
          -- change (1 =? 1) with true. cbn [negb andb].
             split; [lia|]. intros _. destruct (exact r0); [reflexivity|]. destruct (clipped r0); reflexivity.
          -- split; [discriminate|lia].
    - rewrite N.div_small by lia. rewrite N.add_0_l. rewrite safe_outer; [|nia|auto|auto].
      split; [|reflexivity]. intros _. lia. }
  assert (X2 : c1 <> s1).
  { intros ->. unfold exact in X1. cbn [i_ n_ c_ r1] in X1. rewrite N.mod_0_l, !N.eqb_refl in X1 by lia. discriminate. }
  destruct (last_rows s1 c1 S1 C1) as (Y1 & Y2 & Y3).
  assert (Elc : last_chunk r1 = (0 + s1 - 1) / c1) by reflexivity.
  set (Lc := (0 + s1 - 1) / c1) in *.
  assert (Epo : portion r1 = s1 - Lc * c1).
  { unfold portion. rewrite Elc. cbn [i_ n_ c_ r1]. rewrite N.add_0_l, N.max_0_l. reflexivity. }
  rewrite Epo. cbn [ones forallb n_ r0]. rewrite andb_true_r.
  assert (CL : clipped r1 = (s1 <? c1)).
  { unfold clipped. cbn [i_ n_ c_ s_ r1]. rewrite N.mod_0_l by lia. now rewrite N.add_0_l, !N.eqb_refl. }
  rewrite CL.
  destruct (N.eqb_spec s0 1) as [Z0|Z0].
  { cbn [negb andb]. split; [auto|]. intros _. destruct (s1 <? c1); [|reflexivity].
    unfold r0. apply still_one; auto. }
  cbn [negb andb].
  destruct (N.leb_spec (s1 - Lc * c1) 1) as [P|P].
  { split; [discriminate|]. intros G. exfalso.
    assert (M : s1 mod c1 = 1 mod c1) by (apply Y3; lia).
    destruct (N.eq_dec c1 1) as [E|E].
    - subst c1. lia.
    - rewrite (N.mod_small 1) in M by lia.
      destruct G as [G|[G|[G|G]]]; [lia|lia|lia|]. rewrite N.mod_small in M by lia. lia. }
  assert (M : s1 mod c1 <> 1 mod c1) by (intros Z; apply Y3 in Z; lia).
  assert (E : c1 <> 1) by (intros ->; rewrite !N.mod_1_r in M; lia).
  rewrite (N.mod_small 1) in M by lia.
  destruct (N.ltb_spec s1 c1) as [Q|Q].
  - unfold r0. rewrite still_one by auto.
    assert (s1 <> 1) by (intros ->; rewrite N.mod_small in M by lia; lia). lia.
  - split; [|reflexivity]. intros _. lia.
Qed.

(** ** Release builds on [s0] x [1] x [1] in chunks of [c0] x [c1] x [1] *)
Section Thin.
Context (s0 c0 c1 : N).
Let r0 := mkDim 0 s0 c0 s0.
Let r1 := mkDim 0 1 c1 1.
Let r2 := mkDim 0 1 1 1.
Let rs := [r2; r1; r0].
Hypothesis H0 : dwf r0.
Hypothesis H1 : dwf r1.
Hypothesis H2 : dwf r2.
Hypothesis Hsz : 2 * s0 + 3 * (c0 * c1) < W64.

Lemma th_cpos p : p < s0 -> cpos rs p = c1 * (p mod c0).
Proof.
  intros Hp. destruct H0 as (A & B & C & D). destruct H1 as (A1 & B1 & C1 & D1). cbn [n_ c_ i_ s_ r0 r1] in *.
  unfold rs. cbn [cpos n_ c_ i_ s_ r0 r1 r2].
  rewrite !N.mod_1_r, !N.div_1_r, !N.add_0_l, N.mul_0_r, N.mul_1_l.
  rewrite (N.mod_small p s0) by lia. now rewrite N.add_0_r.
Qed.

Lemma th_inner p : p + 2 <= s0 ->
  adv_loop Release s0 (mkrs 1 rs p) 0 0 p =
  if p + 2 <? s0 then
    let* (vis, rest, k', a, f) := adv_loop Release s0 (mkrs c1 [r0] p) 2 2 (p + 2) in
    Ok (0 :: 0 :: vis, rest, k', a, f)
  else Ok ([0; 0], mkrs c1 [r0] p, 2, 2, p + 2).
Proof.
  intros Hp. pose proof H0 as (A & B & C & D). pose proof H1 as (A1 & B1 & C1 & D1). cbn [n_ c_ i_ s_ r0 r1] in *.
  assert (HW : s0 + 2 < W64) by lia.
  destruct (main_step Release s0 1 r2 [r1; r0] p 0 0 p H2 ltac:(lia) ltac:(lia)) as (_ & _ & E).
  { right. reflexivity. }
  { cbn [n_ c_ i_ s_ r2]. rewrite !N.mod_1_r. change (0 + 0) with 0. rewrite N.div_0_l by lia. cbn. lia. }
  { cbn [n_ c_ i_ s_ r2]. rewrite !N.mod_1_r. change (0 + 0) with 0. rewrite N.div_0_l by lia.
    replace (N.min 1 (0 * 1 + N.min 1 (1 - 0 * 1) - 0) - 0) with 1 by reflexivity. lia. }
  unfold rs. rewrite E. clear E. cbn [n_ c_ i_ s_ r2]. rewrite !N.mod_1_r, !N.div_1_r.
  replace (0 + 0) with 0 by reflexivity. replace (0 / 1) with 0 by reflexivity.
  replace (0 * 1 + N.min 1 (1 - 0 * 1) - 0) with 1 by reflexivity.
  replace (N.min 1 1 - 0) with 1 by reflexivity. replace (0 =? 0 * 1) with true by reflexivity.
  rewrite !N.mul_1_r, N.eqb_refl. cbn [andb]. replace (N.min 1 1) with 1 by reflexivity.
  replace (0 + 1) with 1 by reflexivity.
  destruct (N.ltb_spec (p + 1) s0); [|lia].
  assert (Ec' : N.min c1 (1 - 0 * c1) = 1) by lia.
  destruct (main_step Release s0 1 r1 [r0] p 1 1 (p + 1) H1 ltac:(lia) ltac:(lia)) as (_ & _ & E).
  { right. reflexivity. }
  { cbn [n_ c_ i_ s_ r1]. rewrite !N.mod_1_r. change (0 + 0) with 0. rewrite N.div_0_l by lia. cbn. lia. }
  { cbn [n_ c_ i_ s_ r1]. rewrite !N.mod_1_r. change (0 + 0) with 0. rewrite N.div_0_l by lia. lia. }
  rewrite E. clear E. cbn [n_ c_ i_ s_ r1]. rewrite !N.mod_1_r, !N.div_1_r.
  replace (0 + 0) with 0 by reflexivity. rewrite N.div_0_l by lia. rewrite Ec'.
  replace (0 * c1 + 1 - 0) with 1 by lia. replace (N.min 1 1) with 1 by reflexivity.
  replace (1 - 0) with 1 by reflexivity. rewrite N.mul_1_r.
  replace (0 =? 0 * c1) with true by reflexivity. rewrite N.eqb_refl. cbn [andb]. rewrite !N.mul_1_l.
  replace (0 + 1 + 1) with 2 by reflexivity. replace (1 + 1) with 2 by reflexivity.
  replace (p + 1 + 1) with (p + 2) by lia.
  destruct (N.ltb_spec (p + 2) s0).
  - destruct (adv_loop _ _ _ _ _ _) as [[[[[? ?] ?] ?] ?]| | | |]; reflexivity.
  - cbn [dbg bind]. reflexivity.
Qed.

(** Chunks more than one wide in the middle dimension: the first segment has at least two
    elements. *)
Lemma th_wide : 2 <= s0 -> 2 <= c1 -> exists vis rest k A F,
  adv_loop Release s0 (mkrs 1 rs 0) 0 0 0 = Ok (vis, rest, k, A, F) /\ 2 <= A /\ A <= 2 + c0 * c1.
Proof.
  intros Hs Hc1. pose proof H0 as (A & B & C & D). pose proof H1 as (A1 & B1 & C1 & D1). cbn [n_ c_ i_ s_ r0 r1] in *.
  assert (HP : 0 < c0 * c1) by nia.
  rewrite th_inner by lia. rewrite N.add_0_l. destruct (N.ltb_spec 2 s0) as [L|L].
  2:{ do 5 eexists. split; [reflexivity|]. lia. }
  rewrite adv_step; [|exact H0|lia|cbn [n_ r0]; rewrite N.mod_0_l by lia; change W64 with 18446744073709551616; lia].
  cbv zeta. cbn [n_ c_ i_ s_ r0].
  rewrite (N.mod_0_l s0) by lia. replace (0 + 0) with 0 by reflexivity.
  rewrite (N.div_0_l c0), N.mul_0_l, !N.sub_0_r, !N.add_0_l by lia.
  destruct (N.eqb_spec c1 1) as [E1|E1]; [lia|]. cbn [negb]. rewrite andb_true_r.
  destruct (N.eqb_spec (N.min c0 s0) 1) as [E|E].
  - cbn [mkrs adv_loop bind]. do 5 eexists. split; [reflexivity|]. lia.
  - rewrite (N.mod_small 2 s0), (N.div_small 2 s0) by lia.
    set (o2 := N.min s0 (N.min c0 s0)).
    assert (Ho : 2 <= o2 /\ o2 <= c0 /\ o2 <= s0) by (unfold o2; lia). clearbody o2.
    assert (Hm : (o2 - 2) * c1 <= c0 * c1) by (apply N.mul_le_mono_r; lia).
    rewrite sub64_ok by lia. cbn [bind]. rewrite mul64_ok by lia. cbn [bind].
    rewrite add64_ok by lia. cbn [bind].
    assert (o2 / s0 <= 1) by (apply N.lt_succ_r, N.div_lt_upper_bound; lia).
    rewrite (add64_ok _ 0 (o2 / s0)) by (change W64 with 18446744073709551616; lia). cbn [bind dbg].
    cbn [mkrs adv_loop bind].
    match goal with |- context [if ?b then _ else _] => destruct b end;
      do 5 eexists; (split; [reflexivity|]); (split; [apply N.le_add_r|apply N.add_le_mono_l; exact Hm]).
Qed.

(** Chunks of one element: one element per segment, as long as two more remain. *)
Lemma th_narrow p : p + 2 < s0 -> c0 = 1 -> c1 = 1 -> exists k,
  adv_loop Release s0 (mkrs 1 rs p) 0 0 p = Ok ([0; 0; (p + 1) mod s0], [], k, 1, p + 1).
Proof.
  intros Hp E0 E1. pose proof H0 as (A & B & C & D). pose proof H1 as (A1 & B1 & C1 & D1). cbn [n_ c_ i_ s_ r0 r1] in *.
  rewrite th_inner by lia. destruct (N.ltb_spec (p + 2) s0) as [L|L]; [|lia].
  rewrite adv_step; [|exact H0|lia|cbn [n_ r0]; rewrite N.mod_small by lia; lia].
  cbv zeta. cbn [n_ c_ i_ s_ r0]. rewrite E0, E1, N.eqb_refl. cbn [negb]. rewrite andb_false_r.
  rewrite (N.mod_small p s0) by lia. rewrite N.add_0_l, N.div_1_r, N.mul_1_r, N.sub_0_r.
  rewrite (N.mod_small (p + 2)), (N.div_small (p + 2)) by lia.
  replace (N.min s0 (p + N.min 1 (s0 - p))) with (p + 1) by lia.
  assert (Es : sub64 Release (p + 1) (p + 2) = Ok (W64 - 1)).
  { unfold sub64. destruct (N.leb_spec (p + 2) (p + 1)); [lia|]. f_equal.
    replace (p + 1 + W64 - (p + 2)) with (W64 - 1) by lia. reflexivity. }
  rewrite Es. cbn [bind]. rewrite mul64_ok by (vm_compute; reflexivity). cbn [bind].
  replace ((W64 - 1) * 1) with (W64 - 1) by reflexivity.
  assert (Ea : add64 Release 2 (W64 - 1) = Ok 1) by reflexivity.
  rewrite Ea. cbn [bind].
  assert (Ef : add64 Release (p + 2) (W64 - 1) = Ok (p + 1)).
  { unfold add64. destruct (N.ltb_spec (p + 2 + (W64 - 1)) W64); [change W64 with 18446744073709551616 in *; lia|]. f_equal.
    replace (p + 2 + (W64 - 1)) with (p + 1 + 1 * W64) by (change W64 with 18446744073709551616; lia).
    rewrite N.mod_add by discriminate. apply N.mod_small. lia. }
  rewrite Ef. cbn [bind]. rewrite (N.div_small (p + 1)) by lia.
  rewrite (add64_ok _ 0 0) by reflexivity. cbn [bind].
  cbn [mkrs adv_loop bind dbg]. eexists.
  match goal with |- context [if ?b then _ else _] => destruct b end; reflexivity.
Qed.
End Thin.

Lemma thin_wrong ds s0 c0 c1 : full_dataset ds -> d_shape ds = [s0; 1; 1] -> d_chunk_shape ds = [c0; c1; 1] ->
  2 * s0 + 3 * (c0 * c1) < W64 -> 2 <= s0 -> (2 <= c1 \/ (c0 = 1 /\ c1 = 1)) ->
  forall fuel p segs, p + 2 <= s0 -> (p = 0 \/ c1 = 1) ->
  slicer_run Release fuel ds (state_at [0; 0; 0] [s0; 1; 1] p) = (segs, SDone) ->
  Forall2 (holds ds) (map (slab_coord [0; 0; 0] [s0; 1; 1]) (seqN p (N.to_nat (s0 - p)))) (flat_map seg_elems segs) ->
  False.
Proof.
  intros Hfd Es Ec Hsz Hs0 Hbad.
  assert (Hsel : sel_in (d_shape ds) [0; 0; 0] [s0; 1; 1]).
  { rewrite Es. split; [reflexivity|]. split; [reflexivity|]. split; [repeat constructor; lia|].
    intros [|[|[|j]]] a b d; cbn [nth_error]; [..|destruct j; discriminate];
      intros [= <-] [= <-] [= <-]; lia. }
  assert (Hsc : d_shape ds <> []) by (rewrite Es; discriminate).
  pose proof (x_wf ds _ _ Hfd Hsel) as HD. pose proof (x_wfr ds _ _ Hfd Hsel) as HF.
  pose proof (x_pn ds _ _ Hfd Hsel) as Hpn.
  pose proof (next_none ds _ _ Hsc Hsel HD HF Hpn) as NN. pose proof (next_any ds _ _ Hfd Hsc Hsel HD HF Hpn) as NA.
  pose proof (first_same ds _ _ Hfd Hsel Hpn) as FS.
  revert NN NA FS.
  assert (Ee : prodN [s0; 1; 1] = s0) by (cbn [prodN]; lia). rewrite Ee.
  rewrite Es, Ec in *. cbn [mk_dims rev app] in *.
  inversion HD as [|? ? W0 HD']; subst. inversion HD' as [|? ? W1 HD'']; subst. inversion HD'' as [|? ? W2 _]; subst.
  pose proof W0 as (A0 & B0 & _). pose proof W1 as (_ & B1 & _). cbn [n_ c_ i_ s_] in *.
  set (rs := [mkDim 0 1 1 1; mkDim 0 1 c1 1; mkDim 0 s0 c0 s0]) in *.
  intros NN NA FS.
  induction fuel as [|fuel IH]; intros p segs Hp Hp0 Hrun HA; cbn [slicer_run] in Hrun; [discriminate|].
  assert (En : slicer_next Release ds (state_at [0; 0; 0] [s0; 1; 1] p) <> Ok None).
  { unfold state_at. rewrite Ee. apply NN. lia. }
  destruct (slicer_next Release ds (state_at [0; 0; 0] [s0; 1; 1] p)) as [[[[[c a] b] st']|]| | | |] eqn:Ex; try discriminate; [|congruence].
  clear En. destruct (slicer_run Release fuel ds st') as [segs' s] eqn:Er. injection Hrun as <- ->.
  unfold state_at in Ex. rewrite Ee in Ex.
  destruct (NA Release p p c a b st' ltac:(lia) Ex) as (A & vis & rest & k & os & F & [C _] & Ea & Eb & Hadv & Hcar & Est).
  assert (Hc : cpos rs p < c0 * c1).
  { unfold rs. rewrite th_cpos by (auto; lia). assert (p mod c0 < c0) by (apply N.mod_lt; lia). nia. }
  (* two elements cannot be next to each other *)
  assert (Two : 2 <= A -> A <= 2 + c0 * c1 -> False).
  { intros H2 HW. assert (Eb' : b = a + A) by (rewrite add64_ok in Eb by lia; injection Eb; auto).
    subst b. cbn [flat_map] in HA.
    destruct (FS p c a A _ ltac:(lia) C Ea HA) as (_ & Hsame & _).
    destruct (Hsame 1 ltac:(lia)) as [_ X]. unfold rs in X. rewrite !th_cpos in X by (auto; lia).
    destruct Hbad as [Hb|[-> ->]]; [|rewrite !N.mod_1_r in X; lia].
    destruct Hp0 as [->|]; [|lia]. rewrite (N.mod_0_l c0) in X by lia. rewrite N.mul_0_r in X.
    assert (D1 : c1 * ((0 + 1) mod c0) = 1) by lia.
    apply N.eq_mul_1 in D1. lia. }
  destruct Hbad as [Hb|[E0 E1]].
  - destruct Hp0 as [->|]; [|lia].
    destruct (th_wide s0 c0 c1 W0 W1 W2 ltac:(lia) Hs0 Hb) as (v' & r' & k' & A' & F' & L & L1 & L2).
    fold rs in L. rewrite L in Hadv. injection Hadv as <- <- <- <- <-. auto.
  - destruct (N.eq_dec (p + 2) s0) as [Eq|Eq].
    + unfold rs in Hadv. rewrite th_inner in Hadv by (auto; lia).
      destruct (N.ltb_spec (p + 2) s0); [lia|]. injection Hadv as <- <- <- <- <-. apply Two; lia.
    + destruct (th_narrow s0 c0 c1 W0 W1 W2 ltac:(lia) p ltac:(lia) E0 E1) as (k' & L).
      fold rs in L. rewrite L in Hadv. injection Hadv as <- <- <- <- <-.
      cbn [carry_loop] in Hcar. injection Hcar as <-.
      assert (Eb' : b = a + 1) by (rewrite add64_ok in Eb by lia; injection Eb; auto).
      subst b. cbn [flat_map] in HA.
      destruct (FS p c a 1 _ ltac:(lia) C Ea HA) as (_ & _ & HF2).
      apply (IH (p + 1) segs'); auto; try lia.
      rewrite Est in Er. unfold state_at. rewrite Ee. cbn [rev app dig].
      rewrite !N.mod_1_r, !N.div_1_r. exact Er.
Qed.
