(** * SlicerEnds3: three-dimensional datasets.

    A selection of one index in each of the two last dimensions of a three-dimensional dataset,
    with chunks one wide in the last: in a release build the place reached can go back, but the
    coordinate in the first dimension goes on, and iteration ends. *)
From Verif Require Import Base Spec SpecApi Radix Safe Chunk Extent Dataset Slicer
  SlicerProofs SlicerStep ChunkProofs DatasetProofs SlicerMain SlicerTheorems SlicerExact SlicerExact2 SlicerExact3 SlicerRelease SlicerRelease2 SlicerEnds.

Local Arguments N.add : simpl never.
Local Arguments N.sub : simpl never.
Local Arguments N.mul : simpl never.
Local Arguments N.div : simpl never.
Local Arguments N.modulo : simpl never.
Local Arguments N.min : simpl never.
Local Arguments N.max : simpl never.

(** What is known when iteration is at coordinate [a] of the first dimension. *)
Definition along (r1 r2 : dim) (off a : N) : Prop :=
  if filled r1 && (1 <? c_ r1) && (1 <? c_ r2)
  then (a = 0 /\ off = 0) \/ ((i_ r2 + a) mod c_ r2 = 0 /\ a <= off + 1)
  else a <= off.

(** The first two dimensions the loop visits. *)
Lemma column_inner e off r0 r1 r2 a :
  dwf r0 -> dwf r1 -> c_ r0 = 1 -> n_ r0 = 1 -> n_ r1 = 1 -> off + 2 < W64 ->
  adv_loop Release e (mkrs 1 [r0; r1; r2] a) 0 0 off =
    if off + 1 <? e then
      if filled r1 && (off + 2 <? e) then
        let* (vis, rest, k, A, F) := adv_loop Release e (mkrs (c_ r1) [r2] a) 2 2 (off + 2) in
        Ok (0 :: 0 :: vis, rest, k, A, F)
      else Ok ([0; 0], mkrs (c_ r1) [r2] a, 2, 2, off + 2)
    else Ok ([0], mkrs 1 [r1; r2] a, 1, 1, off + 1).
Proof.
  intros H0 H1 Ec0 En0 En1 HW. pose proof H0 as (_ & _ & Hs0 & HW0). pose proof H1 as (_ & Hc1 & Hs1 & HW1).
  assert (M : adv_loop Release e (mkrs 1 [r0; r1; r2] a) 0 0 off =
    if off + 1 <? e then
      let* (vis, rest, k, A, F) := adv_loop Release e (mkrs 1 [r1; r2] a) 1 1 (off + 1) in Ok (0 :: vis, rest, k, A, F)
    else Ok ([0], mkrs 1 [r1; r2] a, 1, 1, off + 1)).
  { assert (Ed : N.min (n_ r0) ((i_ r0 + a mod n_ r0) / c_ r0 * c_ r0 + N.min (c_ r0) (s_ r0 - (i_ r0 + a mod n_ r0) / c_ r0 * c_ r0) - i_ r0) - (a mod n_ r0 + 0) mod n_ r0 = 1).
    { rewrite Ec0, En0, !N.mod_1_r, N.add_0_r, N.div_1_r, N.mul_1_r. clear - Hs0 En0. lia. }
    destruct (main_step Release e 1 r0 [r1; r2] a 0 0 off H0) as (_ & _ & M); try lia.
    rewrite M. clear M. rewrite Ed. rewrite Ec0, En0, !N.mod_1_r, !N.add_0_r, !N.div_1_r, !N.mul_1_r, N.eqb_refl.
    replace (N.min 1 (s_ r0 - i_ r0)) with 1 by (clear - Hs0 En0; lia). replace (i_ r0 + 1 - i_ r0) with 1 by (clear; lia).
    change (1 =? 1) with true. change (0 + 1) with 1. change (0 + N.min 1 1) with 1. cbn [andb dbg bind]. reflexivity. }
  rewrite M. clear M. destruct (N.ltb_spec (off + 1) e) as [L1|L1]; [|reflexivity].
  assert (Z : a mod n_ r1 = 0) by (rewrite En1; apply N.mod_1_r).
  destruct (geom r1 a H1) as (G1 & G2 & G3 & G4 & G5). cbv zeta in *.
  assert (E2 : N.min (n_ r1) ((i_ r1 + a mod n_ r1) / c_ r1 * c_ r1 + N.min (c_ r1) (s_ r1 - (i_ r1 + a mod n_ r1) / c_ r1 * c_ r1) - i_ r1) = 1).
  { rewrite Z, En1, N.add_0_r in *. clear - G2 G3 G4. generalize dependent (i_ r1 / c_ r1 * c_ r1). intros. lia. }
  destruct (main_step Release e 1 r1 [r2] a 1 1 (off + 1) H1) as (_ & _ & M); try lia.
  { rewrite E2, En1, N.mod_1_r. reflexivity. } { rewrite E2, En1, N.mod_1_r. clear - HW. lia. }
  rewrite M. clear M. rewrite E2.
  destruct ((i_ r1 =? (i_ r1 + a mod n_ r1) / c_ r1 * c_ r1) &&
    (n_ r1 =? (i_ r1 + a mod n_ r1) / c_ r1 * c_ r1 + N.min (c_ r1) (s_ r1 - (i_ r1 + a mod n_ r1) / c_ r1 * c_ r1) - i_ r1)) eqn:Hc.
  - apply andb_true_iff in Hc as [C1 C2]. apply N.eqb_eq in C1, C2. rewrite (at_filled r1 a H1 C1 C2).
    rewrite En1, ?N.mod_1_r, ?N.div_1_r, ?N.mul_1_l, ?N.mul_1_r. change (1 - 0) with 1.
    replace (off + 1 + 1) with (off + 2) by (clear; lia). change (1 + 1) with 2. change (0 + 1 + 1) with 2. cbn [andb dbg bind].
    destruct (off + 2 <? e); [|reflexivity].
    destruct (adv_loop Release e (mkrs (c_ r1) [r2] a) 2 2 (off + 2)) as [[[[[? ?] ?] ?] ?]| | | |]; reflexivity.
  - assert (Hf : filled r1 = false).
    { destruct (filled r1) eqn:Hf; [|reflexivity]. destruct (filled_at r1 a H1 Hf) as (F1 & F2 & _). cbv zeta in F1, F2.
      rewrite (proj2 (N.eqb_eq _ _) F1), (proj2 (N.eqb_eq _ _) F2) in Hc. discriminate. }
    rewrite Hf. rewrite En1, ?N.mod_1_r, ?N.div_1_r, ?N.mul_1_l, ?N.mul_1_r. change (1 - 0) with 1.
    replace (off + 1 + 1) with (off + 2) by (clear; lia). change (1 + 1) with 2. change (0 + 1 + 1) with 2. cbn [andb dbg bind]. reflexivity.
Qed.

Lemma wrap_mul c : 0 < c -> c < W64 -> mul64 Release (W64 - 1) c = Ok (W64 - c).
Proof.
  intros H1 H2. unfold mul64. destruct (N.ltb_spec ((W64 - 1) * c) W64) as [L|L].
  - f_equal. change W64 with 18446744073709551616 in *. lia.
  - f_equal. replace ((W64 - 1) * c) with (W64 - c + (c - 1) * W64).
    + rewrite N.mod_add by discriminate. apply N.mod_small. lia.
    + change W64 with 18446744073709551616 in *. lia.
Qed.
Lemma wrap_add x c : c <= W64 -> 0 < c -> x < W64 -> add64 Release x (W64 - c) = Ok (if x <? c then x + (W64 - c) else x - c).
Proof.
  intros H1 H2 H3. unfold add64. destruct (N.ltb_spec x c) as [L|L]; destruct (N.ltb_spec (x + (W64 - c)) W64) as [M|M]; try lia.
  - reflexivity.
  - f_equal. replace (x + (W64 - c)) with (x - c + 1 * W64) by lia. rewrite N.mod_add by discriminate. apply N.mod_small. lia.
Qed.

(** The last dimension the loop visits, after the two inner ones. *)
Lemma column_last e off r1 r2 a Q :
  dwf r1 -> dwf r2 -> e = n_ r2 -> N.max (n_ r2) (c_ r2) * c_ r1 <= Q -> e + 4 * Q < W64 ->
  off + 2 < e -> a < n_ r2 -> along r1 r2 off a -> filled r1 = true ->
  exists vis k A F a', adv_loop Release e (mkrs (c_ r1) [r2] a) 2 2 (off + 2) = Ok (vis, [], k, A, F) /\
    vis = dig [n_ r2] a' /\ (e <= F \/ (a < a' /\ a' < n_ r2 /\ along r1 r2 F a')).
Proof.
  intros H1 H2 Ee HQ HB Ho Ha HA Hf.
  pose proof H1 as (_ & Hc1 & _ & _). pose proof H2 as (Hn & Hc2 & Hs & HW).
  destruct (geom r2 a H2) as (_ & G2 & G3 & G4 & G5). cbv zeta in *. rewrite (N.mod_small a) in * by auto.
  assert (HQ1 : n_ r2 * c_ r1 <= Q) by (etransitivity; [|exact HQ]; apply N.mul_le_mono_r; lia).
  assert (HQ2 : n_ r2 <= Q) by (etransitivity; [|exact HQ1]; apply le_l; lia).
  assert (HQ3 : c_ r1 <= Q) by (etransitivity; [|exact HQ1]; rewrite N.mul_comm; apply le_l; lia).
  rewrite adv_step by (auto; rewrite ?(N.mod_small a) by auto; lia). cbv zeta. rewrite (N.mod_small a) by auto.
  set (co := (i_ r2 + a) / c_ r2 * c_ r2) in *. set (c' := N.min (c_ r2) (s_ r2 - co)) in *.
  unfold along in *. rewrite Hf in *. cbn [andb] in *.
  destruct ((c' =? 1) && negb (c_ r1 =? 1)) eqn:Hsk.
  { apply andb_true_iff in Hsk as [K1 K2]. apply N.eqb_eq in K1. apply negb_true_iff, N.eqb_neq in K2.
    cbn [mkrs adv_loop bind]. exists [(a + 2) mod n_ r2], ((a + 2) / n_ r2), 2, (off + 2), (a + 2).
    split; [reflexivity|]. split; [reflexivity|]. right.
    destruct ((1 <? c_ r1) && (1 <? c_ r2)) eqn:HBB.
    - exfalso. apply andb_true_iff in HBB as [_ B2]. apply N.ltb_lt in B2.
      destruct HA as [[-> ->]|[_ HA]]; unfold c' in K1; clear - K1 B2 G2 Hs Ho Ee HA || clear - K1 B2 G2 Hs Ho Ee; generalize dependent co; intros; lia.
    - clear - HA Ho Ee. lia. }
  set (cce := co + c' - i_ r2) in *. set (o2 := N.min (n_ r2) cce) in *.
  assert (Hgt : a < o2) by (unfold o2, cce, c'; clear - G2 G3 G4 Ha; generalize dependent co; intros; lia).
  assert (Hkey : o2 < n_ r2 -> (i_ r2 + o2) mod c_ r2 = 0).
  { intros L. assert (Ex : i_ r2 + o2 = (i_ r2 + a) / c_ r2 * c_ r2 + c_ r2).
    { fold co. unfold o2, cce, c' in *. clear - L Hs G2 G3 G4. generalize dependent co. intros. lia. }
    rewrite Ex. replace ((i_ r2 + a) / c_ r2 * c_ r2 + c_ r2) with (((i_ r2 + a) / c_ r2 + 1) * c_ r2) by (rewrite N.mul_add_distr_r; lia).
    apply N.mod_mul. lia. }
  assert (Hthin : c_ r2 = 1 -> c_ r1 = 1).
  { intros E. destruct (N.eq_dec (c_ r1) 1) as [|K]; auto. exfalso. apply N.eqb_neq in K. rewrite K in Hsk. cbn [negb] in Hsk. rewrite andb_true_r in Hsk.
    apply N.eqb_neq in Hsk. apply Hsk. unfold c'. clear - E G2 G3 G4. generalize dependent co. intros. lia. }
  (* whatever the branch, the result has the same form *)
  assert (Hend : forall carry2 A F, exists vis k,
    (if (i_ r2 =? co) && (n_ r2 =? cce) && (F <? e)
     then let* (vis, rest, k, a0, f) := adv_loop Release e (mkrs (c_ r1 * c_ r2) [] (a / n_ r2)) carry2 A F in Ok (o2 mod n_ r2 :: vis, rest, k, a0, f)
     else let* _ := dbg Release (F <=? e) in Ok ([o2 mod n_ r2], mkrs (c_ r1 * c_ r2) [] (a / n_ r2), carry2, A, F)) = Ok (vis, [], k, A, F) /\ vis = dig [n_ r2] o2).
  { intros carry2 A F. exists [o2 mod n_ r2], carry2. split; [|reflexivity].
    destruct ((i_ r2 =? co) && (n_ r2 =? cce) && (F <? e)); reflexivity. }
  assert (Ho2n : o2 <= n_ r2) by (unfold o2; lia).
  assert (Hcarry : exists carry2, add64 Release ((a + 2) / n_ r2) (o2 / n_ r2) = Ok carry2) by apply add64_release.
  destruct Hcarry as [carry2 Ec2].
  destruct (N.le_gt_cases (n_ r2) (a + 2)) as [Hover|Hin].
  - (* past the end of the selection *)
    assert (HBB : (1 <? c_ r1) && (1 <? c_ r2) = true).
    { destruct (_ && _) eqn:E; [reflexivity|]. exfalso. clear - HA Hover Ho Ee. lia. }
    rewrite HBB in HA. apply andb_true_iff in HBB as [B1 B2]. apply N.ltb_lt in B1, B2.
    assert (HA2 : (i_ r2 + a) mod c_ r2 = 0 /\ a = off + 1 /\ n_ r2 = a + 2).
    { destruct HA as [[-> ->]|[X Y]]; [exfalso; clear - Hover Ho Ee; lia|]. split; [exact X|]. clear - Y Hover Ho Ee. lia. }
    destruct HA2 as (A1 & A2 & A3). rewrite A1, N.add_0_r in G5.
    assert (Eo2 : o2 = n_ r2).
    { unfold o2, cce, c'. clear - G5 A3 Hs B2 Ha. generalize dependent co. intros. lia. }
    assert (Ecur : (a + 2) mod n_ r2 = 0) by (rewrite <- A3; apply N.mod_same; lia).
    rewrite Ecur, Eo2 in *. rewrite sub64_ok by lia. cbn [bind]. rewrite N.sub_0_r.
    rewrite mul64_ok by lia. cbn [bind]. rewrite !add64_ok by lia. cbn [bind]. rewrite Ec2. cbn [bind].
    destruct (Hend carry2 (2 + n_ r2 * c_ r1) (off + 2 + n_ r2 * c_ r1)) as (vis & k & E1 & E2).
    exists vis, k, (2 + n_ r2 * c_ r1), (off + 2 + n_ r2 * c_ r1), (n_ r2). split; [exact E1|]. split; [exact E2|]. left.
    rewrite Ee. assert (n_ r2 <= n_ r2 * c_ r1) by (apply le_l; lia). lia.
  - rewrite (N.mod_small (a + 2)) by auto.
    destruct (N.le_gt_cases (a + 2) o2) as [Hge|Hlt].
    + rewrite sub64_ok by lia. cbn [bind].
      assert (HdQ : (o2 - (a + 2)) * c_ r1 <= Q) by (etransitivity; [|exact HQ1]; apply N.mul_le_mono_r; lia).
      rewrite mul64_ok by lia. cbn [bind]. rewrite !add64_ok by lia. cbn [bind]. rewrite Ec2. cbn [bind].
      set (d := (o2 - (a + 2)) * c_ r1) in *.
      destruct (Hend carry2 (2 + d) (off + 2 + d)) as (vis & k & E1 & E2).
      exists vis, k, (2 + d), (off + 2 + d), o2. split; [exact E1|]. split; [exact E2|].
      assert (Hd1 : o2 - (a + 2) <= d) by (unfold d; apply le_l; lia).
      destruct (N.eq_dec o2 (n_ r2)) as [En|En].
      * left. destruct ((1 <? c_ r1) && (1 <? c_ r2)) eqn:HBB; [|clear - HA Hd1 Ee En Hin; lia].
        apply andb_true_iff in HBB as [B1 B2]. apply N.ltb_lt in B1, B2.
        destruct HA as [[-> ->]|[_ HA]]; [clear - Hd1 Ee En; lia|].
        assert (Hd2 : (o2 - (a + 2)) * 2 <= d) by (unfold d; apply N.mul_le_mono_l; lia). clear - HA Hd2 Ee En Hin. lia.
      * right. split; [exact Hgt|]. split; [lia|]. destruct ((1 <? c_ r1) && (1 <? c_ r2)) eqn:HBB.
        -- right. split; [apply Hkey; lia|]. destruct HA as [[-> ->]|[_ HA]]; clear - Hd1 Hge HA || clear - Hd1 Hge; lia.
        -- clear - HA Hd1 Hge. lia.
    + assert (Eo2 : o2 = a + 1) by lia. unfold sub64. replace (a + 2 <=? o2) with false by (symmetry; apply N.leb_gt; lia).
      replace ((o2 + W64 - (a + 2)) mod W64) with (W64 - 1).
      2:{ rewrite Eo2. symmetry. replace (a + 1 + W64 - (a + 2)) with (W64 - 1) by lia. reflexivity. }
      cbn [bind]. rewrite wrap_mul by lia. cbn [bind]. rewrite !wrap_add by lia. cbn [bind]. rewrite Ec2. cbn [bind].
      set (A := if 2 <? c_ r1 then 2 + (W64 - c_ r1) else 2 - c_ r1).
      set (F := if off + 2 <? c_ r1 then off + 2 + (W64 - c_ r1) else off + 2 - c_ r1).
      destruct (Hend carry2 A F) as (vis & k & E1 & E2). exists vis, k, A, F, o2. split; [exact E1|]. split; [exact E2|].
      specialize (Hkey ltac:(lia)).
      destruct (N.eq_dec (c_ r1) 1) as [C1|C1].
      { right. split; [lia|]. split; [lia|]. unfold F. rewrite C1 in *. change (1 <? 1) with false in *. cbn [andb] in *.
        replace (off + 2 <? 1) with false by (symmetry; apply N.ltb_ge; lia). lia. }
      assert (C2 : c_ r2 <> 1) by auto.
      assert (HBB : (1 <? c_ r1) && (1 <? c_ r2) = true).
      { apply andb_true_iff. split; apply N.ltb_lt; lia. }
      rewrite HBB in *.
      assert (HA0 : a = 0 /\ off = 0).
      { destruct HA as [HA|[HA _]]; [exact HA|]. exfalso. rewrite Eo2, N.add_assoc in Hkey.
        rewrite <- N.add_mod_idemp_l, HA, N.add_0_l, N.mod_small in Hkey by lia. discriminate. }
      destruct HA0 as [-> ->]. unfold F. destruct (N.ltb_spec (0 + 2) (c_ r1)) as [L|L].
      * left. lia.
      * right. split; [lia|]. split; [lia|]. right. split; [exact Hkey|]. lia.
Qed.

(** One step at coordinate [a]. *)
Lemma column_step e off r0 r1 r2 a Q :
  dwf r0 -> dwf r1 -> dwf r2 -> c_ r0 = 1 -> n_ r0 = 1 -> n_ r1 = 1 -> e = n_ r2 ->
  N.max (n_ r2) (c_ r2) * c_ r1 <= Q -> e + 4 * Q < W64 -> off < e -> a < n_ r2 -> along r1 r2 off a ->
  exists vis rest k A F os a', adv_loop Release e (mkrs 1 [r0; r1; r2] a) 0 0 off = Ok (vis, rest, k, A, F) /\
    carry_loop Release rest k = Ok os /\ vis ++ os = dig [n_ r0; n_ r1; n_ r2] a' /\
    (e <= F \/ (a < a' /\ a' < n_ r2 /\ along r1 r2 F a')).
Proof.
  intros H0 H1 H2 Ec0 En0 En1 Ee HQ HB Ho Ha HA.
  pose proof H1 as (_ & Hc1 & _ & _).
  assert (HQ1 : n_ r2 * c_ r1 <= Q) by (etransitivity; [|exact HQ]; apply N.mul_le_mono_r; lia).
  assert (HQ2 : n_ r2 <= Q) by (etransitivity; [|exact HQ1]; apply le_l; lia).
  rewrite column_inner by (auto; lia).
  assert (Ed : forall x, dig [n_ r0; n_ r1; n_ r2] x = 0 :: 0 :: dig [n_ r2] x).
  { intros x. cbn [dig]. now rewrite En0, En1, !N.mod_1_r, !N.div_1_r. }
  destruct (N.ltb_spec (off + 1) e) as [L1|L1].
  2:{ exists [0], (mkrs 1 [r1; r2] a), 1, 1, (off + 1), (dig (map n_ [r1; r2]) (a + 1)), (a + 1).
      split; [reflexivity|]. split; [apply carry_loop_dig; [auto|lia]|]. split; [|auto].
      rewrite Ed. cbn [map app dig]. now rewrite En1, !N.mod_1_r, !N.div_1_r. }
  destruct (filled r1 && (off + 2 <? e)) eqn:HP.
  - apply andb_true_iff in HP as [Hf L2]. apply N.ltb_lt in L2.
    destruct (column_last e off r1 r2 a Q) as (vis & k & A & F & a' & R1 & R2 & R3); auto.
    rewrite R1. cbn [bind]. exists (0 :: 0 :: vis), [], k, A, F, [], a'. split; [reflexivity|]. split; [reflexivity|].
    split; [now rewrite Ed, R2, app_nil_r|exact R3].
  - exists [0; 0], (mkrs (c_ r1) [r2] a), 2, 2, (off + 2), (dig (map n_ [r2]) (a + 2)), (a + 2).
    split; [reflexivity|]. split; [apply carry_loop_dig; [auto|lia]|]. split; [now rewrite Ed|].
    destruct (N.le_gt_cases e (off + 2)) as [L2|L2]; [auto|]. right.
    replace (off + 2 <? e) with true in HP by (symmetry; apply N.ltb_lt; lia). rewrite andb_true_r in HP.
    unfold along in *. rewrite HP in *. cbn [andb] in *. lia.
Qed.

(** ** The whole iteration *)
Section Column.
Context (ds : dataset) (idx cnt : list N).
Hypothesis Hfd : full_dataset ds.
Hypothesis Hsc : d_shape ds <> [].
Hypothesis Hsel : sel_in (d_shape ds) idx cnt.
Let D := mk_dims (d_shape ds) (d_chunk_shape ds) idx cnt.
Let rs := rev D.
Let e := prodN cnt.
Context (Q : N).
Hypothesis HQ : pm rs <= Q.
Hypothesis HB : e + 4 * Q < W64.
Hypothesis HD : Forall dwf D.
Hypothesis HF : Forall dwf rs.
Hypothesis Hpn : pn rs = e.
Context (r0 r1 r2 : dim).
Hypothesis Ers : rs = [r0; r1; r2].
Hypothesis Ec0 : c_ r0 = 1.
Hypothesis En0 : n_ r0 = 1.
Hypothesis En1 : n_ r1 = 1.

Lemma column_run : forall n off a, (N.to_nat (n_ r2 - a) <= n)%nat ->
  e <= off \/ (a < n_ r2 /\ along r1 r2 off a) ->
  exists segs, (forall fuel, (n < fuel)%nat -> slicer_run Release fuel ds (mkSlicer off (rev (dig (rev cnt) a)) idx cnt e) = (segs, SDone)) /\
    (length segs <= n)%nat.
Proof.
  assert (Ee : e = n_ r2).
  { rewrite <- Hpn, Ers. unfold pn. cbn [map prodN]. rewrite En0, En1. lia. }
  assert (Erev : rev cnt = [n_ r0; n_ r1; n_ r2]).
  { change [n_ r0; n_ r1; n_ r2] with (map n_ [r0; r1; r2]). rewrite <- Ers. unfold rs. rewrite map_rev. f_equal.
    symmetry. exact (proj2 (proj2 (proj2 (x_proj ds idx cnt Hfd Hsel)))). }
  assert (HQ' : N.max (n_ r2) (c_ r2) * c_ r1 <= Q).
  { etransitivity; [|exact HQ]. rewrite Ers. unfold pm. cbn [map prodN]. rewrite Ec0, En0, En1, N.mul_1_r, N.mul_1_l, N.mul_comm. apply N.mul_le_mono_r. lia. }
  assert (HF' := HF). rewrite Ers in HF'. inversion HF' as [|? ? D0 HF1]; subst. inversion HF1 as [|? ? D1 HF2]; subst. inversion HF2 as [|? ? D2 _]; subst.
  assert (Hdone : forall off s fuel, e <= off -> slicer_run Release (S fuel) ds (mkSlicer off s idx cnt e) = ([], SDone)).
  { intros off s fuel Hge. cbn [slicer_run]. unfold slicer_next. cbn [s_end s_offset].
    replace (e <=? off) with true by (symmetry; apply N.leb_le; lia). reflexivity. }
  induction n as [|n IH]; intros off a Hn HI.
  - destruct HI as [HI|[HI _]]; [|lia]. exists []. split; [|auto]. intros [|fuel] Hfu; [lia|]. now apply Hdone.
  - destruct (N.le_gt_cases e off) as [Hge|Hlt].
    { exists []. split; [|cbn; lia]. intros [|fuel] Hfu; [lia|]. now apply Hdone. }
    destruct HI as [HI|[Ha HA]]; [lia|].
    destruct (column_step e off r0 r1 r2 a Q) as (vis & rest & k & A & F & os & a' & L1 & L2 & L3 & L4); auto.
    rewrite <- Ers in L1.
    destruct (next_done ds idx cnt Hfd Hsc Hsel Q HQ HB HD HF Hpn off a vis rest k A F os Hlt L1 L2) as [sg C3]. fold e in C3.
    assert (Est : rev (vis ++ os) = rev (dig (rev cnt) a')) by now rewrite L3, Erev.
    destruct L4 as [L4|(L4 & L5 & L6)].
    + exists [sg]. split; [|cbn; lia]. intros [|[|fuel]] Hfu; try lia. cbn [slicer_run]. rewrite C3.
      pose proof (Hdone F (rev (vis ++ os)) fuel L4) as Hd. cbn [slicer_run] in Hd. now rewrite Hd.
    + destruct (IH F a') as (segs & R1 & R2); [lia|auto|].
      exists (sg :: segs). split; [|cbn; lia]. intros [|fuel] Hfu; [lia|]. cbn [slicer_run]. rewrite C3, Est, R1 by lia. reflexivity.
Qed.
End Column.
