(** * SlicerWrap3: the release class is necessary. *)
From Verif Require Import Base Spec SpecApi Radix Safe Chunk Extent Dataset Slicer SlicerProofs SlicerStep SlicerExact SlicerExact2
  SlicerExact3 SlicerRelease SlicerRelease2 SlicerFill SafeWrap SlicerWrap SlicerKill SlicerWrap2 SlicerMain SlicerTheorems.

Local Arguments N.add : simpl never.
Local Arguments N.sub : simpl never.
Local Arguments N.mul : simpl never.
Local Arguments N.div : simpl never.
Local Arguments N.modulo : simpl never.
Local Arguments N.min : simpl never.
Local Arguments N.max : simpl never.

Definition allR (e t V : N) (rs : list dim) : Prop :=
  (forall q, bnd rs q -> q + t < pn rs -> exists a, goodR e t V rs q a) /\
  (forall q t0, bnd rs q -> t0 <= t -> q + t0 = pn rs -> sameplace rs q t0).

(** The last two chunks touched: the one before the last starts at [n - last_two]. *)
Lemma last_two_facts r : dwf r -> single r = false ->
  let o := n_ r - last_two r in
  last_two r <= n_ r /\ 2 <= last_two r /\ (o = 0 \/ (i_ r + o) mod c_ r = 0) /\
  c_ r < (i_ r + o) mod c_ r + last_two r.
Proof.
  intros Hr Hsg. pose proof Hr as (Hn & Hc & Hs & HW).
  assert (Hl2 : last_chunk r * c_ r <= i_ r + n_ r - 1).
  { unfold last_chunk. rewrite N.mul_comm. apply N.mul_div_le. lia. }
  assert (Hl3 : i_ r + n_ r - 1 < (last_chunk r + 1) * c_ r).
  { unfold last_chunk. pose proof (N.mul_succ_div_gt (i_ r + n_ r - 1) (c_ r) ltac:(lia)).
    rewrite N.mul_comm, N.add_1_r. exact H. }
  unfold single in Hsg. apply N.eqb_neq in Hsg.
  assert (Hle : i_ r / c_ r <= last_chunk r) by (unfold last_chunk; apply N.div_le_mono; lia).
  assert (Hfst : i_ r / c_ r + 1 <= last_chunk r).
  { clear - Hle Hsg. set (x := i_ r / c_ r) in *. set (y := last_chunk r) in *. clearbody x y. lia. }
  pose proof (divmod_eq (i_ r) (c_ r) ltac:(lia)) as Ei.
  assert (Him : i_ r mod c_ r < c_ r) by (apply N.mod_lt; lia).
  unfold last_two, portion. set (L := last_chunk r) in *. set (d0 := i_ r / c_ r) in *. set (im := i_ r mod c_ r) in *.
  assert (HL : (d0 + 1) * c_ r <= L * c_ r) by (apply N.mul_le_mono_r; auto).
  assert (Hi : i_ r < L * c_ r) by (clear - HL Ei Him; clearbody d0 L im; lia).
  rewrite (N.max_r (i_ r)) by lia. cbv zeta.
  destruct (N.eqb_spec L (d0 + 1)) as [E|E].
  - assert (EL : L * c_ r = (d0 + 1) * c_ r) by now rewrite E.
    replace (n_ r - (i_ r + n_ r - L * c_ r + (c_ r - im))) with 0
      by (clear - EL Ei Him Hl2 Hn; clearbody L d0 im; lia).
    rewrite N.add_0_r. fold im. clear - EL Ei Him Hl2 Hn Hc Hs. clearbody L d0 im. lia.
  - assert (HL2 : (d0 + 2) * c_ r <= L * c_ r) by (apply N.mul_le_mono_r; clear - E Hfst; lia).
    assert (Eo : i_ r + (n_ r - (i_ r + n_ r - L * c_ r + c_ r)) = (L - 1) * c_ r).
    { rewrite N.mul_sub_distr_r. clear - HL2 Ei Him Hl2 Hn. clearbody L d0 im. lia. }
    rewrite Eo, N.mod_mul by lia. clear - HL2 Ei Him Hl2 Hn Hc Hs. clearbody L d0 im. lia.
Qed.

Lemma necR e rs : forall t V,
  Forall dwf rs -> start t V rs -> killer t V rs = false -> 0 < V ->
  e = V * pn rs -> t <= pn rs -> 4 * e + 4 * (V * pc rs) < W64 ->
  allR e t V rs -> safe_wrap t V rs = true.
Proof.
  induction rs as [|r rs IH]; intros t V HF Hst HK HV He Htp HS [HG HE]; [reflexivity|].
  destruct (N.leb_spec (pn (r :: rs)) t) as [Hle|Hlt].
  { cbn [safe_wrap]. replace (pn (r :: rs) <=? t) with true by (symmetry; now apply N.leb_le).
    apply same_block; auto. apply (HE 0 (pn (r :: rs))); [now apply bnd_zero|lia|lia]. }
  assert (H1 : (t = 1 /\ 1 < V) \/ ~ (t = 1 /\ 1 < V)) by lia.
  destruct H1 as [[-> HV1]|Hn1].
  { apply safe_sub; auto. apply (safe_nec e); auto; try lia. intros q Hb Hq. split.
    - intros Hq1. apply (one_steps e V (r :: rs) HF HV1 He HS (q + 1)); auto. lia.
    - intros Hq1. apply (HE q 1); auto. lia. }
  inversion HF as [|? ? Hr HF']; subst x l. pose proof Hr as (Hn & Hc & Hs & HW).
  pose proof (pn_pos rs HF') as Hpn.
  destruct (pc_le e V r rs Hc HF' HV HS) as (S1 & S2 & S3).
  assert (HpW : pn (r :: rs) <= e) by (rewrite He, N.mul_comm; apply le_mul_pos; lia).
  cbn [killer safe_wrap] in *. replace (pn (r :: rs) <=? t) with false in * by (symmetry; now apply N.leb_gt).
  assert (Hbx : exact r = true -> forall x, bnd rs x -> bnd (r :: rs) (n_ r * x)).
  { intros Hx x Hb. destruct (row_pos (n_ r) x 0 Hn) as [D1 D2]. rewrite N.add_0_r in D1, D2.
    cbn [bnd]. rewrite Hx, D1, D2. auto. }
  destruct (exact r) eqn:Hx.
  - destruct (exact_iff r Hx) as [Hi Hnc]. rewrite (single_exact r Hc Hx). cbn [orb negb].
    specialize (Hbx eq_refl).
    destruct ((c_ r =? 1) && negb (V =? 1)) eqn:Ep.
    + apply andb_true_iff in Ep as [Ec EV]. pose proof Ec as Ecb. apply N.eqb_eq in Ec.
      rewrite EV. cbn [andb]. unfold thin. rewrite Ecb. cbn [orb].
      apply negb_true_iff, N.eqb_neq in EV.
      assert (En : n_ r = 1) by lia. assert (HV1 : 1 < V) by lia. assert (HtW : t < W64) by lia.
      assert (Ht2 : 2 <= t) by (destruct Hst as [|[|[(_ & E & _)|(_ & E & _)]]]; [auto|exfalso; auto|exfalso; auto|exfalso; auto]).
      replace (n_ r =? 1) with true by (symmetry; now apply N.eqb_eq).
      rewrite (ps_pn r rs En) in *. rewrite (ps_pc r rs Ec) in *.
      assert (Hbq : forall q, bnd (r :: rs) q <-> bnd rs q) by (intros; apply ps_bnd; auto).
      apply IH; auto; [left; auto|]. split.
      * intros x. induction x as [x IHx] using (well_founded_induction N.lt_wf_0). intros Hb Hq.
        apply (ps_down e t V r rs Hr Ec En HV1 HtW).
        -- apply xferR; auto; [left; auto|]. intros q' H1 H2. apply IHx; auto. lia.
        -- apply HG; auto. now apply Hbq.
      * intros q t0 Hb Ht0 Hq. apply (ps_same t V r rs Hr Ec En HV1 HtW). apply HE; auto. now apply Hbq.
    + assert (Hnp : V = 1 \/ c_ r <> 1).
      { apply andb_false_iff in Ep. rewrite N.eqb_neq, negb_false_iff, N.eqb_eq in Ep. tauto. }
      replace (negb (V =? 1) && thin r) with false.
      2:{ symmetry. destruct Hnp as [->|Hnp]; [reflexivity|]. apply andb_false_iff. right. unfold thin.
          apply orb_false_iff. split; [now apply N.eqb_neq|]. rewrite Hi. cbn [andb].
          change (0 =? 0) with true. cbn [andb]. apply N.eqb_neq. lia. }
      set (t' := t / c_ r + 1) in *.
      assert (Hz : 0 mod n_ r = 0) by (apply N.mod_0_l; lia).
      destruct (exact_stepR e t V r rs 0 Hr HF' Hx Hz HV Hnp He ltac:(lia) ltac:(lia)) as (HT & Hee & _). fold t' in HT.
      rewrite N.div_0_l, N.add_0_l in HT by lia.
      assert (HVc : 0 < V * c_ r) by (apply N.mul_pos_pos; auto).
      assert (He' : e = V * c_ r * pn rs) by (rewrite Hee at 1; apply N.mul_comm).
      assert (Hst' : rs <> [] -> start t' (V * c_ r) rs).
      { intros Hne. unfold start. destruct (N.eq_dec (c_ r) 1) as [Ec|Ec].
        - assert (EV : V = 1) by (destruct Hnp; [auto|congruence]).
          assert (Et' : t' = t + 1) by (unfold t'; rewrite Ec, N.div_1_r; reflexivity).
          destruct Hst as [H|[H|[H|H]]]; [left; lia|exfalso; auto|left; lia|].
          destruct H as (E0 & _ & H). right. right. left. rewrite Et', E0, EV, Ec.
          destruct rs as [|r1 rs1]; [contradiction|]. repeat split; tauto.
        - assert (1 <= t') by (unfold t'; rewrite N.add_comm; apply N.le_add_r).
          assert (1 < V * c_ r) by (assert (V * 2 <= V * c_ r) by (apply N.mul_le_mono_l; lia); lia). lia. }
      assert (Htc : t < c_ r * t' /\ c_ r * (t' - 1) <= t).
      { pose proof (divmod_eq t (c_ r) ltac:(lia)) as Et. assert (t mod c_ r < c_ r) by (apply N.mod_lt; lia).
        unfold t'. set (z := t / c_ r) in *. set (y := t mod c_ r) in *. clearbody z y.
        replace (z + 1 - 1) with z by lia. lia. }
      destruct Htc as [Htc Htc2].
      destruct rs as [|r1 rs1]; [reflexivity|]. set (rs := r1 :: rs1) in *.
      assert (Hrows : forall x y, x + y <= pn rs -> n_ r * x + c_ r * y <= pn (r :: rs)).
      { intros x y Hxy. rewrite pnc, Hnc, <- N.mul_add_distr_l. apply N.mul_le_mono_l. auto. }
      apply IH; auto; [apply Hst'; discriminate|]. split.
      * intros x. induction x as [x IHx] using (well_founded_induction N.lt_wf_0). intros Hb Hq.
        assert (Hxq : n_ r * x + t < pn (r :: rs)) by (pose proof (Hrows x t' ltac:(lia)); lia).
        apply (ex_down e t V r rs Hr HF' Hx HV He HS Hnp); auto.
        apply xferR; auto; [apply Hst'; discriminate|]. intros q' H1 H2. apply IHx; auto. lia.
      * intros q t0 Hb Ht0 Hq.
        destruct (row_pos (n_ r) q 0 Hn) as [D1 D2]. rewrite N.add_0_r in D1, D2.
        destruct (N.eq_dec t0 t') as [->|Hne].
        -- pose proof (Hrows q t' ltac:(lia)) as Hqr.
           apply (ex_down_end e t V r rs Hr HF' Hx HV He HS Hnp q); auto; [lia|].
           apply HG; auto. lia.
        -- assert (Hct : c_ r * t0 <= t).
           { assert (c_ r * t0 <= c_ r * (t' - 1)) by (apply N.mul_le_mono_l; lia). lia. }
           pose proof (HE (n_ r * q) (c_ r * t0) (Hbx q Hb) Hct) as S.
           assert (Heq : n_ r * q + c_ r * t0 = pn (r :: rs)).
           { rewrite pnc, Hnc, <- N.mul_add_distr_l, Hq. reflexivity. }
           specialize (S Heq). apply (ex_same r rs Hr Hx _ _ D1) in S. now rewrite D2 in S.
  - clear IH Hbx.
    assert (Hc1 : c_ r = 1 -> V = 1).
    { intros E. destruct (N.eq_dec V 1) as [|EV]; [auto|exfalso].
      assert (Ht2 : 2 <= t) by (destruct Hst as [|[|[(_ & X & _)|(_ & X & _)]]]; [auto|exfalso; auto|exfalso; auto|exfalso; auto]).
      apply orb_false_iff in HK as [_ HK]. apply N.eqb_neq in EV. apply N.eqb_eq in E. apply N.leb_le in Ht2.
      rewrite EV, E, Ht2 in HK. discriminate. }
    assert (Hcase : 2 <= t \/ (t = 1 /\ V = 1 /\ n_ r = 1)).
    { destruct Hst as [H|[H|[H|H]]]; [auto|exfalso; auto|right; auto|].
      exfalso. destruct H as (_ & _ & H). destruct rs as [|r1 rs1]; [auto|]. destruct H as (E1 & E2 & _).
      unfold exact in Hx. rewrite E1, E2, N.mod_1_r in Hx. discriminate. }
    destruct (portion_facts r Hr) as (F1 & F2 & F3 & F4 & F5).
    destruct (clipped r) eqn:Hcl.
    + assert (Htn : t < n_ r).
      { apply orb_false_iff in HK as [HK _]. cbn [andb] in HK. apply andb_false_iff in HK as [HK|HK].
        - apply N.leb_gt in HK. exact HK.
        - exfalso. apply orb_false_iff in HK as [HK H2]. apply orb_false_iff in HK as [H0 _].
          apply N.eqb_neq in H0. apply N.leb_gt in H2. destruct Hcase as [|(_ & E & _)]; [lia|auto]. }
      assert (Hn2 : 1 < n_ r) by (destruct Hcase as [|(E & _ & _)]; lia).
      destruct (clipped_facts r Hr Hcl) as (_ & Hi & Hin & Hnc).
      assert (Hsg : single r = true).
      { unfold single, last_chunk. apply N.eqb_eq.
        pose proof (divmod_eq (i_ r) (c_ r) ltac:(lia)) as E. rewrite Hi in E.
        symmetry. apply (div_unique_N _ _ _ (n_ r - 1)); lia. }
      specialize (F5 Hsg).
      rewrite Hsg. cbn [orb negb].
      replace (thin r) with false.
      2:{ symmetry. unfold thin. apply orb_false_iff. split; [apply N.eqb_neq; lia|]. apply andb_false_iff. right.
          apply N.eqb_neq. lia. }
      rewrite andb_false_r.
      replace (N.min (c_ r) (s_ r - last_chunk r * c_ r) =? 1) with false.
      2:{ symmetry. apply N.eqb_neq. unfold single in Hsg. apply N.eqb_eq in Hsg. rewrite <- Hsg.
          pose proof (divmod_eq (i_ r) (c_ r) ltac:(lia)) as E. rewrite Hi in E.
          set (z := i_ r / c_ r) in *. clearbody z. clear - E Hin Hnc Hn2. lia. }
      rewrite andb_false_r.
      replace (portion r <=? t) with false by (symmetry; apply N.leb_gt; lia). rewrite andb_false_r.
      apply (still_nec e rs (V * c_ r)); auto.
      { assert (V * 2 <= V * c_ r) by (apply N.mul_le_mono_l; lia). lia. }
      intros q Hq. apply (clip_tails e V r rs t (q + 1)); auto; try lia.
      intros q' _ Hq'. destruct (row_pos (n_ r) q' 0 Hn) as [D1 D2]. rewrite N.add_0_r in D1, D2.
      apply HG; [cbn [bnd]; rewrite Hx; left; exact D1|].
      assert (n_ r * (q' + 1) < n_ r * pn rs) by (apply N.mul_lt_mono_pos_l; auto). rewrite pnc. lia.
    + pose proof (first_main r V Hr Hcl Hc1) as P0.
      assert (Hz : 0 mod n_ r = 0) by (apply N.mod_0_l; lia).
      (* a right step at a piece that is not the clipped last one ends in its row *)
      assert (Hrow : forall q, bnd (r :: rs) q -> q + t < pn (r :: rs) ->
         (N.min (c_ r) (s_ r - (i_ r + q mod n_ r) / c_ r * c_ r) <> 1 \/ V = 1) -> q mod n_ r + t < n_ r).
      { intros q Hb Hq P. destruct (N.lt_ge_cases (q mod n_ r + t) (n_ r)) as [|Hge]; [auto|exfalso].
        destruct (rowR e t V r rs q Hr HF' Hx Hcl HV P He Hq ltac:(lia)) as (a & _ & A).
        destruct (HG q Hb Hq) as [b B]. exact (bad_good _ _ _ _ _ _ _ HV (A Hge) B). }
      assert (Htn : t < n_ r).
      { pose proof (Hrow 0 (bnd_zero _ HF) ltac:(lia) P0) as H. rewrite Hz in H. lia. }
      assert (Ht2 : 2 <= t) by (destruct Hcase as [|(E & _ & E2)]; lia).
      assert (HA : single r || (t <? last_two r) = true).
      { destruct (single r) eqn:Hsg; [reflexivity|]. cbn [orb]. apply N.ltb_lt.
        destruct (last_two_facts r Hr Hsg) as (L1 & L2 & L3 & L4). set (o := n_ r - last_two r) in *.
        assert (Hom : o mod n_ r = o) by (apply N.mod_small; unfold o; lia).
        assert (Hbo : bnd (r :: rs) o) by (cbn [bnd]; rewrite Hx; unfold runstart; rewrite Hom; exact L3).
        destruct (N.lt_ge_cases (o + t) (pn (r :: rs))) as [Ho|Ho].
        - assert (P : N.min (c_ r) (s_ r - (i_ r + o mod n_ r) / c_ r * c_ r) <> 1 \/ V = 1).
          { destruct (clip_not_pass r o V Hr) as [[Q1 Q2]|Q]; [exfalso|exact Q].
            assert (Ec : c_ r <> 1) by auto. destruct (clip_one r o Hr Ec Q1) as [O1 _]. rewrite Hom in O1. unfold o in O1. lia. }
          pose proof (Hrow o Hbo Ho P) as H. rewrite Hom in H. unfold o in H. lia.
        - exfalso. assert (Hnp1 : n_ r <= pn (r :: rs)) by (rewrite pnc; apply le_mul_pos; lia).
          pose proof (HE o (pn (r :: rs) - o) Hbo ltac:(lia) ltac:(unfold o; lia)) as S.
          destruct (same_row_inv r rs _ _ Hr Hx S) as [_ R2]. rewrite Hom in R2.
          assert (last_two r <= pn (r :: rs) - o) by (unfold o; lia).
          clear - R2 L4 H. set (x := (i_ r + o) mod c_ r) in *. clearbody x. lia. }
      rewrite HA. cbn [negb].
      replace (negb (V =? 1) && thin r) with false.
      2:{ symmetry. destruct (N.eq_dec V 1) as [->|EV]; [reflexivity|]. apply andb_false_iff. right.
          assert (Ec : c_ r <> 1) by auto. unfold thin. apply orb_false_iff. split; [now apply N.eqb_neq|].
          destruct ((i_ r mod c_ r =? 0) && (i_ r + 1 =? s_ r)) eqn:E; [exfalso|reflexivity].
          apply andb_true_iff in E as [E1 E2]. apply N.eqb_eq in E2. assert (n_ r = 1) by lia. lia. }
      assert (Ho1 : ones rs = false -> t < portion r /\
         (V <> 1 -> N.min (c_ r) (s_ r - last_chunk r * c_ r) <> 1)).
      { intros Eo. assert (Hp2 : 1 < pn rs).
        { destruct (N.le_gt_cases (pn rs) 1) as [H|]; auto. apply pn_one in H; auto. congruence. }
        assert (Hpp : 2 * n_ r <= pn (r :: rs)).
        { rewrite pnc, N.mul_comm. apply N.mul_le_mono_l. lia. }
        set (o := n_ r - portion r) in *.
        assert (Hom : o mod n_ r = o) by (apply N.mod_small; unfold o; lia).
        assert (Hbo : bnd (r :: rs) o).
        { cbn [bnd]. rewrite Hx. unfold runstart. rewrite Hom. destruct F4 as [F4|F4]; [left; unfold o; lia|right; exact F4]. }
        assert (Hot : o + t < pn (r :: rs)) by (unfold o; lia).
        destruct (clip_not_pass r o V Hr) as [[Q1 Q2]|Q].
        - exfalso. assert (Ec : c_ r <> 1) by auto. destruct (clip_one r o Hr Ec Q1) as [O1 _]. rewrite Hom in O1.
          destruct (lastR e t V r rs o Hr HF' Hx ltac:(lia) O1 Ht2 Htn Q1 He Hot HS) as (a & _ & B).
          destruct (HG o Hbo Hot) as [b G]. exact (bad_good _ _ _ _ _ _ _ HV B G).
        - split.
          + pose proof (Hrow o Hbo Hot Q) as H. rewrite Hom in H. unfold o in H. lia.
          + intros EV. rewrite Hom in Q. rewrite F3 in Q. destruct Q; auto. }
      destruct (ones rs) eqn:Eo.
      * rewrite orb_true_r. cbn [andb negb]. rewrite (ones_still rs Eo). match goal with |- (if ?b then _ else _) = _ => destruct b end; reflexivity.
      * destruct (Ho1 eq_refl) as [B1 B2].
        replace (negb (V =? 1) && (N.min (c_ r) (s_ r - last_chunk r * c_ r) =? 1)) with false.
        2:{ symmetry. apply andb_false_iff. destruct (N.eq_dec V 1) as [->|EV]; [left; reflexivity|].
            right. apply N.eqb_neq. auto. }
        replace (portion r <=? t) with false by (symmetry; now apply N.leb_gt). reflexivity.
Qed.
