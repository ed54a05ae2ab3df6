(** * SlicerFill: the segments of an iteration that ends cover the selection's size, in both
    build modes: what a successful read writes is never less than what was asked for. *)
From Verif Require Import Base Spec SpecApi Radix Safe Chunk Extent Dataset Slicer Filters SpecFilter Reader SpecReader
  SlicerProofs SlicerStep ChunkProofs DatasetProofs SlicerMain SlicerTheorems SlicerExact SlicerExact2 SlicerExact3 SlicerRelease
  SlicerRelease2 DirectProofs.

Local Arguments N.add : simpl never.
Local Arguments N.sub : simpl never.
Local Arguments N.mul : simpl never.
Local Arguments N.div : simpl never.
Local Arguments N.modulo : simpl never.
Local Arguments N.min : simpl never.
Local Arguments N.max : simpl never.
Local Notation Wz := 18446744073709551616%Z.

(** ** Arithmetic, exact up to multiples of 2^64 *)

Lemma add_z m a b c : add64 m a b = Ok c -> c < W64 /\ exists k, (Z.of_N c = Z.of_N a + Z.of_N b + k * Wz)%Z /\ (m = Debug -> k = 0%Z).
Proof.
  unfold add64. destruct (N.ltb_spec (a + b) W64).
  - intros [= <-]. split; [auto|]. exists 0%Z. split; [lia|auto].
  - destruct m; [discriminate|]. intros [= <-]. assert (HW : W64 <> 0) by discriminate. split; [now apply N.mod_lt|].
    exists (- Z.of_N ((a + b) / W64))%Z. split; [|discriminate]. pose proof (N.div_mod (a + b) W64 HW). unfold W64 in *. lia.
Qed.
Lemma sub_z m a b c : a < W64 -> b < W64 -> sub64 m a b = Ok c -> c < W64 /\ exists k, (Z.of_N c = Z.of_N a - Z.of_N b + k * Wz)%Z /\ (m = Debug -> k = 0%Z /\ b <= a).
Proof.
  intros Ha Hb. unfold sub64. destruct (N.leb_spec b a).
  - intros [= <-]. split; [lia|]. exists 0%Z. split; [lia|auto].
  - destruct m; [discriminate|]. intros [= <-]. rewrite N.mod_small by lia. split; [lia|]. exists 1%Z. split; [|discriminate].
    unfold W64 in *. lia.
Qed.
Lemma mul_z m a b c : mul64 m a b = Ok c -> c < W64 /\ exists k, (Z.of_N c = Z.of_N a * Z.of_N b + k * Wz)%Z /\ (m = Debug -> k = 0%Z).
Proof.
  unfold mul64. destruct (N.ltb_spec (a * b) W64).
  - intros [= <-]. split; [auto|]. exists 0%Z. split; [lia|auto].
  - destruct m; [discriminate|]. intros [= <-]. assert (HW : W64 <> 0) by discriminate. split; [now apply N.mod_lt|].
    exists (- Z.of_N ((a * b) / W64))%Z. split; [|discriminate]. pose proof (N.div_mod (a * b) W64 HW).
    rewrite <- N2Z.inj_mul. unfold W64 in *. lia.
Qed.

(** ** One call of [next] *)

(** How far one call can move at most, over the dimensions [rs] (innermost first). *)
Fixpoint span (V : N) (rs : list dim) : N :=
  match rs with [] => 0 | r :: rs' => n_ r * V + span (V * c_ r) rs' end.

Lemma adv_signed m e rs : forall V q k adv soff vis rest k' A F, Forall dwf rs -> adv < W64 -> soff < W64 ->
  adv_loop m e (mkrs V rs q) k adv soff = Ok (vis, rest, k', A, F) ->
  A < W64 /\ F < W64 /\
  (exists z k1 k2, (Z.of_N A = Z.of_N adv + z + k1 * Wz)%Z /\ (Z.of_N F = Z.of_N soff + z + k2 * Wz)%Z /\
     (Z.abs z <= Z.of_N (span V rs))%Z /\ (m = Debug -> (0 <= z)%Z /\ k1 = 0%Z /\ k2 = 0%Z)) /\
  exists pre rs' V' q', rs = pre ++ rs' /\ rest = mkrs V' rs' q' /\ Forall2 (fun o r => o < n_ r) vis pre.
Proof.
  induction rs as [|r rs IH]; intros V q k adv soff vis rest k' A F HF Ha Hs H; cbn [mkrs adv_loop] in H.
  - injection H as <- <- <- <- <-. split; [auto|]. split; [auto|]. split.
    + exists 0%Z, 0%Z, 0%Z. cbn [span]. repeat split; lia.
    + exists [], [], V, q. repeat split. constructor.
  - inversion HF as [|? ? Hr HF']; subst. pose proof Hr as (Hn & Hc & Hi & HW).
    cbn [r_idx r_cnt r_co r_c r_v r_s] in H.
    destruct (add64 m _ (c_ r)) as [cde| | | |]; try discriminate. cbn [bind] in H.
    match type of H with (let* _ := ?x in _) = _ => destruct x as [c'| | | |]; try discriminate end. cbn [bind] in H.
    destruct ((c' =? 1) && negb (V =? 1)).
    + destruct (add64 m _ k) as [o1| | | |]; try discriminate. cbn [bind] in H.
      unfold div64, rem64 in H. destruct (N.eqb_spec (n_ r) 0) as [E|_]; [lia|]. cbn [bind] in H.
      destruct (adv_loop m e (mkrs (V * c_ r) rs (q / n_ r)) (o1 / n_ r) adv soff) as [[[[[v1 r1] k1] A1] F1]| | | |] eqn:E; try discriminate.
      cbn [bind] in H. injection H as <- <- <- <- <-.
      destruct (IH _ _ _ _ _ _ _ _ _ _ HF' Ha Hs E) as (I1 & I2 & (z & y1 & y2 & I3 & I4 & I5 & I6) & (pre & rs' & V' & q' & J1 & J2 & J3)).
      split; [auto|]. split; [auto|]. split.
      * exists z, y1, y2. cbn [span]. split; [auto|]. split; [auto|]. split; [lia|auto].
      * exists (r :: pre), rs', V', q'. subst rs. split; [reflexivity|]. split; [auto|]. constructor; auto. apply N.mod_lt. lia.
    + destruct (add64 m _ k) as [o1| | | |]; try discriminate. cbn [bind] in H.
      unfold div64, rem64 in H. destruct (N.eqb_spec (n_ r) 0) as [E|_]; [lia|]. cbn [bind] in H.
      destruct (dbg m _) as [[]| | | |]; try discriminate. cbn [bind] in H.
      destruct (add64 m _ c') as [ce| | | |]; try discriminate. cbn [bind] in H.
      destruct (sub64 m ce (i_ r)) as [cce| | | |]; try discriminate. cbn [bind] in H.
      assert (Hcur : o1 mod n_ r < n_ r) by (apply N.mod_lt; lia). set (cur := o1 mod n_ r) in *.
      assert (Hmin : N.min (n_ r) cce <= n_ r) by lia. set (o2 := N.min (n_ r) cce) in *.
      destruct (sub64 m o2 cur) as [d| | | |] eqn:Ed; try discriminate. cbn [bind] in H.
      destruct (mul64 m d V) as [diff| | | |] eqn:Ef; try discriminate. cbn [bind] in H.
      destruct (add64 m adv diff) as [adv'| | | |] eqn:Ea; try discriminate. cbn [bind] in H.
      destruct (add64 m soff diff) as [soff'| | | |] eqn:Es; try discriminate. cbn [bind] in H.
      apply sub_z in Ed as (_ & kd & Ed & Dd); [|lia|lia]. apply mul_z in Ef as (_ & kf & Ef & Df).
      apply add_z in Ea as (La & ka & Ea & Da). apply add_z in Es as (Ls & ks & Es & Ds).
      set (z0 := ((Z.of_N o2 - Z.of_N cur) * Z.of_N V)%Z).
      assert (Ez : (Z.of_N diff = z0 + (kd * Z.of_N V + kf) * Wz)%Z) by (unfold z0; rewrite Ef, Ed; ring).
      assert (Bz : (Z.abs z0 <= Z.of_N (n_ r * V))%Z).
      { unfold z0. rewrite Z.abs_mul, N2Z.inj_mul. rewrite (Z.abs_eq (Z.of_N V)) by lia.
        apply Z.mul_le_mono_nonneg_r; lia. }
      assert (Dz : m = Debug -> (0 <= z0)%Z /\ (kd * Z.of_N V + kf = 0)%Z).
      { intros M. destruct (Dd M) as [D1 D2]. rewrite D1, (Df M). split; [|lia]. unfold z0. apply Z.mul_nonneg_nonneg; lia. }
      clearbody z0. set (kz := (kd * Z.of_N V + kf)%Z) in *. clearbody kz. clear Ed Ef Dd Df.
      destruct (add64 m (o1 / n_ r) _) as [carry2| | | |]; try discriminate. cbn [bind] in H.
      assert (Ho3 : o2 mod n_ r < n_ r) by (apply N.mod_lt; lia).
      match type of H with (if ?b then _ else _) = _ => destruct b end.
      * destruct (adv_loop m e (mkrs (V * c_ r) rs (q / n_ r)) carry2 adv' soff') as [[[[[v1 r1] k1] A1] F1]| | | |] eqn:E; try discriminate.
        cbn [bind] in H. injection H as <- <- <- <- <-.
        destruct (IH _ _ _ _ _ _ _ _ _ _ HF' La Ls E) as (I1 & I2 & (z & y1 & y2 & I3 & I4 & I5 & I6) & (pre & rs' & V' & q' & J1 & J2 & J3)).
        split; [auto|]. split; [auto|]. split.
        -- exists (z0 + z)%Z, (y1 + ka + kz)%Z, (y2 + ks + kz)%Z. cbn [span]. split; [lia|]. split; [lia|]. split; [lia|].
           intros M. destruct (I6 M) as (Y1 & Y2 & Y3). destruct (Dz M). rewrite (Da M), (Ds M). lia.
        -- exists (r :: pre), rs', V', q'. subst rs. split; [reflexivity|]. split; [auto|]. constructor; auto.
      * destruct (dbg m _) as [[]| | | |]; try discriminate. cbn [bind] in H. injection H as <- <- <- <- <-.
        split; [auto|]. split; [auto|]. split.
        -- exists z0, (ka + kz)%Z, (ks + kz)%Z. cbn [span]. split; [lia|]. split; [lia|]. split; [lia|].
           intros M. destruct (Dz M). rewrite (Da M), (Ds M). lia.
        -- exists [r], rs, (V * c_ r), (q / n_ r). split; [reflexivity|]. split; [reflexivity|]. constructor; auto.
Qed.

Lemma carry_range_any m rs : forall V q k os, Forall dwf rs ->
  carry_loop m (mkrs V rs q) k = Ok os -> Forall2 (fun o r => o < n_ r) os rs.
Proof.
  induction rs as [|r rs IH]; intros V q k os HF H; cbn [mkrs carry_loop] in H.
  - injection H as <-. constructor.
  - inversion HF; subst. pose proof H2 as (Hn & _). cbn [r_cnt] in H.
    destruct (add64 m (q mod n_ r) k) as [o1| | | |]; try discriminate. cbn [bind] in H.
    unfold div64, rem64 in H. destruct (N.eqb_spec (n_ r) 0) as [E|_]; [lia|]. cbn [bind] in H.
    assert (o1 mod n_ r < n_ r) by (apply N.mod_lt; lia).
    destruct (o1 / n_ r =? 0).
    + injection H as <-. rewrite mkrs_snd. constructor; auto. apply dig_range; auto.
    + destruct (carry_loop m _ _) as [os'| | | |] eqn:E; try discriminate. cbn [bind] in H.
      injection H as <-. constructor; auto. eapply IH; eauto.
Qed.

Lemma span_le rs : forall V, Forall dwf rs -> span V rs <= N.of_nat (length rs) * (pn rs * (V * pc rs)).
Proof.
  induction rs as [|r rs IH]; intros V HF; cbn [span length]; [lia|].
  inversion HF as [|? ? (Hn & Hc & _) HF']; subst. specialize (IH (V * c_ r) HF').
  pose proof (pn_pos rs HF') as P1.
  assert (P2 : 0 < pc rs).
  { clear - HF'. unfold pc. induction HF' as [|x l Hx HF IH]; cbn [map prodN]; [lia|]. destruct Hx as (_ & ? & _). nia. }
  rewrite pnc, pcc. set (X := pn rs) in *. set (Y := pc rs) in *. clearbody X Y.
  replace (V * c_ r * Y) with (V * (c_ r * Y)) in IH by lia.
  assert (E1 : n_ r * V <= n_ r * X * (V * (c_ r * Y))).
  { replace (n_ r * X * (V * (c_ r * Y))) with (n_ r * V * (X * (c_ r * Y))) by lia.
    rewrite <- (N.mul_1_r (n_ r * V)) at 1. apply N.mul_le_mono_l. clear - P1 P2 Hc. nia. }
  assert (E2 : X * (V * (c_ r * Y)) <= n_ r * X * (V * (c_ r * Y))).
  { apply N.mul_le_mono_r. clear - Hn. nia. }
  set (T := n_ r * X * (V * (c_ r * Y))) in *. set (U := X * (V * (c_ r * Y))) in *. clearbody T U.
  replace (N.of_nat (S (length rs))) with (N.of_nat (length rs) + 1) by lia.
  clear - IH E1 E2. nia.
Qed.

(** With overflow checks the offset never goes past the end. *)
Lemma adv_le e rs : forall k adv soff vis rest k' A F,
  adv_loop Debug e rs k adv soff = Ok (vis, rest, k', A, F) -> soff <= e -> F <= e.
Proof.
  induction rs as [|[r o] rs IH]; intros k adv soff vis rest k' A F E H; cbn [adv_loop] in E.
  - injection E as _ _ _ _ <-. exact H.
  - apply bind_ok in E as (cde & _ & E). apply bind_ok in E as (c' & _ & E).
    destruct ((c' =? 1) && negb (r_v r =? 1)).
    + apply bind_ok in E as (o1 & _ & E). apply bind_ok in E as (k1 & _ & E). apply bind_ok in E as (o2 & _ & E).
      apply bind_ok in E as ([[[[v1 r1] k2] a1] f1] & E1 & E). injection E as _ _ _ _ <-. eapply IH; eauto.
    + apply bind_ok in E as (o1 & _ & E). apply bind_ok in E as (k1 & _ & E). apply bind_ok in E as (cur & _ & E).
      apply bind_ok in E as (u & _ & E). apply bind_ok in E as (ce & _ & E). apply bind_ok in E as (cce & _ & E).
      apply bind_ok in E as (dd & _ & E). apply bind_ok in E as (diff & _ & E). apply bind_ok in E as (adv' & _ & E).
      apply bind_ok in E as (soff' & _ & E). apply bind_ok in E as (q & _ & E). apply bind_ok in E as (k2 & _ & E).
      apply bind_ok in E as (o3 & _ & E).
      destruct ((r_idx r =? r_co r) && (r_cnt r =? cce) && (soff' <? e)) eqn:EC.
      * apply andb_true_iff in EC as [_ EC]. apply N.ltb_lt in EC.
        apply bind_ok in E as ([[[[v1 r1] k3] a1] f1] & E1 & E). injection E as _ _ _ _ <-. eapply IH; eauto. lia.
      * apply bind_ok in E as (u2 & Ed & E). injection E as _ _ _ _ <-. cbn [dbg] in Ed. unfold dbg, assert_ in Ed.
        destruct (N.leb_spec soff' e); [auto|discriminate].
Qed.

Section Fill.
Context (ds : dataset) (idx cnt : list N).
Hypothesis Hfd : full_dataset ds.
Hypothesis Hsc : d_shape ds <> [].
Hypothesis Hsel : sel_in (d_shape ds) idx cnt.
Let D := mk_dims (d_shape ds) (d_chunk_shape ds) idx cnt.
Let rs := rev D.
Let e := prodN cnt.
Let C := prodN (d_chunk_shape ds).
Let d := d_dsize ds.
Context (m : mode) (L : chunk -> res bytes).
Hypothesis Hd : 0 < d.
Hypothesis HL : forall c data, In c (d_chunks ds) -> L c = Ok data -> lenN data = C * d.
Hypothesis HR : m = Release -> (span 1 rs + 2 * C + e) * d < W64.

Lemma run_fill fuel : forall off p segs os, off < W64 ->
  slicer_run m fuel ds (mkSlicer off (rev (dig (rev cnt) p)) idx cnt e) = (segs, SDone) ->
  Forall2 (seg_ok m L d) segs os -> e * d <= off * d + lenN (concat os) /\ (m = Debug -> off <= e -> e * d = off * d + lenN (concat os)).
Proof.
  assert (HD : Forall dwf D) by exact (x_wf ds idx cnt Hfd Hsel).
  assert (HF : Forall dwf rs) by exact (x_wfr ds idx cnt Hfd Hsel).
  assert (Hpn : pn rs = e) by exact (x_pn ds idx cnt Hfd Hsel).
  induction fuel as [|fuel IH]; intros off p segs os Ho Hrun HO; cbn [slicer_run] in Hrun; [discriminate|].
  destruct (N.le_gt_cases e off) as [Hdone|Hlt].
  { split; [clear - Hdone; nia|]. intros _ Hoe. assert (off = e) by lia. subst off.
    replace (slicer_next m ds (mkSlicer e (rev (dig (rev cnt) p)) idx cnt e)) with (Ok (None : option (segment * slicer))) in Hrun
      by (unfold slicer_next; cbn [s_end s_offset]; now rewrite N.leb_refl).
    injection Hrun as <-. inversion HO; subst. cbn [concat]. unfold lenN. cbn [length]. lia. }
  pose proof (next_none ds idx cnt Hsc Hsel HD HF Hpn m off p Hlt) as En. fold e in En.
  destruct (slicer_next m ds (mkSlicer off (rev (dig (rev cnt) p)) idx cnt e)) as [[[[[c a] b] st']|]| | | |] eqn:Ex; try discriminate; [|congruence].
  clear En. destruct (slicer_run m fuel ds st') as [segs' s] eqn:Er. injection Hrun as <- ->.
  destruct (next_any ds idx cnt Hfd Hsc Hsel HD HF Hpn m off p c a b st' Hlt Ex)
    as (A & vis & rest & k & os' & F & [_ Hc] & Ea & Eb & Hadv & Hcar & Est).
  fold D in Ea, Hadv. fold rs in Ea, Hadv. fold e in Hadv, Est.
  destruct (adv_signed m e rs 1 p 0 0 off vis rest k A F HF ltac:(reflexivity) Ho Hadv)
    as (LA & LF & (z & k1 & k2 & E1 & E2 & Bz & Dz) & (pre & rs' & V' & q' & J1 & J2 & J3)).
  assert (Ha : a < C) by (rewrite Ea; exact (r_cpos ds idx cnt Hfd Hsel HD p)).
  inversion HO as [|sg0 o sl0 os2 Hseg HO' Eq1 Eq2]; subst os. clear HO. rename os2 into os.
  destruct Hseg as (s1 & s2 & data & M1 & M2 & M3 & EL & M4 & Eo).
  pose proof (HL c data Hc EL) as LD.
  assert (Lo : lenN o = s2 - s1) by (rewrite Eo; now apply slice_len).
  (* the next state *)
  assert (Hst : exists p', st' = mkSlicer F (rev (dig (rev cnt) p')) idx cnt e).
  { rewrite J1 in HF. apply Forall_app in HF as [HF1 HF2]. subst rest.
    pose proof (carry_range_any _ _ _ _ _ _ HF2 Hcar) as R.
    destruct (dig_surj rs (vis ++ os')) as (p' & _ & E).
    { rewrite J1. now apply Forall2_app. }
    exists p'. rewrite Est, E. destruct (x_proj ds idx cnt Hfd Hsel) as (_ & _ & _ & EN).
    unfold rs. rewrite map_rev. fold D in EN. now rewrite EN. }
  destruct Hst as [p' Hst]. rewrite Hst in Er.
  specialize (IH F p' segs' os LF Er HO'). destruct IH as [IH IHD].
  apply add_z in Eb as (Lb & kb & Eb & Db).
  apply mul_z in M1 as (Ls1 & km1 & M1 & Dm1). apply mul_z in M2 as (Ls2 & km2 & M2 & Dm2).
  cbn [concat]. rewrite lenN_app, Lo.
  (* F = off + z and s2 - s1 = z * d *)
  assert (Key : (0 <= z)%Z /\ (Z.of_N F <= Z.of_N off + z)%Z /\ (m = Debug -> Z.of_N F = Z.of_N off + z)%Z /\ (Z.of_N s2 - Z.of_N s1 = z * Z.of_N d)%Z).
  { destruct m eqn:Em.
    - destruct (Dz eq_refl) as (Z0 & -> & ->). specialize (Db eq_refl). specialize (Dm1 eq_refl). specialize (Dm2 eq_refl). subst kb km1 km2.
      split; [exact Z0|]. split; [lia|]. split; [lia|]. rewrite M2, M1, Eb, E1. ring.
    - specialize (HR eq_refl). clear Dz Db Dm1 Dm2 IH HO' Er Hst Est Hcar Hadv Ex J1 J2 J3 EL Eo Lo.
      (* the sizes as integers *)
      set (S := span 1 rs) in *. 
      assert (HRz : ((Z.of_N S + 2 * Z.of_N C + Z.of_N e) * Z.of_N d < Wz)%Z) by (unfold W64 in HR; lia).
      set (dz := Z.of_N d) in *. assert (Hdz : (1 <= dz)%Z) by (unfold dz; lia).
      assert (Habz : (Z.of_N b = Z.of_N a + z + (k1 + kb) * Wz)%Z) by lia.
      set (kk := (k1 + kb)%Z) in *. clearbody kk.
      assert (S1 : (Z.of_N s1 = Z.of_N a * dz)%Z).
      { rewrite M1. assert (H0 : (0 <= Z.of_N a * dz < Wz)%Z) by (clear - HRz Ha Hdz; nia).
        assert (km1 = 0%Z); [|subst; lia]. unfold W64 in Ls1. clear - M1 H0 Ls1. lia. }
      assert (S2 : (Z.of_N s2 = (Z.of_N a + z) * dz + (kk * dz + km2) * Wz)%Z) by (rewrite M2, Habz; ring).
      set (k3 := (kk * dz + km2)%Z) in *. clearbody k3.
      assert (Hs2 : (Z.of_N s1 <= Z.of_N s2 <= Z.of_N C * dz)%Z) by (unfold dz; lia).
      assert (Bnd : (- Z.of_N S * dz <= (Z.of_N a + z) * dz <= (Z.of_N S + Z.of_N C) * dz)%Z) by (clear - Bz Ha Hdz; nia).
      assert (k3 = 0%Z) as K3.
      { assert (C1 : (Z.of_N C * dz + Z.of_N S * dz < Wz)%Z) by (clear - HRz Hdz; nia).
        assert (C2 : ((Z.of_N S + Z.of_N C) * dz < Wz)%Z) by (clear - HRz Hdz; nia).
        assert (C0 : (0 <= Z.of_N a * dz)%Z) by (clear - Hdz; nia).
        clear - S1 S2 Hs2 Bnd C1 C2 C0. lia. }
      subst k3.
      assert (Z0 : (0 <= z)%Z).
      { clear - S1 S2 Hs2 Hdz. nia. }
      split; [exact Z0|]. split.
      + assert (C3 : (Z.of_N off + z < Wz)%Z) by (clear - HRz Hlt Bz Z0 Hdz; nia).
        assert (k2 = 0%Z); [|subst; lia]. unfold W64 in LF. clear - E2 C3 LF Z0. lia.
      + split; [discriminate|]. rewrite S1, S2. ring. }
  destruct Key as (Z0 & ZF & ZE & ZL).
  split.
  - apply N2Z.inj_le. rewrite N2Z.inj_add, !N2Z.inj_mul in *.
    assert (ZF' : (Z.of_N F * Z.of_N d <= (Z.of_N off + z) * Z.of_N d)%Z) by (clear - ZF Hd; nia).
    assert (IHz : (Z.of_N e * Z.of_N d <= Z.of_N F * Z.of_N d + Z.of_N (lenN (concat os)))%Z) by lia.
    rewrite N2Z.inj_add. rewrite N2Z.inj_sub by exact M3. lia.
  - intros Em _. specialize (ZE Em). assert (HFe : F <= e).
    { subst m. exact (adv_le e _ _ _ _ _ _ _ _ _ Hadv ltac:(lia)). }
    specialize (IHD Em HFe). apply N2Z.inj. rewrite N2Z.inj_add, !N2Z.inj_mul in *.
    assert (ZF' : (Z.of_N F * Z.of_N d = (Z.of_N off + z) * Z.of_N d)%Z) by (now rewrite ZE).
    assert (IHz : (Z.of_N e * Z.of_N d = Z.of_N F * Z.of_N d + Z.of_N (lenN (concat os)))%Z) by lia.
    rewrite N2Z.inj_add. rewrite N2Z.inj_sub by exact M3. lia.
Qed.
End Fill.
