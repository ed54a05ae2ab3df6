(** * SlicerRelease: one step of the iterator in a release build, compared with the same
    step in a debug build.

    Released from the overflow checks and assertions the loop of [ChunkSlicer::next]
    (dataset.rs 531-619) could reach results a debug build never reaches.  This file shows
    that it does not reach right ones that way, as long as at most one row has been
    accounted for when a dimension is reached (the excluded case is a selection whose two
    last dimensions are selected at one index each, the last one with chunks one element
    wide). *)
From Verif Require Import Base Spec Radix Safe Chunk Extent Dataset Slicer SlicerProofs SlicerStep SlicerExact SlicerExact2.

Local Arguments N.add : simpl never.
Local Arguments N.sub : simpl never.
Local Arguments N.mul : simpl never.
Local Arguments N.div : simpl never.
Local Arguments N.modulo : simpl never.
Local Arguments N.min : simpl never.
Local Arguments N.max : simpl never.

Lemma pcc r rs : pc (r :: rs) = c_ r * pc rs.
Proof. reflexivity. Qed.

(** The loop and the carry after it do the same in both build modes, and leave the
    coordinates of position [p]. *)
Definition outc (e V : N) (rs : list dim) (q k adv soff p A F : N) : Prop :=
  forall m, exists vis rest k' os,
    adv_loop m e (mkrs V rs q) k adv soff = Ok (vis, rest, k', A, F) /\
    carry_loop m rest k' = Ok os /\
    vis ++ os = dig (map n_ rs) p.

Definition relr (e V : N) (rs : list dim) (q k adv soff A F : N) : Prop :=
  exists vis rest k', adv_loop Release e (mkrs V rs q) k adv soff = Ok (vis, rest, k', A, F).

(** ** One dimension *)
Lemma skip_step m e V r rs q k adv soff :
  dwf r -> 0 < V -> q mod n_ r + k < W64 ->
  N.min (c_ r) (s_ r - (i_ r + q mod n_ r) / c_ r * c_ r) = 1 -> V <> 1 ->
  adv_loop m e (mkrs V (r :: rs) q) k adv soff =
    let* (vis, rest, k', a, f) :=
       adv_loop m e (mkrs (V * c_ r) rs (q / n_ r)) ((q mod n_ r + k) / n_ r) adv soff in
    Ok ((q mod n_ r + k) mod n_ r :: vis, rest, k', a, f).
Proof.
  intros Hr HV Hk H1 HV1. rewrite adv_step by auto. cbv zeta. rewrite H1.
  apply N.eqb_neq in HV1. rewrite HV1. reflexivity.
Qed.

Lemma skip_outc e V r rs q k adv soff p' A F :
  dwf r -> 0 < V -> q mod n_ r + k < W64 ->
  N.min (c_ r) (s_ r - (i_ r + q mod n_ r) / c_ r * c_ r) = 1 -> V <> 1 ->
  p' = q / n_ r + (q mod n_ r + k) / n_ r ->
  outc e (V * c_ r) rs (q / n_ r) ((q mod n_ r + k) / n_ r) adv soff p' A F ->
  outc e V (r :: rs) q k adv soff (q + k) A F.
Proof.
  intros Hr HV Hk H1 HV1 Hp T m. destruct (T m) as (vis & rest & k' & os & L1 & L2 & L3).
  exists ((q mod n_ r + k) mod n_ r :: vis), rest, k', os. split; [|split; [auto|]].
  - rewrite skip_step by auto. now rewrite L1.
  - pose proof Hr as (Hn & _). cbn [app map dig]. rewrite L3, Hp.
    rewrite (div_carry q (n_ r) k), (mod_carry q (n_ r) k) by lia. reflexivity.
Qed.

Lemma skip_relr e V r rs q k adv soff A F :
  dwf r -> 0 < V -> q mod n_ r + k < W64 ->
  N.min (c_ r) (s_ r - (i_ r + q mod n_ r) / c_ r * c_ r) = 1 -> V <> 1 ->
  relr e (V * c_ r) rs (q / n_ r) ((q mod n_ r + k) / n_ r) adv soff A F ->
  relr e V (r :: rs) q k adv soff A F.
Proof.
  intros Hr HV Hk H1 HV1 (vis & rest & k' & L1).
  exists ((q mod n_ r + k) mod n_ r :: vis), rest, k'. rewrite skip_step by auto. now rewrite L1.
Qed.

(** A carry of at most one never makes the iterator go back. *)
Lemma main_step m e V r rs q k adv soff :
  dwf r -> 0 < V -> k <= 1 ->
  let o := q mod n_ r in
  let co := (i_ r + o) / c_ r * c_ r in
  let c' := N.min (c_ r) (s_ r - co) in
  let cce := co + c' - i_ r in
  let o2 := N.min (n_ r) cce in
  let cur := (o + k) mod n_ r in
  let d := o2 - cur in
  (c' <> 1 \/ V = 1) ->
  adv + d * V < W64 -> soff + d * V < W64 ->
  o < o2 /\ cur <= o2 /\
  adv_loop m e (mkrs V (r :: rs) q) k adv soff =
    if (i_ r =? co) && (n_ r =? cce) && (soff + d * V <? e) then
      let* (vis, rest, k', a, f) :=
         adv_loop m e (mkrs (V * c_ r) rs (q / n_ r)) ((o + k) / n_ r + o2 / n_ r) (adv + d * V) (soff + d * V) in
      Ok (o2 mod n_ r :: vis, rest, k', a, f)
    else
      let* _ := dbg m (soff + d * V <=? e) in
      Ok ([o2 mod n_ r], mkrs (V * c_ r) rs (q / n_ r), (o + k) / n_ r + o2 / n_ r, adv + d * V, soff + d * V).
Proof.
  intros Hr HV Hk o co c' cce o2 cur d Hnp Ha Hs.
  pose proof Hr as (Hn & Hc & Hs' & HW).
  destruct (geom r q Hr) as (G1 & G2 & G3 & G4 & G5). cbv zeta in *. fold o co in G1, G2, G3, G4, G5.
  assert (Ho2 : o < o2) by (unfold o2, cce, c'; clearbody co o; lia).
  assert (Hcur : cur <= o2).
  { unfold cur. assert ((o + k) mod n_ r <= o + k) by (apply N.mod_le; lia). lia. }
  assert (Hok : o + k < W64) by (clearbody o; lia).
  split; [auto|]. split; [auto|].
  rewrite (adv_step m e V r rs q) by auto. cbv zeta. fold o. fold co. fold c'. fold cce. fold o2. fold cur.
  replace ((c' =? 1) && negb (V =? 1)) with false.
  2:{ symmetry. destruct Hnp as [Hnp|Hnp].
      - apply N.eqb_neq in Hnp. now rewrite Hnp.
      - apply N.eqb_eq in Hnp. rewrite Hnp. now rewrite andb_comm. }
  rewrite sub64_ok by auto. cbn [bind]. fold d.
  rewrite mul64_ok by lia. cbn [bind].
  rewrite add64_ok by lia. cbn [bind]. rewrite add64_ok by lia. cbn [bind].
  rewrite add64_ok; [reflexivity|].
  assert ((o + k) / n_ r <= o + k) by (apply div_le_self; lia).
  assert (o2 / n_ r <= 1) by (apply N.div_le_upper_bound; unfold o2; lia).
  lia.
Qed.

(** ** The dimensions outside the one that has ended the run *)
Definition tail (e V : N) (rs : list dim) (q k adv soff : N) : Prop :=
  outc e V rs q k adv soff (q + k) adv soff \/
  exists x, 0 < x /\ x + 2 <= 2 * pc rs /\ relr e V rs q k adv soff (adv + x * V) (soff + x * V).

Lemma tail_skip e V r rs q k adv soff :
  dwf r -> Forall dwf rs -> 0 < V -> q mod n_ r + k < W64 ->
  N.min (c_ r) (s_ r - (i_ r + q mod n_ r) / c_ r * c_ r) = 1 -> V <> 1 ->
  tail e (V * c_ r) rs (q / n_ r) ((q mod n_ r + k) / n_ r) adv soff ->
  tail e V (r :: rs) q k adv soff.
Proof.
  intros Hr HF HV Hk H1 HV1 [T|(x & X1 & X2 & X3)].
  - left. apply (skip_outc _ _ _ _ _ _ _ _ _ _ _ Hr HV Hk H1 HV1 eq_refl T).
  - right. exists (c_ r * x). pose proof Hr as (Hn & Hc & _).
    split; [apply N.mul_pos_pos; auto|]. split.
    + rewrite pcc. pose proof (N.mul_le_mono_l _ _ (c_ r) X2). lia.
    + apply skip_relr; auto.
      replace (c_ r * x * V) with (x * (V * c_ r)) by lia. exact X3.
Qed.

(** A stop that advances nothing. *)
Lemma tail_stop0 e V r rs q k adv soff :
  dwf r -> Forall dwf rs -> 0 < V -> k <= 1 -> soff <= e -> soff < W64 -> adv < W64 -> q + k < W64 ->
  let o := q mod n_ r in
  let co := (i_ r + o) / c_ r * c_ r in
  let c' := N.min (c_ r) (s_ r - co) in
  (c' <> 1 \/ V = 1) ->
  N.min (n_ r) (co + c' - i_ r) = (o + k) mod n_ r ->
  outc e V (r :: rs) q k adv soff (q + k) adv soff.
Proof.
  intros Hr HF HV Hk Hse HsW HaW HqW o co c' Hnp E.
  pose proof Hr as (Hn & Hc & Hs' & HW).
  assert (Hcur : (o + k) mod n_ r < n_ r) by (apply N.mod_lt; lia).
  intros m.
  exists [(o + k) mod n_ r], (mkrs (V * c_ r) rs (q / n_ r)), ((o + k) / n_ r), (dig (map n_ rs) (q / n_ r + (o + k) / n_ r)).
  split; [|split].
  -
    destruct (main_step m e V r rs q k adv soff Hr HV Hk Hnp) as (_ & _ & M);
      fold o; fold co; fold c'; try (rewrite E, N.sub_diag, N.mul_0_l, N.add_0_r; auto).
    rewrite M. fold o. fold co. fold c'. rewrite E.
    replace (n_ r =? co + c' - i_ r) with false by (symmetry; apply N.eqb_neq; lia).
    rewrite andb_false_r. cbn [andb].
    rewrite N.sub_diag, N.mul_0_l, !N.add_0_r, dbg_ok by (apply N.leb_le; auto). cbn [bind].
    rewrite (N.mod_small ((o + k) mod n_ r)), (N.div_small ((o + k) mod n_ r)), N.add_0_r by auto. reflexivity.
  - apply carry_loop_dig; auto.
    unfold o. rewrite <- div_carry by lia. assert ((q + k) / n_ r <= q + k) by (apply div_le_self; lia). lia.
  - cbn [app map dig]. rewrite (div_carry q (n_ r) k), (mod_carry q (n_ r) k) by lia. reflexivity.
Qed.

(** At coordinates zero. *)
Lemma tail_zero e rs : forall V k adv soff,
  Forall dwf rs -> 1 < V -> k <= 1 -> soff <= e ->
  adv + 2 * (V * pc rs) < W64 + 2 * V -> soff + 2 * (V * pc rs) < W64 + 2 * V ->
  tail e V rs 0 k adv soff.
Proof.
  induction rs as [|r rs IH]; intros V k adv soff HF HV Hk Hse HA HS.
  { left. intros m. exists [], [], k, []. repeat split; intros; reflexivity. }
  inversion HF as [|? ? Hr HF']; subst x l. pose proof Hr as (Hn & Hc & Hs & HW).
  pose proof (pc_pos rs HF') as Hpp. rewrite pcc in HA, HS. rewrite N.mul_assoc in HA, HS.
  assert (Z1 : 0 mod n_ r = 0) by (apply N.mod_0_l; lia).
  assert (Z2 : 0 / n_ r = 0) by (apply N.div_0_l; lia).
  assert (HVc : 1 < V * c_ r) by (clear - HV Hc; nia). assert (HV0 : 0 < V) by lia.
  assert (HW1 : 0 mod n_ r + k < W64) by (rewrite Z1; lia).
  assert (Hk' : (0 mod n_ r + k) / n_ r <= 1).
  { rewrite Z1, N.add_0_l. apply N.div_le_upper_bound; lia. }
  assert (HB : V * c_ r <= V * c_ r * pc rs) by (apply le_mul_pos; auto; lia).
  assert (HBc : c_ r <= c_ r * pc rs) by (apply le_mul_pos; auto; lia).
  assert (HVV : V <= V * c_ r) by (apply le_mul_pos; auto; lia).
  destruct (clip_not_pass r 0 V Hr) as [[P1 P2]|P].
  { apply tail_skip; auto. rewrite Z2. apply IH; auto; lia. }
  destruct (geom r 0 Hr) as (G1 & G2 & G3 & G4 & G5). cbv zeta in *. rewrite Z1, N.add_0_r in *.
  set (co := i_ r / c_ r * c_ r) in *.
  set (c' := N.min (c_ r) (s_ r - co)) in *.
  set (o2 := N.min (n_ r) (co + c' - i_ r)).
  set (d := o2 - (0 + k) mod n_ r).
  assert (Ho2c : o2 <= c_ r) by (unfold o2, c'; clearbody co; lia).
  assert (Hc2 : 2 <= c_ r) by (destruct P as [P|P]; [unfold c' in P; clearbody co; lia|lia]).
  assert (HVV2 : 2 * V <= V * c_ r) by (rewrite (N.mul_comm 2); apply N.mul_le_mono_l; auto).
  assert (Hd : d <= c_ r) by (unfold d; clearbody o2; mlia).
  assert (HdV : d * V <= V * c_ r) by (rewrite (N.mul_comm d); apply N.mul_le_mono_l; lia).
  assert (Hm : (0 + k) mod n_ r <= o2).
  { assert ((0 + k) mod n_ r <= 0 + k) by (apply N.mod_le; lia).
    unfold o2, c' in *. clearbody co. lia. }
  set (Y := V * c_ r) in *.
  destruct (N.eq_dec d 0) as [Ed|Ed].
  { left. apply tail_stop0; auto; try lia; rewrite Z1, N.add_0_r; fold co; fold c'; fold o2; auto.
    unfold d in Ed. lia. }
  assert (M : forall m, adv_loop m e (mkrs V (r :: rs) 0) k adv soff =
    if (i_ r =? co) && (n_ r =? co + c' - i_ r) && (soff + d * V <? e) then
      let* (vis, rest, k', a, f) :=
         adv_loop m e (mkrs Y rs 0) ((0 + k) / n_ r + o2 / n_ r) (adv + d * V) (soff + d * V) in
      Ok (o2 mod n_ r :: vis, rest, k', a, f)
    else
      let* _ := dbg m (soff + d * V <=? e) in
      Ok ([o2 mod n_ r], mkrs Y rs 0, (0 + k) / n_ r + o2 / n_ r, adv + d * V, soff + d * V)).
  { intros m. pose proof (main_step m e V r rs 0 k adv soff Hr HV0 Hk) as M.
    cbv zeta in M. rewrite Z1, N.add_0_r in M. fold co in M. fold c' in M. fold o2 in M. fold d in M.
    rewrite Z2 in M. apply M; auto; lia. }
  right. destruct ((i_ r =? co) && (n_ r =? co + c' - i_ r) && (soff + d * V <? e)) eqn:Ec.
  - apply andb_true_iff in Ec as [Ec E3]. apply andb_true_iff in Ec as [E1 E2].
    apply N.eqb_eq in E1, E2. apply N.ltb_lt in E3.
    assert (En : o2 = n_ r) by (unfold o2; lia).
    assert (Hn2 : 2 <= n_ r) by (destruct P; clearbody c' co; lia).
    assert (Ek : (0 + k) / n_ r + o2 / n_ r = 1).
    { rewrite En, N.div_same, N.div_small by lia. reflexivity. }
    rewrite Ek in M.
    destruct (IH Y 1 (adv + d * V) (soff + d * V) HF' HVc) as [T|T]; try lia.
    + exists d. split; [lia|]. split; [rewrite pcc; clear - HBc Hd Hc2; lia|].
      destruct (T Release) as (vis & rest & k' & os & L1 & _). exists (o2 mod n_ r :: vis), rest, k'.
      rewrite M, L1. reflexivity.
    + destruct T as (x & X1 & X2 & vis & rest & k' & L1). exists (d + x * c_ r). split; [lia|].
      split.
      * rewrite pcc. pose proof (N.mul_le_mono_l _ _ (c_ r) X2) as X3. clear - X3 Hd Hc2. lia.
      * exists (o2 mod n_ r :: vis), rest, k'. rewrite M, L1. cbn [bind].
        replace ((d + x * c_ r) * V) with (d * V + x * Y) by (unfold Y; clear; lia).
        now rewrite !N.add_assoc.
  - exists d. split; [lia|]. split; [rewrite pcc; clear - HBc Hd Hc2; lia|].
    exists [o2 mod n_ r], (mkrs Y rs 0), ((0 + k) / n_ r + o2 / n_ r).
    rewrite M. reflexivity.
Qed.

(** A stop that advances [x > 0] elements. *)
Lemma tail_stopx e V r rs q k adv soff :
  dwf r -> Forall dwf rs -> 0 < V -> k <= 1 ->
  let o := q mod n_ r in
  let co := (i_ r + o) / c_ r * c_ r in
  let c' := N.min (c_ r) (s_ r - co) in
  let d := N.min (n_ r) (co + c' - i_ r) - (o + k) mod n_ r in
  (c' <> 1 \/ V = 1) -> i_ r <> co ->
  adv + d * V < W64 -> soff + d * V < W64 ->
  relr e V (r :: rs) q k adv soff (adv + d * V) (soff + d * V).
Proof.
  intros Hr HF HV Hk o co c' d Hnp Hi HA HS.
  destruct (main_step Release e V r rs q k adv soff Hr HV Hk Hnp HA HS) as (_ & _ & M).
  fold o in M. fold co in M. fold c' in M. fold d in M.
  apply N.eqb_neq in Hi. rewrite Hi in M. cbn [andb] in M. unfold relr. rewrite M. cbn [dbg bind]. eauto.
Qed.

(** With a carry of one, when no earlier step was wrong. *)
Lemma tail_one e rs : forall V q adv soff,
  Forall dwf rs -> 1 < V -> q + 1 < pn rs -> pn rs < W64 -> soff <= e ->
  adv + 2 * (V * pc rs) < W64 + 2 * V -> soff + 2 * (V * pc rs) < W64 + 2 * V ->
  (forall q', q' < q -> exists adv soff vis rest k F,
     adv_loop Debug e (mkrs V rs q') 1 adv soff = Ok (vis, rest, k, adv, F)) ->
  tail e V rs q 1 adv soff.
Proof.
  induction rs as [|r rs IH]; intros V q adv soff HF HV Hq HpW Hse HA HS HQ.
  { unfold pn in Hq. cbn in Hq. lia. }
  destruct (N.eq_dec q 0) as [->|Hq0].
  { apply tail_zero; auto. lia. }
  pose proof (HQ 0 ltac:(lia)) as (adv0 & soff0 & vis0 & rest0 & k0 & F0 & H0).
  inversion HF as [|? ? Hr HF']; subst x l. pose proof Hr as (Hn & Hc & Hs & HW).
  pose proof (pc_pos rs HF') as Hpp. pose proof (pn_pos rs HF') as Hpn.
  rewrite pcc in HA, HS. rewrite N.mul_assoc in HA, HS. rewrite pnc in Hq, HpW.
  assert (Z1 : 0 mod n_ r = 0) by (apply N.mod_0_l; lia).
  assert (Z2 : 0 / n_ r = 0) by (apply N.div_0_l; lia).
  assert (HVc : 1 < V * c_ r) by (clear - HV Hc; nia). assert (HV0 : 0 < V) by lia. assert (HV1 : V <> 1) by lia.
  assert (HB : V * c_ r <= V * c_ r * pc rs) by (apply le_mul_pos; auto; lia).
  assert (HBc : c_ r <= c_ r * pc rs) by (apply le_mul_pos; auto; lia).
  assert (HVV : V <= V * c_ r) by (apply le_mul_pos; auto; lia).
  assert (HpW' : pn rs < W64).
  { assert (pn rs <= n_ r * pn rs) by (rewrite N.mul_comm; apply le_mul_pos; lia). lia. }
  pose proof (divmod_eq q (n_ r) ltac:(lia)) as Eq.
  destruct (geom r q Hr) as (G1 & G2 & G3 & G4 & G5). cbv zeta in *.
  assert (HqW : q mod n_ r + 1 < W64) by (clear - G1 Hs HW; mlia).
  assert (Hqq : q + 1 < W64) by lia.
  assert (HaW : adv < W64) by (clear - HA HB HVV; lia).
  assert (HsW : soff < W64) by (clear - HS HB HVV; lia).
  assert (Hd0 : forall a x, a + x * V <= a -> x = 0).
  { intros a x Hx. destruct (N.eq_dec x 0); auto. exfalso. apply (pos_absurd x V a); auto. lia. }
  destruct (N.eq_dec (n_ r) 1) as [En|En].
  { (* one index *)
    assert (Hall : forall p, p mod n_ r = 0) by (intros; rewrite En; apply N.mod_1_r).
    assert (Hdiv : forall p, p / n_ r = p) by (intros; rewrite En; apply N.div_1_r).
    destruct (clip_not_pass r q V Hr) as [[P1 P2]|P].
    - apply tail_skip; auto. rewrite Hall, !Hdiv, N.add_0_l.
      apply IH; auto; try (clear - HA HS HVV; lia).
      + rewrite En, N.mul_1_l in Hq. auto.
      + intros q' Hq'. destruct (HQ q' Hq') as (a1 & s1 & v1 & re1 & k1 & F1 & H1).
        assert (P1' : N.min (c_ r) (s_ r - (i_ r + q' mod n_ r) / c_ r * c_ r) = 1).
        { rewrite Hall in *. auto. }
        destruct (adv_pass_inv _ _ _ _ _ _ _ _ _ _ _ _ _ Hr HV0 P1' P2 H1) as (v2 & H2).
        rewrite Hall, !Hdiv, N.add_0_l in H2. exists a1, s1, v2, re1, k1, F1. exact H2.
    - exfalso.
      assert (P' : N.min (c_ r) (s_ r - (i_ r + 0 mod n_ r) / c_ r * c_ r) <> 1 \/ V = 1).
      { rewrite Hall in *. auto. }
      destruct (adv_stop_inv _ _ _ _ _ _ _ _ _ _ _ _ _ Hr HF' HV0 P' H0) as (_ & Y2 & _).
      apply Hd0 in Y2. rewrite Hall in *. rewrite N.add_0_r, N.add_0_l, En in *.
      change (1 mod 1) with 0 in Y2. set (co := i_ r / c_ r * c_ r) in *. clearbody co. lia. }
  assert (H1m : 1 mod n_ r = 1) by (apply N.mod_small; lia).
  assert (H1d : 1 / n_ r = 0) by (apply N.div_small; lia).
  destruct (N.eq_dec (c_ r) 1) as [Ec|Ec].
  { (* chunks one wide *)
    assert (Et : thin r = true) by (unfold thin; rewrite Ec; reflexivity).
    destruct (adv_pass_inv _ _ _ _ _ _ _ _ _ _ _ _ _ Hr HV0 (thin_clip r 0 Hr Et) HV1 H0) as (v2 & H2).
    rewrite Z1, Z2, N.add_0_l, H1d in H2.
    pose proof (zero_thin _ _ _ _ _ _ _ _ _ HF' HVc H2) as Ht.
    left. assert (HT : forallb thin (r :: rs) = true) by (cbn [forallb]; rewrite Et; auto).
    intros m. destruct (adv_pass m e V (r :: rs) q 1 adv soff HF HV HT Hqq) as [k Ek].
    exists (dig (map n_ (r :: rs)) (q + 1)), [], k, []. split; [exact Ek|].
    split; [reflexivity|apply app_nil_r]. }
  (* chunks at least two wide, at least two indices *)
  assert (HVV2 : 2 * V <= V * c_ r) by (rewrite (N.mul_comm 2); apply N.mul_le_mono_l; lia).
  destruct (geom r 0 Hr) as (K1 & K2 & K3 & K4 & K5). cbv zeta in *. rewrite Z1, N.add_0_r in *.
  assert (P0 : N.min (c_ r) (s_ r - (i_ r + 0 mod n_ r) / c_ r * c_ r) <> 1 \/ V = 1).
  { left. intros E. destruct (clip_one r 0 Hr Ec E) as [E1 _]. rewrite Z1 in E1. lia. }
  destruct (adv_stop_inv _ _ _ _ _ _ _ _ _ _ _ _ _ Hr HF' HV0 P0 H0) as (Y1 & Y2 & _).
  apply Hd0 in Y2. rewrite Z1, N.add_0_l, N.add_0_r, H1m in Y1, Y2.
  set (co0 := i_ r / c_ r * c_ r) in *.
  assert (Hco : co0 + c_ r = i_ r + 1) by (clearbody co0; lia).
  assert (Hi1 : (i_ r + 1) / c_ r * c_ r = i_ r + 1).
  { rewrite <- Hco. unfold co0. replace (i_ r / c_ r * c_ r + c_ r) with ((i_ r / c_ r + 1) * c_ r) by lia.
    rewrite N.div_mul by lia. reflexivity. }
  assert (Hq2 : 2 <= q -> n_ r = 2).
  { intros Hq2. destruct (N.eq_dec (n_ r) 2) as [|E2]; auto. exfalso.
    destruct (HQ 1 ltac:(lia)) as (adv1 & soff1 & vis1 & rest1 & k1 & F1 & H').
    assert (P' : N.min (c_ r) (s_ r - (i_ r + 1 mod n_ r) / c_ r * c_ r) <> 1 \/ V = 1).
    { left. rewrite H1m, Hi1. lia. }
    destruct (adv_stop_inv _ _ _ _ _ _ _ _ _ _ _ _ _ Hr HF' HV0 P' H') as (X1 & X2 & _).
    apply Hd0 in X2.
    rewrite H1m, Hi1 in X2. change (1 + 1) with 2 in X2. rewrite (N.mod_small 2) in X2 by lia.
    clear - X2 En E2 Hn Ec Hc Hs. lia. }
  destruct (clip_not_pass r q V Hr) as [[P1 P2]|P].
  { (* the last index, in a clipped chunk one wide *)
    destruct (clip_one r q Hr Ec P1) as [O1 _].
    assert (En2 : n_ r = 2).
    { destruct (N.eq_dec (n_ r) 2) as [|E2]; auto. apply Hq2.
      assert (Hmq : q mod n_ r <= q) by (apply N.mod_le; lia). clear - Hmq O1 E2 En Hn. mlia. }
    assert (Om : q mod n_ r = 1) by (clear - O1 En2; mlia).
    apply tail_skip; auto. rewrite Om, En2. change ((1 + 1) / 2) with 1.
    rewrite Om in Eq. rewrite En2 in Eq, Hq.
    apply IH; auto; try (clear - HA HS HVV; lia).
    - clear - Eq Hq. set (q1 := q / 2) in *. clearbody q1. lia.
    - intros q' Hq'.
      destruct (HQ (2 * q' + 1)) as (adv1 & soff1 & vis1 & rest1 & k1 & F1 & H').
      { clear - Eq Hq'. set (q1 := q / 2) in *. clearbody q1. lia. }
      assert (D1 : (2 * q' + 1) mod n_ r = 1) by (rewrite En2; apply (mod_unique_N _ _ q'); lia).
      assert (D2 : (2 * q' + 1) / n_ r = q') by (rewrite En2; apply (div_unique_N _ _ _ 1); lia).
      assert (P1' : N.min (c_ r) (s_ r - (i_ r + (2 * q' + 1) mod n_ r) / c_ r * c_ r) = 1).
      { rewrite D1. rewrite Om in P1. exact P1. }
      destruct (adv_pass_inv _ _ _ _ _ _ _ _ _ _ _ _ _ Hr HV0 P1' P2 H') as (vis' & H2).
      rewrite D1, D2, En2 in H2. change ((1 + 1) / 2) with 1 in H2.
      exists adv1, soff1, vis', rest1, k1, F1. exact H2. }
  destruct (N.eq_dec (q mod n_ r) 0) as [Eo|Eo].
  { left. apply tail_stop0; auto; [apply N.le_refl|].
    rewrite Eo, N.add_0_r, N.add_0_l, H1m. fold co0.
    clear - Hco Hs En Hn. clearbody co0. lia. }
  assert (Eo1 : q mod n_ r = 1).
  { destruct (N.eq_dec (q mod n_ r) 1) as [|E1]; auto.
    assert (Hmq : q mod n_ r <= q) by (apply N.mod_le; lia).
    assert (En2 : n_ r = 2) by (apply Hq2; clear - Hmq Eo E1; mlia).
    clear - En2 G1 Eo E1. mlia. }
  right.
  set (d := N.min (n_ r) ((i_ r + q mod n_ r) / c_ r * c_ r + N.min (c_ r) (s_ r - (i_ r + q mod n_ r) / c_ r * c_ r) - i_ r)
            - (q mod n_ r + 1) mod n_ r).
  assert (Hd : 0 < d /\ d <= c_ r).
  { unfold d. rewrite Eo1 in *. rewrite Hi1 in *. change (1 + 1) with 2.
    destruct (N.eq_dec (n_ r) 2) as [E2|E2].
    - rewrite E2. change (2 mod 2) with 0. clear - Hs E2 Hc Ec. lia.
    - rewrite N.mod_small by lia. clear - Hs E2 En Hn Hc Ec P HV1. lia. }
  assert (HdV : d * V <= V * c_ r) by (rewrite (N.mul_comm d); apply N.mul_le_mono_l; lia).
  exists d. split; [lia|]. split; [rewrite pcc; clear - HBc Hd Ec Hc; lia|].
  apply tail_stopx; auto.
  - apply N.le_refl.
  - rewrite Eo1, Hi1. clear. lia.
  - fold d. clear - HA HdV HB HVV2. lia.
  - fold d. clear - HS HdV HB HVV2. lia.
Qed.

(** ** A whole step *)

(** Excluded: the two innermost dimensions are selected at one index each, and chunks are
    one wide in the innermost. *)
Definition apart (rs : list dim) : Prop :=
  match rs with
  | r0 :: r1 :: _ => ~ (c_ r0 = 1 /\ n_ r0 = 1 /\ n_ r1 = 1)
  | _ => True
  end.
Definition head_many (rs : list dim) : Prop :=
  match rs with r :: _ => n_ r <> 1 | [] => True end.

Lemma passing_start r q : dwf r -> runstart r q -> i_ r = (i_ r + q mod n_ r) / c_ r * c_ r ->
  q mod n_ r = 0 /\ i_ r mod c_ r = 0.
Proof.
  intros Hr Hb E. destruct (geom r q Hr) as (G1 & G2 & G3 & G4 & G5). cbv zeta in *.
  pose proof Hr as (Hn & Hc & Hs & HW).
  assert (Hi : i_ r mod c_ r = 0) by (rewrite E; apply N.mod_mul; lia).
  split; [|auto]. rewrite <- E in G5. destruct Hb as [Hb|Hb]; [auto|]. lia.
Qed.

Lemma bnd_row r rs q : exact r = false -> runstart r q -> bnd (r :: rs) q.
Proof. intros Hx H. cbn [bnd]. now rewrite Hx. Qed.

Lemma row_pos n q' o : o < n -> (n * q' + o) mod n = o /\ (n * q' + o) / n = q'.
Proof.
  intros H. split; [apply (mod_unique_N _ _ q'); lia|apply (div_unique_N _ _ _ o); lia].
Qed.

Definition xstep (e t V : N) (rs : list dim) (q a : N) : Prop :=
  outc e V rs q t (t * V) ((q + t) * V) (q + a) (a * V) ((q + a) * V) \/
  (relr e V rs q t (t * V) ((q + t) * V) (a * V) ((q + a) * V) /\ ~ (sameplace rs q a /\ q + a <= pn rs)).

Lemma xfer e rs : forall t V q,
  Forall dwf rs -> bnd rs q -> t <= 1 -> (t = 0 -> V = 1 /\ rs <> [] /\ apart rs) -> 0 < V ->
  (t = 1 -> V = 1 -> head_many rs) ->
  e = V * pn rs -> q + t < pn rs -> 2 * e + 2 * (V * pc rs) < W64 ->
  (forall q', q' < q -> bnd rs q' -> exists a, stepw e t V rs q' a) ->
  exists a, 0 < a /\ a * V <= e + 2 * (V * pc rs) /\ xstep e t V rs q a.
Proof.
  induction rs as [|r rs IH]; intros t V q HF Hb Ht Ht0 HV Ht1 He Hq HSz HQ.
  { exfalso. unfold pn in Hq. cbn in Hq. destruct (Ht0 ltac:(lia)) as (_ & E & _). auto. }
  inversion HF as [|? ? Hr HF']; subst x l. pose proof Hr as (Hn & Hc & Hs & HW).
  pose proof (pn_pos rs HF') as Hpn. pose proof (pc_pos rs HF') as Hpc.
  pose proof (divmod_eq q (n_ r) ltac:(lia)) as Eq.
  destruct (geom r q Hr) as (G1 & G2 & G3 & G4 & G5). cbv zeta in *.
  rewrite pcc, (N.mul_assoc V) in HSz |- *.
  assert (HVc : 0 < V * c_ r) by (apply N.mul_pos_pos; auto).
  assert (HeW : e < W64) by (clear - HSz; lia).
  assert (HpW : pn (r :: rs) < W64).
  { assert (pn (r :: rs) <= e) by (rewrite He, N.mul_comm; apply le_mul_pos; auto; lia). lia. }
  assert (HBV : V * c_ r <= V * c_ r * pc rs) by (apply le_mul_pos; auto; lia).
  assert (HVV : V <= V * c_ r) by (apply le_mul_pos; auto; lia).
  assert (HnV : n_ r * V <= e).
  { rewrite He, pnc, (N.mul_comm V), <- N.mul_assoc, (N.mul_comm (pn rs)), N.mul_assoc. apply le_mul_pos; auto. lia. }
  assert (HqV : (q + t) * V < e).
  { rewrite He, (N.mul_comm V). apply N.mul_lt_mono_pos_r; auto. }
  destruct (exact r) eqn:Hx.
  - (* exactly one chunk *)
    pose proof Hb as Hb'. cbn [bnd] in Hb'. rewrite Hx in Hb'. destruct Hb' as [Hb1 Hb2].
    destruct (exact_iff r Hx) as [Hi Hnc]. rewrite Hb1, N.add_0_r in Eq.
    assert (Hcase : (c_ r = 1 /\ V <> 1) \/ (V = 1 \/ c_ r <> 1)).
    { destruct (N.eq_dec (c_ r) 1); destruct (N.eq_dec V 1); auto. }
    destruct Hcase as [[Ec EV]|Hnp].
    { (* skipped *)
        assert (En : n_ r = 1) by lia.
        assert (t = 1) as -> by (destruct (N.eq_dec t 0) as [E|]; [destruct (Ht0 E); congruence|lia]).
        assert (Et : thin r = true) by (unfold thin; rewrite Ec; reflexivity).
        pose proof (thin_clip r q Hr Et) as P1.
        assert (Edv : q / n_ r = q) by (rewrite En; apply N.div_1_r).
        assert (EVc : V * c_ r = V) by (rewrite Ec; apply N.mul_1_r).
        assert (Epn : pn (r :: rs) = pn rs) by (rewrite pnc, En; apply N.mul_1_l).
        rewrite Epn in *. rewrite EVc in *. rewrite Edv in *.
        destruct (IH 1 V q HF' Hb2 Ht) as (a & A1 & A2 & A3); auto.
        { intros E. discriminate. } { intros _ E. congruence. }
        { intros q' Hq' Hbq'. destruct (HQ q' Hq') as [a Ha].
          - cbn [bnd]. rewrite Hx, En, N.mod_1_r, N.div_1_r. auto.
          - exists a. apply (stepw_pass1 e 1 V r); auto. }
        exists a. split; [auto|]. split; [auto|].
        assert (E1 : (q mod n_ r + 1) / n_ r = 1) by (rewrite Hb1, En; reflexivity).
        assert (E2 : (q mod n_ r + 1) mod n_ r = 0) by (rewrite Hb1, En; reflexivity).
        assert (E3 : q mod n_ r + 1 < W64) by (rewrite Hb1; reflexivity).
        destruct A3 as [A3|[A3 A4]]; [left|right; split].
        - intros m. destruct (A3 m) as (vis & rest & k' & os & L1 & L2 & L3).
          exists (0 :: vis), rest, k', os. rewrite skip_step by auto.
          rewrite E1, E2, EVc, Edv, L1. cbn [bind]. split; [reflexivity|]. split; [auto|].
          cbn [app map dig]. rewrite L3, En, N.mod_1_r, N.div_1_r. reflexivity.
        - apply skip_relr; auto. rewrite E1, EVc, Edv. exact A3.
        - intros [S1 S2]. apply A4. split; [|rewrite Epn in S2; exact S2].
          rewrite <- Edv. apply (same_exact_inv r rs q a a Hr Hx Hb1 S1). intros j Hj. rewrite Ec. lia. }
    assert (Et' : t / c_ r + 1 = 1).
    { assert (Hd0 : t / c_ r = 0); [|rewrite Hd0; reflexivity].
      apply N.div_small. destruct (N.eq_dec t 0) as [E|E]; [lia|].
      destruct (N.eq_dec (c_ r) 1) as [Ec|]; [|lia]. exfalso.
      apply (Ht1 ltac:(lia)); [destruct Hnp; congruence|lia]. }
    assert (HT : q / n_ r + 1 <= pn rs).
    { rewrite <- Et'. apply (exact_rows r); auto. rewrite <- Eq, <- pnc. auto. }
    assert (Hee : e = pn rs * (V * c_ r)) by (rewrite He, pnc, Hnc; clear; lia).
    assert (Hle1 : (q / n_ r + 1) * (V * c_ r) <= e) by (rewrite Hee; apply N.mul_le_mono_r; auto).
    assert (HtW : t < W64) by (unfold W64; lia).
    assert (HoW : 1 < W64) by reflexivity.
    assert (Hcan : forall x, (q / n_ r + x) * (V * c_ r) = (q + c_ r * x) * V /\ x * (V * c_ r) = c_ r * x * V).
    { intros x. rewrite Eq at 2. rewrite Hnc. clear. split; lia. }
    assert (Hdg : forall x, (q + c_ r * x) mod n_ r = 0 /\ (q + c_ r * x) / n_ r = q / n_ r + x).
    { intros x. rewrite Eq at 1 2. rewrite <- Hnc, <- N.mul_add_distr_l, N.mul_comm.
      split; [apply N.mod_mul; lia|apply N.div_mul; lia]. }
    assert (Hst : forall m, adv_loop m e (mkrs V (r :: rs) q) t (t * V) ((q + t) * V)
            = exact_body m e V (c_ r) rs (q / n_ r) 1).
    { intros m. apply (exact_step m e t 1 V r rs q Hr HV Hi Hnc Hb1 Hnp Et' Hle1 HeW HtW HoW). }
    unfold exact_body in Hst.
    destruct (N.lt_ge_cases (q / n_ r + 1) (pn rs)) as [Hlt|Hge].
    + (* the outer dimensions *)
      replace ((q / n_ r + 1) * (V * c_ r) <? e) with true in Hst
        by (symmetry; apply N.ltb_lt; rewrite Hee; apply N.mul_lt_mono_pos_r; auto).
      destruct (IH 1 (V * c_ r) (q / n_ r) HF' Hb2) as (a & A1 & A2 & A3); auto.
      { lia. } { intros E. discriminate. }
      { intros _ E. assert (EV : V = 1) by (clear - E HV Hc; nia).
        assert (Ec : c_ r = 1) by (rewrite EV in E; lia).
        destruct (N.eq_dec t 0) as [E0|E0]; [|exfalso; apply (Ht1 ltac:(lia) EV); lia].
        destruct (Ht0 E0) as (_ & _ & Ha). unfold apart in Ha. destruct rs as [|r1 rs1]; [exact I|].
        cbn [head_many]. intros E1. apply Ha. repeat split; auto. lia. }
      { rewrite Hee. apply N.mul_comm. }
      { intros q' Hq' Hbq'.
        destruct (row_pos (n_ r) q' 0 Hn) as [D1 D2]. rewrite N.add_0_r in D1, D2.
        assert (Hlt' : n_ r * q' < q) by (rewrite Eq; apply N.mul_lt_mono_pos_l; auto).
        destruct (HQ (n_ r * q') Hlt') as [a Ha].
        { cbn [bnd]. rewrite Hx, D1, D2. auto. }
        destruct (stepw_exact e t V r rs (n_ r * q') a) as (_ & a' & Ea & H1 & _); auto; [lia|].
        rewrite D2, Et' in H1. exists a'. apply H1. lia. }
      exists (c_ r * a). destruct (Hcan a) as [C1 C2]. destruct (Hdg a) as [D1 D2].
      split; [apply N.mul_pos_pos; auto|].
      split; [rewrite <- C2; exact A2|].
      unfold xstep. rewrite <- C2, <- C1.
      destruct A3 as [A3|[A3 A4]]; [left|right; split].
      * intros m. destruct (A3 m) as (vis & rest & k' & os & L1 & L2 & L3).
        exists (0 :: vis), rest, k', os. rewrite Hst, L1. cbn [bind].
        split; [reflexivity|]. split; [auto|]. cbn [app map dig]. rewrite D1, D2, L3. reflexivity.
      * destruct A3 as (vis & rest & k' & L1). exists (0 :: vis), rest, k'. rewrite Hst, L1. reflexivity.
      * intros [S1 S2]. apply A4. split.
        -- apply (same_exact_inv r rs q a (c_ r * a) Hr Hx Hb1 S1). intros j Hj.
           apply N.mul_lt_mono_pos_l; auto.
        -- rewrite pnc, Eq, <- Hnc, <- N.mul_add_distr_l in S2.
           apply N.mul_le_mono_pos_l in S2; auto.
    + (* the end *)
      assert (Heq : q / n_ r + 1 = pn rs) by (clear - HT Hge; set (x := q / n_ r) in *; clearbody x; lia).
      replace ((q / n_ r + 1) * (V * c_ r) <? e) with false in Hst
        by (symmetry; apply N.ltb_ge; rewrite Heq, Hee; apply N.le_refl).
      exists (c_ r * 1). destruct (Hcan 1) as [C1 C2]. destruct (Hdg 1) as [D1 D2].
      split; [lia|]. split; [rewrite <- C2; clear - HBV; lia|].
      unfold xstep. rewrite <- C2, <- C1. left. intros m.
      exists [0], (mkrs (V * c_ r) rs (q / n_ r)), 1, (dig (map n_ rs) (q / n_ r + 1)).
      rewrite Hst, dbg_ok by (apply N.leb_le; auto). cbn [bind].
      split; [reflexivity|]. split.
      * apply carry_loop_dig; auto. rewrite Heq.
        assert (pn rs <= n_ r * pn rs) by (rewrite N.mul_comm; apply le_mul_pos; lia). rewrite pnc in HpW. lia.
      * cbn [app map dig]. rewrite D1, D2. reflexivity.
  - (* not exactly one chunk *)
    pose proof Hb as Hb'. cbn [bnd] in Hb'. rewrite Hx in Hb'.
    set (o := q mod n_ r) in *. set (co := (i_ r + o) / c_ r * c_ r) in *.
    set (q1 := q / n_ r) in *.
    assert (Hrow : forall a, sameplace (r :: rs) q a -> o + a <= n_ r).
    { intros a S. destruct (same_row_inv r rs q a Hr Hx S). auto. }
    assert (HotW : o + t < W64) by (clear - G1 Hs HW Ht; lia).
    rewrite pnc in *.
    assert (Hq1 : q1 < pn rs).
    { apply N.div_lt_upper_bound; lia. }
    assert (HpW' : pn rs < W64).
    { assert (pn rs <= n_ r * pn rs) by (rewrite N.mul_comm; apply le_mul_pos; lia). lia. }
    destruct (clip_not_pass r q V Hr) as [[P1 P2]|P].
    + (* skipped *)
      assert (t = 1) as -> by (destruct (N.eq_dec t 0) as [E|]; [destruct (Ht0 E); congruence|lia]).
      assert (HV1 : 1 < V) by lia. assert (HVc1 : 1 < V * c_ r) by lia.
      assert (HeV : V <= e) by (assert (V <= n_ r * V) by (rewrite N.mul_comm; apply le_mul_pos; lia); lia).
      assert (HT : tail e (V * c_ r) rs q1 ((o + 1) / n_ r) (1 * V) ((q + 1) * V)).
      { destruct (N.eq_dec (o + 1) (n_ r)) as [EO|EO].
        - rewrite EO, N.div_same by lia. apply tail_one; auto; try (clear - HSz HqV HVV HBV HeV; lia).
          + clear - Eq EO Hq Hn Hpn. assert (n_ r * (q1 + 1) < n_ r * pn rs) by lia.
            apply N.mul_lt_mono_pos_l in H; auto.
          + intros q' Hq'. destruct (row_pos (n_ r) q' o G1) as [D1 D2].
            assert (Hlt' : n_ r * q' + o < q).
            { rewrite Eq. apply N.add_lt_mono_r. apply N.mul_lt_mono_pos_l; auto. }
            destruct (HQ _ Hlt') as [a Ha].
            { apply bnd_row; auto. unfold runstart. rewrite D1. exact Hb'. }
            pose proof (step_ge _ _ _ _ _ _ HF HV Ha) as Hge.
            destruct Ha as (vis & rest & k & H & S & _).
            destruct (same_row_inv r rs _ a Hr Hx S) as [R1 _]. rewrite D1 in R1.
            assert (a = 1) as -> by (clear - R1 Hge EO; lia).
            assert (P1' : N.min (c_ r) (s_ r - (i_ r + (n_ r * q' + o) mod n_ r) / c_ r * c_ r) = 1).
            { rewrite D1. exact P1. }
            destruct (adv_pass_inv _ _ _ _ _ _ _ _ _ _ _ _ _ Hr HV P1' P2 H) as (vis' & H').
            rewrite D1, D2, EO, N.div_same in H' by lia.
            eexists _, _, vis', rest, k, _. exact H'.
        - assert (Ec : c_ r = 1).
          { destruct (N.eq_dec (c_ r) 1) as [|Ec]; auto. exfalso. destruct (clip_one r q Hr Ec P1). auto. }
          rewrite N.div_small by (clear - EO G1; lia).
          destruct (N.eq_dec q 0) as [Eq0|Eq0].
          + assert (q1 = 0) as -> by (unfold q1; rewrite Eq0; apply N.div_0_l; lia).
            apply tail_zero; auto; try (clear - HSz HqV HVV HBV HeV; lia).
          + left. rewrite N.add_0_r.
            destruct (HQ 0) as [a Ha]; [lia|apply bnd_zero; auto|].
            pose proof (step_ge _ _ _ _ _ _ HF HV Ha) as Hge.
            destruct Ha as (vis & rest & k & H & S & _).
            assert (Z1 : 0 mod n_ r = 0) by (apply N.mod_0_l; lia).
            assert (Z2 : 0 / n_ r = 0) by (apply N.div_0_l; lia).
            destruct (same_row_inv r rs _ a Hr Hx S) as [_ R1]. rewrite Ec, N.mod_1_r in R1.
            assert (a = 1) as -> by (clear - R1 Hge; lia).
            assert (Et : thin r = true) by (unfold thin; rewrite Ec; reflexivity).
            destruct (adv_pass_inv _ _ _ _ _ _ _ _ _ _ _ _ _ Hr HV (thin_clip r 0 Hr Et) P2 H) as (vis' & H').
            rewrite Z1, Z2, (N.add_0_l 1), (N.div_small 1) in H' by (clear - EO G1; lia).
            pose proof (zero_thin _ _ _ _ _ _ _ _ _ HF' HVc1 H') as HTh.
            intros m. destruct (adv_pass m e (V * c_ r) rs q1 0 (1 * V) ((q + 1) * V) HF' HVc1 HTh) as [k2 Ek2]; [lia|].
            exists (dig (map n_ rs) (q1 + 0)), [], k2, []. rewrite N.add_0_r in *. split; [exact Ek2|].
            split; [reflexivity|apply app_nil_r]. }
      destruct HT as [HT|(x & X1 & X2 & X3)].
      * exists 1. split; [lia|]. split; [clear - HVV HBV; lia|]. left.
        apply (skip_outc e V r rs q 1 _ _ _ _ _ Hr HV HotW P1 P2 eq_refl HT).
      * exists (1 + x * c_ r). split; [lia|].
        assert (EA : (1 + x * c_ r) * V = 1 * V + x * (V * c_ r)) by (clear; lia).
        assert (EB : (q + (1 + x * c_ r)) * V = (q + 1) * V + x * (V * c_ r)) by (clear; lia).
        split.
        -- rewrite EA. pose proof (N.mul_le_mono_r _ _ (V * c_ r) X2) as X4.
           clear - X4 HeV HVV. lia.
        -- right. split.
           ++ rewrite EA, EB. apply skip_relr; auto.
           ++ intros [S _]. destruct (N.eq_dec (c_ r) 1) as [Ec|Ec].
              ** destruct (same_row_inv r rs q _ Hr Hx S) as [_ R]. rewrite Ec, N.mod_1_r in R. clear - R X1. lia.
              ** destruct (clip_one r q Hr Ec P1) as [O1 _]. apply Hrow in S. fold o in O1.
                 assert (0 < x * c_ r) by (apply N.mul_pos_pos; auto). clear - S O1 H. lia.
    + (* the run ends in this dimension *)
      fold o in P. fold co in P.
      set (c' := N.min (c_ r) (s_ r - co)) in *.
      set (o2 := N.min (n_ r) (co + c' - i_ r)).
      assert (Ho2 : o < o2) by (clear - G1 G2 G3 G4; unfold o2, c'; clearbody co o; lia).
      assert (Ho2n : o2 <= n_ r) by (unfold o2; lia).
      destruct (N.eq_dec (o + t) (n_ r)) as [EO|EO].
      * (* one row too many *)
        assert (t = 1) as -> by (clear - EO G1 Ht; lia).
        assert (E2 : o2 = n_ r) by (clear - Ho2 Ho2n EO; lia).
        exists (1 + n_ r). split; [lia|].
        assert (EA : (1 + n_ r) * V = 1 * V + n_ r * V) by (clear; lia).
        assert (EB : (q + (1 + n_ r)) * V = (q + 1) * V + n_ r * V) by (clear; lia).
        split; [rewrite EA; clear - HnV HVV HBV; lia|].
        right. split.
        -- rewrite EA, EB.
           pose proof (main_step Release e V r rs q 1 (1 * V) ((q + 1) * V) Hr HV (N.le_refl 1)) as M.
           cbv zeta in M. fold o in M. fold co in M. fold c' in M. fold o2 in M. fold q1 in M.
           rewrite EO, N.mod_same, N.sub_0_r, E2 in M by lia.
           destruct M as (_ & _ & M); auto; try (clear - HSz HqV HnV HVV HBV; lia).
           replace ((i_ r =? co) && (n_ r =? co + c' - i_ r)) with false in M.
           { cbn [andb dbg bind] in M. unfold relr. rewrite M. eauto. }
           symmetry. apply not_true_iff_false. intros E. apply andb_true_iff in E as [E1 E3].
           apply N.eqb_eq in E1, E3.
           destruct (passing_start r q Hr Hb' E1) as [O1 O2]. fold o in O1.
           assert (En : n_ r = 1) by lia.
           destruct P as [P|P]; [apply P; clear - E3 E1 En; clearbody c' co; lia|].
           apply (Ht1 eq_refl P). exact En.
        -- intros [S _]. apply Hrow in S. clear - S. lia.
      * (* the usual case *)
        assert (Hot : o + t < n_ r) by (clear - G1 Ht EO; lia).
        assert (Hcur : o + t <= o2) by (clear - Ho2 Ht; lia).
        assert (EA : t * V + (o2 - (o + t)) * V = (o2 - o) * V).
        { rewrite <- N.mul_add_distr_r. f_equal. clear - Hcur. lia. }
        assert (EB : (q + t) * V + (o2 - (o + t)) * V = (q + (o2 - o)) * V).
        { rewrite <- N.mul_add_distr_r. f_equal. clear - Hcur. lia. }
        assert (Hend : q + (o2 - o) <= n_ r * (q1 + 1)) by (clear - Eq Ho2n Ho2; lia).
        assert (Hend2 : (q + (o2 - o)) * V <= e).
        { rewrite He, (N.mul_comm V). apply N.mul_le_mono_r.
          apply (N.le_trans _ _ _ Hend). apply N.mul_le_mono_l. clear - Hq1. lia. }
        assert (HaV : (o2 - o) * V <= n_ r * V) by (apply N.mul_le_mono_r; clear - Ho2n; lia).
        assert (M : forall m, adv_loop m e (mkrs V (r :: rs) q) t (t * V) ((q + t) * V) =
          if (i_ r =? co) && (n_ r =? co + c' - i_ r) && ((q + (o2 - o)) * V <? e) then
            let* (vis, rest, k', a, f) :=
               adv_loop m e (mkrs (V * c_ r) rs q1) (0 + o2 / n_ r) ((o2 - o) * V) ((q + (o2 - o)) * V) in
            Ok (o2 mod n_ r :: vis, rest, k', a, f)
          else
            let* _ := dbg m ((q + (o2 - o)) * V <=? e) in
            Ok ([o2 mod n_ r], mkrs (V * c_ r) rs q1, 0 + o2 / n_ r, (o2 - o) * V, (q + (o2 - o)) * V)).
        { intros m. pose proof (main_step m e V r rs q t (t * V) ((q + t) * V) Hr HV Ht) as M.
          cbv zeta in M. fold o in M. fold co in M. fold c' in M. fold o2 in M. fold q1 in M.
          rewrite (N.mod_small (o + t)), (N.div_small (o + t)), EA, EB in M by auto.
          apply M; auto; clear - HSz Hend2 HaV HnV; lia. }
        assert (Hdg : (q + (o2 - o)) mod n_ r = o2 mod n_ r /\ (q + (o2 - o)) / n_ r = q1 + o2 / n_ r).
        { rewrite mod_carry, div_carry by lia. fold o. fold q1. replace (o + (o2 - o)) with o2 by (clear - Ho2; lia). auto. }
        destruct Hdg as [D1 D2].
        destruct ((i_ r =? co) && (n_ r =? co + c' - i_ r) && ((q + (o2 - o)) * V <? e)) eqn:Ec.
        -- apply andb_true_iff in Ec as [Ec E3]. apply andb_true_iff in Ec as [E1 E2].
           apply N.eqb_eq in E1, E2. apply N.ltb_lt in E3.
           destruct (passing_start r q Hr Hb' E1) as [O1 O2]. fold o in O1.
           assert (En : o2 = n_ r) by (unfold o2; lia).
           assert (Hnc : n_ r < c_ r).
           { assert (Hle : n_ r <= c_ r) by (clear - E1 E2; unfold c' in E2; lia).
             destruct (N.eq_dec (n_ r) (c_ r)) as [E|]; [|lia]. exfalso.
             unfold exact in Hx. apply N.eqb_eq in O2, E. rewrite O2, E in Hx. discriminate. }
           rewrite O1, N.sub_0_r, En, N.div_same, N.add_0_l, N.mod_same in * by lia.
           assert (Hq1n : q1 + 1 < pn rs).
           { rewrite He, (N.mul_comm V) in E3. apply N.mul_lt_mono_pos_r in E3; auto.
             rewrite Eq in E3. assert (E4 : n_ r * (q1 + 1) < n_ r * pn rs) by (clear - E3; lia).
             apply N.mul_lt_mono_pos_l in E4; auto. }
           assert (Hci : i_ r / c_ r * c_ r = co).
           { rewrite <- E1. pose proof (divmod_eq (i_ r) (c_ r) ltac:(lia)) as Ei. rewrite O2 in Ei. clear - Ei.
             set (z := i_ r / c_ r) in *. clearbody z. lia. }
           assert (HT : tail e (V * c_ r) rs q1 1 (n_ r * V) ((q + n_ r) * V)).
           { apply tail_one; auto; try (clear - HSz Hend2 HaV HVV HBV HnV; lia).
             - clear - Hnc Hn HV. nia.
             - intros q' Hq'. destruct (row_pos (n_ r) q' 0 Hn) as [Y1 Y2]. rewrite N.add_0_r in Y1, Y2.
               assert (Hlt' : n_ r * q' < q).
               { rewrite Eq, N.add_0_r. apply N.mul_lt_mono_pos_l; auto. }
               destruct (HQ _ Hlt') as [a Ha].
               { apply bnd_row; auto. left. exact Y1. }
               destruct Ha as (vis & rest & k & H & S & _).
               destruct (same_row_inv r rs _ a Hr Hx S) as [R1 _]. rewrite Y1, N.add_0_l in R1.
               assert (P' : N.min (c_ r) (s_ r - (i_ r + (n_ r * q') mod n_ r) / c_ r * c_ r) <> 1 \/ V = 1).
               { rewrite Y1, N.add_0_r, Hci. exact P. }
               destruct (adv_stop_inv _ _ _ _ _ _ _ _ _ _ _ _ _ Hr HF' HV P' H) as (_ & X2 & X3).
               rewrite ?Y1, ?Y2, ?N.add_0_r, ?N.add_0_l, ?Hci in X2.
               rewrite ?Y1, ?Y2, ?N.add_0_r, ?N.add_0_l, ?Hci in X3.
               fold c' in X2, X3. fold o2 in X2, X3.
               assert (EX : t * V + (o2 - t mod n_ r) * V = n_ r * V).
               { rewrite N.mod_small by lia. rewrite <- N.mul_add_distr_r, En. f_equal. clear - Hot. lia. }
               assert (EY : (n_ r * q' + t) * V + (o2 - t mod n_ r) * V = (n_ r * q' + n_ r) * V).
               { rewrite N.mod_small by lia. rewrite <- N.mul_add_distr_r, En. f_equal. clear - Hot. lia. }
               rewrite EX in X2, X3. rewrite EY in X3.
               apply N.mul_le_mono_pos_r in X2; auto.
               assert (a = n_ r) as -> by (clear - X2 R1; lia).
               destruct X3 as (vis' & X3).
               { apply andb_true_iff; split; [apply andb_true_iff; split; apply N.eqb_eq; auto|].
                 apply N.ltb_lt. rewrite He, (N.mul_comm V). apply N.mul_lt_mono_pos_r; auto.
                 replace (n_ r * q' + n_ r) with (n_ r * (q' + 1)) by (clear; lia).
                 apply N.mul_lt_mono_pos_l; auto. clear - Hq' Hq1n. lia. }
               rewrite (N.div_small t), En, N.div_same, N.add_0_l in X3 by lia.
               eexists _, _, vis', rest, k, _. exact X3. }
           destruct HT as [HT|(x & X1 & X2 & X3)].
           ++ exists (n_ r). split; [auto|]. split; [clear - HnV; lia|]. left.
              intros m. destruct (HT m) as (vis & rest & k' & os & L1 & L2 & L3).
              exists (0 :: vis), rest, k', os. rewrite M, L1. cbn [bind].
              split; [reflexivity|]. split; [auto|]. cbn [app map dig]. rewrite L3, D1, D2. reflexivity.
           ++ exists (n_ r + x * c_ r). split; [lia|].
              assert (EA' : (n_ r + x * c_ r) * V = n_ r * V + x * (V * c_ r)) by (clear; lia).
              assert (EB' : (q + (n_ r + x * c_ r)) * V = (q + n_ r) * V + x * (V * c_ r)) by (clear; lia).
              split.
              ** rewrite EA'. pose proof (N.mul_le_mono_r _ _ (V * c_ r) X2) as X4.
                 clear - X4 HnV. lia.
              ** right. split.
                 --- rewrite EA', EB'. destruct X3 as (vis & rest & k' & L1). exists (0 :: vis), rest, k'.
                     rewrite M, L1. reflexivity.
                 --- intros [S _]. apply Hrow in S.
                     assert (0 < x * c_ r) by (apply N.mul_pos_pos; auto). clear - S H. lia.
        -- exists (o2 - o). split; [clear - Ho2; lia|]. split; [clear - HaV HnV; lia|]. left.
           intros m. exists [o2 mod n_ r], (mkrs (V * c_ r) rs q1), (0 + o2 / n_ r), (dig (map n_ rs) (q1 + (0 + o2 / n_ r))).
           rewrite M, dbg_ok by (apply N.leb_le; auto). cbn [bind]. split; [reflexivity|]. split.
           ++ apply carry_loop_dig; auto.
              assert (o2 / n_ r <= 1) by (apply N.div_le_upper_bound; lia). clear - H HeW Hq1 HpW' HSz.
              set (z := o2 / n_ r) in *. clearbody z. unfold W64 in *. lia.
           ++ cbn [app map dig]. rewrite D1, D2, N.add_0_l. reflexivity.
Qed.
