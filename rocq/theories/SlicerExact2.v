(** * SlicerExact2: a selection whose steps are all right is [safe] (debug builds). *)
From Verif Require Import Base Spec Radix Safe Chunk Extent Dataset Slicer SlicerProofs SlicerStep SlicerExact.

Local Arguments N.add : simpl never.
Local Arguments N.sub : simpl never.
Local Arguments N.mul : simpl never.
Local Arguments N.div : simpl never.
Local Arguments N.modulo : simpl never.
Local Arguments N.min : simpl never.
Local Arguments N.max : simpl never.

Lemma pnc r rs : pn (r :: rs) = n_ r * pn rs.
Proof. reflexivity. Qed.

Lemma pos_absurd x V a : 0 < x -> 0 < V -> a + x * V <= a -> False.
Proof. intros. assert (0 < x * V) by (apply N.mul_pos_pos; auto). lia. Qed.

Lemma exact_iff r : exact r = true -> i_ r mod c_ r = 0 /\ n_ r = c_ r.
Proof. unfold exact. intros H. btrue. auto. Qed.

Lemma exact_rows r q t p : dwf r -> n_ r = c_ r ->
  n_ r * q + t < n_ r * p -> q + (t / c_ r + 1) <= p.
Proof.
  intros (Hn & Hc & _) E H. pose proof (N.mul_div_le t (c_ r) ltac:(lia)) as Htd.
  destruct (N.le_gt_cases (q + (t / c_ r + 1)) p) as [|Hgt]; auto. exfalso.
  assert (n_ r * p <= n_ r * (q + t / c_ r)) by (apply N.mul_le_mono_l; mlia).
  rewrite N.mul_add_distr_l in H0.
  assert (Htn : n_ r * (t / c_ r) <= t) by (rewrite E; exact Htd). mlia.
Qed.

(** One right step: inside one chunk, not past the end. *)
Definition stepw (e t V : N) (rs : list dim) (q a : N) : Prop :=
  exists vis rest k,
    adv_loop Debug e (mkrs V rs q) t (t * V) ((q + t) * V) = Ok (vis, rest, k, a * V, (q + a) * V) /\
    sameplace rs q a /\ q + a <= pn rs.

Lemma step_ge e t V rs q a : Forall dwf rs -> 0 < V -> stepw e t V rs q a -> t <= a.
Proof.
  intros HF HV (vis & rest & k & H & _).
  destruct (adv_gen _ _ _ _ _ _ _ _ _ _ _ _ HF HV H) as ((d & D & _) & _).
  rewrite <- N.mul_add_distr_r in D. apply N.mul_cancel_r in D; lia.
Qed.

(** A step through an exactly covered dimension is a step of the outer dimensions. *)
Lemma stepw_exact e t V r rs q a :
  dwf r -> Forall dwf rs -> exact r = true -> q mod n_ r = 0 -> 0 < V -> (V = 1 \/ c_ r <> 1) ->
  e = V * pn (r :: rs) -> e < W64 -> q + t < pn (r :: rs) ->
  stepw e t V (r :: rs) q a ->
  let t' := t / c_ r + 1 in
  q / n_ r + t' <= pn rs /\
  exists a', a = c_ r * a' /\
    (q / n_ r + t' < pn rs -> stepw e t' (V * c_ r) rs (q / n_ r) a') /\
    (q / n_ r + t' = pn rs -> a' = t' /\ sameplace rs (q / n_ r) t').
Proof.
  intros Hr HF Hx Hq0 HV Hnp He HeW Hq (vis & rest & k & H & S & Hle) t'.
  pose proof Hr as (Hn & Hc & Hs & HW). destruct (exact_iff r Hx) as [Hi Hnc].
  pose proof (divmod_eq q (n_ r) ltac:(lia)) as Eq. rewrite Hq0, N.add_0_r in Eq.
  pose proof (pn_pos rs HF) as Hpp. rewrite pnc in *.
  assert (HT : q / n_ r + t' <= pn rs).
  { apply (exact_rows r); auto. rewrite <- Eq. auto. }
  split; [auto|].
  assert (HVc : 0 < V * c_ r) by (apply N.mul_pos_pos; auto).
  assert (Hee : e = pn rs * (V * c_ r)) by (rewrite He, Hnc; lia).
  assert (HpW : pn rs < W64) by nia.
  assert (HtW : t < W64) by nia.
  assert (HtW' : t' < W64) by mlia.
  assert (Hle1 : (q / n_ r + t') * (V * c_ r) <= e) by (rewrite Hee; apply N.mul_le_mono_r; auto).
  rewrite (exact_step Debug e t t' V r rs q Hr HV Hi Hnc Hq0 Hnp eq_refl Hle1 HeW HtW HtW') in H.
  unfold exact_body in H.
  assert (Hcan : forall x, a * V = x * (V * c_ r) -> a = c_ r * x).
  { intros x Hx'. apply (N.mul_cancel_r _ _ V); lia. }
  assert (Hsame : forall x, a = c_ r * x -> sameplace rs (q / n_ r) x).
  { intros x ->. apply (same_exact_inv r rs q x (c_ r * x) Hr Hx Hq0 S).
    intros j Hj. apply N.mul_lt_mono_pos_l; auto. }
  destruct (N.lt_ge_cases (q / n_ r + t') (pn rs)) as [Hlt|Hge].
  - replace ((q / n_ r + t') * (V * c_ r) <? e) with true in H.
    2:{ symmetry. apply N.ltb_lt. rewrite Hee. apply N.mul_lt_mono_pos_r; auto. }
    destruct (adv_loop Debug e (mkrs (V * c_ r) rs (q / n_ r)) t' _ _)
      as [[[[[vis' rest'] k'] A] F]| | | |] eqn:E; try discriminate.
    cbn [bind] in H. injection H as <- <- <- HA HFe.
    destruct (adv_gen _ _ _ _ _ _ _ _ _ _ _ _ HF HVc E) as ((d & D1 & D2) & _).
    exists (t' + d).
    assert (EA : A = (t' + d) * (V * c_ r)) by lia.
    assert (EF : F = (q / n_ r + (t' + d)) * (V * c_ r)) by (rewrite D2; clear; lia).
    assert (Ea : a = c_ r * (t' + d)) by (apply Hcan; lia).
    split; [auto|]. split; [|mlia].
    intros _. exists vis', rest', k'. rewrite E, EA, EF. split; [reflexivity|].
    split; [apply Hsame; auto|].
    rewrite Ea in Hle. rewrite Eq, <- Hnc, <- N.mul_add_distr_l in Hle.
    apply N.mul_le_mono_pos_l in Hle; auto.
  - assert (Heq : q / n_ r + t' = pn rs) by mlia.
    replace ((q / n_ r + t') * (V * c_ r) <? e) with false in H.
    2:{ symmetry. apply N.ltb_ge. rewrite Heq, Hee. apply N.le_refl. }
    rewrite dbg_ok in H by (apply N.leb_le; auto). cbn [bind] in H.
    injection H as <- <- <- HA HFe.
    assert (Ea : a = c_ r * t') by (apply Hcan; auto).
    exists t'. split; [auto|]. split; [intros; mlia|]. intros _. split; [auto|]. apply Hsame; auto.
Qed.

(** A step through a dimension with one-element chunks, selected at one index. *)
Lemma stepw_pass1 e t V r rs q a :
  dwf r -> c_ r = 1 -> n_ r = 1 -> 0 < V -> V <> 1 ->
  stepw e t V (r :: rs) q a -> stepw e t V rs q a.
Proof.
  intros Hr Ec En HV HV1 (vis & rest & k & H & S & Hle). pose proof Hr as (Hn & Hc & Hs & HW).
  assert (Hx : exact r = true) by (unfold exact; rewrite Ec, En, N.mod_1_r; reflexivity).
  assert (Ht : thin r = true) by (unfold thin; rewrite Ec; reflexivity).
  destruct (adv_pass_inv _ _ _ _ _ _ _ _ _ _ _ _ _ Hr HV (thin_clip r q Hr Ht) HV1 H) as (vis' & H').
  rewrite Ec, En, N.mul_1_r, !N.div_1_r, N.mod_1_r, N.add_0_l in H'.
  exists vis', rest, k. split; [exact H'|]. split.
  - assert (Hz : q mod n_ r = 0) by (rewrite En; apply N.mod_1_r).
    pose proof (same_exact_inv r rs q a a Hr Hx Hz S) as S'.
    rewrite En, N.div_1_r in S'. apply S'. intros j Hj. rewrite Ec. lia.
  - rewrite pnc, En, N.mul_1_l in Hle. auto.
Qed.

(** Where the loop can stop. *)
Lemma clip_not_pass r q V : dwf r ->
  {N.min (c_ r) (s_ r - (i_ r + q mod n_ r) / c_ r * c_ r) = 1 /\ V <> 1} +
  {N.min (c_ r) (s_ r - (i_ r + q mod n_ r) / c_ r * c_ r) <> 1 \/ V = 1}.
Proof.
  intros _. destruct (N.eq_dec (N.min (c_ r) (s_ r - (i_ r + q mod n_ r) / c_ r * c_ r)) 1);
  destruct (N.eq_dec V 1); auto.
Qed.

(** A right step reaches the start of the next run. *)
Lemma step_max e rs : forall t V q a,
  Forall dwf rs -> bnd rs q -> (t = 0 -> V = 1) -> 0 < V -> e = V * pn rs -> e < W64 ->
  q + t < pn rs -> stepw e t V rs q a -> bnd rs (q + a).
Proof.
  induction rs as [|r rs IH]; intros t V q a HF Hb HtV HV He HeW Hq Hst; [exact I|].
  inversion HF as [|? ? Hr HF']; subst x l. pose proof Hr as (Hn & Hc & Hs & HW).
  pose proof (divmod_eq q (n_ r) ltac:(lia)) as Eq.
  pose proof (step_ge _ _ _ _ _ _ HF HV Hst) as Hge.
  cbn [bnd] in *. destruct (exact r) eqn:Hx.
  - destruct Hb as [Hb1 Hb2]. destruct (exact_iff r Hx) as [Hi Hnc].
    rewrite Hb1, N.add_0_r in Eq.
    destruct (N.eq_dec (c_ r) 1) as [Ec|Ec]; [destruct (N.eq_dec V 1) as [EV|EV]|].
    2:{ assert (En : n_ r = 1) by lia.
        rewrite En, N.mod_1_r, N.div_1_r. split; [auto|].
        rewrite En, N.div_1_r in Hb2. rewrite pnc, En, N.mul_1_l in *.
        apply (IH t V q a); auto. apply (stepw_pass1 e t V r); auto. }
    all: (destruct (stepw_exact e t V r rs q a) as (HT & a' & Ea & H1 & H2); auto;
      assert (Hd : (q + a) / n_ r = q / n_ r + a' /\ (q + a) mod n_ r = 0)
        by (rewrite Ea, <- Hnc; rewrite Eq at 1 3; rewrite <- N.mul_add_distr_l, N.mul_comm;
            split; [apply N.div_mul; lia|apply N.mod_mul; lia]);
      destruct Hd as [Hd1 Hd2]; rewrite Hd1, Hd2; split; [reflexivity|];
      destruct (N.lt_ge_cases (q / n_ r + (t / c_ r + 1)) (pn rs)) as [Hlt|Hge'];
      [ apply (IH (t / c_ r + 1) (V * c_ r) (q / n_ r) a'); auto;
          [ mlia | apply N.mul_pos_pos; auto | rewrite He, pnc, Hnc; lia ]
      | assert (HE : q / n_ r + (t / c_ r + 1) = pn rs) by mlia;
        destruct (H2 HE) as [-> _]; rewrite HE; apply bnd_end; auto ]).
  - pose proof Hst as (vis & rest & k & H & S & Hle).
    destruct (same_row_inv r rs q a Hr Hx S) as [R1 R2].
    destruct (geom r q Hr) as (G1 & G2 & G3 & G4 & G5). cbv zeta in *.
    unfold runstart. rewrite mod_carry by lia.
    destruct (N.eq_dec (q mod n_ r + a) (n_ r)) as [EN|EN].
    { left. rewrite EN. apply N.mod_same. lia. }
    rewrite (N.mod_small (q mod n_ r + a)) by mlia. right.
    destruct (clip_not_pass r q V Hr) as [[P1 P2]|P].
    + destruct (N.eq_dec (c_ r) 1) as [Ec|Ec]; [rewrite Ec; apply N.mod_1_r|].
      destruct (clip_one r q Hr Ec P1) as [O1 _].
      assert (1 <= t) by (destruct (N.eq_dec t 0); [exfalso; auto|lia]). mlia.
    + destruct (adv_stop_inv _ _ _ _ _ _ _ _ _ _ _ _ _ Hr HF' HV P H) as (Z1 & Z2 & _).
      set (o := q mod n_ r) in *. set (co := (i_ r + o) / c_ r * c_ r) in *.
      set (m := (i_ r + o) mod c_ r) in *.
      assert (Hot : o + t < n_ r) by mlia.
      rewrite (N.mod_small (o + t)) in Z1, Z2 by auto.
      rewrite <- N.mul_add_distr_r in Z2. apply N.mul_le_mono_pos_r in Z2; auto.
      assert (Ha : m + a = c_ r) by (clearbody m co o; lia).
      replace (i_ r + (o + a)) with (((i_ r + o) / c_ r + 1) * c_ r).
      * apply N.mod_mul. lia.
      * fold co in G5. rewrite N.mul_add_distr_r. fold co. clearbody co m o. lia.
Qed.

(** ** Carries *)

(** If a carry of 0 at the start advances nothing, chunks are one thick. *)
Lemma zero_thin e rs : forall V adv soff vis rest k F,
  Forall dwf rs -> 1 < V ->
  adv_loop Debug e (mkrs V rs 0) 0 adv soff = Ok (vis, rest, k, adv, F) ->
  forallb thin rs = true.
Proof.
  induction rs as [|r rs IH]; intros V adv soff vis rest k F HF HV H; [reflexivity|].
  inversion HF as [|? ? Hr HF']; subst. pose proof Hr as (Hn & Hc & Hs & HW).
  assert (Z1 : 0 mod n_ r = 0) by (apply N.mod_0_l; lia).
  assert (Z2 : 0 / n_ r = 0) by (apply N.div_0_l; lia).
  destruct (geom r 0 Hr) as (G1 & G2 & G3 & G4 & G5). cbv zeta in *. rewrite Z1, N.add_0_r in *.
  assert (HV0 : 0 < V) by lia.
  destruct (clip_not_pass r 0 V Hr) as [[P1 P2]|P].
  - destruct (adv_pass_inv _ _ _ _ _ _ _ _ _ _ _ _ _ Hr HV0 P1 P2 H) as (vis' & H').
    rewrite Z1, Z2, N.add_0_l, Z2 in H'. cbn [forallb].
    rewrite (IH (V * c_ r) adv soff vis' rest k F HF' ltac:(nia) H'), andb_true_r.
    unfold thin. destruct (N.eqb_spec (c_ r) 1) as [|Ec]; [reflexivity|]. cbn [orb].
    rewrite Z1, N.add_0_r in P1.
    assert (E1 : i_ r + 1 = s_ r) by lia.
    assert (E2 : i_ r mod c_ r = 0) by mlia.
    apply N.eqb_eq in E1, E2. now rewrite E1, E2.
  - exfalso. destruct (adv_stop_inv _ _ _ _ _ _ _ _ _ _ _ _ _ Hr HF' HV0 P H) as (Y1 & Y2 & _).
    rewrite Z1, !N.add_0_r, Z1, N.sub_0_r in Y2.
    set (co := i_ r / c_ r * c_ r) in *.
    assert (Hx : 0 < N.min (n_ r) (co + N.min (c_ r) (s_ r - co) - i_ r)) by (clearbody co; lia).
    apply (pos_absurd _ _ _ Hx HV0 Y2).
Qed.

(** If a carry of 1 never advances anything, the dimensions are [still]. *)
Lemma still_nec e rs : forall V, Forall dwf rs -> 1 < V ->
  (forall q, q + 1 < pn rs -> exists adv soff vis rest k F,
     adv_loop Debug e (mkrs V rs q) 1 adv soff = Ok (vis, rest, k, adv, F)) ->
  still rs = true.
Proof.
  induction rs as [|r rs IH]; intros V HF HV HQ; [reflexivity|].
  inversion HF as [|? ? Hr HF']; subst. pose proof Hr as (Hn & Hc & Hs & HW).
  pose proof (pn_pos rs HF') as Hpp. rewrite pnc in HQ.
  assert (Z1 : 0 mod n_ r = 0) by (apply N.mod_0_l; lia).
  assert (Z2 : 0 / n_ r = 0) by (apply N.div_0_l; lia).
  assert (HVc : 1 < V * c_ r) by nia.
  assert (HV0 : 0 < V) by lia. assert (HV1 : V <> 1) by lia.
  cbn [still]. destruct (N.eqb_spec (n_ r) 1) as [En|En].
  { destruct (thin r) eqn:Et.
    - apply (IH (V * c_ r) HF' HVc). intros q Hq.
      destruct (HQ q) as (adv & soff & vis & rest & k & F & H); [rewrite En; lia|].
      destruct (adv_pass_inv _ _ _ _ _ _ _ _ _ _ _ _ _ Hr HV0 (thin_clip r q Hr Et) HV1 H) as (vis' & H').
      rewrite En, N.mod_1_r, !N.div_1_r in H'. exists adv, soff, vis', rest, k, F. exact H'.
    - apply pn_one; auto. destruct (N.le_gt_cases (pn rs) 1) as [|Hgt]; auto. exfalso.
      destruct (HQ 0) as (adv & soff & vis & rest & k & F & H); [rewrite En; lia|].
      destruct (geom r 0 Hr) as (G1 & G2 & G3 & G4 & G5). cbv zeta in *. rewrite Z1, N.add_0_r in *.
      destruct (clip_not_pass r 0 V Hr) as [[P1 P2]|P].
      + rewrite Z1, N.add_0_r in P1. pose proof (not_thin_c r Et) as Ec.
        unfold thin in Et. apply N.eqb_neq in Ec. rewrite Ec in Et. apply N.eqb_neq in Ec. cbn [orb] in Et.
        assert (E1 : i_ r + 1 = s_ r) by lia.
        assert (E2 : i_ r mod c_ r = 0) by mlia.
        apply N.eqb_eq in E1, E2. rewrite E1, E2 in Et. discriminate.
      + destruct (adv_stop_inv _ _ _ _ _ _ _ _ _ _ _ _ _ Hr HF' HV0 P H) as (Y1 & Y2 & _).
        rewrite Z1, N.add_0_l, N.add_0_r, En in Y2. change (1 mod 1) with 0 in Y2. rewrite N.sub_0_r in Y2.
        set (co := i_ r / c_ r * c_ r) in *.
        assert (Hx : 0 < N.min 1 (co + N.min (c_ r) (s_ r - co) - i_ r)) by (clearbody co; lia).
        apply (pos_absurd _ _ _ Hx HV0 Y2). }
  assert (H1n : 0 + 1 < n_ r * pn rs) by nia.
  destruct (HQ 0 H1n) as (adv & soff & vis & rest & k & F & H).
  destruct (N.eqb_spec (c_ r) 1) as [Ec|Ec].
  { assert (Et : thin r = true) by (unfold thin; rewrite Ec; reflexivity).
    destruct (adv_pass_inv _ _ _ _ _ _ _ _ _ _ _ _ _ Hr HV0 (thin_clip r 0 Hr Et) HV1 H) as (vis' & H').
    rewrite Z1, Z2, N.add_0_l, N.div_small in H' by lia.
    exact (zero_thin _ _ _ _ _ _ _ _ _ HF' HVc H'). }
  destruct (geom r 0 Hr) as (G1 & G2 & G3 & G4 & G5). cbv zeta in *. rewrite Z1, N.add_0_r in *.
  assert (P : N.min (c_ r) (s_ r - (i_ r + 0 mod n_ r) / c_ r * c_ r) <> 1 \/ V = 1).
  { left. intros E. rewrite Z1, N.add_0_r in E. lia. }
  destruct (adv_stop_inv _ _ _ _ _ _ _ _ _ _ _ _ _ Hr HF' HV0 P H) as (Y1 & Y2 & _).
  rewrite Z1, N.add_0_l, N.add_0_r, N.mod_small in Y1, Y2 by lia.
  assert (Hd0 : forall x, adv + x * V <= adv -> x = 0).
  { intros x Hx. destruct (N.eq_dec x 0); auto. exfalso. apply (pos_absurd x V adv); auto. lia. }
  apply Hd0 in Y2.
  set (co := i_ r / c_ r * c_ r) in *.
  assert (Hco : co + c_ r = i_ r + 1) by (clearbody co; lia).
  assert (Him : i_ r mod c_ r = c_ r - 1) by (clear - Hco G5 Hc; mlia).
  assert (Hi1 : (i_ r + 1) / c_ r * c_ r = i_ r + 1).
  { rewrite <- Hco. unfold co. replace (i_ r / c_ r * c_ r + c_ r) with ((i_ r / c_ r + 1) * c_ r) by lia.
    rewrite N.div_mul by lia. reflexivity. }
  assert (H1m : 1 mod n_ r = 1) by (apply N.mod_small; lia).
  assert (H1d : 1 / n_ r = 0) by (apply N.div_small; lia).
  assert (En2 : n_ r = 2).
  { destruct (N.eq_dec (n_ r) 2) as [|E2]; auto. exfalso.
    destruct (HQ 1) as (adv1 & soff1 & vis1 & rest1 & k1 & F1 & H'); [nia|].
    assert (P' : N.min (c_ r) (s_ r - (i_ r + 1 mod n_ r) / c_ r * c_ r) <> 1 \/ V = 1).
    { left. rewrite H1m, Hi1. lia. }
    destruct (adv_stop_inv _ _ _ _ _ _ _ _ _ _ _ _ _ Hr HF' HV0 P' H') as (X1 & X2 & _).
    rewrite H1m, Hi1 in X2. change (1 + 1) with 2 in X2. rewrite (N.mod_small 2) in X2 by lia.
    assert (Hx : 0 < N.min (n_ r) (i_ r + 1 + N.min (c_ r) (s_ r - (i_ r + 1)) - i_ r) - 2)
      by (clear - En E2 Hn Ec Hc Hs; lia).
    apply (pos_absurd _ _ _ Hx HV0 X2). }
  rewrite En2, Him, !N.eqb_refl. cbn [andb].
  destruct (ones rs) eqn:Eo; [reflexivity|]. cbn [orb].
  assert (Hp2 : 1 < pn rs).
  { destruct (N.le_gt_cases (pn rs) 1) as [Hle|]; auto. apply pn_one in Hle; auto. congruence. }
  rewrite En2 in *.
  assert (Hstep : forall q, q + 1 < pn rs -> i_ r + 2 = s_ r /\
     exists adv soff vis rest k F, adv_loop Debug e (mkrs (V * c_ r) rs q) 1 adv soff = Ok (vis, rest, k, adv, F)).
  { intros q Hq. destruct (HQ (2 * q + 1)) as (adv1 & soff1 & vis1 & rest1 & k1 & F1 & H'); [lia|].
    assert (D1 : (2 * q + 1) mod n_ r = 1) by (rewrite En2; apply (mod_unique_N _ _ q); lia).
    assert (D2 : (2 * q + 1) / n_ r = q) by (rewrite En2; apply (div_unique_N _ _ _ 1); lia).
    destruct (clip_not_pass r (2 * q + 1) V Hr) as [[P1 P2]|P'].
    - destruct (adv_pass_inv _ _ _ _ _ _ _ _ _ _ _ _ _ Hr HV0 P1 P2 H') as (vis' & H2).
      rewrite D1, D2, En2 in H2. change ((1 + 1) / 2) with 1 in H2.
      rewrite D1, Hi1 in P1. split; [lia|]. exists adv1, soff1, vis', rest1, k1, F1. exact H2.
    - exfalso. destruct (adv_stop_inv _ _ _ _ _ _ _ _ _ _ _ _ _ Hr HF' HV0 P' H') as (X1 & X2 & _).
      rewrite D1, Hi1, En2 in X2. change ((1 + 1) mod 2) with 0 in X2. rewrite N.sub_0_r in X2.
      assert (Hx : 0 < N.min 2 (i_ r + 1 + N.min (c_ r) (s_ r - (i_ r + 1)) - i_ r))
        by (clear - Hc Hs En2; lia).
      apply (pos_absurd _ _ _ Hx HV0 X2). }
  destruct (Hstep 0) as [E1 _]; [lia|]. rewrite E1, N.eqb_refl. cbn [andb].
  apply (IH (V * c_ r) HF' HVc). intros q Hq. apply Hstep. auto.
Qed.

(** ** Blocks *)
Lemma same_block rs : Forall dwf rs -> sameplace rs 0 (pn rs) -> block rs = true.
Proof.
  induction 1 as [|r rs Hr HF IH]; intros S; [reflexivity|].
  pose proof Hr as (Hn & Hc & Hs & HW). pose proof (pn_pos rs HF) as Hpp. rewrite pnc in S.
  assert (Z1 : 0 mod n_ r = 0) by (apply N.mod_0_l; lia).
  assert (Z2 : 0 / n_ r = 0) by (apply N.div_0_l; lia).
  cbn [block]. destruct (exact r) eqn:Hx.
  - destruct (exact_iff r Hx) as [Hi Hnc].
    assert (Hsg : single r = true).
    { unfold single, last_chunk. apply N.eqb_eq. rewrite Hnc.
      pose proof (divmod_eq (i_ r) (c_ r) ltac:(lia)) as E. rewrite Hi in E.
      symmetry. apply (div_unique_N _ _ _ (c_ r - 1)); mlia. }
    rewrite Hsg. cbn [andb]. rewrite IH; [apply orb_true_r|].
    pose proof (same_exact_inv r rs 0 (pn rs) _ Hr Hx Z1 S) as S'. rewrite Z2 in S'. apply S'.
    intros j Hj. rewrite Hnc. apply N.mul_lt_mono_pos_l; auto.
  - destruct (same_row_inv r rs 0 _ Hr Hx S) as [R1 R2]. rewrite Z1, N.add_0_l in R1. rewrite Z1, N.add_0_r in R2.
    assert (Hp1 : pn rs <= 1).
    { destruct (N.le_gt_cases (pn rs) 1); auto. nia. }
    rewrite (pn_one rs HF Hp1). rewrite orb_true_l, andb_true_r.
    unfold single, last_chunk. apply N.eqb_eq.
    pose proof (divmod_eq (i_ r) (c_ r) ltac:(lia)) as E.
    assert (n_ r <= n_ r * pn rs) by (apply le_mul_pos; lia).
    symmetry. apply (div_unique_N _ _ _ (i_ r mod c_ r + (n_ r - 1))); mlia.
Qed.

(** ** Every step right: the selection is safe *)

(** Every step from the start of a run is right. *)
Definition all_steps (e t V : N) (rs : list dim) : Prop :=
  forall q, bnd rs q -> q + t <= pn rs ->
    (q + t < pn rs -> exists a, stepw e t V rs q a) /\ (q + t = pn rs -> sameplace rs q t).

Lemma all_same e t V rs q : Forall dwf rs -> 0 < V -> all_steps e t V rs -> bnd rs q -> q + t <= pn rs ->
  sameplace rs q t.
Proof.
  intros HF HV HP Hb Hq. destruct (HP q Hb Hq) as [H1 H2].
  destruct (N.lt_ge_cases (q + t) (pn rs)) as [Hlt|Hge].
  - destruct (H1 Hlt) as [a Ha]. pose proof (step_ge _ _ _ _ _ _ HF HV Ha).
    destruct Ha as (_ & _ & _ & _ & S & _). apply (sameplace_le _ _ _ a); auto.
  - apply H2. lia.
Qed.

Lemma single_exact r : 0 < c_ r -> exact r = true -> single r = true.
Proof.
  intros Hc Hx. destruct (exact_iff r Hx) as [H H0]. unfold single, last_chunk. apply N.eqb_eq.
  pose proof (divmod_eq (i_ r) (c_ r) ltac:(lia)) as E. rewrite H in E. rewrite H0.
  symmetry. apply (div_unique_N _ _ _ (c_ r - 1)); lia.
Qed.

(** Outside one chunk, the first chunk touched ends inside the selection. *)
Lemma not_single r : dwf r -> single r = false -> c_ r - i_ r mod c_ r < n_ r.
Proof.
  intros (Hn & Hc & Hs & HW) H. unfold single, last_chunk in H. btrue.
  assert (L : i_ r mod c_ r < c_ r) by (apply N.mod_lt; lia).
  pose proof (divmod_eq (i_ r) (c_ r) ltac:(lia)) as E.
  destruct (N.lt_ge_cases (c_ r - i_ r mod c_ r) (n_ r)) as [|Hge]; auto. exfalso. apply H. symmetry.
  apply (div_unique_N _ _ _ (i_ r mod c_ r + (n_ r - 1))); mlia.
Qed.

Lemma portion_facts r : dwf r ->
  1 <= portion r /\ portion r <= n_ r /\
  (i_ r + (n_ r - portion r)) / c_ r = last_chunk r /\
  (portion r = n_ r \/ (i_ r + (n_ r - portion r)) mod c_ r = 0) /\
  (single r = true -> portion r = n_ r).
Proof.
  intros (Hn & Hc & Hs & HW). unfold portion.
  pose proof (divmod_eq (i_ r + n_ r - 1) (c_ r) ltac:(lia)) as E. fold (last_chunk r) in E.
  assert (L : (i_ r + n_ r - 1) mod c_ r < c_ r) by (apply N.mod_lt; lia).
  pose proof (divmod_eq (i_ r) (c_ r) ltac:(lia)) as E0.
  assert (L0 : i_ r mod c_ r < c_ r) by (apply N.mod_lt; lia).
  assert (Hl : last_chunk r * c_ r <= i_ r + n_ r - 1) by mlia.
  split; [lia|]. split; [lia|].
  destruct (N.le_gt_cases (i_ r) (last_chunk r * c_ r)) as [Hle|Hgt].
  - rewrite N.max_r by auto.
    replace (i_ r + (n_ r - (i_ r + n_ r - last_chunk r * c_ r))) with (last_chunk r * c_ r) by lia.
    rewrite N.div_mul, N.mod_mul by lia. split; [reflexivity|]. split; [auto|].
    unfold single. intros Hsg. btrue. rewrite Hsg in E0. clear - E0 Hle Hn. mlia.
  - rewrite N.max_l by lia. replace (i_ r + (n_ r - (i_ r + n_ r - i_ r))) with (i_ r) by lia.
    split.
    { symmetry. apply N.le_antisymm.
      - destruct (N.le_gt_cases (last_chunk r) (i_ r / c_ r)) as [|Hg]; auto.
        assert ((i_ r / c_ r + 1) * c_ r <= last_chunk r * c_ r) by (apply N.mul_le_mono_r; mlia). mlia.
      - unfold last_chunk. apply N.div_le_mono; lia. }
    split; [left; lia|]. intros; lia.
Qed.

Lemma safe_nec e rs : forall t V,
  Forall dwf rs -> (t = 0 -> V = 1) -> 0 < V -> e = V * pn rs -> e < W64 -> t <= pn rs ->
  all_steps e t V rs -> safe t V rs = true.
Proof.
  induction rs as [|r rs IH]; intros t V HF HtV HV He HeW Ht HP; [reflexivity|].
  inversion HF as [|? ? Hr HF']; subst x l. pose proof Hr as (Hn & Hc & Hs & HW).
  pose proof (pn_pos rs HF') as Hpp.
  assert (Z1 : 0 mod n_ r = 0) by (apply N.mod_0_l; lia).
  assert (Z2 : 0 / n_ r = 0) by (apply N.div_0_l; lia).
  cbn [safe]. destruct (N.leb_spec (pn (r :: rs)) t) as [Hle|Hlt].
  { assert (t = pn (r :: rs)) by lia. subst t. apply same_block; auto.
    apply (all_same e (pn (r :: rs)) V); auto; solve [apply bnd_zero; auto | lia]. }
  assert (HA : single r || (t <=? c_ r - i_ r mod c_ r) = true).
  { destruct (exact r) eqn:Hx; [rewrite single_exact; auto|].
    assert (S : sameplace (r :: rs) 0 t) by (apply (all_same e t V); auto; solve [apply bnd_zero; auto | lia]).
    destruct (same_row_inv r rs 0 t Hr Hx S) as [_ R]. rewrite Z1, N.add_0_r in R.
    apply orb_true_iff. right. apply N.leb_le. mlia. }
  rewrite HA. cbn [negb].
  assert (Hz : single r = false -> t <= c_ r - i_ r mod c_ r /\ t < n_ r).
  { intros E. rewrite E in HA. cbn [orb] in HA. btrue. pose proof (not_single r Hr E). mlia. }
  assert (Hmul : forall q', q' < pn rs -> n_ r * q' + n_ r <= pn (r :: rs)).
  { intros q' Hq'. rewrite pnc. apply row_end; lia. }
  assert (Hdm : forall q' o, o < n_ r -> (n_ r * q' + o) mod n_ r = o /\ (n_ r * q' + o) / n_ r = q').
  { intros q' o Ho. split; [apply (mod_unique_N _ _ q'); lia|apply (div_unique_N _ _ _ o); lia]. }
  assert (HT1 : V <> 1 -> 1 <= t) by (intros HV1; destruct (N.eq_dec t 0); [exfalso; auto|lia]).
  destruct (negb (V =? 1) && thin r) eqn:Et.
  { apply andb_true_iff in Et as [EV Eth]. btrue. specialize (HT1 EV).
    destruct (N.eqb_spec (c_ r) 1) as [Ec|Ec].
    - destruct (N.eqb_spec (n_ r) 1) as [En|En].
      + assert (Hx : exact r = true) by (unfold exact; rewrite Ec, En, N.mod_1_r; reflexivity).
        rewrite pnc, En, N.mul_1_l in *.
        apply IH; auto. intros q Hb Hq.
        assert (Hb' : bnd (r :: rs) q).
        { cbn [bnd]. rewrite Hx, En, N.mod_1_r, N.div_1_r. auto. }
        destruct (HP q Hb') as [H1 H2]; [rewrite pnc, En, N.mul_1_l; auto|].
        rewrite pnc, En, N.mul_1_l in H1, H2. split.
        * intros Hq1. destruct (H1 Hq1) as [a Ha]. exists a. apply (stepw_pass1 e t V r); auto.
        * intros Hq1. pose proof (H2 Hq1) as S.
          assert (Hz0 : q mod n_ r = 0) by (rewrite En; apply N.mod_1_r).
          pose proof (same_exact_inv r rs q t t Hr Hx Hz0 S) as S'.
          rewrite En, N.div_1_r in S'. apply S'. intros j Hj. rewrite Ec. lia.
      + assert (Hx : exact r = false).
        { destruct (exact r) eqn:Hx; auto. apply exact_iff in Hx. lia. }
        destruct (HP 0 (bnd_zero _ HF)) as [H1 _]; [lia|]. destruct (H1 ltac:(lia)) as [a Ha].
        pose proof (step_ge _ _ _ _ _ _ HF HV Ha) as Hge.
        destruct Ha as (vis & rest & k & H & S & _).
        destruct (same_row_inv r rs 0 a Hr Hx S) as [_ R]. rewrite Z1, N.add_0_r, Ec, N.mod_1_r in R.
        assert (a = 1 /\ t = 1) as [-> ->] by lia.
        destruct (adv_pass_inv _ _ _ _ _ _ _ _ _ _ _ _ _ Hr HV (thin_clip r 0 Hr Eth) EV H) as (vis' & H').
        rewrite Z1, Z2, N.add_0_l, (N.div_small 1) in H' by lia.
        apply (zero_thin _ _ (V * c_ r) (1 * V) _ _ _ _ _ HF' ltac:(nia) H').
    - assert (En : n_ r = 1).
      { unfold thin in Eth. apply N.eqb_neq in Ec. rewrite Ec in Eth. cbn [orb] in Eth. btrue. lia. }
      assert (Hx : exact r = false).
      { destruct (exact r) eqn:Hx; auto. apply exact_iff in Hx. lia. }
      assert (Hb : forall q, bnd (r :: rs) q).
      { intros q. cbn [bnd]. rewrite Hx. left. rewrite En. apply N.mod_1_r. }
      assert (Ha1 : forall q a, sameplace (r :: rs) q a -> a <= 1).
      { intros q a S. destruct (same_row_inv r rs q a Hr Hx S) as [R _]. rewrite En, N.mod_1_r in R. lia. }
      assert (Ht1 : t <= 1).
      { apply (Ha1 0). apply (all_same e t V); auto. }
      apply N.leb_le in Ht1. rewrite Ht1. apply N.leb_le in Ht1. cbn [andb].
      assert (t = 1) by lia. subst t.
      apply (still_nec e rs (V * c_ r)); auto; [nia|]. intros q Hq.
      destruct (HP q (Hb q)) as [H1 _]; [rewrite pnc, En; lia|].
      destruct H1 as [a Ha]; [rewrite pnc, En; lia|].
      pose proof (step_ge _ _ _ _ _ _ HF HV Ha) as Hge.
      destruct Ha as (vis & rest & k & H & S & _). specialize (Ha1 q a S).
      assert (a = 1) by lia. subst a.
      destruct (adv_pass_inv _ _ _ _ _ _ _ _ _ _ _ _ _ Hr HV (thin_clip r q Hr Eth) EV H) as (vis' & H').
      rewrite En, N.mod_1_r, !N.div_1_r in H'. exists (1 * V), ((q + 1) * V), vis', rest, k, ((q + 1) * V). exact H'. }
  destruct (exact r) eqn:Hx.
  { destruct (exact_iff r Hx) as [Hi Hnc].
    assert (Hnp : V = 1 \/ c_ r <> 1).
    { destruct (N.eq_dec V 1) as [|EV]; [auto|right].
      apply N.eqb_neq in EV. rewrite EV in Et. now apply not_thin_c. }
    assert (Htc : t < n_ r * (t / c_ r + 1)).
    { rewrite Hnc. pose proof (divmod_eq t (c_ r) ltac:(lia)).
      assert (t mod c_ r < c_ r) by (apply N.mod_lt; lia). mlia. }
    apply IH; auto.
    - mlia.
    - apply N.mul_pos_pos; auto.
    - rewrite He, pnc, Hnc. lia.
    - rewrite <- (N.add_0_l (t / c_ r + 1)). apply (exact_rows r); auto. rewrite N.mul_0_r, N.add_0_l, <- pnc. auto.
    - intros q' Hb Hq'.
      destruct (Hdm q' 0 Hn) as [D1 D2]. rewrite N.add_0_r in D1, D2.
      assert (Hb' : bnd (r :: rs) (n_ r * q')).
      { cbn [bnd]. rewrite Hx, D1, D2. auto. }
      assert (Hlt' : n_ r * q' + t < pn (r :: rs)).
      { rewrite pnc. assert (n_ r * (q' + (t / c_ r + 1)) <= n_ r * pn rs) by (apply N.mul_le_mono_l; auto).
        rewrite N.mul_add_distr_l in H. mlia. }
      destruct (HP (n_ r * q') Hb') as [H1 _]; [lia|]. destruct (H1 Hlt') as [a Ha].
      destruct (stepw_exact e t V r rs (n_ r * q') a) as (_ & a' & _ & X1 & X2); auto.
      rewrite D2 in X1, X2. split.
      + intros Hl. exists a'. auto.
      + intros He'. destruct (X2 He') as [_ S]. exact S. }
  assert (Hcthin : V <> 1 -> c_ r <> 1).
  { intros EV. apply N.eqb_neq in EV. rewrite EV in Et. now apply not_thin_c. }
  destruct (portion_facts r Hr) as (F1 & F2 & F3 & F4 & F5).
  set (o := n_ r - portion r) in *.
  assert (Hbo : forall q', bnd (r :: rs) (n_ r * q' + o)).
  { intros q'. cbn [bnd]. rewrite Hx. unfold runstart. destruct (Hdm q' o ltac:(unfold o; lia)) as [-> _].
    destruct F4 as [F4|F4]; [left; unfold o; lia|right; exact F4]. }
  assert (Hrun : forall q' a, sameplace (r :: rs) (n_ r * q' + o) a -> a <= portion r).
  { intros q' a S. destruct (same_row_inv r rs _ a Hr Hx S) as [R _].
    destruct (Hdm q' o ltac:(unfold o; lia)) as [D1 _]. rewrite D1 in R. unfold o in R. lia. }
  assert (Hot : ones rs = false -> o + t < pn (r :: rs)).
  { intros E. assert (1 < pn rs).
    { destruct (N.le_gt_cases (pn rs) 1) as [H|]; auto. apply pn_one in H; auto. congruence. }
    assert (2 * n_ r <= pn (r :: rs)) by (rewrite pnc; nia).
    destruct (single r) eqn:Es.
    - specialize (F5 eq_refl). unfold o. lia.
    - destruct (Hz eq_refl). unfold o. lia. }
  (* what a step at [o] gives *)
  assert (Hsto : forall q', n_ r * q' + o + t < pn (r :: rs) ->
     exists a, stepw e t V (r :: rs) (n_ r * q' + o) a /\ t <= a /\ a <= portion r).
  { intros q' Hq'. destruct (HP _ (Hbo q')) as [H1 _]; [lia|]. destruct (H1 Hq') as [a Ha].
    exists a. split; [auto|]. split; [apply (step_ge _ _ _ _ _ _ HF HV Ha)|].
    destruct Ha as (_ & _ & _ & _ & S & _). apply (Hrun q' a S). }
  destruct (negb (V =? 1) && (N.min (c_ r) (s_ r - last_chunk r * c_ r) =? 1)) eqn:E4.
  { btrue. specialize (Hcthin H). specialize (HT1 H).
    assert (Hp1 : portion r = 1).
    { assert (last_chunk r * c_ r <= i_ r + n_ r - 1).
      { unfold last_chunk. rewrite N.mul_comm. apply N.mul_div_le. lia. }
      unfold portion. lia. }
    destruct (ones rs) eqn:Eo.
    { rewrite orb_true_r. cbn [andb]. apply ones_still. auto. }
    specialize (Hot eq_refl).
    destruct (Hsto 0) as (a0 & _ & A1 & A2); [lia|].
    assert (t = 1) by lia. subst t.
    change (1 <=? 1) with true. cbn [orb andb].
    apply (still_nec e rs (V * c_ r)); auto; [nia|]. intros q' Hq'.
    destruct (Hsto q') as (a & Ha & B1 & B2).
    { assert (n_ r * (q' + 1) < n_ r * pn rs) by (apply N.mul_lt_mono_pos_l; auto).
      rewrite N.mul_add_distr_l in H1. rewrite pnc. unfold o. lia. }
    assert (a = 1) by lia. subst a. destruct Ha as (vis & rest & k & Hl & _).
    destruct (Hdm q' o ltac:(unfold o; lia)) as [D1 D2].
    assert (P1 : N.min (c_ r) (s_ r - (i_ r + (n_ r * q' + o) mod n_ r) / c_ r * c_ r) = 1).
    { rewrite D1, F3. exact H0. }
    destruct (adv_pass_inv _ _ _ _ _ _ _ _ _ _ _ _ _ Hr HV P1 H Hl) as (vis' & H').
    rewrite D1, D2 in H'.
    replace ((o + 1) / n_ r) with 1 in H'.
    2:{ unfold o. rewrite Hp1. replace (n_ r - 1 + 1) with (n_ r) by lia. symmetry. apply N.div_same. lia. }
    do 6 eexists. exact H'. }
  assert (Hnp : forall q, (i_ r + q mod n_ r) / c_ r = last_chunk r ->
     N.min (c_ r) (s_ r - (i_ r + q mod n_ r) / c_ r * c_ r) <> 1 \/ V = 1).
  { intros q Eq. rewrite Eq. destruct (N.eq_dec V 1) as [|EV]; [auto|left]. intros E.
    apply N.eqb_neq in EV. rewrite EV, E in E4. discriminate. }
  destruct (negb (ones rs) && (portion r <=? t)) eqn:E5.
  { exfalso. btrue. specialize (Hot H).
    destruct (Hsto 0) as (a & Ha & A1 & A2); [lia|].
    assert (Ett : t = portion r) by lia. assert (a = t) by lia. subst a.
    destruct Ha as (vis & rest & k & Hl & _).
    destruct (Hdm 0 o ltac:(unfold o; lia)) as [D1 D2].
    assert (P : N.min (c_ r) (s_ r - (i_ r + (n_ r * 0 + o) mod n_ r) / c_ r * c_ r) <> 1 \/ V = 1).
    { apply Hnp. rewrite D1. exact F3. }
    destruct (geom r (n_ r * 0 + o) Hr) as (G1 & G2 & G3 & G4 & G5). cbv zeta in *.
    destruct (adv_stop_inv _ _ _ _ _ _ _ _ _ _ _ _ _ Hr HF' HV P Hl) as (Y1 & Y2 & _).
    rewrite D1 in *. rewrite Ett in Y2 at 2.
    replace (o + portion r) with (n_ r) in Y2 by (unfold o; lia).
    rewrite N.mod_same, N.sub_0_r in Y2 by lia.
    refine (pos_absurd _ _ _ _ HV Y2).
    clear - G2 G3 G4 G1 Hc Hn. set (co := (i_ r + o) / c_ r * c_ r) in *. clearbody co. lia. }
  destruct (clipped r) eqn:Ecl; [|reflexivity].
  unfold clipped in Ecl. btrue.
  assert (Hsg : single r = true).
  { unfold single, last_chunk. apply N.eqb_eq.
    pose proof (divmod_eq (i_ r) (c_ r) ltac:(lia)) as E. rewrite H in E.
    symmetry. apply (div_unique_N _ _ _ (n_ r - 1)); lia. }
  specialize (F5 Hsg). assert (Eo0 : o = 0) by (unfold o; lia).
  destruct (ones rs) eqn:Eo; [apply ones_still; auto|]. cbn [negb andb] in E5. btrue.
  assert (Hc1 : 1 < c_ r) by lia.
  apply (still_nec e rs (V * c_ r)); auto; [nia|]. intros q' Hq'.
  assert (Hqn : n_ r * q' + n_ r < pn (r :: rs)).
  { assert (n_ r * (q' + 1) < n_ r * pn rs) by (apply N.mul_lt_mono_pos_l; auto).
    rewrite N.mul_add_distr_l in H2. rewrite pnc. lia. }
  destruct (Hsto q') as (a & Ha & B1 & B2); [lia|].
  destruct Ha as (vis & rest & k & Hl & _).
  destruct (Hdm q' o ltac:(unfold o; lia)) as [D1 D2].
  assert (P : N.min (c_ r) (s_ r - (i_ r + (n_ r * q' + o) mod n_ r) / c_ r * c_ r) <> 1 \/ V = 1).
  { apply Hnp. rewrite D1. exact F3. }
  destruct (adv_stop_inv _ _ _ _ _ _ _ _ _ _ _ _ _ Hr HF' HV P Hl) as (Y1 & Y2 & Y3).
  rewrite D1, D2, Eo0, N.add_0_r, N.add_0_l, N.add_0_r in *.
  assert (Hco : i_ r / c_ r * c_ r = i_ r).
  { pose proof (divmod_eq (i_ r) (c_ r) ltac:(lia)) as E. rewrite H in E. mlia. }
  rewrite Hco in *.
  assert (Hmin : N.min (c_ r) (s_ r - i_ r) = n_ r) by lia.
  rewrite Hmin in *. replace (i_ r + n_ r - i_ r) with (n_ r) in * by lia.
  rewrite N.min_id in *. rewrite (N.mod_small t), (N.div_small t), N.div_same in * by lia.
  assert (EA : t * V + (n_ r - t) * V = n_ r * V) by (rewrite <- N.mul_add_distr_r; f_equal; lia).
  assert (EF : (n_ r * q' + t) * V + (n_ r - t) * V = (n_ r * q' + n_ r) * V) by (rewrite <- N.mul_add_distr_r; f_equal; lia).
  rewrite EA, EF in *. rewrite !N.eqb_refl in Y3. cbn [andb] in Y3.
  destruct Y3 as [vis' Y3].
  { apply N.ltb_lt. rewrite He, (N.mul_comm V). apply N.mul_lt_mono_pos_r; auto. }
  apply N.mul_le_mono_pos_r in Y2; auto. assert (a = n_ r) by lia. subst a.
  do 6 eexists. exact Y3.
Qed.
