(** * SlicerKill: selections a build without debug assertions never gets right, whatever the
    wrapping subtractions of [ChunkSlicer::next] (dataset.rs 586-589) make of its offset.

    Such a selection ends with dimensions of which it takes exactly one chunk, by which more
    rows are accounted for than the next dimension can take in.  The run of its last rows is
    then never handed out. *)
From Verif Require Import Base Spec SpecApi Radix Safe Chunk Extent Dataset Slicer Filters SpecFilter Reader SpecReader
  SlicerProofs SlicerStep ChunkProofs DatasetProofs SlicerMain SlicerTheorems SlicerExact SlicerExact2 SlicerExact3 SlicerRelease
  SlicerRelease2 DirectProofs SlicerFill.

Local Arguments N.add : simpl never.
Local Arguments N.sub : simpl never.
Local Arguments N.mul : simpl never.
Local Arguments N.div : simpl never.
Local Arguments N.modulo : simpl never.
Local Arguments N.min : simpl never.
Local Arguments N.max : simpl never.

Fixpoint killer (t V : N) (rs : list dim) : bool :=
  match rs with
  | [] => false
  | r :: rs' =>
      if pn (r :: rs') <=? t then false
      else if exact r then
        if (c_ r =? 1) && negb (V =? 1) then killer t V rs' else killer (t / c_ r + 1) (V * c_ r) rs'
      else (clipped r && (n_ r <=? t) && ((V =? 1) || negb (n_ r =? 1) || (2 <=? t)))
           || (negb (V =? 1) && (c_ r =? 1) && (2 <=? t))
  end.

(** The run length, in units of the level. *)
Fixpoint kg (rs : list dim) : N :=
  match rs with
  | [] => 1
  | r :: rs' => if exact r then n_ r * kg rs' else if clipped r then n_ r else 1
  end.

(** Coordinates of a run start of such a selection. *)
Fixpoint zl (rs : list dim) (l : list N) : Prop :=
  match rs, l with
  | [], _ => True
  | r :: rs', x :: l' => if exact r then x = 0 /\ zl rs' l' else if clipped r then x = 0 else True
  | _ :: _, [] => False
  end.

Lemma span_len V rs : Forall dwf rs -> 0 < V -> N.of_nat (length rs) <= span V rs.
Proof.
  intros HF; revert V; induction HF as [|r rs Hr HF IH]; intros V HV; cbn [length span]; [lia|].
  pose proof Hr as (Hn & Hc & _). specialize (IH (V * c_ r) ltac:(apply N.mul_pos_pos; auto)).
  assert (0 < n_ r * V) by (apply N.mul_pos_pos; auto). lia.
Qed.

(** From the last rows of a selection the loop only moves on. *)
Lemma last_rows e rs : forall V q k adv soff vis rest k' A F,
  Forall dwf rs -> 0 < V -> q + 1 = pn rs -> k + pn rs + N.of_nat (length rs) < W64 ->
  adv + span V rs < W64 -> soff + span V rs < W64 ->
  adv_loop Release e (mkrs V rs q) k adv soff = Ok (vis, rest, k', A, F) ->
  adv <= A /\ A <= adv + span V rs.
Proof.
  induction rs as [|r rs IH]; intros V q k adv soff vis rest k' A F HF HV Hq Hk HA HS H.
  { cbn [mkrs adv_loop] in H. injection H as <- <- <- <- <-. cbn [span]. lia. }
  inversion HF as [|? ? Hr HF']; subst x l. pose proof Hr as (Hn & Hc & Hs & HW).
  pose proof (pn_pos rs HF') as Hpp. rewrite pnc in *.
  assert (Em : q mod n_ r + 1 = n_ r /\ q / n_ r + 1 = pn rs).
  { assert (E : q = n_ r * (pn rs - 1) + (n_ r - 1)) by (rewrite N.mul_sub_distr_l; nia).
    rewrite (mod_unique_N q (n_ r) (pn rs - 1) (n_ r - 1)), (div_unique_N q (n_ r) (pn rs - 1) (n_ r - 1)) by lia. lia. }
  destruct Em as [Em Ed].
  assert (Hnp : n_ r <= n_ r * pn rs) by (apply le_mul_pos; lia).
  assert (Hpp2 : pn rs <= n_ r * pn rs) by (rewrite N.mul_comm; apply le_mul_pos; lia).
  assert (HVc : 0 < V * c_ r) by (apply N.mul_pos_pos; auto).
  cbn [span length] in *. rewrite Nat2N.inj_succ in Hk.
  destruct (geom r q Hr) as (G1 & G2 & G3 & G4 & G5). cbv zeta in *.
  rewrite adv_step in H by (auto; lia). cbv zeta in H.
  set (o := q mod n_ r) in *. set (co := (i_ r + o) / c_ r * c_ r) in *.
  set (c' := N.min (c_ r) (s_ r - co)) in *.
  assert (Hcy : (o + k) / n_ r <= k).
  { destruct (N.eq_dec k 0) as [->|Hk0].
    - rewrite N.add_0_r, N.div_small by lia. lia.
    - apply N.div_le_upper_bound; [lia|]. rewrite <- Em.
      assert (o * 1 <= o * k) by (apply N.mul_le_mono_l; lia). clearbody o. clear - H0. lia. }
  assert (Hcur : (o + k) mod n_ r < n_ r) by (apply N.mod_lt; lia).
  set (k1 := (o + k) / n_ r) in *. set (cur := (o + k) mod n_ r) in *. clearbody k1 cur.
  assert (Eo2 : N.min (n_ r) (co + c' - i_ r) = n_ r) by (unfold c'; clear G5; clearbody co o; lia).
  clear G5. clearbody c' co o.
  set (q1 := q / n_ r) in *. clearbody q1.
  set (sp := span (V * c_ r) rs) in *. set (L := N.of_nat (length rs)) in *.
  set (P := pn rs) in *. set (nP := n_ r * P) in *. clearbody nP.
  assert (Hk1 : k1 + 1 + P + L < W64) by (clear - Hk Hcy Hpp2; lia).
  destruct ((c' =? 1) && negb (V =? 1)).
  - destruct (adv_loop Release e (mkrs (V * c_ r) rs q1) k1 adv soff) as [[[[[v1 r1] k2] A1] F1]| | | |] eqn:E; try discriminate.
    cbn [bind] in H. injection H as <- <- <- <- <-.
    pose proof (fun a b c => IH _ _ _ _ _ _ _ _ _ _ HF' HVc Ed a b c E) as X. fold sp in X. clearbody sp P L.
    destruct X; lia.
  - rewrite Eo2 in H. rewrite N.div_same in H by lia.
    rewrite sub64_ok in H by lia. cbn [bind] in H.
    assert (Hd : (n_ r - cur) * V <= n_ r * V) by (apply N.mul_le_mono_r; lia).
    rewrite mul64_ok in H by lia. cbn [bind] in H.
    rewrite add64_ok in H by lia. cbn [bind] in H. rewrite add64_ok in H by lia. cbn [bind] in H.
    rewrite add64_ok in H by lia. cbn [bind] in H.
    set (dV := (n_ r - cur) * V) in *. clearbody dV.
    match type of H with (if ?b then _ else _) = _ => destruct b end.
    + destruct (adv_loop Release e (mkrs (V * c_ r) rs q1) (k1 + 1) (adv + dV) (soff + dV)) as [[[[[v1 r1] k2] A1] F1]| | | |] eqn:E; try discriminate.
      cbn [bind] in H. injection H as <- <- <- <- <-.
      pose proof (fun a b c => IH _ _ _ _ _ _ _ _ _ _ HF' HVc Ed a b c E) as X. fold sp in X. clearbody sp P L.
    destruct X; lia.
    + cbn [dbg bind] in H. injection H as <- <- <- <- <-. lia.
Qed.

Lemma clipped_at r q : dwf r -> clipped r = true -> q mod n_ r = 0 ->
  i_ r = (i_ r + q mod n_ r) / c_ r * c_ r /\ N.min (c_ r) (s_ r - i_ r) = n_ r /\ i_ r + n_ r = s_ r /\ n_ r < c_ r.
Proof.
  intros Hr H Hq. pose proof Hr as (Hn & Hc & Hs & HW). unfold clipped in H. btrue.
  rewrite Hq, N.add_0_r. pose proof (divmod_eq (i_ r) (c_ r) ltac:(lia)) as E. rewrite H, N.add_0_r in E.
  split; [lia|]. split; [clear - H0 H1 Hn Hc; lia|]. split; auto.
Qed.

Lemma carry_le o k n : o < n -> (o + k) / n <= k.
Proof.
  intros Ho. destruct (N.eq_dec k 0) as [->|Hk].
  - rewrite N.add_0_r, N.div_small by auto. lia.
  - apply N.div_le_upper_bound; [lia|]. assert (o * 1 <= o * k) by (apply N.mul_le_mono_l; lia).
    assert ((o + 1) * k <= n * k) by (apply N.mul_le_mono_r; lia). lia.
Qed.

Lemma mkrs_mod rs : Forall dwf rs -> forall V q, mkrs V rs (q mod pn rs) = mkrs V rs q.
Proof.
  induction 1 as [|r rs Hr HF IH]; intros V q; [reflexivity|]. cbn [mkrs]. rewrite pnc.
  pose proof Hr as (Hn & _). pose proof (pn_pos rs HF) as Hp.
  assert (E : (q mod (n_ r * pn rs)) mod n_ r = q mod n_ r /\ (q mod (n_ r * pn rs)) / n_ r = (q / n_ r) mod pn rs).
  { rewrite N.mod_mul_r by lia. assert (q mod n_ r < n_ r) by (apply N.mod_lt; lia).
    split; [apply (mod_unique_N _ _ ((q / n_ r) mod pn rs)); auto; lia|apply (div_unique_N _ _ _ (q mod n_ r)); auto; lia]. }
  destruct E as [-> ->]. now rewrite IH.
Qed.

Lemma kg_pos rs : Forall dwf rs -> 0 < kg rs.
Proof.
  induction 1 as [|r rs Hr HF IH]; cbn [kg]; [lia|]. destruct Hr as (Hn & _).
  destruct (exact r); [apply N.mul_pos_pos; auto|]. destruct (clipped r); lia.
Qed.

Lemma kill_step e rs : forall t V p s vis rest k' A F,
  Forall dwf rs -> killer t V rs = true -> 0 < V -> zl rs (dig (map n_ rs) p) ->
  s + t * V < e -> s + V * kg rs < e ->
  t + pn rs + N.of_nat (length rs) < W64 -> s + t * V + span V rs < W64 ->
  adv_loop Release e (mkrs V rs p) t (t * V) (s + t * V) = Ok (vis, rest, k', A, F) ->
  (V * kg rs < A /\ A <= t * V + span V rs) \/
  (s + 2 * (V * kg rs) < e /\ p mod pn rs + kg rs <> pn rs /\ forall os, zl rs (vis ++ os)).
Proof.
  induction rs as [|r rs IH]; intros t V p s vis rest k' A F HF HK HV HZ He HG Hk HS H; [discriminate|].
  inversion HF as [|? ? Hr HF']; subst x l. pose proof Hr as (Hn & Hc & Hs & HW).
  pose proof (pn_pos rs HF') as Hpp. pose proof (kg_pos rs HF') as Hkg.
  cbn [killer kg zl map dig] in HK, HG, HZ |- *. destruct (N.leb_spec (pn (r :: rs)) t) as [|Hlt]; [discriminate|].
  rewrite pnc in *. cbn [span length] in *. rewrite Nat2N.inj_succ in Hk.
  assert (Hnp : n_ r <= n_ r * pn rs) by (apply le_mul_pos; lia).
  assert (Hpp2 : pn rs <= n_ r * pn rs) by (rewrite N.mul_comm; apply le_mul_pos; lia).
  assert (HVc : 0 < V * c_ r) by (apply N.mul_pos_pos; auto).
  assert (Em : (p mod (n_ r * pn rs)) mod n_ r = p mod n_ r /\ (p mod (n_ r * pn rs)) / n_ r = (p / n_ r) mod pn rs).
  { rewrite N.mod_mul_r by lia. assert (p mod n_ r < n_ r) by (apply N.mod_lt; lia).
    split; [apply (mod_unique_N _ _ ((p / n_ r) mod pn rs)); auto; lia|apply (div_unique_N _ _ _ (p mod n_ r)); auto; lia]. }
  destruct Em as [Em1 Em2].
  assert (Hmo : p mod n_ r < n_ r) by (apply N.mod_lt; lia).
  assert (Epm : p mod (n_ r * pn rs) = n_ r * ((p / n_ r) mod pn rs) + p mod n_ r).
  { rewrite (divmod_eq (p mod (n_ r * pn rs)) (n_ r)) at 1 by lia. now rewrite Em1, Em2. }
  clear Em1 Em2.
  assert (Hpm : (p / n_ r) mod pn rs < pn rs) by (apply N.mod_lt; lia).
  destruct (exact r) eqn:Hx.
  - destruct HZ as [Hz1 Hz2]. rewrite Hz1, N.add_0_r in Epm.
    destruct (exact_iff r Hx) as [Hi Hnc].
    destruct ((c_ r =? 1) && negb (V =? 1)) eqn:Esk.
    + btrue. assert (En : n_ r = 1) by lia.
      assert (Et : thin r = true) by (unfold thin; rewrite H0; reflexivity).
      rewrite skip_step in H; auto; [|rewrite Hz1; lia|apply thin_clip; auto].
      rewrite Hz1, N.add_0_l, En, !N.div_1_r, N.mod_1_r, H0, N.mul_1_r in H.
      destruct (adv_loop Release e (mkrs V rs p) t (t * V) (s + t * V)) as [[[[[v1 r1] k2] A1] F1]| | | |] eqn:E; try discriminate.
      cbn [bind] in H. injection H as <- <- <- <- <-.
      rewrite En, N.mul_1_l in *. rewrite N.div_1_r in *. rewrite H0, N.mul_1_r in HS |- *.
      destruct (IH t V p s v1 r1 k2 A1 F1) as [[I1 I2]|(I1 & I2 & I3)]; auto; try (clear - Hk; lia); try (clear - HS; lia).
      * left. split; [auto|]. clear - I2. lia.
      * right. split; [auto|]. split; [rewrite !N.mul_1_l; auto|]. intros os. cbn [app]. auto.
    + assert (Hnp' : V = 1 \/ c_ r <> 1).
      { apply andb_false_iff in Esk as [E|E]; [right; now apply N.eqb_neq|left; btrue; auto]. }
      destruct (geom r p Hr) as (G1 & G2 & G3 & G4 & G5). cbv zeta in *.
      rewrite adv_step in H by (auto; rewrite Hz1; lia). cbv zeta in H. rewrite Hz1, N.add_0_r, N.add_0_l in H.
      pose proof (divmod_eq (i_ r) (c_ r) ltac:(lia)) as Ei. rewrite Hi, N.add_0_r in Ei.
      replace (i_ r / c_ r * c_ r) with (i_ r) in H by lia. clear G1 G2 G3 G4 G5.
      replace (N.min (c_ r) (s_ r - i_ r)) with (c_ r) in H by (clear - Hs Hnc; lia).
      replace ((c_ r =? 1) && negb (V =? 1)) with false in H.
      replace (i_ r + c_ r - i_ r) with (c_ r) in H by (clear; lia).
      rewrite Hnc in H. rewrite N.min_id, !N.eqb_refl in H. cbn [andb] in H.
      rewrite N.mod_same, N.div_same in H by lia.
      pose proof (divmod_eq t (c_ r) ltac:(lia)) as Et. assert (Htm : t mod c_ r < c_ r) by (apply N.mod_lt; lia).
      assert (Htd : t / c_ r <= t) by (apply div_le_self; lia).
      set (t0 := t mod c_ r) in *. set (t1 := t / c_ r) in *. clearbody t0 t1.
      rewrite sub64_ok in H by lia. cbn [bind] in H.
      assert (Edf : t + (c_ r - t0) = c_ r * (t1 + 1)) by (rewrite N.mul_add_distr_l; lia).
      assert (EA : t * V + (c_ r - t0) * V = (t1 + 1) * (V * c_ r)) by (rewrite <- N.mul_add_distr_r, Edf; lia).
      assert (Hd : (c_ r - t0) * V <= n_ r * V) by (apply N.mul_le_mono_r; lia).
      rewrite mul64_ok in H by (clear - Hd HS; lia). cbn [bind] in H.
      rewrite add64_ok in H by (clear - Hd HS; lia). cbn [bind] in H.
      rewrite add64_ok in H by (clear - Hd HS; lia). cbn [bind] in H.
      rewrite add64_ok in H by (clear - Htd Hk; lia). cbn [bind] in H.
      rewrite <- N.add_assoc, EA in H.
      assert (EG : V * (n_ r * kg rs) = V * c_ r * kg rs) by (rewrite Hnc; clear; lia).
      rewrite EG in *.
      assert (HSV : (t1 + 1) * (V * c_ r) <= t * V + n_ r * V) by (clear - EA Hd; lia).
      destruct (N.ltb_spec (s + (t1 + 1) * (V * c_ r)) e) as [Hlt1|Hge].
      * rewrite <- Hnc in H at 2. 
        destruct (adv_loop Release e (mkrs (V * c_ r) rs (p / n_ r)) (t1 + 1) ((t1 + 1) * (V * c_ r)) (s + (t1 + 1) * (V * c_ r))) as [[[[[v1 r1] k2] A1] F1]| | | |] eqn:E; try discriminate.
        cbn [bind] in H. injection H as <- <- <- <- <-.
        destruct (IH (t1 + 1) (V * c_ r) (p / n_ r) s v1 r1 k2 A1 F1) as [[I1 I2]|(I1 & I2 & I3)]; auto.
        { clear - Htd Hk Hpp2. lia. }
        { clear - HSV HS. lia. }
        -- left. split; [auto|]. clear - I2 HSV. lia.
        -- right. split; [auto|]. split; [|intros os; cbn [app]; auto].
           rewrite Epm. intros E0. apply I2. rewrite <- N.mul_add_distr_l in E0.
           apply N.mul_cancel_l in E0; [auto|lia].
      * cbn [dbg bind] in H. injection H as <- <- <- <- <-. left. clear - HG Hge HSV. lia.
  - destruct (clipped r) eqn:Ecl; cbn [andb orb] in HK.
    + rewrite HZ, N.add_0_r in Epm.
      destruct (clipped_at r p Hr Ecl HZ) as (Eco & Ec' & Ein & Hnc).
      assert (Hc1 : c_ r <> 1) by lia.
      assert (HK' : n_ r <= t /\ (V = 1 \/ n_ r <> 1 \/ 2 <= t)).
      { apply N.eqb_neq in Hc1. rewrite Hc1, andb_false_r in HK. cbn [andb] in HK. rewrite orb_false_r in HK.
        btrue. split; [auto|]. apply orb_true_iff in H1 as [H1|H1]; [apply orb_true_iff in H1 as [H1|H1]|]; btrue; auto. }
      clear HK. destruct HK' as [Hnt HK].
      assert (Hlast : forall k adv soff v1 r1 k2 A1 F1,
         n_ r * ((p / n_ r) mod pn rs) + n_ r = n_ r * pn rs ->
         k <= t + 1 -> adv <= t * V + n_ r * V -> soff = s + adv ->
         adv_loop Release e (mkrs (V * c_ r) rs (p / n_ r)) k adv soff = Ok (v1, r1, k2, A1, F1) ->
         adv <= A1 /\ A1 <= t * V + (n_ r * V + span (V * c_ r) rs)).
      { intros k adv soff v1 r1 k2 A1 F1 E0 Hk0 Ha Eso HL.
        assert (Hp1 : (p / n_ r) mod pn rs + 1 = pn rs).
        { apply (N.mul_cancel_l _ _ (n_ r)); [lia|]. rewrite N.mul_add_distr_l, N.mul_1_r. exact E0. }
        rewrite <- (mkrs_mod rs HF') in HL.
        pose proof (fun a b c => last_rows e rs _ _ _ _ _ _ _ _ _ _ HF' HVc Hp1 a b c HL) as X.
        set (sp := span (V * c_ r) rs) in *. clearbody sp. clear - X Hk0 Ha Eso HS Hk Hpp2.
        destruct X; lia. }
      destruct (N.eq_dec (n_ r) 1) as [En|En]; [destruct (N.eq_dec V 1) as [EV|EV]|].
      2:{ (* skipped *)
          assert (Ht2 : 2 <= t) by (destruct HK as [|[|]]; lia).
          rewrite skip_step in H; auto; [|rewrite HZ; lia|rewrite <- Eco, Ec'; auto].
          rewrite HZ, N.add_0_l in H.
          replace (t / n_ r) with t in H by (rewrite En; symmetry; apply N.div_1_r).
          replace (t mod n_ r) with 0 in H by (rewrite En; symmetry; apply N.mod_1_r).
          destruct (adv_loop Release e (mkrs (V * c_ r) rs (p / n_ r)) t (t * V) (s + t * V)) as [[[[[v1 r1] k2] A1] F1]| | | |] eqn:E; try discriminate.
          cbn [bind] in H. injection H as <- <- <- <- <-.
          assert (H2V : 2 * V <= t * V) by (apply N.mul_le_mono_r; auto).
          destruct (N.eq_dec (n_ r * ((p / n_ r) mod pn rs) + n_ r) (n_ r * pn rs)) as [E0|E0].
          - left. assert (L : t * V <= A1 /\ A1 <= t * V + (n_ r * V + span (V * c_ r) rs))
              by (apply (Hlast t (t * V) (s + t * V) v1 r1 k2 A1 F1); auto; apply N.le_add_r).
            destruct L as [L1 L2].
            split; [|auto]. rewrite En, N.mul_1_r. clear - L1 H2V HV. lia.
          - right. split; [rewrite En, N.mul_1_r; clear - He H2V; lia|]. split; [rewrite Epm; auto|]. intros os. reflexivity. }
      all: assert (Hns : (n_ r =? 1) && negb (V =? 1) = false) by
             (apply andb_false_iff; first [left; now apply N.eqb_neq|right; rewrite EV; reflexivity]).
      all: rewrite adv_step in H by (auto; rewrite HZ; lia); cbv zeta in H; rewrite <- Eco, Ec', Hns in H;
           rewrite HZ, N.add_0_l in H; replace (i_ r + n_ r - i_ r) with (n_ r) in H by (clear; lia);
           rewrite N.min_id, !N.eqb_refl in H; cbn [andb] in H; rewrite N.mod_same, N.div_same in H by lia.
      all: pose proof (divmod_eq t (n_ r) ltac:(lia)) as Et; assert (Htm : t mod n_ r < n_ r) by (apply N.mod_lt; lia);
           assert (Htd : t / n_ r <= t) by (apply div_le_self; lia);
           assert (Ht1 : 1 <= t / n_ r) by (apply N.div_le_lower_bound; lia).
      all: set (t0 := t mod n_ r) in *; set (t1 := t / n_ r) in *; clearbody t0 t1.
      all: rewrite sub64_ok in H by lia; cbn [bind] in H.
      all: assert (EA : t * V + (n_ r - t0) * V = (t1 + 1) * (V * n_ r)) by
            (rewrite <- N.mul_add_distr_r; replace (t + (n_ r - t0)) with (n_ r * (t1 + 1)) by (rewrite N.mul_add_distr_l; lia); lia);
           assert (Hd : (n_ r - t0) * V <= n_ r * V) by (apply N.mul_le_mono_r; lia);
           assert (H2 : 2 * (V * n_ r) <= (t1 + 1) * (V * n_ r)) by (apply N.mul_le_mono_r; lia);
           assert (HVn : 0 < V * n_ r) by (apply N.mul_pos_pos; auto).
      all: rewrite mul64_ok in H by (clear - Hd HS; lia); cbn [bind] in H;
           rewrite add64_ok in H by (clear - Hd HS; lia); cbn [bind] in H;
           rewrite add64_ok in H by (clear - Hd HS; lia); cbn [bind] in H;
           rewrite add64_ok in H by (clear - Htd Hk; lia); cbn [bind] in H;
           rewrite <- N.add_assoc, EA in H.
      all: assert (HB : (t1 + 1) * (V * n_ r) <= t * V + n_ r * V) by (clear - EA Hd; lia).
      all: set (A0 := (t1 + 1) * (V * n_ r)) in *; clearbody A0.
      all: destruct (N.ltb_spec (s + A0) e) as [Hlt1|Hge].
      2,4: (cbn [dbg bind] in H; injection H as <- <- <- <- <-; left; clear - H2 HVn HB; lia).
      all: destruct (adv_loop Release e (mkrs (V * c_ r) rs (p / n_ r)) (t1 + 1) A0 (s + A0)) as [[[[[v1 r1] k2] A1] F1]| | | |] eqn:E; try discriminate;
           cbn [bind] in H; injection H as <- <- <- <- <-.
      all: destruct (N.eq_dec (n_ r * ((p / n_ r) mod pn rs) + n_ r) (n_ r * pn rs)) as [E0|E0];
           [left; assert (L : A0 <= A1 /\ A1 <= t * V + (n_ r * V + span (V * c_ r) rs))
              by (apply (Hlast (t1 + 1) A0 (s + A0) v1 r1 k2 A1 F1); auto; clear - Htd; lia);
            destruct L as [L1 L2]; split; [clear - L1 H2 HVn; lia|auto]
           |right; split; [clear - Hlt1 H2; lia|]; split; [rewrite Epm; auto|]; intros os; reflexivity].
    + apply andb_true_iff in HK as [HK Ht2]. apply andb_true_iff in HK as [HV1 Hc1]. btrue.
      assert (Et : thin r = true) by (unfold thin; rewrite Hc1; reflexivity).
      rewrite N.mul_1_r in *.
      rewrite skip_step in H; auto; [|clear - Hmo Hk Hnp; lia|apply thin_clip; auto].
      destruct (adv_loop Release e (mkrs (V * c_ r) rs (p / n_ r)) _ (t * V) (s + t * V)) as [[[[[v1 r1] k2] A1] F1]| | | |] eqn:E; try discriminate.
      cbn [bind] in H. injection H as <- <- <- <- <-.
      assert (H2V : 2 * V <= t * V) by (apply N.mul_le_mono_r; auto).
      destruct (N.eq_dec (n_ r * ((p / n_ r) mod pn rs) + p mod n_ r + 1) (n_ r * pn rs)) as [E0|E0].
      * left.
        assert (Hp1 : (p / n_ r) mod pn rs + 1 = pn rs).
        { destruct (N.eq_dec ((p / n_ r) mod pn rs + 1) (pn rs)) as [|Hne]; [auto|exfalso].
          assert (Hm : n_ r * ((p / n_ r) mod pn rs + 2) <= n_ r * pn rs) by (apply N.mul_le_mono_l; lia).
          clear - E0 Hm Hmo Hn. set (o := p mod n_ r) in *. set (z := (p / n_ r) mod pn rs) in *. clearbody o z. lia. }
        rewrite <- (mkrs_mod rs HF') in E.
        pose proof (fun a b c => last_rows e rs _ _ _ _ _ _ _ _ _ _ HF' HVc Hp1 a b c E) as X.
        assert (Hcy : (p mod n_ r + t) / n_ r <= t) by (apply carry_le; auto).
        set (sp := span (V * c_ r) rs) in *. clearbody sp. set (k1 := (p mod n_ r + t) / n_ r) in *. clearbody k1.
        set (o := p mod n_ r) in *. clearbody o. clear - X HS Hk Hpp2 H2V HV Hcy Hmo Hnp.
        destruct X; lia.
      * right. split; [clear - He H2V; lia|]. split; [rewrite Epm; auto|]. intros os. exact I.
Qed.

Lemma zl_same rs : forall t V p a, Forall dwf rs -> killer t V rs = true -> zl rs (dig (map n_ rs) p) ->
  sameplace rs p a -> a <= kg rs.
Proof.
  induction rs as [|r rs IH]; intros t V p a HF HK HZ S; [discriminate|].
  inversion HF as [|? ? Hr HF']; subst x l. pose proof Hr as (Hn & Hc & Hs & HW).
  cbn [killer kg zl map dig] in HK, HZ |- *. destruct (pn (r :: rs) <=? t); [discriminate|].
  destruct (exact r) eqn:Hx.
  - destruct HZ as [Hz1 Hz2]. destruct (exact_iff r Hx) as [Hi Hnc].
    assert (HI : forall a', sameplace rs (p / n_ r) a' -> a' <= kg rs).
    { intros a' S'. destruct ((c_ r =? 1) && negb (V =? 1)); eapply IH; eauto. }
    destruct (N.eq_dec a 0) as [->|Ha]; [apply N.le_0_l|].
    assert (H1 : (a - 1) / c_ r + 1 <= kg rs).
    { apply HI. apply (same_exact_inv r rs p _ a Hr Hx Hz1 S). intros k Hk.
      assert (Hk' : k <= (a - 1) / c_ r) by (clear - Hk; revert Hk; generalize ((a - 1) / c_ r); intros; lia).
      assert (c_ r * k <= c_ r * ((a - 1) / c_ r)) by (apply N.mul_le_mono_l; auto).
      pose proof (N.mul_div_le (a - 1) (c_ r) ltac:(lia)). clear - H H0 Ha. lia. }
    pose proof (divmod_eq (a - 1) (c_ r) ltac:(lia)) as E. assert ((a - 1) mod c_ r < c_ r) by (apply N.mod_lt; lia).
    assert (c_ r * ((a - 1) / c_ r + 1) <= c_ r * kg rs) by (apply N.mul_le_mono_l; auto).
    rewrite Hnc. set (x := (a - 1) / c_ r) in *. set (y := (a - 1) mod c_ r) in *. clearbody x y. clear - E H H0 Ha. lia.
  - destruct (same_row_inv r rs p a Hr Hx S) as [R1 R2].
    destruct (clipped r) eqn:Ecl.
    + rewrite HZ in R1. lia.
    + cbn [andb orb] in HK. apply andb_true_iff in HK as [HK _]. apply andb_true_iff in HK as [_ HK]. btrue.
      rewrite HK, N.mod_1_r in R2. lia.
Qed.

Lemma zl_mult rs p : Forall dwf rs -> zl rs (dig (map n_ rs) p) ->
  (exists z, p = kg rs * z) /\ (exists w, pn rs = kg rs * w).
Proof.
  intros HF; revert p; induction HF as [|r rs Hr HF IH]; intros p HZ; cbn [kg zl map dig] in *.
  - split; [exists p|exists 1]; unfold pn; cbn [map prodN]; lia.
  - pose proof Hr as (Hn & _). pose proof (divmod_eq p (n_ r) ltac:(lia)) as E. rewrite pnc.
    destruct (exact r).
    + destruct HZ as [H1 H2]. destruct (IH _ H2) as [[z Z] [w W]]. rewrite H1, N.add_0_r, Z in E.
      split; [exists z; rewrite E; lia|exists w; rewrite W; lia].
    + destruct (clipped r).
      * rewrite HZ, N.add_0_r in E. split; [now exists (p / n_ r)|now exists (pn rs)].
      * split; [exists p; lia|exists (n_ r * pn rs); lia].
Qed.

Lemma zl_zero rs : Forall dwf rs -> zl rs (dig (map n_ rs) 0).
Proof.
  induction 1 as [|r rs Hr HF IH]; cbn [zl map dig]; [exact I|]. pose proof Hr as (Hn & _).
  rewrite N.mod_0_l, N.div_0_l by lia. destruct (exact r); [auto|]. destruct (clipped r); auto.
Qed.

Lemma killer_two rs : forall t V, Forall dwf rs -> killer t V rs = true -> 2 * kg rs <= pn rs.
Proof.
  induction rs as [|r rs IH]; intros t V HF HK; [discriminate|].
  inversion HF as [|? ? Hr HF']; subst x l. pose proof Hr as (Hn & Hc & Hs & HW).
  pose proof (pn_pos rs HF') as Hp.
  cbn [killer kg] in HK |- *. destruct (N.leb_spec (pn (r :: rs)) t) as [|Hlt]; [discriminate|]. rewrite pnc in *.
  destruct (exact r) eqn:Hx.
  - assert (2 * kg rs <= pn rs) by (destruct ((c_ r =? 1) && negb (V =? 1)); eapply IH; eauto).
    assert (n_ r * (2 * kg rs) <= n_ r * pn rs) by (apply N.mul_le_mono_l; auto). lia.
  - destruct (clipped r) eqn:Ecl; cbn [andb orb] in HK.
    + assert (Hnt : n_ r <= t).
      { apply orb_true_iff in HK as [HK|HK].
        - apply andb_true_iff in HK as [HK _]. btrue. auto.
        - unfold clipped in Ecl. apply andb_true_iff in HK as [HK _]. apply andb_true_iff in HK as [_ HK]. btrue. lia. }
      destruct (N.eq_dec (pn rs) 1) as [E|E]; [rewrite E in Hlt; lia|].
      assert (n_ r * 2 <= n_ r * pn rs) by (apply N.mul_le_mono_l; lia). lia.
    + apply andb_true_iff in HK as [HK _]. apply andb_true_iff in HK as [_ HK]. btrue.
      assert (n_ r <> 1).
      { intros E. unfold exact in Hx. rewrite HK, E, N.mod_1_r in Hx. discriminate. }
      assert (n_ r * 1 <= n_ r * pn rs) by (apply N.mul_le_mono_l; lia). lia.
Qed.

Lemma div_mod_pair c x y x' y' : x < c -> x' < c -> x + c * y = x' + c * y' -> x = x' /\ y = y'.
Proof.
  intros H1 H2 E. assert (Hy : y = y').
  { rewrite <- (div_unique_N (x + c * y) c y x), <- (div_unique_N (x + c * y) c y' x') by lia. reflexivity. }
  subst y'. lia.
Qed.

Lemma place_inj rs : forall p q, Forall dwf rs -> p < pn rs -> q < pn rs ->
  cidx rs p = cidx rs q -> cpos rs p = cpos rs q -> p = q.
Proof.
  induction rs as [|r rs IH]; intros p q HF Hp Hq E1 E2.
  { unfold pn in Hp, Hq. cbn [map prodN] in Hp, Hq. lia. }
  inversion HF as [|? ? Hr HF']; subst x l. pose proof Hr as (Hn & Hc & Hs & HW). rewrite pnc in *.
  cbn [cidx cpos] in E1, E2. injection E1 as E0 E1.
  pose proof (divmod_eq p (n_ r) ltac:(lia)) as Dp. pose proof (divmod_eq q (n_ r) ltac:(lia)) as Dq.
  assert (M1 : (i_ r + p mod n_ r) mod c_ r < c_ r) by (apply N.mod_lt; lia).
  assert (M2 : (i_ r + q mod n_ r) mod c_ r < c_ r) by (apply N.mod_lt; lia).
  assert (E3 : (i_ r + p mod n_ r) mod c_ r = (i_ r + q mod n_ r) mod c_ r /\ cpos rs (p / n_ r) = cpos rs (q / n_ r)).
  { apply (div_mod_pair (c_ r)); auto; lia. }
  destruct E3 as [E3 E4].
  assert (E5 : p / n_ r = q / n_ r).
  { apply IH; auto; apply N.div_lt_upper_bound; lia. }
  assert (E6 : i_ r + p mod n_ r = i_ r + q mod n_ r).
  { rewrite (divmod_eq (i_ r + p mod n_ r) (c_ r)), (divmod_eq (i_ r + q mod n_ r) (c_ r)) by lia. now rewrite E0, E3. }
  rewrite Dp, Dq, E5. f_equal. clear - E6. revert E6. generalize (p mod n_ r), (q mod n_ r). intros; lia.
Qed.

(** ** The iteration *)
Section Kill.
Context (ds : dataset) (idx cnt : list N).
Hypothesis Hfd : full_dataset ds.
Hypothesis Hsc : d_shape ds <> [].
Hypothesis Hsel : sel_in (d_shape ds) idx cnt.
Let D := mk_dims (d_shape ds) (d_chunk_shape ds) idx cnt.
Let rs := rev D.
Let e := prodN cnt.
Let C := prodN (d_chunk_shape ds).
Hypothesis HK : killer 0 1 rs = true.
Hypothesis HS : 2 * e + 3 * C + 2 * span 1 rs < W64.

(** What is known of the segments from place [m] on. *)
Context (P : N -> list segment -> Prop).
Hypothesis P_nil : forall m, m < e -> ~ P m [].
Hypothesis P_empty : forall m c a b l, In c (d_chunks ds) -> a < C -> b <= a -> P m ((c, a, b) :: l) -> P m l.
Hypothesis P_some : forall m p c a b l, m < e -> p < e -> In c (d_chunks ds) ->
  c_offset c = chunk_corner (d_chunk_shape ds) (coord_of D p) -> a = cpos rs p -> a < C -> a < b ->
  b < W64 -> b <= C + span 1 rs \/ W64 <= b + span 1 rs ->
  P m ((c, a, b) :: l) ->
  m = p /\ sameplace rs p (b - a) /\ P (p + (b - a)) l.

Lemma run_killed fuel : forall s m p segs,
  s + kg rs < e -> m < e -> p < e -> zl rs (dig (map n_ rs) p) ->
  slicer_run Release fuel ds (mkSlicer s (rev (dig (rev cnt) p)) idx cnt e) = (segs, SDone) ->
  ~ P m segs.
Proof.
  assert (HD : Forall dwf D) by exact (x_wf ds idx cnt Hfd Hsel).
  assert (HF : Forall dwf rs) by exact (x_wfr ds idx cnt Hfd Hsel).
  assert (Hpn : pn rs = e) by exact (x_pn ds idx cnt Hfd Hsel).
  pose proof (span_len 1 rs HF ltac:(lia)) as Hsl.
  induction fuel as [|fuel IH]; intros s m p segs Hs Hm Hp HZ Hrun HP; cbn [slicer_run] in Hrun; [discriminate|].
  assert (Hse : s < e) by lia.
  pose proof (next_none ds idx cnt Hsc Hsel HD HF Hpn Release s p Hse) as En. fold e in En.
  destruct (slicer_next Release ds (mkSlicer s (rev (dig (rev cnt) p)) idx cnt e)) as [[[[[c a] b] st']|]| | | |] eqn:Ex; try discriminate; [|congruence].
  clear En. destruct (slicer_run Release fuel ds st') as [segs' r] eqn:Er. injection Hrun as <- ->.
  destruct (next_any ds idx cnt Hfd Hsc Hsel HD HF Hpn Release s p c a b st' Hse Ex)
    as (A & vis & rest & k & os' & F & [Hcc Hc] & Ea & Eb & Hadv & Hcar & Est).
  fold D in Ea, Hadv, Hcc. fold rs in Ea, Hadv. fold e in Hadv, Est.
  assert (HsW : s < W64) by lia.
  destruct (adv_signed Release e rs 1 p 0 0 s vis rest k A F HF ltac:(reflexivity) HsW Hadv)
    as (LA & LF & (z & k1 & k2 & E1 & E2 & Ez & _) & (pre & rs' & V' & q' & J1 & J2 & J3)).
  assert (Ha : a < C) by (rewrite Ea; exact (r_cpos ds idx cnt Hfd Hsel HD p)).
  assert (HbW : b < W64) by (apply add_z in Eb as [Lb _]; exact Lb).
  assert (Hbb : b <= C + span 1 rs \/ W64 <= b + span 1 rs).
  { pose proof Eb as Eb'. apply add_z in Eb' as (Lb & kb & Eb' & _).
    unfold W64 in *. clear - E1 Ez Eb' LA Lb HS Ha. lia. }
  assert (Hst : exists p', p' < e /\ vis ++ os' = dig (map n_ rs) p' /\ st' = mkSlicer F (rev (dig (rev cnt) p')) idx cnt e).
  { pose proof HF as HF0. rewrite J1 in HF0. apply Forall_app in HF0 as [HF1 HF2]. subst rest.
    pose proof (carry_range_any _ _ _ _ _ _ HF2 Hcar) as R.
    destruct (dig_surj rs (vis ++ os')) as (p' & Hp' & E).
    { rewrite J1. now apply Forall2_app. }
    exists p'. split; [lia|]. split; [auto|]. rewrite Est, E. destruct (x_proj ds idx cnt Hfd Hsel) as (_ & _ & _ & EN).
    unfold rs. rewrite map_rev. fold D in EN. now rewrite EN. }
  destruct Hst as (p' & Hp' & Edig & Hst). rewrite Hst in Er.
  assert (Kill := kill_step e rs 0 1 p s vis rest k A F HF HK ltac:(lia) HZ).
  rewrite N.mul_0_l, N.mul_1_l, !N.add_0_r, N.add_0_l in Kill.
  specialize (Kill Hse Hs ltac:(rewrite Hpn; lia) ltac:(lia) Hadv).
  destruct Kill as [[K1 K2]|(K1 & K2 & K3)].
  { rewrite add64_ok in Eb by lia. injection Eb as <-.
    destruct (P_some m p c a (a + A) segs' Hm Hp Hc Hcc Ea Ha ltac:(lia) HbW Hbb HP) as (_ & S & _).
    pose proof (zl_same rs 0 1 p _ HF HK HZ S). lia. }
  rewrite Hpn, N.mod_small in K2 by auto.
  specialize (K3 os'). rewrite Edig in K3.
  destruct (zl_mult rs p HF HZ) as [[z1 Z1] [w1 W1]]. rewrite Hpn in W1.
  pose proof (kg_pos rs HF) as Hkg.
  assert (Hp2 : p + 2 * kg rs <= e).
  { rewrite Z1, W1 in *. assert (z1 < w1) by (apply (N.mul_lt_mono_pos_l (kg rs)); auto).
    assert (z1 + 1 <> w1) by (intros Ezz; apply K2; rewrite <- Ezz; lia).
    replace (kg rs * z1 + 2 * kg rs) with (kg rs * (z1 + 2)) by lia. apply N.mul_le_mono_l. lia. }
  apply add_z in Eb as (Lb & kb & Eb & _).
  destruct (N.le_gt_cases b a) as [Hba|Hab].
  - assert (HP' : P m segs') by (eapply P_empty; eauto).
    destruct (N.lt_ge_cases F e) as [HFe|HFe].
    + revert HP'. apply (IH F m p'); auto.
      unfold W64 in *. clear - E1 E2 Eb LA LF Lb Hba Hs HFe HS Ha K1 HsW. lia.
    + destruct fuel as [|fuel]; cbn [slicer_run] in Er; [discriminate|].
      unfold slicer_next in Er. cbn [s_end s_offset] in Er.
      replace (e <=? F) with true in Er by (symmetry; apply N.leb_le; auto). injection Er as <-.
      exact (P_nil m Hm HP').
  - destruct (P_some m p c a b segs' Hm Hp Hc Hcc Ea Ha Hab HbW Hbb HP) as (_ & S & HP').
    pose proof (zl_same rs 0 1 p _ HF HK HZ S) as Hz.
    assert (HA : b = a + A /\ F = s + A).
    { unfold W64 in *. clear - E1 E2 Ez Eb LA LF Lb Hab HS Ha HsW Hse Hz Hp2. lia. }
    destruct HA as (HA & HA3).
    revert HP'. apply (IH F (p + (b - a)) p'); auto; lia.
Qed.

(** A selection of this kind is never iterated rightly. *)
Lemma killed fuel segs : slicer_run Release fuel ds (state_at idx cnt 0) = (segs, SDone) -> ~ P 0 segs.
Proof.
  intros H.
  assert (HF : Forall dwf rs) by exact (x_wfr ds idx cnt Hfd Hsel).
  assert (Hpn : pn rs = e) by exact (x_pn ds idx cnt Hfd Hsel).
  pose proof (killer_two rs 0 1 HF HK) as H2. pose proof (kg_pos rs HF) as H3.
  apply (run_killed fuel 0 0 0); auto; try lia. now apply zl_zero.
Qed.
End Kill.
