(** * SlicerWrap: in builds without debug assertions the chunk-slice iterator is right on every
    selection of the class [sel_wrap]. *)
From Verif Require Import Base Spec SpecApi Radix Safe Chunk Extent Dataset Slicer
  SlicerProofs SlicerStep ChunkProofs DatasetProofs ExtentProofs SlicerMain SlicerTheorems SafeWrap.

Local Arguments N.add : simpl never.
Local Arguments N.sub : simpl never.
Local Arguments N.mul : simpl never.
Local Arguments N.div : simpl never.
Local Arguments N.modulo : simpl never.
Local Arguments N.min : simpl never.
Local Arguments N.max : simpl never.

(** A subtraction that wraps, and the additions that undo it. *)
Lemma add64_rel x y : x < W64 -> y < W64 -> add64 Release x y = Ok ((x + y) mod W64).
Proof.
  intros Hx Hy. unfold add64. destruct (N.ltb_spec (x + y) W64) as [H|H]; auto. now rewrite N.mod_small.
Qed.
Lemma mul64_rel x y : mul64 Release x y = Ok ((x * y) mod W64).
Proof. unfold mul64. destruct (N.ltb_spec (x * y) W64) as [H|H]; auto. now rewrite N.mod_small. Qed.

Lemma wrapped x y V p s p' s' : x < W64 -> y < W64 -> p < W64 -> s < W64 -> p' < W64 -> s' < W64 ->
  p + x * V = p' + y * V -> s + x * V = s' + y * V ->
  exists d df, sub64 Release x y = Ok d /\ mul64 Release d V = Ok df /\
    add64 Release p df = Ok p' /\ add64 Release s df = Ok s'.
Proof.
  intros Hx Hy Hp Hs Hp' Hs' E1 E2. pose proof W64_pos as HW.
  assert (G : forall d u u', u < W64 -> u' < W64 -> (exists z, y + d = x + W64 * z) ->
     u + x * V = u' + y * V -> add64 Release u ((d * V) mod W64) = Ok u').
  { intros d u u' Hu Hu' [z Hz] E. rewrite add64_rel by (auto; apply N.mod_lt; lia).
    rewrite N.add_mod_idemp_r by lia. f_equal.
    assert (Eu : u + d * V = u' + z * V * W64).
    { assert (H : (y + d) * V = (x + W64 * z) * V) by now rewrite Hz. nia. }
    rewrite Eu, N.mod_add, N.mod_small by lia. reflexivity. }
  unfold sub64. destruct (N.leb_spec y x) as [H|H].
  - exists (x - y). eexists. split; [reflexivity|]. split; [apply mul64_rel|].
    split; (apply G; auto; exists 0; lia).
  - exists ((x + W64 - y) mod W64). eexists. split; [reflexivity|]. split; [apply mul64_rel|].
    rewrite (N.mod_small (x + W64 - y)) by lia. split; (apply G; auto; exists 1; lia).
Qed.

Lemma pivotR e t V r rs q :
  dwf r -> Forall dwf rs -> 0 < V -> e = V * (n_ r * pn rs) -> e < W64 -> q < n_ r * pn rs ->
  let o := q mod n_ r in
  let co := (i_ r + o) / c_ r * c_ r in
  let c' := N.min (c_ r) (s_ r - co) in
  let cce := co + c' - i_ r in
  let a := N.min (n_ r) cce - o in
  (c' <> 1 \/ V = 1) ->
  o + t < n_ r ->
  ((i_ r =? co) && (n_ r =? cce) && ((q + a) * V <? e) = false \/
   (still rs = true /\ 1 < V * c_ r)) ->
  step_ok Release e t V (r :: rs) q a /\ runstart r (q + a).
Proof.
  intros Hr HFr HV He HeW Hq o co c' cce a Hnp Hrow Hcont.
  pose proof Hr as (Hn & Hc & Hs & HW).
  assert (Ho : o < n_ r) by (apply N.mod_lt; lia).
  pose proof (divmod_eq (i_ r + o) (c_ r) ltac:(lia)) as Eco.
  assert (Hmo : (i_ r + o) mod c_ r < c_ r) by (apply N.mod_lt; lia).
  assert (Eco' : i_ r + o = co + (i_ r + o) mod c_ r) by (unfold co; lia).
  pose proof (divmod_eq q (n_ r) ltac:(lia)) as Eq. fold o in Eq.
  assert (Hcce : o < cce) by (unfold cce, c'; lia).
  set (o2 := N.min (n_ r) cce) in *.
  assert (Ho2 : o < o2 /\ o2 <= n_ r) by (unfold o2; lia).
  assert (Hqn : q / n_ r < pn rs) by (apply N.div_lt_upper_bound; lia).
  assert (Eqa : q + a = n_ r * (q / n_ r) + o2) by (unfold a; lia).
  assert (Hqa : q + a <= n_ r * pn rs) by (rewrite Eqa; apply row_end; lia).
  assert (HqaV : (q + a) * V <= e) by (rewrite He, (N.mul_comm V); apply N.mul_le_mono_r; exact Hqa).
  pose proof (pn_pos rs HFr) as Hpn.
  assert (Ht : t <= n_ r * pn rs) by (apply le_mul_pos; lia).
  assert (Ed1 : (q + a) mod n_ r = o2 mod n_ r).
  { rewrite Eqa, N.add_comm, N.mul_comm, N.mod_add by lia. reflexivity. }
  assert (Ed2 : (q + a) / n_ r = q / n_ r + o2 / n_ r).
  { rewrite Eqa, N.mul_comm, N.div_add_l by lia. reflexivity. }
  assert (Ho2d : o2 / n_ r <= 1).
  { assert (o2 / n_ r < 2); [|lia]. apply N.div_lt_upper_bound; lia. }
  assert (HpW : n_ r * pn rs < W64).
  { eapply N.le_lt_trans; [|exact HeW]. rewrite He, (N.mul_comm V). apply le_mul_pos; lia. }
  split.
  2:{ unfold runstart. rewrite Ed1. destruct (N.eq_dec o2 (n_ r)) as [E|E].
      - left. rewrite E. apply N.mod_same. lia.
      - right. rewrite (N.mod_small o2) by lia.
        assert (Hc'c : c' = c_ r) by (unfold o2, cce, c' in *; lia).
        replace (i_ r + o2) with (((i_ r + o) / c_ r + 1) * c_ r).
        + apply N.mod_mul. lia.
        + unfold o2, cce in *. rewrite Hc'c in *. unfold co in *. lia. }
  unfold step_ok.
  rewrite (adv_step Release e V r rs q) by (auto; fold o; lia).
  fold o. fold co. cbv zeta. fold c'. fold cce. fold o2.
  replace ((c' =? 1) && negb (V =? 1)) with false.
  2:{ symmetry. destruct Hnp as [Hnp|Hnp].
      - apply N.eqb_neq in Hnp. now rewrite Hnp.
      - apply N.eqb_eq in Hnp. rewrite Hnp. now rewrite andb_comm. }
  rewrite (N.mod_small (o + t)) by lia. rewrite (N.div_small (o + t)) by lia.
  assert (HtW : t * V < W64).
  { eapply N.le_lt_trans; [|exact HeW]. rewrite He, (N.mul_comm V). apply N.mul_le_mono_r. exact Ht. }
  assert (HaW0 : a * V < W64).
  { eapply N.le_lt_trans; [|exact HeW]. eapply N.le_trans; [|exact HqaV]. apply N.mul_le_mono_r. lia. }
  assert (HnW : n_ r <= n_ r * pn rs) by (apply le_mul_pos; lia).
  assert (HsW : (q + t) * V < W64).
  { eapply N.le_lt_trans; [|exact HeW]. rewrite He, (N.mul_comm V). apply N.mul_le_mono_r.
    rewrite Eq, <- N.add_assoc. apply row_end; [lia|exact Hqn]. }
  destruct (wrapped o2 (o + t) V (t * V) ((q + t) * V) (a * V) ((q + a) * V)) as (d & df & D1 & D2 & D3 & D4);
    try lia.
  rewrite D1. cbn [bind]. rewrite D2. cbn [bind]. rewrite D3. cbn [bind]. rewrite D4. cbn [bind].
  rewrite add64_ok by (pose proof W64_pos; unfold W64 in *; lia). cbn [bind]. rewrite N.add_0_l.
  assert (Hsame : sameplace (r :: rs) q a).
  { apply sameplace_row; auto; fold o.
    - unfold a. lia.
    - unfold a, o2, cce, c'. lia. }
  assert (Ha : 0 < a) by (unfold a; lia).
  assert (Epn : pn (r :: rs) = n_ r * pn rs) by reflexivity.
  destruct ((i_ r =? co) && (n_ r =? cce) && ((q + a) * V <? e)) eqn:Ec.
  - destruct Hcont as [Hcont|[HT HV1]]; [discriminate|].
    btrue.
    assert (Eo2 : o2 = n_ r) by (unfold o2; lia).
    rewrite Eo2, N.div_same in * by lia.
    assert (Hqa1 : q + a < n_ r * pn rs).
    { rewrite He, (N.mul_comm V) in H0. apply N.mul_lt_mono_pos_r in H0; auto. }
    assert (Hq1 : q / n_ r + 1 < pn rs).
    { rewrite Eqa in Hqa1. replace (n_ r * (q / n_ r) + n_ r) with (n_ r * (q / n_ r + 1)) in Hqa1 by lia.
      apply N.mul_lt_mono_pos_l in Hqa1; auto. }
    assert (HpW' : pn rs < W64).
    { eapply N.le_lt_trans; [|exact HpW]. rewrite N.mul_comm. apply le_mul_pos; lia. }
    assert (HaW : a * V < W64).
    { eapply N.le_lt_trans; [|exact HeW]. eapply N.le_trans; [|exact HqaV]. apply N.mul_le_mono_r. lia. }
    destruct (still_pass Release e rs (V * c_ r) (q / n_ r) (a * V) ((q + a) * V))
      as (vis & rest & k & os & T1 & T2 & T3); auto.
    rewrite T1. cbn [bind].
    do 4 eexists. split; [reflexivity|]. split; [exact T2|].
    split; [|rewrite Epn; auto].
    cbn [app map dig]. now rewrite Ed1, Ed2, T3.
  - rewrite dbg_ok by (apply N.leb_le; lia). cbn [bind].
    do 4 eexists. split; [reflexivity|].
    rewrite carry_loop_dig; auto.
    2:{ assert (q / n_ r + o2 / n_ r = (q + a) / n_ r) by lia.
      pose proof (div_le_self (q + a) (n_ r) ltac:(lia)). lia. }
    split; [reflexivity|]. split; [|rewrite Epn; auto].
    cbn [app map dig]. now rewrite Ed1, Ed2.
Qed.

Lemma exact_fin_end m e t t' V r rs q :
  dwf r -> Forall dwf rs -> 0 < V -> i_ r mod c_ r = 0 -> n_ r = c_ r -> q mod n_ r = 0 ->
  e = V * (n_ r * pn rs) -> e < W64 ->
  adv_loop m e (mkrs V (r :: rs) q) t (t * V) ((q + t) * V)
    = exact_body m e V (c_ r) rs (q / n_ r) t' ->
  0 < t' -> q / n_ r + t' <= pn rs ->
  (q / n_ r + t' = pn rs -> sameplace rs (q / n_ r) t') ->
  (q / n_ r + t' < pn rs -> exists a', step_ok m e t' (V * c_ r) rs (q / n_ r) a' /\
                                   bnd rs (q / n_ r + a')) ->
  exists a, step_ok m e t V (r :: rs) q a /\
    ((q + a) mod n_ r = 0 /\ bnd rs ((q + a) / n_ r)).
Proof.
  intros Hr HF HV Hi Hnc Hq0 He HeW Hst Ht' Hle Hsame IH.
  pose proof Hr as (Hn & Hc & Hs & HW).
  pose proof (divmod_eq q (n_ r) ltac:(lia)) as Eq. rewrite Hq0, N.add_0_r in Eq.
  rewrite Hnc in Eq.
  assert (Epn : pn (r :: rs) = n_ r * pn rs) by reflexivity.
  assert (Hd : forall a', (q + c_ r * a') / n_ r = q / n_ r + a' /\ (q + c_ r * a') mod n_ r = 0).
  { intros a'. rewrite Hnc in *. rewrite Eq at 1 3.
    rewrite <- N.mul_add_distr_l, N.mul_comm. split; [apply N.div_mul; lia|apply N.mod_mul; lia]. }
  assert (Hpp : V * c_ r * pn rs = e) by (rewrite He, Hnc; lia).
  assert (HVc : 0 < V * c_ r) by nia.
  unfold exact_body in Hst.
  destruct (N.lt_ge_cases (q / n_ r + t') (pn rs)) as [Hlt|Hge].
  - destruct (IH Hlt) as (a' & (vis & rest & k & os & S1 & S2 & S3 & S4 & S5 & S6) & Hi').
    replace ((q / n_ r + t') * (V * c_ r) <? e) with true in Hst
      by (symmetry; apply N.ltb_lt; rewrite <- Hpp; rewrite N.mul_comm;
          apply N.mul_lt_mono_pos_l; auto).
    destruct (Hd a') as [Hd1 Hd2].
    exists (c_ r * a'). rewrite Hd1, Hd2. split; [|auto].
    exists (0 :: vis), rest, k, os. rewrite Hst, S1. cbn [bind].
    assert (EX : (q / n_ r + a') * (V * c_ r) = (q + c_ r * a') * V).
    { rewrite Hnc. rewrite Eq at 2. lia. }
    assert (EY : a' * (V * c_ r) = c_ r * a' * V) by lia.
    split; [now rewrite EX, EY|].
    split; [auto|].
    split. { cbn [app map dig]. now rewrite Hd1, Hd2, S3. }
    split; [apply N.mul_pos_pos; auto|].
    split.
    { rewrite Epn, Hnc. rewrite Eq, <- N.mul_add_distr_l. apply N.mul_le_mono_l.
      rewrite Hnc in S5. auto. }
    apply sameplace_exact; auto.
  - assert (Heq : q / n_ r + t' = pn rs) by lia.
    replace ((q / n_ r + t') * (V * c_ r) <? e) with false in Hst
      by (symmetry; apply N.ltb_ge; rewrite Heq; lia).
    rewrite dbg_ok in Hst by (apply N.leb_le; rewrite Heq; lia). cbn [bind] in Hst.
    destruct (Hd t') as [Hd1 Hd2].
    exists (c_ r * t'). rewrite Hd1, Hd2, Heq. split; [|split; [auto|apply bnd_end; auto]].
    exists [0], (mkrs (V * c_ r) rs (q / n_ r)), t', (dig (map n_ rs) (q / n_ r + t')).
    assert (EX : (q / n_ r + t') * (V * c_ r) = (q + c_ r * t') * V).
    { rewrite Hnc. rewrite Eq at 2. lia. }
    assert (EY : t' * (V * c_ r) = c_ r * t' * V) by lia.
    rewrite Hst. split; [now rewrite EX, EY|].
    assert (HpW : pn rs < W64).
    { assert (pn rs <= e); [|lia]. rewrite <- Hpp. rewrite <- (N.mul_1_l (pn rs)) at 1.
      apply N.mul_le_mono_r. lia. }
    rewrite carry_loop_dig by (auto; rewrite Heq; auto).
    split; [auto|].
    split. { cbn [app map dig]. now rewrite Hd1, Hd2. }
    split; [apply N.mul_pos_pos; auto|].
    split.
    { rewrite Epn, Hnc. rewrite Eq, <- N.mul_add_distr_l. apply N.mul_le_mono_l.
      rewrite Hnc in Hle. auto. }
    apply sameplace_exact; auto.
Qed.

(** One call from a run start takes a step of at least one element inside
    one chunk, and reaches a run start. *)
Lemma adv_main_wrap e rs : forall t V q,
  Forall dwf rs -> safe_wrap t V rs = true -> bnd rs q -> (t = 0 -> V = 1) -> 0 < V ->
  e = V * pn rs -> e < W64 -> q + t < pn rs -> rs <> [] ->
  exists a, step_ok Release e t V rs q a /\ bnd rs (q + a).
Proof.
  induction rs as [|r rs IH]; intros t V q HF HS HI HVt HV He HeW Hq Hne; [congruence|].
  inversion HF as [|? ? Hr HF']; subst x l.
  pose proof Hr as (Hn & Hc & Hs & HW).
  assert (Epn : pn (r :: rs) = n_ r * pn rs) by reflexivity.
  destruct (geom r q Hr) as (G1 & G2 & G3 & G4 & G5).
  pose proof (divmod_eq q (n_ r) ltac:(lia)) as Eq.
  pose proof (pn_pos rs HF') as Hpp.
  assert (HpW : pn (r :: rs) < W64) by nia.
  assert (Hqlt : q < n_ r * pn rs) by (rewrite <- Epn; lia).
  assert (He2 : e = V * (n_ r * pn rs)) by now rewrite He, Epn.
  assert (Hple : pn rs <= pn (r :: rs)) by (rewrite Epn, N.mul_comm; apply le_mul_pos; lia).
  cbn [safe_wrap bnd] in HS, HI. cbn [bnd].
  destruct (pn (r :: rs) <=? t) eqn:Ept; [btrue; lia|].
  destruct (negb (single r || (t <? last_two r))) eqn:EA; [discriminate|].
  apply negb_false_iff in EA.
  destruct (negb (V =? 1) && thin r) eqn:Et.
  { (* chunks one thick in this dimension *)
    apply andb_true_iff in Et as [EV Eth]. btrue.
    assert (Ht1 : 1 <= t) by (destruct (N.eq_dec t 0) as [->|]; [exfalso; auto|lia]).
    pose proof (thin_clip r q Hr Eth) as Hclip.
    destruct (N.eqb_spec (c_ r) 1) as [Ec|Ec].
    - destruct (N.eqb_spec (n_ r) 1) as [En|En].
      + assert (Ex : exact r = true).
        { unfold exact. rewrite Ec, En, N.mod_1_r. reflexivity. }
        rewrite Ex in *. destruct HI as [_ HI]. rewrite En, N.div_1_r in HI.
        assert (rs <> []).
        { intros ->. unfold pn in Hq. cbn [map prodN] in Hq. lia. }
        rewrite En, N.mul_1_l in Epn.
        destruct (IH t V q) as (a & (vis & rest & k & os & S1 & S2 & S3 & S4 & S5 & S6) & Hi);
          auto; try lia; try (now rewrite He, Epn); try (now rewrite <- Epn).
        exists a. split; [|rewrite En, N.mod_1_r, N.div_1_r; auto].
        exists ((q + a) mod n_ r :: vis), rest, k, os.
        rewrite (adv_step Release e V r rs q) by (auto; lia). cbv zeta.
        rewrite Hclip.
        cbn [N.eqb Pos.eqb]. apply N.eqb_neq in EV. rewrite EV. cbn [negb andb].
        rewrite Ec, N.mul_1_r, En, !N.div_1_r, !N.mod_1_r, N.add_0_l, S1. cbn [bind].
        split; [reflexivity|]. split; [auto|].
        split; [cbn [app map dig]; rewrite En, N.div_1_r, N.mod_1_r, S3; reflexivity|].
        split; [auto|]. split; [now rewrite Epn|].
        replace a with (c_ r * a) by nia.
        apply sameplace_exact; auto; try lia.
        * rewrite Ec. apply N.mod_1_r.
        * rewrite En. apply N.mod_1_r.
        * rewrite En, N.div_1_r. auto.
      + assert (t = 1).
        { apply orb_true_iff in EA as [EA|EA].
          - unfold single, last_chunk in EA. btrue. rewrite Ec, !N.div_1_r in EA. lia.
          - btrue. unfold last_two, portion, last_chunk in EA. rewrite Ec, !N.div_1_r, N.mod_1_r in EA.
            revert EA. clear - Hn Ht1. destruct (_ =? _); lia. }
        subst t.
        destruct (adv_pass Release e V (r :: rs) q 1 (1 * V) ((q + 1) * V)) as [k Ek]; auto; try lia.
        { cbn [forallb]. now rewrite Eth, HS. }
        exists 1. split.
        * exists (dig (map n_ (r :: rs)) (q + 1)), [], k, [].
          split; [exact Ek|]. split; [reflexivity|]. split; [apply app_nil_r|].
          split; [lia|]. split; [lia|]. apply sameplace_one. lia.
        * destruct (exact r) eqn:Ex; [|right; rewrite Ec; apply N.mod_1_r].
          unfold exact in Ex. btrue. lia.
    - apply andb_true_iff in HS as [Ht HS]. btrue. assert (t = 1) by lia. subst t.
      assert (En : n_ r = 1).
      { unfold thin in Eth. apply N.eqb_neq in Ec. rewrite Ec in Eth. cbn [orb] in Eth. btrue. lia. }
      rewrite En, N.mul_1_l in Epn. rewrite Epn in *.
      assert (HVc : 1 < V * c_ r) by nia.
      assert (HaW : 1 * V < W64) by nia. assert (HsW : (q + 1) * V <= e) by nia.
      destruct (still_pass Release e rs (V * c_ r) q (1 * V) ((q + 1) * V))
        as (vis & rest & k & os & T1 & T2 & T3); auto.
      exists 1. split.
      + exists (0 :: vis), rest, k, os.
        rewrite (adv_step Release e V r rs q) by (auto; lia). cbv zeta.
        rewrite Hclip.
        cbn [N.eqb Pos.eqb]. apply N.eqb_neq in EV. rewrite EV. cbn [negb andb].
        rewrite En, !N.div_1_r, !N.mod_1_r, N.add_0_l, T1. cbn [bind].
        split; [reflexivity|]. split; [auto|].
        split; [cbn [app map dig]; rewrite En, N.div_1_r, N.mod_1_r, T3; reflexivity|].
        split; [lia|]. split; [rewrite Epn; lia|]. apply sameplace_one. lia.
      + destruct (exact r) eqn:Ex; [|left; rewrite En; apply N.mod_1_r].
        unfold exact in Ex. btrue. lia. }
  destruct (exact r) eqn:Ex.
  { (* the selection covers exactly one chunk in this dimension *)
    destruct HI as [HI1 HI2]. unfold exact in Ex. btrue.
    assert (HeW2 : (pn rs) * (V * c_ r) <= e) by (rewrite He2, H0; lia).
    assert (Hle : q / n_ r + (t / c_ r + 1) <= pn rs).
    { rewrite HI1, N.add_0_r in Eq. rewrite Epn in Hq.
      destruct (N.le_gt_cases (q / n_ r + (t / c_ r + 1)) (pn rs)) as [|Hgt]; auto. exfalso.
      pose proof (N.mul_div_le t (c_ r) ltac:(lia)) as Htd.
      assert (n_ r * pn rs <= n_ r * (q / n_ r + t / c_ r)) by (apply N.mul_le_mono_l; lia).
      assert (Htn : n_ r * (t / c_ r) <= t) by (rewrite H0; exact Htd).
      rewrite N.mul_add_distr_l in H1. clear - H1 Htn Eq Hq. lia. }
    assert (HtW : t / c_ r + 1 < W64).
    { eapply N.le_lt_trans; [|exact HpW]. eapply N.le_trans; [|exact Hple].
      eapply N.le_trans; [|exact Hle]. rewrite (N.add_comm (q / n_ r)). apply N.le_add_r. }
    assert (Ht1 : 0 < t / c_ r + 1) by (rewrite N.add_1_r; apply N.lt_0_succ).
    apply (exact_fin_end Release e t (t / c_ r + 1) V r rs q); auto.
    - apply exact_step; auto; try lia.
      + destruct (N.eq_dec V 1) as [|EV]; [auto|right].
        apply N.eqb_neq in EV. rewrite EV in Et. now apply not_thin_c.
      + etransitivity; [|exact HeW2]. apply N.mul_le_mono_r. auto.
    - intros Hend. exact (rows_end rs (t / c_ r + 1) (V * c_ r) (q / n_ r) _ HF' HS HI2 (N.le_refl _) Hend).
    - intros Hlt.
      assert (0 < V * c_ r) by (apply N.mul_pos_pos; auto).
      assert (e = V * c_ r * pn rs) by (rewrite He2, H0; lia).
      apply IH; auto.
      + lia.
      + intros ->. unfold pn in Hlt. cbn [map prodN] in Hlt. revert Hlt; generalize (q / n_ r), (t / c_ r); intros; lia. }
  assert (Hcthin : V <> 1 -> c_ r <> 1).
  { intros EV. apply N.eqb_neq in EV. rewrite EV in Et. now apply not_thin_c. }
  assert (Hones : ones rs = true -> q mod n_ r + t < n_ r).
  { intros E. apply ones_pn in E. rewrite Epn, E, N.mul_1_r in Hq. rewrite N.mod_small by lia. exact Hq. }
  set (o := q mod n_ r) in *. set (co := (i_ r + o) / c_ r * c_ r) in *.
  set (a := N.min (n_ r) (co + N.min (c_ r) (s_ r - co) - i_ r) - o).
  (* the loop stops here, or the carry passes through the outer dimensions *)
  assert (Hpiv : (N.min (c_ r) (s_ r - co) <> 1 \/ V = 1) -> o + t < n_ r ->
                 (clipped r = true -> (q + a) * V < e -> still rs = true) ->
                 exists a, step_ok Release e t V (r :: rs) q a /\ runstart r (q + a)).
  { intros P1 P2 P3. exists a. apply (pivotR e t V r rs q); auto; fold o; fold co.
    fold a.
    idtac.
      destruct ((i_ r =? co) && (n_ r =? co + N.min (c_ r) (s_ r - co) - i_ r) && ((q + a) * V <? e)) eqn:Ec; [right|auto].
      btrue.
      assert (Him : i_ r mod c_ r = 0).
      { rewrite H. unfold co. apply N.mod_mul. lia. }
      assert (Hnc : n_ r <> c_ r).
      { intros E. unfold exact in Ex. rewrite Him, E, !N.eqb_refl in Ex. discriminate. }
      assert (Hns : i_ r + n_ r = s_ r) by lia.
      assert (Hlt : n_ r < c_ r) by lia.
      split.
      + apply P3; auto. unfold clipped. apply N.eqb_eq in Him, Hns. apply N.ltb_lt in Hlt.
        now rewrite Him, Hns, Hlt.
      + rewrite N.mul_comm. apply N.lt_1_mul_pos; lia. }
  destruct (negb (V =? 1) && (N.min (c_ r) (s_ r - last_chunk r * c_ r) =? 1)) eqn:E4.
  { (* the last chunk is clipped to one element *)
    apply andb_true_iff in HS as [HS1 HS2]. btrue.
    specialize (Hcthin H).
    assert (Ht1 : 1 <= t) by (destruct (N.eq_dec t 0) as [->|]; [exfalso; auto|lia]).
    assert (HVc : 1 < V * c_ r) by (apply N.lt_1_mul_pos; lia).
    destruct (N.eq_dec (N.min (c_ r) (s_ r - co)) 1) as [Ec1|Ec1].
    - destruct (clip_one r q Hr Hcthin Ec1) as [Hon _]. fold o in Hon.
      assert (t = 1).
      { apply orb_true_iff in HS1 as [HS1|HS1]; [btrue; lia|]. apply Hones in HS1. lia. }
      subst t.
      assert (Eq1 : q + 1 = n_ r * (q / n_ r + 1)) by lia.
      assert (Ed1 : (q + 1) mod n_ r = 0) by (rewrite Eq1, N.mul_comm; apply N.mod_mul; lia).
      assert (Ed2 : (q + 1) / n_ r = q / n_ r + 1) by (rewrite Eq1, N.mul_comm; apply N.div_mul; lia).
      assert (Hq1 : q / n_ r + 1 < pn rs).
      { rewrite Epn, Eq1 in Hq. apply N.mul_lt_mono_pos_l in Hq; auto. }
      assert (HaW : 1 * V < W64) by nia. assert (HsW : (q + 1) * V <= e) by nia.
      destruct (still_pass Release e rs (V * c_ r) (q / n_ r) (1 * V) ((q + 1) * V))
        as (vis & rest & k & os & T1 & T2 & T3); auto; [lia|].
      exists 1. split; [|left; exact Ed1].
      exists (0 :: vis), rest, k, os.
      rewrite (adv_step Release e V r rs q) by (auto; fold o; lia). fold o. fold co. cbv zeta.
      rewrite Ec1. cbn [N.eqb Pos.eqb]. apply N.eqb_neq in H. rewrite H. cbn [negb andb].
      rewrite Hon, N.mod_same, N.div_same by lia. rewrite T1. cbn [bind].
      split; [reflexivity|]. split; [auto|].
      split; [cbn [app map dig]; now rewrite Ed1, Ed2, T3|].
      split; [lia|]. split; [lia|]. apply sameplace_one. lia.
    - apply Hpiv; auto.
      apply orb_true_iff in HS1 as [HS1|HS1]; [|auto]. btrue. assert (t = 1) by lia. subst t.
      destruct (N.eq_dec (o + 1) (n_ r)) as [E|E]; [|lia].
      exfalso. apply Ec1. unfold co.
      replace ((i_ r + o) / c_ r) with (last_chunk r); auto.
      unfold last_chunk. f_equal. lia. }
  assert (Hnp : N.min (c_ r) (s_ r - co) <> 1 \/ V = 1).
  { destruct (N.eq_dec V 1) as [EV|EV]; [auto|left]. intros Ec1.
    destruct (clip_one r q Hr (Hcthin EV) Ec1) as [_ El]. fold o in El.
    unfold co in Ec1. rewrite El in Ec1.
    apply N.eqb_neq in EV. apply N.eqb_eq in Ec1. rewrite EV, Ec1 in E4. discriminate. }
  destruct (negb (ones rs) && (portion r <=? t)) eqn:E5; [discriminate|].
  apply Hpiv; auto.
  - destruct (ones rs); [auto|]. cbn [negb andb] in E5. btrue.
    pose proof (runstart_max r q Hr HI) as Hmax. fold o in Hmax. lia.
  - intros Hcl _. now rewrite Hcl in HS.
Qed.


(** ** The iteration *)

Lemma wrap_steps ds idx cnt :
  full_dataset ds -> d_shape ds <> [] ->
  sel_in (d_shape ds) idx cnt ->
  sel_wrap (d_shape ds) (d_chunk_shape ds) idx cnt = true ->
  let rs := rev (mk_dims (d_shape ds) (d_chunk_shape ds) idx cnt) in
  forall p, bnd rs p -> p < prodN cnt ->
  exists a, step_ok Release (prodN cnt) 0 1 rs p a /\ bnd rs (p + a).
Proof.
  intros [Hwm Hgrid Hsz] Hsc Hsel Hsafe rs p Hinv Hp.
  pose proof Hwm as [HR HP _ Hred Hscl _ Hcd].
  destruct (sel_in_fits _ _ _ _ Hsel Hsz) as [Hfit Hcle].
  destruct Hsz as (Hs1 & Hs2 & Hs3).
  pose proof (mk_dims_wf _ _ idx cnt HP Hs3 Hsel) as HD.
  pose proof Hsel as (L1 & L2 & HN & HB).
  destruct (mk_dims_proj (d_shape ds) (d_chunk_shape ds) idx cnt HR L1 L2) as (E1 & E2 & E3 & E4).
  unfold sel_wrap in Hsafe. fold rs in Hsafe.
  set (D := mk_dims (d_shape ds) (d_chunk_shape ds) idx cnt) in *.
  assert (Hpn : pn rs = prodN cnt) by (unfold rs; rewrite pn_rev, E4; auto).
  assert (Hrs : rs <> []).
  { unfold rs. intros Z. assert (length (rev D) = 0%nat) by now rewrite Z.
    rewrite rev_length, <- (map_length s_), E1 in H. destruct (d_shape ds); [auto|discriminate]. }
  assert (HDr : Forall dwf rs) by now apply Forall_rev.
  apply adv_main_wrap; auto; try lia.
Qed.

Lemma right_steps m ds idx cnt :
  full_dataset ds -> d_shape ds <> [] ->
  sel_in (d_shape ds) idx cnt ->
  sel_right m (d_shape ds) (d_chunk_shape ds) idx cnt = true ->
  let rs := rev (mk_dims (d_shape ds) (d_chunk_shape ds) idx cnt) in
  forall p, bnd rs p -> p < prodN cnt ->
  exists a, step_ok m (prodN cnt) 0 1 rs p a /\ bnd rs (p + a).
Proof. destruct m; cbn [sel_right]; [apply safe_steps|apply wrap_steps]. Qed.

(** The chunk segments of a selection of the class of the build mode are the selected
    hyperslab. *)
Lemma chunk_slices_right m ds e idx cnt fuel :
  full_dataset ds -> get_start_count e (d_shape ds) = Ok (idx, cnt) ->
  sel_in (d_shape ds) idx cnt ->
  sel_right m (d_shape ds) (d_chunk_shape ds) idx cnt = true ->
  (N.to_nat (prodN cnt) < fuel)%nat ->
  exists segs,
    chunk_slices m fuel ds e = (segs, SDone) /\
    map (fun '(c, k) => (Some c, k)) (flat_map seg_elems segs) =
      map (place ds) (slab idx cnt) /\
    Forall (fun '(c, a, b) => a < b /\ b <= prodN (d_chunk_shape ds) /\ In c (d_chunks ds)) segs.
Proof.
  intros Hfd He Hsel Hsafe Hfuel. apply chunk_slices_by; auto. intros Hsc. now apply right_steps.
Qed.

Lemma right_of_safe m ds idx cnt :
  full_dataset ds -> sel_in (d_shape ds) idx cnt ->
  sel_safe (d_shape ds) (d_chunk_shape ds) idx cnt = true ->
  sel_right m (d_shape ds) (d_chunk_shape ds) idx cnt = true.
Proof.
  intros Hfd Hsel H. destruct m; cbn [sel_right]; [exact H|].
  apply sel_safe_wrap; auto. apply mk_dims_wf; auto; apply Hfd.
Qed.
