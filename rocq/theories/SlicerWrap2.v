(** * SlicerWrap2: a step of the iterator in a release build, also after more than one row has
    been accounted for: right, or wrong in a way that shows. *)
From Verif Require Import Base Spec Radix Safe Chunk Extent Dataset Slicer SlicerProofs SlicerStep SlicerExact SlicerExact2
  SlicerRelease SafeWrap SlicerWrap SlicerKill.

Local Arguments N.add : simpl never.
Local Arguments N.sub : simpl never.
Local Arguments N.mul : simpl never.
Local Arguments N.div : simpl never.
Local Arguments N.modulo : simpl never.
Local Arguments N.min : simpl never.
Local Arguments N.max : simpl never.

Definition outR (e t V : N) (rs : list dim) (q a : N) : Prop :=
  (exists vis rest k' os,
     adv_loop Release e (mkrs V rs q) t (t * V) ((q + t) * V) = Ok (vis, rest, k', a * V, (q + a) * V) /\
     carry_loop Release rest k' = Ok os /\ vis ++ os = dig (map n_ rs) (q + a)) /\
  (sameplace rs q a -> q + a <= pn rs -> bnd rs (q + a)).
Definition badR (e t V : N) (rs : list dim) (q a : N) : Prop :=
  relr e V rs q t (t * V) ((q + t) * V) (a * V) ((q + a) * V) /\ ~ (sameplace rs q a /\ q + a <= pn rs).
Definition goodR (e t V : N) (rs : list dim) (q a : N) : Prop :=
  outR e t V rs q a /\ sameplace rs q a /\ q + a <= pn rs /\ 0 < a.
Definition resR (e t V : N) (rs : list dim) (q a : N) : Prop :=
  0 < a /\ a * V <= 3 * e + 2 * (V * pc rs) /\ (outR e t V rs q a \/ badR e t V rs q a).

Lemma goodR_relr e t V rs q a : goodR e t V rs q a -> relr e V rs q t (t * V) ((q + t) * V) (a * V) ((q + a) * V).
Proof. intros [[(vis & rest & k & os & H & _) _] _]. exists vis, rest, k. exact H. Qed.

Lemma relr_det e V rs q t adv soff a b F G : 0 < V ->
  relr e V rs q t adv soff (a * V) F -> relr e V rs q t adv soff (b * V) G -> a = b.
Proof.
  intros HV (v1 & r1 & k1 & E1) (v2 & r2 & k2 & E2). rewrite E1 in E2. injection E2 as _ _ _ E _.
  apply N.mul_cancel_r in E; lia.
Qed.

Lemma outR_relr e t V rs q a : outR e t V rs q a -> relr e V rs q t (t * V) ((q + t) * V) (a * V) ((q + a) * V).
Proof. intros [(vis & rest & k & os & H & _) _]. exists vis, rest, k. exact H. Qed.

Lemma res_good e t V rs q a b : 0 < V -> resR e t V rs q a -> goodR e t V rs q b -> goodR e t V rs q a /\ a = b.
Proof.
  intros HV (A1 & A2 & A3) G. pose proof (goodR_relr _ _ _ _ _ _ G) as R.
  assert (E : a = b).
  { destruct A3 as [A3|[A3 _]]; [apply outR_relr in A3|]; apply (relr_det _ _ _ _ _ _ _ _ _ _ _ HV A3 R). }
  subst b. auto.
Qed.

Lemma bad_good e t V rs q a b : 0 < V -> badR e t V rs q a -> goodR e t V rs q b -> False.
Proof.
  intros HV [B1 B2] G. pose proof (goodR_relr _ _ _ _ _ _ G) as R.
  pose proof (relr_det _ _ _ _ _ _ _ _ _ _ _ HV B1 R) as ->. apply B2. destruct G as (_ & S & L & _). auto.
Qed.

(** The start conditions: more than one row accounted for, or the rows of the level below are
    all there is. *)
Definition start (t V : N) (rs : list dim) : Prop :=
  2 <= t \/ (t = 1 /\ 1 < V) \/
  (t = 1 /\ V = 1 /\ match rs with r :: _ => n_ r = 1 | [] => True end) \/
  (t = 0 /\ V = 1 /\ match rs with r0 :: r1 :: _ => c_ r0 = 1 /\ n_ r0 = 1 /\ n_ r1 = 1 | _ => False end).

(** ** One dimension, any number of rows accounted for *)
Lemma main_stepR e V r rs q t :
  dwf r -> 0 < V ->
  let o := q mod n_ r in
  let co := (i_ r + o) / c_ r * c_ r in
  let c' := N.min (c_ r) (s_ r - co) in
  let cce := co + c' - i_ r in
  let o2 := N.min (n_ r) cce in
  let k1 := (o + t) / n_ r in
  let a := o2 - o + n_ r * k1 in
  (c' <> 1 \/ V = 1) ->
  (q + a) * V < W64 -> (q + t) * V < W64 -> o + t + 2 < W64 ->
  o < o2 /\
  adv_loop Release e (mkrs V (r :: rs) q) t (t * V) ((q + t) * V) =
    if (i_ r =? co) && (n_ r =? cce) && ((q + a) * V <? e) then
      let* (vis, rest, k', A, F) :=
         adv_loop Release e (mkrs (V * c_ r) rs (q / n_ r)) (k1 + o2 / n_ r) (a * V) ((q + a) * V) in
      Ok (o2 mod n_ r :: vis, rest, k', A, F)
    else
      Ok ([o2 mod n_ r], mkrs (V * c_ r) rs (q / n_ r), k1 + o2 / n_ r, a * V, (q + a) * V).
Proof.
  intros Hr HV o co c' cce o2 k1 a Hnp Ha Hs Ho.
  pose proof Hr as (Hn & Hc & Hs' & HW).
  destruct (geom r q Hr) as (G1 & G2 & G3 & G4 & G5). cbv zeta in *. fold o co in G1, G2, G3, G4, G5.
  assert (Ho2 : o < o2) by (unfold o2, cce, c'; clearbody co o; lia).
  assert (Ho2n : o2 <= n_ r) by (unfold o2; lia).
  split; [auto|].
  rewrite (adv_step Release e V r rs q) by (auto; fold o; lia).
  fold o. fold co. cbv zeta. fold c'. fold cce. fold o2. fold k1.
  replace ((c' =? 1) && negb (V =? 1)) with false.
  2:{ symmetry. destruct Hnp as [Hnp|Hnp].
      - apply N.eqb_neq in Hnp. now rewrite Hnp.
      - apply N.eqb_eq in Hnp. rewrite Hnp. now rewrite andb_comm. }
  pose proof (divmod_eq (o + t) (n_ r) ltac:(lia)) as Ek. fold k1 in Ek.
  assert (Hm : (o + t) mod n_ r < n_ r) by (apply N.mod_lt; lia).
  assert (Hk1 : k1 <= o + t) by (apply div_le_self; lia).
  set (cur := (o + t) mod n_ r) in *.
  assert (Hd2 : o2 / n_ r <= 1) by (apply N.div_le_upper_bound; lia).
  set (d2 := o2 / n_ r) in *. set (m2 := o2 mod n_ r).
  clear G2 G3 G4 G5. set (q1 := q / n_ r). clearbody q1.
  assert (EA : t + o2 = a + cur) by (unfold a; lia).
  assert (EAV : t * V + o2 * V = a * V + cur * V) by (rewrite <- !N.mul_add_distr_r, EA; reflexivity).
  assert (HsV : (q + t) * V = q * V + t * V) by lia. assert (HaV : (q + a) * V = q * V + a * V) by lia.
  destruct (wrapped o2 cur V (t * V) ((q + t) * V) (a * V) ((q + a) * V)) as (d & df & D1 & D2 & D3 & D4); try lia.
  rewrite D1. cbn [bind]. rewrite D2. cbn [bind]. rewrite D3. cbn [bind]. rewrite D4. cbn [bind].
  rewrite add64_ok by lia. cbn [bind]. destruct (_ && _); reflexivity.
Qed.

(** What the sizes give. *)
Lemma sizesR e V rs q t : 0 < V -> e = V * pn rs -> q + t < pn rs -> 4 * e < W64 ->
  forall x, x <= q + t + pn rs -> x * V < W64 /\ x + 2 < W64 /\ x * V <= 2 * e.
Proof.
  intros HV He Hq HS x Hx.
  assert (H1 : x * V <= (2 * pn rs) * V) by (apply N.mul_le_mono_r; lia).
  assert (H2 : pn rs <= e) by (rewrite He, N.mul_comm; apply le_mul_pos; lia).
  assert (H3 : 2 * pn rs * V = 2 * e) by lia. lia.
Qed.

(** The run ends in a dimension of which neither one chunk nor the clipped last chunk is
    selected. *)
Lemma rowR e t V r rs q :
  dwf r -> Forall dwf rs -> exact r = false -> clipped r = false -> 0 < V ->
  (N.min (c_ r) (s_ r - (i_ r + q mod n_ r) / c_ r * c_ r) <> 1 \/ V = 1) ->
  e = V * pn (r :: rs) -> q + t < pn (r :: rs) -> 4 * e < W64 ->
  exists a, resR e t V (r :: rs) q a /\ (n_ r <= q mod n_ r + t -> badR e t V (r :: rs) q a).
Proof.
  intros Hr HF Hx Hcl HV Hnp He Hq HS. pose proof Hr as (Hn & Hc & Hs & HW).
  pose proof (sizesR e V (r :: rs) q t HV He Hq HS) as SZ.
  pose proof (pn_pos rs HF) as Hpn.
  pose proof (main_stepR e V r rs q t Hr HV) as M. cbv zeta in M.
  destruct (geom r q Hr) as (G1 & G2 & G3 & G4 & G5). cbv zeta in *.
  set (o := q mod n_ r) in *. set (co := (i_ r + o) / c_ r * c_ r) in *.
  set (c' := N.min (c_ r) (s_ r - co)) in *. set (cce := co + c' - i_ r) in *.
  set (o2 := N.min (n_ r) cce) in *. set (k1 := (o + t) / n_ r) in *. set (a := o2 - o + n_ r * k1) in *.
  pose proof (divmod_eq (o + t) (n_ r) ltac:(lia)) as Ek. fold k1 in Ek.
  pose proof (divmod_eq q (n_ r) ltac:(lia)) as Eq. fold o in Eq.
  assert (Hnp1 : n_ r <= pn (r :: rs)) by (rewrite pnc; apply le_mul_pos; lia).
  assert (Ho2n : o2 <= n_ r) by (unfold o2; lia).
  assert (Hqa : q + a <= q + t + pn (r :: rs)).
  { assert (n_ r * k1 <= o + t) by (rewrite Ek; apply N.le_add_r). unfold a. clear - H Ho2n Hnp1 G1. lia. }
  assert (Hot : o + t <= q + t + pn (r :: rs)) by (clear - G1 Hnp1; lia).
  destruct (SZ _ Hqa) as (Z1 & Z2 & Z3). destruct (SZ (q + t) ltac:(lia)) as (Z4 & _ & _).
  destruct (SZ _ Hot) as (_ & Z5 & _).
  destruct (M Hnp Z1 Z4 Z5) as [Ho2 M']. clear M.
  assert (Hstop : (i_ r =? co) && (n_ r =? cce) = false).
  { apply not_true_iff_false. intros E. apply andb_true_iff in E as [E1 E2]. apply N.eqb_eq in E1, E2.
    assert (Hi : i_ r mod c_ r = 0) by (rewrite E1; apply N.mod_mul; lia).
    assert (En : n_ r = c') by (unfold cce in E2; clear - E1 E2; lia).
    unfold exact in Hx. unfold clipped in Hcl. rewrite Hi in Hx, Hcl. cbn [andb] in Hx, Hcl.
    change (0 =? 0) with true in Hx, Hcl. cbn [andb] in Hx, Hcl. apply N.eqb_neq in Hx.
    apply andb_false_iff in Hcl. rewrite N.eqb_neq, N.ltb_ge in Hcl.
    unfold c' in En. rewrite <- E1 in En. clear - En Hx Hcl Hs. lia. }
  rewrite Hstop in M'. cbn [andb] in M'.
  assert (Ha : 0 < a) by (unfold a; clear - Ho2; lia).
  assert (Hbound : a * V <= 3 * e + 2 * (V * pc (r :: rs))).
  { assert (a * V <= (q + a) * V) by (apply N.mul_le_mono_r; lia). lia. }
  exists a. destruct (N.lt_ge_cases (o + t) (n_ r)) as [Hlt|Hge].
  - split; [|intros Z; exfalso; clear - Z Hlt; lia].
    assert (Ek0 : k1 = 0) by (apply N.div_small; auto).
    assert (Ea : a = o2 - o) by (unfold a; rewrite Ek0; lia).
    assert (Eqa : q + a = n_ r * (q / n_ r) + o2) by (rewrite Ea; clear - Eq Ho2; lia).
    assert (Ed1 : (q + a) mod n_ r = o2 mod n_ r).
    { rewrite Eqa, N.add_comm, N.mul_comm, N.mod_add by lia. reflexivity. }
    assert (Ed2 : (q + a) / n_ r = q / n_ r + o2 / n_ r).
    { rewrite Eqa, N.mul_comm, N.div_add_l by lia. reflexivity. }
    split; [auto|]. split; [auto|]. left. split.
    + do 4 eexists. split; [exact M'|]. rewrite Ek0, N.add_0_l. split.
      * apply carry_loop_dig; auto. rewrite <- Ed2.
        pose proof (div_le_self (q + a) (n_ r) ltac:(lia)). lia.
      * cbn [app map dig]. rewrite Ed1, Ed2. reflexivity.
    + intros _ _. cbn [bnd]. rewrite Hx. unfold runstart. rewrite Ed1. destruct (N.eq_dec o2 (n_ r)) as [E|E].
      * left. rewrite E. apply N.mod_same. lia.
      * right. rewrite (N.mod_small o2) by lia.
        assert (Hc'c : c' = c_ r) by (clear - E G1 G2 G3 G4 Hs; unfold o2, cce, c' in *; lia).
        replace (i_ r + o2) with (((i_ r + o) / c_ r + 1) * c_ r); [apply N.mod_mul; lia|].
        assert (Eo2 : o2 = cce) by (clear - E; unfold o2 in *; lia).
        rewrite Eo2. unfold cce. rewrite Hc'c. rewrite N.mul_add_distr_r. fold co. clear - G2 G3 G4 G5. lia.
  - assert (B : badR e t V (r :: rs) q a).
    { split; [do 3 eexists; exact M'|]. intros [S _].
      destruct (same_row_inv r rs q a Hr Hx S) as [R _]. fold o in R.
      assert (1 <= k1) by (apply N.div_le_lower_bound; lia).
      assert (n_ r * 1 <= n_ r * k1) by (apply N.mul_le_mono_l; auto).
      unfold a in R. clear - R H0 Ho2. lia. }
    split; [|auto]. split; [auto|]. split; [auto|]. right. exact B.
Qed.

(** A dimension of which the clipped last chunk is selected, with fewer rows accounted for
    than it has. *)
Lemma clipped_facts r : dwf r -> clipped r = true -> exact r = false /\ i_ r mod c_ r = 0 /\ i_ r + n_ r = s_ r /\ n_ r < c_ r.
Proof.
  intros Hr H. unfold clipped in H. apply andb_true_iff in H as [H H3]. apply andb_true_iff in H as [H1 H2].
  apply N.ltb_lt in H3. split; [|now apply N.eqb_eq in H1, H2].
  unfold exact. destruct (N.eqb_spec (n_ r) (c_ r)); [lia|]. apply andb_false_r.
Qed.

Lemma clip_step e V r rs q t :
  dwf r -> Forall dwf rs -> clipped r = true -> 0 < V -> q mod n_ r = 0 -> t < n_ r -> 1 < n_ r ->
  e = V * pn (r :: rs) -> q + t < pn (r :: rs) -> 4 * e < W64 ->
  adv_loop Release e (mkrs V (r :: rs) q) t (t * V) ((q + t) * V) =
    if (q + n_ r) * V <? e then
      let* (vis, rest, k', A, F) :=
         adv_loop Release e (mkrs (V * c_ r) rs (q / n_ r)) 1 (n_ r * V) ((q + n_ r) * V) in
      Ok (0 :: vis, rest, k', A, F)
    else Ok ([0], mkrs (V * c_ r) rs (q / n_ r), 1, n_ r * V, (q + n_ r) * V).
Proof.
  intros Hr HF Hcl HV Hq0 Ht Hn1 He Hq HS. pose proof Hr as (Hn & Hc & Hs & HW).
  destruct (clipped_facts r Hr Hcl) as (Hx & Hi & Hin & Hnc).
  pose proof (sizesR e V (r :: rs) q t HV He Hq HS) as SZ.
  pose proof (pn_pos rs HF) as Hpn.
  pose proof (main_stepR e V r rs q t Hr HV) as M. cbv zeta in M.
  rewrite Hq0, N.add_0_l, N.add_0_r, N.sub_0_r, (N.div_small t), N.mul_0_r, N.add_0_r, N.add_0_l in M by auto.
  pose proof (divmod_eq (i_ r) (c_ r) ltac:(lia)) as Ei. rewrite Hi, N.add_0_r in Ei.
  replace (i_ r / c_ r * c_ r) with (i_ r) in M by (rewrite N.mul_comm; auto).
  replace (N.min (c_ r) (s_ r - i_ r)) with (n_ r) in M by lia.
  replace (i_ r + n_ r - i_ r) with (n_ r) in M by lia.
  rewrite N.min_id, !N.eqb_refl, N.mod_same, N.div_same in M by lia. cbn [andb] in M.
  assert (Hnp1 : n_ r <= pn (r :: rs)) by (rewrite pnc; apply le_mul_pos; lia).
  destruct (SZ (q + n_ r) ltac:(lia)) as (Z1 & _). destruct (SZ (q + t) ltac:(lia)) as (Z2 & _).
  destruct (SZ t ltac:(lia)) as (_ & Z3 & _).
  destruct M as [_ M]; auto. left. lia.
Qed.

Lemma pc_le e V r rs : 0 < c_ r -> Forall dwf rs -> 0 < V -> 4 * e + 4 * (V * pc (r :: rs)) < W64 ->
  4 * e + 4 * (V * c_ r * pc rs) < W64 /\ V <= V * c_ r /\ V * c_ r <= V * c_ r * pc rs.
Proof.
  intros Hc HF HV H. pose proof (pc_pos rs HF) as Hp. rewrite pcc in H. split; [lia|].
  split; apply le_mul_pos; lia.
Qed.

Lemma tail_clip e V r rs t q1 :
  dwf r -> Forall dwf rs -> clipped r = true -> 0 < V -> t < n_ r -> 1 < n_ r ->
  e = V * pn (r :: rs) -> 4 * e + 4 * (V * pc (r :: rs)) < W64 -> q1 + 1 < pn rs ->
  (forall q', q' < q1 -> exists adv soff vis rest k F,
     adv_loop Debug e (mkrs (V * c_ r) rs q') 1 adv soff = Ok (vis, rest, k, adv, F)) ->
  tail e (V * c_ r) rs q1 1 (n_ r * V) ((n_ r * q1 + n_ r) * V).
Proof.
  intros Hr HF Hcl HV Ht Hn1 He HS Hq HQ. pose proof Hr as (Hn & Hc & Hs & HW).
  destruct (clipped_facts r Hr Hcl) as (Hx & Hi & Hin & Hnc).
  destruct (pc_le e V r rs Hc HF HV HS) as (S1 & S2 & S3).
  assert (Hle : (n_ r * q1 + n_ r) * V <= e).
  { rewrite He, pnc, (N.mul_comm V). apply N.mul_le_mono_r. apply row_end; lia. }
  assert (Hnv : n_ r * V <= (n_ r * q1 + n_ r) * V) by (apply N.mul_le_mono_r; lia).
  apply tail_one; auto; try lia.
  - assert (V * 2 <= V * c_ r) by (apply N.mul_le_mono_l; lia). lia.
  - pose proof (pn_pos rs HF) as Hpp.
    assert (P1 : pn rs <= n_ r * pn rs) by (rewrite N.mul_comm; apply le_mul_pos; lia).
    assert (P2 : n_ r * pn rs <= e) by (rewrite He, pnc, (N.mul_comm V); apply le_mul_pos; lia). clear - P1 P2 S1. lia.
Qed.

(** Right steps pass their carry through the outer dimensions. *)
Lemma clip_tails e V r rs t lim :
  dwf r -> Forall dwf rs -> clipped r = true -> 0 < V -> t < n_ r -> 1 < n_ r ->
  e = V * pn (r :: rs) -> 4 * e + 4 * (V * pc (r :: rs)) < W64 ->
  (forall q', q' < lim -> q' + 1 < pn rs -> exists a, goodR e t V (r :: rs) (n_ r * q') a) ->
  forall q', q' < lim -> q' + 1 < pn rs -> exists adv soff vis rest k F,
     adv_loop Debug e (mkrs (V * c_ r) rs q') 1 adv soff = Ok (vis, rest, k, adv, F).
Proof.
  intros Hr HF Hcl HV Ht Hn1 He HS HQ.
  induction q' as [q' IH] using (well_founded_induction N.lt_wf_0). intros Hl Hq.
  pose proof Hr as (Hn & Hc & Hs & HW).
  destruct (clipped_facts r Hr Hcl) as (Hx & Hi & Hin & Hnc).
  destruct (tail_clip e V r rs t q' Hr HF Hcl HV Ht Hn1 He HS Hq) as [T|(x & X1 & X2 & X3)].
  { intros q2 H2. apply IH; auto; lia. }
  - destruct (T Debug) as (vis & rest & k & os & L1 & _). do 6 eexists. exact L1.
  - exfalso. destruct (HQ q' Hl Hq) as [a G]. pose proof (goodR_relr _ _ _ _ _ _ G) as R.
    destruct (row_pos (n_ r) q' 0 Hn) as [D1 D2]. rewrite N.add_0_r in D1, D2.
    assert (Hlt : n_ r * (q' + 1) < n_ r * pn rs) by (apply N.mul_lt_mono_pos_l; auto).
    assert (Hn2 : n_ r * q' + t < pn (r :: rs)) by (rewrite pnc; lia).
    assert (HB : n_ r * V + x * (V * c_ r) = (n_ r + x * c_ r) * V) by lia.
    assert (R2 : relr e V (r :: rs) (n_ r * q') t (t * V) ((n_ r * q' + t) * V) ((n_ r + x * c_ r) * V)
                   ((n_ r * q' + n_ r) * V + x * (V * c_ r))).
    { destruct X3 as (vis & rest & k & L). exists (0 :: vis), rest, k.
      rewrite (clip_step e V r rs (n_ r * q') t) by (auto; lia).
      replace ((n_ r * q' + n_ r) * V <? e) with true.
      2:{ symmetry. apply N.ltb_lt. rewrite He, (N.mul_comm V), pnc. apply N.mul_lt_mono_pos_r; lia. }
      rewrite D2, L. cbn [bind]. rewrite HB. reflexivity. }
    pose proof (relr_det _ _ _ _ _ _ _ _ _ _ _ HV R2 R) as Ea.
    destruct G as (_ & S & _). rewrite <- Ea in S.
    destruct (same_row_inv r rs _ _ Hr Hx S) as [R1 _]. rewrite D1 in R1.
    assert (0 < x * c_ r) by (apply N.mul_pos_pos; auto). lia.
Qed.

Lemma clipR e t V r rs q :
  dwf r -> Forall dwf rs -> clipped r = true -> 0 < V -> t < n_ r -> 1 < n_ r -> bnd (r :: rs) q ->
  e = V * pn (r :: rs) -> q + t < pn (r :: rs) -> 4 * e + 4 * (V * pc (r :: rs)) < W64 ->
  (forall q', q' < q -> bnd (r :: rs) q' -> exists a, goodR e t V (r :: rs) q' a) ->
  exists a, resR e t V (r :: rs) q a.
Proof.
  intros Hr HF Hcl HV Ht Hn1 Hb He Hq HS HQ. pose proof Hr as (Hn & Hc & Hs & HW).
  destruct (clipped_facts r Hr Hcl) as (Hx & Hi & Hin & Hnc).
  destruct (pc_le e V r rs Hc HF HV HS) as (S1 & S2 & S3).
  cbn [bnd] in Hb. rewrite Hx in Hb.
  assert (Hq0 : q mod n_ r = 0).
  { destruct Hb as [Hb|Hb]; [auto|]. assert (Ho : q mod n_ r < n_ r) by (apply N.mod_lt; lia).
    pose proof (divmod_eq (i_ r) (c_ r) ltac:(lia)) as Ei. rewrite Hi, N.add_0_r in Ei.
    rewrite Ei, (N.mul_comm (c_ r)), N.add_comm, N.mod_add, N.mod_small in Hb by lia. exact Hb. }
  pose proof (divmod_eq q (n_ r) ltac:(lia)) as Eq. rewrite Hq0, N.add_0_r in Eq.
  set (q1 := q / n_ r) in *.
  assert (Hq1 : q1 < pn rs) by (apply N.div_lt_upper_bound; rewrite <- ?pnc; lia).
  assert (Hle : (q + n_ r) * V <= e).
  { rewrite He, pnc, (N.mul_comm V), Eq. apply N.mul_le_mono_r. apply row_end; lia. }
  assert (Hnv : n_ r * V <= (q + n_ r) * V) by (apply N.mul_le_mono_r; lia).
  pose proof (clip_step e V r rs q t Hr HF Hcl HV Hq0 Ht Hn1 He Hq ltac:(lia)) as M. fold q1 in M.
  assert (Dm : (q + n_ r) mod n_ r = 0 /\ (q + n_ r) / n_ r = q1 + 1).
  { destruct (row_pos (n_ r) (q1 + 1) 0 Hn) as [D1 D2]. rewrite N.add_0_r in D1, D2.
    replace (n_ r * (q1 + 1)) with (q + n_ r) in D1, D2 by (rewrite Eq; lia). auto. }
  destruct Dm as [D1 D2].
  assert (Hbe : bnd (r :: rs) (q + n_ r)) by (cbn [bnd]; rewrite Hx; left; exact D1).
  destruct (N.ltb_spec ((q + n_ r) * V) e) as [Hlt|Hge].
  - assert (Hq1n : q1 + 1 < pn rs).
    { rewrite He, (N.mul_comm V), pnc in Hlt. apply N.mul_lt_mono_pos_r in Hlt; auto. rewrite Eq in Hlt.
      apply (N.mul_lt_mono_pos_l (n_ r)); lia. }
    assert (HT : tail e (V * c_ r) rs q1 1 (n_ r * V) ((q + n_ r) * V)).
    { rewrite Eq. apply (tail_clip e V r rs t); auto.
      intros q' Hq'. apply (clip_tails e V r rs t q1); auto; try lia.
      intros q2 H2 _. apply HQ.
      - rewrite Eq. apply N.mul_lt_mono_pos_l; auto.
      - cbn [bnd]. rewrite Hx. left. destruct (row_pos (n_ r) q2 0 Hn) as [Y1 _]. now rewrite N.add_0_r in Y1. }
    destruct HT as [HT|(x & X1 & X2 & X3)].
    + exists (n_ r). split; [auto|]. split; [lia|]. left. split; [|auto].
      destruct (HT Release) as (vis & rest & k & os & L1 & L2 & L3).
      exists (0 :: vis), rest, k, os. rewrite M, L1. cbn [bind]. split; [reflexivity|]. split; [auto|].
      cbn [app map dig]. rewrite D1, D2, L3. reflexivity.
    + assert (HB : n_ r * V + x * (V * c_ r) = (n_ r + x * c_ r) * V) by lia.
      assert (HB2 : (q + n_ r) * V + x * (V * c_ r) = (q + (n_ r + x * c_ r)) * V) by lia.
      assert (Hx0 : 0 < x * c_ r) by (apply N.mul_pos_pos; auto).
      exists (n_ r + x * c_ r). split; [lia|]. split.
      * rewrite <- HB, pcc. pose proof (N.mul_le_mono_r _ _ (V * c_ r) X2). lia.
      * right. split.
        -- destruct X3 as (vis & rest & k & L). exists (0 :: vis), rest, k. rewrite M, L. cbn [bind].
           rewrite HB, HB2. reflexivity.
        -- intros [S _]. destruct (same_row_inv r rs _ _ Hr Hx S) as [R1 _]. rewrite Hq0 in R1. lia.
  - exists (n_ r). split; [auto|]. split; [lia|]. left. split; [|auto].
    exists [0], (mkrs (V * c_ r) rs q1), 1, (dig (map n_ rs) (q1 + 1)). split; [exact M|]. split.
    + apply carry_loop_dig; auto.
      assert (P1 : pn rs <= n_ r * pn rs) by (rewrite N.mul_comm; apply le_mul_pos; lia).
      assert (P2 : n_ r * pn rs <= e) by (rewrite He, pnc, (N.mul_comm V); apply le_mul_pos; lia). clear - P1 P2 S1 Hq1. lia.
    + cbn [app map dig]. rewrite D1, D2. reflexivity.
Qed.

(** The last chunk is clipped to one element: from its element in the first row, a step of
    more than one is wrong. *)
Lemma lastR e t V r rs q :
  dwf r -> Forall dwf rs -> exact r = false -> 1 < V -> q + 1 = n_ r -> 2 <= t -> t < n_ r ->
  N.min (c_ r) (s_ r - (i_ r + q mod n_ r) / c_ r * c_ r) = 1 ->
  e = V * pn (r :: rs) -> q + t < pn (r :: rs) -> 4 * e + 4 * (V * pc (r :: rs)) < W64 ->
  exists a, resR e t V (r :: rs) q a /\ badR e t V (r :: rs) q a.
Proof.
  intros Hr HF Hx HV Hqn Ht Htn Hcl He Hq HS. pose proof Hr as (Hn & Hc & Hs & HW).
  assert (HV0 : 0 < V) by lia.
  destruct (pc_le e V r rs Hc HF HV0 HS) as (S1 & S2 & S3).
  assert (Hqm : q mod n_ r = q) by (apply N.mod_small; lia).
  assert (Hqd : q / n_ r = 0) by (apply N.div_small; lia).
  assert (Hk : (q + t) / n_ r = 1).
  { apply (div_unique_N _ _ _ (t - 1)); lia. }
  assert (HqV : (q + t) * V <= e) by (rewrite He, (N.mul_comm V); apply N.mul_le_mono_r; lia).
  assert (HtV : t * V <= (q + t) * V) by (apply N.mul_le_mono_r; lia).
  assert (HpW : pn (r :: rs) <= e) by (rewrite He, N.mul_comm; apply le_mul_pos; lia).
  assert (HT : tail e (V * c_ r) rs 0 1 (t * V) ((q + t) * V)).
  { apply tail_zero; auto; try lia. }
  assert (Skip : forall A F, relr e (V * c_ r) rs 0 1 (t * V) ((q + t) * V) A F ->
     relr e V (r :: rs) q t (t * V) ((q + t) * V) A F).
  { intros A F X. apply skip_relr; auto; rewrite ?Hqm, ?Hqd, ?Hk; auto; lia. }
  assert (Hbad : forall a, 2 <= a -> ~ (sameplace (r :: rs) q a /\ q + a <= pn (r :: rs))).
  { intros a Ha [S _]. destruct (same_row_inv r rs _ _ Hr Hx S) as [R1 _]. rewrite Hqm in R1. lia. }
  assert (HX : exists x, x + 2 <= 2 * pc rs /\ relr e V (r :: rs) q t (t * V) ((q + t) * V) ((t + x * c_ r) * V) ((q + (t + x * c_ r)) * V)).
  { pose proof (pc_pos rs HF) as Hpp. destruct HT as [HT|(x & X1 & X2 & X3)].
    - exists 0. split; [lia|]. rewrite N.mul_0_l, N.add_0_r. apply Skip.
      destruct (HT Release) as (vis & rest & k & os & L1 & _). exists vis, rest, k. exact L1.
    - exists x. split; [auto|]. apply Skip in X3.
      replace ((t + x * c_ r) * V) with (t * V + x * (V * c_ r)) by lia.
      replace ((q + (t + x * c_ r)) * V) with ((q + t) * V + x * (V * c_ r)) by lia. exact X3. }
  destruct HX as (x & X2 & X3). exists (t + x * c_ r).
  assert (B : badR e t V (r :: rs) q (t + x * c_ r)) by (split; [exact X3|apply Hbad; lia]).
  split; [|exact B]. split; [lia|]. split; [|right; exact B].
  rewrite pcc. pose proof (N.mul_le_mono_r _ _ (V * c_ r) X2). lia.
Qed.

(** ** Through a dimension of which exactly one chunk is selected *)
Lemma exact_stepR e t V r rs q :
  dwf r -> Forall dwf rs -> exact r = true -> q mod n_ r = 0 -> 0 < V -> (V = 1 \/ c_ r <> 1) ->
  e = V * pn (r :: rs) -> q + t < pn (r :: rs) -> 4 * e < W64 ->
  q / n_ r + (t / c_ r + 1) <= pn rs /\
  e = pn rs * (V * c_ r) /\
  adv_loop Release e (mkrs V (r :: rs) q) t (t * V) ((q + t) * V)
    = exact_body Release e V (c_ r) rs (q / n_ r) (t / c_ r + 1).
Proof.
  intros Hr HF Hx Hq0 HV Hnp He Hq HS. pose proof Hr as (Hn & Hc & Hs & HW).
  destruct (exact_iff r Hx) as [Hi Hnc].
  pose proof (divmod_eq q (n_ r) ltac:(lia)) as Eq. rewrite Hq0, N.add_0_r in Eq.
  assert (HT : q / n_ r + (t / c_ r + 1) <= pn rs).
  { apply (exact_rows r); auto. rewrite <- Eq, <- pnc. auto. }
  assert (Hee : e = pn rs * (V * c_ r)) by (rewrite He, pnc, Hnc; clear; lia).
  split; [auto|]. split; [auto|].
  assert (HpW : pn (r :: rs) <= e) by (rewrite He, N.mul_comm; apply le_mul_pos; lia).
  assert (Hpp : pn rs <= pn (r :: rs)) by (rewrite pnc, N.mul_comm; apply le_mul_pos; lia).
  assert (Hle : (q / n_ r + (t / c_ r + 1)) * (V * c_ r) <= e) by (rewrite Hee; apply N.mul_le_mono_r; auto).
  assert (HtW : t / c_ r + 1 < W64).
  { clear - HT Hpp HpW HS. set (x := t / c_ r) in *. set (y := q / n_ r) in *. clearbody x y. lia. }
  apply exact_step; auto; clear - HS Hq HpW; lia.
Qed.

Section Exact.
Context (e t V : N) (r : dim) (rs : list dim).
Hypothesis Hr : dwf r.
Hypothesis HF : Forall dwf rs.
Hypothesis Hx : exact r = true.
Hypothesis HV : 0 < V.
Hypothesis He : e = V * pn (r :: rs).
Hypothesis HS : 4 * e + 4 * (V * pc (r :: rs)) < W64.

Lemma ex_pos q a : q mod n_ r = 0 ->
  (q / n_ r + a) * (V * c_ r) = (q + c_ r * a) * V /\ a * (V * c_ r) = c_ r * a * V /\
  (q + c_ r * a) mod n_ r = 0 /\ (q + c_ r * a) / n_ r = q / n_ r + a.
Proof.
  intros Hq0. pose proof Hr as (Hn & Hc & Hs & HW). destruct (exact_iff r Hx) as [Hi Hnc].
  pose proof (divmod_eq q (n_ r) ltac:(lia)) as Eq. rewrite Hq0, N.add_0_r in Eq.
  split; [|split; [|]].
  - rewrite Eq at 2. rewrite Hnc. clear. set (x := q / c_ r). clearbody x. lia.
  - clear. lia.
  - rewrite Eq at 1 2. rewrite <- Hnc, <- N.mul_add_distr_l, N.mul_comm. split; [apply N.mod_mul; lia|apply N.div_mul; lia].
Qed.

Lemma ex_same q a : q mod n_ r = 0 -> sameplace (r :: rs) q (c_ r * a) -> sameplace rs (q / n_ r) a.
Proof.
  intros Hq0 S. pose proof Hr as (Hn & Hc & _). apply (same_exact_inv r rs q a (c_ r * a) Hr Hx Hq0 S).
  intros j Hj. apply N.mul_lt_mono_pos_l; auto.
Qed.

Lemma ex_le q a : q mod n_ r = 0 -> (q + c_ r * a <= pn (r :: rs) <-> q / n_ r + a <= pn rs).
Proof.
  intros Hq0. pose proof Hr as (Hn & Hc & Hs & HW). destruct (exact_iff r Hx) as [Hi Hnc].
  pose proof (divmod_eq q (n_ r) ltac:(lia)) as Eq. rewrite Hq0, N.add_0_r in Eq.
  rewrite pnc, Eq at 1. rewrite <- Hnc, <- N.mul_add_distr_l. symmetry. apply N.mul_le_mono_pos_l. auto.
Qed.

Hypothesis Hnp : V = 1 \/ c_ r <> 1.
Let t' := t / c_ r + 1.

Lemma ex_bnd q a : q mod n_ r = 0 -> bnd rs (q / n_ r + a) -> bnd (r :: rs) (q + c_ r * a).
Proof.
  intros Hq0 H. destruct (ex_pos q a Hq0) as (_ & _ & E1 & E2). cbn [bnd]. rewrite Hx, E1, E2. auto.
Qed.

(** Up. *)
Lemma ex_up q a : q mod n_ r = 0 -> q + t < pn (r :: rs) -> q / n_ r + t' < pn rs ->
  resR e t' (V * c_ r) rs (q / n_ r) a -> resR e t V (r :: rs) q (c_ r * a).
Proof.
  intros Hq0 Hq Hlt (A1 & A2 & A3). pose proof Hr as (Hn & Hc & Hs & HW).
  destruct (ex_pos q a Hq0) as (C1 & C2 & D1 & D2).
  destruct (exact_stepR e t V r rs q Hr HF Hx Hq0 HV Hnp He Hq ltac:(lia)) as (_ & Hee & Hst). fold t' in Hst.
  assert (HVc : 0 < V * c_ r) by (apply N.mul_pos_pos; auto).
  unfold exact_body in Hst.
  replace ((q / n_ r + t') * (V * c_ r) <? e) with true in Hst
    by (symmetry; apply N.ltb_lt; rewrite Hee at 1; apply N.mul_lt_mono_pos_r; auto).
  split; [apply N.mul_pos_pos; auto|]. split; [rewrite <- C2, pcc, (N.mul_assoc V); exact A2|].
  destruct A3 as [A3|[A3 A4]].
  - left. destruct A3 as [(vis & rest & k & os & L1 & L2 & L3) A3]. split.
    + exists (0 :: vis), rest, k, os. rewrite Hst, L1. cbn [bind]. rewrite <- C1, <- C2. split; [reflexivity|]. split; [auto|].
      cbn [app map dig]. rewrite D1, D2, L3. reflexivity.
    + intros S L. apply ex_bnd; auto. apply A3; [now apply ex_same|now apply ex_le].
  - right. split.
    + destruct A3 as (vis & rest & k & L). exists (0 :: vis), rest, k. rewrite Hst, L. cbn [bind]. now rewrite <- C1, <- C2.
    + intros [S L]. apply A4. split; [now apply ex_same|now apply ex_le].
Qed.

(** The end. *)
Lemma ex_end q : q mod n_ r = 0 -> q + t < pn (r :: rs) -> q / n_ r + t' = pn rs ->
  resR e t V (r :: rs) q (c_ r * t').
Proof.
  intros Hq0 Hq Heq. pose proof Hr as (Hn & Hc & Hs & HW).
  destruct (ex_pos q t' Hq0) as (C1 & C2 & D1 & D2).
  destruct (exact_stepR e t V r rs q Hr HF Hx Hq0 HV Hnp He Hq ltac:(lia)) as (_ & Hee & Hst). fold t' in Hst.
  unfold exact_body in Hst.
  replace ((q / n_ r + t') * (V * c_ r) <? e) with false in Hst
    by (symmetry; apply N.ltb_ge; rewrite Heq, Hee at 1; apply N.le_refl).
  assert (Ht' : 0 < t') by (unfold t'; rewrite N.add_1_r; apply N.lt_0_succ).
  pose proof (pn_pos rs HF) as Hpp.
  assert (HpW : pn (r :: rs) <= e) by (rewrite He, N.mul_comm; apply le_mul_pos; lia).
  assert (Hpp2 : pn rs <= pn (r :: rs)) by (rewrite pnc, N.mul_comm; apply le_mul_pos; lia).
  assert (Hle : c_ r * t' * V <= e).
  { rewrite <- C2, Hee at 1. apply N.mul_le_mono_r. rewrite <- Heq, N.add_comm. apply N.le_add_r. }
  split; [apply N.mul_pos_pos; auto|]. split; [lia|]. left. split.
  - exists [0], (mkrs (V * c_ r) rs (q / n_ r)), t', (dig (map n_ rs) (q / n_ r + t')).
    rewrite Hst. cbn [dbg bind]. rewrite <- C1, <- C2. split; [reflexivity|]. split.
    + apply carry_loop_dig; auto. rewrite Heq. lia.
    + cbn [app map dig]. rewrite D1, D2. reflexivity.
  - intros _ _. apply ex_bnd; auto. rewrite Heq. now apply bnd_end.
Qed.

(** Down. *)
Lemma ex_down q' : n_ r * q' + t < pn (r :: rs) -> q' + t' < pn rs ->
  (exists a, resR e t' (V * c_ r) rs q' a) -> (exists b, goodR e t V (r :: rs) (n_ r * q') b) ->
  exists a, goodR e t' (V * c_ r) rs q' a.
Proof.
  intros Hq Hlt [a A] [b B]. pose proof Hr as (Hn & Hc & Hs & HW).
  destruct (row_pos (n_ r) q' 0 Hn) as [D1 D2]. rewrite N.add_0_r in D1, D2.
  pose proof (ex_up (n_ r * q') a D1 Hq) as U. rewrite D2 in U. specialize (U Hlt A).
  destruct (res_good _ _ _ _ _ _ _ HV U B) as [(_ & S & L & P) _].
  apply (ex_same _ _ D1) in S. apply (proj1 (ex_le _ _ D1)) in L. rewrite D2 in S, L.
  exists a. destruct A as (A1 & A2 & [A3|[_ A3]]); [|exfalso; auto].
  split; [auto|]. auto.
Qed.
Lemma ex_down_end q' : n_ r * q' + t < pn (r :: rs) -> q' + t' = pn rs ->
  (exists b, goodR e t V (r :: rs) (n_ r * q') b) -> sameplace rs q' t'.
Proof.
  intros Hq Heq [b B]. pose proof Hr as (Hn & Hc & Hs & HW).
  destruct (row_pos (n_ r) q' 0 Hn) as [D1 D2]. rewrite N.add_0_r in D1, D2.
  pose proof (ex_end (n_ r * q') D1 Hq) as U. rewrite D2 in U. specialize (U Heq).
  destruct (res_good _ _ _ _ _ _ _ HV U B) as [(_ & S & L & P) _].
  apply (ex_same _ _ D1) in S. now rewrite D2 in S.
Qed.
End Exact.

(** ** Through a dimension passed over *)
Section Pass.
Context (e t V : N) (r : dim) (rs : list dim).
Hypothesis Hr : dwf r.
Hypothesis HF : Forall dwf rs.
Hypothesis Ec : c_ r = 1.
Hypothesis En : n_ r = 1.
Hypothesis HV : 1 < V.
Hypothesis HtW : t < W64.

Lemma ps_exact : exact r = true.
Proof. unfold exact. rewrite Ec, En, N.mod_1_r. reflexivity. Qed.
Lemma ps_pn : pn (r :: rs) = pn rs.
Proof. rewrite pnc, En. apply N.mul_1_l. Qed.
Lemma ps_pc : pc (r :: rs) = pc rs.
Proof. rewrite pcc, Ec. apply N.mul_1_l. Qed.
Lemma ps_bnd q : bnd (r :: rs) q <-> bnd rs q.
Proof. cbn [bnd]. rewrite ps_exact, En, N.mod_1_r, N.div_1_r. tauto. Qed.
Lemma ps_same q a : sameplace (r :: rs) q a -> sameplace rs q a.
Proof.
  intros S. assert (Hz : q mod n_ r = 0) by (rewrite En; apply N.mod_1_r).
  pose proof (same_exact_inv r rs q a a Hr ps_exact Hz S) as S'. rewrite En, N.div_1_r in S'. apply S'.
  intros j Hj. rewrite Ec. lia.
Qed.
Lemma ps_step q adv soff : adv_loop Release e (mkrs V (r :: rs) q) t adv soff =
  let* (vis, rest, k', a, f) := adv_loop Release e (mkrs V rs q) t adv soff in Ok (0 :: vis, rest, k', a, f).
Proof.
  assert (Et : thin r = true) by (unfold thin; rewrite Ec; reflexivity).
  rewrite skip_step; auto; try lia.
  - rewrite Ec, En, N.mul_1_r, !N.div_1_r, !N.mod_1_r, N.add_0_l. reflexivity.
  - rewrite En, N.mod_1_r. lia.
  - now apply thin_clip.
Qed.

Lemma ps_up q a : resR e t V rs q a -> resR e t V (r :: rs) q a.
Proof.
  intros (A1 & A2 & A3). split; [auto|]. split; [rewrite ps_pc; auto|].
  destruct A3 as [[(vis & rest & k & os & L1 & L2 & L3) A3]|[(vis & rest & k & L1) A3]].
  - left. split.
    + exists (0 :: vis), rest, k, os. rewrite ps_step, L1. cbn [bind]. split; [reflexivity|]. split; [auto|].
      cbn [app map dig]. rewrite En, N.mod_1_r, N.div_1_r, L3. reflexivity.
    + intros S L. apply ps_bnd, A3; [now apply ps_same|now rewrite <- ps_pn].
  - right. split.
    + exists (0 :: vis), rest, k. rewrite ps_step, L1. reflexivity.
    + intros [S L]. apply A3. split; [now apply ps_same|now rewrite <- ps_pn].
Qed.

Lemma ps_down q : (exists a, resR e t V rs q a) -> (exists b, goodR e t V (r :: rs) q b) ->
  exists a, goodR e t V rs q a.
Proof.
  intros [a A] [b B]. assert (HV0 : 0 < V) by lia.
  destruct (res_good _ _ _ _ _ _ _ HV0 (ps_up q a A) B) as [(_ & S & L & P) _].
  apply ps_same in S. rewrite ps_pn in L.
  exists a. destruct A as (A1 & A2 & [A3|[_ A3]]); [|exfalso; auto]. split; auto.
Qed.
End Pass.

(** ** After exactly one row *)
Section One.
Context (e V : N) (rs : list dim).
Hypothesis HF : Forall dwf rs.
Hypothesis HV : 1 < V.
Hypothesis He : e = V * pn rs.
Hypothesis HS : 4 * e + 4 * (V * pc rs) < W64.

Lemma one_res q : bnd rs q -> q + 1 < pn rs ->
  (forall q', q' < q -> bnd rs q' -> exists a, stepw e 1 V rs q' a) ->
  exists a, resR e 1 V rs q a /\ (goodR e 1 V rs q a -> stepw e 1 V rs q a).
Proof.
  intros Hb Hq HQ.
  destruct (xfer e rs 1 V q) as (a & A1 & A2 & A3); auto; try lia.
  exists a. split.
  - split; [auto|]. split; [lia|]. destruct A3 as [A3|A3]; [left|right; exact A3].
    split; [exact (A3 Release)|]. intros S L.
    apply (step_max e rs 1 V q a HF Hb); auto; try lia.
    destruct (A3 Debug) as (vis & rest & k & os & L1 & _). exists vis, rest, k. auto.
  - intros (_ & S & L & _). destruct A3 as [A3|[_ A3]]; [|exfalso; auto].
    destruct (A3 Debug) as (vis & rest & k & os & L1 & _). exists vis, rest, k. auto.
Qed.

Lemma one_steps lim : (forall q, bnd rs q -> q < lim -> q + 1 < pn rs -> exists a, goodR e 1 V rs q a) ->
  forall q, bnd rs q -> q < lim -> q + 1 < pn rs -> exists a, stepw e 1 V rs q a.
Proof.
  intros HG. induction q as [q IH] using (well_founded_induction N.lt_wf_0). intros Hb Hl Hq.
  destruct (one_res q Hb Hq) as (a & A1 & A2).
  { intros q' H1 H2. apply IH; auto; lia. }
  destruct (HG q Hb Hl Hq) as [b B]. assert (HV0 : 0 < V) by lia.
  destruct (res_good _ _ _ _ _ _ _ HV0 A1 B) as [G _]. eauto.
Qed.
End One.

(** The first piece of a row. *)
Lemma first_main r V : dwf r -> clipped r = false -> (c_ r = 1 -> V = 1) ->
  N.min (c_ r) (s_ r - (i_ r + 0 mod n_ r) / c_ r * c_ r) <> 1 \/ V = 1.
Proof.
  intros Hr Hcl Hc1. pose proof Hr as (Hn & Hc & Hs & HW).
  destruct (clip_not_pass r 0 V Hr) as [[P1 P2]|P]; [exfalso|exact P].
  assert (Ec : c_ r <> 1) by auto. destruct (clip_one r 0 Hr Ec P1) as [O1 _].
  rewrite N.mod_0_l, ?N.add_0_r in * by lia.
  pose proof (divmod_eq (i_ r) (c_ r) ltac:(lia)) as Ei. unfold clipped in Hcl.
  set (z := i_ r / c_ r) in *. set (y := i_ r mod c_ r) in *.
  assert (y = 0 /\ i_ r + n_ r = s_ r /\ n_ r < c_ r) as (Y1 & Y2 & Y3).
  { clear - P1 Ei Hs Ec Hc Hn O1. clearbody z y. lia. }
  apply N.eqb_eq in Y1, Y2. apply N.ltb_lt in Y3. rewrite Y1, Y2, Y3 in Hcl. discriminate.
Qed.

(** ** A whole step *)
Lemma xferR e rs : forall t V q,
  Forall dwf rs -> bnd rs q -> start t V rs -> killer t V rs = false -> 0 < V ->
  e = V * pn rs -> q + t < pn rs -> 4 * e + 4 * (V * pc rs) < W64 ->
  (forall q', q' < q -> bnd rs q' -> exists a, goodR e t V rs q' a) ->
  exists a, resR e t V rs q a.
Proof.
  induction rs as [|r rs IH]; intros t V q HF Hb Hst HK HV He Hq HS HQ.
  { exfalso. unfold pn in Hq. cbn in Hq. destruct Hst as [|[[]|[[]|(_ & _ & [])]]]; lia. }
  assert (H1 : (t = 1 /\ 1 < V) \/ ~ (t = 1 /\ 1 < V)) by lia.
  destruct H1 as [[-> HV1]|Hn1].
  { destruct (one_res e V (r :: rs) HF HV1 He HS q Hb Hq) as (a & A & _); [|eauto].
    intros q' Hq' Hb'. apply (one_steps e V (r :: rs) HF HV1 He HS q); auto; lia. }
  inversion HF as [|? ? Hr HF']; subst x l. pose proof Hr as (Hn & Hc & Hs & HW).
  pose proof (pn_pos rs HF') as Hpn.
  destruct (pc_le e V r rs Hc HF' HV HS) as (S1 & S2 & S3).
  pose proof (divmod_eq q (n_ r) ltac:(lia)) as Eq.
  assert (HpW : pn (r :: rs) <= e) by (rewrite He, N.mul_comm; apply le_mul_pos; lia).
  cbn [killer] in HK. destruct (N.leb_spec (pn (r :: rs)) t) as [|_]; [lia|].
  destruct (exact r) eqn:Hx.
  - destruct (exact_iff r Hx) as [Hi Hnc].
    pose proof Hb as Hb'. cbn [bnd] in Hb'. rewrite Hx in Hb'. destruct Hb' as [Hq0 Hb2].
    destruct ((c_ r =? 1) && negb (V =? 1)) eqn:Ep.
    + (* passed over *)
      apply andb_true_iff in Ep as [Ec EV]. apply N.eqb_eq in Ec. apply negb_true_iff, N.eqb_neq in EV.
      assert (En : n_ r = 1) by lia. assert (HV1 : 1 < V) by lia. assert (HtW : t < W64) by lia.
      assert (Ht2 : 2 <= t) by (destruct Hst as [|[|[(_ & E & _)|(_ & E & _)]]]; [auto|exfalso; auto|exfalso; auto|exfalso; auto]).
      rewrite (ps_pn r rs En) in *. rewrite (ps_pc r rs Ec) in *.
      assert (Hbq : forall q, bnd (r :: rs) q <-> bnd rs q) by (intros; apply ps_bnd; auto).
      assert (HG : forall x, bnd rs x -> x < q -> exists a, goodR e t V rs x a).
      { induction x as [x IHx] using (well_founded_induction N.lt_wf_0). intros Hbx Hxq.
        apply (ps_down e t V r rs Hr Ec En HV1 HtW).
        - apply IH; auto; [left; auto|lia|]. intros q' H1 H2. apply IHx; auto. lia.
        - apply HQ; auto. now apply Hbq. }
      destruct (IH t V q HF') as [a A]; auto; [now apply Hbq|left; auto|].
      exists a. apply ps_up; auto.
    + assert (Hnp : V = 1 \/ c_ r <> 1).
      { apply andb_false_iff in Ep. rewrite N.eqb_neq, negb_false_iff, N.eqb_eq in Ep. tauto. }
      set (t' := t / c_ r + 1) in *.
      destruct (exact_stepR e t V r rs q Hr HF' Hx Hq0 HV Hnp He Hq ltac:(lia)) as (HT & Hee & _). fold t' in HT.
      destruct (N.eq_dec (q / n_ r + t') (pn rs)) as [Heq|Hne].
      { eexists. apply (ex_end e t V r rs); eauto. }
      assert (Hlt : q / n_ r + t' < pn rs) by (clear - HT Hne; set (x := q / n_ r) in *; clearbody x t'; lia).
      assert (HVc : 0 < V * c_ r) by (apply N.mul_pos_pos; auto).
      assert (He' : e = V * c_ r * pn rs) by (rewrite Hee at 1; apply N.mul_comm).
      assert (Hst' : start t' (V * c_ r) rs).
      { unfold start. destruct (N.eq_dec (c_ r) 1) as [Ec|Ec].
        - assert (EV : V = 1) by (destruct Hnp; [auto|congruence]).
          assert (Et' : t' = t + 1) by (unfold t'; rewrite Ec, N.div_1_r; reflexivity).
          destruct Hst as [H|[H|[H|H]]]; [left; lia|exfalso; auto|left; lia|].
          destruct H as (E0 & _ & H). right. right. left. rewrite Et', E0, EV, Ec.
          destruct rs as [|r1 rs1]; [contradiction|]. repeat split; tauto.
        - assert (1 <= t') by (unfold t'; rewrite N.add_comm; apply N.le_add_r).
          assert (1 < V * c_ r) by (assert (V * 2 <= V * c_ r) by (apply N.mul_le_mono_l; lia); lia). lia. }
      assert (HG : forall x, bnd rs x -> x < q / n_ r -> exists a, goodR e t' (V * c_ r) rs x a).
      { induction x as [x IHx] using (well_founded_induction N.lt_wf_0). intros Hbx Hxq.
        assert (Hxq' : n_ r * x < q).
        { rewrite Eq, Hq0, N.add_0_r. apply N.mul_lt_mono_pos_l; auto. }
        assert (Hxt : x + t' < pn rs) by (clear - Hxq Hlt; set (z := q / n_ r) in *; clearbody z t'; lia).
        apply (ex_down e t V r rs Hr HF' Hx HV He HS Hnp); auto.
        - lia.
        - apply IH; auto; try lia. intros q' H1 H2. apply IHx; auto.
          clear - H1 Hxq. set (z := q / n_ r) in *. clearbody z. lia.
        - apply HQ; auto. destruct (row_pos (n_ r) x 0 Hn) as [D1 D2]. rewrite N.add_0_r in D1, D2.
          cbn [bnd]. rewrite Hx, D1, D2. auto. }
      destruct (IH t' (V * c_ r) (q / n_ r) HF' Hb2 Hst' HK HVc He' Hlt) as [a A]; auto.
      eexists. apply (ex_up e t V r rs); eauto.
  - assert (Hc1 : c_ r = 1 -> V = 1).
    { intros E. destruct (N.eq_dec V 1) as [|EV]; [auto|exfalso].
      assert (Ht2 : 2 <= t) by (destruct Hst as [|[|[(_ & X & _)|(_ & X & _)]]]; [auto|exfalso; auto|exfalso; auto|exfalso; auto]).
      apply orb_false_iff in HK as [_ HK]. apply N.eqb_neq in EV. apply N.eqb_eq in E. apply N.leb_le in Ht2.
      rewrite EV, E, Ht2 in HK. discriminate. }
    assert (Hcase : 2 <= t \/ (t = 1 /\ V = 1 /\ n_ r = 1)).
    { destruct Hst as [H|[H|[H|H]]]; [auto|exfalso; auto|right; auto|].
      exfalso. destruct H as (_ & _ & H). destruct rs as [|r1 rs1]; [auto|]. destruct H as (E1 & E2 & _).
      unfold exact in Hx. rewrite E1, E2, N.mod_1_r in Hx. discriminate. }
    destruct (clipped r) eqn:Hcl.
    + assert (Htn : t < n_ r).
      { apply orb_false_iff in HK as [HK _]. cbn [andb] in HK. apply andb_false_iff in HK as [HK|HK].
        - apply N.leb_gt in HK. exact HK.
        - exfalso. apply orb_false_iff in HK as [HK H2]. apply orb_false_iff in HK as [H0 _].
          apply N.eqb_neq in H0. apply N.leb_gt in H2. destruct Hcase as [|(_ & E & _)]; [lia|auto]. }
      assert (1 < n_ r) by (destruct Hcase as [|(E & _ & _)]; lia).
      apply (clipR e t V r rs q); auto.
    + destruct (clip_not_pass r q V Hr) as [[P1 P2]|P].
      * (* the last piece, clipped to one element *)
        assert (Ht2 : 2 <= t) by (destruct Hcase as [|(_ & E & _)]; [auto|exfalso; auto]).
        assert (Ec : c_ r <> 1) by auto.
        destruct (clip_one r q Hr Ec P1) as [Ho _].
        assert (HV1 : 1 < V) by lia.
        pose proof (first_main r V Hr Hcl Hc1) as P0.
        assert (Hn2 : 1 < n_ r).
        { destruct (N.eq_dec (n_ r) 1) as [E|]; [exfalso|lia].
          assert (Hqm : q mod n_ r = 0) by (rewrite E; apply N.mod_1_r).
          assert (Hzm : 0 mod n_ r = 0) by (rewrite E; apply N.mod_1_r).
          rewrite Hzm in P0. rewrite Hqm in P1. destruct P0; auto. }
        assert (Hqp : 0 < q) by (pose proof (N.mod_le q (n_ r) ltac:(lia)); lia).
        assert (Htn : t < n_ r).
        { destruct (N.lt_ge_cases t (n_ r)) as [|Hge]; [auto|exfalso].
          destruct (rowR e t V r rs 0 Hr HF' Hx Hcl HV P0 He ltac:(lia) ltac:(lia)) as (a & _ & A).
          rewrite N.mod_0_l, N.add_0_l in A by lia. destruct (HQ 0 Hqp (bnd_zero _ HF)) as [b B].
          exact (bad_good _ _ _ _ _ _ _ HV (A Hge) B). }
        assert (Hm : (n_ r - 1) mod n_ r = q mod n_ r) by (rewrite N.mod_small; lia).
        assert (HL : exists a, resR e t V (r :: rs) (n_ r - 1) a /\ badR e t V (r :: rs) (n_ r - 1) a).
        { apply lastR; auto; try lia; [rewrite Hm; exact P1|].
          pose proof (N.mod_le q (n_ r) ltac:(lia)). lia. }
        destruct HL as (a & A & B).
        destruct (N.eq_dec q (n_ r - 1)) as [->|Hne]; [eauto|exfalso].
        destruct (HQ (n_ r - 1)) as [b G].
        { pose proof (N.mod_le q (n_ r) ltac:(lia)). lia. }
        { cbn [bnd] in *. rewrite Hx in *. unfold runstart in *. now rewrite Hm. }
        exact (bad_good _ _ _ _ _ _ _ HV B G).
      * destruct (rowR e t V r rs q Hr HF' Hx Hcl HV P He Hq ltac:(lia)) as (a & A & _). eauto.
Qed.
