(** * Proofs about the chunk-slice iterator. *)
From Verif Require Import Base Spec Radix Safe Chunk Extent Dataset Slicer.

Local Arguments N.add : simpl never.
Local Arguments N.sub : simpl never.
Local Arguments N.mul : simpl never.
Local Arguments N.div : simpl never.
Local Arguments N.modulo : simpl never.
Local Arguments N.min : simpl never.
Local Arguments N.max : simpl never.

Lemma div_le_self x n : n <> 0 -> x / n <= x.
Proof. intros H. apply N.div_le_upper_bound; nia. Qed.

Definition dwf (r : dim) : Prop :=
  0 < n_ r /\ 0 < c_ r /\ i_ r + n_ r <= s_ r /\ s_ r + c_ r < W64.

Definition pc (rs : list dim) : N := prodN (map c_ rs).

Lemma pn_pos rs : Forall dwf rs -> 0 < pn rs.
Proof.
  intros H. apply prodN_pos. apply Forall_map. eapply Forall_impl; [|exact H].
  intros r (?&?&?&?); auto.
Qed.
Lemma pc_pos rs : Forall dwf rs -> 0 < pc rs.
Proof.
  intros H. apply prodN_pos. apply Forall_map. eapply Forall_impl; [|exact H].
  intros r (?&?&?&?); auto.
Qed.

(** Run-time rows of the loop when the slice position (in units of this
    dimension) is [q]. *)
Fixpoint mkrs (V : N) (rs : list dim) (q : N) : list (row * N) :=
  match rs with
  | [] => []
  | r :: rs' =>
      (mkRow (i_ r) (n_ r) ((i_ r + q mod n_ r) / c_ r * c_ r) (c_ r) V (s_ r), q mod n_ r)
      :: mkrs (V * c_ r) rs' (q / n_ r)
  end.

Lemma mkrs_snd V rs q : map snd (mkrs V rs q) = dig (map n_ rs) q.
Proof.
  revert V q; induction rs as [|r rs IH]; intros V q; cbn [mkrs map dig]; auto.
  now rewrite IH.
Qed.

Fixpoint cidx (rs : list dim) (q : N) : list N :=
  match rs with
  | [] => []
  | r :: rs' => (i_ r + q mod n_ r) / c_ r :: cidx rs' (q / n_ r)
  end.
Fixpoint cpos (rs : list dim) (q : N) : N :=
  match rs with
  | [] => 0
  | r :: rs' => (i_ r + q mod n_ r) mod c_ r + c_ r * cpos rs' (q / n_ r)
  end.

(** Elements q, q+1, ..., q+a-1 lie in one chunk at consecutive positions. *)
Definition sameplace (rs : list dim) (q a : N) : Prop :=
  forall k, k < a -> cidx rs (q + k) = cidx rs q /\ cpos rs (q + k) = cpos rs q + k.

Lemma sameplace_one rs q a : a <= 1 -> sameplace rs q a.
Proof. intros H k Hk. replace k with 0 by lia. rewrite !N.add_0_r. auto. Qed.

Lemma sameplace_le rs q a b : a <= b -> sameplace rs q b -> sameplace rs q a.
Proof. intros H S k Hk. apply S. lia. Qed.

(** All elements stay in one row of the current dimension. *)
Lemma sameplace_row r rs q a :
  0 < n_ r -> 0 < c_ r ->
  q mod n_ r + a <= n_ r -> (i_ r + q mod n_ r) mod c_ r + a <= c_ r ->
  sameplace (r :: rs) q a.
Proof.
  intros Hn Hc H1 H2 k Hk. cbn [cidx cpos].
  destruct (div_add_small q (n_ r) k) as [E1 E2]; [lia|].
  rewrite E1, E2, N.add_assoc.
  destruct (div_add_small (i_ r + q mod n_ r) (c_ r) k) as [E3 E4]; [lia|].
  rewrite E3, E4. split; [auto|lia].
Qed.

(** The current dimension is exactly covered: whole rows of the outer dimension. *)
Lemma sameplace_exact r rs q a :
  0 < c_ r -> n_ r = c_ r -> i_ r mod c_ r = 0 -> q mod n_ r = 0 ->
  sameplace rs (q / n_ r) a -> sameplace (r :: rs) q (c_ r * a).
Proof.
  intros Hc En Ei Eq S k Hk. cbn [cidx cpos]. rewrite En in *.
  pose proof (divmod_eq k (c_ r) ltac:(lia)) as Ek.
  assert (Mk : k mod c_ r < c_ r) by (apply N.mod_lt; lia).
  set (k1 := k / c_ r) in *. set (k0 := k mod c_ r) in *.
  pose proof (divmod_eq q (c_ r) ltac:(lia)) as Eqq. rewrite Eq in Eqq.
  pose proof (divmod_eq (i_ r) (c_ r) ltac:(lia)) as Eii. rewrite Ei in Eii.
  assert (D1 : (q + k) / c_ r = q / c_ r + k1).
  { apply (div_unique_N _ _ _ k0); nia. }
  assert (D2 : (q + k) mod c_ r = k0).
  { apply (mod_unique_N _ _ (q / c_ r + k1)); nia. }
  rewrite D1, D2, Eq, N.add_0_r, Ei.
  assert (k1 < a) by nia.
  destruct (S k1) as [S1 S2]; [auto|]. rewrite S1, S2.
  split.
  - f_equal. apply (div_unique_N _ _ _ k0); nia.
  - rewrite (mod_unique_N (i_ r + k0) (c_ r) (i_ r / c_ r) k0) by nia. nia.
Qed.

Lemma carry_loop_dig m V rs q k :
  Forall dwf rs -> q + k < W64 ->
  carry_loop m (mkrs V rs q) k = Ok (dig (map n_ rs) (q + k)).
Proof.
  intros HF; revert V q k; induction HF as [|r rs Hr HF IH]; intros V q k HW; cbn [mkrs carry_loop map dig]; auto.
  destruct Hr as (Hn & Hc & _ & _). cbn [r_cnt].
  assert (Hm : q mod n_ r <= q) by (apply N.mod_le; lia).
  rewrite add64_ok by lia. cbn [bind].
  unfold div64, rem64.
  destruct (N.eqb_spec (n_ r) 0) as [E|_]; [lia|]. cbn [bind].
  rewrite (div_carry q (n_ r) k) by lia. rewrite (mod_carry q (n_ r) k) by lia.
  destruct (N.eqb_spec ((q mod n_ r + k) / n_ r) 0) as [E|E].
  - rewrite E, N.add_0_r, mkrs_snd. reflexivity.
  - rewrite IH; [cbn [bind]; reflexivity|].
    pose proof (divmod_eq q (n_ r) ltac:(lia)).
    pose proof (N.mul_div_le (q mod n_ r + k) (n_ r) ltac:(lia)).
    nia.
Qed.

(** The chunk's extent in a dimension, clipped by the dataset (dataset.rs 558-563). *)
Lemma clip_ok m co c s :
  co <= s -> 0 < c -> s + c < W64 ->
  (let* cde := add64 m co c in
   if s <? cde then let* x := sub64 m cde s in sub64 m c x else Ok c)
  = Ok (N.min c (s - co)).
Proof.
  intros H1 H2 H3. rewrite add64_ok by lia. cbn [bind].
  destruct (N.ltb_spec s (co + c)).
  - rewrite sub64_ok by lia. cbn [bind]. rewrite sub64_ok by lia. f_equal. lia.
  - f_equal. lia.
Qed.

(** One step of the loop, with the arithmetic discharged. *)
Lemma adv_step m e V r rs q carry adv soff :
  dwf r -> 0 < V ->
  q mod n_ r + carry < W64 ->
  let o := q mod n_ r in
  let co := (i_ r + o) / c_ r * c_ r in
  let c' := N.min (c_ r) (s_ r - co) in
  adv_loop m e (mkrs V (r :: rs) q) carry adv soff =
  if (c' =? 1) && negb (V =? 1) then
    let* (vis, rest, k, a, f) :=
       adv_loop m e (mkrs (V * c_ r) rs (q / n_ r)) ((o + carry) / n_ r) adv soff in
    Ok ((o + carry) mod n_ r :: vis, rest, k, a, f)
  else
    let cce := co + c' - i_ r in
    let o2 := N.min (n_ r) cce in
    let* d := sub64 m o2 ((o + carry) mod n_ r) in
    let* diff := mul64 m d V in
    let* adv' := add64 m adv diff in
    let* soff' := add64 m soff diff in
    let* carry2 := add64 m ((o + carry) / n_ r) (o2 / n_ r) in
    if (i_ r =? co) && (n_ r =? cce) && (soff' <? e) then
      let* (vis, rest, k, a, f) :=
         adv_loop m e (mkrs (V * c_ r) rs (q / n_ r)) carry2 adv' soff' in
      Ok (o2 mod n_ r :: vis, rest, k, a, f)
    else
      let* _ := dbg m (soff' <=? e) in
      Ok ([o2 mod n_ r], mkrs (V * c_ r) rs (q / n_ r), carry2, adv', soff').
Proof.
  intros (Hn & Hc & Hs & HW) HV Hcarry o co c'.
  cbn [mkrs adv_loop r_co r_c r_s r_v r_idx r_cnt].
  fold o. fold co.
  assert (Ho : o < n_ r) by (apply N.mod_lt; lia).
  assert (Hco : co <= i_ r + o).
  { unfold co. rewrite N.mul_comm. apply N.mul_div_le. lia. }
  assert (Hco2 : i_ r + o < co + c_ r).
  { unfold co. pose proof (divmod_eq (i_ r + o) (c_ r) ltac:(lia)).
    assert ((i_ r + o) mod c_ r < c_ r) by (apply N.mod_lt; lia). nia. }
  rewrite <- bind_assoc.
  rewrite (clip_ok m co (c_ r) (s_ r)) by lia. cbn [bind]. fold c'.
  assert (Hc'1 : i_ r + o < co + c') by lia.
  rewrite add64_ok by (subst o; lia). cbn [bind].
  unfold div64, rem64.
  destruct (N.eqb_spec (n_ r) 0) as [E|_]; [lia|]. cbn [bind].
  destruct ((c' =? 1) && negb (V =? 1)); [reflexivity|].
  rewrite dbg_ok by (apply N.ltb_lt, N.mod_lt; lia). cbn [bind].
  rewrite add64_ok by lia. cbn [bind].
  rewrite sub64_ok by lia. cbn [bind].
  reflexivity.
Qed.

(** Dimensions that are thin for every chunk only pass the carry on. *)
Lemma adv_pass m e V rs q carry adv soff :
  Forall dwf rs -> 1 < V -> forallb thin rs = true ->
  q + carry < W64 ->
  exists k, adv_loop m e (mkrs V rs q) carry adv soff
            = Ok (dig (map n_ rs) (q + carry), [], k, adv, soff).
Proof.
  intros HF; revert V q carry; induction HF as [|r rs Hr HF IH]; intros V q carry HV HT HW.
  - cbn [mkrs adv_loop map dig]. eauto.
  - cbn [forallb] in HT. apply andb_true_iff in HT as [HT1 HT2].
    pose proof Hr as (Hn & Hc & Hs & HW2).
    assert (Hmle : q mod n_ r <= q) by (apply N.mod_le; lia).
    rewrite (adv_step m e V r rs q) by (auto; lia).
    set (o := q mod n_ r) in *. set (co := (i_ r + o) / c_ r * c_ r) in *. cbv zeta.
    assert (Ho : o < n_ r) by (apply N.mod_lt; lia).
    assert (Hc' : N.min (c_ r) (s_ r - co) = 1).
    { unfold thin in HT1. apply orb_true_iff in HT1 as [HT1|HT1].
      - apply N.eqb_eq in HT1. unfold co. rewrite HT1, N.div_1_r. lia.
      - apply andb_true_iff in HT1 as [T1 T2]. apply N.eqb_eq in T1, T2.
        assert (n_ r = 1) by lia. assert (o = 0) by lia.
        pose proof (divmod_eq (i_ r) (c_ r) ltac:(lia)).
        assert (co = i_ r). { unfold co. rewrite H0, N.add_0_r. lia. }
        rewrite H2. lia. }
    rewrite Hc'. cbn [N.eqb Pos.eqb].
    destruct (N.eqb_spec V 1); [lia|]. cbn [negb andb].
    assert (HWq : q / n_ r + (o + carry) / n_ r < W64).
    { pose proof (divmod_eq q (n_ r) ltac:(lia)).
      pose proof (N.mul_div_le (o + carry) (n_ r) ltac:(lia)). fold o in H. nia. }
    destruct (IH (V * c_ r) (q / n_ r) ((o + carry) / n_ r)) as [k Ek]; [nia|auto|auto|].
    rewrite Ek. cbn [bind]. exists k. cbn [map dig].
    rewrite (div_carry q (n_ r) carry) by lia. rewrite (mod_carry q (n_ r) carry) by lia.
    reflexivity.
Qed.

(** Start of a run: the slice start or a chunk boundary. *)
Definition runstart (r : dim) (q : N) : Prop :=
  q mod n_ r = 0 \/ (i_ r + q mod n_ r) mod c_ r = 0.

(** Positions at which a maximal contiguous run of the selection starts. *)
Fixpoint bnd (rs : list dim) (q : N) : Prop :=
  match rs with
  | [] => True
  | r :: rs' =>
      if exact r then q mod n_ r = 0 /\ bnd rs' (q / n_ r) else runstart r q
  end.

Lemma ones_pn rs : ones rs = true -> pn rs = 1.
Proof.
  induction rs as [|r rs IH]; cbn [ones forallb]; auto. intros H.
  apply andb_true_iff in H as [H1 H2]. apply N.eqb_eq in H1.
  unfold pn in *. cbn [map prodN]. rewrite H1. rewrite (IH H2). lia.
Qed.

Lemma bnd_zero rs : Forall dwf rs -> bnd rs 0.
Proof.
  intros HF; induction HF as [|r rs Hr HF IH]; cbn [bnd]; auto.
  destruct Hr as (Hn & Hc & _).
  assert (E : 0 mod n_ r = 0) by (apply N.mod_0_l; lia).
  assert (E2 : 0 / n_ r = 0) by (apply N.div_0_l; lia).
  unfold runstart. rewrite E, E2. destruct (exact r); auto.
Qed.

Lemma bnd_end rs : Forall dwf rs -> bnd rs (pn rs).
Proof.
  intros HF; induction HF as [|r rs Hr HF IH]; cbn [bnd]; auto.
  destruct Hr as (Hn & Hc & _).
  assert (Ep : pn (r :: rs) = n_ r * pn rs) by reflexivity.
  assert (E : pn (r :: rs) mod n_ r = 0).
  { rewrite Ep, N.mul_comm. apply N.mod_mul. lia. }
  assert (E2 : pn (r :: rs) / n_ r = pn rs).
  { rewrite Ep, N.mul_comm. apply N.div_mul. lia. }
  unfold runstart. rewrite E, E2. destruct (exact r); auto.
Qed.

Ltac btrue :=
  repeat match goal with
  | H : (_ && _) = true |- _ => apply andb_true_iff in H as [? ?]
  | H : (_ =? _) = true |- _ => apply N.eqb_eq in H
  | H : (_ <=? _) = true |- _ => apply N.leb_le in H
  | H : (_ <? _) = true |- _ => apply N.ltb_lt in H
  | H : (_ =? _) = false |- _ => apply N.eqb_neq in H
  | H : (_ <=? _) = false |- _ => apply N.leb_gt in H
  | H : (_ <? _) = false |- _ => apply N.ltb_ge in H
  | H : negb _ = true |- _ => apply negb_true_iff in H
  | H : negb _ = false |- _ => apply negb_false_iff in H
  end.

(** A dimension in which the selection lies in one chunk. *)
Lemma single_mod r o : dwf r -> single r = true -> o < n_ r ->
  (i_ r + o) / c_ r = i_ r / c_ r /\ (i_ r + o) mod c_ r = i_ r mod c_ r + o /\
  i_ r mod c_ r + n_ r <= c_ r.
Proof.
  intros (Hn & Hc & Hs & HW) H Ho. unfold single in H. btrue. unfold last_chunk in H.
  pose proof (divmod_eq (i_ r) (c_ r) ltac:(lia)) as E1.
  pose proof (divmod_eq (i_ r + n_ r - 1) (c_ r) ltac:(lia)) as E2.
  assert (L1 : i_ r mod c_ r < c_ r) by (apply N.mod_lt; lia).
  assert (L2 : (i_ r + n_ r - 1) mod c_ r < c_ r) by (apply N.mod_lt; lia).
  rewrite <- H in E2. set (a := i_ r / c_ r) in *. clearbody a.
  assert (i_ r mod c_ r + n_ r <= c_ r) by lia.
  split; [|split; auto].
  - apply (div_unique_N _ _ _ (i_ r mod c_ r + o)); lia.
  - apply (mod_unique_N _ _ a); lia.
Qed.

(** If the rows already accounted for fit in the first chunk touched and [q] starts a
    run, the [t0 <= t] rows from [q] on lie in one chunk. *)
Lemma fit_chunk r q t t0 :
  dwf r -> t0 <= t ->
  single r || (t <=? c_ r - i_ r mod c_ r) = true ->
  runstart r q -> q mod n_ r + t0 <= n_ r ->
  (i_ r + q mod n_ r) mod c_ r + t0 <= c_ r.
Proof.
  intros Hr Ht0 H HR Hrow. pose proof Hr as (Hn & Hc & Hs & HW).
  assert (Ho : q mod n_ r < n_ r) by (apply N.mod_lt; lia).
  assert (Hmo : (i_ r + q mod n_ r) mod c_ r < c_ r) by (apply N.mod_lt; lia).
  unfold runstart in HR. set (o := q mod n_ r) in *. clearbody o.
  apply orb_true_iff in H as [H|H].
  - destruct (single_mod r o Hr H Ho) as (_ & E2 & E3). rewrite E2. lia.
  - btrue. destruct HR as [HR|HR].
    + subst o. rewrite N.add_0_r in *. lia.
    + pose proof (N.le_sub_l (c_ r) (i_ r mod c_ r)). rewrite HR, N.add_0_l. eapply N.le_trans; [exact Ht0|]. eapply N.le_trans; [exact H|]. auto.
Qed.

Lemma sameplace_sub rs q a k b : sameplace rs q a -> k + b <= a -> sameplace rs (q + k) b.
Proof.
  intros S H j Hj. destruct (S (k + j)) as [A B]; [lia|]. destruct (S k) as [A' B']; [lia|].
  rewrite <- N.add_assoc, A, B, A', B'. split; [auto|lia].
Qed.

(** A selection that is one block is one run. *)
Lemma block_same rs : Forall dwf rs -> block rs = true -> sameplace rs 0 (pn rs).
Proof.
  induction 1 as [|r rs Hr HF IH]; intros HB.
  { apply sameplace_one. unfold pn. cbn. lia. }
  cbn [block] in HB. apply andb_true_iff in HB as [HB1 HB2].
  pose proof Hr as (Hn & Hc & Hs & HW).
  assert (Z1 : 0 mod n_ r = 0) by (apply N.mod_0_l; lia).
  assert (Z2 : 0 / n_ r = 0) by (apply N.div_0_l; lia).
  assert (Epn : pn (r :: rs) = n_ r * pn rs) by reflexivity. rewrite Epn.
  apply orb_true_iff in HB2 as [HB2|HB2].
  - rewrite (ones_pn rs HB2), N.mul_1_r. apply sameplace_row; auto; rewrite Z1; [lia|].
    destruct (single_mod r 0 Hr HB1 Hn) as (_ & E & E3). rewrite E. lia.
  - apply andb_true_iff in HB2 as [Hx HB2]. unfold exact in Hx. btrue.
    rewrite H0. apply sameplace_exact; auto; rewrite Z2; auto.
Qed.

Lemma runstart_max r q :
  dwf r -> runstart r q -> q mod n_ r + portion r <= n_ r.
Proof.
  intros (Hn & Hc & Hs & HW) HI.
  assert (Ho : q mod n_ r < n_ r) by (apply N.mod_lt; lia).
  unfold runstart in HI. unfold portion. set (o := q mod n_ r) in *.
  assert (Hl : last_chunk r * c_ r <= i_ r + n_ r - 1).
  { unfold last_chunk. rewrite N.mul_comm. apply N.mul_div_le. lia. }
  destruct HI as [HI|HI]; [lia|].
  pose proof (divmod_eq (i_ r + o) (c_ r) ltac:(lia)) as E. rewrite HI in E.
  assert ((i_ r + o) / c_ r <= last_chunk r).
  { unfold last_chunk. apply N.div_le_mono; lia. }
  nia.
Qed.

(** Ceiling of the rows of this dimension in rows of the next. *)
Lemma ceil_rows t c : 0 < c -> exists u, u <= t / c + 1 /\ t <= c * u /\ forall p q, c * q + t <= c * p -> q + u <= p.
Proof.
  intros Hc. pose proof (divmod_eq t c ltac:(lia)) as E.
  assert (t mod c < c) by (apply N.mod_lt; lia).
  set (d := t / c) in *. set (x := t mod c) in *. clearbody d x. subst t.
  destruct (N.eq_dec x 0) as [->|Hx].
  - exists d. split; [lia|]. split; [lia|]. intros p q Hq. rewrite N.add_0_r, <- N.mul_add_distr_l in Hq.
    apply N.mul_le_mono_pos_l in Hq; auto.
  - exists (d + 1). split; [lia|]. split; [lia|]. intros p q Hq.
    assert (c * (q + d) < c * p) by lia. apply N.mul_lt_mono_pos_l in H0; lia.
Qed.

(** The rows accounted for from a run start lie in one chunk. *)
Lemma rows_fit rs : forall t V q t0,
  Forall dwf rs -> safe t V rs = true -> bnd rs q ->
  t0 <= t -> q + t0 <= pn rs -> sameplace rs q t0.
Proof.
  induction rs as [|r rs IH]; intros t V q t0 HF HS HI Ht0 Hq.
  { apply sameplace_one. unfold pn in Hq. cbn [map prodN] in Hq. lia. }
  inversion HF as [|? ? Hr HF']; subst.
  pose proof Hr as (Hn & Hc & Hs & HW).
  cbn [safe bnd] in HS, HI.
  destruct (pn (r :: rs) <=? t) eqn:Ept.
  { pose proof (block_same (r :: rs) HF HS) as B. rewrite <- (N.add_0_l q).
    apply (sameplace_sub _ _ _ _ _ B). lia. }
  destruct (negb (single r || (t <=? c_ r - i_ r mod c_ r))) eqn:EA; [discriminate|].
  apply negb_false_iff in EA.
  assert (Ho : q mod n_ r < n_ r) by (apply N.mod_lt; lia).
  assert (Epn : pn (r :: rs) = n_ r * pn rs) by reflexivity.
  pose proof (divmod_eq q (n_ r) ltac:(lia)) as Eq.
  destruct (exact r) eqn:Ex.
  - destruct HI as [HI1 HI2]. unfold exact in Ex. btrue.
    assert (HG : forall u t' V', t0 <= c_ r * u -> u <= t' -> q / n_ r + u <= pn rs ->
              safe t' V' rs = true -> sameplace (r :: rs) q t0).
    { intros u t' V' H1 H2 H3 H4. apply (sameplace_le _ _ _ (c_ r * u)); auto.
      apply sameplace_exact; auto. exact (IH t' V' (q / n_ r) u HF' H4 HI2 H2 H3). }
    rewrite HI1, N.add_0_r in Eq. rewrite H0 in Eq. rewrite Epn in Hq. rewrite H0 in Hq.
    destruct (negb (V =? 1) && thin r) eqn:Et.
    + destruct (N.eqb_spec (c_ r) 1) as [Ec|Ec].
      * destruct (N.eqb_spec (n_ r) 1) as [En|]; [|lia].
        rewrite Ec, N.mul_1_l in Hq.
        apply (HG t0 t V); auto; [rewrite Ec, N.mul_1_l; apply N.le_refl|].
        rewrite En, N.div_1_r. exact Hq.
      * apply andb_true_iff in HS as [HS _]. btrue. apply sameplace_one. lia.
    + destruct (ceil_rows t0 (c_ r) Hc) as (u & U1 & U2 & U3).
      apply (HG u (t / c_ r + 1) (V * c_ r)); auto.
      * assert (t0 / c_ r <= t / c_ r) by (apply N.div_le_mono; lia). lia.
      * rewrite H0. apply U3. lia.
  - assert (Hrow : q mod n_ r + t0 <= n_ r \/ t0 <= 1).
    { assert (HO : ones rs = true -> q mod n_ r + t0 <= n_ r).
      { intros E. apply ones_pn in E. rewrite Epn, E, N.mul_1_r in Hq.
        destruct (N.eq_dec q (n_ r)) as [->|]; [rewrite N.mod_same; lia|].
        rewrite N.mod_small by lia. lia. }
      destruct (negb (V =? 1) && thin r) eqn:Et.
      { right. destruct (N.eqb_spec (c_ r) 1) as [Ec|Ec].
        - apply orb_true_iff in EA as [EA|EA].
          + unfold single, last_chunk in EA. btrue. rewrite Ec, !N.div_1_r in EA.
            unfold exact in Ex. rewrite Ec, N.mod_1_r in Ex. cbn [andb] in Ex.
            replace (n_ r =? 1) with true in Ex; [discriminate|]. symmetry. apply N.eqb_eq. lia.
          + btrue. rewrite Ec, N.mod_1_r in EA. lia.
        - apply andb_true_iff in HS as [HS _]. btrue. lia. }
      destruct (negb (V =? 1) && (N.min (c_ r) (s_ r - last_chunk r * c_ r) =? 1)).
      { apply andb_true_iff in HS as [HS _]. apply orb_true_iff in HS as [HS|HS]; [right; btrue; lia|auto]. }
      destruct (ones rs) eqn:E1; [left; auto|]. cbn [negb andb] in HS.
      destruct (portion r <=? t) eqn:E2; [discriminate|]. btrue.
      left. pose proof (runstart_max r q Hr HI). lia. }
    destruct Hrow as [Hrow|Hrow]; [|now apply sameplace_one].
    apply sameplace_row; auto. apply (fit_chunk r q t t0); auto.
Qed.

(** What one call of the loop (plus the left-over carry loop) establishes. *)
Definition step_ok (m : mode) (e t V : N) (rs : list dim) (q a : N) : Prop :=
  exists vis rest k os,
    adv_loop m e (mkrs V rs q) t (t * V) ((q + t) * V) = Ok (vis, rest, k, a * V, (q + a) * V) /\
    carry_loop m rest k = Ok os /\
    vis ++ os = dig (map n_ rs) (q + a) /\
    0 < a /\ q + a <= pn rs /\ sameplace rs q a.

Lemma row_end n k p z : z <= n -> k < p -> n * k + z <= n * p.
Proof. intros H1 H2. assert (n * k + n = n * (k + 1)) by lia. assert (n * (k + 1) <= n * p) by (apply N.mul_le_mono_l; lia). lia. Qed.
Lemma le_mul_pos a b c : a <= b -> 0 < c -> a <= b * c.
Proof. intros H1 H2. assert (b * 1 <= b * c) by (apply N.mul_le_mono_l; lia). lia. Qed.

Lemma ones_still rs : ones rs = true -> still rs = true.
Proof.
  induction rs as [|r rs IH]; cbn [ones forallb still]; auto. intros H.
  apply andb_true_iff in H as [H1 H2]. rewrite H1. destruct (thin r); auto.
Qed.

Lemma thin_clip r q : dwf r -> thin r = true ->
  N.min (c_ r) (s_ r - (i_ r + q mod n_ r) / c_ r * c_ r) = 1.
Proof.
  intros (Hn & Hc & Hs & HW) HT.
  assert (Ho : q mod n_ r < n_ r) by (apply N.mod_lt; lia). set (o := q mod n_ r) in *.
  unfold thin in HT. apply orb_true_iff in HT as [HT|HT].
  - apply N.eqb_eq in HT. rewrite HT, N.div_1_r. lia.
  - apply andb_true_iff in HT as [T1 T2]. apply N.eqb_eq in T1, T2.
    assert (o = 0) by lia. rewrite H, N.add_0_r.
    pose proof (divmod_eq (i_ r) (c_ r) ltac:(lia)).
    replace (i_ r / c_ r * c_ r) with (i_ r) by lia. lia.
Qed.

(** A carry of 1 moves on without any further advance. *)
Lemma still_pass m e rs : forall V q adv soff,
  Forall dwf rs -> 1 < V -> still rs = true -> q + 1 < pn rs -> pn rs < W64 ->
  adv < W64 -> soff <= e -> e < W64 ->
  exists vis rest k os,
    adv_loop m e (mkrs V rs q) 1 adv soff = Ok (vis, rest, k, adv, soff) /\
    carry_loop m rest k = Ok os /\ vis ++ os = dig (map n_ rs) (q + 1).
Proof.
  induction rs as [|r rs IH]; intros V q adv soff HF HV HS Hq HpW Ha Hso HeW.
  { unfold pn in Hq. cbn in Hq. lia. }
  inversion HF as [|? ? Hr HF']; subst.
  pose proof Hr as (Hn & Hc & Hs & HW).
  assert (Epn : pn (r :: rs) = n_ r * pn rs) by reflexivity.
  pose proof (pn_pos rs HF') as Hpp.
  assert (Hple : pn rs <= pn (r :: rs)) by (rewrite Epn, N.mul_comm; apply le_mul_pos; lia).
  assert (HVc : 1 < V * c_ r) by nia.
  assert (Hmle : q mod n_ r <= q) by (apply N.mod_le; lia).
  assert (Ho : q mod n_ r < n_ r) by (apply N.mod_lt; lia).
  pose proof (divmod_eq q (n_ r) ltac:(lia)) as Eq.
  assert (HVn : (V =? 1) = false) by (apply N.eqb_neq; lia).
  cbn [still] in HS.
  destruct (N.eqb_spec (n_ r) 1) as [En|En].
  { destruct (thin r) eqn:Et.
    - rewrite En, N.mul_1_l in Epn. rewrite Epn in *.
      destruct (IH (V * c_ r) q adv soff) as (vis & rest & k & os & S1 & S2 & S3); auto.
      exists (0 :: vis), rest, k, os.
      rewrite (adv_step m e V r rs q) by (auto; lia). cbv zeta.
      rewrite (thin_clip r q Hr Et), HVn. cbn [N.eqb Pos.eqb negb andb].
      rewrite En, !N.div_1_r, !N.mod_1_r, N.add_0_l, S1. cbn [bind].
      split; [reflexivity|]. split; [auto|]. cbn [app map dig].
      rewrite En, N.div_1_r, N.mod_1_r, S3. reflexivity.
    - apply ones_pn in HS. rewrite Epn, En, HS in Hq. lia. }
  destruct (N.eqb_spec (c_ r) 1) as [Ec|Ec].
  { destruct (adv_pass m e V (r :: rs) q 1 adv soff) as [k Ek]; auto; try lia.
    { cbn [forallb]. rewrite HS. unfold thin. rewrite Ec. reflexivity. }
    exists (dig (map n_ (r :: rs)) (q + 1)), [], k, []. split; [exact Ek|]. split; [reflexivity|].
    apply app_nil_r. }
  apply andb_true_iff in HS as [HS HS3]. btrue.
  rewrite H in *.
  pose proof (divmod_eq (i_ r) (c_ r) ltac:(lia)) as Ei. rewrite H0 in Ei.
  set (o := q mod 2) in *.
  assert (Hq2 : q / 2 < pn rs) by (apply N.div_lt_upper_bound; lia).
  assert (Ho' : o = 0 \/ o = 1) by lia.
  rewrite (adv_step m e V r rs q) by (rewrite ?H; auto; fold o; lia). cbv zeta.
  rewrite H. fold o. destruct Ho' as [Eo|Eo]; rewrite Eo in *.
  - rewrite N.add_0_r, N.add_0_l.
    replace (i_ r / c_ r * c_ r) with (i_ r + 1 - c_ r).
    2:{ clear - Ei Hc. set (x := i_ r / c_ r) in *. clearbody x. rewrite N.mul_comm in Ei. lia. }
    assert (Hci : c_ r <= i_ r + 1) by (clear - Ei Hc; set (x := i_ r / c_ r) in *; clearbody x; lia).
    replace (N.min (c_ r) (s_ r - (i_ r + 1 - c_ r))) with (c_ r) by lia.
    apply N.eqb_neq in Ec. rewrite Ec. apply N.eqb_neq in Ec. cbn [andb].
    replace (i_ r + 1 - c_ r + c_ r - i_ r) with 1 by lia.
    change (N.min 2 1) with 1. change (1 mod 2) with 1. change (1 / 2) with 0.
    rewrite sub64_ok by lia. cbn [bind]. rewrite mul64_ok by (pose proof W64_pos; lia). cbn [bind].
    rewrite add64_ok by lia. cbn [bind]. rewrite add64_ok by lia. cbn [bind].
    rewrite add64_ok by (pose proof W64_pos; lia). cbn [bind].
    replace ((1 - 1) * V) with 0 by lia. rewrite !N.add_0_r.
    change (2 =? 1) with false. rewrite andb_false_r. cbn [andb].
    rewrite dbg_ok by (apply N.leb_le; lia). cbn [bind].
    do 4 eexists. split; [reflexivity|].
    rewrite carry_loop_dig by (auto; lia). split; [reflexivity|].
    cbn [app map dig]. rewrite H, N.add_0_r.
    assert (D1 : (q + 1) / 2 = q / 2) by (apply (div_unique_N _ _ _ 1); lia).
    assert (D2 : (q + 1) mod 2 = 1) by (apply (mod_unique_N _ _ (q / 2)); lia).
    now rewrite D1, D2.
  - apply orb_true_iff in HS3 as [HS3|HS3].
    { apply ones_pn in HS3. rewrite Epn, HS3 in Hq. lia. }
    btrue.
    assert (Hd : (i_ r + 1) / c_ r * c_ r = i_ r + 1).
    { replace (i_ r + 1) with ((i_ r / c_ r + 1) * c_ r) at 1 by lia.
      rewrite N.div_mul by lia. lia. }
    rewrite Hd. replace (N.min (c_ r) (s_ r - (i_ r + 1))) with 1 by lia.
    apply N.eqb_neq in HVn. rewrite HVn. cbn [N.eqb Pos.eqb negb andb].
    change ((1 + 1) mod 2) with 0. change ((1 + 1) / 2) with 1.
    destruct (IH (V * c_ r) (q / 2) adv soff) as (vis & rest & k & os & S1 & S2 & S3); auto; try lia.
    exists (0 :: vis), rest, k, os. rewrite S1. cbn [bind].
    split; [reflexivity|]. split; [auto|]. cbn [app map dig]. rewrite H.
    assert (D1 : (q + 1) / 2 = q / 2 + 1) by (apply (div_unique_N _ _ _ 0); lia).
    assert (D2 : (q + 1) mod 2 = 0) by (apply (mod_unique_N _ _ (q / 2 + 1)); lia).
    now rewrite D1, D2, S3.
Qed.

(** The dimension in which the loop stops. *)
Lemma pivot m e t V r rs q :
  dwf r -> Forall dwf rs -> 0 < V -> e = V * (n_ r * pn rs) -> e < W64 -> q < n_ r * pn rs ->
  let o := q mod n_ r in
  let co := (i_ r + o) / c_ r * c_ r in
  let c' := N.min (c_ r) (s_ r - co) in
  let cce := co + c' - i_ r in
  let a := N.min (n_ r) cce - o in
  (c' <> 1 \/ V = 1) ->
  o + t < n_ r -> (i_ r + o) mod c_ r + t <= c_ r ->
  ((i_ r =? co) && (n_ r =? cce) && ((q + a) * V <? e) = false \/
   (still rs = true /\ 1 < V * c_ r)) ->
  step_ok m e t V (r :: rs) q a /\ runstart r (q + a).
Proof.
  intros Hr HFr HV He HeW Hq o co c' cce a Hnp Hrow Hfit Hcont.
  pose proof Hr as (Hn & Hc & Hs & HW).
  assert (Ho : o < n_ r) by (apply N.mod_lt; lia).
  pose proof (divmod_eq (i_ r + o) (c_ r) ltac:(lia)) as Eco.
  assert (Hmo : (i_ r + o) mod c_ r < c_ r) by (apply N.mod_lt; lia).
  assert (Eco' : i_ r + o = co + (i_ r + o) mod c_ r) by (unfold co; lia).
  pose proof (divmod_eq q (n_ r) ltac:(lia)) as Eq. fold o in Eq.
  assert (Hcce : o < cce) by (unfold cce, c'; lia).
  assert (Hcce2 : o + t <= cce) by (unfold cce, c'; lia).
  set (o2 := N.min (n_ r) cce) in *.
  assert (Ho2 : o < o2 /\ o + t <= o2 /\ o2 <= n_ r) by (unfold o2; lia).
  assert (Hqn : q / n_ r < pn rs) by (apply N.div_lt_upper_bound; lia).
  assert (Eqa : q + a = n_ r * (q / n_ r) + o2) by (unfold a; lia).
  assert (Hqa : q + a <= n_ r * pn rs) by (rewrite Eqa; apply row_end; lia).
  assert (HqaV : (q + a) * V <= e) by (rewrite He, (N.mul_comm V); apply N.mul_le_mono_r; exact Hqa).
  pose proof (pn_pos rs HFr) as Hpn.
  assert (Ht : t <= n_ r * pn rs) by (apply le_mul_pos; lia).
  assert (Ed1 : (q + a) mod n_ r = o2 mod n_ r).
  { rewrite Eqa, N.add_comm, N.mul_comm, N.mod_add by lia. reflexivity. }
  assert (Ed2 : (q + a) / n_ r = q / n_ r + o2 / n_ r).
  { rewrite Eqa, N.mul_comm, N.div_add_l by lia. reflexivity. }
  assert (Ho2d : o2 / n_ r <= 1).
  { assert (o2 / n_ r < 2); [|lia]. apply N.div_lt_upper_bound; lia. }
  assert (HpW : n_ r * pn rs < W64).
  { eapply N.le_lt_trans; [|exact HeW]. rewrite He, (N.mul_comm V). apply le_mul_pos; lia. }
  split.
  2:{ unfold runstart. rewrite Ed1. destruct (N.eq_dec o2 (n_ r)) as [E|E].
      - left. rewrite E. apply N.mod_same. lia.
      - right. rewrite (N.mod_small o2) by lia.
        assert (Hc'c : c' = c_ r) by (unfold o2, cce, c' in *; lia).
        replace (i_ r + o2) with (((i_ r + o) / c_ r + 1) * c_ r).
        + apply N.mod_mul. lia.
        + unfold o2, cce in *. rewrite Hc'c in *. unfold co in *. lia. }
  unfold step_ok.
  rewrite (adv_step m e V r rs q) by (auto; fold o; lia).
  fold o. fold co. cbv zeta. fold c'. fold cce. fold o2.
  replace ((c' =? 1) && negb (V =? 1)) with false.
  2:{ symmetry. destruct Hnp as [Hnp|Hnp].
      - apply N.eqb_neq in Hnp. now rewrite Hnp.
      - apply N.eqb_eq in Hnp. rewrite Hnp. now rewrite andb_comm. }
  rewrite (N.mod_small (o + t)) by lia. rewrite (N.div_small (o + t)) by lia.
  rewrite sub64_ok by lia. cbn [bind].
  assert (Hdiff : (o2 - (o + t)) * V <= e).
  { apply N.le_trans with (n_ r * pn rs * V).
    - apply N.mul_le_mono_r. apply le_mul_pos; lia.
    - rewrite He, (N.mul_comm V). lia. }
  rewrite mul64_ok by lia. cbn [bind].
  assert (EaV : t * V + (o2 - (o + t)) * V = a * V).
  { unfold a. rewrite <- N.mul_add_distr_r. f_equal. lia. }
  assert (EsV : (q + t) * V + (o2 - (o + t)) * V = (q + a) * V).
  { unfold a. rewrite <- N.mul_add_distr_r. f_equal. lia. }
  rewrite add64_ok by (rewrite EaV; apply N.le_lt_trans with ((q + a) * V); [apply N.mul_le_mono_r; lia|lia]). cbn [bind]. rewrite EaV.
  rewrite add64_ok by (rewrite EsV; lia). cbn [bind]. rewrite EsV.
  rewrite add64_ok by (pose proof W64_pos; unfold W64 in *; lia). cbn [bind]. rewrite N.add_0_l.
  assert (Hsame : sameplace (r :: rs) q a).
  { apply sameplace_row; auto; fold o.
    - unfold a. lia.
    - unfold a, o2, cce, c'. lia. }
  assert (Ha : 0 < a) by (unfold a; lia).
  assert (Epn : pn (r :: rs) = n_ r * pn rs) by reflexivity.
  destruct ((i_ r =? co) && (n_ r =? cce) && ((q + a) * V <? e)) eqn:Ec.
  - destruct Hcont as [Hcont|[HT HV1]]; [discriminate|].
    btrue.
    assert (Eo2 : o2 = n_ r) by (unfold o2; lia).
    rewrite Eo2, N.div_same in * by lia.
    assert (Hqa1 : q + a < n_ r * pn rs).
    { rewrite He, (N.mul_comm V) in H0. apply N.mul_lt_mono_pos_r in H0; auto. }
    assert (Hq1 : q / n_ r + 1 < pn rs).
    { rewrite Eqa in Hqa1. replace (n_ r * (q / n_ r) + n_ r) with (n_ r * (q / n_ r + 1)) in Hqa1 by lia.
      apply N.mul_lt_mono_pos_l in Hqa1; auto. }
    assert (HpW' : pn rs < W64).
    { eapply N.le_lt_trans; [|exact HpW]. rewrite N.mul_comm. apply le_mul_pos; lia. }
    assert (HaW : a * V < W64).
    { eapply N.le_lt_trans; [|exact HeW]. eapply N.le_trans; [|exact HqaV]. apply N.mul_le_mono_r. lia. }
    destruct (still_pass m e rs (V * c_ r) (q / n_ r) (a * V) ((q + a) * V))
      as (vis & rest & k & os & T1 & T2 & T3); auto.
    rewrite T1. cbn [bind].
    do 4 eexists. split; [reflexivity|]. split; [exact T2|].
    split; [|rewrite Epn; auto].
    cbn [app map dig]. now rewrite Ed1, Ed2, T3.
  - rewrite dbg_ok by (apply N.leb_le; lia). cbn [bind].
    do 4 eexists. split; [reflexivity|].
    rewrite carry_loop_dig; auto.
    2:{ assert (q / n_ r + o2 / n_ r = (q + a) / n_ r) by lia.
      pose proof (div_le_self (q + a) (n_ r) ltac:(lia)). lia. }
    split; [reflexivity|]. split; [|rewrite Epn; auto].
    cbn [app map dig]. now rewrite Ed1, Ed2.
Qed.

