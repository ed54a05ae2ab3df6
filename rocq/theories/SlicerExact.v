(** * SlicerExact: selections outside [safe] are iterated wrongly (debug builds). *)
From Verif Require Import Base Spec Radix Safe Chunk Extent Dataset Slicer SlicerProofs SlicerStep.

Local Arguments N.add : simpl never.
Local Arguments N.sub : simpl never.
Local Arguments N.mul : simpl never.
Local Arguments N.div : simpl never.
Local Arguments N.modulo : simpl never.
Local Arguments N.min : simpl never.
Local Arguments N.max : simpl never.

(** [lia] with quotients and remainders as unknown numbers. *)
Ltac mlia :=
  repeat match goal with
  | x := _ |- _ => subst x
  end;
  repeat match goal with
  | H : context [?a mod ?b] |- _ => let x := fresh "x" in set (x := a mod b) in *; clearbody x
  | |- context [?a mod ?b] => let x := fresh "x" in set (x := a mod b) in *; clearbody x
  | H : context [?a / ?b] |- _ => let x := fresh "x" in set (x := a / b) in *; clearbody x
  | |- context [?a / ?b] => let x := fresh "x" in set (x := a / b) in *; clearbody x
  end; lia.

Lemma pn_one rs : Forall dwf rs -> pn rs <= 1 -> ones rs = true.
Proof.
  induction 1 as [|r rs Hr HF IH]; intros H; [reflexivity|].
  assert (E : pn (r :: rs) = n_ r * pn rs) by reflexivity. rewrite E in H.
  pose proof (pn_pos rs HF). destruct Hr as (Hn & _). cbn [ones forallb].
  destruct (N.eqb_spec (n_ r) 1); [|nia]. cbn [andb]. apply IH. nia.
Qed.

(** A run from a position in a dimension that is not exactly one chunk stays in the row
    and in the chunk. *)
Lemma same_row_inv r rs q a : dwf r -> exact r = false -> sameplace (r :: rs) q a ->
  q mod n_ r + a <= n_ r /\ (i_ r + q mod n_ r) mod c_ r + a <= c_ r.
Proof.
  intros Hr Hx S. destruct (geom r q Hr) as (G1 & G2 & G3 & G4 & G5). cbv zeta in *.
  pose proof Hr as (Hn & Hc & Hs & HW).
  set (o := q mod n_ r) in *.
  pose proof (divmod_eq q (n_ r) ltac:(lia)) as Eq. fold o in Eq.
  assert (Hmo : (i_ r + o) mod c_ r < c_ r) by (apply N.mod_lt; lia).
  (* staying in the chunk as long as the row lasts *)
  assert (HC : forall k, k < a -> o + k < n_ r -> (i_ r + o) mod c_ r + k < c_ r).
  { intros k Hk Hon. destruct (S k Hk) as [S1 _]. cbn [cidx] in S1.
    destruct (div_add_small q (n_ r) k) as [_ E2]; [fold o; lia|]. fold o in E2.
    rewrite E2 in S1. fold o in S1. injection S1 as S1 _.
    pose proof (divmod_eq (i_ r + (o + k)) (c_ r) ltac:(lia)) as D1. rewrite S1 in D1.
    pose proof (divmod_eq (i_ r + o) (c_ r) ltac:(lia)) as D2.
    assert ((i_ r + (o + k)) mod c_ r < c_ r) by (apply N.mod_lt; lia). lia. }
  assert (Hrow : o + a <= n_ r).
  { destruct (N.le_gt_cases (o + a) (n_ r)) as [|Hgt]; auto. exfalso.
    set (k := n_ r - o).
    assert (Hk : k < a) by (unfold k; lia).
    pose proof (HC (k - 1) ltac:(lia) ltac:(unfold k; lia)) as HC1.
    destruct (S k Hk) as [S1 S2]. cbn [cidx cpos] in S1, S2.
    assert (E1 : (q + k) mod n_ r = 0).
    { apply (mod_unique_N _ _ (q / n_ r + 1)); unfold k; lia. }
    assert (E2 : (q + k) / n_ r = q / n_ r + 1).
    { apply (div_unique_N _ _ _ 0); unfold k; lia. }
    rewrite E1, E2, N.add_0_r in S1, S2. fold o in S1, S2. injection S1 as S1 _.
    pose proof (divmod_eq (i_ r) (c_ r) ltac:(lia)) as D1.
    pose proof (divmod_eq (i_ r + o) (c_ r) ltac:(lia)) as D2. rewrite <- S1 in D2.
    assert (Hm : i_ r mod c_ r < c_ r) by (apply N.mod_lt; lia).
    assert (Hmm : (i_ r + o) mod c_ r = i_ r mod c_ r + o) by lia.
    assert (Hfit : i_ r mod c_ r + n_ r <= c_ r) by (rewrite Hmm in HC1; clear - HC1 G1; unfold k in HC1; lia).
    rewrite Hmm in S2.
    set (x := cpos rs (q / n_ r + 1)) in *. set (y := cpos rs (q / n_ r)) in *.
    assert (S3 : c_ r * x = n_ r + c_ r * y) by (unfold k in S2; lia).
    assert (n_ r = c_ r).
    { destruct (N.le_gt_cases x y) as [Hxy|Hxy].
      - assert (Hl : c_ r * x <= c_ r * y) by (apply N.mul_le_mono_l; auto).
        clear - Hl S3 Hn. revert Hl S3. generalize (c_ r * x) (c_ r * y). intros; lia.
      - assert (Hl : c_ r * (y + 1) <= c_ r * x) by (apply N.mul_le_mono_l; lia).
        rewrite N.mul_add_distr_l in Hl. clear - Hl S3 Hfit. revert Hl S3 Hfit. generalize (c_ r * x) (c_ r * y) (i_ r mod c_ r).
        intros; lia. }
    unfold exact in Hx. replace (n_ r =? c_ r) with true in Hx by (symmetry; apply N.eqb_eq; auto).
    assert (Hz : i_ r mod c_ r = 0) by (clear - Hfit H; revert Hfit; generalize (i_ r mod c_ r); intros; lia).
    rewrite Hz in Hx. discriminate. }
  split; [auto|].
  destruct (N.eq_dec a 0) as [->|Ha]; [lia|].
  specialize (HC (a - 1) ltac:(lia) ltac:(lia)). lia.
Qed.

(** Runs over whole rows of an exactly covered dimension are runs of the outer ones. *)
Lemma same_exact_inv r rs q a b :
  dwf r -> exact r = true -> q mod n_ r = 0 ->
  sameplace (r :: rs) q b -> (forall k, k < a -> c_ r * k < b) -> sameplace rs (q / n_ r) a.
Proof.
  intros (Hn & Hc & Hs & HW) Hx Hq S H k Hk. unfold exact in Hx. btrue.
  destruct (S (c_ r * k) (H k Hk)) as [S1 S2]. cbn [cidx cpos] in S1, S2.
  pose proof (divmod_eq q (n_ r) ltac:(lia)) as Eq. rewrite Hq in Eq.
  assert (E1 : (q + c_ r * k) mod n_ r = 0).
  { apply (mod_unique_N _ _ (q / n_ r + k)); [lia|]. rewrite <- H1. lia. }
  assert (E2 : (q + c_ r * k) / n_ r = q / n_ r + k).
  { apply (div_unique_N _ _ _ 0); [lia|]. rewrite <- H1. lia. }
  rewrite E1, E2 in S1, S2. rewrite Hq, N.add_0_r, H0 in S2. injection S1 as _ S1.
  split; [auto|]. rewrite !N.add_0_l, <- N.mul_add_distr_l in S2.
  apply N.mul_cancel_l in S2; lia.
Qed.

(** No run starts strictly inside a run. *)
Lemma bnd_inside rs : forall p q a, Forall dwf rs -> bnd rs p -> sameplace rs p a ->
  p < q -> q < p + a -> q < pn rs -> ~ bnd rs q.
Proof.
  induction rs as [|r rs IH]; intros p q a HF Hp S H1 H2 H3 Hq.
  { unfold pn in H3. cbn in H3. lia. }
  inversion HF as [|? ? Hr HF']; subst. pose proof Hr as (Hn & Hc & Hs & HW).
  pose proof (divmod_eq q (n_ r) ltac:(lia)) as Eq.
  pose proof (divmod_eq p (n_ r) ltac:(lia)) as Ep.
  cbn [bnd] in *. destruct (exact r) eqn:Hx.
  - destruct Hp as [Hp1 Hp2], Hq as [Hq1 Hq2]. pose proof Hx as Hx'. unfold exact in Hx'. btrue.
    rewrite Hq1 in Eq. rewrite Hp1 in Ep.
    assert (Hlt : p / n_ r < q / n_ r).
    { destruct (N.le_gt_cases (q / n_ r) (p / n_ r)) as [Hle|]; auto.
      assert (n_ r * (q / n_ r) <= n_ r * (p / n_ r)) by (apply N.mul_le_mono_l; auto). lia. }
    apply (IH (p / n_ r) (q / n_ r) (q / n_ r - p / n_ r + 1) HF' Hp2); auto; try lia.
    + apply (same_exact_inv r rs p _ a Hr Hx Hp1 S). intros k Hk.
      rewrite <- H0.
      assert (n_ r * k <= n_ r * (q / n_ r - p / n_ r)) by (apply N.mul_le_mono_l; lia).
      rewrite N.mul_sub_distr_l in H4. lia.
    + change (pn (r :: rs)) with (n_ r * pn rs) in H3.
      apply N.div_lt_upper_bound; lia.
  - destruct (same_row_inv r rs p a Hr Hx S) as [R1 R2].
    assert (Ho : p mod n_ r < n_ r) by (apply N.mod_lt; lia).
    assert (E : q mod n_ r = p mod n_ r + (q - p)).
    { apply (mod_unique_N _ _ (p / n_ r)); clear - R1 Ep H1 H2.
      - revert R1. generalize (p mod n_ r). intros; lia.
      - revert Ep. generalize (p mod n_ r) (n_ r * (p / n_ r)). intros; lia. }
    unfold runstart in Hq. rewrite E in Hq. destruct Hq as [Hq|Hq]; [mlia|].
    pose proof (divmod_eq (i_ r + p mod n_ r) (c_ r) ltac:(lia)) as D.
    rewrite (mod_unique_N _ _ ((i_ r + p mod n_ r) / c_ r) ((i_ r + p mod n_ r) mod c_ r + (q - p))) in Hq; mlia.
Qed.

(** ** The loop in a debug build *)

Lemma adv_bound e V r rs q carry adv soff x :
  dwf r -> adv_loop Debug e (mkrs V (r :: rs) q) carry adv soff = Ok x ->
  q mod n_ r + carry < W64.
Proof.
  intros Hr H. destruct (geom r q Hr) as (G1 & G2 & G3 & G4 & G5). cbv zeta in *.
  destruct Hr as (Hn & Hc & Hs & HW).
  cbn [mkrs adv_loop r_co r_c r_s r_v r_idx r_cnt] in H.
  rewrite <- bind_assoc in H. rewrite clip_ok in H by lia. cbn [bind] in H.
  destruct ((_ =? 1) && _).
  - destruct (add64 Debug (q mod n_ r) carry) eqn:E; try discriminate. apply add64_debug in E. lia.
  - destruct (add64 Debug (q mod n_ r) carry) eqn:E; try discriminate. apply add64_debug in E. lia.
Qed.

(** Everything a successful call does, in general. *)
Lemma adv_gen e rs : forall V q carry adv soff vis rest k A F,
  Forall dwf rs -> 0 < V ->
  adv_loop Debug e (mkrs V rs q) carry adv soff = Ok (vis, rest, k, A, F) ->
  (exists d, A = adv + d * V /\ F = soff + d * V) /\ (soff <= e -> F <= e) /\
  exists rs1 rs2 V2 q2, rs = rs1 ++ rs2 /\ rest = mkrs V2 rs2 q2 /\
    Forall2 (fun o r => o < n_ r) vis rs1.
Proof.
  induction rs as [|r rs IH]; intros V q carry adv soff vis rest k A F HF HV H.
  { cbn [mkrs adv_loop] in H. injection H as <- <- <- <- <-.
    split; [exists 0; lia|]. split; [auto|]. exists [], [], 1, 0. repeat split; constructor. }
  inversion HF as [|? ? Hr HF']; subst. pose proof Hr as (Hn & Hc & Hs & HW).
  pose proof (adv_bound _ _ _ _ _ _ _ _ _ Hr H) as Hb.
  rewrite adv_step in H by auto. cbv zeta in H.
  set (o := q mod n_ r) in *. set (co := (i_ r + o) / c_ r * c_ r) in *.
  assert (HVc : 0 < V * c_ r) by (apply N.mul_pos_pos; auto).
  assert (Hcons : forall x v rs1, x < n_ r -> Forall2 (fun o r => o < n_ r) v rs1 ->
     Forall2 (fun o r => o < n_ r) (x :: v) (r :: rs1)) by (intros; constructor; auto).
  destruct ((N.min (c_ r) (s_ r - co) =? 1) && negb (V =? 1)) eqn:Ep.
  - destruct (adv_loop Debug e (mkrs (V * c_ r) rs (q / n_ r)) ((o + carry) / n_ r) adv soff)
      as [[[[[vis' rest'] k'] a'] f']| | | |] eqn:E; try discriminate.
    cbn [bind] in H. injection H as <- <- <- <- <-.
    destruct (IH _ _ _ _ _ _ _ _ _ _ HF' HVc E) as ((d & D1 & D2) & Hle & rs1 & rs2 & V2 & q2 & E1 & E2 & E3).
    split; [exists (d * c_ r); lia|]. split; [auto|].
    exists (r :: rs1), rs2, V2, q2. subst rs. split; [reflexivity|]. split; [auto|].
    apply Hcons; auto. apply N.mod_lt. lia.
  - set (o2 := N.min (n_ r) (co + N.min (c_ r) (s_ r - co) - i_ r)) in *.
    destruct (sub64 Debug o2 ((o + carry) mod n_ r)) as [d0| | | |] eqn:X1; try discriminate. cbn [bind] in H.
    destruct (mul64 Debug d0 V) as [diff| | | |] eqn:X2; try discriminate. cbn [bind] in H.
    destruct (add64 Debug adv diff) as [adv'| | | |] eqn:X3; try discriminate. cbn [bind] in H.
    destruct (add64 Debug soff diff) as [soff'| | | |] eqn:X4; try discriminate. cbn [bind] in H.
    destruct (add64 Debug ((o + carry) / n_ r) (o2 / n_ r)) as [carry2| | | |] eqn:X5; try discriminate. cbn [bind] in H.
    apply mul64_debug in X2 as [-> _]. apply add64_debug in X3 as [-> _]. apply add64_debug in X4 as [-> _].
    destruct ((i_ r =? co) && _ && _) eqn:Ec.
    + destruct (adv_loop Debug e (mkrs (V * c_ r) rs (q / n_ r)) carry2 (adv + d0 * V) (soff + d0 * V))
        as [[[[[vis' rest'] k'] a'] f']| | | |] eqn:E; try discriminate.
      cbn [bind] in H. injection H as <- <- <- <- <-.
      destruct (IH _ _ _ _ _ _ _ _ _ _ HF' HVc E) as ((d & D1 & D2) & Hle & rs1 & rs2 & V2 & q2 & E1 & E2 & E3).
      split; [exists (d0 + d * c_ r); lia|].
      split. { intros _. apply Hle. btrue. lia. }
      exists (r :: rs1), rs2, V2, q2. subst rs. split; [reflexivity|]. split; [auto|].
      apply Hcons; auto. apply N.mod_lt. lia.
    + unfold dbg in H. destruct (soff + d0 * V <=? e) eqn:El; [|discriminate].
      cbn [assert_ bind] in H. injection H as <- <- <- <- <-. btrue.
      split; [exists d0; lia|]. split; [auto|].
      exists [r], rs, (V * c_ r), (q / n_ r). split; [reflexivity|]. split; [reflexivity|].
      apply Hcons; [apply N.mod_lt; lia|constructor].
Qed.

(** The same, one dimension at a time. *)
Lemma adv_pass_inv e V r rs q carry adv soff vis rest k A F :
  dwf r -> 0 < V -> N.min (c_ r) (s_ r - (i_ r + q mod n_ r) / c_ r * c_ r) = 1 -> V <> 1 ->
  adv_loop Debug e (mkrs V (r :: rs) q) carry adv soff = Ok (vis, rest, k, A, F) ->
  exists vis', adv_loop Debug e (mkrs (V * c_ r) rs (q / n_ r)) ((q mod n_ r + carry) / n_ r) adv soff
     = Ok (vis', rest, k, A, F).
Proof.
  intros Hr HV H1 HV1 H. pose proof (adv_bound _ _ _ _ _ _ _ _ _ Hr H) as Hb.
  rewrite adv_step in H by auto. cbv zeta in H. rewrite H1 in H.
  apply N.eqb_neq in HV1. rewrite HV1 in H. cbn [N.eqb Pos.eqb negb andb] in H.
  destruct (adv_loop _ _ _ _ _ _) as [[[[[vis' rest'] k'] a'] f']| | | |]; try discriminate.
  cbn [bind] in H. injection H as <- <- <- <- <-. eauto.
Qed.

Lemma adv_stop_inv e V r rs q carry adv soff vis rest k A F :
  dwf r -> Forall dwf rs -> 0 < V ->
  let o := q mod n_ r in
  let co := (i_ r + o) / c_ r * c_ r in
  let c' := N.min (c_ r) (s_ r - co) in
  let o2 := N.min (n_ r) (co + c' - i_ r) in
  (c' <> 1 \/ V = 1) ->
  adv_loop Debug e (mkrs V (r :: rs) q) carry adv soff = Ok (vis, rest, k, A, F) ->
  (o + carry) mod n_ r <= o2 /\
  adv + (o2 - (o + carry) mod n_ r) * V <= A /\
  ((i_ r =? co) && (n_ r =? co + c' - i_ r) && (soff + (o2 - (o + carry) mod n_ r) * V <? e) = true ->
   exists vis', adv_loop Debug e (mkrs (V * c_ r) rs (q / n_ r)) ((o + carry) / n_ r + o2 / n_ r)
     (adv + (o2 - (o + carry) mod n_ r) * V) (soff + (o2 - (o + carry) mod n_ r) * V)
     = Ok (vis', rest, k, A, F)).
Proof.
  intros Hr HF HV o co c' o2 Hnp H. pose proof (adv_bound _ _ _ _ _ _ _ _ _ Hr H) as Hb.
  rewrite adv_step in H by auto. cbv zeta in H. fold o in H. fold co in H. fold c' in H. fold o2 in H.
  replace ((c' =? 1) && negb (V =? 1)) with false in H.
  2:{ symmetry. destruct Hnp as [Hnp|Hnp].
      - apply N.eqb_neq in Hnp. now rewrite Hnp.
      - apply N.eqb_eq in Hnp. rewrite Hnp. now rewrite andb_comm. }
  destruct (sub64 Debug o2 ((o + carry) mod n_ r)) as [d0| | | |] eqn:X1; try discriminate. cbn [bind] in H.
  destruct (mul64 Debug d0 V) as [diff| | | |] eqn:X2; try discriminate. cbn [bind] in H.
  destruct (add64 Debug adv diff) as [adv'| | | |] eqn:X3; try discriminate. cbn [bind] in H.
  destruct (add64 Debug soff diff) as [soff'| | | |] eqn:X4; try discriminate. cbn [bind] in H.
  destruct (add64 Debug ((o + carry) / n_ r) (o2 / n_ r)) as [carry2| | | |] eqn:X5; try discriminate. cbn [bind] in H.
  apply sub64_debug in X1 as [-> X1].
  apply mul64_debug in X2 as [-> _]. apply add64_debug in X3 as [-> _]. apply add64_debug in X4 as [-> _].
  apply add64_debug in X5 as [-> _].
  assert (HVc : 0 < V * c_ r) by (apply N.mul_pos_pos; apply Hr || auto).
  split; [auto|].
  destruct ((i_ r =? co) && _ && _) eqn:Ec.
  - destruct (adv_loop Debug e (mkrs (V * c_ r) rs (q / n_ r)) ((o + carry) / n_ r + o2 / n_ r) _ _)
      as [[[[[vis' rest'] k'] a'] f']| | | |] eqn:E; try discriminate.
    cbn [bind] in H. injection H as <- <- <- <- <-.
    destruct (adv_gen _ _ _ _ _ _ _ _ _ _ _ _ HF HVc E) as ((d & D1 & D2) & _).
    split; [lia|eauto].
  - unfold dbg in H. destruct (soff + (o2 - (o + carry) mod n_ r) * V <=? e) eqn:El; [|discriminate].
    cbn [assert_ bind] in H. injection H as <- <- <- <- <-. split; [lia|discriminate].
Qed.
