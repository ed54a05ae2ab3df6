(** * SlicerEnds: when iteration ends in a release build, whatever it visits.

    In a release build subtraction wraps, so the place reached could go back.  This file
    shows that it does not unless the two last dimensions are selected at one index each,
    the last one with chunks one element wide ([apart], SlicerRelease.v). *)
From Verif Require Import Base Spec SpecApi Radix Safe Chunk Extent Dataset Slicer
  SlicerProofs SlicerStep ChunkProofs DatasetProofs SlicerMain SlicerTheorems SlicerExact SlicerExact2 SlicerExact3 SlicerRelease SlicerRelease2.

Local Arguments N.add : simpl never.
Local Arguments N.sub : simpl never.
Local Arguments N.mul : simpl never.
Local Arguments N.div : simpl never.
Local Arguments N.modulo : simpl never.
Local Arguments N.min : simpl never.
Local Arguments N.max : simpl never.

(** The selection is one whole (possibly clipped) chunk in this dimension. *)
Definition filled (r : dim) : bool := (i_ r mod c_ r =? 0) && (n_ r =? N.min (c_ r) (s_ r - i_ r)).
(** The last chunk touched has one index in this dimension. *)
Definition lean (r : dim) : bool := N.min (c_ r) (s_ r - last_chunk r * c_ r) =? 1.

(** Coordinates of dimensions the loop always passes are zero. *)
Fixpoint calm (V : N) (rs : list dim) (q : N) : Prop :=
  match rs with
  | [] => True
  | r :: rs' =>
      if filled r then q mod n_ r = 0 /\ calm (V * c_ r) rs' (q / n_ r)
      else if negb (V =? 1) && lean r then calm (V * c_ r) rs' (q / n_ r) else True
  end.

Lemma calm_zero rs : Forall dwf rs -> forall V, calm V rs 0.
Proof.
  induction 1 as [|r rs Hr HF IH]; intros V; cbn [calm]; auto. destruct Hr as (Hn & _).
  rewrite N.mod_0_l, N.div_0_l by lia. destruct (filled r); [auto|]. destruct (_ && _); auto.
Qed.

Lemma mod_mul_mod q n p : 0 < n -> 0 < p -> (q mod (n * p)) mod n = q mod n /\ (q mod (n * p)) / n = (q / n) mod p.
Proof.
  intros Hn Hp. rewrite N.mod_mul_r by lia. split.
  - rewrite (N.mul_comm n), N.mod_add by lia. apply N.mod_mod. lia.
  - rewrite (N.mul_comm n), N.div_add by lia. rewrite (N.div_small (q mod n)) by (apply N.mod_lt; lia). reflexivity.
Qed.
Lemma calm_mod rs : Forall dwf rs -> forall V q, calm V rs q -> calm V rs (q mod pn rs).
Proof.
  induction 1 as [|r rs Hr HF IH]; intros V q H; cbn [calm] in *; auto. pose proof Hr as (Hn & _). pose proof (pn_pos rs HF) as Hp.
  rewrite pnc. destruct (mod_mul_mod q (n_ r) (pn rs) Hn Hp) as [E1 E2]. rewrite E1, E2.
  destruct (filled r); [destruct H; split; auto|]. destruct (_ && _); auto.
Qed.
Lemma dig_mod_ rs : Forall dwf rs -> forall q, dig (map n_ rs) (q mod pn rs) = dig (map n_ rs) q.
Proof.
  induction 1 as [|r rs Hr HF IH]; intros q; cbn [map dig]; auto. pose proof Hr as (Hn & _). pose proof (pn_pos rs HF) as Hp.
  rewrite pnc. destruct (mod_mul_mod q (n_ r) (pn rs) Hn Hp) as [E1 E2]. now rewrite E1, E2, IH.
Qed.

(** Room for a whole selection and a whole chunk. *)
Definition pm (rs : list dim) : N := prodN (map (fun r => N.max (n_ r) (c_ r)) rs).
Lemma pmc r rs : pm (r :: rs) = N.max (n_ r) (c_ r) * pm rs.
Proof. reflexivity. Qed.
Lemma pm_pos rs : Forall dwf rs -> 0 < pm rs.
Proof. induction 1 as [|r rs (Hn & _) HF IH]; [reflexivity|]. rewrite pmc. apply N.mul_pos_pos; lia. Qed.

Lemma pc_pm l : pc l <= pm l.
Proof. induction l as [|r l IH]; [reflexivity|]. rewrite pcc, pmc. apply N.mul_le_mono; [lia|exact IH]. Qed.

Lemma le_l a b c : 0 < b -> a <= c -> a <= c * b.
Proof. intros H L. transitivity c; [exact L|]. rewrite <- (N.mul_1_r c) at 1. apply N.mul_le_mono_l. lia. Qed.

(** A chunk of one index here is the last one touched. *)
Lemma lean_at r q : dwf r ->
  N.min (c_ r) (s_ r - (i_ r + q mod n_ r) / c_ r * c_ r) = 1 -> lean r = true.
Proof.
  intros Hr H. destruct (geom r q Hr) as (G1 & G2 & G3 & G4 & G5). cbv zeta in *. pose proof Hr as (Hn & Hc & Hs & HW).
  unfold lean. apply N.eqb_eq. destruct (N.eq_dec (c_ r) 1) as [E|E].
  - rewrite E, N.div_1_r in *. unfold last_chunk. rewrite E, N.div_1_r, N.mul_1_r. lia.
  - assert (EL : last_chunk r = (i_ r + q mod n_ r) / c_ r).
    { unfold last_chunk. f_equal. generalize dependent ((i_ r + q mod n_ r) / c_ r). generalize dependent ((i_ r + q mod n_ r) mod c_ r).
      generalize dependent (q mod n_ r). intros. lia. }
    rewrite EL. exact H.
Qed.

(** A chunk of more than one index, when the last one touched has one: not the last one. *)
Lemma lean_before r q : dwf r -> lean r = true ->
  N.min (c_ r) (s_ r - (i_ r + q mod n_ r) / c_ r * c_ r) <> 1 ->
  (i_ r + q mod n_ r) / c_ r * c_ r + N.min (c_ r) (s_ r - (i_ r + q mod n_ r) / c_ r * c_ r) - i_ r < n_ r.
Proof.
  intros Hr HL H. destruct (geom r q Hr) as (G1 & G2 & G3 & G4 & G5). cbv zeta in *. pose proof Hr as (Hn & Hc & Hs & HW).
  unfold lean in HL. apply N.eqb_eq in HL.
  set (u := (i_ r + q mod n_ r) / c_ r) in *.
  assert (Hle : u <= last_chunk r).
  { unfold u, last_chunk. apply N.div_le_mono; [lia|]. clear - G1. lia. }
  assert (Hne : u <> last_chunk r) by (intros E; rewrite E in H; auto).
  assert (Hlt : u + 1 <= last_chunk r) by lia.
  assert (Hm : (u + 1) * c_ r <= last_chunk r * c_ r) by (apply N.mul_le_mono_r; auto).
  assert (Hd : last_chunk r * c_ r <= i_ r + n_ r - 1).
  { unfold last_chunk. rewrite N.mul_comm. apply N.mul_div_le. lia. }
  rewrite N.mul_add_distr_r, N.mul_1_l in Hm. clear - Hm Hd Hn Hc G1 G2. generalize dependent (u * c_ r). generalize dependent (last_chunk r * c_ r). intros. lia.
Qed.

Lemma filled_at r q : dwf r -> filled r = true ->
  let co := (i_ r + q mod n_ r) / c_ r * c_ r in
  i_ r = co /\ n_ r = co + N.min (c_ r) (s_ r - co) - i_ r /\ N.min (c_ r) (s_ r - co) = n_ r.
Proof.
  intros Hr HL. destruct (geom r q Hr) as (G1 & G2 & G3 & G4 & G5). cbv zeta in *. pose proof Hr as (Hn & Hc & Hs & HW).
  unfold filled in HL. apply andb_true_iff in HL as [H1 H2]. apply N.eqb_eq in H1, H2.
  assert (E : i_ r = (i_ r + q mod n_ r) / c_ r * c_ r).
  { pose proof (divmod_eq (i_ r) (c_ r) ltac:(lia)) as Ei. rewrite H1, N.add_0_r in Ei.
    assert (Ed : (i_ r + q mod n_ r) / c_ r = i_ r / c_ r).
    { symmetry. apply (N.div_unique _ _ _ (q mod n_ r)); [|lia]. clear - G1 H2. lia. }
    rewrite Ed. lia. }
  rewrite <- E. split; [reflexivity|]. split; [|auto]. lia.
Qed.
Lemma at_filled r q : dwf r ->
  let co := (i_ r + q mod n_ r) / c_ r * c_ r in
  i_ r = co -> n_ r = co + N.min (c_ r) (s_ r - co) - i_ r -> filled r = true.
Proof.
  intros Hr co E1 E2. pose proof Hr as (Hn & Hc & Hs & HW). unfold filled. apply andb_true_iff. split; apply N.eqb_eq.
  - rewrite E1. unfold co. apply N.mod_mul. lia.
  - rewrite <- E1 in E2. lia.
Qed.

(** ** One step *)
Lemma ends_step e Q off rs : forall V k adv q,
  Forall dwf rs -> 0 < V -> k <= 1 -> q < pn rs -> calm V rs q ->
  (V = 1 -> (k = 0 /\ adv = 0 /\ apart rs) \/ (k = 1 /\ adv <= 1 /\ head_many rs)) ->
  adv <= 2 * V -> off + adv < e -> V * pm rs <= Q -> e + 3 * Q < W64 -> pn rs + 2 < W64 ->
  exists vis rest k' A os q',
    (forall m, adv_loop m e (mkrs V rs q) k adv (off + adv) = let* _ := dbg m (off + A <=? e) in Ok (vis, rest, k', A, off + A)) /\
    (forall m, carry_loop m rest k' = Ok os) /\ vis ++ os = dig (map n_ rs) q' /\
    adv <= A /\ (V = 1 -> k = 0 -> rs <> [] -> adv < A) /\ (e <= off + A \/ calm V rs q') /\ A <= 3 * Q.
Proof.
  induction rs as [|r rs IH]; intros V k adv q HF HV Hk Hq HC HT Hadv Ho HQ HB Hpw.
  { unfold pm in HQ. cbn [map prodN] in HQ. rewrite N.mul_1_r in HQ. exists [], [], k, adv, [], 0.
    split. { intros m. rewrite dbg_ok by (apply N.leb_le; lia). reflexivity. }
    repeat split; auto; try lia; try congruence. }
  inversion HF as [|? ? Hr HF']; subst x l. pose proof Hr as (Hn & Hc & Hs & HW).
  pose proof (pn_pos rs HF') as Hpn. pose proof (pm_pos rs HF') as Hpm.
  destruct (geom r q Hr) as (G1 & G2 & G3 & G4 & G5). cbv zeta in *.
  rewrite pnc in Hq, Hpw. rewrite pmc in HQ.
  assert (Hqn : q / n_ r < pn rs) by (apply N.div_lt_upper_bound; lia).
  assert (Hpw' : pn rs + 2 < W64).
  { assert (pn rs <= n_ r * pn rs) by (rewrite N.mul_comm; apply le_l; lia). lia. }
  assert (HVc : 0 < V * c_ r) by (apply N.mul_pos_pos; auto).
  assert (HQc : V * c_ r * pm rs <= Q).
  { transitivity (V * (N.max (n_ r) (c_ r) * pm rs)); [|exact HQ]. rewrite <- N.mul_assoc. apply N.mul_le_mono_l, N.mul_le_mono_r. lia. }
  assert (HVQ : V <= Q).
  { transitivity (V * (N.max (n_ r) (c_ r) * pm rs)); [|exact HQ]. apply le_l; [|lia]. apply N.mul_pos_pos; lia. }
  assert (HnQ : n_ r * V <= Q).
  { transitivity (V * (N.max (n_ r) (c_ r) * pm rs)); [|exact HQ]. rewrite N.mul_comm. apply N.mul_le_mono_l. apply le_l; lia. }
  assert (Emk : forall b x, b < n_ r -> dig (map n_ (r :: rs)) (b + n_ r * x) = b :: dig (map n_ rs) x).
  { intros b x Hb. cbn [map dig]. rewrite (N.mul_comm (n_ r) x), N.mod_add, N.div_add, N.mod_small, N.div_small by lia. now rewrite N.add_0_l. }
  assert (Ecalm : forall b x, b < n_ r -> (filled r = true -> b = 0) -> calm (V * c_ r) rs x -> calm V (r :: rs) (b + n_ r * x)).
  { intros b x Hb Hz Hx. cbn [calm]. rewrite (N.mul_comm (n_ r) x), N.mod_add, N.div_add, N.mod_small, N.div_small, N.add_0_l by lia.
    destruct (filled r); [auto|]. destruct (_ && _); auto. }
  set (o := q mod n_ r) in *. set (co := (i_ r + o) / c_ r * c_ r) in *. set (c' := N.min (c_ r) (s_ r - co)) in *.
  assert (Hcase : (c' = 1 /\ V <> 1) \/ (c' <> 1 \/ V = 1)).
  { destruct (N.eq_dec c' 1); destruct (N.eq_dec V 1); auto. }
  destruct Hcase as [[E1 EV]|Hnp].
  { (* skipped *)
    assert (HC' : calm (V * c_ r) rs (q / n_ r)).
    { cbn [calm] in HC. destruct (filled r); [apply HC|]. rewrite (lean_at r q Hr E1) in HC.
      apply N.eqb_neq in EV. rewrite EV in HC. exact HC. }
    assert (Hk' : (o + k) / n_ r <= 1) by (apply N.lt_succ_r, N.div_lt_upper_bound; lia).
    assert (HV1 : V * c_ r <> 1) by (intros E; apply N.eq_mul_1 in E as [E _]; auto).
    destruct (IH (V * c_ r) ((o + k) / n_ r) adv (q / n_ r) HF' HVc Hk' Hqn HC') as (vis & rest & k' & A & os & q' & L1 & L2 & L3 & L4 & _ & L6 & L7); auto.
    { intros E. congruence. }
    { transitivity (2 * V); [exact Hadv|]. apply N.mul_le_mono_l. apply le_l; lia. }
    exists ((o + k) mod n_ r :: vis), rest, k', A, os, ((o + k) mod n_ r + n_ r * q').
    assert (Hb : (o + k) mod n_ r < n_ r) by (apply N.mod_lt; lia).
    split. { intros m. rewrite skip_step by (auto; fold o; lia). fold o. rewrite L1. destruct (dbg m _); reflexivity. }
    split; [exact L2|]. split. { rewrite Emk by auto. cbn [app]. now rewrite L3. }
    split; [exact L4|]. split; [intros; congruence|]. split; [|exact L7]. destruct L6 as [L6|L6]; [auto|]. right. apply Ecalm; auto.
    intros Hf. destruct (filled_at r q Hr Hf) as (_ & _ & F). fold o co c' in F. rewrite E1 in F. rewrite <- F. apply N.mod_1_r. }
  set (cce := co + c' - i_ r) in *. set (o2 := N.min (n_ r) cce) in *. set (cur := (o + k) mod n_ r) in *.
  assert (HdQ : (o2 - cur) * V <= Q) by (transitivity (n_ r * V); [apply N.mul_le_mono_r; unfold o2; lia|exact HnQ]).
  assert (B1 : adv + (o2 - cur) * V < W64) by lia.
  assert (B2 : off + adv + (o2 - cur) * V < W64) by lia.
  destruct (main_step Release e V r rs q k adv (off + adv) Hr HV Hk Hnp B1 B2) as (M1 & M2 & _).
  assert (M3 := fun m => proj2 (proj2 (main_step m e V r rs q k adv (off + adv) Hr HV Hk Hnp B1 B2))). cbv zeta in M3.
  fold o co c' cce o2 cur in M1, M2, M3. fold cce in M1, M2, M3. fold o2 in M1, M2, M3. 
  assert (Hcn : cur < n_ r) by (apply N.mod_lt; lia).
  assert (Hfirst : V = 1 -> k = 0 -> r :: rs <> [] -> adv < adv + (o2 - cur) * V).
  { intros -> -> _. unfold cur. rewrite N.add_0_r, (N.mod_small o), N.mul_1_r by auto. clear - M1. lia. }
  destruct ((i_ r =? co) && (n_ r =? cce) && (off + adv + (o2 - cur) * V <? e)) eqn:Hcond.
  - (* passed *)
    apply andb_true_iff in Hcond as [Hcond Hlt]. apply andb_true_iff in Hcond as [Hi Hcc]. apply N.eqb_eq in Hi, Hcc. apply N.ltb_lt in Hlt.
    assert (Hf : filled r = true) by (apply (at_filled r q Hr); auto).
    cbn [calm] in HC. rewrite Hf in HC. destruct HC as [HC1 HC2]. fold o in HC1.
    assert (Eo2 : o2 = n_ r) by (unfold o2; lia).
    assert (Ecn : c' = n_ r) by (unfold cce in Hcc; lia).
    assert (Hnc : n_ r <= c_ r) by (rewrite <- Ecn; unfold c'; lia).
    assert (Hkn : k < n_ r).
    { destruct (N.eq_dec V 1) as [EV|EV].
      - destruct (HT EV) as [(-> & _)|(-> & _ & HM)]; [exact Hn|]. cbn [head_many] in HM. clear - Hn HM. lia.
      - destruct Hnp as [Hnp|]; [|congruence]. rewrite Ecn in Hnp. clear - Hn Hnp Hk. lia. }
    assert (Ecur : cur = k) by (unfold cur; rewrite HC1, N.add_0_l; now apply N.mod_small).
    assert (Ek : (o + k) / n_ r + o2 / n_ r = 1).
    { rewrite HC1, N.add_0_l, (N.div_small k) by auto. rewrite Eo2, N.div_same by lia. reflexivity. }
    rewrite Ek, Eo2, Ecur in *.
    assert (Hadv' : adv + (n_ r - k) * V <= 2 * (V * c_ r)).
    { destruct (N.eq_dec V 1) as [EV|EV].
      - rewrite EV, N.mul_1_r, N.mul_1_l. destruct (HT EV) as [(-> & -> & _)|(-> & HA & _)]; clear - Hnc HA Hkn || clear - Hnc Hkn; lia.
      - destruct Hnp as [Hnp|]; [|congruence]. rewrite Ecn in Hnp.
        transitivity (2 * V + n_ r * V). { apply N.add_le_mono; [exact Hadv|]. apply N.mul_le_mono_r. lia. }
        rewrite <- N.mul_add_distr_r, (N.mul_comm V), N.mul_assoc. apply N.mul_le_mono_r. clear - Hnp Hn Hnc. lia. }
    assert (Hlt' : off + (adv + (n_ r - k) * V) < e) by (rewrite N.add_assoc; exact Hlt).
    destruct (IH (V * c_ r) 1 (adv + (n_ r - k) * V) (q / n_ r) HF' HVc ltac:(clear; lia) Hqn HC2) as (vis & rest & k' & A & os & q' & L1 & L2 & L3 & L4 & _ & L6 & L7); auto.
    { intros E. apply N.eq_mul_1 in E as [E2 E3]. right. split; [reflexivity|].
      destruct (HT E2) as [(Ek0 & Ea0 & Hap)|(Ek1 & _)]; [|exfalso; clear - Ek1 Hkn Hnc E3; lia].
      assert (En1 : n_ r = 1) by (clear - Hnc Hn E3; lia). rewrite En1, Ek0, Ea0, E2. split; [apply N.leb_le; reflexivity|].
      cbn [apart] in Hap. destruct rs as [|r1 rs1]; cbn [head_many]; [exact I|]. intros E4. apply Hap. auto. }
    exists (0 :: vis), rest, k', A, os, (0 + n_ r * q').
    split. { intros m. rewrite M3. clear M3. 
      rewrite <- N.add_assoc. rewrite L1. rewrite N.mod_same by lia. destruct (dbg m _); reflexivity. }
    split; [exact L2|]. split. { rewrite Emk by auto. cbn [app]. now rewrite L3. }
    split; [etransitivity; [apply N.le_add_r|exact L4]|]. split; [intros X1 X2 X3; exact (N.lt_le_trans _ _ _ (Hfirst X1 X2 X3) L4)|].
    split; [|exact L7]. destruct L6 as [L6|L6]; [auto|]. right. apply Ecalm; auto.
  - (* stopped *)
    set (k2 := (o + k) / n_ r + o2 / n_ r).
    assert (Hk2 : k2 <= 2).
    { assert ((o + k) / n_ r <= 1) by (apply N.lt_succ_r, N.div_lt_upper_bound; lia).
      assert (o2 / n_ r <= 1) by (apply N.div_le_upper_bound; unfold o2; lia). unfold k2. lia. }
    exists [o2 mod n_ r], (mkrs (V * c_ r) rs (q / n_ r)), k2, (adv + (o2 - cur) * V), (dig (map n_ rs) (q / n_ r + k2)), (o2 mod n_ r + n_ r * (q / n_ r + k2)).
    assert (Hb : o2 mod n_ r < n_ r) by (apply N.mod_lt; lia).
    split. { intros m. rewrite M3, N.add_assoc. reflexivity. }
    split. { intros m. apply carry_loop_dig; auto. clear - Hqn Hpw' Hk2. lia. }
    split. { rewrite Emk by auto. reflexivity. }
    split; [apply N.le_add_r|]. split; [exact Hfirst|]. split; [|lia].
    destruct (filled r) eqn:Hf.
    + left. destruct (filled_at r q Hr Hf) as (F1 & F2 & _). fold o co c' in F1, F2. fold cce in F2.
      rewrite (proj2 (N.eqb_eq _ _) F1), (proj2 (N.eqb_eq _ _) F2) in Hcond. cbn [andb] in Hcond. apply N.ltb_ge in Hcond. clear - Hcond. lia.
    + right. destruct (negb (V =? 1) && lean r) eqn:HL.
      2:{ cbn [calm]. now rewrite Hf, HL. }
      apply andb_true_iff in HL as [HL1 HL2]. apply negb_true_iff, N.eqb_neq in HL1.
      destruct Hnp as [Hnp|]; [|congruence]. pose proof (lean_before r q Hr HL2 Hnp) as HB'. fold o co c' cce in HB'.
      assert (Ez : k2 = 0).
      { unfold k2. rewrite (N.div_small o2) by (unfold o2; lia). rewrite N.div_small; [reflexivity|]. unfold o2 in M1. lia. }
      rewrite Ez, N.add_0_r. apply Ecalm; [auto|congruence|].
      cbn [calm] in HC. rewrite Hf, HL2 in HC. apply N.eqb_neq in HL1. rewrite HL1 in HC. exact HC.
Qed.

Lemma add64_release a b : exists x, add64 Release a b = Ok x.
Proof. unfold add64. destruct (_ <? _); eauto. Qed.

(** ** The whole iteration *)
Section Ends.
Context (ds : dataset) (idx cnt : list N).
Hypothesis Hfd : full_dataset ds.
Hypothesis Hsc : d_shape ds <> [].
Hypothesis Hsel : sel_in (d_shape ds) idx cnt.
Let D := mk_dims (d_shape ds) (d_chunk_shape ds) idx cnt.
Let rs := rev D.
Let e := prodN cnt.
Context (Q : N).
Hypothesis HQ : pm rs <= Q.
Hypothesis HB : e + 4 * Q < W64.

Hypothesis HD : Forall dwf D.
Hypothesis HF : Forall dwf rs.
Hypothesis Hpn : pn rs = e.

Lemma d_rs : rs <> [].
Proof.
  intros E. assert (length rs = 0%nat) as El by now rewrite E. unfold rs in El. rewrite rev_length in El.
  destruct (x_proj ds idx cnt Hfd Hsel) as (E1 & _). fold D in E1. rewrite <- (map_length s_), E1 in El.
  apply length_zero_iff_nil in El. auto.
Qed.
Lemma d_pc : prodN (d_chunk_shape ds) <= Q.
Proof.
  etransitivity; [|exact HQ]. rewrite <- (r_pc ds idx cnt Hfd Hsel). fold D. fold rs.
  apply pc_pm.
Qed.

(** [next] is the loop and the carry after it, and in a debug build two assertions. *)
Lemma next_is off p vis rest k A F os g :
  off < e -> A <= 3 * Q -> 0 < A ->
  (forall m, adv_loop m e (mkrs 1 rs p) 0 0 off = let* _ := dbg m g in Ok (vis, rest, k, A, F)) ->
  (forall m, carry_loop m rest k = Ok os) ->
  exists c, In c (d_chunks ds) /\ cpos rs p < prodN (d_chunk_shape ds) /\
    forall m, slicer_next m ds (mkSlicer off (rev (dig (rev cnt) p)) idx cnt e) =
      let* _ := dbg m (g && (cpos rs p + A <=? prodN (d_chunk_shape ds))) in
      Ok (Some ((c, cpos rs p, cpos rs p + A), mkSlicer F (rev (vis ++ os)) idx cnt e)).
Proof.
  intros Ho HA HA0 EA EC. pose proof (x_proj ds idx cnt Hfd Hsel) as (E1 & E2 & E3 & E4).
  fold D in E1, E2, E3, E4.
  destruct (sel_in_fits _ _ _ _ Hsel (fd_sizes _ Hfd)) as [Hfit Hcle].
  pose proof (fd_made _ Hfd) as Hwm. pose proof (wm_pos _ Hwm) as HP. pose proof (wm_cdim _ Hwm) as Hcd.
  destruct (fd_sizes _ Hfd) as (Hs1 & Hs2 & Hs3).
  assert (Hinb : in_shape (coord_of D p) (map s_ D)) by now apply coord_of_in_shape.
  destruct (chunk_at_coord_ok Release ds (coord_of D p) Hwm Hfit (fd_grid _ Hfd)) as (ch & C1 & _ & C3).
  { rewrite <- E1. exact Hinb. }
  assert (C2 : forall m, chunk_at_coord m ds (coord_of D p) = Ok ch).
  { intros m. destruct (chunk_at_coord_ok m ds (coord_of D p) Hwm Hfit (fd_grid _ Hfd)) as (ch' & X1 & X2 & _).
    { rewrite <- E1. exact Hinb. } rewrite X2. congruence. }
  pose proof (pos_lt (d_chunk_shape ds) (coord_of D p) HP (x_len ds idx cnt Hfd Hsel p)) as Hpl.
  assert (Ecp : cpos rs p = pos_in_chunk (d_chunk_shape ds) (coord_of D p)).
  { unfold rs. rewrite cpos_spec by exact HD. now rewrite E2. }
  destruct (corner_in_box D (coord_of D p) HD Hinb) as (B1 & B2 & B3 & B4). rewrite E2 in B1, B2, B3, B4.
  exists ch. split; [eapply nth_error_In; exact C1|]. split; [now rewrite Ecp|]. intros m.
  unfold slicer_next. cbn [s_end s_offset s_coords s_indices s_counts].
  replace (e <=? off) with false by (symmetry; apply N.leb_gt; lia).
  replace (is_scalar ds) with false.
  2:{ unfold is_scalar. destruct (d_shape ds); [congruence|reflexivity]. }
  rewrite <- E3 at 1. rewrite <- E4 at 1. rewrite add_lists_ok by exact HD. cbn [bind].
  rewrite C2. cbn [bind].
  assert (Hcont : contains m ch (coord_of D p) (d_chunk_shape ds) = Ok Eq).
  { destruct (contains_spec m ch (coord_of D p) (d_chunk_shape ds)) as (r & R1 & R2);
      [apply (x_len ds idx cnt Hfd Hsel)|rewrite C3; auto|rewrite C3; auto|].
    rewrite R1. f_equal. apply (box_side_eq _ _ _ _ R2). rewrite C3. auto. }
  rewrite Hcont.
  replace (dbg_res m (let* o := Ok Eq in Ok (is_eq o))) with (Ok tt) by (destruct m; reflexivity).
  cbn [bind]. rewrite C3, Hcd.
  rewrite chunk_start_ok by (auto; try apply (x_len ds idx cnt Hfd Hsel); lia). cbn [bind]. rewrite N.add_0_l.
  pose proof (rows_mkrs D p HD) as Hrows. rewrite E1, E2, E3, E4 in Hrows.
  rewrite Hrows. fold rs. rewrite EA. pose proof d_pc as Hpq.
  destruct m; cbn [dbg].
  - destruct g; [|reflexivity]. cbn [bind andb]. rewrite EC. cbn [bind].
    rewrite (proj2 (N.ltb_lt _ _) HA0). cbn [bind]. rewrite <- Ecp. rewrite add64_ok by (rewrite Ecp; lia). cbn [bind].
    rewrite product64_ok by auto. cbn [dbg_res bind]. destruct (_ <=? _); reflexivity.
  - cbn [bind]. rewrite EC. cbn [bind dbg dbg_res].
    rewrite <- Ecp. rewrite add64_ok by (rewrite Ecp; lia). reflexivity.
Qed.

Lemma next_done off p vis rest k A F os :
  off < e ->
  adv_loop Release e (mkrs 1 rs p) 0 0 off = Ok (vis, rest, k, A, F) -> carry_loop Release rest k = Ok os ->
  exists sg, slicer_next Release ds (mkSlicer off (rev (dig (rev cnt) p)) idx cnt e) =
      Ok (Some (sg, mkSlicer F (rev (vis ++ os)) idx cnt e)).
Proof.
  intros Ho EA EC. pose proof (x_proj ds idx cnt Hfd Hsel) as (E1 & E2 & E3 & E4).
  fold D in E1, E2, E3, E4.
  destruct (sel_in_fits _ _ _ _ Hsel (fd_sizes _ Hfd)) as [Hfit Hcle].
  pose proof (fd_made _ Hfd) as Hwm. pose proof (wm_pos _ Hwm) as HP. pose proof (wm_cdim _ Hwm) as Hcd.
  destruct (fd_sizes _ Hfd) as (Hs1 & Hs2 & Hs3).
  destruct (chunk_at_coord_ok Release ds (coord_of D p) Hwm Hfit (fd_grid _ Hfd)) as (ch & C1 & C2 & C3).
  { rewrite <- E1. now apply coord_of_in_shape. }
  pose proof (pos_lt (d_chunk_shape ds) (coord_of D p) HP (x_len ds idx cnt Hfd Hsel p)) as Hpl.
  destruct (add64_release (pos_in_chunk (d_chunk_shape ds) (coord_of D p)) A) as [b Eb].
  exists (ch, pos_in_chunk (d_chunk_shape ds) (coord_of D p), b). unfold slicer_next. cbn [s_end s_offset s_coords s_indices s_counts].
  replace (e <=? off) with false by (symmetry; apply N.leb_gt; lia).
  replace (is_scalar ds) with false.
  2:{ unfold is_scalar. destruct (d_shape ds); [congruence|reflexivity]. }
  rewrite <- E3 at 1. rewrite <- E4 at 1. rewrite add_lists_ok by exact HD. cbn [bind].
  rewrite C2. cbn [bind dbg_res].
  rewrite C3, Hcd.
  rewrite chunk_start_ok by (auto; try apply (x_len ds idx cnt Hfd Hsel); lia). cbn [bind]. rewrite N.add_0_l.
  pose proof (rows_mkrs D p HD) as Hrows. rewrite E1, E2, E3, E4 in Hrows.
  rewrite Hrows. fold rs. rewrite EA. cbn [bind]. rewrite EC. cbn [bind dbg]. rewrite Eb. reflexivity.
Qed.

(** From such a state iteration ends; every segment is non-empty and begins inside a chunk, and
    their lengths add up to at least what was left. *)
Definition seg_len (sg : segment) : N := let '(_, a, b) := sg in b - a.
Definition seg_fair (sg : segment) : Prop :=
  let '(c, a, b) := sg in In c (d_chunks ds) /\ a < prodN (d_chunk_shape ds) /\ a < b /\ b <= a + 3 * Q.

Lemma run_ends (Hap : apart rs) : forall n off q, (N.to_nat (e - off) <= n)%nat ->
  q < pn rs -> (e <= off \/ calm 1 rs q) ->
  exists segs, (forall fuel, (n < fuel)%nat -> slicer_run Release fuel ds (mkSlicer off (rev (dig (rev cnt) q)) idx cnt e) = (segs, SDone)) /\
    (length segs <= n)%nat /\ Forall seg_fair segs /\ e <= off + sumN (map seg_len segs) /\
    (forall l sg l', segs = l ++ sg :: l' -> off + sumN (map seg_len l) < e) /\
    (off <= e -> forall fuel, (n < fuel)%nat -> exists l l', segs = l ++ l' /\
       slicer_run Debug fuel ds (mkSlicer off (rev (dig (rev cnt) q)) idx cnt e) =
         (l, if forallb (fun '(_, _, b) => b <=? prodN (d_chunk_shape ds)) segs && (off + sumN (map seg_len segs) =? e) then SDone else SPanic) /\
       (off + sumN (map seg_len segs) = e -> Forall (fun '(_, _, b) => b <= prodN (d_chunk_shape ds)) segs -> l' = [])).
Proof.
  assert (Hstop : forall m off s fuel, e <= off -> slicer_run m (S fuel) ds (mkSlicer off s idx cnt e) = ([], SDone)).
  { intros m off s fuel Hge. cbn [slicer_run]. unfold slicer_next. cbn [s_end s_offset].
    replace (e <=? off) with true by (symmetry; apply N.leb_le; lia). reflexivity. }
  assert (Hnil : forall n off q, e <= off -> exists segs, (forall fuel, (n < fuel)%nat -> slicer_run Release fuel ds (mkSlicer off (rev (dig (rev cnt) q)) idx cnt e) = (segs, SDone)) /\
    (length segs <= n)%nat /\ Forall seg_fair segs /\ e <= off + sumN (map seg_len segs) /\
    (forall l sg l', segs = l ++ sg :: l' -> off + sumN (map seg_len l) < e) /\
    (off <= e -> forall fuel, (n < fuel)%nat -> exists l l', segs = l ++ l' /\
       slicer_run Debug fuel ds (mkSlicer off (rev (dig (rev cnt) q)) idx cnt e) =
         (l, if forallb (fun '(_, _, b) => b <=? prodN (d_chunk_shape ds)) segs && (off + sumN (map seg_len segs) =? e) then SDone else SPanic) /\
       (off + sumN (map seg_len segs) = e -> Forall (fun '(_, _, b) => b <= prodN (d_chunk_shape ds)) segs -> l' = []))).
  { intros n off q Hge. exists []. split; [|split; [cbn; lia|split; [constructor|split; [|split]]]].
    - intros [|fuel] Hfu; [lia|]. now apply Hstop.
    - cbn [map sumN]. lia.
    - intros [|x l] sg l' X; discriminate.
    - intros Hle [|fuel] Hfu; [lia|]. exists [], []. split; [reflexivity|]. split; [|auto]. rewrite Hstop by auto.
      cbn [forallb andb map sumN]. rewrite N.add_0_r. replace (off =? e) with true by (symmetry; apply N.eqb_eq; lia). reflexivity. }
  induction n as [|n IH]; intros off q Hn Hq HI.
  - apply Hnil. lia.
  - destruct (N.le_gt_cases e off) as [Hge|Hlt]; [now apply Hnil|].
    destruct HI as [HI|HI]; [lia|].
    destruct (ends_step e Q off rs 1 0 0 q HF) as (vis & rest & k' & A & os & q' & L1 & L2 & L3 & L4 & L5 & L6 & L7); auto; try lia.
    { rewrite Hpn. clear - HB HQ HF. pose proof (pm_pos rs HF). lia. }
    rewrite N.add_0_r in L1.
    specialize (L5 eq_refl eq_refl d_rs).
    destruct (next_is off q vis rest k' A (off + A) os _ Hlt L7 L5 L1 L2) as (c & C1 & C2 & C3).
    assert (Est : rev (vis ++ os) = rev (dig (rev cnt) (q' mod pn rs))).
    { f_equal. rewrite L3, <- (dig_mod_ rs HF). f_equal. unfold rs, D. rewrite map_rev.
      now rewrite (proj2 (proj2 (proj2 (x_proj ds idx cnt Hfd Hsel)))). }
    assert (Hp0 : 0 < pn rs) by (apply pn_pos, HF).
    destruct (IH (off + A) (q' mod pn rs)) as (segs & R1 & R2 & R3 & R4 & R6 & R5).
    { lia. } { apply N.mod_lt. lia. } { destruct L6 as [L6|L6]; [auto|]. right. now apply calm_mod. }
    exists ((c, cpos rs q, cpos rs q + A) :: segs). split; [|split; [cbn; lia|split; [|split; [|split]]]].
    + intros [|fuel] Hfu; [lia|]. cbn [slicer_run]. rewrite C3. cbn [dbg bind]. rewrite Est, R1 by lia. reflexivity.
    + constructor; [|exact R3]. cbn [seg_fair]. split; [exact C1|]. split; [exact C2|]. clear - L5 L7. lia.
    + cbn [map sumN seg_len]. lia.
    + intros [|x l] sg l' X; cbn [app] in X; [cbn [map sumN]; lia|]. injection X as <- X. specialize (R6 l sg l' X).
      cbn [map sumN seg_len]. lia.
    + intros Hle [|fuel] Hfu; [lia|]. cbn [slicer_run]. rewrite C3. cbn [dbg map sumN seg_len forallb].
      replace (cpos rs q + A - cpos rs q) with A by lia. rewrite !N.add_assoc.
      destruct (N.leb_spec (off + A) e) as [Lle|Lgt]; [destruct (N.leb_spec (cpos rs q + A) (prodN (d_chunk_shape ds))) as [Cle|Cgt]|].
      * cbn [andb bind]. destruct (R5 Lle fuel ltac:(lia)) as (l & l' & X1 & X2 & X3). rewrite Est, X2.
        exists ((c, cpos rs q, cpos rs q + A) :: l), l'. split; [cbn [app]; now rewrite <- X1|]. split; [reflexivity|].
        intros Y1 Y2. inversion Y2; subst. auto.
      * cbn [andb bind]. exists [], ((c, cpos rs q, cpos rs q + A) :: segs). split; [reflexivity|]. split; [reflexivity|].
        intros _ Y2. inversion Y2 as [|? ? Y _]; subst. lia.
      * cbn [andb bind]. exists [], ((c, cpos rs q, cpos rs q + A) :: segs). split; [reflexivity|].
        assert (Hne : (off + A + sumN (map seg_len segs) =? e) = false) by (apply N.eqb_neq; lia).
        split; [rewrite Hne, andb_false_r; reflexivity|]. intros Y1. lia.
Qed.
End Ends.
