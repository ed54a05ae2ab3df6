(** * SafeWrap: the class of selections that builds without debug assertions get right.

    In such builds (`cargo build --release`) the subtractions of [ChunkSlicer::next]
    (dataset.rs 586-589) wrap instead of panicking, and a later addition can undo the wrap.
    So the class is a little larger than [sel_safe]: where [safe] asks that the rows already
    accounted for fit in the first chunk touched, here it is enough that they end inside the
    selection from every chunk touched but the last.  Like [sel_safe] this is a condition on
    (shape, chunk shape, start, count) only. *)
From Verif Require Import Base Spec Radix Safe Chunk Extent Dataset Slicer SlicerProofs SlicerStep.

Local Arguments N.add : simpl never.
Local Arguments N.sub : simpl never.
Local Arguments N.mul : simpl never.
Local Arguments N.div : simpl never.
Local Arguments N.modulo : simpl never.
Local Arguments N.min : simpl never.
Local Arguments N.max : simpl never.

(** Number of elements selected in the last two chunks touched in this dimension, if the
    selection touches at least two. *)
Definition last_two (r : dim) : N :=
  portion r + (if last_chunk r =? i_ r / c_ r + 1 then c_ r - i_ r mod c_ r else c_ r).

(** As [safe], but for the second condition. *)
Fixpoint safe_wrap (t V : N) (rs : list dim) : bool :=
  match rs with
  | [] => true
  | r :: rs' =>
      if pn (r :: rs') <=? t then block (r :: rs')
      else if negb (single r || (t <? last_two r)) then false
      else if negb (V =? 1) && thin r then
        if c_ r =? 1 then (if n_ r =? 1 then safe_wrap t V rs' else forallb thin rs')
        else (t <=? 1) && still rs'
      else if exact r then safe_wrap (t / c_ r + 1) (V * c_ r) rs'
      else if negb (V =? 1) && (N.min (c_ r) (s_ r - last_chunk r * c_ r) =? 1)
        then ((t <=? 1) || ones rs') && still rs'
      else if negb (ones rs') && (portion r <=? t) then false
      else if clipped r then still rs'
      else true
  end.

Definition sel_wrap (shape cs idx cnt : list N) : bool :=
  safe_wrap 0 1 (rev (mk_dims shape cs idx cnt)).

(** The class of a build mode. *)
Definition sel_right (m : mode) (shape cs idx cnt : list N) : bool :=
  match m with Debug => sel_safe shape cs idx cnt | Release => sel_wrap shape cs idx cnt end.

(** ** The class contains [safe] *)

Lemma last_two_pos r : dwf r -> 0 < portion r.
Proof.
  intros (Hn & Hc & Hs & HW). unfold portion.
  assert (Hl : last_chunk r * c_ r <= i_ r + n_ r - 1).
  { unfold last_chunk. rewrite N.mul_comm. apply N.mul_div_le. lia. }
  lia.
Qed.

Lemma first_le_two r : dwf r -> c_ r - i_ r mod c_ r < last_two r.
Proof.
  intros Hr. pose proof (last_two_pos r Hr) as Hp. unfold last_two.
  destruct (_ =? _); [lia|].
  pose proof (N.le_sub_l (c_ r) (i_ r mod c_ r)). lia.
Qed.

Lemma safe_sub rs : forall t V, Forall dwf rs -> safe t V rs = true -> safe_wrap t V rs = true.
Proof.
  induction rs as [|r rs IH]; intros t V HF H; [reflexivity|].
  inversion HF as [|? ? Hr HF']; subst x l.
  cbn [safe safe_wrap] in *. destruct (pn (r :: rs) <=? t); [exact H|].
  destruct (negb (single r || (t <=? c_ r - i_ r mod c_ r))) eqn:E1; [discriminate|].
  replace (negb (single r || (t <? last_two r))) with false.
  2:{ symmetry. apply negb_false_iff in E1. apply negb_false_iff. apply orb_true_iff in E1 as [-> | E1]; [reflexivity|].
      apply orb_true_iff. right. btrue. apply N.ltb_lt. pose proof (first_le_two r Hr). lia. }
  destruct (negb (V =? 1) && thin r).
  { destruct (c_ r =? 1); [|exact H]. destruct (n_ r =? 1); [|exact H]. now apply IH. }
  destruct (exact r); [now apply IH|exact H].
Qed.

Lemma sel_safe_wrap shape cs idx cnt : Forall dwf (mk_dims shape cs idx cnt) ->
  sel_safe shape cs idx cnt = true -> sel_wrap shape cs idx cnt = true.
Proof. intros H. apply safe_sub. now apply Forall_rev. Qed.

(** ** Chunks touched in one dimension *)

(** A run start from which fewer rows than those of the two last chunks remain is in the last
    chunk. *)
Lemma last_piece r q : dwf r -> runstart r q -> single r = false ->
  n_ r - q mod n_ r < last_two r -> (i_ r + q mod n_ r) / c_ r = last_chunk r.
Proof.
  intros Hr HR Hsg Hl. pose proof Hr as (Hn & Hc & Hs & HW).
  destruct (geom r q Hr) as (G1 & G2 & G3 & G4 & G5). cbv zeta in *.
  set (o := q mod n_ r) in *. unfold runstart in HR. fold o in HR.
  assert (Hle : (i_ r + o) / c_ r <= last_chunk r) by (unfold last_chunk; apply N.div_le_mono; lia).
  destruct (N.eq_dec ((i_ r + o) / c_ r) (last_chunk r)) as [|Hne]; [auto|exfalso].
  assert (H1 : (i_ r + o) / c_ r + 1 <= last_chunk r) by lia. clear Hne.
  assert (Hl2 : last_chunk r * c_ r <= i_ r + n_ r - 1).
  { unfold last_chunk. rewrite N.mul_comm. apply N.mul_div_le. lia. }
  unfold single in Hsg. apply N.eqb_neq in Hsg.
  assert (Hfst : i_ r / c_ r < last_chunk r).
  { assert (i_ r / c_ r <= last_chunk r) by (unfold last_chunk; apply N.div_le_mono; lia). lia. }
  pose proof (divmod_eq (i_ r) (c_ r) ltac:(lia)) as Ei.
  assert (Him : i_ r mod c_ r < c_ r) by (apply N.mod_lt; lia).
  assert (Hlast : i_ r < last_chunk r * c_ r).
  { assert (c_ r * (i_ r / c_ r + 1) <= c_ r * last_chunk r) by (apply N.mul_le_mono_l; lia). lia. }
  unfold last_two, portion in Hl. rewrite N.max_r in Hl by lia.
  set (L := last_chunk r) in *. set (d := (i_ r + o) / c_ r) in *. set (d0 := i_ r / c_ r) in *.
  set (im := i_ r mod c_ r) in *.
  assert (Hd : c_ r * (d + 1) <= c_ r * L) by (apply N.mul_le_mono_l; lia).
  destruct HR as [HR|HR].
  - assert (d = d0) by (unfold d, d0; now rewrite HR, N.add_0_r). rewrite HR in *.
    destruct (N.eqb_spec L (d0 + 1)) as [E|E].
    + clearbody L d d0 im o. rewrite E in *. lia.
    + assert (c_ r * (d0 + 2) <= c_ r * L) by (apply N.mul_le_mono_l; lia).
      clearbody L d d0 im o. lia.
  - rewrite HR, N.add_0_r in G5. destruct (L =? d0 + 1); clearbody L d d0 im o; lia.
Qed.

Lemma fit_last r q t0 : dwf r -> runstart r q -> (i_ r + q mod n_ r) / c_ r = last_chunk r ->
  q mod n_ r + t0 <= n_ r -> (i_ r + q mod n_ r) mod c_ r + t0 <= c_ r.
Proof.
  intros Hr HR Hl Hrow. pose proof Hr as (Hn & Hc & Hs & HW).
  destruct (geom r q Hr) as (G1 & G2 & G3 & G4 & G5). cbv zeta in *.
  set (o := q mod n_ r) in *. rewrite Hl in *.
  pose proof (divmod_eq (i_ r + n_ r - 1) (c_ r) ltac:(lia)) as E. fold (last_chunk r) in E.
  assert ((i_ r + n_ r - 1) mod c_ r < c_ r) by (apply N.mod_lt; lia).
  set (x := (i_ r + n_ r - 1) mod c_ r) in *. set (L := last_chunk r) in *. set (y := (i_ r + o) mod c_ r) in *.
  clearbody x L y o. destruct (N.eq_dec t0 0) as [->|]; lia.
Qed.

(** The last rows from a run start lie in one chunk. *)
Lemma rows_end rs : forall t V q t0,
  Forall dwf rs -> safe_wrap t V rs = true -> bnd rs q ->
  t0 <= t -> q + t0 = pn rs -> sameplace rs q t0.
Proof.
  induction rs as [|r rs IH]; intros t V q t0 HF HS HI Ht0 Hq.
  { apply sameplace_one. unfold pn in Hq. cbn [map prodN] in Hq. lia. }
  inversion HF as [|? ? Hr HF']; subst x l.
  pose proof Hr as (Hn & Hc & Hs & HW).
  cbn [safe_wrap bnd] in HS, HI.
  destruct (pn (r :: rs) <=? t) eqn:Ept.
  { pose proof (block_same (r :: rs) HF HS) as B. rewrite <- (N.add_0_l q).
    apply (sameplace_sub _ _ _ _ _ B). lia. }
  destruct (negb (single r || (t <? last_two r))) eqn:EA; [discriminate|].
  apply negb_false_iff in EA.
  assert (Ho : q mod n_ r < n_ r) by (apply N.mod_lt; lia).
  assert (Epn : pn (r :: rs) = n_ r * pn rs) by reflexivity.
  pose proof (divmod_eq q (n_ r) ltac:(lia)) as Eq.
  destruct (exact r) eqn:Ex.
  - destruct HI as [HI1 HI2]. unfold exact in Ex. btrue.
    rewrite HI1, N.add_0_r in Eq.
    assert (Hu : exists u, t0 = c_ r * u /\ q / n_ r + u = pn rs).
    { exists (pn rs - q / n_ r). rewrite Epn, Eq in Hq.
      assert (Hle : q / n_ r <= pn rs).
      { apply (N.mul_le_mono_pos_l _ _ (n_ r)); auto. lia. }
      set (z := q / n_ r) in *. clearbody z. rewrite <- H0. split; [|lia]. rewrite N.mul_sub_distr_l. lia. }
    destruct Hu as (u & Eu & Hu).
    assert (HG : forall t' V', u <= t' -> safe_wrap t' V' rs = true -> sameplace (r :: rs) q t0).
    { intros t' V' H2 H4. rewrite Eu. apply sameplace_exact; auto. exact (IH t' V' (q / n_ r) u HF' H4 HI2 H2 Hu). }
    destruct (negb (V =? 1) && thin r) eqn:Et.
    + destruct (N.eqb_spec (c_ r) 1) as [Ec|Ec].
      * destruct (N.eqb_spec (n_ r) 1) as [En|]; [|lia].
        apply (HG t V); auto. rewrite Ec in Eu. lia.
      * apply andb_true_iff in HS as [HS _]. btrue. apply sameplace_one. lia.
    + apply (HG (t / c_ r + 1) (V * c_ r)); auto.
      assert (u <= t / c_ r) by (apply N.div_le_lower_bound; lia). lia.
  - assert (Hrow : (q mod n_ r + t0 <= n_ r) \/ t0 <= 1).
    { assert (HO : ones rs = true -> q mod n_ r + t0 <= n_ r).
      { intros E. apply ones_pn in E. rewrite Epn, E, N.mul_1_r in Hq.
        destruct (N.eq_dec q (n_ r)) as [->|]; [rewrite N.mod_same; lia|].
        rewrite N.mod_small by lia. lia. }
      destruct (negb (V =? 1) && thin r) eqn:Et.
      { right. destruct (N.eqb_spec (c_ r) 1) as [Ec|Ec].
        - apply orb_true_iff in EA as [EA|EA].
          + unfold single, last_chunk in EA. btrue. rewrite Ec, !N.div_1_r in EA.
            unfold exact in Ex. rewrite Ec, N.mod_1_r in Ex. cbn [andb] in Ex.
            replace (n_ r =? 1) with true in Ex; [discriminate|]. symmetry. apply N.eqb_eq. lia.
          + btrue. unfold last_two, portion, last_chunk in EA. rewrite Ec, !N.div_1_r, N.mod_1_r in EA.
            revert EA. clear - Hn Ht0. destruct (_ =? _); lia.
        - apply andb_true_iff in HS as [HS _]. btrue. lia. }
      destruct (negb (V =? 1) && (N.min (c_ r) (s_ r - last_chunk r * c_ r) =? 1)).
      { apply andb_true_iff in HS as [HS _]. apply orb_true_iff in HS as [HS|HS]; [right; btrue; lia|auto]. }
      destruct (ones rs) eqn:E1; [left; auto|]. cbn [negb andb] in HS.
      destruct (portion r <=? t) eqn:E2; [discriminate|]. btrue.
      left. pose proof (runstart_max r q Hr HI). lia. }
    destruct Hrow as [Hrow|Hrow]; [|now apply sameplace_one].
    apply sameplace_row; auto.
    destruct (single r) eqn:Hsg.
    + destruct (single_mod r (q mod n_ r) Hr Hsg Ho) as (_ & E2 & E3). rewrite E2. lia.
    + cbn [orb] in EA. btrue. destruct (N.eq_dec t0 0) as [->|Hz].
      { rewrite N.add_0_r. apply N.lt_le_incl, N.mod_lt. lia. }
      apply fit_last; auto. apply last_piece; auto.
      (* fewer than [t0 + 1] rows remain *)
      assert (Hnt : n_ r - q mod n_ r <= t0); [|lia].
      rewrite Epn in Hq.
      assert (Hlt : q / n_ r < pn rs).
      { apply N.div_lt_upper_bound; lia. }
      assert (n_ r * (q / n_ r + 1) <= n_ r * pn rs) by (apply N.mul_le_mono_l; lia).
      set (z := q / n_ r) in *. set (o := q mod n_ r) in *. clearbody z o. lia.
Qed.
