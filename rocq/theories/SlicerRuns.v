(** * SlicerRuns: consecutive segments of a safe selection never join. *)
From Verif Require Import Base Spec SpecApi Radix Safe Chunk Extent Dataset Slicer
  SlicerProofs SlicerStep SlicerExact ChunkProofs DatasetProofs SlicerMain SlicerTheorems.

Local Arguments N.add : simpl never.
Local Arguments N.sub : simpl never.
Local Arguments N.mul : simpl never.
Local Arguments N.div : simpl never.
Local Arguments N.modulo : simpl never.

(** The second segment starts where the first one ends, in the same chunk. *)
Definition joins (s t : segment) : Prop :=
  let '(c, _, b) := s in let '(c', a', _) := t in c = c' /\ b = a'.

Definition unjoined (segs : list segment) : Prop :=
  forall k s t, nth_error segs k = Some s -> nth_error segs (S k) = Some t -> ~ joins s t.

Lemma corner_div cs : forall x y, Forall (fun c => 0 < c) cs ->
  length x = length cs -> length y = length cs ->
  chunk_corner cs x = chunk_corner cs y -> map2 N.div x cs = map2 N.div y cs.
Proof.
  unfold chunk_corner. induction cs as [|c cs IH]; intros [|u x] [|v y] HP Lx Ly; try discriminate; auto.
  inversion HP; subst. cbn [map2]. intros E.
  pose proof (f_equal (hd 0) E) as E1. pose proof (f_equal (@tl N) E) as E2. cbn [hd tl] in E1, E2.
  f_equal; [|apply IH; auto].
  apply N.mul_cancel_r in E1; auto. lia.
Qed.

Lemma next_max ds idx cnt p ch a z :
  full_dataset ds -> d_shape ds <> [] ->
  sel_in (d_shape ds) idx cnt ->
  let rs := rev (mk_dims (d_shape ds) (d_chunk_shape ds) idx cnt) in
  bnd rs p -> bnd rs (p + a) -> 0 < a -> p + a < prodN cnt ->
  (forall k, k < a -> place ds (slab_coord idx cnt (p + k)) = (Some ch, z + k)) ->
  place ds (slab_coord idx cnt (p + a)) = (Some ch, z + a) -> False.
Proof.
  intros [Hwm Hgrid Hsz] Hsc Hsel rs Hb1 Hb2 Ha Hp HP1 HP2.
  pose proof Hwm as [HR HP _ Hred Hscl _ Hcd].
  destruct (sel_in_fits _ _ _ _ Hsel Hsz) as [Hfit Hcle].
  destruct Hsz as (Hs1 & Hs2 & Hs3).
  pose proof (mk_dims_wf _ _ idx cnt HP Hs3 Hsel) as HD.
  pose proof Hsel as (L1 & L2 & HN & HB).
  destruct (mk_dims_proj (d_shape ds) (d_chunk_shape ds) idx cnt HR L1 L2) as (E1 & E2 & E3 & E4).
  set (D := mk_dims (d_shape ds) (d_chunk_shape ds) idx cnt) in *.
  assert (Ex : forall q, slab_coord idx cnt q = coord_of D q).
  { intros q. unfold coord_of. now rewrite E3, E4. }
  assert (Hpn : pn rs = prodN cnt) by (unfold rs; rewrite pn_rev, E4; auto).
  assert (HDr : Forall dwf rs) by now apply Forall_rev.
  assert (Hin : forall q, in_shape (coord_of D q) (d_shape ds)).
  { intros q. rewrite <- E1. now apply coord_of_in_shape. }
  assert (HLc : forall q, length (coord_of D q) = length (d_chunk_shape ds)).
  { intros q. pose proof (Hin q) as Hq. apply Forall2_length' in Hq. congruence. }
  assert (Hall : forall k, k < a + 1 -> place ds (coord_of D (p + k)) = (Some ch, z + k)).
  { intros k Hk. rewrite <- Ex. destruct (N.eq_dec k a) as [->|]; auto. apply HP1. lia. }
  assert (Hcor : forall k, k < a + 1 ->
    c_offset ch = chunk_corner (d_chunk_shape ds) (coord_of D (p + k))).
  { intros k Hk. specialize (Hall k Hk).
    destruct (chunk_at_coord_ok Debug ds (coord_of D (p + k)) Hwm Hfit Hgrid (Hin _)) as (c & C1 & _ & C3).
    unfold place in Hall. apply (f_equal fst) in Hall. cbn [fst] in Hall. rewrite C1 in Hall.
    injection Hall as ->. exact C3. }
  refine (bnd_inside rs p (p + a) (a + 1) HDr Hb1 _ _ _ _ Hb2); try lia.
  intros k Hk. unfold rs. rewrite !cidx_spec, !cpos_spec by auto. rewrite E2. split.
  - f_equal. apply corner_div; auto.
    rewrite <- (Hcor k Hk). rewrite (Hcor 0) by lia. now rewrite N.add_0_r.
  - pose proof (Hall k Hk) as P1. pose proof (Hall 0 ltac:(lia)) as P2. rewrite N.add_0_r in P2.
    unfold place in P1, P2. apply (f_equal snd) in P1. apply (f_equal snd) in P2.
    cbn [snd] in P1, P2. rewrite P1, P2. lia.
Qed.

Lemma run_max m ds idx cnt :
  full_dataset ds -> d_shape ds <> [] ->
  sel_in (d_shape ds) idx cnt ->
  sel_safe (d_shape ds) (d_chunk_shape ds) idx cnt = true ->
  forall n p fuel segs e,
  let rs := rev (mk_dims (d_shape ds) (d_chunk_shape ds) idx cnt) in
  bnd rs p -> p + N.of_nat n = prodN cnt ->
  slicer_run m fuel ds (state_at idx cnt p) = (segs, e) ->
  unjoined segs /\
  forall s, hd_error segs = Some s ->
    p < prodN cnt /\ (Some (fst (fst s)), snd (fst s)) = place ds (slab_coord idx cnt p).
Proof.
  intros Hfd Hsc Hsel Hsafe n.
  induction n as [n IH] using (well_founded_induction Wf_nat.lt_wf).
  intros p fuel segs e rs Hinv Hpn Hrun.
  destruct fuel as [|fuel]; cbn [slicer_run] in Hrun.
  { injection Hrun as <- <-. split; [intros [|?] ? ?; discriminate|discriminate]. }
  destruct (Nat.eq_dec n 0) as [->|Hn].
  { unfold slicer_next, state_at in Hrun. cbn [s_end s_offset] in Hrun.
    replace (prodN cnt <=? p) with true in Hrun by (symmetry; apply N.leb_le; lia).
    injection Hrun as <- <-. split; [intros [|?] ? ?; discriminate|discriminate]. }
  destruct (next_ok m ds idx cnt p) as (ch & a & N1 & N2 & N3 & N4 & N5 & N6 & N7); auto; [lia|].
  rewrite N1 in Hrun.
  destruct (slicer_run m fuel ds (state_at idx cnt (p + a))) as [rest e'] eqn:ER.
  injection Hrun as <- <-.
  destruct (IH (n - N.to_nat a)%nat ltac:(lia) (p + a) fuel rest e' N4 ltac:(lia) ER) as [I1 I2].
  split.
  - intros [|k] s t; cbn [nth_error].
    + intros [= <-] Ht. specialize (I2 t). destruct rest as [|t' rest]; [discriminate|].
      specialize (I2 Ht) as [I3 I4]. destruct t as [[c' a'] b']. cbn [fst snd] in I4.
      intros [J1 J2]. subst c' a'.
      apply (next_max ds idx cnt p ch a _ Hfd Hsc Hsel Hinv N4 N2 I3 N7); auto.
    + apply I1.
  - intros s [= <-]. split; [lia|]. cbn [fst snd].
    rewrite <- (N.add_0_r p) at 2. rewrite N7 by auto. now rewrite N.add_0_r.
Qed.

Lemma slices_max m ds e idx cnt fuel segs r :
  full_dataset ds -> get_start_count e (d_shape ds) = Ok (idx, cnt) ->
  sel_in (d_shape ds) idx cnt ->
  sel_safe (d_shape ds) (d_chunk_shape ds) idx cnt = true ->
  chunk_slices m fuel ds e = (segs, r) -> unjoined segs.
Proof.
  intros Hfd He Hsel Hsafe Hrun. unfold chunk_slices in Hrun.
  rewrite (chunk_slicer_ok m ds e idx cnt) in Hrun by auto.
  pose proof Hsel as (L1 & L2 & HN & HB).
  destruct (d_shape ds) as [|s sh] eqn:Esh.
  - destruct idx; [|discriminate]. destruct cnt; [|discriminate].
    destruct Hfd as [Hwm Hg Hsz]. pose proof (wm_rank _ Hwm) as HR.
    rewrite Esh in *. destruct (d_chunk_shape ds) as [|? ?] eqn:Ecs; [|discriminate].
    cbn in Hg. destruct (d_chunks ds) as [|c [|c' l]] eqn:Ec; try discriminate.
    enough (segs = [] \/ segs = [(c, 0, 1)]) as [-> | ->] by (intros [|[|?]] ? ?; discriminate).
    destruct fuel as [|fuel]; cbn [slicer_run] in Hrun; [injection Hrun as <- <-; auto|].
    unfold slicer_next, state_at in Hrun.
    cbn [s_end s_offset s_coords s_indices s_counts prodN] in Hrun.
    unfold is_scalar in Hrun. rewrite Esh, Ec in Hrun. cbn [N.leb N.compare length Nat.eqb] in Hrun.
    rewrite dbg_ok in Hrun by reflexivity. cbn [bind] in Hrun.
    rewrite add64_ok in Hrun by reflexivity. cbn [bind] in Hrun. rewrite N.add_0_l in Hrun.
    destruct fuel as [|fuel]; cbn [slicer_run] in Hrun; [injection Hrun as <- <-; auto|].
    unfold slicer_next in Hrun.
    cbn [s_end s_offset] in Hrun. replace (1 <=? 1) with true in Hrun by reflexivity.
    injection Hrun as <- <-; auto.
  - rewrite <- Esh in *.
    apply (run_max m ds idx cnt Hfd) with (n := N.to_nat (prodN cnt)) (p := 0) (fuel := fuel) (e := r); auto; try lia.
    + congruence.
    + apply bnd_zero, Forall_rev, mk_dims_wf; auto.
      * apply Hfd.
      * apply Hfd.
Qed.
