(** * SegLists: lists of segments with the same elements. *)
From Verif Require Import Base Spec SpecApi Chunk Dataset Slicer SlicerRuns.

Local Arguments N.add : simpl never.
Local Arguments N.sub : simpl never.

Lemma elems_empty c a b : b <= a -> seg_elems (c, a, b) = [].
Proof. intros H. unfold seg_elems. replace (b - a) with 0 by lia. reflexivity. Qed.

Lemma elems_cons c a b : a < b -> seg_elems (c, a, b) = (c, a) :: seg_elems (c, a + 1, b).
Proof.
  intros H. unfold seg_elems. replace (N.to_nat (b - a)) with (S (N.to_nat (b - (a + 1)))) by lia. reflexivity.
Qed.

Lemma elems_split c a d b : a <= d -> d <= b -> seg_elems (c, a, b) = seg_elems (c, a, d) ++ seg_elems (c, d, b).
Proof.
  intros H1 H2. unfold seg_elems. rewrite <- map_app. f_equal.
  replace (N.to_nat (b - a)) with (N.to_nat (d - a) + N.to_nat (b - d))%nat by lia.
  rewrite seqN_app. do 2 f_equal. lia.
Qed.

Definition nonempty (sg : segment) : Prop := snd (fst sg) < snd sg.

Lemma unjoined_tail s l : unjoined (s :: l) -> unjoined l.
Proof. intros H k. apply (H (S k)). Qed.

Lemma unjoined_cut c a d b l : unjoined ((c, a, b) :: l) -> unjoined ((c, d, b) :: l).
Proof.
  intros H [|k] s t; cbn [nth_error].
  - intros [= <-] Ht. specialize (H 0%nat (c, a, b) t eq_refl Ht). destruct t as [[c' a'] b']. exact H.
  - apply (H (S k)).
Qed.

Lemma first_elem c a l segs : Forall nonempty segs -> flat_map seg_elems segs = (c, a) :: l ->
  exists b rest, segs = (c, a, b) :: rest /\ a < b.
Proof.
  intros HN. destruct HN as [|[[c' a'] b'] rest H HN]; [discriminate|]. unfold nonempty in H. cbn [fst snd] in H.
  cbn [flat_map]. rewrite elems_cons by auto. cbn [app]. intros E. apply (f_equal (hd (c, a))) in E. cbn [hd] in E.
  injection E as -> ->. now exists b', rest.
Qed.

(** A list of segments that do not join is as short as any list with the same elements. *)
Lemma unjoined_short : forall other segs, Forall nonempty segs -> unjoined segs ->
  flat_map seg_elems segs = flat_map seg_elems other -> (length segs <= length other)%nat.
Proof.
  induction other as [|[[c a] b] other IH]; intros segs HN HU E.
  - destruct segs as [|[[c a] b] segs]; [auto|]. inversion HN as [|? ? H _]; subst. unfold nonempty in H.
    cbn [fst snd] in H. cbn [flat_map] in E. rewrite elems_cons in E by auto. discriminate.
  - cbn [flat_map] in E. destruct (N.le_gt_cases b a) as [Hb|Hb].
    { rewrite elems_empty in E by auto. cbn [app] in E. cbn [length]. apply le_S, IH; auto. }
    rewrite (elems_cons c a b) in E by auto. cbn [app] in E.
    destruct (first_elem c a _ segs HN E) as (b' & rest & -> & Hb').
    inversion HN as [|? ? H1 HN']; subst. rewrite app_comm_cons, <- elems_cons in E by auto. cbn [flat_map] in E.
    destruct (N.lt_trichotomy b b') as [Hlt|[->|Hgt]].
    + rewrite (elems_split c a b b') in E by lia. rewrite <- app_assoc in E. apply app_inv_head in E.
      cbn [length]. apply le_S. apply (IH ((c, b, b') :: rest)); auto. eapply unjoined_cut; eauto.
    + apply app_inv_head in E. cbn [length]. apply le_n_S, IH; auto. eapply unjoined_tail; eauto.
    + rewrite (elems_split c a b' b) in E by lia. rewrite <- app_assoc in E. apply app_inv_head in E.
      rewrite elems_cons in E by auto. cbn [app] in E.
      destruct (first_elem _ _ _ _ HN' E) as (b2 & rest' & -> & _).
      destruct (HU 0%nat _ _ eq_refl eq_refl). split; reflexivity.
Qed.

Lemma unjoined_unique : forall other segs, Forall nonempty segs -> unjoined segs ->
  Forall nonempty other -> unjoined other ->
  flat_map seg_elems segs = flat_map seg_elems other -> segs = other.
Proof.
  induction other as [|[[c a] b] other IH]; intros segs HN HU HO HV E.
  - destruct segs as [|[[c a] b] segs]; [auto|]. inversion HN as [|? ? H _]; subst. unfold nonempty in H.
    cbn [fst snd] in H. cbn [flat_map] in E. rewrite elems_cons in E by auto. discriminate.
  - inversion HO as [|? ? Hb HO']; subst. unfold nonempty in Hb. cbn [fst snd] in Hb. cbn [flat_map] in E.
    rewrite (elems_cons c a b) in E by auto. cbn [app] in E.
    destruct (first_elem c a _ segs HN E) as (b' & rest & -> & Hb').
    inversion HN as [|? ? H1 HN']; subst. rewrite app_comm_cons, <- elems_cons in E by auto. cbn [flat_map] in E.
    destruct (N.lt_trichotomy b b') as [Hlt|[->|Hgt]].
    + rewrite (elems_split c a b b') in E by lia. rewrite <- app_assoc in E. apply app_inv_head in E. symmetry in E.
      rewrite elems_cons in E by auto. cbn [app] in E.
      destruct (first_elem _ _ _ _ HO' E) as (b2 & rest' & -> & _).
      destruct (HV 0%nat _ _ eq_refl eq_refl). split; reflexivity.
    + apply app_inv_head in E. rewrite (IH rest HN'); auto; eapply unjoined_tail; eauto.
    + rewrite (elems_split c a b' b) in E by lia. rewrite <- app_assoc in E. apply app_inv_head in E.
      rewrite elems_cons in E by auto. cbn [app] in E.
      destruct (first_elem _ _ _ _ HN' E) as (b2 & rest' & -> & _).
      destruct (HU 0%nat _ _ eq_refl eq_refl). split; reflexivity.
Qed.
