(** * Proofs about [group_chunk_slices]. *)
From Verif Require Import Base Spec Radix Safe Chunk Extent Dataset Slicer SpecApi
  DatasetProofs SlicerMain SlicerTheorems ApiLemmas.

Fixpoint dests (off : N) (l : list segment) : list gsegment :=
  match l with [] => [] | (c, a, b) :: l' => (c, off, a, b) :: dests (off + (b - a)) l' end.

Definition total (l : list segment) : N := sumN (map (fun '(_, a, b) => b - a) l).

Lemma scan_dest_ok m l : forall off,
  Forall (fun '(_, a, b) => a <= b) (l : list segment) -> off + total l < W64 ->
  scan_dest m off l = Ok (dests off l).
Proof.
  unfold total.
  induction l as [|[[c a] b] l IH]; intros off HF HW; cbn [scan_dest dests]; auto.
  inversion HF; subst. cbn [map sumN] in HW. rewrite sub64_ok by auto. cbn [bind].
  rewrite add64_ok by lia. cbn [bind]. rewrite IH by (auto; lia). reflexivity.
Qed.

Lemma dests_segs l : forall off, map (fun g : gsegment => (g_chunk g, g_from g, snd g)) (dests off l) = l.
Proof. induction l as [|[[c a] b] l IH]; intros off; cbn [dests map]; auto. now rewrite IH. Qed.

Lemma seg_elems_nth c a b k : k < b - a ->
  nth_error (seg_elems (c, a, b)) (N.to_nat k) = Some (c, a + k).
Proof.
  intros H. unfold seg_elems. rewrite nth_error_map.
  rewrite (nth_error_nth' (seqN a (N.to_nat (b - a))) 0) by (rewrite seqN_length; lia).
  cbn [option_map]. rewrite seqN_nth by lia. do 2 f_equal. lia.
Qed.
Lemma seg_elems_len c a b : length (seg_elems (c, a, b)) = N.to_nat (b - a).
Proof. unfold seg_elems. now rewrite map_length, seqN_length. Qed.

(** Each segment's elements sit where sequential output would put them. *)
Lemma dests_elems l : forall off g k,
  In g (dests off l) -> k < g_len g ->
  off <= g_dest g /\
  nth_error (flat_map seg_elems l) (N.to_nat (g_dest g - off + k)) = Some (g_chunk g, g_from g + k).
Proof.
  induction l as [|[[c a] b] l IH]; intros off g k Hg Hk; cbn [dests In] in Hg; [easy|].
  cbn [flat_map]. destruct Hg as [<-|Hg].
  - unfold g_dest, g_len, g_chunk, g_from in *. cbn [fst snd] in *. split; [lia|].
    rewrite nth_error_app1 by (rewrite seg_elems_len; lia).
    replace (off - off + k) with k by lia. now apply seg_elems_nth.
  - destruct (IH _ _ _ Hg Hk) as [A B]. split; [lia|].
    rewrite nth_error_app2 by (rewrite seg_elems_len; lia). rewrite seg_elems_len.
    replace (N.to_nat (g_dest g - off + k) - N.to_nat (b - a))%nat
      with (N.to_nat (g_dest g - (off + (b - a)) + k)) by lia.
    exact B.
Qed.

(** Every output position lies in exactly one segment. *)
Lemma dests_cover l : forall off p,
  Forall (fun '(_, a, b) => a <= b) (l : list segment) ->
  off <= p < off + total l ->
  exists i g, nth_error (dests off l) i = Some g /\ g_dest g <= p < g_dest g + g_len g /\
    forall j h, nth_error (dests off l) j = Some h -> g_dest h <= p < g_dest h + g_len h -> j = i.
Proof.
  unfold total. induction l as [|[[c a] b] l IH]; intros off p HF Hp; cbn [map sumN dests] in *; [lia|].
  inversion HF; subst.
  assert (LB : forall j h, nth_error (dests (off + (b - a)) l) j = Some h -> off + (b - a) <= g_dest h).
  { intros j h Hj. clear - Hj. apply nth_error_In in Hj. revert Hj. generalize (off + (b - a)).
    induction l as [|[[c' a'] b'] l IH]; intros o Hj; cbn [dests In] in Hj; [easy|].
    destruct Hj as [<-|Hj]; [cbn; lia|]. apply IH in Hj. lia. }
  destruct (N.lt_ge_cases p (off + (b - a))) as [H|H].
  - exists 0%nat, (c, off, a, b). split; [reflexivity|]. split.
    + unfold g_dest, g_len; cbn [fst snd]. lia.
    + intros [|j] h Hj Hh; auto. cbn [nth_error] in Hj. apply LB in Hj. lia.
  - destruct (IH (off + (b - a)) p) as (i & g & Hi & Hg & HU); auto; [lia|].
    exists (S i), g. split; auto. split; auto.
    intros [|j] h Hj Hh; cbn [nth_error] in Hj.
    + injection Hj as <-. unfold g_dest, g_len in Hh; cbn [fst snd] in Hh. lia.
    + f_equal. eapply HU; eauto.
Qed.

Lemma dests_range l : forall off g, Forall (fun '(_, a, b) => a <= b) (l : list segment) ->
  In g (dests off l) -> off <= g_dest g /\ g_dest g + g_len g <= off + total l.
Proof.
  unfold total. induction l as [|[[c a] b] l IH]; intros off g HF Hg; cbn [dests In map sumN] in *; [easy|].
  inversion HF; subst. destruct Hg as [<-|Hg].
  - unfold g_dest, g_len; cbn [fst snd]. lia.
  - apply IH in Hg; auto. lia.
Qed.

(** Transport of "exactly one" along a permutation. *)
Lemma unique_perm {A} (P : A -> Prop) l l' :
  Permutation l l' ->
  (exists i g, nth_error l i = Some g /\ P g /\ forall j h, nth_error l j = Some h -> P h -> j = i) ->
  exists i g, nth_error l' i = Some g /\ P g /\ forall j h, nth_error l' j = Some h -> P h -> j = i.
Proof.
  assert (E : forall l : list A,
    (exists i g, nth_error l i = Some g /\ P g /\ forall j h, nth_error l j = Some h -> P h -> j = i) <->
    exists l1 g l2, l = l1 ++ g :: l2 /\ P g /\ ~ Exists P (l1 ++ l2)).
  { clear l l'. intros l. split.
    - intros (i & g & Hi & Hg & HU). destruct (nth_error_split _ _ Hi) as (l1 & l2 & -> & <-).
      exists l1, g, l2. split; auto. split; auto. intros HE. apply Exists_exists in HE as (h & Hin & Hh).
      apply in_app_iff in Hin as [Hin|Hin]; apply In_nth_error in Hin as [j Hj].
      + assert (j < length l1)%nat by (apply nth_error_Some; congruence).
        assert (j = length l1); [|lia]. apply (HU j h); auto. now rewrite nth_error_app1.
      + assert ((length l1 + S j)%nat = length l1); [|lia]. apply (HU _ h); auto.
        rewrite nth_error_app2 by lia. replace (length l1 + S j - length l1)%nat with (S j) by lia. exact Hj.
    - intros (l1 & g & l2 & -> & Hg & HE). exists (length l1), g.
      split; [rewrite nth_error_app2, Nat.sub_diag by lia; reflexivity|]. split; auto.
      intros j h Hj Hh. destruct (Nat.lt_trichotomy j (length l1)) as [L|[L|L]]; auto; exfalso; apply HE, Exists_exists; exists h; split; auto; apply in_app_iff.
      + left. rewrite nth_error_app1 in Hj by lia. eapply nth_error_In; eauto.
      + right. rewrite nth_error_app2 in Hj by lia.
        destruct (j - length l1)%nat as [|k] eqn:Ek; [lia|]. cbn [nth_error] in Hj. eapply nth_error_In; eauto. }
  intros HP HE. apply E in HE as (l1 & g & l2 & -> & Hg & HN). apply E.
  assert (Hin : In g l') by (eapply Permutation_in; [exact HP|apply in_elt]).
  apply in_split in Hin as (k1 & k2 & ->). exists k1, g, k2. split; auto. split; auto.
  apply Permutation_app_inv in HP. intros HX. apply HN.
  apply Exists_exists in HX as (h & Hh & Ph). apply Exists_exists. exists h. split; auto.
  eapply Permutation_in; [apply Permutation_sym|]; eauto.
Qed.

Lemma sumN_seg segs : Forall (fun '(c, a, b) => a < b) (segs : list segment) ->
  Forall (fun '(_, a, b) => a <= b) segs.
Proof. intros H. eapply Forall_impl; [|exact H]. intros [[c a] b]; lia. Qed.

Lemma group_ok m ds e idx cnt fuel sort :
  addr_sort sort ->
  full_dataset ds -> get_start_count e (d_shape ds) = Ok (idx, cnt) ->
  sel_in (d_shape ds) idx cnt ->
  sel_safe (d_shape ds) (d_chunk_shape ds) idx cnt = true ->
  (N.to_nat (prodN cnt) < fuel)%nat ->
  exists segs G,
    chunk_slices m fuel ds e = (segs, SDone) /\
    group_chunk_slices sort m fuel ds e = Ok G /\
    Permutation (map (fun g => (g_chunk g, g_from g, snd g)) G) segs /\
    (forall i j g h, (i < j)%nat -> nth_error G i = Some g -> nth_error G j = Some h ->
       c_addr (g_chunk g) <= c_addr (g_chunk h)) /\
    (forall g, In g G -> g_from g < snd g /\ g_dest g + g_len g <= prodN cnt) /\
    (forall p, p < prodN cnt ->
       exists i g, nth_error G i = Some g /\ g_dest g <= p < g_dest g + g_len g /\
         forall j h, nth_error G j = Some h -> g_dest h <= p < g_dest h + g_len h -> j = i) /\
    (forall g k x, In g G -> k < g_len g ->
       nth_error (slab idx cnt) (N.to_nat (g_dest g + k)) = Some x ->
       holds ds x (g_chunk g, g_from g + k)).
Proof.
  intros Hsort Hfd He Hsel Hsafe Hfuel.
  destruct (segments_ok m ds e idx cnt fuel) as (segs & E1 & E2 & E3); auto.
  destruct (segments_sum m ds e idx cnt fuel) as (segs' & E1' & _ & Esum); auto.
  rewrite E1 in E1'. injection E1' as <-.
  assert (HL : Forall (fun '(_, a, b) => a < b) (segs : list segment)).
  { eapply Forall_impl; [|exact E3]. intros [[c a] b]; tauto. }
  pose proof (sumN_seg _ HL) as HLe.
  destruct (sel_in_fits _ _ _ _ Hsel (fd_sizes _ Hfd)) as [_ Hle].
  pose proof (proj1 (fd_sizes _ Hfd)) as HW.
  assert (ET : total segs = prodN cnt) by exact Esum.
  destruct (Hsort (dests 0 segs)) as [HP HS].
  exists segs, (sort (dests 0 segs)). split; auto.
  split. { unfold group_chunk_slices, dest_slices. rewrite E1. rewrite scan_dest_ok by (auto; lia). reflexivity. }
  split. { rewrite <- (dests_segs segs 0) at 2. now apply Permutation_map. }
  split; [exact HS|].
  split.
  { intros g Hg. apply (Permutation_in _ HP) in Hg. split.
    - assert (In (g_chunk g, g_from g, snd g) segs).
      { rewrite <- (dests_segs segs 0). apply in_map_iff. eauto. }
      rewrite Forall_forall in HL. apply (HL (g_chunk g, g_from g, snd g)); auto.
    - apply dests_range in Hg; auto. lia. }
  split.
  { intros p Hp. apply (unique_perm (fun g => g_dest g <= p < g_dest g + g_len g) (dests 0 segs));
      [now apply Permutation_sym|]. apply dests_cover; auto. lia. }
  intros g k x Hg Hk Hx. apply (Permutation_in _ HP) in Hg.
  destruct (dests_elems segs 0 g k Hg Hk) as [_ Hn]. rewrite N.sub_0_r in Hn.
  clear - E2 Hx Hn. revert E2 Hx Hn. generalize (N.to_nat (g_dest g + k)) as i.
  generalize (slab idx cnt), (flat_map seg_elems segs), (g_chunk g, g_from g + k).
  intros l1 l2 ck i HF. revert i. induction HF; intros [|i]; cbn [nth_error]; intros; try discriminate.
  - congruence.
  - eauto.
Qed.

(** Insertion sort is such a sort. *)
Lemma addr_insert_perm g l : Permutation (addr_insert g l) (g :: l).
Proof.
  induction l as [|h l IH]; cbn [addr_insert]; auto. destruct (_ <=? _); auto.
  rewrite IH. apply perm_swap.
Qed.
Lemma sort_by_addr_perm l : Permutation (sort_by_addr l) l.
Proof. induction l as [|g l IH]; cbn [sort_by_addr]; auto. rewrite addr_insert_perm. now constructor. Qed.

Inductive asorted : list gsegment -> Prop :=
| as_nil : asorted []
| as_cons g l : Forall (fun h => g_addr g <= g_addr h) l -> asorted l -> asorted (g :: l).

Lemma addr_insert_sorted g l : asorted l -> asorted (addr_insert g l).
Proof.
  induction 1 as [|h l HF HS IH]; cbn [addr_insert]; [repeat constructor|].
  destruct (N.leb_spec (g_addr g) (g_addr h)).
  - constructor; [|constructor; auto]. constructor; auto.
    eapply Forall_impl; [|exact HF]. cbn. intros; lia.
  - constructor; auto. apply Forall_forall. intros x Hx.
    apply (Permutation_in _ (addr_insert_perm g l)) in Hx. destruct Hx as [<-|Hx]; [lia|].
    rewrite Forall_forall in HF. auto.
Qed.

Lemma asorted_nth l : asorted l -> forall i j g h, (i < j)%nat ->
  nth_error l i = Some g -> nth_error l j = Some h -> g_addr g <= g_addr h.
Proof.
  induction 1 as [|x l HF HS IH]; intros [|i] [|j] g h Hij Hg Hh; cbn [nth_error] in *; try discriminate; try lia.
  - injection Hg as <-. rewrite Forall_forall in HF. apply HF. eapply nth_error_In; eauto.
  - apply (IH i j); auto. lia.
Qed.

Lemma sort_by_addr_ok : addr_sort sort_by_addr.
Proof.
  intros l. split; [apply sort_by_addr_perm|].
  assert (HS : asorted (sort_by_addr l)).
  { induction l; cbn [sort_by_addr]; [constructor|now apply addr_insert_sorted]. }
  intros i j g h Hij Hg Hh. pose proof (asorted_nth _ HS i j g h Hij Hg Hh).
  destruct g as [[[c ?] ?] ?], h as [[[c' ?] ?] ?]. exact H.
Qed.
