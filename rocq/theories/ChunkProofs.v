(** * Proofs about chunks: containment, order, views. *)
From Verif Require Import Base Spec Chunk Extent Dataset Slicer SpecApi.
From Coq Require Import Sorted.

(** ** contains *)

Lemma contains_loop_spec m off : forall i cs,
  length i = length off -> length i = length cs ->
  Forall2 (fun o c => o + c < W64) off cs ->
  exists r, contains_loop m off i cs = Ok r /\ box_side i off cs r.
Proof.
  induction off as [|o off IH]; intros [|x i] [|z cs] H1 H2 HF; cbn [length] in *; try discriminate.
  - exists Eq. split; [reflexivity|constructor].
  - inversion HF; subst. cbn [contains_loop].
    destruct (N.ltb_spec x o).
    { exists Lt. split; [reflexivity|now constructor]. }
    rewrite add64_ok by auto. cbn [bind].
    destruct (N.leb_spec (o + z) x).
    { exists Gt. split; [reflexivity|now constructor]. }
    destruct (IH i cs) as (r & E & B); try lia; auto.
    exists r. split; [exact E|]. constructor; auto; lia.
Qed.

Lemma box_side_eq i off cs r :
  box_side i off cs r ->
  (r = Eq <-> in_box i off cs).
Proof.
  induction 1 as [|x o z i off cs H|x o z i off cs H H'|x o z i off cs r H B IH].
  - split; auto. intros _. repeat split; destruct j; discriminate.
  - split; [discriminate|]. intros (_ & _ & Hb).
    specialize (Hb 0%nat x o z eq_refl eq_refl eq_refl). lia.
  - split; [discriminate|]. intros (_ & _ & Hb).
    specialize (Hb 0%nat x o z eq_refl eq_refl eq_refl). lia.
  - rewrite IH. unfold in_box. split; intros (L1 & L2 & Hb); cbn [length] in *; (split; [lia|split; [lia|]]).
    + intros [|j] y p q; cbn [nth_error].
      * intros [= <-] [= <-] [= <-]. auto.
      * apply Hb.
    + intros j. apply (Hb (S j)).
Qed.

Lemma contains_spec m ch i cs :
  length i = length cs -> length i = length (c_offset ch) ->
  Forall2 (fun o c => o + c < W64) (c_offset ch) cs ->
  exists r, contains m ch i cs = Ok r /\ box_side i (c_offset ch) cs r.
Proof.
  intros H1 H2 HF. unfold contains.
  rewrite (proj2 (Nat.eqb_eq _ _) H1), (proj2 (Nat.eqb_eq _ _) H2). cbn [assert_ bind].
  apply contains_loop_spec; auto.
Qed.

Lemma contains_rank m ch i cs :
  length i <> length cs \/ length i <> length (c_offset ch) ->
  contains m ch i cs = Panic.
Proof.
  unfold contains. intros [H|H]; apply Nat.eqb_neq in H; rewrite H; cbn [assert_ bind]; auto.
  destruct (length i =? length cs)%nat; reflexivity.
Qed.

(** ** Order *)

Lemma cmp_offsets_spec a : forall b, length a = length b ->
  match cmp_offsets a b with
  | Lt => lex_lt a b
  | Eq => a = b
  | Gt => lex_lt b a
  end.
Proof.
  induction a as [|x a IH]; intros [|y b] H; cbn [length] in H; try discriminate; cbn [cmp_offsets]; auto.
  destruct (N.compare_spec x y) as [->|E|E].
  - specialize (IH b ltac:(lia)). destruct (cmp_offsets a b).
    + now subst.
    + now constructor 2.
    + now constructor 2.
  - constructor; lia.
  - constructor; lia.
Qed.

Lemma lex_lt_irrefl a : ~ lex_lt a a.
Proof.
  induction a as [|x a IH]; intros H; inversion H; subst; [lia|auto].
Qed.
Lemma lex_lt_trans a b c : lex_lt a b -> lex_lt b c -> lex_lt a c.
Proof.
  intros H; revert c; induction H as [x y a b Hxy HL|x a b H IH]; intros c H2.
  - inversion H2; subst.
    + constructor; [lia|congruence].
    + constructor; auto. 
      assert (G : forall u v, lex_lt u v -> length u = length v).
      { induction 1; cbn [length]; congruence. }
      rewrite HL. now apply G.
  - inversion H2; subst.
    + constructor; auto.
      assert (G : forall u v, lex_lt u v -> length u = length v).
      { induction 1; cbn [length]; congruence. }
      transitivity (length b); auto.
    + constructor 2. auto.
Qed.
Lemma lex_lt_length a b : lex_lt a b -> length a = length b.
Proof. induction 1; cbn [length]; congruence. Qed.
Lemma lex_lt_asym a b : lex_lt a b -> ~ lex_lt b a.
Proof. intros H1 H2. apply (lex_lt_irrefl a). eapply lex_lt_trans; eauto. Qed.

Lemma cmp_offsets_iff a b : length a = length b ->
  (cmp_offsets a b = Lt <-> lex_lt a b) /\
  (cmp_offsets a b = Eq <-> a = b) /\
  (cmp_offsets a b = Gt <-> lex_lt b a).
Proof.
  intros HL. pose proof (cmp_offsets_spec a b HL) as H.
  destruct (cmp_offsets a b) eqn:E.
  - subst. repeat split; intros X; try discriminate; auto; now apply lex_lt_irrefl in X.
  - repeat split; intros X; try discriminate; auto.
    + subst. now apply lex_lt_irrefl in H.
    + now apply lex_lt_asym in H.
  - repeat split; intros X; try discriminate; auto.
    + now apply lex_lt_asym in H.
    + subst. now apply lex_lt_irrefl in H.
Qed.

(** ** Sorting *)

Definition off_lt (a b : chunk) : Prop := lex_lt (c_offset a) (c_offset b).
Definition same_rank (D : nat) (l : list chunk) : Prop :=
  Forall (fun c => length (c_offset c) = D) l.

(** A list sorted by offset without equal offsets. *)
Inductive strictly_sorted : list chunk -> Prop :=
| ss_nil : strictly_sorted []
| ss_cons c l : Forall (off_lt c) l -> strictly_sorted l -> strictly_sorted (c :: l).

Lemma chunk_insert_perm c l : Permutation (chunk_insert c l) (c :: l).
Proof.
  induction l as [|d l IH]; cbn [chunk_insert]; auto.
  destruct (chunk_cmp c d); auto.
  rewrite IH. apply perm_swap.
Qed.
Lemma chunk_sort_perm l : Permutation (chunk_sort l) l.
Proof.
  induction l as [|c l IH]; cbn [chunk_sort]; auto.
  rewrite chunk_insert_perm. now constructor.
Qed.

Lemma chunk_insert_sorted D c l :
  same_rank D (c :: l) -> ~ In (c_offset c) (map c_offset l) ->
  strictly_sorted l -> strictly_sorted (chunk_insert c l).
Proof.
  intros HR; induction l as [|d l IH]; intros HN HS; cbn [chunk_insert].
  - constructor; auto.
  - inversion HR as [|? ? Hc HR1]; subst. inversion HR1 as [|? ? Hd HR2]; subst.
    inversion HS as [|? ? HF HS']; subst.
    assert (HL : length (c_offset c) = length (c_offset d)) by congruence.
    pose proof (cmp_offsets_spec _ _ HL) as HC. unfold chunk_cmp.
    destruct (cmp_offsets (c_offset c) (c_offset d)).
    + exfalso. apply HN. left. auto.
    + constructor; [|auto]. constructor; [auto|].
      eapply Forall_impl; [|exact HF]. intros e He. eapply lex_lt_trans; eauto.
    + constructor.
      * rewrite Forall_forall. intros e He.
        apply (Permutation_in _ (chunk_insert_perm c l)) in He as [<-|He]; auto.
        rewrite Forall_forall in HF. auto.
      * apply IH; auto.
        -- constructor; auto.
        -- intros X. apply HN. now right.
Qed.

Lemma chunk_sort_sorted D l :
  same_rank D l -> NoDup (map c_offset l) -> strictly_sorted (chunk_sort l).
Proof.
  intros HR; induction HR as [|c l Hc HR IH]; intros HN; cbn [chunk_sort].
  - constructor.
  - inversion HN; subst.
    apply (chunk_insert_sorted (length (c_offset c))); auto.
    + constructor; auto. eapply Permutation_Forall; [apply Permutation_sym, chunk_sort_perm|].
      exact HR.
    + intros X. apply H1. eapply Permutation_in; [|exact X].
      apply Permutation_map, chunk_sort_perm.
Qed.

(** Any two strictly sorted permutations are equal: which sorting algorithm is
    used does not matter. *)
Lemma sorted_perm_unique l1 l2 :
  strictly_sorted l1 -> strictly_sorted l2 -> Permutation l1 l2 -> l1 = l2.
Proof.
  revert l2; induction l1 as [|a l1 IH]; intros l2 H1 H2 HP.
  - symmetry. now apply Permutation_nil.
  - destruct l2 as [|b l2]; [apply Permutation_sym, Permutation_nil in HP; discriminate|].
    inversion H1 as [|? ? F1 S1]; subst. inversion H2 as [|? ? F2 S2]; subst.
    assert (a = b).
    { assert (Ha : In a (b :: l2)) by (eapply Permutation_in; [exact HP|now left]).
      assert (Hb : In b (a :: l1)) by (eapply Permutation_in; [apply Permutation_sym, HP|now left]).
      destruct Ha as [->|Ha]; auto. destruct Hb as [->|Hb]; auto.
      rewrite Forall_forall in F1, F2. exfalso.
      apply (lex_lt_asym (c_offset a) (c_offset b)); [now apply F1|now apply F2]. }
    subst b. f_equal. apply IH; auto. eapply Permutation_cons_inv; eauto.
Qed.

(** Two strictly sorted lists with the same offsets, as sets, list them in the same
    order. *)
Lemma sorted_offsets_unique (l1 l2 : list (list N)) :
  StronglySorted lex_lt l1 -> StronglySorted lex_lt l2 ->
  (forall x, In x l1 <-> In x l2) -> l1 = l2.
Proof.
  revert l2; induction l1 as [|a l1 IH]; intros [|b l2] H1 H2 HI; auto.
  - destruct (proj2 (HI b)); now left.
  - destruct (proj1 (HI a)); now left.
  - inversion H1 as [|? ? S1 F1]; subst. inversion H2 as [|? ? S2 F2]; subst.
    rewrite Forall_forall in F1, F2.
    assert (a = b).
    { destruct (proj1 (HI a)) as [E|Ha]; [now left|auto|].
      destruct (proj2 (HI b)) as [E|Hb]; [now left|auto|].
      exfalso. apply (lex_lt_asym a b); auto. }
    subst b. f_equal. apply IH; auto. intros x. split; intros Hx.
    + destruct (proj1 (HI x)) as [E|?]; [now right| |auto].
      subst. exfalso. apply (lex_lt_irrefl x). auto.
    + destruct (proj2 (HI x)) as [E|?]; [now right| |auto].
      subst. exfalso. apply (lex_lt_irrefl x). auto.
Qed.

Lemma strictly_sorted_offsets l :
  strictly_sorted l -> StronglySorted lex_lt (map c_offset l).
Proof.
  induction 1 as [|c l HF HS IH]; cbn [map]; constructor; auto.
  apply Forall_map. exact HF.
Qed.

(** ** Views *)

Lemma split_records_view D l rest :
  same_rank D l ->
  split_records D (length l) (slice_as_u64s l ++ rest) = l.
Proof.
  induction 1 as [|c l Hc HR IH]; cbn [length split_records]; auto.
  unfold slice_as_u64s. cbn [flat_map as_u64s app].
  rewrite <- app_assoc, <- Hc, firstn_app, skipn_app, firstn_all, skipn_all, Nat.sub_diag.
  cbn [firstn skipn app]. rewrite app_nil_r, Hc. fold (slice_as_u64s l).
  rewrite IH. destruct c; reflexivity.
Qed.

Lemma slice_as_u64s_length D l :
  same_rank D l -> length (slice_as_u64s l) = (length l * (2 + D))%nat.
Proof.
  induction 1 as [|c l Hc HR IH]; auto.
  unfold slice_as_u64s in *. cbn [flat_map]. rewrite app_length, IH. cbn [as_u64s length]. lia.
Qed.

Lemma split_records_inv D n : forall w,
  length w = (n * (2 + D))%nat ->
  slice_as_u64s (split_records D n w) = w /\ same_rank D (split_records D n w) /\
  length (split_records D n w) = n.
Proof.
  induction n as [|n IH]; intros w H; cbn [split_records].
  - destruct w; [|discriminate]. repeat split; constructor.
  - destruct w as [|a [|s o]]; cbn [length] in H; try lia.
    destruct (IH (skipn D o)) as (E1 & E2 & E3).
    { rewrite skipn_length. lia. }
    unfold slice_as_u64s in *. cbn [flat_map as_u64s c_addr c_size c_offset app].
    rewrite E1, firstn_skipn. split; auto.
    split; [|cbn [length]; lia]. constructor; auto. cbn [c_offset].
    rewrite firstn_length. lia.
Qed.
