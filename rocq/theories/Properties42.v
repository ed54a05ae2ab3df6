(** * C72: a read copies as few pieces as the layout allows. *)
From Verif Require Import Base Spec SpecApi Radix Safe Chunk Extent Dataset Slicer ApiLemmas SliceProps ReadProofs ReaderProps ExtentProofs
  SlicerRuns SegLists Examples Properties2.

Local Arguments N.add : simpl never.
Local Arguments N.sub : simpl never.

Lemma holds_lists ds idx cnt : full_dataset ds -> sel_in (d_shape ds) idx cnt ->
  forall xs l1 l2, incl xs (slab idx cnt) -> Forall2 (holds ds) xs l1 -> Forall2 (holds ds) xs l2 -> l1 = l2.
Proof.
  intros HD HS xs. induction xs as [|x xs IH]; intros l1 l2 HI H1 H2; inversion H1; inversion H2; subst; auto.
  f_equal; [|apply IH; auto; intros z Hz; apply HI; now right].
  destruct y as [c k], y0 as [c' k'].
  destruct (holds_unique ds x c k c' k') as [-> ->]; auto.
  - eapply sel_in_fits; eauto. apply HD.
  - eapply slab_in_shape; eauto. apply HI. now left.
Qed.

Lemma safe_runs m ds e idx cnt fuel segs :
  full_dataset ds -> get_start_count e (d_shape ds) = Ok (idx, cnt) ->
  sel_in (d_shape ds) idx cnt ->
  sel_safe (d_shape ds) (d_chunk_shape ds) idx cnt = true ->
  chunk_slices m fuel ds e = (segs, SDone) ->
  Forall2 (holds ds) (slab idx cnt) (flat_map seg_elems segs) /\ Forall nonempty segs /\ unjoined segs.
Proof.
  intros A B C D E. destruct (segments_ok m ds e idx cnt (S (N.to_nat (prodN cnt)))) as (segs' & F & G & H); auto.
  assert (segs' = segs) as ->.
  { pose proof (slices_more m ds e _ _ E (Nat.max fuel (S (N.to_nat (prodN cnt)))) ltac:(lia)) as X.
    pose proof (slices_more m ds e _ _ F (Nat.max fuel (S (N.to_nat (prodN cnt)))) ltac:(lia)) as Y. congruence. }
  split; auto. split; [|eapply slices_max; eauto].
  eapply Forall_impl; [|exact H]. intros [[c a] b]. unfold nonempty. cbn [fst snd]. tauto.
Qed.

(** A list of copies [(chunk, from, to)], in order, that together produce the selected
    elements: a plan for the read. *)
Definition plan (ds : dataset) (idx cnt : list N) (segs : list segment) : Prop :=
  Forall2 (holds ds) (slab idx cnt) (flat_map seg_elems segs).

(** For every selection the iteration supports, in both build modes: the copies it makes
    are a plan, none is empty, no two neighbours could have been one copy (same chunk, the
    second starting where the first ends), and no plan has fewer copies. *)
Theorem C72_fewest m ds e idx cnt :
  full_dataset ds -> get_start_count e (d_shape ds) = Ok (idx, cnt) ->
  sel_in (d_shape ds) idx cnt ->
  sel_safe (d_shape ds) (d_chunk_shape ds) idx cnt = true ->
  exists segs, (forall fuel, (N.to_nat (prodN cnt) < fuel)%nat -> chunk_slices m fuel ds e = (segs, SDone)) /\
    plan ds idx cnt segs /\
    (forall c a b, In (c, a, b) segs -> a < b) /\
    (forall k c a b c' a' b', nth_error segs k = Some (c, a, b) -> nth_error segs (S k) = Some (c', a', b') ->
       ~ (c = c' /\ b = a')) /\
    forall other, plan ds idx cnt other -> (length segs <= length other)%nat.
Proof.
  intros A B C D. destruct (safe_right m ds e idx cnt A B C D) as (segs & F & _). exists segs. split; auto.
  destruct (safe_runs m ds e idx cnt _ segs A B C D (F _ (Nat.lt_succ_diag_r _))) as (G & H & I).
  split; auto. split.
  { intros c a b Hin. rewrite Forall_forall in H. apply (H _ Hin). }
  split; [intros k c a b c' a' b' H1 H2; exact (I k _ _ H1 H2)|].
  intros other O. apply unjoined_short; auto. apply (holds_lists ds idx cnt A C (slab idx cnt)); auto. apply incl_refl.
Qed.
Print Assumptions C72_fewest.

(** In a debug build this needs no condition on the selection: whenever the copies are a
    plan at all, no plan has fewer. *)
Theorem C72_debug ds e idx cnt segs other :
  full_dataset ds -> get_start_count e (d_shape ds) = Ok (idx, cnt) -> sel_in (d_shape ds) idx cnt ->
  (forall fuel, (N.to_nat (prodN cnt) < fuel)%nat -> chunk_slices Debug fuel ds e = (segs, SDone)) ->
  plan ds idx cnt segs -> plan ds idx cnt other -> (length segs <= length other)%nat.
Proof.
  intros A B C D E F. assert (S : sel_safe (d_shape ds) (d_chunk_shape ds) idx cnt = true).
  { apply (C11_exact ds e idx cnt A B C). now exists segs. }
  destruct (C72_fewest Debug ds e idx cnt A B C S) as (segs' & G & _ & _ & _ & H).
  specialize (G _ (Nat.lt_succ_diag_r _)). rewrite D in G by apply Nat.lt_succ_diag_r. injection G as <-. auto.
Qed.
Print Assumptions C72_debug.

(** The plan is the only one without empty or joinable copies: the build mode does not
    matter, nor does the way the selection is written. *)
Theorem C72_unique m ds e idx cnt fuel segs other :
  full_dataset ds -> get_start_count e (d_shape ds) = Ok (idx, cnt) -> sel_in (d_shape ds) idx cnt ->
  sel_safe (d_shape ds) (d_chunk_shape ds) idx cnt = true ->
  chunk_slices m fuel ds e = (segs, SDone) ->
  plan ds idx cnt other -> (forall c a b, In (c, a, b) other -> a < b) ->
  (forall k c a b c' a' b', nth_error other k = Some (c, a, b) -> nth_error other (S k) = Some (c', a', b') ->
       ~ (c = c' /\ b = a')) -> other = segs.
Proof.
  intros A B C D E F G H. destruct (safe_runs m ds e idx cnt _ segs A B C D E) as (I & J & K).
  apply unjoined_unique; auto.
  - apply Forall_forall. intros [[c a] b] Hin. exact (G c a b Hin).
  - intros k [[c a] b] [[c' a'] b'] H1 H2. exact (H k c a b c' a' b' H1 H2).
  - apply (holds_lists ds idx cnt A C (slab idx cnt)); auto. apply incl_refl.
Qed.
Print Assumptions C72_unique.

(** A selection that one chunk holds in one piece is one copy. *)
Theorem C72_one m ds e idx cnt fuel segs c a :
  full_dataset ds -> get_start_count e (d_shape ds) = Ok (idx, cnt) -> sel_in (d_shape ds) idx cnt ->
  sel_safe (d_shape ds) (d_chunk_shape ds) idx cnt = true ->
  chunk_slices m fuel ds e = (segs, SDone) ->
  (forall k x, nth_error (slab idx cnt) k = Some x -> holds ds x (c, a + N.of_nat k)) ->
  segs = [(c, a, a + prodN cnt)].
Proof.
  intros A B C D E F. symmetry. apply (C72_unique m ds e idx cnt fuel segs [(c, a, a + prodN cnt)]); auto.
  - unfold plan. cbn [flat_map]. rewrite app_nil_r. unfold seg_elems. replace (a + prodN cnt - a) with (prodN cnt) by lia.
    assert (L : length (slab idx cnt) = N.to_nat (prodN cnt)).
    { pose proof C as (L1 & L2 & _). pose proof (slab_length idx cnt ltac:(congruence)) as L. unfold lenN in L. lia. }
    rewrite <- L. clear L. revert F. generalize (slab idx cnt). intros xs. revert a.
    induction xs as [|x xs IH]; intros a F; cbn [length seqN map]; [constructor|]. constructor.
    + rewrite <- (N.add_0_r a). apply (F 0%nat). reflexivity.
    + apply IH. intros k y Hk. replace (a + 1 + N.of_nat k) with (a + N.of_nat (S k)) by lia. apply F. exact Hk.
  - intros c' a' b' [H|[]]. injection H as <- <- <-. destruct C as (_ & _ & C & _).
    enough (0 < prodN cnt) by lia. clear - C. induction C; cbn [prodN]; [lia|]. apply N.mul_pos_pos; auto.
  - intros [|k] ? ? ? ? ? ? _ H; cbn in H; [|destruct k]; discriminate.
Qed.
Print Assumptions C72_one.

Definition whole_dim (r : dim) : Prop := i_ r = 0 /\ n_ r = c_ r /\ s_ r = c_ r /\ 0 < c_ r.

Lemma whole_block rs : Forall whole_dim rs -> block rs = true.
Proof.
  induction 1 as [|r rs (H1 & H2 & H3 & H4) HF IH]; [reflexivity|]. cbn [block]. rewrite IH.
  unfold single, exact, last_chunk. rewrite H1, H2, N.add_0_l, N.div_0_l, N.mod_0_l, !N.eqb_refl by lia.
  rewrite N.div_small by lia. cbn. apply orb_true_r.
Qed.

Lemma whole_safe rs : Forall whole_dim rs -> forall t V, safe t V rs = true.
Proof.
  induction 1 as [|r rs (H1 & H2 & H3 & H4) HF IH]; intros t V; [reflexivity|]. cbn [safe].
  rewrite whole_block by (constructor; auto; repeat split; auto).
  assert (E1 : single r = true).
  { unfold single, last_chunk. rewrite H1, H2, N.add_0_l, N.div_0_l by lia. rewrite N.div_small by lia. reflexivity. }
  assert (E2 : exact r = true) by (unfold exact; rewrite H1, H2, N.mod_0_l, !N.eqb_refl by lia; reflexivity).
  rewrite E1, E2. cbn [orb negb].
  destruct (pn (r :: rs) <=? t); auto. destruct (negb (V =? 1) && thin r) eqn:ET; auto.
  apply andb_prop in ET as [_ ET]. unfold thin in ET. rewrite H1, H3, N.mod_0_l in ET by lia.
  assert (c_ r = 1) as Ec.
  { apply orb_prop in ET as [ET|ET]; [now apply N.eqb_eq in ET|]. apply andb_prop in ET as [_ ET].
    apply N.eqb_eq in ET. lia. }
  rewrite Ec, H2, Ec. cbn. auto.
Qed.

Lemma sel_whole_safe shape : Forall (fun d => 0 < d) shape -> sel_safe shape shape (map (fun _ => 0) shape) shape = true.
Proof.
  intros H. apply whole_safe, Forall_rev. induction H; cbn [map mk_dims]; constructor; auto.
  repeat split; auto.
Qed.

Lemma whole_grid shape : Forall (fun d => 0 < d) shape -> grid_offsets shape shape = [map (fun _ => 0) shape].
Proof.
  unfold grid_offsets. intros H.
  assert (E : slab (map (fun _ => 0) shape) (grid_dims shape shape) = [map (fun _ => 0) shape]).
  { unfold grid_dims. induction H as [|d l H HF IH]; [reflexivity|]. cbn [map map2 slab].
    assert (ceil_div d d = 1) as ->.
    { unfold ceil_div. symmetry. apply (N.div_unique _ _ _ (d - 1)); lia. }
    rewrite IH. reflexivity. }
  rewrite E. cbn [map]. f_equal. clear. induction shape as [|d l IH]; [reflexivity|]. cbn [map map2].
  rewrite N.mul_0_l. now f_equal.
Qed.

(** A dataset that is not chunked, or whose only chunk is as large as it is, is read in
    one copy: all of that chunk. *)
Theorem C72_whole m ds : full_dataset ds -> d_chunk_shape ds = d_shape ds ->
  exists c, d_chunks ds = [c] /\ forall fuel, (N.to_nat (prodN (d_shape ds)) < fuel)%nat ->
    chunk_slices m fuel ds All = ([(c, 0, prodN (d_shape ds))], SDone).
Proof.
  intros A B. pose proof A as [W G _]. pose proof (wm_pos _ W) as HP. rewrite B in *.
  rewrite whole_grid in G by auto. destruct (d_chunks ds) as [|c [|c' l]] eqn:Ec; try discriminate.
  apply (f_equal (hd [])) in G. cbn [map hd] in G. exists c. split; auto.
  assert (Hsel : sel_in (d_shape ds) (map (fun _ => 0) (d_shape ds)) (d_shape ds)).
  { repeat split; auto; [now rewrite map_length|]. intros j i n s H1 H2 H3.
    apply nth_error_In, in_map_iff in H1 as (? & <- & _). rewrite H2 in H3. injection H3 as <-. lia. }
  assert (Hsafe : sel_safe (d_shape ds) (d_chunk_shape ds) (map (fun _ => 0) (d_shape ds)) (d_shape ds) = true).
  { rewrite B. now apply sel_whole_safe. }
  destruct (safe_right m ds All _ _ A (get_start_count_all _) Hsel Hsafe) as (segs & F & _).
  intros fuel Hf. rewrite (F fuel Hf). f_equal.
  rewrite (C72_one m ds All _ _ fuel segs c 0 A (get_start_count_all _) Hsel Hsafe (F fuel Hf)).
  { now rewrite N.add_0_l. }
  intros k x Hk. rewrite N.add_0_l. pose proof (slab_in_shape _ _ _ _ Hsel (nth_error_In _ _ Hk)) as Hx.
  unfold holds. cbn [fst snd]. rewrite Ec, B, G. split; [now left|].
  assert (Ek : row_major (d_shape ds) x = N.of_nat k).
  { pose proof (slab_nth _ _ Hx) as Hn.
    pose proof (proj1 (NoDup_nth_error _) (slab_NoDup (map (fun _ => 0) (d_shape ds)) (d_shape ds)) k
      (N.to_nat (row_major (d_shape ds) x)) ltac:(apply nth_error_Some; congruence) ltac:(congruence)). lia. }
  assert (Ez : map2 N.sub x (map (fun _ => 0) (d_shape ds)) = x).
  { clear - Hx. unfold in_shape in Hx. induction Hx; [reflexivity|]. cbn [map map2]. rewrite N.sub_0_r. now f_equal. }
  rewrite Ez. split; auto. unfold in_shape in Hx.
  split; [rewrite map_length; exact (DatasetProofs.Forall2_length' _ _ _ Hx)|].
  split; [exact (DatasetProofs.Forall2_length' _ _ _ Hx)|].
  intros j u o z H1 H2 H3. apply nth_error_In, in_map_iff in H2 as (? & <- & _).
  pose proof (Forall2_nth _ _ _ Hx j u z H1 H3). cbn beta in H. lia.
Qed.
Print Assumptions C72_whole.

(** Rows 1 to 3, columns 2 to 5 of the 4 x 6 dataset in 2 x 3 chunks: six copies (a row of
    the selection meets two chunks) for twelve elements; the plan that copies every
    element on its own has twelve. *)
Example C72_case m :
  chunk_slices m 13 ex_ds (Extents [SliceCount 1 3; SliceCount 2 4]) =
    ([(mkChunk 100 12 [0; 0], 5, 6); (mkChunk 200 12 [0; 3], 3, 6);
      (mkChunk 300 12 [2; 0], 2, 3); (mkChunk 400 12 [2; 3], 0, 3);
      (mkChunk 300 12 [2; 0], 5, 6); (mkChunk 400 12 [2; 3], 3, 6)], SDone) /\
  get_start_count (Extents [SliceCount 1 3; SliceCount 2 4]) (d_shape ex_ds) = Ok ([1; 2], [3; 4]) /\
  full_dataset ex_ds /\ sel_in (d_shape ex_ds) [1; 2] [3; 4] /\
  sel_safe (d_shape ex_ds) (d_chunk_shape ex_ds) [1; 2] [3; 4] = true /\
  full_dataset cont_ds /\ d_chunk_shape cont_ds = d_shape cont_ds /\ 2 <= lenN (d_shape cont_ds).
Proof.
  split; [destruct m; reflexivity|]. split; [reflexivity|]. split; [exact ex_full|]. split; [exact ex_sel|].
  split; [exact ex_safe|]. split; [exact cont_full|]. split; [reflexivity|]. now cbn.
Qed.
