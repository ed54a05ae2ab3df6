(** * SliceProps: lemmas behind Properties2. *)
From Verif Require Import Base Spec Safe Chunk Extent Dataset Slicer SpecApi
  DatasetProofs ExtentProofs IndexProofs ApiLemmas SafeProofs Termination GroupProofs.

Lemma run_more m ds : forall fuel st segs, slicer_run m fuel ds st = (segs, SDone) ->
  forall fuel', (fuel <= fuel')%nat -> slicer_run m fuel' ds st = (segs, SDone).
Proof.
  induction fuel as [|fuel IH]; intros st segs H fuel' HF; cbn [slicer_run] in H; [discriminate|].
  destruct fuel' as [|fuel']; [lia|]. cbn [slicer_run].
  destruct (slicer_next m ds st) as [[[sg st']|]| | | |]; try discriminate; auto.
  destruct (slicer_run m fuel ds st') as [l s] eqn:E. injection H as <- ->.
  now rewrite (IH _ _ E fuel') by lia.
Qed.

Lemma slices_more m ds e fuel segs : chunk_slices m fuel ds e = (segs, SDone) ->
  forall fuel', (fuel <= fuel')%nat -> chunk_slices m fuel' ds e = (segs, SDone).
Proof.
  unfold chunk_slices. destruct (chunk_slicer m ds e); try discriminate. intros. eapply run_more; eauto.
Qed.

Lemma safe_right m ds e idx cnt :
  full_dataset ds -> get_start_count e (d_shape ds) = Ok (idx, cnt) ->
  sel_in (d_shape ds) idx cnt ->
  sel_safe (d_shape ds) (d_chunk_shape ds) idx cnt = true ->
  reads_right m ds e idx cnt.
Proof.
  intros. destruct (segments_ok m ds e idx cnt (S (N.to_nat (prodN cnt)))) as (segs & A & B & C); auto.
  exists segs. split; [|split; auto]. intros fuel Hf. eapply slices_more; eauto.
Qed.

Lemma right_total ds idx cnt segs : length idx = length cnt -> right_segments ds idx cnt segs ->
  sumN (map (fun '(_, a, b) => b - a) segs) = prodN cnt.
Proof.
  intros HL [A B]. rewrite <- seg_elems_length.
  - unfold lenN. rewrite <- (Forall2_length' _ _ _ A). apply slab_length; auto.
  - eapply Forall_impl; [|exact B]. intros [[c a] b]; tauto.
Qed.

Lemma Forall2_nth {A B} (R : A -> B -> Prop) l1 l2 : Forall2 R l1 l2 ->
  forall k x y, nth_error l1 k = Some x -> nth_error l2 k = Some y -> R x y.
Proof.
  induction 1 as [|a b l1 l2 H HF IH]; intros [|k] x y; cbn [nth_error]; try discriminate.
  - now intros [= <-] [= <-].
  - apply IH.
Qed.

(** ** Datasets on which the iteration goes wrong *)

(** 4 x 3 x 5 in chunks of 2 x 2 x 5. *)
Definition bad_ds : dataset :=
  mkDataset (Int 4) 4 LE
    [mkChunk 1000 80 [0;0;0]; mkChunk 2000 80 [0;2;0]; mkChunk 3000 80 [2;0;0]; mkChunk 4000 80 [2;2;0]]
    [4;3;5] [2;2;5] [2;2;5] [2;1;1] [15;5;1] [10;5;1] false None.
Lemma bad_full : full_dataset bad_ds.
Proof.
  constructor; [constructor|..]; try reflexivity.
  - repeat constructor.
  - repeat split; repeat constructor.
Qed.

(** A contiguous 10 x 10 x 10 dataset. *)
Definition cont_ds : dataset :=
  mkDataset (Int 4) 4 LE [mkChunk 1000 4000 [0;0;0]]
    [10;10;10] [10;10;10] [10;10;10] [1;1;1] [100;10;1] [100;10;1] false None.
Lemma cont_full : full_dataset cont_ds.
Proof.
  constructor; [constructor|..]; try reflexivity.
  - repeat constructor.
  - repeat split; repeat constructor.
Qed.

(** 4 x 11 in chunks of 2 x 10: the last column. *)
Definition col_ds : dataset :=
  mkDataset (Int 4) 4 LE
    [mkChunk 1000 80 [0;0]; mkChunk 2000 80 [0;10]; mkChunk 3000 80 [2;0]; mkChunk 4000 80 [2;10]]
    [4;11] [2;10] [2;10] [2;1] [11;1] [10;1] false None.
Lemma col_full : full_dataset col_ds.
Proof.
  constructor; [constructor|..]; try reflexivity.
  - repeat constructor.
  - repeat split; repeat constructor.
Qed.
Definition col_sel : extents := Extents [SliceCount 0 4; SliceCount 10 1].

Ltac sel_in_tac := split; [reflexivity|]; split; [reflexivity|]; split; [repeat constructor|];
  intros [|[|[|[|j]]]] i n s; cbn; intros; try discriminate;
    repeat match goal with H : Some _ = Some _ |- _ => injection H as <- end; lia.

Ltac not_right k :=
  let A := fresh "A" in let B := fresh "B" in
  intros [A _]; pose proof (Forall2_nth _ _ _ A k) as B; vm_compute nth_error in B;
  specialize (B _ _ eq_refl eq_refl); destruct B as (_ & (_ & _ & B) & _); cbn [fst c_offset] in B;
  first [specialize (B 0%nat _ _ _ eq_refl eq_refl eq_refl); lia
        |specialize (B 1%nat _ _ _ eq_refl eq_refl eq_refl); lia
        |specialize (B 2%nat _ _ _ eq_refl eq_refl eq_refl); lia].

Lemma bad_wrong m : exists segs, (forall fuel, (60 < fuel)%nat ->
    chunk_slices m fuel bad_ds All = (segs, SDone)) /\
  ~ right_segments bad_ds [0;0;0] [4;3;5] segs.
Proof.
  eexists. split.
  - intros fuel Hf. apply slices_more with (fuel := 60%nat); [|lia].
    destruct m; vm_compute; reflexivity.
  - not_right 15%nat.
Qed.

Lemma cont_wrong m : exists segs, (forall fuel, (20 < fuel)%nat ->
    chunk_slices m fuel cont_ds (Extents [SliceCount 0 2; Index 0; Slice 0]) = (segs, SDone)) /\
  ~ right_segments cont_ds [0;0;0] [2;1;10] segs.
Proof.
  eexists. split.
  - intros fuel Hf. apply slices_more with (fuel := 20%nat); [|lia].
    destruct m; vm_compute; reflexivity.
  - intros [A _]. pose proof (Forall2_nth _ _ _ A 10%nat) as B. vm_compute nth_error in B.
    specialize (B _ _ eq_refl eq_refl). destruct B as (_ & _ & B). vm_compute in B. discriminate.
Qed.

Lemma col_wrong :
  (forall fuel, (0 < fuel)%nat -> chunk_slices Debug fuel col_ds col_sel = ([], SPanic)) /\
  exists segs, (forall fuel, (4 < fuel)%nat -> chunk_slices Release fuel col_ds col_sel = (segs, SDone)) /\
    ~ right_segments col_ds [0;10] [4;1] segs /\
    4 < sumN (map (fun '(_, a, b) => b - a) segs).
Proof.
  split.
  - intros [|fuel] Hf; [lia|]. reflexivity.
  - eexists. split; [|split].
    + intros fuel Hf. apply slices_more with (fuel := 4%nat); [|lia]. vm_compute; reflexivity.
    + intros [A _]. apply Forall2_length' in A. discriminate.
    + reflexivity.
Qed.

(** ** Classes of selections *)

Lemma rank1_right m ds e i n s :
  full_dataset ds -> d_shape ds = [s] -> get_start_count e [s] = Ok ([i], [n]) ->
  0 < n -> i + n <= s -> reads_right m ds e [i] [n].
Proof.
  intros Hfd Hs He Hn Hb. apply safe_right; auto; rewrite Hs; auto.
  - split; [reflexivity|]. split; [reflexivity|]. split; [repeat constructor; auto|].
    intros [|j] a b c; cbn [nth_error]; [|destruct j; discriminate].
    intros [= <-] [= <-] [= <-]. exact Hb.
  - pose proof (wm_rank _ (fd_made _ Hfd)) as HR. rewrite Hs in HR.
    destruct (d_chunk_shape ds) as [|c [|? ?]]; cbn [length] in HR; try discriminate. now apply safe_one.
Qed.

Lemma snoc_inv {A} (l : list A) n : length l = S n -> exists l' x, l = l' ++ [x] /\ length l' = n.
Proof.
  intros H. destruct (exists_last (l := l)) as (l' & x & ->); [destruct l; discriminate|].
  exists l', x. split; auto. rewrite app_length in H. cbn in H. lia.
Qed.

(** Selections that, in the last dimension, are not exactly the extent of one (possibly
    clipped) chunk. *)
Lemma last_right m ds e shape s idx i cnt n cs c :
  full_dataset ds -> d_shape ds = shape ++ [s] -> d_chunk_shape ds = cs ++ [c] ->
  get_start_count e (shape ++ [s]) = Ok (idx ++ [i], cnt ++ [n]) ->
  sel_in (shape ++ [s]) (idx ++ [i]) (cnt ++ [n]) ->
  ~ (i mod c = 0 /\ n = N.min c (s - i)) ->
  reads_right m ds e (idx ++ [i]) (cnt ++ [n]).
Proof.
  intros Hfd Hs Hc He Hsel HX. pose proof Hsel as (L1 & L2 & HP & HB).
  apply safe_right; rewrite ?Hs, ?Hc; auto.
  pose proof (wm_rank _ (fd_made _ Hfd)) as HR. rewrite Hs, Hc in HR.
  pose proof (wm_pos _ (fd_made _ Hfd)) as HC. rewrite Hc in HC.
  rewrite !app_length in *. cbn [length] in *.
  apply Forall_app in HP as [HPN HP]. inversion HP; subst.
  apply Forall_app in HC as [_ HC]. inversion HC; subst.
  apply sel_safe_last; auto; try lia.
  apply (HB (length shape)).
  - replace (length shape) with (length idx) by lia. rewrite nth_error_app2, Nat.sub_diag by lia. reflexivity.
  - replace (length shape) with (length cnt) by lia. rewrite nth_error_app2, Nat.sub_diag by lia. reflexivity.
  - rewrite nth_error_app2, Nat.sub_diag by lia. reflexivity.
Qed.

(** One row: any range of the last dimension, one index in every other dimension. *)
Lemma row_right m ds e shape s idx i cnt n :
  full_dataset ds -> d_shape ds = shape ++ [s] ->
  get_start_count e (shape ++ [s]) = Ok (idx ++ [i], cnt ++ [n]) ->
  sel_in (shape ++ [s]) (idx ++ [i]) (cnt ++ [n]) ->
  Forall (fun k => k = 1) cnt ->
  reads_right m ds e (idx ++ [i]) (cnt ++ [n]).
Proof.
  intros Hfd Hs He Hsel H1. pose proof Hsel as (L1 & L2 & HP & HB).
  pose proof (wm_rank _ (fd_made _ Hfd)) as HR. rewrite Hs in HR.
  destruct (snoc_inv (d_chunk_shape ds) (length shape)) as (cs & c & Hc & LC).
  { rewrite HR, app_length. cbn. lia. }
  apply safe_right; rewrite ?Hs, ?Hc; auto.
  rewrite !app_length in *. cbn [length] in *.
  pose proof (wm_pos _ (fd_made _ Hfd)) as HC. rewrite Hc in HC. apply Forall_app in HC as [HC _].
  apply Forall_app in HP as [_ HP]. inversion HP; subst.
  apply sel_safe_row; auto; lia.
Qed.

(** Chunks spanning all inner dimensions (all of size at least 2): any range of the first. *)
Lemma outer_right m ds e s c i n dims :
  full_dataset ds -> d_shape ds = s :: dims -> d_chunk_shape ds = c :: dims ->
  Forall (fun d => 2 <= d) dims ->
  get_start_count e (s :: dims) = Ok (i :: map (fun _ => 0) dims, n :: dims) ->
  0 < n -> i + n <= s ->
  reads_right m ds e (i :: map (fun _ => 0) dims) (n :: dims).
Proof.
  intros Hfd Hs Hc H2 He Hn Hb. apply safe_right; rewrite ?Hs, ?Hc; auto.
  - split; [cbn; now rewrite map_length|]. split; [reflexivity|]. split.
    + constructor; auto. eapply Forall_impl; [|exact H2]. cbn; intros; lia.
    + intros [|j] a b d; cbn [nth_error].
      * intros [= <-] [= <-] [= <-]. exact Hb.
      * intros A B C. assert (b = d) as -> by congruence.
        rewrite nth_error_map in A. destruct (nth_error dims j); [|discriminate]. injection A as <-. lia.
  - apply sel_safe_outer; auto. pose proof (wm_pos _ (fd_made _ Hfd)) as HC. rewrite Hc in HC. now inversion HC.
Qed.

(** Contiguous datasets. *)
Lemma contiguous_right m ds e pre d dims ipre npre i n :
  full_dataset ds -> d_shape ds = pre ++ d :: dims -> d_chunk_shape ds = pre ++ d :: dims ->
  get_start_count e (pre ++ d :: dims) = Ok (ipre ++ i :: map (fun _ => 0) dims, npre ++ n :: dims) ->
  length ipre = length pre -> length npre = length pre ->
  sel_in (pre ++ d :: dims) (ipre ++ i :: map (fun _ => 0) dims) (npre ++ n :: dims) ->
  Forall (fun d => 2 <= d) dims -> 2 <= d -> n < d -> i + n <= d ->
  (2 <= n \/ Forall (fun k => k = 1) npre) ->
  reads_right m ds e (ipre ++ i :: map (fun _ => 0) dims) (npre ++ n :: dims).
Proof.
  intros Hfd Hs Hc He L1 L2 Hsel H2 Hd Hn Hb HO.
  apply safe_right; rewrite ?Hs, ?Hc; auto.
  destruct Hsel as (_ & _ & HP & _). apply Forall_app in HP as [HP1 HP].
  apply sel_safe_contiguous; auto. now inversion HP.
Qed.

(** Two dimensions, chunks no wider than the dataset: the full read, and any range of rows. *)
Lemma safe_2d s c s1 c1 i n : 0 < c -> 0 < n -> 0 < c1 -> c1 <= s1 ->
  sel_safe [s; s1] [c; c1] [i; 0] [n; s1] = true.
Proof.
  intros Hc Hn H0 H1. destruct (N.eq_dec c1 s1) as [->|HN].
  - destruct (N.eq_dec s1 1) as [->|H2].
    + unfold sel_safe. cbn [mk_dims rev app]. cbn [safe].
      rewrite !pn_cons. change (pn []) with 1. cbn [n_ c_ i_ s_].
      destruct (N.leb_spec (1 * (n * 1)) 0); [lia|].
      replace (single _) with true by reflexivity. cbn [orb negb].
      replace (negb (1 =? 1)) with false by reflexivity. cbn [andb].
      replace (exact (mkDim 0 1 1 1)) with true by reflexivity.
      change (0 / 1 + 1) with 1. change (1 * 1) with 1.
      destruct (N.leb_spec (n * 1) 1).
      { cbn [block ones forallb orb]. rewrite single_one by (cbn; lia). reflexivity. }
      assert (i mod c < c) by (apply N.mod_lt; lia).
      replace (1 <=? c - i mod c) with true by (symmetry; apply N.leb_le; lia).
      rewrite orb_true_r. cbn [negb andb]. cbn [ones forallb negb andb still].
      destruct (exact _); [reflexivity|]. now destruct (clipped _).
    + apply (sel_safe_outer s c i n [s1]); auto. repeat constructor. lia.
  - apply (sel_safe_last [s] [c] [i] [n]); auto; try lia.
Qed.

Lemma rows_right m ds e s c s1 c1 i n :
  full_dataset ds -> d_shape ds = [s; s1] -> d_chunk_shape ds = [c; c1] -> c1 <= s1 ->
  get_start_count e [s; s1] = Ok ([i; 0], [n; s1]) -> 0 < n -> i + n <= s ->
  reads_right m ds e [i; 0] [n; s1].
Proof.
  intros Hfd Hs Hc Hle He Hn Hb.
  pose proof (wm_pos _ (fd_made _ Hfd)) as HP. rewrite Hc in HP.
  inversion HP as [|? ? HC0 HP']; subst. inversion HP' as [|? ? HC _]; subst.
  apply safe_right; rewrite ?Hs, ?Hc; auto.
  - split; [reflexivity|]. split; [reflexivity|]. split; [repeat constructor; lia|].
    intros [|[|j]] a b d; cbn [nth_error]; [..|destruct j; discriminate];
      intros [= <-] [= <-] [= <-]; lia.
  - now apply safe_2d.
Qed.

(** ** Debug builds *)

Lemma fuel_length m ds e fuel : snd (chunk_slices m fuel ds e) = SFuel ->
  length (fst (chunk_slices m fuel ds e)) = fuel.
Proof.
  unfold chunk_slices. destruct (chunk_slicer m ds e); try discriminate.
  revert a. induction fuel as [|fuel IH]; intros st; cbn [slicer_run]; auto.
  destruct (slicer_next m ds st) as [[[sg st']|]| | | |]; try discriminate.
  specialize (IH st'). destruct (slicer_run m fuel ds st'). cbn [fst snd length] in *. auto.
Qed.

Lemma next_debug_bounds ds st c a b st' :
  slicer_next Debug ds st = Ok (Some (c, a, b, st')) ->
  a < b /\ (d_shape ds <> [] -> b <= prodN (d_chunk_shape ds)) /\ In c (d_chunks ds).
Proof.
  intros H. pose proof (next_debug _ _ _ _ H) as (_ & _ & _ & Hlt). cbn [fst snd] in Hlt. split; auto.
  revert H. unfold slicer_next. destruct (_ <=? _); [discriminate|].
  unfold is_scalar. destruct (d_shape ds) as [|s shape] eqn:Es.
  - intros H. debind H. debind H. destruct (d_chunks ds); [discriminate|].
    injection H as <- _ _ _. split; [congruence|now left].
  - intros H. debind H. apply bind_ok in H as (ch & Ech & H). debind H. debind H.
    apply bind_ok in H as ([[[[v1 r1] k1] av] f1] & E4 & H).
    debind H. debind H. debind H. apply bind_ok in H as ([] & E7 & H). injection H as -> <- <- _.
    split.
    + intros _. unfold dbg_res in E7. apply bind_ok in E7 as (v & E7 & E8).
      apply bind_ok in E7 as (p & E9 & E7). injection E7 as <-.
      unfold product64 in E9. apply product64_from_debug in E9.
      unfold assert_ in E8. destruct (N.leb_spec a5 p); [lia|discriminate].
    + unfold chunk_at_coord in Ech. debind Ech. debind Ech. apply bind_ok in Ech as (off & Eo & Ech).
      destruct (nth_error (d_chunks ds) (N.to_nat off)) eqn:En; [|discriminate].
      injection Ech as <-. eapply nth_error_In; eauto.
Qed.

Lemma debug_bounds ds e fuel c a b :
  In (c, a, b) (fst (chunk_slices Debug fuel ds e)) ->
  a < b /\ (d_shape ds <> [] -> b <= prodN (d_chunk_shape ds)) /\ In c (d_chunks ds).
Proof.
  unfold chunk_slices. destruct (chunk_slicer Debug ds e) as [st| | | |]; try easy.
  revert st. induction fuel as [|fuel IH]; intros st; cbn [slicer_run]; [easy|].
  destruct (slicer_next Debug ds st) as [[[sg st']|]| | | |] eqn:E; try easy.
  specialize (IH st'). destruct (slicer_run Debug fuel ds st') as [l s]. cbn [fst In] in *.
  intros [->|H]; auto. eapply next_debug_bounds; eauto.
Qed.

Lemma scan_debug l : forall off G, scan_dest Debug off l = Ok G ->
  G = dests off l /\ Forall (fun '(_, a, b) => a <= b) (l : list segment).
Proof.
  induction l as [|[[c a] b] l IH]; intros off G; cbn [scan_dest dests].
  - intros [= <-]. auto.
  - intros H. apply bind_ok in H as (z & E1 & H). apply sub64_debug in E1 as [-> HL].
    apply bind_ok in H as (o & E2 & H). apply add64_debug in E2 as [-> _].
    apply bind_ok in H as (r & E3 & H). injection H as <-. destruct (IH _ _ E3) as [-> HF].
    split; auto.
Qed.

Lemma dests_split l : forall off g, In g (dests off l) -> exists before after,
  l = before ++ (g_chunk g, g_from g, snd g) :: after /\ g_dest g = off + total before.
Proof.
  unfold total. induction l as [|[[c a] b] l IH]; intros off g Hg; cbn [dests In] in Hg; [easy|].
  destruct Hg as [<-|Hg].
  - exists [], l. split; [reflexivity|]. cbn. lia.
  - destruct (IH _ _ Hg) as (B & A & -> & E). exists ((c, a, b) :: B), A. split; [reflexivity|].
    cbn [map sumN]. lia.
Qed.

Lemma group_debug sort ds e fuel segs G :
  addr_sort sort ->
  chunk_slices Debug fuel ds e = (segs, SDone) ->
  group_chunk_slices sort Debug fuel ds e = Ok G ->
  Permutation (map (fun g => (g_chunk g, g_from g, snd g)) G) segs /\
  (forall i j g h, (i < j)%nat -> nth_error G i = Some g -> nth_error G j = Some h ->
     c_addr (g_chunk g) <= c_addr (g_chunk h)) /\
  (forall g, In g G -> exists before after,
     segs = before ++ (g_chunk g, g_from g, snd g) :: after /\
     g_dest g = sumN (map (fun '(_, a, b) => b - a) before)) /\
  (forall p, p < sumN (map (fun '(_, a, b) => b - a) segs) ->
     exists i g, nth_error G i = Some g /\ g_dest g <= p < g_dest g + g_len g /\
       forall j h, nth_error G j = Some h -> g_dest h <= p < g_dest h + g_len h -> j = i).
Proof.
  intros Hsort E H. unfold group_chunk_slices, dest_slices in H. rewrite E in H.
  apply bind_ok in H as (D & ED & H). injection H as <-. apply scan_debug in ED as [-> HF].
  destruct (Hsort (dests 0 segs)) as [HP HS].
  split. { rewrite <- (dests_segs segs 0) at 2. now apply Permutation_map. }
  split; [exact HS|]. split.
  - intros g Hg. apply (Permutation_in _ HP) in Hg. now apply dests_split in Hg.
  - intros p Hp. apply (unique_perm (fun g => g_dest g <= p < g_dest g + g_len g) (dests 0 segs));
      [now apply Permutation_sym|]. apply dests_cover; auto. unfold total. lia.
Qed.
