(** * Grouped segments (C16) and the bytes a read may change (C57) in release builds.

    Each theorem is followed by a concrete case meeting its hypotheses. *)
From Coq Require Import Permutation.
From Verif Require Import Base Spec SpecApi SpecReader Radix Safe Chunk Extent Dataset Slicer Filters Reader
  SlicerProofs SlicerMain SlicerTheorems SlicerExact SlicerRelease2 ApiLemmas ExtentProofs
  CacheProofs GroupProofs DirectProofs ParProofs ReadProofs ReaderProps SliceProps Examples ExamplesReader
  Properties2 Properties4 Properties16 Properties46 Properties47.

(** A selection of a release build outside [single_end], of sizes a machine can hold. *)
Record release_sel (ds : dataset) (e : extents) (idx cnt : list N) (fuel : nat) : Prop := {
  rs_full : full_dataset ds;
  rs_reg : regular ds;
  rs_start : get_start_count e (d_shape ds) = Ok (idx, cnt);
  rs_sel : sel_in (d_shape ds) idx cnt;
  rs_single : single_end (d_chunk_shape ds) cnt = false;
  rs_sizes : (prodN cnt + 4 * reach cnt (d_chunk_shape ds)) * d_dsize ds < W64;
  rs_fuel : (N.to_nat (prodN cnt) < fuel)%nat
}.

Lemma rs_exact ds e idx cnt fuel : release_sel ds e idx cnt fuel ->
  exact_read ds e idx cnt (repeat 0 (N.to_nat (prodN cnt * d_dsize ds))) fuel.
Proof. intros [A B C D E F G]. constructor; auto. unfold lenN. rewrite repeat_length. lia. Qed.

(** What e_segs says, with the sizes. *)
Lemma rs_segs sort ds e idx cnt fuel : addr_sort sort -> release_sel ds e idx cnt fuel -> exists segs,
  chunk_slices Release fuel ds e = (segs, SDone) /\
  Forall (fun '(_, a, b) => a < b /\ a < prodN (d_chunk_shape ds)) segs /\
  Forall (fun '(_, a, b) => b <= prodN (d_chunk_shape ds) + 3 * reach cnt (d_chunk_shape ds)) segs /\
  prodN cnt <= total segs /\ total segs < prodN cnt + 3 * reach cnt (d_chunk_shape ds) /\
  (debug_completes ds e fuel -> total segs = prodN cnt) /\
  prodN (d_chunk_shape ds) <= reach cnt (d_chunk_shape ds) /\
  group_chunk_slices sort Release fuel ds e = Ok (sort (dests 0 segs)).
Proof.
  intros HS HR. pose proof (rs_exact _ _ _ _ _ HR) as HE.
  destruct (e_segs ds e idx cnt _ fuel HE) as (segs & R1 & R2 & R3 & R6 & R4).
  pose proof (e_bound ds e idx cnt _ fuel HE) as [HB HQ]. exists segs.
  assert (HT : total segs < prodN cnt + 3 * reach cnt (d_chunk_shape ds)).
  { assert (HP : 0 < prodN cnt) by (apply prodN_pos; apply (rs_sel _ _ _ _ _ HR)).
    destruct segs as [|s0 segs0] using rev_ind; [unfold total in *; cbn in *; lia|]. clear IHsegs0. specialize (R3 segs0 s0 [] eq_refl).
    unfold total in *. rewrite map_app, sumN_app. cbn [map sumN]. apply Forall_app in R2 as [_ R2]. apply Forall_cons_iff in R2 as [R2 _].
    destruct s0 as [[c a] b]. apply N.add_lt_le_mono; [exact R3|]. clear - R2. lia. }
  split; [exact R1|]. split; [eapply Forall_impl; [|exact R2]; intros [[c a] b]; tauto|].
  split; [eapply Forall_impl; [|exact R2]; intros [[c a] b] (_ & A & _ & B); lia|].
  split; [exact R6|]. split; [exact HT|]. split; [|split; [exact HQ|]].
  - intros DC. destruct R4 as [(_ & _ & _ & T)|(N0 & _)]; [exact T|contradiction].
  - unfold group_chunk_slices, dest_slices. rewrite R1, scan_dest_ok; [reflexivity| |lia].
    eapply Forall_impl; [|exact R2]. intros [[c a] b] (_ & _ & H & _). lia.
Qed.

(** ** C16

    In release builds, outside [single_end]: the grouped segments are the segments, sorted by address,
    each with the destination that sequential output gives it; the destinations tile
    [0, total), total is at least the size of the selection, and it is exactly that size if and only if
    every destination lies inside it - always, if a debug build iterates the selection to
    its end. *)
Theorem C16_release sort ds e idx cnt fuel : addr_sort sort -> release_sel ds e idx cnt fuel ->
  exists segs G, let elements := sumN (map (fun '(_, a, b) => b - a) segs) in
    chunk_slices Release fuel ds e = (segs, SDone) /\
    group_chunk_slices sort Release fuel ds e = Ok G /\
    Permutation (map (fun g => (g_chunk g, g_from g, snd g)) G) segs /\
    (forall i j g h, (i < j)%nat -> nth_error G i = Some g -> nth_error G j = Some h ->
       c_addr (g_chunk g) <= c_addr (g_chunk h)) /\
    (forall g, In g G -> exists before after,
       segs = before ++ (g_chunk g, g_from g, snd g) :: after /\
       g_dest g = sumN (map (fun '(_, a, b) => b - a) before)) /\
    (forall p, p < elements ->
       exists i g, nth_error G i = Some g /\ g_dest g <= p < g_dest g + g_len g /\
         forall j h, nth_error G j = Some h -> g_dest h <= p < g_dest h + g_len h -> j = i) /\
    prodN cnt <= elements < prodN cnt + 3 * reach cnt (d_chunk_shape ds) /\
    (elements = prodN cnt <-> Forall (fun g => g_dest g + g_len g <= prodN cnt) G) /\
    (debug_completes ds e fuel -> elements = prodN cnt).
Proof.
  intros HS HR. destruct (rs_segs sort ds e idx cnt fuel HS HR) as (segs & R1 & R2 & _ & R3 & R4 & R5 & _ & R6).
  exists segs, (sort (dests 0 segs)). cbv zeta. fold (total segs).
  assert (HL : Forall (fun '(_, a, b) => a <= b) segs) by (eapply Forall_impl; [|exact R2]; intros [[c a] b] [H _]; lia).
  destruct (HS (dests 0 segs)) as [HP HSo].
  assert (HC : forall p, p < total segs -> exists i g, nth_error (sort (dests 0 segs)) i = Some g /\ g_dest g <= p < g_dest g + g_len g /\
         forall j h, nth_error (sort (dests 0 segs)) j = Some h -> g_dest h <= p < g_dest h + g_len h -> j = i).
  { intros p Hp. apply (unique_perm (fun g => g_dest g <= p < g_dest g + g_len g) (dests 0 segs));
      [now apply Permutation_sym|]. apply dests_cover; auto. lia. }
  split; [exact R1|]. split; [exact R6|]. split; [rewrite <- (dests_segs segs 0) at 2; now apply Permutation_map|].
  split; [exact HSo|]. split; [|split; [exact HC|split; [split; [exact R3|exact R4]|split; [|exact R5]]]].
  - intros g Hg. apply (Permutation_in _ HP) in Hg. now apply dests_split in Hg.
  - split.
    + intros E. apply Forall_forall. intros g Hg. apply (Permutation_in _ HP) in Hg.
      pose proof (dests_range segs 0 g HL Hg). lia.
    + intros HF. destruct (N.eq_dec (total segs) (prodN cnt)) as [E|E]; [exact E|exfalso].
      destruct (HC (prodN cnt)) as (i & g & Hg & Hi & _); [lia|].
      apply nth_error_In in Hg. apply (proj1 (Forall_forall _ _) HF) in Hg. lia.
Qed.
Print Assumptions C16_release.

(** ** C57

    In release builds, outside [single_end], from any file (also truncated or corrupt), in any reader
    state: whatever a read returns, it changes nothing beyond the bytes of the segments'
    elements, fewer than those of the selection and three boxes of the reach; and if a debug build iterates
    the selection to its end, nothing beyond the bytes of the selection, with the parallel reader too. *)
Theorem C57_release inflate sort fuel ds e idx cnt dst : addr_sort sort -> release_sel ds e idx cnt fuel ->
  prodN cnt * d_dsize ds <= lenN dst -> lenN dst < W64 ->
  exists elements, prodN cnt <= elements < prodN cnt + 3 * reach cnt (d_chunk_shape ds) /\
    (debug_completes ds e fuel -> elements = prodN cnt) /\
    (forall r x d r', cr_ds r = ds -> cache_read Release inflate fuel r e dst = (x, d, r') -> within (elements * d_dsize ds) dst d) /\
    (forall r x d, dr_ds r = ds -> direct_read Release inflate sort fuel r e dst = (x, d) -> within (elements * d_dsize ds) dst d) /\
    (debug_completes ds e fuel -> forall r x d, dr_ds r = ds -> par_read Release inflate sort fuel r e dst x d ->
       x <> Ub /\ within (prodN cnt * d_dsize ds) dst d).
Proof.
  intros HS HR Hcap Hlen. destruct (rs_segs sort ds e idx cnt fuel HS HR) as (segs & R1 & R2 & R2' & R3 & R4 & R5 & RQ & R6).
  exists (total segs). split; [split; [exact R3|exact R4]|]. split; [exact R5|].
  assert (HL : Forall (fun '(_, a, b) => a <= b) segs) by (eapply Forall_impl; [|exact R2]; intros [[c a] b] [H _]; lia).
  pose proof (rs_sizes _ _ _ _ _ HR) as HZ. assert (Hd : 0 < d_dsize ds) by apply (ss_pos _ (rg_sizes _ (rs_reg _ _ _ _ _ HR))).
  assert (HX : Forall (s_exact Release (d_dsize ds)) segs).
  { apply Forall_forall. intros [[c a] b] Hs. right. cbn [fst snd].
    pose proof (proj1 (Forall_forall _ _) R2 _ Hs) as [A1 A2]. pose proof (proj1 (Forall_forall _ _) R2' _ Hs) as A3. cbn beta iota in *.
    clear - A1 A2 A3 RQ HZ. set (q := reach cnt (d_chunk_shape ds)) in *. clearbody q. split; nia. }
  set (G := sort (dests 0 segs)) in *. assert (PG : Permutation G (dests 0 segs)) by apply HS.
  assert (GX : Forall (fun g => g_exact Release (d_dsize ds) g /\ g_dest g + g_len g <= total segs) G).
  { apply Forall_forall. intros g Hg. apply (Permutation_in _ PG) in Hg. pose proof (dests_range segs 0 g HL Hg) as [_ A].
    assert (Hs : In (g_chunk g, g_from g, snd g) segs).
    { rewrite <- (dests_segs segs 0). apply in_map_iff. exists g. split; auto. }
    pose proof (proj1 (Forall_forall _ _) HX _ Hs) as [B|[B1 B2]]; [discriminate|]. cbn [fst snd] in B1, B2. split; [|lia].
    right. split; [|split; auto]. clear - A R4 HZ. set (q := reach cnt (d_chunk_shape ds)) in *. clearbody q. nia. }
  split; [|split].
  - intros r x d r' <- H. unfold cache_read in H.
    destruct (read_size Release (cr_ds r) e dst); try (injection H as <- <- <-; apply within_refl).
    rewrite R1 in H. destruct (cache_loop Release inflate r segs SDone (cr_cache r) 0 dst) as [[y d'] c'] eqn:E. injection H as <- <- <-.
    apply cache_loop_within in E as [A B]; [|lia]. exact (B HX).
  - intros r x d <- H. unfold direct_read in H.
    destruct (read_size Release (dr_ds r) e dst); try (injection H as <- <-; apply within_refl).
    rewrite R6 in H. destruct (dr_file r) as [f|]; [|injection H as <- <-; apply within_refl].
    fold G in H. destruct (direct_loop Release inflate r f G None dst) as [y d'] eqn:E. injection H as <- <-.
    apply direct_loop_within in E as [_ E]. now apply E.
  - intros DC r x d <- H. specialize (R5 DC).
    assert (ES : read_size Release (dr_ds r) e dst = Ok (prodN cnt * d_dsize (dr_ds r))).
    { unfold read_size. rewrite (counts_of _ _ _ _ (rs_start _ _ _ _ _ HR)). cbn [bind].
      rewrite product64_ok. 2:{ apply (rs_sel _ _ _ _ _ HR). } 2:{ clear - Hcap Hlen Hd. nia. }
      cbn [bind]. rewrite mul64_ok by lia. cbn [bind]. rewrite (proj2 (N.leb_le _ _) Hcap). reflexivity. }
    destruct (par_inside Release inflate sort fuel r e dst x d _ segs G ES Hcap) as (A & B & C); auto.
    + intros _. split; [exact PG|]. split; [eapply Forall_impl; [|exact GX]; intros g [Hg _]; exact Hg|]. split; [rewrite R5; apply N.le_refl|exact HL].
    + intros G' EG. rewrite R6 in EG. injection EG as <-. reflexivity.
    + split; [exact A|]. split; [exact B|exact C].
Qed.
Print Assumptions C57_release.

(** Reading the last column of [col_ds] (11 elements instead of 4, where a debug build panics), and part of [ex_ds]. *)
Example C57_release_case : release_sel col_ds col_sel [0; 10] [4; 1] 5 /\ ~ debug_completes col_ds col_sel 5 /\
  16 <= lenN (repeat 0 50) /\
  release_sel ex_ds (Extents [SliceEnd 1 4; Slice 2]) [1; 2] [3; 4] 13 /\ debug_completes ex_ds (Extents [SliceEnd 1 4; Slice 2]) 13 /\
  addr_sort sort_by_addr.
Proof.
  split; [|split; [|split; [|split; [|split]]]].
  - constructor; try reflexivity; [exact col_full| |sel_in_tac|cbn; lia].
    constructor; [constructor; try reflexivity; discriminate| |]; unfold same_addr; cbn [col_ds d_chunks In].
    + intros c c' [<-|[<-|[<-|[<-|[]]]]] [<-|[<-|[<-|[<-|[]]]]]; reflexivity.
    + intros _ c [<-|[<-|[<-|[<-|[]]]]]; reflexivity.
  - unfold debug_completes. vm_compute. discriminate.
  - vm_compute. discriminate.
  - constructor; try reflexivity; [exact ex_full| |exact ex_sel|vm_compute; lia].
    constructor; [constructor; try reflexivity; intros _; cbn; auto| |discriminate].
    unfold same_addr; cbn [ex_ds d_chunks In]. intros c c' [<-|[<-|[<-|[<-|[]]]]] [<-|[<-|[<-|[<-|[]]]]]; reflexivity.
  - reflexivity.
  - exact sort_by_addr_ok.
Qed.
