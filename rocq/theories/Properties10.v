(** * Exactness: the selections read rightly in builds with debug assertions are those of
      the class [sel_safe], for each reader (C21, C24, C25).

    Each theorem is followed by a concrete case meeting its hypotheses. *)
From Verif Require Import Base Spec Safe Chunk Extent Dataset Slicer SpecApi Filters SpecFilter FilterProofs
  Reader SpecReader ParProofs ReaderProps ReadProofs ExamplesReader Examples SliceProps ExactReads Properties4.

(** An in-bounds selection of a dataset that is stored without filters, in disjoint chunks,
    and a destination that can hold it: [safe_read] without [sel_safe]. *)
Record plain_case (ds : dataset) (e : extents) (idx cnt : list N) (dst : bytes) (fuel : nat) : Prop := {
  pc_full : full_dataset ds;
  pc_reg : regular ds;
  pc_gzip : d_gzip ds = None;
  pc_shuffle : d_shuffle ds = false;
  pc_disjoint : disjoint_chunks ds;
  pc_sel : get_start_count e (d_shape ds) = Ok (idx, cnt);
  pc_in : sel_in (d_shape ds) idx cnt;
  pc_cap : prodN cnt * d_dsize ds <= lenN dst;
  pc_len : lenN dst < W64;
  pc_fuel : (N.to_nat (prodN cnt) < fuel)%nat
}.

Lemma new_ok m ds file : full_dataset ds -> regular ds ->
  (exists rc, cache_new m ds file = Ok rc) /\ exists rd, direct_new m ds (Some file) = Ok rd.
Proof.
  intros HD HR. assert (HP : Forall (fun c => 0 < c) (d_chunk_shape ds)) by apply HD.
  pose proof (chunk_bytes_ok m ds HP (rg_sizes _ HR)) as EB.
  assert (HC : 0 < prodN (d_chunk_shape ds) * d_dsize ds).
  { pose proof (prodN_pos _ HP). destruct (rg_sizes _ HR). nia. }
  unfold cache_new, direct_new. rewrite EB. cbn [bind]. split; [|eauto].
  unfold cache_cap, div64. destruct (N.eqb_spec (prodN (d_chunk_shape ds) * d_dsize ds) 0); [lia|]. cbn [bind]. eauto.
Qed.

(** The cached reader returns the selected elements of every file holding the dataset
    exactly if the selection is in the class. *)
Theorem C21_exact inflate ds e idx cnt dst fuel : plain_case ds e idx cnt dst fuel ->
  (forall file value r, stores inflate file ds value -> reachable Debug inflate ds file r ->
     fst (cache_read Debug inflate fuel r e dst) =
       (Ok (prodN cnt * d_dsize ds),
        concat (map value (slab idx cnt)) ++ skipn (N.to_nat (prodN cnt * d_dsize ds)) dst)) <->
  sel_safe (d_shape ds) (d_chunk_shape ds) idx cnt = true.
Proof.
  intros [A1 A2 A3 A4 A5 A6 A7 A8 A9 A10]. split.
  - intros H. apply (plain_exact ds inflate e idx cnt dst fuel); auto. intros F HF.
    destruct (new_ok Debug ds F A1 A2) as [[rc Hrc] _].
    assert (Hfit : fits64 (d_shape ds)) by (eapply sel_in_fits; eauto; apply A1).
    pose proof (rc_new Debug inflate ds F rc Hrc) as HC.
    specialize (H F (value_of ds F) rc (plain_stores ds inflate A1 A2 A3 A4 Hfit F HF) HC).
    rewrite (cache_read_reachable Debug inflate ds F rc fuel e dst (rg_addr _ A2) HC) in H.
    destruct (reachable_inv Debug inflate ds F rc (rg_addr _ A2) HC) as (_ & _ & HZ & _).
    apply csize_fresh in HZ; [|apply A1|apply A2]. now rewrite HZ in H.
  - intros HS file value r HV HC.
    apply (C21_cached_partial Debug inflate file ds value e idx cnt dst fuel r); auto. now constructor.
Qed.
Print Assumptions C21_exact.

(** The same for the direct reader, *)
Theorem C24_exact inflate sort ds e idx cnt dst fuel : addr_sort sort -> plain_case ds e idx cnt dst fuel ->
  (forall file value rd, stores inflate file ds value -> direct_new Debug ds (Some file) = Ok rd ->
     direct_read Debug inflate sort fuel rd e dst =
       (Ok (prodN cnt * d_dsize ds),
        concat (map value (slab idx cnt)) ++ skipn (N.to_nat (prodN cnt * d_dsize ds)) dst)) <->
  sel_safe (d_shape ds) (d_chunk_shape ds) idx cnt = true.
Proof.
  intros HSort HP. rewrite <- (C21_exact inflate ds e idx cnt dst fuel HP).
  pose proof HP as [A1 A2 A3 A4 A5 A6 A7 A8 A9 A10].
  assert (Hd : 0 < d_dsize ds) by apply (rg_sizes _ A2).
  split; intros H.
  - intros file value r HV HC. destruct (new_ok Debug ds file A1 A2) as [_ [rd Hrd]].
    apply (C24_agree Debug inflate sort fuel ds file r rd e dst _ _ HSort (rg_addr _ A2) Hd A9 HC Hrd).
    exact (H file value rd HV Hrd).
  - intros file value rd HV Hrd. destruct (new_ok Debug ds file A1 A2) as [[rc Hrc] _].
    apply (rc_new Debug inflate) in Hrc.
    apply (C24_agree Debug inflate sort fuel ds file rc rd e dst _ _ HSort (rg_addr _ A2) Hd A9 Hrc Hrd).
    exact (H file value rc HV Hrc).
Qed.
Print Assumptions C24_exact.

(** and for the parallel one under every schedule. *)
Theorem C25_exact inflate sort ds e idx cnt dst fuel : addr_sort sort -> plain_case ds e idx cnt dst fuel ->
  (forall file value rd x d, stores inflate file ds value -> direct_new Debug ds (Some file) = Ok rd ->
     par_read Debug inflate sort fuel rd e dst x d ->
     x = Ok (prodN cnt * d_dsize ds) /\
     d = concat (map value (slab idx cnt)) ++ skipn (N.to_nat (prodN cnt * d_dsize ds)) dst) <->
  sel_safe (d_shape ds) (d_chunk_shape ds) idx cnt = true.
Proof.
  intros HSort HP. rewrite <- (C24_exact inflate sort ds e idx cnt dst fuel HSort HP).
  pose proof HP as [A1 A2 A3 A4 A5 A6 A7 A8 A9 A10].
  assert (Hd : 0 < d_dsize ds) by apply (rg_sizes _ A2).
  split; intros H.
  - intros file value rd HV Hrd.
    destruct (C25_schedules Debug inflate sort fuel ds file rd e dst HSort (rg_addr _ A2) Hd A9 Hrd) as ((x & d & R) & _ & S & _).
    destruct (H file value rd x d HV Hrd R) as [-> ->]. now apply S.
  - intros file value rd x d HV Hrd R.
    destruct (C25_schedules Debug inflate sort fuel ds file rd e dst HSort (rg_addr _ A2) Hd A9 Hrd) as (_ & _ & _ & S).
    apply (S _ _ (H file value rd HV Hrd) x d R).
Qed.
Print Assumptions C25_exact.

(** Both sides occur: the 4 x 3 x 5 dataset in 2 x 2 x 5 chunks of four-byte elements
    ([bad_ds], SliceProps.v), part of one plane and the whole. *)
Lemma bad_regular : regular bad_ds.
Proof.
  constructor; [constructor; [reflexivity|reflexivity|discriminate|reflexivity]| |].
  - intros c c'. cbn [bad_ds d_chunks In]. intros [<-|[<-|[<-|[<-|[]]]]] [<-|[<-|[<-|[<-|[]]]]]; reflexivity.
  - intros _ c. cbn [bad_ds d_chunks In]. intros [<-|[<-|[<-|[<-|[]]]]]; reflexivity.
Qed.
Lemma bad_disjoint : disjoint_chunks bad_ds.
Proof.
  intros c c'. cbn [bad_ds d_chunks In].
  intros [<-|[<-|[<-|[<-|[]]]]] [<-|[<-|[<-|[<-|[]]]]]; cbn [c_addr c_size]; intros; try congruence; lia.
Qed.
Example C21_exact_case :
  plain_case bad_ds (Extents [Index 1; SliceCount 0 3; SliceCount 1 3]) [1; 0; 1] [1; 3; 3] (repeat 7 40) 10 /\
  sel_safe (d_shape bad_ds) (d_chunk_shape bad_ds) [1; 0; 1] [1; 3; 3] = true /\
  plain_case bad_ds All [0; 0; 0] [4; 3; 5] (repeat 7 240) 61 /\
  sel_safe (d_shape bad_ds) (d_chunk_shape bad_ds) [0; 0; 0] [4; 3; 5] = false.
Proof.
  split; [|split; [reflexivity|split; [|reflexivity]]].
  all: constructor; try reflexivity; try exact bad_full; try exact bad_regular; try exact bad_disjoint;
    try (vm_compute; discriminate); try (vm_compute; lia).
  all: sel_in_tac.
Qed.
