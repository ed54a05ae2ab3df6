(** * Proofs about indexing: the chunk table is the full grid in row-major order. *)
From Verif Require Import Base Spec SpecApi Radix Extent Chunk Dataset ChunkProofs DatasetProofs.
From Coq Require Import Sorted.

Lemma StronglySorted_app (R : list N -> list N -> Prop) l1 l2 :
  StronglySorted R l1 -> StronglySorted R l2 ->
  (forall x y, In x l1 -> In y l2 -> R x y) -> StronglySorted R (l1 ++ l2).
Proof.
  induction 1 as [|x l1 S1 IH F1]; intros S2 H; cbn [app]; auto.
  constructor.
  - apply IH; auto. intros; apply H; auto. now right.
  - apply Forall_app. split; auto. apply Forall_forall. intros y Hy. apply H; auto. now left.
Qed.

Lemma slab_sorted idx cnt : length idx = length cnt -> StronglySorted lex_lt (slab idx cnt).
Proof.
  revert cnt; induction idx as [|i idx IH]; intros [|n cnt] HL; cbn [length] in HL; try discriminate.
  - repeat constructor.
  - cbn [slab]. injection HL as HL. specialize (IH cnt HL).
    assert (G : forall k a,
      StronglySorted lex_lt (flat_map (fun x => map (cons x) (slab idx cnt)) (seqN a k))).
    { induction k as [|k IHk]; intros a; cbn [seqN flat_map]; [constructor|].
      apply StronglySorted_app; auto.
      - clear - IH. induction IH as [|x l S IHl F]; cbn [map]; constructor; auto.
        apply Forall_map. eapply Forall_impl; [|exact F]. intros y Hy. now constructor 2.
      - intros x y Hx Hy. apply in_map_iff in Hx as (u & <- & Hu).
        apply in_flat_map in Hy as (b & Hb & Hy). apply in_map_iff in Hy as (v & <- & Hv).
        apply in_seqN in Hb. constructor; [lia|].
        apply (in_slab idx cnt _ HL) in Hu as [-> _].
        apply (in_slab idx cnt _ HL) in Hv as [-> _]. reflexivity. }
    apply G.
Qed.

Lemma map2_mul_lex cs : forall a b,
  Forall (fun c => 0 < c) cs -> length a = length cs ->
  lex_lt a b -> lex_lt (map2 N.mul a cs) (map2 N.mul b cs).
Proof.
  induction cs as [|c cs IH]; intros a b HP HL H; inversion H; subst; cbn [length] in HL; try discriminate;
    inversion HP; subst; cbn [map2].
  - constructor; [nia|]. rewrite !map2_length. lia.
  - constructor 2. apply IH; auto.
Qed.

Lemma zeros_length {A} (l : list A) : length (map (fun _ => 0) l) = length l.
Proof. apply map_length. Qed.

Lemma grid_dims_length shape cs : length cs = length shape -> length (grid_dims shape cs) = length shape.
Proof. intros H. unfold grid_dims. rewrite map2_length. lia. Qed.

Lemma map_mul_sorted cs l :
  Forall (fun c => 0 < c) cs -> StronglySorted lex_lt l ->
  Forall (fun x => length x = length cs) l ->
  StronglySorted lex_lt (map (fun g => map2 N.mul g cs) l).
Proof.
  intros HP HS. induction HS as [|x l S IH F]; intros HL; cbn [map]; [constructor|].
  pose proof (Forall_inv HL) as Hx. pose proof (Forall_inv_tail HL) as Ht. cbn beta in Hx.
  constructor; [apply IH; auto|].
  apply Forall_map. eapply Forall_impl; [|exact F]. cbn beta. intros y Hy.
  apply map2_mul_lex; auto.
Qed.

Lemma grid_offsets_sorted shape cs :
  length cs = length shape -> Forall (fun c => 0 < c) cs ->
  StronglySorted lex_lt (grid_offsets shape cs).
Proof.
  intros HL HP. unfold grid_offsets.
  assert (HL2 : length (map (fun _ => 0) shape) = length (grid_dims shape cs)).
  { rewrite zeros_length, grid_dims_length; auto. }
  pose proof (slab_sorted _ _ HL2) as HS.
  assert (HLen : Forall (fun x => length x = length cs) (slab (map (fun _ => 0) shape) (grid_dims shape cs))).
  { apply Forall_forall. intros x Hx. apply (in_slab _ _ _ HL2) in Hx as [-> _].
    rewrite zeros_length. auto. }
  apply map_mul_sorted; auto.
Qed.

Lemma grid_offsets_length shape cs :
  length cs = length shape -> lenN (grid_offsets shape cs) = prodN (grid_dims shape cs).
Proof.
  intros HL. unfold grid_offsets, lenN. rewrite map_length. fold (lenN (slab (map (fun _ => 0) shape) (grid_dims shape cs))).
  apply slab_length. rewrite zeros_length, grid_dims_length; auto.
Qed.

Lemma StronglySorted_NoDup l : StronglySorted lex_lt l -> NoDup l.
Proof.
  induction 1 as [|x l S IH F]; constructor; auto.
  intros H. rewrite Forall_forall in F. apply (lex_lt_irrefl x). auto.
Qed.

Lemma reports_rank shape cs vs :
  length cs = length shape -> reports_grid shape cs vs -> same_rank (length shape) vs.
Proof.
  intros HL [_ HF]. eapply Forall_impl; [|exact HF]. cbn. intros c Hc.
  unfold grid_offsets in Hc. apply in_map_iff in Hc as (g & <- & Hg).
  apply in_slab in Hg as [Hg _]; [|rewrite zeros_length, grid_dims_length; auto].
  rewrite zeros_length in Hg. rewrite map2_length. lia.
Qed.

Lemma sorted_table shape cs vs :
  length cs = length shape -> Forall (fun c => 0 < c) cs ->
  reports_grid shape cs vs -> lenN vs = prodN (grid_dims shape cs) ->
  map c_offset (chunk_sort vs) = grid_offsets shape cs.
Proof.
  intros HL HP HR Hlen. pose proof (reports_rank _ _ _ HL HR) as Hrk. destruct HR as [HN HF].
  apply sorted_offsets_unique.
  - apply strictly_sorted_offsets. eapply chunk_sort_sorted; eauto.
  - apply grid_offsets_sorted; auto.
  - assert (P : Permutation (map c_offset (chunk_sort vs)) (map c_offset vs))
      by apply Permutation_map, chunk_sort_perm.
    intros x. split.
    + intros Hx. apply (Permutation_in _ P) in Hx. apply in_map_iff in Hx as (c & <- & Hc).
      rewrite Forall_forall in HF. auto.
    + intros Hx. apply (Permutation_in _ (Permutation_sym P)).
      revert x Hx. apply NoDup_length_incl; auto.
      * rewrite map_length. pose proof (grid_offsets_length shape cs HL) as E.
        unfold lenN in *. lia.
      * intros x Hx. apply in_map_iff in Hx as (c & <- & Hc). rewrite Forall_forall in HF. auto.
Qed.

Lemma reports_le shape cs vs :
  length cs = length shape -> reports_grid shape cs vs -> lenN vs <= prodN (grid_dims shape cs).
Proof.
  intros HL [HN HF]. rewrite <- (grid_offsets_length shape cs HL). unfold lenN.
  rewrite <- (map_length c_offset vs).
  assert ((length (map c_offset vs) <= length (grid_offsets shape cs))%nat); [|lia].
  apply NoDup_incl_length; auto. intros x Hx. apply in_map_iff in Hx as (c & <- & Hc).
  rewrite Forall_forall in HF. auto.
Qed.

(** [product] of grid dimensions, with zeros allowed (an empty dataset). *)
Lemma product64_from_le m l : forall acc,
  (forall k, acc * prodN (firstn k l) < W64) -> product64_from m acc l = Ok (acc * prodN l).
Proof.
  induction l as [|x l IH]; intros acc H; cbn [product64_from prodN].
  - f_equal. lia.
  - pose proof (H 1%nat) as H1. cbn [firstn prodN] in H1. rewrite mul64_ok by lia. cbn [bind].
    rewrite IH; [f_equal; lia|]. intros k. pose proof (H (S k)) as Hk. cbn [firstn prodN] in Hk. lia.
Qed.

Lemma fits64_lead_pos dims :
  Forall (fun x => 0 < x) dims -> prodN dims < W64 -> fits64_lead dims.
Proof.
  intros HF HW k. eapply N.le_lt_trans; [|exact HW].
  rewrite <- (firstn_skipn k dims) at 2. rewrite prodN_app.
  assert (0 < prodN (skipn k dims)).
  { apply prodN_pos. rewrite <- (firstn_skipn k dims) in HF. now apply Forall_app in HF. }
  nia.
Qed.

Lemma Forall2_firstn {A B} (R : A -> B -> Prop) l1 l2 k :
  Forall2 R l1 l2 -> Forall2 R (firstn k l1) (firstn k l2).
Proof. intros H; revert k; induction H; intros [|k]; cbn [firstn]; auto. Qed.

Lemma grid_product_ok m shape cs :
  length cs = length shape -> Forall (fun c => 0 < c) cs -> fits64_lead shape ->
  product64 m (grid_dims shape cs) = Ok (prodN (grid_dims shape cs)).
Proof.
  intros HL HP HF. unfold product64. rewrite product64_from_le; [f_equal; lia|].
  intros k. rewrite N.mul_1_l. eapply N.le_lt_trans; [|apply (HF k)].
  apply prodN_le, Forall2_firstn, grid_dims_le; auto.
Qed.

Lemma scan_filters_ok fs : forall sh gz, supported fs ->
  scan_filters fs sh gz =
  Ok (sh || existsb (fun f => match f with FShuffle => true | _ => false end) fs, last_deflate fs gz).
Proof.
  unfold supported.
  induction fs as [|f fs IH]; intros sh gz H; cbn [scan_filters existsb last_deflate].
  - now rewrite orb_false_r.
  - destruct f.
    + rewrite IH by (intros X; apply H; now right). now rewrite orb_true_r.
    + rewrite IH by (intros X; apply H; now right). reflexivity.
    + exfalso. apply H. now left.
Qed.

Lemma scan_filters_bad fs : forall sh gz, In FOther fs -> scan_filters fs sh gz = Err EFilter.
Proof.
  induction fs as [|f fs IH]; intros sh gz H; [easy|]. cbn [scan_filters].
  destruct f; auto; destruct H as [H|H]; try discriminate; auto.
Qed.

Lemma index_chunked m h cs :
  h_is_chunked h = true -> h_offset h = None -> h_chunk h = Some cs ->
  length cs = length (h_shape h) -> Forall (fun c => 0 < c) cs ->
  fits64 (h_shape h) -> fits64_lead (h_shape h) -> fits64 cs -> supported (h_filters h) ->
  reports_grid (h_shape h) cs (h_visit h) ->
  (lenN (h_visit h) = prodN (grid_dims (h_shape h) cs) ->
   exists ds, dataset_index m h = Ok ds /\ well_made ds /\
     d_shape ds = h_shape h /\ d_chunk_shape ds = cs /\
     d_dtype ds = h_dtype h /\ d_order ds = h_order h /\
     Permutation (d_chunks ds) (h_visit h) /\
     map c_offset (d_chunks ds) = grid_offsets (h_shape h) cs /\
     d_shuffle ds = existsb (fun f => match f with FShuffle => true | _ => false end) (h_filters h) /\
     d_gzip ds = last_deflate (h_filters h) None) /\
  (lenN (h_visit h) <> prodN (grid_dims (h_shape h) cs) ->
   dataset_index m h = Err ENumChunks).
Proof.
  intros H1 H2 H3 HL HP F1 F2 F3 HS HR.
  unfold dataset_index. rewrite scan_filters_ok by auto. cbn [bind orb].
  rewrite H1, H2, H3. cbn [bind].
  rewrite grid_ok by auto. cbn [bind]. rewrite grid_product_ok by auto. cbn [bind].
  assert (HLs : lenN (chunk_sort (h_visit h)) = lenN (h_visit h)).
  { unfold lenN. f_equal. apply Permutation_length, chunk_sort_perm. }
  rewrite HLs. split; intros HE.
  - apply N.eqb_eq in HE. rewrite HE. cbn [ensure bind].
    rewrite dataset_new_ok by auto. eexists. split; [reflexivity|].
    split; [constructor; auto|].
    cbn [d_shape d_chunk_shape d_chunks d_shuffle d_gzip d_dtype d_order].
    repeat (split; auto).
    + apply chunk_sort_perm.
    + apply N.eqb_eq in HE. apply sorted_table; auto.
  - apply N.eqb_neq in HE. rewrite HE. reflexivity.
Qed.

Lemma ceil_div_same s : 0 < s -> ceil_div s s = 1.
Proof. intros H. unfold ceil_div. apply (div_unique_N _ _ _ (s - 1)); lia. Qed.

Lemma grid_contiguous shape : Forall (fun s => 0 < s) shape ->
  grid_dims shape shape = map (fun _ => 1) shape /\
  grid_offsets shape shape = [map (fun _ => 0) shape].
Proof.
  intros HF.
  assert (E : grid_dims shape shape = map (fun _ => 1) shape).
  { unfold grid_dims. induction HF as [|s shape Hs HF IH]; cbn [map2 map]; auto.
    now rewrite ceil_div_same, IH. }
  split; auto. unfold grid_offsets. rewrite E.
  assert (S1 : slab (map (fun _ => 0) shape) (map (fun _ => 1) shape) = [map (fun _ => 0) shape]).
  { clear. induction shape as [|s shape IH]; cbn [map slab]; auto.
    rewrite IH. reflexivity. }
  rewrite S1. cbn [map]. f_equal. clear. induction shape as [|s shape IH]; cbn [map map2]; auto.
  now rewrite IH.
Qed.

Lemma prodN_ones {A} (l : list A) : prodN (map (fun _ => 1) l) = 1.
Proof. induction l; cbn [map prodN]; auto. rewrite IHl. reflexivity. Qed.

Lemma index_contiguous m h off :
  h_is_chunked h = false -> h_offset h = Some off -> h_chunk h = None ->
  Forall (fun s => 0 < s) (h_shape h) -> prodN (h_shape h) < W64 -> supported (h_filters h) ->
  exists ds, dataset_index m h = Ok ds /\ well_made ds /\
    d_shape ds = h_shape h /\ d_chunk_shape ds = h_shape h /\
    d_dtype ds = h_dtype h /\ d_order ds = h_order h /\
    d_chunks ds = [mkChunk off (h_storage h) (map (fun _ => 0) (h_shape h))] /\
    map c_offset (d_chunks ds) = grid_offsets (h_shape h) (h_shape h).
Proof.
  intros H1 H2 H3 HP HW HS.
  unfold dataset_index. rewrite scan_filters_ok by auto. cbn [bind].
  rewrite H1, H2, H3. cbn [bind chunk_sort chunk_insert].
  destruct (grid_contiguous _ HP) as [E1 E2].
  rewrite grid_ok by auto. cbn [bind].
  rewrite grid_product_ok by (auto using fits64_lead_pos). cbn [bind].
  rewrite E1, prodN_ones. cbn [lenN length N.of_nat Pos.of_succ_nat N.eqb Pos.eqb ensure bind].
  rewrite dataset_new_ok by (auto using fits64_pos).
  eexists. split; [reflexivity|]. split; [constructor; auto|].
  cbn [d_shape d_chunk_shape d_chunks d_dtype d_order map c_offset].
  rewrite E2. repeat (split; auto).
Qed.
