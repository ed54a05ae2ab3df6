(** * Which files can be indexed, and how indexing fails (C80).

    Each theorem is followed by a concrete case meeting its hypotheses. *)
From Verif Require Import Base Spec Chunk ChunkProofs Dataset SpecApi ApiLemmas DatasetProofs IndexProofs IndexTree SpecTree TreeProofs Tools Examples
  Properties1 Properties7.

(** ** Specification *)

(** A dataset as the HDF5 library describes it, if it has storage: chunked (chunks of the rank
    of the dataset, no side of length zero; every chunk that was written is reported once, at
    its place in the grid) or contiguous; sizes fit 64 bits. *)
Inductive library_gives (h : h5ds) : Prop :=
| lg_chunked cs : h_is_chunked h = true -> h_offset h = None -> h_chunk h = Some cs ->
    length cs = length (h_shape h) -> Forall (fun c => 0 < c) cs ->
    fits64 (h_shape h) -> fits64_lead (h_shape h) -> sizes_ok (h_shape h) cs ->
    reports_grid (h_shape h) cs (h_visit h) -> library_gives h
| lg_contiguous off : h_is_chunked h = false -> h_offset h = Some off -> h_chunk h = None ->
    Forall (fun s => 0 < s) (h_shape h) -> sizes_ok (h_shape h) (h_shape h) -> library_gives h.

(** A chunk of the dataset was never written. *)
Definition unwritten (h : h5ds) : Prop :=
  h_is_chunked h = true /\ exists cs o, h_chunk h = Some cs /\ In o (grid_offsets (h_shape h) cs) /\ ~ In o (map c_offset (h_visit h)).

(** What can be wrong with a dataset: too many dimensions, a filter other than shuffle and
    deflate, a chunk never written. *)
Definition high_rank (h : h5ds) : Prop := (9 < length (h_shape h))%nat.
Definition other_filter (h : h5ds) : Prop := In FOther (h_filters h).

(** ** Proofs *)

Lemma unwritten_count h cs : h_is_chunked h = true -> h_chunk h = Some cs -> length cs = length (h_shape h) ->
  Forall (fun c => 0 < c) cs -> reports_grid (h_shape h) cs (h_visit h) ->
  (unwritten h <-> lenN (h_visit h) <> prodN (grid_dims (h_shape h) cs)).
Proof.
  intros H1 H2 HL HP [ND HF]. pose proof (grid_offsets_length _ _ HL) as E.
  assert (IC : incl (map c_offset (h_visit h)) (grid_offsets (h_shape h) cs)).
  { intros o Ho. apply in_map_iff in Ho as (c & <- & Hc). rewrite Forall_forall in HF. auto. }
  split.
  - intros (_ & cs' & o & Hc & Ho & HN) EL. rewrite H2 in Hc. injection Hc as <-.
    apply HN. revert o Ho HN. intros o Ho _. revert o Ho. apply NoDup_length_incl; auto. rewrite map_length. unfold lenN in *. lia.
  - intros EL. split; auto.
    destruct (Forall_Exists_dec (fun o => In o (map c_offset (h_visit h)))
      (fun o => in_dec (list_eq_dec N.eq_dec) o (map c_offset (h_visit h))) (grid_offsets (h_shape h) cs)) as [HA|HE].
    + exfalso. apply EL. rewrite <- E. rewrite Forall_forall in HA.
      assert (G : NoDup (grid_offsets (h_shape h) cs)).
      { pose proof (grid_offsets_sorted _ _ HL HP) as S. clear - S. induction S as [|a l S IH F]; constructor; auto.
        intros Ha. rewrite Forall_forall in F. specialize (F a Ha). now apply lex_lt_irrefl in F. }
      pose proof (NoDup_incl_length ND IC) as L1. pose proof (NoDup_incl_length G HA) as L2.
      rewrite map_length in *. unfold lenN. lia.
    + apply Exists_exists in HE as (o & Ho & HN). exists cs, o. auto.
Qed.

Lemma index_cases m h : library_gives h ->
  (high_rank h /\ datasetd_index m h = Panic) \/
  (~ high_rank h /\ other_filter h /\ datasetd_index m h = Err EFilter) \/
  (~ high_rank h /\ ~ other_filter h /\ unwritten h /\ datasetd_index m h = Err ENumChunks) \/
  (~ high_rank h /\ ~ other_filter h /\ ~ unwritten h /\ exists ds, datasetd_index m h = Ok ds).
Proof.
  intros HG. unfold datasetd_index, high_rank. destruct (length (h_shape h) <=? 9)%nat eqn:ER.
  2:{ left. apply Nat.leb_gt in ER. auto. }
  apply Nat.leb_le in ER. right.
  destruct (in_dec (fun a b : h5filter => ltac:(decide equality; apply N.eq_dec) : {a = b} + {a <> b}) FOther (h_filters h)) as [HO|HO].
  { left. split; [lia|]. split; auto. now apply indexing_unsupported. }
  right. destruct HG as [cs G1 G2 G3 G4 G5 G6 G7 G8 G9|off G1 G2 G3 G4 G5].
  - destruct (indexing_chunked m h cs) as [A B]; auto. pose proof (unwritten_count h cs G1 G3 G4 G5 G9) as U.
    destruct (N.eq_dec (lenN (h_visit h)) (prodN (grid_dims (h_shape h) cs))) as [EE|NE].
    + right. split; [lia|]. split; auto. split; [intros X; now apply U in X|]. destruct (A EE) as (ds & E & _). eauto.
    + left. split; [lia|]. split; auto. split; [now apply U|auto].
  - right. split; [lia|]. split; auto. split; [intros [X _]; congruence|].
    destruct (indexing_contiguous m h off) as (ds & E & _); auto. eauto.
Qed.

(** *** C80: one dataset *)
Theorem C80_dataset m h : library_gives h ->
  ((exists ds, datasetd_index m h = Ok ds) <-> ~ high_rank h /\ ~ other_filter h /\ ~ unwritten h) /\
  (datasetd_index m h = Panic <-> high_rank h) /\
  (forall e, datasetd_index m h = Err e <->
     ~ high_rank h /\ (e = EFilter /\ other_filter h \/ e = ENumChunks /\ ~ other_filter h /\ unwritten h)) /\
  datasetd_index Debug h = datasetd_index Release h.
Proof.
  intros HG. assert (HM : datasetd_index Debug h = datasetd_index Release h).
  { unfold datasetd_index. destruct (length (h_shape h) <=? 9)%nat; auto. unfold dataset_index.
    destruct (scan_filters (h_filters h) false None) as [[sh gz]| | | |]; cbn [bind]; auto.
    destruct HG as [cs G1 G2 G3 G4 G5 G6 G7 G8 G9|off G1 G2 G3 G4 G5].
    - rewrite G1, G2, G3. cbn [bind]. rewrite grid_ok by auto. cbn [bind]. rewrite !grid_product_ok by auto. cbn [bind].
      destruct (lenN _ =? _); cbn [ensure bind]; auto. rewrite !dataset_new_ok; auto; apply fits64_pos; auto; apply G8.
    - rewrite G1, G2, G3. cbn [bind]. assert (F : fits64 (h_shape h)) by (apply fits64_pos; auto; apply G5).
      rewrite grid_ok by auto. cbn [bind].
      assert (L : fits64_lead (h_shape h)) by (apply fits64_lead_pos; auto; apply G5).
      rewrite !grid_product_ok by auto. cbn [bind].
      destruct (lenN _ =? _); cbn [ensure bind]; auto. now rewrite !dataset_new_ok by auto. }
  destruct (index_cases m h HG) as [(A & E)|[(A & B & E)|[(A & B & C & E)|(A & B & C & ds & E)]]]; rewrite E;
    (split; [|split; [|split; [|exact HM]]]).
  - split; [intros [? ?]; discriminate|tauto].
  - tauto.
  - intros e. split; [discriminate|tauto].
  - split; [intros [? ?]; discriminate|tauto].
  - split; [discriminate|tauto].
  - intros e. split; [intros X; injection X as <-; tauto|]. intros (_ & [[-> _]|(-> & X & _)]); [reflexivity|tauto].
  - split; [intros [? ?]; discriminate|tauto].
  - split; [discriminate|tauto].
  - intros e. split; [intros X; injection X as <-; tauto|]. intros (_ & [[-> X]|(-> & X & _)]); [tauto|reflexivity].
  - split; [tauto|eauto].
  - split; [discriminate|tauto].
  - intros e. split; [discriminate|tauto].
Qed.
Print Assumptions C80_dataset.

(** The failure of a group is that of a member, or that of a listing. *)
Lemma datasets_fail m l : (forall r, index_datasets m l <> Ok r) ->
  exists k d, In (k, HData d) l /\ has_storage d /\ (forall r, datasetd_index m d <> Ok r) /\
    index_datasets m l = failed (datasetd_index m d).
Proof.
  induction l as [|[k [d|g|]] l IH]; intros H; cbn [index_datasets] in *.
  - exfalso. now apply (H []).
  - destruct (allocated d) eqn:Ea.
    + destruct (datasetd_index m d) as [x| | | |] eqn:Ed.
      2-5: exists k, d; split; [now left|]; split; [now apply allocated_spec|]; rewrite Ed; split; [discriminate|reflexivity].
      cbn [bind] in *. destruct (index_datasets m l) as [r| | | |] eqn:El; cbn [bind] in *; [exfalso; now eapply H|..];
        (destruct IH as (k' & d' & I1 & I2 & I3 & I4); [discriminate|]; exists k', d'; split; [now right|auto]).
    + destruct (IH H) as (k' & d' & I1 & I2). exists k', d'. split; [now right|auto].
  - destruct (IH H) as (k' & d' & I1 & I2). exists k', d'. split; [now right|auto].
  - destruct (IH H) as (k' & d' & I1 & I2). exists k', d'. split; [now right|auto].
Qed.
Lemma subs_fail m path name l : (forall r, index_subs m path name l <> Ok r) ->
  exists k g, In (k, HGroup g) l /\ (forall r, index_group m path (name ++ SLASH :: k) g <> Ok r) /\
    index_subs m path name l = failed (index_group m path (name ++ SLASH :: k) g).
Proof.
  induction l as [|[k [d|g|]] l IH]; intros H; cbn [index_subs] in *; try fold (index_subs m path name l) in *.
  - exfalso. now apply (H []).
  - destruct (IH H) as (k' & d' & I1 & I2). exists k', d'. split; [now right|auto].
  - destruct (index_group m path (name ++ SLASH :: k) g) as [x| | | |] eqn:Eg.
    2-5: exists k, g; split; [now left|]; rewrite Eg; split; [discriminate|reflexivity].
    cbn [bind] in *. destruct (index_subs m path name l) as [r| | | |] eqn:El; cbn [bind] in *; [exfalso; now eapply H|..];
        (destruct IH as (k' & d' & I1 & I2 & I3); [discriminate|]; exists k', d'; split; [now right|auto]).
  - destruct (IH H) as (k' & d' & I1 & I2). exists k', d'. split; [now right|auto].
Qed.
Lemma group_fail m path : forall g name, (forall r, index_group m path name g <> Ok r) ->
  (exists cs g', h5_group g cs g' /\ h_lists g' = false /\ index_group m path name g = Err EHdf5) \/
  (exists cs x d, h5_dataset g cs x d /\ has_storage d /\ (forall r, datasetd_index m d <> Ok r) /\
     index_group m path name g = failed (datasetd_index m d)).
Proof.
  induction g as [b l IH] using h5_ind. intros name H. rewrite index_group_eq in *. destruct b.
  2:{ left. exists [], (mkHG false l). split; [constructor|auto]. }
  destruct (index_datasets m l) as [ds| | | |] eqn:Ed.
  2-5: right; destruct (datasets_fail m l) as (k & d & I1 & I2 & I3 & I4); [rewrite Ed; discriminate|];
    exists [], k, d; split; [exists (mkHG true l); split; [constructor|exact I1]|]; split; [exact I2|]; split; [exact I3|];
    rewrite Ed in I4; cbn [bind]; destruct (datasetd_index m d); cbn [failed] in *; congruence.
  cbn [bind] in *. destruct (index_subs m path name l) as [gs| | | |] eqn:Eg; cbn [bind] in *; [exfalso; now eapply H|..].
  all: destruct (subs_fail m path name l) as (k & g & I1 & I2 & I3); [rewrite Eg; discriminate|]; rewrite Eg in I3;
    destruct (IH k g I1 _ I2) as [(cs & g' & J1 & J2 & J3)|(cs & x & d & (g' & J1 & J1') & J2 & J3 & J4)];
    [left; exists (k :: cs), g'; split; [econstructor; eauto|]; split; [exact J2|]; rewrite J3 in I3; cbn [failed] in I3; congruence|
     right; exists (k :: cs), x, d; split; [exists g'; split; [econstructor; eauto|exact J1']|]; split; [exact J2|]; split; [exact J3|];
     rewrite J4 in I3; destruct (datasetd_index m d); cbn [failed] in *; congruence].
Qed.

(** *** C80: a whole file

    Indexing a file succeeds exactly if every group can be listed and every dataset with
    storage has at most 9 dimensions, no filter but shuffle and deflate, and all its chunks
    written.  It panics only if a dataset has more than 9 dimensions; otherwise it reports an
    error that says what is wrong with some group or dataset of the file. *)
Definition stored_dataset (root : h5group) (d : h5ds) : Prop := exists cs x, h5_dataset root cs x d /\ has_storage d.
Theorem C80_file m path root : named root -> (forall d, stored_dataset root d -> library_gives d) ->
  ((exists i, index_file m path root = Ok i) <->
   (forall cs g, h5_group root cs g -> h_lists g = true) /\
   (forall d, stored_dataset root d -> ~ high_rank d /\ ~ other_filter d /\ ~ unwritten d)) /\
  (index_file m path root = Panic -> exists d, stored_dataset root d /\ high_rank d) /\
  (forall e, index_file m path root = Err e ->
     (e = EHdf5 /\ exists cs g, h5_group root cs g /\ h_lists g = false) \/
     (e = EFilter /\ exists d, stored_dataset root d /\ ~ high_rank d /\ other_filter d) \/
     (e = ENumChunks /\ exists d, stored_dataset root d /\ ~ high_rank d /\ ~ other_filter d /\ unwritten d)) /\
  index_file m path root <> Ub /\ index_file m path root <> Hang.
Proof.
  intros HN HG.
  assert (HF : forall x, index_file m path root = x -> (forall i, x <> Ok i) ->
    (x = Err EHdf5 /\ exists cs g, h5_group root cs g /\ h_lists g = false) \/
    (exists d, stored_dataset root d /\ x = failed (datasetd_index m d) /\ forall r, datasetd_index m d <> Ok r)).
  { intros x Ex Hx. unfold index_file in Ex. destruct (group_fail m path root []) as [(cs & g & A & B & E)|(cs & y & d & A & B & C & E)].
    - intros r Er. rewrite Er in Ex. cbn [bind] in Ex. now apply (Hx (mkIndex path r)).
    - left. rewrite E in Ex. cbn [bind] in Ex. split; eauto.
    - right. exists d. split; [exists cs, y; auto|]. split; auto. rewrite E in Ex.
      destruct (datasetd_index m d) as [r| | | |]; cbn [failed bind] in *; auto. }
  split; [|split; [|split; [|split]]].
  - rewrite (C43_succeeds m path root HN). split; intros [A B]; (split; [exact A|]).
    + intros d (cs & x & H1 & H2). destruct (C80_dataset m d) as [H _]; [apply HG; exists cs, x; auto|]. apply H. eauto.
    + intros cs x d H1 H2. assert (HS : stored_dataset root d) by (exists cs, x; auto).
      destruct (C80_dataset m d (HG d HS)) as [H _]. apply H. auto.
  - intros E. destruct (HF _ E ltac:(discriminate)) as [[? _]|(d & HS & Ed & Hd)]; [discriminate|]. exists d. split; auto.
    destruct (C80_dataset m d (HG d HS)) as (H1 & H2 & H3 & _). apply H2.
    destruct (datasetd_index m d) as [r| | | |]; cbn [failed] in Ed; try discriminate; auto. now exfalso; apply (Hd r).
  - intros e E. destruct (HF _ E ltac:(discriminate)) as [[H ?]|(d & HS & Ed & Hd)]; [injection H as ->; auto|]. right.
    destruct (C80_dataset m d (HG d HS)) as (H1 & H2 & H3 & _).
    destruct (datasetd_index m d) as [r|e'| | |] eqn:Ex; cbn [failed] in Ed; try discriminate. injection Ed as <-.
    destruct (proj1 (H3 e) eq_refl) as (R & [[-> F]|(-> & F & U)]); [left|right]; split; eauto 6.
  - intros E. destruct (HF _ E ltac:(discriminate)) as [[? _]|(d & HS & Ed & Hd)]; [discriminate|].
    destruct (index_cases m d (HG d HS)) as [(_ & X)|[(_ & _ & X)|[(_ & _ & _ & X)|(_ & _ & _ & r & X)]]]; rewrite X in Ed; discriminate.
  - intros E. destruct (HF _ E ltac:(discriminate)) as [[? _]|(d & HS & Ed & Hd)]; [discriminate|].
    destruct (index_cases m d (HG d HS)) as [(_ & X)|[(_ & _ & X)|[(_ & _ & _ & X)|(_ & _ & _ & r & X)]]]; rewrite X in Ed; discriminate.
Qed.
Print Assumptions C80_file.

(** If only one kind of thing is wrong with a file, that is what the caller learns; and a
    single dataset of more than 9 dimensions in an otherwise good file makes indexing panic. *)
Theorem C80_reported m path root : named root -> (forall d, stored_dataset root d -> library_gives d) ->
  let listed := forall cs g, h5_group root cs g -> h_lists g = true in
  let none (p : h5ds -> Prop) := forall d, stored_dataset root d -> ~ p d in
  let some (p : h5ds -> Prop) := exists d, stored_dataset root d /\ p d in
  (listed -> none other_filter -> none unwritten -> some high_rank -> index_file m path root = Panic) /\
  (listed -> none high_rank -> none unwritten -> some other_filter -> index_file m path root = Err EFilter) /\
  (listed -> none high_rank -> none other_filter -> some unwritten -> index_file m path root = Err ENumChunks) /\
  ((exists cs g, h5_group root cs g /\ h_lists g = false) -> none high_rank -> none other_filter -> none unwritten ->
     index_file m path root = Err EHdf5) /\
  (none high_rank -> index_file m path root <> Panic).
Proof.
  intros HN HG listed none some. destruct (C80_file m path root HN HG) as (A & B & C & U & H).
  assert (W : forall x, index_file m path root = x -> (x <> Panic -> (exists i, x = Ok i) \/ (exists e, x = Err e)) ).
  { intros x Ex Hx. destruct x; eauto; congruence. }
  split; [|split; [|split; [|split]]].
  - intros L F1 F2 (d & Hd & P). destruct (index_file m path root) as [i|e| | |] eqn:E; try congruence.
    + exfalso. destruct (proj1 A (ex_intro _ i eq_refl)) as [_ Z]. destruct (Z d Hd) as (Z1 & Z2 & Z3); contradiction.
    + exfalso. destruct (C e eq_refl) as [(-> & cs & g & G1 & G2)|[(-> & d' & G1 & _ & G2)|(-> & d' & G1 & _ & _ & G2)]].
      * rewrite (L cs g G1) in G2. discriminate.
      * exact (F1 d' ltac:(assumption) ltac:(assumption)).
      * exact (F2 d' ltac:(assumption) ltac:(assumption)).
  - intros L F1 F2 (d & Hd & P). destruct (index_file m path root) as [i|e| | |] eqn:E; try congruence.
    + exfalso. destruct (proj1 A (ex_intro _ i eq_refl)) as [_ Z]. destruct (Z d Hd) as (Z1 & Z2 & Z3); contradiction.
    + destruct (C e eq_refl) as [(-> & cs & g & G1 & G2)|[(-> & d' & G1 & _ & G2)|(-> & d' & G1 & _ & _ & G2)]].
      * rewrite (L cs g G1) in G2. discriminate.
      * reflexivity.
      * exfalso. exact (F2 d' ltac:(assumption) ltac:(assumption)).
    + exfalso. destruct (B eq_refl) as (d' & G1 & G2). exact (F1 d' ltac:(assumption) ltac:(assumption)).
  - intros L F1 F2 (d & Hd & P). destruct (index_file m path root) as [i|e| | |] eqn:E; try congruence.
    + exfalso. destruct (proj1 A (ex_intro _ i eq_refl)) as [_ Z]. destruct (Z d Hd) as (Z1 & Z2 & Z3); contradiction.
    + destruct (C e eq_refl) as [(-> & cs & g & G1 & G2)|[(-> & d' & G1 & _ & G2)|(-> & d' & G1 & _ & _ & G2)]].
      * rewrite (L cs g G1) in G2. discriminate.
      * exfalso. exact (F2 d' ltac:(assumption) ltac:(assumption)).
      * reflexivity.
    + exfalso. destruct (B eq_refl) as (d' & G1 & G2). exact (F1 d' ltac:(assumption) ltac:(assumption)).
  - intros (cs & g & G1 & G2) F1 F2 F3. destruct (index_file m path root) as [i|e| | |] eqn:E; try congruence.
    + exfalso. destruct (proj1 A (ex_intro _ i eq_refl)) as [Z _]. rewrite (Z cs g G1) in G2. discriminate.
    + destruct (C e eq_refl) as [(-> & _)|[(-> & d' & X1 & _ & X2)|(-> & d' & X1 & _ & _ & X2)]]; [reflexivity|exfalso..].
      * exact (F2 d' ltac:(assumption) ltac:(assumption)).
      * exact (F3 d' ltac:(assumption) ltac:(assumption)).
    + exfalso. destruct (B eq_refl) as (d' & X1 & X2). exact (F1 d' ltac:(assumption) ltac:(assumption)).
  - intros F1 E. destruct (B E) as (d' & G1 & G2). exact (F1 d' ltac:(assumption) ltac:(assumption)).
Qed.
Print Assumptions C80_reported.

(** Builds with and without debug assertions index the same files, with the same result. *)
Lemma datasets_modes l : (forall k d, In (k, HData d) l -> has_storage d -> library_gives d) ->
  index_datasets Debug l = index_datasets Release l.
Proof.
  induction l as [|[k [d|g|]] l IH]; intros H; cbn [index_datasets]; auto.
  - destruct (allocated d) eqn:Ea.
    + apply allocated_spec in Ea. destruct (C80_dataset Debug d) as (_ & _ & _ & ->); [apply (H k); auto; now left|].
      rewrite IH; auto. intros k' d' Hd. apply (H k'). now right.
    + apply IH. intros k' d' Hd. apply (H k'). now right.
  - apply IH. intros k' d' Hd. apply (H k'). now right.
  - apply IH. intros k' d' Hd. apply (H k'). now right.
Qed.
Lemma group_modes path : forall g name, (forall cs x d, h5_dataset g cs x d -> has_storage d -> library_gives d) ->
  index_group Debug path name g = index_group Release path name g.
Proof.
  induction g as [b l IH] using h5_ind. intros name H. rewrite !index_group_eq. destruct b; auto.
  rewrite datasets_modes. 2:{ intros k d Hd. apply (H [] k). exists (mkHG true l). split; [constructor|exact Hd]. }
  assert (E : index_subs Debug path name l = index_subs Release path name l); [|now rewrite E].
  assert (HS : forall k g, In (k, HGroup g) l -> forall name, index_group Debug path name g = index_group Release path name g).
  { intros k g Hg name'. apply (IH k g Hg). intros cs x d (g' & G1 & G2). apply (H (k :: cs) x). exists g'. split; auto. econstructor; eauto. }
  clear - HS. induction l as [|[k [d|g|]] l IH]; cbn [index_subs]; auto; fold (index_subs Debug path name l) (index_subs Release path name l);
    rewrite IH by (intros k' g' Hg'; apply (HS k'); now right); auto.
  now rewrite (HS k g (or_introl eq_refl)).
Qed.
Theorem C80_modes path root : (forall d, stored_dataset root d -> library_gives d) ->
  index_file Debug path root = index_file Release path root.
Proof.
  intros HG. unfold index_file. rewrite group_modes; auto. intros cs x d H1 H2. apply HG. exists cs, x. auto.
Qed.
Print Assumptions C80_modes.

(** A good file; one whose dataset lacks the chunk at (2, 3); one with a third filter; one with
    a dataset of ten dimensions; one with a group that cannot be listed. *)
Definition holed_h5 : h5ds :=
  mkH5 [4; 6] (Some [2; 3]) true None 0 [mkChunk 300 12 [2; 0]; mkChunk 200 12 [0; 3]; mkChunk 100 12 [0; 0]] [FShuffle] (Int 2) LE.
Definition szip_h5 : h5ds := mkH5 [3; 2] None false (Some 800) 24 [] [FOther] (Int 4) LE.
Definition ten_h5 : h5ds := mkH5 (repeat 2 10) None false (Some 800) 4096 [] [] (Int 4) LE.
Definition with_member (k : list N) (x : h5member) : h5group := mkHG true [([120], HData ex_h5); (k, x)].

Lemma ex_given : library_gives ex_h5.
Proof.
  apply (lg_chunked _ [2; 3]); try reflexivity.
  - repeat constructor.
  - intros [|[|k]]; try reflexivity. cbn [ex_h5 h_shape skipn]. destruct k; reflexivity.
  - intros [|[|k]]; try reflexivity. cbn [ex_h5 h_shape firstn]. destruct k; reflexivity.
  - repeat split; repeat constructor.
  - split; [repeat constructor; cbn; intuition discriminate|]. repeat constructor; vm_compute; intuition congruence.
Qed.
Lemma holed_given : library_gives holed_h5 /\ unwritten holed_h5.
Proof.
  split.
  - apply (lg_chunked _ [2; 3]); try reflexivity.
    + repeat constructor.
    + intros [|[|k]]; try reflexivity. cbn [holed_h5 h_shape skipn]. destruct k; reflexivity.
    + intros [|[|k]]; try reflexivity. cbn [holed_h5 h_shape firstn]. destruct k; reflexivity.
    + repeat split; repeat constructor.
    + split; [repeat constructor; cbn; intuition discriminate|]. repeat constructor; vm_compute; intuition congruence.
  - split; [reflexivity|]. exists [2; 3], [2; 3]. split; [reflexivity|]. split; vm_compute; intuition congruence.
Qed.
Lemma szip_given : library_gives szip_h5 /\ other_filter szip_h5.
Proof. split; [|now left]. apply (lg_contiguous _ 800); try reflexivity; repeat split; repeat constructor. Qed.
Lemma ten_given : library_gives ten_h5 /\ high_rank ten_h5.
Proof. split; [|unfold high_rank; cbn; lia]. apply (lg_contiguous _ 800); try reflexivity; repeat split; repeat constructor. Qed.

Example C80_case : forall k x, In (k, x) [([121], HData holed_h5); ([122], HData szip_h5); ([116], HData ten_h5); ([103], HGroup (mkHG false [])); ([98], HBroken)] ->
  named (with_member k x) /\ (forall d, stored_dataset (with_member k x) d -> library_gives d) /\
  (forall m, index_file m tree_path (with_member k x) =
     match x with
     | HBroken => Ok (mkIndex tree_path (mkGroup tree_path [([120], ex_ds)] []))
     | HGroup _ => Err EHdf5
     | HData h => if (9 <? length (h_shape h))%nat then Panic else if h_is_chunked h then Err ENumChunks else Err EFilter
     end).
Proof.
  intros k x HI. split; [|split].
  - constructor.
    + cbn [In] in HI. repeat destruct HI as [HI|HI]; try contradiction; injection HI as <- <-; repeat constructor; cbn; intuition discriminate.
    + cbn [In] in HI. repeat destruct HI as [HI|HI]; try contradiction; injection HI as <- <-; repeat constructor; cbn; try discriminate;
        apply slash_free_b; reflexivity.
    + intros c g Hg. cbn [In] in HI. repeat destruct HI as [HI|HI]; try contradiction; injection HI as <- <-; cbn [In] in Hg;
        repeat destruct Hg as [Hg|Hg]; try contradiction; try discriminate. injection Hg as <- <-. constructor; [constructor|constructor|intros ? ? []].
  - intros d (cs & y & (g & G1 & G2) & _). destruct cs as [|c cs].
    + inversion G1; subst. cbn [with_member h_members In] in G2. destruct G2 as [G2|[G2|[]]]; [injection G2 as _ <-; exact ex_given|].
      cbn [In] in HI. repeat destruct HI as [HI|HI]; try contradiction; injection HI as <- <-; try discriminate; injection G2 as _ <-;
        [apply holed_given|apply szip_given|apply ten_given].
    + inversion G1 as [|? ? g1 ? ? Hin Hg]; subst. cbn [with_member h_members In] in Hin. destruct Hin as [Hin|[Hin|[]]]; [discriminate|].
      cbn [In] in HI. repeat destruct HI as [HI|HI]; try contradiction; injection HI as <- <-; try discriminate. injection Hin as <- <-.
      inversion Hg as [|? ? g2 ? ? Hin2 _]; subst; [destruct G2|destruct Hin2].
  - intros m. cbn [In] in HI. repeat destruct HI as [HI|HI]; try contradiction; injection HI as <- <-; destruct m; reflexivity.
Qed.
