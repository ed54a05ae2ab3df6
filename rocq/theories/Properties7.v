(** * Property theorems C39-C43: serialized indexes, index trees, indexing of files.

    [typed_dataset], [typed_index] (SpecSerde) say that a value is one of the Rust type;
    [named], [h5_dataset], [in_group], [joined] (SpecTree) describe files and paths. *)
From Verif Require Import Base Spec Chunk Dataset ChunkProofs DatasetProofs Examples IndexTree Serde SpecSerde SpecTree
  SerdeProofs SerdeTyped TreeProofs.

(** ** C39 *)

(** Any dataset of any rank, followed by anything: the same dataset, and the rest. *)
Theorem C39_dataset D d rest : typed_dataset D d -> de_dataset D (ser_dataset d ++ rest) = Ok (d, rest).
Proof. intros H. exact (dataset_goes D d H rest). Qed.
Print Assumptions C39_dataset.
Theorem C39_dataset_any D d rest : typed_dataset D d -> de_datasetd (ser_datasetd d ++ rest) = Ok (d, rest).
Proof. intros H. exact (datasetd_goes D d H rest). Qed.
Print Assumptions C39_dataset_any.

(** All that the indexer makes is covered. *)
Theorem C39_indexed m h d rest : typed_h5 h -> dataset_index m h = Ok d ->
  de_datasetd (ser_datasetd d ++ rest) = Ok (d, rest).
Proof. intros H E. exact (C39_dataset_any _ d rest (index_typed m h d H E)). Qed.
Print Assumptions C39_indexed.
Ltac small := cbn; auto; try discriminate; try reflexivity; try lia.
Lemma ex_typed_h5 : typed_h5 ex_h5.
Proof.
  constructor.
  - small.
  - repeat constructor.
  - intros c [= <-]. split; [reflexivity|repeat constructor].
  - discriminate.
  - reflexivity.
  - repeat constructor.
  - reflexivity.
  - intros z [E|[E|[]]]; [discriminate|]. injection E as <-. reflexivity.
  - reflexivity.
Qed.
Example C39_case m : typed_h5 ex_h5 /\ dataset_index m ex_h5 = Ok ex_ds /\ typed_dataset 2 ex_ds.
Proof.
  split; [exact ex_typed_h5|]. split; [apply ex_indexed|].
  exact (index_typed m ex_h5 ex_ds ex_typed_h5 (ex_indexed m)).
Qed.

(** A serialized dataset, right but for its divisors: too many or too few are an error. *)
Theorem C39_divisors D d v rest : typed_dataset D d -> Forall word64 v -> lenN v < W64 -> length v <> D ->
  de_dataset D (ser_dataset (mkDataset (d_dtype d) (d_dsize d) (d_order d) (d_chunks d) (d_shape d) (d_chunk_shape d) v
    (d_scaled_dim_sz d) (d_dim_sz d) (d_chunk_dim_sz d) (d_shuffle d) (d_gzip d)) ++ rest) = Err EDe.
Proof.
  intros [H0 H1 H2 H3 H4 H5 H6 H7 H8 H9 H10 H11 H12] HV HL HD. unfold de_dataset, ser_dataset.
  cbn [d_dtype d_dsize d_order d_chunks d_shape d_chunk_shape d_chunk_shape_reduced].
  rewrite <- !app_assoc. rewrite datatype_goes by auto. cbn [bind]. rewrite u64_goes by auto. cbn [bind].
  rewrite order_goes. cbn [bind]. rewrite chunks_goes by auto. cbn [bind].
  rewrite arr_goes by auto. cbn [bind]. rewrite arr_goes by auto. cbn [bind].
  unfold de_sr at 1. rewrite (words_goes v (length v)) by auto. cbn [bind]. unfold sr_array.
  rewrite (proj2 (Nat.eqb_neq _ _)) by auto. reflexivity.
Qed.
Print Assumptions C39_divisors.
Example C39_divisors_case : Forall word64 [2; 3; 7] /\ lenN [2; 3; 7] < W64 /\ length [2; 3; 7] <> 2%nat.
Proof. split; [repeat constructor|]. split; [reflexivity|discriminate]. Qed.

(** ** C40 *)

(** What is read, whatever the bytes, is a dataset of the rank asked for: arrays of that
    length, chunks of that rank, no zero divisor. *)
Theorem C40_read_is_typed D b d rest : (D <= 9)%nat -> is_bytes b -> de_dataset D b = Ok (d, rest) -> typed_dataset D d.
Proof. intros HD Hb E. exact (proj1 (yields_dataset D HD b d rest Hb E)). Qed.
Print Assumptions C40_read_is_typed.
Example C40_read_case : is_bytes (ser_dataset ex_ds ++ [7]) /\ de_dataset 2 (ser_dataset ex_ds ++ [7]) = Ok (ex_ds, [7]).
Proof. split; [|reflexivity]. repeat (apply Forall_cons; [reflexivity|]). apply Forall_nil. Qed.

(** A chunk table that is not a whole number of records never yields a table (it panics). *)
Theorem C40_chunk_table D v rest : lenN v < W64 -> (length v mod (8 * (2 + D)))%nat <> 0%nat ->
  de_chunks D (ser_bytes v ++ rest) = Panic.
Proof.
  intros HL HM. unfold de_chunks. rewrite bytes_goes by auto. cbn [bind]. unfold chunks_of_bytes.
  destruct (Nat.eqb_spec (length v mod 8) 0) as [E8|]; [|reflexivity]. cbn [assert_ bind].
  unfold slice_from_u64s.
  assert (EL : forall n b, length (words_of n b) = n) by (induction n; intros; cbn [words_of length]; auto).
  rewrite EL. destruct (Nat.eqb_spec ((length v / 8) mod (2 + D)) 0) as [E9|]; [|reflexivity]. exfalso.
  apply HM. rewrite Nat.mod_mul_r by lia. now rewrite E8, E9, Nat.mul_0_r.
Qed.
Print Assumptions C40_chunk_table.
(** ... and a whole number of records does, of that many chunks. *)
Theorem C40_chunk_table_ok D v rest n : lenN v < W64 -> is_bytes v -> (length v = n * (8 * (2 + D)))%nat ->
  exists cs, de_chunks D (ser_bytes v ++ rest) = Ok (cs, rest) /\ length cs = n /\ Forall (typed_chunk D) cs.
Proof.
  intros HL HB E. unfold de_chunks. rewrite bytes_goes by auto. cbn [bind].
  assert (X : exists cs, chunks_of_bytes D v = Ok cs).
  { unfold chunks_of_bytes, slice_from_u64s.
    assert (EL : forall n b, length (words_of n b) = n) by (induction n0; intros; cbn [words_of length]; auto).
    rewrite EL, E. replace (n * (8 * (2 + D)))%nat with (n * (2 + D) * 8)%nat by lia.
    rewrite Nat.mod_mul, Nat.div_mul by lia. cbn [Nat.eqb assert_ bind].
    rewrite Nat.mod_mul by lia. cbn [Nat.eqb assert_ bind]. eauto. }
  destruct X as (cs & EC). rewrite EC. cbn [bind]. exists cs. split; auto.
  destruct (chunks_of_bytes_spec D v cs HB EC) as [A B]. split; auto.
  rewrite E in B. apply Nat.mul_cancel_r in B; [auto|lia].
Qed.
Print Assumptions C40_chunk_table_ok.
Example C40_chunk_table_case : (length [1; 2; 3] mod (8 * (2 + 2)))%nat <> 0%nat /\
  length (chunk_bytes_of (d_chunks ex_ds)) = (4 * (8 * (2 + 2)))%nat.
Proof. split; [discriminate|reflexivity]. Qed.

(** A dataset that was cut short is never read. *)
Theorem C40_truncated D d pre q : typed_dataset D d -> ser_dataset d = pre ++ q -> q <> [] ->
  forall x, de_dataset D pre <> Ok x.
Proof.
  intros H E Hq [y r]. refine (prefix_rejected (de_dataset D) (ser_dataset d) d (mono_dataset D) _ pre q y r E Hq).
  rewrite <- (app_nil_r (ser_dataset d)). now apply C39_dataset.
Qed.
Print Assumptions C40_truncated.

(** But shapes and strides of the wrong length are not rejected: they are cut, or filled
    with zeros. *)
Theorem C40_arrays_lenient D v rest : Forall word64 v -> lenN v < W64 ->
  de_arr D (ser_arr v ++ rest) = Ok (firstn D v ++ repeat 0 (D - length v), rest).
Proof.
  intros HV HL. unfold de_arr. rewrite (words_goes v (length v)) by auto. cbn [bind]. now rewrite fill_spec.
Qed.
Print Assumptions C40_arrays_lenient.
Definition long_shape_ds : dataset :=
  mkDataset (Int 2) 2 LE (d_chunks ex_ds) [4; 6; 9] [2; 3] [2; 3] [2] [6; 1] [3; 1] true (Some 4).
Theorem C40_shape_refuted : length (d_shape long_shape_ds) = 3%nat /\ length (d_scaled_dim_sz long_shape_ds) = 1%nat /\
  de_dataset 2 (ser_dataset long_shape_ds) =
    Ok (mkDataset (Int 2) 2 LE (d_chunks ex_ds) [4; 6] [2; 3] [2; 3] [2; 0] [6; 1] [3; 1] true (Some 4), []).
Proof. split; [reflexivity|]. split; reflexivity. Qed.
Print Assumptions C40_shape_refuted.
(** And a zero divisor is a panic, not an error. *)
Theorem C40_zero_divisor D v rest : Forall word64 v -> lenN v < W64 -> length v = D -> In 0 v ->
  de_sr D (ser_arr v ++ rest) = Panic.
Proof.
  intros HV HL HD H0. unfold de_sr. rewrite (words_goes v D) by auto. cbn [bind]. unfold sr_array.
  rewrite HD, Nat.eqb_refl. now rewrite sr_new_zero.
Qed.
Print Assumptions C40_zero_divisor.

(** ** C41 *)

(** Every index whose paths are UTF-8 is serialized, and read back the same whatever
    follows it; the bytes written are exactly those consumed. *)
Theorem C41_round_trip i : typed_index i -> utf8_path (i_path i) -> utf8_group (i_root i) ->
  exists b, bincode_serialize i = Ok b /\ bincode_deserialize b = Ok i /\
    forall rest, de_index (S (length (b ++ rest))) (b ++ rest) = Ok (i, rest) /\ bincode_deserialize (b ++ rest) = Ok i.
Proof.
  intros HT HP HU. apply ser_path_ok in HP as (p & Ep). apply ser_group_ok in HU as (g & Eg).
  exists (p ++ g). unfold bincode_serialize, ser_index. rewrite Ep, Eg. cbn [bind].
  assert (E : ser_index i = Ok (p ++ g)) by (unfold ser_index; now rewrite Ep, Eg).
  assert (G : forall rest, de_index (S (length ((p ++ g) ++ rest))) ((p ++ g) ++ rest) = Ok (i, rest)).
  { intros rest. apply index_goes; auto. apply depth_length in Eg. rewrite !app_length. lia. }
  split; auto. split.
  - unfold bincode_deserialize. specialize (G []). rewrite app_nil_r in G. now rewrite G.
  - intros rest. split; auto. unfold bincode_deserialize. now rewrite G.
Qed.
Print Assumptions C41_round_trip.

(** An index with a path that is not UTF-8 cannot be serialized: an error. *)
Theorem C41_not_utf8 i : ~ (utf8_path (i_path i) /\ utf8_group (i_root i)) -> bincode_serialize i = Err EDe.
Proof.
  intros H. unfold bincode_serialize, ser_index.
  destruct (ser_path_err (i_path i)) as [(p & Ep)|Ep]; rewrite Ep; cbn [bind]; auto.
  destruct (ser_group_ok (i_root i)) as [G1 [(g & Eg)|Eg]]; rewrite Eg; cbn [bind]; auto.
  exfalso. apply H. split; [apply ser_path_ok; eauto|apply G1; eauto].
Qed.
Print Assumptions C41_not_utf8.

(** An index that was cut short is never loaded, and whatever is loaded is an index. *)
Theorem C41_truncated i b pre q : typed_index i -> bincode_serialize i = Ok b -> b = pre ++ q -> q <> [] ->
  forall x, bincode_deserialize pre <> Ok x.
Proof.
  intros HT E EP Hq x Hx. unfold bincode_deserialize in Hx. apply bind_ok in Hx as ([y r] & Ey & Hx).
  assert (HI : de_index (S (length b)) b = Ok (i, [])).
  { rewrite <- (app_nil_r b) at 2. apply (index_goes i b); auto. unfold bincode_serialize, ser_index in E.
    apply bind_ok in E as (p & Ep & E). apply bind_ok in E as (g & Eg & E). apply ok_inj in E. subst b.
    apply depth_length in Eg. rewrite app_length. lia. }
  assert (HY : de_index (S (length b)) pre = Ok (y, r)).
  { rewrite <- Ey. apply fuel_enough. rewrite EP, app_length. lia. }
  exact (prefix_rejected (de_index (S (length b))) b i (mono_index _) HI pre q y r EP Hq HY).
Qed.
Print Assumptions C41_truncated.
Theorem C41_loaded_is_typed b i : is_bytes b -> bincode_deserialize b = Ok i ->
  typed_index i /\ utf8_path (i_path i) /\ utf8_group (i_root i).
Proof.
  intros Hb E. unfold bincode_deserialize in E. apply bind_ok in E as ([y r] & Ey & E). apply ok_inj in E. subst y.
  exact (proj1 (yields_index _ b i r Hb Ey)).
Qed.
Print Assumptions C41_loaded_is_typed.
(** Loading always ends. *)
Theorem C41_terminates b : bincode_deserialize b <> Hang.
Proof.
  unfold bincode_deserialize. destruct (fuel_enough b (S (length b)) ltac:(lia)) as [_ H].
  destruct (de_index _ b) as [[i r]| | | |]; cbn [bind]; congruence.
Qed.
Print Assumptions C41_terminates.

(** From file to file: what [index] gives can be saved and loaded again. *)
Theorem C41_indexed m path root i : named root -> typed_tree root -> typed_path path -> utf8_path path ->
  index_file m path root = Ok i ->
  exists b, bincode_serialize i = Ok b /\ bincode_deserialize b = Ok i.
Proof.
  intros HN HT HP HU E. unfold index_file in E. apply bind_ok in E as (g & Eg & E). apply ok_inj in E. subst i.
  destruct (C41_round_trip (mkIndex path g)) as (b & E1 & E2 & _); eauto.
  - split; auto. exact (index_group_typed m path root [] g HN HT HP Eg).
  - exact (index_group_utf8 m path root [] g HN HU Eg).
Qed.
Print Assumptions C41_indexed.

(** A file with the example dataset as "/x" and "/g/x", one unallocated dataset and a
    member that is neither; "/t/d.h5" is its path. *)
Definition tree_path : option str := Some [47; 116; 47; 100; 46; 104; 53].
Definition unalloc_h5 : h5ds := mkH5 [5] None false None 0 [] [] (Int 4) LE.
Definition ex_tree : h5group :=
  mkHG true [([120], HData ex_h5); ([103], HGroup (mkHG true [([120], HData ex_h5); ([121], HData unalloc_h5)])); ([98], HBroken)].
Definition ex_index : index :=
  mkIndex tree_path (mkGroup tree_path [([120], ex_ds)] [([103], mkGroup tree_path [([120], ex_ds)] [])]).
Lemma ex_tree_indexed m : index_file m tree_path ex_tree = Ok ex_index.
Proof. destruct m; reflexivity. Qed.
Lemma slash_free_b c : forallb (fun b => negb (b =? SLASH)) c = true -> slash_free c.
Proof. intros H Hin. rewrite forallb_forall in H. specialize (H _ Hin). now rewrite N.eqb_refl in H. Qed.
Lemma ex_tree_named : named ex_tree.
Proof.
  assert (HS : slash_free [120] /\ slash_free [103] /\ slash_free [98] /\ slash_free [121]).
  { repeat split; apply slash_free_b; reflexivity. }
  destruct HS as (S1 & S2 & S3 & S4).
  constructor.
  - cbn. repeat constructor; cbn; intuition discriminate.
  - repeat constructor; cbn; auto; discriminate.
  - intros c g [E|[E|[E|[]]]]; try discriminate. injection E as _ <-. constructor.
    + cbn. repeat constructor; cbn; intuition discriminate.
    + repeat constructor; cbn; auto; discriminate.
    + intros c' g' [E|[E|[]]]; discriminate.
Qed.
Lemma ex_tree_typed : typed_tree ex_tree.
Proof.
  assert (HU : typed_h5 unalloc_h5).
  { constructor; [small|repeat constructor|discriminate|discriminate|reflexivity|constructor|reflexivity|intros z []|reflexivity]. }
  constructor.
  - repeat constructor.
  - reflexivity.
  - intros k d [E|[E|[E|[]]]]; try discriminate. injection E as _ <-. exact ex_typed_h5.
  - intros k g [E|[E|[E|[]]]]; try discriminate. injection E as _ <-. constructor.
    + repeat constructor.
    + reflexivity.
    + intros k' d [E|[E|[]]]; injection E as _ <-; [exact ex_typed_h5|exact HU].
    + intros k' d [E|[E|[]]]; discriminate.
Qed.
Example C41_case : named ex_tree /\ typed_tree ex_tree /\ typed_path tree_path /\ utf8_path tree_path /\
  (forall m, index_file m tree_path ex_tree = Ok ex_index).
Proof.
  split; [exact ex_tree_named|]. split; [exact ex_tree_typed|]. split; [|split; [|exact ex_tree_indexed]].
  - intros s [= <-]. reflexivity.
  - intros s [= <-]. reflexivity.
Qed.

(** ** C42 *)

(** Every string is a number of slashes and then components separated by slashes ... *)
Theorem C42_every_string s :
  (exists k gs x, s = slashes k ++ joined (gs ++ [x]) /\ Forall slash_free (gs ++ [x]) /\ (gs = [] \/ hd [] gs <> [])) /\
  (exists k cs j, s = slashes k ++ joined cs ++ slashes j /\ cs <> [] /\ Forall slash_free cs /\
     (cs = [[]] \/ (hd [] cs <> [] /\ last cs [] <> []))).
Proof. split; [exact (dataset_strings s)|exact (group_strings s)]. Qed.
Print Assumptions C42_every_string.

(** ... and [dataset] gives the dataset named by the last component in the group the
    others lead to, or nothing if there is no such group or dataset. *)
Theorem C42_dataset g k gs x : keyed g -> Forall slash_free (gs ++ [x]) -> (gs = [] \/ hd [] gs <> []) ->
  let r := gi_dataset g (slashes k ++ joined (gs ++ [x])) in
  (forall d, r = Some d <-> exists g', in_group g gs g' /\ In (x, d) (gi_datasets g')) /\
  (r = None <-> ~ exists g' d, in_group g gs g' /\ In (x, d) (gi_datasets g')).
Proof.
  intros K HF HH r. pose proof (fun d => dataset_spec g k gs x d K HF HH) as S. split; [exact S|].
  unfold r in *. destruct (gi_dataset _ _) as [d|] eqn:E.
  - split; [discriminate|]. intros H. exfalso. apply H. destruct (proj1 (S d) eq_refl) as (g' & ?). eauto.
  - split; auto. intros _ (g' & d & H). pose proof (proj2 (S d) (ex_intro _ g' H)). congruence.
Qed.
Print Assumptions C42_dataset.

Theorem C42_group g k j cs : keyed g -> cs <> [] -> Forall slash_free cs ->
  (cs = [[]] \/ (hd [] cs <> [] /\ last cs [] <> [])) ->
  let r := gi_group g (slashes k ++ joined cs ++ slashes j) in
  (forall g', r = Some g' <-> in_group g cs g') /\ (r = None <-> ~ exists g', in_group g cs g').
Proof.
  intros K Hne HF HH r. pose proof (fun g' => group_spec g k j cs g' K Hne HF HH) as S. split; [exact S|].
  unfold r in *. destruct (gi_group _ _) as [d|] eqn:E.
  - split; [discriminate|]. intros H. exfalso. apply H. exists d. now apply S.
  - split; auto. intros _ (g' & H). apply S in H. congruence.
Qed.
Print Assumptions C42_group.

(** Leading slashes do not matter to either, trailing slashes not to [group]. *)
Theorem C42_slashes g k j s : gi_dataset g (slashes k ++ s) = gi_dataset g s /\
  gi_group g (slashes k ++ s ++ slashes j) = gi_group g s.
Proof.
  assert (T : forall k s, trim_start (slashes k ++ s) = trim_start s).
  { clear. intros k s. induction k as [|k IH]; [reflexivity|]. cbn [slashes repeat app trim_start].
    rewrite N.eqb_refl. exact IH. }
  split; [unfold gi_dataset; now rewrite T|].
  unfold gi_group. rewrite T. f_equal. f_equal. destruct (trim_start_split s) as (k' & E & H).
  rewrite E at 1. rewrite <- app_assoc, T. set (t := trim_start s) in *. clearbody t. clear E.
  destruct t as [|b u].
  - replace (slashes j) with (slashes j ++ []) by apply app_nil_r. cbn [app]. now rewrite T.
  - assert (Hb : b <> SLASH) by (eapply H; reflexivity).
    cbn [app trim_start]. rewrite (proj2 (N.eqb_neq b SLASH)) by auto.
    unfold trim_end. f_equal. change (b :: u ++ slashes j) with ((b :: u) ++ slashes j).
    rewrite rev_app_distr, rev_slashes, T. reflexivity.
Qed.
Print Assumptions C42_slashes.

(** Two steps are as good as one: a group's datasets are found below it. *)
Theorem C42_nested g p gs x g1 : p <> [] -> Forall slash_free p -> hd [] p <> [] -> last p [] <> [] ->
  Forall slash_free (gs ++ [x]) -> (gs = [] \/ hd [] gs <> []) -> keyed g ->
  gi_group g (joined p) = Some g1 -> gi_dataset g1 (joined (gs ++ [x])) = gi_dataset g (joined ((p ++ gs) ++ [x])).
Proof.
  intros Hp HF Hh Hl HG HH K E.
  assert (E0 : gi_group g (slashes 0 ++ joined p ++ slashes 0) = Some g1) by (cbn [slashes repeat app]; now rewrite app_nil_r).
  apply group_spec in E0; auto.
  assert (K1 : keyed g1).
  { clear -K E0. induction E0 as [g|g c g1 cs g' Hin Hg IH]; auto. apply IH. destruct (keyed_inv _ K) as (_ & _ & K3). eauto. }
  assert (X : forall d, gi_dataset g1 (joined (gs ++ [x])) = Some d <-> gi_dataset g (joined ((p ++ gs) ++ [x])) = Some d).
  { intros d. rewrite (dataset_spec g1 0 gs x d K1 HG HH).
    rewrite (dataset_spec g 0 (p ++ gs) x d K).
    - split; intros (g' & H1 & H2); exists g'; split; auto.
      + clear -E0 H1. induction E0 as [g|g c g1 cs g2 Hin Hg IH]; auto. cbn [app]. econstructor; eauto.
      + clear -E0 H1 K. revert g E0 H1 K. induction p as [|c p IH]; intros g E0 H1 K; cbn [app] in *.
        * inversion E0; subst. auto.
        * inversion E0 as [|? ? ga ? ? Ha Hga]; subst. inversion H1 as [|? ? gb ? ? Hb Hgb]; subst.
          destruct (keyed_inv _ K) as (_ & K2 & K3). apply hget_in in Ha as Ea; auto. apply hget_in in Hb as Eb; auto.
          assert (ga = gb) by congruence. subst gb. eapply IH; eauto.
    - rewrite <- app_assoc. apply Forall_app. auto.
    - right. destruct p; [contradiction|auto]. }
  destruct (gi_dataset g1 _) as [d|] eqn:E1, (gi_dataset g (joined ((p ++ gs) ++ [x]))) as [d'|] eqn:E2; auto.
  - symmetry. now apply X.
  - pose proof (proj1 (X d) eq_refl). congruence.
  - pose proof (proj2 (X d') eq_refl). congruence.
Qed.
Print Assumptions C42_nested.

(** The root itself is not found by [group]: "/" is looked up as a group with no name. *)
Theorem C42_root_refuted g k : keyed g -> ~ In [] (map fst (gi_groups g)) -> gi_group g (slashes k) = None.
Proof.
  intros K H. replace (slashes k) with (slashes k ++ joined [[]] ++ slashes 0) by (cbn [joined app slashes repeat]; apply app_nil_r).
  apply (C42_group g k 0 [[]] K); [discriminate|repeat constructor; easy|now left|].
  intros (g' & Hg). inversion Hg as [|? ? g1 ? ? Hin _]; subst. apply H. apply in_map_iff. exists ([], g1). auto.
Qed.
Print Assumptions C42_root_refuted.

(** [reader] and [streamer] open the dataset found, in the file that was indexed. *)
Theorem C42_open g s :
  (forall d, gi_path g <> None -> gi_dataset g s = Some d -> exists p, gi_path g = Some p /\ gi_open g s = Ok (p, d)) /\
  (gi_path g = None \/ gi_dataset g s = None -> gi_open g s = Err EMissing).
Proof.
  unfold gi_open. destruct (gi_path g) as [p|].
  - split; [intros d _ ->; eauto|]. intros [H| ->]; [discriminate|reflexivity].
  - split; [intros d H; now contradiction H|reflexivity].
Qed.
Print Assumptions C42_open.

(** "//g/x" in the example index, and a name that is not there. *)
Example C42_case : keyed (i_root ex_index) /\
  gi_dataset (i_root ex_index) [47; 47; 103; 47; 120] = Some ex_ds /\
  gi_dataset (i_root ex_index) [103; 47; 121] = None /\
  gi_group (i_root ex_index) [47; 103; 47; 47] = Some (mkGroup tree_path [([120], ex_ds)] []) /\
  ~ In [] (map fst (gi_groups (i_root ex_index))).
Proof.
  split; [|repeat split; try reflexivity].
  - repeat constructor; cbn; intuition discriminate.
  - cbn. intuition discriminate.
Qed.

(** ** C43 *)

(** After indexing, a path finds exactly the datasets with storage of the file, each with
    its own index; and every group remembers the file. *)
Theorem C43_exact m path root i : named root -> index_file m path root = Ok i ->
  (forall gs x, Forall (fun c => c <> [] /\ slash_free c) (gs ++ [x]) -> forall k ds,
     gi_dataset (i_root i) (slashes k ++ joined (gs ++ [x])) = Some ds <->
     exists d, h5_dataset root gs x d /\ has_storage d /\ datasetd_index m d = Ok ds) /\
  keyed (i_root i) /\ (forall gs g, in_group (i_root i) gs g -> gi_path g = path) /\ i_path i = path.
Proof.
  intros HN E. unfold index_file in E. apply bind_ok in E as (g & Eg & E). apply ok_inj in E. subst i. cbn [i_root i_path].
  destruct (index_group_ok m path root [] g HN Eg) as (K & _).
  destruct (index_all_ok m path root [] g HN Eg) as (_ & _ & HP).
  split; [|auto]. intros gs x HF k ds. rewrite dataset_spec; auto.
  - exact (datasets_match m path root [] g HN Eg gs x ds).
  - eapply Forall_impl; [|exact HF]. cbn beta. tauto.
  - destruct gs as [|c gs]; [now left|]. right. apply Forall_inv in HF. cbn [hd]. apply HF.
Qed.
Print Assumptions C43_exact.

(** Groups are found exactly where the file has groups. *)
Theorem C43_groups m path root i : named root -> index_file m path root = Ok i -> forall gs,
  (exists g, in_group (i_root i) gs g) <-> (exists g, h5_group root gs g).
Proof.
  intros HN E gs. unfold index_file in E. apply bind_ok in E as (g & Eg & E). apply ok_inj in E. subst i. cbn [i_root].
  destruct (groups_match m path gs root [] g HN Eg) as [M1 M2]. split.
  - intros (r & Hr). apply M1 in Hr as (g' & Hg & _). eauto.
  - intros (g' & Hg). destruct (M2 g' Hg) as (_ & r' & E'). exists r'. apply M1. eauto.
Qed.
Print Assumptions C43_groups.

(** Indexing succeeds exactly if every group can be listed and every dataset with storage
    can be indexed: one that cannot makes the whole fail. *)
Theorem C43_succeeds m path root : named root ->
  (exists i, index_file m path root = Ok i) <->
  ((forall gs g, h5_group root gs g -> h_lists g = true) /\
   (forall gs x d, h5_dataset root gs x d -> has_storage d -> exists ds, datasetd_index m d = Ok ds)).
Proof.
  intros HN. unfold index_file. split.
  - intros (i & E). apply bind_ok in E as (g & Eg & _). destruct (index_all_ok m path root [] g HN Eg) as (A & B & _). auto.
  - intros [HL HD]. destruct (index_group_total m path root [] HL HD) as (g & ->). cbn [bind]. eauto.
Qed.
Print Assumptions C43_succeeds.
Example C43_case : named ex_tree /\ (forall m, index_file m tree_path ex_tree = Ok ex_index) /\
  h5_dataset ex_tree [[103]] [120] ex_h5 /\ has_storage ex_h5 /\
  h5_dataset ex_tree [[103]] [121] unalloc_h5 /\ ~ has_storage unalloc_h5.
Proof.
  split; [exact ex_tree_named|]. split; [exact ex_tree_indexed|].
  assert (G : h5_group ex_tree [[103]] (mkHG true [([120], HData ex_h5); ([121], HData unalloc_h5)])).
  { econstructor; [|constructor]. cbn. auto. }
  split; [eexists; split; [exact G|cbn; auto]|]. split; [now left|]. split; [eexists; split; [exact G|cbn; auto]|].
  intros [H|H]; [discriminate|now apply H].
Qed.
