(** * Property theorems C78: the order in which the hash maps (and the HDF5 library) list
    their entries is invisible.

    [alike], [alike_index], [alike_file] are in SpecAlike. *)
From Coq Require Import Permutation.
From Verif Require Import Base Spec Chunk Dataset Extent Slicer Filters Reader Examples IndexTree Serde SpecSerde SpecTree SpecAlike
  SerdeProofs SerdeTyped TreeProofs AlikeProofs Tools Open Python Properties7.

(** ** Lookups *)

(** Every path finds the same dataset, or finds none in either. *)
Theorem C78_lookup g h s : alike g h -> gi_dataset g s = gi_dataset h s.
Proof. apply dataset_alike. Qed.
Print Assumptions C78_lookup.
(** Every path finds groups in both or in neither, and they are alike. *)
Theorem C78_group g h s : alike g h ->
  (gi_group g s = None /\ gi_group h s = None) \/
  exists g' h', gi_group g s = Some g' /\ gi_group h s = Some h' /\ alike g' h'.
Proof.
  intros H. pose proof (group_alike g h s H) as B. unfold both_alike in B.
  destruct (gi_group g s) as [a|]; destruct (gi_group h s) as [b|]; try contradiction; [right; eauto|now left].
Qed.
Print Assumptions C78_group.
(** So the same readers are opened, on the same files, or opening fails the same way. *)
Theorem C78_open m fs g h s : alike g h ->
  open_reader m fs g s = open_reader m fs h s /\ open_streamer m g s = open_streamer m h s.
Proof.
  intros H. unfold open_reader, open_streamer, gi_open. rewrite (dataset_alike g h s H).
  apply alike_inv in H as (-> & _). auto.
Qed.
Print Assumptions C78_open.

(** From Python: the same datasets are found, and the same names are listed, each once, in
    whatever order. *)
Theorem C78_python i j group s : alike_index i j ->
  py_lookup i group s = py_lookup j group s /\
  (py_dataset i s group = None <-> py_dataset j s group = None) /\
  Permutation (py_datasets i group) (py_datasets j group) /\
  NoDup (py_datasets i group) /\
  (forall p q, py_dataset i s group = Some p -> py_dataset j s group = Some q -> py_handle p = py_handle q).
Proof.
  intros [_ H].
  assert (E : py_lookup i group s = py_lookup j group s).
  { unfold py_lookup. destruct group as [g|]; [|now apply dataset_alike].
    destruct (C78_group _ _ g H) as [[-> ->]|(a & b & -> & -> & Hab)]; auto. now apply dataset_alike. }
  split; auto. split; [|split; [|split]].
  - unfold py_dataset. rewrite E. destruct (py_lookup j group s); split; congruence.
  - unfold py_datasets. destruct group as [g|].
    + destruct (C78_group _ _ g H) as [[-> ->]|(a & b & -> & -> & Hab)]; auto.
      apply alike_inv in Hab as (_ & D1 & D2 & _ & _ & DD & _). apply Permutation_map. now apply entries_perm.
    + apply alike_inv in H as (_ & D1 & D2 & _ & _ & DD & _). apply Permutation_map. now apply entries_perm.
  - unfold py_datasets. destruct group as [g|].
    + destruct (C78_group _ _ g H) as [[-> _]|(a & b & -> & _ & Hab)]; [constructor|].
      apply alike_inv in Hab as (_ & D1 & _). exact D1.
    + apply alike_inv in H as (_ & D1 & _). exact D1.
  - intros p q Ep Eq. unfold py_dataset in Ep, Eq. rewrite E in Ep.
    assert (py_handle p = match py_lookup i group s with Some d => Ok d | None => Panic end) as ->.
    { destruct (py_lookup j group s); [|discriminate]. injection Ep as <-. unfold py_handle, py_lookup. cbn [ph_group ph_idx ph_ds].
      destruct group; auto. destruct (gi_group (i_root i) l); auto. }
    assert (py_handle q = match py_lookup j group s with Some d => Ok d | None => Panic end) as ->.
    { destruct (py_lookup j group s) eqn:El; [|discriminate]. injection Eq as <-. unfold py_handle, py_lookup in *. cbn [ph_group ph_idx ph_ds] in *.
      destruct group; [destruct (gi_group (i_root j) l); [|discriminate]|]; now rewrite El. }
    now rewrite E.
Qed.
Print Assumptions C78_python.

(** ** Saving, loading *)

(** Two alike indexes are saved in the same number of bytes, or neither is; each is read
    back as it was saved, so what is loaded is alike to both. *)
Theorem C78_saved i j : alike_index i j -> typed_index i ->
  (exists a b, bincode_serialize i = Ok a /\ bincode_serialize j = Ok b /\ length a = length b /\
     bincode_deserialize a = Ok i /\ bincode_deserialize b = Ok j) \/
  (bincode_serialize i = Err EDe /\ bincode_serialize j = Err EDe).
Proof.
  intros [HP HA] T. assert (TJ : typed_index j).
  { destruct T as [T1 T2]. split; [now rewrite <- HP|]. exact (typed_alike _ _ HA T2). }
  destruct (ser_path_err (i_path i)) as [(p & Ep)|Ep].
  - destruct (ser_group_ok (i_root i)) as [G1 [(g & Eg)|Eg]].
    + assert (UP : utf8_path (i_path i)) by (apply ser_path_ok; eauto). assert (UG : utf8_group (i_root i)) by (apply G1; eauto).
      pose proof (utf8_alike _ _ HA UG) as UG'.
      destruct (C41_round_trip i T UP UG) as (a & Ea & Da & _).
      destruct (C41_round_trip j TJ (eq_ind _ utf8_path UP _ HP) UG') as (b & Eb & Db & _).
      left. exists a, b. repeat (split; [auto|]); auto.
      unfold bincode_serialize, ser_index in Ea, Eb. rewrite <- HP in Eb. rewrite Ep in Ea, Eb. cbn [bind] in Ea, Eb.
      apply bind_ok in Ea as (g1 & Eg1 & Ea). apply bind_ok in Eb as (g2 & Eg2 & Eb). apply ok_inj in Ea, Eb. subst a b.
      rewrite !app_length. f_equal. exact (size_alike _ _ _ _ HA Eg1 Eg2).
    + right. assert (N : ~ utf8_group (i_root i)). { intros U. apply G1 in U as (x & Ex). congruence. }
      split; apply C41_not_utf8; intros [_ U]; apply N; auto. exact (utf8_alike _ _ (alike_sym _ _ HA) U).
  - right. assert (N : ~ utf8_path (i_path i)). { intros U. apply ser_path_ok in U as (x & Ex). congruence. }
    split; apply C41_not_utf8; intros [U _]; apply N; auto. now rewrite HP.
Qed.
Print Assumptions C78_saved.

(** hfxlst prints the same source path, and the same names with the same shapes in whatever
    order (a build with bincode only). *)
Theorem C78_listed i j a b fs fs' p p' : alike_index i j -> typed_index i ->
  bincode_serialize i = Ok a -> bincode_serialize j = Ok b -> fs p = Some a -> fs' p' = Some b ->
  exists l l', hfxlst false true (fun _ => Err EDe) fs p = Ok (i_path i, l) /\
    hfxlst false true (fun _ => Err EDe) fs' p' = Ok (i_path i, l') /\ Permutation l l'.
Proof.
  intros H T Ea Eb F1 F2. destruct (C78_saved i j H T) as [(a' & b' & Ea' & Eb' & _ & Da & Db)|[E _]]; [|congruence].
  rewrite Ea in Ea'. rewrite Eb in Eb'. apply ok_inj in Ea', Eb'. subst a' b'.
  unfold hfxlst, read_index. rewrite F1, F2, Da, Db. cbn [bind]. destruct H as [HP HA].
  eexists. eexists. split; [reflexivity|]. split; [rewrite HP; reflexivity|]. apply Permutation_map.
  apply alike_inv in HA as (_ & D1 & D2 & _ & _ & DD & _). now apply entries_perm.
Qed.
Print Assumptions C78_listed.

(** ** Indexing *)

(** A file whose groups list their members in another order is indexed alike, if it can be
    indexed at all. *)
Theorem C78_indexed m path g h i : named g -> named h -> alike_file g h -> index_file m path g = Ok i ->
  exists j, index_file m path h = Ok j /\ alike_index i j.
Proof.
  intros NG NH H E. unfold index_file in *. apply bind_ok in E as (r & Er & E). apply ok_inj in E. subst i.
  destruct (indexed_alike m path g h [] r NG NH H Er) as (r' & -> & A). cbn [bind]. eexists. split; [reflexivity|]. split; auto.
Qed.
Print Assumptions C78_indexed.
(** An index made from a file is alike to itself: the hypotheses above are met by all
    indexes that are made. *)
Theorem C78_reached m path g i : named g -> index_file m path g = Ok i -> alike_index i i.
Proof.
  intros N E. unfold index_file in E. apply bind_ok in E as (r & Er & E). apply ok_inj in E. subst i. split; auto.
  apply alike_refl. exact (proj1 (index_group_ok m path g [] r N Er)).
Qed.
Print Assumptions C78_reached.
(** Being alike is an equivalence: orders may change any number of times. *)
Theorem C78_equivalence i j k : alike_index i j -> alike_index j k -> alike_index j i /\ alike_index i k.
Proof.
  intros [P1 A1] [P2 A2]. split; [split; [auto|now apply alike_sym]|]. split; [congruence|]. exact (alike_trans _ _ _ A1 A2).
Qed.
Print Assumptions C78_equivalence.

(** From the file to the reader: two runs of the program that index a file, save the index
    and load it, with whatever orders of listing in the library, in the maps that are saved
    ([i'], [j']) and in the maps that are loaded ([i''], [j'']), open the same readers. *)
Theorem C78_two_runs m m' fs path g h i j i' j' a b x y i'' j'' s :
  named g -> named h -> typed_tree g -> typed_path path -> alike_file g h ->
  index_file m path g = Ok i -> index_file m path h = Ok j ->
  alike_index i i' -> alike_index j j' ->
  bincode_serialize i' = Ok a -> bincode_serialize j' = Ok b ->
  bincode_deserialize a = Ok x -> bincode_deserialize b = Ok y ->
  alike_index x i'' -> alike_index y j'' ->
  length a = length b /\ alike_index i'' j'' /\
  open_reader m' fs (i_root i'') s = open_reader m' fs (i_root j'') s /\
  open_streamer m' (i_root i'') s = open_streamer m' (i_root j'') s.
Proof.
  intros NG NH TG TP AF Ei Ej Hi Hj Ea Eb Ex Ey Hx Hy.
  destruct (C78_indexed m path g h i NG NH AF Ei) as (j0 & Ej0 & A). rewrite Ej in Ej0. apply ok_inj in Ej0. subst j0.
  assert (TI : typed_index i).
  { unfold index_file in Ei. apply bind_ok in Ei as (r & Er & Ei). apply ok_inj in Ei. subst i. split; [exact TP|].
    exact (index_group_typed m path g [] r NG TG TP Er). }
  assert (TI' : typed_index i').
  { destruct Hi as [P1 A1]. destruct TI as [T1 T2]. split; [now rewrite <- P1|exact (typed_alike _ _ A1 T2)]. }
  assert (AIJ : alike_index i' j').
  { destruct Hi as [P1 A1], Hj as [P2 A2], A as [P3 A3]. split; [congruence|].
    apply (alike_trans _ _ _ (alike_sym _ _ A1)). exact (alike_trans _ _ _ A3 A2). }
  destruct (C78_saved i' j' AIJ TI') as [(a' & b' & Ea' & Eb' & L & Da & Db)|[E _]]; [|congruence].
  rewrite Ea in Ea'. rewrite Eb in Eb'. apply ok_inj in Ea', Eb'. subst a' b'.
  rewrite Ex in Da. rewrite Ey in Db. apply ok_inj in Da, Db. subst x y.
  split; auto. assert (AA : alike_index i'' j'').
  { destruct Hx as [P1 A1], Hy as [P2 A2], AIJ as [P3 A3]. split; [congruence|].
    apply (alike_trans _ _ _ (alike_sym _ _ A1)). exact (alike_trans _ _ _ A3 A2). }
  split; auto. apply C78_open. apply AA.
Qed.
Print Assumptions C78_two_runs.

(** ** A case *)

(** The example file with its members listed backwards and without the broken one. *)
Definition turned_tree : h5group :=
  mkHG true [([103], HGroup (mkHG true [([121], HData unalloc_h5); ([120], HData ex_h5)])); ([120], HData ex_h5)].
(** A group with two datasets and two groups, in two orders. *)
Definition two_way : gindex := mkGroup tree_path [([120], ex_ds); ([121], ex_ds)]
  [([103], mkGroup tree_path [([120], ex_ds)] []); ([104], mkGroup tree_path [] [])].
Definition other_way : gindex := mkGroup tree_path [([121], ex_ds); ([120], ex_ds)]
  [([104], mkGroup tree_path [] []); ([103], mkGroup tree_path [([120], ex_ds)] [])].
Lemma one_leaf ds : NoDup (map fst ds) -> alike (mkGroup tree_path ds []) (mkGroup tree_path ds []).
Proof. intros H. constructor; auto; try (constructor; fail); try tauto. intros x g h []. Qed.
Example C78_case : alike_file ex_tree turned_tree /\ ex_tree <> turned_tree /\ named turned_tree /\
  (forall m, index_file m tree_path turned_tree = Ok ex_index) /\
  alike two_way other_way /\ two_way <> other_way /\
  gi_dataset two_way [103; 47; 120] = Some ex_ds /\ gi_dataset other_way [103; 47; 120] = Some ex_ds.
Proof.
  assert (HS : slash_free [120] /\ slash_free [103] /\ slash_free [121]).
  { repeat split; apply slash_free_b; reflexivity. }
  destruct HS as (S1 & S2 & S4).
  split; [|split; [discriminate|split; [|split; [|split; [|split; [discriminate|split; reflexivity]]]]]].
  - constructor.
    + intros x d. cbn [In]. split.
      * intros [E|[E|[E|[]]]]; try discriminate. auto.
      * intros [E|[E|[]]]; try discriminate. auto.
    + intros x. cbn [In]. split.
      * intros (g & [E|[E|[E|[]]]]); try discriminate. injection E as <- <-. eexists. left. reflexivity.
      * intros (g & [E|[E|[]]]); try discriminate. injection E as <- <-. eexists. right. left. reflexivity.
    + intros x g h. cbn [In]. intros [E|[E|[E|[]]]] [F|[F|[]]]; try discriminate. injection E as _ <-. injection F as _ <-.
      constructor.
      * intros y d. cbn [In]. split; intros [E|[E|[]]]; auto.
      * intros y. cbn [In]. split; intros (k & [E|[E|[]]]); discriminate.
      * intros y k k'. cbn [In]. intros [E|[E|[]]]; discriminate.
  - constructor.
    + cbn. repeat constructor; cbn; intuition discriminate.
    + repeat constructor; cbn; auto; discriminate.
    + intros c g [E|[E|[]]]; try discriminate. injection E as _ <-. constructor.
      * cbn. repeat constructor; cbn; intuition discriminate.
      * repeat constructor; cbn; auto; discriminate.
      * intros c' g' [E|[E|[]]]; discriminate.
  - intros m. destruct m; reflexivity.
  - constructor.
    + cbn. repeat constructor; cbn; intuition discriminate.
    + cbn. repeat constructor; cbn; intuition discriminate.
    + cbn. repeat constructor; cbn; intuition discriminate.
    + cbn. repeat constructor; cbn; intuition discriminate.
    + intros x d. cbn [In]. tauto.
    + intros x. cbn [map fst In]. tauto.
    + intros x g h. cbn [In]. intros [E|[E|[]]] [F|[F|[]]]; try congruence.
      * injection E as <- <-. injection F as <-. apply one_leaf. cbn. repeat constructor. easy.
      * injection E as <- <-. injection F as <-. apply one_leaf. cbn. constructor.
Qed.
Print Assumptions C78_case.
