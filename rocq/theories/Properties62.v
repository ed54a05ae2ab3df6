(** * C86: how large an index is. *)
From Coq Require Import List NArith Lia Bool Permutation.
From Verif Require Import Base Spec Chunk Dataset IndexTree Serde SpecSerde SpecTree SerdeProofs SerdeTyped TreeProofs ChunkProofs
  Examples Properties7.
Import ListNotations.
Open Scope N_scope.

(** ** Specification *)

(** The bytes a dataset of rank [D] with [n] chunks takes, without its name. *)
Definition dataset_size (D : nat) (n : N) (gzip : bool) : N :=
  86 + (if gzip then 1 else 0) + 48 * N.of_nat D + (16 + 8 * N.of_nat D) * n.
(** A name, a path that may be absent. *)
Definition name_size (s : str) : N := 8 + lenN s.
Definition path_size (p : option str) : N := match p with Some s => 9 + lenN s | None => 1 end.
Definition has {A} (o : option A) : bool := match o with Some _ => true | None => false end.

Definition sum {A} (f : A -> N) : list A -> N :=
  fix go l := match l with [] => 0 | x :: l' => f x + go l' end.
Fixpoint group_size (g : gindex) : N :=
  let '(mkGroup p ds gs) := g in
  path_size p + 16 +
  sum (fun kv => name_size (fst kv) + dataset_size (length (d_shape (snd kv))) (lenN (d_chunks (snd kv))) (has (d_gzip (snd kv)))) ds +
  sum (fun kv => name_size (fst kv) + group_size (snd kv)) gs.
Definition index_size (i : index) : N := path_size (i_path i) + group_size (i_root i).

(** ** Proof *)

Lemma u64_len n : lenN (ser_u64 n) = 8. Proof. unfold lenN, ser_u64. now rewrite le_bytes_length. Qed.
Lemma u32_len n : lenN (ser_u32 n) = 4. Proof. unfold lenN, ser_u32. now rewrite le_bytes_length. Qed.
Lemma words_len l : lenN (flat_map ser_u64 l) = 8 * lenN l.
Proof.
  induction l as [|x l IH]; [reflexivity|]. cbn [flat_map]. rewrite lenN_app, IH, u64_len.
  unfold lenN. cbn [length]. lia.
Qed.
Lemma arr_len l : lenN (ser_arr l) = 8 + 8 * lenN l.
Proof. unfold ser_arr, ser_seq. now rewrite lenN_app, u64_len, words_len. Qed.
Lemma bytes_len v : lenN (ser_bytes v) = 8 + lenN v.
Proof. unfold ser_bytes. now rewrite lenN_app, u64_len. Qed.
Lemma chunks_len D cs : Forall (typed_chunk D) cs -> lenN (ser_chunks cs) = 8 + (16 + 8 * N.of_nat D) * lenN cs.
Proof.
  intros H. unfold ser_chunks, chunk_bytes_of. rewrite bytes_len, words_len. f_equal.
  induction H as [|c cs (_ & _ & L & _) _ IH]; [cbn; lia|].
  unfold slice_as_u64s in *. cbn [flat_map]. rewrite lenN_app, N.mul_add_distr_l, IH.
  unfold lenN. cbn [as_u64s length]. lia.
Qed.
Lemma datatype_len d : lenN (ser_datatype d) = 12.
Proof. destruct d; cbn [ser_datatype]; now rewrite lenN_app, u32_len, u64_len. Qed.

Lemma datasetd_len D d : typed_dataset D d ->
  lenN (ser_datasetd d) = dataset_size (length (d_shape d)) (lenN (d_chunks d)) (has (d_gzip d)).
Proof.
  intros T. pose proof (ty_shape _ _ T) as [L1 _]. pose proof (ty_chunk_shape _ _ T) as [L2 _].
  pose proof (ty_reduced _ _ T) as [L3 _]. pose proof (ty_scaled _ _ T) as [L4 _].
  pose proof (ty_dim _ _ T) as [L5 _]. pose proof (ty_chunk_dim _ _ T) as [L6 _].
  unfold ser_datasetd, ser_dataset, ser_order. rewrite !lenN_app, !u32_len, datatype_len, u64_len, !arr_len.
  rewrite (chunks_len D) by apply T.
  rewrite L1. unfold dataset_size.
  assert (X : forall l : list N, length l = D -> lenN l = N.of_nat D) by (intros l <-; reflexivity).
  rewrite !X by assumption. clear.
  assert (B : lenN (ser_bool (d_shuffle d)) = 1) by reflexivity. rewrite B.
  assert (G : lenN (ser_option (fun z => [z]) (d_gzip d)) = 1 + if has (d_gzip d) then 1 else 0) by (destruct (d_gzip d); reflexivity).
  rewrite G. generalize (if has (d_gzip d) then 1 else 0). generalize ((16 + 8 * N.of_nat D) * lenN (d_chunks d)).
  intros; lia.
Qed.

Lemma path_len p b : ser_opt_path p = Ok b -> lenN b = path_size p.
Proof.
  destruct p as [s|]; cbn [ser_opt_path path_size].
  - intros E. apply bind_ok in E as (x & Ex & E). injection E as <-. unfold ser_path in Ex.
    destruct (utf8 s); [|discriminate]. injection Ex as <-. unfold lenN at 1. cbn [length].
    pose proof (bytes_len s) as H. unfold lenN in *. lia.
  - intros [= <-]. reflexivity.
Qed.

Lemma group_len : forall g b, typed_group g -> ser_group g = Ok b -> lenN b = group_size g.
Proof.
  induction g as [p ds gs IH] using gindex_ind'. intros b T E. inversion T as [? ? ? T1 T2 T3 T4 T5]; subst.
  rewrite ser_group_eq in E. apply bind_ok in E as (q & Eq & E). apply bind_ok in E as (subs & Es & E).
  apply ok_inj in E. rewrite <- E. clear E. cbn [group_size]. rewrite !lenN_app, (path_len _ _ Eq), u64_len.
  assert (HD : lenN (ser_seq (fun kv => ser_bytes (fst kv) ++ ser_datasetd (snd kv)) ds) =
    8 + sum (fun kv => name_size (fst kv) + dataset_size (length (d_shape (snd kv))) (lenN (d_chunks (snd kv))) (has (d_gzip (snd kv)))) ds).
  { unfold ser_seq. rewrite lenN_app, u64_len. f_equal. clear - T3.
    induction T3 as [|[k d] ds (D & HD) _ IHT]; [reflexivity|]. cbn [flat_map sum fst snd] in *.
    rewrite !lenN_app, IHT, bytes_len, (datasetd_len D d HD). unfold name_size. lia. }
  rewrite HD.
  assert (HS : lenN subs = sum (fun kv => name_size (fst kv) + group_size (snd kv)) gs).
  { clear - IH T5 Es. revert subs Es. induction gs as [|[k g] gs IHg]; intros subs Es.
    - injection Es as <-. reflexivity.
    - change (ser_subs ((k, g) :: gs)) with
        (let* x := ser_group g in let* r := ser_subs gs in Ok (ser_bytes k ++ x ++ r)) in Es.
      apply bind_ok in Es as (x & Ex & Es). apply bind_ok in Es as (r & Er & Es). apply ok_inj in Es. rewrite <- Es.
      inversion IH as [|? ? I1 I2]; subst. inversion T5 as [|? ? T6 T7]; subst. cbn [sum fst snd] in *.
      rewrite !lenN_app, bytes_len, (I1 _ T6 Ex), (IHg I2 T7 _ Er). unfold name_size. lia. }
  rewrite HS. clear. lia.
Qed.

(** C86: the size of a serialized index, to the byte. *)
Theorem C86_size i b : typed_index i -> bincode_serialize i = Ok b -> lenN b = index_size i.
Proof.
  intros [TP TG] E. unfold bincode_serialize, ser_index in E. apply bind_ok in E as (p & Ep & E).
  apply bind_ok in E as (g & Eg & E). injection E as <-. unfold index_size.
  now rewrite lenN_app, (path_len _ _ Ep), (group_len _ _ TG Eg).
Qed.

(** The part of one dataset of an HDF5 file: the number of chunks the library reports, or one
    if the dataset is not chunked; the size of the data, the chunks and the type do not matter. *)
Definition deflated (h : h5ds) : bool := existsb (fun f => match f with FDeflate _ => true | _ => false end) (h_filters h).
Definition stored_chunks (h : h5ds) : N := if h_is_chunked h then lenN (h_visit h) else 1.

Lemma scan_gzip l : forall sh gz r, scan_filters l sh gz = Ok r ->
  has (snd r) = has gz || existsb (fun f => match f with FDeflate _ => true | _ => false end) l.
Proof.
  induction l as [|[|z|] l IH]; intros sh gz r E; cbn [scan_filters existsb] in *; try discriminate.
  - injection E as <-. cbn [snd]. now rewrite orb_false_r.
  - apply IH in E. exact E.
  - apply IH in E. rewrite E. cbn [has]. now rewrite orb_true_r.
Qed.
Lemma new_fields m dt o sh cs csh s gz d : dataset_new m dt o sh cs csh s gz = Ok d ->
  d_shape d = sh /\ d_chunks d = cs /\ d_gzip d = gz.
Proof.
  unfold dataset_new. intros E. repeat (apply bind_ok in E as (? & _ & E)). injection E as <-. auto.
Qed.

Lemma index_counts m h d : dataset_index m h = Ok d ->
  d_shape d = h_shape h /\ lenN (d_chunks d) = stored_chunks h /\ has (d_gzip d) = deflated h.
Proof.
  intros E.
  unfold dataset_index in E. apply bind_ok in E as ([sh gz] & Ef & E). apply bind_ok in E as (cs & Ec & E).
  apply bind_ok in E as (grid & _ & E). apply bind_ok in E as (n & _ & E). apply bind_ok in E as (u & _ & E).
  apply new_fields in E as (-> & -> & ->). apply scan_gzip in Ef. cbn [snd has orb] in Ef.
  split; auto. split; [|exact Ef]. unfold stored_chunks.
  assert (X : lenN (chunk_sort cs) = lenN cs) by (unfold lenN; f_equal; apply Permutation_length; apply chunk_sort_perm).
  rewrite X. destruct (h_is_chunked h), (h_offset h); try discriminate; injection Ec as <-; reflexivity.
Qed.
Theorem C86_dataset m h d : typed_h5 h -> dataset_index m h = Ok d ->
  lenN (ser_datasetd d) = dataset_size (length (h_shape h)) (stored_chunks h) (deflated h).
Proof.
  intros T E. rewrite (datasetd_len (length (h_shape h))) by exact (index_typed m h d T E).
  destruct (index_counts m h d E) as (-> & -> & ->). reflexivity.
Qed.

(** The part of a group: a header with the path of the file, which every group repeats, its
    datasets that have storage, and its groups. *)
Definition member_size (rec : h5group -> N) (kv : str * h5member) : N :=
  match snd kv with
  | HData h => if allocated h
      then name_size (fst kv) + dataset_size (length (h_shape h)) (stored_chunks h) (deflated h) else 0
  | HGroup g => name_size (fst kv) + rec g
  | HBroken => 0
  end.
Fixpoint tree_size (path : option str) (g : h5group) : N :=
  let '(mkHG _ l) := g in path_size path + 16 + sum (member_size (tree_size path)) l.

Lemma sizes_of_group m path : forall g name r, named g -> index_group m path name g = Ok r ->
  group_size r = tree_size path g.
Proof.
  induction g as [b l IH] using h5_ind. intros name r HN E.
  inversion HN as [? ? N1 N2 N3]; subst.
  rewrite index_group_eq in E. destruct b; [|discriminate].
  apply bind_ok in E as (ds & Ed & E). apply bind_ok in E as (gs & Eg & E). apply ok_inj in E. subst r.
  destruct (index_datasets_ok m l ds Ed) as (D1 & D2 & D3). destruct (index_subs_ok m path name l gs N2 Eg) as (G1 & G2 & G3).
  rewrite (hcollect_nodup ds), (hcollect_nodup gs) by auto. cbn [group_size tree_size].
  rewrite <- !N.add_assoc. do 2 f_equal.
  clear - IH N2 N3 Ed Eg.
  revert ds gs Ed Eg. induction l as [|[k x] l IHl]; intros ds gs Ed Eg.
  - injection Ed as <-. injection Eg as <-. reflexivity.
  - inversion N2 as [|? ? [_ Hk] N2']; subst.
    assert (IH' : forall c g, In (c, HGroup g) l -> forall name r, named g -> index_group m path name g = Ok r -> group_size r = tree_size path g)
      by (intros; eapply IH; eauto; right; eauto).
    assert (N3' : forall c g, In (c, HGroup g) l -> named g) by (intros c g0 Hc; eapply N3; right; eauto).
    specialize (IHl IH' N2' N3'). cbn [sum]. unfold member_size at 1. cbn [fst snd].
    destruct x as [h|g|]; cbn [index_datasets] in Ed.
    + change (index_subs m path name ((k, HData h) :: l)) with (index_subs m path name l) in Eg.
      destruct (allocated h); [|rewrite N.add_0_l; now apply IHl].
      apply bind_ok in Ed as (d & E1 & Ed). apply bind_ok in Ed as (r & E2 & Ed). apply ok_inj in Ed. subst ds.
      cbn [sum fst snd]. unfold datasetd_index in E1. destruct (_ <=? _)%nat; [|discriminate].
      destruct (index_counts m h d E1) as (-> & -> & ->). rewrite <- N.add_assoc. f_equal. now apply IHl.
    + change (index_subs m path name ((k, HGroup g) :: l)) with
        (let* x := index_group m path (name ++ SLASH :: k) g in
         let* r := index_subs m path name l in Ok ((last_component (name ++ SLASH :: k), x) :: r)) in Eg.
      apply bind_ok in Eg as (x & E1 & Eg). apply bind_ok in Eg as (r & E2 & Eg). apply ok_inj in Eg. subst gs.
      cbn [sum fst snd]. unfold last_component. rewrite split_last by auto.
      rewrite (IH k g (or_introl eq_refl) _ _ (N3 k g (or_introl eq_refl)) E1).
      rewrite <- (IHl ds r Ed E2). clear. lia.
    + change (index_subs m path name ((k, HBroken) :: l)) with (index_subs m path name l) in Eg.
      rewrite N.add_0_l. now apply IHl.
Qed.

(** C86: the size of the index of a file, from what the file holds. *)
Theorem C86_file m path root i b : named root -> typed_tree root -> typed_path path ->
  index_file m path root = Ok i -> bincode_serialize i = Ok b ->
  lenN b = path_size path + tree_size path root.
Proof.
  intros HN HT HP E Eb. unfold index_file in E. apply bind_ok in E as (g & Eg & E). injection E as <-.
  assert (TI : typed_index (mkIndex path g)) by (split; auto; exact (index_group_typed m path root [] g HN HT HP Eg)).
  rewrite (C86_size _ _ TI Eb). unfold index_size. cbn [i_path i_root].
  now rewrite (sizes_of_group m path root [] g HN Eg).
Qed.

(** ** Cases *)
Example C86_case :
  dataset_size 2 4 false = 310 /\
  named ex_tree /\ typed_tree ex_tree /\ typed_path tree_path /\
  exists b, bincode_serialize ex_index = Ok b /\ index_file Release tree_path ex_tree = Ok ex_index /\
    lenN b = path_size tree_path + tree_size tree_path ex_tree /\ 300 < lenN b.
Proof.
  split; [reflexivity|]. destruct C41_case as (N & T & P & _ & X). repeat (split; [assumption|]).
  destruct (bincode_serialize ex_index) as [b| | | |] eqn:E; try (vm_compute in E; discriminate).
  exists b. split; auto. split; auto. split.
  - exact (C86_file Release tree_path ex_tree ex_index b N T P (X Release) E).
  - rewrite (C86_file Release tree_path ex_tree ex_index b N T P (X Release) E). vm_compute. reflexivity.
Qed.
