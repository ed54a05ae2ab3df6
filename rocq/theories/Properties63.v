(** * C87: the ways to make an index. *)
From Coq Require Import List NArith Lia Bool String.
From Verif Require Import Base Spec SpecText Chunk Dataset Slicer Reader IndexTree Serde SpecSerde SpecTree SerdeProofs TreeProofs
  Examples Tools Open Routes Properties7 Properties11.
Import ListNotations.
Open Scope N_scope.

(** C87: by path, by open HDF5 file, by open netCDF file: the same index, or the same
    failure, as long as the name stands for the same contents. *)
Theorem C87_agree m h5 fs p :
  path_index m h5 fs p = index_path m h5 fs p /\
  (let* f := h5_file h5 fs p in file_index m f) = index_path m h5 fs p /\
  (forall fs', fs' p = fs p -> netcdf_index m h5 fs' (mkNc p) = index_path m h5 fs p).
Proof.
  split; [reflexivity|]. unfold h5_file, netcdf_index, index_path. cbn [nf_name]. split.
  - destruct (fs p) as [b|]; cbn [bind]; auto. destruct (h5 b); reflexivity.
  - intros fs' ->. reflexivity.
Qed.

(** If the file is replaced or removed after it was opened, the index of the open HDF5 file is
    that of the old contents, that of the open netCDF file the one of the new, or an error.
    Readers open the file by name: those of the first index apply it to the new contents, or
    fail. *)
Theorem C87_replaced m h5 fs p f : h5_file h5 fs p = Ok f ->
  (exists b root, fs p = Some b /\ h5 b = Ok root /\ f = mkFile p root) /\
  file_index m f = index_path m h5 fs p /\
  forall fs',
    netcdf_index m h5 fs' (mkNc p) = index_path m h5 fs' p /\
    (fs' p = None -> netcdf_index m h5 fs' (mkNc p) = Err EOpen) /\
    (forall i, named (hf_root f) -> file_index m f = Ok i -> forall gs g, in_group (i_root i) gs g ->
       forall name,
       (fs' p = None -> forall r, open_reader m fs' g name <> Ok r) /\
       (forall r, open_reader m fs' g name = Ok r -> fs' p = Some (cr_file r)) /\
       (forall h, open_streamer m g name = Ok h -> hn_path h = p)).
Proof.
  intros E. split; [|split].
  - unfold h5_file in E. destruct (fs p) as [b|]; [|discriminate]. apply bind_ok in E as (root & E & H).
    injection H as <-. eauto.
  - rewrite <- (proj1 (proj2 (C87_agree m h5 fs p))). now rewrite E.
  - assert (EN : hf_name f = p).
    { unfold h5_file in E. destruct (fs p) as [b|]; [|discriminate]. apply bind_ok in E as (root & _ & H).
      now injection H as <-. }
    intros fs'. split; [reflexivity|]. split; [intros H; unfold netcdf_index, index_path; cbn [nf_name]; now rewrite H|].
    intros i HN Ei gs g Hg name. unfold file_index in Ei. rewrite EN in Ei.
    destruct (C43_exact m (Some p) (hf_root f) i HN Ei) as (_ & _ & HP & _). specialize (HP gs g Hg).
    unfold open_reader, open_streamer, gi_open, as_reader. rewrite HP.
    destruct (gi_dataset g name) as [ds|]; cbn [bind].
    + split; [intros ->; discriminate|]. split.
      * destruct (fs' p) as [b|]; [|discriminate]. intros r Er. unfold cache_new in Er.
        repeat (apply bind_ok in Er as (? & _ & Er)). now injection Er as <-.
      * intros h Eh. unfold as_handle in Eh. apply bind_ok in Eh as (? & _ & Eh). now injection Eh as <-.
    + split; [|split]; try discriminate.
Qed.

Lemma assoc_unique {A} (l : list (str * A)) k a b : NoDup (map fst l) -> In (k, a) l -> In (k, b) l -> a = b.
Proof.
  intros H Ha Hb. apply (hget_in k a l H) in Ha. apply (hget_in k b l H) in Hb. congruence.
Qed.

(** One dataset indexed by itself is what the index of the file has at its path; a dataset
    without storage, which the index of the file leaves out, is an error. *)
Theorem C87_dataset m path root i gs x d : named root -> index_file m path root = Ok i ->
  Forall (fun c => c <> [] /\ slash_free c) (gs ++ [x]) -> h5_dataset root gs x d ->
  (has_storage d -> exists ds, h5dataset_index m d = Ok ds /\
     forall k, gi_dataset (i_root i) (slashes k ++ joined (gs ++ [x])) = Some ds) /\
  (~ has_storage d -> (forall k, gi_dataset (i_root i) (slashes k ++ joined (gs ++ [x])) = None) /\
     ((length (h_shape d) <= 9)%nat -> exists e, h5dataset_index m d = Err e)).
Proof.
  intros HN E HF HD. destruct (C43_exact m path root i HN E) as (HX & _).
  specialize (HX gs x HF).
  assert (HU : forall d', h5_dataset root gs x d' -> d' = d).
  { intros d' HD'. clear - HN HD HD'. destruct HD as (g1 & G1 & I1). destruct HD' as (g2 & G2 & I2).
    revert g2 G2 I2 HN I1. induction G1 as [g|g c g1 cs g' Hc _ IH]; intros g2 G2 I2 HN I1; inversion G2 as [|? ? g3 ? ? Hc' G3]; subst;
      inversion HN as [b l N1 N2 N3]; subst; cbn [h_members] in *.
    - assert (X : HData d = HData d') by (eapply (assoc_unique l); eauto). congruence.
    - assert (X : HGroup g1 = HGroup g3) by (eapply (assoc_unique l); eauto).
      injection X as <-. eapply (IH g2); eauto. }
  split.
  - intros HS. destruct (proj2 (proj1 (C43_succeeds m path root HN) (ex_intro _ i E)) gs x d HD HS) as (ds & E1).
    exists ds. split; auto. intros k. apply HX. eauto.
  - intros HS. split.
    + intros k. destruct (gi_dataset (i_root i) (slashes k ++ joined (gs ++ [x]))) as [ds|] eqn:Eg; auto. exfalso.
      apply HX in Eg as (d' & D' & S' & _). apply HU in D'. now subst d'.
    + intros HL. unfold h5dataset_index, datasetd_index. apply Nat.leb_le in HL. rewrite HL. unfold dataset_index.
      destruct (scan_filters (h_filters d) false None) as [[sh gz]|e| | |] eqn:Es; cbn [bind]; eauto.
      * assert (H1 : h_is_chunked d = false) by (destruct (h_is_chunked d) eqn:E1; auto; exfalso; apply HS; now left).
        assert (H2 : h_offset d = None) by (destruct (h_offset d) eqn:E2; auto; exfalso; apply HS; right; congruence).
        rewrite H1, H2. cbn [bind]. eauto.
      * exfalso. revert Es. generalize false (@None N). induction (h_filters d) as [|[|z|] l IH]; intros a b H; cbn [scan_filters] in H; try discriminate; eauto.
      * exfalso. revert Es. generalize false (@None N). induction (h_filters d) as [|[|z|] l IH]; intros a b H; cbn [scan_filters] in H; try discriminate; eauto.
      * exfalso. revert Es. generalize false (@None N). induction (h_filters d) as [|[|z|] l IH]; intros a b H; cbn [scan_filters] in H; try discriminate; eauto.
Qed.

(** ** Cases *)

(** A dataset that was never written. *)
Definition blank_h5 : h5ds := mkH5 [4] None false None 0 [] [] (Int 2) LE.
Definition two_tree : h5group := mkHG true [(text "x", HData ex_h5); (text "blank", HData blank_h5)].
Definition by_byte (b : byte_str) : res h5group := match b with [] => Ok (mkHG true []) | _ => Ok two_tree end.
Definition before : fsys := fun p => if str_eqb p (text "a.nc") then Some [1] else None.
Definition after : fsys := fun p => if str_eqb p (text "a.nc") then Some [] else None.

Example C87_case m :
  named two_tree /\
  h5_dataset two_tree [] (text "x") ex_h5 /\ has_storage ex_h5 /\
  h5_dataset two_tree [] (text "blank") blank_h5 /\ ~ has_storage blank_h5 /\
  h5_file by_byte before (text "a.nc") = Ok (mkFile (text "a.nc") two_tree) /\
  exists i j, file_index m (mkFile (text "a.nc") two_tree) = Ok i /\
    netcdf_index m by_byte after (mkNc (text "a.nc")) = Ok j /\ i <> j /\
    h5dataset_index m blank_h5 = Err ELayout.
Proof.
  split.
  { constructor.
    - repeat constructor; cbn; intros H; repeat destruct H as [H|H]; discriminate || easy.
    - repeat constructor; cbn; try discriminate; unfold slash_free, SLASH; cbn; intros H; repeat destruct H as [H|H]; discriminate || easy.
    - intros c g [H|[H|[]]]; discriminate. }
  split; [exists two_tree; split; [constructor|left; reflexivity]|]. split; [left; reflexivity|].
  split; [exists two_tree; split; [constructor|right; left; reflexivity]|].
  split; [intros [H|H]; [discriminate|now apply H]|]. split; [reflexivity|].
  destruct m; eexists; eexists; (split; [vm_compute; reflexivity|]); (split; [vm_compute; reflexivity|]);
    (split; [discriminate|reflexivity]).
Qed.
