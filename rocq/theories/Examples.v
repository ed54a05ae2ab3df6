(** * Examples: concrete datasets used to show that hypotheses can be met. *)
From Verif Require Import Base Spec Safe Chunk Extent Dataset Slicer SpecApi.

(** A 4 x 6 dataset of 2-byte integers in 2 x 3 chunks, reported by HDF5 in
    reverse order, shuffled and deflated. *)
Definition ex_h5 : h5ds :=
  mkH5 [4; 6] (Some [2; 3]) true None 0
    [mkChunk 400 12 [2; 3]; mkChunk 300 12 [2; 0]; mkChunk 200 12 [0; 3]; mkChunk 100 12 [0; 0]]
    [FShuffle; FDeflate 4] (Int 2) LE.

Definition ex_ds : dataset :=
  mkDataset (Int 2) 2 LE
    [mkChunk 100 12 [0; 0]; mkChunk 200 12 [0; 3]; mkChunk 300 12 [2; 0]; mkChunk 400 12 [2; 3]]
    [4; 6] [2; 3] [2; 3] [2; 1] [6; 1] [3; 1] true (Some 4).

Example ex_indexed : forall m, dataset_index m ex_h5 = Ok ex_ds.
Proof. intros []; reflexivity. Qed.

Example ex_full : full_dataset ex_ds.
Proof.
  constructor; [constructor|..]; try reflexivity.
  - repeat constructor.
  - repeat split; repeat constructor.
Qed.

(** The selection [1..4, 2..6]. *)
Example ex_sel : sel_in [4; 6] [1; 2] [3; 4].
Proof.
  split; [reflexivity|]. split; [reflexivity|]. split; [repeat constructor|].
  intros [|[|[|j]]] i n s; cbn; intros; try discriminate;
    repeat match goal with H : Some _ = Some _ |- _ => injection H as <- end; lia.
Qed.
Example ex_safe : sel_safe [4; 6] [2; 3] [1; 2] [3; 4] = true.
Proof. reflexivity. Qed.
