(** * SpecAlike: indexes, and files, that are the same but for the order in which the maps
    (and groups) list their entries.  No function of the model is used. *)
From Verif Require Import Base Chunk Dataset IndexTree SpecTree.

(** The same path, the same names, the same datasets, and alike groups below. *)
Inductive alike : gindex -> gindex -> Prop :=
| alike_mk p ds es gs hs :
    NoDup (map fst ds) -> NoDup (map fst es) -> NoDup (map fst gs) -> NoDup (map fst hs) ->
    (forall x d, In (x, d) ds <-> In (x, d) es) ->
    (forall x, In x (map fst gs) <-> In x (map fst hs)) ->
    (forall x g h, In (x, g) gs -> In (x, h) hs -> alike g h) ->
    alike (mkGroup p ds gs) (mkGroup p es hs).
Definition alike_index (i j : index) : Prop := i_path i = i_path j /\ alike (i_root i) (i_root j).

(** Two groups of HDF5 files with the same members, whatever the order; members that are
    neither datasets nor groups are left out of account. *)
Inductive alike_file : h5group -> h5group -> Prop :=
| af_mk b l k :
    (forall x d, In (x, HData d) l <-> In (x, HData d) k) ->
    (forall x, (exists g, In (x, HGroup g) l) <-> (exists h, In (x, HGroup h) k)) ->
    (forall x g h, In (x, HGroup g) l -> In (x, HGroup h) k -> alike_file g h) ->
    alike_file (mkHG b l) (mkHG b k).
