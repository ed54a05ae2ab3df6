(** * SpecTree: paths in an index and in an HDF5 file.  No function of the model is used,
    only its data types, their projections and the byte of '/'. *)
From Verif Require Import Base Chunk Dataset IndexTree.

(** A component of a path. *)
Definition slash_free (c : str) : Prop := ~ In SLASH c.
(** "a/b/c". *)
Fixpoint joined (cs : list str) : str :=
  match cs with
  | [] => []
  | [c] => c
  | c :: cs' => c ++ SLASH :: joined cs'
  end.
Definition slashes (k : nat) : str := repeat SLASH k.

(** [in_group g cs g']: [g'] is the group [cs] levels down from [g]. *)
Inductive in_group : gindex -> list str -> gindex -> Prop :=
| ig_here g : in_group g [] g
| ig_down g c g1 cs g' : In (c, g1) (gi_groups g) -> in_group g1 cs g' -> in_group g (c :: cs) g'.

(** The maps of an index have distinct keys. *)
Inductive keyed : gindex -> Prop :=
| keyed_mk p ds gs : NoDup (map fst ds) -> NoDup (map fst gs) -> Forall (fun kv => keyed (snd kv)) gs ->
    keyed (mkGroup p ds gs).

(** ** HDF5 files *)

Definition h_members (g : h5group) : list (str * h5member) := let '(mkHG _ l) := g in l.
Definition h_lists (g : h5group) : bool := let '(mkHG b _) := g in b.

(** [h5_group g cs g']: the group at path [cs] below [g]. *)
Inductive h5_group : h5group -> list str -> h5group -> Prop :=
| hg_here g : h5_group g [] g
| hg_down g c g1 cs g' : In (c, HGroup g1) (h_members g) -> h5_group g1 cs g' -> h5_group g (c :: cs) g'.
(** The dataset [x] in the group at path [cs]. *)
Definition h5_dataset (g : h5group) (cs : list str) (x : str) (d : h5ds) : Prop :=
  exists g', h5_group g cs g' /\ In (x, HData d) (h_members g').
(** A dataset with storage: chunked or with an offset in the file. *)
Definition has_storage (d : h5ds) : Prop := h_is_chunked d = true \/ h_offset d <> None.

(** Link names are distinct within a group, are not empty and contain no slash. *)
Inductive named : h5group -> Prop :=
| named_mk b l : NoDup (map fst l) -> Forall (fun km => fst km <> [] /\ slash_free (fst km)) l ->
    (forall c g, In (c, HGroup g) l -> named g) -> named (mkHG b l).
