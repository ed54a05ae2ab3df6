(** * SpecSerde: the values that exist in a Rust program of type [Dataset<D>], [GroupIndex],
    [Index]: words fit their integer types, arrays have the length in their type, divisors
    are not zero, strings are UTF-8 and not longer than memory, map keys are distinct. *)
From Verif Require Import Base Chunk Dataset IndexTree Serde.

Definition word64 (n : N) : Prop := n < W64.

Definition typed_chunk (D : nat) (c : chunk) : Prop :=
  word64 (c_addr c) /\ word64 (c_size c) /\ length (c_offset c) = D /\ Forall word64 (c_offset c).

Definition typed_array (D : nat) (v : list N) : Prop := length v = D /\ Forall word64 v.

Record typed_dataset (D : nat) (d : dataset) : Prop := {
  ty_rank : (D <= 9)%nat;
  ty_dtype : word64 (dt_size (d_dtype d));
  ty_dsize : word64 (d_dsize d);
  ty_chunks : Forall (typed_chunk D) (d_chunks d);
  ty_memory : lenN (d_chunks d) * (16 + 8 * N.of_nat D) < W64;
  ty_shape : typed_array D (d_shape d);
  ty_chunk_shape : typed_array D (d_chunk_shape d);
  ty_reduced : typed_array D (d_chunk_shape_reduced d);
  ty_divisors : Forall (fun x => 0 < x) (d_chunk_shape_reduced d);
  ty_scaled : typed_array D (d_scaled_dim_sz d);
  ty_dim : typed_array D (d_dim_sz d);
  ty_chunk_dim : typed_array D (d_chunk_dim_sz d);
  ty_gzip : forall z, d_gzip d = Some z -> z < 256
}.

Definition typed_string (s : str) : Prop := utf8 s = true /\ lenN s < W64.
Definition typed_keys {A} (h : hmap A) : Prop :=
  NoDup (map fst h) /\ Forall typed_string (map fst h) /\ lenN h < W64.
(** Paths are any bytes. *)
Definition typed_path (p : option str) : Prop := forall s, p = Some s -> lenN s < W64.

Inductive typed_group : gindex -> Prop :=
| typed_mk p ds gs :
    typed_path p -> typed_keys ds -> Forall (fun kv => exists D, typed_dataset D (snd kv)) ds ->
    typed_keys gs -> Forall (fun kv => typed_group (snd kv)) gs ->
    typed_group (mkGroup p ds gs).
Definition typed_index (i : index) : Prop := typed_path (i_path i) /\ typed_group (i_root i).

(** All paths of the index are UTF-8. *)
Definition utf8_path (p : option str) : Prop := forall s, p = Some s -> utf8 s = true.
Inductive utf8_group : gindex -> Prop :=
| utf8_mk p ds gs : utf8_path p -> Forall (fun kv => utf8_group (snd kv)) gs -> utf8_group (mkGroup p ds gs).

(** Nesting depth. *)
Fixpoint depth (g : gindex) : nat :=
  let '(mkGroup _ _ gs) := g in S (fold_right (fun kv d => Nat.max (depth (snd kv)) d) 0%nat gs).

(** What the HDF5 library reports is made of machine words and of one rank. *)
Record typed_h5 (h : h5ds) : Prop := {
  th_rank : (length (h_shape h) <= 9)%nat;
  th_shape : Forall word64 (h_shape h);
  th_chunk : forall c, h_chunk h = Some c -> typed_array (length (h_shape h)) c;
  th_offset : forall o, h_offset h = Some o -> word64 o;
  th_storage : word64 (h_storage h);
  th_visit : Forall (typed_chunk (length (h_shape h))) (h_visit h);
  th_memory : lenN (h_visit h) * (16 + 8 * N.of_nat (length (h_shape h))) < W64;
  th_level : forall z, In (FDeflate z) (h_filters h) -> z < 256;
  th_dtype : word64 (dt_size (h_dtype h))
}.
(** ... throughout a file: names are strings, and no group has more members than fit. *)
Inductive typed_tree : h5group -> Prop :=
| tt_mk b l : Forall typed_string (map fst l) -> lenN l < W64 ->
    (forall k d, In (k, HData d) l -> typed_h5 d) -> (forall k g, In (k, HGroup g) l -> typed_tree g) ->
    typed_tree (mkHG b l).
