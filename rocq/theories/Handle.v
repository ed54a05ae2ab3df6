(** * What a Python handle says about its dataset (python.rs 171-187) and the accessors it
    uses (idx/dataset/any.rs 124-147, idx/dataset/dataset.rs 263-265, 375-397). *)
From Verif Require Import Base Chunk Dataset IndexTree Python.

(** dataset.rs 375-393 by any.rs 88-101, 124-143: the accessors of the dataset behind a
    [DatasetD] of any rank. *)
Definition ext_size (m : mode) (d : dataset) : res N := dataset_size m d.
Definition ext_dtype (d : dataset) : datatype := d_dtype d.
Definition ext_dsize (d : dataset) : N := d_dsize d.
Definition ext_shape (d : dataset) : list N := d_shape d.
Definition ext_chunk_shape (d : dataset) : list N := d_chunk_shape d.

(** python.rs 177-179: [__len__].  PyO3 raises OverflowError ([None]) for a length that is
    not an `isize`. *)
Definition py_len (m : mode) (p : pyhandle) : res (option N) :=
  let* d := py_handle p in
  let* n := ext_size m d in
  Ok (if n <? 2 ^ 63 then Some n else None).

(** python.rs 181-183, 185-187. *)
Definition py_shape (p : pyhandle) : res (list N) := let* d := py_handle p in Ok (ext_shape d).
Definition py_chunk_shape (p : pyhandle) : res (list N) := let* d := py_handle p in Ok (ext_chunk_shape d).

(** python.rs 173-175: [Dataset ("name")]; the name is printed with {}. *)
Definition py_repr (p : pyhandle) : str :=
  [68; 97; 116; 97; 115; 101; 116; 32; 40; 34] ++ ph_ds p ++ [34; 41].
