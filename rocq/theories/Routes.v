(** * Model of the ways to make an index: /repo/src/idx.rs 24-54, idx/index.rs 30-79,
    python.rs 30-34.

    An open HDF5 file keeps the name it was opened with ([H5Fget_name], the `filename` of
    the hdf5 crate) and the contents it had (a file that is replaced by renaming or removed
    stays as it was for those who have it open; overwriting in place is not modelled).  An
    open netCDF file: only its name is used. *)
From Verif Require Import Base Chunk Dataset IndexTree Serde Tools.

Record h5file : Type := mkFile { hf_name : str; hf_root : h5group }.
Record ncfile : Type := mkNc { nf_name : str }.

Section Routes.
Context (m : mode) (h5_open : byte_str -> res h5group).

(** [hdf5::File::open] (index.rs 38). *)
Definition h5_file (fs : fsys) (p : str) : res h5file :=
  match fs p with
  | None => Err EOpen
  | Some b => let* root := h5_open b in Ok (mkFile p root)
  end.
(** index.rs 61-69: [TryFrom<&hdf5::File>], and idx.rs 30-36: [File::index]. *)
Definition file_index (f : h5file) : res index := index_file m (Some (hf_name f)) (hf_root f).
(** index.rs 53-59: [TryFrom<&Path>]; python.rs 30-34: [Index(p)] of Python. *)
Definition path_index (fs : fsys) (p : str) : res index := index_path m h5_open fs p.
(** index.rs 71-80: [TryFrom<&netcdf::File>], and idx.rs 47-54: the file is opened again by
    its name, at the time of the call. *)
Definition netcdf_index (fs : fsys) (f : ncfile) : res index := index_path m h5_open fs (nf_name f).
(** idx.rs 38-45: [hdf5::Dataset::index]. *)
Definition h5dataset_index (d : h5ds) : res dataset := datasetd_index m d.
End Routes.
