(** * Model of how readers are opened over the file system: /repo/src/idx/index.rs 157-195
    and /repo/src/idx/dataset/any.rs 51-86, dataset.rs 399-403.

    The cached reader opens the file when it is made and keeps the open file: [cr_file] is
    the file's contents at that time (a file replaced by renaming another over it, or
    removed, stays as it was for those who have it open; a file that is overwritten in
    place is not modelled).  The direct and streaming readers keep the path and open the file at
    each read. *)
From Verif Require Import Base Chunk Extent Dataset Slicer Filters Reader IndexTree Serde Tools.

(** any.rs 51-68: [DatasetD::as_reader] (the same for every rank). *)
Definition as_reader (m : mode) (fs : fsys) (ds : dataset) (p : str) : res creader :=
  match fs p with
  | None => Err EOpen
  | Some f => cache_new m ds f
  end.
(** index.rs 168-175: [GroupIndex::reader]. *)
Definition open_reader (m : mode) (fs : fsys) (g : gindex) (name : str) : res creader :=
  let* (p, ds) := gi_open g name in as_reader m fs ds p.

(** direct.rs 19-31, stream.rs 27-40: a reader that keeps the path. *)
Record handle : Type := mkHandle { hn_ds : dataset; hn_path : str; hn_csz : N }.
(** any.rs 70-86 and dataset.rs 399-403: [as_streamer], [as_par_reader]. *)
Definition as_handle (m : mode) (ds : dataset) (p : str) : res handle :=
  let* csz := chunk_bytes m ds in Ok (mkHandle ds p csz).
(** index.rs 186-193: [GroupIndex::streamer]. *)
Definition open_streamer (m : mode) (g : gindex) (name : str) : res handle :=
  let* (p, ds) := gi_open g name in as_handle m ds p.

(** The reader at a time when the files are [fs] (stream.rs 70, 117; direct.rs 53, 126). *)
Definition streamer_at (fs : fsys) (h : handle) : streamer := mkStreamer (hn_ds h) (fs (hn_path h)) (hn_csz h).
Definition direct_at (fs : fsys) (h : handle) : direct := mkDirect (hn_ds h) (fs (hn_path h)) (hn_csz h).
