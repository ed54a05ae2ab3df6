(** * Model of the xarray backend, /repo/python/hidefix/xarray.py, on top of python.rs.

    Left out: what xarray does around the backend array (lazy indexing, decoding of times and
    scales), and the dimensions and attributes of a group, which are those netCDF4 reports.
    Attributes and encodings of variables: XarrayStore.v. *)
From Verif Require Import Base Spec Chunk Extent Dataset Slicer Filters SpecFilter Reader IndexTree Serde Python.

(** Python objects (attribute values), the elements of arrays, and conversions between them:
    [conv dt o] is [o] as an element of type [dt], if it can be; [dec dt b] the element with
    these bytes in the host's order; [py_eq] Python's `==`; [el_eq] Rust's. *)
Section Backend.
Context {O V : Type} (py_eq : O -> O -> bool) (py_nan : O)
        (conv : datatype -> O -> option V) (dec : datatype -> bytes -> V) (el_eq : V -> V -> bool).

(** xarray.py 179-185 (in [HidefixArray.__init__]): `_FillValue`, or else `missing_value`; the
    two must be equal if both are given (AssertionError). *)
Definition xr_fill (fill_value missing : option O) : res (option O) :=
  match missing with
  | None => Ok fill_value
  | Some mv =>
      match fill_value with
      | None => Ok (Some mv)
      | Some f => if py_eq mv f then Ok (Some f) else Panic
      end
  end.

(** The elements of an array of [n] elements of [w] bytes. *)
Definition elements (dt : datatype) (w n : nat) (b : bytes) : list V := map (fun j => dec dt (word w j b)) (seq 0 n).

(** xarray.py 191-197: [HidefixArray._getitem].  Looking a dataset up gives `None` if there is
    none, which cannot be indexed (TypeError). *)
Inductive xr_get (m : mode) (h : host) (inflate : bytes -> option bytes)
    (sort : list gsegment -> list gsegment) (fuel : nat) (i : index) (name : str) (group : option str)
    (fill : option O) (file : option bytes) (mem : N -> bytes) (keys : list pykey) : res (list N * list V) -> Prop :=
| xg_none : py_dataset i name group = None ->
    xr_get m h inflate sort fuel i name group fill file mem keys (Err EType)
| xg_handle p x : py_dataset i name group = Some p -> py_handle p = x -> (forall d, x <> Ok d) ->
    xr_get m h inflate sort fuel i name group fill file mem keys (failed x)
| xg_fail p ds x : py_dataset i name group = Some p -> py_handle p = Ok ds ->
    py_get m h inflate sort fuel ds file mem (PyTuple keys) x -> (forall a, x <> Ok a) ->
    xr_get m h inflate sort fuel i name group fill file mem keys (failed x)
| xg_data p ds dims b k w : py_dataset i name group = Some p -> py_handle p = Ok ds ->
    py_get m h inflate sort fuel ds file mem (PyTuple keys) (Ok (dims, b)) -> py_type (d_dtype ds) = Ok (k, w) ->
    xr_get m h inflate sort fuel i name group fill file mem keys
      (let els := elements (d_dtype ds) w (N.to_nat (prodN dims)) b in
       match fill with
       | None => Ok (dims, els)
       | Some f =>
           let* out := apply_fill el_eq (conv (d_dtype ds) f) (conv (d_dtype ds) py_nan) (Some els) in
           Ok (dims, out)
       end).

(** xarray.py 130-132: [get_variables]: the datasets the index lists, each looked up among the
    variables netCDF4 shows in the group (KeyError if there is none). *)
Definition xr_variables {A} (i : index) (group : option str) (vars : str -> option A) : res (list (str * A)) :=
  mapM (fun k => match vars k with Some v => Ok (k, v) | None => Err EMissing end) (py_datasets i group).
End Backend.
