(** * Model of the variables the xarray backend shows, /repo/python/hidefix/xarray.py 130-185.

    Python's dicts keep the order of insertion, and an assignment to a key that is there
    keeps its place: [hput] of IndexTree.v.  What netCDF4 says of a variable is an input. *)
From Verif Require Import Base Dataset IndexTree Python Xarray.

(** The strings "_FillValue", "missing_value", "least_significant_digit", "contiguous",
    "chunksizes", "source", "original_shape", "dtype". *)
Definition K_FILL : str := [95; 70; 105; 108; 108; 86; 97; 108; 117; 101].
Definition K_MISSING : str := [109; 105; 115; 115; 105; 110; 103; 95; 118; 97; 108; 117; 101].
Definition K_LSD : str := [108; 101; 97; 115; 116; 95; 115; 105; 103; 110; 105; 102; 105; 99; 97; 110; 116; 95; 100; 105; 103; 105; 116].
Definition K_CONTIGUOUS : str := [99; 111; 110; 116; 105; 103; 117; 111; 117; 115].
Definition K_CHUNKSIZES : str := [99; 104; 117; 110; 107; 115; 105; 122; 101; 115].
Definition K_SOURCE : str := [115; 111; 117; 114; 99; 101].
Definition K_SHAPE : str := [111; 114; 105; 103; 105; 110; 97; 108; 95; 115; 104; 97; 112; 101].
Definition K_DTYPE : str := [100; 116; 121; 112; 101].

(** [O]: Python objects that are not None (values of attributes and filter settings); [T]:
    NumPy dtypes; [is_bytes_type]: kind "S"; [to_bytes]: `np.bytes_`. *)
Section Store.
Context {O T : Type} (py_eq : O -> O -> bool) (is_bytes_type : T -> bool) (to_bytes : O -> O).

(** netCDF4's [Variable.chunking()]: None, "contiguous" or the sizes. *)
Inductive chunking : Type := Contiguous | Chunks (l : list N).
(** What netCDF4 says of a variable: attributes in their order, dimensions, shape, dtype,
    [filters()] and [chunking()]. *)
Record ncvar : Type := mkVar {
  nv_attrs : hmap O;
  nv_dims : list str;
  nv_shape : list N;
  nv_dtype : T;
  nv_filters : option (hmap O);
  nv_chunking : option chunking
}.

(** Values of an encoding. *)
Inductive encv : Type := EObj (o : O) | EBool (b : bool) | ENone | ETuple (l : list N) | EPath (s : str) | EDtype (t : T).

(** [dict.pop(k, None)]. *)
Definition dict_pop {A} (k : str) (h : hmap A) : option A * hmap A :=
  (hget k h, filter (fun kv => negb (str_eqb k (fst kv))) h).
(** [dict.update]. *)
Definition dict_update {A} (h : hmap A) (l : list (str * A)) : hmap A := fold_left (fun h kv => hput (fst kv) (snd kv) h) l h.

(** The variable: xarray.py 134-167, and of the array behind it, 170-185, what reads use. *)
Record xvar : Type := mkXV {
  xv_dims : list str;
  xv_shape : list N;
  xv_dtype : T;
  xv_fill : option O;
  xv_attrs : hmap O;
  xv_enc : hmap encv
}.

(** xarray.coding.variables: [pop_to]: a value that is there is moved; a key the
    destination has already is a ValueError. *)
Definition pop_to (src : hmap O) (dst : hmap encv) (k : str) : res (hmap O * hmap encv) :=
  let (v, src') := dict_pop k src in
  match v with
  | None => Ok (src', dst)
  | Some o => match hget k dst with Some _ => Err EType | None => Ok (src', hput k (EObj o) dst) end
  end.

(** xarray.backends.netCDF4_: [_ensure_fill_value_valid]. *)
Definition ensure_fill_value (t : T) (attrs : hmap O) : hmap O :=
  match hget K_FILL attrs with
  | Some f => if is_bytes_type t then hput K_FILL (to_bytes f) attrs else attrs
  | None => attrs
  end.

(** xarray.py 134-167: [open_store_variable]; the array (138-139, 170-185) is made before the
    fill values are removed from the attributes (141-142). *)
Definition open_variable (path : str) (v : ncvar) : res xvar :=
  let attrs := nv_attrs v in
  let* fill := xr_fill py_eq (hget K_FILL attrs) (hget K_MISSING attrs) in
  let attrs := snd (dict_pop K_FILL attrs) in
  let attrs := snd (dict_pop K_MISSING attrs) in
  let attrs := ensure_fill_value (nv_dtype v) attrs in
  let enc := match nv_filters v with
             | Some f => dict_update [] (map (fun kv => (fst kv, EObj (snd kv))) f)
             | None => []
             end in
  let enc := match nv_chunking v with
             | None => enc
             | Some Contiguous => hput K_CHUNKSIZES ENone (hput K_CONTIGUOUS (EBool true) enc)
             | Some (Chunks l) => hput K_CHUNKSIZES (ETuple l) (hput K_CONTIGUOUS (EBool false) enc)
             end in
  let* (attrs, enc) := pop_to attrs enc K_LSD in
  let enc := hput K_SOURCE (EPath path) enc in
  let enc := hput K_SHAPE (ETuple (nv_shape v)) enc in
  let enc := hput K_DTYPE (EDtype (nv_dtype v)) enc in
  Ok (mkXV (nv_dims v) (nv_shape v) (nv_dtype v) fill attrs enc).

(** xarray.py 130-132: [get_variables]; 135: a name netCDF4 does not have is a KeyError. *)
Definition get_variables (i : index) (group : option str) (path : str) (vars : str -> option ncvar)
    : res (list (str * xvar)) :=
  mapM (fun k => match vars k with
                 | Some v => let* x := open_variable path v in Ok (k, x)
                 | None => Err EMissing
                 end) (py_datasets i group).
End Store.
