(** * Model of how the xarray backend decides about a path, /repo/python/hidefix/xarray.py.

    Characters are their code points.  Python's own functions (os.path.splitext on POSIX,
    os.fspath) are modelled after CPython. *)
From Verif Require Import Base Dataset IndexTree.
Local Open Scope N_scope.

Definition c_slash : N := 47.
Definition c_dot : N := 46.
Definition s_nc : str := [46; 110; 99].         (* ".nc" *)
Definition s_nc4 : str := [46; 110; 99; 52].    (* ".nc4" *)
Definition s_cdf : str := [46; 99; 100; 102].   (* ".cdf" *)

(** Python's str.rfind for one character: -1 if there is none. *)
Fixpoint rfind (c : N) (l : str) : Z :=
  match l with
  | [] => -1
  | x :: l' => let r := rfind c l' in
               if (0 <=? r)%Z then (r + 1)%Z else if x =? c then 0%Z else (-1)%Z
  end.

(** CPython's genericpath._splitext: the loop over the characters of the file name before the
    last dot, looking for one that is not a dot. *)
Fixpoint scan (l : str) : bool :=
  match l with
  | [] => false
  | c :: l' => if negb (c =? c_dot) then true else scan l'
  end.
Definition splitext (p : str) : str * str :=
  let sep := rfind c_slash p in
  let dot := rfind c_dot p in
  if (sep <? dot)%Z then
    if scan (firstn (Z.to_nat (dot - (sep + 1))) (skipn (Z.to_nat (sep + 1)) p))
    then (firstn (Z.to_nat dot) p, skipn (Z.to_nat dot) p)
    else (p, [])
  else (p, []).

(** What can be passed as a file name: a str, bytes, an object with `__fspath__` (which gives
    a str or bytes, or fails), anything else. *)
Inductive pypath : Type := PStr (s : str) | PBytes (b : bytes) | PLike (p : option (str + bytes)) | POther.

(** os.fspath: [None]: TypeError. *)
Definition fspath (p : pypath) : option (str + bytes) :=
  match p with
  | PStr s => Some (inl s)
  | PBytes b => Some (inr b)
  | PLike r => r
  | POther => None
  end.

Definition str_eqb (a b : str) : bool := if list_eq_dec N.eq_dec a b then true else false.

(** xarray.py 74-79: [HidefixBackendEntrypoint.guess_can_open]; a bytes extension is in no set
    of strings. *)
Definition guess_can_open (p : pypath) : bool :=
  match fspath p with
  | None => false
  | Some (inr _) => false
  | Some (inl s) => let (_, ext) := splitext s in existsb (str_eqb ext) [s_nc; s_nc4; s_cdf]
  end.

(** xarray.py 100-113: [HidefixDataStore.open]: the file name the index is made of, the
    TypeError of `os.fspath`, or the ValueError.  (Before it, [open_dataset] makes local paths
    absolute with xarray's `_normalize_path`, left out.) *)
Inductive opened : Type := OpensAt (s : str) | TypeError | ValueError.
Definition store_open (p : pypath) : opened :=
  match p with
  | PLike None => TypeError
  | _ => match fspath p with
         | Some (inl s) => OpensAt s
         | _ => ValueError
         end
  end.
