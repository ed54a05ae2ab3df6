(** * Model of /repo/src/extent.rs: selectors. *)
From Verif Require Import Base.

(** extent.rs 27-49: [enum Extent]. *)
Inductive extent : Type :=
| Slice (start : N)
| SliceEnd (start end_ : N)
| SliceCount (start count : N)
| Index (i : N).

(** The Rust values convertible to an [Extent] (one constructor per
    [impl From<..> for Extent], extent.rs 69-135; the by-reference variants of
    lines 51-67 clone and are the same function). *)
Inductive selector : Type :=
| SelIndex (i : N)            (* i        : u64 *)
| SelRange (a b : N)          (* a..b     *)
| SelFrom (a : N)             (* a..      *)
| SelTo (b : N)               (* ..b      *)
| SelToIncl (b : N)           (* ..=b     *)
| SelIncl (a b : N)           (* a..=b    *)
| SelFull                     (* ..       *)
| SelPair (start count : N).  (* (start, count) *)

(** extent.rs 69-135: the conversions.  `range.end + 1` is u64 arithmetic. *)
Definition extent_of (m : mode) (s : selector) : res extent :=
  match s with
  | SelIndex i => Ok (Index i)                                   (* 69-73 *)
  | SelFrom a => Ok (Slice a)                                    (* 76-80 *)
  | SelRange a b => Ok (SliceEnd a b)                            (* 83-90 *)
  | SelTo b => Ok (SliceEnd 0 b)                                 (* 93-100 *)
  | SelToIncl b => let* e := add64 m b 1 in Ok (SliceEnd 0 e)    (* 103-110 *)
  | SelIncl a b => let* e := add64 m b 1 in Ok (SliceEnd a e)    (* 113-120 *)
  | SelFull => Ok (Slice 0)                                      (* 123-127 *)
  | SelPair s c => Ok (SliceCount s c)                           (* 130-134 *)
  end.

(** extent.rs 169-175: [enum Extents]. *)
Inductive extents : Type := All | Extents (l : list extent).

(** extent.rs 177-330: conversion from arrays/slices/vectors (238-308), tuples
    (310-335), a single selector (201-236): element-wise conversion, left to
    right, of a list of selectors.  (`..` alone is [All], lines 177-181.) *)
Definition extents_of (m : mode) (l : list selector) : res extents :=
  let* es := mapM (extent_of m) l in Ok (Extents es).

(** extent.rs 508-525 (and 527-563): [(starts, counts)] pairs of slices.
    For arrays of equal static length the length test cannot fail. *)
Definition extents_of_pairs (starts counts : list N) : res extents :=
  if (length starts =? length counts)%nat
  then Ok (Extents (map (fun '(s, c) => SliceCount s c) (combine starts counts)))
  else Err ELenMismatch.

(** [(start..end).count() as u64] for u64 ranges on a 64-bit target
    (core::iter::Range::count). *)
Definition range_count (a b : N) : N := if a <? b then b - a else 0.

(** extent.rs 345-352: [Extent::start]. *)
Definition extent_start (e : extent) : N :=
  match e with
  | Index i => i
  | Slice s => s
  | SliceCount s _ => s
  | SliceEnd s _ => s
  end.

(** extent.rs 354-361: [Extent::count]. *)
Definition extent_count (e : extent) : option N :=
  match e with
  | Index _ => Some 1
  | Slice _ => None
  | SliceCount _ c => Some c
  | SliceEnd s e => Some (range_count s e)
  end.

(** extent.rs 364-377: [Extent::canonicalise]. *)
Definition extent_canonicalise (e : extent) (dimsize : N) : extent :=
  match e with
  | Index s => Index s
  | Slice s => SliceCount s (range_count s dimsize)
  | SliceEnd s e => SliceCount s (range_count s e)
  | SliceCount s c => SliceCount s c
  end.

(** extent.rs 380-396 and 414-431: [Extents::canonicalise] and the iterator it
    returns (as the list of items; only `map` is ever applied to it). *)
Definition extents_canonicalise (e : extents) (dims : list N) : res (list extent) :=
  match e with
  | All => Ok (map (fun d => SliceCount 0 d) dims)
  | Extents l =>
      if (length l =? length dims)%nat
      then Ok (map (fun '(x, d) => extent_canonicalise x d) (combine l dims))
      else Err ERank
  end.

(** [e.count().unwrap()]. *)
(** extent.rs 437, 443: `unwrap`. *)
Definition unwrap_count (e : extent) : res N :=
  match extent_count e with Some c => Ok c | None => Panic end.

(** extent.rs 433-438: [Extents::get_counts]. *)
Definition get_counts (e : extents) (dims : list N) : res (list N) :=
  let* l := extents_canonicalise e dims in mapM unwrap_count l.

(** extent.rs 440-454: [get_start_count] / [get_start_count_sized]; the second
    `ensure!` (452) compares with D = dims.len(). *)
Definition get_start_count (e : extents) (dims : list N) : res (list N * list N) :=
  let* l := extents_canonicalise e dims in
  let* cs := mapM unwrap_count l in
  let* _ := ensure (length l =? length dims)%nat ERank in
  Ok (map extent_start l, cs).

(** extent.rs 461-494: ndarray's [SliceInfoElem].  isize fields are integers. *)
Inductive slice_elem : Type :=
| ElSlice (start : Z) (end_ : option Z) (step : Z)
| ElIndex (i : Z)
| ElNewAxis.

(** [u64::try_from(x: isize)]. *)
Definition u64_try_from (x : Z) (e : err) : res N :=
  if (0 <=? x)%Z then Ok (Z.to_N x) else Err e.

(** extent.rs 471-491: one element of an ndarray slice. *)
Definition extent_of_elem (s : slice_elem) : res extent :=
  match s with
  | ElSlice start end_ step =>
      let* s := u64_try_from start ESlice in
      if negb (step =? 1)%Z then Err ESlice
      else match end_ with
           | Some e => let* e' := u64_try_from e ESlice in Ok (SliceEnd s e')
           | None => Ok (Slice s)
           end
  | ElIndex i => let* i' := u64_try_from i ESlice in Ok (Index i')
  | ElNewAxis => Err ESlice
  end.

(** extent.rs 466-494: [TryFrom<&SliceInfo> for Extents]. *)
Definition extents_of_slice (l : list slice_elem) : res extents :=
  let* es := mapM extent_of_elem l in Ok (Extents es).
