(** * Safe: the class of selections for which the chunk-slice iterator is right.

    [ChunkSlicer::next] (dataset.rs 495-635) is wrong for some ordinary in-bounds
    selections (see the [_refuted] theorems), so the positive theorems need a
    condition on the selection.  [sel_safe] is a decidable, state-free condition
    on (shape, chunk shape, start, count) only; it does not run or mention the
    iterator.  With debug assertions it is exact: a selection of a full dataset is
    iterated rightly if and only if it is [sel_safe] (theorem [C11_exact]). *)
From Verif Require Import Base Spec.

(** One dimension of a selection: start, count, chunk size, dataset size. *)
Record dim : Type := mkDim { i_ : N; n_ : N; c_ : N; s_ : N }.

Fixpoint mk_dims (shape cs idx cnt : list N) : list dim :=
  match shape, cs, idx, cnt with
  | s :: shape', c :: cs', i :: idx', n :: cnt' =>
      mkDim i n c s :: mk_dims shape' cs' idx' cnt'
  | _, _, _, _ => []
  end.

(** Number of elements selected in these dimensions. *)
Definition pn (rs : list dim) : N := prodN (map n_ rs).

(** Every one of these dimensions is selected at a single index. *)
Definition ones (rs : list dim) : bool := forallb (fun r => n_ r =? 1) rs.

(** Chunks are one element thick here, or the selection is the single element a
    clipped last chunk has left in this dimension. *)
Definition thin (r : dim) : bool :=
  (c_ r =? 1) || ((i_ r mod c_ r =? 0) && (i_ r + 1 =? s_ r)).

(** Index of the last chunk touched in this dimension. *)
Definition last_chunk (r : dim) : N := (i_ r + n_ r - 1) / c_ r.

(** The selection touches one chunk in this dimension. *)
Definition single (r : dim) : bool := i_ r / c_ r =? last_chunk r.

(** The selection covers exactly one whole chunk in this dimension. *)
Definition exact (r : dim) : bool := (i_ r mod c_ r =? 0) && (n_ r =? c_ r).

(** The selection covers exactly the clipped last chunk of this dimension. *)
Definition clipped (r : dim) : bool :=
  (i_ r mod c_ r =? 0) && (i_ r + n_ r =? s_ r) && (n_ r <? c_ r).

(** Number of elements selected in the last chunk touched. *)
Definition portion (r : dim) : N := i_ r + n_ r - N.max (i_ r) (last_chunk r * c_ r).

(** The selection lies in one chunk and is contiguous in it. *)
Fixpoint block (rs : list dim) : bool :=
  match rs with
  | [] => true
  | r :: rs' => single r && (ones rs' || (exact r && block rs'))
  end.

(** Dimensions through which a carry of 1 moves on to the next element without the
    iterator advancing any further. *)
Fixpoint still (rs : list dim) : bool :=
  match rs with
  | [] => true
  | r :: rs' =>
      if n_ r =? 1 then (if thin r then still rs' else ones rs')
      else if c_ r =? 1 then forallb thin rs'
      else (n_ r =? 2) && (i_ r mod c_ r =? c_ r - 1)
           && (ones rs' || ((i_ r + 2 =? s_ r) && still rs'))
  end.

(** [t]: number of rows of the current dimension the inner dimensions have already
    accounted for when it is reached; [V]: number of elements of the chunk spanned by
    the inner dimensions.  Dimensions are listed innermost first. *)
Fixpoint safe (t V : N) (rs : list dim) : bool :=
  match rs with
  | [] => true
  | r :: rs' =>
      if pn (r :: rs') <=? t then block (r :: rs')
      else if negb (single r || (t <=? c_ r - i_ r mod c_ r)) then false
      else if negb (V =? 1) && thin r then
        if c_ r =? 1 then (if n_ r =? 1 then safe t V rs' else forallb thin rs')
        else (t <=? 1) && still rs'
      else if exact r then safe (t / c_ r + 1) (V * c_ r) rs'
      else if negb (V =? 1) && (N.min (c_ r) (s_ r - last_chunk r * c_ r) =? 1)
        then ((t <=? 1) || ones rs') && still rs'
      else if negb (ones rs') && (portion r <=? t) then false
      else if clipped r then still rs'
      else true
  end.

Definition sel_safe (shape cs idx cnt : list N) : bool :=
  safe 0 1 (rev (mk_dims shape cs idx cnt)).
