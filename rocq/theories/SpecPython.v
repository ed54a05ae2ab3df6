(** * SpecPython: what NumPy's basic indexing selects.  Nothing of the model is used but the
    type of index expressions. *)
From Verif Require Import Base Python.
Local Open Scope Z_scope.

(** A bound of a slice of an axis of length [n]: negative bounds count from the end, and
    bounds are cut to the axis. *)
Definition np_bound (n x : Z) : Z := Z.max 0 (Z.min n (if x <? 0 then x + n else x)).
Definition np_lo (n : Z) (a : option Z) : Z := match a with Some x => np_bound n x | None => 0 end.
Definition np_hi (n : Z) (b : option Z) : Z := match b with Some x => np_bound n x | None => n end.

Definition unit_step (st : option Z) : Prop := st = None \/ st = Some 1.

(** The positions an element of the index expression selects on an axis of length [n]:
    an int the position itself or, if negative, counted from the end; a unit-step slice the
    positions from its lower to before its upper bound. *)
Inductive np_axis (n : N) : pykey -> N -> Prop :=
| np_int i x : (x < n)%N -> Z.of_N x = i \/ Z.of_N x = i + Z.of_N n -> np_axis n (PyInt i) x
| np_slice a b st x : unit_step st -> np_lo (Z.of_N n) a <= Z.of_N x < np_hi (Z.of_N n) b ->
    np_axis n (PySlice a b st) x.

(** The coordinates a tuple of at most as many elements as there are axes selects: missing
    elements select the whole axis. *)
Inductive np_select : list N -> list pykey -> list N -> Prop :=
| ns_nil : np_select [] [] []
| ns_full n shape x xs : (x < n)%N -> np_select shape [] xs -> np_select (n :: shape) [] (x :: xs)
| ns_key n shape k keys x xs : np_axis n k x -> np_select shape keys xs ->
    np_select (n :: shape) (k :: keys) (x :: xs).

(** ** The cases *)

(** NumPy raises IndexError for ints outside [-n, n). *)
Definition in_range (n : N) (i : Z) : Prop := - Z.of_N n <= i < Z.of_N n.

(** Ints in range other than -1, and unit-step slices whose bounds are in order. *)
Definition forward (n : N) (k : pykey) : Prop :=
  match k with
  | PyInt i => in_range n i /\ i <> -1
  | PySlice a b st => unit_step st /\ np_lo (Z.of_N n) a <= np_hi (Z.of_N n) b
  | PyOther => False
  end.
(** -1 for the last of several elements, and slices whose bounds are out of order (which
    select nothing). *)
Definition backward (n : N) (k : pykey) : Prop :=
  match k with
  | PyInt i => i = -1 /\ (1 < n)%N
  | PySlice a b st => unit_step st /\ np_hi (Z.of_N n) b < np_lo (Z.of_N n) a
  | PyOther => False
  end.
(** Ints out of range, and -1 for the only element. *)
Definition lost_int (n : N) (k : pykey) : Prop :=
  match k with
  | PyInt i => ~ in_range n i /\ IMIN <= i < IMAX \/ i = -1 /\ n = 1%N
  | _ => False
  end.

(** Every element of a tuple has the property on its axis. *)
Definition on_axes (P : N -> pykey -> Prop) (shape : list N) (keys : list pykey) : Prop :=
  forall j n k, nth_error shape j = Some n -> nth_error keys j = Some k -> P n k.
(** Some element of it has. *)
Definition on_axis (P : N -> pykey -> Prop) (shape : list N) (keys : list pykey) : Prop :=
  exists j n k, nth_error shape j = Some n /\ nth_error keys j = Some k /\ P n k.

Definition dims_fit (shape : list N) : Prop := Forall (fun n => Z.of_N n <= IMAX) shape.

(** ** The selection of a tuple NumPy accepts, as a box *)

(** The elements NumPy accepts: ints in range and unit-step slices. *)
Definition np_valid (n : N) (k : pykey) : Prop :=
  match k with
  | PyInt i => in_range n i
  | PySlice _ _ st => unit_step st
  | PyOther => False
  end.

(** The first position selected on an axis, and how many there are. *)
Definition np_start (n : N) (k : pykey) : N :=
  match k with
  | PyInt i => Z.to_N (if i <? 0 then i + Z.of_N n else i)
  | PySlice a _ _ => Z.to_N (np_lo (Z.of_N n) a)
  | PyOther => 0%N
  end.
Definition np_len (n : N) (k : pykey) : N :=
  match k with
  | PyInt _ => 1%N
  | PySlice a b _ => Z.to_N (np_hi (Z.of_N n) b - np_lo (Z.of_N n) a)
  | PyOther => 0%N
  end.
Fixpoint np_starts (shape : list N) (keys : list pykey) : list N :=
  match shape, keys with
  | [], _ => []
  | n :: shape', [] => 0%N :: np_starts shape' []
  | n :: shape', k :: keys' => np_start n k :: np_starts shape' keys'
  end.
Fixpoint np_lens (shape : list N) (keys : list pykey) : list N :=
  match shape, keys with
  | [], _ => []
  | n :: shape', [] => n :: np_lens shape' []
  | n :: shape', k :: keys' => np_len n k :: np_lens shape' keys'
  end.
