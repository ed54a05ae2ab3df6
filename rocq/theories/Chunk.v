(** * Model of /repo/src/idx/chunk.rs. *)
From Verif Require Import Base.

(** chunk.rs 15-28: [struct Chunk<D>] (repr(C): addr, size, offset).  [ULE] is
    a little-endian u64; its value is an [N].  The rank D is the length of
    [c_offset]. *)
Record chunk : Type := mkChunk { c_addr : N; c_size : N; c_offset : list N }.

(** chunk.rs 58-71: [Chunk::contains].  The loop over [j]. *)
Fixpoint contains_loop (m : mode) (off i cs : list N) : res comparison :=
  match off, i, cs with
  | o :: off', x :: i', c :: cs' =>
      if x <? o then Ok Lt
      else let* e := add64 m o c in
           if e <=? x then Ok Gt else contains_loop m off' i' cs'
  | _, _, _ => Ok Eq
  end.
Definition contains (m : mode) (ch : chunk) (i cs : list N) : res comparison :=
  let* _ := assert_ (length i =? length cs)%nat in
  let* _ := assert_ (length i =? length (c_offset ch))%nat in
  contains_loop m (c_offset ch) i cs.

(** chunk.rs 152-164: [Ord::cmp]. *)
Fixpoint cmp_offsets (a b : list N) : comparison :=
  match a, b with
  | x :: a', y :: b' =>
      match N.compare x y with Gt => Gt | Lt => Lt | Eq => cmp_offsets a' b' end
  | _, _ => Eq
  end.
Definition chunk_cmp (a b : chunk) : comparison := cmp_offsets (c_offset a) (c_offset b).

(** chunk.rs 172-176: [PartialEq::eq]. *)
Definition chunk_eqb (a b : chunk) : bool := c_addr a =? c_addr b.

(** chunk.rs 146-150: [Hash::hash] feeds exactly the address to the hasher. *)
Definition chunk_hash (a : chunk) : N := c_addr a.

(** chunk.rs 77-93: [as_u64s]: the struct viewed as 2 + D words. *)
Definition as_u64s (ch : chunk) : list N := c_addr ch :: c_size ch :: c_offset ch.

(** chunk.rs 96-103: [from_u64s] for rank [D]. *)
Definition from_u64s (D : nat) (w : list N) : res chunk :=
  let* _ := assert_ (length w =? 2 + D)%nat in
  match w with
  | a :: s :: o => Ok (mkChunk a s o)
  | _ => Panic
  end.

(** chunk.rs 107-123: [slice_as_u64s]. *)
Definition slice_as_u64s (l : list chunk) : list N := flat_map as_u64s l.

(** chunk.rs 125-143: [slice_from_u64s]: reinterpretation of [n] records of
    2 + D words. *)
Fixpoint split_records (D : nat) (n : nat) (w : list N) : list chunk :=
  match n with
  | O => []
  | S n' =>
      match w with
      | a :: s :: o => mkChunk a s (firstn D o) :: split_records D n' (skipn D o)
      | _ => []
      end
  end.
Definition slice_from_u64s (D : nat) (w : list N) : res (list chunk) :=
  let* _ := assert_ (length w mod (2 + D) =? 0)%nat in
  Ok (split_records D (length w / (2 + D))%nat w).

(** [chunks.sort()] (dataset.rs 135): a stable sort by [Ord::cmp].  Modelled by
    insertion sort; any stable (indeed any) sort gives the same list when the
    offsets are distinct, see [ChunkProofs.sorted_perm_unique]. *)
Fixpoint chunk_insert (c : chunk) (l : list chunk) : list chunk :=
  match l with
  | [] => [c]
  | d :: l' => match chunk_cmp c d with
               | Gt => d :: chunk_insert c l'
               | _ => c :: d :: l'
               end
  end.
Fixpoint chunk_sort (l : list chunk) : list chunk :=
  match l with
  | [] => []
  | c :: l' => chunk_insert c (chunk_sort l')
  end.
