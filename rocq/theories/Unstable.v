(** * Typed reads built with the feature "unstable" (/repo/src/reader/dataset.rs 24-32). *)
From Verif Require Import Base Extent Dataset Filters Reader.

(** reader/dataset.rs 24-32: [empty_vec] with the feature "unstable": [vsz] elements of
    size [w] whose bytes are what the allocation held ([garbage n]: [n] such bytes), in
    place of 35-43, elements of the default value.  The rest of [values] and [values_par]
    (61-86, 111-136) is the same.  That reading memory that was never written is undefined
    behaviour in Rust is not modelled: the bytes are taken to have some value. *)
Definition values_uninit (m : mode) (h : host) (k : kind) (w : nat) (al : N) (ds : dataset) (read : read_fn)
    (garbage : N -> bytes) (e : extents) : res bytes :=
  let* counts := get_counts e (d_shape ds) in
  let* p := product64 m counts in
  let* n := mul64 m p (d_dsize ds) in
  let* vsz := div64 n (N.of_nat w) in
  let* rem := rem64 (d_dsize ds) (N.of_nat w) in
  let* _ := ensure (rem =? 0) ESize in
  let* q := mul64 m (d_dsize ds) vsz in
  let* rem2 := rem64 q al in
  let* _ := ensure (rem2 =? 0) EAlign in
  let (x, dst) := values_to h k w (d_order ds) read e (garbage (vsz * N.of_nat w)) in
  let* _ := x in Ok dst.
