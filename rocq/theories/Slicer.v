(** * Model of [ChunkSlicer], [chunk_slices] and [group_chunk_slices]
      (/repo/src/idx/dataset/dataset.rs 285-356 and 406-635). *)
From Verif Require Import Base Extent Chunk Dataset.

(** A segment: chunk, first and one-past-last element position in the chunk
    (dataset.rs 496). *)
Definition segment : Type := (chunk * N * N)%type.

(** dataset.rs 406-425: the mutable and constant fields of [ChunkSlicer]
    ([counts_reduced] holds the same numbers as [counts]). *)
Record slicer : Type := mkSlicer {
  s_offset : N;
  s_coords : list N;
  s_indices : list N;
  s_counts : list N;
  s_end : N
}.

(** dataset.rs 429-444: [ChunkSlicer::empty]. *)
Definition slicer_empty (ds : dataset) : slicer :=
  let z := map (fun _ => 0) (d_shape ds) in mkSlicer 0 z z z 0.

(** dataset.rs 460: the debug assertion of [ChunkSlicer::new]. *)
Fixpoint all_in_bounds (m : mode) (idx cnt shape : list N) : res bool :=
  match idx, cnt, shape with
  | i :: idx', c :: cnt', z :: shape' =>
      let* e := add64 m i c in
      if e <=? z then all_in_bounds m idx' cnt' shape' else Ok false
  | _, _, _ => Ok true
  end.
(** A debug assertion whose condition is itself a computation. *)
Definition dbg_res (m : mode) (b : res bool) : res unit :=
  match m with
  | Debug => let* v := b in assert_ v
  | Release => Ok tt
  end.

(** dataset.rs 446-477: [ChunkSlicer::new].  ([StrengthReducedU64::new] of the
    counts panics on zero; [chunk_slices] has excluded zero counts.) *)
Definition slicer_new (m : mode) (ds : dataset) (idx cnt : list N) : res slicer :=
  let* e := if is_scalar ds
            then let* _ := assert_ (length idx =? 0)%nat in Ok 1
            else product64 m cnt in
  let* _ := dbg m (length idx =? length (d_shape ds))%nat in
  let* _ := dbg m (length cnt =? length (d_shape ds))%nat in
  let* _ := dbg_res m (all_in_bounds m idx cnt (d_shape ds)) in
  let* _ := mapM sr_new cnt in
  Ok (mkSlicer 0 (map (fun _ => 0) (d_shape ds)) idx cnt e).

(** dataset.rs 481-492: [chunk_start]. *)
Fixpoint chunk_start (m : mode) (acc : N) (coords off sz : list N) : res N :=
  match coords, off, sz with
  | x :: coords', o :: off', z :: sz' =>
      let* d := sub64 m x o in
      let* p := mul64 m d z in
      let* acc' := add64 m acc p in
      chunk_start m acc' coords' off' sz'
  | _, _, _ => Ok acc
  end.

(** One dimension of the [izip!] of dataset.rs 531-543: idx, count, chunk_offset,
    chunk_sz, chunk_dim_sz, dataset_shape (the offset coordinate is kept apart). *)
Record row : Type := mkRow {
  r_idx : N; r_cnt : N; r_co : N; r_c : N; r_v : N; r_s : N
}.
Fixpoint mk_rows (idx cnt co c v s : list N) : list row :=
  match idx, cnt, co, c, v, s with
  | i :: idx', n :: cnt', o :: co', k :: c', w :: v', z :: s' =>
      mkRow i n o k w z :: mk_rows idx' cnt' co' c' v' s'
  | _, _, _, _, _, _ => []
  end.

(** dataset.rs 531-605: the loop over dimensions from the last to the first.
    Input: (row, offset coordinate) pairs, innermost dimension first; carry,
    advance, self.offset.  Output: new offset coordinates of the visited
    dimensions, the dimensions not visited (the loop left with `break`), and the
    new carry, advance and self.offset. *)
Fixpoint adv_loop (m : mode) (e : N) (rs : list (row * N)) (carry adv soff : N)
    : res (list N * list (row * N) * N * N * N) :=
  match rs with
  | [] => Ok ([], [], carry, adv, soff)
  | (r, o) :: rs' =>
      (* 558-563 *)
      let* cde := add64 m (r_co r) (r_c r) in
      let* c' := if r_s r <? cde
                 then let* x := sub64 m cde (r_s r) in sub64 m (r_c r) x
                 else Ok (r_c r) in
      if (c' =? 1) && negb (r_v r =? 1) then
        (* 569-573 *)
        let* o1 := add64 m o carry in
        let* carry1 := div64 o1 (r_cnt r) in
        let* o2 := rem64 o1 (r_cnt r) in
        let* (vis, rest, k, a, f) := adv_loop m e rs' carry1 adv soff in
        Ok (o2 :: vis, rest, k, a, f)
      else
        (* 576-580 *)
        let* o1 := add64 m o carry in
        let* carry1 := div64 o1 (r_cnt r) in
        let* cur := rem64 o1 (r_cnt r) in
        let* _ := dbg m (cur <? r_cnt r) in
        (* 583-589 *)
        let* ce := add64 m (r_co r) c' in
        let* cce := sub64 m ce (r_idx r) in
        let o2 := N.min (r_cnt r) cce in
        let* d := sub64 m o2 cur in
        let* diff := mul64 m d (r_v r) in
        let* adv' := add64 m adv diff in
        let* soff' := add64 m soff diff in
        (* 591-592 *)
        let* q := div64 o2 (r_cnt r) in
        let* carry2 := add64 m carry1 q in
        let* o3 := rem64 o2 (r_cnt r) in
        (* 594-603 *)
        if (r_idx r =? r_co r) && (r_cnt r =? cce) && (soff' <? e) then
          let* (vis, rest, k, a, f) := adv_loop m e rs' carry2 adv' soff' in
          Ok (o3 :: vis, rest, k, a, f)
        else
          let* _ := dbg m (soff' <=? e) in
          Ok ([o3], rs', carry2, adv', soff')
  end.

(** dataset.rs 610-619: the left-over carry, over the dimensions not visited,
    innermost first. *)
Fixpoint carry_loop (m : mode) (rs : list (row * N)) (carry : N) : res (list N) :=
  match rs with
  | [] => Ok []
  | (r, o) :: rs' =>
      let* o1 := add64 m o carry in
      let* carry' := div64 o1 (r_cnt r) in
      let* o2 := rem64 o1 (r_cnt r) in
      if carry' =? 0 then Ok (o2 :: map snd rs')
      else let* os := carry_loop m rs' carry' in Ok (o2 :: os)
  end.

(** dataset.rs 513-515: start = indices + offset_coords. *)
Fixpoint add_lists (m : mode) (a b : list N) : res (list N) :=
  match a, b with
  | x :: a', y :: b' => let* s := add64 m x y in
                        let* r := add_lists m a' b' in Ok (s :: r)
  | _, _ => Ok []
  end.

(** dataset.rs 519: the comparison with [Ordering::Equal]. *)
Definition is_eq (c : comparison) : bool := match c with Eq => true | _ => false end.

(** dataset.rs 498-634: [ChunkSlicer::next]. *)
Definition slicer_next (m : mode) (ds : dataset) (st : slicer)
    : res (option (segment * slicer)) :=
  if s_end st <=? s_offset st then Ok None
  else if is_scalar ds then
    (* 504-510 *)
    let* _ := dbg m (length (d_chunks ds) =? 1)%nat in
    let* off := add64 m (s_offset st) 1 in
    match d_chunks ds with
    | c :: _ => Ok (Some ((c, 0, 1),
                  mkSlicer off (s_coords st) (s_indices st) (s_counts st) (s_end st)))
    | [] => Panic
    end
  else
    let* start := add_lists m (s_indices st) (s_coords st) in
    let* ch := chunk_at_coord m ds start in
    let* _ := dbg_res m (let* o := contains m ch start (d_chunk_shape ds) in Ok (is_eq o)) in
    let* cstart := chunk_start m 0 start (c_offset ch) (d_chunk_dim_sz ds) in
    let rows := mk_rows (s_indices st) (s_counts st) (c_offset ch)
                        (d_chunk_shape ds) (d_chunk_dim_sz ds) (d_shape ds) in
    let* (vis, rest, carry, adv, soff) :=
      adv_loop m (s_end st) (rev (combine rows (s_coords st))) 0 0 (s_offset st) in
    let* rest' := carry_loop m rest carry in
    let* _ := dbg m (0 <? adv) in
    let* cend := add64 m cstart adv in
    let* _ := dbg_res m (let* p := product64 m (d_chunk_shape ds) in Ok (cend <=? p)) in
    Ok (Some ((ch, cstart, cend),
              mkSlicer soff (rev (vis ++ rest')) (s_indices st) (s_counts st) (s_end st))).

(** How an iteration over the segments ends. *)
(** dataset.rs 285-307, 494-634: ways an iteration by [next] can end. *)
Inductive stop : Type := SDone | SPanic | SFuel.

(** Repeated calls of [next]: the segments produced, in order, and how the
    iteration ended.  [fuel] bounds the number of calls. *)
(** dataset.rs 494-634: the iterator, called until it ends. *)
Fixpoint slicer_run (m : mode) (fuel : nat) (ds : dataset) (st : slicer)
    : list segment * stop :=
  match fuel with
  | O => ([], SFuel)
  | S fuel' =>
      match slicer_next m ds st with
      | Ok None => ([], SDone)
      | Ok (Some (sg, st')) =>
          let (l, s) := slicer_run m fuel' ds st' in (sg :: l, s)
      | _ => ([], SPanic)
      end
  end.

(** dataset.rs 294-299: `any(i + c > s)`, short-circuiting left to right. *)
Fixpoint any_oob (m : mode) (idx cnt shape : list N) : res bool :=
  match idx, cnt, shape with
  | i :: idx', c :: cnt', z :: shape' =>
      let* e := add64 m i c in
      if z <? e then Ok true else any_oob m idx' cnt' shape'
  | _, _, _ => Ok false
  end.

(** dataset.rs 292-293: `.unwrap()` turns an error into a panic. *)
Definition unwrap {A} (x : res A) : res A := match x with Err _ => Panic | _ => x end.

(** dataset.rs 287-307: [Dataset::chunk_slices] (the iterator it returns). *)
Definition chunk_slicer (m : mode) (ds : dataset) (e : extents) : res slicer :=
  let* (idx, cnt) := unwrap (get_start_count e (d_shape ds)) in
  let* oob := any_oob m idx cnt (d_shape ds) in
  if oob || existsb (fun c => c =? 0) cnt
  then Ok (slicer_empty ds)
  else slicer_new m ds idx cnt.

(** The segments obtained by iterating [chunk_slices]. *)
(** dataset.rs 285-307: the iterator [chunk_slices] returns, run to its end. *)
Definition chunk_slices (m : mode) (fuel : nat) (ds : dataset) (e : extents)
    : list segment * stop :=
  match chunk_slicer m ds e with
  | Ok st => slicer_run m fuel ds st
  | _ => ([], SPanic)
  end.

(** A segment with its destination offset: (chunk, current, start, end). *)
(** dataset.rs 311, 330: the tuples [group_chunk_slices] returns. *)
Definition gsegment : Type := (chunk * N * N * N)%type.

(** dataset.rs 318-327: the [scan] computing destination offsets. *)
Fixpoint scan_dest (m : mode) (off : N) (l : list segment) : res (list gsegment) :=
  match l with
  | [] => Ok []
  | (c, a, b) :: l' =>
      let* sz := sub64 m b a in
      let* off' := add64 m off sz in
      let* r := scan_dest m off' l' in
      Ok ((c, off, a, b) :: r)
  end.

(** dataset.rs 330: [sort_unstable_by_key(addr)].  Unstable: the model takes any
    result allowed by the documentation, an address-sorted permutation;
    [sort_by_addr] is one of them (insertion sort, used for running the model). *)
Definition g_addr (g : gsegment) : N := let '(c, _, _, _) := g in c_addr c.
Fixpoint addr_insert (g : gsegment) (l : list gsegment) : list gsegment :=
  match l with
  | [] => [g]
  | h :: l' => if g_addr g <=? g_addr h then g :: h :: l' else h :: addr_insert g l'
  end.
Fixpoint sort_by_addr (l : list gsegment) : list gsegment :=
  match l with [] => [] | g :: l' => addr_insert g (sort_by_addr l') end.

(** dataset.rs 311-333: [group_chunk_slices] before the sort: segments with
    destinations, or a panic / fuel exhaustion of the iteration. *)
Definition dest_slices (m : mode) (fuel : nat) (ds : dataset) (e : extents)
    : res (list gsegment) :=
  let (l, s) := chunk_slices m fuel ds e in
  match s with
  | SDone => scan_dest m 0 l
  | SPanic => Panic
  | SFuel => Hang
  end.
(** dataset.rs 311-333: [group_chunk_slices], with the sort as a parameter. *)
Definition group_chunk_slices (sort : list gsegment -> list gsegment)
    (m : mode) (fuel : nat) (ds : dataset) (e : extents) : res (list gsegment) :=
  let* l := dest_slices m fuel ds e in Ok (sort l).
