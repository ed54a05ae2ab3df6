(** * Model of reads of a source that fails at times: /repo/src/reader/cache.rs 47-91 and
    direct.rs 113-167, where any call of [read_chunk] may return an error for no reason of
    ours (a failing disk or network; [CacheReader] takes any source that can read and seek).

    [os] tells of every load to come whether it fails; after its end none does. *)
From Verif Require Import Base Extent Chunk Dataset Slicer Filters Reader.

Section Faults.
Context (m : mode) (inflate : bytes -> option bytes).

(** cache.rs 58-87: one segment: a chunk that is not in the cache is loaded, and that may
    fail (72-81: `?`). *)
Definition cache_seg_f (r : creader) (os : list bool) (cache : lru) (sg : segment) (pos : N) (dst : bytes)
    : res (bytes * N) * lru * list bool :=
  let '(c, a, b) := sg in
  match byte_range m (d_dsize (cr_ds r)) a b with
  | Ok _ =>
      match lru_get (c_addr c) cache with
      | Some _ => (cache_seg m inflate r cache sg pos dst, os)
      | None =>
          match os with
          | true :: os' => ((Err EIo, cache), os')
          | _ => (cache_seg m inflate r cache sg pos dst, tl os)
          end
      end
  | _ => (cache_seg m inflate r cache sg pos dst, os)
  end.
(** cache.rs 58-88. *)
Fixpoint cache_loop_f (r : creader) (segs : list segment) (st : stop) (os : list bool) (cache : lru) (pos : N) (dst : bytes)
    : res unit * bytes * lru :=
  match segs with
  | [] => (stop_res st, dst, cache)
  | sg :: segs' =>
      match cache_seg_f r os cache sg pos dst with
      | (Ok (dst', pos'), cache', os') => cache_loop_f r segs' st os' cache' pos' dst'
      | (x, cache', _) => (failed x, dst, cache')
      end
  end.
(** cache.rs 47-91. *)
Definition cache_read_f (fuel : nat) (os : list bool) (r : creader) (e : extents) (dst : bytes) : res N * bytes * creader :=
  match read_size m (cr_ds r) e dst with
  | Ok vsz =>
      let (segs, st) := chunk_slices m fuel (cr_ds r) e in
      let '(x, dst', cache') := cache_loop_f r segs st os (cr_cache r) 0 dst in
      ((let* _ := x in Ok vsz), dst', mkCR (cr_ds r) (cr_file r) (cr_cap r) (cr_csz r) cache')
  | x => (failed x, dst, r)
  end.

(** direct.rs 130-147: the last chunk is kept, any other is loaded. *)
Definition direct_load_f (r : direct) (file : bytes) (os : list bool) (last : option (N * bytes)) (c : chunk) : res bytes * list bool :=
  let loads := match last with Some (a, _) => negb (a =? c_addr c) | None => true end in
  if loads then match os with
                | true :: os' => (Err EIo, os')
                | _ => (direct_load m inflate r file last c, tl os)
                end
  else (direct_load m inflate r file last c, os).
(** direct.rs 129-164. *)
Fixpoint direct_loop_f (r : direct) (file : bytes) (groups : list gsegment) (os : list bool) (last : option (N * bytes)) (dst : bytes)
    : res unit * bytes :=
  match groups with
  | [] => (Ok tt, dst)
  | (c, cur, a, b) :: groups' =>
      match direct_load_f r file os last c with
      | (Ok data, os') =>
          match copy_at m data (d_dsize (dr_ds r)) cur a b dst with
          | Ok dst' => direct_loop_f r file groups' os' (Some (c_addr c, data)) dst'
          | x => (failed x, dst)
          end
      | (x, _) => (failed x, dst)
      end
  end.
(** direct.rs 113-167; [opens]: whether the open succeeds (129). *)
Definition direct_read_f (sort : list gsegment -> list gsegment) (fuel : nat) (opens : bool) (os : list bool)
    (r : direct) (e : extents) (dst : bytes) : res N * bytes :=
  match read_size m (dr_ds r) e dst with
  | Ok vsz =>
      match group_chunk_slices sort m fuel (dr_ds r) e with
      | Ok groups =>
          match dr_file r, opens with
          | Some file, true =>
              let (x, dst') := direct_loop_f r file groups os None dst in
              ((let* _ := x in Ok vsz), dst')
          | _, _ => (Err EOpen, dst)
          end
      | x => (failed x, dst)
      end
  | x => (failed x, dst)
  end.
End Faults.
