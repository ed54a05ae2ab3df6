(** * The readers of Reader.v with a log of the chunks they read from the file.

    The logs mirror where each reader calls [read_chunk] (cache.rs 71-79, direct.rs 55-70
    and 130-147); [cache_io_erase] and [direct_io_erase] show that without the log these
    are the readers of Reader.v. *)
From Verif Require Import Base Extent Chunk Dataset Slicer Filters Reader.

(** cache.rs 58-87: the file is read when the address is not in the cache. *)
Definition cache_seg_io (m : mode) (inflate : bytes -> option bytes) (r : creader)
    (cache : lru) (sg : segment) (pos : N) (dst : bytes) : res (bytes * N) * lru * list chunk :=
  let '(c, a, b) := sg in
  (cache_seg m inflate r cache sg pos dst,
   match byte_range m (d_dsize (cr_ds r)) a b with
   | Ok _ => match lru_get (c_addr c) cache with Some _ => [] | None => [c] end
   | _ => []
   end).
Fixpoint cache_loop_io (m : mode) (inflate : bytes -> option bytes) (r : creader)
    (segs : list segment) (st : stop) (cache : lru) (pos : N) (dst : bytes)
    : res unit * bytes * lru * list chunk :=
  match segs with
  | [] => (stop_res st, dst, cache, [])
  | sg :: segs' =>
      match cache_seg_io m inflate r cache sg pos dst with
      | (Ok (dst', pos'), cache', io) =>
          let (y, io') := cache_loop_io m inflate r segs' st cache' pos' dst' in (y, io ++ io')
      | (x, cache', io) => (failed x, dst, cache', io)
      end
  end.
(** cache.rs 47-91. *)
Definition cache_read_io (m : mode) (inflate : bytes -> option bytes) (fuel : nat)
    (r : creader) (e : extents) (dst : bytes) : res N * bytes * creader * list chunk :=
  match read_size m (cr_ds r) e dst with
  | Ok vsz =>
      let (segs, st) := chunk_slices m fuel (cr_ds r) e in
      let '(x, dst', cache', io) := cache_loop_io m inflate r segs st (cr_cache r) 0 dst in
      ((let* _ := x in Ok vsz), dst', mkCR (cr_ds r) (cr_file r) (cr_cap r) (cr_csz r) cache', io)
  | x => (failed x, dst, r, [])
  end.

(** direct.rs 129-164: the file is read when the address differs from the last one. *)
Definition last_is (last : option (N * bytes)) (c : chunk) : bool :=
  match last with Some (a, _) => a =? c_addr c | None => false end.
Fixpoint direct_loop_io (m : mode) (inflate : bytes -> option bytes) (r : direct)
    (file : bytes) (groups : list gsegment) (last : option (N * bytes)) (dst : bytes)
    : res unit * bytes * list chunk :=
  match groups with
  | [] => (Ok tt, dst, [])
  | (c, cur, a, b) :: groups' =>
      let io := if last_is last c then [] else [c] in
      match direct_load m inflate r file last c with
      | Ok data =>
          match copy_at m data (d_dsize (dr_ds r)) cur a b dst with
          | Ok dst' =>
              let (y, io') := direct_loop_io m inflate r file groups' (Some (c_addr c, data)) dst' in (y, io ++ io')
          | x => (failed x, dst, io)
          end
      | x => (failed x, dst, io)
      end
  end.
(** direct.rs 113-167. *)
Definition direct_read_io (m : mode) (inflate : bytes -> option bytes)
    (sort : list gsegment -> list gsegment) (fuel : nat)
    (r : direct) (e : extents) (dst : bytes) : res N * bytes * list chunk :=
  match read_size m (dr_ds r) e dst with
  | Ok vsz =>
      match group_chunk_slices sort m fuel (dr_ds r) e with
      | Ok groups =>
          match dr_file r with
          | Some file =>
              let '(x, dst', io) := direct_loop_io m inflate r file groups None dst in
              ((let* _ := x in Ok vsz), dst', io)
          | None => (Err EOpen, dst, [])
          end
      | x => (failed x, dst, [])
      end
  | x => (failed x, dst, [])
  end.

(** direct.rs 49-70: each task of the parallel reader reads the chunk of its first segment,
    once; the chunks read when all tasks are started. *)
Definition par_io (sort : list gsegment -> list gsegment) (m : mode) (fuel : nat) (ds : dataset) (e : extents)
    : list chunk :=
  match group_chunk_slices sort m fuel ds e with
  | Ok groups => flat_map (fun g => match g with (c, _, _, _) :: _ => [c] | [] => [] end) (chunk_by_addr groups)
  | _ => []
  end.

(** ** Erasure *)

Lemma cache_loop_erase m inflate r st : forall segs cache pos dst,
  fst (cache_loop_io m inflate r segs st cache pos dst) = cache_loop m inflate r segs st cache pos dst.
Proof.
  induction segs as [|[[c a] b] segs IH]; intros cache pos dst; cbn [cache_loop_io cache_loop]; auto.
  unfold cache_seg_io.
  destruct (cache_seg m inflate r cache (c, a, b) pos dst) as [[[dst' pos']| | | |] cache']; auto.
  rewrite <- IH. now destruct (cache_loop_io m inflate r segs st cache' pos' dst').
Qed.
Lemma cache_io_erase m inflate fuel r e dst : fst (cache_read_io m inflate fuel r e dst) = cache_read m inflate fuel r e dst.
Proof.
  unfold cache_read_io, cache_read. destruct (read_size m (cr_ds r) e dst); auto.
  destruct (chunk_slices m fuel (cr_ds r) e) as [segs st]. rewrite <- cache_loop_erase.
  now destruct (cache_loop_io m inflate r segs st (cr_cache r) 0 dst) as [[[x d] c] io].
Qed.
Lemma direct_loop_erase m inflate r file : forall G last dst,
  fst (direct_loop_io m inflate r file G last dst) = direct_loop m inflate r file G last dst.
Proof.
  induction G as [|[[[c cur] a] b] G IH]; intros last dst; cbn [direct_loop_io direct_loop]; auto.
  destruct (direct_load m inflate r file last c); auto.
  destruct (copy_at m a0 (d_dsize (dr_ds r)) cur a b dst); auto.
  rewrite <- IH. now destruct (direct_loop_io m inflate r file G (Some (c_addr c, a0)) a1).
Qed.
Lemma direct_io_erase m inflate sort fuel r e dst :
  fst (direct_read_io m inflate sort fuel r e dst) = direct_read m inflate sort fuel r e dst.
Proof.
  unfold direct_read_io, direct_read. destruct (read_size m (dr_ds r) e dst); auto.
  destruct (group_chunk_slices sort m fuel (dr_ds r) e); auto. destruct (dr_file r); auto.
  rewrite <- direct_loop_erase. now destruct (direct_loop_io m inflate r b a0 None dst) as [[x d] io].
Qed.
