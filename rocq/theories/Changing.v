(** * Model of reads of a file that other processes write meanwhile (nothing is locked):
    /repo/src/reader/chunk.rs 4-11, direct.rs 35-101 and 113-167, cache.rs 47-91.

    The system calls of Syscalls.v and ParSys.v are made on the file as it is at that moment.
    [P] tells which contents the file may have. *)
From Verif Require Import Base Extent Chunk Dataset Slicer Filters Reader Syscalls ParSys.

(** chunk.rs 4-11: a call, or a write by another process between two calls. *)
Inductive lstep (P : bytes -> Prop) : bytes * list worker -> bytes * list worker -> Prop :=
| ls_call f l l' : sstep f l l' -> lstep P (f, l) (f, l')
| ls_write f f' l : P f' -> lstep P (f, l) (f', l).
Inductive lsteps (P : bytes -> Prop) : bytes * list worker -> bytes * list worker -> Prop :=
| lss_refl s : lsteps P s s
| lss_step s t u : lstep P s t -> lsteps P t u -> lsteps P s u.

(** direct.rs 52-98: the same for a parallel read. *)
Definition on_file (r : direct) (f : bytes) : direct := mkDirect (dr_ds r) (Some f) (dr_csz r).
Inductive vstep (P : bytes -> Prop) (faults : bool) (m : mode) (inflate : bytes -> option bytes) (r : direct) (dlen : N) :
    bytes * (list ctask * bytes) -> bytes * (list ctask * bytes) -> Prop :=
| vs_task f s t : cstep faults m inflate (on_file r f) dlen s t -> vstep P faults m inflate r dlen (f, s) (f, t)
| vs_write f f' s : P f' -> vstep P faults m inflate r dlen (f, s) (f', s).
Inductive vsteps (P : bytes -> Prop) (faults : bool) (m : mode) (inflate : bytes -> option bytes) (r : direct) (dlen : N) :
    bytes * (list ctask * bytes) -> bytes * (list ctask * bytes) -> Prop :=
| vss_refl s : vsteps P faults m inflate r dlen s s
| vss_step s t u : vstep P faults m inflate r dlen s t -> vsteps P faults m inflate r dlen t u -> vsteps P faults m inflate r dlen s u.

(** direct.rs 35-101, beginning with the contents [f] of the file. *)
Inductive live_read (P : bytes -> Prop) (faults : bool) (m : mode) (inflate : bytes -> option bytes)
    (sort : list gsegment -> list gsegment) (fuel : nat)
    (r : direct) (f : bytes) (e : extents) (dst : bytes) : res N -> bytes -> Prop :=
| lv_size x : read_size m (dr_ds r) e dst = x -> (forall v, x <> Ok v) ->
    live_read P faults m inflate sort fuel r f e dst x dst
| lv_group v x : read_size m (dr_ds r) e dst = Ok v ->
    group_chunk_slices sort m fuel (dr_ds r) e = x -> (forall v, x <> Ok v) ->
    live_read P faults m inflate sort fuel r f e dst (failed x) dst
| lv_run v groups f' final ends dst' x : read_size m (dr_ds r) e dst = Ok v ->
    group_chunk_slices sort m fuel (dr_ds r) e = Ok groups ->
    vsteps P faults m inflate r (lenN dst) (f, (map CWait (chunk_by_addr groups), dst)) (f', (final, dst')) ->
    map ended final = map Some ends -> par_result ends x ->
    live_read P faults m inflate sort fuel r f e dst (let* _ := x in Ok v) dst'.

(** The sequential readers: every load that is made meets the file of the next version in
    [fs]; after the last it does not change any more. *)
Section Versions.
Context (m : mode) (inflate : bytes -> option bytes).

(** cache.rs 58-87; [cur] is the file now. *)
Definition cache_seg_v (r : creader) (cur : bytes) (fs : list bytes) (cache : lru) (sg : segment) (pos : N) (dst : bytes)
    : res (bytes * N) * lru * (bytes * list bytes) :=
  match lru_get (c_addr (fst (fst sg))) cache with
  | Some _ => (cache_seg m inflate r cache sg pos dst, (cur, fs))
  | None =>
      let f := match fs with f :: _ => f | [] => cur end in
      (cache_seg m inflate (mkCR (cr_ds r) f (cr_cap r) (cr_csz r) (cr_cache r)) cache sg pos dst, (f, tl fs))
  end.
(** cache.rs 58-88. *)
Fixpoint cache_loop_v (r : creader) (segs : list segment) (st : stop) (cur : bytes) (fs : list bytes) (cache : lru) (pos : N) (dst : bytes)
    : res unit * bytes * lru * bytes :=
  match segs with
  | [] => (stop_res st, dst, cache, cur)
  | sg :: segs' =>
      match cache_seg_v r cur fs cache sg pos dst with
      | (Ok (dst', pos'), cache', (cur', fs')) => cache_loop_v r segs' st cur' fs' cache' pos' dst'
      | (x, cache', (cur', _)) => (failed x, dst, cache', cur')
      end
  end.
(** cache.rs 47-91. *)
Definition cache_read_v (fuel : nat) (fs : list bytes) (r : creader) (e : extents) (dst : bytes) : res N * bytes * creader :=
  match read_size m (cr_ds r) e dst with
  | Ok vsz =>
      let (segs, st) := chunk_slices m fuel (cr_ds r) e in
      let '(x, dst', cache', cur) := cache_loop_v r segs st (cr_file r) fs (cr_cache r) 0 dst in
      ((let* _ := x in Ok vsz), dst', mkCR (cr_ds r) cur (cr_cap r) (cr_csz r) cache')
  | x => (failed x, dst, r)
  end.

(** direct.rs 129-164. *)
Fixpoint direct_loop_v (r : direct) (groups : list gsegment) (cur : bytes) (fs : list bytes) (last : option (N * bytes)) (dst : bytes)
    : res unit * bytes :=
  match groups with
  | [] => (Ok tt, dst)
  | (c, o, a, b) :: groups' =>
      let loads := match last with Some (k, _) => negb (k =? c_addr c) | None => true end in
      let f := if loads then match fs with f :: _ => f | [] => cur end else cur in
      let fs' := if loads then tl fs else fs in
      match direct_load m inflate r f last c with
      | Ok data =>
          match copy_at m data (d_dsize (dr_ds r)) o a b dst with
          | Ok dst' => direct_loop_v r groups' f fs' (Some (c_addr c, data)) dst'
          | x => (failed x, dst)
          end
      | x => (failed x, dst)
      end
  end.
(** direct.rs 113-167. *)
Definition direct_read_v (sort : list gsegment -> list gsegment) (fuel : nat) (fs : list bytes)
    (r : direct) (e : extents) (dst : bytes) : res N * bytes :=
  match read_size m (dr_ds r) e dst with
  | Ok vsz =>
      match group_chunk_slices sort m fuel (dr_ds r) e with
      | Ok groups =>
          match dr_file r with
          | Some file =>
              let (x, dst') := direct_loop_v r groups file fs None dst in
              ((let* _ := x in Ok vsz), dst')
          | None => (Err EOpen, dst)
          end
      | x => (failed x, dst)
      end
  | x => (failed x, dst)
  end.
End Versions.
