(** * Model of the sequential readers down to their system calls, and of many readers at once:
    /repo/src/reader/cache.rs 47-91, direct.rs 113-167 and 35-101, over reader/chunk.rs 4-11;
    examples/read_hfx_concurrent.rs and benches/concurrency.rs read like this.

    A cached reader has a descriptor of its own (reader/dataset.rs, idx/dataset/any.rs 57-66:
    opened when it is made), which stays where the read before left it.  A direct reader opens
    one for every sequential read (direct.rs 126), a parallel read one for every run of groups
    (direct.rs 53).  The file is not changed meanwhile.  The segments of a selection are
    computed when the read begins, and not one by one: nothing else depends on that.  With
    [faults] calls may fail for no reason of ours. *)
From Verif Require Import Base Extent Chunk Dataset Slicer Filters Reader Syscalls ParSys.

(** chunk.rs 21-36: what follows [read_chunk_to]. *)
Definition decoded (m : mode) (inflate : bytes -> option bytes) (ds : dataset) (csz : N) (raw : bytes) : res bytes :=
  decode_chunk m inflate raw csz (d_dsize ds) (is_some (d_gzip ds)) (d_shuffle ds).

(** chunk.rs 8-9: `?`. *)
Definition broken (w : worker) : Prop := w_phase w = AtEnd \/ w_phase w = Refused \/ w_phase w = Fault.

(** A cached read under way. *)
Inductive kstate : Type :=
| KTop (segs : list segment) (cache : lru) (pos : N) (dst : bytes) (fp : N)      (* cache.rs 58 *)
| KLoad (sg : segment) (segs : list segment) (cache : lru) (pos : N) (dst : bytes) (w : worker) (* 72-81 *)
| KOver (x : res unit) (dst : bytes) (cache : lru) (fp : N).
(** A sequential read of a direct reader under way. *)
Inductive qstate : Type :=
| QTop (groups : list gsegment) (last : option (N * bytes)) (dst : bytes) (fp : N)   (* direct.rs 129 *)
| QLoad (g : gsegment) (groups : list gsegment) (dst : bytes) (w : worker)           (* 133-142 *)
| QOver (x : res unit) (dst : bytes).

Section Steps.
Context (faults : bool) (m : mode) (inflate : bytes -> option bytes).

(** cache.rs 58-88: one step. *)
Inductive kstep (r : creader) (st : stop) : kstate -> kstate -> Prop :=
| ks_end cache pos dst fp : kstep r st (KTop [] cache pos dst fp) (KOver (stop_res st) dst cache fp)
(* 59-64 *)
| ks_range c a b segs cache pos dst fp x : byte_range m (d_dsize (cr_ds r)) a b = x -> (forall v, x <> Ok v) ->
    kstep r st (KTop ((c, a, b) :: segs) cache pos dst fp) (KOver (failed x) dst cache fp)
(* 66-69, 87 *)
| ks_hit c a b segs cache cache' pos dst dst' fp s e sz data : byte_range m (d_dsize (cr_ds r)) a b = Ok (s, e, sz) ->
    lru_get (c_addr c) cache = Some (data, cache') -> copy_slice m data s e sz pos dst = Ok dst' ->
    kstep r st (KTop ((c, a, b) :: segs) cache pos dst fp) (KTop segs cache' (pos + sz) dst' fp)
| ks_hitbad c a b segs cache cache' pos dst fp s e sz data x : byte_range m (d_dsize (cr_ds r)) a b = Ok (s, e, sz) ->
    lru_get (c_addr c) cache = Some (data, cache') -> copy_slice m data s e sz pos dst = x -> (forall v, x <> Ok v) ->
    kstep r st (KTop ((c, a, b) :: segs) cache pos dst fp) (KOver (failed x) dst cache' fp)
(* 71-72 *)
| ks_miss c a b segs cache pos dst fp v : byte_range m (d_dsize (cr_ds r)) a b = Ok v -> lru_get (c_addr c) cache = None ->
    kstep r st (KTop ((c, a, b) :: segs) cache pos dst fp)
      (KLoad (c, a, b) segs cache pos dst (mkWorker [(c_addr c, c_size c)] fp Idle []))
(* chunk.rs 8-9 *)
| ks_call sg segs cache pos dst w w' : wstep (cr_file r) w w' -> (faults = true \/ w_phase w' <> Fault) ->
    kstep r st (KLoad sg segs cache pos dst w) (KLoad sg segs cache pos dst w')
| ks_fail sg segs cache pos dst w : broken w ->
    kstep r st (KLoad sg segs cache pos dst w) (KOver (Err EIo) dst cache (w_pos w))
(* cache.rs 72-87, after chunk.rs 9 *)
| ks_loaded c a b segs cache pos dst dst' w raw data s e sz : w_todo w = [] -> w_phase w = Idle -> w_got w = [raw] ->
    byte_range m (d_dsize (cr_ds r)) a b = Ok (s, e, sz) ->
    decoded m inflate (cr_ds r) (cr_csz r) raw = Ok data -> copy_slice m data s e sz pos dst = Ok dst' ->
    kstep r st (KLoad (c, a, b) segs cache pos dst w)
      (KTop segs (lru_put (cr_cap r) (c_addr c) data cache) (pos + sz) dst' (w_pos w))
| ks_decode c a b segs cache pos dst w raw x : w_todo w = [] -> w_phase w = Idle -> w_got w = [raw] ->
    decoded m inflate (cr_ds r) (cr_csz r) raw = x -> (forall v, x <> Ok v) ->
    kstep r st (KLoad (c, a, b) segs cache pos dst w) (KOver (failed x) dst cache (w_pos w))
| ks_loadbad c a b segs cache pos dst w raw data s e sz x : w_todo w = [] -> w_phase w = Idle -> w_got w = [raw] ->
    byte_range m (d_dsize (cr_ds r)) a b = Ok (s, e, sz) ->
    decoded m inflate (cr_ds r) (cr_csz r) raw = Ok data -> copy_slice m data s e sz pos dst = x -> (forall v, x <> Ok v) ->
    kstep r st (KLoad (c, a, b) segs cache pos dst w) (KOver (failed x) dst cache (w_pos w)).

(** direct.rs 129-164: one step. *)
Inductive qstep (r : direct) (file : bytes) : qstate -> qstate -> Prop :=
| qs_end last dst fp : qstep r file (QTop [] last dst fp) (QOver (Ok tt) dst)
(* 131-132: the chunk read last *)
| qs_kept c cur a b groups data dst dst' fp : copy_at m data (d_dsize (dr_ds r)) cur a b dst = Ok dst' ->
    qstep r file (QTop ((c, cur, a, b) :: groups) (Some (c_addr c, data)) dst fp)
      (QTop groups (Some (c_addr c, data)) dst' fp)
| qs_keptbad c cur a b groups data dst fp x : copy_at m data (d_dsize (dr_ds r)) cur a b dst = x -> (forall v, x <> Ok v) ->
    qstep r file (QTop ((c, cur, a, b) :: groups) (Some (c_addr c, data)) dst fp) (QOver (failed x) dst)
(* 133 *)
| qs_load c cur a b groups last dst fp : (forall data, last <> Some (c_addr c, data)) ->
    qstep r file (QTop ((c, cur, a, b) :: groups) last dst fp)
      (QLoad (c, cur, a, b) groups dst (mkWorker [(c_addr c, c_size c)] fp Idle []))
| qs_call g groups dst w w' : wstep file w w' -> (faults = true \/ w_phase w' <> Fault) ->
    qstep r file (QLoad g groups dst w) (QLoad g groups dst w')
| qs_fail g groups dst w : broken w -> qstep r file (QLoad g groups dst w) (QOver (Err EIo) dst)
| qs_loaded c cur a b groups dst dst' w raw data : w_todo w = [] -> w_phase w = Idle -> w_got w = [raw] ->
    decoded m inflate (dr_ds r) (dr_csz r) raw = Ok data -> copy_at m data (d_dsize (dr_ds r)) cur a b dst = Ok dst' ->
    qstep r file (QLoad (c, cur, a, b) groups dst w) (QTop groups (Some (c_addr c, data)) dst' (w_pos w))
| qs_decode c cur a b groups dst w raw x : w_todo w = [] -> w_phase w = Idle -> w_got w = [raw] ->
    decoded m inflate (dr_ds r) (dr_csz r) raw = x -> (forall v, x <> Ok v) ->
    qstep r file (QLoad (c, cur, a, b) groups dst w) (QOver (failed x) dst)
| qs_loadbad c cur a b groups dst w raw data x : w_todo w = [] -> w_phase w = Idle -> w_got w = [raw] ->
    decoded m inflate (dr_ds r) (dr_csz r) raw = Ok data -> copy_at m data (d_dsize (dr_ds r)) cur a b dst = x -> (forall v, x <> Ok v) ->
    qstep r file (QLoad (c, cur, a, b) groups dst w) (QOver (failed x) dst).

Context (sort : list gsegment -> list gsegment) (fuel : nat).

(** A thread that makes read after read, with the reader it has: what it is doing. *)
Inductive client : Type :=
| CFree (r : creader) (fp : N)                                                     (* a cached reader *)
| CBusy (r : creader) (e : extents) (dst : bytes) (v : N) (st : stop) (k : kstate)
| DFree (r : direct)                                                               (* a direct reader, read_to *)
| DBusy (r : direct) (file : bytes) (e : extents) (dst : bytes) (v : N) (q : qstate)
| PFree (r : direct)                                                               (* a direct reader, read_to_par *)
| PBusy (r : direct) (e : extents) (dst : bytes) (v : N) (s : list ctask * bytes).
(** A read that is over: the selection, the buffer before, the result and the buffer after. *)
Definition entry : Type := (extents * bytes * res N * bytes)%type.

(** One step of one thread, and the read that ends with it. *)
Inductive clstep : client -> option entry -> client -> Prop :=
(* cache.rs 48-56 *)
| cl_csize r fp e dst x : read_size m (cr_ds r) e dst = x -> (forall v, x <> Ok v) ->
    clstep (CFree r fp) (Some (e, dst, x, dst)) (CFree r fp)
| cl_cbegin r fp e dst v segs st : read_size m (cr_ds r) e dst = Ok v -> chunk_slices m fuel (cr_ds r) e = (segs, st) ->
    clstep (CFree r fp) None (CBusy r e dst v st (KTop segs (cr_cache r) 0 dst fp))
| cl_cstep r e dst v st k k' : kstep r st k k' -> clstep (CBusy r e dst v st k) None (CBusy r e dst v st k')
| cl_cend r e dst v st x dst' cache fp :
    clstep (CBusy r e dst v st (KOver x dst' cache fp)) (Some (e, dst, (let* _ := x in Ok v), dst'))
      (CFree (mkCR (cr_ds r) (cr_file r) (cr_cap r) (cr_csz r) cache) fp)
(* direct.rs 114-127 *)
| cl_dsize r e dst x : read_size m (dr_ds r) e dst = x -> (forall v, x <> Ok v) ->
    clstep (DFree r) (Some (e, dst, x, dst)) (DFree r)
| cl_dgroup r e dst v x : read_size m (dr_ds r) e dst = Ok v -> group_chunk_slices sort m fuel (dr_ds r) e = x -> (forall g, x <> Ok g) ->
    clstep (DFree r) (Some (e, dst, failed x, dst)) (DFree r)
| cl_dopen r e dst v groups : read_size m (dr_ds r) e dst = Ok v -> group_chunk_slices sort m fuel (dr_ds r) e = Ok groups ->
    (dr_file r = None \/ faults = true) -> clstep (DFree r) (Some (e, dst, Err EOpen, dst)) (DFree r)
| cl_dbegin r file e dst v groups : read_size m (dr_ds r) e dst = Ok v -> group_chunk_slices sort m fuel (dr_ds r) e = Ok groups ->
    dr_file r = Some file -> clstep (DFree r) None (DBusy r file e dst v (QTop groups None dst 0))
| cl_dstep r file e dst v q q' : qstep r file q q' -> clstep (DBusy r file e dst v q) None (DBusy r file e dst v q')
| cl_dend r file e dst v x dst' :
    clstep (DBusy r file e dst v (QOver x dst')) (Some (e, dst, (let* _ := x in Ok v), dst')) (DFree r)
(* direct.rs 36-50 *)
| cl_psize r e dst x : read_size m (dr_ds r) e dst = x -> (forall v, x <> Ok v) ->
    clstep (PFree r) (Some (e, dst, x, dst)) (PFree r)
| cl_pgroup r e dst v x : read_size m (dr_ds r) e dst = Ok v -> group_chunk_slices sort m fuel (dr_ds r) e = x -> (forall g, x <> Ok g) ->
    clstep (PFree r) (Some (e, dst, failed x, dst)) (PFree r)
| cl_pbegin r e dst v groups : read_size m (dr_ds r) e dst = Ok v -> group_chunk_slices sort m fuel (dr_ds r) e = Ok groups ->
    clstep (PFree r) None (PBusy r e dst v (map CWait (chunk_by_addr groups), dst))
| cl_pstep r e dst v s s' : cstep faults m inflate r (lenN dst) s s' -> clstep (PBusy r e dst v s) None (PBusy r e dst v s')
| cl_pend r e dst v final ends dst' x : map ended final = map Some ends -> par_result ends x ->
    clstep (PBusy r e dst v (final, dst')) (Some (e, dst, (let* _ := x in Ok v), dst')) (PFree r).

(** Any number of threads, each with the reads it has made so far, in any order. *)
Definition thread : Type := (client * list entry)%type.
Definition noted (o : option entry) : list entry := match o with Some x => [x] | None => [] end.
Inductive mstep : list thread -> list thread -> Prop :=
| ms_one l1 l2 c o c' log : clstep c o c' -> mstep (l1 ++ (c, log) :: l2) (l1 ++ (c', log ++ noted o) :: l2).
Inductive msteps : list thread -> list thread -> Prop :=
| mss_refl s : msteps s s
| mss_step s t u : mstep s t -> msteps t u -> msteps s u.
End Steps.
