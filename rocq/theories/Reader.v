(** * Model of /repo/src/reader/: cache.rs, direct.rs, stream.rs and dataset.rs.

    A file is its bytes; [None] is a file that cannot be opened.  Files do not change
    while they are read.  Memory is unlimited (allocation failure is not modelled), and
    [tokio::task::block_in_place] (chunk.rs 33) just runs its closure. *)
From Verif Require Import Base Extent Chunk Dataset Slicer Filters.

(** cache.rs 22, direct.rs 25, stream.rs 34, s3.rs 139: the size of a decoded chunk. *)
Definition chunk_bytes (m : mode) (ds : dataset) : res N :=
  let* p := product64 m (d_chunk_shape ds) in mul64 m p (d_dsize ds).

(** The call of [read_chunk] of every reader (cache.rs 69-78, direct.rs 133-142,
    stream.rs 77, 127; direct.rs 61-70 inlines it). *)
Definition load (m : mode) (inflate : bytes -> option bytes) (file : bytes) (ds : dataset)
    (csz : N) (c : chunk) : res bytes :=
  read_chunk m inflate file (c_addr c) (c_size c) csz (d_dsize ds) (is_some (d_gzip ds)) (d_shuffle ds).

(** cache.rs 48-56, direct.rs 38-46, 114-122, s3.rs 158-165: rank check, byte size of the
    selection, capacity check. *)
Definition read_size (m : mode) (ds : dataset) (e : extents) (dst : bytes) : res N :=
  let* counts := get_counts e (d_shape ds) in
  let* p := product64 m counts in
  let* vsz := mul64 m p (d_dsize ds) in
  let* _ := ensure (vsz <=? lenN dst) ECapacity in
  Ok vsz.

(** ** The LRU cache (crate lru): most recently used entry first. *)
(** cache.rs 15: the [LruCache] (of the crate lru). *)
Definition lru : Type := list (N * bytes).

(** cache.rs 66. *)
Definition lru_find (k : N) (c : lru) : option bytes :=
  match find (fun '(a, _) => a =? k) c with Some (_, v) => Some v | None => None end.
(** cache.rs 66, 85. *)
Definition lru_remove (k : N) (c : lru) : lru := filter (fun '(a, _) => negb (a =? k)) c.

(** [LruCache::get]: promotes the entry. *)
(** cache.rs 66; stream.rs 69-95. *)
Definition lru_get (k : N) (c : lru) : option (bytes * lru) :=
  match lru_find k c with
  | Some v => Some (v, (k, v) :: lru_remove k c)
  | None => None
  end.
(** [LruCache::put]: replaces, or evicts the least recently used entry when full. *)
(** cache.rs 85; stream.rs 69-95. *)
Definition lru_put (cap k : N) (v : bytes) (c : lru) : lru :=
  match lru_find k c with
  | Some _ => (k, v) :: lru_remove k c
  | None => (k, v) :: (if lenN c <? cap then c else removelast c)
  end.

(** cache.rs 21, stream.rs 26. *)
Definition CACHE_SZ : N := 32 * 1024 * 1024.

(** cache.rs 23-28, stream.rs 64-68: capacity in chunks; a zero chunk size panics. *)
Definition cache_cap (csz : N) : res N := let* q := div64 CACHE_SZ csz in Ok (N.max q 1).

(** ** CacheReader *)

(** cache.rs 12-17. *)
Record creader : Type := mkCR {
  cr_ds : dataset;
  cr_file : bytes;
  cr_cap : N;
  cr_csz : N;
  cr_cache : lru
}.

(** cache.rs 20-31: [CacheReader::with_dataset]. *)
Definition cache_new (m : mode) (ds : dataset) (file : bytes) : res creader :=
  let* csz := chunk_bytes m ds in
  let* cap := cache_cap csz in
  Ok (mkCR ds file cap csz []).

(** cache.rs 59-64, direct.rs 73-80: byte range of a segment. *)
Definition byte_range (m : mode) (dsz a b : N) : res (N * N * N) :=
  let* s := mul64 m a dsz in
  let* e := mul64 m b dsz in
  let* _ := dbg m (s <=? e) in
  let* sz := sub64 m e s in
  Ok (s, e, sz).

(** cache.rs 67-69, 80-82: copy a slice of the chunk to position [pos]. *)
Definition copy_slice (m : mode) (data : bytes) (s e sz pos : N) (dst : bytes) : res bytes :=
  let* _ := dbg m (s <=? lenN data) in
  let* _ := dbg m (e <=? lenN data) in
  let* _ := assert_ (pos + sz <=? lenN dst) in
  let* src := slice_range data s e in
  Ok (splice dst pos src).

(** cache.rs 58-87: one segment.  The new destination and write position (or the
    failure), and the cache, which is also updated when the segment fails. *)
Definition cache_seg (m : mode) (inflate : bytes -> option bytes) (r : creader)
    (cache : lru) (sg : segment) (pos : N) (dst : bytes) : res (bytes * N) * lru :=
  let '(c, a, b) := sg in
  match byte_range m (d_dsize (cr_ds r)) a b with
  | Ok (s, e, sz) =>
      match lru_get (c_addr c) cache with
      | Some (data, cache') =>
          (let* dst' := copy_slice m data s e sz pos dst in Ok (dst', pos + sz), cache')
      | None =>
          match load m inflate (cr_file r) (cr_ds r) (cr_csz r) c with
          | Ok data =>
              match copy_slice m data s e sz pos dst with
              | Ok dst' => (Ok (dst', pos + sz), lru_put (cr_cap r) (c_addr c) data cache)
              | x => (failed x, cache)
              end
          | x => (failed x, cache)
          end
      end
  | x => (failed x, cache)
  end.

(** How an iteration of segments that produced them ends the loop over them. *)
(** cache.rs 58-62: the loop ends when the iterator does. *)
Definition stop_res (s : stop) : res unit :=
  match s with SDone => Ok tt | SPanic => Panic | SFuel => Hang end.

(** cache.rs 58-88: the loop. *)
Fixpoint cache_loop (m : mode) (inflate : bytes -> option bytes) (r : creader)
    (segs : list segment) (st : stop) (cache : lru) (pos : N) (dst : bytes)
    : res unit * bytes * lru :=
  match segs with
  | [] => (stop_res st, dst, cache)
  | sg :: segs' =>
      match cache_seg m inflate r cache sg pos dst with
      | (Ok (dst', pos'), cache') => cache_loop m inflate r segs' st cache' pos' dst'
      | (x, cache') => (failed x, dst, cache')
      end
  end.

(** cache.rs 47-91: [CacheReader::read_to]: result, destination afterwards, reader
    afterwards. *)
Definition cache_read (m : mode) (inflate : bytes -> option bytes) (fuel : nat)
    (r : creader) (e : extents) (dst : bytes) : res N * bytes * creader :=
  match read_size m (cr_ds r) e dst with
  | Ok vsz =>
      let (segs, st) := chunk_slices m fuel (cr_ds r) e in
      let '(x, dst', cache') := cache_loop m inflate r segs st (cr_cache r) 0 dst in
      ((let* _ := x in Ok vsz), dst',
       mkCR (cr_ds r) (cr_file r) (cr_cap r) (cr_csz r) cache')
  | x => (failed x, dst, r)
  end.

(** ** Direct, sequential *)

(** direct.rs 14-31. *)
Record direct : Type := mkDirect {
  dr_ds : dataset;
  dr_file : option bytes;
  dr_csz : N
}.
Definition direct_new (m : mode) (ds : dataset) (file : option bytes) : res direct :=
  let* csz := chunk_bytes m ds in Ok (mkDirect ds file csz).

(** direct.rs 149-163, s3.rs 213-221: copy a slice of the chunk to bytes
    [current, current+sz). *)
Definition copy_at (m : mode) (data : bytes) (dsz cur a b : N) (dst : bytes) : res bytes :=
  let* s := mul64 m a dsz in
  let* e := mul64 m b dsz in
  let* p := mul64 m cur dsz in
  let* _ := dbg m (s <=? lenN data) in
  let* _ := dbg m (e <=? lenN data) in
  let* sz := sub64 m e s in
  let* q := add64 m p sz in
  let* _ := assert_ ((p <=? q) && (q <=? lenN dst)) in
  let* src := slice_range data s e in
  let* _ := assert_ (q - p =? lenN src) in
  Ok (splice dst p src).

(** direct.rs 130-147: the last chunk read is kept. *)
Definition direct_load (m : mode) (inflate : bytes -> option bytes) (r : direct)
    (file : bytes) (last : option (N * bytes)) (c : chunk) : res bytes :=
  match last with
  | Some (a, data) => if a =? c_addr c then Ok data else load m inflate file (dr_ds r) (dr_csz r) c
  | None => load m inflate file (dr_ds r) (dr_csz r) c
  end.

(** direct.rs 129-164: the loop. *)
Fixpoint direct_loop (m : mode) (inflate : bytes -> option bytes) (r : direct)
    (file : bytes) (groups : list gsegment) (last : option (N * bytes)) (dst : bytes)
    : res unit * bytes :=
  match groups with
  | [] => (Ok tt, dst)
  | (c, cur, a, b) :: groups' =>
      match direct_load m inflate r file last c with
      | Ok data =>
          match copy_at m data (d_dsize (dr_ds r)) cur a b dst with
          | Ok dst' => direct_loop m inflate r file groups' (Some (c_addr c, data)) dst'
          | x => (failed x, dst)
          end
      | x => (failed x, dst)
      end
  end.

(** direct.rs 113-167: [Direct::read_to]. *)
Definition direct_read (m : mode) (inflate : bytes -> option bytes)
    (sort : list gsegment -> list gsegment) (fuel : nat)
    (r : direct) (e : extents) (dst : bytes) : res N * bytes :=
  match read_size m (dr_ds r) e dst with
  | Ok vsz =>
      match group_chunk_slices sort m fuel (dr_ds r) e with
      | Ok groups =>
          match dr_file r with
          | Some file =>
              let (x, dst') := direct_loop m inflate r file groups None dst in
              ((let* _ := x in Ok vsz), dst')
          | None => (Err EOpen, dst)
          end
      | x => (failed x, dst)
      end
  | x => (failed x, dst)
  end.

(** ** Direct, parallel *)

(** direct.rs 49-50: [chunk_by] equal addresses: maximal runs of consecutive segments
    whose addresses are equal. *)
Fixpoint chunk_by_addr (l : list gsegment) : list (list gsegment) :=
  match l with
  | [] => []
  | g :: l' =>
      match chunk_by_addr l' with
      | (h :: t) :: gs => if g_addr g =? g_addr h then (g :: h :: t) :: gs else [g] :: (h :: t) :: gs
      | gs => [g] :: gs
      end
  end.

(** How a task ends, after its writes. *)
(** direct.rs 52-94. *)
Inductive fin : Type := FOk | FErr (e : err) | FPanic | FUb.

(** A task as the sequence of byte writes (position, byte) it makes, and its end. *)
(** direct.rs 54-93: the closure given to rayon. *)
Definition task : Type := (list (N * N) * fin)%type.

(** direct.rs 55-70: the `?`s. *)
Definition fin_of {A} (x : res A) : fin :=
  match x with Ok _ => FOk | Err e => FErr e | Ub => FUb | _ => FPanic end.

(** direct.rs 72-93: the writes of one segment.  `dst[current..]` and `chunk[start..end]`
    are checked; the copy through the raw pointer is not: writing past the end of the
    destination is undefined behaviour. *)
Definition par_seg (m : mode) (data : bytes) (dsz cur a b dlen : N) : res (list (N * N)) :=
  let* s := mul64 m a dsz in
  let* e := mul64 m b dsz in
  let* p := mul64 m cur dsz in
  let* _ := dbg m (s <=? lenN data) in
  let* _ := dbg m (e <=? lenN data) in
  let* sz := sub64 m e s in
  let* _ := assert_ (p <=? dlen) in
  let* src := slice_range data s e in
  if p + sz <=? dlen then Ok (combine (seqN p (N.to_nat sz)) src) else Ub.

(** direct.rs 70-91. *)
Fixpoint par_segs (m : mode) (data : bytes) (dsz dlen : N) (group : list gsegment) : task :=
  match group with
  | [] => ([], FOk)
  | (_, cur, a, b) :: group' =>
      match par_seg m data dsz cur a b dlen with
      | Ok ws => let (ws', f) := par_segs m data dsz dlen group' in (ws ++ ws', f)
      | x => ([], fin_of x)
      end
  end.

(** direct.rs 55-97: the closure run for one group. *)
Definition par_task (m : mode) (inflate : bytes -> option bytes) (r : direct) (dlen : N)
    (group : list gsegment) : task :=
  match dr_file r with
  | None => ([], FErr EOpen)
  | Some file =>
      match group with
      | [] => ([], FPanic)
      | (c, _, _, _) :: _ =>
          match load m inflate file (dr_ds r) (dr_csz r) c with
          | Ok data => par_segs m data (d_dsize (dr_ds r)) dlen group
          | x => ([], fin_of x)
          end
      end
  end.

(** direct.rs 52-98: rayon's [try_for_each_init]: tasks run concurrently, in any order
    and interleaving (byte by byte); once a task has failed, tasks that have not started
    may be dropped. *)
Inductive tstate : Type :=
| Waiting (t : task) | Running (ws : list (N * N)) (f : fin) | Done (f : fin) | Skipped.

(** direct.rs 52-94: [try_for_each_init] stops early on one. *)
Definition is_failure (f : fin) : Prop := f <> FOk.

(** direct.rs 52-94: one step of rayon's [try_for_each_init]. *)
Inductive pstep : list tstate * bytes -> list tstate * bytes -> Prop :=
| ps_start l1 l2 ws f dst :
    pstep (l1 ++ Waiting (ws, f) :: l2, dst) (l1 ++ Running ws f :: l2, dst)
| ps_write l1 l2 p b ws f dst :
    pstep (l1 ++ Running ((p, b) :: ws) f :: l2, dst) (l1 ++ Running ws f :: l2, splice dst p [b])
| ps_finish l1 l2 f dst :
    pstep (l1 ++ Running [] f :: l2, dst) (l1 ++ Done f :: l2, dst)
| ps_skip l1 l2 t f dst :
    In (Done f) (l1 ++ l2) -> is_failure f ->
    pstep (l1 ++ Waiting t :: l2, dst) (l1 ++ Skipped :: l2, dst).

(** direct.rs 52-94: any number of steps. *)
Inductive psteps : list tstate * bytes -> list tstate * bytes -> Prop :=
| pss_refl s : psteps s s
| pss_step s t u : pstep s t -> psteps t u -> psteps s u.

(** direct.rs 52-94. *)
Definition finished (t : tstate) : Prop :=
  match t with Done _ | Skipped => True | _ => False end.

(** The outcome of the whole: undefined behaviour if some task did it, a panic if one
    panicked, an error of one of the failed tasks, or success. *)
(** direct.rs 52-94. *)
Inductive par_result (l : list tstate) : res unit -> Prop :=
| pr_ub : In (Done FUb) l -> par_result l Ub
| pr_panic : ~ In (Done FUb) l -> In (Done FPanic) l -> par_result l Panic
| pr_err e : ~ In (Done FUb) l -> ~ In (Done FPanic) l -> In (Done (FErr e)) l -> par_result l (Err e)
| pr_ok : (forall f, In (Done f) l -> f = FOk) -> par_result l (Ok tt).

(** direct.rs 35-101: [Direct::read_to_par] as a relation: all outcomes of all schedules. *)
Inductive par_read (m : mode) (inflate : bytes -> option bytes)
    (sort : list gsegment -> list gsegment) (fuel : nat)
    (r : direct) (e : extents) (dst : bytes) : res N -> bytes -> Prop :=
| pa_size x : read_size m (dr_ds r) e dst = x -> (forall v, x <> Ok v) ->
    par_read m inflate sort fuel r e dst x dst
| pa_group v x : read_size m (dr_ds r) e dst = Ok v ->
    group_chunk_slices sort m fuel (dr_ds r) e = x -> (forall v, x <> Ok v) ->
    par_read m inflate sort fuel r e dst (failed x) dst
| pa_run v groups final dst' x : read_size m (dr_ds r) e dst = Ok v ->
    group_chunk_slices sort m fuel (dr_ds r) e = Ok groups ->
    psteps (map (fun g => Waiting (par_task m inflate r (lenN dst) g)) (chunk_by_addr groups), dst)
           (final, dst') ->
    Forall finished final -> par_result final x ->
    par_read m inflate sort fuel r e dst (let* _ := x in Ok v) dst'.

(** ** Typed reads (reader/dataset.rs) *)

(** A reader as a function from a selection and a destination to the result and the
    destination afterwards. *)
(** reader/dataset.rs 12, 92. *)
Definition read_fn : Type := extents -> bytes -> res N * bytes.

(** reader/dataset.rs 46-58 (and 96-108): [values_to] for a type of size [w] and kind [k]:
    [dst] is the byte view of the destination slice. *)
Definition values_to (h : host) (k : kind) (w : nat) (o : order) (read : read_fn)
    (e : extents) (dst : bytes) : res N * bytes :=
  match read e dst with
  | (Ok r, dst') => (Ok r, to_native_slice h k w o dst')
  | x => x
  end.

(** reader/dataset.rs 61-86 (and 111-136): [values]; [al] is the alignment of T.  The
    result is the byte view of the returned vector. *)
Definition values (m : mode) (h : host) (k : kind) (w : nat) (al : N) (ds : dataset) (read : read_fn)
    (e : extents) : res bytes :=
  let* counts := get_counts e (d_shape ds) in
  let* p := product64 m counts in
  let* n := mul64 m p (d_dsize ds) in
  let* vsz := div64 n (N.of_nat w) in
  let* rem := rem64 (d_dsize ds) (N.of_nat w) in
  let* _ := ensure (rem =? 0) ESize in
  let* q := mul64 m (d_dsize ds) vsz in
  let* rem2 := rem64 q al in
  let* _ := ensure (rem2 =? 0) EAlign in
  let (x, dst) := values_to h k w (d_order ds) read e (repeat 0 (N.to_nat vsz * w)) in
  let* _ := x in Ok dst.

(** reader/dataset.rs 138-167: [values_dyn_par]: the array has one element per selected
    element and starts uninitialised ([garbage]: its bytes). *)
Definition values_dyn_par (m : mode) (h : host) (k : kind) (w : nat) (al : N) (ds : dataset)
    (read : read_fn) (garbage : N -> bytes) (e : extents) : res (list N * bytes) :=
  let* counts := get_counts e (d_shape ds) in
  let* p := product64 m counts in
  let* n := mul64 m p (d_dsize ds) in
  let* vsz := div64 n (N.of_nat w) in
  let* rem := rem64 (d_dsize ds) (N.of_nat w) in
  let* _ := ensure (rem =? 0) ESize in
  let* q := mul64 m (d_dsize ds) vsz in
  let* rem2 := rem64 q al in
  let* _ := ensure (rem2 =? 0) EAlign in
  let (x, dst) := values_to h k w (d_order ds) read e (garbage (p * N.of_nat w)) in
  let* _ := x in Ok (counts, dst).

(** ** Streams (stream.rs) *)

(** What a stream does when it is polled to the end: the items, then its end: no more
    items, one error item, or a panic. *)
(** stream.rs 52, 58-97. *)
Inductive send : Type := SEnd | SErr (e : err) | SPan.
(** stream.rs 52, 58-97. *)
Definition send_of {A} (x : res A) : send := match x with Err e => SErr e | _ => SPan end.

(** stream.rs 54-58, 100-104: the slices in bytes, collected when the stream is made. *)
Fixpoint byte_slices (m : mode) (dsz : N) (l : list segment) : res (list (chunk * N * N)) :=
  match l with
  | [] => Ok []
  | (c, a, b) :: l' =>
      let* s := mul64 m a dsz in
      let* e := mul64 m b dsz in
      let* r := byte_slices m dsz l' in
      Ok ((c, s, e) :: r)
  end.
(** Collecting runs the iterator to its end: multiplications and the iterator's own panic
    happen in order, all before the stream exists; any of them is a panic. *)
Definition collect_slices (m : mode) (fuel : nat) (ds : dataset) (e : extents)
    : res (list (chunk * N * N)) :=
  let (segs, st) := chunk_slices m fuel ds e in
  let* l := byte_slices m (d_dsize ds) segs in
  let* _ := stop_res st in Ok l.

(** stream.rs 75-88: [Bytes::slice] with its debug assertions. *)
Definition take_slice (m : mode) (data : bytes) (s e : N) : res bytes :=
  let* _ := dbg m (s <=? lenN data) in
  let* _ := dbg m (e <=? lenN data) in
  slice_range data s e.

(** stream.rs 70-90 ([conv] = the identity, [x] = 1) and 115-145 ([conv] = xdr,
    [x] = the xdr factor): the loop of the stream. *)
Fixpoint stream_loop (m : mode) (get : chunk -> res bytes) (cap : N) (xf : res N)
    (l : list (chunk * N * N)) (cache : lru) : list bytes * send :=
  match l with
  | [] => ([], SEnd)
  | (c, s0, e0) :: l' =>
      match (let* x := xf in let* s := mul64 m s0 x in let* e := mul64 m e0 x in
             let* _ := dbg m (s <=? e) in Ok (s, e)) with
      | Ok (s, e) =>
          match lru_get (c_addr c) cache with
          | Some (data, cache') =>
              match take_slice m data s e with
              | Ok b => let (bs, z) := stream_loop m get cap xf l' cache' in (b :: bs, z)
              | x => ([], send_of x)
              end
          | None =>
              match get c with
              | Ok data =>
                  match take_slice m data s e with
                  | Ok b =>
                      let (bs, z) := stream_loop m get cap xf l' (lru_put cap (c_addr c) data cache) in
                      (b :: bs, z)
                  | x => ([], send_of x)
                  end
              | x => ([], send_of x)
              end
          end
      | x => ([], send_of x)
      end
  end.

(** stream.rs 34-40. *)
Record streamer : Type := mkStreamer { sr_ds : dataset; sr_file : option bytes; sr_csz : N }.
Definition streamer_new (m : mode) (ds : dataset) (file : option bytes) : res streamer :=
  let* csz := chunk_bytes m ds in Ok (mkStreamer ds file csz).

(** stream.rs 48-92: [stream].  The outer result is the call itself. *)
Definition stream (m : mode) (inflate : bytes -> option bytes) (fuel : nat)
    (r : streamer) (e : extents) : res (list bytes * send) :=
  let* l := collect_slices m fuel (sr_ds r) e in
  let* cap := cache_cap (sr_csz r) in
  match sr_file r with
  | None => Ok ([], SErr EOpen)
  | Some file => Ok (stream_loop m (load m inflate file (sr_ds r) (sr_csz r)) cap (Ok 1) l [])
  end.

(** stream.rs 95-147: [stream_xdr]; [al1], [al2]: alignment of the two buffers. *)
Definition stream_xdr (m : mode) (h : host) (al1 al2 : bool) (inflate : bytes -> option bytes)
    (fuel : nat) (r : streamer) (e : extents) : res (list bytes * send) :=
  let* l := collect_slices m fuel (sr_ds r) e in
  let* cap := cache_cap (sr_csz r) in
  match sr_file r with
  | None => Ok ([], SErr EOpen)
  | Some file =>
      Ok (stream_loop m
            (fun c => let* data := load m inflate file (sr_ds r) (sr_csz r) c in
                      xdr h al1 al2 data (d_dtype (sr_ds r)) (d_order (sr_ds r)))
            cap (xdr_factor (d_dtype (sr_ds r))) l [])
  end.

(** reader/dataset.rs 190-220: [stream_values]: each item cast to values ([al]: whether
    the bytes are aligned) and converted to native order.  A failed cast is an error item;
    the stream goes on. *)
Definition stream_values (h : host) (k : kind) (w : nat) (al : bool) (o : order)
    (items : list bytes) : list (res bytes) :=
  map (fun b => let* _ := cast_ok al w b in Ok (to_native_slice h k w o b)) items.
