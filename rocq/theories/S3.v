(** * Model of /repo/src/reader/s3.rs.

    A server answers a range request (first and last byte) with a failure, or a status
    and a body.  Any server is considered, also one that answers nonsense.  Each request
    is made once, so a function of the range is general enough.  [block_on]
    (s3.rs 109-130) just runs its future. *)
From Verif Require Import Base Extent Chunk Dataset Slicer Filters Reader.

(** s3.rs 43, 46. *)
Definition COALESCE_GAP : N := 32 * 1024.
Definition MAX_REQUEST_SZ : N := 8 * 1024 * 1024.

(** s3.rs 57-69: a request: first byte, one past the last byte, chunks with their
    segments (destination, start, end). *)
Definition seg3 : Type := (N * N * N)%type.
Record request : Type := mkReq {
  q_start : N;
  q_end : N;
  q_chunks : list (chunk * list seg3)
}.

(** s3.rs 79-101: one step of the loop.  The lists being built (requests, chunks of a
    request, segments of a chunk) are kept newest first, so that `last_mut` is the head. *)
Definition req_step (m : mode) (acc : list request) (g : gsegment) : res (list request) :=
  let '(c, cur, a, b) := g in
  let new := let* e := add64 m (c_addr c) (c_size c) in
             Ok (mkReq (c_addr c) e [(c, [(cur, a, b)])] :: acc) in
  match acc with
  | [] => new
  | r :: acc' =>
      match q_chunks r with
      | [] => Panic
      | (c0, ss) :: cs =>
          if c_addr c0 =? c_addr c
          then Ok (mkReq (q_start r) (q_end r) ((c0, (cur, a, b) :: ss) :: cs) :: acc')
          else
            let* fit := if q_end r <=? c_addr c then
                          let* gap := sub64 m (c_addr c) (q_end r) in
                          if gap <=? COALESCE_GAP then
                            let* e := add64 m (c_addr c) (c_size c) in
                            let* n := sub64 m e (q_start r) in Ok (n <=? MAX_REQUEST_SZ)
                          else Ok false
                        else Ok false in
            if fit : bool
            then let* e := add64 m (c_addr c) (c_size c) in
                 Ok (mkReq (q_start r) e ((c, [(cur, a, b)]) :: (c0, ss) :: cs) :: acc')
            else new
      end
  end.

(** s3.rs 78-102. *)
Fixpoint req_loop (m : mode) (acc : list request) (gs : list gsegment) : res (list request) :=
  match gs with
  | [] => Ok acc
  | g :: gs' => let* acc' := req_step m acc g in req_loop m acc' gs'
  end.

(** Oldest first again. *)
(** s3.rs 73-105. *)
Definition req_finish (r : request) : request :=
  mkReq (q_start r) (q_end r) (rev (map (fun '(c, ss) => (c, rev ss)) (q_chunks r))).

(** s3.rs 73-105: [group_requests]. *)
Definition group_requests (m : mode) (gs : list gsegment) : res (list request) :=
  let* acc := req_loop m [] gs in Ok (rev (map req_finish acc)).

(** ** Fetching *)

(** s3.rs 168-174: what the crate rust-s3 returns. *)
Inductive response : Type := RFail | Resp (status : N) (body : bytes).
(** s3.rs 168-174. *)
Definition server : Type := N -> N -> response.

(** s3.rs 165-189: [fetch].  rust-s3's [get_object_range] asserts that the range is not
    empty (start <= last). *)
Definition fetch (m : mode) (srv : server) (q : request) : res bytes :=
  let* last := sub64 m (q_end q) 1 in
  let* _ := assert_ (q_start q <=? last) in
  match srv (q_start q) last with
  | RFail => Err EHttp
  | Resp status body =>
      let* _ := ensure ((status =? 206) || ((status =? 200) && (q_start q =? 0))) EStatus in
      let* n := sub64 m (q_end q) (q_start q) in
      let* _ := ensure (n <=? lenN body) EShort in
      Ok body
  end.

(** ** Using a response *)

(** s3.rs 212-219: one segment. *)
Definition s3_copy (m : mode) (data : bytes) (dsz cur a b : N) (dst : bytes) : res bytes :=
  let* s := mul64 m a dsz in
  let* e := mul64 m b dsz in
  let* p := mul64 m cur dsz in
  let* _ := dbg m (s <=? e) in
  let* _ := dbg m (e <=? lenN data) in
  let* sz := sub64 m e s in
  let* q := add64 m p sz in
  let* _ := assert_ ((p <=? q) && (q <=? lenN dst)) in
  let* src := slice_range data s e in
  let* _ := assert_ (q - p =? lenN src) in
  Ok (splice dst p src).

(** s3.rs 211-220. *)
Fixpoint s3_segs (m : mode) (data : bytes) (dsz : N) (ss : list seg3) (dst : bytes) : res unit * bytes :=
  match ss with
  | [] => (Ok tt, dst)
  | (cur, a, b) :: ss' =>
      match s3_copy m data dsz cur a b dst with
      | Ok dst' => s3_segs m data dsz ss' dst'
      | x => (failed x, dst)
      end
  end.

(** s3.rs 200-209: the bytes of a chunk in a response, decoded. *)
Definition s3_chunk (m : mode) (inflate : bytes -> option bytes) (ds : dataset) (csz : N)
    (start : N) (body : bytes) (c : chunk) : res bytes :=
  let* off := sub64 m (c_addr c) start in
  let* last := add64 m off (c_size c) in
  let* raw := slice_range body off last in
  decode_chunk m inflate raw csz (d_dsize ds) (is_some (d_gzip ds)) (d_shuffle ds).

(** s3.rs 199-221: the chunks of a response. *)
Fixpoint s3_chunks (m : mode) (inflate : bytes -> option bytes) (ds : dataset) (csz : N)
    (start : N) (body : bytes) (cs : list (chunk * list seg3)) (dst : bytes) : res unit * bytes :=
  match cs with
  | [] => (Ok tt, dst)
  | (c, ss) :: cs' =>
      match s3_chunk m inflate ds csz start body c with
      | Ok data =>
          match s3_segs m data (d_dsize ds) ss dst with
          | (Ok _, dst') => s3_chunks m inflate ds csz start body cs' dst'
          | x => x
          end
      | x => (failed x, dst)
      end
  end.

(** s3.rs 198-222: responses used one after the other in the order they complete. *)
Fixpoint s3_loop (m : mode) (inflate : bytes -> option bytes) (srv : server) (ds : dataset) (csz : N)
    (order : list request) (dst : bytes) : res unit * bytes :=
  match order with
  | [] => (Ok tt, dst)
  | q :: order' =>
      match fetch m srv q with
      | Ok body =>
          match s3_chunks m inflate ds csz (q_start q) body (q_chunks q) dst with
          | (Ok _, dst') => s3_loop m inflate srv ds csz order' dst'
          | x => x
          end
      | x => (failed x, dst)
      end
  end.

(** s3.rs 48-53, 133-146. *)
Record s3reader : Type := mkS3 { s3_ds : dataset; s3_srv : server; s3_csz : N }.
Definition s3_new (m : mode) (ds : dataset) (srv : server) : res s3reader :=
  let* csz := chunk_bytes m ds in Ok (mkS3 ds srv csz).

(** s3.rs 151-225: [read_to_async] (and [read_to], 242-250, which runs it), as a relation:
    the requests complete in any order ([buffer_unordered] allows those in which at most
    16 are under way at a time; see S3Async.v for that limit). *)
Inductive s3_read (m : mode) (inflate : bytes -> option bytes) (sort : list gsegment -> list gsegment)
    (fuel : nat) (r : s3reader) (e : extents) (dst : bytes) : res N -> bytes -> Prop :=
| s3_size x : read_size m (s3_ds r) e dst = x -> (forall v, x <> Ok v) ->
    s3_read m inflate sort fuel r e dst x dst
| s3_group v x : read_size m (s3_ds r) e dst = Ok v ->
    (let* gs := group_chunk_slices sort m fuel (s3_ds r) e in group_requests m gs) = x -> (forall v, x <> Ok v) ->
    s3_read m inflate sort fuel r e dst (failed x) dst
| s3_run v qs order x dst' : read_size m (s3_ds r) e dst = Ok v ->
    (let* gs := group_chunk_slices sort m fuel (s3_ds r) e in group_requests m gs) = Ok qs ->
    Permutation order qs ->
    s3_loop m inflate (s3_srv r) (s3_ds r) (s3_csz r) order dst = (x, dst') ->
    s3_read m inflate sort fuel r e dst (let* _ := x in Ok v) dst'.
