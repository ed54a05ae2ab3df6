(** * Model of where a reader is called from: /repo/src/reader/chunk.rs 31-36 and s3.rs 109-130.

    tokio (1.40 in Cargo.lock) is a dependency and not modelled beyond what its documentation
    says of [block_in_place] and [block_on]: [block_in_place] runs its closure, but panics on a
    current-thread runtime and inside a [LocalSet]; [block_on] of a runtime runs a future to
    its end, but panics inside any runtime, except within [block_in_place] or on a thread
    outside of it. *)
From Verif Require Import Base Extent Chunk Dataset Slicer Filters Reader StreamPoll S3.

(** Where a call is made: outside of any runtime (or on one of its threads for blocking
    calls), on a worker of a multi-threaded runtime, in a [LocalSet] of one, on a
    current-thread runtime. *)
Inductive context : Type := Outside | Worker | Pinned | Single.

(** [tokio::task::block_in_place]. *)
Definition may_block (x : context) : bool := match x with Outside | Worker => true | Pinned | Single => false end.
(** chunk.rs 31-36, with [tokio_block]: the bytes are read before. *)
Definition get_in (x : context) (ps : pstream) (file : bytes) (c : chunk) : res bytes :=
  let* _ := read_exact file (c_addr c) (c_size c) in
  if may_block x then ps_get ps file c else Panic.
(** stream.rs 70-90, 119-145: one poll, made in [x]. *)
Definition poll_in (m : mode) (x : context) (ps : pstream) (now : option bytes) (st : pstate) : polled * pstate * list chunk :=
  poll m (mkPS (get_in x ps) (ps_xf ps) (ps_cap ps)) now st.
(** A sequence of polls, each with the file at the path and the place it is made in: as [polls] of StreamPoll.v. *)
Fixpoint polls_in (m : mode) (ps : pstream) (hist : list (option bytes * context)) (st : pstate)
    : list polled * pstate * list (list chunk) :=
  match hist with
  | [] => ([], st, [])
  | (now, x) :: hist' =>
      let '(y, st1, io) := poll_in m x ps now st in
      let '(ys, st2, ios) := polls_in m ps hist' st1 in (y :: ys, st2, io :: ios)
  end.

(** s3.rs 109-130: [Handle::try_current] and the flavor of the runtime. *)
Inductive flavor : Type := MultiThread | CurrentThread.
Definition try_current (x : context) : option flavor :=
  match x with Outside => None | Worker | Pinned => Some MultiThread | Single => Some CurrentThread end.
(** Where the future of [block_on] is driven; [None]: a panic. *)
Definition drive (x : context) : option context :=
  match try_current x with
  (* 117-119 *)
  | Some MultiThread => if may_block x then Some Worker else None
  (* 122-127: a thread of its own, with another runtime *)
  | Some CurrentThread => Some Outside
  (* 128 *)
  | None => Some Outside
  end.
(** s3.rs 241-243: [read_to].  [decode_chunk] is called directly (s3.rs 204): the rest does not depend on the place. *)
Inductive s3_read_to (x : context) (m : mode) (inflate : bytes -> option bytes) (sort : list gsegment -> list gsegment)
    (fuel : nat) (r : s3reader) (e : extents) (dst : bytes) : res N -> bytes -> Prop :=
| st_drive y v d : drive x = Some y -> s3_read m inflate sort fuel r e dst v d -> s3_read_to x m inflate sort fuel r e dst v d
| st_panic : drive x = None -> s3_read_to x m inflate sort fuel r e dst Panic dst.
