(** * Model of the concurrency of S3 reads, /repo/src/reader/s3.rs: requests in flight,
    completion in any order, failure, and cancellation.

    [read_to_async] is a future: it makes progress when it is polled, and dropping it at any
    time stops it for good (cancellation).  So every state reached is one in which it may be
    left.  The use of a response (s3.rs 199-221) has no `.await` in it and is one step. *)
From Verif Require Import Base Extent Chunk Dataset Slicer Filters Reader S3.

(** s3.rs 39. *)
Definition CONCURRENT_REQUESTS : nat := 16.

(** The futures not yet started, those in flight, the buffer, the requests sent so far in
    order, and the outcome once there is one. *)
Record astate : Type := mkA {
  a_queue : list request;
  a_flight : list request;
  a_dst : bytes;
  a_sent : list request;
  a_out : option (res unit)
}.

Section Async.
Context (m : mode) (inflate : bytes -> option bytes) (srv : server) (ds : dataset) (csz : N).

(** s3.rs 191-223.  [buffer_unordered] starts futures from the queue, in order, while fewer
    than [CONCURRENT_REQUESTS] are in flight; any of those in flight may complete next. *)
Inductive astep : astate -> astate -> Prop :=
| as_send q qs fl dst log : (length fl < CONCURRENT_REQUESTS)%nat ->
    astep (mkA (q :: qs) fl dst log None) (mkA qs (fl ++ [q]) dst (log ++ [q]) None)
| as_use qs f1 q f2 dst log body dst' : fetch m srv q = Ok body ->
    s3_chunks m inflate ds csz (q_start q) body (q_chunks q) dst = (Ok tt, dst') ->
    astep (mkA qs (f1 ++ q :: f2) dst log None) (mkA qs (f1 ++ f2) dst' log None)
| as_refused qs f1 q f2 dst log x : fetch m srv q = x -> (forall b, x <> Ok b) ->
    astep (mkA qs (f1 ++ q :: f2) dst log None) (mkA qs (f1 ++ f2) dst log (Some (failed x)))
| as_unusable qs f1 q f2 dst log body x dst' : fetch m srv q = Ok body ->
    s3_chunks m inflate ds csz (q_start q) body (q_chunks q) dst = (x, dst') -> x <> Ok tt ->
    astep (mkA qs (f1 ++ q :: f2) dst log None) (mkA qs (f1 ++ f2) dst' log (Some x))
| as_end dst log : astep (mkA [] [] dst log None) (mkA [] [] dst log (Some (Ok tt))).

(** s3.rs 191-223: any number of steps. *)
Inductive asteps : nat -> astate -> astate -> Prop :=
| ass_refl s : asteps 0 s s
| ass_step n s t u : astep s t -> asteps n t u -> asteps (S n) s u.
End Async.

(** s3.rs 151-225: the states a read is in, after [n] steps. *)
Inductive s3_state (m : mode) (inflate : bytes -> option bytes) (sort : list gsegment -> list gsegment)
    (fuel : nat) (r : s3reader) (e : extents) (dst : bytes) : N -> list request -> nat -> astate -> Prop :=
| s3_started v qs n st : read_size m (s3_ds r) e dst = Ok v ->
    (let* gs := group_chunk_slices sort m fuel (s3_ds r) e in group_requests m gs) = Ok qs ->
    asteps m inflate (s3_srv r) (s3_ds r) (s3_csz r) n (mkA qs [] dst [] None) st ->
    s3_state m inflate sort fuel r e dst v qs n st.
