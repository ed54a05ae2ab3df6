(** * SpecS3: vocabulary for the S3 properties (data types of S3.v only). *)
From Verif Require Import Base Chunk Dataset Slicer SpecApi S3.

(** The segments a request carries, with the chunk each is attached to, in order. *)
Definition req_segs (q : request) : list gsegment :=
  flat_map (fun '(c, ss) => map (fun '(cur, a, b) => (c, cur, a, b)) ss) (q_chunks q).
(** The chunks a request carries. *)
Definition req_chunks (q : request) : list chunk := map fst (q_chunks q).

(** Same destination and range, in the chunk at the same address. *)
Definition same_place (g g' : gsegment) : Prop :=
  c_addr (g_chunk g) = c_addr (g_chunk g') /\ g_dest g = g_dest g' /\ g_from g = g_from g' /\ snd g = snd g'.

(** Sorted by chunk address. *)
Definition by_addr (gs : list gsegment) : Prop :=
  forall i j g h, (i < j)%nat -> nth_error gs i = Some g -> nth_error gs j = Some h ->
    c_addr (g_chunk g) <= c_addr (g_chunk h).

(** A server that has the object [file] and honours range requests: it answers with the
    requested bytes (those that exist), or, for a range that starts at 0, with the whole
    object; only ranges that are not in the object may fail. *)
Definition honours (file : bytes) (srv : server) : Prop :=
  forall s e, s <= e ->
  match srv s e with
  | RFail => lenN file <= e
  | Resp status body =>
      (status = 206 /\ body = firstn (N.to_nat (e + 1 - s)) (skipn (N.to_nat s) file)) \/
      (status = 200 /\ s = 0 /\ body = file) \/
      (status <> 206 /\ status <> 200 /\ lenN file <= e)
  end.

(** A response to the request for bytes [start, end) that may be used. *)
Definition usable (start end_ : N) (r : response) : Prop :=
  match r with
  | RFail => False
  | Resp status body =>
      (status = 206 \/ (status = 200 /\ start = 0)) /\ end_ - start <= lenN body
  end.

(** A server that may refuse, fail or cut short any request but does not lie: the response
    to a request for the bytes s..e, if it may be used, starts with the bytes s..e of the
    object. *)
Definition truthful (file : bytes) (srv : server) : Prop :=
  forall s e, s <= e -> usable s (e + 1) (srv s e) ->
  match srv s e with
  | RFail => False
  | Resp _ body => e < lenN file /\
      firstn (N.to_nat (e + 1 - s)) body = firstn (N.to_nat (e + 1 - s)) (skipn (N.to_nat s) file)
  end.

(** No chunk of the table is empty, and all end below 2^64. *)
Definition sizes_ok (ds : dataset) : Prop :=
  forall c, In c (d_chunks ds) -> 0 < c_size c /\ c_addr c + c_size c < W64.

(** A chunk that could have been added to a request. *)
Definition could_join (q : request) (c : chunk) : Prop :=
  q_end q <= c_addr c /\ c_addr c - q_end q <= COALESCE_GAP /\ c_addr c + c_size c - q_start q <= MAX_REQUEST_SZ.
