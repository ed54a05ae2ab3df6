(** * Model of streams down to their system calls, many at once, of a file that is replaced:
    /repo/src/reader/stream.rs 48-147, over reader/chunk.rs 4-36.

    StreamPoll.v has a poll as one step.  Here a poll makes the system calls of Syscalls.v, one
    by one; other streams are polled between them, and the file at the path may be replaced
    (renamed over, removed, created).  A stream opens the path in its first poll (stream.rs 71,
    116) and keeps the descriptor; as in Open.v what has been opened keeps its contents.  With
    [faults] an open, a seek or a read may fail for no reason of ours. *)
From Verif Require Import Base Extent Chunk Dataset Slicer Filters Reader StreamPoll Syscalls SeqSys.

(** What `stream` and `stream_xdr` differ in: what they do with the bytes of a chunk (77 after
    the bytes are read; 127-131), and the factor and capacity as in StreamPoll.v. *)
Record sstream : Type := mkSS { ss_fin : bytes -> res bytes; ss_xf : res N; ss_cap : N }.

(** The generator: between polls, at line 73 / 117 in a poll, or reading a chunk in a poll. *)
Inductive gstate : Type :=
| GAt (st : pstate) (fp : N)
| GTop (file : bytes) (l : list (chunk * N * N)) (cache : lru) (fp : N)
| GLoad (file : bytes) (sl : chunk * N * N) (l : list (chunk * N * N)) (cache : lru) (w : worker).

(** stream.rs 73-74, 117-121. *)
Definition scaled (m : mode) (ss : sstream) (s0 e0 : N) : res (N * N) :=
  let* x := ss_xf ss in let* s := mul64 m s0 x in let* e := mul64 m e0 x in let* _ := dbg m (s <=? e) in Ok (s, e).

Section Steps.
Context (faults : bool) (m : mode) (ss : sstream).

(** One step of one stream, while [now] is the file at the path: whether a poll begins with it, and what a poll that ends
    with it returns. *)
Inductive gstep (now : option bytes) : gstate -> bool -> option polled -> gstate -> Prop :=
(* 71, 116 *)
| gs_open f l fp : now = Some f -> gstep now (GAt (Fresh l) fp) true None (GTop f l [] 0)
| gs_noopen l fp : now = None \/ faults = true -> gstep now (GAt (Fresh l) fp) true (Some (PErr EOpen)) (GAt Over fp)
| gs_resume f l cache fp : gstep now (GAt (Opened f l cache) fp) true None (GTop f l cache fp)
| gs_over fp : gstep now (GAt Over fp) true (Some PEnd) (GAt Over fp)
| gs_poisoned fp : gstep now (GAt Poisoned fp) true (Some PPanic) (GAt Poisoned fp)
| gs_end f cache fp : gstep now (GTop f [] cache fp) false (Some PEnd) (GAt Over fp)
| gs_range f c s0 e0 l cache fp x : scaled m ss s0 e0 = x -> (forall v, x <> Ok v) ->
    gstep now (GTop f ((c, s0, e0) :: l) cache fp) false (Some (fst (halt x))) (GAt (snd (halt x)) fp)
(* 76, 123: in the cache *)
| gs_hit f c s0 e0 l cache cache' fp s e data b : scaled m ss s0 e0 = Ok (s, e) -> lru_get (c_addr c) cache = Some (data, cache') ->
    take_slice m data s e = Ok b ->
    gstep now (GTop f ((c, s0, e0) :: l) cache fp) false (Some (PItem b)) (GAt (Opened f l cache') fp)
| gs_hitbad f c s0 e0 l cache cache' fp s e data x : scaled m ss s0 e0 = Ok (s, e) -> lru_get (c_addr c) cache = Some (data, cache') ->
    take_slice m data s e = x -> (forall b, x <> Ok b) ->
    gstep now (GTop f ((c, s0, e0) :: l) cache fp) false (Some (fst (halt x))) (GAt (snd (halt x)) fp)
| gs_miss f c s0 e0 l cache fp v : scaled m ss s0 e0 = Ok v -> lru_get (c_addr c) cache = None ->
    gstep now (GTop f ((c, s0, e0) :: l) cache fp) false None
      (GLoad f (c, s0, e0) l cache (mkWorker [(c_addr c, c_size c)] fp Idle []))
(* chunk.rs 8-9 *)
| gs_call f sl l cache w w' : wstep f w w' -> (faults = true \/ w_phase w' <> Fault) ->
    gstep now (GLoad f sl l cache w) false None (GLoad f sl l cache w')
| gs_fail f sl l cache w : broken w -> gstep now (GLoad f sl l cache w) false (Some (PErr EIo)) (GAt Over (w_pos w))
(* 77-89, 127-144 *)
| gs_loaded f c s0 e0 l cache w raw s e data b : w_todo w = [] -> w_phase w = Idle -> w_got w = [raw] ->
    scaled m ss s0 e0 = Ok (s, e) -> ss_fin ss raw = Ok data -> take_slice m data s e = Ok b ->
    gstep now (GLoad f (c, s0, e0) l cache w) false (Some (PItem b))
      (GAt (Opened f l (lru_put (ss_cap ss) (c_addr c) data cache)) (w_pos w))
| gs_decode f sl l cache w raw x : w_todo w = [] -> w_phase w = Idle -> w_got w = [raw] -> ss_fin ss raw = x -> (forall v, x <> Ok v) ->
    gstep now (GLoad f sl l cache w) false (Some (fst (halt x))) (GAt (snd (halt x)) (w_pos w))
| gs_loadbad f c s0 e0 l cache w raw s e data x : w_todo w = [] -> w_phase w = Idle -> w_got w = [raw] ->
    scaled m ss s0 e0 = Ok (s, e) -> ss_fin ss raw = Ok data -> take_slice m data s e = x -> (forall b, x <> Ok b) ->
    gstep now (GLoad f (c, s0, e0) l cache w) false (Some (fst (halt x))) (GAt (snd (halt x)) (w_pos w)).
End Steps.

(** A stream with its polls so far: the file at the path when each began, and what those that are over returned. *)
Record poller : Type := mkP { p_ss : sstream; p_g : gstate; p_hist : list (option bytes); p_outs : list polled }.
Definition told {A} (o : option A) : list A := match o with Some x => [x] | None => [] end.

(** Any number of streams of files at one path, in any order; the file is replaced at any time. *)
Inductive istep (faults : bool) (m : mode) : option bytes * list poller -> option bytes * list poller -> Prop :=
| is_poll now l1 l2 ss g b o g' hist outs : gstep faults m ss now g b o g' ->
    istep faults m (now, l1 ++ mkP ss g hist outs :: l2)
      (now, l1 ++ mkP ss g' (hist ++ if b then [now] else []) (outs ++ told o) :: l2)
| is_file now now' ps : istep faults m (now, ps) (now', ps).
Inductive isteps (faults : bool) (m : mode) : option bytes * list poller -> option bytes * list poller -> Prop :=
| iss_refl s : isteps faults m s s
| iss_step s t u : istep faults m s t -> isteps faults m t u -> isteps faults m s u.

(** stream.rs 48-68, 95-113: as [stream_start] and [xdr_start] of StreamPoll.v. *)
Definition sys_stream (m : mode) (inflate : bytes -> option bytes) (fuel : nat) (ds : dataset) (csz : N) (e : extents) : res poller :=
  let* l := collect_slices m fuel ds e in
  let* cap := cache_cap csz in
  Ok (mkP (mkSS (decoded m inflate ds csz) (Ok 1) cap) (GAt (Fresh l) 0) [] []).
Definition sys_xdr (m : mode) (h : host) (al1 al2 : bool) (inflate : bytes -> option bytes) (fuel : nat)
    (ds : dataset) (csz : N) (e : extents) : res poller :=
  let* l := collect_slices m fuel ds e in
  let* cap := cache_cap csz in
  Ok (mkP (mkSS (fun raw => let* data := decoded m inflate ds csz raw in xdr h al1 al2 data (d_dtype ds) (d_order ds))
        (xdr_factor (d_dtype ds)) cap) (GAt (Fresh l) 0) [] []).
