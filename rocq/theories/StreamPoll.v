(** * Streams as they are polled, /repo/src/reader/stream.rs 48-147.

    Reader.v has the items of a stream that is polled to its end at once.  Here a stream is
    what the caller holds: a state that each poll moves on.  The body of `stream!` (71-90,
    118-145) runs from one `yield` to the next in each poll; it opens the file in the first
    one.  As in Open.v a file that has been opened keeps its contents (it may be renamed over
    or removed); files overwritten in place are not modelled. *)
From Verif Require Import Base Extent Chunk Dataset Slicer Filters Reader.

(** What a poll returns: an item, an error item, the end of the stream, a panic.  (The
    bodies never wait: `read_chunk` blocks, so no poll is pending.) *)
Inductive polled : Type := PItem (b : bytes) | PErr (e : err) | PEnd | PPanic.

(** The generator: not started, between two yields, over, or stopped by a panic. *)
Inductive pstate : Type :=
| Fresh (l : list (chunk * N * N))
| Opened (file : bytes) (l : list (chunk * N * N)) (cache : lru)
| Over
| Poisoned.

(** What `stream` and `stream_xdr` differ in: 77 or 127-131 (read and convert a chunk), 1 or
    119 (the factor); 64-68 or 109-113: the capacity of the cache. *)
Record pstream : Type := mkPS { ps_get : bytes -> chunk -> res bytes; ps_xf : res N; ps_cap : N }.

Definition halt {A} (x : res A) : polled * pstate :=
  match x with Err e => (PErr e, Over) | _ => (PPanic, Poisoned) end.

(** stream.rs 74-89, 117-144: one turn of the loop; the chunks read from the file. *)
Definition poll_open (m : mode) (ps : pstream) (file : bytes) (l : list (chunk * N * N)) (cache : lru)
    : polled * pstate * list chunk :=
  match l with
  | [] => (PEnd, Over, [])
  | (c, s0, e0) :: l' =>
      match (let* x := ps_xf ps in let* s := mul64 m s0 x in let* e := mul64 m e0 x in
             let* _ := dbg m (s <=? e) in Ok (s, e)) with
      | Ok (s, e) =>
          match lru_get (c_addr c) cache with
          | Some (data, cache') =>
              match take_slice m data s e with
              | Ok b => (PItem b, Opened file l' cache', [])
              | x => (halt x, [])
              end
          | None =>
              match ps_get ps file c with
              | Ok data =>
                  match take_slice m data s e with
                  | Ok b => (PItem b, Opened file l' (lru_put (ps_cap ps) (c_addr c) data cache), [c])
                  | x => (halt x, [c])
                  end
              | x => (halt x, [c])
              end
          end
      | x => (halt x, [])
      end
  end.

(** One poll; [now]: the file at the stream's path at that time.  stream.rs 71 / 116 is the
    first thing the body does.  A stream that is over stays over (async_stream). *)
Definition poll (m : mode) (ps : pstream) (now : option bytes) (st : pstate) : polled * pstate * list chunk :=
  match st with
  | Fresh l => match now with None => (PErr EOpen, Over, []) | Some f => poll_open m ps f l [] end
  | Opened f l cache => poll_open m ps f l cache
  | Over => (PEnd, Over, [])
  | Poisoned => (PPanic, Poisoned, [])
  end.

(** A sequence of polls, with the file at each time: what they return, the state after, and
    what each read. *)
Fixpoint polls (m : mode) (ps : pstream) (hist : list (option bytes)) (st : pstate)
    : list polled * pstate * list (list chunk) :=
  match hist with
  | [] => ([], st, [])
  | now :: hist' =>
      let '(x, st1, io) := poll m ps now st in
      let '(xs, st2, ios) := polls m ps hist' st1 in (x :: xs, st2, io :: ios)
  end.

(** stream.rs 48-68: the call of [stream], up to the `stream!`: nothing is read. *)
Definition stream_start (m : mode) (inflate : bytes -> option bytes) (fuel : nat) (ds : dataset) (csz : N) (e : extents)
    : res (pstream * pstate) :=
  let* l := collect_slices m fuel ds e in
  let* cap := cache_cap csz in
  Ok (mkPS (fun file => load m inflate file ds csz) (Ok 1) cap, Fresh l).

(** stream.rs 95-113: the call of [stream_xdr]. *)
Definition xdr_start (m : mode) (h : host) (al1 al2 : bool) (inflate : bytes -> option bytes) (fuel : nat)
    (ds : dataset) (csz : N) (e : extents) : res (pstream * pstate) :=
  let* l := collect_slices m fuel ds e in
  let* cap := cache_cap csz in
  Ok (mkPS (fun file c => let* data := load m inflate file ds csz c in xdr h al1 al2 data (d_dtype ds) (d_order ds))
        (xdr_factor (d_dtype ds)) cap, Fresh l).
