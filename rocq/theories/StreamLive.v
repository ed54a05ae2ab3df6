(** * Model of streams while calls fail and other processes write the file:
    /repo/src/reader/stream.rs 48-92 and 95-147.

    The stream opens the file once (68, 117); its loads are numbered: the [n]-th meets the
    contents [vers n] of the file, and fails if [fails n]. *)
From Verif Require Import Base Extent Chunk Dataset Slicer Filters Reader.

(** stream.rs 70-90, 119-145: as [stream_loop] of Reader.v; a miss of the cache is the next load. *)
Fixpoint stream_loop_n (m : mode) (get : nat -> chunk -> res bytes) (cap : N) (xf : res N)
    (l : list (chunk * N * N)) (n : nat) (cache : lru) : list bytes * send :=
  match l with
  | [] => ([], SEnd)
  | (c, s0, e0) :: l' =>
      match (let* x := xf in let* s := mul64 m s0 x in let* e := mul64 m e0 x in
             let* _ := dbg m (s <=? e) in Ok (s, e)) with
      | Ok (s, e) =>
          match lru_get (c_addr c) cache with
          | Some (data, cache') =>
              match take_slice m data s e with
              | Ok b => let (bs, z) := stream_loop_n m get cap xf l' n cache' in (b :: bs, z)
              | x => ([], send_of x)
              end
          | None =>
              match get n c with
              | Ok data =>
                  match take_slice m data s e with
                  | Ok b =>
                      let (bs, z) := stream_loop_n m get cap xf l' (S n) (lru_put cap (c_addr c) data cache) in
                      (b :: bs, z)
                  | x => ([], send_of x)
                  end
              | x => ([], send_of x)
              end
          end
      | x => ([], send_of x)
      end
  end.

(** chunk.rs 14-37: the [n]-th load. *)
Definition load_n (m : mode) (inflate : bytes -> option bytes) (fails : nat -> bool) (vers : nat -> bytes)
    (ds : dataset) (csz : N) (n : nat) (c : chunk) : res bytes :=
  if fails n then Err EIo else load m inflate (vers n) ds csz c.

(** stream.rs 48-92; [opens]: whether the file can be opened. *)
Definition stream_live (m : mode) (inflate : bytes -> option bytes) (fuel : nat) (opens : bool)
    (fails : nat -> bool) (vers : nat -> bytes) (r : streamer) (e : extents) : res (list bytes * send) :=
  let* l := collect_slices m fuel (sr_ds r) e in
  let* cap := cache_cap (sr_csz r) in
  if opens then Ok (stream_loop_n m (load_n m inflate fails vers (sr_ds r) (sr_csz r)) cap (Ok 1) l 0 [])
  else Ok ([], SErr EOpen).

(** stream.rs 95-147. *)
Definition stream_xdr_live (m : mode) (h : host) (al1 al2 : bool) (inflate : bytes -> option bytes) (fuel : nat) (opens : bool)
    (fails : nat -> bool) (vers : nat -> bytes) (r : streamer) (e : extents) : res (list bytes * send) :=
  let* l := collect_slices m fuel (sr_ds r) e in
  let* cap := cache_cap (sr_csz r) in
  if opens then
    Ok (stream_loop_n m
          (fun n c => let* data := load_n m inflate fails vers (sr_ds r) (sr_csz r) n c in
                      xdr h al1 al2 data (d_dtype (sr_ds r)) (d_order (sr_ds r)))
          cap (xdr_factor (d_dtype (sr_ds r))) l 0 [])
  else Ok ([], SErr EOpen).
