(** * Model of a parallel read down to its system calls: /repo/src/reader/direct.rs 35-101
    with reader/chunk.rs 4-11.

    The same as [par_read] of Reader.v, but a chunk is loaded by system calls (Syscalls.v)
    that are interleaved with those of the other tasks and with their writes to the buffer.
    rayon calls the first closure (the open) for every run of groups it gives to one thread,
    which goes through them one by one: here every group has a descriptor with any position,
    which is what the run before leaves.  With [faults] calls may also fail for no reason of
    ours (a failing disk, too many open files). *)
From Verif Require Import Base Extent Chunk Dataset Slicer Filters Reader Syscalls.

Inductive ctask : Type :=
| CWait (g : list gsegment)                     (* not begun *)
| CLoad (g : list gsegment) (w : worker)        (* reading its chunk *)
| CRun (ws : list (N * N)) (f : fin)            (* copying *)
| CDone (f : fin)
| CSkip.

(** direct.rs 63-97: what follows the read: decoding, and copying. *)
Definition par_after (m : mode) (inflate : bytes -> option bytes) (r : direct) (dlen : N)
    (group : list gsegment) (raw : bytes) : task :=
  match decode_chunk m inflate raw (dr_csz r) (d_dsize (dr_ds r)) (is_some (d_gzip (dr_ds r))) (d_shuffle (dr_ds r)) with
  | Ok data => par_segs m data (d_dsize (dr_ds r)) dlen group
  | x => ([], fin_of x)
  end.

Section Steps.
Context (faults : bool) (m : mode) (inflate : bytes -> option bytes) (r : direct) (dlen : N).

(** direct.rs 52-98: one step of one task. *)
Inductive tstep : ctask -> ctask -> Prop :=
(* 53-57: the file *)
| ts_nofile g : dr_file r = None -> tstep (CWait g) (CRun [] (FErr EOpen))
| ts_nofd g : faults = true -> tstep (CWait g) (CRun [] (FErr EOpen))
(* 58: group[0] *)
| ts_empty file : dr_file r = Some file -> tstep (CWait []) (CRun [] FPanic)
(* 60-61: the buffer, and the call of read_chunk_to with a descriptor at any position *)
| ts_load file c cur a b g p : dr_file r = Some file ->
    tstep (CWait ((c, cur, a, b) :: g)) (CLoad ((c, cur, a, b) :: g) (mkWorker [(c_addr c, c_size c)] p Idle []))
(* 61: its system calls *)
| ts_call file g w w' : dr_file r = Some file -> wstep file w w' -> (faults = true \/ w_phase w' <> Fault) ->
    tstep (CLoad g w) (CLoad g w')
(* 61: `?` *)
| ts_fail g w : w_phase w = AtEnd \/ w_phase w = Refused \/ w_phase w = Fault ->
    tstep (CLoad g w) (CRun [] (FErr EIo))
(* 63-97 *)
| ts_loaded g w raw : w_todo w = [] -> w_phase w = Idle -> w_got w = [raw] ->
    tstep (CLoad g w) (CRun (fst (par_after m inflate r dlen g raw)) (snd (par_after m inflate r dlen g raw)))
| ts_finish f : tstep (CRun [] f) (CDone f).

Inductive cstep : list ctask * bytes -> list ctask * bytes -> Prop :=
| cs_task l1 l2 t t' dst : tstep t t' -> cstep (l1 ++ t :: l2, dst) (l1 ++ t' :: l2, dst)
(* 89-91: one byte of a copy *)
| cs_write l1 l2 p b ws f dst :
    cstep (l1 ++ CRun ((p, b) :: ws) f :: l2, dst) (l1 ++ CRun ws f :: l2, splice dst p [b])
(* rayon drops what is not begun once a task has failed *)
| cs_skip l1 l2 g f dst : In (CDone f) (l1 ++ l2) -> is_failure f ->
    cstep (l1 ++ CWait g :: l2, dst) (l1 ++ CSkip :: l2, dst).

(** Any number of steps. *)
Inductive csteps : list ctask * bytes -> list ctask * bytes -> Prop :=
| css_refl s : csteps s s
| css_step s t u : cstep s t -> csteps t u -> csteps s u.
End Steps.

(** All tasks are done (or dropped): the outcome is taken from how they ended, as in Reader.v. *)
Definition ended (t : ctask) : option tstate :=
  match t with CDone f => Some (Done f) | CSkip => Some Skipped | _ => None end.

(** direct.rs 35-101: [Direct::read_to_par]. *)
Inductive sys_read (faults : bool) (m : mode) (inflate : bytes -> option bytes)
    (sort : list gsegment -> list gsegment) (fuel : nat)
    (r : direct) (e : extents) (dst : bytes) : res N -> bytes -> Prop :=
| sy_size x : read_size m (dr_ds r) e dst = x -> (forall v, x <> Ok v) ->
    sys_read faults m inflate sort fuel r e dst x dst
| sy_group v x : read_size m (dr_ds r) e dst = Ok v ->
    group_chunk_slices sort m fuel (dr_ds r) e = x -> (forall v, x <> Ok v) ->
    sys_read faults m inflate sort fuel r e dst (failed x) dst
| sy_run v groups final ends dst' x : read_size m (dr_ds r) e dst = Ok v ->
    group_chunk_slices sort m fuel (dr_ds r) e = Ok groups ->
    csteps faults m inflate r (lenN dst) (map CWait (chunk_by_addr groups), dst) (final, dst') ->
    map ended final = map Some ends -> par_result ends x ->
    sys_read faults m inflate sort fuel r e dst (let* _ := x in Ok v) dst'.
