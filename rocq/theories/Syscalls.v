(** * Model of the system calls under a read, /repo/src/reader/chunk.rs 4-11 ([read_chunk_to]):
    `fd.seek(SeekFrom::Start(addr))?; fd.read_exact(dst)?`.

    [read_exact] of the standard library calls read(2) until the buffer is full: a read may
    give fewer bytes than asked for (at least one, unless the position is at or past the end
    of the file), an interrupted one is tried again, any other failure is returned, and a
    read of nothing before the buffer is full is an UnexpectedEof.  lseek(2) refuses what is
    not an [i64].

    Every worker has a descriptor of its own: direct.rs 53-54 (one per rayon split),
    direct.rs 129, stream.rs 68 and 117 (one per call), reader/dataset.rs (one per reader); a
    position belongs to a descriptor.  The file is not changed meanwhile. *)
From Verif Require Import Base Filters.

Inductive phase : Type :=
| Idle
| Reading (want : N) (acc : bytes)   (* in read_exact: so many bytes to go, these are read *)
| AtEnd                              (* UnexpectedEof *)
| Refused                            (* the seek was refused *)
| Fault.                             (* a failure of the operating system *)
(** The chunks to load, as (address, size); the position of the descriptor; what is loaded. *)
Record worker : Type := mkWorker { w_todo : list (N * N); w_pos : N; w_phase : phase; w_got : list bytes }.

(** One system call of a worker (or its return from [read_exact]). *)
Inductive wstep (file : bytes) : worker -> worker -> Prop :=
(* chunk.rs 8: the seek *)
| ws_seek a n js p got : a < 2 ^ 63 ->
    wstep file (mkWorker ((a, n) :: js) p Idle got) (mkWorker ((a, n) :: js) a (Reading n []) got)
| ws_refused a n js p got : 2 ^ 63 <= a ->
    wstep file (mkWorker ((a, n) :: js) p Idle got) (mkWorker ((a, n) :: js) p Refused got)
(* chunk.rs 9: a read that gives [k] bytes *)
| ws_read js p want acc got k : 0 < k -> k <= want -> p + k <= lenN file ->
    wstep file (mkWorker js p (Reading want acc) got)
      (mkWorker js (p + k) (Reading (want - k) (acc ++ firstn (N.to_nat k) (skipn (N.to_nat p) file))) got)
(* an interrupted one *)
| ws_again js p want acc got : 0 < want ->
    wstep file (mkWorker js p (Reading want acc) got) (mkWorker js p (Reading want acc) got)
(* the end of the file *)
| ws_end js p want acc got : 0 < want -> lenN file <= p ->
    wstep file (mkWorker js p (Reading want acc) got) (mkWorker js p AtEnd got)
(* the buffer is full *)
| ws_full j js p acc got :
    wstep file (mkWorker (j :: js) p (Reading 0 acc) got) (mkWorker js p Idle (got ++ [acc]))
(* a failing disk, or network *)
| ws_fault js p ph got : (ph = Idle /\ js <> [] \/ exists want acc, ph = Reading want acc /\ 0 < want) ->
    wstep file (mkWorker js p ph got) (mkWorker js p Fault got).

(** Any number of workers, in any order. *)
Inductive sstep (file : bytes) : list worker -> list worker -> Prop :=
| ss_one l w w' r : wstep file w w' -> sstep file (l ++ w :: r) (l ++ w' :: r).
Inductive ssteps (file : bytes) : list worker -> list worker -> Prop :=
| sss_refl l : ssteps file l l
| sss_step l1 l2 l3 : sstep file l1 l2 -> ssteps file l2 l3 -> ssteps file l1 l3.

(** A worker that has just opened the file (or has it open at any position). *)
Definition fresh (w : worker) : Prop := w_phase w = Idle /\ w_got w = [].
