(** * Property theorems C17-C20, C48: filters. *)
From Verif Require Import Base Spec Dataset Filters SpecFilter FilterProofs FilterProps Examples.

(** ** C17 *)

(** Shuffling writes the HDF5 byte-shuffled form, whatever was in the destination, and every
    variant of unshuffle recovers the input from it. *)
Theorem C17_unshuffle_shuffle w n src d1 d2 :
  (0 < w)%nat -> length src = (w * n)%nat -> length d1 = length src -> length d2 = length src ->
  exists s, shuffle w src d1 = Ok s /\ shuffled_of w n src s /\
    unshuffle w s d2 = Ok src /\ unshuffle_structured w s d2 = Ok src /\
    (In w [1; 2; 4; 8]%nat -> unshuffle_sized s (N.of_nat w) = Ok src).
Proof. exact (shuffle_inverse w n src d1 d2). Qed.
Print Assumptions C17_unshuffle_shuffle.
Example C17_case : length [1; 0; 23; 0; 43; 0] = (2 * 3)%nat /\
  shuffle 2 [1; 0; 23; 0; 43; 0] [9; 9; 9; 9; 9; 9] = Ok [1; 23; 43; 0; 0; 0].
Proof. split; reflexivity. Qed.

Theorem C17_shuffle_unshuffle w n src d1 d2 :
  (0 < w)%nat -> length src = (w * n)%nat -> length d1 = length src -> length d2 = length src ->
  exists u, unshuffle w src d1 = Ok u /\ unshuffle_structured w src d1 = Ok u /\
    shuffled_of w n u src /\ shuffle w u d2 = Ok src.
Proof. exact (unshuffle_inverse w n src d1 d2). Qed.
Print Assumptions C17_shuffle_unshuffle.

(** ** C18 *)

(** [Ub] (an access outside a buffer) never happens: every call is [Ok] with an output of
    the input's length, or a panic.  (Typed slices are whole numbers of words.) *)
Theorem C18_shuffle w src dest : (0 < w)%nat -> (length src mod w = 0)%nat ->
  (length dest <> length src -> shuffle w src dest = Panic) /\
  (length dest = length src -> exists r, shuffle w src dest = Ok r /\ length r = length src).
Proof. exact (shuffle_safe w src dest). Qed.
Print Assumptions C18_shuffle.
Theorem C18_unshuffle w src dest : (0 < w)%nat -> (length dest mod w = 0)%nat ->
  (length dest <> length src -> unshuffle w src dest = Panic) /\
  (length dest = length src -> exists r, unshuffle w src dest = Ok r /\ length r = length src).
Proof. exact (unshuffle_safe w src dest). Qed.
Print Assumptions C18_unshuffle.
Theorem C18_structured w src dest :
  ((w <> 0 /\ length dest = length src /\ length src mod w = 0)%nat ->
   exists r, unshuffle_structured w src dest = Ok r /\ length r = length src) /\
  (~ (w <> 0 /\ length dest = length src /\ length src mod w = 0)%nat ->
   unshuffle_structured w src dest = Panic).
Proof. exact (structured_safe w src dest). Qed.
Print Assumptions C18_structured.
Theorem C18_sized src sz :
  (In sz [1; 2; 4; 8] /\ (length src mod N.to_nat sz = 0)%nat ->
   exists r, unshuffle_sized src sz = Ok r /\ length r = length src) /\
  (~ (In sz [1; 2; 4; 8] /\ (length src mod N.to_nat sz = 0)%nat) ->
   unshuffle_sized src sz = Panic).
Proof. exact (sized_safe src sz). Qed.
Print Assumptions C18_sized.
Example C18_case : (length [1; 2; 3; 4; 5; 6; 7; 8] mod N.to_nat 4 = 0)%nat /\ In 4 [1; 2; 4; 8].
Proof. split; [reflexivity|cbn; auto]. Qed.

(** ** C19 *)

(** Integers on any host, floating-point values on little-endian hosts: every element of
    the converted slice, read by the host, is the number stored in the dataset's order. *)
Theorem C19_to_native_partial h k w n o l :
  (0 < w)%nat -> length l = (w * n)%nat -> (k = KInt \/ h = HostLE) ->
  length (to_native_slice h k w o l) = length l /\
  (o <> Unknown -> forall j, (j < n)%nat ->
     num_in (native h) (word w j (to_native_slice h k w o l)) = num_in o (word w j l)) /\
  (o = Unknown -> to_native_slice h k w o l = l).
Proof. exact (to_native_ok h k w n o l). Qed.
Print Assumptions C19_to_native_partial.
Example C19_case : to_native_slice HostLE KFloat 4 BE [66; 40; 0; 0; 1; 2; 3; 4] = [0; 0; 40; 66; 4; 3; 2; 1].
Proof. reflexivity. Qed.

(** False for floating-point values on big-endian hosts: little-endian data is not
    converted at all. *)
Theorem C19_float_refuted :
  exists l, length l = (4 * 1)%nat /\
    num_in (native HostBE) (word 4 0 (to_native_slice HostBE KFloat 4 LE l)) <> num_in LE (word 4 0 l).
Proof. exists [0; 0; 40; 66]. split; [reflexivity|]. vm_compute. discriminate. Qed.
Print Assumptions C19_float_refuted.

(** ** C20 *)

(** For datasets as the indexer builds them, with no filter, shuffle, deflate, or shuffle
    then deflate, and an element size the reader supports.  [inflate] is any decoder. *)
Theorem C20_decode_partial m inflate h ds raw stored :
  dataset_index m h = Ok ds ->
  (h_filters h = [] \/ h_filters h = [FShuffle] \/
   (exists z, h_filters h = [FDeflate z]) \/ (exists z, h_filters h = [FShuffle; FDeflate z])) ->
  pipeline inflate (N.to_nat (d_dsize ds)) (h_filters h) raw stored ->
  (In FShuffle (h_filters h) -> In (d_dsize ds) [1; 2; 4; 8]) -> d_dsize ds < 16 ->
  decode_chunk m inflate stored (lenN raw) (d_dsize ds) (is_some (d_gzip ds)) (d_shuffle ds) = Ok raw.
Proof.
  intros HI HS HP Hw H16.
  assert (exists sh gz, std_filters (h_filters h) sh gz) as (sh & gz & S).
  { destruct HS as [E|[E|[[z E]|[z E]]]]; rewrite E; do 2 eexists; constructor. }
  exact (decode_indexed m inflate h ds sh gz raw stored HI S HP Hw H16).
Qed.
Print Assumptions C20_decode_partial.
Example C20_case : forall m, dataset_index m ex_h5 = Ok ex_ds /\
  pipeline (fun s => match s with [5] => Some [1; 3; 2; 4] | _ => None end)
    (N.to_nat (d_dsize ex_ds)) (h_filters ex_h5) [1; 2; 3; 4] [5].
Proof.
  intros m. split; [apply ex_indexed|].
  eapply pl_shuffle with (n := 2%nat) (s := [1; 3; 2; 4]).
  - split; [reflexivity|]. split; [reflexivity|].
    intros i j Hi Hj. destruct i as [|[|i]], j as [|[|j]]; cbn in Hi, Hj; try lia; reflexivity.
  - eapply pl_deflate; [|constructor]. reflexivity.
Qed.

(** False for deflate-then-shuffle, which the indexer accepts (decoding fails), and for
    shuffled elements of a size other than 1, 2, 4, 8 (decoding panics). *)
Theorem C20_refuted :
  (exists ds, forall m, dataset_index m ds_h5 = Ok ds /\ h_filters ds_h5 = [FDeflate 1; FShuffle] /\
     d_dsize ds = 2 /\
     pipeline ds_inflate 2 (h_filters ds_h5) [7; 0; 9; 0] [1; 3; 2; 4] /\
     decode_chunk m ds_inflate [1; 3; 2; 4] 4 2 (is_some (d_gzip ds)) (d_shuffle ds) = Err EDecode) /\
  (forall m, decode_chunk m ds_inflate [1; 2; 3; 4; 5; 6] 6 3 false true = Panic).
Proof. exact deflate_shuffle_refuted. Qed.
Print Assumptions C20_refuted.

(** ** C48 *)

(** (Buffers as the allocator aligns them; 8/16-bit integers of known byte order.) *)
Theorem C48_factor_partial h dt o src n :
  is_bytes src ->
  match dt with
  | UInt s | Int s => In s [1; 2; 4; 8]
  | Float s => In s [4; 8]
  | Custom _ => True
  end ->
  (o <> Unknown \/ 4 <= dt_size dt) ->
  lenN src = dt_size dt * n ->
  exists r f, xdr h true true src dt o = Ok r /\ xdr_factor dt = Ok f /\ lenN r = f * lenN src.
Proof. exact (xdr_length h dt o src n). Qed.
Print Assumptions C48_factor_partial.
Example C48_case : xdr HostLE true true [255; 1] (Int 1) LE = Ok [255; 255; 255; 255; 0; 0; 0; 1] /\
  xdr_factor (Int 1) = Ok 4.
Proof. split; reflexivity. Qed.

(** False for 16-bit floats (factor 2, length unchanged), and 8/16-bit integers of unknown
    byte order panic. *)
Theorem C48_refuted h :
  (exists r, xdr h true true [1; 2] (Float 2) LE = Ok r /\ xdr_factor (Float 2) = Ok 2 /\ lenN r = 2) /\
  xdr h true true [1; 2] (Int 1) Unknown = Panic.
Proof. split; [|destruct h; reflexivity]. eexists. split; [destruct h; reflexivity|]. split; reflexivity. Qed.
Print Assumptions C48_refuted.
