(** * Model of /repo/src/filters/ (shuffle.rs, byteorder.rs, gzip.rs, xdr.rs) and of
      chunk decoding in /repo/src/reader/chunk.rs. *)
From Verif Require Import Base Dataset.

(** ** shuffle.rs *)

(** [get_unchecked] / [get_unchecked_mut]: undefined behaviour out of bounds. *)
(** shuffle.rs 45, 69, 94. *)
Definition get_unchecked (l : bytes) (i : nat) : res N :=
  match nth_error l i with Some b => Ok b | None => Ub end.
(** shuffle.rs 45, 69, 94. *)
Definition put_unchecked (l : bytes) (i : nat) (b : N) : res bytes :=
  if (i <? length l)%nat then Ok (firstn i l ++ b :: skipn (S i) l) else Ub.

(** A sequence of assignments `dest[d] = src[s]`, one per pair, in order. *)
(** shuffle.rs 42-47, 66-71: the assignments of the loops. *)
Fixpoint copy_pairs (pairs : list (nat * nat)) (src dest : bytes) : res bytes :=
  match pairs with
  | [] => Ok dest
  | (d, s) :: pairs' =>
      let* b := get_unchecked src s in
      let* dest' := put_unchecked dest d b in
      copy_pairs pairs' src dest'
  end.

(** shuffle.rs 29-50: [shuffle].  [src] is the byte view of a slice of [wsz]-byte
    values, so [sz] is its length in words.  The index arithmetic (usize) is below
    the buffer length and cannot overflow. *)
Definition shuffle (wsz : nat) (src dest : bytes) : res bytes :=
  let sz := (length src / wsz)%nat in
  let* _ := assert_ (length dest =? length src)%nat in
  copy_pairs
    (flat_map (fun i => map (fun j => (i * sz + j, j * wsz + i)%nat) (seq 0 sz)) (seq 0 wsz))
    src dest.

(** shuffle.rs 54-75: [unshuffle]; here [dest] is the slice of [wsz]-byte values. *)
Definition unshuffle (wsz : nat) (src dest : bytes) : res bytes :=
  let sz := (length dest / wsz)%nat in
  let* _ := assert_ (length dest =? length src)%nat in
  copy_pairs
    (flat_map (fun i => map (fun j => (j * wsz + i, i * sz + j)%nat) (seq 0 sz)) (seq 0 wsz))
    src dest.

(** shuffle.rs 82-101: [unshuffle_structured::<N>]; `dest_structured[j][i]` is byte
    j*N+i of [dest]. *)
Definition unshuffle_structured (N : nat) (src dest : bytes) : res bytes :=
  let* _ := assert_ (length src =? length dest)%nat in
  let* _ := assert_ (negb (N =? 0)%nat) in                (* `% N` panics for N = 0 *)
  let* _ := assert_ (length src mod N =? 0)%nat in
  let n := (length src / N)%nat in
  let* _ := assert_ (length src / N =? length dest / N)%nat in
  copy_pairs
    (flat_map (fun j => map (fun i => (j * N + i, i * n + j)%nat) (seq 0 N)) (seq 0 n))
    src dest.

(** shuffle.rs 105-127: [unshuffle_sized] (called with u8 slices only). *)
Definition unshuffle_sized (src : bytes) (sz : N) : res bytes :=
  let dest := repeat 0 (length src) in
  match sz with
  | 1 => Ok src
  | 2 => unshuffle_structured 2 src dest
  | 4 => unshuffle_structured 4 src dest
  | 8 => unshuffle_structured 8 src dest
  | _ => Panic
  end.

(** ** byteorder.rs *)

(** Endianness of the host (`cfg!(target_endian = "big")`). *)
(** byteorder.rs 12, 111, 132. *)
Inductive host : Type := HostBE | HostLE.

(** byteorder.rs 10-17: [Order::native]. *)
Definition native (h : host) : order := match h with HostBE => BE | HostLE => LE end.

(** The Rust number types a value can have: integer or float, of a given size. *)
(** byteorder.rs 19-107: the types [ToNative] is implemented for. *)
Inductive kind : Type := KInt | KFloat.

(** byteorder.rs 43-102: [Swap::swap] on the in-memory bytes of one value.
    Integers: [swap_bytes] reverses the bytes.  f32/f64 (93-102):
    `from_bits(to_bits().to_be())`, and [to_be] is the identity on a big-endian
    host and [swap_bytes] on a little-endian one. *)
Definition swap (h : host) (k : kind) (v : bytes) : bytes :=
  match k with
  | KInt => rev v
  | KFloat => match h with HostBE => v | HostLE => rev v end
  end.

(** A byte buffer as [n] words of [w] bytes. *)
(** byteorder.rs 126-153: the elements of a slice. *)
Fixpoint words (w n : nat) (l : bytes) : list bytes :=
  match n with
  | O => []
  | S n' => firstn w l :: words w n' (skipn w l)
  end.
(** A loop over the elements of a slice of [w]-byte values. *)
(** byteorder.rs 135-148. *)
Definition map_words (w : nat) (f : bytes -> bytes) (l : bytes) : bytes :=
  concat (map f (words w (length l / w) l)).

(** byteorder.rs 126-153: [ToNative for [T]] on the bytes of the slice. *)
Definition to_native_slice (h : host) (k : kind) (w : nat) (o : order) (l : bytes) : bytes :=
  match h, o with
  | HostBE, LE => map_words w (swap h k) l
  | HostLE, BE => map_words w (swap h k) l
  | _, _ => l
  end.

(** byteorder.rs 104-124: [ToNative for T] (scalar): unknown order panics. *)
Definition to_native_scalar (h : host) (k : kind) (o : order) (v : bytes) : res bytes :=
  match h, o with
  | _, Unknown => Panic
  | HostBE, BE => Ok v
  | HostBE, LE => Ok (swap h k v)
  | HostLE, BE => Ok (swap h k v)
  | HostLE, LE => Ok v
  end.

(** byteorder.rs 155-169: [ToBigEndian for T]. *)
Definition to_big_e_scalar (h : host) (k : kind) (o : order) (v : bytes) : bytes :=
  match o with LE => swap h k v | _ => v end.

(** [as_mut_slice_of::<T>()] (byte_slice_cast): an error unless the length is a
    multiple of the size and the pointer is aligned for T.  Alignment of the
    allocation is an input ([al]). *)
(** byteorder.rs 199, 203, 207; xdr.rs 27, 34; reader/dataset.rs 209. *)
Definition cast_ok (al : bool) (w : nat) (l : bytes) : res unit :=
  ensure (al && (length l mod w =? 0)%nat) ECast.

(** byteorder.rs 192-215: [to_big_e_sized] (the element types are u16/u32/u64). *)
Definition to_big_e_sized (h : host) (al : bool) (o : order) (dsz : N) (l : bytes) : res bytes :=
  match o with
  | LE =>
      match dsz with
      | 1 => Ok l
      | 2 => let* _ := cast_ok al 2 l in Ok (map_words 2 (swap h KInt) l)
      | 4 => let* _ := cast_ok al 4 l in Ok (map_words 4 (swap h KInt) l)
      | 8 => let* _ := cast_ok al 8 l in Ok (map_words 8 (swap h KInt) l)
      | _ => Panic
      end
  | _ => Ok l
  end.

(** ** xdr.rs *)

(** xdr.rs 6-19: [xdr_factor]; `4 / 0` panics. *)
Definition xdr_factor (dt : datatype) : res N :=
  match dt with
  | Custom _ => Ok 1
  | _ => if dt_size dt <? 4 then div64 4 (dt_size dt) else Ok 1
  end.

(** The number held by bytes in memory, little- or big-endian. *)
(** xdr.rs 27-38: numbers as the host holds them. *)
Fixpoint le_num (l : bytes) : N :=
  match l with [] => 0 | b :: l' => b + 256 * le_num l' end.
Definition host_num (h : host) (l : bytes) : N :=
  match h with HostLE => le_num l | HostBE => le_num (rev l) end.
(** The in-memory bytes of a number below 256^w. *)
Fixpoint le_bytes (w : nat) (v : N) : bytes :=
  match w with O => [] | S w' => v mod 256 :: le_bytes w' (v / 256) end.
Definition host_bytes (h : host) (w : nat) (v : N) : bytes :=
  match h with HostLE => le_bytes w v | HostBE => rev (le_bytes w v) end.

(** `Into::<u32>::into(x: u8/u16)` keeps the value; `Into::<i32>::into(x: i8/i16)`
    sign-extends (as a bit pattern of 32 bits). *)
Definition widen (signed : bool) (w : nat) (v : N) : N :=
  if signed && (2 ^ (8 * N.of_nat w - 1) <=? v)
  then v + (2 ^ 32 - 2 ^ (8 * N.of_nat w)) else v.

(** xdr.rs 35-39: one element of the loop of [xdr_cast_slice]. *)
Definition xdr_elem (h : host) (signed : bool) (w : nat) (o : order) (v : bytes) : res bytes :=
  let* v' := to_native_scalar h KInt o v in
  Ok (to_big_e_scalar h KInt (native h) (host_bytes h 4 (widen signed w (host_num h v')))).

(** xdr.rs 21-43: [xdr_cast_slice] for 1- and 2-byte integers to 4 bytes ([al1],
    [al2]: alignment of the two buffers). *)
Definition xdr_cast_slice (h : host) (al1 al2 : bool) (signed : bool) (w : nat) (o : order)
    (src : bytes) : res bytes :=
  let* _ := cast_ok al1 w src in
  let us := words w (length src / w) src in
  let* _ := cast_ok al2 4 (repeat 0 (length us * 4)) in
  let* ds := mapM (xdr_elem h signed w o) us in
  Ok (concat ds).

(** xdr.rs 45-61: [xdr]. *)
Definition xdr (h : host) (al1 al2 : bool) (src : bytes) (dt : datatype) (o : order)
    : res bytes :=
  match dt with
  | Custom _ => Ok src
  | UInt 1 => xdr_cast_slice h al1 al2 false 1 o src
  | UInt 2 => xdr_cast_slice h al1 al2 false 2 o src
  | Int 1 => xdr_cast_slice h al1 al2 true 1 o src
  | Int 2 => xdr_cast_slice h al1 al2 true 2 o src
  | _ => to_big_e_sized h al1 o (dt_size dt) src
  end.

(** ** gzip.rs and reader/chunk.rs *)

(** gzip.rs 5-9: [decompress] into a zero-filled buffer of [n] bytes.  [inflate] is
    libdeflate's zlib decoder: the decoded data, or [None] for invalid input; the
    library fails when the output does not fit, and leaves the rest of the buffer
    alone when it is shorter.  The theorems hold for every [inflate]. *)
Definition decompress (inflate : bytes -> option bytes) (src : bytes) (n : N) : res bytes :=
  match inflate src with
  | Some o => if lenN o <=? n then Ok (o ++ repeat 0 (N.to_nat n - length o)) else Err EDecode
  | None => Err EDecode
  end.

(** reader/chunk.rs 39-73: [decode_chunk]. *)
Definition decode_chunk (m : mode) (inflate : bytes -> option bytes)
    (chunk : bytes) (chunk_sz dsz : N) (gzipped shuffled : bool) : res bytes :=
  let* _ := dbg m (dsz <? 16) in
  let* cache := if gzipped
                then let* d := decompress inflate chunk chunk_sz in
                     let* _ := dbg m (lenN d =? chunk_sz) in Ok d
                else Ok chunk in
  if shuffled && (1 <? dsz) then unshuffle_sized cache dsz else Ok cache.

(** reader/chunk.rs 4-11: [read_chunk_to]: seek and [read_exact] of [size] bytes.
    An empty read succeeds at any position. *)
Definition read_exact (file : bytes) (addr size : N) : res bytes :=
  if size =? 0 then Ok []
  else if addr + size <=? lenN file
  then Ok (firstn (N.to_nat size) (skipn (N.to_nat addr) file))
  else Err EIo.

(** reader/chunk.rs 14-37: [read_chunk]. *)
Definition read_chunk (m : mode) (inflate : bytes -> option bytes) (file : bytes)
    (addr size chunk_sz dsz : N) (gzipped shuffled : bool) : res bytes :=
  let* raw := read_exact file addr size in
  decode_chunk m inflate raw chunk_sz dsz gzipped shuffled.
