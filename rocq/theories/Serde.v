(** * Model of /repo/src/idx/serde.rs, the derived (de)serializers of dataset.rs 20-49,
    any.rs 8-30, types.rs 3, byteorder.rs 3, index.rs 13-19 and 82-90, and the bincode 1
    format they are used with (bin/hfxidx.rs 44-47, bin/hfxlst.rs 57-61).

    bincode's default: integers are fixed-size little-endian, usize and lengths are u64,
    enum variants u32, Option and bool one byte; strings and byte strings are a length and
    the bytes; sequences and maps a length and the elements; structs just their fields.
    The flexbuffers format is not modelled. *)
From Verif Require Import Base Chunk Dataset IndexTree.
Notation byte_str := (list N) (only parsing).

(** ** Primitives *)

Fixpoint le_bytes (k : nat) (n : N) : byte_str :=
  match k with O => [] | S k' => n mod 256 :: le_bytes k' (n / 256) end.
Fixpoint le_value (b : byte_str) : N :=
  match b with [] => 0 | x :: b' => x + 256 * le_value b' end.

(** Reading: from the front of the input; what is left is returned. *)
Definition parser (A : Type) : Type := byte_str -> res (A * byte_str).
Definition take (n : N) : parser byte_str := fun b =>
  if n <=? lenN b then Ok (firstn (N.to_nat n) b, skipn (N.to_nat n) b) else Err EDe.

Definition ser_u64 (n : N) : byte_str := le_bytes 8 n.
Definition de_u64 : parser N := fun b => let* (x, r) := take 8 b in Ok (le_value x, r).
Definition ser_u32 (n : N) : byte_str := le_bytes 4 n.
Definition de_u32 : parser N := fun b => let* (x, r) := take 4 b in Ok (le_value x, r).
Definition de_u8 : parser N := fun b => let* (x, r) := take 1 b in Ok (le_value x, r).

Definition ser_bool (v : bool) : byte_str := [if v then 1 else 0].
Definition de_bool : parser bool := fun b =>
  let* (t, r) := de_u8 b in
  if t =? 0 then Ok (false, r) else if t =? 1 then Ok (true, r) else Err EDe.

Definition ser_option {A} (f : A -> byte_str) (v : option A) : byte_str :=
  match v with None => [0] | Some x => 1 :: f x end.
Definition de_option {A} (p : parser A) : parser (option A) := fun b =>
  let* (t, r) := de_u8 b in
  if t =? 0 then Ok (None, r)
  else if t =? 1 then let* (x, r') := p r in Ok (Some x, r')
  else Err EDe.

Definition ser_bytes (v : byte_str) : byte_str := ser_u64 (lenN v) ++ v.
Definition de_bytes : parser byte_str := fun b => let* (n, r) := de_u64 b in take n r.

(** [n] elements. *)
Fixpoint de_times {A} (n : nat) (p : parser A) : parser (list A) := fun b =>
  match n with
  | O => Ok ([], b)
  | S n' => let* (x, r) := p b in let* (xs, r') := de_times n' p r in Ok (x :: xs, r')
  end.
Definition ser_seq {A} (f : A -> byte_str) (l : list A) : byte_str := ser_u64 (lenN l) ++ flat_map f l.
Definition de_seq {A} (p : parser A) : parser (list A) := fun b =>
  let* (n, r) := de_u64 b in de_times (N.to_nat n) p r.

(** [core::str::from_utf8]: the well-formed byte sequences of the Unicode standard. *)
Definition cont (b : N) : bool := (128 <=? b) && (b <=? 191).
Definition within (lo hi b : N) : bool := (lo <=? b) && (b <=? hi).
Fixpoint utf8 (s : byte_str) : bool :=
  match s with
  | [] => true
  | a :: s1 =>
      if a <? 128 then utf8 s1 else
      match s1 with
      | [] => false
      | b :: s2 =>
          if within 194 223 a then cont b && utf8 s2 else
          match s2 with
          | [] => false
          | c :: s3 =>
              if within 224 239 a then
                (if a =? 224 then within 160 191 b else if a =? 237 then within 128 159 b else cont b)
                && cont c && utf8 s3
              else
              match s3 with
              | [] => false
              | d :: s4 =>
                  within 240 244 a &&
                  (if a =? 240 then within 144 191 b else if a =? 244 then within 128 143 b else cont b)
                  && cont c && cont d && utf8 s4
              end
          end
      end
  end.
Definition de_string : parser str := fun b =>
  let* (s, r) := de_bytes b in if utf8 s then Ok (s, r) else Err EDe.
(** [PathBuf]: serialized as a string, an error if it is not UTF-8. *)
Definition ser_path (p : str) : res byte_str := if utf8 p then Ok (ser_bytes p) else Err EDe.

(** ** serde.rs *)

(** serde.rs 13-23 and 48-53: [sr_u64::serialize], [arr_u64::serialize]. *)
Definition ser_arr (v : list N) : byte_str := ser_seq ser_u64 v.
(** serde.rs 25-42: [sr_u64::deserialize] for rank [D]. *)
Definition sr_array (D : nat) (v : list N) : res (list N) :=
  if (length v =? D)%nat then mapM sr_new v else Err EDe.
Definition de_sr (D : nat) : parser (list N) := fun b =>
  let* (v, r) := de_seq de_u64 b in let* a := sr_array D v in Ok (a, r).
(** serde.rs 58-67: [arr_u64::deserialize]: the array starts as zeros and is overwritten
    by the elements, as many as both have. *)
Fixpoint fill (D : nat) (v : list N) : list N :=
  match D with
  | O => []
  | S D' => match v with [] => 0 :: fill D' [] | x :: v' => x :: fill D' v' end
  end.
Definition de_arr (D : nat) : parser (list N) := fun b =>
  let* (v, r) := de_seq de_u64 b in Ok (fill D v, r).

(** serde.rs 74-82: [chunks_u64s::serialize]. *)
Definition chunk_bytes_of (cs : list chunk) : byte_str := flat_map ser_u64 (slice_as_u64s cs).
Definition ser_chunks (cs : list chunk) : byte_str := ser_bytes (chunk_bytes_of cs).
(** serde.rs 84-98: [chunks_u64s::deserialize].  Line 91: [new_slice_unaligned] is None,
    and [unwrap] panics, if the length is not a multiple of 8. *)
Fixpoint words_of (n : nat) (b : byte_str) : list N :=
  match n with O => [] | S n' => le_value (firstn 8 b) :: words_of n' (skipn 8 b) end.
Definition chunks_of_bytes (D : nat) (b : byte_str) : res (list chunk) :=
  let* _ := assert_ (length b mod 8 =? 0)%nat in
  slice_from_u64s D (words_of (length b / 8) b).
Definition de_chunks (D : nat) : parser (list chunk) := fun b =>
  let* (v, r) := de_bytes b in let* cs := chunks_of_bytes D v in Ok (cs, r).

(** ** Derived *)

(** types.rs 3-9. *)
Definition ser_datatype (d : datatype) : byte_str :=
  match d with
  | UInt s => ser_u32 0 ++ ser_u64 s | Int s => ser_u32 1 ++ ser_u64 s
  | Float s => ser_u32 2 ++ ser_u64 s | Custom s => ser_u32 3 ++ ser_u64 s
  end.
Definition de_datatype : parser datatype := fun b =>
  let* (t, r) := de_u32 b in
  match t with
  | 0 => let* (s, r') := de_u64 r in Ok (UInt s, r')
  | 1 => let* (s, r') := de_u64 r in Ok (Int s, r')
  | 2 => let* (s, r') := de_u64 r in Ok (Float s, r')
  | 3 => let* (s, r') := de_u64 r in Ok (Custom s, r')
  | _ => Err EDe
  end.
(** byteorder.rs 3-8. *)
Definition ser_order (o : order) : byte_str := ser_u32 (match o with BE => 0 | LE => 1 | Unknown => 2 end).
Definition de_order : parser order := fun b =>
  let* (t, r) := de_u32 b in
  match t with 0 => Ok (BE, r) | 1 => Ok (LE, r) | 2 => Ok (Unknown, r) | _ => Err EDe end.

(** dataset.rs 20-49. *)
Definition ser_dataset (d : dataset) : byte_str :=
  ser_datatype (d_dtype d) ++ ser_u64 (d_dsize d) ++ ser_order (d_order d) ++ ser_chunks (d_chunks d) ++
  ser_arr (d_shape d) ++ ser_arr (d_chunk_shape d) ++ ser_arr (d_chunk_shape_reduced d) ++
  ser_arr (d_scaled_dim_sz d) ++ ser_arr (d_dim_sz d) ++ ser_arr (d_chunk_dim_sz d) ++
  ser_bool (d_shuffle d) ++ ser_option (fun z => [z]) (d_gzip d).
Definition de_dataset (D : nat) : parser dataset := fun b =>
  let* (dt, b) := de_datatype b in
  let* (sz, b) := de_u64 b in
  let* (o, b) := de_order b in
  let* (cs, b) := de_chunks D b in
  let* (sh, b) := de_arr D b in
  let* (csh, b) := de_arr D b in
  let* (red, b) := de_sr D b in
  let* (sd, b) := de_arr D b in
  let* (dd, b) := de_arr D b in
  let* (cd, b) := de_arr D b in
  let* (shuf, b) := de_bool b in
  let* (gz, b) := de_option de_u8 b in
  Ok (mkDataset dt sz o cs sh csh red sd dd cd shuf gz, b).

(** any.rs 8-30: the rank, then the dataset. *)
Definition ser_datasetd (d : dataset) : byte_str := ser_u32 (lenN (d_shape d)) ++ ser_dataset d.
Definition de_datasetd : parser dataset := fun b =>
  let* (t, r) := de_u32 b in
  if t <=? 9 then de_dataset (N.to_nat t) r else Err EDe.

(** index.rs 82-90.  Maps: a length, then keys and values; reading inserts one pair after
    the other. *)
Definition ser_opt_path (p : option str) : res byte_str :=
  match p with None => Ok [0] | Some s => let* x := ser_path s in Ok (1 :: x) end.
Definition de_map {A} (p : parser A) : parser (hmap A) := fun b =>
  let* (l, r) := de_seq (fun b => let* (k, r) := de_string b in let* (v, r') := p r in Ok ((k, v), r')) b in
  Ok (hcollect l, r).
Fixpoint ser_group (g : gindex) : res byte_str :=
  let '(mkGroup path ds gs) := g in
  let* p := ser_opt_path path in
  let* subs := (fix sub (l : list (str * gindex)) : res byte_str :=
     match l with
     | [] => Ok []
     | (k, g') :: l' => let* x := ser_group g' in let* r := sub l' in Ok (ser_bytes k ++ x ++ r)
     end) gs in
  Ok (p ++ ser_seq (fun kv => ser_bytes (fst kv) ++ ser_datasetd (snd kv)) ds ++ ser_u64 (lenN gs) ++ subs).
(** Groups nest in groups: [fuel] bounds the depth ([Hang] if exceeded). *)
Fixpoint de_group (fuel : nat) : parser gindex := fun b =>
  match fuel with
  | O => Hang
  | S fuel' =>
      let* (p, b) := de_option de_string b in
      let* (ds, b) := de_map de_datasetd b in
      let* (gs, b) := de_map (de_group fuel') b in
      Ok (mkGroup p ds gs, b)
  end.
(** index.rs 13-19. *)
Definition ser_index (i : index) : res byte_str :=
  let* p := ser_opt_path (i_path i) in let* g := ser_group (i_root i) in Ok (p ++ g).
Definition de_index (fuel : nat) : parser index := fun b =>
  let* (p, b) := de_option de_string b in
  let* (g, b) := de_group fuel b in Ok (mkIndex p g, b).
(** [bincode::serialize], and [bincode::deserialize], which ignores what follows.  Each
    nested group takes at least one byte, so the fuel suffices (SerdeTyped.calm_index,
    SerdeTyped.fuel_enough). *)
Definition bincode_serialize (i : index) : res byte_str := ser_index i.
Definition bincode_deserialize (b : byte_str) : res index :=
  let* (i, _) := de_index (S (length b)) b in Ok i.
