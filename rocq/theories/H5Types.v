(** * Model of the element types of HDF5 files as the indexer sees them:
      /repo/src/idx/dataset/types.rs 21-37 and /repo/src/filters/byteorder.rs 20-30.

    The hdf5 crate and the HDF5 library below it are not part of /repo; what is used of them is
    their documented behaviour: [Datatype::is::<T>()] asks HDF5 (H5Tequal) whether the type is
    the type that the crate makes for the Rust type [T], which is HDF5's native type; H5Tequal
    compares the class, the size, the byte order and the layout within the element (precision,
    offset, sign, padding; for floating point the fields). *)
From Verif Require Import Base Spec Filters Dataset.

(** Classes of element types: signed or unsigned integers, floating point, all others (strings,
    compounds, enums, arrays, references ...). *)
Inductive h5class : Type := CInt (signed : bool) | CFloat | COther.

(** The crate's [ByteOrder]. *)
Inductive h5order : Type := BigEndian | LittleEndian | Vax | Mixed | NoOrder.

(** An element type: class, size in bytes, byte order, and whether its layout within the
    element is the standard one (all bits used, no padding; IEEE 754 for floating point). *)
Record h5type : Type := mkT { t_class : h5class; t_size : N; t_order : h5order; t_std : bool }.

(** The Rust types of types.rs 24-33. *)
Inductive rtype : Type := RInt (signed : bool) (w : N) | RFloat (w : N).

(** The native byte order of the host. *)
Definition host_order (h : host) : h5order := match h with HostLE => LittleEndian | HostBE => BigEndian end.

(** HDF5's native type for a Rust type. *)
Definition native_type (h : host) (r : rtype) : h5type :=
  match r with
  | RInt s w => mkT (CInt s) w (host_order h) true
  | RFloat w => mkT CFloat w (host_order h) true
  end.

Definition class_eqb (a b : h5class) : bool :=
  match a, b with
  | CInt s, CInt s' => Bool.eqb s s'
  | CFloat, CFloat => true
  | _, _ => false
  end.
Definition h5order_eqb (a b : h5order) : bool :=
  match a, b with
  | BigEndian, BigEndian | LittleEndian, LittleEndian | Vax, Vax | Mixed, Mixed | NoOrder, NoOrder => true
  | _, _ => false
  end.

(** [dtype.is::<T>()] (H5Tequal with the native type, which has a standard layout). *)
Definition type_is (h : host) (t : h5type) (r : rtype) : bool :=
  let n := native_type h r in
  class_eqb (t_class t) (t_class n) && (t_size t =? t_size n) && h5order_eqb (t_order t) (t_order n) && t_std t.

(** types.rs 21-37: [From<hdf5::Datatype> for Datatype]: the tests in the order of the code. *)
Definition datatype_of (h : host) (t : h5type) : datatype :=
  if type_is h t (RInt false 1) then UInt (t_size t) else
  if type_is h t (RInt false 2) then UInt (t_size t) else
  if type_is h t (RInt false 4) then UInt (t_size t) else
  if type_is h t (RInt false 8) then UInt (t_size t) else
  if type_is h t (RInt true 1) then Int (t_size t) else
  if type_is h t (RInt true 2) then Int (t_size t) else
  if type_is h t (RInt true 4) then Int (t_size t) else
  if type_is h t (RInt true 8) then Int (t_size t) else
  if type_is h t (RFloat 4) then Float (t_size t) else
  if type_is h t (RFloat 8) then Float (t_size t) else
  Custom (t_size t).

(** byteorder.rs 20-30: [From<ByteOrder> for Order]. *)
Definition order_of (o : h5order) : order :=
  match o with BigEndian => BE | LittleEndian => LE | _ => Unknown end.

(** dataset.rs 70-71, 157-158: the datatype and the order the indexer passes on. *)
Definition typed_of (h : host) (t : h5type) (d : h5ds) : h5ds :=
  mkH5 (h_shape d) (h_chunk d) (h_is_chunked d) (h_offset d) (h_storage d) (h_visit d) (h_filters d)
    (datatype_of h t) (order_of (t_order t)).
