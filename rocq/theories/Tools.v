(** * Model of the command-line tools, /repo/src/bin/hfxidx.rs and /repo/src/bin/hfxlst.rs.

    Parameters: which serializers are compiled in (the `flexbuffers` and `bincode` features
    of Cargo.toml); what the flexbuffers crate does; what the HDF5 library makes of the
    bytes of a file.  What hfxlst prints: Listing.v, Output.v. *)
From Verif Require Import Base Chunk Dataset IndexTree Serde.

(** The files of the machine, by path. *)
Definition fsys : Type := str -> option byte_str.
Definition fs_set (fs : fsys) (p : str) (b : byte_str) : fsys := fun q => if str_eqb q p then Some b else fs q.

(** [Write::write_all]: the bytes from the [n]-th on are written in pieces, until all are
    or writing fails.  The list is that of the states after each piece. *)
Inductive write_all (fs : fsys) (p : str) (data : byte_str) : nat -> res unit -> list fsys -> Prop :=
| wa_done : write_all fs p data (length data) (Ok tt) []
| wa_fail n : write_all fs p data n (Err EIo) []
| wa_piece n k r tr : (0 < k)%nat -> (n + k <= length data)%nat -> write_all fs p data (n + k) r tr ->
    write_all fs p data n r (fs_set fs p (firstn (n + k) data) :: tr).

(** [std::fs::write]: the file is created, or emptied if it exists; then [write_all]. *)
Inductive fs_write (fs : fsys) (p : str) (data : byte_str) : res unit -> list fsys -> Prop :=
| fw_open : fs_write fs p data (Err EOpen) []
| fw_write r tr : write_all fs p data 0 r tr -> fs_write fs p data r (fs_set fs p [] :: tr).

(** The strings "any", "flexbuffers", "bincode". *)
Definition S_ANY : str := [97; 110; 121].
Definition S_FLEX : str := [102; 108; 101; 120; 98; 117; 102; 102; 101; 114; 115].
Definition S_BINCODE : str := [98; 105; 110; 99; 111; 100; 101].

Section Tools.
Context (m : mode) (flex_on bincode_on : bool)
        (flex_ser : index -> res byte_str) (flex_de : byte_str -> res index)
        (h5_open : byte_str -> res h5group).

(** index.rs 31-40: [Index::index]. *)
Definition index_path (fs : fsys) (p : str) : res index :=
  match fs p with
  | None => Err EOpen
  | Some b => let* root := h5_open b in index_file m (Some p) root
  end.

(** hfxidx.rs 33-47: the arms of the `match`, in order; an arm whose feature is off does not
    exist. *)
Definition encode (ty : str) (i : index) : res byte_str :=
  if flex_on && (str_eqb ty S_ANY || str_eqb ty S_FLEX) then flex_ser i
  else if bincode_on && (str_eqb ty S_ANY || str_eqb ty S_BINCODE) then bincode_serialize i
  else Err EType.

(** hfxidx.rs 14-52: the exit status and the states of the file system after each effect. *)
Inductive hfxidx (fs : fsys) (input output ty : str) : res unit -> list fsys -> Prop :=
| hi_index x : index_path fs input = x -> (forall i, x <> Ok i) -> hfxidx fs input output ty (failed x) []
| hi_encode i x : index_path fs input = Ok i -> encode ty i = x -> (forall b, x <> Ok b) ->
    hfxidx fs input output ty (failed x) []
| hi_write i b r tr : index_path fs input = Ok i -> encode ty i = Ok b -> fs_write fs output b r tr ->
    hfxidx fs input output ty r tr.

(** hfxlst.rs 33-50: [read_index]; the next format is tried after an error (not after a panic). *)
Definition read_index (b : byte_str) : res index :=
  let bin := if bincode_on then match bincode_deserialize b with Err _ => Err EDe | x => x end else Err EDe in
  if flex_on then match flex_de b with Err _ => bin | x => x end else bin.

(** hfxlst.rs 10-31: the source path and the listed names and shapes. *)
Definition hfxlst (fs : fsys) (input : str) : res (option str * list (str * list N)) :=
  match fs input with
  | None => Err EOpen
  | Some b =>
      let* i := read_index b in
      Ok (i_path i, map (fun nd => (fst nd, d_shape (snd nd))) (gi_datasets (i_root i)))
  end.
End Tools.
