(** * Model of /repo/src/idx/index.rs and idx/dataset/any.rs 33-49.

    Strings are lists of bytes (UTF-8; '/' is the byte 47, which occurs in no multi-byte
    character). *)
From Verif Require Import Base Chunk Dataset.

(** The bytes of a string. *)
Notation str := (list N) (only parsing).
Fixpoint str_eqb (a b : str) : bool :=
  match a, b with
  | [], [] => true
  | x :: a', y :: b' => (x =? y) && str_eqb a' b'
  | _, _ => false
  end.

(** A [HashMap<String, A>], as the list of its entries; keys are distinct.  The order of
    the list stands for the (arbitrary) order of iteration. *)
Definition hmap (A : Type) : Type := list (str * A).
(** [HashMap::get]. *)
Fixpoint hget {A} (k : str) (h : hmap A) : option A :=
  match h with
  | [] => None
  | (k', v) :: h' => if str_eqb k k' then Some v else hget k h'
  end.
(** [HashMap::insert]: an old value is replaced. *)
Fixpoint hput {A} (k : str) (v : A) (h : hmap A) : hmap A :=
  match h with
  | [] => [(k, v)]
  | (k', v') :: h' => if str_eqb k k' then (k, v) :: h' else (k', v') :: hput k v h'
  end.
(** [collect::<HashMap<..>>]. *)
Definition hcollect {A} (l : list (str * A)) : hmap A := fold_left (fun h kv => hput (fst kv) (snd kv) h) l [].

(** index.rs 84-90: [GroupIndex]; 13-19: [Index] (a path and a root group). *)
Inductive gindex : Type := mkGroup (g_path : option str) (g_datasets : hmap dataset) (g_groups : hmap gindex).
Definition gi_path (g : gindex) : option str := let '(mkGroup p _ _) := g in p.
Definition gi_datasets (g : gindex) : hmap dataset := let '(mkGroup _ d _) := g in d.
Definition gi_groups (g : gindex) : hmap gindex := let '(mkGroup _ _ s) := g in s.
Record index : Type := mkIndex { i_path : option str; i_root : gindex }.

(** ** Lookup *)

Definition SLASH : N := 47.
(** [str::trim_start_matches('/')]. *)
Fixpoint trim_start (s : str) : str :=
  match s with
  | [] => []
  | b :: s' => if b =? SLASH then trim_start s' else s
  end.
(** [str::trim_end_matches('/')]. *)
Definition trim_end (s : str) : str := rev (trim_start (rev s)).
(** [str::split('/')]: never empty. *)
Fixpoint split_slash (s : str) : list str :=
  match s with
  | [] => [[]]
  | b :: s' =>
      if b =? SLASH then [] :: split_slash s'
      else match split_slash s' with
           | [] => [[b]]
           | p :: ps => (b :: p) :: ps
           end
  end.
(** [Iterator::try_fold] with [groups.get]. *)
Fixpoint walk (g : gindex) (ps : list str) : option gindex :=
  match ps with
  | [] => Some g
  | p :: ps' => match hget p (gi_groups g) with Some g' => walk g' ps' | None => None end
  end.

(** index.rs 131-137: [GroupIndex::dataset]. *)
Definition gi_dataset (g : gindex) (s : str) : option dataset :=
  let ps := split_slash (trim_start s) in
  match rev ps with
  | [] => None
  | name :: rest =>
      match walk g (rev rest) with Some g' => hget name (gi_datasets g') | None => None end
  end.
(** index.rs 148-154: [GroupIndex::group]. *)
Definition gi_group (g : gindex) (s : str) : option gindex :=
  walk g (split_slash (trim_end (trim_start s))).

(** ** Indexing *)

(** What the HDF5 library shows of a group: its members by link name.  [HBroken]: a member
    that is neither a dataset nor a group (or cannot be opened).  [h_lists] tells whether
    listing the members works ([member_names()?], [groups()?]). *)
Inductive h5group : Type := mkHG (h_lists : bool) (h_members : list (str * h5member))
with h5member : Type := HData (d : h5ds) | HGroup (g : h5group) | HBroken.

(** index.rs 106. *)
Definition allocated (d : h5ds) : bool := h_is_chunked d || match h_offset d with Some _ => true | None => false end.

(** any.rs 33-49: [DatasetD::index]. *)
Definition datasetd_index (m : mode) (d : h5ds) : res dataset :=
  if (length (h_shape d) <=? 9)%nat then dataset_index m d else Panic.

(** index.rs 101-108: the datasets of a group. *)
Fixpoint index_datasets (m : mode) (l : list (str * h5member)) : res (list (str * dataset)) :=
  match l with
  | [] => Ok []
  | (k, HData d) :: l' =>
      if allocated d
      then let* x := datasetd_index m d in let* r := index_datasets m l' in Ok ((k, x) :: r)
      else index_datasets m l'
  | _ :: l' => index_datasets m l'
  end.

(** The last component of a group's name (index.rs 114).  A group's full name is that of
    its parent, '/' and its link name. *)
Definition last_component (s : str) : str := last (split_slash s) [].

(** index.rs 96-125: [GroupIndex::index_group]; [name] is the full name of the group. *)
Fixpoint index_group (m : mode) (path : option str) (name : str) (g : h5group) {struct g} : res gindex :=
  let '(mkHG ok members) := g in
  if ok then
    let* ds := index_datasets m members in
    let* gs := (fix sub (l : list (str * h5member)) : res (list (str * gindex)) :=
      match l with
      | [] => Ok []
      | (k, HGroup g') :: l' =>
          let full := name ++ SLASH :: k in
          let* x := index_group m path full g' in
          let* r := sub l' in Ok ((last_component full, x) :: r)
      | _ :: l' => sub l'
      end) members in
    Ok (mkGroup path (hcollect ds) (hcollect gs))
  else Err EHdf5.

(** index.rs 42-51: [Index::index_file] (the name of the root group is "/", so names of its
    groups start with one slash; here the root's own name is empty). *)
Definition index_file (m : mode) (path : option str) (root : h5group) : res index :=
  let* g := index_group m path [] root in Ok (mkIndex path g).

(** index.rs 170-193: [reader] and [streamer] open the dataset found, if any. *)
Definition gi_open (g : gindex) (s : str) : res (str * dataset) :=
  match gi_path g with
  | None => Err EMissing
  | Some p => match gi_dataset g s with Some d => Ok (p, d) | None => Err EMissing end
  end.
