(** * Model of /repo/src/idx/index.rs 96-125 for files whose links form any graph.

    IndexTree.v takes the groups of a file to be a finite tree.  In an HDF5 file a group or a
    dataset may have several (hard or soft) links to it, and a group may even be a member of
    itself or of a group below it.  Here a file is the list of its objects by their addresses,
    and a group is a list of links: names with the addresses they lead to (soft links followed).
    As there, the name of an opened group is the path it was reached by. *)
From Verif Require Import Base Chunk Dataset IndexTree.

(** An object of a file.  [OOther]: neither a group nor a dataset, or not to be opened. *)
Inductive object : Type := OGroup (lists : bool) (links : list (str * N)) | OData (d : h5ds) | OOther.
Definition h5file : Type := list (N * object).
(** What a link to the address leads to: a dangling one to nothing. *)
Fixpoint obj (F : h5file) (a : N) : object :=
  match F with
  | [] => OOther
  | (b, o) :: F' => if a =? b then o else obj F' a
  end.

(** index.rs 101-108: the datasets of a group. *)
Fixpoint link_datasets (m : mode) (F : h5file) (l : list (str * N)) : res (list (str * dataset)) :=
  match l with
  | [] => Ok []
  | (k, a) :: l' =>
      match obj F a with
      | OData d =>
          if allocated d
          then let* x := datasetd_index m d in let* r := link_datasets m F l' in Ok ((k, x) :: r)
          else link_datasets m F l'
      | _ => link_datasets m F l'
      end
  end.

(** index.rs 96-125: [GroupIndex::index_group] of the group at [a], whose full name is [name]: [None] if it takes
    more than [fuel] nested calls. *)
Fixpoint link_group (fuel : nat) (m : mode) (F : h5file) (path : option str) (name : str) (a : N) : option (res gindex) :=
  match fuel with
  | O => None
  | S fuel' =>
      match obj F a with
      | OGroup true links =>
          match link_datasets m F links with
          | Ok ds =>
              match (fix sub (l : list (str * N)) : option (res (list (str * gindex))) :=
                match l with
                | [] => Some (Ok [])
                | (k, b) :: l' =>
                    match obj F b with
                    | OGroup _ _ =>
                        let full := name ++ SLASH :: k in
                        match link_group fuel' m F path full b with
                        | None => None
                        | Some (Ok x) => match sub l' with None => None | Some r => Some (let* r := r in Ok ((last_component full, x) :: r)) end
                        | Some x => Some (failed x)
                        end
                    | _ => sub l'
                    end
                end) links with
              | None => None
              | Some gs => Some (let* gs := gs in Ok (mkGroup path (hcollect ds) (hcollect gs)))
              end
          | x => Some (failed x)
          end
      | _ => Some (Err EHdf5)
      end
  end.

(** index.rs 42-51: [Index::index_file]. *)
Definition index_links (fuel : nat) (m : mode) (path : option str) (F : h5file) (root : N) : option (res index) :=
  match link_group fuel m F path [] root with
  | None => None
  | Some g => Some (let* g := g in Ok (mkIndex path g))
  end.
