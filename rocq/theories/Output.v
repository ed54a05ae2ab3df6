(** * What hfxlst prints, all of it (/repo/src/bin/hfxlst.rs 10-31), and the texts Python shows
      of an index and a dataset (/repo/src/python.rs 64-70, 173-175). *)
From Verif Require Import Base Dataset IndexTree Serde Python Tools Listing.

(** The strings "Loading index from ", "Datasets", " (source path: ", "Index(file: Some(",
    "), datasets: " and "Dataset (". *)
Definition T_LOADING : bytes := [76; 111; 97; 100; 105; 110; 103; 32; 105; 110; 100; 101; 120; 32; 102; 114; 111; 109; 32].
Definition T_DATASETS : bytes := [68; 97; 116; 97; 115; 101; 116; 115].
Definition T_SOURCE : bytes := [32; 40; 115; 111; 117; 114; 99; 101; 32; 112; 97; 116; 104; 58; 32].
Definition T_INDEX : bytes := [73; 110; 100; 101; 120; 40; 102; 105; 108; 101; 58; 32].
Definition T_COUNT : bytes := [44; 32; 100; 97; 116; 97; 115; 101; 116; 115; 58; 32].
Definition T_DATASET : bytes := [68; 97; 116; 97; 115; 101; 116; 32; 40; 34].

(** [char::escape_debug] (core): a character as `{:?}` of a path shows it.  Simplification:
    characters beyond ASCII are taken to be printable. *)
Definition hex_digit (n : N) : N := if n <? 10 then 48 + n else 87 + n.
Definition escape_unicode (b : N) : bytes :=
  [92; 117; 123] ++ (if b <? 16 then [hex_digit b] else [hex_digit (b / 16); hex_digit (b mod 16)]) ++ [125].
Definition escape_debug (b : N) : bytes :=
  if b =? 0 then [92; 48]
  else if b =? 9 then [92; 116]
  else if b =? 13 then [92; 114]
  else if b =? 10 then [92; 110]
  else if (b =? 92) || (b =? 34) || (b =? 39) then [92; b]
  else if (b <? 32) || (b =? 127) then escape_unicode b
  else [b].

(** [impl Debug for Path] (std): hfxlst.rs 20 and python.rs 67. *)
Definition show_path (p : str) : bytes := 34 :: flat_map escape_debug p ++ [34].

Section Run.
Context (flex_on bincode_on : bool) (flex_de : byte_str -> res index).

(** hfxlst.rs 10-31: what `main` prints and its result.  The first line (13) is printed before
    the file is read (15); the rest after the index was. *)
Definition hfxlst_run (fs : fsys) (input : str) : bytes * res unit :=
  let loading := T_LOADING ++ input ++ [46; 46; 10] in
  match fs input with
  | None => (loading, Err EOpen)
  | Some b =>
      match read_index flex_on bincode_on flex_de b with
      | Ok i =>
          let header := match i_path i with
                        | Some p => T_DATASETS ++ T_SOURCE ++ show_path p ++ [41; 10]
                        | None => T_DATASETS ++ [10]
                        end in
          (loading ++ header ++ print_listing (map (fun nd => (fst nd, d_shape (snd nd))) (gi_datasets (i_root i))), Ok tt)
      | x => (loading, failed x)
      end
  end.
End Run.

(** python.rs 64-70: [Index.__repr__]; the path is an `Option`. *)
Definition index_repr (i : index) : bytes :=
  T_INDEX ++ match i_path i with
             | Some p => [83; 111; 109; 101; 40] ++ show_path p ++ [41]
             | None => [78; 111; 110; 101]
             end ++ T_COUNT ++ show_u64 (lenN (gi_datasets (i_root i))).

(** python.rs 173-175: [Dataset.__repr__]; the name is shown as it is. *)
Definition dataset_repr (name : str) : bytes := T_DATASET ++ name ++ [34; 41].
