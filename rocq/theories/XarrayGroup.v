(** * Model of how the xarray backend finds a group, /repo/python/hidefix/xarray.py 86-98:
    the index by its own lookup (130-132, [py_datasets] of Python.v), netCDF4 by
    `self.ds[self.group]`.

    [Dataset.__getitem__] of netCDF4 and `posixpath.normpath`, `posixpath.split` of Python are
    modelled after their sources. *)
From Verif Require Import Base Chunk Dataset IndexTree Python.

Definition DOT : N := 46.
Definition s_dot : str := [DOT].
Definition s_dotdot : str := [DOT; DOT].
Definition starts_slash (s : str) : bool := match s with c :: _ => c =? SLASH | [] => false end.

(** posixpath.normpath: the loop over the components; [new] is kept in reverse. *)
Fixpoint norm_loop (abs : bool) (comps new : list str) : list str :=
  match comps with
  | [] => rev new
  | c :: comps' =>
      if str_eqb c [] || str_eqb c s_dot then norm_loop abs comps' new
      else if negb (str_eqb c s_dotdot) then norm_loop abs comps' (c :: new)
      else match new with
           | [] => if abs then norm_loop abs comps' [] else norm_loop abs comps' [c]
           | d :: new' => if str_eqb d s_dotdot then norm_loop abs comps' (c :: new) else norm_loop abs comps' new'
           end
  end.
(** '/'.join. *)
Fixpoint join_slash (cs : list str) : str :=
  match cs with
  | [] => []
  | [c] => c
  | c :: cs' => c ++ SLASH :: join_slash cs'
  end.
(** posixpath.normpath: two leading slashes stay two, more than two become one. *)
Definition leading (s : str) : nat :=
  match s with
  | a :: b :: c :: _ =>
      if a =? SLASH then if (b =? SLASH) && negb (c =? SLASH) then 2%nat else 1%nat else 0%nat
  | [a; b] => if a =? SLASH then if b =? SLASH then 2%nat else 1%nat else 0%nat
  | [a] => if a =? SLASH then 1%nat else 0%nat
  | [] => 0%nat
  end.
Definition normpath (s : str) : str :=
  let p := repeat SLASH (leading s) ++ join_slash (norm_loop (starts_slash s) (split_slash s) []) in
  match p with [] => s_dot | _ => p end.

(** posixpath.split: what is up to the last slash, and what follows; slashes at the end of the
    first are dropped, unless it is only slashes. *)
Fixpoint split_at_last (s : str) : str * str :=
  match s with
  | [] => ([], [])
  | c :: s' => match split_at_last s' with
               | (h :: hs, t) => (c :: h :: hs, t)
               | ([], t) => if c =? SLASH then ([c], t) else ([], c :: t)
               end
  end.
Definition posix_split (s : str) : str * str :=
  let (h, t) := split_at_last s in (match trim_end h with [] => h | h' => h' end, t).

(** What netCDF4 finds: a group, or something that is no group (a variable). *)
Inductive ncitem : Type := NGroup (g : h5group) | NOther.

Definition nc_members (g : h5group) : list (str * h5member) := let '(mkHG _ l) := g in l.
Definition nc_sub (g : h5group) (c : str) : option h5group :=
  match hget c (nc_members g) with Some (HGroup g') => Some g' | _ => None end.

(** The loop over the groups before the last name; a name that is no group is a KeyError. *)
Fixpoint nc_walk (g : h5group) (cs : list str) : res h5group :=
  match cs with
  | [] => Ok g
  | c :: cs' => if str_eqb c [] then nc_walk g cs'
                else match nc_sub g c with Some g' => nc_walk g' cs' | None => Err EMissing end
  end.
(** netCDF4: [Dataset.__getitem__]; a last name that is nothing is an IndexError. *)
Definition nc_getitem (root : h5group) (elem : str) : res ncitem :=
  let (dirname, lastname) := posix_split (normpath elem) in
  let* g := nc_walk root (split_slash dirname) in
  match hget lastname (nc_members g) with
  | Some (HGroup g') => Ok (NGroup g')
  | Some (HData _) => Ok NOther
  | _ => Err EMissing
  end.

(** xarray.py 86-98: the group the store takes variables from, [None] for the root. *)
Definition store_group (root : h5group) (group : option str) : res ncitem :=
  match group with None => Ok (NGroup root) | Some s => nc_getitem root s end.
