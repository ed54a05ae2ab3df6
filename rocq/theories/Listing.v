(** * What hfxlst prints of each dataset (/repo/src/bin/hfxlst.rs 24-27). *)
From Coq Require Import Decimal DecimalN.
From Verif Require Import Base.

(** The bytes of a decimal number. *)
Fixpoint digits (u : uint) : bytes :=
  match u with
  | Nil => []
  | D0 u => 48 :: digits u | D1 u => 49 :: digits u | D2 u => 50 :: digits u | D3 u => 51 :: digits u
  | D4 u => 52 :: digits u | D5 u => 53 :: digits u | D6 u => 54 :: digits u | D7 u => 55 :: digits u
  | D8 u => 56 :: digits u | D9 u => 57 :: digits u
  end.

(** [impl Debug for u64] (core), as `{:?}` prints it. *)
Definition show_u64 (n : N) : bytes := digits (N.to_uint n).

(** [impl Debug for [u64]] (core): the elements separated by ", ", in brackets. *)
Fixpoint show_list (l : list N) : bytes :=
  match l with
  | [] => []
  | [n] => show_u64 n
  | n :: l' => show_u64 n ++ 44 :: 32 :: show_list l'
  end.
Definition show_shape (l : list N) : bytes := 91 :: show_list l ++ [93].

(** [str::chars().count()] of UTF-8: the bytes that are not continuation bytes. *)
Definition chars (s : bytes) : nat := length (filter (fun b => negb ((128 <=? b) && (b <? 192))) s).

(** [Formatter::pad] (core) with width 32 and the default alignment of strings, left. *)
Definition pad32 (s : bytes) : bytes := s ++ repeat 32 (32 - chars s).

(** hfxlst.rs 26: `println!("{name:32} {shape:?}")`. *)
Definition print_line (ns : bytes * list N) : bytes := pad32 (fst ns) ++ 32 :: show_shape (snd ns) ++ [10].

(** hfxlst.rs 24-27: what the loop prints. *)
Definition print_listing (l : list (bytes * list N)) : bytes := flat_map print_line l.
