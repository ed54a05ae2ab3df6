(** * SpecFilter: what byte orders, the HDF5 shuffle filter and the HDF5 filter pipeline mean.

    Only data types of the model are used. *)
From Verif Require Import Base Dataset.

(** The number denoted by bytes, least significant first / most significant first. *)
Fixpoint num_le (l : bytes) : N :=
  match l with [] => 0 | b :: l' => b + 256 * num_le l' end.
Fixpoint num_be_from (acc : N) (l : bytes) : N :=
  match l with [] => acc | b :: l' => num_be_from (256 * acc + b) l' end.
Definition num_be (l : bytes) : N := num_be_from 0 l.

(** The number stored in a given byte order (none if the order is unknown). *)
Definition num_in (o : order) (l : bytes) : option N :=
  match o with LE => Some (num_le l) | BE => Some (num_be l) | Unknown => None end.

(** Two's complement reading of an unsigned number of [w] bytes. *)
Definition as_signed (w : nat) (v : N) : Z :=
  if v <? 2 ^ (8 * N.of_nat w - 1) then Z.of_N v else (Z.of_N v - Z.of_N (2 ^ (8 * N.of_nat w)))%Z.

(** The integer value of [w] bytes, signed or not, in byte order [o]. *)
Definition int_value (signed : bool) (o : order) (l : bytes) : option Z :=
  match num_in o l with
  | Some v => Some (if signed then as_signed (length l) v else Z.of_N v)
  | None => None
  end.

(** Word number [j] of a buffer of [w]-byte words. *)
Definition word (w j : nat) (l : bytes) : bytes := firstn w (skipn (j * w) l).

(** [s] is the byte-shuffled form of [l], [n] words of [w] bytes: byte i of word j goes
    to position i*n + j. *)
Definition shuffled_of (w n : nat) (l s : bytes) : Prop :=
  length l = (w * n)%nat /\ length s = (w * n)%nat /\
  forall i j, (i < w)%nat -> (j < n)%nat -> nth (i * n + j) s 0 = nth (j * w + i) l 0.

(** The HDF5 write pipeline: filters are applied in order.  [inflate] is the inverse of
    deflate: a deflated form of [l] is any [s] that inflates to [l]. *)
Inductive pipeline (inflate : bytes -> option bytes) (w : nat) : list h5filter -> bytes -> bytes -> Prop :=
| pl_nil l : pipeline inflate w [] l l
| pl_shuffle fs l n s r : shuffled_of w n l s -> pipeline inflate w fs s r ->
    pipeline inflate w (FShuffle :: fs) l r
| pl_deflate fs l z s r : inflate s = Some l -> pipeline inflate w fs s r ->
    pipeline inflate w (FDeflate z :: fs) l r.
