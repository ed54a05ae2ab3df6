(** * ExamplesReader: a concrete file, used to show that hypotheses of the reader theorems
    can be met: the 4 x 6 dataset of Examples.v, shuffled and "compressed" with a toy
    format (a marker byte 120 before the data), after a four byte header. *)
From Verif Require Import Base Spec Safe Extent Chunk Dataset Slicer SpecApi Filters SpecFilter SpecReader Examples.

Definition toy_inflate (s : bytes) : option bytes :=
  match s with b :: t => if b =? 120 then Some t else None | [] => None end.

Definition st_value (x : list N) : bytes :=
  match x with [r; c] => [10 * r + c; 200 + r] | _ => [] end.

Definition st_ds : dataset :=
  mkDataset (Int 2) 2 LE
    [mkChunk 4 13 [0; 0]; mkChunk 30 13 [0; 3]; mkChunk 17 13 [2; 0]; mkChunk 43 13 [2; 3]]
    [4; 6] [2; 3] [2; 3] [2; 1] [6; 1] [3; 1] true (Some 4).

(** The elements of the chunk at (i, j), in order. *)
Definition st_elems (i j : N) : list (list N) := slab [i; j] [2; 3].
Definition st_raw (i j : N) : bytes := concat (map st_value (st_elems i j)).
Definition st_stored (i j : N) : bytes :=
  120 :: map (fun x => nth 0 (st_value x) 0) (st_elems i j) ++ map (fun x => nth 1 (st_value x) 0) (st_elems i j).
Definition st_file : bytes := [1; 2; 3; 4] ++ st_stored 0 0 ++ st_stored 2 0 ++ st_stored 0 3 ++ st_stored 2 3.

Lemma st_full : full_dataset st_ds.
Proof.
  constructor; [constructor|..]; try reflexivity.
  - repeat constructor.
  - repeat split; repeat constructor.
Qed.

Lemma st_regular : regular st_ds.
Proof.
  constructor; [constructor; [reflexivity|reflexivity|intros _; cbn; auto|reflexivity]| |discriminate].
  - intros c c'. cbn [st_ds d_chunks In]. intros [<-|[<-|[<-|[<-|[]]]]] [<-|[<-|[<-|[<-|[]]]]]; reflexivity.
Qed.

Lemma st_shuffled i j : shuffled_of 2 6 (st_raw i j)
  (map (fun x => nth 0 (st_value x) 0) (st_elems i j) ++ map (fun x => nth 1 (st_value x) 0) (st_elems i j)).
Proof.
  split; [reflexivity|]. split; [reflexivity|]. intros a b Ha Hb.
  destruct a as [|[|a]]; [| |lia]; destruct b as [|[|[|[|[|[|b]]]]]]; try lia; reflexivity.
Qed.

Lemma st_words i j x k : holds st_ds x (mkChunk (if i =? 0 then if j =? 0 then 4 else 30 else if j =? 0 then 17 else 43) 13 [i; j], k) ->
  word 2 (N.to_nat k) (st_raw i j) = st_value x.
Proof.
  intros (_ & (L1 & L2 & H) & Hk). cbn [fst snd c_offset st_ds d_chunk_shape length] in *.
  destruct x as [|r [|c [|z x]]]; try discriminate.
  pose proof (H 0%nat r i 2 eq_refl eq_refl eq_refl) as H0. pose proof (H 1%nat c j 3 eq_refl eq_refl eq_refl) as H1.
  cbn [map2 row_major prodN] in Hk.
  assert (r = i \/ r = i + 1) as R by lia. assert (c = j \/ c = j + 1 \/ c = j + 1 + 1) as C by lia.
  assert (r - i = 0 \/ r - i = 1) as R' by lia. 
  destruct R as [->| ->], C as [->|[->| ->]]; clear H0 H1 H R';
    rewrite ?N.sub_diag in Hk;
    repeat match type of Hk with context [?a + 1 + 1 - ?a] => replace (a + 1 + 1 - a) with 2 in Hk by lia end;
    repeat match type of Hk with context [?a + 1 - ?a] => replace (a + 1 - a) with 1 in Hk by lia end;
    cbn in Hk; subst k; reflexivity.
Qed.

Lemma st_chunks c : In c (d_chunks st_ds) -> exists i j,
  c = mkChunk (if i =? 0 then if j =? 0 then 4 else 30 else if j =? 0 then 17 else 43) 13 [i; j] /\
  c_addr c + c_size c <= lenN st_file /\
  file_bytes st_file (c_addr c) (c_size c) = st_stored i j.
Proof.
  cbn [st_ds d_chunks In]. intros [<-|[<-|[<-|[<-|[]]]]].
  - exists 0, 0. split; [reflexivity|]. split; [vm_compute; discriminate|reflexivity].
  - exists 0, 3. split; [reflexivity|]. split; [vm_compute; discriminate|reflexivity].
  - exists 2, 0. split; [reflexivity|]. split; [vm_compute; discriminate|reflexivity].
  - exists 2, 3. split; [reflexivity|]. split; [vm_compute; discriminate|reflexivity].
Qed.

Lemma st_stores : stores toy_inflate st_file st_ds st_value.
Proof.
  constructor; [apply st_regular|apply st_regular|].
  intros c Hc. destruct (st_chunks c Hc) as (i & j & E & HB & EF). split; auto.
  exists (st_raw i j). split; [|split; [reflexivity|]].
  - rewrite EF. cbn [filters_of st_ds d_shuffle d_gzip app].
    eapply pl_shuffle; [apply st_shuffled|]. eapply pl_deflate; [|constructor]. reflexivity.
  - intros x k _ Hh. rewrite E in Hh. apply st_words in Hh. exact Hh.
Qed.

(** Every chunk of it is readable, and it is the whole file that matters: without its last
    byte the last chunk is not. *)
Lemma st_lost : ~ readable toy_inflate (firstn 55 st_file) st_ds (mkChunk 43 13 [2; 3]).
Proof. intros [[H|H] _]; [discriminate|]. vm_compute in H. now apply H. Qed.

Definition st_sel : extents := Extents [SliceEnd 1 4; Slice 2].
Lemma st_safe dst fuel : 24 <= lenN dst -> lenN dst < W64 -> (12 < fuel)%nat ->
  safe_read st_ds st_sel [1; 2] [3; 4] dst fuel.
Proof.
  intros. constructor; auto.
  - exact st_full.
  - exact st_regular.
  - exact ex_sel.
Qed.
