(** * C71: what a handle says about its dataset. *)
From Verif Require Import Base Spec SpecApi SpecReader Safe Chunk Extent Dataset IndexTree IndexProofs ReadProofs Python Handle
  SpecTree Examples Properties7 Properties8 Properties13.

Lemma index_fields m h d : datasetd_index m h = Ok d ->
  d_shape d = h_shape h /\ d_chunk_shape d = match h_chunk h with Some c => c | None => h_shape h end /\
  d_dtype d = h_dtype h /\ d_order d = h_order h /\ d_dsize d = dt_size (h_dtype h).
Proof.
  unfold datasetd_index, dataset_index. destruct (length (h_shape h) <=? 9)%nat; [|discriminate]. intros H.
  apply bind_ok in H as ([sh gz] & _ & H). apply bind_ok in H as (chunks & _ & H). apply bind_ok in H as (g & _ & H).
  apply bind_ok in H as (ex & _ & H). apply bind_ok in H as (u & _ & H). unfold dataset_new in H.
  repeat (apply bind_ok in H as (? & _ & H)). injection H as <-. cbn. auto.
Qed.

(** NumPy's [len]: the length of the first axis; an error for a scalar. *)
Definition numpy_len (shape : list N) : option N := match shape with [] => None | n :: _ => Some n end.

(** For the index of a file, in both build modes, and every dataset it lists in any group:
    the handle's [shape()], [chunk_shape()] (that of the dataset if it is not chunked) and
    the Rust accessors are what the file says; [len] is the number of elements - an
    OverflowError from 2^63 on. *)
Theorem C71_handle m path root i gs k j x : named root -> index_file m path root = Ok i ->
  Forall slash_free gs -> Forall (fun c => c <> []) gs ->
  let group := match gs with [] => None | _ => Some (slashes k ++ joined gs ++ slashes j) end in
  In x (py_datasets i group) -> exists p d h, py_dataset i x group = Some p /\ py_handle p = Ok d /\
    h5_dataset root gs x h /\ has_storage h /\
    py_shape p = Ok (h_shape h) /\
    py_chunk_shape p = Ok (match h_chunk h with Some c => c | None => h_shape h end) /\
    ext_dtype d = h_dtype h /\ ext_dsize d = dt_size (h_dtype h) /\ py_repr p = [68; 97; 116; 97; 115; 101; 116; 32; 40; 34] ++ x ++ [34; 41] /\
    (fits64_lead (h_shape h) ->
      py_len m p = Ok (if prodN (h_shape h) <? 2 ^ 63 then Some (prodN (h_shape h)) else None) /\
      ext_size m d = Ok (lenN (slab (map (fun _ => 0) (h_shape h)) (h_shape h)))).
Proof.
  intros HN E HF HE group HI. destruct (C51_listing m path root i k j gs HN E HF HE) as [_ H].
  destruct (H x HI) as (p & d & h & A & B & C & D & F). exists p, d, h.
  destruct (index_fields m h d F) as (E1 & E2 & E3 & E4 & E5).
  unfold py_shape, py_chunk_shape, py_len. rewrite B. cbn [bind].
  unfold ext_shape, ext_chunk_shape, ext_dtype, ext_dsize, ext_size. rewrite E1, E2, E3, E5.
  do 8 (split; [solve [auto]|]). split.
  - unfold py_dataset in A. destruct (py_lookup i _ x); [|discriminate]. injection A as <-. reflexivity.
  - intros L. rewrite <- E1 in L. destruct (C54_size m d L) as [S _]. rewrite S, E1. split; [|reflexivity].
    cbn [bind]. now rewrite slab_length by apply map_length.
Qed.
Print Assumptions C71_handle.

(** [len] counts the elements of everything: the axes [d[()]] selects. *)
Theorem C71_everything m p d n : py_handle p = Ok d -> fits64_lead (d_shape d) -> py_len m p = Ok (Some n) ->
  exists idx cnt, py_plan m (d_shape d) (PyTuple []) = Ok (idx, cnt) /\ prodN cnt = n /\
    idx = map (fun _ => 0) (d_shape d).
Proof.
  intros HP L H. unfold py_len in H. rewrite HP in H. cbn [bind] in H. unfold ext_size, dataset_size in H.
  rewrite product64_lead in H by exact L. cbn [bind] in H. destruct (prodN (d_shape d) <? 2 ^ 63); [|discriminate]. injection H as <-.
  unfold py_plan. cbn [py_axes bind map length app]. rewrite Nat.sub_0_r. cbn [skipn].
  assert (A : forallb (fun x => x =? 1) (repeat 1 (length (d_shape d))) = true).
  { apply forallb_forall. intros y Hy. apply repeat_spec in Hy. now subst. }
  rewrite A. cbn [assert_ bind]. eexists _, _. split; [reflexivity|]. split; [reflexivity|].
  clear. induction (d_shape d) as [|s l IH]; [reflexivity|]. cbn [length repeat map]. now f_equal.
Qed.
Print Assumptions C71_everything.

(** It is not NumPy's [len], except where the other axes have length one (or the first has
    length zero). *)
Theorem C71_numpy m p d n : py_handle p = Ok d -> fits64_lead (d_shape d) -> py_len m p = Ok (Some n) ->
  (numpy_len (d_shape d) = Some n <->
   exists s rest, d_shape d = s :: rest /\ (s = 0 \/ prodN rest = 1)).
Proof.
  intros HP L H. unfold py_len in H. rewrite HP in H. cbn [bind] in H. unfold ext_size, dataset_size in H.
  rewrite product64_lead in H by exact L. cbn [bind] in H. destruct (prodN (d_shape d) <? 2 ^ 63); [|discriminate]. injection H as <-.
  destruct (d_shape d) as [|s rest]; cbn [numpy_len prodN].
  - split; [discriminate|]. intros (s & rest & Q & _). discriminate.
  - split.
    + intros Q. injection Q as Q. exists s, rest. split; [reflexivity|]. destruct (N.eq_dec s 0) as [->|Hs]; [now left|right].
      assert (s * prodN rest = s * 1) by lia. now apply N.mul_cancel_l in H.
    + intros (s' & rest' & Q & Hs). injection Q as <- <-. f_equal. destruct Hs as [->|Hs]; [lia|]. rewrite Hs. lia.
Qed.
Print Assumptions C71_numpy.

(** The 4 x 6 dataset "x" of the group "/g", in 2 x 3 chunks: its length is 24, not 4. *)
Example C71_case m : exists p, py_dataset ex_index [120] (Some [47; 103]) = Some p /\ py_handle p = Ok ex_ds /\
  py_shape p = Ok [4; 6] /\ py_chunk_shape p = Ok [2; 3] /\ py_len m p = Ok (Some 24) /\ numpy_len (d_shape ex_ds) = Some 4 /\
  fits64_lead (d_shape ex_ds) /\ py_repr p = [68; 97; 116; 97; 115; 101; 116; 32; 40; 34; 120; 34; 41] /\
  In [120] (py_datasets ex_index (Some [47; 103])) /\ index_file m tree_path ex_tree = Ok ex_index.
Proof.
  eexists. split; [reflexivity|]. repeat (split; [destruct m; reflexivity|]).
  split; [intros [|[|[|k]]]; reflexivity|]. split; [reflexivity|]. split; [now left|apply ex_tree_indexed].
Qed.
