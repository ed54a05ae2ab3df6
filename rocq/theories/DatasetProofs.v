(** * Proofs about dataset construction, indexing and chunk lookup. *)
From Verif Require Import Base Spec SpecApi Radix Extent Chunk Dataset ChunkProofs.
From Coq Require Import Sorted.

(** ** Strides *)

Fixpoint scan_pure (p : N) (l : list N) : list N :=
  match l with [] => [] | c :: l' => p :: scan_pure (p * c) l' end.

Lemma scan_pure_snoc l : forall p x, scan_pure p (l ++ [x]) = scan_pure p l ++ [p * prodN l].
Proof.
  induction l as [|c l IH]; intros p x; cbn [app scan_pure prodN].
  - f_equal. lia.
  - rewrite IH. cbn [app]. do 3 f_equal. lia.
Qed.

Lemma scan_mul_ok m l : forall p,
  (forall k, p * prodN (firstn k l) < W64) -> scan_mul m p l = Ok (scan_pure p l).
Proof.
  induction l as [|c l IH]; intros p H; cbn [scan_mul scan_pure]; auto.
  pose proof (H 1%nat) as H1. cbn [firstn prodN] in H1.
  rewrite mul64_ok by lia. cbn [bind]. rewrite IH; auto.
  intros k. pose proof (H (S k)) as Hk. cbn [firstn prodN] in Hk. lia.
Qed.

Lemma scan_pure_strides l : rev (scan_pure 1 (rev l)) = row_strides l.
Proof.
  induction l as [|x l IH]; cbn [rev row_strides]; auto.
  rewrite scan_pure_snoc, rev_app_distr. cbn [rev app]. rewrite IH.
  f_equal. rewrite prodN_rev. lia.
Qed.

Lemma strides_ok m l : fits64 l -> strides m l = Ok (row_strides l).
Proof.
  intros H. unfold strides. rewrite scan_mul_ok.
  - cbn [bind]. now rewrite scan_pure_strides.
  - intros k. rewrite N.mul_1_l, <- prodN_rev, firstn_rev, rev_involutive. apply H.
Qed.

Lemma sr_new_ok l : Forall (fun x => 0 < x) l -> mapM sr_new l = Ok l.
Proof.
  induction 1 as [|x l Hx HF IH]; cbn [mapM]; auto.
  unfold sr_new at 1. destruct (N.eqb_spec x 0); [lia|]. cbn [bind]. rewrite IH. reflexivity.
Qed.

Lemma sr_new_zero l : In 0 l -> mapM sr_new l = Panic.
Proof.
  induction l as [|x l IH]; intros H; [easy|]. cbn [mapM]. unfold sr_new at 1.
  destruct (N.eqb_spec x 0); [reflexivity|]. cbn [bind].
  destruct H as [H|H]; [congruence|]. now rewrite IH.
Qed.

Lemma div_ceil64_ok s c : 0 < c -> div_ceil64 s c = Ok (ceil_div s c).
Proof.
  intros Hc. unfold div_ceil64, ceil_div. destruct (N.eqb_spec c 0); [lia|].
  f_equal. pose proof (divmod_eq s c ltac:(lia)) as E.
  assert (M : s mod c < c) by (apply N.mod_lt; lia).
  destruct (N.eqb_spec (s mod c) 0) as [E0|E0]; symmetry.
  - apply (div_unique_N _ _ _ (c - 1)); [lia|]. rewrite E0 in E. lia.
  - apply (div_unique_N _ _ _ (s mod c - 1)); [lia|].
    rewrite N.mul_add_distr_l. set (d := s mod c) in *. set (g := c * (s / c)) in *.
    clearbody d g. lia.
Qed.

Lemma grid_ok shape : forall cs, Forall (fun x => 0 < x) cs ->
  mapM (fun '(d, z) => div_ceil64 d z) (combine shape cs) = Ok (grid_dims shape cs).
Proof.
  unfold grid_dims.
  induction shape as [|s shape IH]; intros [|c cs] HF; cbn [combine mapM map2]; auto.
  inversion HF; subst. rewrite div_ceil64_ok by auto. cbn [bind]. rewrite IH by auto.
  reflexivity.
Qed.

Lemma ceil_div_le s c : 0 < c -> ceil_div s c <= s.
Proof.
  intros Hc. unfold ceil_div. assert ((s + c - 1) / c < s + 1); [|lia].
  apply N.div_lt_upper_bound; nia.
Qed.
Lemma ceil_div_pos s c : 0 < c -> 0 < s -> 0 < ceil_div s c.
Proof.
  intros Hc Hs. unfold ceil_div. apply N.div_str_pos. lia.
Qed.
Lemma div_lt_ceil x s c : 0 < c -> x < s -> x / c < ceil_div s c.
Proof.
  intros Hc Hx. unfold ceil_div. apply N.lt_le_trans with (x / c + 1); [lia|].
  apply N.div_le_lower_bound; [lia|].
  pose proof (N.mul_div_le x c ltac:(lia)). lia.
Qed.

Lemma prodN_le l1 l2 : Forall2 N.le l1 l2 -> prodN l1 <= prodN l2.
Proof. induction 1; cbn [prodN]; nia. Qed.

Lemma grid_dims_le shape : forall cs,
  Forall (fun x => 0 < x) cs -> length cs = length shape ->
  Forall2 N.le (grid_dims shape cs) shape.
Proof.
  unfold grid_dims.
  induction shape as [|s shape IH]; intros [|c cs] HF HL; cbn [length] in HL; try discriminate;
    cbn [map2]; constructor; inversion HF; subst; auto. now apply ceil_div_le.
Qed.

Lemma Forall2_skipn {A B} (R : A -> B -> Prop) l1 l2 k :
  Forall2 R l1 l2 -> Forall2 R (skipn k l1) (skipn k l2).
Proof.
  intros H; revert k; induction H; intros [|k]; cbn [skipn]; auto.
Qed.

Lemma fits64_grid shape cs :
  Forall (fun x => 0 < x) cs -> length cs = length shape -> fits64 shape ->
  fits64 (grid_dims shape cs).
Proof.
  intros HF HL H k. eapply N.le_lt_trans; [|apply (H k)].
  apply prodN_le, Forall2_skipn, grid_dims_le; auto.
Qed.

Lemma dataset_new_ok m dt o shape chunks cs sh gz :
  length cs = length shape -> Forall (fun x => 0 < x) cs ->
  fits64 shape -> fits64 cs ->
  dataset_new m dt o shape chunks cs sh gz =
  Ok (mkDataset dt (dt_size dt) o chunks shape cs cs
        (row_strides (grid_dims shape cs)) (row_strides shape) (row_strides cs) sh gz).
Proof.
  intros HL HP H1 H2. unfold dataset_new.
  rewrite sr_new_ok, grid_ok by auto. cbn [bind].
  rewrite !strides_ok by (auto using fits64_grid). reflexivity.
Qed.

Lemma dataset_new_zero m dt o shape chunks cs sh gz :
  In 0 cs -> dataset_new m dt o shape chunks cs sh gz = Panic.
Proof. intros H. unfold dataset_new. now rewrite sr_new_zero. Qed.

Lemma dataset_new_well_made m dt o shape chunks cs sh gz ds :
  length cs = length shape -> fits64 shape -> fits64 cs ->
  dataset_new m dt o shape chunks cs sh gz = Ok ds -> well_made ds.
Proof.
  intros HL H1 H2 E.
  destruct (in_dec N.eq_dec 0 cs) as [H0|H0].
  { rewrite dataset_new_zero in E; [discriminate|auto]. }
  assert (HP : Forall (fun x => 0 < x) cs).
  { apply Forall_forall. intros x Hx. destruct (N.eq_dec x 0); [congruence|lia]. }
  rewrite dataset_new_ok in E by auto. injection E as <-. constructor; auto.
Qed.

(** ** Lookup *)

Lemma coord_fold_ok m : forall grid coord cs acc,
  length coord = length grid -> length cs = length grid ->
  Forall (fun x => 0 < x) cs ->
  acc + row_major grid (map2 N.div coord cs) < W64 ->
  (Forall2 N.lt (map2 N.div coord cs) grid) ->
  coord_fold m acc coord cs (row_strides grid) =
  Ok (acc + row_major grid (map2 N.div coord cs)).
Proof.
  induction grid as [|g grid IH]; intros [|x coord] [|c cs] acc H1 H2 HP HW HG;
    cbn [length] in *; try discriminate; cbn [row_strides coord_fold map2 row_major] in *.
  - f_equal. lia.
  - inversion HP; subst. inversion HG; subst.
    unfold div64. destruct (N.eqb_spec c 0); [lia|]. cbn [bind].
    rewrite mul64_ok by lia. cbn [bind]. rewrite add64_ok by lia. cbn [bind].
    rewrite IH; auto; try lia. f_equal. lia.
Qed.

Lemma coord_in_grid shape : forall cs coord,
  length cs = length shape -> Forall (fun x => 0 < x) cs -> in_shape coord shape ->
  Forall2 N.lt (map2 N.div coord cs) (grid_dims shape cs).
Proof.
  unfold grid_dims.
  induction shape as [|s shape IH]; intros [|c cs] coord HL HP HI; cbn [length] in HL; try discriminate;
    inversion HI; subst; cbn [map2]; constructor; inversion HP; subst; auto.
  now apply div_lt_ceil.
Qed.

Lemma grid_offsets_nth shape cs g :
  length cs = length shape ->
  Forall2 N.lt g (grid_dims shape cs) ->
  nth_error (grid_offsets shape cs) (N.to_nat (row_major (grid_dims shape cs) g))
  = Some (map2 N.mul g cs).
Proof.
  intros HL HG. unfold grid_offsets. rewrite nth_error_map.
  replace (map (fun _ => 0) shape) with (map (fun _ => 0) (grid_dims shape cs)).
  - now rewrite slab_nth.
  - clear HG g. unfold grid_dims. revert cs HL.
    induction shape as [|s shape IH]; intros [|c cs] HL; cbn [length] in HL; try discriminate; cbn [map map2]; auto.
    f_equal. apply IH. lia.
Qed.

(** The corner of the chunk that holds a coordinate. *)
Definition chunk_corner (cs coord : list N) : list N := map2 N.mul (map2 N.div coord cs) cs.

Lemma Forall2_length' {A B} (R : A -> B -> Prop) l1 l2 : Forall2 R l1 l2 -> length l1 = length l2.
Proof. induction 1; cbn [length]; auto. Qed.

Lemma chunk_at_coord_ok m ds coord :
  well_made ds -> fits64 (d_shape ds) ->
  map c_offset (d_chunks ds) = grid_offsets (d_shape ds) (d_chunk_shape ds) ->
  in_shape coord (d_shape ds) ->
  exists c,
    nth_error (d_chunks ds)
      (N.to_nat (chunk_number (d_shape ds) (d_chunk_shape ds) coord)) = Some c /\
    chunk_at_coord m ds coord = Ok c /\
    c_offset c = chunk_corner (d_chunk_shape ds) coord.
Proof.
  intros [HR HP _ Hred Hsc _ _] HF HG HI.
  set (shape := d_shape ds) in *. set (cs := d_chunk_shape ds) in *.
  pose proof (coord_in_grid shape cs coord HR HP HI) as HGr.
  pose proof (row_major_lt _ _ HGr) as Hlt.
  pose proof (fits64_grid shape cs HP HR HF 0%nat) as HW. cbn [skipn] in HW.
  pose proof (Forall2_length' _ _ _ HI) as HLc.
  pose proof (grid_offsets_nth shape cs _ HR HGr) as Hn.
  rewrite <- HG, nth_error_map in Hn.
  assert (HLg : length (grid_dims shape cs) = length shape).
  { unfold grid_dims. rewrite map2_length. lia. }
  unfold chunk_number.
  destruct (nth_error (d_chunks ds) (N.to_nat (row_major (grid_dims shape cs) (map2 N.div coord cs))))
    as [c|] eqn:En; [|discriminate].
  exists c. split; auto. cbn [option_map] in Hn. injection Hn as Hn. split; [|exact Hn].
  unfold chunk_at_coord. fold cs.
  rewrite dbg_ok by (apply Nat.eqb_eq; congruence). cbn [bind].
  rewrite dbg_ok by (apply Nat.eqb_eq; rewrite Hsc, row_strides_length; congruence). cbn [bind].
  rewrite Hred, Hsc.
  rewrite coord_fold_ok; auto; try congruence; try lia.
  cbn [bind]. rewrite N.add_0_l, En. reflexivity.
Qed.
