(** * The chunk-slice iterator visits the selected hyperslab. *)
From Verif Require Import Base Spec SpecApi Radix Safe Chunk Extent Dataset Slicer
  SlicerProofs SlicerStep ChunkProofs DatasetProofs.

Local Arguments N.add : simpl never.
Local Arguments N.sub : simpl never.
Local Arguments N.mul : simpl never.
Local Arguments N.div : simpl never.
Local Arguments N.modulo : simpl never.

(** ** Dimension lists *)

Lemma mk_dims_proj shape : forall cs idx cnt,
  length cs = length shape -> length idx = length shape -> length cnt = length shape ->
  map s_ (mk_dims shape cs idx cnt) = shape /\ map c_ (mk_dims shape cs idx cnt) = cs /\
  map i_ (mk_dims shape cs idx cnt) = idx /\ map n_ (mk_dims shape cs idx cnt) = cnt.
Proof.
  induction shape as [|s shape IH]; intros [|c cs] [|i idx] [|n cnt] H1 H2 H3;
    cbn [length] in *; try discriminate; cbn [mk_dims map]; auto.
  destruct (IH cs idx cnt) as (E1 & E2 & E3 & E4); try lia.
  rewrite E1, E2, E3, E4. auto.
Qed.

Lemma mk_dims_wf shape : forall cs idx cnt,
  Forall (fun c => 0 < c) cs -> Forall2 (fun s c => s + c < W64) shape cs ->
  sel_in shape idx cnt -> Forall dwf (mk_dims shape cs idx cnt).
Proof.
  induction shape as [|s shape IH]; intros cs idx cnt HP HS (L1 & L2 & HN & HB);
    inversion HS; subst; cbn [mk_dims]; [constructor|].
  destruct idx as [|i idx]; [discriminate|]. destruct cnt as [|n cnt]; [discriminate|].
  inversion HP; subst. inversion HN; subst. cbn [length] in *.
  constructor.
  - unfold dwf; cbn. specialize (HB 0%nat i n s eq_refl eq_refl eq_refl). lia.
  - apply IH; auto. split; [lia|]. split; [lia|]. split; auto. intros j. apply (HB (S j)).
Qed.

Lemma mkrs_app l1 l2 : forall V q,
  Forall dwf l1 ->
  mkrs V (l1 ++ l2) q = mkrs V l1 q ++ mkrs (V * pc l1) l2 (q / pn l1).
Proof.
  induction l1 as [|r l1 IH]; intros V q HF; cbn [app mkrs].
  - unfold pc, pn. cbn [map prodN]. now rewrite N.mul_1_r, N.div_1_r.
  - inversion HF; subst. rewrite IH by auto. f_equal. f_equal.
    unfold pc, pn. cbn [map prodN]. fold (pn l1). fold (pc l1).
    pose proof (pn_pos l1 ltac:(auto)). destruct H1 as (Hn & _).
    rewrite N.div_div by lia. f_equal. lia.
Qed.

Lemma cidx_app l1 l2 : forall q, Forall dwf l1 ->
  cidx (l1 ++ l2) q = cidx l1 q ++ cidx l2 (q / pn l1).
Proof.
  induction l1 as [|r l1 IH]; intros q HF; cbn [app cidx].
  - unfold pn. cbn [map prodN]. now rewrite N.div_1_r.
  - inversion HF; subst. rewrite IH by auto. f_equal. f_equal. f_equal.
    unfold pn. cbn [map prodN]. fold (pn l1).
    pose proof (pn_pos l1 ltac:(auto)). destruct H1 as (Hn & _).
    rewrite N.div_div by lia. reflexivity.
Qed.

Lemma cpos_app l1 l2 : forall q, Forall dwf l1 ->
  cpos (l1 ++ l2) q = cpos l1 q + pc l1 * cpos l2 (q / pn l1).
Proof.
  induction l1 as [|r l1 IH]; intros q HF; cbn [app cpos].
  - unfold pn, pc. cbn [map prodN]. rewrite N.div_1_r. lia.
  - inversion HF; subst. rewrite IH by auto.
    unfold pn, pc. cbn [map prodN]. fold (pn l1). fold (pc l1).
    pose proof (pn_pos l1 ltac:(auto)). destruct H1 as (Hn & _).
    rewrite N.div_div by lia. lia.
Qed.

Lemma rev_dig_cons' n cnt p :
  Forall (fun x => 0 < x) cnt ->
  rev (dig (rev (n :: cnt)) p) = (p / prodN cnt) mod n :: rev (dig (rev cnt) p).
Proof.
  intros HF. cbn [rev]. rewrite dig_app by now apply Forall_rev.
  rewrite rev_app_distr. cbn [dig rev app]. now rewrite prodN_rev.
Qed.

Lemma pn_rev D : pn (rev D) = prodN (map n_ D).
Proof. unfold pn. now rewrite map_rev, prodN_rev. Qed.
Lemma pc_rev D : pc (rev D) = prodN (map c_ D).
Proof. unfold pc. now rewrite map_rev, prodN_rev. Qed.

Definition coord_of (D : list dim) (p : N) : list N := slab_coord (map i_ D) (map n_ D) p.

Lemma dwf_cnt D : Forall dwf D -> Forall (fun x => 0 < x) (map n_ D).
Proof. intros H. apply Forall_map. eapply Forall_impl; [|exact H]. now intros r (?&_). Qed.
Lemma dwf_cs D : Forall dwf D -> Forall (fun x => 0 < x) (map c_ D).
Proof. intros H. apply Forall_map. eapply Forall_impl; [|exact H]. now intros r (?&?&_). Qed.

Lemma coord_of_cons r D p : Forall dwf D ->
  coord_of (r :: D) p = i_ r + (p / prodN (map n_ D)) mod n_ r :: coord_of D p.
Proof.
  intros HF. unfold coord_of, slab_coord. cbn [map].
  rewrite rev_dig_cons' by now apply dwf_cnt. cbn [map2]. reflexivity.
Qed.

Lemma rows_mkrs D p :
  Forall dwf D ->
  rev (combine
        (mk_rows (map i_ D) (map n_ D) (chunk_corner (map c_ D) (coord_of D p)) (map c_ D)
                 (row_strides (map c_ D)) (map s_ D))
        (rev (dig (rev (map n_ D)) p)))
  = mkrs 1 (rev D) p.
Proof.
  induction 1 as [|r D Hr HF IH]; [reflexivity|].
  rewrite coord_of_cons by auto. cbn [map].
  rewrite rev_dig_cons' by now apply dwf_cnt.
  unfold chunk_corner. cbn [map2 row_strides mk_rows combine rev].
  fold (chunk_corner (map c_ D) (coord_of D p)). rewrite IH.
  rewrite mkrs_app by now apply Forall_rev. f_equal. cbn [mkrs].
  rewrite pc_rev, pn_rev, N.mul_1_l. reflexivity.
Qed.

Lemma cidx_spec D p : Forall dwf D ->
  cidx (rev D) p = rev (map2 N.div (coord_of D p) (map c_ D)).
Proof.
  induction 1 as [|r D Hr HF IH]; [reflexivity|].
  rewrite coord_of_cons by auto. cbn [rev map map2].
  rewrite cidx_app by now apply Forall_rev. rewrite IH, pn_rev. reflexivity.
Qed.

Lemma cpos_spec D p : Forall dwf D ->
  cpos (rev D) p = pos_in_chunk (map c_ D) (coord_of D p).
Proof.
  unfold pos_in_chunk.
  induction 1 as [|r D Hr HF IH]; [reflexivity|].
  rewrite coord_of_cons by auto. cbn [rev map map2 row_major].
  rewrite cpos_app by now apply Forall_rev. rewrite IH, pn_rev, pc_rev. cbn [cpos]. lia.
Qed.

Lemma coord_of_bounds D p : Forall dwf D ->
  Forall2 (fun x r => i_ r <= x /\ x < i_ r + n_ r) (coord_of D p) D.
Proof.
  induction 1 as [|r D Hr HF IH]; [constructor|].
  rewrite coord_of_cons by auto. constructor; auto.
  destruct Hr as (Hn & _).
  assert ((p / prodN (map n_ D)) mod n_ r < n_ r) by (apply N.mod_lt; lia).
  split; [apply N.le_add_r|]. lia.
Qed.

Lemma coord_of_in_shape D p : Forall dwf D -> in_shape (coord_of D p) (map s_ D).
Proof.
  intros HF. pose proof (coord_of_bounds D p HF) as H. unfold in_shape.
  revert HF. induction H as [|x r xs D [H1 H2] H IH]; intros HF; cbn [map]; constructor;
    inversion HF; subst; auto.
  destruct H4 as (_&_&?&_). lia.
Qed.

(** ** Pieces of [next] *)

Lemma add_lists_ok m D p : Forall dwf D ->
  add_lists m (map i_ D) (rev (dig (rev (map n_ D)) p)) = Ok (coord_of D p).
Proof.
  induction 1 as [|r D Hr HF IH]; [reflexivity|].
  rewrite coord_of_cons by auto. cbn [map].
  rewrite rev_dig_cons' by now apply dwf_cnt. cbn [add_lists].
  destruct Hr as (Hn & Hc & Hs & HW).
  assert ((p / prodN (map n_ D)) mod n_ r < n_ r) by (apply N.mod_lt; lia).
  rewrite add64_ok by lia. cbn [bind]. rewrite IH. reflexivity.
Qed.

Lemma sub_corner m x c : 0 < c -> sub64 m x (x / c * c) = Ok (x mod c).
Proof.
  intros Hc. pose proof (divmod_eq x c ltac:(lia)) as E.
  assert (x / c * c <= x) by (rewrite N.mul_comm; apply N.mul_div_le; lia).
  rewrite sub64_ok by auto. f_equal. lia.
Qed.

Lemma pos_lt cs : forall x, Forall (fun c => 0 < c) cs -> length x = length cs ->
  pos_in_chunk cs x < prodN cs.
Proof.
  unfold pos_in_chunk. intros x HF HL. apply row_major_lt.
  revert x HL; induction HF as [|c cs Hc HF IH]; intros [|y x] HL; cbn [length] in HL; try discriminate;
    cbn [map2]; constructor; auto. apply N.mod_lt. lia.
Qed.

Lemma chunk_start_ok m cs : forall x acc,
  Forall (fun c => 0 < c) cs -> length x = length cs ->
  acc + pos_in_chunk cs x < W64 ->
  chunk_start m acc x (chunk_corner cs x) (row_strides cs) = Ok (acc + pos_in_chunk cs x).
Proof.
  induction cs as [|c cs IH]; intros [|y x] acc HF HL HW; cbn [length] in HL; try discriminate.
  - cbn. f_equal. unfold pos_in_chunk. cbn [map2 row_major]. lia.
  - inversion HF; subst. unfold chunk_corner, pos_in_chunk in *.
    cbn [map2 row_strides chunk_start row_major] in *.
    rewrite sub_corner by auto. cbn [bind].
    rewrite mul64_ok by lia. cbn [bind]. rewrite add64_ok by lia. cbn [bind].
    rewrite IH; auto; try lia. f_equal. lia.
Qed.

Lemma corner_in_box D x :
  Forall dwf D -> in_shape x (map s_ D) ->
  in_box x (chunk_corner (map c_ D) x) (map c_ D) /\
  Forall2 (fun o c => o + c < W64) (chunk_corner (map c_ D) x) (map c_ D) /\
  length x = length (map c_ D) /\ length x = length (chunk_corner (map c_ D) x).
Proof.
  intros HF; revert x; induction HF as [|r D Hr HF IH]; intros x Hx; inversion Hx; subst; cbn [map].
  - repeat split; try constructor; destruct j; discriminate.
  - destruct (IH _ H3) as ((B1 & B2 & B3) & F & L1 & L2).
    destruct Hr as (Hn & Hc & Hs & HW).
    unfold chunk_corner in *. cbn [map2 length].
    assert (E : x0 / c_ r * c_ r <= x0) by (rewrite N.mul_comm; apply N.mul_div_le; lia).
    pose proof (divmod_eq x0 (c_ r) ltac:(lia)) as Ed.
    assert (x0 mod c_ r < c_ r) by (apply N.mod_lt; lia).
    split; [|split; [constructor; [lia|auto]|split; lia]].
    split; [cbn [length]; lia|split; [cbn [length]; lia|]].
    intros [|j] y o z; cbn [nth_error].
    + intros [= <-] [= <-] [= <-]. split; [auto|lia].
    + apply B3.
Qed.

(** ** One call of [next] *)

Lemma sel_in_fits shape idx cnt cs :
  sel_in shape idx cnt -> sizes_ok shape cs -> fits64 shape /\ prodN cnt <= prodN shape.
Proof.
  intros (L1 & L2 & HN & HB) (H1 & _).
  assert (HF : Forall (fun x => 0 < x) shape /\ Forall2 N.le cnt shape).
  { clear H1. revert idx cnt L1 L2 HN HB.
    induction shape as [|s shape IH]; intros [|i idx] [|n cnt] L1 L2 HN HB; cbn [length] in *;
      try discriminate; [split; constructor|].
    inversion HN; subst.
    destruct (IH idx cnt) as [A B]; auto.
    { intros j. apply (HB (S j)). }
    specialize (HB 0%nat i n s eq_refl eq_refl eq_refl).
    split; constructor; auto; lia. }
  destruct HF as [A B]. split; [now apply fits64_pos|now apply prodN_le].
Qed.

Definition state_at (idx cnt : list N) (p : N) : slicer :=
  mkSlicer p (rev (dig (rev cnt) p)) idx cnt (prodN cnt).

Lemma next_by m ds idx cnt p :
  full_dataset ds -> d_shape ds <> [] ->
  sel_in (d_shape ds) idx cnt ->
  let rs := rev (mk_dims (d_shape ds) (d_chunk_shape ds) idx cnt) in
  (exists a, step_ok m (prodN cnt) 0 1 rs p a /\ bnd rs (p + a)) ->
  bnd rs p -> p < prodN cnt ->
  exists ch a,
    slicer_next m ds (state_at idx cnt p) =
      Ok (Some ((ch, pos_in_chunk (d_chunk_shape ds) (slab_coord idx cnt p),
                 pos_in_chunk (d_chunk_shape ds) (slab_coord idx cnt p) + a),
                state_at idx cnt (p + a))) /\
    0 < a /\ p + a <= prodN cnt /\ bnd rs (p + a) /\
    pos_in_chunk (d_chunk_shape ds) (slab_coord idx cnt p) + a <= prodN (d_chunk_shape ds) /\
    In ch (d_chunks ds) /\
    forall k, k < a ->
      place ds (slab_coord idx cnt (p + k)) =
      (Some ch, pos_in_chunk (d_chunk_shape ds) (slab_coord idx cnt p) + k).
Proof.
  intros [Hwm Hgrid Hsz] Hsc Hsel rs Hstep Hinv Hp.
  pose proof Hwm as [HR HP _ Hred Hscl _ Hcd].
  destruct (sel_in_fits _ _ _ _ Hsel Hsz) as [Hfit Hcle].
  destruct Hsz as (Hs1 & Hs2 & Hs3).
  pose proof (mk_dims_wf _ _ idx cnt HP Hs3 Hsel) as HD.
  pose proof Hsel as (L1 & L2 & HN & HB).
  destruct (mk_dims_proj (d_shape ds) (d_chunk_shape ds) idx cnt HR L1 L2) as (E1 & E2 & E3 & E4).
  set (D := mk_dims (d_shape ds) (d_chunk_shape ds) idx cnt) in *.
  assert (Ex : forall q, slab_coord idx cnt q = coord_of D q).
  { intros q. unfold coord_of. now rewrite E3, E4. }
  assert (Hpn : pn rs = prodN cnt) by (unfold rs; rewrite pn_rev, E4; auto).
  assert (Hrs : rs <> []).
  { unfold rs. intros Z. assert (length (rev D) = 0%nat) by now rewrite Z.
    rewrite rev_length, <- (map_length s_), E1 in H. destruct (d_shape ds); [auto|discriminate]. }
  assert (HDr : Forall dwf rs) by now apply Forall_rev.
  destruct Hstep as (a & (vis & rest & k & os & S1 & S2 & S3 & S4 & S5 & S6) & Hinv').
  destruct (chunk_at_coord_ok m ds (coord_of D p) Hwm Hfit Hgrid) as (ch & C1 & C2 & C3).
  { rewrite <- E1. now apply coord_of_in_shape. }
  assert (Hinb : in_shape (coord_of D p) (map s_ D)) by now apply coord_of_in_shape.
  destruct (corner_in_box D (coord_of D p) HD Hinb) as (B1 & B2 & B3 & B4).
  rewrite E2 in *.
  assert (Hplace : forall k, k < a -> place ds (coord_of D (p + k)) =
                    (Some ch, pos_in_chunk (d_chunk_shape ds) (coord_of D p) + k)).
  { intros j Hj. destruct (S6 j Hj) as [X1 X2]. unfold rs in X1, X2.
    rewrite !cpos_spec, E2 in X2 by auto. rewrite !cidx_spec, E2 in X1 by auto.
    apply (f_equal (@rev N)) in X1. rewrite !rev_involutive in X1.
    unfold place. rewrite X2. f_equal. unfold chunk_number. rewrite X1. exact C1. }
  assert (HLc : forall q, length (coord_of D q) = length (d_chunk_shape ds)).
  { intros q. pose proof (coord_of_in_shape D q HD) as Hq. apply Forall2_length' in Hq.
    rewrite E1 in Hq. congruence. }
  assert (Hend : pos_in_chunk (d_chunk_shape ds) (coord_of D p) + a <= prodN (d_chunk_shape ds)).
  { specialize (Hplace (a - 1) ltac:(lia)). unfold place in Hplace. injection Hplace as _ Hpl.
    pose proof (pos_lt (d_chunk_shape ds) (coord_of D (p + (a - 1))) HP (HLc _)) as Hl.
    rewrite Hpl in Hl. lia. }
  exists ch, a. rewrite !Ex.
  split; [|split; [auto|split; [lia|split; [auto|split; [auto|split]]]]].
  2:{ eapply nth_error_In; eauto. }
  2:{ intros j Hj. rewrite !Ex. auto. }
  unfold slicer_next, state_at. cbn [s_end s_offset s_coords s_indices s_counts].
  replace (prodN cnt <=? p) with false by (symmetry; apply N.leb_gt; lia).
  unfold is_scalar. destruct (d_shape ds) as [|s0 sh0] eqn:Esh; [congruence|].
  rewrite <- Esh in *.
  rewrite <- E3 at 1. rewrite <- E4 at 1. rewrite add_lists_ok by auto. cbn [bind].
  rewrite C2. cbn [bind].
  assert (Hcont : contains m ch (coord_of D p) (d_chunk_shape ds) = Ok Eq).
  { destruct (contains_spec m ch (coord_of D p) (d_chunk_shape ds)) as (r & R1 & R2);
      [auto|rewrite C3; auto|rewrite C3; auto|].
    rewrite R1. f_equal. apply (box_side_eq _ _ _ _ R2). rewrite C3. auto. }
  rewrite Hcont.
  replace (dbg_res m (let* o := Ok Eq in Ok (is_eq o))) with (Ok tt) by (destruct m; reflexivity).
  cbn [bind]. rewrite C3, Hcd.
  pose proof (pos_lt (d_chunk_shape ds) (coord_of D p) HP (HLc p)) as Hpl.
  rewrite chunk_start_ok by (auto; lia). cbn [bind]. rewrite N.add_0_l.
  pose proof (rows_mkrs D p HD) as Hrows. rewrite E1, E2, E3, E4 in Hrows.
  rewrite Hrows. fold rs.
  rewrite N.mul_0_l, N.add_0_r, N.mul_1_r, N.mul_1_r in S1. rewrite N.mul_1_r in S1.
  rewrite S1. cbn [bind]. rewrite S2. cbn [bind].
  rewrite dbg_ok by (apply N.ltb_lt; auto). cbn [bind].
  rewrite add64_ok by lia. cbn [bind].
  rewrite product64_ok by auto.
  replace (dbg_res m _) with (Ok tt).
  2:{ destruct m; [|reflexivity]. cbn [dbg_res bind].
      apply N.leb_le in Hend. rewrite Hend. reflexivity. }
  cbn [bind]. rewrite S3. unfold rs. rewrite map_rev, E4. reflexivity.
Qed.

(** A safe selection has a step from every run start. *)
Lemma safe_steps m ds idx cnt :
  full_dataset ds -> d_shape ds <> [] ->
  sel_in (d_shape ds) idx cnt ->
  sel_safe (d_shape ds) (d_chunk_shape ds) idx cnt = true ->
  let rs := rev (mk_dims (d_shape ds) (d_chunk_shape ds) idx cnt) in
  forall p, bnd rs p -> p < prodN cnt ->
  exists a, step_ok m (prodN cnt) 0 1 rs p a /\ bnd rs (p + a).
Proof.
  intros [Hwm Hgrid Hsz] Hsc Hsel Hsafe rs p Hinv Hp.
  pose proof Hwm as [HR HP _ Hred Hscl _ Hcd].
  destruct (sel_in_fits _ _ _ _ Hsel Hsz) as [Hfit Hcle].
  destruct Hsz as (Hs1 & Hs2 & Hs3).
  pose proof (mk_dims_wf _ _ idx cnt HP Hs3 Hsel) as HD.
  pose proof Hsel as (L1 & L2 & HN & HB).
  destruct (mk_dims_proj (d_shape ds) (d_chunk_shape ds) idx cnt HR L1 L2) as (E1 & E2 & E3 & E4).
  unfold sel_safe in Hsafe. fold rs in Hsafe.
  set (D := mk_dims (d_shape ds) (d_chunk_shape ds) idx cnt) in *.
  assert (Hpn : pn rs = prodN cnt) by (unfold rs; rewrite pn_rev, E4; auto).
  assert (Hrs : rs <> []).
  { unfold rs. intros Z. assert (length (rev D) = 0%nat) by now rewrite Z.
    rewrite rev_length, <- (map_length s_), E1 in H. destruct (d_shape ds); [auto|discriminate]. }
  assert (HDr : Forall dwf rs) by now apply Forall_rev.
  apply adv_main; auto; try lia.
Qed.

Lemma next_ok m ds idx cnt p :
  full_dataset ds -> d_shape ds <> [] ->
  sel_in (d_shape ds) idx cnt ->
  sel_safe (d_shape ds) (d_chunk_shape ds) idx cnt = true ->
  let rs := rev (mk_dims (d_shape ds) (d_chunk_shape ds) idx cnt) in
  bnd rs p -> p < prodN cnt ->
  exists ch a,
    slicer_next m ds (state_at idx cnt p) =
      Ok (Some ((ch, pos_in_chunk (d_chunk_shape ds) (slab_coord idx cnt p),
                 pos_in_chunk (d_chunk_shape ds) (slab_coord idx cnt p) + a),
                state_at idx cnt (p + a))) /\
    0 < a /\ p + a <= prodN cnt /\ bnd rs (p + a) /\
    pos_in_chunk (d_chunk_shape ds) (slab_coord idx cnt p) + a <= prodN (d_chunk_shape ds) /\
    In ch (d_chunks ds) /\
    forall k, k < a ->
      place ds (slab_coord idx cnt (p + k)) =
      (Some ch, pos_in_chunk (d_chunk_shape ds) (slab_coord idx cnt p) + k).
Proof.
  intros Hfd Hsc Hsel Hsafe rs Hinv Hp. apply next_by; auto. now apply safe_steps.
Qed.

(** ** The whole iteration *)

Lemma run_by m ds idx cnt :
  full_dataset ds -> d_shape ds <> [] ->
  sel_in (d_shape ds) idx cnt ->
  (forall p, bnd (rev (mk_dims (d_shape ds) (d_chunk_shape ds) idx cnt)) p -> p < prodN cnt ->
   exists a, step_ok m (prodN cnt) 0 1 (rev (mk_dims (d_shape ds) (d_chunk_shape ds) idx cnt)) p a /\
             bnd (rev (mk_dims (d_shape ds) (d_chunk_shape ds) idx cnt)) (p + a)) ->
  forall n p fuel,
  let rs := rev (mk_dims (d_shape ds) (d_chunk_shape ds) idx cnt) in
  bnd rs p -> p + N.of_nat n = prodN cnt -> (n < fuel)%nat ->
  exists segs,
    slicer_run m fuel ds (state_at idx cnt p) = (segs, SDone) /\
    map (fun '(c, k) => (Some c, k)) (flat_map seg_elems segs) =
      map (fun q => place ds (slab_coord idx cnt q)) (seqN p n) /\
    Forall (fun '(c, a, b) => a < b /\ b <= prodN (d_chunk_shape ds) /\ In c (d_chunks ds)) segs.
Proof.
  intros Hfd Hsc Hsel Hstep n.
  induction n as [n IH] using (well_founded_induction Wf_nat.lt_wf).
  intros p fuel rs Hinv Hpn Hfuel.
  destruct fuel as [|fuel]; [lia|]. cbn [slicer_run].
  destruct (Nat.eq_dec n 0) as [->|Hn].
  { exists []. unfold slicer_next, state_at. cbn [s_end s_offset].
    replace (prodN cnt <=? p) with true by (symmetry; apply N.leb_le; lia).
    repeat split; constructor. }
  destruct (next_by m ds idx cnt p) as (ch & a & N1 & N2 & N3 & N4 & N5 & N6 & N7); auto; [apply Hstep; auto; lia|lia|].
  rewrite N1.
  destruct (IH (n - N.to_nat a)%nat) with (p := p + a) (fuel := fuel) as (segs & R1 & R2 & R3); auto; try lia.
  rewrite R1. eexists. split; [reflexivity|].
  split.
  - cbn [flat_map]. rewrite map_app. rewrite R2.
    replace n with (N.to_nat a + (n - N.to_nat a))%nat at 2 by lia.
    rewrite map_seqN_split. replace (p + N.of_nat (N.to_nat a)) with (p + a) by lia.
    f_equal. cbn [seg_elems]. rewrite map_map.
    set (z := pos_in_chunk (d_chunk_shape ds) (slab_coord idx cnt p)) in *.
    replace (z + a - z) with a by lia.
    replace p with (p + 0) at 1 by lia. replace z with (z + 0) at 1 by lia.
    rewrite (seqN_map p 0), (seqN_map z 0), !map_map.
    apply map_ext_in. intros k Hk. apply in_seqN in Hk. symmetry. apply N7. lia.
  - constructor; auto. split; [lia|]. split; auto.
Qed.

Lemma run_ok m ds idx cnt :
  full_dataset ds -> d_shape ds <> [] ->
  sel_in (d_shape ds) idx cnt ->
  sel_safe (d_shape ds) (d_chunk_shape ds) idx cnt = true ->
  forall n p fuel,
  let rs := rev (mk_dims (d_shape ds) (d_chunk_shape ds) idx cnt) in
  bnd rs p -> p + N.of_nat n = prodN cnt -> (n < fuel)%nat ->
  exists segs,
    slicer_run m fuel ds (state_at idx cnt p) = (segs, SDone) /\
    map (fun '(c, k) => (Some c, k)) (flat_map seg_elems segs) =
      map (fun q => place ds (slab_coord idx cnt q)) (seqN p n) /\
    Forall (fun '(c, a, b) => a < b /\ b <= prodN (d_chunk_shape ds) /\ In c (d_chunks ds)) segs.
Proof. intros Hfd Hsc Hsel Hsafe. apply run_by; auto. now apply safe_steps. Qed.
