(** * SeriesProofs: the chunk-slice iterator on a series along the first dimension, at one
    point of the others, when chunks are one element wide in the others. *)
From Verif Require Import Base Spec SpecApi Radix Safe Chunk Extent Dataset Slicer
  SlicerProofs SlicerStep ChunkProofs DatasetProofs SlicerMain SlicerTheorems SlicerExact SlicerExact2 SlicerExact3
  SlicerRelease SlicerRelease2 ApiLemmas.

Local Arguments N.add : simpl never.
Local Arguments N.sub : simpl never.
Local Arguments N.mul : simpl never.
Local Arguments N.div : simpl never.
Local Arguments N.modulo : simpl never.
Local Arguments N.min : simpl never.
Local Arguments N.max : simpl never.

(** ** The loop over dimensions *)
Definition pt (r : dim) : Prop := n_ r = 1 /\ c_ r = 1 /\ i_ r < s_ r /\ s_ r + 1 < W64.
Definition ptrow (r : dim) : row * N := (mkRow (i_ r) 1 (i_ r) 1 1 (s_ r), 0).

Lemma pt_step m e r rest k a b :
  pt r -> k + 1 < W64 -> a + 1 < W64 -> b + 1 < W64 -> b < e ->
  adv_loop m e (ptrow r :: rest) k a b =
  if b + 1 <? e
  then let* (vis, rest', k', a', f) := adv_loop m e rest (k + 1) (a + 1) (b + 1) in
       Ok (0 :: vis, rest', k', a', f)
  else Ok ([0], rest, k + 1, a + 1, b + 1).
Proof.
  intros (_ & _ & Hi & Hs) Hk Ha Hb Hbe. cbn [adv_loop ptrow r_co r_c r_s r_v r_cnt r_idx].
  rewrite add64_ok by lia. cbn [bind].
  replace (s_ r <? i_ r + 1) with false by (symmetry; apply N.ltb_ge; lia). cbn [bind].
  change (1 =? 1) with true. cbn [negb andb].
  rewrite add64_ok by lia. cbn [bind]. unfold div64, rem64. change (1 =? 0) with false. cbn [bind].
  rewrite N.add_0_l, N.div_1_r, N.mod_1_r.
  replace (dbg m (0 <? 1)) with (Ok tt : res unit) by now destruct m.
  cbn [bind]. rewrite add64_ok by lia. cbn [bind].
  rewrite sub64_ok by lia. cbn [bind]. replace (i_ r + 1 - i_ r) with 1 by lia. rewrite N.min_id.
  rewrite sub64_ok by lia. cbn [bind]. change (1 - 0) with 1. rewrite mul64_ok by (vm_compute; reflexivity).
  cbn [bind]. change (1 * 1) with 1. rewrite !add64_ok by lia. cbn [bind].
  change (1 / 1) with 1. change (1 mod 1) with 0. rewrite add64_ok by lia. cbn [bind].
  rewrite !N.eqb_refl. cbn [andb].
  destruct (b + 1 <? e) eqn:E; [reflexivity|]. apply N.ltb_ge in E.
  unfold dbg. replace (b + 1 <=? e) with true by (symmetry; apply N.leb_le; lia).
  now destruct m.
Qed.

Lemma pt_loop m e : forall inner rest k a b, Forall pt inner ->
  e < W64 -> k <= b -> a <= b -> b < e ->
  adv_loop m e (map ptrow inner ++ rest) k a b =
  if b + lenN inner <? e
  then let* (vis, rest', k', a', f) := adv_loop m e rest (k + lenN inner) (a + lenN inner) (b + lenN inner) in
       Ok (repeat 0 (length inner) ++ vis, rest', k', a', f)
  else Ok (repeat 0 (N.to_nat (e - b)), map ptrow (skipn (N.to_nat (e - b)) inner) ++ rest,
           k + (e - b), a + (e - b), e).
Proof.
  induction inner as [|r inner IH]; intros rest k a b HF He Hk Ha Hbe.
  - unfold lenN. cbn [length map app repeat N.of_nat]. rewrite !N.add_0_r.
    replace (b <? e) with true by (symmetry; apply N.ltb_lt; lia).
    destruct (adv_loop m e rest k a b) as [[[[[? ?] ?] ?] ?]| | | |]; reflexivity.
  - inversion HF as [|? ? Hr HF']; subst. rewrite lenN_cons in *. cbn [map app length repeat].
    rewrite pt_step by (auto; lia). destruct (b + 1 <? e) eqn:E.
    + apply N.ltb_lt in E. rewrite IH by (auto; lia).
      replace (b + 1 + lenN inner) with (b + (1 + lenN inner)) by lia.
      destruct (b + (1 + lenN inner) <? e) eqn:E2.
      * replace (k + 1 + lenN inner) with (k + (1 + lenN inner)) by lia.
        replace (a + 1 + lenN inner) with (a + (1 + lenN inner)) by lia.
        destruct (adv_loop m e rest _ _ _) as [[[[[? ?] ?] ?] ?]| | | |]; reflexivity.
      * cbn [bind]. replace (N.to_nat (e - b)) with (S (N.to_nat (e - (b + 1)))) by lia.
        cbn [repeat skipn]. replace (k + 1 + (e - (b + 1))) with (k + (e - b)) by lia.
        replace (a + 1 + (e - (b + 1))) with (a + (e - b)) by lia. reflexivity.
    + apply N.ltb_ge in E. replace (e - b) with 1 by lia. change (N.to_nat 1) with 1%nat.
      replace (b + (1 + lenN inner) <? e) with false by (symmetry; apply N.ltb_ge; lia).
      cbn [repeat]. rewrite skipn_cons, skipn_O. replace (b + 1) with e by lia. reflexivity.
Qed.

Lemma pt_carry m : forall inner rest k, k < W64 -> 0 < k ->
  carry_loop m (map ptrow inner ++ rest) k =
  let* os := carry_loop m rest k in Ok (repeat 0 (length inner) ++ os).
Proof.
  induction inner as [|r inner IH]; intros rest k Hk Hk0; cbn [map app length repeat].
  - destruct (carry_loop m rest k); reflexivity.
  - cbn [carry_loop ptrow r_cnt]. rewrite add64_ok by lia. cbn [bind].
    unfold div64, rem64. change (1 =? 0) with false. cbn [bind]. rewrite N.add_0_l, N.div_1_r, N.mod_1_r.
    replace (k =? 0) with false by (symmetry; apply N.eqb_neq; lia). rewrite IH by auto.
    destruct (carry_loop m rest k); reflexivity.
Qed.

(** The first dimension, reached with carry [k] at place [p]. *)
Lemma outer_step m i n c s p k :
  0 < c -> i + n <= s -> s + c < W64 -> p + k < n ->
  let P := N.min n ((i + p) / c * c + c - i) in
  p < P -> 
  adv_loop m n [(mkRow i n ((i + p) / c * c) c 1 s, p)] k k (p + k) =
  if (match m with Debug => k <=? P - p | Release => true end)
  then Ok ([P mod n], [], P / n, P - p, P) else Panic.
Proof.
  intros Hc Hs HW Hp P HP. cbn [adv_loop r_co r_c r_s r_v r_cnt r_idx].
  pose proof (divmod_eq (i + p) c ltac:(lia)) as E1.
  assert (L1 : (i + p) mod c < c) by (apply N.mod_lt; lia).
  set (co := (i + p) / c * c) in *. assert (Eco : co = c * ((i + p) / c)) by (unfold co; lia).
  clearbody co. rewrite <- Eco in E1.
  assert (Hco : co <= i + p /\ i + p < co + c) by (revert E1 L1; generalize ((i + p) mod c); clear; lia). clear E1 L1 Eco.
  rewrite add64_ok by lia. cbn [bind]. change (1 =? 1) with true. cbn [negb].
  set (c' := if s <? co + c then s - co else c).
  replace (if s <? co + c then let* x := sub64 m (co + c) s in sub64 m c x else Ok c) with (Ok c').
  2:{ unfold c'. destruct (N.ltb_spec s (co + c)); [|reflexivity].
      rewrite sub64_ok by lia. cbn [bind]. rewrite sub64_ok by lia. f_equal. lia. }
  cbn [bind]. rewrite andb_false_r.
  rewrite add64_ok by lia. cbn [bind]. unfold div64, rem64.
  replace (n =? 0) with false by (symmetry; apply N.eqb_neq; lia). cbn [bind].
  rewrite (N.div_small (p + k) n), (N.mod_small (p + k) n) by lia.
  replace (dbg m (p + k <? n)) with (Ok tt : res unit).
  2:{ replace (p + k <? n) with true by (symmetry; apply N.ltb_lt; lia). now destruct m. }
  cbn [bind].
  assert (Hc' : co + c' = N.min s (co + c)).
  { unfold c'. destruct (N.ltb_spec s (co + c)); lia. }
  clearbody c'. rewrite add64_ok by lia. cbn [bind]. rewrite sub64_ok by lia. cbn [bind].
  replace (N.min n (co + c' - i)) with P by (subst P; lia).
  assert (HPn : P <= n) by (subst P; lia).
  assert (E2 : (let* d := sub64 m P (p + k) in let* diff := mul64 m d 1 in
                let* adv' := add64 m k diff in let* soff' := add64 m (p + k) diff in Ok (adv', soff')) =
               if (match m with Debug => k <=? P - p | Release => true end) then Ok (P - p, P) else Panic).
  { clearbody P. unfold sub64. destruct (N.leb_spec (p + k) P) as [H|H].
    - cbn [bind]. rewrite mul64_ok by lia. cbn [bind]. rewrite N.mul_1_r, !add64_ok by lia. cbn [bind].
      replace (match m with Debug => k <=? P - p | Release => true end) with true.
      2:{ destruct m; auto. symmetry. apply N.leb_le. lia. }
      do 2 f_equal; lia.
    - destruct m.
      + replace (k <=? P - p) with false; [reflexivity|]. symmetry. apply N.leb_gt. lia.
      + cbn [bind]. rewrite (N.mod_small (P + W64 - (p + k))) by lia.
        rewrite mul64_ok by lia. cbn [bind]. rewrite N.mul_1_r. unfold add64.
        replace (k + (P + W64 - (p + k)) <? W64) with false by (symmetry; apply N.ltb_ge; lia).
        replace (p + k + (P + W64 - (p + k)) <? W64) with false by (symmetry; apply N.ltb_ge; lia).
        cbn [bind]. replace (k + (P + W64 - (p + k))) with (P - p + 1 * W64) by lia.
        replace (p + k + (P + W64 - (p + k))) with (P + 1 * W64) by lia.
        rewrite !N.mod_add by discriminate. rewrite !N.mod_small by lia. reflexivity. }
  destruct (sub64 m P (p + k)) as [d| | | |]; cbn [bind] in *;
    try (destruct m; [destruct (k <=? P - p)|]; discriminate || reflexivity).
  destruct (mul64 m d 1) as [diff| | | |]; cbn [bind] in *;
    try (destruct m; [destruct (k <=? P - p)|]; discriminate || reflexivity).
  destruct (add64 m k diff) as [adv'| | | |]; cbn [bind] in *;
    try (destruct m; [destruct (k <=? P - p)|]; discriminate || reflexivity).
  destruct (add64 m (p + k) diff) as [soff'| | | |]; cbn [bind] in *;
    try (destruct m; [destruct (k <=? P - p)|]; discriminate || reflexivity).
  destruct (match m with Debug => k <=? P - p | Release => true end); [|discriminate].
  injection E2 as -> ->.
  assert (HPd : P / n <= 1) by (apply N.div_le_upper_bound; lia).
  rewrite add64_ok by (unfold W64; lia). cbn [bind]. rewrite N.add_0_l.
  destruct (_ && _); cbn [bind]; [reflexivity|].
  unfold dbg. replace (P <=? n) with true by (symmetry; apply N.leb_le; lia). now destruct m.
Qed.

(** ** One call of [next], as an equation *)
Section Next.
Context (ds : dataset) (idx cnt : list N).
Hypothesis Hfd : full_dataset ds.
Hypothesis Hsc : d_shape ds <> [].
Hypothesis Hsel : sel_in (d_shape ds) idx cnt.
Let D := mk_dims (d_shape ds) (d_chunk_shape ds) idx cnt.
Let rs := rev D.
Let e := prodN cnt.

Lemma next_eq m p vis rest k A F os :
  p < e ->
  adv_loop m e (mkrs 1 rs p) 0 0 p = Ok (vis, rest, k, A, F) ->
  carry_loop m rest k = Ok os ->
  0 < A -> cpos rs p + A <= prodN (d_chunk_shape ds) -> vis ++ os = dig (rev cnt) F ->
  exists c, place ds (coord_of D p) = (Some c, cpos rs p) /\
    slicer_next m ds (state_at idx cnt p) = Ok (Some ((c, cpos rs p, cpos rs p + A), state_at idx cnt F)).
Proof.
  intros Ho HA HC H0 Hfit0 Hdig. pose proof (x_proj ds idx cnt Hfd Hsel) as (E1 & E2 & E3 & E4).
  fold D in E1, E2, E3, E4.
  pose proof (x_wf ds idx cnt Hfd Hsel) as HD. fold D in HD.
  destruct (sel_in_fits _ _ _ _ Hsel (fd_sizes _ Hfd)) as [Hfit Hcle].
  pose proof (fd_made _ Hfd) as Hwm. pose proof (wm_pos _ Hwm) as HP. pose proof (wm_cdim _ Hwm) as Hcd.
  destruct (fd_sizes _ Hfd) as (Hs1 & Hs2 & Hs3).
  destruct (chunk_at_coord_ok m ds (coord_of D p) Hwm Hfit (fd_grid _ Hfd)) as (ch & C1 & C2 & C3).
  { rewrite <- E1. now apply coord_of_in_shape. }
  assert (Ecp : pos_in_chunk (d_chunk_shape ds) (coord_of D p) = cpos rs p).
  { unfold rs. rewrite cpos_spec by exact HD. now rewrite E2. }
  exists ch. split; [unfold place; now rewrite C1, Ecp|].
  unfold slicer_next, state_at. cbn [s_end s_offset s_coords s_indices s_counts]. fold e.
  replace (e <=? p) with false by (symmetry; apply N.leb_gt; lia).
  replace (is_scalar ds) with false.
  2:{ unfold is_scalar. destruct (d_shape ds); [congruence|reflexivity]. }
  rewrite <- E3 at 1. rewrite <- E4 at 1. rewrite add_lists_ok by exact HD. cbn [bind].
  rewrite C2. cbn [bind].
  assert (Hinb : in_shape (coord_of D p) (map s_ D)) by now apply coord_of_in_shape.
  pose proof (SlicerMain.corner_in_box D (coord_of D p) HD Hinb) as HB. rewrite E2 in HB.
  destruct HB as (B1 & B2 & B3 & B4).
  assert (Hcont : contains m ch (coord_of D p) (d_chunk_shape ds) = Ok Eq).
  { destruct (contains_spec m ch (coord_of D p) (d_chunk_shape ds)) as (r & R1 & R2);
      [auto|rewrite C3; auto|rewrite C3; auto|].
    rewrite R1. f_equal. apply (box_side_eq _ _ _ _ R2). rewrite C3. auto. }
  rewrite Hcont.
  replace (dbg_res m (let* o := Ok Eq in Ok (is_eq o))) with (Ok tt) by (destruct m; reflexivity).
  cbn [bind]. rewrite C3, Hcd.
  pose proof (pos_lt (d_chunk_shape ds) (coord_of D p) HP (x_len ds idx cnt Hfd Hsel p)) as Hpl.
  rewrite chunk_start_ok by (auto; try apply (x_len ds idx cnt Hfd Hsel); lia). cbn [bind]. rewrite N.add_0_l.
  pose proof (rows_mkrs D p HD) as Hrows. rewrite E1, E2, E3, E4 in Hrows.
  rewrite Hrows. fold rs. rewrite HA. cbn [bind]. rewrite HC. cbn [bind].
  rewrite dbg_ok by (apply N.ltb_lt; auto). cbn [bind].
  rewrite Ecp in *. rewrite add64_ok by lia. cbn [bind].
  rewrite product64_ok by auto.
  replace (dbg_res m _) with (Ok tt).
  2:{ destruct m; [|reflexivity]. cbn [dbg_res bind].
      apply N.leb_le in Hfit0. rewrite Hfit0. reflexivity. }
  cbn [bind]. rewrite Hdig. reflexivity.
Qed.

(** A run of the selection is what its segment holds. *)
Lemma run_holds p c A :
  place ds (coord_of D p) = (Some c, cpos rs p) -> sameplace rs p A ->
  Forall2 (holds ds) (map (slab_coord idx cnt) (seqN p (N.to_nat A))) (seg_elems (c, cpos rs p, cpos rs p + A)).
Proof.
  intros Hp HS. pose proof (x_proj ds idx cnt Hfd Hsel) as (E1 & E2 & E3 & E4). fold D in E1, E2, E3, E4.
  pose proof (x_wf ds idx cnt Hfd Hsel) as HD. fold D in HD.
  destruct (sel_in_fits _ _ _ _ Hsel (fd_sizes _ Hfd)) as [Hfit _].
  unfold seg_elems. replace (cpos rs p + A - cpos rs p) with A by lia.
  replace p with (p + 0) at 1 by lia. replace (cpos rs p) with (cpos rs p + 0) by lia.
  rewrite (seqN_map p 0), (seqN_map (cpos rs p) 0), !map_map.
  assert (G : forall l, (forall j, In j l -> j < A) ->
    Forall2 (holds ds) (map (fun x => slab_coord idx cnt (p + x)) l) (map (fun x => (c, cpos rs p + x)) l)).
  2:{ apply G. intros j Hj. apply in_seqN in Hj. lia. }
  induction l as [|j l IH]; intros Hl; cbn [map]; constructor; [|apply IH; intros; apply Hl; now right].
  destruct (HS j (Hl j (or_introl eq_refl))) as [X1 X2].
  apply place_holds; auto.
  - rewrite (x_coord ds idx cnt Hfd Hsel). fold D. rewrite <- E1. now apply coord_of_in_shape.
  - rewrite (x_coord ds idx cnt Hfd Hsel). fold D.
    unfold rs in X1, X2. rewrite !cpos_spec, E2 in X2 by auto. rewrite !cidx_spec, E2 in X1 by auto.
    apply (f_equal (@rev N)) in X1. rewrite !rev_involutive in X1.
    unfold place in *. rewrite X2. injection Hp as Hp1 Hp2. unfold chunk_number in *. rewrite X1, Hp1.
    unfold rs. rewrite cpos_spec, E2 by auto. reflexivity.
Qed.
End Next.

(** ** Points *)
Lemma pts_of : forall ss is, Forall2 (fun i s => i < s) is ss -> Forall (fun s => s + 1 < W64) ss ->
  Forall pt (mk_dims ss (repeat 1 (length ss)) is (repeat 1 (length ss))).
Proof.
  intros ss is HF. induction HF as [|i s is ss Hi HF IH]; intros HW; cbn [length repeat mk_dims]; auto.
  inversion HW; subst. constructor; auto. repeat split; auto.
Qed.
Lemma pts_len : forall ss is, length is = length ss ->
  length (mk_dims ss (repeat 1 (length ss)) is (repeat 1 (length ss))) = length ss.
Proof.
  induction ss as [|s ss IH]; intros [|i is] H; cbn [length repeat mk_dims] in *; try discriminate; auto.
Qed.

Lemma mkrs_pts : forall inner d q, Forall pt inner ->
  mkrs 1 (inner ++ [d]) q = map ptrow inner ++ mkrs 1 [d] q.
Proof.
  induction inner as [|r inner IH]; intros d q HF; [reflexivity|]. inversion HF as [|? ? (E1 & E2 & _) HF']; subst.
  cbn [app mkrs map]. rewrite E1, E2, !N.mod_1_r, !N.div_1_r, N.mul_1_r, N.add_0_r, N.mul_1_r, IH by auto.
  reflexivity.
Qed.
Lemma cpos_pts : forall inner d q, Forall pt inner -> cpos (inner ++ [d]) q = cpos [d] q.
Proof.
  induction inner as [|r inner IH]; intros d q HF; [reflexivity|]. inversion HF as [|? ? (E1 & E2 & _) HF']; subst.
  cbn [app cpos]. rewrite E1, E2, !N.mod_1_r, N.div_1_r, N.mul_1_l, IH by auto. apply N.add_0_l.
Qed.
Lemma cidx_pts : forall inner d q, Forall pt inner -> cidx (inner ++ [d]) q = map i_ inner ++ cidx [d] q.
Proof.
  induction inner as [|r inner IH]; intros d q HF; [reflexivity|]. inversion HF as [|? ? (E1 & E2 & _) HF']; subst.
  cbn [app cidx map]. rewrite E1, E2, !N.mod_1_r, !N.div_1_r, N.add_0_r, IH by auto. reflexivity.
Qed.
Lemma dig_pts n : forall k q, dig (repeat 1 k ++ [n]) q = repeat 0 k ++ [q mod n].
Proof.
  induction k as [|k IH]; intros q; [reflexivity|]. cbn [repeat app dig]. now rewrite N.mod_1_r, N.div_1_r, IH.
Qed.
Lemma repeat_cons_end {A} (x : A) k : rev (repeat x k) = repeat x k.
Proof.
  induction k as [|k IH]; [reflexivity|]. cbn [repeat rev]. rewrite IH. clear. induction k; [reflexivity|].
  cbn [repeat app]. now rewrite IHk.
Qed.
Lemma prodN_ones k : prodN (repeat 1 k) = 1.
Proof. induction k; [reflexivity|]. cbn [repeat]. change (1 * prodN (repeat 1 k) = 1). now rewrite IHk. Qed.

(** ** The series *)
Section Series.
Context (ds : dataset) (s c i n : N) (ss is : list N).
Let k := length ss.
Let K := N.of_nat k.
Let idx := i :: is.
Let cnt := n :: repeat 1 k.
Hypothesis Hfd : full_dataset ds.
Hypothesis Hsh : d_shape ds = s :: ss.
Hypothesis Hcs : d_chunk_shape ds = c :: repeat 1 k.
Hypothesis Hsel : sel_in (s :: ss) idx cnt.
Let inner := rev (mk_dims ss (repeat 1 k) is (repeat 1 k)).
Let d0 := mkDim i n c s.
Let rs := rev (mk_dims (d_shape ds) (d_chunk_shape ds) idx cnt).

Lemma se_sel : sel_in (d_shape ds) idx cnt. Proof. now rewrite Hsh. Qed.
Lemma se_rs : rs = inner ++ [d0].
Proof. unfold rs, inner, d0. rewrite Hsh, Hcs. reflexivity. Qed.
Lemma se_facts : 0 < c /\ 0 < n /\ i + n <= s /\ s + c < W64.
Proof.
  pose proof (x_wf ds idx cnt Hfd se_sel) as H. rewrite Hsh, Hcs in H. cbn [mk_dims idx cnt] in H.
  inversion H as [|? ? (H1 & H2 & H3 & H4) _]; subst. cbn [n_ c_ i_ s_] in *. auto.
Qed.
Lemma se_len : length is = k.
Proof. destruct Hsel as (L & _). unfold idx in L. cbn [length] in L. fold k in L. congruence. Qed.
Lemma se_pt : Forall pt inner.
Proof.
  unfold inner. apply Forall_rev.
  pose proof (x_wf ds idx cnt Hfd se_sel) as H. rewrite Hsh, Hcs in H. cbn [mk_dims idx cnt] in H.
  inversion H as [|? ? _ H']; subst. clear - H'. revert H'.
  unfold k. generalize is. induction ss as [|z l IH]; intros [|x is'] H; cbn [length repeat mk_dims] in *; auto.
  inversion H as [|? ? (H1 & H2 & H3 & H4) H5]; subst. cbn [n_ c_ i_ s_] in *. constructor; [|auto].
  repeat split; cbn [n_ c_ i_ s_]; auto. lia.
Qed.
Lemma se_ilen : length inner = k.
Proof. unfold inner. rewrite rev_length. apply pts_len. apply se_len. Qed.
Lemma se_e : prodN cnt = n.
Proof. unfold cnt. change (n * prodN (repeat 1 k) = n). rewrite prodN_ones. lia. Qed.
Lemma se_c : prodN (d_chunk_shape ds) = c.
Proof. rewrite Hcs. change (c * prodN (repeat 1 k) = c). rewrite prodN_ones. lia. Qed.
Lemma se_dig q : dig (rev cnt) q = repeat 0 k ++ [q mod n].
Proof. unfold cnt. cbn [rev]. rewrite repeat_cons_end. apply dig_pts. Qed.
Lemma se_cpos p : p < n -> cpos rs p = (i + p) mod c.
Proof.
  intros Hp. rewrite se_rs, cpos_pts by apply se_pt. cbn [cpos d0 i_ n_ c_]. rewrite (N.mod_small p n) by exact Hp. lia.
Qed.
Lemma se_cidx p : p < n -> cidx rs p = map i_ inner ++ [(i + p) / c].
Proof.
  intros Hp. rewrite se_rs, cidx_pts by apply se_pt. cbn [cidx d0 i_ n_ c_]. now rewrite (N.mod_small p n) by exact Hp.
Qed.
Lemma se_mkrs p : p < n -> mkrs 1 rs p = map ptrow inner ++ [(mkRow i n ((i + p) / c * c) c 1 s, p)].
Proof.
  intros Hp. rewrite se_rs, mkrs_pts by apply se_pt. cbn [mkrs d0 i_ n_ c_ s_]. now rewrite (N.mod_small p n) by exact Hp.
Qed.

(** Where the run that starts at [p] ends. *)
Let stop_at p := N.min n ((i + p) / c * c + c - i).
Lemma stop_facts p : p < n ->
  p < stop_at p /\ stop_at p <= n /\ (i + p) mod c + (stop_at p - p) <= c /\
  (stop_at p < n -> (i + stop_at p) mod c = 0 /\ stop_at p = p + (c - (i + p) mod c)) /\
  (forall t, p < t -> t < n -> (i + t) mod c = 0 -> stop_at p <= t).
Proof.
  intros Hp. destruct se_facts as (Hc & Hn & Hi & HW). unfold stop_at.
  pose proof (divmod_eq (i + p) c ltac:(lia)) as E1.
  assert (L1 : (i + p) mod c < c) by (apply N.mod_lt; lia).
  set (a := (i + p) / c) in *. set (b := (i + p) mod c) in *. clearbody a b.
  replace (a * c) with (c * a) by lia. 
  assert (E2 : c * a + c - i = p + (c - b)) by lia. rewrite E2.
  split; [lia|]. split; [lia|]. split; [lia|]. split.
  - intros H. replace (N.min n (p + (c - b))) with (p + (c - b)) by lia. split; [|reflexivity].
    replace (i + (p + (c - b))) with ((a + 1) * c) by lia. apply N.mod_mul. lia.
  - intros t Ht1 Ht2 Ht3. pose proof (divmod_eq (i + t) c ltac:(lia)) as E3. rewrite Ht3 in E3.
    set (q := (i + t) / c) in *. clearbody q. assert (a < q) by nia. nia.
Qed.

(** The run is one, and no longer. *)
Lemma run_same p A : p < n -> 0 < A -> p + A <= n -> (sameplace rs p A <-> (i + p) mod c + A <= c).
Proof.
  intros Hp HA Hle. destruct se_facts as (Hc & Hn & Hi & HW). split.
  - intros H. destruct (H (A - 1) ltac:(lia)) as [_ H2]. rewrite !se_cpos in H2 by lia.
    assert ((i + (p + (A - 1))) mod c < c) by (apply N.mod_lt; lia). lia.
  - intros H j Hj. rewrite !se_cidx, !se_cpos by lia.
    destruct (div_add_small (i + p) c j) as [E1 E2]; [lia|].
    replace (i + (p + j)) with (i + p + j) by lia. rewrite E1, E2. auto.
Qed.

Lemma se_short_loop m p : p < n -> n <= p + K ->
  adv_loop m n (mkrs 1 rs p) 0 0 p =
  Ok (repeat 0 (N.to_nat (n - p)),
      map ptrow (skipn (N.to_nat (n - p)) inner) ++ [(mkRow i n ((i + p) / c * c) c 1 s, p)],
      n - p, n - p, n).
Proof.
  intros Hp Hk. destruct se_facts as (Hc & Hn & Hi & HW). rewrite se_mkrs by auto.
  rewrite pt_loop by (try apply se_pt; lia).
  replace (lenN inner) with K by (unfold lenN; rewrite se_ilen; reflexivity).
  replace (p + K <? n) with false by (symmetry; apply N.ltb_ge; lia).
  now rewrite !N.add_0_l.
Qed.
Lemma se_short_carry m p : p < n -> n <= p + K ->
  carry_loop m (map ptrow (skipn (N.to_nat (n - p)) inner) ++ [(mkRow i n ((i + p) / c * c) c 1 s, p)]) (n - p)
  = Ok (repeat 0 (k - N.to_nat (n - p)) ++ [0]).
Proof.
  intros Hp Hk. destruct se_facts as (Hc & Hn & Hi & HW). rewrite pt_carry by lia.
  cbn [carry_loop r_cnt]. rewrite add64_ok by lia. cbn [bind]. replace (p + (n - p)) with n by lia.
  unfold div64, rem64. replace (n =? 0) with false by (symmetry; apply N.eqb_neq; lia). cbn [bind].
  rewrite N.div_same, N.mod_same by lia. change (1 =? 0) with false. cbn [bind].
  now rewrite skipn_length, se_ilen.
Qed.
Lemma se_long_loop m p : p + K < n ->
  adv_loop m n (mkrs 1 rs p) 0 0 p =
  if (match m with Debug => K <=? stop_at p - p | Release => true end)
  then Ok (repeat 0 k ++ [stop_at p mod n], [], stop_at p / n, stop_at p - p, stop_at p) else Panic.
Proof.
  intros Hk. destruct se_facts as (Hc & Hn & Hi & HW). rewrite se_mkrs by lia.
  rewrite pt_loop by (try apply se_pt; lia).
  replace (lenN inner) with K by (unfold lenN; rewrite se_ilen; reflexivity).
  replace (p + K <? n) with true by (symmetry; apply N.ltb_lt; lia).
  rewrite !N.add_0_l. destruct (stop_facts p ltac:(lia)) as (S1 & _).
  rewrite outer_step by auto. fold (stop_at p).
  destruct (match m with Debug => K <=? stop_at p - p | Release => true end); cbn [bind]; [|reflexivity].
  now rewrite se_ilen.
Qed.

Lemma se_next_long m p : p + K < n -> (m = Debug -> K <= stop_at p - p) ->
  exists ch, place ds (slab_coord idx cnt p) = (Some ch, cpos rs p) /\
    slicer_next m ds (state_at idx cnt p) =
      Ok (Some ((ch, cpos rs p, cpos rs p + (stop_at p - p)), state_at idx cnt (stop_at p))).
Proof.
  intros Hk Hd. destruct se_facts as (Hc & Hn & Hi & HW).
  destruct (stop_facts p ltac:(lia)) as (S1 & S2 & S3 & _).
  rewrite (x_coord ds idx cnt Hfd se_sel).
  eapply (next_eq ds idx cnt Hfd ltac:(congruence) se_sel m p).
  - rewrite se_e. lia.
  - rewrite se_e. fold rs. rewrite se_long_loop by auto.
    replace (match m with Debug => K <=? stop_at p - p | Release => true end) with true; [reflexivity|].
    destruct m; auto. symmetry. apply N.leb_le. auto.
  - reflexivity.
  - lia.
  - fold rs. rewrite se_cpos, se_c by lia. auto.
  - now rewrite se_dig, app_nil_r.
Qed.
Lemma se_next_short m p : p < n -> n <= p + K -> stop_at p = n ->
  exists ch, place ds (slab_coord idx cnt p) = (Some ch, cpos rs p) /\
    slicer_next m ds (state_at idx cnt p) =
      Ok (Some ((ch, cpos rs p, cpos rs p + (n - p)), state_at idx cnt n)).
Proof.
  intros Hp Hk Hs. destruct se_facts as (Hc & Hn & Hi & HW).
  destruct (stop_facts p ltac:(lia)) as (S1 & S2 & S3 & _).
  rewrite (x_coord ds idx cnt Hfd se_sel).
  eapply (next_eq ds idx cnt Hfd ltac:(congruence) se_sel m p).
  - rewrite se_e. lia.
  - rewrite se_e. fold rs. now rewrite se_short_loop by auto.
  - now apply se_short_carry.
  - lia.
  - fold rs. rewrite se_cpos, se_c by lia. rewrite Hs in S3. auto.
  - rewrite se_dig, N.mod_same by lia. rewrite app_assoc. f_equal.
    rewrite <- repeat_app. f_equal. lia.
Qed.

(** ** The whole iteration, from the start of a run *)
Definition right_from (m : mode) (p : N) : Prop :=
  exists segs, (forall fuel, (N.to_nat (n - p) < fuel)%nat ->
                  slicer_run m fuel ds (state_at idx cnt p) = (segs, SDone)) /\
    Forall2 (holds ds) (map (slab_coord idx cnt) (seqN p (N.to_nat (n - p)))) (flat_map seg_elems segs) /\
    Forall (fun '(c, a, b) => a < b /\ b <= prodN (d_chunk_shape ds) /\ In c (d_chunks ds)) segs.
Definition right_some (m : mode) (p : N) : Prop :=
  exists fuel segs, slicer_run m fuel ds (state_at idx cnt p) = (segs, SDone) /\
    Forall2 (holds ds) (map (slab_coord idx cnt) (seqN p (N.to_nat (n - p)))) (flat_map seg_elems segs).
Definition fits_at (m : mode) (t : N) : Prop :=
  match m with Debug => K <= t - (t - c) | Release => K < n - (t - c) end.

Lemma right_end m : right_from m n.
Proof.
  exists []. rewrite N.sub_diag. split; [|split; constructor]. intros [|fuel] Hf; [lia|].
  cbn [slicer_run]. unfold slicer_next, state_at. cbn [s_end s_offset]. rewrite se_e, N.leb_refl. reflexivity.
Qed.

(** A first segment that is a run: the rest decides. *)
Lemma right_step m p A ch : p < n -> 0 < A -> p + A <= n -> (i + p) mod c + A <= c ->
  place ds (slab_coord idx cnt p) = (Some ch, cpos rs p) ->
  slicer_next m ds (state_at idx cnt p) = Ok (Some ((ch, cpos rs p, cpos rs p + A), state_at idx cnt (p + A))) ->
  (right_some m p -> right_some m (p + A)) /\ (right_from m (p + A) -> right_from m p).
Proof.
  intros Hp HA Hle Hr Hpl En.
  assert (HS : sameplace rs p A) by now apply run_same.
  assert (HH : Forall2 (holds ds) (map (slab_coord idx cnt) (seqN p (N.to_nat A)))
                 (seg_elems (ch, cpos rs p, cpos rs p + A))).
  { apply (run_holds ds idx cnt Hfd se_sel); auto. rewrite <- (x_coord ds idx cnt Hfd se_sel). exact Hpl. }
  assert (Esplit : map (slab_coord idx cnt) (seqN p (N.to_nat (n - p))) =
    map (slab_coord idx cnt) (seqN p (N.to_nat A)) ++
    map (slab_coord idx cnt) (seqN (p + A) (N.to_nat (n - (p + A))))).
  { replace (N.to_nat (n - p)) with (N.to_nat A + N.to_nat (n - (p + A)))%nat by lia.
    rewrite map_seqN_split. now replace (p + N.of_nat (N.to_nat A)) with (p + A) by lia. }
  split.
  - intros ([|fuel] & segs & R & F); [discriminate|]. cbn [slicer_run] in R. rewrite En in R.
    destruct (slicer_run m fuel ds (state_at idx cnt (p + A))) as [l st] eqn:El.
    injection R as <- ->. exists fuel, l. split; [auto|].
    rewrite Esplit in F. cbn [flat_map] in F. apply Forall2_app_same in F as [_ F]; auto.
    apply Forall2_length' in HH. now rewrite map_length in *.
  - intros (segs & R & F & B). eexists. split; [|split].
    + intros [|fuel] Hf; [lia|]. cbn [slicer_run]. rewrite En, (R fuel) by lia. reflexivity.
    + rewrite Esplit. cbn [flat_map]. now apply Forall2_app.
    + constructor; [|exact B]. split; [lia|]. split.
      * rewrite se_c, se_cpos by auto. exact Hr.
      * unfold place in Hpl. injection Hpl as Hpl _. eapply nth_error_In. exact Hpl.
Qed.

(** The boundary that ends the run starting at [p], seen from its own side. *)
Lemma run_start p : p < n -> p = 0 \/ (i + p) mod c = 0 -> stop_at p < n -> stop_at p - c = p.
Proof.
  intros Hp Hr Hs. destruct se_facts as (Hc & Hn & Hi & HW).
  destruct (stop_facts p Hp) as (_ & _ & _ & S4 & _). destruct (S4 Hs) as [_ E].
  assert ((i + p) mod c < c) by (apply N.mod_lt; lia).
  rewrite E. destruct Hr as [-> | Hr].
  - generalize ((i + 0) mod c). clear. lia.
  - rewrite Hr. clear. lia.
Qed.

Lemma series_if m : forall j p, N.to_nat (n - p) = j -> p <= n -> p = 0 \/ (i + p) mod c = 0 ->
  (forall t, p < t -> t < n -> (i + t) mod c = 0 -> fits_at m t) -> right_from m p.
Proof.
  destruct se_facts as (Hc & Hn & Hi & HW).
  induction j as [j IH] using (well_founded_induction Wf_nat.lt_wf). intros p Ej Hle Hr Hall.
  destruct (N.eq_dec p n) as [->|Hne]; [apply right_end|].
  assert (Hp : p < n) by lia. destruct (stop_facts p Hp) as (S1 & S2 & S3 & S4 & S5).
  assert (Hlong : p + K < n -> (m = Debug -> K <= stop_at p - p) -> right_from m p).
  { intros Hk Hd. destruct (se_next_long m p Hk Hd) as (ch & N1 & N2).
    assert (Ep : p + (stop_at p - p) = stop_at p) by lia.
    refine (proj2 (right_step m p (stop_at p - p) ch Hp _ _ S3 N1 _) _); try lia; rewrite Ep; [auto|].
    destruct (N.lt_ge_cases (stop_at p) n) as [H|H].
    - apply (IH (N.to_nat (n - stop_at p)) ltac:(lia) (stop_at p) eq_refl S2).
      + right. apply (S4 H).
      + intros t Ht. apply Hall. lia.
    - replace (stop_at p) with n by lia. apply right_end. }
  destruct (N.lt_ge_cases (stop_at p) n) as [Hs|Hs].
  - destruct (S4 Hs) as [Hb _]. pose proof (Hall (stop_at p) S1 Hs Hb) as Hf.
    unfold fits_at in Hf. rewrite (run_start p Hp Hr Hs) in Hf.
    apply Hlong; destruct m; try lia; intros; discriminate || auto.
  - destruct (N.lt_ge_cases (p + K) n) as [Hk|Hk]; [apply Hlong; lia|].
    destruct (se_next_short m p Hp Hk ltac:(lia)) as (ch & N1 & N2).
    assert (Ep : p + (n - p) = n) by lia.
    refine (proj2 (right_step m p (n - p) ch Hp _ _ _ N1 _) _); try lia; try (rewrite Ep; auto).
    apply right_end.
Qed.

Lemma series_only_if m : forall j p, N.to_nat (n - p) = j -> p <= n -> p = 0 \/ (i + p) mod c = 0 ->
  right_some m p -> forall t, p < t -> t < n -> (i + t) mod c = 0 -> fits_at m t.
Proof.
  destruct se_facts as (Hc & Hn & Hi & HW).
  induction j as [j IH] using (well_founded_induction Wf_nat.lt_wf). intros p Ej Hle Hr Hright t Ht1 Ht2 Ht3.
  assert (Hp : p < n) by lia. destruct (stop_facts p Hp) as (S1 & S2 & S3 & S4 & S5).
  pose proof (S5 t Ht1 Ht2 Ht3) as Hst. assert (Hs : stop_at p < n) by lia.
  destruct (S4 Hs) as [Hb Hb2]. pose proof (run_start p Hp Hr Hs) as Hback.
  (* the first call returned a segment *)
  assert (Hne : d_shape ds <> []) by congruence.
  pose proof (x_wf ds idx cnt Hfd se_sel) as HD. pose proof (x_wfr ds idx cnt Hfd se_sel) as HR.
  pose proof (x_pn ds idx cnt Hfd se_sel) as HN.
  assert (Ho : p < prodN cnt) by now rewrite se_e.
  pose proof Hright as ([|fuel] & segs & R & F); [discriminate|]. cbn [slicer_run] in R.
  destruct (slicer_next m ds (state_at idx cnt p)) as [[[[[c0 a0] b0] st']|]| | | |] eqn:En; try discriminate.
  2:{ exfalso. exact (next_none ds idx cnt Hne se_sel HD HR HN m p p Ho En). }
  destruct (next_any ds idx cnt Hfd Hne se_sel HD HR HN m p p c0 a0 b0 st' Ho En)
    as (A & vis & rest & k0 & os & F0 & (C1 & C2) & Ea & Eb & EA & EC & Est).
  rewrite se_e in EA. fold rs in EA, Ea.
  destruct (N.lt_ge_cases (p + K) n) as [Hk|Hk].
  - rewrite se_long_loop in EA by auto.
    destruct (match m with Debug => K <=? stop_at p - p | Release => true end) eqn:Ed; [|discriminate].
    assert (Hd : m = Debug -> K <= stop_at p - p) by (intros ->; now apply N.leb_le).
    assert (Hfit : fits_at m (stop_at p)).
    { unfold fits_at. rewrite Hback. destruct m; [auto|lia]. }
    destruct (N.eq_dec t (stop_at p)) as [->|Hnt]; [auto|].
    destruct (se_next_long m p Hk Hd) as (ch & N1 & N2).
    assert (Ep : p + (stop_at p - p) = stop_at p) by lia.
    assert (Hnext : right_some m (stop_at p)).
    { rewrite <- Ep. refine (proj1 (right_step m p (stop_at p - p) ch Hp _ _ S3 N1 _) Hright); try lia. now rewrite Ep. }
    apply (IH (N.to_nat (n - stop_at p))) with (p := stop_at p); auto; lia.
  - exfalso. rewrite se_short_loop in EA by auto. injection EA as _ _ _ <- _.
    assert (Hcp : cpos rs p < c) by (rewrite se_cpos by auto; apply N.mod_lt; lia).
    rewrite add64_ok in Eb by (clear - Ea Hcp HW Hi; lia). injection Eb as <-.
    destruct (slicer_run m fuel ds st') as [l st]. injection R as <- _.
    cbn [flat_map] in F.
    destruct (first_same ds idx cnt Hfd se_sel HN p c0 a0 (n - p) (flat_map seg_elems l)) as (_ & HS & _); [lia|exact C1|exact Ea| |].
    { rewrite se_e. exact F. }
    fold rs in HS. apply run_same in HS; try lia.
Qed.

(** The same from less: the segments end inside their chunks (or very far outside). *)
Definition inside_some (m : mode) (p : N) : Prop :=
  exists fuel segs, slicer_run m fuel ds (state_at idx cnt p) = (segs, SDone) /\
    Forall (fun '(ch, _, b) => In ch (d_chunks ds) -> b < s + c -> b <= c) segs.
Lemma inside_step m p A sg : inside_some m p ->
  slicer_next m ds (state_at idx cnt p) = Ok (Some (sg, state_at idx cnt (p + A))) -> inside_some m (p + A).
Proof.
  intros ([|fuel] & segs & R & F) En; [discriminate|]. cbn [slicer_run] in R. rewrite En in R.
  destruct (slicer_run m fuel ds (state_at idx cnt (p + A))) as [l st] eqn:El.
  injection R as <- ->. exists fuel, l. split; [auto|]. now inversion F.
Qed.
Lemma series_inside m : forall j p, N.to_nat (n - p) = j -> p <= n -> p = 0 \/ (i + p) mod c = 0 ->
  inside_some m p -> forall t, p < t -> t < n -> (i + t) mod c = 0 -> fits_at m t.
Proof.
  destruct se_facts as (Hc & Hn & Hi & HW).
  induction j as [j IH] using (well_founded_induction Wf_nat.lt_wf). intros p Ej Hle Hr Hright t Ht1 Ht2 Ht3.
  assert (Hp : p < n) by lia. destruct (stop_facts p Hp) as (S1 & S2 & S3 & S4 & S5).
  pose proof (S5 t Ht1 Ht2 Ht3) as Hst. assert (Hs : stop_at p < n) by lia.
  destruct (S4 Hs) as [Hb Hb2]. pose proof (run_start p Hp Hr Hs) as Hback.
  (* the first call returned a segment *)
  assert (Hne : d_shape ds <> []) by congruence.
  pose proof (x_wf ds idx cnt Hfd se_sel) as HD. pose proof (x_wfr ds idx cnt Hfd se_sel) as HR.
  pose proof (x_pn ds idx cnt Hfd se_sel) as HN.
  assert (Ho : p < prodN cnt) by now rewrite se_e.
  pose proof Hright as ([|fuel] & segs & R & F); [discriminate|]. cbn [slicer_run] in R.
  destruct (slicer_next m ds (state_at idx cnt p)) as [[[[[c0 a0] b0] st']|]| | | |] eqn:En; try discriminate.
  2:{ exfalso. exact (next_none ds idx cnt Hne se_sel HD HR HN m p p Ho En). }
  destruct (next_any ds idx cnt Hfd Hne se_sel HD HR HN m p p c0 a0 b0 st' Ho En)
    as (A & vis & rest & k0 & os & F0 & (C1 & C2) & Ea & Eb & EA & EC & Est).
  rewrite se_e in EA. fold rs in EA, Ea.
  destruct (N.lt_ge_cases (p + K) n) as [Hk|Hk].
  - rewrite se_long_loop in EA by auto.
    destruct (match m with Debug => K <=? stop_at p - p | Release => true end) eqn:Ed; [|discriminate].
    assert (Hd : m = Debug -> K <= stop_at p - p) by (intros ->; now apply N.leb_le).
    assert (Hfit : fits_at m (stop_at p)).
    { unfold fits_at. rewrite Hback. destruct m; [auto|lia]. }
    destruct (N.eq_dec t (stop_at p)) as [->|Hnt]; [auto|].
    destruct (se_next_long m p Hk Hd) as (ch & N1 & N2).
    assert (Ep : p + (stop_at p - p) = stop_at p) by lia.
    assert (Hnext : inside_some m (stop_at p)).
    { rewrite <- Ep. apply (inside_step m p (stop_at p - p) (ch, cpos rs p, cpos rs p + (stop_at p - p)) Hright). now rewrite Ep. }
    apply (IH (N.to_nat (n - stop_at p))) with (p := stop_at p); auto; lia.
  - exfalso. rewrite se_short_loop in EA by auto. injection EA as _ _ _ <- _.
    assert (Hcp : cpos rs p < c) by (rewrite se_cpos by auto; apply N.mod_lt; lia).
    rewrite add64_ok in Eb by (clear - Ea Hcp HW Hi; lia). injection Eb as <-.
    destruct (slicer_run m fuel ds st') as [l st]. injection R as <- _.
    inversion F as [|? ? F1 _]; subst. specialize (F1 C2 ltac:(clear - Hcp HW Hi; lia)). rewrite se_cpos in F1 by auto.
    rewrite Hb2 in Hs. assert (L : (i + p) mod c < c) by (apply N.mod_lt; lia). revert L F1 Hs.
    generalize ((i + p) mod c). clear. lia.
Qed.
End Series.
