(** * Readable sufficient conditions for [sel_safe]. *)
From Verif Require Import Base Spec Radix Safe Chunk Extent Dataset Slicer SpecApi
  DatasetProofs SlicerProofs SlicerMain SlicerTheorems ApiLemmas.

Lemma mk_dims_app s1 : forall c1 i1 n1 s2 c2 i2 n2,
  length c1 = length s1 -> length i1 = length s1 -> length n1 = length s1 ->
  mk_dims (s1 ++ s2) (c1 ++ c2) (i1 ++ i2) (n1 ++ n2) = mk_dims s1 c1 i1 n1 ++ mk_dims s2 c2 i2 n2.
Proof.
  induction s1 as [|s s1 IH]; intros [|c c1] [|i i1] [|n n1] s2 c2 i2 n2 H1 H2 H3; cbn [length] in *; try discriminate; auto.
  cbn [app mk_dims]. now rewrite IH by lia.
Qed.

Lemma pn_cons r rs : pn (r :: rs) = n_ r * pn rs.
Proof. reflexivity. Qed.

Lemma last_chunk_le r : 0 < n_ r -> 0 < c_ r -> last_chunk r * c_ r < i_ r + n_ r.
Proof.
  intros Hn Hc. unfold last_chunk. pose proof (N.mul_div_le (i_ r + n_ r - 1) (c_ r) ltac:(lia)). lia.
Qed.

Lemma portion_pos r : 0 < n_ r -> 0 < c_ r -> (portion r <=? 0) = false.
Proof.
  intros Hn Hc. apply N.leb_gt. unfold portion. pose proof (last_chunk_le r Hn Hc). lia.
Qed.

Lemma single_one r : n_ r = 1 -> single r = true.
Proof. intros E. unfold single, last_chunk. rewrite E, N.add_sub. apply N.eqb_refl. Qed.

Lemma exact_single r : 0 < c_ r -> exact r = true -> single r = true.
Proof.
  unfold exact, single, last_chunk. intros Hc H. btrue. apply N.eqb_eq.
  pose proof (divmod_eq (i_ r) (c_ r) ltac:(lia)) as E. rewrite H in E. rewrite H0.
  symmetry. apply (div_unique_N _ _ _ (c_ r - 1)); lia.
Qed.

(** The last dimension does not cover exactly one (possibly clipped) chunk. *)
Lemma safe_last r rs : 0 < pn rs ->
  0 < n_ r -> 0 < c_ r -> i_ r + n_ r <= s_ r ->
  ~ (i_ r mod c_ r = 0 /\ n_ r = N.min (c_ r) (s_ r - i_ r)) ->
  safe 0 1 (r :: rs) = true.
Proof.
  intros Hp Hn Hc Hs HX. cbn [safe]. rewrite pn_cons.
  destruct (N.leb_spec (n_ r * pn rs) 0); [nia|].
  replace (0 <=? _) with true by (symmetry; apply N.leb_le; lia). rewrite orb_true_r.
  replace (negb (1 =? 1)) with false by reflexivity. cbn [andb negb].
  rewrite (portion_pos r Hn Hc), andb_false_r.
  assert (exact r = false).
  { unfold exact. destruct (N.eqb_spec (i_ r mod c_ r) 0); [|reflexivity].
    destruct (N.eqb_spec (n_ r) (c_ r)); [|reflexivity]. exfalso; apply HX. lia. }
  rewrite H0. unfold clipped.
  destruct (N.eqb_spec (i_ r mod c_ r) 0); [|reflexivity].
  destruct (N.eqb_spec (i_ r + n_ r) (s_ r)); [|reflexivity].
  destruct (N.ltb_spec (n_ r) (c_ r)); [|reflexivity]. exfalso; apply HX. lia.
Qed.

(** Dimensions selected at one index, after something that is one block. *)
Lemma safe_ones t V rs : Forall (fun r => 0 < c_ r) rs -> ones rs = true -> 1 <= t -> safe t V rs = true.
Proof.
  intros HF HO Ht. destruct rs as [|r rs]; [reflexivity|]. cbn [safe].
  rewrite (ones_pn _ HO). apply N.leb_le in Ht. rewrite Ht.
  cbn [ones forallb] in HO. apply andb_true_iff in HO as [H1 H2]. apply N.eqb_eq in H1.
  cbn [block]. rewrite (single_one r H1). unfold ones. now rewrite H2.
Qed.

(** All outer dimensions are selected at one index. *)
Lemma safe_row r rs : Forall (fun r => 0 < c_ r) rs -> 0 < n_ r -> ones rs = true -> safe 0 1 (r :: rs) = true.
Proof.
  intros HF Hn H. cbn [safe]. rewrite pn_cons, (ones_pn _ H), N.mul_1_r.
  destruct (N.leb_spec (n_ r) 0); [lia|].
  replace (0 <=? _) with true by (symmetry; apply N.leb_le; lia). rewrite orb_true_r.
  replace (negb (1 =? 1)) with false by reflexivity. cbn [andb negb]. rewrite H.
  destruct (exact r); [apply safe_ones; auto; rewrite N.add_comm; apply N.le_add_r|].
  cbn [negb andb]. rewrite (ones_still _ H). now destruct (clipped r).
Qed.

(** One dimension. *)
Lemma safe_one r : 0 < n_ r -> safe 0 1 [r] = true.
Proof. intros. apply safe_row; auto. Qed.

(** Inner dimensions read completely, each in one chunk and at least 2 long. *)
Definition whole (r : dim) : Prop := i_ r = 0 /\ n_ r = c_ r /\ s_ r = c_ r /\ 2 <= c_ r.

Lemma whole_pn l : Forall whole l -> 0 < pn l.
Proof.
  induction 1 as [|r l (A & B & C & D) HF IH]; [unfold pn; cbn; lia|]. rewrite pn_cons. nia.
Qed.

Lemma pn_app l rs : pn (l ++ rs) = pn l * pn rs.
Proof.
  induction l as [|r l IH]; cbn [app]; [unfold pn at 2; cbn [map prodN]; lia|]. rewrite !pn_cons, IH. lia.
Qed.

Lemma safe_whole l : forall t V rs, t <= 1 -> 0 < V -> 0 < pn rs ->
  Forall whole l -> l <> [] -> (forall V', 1 < V' -> safe 1 V' rs = true) ->
  safe t V (l ++ rs) = true.
Proof.
  induction l as [|r l IH]; intros t V rs Ht HV Hp HF Hl Hrs; [easy|].
  inversion HF as [|? ? (Hi & Hn & Hs & Hc) HF']; subst.
  assert (Hthin : thin r = false).
  { unfold thin. rewrite Hi. destruct (N.eqb_spec (c_ r) 1); [lia|]. cbn [orb].
    destruct (N.eqb_spec (0 + 1) (s_ r)); [lia|]. now rewrite andb_comm. }
  assert (Hex : exact r = true).
  { unfold exact. rewrite Hi, N.mod_0_l by lia. rewrite Hn, !N.eqb_refl. reflexivity. }
  cbn [app safe]. rewrite pn_cons, pn_app.
  pose proof (whole_pn l HF'). assert (Hpp : 0 < pn l * pn rs) by nia.
  destruct (N.leb_spec (n_ r * (pn l * pn rs)) t); [nia|].
  rewrite (exact_single r) by (auto; lia). cbn [orb negb].
  rewrite Hthin, andb_comm. cbn [andb]. rewrite Hex.
  replace (t / c_ r) with 0 by (symmetry; apply N.div_small; lia). rewrite N.add_0_l.
  destruct l as [|r' l']; [apply Hrs; nia|].
  apply IH; auto; [lia|nia|discriminate].
Qed.

(** Any selection of the outermost dimension, everything inside it read completely. *)
Lemma safe_outer r V : 1 < V -> 0 < n_ r -> 0 < c_ r -> safe 1 V [r] = true.
Proof.
  intros HV Hn Hc. cbn [safe]. rewrite pn_cons. change (pn []) with 1. rewrite N.mul_1_r.
  destruct (N.leb_spec (n_ r) 1).
  { cbn [block ones forallb orb]. rewrite single_one by lia. reflexivity. }
  assert (i_ r mod c_ r < c_ r) by (apply N.mod_lt; lia).
  replace (1 <=? _) with true by (symmetry; apply N.leb_le; lia). rewrite orb_true_r. cbn [negb].
  cbn [still ones forallb orb andb negb]. change (1 <=? 1) with true. cbn [andb orb].
  destruct (negb (V =? 1) && thin r); [destruct (c_ r =? 1), (n_ r =? 1); reflexivity|].
  destruct (exact r); [reflexivity|]. destruct (negb (V =? 1) && _); [reflexivity|].
  now destruct (clipped r).
Qed.

(** A contiguous dimension (one chunk) selected partially, at least two long or with all
    dimensions outside it selected at one index. *)
Lemma safe_partial r rs V : 1 < V -> 2 <= c_ r -> s_ r = c_ r -> 0 < n_ r -> n_ r < c_ r ->
  i_ r + n_ r <= s_ r -> 0 < pn rs -> (2 <= n_ r \/ ones rs = true) ->
  safe 1 V (r :: rs) = true.
Proof.
  intros HV Hc Hs Hn Hn2 Hb Hp HO.
  assert (Hd : (i_ r + n_ r - 1) / c_ r = 0) by (apply N.div_small; lia).
  assert (Hd2 : i_ r / c_ r = 0) by (apply N.div_small; lia).
  assert (Hm : i_ r mod c_ r = i_ r) by (apply N.mod_small; lia).
  assert (Hsg : single r = true) by (unfold single, last_chunk; rewrite Hd, Hd2; reflexivity).
  assert (Hthin : thin r = false).
  { unfold thin. destruct (N.eqb_spec (c_ r) 1); [lia|]. cbn [orb]. rewrite Hm.
    destruct (N.eqb_spec (i_ r) 0); [|reflexivity]. destruct (N.eqb_spec (i_ r + 1) (s_ r)); [lia|reflexivity]. }
  cbn [safe]. destruct (N.leb_spec (pn (r :: rs)) 1) as [Hle|Hgt].
  { cbn [block]. rewrite Hsg. destruct HO as [HO| ->]; [|reflexivity]. rewrite pn_cons in Hle. nia. }
  rewrite Hsg, Hthin. rewrite andb_false_r. cbn [andb orb negb].
  assert (exact r = false).
  { unfold exact. destruct (N.eqb_spec (n_ r) (c_ r)); [lia|]. now rewrite andb_comm. }
  rewrite H. unfold portion, last_chunk. rewrite Hd. rewrite N.mul_0_l, N.sub_0_r, N.max_0_r, Hs, N.min_id.
  destruct (N.eqb_spec (c_ r) 1); [lia|]. rewrite andb_false_r.
  assert (Hcl : clipped r = false).
  { unfold clipped. rewrite Hm. destruct (N.eqb_spec (i_ r) 0); [|reflexivity].
    destruct (N.eqb_spec (i_ r + n_ r) (s_ r)); [lia|reflexivity]. }
  rewrite Hcl.
  destruct HO as [HO| ->]; [|reflexivity].
  destruct (N.leb_spec (i_ r + n_ r - i_ r) 1); [lia|]. now rewrite andb_false_r.
Qed.

(** ** The same for the arrays of the API *)

Lemma rev_mk_dims_snoc shape cs idx cnt s c i n :
  length cs = length shape -> length idx = length shape -> length cnt = length shape ->
  rev (mk_dims (shape ++ [s]) (cs ++ [c]) (idx ++ [i]) (cnt ++ [n])) =
  mkDim i n c s :: rev (mk_dims shape cs idx cnt).
Proof. intros. rewrite mk_dims_app by auto. now rewrite rev_app_distr. Qed.

Lemma ones_mk_dims shape : forall cs idx cnt,
  Forall (fun n => n = 1) cnt -> ones (rev (mk_dims shape cs idx cnt)) = true.
Proof.
  intros cs idx cnt H. unfold ones. rewrite forallb_forall. intros x Hx. apply in_rev in Hx.
  revert cs idx cnt H Hx.
  induction shape as [|s shape IH]; intros [|c cs] [|i idx] [|n cnt] H Hx; cbn [mk_dims In] in Hx; try easy.
  inversion H; subst. destruct Hx as [<-|Hx]; [reflexivity|]. eapply IH; eauto.
Qed.

Lemma pn_mk_dims shape : forall cs idx cnt,
  Forall (fun n => 0 < n) cnt -> 0 < pn (rev (mk_dims shape cs idx cnt)).
Proof.
  intros cs idx cnt H. rewrite pn_rev.
  revert cs idx cnt H. induction shape as [|s shape IH]; intros [|c cs] [|i idx] [|n cnt] H; cbn [mk_dims map prodN]; try lia.
  inversion H; subst. specialize (IH cs idx cnt H3). cbn. nia.
Qed.

Lemma cs_mk_dims shape : forall cs idx cnt,
  Forall (fun c => 0 < c) cs -> Forall (fun r => 0 < c_ r) (rev (mk_dims shape cs idx cnt)).
Proof.
  intros cs idx cnt H. apply Forall_rev.
  revert cs idx cnt H. induction shape as [|s shape IH]; intros [|c cs] [|i idx] [|n cnt] H; cbn [mk_dims]; try constructor.
  - inversion H; auto.
  - inversion H; auto.
Qed.

Lemma sel_safe_row shape cs idx cnt s c i n :
  length cs = length shape -> length idx = length shape -> length cnt = length shape ->
  Forall (fun c => 0 < c) cs -> 0 < n -> Forall (fun n => n = 1) cnt ->
  sel_safe (shape ++ [s]) (cs ++ [c]) (idx ++ [i]) (cnt ++ [n]) = true.
Proof.
  intros. unfold sel_safe. rewrite rev_mk_dims_snoc by auto. apply safe_row; auto.
  - now apply cs_mk_dims.
  - apply ones_mk_dims; auto.
Qed.

Lemma sel_safe_last shape cs idx cnt s c i n :
  length cs = length shape -> length idx = length shape -> length cnt = length shape ->
  Forall (fun n => 0 < n) cnt -> 0 < n -> 0 < c -> i + n <= s -> ~ (i mod c = 0 /\ n = N.min c (s - i)) ->
  sel_safe (shape ++ [s]) (cs ++ [c]) (idx ++ [i]) (cnt ++ [n]) = true.
Proof.
  intros. unfold sel_safe. rewrite rev_mk_dims_snoc by auto. apply safe_last; auto. now apply pn_mk_dims.
Qed.

Lemma whole_mk_dims dims : Forall (fun d => 2 <= d) dims ->
  Forall whole (rev (mk_dims dims dims (map (fun _ => 0) dims) dims)).
Proof.
  intros H. apply Forall_rev. induction H as [|d dims Hd HF IH]; cbn [map mk_dims]; constructor; auto.
  unfold whole. cbn. lia.
Qed.

(** Chunks that span all inner dimensions (or a contiguous dataset): any part of the
    first dimension, everything inside it. *)
Lemma sel_safe_outer s c i n dims : 0 < n -> 0 < c -> Forall (fun d => 2 <= d) dims ->
  sel_safe (s :: dims) (c :: dims) (i :: map (fun _ => 0) dims) (n :: dims) = true.
Proof.
  intros Hn Hc H. unfold sel_safe. cbn [mk_dims rev]. destruct dims as [|d dims].
  - now apply safe_one.
  - apply safe_whole; try lia.
    + unfold pn. cbn. lia.
    + now apply whole_mk_dims.
    + cbn [map mk_dims rev]. intros E. apply app_eq_nil in E as [_ E]. discriminate.
    + intros V' HV. now apply safe_outer.
Qed.

(** Contiguous datasets: some leading dimensions, one partially selected dimension,
    and everything inside it. *)
Lemma sel_safe_contiguous pre d dims ipre npre i n :
  length ipre = length pre -> length npre = length pre ->
  Forall (fun n => 0 < n) npre ->
  Forall (fun d => 2 <= d) dims -> 2 <= d -> 0 < n -> n < d -> i + n <= d ->
  (2 <= n \/ Forall (fun k => k = 1) npre) ->
  sel_safe (pre ++ d :: dims) (pre ++ d :: dims)
           (ipre ++ i :: map (fun _ => 0) dims) (npre ++ n :: dims) = true.
Proof.
  intros L1 L2 HPN HD Hd Hn Hn2 Hb HO. unfold sel_safe.
  rewrite mk_dims_app by auto. cbn [mk_dims]. rewrite rev_app_distr. cbn [rev].
  assert (HO' : 2 <= n \/ ones (rev (mk_dims pre pre ipre npre)) = true).
  { destruct HO as [HO|HO]; auto. right. now apply ones_mk_dims. }
  rewrite <- app_assoc. cbn [app].
  destruct dims as [|d' dims'].
  - cbn [map mk_dims rev app]. apply safe_last; cbn; auto; try lia; [now apply pn_mk_dims|].
    intros [M X]. rewrite N.mod_small in M by lia. lia.
  - pose proof (pn_mk_dims pre pre ipre npre HPN) as Hpp.
    apply safe_whole; try lia.
    + rewrite pn_cons. cbn [n_]. nia.
    + now apply whole_mk_dims.
    + cbn [map mk_dims rev]. intros E. apply app_eq_nil in E as [_ E]. discriminate.
    + intros V' HV. apply safe_partial; cbn; auto; lia.
Qed.
