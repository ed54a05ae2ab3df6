(** * C75: full reads of datasets of any rank, and reads of one index of the first dimension.

    C55 says exactly which full reads of two- and three-dimensional datasets are right.  Here
    any rank, for datasets whose chunks span some (or none) of the last dimensions. *)
From Verif Require Import Base Spec Safe Chunk Extent Dataset Slicer SpecApi
  Radix ApiLemmas ExtentProofs SlicerMain SlicerTheorems SlicerExact SliceProps SlicerExact3 SafeProofs PlaneProofs SlicerRelease2 Examples.
Local Arguments N.add : simpl never.
Local Arguments N.mul : simpl never.
Local Arguments N.div : simpl never.
Local Arguments N.modulo : simpl never.
Local Arguments N.sub : simpl never.

(** A dimension selected in full. *)
Definition whole (s c : N) : dim := mkDim 0 s c s.

Lemma whole_single s c : 0 < c -> single (whole s c) = ((s - 1) / c =? 0).
Proof. intros H. unfold single, last_chunk, whole. cbn [i_ n_ c_]. rewrite N.div_0_l, N.add_0_l by lia. apply N.eqb_sym. Qed.

Lemma pn_pos rs : Forall (fun r => 0 < n_ r) rs -> 0 < pn rs.
Proof. induction 1 as [|r rs H _ IH]; [reflexivity|]. rewrite pn_cons. nia. Qed.

Lemma still_ones : forall rs, ones rs = true -> still rs = true.
Proof.
  induction rs as [|r rs IH]; [reflexivity|]. cbn [ones forallb still]. intros H. apply andb_true_iff in H as [H1 H2].
  rewrite H1. destruct (thin r); auto.
Qed.

Lemma portion_whole s c : 0 < c -> 0 < s -> portion (whole s c) = s - (s - 1) / c * c.
Proof.
  intros Hc Hs. unfold portion, last_chunk, whole. cbn [i_ n_ c_]. rewrite N.add_0_l, N.max_r by apply N.le_0_l. reflexivity.
Qed.
Lemma rest_whole s c : 1 < c -> 0 < s -> (s - (s - 1) / c * c = 1 <-> s mod c = 1).
Proof.
  intros Hc Hs. assert (D : s - 1 = c * ((s - 1) / c) + (s - 1) mod c) by (apply N.div_mod; lia).
  assert (L : (s - 1) mod c < c) by (apply N.mod_lt; lia).
  generalize dependent ((s - 1) / c). generalize dependent ((s - 1) mod c). intros r Hr q D. split; intros H.
  - symmetry. apply N.mod_unique with q; lia.
  - destruct (N.eq_dec r (c - 1)) as [E|E].
    + exfalso. assert (s mod c = 0) by (symmetry; apply N.mod_unique with (q + 1); nia). lia.
    + assert (s mod c = r + 1) by (symmetry; apply N.mod_unique with q; lia). lia.
Qed.
Lemma last_clip s c : 0 < c -> 0 < s -> s - (s - 1) / c * c <= c.
Proof.
  intros Hc Hs. assert (D : s - 1 = c * ((s - 1) / c) + (s - 1) mod c) by (apply N.div_mod; lia).
  assert (L : (s - 1) mod c < c) by (apply N.mod_lt; lia).
  generalize dependent ((s - 1) / c). generalize dependent ((s - 1) mod c). intros. lia.
Qed.

(** The dimensions that chunks span, innermost first. *)
Lemma safe_inner_ : forall inner V rest, Forall (fun d => 0 < d) inner -> 1 < V -> 0 < pn rest ->
  safe 1 V (map (fun d => whole d d) inner ++ rest) = safe 1 (V * prodN inner) rest.
Proof.
  induction inner as [|d inner IH]; intros V rest HI HV HP.
  { cbn [map app prodN]. now rewrite N.mul_1_r. }
  inversion HI as [|? ? H0 HI']; subst.
  cbn [map app prodN]. rewrite N.mul_assoc.
  destruct (N.eq_dec d 1) as [->|H1].
  - cbn [safe].
    destruct (N.leb_spec (pn (whole 1 1 :: map (fun d => whole d d) inner ++ rest)) 1) as [L|L].
    + rewrite N.mul_1_r, <- IH by auto.
      assert (HO : forall rs, 0 < pn rs -> pn rs <= 1 -> ones rs = true).
      { clear. induction rs as [|r rs IH]; intros H L; [reflexivity|]. rewrite pn_cons in *. cbn [ones forallb].
        assert (n_ r = 1 /\ 0 < pn rs /\ pn rs <= 1) as (E & H1 & H2)
        by (assert (E : n_ r * pn rs = 1) by lia; apply N.eq_mul_1 in E as [E1 E2]; rewrite E2; repeat split; auto; lia).
        rewrite E. cbn [N.eqb Pos.eqb]. now apply IH. }
      rewrite pn_cons in L. cbn [whole n_] in L. rewrite N.mul_1_l in L.
      assert (P0 : 0 < pn (map (fun d => whole d d) inner ++ rest)).
      { clear - HI' HP. induction HI' as [|d l H HF IH]; cbn [map app]; [exact HP|]. rewrite pn_cons. cbn [whole n_]. nia. }
      cbn [block]. rewrite (HO _ P0 L). cbn [orb]. rewrite single_one by reflexivity. cbn [andb].
      destruct (map (fun d => whole d d) inner ++ rest) as [|r rs]; [reflexivity|]. cbn [safe].
      rewrite (proj2 (N.leb_le _ _) L). cbn [block]. pose proof (HO _ P0 L) as HO'. cbn [ones forallb] in HO'.
      apply andb_true_iff in HO' as [E1 E2]. apply N.eqb_eq in E1. rewrite single_one by auto.
      unfold ones. now rewrite E2.
    + rewrite single_one by reflexivity. cbn [orb negb].
      assert (BV : (V =? 1) = false) by (apply N.eqb_neq; lia). rewrite BV. cbn [negb andb].
      change (thin (whole 1 1)) with true. cbn [whole c_ n_ N.eqb Pos.eqb]. rewrite N.mul_1_r. now apply IH.
  - cbn [safe].
    assert (PP : 0 < pn (map (fun d => whole d d) inner ++ rest)).
    { clear - HI' HP. induction HI' as [|d l H HF IH]; cbn [map app]; [exact HP|]. rewrite pn_cons. cbn [whole n_]. nia. }
    assert (E1 : (pn (whole d d :: map (fun d => whole d d) inner ++ rest) <=? 1) = false).
    { apply N.leb_gt. rewrite pn_cons. cbn [whole n_]. generalize dependent (pn (map (fun d => whole d d) inner ++ rest)). intros; nia. }
    rewrite E1.
    assert (E2 : single (whole d d) = true) by (rewrite whole_single by lia; apply N.eqb_eq, N.div_small; lia).
    rewrite E2. cbn [orb negb].
    assert (E3 : thin (whole d d) = false).
    { unfold thin, whole. cbn [c_ i_ s_]. destruct (N.eqb_spec d 1); [lia|]. destruct (N.eqb_spec (0 + 1) d); [lia|]. now rewrite andb_false_r. }
    rewrite E3, andb_false_r.
    assert (E4 : exact (whole d d) = true).
    { unfold exact, whole. cbn [c_ i_ n_]. rewrite N.mod_0_l by lia. now rewrite !N.eqb_refl. }
    rewrite E4. cbn [whole c_]. rewrite N.div_small, N.add_0_l by lia. apply IH; auto. nia.
Qed.
Lemma safe_inner d inner rest : Forall (fun d => 0 < d) inner -> 1 < d -> 0 < pn rest ->
  safe 0 1 (map (fun d => whole d d) (d :: inner) ++ rest) = safe 1 (d * prodN inner) rest.
Proof.
  intros HI Hd HP. cbn [map app safe].
  assert (PP : 0 < pn (map (fun d => whole d d) inner ++ rest)).
  { clear - HI HP. induction HI as [|d l H HF IH]; cbn [map app]; [exact HP|]. rewrite pn_cons. cbn [whole n_]. nia. }
  assert (E1 : (pn (whole d d :: map (fun d => whole d d) inner ++ rest) <=? 0) = false).
  { apply N.leb_gt. rewrite pn_cons. cbn [whole n_]. generalize dependent (pn (map (fun d => whole d d) inner ++ rest)). intros; nia. }
  rewrite E1.
  assert (E2 : single (whole d d) = true) by (rewrite whole_single by lia; apply N.eqb_eq, N.div_small; lia).
  rewrite E2. cbn [orb negb N.eqb Pos.eqb andb].
  assert (E4 : exact (whole d d) = true).
  { unfold exact, whole. cbn [c_ i_ n_]. rewrite N.mod_0_l by lia. now rewrite !N.eqb_refl. }
  rewrite E4. cbn [whole c_]. rewrite N.div_0_l, N.add_0_l, N.mul_1_l by lia. now apply safe_inner_.
Qed.
Lemma safe_one_chunk : forall inner t V, Forall (fun d => 0 < d) inner ->
  safe t V (map (fun d => whole d d) inner) = true.
Proof.
  assert (EX : forall d, 0 < d -> exact (whole d d) = true).
  { intros d Hd. unfold exact, whole. cbn [c_ i_ n_]. rewrite N.mod_0_l by lia. now rewrite !N.eqb_refl. }
  assert (SI : forall d, 0 < d -> single (whole d d) = true).
  { intros d Hd. rewrite whole_single by lia. apply N.eqb_eq, N.div_small; lia. }
  induction inner as [|d inner IH]; intros t V HI; [reflexivity|]. inversion HI as [|? ? H0 HI']; subst.
  cbn [map safe]. destruct (pn (whole d d :: map (fun d => whole d d) inner) <=? t).
  { change (block (map (fun d => whole d d) (d :: inner)) = true).
    revert HI. generalize (d :: inner) as l. clear - EX SI. intros l HL. induction HL as [|d l H HF IH]; [reflexivity|].
    cbn [map block]. now rewrite SI, EX, IH, orb_true_r. }
  rewrite SI by auto. cbn [orb negb]. rewrite EX by auto. destruct (negb (V =? 1) && thin (whole d d)) eqn:E; [|now apply IH].
  apply andb_true_iff in E as [_ E]. unfold thin, whole in E. cbn [c_ i_ s_] in E.
  assert (d = 1) as ->.
  { apply orb_true_iff in E as [E|E]; [now apply N.eqb_eq in E|]. apply andb_true_iff in E as [_ E]. apply N.eqb_eq in E. lia. }
  cbn [whole c_ n_ N.eqb Pos.eqb]. now apply IH.
Qed.

(** The dimension that chunks do not span. *)
Lemma safe_split V d c rs : 1 < V -> 0 < c -> 0 < d -> c <> d -> Forall (fun r => 0 < n_ r) rs ->
  safe 1 V (whole d c :: rs) =
  ((c <? d) && negb (c =? 1) && negb (d mod c =? 1)) || (if c =? 1 then forallb thin rs else still rs).
Proof.
  intros HV Hc Hd Hcd HP. cbn [safe]. rewrite pn_cons. pose proof (pn_pos rs HP) as PP.
  destruct (N.leb_spec (n_ (whole d c) * pn rs) 1) as [L|L].
  { cbn [whole n_] in L. assert (E : d = 1 /\ pn rs = 1) by (generalize dependent (pn rs); intros; nia). destruct E as [-> E].
    assert (HO : ones rs = true).
    { clear - HP E. induction HP as [|r rs H HP IH]; [reflexivity|]. rewrite pn_cons in E. pose proof (pn_pos rs HP).
      cbn [ones forallb]. assert (n_ r = 1 /\ pn rs = 1) as [E1 E2] by (generalize dependent (pn rs); intros; nia).
      rewrite E1. cbn [N.eqb]. apply IH, E2. }
    cbn [block]. rewrite HO, whole_single by lia. rewrite N.div_0_l by lia.
    destruct (N.eqb_spec c 1); [lia|]. rewrite still_ones by auto. cbn [orb andb N.eqb]. now rewrite orb_true_r. }
  assert (B1 : (1 <=? c_ (whole d c) - i_ (whole d c) mod c_ (whole d c)) = true).
  { apply N.leb_le. cbn [whole c_ i_]. rewrite N.mod_0_l by lia. lia. }
  rewrite B1, orb_true_r. cbn [negb].
  assert (BV : (V =? 1) = false) by (apply N.eqb_neq; lia). rewrite BV. cbn [negb andb].
  destruct (N.eqb_spec c 1) as [-> |H1].
  { assert (ET : thin (whole d 1) = true) by reflexivity. rewrite ET. cbn [whole c_ n_ N.eqb Pos.eqb].
    destruct (N.eqb_spec d 1); [lia|]. cbn [negb]. now rewrite andb_false_r. }
  assert (ET : thin (whole d c) = (d =? 1)).
  { unfold thin, whole. cbn [c_ i_ s_]. destruct (N.eqb_spec c 1); [lia|]. rewrite N.mod_0_l by lia. cbn [orb andb N.eqb]. rewrite N.add_0_l. apply N.eqb_sym. }
  rewrite ET. cbn [whole c_ n_ i_ s_].
  destruct (N.eqb_spec d 1) as [-> |Hd1].
  { destruct (N.eqb_spec c 1); [lia|]. destruct (N.ltb_spec c 1); [lia|]. reflexivity. }
  assert (EX : exact (whole d c) = false).
  { unfold exact, whole. cbn [c_ i_ n_]. destruct (N.eqb_spec d c); [congruence|]. apply andb_false_r. }
  fold (whole d c). rewrite EX. unfold last_chunk. cbn [whole i_ n_ c_]. rewrite N.add_0_l. fold (whole d c).
  rewrite portion_whole by auto. pose proof (last_clip d c Hc Hd) as LC. pose proof (rest_whole d c ltac:(lia) Hd) as RW.
  rewrite N.min_r by exact LC.
  assert (CL : clipped (whole d c) = (d <? c)).
  { unfold clipped, whole. cbn [c_ i_ n_ s_]. rewrite N.mod_0_l, N.add_0_l, !N.eqb_refl by lia. reflexivity. }
  assert (CR : 0 < d - (d - 1) / c * c).
  { assert (D : d - 1 = c * ((d - 1) / c) + (d - 1) mod c) by (apply N.div_mod; lia).
    generalize dependent ((d - 1) / c). generalize dependent ((d - 1) mod c). intros; lia. }
  rewrite CL. cbn [negb]. rewrite andb_true_r. destruct (N.lt_ge_cases c d) as [LT|GE].
  - rewrite (proj2 (N.ltb_lt c d) LT), (proj2 (N.ltb_ge d c)) by lia. cbn [andb].
    destruct (N.eqb_spec (d mod c) 1) as [E|E]; cbn [negb orb].
    + apply RW in E. rewrite E. reflexivity.
    + destruct (N.eqb_spec (d - (d - 1) / c * c) 1) as [E2|E2]; [now apply RW in E2|].
      destruct (N.leb_spec (d - (d - 1) / c * c) 1); [lia|]. now rewrite andb_false_r.
  - rewrite (proj2 (N.ltb_ge c d) GE), (proj2 (N.ltb_lt d c)) by lia. cbn [andb orb].
    rewrite N.div_small by lia. rewrite N.mul_0_l, N.sub_0_r.
    destruct (N.eqb_spec d 1); [lia|]. destruct (N.leb_spec d 1); [lia|]. now rewrite andb_false_r.
Qed.
Lemma safe_split0 d c rs : 0 < c -> 0 < d -> c <> d -> Forall (fun r => 0 < n_ r) rs ->
  safe 0 1 (whole d c :: rs) = (c <? d) || still rs.
Proof.
  intros Hc Hd Hcd HP. cbn [safe]. rewrite pn_cons. pose proof (pn_pos rs HP) as PP.
  destruct (N.leb_spec (n_ (whole d c) * pn rs) 0) as [L|L].
  { exfalso. cbn [whole n_] in L. generalize dependent (pn rs). intros; nia. }
  rewrite (proj2 (N.leb_le 0 (c_ (whole d c) - i_ (whole d c) mod c_ (whole d c))) (N.le_0_l _)).
  assert (EX : exact (whole d c) = false).
  { unfold exact, whole. cbn [c_ i_ n_]. destruct (N.eqb_spec d c); [congruence|]. apply andb_false_r. }
  rewrite EX, portion_whole by auto. rewrite orb_true_r. cbn [negb N.eqb Pos.eqb andb].
  assert (CR : 0 < d - (d - 1) / c * c).
  { assert (D : d - 1 = c * ((d - 1) / c) + (d - 1) mod c) by (apply N.div_mod; lia).
    generalize dependent ((d - 1) / c). generalize dependent ((d - 1) mod c). intros; lia. }
  destruct (N.leb_spec (d - (d - 1) / c * c) 0); [lia|]. rewrite andb_false_r.
  assert (CL : clipped (whole d c) = (d <? c)).
  { unfold clipped, whole. cbn [c_ i_ n_ s_]. rewrite N.mod_0_l, N.add_0_l, !N.eqb_refl by lia. reflexivity. }
  rewrite CL. destruct (N.lt_ge_cases c d) as [LT|GE].
  - now rewrite (proj2 (N.ltb_lt c d) LT), (proj2 (N.ltb_ge d c)) by lia.
  - now rewrite (proj2 (N.ltb_ge c d) GE), (proj2 (N.ltb_lt d c)) by lia.
Qed.

(** The dimensions outside it. *)
Lemma thin_whole s c : 0 < c -> thin (whole s c) = (c =? 1) || (s =? 1).
Proof.
  intros H. unfold thin, whole. cbn [c_ i_ s_]. rewrite N.mod_0_l, N.add_0_l by lia. rewrite N.eqb_refl. cbn [andb]. now rewrite (N.eqb_sym 1 s).
Qed.
Lemma still_whole : forall shape cs, Forall (fun c => 0 < c) cs ->
  still (map (fun p => whole (fst p) (snd p)) (combine shape cs)) = forallb thin (map (fun p => whole (fst p) (snd p)) (combine shape cs)).
Proof.
  induction shape as [|s shape IH]; intros [|c cs] H; try reflexivity. inversion H as [|? ? H0 H']; subst.
  cbn [combine map fst snd still forallb]. rewrite thin_whole by auto. cbn [whole n_ c_ i_ s_].
  destruct (N.eqb_spec s 1) as [->|]; [rewrite orb_true_r; now apply IH|].
  destruct (N.eqb_spec c 1) as [->|]; [reflexivity|]. rewrite N.mod_0_l by lia.
  destruct (N.eqb_spec 0 (c - 1)); [lia|]. now rewrite andb_false_r.
Qed.

Lemma mk_dims_full : forall shape cs, length cs = length shape ->
  mk_dims shape cs (map (fun _ => 0) shape) shape = map (fun p => whole (fst p) (snd p)) (combine shape cs).
Proof.
  induction shape as [|s shape IH]; intros [|c cs] H; cbn [length] in H; try discriminate; [reflexivity|].
  cbn [map mk_dims combine fst snd]. unfold whole at 1. f_equal. apply IH. lia.
Qed.
Lemma combine_same (l : list N) : map (fun p => whole (fst p) (snd p)) (combine l l) = map (fun d => whole d d) l.
Proof. induction l as [|d l IH]; [reflexivity|]. cbn [combine map fst snd]. now rewrite IH. Qed.
Lemma thin_Forall2 : forall shape cs, length cs = length shape -> Forall (fun c => 0 < c) cs ->
  (forallb thin (map (fun p => whole (fst p) (snd p)) (combine shape cs)) = true <-> Forall2 (fun s c => s = 1 \/ c = 1) shape cs).
Proof.
  induction shape as [|s shape IH]; intros [|c cs] H HP; cbn [length] in H; try discriminate.
  { split; constructor. }
  inversion HP as [|? ? H0 HP']; subst. cbn [combine map forallb fst snd].
  rewrite andb_true_iff, thin_whole, orb_true_iff, !N.eqb_eq, IH by (auto; lia). split.
  - intros [[E|E] F]; constructor; auto.
  - intros F. inversion F; subst. split; [|auto]. tauto.
Qed.
Lemma combine_rev (A B : Type) : forall (l : list A) (l' : list B), length l' = length l ->
  rev (combine l l') = combine (rev l) (rev l').
Proof.
  induction l as [|a l IH]; intros [|b l'] H; cbn [length] in H; try discriminate; [reflexivity|].
  cbn [combine rev]. rewrite IH by lia.
  assert (E : length (rev l) = length (rev l')) by (rewrite !rev_length; lia).
  clear - E. revert E. generalize (rev l) as x. generalize (rev l') as y. clear.
  induction y as [|b' y IH]; intros [|a' x] E; cbn [length] in E; try discriminate; [reflexivity|].
  cbn [combine app]. now rewrite IH by lia.
Qed.

Lemma Forall2_rev_ (A B : Type) (R : A -> B -> Prop) : forall l l', Forall2 R l l' -> Forall2 R (rev l) (rev l').
Proof. induction 1 as [|a b l l' H HF IH]; cbn [rev]; [constructor|]. apply Forall2_app; auto. Qed.

(** The full selection of these dimensions is one the iterator gets right. *)
Definition full_right (outer couter : list N) (d c : N) (inner : list N) : Prop :=
  Forall2 (fun s c => s = 1 \/ c = 1) outer couter \/
  (c < d /\ (inner = [] \/ (c <> 1 /\ d mod c <> 1))).

Lemma full_safe outer couter d c inner :
  length couter = length outer ->
  Forall (fun s => 0 < s) (outer ++ d :: inner) -> Forall (fun c => 0 < c) (couter ++ c :: inner) ->
  c <> d -> (inner = [] \/ 1 < last inner 0) ->
  (sel_safe (outer ++ d :: inner) (couter ++ c :: inner) (map (fun _ => 0) (outer ++ d :: inner)) (outer ++ d :: inner) = true
   <-> full_right outer couter d c inner).
Proof.
  intros HL HS HC Hcd HN. apply Forall_app in HS as [HS1 HS2]. apply Forall_app in HC as [HC1 HC2].
  inversion HS2 as [|? ? Hd HS3]; subst. inversion HC2 as [|? ? Hc HC3]; subst.
  unfold sel_safe. rewrite mk_dims_full by (rewrite !app_length; cbn [length]; lia).
  assert (EC : combine (outer ++ d :: inner) (couter ++ c :: inner) = combine outer couter ++ (d, c) :: combine inner inner).
  { clear - HL. revert couter HL. induction outer as [|s outer IH]; intros [|x couter] H; cbn [length] in H; try discriminate; [reflexivity|].
    cbn [app combine]. now rewrite IH by lia. }
  rewrite EC, map_app, rev_app_distr. cbn [map rev fst snd]. rewrite combine_same, <- !map_rev, <- app_assoc. cbn [app].
  rewrite combine_rev by lia.
  set (rs := map (fun p => whole (fst p) (snd p)) (combine (rev outer) (rev couter))).
  assert (HR : length (rev couter) = length (rev outer)) by (rewrite !rev_length; lia).
  assert (HP : Forall (fun r => 0 < n_ r) rs).
  { subst rs. apply Forall_map. apply Forall_forall. intros [a b] Hin. apply in_combine_l, in_rev in Hin. cbn [fst snd whole n_].
    rewrite Forall_forall in HS1. auto. }
  assert (ST : still rs = forallb thin rs) by (apply still_whole, Forall_rev; auto).
  assert (TH : forallb thin rs = true <-> Forall2 (fun s c => s = 1 \/ c = 1) outer couter).
  { subst rs. rewrite thin_Forall2 by (auto using Forall_rev). split; intros F.
    - rewrite <- (rev_involutive outer), <- (rev_involutive couter). now apply Forall2_rev_.
    - now apply Forall2_rev_. }
  unfold full_right. rewrite <- TH. destruct HN as [-> |HN].
  - cbn [rev map app]. rewrite safe_split0 by auto. rewrite ST, orb_true_iff, N.ltb_lt. tauto.
  - assert (HI : inner <> []) by (intros ->; cbn in HN; lia).
    destruct (exists_last HI) as (l & x & ->). rewrite last_last in HN. rewrite rev_app_distr. cbn [rev app].
    change (whole x x :: ?a) with (map (fun d => whole d d) (x :: rev l)).
    apply Forall_app in HS3 as [HS4 _].
    rewrite safe_inner; [|now apply Forall_rev|exact HN|rewrite pn_cons; cbn [whole n_]; pose proof (pn_pos rs HP); nia].
    rewrite safe_split; auto.
    2:{ assert (0 < prodN (rev l)); [|nia]. clear - HS4. apply Forall_rev in HS4. induction HS4 as [|a l' H HF IH]; cbn [prodN]; [lia|]. nia. }
    rewrite ST. destruct (N.eqb_spec c 1) as [->|H1].
    + rewrite andb_false_r. cbn [orb]. split; [auto|]. intros [H|(_ & [H|[H _]])]; [auto|destruct l; discriminate H|congruence].
    + rewrite orb_true_iff, !andb_true_iff, !negb_true_iff, !N.eqb_neq, N.ltb_lt. split.
      * intros [[[H2 _] H3]|H]; auto.
      * intros [H|(H2 & [H|[_ H]])]; [auto|destruct l; discriminate H|auto].
Qed.

(** Full reads, of every rank, in both build modes.  Chunks span the last dimensions [inner]
    (possibly none, the last of them longer than 1) and not the dimension [d] before them:
    the read is right if and only if each dimension outside [d] has one index or chunks one
    thick, or chunks are shorter than [d] and - unless [inner] is empty - neither they nor the
    last of them in [d] is one thick. *)
Theorem C75_full m ds outer couter d c inner :
  full_dataset ds -> d_shape ds = outer ++ d :: inner -> d_chunk_shape ds = couter ++ c :: inner ->
  length couter = length outer -> Forall (fun s => 0 < s) (d_shape ds) ->
  c <> d -> (inner = [] \/ 1 < last inner 0) ->
  (m = Release -> 2 * prodN (d_shape ds) + 3 * prodN (d_chunk_shape ds) < W64) ->
  (reads_right m ds All (map (fun _ => 0) (d_shape ds)) (d_shape ds) <->
   Forall2 (fun s c => s = 1 \/ c = 1) outer couter \/
   (c < d /\ (inner = [] \/ (c <> 1 /\ d mod c <> 1)))).
Proof.
  intros Hfd Es Ec HL HS Hcd HN Hsz.
  pose proof (wm_pos _ (fd_made _ Hfd)) as HP.
  assert (Hsel : sel_in (d_shape ds) (map (fun _ => 0) (d_shape ds)) (d_shape ds)).
  { split; [apply map_length|]. split; [reflexivity|]. split; [exact HS|].
    intros j a b x H1 H2 H3. rewrite nth_error_map, H3 in H1. cbn [option_map] in H1. injection H1 as <-.
    rewrite H2 in H3. injection H3 as <-. lia. }
  pose proof (get_start_count_all (d_shape ds)) as He.
  transitivity (sel_safe (d_shape ds) (d_chunk_shape ds) (map (fun _ => 0) (d_shape ds)) (d_shape ds) = true).
  2:{ rewrite Es, Ec. rewrite Es in HS. rewrite Ec in HP. now apply full_safe. }
  split; [|now apply safe_right].
  intros (segs & H & H3 & _). specialize (H _ (Nat.lt_succ_diag_r _)).
  destruct m.
  { exact (reads_right_safe ds All _ _ segs _ Hfd He Hsel H H3). }
  refine (reads_right_safe_rel ds All _ _ segs _ Hfd He Hsel (Hsz eq_refl) _ H H3).
  rewrite Es, Ec. unfold single_end. destruct HN as [-> |HN].
  - rewrite !rev_app_distr. cbn [rev app]. destruct (rev outer); [reflexivity|].
    destruct (N.eqb_spec c 1) as [->|]; [|reflexivity]. destruct (N.eqb_spec d 1); [congruence|reflexivity].
  - assert (HI : inner <> []) by (intros ->; cbn in HN; lia).
    destruct (exists_last HI) as (l & x & ->). rewrite last_last in HN.
    rewrite !app_comm_cons, !app_assoc, !rev_app_distr. cbn [rev app].
    destruct ((rev l ++ [d]) ++ rev outer); [reflexivity|]. destruct (N.eqb_spec x 1); [lia|reflexivity].
Qed.
Print Assumptions C75_full.

(** A dataset in one chunk is always read rightly in full. *)
Theorem C75_one_chunk m ds :
  full_dataset ds -> d_chunk_shape ds = d_shape ds ->
  reads_right m ds All (map (fun _ => 0) (d_shape ds)) (d_shape ds).
Proof.
  intros Hfd Ec. pose proof (wm_pos _ (fd_made _ Hfd)) as HP. rewrite Ec in HP.
  assert (Hsel : sel_in (d_shape ds) (map (fun _ => 0) (d_shape ds)) (d_shape ds)).
  { split; [apply map_length|]. split; [reflexivity|]. split; [exact HP|].
    intros j a b x H1 H2 H3. rewrite nth_error_map, H3 in H1. cbn [option_map] in H1. injection H1 as <-.
    rewrite H2 in H3. injection H3 as <-. lia. }
  apply safe_right; auto. { apply get_start_count_all. }
  unfold sel_safe. rewrite Ec, mk_dims_full, combine_same, <- map_rev by reflexivity.
  now apply safe_one_chunk, Forall_rev.
Qed.
Print Assumptions C75_one_chunk.

(** Cases: 1 x 4 x 3 x 5 in 1 x 2 x 3 x 5 chunks rightly, 2 x 1 x 3 x 5 in 2 x 1 x 2 x 5 chunks (the
    last of them one thick) wrongly. *)
Definition deep_ds : dataset :=
  mkDataset (Int 4) 4 LE
    [mkChunk 1000 120 [0;0;0;0]; mkChunk 2000 120 [0;2;0;0]]
    [1;4;3;5] [1;2;3;5] [1;2;3;5] [2;1;1;1] [60;15;5;1] [30;15;5;1] false None.
Lemma deep_full : full_dataset deep_ds.
Proof.
  constructor; [constructor|..]; try reflexivity.
  - repeat constructor.
  - repeat split; repeat constructor.
Qed.
Definition deep_bad : dataset :=
  mkDataset (Int 4) 4 LE
    [mkChunk 1000 80 [0;0;0;0]; mkChunk 2000 80 [0;0;2;0]]
    [2;1;3;5] [2;1;2;5] [2;1;2;5] [2;2;1;1] [15;15;5;1] [10;10;5;1] false None.
Lemma deep_bad_full : full_dataset deep_bad.
Proof.
  constructor; [constructor|..]; try reflexivity.
  - repeat constructor.
  - repeat split; repeat constructor.
Qed.
Example C75_case m :
  reads_right m deep_ds All [0;0;0;0] [1;4;3;5] /\ ~ reads_right m deep_bad All [0;0;0;0] [2;1;3;5].
Proof.
  split.
  - apply (proj2 (C75_full m deep_ds [1] [1] 4 2 [3;5] deep_full eq_refl eq_refl eq_refl ltac:(repeat constructor)
      ltac:(discriminate) (or_intror eq_refl) ltac:(reflexivity))). left. repeat constructor.
  - intros H. apply (proj1 (C75_full m deep_bad [2;1] [2;1] 3 2 [5] deep_bad_full eq_refl eq_refl eq_refl ltac:(repeat constructor)
      ltac:(discriminate) (or_intror eq_refl) ltac:(reflexivity))) in H.
    destruct H as [H|(_ & [H|[_ H]])]; [|discriminate|now apply H].
    inversion H as [|? ? ? ? [E|E] _]; discriminate.
Qed.

(** ** One index of the first dimension, everything inside it *)

Lemma still_end shape : forall cs r0, Forall (fun c => 0 < c) cs -> length cs = length shape -> n_ r0 = 1 ->
  (still (map (fun p => whole (fst p) (snd p)) (combine shape cs) ++ [r0]) = true <->
   Forall (eq 1) shape \/ forallb thin (map (fun p => whole (fst p) (snd p)) (combine shape cs) ++ [r0]) = true).
Proof.
  induction shape as [|s shape IH]; intros [|c cs] r0 HC HL E; cbn [length] in HL; try discriminate.
  { cbn [combine map app still forallb]. rewrite E. cbn [N.eqb Pos.eqb ones forallb]. destruct (thin r0); split; auto. }
  inversion HC as [|? ? H0 HC']; subst. cbn [combine map app fst snd still forallb]. rewrite thin_whole by auto.
  cbn [whole n_ c_ i_ s_]. destruct (N.eqb_spec s 1) as [->|NE].
  - rewrite orb_true_r. cbn [andb]. rewrite IH by (auto; lia). split; (intros [H|H]; [left|right; exact H]); [constructor; auto|inversion H; auto].
  - rewrite orb_false_r. destruct (N.eqb_spec c 1) as [->|NC].
    + cbn [andb]. split; [auto|]. intros [H|H]; [|exact H]. inversion H; congruence.
    + cbn [andb]. rewrite N.mod_0_l by lia. destruct (N.eqb_spec 0 (c - 1)); [lia|]. rewrite andb_false_r. cbn [andb]. split; [discriminate|].
      intros [H|H]; [|discriminate]. inversion H; congruence.
Qed.

Lemma layer_safe s0 c0 i outer couter d c inner :
  length couter = length outer -> 0 < c0 ->
  Forall (fun s => 0 < s) (outer ++ d :: inner) -> Forall (fun c => 0 < c) (couter ++ c :: inner) ->
  c <> d -> (inner = [] \/ 1 < last inner 0) ->
  (sel_safe (s0 :: outer ++ d :: inner) (c0 :: couter ++ c :: inner)
     (i :: map (fun _ => 0) (outer ++ d :: inner)) (1 :: outer ++ d :: inner) = true <->
   (c < d /\ (inner = [] \/ (c <> 1 /\ d mod c <> 1))) \/
   (Forall2 (fun s c => s = 1 \/ c = 1) outer couter /\ (c0 = 1 \/ (i mod c0 = 0 /\ i + 1 = s0))) \/
   (Forall (eq 1) outer /\ (inner = [] \/ c <> 1))).
Proof.
  intros HL HC0 HS HC Hcd HN. apply Forall_app in HS as [HS1 HS2]. apply Forall_app in HC as [HC1 HC2].
  inversion HS2 as [|? ? Hd HS3]; subst. inversion HC2 as [|? ? Hc HC3]; subst.
  unfold sel_safe. cbn [mk_dims]. rewrite mk_dims_full by (rewrite !app_length; cbn [length]; lia).
  assert (EC : combine (outer ++ d :: inner) (couter ++ c :: inner) = combine outer couter ++ (d, c) :: combine inner inner).
  { clear - HL. revert couter HL. induction outer as [|s outer IH]; intros [|x couter] H; cbn [length] in H; try discriminate; [reflexivity|].
    cbn [app combine]. now rewrite IH by lia. }
  cbn [rev]. rewrite EC, map_app, rev_app_distr. cbn [map rev fst snd]. rewrite combine_same, <- !map_rev, <- !app_assoc. cbn [app].
  rewrite combine_rev by lia.
  set (r0 := mkDim i 1 c0 s0).
  set (rs := map (fun p => whole (fst p) (snd p)) (combine (rev outer) (rev couter)) ++ [r0]).
  assert (HR : length (rev couter) = length (rev outer)) by (rewrite !rev_length; lia).
  assert (HP : Forall (fun r => 0 < n_ r) rs).
  { subst rs. apply Forall_app. split; [|repeat constructor]. apply Forall_map. apply Forall_forall. intros [a b] Hin. apply in_combine_l, in_rev in Hin. cbn [fst snd whole n_].
    rewrite Forall_forall in HS1. auto. }
  assert (T0 : thin r0 = true <-> c0 = 1 \/ (i mod c0 = 0 /\ i + 1 = s0)).
  { unfold thin, r0. cbn [c_ i_ s_]. now rewrite orb_true_iff, andb_true_iff, !N.eqb_eq. }
  assert (TH : forallb thin rs = true <-> Forall2 (fun s c => s = 1 \/ c = 1) outer couter /\ (c0 = 1 \/ (i mod c0 = 0 /\ i + 1 = s0))).
  { subst rs. rewrite forallb_app, andb_true_iff, thin_Forall2 by (auto using Forall_rev). cbn [forallb]. rewrite andb_true_r, T0.
    split; intros [F G]; (split; [|exact G]).
    - rewrite <- (rev_involutive outer), <- (rev_involutive couter). now apply Forall2_rev_.
    - now apply Forall2_rev_. }
  assert (ST : still rs = true <-> Forall (eq 1) outer \/ forallb thin rs = true).
  { subst rs. rewrite still_end by (auto using Forall_rev). split; (intros [H|H]; [left|right; exact H]).
    - rewrite <- (rev_involutive outer). now apply Forall_rev.
    - now apply Forall_rev. }
  rewrite <- TH. destruct HN as [-> |HN].
  - cbn [rev map app]. rewrite safe_split0 by auto. rewrite orb_true_iff, N.ltb_lt, ST. tauto.
  - assert (HI : inner <> []) by (intros ->; cbn in HN; lia).
    destruct (exists_last HI) as (l & x & ->). rewrite last_last in HN. rewrite rev_app_distr. cbn [rev app].
    change (whole x x :: ?a) with (map (fun d => whole d d) (x :: rev l)).
    apply Forall_app in HS3 as [HS4 _].
    rewrite safe_inner; [|now apply Forall_rev|exact HN|rewrite pn_cons; cbn [whole n_]; pose proof (pn_pos rs HP); nia].
    rewrite safe_split; auto.
    2:{ assert (0 < prodN (rev l)); [|nia]. clear - HS4. apply Forall_rev in HS4. induction HS4 as [|a l' H HF IH]; cbn [prodN]; [lia|]. nia. }
    assert (NE : l ++ [x] <> []) by (destruct l; discriminate).
    destruct (N.eqb_spec c 1) as [->|H1].
    + rewrite andb_false_r. cbn [orb]. split; [auto|]. intros [(_ & [H|[H _]])|[H|(_ & [H|H])]]; first [exact H|congruence].
    + rewrite orb_true_iff, !andb_true_iff, !negb_true_iff, !N.eqb_neq, N.ltb_lt, ST. split.
      * intros [[[H2 _] H3]|[H|H]]; auto 6.
      * intros [(H2 & [H|[_ H]])|[H|(H & _)]]; [congruence|auto|auto|auto].
Qed.

(** One index [i] of the first dimension and everything inside it - a time step, a level - with
    chunks as in [C75_full] in the dimensions inside the first: the read is right if and only if
    - chunks are shorter than [d] and (unless [inner] is empty) neither they nor the last one is
      one thick, or
    - each dimension between the first and [d] has one index or chunks one thick, and the chunks
      that hold index [i] hold no other index of the first dimension, or
    - each dimension between the first and [d] has one index, and [inner] is empty or chunks are
      not one thick in [d]. *)
Theorem C75_layer m ds e s0 c0 i outer couter d c inner :
  full_dataset ds -> d_shape ds = s0 :: outer ++ d :: inner -> d_chunk_shape ds = c0 :: couter ++ c :: inner ->
  length couter = length outer -> Forall (fun s => 0 < s) (d_shape ds) -> i < s0 ->
  c <> d -> (inner = [] \/ 1 < last inner 0) ->
  let idx := i :: map (fun _ => 0) (outer ++ d :: inner) in let cnt := 1 :: outer ++ d :: inner in
  get_start_count e (d_shape ds) = Ok (idx, cnt) ->
  (m = Release -> 2 * prodN cnt + 3 * prodN (d_chunk_shape ds) < W64) ->
  (reads_right m ds e idx cnt <->
   (c < d /\ (inner = [] \/ (c <> 1 /\ d mod c <> 1))) \/
   (Forall2 (fun s c => s = 1 \/ c = 1) outer couter /\ (c0 = 1 \/ (i mod c0 = 0 /\ i + 1 = s0))) \/
   (Forall (eq 1) outer /\ (inner = [] \/ c <> 1))).
Proof.
  intros Hfd Es Ec HL HS Hi Hcd HN idx cnt He Hsz.
  pose proof (wm_pos _ (fd_made _ Hfd)) as HP.
  assert (Hsel : sel_in (d_shape ds) idx cnt).
  { rewrite Es in *. inversion HS as [|? ? HS0 HS1]; subst. subst idx cnt. split; [cbn [length]; now rewrite map_length|]. split; [reflexivity|].
    split; [constructor; [lia|exact HS1]|].
    intros [|j] a b x; cbn [nth_error]; [intros [= <-] [= <-] [= <-]; lia|].
    intros H1 H2 H3. rewrite nth_error_map, H3 in H1. cbn [option_map] in H1. injection H1 as <-.
    rewrite H2 in H3. injection H3 as <-. lia. }
  transitivity (sel_safe (d_shape ds) (d_chunk_shape ds) idx cnt = true).
  2:{ rewrite Es, Ec in *. inversion HS; subst. inversion HP; subst. now apply layer_safe. }
  split; [|now apply safe_right].
  intros (segs & H & H3 & _). specialize (H _ (Nat.lt_succ_diag_r _)).
  destruct m.
  { exact (reads_right_safe ds e _ _ segs _ Hfd He Hsel H H3). }
  refine (reads_right_safe_rel ds e _ _ segs _ Hfd He Hsel (Hsz eq_refl) _ H H3).
  rewrite Ec. subst cnt. unfold single_end. destruct HN as [-> |HN].
  - cbn [rev]. rewrite !rev_app_distr. cbn [rev app]. destruct (rev outer ++ [1]); [reflexivity|].
    destruct (N.eqb_spec c 1) as [->|]; [|reflexivity]. destruct (N.eqb_spec d 1); [congruence|reflexivity].
  - assert (HI : inner <> []) by (intros ->; cbn in HN; lia).
    destruct (exists_last HI) as (l & x & ->). rewrite last_last in HN.
    cbn [rev]. rewrite !app_comm_cons, !app_assoc, !rev_app_distr. cbn [rev app].
    destruct (((rev l ++ [d]) ++ rev outer) ++ [1]); [reflexivity|]. destruct (N.eqb_spec x 1); [lia|reflexivity].
Qed.
Print Assumptions C75_layer.

(** Cases: the one step of [deep_ds] and step 0 of [deep_bad] are read rightly; a step of
    2 x 3 x 5 in 2 x 2 x 5 chunks is not. *)
Definition deep_step : dataset :=
  mkDataset (Int 4) 4 LE
    [mkChunk 1000 80 [0;0;0;0]; mkChunk 2000 80 [0;0;2;0]]
    [1;2;3;5] [1;2;2;5] [1;2;2;5] [2;2;1;1] [30;15;5;1] [20;10;5;1] false None.
Lemma deep_step_full : full_dataset deep_step.
Proof.
  constructor; [constructor|..]; try reflexivity.
  - repeat constructor.
  - repeat split; repeat constructor.
Qed.
Example C75_layer_case m :
  let e := Extents [Index 0; Slice 0; Slice 0; Slice 0] in
  reads_right m deep_ds e [0;0;0;0] [1;4;3;5] /\ reads_right m deep_bad e [0;0;0;0] [1;1;3;5] /\
  ~ reads_right m deep_step e [0;0;0;0] [1;2;3;5].
Proof.
  intros e. split; [|split].
  - apply (proj2 (C75_layer m deep_ds e 1 1 0 [] [] 4 2 [3;5] deep_full eq_refl eq_refl eq_refl ltac:(repeat constructor) eq_refl
      ltac:(discriminate) (or_intror eq_refl) eq_refl ltac:(reflexivity))). right. left. repeat constructor.
  - apply (proj2 (C75_layer m deep_bad e 2 2 0 [1] [1] 3 2 [5] deep_bad_full eq_refl eq_refl eq_refl ltac:(repeat constructor) eq_refl
      ltac:(discriminate) (or_intror eq_refl) eq_refl ltac:(reflexivity))). right. right. split; [repeat constructor|]. right. discriminate.
  - intros H. apply (proj1 (C75_layer m deep_step e 1 1 0 [2] [2] 3 2 [5] deep_step_full eq_refl eq_refl eq_refl ltac:(repeat constructor) eq_refl
      ltac:(discriminate) (or_intror eq_refl) eq_refl ltac:(reflexivity))) in H.
    destruct H as [(_ & [H|[_ H]])|[(H & _)|(H & _)]]; [discriminate|now apply H| |].
    + inversion H as [|? ? ? ? [E|E] _]; discriminate.
    + inversion H as [|? ? E _]; discriminate.
Qed.

(** ** What the readers return *)
From Verif Require Import Filters SpecFilter Reader SpecReader DirectProofs ParProofs ReaderProps ExactReads Properties4 Properties10 Properties23.

Lemma full_end outer couter d c inner : c <> d -> (inner = [] \/ 1 < last inner 0) ->
  single_end (couter ++ c :: inner) (outer ++ d :: inner) = false.
Proof.
  intros Hcd HN. unfold single_end. destruct HN as [-> |HN].
  - rewrite !rev_app_distr. cbn [rev app]. destruct (rev outer); [reflexivity|].
    destruct (N.eqb_spec c 1) as [->|]; [|reflexivity]. destruct (N.eqb_spec d 1); [congruence|reflexivity].
  - assert (HI : inner <> []) by (intros ->; cbn in HN; lia).
    destruct (exists_last HI) as (l & x & ->). rewrite last_last in HN.
    rewrite !app_comm_cons, !app_assoc, !rev_app_distr. cbn [rev app].
    destruct ((rev l ++ [d]) ++ rev outer); [reflexivity|]. destruct (N.eqb_spec x 1); [lia|reflexivity].
Qed.

(** An unfiltered dataset, chunks as in [C75_full], read in full into a buffer of its size: each of
    the three readers returns the stored elements in row-major order, whatever the file holds,
    the reader has read before and the schedule is, if and only if the condition holds. *)
Theorem C75_readers m inflate sort ds outer couter d c inner dst fuel :
  addr_sort sort -> full_dataset ds -> regular ds -> d_gzip ds = None -> d_shuffle ds = false -> disjoint_chunks ds ->
  d_shape ds = outer ++ d :: inner -> d_chunk_shape ds = couter ++ c :: inner ->
  length couter = length outer -> Forall (fun s => 0 < s) (d_shape ds) ->
  c <> d -> (inner = [] \/ 1 < last inner 0) ->
  lenN dst = prodN (d_shape ds) * d_dsize ds -> lenN dst < W64 -> (N.to_nat (prodN (d_shape ds)) < fuel)%nat ->
  (m = Release -> (2 * prodN (d_shape ds) + 3 * prodN (d_chunk_shape ds)) * d_dsize ds < W64) ->
  let right value x out := x = Ok (lenN dst) /\ out = concat (map value (slab (map (fun _ => 0) (d_shape ds)) (d_shape ds))) in
  let cond := Forall2 (fun s c => s = 1 \/ c = 1) outer couter \/
              (c < d /\ (inner = [] \/ (c <> 1 /\ d mod c <> 1))) in
  ((forall file value r x out, stores inflate file ds value -> reachable m inflate ds file r ->
      fst (cache_read m inflate fuel r All dst) = (x, out) -> right value x out) <-> cond) /\
  ((forall file value rd x out, stores inflate file ds value -> direct_new m ds (Some file) = Ok rd ->
      direct_read m inflate sort fuel rd All dst = (x, out) -> right value x out) <-> cond) /\
  ((forall file value rd x out, stores inflate file ds value -> direct_new m ds (Some file) = Ok rd ->
      par_read m inflate sort fuel rd All dst x out -> right value x out) <-> cond).
Proof.
  intros HSort Hfd Hreg G1 G2 HDj Es Ec HL HS Hcd HN Hlen HW Hfu Hsz right cond.
  pose proof (wm_pos _ (fd_made _ Hfd)) as HP.
  assert (PC : plain_case ds All (map (fun _ => 0) (d_shape ds)) (d_shape ds) dst fuel).
  { constructor; auto.
    - apply get_start_count_all.
    - split; [apply map_length|]. split; [reflexivity|]. split; [exact HS|].
      intros j a b x H1 H2 H3. rewrite nth_error_map, H3 in H1. cbn [option_map] in H1. injection H1 as <-.
      rewrite H2 in H3. injection H3 as <-. lia.
    - rewrite Hlen. lia. }
  assert (HM : measured m ds (d_shape ds) dst).
  { intros E. split; [exact Hlen|]. split; [exact (Hsz E)|]. rewrite Es, Ec. now apply full_end. }
  assert (HC : sel_safe (d_shape ds) (d_chunk_shape ds) (map (fun _ => 0) (d_shape ds)) (d_shape ds) = true <-> cond).
  { rewrite Es, Ec. rewrite Es in HS. rewrite Ec in HP. now apply full_safe. }
  assert (HE : forall value, concat (map value (slab (map (fun _ => 0) (d_shape ds)) (d_shape ds))) ++ skipn (N.to_nat (prodN (d_shape ds) * d_dsize ds)) dst
     = concat (map value (slab (map (fun _ => 0) (d_shape ds)) (d_shape ds)))).
  { intros value. rewrite <- Hlen. unfold lenN. rewrite Nat2N.id, skipn_all. apply app_nil_r. }
  unfold right. split; [|split].
  - rewrite <- HC, <- (C21_exact_modes m inflate ds All _ _ dst fuel PC HM). split; intros H.
    + intros file value r HV HR. rewrite HE, <- Hlen. destruct (fst (cache_read m inflate fuel r All dst)) as [x out] eqn:E.
      destruct (H file value r x out HV HR E) as [-> ->]. reflexivity.
    + intros file value r x out HV HR E. rewrite (H file value r HV HR), HE, <- Hlen in E. now injection E as <- <-.
  - rewrite <- HC, <- (C24_exact_modes m inflate sort ds All _ _ dst fuel HSort PC HM). split; intros H.
    + intros file value r HV HR. rewrite HE, <- Hlen. destruct (direct_read m inflate sort fuel r All dst) as [x out] eqn:E.
      destruct (H file value r x out HV HR E) as [-> ->]. reflexivity.
    + intros file value r x out HV HR E. rewrite (H file value r HV HR), HE, <- Hlen in E. now injection E as <- <-.
  - rewrite <- HC, <- (C25_exact_modes m inflate sort ds All _ _ dst fuel HSort PC HM). split; intros H.
    + intros file value r x out HV HR E. rewrite HE, <- Hlen. exact (H file value r x out HV HR E).
    + intros file value r x out HV HR E. rewrite <- (HE value), Hlen. exact (H file value r x out HV HR E).
Qed.
Print Assumptions C75_readers.

(** The hypotheses are met, on both sides. *)
Lemma deep_regular : regular deep_ds /\ regular deep_bad.
Proof.
  split; (constructor; [constructor; [reflexivity|reflexivity|discriminate|reflexivity]|..]).
  all: try (intros c c'; cbn [deep_ds deep_bad d_chunks In]; intros [<-|[<-|[]]] [<-|[<-|[]]]; reflexivity).
  all: try (intros _ c; cbn [deep_ds deep_bad d_chunks In]; intros [<-|[<-|[]]]; reflexivity).
Qed.
Lemma deep_disjoint : disjoint_chunks deep_ds /\ disjoint_chunks deep_bad.
Proof.
  split; intros c c'; cbn [deep_ds deep_bad d_chunks In]; intros [<-|[<-|[]]] [<-|[<-|[]]] H; cbn [c_addr c_size]; first [congruence|lia].
Qed.
Example C75_readers_case m inflate sort : addr_sort sort ->
  (forall file value r, stores inflate file deep_ds value -> reachable m inflate deep_ds file r ->
     fst (cache_read m inflate 61 r All (repeat 7 240)) = (Ok 240, concat (map value (slab [0;0;0;0] [1;4;3;5])))) /\
  ~ (forall file value r x out, stores inflate file deep_bad value -> reachable m inflate deep_bad file r ->
       fst (cache_read m inflate 31 r All (repeat 7 120)) = (x, out) ->
       x = Ok 120 /\ out = concat (map value (slab [0;0;0;0] [2;1;3;5]))).
Proof.
  intros HSort. split.
  - destruct (C75_readers m inflate sort deep_ds [1] [1] 4 2 [3;5] (repeat 7 240) 61 HSort deep_full (proj1 deep_regular) eq_refl eq_refl (proj1 deep_disjoint)
      eq_refl eq_refl eq_refl ltac:(repeat constructor) ltac:(discriminate) (or_intror eq_refl) eq_refl eq_refl ltac:(cbn; lia) ltac:(reflexivity)) as [[_ H] _].
    intros file value r HV HR. destruct (fst (cache_read m inflate 61 r All (repeat 7 240))) as [x out] eqn:E.
    edestruct H as [E1 E2]; [left; repeat constructor|exact HV|exact HR|exact E|]. rewrite E1, E2. reflexivity.
  - intros H.
    destruct (C75_readers m inflate sort deep_bad [2;1] [2;1] 3 2 [5] (repeat 7 120) 31 HSort deep_bad_full (proj2 deep_regular) eq_refl eq_refl (proj2 deep_disjoint)
      eq_refl eq_refl eq_refl ltac:(repeat constructor) ltac:(discriminate) (or_intror eq_refl) eq_refl eq_refl ltac:(cbn; lia) ltac:(reflexivity)) as [[K _] _].
    specialize (K H). destruct K as [K|(_ & [K|[_ K]])]; [|discriminate|now apply K].
    inversion K as [|? ? ? ? [E|E] _]; discriminate.
Qed.
