(** * Radix: mixed-radix arithmetic used by the proofs about strides and slices. *)
From Verif Require Import Base Spec.

Lemma divmod_eq q n : n <> 0 -> q = n * (q / n) + q mod n.
Proof. apply N.div_mod. Qed.

Lemma div_unique_N q n a r : r < n -> q = n * a + r -> q / n = a.
Proof. intros H E. symmetry. now apply (N.div_unique q n a r). Qed.
Lemma mod_unique_N q n a r : r < n -> q = n * a + r -> q mod n = r.
Proof. intros H E. symmetry. now apply (N.mod_unique q n a r). Qed.

Lemma div_add_small x c k :
  x mod c + k < c -> (x + k) / c = x / c /\ (x + k) mod c = x mod c + k.
Proof.
  intros H. assert (Hc : c <> 0) by (intros ->; now apply N.nlt_0_r in H).
  pose proof (divmod_eq x c Hc) as E. split.
  - apply (div_unique_N _ c (x / c) (x mod c + k)); lia.
  - apply (mod_unique_N _ c (x / c) (x mod c + k)); lia.
Qed.

Lemma div_carry q n k : n <> 0 -> (q + k) / n = q / n + (q mod n + k) / n.
Proof.
  intros Hn. pose proof (divmod_eq q n Hn) as E.
  replace (q + k) with ((q / n) * n + (q mod n + k)) by lia.
  now rewrite N.div_add_l.
Qed.
Lemma mod_carry q n k : n <> 0 -> (q + k) mod n = (q mod n + k) mod n.
Proof. intros Hn. now rewrite N.add_mod_idemp_l. Qed.

(** Little-endian mixed-radix digits. *)
Fixpoint dig (ns : list N) (q : N) : list N :=
  match ns with
  | [] => []
  | n :: ns' => q mod n :: dig ns' (q / n)
  end.

Lemma dig_length ns q : length (dig ns q) = length ns.
Proof. revert q; induction ns; intros; cbn [dig length]; auto. Qed.

Lemma dig_app l1 l2 q :
  Forall (fun x => 0 < x) l1 ->
  dig (l1 ++ l2) q = dig l1 q ++ dig l2 (q / prodN l1).
Proof.
  intros HF; revert q; induction HF as [|n l1 Hn HF IH]; intros q; cbn [app dig prodN].
  - now rewrite N.div_1_r.
  - f_equal. rewrite IH. f_equal. f_equal.
    pose proof (prodN_pos _ HF). rewrite N.div_div by lia. reflexivity.
Qed.

(** The coordinate at row-major position [p] of a slab. *)
Definition slab_coord (idx cnt : list N) (p : N) : list N :=
  map2 N.add idx (rev (dig (rev cnt) p)).

Lemma dig_zero ns : dig ns 0 = map (fun _ => 0) ns.
Proof.
  induction ns as [|n ns IH]; cbn [dig map]; auto.
  destruct (N.eq_dec n 0) as [->|Hn].
  - cbn [N.modulo N.div_eucl]. f_equal. exact IH.
  - rewrite N.mod_0_l, N.div_0_l by auto. now f_equal.
Qed.

Lemma rev_dig_cons n cnt p :
  0 < n -> Forall (fun x => 0 < x) cnt -> p < n * prodN cnt ->
  rev (dig (rev (n :: cnt)) p) = p / prodN cnt :: rev (dig (rev cnt) (p mod prodN cnt)).
Proof.
  intros Hn HF Hp. cbn [rev].
  assert (HFr : Forall (fun x => 0 < x) (rev cnt)) by now apply Forall_rev.
  rewrite dig_app by auto. rewrite rev_app_distr. cbn [dig rev app].
  pose proof (prodN_pos _ HF) as HP. rewrite prodN_rev.
  rewrite N.mod_small.
  2:{ apply N.div_lt_upper_bound; lia. }
  f_equal. f_equal.
  (* low digits only depend on p mod prod *)
  rewrite <- (prodN_rev cnt).
  clear Hp Hn HF. assert (HP' : 0 < prodN (rev cnt)) by (rewrite prodN_rev; auto).
  revert HFr HP'. generalize (rev cnt) as l. clear. intros l HF _. revert p.
  induction HF as [|x l Hx HF IH]; intros p; cbn [dig]; auto.
  pose proof (prodN_pos _ HF) as HP. cbn [prodN].
  pose proof (divmod_eq p (x * prodN l) ltac:(nia)) as E.
  assert (M : p mod (x * prodN l) < x * prodN l) by (apply N.mod_lt; nia).
  set (r := p mod (x * prodN l)) in *. set (a := p / (x * prodN l)) in *.
  pose proof (divmod_eq r x ltac:(lia)) as E2.
  assert (M2 : r mod x < x) by (apply N.mod_lt; lia).
  f_equal.
  - apply (mod_unique_N p x (prodN l * a + r / x)); nia.
  - rewrite (IH (p / x)).
    f_equal. rewrite (div_unique_N p x (prodN l * a + r / x) (r mod x)) by nia.
    rewrite <- (N.add_comm (r / x)). rewrite N.mul_comm, N.mod_add by lia.
    apply N.mod_small. apply N.div_lt_upper_bound; lia.
Qed.

Lemma map_seqN_split {A} (f : N -> A) a n k :
  map f (seqN a (n + k)) = map f (seqN a n) ++ map f (seqN (a + N.of_nat n) k).
Proof. now rewrite seqN_app, map_app. Qed.

Lemma map_seqN_ext {A} (f g : N -> A) a n :
  (forall x, a <= x < a + N.of_nat n -> f x = g x) -> map f (seqN a n) = map g (seqN a n).
Proof.
  intros H. apply map_ext_in. intros x Hx. apply H. now apply in_seqN.
Qed.

(** The slab is the list of [slab_coord] for positions 0, 1, .... *)
Lemma slab_seq idx cnt :
  length idx = length cnt -> Forall (fun x => 0 < x) cnt ->
  slab idx cnt = map (slab_coord idx cnt) (seqN 0 (N.to_nat (prodN cnt))).
Proof.
  revert cnt; induction idx as [|i idx IH]; intros [|n cnt] HL HF; cbn [length] in HL; try discriminate.
  - reflexivity.
  - injection HL as HL. inversion HF as [|? ? Hn HF']; subst.
    pose proof (prodN_pos _ HF') as HP.
    cbn [slab prodN].
    assert (G : forall k a, a + N.of_nat k <= n ->
      flat_map (fun x => map (cons x) (slab idx cnt)) (seqN (i + a) k)
      = map (slab_coord (i :: idx) (n :: cnt))
          (seqN (a * prodN cnt) (k * N.to_nat (prodN cnt)))).
    { induction k as [|k IHk]; intros a Ha; cbn [seqN flat_map Nat.mul]; [reflexivity|].
      rewrite map_seqN_split. f_equal.
      - rewrite (IH cnt HL HF'), map_map.
        rewrite <- (N.add_0_r (a * prodN cnt)). rewrite (seqN_map (a * prodN cnt) 0), map_map.
        apply map_seqN_ext. intros x Hx. unfold slab_coord.
        rewrite rev_dig_cons; auto; [|nia].
        cbn [map2]. f_equal.
        + rewrite (div_unique_N _ (prodN cnt) a x); lia.
        + rewrite (mod_unique_N _ (prodN cnt) a x); auto; lia.
      - replace (i + a + 1) with (i + (a + 1)) by lia. rewrite IHk by lia.
        f_equal. f_equal. lia. }
    specialize (G (N.to_nat n) 0 ltac:(lia)).
    rewrite N.add_0_r in G. rewrite G. cbn [N.mul]. f_equal. f_equal. lia.
Qed.

(** Row-major positions in little-endian (Horner) form. *)
Fixpoint lpos (ds xs : list N) : N :=
  match ds, xs with
  | d :: ds', x :: xs' => x + d * lpos ds' xs'
  | _, _ => 0
  end.

Lemma lpos_app d1 x1 d2 x2 :
  length d1 = length x1 -> lpos (d1 ++ d2) (x1 ++ x2) = lpos d1 x1 + prodN d1 * lpos d2 x2.
Proof.
  revert x1; induction d1 as [|d d1 IH]; intros [|x x1] H; cbn [length] in H; try discriminate.
  - cbn [app lpos prodN]. lia.
  - cbn [app lpos prodN]. rewrite IH by lia. lia.
Qed.

Lemma row_major_lpos ds xs :
  length ds = length xs -> row_major ds xs = lpos (rev ds) (rev xs).
Proof.
  revert xs; induction ds as [|d ds IH]; intros [|x xs] H; cbn [length] in H; try discriminate; auto.
  cbn [row_major rev]. rewrite lpos_app by (rewrite !rev_length; lia).
  rewrite IH by lia. rewrite prodN_rev. cbn [lpos]. lia.
Qed.

Lemma map2_app {A B C} (f : A -> B -> C) a1 b1 a2 b2 :
  length a1 = length b1 -> map2 f (a1 ++ a2) (b1 ++ b2) = map2 f a1 b1 ++ map2 f a2 b2.
Proof.
  revert b1; induction a1 as [|a a1 IH]; intros [|b b1] H; cbn [length] in H; try discriminate; auto.
  cbn [app map2]. f_equal. apply IH. lia.
Qed.
Lemma map2_rev {A B C} (f : A -> B -> C) a b :
  length a = length b -> map2 f (rev a) (rev b) = rev (map2 f a b).
Proof.
  revert b; induction a as [|x a IH]; intros [|y b] H; cbn [length] in H; try discriminate; auto.
  cbn [rev map2]. rewrite map2_app by (rewrite !rev_length; lia).
  rewrite IH by lia. reflexivity.
Qed.

Lemma row_major_lt ds xs :
  Forall2 N.lt xs ds -> row_major ds xs < prodN ds.
Proof.
  induction 1 as [|x d xs ds Hx HF IH]; cbn [row_major prodN]; [lia|]. nia.
Qed.

(** Position [row_major] in a zero-based slab. *)
Lemma slab_nth dims coord :
  Forall2 N.lt coord dims ->
  nth_error (slab (map (fun _ => 0) dims) dims) (N.to_nat (row_major dims coord)) = Some coord.
Proof.
  induction 1 as [|x d xs ds Hx HF IH]; cbn [map slab row_major]; [reflexivity|].
  pose proof (row_major_lt _ _ HF) as HR.
  assert (HLs : lenN (slab (map (fun _ => 0) ds) ds) = prodN ds)
    by (apply slab_length; now rewrite map_length).
  assert (G : forall k a y, (N.to_nat y < k)%nat ->
    nth_error (flat_map (fun x => map (cons x) (slab (map (fun _ => 0) ds) ds)) (seqN a k))
       (N.to_nat (y * prodN ds + row_major ds xs)) = Some ((a + y) :: xs)).
  { induction k as [|k IHk]; intros a y Hy; [lia|]. cbn [seqN flat_map].
    assert (HLm : length (map (cons a) (slab (map (fun _ => 0) ds) ds)) = N.to_nat (prodN ds)).
    { rewrite map_length. unfold lenN in HLs. lia. }
    destruct (N.eq_dec y 0) as [->|Hy0].
    - rewrite nth_error_app1 by (rewrite HLm; lia).
      rewrite nth_error_map. cbn [N.mul N.add]. rewrite IH. cbn [option_map].
      now rewrite N.add_0_r.
    - rewrite nth_error_app2 by (rewrite HLm; nia).
      rewrite HLm.
      replace (N.to_nat (y * prodN ds + row_major ds xs) - N.to_nat (prodN ds))%nat
        with (N.to_nat ((y - 1) * prodN ds + row_major ds xs)).
      2:{ rewrite N.mul_sub_distr_r. assert (prodN ds <= y * prodN ds) by nia. lia. }
      rewrite IHk by lia. do 2 f_equal. lia. }
  specialize (G (N.to_nat d) 0 x ltac:(lia)). rewrite N.add_0_l in G. exact G.
Qed.
