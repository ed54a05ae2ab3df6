(** * Byte writes: positions and bytes, applied one by one, in any order. *)
From Verif Require Import Base Spec.
From Verif Require Import FilterProofs.

Fixpoint apply_writes (ws : list (N * N)) (dst : bytes) : bytes :=
  match ws with [] => dst | (p, b) :: ws' => apply_writes ws' (splice dst p [b]) end.

Definition in_bounds (n : N) (ws : list (N * N)) : Prop := Forall (fun pb => fst pb < n) ws.

Lemma splice_nth {A} (l : list A) p src i : p + lenN src <= lenN l ->
  nth_error (splice l p src) i =
  if ((N.to_nat p <=? i) && (i <? N.to_nat p + length src))%nat
  then nth_error src (i - N.to_nat p) else nth_error l i.
Proof.
  unfold lenN, splice. intros H.
  assert (L : length (firstn (N.to_nat p) l) = N.to_nat p) by (rewrite firstn_length; lia).
  destruct (Nat.leb_spec (N.to_nat p) i); cbn [andb].
  - rewrite nth_error_app2 by lia. rewrite L.
    destruct (Nat.ltb_spec i (N.to_nat p + length src)).
    + now rewrite nth_error_app1 by lia.
    + rewrite nth_error_app2 by lia.
      rewrite <- (firstn_skipn (N.to_nat p + length src) l) at 2.
      rewrite nth_error_app2 by (rewrite firstn_length; lia).
      f_equal. rewrite firstn_length. lia.
  - rewrite nth_error_app1 by lia. rewrite <- (firstn_skipn (N.to_nat p) l) at 2.
    now rewrite nth_error_app1 by lia.
Qed.

Lemma apply_length ws : forall dst, in_bounds (lenN dst) ws -> length (apply_writes ws dst) = length dst.
Proof.
  induction ws as [|[p b] ws IH]; intros dst H; cbn [apply_writes]; auto.
  inversion H as [|? ? H1 H2]; subst. cbn [fst] in H1.
  assert (E : length (splice dst p [b]) = length dst) by (apply splice_length; unfold lenN in *; cbn [length]; lia).
  rewrite IH; auto. unfold lenN. now rewrite E.
Qed.

Lemma apply_app w1 w2 : forall dst, apply_writes (w1 ++ w2) dst = apply_writes w2 (apply_writes w1 dst).
Proof. induction w1 as [|[p b] w1 IH]; intros dst; cbn [app apply_writes]; auto. Qed.

Lemma apply_nth ws : forall dst i, in_bounds (lenN dst) ws -> NoDup (map fst ws) ->
  (forall b, In (N.of_nat i, b) ws -> nth_error (apply_writes ws dst) i = Some b) /\
  (~ In (N.of_nat i) (map fst ws) -> nth_error (apply_writes ws dst) i = nth_error dst i).
Proof.
  induction ws as [|[p b] ws IH]; intros dst i H ND; cbn [apply_writes map fst].
  - split; [easy|auto].
  - inversion H as [|? ? H1 H2]; subst. inversion ND as [|? ? N1 N2]; subst. cbn [fst] in H1.
    assert (B : p + lenN [b] <= lenN dst) by (unfold lenN in *; cbn [length]; lia).
    assert (EL : length (splice dst p [b]) = length dst) by now apply splice_length.
    assert (EN : lenN (splice dst p [b]) = lenN dst) by (unfold lenN; now rewrite EL).
    assert (H2' : in_bounds (lenN (splice dst p [b])) ws) by now rewrite EN.
    destruct (IH (splice dst p [b]) i H2' N2) as [A C]. split.
    + intros b' [E|Hin]; [|now apply A]. injection E as -> ->.
      rewrite C by auto. rewrite splice_nth by auto. rewrite Nat2N.id. cbn [length].
      rewrite Nat.leb_refl. destruct (Nat.ltb_spec i (i + 1)); [|lia]. cbn [andb].
      now rewrite Nat.sub_diag.
    + intros Hn. cbn [In] in Hn. rewrite C by tauto. rewrite splice_nth by auto. cbn [length].
      destruct (Nat.leb_spec (N.to_nat p) i); cbn [andb]; auto.
      destruct (Nat.ltb_spec i (N.to_nat p + 1)); auto.
      exfalso. apply Hn. left. lia.
Qed.

Lemma nth_error_ext {A} (a : list A) : forall b, (forall i, nth_error a i = nth_error b i) -> a = b.
Proof.
  induction a as [|x a IH]; intros [|y b] H; auto; try (specialize (H 0%nat); discriminate).
  pose proof (H 0%nat) as H0. cbn in H0. injection H0 as ->. f_equal. apply IH. intros i. exact (H (S i)).
Qed.

(** The order of writes to distinct positions does not matter. *)
Lemma apply_perm w1 w2 dst : Permutation w1 w2 -> NoDup (map fst w1) -> in_bounds (lenN dst) w1 ->
  apply_writes w1 dst = apply_writes w2 dst.
Proof.
  intros P ND B.
  assert (ND2 : NoDup (map fst w2)) by (eapply Permutation_NoDup; [apply Permutation_map, P|auto]).
  assert (B2 : in_bounds (lenN dst) w2) by (unfold in_bounds in *; now rewrite <- P).
  apply nth_error_ext. intros i.
  destruct (apply_nth w1 dst i B ND) as [A1 C1]. destruct (apply_nth w2 dst i B2 ND2) as [A2 C2].
  destruct (in_dec N.eq_dec (N.of_nat i) (map fst w1)) as [Hin|Hn].
  - apply in_map_iff in Hin as ([p b] & E & Hin). cbn [fst] in E. subst p.
    rewrite (A1 b) by auto. rewrite (A2 b); auto. now rewrite <- P.
  - rewrite C1 by auto. rewrite C2; auto. now rewrite <- P.
Qed.

(** Consecutive writes are one copy. *)
Lemma splice_nil {A} (l : list A) p : splice l p [] = l.
Proof. unfold splice. cbn [length app]. rewrite Nat.add_0_r. apply firstn_skipn. Qed.

Lemma apply_combine src : forall p dst, p + lenN src <= lenN dst ->
  apply_writes (combine (seqN p (length src)) src) dst = splice dst p src.
Proof.
  induction src as [|b src IH]; intros p dst H; cbn [length seqN combine apply_writes].
  - now rewrite splice_nil.
  - rewrite lenN_cons in H.
    assert (B : p + lenN [b] <= lenN dst) by (unfold lenN in *; cbn [length]; lia).
    assert (EN : lenN (splice dst p [b]) = lenN dst) by (unfold lenN; now rewrite splice_length).
    rewrite IH by lia. apply nth_error_ext. intros i.
    rewrite !splice_nth; rewrite ?EN, ?lenN_cons; auto; try lia. cbn [length].
    repeat match goal with
    | |- context [(?a <=? ?b)%nat] => destruct (Nat.leb_spec a b)
    | |- context [(?a <? ?b)%nat] => destruct (Nat.ltb_spec a b) end; cbn [andb]; try lia; auto.
    + replace (i - N.to_nat p)%nat with (S (i - N.to_nat (p + 1))) by lia. reflexivity.
    + replace (i - N.to_nat p)%nat with 0%nat by lia. reflexivity.
Qed.

Lemma combine_app {A B} (a : list A) : forall (b : list B) c d, length a = length b ->
  combine (a ++ c) (b ++ d) = combine a b ++ combine c d.
Proof.
  induction a as [|x a IH]; intros [|y b] c d H; cbn [length] in H; try discriminate; auto.
  cbn [app combine]. f_equal. apply IH. lia.
Qed.
Lemma map_fst_combine {A B} (a : list A) : forall b : list B, length a = length b -> map fst (combine a b) = a.
Proof.
  induction a as [|x a IH]; intros [|y b] H; cbn [length] in H; try discriminate; auto.
  cbn [combine map fst]. f_equal. apply IH. lia.
Qed.

(** Two copies one after the other. *)
Lemma splice_app {A} (l : list A) p a b : p + lenN a + lenN b <= lenN l ->
  splice (splice l p a) (p + lenN a) b = splice l p (a ++ b).
Proof.
  intros H. assert (EN : lenN (splice l p a) = lenN l) by (unfold lenN; rewrite splice_length; auto; lia).
  apply nth_error_ext. intros i.
  rewrite !splice_nth; rewrite ?EN, ?lenN_app; auto; try lia.
  unfold lenN in *. rewrite app_length.
  repeat match goal with
    | |- context [(?a <=? ?b)%nat] => destruct (Nat.leb_spec a b)
    | |- context [(?a <? ?b)%nat] => destruct (Nat.ltb_spec a b) end; cbn [andb]; try lia; auto.
  - rewrite nth_error_app2 by lia. f_equal. lia.
  - rewrite nth_error_app1 by lia. reflexivity.
Qed.

Lemma in_bounds_combine n p src : p + lenN src <= n -> in_bounds n (combine (seqN p (length src)) src).
Proof.
  intros H. apply Forall_forall. intros [q b] Hin. cbn [fst].
  apply in_combine_l in Hin. apply in_seqN in Hin. unfold lenN in H. lia.
Qed.
