(** * Proofs about the filters. *)
From Verif Require Import Base Spec Dataset Filters SpecFilter.

(** ** Copy loops *)

Definition upd (l : bytes) (i : nat) (b : N) : bytes := firstn i l ++ b :: skipn (S i) l.

Lemma upd_length l i b : (i < length l)%nat -> length (upd l i b) = length l.
Proof.
  intros H. unfold upd. rewrite app_length. cbn [length].
  rewrite firstn_length, skipn_length. lia.
Qed.
Lemma upd_nth l i b p d : (i < length l)%nat ->
  nth p (upd l i b) d = if (p =? i)%nat then b else nth p l d.
Proof.
  intros H. unfold upd.
  destruct (Nat.eqb_spec p i) as [->|Hp].
  - rewrite app_nth2; rewrite firstn_length; [|lia].
    replace (i - Nat.min i (length l))%nat with 0%nat by lia. reflexivity.
  - assert (E : l = firstn i l ++ nth i l d :: skipn (S i) l).
    { rewrite <- (firstn_skipn i l) at 1. f_equal.
      clear Hp. revert i H; induction l as [|x l IH]; intros [|i] H; cbn [length] in *; try lia; auto.
      cbn [skipn nth]. rewrite IH by lia. reflexivity. }
    transitivity (nth p (firstn i l ++ nth i l d :: skipn (S i) l) d); [|now rewrite <- E].
    destruct (Nat.lt_ge_cases p i).
    + rewrite !app_nth1 by (rewrite firstn_length; lia). reflexivity.
    + rewrite !app_nth2 by (rewrite firstn_length; lia).
      rewrite firstn_length. destruct (p - Nat.min i (length l))%nat eqn:Ep; [lia|]. reflexivity.
Qed.

Lemma copy_pairs_ok src pairs : forall dest,
  Forall (fun '(d, s) => (d < length dest)%nat /\ (s < length src)%nat) pairs ->
  exists r, copy_pairs pairs src dest = Ok r /\ length r = length dest /\
    (NoDup (map fst pairs) ->
     (forall d s, In (d, s) pairs -> nth d r 0 = nth s src 0) /\
     (forall p, ~ In p (map fst pairs) -> nth p r 0 = nth p dest 0)).
Proof.
  induction pairs as [|[d s] pairs IH]; intros dest HF; cbn [copy_pairs].
  - exists dest. split; auto. split; auto. intros _. split; [intros d s []|auto].
  - pose proof (Forall_inv HF) as Hds. pose proof (Forall_inv_tail HF) as HF'.
    cbv beta iota in Hds. destruct Hds as [Hd Hs].
    unfold get_unchecked. rewrite (nth_error_nth' src 0 Hs). cbn [bind].
    unfold put_unchecked. rewrite (proj2 (Nat.ltb_lt _ _) Hd). cbn [bind].
    fold (upd dest d (nth s src 0)).
    destruct (IH (upd dest d (nth s src 0))) as (r & E & HL & HN).
    { rewrite upd_length by auto. exact HF'. }
    exists r. rewrite upd_length in HL by auto. split; auto. split; auto.
    cbn [map fst]. intros HND. inversion HND as [|? ? Hni HND']; subst.
    destruct (HN HND') as [H1 H2]. split.
    + intros d' s' [[= <- <-]|Hin]; auto.
      rewrite H2 by auto. rewrite upd_nth, Nat.eqb_refl by auto. reflexivity.
    + intros p Hp. rewrite H2 by (intros X; apply Hp; now right).
      rewrite upd_nth by auto. destruct (Nat.eqb_spec p d) as [->|]; auto.
      exfalso. apply Hp. now left.
Qed.

Lemma list_eq_nth (a b : bytes) :
  length a = length b -> (forall p, (p < length a)%nat -> nth p a 0 = nth p b 0) -> a = b.
Proof. intros H1 H2. apply (nth_ext a b 0 0 H1 H2). Qed.

(** Nested index loops enumerate pairs (i, j). *)
Lemma in_nest (f : nat -> nat -> nat * nat) a b x :
  In x (flat_map (fun i => map (f i) (seq 0 b)) (seq 0 a)) <->
  exists i j, (i < a)%nat /\ (j < b)%nat /\ x = f i j.
Proof.
  rewrite in_flat_map. split.
  - intros (i & Hi & Hx). apply in_map_iff in Hx as (j & <- & Hj).
    apply in_seq in Hi, Hj. exists i, j. repeat split; lia.
  - intros (i & j & Hi & Hj & ->). exists i. split; [apply in_seq; lia|].
    apply in_map, in_seq. lia.
Qed.

Lemma NoDup_map_inj {A B} (f : A -> B) l :
  (forall x y, In x l -> In y l -> f x = f y -> x = y) -> NoDup l -> NoDup (map f l).
Proof.
  intros H HN; induction HN as [|x l Hx HN IH]; cbn [map]; constructor.
  - intros Hin. apply in_map_iff in Hin as (y & E & Hy).
    apply Hx. rewrite (H x y); auto; [now left|now right].
  - apply IH. intros; apply H; auto; now right.
Qed.

Lemma NoDup_nest (f : nat -> nat -> nat) a b :
  (forall i j i' j', (i < a)%nat -> (j < b)%nat -> (i' < a)%nat -> (j' < b)%nat ->
     f i j = f i' j' -> i = i' /\ j = j') ->
  NoDup (flat_map (fun i => map (f i) (seq 0 b)) (seq 0 a)).
Proof.
  intros H.
  assert (G : forall is, NoDup is -> (forall i, In i is -> (i < a)%nat) ->
     NoDup (flat_map (fun i => map (f i) (seq 0 b)) is)).
  { intros is HN; induction HN as [|i is Hi HN IH]; intros Hb; cbn [flat_map]; [constructor|].
    assert (N1 : NoDup (map (f i) (seq 0 b))).
    { apply NoDup_map_inj; [|apply seq_NoDup]. intros j j' Hj Hj' E. apply in_seq in Hj, Hj'.
      apply (H i j i j'); auto; try lia; apply Hb; now left. }
    assert (N2 := IH (fun i' Hi' => Hb i' (or_intror Hi'))).
    assert (D : forall x, In x (map (f i) (seq 0 b)) ->
                 ~ In x (flat_map (fun i => map (f i) (seq 0 b)) is)).
    { intros x Hx Hx2. apply in_map_iff in Hx as (j & <- & Hj).
      apply in_flat_map in Hx2 as (i' & Hi' & Hx2). apply in_map_iff in Hx2 as (j' & E & Hj').
      apply in_seq in Hj, Hj'.
      destruct (H i' j' i j) as [-> _]; auto; try lia; apply Hb; [now right|now left]. }
    revert D N1. generalize (map (f i) (seq 0 b)) as l. induction l as [|x l IHl]; intros D N1; auto.
    cbn [app]. inversion N1; subst. constructor.
    - rewrite in_app_iff. intros [?|?]; auto. apply (D x); [now left|auto].
    - apply IHl; auto. intros y Hy. apply D. now right. }
  apply G; [apply seq_NoDup|]. intros i Hi. apply in_seq in Hi. lia.
Qed.

Lemma map_fst_nest (f g : nat -> nat -> nat) a b :
  map fst (flat_map (fun i => map (fun j => (f i j, g i j)) (seq 0 b)) (seq 0 a)) =
  flat_map (fun i => map (f i) (seq 0 b)) (seq 0 a).
Proof.
  induction (seq 0 a) as [|i is IH]; cbn [flat_map map]; auto.
  rewrite map_app, IH, map_map. reflexivity.
Qed.

Lemma mix_inj (a b : nat) i j i' j' :
  (j < b)%nat -> (j' < b)%nat -> (i * b + j = i' * b + j')%nat -> i = i' /\ j = j'.
Proof. intros. assert (i = i') by nia. subst. lia. Qed.

(** [dest[i*b+j] := src[j*a+i]] for all i < a, j < b. *)
Lemma transpose_ok a b src dest pairs :
  length src = (a * b)%nat -> length dest = (a * b)%nat ->
  (forall x, In x pairs <-> exists i j, (i < a)%nat /\ (j < b)%nat /\ x = (i * b + j, j * a + i)%nat) ->
  NoDup (map fst pairs) ->
  exists r, copy_pairs pairs src dest = Ok r /\ length r = (a * b)%nat /\
    forall i j, (i < a)%nat -> (j < b)%nat -> nth (i * b + j) r 0 = nth (j * a + i) src 0.
Proof.
  intros Hs Hd HP HN.
  destruct (copy_pairs_ok src pairs dest) as (r & E & HL & HC).
  { apply Forall_forall. intros [d s] Hin. apply HP in Hin as (i & j & Hi & Hj & [= -> ->]). nia. }
  exists r. split; auto. split; [lia|]. intros i j Hi Hj.
  destruct (HC HN) as [H1 _]. apply H1, HP. eauto.
Qed.

Lemma shuffle_ok w n src dest :
  (0 < w)%nat -> length src = (w * n)%nat -> length dest = (w * n)%nat ->
  exists r, shuffle w src dest = Ok r /\ shuffled_of w n src r.
Proof.
  intros Hw Hs Hd. unfold shuffle. rewrite Hs, Hd, Nat.eqb_refl. cbn [assert_ bind].
  replace (w * n / w)%nat with n by (rewrite Nat.mul_comm, Nat.div_mul; lia).
  destruct (transpose_ok w n src dest
    (flat_map (fun i => map (fun j => (i * n + j, j * w + i)%nat) (seq 0 n)) (seq 0 w)))
    as (r & E & HL & HN); auto.
  - intros x. apply (in_nest (fun i j => (i * n + j, j * w + i)%nat)).
  - rewrite (map_fst_nest (fun i j => (i * n + j)%nat) (fun i j => (j * w + i)%nat)).
    apply NoDup_nest. intros. apply (mix_inj w n); auto.
  - exists r. split; auto. repeat split; auto.
Qed.

(** Pairs of the inverse transposition, in either loop order. *)
Lemma unshuffle_pairs_ok w n src dest pairs :
  length src = (w * n)%nat -> length dest = (w * n)%nat ->
  (forall x, In x pairs <-> exists i j, (i < w)%nat /\ (j < n)%nat /\ x = (j * w + i, i * n + j)%nat) ->
  NoDup (map fst pairs) ->
  exists r, copy_pairs pairs src dest = Ok r /\ shuffled_of w n r src.
Proof.
  intros Hs Hd HP HN.
  destruct (transpose_ok n w src dest pairs) as (r & E & HL & H); auto; try lia.
  - intros x. rewrite HP. split.
    + intros (i & j & Hi & Hj & ->). exists j, i. auto.
    + intros (j & i & Hj & Hi & ->). exists i, j. auto.
  - exists r. split; auto. repeat split; auto; try lia.
    intros i j Hi Hj. symmetry. apply H; auto.
Qed.

Lemma unshuffle_ok w n src dest :
  (0 < w)%nat -> length src = (w * n)%nat -> length dest = (w * n)%nat ->
  exists r, unshuffle w src dest = Ok r /\ shuffled_of w n r src.
Proof.
  intros Hw Hs Hd. unfold unshuffle. rewrite Hs, Hd, Nat.eqb_refl. cbn [assert_ bind].
  replace (w * n / w)%nat with n by (rewrite Nat.mul_comm, Nat.div_mul; lia).
  apply unshuffle_pairs_ok; auto.
  - intros x. apply (in_nest (fun i j => (j * w + i, i * n + j)%nat)).
  - rewrite (map_fst_nest (fun i j => (j * w + i)%nat) (fun i j => (i * n + j)%nat)).
    apply NoDup_nest. intros i j i' j' ? ? ? ? E.
    destruct (mix_inj n w j i j' i'); auto.
Qed.

Lemma unshuffle_structured_ok w n src dest :
  (0 < w)%nat -> length src = (w * n)%nat -> length dest = (w * n)%nat ->
  exists r, unshuffle_structured w src dest = Ok r /\ shuffled_of w n r src.
Proof.
  intros Hw Hs Hd. unfold unshuffle_structured. rewrite Hs, Hd, Nat.eqb_refl. cbn [assert_ bind].
  destruct (Nat.eqb_spec w 0); [lia|]. cbn [negb assert_ bind].
  replace (w * n mod w)%nat with 0%nat by (rewrite Nat.mul_comm, Nat.mod_mul; lia).
  rewrite Nat.eqb_refl. cbn [assert_ bind]. rewrite Nat.eqb_refl. cbn [assert_ bind].
  replace (w * n / w)%nat with n by (rewrite Nat.mul_comm, Nat.div_mul; lia).
  apply unshuffle_pairs_ok; auto.
  - intros x. rewrite (in_nest (fun j i => (j * w + i, i * n + j)%nat)).
    split; intros (a & b & Ha & Hb & ->); exists b, a; auto.
  - rewrite (map_fst_nest (fun j i => (j * w + i)%nat) (fun j i => (i * n + j)%nat)).
    apply NoDup_nest. intros. apply (mix_inj n w); auto.
Qed.

(** [shuffled_of] determines each side from the other. *)
Lemma split_index n p w : (p < w * n)%nat -> exists i j, (i < w)%nat /\ (j < n)%nat /\ p = (i * n + j)%nat.
Proof.
  intros H. assert (Hn : n <> 0%nat) by nia.
  exists (p / n)%nat, (p mod n)%nat.
  pose proof (Nat.div_mod p n Hn). pose proof (Nat.mod_upper_bound p n Hn).
  split; [apply Nat.div_lt_upper_bound; lia|]. split; auto. lia.
Qed.

Lemma shuffled_of_fun w n l s s' : shuffled_of w n l s -> shuffled_of w n l s' -> s = s'.
Proof.
  intros (A1 & A2 & A3) (B1 & B2 & B3). apply list_eq_nth; [congruence|].
  intros p Hp. rewrite A2 in Hp. destruct (split_index n p w Hp) as (i & j & Hi & Hj & ->).
  rewrite A3, B3; auto.
Qed.
Lemma shuffled_of_inj w n l l' s : shuffled_of w n l s -> shuffled_of w n l' s -> l = l'.
Proof.
  intros (A1 & A2 & A3) (B1 & B2 & B3). apply list_eq_nth; [congruence|].
  intros p Hp. rewrite A1 in Hp.
  destruct (split_index w p n) as (j & i & Hj & Hi & ->); [lia|].
  rewrite <- A3, <- B3; auto.
Qed.

(** ** Words *)

Lemma words_concat w n : forall l, length l = (w * n)%nat -> concat (words w n l) = l.
Proof.
  induction n as [|n IH]; intros l H; cbn [words concat].
  - destruct l; auto. cbn [length] in H. lia.
  - rewrite IH by (rewrite skipn_length; nia). apply firstn_skipn.
Qed.
Lemma words_all w n : forall l, length l = (w * n)%nat ->
  Forall (fun v => length v = w) (words w n l).
Proof.
  induction n as [|n IH]; intros l H; cbn [words]; constructor.
  - rewrite firstn_length. nia.
  - apply IH. rewrite skipn_length. nia.
Qed.
Lemma words_length w n l : length (words w n l) = n.
Proof. revert l; induction n; intros; cbn [words length]; auto. Qed.
Lemma words_of_concat w ws :
  Forall (fun v => length v = w) ws -> words w (length ws) (concat ws) = ws.
Proof.
  induction 1 as [|v ws Hv HF IH]; cbn [length words concat]; auto.
  assert (E1 : firstn w (v ++ concat ws) = v).
  { rewrite firstn_app, Hv, Nat.sub_diag, firstn_all2 by lia. cbn [firstn]. apply app_nil_r. }
  assert (E2 : skipn w (v ++ concat ws) = concat ws).
  { rewrite skipn_app, Hv, Nat.sub_diag, skipn_all2 by lia. reflexivity. }
  now rewrite E1, E2, IH.
Qed.
Lemma concat_length w ws :
  Forall (fun v : bytes => length v = w) ws -> length (concat ws) = (w * length ws)%nat.
Proof.
  induction 1 as [|v ws Hv HF IH]; cbn [concat length]; [lia|].
  rewrite app_length, IH, Hv. lia.
Qed.

Lemma map_words_length w n f l :
  (0 < w)%nat -> length l = (w * n)%nat -> (forall v, length v = w -> length (f v) = w) ->
  length (map_words w f l) = length l /\
  words w n (map_words w f l) = map f (words w n l).
Proof.
  intros Hw H Hf. unfold map_words. rewrite H.
  replace (w * n / w)%nat with n by (rewrite Nat.mul_comm, Nat.div_mul; lia).
  pose proof (words_all w n l H) as HA.
  assert (HF : Forall (fun v => length v = w) (map f (words w n l))).
  { apply Forall_map. eapply Forall_impl; [|exact HA]. auto. }
  pose proof (concat_length w _ HF) as HC. rewrite map_length, words_length in HC.
  split; [exact HC|].
  pose proof (words_of_concat w _ HF) as HW. rewrite map_length, words_length in HW. exact HW.
Qed.

(** ** Numbers and bytes *)

Lemma le_bytes_length w v : length (le_bytes w v) = w.
Proof. revert v; induction w; intros; cbn [le_bytes length]; auto. Qed.
Lemma le_num_bytes w : forall v, v < 256 ^ N.of_nat w -> le_num (le_bytes w v) = v.
Proof.
  induction w as [|w IH]; intros v H; cbn [le_bytes le_num].
  - cbn in H. lia.
  - rewrite Nat2N.inj_succ, N.pow_succ_r' in H.
    rewrite IH by (apply N.div_lt_upper_bound; lia).
    pose proof (N.div_mod v 256 ltac:(lia)). lia.
Qed.
Lemma le_num_bound l : is_bytes l -> le_num l < 256 ^ lenN l.
Proof.
  induction 1 as [|b l Hb HF IH]; cbn [le_num]; [reflexivity|].
  rewrite lenN_cons, N.add_1_l, N.pow_succ_r'. nia.
Qed.
Lemma le_bytes_num l : is_bytes l -> le_bytes (length l) (le_num l) = l.
Proof.
  induction 1 as [|b l Hb HF IH]; cbn [length le_bytes le_num]; auto.
  assert (E1 : (b + 256 * le_num l) mod 256 = b).
  { rewrite N.mul_comm, N.mod_add by lia. apply N.mod_small. auto. }
  assert (E2 : (b + 256 * le_num l) / 256 = le_num l).
  { rewrite N.mul_comm, N.div_add by lia. rewrite N.div_small by auto. lia. }
  now rewrite E1, E2, IH.
Qed.

(** ** Numbers *)

Lemma le_num_num l : le_num l = num_le l.
Proof. induction l; cbn [le_num num_le]; congruence. Qed.
Lemma num_le_app a b : num_le (a ++ b) = num_le a + 256 ^ lenN a * num_le b.
Proof.
  induction a as [|x a IH]; cbn [app num_le]; [change (256 ^ lenN []) with 1; lia|].
  rewrite IH, lenN_cons, N.add_1_l, N.pow_succ_r'. lia.
Qed.
Lemma num_be_from_app l : forall acc, num_be_from acc l = acc * 256 ^ lenN l + num_le (rev l).
Proof.
  induction l as [|b l IH]; intros acc; cbn [num_be_from rev].
  - change (256 ^ lenN []) with 1. cbn. lia.
  - rewrite IH, num_le_app, lenN_cons, N.add_1_l, N.pow_succ_r'.
    unfold lenN. rewrite rev_length. cbn [num_le]. lia.
Qed.
Lemma num_be_rev l : num_be l = num_le (rev l).
Proof. unfold num_be. rewrite num_be_from_app. lia. Qed.

(** ** Words *)

Lemma skipn_add {A} a b : forall l : list A, skipn a (skipn b l) = skipn (b + a) l.
Proof.
  induction b as [|b IH]; intros l; [reflexivity|]. destruct l as [|x l]; [now rewrite !skipn_nil|].
  cbn [skipn Nat.add]. apply IH.
Qed.
Lemma words_nth w n : forall l j, (j < n)%nat -> nth_error (words w n l) j = Some (word w j l).
Proof.
  unfold word. induction n as [|n IH]; intros l [|j] H; try lia; cbn [words nth_error].
  - reflexivity.
  - rewrite IH by lia. do 2 f_equal. rewrite skipn_add. f_equal.
Qed.
Lemma word_length w n j l : length l = (w * n)%nat -> (j < n)%nat -> length (word w j l) = w.
Proof. intros H Hj. unfold word. rewrite firstn_length, skipn_length. nia. Qed.
