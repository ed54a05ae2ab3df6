(** * Proofs that the order of maps is invisible (C78). *)
From Coq Require Import Permutation.
From Verif Require Import Base Chunk Dataset IndexTree Serde SpecSerde SpecTree SpecAlike SerdeProofs SerdeTyped TreeProofs.

Lemma alike_inv g h : alike g h ->
  gi_path g = gi_path h /\
  NoDup (map fst (gi_datasets g)) /\ NoDup (map fst (gi_datasets h)) /\
  NoDup (map fst (gi_groups g)) /\ NoDup (map fst (gi_groups h)) /\
  (forall x d, In (x, d) (gi_datasets g) <-> In (x, d) (gi_datasets h)) /\
  (forall x, In x (map fst (gi_groups g)) <-> In x (map fst (gi_groups h))) /\
  (forall x a b, In (x, a) (gi_groups g) -> In (x, b) (gi_groups h) -> alike a b).
Proof. intros H. inversion H; subst. cbn [gi_path gi_datasets gi_groups]. repeat (split; [auto|]); auto. Qed.

Lemma nodup_fst {A} (l : list (str * A)) : NoDup (map fst l) -> NoDup l.
Proof. apply NoDup_map_inv. Qed.
Lemma key_in {A} (l : list (str * A)) x : In x (map fst l) <-> exists v, In (x, v) l.
Proof.
  rewrite in_map_iff. split.
  - intros ([y v] & E & H). cbn [fst] in E. subst y. eauto.
  - intros (v & H). exists (x, v). auto.
Qed.
Lemma key_unique {A} (l : list (str * A)) x v w : NoDup (map fst l) -> In (x, v) l -> In (x, w) l -> v = w.
Proof. intros H H1 H2. apply (hget_in x v l H) in H1. apply (hget_in x w l H) in H2. congruence. Qed.

Lemma alike_refl : forall g, keyed g -> alike g g.
Proof.
  induction g as [p ds gs IH] using gindex_ind'. intros K. inversion K as [? ? ? K1 K2 K3]; subst.
  constructor; auto; try tauto. intros x g h H1 H2. assert (g = h) as <- by exact (key_unique gs x g h K2 H1 H2).
  rewrite Forall_forall in IH, K3. exact (IH _ H1 (K3 _ H1)).
Qed.
Lemma alike_sym : forall g h, alike g h -> alike h g.
Proof.
  induction g as [p ds gs IH] using gindex_ind'. intros h H. inversion H as [? ? es ? hs A1 A2 A3 A4 A5 A6 A7]; subst.
  constructor; auto.
  - intros x d. symmetry. auto.
  - intros x. symmetry. auto.
  - intros x a b Ha Hb. rewrite Forall_forall in IH. exact (IH (x, b) Hb a (A7 x b a Hb Ha)).
Qed.
Lemma alike_trans : forall g h k, alike g h -> alike h k -> alike g k.
Proof.
  induction g as [p ds gs IH] using gindex_ind'. intros h k H K.
  inversion H as [? ? es ? hs A1 A2 A3 A4 A5 A6 A7]; subst. inversion K as [? ? fs ? ks B1 B2 B3 B4 B5 B6 B7]; subst.
  constructor; auto.
  - intros x d. rewrite A5. auto.
  - intros x. rewrite A6. auto.
  - intros x a c Ha Hc. assert (Hx : In x (map fst hs)). { apply A6. apply key_in. eauto. }
    apply key_in in Hx as (b & Hb). rewrite Forall_forall in IH. exact (IH (x, a) Ha b c (A7 x a b Ha Hb) (B7 x b c Hb Hc)).
Qed.

(** ** Lookups *)

Lemma hget_same {A} (h k : hmap A) x : NoDup (map fst h) -> NoDup (map fst k) ->
  (forall y v, In (y, v) h <-> In (y, v) k) -> hget x h = hget x k.
Proof.
  intros H K E. destruct (hget x h) as [v|] eqn:E1.
  - symmetry. apply hget_in; auto. apply E. now apply hget_in.
  - destruct (hget x k) as [w|] eqn:E2; auto. apply hget_in in E2; auto. apply E in E2. apply (hget_in x w h H) in E2. congruence.
Qed.
Definition both_alike (a b : option gindex) : Prop :=
  match a, b with Some g, Some h => alike g h | None, None => True | _, _ => False end.
Lemma hget_alike g h x : alike g h -> both_alike (hget x (gi_groups g)) (hget x (gi_groups h)).
Proof.
  intros H. apply alike_inv in H as (_ & _ & _ & G1 & G2 & _ & GK & GA). unfold both_alike.
  destruct (hget x (gi_groups g)) as [a|] eqn:E1; destruct (hget x (gi_groups h)) as [b|] eqn:E2; auto.
  - apply hget_in in E1; auto. apply hget_in in E2; auto. eauto.
  - apply hget_in in E1; auto. assert (Hx : In x (map fst (gi_groups h))) by (apply GK, key_in; eauto).
    apply key_in in Hx as (b & Hb). apply (hget_in x b _ G2) in Hb. congruence.
  - apply hget_in in E2; auto. assert (Hx : In x (map fst (gi_groups g))) by (apply GK, key_in; eauto).
    apply key_in in Hx as (b' & Hb). apply (hget_in x b' _ G1) in Hb. congruence.
Qed.
Lemma walk_alike cs : forall g h, alike g h -> both_alike (walk g cs) (walk h cs).
Proof.
  induction cs as [|c cs IH]; intros g h H; cbn [walk]; [exact H|].
  pose proof (hget_alike g h c H) as B. unfold both_alike in B.
  destruct (hget c (gi_groups g)) as [a|]; destruct (hget c (gi_groups h)) as [b|]; try contradiction; [auto|exact I].
Qed.
Lemma dataset_alike g h s : alike g h -> gi_dataset g s = gi_dataset h s.
Proof.
  intros H. unfold gi_dataset. destruct (rev (split_slash (trim_start s))) as [|x r]; auto.
  pose proof (walk_alike (rev r) g h H) as B. unfold both_alike in B.
  destruct (walk g (rev r)) as [a|]; destruct (walk h (rev r)) as [b|]; try contradiction; auto.
  apply alike_inv in B as (_ & D1 & D2 & _ & _ & DD & _). now apply hget_same.
Qed.
Lemma group_alike g h s : alike g h -> both_alike (gi_group g s) (gi_group h s).
Proof. intros H. apply walk_alike. exact H. Qed.

(** ** Typed, UTF-8, sizes *)

Lemma entries_perm {A} (h k : hmap A) : NoDup (map fst h) -> NoDup (map fst k) ->
  (forall y v, In (y, v) h <-> In (y, v) k) -> Permutation h k.
Proof. intros H K E. apply NoDup_Permutation; [now apply nodup_fst..|]. intros [y v]. apply E. Qed.
Lemma keys_perm {A} (h k : hmap A) : NoDup (map fst h) -> NoDup (map fst k) ->
  (forall x, In x (map fst h) <-> In x (map fst k)) -> Permutation (map fst h) (map fst k).
Proof. intros H K E. now apply NoDup_Permutation. Qed.
Lemma typed_keys_perm {A} (h k : hmap A) : NoDup (map fst k) -> Permutation (map fst h) (map fst k) -> typed_keys h -> typed_keys k.
Proof.
  intros K P (T1 & T2 & T3). split; auto. split.
  - rewrite Forall_forall in *. intros x Hx. apply T2. apply (Permutation_in x (Permutation_sym P)). exact Hx.
  - apply Permutation_length in P. rewrite !map_length in P. unfold lenN in *. now rewrite <- P.
Qed.
Lemma typed_alike : forall g h, alike g h -> typed_group g -> typed_group h.
Proof.
  induction g as [p ds gs IH] using gindex_ind'. intros h H T.
  inversion H as [? ? es ? hs A1 A2 A3 A4 A5 A6 A7]; subst. inversion T as [? ? ? T1 T2 T3 T4 T5]; subst.
  constructor; auto.
  - apply (typed_keys_perm ds es); auto. apply Permutation_map. now apply entries_perm.
  - rewrite Forall_forall in *. intros [x d] Hx. apply A5 in Hx. exact (T3 _ Hx).
  - apply (typed_keys_perm gs hs); auto. now apply keys_perm.
  - rewrite Forall_forall in *. intros [x b] Hb. assert (Hx : In x (map fst gs)) by (apply A6, key_in; eauto).
    apply key_in in Hx as (a & Ha). cbn [snd]. exact (IH (x, a) Ha b (A7 x a b Ha Hb) (T5 _ Ha)).
Qed.
Lemma utf8_alike : forall g h, alike g h -> utf8_group g -> utf8_group h.
Proof.
  induction g as [p ds gs IH] using gindex_ind'. intros h H T.
  inversion H as [? ? es ? hs A1 A2 A3 A4 A5 A6 A7]; subst. inversion T as [? ? ? T1 T2]; subst.
  constructor; auto. rewrite Forall_forall in *. intros [x b] Hb. assert (Hx : In x (map fst gs)) by (apply A6, key_in; eauto).
  apply key_in in Hx as (a & Ha). cbn [snd]. exact (IH (x, a) Ha b (A7 x a b Ha Hb) (T2 _ Ha)).
Qed.

(** The serialized lengths. *)
Definition total {A} (f : A -> nat) (l : list A) : nat := fold_right (fun x n => (f x + n)%nat) 0%nat l.
Lemma total_perm {A} (f : A -> nat) l l' : Permutation l l' -> total f l = total f l'.
Proof. unfold total. induction 1; cbn [fold_right]; lia. Qed.
Lemma flat_total {A} (f : A -> byte_str) l : length (flat_map f l) = total (fun x => length (f x)) l.
Proof. unfold total. induction l as [|x l IH]; cbn [flat_map fold_right]; auto. rewrite app_length. lia. Qed.
Lemma u64_len n n' : length (ser_u64 n) = length (ser_u64 n').
Proof. unfold ser_u64. rewrite !le_bytes_length. reflexivity. Qed.
Definition size_of (g : gindex) : nat := match ser_group g with Ok b => length b | _ => 0%nat end.
Definition size_at (gs : hmap gindex) (k : str) : nat :=
  (length (ser_bytes k) + match hget k gs with Some g => size_of g | None => 0 end)%nat.
Lemma subs_total gs : forall b, ser_subs gs = Ok b -> length b = total (fun kv => (length (ser_bytes (fst kv)) + size_of (snd kv))%nat) gs.
Proof.
  induction gs as [|[k g] gs IH]; intros b E; cbn [ser_subs] in E.
  - apply ok_inj in E. subst b. reflexivity.
  - apply bind_ok in E as (x & Ex & E). apply bind_ok in E as (r & Er & E). apply ok_inj in E. subst b.
    rewrite !app_length, (IH r Er). unfold total. cbn [fold_right fst snd]. unfold size_of at 2. rewrite Ex. lia.
Qed.
Lemma total_ext {A} (f g : A -> nat) l : (forall x, In x l -> f x = g x) -> total f l = total g l.
Proof.
  unfold total. induction l as [|x l IH]; intros H; cbn [fold_right]; auto. rewrite (H x) by now left.
  rewrite IH; auto. intros y Hy. apply H. now right.
Qed.
Lemma total_map {A B} (f : B -> nat) (h : A -> B) l : total f (map h l) = total (fun x => f (h x)) l.
Proof. unfold total. induction l as [|x l IH]; cbn [map fold_right]; auto. Qed.
Lemma total_keys gs : NoDup (map fst gs) ->
  total (fun kv => (length (ser_bytes (fst kv)) + size_of (snd kv))%nat) gs = total (size_at gs) (map fst gs).
Proof.
  intros H. rewrite total_map. apply total_ext. intros [k g] Hin. unfold size_at. cbn [fst snd].
  apply (hget_in k g gs H) in Hin. now rewrite Hin.
Qed.
Lemma size_alike : forall g h a b, alike g h -> ser_group g = Ok a -> ser_group h = Ok b -> length a = length b.
Proof.
  induction g as [p ds gs IH] using gindex_ind'. intros h a b H Ea Eb.
  inversion H as [? ? es ? hs A1 A2 A3 A4 A5 A6 A7]; subst. rewrite ser_group_eq in Ea, Eb.
  apply bind_ok in Ea as (q & Eq & Ea). apply bind_ok in Ea as (s & Es & Ea). apply ok_inj in Ea. subst a.
  rewrite Eq in Eb. cbn [bind] in Eb. apply bind_ok in Eb as (s' & Es' & Eb). apply ok_inj in Eb. subst b.
  rewrite !app_length, (u64_len (lenN gs) (lenN hs)). f_equal. f_equal; [|f_equal].
  - unfold ser_seq. rewrite !app_length, !flat_total, (u64_len (lenN ds) (lenN es)). f_equal. apply total_perm. now apply entries_perm.
  - rewrite (subs_total _ _ Es), (subs_total _ _ Es'), !total_keys by auto.
    rewrite (total_perm _ _ _ (keys_perm gs hs A3 A4 A6)). apply total_ext. intros k Hk. unfold size_at. f_equal.
    apply key_in in Hk as (y & Hy). assert (Hk : In k (map fst gs)) by (apply A6, key_in; eauto).
    apply key_in in Hk as (x & Hx). rewrite (proj2 (hget_in k x gs A3) Hx), (proj2 (hget_in k y hs A4) Hy).
    assert (OK : forall l r, ser_subs l = Ok r -> forall k g, In (k, g) l -> exists c, ser_group g = Ok c).
    { clear. induction l as [|[k0 g0] l IH]; intros r E k g Hin; [easy|]. cbn [ser_subs] in E.
      apply bind_ok in E as (x & Ex & E). apply bind_ok in E as (r' & Er & E).
      destruct Hin as [[= <- <-]|Hin]; [eauto|exact (IH _ Er k g Hin)]. }
    destruct (OK gs s Es k x Hx) as (c & Ec). destruct (OK hs s' Es' k y Hy) as (d & Ed).
    unfold size_of. rewrite Ec, Ed. rewrite Forall_forall in IH. exact (IH (k, x) Hx y c d (A7 k x y Hx Hy) Ec Ed).
Qed.

(** ** Indexing *)

Lemma file_sym : forall g h, alike_file g h -> alike_file h g.
Proof.
  induction g as [b l IH] using h5_ind. intros h H. inversion H as [? ? k A1 A2 A3]; subst. constructor.
  - intros x d. symmetry. auto.
  - intros x. symmetry. auto.
  - intros x a c Ha Hc. exact (IH x c Hc a (A3 x c a Hc Ha)).
Qed.
Lemma indexed_alike m path : forall g h name r, named g -> named h -> alike_file g h -> index_group m path name g = Ok r ->
  exists r', index_group m path name h = Ok r' /\ alike r r'.
Proof.
  induction g as [b l IH] using h5_ind. intros h name r NG NH H E. inversion H as [? ? k A1 A2 A3]; subst.
  destruct (index_group_ok m path _ name r NG E) as (K & KP & KL & R1 & R2 & R3 & R4). cbn [h_members h_lists] in *. subst b.
  inversion NG as [? ? N1 N2 N3]; subst. inversion NH as [? ? M1 M2 M3]; subst.
  assert (S : forall x h1, In (x, HGroup h1) k -> exists g1 r1 s1, In (x, HGroup g1) l /\ In (x, r1) (gi_groups r) /\
     index_group m (gi_path r) (name ++ SLASH :: x) h1 = Ok s1 /\ alike r1 s1).
  { intros x h1 Hx. destruct (proj2 (A2 x) (ex_intro _ h1 Hx)) as (g1 & Hg). destruct (R4 x g1 Hg) as (r1 & Er).
    destruct (IH x g1 Hg h1 _ r1 (N3 _ _ Hg) (M3 _ _ Hx) (A3 x g1 h1 Hg Hx) Er) as (s1 & Es & Hs).
    exists g1, r1, s1. repeat (split; [auto|]); auto. apply R3. eauto. }
  destruct (index_datasets_total m k) as (es & Ee).
  { intros x d Hin Hst. apply A1 in Hin. eauto. }
  destruct (index_subs_total m (gi_path r) name k) as (hs & Eh).
  { intros x h1 Hx. destruct (S x h1 Hx) as (_ & _ & s1 & _ & _ & Es & _). eauto. }
  assert (E' : index_group m (gi_path r) name (mkHG true k) = Ok (mkGroup (gi_path r) (hcollect es) (hcollect hs))).
  { rewrite index_group_eq, Ee. cbn [bind]. rewrite Eh. reflexivity. }
  eexists. split; [exact E'|].
  destruct (index_group_ok m _ _ name _ NH E') as (K' & _ & _ & S1 & _ & S3 & _). cbn [h_members gi_datasets gi_groups] in *.
  destruct (keyed_inv _ K) as (D1 & D2 & _). destruct (keyed_inv _ K') as (D3 & D4 & _). cbn [gi_datasets gi_groups] in *.
  destruct r as [p ds gs]. cbn [gi_path gi_datasets gi_groups] in *. constructor; auto.
  - intros x d. rewrite R1, S1. split; intros (dd & Hin & Hd); exists dd; (split; [apply A1; exact Hin|exact Hd]).
  - intros x. rewrite !key_in. split.
    + intros (v & Hv). apply R3 in Hv as (g1 & Hg & _). destruct (proj1 (A2 x) (ex_intro _ g1 Hg)) as (h1 & Hh).
      destruct (S x h1 Hh) as (_ & _ & s1 & _ & _ & Es & _). exists s1. apply S3. eauto.
    + intros (v & Hv). apply S3 in Hv as (h1 & Hh & _). destruct (S x h1 Hh) as (_ & r1 & _ & _ & Hr & _). eauto.
  - intros x a c Ha Hc. apply S3 in Hc as (h1 & Hh & Ec). destruct (S x h1 Hh) as (_ & r1 & s1 & _ & Hr & Es & Hs).
    assert (a = r1) as -> by exact (key_unique gs x a r1 D2 Ha Hr). rewrite Es in Ec. apply ok_inj in Ec. now subst c.
Qed.
