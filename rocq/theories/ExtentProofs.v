(** * Proofs about selectors. *)
From Verif Require Import Base Spec Extent Chunk Dataset Slicer SpecApi.

Definition resolve_one (e : extent) (n : N) : N * option N :=
  (extent_start (extent_canonicalise e n), extent_count (extent_canonicalise e n)).

Lemma canonicalise_count e n : exists c, extent_count (extent_canonicalise e n) = Some c.
Proof. destruct e; cbn; eauto. Qed.

Lemma range_count_spec a b x : a <= x < a + range_count a b <-> a <= x < b.
Proof. unfold range_count. destruct (N.ltb_spec a b); lia. Qed.

Lemma selector_denotes m s n e :
  sel_u64 s -> ~ sel_incl_max s ->
  extent_of m s = Ok e ->
  forall c, extent_count (extent_canonicalise e n) = Some c ->
  forall x, extent_start (extent_canonicalise e n) <= x
            < extent_start (extent_canonicalise e n) + c <-> denotes s n x.
Proof.
  intros HU HM HE c HC x.
  destruct s; cbn [extent_of sel_u64 sel_incl_max] in *;
    try (rewrite add64_ok in HE by lia; cbn [bind] in HE);
    injection HE as <-; cbn in HC; injection HC as <-;
    cbn [extent_canonicalise extent_start denotes];
    rewrite ?range_count_spec; lia.
Qed.

Lemma selector_resolves m s :
  sel_u64 s -> ~ sel_incl_max s -> exists e, extent_of m s = Ok e.
Proof.
  intros HU HM. destruct s; cbn [extent_of sel_u64 sel_incl_max] in *; eauto;
    rewrite add64_ok by lia; cbn [bind]; eauto.
Qed.

Lemma selector_overflow s :
  sel_incl_max s -> extent_of Debug s = Panic /\
  exists e, extent_of Release s = Ok e /\ forall n, extent_count (extent_canonicalise e n) = Some 0.
Proof.
  assert (Z : forall a, range_count a 0 = 0).
  { intros a. unfold range_count. destruct (N.ltb_spec a 0); lia. }
  intros HM. destruct s; cbn [sel_incl_max] in HM; try contradiction;
    cbn [extent_of]; unfold add64; rewrite HM;
    (replace (W64 <? W64) with false by reflexivity);
    (replace (W64 mod W64) with 0 by reflexivity);
    (split; [reflexivity|]); eexists; (split; [reflexivity|]); intros n;
    cbn [extent_canonicalise extent_count]; now rewrite Z.
Qed.

(** ** Resolution of a whole selection *)

Lemma canonicalise_ok e dims :
  (e = All \/ exists l, e = Extents l /\ length l = length dims) ->
  exists l, extents_canonicalise e dims = Ok l /\ length l = length dims /\
            Forall (fun x => exists c, extent_count x = Some c) l.
Proof.
  intros [->|(l & -> & HL)]; cbn [extents_canonicalise].
  - eexists. split; [reflexivity|]. split; [apply map_length|].
    apply Forall_map, Forall_forall. intros d _. cbn. eauto.
  - rewrite (proj2 (Nat.eqb_eq _ _) HL). eexists. split; [reflexivity|].
    split; [rewrite map_length, combine_length; lia|].
    apply Forall_map, Forall_forall. intros [x d] _. apply canonicalise_count.
Qed.

Lemma unwrap_counts_ok l :
  Forall (fun x => exists c, extent_count x = Some c) l ->
  exists cs, mapM unwrap_count l = Ok cs /\ Forall2 (fun x c => extent_count x = Some c) l cs.
Proof.
  induction 1 as [|x l (c & Hc) HF (cs & E & HF2)].
  - exists []. split; [reflexivity|constructor].
  - exists (c :: cs). cbn [mapM]. unfold unwrap_count at 1. rewrite Hc. cbn [bind]. rewrite E.
    split; [reflexivity|constructor; auto].
Qed.

Lemma get_start_count_ok e dims :
  (e = All \/ exists l, e = Extents l /\ length l = length dims) ->
  exists idx cnt, get_start_count e dims = Ok (idx, cnt) /\
    length idx = length dims /\ length cnt = length dims.
Proof.
  intros H. destruct (canonicalise_ok e dims H) as (l & E & HL & HF).
  destruct (unwrap_counts_ok l HF) as (cs & E2 & HF2).
  unfold get_start_count. rewrite E. cbn [bind]. rewrite E2. cbn [bind].
  rewrite HL, Nat.eqb_refl. cbn [ensure bind].
  do 2 eexists. split; [reflexivity|]. rewrite map_length. split; auto.
  rewrite <- HL. symmetry. clear - HF2. induction HF2; cbn [length]; auto.
Qed.

Lemma get_start_count_rank l dims :
  length l <> length dims -> get_start_count (Extents l) dims = Err ERank.
Proof.
  intros H. unfold get_start_count. cbn [extents_canonicalise].
  apply Nat.eqb_neq in H. now rewrite H.
Qed.

Lemma get_counts_rank l dims :
  length l <> length dims -> get_counts (Extents l) dims = Err ERank.
Proof.
  intros H. unfold get_counts. cbn [extents_canonicalise].
  apply Nat.eqb_neq in H. now rewrite H.
Qed.

Lemma get_start_count_nth l dims idx cnt :
  get_start_count (Extents l) dims = Ok (idx, cnt) ->
  forall j x d, nth_error l j = Some x -> nth_error dims j = Some d ->
    nth_error idx j = Some (extent_start (extent_canonicalise x d)) /\
    nth_error cnt j = extent_count (extent_canonicalise x d).
Proof.
  unfold get_start_count. cbn [extents_canonicalise].
  destruct (Nat.eqb_spec (length l) (length dims)) as [HL|]; [|discriminate].
  cbn [bind]. intros E. apply bind_ok in E as (cs & E1 & E2).
  apply bind_ok in E2 as (u0 & _ & E2). injection E2 as <- <-.
  revert dims HL cs E1. induction l as [|y l IH]; intros [|d dims] HL cs E1 j x d' Hx Hd;
    cbn [length] in HL; try discriminate.
  - destruct j; discriminate.
  - cbn [combine map mapM] in E1. apply bind_ok in E1 as (c & Ec & E1).
    apply bind_ok in E1 as (cs' & E1 & E2). injection E2 as <-.
    destruct j as [|j]; cbn [nth_error combine map] in *.
    + injection Hx as <-. injection Hd as <-. split; auto.
      unfold unwrap_count in Ec. destruct (extent_count _); [|discriminate].
      now injection Ec as ->.
    + apply (IH dims ltac:(lia) cs' E1 j x d'); auto.
Qed.

Lemma get_start_count_all dims :
  get_start_count All dims = Ok (map (fun _ => 0) dims, dims).
Proof.
  unfold get_start_count. cbn [extents_canonicalise bind].
  assert (E : mapM unwrap_count (map (fun d => SliceCount 0 d) dims) = Ok dims).
  { induction dims as [|d dims IH]; cbn [map mapM]; auto.
    unfold unwrap_count at 1. cbn [extent_count bind]. rewrite IH. reflexivity. }
  rewrite E. cbn [bind]. rewrite map_length, Nat.eqb_refl. cbn [ensure bind].
  rewrite map_map. reflexivity.
Qed.

Lemma get_start_count_counts e dims idx cnt :
  get_start_count e dims = Ok (idx, cnt) -> get_counts e dims = Ok cnt.
Proof.
  unfold get_start_count, get_counts. intros E.
  apply bind_ok in E as (l & E1 & E). rewrite E1. cbn [bind].
  apply bind_ok in E as (cs & E2 & E). apply bind_ok in E as (u0 & _ & E).
  now injection E as _ <-.
Qed.

Lemma get_start_count_cases e dims :
  get_start_count e dims = Err ERank \/
  exists idx cnt, get_start_count e dims = Ok (idx, cnt) /\
    length idx = length dims /\ length cnt = length dims.
Proof.
  destruct e as [|l]; [right; apply get_start_count_ok; auto|].
  destruct (Nat.eq_dec (length l) (length dims)).
  - right. apply get_start_count_ok. right. eauto.
  - left. now apply get_start_count_rank.
Qed.

(** (start, count) arrays. *)
Lemma extents_of_pairs_ok starts counts dims :
  length starts = length counts -> length counts = length dims ->
  exists e, extents_of_pairs starts counts = Ok e /\
            get_start_count e dims = Ok (starts, counts).
Proof.
  intros H1 H2. unfold extents_of_pairs. rewrite (proj2 (Nat.eqb_eq _ _) H1).
  eexists. split; [reflexivity|].
  unfold get_start_count. cbn [extents_canonicalise].
  rewrite map_length, combine_length, H1, Nat.min_id, H2, Nat.eqb_refl. cbn [bind].
  revert counts dims H1 H2.
  induction starts as [|s starts IH]; intros [|c counts] [|d dims] H1 H2;
    cbn [length] in *; try discriminate; [reflexivity|].
  cbn [combine map mapM]. unfold unwrap_count at 1. cbn [extent_canonicalise extent_count bind].
  specialize (IH counts dims ltac:(lia) ltac:(lia)).
  destruct (mapM unwrap_count _) as [cs| | | |] eqn:E; try discriminate.
  cbn [bind] in *. cbn [length Nat.eqb].
  destruct (ensure _ _) eqn:E2; try discriminate. cbn [bind] in *.
  injection IH as I1 I2. rewrite I1, I2. reflexivity.
Qed.

(** ** ndarray slices *)

Lemma elem_ok s m : plain_elem s -> extent_of_elem s = extent_of m (elem_selector s).
Proof.
  destruct s as [a e st|i|]; cbn [plain_elem extent_of_elem elem_selector]; try easy.
  - intros (Ha & -> & He). unfold u64_try_from.
    rewrite (proj2 (Z.leb_le _ _) Ha). cbn [bind Z.eqb Pos.eqb negb].
    destruct e as [e|]; cbn [extent_of]; auto.
    rewrite (proj2 (Z.leb_le _ _) He). reflexivity.
  - intros Hi. unfold u64_try_from. now rewrite (proj2 (Z.leb_le _ _) Hi).
Qed.

Lemma elem_err s : ~ plain_elem s -> extent_of_elem s = Err ESlice.
Proof.
  destruct s as [a e st|i|]; cbn [plain_elem extent_of_elem]; intros H; auto; unfold u64_try_from.
  - destruct (Z.leb_spec 0 a); [|reflexivity]. cbn [bind].
    destruct (Z.eqb_spec st 1); [|reflexivity]. cbn [negb].
    destruct e as [e|]; [|exfalso; auto].
    destruct (Z.leb_spec 0 e); [exfalso; auto|reflexivity].
  - destruct (Z.leb_spec 0 i); [exfalso; auto|reflexivity].
Qed.

Lemma slice_ok m l :
  Forall plain_elem l -> extents_of_slice l = extents_of m (map elem_selector l).
Proof.
  unfold extents_of_slice, extents_of. intros HF. f_equal.
  induction HF as [|s l Hs HF IH]; cbn [map mapM]; auto.
  rewrite (elem_ok s m Hs), IH. reflexivity.
Qed.

Lemma slice_err l : ~ Forall plain_elem l -> extents_of_slice l = Err ESlice.
Proof.
  unfold extents_of_slice. intros H. induction l as [|s l IH]; [exfalso; auto|].
  cbn [mapM].
  assert (D : plain_elem s \/ ~ plain_elem s).
  { destruct s as [a e st|i|]; cbn [plain_elem]; try lia; auto.
    destruct e; lia. }
  destruct D as [D|D]; [|now rewrite elem_err].
  assert (exists x, extent_of_elem s = Ok x) as [x Ex].
  { rewrite (elem_ok s Debug D). destruct s as [a [e|] st|i|]; cbn; eauto. }
  rewrite Ex. cbn [bind].
  assert (HL : ~ Forall plain_elem l) by (intros Z; apply H; now constructor).
  specialize (IH HL). destruct (mapM extent_of_elem l); cbn [bind] in *; congruence.
Qed.
