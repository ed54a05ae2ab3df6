(** * Reader theorems, before they are split into properties. *)
From Verif Require Import Base Spec Safe Extent Chunk Dataset Slicer Filters SpecApi SpecFilter SpecReader
  FilterProofs FilterProps ApiLemmas Termination GroupProofs SliceProps Writes Reader CacheProofs DirectProofs
  ParProofs ReadProofs.

(** ** Right segments *)

Lemma right_wf ds idx cnt segs : right_segments ds idx cnt segs -> Forall (seg_wf ds) segs.
Proof. intros [_ H]. eapply Forall_impl; [|exact H]. intros [[c a] b]. cbn. tauto. Qed.

Lemma Forall2_in_l {A B} (R : A -> B -> Prop) l1 l2 a : Forall2 R l1 l2 -> In a l1 -> exists b, In b l2 /\ R a b.
Proof.
  induction 1 as [|x y l1 l2 H HF IH]; [easy|]. intros [<-|Hi]; [exists y; split; auto; now left|].
  destruct (IH Hi) as (b & Hb & Hr). exists b. split; auto. now right.
Qed.
Lemma Forall2_in_r {A B} (R : A -> B -> Prop) l1 l2 b : Forall2 R l1 l2 -> In b l2 -> exists a, In a l1 /\ R a b.
Proof.
  induction 1 as [|x y l1 l2 H HF IH]; [easy|]. intros [<-|Hi]; [exists x; split; auto; now left|].
  destruct (IH Hi) as (a & Ha & Hr). exists a. split; auto. now right.
Qed.

Lemma holds_unique ds x c k c' k' : full_dataset ds -> fits64 (d_shape ds) -> in_shape x (d_shape ds) ->
  holds ds x (c, k) -> holds ds x (c', k') -> c = c' /\ k = k'.
Proof.
  intros HD HF HS (A1 & A2 & A3) (B1 & B2 & B3). cbn [fst snd] in *.
  destruct (lookup_ok Debug ds x HD HF HS) as (c0 & _ & _ & _ & U).
  assert (c = c') by (rewrite (U c A1 A2), (U c' B1 B2); reflexivity). subst c'. split; congruence.
Qed.

Lemma sel_in_fits shape idx cnt : sel_in shape idx cnt -> prodN shape < W64 -> fits64 shape.
Proof.
  intros (L1 & L2 & HP & HB) HW. apply fits64_pos; auto. apply Forall_forall. intros s Hs.
  apply In_nth_error in Hs as (j & Hj).
  assert (Hlt : (j < length shape)%nat) by (apply nth_error_Some; congruence).
  destruct (nth_error idx j) as [i|] eqn:Ei; [|apply nth_error_None in Ei; lia].
  destruct (nth_error cnt j) as [n|] eqn:En; [|apply nth_error_None in En; lia].
  specialize (HB j i n s Ei En Hj). rewrite Forall_forall in HP.
  pose proof (HP n (nth_error_In _ _ En)). lia.
Qed.

Lemma right_needs ds idx cnt segs c : full_dataset ds -> sel_in (d_shape ds) idx cnt ->
  right_segments ds idx cnt segs -> (needs ds idx cnt c <-> In c (map (fun sg => fst (fst sg)) segs)).
Proof.
  intros HD HS [HF HW]. split.
  - intros (x & k & Hx & Hh). destruct (Forall2_in_l _ _ _ _ HF Hx) as ([c' k'] & Hin & Hh').
    assert (in_shape x (d_shape ds)) by (eapply slab_in_shape; eauto).
    assert (c = c') as ->.
    { apply (holds_unique ds x c k c' k'); auto. eapply sel_in_fits; eauto. apply HD. }
    apply in_flat_map in Hin as ([[c1 a] b] & Hs & Hin). unfold seg_elems in Hin.
    apply in_map_iff in Hin as (k1 & E & _). injection E as -> ->.
    apply in_map_iff. exists (c', a, b). auto.
  - intros Hin. apply in_map_iff in Hin as ([[c1 a] b] & E & Hs). cbn [fst] in E. subst c1.
    rewrite Forall_forall in HW. destruct (HW _ Hs) as (Hab & _).
    assert (Hin : In (c, a) (flat_map seg_elems segs)).
    { apply in_flat_map. exists (c, a, b). split; auto. unfold seg_elems. apply in_map_iff. exists a. split; auto.
      apply in_seqN. lia. }
    destruct (Forall2_in_r _ _ _ _ HF Hin) as (x & Hx & Hh). exists x, a. auto.
Qed.

(** ** The bytes of segments *)

Lemma word_split w k raw : (k * w <= length raw)%nat ->
  forall n, firstn (n * w) (skipn (k * w) raw) = concat (map (fun j => word w (k + j) raw) (seq 0 n)).
Proof.
  intros Hk n. revert k Hk. induction n as [|n IH]; intros k Hk; [reflexivity|].
  cbn [seq map concat]. rewrite <- seq_shift, map_map. rewrite Nat.add_0_r.
  unfold word at 1. replace (S n * w)%nat with (w + n * w)%nat by lia.
  set (l := skipn (k * w) raw).
  assert (E : firstn (w + n * w) l = firstn w l ++ firstn (n * w) (skipn w l)).
  { rewrite <- (firstn_skipn w (firstn (w + n * w) l)) at 1. f_equal.
    - rewrite firstn_firstn. f_equal. lia.
    - rewrite skipn_firstn_comm. f_equal. lia. }
  rewrite E. f_equal.
  destruct (le_lt_dec (S k * w) (length raw)) as [Hs|Hs].
  - subst l. rewrite skipn_add. replace (w + k * w)%nat with (S k * w)%nat by lia.
    replace (k * w + w)%nat with (S k * w)%nat by lia.
    rewrite IH by lia. f_equal. apply map_ext. intros j. f_equal. lia.
  - assert (EN : skipn w l = []).
    { subst l. apply skipn_all2. rewrite skipn_length. lia. }
    rewrite EN, firstn_nil. symmetry. apply concat_nil_Forall. apply Forall_forall. intros x Hx.
    apply in_map_iff in Hx as (j & <- & _). unfold word. rewrite skipn_all2 by nia. apply firstn_nil.
Qed.

Lemma seqN_seq a n : seqN a n = map (fun j => a + N.of_nat j) (seq 0 n).
Proof.
  revert a. induction n as [|n IH]; intros a; [reflexivity|]. cbn [seqN seq map]. f_equal; [lia|].
  rewrite IH, <- seq_shift, map_map. apply map_ext. intros j. lia.
Qed.

(** The loader yields the stored elements of each chunk. *)
Definition loads (ds : dataset) (value : list N -> bytes) (L : chunk -> res bytes) (c : chunk) : Prop :=
  exists raw, L c = Ok raw /\ lenN raw = csize ds /\
    forall x k, in_shape x (d_shape ds) -> holds ds x (c, k) ->
      word (N.to_nat (d_dsize ds)) (N.to_nat k) raw = value x.

Lemma seg_values m ds value L sg xs : csize ds < W64 -> seg_wf ds sg -> loads ds value L (fst (fst sg)) ->
  Forall2 (holds ds) xs (seg_elems sg) -> Forall (fun x => in_shape x (d_shape ds)) xs ->
  seg_ok m L (d_dsize ds) sg (concat (map value xs)) /\
  lenN (concat (map value xs)) = (snd sg - snd (fst sg)) * d_dsize ds.
Proof.
  intros HW Hwf (raw & EL & HL & HV) HF HS.
  destruct (seg_ok_load m ds L sg raw HW Hwf EL HL) as (o & Ho & Hlen & Eo).
  assert (E : o = concat (map value xs)); [|rewrite <- E; auto].
  destruct sg as [[c a] b]. cbn [fst snd] in *. destruct Hwf as (Hab & Hbc & Hin).
  rewrite Eo. rewrite !N2Nat.inj_mul, word_split by (unfold csize, lenN in HL; nia).
  f_equal. unfold seg_elems in HF. rewrite seqN_seq, map_map in HF.
  clear -HF HV HS. revert HF. generalize (seq 0 (N.to_nat (b - a))). intros l HF.
  revert xs HF HS. induction l as [|j l IH]; intros xs HF HS; inversion HF as [|x ? xs' ? H1 H2]; subst; [reflexivity|].
  inversion HS; subst. cbn [map]. rewrite <- (IH xs') by auto. f_equal.
  rewrite <- (HV x (a + N.of_nat j)); auto. f_equal. lia.
Qed.

Lemma segs_values m ds value L : csize ds < W64 -> forall segs xs,
  Forall (seg_wf ds) segs -> (forall sg, In sg segs -> loads ds value L (fst (fst sg))) ->
  Forall2 (holds ds) xs (flat_map seg_elems segs) -> Forall (fun x => in_shape x (d_shape ds)) xs ->
  exists os, Forall2 (seg_ok m L (d_dsize ds)) segs os /\ concat os = concat (map value xs) /\
    lenN (concat os) = total segs * d_dsize ds.
Proof.
  intros HW. unfold total. induction segs as [|sg segs IH]; intros xs HF HL HH HS.
  - exists []. cbn [flat_map] in HH. inversion HH; subst. split; [constructor|]. auto.
  - cbn [flat_map] in HH. apply Forall2_app_inv_r in HH as (x1 & x2 & H1 & H2 & ->).
    inversion HF as [|? ? F1 F2]; subst. apply Forall_app in HS as [S1 S2].
    destruct (IH x2 F2) as (os & O1 & O2 & O3); auto; [intros; apply HL; now right|].
    destruct (seg_values m ds value L sg x1 HW F1) as [V1 V2]; auto; [apply HL; now left|].
    exists (concat (map value x1) :: os). split; [now constructor|]. cbn [concat map sumN].
    rewrite map_app, concat_app, <- O2. split; auto. rewrite lenN_app, V2, O3.
    destruct sg as [[c a] b]. cbn [fst snd]. lia.
Qed.

(** ** Fresh readers *)

Lemma csize_fresh m ds csz : Forall (fun c => 0 < c) (d_chunk_shape ds) -> supported_sizes ds ->
  chunk_bytes m ds = Ok csz -> csz = csize ds.
Proof. intros HP HS E. rewrite chunk_bytes_ok in E by auto. unfold csize. congruence. Qed.

(** Readers reachable from a new one by any reads (with any outcome). *)
Inductive reachable (m : mode) (inflate : bytes -> option bytes) (ds : dataset) (file : bytes) : creader -> Prop :=
| rc_new r : cache_new m ds file = Ok r -> reachable m inflate ds file r
| rc_read r fuel e dst : reachable m inflate ds file r ->
    reachable m inflate ds file (snd (cache_read m inflate fuel r e dst)).

Lemma reachable_inv m inflate ds file r : same_addr ds -> reachable m inflate ds file r ->
  cr_ds r = ds /\ cr_file r = file /\ chunk_bytes m ds = Ok (cr_csz r) /\ cache_cap (cr_csz r) = Ok (cr_cap r) /\
  cache_ok m inflate r (cr_cache r).
Proof.
  intros HA. induction 1 as [r H|r fuel e dst H IH].
  - unfold cache_new in H. apply bind_ok in H as (csz & E1 & H). apply bind_ok in H as (cap & E2 & H).
    injection H as <-. cbn [cr_ds cr_file cr_csz cr_cap cr_cache]. repeat split; auto. intros k v. discriminate.
  - destruct IH as (A & B & C & D & F). rewrite <- A in HA.
    destruct (cache_read_plain m inflate fuel r e dst HA F) as [_ I].
    destruct (I _ eq_refl) as (I1 & I2 & I3 & I4 & I5). rewrite I3, I4. repeat split; congruence || auto.
Qed.

Lemma cache_read_reachable m inflate ds file r fuel e dst : same_addr ds -> reachable m inflate ds file r ->
  fst (cache_read m inflate fuel r e dst) = plain_read m inflate fuel file ds (cr_csz r) e dst.
Proof.
  intros HA H. destruct (reachable_inv _ _ _ _ _ HA H) as (A & B & _ & _ & F). rewrite <- A in HA.
  rewrite (proj1 (cache_read_plain m inflate fuel r e dst HA F)). now rewrite A, B.
Qed.

(** ** Reading a stored dataset *)

Lemma sel_size ds (cnt : list N) (dst : bytes) : supported_sizes ds -> prodN cnt * d_dsize ds <= lenN dst -> lenN dst < W64 ->
  prodN cnt < W64 /\ prodN cnt * d_dsize ds < W64.
Proof. intros [S1 _ _ _] H1 H2. nia. Qed.

Lemma stores_loads m inflate file ds value c : stores inflate file ds value -> In c (d_chunks ds) ->
  loads ds value (load m inflate file ds (csize ds)) c.
Proof. intros. unfold loads. now apply load_stores. Qed.

Lemma plain_read_values m inflate file ds value e idx cnt dst fuel :
  csize ds < W64 -> 0 < d_dsize ds ->
  (forall c, needs ds idx cnt c -> loads ds value (load m inflate file ds (csize ds)) c) ->
  full_dataset ds -> get_start_count e (d_shape ds) = Ok (idx, cnt) -> sel_in (d_shape ds) idx cnt ->
  reads_right m ds e idx cnt -> prodN cnt * d_dsize ds <= lenN dst -> lenN dst < W64 ->
  (N.to_nat (prodN cnt) < fuel)%nat ->
  plain_read m inflate fuel file ds (csize ds) e dst =
    (Ok (prodN cnt * d_dsize ds), concat (map value (slab idx cnt)) ++ skipn (N.to_nat (prodN cnt * d_dsize ds)) dst) /\
  lenN (concat (map value (slab idx cnt))) = prodN cnt * d_dsize ds.
Proof.
  intros HC Hd HL HD HG HS (segs & HR & HT) Hb HW Hf.
  assert (HP : prodN cnt < W64) by nia.
  destruct (segs_values m ds value (load m inflate file ds (csize ds)) HC segs (slab idx cnt)) as (os & O1 & O2 & O3).
  - eapply right_wf; eauto.
  - intros sg Hsg. apply HL. apply (right_needs ds idx cnt segs); auto. apply in_map_iff. eauto.
  - apply HT.
  - apply Forall_forall. intros x Hx. eapply slab_in_shape; eauto.
  - assert (ET : total segs = prodN cnt).
    { apply right_total with (ds := ds) (idx := idx); auto. destruct HS as (L1 & L2 & _). congruence. }
    rewrite ET, O2 in O3. split; auto.
    apply plain_read_iff. split.
    + rewrite (read_size_eq m ds e dst idx cnt); auto; [|eapply sel_lead; eauto|lia].
      now rewrite leb_true.
    + exists (concat (map value (slab idx cnt))). split.
      * exists segs, os. repeat split; auto. rewrite O3. auto.
      * unfold splice. cbn [N.to_nat firstn app]. do 2 f_equal. unfold lenN in O3. lia.
Qed.

(** ** Every outcome of a well-formed read *)

Lemma readable_cases m inflate file ds segs : regular ds -> Forall (seg_wf ds) segs ->
  (forall sg, In sg segs -> readable inflate file ds (fst (fst sg)) /\
     exists data, load m inflate file ds (csize ds) (fst (fst sg)) = Ok data /\ lenN data = csize ds) \/
  (exists sg, In sg segs /\ ~ readable inflate file ds (fst (fst sg)) /\
     exists e, load m inflate file ds (csize ds) (fst (fst sg)) = Err e).
Proof.
  intros HR. induction segs as [|sg segs IH]; intros HF; [left; easy|].
  inversion HF as [|? ? F1 F2]; subst.
  assert (Hin : In (fst (fst sg)) (d_chunks ds)) by (destruct sg as [[c a] b]; apply F1).
  destruct (load_total m inflate file ds _ HR Hin) as [H|H].
  - destruct (IH F2) as [A|(s & A & B)].
    + left. intros s [<-|Hs]; auto.
    + right. exists s. split; auto. now right.
  - right. exists sg. split; auto. now left.
Qed.

Lemma regular_total m inflate file ds : regular ds -> total_load ds (load m inflate file ds (csize ds)).
Proof.
  intros HR c Hc. destruct (load_total m inflate file ds c HR Hc) as [[_ (d & E & L)]|[_ (e & E)]]; eauto.
Qed.

(** The hypotheses of a well-formed read of an in-bounds selection. *)
Record read_ok (m : mode) (ds : dataset) (e : extents) (idx cnt : list N) (dst : bytes) (fuel : nat) : Prop := {
  ro_full : full_dataset ds;
  ro_reg : regular ds;
  ro_sel : get_start_count e (d_shape ds) = Ok (idx, cnt);
  ro_in : sel_in (d_shape ds) idx cnt;
  ro_right : reads_right m ds e idx cnt;
  ro_cap : prodN cnt * d_dsize ds <= lenN dst;
  ro_len : lenN dst < W64;
  ro_fuel : (N.to_nat (prodN cnt) < fuel)%nat
}.

Lemma ro_size m ds e idx cnt dst fuel : read_ok m ds e idx cnt dst fuel ->
  read_size m ds e dst = Ok (prodN cnt * d_dsize ds) /\ prodN cnt < W64 /\ csize ds < W64 /\ 0 < d_dsize ds.
Proof.
  intros [HD HR HG HS (segs & HX & HT) Hb HW Hf]. destruct HR as [[S1 S2 S3 S4] HA HP].
  assert (HP' : prodN cnt < W64) by nia. repeat split; auto.
  rewrite (read_size_eq m ds e dst idx cnt); auto; [|eapply sel_lead; eauto|lia]. now rewrite leb_true.
Qed.

Lemma plain_cases m inflate file ds e idx cnt dst fuel : read_ok m ds e idx cnt dst fuel ->
  ((forall c, needs ds idx cnt c -> readable inflate file ds c) /\
   exists d, plain_read m inflate fuel file ds (csize ds) e dst = (Ok (prodN cnt * d_dsize ds), d)) \/
  ((exists c, needs ds idx cnt c /\ ~ readable inflate file ds c) /\
   exists x d, plain_read m inflate fuel file ds (csize ds) e dst = (Err x, d)).
Proof.
  intros HO. destruct (ro_size _ _ _ _ _ _ _ HO) as (ES & HP & HC & Hd).
  destruct HO as [HD HR HG HS (segs & HX & HT) Hb HW Hf]. specialize (HX fuel Hf).
  assert (Hwf : Forall (seg_wf ds) segs) by (eapply right_wf; eauto).
  assert (ET : total segs = prodN cnt).
  { apply right_total with (ds := ds) (idx := idx); auto. destruct HS as (L1 & L2 & _). congruence. }
  pose proof (fun c => right_needs ds idx cnt segs c HD HS HT) as HN.
  assert (HTOT : (exists d, plain_read m inflate fuel file ds (csize ds) e dst = (Ok (prodN cnt * d_dsize ds), d)) \/
                 (exists x d, plain_read m inflate fuel file ds (csize ds) e dst = (Err x, d))).
  { unfold plain_read. rewrite ES, HX.
    destruct (plain_loop_total m ds (load m inflate file ds (csize ds)) HC (regular_total m inflate file ds HR) segs 0 dst Hwf)
      as [(d & E)|(x & d & E)]; [rewrite ET; lia| |]; rewrite E; cbn [bind]; eauto. }
  destruct (readable_cases m inflate file ds segs HR Hwf) as [HA|(sg & Hin & HB & x & EL)].
  - left. split.
    + intros c Hc. apply HN in Hc. apply in_map_iff in Hc as (sg & <- & Hsg). now apply HA.
    + destruct HTOT as [|(x & d & E)]; auto. exfalso.
      assert (exists os, Forall2 (seg_ok m (load m inflate file ds (csize ds)) (d_dsize ds)) segs os /\
                lenN (concat os) = total segs * d_dsize ds) as (os & O1 & O2).
      { unfold total. clear -HA Hwf HC. induction segs as [|sg segs IH]; [exists []; split; [constructor|reflexivity]|].
        inversion Hwf as [|? ? F1 F2]; subst. destruct IH as (os & O1 & O2); auto; [intros; apply HA; now right|].
        destruct (HA sg (or_introl eq_refl)) as (_ & data & EL & ED).
        destruct (seg_ok_load m ds _ sg data HC F1 EL ED) as (o & Ho & Lo & _).
        exists (o :: os). split; [now constructor|]. cbn [concat map sumN]. rewrite lenN_app, Lo, O2.
        destruct sg as [[c a] b]. cbn [fst snd]. lia. }
      assert (EP : plain_read m inflate fuel file ds (csize ds) e dst = (Ok (prodN cnt * d_dsize ds), splice dst 0 (concat os))).
      { apply plain_read_iff. split; auto. exists (concat os). split; auto. exists segs, os. repeat split; auto.
        rewrite O2, ET. auto. }
      congruence.
  - right. split.
    + exists (fst (fst sg)). split; auto. apply HN. apply in_map_iff. eauto.
    + destruct HTOT as [(d & E)|]; auto. exfalso. apply plain_read_iff in E as (_ & out & (segs' & os & E1 & E2 & _) & _).
      rewrite HX in E1. injection E1 as <-. destruct (Forall2_in_l _ _ _ _ E2 Hin) as (o & _ & Ho).
      destruct sg as [[c a] b]. cbn [fst] in EL. destruct Ho as (s & z & data & _ & _ & _ & E & _). congruence.
Qed.

Lemma group_dests m sort ds e idx cnt dst fuel : addr_sort sort -> read_ok m ds e idx cnt dst fuel ->
  exists segs G, chunk_slices m fuel ds e = (segs, SDone) /\ group_chunk_slices sort m fuel ds e = Ok G /\
    Permutation G (dests 0 segs) /\ total segs = prodN cnt /\ Forall (seg_wf ds) segs /\ Forall (g_wf ds (prodN cnt)) G.
Proof.
  intros HSort HO. destruct (ro_size _ _ _ _ _ _ _ HO) as (ES & HP & HC & Hd).
  destruct HO as [HD HR HG HS (segs & HX & HT) Hb HW Hf]. specialize (HX fuel Hf).
  assert (Hwf : Forall (seg_wf ds) segs) by (eapply right_wf; eauto).
  assert (ET : total segs = prodN cnt).
  { apply right_total with (ds := ds) (idx := idx); auto. destruct HS as (L1 & L2 & _). congruence. }
  exists segs, (sort (dests 0 segs)). split; auto. split.
  { unfold group_chunk_slices, dest_slices. rewrite HX, scan_dest_ok; auto; [|lia].
    eapply Forall_impl; [|exact Hwf]. intros [[c a] b] (? & _). lia. }
  destruct (HSort (dests 0 segs)) as [P _]. split; auto. split; auto. split; auto.
  rewrite Forall_forall. intros g Hg. apply (Permutation_in _ P) in Hg.
  pose proof (dests_wf ds segs (prodN cnt) Hwf ltac:(lia)) as HH. rewrite Forall_forall in HH. auto.
Qed.

Lemma direct_cases m inflate sort r file e idx cnt dst fuel : addr_sort sort -> dr_file r = Some file ->
  dr_csz r = csize (dr_ds r) -> read_ok m (dr_ds r) e idx cnt dst fuel ->
  ((forall c, needs (dr_ds r) idx cnt c -> readable inflate file (dr_ds r) c) /\
   exists d, direct_read m inflate sort fuel r e dst = (Ok (prodN cnt * d_dsize (dr_ds r)), d)) \/
  ((exists c, needs (dr_ds r) idx cnt c /\ ~ readable inflate file (dr_ds r) c) /\
   exists x d, direct_read m inflate sort fuel r e dst = (Err x, d)).
Proof.
  intros HSort Hf HZ HO. destruct (ro_size _ _ _ _ _ _ _ HO) as (ES & HP & HC & Hd).
  assert (HA : same_addr (dr_ds r)) by apply HO.
  pose proof (fun v d => direct_read_iff m inflate sort fuel r file e dst v d HSort HA Hd (ro_len _ _ _ _ _ _ _ HO) Hf) as DI.
  rewrite HZ in DI.
  destruct (plain_cases m inflate file (dr_ds r) e idx cnt dst fuel HO) as [[A (d & E)]|[A (x & d & E)]].
  - left. split; auto. exists d. now apply DI.
  - right. split; auto.
    destruct (group_dests m sort (dr_ds r) e idx cnt dst fuel HSort HO) as (segs & G & EX & EG & PG & ET & Hwf & HG).
    assert (HT : total_load (dr_ds r) (dload m inflate r file)).
    { unfold dload. rewrite HZ. apply regular_total, HO. }
    destruct (direct_loop_total m inflate r file (prodN cnt) HA HC HT G None dst (ro_len _ _ _ _ _ _ _ HO)
                (ro_cap _ _ _ _ _ _ _ HO) HG I) as [(d1 & ED)|(x1 & d1 & ED)].
    + exfalso. assert (direct_read m inflate sort fuel r e dst = (Ok (prodN cnt * d_dsize (dr_ds r)), d1)) as H.
      { unfold direct_read. now rewrite ES, EG, Hf, ED. }
      apply DI in H. congruence.
    + exists x1, d1. unfold direct_read. now rewrite ES, EG, Hf, ED.
Qed.

Lemma in_tasks m inflate r dlen G f : In f (map snd (tasks_of m inflate r dlen G)) ->
  exists grp, In grp (chunk_by_addr G) /\ f = snd (par_task m inflate r dlen grp).
Proof.
  unfold tasks_of. rewrite map_map. intros H. apply in_map_iff in H as (grp & <- & Hg). eauto.
Qed.

Lemma par_cases m inflate sort r file e idx cnt dst fuel x d : addr_sort sort -> dr_file r = Some file ->
  dr_csz r = csize (dr_ds r) -> read_ok m (dr_ds r) e idx cnt dst fuel ->
  par_read m inflate sort fuel r e dst x d ->
  ((forall c, needs (dr_ds r) idx cnt c -> readable inflate file (dr_ds r) c) /\
   x = Ok (prodN cnt * d_dsize (dr_ds r)) /\
   plain_read m inflate fuel file (dr_ds r) (csize (dr_ds r)) e dst = (x, d)) \/
  ((exists c, needs (dr_ds r) idx cnt c /\ ~ readable inflate file (dr_ds r) c) /\ exists z, x = Err z).
Proof.
  intros HSort Hf HZ HO HR. destruct (ro_size _ _ _ _ _ _ _ HO) as (ES & HP & HC & Hd).
  assert (HA : same_addr (dr_ds r)) by apply HO.
  pose proof (ro_len _ _ _ _ _ _ _ HO) as HW.
  destruct (plain_cases m inflate file (dr_ds r) e idx cnt dst fuel HO) as [[A (d0 & E)]|[A (z & d0 & E)]].
  - left. rewrite <- HZ in E. destruct (par_of_plain m inflate sort fuel r file e dst _ d0 x d HSort HA Hd HW Hf E HR) as [-> ->].
    rewrite HZ in E. auto.
  - right. split; auto.
    destruct (group_dests m sort (dr_ds r) e idx cnt dst fuel HSort HO) as (segs & G & EX & EG & PG & ET & Hwf & HG).
    inversion HR as [x' E1 E2|v' x' E1 E2 E3|v' G' final d' x' E1 E2 E3 E4 E5]; subst.
    + now apply E2 in ES.
    + now apply E3 in EG.
    + rewrite EG in E2. injection E2 as <-.
      pose proof E3 as E3'. rewrite map_waiting in E3'. fold (tasks_of m inflate r (lenN dst) G) in E3'.
      pose proof (par_result_from _ _ _ _ _ E3' E5) as HF.
      assert (HT : total_load (dr_ds r) (dload m inflate r file)).
      { unfold dload. rewrite HZ. apply regular_total, HO. }
      assert (TT : forall f, In f (map snd (tasks_of m inflate r (lenN dst) G)) -> f = FOk \/ exists e, f = FErr e).
      { intros f Hin. apply in_tasks in Hin as (grp & Hg & ->).
        apply (par_task_total m inflate r file (prodN cnt)); auto; [apply HO| |].
        - pose proof (chunk_by_ok G) as CK. rewrite Forall_forall in CK. auto.
        - rewrite Forall_forall in *. intros g Hgg. apply HG. rewrite <- (chunk_by_concat G).
          apply in_concat. eauto. }
      destruct x' as [[]|e'| | |]; cbn [bind].
      * exfalso. assert (par_read m inflate sort fuel r e dst (Ok v') d) as HR'
          by (eapply pa_run with (x := Ok tt); eauto).
        apply (plain_of_par m inflate sort fuel r file e dst v' d HSort HA Hd HW Hf) in HR'.
        rewrite HZ in HR'. congruence.
      * eauto.
      * destruct (TT _ HF) as [|[? ?]]; discriminate.
      * destruct (TT _ HF) as [|[? ?]]; discriminate.
      * destruct HF.
Qed.

(** ** The parallel reader stays inside the destination *)

Lemma apply_out ws : forall dst i, in_bounds (lenN dst) ws -> ~ In (N.of_nat i) (map fst ws) ->
  nth_error (apply_writes ws dst) i = nth_error dst i.
Proof.
  induction ws as [|[p b] ws IH]; intros dst i HB HN; [reflexivity|]. cbn [apply_writes].
  inversion HB as [|? ? B1 B2]; subst. cbn [fst] in B1. cbn [map In fst] in HN.
  assert (B : p + lenN [b] <= lenN dst) by (unfold lenN in *; cbn [length]; lia).
  assert (LS : lenN (splice dst p [b]) = lenN dst) by (unfold lenN; now rewrite splice_length).
  rewrite IH; [|now rewrite LS|tauto]. rewrite splice_nth by auto. cbn [length].
  destruct (Nat.leb_spec (N.to_nat p) i); cbn [andb]; auto.
  destruct (Nat.ltb_spec i (N.to_nat p + 1)); auto.
  exfalso. apply HN. left. lia.
Qed.

Lemma par_inside m inflate sort fuel r e dst x d V segs G :
  read_size m (dr_ds r) e dst = Ok V -> V <= lenN dst ->
  (group_chunk_slices sort m fuel (dr_ds r) e = Ok G -> Permutation G (dests 0 segs) /\
   Forall (g_exact m (d_dsize (dr_ds r))) G /\ total segs * d_dsize (dr_ds r) <= V /\
   Forall (fun '(_, a, b) => a <= b) segs) ->
  (forall G', group_chunk_slices sort m fuel (dr_ds r) e = Ok G' -> G' = G) ->
  par_read m inflate sort fuel r e dst x d ->
  x <> Ub /\ length d = length dst /\ (forall i, V <= N.of_nat i -> nth_error d i = nth_error dst i).
Proof.
  intros ES HV HG HU HR.
  inversion HR as [x' E1 E2|v' x' E1 E2 E3|v' G' final d' x' E1 E2 E3 E4 E5]; subst.
  - now apply E2 in ES.
  - split; [|split; auto].
    destruct (group_chunk_slices sort m fuel (dr_ds r) e) eqn:EG; cbn [failed]; try discriminate.
    unfold group_chunk_slices, dest_slices in EG. destruct (chunk_slices m fuel (dr_ds r) e) as [l st].
    destruct st; cbn [bind] in EG; try discriminate.
    exfalso. revert EG. apply bind_no_ub; [|discriminate]. generalize 0.
    induction l as [|[[c a] b] l IH]; intros off; cbn [scan_dest]; [discriminate|].
    apply bind_no_ub; [unfold sub64; destruct (_ <=? _), m; discriminate|]. intros z.
    apply bind_no_ub; [unfold add64; destruct (_ <? _), m; discriminate|]. intros z2.
    apply bind_no_ub; [apply IH|discriminate].
  - rewrite <- (HU _ E2) in *. clear HU. destruct (HG E2) as (PG & HX & HT & HL). clear HG.
    rewrite map_waiting in E3. fold (tasks_of m inflate r (lenN dst) G') in E3.
    destruct (tasks_positions m inflate r (lenN dst) segs G' PG HX) as (rest & HP).
    destruct (par_writes _ _ _ _ E3) as (tr & rest2 & P2 & ->).
    assert (POS : forall p, In p (map fst tr) -> p < V).
    { intros p Hp. assert (In p (map fst (concat (map fst (tasks_of m inflate r (lenN dst) G'))))).
      { apply in_map_iff in Hp as (w & <- & Hw). apply in_map. apply (Permutation_in _ P2). apply in_app_iff. auto. }
      assert (In p (seqN 0 (N.to_nat (total segs * d_dsize (dr_ds r))))).
      { apply (Permutation_in _ HP). apply in_app_iff. auto. }
      apply in_seqN in H0. lia. }
    assert (HB : in_bounds (lenN dst) tr).
    { apply Forall_forall. intros w Hw. specialize (POS (fst w) (in_map fst _ _ Hw)). lia. }
    split; [|split].
    + assert (HN : forall f, In f (map snd (tasks_of m inflate r (lenN dst) G')) -> f <> FUb).
      { intros f Hf. apply in_tasks in Hf as (grp & Hg & ->).
        apply (par_task_no_ub m inflate r (lenN dst) (total segs)); [lia| |].
        - rewrite Forall_forall in *. intros g Hgg. apply HX. rewrite <- (chunk_by_concat G'). apply in_concat. eauto.
        - apply Forall_forall. intros g Hgg. assert (In g G') by (rewrite <- (chunk_by_concat G'); apply in_concat; eauto).
          apply (Permutation_in _ PG) in H. destruct (dests_range segs 0 g HL H). lia. }
      pose proof (par_result_from _ _ _ _ _ E3 E5) as HF.
      destruct x' as [[]|e'| | |]; cbn [bind]; try discriminate. now apply HN in HF.
    + now apply apply_length.
    + intros i Hi. apply apply_out; auto. intros Hp. apply POS in Hp. lia.
Qed.

Lemma scan_debug_exact segs G : scan_dest Debug 0 segs = Ok G -> forall dsz, Forall (g_exact Debug dsz) G.
Proof. intros _ dsz. apply Forall_forall. intros g _. now left. Qed.

Lemma group_debug_dests sort fuel ds e G : addr_sort sort -> group_chunk_slices sort Debug fuel ds e = Ok G ->
  exists segs, chunk_slices Debug fuel ds e = (segs, SDone) /\ Permutation G (dests 0 segs) /\
    Forall (fun '(_, a, b) => a <= b) segs.
Proof.
  intros HS E. unfold group_chunk_slices, dest_slices in E.
  destruct (chunk_slices Debug fuel ds e) as [segs st]. destruct st; try discriminate.
  apply bind_ok in E as (D & ED & E). injection E as <-. apply scan_debug in ED as [-> HL].
  exists segs. split; auto. split; auto. apply HS.
Qed.

Lemma par_debug inflate sort fuel r e dst x d : addr_sort sort ->
  par_read Debug inflate sort fuel r e dst x d ->
  x <> Ub /\ length d = length dst /\
  (forall idx cnt i, get_start_count e (d_shape (dr_ds r)) = Ok (idx, cnt) ->
     prodN cnt * d_dsize (dr_ds r) <= N.of_nat i -> nth_error d i = nth_error dst i).
Proof.
  intros HS HR.
  destruct (read_size Debug (dr_ds r) e dst) as [V|er| | |] eqn:ES.
  2,3,5: inversion HR as [x' E1 E2|v' x' E1 E2 E3|v' G' final d' x' E1 E2 E3 E4 E5]; subst; try congruence;
    rewrite ES; split; [discriminate|split; auto].
  2:{ exfalso. unfold read_size in ES. revert ES. apply bind_no_ub.
      { destruct (resolution_ok e (d_shape (dr_ds r))) as [A B]. destruct e as [|l].
        - destruct (B (or_introl eq_refl)) as (i & c & E1 & _). rewrite (counts_of _ _ _ _ E1). discriminate.
        - destruct (Nat.eq_dec (length l) (length (d_shape (dr_ds r)))) as [Hl|Hl].
          + destruct (B (or_intror (ex_intro _ l (conj eq_refl Hl)))) as (i & c & E1 & _). rewrite (counts_of _ _ _ _ E1). discriminate.
          + destruct (A l eq_refl Hl) as [_ E]. rewrite E. discriminate. }
      intros c. apply bind_no_ub.
      { unfold product64. generalize 1. induction c as [|y c IH]; intros acc; cbn [product64_from]; [discriminate|].
        apply bind_no_ub; [unfold mul64; destruct (_ <? _); discriminate|auto]. }
      intros p. apply bind_no_ub; [unfold mul64; destruct (_ <? _); discriminate|].
      intros z. apply bind_no_ub; [unfold ensure; destruct (_ <=? _); discriminate|discriminate]. }
  assert (exists idx cnt, get_start_count e (d_shape (dr_ds r)) = Ok (idx, cnt)) as (idx & cnt & HG).
  { destruct (resolution_ok e (d_shape (dr_ds r))) as [A B]. destruct e as [|l].
    - destruct (B (or_introl eq_refl)) as (i & c & E1 & _). eauto.
    - destruct (Nat.eq_dec (length l) (length (d_shape (dr_ds r)))) as [Hl|Hl].
      + destruct (B (or_intror (ex_intro _ l (conj eq_refl Hl)))) as (i & c & E1 & _). eauto.
      + destruct (A l eq_refl Hl) as [_ E]. unfold read_size in ES. rewrite E in ES. discriminate. }
  destruct (read_size_debug _ _ _ _ _ _ HG ES) as (EV & HV & HW).
  destruct (par_inside Debug inflate sort fuel r e dst x d V
              (fst (chunk_slices Debug fuel (dr_ds r) e))
              (match group_chunk_slices sort Debug fuel (dr_ds r) e with Ok G => G | _ => [] end) ES HV)
    as (A & B & C); auto.
  - intros EG. destruct (group_chunk_slices sort Debug fuel (dr_ds r) e) as [G| | | |] eqn:EG'; try discriminate.
    destruct (group_debug_dests _ _ _ _ _ HS EG') as (segs & EX & P & HL).
    pose proof (slices_debug_sum (dr_ds r) e fuel idx cnt HG) as HT. rewrite EX in *. cbn [fst] in *.
    split; auto. split; [apply Forall_forall; intros; now left|]. split; auto. rewrite EV. nia.
  - intros G' EG. now rewrite EG.
  - split; auto. split; auto. intros idx' cnt' i HG' Hi. apply C. rewrite HG in HG'. injection HG' as <- <-. lia.
Qed.

Lemma par_right m inflate sort fuel r e idx cnt dst x d : addr_sort sort ->
  read_ok m (dr_ds r) e idx cnt dst fuel -> par_read m inflate sort fuel r e dst x d ->
  x <> Ub /\ length d = length dst /\
  (forall i, prodN cnt * d_dsize (dr_ds r) <= N.of_nat i -> nth_error d i = nth_error dst i).
Proof.
  intros HS HO HR. destruct (ro_size _ _ _ _ _ _ _ HO) as (ES & HP & HC & Hd).
  destruct (group_dests m sort (dr_ds r) e idx cnt dst fuel HS HO) as (segs & G & EX & EG & PG & ET & Hwf & HG).
  pose proof (ro_cap _ _ _ _ _ _ _ HO) as Hcap. pose proof (ro_len _ _ _ _ _ _ _ HO) as Hlen.
  apply (par_inside m inflate sort fuel r e dst x d _ segs G ES Hcap); auto.
  - intros _. split; auto. split; [|split; [rewrite ET; lia|]].
    + apply Forall_forall. intros g Hg. right. rewrite Forall_forall in HG. destruct (HG g Hg) as [(A & B & _) C].
      unfold csize in HC. unfold g_len in *. repeat split; nia.
    + eapply Forall_impl; [|exact Hwf]. intros [[c a] b] (? & _). lia.
  - intros G' E'. congruence.
Qed.

(** No byte is written twice. *)
Definition written_once (ts : list task) : Prop := NoDup (map fst (concat (map fst ts))).
Lemma race_free_debug inflate sort fuel r e dlen G : addr_sort sort ->
  group_chunk_slices sort Debug fuel (dr_ds r) e = Ok G -> written_once (tasks_of Debug inflate r dlen G).
Proof.
  intros HS EG. destruct (group_debug_dests _ _ _ _ _ HS EG) as (segs & EX & P & HL).
  destruct (tasks_positions Debug inflate r dlen segs G P) as (rest & HP).
  { apply Forall_forall; intros; now left. }
  unfold written_once. apply (NoDup_prefix _ rest). apply (Permutation_NoDup (Permutation_sym HP)). apply seqN_NoDup.
Qed.
Lemma race_free_right m inflate sort fuel r e idx cnt dst dlen G : addr_sort sort ->
  read_ok m (dr_ds r) e idx cnt dst fuel ->
  group_chunk_slices sort m fuel (dr_ds r) e = Ok G -> written_once (tasks_of m inflate r dlen G).
Proof.
  intros HS HO EG'. destruct (ro_size _ _ _ _ _ _ _ HO) as (ES & HP & HC & Hd).
  destruct (group_dests m sort (dr_ds r) e idx cnt dst fuel HS HO) as (segs & G' & EX & EG & PG & ET & Hwf & HG).
  rewrite EG in EG'. injection EG' as <-.
  pose proof (ro_cap _ _ _ _ _ _ _ HO) as Hcap. pose proof (ro_len _ _ _ _ _ _ _ HO) as Hlen.
  destruct (tasks_positions m inflate r dlen segs G' PG) as (rest & HPP).
  { apply Forall_forall. intros g Hg. right. rewrite Forall_forall in HG. destruct (HG g Hg) as [(A & B & _) C].
    unfold csize in HC. unfold g_len in *. repeat split; nia. }
  unfold written_once. apply (NoDup_prefix _ rest). apply (Permutation_NoDup (Permutation_sym HPP)). apply seqN_NoDup.
Qed.
