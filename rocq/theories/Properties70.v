(** * C94: sequential reads of a file whose chunks are written between the loads. *)
From Coq Require Import List NArith Lia Bool Permutation.
From Verif Require Import Base Spec Extent Chunk Dataset Slicer Filters Reader SpecApi SpecReader CacheProofs Writes DirectProofs ReadProofs
  ReaderProps SlicerTheorems Changing Properties4 Properties15 Properties68 ExamplesReader SerdeProofs.
Import ListNotations.
Open Scope N_scope.

(** ** Specification *)

(** The [k]-th piece of [u] bytes of [b]: with [u] the size of an element, its [k]-th element. *)
Definition piece (u k : N) (b : bytes) : bytes := firstn (N.to_nat u) (skipn (N.to_nat (k * u)) b).
(** Every piece of [b] is as in the output for one of the versions. *)
Definition mixed_output (V : bytes -> Prop) (output : bytes -> bytes) (u : N) (b : bytes) : Prop :=
  (forall v, V v -> lenN (output v) = lenN b) /\ forall k, exists v, V v /\ piece u k b = piece u k (output v).

(** Cached readers after any reads, while the file had contents in [V]. *)
Inductive history (m : mode) (inflate : bytes -> option bytes) (ds : dataset) (V : bytes -> Prop) : creader -> Prop :=
| hs_new r f : V f -> cache_new m ds f = Ok r -> history m inflate ds V r
| hs_read r fuel fs e dst : history m inflate ds V r -> Forall V fs ->
    history m inflate ds V (snd (cache_read_v m inflate fuel fs r e dst)).

(** ** Pieces *)

Lemma nth_piece u k (b : bytes) i : nth_error (piece u k b) i =
  if (i <? N.to_nat u)%nat then nth_error b (N.to_nat (k * u) + i) else None.
Proof.
  unfold piece. destruct (Nat.ltb_spec i (N.to_nat u)) as [H|H].
  - rewrite nth_error_firstn_ by exact H. apply nth_error_skipn_.
  - apply nth_error_None. rewrite firstn_length. lia.
Qed.
Lemma piece_splice u q n k dst o : lenN o = n * u -> q * u + lenN o <= lenN dst ->
  piece u k (splice dst (q * u) o) = if (q <=? k) && (k <? q + n) then piece u (k - q) o else piece u k dst.
Proof.
  intros HL HB. apply nth_error_ext. intros i.
  assert (LO : length o = N.to_nat (n * u)) by (unfold lenN in HL; lia).
  destruct (N.leb_spec q k) as [H1|H1]; [destruct (N.ltb_spec k (q + n)) as [H2|H2]|]; cbn [andb]; rewrite !nth_piece;
    (destruct (Nat.ltb_spec i (N.to_nat u)) as [Hi|Hi]; [|reflexivity]); rewrite (splice_nth dst (q * u) o _ HB), LO.
  - assert (B : k * u = q * u + (k - q) * u) by (rewrite <- N.mul_add_distr_r; f_equal; lia).
    assert (A : (k - q) * u + u <= n * u) by (rewrite <- (N.mul_1_l u) at 2; rewrite <- N.mul_add_distr_r; apply N.mul_le_mono_r; lia).
    replace (N.to_nat (q * u) <=? N.to_nat (k * u) + i)%nat with true by (symmetry; apply Nat.leb_le; lia).
    replace (N.to_nat (k * u) + i <? N.to_nat (q * u) + N.to_nat (n * u))%nat with true by (symmetry; apply Nat.ltb_lt; lia).
    cbn [andb]. f_equal. clear - B. revert B. generalize ((k - q) * u) (k * u) (q * u). intros. lia.
  - assert (A : q * u + n * u <= k * u) by (rewrite <- N.mul_add_distr_r; apply N.mul_le_mono_r; lia).
    replace (N.to_nat (k * u) + i <? N.to_nat (q * u) + N.to_nat (n * u))%nat with false by (symmetry; apply Nat.ltb_ge; lia).
    now rewrite andb_false_r.
  - assert (A : k * u + u <= q * u) by (rewrite <- (N.mul_1_l u) at 2; rewrite <- N.mul_add_distr_r; apply N.mul_le_mono_r; lia).
    replace (N.to_nat (q * u) <=? N.to_nat (k * u) + i)%nat with false by (symmetry; apply Nat.leb_gt; lia). reflexivity.
Qed.

Section M.
Context (m : mode) (inflate : bytes -> option bytes) (V : bytes -> Prop) (u : N) (ds : dataset) (csz : N).
Let dsz := d_dsize ds.

Lemma mixed_step D dst p o (ov : bytes -> bytes) w : mixed_output V D u dst -> V w -> o = ov w ->
  (exists q n, p = q * u /\ lenN o = n * u) -> p + lenN o <= lenN dst -> (forall v, V v -> lenN (ov v) = lenN o) ->
  mixed_output V (fun v => splice (D v) p (ov v)) u (splice dst p o).
Proof.
  intros [H1 H2] Hw Eo (q & n & -> & HL) HB HO. split.
  - intros v Hv. rewrite !splice_len; auto. rewrite HO, H1; auto.
  - intros k. destruct (H2 k) as (v & Hv & E). rewrite (piece_splice u q n k dst o HL HB).
    destruct ((q <=? k) && (k <? q + n)) eqn:EK.
    + exists w. split; auto. rewrite (piece_splice u q n) by (try rewrite HO, H1; try rewrite HO; auto). now rewrite EK, Eo.
    + exists v. split; auto. rewrite (piece_splice u q n) by (try rewrite HO, H1; try rewrite HO; auto). now rewrite EK.
Qed.
Lemma mixed_ext D D' dst : (forall v, V v -> D v = D' v) -> mixed_output V D u dst -> mixed_output V D' u dst.
Proof.
  intros HE [H1 H2]. split.
  - intros v Hv. rewrite <- HE; auto.
  - intros k. destruct (H2 k) as (v & Hv & E). exists v. split; auto. rewrite <- HE; auto.
Qed.

(** A segment covers whole pieces. *)
Definition whole (a b : N) : Prop := forall s e, mul64 m a dsz = Ok s -> mul64 m b dsz = Ok e -> s <= e -> exists n, e - s = n * u.

Lemma seg_ok_whole L c a b o : seg_ok m L dsz (c, a, b) o -> whole a b -> exists n, lenN o = n * u.
Proof. intros (s & e & d & E1 & E2 & H & _ & He & ->) HW. rewrite slice_len by auto. eauto. Qed.
Lemma seg_ok_lens L L' sg o o' : seg_ok m L dsz sg o -> seg_ok m L' dsz sg o' -> lenN o = lenN o'.
Proof.
  destruct sg as [[c a] b]. intros (s & e & d & E1 & E2 & H & _ & He & ->) (s' & e' & d' & E1' & E2' & H' & _ & He' & ->).
  rewrite !slice_len by auto. congruence.
Qed.

(** What a segment is. *)
Definition seg_out (K : chunk -> res bytes) (sg : segment) : bytes :=
  match mul64 m (snd (fst sg)) dsz, mul64 m (snd sg) dsz, K (fst (fst sg)) with
  | Ok s, Ok e, Ok d => firstn (N.to_nat (e - s)) (skipn (N.to_nat s) d)
  | _, _, _ => []
  end.
Lemma seg_out_ok K sg o : seg_ok m K dsz sg o -> o = seg_out K sg.
Proof.
  destruct sg as [[c a] b]. intros (s & e & d & E1 & E2 & _ & E3 & _ & ->). unfold seg_out. cbn [fst snd]. now rewrite E1, E2, E3.
Qed.

(** *** Cached *)
Hypothesis HA : same_addr ds.
Let L (v : bytes) : chunk -> res bytes := load m inflate v ds csz.
Definition known (k : N) (d : bytes) : Prop := exists v, V v /\ forall c, In c (d_chunks ds) -> c_addr c = k -> L v c = Ok d.

Lemma L_same v c c' : In c (d_chunks ds) -> In c' (d_chunks ds) -> c_addr c = c_addr c' -> L v c = L v c'.
Proof. intros H1 H2 E. apply CacheProofs.load_same; auto. Qed.

(** One segment is as in one of the versions, and the cache stays known. *)
Lemma seg_v r cur fs cache sg pos dst : cr_ds r = ds -> cr_csz r = csz -> V cur -> Forall V fs ->
  (forall k d, lru_find k cache = Some d -> known k d) -> In (fst (fst sg)) (d_chunks ds) ->
  exists w cache' cur' fs', V w /\ V cur' /\ Forall V fs' /\
    cache_seg_v m inflate r cur fs cache sg pos dst = (seg_copy m (L w) dsz sg pos dst, cache', (cur', fs')) /\
    (forall k d, lru_find k cache' = Some d -> known k d).
Proof.
  intros Ed Ec HV HF HC Hin. unfold dsz.
  destruct sg as [[c a] b]. cbn [fst] in Hin. unfold cache_seg_v. cbn [fst].
  destruct (lru_get (c_addr c) cache) as [[data cache']|] eqn:Eg.
  - pose proof Eg as Eg'. apply get_some in Eg' as (Hf & _ & Hs). destruct (HC _ _ Hf) as (w & Hw & K).
    unfold cache_seg, seg_copy. rewrite Eg, Ed. specialize (K c Hin eq_refl).
    destruct (byte_range m (d_dsize ds) a b) as [[[s e] sz]| | | |]; cbn [bind failed].
    + exists w, cache', cur, fs. rewrite K. cbn [bind]. repeat split; auto. intros k d Hk. rewrite Hs in Hk. auto.
    + exists w, cache, cur, fs. repeat split; auto.
    + exists w, cache, cur, fs. repeat split; auto.
    + exists w, cache, cur, fs. repeat split; auto.
    + exists w, cache, cur, fs. repeat split; auto.
  - set (f := match fs with f :: _ => f | [] => cur end).
    assert (Hf : V f) by (unfold f; destruct HF; auto). assert (Hfs : Forall V (tl fs)) by (destruct HF; cbn [tl]; auto).
    exists f. unfold cache_seg, seg_copy. cbn [cr_ds cr_csz cr_file cr_cap]. rewrite Eg, Ed, Ec. change (load m inflate f ds csz c) with (L f c).
    destruct (byte_range m (d_dsize ds) a b) as [[[s e] sz]| | | |]; cbn [bind failed]; try (exists cache, f, (tl fs); repeat split; auto; fail).
    destruct (L f c) as [data| | | |] eqn:EL; cbn [bind failed]; try (exists cache, f, (tl fs); repeat split; auto; fail).
    destruct (copy_slice m data s e sz pos dst); cbn [bind failed]; try (exists cache, f, (tl fs); repeat split; auto; fail).
    exists (lru_put (cr_cap r) (c_addr c) data cache), f, (tl fs). repeat split; auto.
    intros k d Hk. apply put_find in Hk as [[-> ->]|Hk]; auto. exists f. split; auto. intros c' Hc' E. rewrite <- EL. now apply L_same.
Qed.

Lemma cache_loop_mixed r st : cr_ds r = ds -> cr_csz r = csz -> forall segs cur fs cache pos dst (D G : bytes -> bytes),
  Forall (fun sg => In (fst (fst sg)) (d_chunks ds) /\ whole (snd (fst sg)) (snd sg)) segs -> (exists q, pos = q * u) ->
  V cur -> Forall V fs -> (forall k d, lru_find k cache = Some d -> known k d) ->
  (forall v, V v -> plain_loop m (L v) dsz segs st pos (D v) = (Ok tt, G v)) -> mixed_output V D u dst ->
  exists dst' cache' cur', cache_loop_v m inflate r segs st cur fs cache pos dst = (Ok tt, dst', cache', cur') /\ mixed_output V G u dst'.
Proof.
  intros Ed Ec. induction segs as [|[[c a] b] segs IH]; intros cur fs cache pos dst D G HF (q & Hq) HV HFs HC HP HM; cbn [cache_loop_v].
  - cbn [plain_loop] in HP. exists dst, cache, cur. split.
    + specialize (HP cur HV). injection HP as -> _. reflexivity.
    + apply (mixed_ext D); auto. intros v Hv. specialize (HP v Hv). now injection HP.
  - inversion HF as [|? ? [F1 F2] F3]; subst x l. cbn [fst snd] in F1, F2.
    assert (HS : forall v, V v -> exists o, seg_ok m (L v) dsz (c, a, b) o /\ pos + lenN o <= lenN (D v) /\
      plain_loop m (L v) dsz segs st (pos + lenN o) (splice (D v) pos o) = (Ok tt, G v)).
    { intros v Hv. specialize (HP v Hv). cbn [plain_loop] in HP.
      destruct (seg_copy m (L v) dsz (c, a, b) pos (D v)) as [[d' p']| | | |] eqn:ES; try discriminate HP.
      apply seg_copy_iff in ES as (o & O1 & O2 & O3). injection O3 as -> ->. eauto. }
    destruct (seg_v r cur fs cache (c, a, b) pos dst Ed Ec HV HFs HC F1) as (w & cache' & cur' & fs' & Hw & Hc' & Hfs' & EV & HC').
    rewrite EV. pose proof HM as [M1 M2]. destruct (HS w Hw) as (o & O1 & O2 & O3).
    assert (EW : seg_copy m (L w) dsz (c, a, b) pos dst = Ok (splice dst pos o, pos + lenN o)).
    { apply seg_copy_iff. exists o. rewrite <- (M1 w Hw). auto. }
    rewrite EW. clear EV EW.
    assert (EO : forall v o', V v -> seg_ok m (L v) dsz (c, a, b) o' -> o' = seg_out (L v) (c, a, b)) by (intros v o' _ X; now apply seg_out_ok).
    destruct (seg_ok_whole (L w) c a b o O1 F2) as (n & En).
    apply (IH cur' fs' cache' (pos + lenN o) (splice dst pos o) (fun v => splice (D v) pos (seg_out (L v) (c, a, b))) G); auto.
    + exists (q + n). rewrite Hq, En. lia.
    + intros v Hv. destruct (HS v Hv) as (o' & X1 & X2 & X3). rewrite <- (EO v o' Hv X1), (seg_ok_lens _ _ _ _ _ O1 X1). exact X3.
    + apply (mixed_step D dst pos o (fun v => seg_out (L v) (c, a, b)) w); auto.
      * exists q, n. auto.
      * rewrite <- (M1 w Hw). exact O2.
      * intros v Hv. destruct (HS v Hv) as (o' & X1 & _). rewrite <- (EO v o' Hv X1). eapply seg_ok_lens; eauto.
Qed.

(** Any read keeps the cache known. *)
Lemma cache_loop_known r st : cr_ds r = ds -> cr_csz r = csz -> forall segs cur fs cache pos dst,
  Forall (fun sg => In (fst (fst sg)) (d_chunks ds)) segs -> V cur -> Forall V fs -> (forall k d, lru_find k cache = Some d -> known k d) ->
  let o := cache_loop_v m inflate r segs st cur fs cache pos dst in
  V (snd o) /\ forall k d, lru_find k (snd (fst o)) = Some d -> known k d.
Proof.
  intros Ed Ec. induction segs as [|sg segs IH]; intros cur fs cache pos dst HF HV HFs HC; cbn [cache_loop_v]; auto.
  inversion HF as [|? ? F1 F3]; subst.
  destruct (seg_v r cur fs cache sg pos dst Ed Ec HV HFs HC F1) as (w & cache' & cur' & fs' & Hw & Hc' & Hfs' & EV & HC').
  rewrite EV. destruct (seg_copy m (L w) dsz sg pos dst) as [[d' p']| | | |]; cbn [fst snd]; auto.
Qed.

(** *** Direct *)

Fixpoint dplain (K : chunk -> res bytes) (G : list gsegment) (dst : bytes) : res unit * bytes :=
  match G with
  | [] => (Ok tt, dst)
  | (c, o, a, b) :: G' =>
      match K c with
      | Ok data => match copy_at m data dsz o a b dst with Ok dst' => dplain K G' dst' | x => (failed x, dst) end
      | x => (failed x, dst)
      end
  end.
Definition last_known (last : option (N * bytes)) : Prop := match last with Some (k, d) => known k d | None => True end.

Lemma direct_plain r file : dr_ds r = ds -> dr_csz r = csz -> forall G last dst, Forall (fun g => In (g_chunk g) (d_chunks ds)) G ->
  last_ok ds (L file) last -> direct_loop m inflate r file G last dst = dplain (L file) G dst.
Proof.
  intros Ed Ec. induction G as [|[[[c o] a] b] G IH]; intros last dst HF HL; cbn [direct_loop dplain]; auto.
  inversion HF as [|? ? F1 F2]; subst. cbn [g_chunk fst] in F1.
  assert (E : direct_load m inflate r file last c = L file c).
  { rewrite direct_load_eq; auto; unfold dload; rewrite ?Ed, ?Ec; auto. }
  rewrite E, Ed. fold dsz. destruct (L file c) as [data| | | |] eqn:EL; auto. destruct (copy_at m data dsz o a b dst) as [d'| | | |]; auto.
  apply IH; auto. cbn [last_ok]. eauto.
Qed.
Lemma copy_at_len K data c o a b dst d : K c = Ok data -> copy_at m data dsz o a b dst = Ok d ->
  exists p src, mul64 m o dsz = Ok p /\ seg_ok m K dsz (c, a, b) src /\ p + lenN src <= lenN dst /\ d = splice dst p src /\
    forall dst', lenN dst' = lenN dst -> copy_at m data dsz o a b dst' = Ok (splice dst' p src).
Proof.
  intros EK H. assert (C : forall dst', lenN dst' = lenN dst -> exists p src, mul64 m o dsz = Ok p /\ seg_ok m K dsz (c, a, b) src /\
    p + lenN src <= lenN dst /\ (forall d, copy_at m data dsz o a b dst = Ok d -> d = splice dst p src) /\ copy_at m data dsz o a b dst' = Ok (splice dst' p src)).
  { intros dst' EL. unfold copy_at in *. rewrite EL.
    apply bind_ok in H as (s & Es & H). apply bind_ok in H as (e & Ee & H). apply bind_ok in H as (p & Ep & H).
    apply bind_ok in H as (u1 & E1 & H). apply bind_ok in H as (u2 & E2 & H). apply bind_ok in H as (sz & Esz & H).
    apply bind_ok in H as (q & Eq & H). apply bind_ok in H as (u3 & E3 & H). apply bind_ok in H as (src & Esrc & H).
    apply bind_ok in H as (u4 & E4 & H). rewrite Es, Ee, Ep. cbn [bind]. rewrite E1, E2. cbn [bind]. rewrite Esz. cbn [bind]. rewrite Eq. cbn [bind].
    rewrite E3. cbn [bind]. rewrite Esrc. cbn [bind]. rewrite E4. cbn [bind]. exists p, src.
    apply slice_range_ok in Esrc as (Hse & Hed & Esrc). assert (LS : lenN src = e - s) by (rewrite Esrc; now apply slice_len).
    apply assert_ok, andb_true_iff in E3 as [A1 A2]. apply N.leb_le in A1, A2. apply assert_ok, N.eqb_eq in E4.
    split; [reflexivity|]. split; [exists s, e, data; auto 6|]. split; [lia|]. split; [|reflexivity]. intros d' Hd. now injection Hd. }
  destruct (C dst eq_refl) as (p & src & C1 & C2 & C3 & C4 & _). exists p, src. repeat split; auto.
  intros dst' EL. destruct (C dst' EL) as (p' & src' & D1 & D2 & _ & _ & D5). rewrite D5. rewrite (seg_ok_fun _ _ _ _ _ _ C2 D2). congruence.
Qed.

Lemma direct_loop_mixed r : dr_ds r = ds -> dr_csz r = csz -> forall G cur fs last dst (D O : bytes -> bytes),
  Forall (fun g => In (g_chunk g) (d_chunks ds) /\ whole (g_from g) (snd g) /\ forall p, mul64 m (g_dest g) dsz = Ok p -> exists q, p = q * u) G ->
  V cur -> Forall V fs -> last_known last -> (forall v, V v -> dplain (L v) G (D v) = (Ok tt, O v)) -> mixed_output V D u dst ->
  exists dst', direct_loop_v m inflate r G cur fs last dst = (Ok tt, dst') /\ mixed_output V O u dst'.
Proof.
  intros Ed Ec. induction G as [|[[[c o] a] b] G IH]; intros cur fs last dst D O HF HV HFs HL HP HM; cbn [direct_loop_v].
  - cbn [dplain] in HP. exists dst. split; auto. apply (mixed_ext D); auto. intros v Hv. specialize (HP v Hv). now injection HP.
  - inversion HF as [|? ? (F1 & F2 & F3) F4]; subst x l. cbn [g_chunk g_from g_dest fst snd] in F1, F2, F3.
    assert (HS : forall v, V v -> exists data p src, L v c = Ok data /\ mul64 m o dsz = Ok p /\ seg_ok m (L v) dsz (c, a, b) src /\ p + lenN src <= lenN (D v) /\
      (forall dst', lenN dst' = lenN (D v) -> copy_at m data dsz o a b dst' = Ok (splice dst' p src)) /\ dplain (L v) G (splice (D v) p src) = (Ok tt, O v)).
    { intros v Hv. specialize (HP v Hv). cbn [dplain] in HP. destruct (L v c) as [data| | | |] eqn:EL; try discriminate HP.
      destruct (copy_at m data dsz o a b (D v)) as [d'| | | |] eqn:EC; try discriminate HP.
      destruct (copy_at_len (L v) data c o a b (D v) d' EL EC) as (p & src & C1 & C2 & C3 & -> & C5). exists data, p, src. auto 7. }
    set (loads := match last with Some (k, _) => negb (k =? c_addr c) | None => true end).
    set (f := if loads then match fs with f :: _ => f | [] => cur end else cur).
    assert (Hf : V f) by (unfold f; destruct loads; auto; destruct HFs; auto).
    assert (Hfs : Forall V (if loads then tl fs else fs)) by (destruct loads; auto; destruct HFs; cbn [tl]; auto).
    assert (HW : exists w, V w /\ direct_load m inflate r f last c = L w c /\ forall d, L w c = Ok d -> known (c_addr c) d).
    { assert (X : V f -> exists w, V w /\ L f c = L w c /\ forall d, L w c = Ok d -> known (c_addr c) d).
      { intros _. exists f. repeat split; auto. intros d E. exists f. split; auto. intros c' Hc' Ea. rewrite <- E. now apply L_same. }
      unfold direct_load. rewrite Ed, Ec. destruct last as [[k d]|]; [|now apply X]. destruct (N.eqb_spec k (c_addr c)) as [->|]; [|now apply X].
      destruct HL as (w & Hw & K). exists w. split; auto. rewrite (K c F1 eq_refl). split; auto. intros d' E. injection E as <-. exists w. auto. }
    destruct HW as (w & Hw & EW & KW). rewrite EW. destruct (HS w Hw) as (data & p & src & S1 & S2 & S3 & S4 & S5 & _). rewrite S1, Ed. fold dsz.
    pose proof HM as [M1 M2]. rewrite S5 by (symmetry; auto).
    destruct (seg_ok_whole (L w) c a b src S3 F2) as (n & En). destruct (F3 p S2) as (q & Eq).
    apply (IH f _ _ _ (fun v => splice (D v) p (seg_out (L v) (c, a, b))) O); auto.
    + cbn [last_known]. auto.
    + intros v Hv. destruct (HS v Hv) as (data' & p' & src' & X1 & X2 & X3 & X4 & _ & X6). rewrite S2 in X2. injection X2 as <-.
      rewrite <- (seg_out_ok _ _ _ X3). exact X6.
    + apply (mixed_step D dst p src (fun v => seg_out (L v) (c, a, b)) w); auto.
      * now apply seg_out_ok. * exists q, n. auto. * rewrite <- (M1 w Hw). exact S4.
      * intros v Hv. destruct (HS v Hv) as (? & ? & src' & _ & _ & X3 & _). rewrite <- (seg_out_ok _ _ _ X3). symmetry. eapply seg_ok_lens; eauto.
Qed.
End M.

Lemma history_inv m inflate ds V r : same_addr ds -> history m inflate ds V r ->
  cr_ds r = ds /\ chunk_bytes m ds = Ok (cr_csz r) /\ V (cr_file r) /\
  (forall k d, lru_find k (cr_cache r) = Some d -> known m inflate V ds (cr_csz r) k d) /\ (exists f, V f /\ cache_cap (cr_csz r) = Ok (cr_cap r)).
Proof.
  intros HA. induction 1 as [r f HV H|r fuel fs e dst H IH HF].
  - unfold cache_new in H. apply bind_ok in H as (csz & E1 & H). apply bind_ok in H as (cap & E2 & H). injection H as <-.
    cbn [cr_ds cr_csz cr_file cr_cache cr_cap]. repeat split; eauto. intros k v X. discriminate X.
  - destruct IH as (A & B & C & D & E). unfold cache_read_v. destruct (read_size m (cr_ds r) e dst); cbn [snd]; auto.
    pose proof (slices_in m fuel (cr_ds r) e) as HI. destruct (chunk_slices m fuel (cr_ds r) e) as [segs st]. cbn [fst] in HI.
    rewrite A in HI. destruct (cache_loop_known m inflate V ds (cr_csz r) HA r st A eq_refl segs (cr_file r) fs (cr_cache r) 0 dst HI C HF D) as [K1 K2].
    destruct (cache_loop_v m inflate r segs st (cr_file r) fs (cr_cache r) 0 dst) as [[[x d] c] cur].
    cbn [fst snd cr_ds cr_csz cr_file cr_cache cr_cap] in *. auto.
Qed.

(** For pieces that the segments consist of. *)
Lemma cached_u m inflate ds V u fuel fs rc e dst n output : same_addr ds -> history m inflate ds V rc -> Forall V fs ->
  Forall (fun sg => whole m u ds (snd (fst sg)) (snd sg)) (fst (chunk_slices m fuel ds e)) ->
  (forall v r', V v -> cache_new m ds v = Ok r' -> fst (cache_read m inflate fuel r' e dst) = (Ok n, output v)) ->
  exists b, fst (cache_read_v m inflate fuel fs rc e dst) = (Ok n, b) /\ mixed_output V output u b.
Proof.
  intros HA HH HF HW HR. destruct (history_inv m inflate ds V rc HA HH) as (A & B & C & D & (_ & _ & E)).
  assert (HP : forall v, V v -> plain_read m inflate fuel v ds (cr_csz rc) e dst = (Ok n, output v)).
  { intros v Hv. specialize (HR v (mkCR ds v (cr_cap rc) (cr_csz rc) []) Hv). rewrite <- HR.
    - symmetry. apply (cache_read_plain m inflate fuel (mkCR ds v (cr_cap rc) (cr_csz rc) [])); cbn [cr_ds cr_cache]; auto.
      intros k d X. discriminate X.
    - unfold cache_new. rewrite B. cbn [bind]. rewrite E. reflexivity. }
  clear HR. unfold plain_read in HP. unfold cache_read_v. rewrite A.
  destruct (read_size m ds e dst) as [vsz| | | |]; try (specialize (HP _ C); discriminate HP).
  pose proof (slices_in m fuel ds e) as HI. destruct (chunk_slices m fuel ds e) as [segs st]. cbn [fst] in HI, HW.
  assert (HL : forall v, V v -> plain_loop m (load m inflate v ds (cr_csz rc)) (d_dsize ds) segs st 0 dst = (Ok tt, output v) /\ vsz = n).
  { intros v Hv. specialize (HP v Hv). destruct (plain_loop m (load m inflate v ds (cr_csz rc)) (d_dsize ds) segs st 0 dst) as [x d'].
    destruct x as [[]| | | |]; cbn [bind] in HP; try discriminate HP. injection HP as -> ->. auto. }
  destruct (cache_loop_mixed m inflate V u ds (cr_csz rc) HA rc st A eq_refl segs (cr_file rc) fs (cr_cache rc) 0 dst (fun _ => dst) output)
    as (b & cache' & cur' & EL & HM); auto.
  - apply Forall_forall. intros sg Hsg. rewrite Forall_forall in HI, HW. auto.
  - exists 0. reflexivity.
  - intros v Hv. now apply HL.
  - split; auto. intros k. exists (cr_file rc). auto.
  - rewrite EL. exists b. cbn [bind fst]. destruct (HL _ C) as [_ ->]. auto.
Qed.
Lemma direct_u m inflate sort ds (V : bytes -> Prop) u fuel fs v0 rd e dst n output : addr_sort sort -> same_addr ds -> V v0 ->
  direct_new m ds (Some v0) = Ok rd -> Forall V fs ->
  (forall G, group_chunk_slices sort m fuel ds e = Ok G -> Forall (fun g => whole m u ds (g_from g) (snd g) /\
     forall p, mul64 m (g_dest g) (d_dsize ds) = Ok p -> exists q, p = q * u) G) ->
  (forall v r', V v -> direct_new m ds (Some v) = Ok r' -> direct_read m inflate sort fuel r' e dst = (Ok n, output v)) ->
  exists b, direct_read_v m inflate sort fuel fs rd e dst = (Ok n, b) /\ mixed_output V output u b.
Proof.
  intros HSo HA HV HD HF HW HR. unfold direct_new in HD. apply bind_ok in HD as (csz & B & HD). injection HD as <-.
  assert (HP : forall v, V v -> direct_read m inflate sort fuel (mkDirect ds (Some v) csz) e dst = (Ok n, output v)).
  { intros v Hv. apply HR; auto. unfold direct_new. now rewrite B. }
  clear HR. unfold direct_read in HP. unfold direct_read_v. cbn [dr_ds dr_file] in *.
  destruct (read_size m ds e dst) as [vsz| | | |]; try (specialize (HP _ HV); discriminate HP).
  destruct (group_chunk_slices sort m fuel ds e) as [G| | | |] eqn:EG; try (specialize (HP _ HV); discriminate HP).
  pose proof (group_chunks m sort fuel ds e G HSo EG) as HI. specialize (HW G eq_refl).
  assert (HL : forall v, V v -> dplain m ds (load m inflate v ds csz) G dst = (Ok tt, output v) /\ vsz = n).
  { intros v Hv. specialize (HP v Hv).
    rewrite (direct_plain m inflate ds csz HA (mkDirect ds (Some v) csz) v eq_refl eq_refl G None dst HI I) in HP.
    destruct (dplain m ds _ G dst) as [x d']. destruct x as [[]| | | |]; cbn [bind] in HP; try discriminate HP. injection HP as -> ->. auto. }
  destruct (direct_loop_mixed m inflate V u ds csz HA (mkDirect ds (Some v0) csz) eq_refl eq_refl G v0 fs None dst (fun _ => dst) output)
    as (b & EL & HM); auto.
  - apply Forall_forall. intros g Hg. rewrite Forall_forall in HI, HW. destruct (HW g Hg). auto.
  - exact I.
  - intros v Hv. now apply HL.
  - split; auto. intros k. exists v0. auto.
  - rewrite EL. exists b. cbn [bind]. destruct (HL _ HV) as [_ ->]. auto.
Qed.
Lemma whole_1 m ds a b : whole m 1 ds a b.
Proof. intros s e _ _ _. exists (e - s). lia. Qed.
Lemma whole_safe m ds a b : csize ds < W64 -> a < b -> b <= prodN (d_chunk_shape ds) -> whole m (d_dsize ds) ds a b.
Proof.
  intros H1 H2 H3 s e E1 E2 _. assert (X : b * d_dsize ds <= csize ds) by (unfold csize; now apply N.mul_le_mono_r).
  assert (Y : a * d_dsize ds <= b * d_dsize ds) by (apply N.mul_le_mono_r; lia).
  rewrite mul64_ok in E1 by lia. rewrite mul64_ok in E2 by lia. injection E1 as <-. injection E2 as <-.
  exists (b - a). now rewrite N.mul_sub_distr_r.
Qed.

(** ** The theorems *)

(** A read through a cached reader with any past, of which every load may meet another version of the file: if the
    selection can be read from each version alone, the read succeeds, and every byte of its output is as in the output
    for some version; for a safe selection, every element is. *)
Theorem C94_cached m inflate ds V fuel fs rc e dst n output : same_addr ds -> history m inflate ds V rc -> Forall V fs ->
  (forall v r', V v -> cache_new m ds v = Ok r' -> fst (cache_read m inflate fuel r' e dst) = (Ok n, output v)) ->
  exists b, fst (cache_read_v m inflate fuel fs rc e dst) = (Ok n, b) /\ mixed_output V output 1 b /\
    forall idx cnt, safe_read ds e idx cnt dst fuel -> mixed_output V output (d_dsize ds) b.
Proof.
  intros HA HH HF HR. destruct (cached_u m inflate ds V 1 fuel fs rc e dst n output HA HH HF) as (b & E & HM); auto.
  { apply Forall_forall. intros sg _. apply whole_1. }
  exists b. split; auto. split; auto. intros idx cnt HS.
  destruct (cached_u m inflate ds V (d_dsize ds) fuel fs rc e dst n output HA HH HF) as (b' & E' & HM'); auto.
  - pose proof (ro_size m ds e idx cnt dst fuel (safe_read_ok m ds e idx cnt dst fuel HS)) as (_ & _ & HC & _).
    destruct HS as [S1 S2 S3 S4 S5 S6 S7 S8]. destruct (chunk_slices_ok m ds e idx cnt fuel) as (segs & E1 & _ & E2); auto.
    rewrite E1. cbn [fst]. eapply Forall_impl; [|exact E2]. intros [[c a] b'] (X & Y & _). cbn [fst snd]. now apply whole_safe.
  - rewrite E in E'. injection E' as ->. exact HM'.
Qed.
Print Assumptions C94_cached.

(** The same for the direct reader. *)
Theorem C94_direct m inflate sort ds (V : bytes -> Prop) fuel fs v0 rd e dst n output : addr_sort sort -> same_addr ds -> V v0 ->
  direct_new m ds (Some v0) = Ok rd -> Forall V fs ->
  (forall v r', V v -> direct_new m ds (Some v) = Ok r' -> direct_read m inflate sort fuel r' e dst = (Ok n, output v)) ->
  exists b, direct_read_v m inflate sort fuel fs rd e dst = (Ok n, b) /\ mixed_output V output 1 b /\
    forall idx cnt, safe_read ds e idx cnt dst fuel -> mixed_output V output (d_dsize ds) b.
Proof.
  intros HSo HA HV HD HF HR. destruct (direct_u m inflate sort ds V 1 fuel fs v0 rd e dst n output HSo HA HV HD HF) as (b & E & HM); auto.
  { intros G _. apply Forall_forall. intros g _. split; [apply whole_1|]. intros p _. exists p. lia. }
  exists b. split; auto. split; auto. intros idx cnt HS.
  destruct (direct_u m inflate sort ds V (d_dsize ds) fuel fs v0 rd e dst n output HSo HA HV HD HF) as (b' & E' & HM'); auto.
  - intros G EG. pose proof (safe_read_ok m ds e idx cnt dst fuel HS) as HO.
    pose proof (ro_size m ds e idx cnt dst fuel HO) as (_ & _ & HC & _).
    destruct (group_dests m sort ds e idx cnt dst fuel HSo HO) as (segs & G' & _ & EG' & _ & _ & _ & HG). rewrite EG in EG'. injection EG' as <-.
    eapply Forall_impl; [|exact HG]. intros g [HW HT]. unfold seg_wf in HW. destruct HW as (W1 & W2 & _). split; [now apply whole_safe|].
    intros p Hp. exists (g_dest g). pose proof (sf_cap _ _ _ _ _ _ HS) as X1. pose proof (sf_len _ _ _ _ _ _ HS) as X2.
    assert (X3 : g_dest g * d_dsize ds <= prodN cnt * d_dsize ds) by (apply N.mul_le_mono_r; lia).
    rewrite mul64_ok in Hp by lia. now injection Hp.
  - rewrite E in E'. injection E' as ->. exact HM'.
Qed.
Print Assumptions C94_direct.

(** The example file, of which all values are increased by 50 after the first load. *)
Example C94_case m :
  let new := map (fun b => if b =? 120 then b else b + 50) st_file in
  let V := fun v => v = st_file \/ v = new in
  let old_output := [12; 201; 13; 201; 14; 201; 15; 201; 22; 202; 23; 202; 24; 202; 25; 202; 32; 203; 33; 203; 34; 203; 35; 203] in
  let output := fun v : bytes => if nth 0 v 0 =? 1 then old_output else map (fun b => b + 50) old_output in
  exists rc rd b, same_addr st_ds /\ addr_sort sort_by_addr /\ safe_read st_ds st_sel [1; 2] [3; 4] (repeat 9 24) 13 /\
  cache_new m st_ds st_file = Ok rc /\ history m toy_inflate st_ds V rc /\ direct_new m st_ds (Some st_file) = Ok rd /\ Forall V [st_file; new] /\
  (forall v r', V v -> cache_new m st_ds v = Ok r' -> fst (cache_read m toy_inflate 13 r' st_sel (repeat 9 24)) = (Ok 24, output v)) /\
  (forall v r', V v -> direct_new m st_ds (Some v) = Ok r' -> direct_read m toy_inflate sort_by_addr 13 r' st_sel (repeat 9 24) = (Ok 24, output v)) /\
  fst (cache_read_v m toy_inflate 13 [st_file; new] rc st_sel (repeat 9 24)) = (Ok 24, b) /\
  firstn 4 b = [12; 201; 63; 251].
Proof.
  intros new V old_output output. destruct (C24_case m) as (H1 & H2 & _).
  assert (HV : V st_file) by now left. assert (N0 : exists rc, cache_new m st_ds st_file = Ok rc) by (destruct m; vm_compute; eauto).
  destruct N0 as (rc & N0). exists rc, (mkDirect st_ds (Some st_file) 12). eexists.
  split; [exact H2|]. split; [exact H1|]. split; [apply st_safe; vm_compute; try reflexivity; try discriminate; lia|].
  split; [exact N0|]. split; [now apply (hs_new _ _ _ _ rc st_file)|]. split; [destruct m; vm_compute; reflexivity|].
  split; [constructor; [exact HV|constructor; [now right|constructor]]|].
  split; [|split; [|split]].
  - clear. intros v r' [-> | ->] HN; destruct m; vm_compute in HN; apply SerdeProofs.ok_inj in HN; subst r'; vm_compute; reflexivity.
  - clear. intros v r' [-> | ->] HN; destruct m; vm_compute in HN; apply SerdeProofs.ok_inj in HN; subst r'; vm_compute; reflexivity.
  - clear - N0. destruct m; vm_compute in N0; apply SerdeProofs.ok_inj in N0; subst rc; vm_compute; reflexivity.
  - vm_compute; reflexivity.
Qed.
