(** * C21, C24, C25 and C35: which selections the readers read rightly, exactly, in both build
    modes and for every selection.

    Each theorem is followed by a concrete case meeting its hypotheses. *)
From Verif Require Import Base Spec Safe Chunk Extent Dataset Slicer SpecApi Filters SpecFilter FilterProofs FilterProps ApiLemmas
  Reader SpecReader DirectProofs ParProofs ReaderProps ReadProofs CacheProofs StreamProofs ExamplesReader Examples SliceProps ExactReads
  SlicerRelease2 SlicerExact3 Radix SlicerProofs SlicerMain SlicerTheorems SafeWrap WrapProps ExactFamily ExactFamily2 Properties4 Properties5 Properties10 Properties12 Properties22 Properties23 Properties24.

(** What a release build needs besides: the destination is as long as the selection and the
    byte counts stay clear of 2^64, by more for selections of one index in each of the two
    last dimensions with chunks one element wide in the last. *)
Definition sized (m : mode) (ds : dataset) (cnt : list N) (dst : bytes) : Prop :=
  m = Release -> lenN dst = prodN cnt * d_dsize ds /\
    (2 * prodN cnt + 3 * prodN (d_chunk_shape ds)) * d_dsize ds < W64 /\
    (single_end (d_chunk_shape ds) cnt = true ->
     8 * (N.of_nat (length cnt) * (prodN cnt * prodN (d_chunk_shape ds))) * d_dsize ds < W64).

Lemma fam_class m ds {Fam} (F0 : Fam) (value : Fam -> list N -> bytes) (cell : Fam -> chunk * N -> bytes)
    (L : Fam -> chunk -> res bytes) ex idx cnt dst fuel :
  full_dataset ds -> 0 < d_dsize ds -> csize ds < W64 ->
  (forall F c, In c (d_chunks ds) -> exists data, L F c = Ok data /\ lenN data = csize ds /\
     forall k, k < prodN (d_chunk_shape ds) -> word (N.to_nat (d_dsize ds)) (N.to_nat k) data = cell F (c, k)) ->
  (forall F x ck, in_shape x (d_shape ds) -> holds ds x ck -> value F x = cell F ck) ->
  (forall ck ck', valid ds ck -> valid ds ck' -> (forall F, cell F ck = cell F ck') -> ck = ck') ->
  get_start_count ex (d_shape ds) = Ok (idx, cnt) -> sel_in (d_shape ds) idx cnt ->
  prodN cnt * d_dsize ds <= lenN dst -> sized m ds cnt dst ->
  (m = Release -> single_end (d_chunk_shape ds) cnt = true -> forall p, p < prodN cnt ->
     exists F, value F (slab_coord idx cnt p) <> word (N.to_nat (d_dsize ds)) (N.to_nat p) dst) ->
  fam_right ds value L ex idx cnt dst fuel m ->
  sel_right m (d_shape ds) (d_chunk_shape ds) idx cnt = true.
Proof.
  intros HD Hw HC Hl Hv Hd HG HS Hcap HM Hnew H.
  assert (Hfit : fits64 (d_shape ds)) by (eapply sel_in_fits; eauto; apply HD).
  destruct m; cbn [sel_right].
  - eapply (fam_debug ds F0 value cell L); eauto.
  - destruct (HM eq_refl) as (M1 & M2 & M3). destruct (single_end (d_chunk_shape ds) cnt) eqn:Hse.
    + eapply (fam_release_all ds F0 value cell L); eauto.
    + apply sel_safe_wrap; [exact (x_wf ds idx cnt HD HS)|].
      eapply (fam_release ds F0 value cell L); eauto.
Qed.

(** ** One file whose elements are all different *)
Record class_case (m : mode) (inflate : bytes -> option bytes) (file : bytes) (ds : dataset) (value : list N -> bytes)
    (e : extents) (idx cnt : list N) (dst : bytes) (fuel : nat) : Prop := {
  cc_full : full_dataset ds;
  cc_reg : regular ds;
  cc_stores : stores inflate file ds value;
  cc_distinct : distinct_cells inflate file ds;
  cc_sel : get_start_count e (d_shape ds) = Ok (idx, cnt);
  cc_in : sel_in (d_shape ds) idx cnt;
  cc_cap : prodN cnt * d_dsize ds <= lenN dst;
  cc_len : lenN dst < W64;
  cc_mode : sized m ds cnt dst;
  (** the buffer has none of the elements in its place beforehand (they would look right
      without being written) *)
  cc_new : m = Release -> single_end (d_chunk_shape ds) cnt = true -> forall p x, nth_error (slab idx cnt) p = Some x ->
     value x <> word (N.to_nat (d_dsize ds)) p dst;
  cc_fuel : (N.to_nat (prodN cnt) < fuel)%nat
}.

Theorem C21_class_distinct m inflate file ds value e idx cnt dst fuel r :
  class_case m inflate file ds value e idx cnt dst fuel -> reachable m inflate ds file r ->
  (fst (cache_read m inflate fuel r e dst) =
     (Ok (prodN cnt * d_dsize ds),
      concat (map value (slab idx cnt)) ++ skipn (N.to_nat (prodN cnt * d_dsize ds)) dst) <->
   sel_right m (d_shape ds) (d_chunk_shape ds) idx cnt = true).
Proof.
  intros [A1 AR A2 A3 A4 A5 A6 A7 A8 AN A9] HC. split.
  2:{ intros HS. apply (C21_cached_right_partial m inflate file ds value e idx cnt dst fuel r); auto.
      constructor; auto. now apply class_right. }
  intros H. assert (HA : same_addr ds) by apply A2. assert (HZ' : supported_sizes ds) by apply A2.
  rewrite (cache_read_reachable m inflate ds file r fuel e dst HA HC) in H.
  destruct (reachable_inv m inflate ds file r HA HC) as (_ & _ & HZ & _).
  apply csize_fresh in HZ; [|apply A1|apply HZ']. rewrite HZ in H.
  set (L := load m inflate file ds (csize ds)).
  set (cell := fun ck : chunk * N => match L (fst ck) with
     Ok d => word (N.to_nat (d_dsize ds)) (N.to_nat (snd ck)) d | _ => [] end).
  apply (fam_class m ds (Fam := unit) tt (fun _ => value) (fun _ => cell) (fun _ => L) e idx cnt dst fuel); auto.
  - apply HZ'.
  - destruct HZ' as [_ _ _ S]. exact S.
  - intros _ c Hc. destruct (load_pipeline m inflate file ds value c A2 Hc) as (raw & E1 & E2 & E3 & E4).
    exists raw. split; [exact E1|]. split; [exact E2|]. intros k Hk. unfold cell, L. cbn [fst snd]. now rewrite E1.
  - intros _ x [c k] Hx Hh. assert (Hc : In c (d_chunks ds)) by apply Hh.
    destruct (load_pipeline m inflate file ds value c A2 Hc) as (raw & E1 & E2 & E3 & E4).
    unfold cell, L. cbn [fst snd]. rewrite E1. symmetry. now apply E4.
  - intros [c k] [c' k'] [V1 V2] [V1' V2'] E. cbn [fst snd] in *. specialize (E tt). unfold cell, L in E. cbn [fst snd] in E.
    destruct (load_pipeline m inflate file ds value c A2 V1) as (raw & E1 & E2 & E3 & _).
    destruct (load_pipeline m inflate file ds value c' A2 V1') as (raw' & E1' & E2' & E3' & _).
    rewrite E1, E1' in E. destruct (A3 c c' raw raw' k k' V1 V1' E3 E3' V2 V2' E) as [-> ->]. reflexivity.
  - intros Em Ese p Hp. exists tt. apply (AN Em Ese). destruct A5 as (L1 & L2 & HN & _).
    rewrite slab_seq by (auto; congruence). apply map_nth_error. rewrite nth_error_seqN by lia. f_equal. lia.
  - intros _. apply plain_read_iff in H as (_ & out & H1 & H2). exists out. auto.
Qed.
Print Assumptions C21_class_distinct.

Theorem C24_class_distinct m inflate sort file ds value e idx cnt dst fuel rd : addr_sort sort ->
  class_case m inflate file ds value e idx cnt dst fuel -> direct_new m ds (Some file) = Ok rd ->
  (direct_read m inflate sort fuel rd e dst =
     (Ok (prodN cnt * d_dsize ds),
      concat (map value (slab idx cnt)) ++ skipn (N.to_nat (prodN cnt * d_dsize ds)) dst) <->
   sel_right m (d_shape ds) (d_chunk_shape ds) idx cnt = true).
Proof.
  intros HSort HD Hrd. pose proof (cc_full _ _ _ _ _ _ _ _ _ _ HD) as A1. pose proof (cc_stores _ _ _ _ _ _ _ _ _ _ HD) as A2.
  assert (HA : same_addr ds) by apply A2. assert (HZ : supported_sizes ds) by apply A2.
  assert (Hd : 0 < d_dsize ds) by apply HZ.
  destruct (new_sized m ds file A1 HZ) as [[rc Hrc] _]. apply (rc_new m inflate) in Hrc.
  rewrite <- (C21_class_distinct m inflate file ds value e idx cnt dst fuel rc HD Hrc). symmetry.
  apply (C24_agree m inflate sort fuel ds file rc rd e dst _ _ HSort HA Hd (cc_len _ _ _ _ _ _ _ _ _ _ HD) Hrc Hrd).
Qed.
Print Assumptions C24_class_distinct.

Theorem C25_class_distinct m inflate sort file ds value e idx cnt dst fuel rd x d : addr_sort sort ->
  class_case m inflate file ds value e idx cnt dst fuel -> direct_new m ds (Some file) = Ok rd ->
  par_read m inflate sort fuel rd e dst x d ->
  (x = Ok (prodN cnt * d_dsize ds) /\
   d = concat (map value (slab idx cnt)) ++ skipn (N.to_nat (prodN cnt * d_dsize ds)) dst <->
   sel_right m (d_shape ds) (d_chunk_shape ds) idx cnt = true).
Proof.
  intros HSort HD Hrd R. pose proof (cc_stores _ _ _ _ _ _ _ _ _ _ HD) as A2.
  assert (HA : same_addr ds) by apply A2. assert (Hd : 0 < d_dsize ds) by apply (st_sizes _ _ _ _ A2).
  destruct (C25_schedules m inflate sort fuel ds file rd e dst HSort HA Hd (cc_len _ _ _ _ _ _ _ _ _ _ HD) Hrd) as (_ & _ & S1 & S2).
  rewrite <- (C24_class_distinct m inflate sort file ds value e idx cnt dst fuel rd HSort HD Hrd). split.
  - intros [-> ->]. now apply S1.
  - intros E. exact (S2 _ _ E x d R).
Qed.
Print Assumptions C25_class_distinct.

(** ** Every file holding an unfiltered dataset *)
Lemma mark_new ds ck p0 (dst : bytes) : regular ds -> d_gzip ds = None -> valid ds ck ->
  exists p, elem (d_dsize ds) (mark (room ds) p) ck <> word (N.to_nat (d_dsize ds)) p0 dst.
Proof.
  intros HR Hz V. destruct (rg_sizes _ HR) as [S1 _ _ _].
  set (f := fun p => elem (d_dsize ds) (mark (room ds) p) ck).
  assert (NE : f (N.to_nat (loc (d_dsize ds) ck)) <> f (room ds)).
  { intros E. apply (f_equal (fun l => nth 0 l 0)) in E. unfold f, elem in E.
    rewrite !nth_firstn_skipn, !mark_nth in E by lia. rewrite Nat.eqb_refl in E.
    assert (B : (N.to_nat (loc (d_dsize ds) ck) < room ds)%nat).
    { destruct V as [V1 V2]. pose proof (room_ok ds 0 _ V1) as H. unfold lenN in H. rewrite mark_len in H.
      rewrite (rg_plain _ HR Hz _ V1) in H. unfold loc. nia. }
    rewrite (proj2 (Nat.ltb_lt _ _) B) in E. cbn [andb] in E.
    destruct (Nat.eqb_spec (N.to_nat (loc (d_dsize ds) ck)) (room ds)); [lia|]. discriminate. }
  destruct (list_eq_dec N.eq_dec (f (room ds)) (word (N.to_nat (d_dsize ds)) p0 dst)) as [E|E].
  - exists (N.to_nat (loc (d_dsize ds) ck)). fold (f (N.to_nat (loc (d_dsize ds) ck))). congruence.
  - exists (room ds). exact E.
Qed.

Theorem C21_class_exact m inflate ds e idx cnt dst fuel : plain_case ds e idx cnt dst fuel -> sized m ds cnt dst ->
  (forall file value r, stores inflate file ds value -> reachable m inflate ds file r ->
     fst (cache_read m inflate fuel r e dst) =
       (Ok (prodN cnt * d_dsize ds),
        concat (map value (slab idx cnt)) ++ skipn (N.to_nat (prodN cnt * d_dsize ds)) dst)) <->
  sel_right m (d_shape ds) (d_chunk_shape ds) idx cnt = true.
Proof.
  intros [A1 A2 A3 A4 A5 A6 A7 A8 A9 A10] HM. split.
  2:{ intros HS file value r HV HC.
      apply (C21_cached_right_partial m inflate file ds value e idx cnt dst fuel r); auto.
      constructor; auto. now apply class_right. }
  intros H. assert (Hfit : fits64 (d_shape ds)) by (eapply sel_in_fits; eauto; apply A1).
  set (Fam := {F : bytes | forall c, In c (d_chunks ds) -> c_addr c + c_size c <= lenN F}).
  set (w := d_dsize ds) in *.
  apply (fam_class m ds (Fam := Fam) (exist _ (mark (room ds) 0) (room_ok ds 0)) (fun F => value_of ds (proj1_sig F))
     (fun F => elem w (proj1_sig F)) (fun F => load m inflate (proj1_sig F) ds (csize ds)) e idx cnt dst fuel); auto.
  - apply (rg_sizes _ A2).
  - destruct (rg_sizes _ A2) as [_ _ _ S]. exact S.
  - intros [F HF] c Hc. cbn [proj1_sig]. exists (file_bytes F (c_addr c) (c_size c)). split; [|split].
    + apply (plain_load ds inflate A2 A3 A4 m F c Hc). now apply HF.
    + unfold csize. rewrite <- (rg_plain _ A2 A3 c Hc). unfold file_bytes, lenN. rewrite firstn_length, skipn_length.
      specialize (HF c Hc). unfold lenN in HF. lia.
    + intros k Hk. exact (word_elem ds A2 A3 F c k Hc Hk).
  - intros [F HF] x ck Hx Hh. cbn [proj1_sig]. apply (value_holds ds A1 Hfit F x ck Hx Hh).
  - intros ck ck' V V' E. apply (mark_elem ds A2 A3 A5 ck ck' V V').
    exact (E (exist _ (mark (room ds) (N.to_nat (loc (d_dsize ds) ck))) (room_ok ds _))).
  - intros _ _ p Hp.
    assert (Hx : in_shape (slab_coord idx cnt p) (d_shape ds)).
    { pose proof (fam_slab ds idx cnt A7) as HSh. destruct A7 as (L1 & L2 & HN & _).
      rewrite slab_seq in HSh by (auto; congruence). rewrite Forall_forall in HSh. apply HSh. apply in_map, in_seqN. lia. }
    destruct (fam_place ds A1 Hfit _ Hx) as (ck & Hh & V).
    destruct (mark_new ds ck (N.to_nat p) dst A2 A3 V) as [q Hq].
    exists (exist _ (mark (room ds) q) (room_ok ds q)). cbn [proj1_sig].
    rewrite (proj1 (value_holds ds A1 Hfit _ _ ck Hx Hh)). exact Hq.
  - intros [F HF]. cbn [proj1_sig].
    destruct (new_ok m ds F A1 A2) as [[rc Hrc] _].
    pose proof (rc_new m inflate ds F rc Hrc) as HC.
    specialize (H F (value_of ds F) rc (plain_stores ds inflate A1 A2 A3 A4 Hfit F HF) HC).
    rewrite (cache_read_reachable m inflate ds F rc fuel e dst (rg_addr _ A2) HC) in H.
    destruct (reachable_inv m inflate ds F rc (rg_addr _ A2) HC) as (_ & _ & HZ & _).
    apply csize_fresh in HZ; [|apply A1|apply A2]. rewrite HZ in H.
    apply plain_read_iff in H as (_ & out & H1 & H2). exists out. auto.
Qed.
Print Assumptions C21_class_exact.

Theorem C24_class_exact m inflate sort ds e idx cnt dst fuel : addr_sort sort ->
  plain_case ds e idx cnt dst fuel -> sized m ds cnt dst ->
  (forall file value rd, stores inflate file ds value -> direct_new m ds (Some file) = Ok rd ->
     direct_read m inflate sort fuel rd e dst =
       (Ok (prodN cnt * d_dsize ds),
        concat (map value (slab idx cnt)) ++ skipn (N.to_nat (prodN cnt * d_dsize ds)) dst)) <->
  sel_right m (d_shape ds) (d_chunk_shape ds) idx cnt = true.
Proof.
  intros HSort HP HM. rewrite <- (C21_class_exact m inflate ds e idx cnt dst fuel HP HM).
  pose proof HP as [A1 A2 A3 A4 A5 A6 A7 A8 A9 A10].
  assert (Hd : 0 < d_dsize ds) by apply (rg_sizes _ A2).
  split; intros H.
  - intros file value r HV HC. destruct (new_ok m ds file A1 A2) as [_ [rd Hrd]].
    apply (C24_agree m inflate sort fuel ds file r rd e dst _ _ HSort (rg_addr _ A2) Hd A9 HC Hrd).
    exact (H file value rd HV Hrd).
  - intros file value rd HV Hrd. destruct (new_ok m ds file A1 A2) as [[rc Hrc] _].
    apply (rc_new m inflate) in Hrc.
    apply (C24_agree m inflate sort fuel ds file rc rd e dst _ _ HSort (rg_addr _ A2) Hd A9 Hrc Hrd).
    exact (H file value rc HV Hrc).
Qed.
Print Assumptions C24_class_exact.

Theorem C25_class_exact m inflate sort ds e idx cnt dst fuel : addr_sort sort ->
  plain_case ds e idx cnt dst fuel -> sized m ds cnt dst ->
  (forall file value rd x d, stores inflate file ds value -> direct_new m ds (Some file) = Ok rd ->
     par_read m inflate sort fuel rd e dst x d ->
     x = Ok (prodN cnt * d_dsize ds) /\
     d = concat (map value (slab idx cnt)) ++ skipn (N.to_nat (prodN cnt * d_dsize ds)) dst) <->
  sel_right m (d_shape ds) (d_chunk_shape ds) idx cnt = true.
Proof.
  intros HSort HP HM. rewrite <- (C24_class_exact m inflate sort ds e idx cnt dst fuel HSort HP HM).
  pose proof HP as [A1 A2 A3 A4 A5 A6 A7 A8 A9 A10].
  assert (Hd : 0 < d_dsize ds) by apply (rg_sizes _ A2).
  split; intros H.
  - intros file value rd HV Hrd.
    destruct (C25_schedules m inflate sort fuel ds file rd e dst HSort (rg_addr _ A2) Hd A9 Hrd) as ((x & d & R) & _ & S & _).
    destruct (H file value rd x d HV Hrd R) as [-> ->]. now apply S.
  - intros file value rd x d HV Hrd R.
    destruct (C25_schedules m inflate sort fuel ds file rd e dst HSort (rg_addr _ A2) Hd A9 Hrd) as (_ & _ & _ & S).
    apply (S _ _ (H file value rd HV Hrd) x d R).
Qed.
Print Assumptions C25_class_exact.

(** ** Streams *)
Record class_stream (m : mode) (inflate : bytes -> option bytes) (file : bytes) (ds : dataset) (value : list N -> bytes)
    (e : extents) (idx cnt : list N) (fuel : nat) : Prop := {
  ct_full : full_dataset ds;
  ct_reg : regular ds;
  ct_stores : stores inflate file ds value;
  ct_distinct : distinct_cells inflate file ds;
  ct_sel : get_start_count e (d_shape ds) = Ok (idx, cnt);
  ct_in : sel_in (d_shape ds) idx cnt;
  ct_bytes : prodN cnt * d_dsize ds < W64;
  ct_mode : m = Release -> (2 * prodN cnt + 3 * prodN (d_chunk_shape ds)) * d_dsize ds < W64 /\
    (single_end (d_chunk_shape ds) cnt = true ->
     8 * (N.of_nat (length cnt) * (prodN cnt * prodN (d_chunk_shape ds))) * d_dsize ds < W64);
  ct_fuel : (N.to_nat (prodN cnt) < fuel)%nat
}.

Lemma word_concat {A} (f : A -> bytes) w l : (0 < w)%nat -> Forall (fun a => length (f a) = w) l ->
  forall p x, nth_error l p = Some x -> word w p (concat (map f l)) = f x.
Proof.
  intros Hw. induction 1 as [|a l H1 H2 IH]; intros [|p] x E; try discriminate; cbn [nth_error] in E.
  - injection E as ->. unfold word. cbn [Nat.mul skipn map concat]. rewrite firstn_app, firstn_all2 by lia.
    rewrite H1, Nat.sub_diag, firstn_O. apply app_nil_r.
  - specialize (IH p x E). unfold word in *. cbn [map concat].
    replace (S p * w)%nat with (length (f a) + p * w)%nat by lia.
    rewrite skipn_app, skipn_all2 by lia. replace (length (f a) + p * w - length (f a))%nat with (p * w)%nat by lia. exact IH.
Qed.

(** A buffer in which no element is in its place. *)
Lemma other_bytes inflate file ds value idx cnt : full_dataset ds -> stores inflate file ds value ->
  sel_in (d_shape ds) idx cnt -> exists dst, lenN dst = prodN cnt * d_dsize ds /\
    forall p x, nth_error (slab idx cnt) p = Some x -> value x <> word (N.to_nat (d_dsize ds)) p dst.
Proof.
  intros HD HS HI. set (f := fun x : list N => (match value x with b :: l => (b + 1) :: l | [] => [] end) : bytes).
  assert (HL : length idx = length cnt) by (destruct HI as (? & ? & _); congruence).
  assert (Hw : (0 < N.to_nat (d_dsize ds))%nat) by (destruct (st_sizes _ _ _ _ HS); lia).
  assert (HV : forall x, In x (slab idx cnt) -> length (value x) = N.to_nat (d_dsize ds)).
  { intros x Hx. eapply value_length; eauto. }
  assert (Hf : Forall (fun x => length (f x) = N.to_nat (d_dsize ds)) (slab idx cnt)).
  { apply Forall_forall. intros x Hx. rewrite <- (HV x Hx). unfold f. now destruct (value x). }
  exists (concat (map f (slab idx cnt))). split.
  - pose proof (slab_length idx cnt HL) as SL. unfold lenN in *. rewrite (concat_map_len _ _ _ Hf).
    rewrite Nat2N.inj_mul, SL, N2Nat.id. reflexivity.
  - intros p x Hx. rewrite (word_concat f _ _ Hw Hf p x Hx).
    pose proof (HV x (nth_error_In _ _ Hx)) as H. unfold f. destruct (value x) as [|b l]; [cbn in H; lia|].
    intros E. injection E as E. lia.
Qed.

Theorem C35_class_distinct m inflate file ds value e idx cnt fuel rs :
  class_stream m inflate file ds value e idx cnt fuel -> streamer_new m ds (Some file) = Ok rs ->
  ((exists items, stream m inflate fuel rs e = Ok (items, SEnd) /\ concat items = concat (map value (slab idx cnt))) <->
   sel_right m (d_shape ds) (d_chunk_shape ds) idx cnt = true).
Proof.
  intros [A1 A2 A3 A4 A5 A6 A7 A8 A9] HN.
  destruct (other_bytes inflate file ds value idx cnt A1 A3 A6) as (dst & Ld & Hnew).
  assert (HC : class_case m inflate file ds value e idx cnt dst fuel).
  { constructor; auto; try (rewrite Ld; auto; apply N.le_refl). intros M. destruct (A8 M). rewrite Ld. auto. }
  assert (HA : same_addr ds) by apply A3. assert (HZ : supported_sizes ds) by apply A3.
  destruct (new_sized m ds file A1 HZ) as [[rc Hrc] _]. apply (rc_new m inflate) in Hrc. split.
  - intros (items & ES & EI).
    rewrite <- (C21_class_distinct m inflate file ds value e idx cnt dst fuel rc HC Hrc).
    rewrite (skipn_all2 dst), app_nil_r by (unfold lenN in Ld; lia).
    pose proof (slab_bytes_len inflate file ds value idx cnt A1 A3 A6) as LV.
    rewrite (C35_converse m inflate fuel ds file rc rs e dst items (prodN cnt * d_dsize ds) HA Hrc HN ES).
    + rewrite EI. rewrite skipn_all2, app_nil_r by (unfold lenN in *; lia). reflexivity.
    + rewrite (read_size_eq m ds e dst idx cnt A5).
      * rewrite Ld. now rewrite leb_true by lia.
      * apply (sel_lead _ idx cnt A6). destruct HZ as [Z _ _ _]. clear - A7 Z. nia.
      * exact A7.
    + rewrite EI. lia.
  - intros HS. pose proof (class_right m ds e idx cnt A1 A5 A6 HS) as HR.
    pose proof (proj2 (C21_class_distinct m inflate file ds value e idx cnt dst fuel rc HC Hrc) HS) as HV.
    destruct (C35_agrees m inflate fuel ds file rc rs e dst _ _ HA Hrc HN HV) as (items' & ES' & _).
    apply streamer_made in HN; auto. subst rs.
    destruct (stream_cases m inflate file ds value e idx cnt fuel) as (items & z & n & E1 & E2 & E3 & _).
    { constructor; auto. }
    { now apply stores_stores_readable. }
    exists items. destruct E3 as [(-> & -> & _)|(y & c & k & er & _ & _ & _ & ->)].
    + split; [exact E1|]. now rewrite firstn_all in E2.
    + rewrite ES' in E1. discriminate.
Qed.
Print Assumptions C35_class_distinct.

(** ** Cases: rows 1 to 3 of the 5 x 1 x 1 dataset are read rightly by release builds only,
    rows 1 and 2 by neither. *)
Lemma thin_regular : regular thin_ds.
Proof.
  split; [| |intros _]; [constructor; cbn; try lia; vm_compute; reflexivity|..].
  - intros c c'. cbn [thin_ds d_chunks In].
    intros H1 H2. destruct H1 as [<-|[<-|[<-|[]]]]; destruct H2 as [<-|[<-|[<-|[]]]]; cbn; congruence.
  - intros c. cbn [thin_ds d_chunks In]. intros [<-|[<-|[<-|[]]]]; reflexivity.
Qed.
Lemma thin_disjoint : disjoint_chunks thin_ds.
Proof.
  intros c c'. cbn [thin_ds d_chunks In].
  intros H1 H2. destruct H1 as [<-|[<-|[<-|[]]]]; destruct H2 as [<-|[<-|[<-|[]]]]; cbn; intros; try congruence; lia.
Qed.
Definition thin_two : extents := Extents [SliceCount 1 2; Index 0; Index 0].
Example C21_class_cases m :
  plain_case thin_ds thin_sel [1; 0; 0] [3; 1; 1] (repeat 7 12) 4 /\ sized m thin_ds [3; 1; 1] (repeat 7 12) /\
  single_end (d_chunk_shape thin_ds) [3; 1; 1] = true /\
  sel_right m (d_shape thin_ds) (d_chunk_shape thin_ds) [1; 0; 0] [3; 1; 1] =
    match m with Debug => false | Release => true end /\
  plain_case thin_ds thin_two [1; 0; 0] [2; 1; 1] (repeat 7 8) 3 /\ sized m thin_ds [2; 1; 1] (repeat 7 8) /\
  sel_right m (d_shape thin_ds) (d_chunk_shape thin_ds) [1; 0; 0] [2; 1; 1] = false.
Proof.
  split; [|split; [|split; [reflexivity|split; [destruct m; reflexivity|split; [|split; [|destruct m; reflexivity]]]]]].
  1, 3: constructor; try reflexivity; try exact thin_full; try exact thin_regular; try exact thin_disjoint;
    try (vm_compute; discriminate); try (vm_compute; lia); try sel_in_tac.
  all: intros _; repeat split; intros; reflexivity.
Qed.

Lemma thin_cells inflate : distinct_cells inflate words_file thin_ds.
Proof.
  assert (T : all_distinct 4 2 (map (fun c => file_bytes words_file (c_addr c) (c_size c)) (d_chunks thin_ds)) = true)
    by (vm_compute; reflexivity).
  intros c c' raw raw' k k' Hc Hc' P P' Hk Hk' E.
  inversion P; subst. inversion P'; subst.
  apply In_nth_error in Hc as [i Hi]. apply In_nth_error in Hc' as [i' Hi'].
  assert (B : (i < 3)%nat /\ (i' < 3)%nat).
  { split; apply (proj1 (nth_error_Some (d_chunks thin_ds) _)); congruence. }
  destruct (all_distinct_ok _ _ _ i (N.to_nat k) i' (N.to_nat k') T) as [-> Ek].
  all: rewrite ?map_length; try apply B; try (cbn in Hk, Hk'; lia).
  - erewrite !nth_error_nth by (apply map_nth_error; eassumption). exact E.
  - split; [congruence|lia].
Qed.
Example C21_class_distinct_case m inflate :
  class_case m inflate words_file thin_ds (value_of thin_ds words_file) thin_sel [1; 0; 0] [3; 1; 1] (repeat 7 12) 4 /\
  class_case m inflate words_file thin_ds (value_of thin_ds words_file) thin_two [1; 0; 0] [2; 1; 1] (repeat 7 8) 3.
Proof.
  assert (ST : stores inflate words_file thin_ds (value_of thin_ds words_file)).
  { refine (plain_stores thin_ds inflate thin_full thin_regular eq_refl eq_refl _ words_file _); [intros [|[|[|[|j]]]]; reflexivity|].
    intros c. cbn [thin_ds d_chunks In]. intros [<-|[<-|[<-|[]]]]; vm_compute; discriminate. }
  split; constructor; try reflexivity; try exact thin_full; try exact thin_regular; try exact ST; try exact (thin_cells inflate);
    try (vm_compute; discriminate); try (vm_compute; lia); try sel_in_tac.
  1, 3: intros _; repeat split; intros; reflexivity.
  all: intros _ _ p x Hx; destruct p as [|[|[|p]]]; vm_compute in Hx; try discriminate; try (destruct p; discriminate).
  all: assert (E : x = [1; 0; 0] \/ x = [2; 0; 0] \/ x = [3; 0; 0]) by (clear - Hx; injection Hx as <-; auto).
  all: clear Hx; destruct E as [-> | [-> | ->]]; vm_compute; discriminate.
Qed.
Example C35_class_case m inflate :
  class_stream m inflate words_file thin_ds (value_of thin_ds words_file) thin_sel [1; 0; 0] [3; 1; 1] 4 /\
  class_stream m inflate words_file thin_ds (value_of thin_ds words_file) thin_two [1; 0; 0] [2; 1; 1] 3 /\
  exists rs, streamer_new m thin_ds (Some words_file) = Ok rs.
Proof.
  destruct (C21_class_distinct_case m inflate) as ([A1 A2 A3 A4 A5 A6 A7 A8 A9 A10 A11] & [B1 B2 B3 B4 B5 B6 B7 B8 B9 B10 B11]).
  split; [|split; [|destruct m; eexists; reflexivity]].
  - constructor; auto; try reflexivity; intros _; repeat split.
  - constructor; auto; try reflexivity; intros _; repeat split.
Qed.
