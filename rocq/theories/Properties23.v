(** * Exactness of the readers in both build modes and with any filters (C21, C24, C25).

    Each theorem is followed by a concrete case meeting its hypotheses. *)
From Verif Require Import Base Spec Safe Chunk Extent Dataset Slicer SpecApi Filters SpecFilter FilterProofs FilterProps ApiLemmas
  Reader SpecReader DirectProofs ParProofs ReaderProps ReadProofs CacheProofs ExamplesReader Examples SliceProps ExactReads
  SlicerRelease2 ExactFamily Properties4 Properties10.

(** What a release build needs besides: the destination is as long as the selection, the
    byte counts stay clear of 2^64, and the selection is not [single_end] (one index in
    each of the two last dimensions of chunks one element wide: there release builds get
    more selections right, see [C11_release_larger]). *)
Definition measured (m : mode) (ds : dataset) (cnt : list N) (dst : bytes) : Prop :=
  m = Release -> lenN dst = prodN cnt * d_dsize ds /\
    (2 * prodN cnt + 3 * prodN (d_chunk_shape ds)) * d_dsize ds < W64 /\
    single_end (d_chunk_shape ds) cnt = false.

Lemma fam_both m ds {Fam} (F0 : Fam) (value : Fam -> list N -> bytes) (cell : Fam -> chunk * N -> bytes)
    (L : Fam -> chunk -> res bytes) ex idx cnt dst fuel :
  full_dataset ds -> 0 < d_dsize ds -> csize ds < W64 ->
  (forall F c, In c (d_chunks ds) -> exists data, L F c = Ok data /\ lenN data = csize ds /\
     forall k, k < prodN (d_chunk_shape ds) -> word (N.to_nat (d_dsize ds)) (N.to_nat k) data = cell F (c, k)) ->
  (forall F x ck, in_shape x (d_shape ds) -> holds ds x ck -> value F x = cell F ck) ->
  (forall ck ck', valid ds ck -> valid ds ck' -> (forall F, cell F ck = cell F ck') -> ck = ck') ->
  get_start_count ex (d_shape ds) = Ok (idx, cnt) -> sel_in (d_shape ds) idx cnt ->
  prodN cnt * d_dsize ds <= lenN dst -> measured m ds cnt dst ->
  fam_right ds value L ex idx cnt dst fuel m ->
  sel_safe (d_shape ds) (d_chunk_shape ds) idx cnt = true.
Proof.
  intros HD Hw HC Hl Hv Hd HG HS Hcap HM H.
  assert (Hfit : fits64 (d_shape ds)) by (eapply sel_in_fits; eauto; apply HD).
  destruct m.
  - eapply (fam_debug ds F0 value cell L); eauto.
  - destruct (HM eq_refl) as (M1 & M2 & M3). eapply (fam_release ds F0 value cell L); eauto.
Qed.

Lemma new_sized m ds file : full_dataset ds -> supported_sizes ds ->
  (exists rc, cache_new m ds file = Ok rc) /\ exists rd, direct_new m ds (Some file) = Ok rd.
Proof.
  intros HD HR. assert (HP : Forall (fun c => 0 < c) (d_chunk_shape ds)) by apply HD.
  pose proof (chunk_bytes_ok m ds HP HR) as EB.
  assert (HC : 0 < prodN (d_chunk_shape ds) * d_dsize ds).
  { pose proof (prodN_pos _ HP). destruct HR. nia. }
  unfold cache_new, direct_new. rewrite EB. cbn [bind]. split; [|eauto].
  unfold cache_cap, div64. destruct (N.eqb_spec (prodN (d_chunk_shape ds) * d_dsize ds) 0); [lia|]. cbn [bind]. eauto.
Qed.

(** ** One file whose elements are all different *)

(** No two cells of the decoded chunks, padding included, have the same bytes. *)
Definition distinct_cells (inflate : bytes -> option bytes) (file : bytes) (ds : dataset) : Prop :=
  forall c c' raw raw' k k', In c (d_chunks ds) -> In c' (d_chunks ds) ->
    pipeline inflate (N.to_nat (d_dsize ds)) (filters_of ds) raw (file_bytes file (c_addr c) (c_size c)) ->
    pipeline inflate (N.to_nat (d_dsize ds)) (filters_of ds) raw' (file_bytes file (c_addr c') (c_size c')) ->
    k < prodN (d_chunk_shape ds) -> k' < prodN (d_chunk_shape ds) ->
    word (N.to_nat (d_dsize ds)) (N.to_nat k) raw = word (N.to_nat (d_dsize ds)) (N.to_nat k') raw' ->
    c = c' /\ k = k'.

Record distinct_case (m : mode) (inflate : bytes -> option bytes) (file : bytes) (ds : dataset) (value : list N -> bytes)
    (e : extents) (idx cnt : list N) (dst : bytes) (fuel : nat) : Prop := {
  dc_full : full_dataset ds;
  dc_reg : regular ds;
  dc_stores : stores inflate file ds value;
  dc_distinct : distinct_cells inflate file ds;
  dc_sel : get_start_count e (d_shape ds) = Ok (idx, cnt);
  dc_in : sel_in (d_shape ds) idx cnt;
  dc_cap : prodN cnt * d_dsize ds <= lenN dst;
  dc_len : lenN dst < W64;
  dc_mode : measured m ds cnt dst;
  dc_fuel : (N.to_nat (prodN cnt) < fuel)%nat
}.

Lemma load_pipeline m inflate file ds value c : stores inflate file ds value -> In c (d_chunks ds) ->
  exists raw, load m inflate file ds (csize ds) c = Ok raw /\ lenN raw = csize ds /\
    pipeline inflate (N.to_nat (d_dsize ds)) (filters_of ds) raw (file_bytes file (c_addr c) (c_size c)) /\
    forall x k, in_shape x (d_shape ds) -> holds ds x (c, k) ->
      word (N.to_nat (d_dsize ds)) (N.to_nat k) raw = value x.
Proof.
  intros [[S1 S2 S3 S4] _ SC] Hc. destruct (SC c Hc) as (HF & raw & HP & HL & HV).
  exists raw. split; [|auto]. unfold load, read_chunk. rewrite read_exact_in by auto. cbn [bind].
  unfold csize. rewrite <- HL. rewrite <- (N2Nat.id (d_dsize ds)).
  eapply decode_ok; [apply filters_std|exact HP| |lia].
  intros Hs. specialize (S3 Hs). cbn in *.
  destruct S3 as [E|[E|[E|[E|[]]]]]; rewrite <- E; cbn; auto.
Qed.

(** The cached reader, in any cache state it can be in, reads a selection of such a file
    rightly if and only if the selection is in the class: any filters, both build modes. *)
Theorem C21_distinct m inflate file ds value e idx cnt dst fuel r :
  distinct_case m inflate file ds value e idx cnt dst fuel -> reachable m inflate ds file r ->
  (fst (cache_read m inflate fuel r e dst) =
     (Ok (prodN cnt * d_dsize ds),
      concat (map value (slab idx cnt)) ++ skipn (N.to_nat (prodN cnt * d_dsize ds)) dst) <->
   sel_safe (d_shape ds) (d_chunk_shape ds) idx cnt = true).
Proof.
  intros [A1 AR A2 A3 A4 A5 A6 A7 A8 A9] HC. split.
  2:{ intros HS. apply (C21_cached_partial m inflate file ds value e idx cnt dst fuel r); auto.
      constructor; auto. }
  intros H. assert (HA : same_addr ds) by apply A2. assert (HZ' : supported_sizes ds) by apply A2.
  rewrite (cache_read_reachable m inflate ds file r fuel e dst HA HC) in H.
  destruct (reachable_inv m inflate ds file r HA HC) as (_ & _ & HZ & _).
  apply csize_fresh in HZ; [|apply A1|apply HZ']. rewrite HZ in H.
  set (L := load m inflate file ds (csize ds)).
  set (cell := fun ck : chunk * N => match L (fst ck) with
     Ok d => word (N.to_nat (d_dsize ds)) (N.to_nat (snd ck)) d | _ => [] end).
  apply (fam_both m ds (Fam := unit) tt (fun _ => value) (fun _ => cell) (fun _ => L) e idx cnt dst fuel); auto.
  - apply HZ'.
  - destruct HZ' as [_ _ _ S]. exact S.
  - intros _ c Hc. destruct (load_pipeline m inflate file ds value c A2 Hc) as (raw & E1 & E2 & E3 & E4).
    exists raw. split; [exact E1|]. split; [exact E2|]. intros k Hk. unfold cell, L. cbn [fst snd]. now rewrite E1.
  - intros _ x [c k] Hx Hh. assert (Hc : In c (d_chunks ds)) by apply Hh.
    destruct (load_pipeline m inflate file ds value c A2 Hc) as (raw & E1 & E2 & E3 & E4).
    unfold cell, L. cbn [fst snd]. rewrite E1. symmetry. now apply E4.
  - intros [c k] [c' k'] [V1 V2] [V1' V2'] E. cbn [fst snd] in *. specialize (E tt). unfold cell, L in E. cbn [fst snd] in E.
    destruct (load_pipeline m inflate file ds value c A2 V1) as (raw & E1 & E2 & E3 & _).
    destruct (load_pipeline m inflate file ds value c' A2 V1') as (raw' & E1' & E2' & E3' & _).
    rewrite E1, E1' in E. destruct (A3 c c' raw raw' k k' V1 V1' E3 E3' V2 V2' E) as [-> ->]. reflexivity.
  - intros _. apply plain_read_iff in H as (_ & out & H1 & H2). exists out. auto.
Qed.
Print Assumptions C21_distinct.

(** The same for the direct reader, *)
Theorem C24_distinct m inflate sort file ds value e idx cnt dst fuel rd : addr_sort sort ->
  distinct_case m inflate file ds value e idx cnt dst fuel -> direct_new m ds (Some file) = Ok rd ->
  (direct_read m inflate sort fuel rd e dst =
     (Ok (prodN cnt * d_dsize ds),
      concat (map value (slab idx cnt)) ++ skipn (N.to_nat (prodN cnt * d_dsize ds)) dst) <->
   sel_safe (d_shape ds) (d_chunk_shape ds) idx cnt = true).
Proof.
  intros HSort HD Hrd. pose proof (dc_full _ _ _ _ _ _ _ _ _ _ HD) as A1. pose proof (dc_stores _ _ _ _ _ _ _ _ _ _ HD) as A2.
  assert (HA : same_addr ds) by apply A2. assert (HZ : supported_sizes ds) by apply A2.
  assert (Hd : 0 < d_dsize ds) by apply HZ.
  destruct (new_sized m ds file A1 HZ) as [[rc Hrc] _]. apply (rc_new m inflate) in Hrc.
  rewrite <- (C21_distinct m inflate file ds value e idx cnt dst fuel rc HD Hrc). symmetry.
  apply (C24_agree m inflate sort fuel ds file rc rd e dst _ _ HSort HA Hd (dc_len _ _ _ _ _ _ _ _ _ _ HD) Hrc Hrd).
Qed.
Print Assumptions C24_distinct.

(** and for the parallel one: under every schedule if the selection is in the class, under
    none if it is not. *)
Theorem C25_distinct m inflate sort file ds value e idx cnt dst fuel rd x d : addr_sort sort ->
  distinct_case m inflate file ds value e idx cnt dst fuel -> direct_new m ds (Some file) = Ok rd ->
  par_read m inflate sort fuel rd e dst x d ->
  (x = Ok (prodN cnt * d_dsize ds) /\
   d = concat (map value (slab idx cnt)) ++ skipn (N.to_nat (prodN cnt * d_dsize ds)) dst <->
   sel_safe (d_shape ds) (d_chunk_shape ds) idx cnt = true).
Proof.
  intros HSort HD Hrd R. pose proof (dc_stores _ _ _ _ _ _ _ _ _ _ HD) as A2.
  assert (HA : same_addr ds) by apply A2. assert (Hd : 0 < d_dsize ds) by apply (st_sizes _ _ _ _ A2).
  destruct (C25_schedules m inflate sort fuel ds file rd e dst HSort HA Hd (dc_len _ _ _ _ _ _ _ _ _ _ HD) Hrd) as (_ & _ & S1 & S2).
  rewrite <- (C24_distinct m inflate sort file ds value e idx cnt dst fuel rd HSort HD Hrd). split.
  - intros [-> ->]. now apply S1.
  - intros E. exact (S2 _ _ E x d R).
Qed.
Print Assumptions C25_distinct.

(** ** Every file holding an unfiltered dataset *)

(** [C21_exact] (Properties10.v), in both build modes. *)
Theorem C21_exact_modes m inflate ds e idx cnt dst fuel : plain_case ds e idx cnt dst fuel -> measured m ds cnt dst ->
  (forall file value r, stores inflate file ds value -> reachable m inflate ds file r ->
     fst (cache_read m inflate fuel r e dst) =
       (Ok (prodN cnt * d_dsize ds),
        concat (map value (slab idx cnt)) ++ skipn (N.to_nat (prodN cnt * d_dsize ds)) dst)) <->
  sel_safe (d_shape ds) (d_chunk_shape ds) idx cnt = true.
Proof.
  intros [A1 A2 A3 A4 A5 A6 A7 A8 A9 A10] HM. split.
  2:{ intros HS file value r HV HC.
      apply (C21_cached_partial m inflate file ds value e idx cnt dst fuel r); auto. now constructor. }
  intros H. assert (Hfit : fits64 (d_shape ds)) by (eapply sel_in_fits; eauto; apply A1).
  set (Fam := {F : bytes | forall c, In c (d_chunks ds) -> c_addr c + c_size c <= lenN F}).
  set (w := d_dsize ds) in *.
  apply (fam_both m ds (Fam := Fam) (exist _ (mark (room ds) 0) (room_ok ds 0)) (fun F => value_of ds (proj1_sig F))
     (fun F => elem w (proj1_sig F)) (fun F => load m inflate (proj1_sig F) ds (csize ds)) e idx cnt dst fuel); auto.
  - apply (rg_sizes _ A2).
  - destruct (rg_sizes _ A2) as [_ _ _ S]. exact S.
  - intros [F HF] c Hc. cbn [proj1_sig]. exists (file_bytes F (c_addr c) (c_size c)). split; [|split].
    + apply (plain_load ds inflate A2 A3 A4 m F c Hc). now apply HF.
    + unfold csize. rewrite <- (rg_plain _ A2 A3 c Hc). unfold file_bytes, lenN. rewrite firstn_length, skipn_length.
      specialize (HF c Hc). unfold lenN in HF. lia.
    + intros k Hk. exact (word_elem ds A2 A3 F c k Hc Hk).
  - intros [F HF] x ck Hx Hh. cbn [proj1_sig]. apply (value_holds ds A1 Hfit F x ck Hx Hh).
  - intros ck ck' V V' E. apply (mark_elem ds A2 A3 A5 ck ck' V V').
    exact (E (exist _ (mark (room ds) (N.to_nat (loc (d_dsize ds) ck))) (room_ok ds _))).
  - intros [F HF]. cbn [proj1_sig].
    destruct (new_ok m ds F A1 A2) as [[rc Hrc] _].
    pose proof (rc_new m inflate ds F rc Hrc) as HC.
    specialize (H F (value_of ds F) rc (plain_stores ds inflate A1 A2 A3 A4 Hfit F HF) HC).
    rewrite (cache_read_reachable m inflate ds F rc fuel e dst (rg_addr _ A2) HC) in H.
    destruct (reachable_inv m inflate ds F rc (rg_addr _ A2) HC) as (_ & _ & HZ & _).
    apply csize_fresh in HZ; [|apply A1|apply A2]. rewrite HZ in H.
    apply plain_read_iff in H as (_ & out & H1 & H2). exists out. auto.
Qed.
Print Assumptions C21_exact_modes.

Theorem C24_exact_modes m inflate sort ds e idx cnt dst fuel : addr_sort sort ->
  plain_case ds e idx cnt dst fuel -> measured m ds cnt dst ->
  (forall file value rd, stores inflate file ds value -> direct_new m ds (Some file) = Ok rd ->
     direct_read m inflate sort fuel rd e dst =
       (Ok (prodN cnt * d_dsize ds),
        concat (map value (slab idx cnt)) ++ skipn (N.to_nat (prodN cnt * d_dsize ds)) dst)) <->
  sel_safe (d_shape ds) (d_chunk_shape ds) idx cnt = true.
Proof.
  intros HSort HP HM. rewrite <- (C21_exact_modes m inflate ds e idx cnt dst fuel HP HM).
  pose proof HP as [A1 A2 A3 A4 A5 A6 A7 A8 A9 A10].
  assert (Hd : 0 < d_dsize ds) by apply (rg_sizes _ A2).
  split; intros H.
  - intros file value r HV HC. destruct (new_ok m ds file A1 A2) as [_ [rd Hrd]].
    apply (C24_agree m inflate sort fuel ds file r rd e dst _ _ HSort (rg_addr _ A2) Hd A9 HC Hrd).
    exact (H file value rd HV Hrd).
  - intros file value rd HV Hrd. destruct (new_ok m ds file A1 A2) as [[rc Hrc] _].
    apply (rc_new m inflate) in Hrc.
    apply (C24_agree m inflate sort fuel ds file rc rd e dst _ _ HSort (rg_addr _ A2) Hd A9 Hrc Hrd).
    exact (H file value rc HV Hrc).
Qed.
Print Assumptions C24_exact_modes.

Theorem C25_exact_modes m inflate sort ds e idx cnt dst fuel : addr_sort sort ->
  plain_case ds e idx cnt dst fuel -> measured m ds cnt dst ->
  (forall file value rd x d, stores inflate file ds value -> direct_new m ds (Some file) = Ok rd ->
     par_read m inflate sort fuel rd e dst x d ->
     x = Ok (prodN cnt * d_dsize ds) /\
     d = concat (map value (slab idx cnt)) ++ skipn (N.to_nat (prodN cnt * d_dsize ds)) dst) <->
  sel_safe (d_shape ds) (d_chunk_shape ds) idx cnt = true.
Proof.
  intros HSort HP HM. rewrite <- (C24_exact_modes m inflate sort ds e idx cnt dst fuel HSort HP HM).
  pose proof HP as [A1 A2 A3 A4 A5 A6 A7 A8 A9 A10].
  assert (Hd : 0 < d_dsize ds) by apply (rg_sizes _ A2).
  split; intros H.
  - intros file value rd HV Hrd.
    destruct (C25_schedules m inflate sort fuel ds file rd e dst HSort (rg_addr _ A2) Hd A9 Hrd) as ((x & d & R) & _ & S & _).
    destruct (H file value rd x d HV Hrd R) as [-> ->]. now apply S.
  - intros file value rd x d HV Hrd R.
    destruct (C25_schedules m inflate sort fuel ds file rd e dst HSort (rg_addr _ A2) Hd A9 Hrd) as (_ & _ & _ & S).
    apply (S _ _ (H file value rd HV Hrd) x d R).
Qed.
Print Assumptions C25_exact_modes.

(** ** Concrete cases, on both sides, in both build modes *)

(** A file of 1100 different four-byte words. *)
Definition words_file : bytes := concat (map (fun q => [N.of_nat q mod 256; N.of_nat q / 256; 0; 0]) (seq 0 1100)).

(** All cells of unfiltered chunks, checked by computation. *)
Fixpoint bytes_eqb (a b : bytes) : bool :=
  match a, b with
  | [], [] => true
  | x :: a', y :: b' => (x =? y) && bytes_eqb a' b'
  | _, _ => false
  end.
Lemma bytes_eqb_refl a : bytes_eqb a a = true.
Proof. induction a; cbn; auto. now rewrite N.eqb_refl. Qed.
Definition cells_of (w n : nat) (raws : list bytes) : list (nat * nat * bytes) :=
  concat (map (fun i => map (fun k => (i, k, word w k (nth i raws []))) (seq 0 n)) (seq 0 (length raws))).
Definition all_distinct (w n : nat) (raws : list bytes) : bool :=
  let l := cells_of w n raws in
  forallb (fun '(i, k, v) => forallb (fun '(i', k', v') =>
    implb (bytes_eqb v v') ((i =? i')%nat && (k =? k')%nat)) l) l.
Lemma all_distinct_ok w n raws i k i' k' : all_distinct w n raws = true ->
  (i < length raws)%nat -> (i' < length raws)%nat -> (k < n)%nat -> (k' < n)%nat ->
  word w k (nth i raws []) = word w k' (nth i' raws []) -> i = i' /\ k = k'.
Proof.
  intros H Hi Hi' Hk Hk' E. unfold all_distinct in H. rewrite forallb_forall in H.
  assert (I : forall i k, (i < length raws)%nat -> (k < n)%nat -> In (i, k, word w k (nth i raws [])) (cells_of w n raws)).
  { intros j z Hj Hz. unfold cells_of. apply in_concat. eexists. split.
    - apply in_map with (x := j). apply in_seq. lia.
    - cbn beta. apply in_map_iff. exists z. split; [reflexivity|]. apply in_seq. lia. }
  specialize (H _ (I i k Hi Hk)). cbn beta iota in H. rewrite forallb_forall in H.
  specialize (H _ (I i' k' Hi' Hk')). cbn beta iota in H. rewrite E, bytes_eqb_refl in H. cbn [implb] in H.
  apply andb_true_iff in H as [H1 H2]. apply Nat.eqb_eq in H1, H2. auto.
Qed.

Lemma bad_cells inflate : distinct_cells inflate words_file bad_ds.
Proof.
  assert (T : all_distinct 4 20 (map (fun c => file_bytes words_file (c_addr c) (c_size c)) (d_chunks bad_ds)) = true)
    by (vm_compute; reflexivity).
  intros c c' raw raw' k k' Hc Hc' P P' Hk Hk' E.
  inversion P; subst. inversion P'; subst.
  apply In_nth_error in Hc as [i Hi]. apply In_nth_error in Hc' as [i' Hi'].
  assert (B : (i < 4)%nat /\ (i' < 4)%nat).
  { split; apply (proj1 (nth_error_Some (d_chunks bad_ds) _)); congruence. }
  destruct (all_distinct_ok _ _ _ i (N.to_nat k) i' (N.to_nat k') T) as [-> Ek].
  all: rewrite ?map_length; try apply B; try (cbn in Hk, Hk'; lia).
  - erewrite !nth_error_nth by (apply map_nth_error; eassumption). exact E.
  - split; [congruence|lia].
Qed.

(** [bad_ds] as a whole, and part of one of its planes, in the file of different words. *)
Definition bad_value (x : list N) : bytes := value_of bad_ds words_file x.
Example C21_distinct_case m inflate :
  distinct_case m inflate words_file bad_ds bad_value (Extents [Index 1; SliceCount 0 3; SliceCount 1 3])
    [1; 0; 1] [1; 3; 3] (repeat 7 36) 10 /\
  sel_safe (d_shape bad_ds) (d_chunk_shape bad_ds) [1; 0; 1] [1; 3; 3] = true /\
  distinct_case m inflate words_file bad_ds bad_value All [0; 0; 0] [4; 3; 5] (repeat 7 240) 61 /\
  sel_safe (d_shape bad_ds) (d_chunk_shape bad_ds) [0; 0; 0] [4; 3; 5] = false.
Proof.
  assert (ST : stores inflate words_file bad_ds bad_value).
  { refine (plain_stores bad_ds inflate bad_full bad_regular eq_refl eq_refl _ words_file _); [intros [|[|[|[|j]]]]; reflexivity|].
    intros c. cbn [bad_ds d_chunks In]. intros [<-|[<-|[<-|[<-|[]]]]]; vm_compute; discriminate. }
  split; [|split; [reflexivity|split; [|reflexivity]]].
  all: constructor; try reflexivity; try exact bad_full; try exact bad_regular; try exact ST; try exact (bad_cells inflate);
    try (vm_compute; discriminate); try (vm_compute; lia).
  all: try sel_in_tac.
  all: intros _; repeat split; reflexivity.
Qed.

(** Shuffled and compressed: [st_ds] (ExamplesReader.v). *)
Lemma st_cells : distinct_cells toy_inflate st_file st_ds.
Proof.
  assert (T : all_distinct 2 6 [st_raw 0 0; st_raw 0 3; st_raw 2 0; st_raw 2 3] = true) by (vm_compute; reflexivity).
  assert (U : forall c raw, In c (d_chunks st_ds) ->
     pipeline toy_inflate 2 (filters_of st_ds) raw (file_bytes st_file (c_addr c) (c_size c)) ->
     exists i, nth_error (d_chunks st_ds) i = Some c /\ (i < 4)%nat /\
       raw = nth i [st_raw 0 0; st_raw 0 3; st_raw 2 0; st_raw 2 3] []).
  { intros c raw Hc P.
    assert (HL : lenN raw = 12).
    { inversion P as [|? ? n s ? SH P'|]; subst. inversion P' as [| |? ? ? s' ? I P'']; subst. inversion P''; subst.
      destruct SH as (S1 & S2 & _). unfold lenN. rewrite S1, <- S2. clear - I Hc.
      cbn [st_ds d_chunks In] in Hc. destruct Hc as [<-|[<-|[<-|[<-|[]]]]]; vm_compute in I; injection I as <-; reflexivity. }
    pose proof (decode_ok Release toy_inflate _ true true 2 raw _ (filters_std st_ds) P ltac:(cbn; auto) ltac:(lia)) as E.
    rewrite HL in E. cbn [st_ds d_chunks In] in Hc.
    destruct Hc as [<-|[<-|[<-|[<-|[]]]]]; vm_compute in E; injection E as <-.
    - exists 0%nat. repeat split; lia.
    - exists 1%nat. repeat split; lia.
    - exists 2%nat. repeat split; lia.
    - exists 3%nat. repeat split; lia. }
  intros c c' raw raw' k k' Hc Hc' P P' Hk Hk' E.
  destruct (U c raw Hc P) as (i & I1 & I2 & ->). destruct (U c' raw' Hc' P') as (i' & I1' & I2' & ->).
  destruct (all_distinct_ok _ _ _ i (N.to_nat k) i' (N.to_nat k') T I2 I2') as [-> Ek].
  - cbn in Hk. lia.
  - cbn in Hk'. lia.
  - exact E.
  - split; [congruence|lia].
Qed.
Example C21_distinct_filtered m :
  distinct_case m toy_inflate st_file st_ds st_value st_sel [1; 2] [3; 4] (repeat 7 24) 13.
Proof.
  constructor; try reflexivity; try exact st_full; try exact st_regular; try exact st_stores; try exact st_cells;
    try (vm_compute; discriminate); try (vm_compute; lia).
  - sel_in_tac.
  - intros _; repeat split; reflexivity.
Qed.
