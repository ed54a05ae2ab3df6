(** * Reads of plain datasets are right in a debug build only for the selections in the
    class (proofs; theorem C21_exact). *)
From Verif Require Import Base Spec Radix Safe Extent Chunk Dataset Slicer Filters SpecApi SpecFilter SpecReader
  FilterProofs FilterProps DatasetProofs ApiLemmas Termination GroupProofs SliceProps Writes Reader CacheProofs DirectProofs
  ParProofs ReadProofs ReaderProps SlicerStep SlicerMain SlicerTheorems SlicerExact3.

(** ** Debug runs that end visit as many elements as are selected *)

Lemma run_debug_total ds : forall fuel st segs, s_offset st <= s_end st ->
  slicer_run Debug fuel ds st = (segs, SDone) -> total segs = s_end st - s_offset st.
Proof.
  induction fuel as [|fuel IH]; intros st segs HO H; cbn [slicer_run] in H; [discriminate|].
  destruct (slicer_next Debug ds st) as [[[[[c a] b] st']|]| | | |] eqn:E; try discriminate.
  - destruct (next_debug_sum _ _ _ _ _ _ E) as (N1 & N2 & N3).
    destruct (slicer_run Debug fuel ds st') as [l s] eqn:ER. injection H as <- ->.
    rewrite <- N3 in *. specialize (IH st' l N2 ER). unfold total in *. cbn [map sumN]. lia.
  - injection H as <-. unfold total. cbn [map sumN].
    revert E. unfold slicer_next. destruct (N.leb_spec (s_end st) (s_offset st)); [lia|].
    destruct (is_scalar ds).
    + intros H'. debind H'. debind H'. destruct (d_chunks ds); discriminate.
    + intros H'. debind H'. debind H'. debind H'. debind H'.
      apply bind_ok in H' as ([[[[v1 r1] k1] adv] soff] & E3 & H').
      debind H'. debind H'. debind H'. debind H'. discriminate.
Qed.

Lemma slices_debug_total ds e fuel idx cnt segs : full_dataset ds -> sel_in (d_shape ds) idx cnt ->
  get_start_count e (d_shape ds) = Ok (idx, cnt) ->
  chunk_slices Debug fuel ds e = (segs, SDone) -> total segs = prodN cnt.
Proof.
  intros HD HS HG H. unfold chunk_slices in H. rewrite (chunk_slicer_ok Debug ds e idx cnt HD HG HS) in H.
  apply run_debug_total in H; [|cbn; lia]. rewrite H. cbn. lia.
Qed.

(** ** The bytes of an element in an unfiltered dataset *)

(** Address of element [k] of chunk [c]. *)
Definition loc (w : N) (ck : chunk * N) : N := c_addr (fst ck) + snd ck * w.
Definition elem (w : N) (F : bytes) (ck : chunk * N) : bytes :=
  firstn (N.to_nat w) (skipn (N.to_nat (loc w ck)) F).

(** A (chunk, number) pair of the dataset. *)
Definition valid (ds : dataset) (ck : chunk * N) : Prop :=
  In (fst ck) (d_chunks ds) /\ snd ck < prodN (d_chunk_shape ds).

Lemma chunk_dec (c c' : chunk) : {c = c'} + {c <> c'}.
Proof. repeat decide equality. Qed.

Lemma loc_inj ds ck ck' : 0 < d_dsize ds -> disjoint_chunks ds ->
  (forall c, In c (d_chunks ds) -> c_size c = prodN (d_chunk_shape ds) * d_dsize ds) ->
  valid ds ck -> valid ds ck' -> loc (d_dsize ds) ck = loc (d_dsize ds) ck' -> ck = ck'.
Proof.
  intros Hd HJ HZ [A1 A2] [B1 B2] E. destruct ck as [c k], ck' as [c' k']. unfold loc in E. cbn [fst snd] in *.
  destruct (chunk_dec c c') as [->|Hn].
  - f_equal. nia.
  - exfalso. destruct (HJ c c' A1 B1 Hn) as [H|H]; [rewrite (HZ c A1) in H|rewrite (HZ c' B1) in H]; nia.
Qed.

Lemma nth_firstn_skipn (F : bytes) w a : (0 < w)%nat -> nth 0 (firstn w (skipn a F)) 0 = nth a F 0.
Proof.
  intros Hw. destruct w as [|w]; [lia|]. revert F. induction a as [|a IH]; intros [|x F]; cbn; auto.
  apply IH.
Qed.

(** The file of [L] zero bytes but for a one at [p]. *)
Definition mark (L p : nat) : bytes := map (fun i => if (i =? p)%nat then 1 else 0) (seq 0 L).
Lemma mark_len L p : length (mark L p) = L.
Proof. unfold mark. now rewrite map_length, seq_length. Qed.
Lemma mark_nth L p i : nth i (mark L p) 0 = if (i <? L)%nat && (i =? p)%nat then 1 else 0.
Proof.
  unfold mark. set (f := fun i => if (i =? p)%nat then 1 else 0). destruct (Nat.ltb_spec i L).
  - rewrite nth_indep with (d' := f 0%nat) by (rewrite map_length, seq_length; lia).
    rewrite map_nth, seq_nth by lia. reflexivity.
  - rewrite nth_overflow; auto. rewrite map_length, seq_length. lia.
Qed.

(** ** Blocks of equal size *)

Lemma blocks_inj {A B} (f : A -> bytes) (g : B -> bytes) w l1 l2 : length l1 = length l2 ->
  Forall (fun a => length (f a) = w) l1 -> Forall (fun a => length (g a) = w) l2 ->
  concat (map f l1) = concat (map g l2) -> Forall2 (fun a b => f a = g b) l1 l2.
Proof.
  revert l2. induction l1 as [|a l1 IH]; intros [|b l2] HL F1 F2 E; try discriminate; [constructor|].
  inversion F1 as [|? ? W1 F1']; inversion F2 as [|? ? W2 F2']; subst. cbn [map concat] in E.
  assert (T : forall (x y u v : bytes), length x = length y -> x ++ u = y ++ v -> x = y /\ u = v).
  { induction x as [|z x IHx]; intros [|t y] u v HL' E'; try discriminate; auto.
    injection E' as -> E'. destruct (IHx y u v ltac:(now injection HL') E') as [-> ->]. auto. }
  destruct (T _ _ _ _ (eq_sym W2) E) as [E1 E2]. constructor; auto.
Qed.

(** ** Segments of an unfiltered dataset *)
Section Plain.
Context (ds : dataset) (inflate : bytes -> option bytes).
Hypothesis HD : full_dataset ds.
Hypothesis HR : regular ds.
Hypothesis Hz : d_gzip ds = None.
Hypothesis Hsh : d_shuffle ds = false.
Notation w := (d_dsize ds).

Lemma plain_load m F c : In c (d_chunks ds) -> c_addr c + c_size c <= lenN F ->
  load m inflate F ds (csize ds) c = Ok (file_bytes F (c_addr c) (c_size c)).
Proof.
  intros Hc HF. unfold load, read_chunk. rewrite read_exact_in by auto. cbn [bind].
  destruct (rg_sizes _ HR) as [S1 S2 S3 S4].
  unfold decode_chunk. rewrite dbg_ok by (now apply N.ltb_lt). cbn [bind]. now rewrite Hz, Hsh.
Qed.

Lemma elem_len F ck : valid ds ck -> c_addr (fst ck) + c_size (fst ck) <= lenN F ->
  length (elem w F ck) = N.to_nat w.
Proof.
  intros [A B] HF. rewrite (rg_plain _ HR Hz _ A) in HF. unfold elem, loc. rewrite firstn_length, skipn_length.
  unfold lenN in HF. destruct (rg_sizes _ HR) as [S1 _ _ _]. nia.
Qed.

Lemma word_elem F c k : In c (d_chunks ds) -> k < prodN (d_chunk_shape ds) ->
  word (N.to_nat w) (N.to_nat k) (file_bytes F (c_addr c) (c_size c)) = elem w F (c, k).
Proof.
  intros A B. unfold word, elem, file_bytes, loc. cbn [fst snd]. rewrite (rg_plain _ HR Hz _ A).
  rewrite skipn_firstn_comm, firstn_firstn, skipn_add. f_equal; [|f_equal; lia].
  apply Nat.min_l. destruct (rg_sizes _ HR) as [S1 _ _ _]. nia.
Qed.

Lemma seg_elems_bytes F sg o : seg_wf ds sg -> c_addr (fst (fst sg)) + c_size (fst (fst sg)) <= lenN F ->
  seg_ok Debug (load Debug inflate F ds (csize ds)) w sg o ->
  o = concat (map (elem w F) (seg_elems sg)).
Proof.
  destruct sg as [[c a] b]. intros (H1 & H2 & H3) HF (s & e & data & E1 & E2 & E3 & E4 & E5 & ->).
  cbn [fst snd] in HF. rewrite plain_load in E4 by auto. injection E4 as <-.
  apply mul64_debug in E1 as [-> _]. apply mul64_debug in E2 as [-> _].
  rewrite <- N.mul_sub_distr_r, !N2Nat.inj_mul.
  rewrite word_split by (unfold lenN in E5; nia).
  unfold seg_elems. rewrite seqN_seq, !map_map. f_equal. apply map_ext_in. intros j Hj. apply in_seq in Hj.
  rewrite <- word_elem; auto; [f_equal; lia|lia].
Qed.

(** Bytes of the element with coordinate [x]. *)
Definition value_of (F : bytes) (x : list N) : bytes :=
  match fst (place ds x) with Some c => elem w F (c, snd (place ds x)) | None => [] end.

Hypothesis Hfit : fits64 (d_shape ds).

Lemma pos_lt cs x : length x = length cs -> Forall (fun c => 0 < c) cs -> pos_in_chunk cs x < prodN cs.
Proof.
  intros HL HP. unfold pos_in_chunk. apply row_major_lt. revert x HL.
  induction HP as [|c cs Hc HP IH]; intros [|v x] HL; try discriminate; cbn [map2]; constructor; auto.
  apply N.mod_lt. lia.
Qed.

Lemma place_some x : in_shape x (d_shape ds) ->
  exists c k, place ds x = (Some c, k) /\ holds ds x (c, k) /\ valid ds (c, k).
Proof.
  intros HI. pose proof HD as [Hwm Hg Hsz].
  destruct (chunk_at_coord_ok Release ds x Hwm Hfit Hg HI) as (c & Hn & _ & Ho).
  exists c, (pos_in_chunk (d_chunk_shape ds) x).
  assert (EP : place ds x = (Some c, pos_in_chunk (d_chunk_shape ds) x)) by (unfold place; now rewrite Hn).
  split; auto. split; [apply (place_holds ds x HD Hfit HI); auto|].
  split; [cbn [fst]; eapply nth_error_In; eauto|]. cbn [snd]. apply pos_lt; [|apply Hwm].
  pose proof (in_shape_length _ _ HI). pose proof (wm_rank _ Hwm). congruence.
Qed.

Lemma value_holds F x ck : in_shape x (d_shape ds) -> holds ds x ck -> value_of F x = elem w F ck /\ valid ds ck.
Proof.
  intros HI HH. destruct (place_some x HI) as (c & k & EP & Hh & Hv). destruct ck as [c' k'].
  destruct (holds_unique ds x c k c' k' HD Hfit HI Hh HH) as [-> ->]. unfold value_of. rewrite EP. auto.
Qed.

Lemma plain_stores F : (forall c, In c (d_chunks ds) -> c_addr c + c_size c <= lenN F) ->
  stores inflate F ds (value_of F).
Proof.
  intros HF. constructor; [apply HR|apply HR|]. intros c Hc. split; auto.
  exists (file_bytes F (c_addr c) (c_size c)). split; [|split].
  - unfold filters_of. rewrite Hz, Hsh. constructor.
  - rewrite <- (rg_plain _ HR Hz c Hc). unfold file_bytes, lenN. rewrite firstn_length, skipn_length.
    specialize (HF c Hc). unfold lenN in HF. lia.
  - intros x k HI HH. destruct (value_holds F x (c, k) HI HH) as [-> [_ Hk]]. now apply word_elem.
Qed.

Lemma segs_elems_bytes F segs os : Forall (seg_wf ds) segs ->
  (forall c, In c (d_chunks ds) -> c_addr c + c_size c <= lenN F) ->
  Forall2 (seg_ok Debug (load Debug inflate F ds (csize ds)) w) segs os ->
  concat os = concat (map (elem w F) (flat_map seg_elems segs)).
Proof.
  intros HW HF. induction 1 as [|sg o segs os H HO IH]; [reflexivity|].
  inversion HW as [|? ? W1 W2]; subst. cbn [concat flat_map]. rewrite map_app, concat_app, <- IH by auto. f_equal.
  apply seg_elems_bytes; auto. apply HF. destruct sg as [[c a] b]. apply W1.
Qed.

Lemma flat_len segs : length (flat_map seg_elems segs) = N.to_nat (total segs).
Proof.
  unfold total. induction segs as [|[[c a] b] segs IH]; [reflexivity|].
  cbn [flat_map map sumN]. rewrite app_length, IH. unfold seg_elems. rewrite map_length, seqN_length. lia.
Qed.

Lemma flat_valid segs : Forall (seg_wf ds) segs -> Forall (valid ds) (flat_map seg_elems segs).
Proof.
  intros HF. apply Forall_forall. intros [c k] H. apply in_flat_map in H as ([[c' a] b] & H1 & H2).
  rewrite Forall_forall in HF. destruct (HF _ H1) as (A & B & C). unfold seg_elems in H2.
  apply in_map_iff in H2 as (j & E & Hj). injection E as -> ->. apply in_seqN in Hj. split; cbn [fst snd]; auto. lia.
Qed.

(** Enough room for every chunk. *)
Definition room : nat := N.to_nat (sumN (map (fun c => c_addr c + c_size c) (d_chunks ds))).
Lemma room_ok p c : In c (d_chunks ds) -> c_addr c + c_size c <= lenN (mark room p).
Proof.
  unfold lenN. rewrite mark_len. unfold room. rewrite N2Nat.id. intros H.
  induction (d_chunks ds) as [|z l IH]; [easy|]. cbn [map sumN]. destruct H as [->|H]; [lia|].
  specialize (IH H). lia.
Qed.

Hypothesis HJ : disjoint_chunks ds.

Lemma mark_elem ck ck' : valid ds ck -> valid ds ck' ->
  elem w (mark room (N.to_nat (loc w ck))) ck = elem w (mark room (N.to_nat (loc w ck))) ck' -> ck = ck'.
Proof.
  intros V V' E. destruct (rg_sizes _ HR) as [S1 _ _ _].
  apply (loc_inj ds ck ck' S1 HJ (rg_plain _ HR Hz) V V').
  apply (f_equal (fun l => nth 0 l 0)) in E. unfold elem in E. rewrite !nth_firstn_skipn, !mark_nth in E by lia.
  rewrite Nat.eqb_refl in E.
  assert (B : (N.to_nat (loc w ck) <? room)%nat = true).
  { apply Nat.ltb_lt. destruct V as [V1 V2]. pose proof (room_ok 0 _ V1) as H. unfold lenN in H. rewrite mark_len in H.
    rewrite (rg_plain _ HR Hz _ V1) in H. unfold loc. nia. }
  rewrite B in E. cbn [andb] in E.
  destruct (Nat.eqb_spec (N.to_nat (loc w ck')) (N.to_nat (loc w ck))); [lia|].
  rewrite andb_false_r in E. discriminate.
Qed.
End Plain.

Lemma Forall2_ofnth {A B} (R : A -> B -> Prop) l1 l2 : length l1 = length l2 ->
  (forall k a b, nth_error l1 k = Some a -> nth_error l2 k = Some b -> R a b) -> Forall2 R l1 l2.
Proof.
  revert l2. induction l1 as [|a l1 IH]; intros [|b l2] HL H; try discriminate; constructor.
  - apply (H 0%nat); reflexivity.
  - apply IH; [now injection HL|]. intros k. apply (H (S k)).
Qed.

(** ** Right bytes force right segments *)

Lemma plain_exact ds inflate e idx cnt dst fuel :
  full_dataset ds -> regular ds -> d_gzip ds = None -> d_shuffle ds = false -> disjoint_chunks ds ->
  get_start_count e (d_shape ds) = Ok (idx, cnt) -> sel_in (d_shape ds) idx cnt ->
  prodN cnt * d_dsize ds <= lenN dst ->
  (forall F, (forall c, In c (d_chunks ds) -> c_addr c + c_size c <= lenN F) ->
     plain_read Debug inflate fuel F ds (csize ds) e dst =
       (Ok (prodN cnt * d_dsize ds),
        concat (map (value_of ds F) (slab idx cnt)) ++ skipn (N.to_nat (prodN cnt * d_dsize ds)) dst)) ->
  sel_safe (d_shape ds) (d_chunk_shape ds) idx cnt = true.
Proof.
  intros HD HR Hz Hsh HJ HG HS Hcap H.
  destruct (list_eq_dec N.eq_dec (d_shape ds) []) as [E0|E0]; [unfold sel_safe; now rewrite E0|].
  assert (Hfit : fits64 (d_shape ds)) by (eapply sel_in_fits; eauto; apply HD).
  assert (HSh : Forall (fun x => in_shape x (d_shape ds)) (slab idx cnt))
    by (apply Forall_forall; intros x Hx; eapply slab_in_shape; eauto).
  (* the segments *)
  destruct (chunk_slices Debug fuel ds e) as [segs st] eqn:ES.
  assert (R0 : forall F, (forall c, In c (d_chunks ds) -> c_addr c + c_size c <= lenN F) ->
     st = SDone /\ exists os, Forall2 (seg_ok Debug (load Debug inflate F ds (csize ds)) (d_dsize ds)) segs os /\
       lenN (concat os) <= lenN dst /\
       concat (map (value_of ds F) (slab idx cnt)) ++ skipn (N.to_nat (prodN cnt * d_dsize ds)) dst =
       splice dst 0 (concat os)).
  { intros F HF. specialize (H F HF). apply plain_read_iff in H as (_ & out & (segs' & os & E1 & E2 & -> & E3) & E4).
    rewrite ES in E1. injection E1 as <- ->. split; auto. exists os. auto. }
  destruct (R0 _ (room_ok ds 0)) as (-> & _).
  assert (HW : Forall (seg_wf ds) segs).
  { apply Forall_forall. intros [[c a] b] Hin.
    destruct (debug_bounds ds e fuel c a b) as (A & B & C); [rewrite ES; auto|]. repeat split; auto. }
  pose proof (slices_debug_total ds e fuel idx cnt segs HD HS HG ES) as HT.
  assert (HL : length (slab idx cnt) = length (flat_map seg_elems segs)).
  { rewrite flat_len, HT. destruct HS as (L1 & L2 & _).
    pose proof (slab_length idx cnt ltac:(congruence)) as SL. unfold lenN in SL. lia. }
  pose proof (flat_valid ds segs HW) as HV.
  assert (R1 : forall F, (forall c, In c (d_chunks ds) -> c_addr c + c_size c <= lenN F) ->
    Forall2 (fun x ck => value_of ds F x = elem (d_dsize ds) F ck) (slab idx cnt) (flat_map seg_elems segs)).
  { intros F HF. destruct (R0 F HF) as (_ & os & O1 & O2 & O3).
    assert (VL : Forall (fun x => length (value_of ds F x) = N.to_nat (d_dsize ds)) (slab idx cnt)).
    { eapply Forall_impl; [|exact HSh]. intros x Hx. cbn beta.
      destruct (place_some ds HD Hfit x Hx) as (c & k & EP & Hh & Hv).
      destruct (value_holds ds HD Hfit F x (c, k) Hx Hh) as [-> _]. apply elem_len; auto. apply HF, Hv. }
    assert (EL : Forall (fun ck => length (elem (d_dsize ds) F ck) = N.to_nat (d_dsize ds)) (flat_map seg_elems segs)).
    { eapply Forall_impl; [|exact HV]. intros ck Hv. apply elem_len; auto. apply HF, Hv. }
    apply (blocks_inj _ _ (N.to_nat (d_dsize ds))); auto.
    rewrite (segs_elems_bytes ds inflate HR Hz Hsh F segs os HW HF O1) in O2, O3.
    assert (CL : forall A (f : A -> bytes) l, Forall (fun a => length (f a) = N.to_nat (d_dsize ds)) l ->
                   length (concat (map f l)) = (length l * N.to_nat (d_dsize ds))%nat).
    { intros A f l. induction 1 as [|a l H1 H2 IH]; [reflexivity|]. cbn [map concat length].
      rewrite app_length, H1, IH. lia. }
    pose proof (CL _ _ _ VL) as CV. pose proof (CL _ _ _ EL) as CE.
    set (X := concat (map (value_of ds F) (slab idx cnt))) in *.
    set (Y := concat (map (elem (d_dsize ds) F) (flat_map seg_elems segs))) in *.
    unfold splice in O3. cbn [N.to_nat firstn app] in O3.
    assert (LX : length X = length Y) by congruence.
    apply (f_equal (firstn (length X))) in O3.
    rewrite firstn_app, firstn_all, Nat.sub_diag, firstn_O, app_nil_r in O3.
    rewrite O3, LX. now rewrite firstn_app, firstn_all, Nat.sub_diag, firstn_O, app_nil_r. }
  apply (reads_right_safe ds e idx cnt segs fuel HD HG HS ES).
  apply Forall2_ofnth; auto. intros k x ck Ex Eck.
  assert (Hx : in_shape x (d_shape ds)) by (rewrite Forall_forall in HSh; apply HSh; eapply nth_error_In; eauto).
  assert (Hck : valid ds ck) by (rewrite Forall_forall in HV; apply HV; eapply nth_error_In; eauto).
  destruct (place_some ds HD Hfit x Hx) as (c & j & EP & Hh & Hv).
  specialize (R1 _ (room_ok ds (N.to_nat (loc (d_dsize ds) (c, j))))).
  pose proof (Forall2_nth _ _ _ R1 k x ck Ex Eck) as R2. cbn beta in R2.
  rewrite (proj1 (value_holds ds HD Hfit _ x (c, j) Hx Hh)) in R2.
  apply (mark_elem ds HR Hz HJ (c, j) ck Hv Hck) in R2. now subst ck.
Qed.
