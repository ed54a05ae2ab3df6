(** * C62: readers and the file system.

    Each theorem is followed by a concrete case meeting its hypotheses. *)
From Verif Require Import Base Spec Safe SpecApi Chunk Extent Dataset Slicer Filters SpecFilter FilterProps ApiLemmas
  Reader SpecReader SlicerTheorems SlicerMain GroupProofs DirectProofs ParProofs ReadProofs CacheProofs StreamProofs ReaderProps
  IndexTree Serde Tools Open ExamplesReader Examples SliceProps Properties4 Properties5 Properties10 Properties13.

(** ** Opening *)

(** A cached reader is obtained exactly if the index knows the path of its file, the
    dataset is found, and the file can be opened; otherwise an error names the first of these
    that fails.  Streamers need the first two only: the file is opened later. *)
Theorem C62_open m fs g name :
  (gi_path g = None -> open_reader m fs g name = Err EMissing /\ open_streamer m g name = Err EMissing) /\
  (gi_dataset g name = None -> open_reader m fs g name = Err EMissing /\ open_streamer m g name = Err EMissing) /\
  (forall p ds, gi_path g = Some p -> gi_dataset g name = Some ds ->
     full_dataset ds -> supported_sizes ds ->
     (fs p = None -> open_reader m fs g name = Err EOpen) /\
     (forall f, fs p = Some f -> exists rc, open_reader m fs g name = Ok rc /\ cache_new m ds f = Ok rc) /\
     exists h, open_streamer m g name = Ok h /\
       (forall fs', streamer_new m ds (fs' p) = Ok (streamer_at fs' h)) /\
       (forall fs', direct_new m ds (fs' p) = Ok (direct_at fs' h))).
Proof.
  unfold open_reader, open_streamer, gi_open. split; [|split].
  - intros ->. auto.
  - intros ->. destruct (gi_path g); auto.
  - intros p ds -> -> HD HZ. cbn [bind]. unfold as_reader, as_handle.
    assert (HP : Forall (fun c => 0 < c) (d_chunk_shape ds)) by apply HD.
    pose proof (chunk_bytes_ok m ds HP HZ) as EB.
    split; [intros ->; reflexivity|]. split.
    + intros f ->. unfold cache_new. rewrite EB. cbn [bind].
      assert (HC : 0 < prodN (d_chunk_shape ds) * d_dsize ds).
      { pose proof (prodN_pos _ HP). destruct HZ. nia. }
      unfold cache_cap, div64. destruct (N.eqb_spec (prodN (d_chunk_shape ds) * d_dsize ds) 0); [lia|]. cbn [bind]. eauto.
    + unfold streamer_new, direct_new. rewrite EB. cbn [bind]. eexists. split; [reflexivity|]. auto.
Qed.
Print Assumptions C62_open.

(** ** A missing file *)

Lemma first_segment m ds e idx cnt fuel : full_dataset ds -> get_start_count e (d_shape ds) = Ok (idx, cnt) ->
  sel_in (d_shape ds) idx cnt -> chunk_slices m fuel ds e <> ([], SDone).
Proof.
  intros HD HG HS. unfold chunk_slices. rewrite (chunk_slicer_ok m ds e idx cnt HD HG HS).
  destruct fuel as [|fuel]; [discriminate|]. cbn [slicer_run].
  destruct (slicer_next m ds (state_at idx cnt 0)) as [[[sg st']|]| | | |] eqn:E; try discriminate.
  - destruct (slicer_run m fuel ds st'). discriminate.
  - exfalso. unfold slicer_next in E. cbn [state_at s_end s_offset] in E.
    assert (0 < prodN cnt) by (apply prodN_pos; apply HS).
    destruct (N.leb_spec (prodN cnt) 0); [lia|].
    destruct (is_scalar ds).
    + apply bind_ok in E as (? & _ & E). apply bind_ok in E as (? & _ & E). destruct (d_chunks ds); discriminate.
    + apply bind_ok in E as (? & _ & E). apply bind_ok in E as (? & _ & E). apply bind_ok in E as (? & _ & E).
      apply bind_ok in E as (? & _ & E). apply bind_ok in E as ([[[[? ?] ?] ?] ?] & _ & E).
      apply bind_ok in E as (? & _ & E). apply bind_ok in E as (? & _ & E). apply bind_ok in E as (? & _ & E).
      apply bind_ok in E as (? & _ & E). discriminate.
Qed.

Lemma groups_some m ds e idx cnt fuel sort G : addr_sort sort -> full_dataset ds ->
  get_start_count e (d_shape ds) = Ok (idx, cnt) -> sel_in (d_shape ds) idx cnt ->
  group_chunk_slices sort m fuel ds e = Ok G -> chunk_by_addr G <> [].
Proof.
  intros HSort HD HG HS E. apply bind_ok in E as (l & E & E'). injection E' as <-.
  pose proof (first_segment m ds e idx cnt fuel HD HG HS) as HF. unfold dest_slices in E.
  destruct (chunk_slices m fuel ds e) as [segs st]. destruct st; try discriminate.
  destruct segs as [|[[c a] b] segs]; [congruence|].
  cbn [scan_dest] in E. apply bind_ok in E as (? & _ & E). apply bind_ok in E as (? & _ & E). apply bind_ok in E as (? & _ & E).
  injection E as <-. intros HN. pose proof (chunk_by_concat (sort ((c, 0, a, b) :: x1))) as EC. rewrite HN in EC.
  cbn [concat] in EC. destruct (HSort ((c, 0, a, b) :: x1)) as [HP _]. rewrite <- EC in HP.
  apply Permutation_nil in HP. discriminate.
Qed.

(** Tasks that cannot open the file: nothing is written and, if there are any, one of them
    ends with the error whatever the schedule. *)
Definition unopened (t : tstate) : Prop :=
  t = Waiting ([], FErr EOpen) \/ t = Running [] (FErr EOpen) \/ t = Done (FErr EOpen) \/ t = Skipped.
Definition some_live (l : list tstate) : Prop := exists t, In t l /\ t <> Skipped.

Lemma unopened_step l d l' d' : pstep (l, d) (l', d') -> Forall unopened l -> some_live l ->
  d' = d /\ Forall unopened l' /\ some_live l'.
Proof.
  intros HS HU HL. inversion HS; subst; apply Forall_app in HU as [U1 U2]; inversion U2 as [|? ? U3 U4]; subst.
  - destruct U3 as [U3|[U3|[U3|U3]]]; try discriminate. injection U3 as -> ->. split; auto. split.
    + apply Forall_app. split; auto. constructor; auto. right; left; reflexivity.
    + eexists. split; [apply in_elt|discriminate].
  - destruct U3 as [U3|[U3|[U3|U3]]]; discriminate.
  - destruct U3 as [U3|[U3|[U3|U3]]]; try discriminate. injection U3 as ->. split; auto. split.
    + apply Forall_app. split; auto. constructor; auto. right; right; left; reflexivity.
    + eexists. split; [apply in_elt|discriminate].
  - split; auto. split.
    + apply Forall_app. split; auto. constructor; auto. right; right; right; reflexivity.
    + exists (Done f). split; [|discriminate]. match goal with H : In (Done f) _ |- _ => apply in_app_or in H end.
      apply in_or_app. cbn [In]. tauto.
Qed.

Lemma unopened_steps s t : psteps s t -> Forall unopened (fst s) -> some_live (fst s) ->
  snd t = snd s /\ Forall unopened (fst t) /\ some_live (fst t).
Proof.
  induction 1 as [s|[l d] [l' d'] u HS HSS IH]; intros HU HL; [auto|]. cbn [fst snd] in *.
  destruct (unopened_step _ _ _ _ HS HU HL) as (-> & HU' & HL'). apply IH; auto.
Qed.

(** A read of a non-empty selection over a path that cannot be opened (missing, or removed
    since the reader was made) never succeeds, whatever the schedule, and leaves the destination
    as it was; a stream yields no item but one error. *)
Theorem C62_missing m inflate sort fuel h fs e idx cnt dst : addr_sort sort -> fs (hn_path h) = None ->
  full_dataset (hn_ds h) -> get_start_count e (d_shape (hn_ds h)) = Ok (idx, cnt) -> sel_in (d_shape (hn_ds h)) idx cnt ->
  (forall x d, direct_read m inflate sort fuel (direct_at fs h) e dst = (x, d) -> d = dst /\ forall v, x <> Ok v) /\
  (forall x d, par_read m inflate sort fuel (direct_at fs h) e dst x d -> d = dst /\ forall v, x <> Ok v) /\
  (forall items z, stream m inflate fuel (streamer_at fs h) e = Ok (items, z) -> items = [] /\ z = SErr EOpen) /\
  (forall hst al1 al2 items z, stream_xdr m hst al1 al2 inflate fuel (streamer_at fs h) e = Ok (items, z) ->
     items = [] /\ z = SErr EOpen).
Proof.
  intros HSort HN HD HG HS. unfold direct_at, streamer_at. rewrite HN. split; [|split; [|split]].
  - intros x d. unfold direct_read. cbn [dr_ds dr_file dr_csz].
    destruct (read_size m (hn_ds h) e dst); try (intros [= <- <-]; split; [auto|discriminate]).
    destruct (group_chunk_slices sort m fuel (hn_ds h) e); intros [= <- <-]; split; auto; discriminate.
  - intros x d HR. inversion HR as [x' E1 E2 E3 E4|v' x' E1 E2 E3 E4 E5|v' G' final d' x' E1 E2 E3 E4 E5 E6 E7]; subst; cbn [dr_ds] in *.
    + auto.
    + split; auto. intros v. destruct (group_chunk_slices sort m fuel (hn_ds h) e); try discriminate.
    + pose proof (groups_some m _ e idx cnt fuel sort _ HSort HD HG HS E2) as HNE.
      apply unopened_steps in E3; cbn [fst snd] in *.
      * destruct E3 as (-> & HU & t & Ht & HT). split; auto. intros v.
        assert (HD1 : In (Done (FErr EOpen)) final).
        { rewrite Forall_forall in HU, E4. specialize (HU t Ht). specialize (E4 t Ht).
          destruct HU as [-> | [-> | [-> | ->]]]; cbn in E4; try contradiction; auto. }
        inversion E5 as [A|A B|er A B C|A]; subst; cbn [bind]; try discriminate. specialize (A _ HD1). discriminate.
      * apply Forall_forall. intros t Ht. apply in_map_iff in Ht as (g & <- & _). left. reflexivity.
      * destruct (chunk_by_addr G'); [congruence|]. cbn [map]. eexists. split; [left; reflexivity|discriminate].
  - intros items z H. unfold stream in H. cbn [sr_ds sr_file sr_csz] in H. apply bind_ok in H as (? & _ & H).
    apply bind_ok in H as (? & _ & H). injection H as <- <-. auto.
  - intros hst al1 al2 items z H. unfold stream_xdr in H. cbn [sr_ds sr_file sr_csz] in H. apply bind_ok in H as (? & _ & H).
    apply bind_ok in H as (? & _ & H). injection H as <- <-. auto.
Qed.
Print Assumptions C62_missing.

(** For a selection that reads well when the file is there, the outcome is exactly the error
    of opening, for each reader. *)
Theorem C62_missing_error m inflate sort fuel h fs e idx cnt dst : addr_sort sort -> fs (hn_path h) = None ->
  safe_read (hn_ds h) e idx cnt dst fuel -> as_handle m (hn_ds h) (hn_path h) = Ok h ->
  direct_read m inflate sort fuel (direct_at fs h) e dst = (Err EOpen, dst) /\
  (exists x d, par_read m inflate sort fuel (direct_at fs h) e dst x d) /\
  (forall x d, par_read m inflate sort fuel (direct_at fs h) e dst x d -> x = Err EOpen /\ d = dst) /\
  stream m inflate fuel (streamer_at fs h) e = Ok ([], SErr EOpen) /\
  (forall hst al1 al2, stream_xdr m hst al1 al2 inflate fuel (streamer_at fs h) e = Ok ([], SErr EOpen)).
Proof.
  intros HSort HN [A1 A2 A3 A4 A5 A6 A7 A8] HO.
  assert (EH : hn_csz h = csize (hn_ds h)).
  { unfold as_handle in HO. rewrite chunk_bytes_ok in HO; [|apply A1|apply A2]. cbn [bind] in HO. unfold csize.
    destruct h as [ds p csz]. cbn [hn_ds hn_path hn_csz] in *. congruence. }
  unfold direct_at, streamer_at. rewrite HN.
  destruct (GroupProofs.group_ok m (hn_ds h) e idx cnt fuel sort HSort A1 A3 A4 A5 A8) as (segs & G & E1 & E2 & E3 & _).
  assert (HZ : supported_sizes (hn_ds h)) by apply A2.
  assert (HFL : fits64_lead cnt) by (apply (sel_lead _ idx cnt A4); destruct HZ as [Z _ _ _]; clear - A6 A7 Z; nia).
  assert (RS : read_size m (hn_ds h) e dst = Ok (prodN cnt * d_dsize (hn_ds h))).
  { rewrite (read_size_eq m _ e dst idx cnt A3 HFL) by (clear - A6 A7; lia). now rewrite leb_true. }
  assert (SS : exists l, collect_slices m fuel (hn_ds h) e = Ok l).
  { destruct (safe_right m (hn_ds h) e idx cnt A1 A3 A4 A5) as (sg & S1 & S2). specialize (S1 fuel A8).
    unfold collect_slices. rewrite S1. rewrite byte_slices_ok; [cbn [bind stop_res]; eauto|apply HZ|].
    eapply right_wf; eauto. }
  destruct SS as (l & EL). destruct (cap_exists (csize (hn_ds h)) (csize_pos _ A1 A2)) as (cap & Ecap).
  split; [unfold direct_read; cbn [dr_ds dr_file]; now rewrite RS, E2|].
  split; [apply par_read_total|]. split; [|split].
  - intros x d HR. inversion HR as [x' F1 F2 F3 F4|v' x' F1 F2 F3 F4 F5|v' G' final d' x' F1 F2 F3 F4 F5 F6 F7]; subst; cbn [dr_ds] in *.
    + rewrite RS in F2. now specialize (F2 _ eq_refl).
    + rewrite E2 in F3. now specialize (F3 _ eq_refl).
    + rewrite E2 in F2. injection F2 as <-.
      pose proof (groups_some m _ e idx cnt fuel sort _ HSort A1 A3 A4 E2) as HNE.
      apply unopened_steps in F3; cbn [fst snd] in *.
      * destruct F3 as (-> & HU & t & Ht & HT). split; auto. rewrite Forall_forall in HU, F4.
        assert (HD1 : In (Done (FErr EOpen)) final).
        { specialize (HU t Ht). specialize (F4 t Ht).
          destruct HU as [-> | [-> | [-> | ->]]]; cbn in F4; try contradiction; auto. }
        assert (HX : forall f, In (Done f) final -> f = FErr EOpen).
        { intros f Hf. destruct (HU _ Hf) as [Q|[Q|[Q|Q]]]; congruence. }
        inversion F5 as [B|B C|er B C D|B]; subst; cbn [bind].
        -- specialize (HX _ B). discriminate.
        -- specialize (HX _ C). discriminate.
        -- specialize (HX _ D). congruence.
        -- specialize (B _ HD1). discriminate.
      * apply Forall_forall. intros t Ht. apply in_map_iff in Ht as (g & <- & _). left. reflexivity.
      * destruct (chunk_by_addr G); [congruence|]. cbn [map]. eexists. split; [left; reflexivity|discriminate].
  - unfold stream. cbn [sr_ds sr_file sr_csz]. rewrite EL, EH. cbn [bind]. now rewrite Ecap.
  - intros hst al1 al2. unfold stream_xdr. cbn [sr_ds sr_file sr_csz]. rewrite EL, EH. cbn [bind]. now rewrite Ecap.
Qed.
Print Assumptions C62_missing_error.

(** ** A file replaced (by renaming another over it) or removed after opening

    A cached reader goes on giving the values of the file it opened; direct, parallel and
    streaming reads give those of the file that has the path when they run. *)
Theorem C62_replaced m inflate sort fs fs' g name p ds f f' value value' rc h e idx cnt dst fuel : addr_sort sort ->
  gi_path g = Some p -> gi_dataset g name = Some ds ->
  fs p = Some f -> stores inflate f ds value -> (fs' p = Some f' -> stores inflate f' ds value') ->
  open_reader m fs g name = Ok rc -> open_streamer m g name = Ok h ->
  safe_read ds e idx cnt dst fuel ->
  let n := prodN cnt * d_dsize ds in
  let out (v : list N -> bytes) := concat (map v (slab idx cnt)) ++ skipn (N.to_nat n) dst in
  fst (cache_read m inflate fuel rc e dst) = (Ok n, out value) /\
  (fs' p = Some f' ->
   direct_read m inflate sort fuel (direct_at fs' h) e dst = (Ok n, out value') /\
   (forall x d, par_read m inflate sort fuel (direct_at fs' h) e dst x d -> x = Ok n /\ d = out value') /\
   exists items, stream m inflate fuel (streamer_at fs' h) e = Ok (items, SEnd) /\
     concat items = concat (map value' (slab idx cnt))) /\
  (fs' p = None ->
   direct_read m inflate sort fuel (direct_at fs' h) e dst = (Err EOpen, dst) /\
   (forall x d, par_read m inflate sort fuel (direct_at fs' h) e dst x d -> x = Err EOpen /\ d = dst) /\
   stream m inflate fuel (streamer_at fs' h) e = Ok ([], SErr EOpen)).
Proof.
  intros HSort HP HDs Hf HS HS' HO HH SR n out.
  pose proof SR as [A1 A2 A3 A4 A5 A6 A7 A8].
  unfold open_reader, open_streamer, gi_open in HO, HH. rewrite HP, HDs in HO, HH. cbn [bind] in HO, HH.
  unfold as_reader in HO. rewrite Hf in HO.
  assert (HHd : hn_ds h = ds /\ hn_path h = p).
  { unfold as_handle in HH. apply bind_ok in HH as (csz & _ & HH). injection HH as <-. auto. }
  destruct HHd as [Hd1 Hd2].
  assert (ND : forall q, direct_new m ds (q p) = Ok (direct_at q h) /\ streamer_new m ds (q p) = Ok (streamer_at q h)).
  { intros q. unfold as_handle in HH. apply bind_ok in HH as (csz & E & HH). injection HH as <-.
    unfold direct_new, streamer_new. rewrite E. auto. }
  assert (HA : same_addr ds) by apply A2. assert (HZ : supported_sizes ds) by apply A2.
  assert (Hd : 0 < d_dsize ds) by apply HZ.
  split; [|split].
  - exact (proj1 (C21_cached_partial m inflate f ds value e idx cnt dst fuel rc HS SR (rc_new m inflate ds f rc HO))).
  - intros Hf'. specialize (HS' Hf'). destruct (ND fs') as [N1 N2]. rewrite Hf' in N1, N2.
    destruct (new_ok m ds f' A1 A2) as [[rc' Hrc'] _]. apply (rc_new m inflate) in Hrc'.
    destruct (C21_cached_partial m inflate f' ds value' e idx cnt dst fuel rc' HS' SR Hrc') as [CR LV].
    pose proof CR as DR. apply (C24_agree m inflate sort fuel ds f' rc' (direct_at fs' h) e dst) in DR; auto.
    destruct (C25_schedules m inflate sort fuel ds f' (direct_at fs' h) e dst HSort HA Hd A7 N1) as (_ & _ & _ & P2).
    split; [exact DR|]. split; [exact (P2 _ _ DR)|].
    destruct (C35_agrees m inflate fuel ds f' rc' (streamer_at fs' h) e dst _ _ HA Hrc' N2 CR) as (items & E1 & _).
    exists items. split; auto.
    destruct (C35_stream_partial m inflate f' ds value' e idx cnt fuel (streamer_at fs' h) (stores_stores_readable _ _ _ _ A2 HS')) as (it & z & q & E3 & E4 & E5 & _); auto.
    { constructor; auto. }
    rewrite E1 in E3. injection E3 as <- <-. destruct E5 as [(-> & _ & _)|(y & c & kk & er & _ & _ & _ & E5)]; [|discriminate].
    rewrite firstn_all in E4. exact E4.
  - intros Hf'. rewrite <- Hd2 in Hf'. rewrite <- Hd1 in SR.
    destruct (C62_missing_error m inflate sort fuel h fs' e idx cnt dst HSort Hf' SR) as (E1 & _ & E2 & E3 & _); auto.
    now rewrite Hd1, Hd2.
Qed.
Print Assumptions C62_replaced.

(** The file of ExamplesReader.v as "/f", indexed with its dataset "x"; removed later. *)
Definition op_index : gindex := mkGroup (Some [47; 102]) [([120], st_ds)] [].
Definition op_fs : fsys := fun p => if str_eqb p [47; 102] then Some st_file else None.
Definition op_gone : fsys := fun _ => None.
Example C62_case m : exists rc h,
  gi_path op_index = Some [47; 102] /\ gi_dataset op_index [47; 120] = Some st_ds /\
  op_fs [47; 102] = Some st_file /\ stores toy_inflate st_file st_ds st_value /\
  open_reader m op_fs op_index [47; 120] = Ok rc /\ open_streamer m op_index [47; 120] = Ok h /\
  safe_read st_ds st_sel [1; 2] [3; 4] (repeat 7 24) 13 /\
  hn_ds h = st_ds /\ op_gone (hn_path h) = None /\ as_handle m (hn_ds h) (hn_path h) = Ok h /\
  gi_dataset op_index [121] = None.
Proof.
  destruct m; do 2 eexists; (do 3 (split; [reflexivity|])); (split; [exact st_stores|]); (do 2 (split; [reflexivity|]));
    (split; [|repeat split; reflexivity]); apply (st_safe (repeat 7 24) 13); vm_compute; try discriminate; try reflexivity; lia.
Qed.
