(** * Property theorems C56: a read depends on the bytes of the dataset's chunks only; and
    C30 for every selection. *)
From Verif Require Import Base Spec Safe Extent Chunk Dataset Slicer SpecApi ExtentProofs ApiLemmas Termination
  GroupProofs SliceProps Filters SpecFilter FilterProps Reader SpecReader CacheProofs DirectProofs ParProofs
  ReadProofs ReaderProps StreamProofs Properties4 Examples ExamplesReader.

(** ** Specification *)

(** Two files with the same bytes where the dataset's chunks are: what lies between and
    after the chunks, and the length of the files, may differ. *)
Definition same_chunks (ds : dataset) (f f' : bytes) : Prop :=
  forall c, In c (d_chunks ds) ->
    (c_addr c + c_size c <= lenN f <-> c_addr c + c_size c <= lenN f') /\
    file_bytes f (c_addr c) (c_size c) = file_bytes f' (c_addr c) (c_size c).

(** ** Extensionality of the loops *)

Definition agree (ds : dataset) (L L' : chunk -> res bytes) : Prop :=
  forall c, In c (d_chunks ds) -> L c = L' c.

Lemma load_agree m inflate ds csz f f' : same_chunks ds f f' ->
  agree ds (load m inflate f ds csz) (load m inflate f' ds csz).
Proof.
  intros H c Hc. destruct (H c Hc) as [A B]. unfold load, read_chunk. f_equal.
  unfold read_exact. unfold file_bytes in B. rewrite B. destruct (_ =? 0); [reflexivity|].
  destruct (N.leb_spec (c_addr c + c_size c) (lenN f)), (N.leb_spec (c_addr c + c_size c) (lenN f')); auto; lia.
Qed.

Lemma plain_loop_agree m ds L L' dsz st : agree ds L L' -> forall segs pos dst,
  Forall (fun sg => In (fst (fst sg)) (d_chunks ds)) segs ->
  plain_loop m L dsz segs st pos dst = plain_loop m L' dsz segs st pos dst.
Proof.
  intros HL. induction segs as [|[[c a] b] segs IH]; intros pos dst HF; [reflexivity|].
  inversion HF; subst. cbn [fst] in H1. cbn [plain_loop].
  assert (E : seg_copy m L dsz (c, a, b) pos dst = seg_copy m L' dsz (c, a, b) pos dst)
    by (unfold seg_copy; now rewrite (HL c H1)).
  rewrite E. destruct (seg_copy m L' dsz (c, a, b) pos dst) as [[dst' pos']| | | |]; auto.
Qed.

Lemma plain_agree m inflate fuel f f' ds csz e dst : same_chunks ds f f' ->
  plain_read m inflate fuel f ds csz e dst = plain_read m inflate fuel f' ds csz e dst.
Proof.
  intros H. unfold plain_read. destruct (read_size m ds e dst); auto.
  pose proof (slices_in m fuel ds e) as HF. destruct (chunk_slices m fuel ds e) as [segs st]. cbn [fst] in HF.
  now rewrite (plain_loop_agree m ds _ _ (d_dsize ds) st (load_agree m inflate ds csz f f' H) segs 0 dst HF).
Qed.

Lemma group_in sort m fuel ds e groups : addr_sort sort -> group_chunk_slices sort m fuel ds e = Ok groups ->
  Forall (fun g => In (fst (fst (fst g))) (d_chunks ds)) groups.
Proof.
  intros HS H. unfold group_chunk_slices in H. apply bind_ok in H as (l & H & E). injection E as <-.
  destruct (HS l) as [P _]. apply (Permutation_Forall (Permutation_sym P)).
  unfold dest_slices in H. pose proof (slices_in m fuel ds e) as HF.
  destruct (chunk_slices m fuel ds e) as [segs st]. cbn [fst] in HF. destruct st; try discriminate.
  revert H HF. generalize 0. revert l P. intros l _. revert l.
  induction segs as [|[[c a] b] segs IH]; intros l off H HF; cbn [scan_dest] in H.
  - injection H as <-. constructor.
  - inversion HF; subst. apply bind_ok in H as (sz & _ & H). apply bind_ok in H as (o' & _ & H).
    apply bind_ok in H as (r & Hr & H). injection H as <-. constructor; auto. eapply IH; eauto.
Qed.

Lemma direct_loop_agree m inflate ds csz fo fo' f f' : same_chunks ds f f' -> forall groups last dst,
  Forall (fun g => In (fst (fst (fst g))) (d_chunks ds)) groups ->
  direct_loop m inflate (mkDirect ds fo csz) f groups last dst =
  direct_loop m inflate (mkDirect ds fo' csz) f' groups last dst.
Proof.
  intros HL. induction groups as [|[[[c cur] a] b] groups IH]; intros last dst HF; [reflexivity|].
  inversion HF; subst. cbn [fst] in H1. cbn [direct_loop dr_ds].
  assert (E : direct_load m inflate (mkDirect ds fo csz) f last c = direct_load m inflate (mkDirect ds fo' csz) f' last c).
  { unfold direct_load. cbn [dr_ds dr_csz]. now rewrite (load_agree m inflate ds csz f f' HL c H1). }
  rewrite E. destruct (direct_load _ _ _ f' last c); auto.
  destruct (copy_at m a0 (d_dsize ds) cur a b dst); auto.
Qed.

Lemma par_task_agree m inflate ds csz f f' dlen g : same_chunks ds f f' ->
  Forall (fun g => In (fst (fst (fst g))) (d_chunks ds)) g ->
  par_task m inflate (mkDirect ds (Some f) csz) dlen g = par_task m inflate (mkDirect ds (Some f') csz) dlen g.
Proof.
  intros HL HF. unfold par_task. cbn [dr_file dr_ds dr_csz]. destruct g as [|[[[c cur] a] b] g]; auto.
  inversion HF; subst. cbn [fst] in H1. now rewrite (load_agree m inflate ds csz f f' HL c H1).
Qed.

Lemma stream_loop_agree m ds get get' cap xf : agree ds get get' -> forall l cache,
  Forall (fun t => In (fst (fst t)) (d_chunks ds)) l ->
  stream_loop m get cap xf l cache = stream_loop m get' cap xf l cache.
Proof.
  intros HL. induction l as [|[[c s0] e0] l IH]; intros cache HF; [reflexivity|].
  inversion HF; subst. cbn [fst] in H1. cbn [stream_loop]. rewrite (HL c H1).
  destruct (let* x := xf in _) as [[s e]| | | |]; auto.
  destruct (lru_get (c_addr c) cache) as [[data cache']|].
  - destruct (take_slice m data s e); auto. now rewrite IH.
  - destruct (get' c); auto. destruct (take_slice m a s e); auto. now rewrite IH.
Qed.

Lemma collect_in m fuel ds e l : collect_slices m fuel ds e = Ok l ->
  Forall (fun t => In (fst (fst t)) (d_chunks ds)) l.
Proof.
  unfold collect_slices. pose proof (slices_in m fuel ds e) as HF.
  destruct (chunk_slices m fuel ds e) as [segs st]. cbn [fst] in HF. intros H.
  apply bind_ok in H as (l' & H & E). apply bind_ok in E as (u & _ & E). injection E as <-.
  revert l' H HF. induction segs as [|[[c a] b] segs IH]; intros l' H HF; cbn [byte_slices] in H.
  - injection H as <-. constructor.
  - inversion HF; subst. apply bind_ok in H as (s & _ & H). apply bind_ok in H as (t & _ & H).
    apply bind_ok in H as (r & Hr & H). injection H as <-. constructor; auto.
Qed.

(** ** C56 *)

(** Any dataset, selection, destination and build mode, any outcome (also errors and
    panics): the result and the destination afterwards are the same on both files, for
    readers in any reachable state, and under every schedule of the parallel reader. *)
Theorem C56_local m inflate sort fuel ds f f' e dst :
  addr_sort sort -> same_addr ds -> same_chunks ds f f' ->
  (forall r r', reachable m inflate ds f r -> reachable m inflate ds f' r' ->
     fst (cache_read m inflate fuel r e dst) = fst (cache_read m inflate fuel r' e dst)) /\
  (forall r r', direct_new m ds (Some f) = Ok r -> direct_new m ds (Some f') = Ok r' ->
     direct_read m inflate sort fuel r e dst = direct_read m inflate sort fuel r' e dst /\
     forall x d, par_read m inflate sort fuel r e dst x d <-> par_read m inflate sort fuel r' e dst x d) /\
  (forall r r', streamer_new m ds (Some f) = Ok r -> streamer_new m ds (Some f') = Ok r' ->
     stream m inflate fuel r e = stream m inflate fuel r' e /\
     forall h al1 al2, stream_xdr m h al1 al2 inflate fuel r e = stream_xdr m h al1 al2 inflate fuel r' e).
Proof.
  intros HS HA HL. split; [|split].
  - intros r r' HR HR'. rewrite (cache_read_reachable m inflate ds f r fuel e dst HA HR).
    rewrite (cache_read_reachable m inflate ds f' r' fuel e dst HA HR').
    destruct (reachable_inv m inflate ds f r HA HR) as (_ & _ & E & _).
    destruct (reachable_inv m inflate ds f' r' HA HR') as (_ & _ & E' & _).
    rewrite E in E'. injection E' as ->. now apply plain_agree.
  - intros r r' HR HR'. unfold direct_new in HR, HR'.
    apply bind_ok in HR as (csz & E & HR). rewrite E in HR'. cbn [bind] in HR'. injection HR as <-. injection HR' as <-.
    assert (HT : forall sym, let a := if sym : bool then f else f' in let b := if sym then f' else f in
      forall x d, par_read m inflate sort fuel (mkDirect ds (Some a) csz) e dst x d ->
                  par_read m inflate sort fuel (mkDirect ds (Some b) csz) e dst x d).
    { intros sym a b x d HP.
      assert (Hab : same_chunks ds a b).
      { destruct sym; [exact HL|]. intros c Hc. destruct (HL c Hc). split; [tauto|auto]. }
      inversion HP as [x' E1 E2|v x' E1 E2 E3|v groups final d' x' E1 E2 E3 E4 E5]; subst; cbn [dr_ds] in *.
      - now apply pa_size.
      - eapply pa_group; eauto.
      - apply (pa_run _ _ _ _ (mkDirect ds (Some b) csz) _ _ v groups final); auto.
        replace (map (fun g => Waiting (par_task m inflate (mkDirect ds (Some b) csz) (lenN dst) g)) (chunk_by_addr groups))
          with (map (fun g => Waiting (par_task m inflate (mkDirect ds (Some a) csz) (lenN dst) g)) (chunk_by_addr groups)); auto.
        apply map_ext_in. intros g Hg. f_equal. apply par_task_agree; auto.
        pose proof (group_in sort m fuel ds e groups HS E2) as HG.
        rewrite <- (chunk_by_concat groups) in HG. apply Forall_concat in HG. rewrite Forall_forall in HG. auto. }
    split.
    + unfold direct_read. cbn [dr_ds dr_file]. destruct (read_size m ds e dst); auto.
      destruct (group_chunk_slices sort m fuel ds e) as [groups| | | |] eqn:EG; auto.
      now rewrite (direct_loop_agree m inflate ds csz (Some f) (Some f') f f' HL groups None dst (group_in _ _ _ _ _ _ HS EG)).
    + intros x d. split; [apply (HT true)|apply (HT false)].
  - intros r r' HR HR'. unfold streamer_new in HR, HR'.
    apply bind_ok in HR as (csz & E & HR). rewrite E in HR'. cbn [bind] in HR'. injection HR as <-. injection HR' as <-.
    unfold stream, stream_xdr. cbn [sr_ds sr_csz sr_file].
    destruct (collect_slices m fuel ds e) as [l| | | |] eqn:EC; auto. cbn [bind].
    apply collect_in in EC. destruct (cache_cap csz); auto. cbn [bind].
    pose proof (load_agree m inflate ds csz f f' HL) as LA. split.
    + f_equal. now apply (stream_loop_agree m ds).
    + intros h al1 al2. f_equal. apply (stream_loop_agree m ds); auto. intros c Hc. now rewrite (LA c Hc).
Qed.
Print Assumptions C56_local.
(** The example file with other bytes before its chunks and after them. *)
Example C56_case : exists f', f' <> st_file /\ lenN f' <> lenN st_file /\ same_chunks st_ds st_file f'.
Proof.
  exists ((77 :: skipn 1 st_file) ++ [1; 2; 3]). split; [discriminate|]. split; [discriminate|].
  intros c. cbn [st_ds d_chunks In]. intros H.
  repeat (destruct H as [<-|H]; [split; [split; intros _; vm_compute; discriminate|reflexivity]|]). destruct H.
Qed.

(** ** C30 for every selection *)

Definition extends (ds : dataset) (L L' : chunk -> res bytes) : Prop :=
  forall c b, In c (d_chunks ds) -> L c = Ok b -> L' c = Ok b.

Lemma load_prefix m inflate ds csz file n c b :
  load m inflate (firstn n file) ds csz c = Ok b ->
  load m inflate file ds csz c = Ok b /\ (c_size c = 0 \/ c_addr c + c_size c <= lenN (firstn n file)).
Proof.
  unfold load, read_chunk. intros H. apply bind_ok in H as (raw & R & H).
  unfold read_exact in *. destruct (N.eqb_spec (c_size c) 0) as [E|E].
  - injection R as <-. split; auto.
  - destruct (N.leb_spec (c_addr c + c_size c) (lenN (firstn n file))) as [L|]; [|discriminate].
    injection R as <-. split; [|auto].
    pose proof (file_bytes_prefix file n c (or_intror L)) as P. unfold file_bytes in P. rewrite P in H.
    unfold lenN in L. rewrite firstn_length in L.
    destruct (N.leb_spec (c_addr c + c_size c) (lenN file)) as [_|B]; [|unfold lenN in B; lia].
    exact H.
Qed.

Lemma plain_loop_extends m ds L L' dsz st : extends ds L L' -> forall segs pos dst d,
  Forall (fun sg => In (fst (fst sg)) (d_chunks ds)) segs ->
  plain_loop m L dsz segs st pos dst = (Ok tt, d) ->
  plain_loop m L' dsz segs st pos dst = (Ok tt, d) /\
  Forall (fun sg => exists b, L (fst (fst sg)) = Ok b) segs.
Proof.
  intros HL. induction segs as [|[[c a] b] segs IH]; intros pos dst d HF H; [auto|].
  inversion HF; subst. cbn [fst] in H2. cbn [plain_loop] in H |- *.
  destruct (seg_copy m L dsz (c, a, b) pos dst) as [[dst' pos']| | | |] eqn:E; try discriminate.
  assert (E' : seg_copy m L' dsz (c, a, b) pos dst = Ok (dst', pos') /\ exists z, L c = Ok z).
  { unfold seg_copy in *. destruct (byte_range m dsz a b) as [[[s e] sz]| | | |]; try discriminate. cbn [bind] in *.
    destruct (L c) as [data| | | |] eqn:EL; try discriminate. rewrite (HL c data H2 EL). cbn [bind] in *. eauto. }
  destruct E' as [-> E']. destruct (IH pos' dst' d H3 H) as [-> ?]. auto.
Qed.

Lemma stream_loop_extends m ds get get' cap xf : extends ds get get' -> forall l cache bs,
  Forall (fun t => In (fst (fst t)) (d_chunks ds)) l ->
  stream_loop m get cap xf l cache = (bs, SEnd) -> stream_loop m get' cap xf l cache = (bs, SEnd).
Proof.
  intros HL. induction l as [|[[c s0] e0] l IH]; intros cache bs HF H; [auto|].
  inversion HF; subst. cbn [fst] in H2. cbn [stream_loop] in H |- *.
  assert (NE : forall A (x : res A), send_of x <> SEnd) by (intros ? []; discriminate).
  destruct (let* x := xf in _) as [[s e]| | | |]; try discriminate.
  destruct (lru_get (c_addr c) cache) as [[data cache']|].
  - destruct (take_slice m data s e); try discriminate.
    destruct (stream_loop m get cap xf l cache') as [bs' z] eqn:E. injection H as <- ->.
    now rewrite (IH _ _ H3 E).
  - destruct (get c) as [data| | | |] eqn:EG; try discriminate. rewrite (HL c data H2 EG).
    destruct (take_slice m data s e); try discriminate.
    destruct (stream_loop m get cap xf l _) as [bs' z] eqn:E. injection H as <- ->.
    now rewrite (IH _ _ H3 E).
Qed.

(** Any dataset, any selection, both build modes, safe or not: if a read of a truncated
    file succeeds, in any reader, reader state and schedule, then it gives what a read of
    the whole file gives, and every chunk it used was in the truncated file.  (So a read
    that needs a missing chunk does not succeed.) *)
Theorem C30_any m inflate sort fuel ds file n e dst v d :
  addr_sort sort -> same_addr ds -> 0 < d_dsize ds -> lenN dst < W64 ->
  forall rc rd rw rdw,
  reachable m inflate ds (firstn n file) rc -> direct_new m ds (Some (firstn n file)) = Ok rd ->
  reachable m inflate ds file rw -> direct_new m ds (Some file) = Ok rdw ->
  fst (cache_read m inflate fuel rc e dst) = (Ok v, d) \/
  direct_read m inflate sort fuel rd e dst = (Ok v, d) \/
  par_read m inflate sort fuel rd e dst (Ok v) d ->
  fst (cache_read m inflate fuel rw e dst) = (Ok v, d) /\
  direct_read m inflate sort fuel rdw e dst = (Ok v, d) /\
  (forall x d', par_read m inflate sort fuel rdw e dst x d' -> x = Ok v /\ d' = d) /\
  exists segs, chunk_slices m fuel ds e = (segs, SDone) /\
    Forall (fun '(c, _, _) => c_size c = 0 \/ c_addr c + c_size c <= lenN (firstn n file)) segs.
Proof.
  intros HS HA Hd HW rc rd rw rdw R1 R2 R3 R4 H.
  assert (HC : fst (cache_read m inflate fuel rc e dst) = (Ok v, d)).
  { destruct H as [H|[H|H]]; auto.
    - now apply (C24_agree m inflate sort fuel ds (firstn n file) rc rd e dst v d HS HA Hd HW R1 R2).
    - apply (C24_agree m inflate sort fuel ds (firstn n file) rc rd e dst v d HS HA Hd HW R1 R2).
      now apply (C25_schedules m inflate sort fuel ds (firstn n file) rd e dst HS HA Hd HW R2). }
  clear H. rewrite (cache_read_reachable m inflate ds _ rc fuel e dst HA R1) in HC.
  destruct (reachable_inv m inflate ds _ rc HA R1) as (_ & _ & Z1 & _).
  destruct (reachable_inv m inflate ds _ rw HA R3) as (_ & _ & Z2 & _).
  rewrite Z1 in Z2. injection Z2 as Z2.
  assert (HP : fst (cache_read m inflate fuel rw e dst) = (Ok v, d) /\
    exists segs, chunk_slices m fuel ds e = (segs, SDone) /\
    Forall (fun '(c, _, _) => c_size c = 0 \/ c_addr c + c_size c <= lenN (firstn n file)) segs).
  { rewrite (cache_read_reachable m inflate ds _ rw fuel e dst HA R3). rewrite <- Z2.
    unfold plain_read in *. destruct (read_size m ds e dst) as [vsz| | | |]; try discriminate.
    pose proof (slices_in m fuel ds e) as HF. destruct (chunk_slices m fuel ds e) as [segs st]. cbn [fst] in HF.
    destruct (plain_loop m (load m inflate (firstn n file) ds (cr_csz rc)) (d_dsize ds) segs st 0 dst) as [x d'] eqn:EL.
    destruct x as [[]| | | |]; try discriminate. cbn [bind] in HC. injection HC as -> ->.
    destruct (plain_loop_extends m ds _ (load m inflate file ds (cr_csz rc)) (d_dsize ds) st
                (fun c b _ => fun X => proj1 (load_prefix m inflate ds (cr_csz rc) file n c b X)) segs 0 dst d HF EL) as [E F].
    rewrite E. split; [reflexivity|]. exists segs. split.
    - assert (ES : forall segs pos dst d, plain_loop m (load m inflate (firstn n file) ds (cr_csz rc)) (d_dsize ds) segs st pos dst = (Ok tt, d) -> st = SDone).
      { clear. induction segs as [|sg segs IH]; intros pos dst d H; cbn [plain_loop] in H.
        - destruct st; try discriminate. reflexivity.
        - destruct (seg_copy _ _ _ sg pos dst) as [[dst' pos']| | | |]; try discriminate. eauto. }
      now rewrite (ES _ _ _ _ EL).
    - eapply Forall_impl; [|exact F]. intros [[c a] b] (z & Hz). cbn [fst] in Hz.
      exact (proj2 (load_prefix m inflate ds (cr_csz rc) file n c z Hz)). }
  destruct HP as [HP HX]. split; [exact HP|].
  assert (HD : direct_read m inflate sort fuel rdw e dst = (Ok v, d)) by
    now apply (C24_agree m inflate sort fuel ds file rw rdw e dst v d HS HA Hd HW R3 R4).
  split; [exact HD|]. split; [|exact HX].
  destruct (C25_schedules m inflate sort fuel ds file rdw e dst HS HA Hd HW R4) as (_ & _ & _ & S).
  exact (S v d HD).
Qed.
Print Assumptions C30_any.

(** The streams: a stream of a truncated file that ends without an error yields what the
    stream of the whole file yields. *)
Theorem C30_stream m inflate fuel ds file n e r rw l :
  streamer_new m ds (Some (firstn n file)) = Ok r -> streamer_new m ds (Some file) = Ok rw ->
  stream m inflate fuel r e = Ok (l, SEnd) -> stream m inflate fuel rw e = Ok (l, SEnd).
Proof.
  intros HR HR' H. unfold streamer_new in HR, HR'.
  apply bind_ok in HR as (csz & E & HR). rewrite E in HR'. cbn [bind] in HR'. injection HR as <-. injection HR' as <-.
  unfold stream in *. cbn [sr_ds sr_csz sr_file] in *.
  destruct (collect_slices m fuel ds e) as [ls| | | |] eqn:EC; try discriminate. cbn [bind] in *.
  apply collect_in in EC. destruct (cache_cap csz); try discriminate. cbn [bind] in *.
  injection H as H. f_equal. revert H. apply (stream_loop_extends m ds); auto.
  intros c b _ X. exact (proj1 (load_prefix m inflate ds csz file n c b X)).
Qed.
Print Assumptions C30_stream.
(** The example file without its last two chunks, of which the first row needs none. *)
Example C30_any_case : exists rc,
  reachable Debug toy_inflate st_ds (firstn 43 st_file) rc /\
  fst (fst (cache_read Debug toy_inflate 10 rc (Extents [Index 0; Slice 0]) (repeat 9 12))) = Ok 12 /\
  fst (fst (cache_read Debug toy_inflate 50 rc All (repeat 9 48))) = Err EIo.
Proof.
  eexists. split; [apply rc_new; reflexivity|]. split; vm_compute; reflexivity.
Qed.
