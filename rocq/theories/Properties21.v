(** * Property theorems C61: S3 reads in flight, failed or cancelled. *)
From Verif Require Import Base Spec Safe Extent Chunk Dataset Slicer SpecApi ExtentProofs ApiLemmas Termination
  GroupProofs SliceProps Filters SpecFilter FilterProps Reader SpecReader CacheProofs Writes DirectProofs ParProofs
  ReadProofs ReaderProps StreamProofs S3 SpecS3 S3Group S3Proofs S3Errors S3Async Properties4 Properties6 Properties15 Properties17
  Examples ExamplesReader.

(** ** Runs and [s3_loop] *)
Section Runs.
Context (m : mode) (inflate : bytes -> option bytes) (srv : server) (ds : dataset) (csz : N).
Notation loop := (s3_loop m inflate srv ds csz).

Lemma loop_app : forall o1 o2 dst d, loop o1 dst = (Ok tt, d) -> loop (o1 ++ o2) dst = loop o2 d.
Proof.
  induction o1 as [|q o1 IH]; intros o2 dst d H; cbn [s3_loop app] in *; [now injection H as ->|].
  destruct (fetch m srv q) as [body| | | |]; try discriminate.
  destruct (s3_chunks m inflate ds csz (q_start q) body (q_chunks q) dst) as [[[]| | | |] d1]; try discriminate. now apply IH.
Qed.

(** [done]: the responses used, in order. *)
Definition ainv (qs : list request) (dst : bytes) (st : astate) : Prop :=
  (length (a_flight st) <= CONCURRENT_REQUESTS)%nat /\ a_sent st ++ a_queue st = qs /\
  exists done, Permutation (done ++ a_flight st) (a_sent st) /\
    match a_out st with
    | None => loop done dst = (Ok tt, a_dst st)
    | Some x => loop done dst = (x, a_dst st) /\ (x = Ok tt -> a_queue st = [] /\ a_flight st = [])
    end.

Lemma ainv_step qs dst s t : ainv qs dst s -> astep m inflate srv ds csz s t -> ainv qs dst t.
Proof.
  intros (HL & HQ & done & HP & HO) H. inversion H; subst; cbn [a_flight a_sent a_queue a_out a_dst] in *.
  - split; [cbn [a_flight]; rewrite app_length; cbn [length]; lia|]. split; [cbn [a_sent a_queue]; now rewrite <- app_assoc|].
    exists done. split; auto. cbn [a_flight a_sent]. now rewrite app_assoc, HP.
  - rewrite app_length in HL. cbn [length] in HL. split; [cbn [a_flight]; rewrite app_length; lia|]. split; auto.
    exists (done ++ [q]). split.
    { cbn [a_flight a_sent]. rewrite <- HP, <- app_assoc. cbn [app]. apply Permutation_app_head, Permutation_middle. }
    cbn [a_out a_dst]. rewrite (loop_app done [q] dst dst0 HO). cbn [s3_loop]. now rewrite H0, H1.
  - rewrite app_length in HL. cbn [length] in HL. split; [cbn [a_flight]; rewrite app_length; lia|]. split; auto.
    exists (done ++ [q]). split.
    { cbn [a_flight a_sent]. rewrite <- HP, <- app_assoc. cbn [app]. apply Permutation_app_head, Permutation_middle. }
    cbn [a_out a_dst]. rewrite (loop_app done [q] dst dst0 HO). cbn [s3_loop].
    destruct (fetch m srv q) as [b| | | |]; try (split; [reflexivity|discriminate]). now elim (H1 b).
  - rewrite app_length in HL. cbn [length] in HL. split; [cbn [a_flight]; rewrite app_length; lia|]. split; auto.
    exists (done ++ [q]). split.
    { cbn [a_flight a_sent]. rewrite <- HP, <- app_assoc. cbn [app]. apply Permutation_app_head, Permutation_middle. }
    cbn [a_out a_dst]. rewrite (loop_app done [q] dst dst0 HO). cbn [s3_loop]. rewrite H0, H1.
    destruct x as [[]| | | |]; try (split; [reflexivity|discriminate]). now elim H2.
  - split; auto. split; auto. exists done. split; auto. cbn [a_out a_dst]. split; auto.
Qed.
Lemma ainv_steps qs dst n s t : asteps m inflate srv ds csz n s t -> ainv qs dst s -> ainv qs dst t.
Proof. induction 1; auto. intros HI. eapply IHasteps, ainv_step; eauto. Qed.
Lemma ainv_init qs dst : ainv qs dst (mkA qs [] dst [] None).
Proof. split; [cbn; lia|]. split; auto. exists []. split; [constructor|reflexivity]. Qed.

(** Every step but the last sends or completes a request. *)
Definition ameasure (st : astate) : nat :=
  2 * length (a_queue st) + length (a_flight st) + match a_out st with None => 1 | Some _ => 0 end.
Lemma ameasure_step s t : astep m inflate srv ds csz s t -> (ameasure t < ameasure s)%nat.
Proof. intros H. inversion H; subst; unfold ameasure; cbn [a_queue a_flight a_out length]; rewrite ?app_length; cbn [length]; lia. Qed.
Lemma ameasure_steps n s t : asteps m inflate srv ds csz n s t -> (n + ameasure t <= ameasure s)%nat.
Proof. induction 1; [lia|]. apply ameasure_step in H. lia. Qed.

Lemma astep_live st : a_out st = None -> exists t, astep m inflate srv ds csz st t.
Proof.
  destruct st as [qs fl dst log out]. cbn [a_out]. intros ->. destruct fl as [|q fl].
  - destruct qs as [|q qs]; [eexists; apply as_end|]. eexists. apply as_send. cbn. unfold CONCURRENT_REQUESTS. lia.
  - destruct (fetch m srv q) as [body| | | |] eqn:EF.
    2-5: eexists; apply (as_refused m inflate srv ds csz qs [] q fl dst log); [exact EF|discriminate].
    destruct (s3_chunks m inflate ds csz (q_start q) body (q_chunks q) dst) as [x d] eqn:EC.
    destruct x as [[]| | | |].
    + eexists. exact (as_use m inflate srv ds csz qs [] q fl dst log body d EF EC).
    + eexists. refine (as_unusable m inflate srv ds csz qs [] q fl dst log body _ d EF EC _). discriminate.
    + eexists. refine (as_unusable m inflate srv ds csz qs [] q fl dst log body _ d EF EC _). discriminate.
    + eexists. refine (as_unusable m inflate srv ds csz qs [] q fl dst log body _ d EF EC _). discriminate.
    + eexists. refine (as_unusable m inflate srv ds csz qs [] q fl dst log body _ d EF EC _). discriminate.
Qed.
End Runs.

(** ** What the loop has written when it stops *)
Section Prefix.
Context (m : mode) (inflate : bytes -> option bytes) (ds : dataset) (csz : N) (L : chunk -> res bytes).
Let dsz := d_dsize ds.

Definition wrote (G : list gsegment) (dst d : bytes) : Prop :=
  exists G1 G2 wss, G = G1 ++ G2 /\ Forall2 (gseg_ok m L dsz (lenN dst)) G1 wss /\ d = apply_writes (concat wss) dst.
Lemma wrote_none G dst : wrote G dst dst.
Proof. exists [], G, []. repeat split; auto. Qed.
Lemma wrote_len G dst d : wrote G dst d -> lenN d = lenN dst.
Proof.
  intros (G1 & G2 & wss & _ & HF & ->). unfold lenN. rewrite apply_length; auto. unfold in_bounds. apply Forall_concat.
  apply Forall_forall. intros ws Hws. destruct (Forall2_in_r _ _ _ _ HF Hws) as (g & _ & Hg). eapply gseg_bounds; eauto.
Qed.
Lemma wrote_more G G' dst d : wrote G dst d -> wrote (G ++ G') dst d.
Proof. intros (G1 & G2 & wss & -> & HF & ->). exists G1, (G2 ++ G'), wss. rewrite app_assoc. auto. Qed.
Lemma wrote_then G G' dst wss d : Forall2 (gseg_ok m L dsz (lenN dst)) G wss ->
  wrote G' (apply_writes (concat wss) dst) d -> wrote (G ++ G') dst d.
Proof.
  intros HF HW. assert (EN : lenN (apply_writes (concat wss) dst) = lenN dst).
  { apply (wrote_len G). exists G, [], wss. rewrite app_nil_r. auto. }
  destruct HW as (G1 & G2 & w2 & -> & HF2 & ->). rewrite EN in HF2.
  exists (G ++ G1), G2, (wss ++ w2). rewrite app_assoc. split; auto. split; [now apply Forall2_app|].
  now rewrite concat_app, apply_app.
Qed.

Lemma segs_wrote c data : L c = Ok data -> forall ss dst x d, lenN dst < W64 ->
  s3_segs m data dsz ss dst = (x, d) -> wrote (chunk_segs (c, ss)) dst d.
Proof.
  intros EL. induction ss as [|[[cur a] b] ss IH]; intros dst x d HW H; cbn [s3_segs] in H.
  - injection H as _ <-. apply wrote_none.
  - rewrite s3_copy_eq in H. destruct (copy_at m data dsz cur a b dst) as [d1| | | |] eqn:EC.
    2-5: injection H as _ <-; apply wrote_none.
    apply (proj1 (copy_at_iff m L dsz c cur a b data dst d1 HW EL)) in EC as (ws & Hws & ->).
    change (chunk_segs (c, (cur, a, b) :: ss)) with ([(c, cur, a, b)] ++ chunk_segs (c, ss)).
    assert (F1 : Forall2 (gseg_ok m L dsz (lenN dst)) [(c, cur, a, b)] [ws]) by (repeat constructor; auto).
    assert (EN : lenN (apply_writes ws dst) = lenN dst).
    { unfold lenN. rewrite apply_length; auto. eapply gseg_bounds; eauto. }
    apply (wrote_then _ _ dst [ws] d F1). cbn [concat]. rewrite app_nil_r. apply (IH _ x); auto. now rewrite EN.
Qed.

Lemma chunks_wrote start body : forall cs dst x d, lenN dst < W64 ->
  Forall (fun cc => s3_chunk m inflate ds csz start body (fst cc) = L (fst cc) /\ snd cc <> []) cs ->
  s3_chunks m inflate ds csz start body cs dst = (x, d) -> wrote (flat_map chunk_segs cs) dst d.
Proof.
  induction cs as [|[c ss] cs IH]; intros dst x d HW HF H; cbn [s3_chunks flat_map] in *.
  - injection H as _ <-. apply wrote_none.
  - inversion HF as [|? ? [F1 _] F2]; subst. cbn [fst] in F1. rewrite F1 in H.
    destruct (L c) as [data| | | |] eqn:EL.
    2-5: injection H as _ <-; apply wrote_none.
    destruct (s3_segs m data (d_dsize ds) ss dst) as [y d1] eqn:ES.
    destruct y as [[]| | | |].
    2-5: injection H as _ <-; apply wrote_more; exact (segs_wrote c data EL ss dst _ d1 HW ES).
    pose proof (s3_segs_len m ds L c data EL ss dst d1 HW ES) as EN.
    apply (s3_segs_iff m ds L c data EL ss dst d1 HW) in ES as (w1 & FF & ->).
    apply (wrote_then _ _ dst w1 d FF). apply (IH _ x); auto. now rewrite EN.
Qed.

Lemma loop_wrote srv : forall order dst x d, lenN dst < W64 ->
  Forall (fun q => forall body, fetch m srv q = Ok body ->
     Forall (fun cc => s3_chunk m inflate ds csz (q_start q) body (fst cc) = L (fst cc) /\ snd cc <> []) (q_chunks q)) order ->
  s3_loop m inflate srv ds csz order dst = (x, d) -> wrote (flat_map req_segs order) dst d.
Proof.
  induction order as [|q order IH]; intros dst x d HW HF H; cbn [s3_loop flat_map] in *.
  - injection H as _ <-. apply wrote_none.
  - inversion HF as [|? ? F1 F2]; subst. destruct (fetch m srv q) as [body| | | |] eqn:EF.
    2-5: injection H as _ <-; apply wrote_none.
    specialize (F1 body eq_refl).
    assert (ER : flat_map chunk_segs (q_chunks q) = req_segs q) by reflexivity.
    destruct (s3_chunks m inflate ds csz (q_start q) body (q_chunks q) dst) as [y d1] eqn:ES.
    destruct y as [[]| | | |].
    2-5: injection H as _ <-; apply wrote_more; rewrite <- ER; exact (chunks_wrote (q_start q) body (q_chunks q) dst _ d1 HW F1 ES).
    pose proof (s3_chunks_len m inflate ds csz L (q_start q) body (q_chunks q) dst d1 HW F1 ES) as EN.
    apply (s3_chunks_iff m inflate ds csz L (q_start q) body (q_chunks q) dst d1 HW F1) in ES as (w1 & FF & ->).
    rewrite ER in FF. apply (wrote_then _ _ dst w1 d FF). apply (IH _ x); auto. now rewrite EN.
Qed.
End Prefix.

(** A run over some of the requests, whether it ended well or not, leaves only old and right
    elements. *)
Lemma s3_torn m inflate sort fuel ds csz srv file e dst v good G qs o1 o2 x d :
  addr_sort sort -> same_addr ds -> In (d_dsize ds) [1; 2; 4; 8] -> sizes_ok ds -> lenN dst < W64 -> truthful file srv ->
  plain_read m inflate fuel file ds csz e dst = (Ok v, good) ->
  group_chunk_slices sort m fuel ds e = Ok G -> group_requests m G = Ok qs ->
  Permutation (o1 ++ o2) qs -> s3_loop m inflate srv ds csz o1 dst = (x, d) ->
  mixed (d_dsize ds) dst good d.
Proof.
  intros HS HA H8 HZ HW HH HP EG EQ PO EL. set (L := load m inflate file ds csz).
  assert (HD : (d_dsize ds | W64)) by now apply word_div.
  assert (Hd : 0 < d_dsize ds) by (destruct H8 as [<-|[<-|[<-|[<-|[]]]]]; lia).
  assert (HL : forall c c', c_addr c = c_addr c' -> c_size c = c_size c' -> L c = L c') by (intros; now apply load_same).
  apply plain_read_iff in HP as (ES & out & HO & ->).
  destruct (req_setup m sort fuel ds e G qs HS HZ EG EQ) as (HG & F2 & HQ).
  assert (HQo : Forall (fun q => req_good q /\ q_start q < q_end q /\ incl (req_chunks q) (d_chunks ds)) o1).
  { apply Forall_forall. intros q Hq. rewrite Forall_forall in HQ. apply HQ. apply (Permutation_in _ PO), in_app_iff. now left. }
  assert (HG' : Forall (fun g => In (g_chunk g) (d_chunks ds)) (flat_map req_segs qs)).
  { apply Forall_forall. intros g Hg. apply in_flat_map in Hg as (q & Hq & Hg). rewrite Forall_forall in HQ.
    destruct (HQ q Hq) as (_ & _ & HI). apply HI. now apply segs_chunk. }
  destruct (group_of_read m _ sort fuel ds e (lenN dst) out HS Hd HW HO) as (G' & wss & (EG' & FW) & PW).
  rewrite EG in EG'. injection EG' as <-.
  destruct (loop_wrote m inflate ds csz L srv o1 dst x d HW (truthful_loop m inflate ds csz srv file o1 HH HQo) EL)
    as (G1 & G2 & w1 & E1 & F1 & ED).
  rewrite ED.
  assert (PF : Permutation (G1 ++ G2 ++ flat_map req_segs o2) (flat_map req_segs qs)).
  { rewrite app_assoc, <- E1, <- flat_map_app. now apply Permutation_flat_map. }
  pose proof FW as FW0.
  apply (Forall2_place m L (d_dsize ds) (lenN dst) ds HA HL G (flat_map req_segs qs) wss F2 HG HG') in FW.
  destruct (Forall2_perm _ _ _ _ (Permutation_sym PF) FW) as (w' & PW' & FF).
  destruct (Forall2_prefix_fun _ (gseg_fun m L (d_dsize ds) (lenN dst)) G1 _ w1 w' F1 FF) as (w2 & ->).
  assert (HB : lenN out <= lenN dst) by (destruct HO as (segs & os & _ & _ & -> & HB); lia).
  apply (mixed_of (d_dsize ds) dst out wss w1 w2); auto.
  - clear -FW0 HD. induction FW0; constructor; auto. eapply gseg_whole; eauto.
  - now symmetry.
Qed.

(** ** C61 *)

(** At any time at most 16 requests are in flight, and the requests sent are the first ones of
    the list C31 and C32 are about, in order: none is sent twice. *)
Theorem C61_limit m inflate sort fuel r e dst v qs n st :
  s3_state m inflate sort fuel r e dst v qs n st ->
  (length (a_flight st) <= 16)%nat /\ (exists rest, qs = a_sent st ++ rest) /\ incl (a_flight st) (a_sent st).
Proof.
  intros H. inversion H as [? ? ? ? E1 E2 HS]; subst.
  pose proof (ainv_steps _ _ _ _ _ qs dst _ _ _ HS (ainv_init _ _ _ _ _ qs dst)) as (HL & HQ & done & HP & _).
  split; auto. split; [exists (a_queue st); auto|]. intros q Hq. apply (Permutation_in _ HP), in_app_iff. now right.
Qed.
Print Assumptions C61_limit.

(** Every run ends: it has no more than two steps per request and one more, and goes on until
    there is an outcome; on success all requests were sent and answered. *)
Theorem C61_ends m inflate sort fuel r e dst v qs n st :
  s3_state m inflate sort fuel r e dst v qs n st ->
  (n <= 2 * length qs + 1)%nat /\
  (a_out st = None -> exists st', s3_state m inflate sort fuel r e dst v qs (S n) st') /\
  (a_out st = Some (Ok tt) -> a_sent st = qs /\ a_flight st = []).
Proof.
  intros H. inversion H as [? ? ? ? E1 E2 HS]; subst. split; [|split].
  - apply ameasure_steps in HS. unfold ameasure in HS. cbn [a_queue a_flight a_out length] in HS. lia.
  - intros HN. destruct (astep_live m inflate (s3_srv r) (s3_ds r) (s3_csz r) st HN) as (st' & Hst).
    exists st'. constructor; auto. clear -HS Hst. induction HS; [econstructor; eauto; constructor|econstructor; eauto].
  - pose proof (ainv_steps _ _ _ _ _ qs dst _ _ _ HS (ainv_init _ _ _ _ _ qs dst)) as (HL & HQ & done & HP & HO).
    intros HN. rewrite HN in HO. destruct HO as (_ & HE). destruct (HE eq_refl) as [E3 E4]. rewrite E3, app_nil_r in HQ. auto.
Qed.
Print Assumptions C61_ends.

(** The outcomes are those of [s3_read], so C33 and C34 hold of them. *)
Theorem C61_refines m inflate sort fuel r e dst v qs n st x :
  s3_state m inflate sort fuel r e dst v qs n st -> a_out st = Some x ->
  s3_read m inflate sort fuel r e dst (let* _ := x in Ok v) (a_dst st).
Proof.
  intros H HX. inversion H as [? ? ? ? E1 E2 HS]; subst.
  pose proof (ainv_steps _ _ _ _ _ qs dst _ _ _ HS (ainv_init _ _ _ _ _ qs dst)) as (HL & HQ & done & HP & HO).
  rewrite HX in HO. destruct HO as [HO HE].
  assert (HF : forall o2, x <> Ok tt \/ o2 = [] -> s3_loop m inflate (s3_srv r) (s3_ds r) (s3_csz r) (done ++ o2) dst = (x, a_dst st)).
  { intros o2 [Hx|Hx]; [|subst o2; now rewrite app_nil_r]. revert HO. generalize dst. clear -Hx.
    induction done as [|q done IH]; intros dst HO; cbn [s3_loop app] in *; [injection HO as <- _; now elim Hx|].
    destruct (fetch m (s3_srv r) q) as [body| | | |]; auto.
    destruct (s3_chunks m inflate (s3_ds r) (s3_csz r) (q_start q) body (q_chunks q) dst) as [[[]| | | |] d1]; auto. }
  apply (s3_run m inflate sort fuel r e dst v qs (done ++ a_flight st ++ a_queue st)); auto.
  - rewrite app_assoc, HP. now rewrite HQ.
  - apply HF. destruct x as [[]| | | |]; try (left; discriminate). right. destruct (HE eq_refl) as [-> ->]. reflexivity.
Qed.
Print Assumptions C61_refines.

(** Whatever has happened so far - a failure, or nothing yet when the future is dropped - each
    element of the buffer is as it was or as a local read of the object has it.  Any dataset
    with elements of 1, 2, 4 or 8 bytes and without empty chunks, any selection; a server
    that may refuse or cut short any request at all but sends no wrong bytes. *)
Theorem C61_cancelled m inflate sort fuel ds file srv r rc e dst w good v qs n st :
  addr_sort sort -> same_addr ds -> In (d_dsize ds) [1; 2; 4; 8] -> sizes_ok ds -> lenN dst < W64 -> truthful file srv ->
  s3_new m ds srv = Ok r -> reachable m inflate ds file rc ->
  fst (cache_read m inflate fuel rc e dst) = (Ok w, good) ->
  s3_state m inflate sort fuel r e dst v qs n st ->
  mixed (d_dsize ds) dst good (a_dst st).
Proof.
  intros HS HA H8 HZ HW HH HN HC HG H. rewrite (cache_read_reachable m inflate ds file rc fuel e dst HA HC) in HG.
  destruct (reachable_inv m inflate ds file rc HA HC) as (_ & _ & EZ & _).
  unfold s3_new in HN. rewrite EZ in HN. cbn [bind] in HN. injection HN as <-.
  inversion H as [? ? ? ? E1 E2 HST]; subst. cbn [s3_ds s3_srv s3_csz] in *.
  pose proof (ainv_steps _ _ _ _ _ qs dst _ _ _ HST (ainv_init _ _ _ _ _ qs dst)) as (HL & HQ & done & HP & HO).
  apply bind_ok in E2 as (G & EG & EQ).
  assert (exists x, s3_loop m inflate srv ds (cr_csz rc) done dst = (x, a_dst st)) as (x & EX).
  { destruct (a_out st); [destruct HO as [HO _]|]; eauto. }
  apply (s3_torn m inflate sort fuel ds (cr_csz rc) srv file e dst w good G qs done (a_flight st ++ a_queue st) x); auto.
  rewrite app_assoc, HP. now rewrite HQ.
Qed.
Print Assumptions C61_cancelled.

(** Two chunks 40000 bytes apart, so two requests; the server has the object but refuses the
    first request.  Both requests are sent, the second is answered first, and the read is
    cancelled: the second half of the buffer has been read, the first is as it was.  Left to
    go on, the read fails and changes nothing more. *)
Definition far_ds : dataset :=
  mkDataset (UInt 1) 1 LE [mkChunk 0 4 [0]; mkChunk 40000 4 [4]] [8] [4] [4] [1] [1] [1] false None.
Definition far_file : bytes := [1; 2; 3; 4] ++ repeat 0 (N.to_nat 39996) ++ [5; 6; 7; 8].
Definition far_srv : server := fun s e => if s =? 40000 then Resp 206 [5; 6; 7; 8] else RFail.
Example C61_case m : exists r rc qs s1 s2,
  s3_new m far_ds far_srv = Ok r /\ reachable m toy_inflate far_ds far_file rc /\
  addr_sort sort_by_addr /\ same_addr far_ds /\ sizes_ok far_ds /\ truthful far_file far_srv /\
  fst (cache_read m toy_inflate 9 rc All (repeat 9 8)) = (Ok 8, [1; 2; 3; 4; 5; 6; 7; 8]) /\
  s3_state m toy_inflate sort_by_addr 9 r All (repeat 9 8) 8 qs 3 s1 /\
  length qs = 2%nat /\ a_sent s1 = qs /\ length (a_flight s1) = 1%nat /\ a_out s1 = None /\
  a_dst s1 = [9; 9; 9; 9; 5; 6; 7; 8] /\
  s3_state m toy_inflate sort_by_addr 9 r All (repeat 9 8) 8 qs 4 s2 /\
  a_out s2 = Some (Err EHttp) /\ a_dst s2 = [9; 9; 9; 9; 5; 6; 7; 8].
Proof.
  set (q1 := mkReq 0 4 [(mkChunk 0 4 [0], [(0, 0, 4)])]).
  set (q2 := mkReq 40000 40004 [(mkChunk 40000 4 [4], [(4, 0, 4)])]).
  assert (EQ : (let* gs := group_chunk_slices sort_by_addr m 9 far_ds All in group_requests m gs) = Ok [q1; q2])
    by (destruct m; vm_compute; reflexivity).
  assert (ES : read_size m far_ds All (repeat 9 8) = Ok 8) by (destruct m; reflexivity).
  assert (A3 : forall n st, astep m toy_inflate far_srv far_ds 4 (mkA [] [q1] [9; 9; 9; 9; 5; 6; 7; 8] [q1; q2] None) st ->
     n = 1%nat -> asteps m toy_inflate far_srv far_ds 4 3 (mkA [q1; q2] [] (repeat 9 8) [] None) (mkA [] [q1] [9; 9; 9; 9; 5; 6; 7; 8] [q1; q2] None) /\
       asteps m toy_inflate far_srv far_ds 4 4 (mkA [q1; q2] [] (repeat 9 8) [] None) st).
  { intros n st Hst _.
    assert (B1 : astep m toy_inflate far_srv far_ds 4 (mkA [q1; q2] [] (repeat 9 8) [] None) (mkA [q2] [q1] (repeat 9 8) [q1] None))
      by (apply (as_send m toy_inflate far_srv far_ds 4 q1 [q2] []); cbn; unfold CONCURRENT_REQUESTS; lia).
    assert (B2 : astep m toy_inflate far_srv far_ds 4 (mkA [q2] [q1] (repeat 9 8) [q1] None) (mkA [] [q1; q2] (repeat 9 8) [q1; q2] None))
      by (apply (as_send m toy_inflate far_srv far_ds 4 q2 [] [q1]); cbn; unfold CONCURRENT_REQUESTS; lia).
    assert (B3 : astep m toy_inflate far_srv far_ds 4 (mkA [] [q1; q2] (repeat 9 8) [q1; q2] None) (mkA [] [q1] [9; 9; 9; 9; 5; 6; 7; 8] [q1; q2] None)).
    { apply (as_use m toy_inflate far_srv far_ds 4 [] [q1] q2 [] (repeat 9 8) [q1; q2] [5; 6; 7; 8]); destruct m; vm_compute; reflexivity. }
    split; repeat (econstructor; eauto). }
  assert (A4 : astep m toy_inflate far_srv far_ds 4 (mkA [] [q1] [9; 9; 9; 9; 5; 6; 7; 8] [q1; q2] None)
                 (mkA [] [] [9; 9; 9; 9; 5; 6; 7; 8] [q1; q2] (Some (Err EHttp)))).
  { refine (as_refused m toy_inflate far_srv far_ds 4 [] [] q1 [] _ _ (Err EHttp) _ _); [destruct m; reflexivity|discriminate]. }
  destruct (A3 1%nat _ A4 eq_refl) as [S3 S4]. clear A3.
  exists (mkS3 far_ds far_srv 4), (mkCR far_ds far_file 8388608 4 []), [q1; q2].
  do 2 eexists.
  split; [destruct m; reflexivity|]. split; [apply rc_new; destruct m; reflexivity|].
  split; [apply sort_by_addr_ok|].
  split; [intros c c'; cbn [far_ds d_chunks In]; intros [<-|[<-|[]]] [<-|[<-|[]]]; reflexivity|].
  split; [intros c; cbn [far_ds d_chunks In]; intros [<-|[<-|[]]]; split; reflexivity|].
  split.
  { intros s e Hse. unfold far_srv. destruct (N.eqb_spec s 40000) as [->|]; [|now intros []].
    cbn [usable]. intros [_ HL]. change (lenN [5; 6; 7; 8]) with 4 in HL.
    assert (LF : lenN far_file = 40004) by (vm_compute; reflexivity). split; [lia|].
    assert (SK : skipn (N.to_nat 40000) far_file = [5; 6; 7; 8]) by (vm_compute; reflexivity). now rewrite SK. }
  split; [destruct m; vm_compute; reflexivity|].
  split; [constructor; [exact ES|exact EQ|exact S3]|].
  repeat (split; [reflexivity|]).
  split; [constructor; [exact ES|exact EQ|exact S4]|]. split; reflexivity.
Qed.
