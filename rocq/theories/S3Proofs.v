(** * Proofs about S3 reads (C33, C34). *)
From Verif Require Import Base Spec Safe Extent Chunk Dataset Slicer SpecApi GroupProofs SliceProps Filters Reader SpecReader
  FilterProofs Writes CacheProofs DirectProofs ParProofs ReadProofs ReaderProps S3 SpecS3 S3Group.

Lemma s3_copy_eq m data dsz cur a b dst : s3_copy m data dsz cur a b dst = copy_at m data dsz cur a b dst.
Proof.
  unfold s3_copy, copy_at. destruct (mul64 m a dsz) as [s| | | |]; cbn [bind]; auto.
  destruct (mul64 m b dsz) as [e| | | |]; cbn [bind]; auto.
  destruct (mul64 m cur dsz) as [p| | | |]; cbn [bind]; auto.
  destruct m; cbn [dbg bind]; auto.
  destruct (N.leb_spec s e) as [Hse|Hse]; cbn [bind].
  - destruct (N.leb_spec e (lenN data)) as [He|He]; cbn [bind].
    + rewrite (leb_true s (lenN data)) by lia. reflexivity.
    + now destruct (s <=? lenN data).
  - destruct (s <=? lenN data), (e <=? lenN data); cbn [bind]; auto.
    unfold sub64. destruct (N.leb_spec s e); [lia|]. reflexivity.
Qed.

Section Loop.
Variables (m : mode) (inflate : bytes -> option bytes) (ds : dataset) (csz : N).
Variable (L : chunk -> res bytes).
Let dsz := d_dsize ds.

Definition chunk_segs (cc : chunk * list seg3) : list gsegment :=
  let '(c, ss) := cc in map (fun '(cur, a, b) => (c, cur, a, b)) ss.

Lemma s3_segs_iff c data : L c = Ok data -> forall ss dst d', lenN dst < W64 ->
  (s3_segs m data dsz ss dst = (Ok tt, d') <->
   exists wss, Forall2 (gseg_ok m L dsz (lenN dst)) (chunk_segs (c, ss)) wss /\ d' = apply_writes (concat wss) dst).
Proof.
  intros EL. induction ss as [|[[cur a] b] ss IH]; intros dst d' HW; cbn [s3_segs chunk_segs map].
  - split.
    + intros [= <-]. exists []. split; [constructor|reflexivity].
    + intros (wss & H & ->). inversion H; subst. reflexivity.
  - rewrite s3_copy_eq. pose proof (copy_at_iff m L dsz c cur a b data dst) as CI.
    destruct (copy_at m data dsz cur a b dst) as [d1| | | |].
    2-5: split; [discriminate|]; intros (wss & H & ->); inversion H as [|? ws ? wss' H1 H2]; subst;
         discriminate (proj2 (CI _ HW EL) (ex_intro _ ws (conj H1 eq_refl))).
    destruct (proj1 (CI d1 HW EL) eq_refl) as (ws & Hws & ->).
    assert (EN : lenN (apply_writes ws dst) = lenN dst).
    { unfold lenN. rewrite apply_length; auto. eapply gseg_bounds; eauto. }
    rewrite IH by now rewrite EN. rewrite EN. split.
    + intros (wss & HF & ->). exists (ws :: wss). split; [constructor; auto|]. cbn [concat]. now rewrite apply_app.
    + intros (wss & HF & ->). inversion HF as [|? ws' ? wss' H1 H2]; subst.
      rewrite (gseg_fun _ _ _ _ _ _ _ H1 Hws). exists wss'. split; auto. cbn [concat]. now rewrite apply_app.
Qed.

Lemma s3_segs_len c data : L c = Ok data -> forall ss dst d', lenN dst < W64 ->
  s3_segs m data dsz ss dst = (Ok tt, d') -> lenN d' = lenN dst.
Proof.
  intros EL ss dst d' HW E. apply (s3_segs_iff c data EL ss dst d' HW) in E as (wss & HF & ->).
  unfold lenN. rewrite apply_length; auto. unfold in_bounds. apply Forall_concat.
  apply Forall_forall. intros ws Hws. destruct (Forall2_in_r _ _ _ _ HF Hws) as (g & _ & Hg). eapply gseg_bounds; eauto.
Qed.

(** A response that gives the same chunks as [L]. *)
Lemma s3_chunks_iff start body : forall cs dst d', lenN dst < W64 ->
  Forall (fun cc => s3_chunk m inflate ds csz start body (fst cc) = L (fst cc) /\ snd cc <> []) cs ->
  (s3_chunks m inflate ds csz start body cs dst = (Ok tt, d') <->
   exists wss, Forall2 (gseg_ok m L dsz (lenN dst)) (flat_map chunk_segs cs) wss /\ d' = apply_writes (concat wss) dst).
Proof.
  induction cs as [|[c ss] cs IH]; intros dst d' HW HF; cbn [s3_chunks flat_map].
  - split.
    + intros [= <-]. exists []. split; [constructor|reflexivity].
    + intros (wss & H & ->). inversion H; subst. reflexivity.
  - inversion HF as [|? ? [F1 Fne] F2]; subst. cbn [fst snd] in F1, Fne. rewrite F1.
    destruct (L c) as [data| | | |] eqn:EL.
    2-5: split; [discriminate|]; intros (wss & H & ->); destruct ss as [|[[cur a] b] ss]; [congruence|];
         cbn [chunk_segs map app] in H; inversion H as [|? ws ? wss' H1 H2]; subst;
         destruct H1 as (p0 & o0 & _ & (s0 & e0 & d0 & _ & _ & _ & E0 & _) & _); unfold g_chunk in E0; cbn [fst] in E0; congruence.
    pose proof (fun d1 => s3_segs_iff c data EL ss dst d1 HW) as SI.
    fold dsz. destruct (s3_segs m data dsz ss dst) as [[[]| | | |] d1] eqn:ES.
    2-5: split; [discriminate|]; intros (wss & H & ->); apply Forall2_app_inv_l in H as (w1 & w2 & H1 & H2 & ->);
         discriminate (proj2 (SI _) (ex_intro _ w1 (conj H1 eq_refl))).
    destruct (proj1 (SI d1) eq_refl) as (w1 & F1' & E1).
    pose proof (s3_segs_len c data EL ss dst d1 HW ES) as EN.
    rewrite IH by (try rewrite EN; auto). rewrite EN. split.
    + intros (w2 & FF & ->). exists (w1 ++ w2). split; [now apply Forall2_app|]. now rewrite concat_app, apply_app, <- E1.
    + intros (wss & FF & ->). apply Forall2_app_inv_l in FF as (w1' & w2 & H1 & H2 & ->).
      assert (w1' = w1).
      { clear -H1 F1'. revert w1 F1'. induction H1 as [|g w G wss H HF IH]; intros w1 F; inversion F; subst; auto.
        f_equal; [eapply gseg_fun; eauto|auto]. }
      subst w1'. exists w2. split; auto. now rewrite concat_app, apply_app, <- E1.
Qed.

Lemma s3_chunks_len start body : forall cs dst d', lenN dst < W64 ->
  Forall (fun cc => s3_chunk m inflate ds csz start body (fst cc) = L (fst cc) /\ snd cc <> []) cs ->
  s3_chunks m inflate ds csz start body cs dst = (Ok tt, d') -> lenN d' = lenN dst.
Proof.
  intros cs dst d' HW HF E. apply (s3_chunks_iff start body cs dst d' HW HF) in E as (wss & HF' & ->).
  unfold lenN. rewrite apply_length; auto. unfold in_bounds. apply Forall_concat.
  apply Forall_forall. intros ws Hws. destruct (Forall2_in_r _ _ _ _ HF' Hws) as (g & _ & Hg). eapply gseg_bounds; eauto.
Qed.

Variable (srv : server).

(** All requests whose response is used give the same chunks as [L]. *)
Lemma s3_loop_iff : forall order dst d', lenN dst < W64 ->
  Forall (fun q => forall body, fetch m srv q = Ok body ->
     Forall (fun cc => s3_chunk m inflate ds csz (q_start q) body (fst cc) = L (fst cc) /\ snd cc <> []) (q_chunks q)) order ->
  (s3_loop m inflate srv ds csz order dst = (Ok tt, d') <->
   Forall (fun q => exists body, fetch m srv q = Ok body) order /\
   exists wss, Forall2 (gseg_ok m L dsz (lenN dst)) (flat_map req_segs order) wss /\ d' = apply_writes (concat wss) dst).
Proof.
  induction order as [|q order IH]; intros dst d' HW HF; cbn [s3_loop flat_map].
  - split.
    + intros [= <-]. split; [constructor|]. exists []. split; [constructor|reflexivity].
    + intros (_ & wss & H & ->). inversion H; subst. reflexivity.
  - inversion HF as [|? ? F1 F2]; subst.
    destruct (fetch m srv q) as [body| | | |] eqn:EF.
    2-5: split; [discriminate|]; intros (H & _); inversion H as [|? ? (b & Eb) _]; subst; congruence.
    specialize (F1 body eq_refl).
    pose proof (fun d1 => s3_chunks_iff (q_start q) body (q_chunks q) dst d1 HW F1) as SI.
    assert (ER : flat_map chunk_segs (q_chunks q) = req_segs q) by reflexivity. rewrite ER in SI.
    destruct (s3_chunks m inflate ds csz (q_start q) body (q_chunks q) dst) as [[[]| | | |] d1] eqn:ES.
    2-5: split; [discriminate|]; intros (_ & wss & H & ->); apply Forall2_app_inv_l in H as (w1 & w2 & H1 & H2 & ->);
         discriminate (proj2 (SI _) (ex_intro _ w1 (conj H1 eq_refl))).
    destruct (proj1 (SI d1) eq_refl) as (w1 & F1' & E1).
    pose proof (s3_chunks_len (q_start q) body (q_chunks q) dst d1 HW F1 ES) as EN.
    rewrite IH by (try rewrite EN; auto). rewrite EN. split.
    + intros (HFe & w2 & FF & ->). split; [constructor; eauto|].
      exists (w1 ++ w2). split; [now apply Forall2_app|]. now rewrite concat_app, apply_app, <- E1.
    + intros (HFe & wss & FF & ->). pose proof (Forall_inv_tail HFe) as HFe'. split; auto.
      apply Forall2_app_inv_l in FF as (w1' & w2 & H1 & H2 & ->).
      assert (w1' = w1).
      { clear -H1 F1'. revert w1 F1'. induction H1 as [|g w G wss H HF IH]; intros w1 F; inversion F; subst; auto.
        f_equal; [eapply gseg_fun; eauto|auto]. }
      subst w1'. exists w2. split; auto. now rewrite concat_app, apply_app, <- E1.
Qed.
End Loop.

(** ** Honest servers *)

Lemma fetch_usable m srv q : q_start q < q_end q -> q_end q < W64 ->
  (exists body status, srv (q_start q) (q_end q - 1) = Resp status body /\ fetch m srv q = Ok body /\
     usable (q_start q) (q_end q) (Resp status body)) \/
  (~ usable (q_start q) (q_end q) (srv (q_start q) (q_end q - 1)) /\ exists e, fetch m srv q = Err e).
Proof.
  intros Hse HW. unfold fetch. rewrite sub64_ok by lia. cbn [bind]. rewrite leb_true by lia. cbn [assert_ bind].
  destruct (srv (q_start q) (q_end q - 1)) as [|st body]; [right; split; [easy|eauto]|].
  rewrite sub64_ok by lia. unfold ensure. cbn [usable].
  destruct ((st =? 206) || (st =? 200) && (q_start q =? 0)) eqn:E.
  - assert (ES : st = 206 \/ st = 200 /\ q_start q = 0).
    { apply orb_true_iff in E as [E|E]; [left; now apply N.eqb_eq|right].
      apply andb_true_iff in E as [A B]. now apply N.eqb_eq in A, B. }
    cbn [bind]. destruct (N.leb_spec (q_end q - q_start q) (lenN body)); cbn [bind].
    + left. exists body, st. auto.
    + right. split; [|eauto]. intros [_ ?]. lia.
  - cbn [bind]. right. split; [|eauto]. intros [[-> |[-> Hz]] _]; [discriminate|].
    rewrite Hz in E. discriminate.
Qed.

Lemma honours_truthful file srv : honours file srv -> truthful file srv.
Proof.
  intros HH s e Hse. specialize (HH s e Hse). destruct (srv s e) as [|st body]; [easy|]. cbn [usable].
  intros [HS HL]. destruct HH as [(-> & ->)|[(-> & -> & ->)|(A & B & _)]].
  - unfold lenN in *. rewrite firstn_length, skipn_length in HL. split; [lia|]. rewrite firstn_firstn. f_equal. lia.
  - split; [unfold lenN in *; lia|]. reflexivity.
  - destruct HS as [HS|[HS _]]; congruence.
Qed.
Lemma honours_fetch m file srv q : honours file srv -> q_start q < q_end q -> q_end q < W64 ->
  q_end q <= lenN file -> exists body, fetch m srv q = Ok body.
Proof.
  intros HH Hse HW HL. destruct (fetch_usable m srv q Hse HW) as [(b & st & _ & E & _)|[HN _]]; [eauto|].
  exfalso. apply HN. specialize (HH (q_start q) (q_end q - 1) ltac:(lia)).
  destruct (srv (q_start q) (q_end q - 1)) as [|st body]; [lia|]. cbn [usable].
  destruct HH as [(-> & ->)|[(-> & -> & ->)|(A & B & C)]]; [| |lia].
  - split; auto. unfold lenN in *. rewrite firstn_length, skipn_length. lia.
  - split; auto. lia.
Qed.

Lemma fetch_truthful m srv file q : truthful file srv -> q_start q < q_end q -> q_end q < W64 ->
  forall body, fetch m srv q = Ok body -> q_end q <= lenN file /\
     forall a n, q_start q <= a -> a + n <= q_end q ->
       firstn (N.to_nat n) (skipn (N.to_nat (a - q_start q)) body) = firstn (N.to_nat n) (skipn (N.to_nat a) file) /\
       a - q_start q + n <= lenN body.
Proof.
  intros HT Hse HW body EB.
  destruct (fetch_usable m srv q Hse HW) as [(b & st & ES & E & HU)|[_ (z & E)]]; [|congruence].
  rewrite E in EB. injection EB as ->. specialize (HT (q_start q) (q_end q - 1) ltac:(lia)).
  replace (q_end q - 1 + 1) with (q_end q) in HT by lia. rewrite ES in HT. destruct (HT HU) as [HL HB].
  split; [lia|]. destruct HU as [_ HU]. intros a n Ha Hn. split; [|lia].
  assert (F : forall l : bytes, firstn (N.to_nat n) (skipn (N.to_nat (a - q_start q)) l) =
     firstn (N.to_nat n) (skipn (N.to_nat (a - q_start q)) (firstn (N.to_nat (q_end q - q_start q)) l))).
  { intros l. rewrite skipn_firstn_comm, firstn_firstn. f_equal. lia. }
  rewrite F, HB, <- F, skipn_add. f_equal. f_equal. lia.
Qed.

(** The chunks of a response, as bytes of the file. *)
Lemma s3_chunk_load m inflate ds csz file start end_ body c : end_ < W64 ->
  start <= c_addr c -> c_addr c + c_size c <= end_ -> end_ <= lenN file ->
  (forall a n, start <= a -> a + n <= end_ ->
       firstn (N.to_nat n) (skipn (N.to_nat (a - start)) body) = firstn (N.to_nat n) (skipn (N.to_nat a) file) /\
       a - start + n <= lenN body) ->
  s3_chunk m inflate ds csz start body c = load m inflate file ds csz c.
Proof.
  intros HW H1 H2 H3 HB. destruct (HB (c_addr c) (c_size c) H1 H2) as [E Lb].
  unfold s3_chunk, load, read_chunk. rewrite sub64_ok by lia. cbn [bind]. rewrite add64_ok by lia. cbn [bind].
  rewrite slice_range_eq by lia. cbn [bind].
  replace (c_addr c - start + c_size c - (c_addr c - start)) with (c_size c) by lia. rewrite E.
  unfold read_exact. destruct (N.eqb_spec (c_size c) 0) as [Z|Z].
  - rewrite Z. reflexivity.
  - rewrite leb_true by lia. reflexivity.
Qed.

(** ** Whole reads *)

Lemma sort_by_addr' sort m fuel ds e G : addr_sort sort -> group_chunk_slices sort m fuel ds e = Ok G -> by_addr G.
Proof.
  intros HS E. unfold group_chunk_slices in E. apply bind_ok in E as (D & _ & E). injection E as <-.
  destruct (HS D) as [_ H]. exact H.
Qed.

Lemma req_good_pos q : req_good q -> Forall (fun c => 0 < c_size c) (req_chunks q) -> q_start q < q_end q.
Proof.
  intros HG HP. destruct (rq_last _ HG) as (pre & c & ss & E & EE).
  assert (HC := rq_cover _ HG). rewrite Forall_forall in HC, HP.
  assert (Hin : In (c, ss) (q_chunks q)) by (rewrite E; apply in_app_iff; right; now left).
  destruct (HC _ Hin) as (A & B & _). cbn [fst] in *.
  assert (0 < c_size c) by (apply HP; unfold req_chunks; apply in_map_iff; exists (c, ss); auto). lia.
Qed.

Lemma gseg_place m L dsz dlen g g' ws : L (g_chunk g) = L (g_chunk g') -> same_place g g' ->
  gseg_ok m L dsz dlen g ws -> gseg_ok m L dsz dlen g' ws.
Proof.
  intros EL (_ & E2 & E3 & E4) (p & o & H1 & H2 & H3 & H4). exists p, o. rewrite <- E2. split; auto. split; auto.
  destruct H2 as (s & e & data & Es & Ee & Hse & ED & Hd & Ho). rewrite <- E3, <- E4. cbn [seg_ok].
  exists s, e, data. rewrite <- EL. repeat split; auto.
Qed.

Lemma same_place_sym g g' : same_place g g' -> same_place g' g.
Proof. intros (A & B & C & D). repeat split; auto. Qed.

Lemma segs_chunk q g : In g (req_segs q) -> In (g_chunk g) (req_chunks q).
Proof.
  unfold req_segs, req_chunks. intros H. apply in_flat_map in H as ([c ss] & Hc & Hg).
  apply in_map_iff in Hg as ([[cur a] b] & <- & _). apply in_map_iff. exists (c, ss). auto.
Qed.
Lemma flat_segs_chunk qs g : In g (flat_map req_segs qs) -> In (g_chunk g) (flat_map req_chunks qs).
Proof.
  intros H. apply in_flat_map in H as (q & Hq & Hg). apply in_flat_map. exists q. split; auto. now apply segs_chunk.
Qed.

Lemma req_setup m sort fuel ds e G qs : addr_sort sort -> sizes_ok ds -> group_chunk_slices sort m fuel ds e = Ok G ->
  group_requests m G = Ok qs ->
  Forall (fun g => In (g_chunk g) (d_chunks ds)) G /\
  Forall2 same_place G (flat_map req_segs qs) /\
  Forall (fun q => req_good q /\ q_start q < q_end q /\ incl (req_chunks q) (d_chunks ds)) qs.
Proof.
  intros HS HZ EG EQ. pose proof (group_chunks _ _ _ _ _ _ HS EG) as HG.
  assert (HE : Forall (fun g => c_addr (g_chunk g) + c_size (g_chunk g) < W64) G).
  { eapply Forall_impl; [|exact HG]. cbn beta. intros g Hg. now apply HZ. }
  destruct (group_ok m G qs (or_intror HE) (sort_by_addr' _ _ _ _ _ _ HS EG) EQ) as (F2 & HQ & _ & INC).
  split; auto. split; auto. apply Forall_forall. intros q Hq. rewrite Forall_forall in HQ.
  assert (HI : incl (req_chunks q) (d_chunks ds)).
  { intros c Hc. assert (H : In c (flat_map req_chunks qs)) by (apply in_flat_map; eauto).
    apply INC, in_map_iff in H as (g & <- & Hg). rewrite Forall_forall in HG. auto. }
  split; auto. split; auto. apply req_good_pos; auto.
  apply Forall_forall. intros c Hc. apply HI in Hc. now apply HZ.
Qed.

Lemma Forall2_place m L dsz dlen ds : same_addr ds ->
  (forall c c', c_addr c = c_addr c' -> c_size c = c_size c' -> L c = L c') ->
  forall G G' wss, Forall2 same_place G G' -> Forall (fun g => In (g_chunk g) (d_chunks ds)) G ->
  Forall (fun g => In (g_chunk g) (d_chunks ds)) G' ->
  (Forall2 (gseg_ok m L dsz dlen) G wss <-> Forall2 (gseg_ok m L dsz dlen) G' wss).
Proof.
  intros HA HL G G' wss H. revert wss. induction H as [|g g' G G' H HF IH]; intros wss H1 H2.
  - split; intros X; inversion X; subst; constructor.
  - inversion H1; inversion H2; subst.
    assert (EL : L (g_chunk g) = L (g_chunk g')) by (destruct H as (EA & _); apply HL; auto).
    split; intros X; inversion X as [|? ws ? wss' X1 X2]; subst; constructor.
    + exact (gseg_place m L dsz dlen g g' ws EL H X1).
    + apply IH; auto.
    + exact (gseg_place m L dsz dlen g' g ws (eq_sym EL) (same_place_sym _ _ H) X1).
    + apply IH; auto.
Qed.

Lemma truthful_loop m inflate ds csz srv file order : truthful file srv ->
  Forall (fun q => req_good q /\ q_start q < q_end q /\ incl (req_chunks q) (d_chunks ds)) order ->
  Forall (fun q => forall body, fetch m srv q = Ok body ->
     Forall (fun cc => s3_chunk m inflate ds csz (q_start q) body (fst cc) = load m inflate file ds csz (fst cc) /\ snd cc <> []) (q_chunks q)) order.
Proof.
  intros HH HQ. eapply Forall_impl; [|exact HQ]. intros q (HG & Hse & _) body EB.
  destruct (fetch_truthful m srv file q HH Hse (rq_end _ HG) body EB) as [Hlen HB].
  eapply Forall_impl; [|exact (rq_cover _ HG)]. intros [c ss]. cbn [fst snd]. intros (A & B & C). split; auto.
  eapply s3_chunk_load; eauto. apply HG.
Qed.

(** C33: success exactly when a local read succeeds, with the same result. *)
Lemma s3_plain m inflate sort fuel ds csz srv file e dst :
  addr_sort sort -> same_addr ds -> 0 < d_dsize ds -> sizes_ok ds -> lenN dst < W64 -> truthful file srv ->
  (forall v d, s3_read m inflate sort fuel (mkS3 ds srv csz) e dst (Ok v) d ->
     plain_read m inflate fuel file ds csz e dst = (Ok v, d)) /\
  (honours file srv -> forall v d x d', plain_read m inflate fuel file ds csz e dst = (Ok v, d) ->
     s3_read m inflate sort fuel (mkS3 ds srv csz) e dst x d' -> x = Ok v /\ d' = d).
Proof.
  intros HS HA Hd HZ HW HH. set (L := load m inflate file ds csz).
  assert (HL : forall c c', c_addr c = c_addr c' -> c_size c = c_size c' -> L c = L c') by (intros; now apply load_same).
  (* any run *)
  assert (RUN : forall G qs order d', group_chunk_slices sort m fuel ds e = Ok G -> group_requests m G = Ok qs ->
     Permutation order qs ->
     (s3_loop m inflate srv ds csz order dst = (Ok tt, d') <->
      Forall (fun q => exists body, fetch m srv q = Ok body) order /\
      exists wss, Forall2 (gseg_ok m L (d_dsize ds) (lenN dst)) G wss /\
        Permutation (concat wss) (concat wss) /\
        exists out, read_writes m L fuel ds e (lenN dst) out /\ d' = splice dst 0 out)).
  { intros G qs order d' EG EQ HP. destruct (req_setup m sort fuel ds e G qs HS HZ EG EQ) as (HG & F2 & HQ).
    assert (HQo : Forall (fun q => req_good q /\ q_start q < q_end q /\ incl (req_chunks q) (d_chunks ds)) order).
    { apply Forall_forall. intros q Hq. rewrite Forall_forall in HQ. apply HQ. eapply Permutation_in; eauto. }
    assert (HG' : Forall (fun g => In (g_chunk g) (d_chunks ds)) (flat_map req_segs qs)).
    { apply Forall_forall. intros g Hg. apply in_flat_map in Hg as (q & Hq & Hg). rewrite Forall_forall in HQ.
      destruct (HQ q Hq) as (_ & _ & HI). apply HI. now apply segs_chunk. }
    assert (PF : Permutation (flat_map req_segs order) (flat_map req_segs qs)) by (now apply Permutation_flat_map).
    rewrite (s3_loop_iff m inflate ds csz L srv order dst d' HW (truthful_loop m inflate ds csz srv file order HH HQo)).
    (* the writes determine the result *)
    assert (RES : forall wss w', Forall2 (gseg_ok m L (d_dsize ds) (lenN dst)) G wss -> Permutation (concat w') (concat wss) ->
       exists out, read_writes m L fuel ds e (lenN dst) out /\ apply_writes (concat w') dst = splice dst 0 out).
    { intros wss w' HF P. assert (GW : group_writes m L sort fuel ds e (lenN dst) G wss) by (split; auto).
      destruct (read_of_group _ _ _ _ _ _ _ _ _ HS Hd HW GW) as (out & RW). exists out. split; auto.
      destruct (group_of_read _ _ sort _ _ _ _ _ HS Hd HW RW) as (G' & wss' & [EG' HF'] & P').
      rewrite EG in EG'. injection EG' as <-.
      assert (wss' = wss).
      { clear -HF HF'. revert wss' HF'. induction HF as [|g w G wss H HF IH]; intros wss' HF'; inversion HF'; subst; auto.
        f_equal; [eapply gseg_fun; eauto|auto]. }
      subst wss'. destruct RW as (segs & os & _ & _ & _ & Hb).
      assert (EF : map fst (combine (seqN 0 (length out)) out) = seqN 0 (length out))
        by (apply map_fst_combine; apply seqN_length).
      rewrite <- (apply_combine out 0 dst) by lia. symmetry. apply apply_perm.
      + rewrite P, P'. reflexivity.
      + rewrite EF. apply seqN_NoDup.
      + apply in_bounds_combine. lia. }
    split.
    - intros (HFe & w' & HF & ->).
      destruct (Forall2_perm _ _ _ _ PF HF) as (wss & PW & HF2).
      apply (Forall2_place m L (d_dsize ds) (lenN dst) ds HA HL G (flat_map req_segs qs) wss F2 HG HG') in HF2.
      split; auto. exists wss. split; auto. split; auto. apply (RES wss w' HF2). now apply perm_concat.
    - intros (HFe & wss & HF & _ & out & RW & ->). split; [exact HFe|].
      pose proof HF as HF0.
        apply (Forall2_place m L (d_dsize ds) (lenN dst) ds HA HL G (flat_map req_segs qs) wss F2 HG HG') in HF.
        destruct (Forall2_perm _ _ _ _ (Permutation_sym PF) HF) as (w' & PW & HF2).
        exists w'. split; auto. destruct (RES wss w' HF0) as (out' & RW' & ->); [apply perm_concat; now symmetry|].
        assert (out' = out); [|congruence].
        destruct RW as (segs & os & E1 & E2 & -> & _), RW' as (segs' & os' & E1' & E2' & -> & _).
        rewrite E1 in E1'. injection E1' as <-. f_equal. clear -E2 E2'.
        revert os' E2'. induction E2 as [|sg o segs os H HF IH]; intros os' E2'; inversion E2'; subst; auto.
        f_equal; [eapply seg_ok_fun; eauto|auto]. }
  split.
  - intros v d HR. inversion HR as [x' E1 E2|v' x' E1 E2 E3|v' qs order x' d' E1 E2 E3 E4 E5]; subst; cbn [s3_ds s3_srv s3_csz] in *.
    + now edestruct E2.
    + destruct (let* gs := _ in _) in *; try discriminate.
    + apply bind_ok in E2 as (G & EG & EQ).
      destruct x' as [[]| | | |]; try discriminate. injection E5 as ->.
      apply (RUN G qs order d EG EQ E3) in E4 as (_ & wss & _ & _ & out & RW & ->).
      apply plain_read_iff. split; auto. exists out. auto.
  - intros HO v d x d' HP HR. apply plain_read_iff in HP as (ES & out & RW & ->).
    destruct (group_of_read _ _ sort _ _ _ _ _ HS Hd HW RW) as (G & wss & [EG HF] & _).
    assert (HGc : Forall (fun g => c_addr (g_chunk g) + c_size (g_chunk g) < W64) G).
    { eapply Forall_impl; [|exact (group_chunks _ _ _ _ _ _ HS EG)]. cbn beta. intros g Hg. now apply HZ. }
    destruct (group_total m G HGc (sort_by_addr' _ _ _ _ _ _ HS EG)) as (qs & EQ).
    inversion HR as [x' E1 E2|v' x' E1 E2 E3|v' qs' order x' d1 E1 E2 E3 E4 E5]; subst; cbn [s3_ds s3_srv s3_csz] in *.
    + now apply E2 in ES.
    + rewrite EG in E3. cbn [bind] in E3. now apply E3 in EQ.
    + rewrite EG in E2. cbn [bind] in E2. rewrite EQ in E2. injection E2 as <-.
      assert (EL : s3_loop m inflate srv ds csz order dst = (Ok tt, splice dst 0 out)).
      { apply (RUN G qs order _ EG EQ E3). split; [|exists wss; split; auto; split; auto; exists out; auto].
        destruct (req_setup m sort fuel ds e G qs HS HZ EG EQ) as (HG & F2 & HQ).
        apply Forall_forall. intros q Hq. rewrite Forall_forall in HQ.
        apply (Permutation_in _ E3) in Hq. destruct (HQ q Hq) as (HGq & Hse & HI).
        apply (honours_fetch m file); auto; [apply HGq|].
        (* the last chunk of the request is in the file *)
        destruct (rq_last _ HGq) as (pre & c & ss & Eq & EE). rewrite EE.
        assert (Hin : In (c, ss) (q_chunks q)) by (rewrite Eq; apply in_app_iff; right; now left).
        assert (HC := rq_cover _ HGq). rewrite Forall_forall in HC. destruct (HC _ Hin) as (_ & _ & Hne). cbn [snd] in Hne.
        destruct ss as [|[[cur a] b] ss]; [congruence|].
        assert (Hg : In (c, cur, a, b) (flat_map req_segs qs)).
        { apply in_flat_map. exists q. split; auto. unfold req_segs.
          apply in_flat_map. exists (c, (cur, a, b) :: ss). split; auto. now left. }
        assert (HG' : Forall (fun g => In (g_chunk g) (d_chunks ds)) (flat_map req_segs qs)).
        { apply Forall_forall. intros g Hg'. apply in_flat_map in Hg' as (q' & Hq' & Hg').
          destruct (HQ q' Hq') as (_ & _ & HI'). apply HI'. now apply segs_chunk. }
        apply (Forall2_place m L (d_dsize ds) (lenN dst) ds HA HL G (flat_map req_segs qs) wss F2 HG HG') in HF.
        destruct (Forall2_in_l _ _ _ _ HF Hg) as (ws & _ & p & o & _ & (s & z & data & _ & _ & _ & EL & _) & _).
        unfold g_chunk in EL. cbn [fst] in EL. unfold L, load, read_chunk, read_exact in EL.
        assert (Hc : In c (d_chunks ds)) by (apply HI; unfold req_chunks; apply in_map_iff; exists (c, (cur, a, b) :: ss); auto).
        destruct (HZ c Hc) as [Hpos _]. destruct (N.eqb_spec (c_size c) 0); [lia|].
        destruct (N.leb_spec (c_addr c + c_size c) (lenN file)); [auto|discriminate]. }
      rewrite EL in E4. injection E4 as <- <-. cbn [bind]. rewrite ES in E1. injection E1 as ->. auto.
Qed.
