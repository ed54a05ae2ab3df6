(** * S3 reads with any server (C34): an error or success, and success only if every
    response was usable. *)
From Verif Require Import Base Spec Safe Extent Chunk Dataset Slicer SpecApi GroupProofs SliceProps Filters Reader SpecReader
  FilterProofs Writes CacheProofs DirectProofs ParProofs ReadProofs ReaderProps S3 SpecS3 S3Group S3Proofs.

(** A response's body, seen as a file that has it at the requested place. *)
Definition placed (start : N) (body : bytes) : bytes := repeat 0 (N.to_nat start) ++ body.

Lemma placed_load m inflate ds csz start end_ body c : end_ < W64 -> end_ - start <= lenN body ->
  start <= c_addr c -> c_addr c + c_size c <= end_ ->
  s3_chunk m inflate ds csz start body c = load m inflate (placed start body) ds csz c.
Proof.
  intros HW HL H1 H2. apply s3_chunk_load with (end_ := end_); auto.
  - unfold placed. rewrite lenN_app. unfold lenN at 1. rewrite repeat_length. lia.
  - intros a n Ha Hn. split; [|lia]. unfold placed.
    rewrite skipn_app, repeat_length.
    rewrite (skipn_all2 (repeat 0 (N.to_nat start))) by (rewrite repeat_length; lia). cbn [app].
    f_equal. f_equal. lia.
Qed.

Section Any.
Variables (m : mode) (inflate : bytes -> option bytes) (ds : dataset) (srv : server) (T : N).
Hypothesis HR : regular ds.
Hypothesis HC : csize ds < W64.

(** Segments of one chunk. *)
Lemma segs_total L c data : L c = Ok data -> lenN data = csize ds -> forall ss dst,
  lenN dst < W64 -> T * d_dsize ds <= lenN dst -> Forall (g_wf ds T) (chunk_segs (c, ss)) ->
  exists d, s3_segs m data (d_dsize ds) ss dst = (Ok tt, d) /\ lenN d = lenN dst.
Proof.
  intros EL HD ss dst HW HT HF.
  assert (X : exists wss, Forall2 (gseg_ok m L (d_dsize ds) (lenN dst)) (chunk_segs (c, ss)) wss).
  { cbn [chunk_segs] in *. induction ss as [|[[cur a] b] ss IH]; [exists []; constructor|].
    cbn [map] in *. inversion HF as [|? ? F1 F2]; subst. destruct (IH F2) as (wss & Hw).
    destruct (gseg_load m ds L T (c, cur, a, b) data (lenN dst) HC HT HW F1 EL HD) as (ws & Hws).
    exists (ws :: wss). now constructor. }
  destruct X as (wss & HX). eexists. 
  assert (E : s3_segs m data (d_dsize ds) ss dst = (Ok tt, apply_writes (concat wss) dst)).
  { apply (s3_segs_iff m ds L c data EL ss dst _ HW). eauto. }
  split; [exact E|]. eapply (s3_segs_len m ds L); eauto.
Qed.

Lemma chunks_total start end_ body : end_ < W64 -> end_ - start <= lenN body -> forall cs dst,
  lenN dst < W64 -> T * d_dsize ds <= lenN dst ->
  Forall (fun cc => start <= c_addr (fst cc) /\ c_addr (fst cc) + c_size (fst cc) <= end_ /\ In (fst cc) (d_chunks ds)) cs ->
  Forall (g_wf ds T) (flat_map chunk_segs cs) ->
  exists d, lenN d = lenN dst /\
    (s3_chunks m inflate ds (csize ds) start body cs dst = (Ok tt, d) \/
     exists e, s3_chunks m inflate ds (csize ds) start body cs dst = (Err e, d)).
Proof.
  intros HE HB. induction cs as [|[c ss] cs IH]; intros dst HW HT HF HG; cbn [s3_chunks]; [eauto|].
  inversion HF as [|? ? (F1 & F2 & F3) FF]; subst. cbn [fst] in *.
  cbn [flat_map] in HG. apply Forall_app in HG as [G1 G2].
  rewrite (placed_load m inflate ds (csize ds) start end_ body c); auto.
  destruct (load_total m inflate (placed start body) ds c HR F3) as [[_ (data & EL & HD)]|[_ (z & EL)]]; rewrite EL.
  - destruct (segs_total (load m inflate (placed start body) ds (csize ds)) c data EL HD ss dst HW HT G1) as (d & E & Ld).
    rewrite E. destruct (IH d) as (d2 & L2 & H2); rewrite ?Ld; auto. exists d2. split; [congruence|auto].
  - exists dst. split; auto. right. exists z. reflexivity.
Qed.

Definition req_ok (q : request) : Prop :=
  req_good q /\ q_start q < q_end q /\ incl (req_chunks q) (d_chunks ds) /\ Forall (g_wf ds T) (req_segs q).

Lemma loop_total : forall order dst, Forall req_ok order -> lenN dst < W64 -> T * d_dsize ds <= lenN dst ->
  exists d, s3_loop m inflate srv ds (csize ds) order dst = (Ok tt, d) \/
   exists e, s3_loop m inflate srv ds (csize ds) order dst = (Err e, d).
Proof.
  induction order as [|q order IH]; intros dst HF HW HT; cbn [s3_loop]; [eauto|].
  inversion HF as [|? ? (HG & Hse & HI & HS) FF]; subst.
  destruct (fetch_usable m srv q Hse (rq_end _ HG)) as [(b & st & ES & E & HU)|[_ (z & E)]]; rewrite E.
  - destruct HU as [_ HU].
    destruct (chunks_total (q_start q) (q_end q) b (rq_end _ HG) HU (q_chunks q) dst HW HT) as (d & Ld & [E2|(z & E2)]).
    + apply Forall_forall. intros [c ss] Hc. pose proof (rq_cover _ HG) as HC'. rewrite Forall_forall in HC'.
      destruct (HC' _ Hc) as (A & B & _). repeat split; auto. apply HI. unfold req_chunks. apply in_map_iff. eauto.
    + exact HS.
    + rewrite E2. apply IH; rewrite ?Ld; auto.
    + rewrite E2. exists d. right. eauto.
  - exists dst. right. exists z. reflexivity.
Qed.
End Any.

(** Success only if every response was usable. *)
Lemma loop_used m inflate srv ds csz : forall order dst d,
  s3_loop m inflate srv ds csz order dst = (Ok tt, d) -> Forall (fun q => exists b, fetch m srv q = Ok b) order.
Proof.
  induction order as [|q order IH]; intros dst d E; cbn [s3_loop] in E; [constructor|].
  destruct (fetch m srv q) as [b| | | |] eqn:EF; try discriminate.
  destruct (s3_chunks m inflate ds csz (q_start q) b (q_chunks q) dst) as [[[]| | | |] d1]; try discriminate.
  constructor; eauto.
Qed.

(** In any mode the checks of a used response hold. *)
Lemma fetch_ok_usable m srv q b : q_start q <= q_end q -> 0 < q_end q -> fetch m srv q = Ok b ->
  exists st, srv (q_start q) (q_end q - 1) = Resp st b /\ usable (q_start q) (q_end q) (Resp st b).
Proof.
  intros H H0 E. unfold fetch in E. apply bind_ok in E as (last & El & E).
  assert (last = q_end q - 1) as ->.
  { unfold sub64 in El. destruct (N.leb_spec 1 (q_end q)); [congruence|lia]. }
  apply bind_ok in E as ([] & _ & E). destruct (srv (q_start q) (q_end q - 1)) as [|st body]; [discriminate|].
  apply bind_ok in E as ([] & E1 & E). apply bind_ok in E as (n & En & E). apply bind_ok in E as ([] & E2 & E).
  injection E as <-. exists st. split; auto. unfold ensure in *. cbn [usable].
  assert (n = q_end q - q_start q) as -> by (unfold sub64 in En; destruct (N.leb_spec (q_start q) (q_end q)); [congruence|lia]).
  destruct (N.leb_spec (q_end q - q_start q) (lenN body)); [|discriminate]. split; auto.
  destruct ((st =? 206) || (st =? 200) && (q_start q =? 0)) eqn:EE; [|discriminate].
  apply orb_true_iff in EE as [EE|EE]; [left; now apply N.eqb_eq|right].
  apply andb_true_iff in EE as [A B]. now apply N.eqb_eq in A, B.
Qed.

Lemma place_wf ds T g g' : same_place g g' -> In (g_chunk g') (d_chunks ds) -> g_wf ds T g -> g_wf ds T g'.
Proof.
  intros (_ & E2 & E3 & E4) Hc [(A & B & _) D].
  assert (EL : g_len g = g_len g') by (unfold g_len in *; unfold g_from in E3; congruence).
  unfold g_wf, seg_wf. rewrite <- EL, <- E2, <- E3, <- E4. repeat split; auto.
Qed.

(** The requests of a well-formed read. *)
Lemma read_reqs m sort ds e idx cnt dst fuel : addr_sort sort -> sizes_ok ds -> read_ok m ds e idx cnt dst fuel ->
  exists G qs, group_chunk_slices sort m fuel ds e = Ok G /\ group_requests m G = Ok qs /\ Forall (req_ok ds (prodN cnt)) qs.
Proof.
  intros HS HZ HO. destruct (group_dests m sort ds e idx cnt dst fuel HS HO) as (segs & G & _ & EG & _ & _ & _ & HG).
  assert (HGc : Forall (fun g => c_addr (g_chunk g) + c_size (g_chunk g) < W64) G).
  { eapply Forall_impl; [|exact (group_chunks _ _ _ _ _ _ HS EG)]. cbn beta. intros g Hg. now apply HZ. }
  destruct (group_total m G HGc (sort_by_addr' _ _ _ _ _ _ HS EG)) as (qs & EQ).
  exists G, qs. split; auto. split; auto.
  destruct (req_setup m sort fuel ds e G qs HS HZ EG EQ) as (HGi & F2 & HQ).
  apply Forall_forall. intros q Hq. rewrite Forall_forall in HQ. destruct (HQ q Hq) as (A & B & C).
  split; [exact A|]. split; [exact B|]. split; [exact C|]. apply Forall_forall. intros g Hg.
  assert (Hin : In g (flat_map req_segs qs)) by (apply in_flat_map; eauto).
  destruct (Forall2_in_r _ _ _ _ F2 Hin) as (g0 & Hg0 & SP). rewrite Forall_forall in HG.
  eapply place_wf; eauto. apply C. now apply segs_chunk.
Qed.

Lemma s3_cases m inflate sort ds srv e idx cnt dst fuel x d : addr_sort sort -> sizes_ok ds -> read_ok m ds e idx cnt dst fuel ->
  s3_read m inflate sort fuel (mkS3 ds srv (csize ds)) e dst x d ->
  x = Ok (prodN cnt * d_dsize ds) \/ exists z, x = Err z.
Proof.
  intros HS HZ HO HR. destruct (ro_size _ _ _ _ _ _ _ HO) as (ES & HP & HC & Hd).
  destruct (read_reqs m sort ds e idx cnt dst fuel HS HZ HO) as (G & qs & EG & EQ & HQ).
  inversion HR as [x' E1 E2|v' x' E1 E2 E3|v' qs' order x' d1 E1 E2 E3 E4 E5]; subst; cbn [s3_ds s3_srv s3_csz] in *.
  - now apply E2 in ES.
  - rewrite EG in E3. cbn [bind] in E3. now apply E3 in EQ.
  - rewrite EG in E2. cbn [bind] in E2. rewrite EQ in E2. injection E2 as <-.
    rewrite ES in E1. injection E1 as <-.
    assert (HQo : Forall (req_ok ds (prodN cnt)) order).
    { apply Forall_forall. intros q Hq. rewrite Forall_forall in HQ. apply HQ. eapply Permutation_in; eauto. }
    destruct (loop_total m inflate ds srv (prodN cnt) (ro_reg _ _ _ _ _ _ _ HO) HC order dst HQo (ro_len _ _ _ _ _ _ _ HO) (ro_cap _ _ _ _ _ _ _ HO))
      as (d2 & [E|(z & E)]); rewrite E in E4; injection E4 as <- <-; cbn [bind]; eauto.
Qed.

Lemma s3_exists m inflate sort fuel r e dst : exists x d, s3_read m inflate sort fuel r e dst x d.
Proof.
  destruct (read_size m (s3_ds r) e dst) as [v| | | |] eqn:ES.
  2-5: eexists _, dst; apply s3_size; [exact ES|discriminate].
  destruct (let* gs := group_chunk_slices sort m fuel (s3_ds r) e in group_requests m gs) as [qs| | | |] eqn:EG.
  2-5: eexists _, dst; eapply s3_group; [exact ES|exact EG|discriminate].
  destruct (s3_loop m inflate (s3_srv r) (s3_ds r) (s3_csz r) qs dst) as [x d] eqn:EL.
  exists (let* _ := x in Ok v), d. eapply s3_run; eauto.
Qed.
