(** * Property theorems C31-C34: S3 reads.

    Each theorem is followed by a concrete case meeting its hypotheses. *)
From Verif Require Import Base Spec Safe Extent Chunk Dataset Slicer SpecApi GroupProofs SliceProps Filters SpecFilter FilterProps Reader SpecReader
  CacheProofs DirectProofs ReadProofs ReaderProps StreamProofs Examples ExamplesReader S3 SpecS3 S3Group S3Proofs S3Errors
  Properties4.

(** ** C31 *)

Lemma place_eq (cs : list chunk) : (forall c c', In c cs -> In c' cs -> c_addr c = c_addr c' -> c = c') ->
  forall G G', Forall2 same_place G G' -> Forall (fun g => In (g_chunk g) cs) G -> Forall (fun g => In (g_chunk g) cs) G' ->
  G' = G.
Proof.
  intros HI G G' F2. induction F2 as [|g g' G G' SP F2 IH]; intros HC HD; [reflexivity|].
  inversion HC as [|? ? C1 C2]; inversion HD as [|? ? D1 D2]; subst. f_equal; [|now apply IH].
  destruct g as [[[c cur] a] b], g' as [[[c' cur'] a'] b']. destruct SP as (E1 & E2 & E3 & E4).
  unfold g_chunk, g_dest, g_from in *. cbn [fst snd] in *. subst.
  rewrite (HI c c' C1 D1 E1). reflexivity.
Qed.

(** Segments of chunks that end below 2^64, sorted by chunk address: the grouping succeeds
    in both builds; the requests carry exactly the given segments, in order, each in the
    chunk at its address; if the address identifies the chunk, they carry the very
    segments; no two chunks carried have the same address, in one request or in two. *)
Theorem C31_cover m gs :
  Forall (fun g => c_addr (g_chunk g) + c_size (g_chunk g) < W64) gs -> by_addr gs ->
  exists qs, group_requests m gs = Ok qs /\
    Forall2 same_place gs (flat_map req_segs qs) /\
    ((forall g h, In g gs -> In h gs -> c_addr (g_chunk g) = c_addr (g_chunk h) -> g_chunk g = g_chunk h) ->
     flat_map req_segs qs = gs) /\
    NoDup (map c_addr (flat_map req_chunks qs)) /\
    incl (flat_map req_chunks qs) (map g_chunk gs) /\
    Forall (fun q => q_chunks q <> [] /\ Forall (fun '(c, ss) => ss <> []) (q_chunks q)) qs /\
    Forall (fun q => Forall (fun c => q_start q <= c_addr c /\ c_addr c + c_size c <= q_end q) (req_chunks q)) qs /\
    Forall (fun q => exists first last, In first (req_chunks q) /\ In last (req_chunks q) /\
       q_start q = c_addr first /\ q_end q = c_addr last + c_size last) qs /\
    (Forall (fun g => 0 < c_size (g_chunk g)) gs -> Forall (fun q => q_start q < q_end q) qs).
Proof.
  intros HW HB. destruct (group_total m gs HW HB) as (qs & EQ). exists qs. split; auto.
  destruct (group_ok m gs qs (or_intror HW) HB EQ) as (F2 & HG & HS & INC).
  split; auto. split; [|split; [|split; [exact INC|split; [|split; [|split]]]]].
  - intros HI.
    assert (HC : Forall (fun g => In (g_chunk g) (map g_chunk gs)) (flat_map req_segs qs)).
    { apply Forall_forall. intros g Hg. apply INC. now apply flat_segs_chunk. }
    assert (HI' : forall c c', In c (map g_chunk gs) -> In c' (map g_chunk gs) -> c_addr c = c_addr c' -> c = c').
    { intros c c' Hc Hc'. apply in_map_iff in Hc as (g & <- & Hg). apply in_map_iff in Hc' as (h & <- & Hh). now apply HI. }
    assert (HD : Forall (fun g => In (g_chunk g) (map g_chunk gs)) gs).
    { apply Forall_forall. intros g Hg. now apply in_map. }
    exact (place_eq (map g_chunk gs) HI' _ _ F2 HD HC).
  - assert (ND : forall l : list N, (forall i j x y, (i < j)%nat -> nth_error l i = Some x -> nth_error l j = Some y -> x < y) -> NoDup l).
    { clear. intros l H. apply NoDup_nth_error. intros i j Hi E.
      destruct (nth_error l i) as [x|] eqn:Ex; [|apply nth_error_None in Ex; lia].
      destruct (Nat.lt_trichotomy i j) as [L|[L|L]]; auto.
      - specialize (H i j x x L Ex (eq_sym E)). lia.
      - specialize (H j i x x L (eq_sym E) Ex). lia. }
    apply ND. exact HS.
  - eapply Forall_impl; [|exact HG]. intros q Hq. split.
    + destruct (rq_some _ Hq) as (c & ss & rest & E & _). rewrite E. discriminate.
    + eapply Forall_impl; [|exact (rq_cover _ Hq)]. intros [c ss] (_ & _ & H). exact H.
  - eapply Forall_impl; [|exact HG]. intros q Hq. unfold req_chunks. apply Forall_map.
    eapply Forall_impl; [|exact (rq_cover _ Hq)]. intros [c ss] (A & B & _). auto.
  - eapply Forall_impl; [|exact HG]. intros q Hq.
    destruct (rq_some _ Hq) as (c & ss & rest & E & Es). destruct (rq_last _ Hq) as (pre & c' & ss' & E' & Ee).
    exists c, c'. unfold req_chunks. split; [rewrite E; now left|]. split; auto. rewrite E', map_app. apply in_app_iff. right. now left.
  - intros HP. apply Forall_forall. intros q Hq. rewrite Forall_forall in HG. apply req_good_pos; auto.
    apply Forall_forall. intros c Hc. assert (Hin : In c (flat_map req_chunks qs)) by (apply in_flat_map; eauto).
    apply INC, in_map_iff in Hin as (g & <- & Hg). rewrite Forall_forall in HP. auto.
Qed.
Print Assumptions C31_cover.

(** What the segments of a read are: sorted, for any dataset (so the theorem applies). *)
Theorem C31_sorted sort m fuel ds e gs : addr_sort sort -> group_chunk_slices sort m fuel ds e = Ok gs -> by_addr gs.
Proof. apply sort_by_addr'. Qed.
Print Assumptions C31_sorted.

(** Five segments of four chunks, two of them close together and a third right after. *)
Definition s3_segments : list gsegment :=
  [(mkChunk 1000 500 [0], 0, 0, 5); (mkChunk 1000 500 [0], 20, 5, 9); (mkChunk 1500 500 [10], 5, 0, 10);
   (mkChunk 2500 500 [20], 15, 0, 5); (mkChunk 90000 500 [30], 29, 3, 5)].
Example C31_case m : by_addr s3_segments /\
  Forall (fun g => c_addr (g_chunk g) + c_size (g_chunk g) < W64 /\ 0 < c_size (g_chunk g)) s3_segments /\
  group_requests m s3_segments = Ok [
    mkReq 1000 3000 [(mkChunk 1000 500 [0], [(0, 0, 5); (20, 5, 9)]); (mkChunk 1500 500 [10], [(5, 0, 10)]);
                     (mkChunk 2500 500 [20], [(15, 0, 5)])];
    mkReq 90000 90500 [(mkChunk 90000 500 [30], [(29, 3, 5)])]].
Proof.
  split; [|split; [repeat constructor|destruct m; reflexivity]].
  intros i j g h Hij Hi Hj.
  do 5 (destruct i as [|i]; [cbn [nth_error s3_segments] in Hi; injection Hi as <-;
    do 5 (destruct j as [|j]; [first [lia | cbn [nth_error s3_segments] in Hj; injection Hj as <-; cbn; lia]|]);
    destruct j; discriminate|]).
  destruct i; discriminate.
Qed.

(** ** C32 *)

Theorem C32_limits m gs qs :
  (m = Debug \/ Forall (fun g => c_addr (g_chunk g) + c_size (g_chunk g) < W64) gs) -> by_addr gs ->
  group_requests m gs = Ok qs ->
  Forall (fun q => (1 < length (req_chunks q))%nat -> q_end q - q_start q <= 8 * 1024 * 1024) qs /\
  Forall (fun q => forall pre c1 c2 post, req_chunks q = pre ++ c1 :: c2 :: post ->
     c_addr c1 + c_size c1 <= c_addr c2 /\ c_addr c2 - (c_addr c1 + c_size c1) <= 32 * 1024) qs.
Proof.
  intros Hm HB EQ. destruct (group_ok m gs qs Hm HB EQ) as (_ & HG & _ & _). split.
  - eapply Forall_impl; [|exact HG]. intros q Hq HL. unfold req_chunks in HL. rewrite map_length in HL.
    exact (rq_max _ Hq HL).
  - eapply Forall_impl; [|exact HG]. intros q Hq pre c1 c2 post E. unfold req_chunks in E.
    assert (X : forall (l : list (chunk * list seg3)) p, map fst l = p ++ c1 :: c2 :: post ->
       exists p' s1 s2 r', l = p' ++ (c1, s1) :: (c2, s2) :: r').
    { clear. intros l p. revert l. induction p as [|z p IH]; intros l E.
      - destruct l as [|[x s1] [|[y s2] r']]; try discriminate. cbn [map app fst] in E. injection E as -> -> _.
        exists [], s1, s2, r'. reflexivity.
      - destruct l as [|z' l]; [discriminate|]. cbn [map app] in E. injection E as _ E. apply IH in E as (p' & s1 & s2 & r' & ->).
        exists (z' :: p'), s1, s2, r'. reflexivity. }
    apply X in E as (p' & s1 & s2 & r' & E). exact (rq_pairs _ Hq _ _ _ _ _ _ E).
Qed.
Print Assumptions C32_limits.

(** And requests are not split without need: the first chunk of a request could not have
    been added to the request before it. *)
Theorem C32_maximal m gs qs :
  Forall (fun g => c_addr (g_chunk g) + c_size (g_chunk g) < W64) gs -> by_addr gs -> group_requests m gs = Ok qs ->
  forall pre q q' post, qs = pre ++ q :: q' :: post ->
  exists c rest, req_chunks q' = c :: rest /\
    ~ (q_end q <= c_addr c /\ c_addr c - q_end q <= 32 * 1024 /\ c_addr c + c_size c - q_start q <= 8 * 1024 * 1024).
Proof.
  intros HW HB EQ pre q q' post E. destruct (group_maximal m gs qs HW HB EQ pre q q' post E) as (c & ss & rest & E1 & E2).
  exists c, (map fst rest). split; [unfold req_chunks; now rewrite E1|exact E2].
Qed.
Print Assumptions C32_maximal.
Example C32_case : exists qs, group_requests Release s3_segments = Ok qs /\ Exists (fun q => (1 < length (req_chunks q))%nat) qs
  /\ (1 < length qs)%nat.
Proof. eexists. split; [reflexivity|]. split; [apply Exists_cons_hd; cbn; lia|cbn; lia]. Qed.

(** ** C33 *)

(** Any dataset without empty chunks, any selection, any completion order. *)
Theorem C33_agree m inflate sort fuel ds file srv rs rc e dst :
  addr_sort sort -> same_addr ds -> 0 < d_dsize ds -> sizes_ok ds -> lenN dst < W64 -> honours file srv ->
  s3_new m ds srv = Ok rs -> reachable m inflate ds file rc ->
  (exists x d, s3_read m inflate sort fuel rs e dst x d) /\
  (forall v d, s3_read m inflate sort fuel rs e dst (Ok v) d -> fst (cache_read m inflate fuel rc e dst) = (Ok v, d)) /\
  (forall v d, fst (cache_read m inflate fuel rc e dst) = (Ok v, d) ->
     forall x d', s3_read m inflate sort fuel rs e dst x d' -> x = Ok v /\ d' = d).
Proof.
  intros HS HA Hd HZ HW HH HN HC. split; [apply s3_exists|].
  rewrite (cache_read_reachable m inflate ds file rc fuel e dst HA HC).
  destruct (reachable_inv m inflate ds file rc HA HC) as (_ & _ & EZ & _).
  unfold s3_new in HN. rewrite EZ in HN. cbn [bind] in HN. injection HN as <-.
  destruct (s3_plain m inflate sort fuel ds (cr_csz rc) srv file e dst HS HA Hd HZ HW (honours_truthful _ _ HH)) as [A B].
  split; [exact A|]. intros v d E x d' HR. exact (B HH v d x d' E HR).
Qed.
Print Assumptions C33_agree.

(** Safe selections: the values of the object, in every completion order; or, if a needed
    chunk is not in the object or does not decode, an error in every order. *)
Theorem C33_values m inflate sort fuel ds file srv rs value e idx cnt dst :
  addr_sort sort -> sizes_ok ds -> honours file srv -> stores inflate file ds value ->
  safe_read ds e idx cnt dst fuel -> s3_new m ds srv = Ok rs ->
  forall x d, s3_read m inflate sort fuel rs e dst x d ->
    x = Ok (prodN cnt * d_dsize ds) /\
    d = concat (map value (slab idx cnt)) ++ skipn (N.to_nat (prodN cnt * d_dsize ds)) dst.
Proof.
  intros HS HZ HH ST HR HN x d HX.
  pose proof (ss_pos _ (rg_sizes _ (sf_reg _ _ _ _ _ _ HR))) as Hd. pose proof (sf_len _ _ _ _ _ _ HR) as HW.
  assert (HA : same_addr ds) by apply HR.
  unfold s3_new in HN. apply bind_ok in HN as (csz & EZ & HN). injection HN as <-.
  apply csize_fresh in EZ; [|apply HR|apply HR]. subst csz.
  destruct (s3_plain m inflate sort fuel ds (csize ds) srv file e dst HS HA Hd HZ HW (honours_truthful _ _ HH)) as [_ B].
  destruct HR as [A1 A2 A3 A4 A5 A6 A7 A8].
  assert (E : plain_read m inflate fuel file ds (csize ds) e dst =
    (Ok (prodN cnt * d_dsize ds), concat (map value (slab idx cnt)) ++ skipn (N.to_nat (prodN cnt * d_dsize ds)) dst)).
  { destruct (st_sizes _ _ _ _ ST) as [S1 S2 S3 S4]. apply plain_read_values; auto.
    - intros c (y & k & _ & Hh & _). now apply stores_loads.
    - now apply safe_right. }
  exact (B HH _ _ x d E HX).
Qed.
Print Assumptions C33_values.

Theorem C33_errors m inflate sort fuel ds file srv rs e idx cnt dst :
  addr_sort sort -> sizes_ok ds -> honours file srv ->
  safe_read ds e idx cnt dst fuel -> s3_new m ds srv = Ok rs ->
  (exists c, needs ds idx cnt c /\ ~ readable inflate file ds c) ->
  forall x d, s3_read m inflate sort fuel rs e dst x d -> exists z, x = Err z.
Proof.
  intros HS HZ HH HR HN (c & Hc & Hn) x d HX. apply (safe_read_ok m) in HR as HO.
  pose proof (ss_pos _ (rg_sizes _ (sf_reg _ _ _ _ _ _ HR))) as Hd. pose proof (sf_len _ _ _ _ _ _ HR) as HW.
  assert (HA : same_addr ds) by apply HR.
  unfold s3_new in HN. apply bind_ok in HN as (csz & EZ & HN). injection HN as <-.
  apply csize_fresh in EZ; [|apply HR|apply HR]. subst csz.
  destruct (s3_cases m inflate sort ds srv e idx cnt dst fuel x d HS HZ HO HX) as [-> |?]; auto.
  apply (s3_plain m inflate sort fuel ds (csize ds) srv file e dst HS HA Hd HZ HW (honours_truthful _ _ HH)) in HX.
  destruct (plain_cases m inflate file ds e idx cnt dst fuel HO) as [[A _]|[_ (z & d' & E)]]; [|congruence].
  exfalso. apply Hn. now apply A.
Qed.
Print Assumptions C33_errors.

(** A server for the example object: ranges get 206, ranges outside it 416. *)
Definition st_server (s e : N) : response :=
  if e <? lenN st_file then Resp 206 (file_bytes st_file s (e + 1 - s)) else Resp 416 [].
Example C33_case m : honours st_file st_server /\ sizes_ok st_ds /\
  safe_read st_ds st_sel [1; 2] [3; 4] (repeat 9 30) 13 /\
  exists rs qs, s3_new m st_ds st_server = Ok rs /\
    (let* gs := group_chunk_slices sort_by_addr m 13 st_ds st_sel in group_requests m gs) = Ok qs /\
    length (flat_map req_chunks qs) = 4%nat /\
    s3_loop m toy_inflate st_server st_ds 12 (rev qs) (repeat 9 30) =
      (Ok tt, [12;201; 13;201; 14;201; 15;201; 22;202; 23;202; 24;202; 25;202; 32;203; 33;203; 34;203; 35;203;
               9; 9; 9; 9; 9; 9]).
Proof.
  split; [|split; [|split]].
  - intros s e Hse. unfold st_server. destruct (N.ltb_spec e (lenN st_file)).
    + left. auto.
    + right. right. repeat split; auto; discriminate.
  - intros c. cbn [st_ds d_chunks In]. intros [<-|[<-|[<-|[<-|[]]]]]; split; reflexivity.
  - apply st_safe; vm_compute; auto; try discriminate.
  - exists (mkS3 st_ds st_server 12). eexists. split; [destruct m; reflexivity|].
    split; [destruct m; vm_compute; reflexivity|]. split; destruct m; vm_compute; reflexivity.
Qed.

(** The condition on sizes is needed: a stored chunk of no bytes at address 0 (which no
    local read minds more than any other undecodable chunk) makes a debug build panic. *)
Definition empty_chunk_ds : dataset :=
  mkDataset (Int 1) 1 LE [mkChunk 0 0 [0]] [2] [2] [1] [1] [1] [1] false (Some 4).
Theorem C33_empty_chunk_refuted srv inflate sort : addr_sort sort -> inflate [] = None ->
  let e := Extents [SliceCount 0 2] in
  (forall file, exists r, cache_new Debug empty_chunk_ds file = Ok r /\
     fst (fst (cache_read Debug inflate 3 r e (repeat 0 2))) = Err EDecode) /\
  (forall x d, s3_read Debug inflate sort 3 (mkS3 empty_chunk_ds srv 2) e (repeat 0 2) x d -> x = Panic).
Proof.
  intros HS HI e. split.
  - intros file. eexists. split; [reflexivity|]. unfold cache_read.
    cbn. unfold load, read_chunk, read_exact. cbn. unfold decompress. cbn. rewrite HI. reflexivity.
  - intros x d HR.
    assert (EG : group_chunk_slices sort Debug 3 empty_chunk_ds e = Ok [(mkChunk 0 0 [0], 0, 0, 2)]).
    { unfold group_chunk_slices. replace (dest_slices Debug 3 empty_chunk_ds e) with (@Ok (list gsegment) [(mkChunk 0 0 [0], 0, 0, 2)]) by reflexivity.
      cbn [bind]. destruct (HS [(mkChunk 0 0 [0], 0, 0, 2)]) as [P _]. apply Permutation_sym, Permutation_length_1_inv in P. now rewrite P. }
    assert (EQ : group_requests Debug [(mkChunk 0 0 [0], 0, 0, 2)] = Ok [mkReq 0 0 [(mkChunk 0 0 [0], [(0, 0, 2)])]]) by reflexivity.
    inversion HR as [x' E1 E2|v' x' E1 E2 E3|v' qs order x' d1 E1 E2 E3 E4 E5]; subst; cbn [s3_ds s3_srv s3_csz] in *.
    + exfalso. eapply E2. reflexivity.
    + exfalso. rewrite EG in E3. cbn [bind] in E3. rewrite EQ in E3. eapply E3. reflexivity.
    + rewrite EG in E2. cbn [bind] in E2. rewrite EQ in E2. injection E2 as <-.
      apply Permutation_sym, Permutation_length_1_inv in E3. subst order. cbn in E4. injection E4 as <- <-. reflexivity.
Qed.
Print Assumptions C33_empty_chunk_refuted.

(** ** C34 *)

(** One request, any server, any build: the response is used exactly if it may be, and
    otherwise the request is an error. *)
Theorem C34_fetch m srv q : q_start q < q_end q -> q_end q < W64 ->
  (exists body status, srv (q_start q) (q_end q - 1) = Resp status body /\ fetch m srv q = Ok body /\
     (status = 206 \/ (status = 200 /\ q_start q = 0)) /\ q_end q - q_start q <= lenN body) \/
  (~ usable (q_start q) (q_end q) (srv (q_start q) (q_end q - 1)) /\ exists e, fetch m srv q = Err e).
Proof. intros A B. destruct (fetch_usable m srv q A B) as [(b & st & H1 & H2 & H3)|H]; [left; exists b, st; auto|auto]. Qed.
Print Assumptions C34_fetch.

(** A whole read, any server: if it succeeds, every response was usable. *)
Theorem C34_success_used m inflate sort fuel ds srv csz e dst v d : addr_sort sort -> sizes_ok ds ->
  s3_read m inflate sort fuel (mkS3 ds srv csz) e dst (Ok v) d ->
  exists gs qs, group_chunk_slices sort m fuel ds e = Ok gs /\ group_requests m gs = Ok qs /\
    Forall (fun q => usable (q_start q) (q_end q) (srv (q_start q) (q_end q - 1))) qs.
Proof.
  intros HS HZ HR.
  inversion HR as [x' E1 E2|v' x' E1 E2 E3|v' qs order x' d1 E1 E2 E3 E4 E5]; subst; cbn [s3_ds s3_srv s3_csz] in *.
  - now edestruct E2.
  - destruct (let* gs := _ in _) in *; discriminate.
  - apply bind_ok in E2 as (G & EG & EQ). exists G, qs. split; auto. split; auto.
    destruct x' as [[]| | | |]; try discriminate. apply loop_used in E4.
    destruct (req_setup m sort fuel ds e G qs HS HZ EG EQ) as (_ & _ & HQ).
    apply Forall_forall. intros q Hq. rewrite Forall_forall in HQ, E4. destruct (HQ q Hq) as (HG & Hse & _).
    destruct (E4 q) as (b & Eb); [eapply Permutation_in; [symmetry; exact E3|auto]|].
    destruct (fetch_ok_usable m srv q b ltac:(lia) ltac:(lia) Eb) as (st & -> & HU). exact HU.
Qed.
Print Assumptions C34_success_used.

(** Safe selections, any server: every run ends with the full count or an error, and with
    an error if the response to some request of the read is not usable. *)
Theorem C34_rejected m inflate sort fuel ds srv rs e idx cnt dst :
  addr_sort sort -> sizes_ok ds -> safe_read ds e idx cnt dst fuel -> s3_new m ds srv = Ok rs ->
  (forall x d, s3_read m inflate sort fuel rs e dst x d -> x = Ok (prodN cnt * d_dsize ds) \/ exists z, x = Err z) /\
  (exists gs qs, group_chunk_slices sort m fuel ds e = Ok gs /\ group_requests m gs = Ok qs /\
    ((exists q, In q qs /\ ~ usable (q_start q) (q_end q) (srv (q_start q) (q_end q - 1))) ->
     forall x d, s3_read m inflate sort fuel rs e dst x d -> exists z, x = Err z)).
Proof.
  intros HS HZ HR HN. apply (safe_read_ok m) in HR as HO.
  unfold s3_new in HN. apply bind_ok in HN as (csz & EZ & HN). injection HN as <-.
  apply csize_fresh in EZ; [|apply HR|apply HR]. subst csz.
  pose proof (fun x d => s3_cases m inflate sort ds srv e idx cnt dst fuel x d HS HZ HO) as SC.
  split; [exact SC|].
  destruct (read_reqs m sort ds e idx cnt dst fuel HS HZ HO) as (G & qs & EG & EQ & _).
  exists G, qs. split; auto. split; auto. intros (q & Hq & HU) x d HX.
  destruct (SC x d HX) as [-> |?]; auto. exfalso.
  destruct (C34_success_used m inflate sort fuel ds srv (csize ds) e dst _ d HS HZ HX) as (G' & qs' & EG' & EQ' & HF).
  rewrite EG in EG'. injection EG' as <-. rewrite EQ in EQ'. injection EQ' as <-.
  rewrite Forall_forall in HF. now apply HU, HF.
Qed.
Print Assumptions C34_rejected.

(** "Instead of wrong data": a server that may refuse, fail or cut short any response, but
    does not put wrong bytes in a usable one, never makes a read succeed with other data
    than a local read gives.  Any dataset without empty chunks, any selection. *)
Theorem C34_no_wrong_data m inflate sort fuel ds file srv rs rc e dst v d :
  addr_sort sort -> same_addr ds -> 0 < d_dsize ds -> sizes_ok ds -> lenN dst < W64 -> truthful file srv ->
  s3_new m ds srv = Ok rs -> reachable m inflate ds file rc ->
  s3_read m inflate sort fuel rs e dst (Ok v) d -> fst (cache_read m inflate fuel rc e dst) = (Ok v, d).
Proof.
  intros HS HA Hd HZ HW HH HN HC HX.
  rewrite (cache_read_reachable m inflate ds file rc fuel e dst HA HC).
  destruct (reachable_inv m inflate ds file rc HA HC) as (_ & _ & EZ & _).
  unfold s3_new in HN. rewrite EZ in HN. cbn [bind] in HN. injection HN as <-.
  exact (proj1 (s3_plain m inflate sort fuel ds (cr_csz rc) srv file e dst HS HA Hd HZ HW HH) v d HX).
Qed.
Print Assumptions C34_no_wrong_data.

(** A server that ignores ranges and one that cuts every response short: both truthful,
    neither usable for the example read (whose first request starts at byte 4). *)
Example C34_case :
  truthful st_file (fun _ _ => Resp 200 st_file) /\
  truthful st_file (fun s e => Resp 206 (file_bytes st_file s (e - s))) /\
  exists qs, (let* gs := group_chunk_slices sort_by_addr Debug 13 st_ds st_sel in group_requests Debug gs) = Ok qs /\
    qs <> [] /\ Forall (fun q => ~ usable (q_start q) (q_end q) (Resp 200 st_file)) qs.
Proof.
  split; [|split].
  - intros s e Hse. cbn [usable]. intros [[H|[_ ->]] HL]; [discriminate|]. rewrite N.sub_0_r in *. split; [lia|reflexivity].
  - intros s e Hse. cbn [usable]. intros [_ HL]. exfalso. unfold file_bytes, lenN in HL.
    rewrite firstn_length in HL. lia.
  - eexists. split; [vm_compute; reflexivity|]. split; [discriminate|].
    repeat constructor; cbn [q_start q_end]; intros [[H|[_ H]] _]; discriminate.
Qed.
