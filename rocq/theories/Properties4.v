(** * Property theorems C02, C13, C14, C21-C30: the readers.

    Each theorem is followed by a concrete case meeting its hypotheses. *)
From Verif Require Import Base Spec Safe Extent Chunk Dataset Slicer SpecApi ExtentProofs ApiLemmas Termination
  GroupProofs SliceProps Filters SpecFilter FilterProps Reader SpecReader CacheProofs DirectProofs ParProofs
  ReadProofs ReaderProps StreamProofs Examples ExamplesReader.

Lemma safe_read_ok m ds e idx cnt dst fuel : safe_read ds e idx cnt dst fuel -> read_ok m ds e idx cnt dst fuel.
Proof.
  intros [A B C D E F G H]. constructor; auto. now apply safe_right.
Qed.

(** ** C02 (readers) *)

Theorem C02_readers m inflate sort fuel l dst :
  (forall r, length l <> length (d_shape (cr_ds r)) ->
     cache_read m inflate fuel r (Extents l) dst = (Err ERank, dst, r)) /\
  (forall r, length l <> length (d_shape (dr_ds r)) ->
     direct_read m inflate sort fuel r (Extents l) dst = (Err ERank, dst) /\
     forall x d, par_read m inflate sort fuel r (Extents l) dst x d -> x = Err ERank /\ d = dst).
Proof.
  assert (RS : forall ds, length l <> length (d_shape ds) -> read_size m ds (Extents l) dst = Err ERank).
  { intros ds H. unfold read_size. now rewrite get_counts_rank. }
  split; intros r H; specialize (RS _ H).
  - unfold cache_read. now rewrite RS.
  - split; [unfold direct_read; now rewrite RS|]. intros x d HR.
    inversion HR as [x' E1 E2|v' x' E1 E2 E3|v' G' final d' x' E1 E2 E3 E4 E5]; subst; try congruence. auto.
Qed.
Print Assumptions C02_readers.
Example C02_readers_case : length [Index 1] <> length (d_shape st_ds).
Proof. discriminate. Qed.

(** The streams do not return an error: they panic. *)
Theorem C02_streams_refuted m inflate fuel file l : length l <> length (d_shape st_ds) ->
  stream m inflate fuel (mkStreamer st_ds file 12) (Extents l) = Panic.
Proof.
  intros H. unfold stream, collect_slices, chunk_slices, chunk_slicer. cbn [sr_ds].
  rewrite get_start_count_rank by auto. reflexivity.
Qed.
Print Assumptions C02_streams_refuted.

(** ** C13 (readers) *)

(** The destination is untouched whatever the result; the result is success when the
    selection's size is representable and fits the destination. *)
Theorem C13_readers m inflate sort ds e idx cnt fuel dst :
  addr_sort sort ->
  get_start_count e (d_shape ds) = Ok (idx, cnt) ->
  Forall2 (fun i n => i + n < W64) idx cnt ->
  (In 0 cnt \/ exists j i n s, nth_error idx j = Some i /\ nth_error cnt j = Some n /\
                              nth_error (d_shape ds) j = Some s /\ s < i + n) ->
  (0 < fuel)%nat ->
  let fits := fits64_lead cnt /\ prodN cnt * d_dsize ds <= lenN dst /\ prodN cnt * d_dsize ds < W64 in
  (forall r, cr_ds r = ds -> exists x, cache_read m inflate fuel r e dst = (x, dst, r) /\
     (fits -> x = Ok (prodN cnt * d_dsize ds))) /\
  (forall r file, dr_ds r = ds -> dr_file r = Some file ->
     (exists x, direct_read m inflate sort fuel r e dst = (x, dst) /\ (fits -> x = Ok (prodN cnt * d_dsize ds))) /\
     (forall x d, par_read m inflate sort fuel r e dst x d -> d = dst /\ (fits -> x = Ok (prodN cnt * d_dsize ds)))).
Proof.
  intros HSort HG HW HO Hf fits.
  pose proof (oob_segments m ds e idx cnt fuel HG HW HO Hf) as ES.
  assert (EG : group_chunk_slices sort m fuel ds e = Ok []).
  { unfold group_chunk_slices, dest_slices. rewrite ES. cbn [scan_dest bind].
    destruct (HSort []) as [P _]. apply Permutation_sym, Permutation_nil in P. now rewrite P. }
  assert (RF : fits -> read_size m ds e dst = Ok (prodN cnt * d_dsize ds)).
  { intros (A & B & C). rewrite (read_size_eq m ds e dst idx cnt); auto. now rewrite (proj2 (N.leb_le _ _) B). }
  split.
  - intros [rds rf rcap rcsz rca] Hr. cbn [cr_ds] in Hr. subst rds. unfold cache_read. cbn [cr_ds cr_file cr_cap cr_csz cr_cache].
    rewrite ES. cbn [cache_loop stop_res bind].
    destruct (read_size m ds e dst) as [v| | | |] eqn:ER; eexists; (split; [reflexivity|intros Hfit; specialize (RF Hfit); congruence]).
  - intros r file Hr Hfile. split.
    + unfold direct_read. rewrite Hr, EG, Hfile. cbn [direct_loop bind].
      destruct (read_size m ds e dst) as [v| | | |] eqn:ER; eexists; (split; [reflexivity|intros Hfit; specialize (RF Hfit); congruence]).
    + intros x d HR.
      inversion HR as [x' E1 E2|v' x' E1 E2 E3|v' G' final d' x' E1 E2 E3 E4 E5]; subst.
      * split; auto.
      * exfalso. now apply E3 in EG.
      * rewrite EG in E2. injection E2 as <-. cbn [chunk_by_addr map] in E3.
        assert (final = [] /\ d = dst) as [-> ->].
        { inversion E3 as [|s0 t0 u HS HP]; subst; auto. exfalso. inversion HS; subst; destruct l1; discriminate. }
        split; auto. intros Hfit. apply RF in Hfit. rewrite E1 in Hfit. injection Hfit as ->.
        inversion E5 as [H|H H0|z H H0 H1|H]; subst; try easy.
Qed.
Print Assumptions C13_readers.
Example C13_readers_case : fits64_lead [3; 4] /\ prodN [3; 4] * d_dsize st_ds <= lenN (repeat 0 24) /\
  prodN [3; 4] * d_dsize st_ds < W64.
Proof.
  split; [|split; [vm_compute; discriminate|reflexivity]]. intros [|[|[|k]]]; reflexivity.
Qed.

(** ** C14 *)

(** False of the code: rows 0..4, columns 3..7 of the 4 x 6 dataset do not all exist, yet
    every reader succeeds, reporting 32 bytes read, and leaves in the destination whatever
    was there. *)
Theorem C14_refuted m dst sort : addr_sort sort -> 32 <= lenN dst ->
  let e := Extents [SliceCount 0 4; SliceCount 3 4] in
  get_start_count e (d_shape st_ds) = Ok ([0; 3], [4; 4]) /\ ~ in_shape [0; 6] (d_shape st_ds) /\
  In [0; 6] (slab [0; 3] [4; 4]) /\
  (forall r, cr_ds r = st_ds -> cache_read m toy_inflate 1 r e dst = (Ok 32, dst, r)) /\
  (direct_read m toy_inflate sort 1 (mkDirect st_ds (Some st_file) 12) e dst = (Ok 32, dst)) /\
  (forall x d, par_read m toy_inflate sort 1 (mkDirect st_ds (Some st_file) 12) e dst x d -> x = Ok 32 /\ d = dst).
Proof.
  intros HSort HL e.
  assert (HG : get_start_count e (d_shape st_ds) = Ok ([0; 3], [4; 4])) by reflexivity.
  split; auto. split.
  { intros H. inversion H as [|? ? ? ? _ H1]; subst. inversion H1 as [|? ? ? ? H2 _]; subst. cbn in H2. lia. }
  split. { do 3 right. left. reflexivity. }
  assert (HF : fits64_lead [4; 4] /\ prodN [4; 4] * d_dsize st_ds <= lenN dst /\ prodN [4; 4] * d_dsize st_ds < W64).
  { split; [intros [|[|[|k]]]; reflexivity|]. split; [exact HL|reflexivity]. }
  destruct (C13_readers m toy_inflate sort st_ds e [0; 3] [4; 4] 1 dst HSort HG) as [A B]; auto.
  { repeat constructor. }
  { right. exists 1%nat, 3, 4, 6. repeat split; reflexivity. }
  destruct (B (mkDirect st_ds (Some st_file) 12) st_file eq_refl eq_refl) as [B1 B2].
  split; [|split].
  - intros r Hr. destruct (A r Hr) as (x & E & Hx). rewrite E. now rewrite Hx.
  - destruct B1 as (x & E & Hx). rewrite E. now rewrite Hx.
  - intros x d HR. destruct (B2 x d HR) as [-> Hx]. auto.
Qed.
Print Assumptions C14_refuted.

(** ** C21 *)

(** [reachable] readers: any reader made by any sequence of reads, with any outcome, from a
    new one (ReaderProps.v).  Missing for the full property: selections outside [sel_safe]
    (where the segments can be wrong, C11_refuted). *)
Theorem C21_cached_partial m inflate file ds value e idx cnt dst fuel r :
  stores inflate file ds value -> safe_read ds e idx cnt dst fuel -> reachable m inflate ds file r ->
  fst (cache_read m inflate fuel r e dst) =
    (Ok (prodN cnt * d_dsize ds),
     concat (map value (slab idx cnt)) ++ skipn (N.to_nat (prodN cnt * d_dsize ds)) dst) /\
  lenN (concat (map value (slab idx cnt))) = prodN cnt * d_dsize ds.
Proof.
  intros HS HR HC. assert (HA : same_addr ds) by apply HS.
  rewrite (cache_read_reachable m inflate ds file r fuel e dst HA HC).
  destruct (reachable_inv m inflate ds file r HA HC) as (_ & _ & HZ & _).
  apply csize_fresh in HZ; [|apply HR|apply HS]. rewrite HZ.
  destruct HR as [A B C D E F G H]. destruct (st_sizes _ _ _ _ HS) as [S1 S2 S3 S4].
  apply plain_read_values; auto.
  - intros c (x & k & _ & Hh & _). now apply stores_loads.
  - now apply safe_right.
Qed.
Print Assumptions C21_cached_partial.

(** The same whenever the segments are right, however that is established. *)
Theorem C21_cached_right_partial m inflate file ds value e idx cnt dst fuel r :
  stores inflate file ds value -> read_ok m ds e idx cnt dst fuel -> reachable m inflate ds file r ->
  fst (cache_read m inflate fuel r e dst) =
    (Ok (prodN cnt * d_dsize ds),
     concat (map value (slab idx cnt)) ++ skipn (N.to_nat (prodN cnt * d_dsize ds)) dst).
Proof.
  intros HS HR HC. assert (HA : same_addr ds) by apply HS.
  rewrite (cache_read_reachable m inflate ds file r fuel e dst HA HC).
  destruct (reachable_inv m inflate ds file r HA HC) as (_ & _ & HZ & _).
  apply csize_fresh in HZ; [|apply HR|apply HS]. rewrite HZ.
  destruct HR as [A B C D E F G H]. destruct (st_sizes _ _ _ _ HS) as [S1 S2 S3 S4].
  apply plain_read_values; auto.
  intros c (x & k & _ & Hh & _). now apply stores_loads.
Qed.
Print Assumptions C21_cached_right_partial.
Example C21_case m :
  stores toy_inflate st_file st_ds st_value /\
  safe_read st_ds st_sel [1; 2] [3; 4] (repeat 9 30) 13 /\
  exists r, cache_new m st_ds st_file = Ok r /\ reachable m toy_inflate st_ds st_file r /\
    fst (cache_read m toy_inflate 13 r st_sel (repeat 9 30)) =
      (Ok 24, [12;201; 13;201; 14;201; 15;201; 22;202; 23;202; 24;202; 25;202; 32;203; 33;203; 34;203; 35;203;
               9; 9; 9; 9; 9; 9]).
Proof.
  split; [exact st_stores|]. split; [apply st_safe; vm_compute; auto; try discriminate|].
  exists (mkCR st_ds st_file 2796202 12 []).
  assert (E : cache_new m st_ds st_file = Ok (mkCR st_ds st_file 2796202 12 [])) by (destruct m; vm_compute; reflexivity).
  split; auto. split; [now constructor|]. destruct m; vm_compute; reflexivity.
Qed.

(** ** C22 *)

(** One operation: reader number, selection, destination (and the model's bound). *)
Definition op : Type := (nat * extents * bytes * nat)%type.

Fixpoint set_nth {A} (l : list A) (i : nat) (a : A) : list A :=
  match l, i with
  | [], _ => []
  | _ :: l', O => a :: l'
  | x :: l', S i' => x :: set_nth l' i' a
  end.

(** The results of a history of operations on a pool of readers, one after the other in
    the given order (any interleaving of the readers' own sequences). *)
Fixpoint run_pool (m : mode) (inflate : bytes -> option bytes) (pool : list creader) (ops : list op)
    : list (res N * bytes) :=
  match ops with
  | [] => []
  | (i, e, dst, fuel) :: ops' =>
      match nth_error pool i with
      | Some r =>
          let '(x, d, r') := cache_read m inflate fuel r e dst in
          (x, d) :: run_pool m inflate (set_nth pool i r') ops'
      | None => run_pool m inflate pool ops'
      end
  end.

(** The results if every operation were made on a freshly created reader. *)
Definition run_fresh (m : mode) (inflate : bytes -> option bytes) (fresh : list creader) (ops : list op)
    : list (res N * bytes) :=
  flat_map (fun '(i, e, dst, fuel) =>
    match nth_error fresh i with
    | Some r => [fst (cache_read m inflate fuel r e dst)]
    | None => []
    end) ops.

(** [src]: the dataset and file of each reader. *)
Lemma run_pool_fresh m inflate (src : list (dataset * bytes)) fresh ops :
  Forall2 (fun '(ds, file) r => same_addr ds /\ cache_new m ds file = Ok r) src fresh ->
  forall pool, Forall2 (fun '(ds, file) r => reachable m inflate ds file r) src pool ->
  run_pool m inflate pool ops = run_fresh m inflate fresh ops.
Proof.
  intros HF. induction ops as [|[[[i e] dst] fuel] ops IH]; intros pool HP; [reflexivity|].
  cbn [run_pool]. unfold run_fresh. cbn [flat_map]. fold (run_fresh m inflate fresh ops).
  assert (NE : forall (R : dataset * bytes -> creader -> Prop) l, Forall2 R src l ->
     forall j, match nth_error src j, nth_error l j with Some s, Some r => R s r | None, None => True | _, _ => False end).
  { clear. intros R l H. induction H as [|s r src l H HF IH]; intros [|j]; cbn [nth_error]; auto. apply IH. }
  pose proof (NE _ _ HF i) as A. pose proof (NE _ _ HP i) as B.
  destruct (nth_error src i) as [[ds file]|] eqn:Es, (nth_error fresh i) as [rf|] eqn:Ef, (nth_error pool i) as [r|] eqn:Er; try tauto.
  - destruct A as [HA HN].
    pose proof (cache_read_reachable m inflate ds file r fuel e dst HA B) as E1.
    pose proof (cache_read_reachable m inflate ds file rf fuel e dst HA (rc_new _ _ _ _ _ HN)) as E2.
    destruct (reachable_inv m inflate ds file r HA B) as (_ & _ & Z1 & _).
    destruct (reachable_inv m inflate ds file rf HA (rc_new _ _ _ _ _ HN)) as (_ & _ & Z2 & _).
    assert (EZ : cr_csz r = cr_csz rf) by congruence. rewrite EZ, <- E2 in E1.
    pose proof (rc_read m inflate ds file r fuel e dst B) as RN.
    destruct (cache_read m inflate fuel r e dst) as [[x d] r'] eqn:Ec. cbn [fst snd] in *.
    rewrite <- E1. cbn [app]. f_equal. apply IH.
    (* the pool stays reachable *)
    clear -HP Es Er RN. revert i Es Er. induction HP as [|[d0 f0] r0 src pool H HP IH]; intros [|i] Es Er; cbn [nth_error set_nth] in *; try discriminate.
    + injection Es as -> ->. constructor; auto.
    + constructor; eauto.
  - cbn [app]. now apply IH.
Qed.

Theorem C22_cache_invisible m inflate src fresh ops :
  Forall2 (fun '(ds, file) r => same_addr ds /\ cache_new m ds file = Ok r) src fresh ->
  run_pool m inflate fresh ops = run_fresh m inflate fresh ops.
Proof.
  intros H. apply (run_pool_fresh m inflate src fresh ops H fresh).
  clear ops. induction H as [|[ds file] r src fresh [_ H] HF IH]; constructor; auto. now constructor.
Qed.
Print Assumptions C22_cache_invisible.
Example C22_case m : exists r, Forall2 (fun '(ds, file) r => same_addr ds /\ cache_new m ds file = Ok r)
  [(st_ds, st_file); (st_ds, firstn 55 st_file)] [r; mkCR st_ds (firstn 55 st_file) 2796202 12 []].
Proof.
  eexists. repeat constructor; try apply st_regular; try (destruct m; vm_compute; reflexivity).
Qed.

(** ** C23 *)

Definition cached_bytes (r : creader) : N := sumN (map (fun kv => lenN (snd kv)) (cr_cache r)).

Theorem C23_bounded m inflate ds file r csz :
  reachable m inflate ds file r -> chunk_bytes m ds = Ok csz ->
  lenN (cr_cache r) <= N.max 1 (32 * 1024 * 1024 / csz) /\
  NoDup (map fst (cr_cache r)) /\
  ((forall c data, In c (d_chunks ds) -> load m inflate file ds csz c = Ok data -> lenN data <= csz) ->
   cached_bytes r <= N.max (32 * 1024 * 1024) csz).
Proof.
  intros HR HZ.
  assert (G : forall B, (forall c v, In c (d_chunks ds) -> load m inflate file ds csz c = Ok v -> entry_ok B (c_addr c, v)) ->
     cr_ds r = ds /\ cr_file r = file /\ cr_csz r = csz /\ cache_cap csz = Ok (cr_cap r) /\
     lru_ok (cr_cap r) (entry_ok B) (cr_cache r)).
  { intros B HB. induction HR as [r H|r fuel e dst H IH].
    - unfold cache_new in H. rewrite HZ in H. cbn [bind] in H. apply bind_ok in H as (cap & E2 & H). injection H as <-.
      cbn [cr_ds cr_file cr_csz cr_cap cr_cache]. refine (conj eq_refl (conj eq_refl (conj eq_refl (conj E2 _)))).
      split; [unfold lenN; cbn [length]; lia|]. split; constructor.
    - destruct IH as (A1 & A2 & A3 & A4 & A5).
      assert (EQ : let r' := snd (cache_read m inflate fuel r e dst) in
                   cr_ds r' = cr_ds r /\ cr_file r' = cr_file r /\ cr_csz r' = cr_csz r /\ cr_cap r' = cr_cap r).
      { unfold cache_read. destruct (read_size m (cr_ds r) e dst); cbn [snd]; auto.
        destruct (chunk_slices m fuel (cr_ds r) e) as [segs st]. destruct (cache_loop _ _ _ _ _ _ _ _) as [[x d] c]. auto. }
      destruct EQ as (Q1 & Q2 & Q3 & Q4). rewrite Q1, Q2, Q3, Q4. do 4 (split; auto).
      apply (cache_read_ok m inflate fuel r B e dst); auto.
      + unfold cache_cap in A4. apply bind_ok in A4 as (q & _ & A4). injection A4 as <-. lia.
      + intros c v HL Hin. unfold rload in HL. rewrite A1, A2, A3 in HL. apply HB; auto. now rewrite <- A1. }
  destruct (G None) as (A1 & A2 & A3 & A4 & (L & ND & _)); [easy|].
  assert (EC : cr_cap r = N.max (32 * 1024 * 1024 / csz) 1 /\ 0 < csz).
  { unfold cache_cap, div64 in A4. destruct (N.eqb_spec csz 0); [discriminate|]. cbn [bind] in A4. injection A4 as <-.
    split; [reflexivity|lia]. }
  destruct EC as [EC Hpos].
  split; [rewrite N.max_comm, <- EC; exact L|]. split; auto.
  intros HB. destruct (G (Some csz)) as (_ & _ & _ & _ & (_ & _ & F)).
  { intros c v Hc Hv. cbn. eauto. }
  assert (HS : cached_bytes r <= lenN (cr_cache r) * csz).
  { unfold cached_bytes. clear -F. induction F as [|[k v] c H HF IH]; cbn [map sumN]; [unfold lenN; cbn; lia|].
    rewrite lenN_cons. cbn [entry_ok snd] in *. lia. }
  rewrite EC in L.
  assert (HD : csz * (32 * 1024 * 1024 / csz) <= 32 * 1024 * 1024) by (apply N.mul_div_le; lia).
  set (q := 32 * 1024 * 1024 / csz) in *. set (M := 32 * 1024 * 1024) in *. clearbody q M. nia.
Qed.
Print Assumptions C23_bounded.
Example C23_case m : chunk_bytes m st_ds = Ok 12 /\
  (exists r, reachable m toy_inflate st_ds st_file r /\ lenN (cr_cache r) = 4).
Proof.
  split; [destruct m; reflexivity|].
  exists (snd (cache_read m toy_inflate 13 (mkCR st_ds st_file 2796202 12 []) st_sel (repeat 9 30))).
  split; [|destruct m; vm_compute; reflexivity].
  apply rc_read. apply rc_new. destruct m; vm_compute; reflexivity.
Qed.
(** The hypothesis on decoded sizes holds for regular datasets. *)
Theorem C23_regular m inflate ds file c data : regular ds -> In c (d_chunks ds) ->
  load m inflate file ds (csize ds) c = Ok data -> lenN data <= csize ds.
Proof.
  intros HR Hc E. destruct (load_total m inflate file ds c HR Hc) as [[_ (d & Ed & L)]|[_ (z & Ez)]]; [|congruence].
  rewrite E in Ed. injection Ed as <-. lia.
Qed.
Print Assumptions C23_regular.

(** ** C24 *)

(** Any dataset, any selection, any build: success on the same inputs, with the same
    count and buffer. *)
Theorem C24_agree m inflate sort fuel ds file rc rd e dst v d :
  addr_sort sort -> same_addr ds -> 0 < d_dsize ds -> lenN dst < W64 ->
  reachable m inflate ds file rc -> direct_new m ds (Some file) = Ok rd ->
  (fst (cache_read m inflate fuel rc e dst) = (Ok v, d) <->
   direct_read m inflate sort fuel rd e dst = (Ok v, d)).
Proof.
  intros HSort HA Hd HW HC HD.
  rewrite (cache_read_reachable m inflate ds file rc fuel e dst HA HC).
  destruct (reachable_inv m inflate ds file rc HA HC) as (_ & _ & HZ & _).
  unfold direct_new in HD. apply bind_ok in HD as (csz & E & HD). injection HD as <-.
  rewrite HZ in E. injection E as <-. symmetry.
  exact (direct_read_iff m inflate sort fuel (mkDirect ds (Some file) (cr_csz rc)) file e dst v d HSort HA Hd HW eq_refl).
Qed.
Print Assumptions C24_agree.
(** Regular datasets and safe selections: no other outcome than success or an error, and an
    error in both or in none.  (The error code and the partly written buffer may differ:
    the direct reader visits chunks in address order.) *)
Theorem C24_errors m inflate sort fuel ds file rc rd e idx cnt dst :
  addr_sort sort -> safe_read ds e idx cnt dst fuel ->
  reachable m inflate ds file rc -> direct_new m ds (Some file) = Ok rd ->
  ((exists v d, fst (cache_read m inflate fuel rc e dst) = (Ok v, d) /\
                direct_read m inflate sort fuel rd e dst = (Ok v, d)) \/
   (exists z z' d d', fst (cache_read m inflate fuel rc e dst) = (Err z, d) /\
                      direct_read m inflate sort fuel rd e dst = (Err z', d'))).
Proof.
  intros HSort HR HC HD. apply (safe_read_ok m) in HR as HO. assert (HA : same_addr ds) by apply HR.
  pose proof (fun v d => C24_agree m inflate sort fuel ds file rc rd e dst v d HSort HA
     (ss_pos _ (rg_sizes _ (sf_reg _ _ _ _ _ _ HR))) (sf_len _ _ _ _ _ _ HR) HC HD) as AG.
  rewrite (cache_read_reachable m inflate ds file rc fuel e dst HA HC) in *.
  destruct (reachable_inv m inflate ds file rc HA HC) as (_ & _ & HZ & _).
  unfold direct_new in HD. apply bind_ok in HD as (csz & E & HD). injection HD as <-.
  rewrite HZ in E. injection E as <-. apply csize_fresh in HZ; [|apply HR|apply HR]. rewrite HZ in *.
  destruct (plain_cases m inflate file ds e idx cnt dst fuel HO) as [[_ (d & E)]|[HE (x & d & E)]].
  - left. exists (prodN cnt * d_dsize ds), d. split; auto. now apply AG.
  - right. destruct (direct_cases m inflate sort (mkDirect ds (Some file) (csize ds)) file e idx cnt dst fuel HSort eq_refl eq_refl HO)
      as [[_ (d' & E')]|[_ (x' & d' & E')]].
    + apply AG in E'. congruence.
    + eauto 8.
Qed.
Print Assumptions C24_errors.
Example C24_case m : addr_sort sort_by_addr /\ same_addr st_ds /\ 0 < d_dsize st_ds /\
  exists rd, direct_new m st_ds (Some st_file) = Ok rd /\
    fst (direct_read m toy_inflate sort_by_addr 13 rd st_sel (repeat 9 24)) = Ok 24.
Proof.
  split; [exact sort_by_addr_ok|]. split; [apply st_regular|]. split; [reflexivity|].
  exists (mkDirect st_ds (Some st_file) 12). split; destruct m; vm_compute; reflexivity.
Qed.

(** ** C25 *)

(** [par_read] relates a call to every result and final buffer that some schedule of the
    workers can produce.  Some schedule produces one, all schedules are finite, and: if
    one schedule succeeds, the sequential read succeeds with the same count and buffer; if
    the sequential read succeeds, every schedule does.  Any dataset, selection and mode. *)
Theorem C25_schedules m inflate sort fuel ds file rd e dst :
  addr_sort sort -> same_addr ds -> 0 < d_dsize ds -> lenN dst < W64 ->
  direct_new m ds (Some file) = Ok rd ->
  (exists x d, par_read m inflate sort fuel rd e dst x d) /\
  (forall s, Acc (fun t u => pstep u t) s) /\
  (forall v d, par_read m inflate sort fuel rd e dst (Ok v) d ->
     direct_read m inflate sort fuel rd e dst = (Ok v, d)) /\
  (forall v d, direct_read m inflate sort fuel rd e dst = (Ok v, d) ->
     forall x d', par_read m inflate sort fuel rd e dst x d' -> x = Ok v /\ d' = d).
Proof.
  intros HSort HA Hd HW HD.
  unfold direct_new in HD. apply bind_ok in HD as (csz & E & HD). injection HD as <-.
  pose proof (fun v d => direct_read_iff m inflate sort fuel (mkDirect ds (Some file) csz) file e dst v d HSort HA Hd HW eq_refl) as DI.
  split; [apply par_read_total|]. split; [apply pstep_acc|]. split.
  - intros v d HR. apply DI. exact (plain_of_par m inflate sort fuel (mkDirect ds (Some file) csz) file e dst v d HSort HA Hd HW eq_refl HR).
  - intros v d HR x d' HP. apply DI in HR.
    exact (par_of_plain m inflate sort fuel (mkDirect ds (Some file) csz) file e dst v d x d' HSort HA Hd HW eq_refl HR HP).
Qed.
Print Assumptions C25_schedules.

(** Safe selections: if some needed chunk cannot be read or decoded every schedule returns
    an error; otherwise every schedule succeeds with the buffer of the sequential read; no
    byte is written twice (in either case). *)
Theorem C25_errors m inflate sort fuel ds file rd e idx cnt dst :
  addr_sort sort -> safe_read ds e idx cnt dst fuel -> direct_new m ds (Some file) = Ok rd ->
  ((exists c, needs ds idx cnt c /\ ~ readable inflate file ds c) ->
     forall x d, par_read m inflate sort fuel rd e dst x d -> exists z, x = Err z) /\
  ((forall c, needs ds idx cnt c -> readable inflate file ds c) ->
     exists d, direct_read m inflate sort fuel rd e dst = (Ok (prodN cnt * d_dsize ds), d) /\
       forall x d', par_read m inflate sort fuel rd e dst x d' -> x = Ok (prodN cnt * d_dsize ds) /\ d' = d) /\
  (exists groups, group_chunk_slices sort m fuel ds e = Ok groups /\
     NoDup (map fst (concat (map (fun g => fst (par_task m inflate rd (lenN dst) g)) (chunk_by_addr groups))))).
Proof.
  intros HSort HR HD. apply (safe_read_ok m) in HR as HO.
  pose proof HD as HD'. unfold direct_new in HD. apply bind_ok in HD as (csz & HZ & HD). injection HD as <-.
  apply csize_fresh in HZ; [|apply HR|apply HR]. subst csz.
  assert (HA : same_addr ds) by apply HR.
  pose proof (ss_pos _ (rg_sizes _ (sf_reg _ _ _ _ _ _ HR))) as Hd. pose proof (sf_len _ _ _ _ _ _ HR) as HW.
  set (rd := mkDirect ds (Some file) (csize ds)) in *.
  pose proof (fun x d => par_cases m inflate sort rd file e idx cnt dst fuel x d HSort eq_refl eq_refl HO) as PC.
  split; [|split].
  - intros (c & Hc & Hn) x d HP. destruct (PC x d HP) as [(HAll & _)|[_ ?]]; auto. exfalso. apply Hn. now apply HAll.
  - intros HAll. destruct (direct_cases m inflate sort rd file e idx cnt dst fuel HSort eq_refl eq_refl HO) as [[_ (d & E)]|[(c & Hc & Hn) _]].
    + exists d. split; auto. destruct (C25_schedules m inflate sort fuel ds file rd e dst HSort HA Hd HW HD') as (_ & _ & _ & S).
      exact (S _ _ E).
    + exfalso. apply Hn. now apply HAll.
  - destruct (group_dests m sort ds e idx cnt dst fuel HSort HO) as (segs & G & _ & EG & _).
    exists G. split; auto.
    pose proof (race_free_right m inflate sort fuel rd e idx cnt dst (lenN dst) G HSort HO EG) as RF.
    unfold written_once, tasks_of in RF. now rewrite map_map in RF.
Qed.
Print Assumptions C25_errors.

(** Debug builds: no byte is written twice, for every dataset and selection. *)
Theorem C25_race_free_debug inflate sort fuel rd e dlen groups : addr_sort sort ->
  group_chunk_slices sort Debug fuel (dr_ds rd) e = Ok groups ->
  NoDup (map fst (concat (map (fun g => fst (par_task Debug inflate rd dlen g)) (chunk_by_addr groups)))).
Proof.
  intros HS EG. pose proof (race_free_debug inflate sort fuel rd e dlen groups HS EG) as RF.
  unfold written_once, tasks_of in RF. now rewrite map_map in RF.
Qed.
Print Assumptions C25_race_free_debug.
Example C25_case : exists groups, group_chunk_slices sort_by_addr Debug 13 st_ds st_sel = Ok groups /\
  length (chunk_by_addr groups) = 4%nat /\ length groups = 6%nat.
Proof. eexists. split; [vm_compute; reflexivity|]. split; reflexivity. Qed.

(** ** C26 *)

(** Debug builds: every dataset, selection, buffer and schedule.  No write outside the
    buffer (the model's [Ub]), and nothing beyond the selection's bytes changes. *)
Theorem C26_debug_partial inflate sort fuel rd e dst x d : addr_sort sort ->
  par_read Debug inflate sort fuel rd e dst x d ->
  x <> Ub /\ length d = length dst /\
  (forall idx cnt i, get_start_count e (d_shape (dr_ds rd)) = Ok (idx, cnt) ->
     prodN cnt * d_dsize (dr_ds rd) <= N.of_nat i -> nth_error d i = nth_error dst i).
Proof. exact (par_debug inflate sort fuel rd e dst x d). Qed.
Print Assumptions C26_debug_partial.

(** Both modes, safe selections, any file (also truncated or corrupt). *)
Theorem C26_safe_partial m inflate sort fuel rd e idx cnt dst x d : addr_sort sort ->
  safe_read (dr_ds rd) e idx cnt dst fuel -> par_read m inflate sort fuel rd e dst x d ->
  x <> Ub /\ length d = length dst /\
  (forall i, prodN cnt * d_dsize (dr_ds rd) <= N.of_nat i -> nth_error d i = nth_error dst i).
Proof. intros HS HR. apply (par_right m inflate sort fuel rd e idx cnt dst x d); auto. now apply safe_read_ok. Qed.
Print Assumptions C26_safe_partial.
Example C26_case : safe_read (dr_ds (mkDirect st_ds (Some st_file) 12)) st_sel [1; 2] [3; 4] (repeat 9 24) 13.
Proof. apply st_safe; vm_compute; auto; try discriminate. Qed.

(** False in release builds: reading the last column (4 elements of 4 bytes) of a 4 x 11
    dataset in 2 x 10 chunks, from a sound file into a buffer of exactly 16 bytes, copies
    44 bytes through the raw pointer. *)
Theorem C26_release_refuted inflate :
  full_dataset col_ds /\ regular col_ds /\ sel_in (d_shape col_ds) [0; 10] [4; 1] /\
  get_start_count col_sel (d_shape col_ds) = Ok ([0; 10], [4; 1]) /\
  (forall c, In c (d_chunks col_ds) -> readable inflate (repeat 7 5000) col_ds c) /\
  (forall m, direct_new m col_ds (Some (repeat 7 5000)) = Ok (mkDirect col_ds (Some (repeat 7 5000)) 80)) /\
  par_read Release inflate sort_by_addr 5 (mkDirect col_ds (Some (repeat 7 5000)) 80) col_sel (repeat 0 16)
    Ub (repeat 0 16).
Proof.
  split; [exact col_full|]. split.
  { constructor; [constructor; [reflexivity|reflexivity|discriminate|reflexivity]| |].
    - intros c c'. cbn [col_ds d_chunks In]. intros [<-|[<-|[<-|[<-|[]]]]] [<-|[<-|[<-|[<-|[]]]]]; reflexivity.
    - intros _ c. cbn [col_ds d_chunks In]. intros [<-|[<-|[<-|[<-|[]]]]]; reflexivity. }
  split. { split; [reflexivity|]. split; [reflexivity|]. split; [repeat constructor|].
    intros [|[|[|j]]] i n s; cbn; intros; try discriminate;
    repeat match goal with H : Some _ = Some _ |- _ => injection H as <- end; lia. }
  split; [reflexivity|]. split.
  { intros c Hc. split; [right|intros H; now destruct H]. revert Hc. cbn [col_ds d_chunks In].
    intros [<-|[<-|[<-|[<-|[]]]]]; vm_compute; discriminate. }
  split; [intros []; reflexivity|].
  eapply (pa_run Release inflate sort_by_addr 5 _ col_sel (repeat 0 16) 16 _ [Done FUb] (repeat 0 16) Ub).
  - reflexivity.
  - vm_compute. reflexivity.
  - assert (E : map (fun g => Waiting (par_task Release inflate (mkDirect col_ds (Some (repeat 7 5000)) 80) (lenN (repeat 0 16)) g))
        (chunk_by_addr [(mkChunk 2000 80 [0; 10], 0, 0, 11)]) = [Waiting ([], FUb)]) by (vm_compute; reflexivity).
    rewrite E. eapply pss_step; [apply (ps_start [] [])|]. eapply pss_step; [apply (ps_finish [] [])|]. apply pss_refl.
  - repeat constructor.
  - apply pr_ub. now left.
Qed.
Print Assumptions C26_release_refuted.

(** ** C27 *)

(** Selections whose size in bytes is representable (every allocated buffer is shorter
    than 2^64 bytes). *)
Theorem C27_too_small m inflate sort fuel ds e idx cnt dst :
  get_start_count e (d_shape ds) = Ok (idx, cnt) -> fits64_lead cnt -> prodN cnt * d_dsize ds < W64 ->
  lenN dst < prodN cnt * d_dsize ds ->
  (forall r, cr_ds r = ds -> cache_read m inflate fuel r e dst = (Err ECapacity, dst, r)) /\
  (forall r, dr_ds r = ds -> direct_read m inflate sort fuel r e dst = (Err ECapacity, dst)) /\
  (forall r x d, dr_ds r = ds -> par_read m inflate sort fuel r e dst x d -> x = Err ECapacity /\ d = dst).
Proof.
  intros HG HF HW HL.
  assert (RS : read_size m ds e dst = Err ECapacity).
  { rewrite (read_size_eq m ds e dst idx cnt); auto. destruct (N.leb_spec (prodN cnt * d_dsize ds) (lenN dst)); [lia|auto]. }
  split; [|split].
  - intros r <-. unfold cache_read. now rewrite RS.
  - intros r <-. unfold direct_read. now rewrite RS.
  - intros r x d <- HR. inversion HR as [x' E1 E2|v' x' E1 E2 E3|v' G' final d' x' E1 E2 E3 E4 E5]; subst; try congruence. auto.
Qed.
Print Assumptions C27_too_small.
Example C27_case : get_start_count st_sel (d_shape st_ds) = Ok ([1; 2], [3; 4]) /\ fits64_lead [3; 4] /\ prodN [3; 4] * d_dsize st_ds < W64 /\ lenN (repeat 0 23) < prodN [3; 4] * d_dsize st_ds.
Proof. repeat split. intros [|[|[|k]]]; reflexivity. Qed.

(** ** C28, C29 *)

(** Byte view of a typed destination: [w] bytes per value.  The values read are right; the
    rest of the destination is converted from the dataset's byte order too, so it is left
    alone when that is the host's order (or unknown). *)
Theorem C28_values_to_partial m h k w inflate file ds value e idx cnt dst fuel r :
  stores inflate file ds value -> safe_read ds e idx cnt dst fuel -> reachable m inflate ds file r ->
  (0 < w)%nat -> (N.to_nat (d_dsize ds) mod w = 0)%nat -> (length dst mod w = 0)%nat ->
  let n := N.to_nat (prodN cnt * d_dsize ds) in
  values_to h k w (d_order ds) (fun e dst => fst (cache_read m inflate fuel r e dst)) e dst =
    (Ok (prodN cnt * d_dsize ds),
     to_native_slice h k w (d_order ds) (concat (map value (slab idx cnt))) ++
     to_native_slice h k w (d_order ds) (skipn n dst)) /\
  (d_order ds = native h \/ d_order ds = Unknown ->
     to_native_slice h k w (d_order ds) (skipn n dst) = skipn n dst).
Proof.
  intros HS HR HC Hw Hd Hl n.
  destruct (C21_cached_partial m inflate file ds value e idx cnt dst fuel r HS HR HC) as [E L].
  split.
  - unfold values_to. rewrite E. f_equal.
    apply Nat.mod_divides in Hd as [q Hq]; [|lia]. apply Nat.mod_divides in Hl as [z Hz]; [|lia].
    pose proof (sf_cap _ _ _ _ _ _ HR) as Hcap. unfold lenN in L, Hcap. fold n.
    assert (En : n = (w * (q * N.to_nat (prodN cnt)))%nat) by (unfold n; nia).
    apply to_native_app with (n := (q * N.to_nat (prodN cnt))%nat) (q := (z - q * N.to_nat (prodN cnt))%nat); auto.
    + rewrite <- En. unfold n. lia.
    + rewrite skipn_length, Hz, En. nia.
  - intros [-> | ->]; destruct h; reflexivity.
Qed.
Print Assumptions C28_values_to_partial.

Definition be_ds : dataset := mkDataset (Int 2) 2 BE [mkChunk 0 2 [0]] [1] [1] [1] [1] [1] [1] false None.

(** False of the code: reading the single big-endian value of a file into a two-element
    buffer on a little-endian machine swaps the bytes of the second element, which is not
    part of the selection. *)
Theorem C28_refuted m inflate k :
  full_dataset be_ds /\ regular be_ds /\
  values_to HostLE k 2 (d_order be_ds) (fun e dst => fst (cache_read m inflate 2 (mkCR be_ds [1; 2] 16777216 2 []) e dst))
    All [0; 0; 3; 4] = (Ok 2, [2; 1; 4; 3]) /\
  cache_new m be_ds [1; 2] = Ok (mkCR be_ds [1; 2] 16777216 2 []).
Proof.
  split; [|split; [|split; [destruct m, k; vm_compute; reflexivity|destruct m; vm_compute; reflexivity]]].
  - constructor; [constructor|..]; try reflexivity.
    + repeat constructor.
    + repeat split; repeat constructor.
  - constructor; [constructor; [reflexivity|reflexivity|discriminate|reflexivity]| |].
    + intros c c' [<-|[]] [<-|[]]. reflexivity.
    + intros _ c [<-|[]]. reflexivity.
Qed.
Print Assumptions C28_refuted.

(** [values_to] reports bytes, not values: for two-byte elements the single value read is
    reported as 2 (C28_refuted above shows this too). *)
Theorem C29_refuted m inflate : exists dst',
  values_to HostLE KInt 2 (d_order be_ds) (fun e dst => fst (cache_read m inflate 2 (mkCR be_ds [1; 2] 16777216 2 []) e dst))
    All [0; 0] = (Ok 2, dst') /\
  get_start_count All (d_shape be_ds) = Ok ([0], [1]) /\ prodN [1] * d_dsize be_ds / 2 = 1.
Proof. eexists. split; [destruct m; vm_compute; reflexivity|]. split; reflexivity. Qed.
Print Assumptions C29_refuted.
(** What is reported is the number of bytes read, hence the number of values exactly for
    one-byte elements. *)
Theorem C29_bytes_partial m h k w inflate file ds value e idx cnt dst fuel r :
  stores inflate file ds value -> safe_read ds e idx cnt dst fuel -> reachable m inflate ds file r ->
  fst (values_to h k w (d_order ds) (fun e dst => fst (cache_read m inflate fuel r e dst)) e dst) =
    Ok (prodN cnt * d_dsize ds).
Proof.
  intros HS HR HC. destruct (C21_cached_partial m inflate file ds value e idx cnt dst fuel r HS HR HC) as [E L].
  unfold values_to. now rewrite E.
Qed.
Print Assumptions C29_bytes_partial.

(** ** C30 *)

(** A needed chunk that ends past the end of the file: every reader, in every state and
    every schedule, returns an error. *)
Theorem C30_truncated m inflate sort fuel ds file e idx cnt dst c :
  addr_sort sort -> safe_read ds e idx cnt dst fuel ->
  needs ds idx cnt c -> 0 < c_size c -> lenN file < c_addr c + c_size c ->
  (forall r, reachable m inflate ds file r -> exists z, fst (fst (cache_read m inflate fuel r e dst)) = Err z) /\
  (forall r, direct_new m ds (Some file) = Ok r ->
     (exists z, fst (direct_read m inflate sort fuel r e dst) = Err z) /\
     forall x d, par_read m inflate sort fuel r e dst x d -> exists z, x = Err z).
Proof.
  intros HSort HR HN Hs HL.
  assert (NR : ~ readable inflate file ds c) by (intros [[H|H] _]; lia).
  assert (HA : same_addr ds) by apply HR. apply (safe_read_ok m) in HR as HO. split.
  - intros r HC. rewrite (cache_read_reachable m inflate ds file r fuel e dst HA HC).
    destruct (reachable_inv m inflate ds file r HA HC) as (_ & _ & HZ & _).
    apply csize_fresh in HZ; [|apply HR|apply HR]. rewrite HZ.
    destruct (plain_cases m inflate file ds e idx cnt dst fuel HO) as [[H _]|[_ (x & d & E)]]; [now apply H in HN|].
    rewrite E. cbn [fst]. eauto.
  - intros r HD. destruct (C25_errors m inflate sort fuel ds file r e idx cnt dst HSort HR HD) as (A & _).
    split; [|apply A; eauto].
    unfold direct_new in HD. apply bind_ok in HD as (csz & HZ & HD). injection HD as <-.
    apply csize_fresh in HZ; [|apply HR|apply HR]. subst csz.
    destruct (direct_cases m inflate sort (mkDirect ds (Some file) (csize ds)) file e idx cnt dst fuel HSort eq_refl eq_refl HO)
      as [[H _]|[_ (x & d & E)]]; [now apply H in HN|]. rewrite E. cbn [fst]. eauto.
Qed.
Print Assumptions C30_truncated.
(** A file that holds the dataset, cut off at any point: a read either fails or returns
    the values of the whole file. *)
Theorem C30_prefix m inflate fuel ds file n value e idx cnt dst r v d :
  stores inflate file ds value -> safe_read ds e idx cnt dst fuel ->
  reachable m inflate ds (firstn n file) r ->
  fst (cache_read m inflate fuel r e dst) = (Ok v, d) ->
  v = prodN cnt * d_dsize ds /\
  d = concat (map value (slab idx cnt)) ++ skipn (N.to_nat (prodN cnt * d_dsize ds)) dst.
Proof.
  intros HS HR HC E. assert (HA : same_addr ds) by apply HS.
  rewrite (cache_read_reachable m inflate ds (firstn n file) r fuel e dst HA HC) in E.
  destruct (reachable_inv m inflate ds (firstn n file) r HA HC) as (_ & _ & HZ & _).
  apply csize_fresh in HZ; [|apply HR|apply HS]. rewrite HZ in E.
  apply (safe_read_ok m) in HR as HO.
  destruct (plain_cases m inflate (firstn n file) ds e idx cnt dst fuel HO) as [[H _]|[_ (x & d' & E')]]; [|congruence].
  destruct HR as [A B C D F G I J]. destruct (st_sizes _ _ _ _ HS) as [S1 S2 S3 S4].
  destruct (plain_read_values m inflate (firstn n file) ds value e idx cnt dst fuel) as [E' _]; auto.
  - intros c Hc. specialize (H c Hc). assert (Hin : In c (d_chunks ds)) by (destruct Hc as (? & ? & _ & ? & _); auto).
    assert (SR : stores_readable inflate (firstn n file) ds value).
    { constructor; auto. intros c' Hc' [Hr _]. destruct (st_chunk _ _ _ _ HS c' Hc') as (_ & raw & P & L & V).
      exists raw. split; auto. rewrite (file_bytes_prefix file n c' Hr). auto. }
    destruct (load_readable m inflate (firstn n file) ds value c SR Hin) as [[_ ?]|[? _]]; auto. contradiction.
  - now apply safe_right.
  - rewrite E in E'. injection E' as -> ->. auto.
Qed.
Print Assumptions C30_prefix.
Example C30_case : needs st_ds [1; 2] [3; 4] (mkChunk 43 13 [2; 3]) /\ lenN (firstn 55 st_file) < c_addr (mkChunk 43 13 [2; 3]) + c_size (mkChunk 43 13 [2; 3]).
Proof.
  split; [|reflexivity]. exists [3; 5], 5. split; [vm_compute; auto 20|].
  split; [cbn; auto|]. split; [|reflexivity]. split; [reflexivity|]. split; [reflexivity|].
  intros [|[|[|j]]] x o z; cbn; intros; try discriminate;
    repeat match goal with H : Some _ = Some _ |- _ => injection H as <- end; lia.
Qed.
