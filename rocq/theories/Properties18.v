(** * Property theorems C59: which chunks a read reads, and how often. *)
From Coq Require Import Sorted.
From Verif Require Import Base Spec Safe Extent Chunk Dataset Slicer SpecApi ExtentProofs ApiLemmas Termination
  GroupProofs SliceProps Filters SpecFilter FilterProps Reader SpecReader CacheProofs Writes DirectProofs ParProofs
  ReadProofs ReaderProps StreamProofs Trace Properties4 Properties15 Properties16 Examples ExamplesReader.

(** ** The direct readers: front to back, each chunk once *)

Definition by_addr (G : list gsegment) : Prop := StronglySorted (fun g h => g_addr g <= g_addr h) G.
Lemma nth_sorted (G : list gsegment) :
  (forall i j g h, (i < j)%nat -> nth_error G i = Some g -> nth_error G j = Some h ->
     c_addr (fst (fst (fst g))) <= c_addr (fst (fst (fst h)))) -> by_addr G.
Proof.
  induction G as [|g G IH]; intros H; constructor.
  - apply IH. intros i j g' h' Hij E1 E2. apply (H (S i) (S j) g' h'); auto. lia.
  - apply Forall_forall. intros h Hh. apply In_nth_error in Hh as (j & Ej).
    pose proof (H 0%nat (S j) g h (Nat.lt_0_succ j) eq_refl Ej) as Hle. destruct g as [[[? ?] ?] ?], h as [[[? ?] ?] ?]. exact Hle.
Qed.
Lemma group_sorted sort m fuel ds e G : addr_sort sort -> group_chunk_slices sort m fuel ds e = Ok G -> by_addr G.
Proof.
  intros HS H. unfold group_chunk_slices in H. apply bind_ok in H as (l & _ & E). injection E as <-.
  apply nth_sorted. apply HS.
Qed.

Lemma direct_loop_io_sorted m inflate r file : forall G last dst, by_addr G ->
  (forall a d, last = Some (a, d) -> Forall (fun g => a <= g_addr g) G) ->
  let io := snd (direct_loop_io m inflate r file G last dst) in
  StronglySorted N.lt (map c_addr io) /\
  (forall a d, last = Some (a, d) -> Forall (fun c => a < c_addr c) io) /\
  (forall c, In c io -> In c (map g_chunk G)).
Proof.
  induction G as [|[[[c cur] a0] b] G IH]; intros last dst HS HL; cbn [direct_loop_io snd].
  { split; [constructor|]. split; [intros; constructor|intros ? []]. }
  inversion HS as [|? ? S1 S2]; subst.
  assert (HC : forall a d, last = Some (a, d) -> Forall (fun c0 => a < c_addr c0) (if last_is last c then [] else [c])).
  { intros a d ->. cbn [last_is]. destruct (N.eqb_spec a (c_addr c)); constructor; [|constructor].
    specialize (HL a d eq_refl). inversion HL as [|? ? H1 _]; subst. cbn in H1. unfold g_addr in H1. cbn in H1. lia. }
  assert (HS0 : StronglySorted N.lt (map c_addr (if last_is last c then [] else [c]))).
  { destruct (last_is last c); cbn [map]; constructor; constructor. }
  assert (HI0 : forall c0, In c0 (if last_is last c then [] else [c]) -> In c0 (map g_chunk ((c, cur, a0, b) :: G))).
  { intros c0 H. destruct (last_is last c); [destruct H|]. destruct H as [<-|[]]. now left. }
  destruct (direct_load m inflate r file last c) as [data| | | |]; cbn [snd]; auto.
  destruct (copy_at m data (d_dsize (dr_ds r)) cur a0 b dst) as [dst'| | | |]; cbn [snd]; auto.
  destruct (IH (Some (c_addr c, data)) dst' S1) as (A & B & C).
  { intros a d [= <- <-]. exact S2. }
  destruct (direct_loop_io m inflate r file G (Some (c_addr c, data)) dst') as [y io']. cbn [snd] in *.
  specialize (B (c_addr c) data eq_refl). split; [|split].
  - rewrite map_app. destruct (last_is last c); cbn [map app]; auto. constructor; auto.
    apply Forall_map. exact B.
  - intros a d E. apply Forall_app. split; [now apply (HC a d)|].
    specialize (HL a d E). inversion HL as [|? ? H1 _]; subst. unfold g_addr in H1. cbn in H1.
    eapply Forall_impl; [|exact B]. cbn. intros; lia.
  - intros c0 H. apply in_app_iff in H as [H|H]; auto. right. auto.
Qed.

(** Any build mode, dataset, file, selection and outcome: the direct reader reads chunks
    at strictly increasing file addresses - front to back, none twice. *)
Theorem C59_direct m inflate sort fuel r e dst : addr_sort sort ->
  StronglySorted N.lt (map c_addr (snd (direct_read_io m inflate sort fuel r e dst))).
Proof.
  intros HS. unfold direct_read_io. destruct (read_size m (dr_ds r) e dst); try constructor.
  destruct (group_chunk_slices sort m fuel (dr_ds r) e) as [G| | | |] eqn:EG; try constructor.
  destruct (dr_file r) as [f|]; [|constructor].
  pose proof (direct_loop_io_sorted m inflate r f G None dst (group_sorted _ _ _ _ _ _ HS EG)) as H.
  destruct (direct_loop_io m inflate r f G None dst) as [[x d] io]. cbn [snd] in *. apply H. discriminate.
Qed.
Print Assumptions C59_direct.

Lemma chunk_by_heads G : by_addr G ->
  let hs := flat_map (fun g : list gsegment => match g with (c, _, _, _) :: _ => [c] | [] => [] end) (chunk_by_addr G) in
  StronglySorted N.lt (map c_addr hs) /\
  (forall c, In c hs -> In c (map g_chunk G)) /\
  (forall g, In g G -> In (g_addr g) (map c_addr hs)) /\
  (match G with g :: _ => exists t, hs = g_chunk g :: t | [] => hs = [] end).
Proof.
  induction G as [|g G IH]; intros HS; cbn [chunk_by_addr].
  { cbn. repeat split; try constructor; easy. }
  inversion HS as [|? ? S1 S2]; subst. destruct (IH S1) as (A & B & C & D). clear IH.
  pose proof (chunk_by_concat G) as EC. pose proof (chunk_by_ok G) as OK.
  destruct (chunk_by_addr G) as [|[|h t] gs].
  - cbn [concat] in EC. subst G. destruct g as [[[c cur] a] b]. cbn [flat_map app map] in *. repeat split.
    + constructor; constructor.
    + tauto.
    + intros g' [<-|[]]. now left.
    + now exists [].
  - inversion OK; subst. contradiction.
  - cbn [concat app] in EC. rewrite <- EC in D. destruct D as (u & D).
    assert (Hle : g_addr g <= g_addr h).
    { rewrite <- EC in S2. inversion S2; subst. auto. }
    destruct h as [[[ch curh] ah] bh]. destruct g as [[[c cur] a] b].
    cbn [flat_map app map] in *. unfold g_addr, g_chunk in *. cbn [fst snd] in *.
    destruct (N.eqb_spec (c_addr c) (c_addr ch)) as [E|E].
    + cbn [flat_map app map]. injection D as D'. rewrite <- E in *.
      repeat split.
      * inversion A; subst. constructor; auto.
      * intros c0 [<-|H]; [now left|]. right. apply B. now right.
      * intros g' [<-|H]; [now left|]. now apply C.
      * now eexists.
    + cbn [flat_map app map]. repeat split.
      * constructor; auto. inversion A as [|? ? A1 A2]; subst. constructor; [lia|].
        eapply Forall_impl; [|exact A2]. cbn. intros; lia.
      * intros c0 [<-|H]; [now left|]. right. auto.
      * intros g' [<-|H]; [now left|]. right. now apply C.
      * now eexists.
Qed.

(** The parallel reader's tasks read different chunks: none is read by two tasks. *)
Theorem C59_parallel sort m fuel ds e : addr_sort sort ->
  StronglySorted N.lt (map c_addr (par_io sort m fuel ds e)).
Proof.
  intros HS. unfold par_io. destruct (group_chunk_slices sort m fuel ds e) as [G| | | |] eqn:EG; try constructor.
  exact (proj1 (chunk_by_heads G (group_sorted _ _ _ _ _ _ HS EG))).
Qed.
Print Assumptions C59_parallel.

(** ** The cached reader *)

Definition keys (c : lru) : list N := map fst c.

Lemma find_keys k (c : lru) : lru_find k c <> None <-> In k (keys c).
Proof.
  unfold keys. split.
  - intros H. destruct (lru_find k c) as [v|] eqn:E; [|congruence]. apply find_in in E. apply in_map_iff. now exists (k, v).
  - intros H E. now apply find_none in E.
Qed.

Lemma get_keys k c v c' : NoDup (keys c) -> lru_get k c = Some (v, c') ->
  NoDup (keys c') /\ (forall j, In j (keys c') <-> In j (keys c)) /\ In k (keys c).
Proof.
  intros ND H. apply get_some in H as (Hf & -> & Hs). destruct (remove_keys k c ND) as [N1 N2].
  split; [cbn [keys map fst]; now constructor|]. split.
  - intros j. rewrite <- !find_keys. now rewrite Hs.
  - apply find_keys. congruence.
Qed.

Lemma put_keys cap k v c : ~ In k (keys c) -> lenN c < cap -> keys (lru_put cap k v c) = k :: keys c.
Proof.
  intros HN HC. unfold lru_put. destruct (lru_find k c) eqn:E.
  - exfalso. apply HN, find_keys. congruence.
  - apply N.ltb_lt in HC. now rewrite HC.
Qed.

(** While all keys fit: nothing is evicted, so nothing is read twice. *)
Record io_ok (K : list N) (cs : list chunk) (cache : lru) (x : res unit) (cache' : lru) (io : list chunk) : Prop := {
  io_nd : NoDup (keys cache');
  io_in : incl (keys cache') K;
  io_keep : incl (keys cache) (keys cache');
  io_once : NoDup (map c_addr io);
  io_new : forall c, In c io -> ~ In (c_addr c) (keys cache);
  io_sub : incl io cs;
  io_all : x = Ok tt -> forall c, In c cs -> In (c_addr c) (keys cache');
  io_src : x = Ok tt -> forall c, In c cs -> In (c_addr c) (keys cache) \/ In (c_addr c) (map c_addr io)
}.

Lemma io_hit K c cs cache cache1 x cache' io : In (c_addr c) (keys cache) ->
  (forall j, In j (keys cache1) <-> In j (keys cache)) -> io_ok K cs cache1 x cache' io ->
  io_ok K (c :: cs) cache x cache' io.
Proof.
  intros HC HE [A B C D E F G H]. constructor; auto.
  - intros j Hj. apply C, HE. auto.
  - intros c0 H0 H1. apply (E c0 H0). now apply HE.
  - intros c0 H0. right. auto.
  - intros Ex c0 [<-|H0]; [|auto]. now apply C, HE.
  - intros Ex c0 [<-|H0]; [auto|]. destruct (H Ex c0 H0) as [H1|H1]; auto. left. now apply HE.
Qed.
Lemma io_miss K c cs cache cache1 x cache' io : ~ In (c_addr c) (keys cache) ->
  keys cache1 = c_addr c :: keys cache -> io_ok K cs cache1 x cache' io ->
  io_ok K (c :: cs) cache x cache' (c :: io).
Proof.
  intros HC HE [A B C D E F G H]. rewrite HE in *. constructor; auto.
  - intros j Hj. apply C. now right.
  - cbn [map]. constructor; auto. intros Hin. apply in_map_iff in Hin as (c1 & E1 & H1).
    apply (E c1 H1). left. auto.
  - intros c0 [<-|H0] H1; auto. apply (E c0 H0). now right.
  - intros c0 [<-|H0]; [now left|right; auto].
  - intros Ex c0 [<-|H0]; [apply C; now left|auto].
  - intros Ex c0 [<-|H0]; [right; now left|]. destruct (H Ex c0 H0) as [[H1|H1]|H1]; auto.
    + right. left. auto.
    + right. now right.
Qed.

Lemma cache_loop_io_keys m inflate r st K : lenN K <= cr_cap r -> forall segs cache pos dst x d cache' io,
  NoDup (keys cache) -> incl (keys cache) K -> Forall (fun sg => In (c_addr (fst (fst sg))) K) segs ->
  cache_loop_io m inflate r segs st cache pos dst = (x, d, cache', io) ->
  io_ok K (map (fun sg => fst (fst sg)) segs) cache x cache' io.
Proof.
  intros HK. induction segs as [|[[c a] b] segs IH]; intros cache pos dst x d cache' io ND HI HF H; cbn [cache_loop_io] in H.
  { injection H as <- <- <- <-. constructor; auto; try constructor; try (intros ? ? []; fail); try (intros ? []). apply incl_refl. }
  inversion HF as [|? ? F1 F2]; subst. cbn [fst] in F1. cbn [map fst]. unfold cache_seg_io, cache_seg in H.
  assert (FAIL : forall cache2 io2 (x2 : res unit), (forall j, In j (keys cache2) <-> In j (keys cache)) -> NoDup (keys cache2) ->
    (io2 = [] \/ io2 = [c] /\ ~ In (c_addr c) (keys cache)) -> x2 <> Ok tt ->
    io_ok K (c :: map (fun sg => fst (fst sg)) segs) cache x2 cache2 io2).
  { intros cache2 io2 x2 A1 A2 A3 A4. constructor; try congruence; auto.
    - intros j Hj. apply HI, A1. auto.
    - intros j Hj. apply A1. auto.
    - destruct A3 as [->|[-> _]]; repeat constructor. easy.
    - intros c0 H0. destruct A3 as [->|[-> A3]]; [destruct H0|]. destruct H0 as [<-|[]]. auto.
    - intros c0 H0. destruct A3 as [->|[-> _]]; [destruct H0|]. destruct H0 as [<-|[]]. now left. }
  destruct (byte_range m (d_dsize (cr_ds r)) a b) as [[[s e] sz]| | | |]; cbn [failed] in H.
  2-5: injection H as <- <- <- <-; apply FAIL; auto; [tauto|discriminate].
  destruct (lru_get (c_addr c) cache) as [[data cache1]|] eqn:EG.
  - destruct (get_keys _ _ _ _ ND EG) as (N1 & N2 & N3).
    destruct (copy_slice m data s e sz pos dst) as [dst'| | | |]; cbn [bind failed] in H.
    2-5: injection H as <- <- <- <-; apply FAIL; auto; discriminate.
    destruct (cache_loop_io m inflate r segs st cache1 (pos + sz) dst') as [[[y d'] c'] io'] eqn:EL.
    injection H as <- <- <- <-. apply (io_hit K c _ cache cache1); auto.
    apply (IH cache1 (pos + sz) dst' y d' c' io'); auto. intros j Hj. now apply HI, N2.
  - apply get_none in EG. assert (HN : ~ In (c_addr c) (keys cache)) by (rewrite <- find_keys; congruence).
    destruct (load m inflate (cr_file r) (cr_ds r) (cr_csz r) c) as [data| | | |]; cbn [failed] in H.
    2-5: injection H as <- <- <- <-; apply FAIL; auto; [tauto|discriminate].
    destruct (copy_slice m data s e sz pos dst) as [dst'| | | |]; cbn [failed] in H.
    2-5: injection H as <- <- <- <-; apply FAIL; auto; [tauto|discriminate].
    assert (HL : lenN cache < cr_cap r).
    { assert (HN2 : NoDup (c_addr c :: keys cache)) by now constructor.
      assert (HI2 : incl (c_addr c :: keys cache) K) by (intros j [<-|Hj]; auto).
      pose proof (NoDup_incl_length HN2 HI2) as L. cbn [length] in L. unfold keys in L. rewrite map_length in L.
      unfold lenN in *. lia. }
    pose proof (put_keys (cr_cap r) (c_addr c) data cache HN HL) as EK.
    destruct (cache_loop_io m inflate r segs st (lru_put (cr_cap r) (c_addr c) data cache) (pos + sz) dst') as [[[y d'] c'] io'] eqn:EL.
    injection H as <- <- <- <-. cbn [app].
    apply (io_miss K c _ cache (lru_put (cr_cap r) (c_addr c) data cache)); auto.
    apply (IH (lru_put (cr_cap r) (c_addr c) data cache) (pos + sz) dst' y d' c' io'); auto; rewrite EK.
    + now constructor.
    + intros j [<-|Hj]; auto.
Qed.

(** A history of reads: the outcomes, the reader after it, and all chunks read. *)
Fixpoint reads_io (m : mode) (inflate : bytes -> option bytes) (r : creader) (l : list (nat * extents * bytes))
    : list (res N) * creader * list chunk :=
  match l with
  | [] => ([], r, [])
  | (fuel, e, dst) :: l' =>
      let '(x, _, r', io) := cache_read_io m inflate fuel r e dst in
      let '(xs, r'', io') := reads_io m inflate r' l' in (x :: xs, r'', io ++ io')
  end.

Lemma read_io_keys m inflate fuel r e dst K x d r' io v : lenN K <= cr_cap r ->
  NoDup (keys (cr_cache r)) -> incl (keys (cr_cache r)) K ->
  Forall (fun sg => In (c_addr (fst (fst sg))) K) (fst (chunk_slices m fuel (cr_ds r) e)) ->
  cache_read_io m inflate fuel r e dst = (x, d, r', io) -> x = Ok v ->
  cr_cap r' = cr_cap r /\ cr_ds r' = cr_ds r /\
  io_ok K (map (fun sg => fst (fst sg)) (fst (chunk_slices m fuel (cr_ds r) e))) (cr_cache r) (Ok tt) (cr_cache r') io.
Proof.
  intros HK ND HI HF H Ex. unfold cache_read_io in H. subst x.
  destruct (read_size m (cr_ds r) e dst); try discriminate.
  destruct (chunk_slices m fuel (cr_ds r) e) as [segs st]. cbn [fst] in *.
  destruct (cache_loop_io m inflate r segs st (cr_cache r) 0 dst) as [[[y d'] c'] io'] eqn:E.
  injection H as E1 E2 E3 E4. subst. destruct y as [[]| | | |]; try discriminate.
  split; [reflexivity|]. split; [reflexivity|]. cbn [cr_cache].
  exact (cache_loop_io_keys m inflate r st K HK segs (cr_cache r) 0 dst (Ok tt) d c' io ND HI HF E).
Qed.

Lemma reads_io_once m inflate K : forall l r xs r' io, lenN K <= cr_cap r ->
  NoDup (keys (cr_cache r)) -> incl (keys (cr_cache r)) K ->
  Forall (fun q => Forall (fun sg => In (c_addr (fst (fst sg))) K) (fst (chunk_slices m (fst (fst q)) (cr_ds r) (snd (fst q))))) l ->
  reads_io m inflate r l = (xs, r', io) -> Forall (fun x => exists v, x = Ok v) xs ->
  NoDup (map c_addr io) /\ (forall c, In c io -> ~ In (c_addr c) (keys (cr_cache r))).
Proof.
  induction l as [|[[fuel e] dst] l IH]; intros r xs r' io HK ND HI HF H HX; cbn [reads_io] in H.
  { injection H as <- <- <-. split; [constructor|intros ? []]. }
  inversion HF as [|? ? F1 F2]; subst. cbn [fst snd] in F1.
  destruct (cache_read_io m inflate fuel r e dst) as [[[x d] r1] io1] eqn:E1.
  destruct (reads_io m inflate r1 l) as [[xs2 r2] io2] eqn:E2. injection H as <- <- <-.
  inversion HX as [|? ? [v Ev] X2]; subst.
  destruct (read_io_keys m inflate fuel r e dst K (Ok v) d r1 io1 v HK ND HI F1 E1 eq_refl) as (C1 & C2 & [A1 A2 A3 A4 A5 A6 A7 A8]).
  destruct (IH r1 xs2 r2 io2) as [B1 B2]; auto; rewrite ?C1, ?C2; auto.
  assert (A9 : forall c, In c io1 -> In (c_addr c) (keys (cr_cache r1))) by (intros c Hc; apply A7; auto).
  split.
  - rewrite map_app. clear -A4 A9 B1 B2. induction io1 as [|c io1 IH]; cbn [map app] in *; auto.
    inversion A4; subst. constructor.
    + intros H. apply in_app_iff in H as [H|H]; auto. apply in_map_iff in H as (c1 & E & Hc1).
      apply (B2 c1 Hc1). rewrite E. apply A9. now left.
    + apply IH; auto. intros c1 Hc1. apply A9. now right.
  - intros c Hc. apply in_app_iff in Hc as [Hc|Hc]; auto. intros Hk. apply (B2 c Hc). auto.
Qed.

(** A dataset whose chunks, uncompressed, fit in the 32 MiB of the cache: over any history
    of successful reads of a new reader (any selections, both build modes), no chunk is
    read from the file twice. *)
Theorem C59_history m inflate ds file r l xs r' io csz :
  cache_new m ds file = Ok r -> chunk_bytes m ds = Ok csz -> lenN (d_chunks ds) * csz <= 32 * 1024 * 1024 ->
  reads_io m inflate r l = (xs, r', io) -> Forall (fun x => exists v, x = Ok v) xs ->
  NoDup (map c_addr io).
Proof.
  intros HN HC HS HR HX. unfold cache_new in HN. rewrite HC in HN. cbn [bind] in HN.
  apply bind_ok in HN as (cap & HCap & HN). injection HN as <-.
  assert (HK : lenN (map c_addr (d_chunks ds)) <= cap).
  { unfold cache_cap, div64 in HCap. destruct (N.eqb_spec csz 0) as [->|Hz]; [discriminate|]. cbn [bind] in HCap.
    injection HCap as <-. unfold lenN in *. rewrite map_length.
    etransitivity; [|apply N.le_max_l]. apply N.div_le_lower_bound; auto. unfold CACHE_SZ. lia. }
  refine (proj1 (reads_io_once m inflate (map c_addr (d_chunks ds)) l _ xs r' io _ _ _ _ HR HX)); auto.
  - constructor.
  - intros ? [].
  - apply Forall_forall. intros q _. eapply Forall_impl; [|apply slices_in]. intros sg Hsg. now apply in_map.
Qed.
Print Assumptions C59_history.

(** ** Only needed chunks *)

Lemma cache_loop_io_sub m inflate r st : forall segs cache pos dst,
  incl (snd (cache_loop_io m inflate r segs st cache pos dst)) (map (fun sg => fst (fst sg)) segs).
Proof.
  induction segs as [|[[c a] b] segs IH]; intros cache pos dst; cbn [cache_loop_io]; [intros ? []|].
  unfold cache_seg_io.
  assert (H0 : incl (match byte_range m (d_dsize (cr_ds r)) a b with
     | Ok _ => match lru_get (c_addr c) cache with Some _ => [] | None => [c] end | _ => [] end) [c]).
  { intros c0. destruct (byte_range _ _ _ _); try (intros []; fail). destruct (lru_get _ _); [intros []|auto]. }
  destruct (cache_seg m inflate r cache (c, a, b) pos dst) as [[[dst' pos']| | | |] cache'].
  2-5: intros c0 Hc0; apply H0 in Hc0 as [<-|[]]; now left.
  specialize (IH cache' pos' dst'). destruct (cache_loop_io m inflate r segs st cache' pos' dst') as [y io']. cbn [snd] in *.
  intros c0 Hc0. apply in_app_iff in Hc0 as [Hc0|Hc0]; [apply H0 in Hc0 as [<-|[]]; now left|]. right. auto.
Qed.

Lemma direct_loop_io_all m inflate r file : forall G last dst d io,
  direct_loop_io m inflate r file G last dst = (Ok tt, d, io) ->
  forall g, In g G -> In (g_addr g) (map c_addr io) \/ (exists d', last = Some (g_addr g, d')).
Proof.
  induction G as [|[[[c cur] a] b] G IH]; intros last dst d io H g Hg; cbn [direct_loop_io] in H; [destruct Hg|].
  destruct (direct_load m inflate r file last c) as [data| | | |]; try discriminate.
  destruct (copy_at m data (d_dsize (dr_ds r)) cur a b dst) as [dst'| | | |]; try discriminate.
  destruct (direct_loop_io m inflate r file G (Some (c_addr c, data)) dst') as [[y d'] io'] eqn:E.
  injection H as -> -> <-.
  assert (HC : In (c_addr c) (map c_addr (if last_is last c then [] else [c])) \/ exists d', last = Some (c_addr c, d')).
  { unfold last_is. destruct last as [[a' d']|]; [|left; now left].
    destruct (N.eqb_spec a' (c_addr c)) as [->|]; [right; eauto|left; now left]. }
  rewrite map_app. destruct Hg as [<-|Hg].
  - cbn [g_addr]. destruct HC as [HC|HC]; auto. left. apply in_app_iff. auto.
  - destruct (IH _ _ _ _ E g Hg) as [H|(d2 & H)].
    + left. apply in_app_iff. auto.
    + injection H as <- _. destruct HC as [HC|HC]; auto. left. apply in_app_iff. auto.
Qed.

(** Safe selections, both build modes, any file (also damaged): every reader, in any
    state, reads only chunks that hold a selected element; and a successful read of the
    direct reader, of the parallel reader, or of a new cached reader reads each of them
    (up to chunks that share an address). *)
Theorem C59_needed m inflate sort fuel ds e idx cnt dst : addr_sort sort -> safe_read ds e idx cnt dst fuel ->
  (forall r, cr_ds r = ds -> forall c, In c (snd (cache_read_io m inflate fuel r e dst)) -> needs ds idx cnt c) /\
  (forall r, dr_ds r = ds -> forall c, In c (snd (direct_read_io m inflate sort fuel r e dst)) -> needs ds idx cnt c) /\
  (forall c, In c (par_io sort m fuel ds e) -> needs ds idx cnt c) /\
  (forall r x v c, dr_ds r = ds -> fst (fst (direct_read_io m inflate sort fuel r e dst)) = x -> x = Ok v ->
     needs ds idx cnt c -> In (c_addr c) (map c_addr (snd (direct_read_io m inflate sort fuel r e dst)))) /\
  (forall c, needs ds idx cnt c -> In (c_addr c) (map c_addr (par_io sort m fuel ds e))).
Proof.
  intros HS HF. pose proof (safe_read_ok m _ _ _ _ _ _ HF) as HO.
  destruct (ro_size _ _ _ _ _ _ _ HO) as (ES & _).
  destruct (group_dests m sort ds e idx cnt dst fuel HS HO) as (segs & G & EX & EG & PG & _).
  destruct HO as [HD HR HG HSel (segs' & HX & HT) Hb HW Hf]. specialize (HX fuel Hf).
  rewrite EX in HX. injection HX as <-.
  pose proof (fun c => right_needs ds idx cnt segs c HD HSel HT) as HN.
  assert (HGN : forall c, In c (map g_chunk G) <-> needs ds idx cnt c).
  { intros c. rewrite HN. rewrite (Permutation_map g_chunk PG).
    rewrite <- (dests_segs segs 0) at 2. rewrite map_map. reflexivity. }
  assert (HGA : forall c, needs ds idx cnt c -> exists g, In g G /\ g_addr g = c_addr c).
  { intros c Hc. apply HGN in Hc. apply in_map_iff in Hc as (g & <- & Hg). exists g. split; auto.
    now destruct g as [[[? ?] ?] ?]. }
  split; [|split; [|split; [|split]]].
  - intros r <- c Hc. unfold cache_read_io in Hc. rewrite ES, EX in Hc.
    pose proof (cache_loop_io_sub m inflate r SDone segs (cr_cache r) 0 dst) as HI.
    destruct (cache_loop_io m inflate r segs SDone (cr_cache r) 0 dst) as [[[x d] c'] io]. cbn [snd] in *.
    apply HN. auto.
  - intros r <- c Hc. unfold direct_read_io in Hc. rewrite ES, EG in Hc. destruct (dr_file r) as [f|]; [|destruct Hc].
    pose proof (direct_loop_io_sorted m inflate r f G None dst (group_sorted _ _ _ _ _ _ HS EG)) as HI.
    destruct (direct_loop_io m inflate r f G None dst) as [[x d] io]. cbn [snd] in *.
    apply HGN. apply HI; auto. discriminate.
  - intros c Hc. unfold par_io in Hc. rewrite EG in Hc.
    apply HGN. now apply (chunk_by_heads G (group_sorted _ _ _ _ _ _ HS EG)).
  - intros r x v c <- Ex Ev Hc. unfold direct_read_io in *. rewrite ES, EG in *. subst x.
    destruct (dr_file r) as [f|]; [|discriminate].
    pose proof (direct_loop_io_all m inflate r f G None dst) as HI.
    destruct (direct_loop_io m inflate r f G None dst) as [[x d] io]. cbn [fst snd] in *.
    destruct x as [[]| | | |]; try discriminate.
    destruct (HGA c Hc) as (g & Hg & <-). destruct (HI d io eq_refl g Hg) as [H|(d' & H)]; [exact H|discriminate].
  - intros c Hc. unfold par_io. rewrite EG. destruct (HGA c Hc) as (g & Hg & <-).
    now apply (chunk_by_heads G (group_sorted _ _ _ _ _ _ HS EG)).
Qed.
Print Assumptions C59_needed.

(** Reading a selection again: if its chunks, uncompressed, fit in 32 MiB, a new reader
    reads each once, and after a successful read the same selection needs no file access
    (so it succeeds even if the file has gone or changed since). *)
Theorem C59_repeat m inflate ds file e idx cnt dst fuel r d r1 io1 v csz need :
  cache_new m ds file = Ok r -> chunk_bytes m ds = Ok csz -> safe_read ds e idx cnt dst fuel ->
  (forall c, needs ds idx cnt c -> In c need) -> lenN need * csz <= 32 * 1024 * 1024 ->
  cache_read_io m inflate fuel r e dst = (Ok v, d, r1, io1) ->
  NoDup (map c_addr io1) /\ (forall c, needs ds idx cnt c -> In (c_addr c) (map c_addr io1)) /\
  (forall dst2, snd (cache_read_io m inflate fuel r1 e dst2) = []) /\
  (forall dst2 file2,
     fst (cache_read m inflate fuel (mkCR (cr_ds r1) file2 (cr_cap r1) (cr_csz r1) (cr_cache r1)) e dst2) =
     fst (cache_read m inflate fuel r1 e dst2)).
Proof.
  intros HNew HC HF HNeed HSz H. pose proof (safe_read_ok m _ _ _ _ _ _ HF) as HO.
  unfold cache_new in HNew. rewrite HC in HNew. cbn [bind] in HNew.
  apply bind_ok in HNew as (cap & HCap & HNew). injection HNew as <-.
  assert (HK : lenN (map c_addr need) <= cap).
  { unfold cache_cap, div64 in HCap. destruct (N.eqb_spec csz 0) as [->|Hz]; [discriminate|]. cbn [bind] in HCap.
    injection HCap as <-. unfold lenN in *. rewrite map_length.
    etransitivity; [|apply N.le_max_l]. apply N.div_le_lower_bound; auto. unfold CACHE_SZ. lia. }
  destruct HO as [HD HR HG HSel (segs & HX & HT) Hb HW Hf]. specialize (HX fuel Hf).
  pose proof (fun c => right_needs ds idx cnt segs c HD HSel HT) as HN.
  assert (HSK : Forall (fun sg => In (c_addr (fst (fst sg))) (map c_addr need)) segs).
  { apply Forall_forall. intros sg Hsg. apply in_map, HNeed, HN. apply in_map_iff. eauto. }
  destruct (read_io_keys m inflate fuel (mkCR ds file cap csz []) e dst (map c_addr need) (Ok v) d r1 io1 v) as (C1 & C2 & [A1 A2 A3 A4 A5 A6 A7 A8]); auto.
  { constructor. } { intros ? []. } { cbn [cr_ds]. now rewrite HX. }
  cbn [cr_ds cr_cap cr_cache] in *. rewrite HX in A6, A7, A8. cbn [fst] in *.
  assert (CACHED : forall c, In c (map (fun sg => fst (fst sg)) segs) -> In (c_addr c) (keys (cr_cache r1))) by (now apply A7).
  assert (SEEN1 : Forall (fun sg => In (c_addr (fst (fst sg))) (keys (cr_cache r1))) segs).
  { apply Forall_forall. intros sg Hsg. apply CACHED. apply in_map_iff. exists sg. auto. }
  (* with every address in the cache, the loop reads nothing and ignores the file *)
  assert (NOIO : forall segs0 cache pos dst0 st f2, Forall (fun sg => In (c_addr (fst (fst sg))) (keys cache)) segs0 ->
    NoDup (keys cache) ->
    snd (cache_loop_io m inflate r1 segs0 st cache pos dst0) = [] /\
    fst (cache_loop m inflate (mkCR (cr_ds r1) f2 (cr_cap r1) (cr_csz r1) (cr_cache r1)) segs0 st cache pos dst0) =
    fst (cache_loop m inflate r1 segs0 st cache pos dst0)).
  { clear. induction segs0 as [|[[c a] b] segs0 IH]; intros cache pos dst0 st f2 HF ND; cbn [cache_loop_io cache_loop]; auto.
    inversion HF as [|? ? F1 F2]; subst. cbn [fst] in F1. unfold cache_seg_io, cache_seg. cbn [cr_ds cr_file cr_cap cr_csz].
    destruct (byte_range m (d_dsize (cr_ds r1)) a b) as [[[s e] sz]| | | |]; auto.
    destruct (lru_get (c_addr c) cache) as [[data cache']|] eqn:EG.
    2:{ exfalso. apply get_none in EG. apply find_keys in F1. congruence. }
    destruct (get_keys _ _ _ _ ND EG) as (N1 & N2 & N3).
    destruct (copy_slice m data s e sz pos dst0) as [dst'| | | |]; cbn [bind failed snd fst]; auto.
    destruct (IH cache' (pos + sz) dst' st f2) as [I1 I2]; auto.
    { eapply Forall_impl; [|exact F2]. cbn beta. intros sg Hsg. now apply N2. }
    split; auto. destruct (cache_loop_io m inflate r1 segs0 st cache' (pos + sz) dst') as [y io]. cbn [snd] in *. now subst. }
  split; [exact A4|]. split; [|split].
  - intros c Hc. apply HN in Hc. destruct (A8 eq_refl c Hc) as [[]|]; auto.
  - intros dst2. unfold cache_read_io. rewrite C2, HX.
    destruct (read_size m ds e dst2); auto.
    destruct (NOIO segs (cr_cache r1) 0 dst2 SDone file SEEN1 A1) as [I1 _].
    destruct (cache_loop_io m inflate r1 segs SDone (cr_cache r1) 0 dst2) as [[[x d2] c'] io]. exact I1.
  - intros dst2 file2. unfold cache_read. cbn [cr_ds cr_cache]. rewrite C2, HX.
    destruct (read_size m ds e dst2); auto.
    destruct (NOIO segs (cr_cache r1) 0 dst2 SDone file2 SEEN1 A1) as [_ I2]. rewrite C2 in I2.
    destruct (cache_loop m inflate (mkCR ds file2 (cr_cap r1) (cr_csz r1) (cr_cache r1)) segs SDone (cr_cache r1) 0 dst2) as [[x d2] c'].
    destruct (cache_loop m inflate r1 segs SDone (cr_cache r1) 0 dst2) as [[x' d2'] c'']. cbn [fst] in *. now injection I2 as -> ->.
Qed.
Print Assumptions C59_repeat.

(** The example file: 4 chunks; the selection of 3 x 4 elements in the corner has elements
    of all four, some in several segments.  Each is read once; again, none; a first row
    needs two. *)
Example C59_case : exists r rd r1 d1,
  cache_new Debug st_ds st_file = Ok r /\ direct_new Debug st_ds (Some st_file) = Ok rd /\
  cache_read_io Debug toy_inflate 13 r st_sel (repeat 9 24) = (Ok 24, d1, r1, snd (cache_read_io Debug toy_inflate 13 r st_sel (repeat 9 24))) /\
  length (snd (cache_read_io Debug toy_inflate 13 r st_sel (repeat 9 24))) = 4%nat /\
  length (fst (chunk_slices Debug 13 st_ds st_sel)) = 6%nat /\
  snd (cache_read_io Debug toy_inflate 13 r1 st_sel (repeat 9 24)) = [] /\
  length (snd (direct_read_io Debug toy_inflate sort_by_addr 13 rd st_sel (repeat 9 24))) = 4%nat /\
  length (snd (cache_read_io Debug toy_inflate 13 r (Extents [Index 0; Slice 0]) (repeat 9 24))) = 2%nat /\
  lenN (d_chunks st_ds) * 12 <= 32 * 1024 * 1024 /\ chunk_bytes Debug st_ds = Ok 12 /\
  safe_read st_ds st_sel [1; 2] [3; 4] (repeat 9 24) 13.
Proof.
  eexists _, _, _, _. split; [reflexivity|]. split; [reflexivity|].
  split; [vm_compute; reflexivity|]. split; [vm_compute; reflexivity|]. split; [vm_compute; reflexivity|].
  split; [vm_compute; reflexivity|]. split; [vm_compute; reflexivity|]. split; [vm_compute; reflexivity|].
  split; [vm_compute; discriminate|]. split; [reflexivity|].
  apply st_safe; vm_compute; auto; discriminate.
Qed.
(** ** C56 for the chunks of a selection *)

(** Files that agree on the chunks that hold selected elements. *)
Definition same_needed (ds : dataset) (idx cnt : list N) (f f' : bytes) : Prop :=
  forall c, needs ds idx cnt c ->
    (c_addr c + c_size c <= lenN f <-> c_addr c + c_size c <= lenN f') /\
    file_bytes f (c_addr c) (c_size c) = file_bytes f' (c_addr c) (c_size c).

Lemma load_same_bytes m inflate ds csz f f' c :
  (c_addr c + c_size c <= lenN f <-> c_addr c + c_size c <= lenN f') ->
  file_bytes f (c_addr c) (c_size c) = file_bytes f' (c_addr c) (c_size c) ->
  load m inflate f ds csz c = load m inflate f' ds csz c.
Proof.
  intros A B. unfold load, read_chunk. f_equal.
  unfold read_exact. unfold file_bytes in B. rewrite B. destruct (_ =? 0); [reflexivity|].
  destruct (N.leb_spec (c_addr c + c_size c) (lenN f)), (N.leb_spec (c_addr c + c_size c) (lenN f')); auto; lia.
Qed.

Lemma direct_loop_ext m inflate ds csz fo fo' f f' : forall groups last dst,
  Forall (fun g => load m inflate f ds csz (g_chunk g) = load m inflate f' ds csz (g_chunk g)) groups ->
  direct_loop m inflate (mkDirect ds fo csz) f groups last dst =
  direct_loop m inflate (mkDirect ds fo' csz) f' groups last dst.
Proof.
  induction groups as [|[[[c cur] a] b] groups IH]; intros last dst HF; [reflexivity|].
  inversion HF; subst. unfold g_chunk in H1. cbn [fst] in H1. cbn [direct_loop dr_ds].
  assert (E : direct_load m inflate (mkDirect ds fo csz) f last c = direct_load m inflate (mkDirect ds fo' csz) f' last c).
  { unfold direct_load. cbn [dr_ds dr_csz]. now rewrite H1. }
  rewrite E. destruct (direct_load _ _ _ f' last c); auto.
  destruct (copy_at m a0 (d_dsize ds) cur a b dst); auto.
Qed.

Lemma plain_loop_ext m L L' dsz st : forall segs pos dst, Forall (fun sg => L (fst (fst sg)) = L' (fst (fst sg))) segs ->
  plain_loop m L dsz segs st pos dst = plain_loop m L' dsz segs st pos dst.
Proof.
  induction segs as [|[[c a] b] segs IH]; intros pos dst HF; [reflexivity|].
  inversion HF; subst. cbn [fst] in H1. cbn [plain_loop].
  assert (E : seg_copy m L dsz (c, a, b) pos dst = seg_copy m L' dsz (c, a, b) pos dst)
    by (unfold seg_copy; now rewrite H1).
  rewrite E. destruct (seg_copy m L' dsz (c, a, b) pos dst) as [[dst' pos']| | | |]; auto.
Qed.

(** Safe selections, both build modes: reads of two files that agree on the chunks with
    selected elements have the same outcome, whatever the other chunks hold, also when
    those are missing or corrupt. *)
Theorem C56_needed m inflate sort fuel ds f f' e idx cnt dst :
  addr_sort sort -> safe_read ds e idx cnt dst fuel -> same_needed ds idx cnt f f' ->
  (forall r r', reachable m inflate ds f r -> reachable m inflate ds f' r' ->
     fst (cache_read m inflate fuel r e dst) = fst (cache_read m inflate fuel r' e dst)) /\
  (forall r r', direct_new m ds (Some f) = Ok r -> direct_new m ds (Some f') = Ok r' ->
     direct_read m inflate sort fuel r e dst = direct_read m inflate sort fuel r' e dst /\
     forall x d, par_read m inflate sort fuel r e dst x d -> par_read m inflate sort fuel r' e dst x d).
Proof.
  intros HS HF HL. pose proof (safe_read_ok m _ _ _ _ _ _ HF) as HO.
  destruct (ro_size _ _ _ _ _ _ _ HO) as (ES & _).
  destruct (group_dests m sort ds e idx cnt dst fuel HS HO) as (segs & G & EX & EG & PG & _).
  destruct HO as [HD HR HG HSel (segs' & HX & HT) Hb HW Hf]. specialize (HX fuel Hf).
  rewrite EX in HX. injection HX as <-. assert (HA : same_addr ds) by apply HR.
  pose proof (fun c => right_needs ds idx cnt segs c HD HSel HT) as HN.
  assert (HLN : forall csz c, needs ds idx cnt c -> load m inflate f ds csz c = load m inflate f' ds csz c).
  { intros csz c Hc. destruct (HL c Hc). now apply load_same_bytes. }
  assert (HGN : Forall (fun g => needs ds idx cnt (g_chunk g)) G).
  { apply Forall_forall. intros g Hg. apply HN. apply (Permutation_in _ PG) in Hg.
    rewrite <- (dests_segs segs 0). rewrite map_map. apply in_map_iff. exists g. auto. }
  split.
  - intros r r' HR1 HR2. rewrite (cache_read_reachable m inflate ds f r fuel e dst HA HR1).
    rewrite (cache_read_reachable m inflate ds f' r' fuel e dst HA HR2).
    destruct (reachable_inv m inflate ds f r HA HR1) as (_ & _ & E & _).
    destruct (reachable_inv m inflate ds f' r' HA HR2) as (_ & _ & E' & _).
    rewrite E in E'. injection E' as ->. unfold plain_read. rewrite ES, EX.
    rewrite (plain_loop_ext m _ (load m inflate f' ds (cr_csz r'))); auto.
    apply Forall_forall. intros sg Hsg. apply HLN, HN. apply in_map_iff. eauto.
  - intros r r' HR1 HR2. unfold direct_new in HR1, HR2.
    apply bind_ok in HR1 as (csz & E & HR1). rewrite E in HR2. cbn [bind] in HR2. injection HR1 as <-. injection HR2 as <-.
    split.
    + unfold direct_read. cbn [dr_ds dr_file]. rewrite ES, EG.
      rewrite (direct_loop_ext m inflate ds csz (Some f) (Some f') f f' G None dst); auto.
      eapply Forall_impl; [|exact HGN]. cbn beta. intros g Hg. now apply HLN.
    + intros x d HP. inversion HP as [x' E1 E2|v x' E1 E2 E3|v groups final d' x' E1 E2 E3 E4 E5]; subst; cbn [dr_ds] in *.
      * now apply pa_size.
      * eapply pa_group; eauto.
      * apply (pa_run _ _ _ _ (mkDirect ds (Some f') csz) _ _ v groups final); auto.
        rewrite EG in E2. injection E2 as <-.
        replace (map (fun g => Waiting (par_task m inflate (mkDirect ds (Some f') csz) (lenN dst) g)) (chunk_by_addr G))
          with (map (fun g => Waiting (par_task m inflate (mkDirect ds (Some f) csz) (lenN dst) g)) (chunk_by_addr G)); auto.
        apply map_ext_in. intros g Hg. f_equal. unfold par_task. cbn [dr_file dr_ds dr_csz].
        destruct g as [|[[[c cur] a] b] g]; auto. rewrite (HLN csz c); auto.
        rewrite <- (chunk_by_concat G) in HGN. apply Forall_concat in HGN. rewrite Forall_forall in HGN.
        specialize (HGN _ Hg). inversion HGN; subst. auto.
Qed.
Print Assumptions C56_needed.

(** The first row of the example file: a file in which the chunks of rows 2 and 3 are gone
    or overwritten agrees on the chunks it needs, and the whole dataset is not readable in it. *)
Definition st_torn : bytes := firstn 17 st_file ++ repeat 0 13 ++ firstn 13 (skipn 30 st_file).

Example C56_needed_case :
  safe_read st_ds (Extents [Index 0; Slice 0]) [0; 0] [1; 6] (repeat 9 12) 13 /\
  same_needed st_ds [0; 0] [1; 6] st_file st_torn /\
  ~ readable toy_inflate st_torn st_ds (mkChunk 43 13 [2; 3]) /\
  (exists r d, direct_new Debug st_ds (Some st_torn) = Ok r /\
     direct_read Debug toy_inflate sort_by_addr 13 r (Extents [Index 0; Slice 0]) (repeat 9 12) = (Ok 12, d)).
Proof.
  split; [|split; [|split]].
  - constructor; try reflexivity.
    + exact st_full.
    + exact st_regular.
    + sel_in_tac.
    + cbn. lia.
  - intros c (x & k & Hx & Hc & (L1 & L2 & Hb) & _). cbn [fst snd] in *.
    assert (R : exists j, x = [0; j]).
    { vm_compute in Hx. repeat destruct Hx as [<-|Hx]; eauto. destruct Hx. }
    destruct R as (j & ->).
    cbn [st_ds d_chunks In] in Hc. destruct Hc as [<-|[<-|[<-|[<-|[]]]]].
    1,2: split; [split; intros _; vm_compute; discriminate|reflexivity].
    1,2: exfalso; specialize (Hb 0%nat 0 2 2 eq_refl eq_refl eq_refl); lia.
  - intros [[H|H] _]; [discriminate|]. vm_compute in H. now apply H.
  - eexists _, _. split; [reflexivity|]. vm_compute. reflexivity.
Qed.
