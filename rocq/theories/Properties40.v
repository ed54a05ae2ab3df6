(** * C70: which chunks the cache keeps, and so which reads go back to the file. *)
From Verif Require Import Base Spec SpecApi SpecReader Safe Chunk Extent Dataset Slicer Filters SpecFilter Reader Trace StreamPoll
  CacheProofs ReaderProps SliceProps ExamplesReader Properties4 Properties18 Properties39.

From Verif Require ExactReads.

(** ** Specification

    [before]: the addresses of the chunks used so far, the last one first.  A chunk is kept
    if fewer than [cap] different other chunks were used since it was last used. *)
Fixpoint since (a : N) (before : list N) : option (list N) :=
  match before with
  | [] => None
  | b :: before' => if b =? a then Some [] else option_map (cons b) (since a before')
  end.
Definition kept (cap : N) (before : list N) (a : N) : bool :=
  match since a before with
  | Some newer => lenN (nodup N.eq_dec newer) <? cap
  | None => false
  end.
(** The chunks of [l], used one after the other, that are not kept when they are used. *)
Fixpoint misses (cap : N) (before : list N) (l : list chunk) : list chunk :=
  match l with
  | [] => []
  | c :: l' => (if kept cap before (c_addr c) then [] else [c]) ++ misses cap (c_addr c :: before) l'
  end.
(** Chunks that fit in 32 MiB, but one at least. *)
Definition room (csz : N) : N := N.max (32 * 1024 * 1024 / csz) 1.
(** The chunks a history of reads uses, in order. *)
Definition uses (m : mode) (ds : dataset) (l : list (nat * extents * bytes)) : list chunk :=
  flat_map (fun q => map (fun sg => fst (fst sg)) (fst (chunk_slices m (fst (fst q)) ds (snd (fst q))))) l.

(** ** The most recent addresses *)
Definition without (a : N) (l : list N) : list N := filter (fun b => negb (b =? a)) l.
Fixpoint recent (l : list N) : list N :=
  match l with [] => [] | a :: l' => a :: without a (recent l') end.

Lemma in_without a b l : In b (without a l) <-> In b l /\ b <> a.
Proof.
  unfold without. rewrite filter_In. destruct (N.eqb_spec b a); cbn [negb]; intuition congruence.
Qed.
Lemma nodup_without a l : NoDup l -> NoDup (without a l).
Proof. apply NoDup_filter. Qed.
Lemma without_id a : forall l, ~ In a l -> without a l = l.
Proof.
  induction l as [|b l IH]; intros H; [reflexivity|]. cbn [without filter].
  destruct (N.eqb_spec b a) as [->|_]; cbn [negb]; [destruct H; now left|].
  f_equal. apply IH. intros H2. apply H. now right.
Qed.
Lemma in_recent a : forall l, In a (recent l) <-> In a l.
Proof.
  induction l as [|b l IH]; cbn [recent In]; [tauto|]. rewrite in_without, IH.
  destruct (N.eq_dec b a); intuition congruence.
Qed.
Lemma nodup_recent : forall l, NoDup (recent l).
Proof.
  induction l as [|b l IH]; cbn [recent]; constructor; [|now apply nodup_without].
  rewrite in_without. tauto.
Qed.

Lemma firstn_without_out a : forall l n, ~ In a (firstn n l) -> firstn n (without a l) = firstn n l.
Proof.
  induction l as [|b l IH]; intros [|n] H; try reflexivity. cbn [firstn] in H. cbn [without filter].
  destruct (N.eqb_spec b a) as [->|_]; cbn [negb]; [destruct H; now left|].
  cbn [firstn]. f_equal. apply IH. intros H2. apply H. now right.
Qed.
Lemma in_firstn_in {A} (a : A) : forall n l, In a (firstn n l) -> In a l.
Proof. induction n; intros [|b l] H; try (destruct H; fail). destruct H as [->|H]; [now left|right; auto]. Qed.
Lemma firstn_without_in a : forall l n, NoDup l -> In a (firstn n l) -> without a (firstn n l) = firstn (Nat.pred n) (without a l).
Proof.
  induction l as [|b l IH]; intros [|n] HN H; try (destruct H; fail). inversion HN as [|? ? Hb HN']; subst. cbn [firstn] in H |- *.
  cbn [without filter Nat.pred]. destruct (N.eqb_spec b a) as [->|Hne]; cbn [negb].
  - fold (without a l). fold (without a (firstn n l)). rewrite !without_id; auto. intros H2. apply Hb. now apply in_firstn_in in H2.
  - destruct H as [H|H]; [congruence|]. fold (without a l). fold (without a (firstn n l)). rewrite (IH n HN' H).
    destruct n; [destruct H|]. reflexivity.
Qed.

Lemma keys_remove k (c : lru) : keys (lru_remove k c) = without k (keys c).
Proof.
  unfold keys, lru_remove, without. induction c as [|[a v] c IH]; [reflexivity|]. cbn [filter map fst].
  destruct (a =? k); cbn [negb map fst]; now rewrite IH.
Qed.

Lemma hit_recent cap a v cache cache' before : 0 < cap ->
  keys cache = firstn (N.to_nat cap) (recent before) -> lru_get a cache = Some (v, cache') ->
  keys cache' = firstn (N.to_nat cap) (recent (a :: before)).
Proof.
  intros HC HK HG. assert (HI : In a (keys cache)).
  { apply find_keys. unfold lru_get in HG. destruct (lru_find a cache); congruence. }
  unfold lru_get in HG. destruct (lru_find a cache) as [w|]; [|discriminate]. injection HG as <- <-.
  cbn [keys map fst]. fold (keys (lru_remove a cache)). rewrite keys_remove, HK in *.
  rewrite firstn_without_in; auto using nodup_recent. destruct (N.to_nat cap) eqn:E; [lia|]. reflexivity.
Qed.
Lemma miss_recent cap a v cache before : 0 < cap ->
  keys cache = firstn (N.to_nat cap) (recent before) -> lru_get a cache = None ->
  keys (lru_put cap a v cache) = firstn (N.to_nat cap) (recent (a :: before)).
Proof.
  intros HC HK HG. apply get_none in HG.
  assert (HI : ~ In a (keys cache)) by (rewrite <- find_keys; congruence).
  unfold lru_put. rewrite HG. cbn [keys map fst recent]. rewrite HK in HI.
  assert (HL : length cache = Nat.min (N.to_nat cap) (length (recent before))).
  { rewrite <- firstn_length, <- HK. unfold keys. now rewrite map_length. }
  destruct (N.to_nat cap) as [|n] eqn:E; [lia|]. cbn [firstn]. f_equal.
  assert (HO : ~ In a (firstn n (recent before))).
  { intros H. apply HI. revert H. clear. generalize (recent before). induction n; intros [|b l] H; try (destruct H; fail).
    destruct H as [->|H]; [now left|right; auto]. }
  rewrite firstn_without_out by auto. unfold lenN. destruct (N.ltb_spec (N.of_nat (length cache)) cap) as [H|H].
  - fold (keys cache). rewrite HK. rewrite !firstn_all2 by lia. reflexivity.
  - assert (HM : forall c : lru, map fst (removelast c) = removelast (map fst c)).
    { induction c as [|x c IH]; [reflexivity|]. cbn [removelast map]. destruct c; [reflexivity|]. cbn [map] in IH |- *. now rewrite IH. }
    rewrite HM. fold (keys cache). rewrite HK. apply removelast_firstn. lia.
Qed.

(** The address is among the [cap] most recent exactly when it is [kept]. *)
Lemma recent_app : forall l l', recent (l ++ l') = recent l ++ filter (fun b => negb (existsb (N.eqb b) l)) (recent l').
Proof.
  induction l as [|a l IH]; intros l'; cbn [recent app].
  - symmetry. induction (recent l') as [|b r IHr]; [reflexivity|]. cbn [filter existsb negb]. f_equal. exact IHr.
  - f_equal. rewrite IH. unfold without. rewrite filter_app. f_equal.
    induction (recent l') as [|b r IHr]; [reflexivity|]. cbn [filter existsb].
    destruct (existsb (N.eqb b) l); destruct (b =? a) eqn:E; cbn [negb orb filter]; rewrite ?E; cbn [negb]; now rewrite IHr.
Qed.
Lemma since_split a : forall l newer, since a l = Some newer -> exists older, l = newer ++ a :: older /\ ~ In a newer.
Proof.
  induction l as [|b l IH]; intros newer H; [discriminate|]. cbn [since] in H.
  destruct (N.eqb_spec b a) as [->|Hne].
  - injection H as <-. exists l. auto.
  - destruct (since a l) as [n|]; [|discriminate]. injection H as <-. destruct (IH n eq_refl) as (o & -> & Hn).
    exists o. split; [reflexivity|]. intros [H|H]; auto.
Qed.
Lemma since_none a : forall l, since a l = None <-> ~ In a l.
Proof.
  induction l as [|b l IH]; cbn [since In]; [tauto|]. destruct (N.eqb_spec b a) as [->|Hne].
  - split; [discriminate|intros H; destruct H; now left].
  - destruct (since a l) as [n|]; cbn [option_map].
    + split; [discriminate|]. intros H. exfalso. apply H. right. destruct (in_dec N.eq_dec a l) as [Hi|Hi]; auto.
      apply IH in Hi. discriminate.
    + split; auto. intros _ [H|H]; [congruence|]. now apply IH.
Qed.
Lemma kept_iff cap before a : kept cap before a = true <-> In a (firstn (N.to_nat cap) (recent before)).
Proof.
  unfold kept. destruct (since a before) as [newer|] eqn:E.
  - apply since_split in E as (older & -> & Hn). rewrite recent_app. cbn [recent filter].
    assert (EX : existsb (N.eqb a) newer = false).
    { destruct (existsb (N.eqb a) newer) eqn:E; auto. apply existsb_exists in E as (b & Hb & E). apply N.eqb_eq in E. congruence. }
    rewrite EX. cbn [negb].
    assert (HL : length (nodup N.eq_dec newer) = length (recent newer)).
    { apply Nat.le_antisymm; apply NoDup_incl_length; auto using NoDup_nodup, nodup_recent;
        intros b Hb; [apply in_recent; now apply nodup_In in Hb|apply nodup_In; now apply (proj1 (in_recent _ _)) in Hb]. }
    unfold lenN. rewrite N.ltb_lt, HL. rewrite firstn_app, in_app_iff. split.
    + intros H. right. destruct (N.to_nat cap - length (recent newer))%nat eqn:E; [lia|]. now left.
    + intros [H|H]; [apply in_firstn_in in H; apply (proj1 (in_recent _ _)) in H; contradiction|].
      destruct (N.to_nat cap - length (recent newer))%nat eqn:E; [destruct H|lia].
  - split; [discriminate|]. intros H. exfalso. apply (proj1 (since_none _ _) E). apply in_recent. now apply in_firstn_in in H.
Qed.

Lemma get_kept cap a cache before : keys cache = firstn (N.to_nat cap) (recent before) ->
  kept cap before a = match lru_get a cache with Some _ => true | None => false end.
Proof.
  intros HK. destruct (lru_get a cache) as [[v c]|] eqn:E.
  - apply kept_iff. rewrite <- HK. apply find_keys. unfold lru_get in E. destruct (lru_find a cache); congruence.
  - apply get_none in E. destruct (kept cap before a) eqn:EK; auto. apply kept_iff in EK. rewrite <- HK in EK.
    apply find_keys in EK. congruence.
Qed.

(** ** The cached reader *)
Lemma loop_misses m inflate r st : 0 < cr_cap r -> forall segs cache pos dst d cache' io before,
  keys cache = firstn (N.to_nat (cr_cap r)) (recent before) ->
  cache_loop_io m inflate r segs st cache pos dst = (Ok tt, d, cache', io) ->
  let l := map (fun sg => fst (fst sg)) segs in
  io = misses (cr_cap r) before l /\
  keys cache' = firstn (N.to_nat (cr_cap r)) (recent (rev (map c_addr l) ++ before)).
Proof.
  intros HC. induction segs as [|[[c a] b] segs IH]; intros cache pos dst d cache' io before HK H; cbn [cache_loop_io] in H.
  { injection H as _ _ <- <-. cbn [map misses rev app]. auto. }
  cbn zeta. cbn [map fst misses rev]. rewrite <- app_assoc. cbn [app].
  unfold cache_seg_io, cache_seg in H.
  destruct (byte_range m (d_dsize (cr_ds r)) a b) as [[[s e] sz]| | | |]; cbn [failed] in H; try discriminate.
  rewrite (get_kept _ (c_addr c) _ _ HK).
  destruct (lru_get (c_addr c) cache) as [[data cache1]|] eqn:EG.
  - destruct (copy_slice m data s e sz pos dst) as [dst'| | | |]; cbn [bind failed] in H; try discriminate.
    destruct (cache_loop_io m inflate r segs st cache1 (pos + sz) dst') as [[[y d'] c'] io'] eqn:EL.
    injection H as -> <- <- <-. cbn [app]. exact (IH _ _ _ _ _ _ _ (hit_recent _ _ _ _ _ _ HC HK EG) EL).
  - destruct (load m inflate (cr_file r) (cr_ds r) (cr_csz r) c) as [data| | | |]; cbn [failed] in H; try discriminate.
    destruct (copy_slice m data s e sz pos dst) as [dst'| | | |]; cbn [failed] in H; try discriminate.
    destruct (cache_loop_io m inflate r segs st (lru_put (cr_cap r) (c_addr c) data cache) (pos + sz) dst') as [[[y d'] c'] io'] eqn:EL.
    injection H as -> <- <- <-. cbn [app].
    destruct (IH _ _ _ _ _ _ _ (miss_recent _ _ data _ _ HC HK EG) EL) as [-> E2]. split; [reflexivity|exact E2].
Qed.

Lemma misses_app cap : forall l l' before,
  misses cap before (l ++ l') = misses cap before l ++ misses cap (rev (map c_addr l) ++ before) l'.
Proof.
  induction l as [|c l IH]; intros l' before; cbn [misses map rev app]; [reflexivity|].
  rewrite IH, <- !app_assoc. reflexivity.
Qed.

Lemma reads_misses m inflate : forall l r xs r' io before, 0 < cr_cap r ->
  keys (cr_cache r) = firstn (N.to_nat (cr_cap r)) (recent before) ->
  reads_io m inflate r l = (xs, r', io) -> Forall (fun x => exists v, x = Ok v) xs ->
  io = misses (cr_cap r) before (uses m (cr_ds r) l) /\
  keys (cr_cache r') = firstn (N.to_nat (cr_cap r)) (recent (rev (map c_addr (uses m (cr_ds r) l)) ++ before)).
Proof.
  induction l as [|[[fuel e] dst] l IH]; intros r xs r' io before HC HK H HX; cbn [reads_io] in H.
  { injection H as <- <- <-. cbn [uses flat_map misses map rev app]. auto. }
  destruct (cache_read_io m inflate fuel r e dst) as [[[x d] r1] io1] eqn:E1.
  destruct (reads_io m inflate r1 l) as [[xs2 r2] io2] eqn:E2. injection H as <- <- <-.
  inversion HX as [|? ? [v Ev] X2]; subst. cbn [uses flat_map fst snd]. fold (uses m (cr_ds r) l).
  unfold cache_read_io in E1. destruct (read_size m (cr_ds r) e dst); try discriminate.
  destruct (chunk_slices m fuel (cr_ds r) e) as [segs st]. cbn [fst] in *.
  destruct (cache_loop_io m inflate r segs st (cr_cache r) 0 dst) as [[[y d'] c'] io'] eqn:E.
  injection E1 as E1 E3 E4 E5. subst. destruct y as [[]| | | |]; try discriminate.
  destruct (loop_misses m inflate r st HC _ _ _ _ _ _ _ _ HK E) as [-> HK'].
  assert (HC' : 0 < cr_cap (mkCR (cr_ds r) (cr_file r) (cr_cap r) (cr_csz r) c')) by exact HC.
  destruct (IH _ _ _ _ _ HC' HK' E2 X2) as [-> HK2]. cbn [cr_cap cr_ds] in *.
  rewrite misses_app, map_app, rev_app_distr, <- app_assoc. auto.
Qed.

Lemma new_room m ds file r csz : cache_new m ds file = Ok r -> chunk_bytes m ds = Ok csz ->
  cr_ds r = ds /\ cr_cap r = room csz /\ cr_cache r = [].
Proof.
  intros HN HC. unfold cache_new in HN. rewrite HC in HN. cbn [bind] in HN. apply bind_ok in HN as (cap & HCap & HN).
  injection HN as <-. cbn [cr_ds cr_cap cr_cache]. refine (conj eq_refl (conj _ eq_refl)).
  unfold cache_cap, div64 in HCap. destruct (csz =? 0); [discriminate|]. cbn [bind] in HCap. now injection HCap as <-.
Qed.

(** Any dataset, file and build mode, any history of successful reads of a new reader: the
    chunks read from the file are exactly those whose address is used for the first time,
    or was pushed out by [room] different chunks used since; and what the reader holds
    afterwards are the chunks still kept. *)
Theorem C70_history m inflate ds file r l xs r' io csz :
  cache_new m ds file = Ok r -> chunk_bytes m ds = Ok csz ->
  reads_io m inflate r l = (xs, r', io) -> Forall (fun x => exists v, x = Ok v) xs ->
  io = misses (room csz) [] (uses m ds l) /\
  (forall a, In a (map fst (cr_cache r')) <-> kept (room csz) (rev (map c_addr (uses m ds l))) a = true).
Proof.
  intros HN HC HR HX. destruct (new_room _ _ _ _ _ HN HC) as (E1 & E2 & E3).
  assert (HP : 0 < cr_cap r) by (rewrite E2; unfold room; lia).
  destruct (reads_misses m inflate l r xs r' io [] HP) as [H1 H2]; auto.
  - rewrite E3. now rewrite firstn_nil.
  - rewrite E1, E2, ?app_nil_r in *. split; [exact H1|]. intros a. rewrite kept_iff. fold (keys (cr_cache r')). now rewrite H2.
Qed.
Print Assumptions C70_history.

(** ** A scan of more chunks than fit *)
Lemma kept_scan cap a newer older : ~ In a newer -> NoDup newer -> cap <= lenN newer -> kept cap (newer ++ a :: older) a = false.
Proof.
  intros Ha ND HL. destruct (kept cap (newer ++ a :: older) a) eqn:E; auto. exfalso. apply kept_iff in E.
  rewrite recent_app, firstn_app, in_app_iff in E.
  assert (HR : length newer = length (recent newer)).
  { apply Nat.le_antisymm; apply NoDup_incl_length; auto using nodup_recent; intros b Hb; now apply in_recent. }
  unfold lenN in HL. destruct E as [E|E].
  - apply in_firstn_in in E. now apply (proj1 (in_recent _ _)) in E.
  - replace (N.to_nat cap - length (recent newer))%nat with O in E by lia. destruct E.
Qed.
Lemma kept_new cap before a : ~ In a before -> kept cap before a = false.
Proof. intros H. unfold kept. now rewrite (proj2 (since_none _ _) H). Qed.
Lemma first_pass cap : forall l before, NoDup (map c_addr l) -> (forall c, In c l -> ~ In (c_addr c) before) ->
  misses cap before l = l.
Proof.
  induction l as [|c l IH]; intros before ND H; cbn [misses]; [reflexivity|]. inversion ND as [|? ? Hc ND']; subst.
  rewrite kept_new by (apply H; now left). cbn [app]. f_equal. apply IH; auto.
  intros c' Hc' [E|E]; [apply Hc; rewrite E; now apply in_map|]. apply (H c'); auto. now right.
Qed.
Lemma second_pass cap l : NoDup (map c_addr l) -> cap < lenN l -> forall l2 l1, l = l1 ++ l2 ->
  misses cap (rev (map c_addr l1) ++ rev (map c_addr l)) l2 = l2.
Proof.
  intros ND HL. induction l2 as [|c l2 IH]; intros l1 E; cbn [misses]; [reflexivity|].
  assert (EK : kept cap (rev (map c_addr l1) ++ rev (map c_addr l)) (c_addr c) = false).
  { rewrite E, map_app, rev_app_distr. cbn [map rev]. rewrite <- app_assoc. cbn [app]. rewrite app_assoc.
    assert (HP : Permutation (map c_addr l) (c_addr c :: rev (map c_addr l1) ++ rev (map c_addr l2))).
    { rewrite E, map_app. cbn [map]. rewrite <- Permutation_middle. constructor.
      apply Permutation_app; apply Permutation_rev. }
    apply (Permutation_NoDup HP) in ND. inversion ND; subst. apply kept_scan; auto.
    apply Permutation_length in HP. cbn [length] in HP. rewrite map_length in HP. unfold lenN in *. lia. }
  rewrite EK. cbn [app]. f_equal. rewrite <- (IH (l1 ++ [c])) at 2; [|now rewrite <- app_assoc].
  rewrite map_app, rev_app_distr. reflexivity.
Qed.

(** Reading the same selection again: if it uses more chunks than fit, each once, the cache
    is of no use - every chunk is read from the file both times.  (If they fit, the second
    read does not touch the file: C59_repeat.) *)
Theorem C70_scan m inflate ds file r fuel e dst dst2 v v2 r' io csz :
  cache_new m ds file = Ok r -> chunk_bytes m ds = Ok csz ->
  let cs := map (fun sg => fst (fst sg)) (fst (chunk_slices m fuel ds e)) in
  NoDup (map c_addr cs) -> room csz < lenN cs ->
  reads_io m inflate r [(fuel, e, dst); (fuel, e, dst2)] = ([Ok v; Ok v2], r', io) ->
  io = cs ++ cs.
Proof.
  intros HN HC cs ND HL HR.
  destruct (C70_history m inflate ds file r _ _ _ _ csz HN HC HR) as [-> _]; [repeat constructor; eauto|].
  unfold uses. cbn [flat_map fst snd]. rewrite app_nil_r. fold cs. rewrite misses_app, app_nil_r.
  f_equal; [apply first_pass; auto|]. exact (second_pass (room csz) cs ND HL cs [] eq_refl).
Qed.
Print Assumptions C70_scan.

(** ** Streams *)
Lemma polls_misses m ps : 0 < ps_cap ps -> forall hist l f cache before items,
  keys cache = firstn (N.to_nat (ps_cap ps)) (recent before) ->
  fst (fst (polls m ps hist (Opened f l cache))) = map PItem items ->
  concat (snd (polls m ps hist (Opened f l cache))) =
  misses (ps_cap ps) before (firstn (length hist) (map (fun sl => fst (fst sl)) l)).
Proof.
  intros HC. induction hist as [|now hist IH]; intros l f cache before items HK H; [reflexivity|].
  cbn [polls] in *. destruct (poll m ps now (Opened f l cache)) as [[x st1] io] eqn:E.
  destruct (polls m ps hist st1) as [[xs st2] ios] eqn:EP. cbn [fst snd concat length] in *.
  destruct items as [|it items]; [discriminate|]. cbn [map] in H. injection H as -> H.
  cbn [poll] in E. unfold poll_open in E. destruct l as [|[[c s0] e0] l']; [discriminate|].
  assert (HH : forall A (y : res A) i, (halt y, i) <> (PItem it, st1, io)).
  { intros A y i Q. injection Q as Q _. destruct y; discriminate. }
  destruct (let* x := ps_xf ps in let* s := mul64 m s0 x in let* e := mul64 m e0 x in let* _ := dbg m (s <=? e) in Ok (s, e)) as [[s e]|er| | |].
  2-5: (exfalso; revert E; apply (HH (N * N)%type)).
  cbn [map fst firstn misses]. rewrite (get_kept _ (c_addr c) _ _ HK).
  destruct (lru_get (c_addr c) cache) as [[data cache']|] eqn:EG.
  - destruct (take_slice m data s e) as [b|er| | |]; [|exfalso; revert E; apply (HH bytes)..].
    injection E as <- <- <-. cbn [app].
    specialize (IH l' f cache' _ items (hit_recent _ _ _ _ _ _ HC HK EG)). rewrite EP in IH. exact (IH H).
  - destruct (ps_get ps f c) as [data|er| | |]; [|exfalso; revert E; apply (HH bytes)..].
    destruct (take_slice m data s e) as [b|er| | |]; [|exfalso; revert E; apply (HH bytes)..].
    injection E as <- <- <-. cbn [app]. f_equal.
    specialize (IH l' f _ _ items (miss_recent _ _ data _ _ HC HK EG)). rewrite EP in IH. exact (IH H).
Qed.

Lemma byte_slices_map m dsz : forall segs l, byte_slices m dsz segs = Ok l ->
  map (fun sl => fst (fst sl)) l = map (fun sg => fst (fst sg)) segs.
Proof.
  induction segs as [|[[c0 a0] b0] segs IH]; intros l H; cbn [byte_slices] in H.
  - injection H as <-. reflexivity.
  - apply bind_ok in H as (s1 & _ & H). apply bind_ok in H as (e1 & _ & H). apply bind_ok in H as (r & Er & H). injection H as <-.
    cbn [map fst]. f_equal. auto.
Qed.
Lemma start_misses m fuel ds csz e ps l hist items cap : collect_slices m fuel ds e = Ok l -> cache_cap csz = Ok cap -> ps_cap ps = cap ->
  fst (fst (polls m ps hist (Fresh l))) = map PItem items ->
  concat (snd (polls m ps hist (Fresh l))) =
  misses (room csz) [] (firstn (length hist) (map (fun sg => fst (fst sg)) (fst (chunk_slices m fuel ds e)))).
Proof.
  intros El HCap <- H.
  assert (EC : ps_cap ps = room csz).
  { unfold cache_cap, div64 in HCap. destruct (csz =? 0); [discriminate|]. cbn [bind] in HCap. now injection HCap as <-. }
  assert (EM : map (fun sl => fst (fst sl)) l = map (fun sg => fst (fst sg)) (fst (chunk_slices m fuel ds e))).
  { unfold collect_slices in El. destruct (chunk_slices m fuel ds e) as [segs z]. cbn [fst].
    apply bind_ok in El as (l' & El & Q). apply bind_ok in Q as (u & _ & Q). injection Q as ->. exact (byte_slices_map _ _ _ _ El). }
  rewrite <- EM, <- EC. destruct hist as [|[f|] hist]; [reflexivity| |].
  - rewrite polls_fresh. apply (polls_misses m ps) with (f := f) (cache := []) (items := items); auto; [rewrite EC; unfold room; lia|now rewrite firstn_nil].
  - cbn [polls poll] in H. destruct (polls m ps hist Over) as [[? ?] ?]. destruct items; discriminate.
Qed.

(** Streams, plain and XDR, polled any number of times without reaching an error or the
    end, whatever happens to the path between the polls: the same rule. *)
Theorem C70_stream m inflate fuel ds csz e ps st hist items :
  stream_start m inflate fuel ds csz e = Ok (ps, st) -> fst (fst (polls m ps hist st)) = map PItem items ->
  concat (snd (polls m ps hist st)) =
  misses (room csz) [] (firstn (length hist) (map (fun sg => fst (fst sg)) (fst (chunk_slices m fuel ds e)))).
Proof.
  unfold stream_start. intros H HI. apply bind_ok in H as (l & El & H). apply bind_ok in H as (cap & HC & H). injection H as <- <-.
  now apply (start_misses m fuel ds csz e _ l hist items cap).
Qed.
Print Assumptions C70_stream.
Theorem C70_xdr m h al1 al2 inflate fuel ds csz e ps st hist items :
  xdr_start m h al1 al2 inflate fuel ds csz e = Ok (ps, st) -> fst (fst (polls m ps hist st)) = map PItem items ->
  concat (snd (polls m ps hist st)) =
  misses (room csz) [] (firstn (length hist) (map (fun sg => fst (fst sg)) (fst (chunk_slices m fuel ds e)))).
Proof.
  unfold xdr_start. intros H HI. apply bind_ok in H as (l & El & H). apply bind_ok in H as (cap & HC & H). injection H as <- <-.
  now apply (start_misses m fuel ds csz e _ l hist items cap).
Qed.
Print Assumptions C70_xdr.

(** ** Cases *)

(** The rule on a room of two: A B A C B - the second use of A is served from the cache and
    keeps A, so C pushes out B. *)
Definition at_ (a : N) : chunk := mkChunk a 1 [].
Example C70_rule : misses 2 [] (map at_ [1; 2; 1; 3; 2]) = map at_ [1; 2; 3; 2]%N /\
  kept 2 [2; 3; 1; 2; 1] 3 = true /\ kept 2 [2; 3; 1; 2; 1] 1 = false.
Proof. vm_compute. auto. Qed.

(** Two chunks of 32 MiB, of which one fits; the selection takes one byte of each. *)
Definition wide : N := 33554432.
Definition wide_ds : dataset :=
  mkDataset (Int 1) 1 LE [mkChunk 0 wide [0; 0]; mkChunk wide wide [1; 0]]
    [2; wide] [1; wide] [1; wide] [1; 1] [wide; 1] [wide; 1] false None.
Definition wide_sel : extents := Extents [SliceCount 0 2; SliceCount 0 2].
Lemma wide_full : full_dataset wide_ds.
Proof.
  constructor; [constructor|..]; try reflexivity.
  - repeat constructor.
  - repeat split; repeat constructor.
Qed.
Lemma wide_regular : regular wide_ds.
Proof.
  constructor; [constructor; [reflexivity|reflexivity|intros _; cbn; auto|reflexivity]| |].
  - intros c c'. cbn [wide_ds d_chunks In]. intros [<-|[<-|[]]] [<-|[<-|[]]]; vm_compute; congruence.
  - intros _ c. cbn [wide_ds d_chunks In]. intros [<-|[<-|[]]]; reflexivity.
Qed.
Lemma wide_safe dst : 4 <= lenN dst -> lenN dst < W64 -> safe_read wide_ds wide_sel [0; 0] [2; 2] dst 5.
Proof.
  intros H1 H2. constructor; auto using wide_full, wide_regular; try reflexivity; try (cbn; lia).
  cbn [wide_ds d_shape]. unfold wide. sel_in_tac.
Qed.

(** Any file of 64 MiB. *)
Example C70_scan_case m inflate wide_file : 2 * wide <= lenN wide_file -> exists r r',
  cache_new m wide_ds wide_file = Ok r /\ chunk_bytes m wide_ds = Ok wide /\ room wide = 1 /\
  let cs := map (fun sg => fst (fst sg)) (fst (chunk_slices m 5 wide_ds wide_sel)) in
  cs = d_chunks wide_ds /\ NoDup (map c_addr cs) /\ room wide < lenN cs /\
  reads_io m inflate r [(5%nat, wide_sel, [1; 2; 3; 4]); (5%nat, wide_sel, [1; 2; 3; 4])] = ([Ok 4; Ok 4], r', cs ++ cs).
Proof.
  intros HW. assert (HS : stores inflate wide_file wide_ds (ExactReads.value_of wide_ds wide_file)).
  { refine (ExactReads.plain_stores wide_ds inflate wide_full wide_regular eq_refl eq_refl _ wide_file _).
    - intros [|[|[|j]]]; reflexivity.
    - intros c. cbn [wide_ds d_chunks In]. intros [<-|[<-|[]]]; cbn [c_addr c_size]; clear - HW; lia. }
  set (r := mkCR wide_ds wide_file 1 wide []).
  assert (HN : cache_new m wide_ds wide_file = Ok r) by (destruct m; reflexivity).
  assert (HC : chunk_bytes m wide_ds = Ok wide) by (destruct m; reflexivity).
  assert (HF : safe_read wide_ds wide_sel [0; 0] [2; 2] [1; 2; 3; 4] 5) by (apply wide_safe; vm_compute; [discriminate|reflexivity]).
  assert (HR : reachable m inflate wide_ds wide_file r) by now constructor.
  assert (ST : forall q, reachable m inflate wide_ds wide_file q -> exists d q' io, reachable m inflate wide_ds wide_file q' /\
     cache_read_io m inflate 5 q wide_sel [1; 2; 3; 4] = (Ok 4, d, q', io)).
  { revert HS. generalize (ExactReads.value_of wide_ds wide_file). intros value HS q Hq. destruct (C21_cached_partial m inflate wide_file wide_ds value wide_sel _ _ _ 5%nat q HS HF Hq) as [E _].
    pose proof (cache_io_erase m inflate 5 q wide_sel [1; 2; 3; 4]) as EE.
    destruct (cache_read_io m inflate 5 q wide_sel [1; 2; 3; 4]) as [[[x d] q'] io]. cbn [fst] in EE.
    rewrite <- EE in E. cbn [fst] in E. apply (f_equal fst) in E. cbn [fst] in E. rewrite E. exists d, q', io. split; [|reflexivity].
    replace q' with (snd (cache_read m inflate 5 q wide_sel [1; 2; 3; 4])) by now rewrite <- EE. now constructor. }
  destruct (ST r HR) as (d1 & r1 & io1 & HR1 & E1). destruct (ST r1 HR1) as (d2 & r2 & io2 & _ & E2).
  exists r, r2. refine (conj HN (conj HC (conj eq_refl _))).
  assert (ES : map (fun sg => fst (fst sg)) (fst (chunk_slices m 5 wide_ds wide_sel)) = d_chunks wide_ds) by (destruct m; reflexivity).
  cbn zeta. rewrite ES.
  assert (ND : NoDup (map c_addr (d_chunks wide_ds))) by (repeat constructor; cbn; intuition discriminate).
  refine (conj eq_refl (conj ND (conj _ _))); [reflexivity|].
  assert (EQ : reads_io m inflate r [(5%nat, wide_sel, [1; 2; 3; 4]); (5%nat, wide_sel, [1; 2; 3; 4])] = ([Ok 4; Ok 4], r2, io1 ++ io2 ++ [])).
  { cbn [reads_io]. rewrite E1, E2. reflexivity. }
  rewrite EQ. f_equal. pose proof (fun d1 d2 v1 v2 q io => C70_scan m inflate wide_ds wide_file r 5%nat wide_sel d1 d2 v1 v2 q io wide HN HC) as H.
  cbn zeta in H. rewrite ES in H. exact (H _ _ _ _ _ _ ND eq_refl EQ).
Qed.
