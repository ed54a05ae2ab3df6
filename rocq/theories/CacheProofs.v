(** * Proofs about the cached reader: the cache is invisible and bounded. *)
From Verif Require Import Base Spec Extent Chunk Dataset Slicer Filters SpecApi SpecFilter SpecReader
  Termination GroupProofs SliceProps Reader.

(** ** Segments name chunks of the dataset *)

Lemma lookup_in m ds x c : chunk_at_coord m ds x = Ok c -> In c (d_chunks ds).
Proof.
  unfold chunk_at_coord. intros H. debind H. debind H. debind H.
  destruct (nth_error _ _) eqn:E2; [|discriminate]. injection H as <-. eapply nth_error_In; eauto.
Qed.

Lemma next_in m ds st c a b st' : slicer_next m ds st = Ok (Some (c, a, b, st')) -> In c (d_chunks ds).
Proof.
  unfold slicer_next. destruct (_ <=? _); [discriminate|]. destruct (is_scalar ds).
  - intros H. debind H. debind H. destruct (d_chunks ds); [discriminate|]. injection H as <- _ _ _. now left.
  - intros H. debind H. apply bind_ok in H as (ch & Ech & H). debind H. debind H.
    apply bind_ok in H as ([[[[v1 r1] k1] av] f1] & E4 & H).
    debind H. debind H. debind H. debind H. injection H as -> _ _ _. eapply lookup_in; eauto.
Qed.

Lemma run_in m ds : forall fuel st sg, In sg (fst (slicer_run m fuel ds st)) -> In (fst (fst sg)) (d_chunks ds).
Proof.
  induction fuel as [|fuel IH]; intros st sg; cbn [slicer_run]; [easy|].
  destruct (slicer_next m ds st) as [[[[[c a] b] st']|]| | | |] eqn:E; try easy.
  specialize (IH st' sg). destruct (slicer_run m fuel ds st') as [l s]. cbn [fst In] in *.
  intros [<-|H]; auto. cbn [fst]. eapply next_in; eauto.
Qed.

Lemma slices_in m fuel ds e : Forall (fun sg => In (fst (fst sg)) (d_chunks ds)) (fst (chunk_slices m fuel ds e)).
Proof.
  apply Forall_forall. intros sg. unfold chunk_slices.
  destruct (chunk_slicer m ds e); try easy. apply run_in.
Qed.

(** ** The LRU cache *)

Lemma find_cons k a v c : lru_find k ((a, v) :: c) = if a =? k then Some v else lru_find k c.
Proof. unfold lru_find. cbn [find]. destruct (a =? k); reflexivity. Qed.
Lemma find_remove j k c : lru_find j (lru_remove k c) = if j =? k then None else lru_find j c.
Proof.
  induction c as [|[a v] c IH].
  - cbn. now destruct (_ =? _).
  - unfold lru_remove in *. cbn [filter]. destruct (N.eqb_spec a k) as [->|Hn]; cbn [negb].
    + rewrite IH, find_cons. destruct (N.eqb_spec j k) as [->|H]; auto.
      destruct (N.eqb_spec k j); congruence.
    + rewrite !find_cons, IH. destruct (N.eqb_spec a j) as [->|]; auto.
      destruct (N.eqb_spec j k); congruence.
Qed.
Lemma find_in k v c : lru_find k c = Some v -> In (k, v) c.
Proof.
  induction c as [|[a w] c IH]; [easy|]. rewrite find_cons. destruct (N.eqb_spec a k) as [->|]; cbn [In]; auto.
  intros [= ->]. auto.
Qed.
Lemma find_none k c : lru_find k c = None -> ~ In k (map fst c).
Proof.
  induction c as [|[a w] c IH]; [easy|]. rewrite find_cons. destruct (N.eqb_spec a k) as [->|]; [discriminate|].
  intros H [E|Hin]; cbn in *; [congruence|]. now apply IH.
Qed.
Lemma find_removelast k v c : lru_find k (removelast c) = Some v -> lru_find k c = Some v.
Proof.
  induction c as [|[a w] c IH]; [easy|]. destruct c as [|x c]; [easy|].
  change (removelast ((a, w) :: x :: c)) with ((a, w) :: removelast (x :: c)).
  rewrite !find_cons. destruct (a =? k); auto.
Qed.

Lemma get_some k c v c' : lru_get k c = Some (v, c') ->
  lru_find k c = Some v /\ c' = (k, v) :: lru_remove k c /\ forall j, lru_find j c' = lru_find j c.
Proof.
  unfold lru_get. destruct (lru_find k c) as [w|] eqn:E; [|discriminate]. intros [= <- <-].
  split; auto. split; auto. intros j. rewrite find_cons, find_remove.
  destruct (N.eqb_spec k j) as [->|Hn]; [now rewrite E|]. destruct (N.eqb_spec j k); congruence.
Qed.
Lemma get_none k c : lru_get k c = None -> lru_find k c = None.
Proof. unfold lru_get. destruct (lru_find k c); [discriminate|auto]. Qed.
Lemma put_find cap k v c j w : lru_find j (lru_put cap k v c) = Some w ->
  (j = k /\ w = v) \/ lru_find j c = Some w.
Proof.
  unfold lru_put. destruct (lru_find k c) eqn:E; rewrite find_cons; destruct (N.eqb_spec k j) as [->|Hn];
    try (intros [= ->]; auto; fail); intros H.
  - right. rewrite find_remove in H. destruct (N.eqb_spec j k); [discriminate|auto].
  - right. destruct (_ <? _); auto. now apply find_removelast.
Qed.

(** Capacity, distinct keys, and any property of the entries. *)
Definition lru_ok (cap : N) (P : N * bytes -> Prop) (c : lru) : Prop :=
  lenN c <= cap /\ NoDup (map fst c) /\ Forall P c.

Lemma filter_le {A} (f : A -> bool) l : (length (filter f l) <= length l)%nat.
Proof. induction l as [|x l IH]; cbn [filter length]; auto. destruct (f x); cbn [length]; lia. Qed.
Lemma remove_keys k c : NoDup (map fst c) -> NoDup (map fst (lru_remove k c)) /\ ~ In k (map fst (lru_remove k c)).
Proof.
  intros ND. assert (S : forall j, In j (map fst (lru_remove k c)) -> In j (map fst c) /\ j <> k).
  { intros j Hj. apply in_map_iff in Hj as ([a v] & <- & Hin). apply filter_In in Hin as [H1 H2].
    cbn [fst]. split; [apply in_map_iff; exists (a, v); auto|].
    destruct (N.eqb_spec a k); [discriminate|auto]. }
  split; [|intros H; now apply S in H].
  clear S. induction c as [|[a v] c IH]; cbn [lru_remove filter map] in *; [constructor|].
  inversion ND; subst. unfold lru_remove in *. destruct (negb (a =? k)); cbn [map fst]; auto.
  constructor; auto. intros Hin. apply H1. apply in_map_iff in Hin as (y & E & Hy).
  apply filter_In in Hy as [Hy _]. apply in_map_iff. now exists y.
Qed.
Lemma remove_len k v c : lru_find k c = Some v -> (length (lru_remove k c) < length c)%nat.
Proof.
  induction c as [|[a w] c IH]; [easy|]. rewrite find_cons. unfold lru_remove in *. cbn [filter length].
  destruct (N.eqb_spec a k) as [->|Hn]; cbn [negb].
  - intros _. pose proof (filter_le (fun '(a0, _) => negb (a0 =? k)) c). lia.
  - intros H. apply IH in H. cbn [length]. lia.
Qed.
Lemma removelast_sub {A} (l : list A) : exists t, l = removelast l ++ t /\ (l = [] \/ length t = 1%nat).
Proof.
  destruct l as [|x l] using rev_ind; [exists []; auto|].
  exists [x]. rewrite removelast_last. auto.
Qed.
Lemma NoDup_prefix {A} (a b : list A) : NoDup (a ++ b) -> NoDup a.
Proof.
  induction a as [|x a IH]; cbn [app]; intros H; [constructor|]. inversion H; subst. constructor; auto.
  intros Hin. apply H2. apply in_app_iff. auto.
Qed.

Lemma get_ok cap P k c v c' : lru_ok cap P c -> lru_get k c = Some (v, c') -> lru_ok cap P c'.
Proof.
  intros (A & B & C) H. apply get_some in H as (Hf & -> & _).
  pose proof (remove_len _ _ _ Hf). destruct (remove_keys k c B) as [ND NI].
  split; [unfold lenN in *; cbn [length]; lia|]. split; [cbn [map fst]; now constructor|].
  rewrite Forall_forall in C. apply Forall_forall. intros y [<-|Hy].
  - now apply C, find_in.
  - apply filter_In in Hy as [Hy _]. auto.
Qed.
Lemma put_ok (cap : N) P k v c : 1 <= cap -> lru_ok cap P c -> P (k, v) -> lru_ok cap P (lru_put cap k v c).
Proof.
  intros H1 (A & B & C) HP. unfold lru_put. destruct (lru_find k c) as [w|] eqn:Hf.
  - pose proof (remove_len _ _ _ Hf). destruct (remove_keys k c B) as [ND NI].
    split; [unfold lenN in *; cbn [length]; lia|]. split; [cbn [map fst]; now constructor|].
    constructor; auto. rewrite Forall_forall in *. intros y Hy. apply filter_In in Hy as [Hy _]. auto.
  - apply find_none in Hf. destruct (N.ltb_spec (lenN c) cap).
    + split; [unfold lenN in *; cbn [length]; lia|]. split; [cbn [map fst]; now constructor|]. now constructor.
    + destruct (removelast_sub c) as (t & E & Ht).
      assert (Sub : forall y, In y (removelast c) -> In y c) by (intros y Hy; rewrite E; apply in_app_iff; auto).
      split; [|split].
      * unfold lenN in *. cbn [length]. rewrite E in A, H. rewrite app_length in A, H.
        destruct Ht as [->|Ht]; [cbn in *; lia|lia].
      * cbn [map fst]. constructor.
        -- intros Hin. apply Hf. apply in_map_iff in Hin as (y & Ey & Hy). apply in_map_iff. exists y. auto.
        -- rewrite E, map_app in B. eapply NoDup_prefix; eauto.
      * constructor; auto. rewrite Forall_forall in *. auto.
Qed.

(** ** The loop without a cache *)

(** One segment without a cache. *)
Definition seg_copy (m : mode) (L : chunk -> res bytes) (dsz : N) (sg : segment) (pos : N) (dst : bytes)
    : res (bytes * N) :=
  let '(c, a, b) := sg in
  let* (s, e, sz) := byte_range m dsz a b in
  let* data := L c in
  let* dst' := copy_slice m data s e sz pos dst in
  Ok (dst', pos + sz).
Fixpoint plain_loop (m : mode) (L : chunk -> res bytes) (dsz : N) (segs : list segment) (st : stop)
    (pos : N) (dst : bytes) : res unit * bytes :=
  match segs with
  | [] => (stop_res st, dst)
  | sg :: segs' =>
      match seg_copy m L dsz sg pos dst with
      | Ok (dst', pos') => plain_loop m L dsz segs' st pos' dst'
      | x => (failed x, dst)
      end
  end.

Definition rload (m : mode) (inflate : bytes -> option bytes) (r : creader) : chunk -> res bytes :=
  load m inflate (cr_file r) (cr_ds r) (cr_csz r).

(** Entries are what loading the chunks at that address gives. *)
Definition cache_ok (m : mode) (inflate : bytes -> option bytes) (r : creader) (c : lru) : Prop :=
  forall k v, lru_find k c = Some v ->
    forall ch, In ch (d_chunks (cr_ds r)) -> c_addr ch = k -> rload m inflate r ch = Ok v.

Lemma load_same m inflate file ds csz c c' :
  c_addr c = c_addr c' -> c_size c = c_size c' -> load m inflate file ds csz c = load m inflate file ds csz c'.
Proof. unfold load. intros -> ->. reflexivity. Qed.

Lemma cache_seg_plain m inflate r cache sg pos dst :
  same_addr (cr_ds r) -> cache_ok m inflate r cache -> In (fst (fst sg)) (d_chunks (cr_ds r)) ->
  fst (cache_seg m inflate r cache sg pos dst) = seg_copy m (rload m inflate r) (d_dsize (cr_ds r)) sg pos dst /\
  cache_ok m inflate r (snd (cache_seg m inflate r cache sg pos dst)).
Proof.
  intros HA HC Hin. destruct sg as [[c a] b]. cbn [fst] in Hin. unfold cache_seg, seg_copy.
  destruct (byte_range m (d_dsize (cr_ds r)) a b) as [[[s e] sz]| | | |]; cbn [bind failed fst snd]; auto.
  destruct (lru_get (c_addr c) cache) as [[data cache']|] eqn:Eg.
  - apply get_some in Eg as (Hf & _ & Hs). rewrite (HC _ _ Hf c Hin eq_refl). cbn [bind fst snd].
    split; auto. intros k v Hk. rewrite Hs in Hk. now apply HC.
  - fold (rload m inflate r).
    destruct (rload m inflate r c) as [data| | | |] eqn:EL; cbn [bind failed fst snd]; auto.
    destruct (copy_slice m data s e sz pos dst); cbn [bind failed fst snd]; auto.
    split; auto. intros k v Hk ch Hch Ha. apply put_find in Hk as [[-> ->]|Hk]; [|now apply HC with k].
    rewrite <- EL. unfold rload. apply load_same; auto.
Qed.

Lemma cache_loop_plain m inflate r st : same_addr (cr_ds r) -> forall segs cache pos dst,
  cache_ok m inflate r cache -> Forall (fun sg => In (fst (fst sg)) (d_chunks (cr_ds r))) segs ->
  fst (cache_loop m inflate r segs st cache pos dst) =
    plain_loop m (rload m inflate r) (d_dsize (cr_ds r)) segs st pos dst /\
  cache_ok m inflate r (snd (cache_loop m inflate r segs st cache pos dst)).
Proof.
  intros HA. induction segs as [|sg segs IH]; intros cache pos dst HC HF; cbn [cache_loop plain_loop]; auto.
  inversion HF as [|? ? H1 H2]; subst.
  destruct (cache_seg_plain m inflate r cache sg pos dst HA HC H1) as [E1 E2].
  destruct (cache_seg m inflate r cache sg pos dst) as [x cache'] eqn:Es. cbn [fst snd] in E1, E2. rewrite <- E1.
  destruct x as [[dst' pos']| | | |]; cbn [fst snd]; auto.
Qed.

(** ** Reading *)

Definition plain_read (m : mode) (inflate : bytes -> option bytes) (fuel : nat) (file : bytes) (ds : dataset)
    (csz : N) (e : extents) (dst : bytes) : res N * bytes :=
  match read_size m ds e dst with
  | Ok vsz =>
      let (segs, st) := chunk_slices m fuel ds e in
      let (x, dst') := plain_loop m (load m inflate file ds csz) (d_dsize ds) segs st 0 dst in
      (let* _ := x in Ok vsz, dst')
  | x => (failed x, dst)
  end.

Lemma cache_read_plain m inflate fuel r e dst :
  same_addr (cr_ds r) -> cache_ok m inflate r (cr_cache r) ->
  fst (cache_read m inflate fuel r e dst) = plain_read m inflate fuel (cr_file r) (cr_ds r) (cr_csz r) e dst /\
  (forall r', snd (cache_read m inflate fuel r e dst) = r' ->
     cr_ds r' = cr_ds r /\ cr_file r' = cr_file r /\ cr_csz r' = cr_csz r /\ cr_cap r' = cr_cap r /\
     cache_ok m inflate r' (cr_cache r')).
Proof.
  intros HA HC. unfold cache_read, plain_read.
  destruct (read_size m (cr_ds r) e dst); cbn [fst snd]; try (split; [auto|intros ? <-; auto 6]; fail).
  pose proof (slices_in m fuel (cr_ds r) e) as HF.
  destruct (chunk_slices m fuel (cr_ds r) e) as [segs st]. cbn [fst] in HF.
  destruct (cache_loop_plain m inflate r st HA segs (cr_cache r) 0 dst HC HF) as [E1 E2].
  destruct (cache_loop m inflate r segs st (cr_cache r) 0 dst) as [[x dst'] cache']. cbn [fst snd] in *.
  unfold rload in E1. rewrite <- E1. split; auto. intros ? <-. cbn [cr_ds cr_file cr_csz cr_cap cr_cache].
  repeat split; auto.
Qed.

(** Boundedness of the cache after a read. *)
Definition entry_ok (B : option N) (kv : N * bytes) : Prop :=
  match B with Some n => lenN (snd kv) <= n | None => True end.

Lemma cache_seg_ok m inflate r B cache sg pos dst : 1 <= cr_cap r ->
  (forall c v, rload m inflate r c = Ok v -> In c (d_chunks (cr_ds r)) -> entry_ok B (c_addr c, v)) ->
  In (fst (fst sg)) (d_chunks (cr_ds r)) ->
  lru_ok (cr_cap r) (entry_ok B) cache ->
  lru_ok (cr_cap r) (entry_ok B) (snd (cache_seg m inflate r cache sg pos dst)).
Proof.
  intros H1 HL Hin HO. destruct sg as [[c a] b]. cbn [fst] in Hin. unfold cache_seg.
  destruct (byte_range m (d_dsize (cr_ds r)) a b) as [[[s e] sz]| | | |]; cbn [snd]; auto.
  destruct (lru_get (c_addr c) cache) as [[data cache']|] eqn:Eg.
  - cbn [snd]. eapply get_ok; eauto.
  - fold (rload m inflate r). destruct (rload m inflate r c) as [data| | | |] eqn:EL; cbn [snd]; auto.
    destruct (copy_slice m data s e sz pos dst); cbn [snd]; auto. apply put_ok; auto.
Qed.
Lemma cache_loop_ok m inflate r B st : 1 <= cr_cap r ->
  (forall c v, rload m inflate r c = Ok v -> In c (d_chunks (cr_ds r)) -> entry_ok B (c_addr c, v)) ->
  forall segs cache pos dst,
  Forall (fun sg => In (fst (fst sg)) (d_chunks (cr_ds r))) segs ->
  lru_ok (cr_cap r) (entry_ok B) cache ->
  lru_ok (cr_cap r) (entry_ok B) (snd (cache_loop m inflate r segs st cache pos dst)).
Proof.
  intros H1 HL. induction segs as [|sg segs IH]; intros cache pos dst HF HO; cbn [cache_loop]; auto.
  inversion HF as [|? ? Hh Ht]; subst.
  pose proof (cache_seg_ok m inflate r B cache sg pos dst H1 HL Hh HO) as H2.
  destruct (cache_seg m inflate r cache sg pos dst) as [x cache'] eqn:Es. cbn [snd] in H2.
  destruct x as [[dst' pos']| | | |]; cbn [snd]; auto.
Qed.
Lemma cache_read_ok m inflate fuel r B e dst : 1 <= cr_cap r ->
  (forall c v, rload m inflate r c = Ok v -> In c (d_chunks (cr_ds r)) -> entry_ok B (c_addr c, v)) ->
  lru_ok (cr_cap r) (entry_ok B) (cr_cache r) ->
  lru_ok (cr_cap r) (entry_ok B) (cr_cache (snd (cache_read m inflate fuel r e dst))).
Proof.
  intros H1 HL HO. unfold cache_read. destruct (read_size m (cr_ds r) e dst); cbn [snd]; auto.
  pose proof (slices_in m fuel (cr_ds r) e) as HF.
  destruct (chunk_slices m fuel (cr_ds r) e) as [segs st]. cbn [fst] in HF.
  pose proof (cache_loop_ok m inflate r B st H1 HL segs (cr_cache r) 0 dst HF HO).
  destruct (cache_loop m inflate r segs st (cr_cache r) 0 dst) as [[x dst'] cache']. exact H.
Qed.
