(** * Properties48: what hfxlst answers, exactly (C53), and memory safety whatever an index holds (C77). *)
From Coq Require Import Permutation String.
From Verif Require Import Base Spec SpecApi SpecReader Chunk Extent Dataset Slicer Filters Reader S3 IndexTree Serde SpecSerde SpecTree
  SerdeProofs SerdeTyped Tools CacheProofs GroupProofs DirectProofs ParProofs ReadProofs ReaderProps SliceProps Examples ExamplesReader
  SpecText ApiLemmas ExtentProofs Properties4 Properties7 Properties11 Properties16.
Open Scope string_scope. Open Scope N_scope. Notation length := List.length.

(** ** C53: the answer of hfxlst

    It succeeds exactly for files that are there and that one of the formats of the build reads; then
    it lists that index.  A missing file is always reported as such; bytes no format reads
    are an error; and only a decoder that panics makes it panic. *)
Definition reads_as (fo bo : bool) (fde : list N -> res index) (b : list N) (x : res index) : Prop :=
  (fo = true /\ fde b = x /\ (forall e, x <> Err e)) \/
  ((fo = true -> exists e, fde b = Err e) /\ bo = true /\ bincode_deserialize b = x /\ (forall e, x <> Err e)) \/
  ((fo = true -> exists e, fde b = Err e) /\ (bo = true -> exists e, bincode_deserialize b = Err e) /\ x = Err EDe).

Lemma read_index_as fo bo fde b x : read_index fo bo fde b = x <-> reads_as fo bo fde b x.
Proof.
  unfold read_index, reads_as. split.
  - intros <-. destruct fo.
    + destruct (fde b) as [i|y| | |] eqn:E; try (left; split; [reflexivity|]; split; [reflexivity|]; intros; discriminate).
      right. destruct bo; [|right; split; [eauto|]; split; [discriminate|reflexivity]].
      destruct (bincode_deserialize b) as [i|z| | |] eqn:E2; try (left; split; [eauto|]; split; [reflexivity|]; split; [reflexivity|]; intros; discriminate).
      right. split; [eauto|]. split; [eauto|reflexivity].
    + right. destruct bo; [|right; split; [discriminate|]; split; [discriminate|reflexivity]].
      destruct (bincode_deserialize b) as [i|z| | |] eqn:E2; try (left; split; [discriminate|]; split; [reflexivity|]; split; [reflexivity|]; intros; discriminate).
      right. split; [discriminate|]. split; [eauto|reflexivity].
  - intros [(-> & -> & H)|[(H1 & -> & H2 & H3)|(H1 & H2 & ->)]].
    + destruct x; try reflexivity. now destruct (H e).
    + assert (E : match bincode_deserialize b with Err _ => Err EDe | x0 => x0 end = x) by (rewrite H2; destruct x; try reflexivity; now destruct (H3 e)).
      rewrite E. destruct fo; [|reflexivity]. destruct (H1 eq_refl) as (z & ->). reflexivity.
    + assert (E : (if bo then match bincode_deserialize b with Err _ => Err EDe | x0 => x0 end else Err EDe) = Err EDe).
      { destruct bo; [|reflexivity]. destruct (H2 eq_refl) as (z & ->). reflexivity. }
      rewrite E. destruct fo; [|reflexivity]. destruct (H1 eq_refl) as (z & ->). reflexivity.
Qed.

Theorem C53_list_exact fo bo fde fs input :
  let answer := hfxlst fo bo fde fs input in
  (answer = Err EOpen <-> fs input = None) /\
  (forall path l, answer = Ok (path, l) <-> exists b i, fs input = Some b /\ reads_as fo bo fde b (Ok i) /\
     path = i_path i /\ l = map (fun nd => (fst nd, d_shape (snd nd))) (gi_datasets (i_root i))) /\
  (forall e, e <> EOpen -> (answer = Err e <-> e = EDe /\ exists b, fs input = Some b /\ reads_as fo bo fde b (Err EDe))) /\
  (answer = Panic <-> exists b, fs input = Some b /\ reads_as fo bo fde b Panic).
Proof.
  cbv zeta. unfold hfxlst. destruct (fs input) as [b|].
  2:{ split; [tauto|]. split; [intros; split; [discriminate|intros (b & i & H & _); discriminate]|].
      split; [intros e He; split; [intros H; injection H as <-; now destruct He|intros (_ & b & H & _); discriminate]|].
      split; [discriminate|intros (b & H & _); discriminate]. }
  setoid_rewrite <- read_index_as.
  assert (HE : forall e, read_index fo bo fde b = Err e -> e = EDe).
  { intros e H. apply read_index_as in H as [(_ & _ & H)|[(_ & _ & _ & H)|(_ & _ & H)]]; [now destruct (H e)|now destruct (H e)|congruence]. }
  destruct (read_index fo bo fde b) as [i|z| | |] eqn:E; cbn [bind].
  - split; [split; discriminate|]. split; [|split].
    + intros path l. split.
      * intros H. injection H as <- <-. exists b, i. auto.
      * intros (b' & i' & H & Hi & -> & ->). injection H as <-. rewrite E in Hi. injection Hi as <-. reflexivity.
    + intros e He. split; [discriminate|]. intros (_ & b' & H & Hi). injection H as <-. congruence.
    + split; [discriminate|]. intros (b' & H & Hi). injection H as <-. congruence.
  - rewrite (HE z eq_refl) in *. split; [split; discriminate|]. split; [|split].
    + intros path l. split; [discriminate|]. intros (b' & i' & H & Hi & _). injection H as <-. congruence.
    + intros e He. split; [intros H; injection H as <-; eauto|]. intros (-> & _). reflexivity.
    + split; [discriminate|]. intros (b' & H & Hi). injection H as <-. congruence.
  - split; [split; discriminate|]. split; [|split].
    + intros path l. split; [discriminate|]. intros (b' & i' & H & Hi & _). injection H as <-. congruence.
    + intros e He. split; [discriminate|]. intros (_ & b' & H & Hi). injection H as <-. congruence.
    + split; [eauto|reflexivity].
  - split; [split; discriminate|]. split; [|split].
    + intros path l. split; [discriminate|]. intros (b' & i' & H & Hi & _). injection H as <-. congruence.
    + intros e He. split; [discriminate|]. intros (_ & b' & H & Hi). injection H as <-. congruence.
    + split; [discriminate|]. intros (b' & H & Hi). injection H as <-. congruence.
  - split; [split; discriminate|]. split; [|split].
    + intros path l. split; [discriminate|]. intros (b' & i' & H & Hi & _). injection H as <-. congruence.
    + intros e He. split; [discriminate|]. intros (_ & b' & H & Hi). injection H as <-. congruence.
    + split; [discriminate|]. intros (b' & H & Hi). injection H as <-. congruence.
Qed.
Print Assumptions C53_list_exact.

(** ** C53: the exit of hfxidx

    A file that is not there, one that the HDF5 library does not open, one that cannot be
    indexed and a format the build lacks are reported as errors (a panic only if the library
    or the indexing panics), and nothing has been written. *)
Theorem C53_index_exit m fo bo fser h5 fs input output ty r tr :
  hfxidx m fo bo fser h5 fs input output ty r tr ->
  (fs input = None -> r = Err EOpen /\ tr = []) /\
  (forall b, fs input = Some b ->
     (forall e, h5 b = Err e -> r = Err e /\ tr = []) /\
     (forall root, h5 b = Ok root ->
        (forall e, index_file m (Some input) root = Err e -> r = Err e /\ tr = []) /\
        (forall i, index_file m (Some input) root = Ok i ->
           ~ (fo = true /\ (ty = text "any" \/ ty = text "flexbuffers")) -> ~ (bo = true /\ (ty = text "any" \/ ty = text "bincode")) ->
           r = Err EType /\ tr = []))).
Proof.
  intros H. assert (K : forall x, index_path m h5 fs input = x -> (forall i, x <> Ok i) -> r = failed x /\ tr = []).
  { intros x Hx HN. destruct H as [x' E1 E2|i x' E1 E2 E3|i b r' tr' E1 E2 E3].
    - rewrite <- Hx, E1. auto.
    - exfalso. apply (HN i). congruence.
    - exfalso. apply (HN i). congruence. }
  unfold index_path in K. split; [|intros b Hb; split; [|intros root Hr; split]].
  - intros E. rewrite E in K. apply (K (Err EOpen)); [reflexivity|discriminate].
  - intros e Ee. rewrite Hb, Ee in K. apply (K (Err e)); [reflexivity|discriminate].
  - intros e Ee. rewrite Hb, Hr in K. cbn [bind] in K. rewrite Ee in K. apply (K (Err e)); [reflexivity|discriminate].
  - intros i Hi HX HY. assert (Ep : index_path m h5 fs input = Ok i) by (unfold index_path; now rewrite Hb, Hr).
    assert (EE : encode fo bo fser ty i = Err EType).
    { unfold encode. destruct (fo && (str_eqb ty S_ANY || str_eqb ty S_FLEX)) eqn:Ef.
      { exfalso. apply HX. apply andb_true_iff in Ef as [-> Ef]. split; auto. apply orb_true_iff in Ef as [Ef|Ef]; apply str_eqb_spec in Ef; subst ty; [now left|now right]. }
      destruct (bo && (str_eqb ty S_ANY || str_eqb ty S_BINCODE)) eqn:Eb; [|reflexivity].
      exfalso. apply HY. apply andb_true_iff in Eb as [-> Eb]. split; auto. apply orb_true_iff in Eb as [Eb|Eb]; apply str_eqb_spec in Eb; subst ty; [now left|now right]. }
    destruct H as [x' E1 E2|i' x' E1 E2 E3|i' b' r' tr' E1 E2 E3].
    + exfalso. apply (E2 i). congruence.
    + rewrite Ep in E1. injection E1 as <-. rewrite EE in E2. subst x'. auto.
    + exfalso. rewrite Ep in E1. injection E1 as <-. rewrite EE in E2. discriminate.
Qed.
Print Assumptions C53_index_exit.
Example C53_exit_case :
  (exists r tr, hfxidx Debug false true no_flex ex_h5_open ex_fs ex_out ex_in (text "any") r tr /\ ex_fs ex_out = None) /\
  (exists r tr, hfxidx Debug false true no_flex ex_h5_open ex_fs ex_in ex_out (text "flexbuffers") r tr /\
     ~ (true = true /\ (text "flexbuffers" = text "any" \/ text "flexbuffers" = text "bincode"))) /\
  (exists b, bincode_serialize ex_index = Ok b /\ reads_as false true no_flex_de b (Ok ex_index) /\ reads_as true true no_flex_de b (Ok ex_index) /\
     reads_as false true no_flex_de [7] (Err EDe)).
Proof.
  split; [|split].
  - do 2 eexists. split; [|reflexivity]. apply hi_index with (x := Err EOpen); [reflexivity|discriminate].
  - destruct (C53_case Debug) as (_ & _ & _ & tr & H). exists (Err EType), tr. split; [exact H|]. intros [_ [X|X]]; discriminate.
  - assert (EB : exists b, bincode_serialize ex_index = Ok b /\ bincode_deserialize b = Ok ex_index).
    { eexists. split; vm_compute; reflexivity. }
    destruct EB as (b & EB & ED). exists b. split; [exact EB|]. rewrite <- !read_index_as. unfold read_index. rewrite ED.
    split; [reflexivity|]. split; reflexivity.
Qed.
Close Scope string_scope.

(** ** C77: memory safety whatever an index holds

    For every dataset there can be (also one loaded from a damaged or hostile index), every
    file, reader state and server: loading an index, decoding a chunk, the cached, direct and S3
    readers, streams and typed reads never access memory outside their buffers, in both
    builds; neither does the parallel reader in debug builds (in release builds it does:
    C26_release_refuted).  They may panic, fail or not end. *)
Definition sound {A} (x : res A) : Prop := x <> Ub.
Lemma sound_bind {A B} (x : res A) (f : A -> res B) : sound x -> (forall a, sound (f a)) -> sound (bind x f).
Proof. unfold sound. apply bind_no_ub. Qed.
Lemma sound_ok {A} (a : A) : sound (Ok a).
Proof. discriminate. Qed.
Lemma sound_err {A} e : sound (Err e : res A).
Proof. discriminate. Qed.
Lemma sound_panic {A} : sound (Panic : res A).
Proof. discriminate. Qed.
Lemma sound_hang {A} : sound (Hang : res A).
Proof. discriminate. Qed.
Lemma sound_failed {A B} (x : res A) : sound x -> sound (failed x : res B).
Proof. destruct x; cbn; unfold sound; congruence. Qed.
Lemma sound_mul m a b : sound (mul64 m a b).
Proof. unfold mul64. destruct (_ <? _), m; discriminate. Qed.
Lemma sound_add m a b : sound (add64 m a b).
Proof. unfold add64. destruct (_ <? _), m; discriminate. Qed.
Lemma sound_sub m a b : sound (sub64 m a b).
Proof. unfold sub64. destruct (_ <=? _), m; discriminate. Qed.
Lemma sound_div a b : sound (div64 a b).
Proof. unfold div64. destruct (_ =? _); discriminate. Qed.
Lemma sound_rem a b : sound (rem64 a b).
Proof. unfold rem64. destruct (_ =? _); discriminate. Qed.
Lemma sound_dbg m b : sound (dbg m b).
Proof. apply dbg_no_ub. Qed.
Lemma sound_assert b : sound (assert_ b).
Proof. destruct b; discriminate. Qed.
Lemma sound_ensure b e : sound (ensure b e).
Proof. destruct b; discriminate. Qed.
Lemma sound_slice {A} (l : list A) a b : sound (slice_range l a b).
Proof. unfold slice_range. destruct (_ && _); discriminate. Qed.
Lemma sound_load m inflate file ds csz c : sound (load m inflate file ds csz c).
Proof. apply load_no_ub. Qed.
#[local] Hint Resolve sound_bind sound_ok sound_err sound_panic sound_hang sound_failed sound_mul sound_add sound_sub sound_div sound_rem
  sound_dbg sound_assert sound_ensure sound_slice sound_load : sound.
Ltac snd_ := repeat first [solve [auto with sound]|
  match goal with |- sound (bind _ _) => apply sound_bind; [|intros] | |- sound (match ?x with _ => _ end) => destruct x | |- sound (let '(_, _) := ?x in _) => destruct x end].

Lemma sound_product m l : sound (product64 m l).
Proof. unfold product64. generalize 1. induction l as [|x l IH]; intros acc; cbn [product64_from]; snd_; apply IH. Qed.
Lemma sound_mapM {A B} (f : A -> res B) l : (forall a, sound (f a)) -> sound (mapM f l).
Proof. intros H. induction l as [|a l IH]; cbn [mapM]; snd_. Qed.
Lemma sound_counts e dims : sound (get_counts e dims).
Proof.
  destruct (resolution_ok e dims) as [A B]. destruct e as [|l].
  - destruct (B (or_introl eq_refl)) as (i & c & E & _). rewrite (counts_of _ _ _ _ E). apply sound_ok.
  - destruct (Nat.eq_dec (length l) (length dims)) as [H|H].
    + destruct (B (or_intror (ex_intro _ l (conj eq_refl H)))) as (i & c & E & _). rewrite (counts_of _ _ _ _ E). apply sound_ok.
    + destruct (A l eq_refl H) as [_ E]. rewrite E. apply sound_err.
Qed.
#[local] Hint Resolve sound_product sound_counts : sound.
Lemma sound_size m ds e dst : sound (read_size m ds e dst).
Proof. unfold read_size. snd_. Qed.
Lemma sound_group sort m fuel ds e : sound (group_chunk_slices sort m fuel ds e).
Proof.
  unfold group_chunk_slices, dest_slices. destruct (chunk_slices m fuel ds e) as [l []]; snd_.
  generalize 0. induction l as [|[[c a] b] l IH]; intros off; cbn [scan_dest]; snd_; apply IH.
Qed.
#[local] Hint Resolve sound_size sound_group : sound.

Lemma sound_cache m inflate fuel r e dst : sound (fst (fst (cache_read m inflate fuel r e dst))).
Proof.
  unfold cache_read. pose proof (sound_size m (cr_ds r) e dst) as HS. destruct (read_size m (cr_ds r) e dst); cbn [fst]; auto with sound.
  destruct (chunk_slices m fuel (cr_ds r) e) as [segs st].
  assert (H : forall segs cache pos dst, sound (fst (fst (cache_loop m inflate r segs st cache pos dst)))).
  { clear. induction segs as [|sg segs IH]; intros cache pos dst; cbn [cache_loop]; [destruct st; cbn [fst stop_res]; auto with sound|].
    assert (HC : sound (fst (cache_seg m inflate r cache sg pos dst))).
    { unfold cache_seg. destruct sg as [[c a] b]. 
      assert (HB : sound (byte_range m (d_dsize (cr_ds r)) a b)) by (unfold byte_range; snd_).
      assert (HK : forall data s e sz, sound (copy_slice m data s e sz pos dst)) by (intros; unfold copy_slice; snd_).
      destruct (byte_range m (d_dsize (cr_ds r)) a b) as [[[s e] sz]| | | |]; cbn [fst]; auto with sound.
      destruct (lru_get (c_addr c) cache) as [[data cache']|].
      - specialize (HK data s e sz). destruct (copy_slice m data s e sz pos dst); cbn [fst]; auto with sound.
      - pose proof (sound_load m inflate (cr_file r) (cr_ds r) (cr_csz r) c) as HLd.
        destruct (load m inflate (cr_file r) (cr_ds r) (cr_csz r) c) as [data| | | |]; cbn [fst]; auto with sound.
        specialize (HK data s e sz). destruct (copy_slice m data s e sz pos dst); cbn [fst]; auto with sound. }
    destruct (cache_seg m inflate r cache sg pos dst) as [[[d' p']| | | |] cache']; cbn [fst] in *; auto with sound. }
  specialize (H segs (cr_cache r) 0 dst). destruct (cache_loop m inflate r segs st (cr_cache r) 0 dst) as [[x d] c]. cbn [fst] in *.
  apply sound_bind; auto with sound.
Qed.
Lemma sound_copy_at m data dsz cur a b dst : sound (copy_at m data dsz cur a b dst).
Proof. unfold copy_at. snd_. Qed.
Lemma sound_direct m inflate sort fuel r e dst : sound (fst (direct_read m inflate sort fuel r e dst)).
Proof.
  unfold direct_read. pose proof (sound_size m (dr_ds r) e dst) as HS. destruct (read_size m (dr_ds r) e dst); cbn [fst]; auto with sound.
  pose proof (sound_group sort m fuel (dr_ds r) e) as HG. destruct (group_chunk_slices sort m fuel (dr_ds r) e) as [G| | | |]; cbn [fst]; auto with sound.
  destruct (dr_file r) as [file|]; cbn [fst]; auto with sound.
  assert (H : forall G last dst, sound (fst (direct_loop m inflate r file G last dst))).
  { clear. induction G as [|[[[c cur] a] b] G IH]; intros last dst; cbn [direct_loop fst]; auto with sound.
    assert (HD : sound (direct_load m inflate r file last c)).
    { unfold direct_load. destruct last as [[k d]|]; [destruct (_ =? _)|]; auto with sound. }
    destruct (direct_load m inflate r file last c) as [data| | | |]; cbn [fst]; auto with sound.
    pose proof (sound_copy_at m data (d_dsize (dr_ds r)) cur a b dst) as HK.
    destruct (copy_at m data (d_dsize (dr_ds r)) cur a b dst); cbn [fst]; auto with sound. }
  specialize (H G None dst). destruct (direct_loop m inflate r file G None dst) as [x d]. cbn [fst] in *. apply sound_bind; auto with sound.
Qed.
Lemma sound_s3 m inflate sort fuel r e dst x d : s3_read m inflate sort fuel r e dst x d -> sound x /\ length d = length dst.
Proof.
  intros H. assert (HG : sound (let* gs := group_chunk_slices sort m fuel (s3_ds r) e in group_requests m gs)).
  { apply sound_bind; [auto with sound|]. intros gs. unfold group_requests. apply sound_bind; [|auto with sound].
    generalize (@nil request). induction gs as [|g gs IH]; intros acc; cbn [req_loop]; auto with sound. apply sound_bind; [|auto].
    unfold req_step. destruct g as [[[c cur] a] b]. destruct acc as [|q acc]; [snd_|]. destruct (q_chunks q) as [|[c0 ss] cs]; [snd_|].
    destruct (_ =? _); [snd_|]. apply sound_bind; [|intros []; snd_]. destruct (_ <=? _); [|snd_]. snd_. }
  assert (HL : forall order dst, sound (fst (s3_loop m inflate (s3_srv r) (s3_ds r) (s3_csz r) order dst)) /\
                 length (snd (s3_loop m inflate (s3_srv r) (s3_ds r) (s3_csz r) order dst)) = length dst).
  { clear. assert (HS : forall data dsz ss dst, sound (fst (s3_segs m data dsz ss dst)) /\ length (snd (s3_segs m data dsz ss dst)) = length dst).
    { induction ss as [|[[cur a] b] ss IH]; intros dst; cbn [s3_segs fst snd]; [auto with sound|].
      assert (HC : sound (s3_copy m data dsz cur a b dst)) by (unfold s3_copy; snd_).
      assert (HN : forall d, s3_copy m data dsz cur a b dst = Ok d -> length d = length dst).
      { intros d. unfold s3_copy. intros H. apply bind_ok in H as (s & Es & H). apply bind_ok in H as (e & Ee & H). apply bind_ok in H as (p & Ep & H).
        apply bind_ok in H as (u3 & _ & H). apply bind_ok in H as (u4 & _ & H). apply bind_ok in H as (sz & Esz & H). apply bind_ok in H as (q & Eq & H).
        apply bind_ok in H as (u & EA & H). apply bind_ok in H as (src & Esrc & H). apply bind_ok in H as (u2 & EB & H). injection H as <-.
        apply splice_length. unfold assert_ in EA, EB. destruct (N.leb_spec p q), (N.leb_spec q (lenN dst)), (N.eqb_spec (q - p) (lenN src)); cbn [andb] in *; try discriminate. lia. }
      destruct (s3_copy m data dsz cur a b dst) as [d| | | |]; cbn [fst snd]; auto with sound.
      destruct (IH d) as [I1 I2]. split; [exact I1|]. rewrite I2. now apply HN. }
    assert (HK : forall start body cs dst, sound (fst (s3_chunks m inflate (s3_ds r) (s3_csz r) start body cs dst)) /\
                   length (snd (s3_chunks m inflate (s3_ds r) (s3_csz r) start body cs dst)) = length dst).
    { intros start body. induction cs as [|[c ss] cs IH]; intros dst; cbn [s3_chunks fst snd]; [auto with sound|].
      assert (HC : sound (s3_chunk m inflate (s3_ds r) (s3_csz r) start body c)).
      { unfold s3_chunk. do 3 (apply sound_bind; [auto with sound|intros]). unfold decode_chunk. apply sound_bind; [auto with sound|intros _]. apply sound_bind.
        - destruct (is_some _); [|auto with sound]. apply sound_bind; [|intros; snd_]. unfold decompress. destruct (inflate _); [|auto with sound]. destruct (_ <=? _); auto with sound.
        - intros z. destruct (_ && _); [apply unshuffle_no_ub|auto with sound]. }
      destruct (s3_chunk m inflate (s3_ds r) (s3_csz r) start body c) as [data| | | |]; cbn [fst snd]; auto with sound.
      destruct (HS data (d_dsize (s3_ds r)) ss dst) as [S1 S2].
      destruct (s3_segs m data (d_dsize (s3_ds r)) ss dst) as [[[]| | | |] d]; cbn [fst snd] in *; auto. destruct (IH d) as [I1 I2]. split; [exact I1|congruence]. }
    induction order as [|q order IH]; intros dst; cbn [s3_loop fst snd]; [auto with sound|].
    assert (HF : sound (fetch m (s3_srv r) q)). { unfold fetch. snd_. }
    destruct (fetch m (s3_srv r) q) as [body| | | |]; cbn [fst snd]; auto with sound.
    destruct (HK (q_start q) body (q_chunks q) dst) as [K1 K2].
    destruct (s3_chunks m inflate (s3_ds r) (s3_csz r) (q_start q) body (q_chunks q) dst) as [[[]| | | |] d]; cbn [fst snd] in *; auto.
    destruct (IH d) as [I1 I2]. split; [exact I1|congruence]. }
  destruct H as [x E1 E2|v x E1 E2 E3|v qs order x d E1 E2 E3 E4].
  - split; [rewrite <- E1; auto with sound|reflexivity].
  - split; [apply sound_failed; now rewrite <- E2|reflexivity].
  - destruct (HL order dst) as [L1 L2]. rewrite E4 in L1, L2. cbn [fst snd] in *. split; [apply sound_bind; auto with sound|exact L2].
Qed.

Lemma sound_collect m fuel ds e : sound (collect_slices m fuel ds e).
Proof.
  unfold collect_slices. destruct (chunk_slices m fuel ds e) as [segs st]. apply sound_bind.
  - induction segs as [|[[c a] b] segs IH]; cbn [byte_slices]; snd_.
  - intros l. apply sound_bind; [destruct st; cbn [stop_res]; auto with sound|auto with sound].
Qed.
Lemma sound_xdr h al1 al2 src dt o : sound (xdr h al1 al2 src dt o).
Proof.
  assert (HC : forall s w, sound (xdr_cast_slice h al1 al2 s w o src)).
  { intros s w. unfold xdr_cast_slice, cast_ok. do 2 (apply sound_bind; [auto with sound|intros _]). apply sound_bind; [|auto with sound].
    apply sound_mapM. intros v. unfold xdr_elem, to_native_scalar. destruct h, o; cbn [bind]; auto with sound. }
  assert (HB : forall n, sound (to_big_e_sized h al1 o n src)).
  { intros n. unfold to_big_e_sized, cast_ok. destruct o; auto with sound. destruct n as [|p]; auto with sound.
    repeat (destruct p as [p|p|]; auto with sound). }
  unfold xdr. destruct dt as [n|n|n|n]; auto with sound; destruct n as [|[p|p|]]; auto; destruct p; auto.
Qed.
Lemma sound_values m h k w al ds (read : read_fn) e : (forall dst, sound (fst (read e dst))) -> sound (values m h k w al ds read e).
Proof.
  intros HR. unfold values. do 9 (apply sound_bind; [solve [auto with sound]|intros ?]). unfold values_to.
  match goal with |- context [read e ?d] => pose proof (HR d) as H; destruct (read e d) as [x dst] end. cbn [fst] in H.
  destruct x; cbn [bind]; auto with sound; congruence.
Qed.

Lemma sound_option {A} (p : Serde.parser A) b : (forall b, sound (p b)) -> sound (de_option p b).
Proof. intros H. unfold de_option, de_u8, take. snd_. Qed.
Lemma sound_take n b : sound (take n b).
Proof. unfold take. snd_. Qed.
#[local] Hint Resolve sound_take : sound.
Lemma sound_u64 b : sound (de_u64 b).
Proof. unfold de_u64. snd_. Qed.
Lemma sound_u32 b : sound (de_u32 b).
Proof. unfold de_u32. snd_. Qed.
Lemma sound_u8 b : sound (de_u8 b).
Proof. unfold de_u8. snd_. Qed.
#[local] Hint Resolve sound_u64 sound_u32 sound_u8 : sound.
Lemma sound_times {A} (p : Serde.parser A) : (forall b, sound (p b)) -> forall n b, sound (de_times n p b).
Proof. intros H. induction n as [|n IH]; intros b; cbn [de_times]; snd_. Qed.
Lemma sound_seq {A} (p : Serde.parser A) b : (forall b, sound (p b)) -> sound (de_seq p b).
Proof. intros H. unfold de_seq. snd_. now apply sound_times. Qed.
Lemma sound_bytes b : sound (de_bytes b).
Proof. unfold de_bytes. snd_. Qed.
Lemma sound_string b : sound (de_string b).
Proof. unfold de_string. apply sound_bind; [apply sound_bytes|]. intros [s r]. snd_. Qed.
Lemma sound_arr D b : sound (de_arr D b).
Proof. unfold de_arr. apply sound_bind; [apply sound_seq; auto with sound|]. intros [s r]. snd_. Qed.
Lemma sound_sr D b : sound (de_sr D b).
Proof.
  unfold de_sr. apply sound_bind; [apply sound_seq; auto with sound|]. intros [s r]. apply sound_bind; [|auto with sound].
  unfold sr_array. destruct (_ =? _)%nat; [|auto with sound]. apply sound_mapM. intros a. unfold sr_new. snd_.
Qed.
Lemma sound_chunks D b : sound (de_chunks D b).
Proof.
  unfold de_chunks. apply sound_bind; [apply sound_bytes|]. intros [s r]. unfold chunks_of_bytes, slice_from_u64s. snd_.
Qed.
Lemma sound_datatype b : sound (de_datatype b).
Proof. unfold de_datatype. snd_. Qed.
Lemma sound_order b : sound (de_order b).
Proof. unfold de_order. snd_. Qed.
Lemma sound_bool b : sound (de_bool b).
Proof. unfold de_bool. snd_. Qed.
#[local] Hint Resolve sound_bytes sound_string sound_arr sound_sr sound_chunks sound_datatype sound_order sound_bool sound_option sound_seq : sound.
Lemma sound_datasetd b : sound (de_datasetd b).
Proof.
  unfold de_datasetd. apply sound_bind; [auto with sound|]. intros [t r]. destruct (_ <=? _); [|auto with sound]. unfold de_dataset.
  do 12 (apply sound_bind; [solve [auto with sound]|intros [? ?]]). auto with sound.
Qed.
Lemma sound_map {A} (p : Serde.parser A) b : (forall b, sound (p b)) -> sound (de_map p b).
Proof.
  intros H. unfold de_map. apply sound_bind; [|intros [? ?]; auto with sound]. apply sound_seq. intros b'.
  apply sound_bind; [auto with sound|]. intros [? ?]. apply sound_bind; [apply H|]. intros [? ?]. auto with sound.
Qed.
Lemma sound_deserialize b : sound (bincode_deserialize b).
Proof.
  unfold bincode_deserialize, de_index. apply sound_bind; [|intros [? ?]; auto with sound]. apply sound_bind; [auto with sound|]. intros [p r].
  apply sound_bind; [|intros [? ?]; auto with sound]. generalize (S (length b)) as fuel. intros fuel. revert r.
  induction fuel as [|fuel IH]; intros r; cbn [de_group]; [auto with sound|].
  apply sound_bind; [auto with sound|]. intros [? ?]. apply sound_bind; [apply sound_map, sound_datasetd|]. intros [? ?].
  apply sound_bind; [now apply sound_map|]. intros [? ?]. auto with sound.
Qed.

Theorem C77_memory_safe m h inflate sort fuel e dst :
  (forall b, bincode_deserialize b <> Ub /\ bincode_deserialize b <> Hang) /\
  (forall file ds csz c, load m inflate file ds csz c <> Ub) /\
  (forall r x d r', cache_read m inflate fuel r e dst = (x, d, r') -> x <> Ub /\ length d = length dst) /\
  (forall r x d, direct_read m inflate sort fuel r e dst = (x, d) -> x <> Ub /\ length d = length dst) /\
  (forall r x d, addr_sort sort -> m = Debug -> par_read m inflate sort fuel r e dst x d -> x <> Ub /\ length d = length dst) /\
  (forall r x d, s3_read m inflate sort fuel r e dst x d -> x <> Ub /\ length d = length dst) /\
  (forall r, stream m inflate fuel r e <> Ub) /\
  (forall r al1 al2, stream_xdr m h al1 al2 inflate fuel r e <> Ub) /\
  (forall al1 al2 src dt o, xdr h al1 al2 src dt o <> Ub) /\
  (forall k w al ds r, values m h k w al ds (fun e dst => fst (cache_read m inflate fuel r e dst)) e <> Ub) /\
  (forall k w al ds r, values m h k w al ds (direct_read m inflate sort fuel r) e <> Ub).
Proof.
  assert (HL := C57_length m inflate sort fuel e dst). destruct HL as [L1 L2].
  split; [intros b; split; [apply sound_deserialize|apply C41_terminates]|].
  split; [intros; apply sound_load|].
  split; [intros r x d r' H; split; [pose proof (sound_cache m inflate fuel r e dst) as S; now rewrite H in S|eauto]|].
  split; [intros r x d H; split; [pose proof (sound_direct m inflate sort fuel r e dst) as S; now rewrite H in S|eauto]|].
  split; [intros r x d HS -> H; destruct (par_debug _ _ _ _ _ _ _ _ HS H) as (A & B & _); auto|].
  split; [intros r x d H; now apply sound_s3 in H|].
  assert (HC : forall ds, sound (collect_slices m fuel ds e)) by (intros; apply sound_collect).
  assert (HK : forall z, sound (cache_cap z)) by (intros; unfold cache_cap; snd_).
  split; [intros r; unfold stream; apply sound_bind; [apply HC|]; intros l; apply sound_bind; [apply HK|]; intros c; destruct (sr_file r); auto with sound|].
  split; [intros r al1 al2; unfold stream_xdr; apply sound_bind; [apply HC|]; intros l; apply sound_bind; [apply HK|]; intros c; destruct (sr_file r); auto with sound|].
  split; [intros; apply sound_xdr|].
  split; intros; apply sound_values; intros; [|apply sound_direct].
  apply sound_cache.
Qed.
Print Assumptions C77_memory_safe.
(** A dataset as a hostile index can hold it (a chunk of three bytes for four values of eight):
    both builds panic. *)
Definition hostile_ds : dataset := mkDataset (UInt 8) 8 LE [mkChunk 0 3 [0]] [4] [4] [4] [1] [1] [1] false None.
Example C77_case :
  (exists b, bincode_serialize (mkIndex None (mkGroup None [([120], hostile_ds)] [])) = Ok b /\
     bincode_deserialize b = Ok (mkIndex None (mkGroup None [([120], hostile_ds)] []))) /\
  forall m, exists r, cache_new m hostile_ds (repeat 7 3) = Ok r /\
     fst (fst (cache_read m (fun _ => None) 5 r All (repeat 0 32))) = Panic /\
     fst (direct_read m (fun _ => None) sort_by_addr 5 (mkDirect hostile_ds (Some (repeat 7 3)) 32) All (repeat 0 32)) = Panic.
Proof.
  split.
  - eexists. split; vm_compute; reflexivity.
  - intros m. destruct m; eexists; (split; [vm_compute; reflexivity|split; vm_compute; reflexivity]).
Qed.
