(** * C92: reads of a file that is written meanwhile. *)
From Coq Require Import List NArith Lia Bool.
From Verif Require Import Base Spec Extent Chunk Dataset Slicer Filters Reader Writes DirectProofs ParProofs SpecApi SpecReader CacheProofs ReadProofs
  ReaderProps Trace Syscalls ParSys Changing Properties4 Properties15 Properties18 Properties65 Properties66 ExamplesReader.
Import ListNotations.
Open Scope N_scope.

(** ** Specification *)

(** The [n] bytes at [a] are in both files, and the same. *)
Definition same_at (f f' : bytes) (a n : N) : Prop := n = 0 \/ exists b, bytes_at f a n b /\ bytes_at f' a n b.
(** Each byte of [b] was at its place, counted from [a], in one of the files of [P]. *)
Definition from_versions (P : bytes -> Prop) (a : N) (b : bytes) : Prop :=
  forall i x, nth_error b i = Some x -> exists f, P f /\ nth_error f (N.to_nat a + i) = Some x.

(** ** Proof *)

Lemma bytes_at_sub f a n b p k : bytes_at f a n b -> a <= p -> p + k <= a + n ->
  firstn (N.to_nat k) (skipn (N.to_nat p) f) = firstn (N.to_nat k) (skipn (N.to_nat (p - a)) b).
Proof.
  unfold bytes_at, lenN. intros (x & y & -> & H1 & H2) Hp Hk.
  rewrite skipn_app, (skipn_all2 x) by lia. cbn [app]. replace (N.to_nat p - length x)%nat with (N.to_nat (p - a)) by lia.
  rewrite skipn_app, firstn_app. replace (N.to_nat k - length (skipn (N.to_nat (p - a)) b))%nat with 0%nat by (rewrite skipn_length; lia).
  cbn [firstn]. apply app_nil_r.
Qed.
Lemma same_at_slice f f' a n p k : same_at f f' a n -> 0 < n -> a <= p -> p + k <= a + n ->
  firstn (N.to_nat k) (skipn (N.to_nat p) f) = firstn (N.to_nat k) (skipn (N.to_nat p) f') /\ a + n <= lenN f /\ a + n <= lenN f'.
Proof.
  intros [->|(b & H1 & H2)] Hn Hp Hk; [lia|]. rewrite (bytes_at_sub f a n b p k), (bytes_at_sub f' a n b p k) by auto.
  split; auto. split; [apply (bytes_at_len _ _ _ _ H1)|apply (bytes_at_len _ _ _ _ H2)].
Qed.

Lemma nth_error_skipn_ {A} (l : list A) a j : nth_error (skipn a l) j = nth_error l (a + j).
Proof. revert l. induction a; intros [|x l]; cbn; auto. now destruct j. Qed.
Lemma nth_error_firstn_ {A} (l : list A) n i : (i < n)%nat -> nth_error (firstn n l) i = nth_error l i.
Proof. revert l i. induction n; intros [|x l] [|i] H; cbn; auto; try lia. apply IHn. lia. Qed.

(** A call on a version is a call on the first one. *)
Lemma wstep_same f0 f js w w' : wstep f w w' -> winv f0 js w -> Forall (fun j => same_at f0 f (fst j) (snd j)) js -> wstep f0 w w'.
Proof.
  intros H (did & E & _ & HP) HF.
  destruct H as [a n js' p got Ha|a n js' p got Ha|js' p want acc got k H1 H2 H3|js' p want acc got H1|js' p want acc got H1 H2|j js' p acc got|js' p ph got H1];
    cbn [w_todo w_pos w_phase w_got] in *; try (constructor; auto; fail).
  - destruct HP as (a & n & js2 & -> & -> & En & _). rewrite E in HF. apply Forall_app in HF as [_ HF]. inversion HF as [|? ? S _]; subst. cbn [fst snd] in *.
    destruct (same_at_slice f0 f a (lenN acc + want) (a + lenN acc) k S) as (ES & L1 & L2); try lia. rewrite <- ES. apply ws_read; lia.
  - destruct HP as (a & n & js2 & -> & -> & En & _). rewrite E in HF. apply Forall_app in HF as [_ HF]. inversion HF as [|? ? S _]; subst. cbn [fst snd] in *.
    destruct (same_at_slice f0 f a (lenN acc + want) (a + lenN acc) 0 S) as (ES & L1 & L2); lia.
Qed.
Lemma sstep_same f0 f l l' ws : sstep f l l' -> Forall2 (winv f0) ws l -> Forall (Forall (fun j => same_at f0 f (fst j) (snd j))) ws -> sstep f0 l l'.
Proof.
  intros [l0 w w' r Hw] HI HF. apply Forall2_app_inv_r in HI as (j1 & j2 & F1 & F2 & ->). inversion F2 as [|j w0 j2' r0 W1 W2]; subst.
  apply Forall_app in HF as [_ HF]. inversion HF; subst. apply ss_one. eapply wstep_same; eauto.
Qed.
Lemma lsteps_same P f0 ws s t : lsteps P s t -> Forall2 (winv f0) ws (snd s) -> P (fst s) ->
  (forall f, P f -> Forall (Forall (fun j => same_at f0 f (fst j) (snd j))) ws) -> ssteps f0 (snd s) (snd t).
Proof.
  induction 1 as [s|s t u H1 H2 IH]; intros HI HP HS; [constructor|]. destruct H1 as [f l l' H|f f' l Hf]; cbn [fst snd] in *.
  - pose proof (sstep_same f0 f l l' ws H HI (HS f HP)) as H'. econstructor; [exact H'|]. apply IH; auto. eapply sstep_inv; eauto.
  - apply IH; auto.
Qed.

(** Torn reads. *)
Definition tornv (P : bytes -> Prop) (js : list (N * N)) (w : worker) : Prop :=
  exists did, js = did ++ w_todo w /\
    Forall2 (fun j b => lenN b = snd j /\ from_versions P (fst j) b) did (w_got w) /\
    match w_phase w with
    | Reading want acc => exists a n js', w_todo w = (a, n) :: js' /\ w_pos w = a + lenN acc /\ lenN acc + want = n /\ from_versions P a acc
    | _ => True
    end.
Lemma tornv_step (P : bytes -> Prop) f js w w' : P f -> wstep f w w' -> tornv P js w -> tornv P js w'.
Proof.
  intros HP H (did & E & HF & HW).
  destruct H as [a n js' p got Ha|a n js' p got Ha|js' p want acc got k H1 H2 H3|js' p want acc got H1|js' p want acc got H1 H2|j js' p acc got|js' p ph got H1];
    cbn [w_todo w_pos w_phase w_got] in *; try (exists did; repeat split; auto; fail).
  - exists did. repeat split; auto. cbn [w_phase w_todo w_pos]. exists a, n, js'. unfold lenN. cbn [length]. repeat split; auto; try lia.
    intros [|i] x Hx; discriminate Hx.
  - exists did. repeat split; auto. cbn [w_phase w_todo w_pos]. destruct HW as (a & n & js2 & E2 & Ep & En & Hb).
    exists a, n, js2. pose proof (slice_at f p k H3) as S. pose proof (bytes_at_len _ _ _ _ S) as [_ SL].
    rewrite lenN_app, SL. repeat split; auto; try lia. intros i x Hx.
    destruct (Nat.lt_ge_cases i (length acc)) as [Hi|Hi].
    + rewrite nth_error_app1 in Hx by auto. now apply Hb.
    + rewrite nth_error_app2 in Hx by auto. exists f. split; auto.
      assert (L : (i - length acc < N.to_nat k)%nat).
      { apply (f_equal N.to_nat) in SL. unfold lenN in SL. rewrite Nnat.Nat2N.id in SL. rewrite <- SL. apply nth_error_Some. congruence. }
      rewrite <- Hx. rewrite nth_error_firstn_ by exact L. rewrite nth_error_skipn_. f_equal. unfold lenN in Ep. lia.
  - destruct HW as (a & n & js2 & E2 & Ep & En & Hb). injection E2 as -> ->. exists (did ++ [(a, n)]). cbn [w_todo w_got w_phase].
    rewrite <- app_assoc. repeat split; auto. apply Forall2_app; auto. constructor; [|constructor]. cbn [fst snd]. split; [lia|auto].
Qed.
Lemma lsteps_torn (P : bytes -> Prop) js s t : lsteps P s t -> P (fst s) -> Forall2 (tornv P) js (snd s) -> Forall2 (tornv P) js (snd t).
Proof.
  induction 1 as [s|s t u H1 H2 IH]; intros HP HF; auto. destruct H1 as [f l l' H|f f' l Hf]; cbn [fst snd] in *; apply IH; auto.
  destruct H as [l0 w w' r Hw]. apply Forall2_app_inv_r in HF as (j1 & j2 & F1 & F2 & ->). inversion F2 as [|j w0 j2' r0 W1 W2]; subst.
  apply Forall2_app; auto. constructor; auto. eapply tornv_step; eauto.
Qed.
Lemma tornv_fresh P w : fresh w -> tornv P (w_todo w) w.
Proof. intros [H1 H2]. exists []. rewrite H1, H2. repeat split; auto. Qed.

(** Parallel reads. *)
Section P.
Context (P : bytes -> Prop) (fl : bool) (m : mode) (inflate : bytes -> option bytes) (r : direct) (dlen : N) (f0 : bytes) (need : chunk -> Prop).
Context (HN : forall f c, P f -> need c -> same_at f0 f (c_addr c) (c_size c)).

Definition ninv (t : ctask) : Prop :=
  match t with
  | CWait ((c, _, _, _) :: _) => need c
  | CLoad _ w => exists c, need c /\ winv f0 [(c_addr c, c_size c)] w
  | _ => True
  end.
Lemma tstep_same f t t' : P f -> ninv t -> tstep fl m inflate (on_file r f) dlen t t' ->
  tstep fl m inflate (on_file r f0) dlen t t' /\ ninv t'.
Proof.
  intros Hf HI H. destruct H as [g E|g E|file E|file c cur a b g p E|file g w w' E H Hw|g w H|g w raw H1 H2 H3|x]; cbn [ninv] in *.
  - discriminate.
  - split; auto. now apply ts_nofd.
  - split; auto. now apply (ts_empty _ _ _ _ _ f0).
  - split; [now apply (ts_load _ _ _ _ _ f0)|]. exists c. split; auto.
    apply (winv_fresh f0 (mkWorker [(c_addr c, c_size c)] p Idle [])). split; reflexivity.
  - destruct HI as (c & Hc & W). cbn [on_file dr_file] in E. injection E as <-.
    assert (S : wstep f0 w w').
    { apply (wstep_same f0 f [(c_addr c, c_size c)]); auto. constructor; [|constructor]. cbn [fst snd]. now apply HN. }
    split; [now apply (ts_call _ _ _ _ _ f0)|]. exists c. split; auto. eapply winv_step; eauto.
  - split; auto. now apply ts_fail.
  - split; auto. apply (ts_loaded fl m inflate (on_file r f0) dlen g w raw); auto.
  - split; auto. apply ts_finish.
Qed.
Lemma vsteps_same s t : vsteps P fl m inflate r dlen s t -> P (fst s) -> Forall ninv (fst (snd s)) ->
  csteps fl m inflate (on_file r f0) dlen (snd s) (snd t).
Proof.
  induction 1 as [s|s t u H1 H2 IH]; intros HP HI; [constructor|]. destruct H1 as [f s t H|f f' s Hf]; cbn [fst snd] in *; [|now apply IH].
  assert (X : cstep fl m inflate (on_file r f0) dlen s t /\ Forall ninv (fst t)).
  { destruct H as [l1 l2 t0 t' dst H|l1 l2 p b ws x dst|l1 l2 g x dst H3 H4]; cbn [fst] in *; apply Forall_app in HI as [I1 I2];
      inversion I2 as [|? ? I3 I4]; subst.
    - destruct (tstep_same f t0 t' HP I3 H) as [T1 T2]. split; [now apply cs_task|]. apply Forall_app. auto.
    - split; [apply cs_write|]. apply Forall_app. split; [auto|]. constructor; [exact I|auto].
    - split; [now apply (cs_skip _ _ _ _ _ _ _ _ x)|]. apply Forall_app. split; [auto|]. constructor; [exact I|auto]. }
  destruct X as [X1 X2]. econstructor; [exact X1|]. now apply IH.
Qed.
Lemma csteps_vsteps s t : csteps fl m inflate (on_file r f0) dlen s t -> vsteps P fl m inflate r dlen (f0, s) (f0, t).
Proof. induction 1; [constructor|]. econstructor; [apply vs_task; eauto|auto]. Qed.
End P.

(** Sequential reads. *)
Lemma load_live m inflate f f' ds csz c : same_at f f' (c_addr c) (c_size c) -> load m inflate f ds csz c = load m inflate f' ds csz c.
Proof.
  intros H. unfold load, read_chunk, read_exact. destruct (N.eqb_spec (c_size c) 0) as [E|E]; auto.
  destruct (same_at_slice f f' (c_addr c) (c_size c) (c_addr c) (c_size c) H) as (ES & L1 & L2); try lia.
  rewrite (proj2 (N.leb_le _ _) L1), (proj2 (N.leb_le _ _) L2). now rewrite ES.
Qed.
Section S.
Context (m : mode) (inflate : bytes -> option bytes) (f0 : bytes).
Definition keeps (ds : dataset) (f : bytes) : Prop := forall c, In c (d_chunks ds) -> same_at f0 f (c_addr c) (c_size c).
Definition at_file (r : creader) (f : bytes) : creader := mkCR (cr_ds r) f (cr_cap r) (cr_csz r) (cr_cache r).
Lemma cache_seg_same r f cache sg pos dst : keeps (cr_ds r) f -> In (fst (fst sg)) (d_chunks (cr_ds r)) ->
  cache_seg m inflate (at_file r f) cache sg pos dst = cache_seg m inflate (at_file r f0) cache sg pos dst.
Proof.
  intros HK Hin. destruct sg as [[c a] b]. unfold cache_seg, at_file. cbn [cr_ds cr_file cr_cap cr_csz fst] in *.
  now rewrite (load_live m inflate f0 f (cr_ds r) (cr_csz r) c) by auto.
Qed.
Lemma cache_loop_v_same r st : forall segs cur fs cache pos dst, keeps (cr_ds r) cur -> Forall (keeps (cr_ds r)) fs ->
  Forall (fun sg => In (fst (fst sg)) (d_chunks (cr_ds r))) segs ->
  fst (cache_loop_v m inflate r segs st cur fs cache pos dst) = cache_loop m inflate (at_file r f0) segs st cache pos dst /\
  keeps (cr_ds r) (snd (cache_loop_v m inflate r segs st cur fs cache pos dst)).
Proof.
  induction segs as [|sg segs IH]; intros cur fs cache pos dst HK HKs HF; cbn [cache_loop_v cache_loop]; auto.
  inversion HF as [|? ? F1 F2]; subst. unfold cache_seg_v. destruct (lru_get (c_addr (fst (fst sg))) cache) as [[d c1]|] eqn:EL.
  - assert (E : cache_seg m inflate r cache sg pos dst = cache_seg m inflate (at_file r f0) cache sg pos dst).
    { destruct sg as [[c a] b]. unfold cache_seg, at_file. cbn [cr_ds cr_file cr_cap cr_csz fst] in *. now rewrite EL. }
    rewrite E. destruct (cache_seg m inflate (at_file r f0) cache sg pos dst) as [[[dst' pos']| | | |] cache']; cbn [fst snd]; auto.
  - fold (at_file r (match fs with f :: _ => f | [] => cur end)).
    assert (K : keeps (cr_ds r) (match fs with f :: _ => f | [] => cur end)) by (destruct HKs; auto).
    rewrite (cache_seg_same r _ cache sg pos dst K F1).
    destruct (cache_seg m inflate (at_file r f0) cache sg pos dst) as [[[dst' pos']| | | |] cache']; cbn [fst snd]; auto.
    apply IH; auto. destruct HKs; cbn [tl]; auto.
Qed.
Lemma direct_loop_v_same r : dr_file r = Some f0 -> forall G cur fs last dst, keeps (dr_ds r) cur -> Forall (keeps (dr_ds r)) fs ->
  Forall (fun g => In (g_chunk g) (d_chunks (dr_ds r))) G ->
  direct_loop_v m inflate r G cur fs last dst = direct_loop m inflate r f0 G last dst.
Proof.
  intros Hr. induction G as [|[[[c o] a] b] G IH]; intros cur fs last dst HK HKs HF; cbn [direct_loop_v direct_loop]; auto.
  inversion HF as [|? ? F1 F2]; subst. cbn [g_chunk fst] in F1.
  set (loads := match last with Some (k, _) => negb (k =? c_addr c) | None => true end).
  set (f := if loads then match fs with f :: _ => f | [] => cur end else cur).
  assert (K : keeps (dr_ds r) f) by (unfold f; destruct loads; auto; destruct HKs; auto).
  assert (E : direct_load m inflate r f last c = direct_load m inflate r f0 last c).
  { unfold direct_load. now rewrite (load_live m inflate f0 f (dr_ds r) (dr_csz r) c) by auto. }
  rewrite E. destruct (direct_load m inflate r f0 last c) as [data| | | |]; auto.
  destruct (copy_at m data (d_dsize (dr_ds r)) o a b dst) as [dst'| | | |]; auto. apply IH; auto.
  destruct loads; auto. destruct HKs; cbn [tl]; auto.
Qed.
End S.

(** Cached readers after any reads during which the chunks of the dataset stayed as in [f0]. *)
Inductive kept (m : mode) (inflate : bytes -> option bytes) (ds : dataset) (f0 : bytes) : creader -> Prop :=
| kp_new r f : keeps f0 ds f -> cache_new m ds f = Ok r -> kept m inflate ds f0 r
| kp_read r fuel fs e dst : kept m inflate ds f0 r -> Forall (keeps f0 ds) fs ->
    kept m inflate ds f0 (snd (cache_read_v m inflate fuel fs r e dst)).

Lemma cache_read_v_same m inflate f0 fuel fs r e dst : keeps f0 (cr_ds r) (cr_file r) -> Forall (keeps f0 (cr_ds r)) fs ->
  fst (cache_read_v m inflate fuel fs r e dst) = fst (cache_read m inflate fuel (at_file r f0) e dst) /\
  at_file (snd (cache_read_v m inflate fuel fs r e dst)) f0 = snd (cache_read m inflate fuel (at_file r f0) e dst) /\
  keeps f0 (cr_ds r) (cr_file (snd (cache_read_v m inflate fuel fs r e dst))).
Proof.
  intros HK HF. unfold cache_read_v, cache_read. cbn [at_file cr_ds cr_file cr_cap cr_csz cr_cache].
  destruct (read_size m (cr_ds r) e dst); cbn [fst snd]; auto.
  pose proof (slices_in m fuel (cr_ds r) e) as HI. destruct (chunk_slices m fuel (cr_ds r) e) as [segs st]. cbn [fst] in HI.
  destruct (cache_loop_v_same m inflate f0 r st segs (cr_file r) fs (cr_cache r) 0 dst HK HF HI) as [E K].
  destruct (cache_loop_v m inflate r segs st (cr_file r) fs (cr_cache r) 0 dst) as [[[x d] c] cur]. cbn [fst snd] in E, K.
  fold (at_file r f0). rewrite <- E. cbn [fst snd cr_file]. auto.
Qed.
Lemma kept_inv m inflate ds f0 r : same_addr ds -> kept m inflate ds f0 r ->
  cr_ds r = ds /\ chunk_bytes m ds = Ok (cr_csz r) /\ keeps f0 ds (cr_file r) /\ cache_ok m inflate (at_file r f0) (cr_cache r).
Proof.
  intros HA. induction 1 as [r f HK H|r fuel fs e dst H IH HF].
  - unfold cache_new in H. apply bind_ok in H as (csz & E1 & H). apply bind_ok in H as (cap & E2 & H). injection H as <-.
    cbn [cr_ds cr_csz cr_file cr_cache]. repeat split; auto. intros k v X. discriminate X.
  - destruct IH as (A & B & C & D). rewrite <- A in HF, C.
    destruct (cache_read_v_same m inflate f0 fuel fs r e dst C HF) as (_ & E & K).
    assert (HA' : same_addr (cr_ds (at_file r f0))) by (cbn [at_file cr_ds]; now rewrite A).
    destruct (proj2 (cache_read_plain m inflate fuel (at_file r f0) e dst HA' D) _ (eq_sym E)) as (_ & _ & _ & _ & X).
    set (r' := snd (cache_read_v m inflate fuel fs r e dst)) in *.
    assert (Ed : cr_ds r' = cr_ds r /\ cr_csz r' = cr_csz r).
    { unfold r', cache_read_v. destruct (read_size m (cr_ds r) e dst); auto. destruct (chunk_slices _ _ _ _) as [segs st].
      destruct (cache_loop_v _ _ _ _ _ _ _ _ _ _) as [[[x d] c] cur]; auto. }
    destruct Ed as [Ed Ez]. rewrite Ed, Ez, A in *. repeat split; auto. 
Qed.

(** ** The theorems *)

(** Any number of workers with a descriptor each, while other processes write the file, also
    in between the reads of one chunk: if the bytes of the chunks the workers load are never
    changed, everything happens as on the file they began with - so that C89 holds of it. *)
Theorem C92_kept (P : bytes -> Prop) f0 f ws ws' : lsteps P (f0, ws) (f, ws') -> Forall fresh ws -> P f0 ->
  (forall f' w j, P f' -> In w ws -> In j (w_todo w) -> same_at f0 f' (fst j) (snd j)) -> ssteps f0 ws ws'.
Proof.
  intros H HF HP HS. apply (lsteps_same P f0 (map w_todo ws) _ _ H); cbn [fst snd]; auto.
  - now apply fresh_inv.
  - intros f' Hf. apply Forall_map, Forall_forall. intros w Hw. apply Forall_forall. intros j Hj. eauto.
Qed.
Print Assumptions C92_kept.

(** Whatever is written: a chunk that is loaded has its size, and each of its bytes was in the file at its place at
    some time during the run. *)
Theorem C92_torn (P : bytes -> Prop) f0 f ws ws' : lsteps P (f0, ws) (f, ws') -> Forall fresh ws -> P f0 ->
  Forall2 (fun w w' => exists did, w_todo w = did ++ w_todo w' /\
    Forall2 (fun j b => lenN b = snd j /\ from_versions P (fst j) b) did (w_got w')) ws ws'.
Proof.
  intros H HF HP. assert (X : Forall2 (tornv P) (map w_todo ws) ws').
  { apply (lsteps_torn P _ _ _ H HP). cbn [snd]. clear - HF. induction HF; cbn [map]; constructor; auto using tornv_fresh. }
  clear - X. revert ws' X. induction ws as [|w ws IH]; intros ws' X; inversion X as [|? w' ? ws2 W1 W2]; subst; constructor; auto.
  destruct W1 as (did & E & G & _). eauto.
Qed.
Print Assumptions C92_torn.

(** Parallel reads: if the chunks that the read loads are never changed, its possible outcomes
    are those on the file it began with, with or without failing calls. *)
Theorem C92_parallel (P : bytes -> Prop) fl m inflate sort fuel ds f0 rd e dst x d : direct_new m ds (Some f0) = Ok rd -> P f0 ->
  (forall f c, P f -> In c (par_io sort m fuel ds e) -> same_at f0 f (c_addr c) (c_size c)) ->
  (live_read P fl m inflate sort fuel rd f0 e dst x d <-> sys_read fl m inflate sort fuel rd e dst x d).
Proof.
  intros HD HP HS. unfold direct_new in HD. apply bind_ok in HD as (csz & EC & HD). injection HD as <-.
  split; intros H.
  - inversion H as [x' E1 E2|v' x' E1 E2 E3|v' G f' final ends d' x' E1 E2 E3 E4 E5]; subst; cbn [dr_ds] in *.
    + now apply sy_size. + now apply (sy_group _ _ _ _ _ _ _ _ v').
    + apply (sy_run _ _ _ _ _ _ _ _ v' G final ends); auto.
      apply (vsteps_same P fl m inflate _ (lenN dst) f0 (fun c => In c (par_io sort m fuel ds e)) ltac:(eauto) _ _ E3); auto.
      cbn [fst snd]. apply Forall_map, Forall_forall. intros g Hg. cbn [ninv].
      destruct g as [|[[[c o] a] b] g]; auto. unfold par_io. rewrite E2. apply in_flat_map. exists ((c, o, a, b) :: g). split; auto. now left.
  - inversion H as [x' E1 E2|v' x' E1 E2 E3|v' G final ends d' x' E1 E2 E3 E4 E5]; subst; cbn [dr_ds] in *.
    + now apply lv_size. + now apply (lv_group _ _ _ _ _ _ _ _ _ _ v').
    + apply (lv_run _ _ _ _ _ _ _ _ _ _ v' G f0 final ends); auto. now apply csteps_vsteps.
Qed.
Print Assumptions C92_parallel.

(** Which chunks those are, for a safe selection: those with a selected element. *)
Theorem C92_needed (P : bytes -> Prop) fl m inflate sort fuel ds f0 rd e idx cnt dst x d : addr_sort sort ->
  direct_new m ds (Some f0) = Ok rd -> P f0 -> safe_read ds e idx cnt dst fuel ->
  (forall f c, P f -> In c (d_chunks ds) -> needs ds idx cnt c -> same_at f0 f (c_addr c) (c_size c)) ->
  (live_read P fl m inflate sort fuel rd f0 e dst x d <-> sys_read fl m inflate sort fuel rd e dst x d).
Proof.
  intros HSo HD HP HF HS. apply (C92_parallel P fl m inflate sort fuel ds); auto. intros f c Hf Hc.
  destruct (C59_needed m inflate sort fuel ds e idx cnt dst HSo HF) as (_ & _ & X & _). apply HS; auto.
  unfold par_io in Hc. destruct (group_chunk_slices sort m fuel ds e) as [G| | | |] eqn:EG; try destruct Hc.
  pose proof (group_in sort m fuel ds e G HSo EG) as GI. rewrite <- (chunk_by_concat G) in GI.
  apply in_flat_map in Hc as (g & Hg & Hc). destruct g as [|[[[c' o] a] b] g]; [destruct Hc|]. destruct Hc as [->|[]].
  rewrite Forall_forall in GI. apply (GI (c, o, a, b)). apply in_concat. exists ((c, o, a, b) :: g). split; auto. now left.
Qed.
Print Assumptions C92_needed.

(** The sequential readers, of which every load may meet another version of the file: if those have the chunks of the
    dataset as they were, the reads have the outcome of reads of the file as it was, in any history of reads. *)
Theorem C92_sequential m inflate sort fuel ds f0 fs e dst : addr_sort sort -> same_addr ds -> Forall (keeps f0 ds) fs ->
  (forall rc r0, kept m inflate ds f0 rc -> cache_new m ds f0 = Ok r0 ->
     fst (cache_read_v m inflate fuel fs rc e dst) = fst (cache_read m inflate fuel r0 e dst)) /\
  (forall rd, direct_new m ds (Some f0) = Ok rd -> keeps f0 ds f0 ->
     direct_read_v m inflate sort fuel fs rd e dst = direct_read m inflate sort fuel rd e dst).
Proof.
  intros HSo HA HF. split.
  - intros rc r0 HK HN. destruct (kept_inv m inflate ds f0 rc HA HK) as (A & B & C & D). rewrite <- A in C, HF.
    rewrite (proj1 (cache_read_v_same m inflate f0 fuel fs rc e dst C HF)).
    assert (HA' : same_addr (cr_ds (at_file rc f0))) by (cbn [at_file cr_ds]; now rewrite A).
    rewrite (proj1 (cache_read_plain m inflate fuel (at_file rc f0) e dst HA' D)). cbn [at_file cr_ds cr_file cr_csz].
    rewrite (cache_read_reachable m inflate ds f0 r0 fuel e dst HA) by (now constructor).
    unfold cache_new in HN. rewrite B in HN. cbn [bind] in HN. apply bind_ok in HN as (cap & _ & HN). injection HN as <-. now rewrite A.
  - intros rd HD HK. unfold direct_new in HD. apply bind_ok in HD as (csz & EC & HD). injection HD as <-.
    unfold direct_read_v, direct_read. cbn [dr_ds dr_file]. destruct (read_size m ds e dst); auto.
    destruct (group_chunk_slices sort m fuel ds e) as [G| | | |] eqn:EG; auto.
    rewrite (direct_loop_v_same m inflate f0 (mkDirect ds (Some f0) csz) eq_refl); auto.
    cbn [dr_ds]. now apply (group_in sort m fuel ds e).
Qed.
Print Assumptions C92_sequential.

(** Another process that only appends to the file (new chunks, new datasets) changes nothing of the chunks that were
    in it. *)
Theorem C92_append f t a n : a + n <= lenN f -> same_at f (f ++ t) a n.
Proof.
  intros H. right. exists (firstn (N.to_nat n) (skipn (N.to_nat a) f)). split; [now apply slice_at|].
  destruct (slice_at f a n H) as (x & y & E & H1 & H2). exists x, (y ++ t). split; [|auto]. rewrite E at 1. now rewrite <- !app_assoc.
Qed.
Print Assumptions C92_append.

(** A chunk of two bytes read while it is overwritten, in two reads: half old, half new. *)
Example C92_torn_case : let P f := f = [0; 0; 0] \/ f = [1; 1; 1] in
  lsteps P ([0; 0; 0], [mkWorker [(1, 2)] 0 Idle []]) ([1; 1; 1], [mkWorker [] 3 Idle [[0; 1]]]).
Proof.
  intros P. assert (A : forall f w w' l, wstep f w w' -> lsteps P (f, [w']) l -> lsteps P (f, [w]) l).
  { intros. econstructor; [apply ls_call, (ss_one f [] w w' [])|]; auto. }
  eapply A; [apply ws_seek; reflexivity|].
  eapply A; [apply (ws_read _ _ _ _ _ _ 1); [reflexivity|discriminate|discriminate]|].
  eapply lss_step; [apply (ls_write P _ [1; 1; 1]); now right|].
  eapply A; [apply (ws_read _ _ _ _ _ _ 1); [reflexivity|discriminate|discriminate]|].
  eapply A; [apply ws_full|]. apply lss_refl.
Qed.

(** The example file, to which something is appended before the second load. *)
Example C92_case m : exists rc rd good,
  addr_sort sort_by_addr /\ same_addr st_ds /\ Forall (keeps st_file st_ds) [st_file; st_file ++ [7; 7]] /\ keeps st_file st_ds st_file /\
  kept m toy_inflate st_ds st_file rc /\ cache_new m st_ds st_file = Ok rc /\ direct_new m st_ds (Some st_file) = Ok rd /\
  fst (cache_read_v m toy_inflate 13 [st_file; st_file ++ [7; 7]] rc st_sel (repeat 9 24)) = (Ok 24, good) /\
  cr_file (snd (cache_read_v m toy_inflate 13 [st_file; st_file ++ [7; 7]] rc st_sel (repeat 9 24))) = st_file ++ [7; 7] /\
  direct_read_v m toy_inflate sort_by_addr 13 [st_file; st_file ++ [7; 7]] rd st_sel (repeat 9 24) = (Ok 24, good).
Proof.
  destruct (C24_case m) as (H1 & H2 & _).
  assert (F : forallb (fun c => c_addr c + c_size c <=? lenN st_file) (d_chunks st_ds) = true) by (vm_compute; reflexivity).
  rewrite forallb_forall in F.
  assert (K : forall t, keeps st_file st_ds (st_file ++ t)).
  { intros t c Hc. apply C92_append. apply N.leb_le. now apply F. }
  assert (K0 : keeps st_file st_ds st_file) by (specialize (K []); now rewrite app_nil_r in K).
  assert (N0 : exists rc, cache_new m st_ds st_file = Ok rc) by (destruct m; vm_compute; eauto). destruct N0 as (rc & N0).
  exists rc, (mkDirect st_ds (Some st_file) 12). eexists.
  split; [exact H1|]. split; [exact H2|]. split; [constructor; [exact K0|constructor; [apply K|constructor]]|]. split; [exact K0|].
  split; [now apply (kp_new _ _ _ _ _ st_file)|]. split; [exact N0|]. clear - N0.
  destruct m; vm_compute in N0; apply SerdeProofs.ok_inj in N0; subst rc;
    (split; [vm_compute; reflexivity|]); (split; [vm_compute; reflexivity|]); (split; [vm_compute; reflexivity|]);
    vm_compute; reflexivity.
Qed.
