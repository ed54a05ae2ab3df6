(** * C98: many readers at once, down to their system calls. *)
From Coq Require Import Lia Permutation.
From Verif Require Import Base Spec Safe Extent Chunk Dataset Slicer SpecApi ExtentProofs ApiLemmas Termination
  GroupProofs SliceProps Filters SpecFilter FilterProps Reader SpecReader CacheProofs Writes DirectProofs ParProofs
  ReadProofs ReaderProps StreamProofs Properties4 Properties15 Properties17 Examples ExamplesReader Syscalls ParSys Faults
  Properties65 Properties66 Properties67 SeqSys.

(** ** Specification *)

Section Spec.
Context (faults : bool) (m : mode) (inflate : bytes -> option bytes) (sort : list gsegment -> list gsegment) (fuel : nat).

(** The reads of one cached reader, one after the other, from reader [r] to reader [r']: each is a read of Reader.v, in
    which loads fail as [os] says (Faults.v), but only if calls may fail. *)
Inductive cached_reads : creader -> list entry -> creader -> Prop :=
| cr_none r : cached_reads r [] r
| cr_more r l r1 os e dst x d r2 : cached_reads r l r1 -> (faults = false -> os = []) ->
    cache_read_f m inflate fuel os r1 e dst = (x, d, r2) -> cached_reads r (l ++ [(e, dst, x, d)]) r2.

(** What a thread alone may have read. *)
Definition alone (c : client) (l : list entry) : Prop :=
  match c with
  | CFree r _ => exists r', cached_reads r l r'
  | DFree r => Forall (fun en => let '(e, dst, x, d) := en in exists opens os,
      (faults = false -> opens = true /\ os = []) /\ direct_read_f m inflate sort fuel opens os r e dst = (x, d)) l
  | PFree r => Forall (fun en => let '(e, dst, x, d) := en in sys_read faults m inflate sort fuel r e dst x d) l
  | _ => False
  end.
End Spec.

(** Nothing is being read. *)
Definition free (c : client) : Prop := match c with CFree _ _ | DFree _ | PFree _ => True | _ => False end.
(** No chunk is at an address no file has. *)
Definition low_ds (ds : dataset) : Prop := forall c, In c (d_chunks ds) -> c_addr c < 2 ^ 63.
Definition client_ds (c : client) : dataset :=
  match c with CFree r _ | CBusy r _ _ _ _ _ => cr_ds r | DFree r | DBusy r _ _ _ _ _ | PFree r | PBusy r _ _ _ _ => dr_ds r end.

(** The selection and the buffer of the read a thread is making. *)
Definition current (c : client) : option (extents * bytes) :=
  match c with
  | CBusy _ e dst _ _ _ | DBusy _ _ e dst _ _ | PBusy _ e dst _ _ => Some (e, dst)
  | _ => None
  end.

(** Without failures: reads of Reader.v. *)
Inductive plain_reads (m : mode) (inflate : bytes -> option bytes) (fuel : nat) : creader -> list entry -> creader -> Prop :=
| pl_none r : plain_reads m inflate fuel r [] r
| pl_more r l r1 e dst x d r2 : plain_reads m inflate fuel r l r1 ->
    cache_read m inflate fuel r1 e dst = (x, d, r2) -> plain_reads m inflate fuel r (l ++ [(e, dst, x, d)]) r2.
Definition plain (m : mode) (inflate : bytes -> option bytes) (sort : list gsegment -> list gsegment) (fuel : nat) (c : client) (l : list entry) : Prop :=
  match c with
  | CFree r _ => exists r', plain_reads m inflate fuel r l r'
  | DFree r => Forall (fun en => let '(e, dst, x, d) := en in direct_read m inflate sort fuel r e dst = (x, d)) l
  | PFree r => Forall (fun en => let '(e, dst, x, d) := en in par_read m inflate sort fuel r e dst x d) l
  | _ => False
  end.

(** A thread with a new reader of the dataset, in this file. *)
Definition reads_of (m : mode) (ds : dataset) (file : bytes) (c : client) : Prop :=
  match c with
  | CFree r _ => cache_new m ds file = Ok r
  | DFree r | PFree r => direct_new m ds (Some file) = Ok r
  | _ => False
  end.

(** [n] steps of one thread within one read, interrupted calls not counted. *)
Inductive within (faults : bool) (m : mode) (inflate : bytes -> option bytes) (sort : list gsegment -> list gsegment) (fuel : nat) :
    nat -> client -> client -> Prop :=
| wi_none c : within faults m inflate sort fuel 0 c c
| wi_again n c c' : clstep faults m inflate sort fuel c None c -> within faults m inflate sort fuel n c c' -> within faults m inflate sort fuel n c c'
| wi_step n c c1 c' : clstep faults m inflate sort fuel c None c1 -> c <> c1 -> within faults m inflate sort fuel n c1 c' ->
    within faults m inflate sort fuel (S n) c c'.

(** ** Proof *)

Lemma cached_reads_trans faults m inflate fuel r l r1 : cached_reads faults m inflate fuel r l r1 -> forall l' r2,
  cached_reads faults m inflate fuel r1 l' r2 -> cached_reads faults m inflate fuel r (l ++ l') r2.
Proof.
  intros H l' r2 H2. revert r l H. induction H2 as [r1|r1 l' r2 os e dst x d r3 H2 IH HF E]; intros r l H.
  - now rewrite app_nil_r.
  - rewrite app_assoc. eapply cr_more; eauto.
Qed.

(** A worker with one chunk to load can go on, is stopped, or has it. *)
Lemma worker_goes file j w : winv file [j] w ->
  broken w \/ (exists raw, w_todo w = [] /\ w_phase w = Idle /\ w_got w = [raw]) \/
  exists w', wstep file w w' /\ w_phase w' <> Fault /\ work w' < work w.
Proof.
  intros W. pose proof W as (did & Ed & G & P).
  assert (X : broken w \/ (exists raw, w_todo w = [] /\ w_phase w = Idle /\ w_got w = [raw]) \/
              exists w', wstep file w w' /\ w_phase w' <> Fault /\ w' <> w).
  { unfold broken. destruct w as [todo pos ph got]. cbn [w_todo w_pos w_phase w_got] in *. destruct ph as [|want acc| | |]; auto 6.
    - destruct todo as [|[a0 n0] todo].
      + right. left. rewrite app_nil_r in Ed. subst did. inversion G as [|? raw ? ? _ G1]; subst. inversion G1; subst. eauto.
      + right. right. destruct (N.lt_ge_cases a0 (2 ^ 63)) as [Ha|Ha].
        * eexists. split; [now apply ws_seek|]. split; discriminate.
        * eexists. split; [now apply ws_refused|]. split; discriminate.
    - right. right. destruct P as (a0 & n0 & todo' & -> & _). destruct (N.eq_dec want 0) as [->|Hw].
      + eexists. split; [apply ws_full|]. split; discriminate.
      + destruct (N.lt_ge_cases pos (lenN file)) as [Hp|Hp].
        * eexists. split; [apply (ws_read _ _ _ _ _ _ 1); lia|]. split; [discriminate|]. intros E1. injection E1. intros. lia.
        * eexists. split; [apply ws_end; [lia|auto]|]. split; discriminate. }
  destruct X as [X|[X|(w' & X1 & X2 & X3)]]; auto. right. right. exists w'. repeat split; auto.
  destruct (wstep_work file [j] w w' W X1) as [->|L]; [contradiction|auto].
Qed.
Lemma idle_work w : w_todo w = [] -> w_phase w = Idle -> work w = 0.
Proof. intros H1 H2. unfold work. now rewrite H1, H2. Qed.
Lemma lru_get_last_ne (last : option (N * bytes)) k : (exists d, last = Some (k, d)) \/ forall d, last <> Some (k, d).
Proof.
  destruct last as [[a d]|]; [|right; discriminate]. destruct (N.eq_dec a k) as [->|H]; [left; eauto|].
  right. intros d' E. injection E. intros. contradiction.
Qed.
Lemma res_dec {A} (x : res A) : (exists v, x = Ok v) \/ forall v, x <> Ok v.
Proof. destruct x; eauto; right; discriminate. Qed.
Lemma failed_same {A} (x : res A) : (forall v, x <> Ok v) -> failed x = x.
Proof. destruct x; auto. intros H. now contradiction (H a). Qed.
Lemma par_result_exists l : exists x, par_result l x.
Proof.
  assert (D : forall f : fin, Exists (fun t => t = Done f) l \/ ~ Exists (fun t => t = Done f) l).
  { intros f. induction l as [|t l IH]; [right; intros H; inversion H|].
    assert (X : t = Done f \/ t <> Done f).
    { destruct t as [| |g|]; try (right; discriminate). destruct f as [|e| |], g as [|e'| |]; try (left; reflexivity); try (right; discriminate).
      destruct e, e'; try (left; reflexivity); right; discriminate. }
    destruct X as [->|X]; [left; now constructor|]. destruct IH as [IH|IH]; [left; now apply Exists_cons_tl|].
    right. intros H. inversion H; subst; auto. }
  assert (E : forall f, Exists (fun t => t = Done f) l <-> In (Done f) l).
  { intros f. rewrite Exists_exists. split; [intros (t & H & ->); auto|intros H; eauto]. }
  destruct (D FUb) as [H|H1]; [exists Ub; constructor; now apply E|].
  destruct (D FPanic) as [H|H2]; [exists Panic; constructor; [now rewrite <- E|now apply E]|].
  assert (X : (exists e, In (Done (FErr e)) l) \/ forall e, ~ In (Done (FErr e)) l).
  { clear. induction l as [|t l IH]; [right; auto|]. destruct IH as [(e & IH)|IH]; [left; exists e; now right|].
    destruct t as [| |[|e| |]|]; try (right; intros e' [H|H]; [discriminate H|now apply (IH e')]).
    left. exists e. now left. }
  destruct X as [(e & X)|X].
  - exists (Err e). constructor; auto; now rewrite <- E.
  - exists (Ok tt). constructor. intros [|e| |] H; auto; exfalso; [now apply (X e)|apply H2|apply H1]; now apply E.
Qed.

Section Run.
Context (faults : bool) (m : mode) (inflate : bytes -> option bytes) (sort : list gsegment -> list gsegment) (fuel : nat).

Definition calm (os : list bool) : Prop := Forall (fun o => o = false) os.
Lemma calm_repeat n : calm (repeat false n).
Proof. induction n; constructor; auto. Qed.
Lemma repeat_snoc {A} (x : A) n l : repeat x n ++ x :: l = repeat x (S n) ++ l.
Proof. change (x :: l) with ([x] ++ l). rewrite app_assoc, <- repeat_cons. reflexivity. Qed.

(** *** Cached reads *)
Lemma cache_seg_f_calm r os cache sg pos dst : calm os ->
  exists os', calm os' /\ cache_seg_f m inflate r os cache sg pos dst = (cache_seg m inflate r cache sg pos dst, os').
Proof.
  intros HC. destruct sg as [[c a] b]. unfold cache_seg_f. destruct (byte_range _ _ _ _) as [x| | | |]; eauto.
  destruct (lru_get _ _); eauto. destruct HC as [|o os -> HC]; [exists []; split; [constructor|auto]|]. exists os. auto.
Qed.
Lemma cache_loop_f_calm r st : forall segs os cache pos dst, calm os ->
  cache_loop_f m inflate r segs st os cache pos dst = cache_loop m inflate r segs st cache pos dst.
Proof.
  induction segs as [|sg segs IH]; intros os cache pos dst HC; [reflexivity|]. cbn [cache_loop_f cache_loop].
  destruct (cache_seg_f_calm r os cache sg pos dst HC) as (os' & HC' & ->).
  destruct (cache_seg m inflate r cache sg pos dst) as [[[d p]| | | |] c]; auto.
Qed.

Section K.
Context (r : creader) (st : stop) (segs0 : list segment) (dst0 : bytes).
Definition kres (os : list bool) := cache_loop_f m inflate r segs0 st os (cr_cache r) 0 dst0.
Definition kgo (segs : list segment) (cache : lru) (pos : N) (dst : bytes) : Prop :=
  exists n, forall os, kres (repeat false n ++ os) = cache_loop_f m inflate r segs st os cache pos dst.
Definition kinv (k : kstate) : Prop :=
  match k with
  | KTop segs cache pos dst _ => kgo segs cache pos dst /\ Forall (fun sg => c_addr (fst (fst sg)) < 2 ^ 63) segs
  | KLoad (c, a, b) segs cache pos dst w =>
      kgo ((c, a, b) :: segs) cache pos dst /\ Forall (fun sg => c_addr (fst (fst sg)) < 2 ^ 63) segs /\ c_addr c < 2 ^ 63 /\
      (exists v, byte_range m (d_dsize (cr_ds r)) a b = Ok v) /\ lru_get (c_addr c) cache = None /\
      winv (cr_file r) [(c_addr c, c_size c)] w /\ (w_phase w = Fault -> faults = true)
  | KOver x dst cache _ => exists os, (faults = false -> calm os) /\ kres os = (x, dst, cache)
  end.
Lemma kgo_over segs cache pos dst x cache' fp : kgo segs cache pos dst ->
  cache_loop_f m inflate r segs st [] cache pos dst = (x, dst, cache') -> kinv (KOver x dst cache' fp).
Proof. intros (n & H) E. exists (repeat false n ++ []). split; [intros _; rewrite app_nil_r; apply calm_repeat|]. now rewrite H. Qed.

Lemma loaded_load file ds csz c w raw : winv file [(c_addr c, c_size c)] w -> w_todo w = [] -> w_got w = [raw] ->
  load m inflate file ds csz c = decoded m inflate ds csz raw.
Proof. intros H1 H2 H3. unfold load, read_chunk, decoded. now rewrite (winv_done file c w raw H1 H2 H3). Qed.
Lemma atend_load file ds csz c w : winv file [(c_addr c, c_size c)] w -> w_phase w = AtEnd -> load m inflate file ds csz c = Err EIo.
Proof.
  intros W HP. pose proof W as (did & _ & _ & P). rewrite HP in P. destruct P as (a & n & js & E & H1 & H2).
  destruct (winv_single file _ w W _ _ E) as [E' _]. injection E' as -> ->.
  unfold load, read_chunk, read_exact. rewrite (proj2 (N.eqb_neq _ _)) by lia. now rewrite (proj2 (N.leb_gt _ _) H2).
Qed.
Lemma not_refused file c w : winv file [(c_addr c, c_size c)] w -> c_addr c < 2 ^ 63 -> w_phase w <> Refused.
Proof.
  intros W HA HP. pose proof W as (did & _ & _ & P). rewrite HP in P. destruct P as (a & n & js & E & H1).
  destruct (winv_single file _ w W _ _ E) as [E' _]. injection E' as -> ->. lia.
Qed.

Lemma kstep_inv k k' : kstep faults m inflate r st k k' -> kinv k -> kinv k'.
Proof.
  intros H. destruct H as [cache pos dst fp
    |c a b segs cache pos dst fp x H1 H2
    |c a b segs cache cache' pos dst dst' fp s e sz data H1 H2 H3
    |c a b segs cache cache' pos dst fp s e sz data x H1 H2 H3 H4
    |c a b segs cache pos dst fp v H1 H2
    |[[c a] b] segs cache pos dst w w' H1 H2
    |[[c a] b] segs cache pos dst w H1
    |c a b segs cache pos dst dst' w raw data s e sz H1 H2 H3 H4 H5 H6
    |c a b segs cache pos dst w raw x H1 H2 H3 H4 H5
    |c a b segs cache pos dst w raw data s e sz x H1 H2 H3 H4 H5 H6 H7]; cbn [kinv].
  - intros (G & _). eapply (kgo_over _ _ _ _ _ _ 0); [exact G|]. reflexivity.
  - intros (G & _). eapply (kgo_over _ _ _ _ _ _ 0); [exact G|]. cbn [cache_loop_f cache_seg_f]. unfold cache_seg. rewrite H1.
    destruct x as [v| | | |]; [now contradiction (H2 v)|..]; reflexivity.
  - intros ((n & G) & F). inversion F as [|? ? _ F']; subst. split; auto. exists n. intros os. rewrite G.
    cbn [cache_loop_f cache_seg_f]. unfold cache_seg. rewrite H1, H2, H3. reflexivity.
  - intros (G & _). eapply (kgo_over _ _ _ _ _ _ 0); [exact G|]. cbn [cache_loop_f cache_seg_f]. unfold cache_seg.
    rewrite H1, H2, H3. destruct x; [now contradiction (H4 a0)|..]; reflexivity.
  - intros (G & F). inversion F as [|? ? F1 F']; subst. cbn [fst] in F1. repeat split; auto; [eauto| |discriminate].
    apply (winv_fresh (cr_file r) (mkWorker [(c_addr c, c_size c)] fp Idle [])). split; reflexivity.
  - intros (G & F & A & V & L & W & P). repeat split; auto; [eapply winv_step; eauto|]. intros E. destruct H2 as [H2|H2]; [auto|contradiction].
  - intros ((n & G) & F & A & (v & V) & L & W & P). destruct H1 as [H1|[H1|H1]].
    + exists (repeat false n ++ []). split; [intros _; rewrite app_nil_r; apply calm_repeat|]. rewrite G.
      cbn [cache_loop_f cache_seg_f]. unfold cache_seg. rewrite V, L. destruct v as [[s e] sz]. now rewrite (atend_load _ _ _ c w W H1).
    + exfalso. eapply not_refused; eauto.
    + exists (repeat false n ++ [true]). split; [intros E; rewrite (P H1) in E; discriminate|]. rewrite G.
      cbn [cache_loop_f cache_seg_f]. rewrite V, L. reflexivity.
  - intros ((n & G) & F & A & _ & L & W & P). split; auto. exists (S n). intros os. rewrite <- repeat_snoc, G.
    cbn [cache_loop_f cache_seg_f]. unfold cache_seg. rewrite H4, L, (loaded_load _ _ _ c w raw W H1 H3), H5, H6. reflexivity.
  - intros (G & F & A & (v & V) & L & W & P). eapply (kgo_over _ _ _ _ _ _ 0); [exact G|]. cbn [cache_loop_f cache_seg_f]. unfold cache_seg.
    rewrite V, L, (loaded_load _ _ _ c w raw W H1 H3), H4. destruct v as [[s e] sz]. destruct x; [now contradiction (H5 a0)|..]; reflexivity.
  - intros (G & F & A & _ & L & W & P). eapply (kgo_over _ _ _ _ _ _ 0); [exact G|]. cbn [cache_loop_f cache_seg_f]. unfold cache_seg.
    rewrite H4, L, (loaded_load _ _ _ c w raw W H1 H3), H5, H6. destruct x; [now contradiction (H7 a0)|..]; reflexivity.
Qed.

(** Steps left. *)
Definition swork (segs : list segment) : N := sumN (map (fun sg => c_size (fst (fst sg)) + 8) segs).
Definition kwork (k : kstate) : N :=
  match k with
  | KTop segs _ _ _ _ => 1 + swork segs
  | KLoad _ segs _ _ _ w => work w + 4 + swork segs
  | KOver _ _ _ _ => 0
  end.
End K.

Lemma kstep_false_mono r st k k' : kstep false m inflate r st k k' -> kstep faults m inflate r st k k'.
Proof. intros H. destruct H; try (econstructor; eauto; fail). econstructor; eauto. destruct H0 as [H0|H0]; [discriminate|auto]. Qed.
Lemma kprog r st segs0 dst0 k : kinv r st segs0 dst0 k -> (exists x d c fp, k = KOver x d c fp) \/
  exists k', kstep false m inflate r st k k' /\ kwork k' < kwork k.
Proof.
  destruct k as [segs cache pos dst fp|[[c a] b] segs cache pos dst w|x dst cache fp]; intros HI; [| |left; eauto].
  - right. destruct segs as [|[[c a] b] segs]; [eexists; split; [apply ks_end|cbn; lia]|].
    destruct (res_dec (byte_range m (d_dsize (cr_ds r)) a b)) as [([[s e] sz] & V)|V].
    2:{ eexists. split; [eapply ks_range; eauto|]. cbn [kwork]. lia. }
    destruct (lru_get (c_addr c) cache) as [[data cache']|] eqn:L.
    + destruct (res_dec (copy_slice m data s e sz pos dst)) as [(d' & X)|X].
      * eexists. split; [eapply ks_hit; eauto|]. cbn [kwork]. unfold swork. cbn [map sumN]. lia.
      * eexists. split; [eapply ks_hitbad; eauto|]. cbn [kwork]. lia.
    + eexists. split; [eapply ks_miss; eauto|]. cbn [kwork]. unfold swork, work. cbn [w_phase w_todo map sumN fst snd]. lia.
  - right. destruct HI as (G & F & A & ([[s e] sz] & V) & L & W & P).
    destruct (worker_goes _ _ w W) as [X|[(raw & X1 & X2 & X3)|(w' & X1 & X2 & X3)]].
    + eexists. split; [now apply ks_fail|]. cbn [kwork]. lia.
    + destruct (res_dec (decoded m inflate (cr_ds r) (cr_csz r) raw)) as [(data & D)|D].
      * destruct (res_dec (copy_slice m data s e sz pos dst)) as [(d' & X)|X].
        -- eexists. split; [eapply ks_loaded; eauto|]. cbn [kwork]. lia.
        -- eexists. split; [eapply ks_loadbad; eauto|]. cbn [kwork]. lia.
      * eexists. split; [eapply ks_decode; eauto|]. cbn [kwork]. lia.
    + eexists. split; [eapply ks_call; eauto|]. cbn [kwork]. lia.
Qed.

(** *** Direct reads *)
Lemma direct_load_f_calm r file os last c : calm os -> exists os', calm os' /\
  direct_load_f m inflate r file os last c = (direct_load m inflate r file last c, os').
Proof.
  intros HC. unfold direct_load_f. destruct (match last with Some (a, _) => negb (a =? c_addr c) | None => true end); [|eauto].
  destruct HC as [|o os -> HC]; [exists []; split; [constructor|auto]|]. exists os. auto.
Qed.
Lemma direct_loop_f_calm r file : forall groups os last dst, calm os ->
  direct_loop_f m inflate r file groups os last dst = direct_loop m inflate r file groups last dst.
Proof.
  induction groups as [|[[[c cur] a] b] groups IH]; intros os last dst HC; [reflexivity|]. cbn [direct_loop_f direct_loop].
  destruct (direct_load_f_calm r file os last c HC) as (os' & HC' & ->).
  destruct (direct_load m inflate r file last c); auto. destruct (copy_at _ _ _ _ _ _ _); auto.
Qed.

Section Q.
Context (r : direct) (file : bytes) (groups0 : list gsegment) (dst0 : bytes).
Definition qres (os : list bool) := direct_loop_f m inflate r file groups0 os None dst0.
Definition qgo (groups : list gsegment) (last : option (N * bytes)) (dst : bytes) : Prop :=
  exists n, forall os, qres (repeat false n ++ os) = direct_loop_f m inflate r file groups os last dst.
Definition g_low (g : gsegment) : Prop := let '(c, _, _, _) := g in c_addr c < 2 ^ 63.
Definition qinv (q : qstate) : Prop :=
  match q with
  | QTop groups last dst _ => qgo groups last dst /\ Forall g_low groups
  | QLoad (c, cur, a, b) groups dst w =>
      (exists last, (forall data, last <> Some (c_addr c, data)) /\ qgo ((c, cur, a, b) :: groups) last dst) /\
      Forall g_low groups /\ c_addr c < 2 ^ 63 /\
      winv file [(c_addr c, c_size c)] w /\ (w_phase w = Fault -> faults = true)
  | QOver x dst => exists os, (faults = false -> calm os) /\ qres os = (x, dst)
  end.
Lemma qgo_over groups last dst x : qgo groups last dst ->
  direct_loop_f m inflate r file groups [] last dst = (x, dst) -> qinv (QOver x dst).
Proof. intros (n & H) E. exists (repeat false n ++ []). split; [intros _; rewrite app_nil_r; apply calm_repeat|]. now rewrite H. Qed.
Lemma new_load last c os : (forall data, last <> Some (c_addr c, data)) ->
  direct_load_f m inflate r file os last c =
  match os with true :: os' => (Err EIo, os') | _ => (load m inflate file (dr_ds r) (dr_csz r) c, tl os) end.
Proof.
  intros H. unfold direct_load_f, direct_load. destruct last as [[a d]|]; [|now destruct os as [|[] ?]].
  destruct (N.eqb_spec a (c_addr c)) as [->|Ne]; [now contradiction (H d)|]. cbn [negb]. now destruct os as [|[] ?].
Qed.
Lemma kept_load c data os : direct_load_f m inflate r file os (Some (c_addr c, data)) c = (Ok data, os).
Proof. unfold direct_load_f, direct_load. now rewrite N.eqb_refl. Qed.

Lemma qstep_inv q q' : qstep faults m inflate r file q q' -> qinv q -> qinv q'.
Proof.
  intros H. destruct H as [last dst fp
    |c cur a b groups data dst dst' fp H1
    |c cur a b groups data dst fp x H1 H2
    |c cur a b groups last dst fp H1
    |[[[c cur] a] b] groups dst w w' H1 H2
    |[[[c cur] a] b] groups dst w H1
    |c cur a b groups dst dst' w raw data H1 H2 H3 H4 H5
    |c cur a b groups dst w raw x H1 H2 H3 H4 H5
    |c cur a b groups dst w raw data x H1 H2 H3 H4 H5 H6]; cbn [qinv].
  - intros (G & _). eapply qgo_over; [exact G|]. reflexivity.
  - intros ((n & G) & F). inversion F as [|? ? _ F']; subst. split; auto. exists n. intros os. rewrite G.
    cbn [direct_loop_f]. rewrite kept_load, H1. reflexivity.
  - intros (G & _). eapply qgo_over; [exact G|]. cbn [direct_loop_f]. rewrite kept_load, H1.
    destruct x as [v| | | |]; [now contradiction (H2 v)|..]; reflexivity.
  - intros (G & F). inversion F as [|? ? F1 F']; subst. cbn [g_low] in F1. repeat split; auto; [eauto| |discriminate].
    apply (winv_fresh file (mkWorker [(c_addr c, c_size c)] fp Idle [])). split; reflexivity.
  - intros (G & F & A & W & P). repeat split; auto; [eapply winv_step; eauto|]. intros E. destruct H2 as [H2|H2]; [auto|contradiction].
  - intros ((last & NL & n & G) & F & A & W & P). destruct H1 as [H1|[H1|H1]].
    + exists (repeat false n ++ []). split; [intros _; rewrite app_nil_r; apply calm_repeat|]. rewrite G.
      cbn [direct_loop_f]. rewrite (new_load last c [] NL), (atend_load _ _ _ c w W H1). reflexivity.
    + exfalso. eapply not_refused; eauto.
    + exists (repeat false n ++ [true]). split; [intros E; rewrite (P H1) in E; discriminate|]. rewrite G.
      cbn [direct_loop_f]. rewrite (new_load last c [true] NL). reflexivity.
  - intros ((last & NL & n & G) & F & A & W & P). split; auto. exists (S n). intros os. rewrite <- repeat_snoc, G.
    cbn [direct_loop_f]. rewrite (new_load last c (false :: os) NL), (loaded_load _ _ _ c w raw W H1 H3), H4, H5. reflexivity.
  - intros ((last & NL & G) & F & A & W & P). eapply qgo_over; [exact G|]. cbn [direct_loop_f].
    rewrite (new_load last c [] NL), (loaded_load _ _ _ c w raw W H1 H3), H4. destruct x as [v| | | |]; [now contradiction (H5 v)|..]; reflexivity.
  - intros ((last & NL & G) & F & A & W & P). eapply qgo_over; [exact G|]. cbn [direct_loop_f].
    rewrite (new_load last c [] NL), (loaded_load _ _ _ c w raw W H1 H3), H4, H5. destruct x as [v| | | |]; [now contradiction (H6 v)|..]; reflexivity.
Qed.
Definition gwork (groups : list gsegment) : N := sumN (map (fun g => c_size (let '(c, _, _, _) := g in c) + 8) groups).
Definition qwork (q : qstate) : N :=
  match q with
  | QTop groups _ _ _ => 1 + gwork groups
  | QLoad _ groups _ w => work w + 4 + gwork groups
  | QOver _ _ => 0
  end.
Lemma qprog q : qinv q -> (exists x d, q = QOver x d) \/ exists q', qstep false m inflate r file q q' /\ qwork q' < qwork q.
Proof.
  destruct q as [groups last dst fp|[[[c cur] a] b] groups dst w|x dst]; intros HI; [| |left; eauto].
  - right. destruct groups as [|[[[c cur] a] b] groups]; [eexists; split; [apply qs_end|cbn; lia]|].
    destruct (lru_get_last_ne last (c_addr c)) as [(data & ->)|L].
    + destruct (res_dec (copy_at m data (d_dsize (dr_ds r)) cur a b dst)) as [(d' & X)|X].
      * eexists. split; [eapply qs_kept; eauto|]. cbn [qwork]. unfold gwork. cbn [map sumN]. lia.
      * eexists. split; [eapply qs_keptbad; eauto|]. cbn [qwork]. lia.
    + eexists. split; [now apply qs_load|]. cbn [qwork]. unfold gwork, work. cbn [w_phase w_todo map sumN fst snd]. lia.
  - right. destruct HI as (G & F & A & W & P).
    destruct (worker_goes _ _ w W) as [X|[(raw & X1 & X2 & X3)|(w' & X1 & X2 & X3)]].
    + eexists. split; [now apply qs_fail|]. cbn [qwork]. lia.
    + destruct (res_dec (decoded m inflate (dr_ds r) (dr_csz r) raw)) as [(data & D)|D].
      * destruct (res_dec (copy_at m data (d_dsize (dr_ds r)) cur a b dst)) as [(d' & X)|X].
        -- eexists. split; [eapply qs_loaded; eauto|]. cbn [qwork]. lia.
        -- eexists. split; [eapply qs_loadbad; eauto|]. cbn [qwork]. lia.
      * eexists. split; [eapply qs_decode; eauto|]. cbn [qwork]. lia.
    + eexists. split; [eapply qs_call; eauto|]. cbn [qwork]. lia.
Qed.
End Q.
End Run.

Section Threads.
Context (faults : bool) (m : mode) (inflate : bytes -> option bytes) (sort : list gsegment -> list gsegment) (fuel : nat).
Context (HS : addr_sort sort).

(** What holds of a thread that began with [c0]. *)
Definition cinv (c0 : client) (t : thread) : Prop :=
  match c0, t with
  | CFree r0 _, (CFree r _, l) => cached_reads faults m inflate fuel r0 l r
  | CFree r0 _, (CBusy r e dst v st k, l) => cached_reads faults m inflate fuel r0 l r /\
      exists segs, read_size m (cr_ds r) e dst = Ok v /\ chunk_slices m fuel (cr_ds r) e = (segs, st) /\ kinv faults m inflate r st segs dst k
  | DFree r0, (DFree r, l) => r = r0 /\ alone faults m inflate sort fuel c0 l
  | DFree r0, (DBusy r file e dst v q, l) => r = r0 /\ alone faults m inflate sort fuel c0 l /\ dr_file r = Some file /\
      exists groups, read_size m (dr_ds r) e dst = Ok v /\ group_chunk_slices sort m fuel (dr_ds r) e = Ok groups /\
        qinv faults m inflate r file groups dst q
  | PFree r0, (PFree r, l) => r = r0 /\ alone faults m inflate sort fuel c0 l
  | PFree r0, (PBusy r e dst v s, l) => r = r0 /\ alone faults m inflate sort fuel c0 l /\
      exists groups, read_size m (dr_ds r) e dst = Ok v /\ group_chunk_slices sort m fuel (dr_ds r) e = Ok groups /\
        csteps faults m inflate r (lenN dst) (map CWait (chunk_by_addr groups), dst) s
  | _, _ => False
  end.

Lemma cached_ds r l r' : cached_reads faults m inflate fuel r l r' -> cr_ds r' = cr_ds r.
Proof.
  induction 1 as [r|r l r1 os e dst x d r2 H IH HF E]; auto. rewrite <- IH. clear - E. unfold cache_read_f in E.
  destruct (read_size _ _ _ _); try (injection E; intros; subst; reflexivity).
  destruct (chunk_slices _ _ _ _). destruct (cache_loop_f _ _ _ _ _ _ _ _ _) as [[? ?] ?]. injection E. intros. subst. reflexivity.
Qed.
Lemma cached_file r l r' : cached_reads faults m inflate fuel r l r' -> cr_file r' = cr_file r.
Proof.
  induction 1 as [r|r l r1 os e dst x d r2 H IH HF E]; auto. rewrite <- IH. clear - E. unfold cache_read_f in E.
  destruct (read_size _ _ _ _); try (injection E; intros; subst; reflexivity).
  destruct (chunk_slices _ _ _ _). destruct (cache_loop_f _ _ _ _ _ _ _ _ _) as [[? ?] ?]. injection E. intros. subst. reflexivity.
Qed.
Lemma calm_read os r e dst : calm os -> cache_read_f m inflate fuel os r e dst = cache_read_f m inflate fuel [] r e dst.
Proof.
  intros H. unfold cache_read_f. destruct (read_size _ _ _ _); auto. destruct (chunk_slices _ _ _ _).
  rewrite !cache_loop_f_calm; [reflexivity|constructor|auto].
Qed.
Lemma calm_direct opens os r e dst : calm os -> direct_read_f m inflate sort fuel opens os r e dst = direct_read_f m inflate sort fuel opens [] r e dst.
Proof.
  intros H. unfold direct_read_f. destruct (read_size _ _ _ _); auto. destruct (group_chunk_slices _ _ _ _ _); auto. destruct (dr_file r); auto.
  destruct opens; auto. rewrite !direct_loop_f_calm; [reflexivity|constructor|auto].
Qed.
Lemma kept_or_calm os : (faults = false -> calm os) -> exists os', (faults = false -> os' = []) /\
  (forall r e dst, cache_read_f m inflate fuel os' r e dst = cache_read_f m inflate fuel os r e dst) /\
  forall opens r e dst, direct_read_f m inflate sort fuel opens os' r e dst = direct_read_f m inflate sort fuel opens os r e dst.
Proof.
  intros H. destruct faults.
  - exists os. repeat split; auto. discriminate.
  - exists []. repeat split; auto; intros; symmetry; [apply calm_read|apply calm_direct]; auto.
Qed.

Lemma alone_snoc_d r l e dst x d opens os : alone faults m inflate sort fuel (DFree r) l ->
  (faults = false -> opens = true /\ os = []) -> direct_read_f m inflate sort fuel opens os r e dst = (x, d) ->
  alone faults m inflate sort fuel (DFree r) (l ++ [(e, dst, x, d)]).
Proof. intros H1 H2 H3. cbn [alone] in *. apply Forall_app. split; auto. constructor; [|constructor]. eauto. Qed.
Lemma alone_snoc_p r l e dst x d : alone faults m inflate sort fuel (PFree r) l ->
  sys_read faults m inflate sort fuel r e dst x d -> alone faults m inflate sort fuel (PFree r) (l ++ [(e, dst, x, d)]).
Proof. intros H1 H2. cbn [alone] in *. apply Forall_app. split; auto. Qed.

Lemma clstep_inv c0 c l o c' : low_ds (client_ds c0) -> clstep faults m inflate sort fuel c o c' -> cinv c0 (c, l) -> cinv c0 (c', l ++ noted o).
Proof.
  intros HL H. destruct H as [r fp e dst x H1 H2
    |r fp e dst v segs st H1 H2
    |r e dst v st k k' H1
    |r e dst v st x dst' cache fp
    |r e dst x H1 H2
    |r e dst v x H1 H2 H3
    |r e dst v groups H1 H2 H3
    |r file e dst v groups H1 H2 H3
    |r file e dst v q q' H1
    |r file e dst v x dst'
    |r e dst x H1 H2
    |r e dst v x H1 H2 H3
    |r e dst v groups H1 H2
    |r e dst v s s' H1
    |r e dst v final ends dst' x H1 H2]; cbn [noted]; rewrite ?app_nil_r; destruct c0 as [r0 fp0| |r0| |r0|]; cbn [cinv]; try contradiction.
  - intros HC. eapply (cr_more _ _ _ _ _ _ r []); eauto. unfold cache_read_f. rewrite H1. destruct x; [now contradiction (H2 a)|..]; reflexivity.
  - intros HC. split; auto. exists segs. repeat split; auto.
    + exists 0%nat. reflexivity.
    + apply Forall_forall. intros sg Hin. pose proof (slices_in m fuel (cr_ds r) e) as SI. rewrite H2 in SI. cbn [fst] in SI.
      rewrite Forall_forall in SI. apply HL. cbn [client_ds]. rewrite <- (cached_ds _ _ _ HC). now apply SI.
  - intros (HC & segs & E1 & E2 & K). split; auto. exists segs. repeat split; auto. eapply kstep_inv; eauto.
  - intros (HC & segs & E1 & E2 & (os & HF & E3)). destruct (kept_or_calm os HF) as (os' & HF' & EQ & _).
    eapply (cr_more _ _ _ _ _ _ r os'); eauto. rewrite EQ. unfold cache_read_f. rewrite E1, E2. unfold kres in E3. rewrite E3. reflexivity.
  - intros (-> & HA). split; auto. apply (alone_snoc_d r0 l e dst x dst true []); auto. unfold direct_read_f. rewrite H1.
    destruct x; [now contradiction (H2 a)|..]; reflexivity.
  - intros (-> & HA). split; auto. apply (alone_snoc_d r0 l e dst _ dst true []); auto. unfold direct_read_f. rewrite H1, H2.
    destruct x; [now contradiction (H3 a)|..]; reflexivity.
  - intros (-> & HA). split; auto. destruct H3 as [H3|H3].
    + apply (alone_snoc_d r0 l e dst _ dst true []); auto. unfold direct_read_f. now rewrite H1, H2, H3.
    + apply (alone_snoc_d r0 l e dst _ dst false []); auto; [rewrite H3; discriminate|]. unfold direct_read_f. rewrite H1, H2. now destruct (dr_file r0).
  - intros (-> & HA). repeat split; auto. exists groups. repeat split; auto.
    + exists 0%nat. reflexivity.
    + pose proof (group_chunks m sort fuel _ e groups HS H2) as GI. eapply Forall_impl; [|exact GI]. intros [[[c cur] a] b] Hc. apply HL. exact Hc.
  - intros (-> & HA & HFl & groups & E1 & E2 & Q). repeat split; auto. exists groups. repeat split; auto. eapply qstep_inv; eauto.
  - intros (-> & HA & HFl & groups & E1 & E2 & (os & HF & E3)). split; auto. destruct (kept_or_calm os HF) as (os' & HF' & _ & EQ).
    apply (alone_snoc_d r0 l e dst _ dst' true os'); auto. rewrite EQ. unfold direct_read_f. rewrite E1, E2, HFl. unfold qres in E3. now rewrite E3.
  - intros (-> & HA). split; auto. apply alone_snoc_p; auto. now apply sy_size.
  - intros (-> & HA). split; auto. apply alone_snoc_p; auto. eapply sy_group; eauto.
  - intros (-> & HA). repeat split; auto. exists groups. repeat split; auto. constructor.
  - intros (-> & HA & groups & E1 & E2 & Q). repeat split; auto. exists groups. repeat split; auto.
    eapply csteps_trans; [exact Q|]. econstructor; [exact H1|constructor].
  - intros (-> & HA & groups & E1 & E2 & Q). split; auto. apply alone_snoc_p; auto. eapply sy_run; eauto.
Qed.

Lemma mstep_inv cs s t : Forall (fun c => low_ds (client_ds c)) cs -> mstep faults m inflate sort fuel s t -> Forall2 cinv cs s -> Forall2 cinv cs t.
Proof.
  intros HL [l1 l2 c o c' l H] HF. apply Forall2_app_inv_r in HF as (k1 & k2 & F1 & F2 & ->). apply Forall_app in HL as [_ HL].
  inversion F2 as [|c0 t0 k2' l2' I1 I2]; subst. inversion HL as [|? ? L1 _]; subst. apply Forall2_app; auto. constructor; auto.
  eapply clstep_inv; eauto.
Qed.
Lemma msteps_inv cs s t : Forall (fun c => low_ds (client_ds c)) cs -> msteps faults m inflate sort fuel s t -> Forall2 cinv cs s -> Forall2 cinv cs t.
Proof. intros HL. induction 1; auto. intros. eauto using mstep_inv. Qed.
Lemma start_inv cs : Forall free cs -> Forall2 cinv cs (map (fun c => (c, [])) cs).
Proof.
  induction 1 as [|c cs Hc _ IH]; cbn [map]; constructor; auto. destruct c; try contradiction; cbn [cinv alone]; auto. constructor.
Qed.
Lemma cinv_alone c0 c l : cinv c0 (c, l) -> alone faults m inflate sort fuel c0 l.
Proof. destruct c0, c; cbn [cinv]; try contradiction; try tauto; cbn [alone]; [eauto|intros [H _]; eauto]. Qed.

(** *** Finishing a read *)
Definition clwork (c : client) : N :=
  match c with
  | CBusy _ _ _ _ _ k => kwork k
  | DBusy _ _ _ _ _ q => qwork q
  | PBusy r _ dst _ s => sumN (map (cwork m inflate r (lenN dst)) (fst s))
  | _ => 0
  end.
Lemma ended_dec (l : list ctask) : (exists ends, map ended l = map Some ends) \/ exists l1 t l2, l = l1 ++ t :: l2 /\ ended t = None.
Proof.
  induction l as [|t l IH]; [left; now exists []|]. destruct (ended t) as [s|] eqn:E; [|right; exists [], t, l; auto].
  destruct IH as [(ends & IH)|(l1 & u & l2 & -> & H)]; [left; exists (s :: ends); cbn [map]; congruence|].
  right. exists (t :: l1), u, l2. auto.
Qed.
Lemma clprog c0 c l e0 dst0 : low_ds (client_ds c0) -> cinv c0 (c, l) -> current c = Some (e0, dst0) ->
  exists o c', clstep false m inflate sort fuel c o c' /\
  ((exists x d, o = Some (e0, dst0, x, d)) /\ free c' \/ o = None /\ current c' = current c /\ clwork c' < clwork c).
Proof.
  intros HL HI NF. destruct c0 as [r0 fp0|r0 e1 d1 v0 st0 k0|r0|r0 f0 e1 d1 v0 q0|r0|r0 e1 d1 v0 s0],
    c as [r fp|r e dst v st k|r|r file e dst v q|r|r e dst v [ts d]]; cbn [cinv] in HI;
    try contradiction; try discriminate NF; cbn [current] in NF; injection NF as -> ->.
  - destruct HI as (HC & segs & E1 & E2 & K). destruct (kprog faults m inflate r st segs dst0 k K) as [(x & d & c & fp & ->)|(k' & S & L)].
    + eexists. eexists. split; [apply cl_cend|]. left. cbn [free]. eauto.
    + eexists. eexists. split; [apply cl_cstep; exact S|]. right. cbn [current clwork]. auto.
  - destruct HI as (_ & _ & _ & groups & _ & _ & Q). destruct (qprog faults m inflate r file groups dst0 q Q) as [(x & d & ->)|(q' & S & L)].
    + eexists. eexists. split; [apply cl_dend|]. left. cbn [free]. eauto.
    + eexists. eexists. split; [apply cl_dstep; exact S|]. right. cbn [current clwork]. auto.
  - destruct HI as (-> & _ & groups & _ & E2 & Q). destruct (ended_dec ts) as [(ends & HE)|(l1 & t & l2 & -> & HE)].
    + destruct (par_result_exists ends) as (x & HX). eexists. eexists. split; [eapply cl_pend; eauto|]. left. cbn [free]. eauto.
    + assert (HI : Forall (tinv r0) (l1 ++ t :: l2)).
      { apply csteps_inv in Q; [exact Q|]. cbn [fst]. apply Forall_map. exact (groups_low m sort fuel _ e0 groups HS E2 HL). }
      pose proof HI as HI'. apply Forall_app in HI' as [_ HI']. inversion HI' as [|? ? HT _]; subst.
      assert (ST : exists s', cstep false m inflate r0 (lenN dst0) (l1 ++ t :: l2, d) s' /\ (l1 ++ t :: l2, d) <> s').
      { destruct (tstep_progress m inflate r0 (lenN dst0) t HT HE) as [(p & b & ws & f & ->)|(t' & S & D)].
        - eexists. split; [apply cs_write|]. intros X. injection X as X _. apply app_inv_head in X. injection X as X.
          assert (LX : length ((p, b) :: ws) = length ws) by now rewrite X. cbn in LX. lia.
        - eexists. split; [apply cs_task; exact S|]. intros X. injection X as X. apply app_inv_head in X. injection X as X. now apply D. }
      destruct ST as (s' & S & D). eexists. eexists. split; [apply cl_pstep; exact S|]. right. repeat split; auto.
      cbn [clwork]. destruct (cstep_work m inflate r0 (lenN dst0) false _ _ S HI) as [X|X]; [contradiction|exact X].
Qed.
End Threads.

Lemma clstep_true m inflate sort fuel fl c o c' : clstep false m inflate sort fuel c o c' -> clstep fl m inflate sort fuel c o c'.
Proof.
  destruct fl; auto. intros H. destruct H; try (econstructor; eauto; fail).
  - constructor. now apply kstep_false_mono.
  - constructor. destruct H; try (econstructor; eauto; fail).
  - constructor. assert (X : csteps true m inflate r (lenN dst) s s') by (apply csteps_true; econstructor; [exact H|constructor]).
    clear - H. destruct H as [l1 l2 t t' dst' H|l1 l2 p b ws f dst'|l1 l2 g f dst' H1 H2]; [|apply cs_write|eapply cs_skip; eauto].
    apply cs_task. destruct H; try (econstructor; eauto; fail).
Qed.
Lemma msteps_trans fl m inflate sort fuel s t u : msteps fl m inflate sort fuel s t -> msteps fl m inflate sort fuel t u -> msteps fl m inflate sort fuel s u.
Proof. induction 1; auto. intros. econstructor; eauto. Qed.

(** ** The theorems *)

(** Any number of threads, each making read after read with a reader of its own (cached, direct or direct in parallel), on
    any files and datasets, whatever system calls are short or interrupted or fail, and in whatever order the steps of the
    threads happen: what each has read is what it may have read alone. *)
Theorem C98_alone faults m inflate sort fuel cs ts : addr_sort sort -> Forall free cs -> Forall (fun c => low_ds (client_ds c)) cs ->
  msteps faults m inflate sort fuel (map (fun c => (c, [])) cs) ts ->
  Forall2 (fun c t => alone faults m inflate sort fuel c (snd t)) cs ts.
Proof.
  intros HS HF HL H. pose proof (msteps_inv faults m inflate sort fuel HS cs _ _ HL H (start_inv faults m inflate sort fuel cs HF)) as HI.
  clear - HI. induction HI as [|c [c' l] cs ts H _ IH]; constructor; auto. cbn [snd]. eapply cinv_alone; eauto.
Qed.
Print Assumptions C98_alone.

(** If no call fails for a reason of the operating system, these are the reads of Reader.v: those of a cached reader one
    after the other, those of a direct reader each by itself. *)
Lemma cached_plain m inflate fuel r l r' : cached_reads false m inflate fuel r l r' -> plain_reads m inflate fuel r l r'.
Proof.
  induction 1 as [r|r l r1 os e dst x d r2 H IH HF E]; [constructor|]. econstructor; [exact IH|]. rewrite (HF eq_refl) in E. rewrite <- E.
  unfold cache_read, cache_read_f. destruct (read_size _ _ _ _); auto. destruct (chunk_slices _ _ _ _). now rewrite cache_loop_f_none.
Qed.
Lemma direct_loop_f_none m inflate r file groups : forall last dst,
  direct_loop_f m inflate r file groups [] last dst = direct_loop m inflate r file groups last dst.
Proof. intros. apply direct_loop_f_calm. constructor. Qed.
Theorem C98_plain m inflate sort fuel cs ts : addr_sort sort -> Forall free cs -> Forall (fun c => low_ds (client_ds c)) cs ->
  msteps false m inflate sort fuel (map (fun c => (c, [])) cs) ts ->
  Forall2 (fun c t => plain m inflate sort fuel c (snd t)) cs ts.
Proof.
  intros HS HF HL H. pose proof (C98_alone false m inflate sort fuel cs ts HS HF HL H) as A. clear - A HL HS.
  induction A as [|c [c' l] cs ts A _ IH]; constructor; [|inversion HL; auto]. inversion HL as [|? ? L _]; subst. cbn [snd] in *.
  destruct c as [r fp| |r| |r|]; cbn [alone plain] in *; try contradiction.
  - destruct A as (r' & A). exists r'. now apply cached_plain.
  - eapply Forall_impl; [|exact A]. intros [[[e dst] x] d] (opens & os & HO & E). destruct (HO eq_refl) as [-> ->]. rewrite <- E.
    unfold direct_read, direct_read_f. destruct (read_size _ _ _ _); auto. destruct (group_chunk_slices _ _ _ _ _); auto. destruct (dr_file r); auto.
    now rewrite direct_loop_f_none.
  - eapply Forall_impl; [|exact A]. intros [[[e dst] x] d] E. apply C90_same in E; auto.
Qed.
Print Assumptions C98_plain.

(** Whatever the threads do and whatever fails: a read of the dataset that succeeds gives what a direct reader that is alone
    gives; so all successful reads of a selection agree, and none depends on the others. *)
Lemma cached_in faults m inflate fuel r l r' ds file en : cache_new m ds file = Ok r -> cached_reads faults m inflate fuel r l r' -> In en l ->
  exists r1 os r2, tried m inflate ds file r1 /\ let '(e, dst, x, d) := en in cache_read_f m inflate fuel os r1 e dst = (x, d, r2).
Proof.
  intros HN H Hin. assert (Y : tried m inflate ds file r' /\
    (In en l -> exists r1 os r2, tried m inflate ds file r1 /\ let '(e, dst, x, d) := en in cache_read_f m inflate fuel os r1 e dst = (x, d, r2))); [|now apply Y].
  clear Hin. induction H as [r|r l r1 os e dst x d r2 H IH HF E]; [split; [now constructor|intros []]|].
  destruct (IH HN) as [T I]. split.
  - replace r2 with (snd (cache_read_f m inflate fuel os r1 e dst)) by now rewrite E. now constructor.
  - intros X. apply in_app_iff in X as [X|[<-|[]]]; [auto|]. exists r1, os, r2. auto.
Qed.
Theorem C98_right faults m inflate sort fuel ds file rd cs ts c t e dst v d :
  addr_sort sort -> same_addr ds -> low_ds ds -> 0 < d_dsize ds -> lenN dst < W64 -> direct_new m ds (Some file) = Ok rd ->
  Forall free cs -> Forall (fun c => low_ds (client_ds c)) cs -> msteps faults m inflate sort fuel (map (fun c => (c, [])) cs) ts ->
  In (c, t) (combine cs ts) -> reads_of m ds file c -> In (e, dst, Ok v, d) (snd t) ->
  direct_read m inflate sort fuel rd e dst = (Ok v, d).
Proof.
  intros HS HA HL Hd HW HD HF HLs H Hct HR Hin. pose proof (C98_alone faults m inflate sort fuel cs ts HS HF HLs H) as A.
  assert (A1 : alone faults m inflate sort fuel c (snd t)).
  { clear - A Hct. induction A as [|c1 t1 cs ts A1 _ IH]; [destruct Hct|]. destruct Hct as [Hct|Hct]; [injection Hct as <- <-; auto|auto]. }
  destruct c as [r fp| |r| |r|]; cbn [alone reads_of] in *; try contradiction.
  - destruct A1 as (r' & A1). destruct (cached_in _ _ _ _ _ _ _ ds file _ HR A1 Hin) as (r1 & os & r2 & T1 & E).
    destruct (C91_result m inflate sort fuel ds file r1 rd true os e dst HA T1 HD) as [[R|R] _]; [|rewrite E in R; discriminate].
    destruct (C91_recovers m inflate ds file r1 r fuel e dst HA T1 HR) as [R' _]. rewrite R' in R. rewrite E in R. cbn [fst] in R.
    eapply C24_agree; eauto. now constructor.
  - rewrite HD in HR. injection HR as ->. rewrite Forall_forall in A1. specialize (A1 _ Hin). cbn in A1. destruct A1 as (opens & os & _ & E).
    unfold direct_read_f, direct_read in *. destruct (read_size _ _ _ _); try discriminate E. destruct (group_chunk_slices _ _ _ _ _) as [G| | | |]; try discriminate E.
    destruct (dr_file r) as [f|]; [|discriminate E]. destruct opens; [|discriminate E].
    destruct (direct_loop_f_ok m inflate r f G os None dst) as [I|(I & _)]; [now rewrite <- I|].
    destruct (direct_loop_f m inflate r f G os None dst) as [x d']. cbn [fst] in I. subst x. discriminate E.
  - rewrite HD in HR. injection HR as ->. rewrite Forall_forall in A1. specialize (A1 _ Hin). cbn in A1.
    eapply (proj1 (C90_right faults m inflate sort fuel ds file r e dst HS HA Hd HW HD _)); eauto.
  Unshelve. intros ch Hch. apply HL. unfold direct_new in HD. apply bind_ok in HD as (csz & _ & HD). injection HD as <-. exact Hch.
Qed.
Print Assumptions C98_right.

(** No thread waits for another: whatever has happened, a thread that is reading can finish its read by steps of its own,
    none of them a failure of the operating system; and one that is not can make any read. *)
Lemma solo faults m inflate sort fuel c0 : addr_sort sort -> low_ds (client_ds c0) -> forall n c l e dst,
  (N.to_nat (clwork m inflate c) < n)%nat -> cinv faults m inflate sort fuel c0 (c, l) -> current c = Some (e, dst) ->
  exists c' x d, free c' /\ forall l1 l2, msteps false m inflate sort fuel (l1 ++ (c, l) :: l2) (l1 ++ (c', l ++ [(e, dst, x, d)]) :: l2).
Proof.
  intros HS HL. induction n as [|n IH]; intros c l e dst Hn HI HC; [lia|].
  destruct (clprog faults m inflate sort fuel HS c0 c l e dst HL HI HC) as (o & c1 & S & [[(x & d & ->) F]|(-> & C & W)]).
  - exists c1, x, d. split; auto. intros l1 l2. econstructor; [|constructor]. apply (ms_one _ _ _ _ _ l1 l2 c (Some (e, dst, x, d)) c1 l S).
  - pose proof (clstep_inv faults m inflate sort fuel HS c0 c l None c1 HL (clstep_true _ _ _ _ faults _ _ _ S) HI) as HI1. cbn [noted] in HI1. rewrite app_nil_r in HI1.
    destruct (IH c1 l e dst) as (c' & x & d & F & R); [lia|auto|congruence|]. exists c', x, d. split; auto. intros l1 l2.
    econstructor; [|apply R]. pose proof (ms_one false m inflate sort fuel l1 l2 c None c1 l S) as X. cbn [noted] in X. now rewrite app_nil_r in X.
Qed.
Lemma begin faults m inflate sort fuel c e dst : free c -> (exists x, clstep faults m inflate sort fuel c (Some (e, dst, x, dst)) c) \/
  exists c', clstep faults m inflate sort fuel c None c' /\ current c' = Some (e, dst).
Proof.
  destruct c as [r fp| |r| |r|]; cbn [free]; try contradiction; intros _.
  - destruct (res_dec (read_size m (cr_ds r) e dst)) as [(v & E)|E]; [|left; eexists; eapply cl_csize; eauto].
    destruct (chunk_slices m fuel (cr_ds r) e) as [segs st] eqn:E2. right. eexists. split; [eapply cl_cbegin; eauto|reflexivity].
  - destruct (res_dec (read_size m (dr_ds r) e dst)) as [(v & E)|E]; [|left; eexists; eapply cl_dsize; eauto].
    destruct (res_dec (group_chunk_slices sort m fuel (dr_ds r) e)) as [(g & E2)|E2]; [|left; eexists; eapply cl_dgroup; eauto].
    destruct (dr_file r) as [file|] eqn:E3; [|left; eexists; eapply cl_dopen; eauto]. right. eexists. split; [eapply cl_dbegin; eauto|reflexivity].
  - destruct (res_dec (read_size m (dr_ds r) e dst)) as [(v & E)|E]; [|left; eexists; eapply cl_psize; eauto].
    destruct (res_dec (group_chunk_slices sort m fuel (dr_ds r) e)) as [(g & E2)|E2]; [|left; eexists; eapply cl_pgroup; eauto].
    right. eexists. split; [eapply cl_pbegin; eauto|reflexivity].
Qed.
Theorem C98_finish faults m inflate sort fuel cs l1 c l l2 e dst : addr_sort sort -> Forall free cs -> Forall (fun c => low_ds (client_ds c)) cs ->
  msteps faults m inflate sort fuel (map (fun c => (c, [])) cs) (l1 ++ (c, l) :: l2) ->
  current c = Some (e, dst) \/ free c ->
  exists c' x d, free c' /\ msteps false m inflate sort fuel (l1 ++ (c, l) :: l2) (l1 ++ (c', l ++ [(e, dst, x, d)]) :: l2).
Proof.
  intros HS HF HL H HC. pose proof (msteps_inv faults m inflate sort fuel HS cs _ _ HL H (start_inv faults m inflate sort fuel cs HF)) as HI.
  apply Forall2_app_inv_r in HI as (k1 & k2 & _ & F2 & ->). inversion F2 as [|c0 t0 k2' l2' I1 _]; subst. apply Forall_app in HL as [_ HL]. inversion HL as [|? ? L0 _]; subst.
  destruct HC as [HC|HC].
  - destruct (solo faults m inflate sort fuel c0 HS L0 _ c l e dst (Nat.lt_succ_diag_r _) I1 HC) as (c' & x & d & F & R). eauto.
  - destruct (begin false m inflate sort fuel c e dst HC) as [(x & S)|(c1 & S & C)].
    + exists c, x, dst. split; auto. econstructor; [|constructor]. apply (ms_one _ _ _ _ _ l1 l2 c (Some (e, dst, x, dst)) c l S).
    + pose proof (clstep_inv faults m inflate sort fuel HS c0 c l None c1 L0 (clstep_true _ _ _ _ faults _ _ _ S) I1) as I2. cbn [noted] in I2. rewrite app_nil_r in I2.
      destruct (solo faults m inflate sort fuel c0 HS L0 _ c1 l e dst (Nat.lt_succ_diag_r _) I2 C) as (c' & x & d & F & R). exists c', x, d. split; auto.
      econstructor; [|apply R]. pose proof (ms_one false m inflate sort fuel l1 l2 c None c1 l S) as X. cbn [noted] in X. now rewrite app_nil_r in X.
Qed.
Print Assumptions C98_finish.

(** A read ends: from any point its steps, interrupted calls not counted, are bounded. *)
Lemma kstep_work faults m inflate r st segs0 dst0 k k' : kstep faults m inflate r st k k' -> kinv faults m inflate r st segs0 dst0 k ->
  k = k' \/ kwork k' < kwork k.
Proof.
  intros H. destruct H as [cache pos dst fp
    |c a b segs cache pos dst fp x H1 H2
    |c a b segs cache cache' pos dst dst' fp s e sz data H1 H2 H3
    |c a b segs cache cache' pos dst fp s e sz data x H1 H2 H3 H4
    |c a b segs cache pos dst fp v H1 H2
    |[[c a] b] segs cache pos dst w w' H1 H2
    |[[c a] b] segs cache pos dst w H1
    |c a b segs cache pos dst dst' w raw data s e sz H1 H2 H3 H4 H5 H6
    |c a b segs cache pos dst w raw x H1 H2 H3 H4 H5
    |c a b segs cache pos dst w raw data s e sz x H1 H2 H3 H4 H5 H6 H7]; intros HI; try (right; cbn [kwork]; lia).
  - right. cbn [kwork]. unfold swork. cbn [map sumN fst]. lia.
  - right. cbn [kwork]. unfold swork, work. cbn [map sumN fst snd w_phase w_todo]. lia.
  - destruct HI as (_ & _ & _ & _ & _ & W & _). destruct (wstep_work _ _ w w' W H1) as [->|L]; [now left|right]. cbn [kwork]. lia.
Qed.
Lemma qstep_work faults m inflate r file groups0 dst0 q q' : qstep faults m inflate r file q q' -> qinv faults m inflate r file groups0 dst0 q ->
  q = q' \/ qwork q' < qwork q.
Proof.
  intros H. destruct H as [last dst fp
    |c cur a b groups data dst dst' fp H1
    |c cur a b groups data dst fp x H1 H2
    |c cur a b groups last dst fp H1
    |[[[c cur] a] b] groups dst w w' H1 H2
    |[[[c cur] a] b] groups dst w H1
    |c cur a b groups dst dst' w raw data H1 H2 H3 H4 H5
    |c cur a b groups dst w raw x H1 H2 H3 H4 H5
    |c cur a b groups dst w raw data x H1 H2 H3 H4 H5 H6]; intros HI; try (right; cbn [qwork]; lia).
  - right. cbn [qwork]. unfold gwork. cbn [map sumN]. lia.
  - right. cbn [qwork]. unfold gwork, work. cbn [map sumN fst snd w_phase w_todo]. lia.
  - destruct HI as (_ & _ & _ & W & _). destruct (wstep_work _ _ w w' W H1) as [->|L]; [now left|right]. cbn [qwork]. lia.
Qed.
Lemma busy_step faults m inflate sort fuel c0 c l c' : addr_sort sort -> low_ds (client_ds c0) -> cinv faults m inflate sort fuel c0 (c, l) ->
  current c <> None -> clstep faults m inflate sort fuel c None c' -> current c' = current c /\ (c = c' \/ clwork m inflate c' < clwork m inflate c).
Proof.
  intros HS HL HI HB H. inversion H as [|r fp e dst v segs st H1 H2|r e dst v st k k' H1| | | | |r file e dst v groups H1 H2 H3|r file e dst v q q' H1|
    | | |r e dst v groups H1 H2|r e dst v s s' H1| ]; subst; try (now contradiction HB); split; auto; destruct c0; cbn [cinv] in HI; try contradiction.
  - destruct HI as (_ & segs & _ & _ & K). destruct (kstep_work _ _ _ _ _ _ _ _ _ H1 K) as [->|L]; auto.
  - destruct HI as (_ & _ & _ & groups & _ & _ & Q). destruct (qstep_work _ _ _ _ _ _ _ _ _ H1 Q) as [->|L]; auto.
  - destruct HI as (-> & _ & groups & _ & E2 & Q). cbn [clwork].
    destruct (cstep_work m inflate r0 (lenN dst) faults s s' H1) as [->|L]; auto.
    apply csteps_inv in Q; [exact Q|]. cbn [fst]. apply Forall_map. exact (groups_low m sort fuel _ e groups HS E2 HL).
Qed.
Theorem C98_ends faults m inflate sort fuel cs l1 c l l2 : addr_sort sort -> Forall free cs -> Forall (fun c => low_ds (client_ds c)) cs ->
  msteps faults m inflate sort fuel (map (fun c => (c, [])) cs) (l1 ++ (c, l) :: l2) -> current c <> None ->
  exists most, forall n c', within faults m inflate sort fuel n c c' -> (n <= most)%nat.
Proof.
  intros HS HF HL H HC. pose proof (msteps_inv faults m inflate sort fuel HS cs _ _ HL H (start_inv faults m inflate sort fuel cs HF)) as HI.
  apply Forall2_app_inv_r in HI as (k1 & k2 & _ & F2 & ->). inversion F2 as [|c0 t0 k2' l2' I1 _]; subst. apply Forall_app in HL as [_ HL]. inversion HL as [|? ? L0 _]; subst.
  exists (N.to_nat (clwork m inflate c)). intros n c' W. clear - HS L0 I1 HC W.
  induction W as [c|n c c' S W IH|n c c1 c' S D W IH]; [lia|auto|].
  destruct (busy_step faults m inflate sort fuel c0 c l c1 HS L0 I1 HC S) as [C [E|L]]; [contradiction|].
  pose proof (clstep_inv faults m inflate sort fuel HS c0 c l None c1 L0 S I1) as I2. cbn [noted] in I2. rewrite app_nil_r in I2.
  assert (HC1 : current c1 <> None) by congruence. specialize (IH HC1 I2). lia.
Qed.
Print Assumptions C98_ends.

Lemma plain_nil m inflate fuel r l r' : plain_reads m inflate fuel r l r' -> l = [] -> r' = r.
Proof. intros H E. destruct H; auto. now apply app_eq_nil in E as [_ E]. Qed.
Lemma plain_one m inflate fuel r e dst x d r' : plain_reads m inflate fuel r [(e, dst, x, d)] r' -> fst (cache_read m inflate fuel r e dst) = (x, d).
Proof.
  intros H. remember [(e, dst, x, d)] as l1 eqn:EL. destruct H as [r|r l r1 e1 dst1 x1 d1 r2 H E]; [discriminate|].
  apply app_eq_unit in EL as [[-> EL]|[_ EL]]; [|discriminate]. injection EL as -> -> -> ->.
  apply plain_nil in H; [|reflexivity]. subst r1. now rewrite E.
Qed.
(** The example dataset: a cached, a direct and a parallel reader all begin to read the same, then end in another order:
    all three have the selected values. *)
Example C98_case m : exists rc rd good, let cs := [CFree rc 0; DFree rd; PFree rd] in
  addr_sort sort_by_addr /\ same_addr st_ds /\ low_ds st_ds /\ Forall free cs /\ Forall (fun c => low_ds (client_ds c)) cs /\
  Forall (reads_of m st_ds st_file) cs /\ direct_new m st_ds (Some st_file) = Ok rd /\
  direct_read m toy_inflate sort_by_addr 13 rd st_sel (repeat 9 24) = (Ok 24, good) /\ good <> repeat 9 24 /\
  exists c1 c2 c3, Forall (fun c => current c = Some (st_sel, repeat 9 24)) [c1; c2; c3] /\
    msteps false m toy_inflate sort_by_addr 13 (map (fun c => (c, [])) cs) [(c1, []); (c2, []); (c3, [])] /\
    exists d1 d2 d3, Forall free [d1; d2; d3] /\
    let en := (st_sel, repeat 9 24, Ok 24, good) in
    msteps false m toy_inflate sort_by_addr 13 [(c1, []); (c2, []); (c3, [])] [(d1, [en]); (d2, [en]); (d3, [en])].
Proof.
  destruct (C24_case m) as (H1 & H2 & H3 & rd' & H4 & H5).
  assert (HK : low_ds st_ds).
  { intros c H. assert (F : forallb (fun c => c_addr c <? 2 ^ 63) (d_chunks st_ds) = true) by (vm_compute; reflexivity).
    rewrite forallb_forall in F. apply N.ltb_lt. now apply F. }
  assert (EC : exists rc, cache_new m st_ds st_file = Ok rc /\ cr_ds rc = st_ds) by (destruct m; eexists; vm_compute; split; reflexivity).
  destruct EC as (rc & EC & ED). set (rd := mkDirect st_ds (Some st_file) 12).
  assert (E4 : direct_new m st_ds (Some st_file) = Ok rd) by (destruct m; vm_compute; reflexivity). rewrite E4 in H4. injection H4 as <-.
  assert (EG : exists good, direct_read m toy_inflate sort_by_addr 13 rd st_sel (repeat 9 24) = (Ok 24, good) /\ good <> repeat 9 24)
    by (destruct m; eexists; split; [vm_compute; reflexivity|discriminate|vm_compute; reflexivity|discriminate]).
  destruct EG as (good & EG & NG). exists rc, rd, good. cbn zeta.
  assert (HF : Forall free [CFree rc 0; DFree rd; PFree rd]) by (repeat constructor).
  assert (HL : Forall (fun c => low_ds (client_ds c)) [CFree rc 0; DFree rd; PFree rd]).
  { constructor; [cbn [client_ds]; now rewrite ED|]. constructor; [exact HK|]. constructor; [exact HK|constructor]. }
  assert (HR : Forall (reads_of m st_ds st_file) [CFree rc 0; DFree rd; PFree rd]) by (constructor; [exact EC|]; constructor; [exact E4|]; constructor; [exact E4|constructor]).
  repeat (split; [assumption|]).
  assert (RS : read_size m st_ds st_sel (repeat 9 24) = Ok 24) by (destruct m; vm_compute; reflexivity).
  destruct (chunk_slices m 13 st_ds st_sel) as [segs st] eqn:ES.
  assert (EGr : exists groups, group_chunk_slices sort_by_addr m 13 st_ds st_sel = Ok groups) by (destruct m; vm_compute; eauto).
  destruct EGr as (groups & EGr).
  set (c1 := CBusy rc st_sel (repeat 9 24) 24 st (KTop segs (cr_cache rc) 0 (repeat 9 24) 0)).
  set (c2 := DBusy rd st_file st_sel (repeat 9 24) 24 (QTop groups None (repeat 9 24) 0)).
  set (c3 := PBusy rd st_sel (repeat 9 24) 24 (map CWait (chunk_by_addr groups), repeat 9 24)).
  exists c1, c2, c3. split; [repeat constructor|].
  assert (ST : msteps false m toy_inflate sort_by_addr 13 (map (fun c => (c, [])) [CFree rc 0; DFree rd; PFree rd]) [(c1, []); (c2, []); (c3, [])]).
  { cbn [map]. econstructor; [apply (ms_one _ _ _ _ _ [] _ _ None c1); apply cl_cbegin with (v := 24) (segs := segs); rewrite ED; assumption|]. cbn [app noted].
    econstructor; [apply (ms_one _ _ _ _ _ [(c1, [])] _ _ None c2); now apply cl_dbegin|]. cbn [app noted].
    econstructor; [apply (ms_one _ _ _ _ _ [(c1, []); (c2, [])] _ _ None c3); now apply cl_pbegin|]. cbn [app noted]. constructor. }
  split; [exact ST|].
  assert (F3 := C98_finish false m toy_inflate sort_by_addr 13 _ [(c1, []); (c2, [])] c3 [] [] st_sel (repeat 9 24) H1 HF HL ST (or_introl eq_refl)).
  destruct F3 as (d3 & x3 & b3 & F3 & S3). cbn [app] in S3. assert (ST3 := msteps_trans _ _ _ _ _ _ _ _ ST S3).
  assert (F1 := C98_finish false m toy_inflate sort_by_addr 13 _ [] c1 [] _ st_sel (repeat 9 24) H1 HF HL ST3 (or_introl eq_refl)).
  destruct F1 as (d1 & x1 & b1 & F1 & S1). cbn [app] in S1. assert (ST1 := msteps_trans _ _ _ _ _ _ _ _ ST3 S1).
  assert (F2 := C98_finish false m toy_inflate sort_by_addr 13 _ [(d1, [(st_sel, repeat 9 24, x1, b1)])] c2 [] _ st_sel (repeat 9 24) H1 HF HL ST1 (or_introl eq_refl)).
  destruct F2 as (d2 & x2 & b2 & F2 & S2). cbn [app] in S2. assert (ST2 := msteps_trans _ _ _ _ _ _ _ _ ST1 S2).
  exists d1, d2, d3. split; [repeat (constructor; [assumption|]); constructor|].
  assert (P := C98_plain m toy_inflate sort_by_addr 13 _ _ H1 HF HL ST2).
  inversion P as [|? ? ? ? P1 P']; subst. inversion P' as [|? ? ? ? P2 P'']; subst. inversion P'' as [|? ? ? ? P3 _]; subst. clear P P' P''.
  cbn [plain snd] in P1, P2, P3. inversion P2 as [|? ? Q2 _]; subst. inversion P3 as [|? ? Q3 _]; subst. cbn in Q2, Q3. clear P2 P3.
  assert (Q1 : (x1, b1) = (Ok 24, good)).
  { destruct P1 as (r' & P1). apply plain_one in P1.
    assert (A : fst (cache_read m toy_inflate 13 rc st_sel (repeat 9 24)) = (Ok 24, good)).
    { apply (proj2 (C24_agree m toy_inflate sort_by_addr 13 st_ds st_file rc rd st_sel (repeat 9 24) 24 good H1 H2 H3 ltac:(reflexivity) ltac:(now constructor) E4)). exact EG. }
    exact (eq_trans (eq_sym P1) A). }
  assert (Q2' : (x2, b2) = (Ok 24, good)) by (rewrite <- EG; symmetry; exact Q2).
  assert (Q3' : (x3, b3) = (Ok 24, good)).
  { pose proof (C25_schedules m toy_inflate sort_by_addr 13 st_ds st_file rd st_sel (repeat 9 24) H1 H2 H3 ltac:(reflexivity) E4) as (_ & _ & _ & S).
    destruct (S 24 good EG x3 b3 Q3) as [-> ->]. reflexivity. }
  injection Q1 as -> ->. injection Q2' as -> ->. injection Q3' as -> ->.
  eapply msteps_trans; [exact S3|]. eapply msteps_trans; [exact S1|]. exact S2.
Qed.
