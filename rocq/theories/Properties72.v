(** * C96: parallel reads of a file whose chunks are overwritten, but never while they are being read. *)
From Coq Require Import List NArith Lia Bool Permutation.
From Verif Require Import Base Spec Extent Chunk Dataset Slicer Filters Reader SpecApi SpecReader CacheProofs Writes DirectProofs ReadProofs
  ReaderProps GroupProofs SlicerTheorems ParProofs Syscalls ParSys Changing Properties4 Properties15 Properties65 Properties66 Properties68 Properties70
  Properties71 ExamplesReader.
Import ListNotations.
Open Scope N_scope.

(** ** Specification *)

(** A parallel read (ParSys.v) while other processes overwrite the file. They honour locks: the bytes of a chunk do not
    change from when a task is about to read it to when it has done so (the others may). [P]: the contents the file may have. *)
Inductive lstep (P : bytes -> Prop) (faults : bool) (m : mode) (inflate : bytes -> option bytes) (r : direct) (dlen : N) :
    bytes * (list ctask * bytes) -> bytes * (list ctask * bytes) -> Prop :=
| ls_task f s t : cstep faults m inflate (on_file r f) dlen s t -> lstep P faults m inflate r dlen (f, s) (f, t)
| ls_write f f' s : P f' ->
    (forall c cur a b g w, In (CLoad ((c, cur, a, b) :: g) w) (fst s) ->
       forall k, c_addr c <= k < c_addr c + c_size c -> nth_error f' (N.to_nat k) = nth_error f (N.to_nat k)) ->
    lstep P faults m inflate r dlen (f, s) (f', s).
Inductive lsteps (P : bytes -> Prop) (faults : bool) (m : mode) (inflate : bytes -> option bytes) (r : direct) (dlen : N) :
    bytes * (list ctask * bytes) -> bytes * (list ctask * bytes) -> Prop :=
| lss_refl s : lsteps P faults m inflate r dlen s s
| lss_step s t u : lstep P faults m inflate r dlen s t -> lsteps P faults m inflate r dlen t u -> lsteps P faults m inflate r dlen s u.
Inductive locked_read (P : bytes -> Prop) (faults : bool) (m : mode) (inflate : bytes -> option bytes)
    (sort : list gsegment -> list gsegment) (fuel : nat)
    (r : direct) (f : bytes) (e : extents) (dst : bytes) : res N -> bytes -> Prop :=
| lr_size x : read_size m (dr_ds r) e dst = x -> (forall v, x <> Ok v) ->
    locked_read P faults m inflate sort fuel r f e dst x dst
| lr_group v x : read_size m (dr_ds r) e dst = Ok v ->
    group_chunk_slices sort m fuel (dr_ds r) e = x -> (forall v, x <> Ok v) ->
    locked_read P faults m inflate sort fuel r f e dst (failed x) dst
| lr_run v groups f' final ends dst' x : read_size m (dr_ds r) e dst = Ok v ->
    group_chunk_slices sort m fuel (dr_ds r) e = Ok groups ->
    lsteps P faults m inflate r (lenN dst) (f, (map CWait (chunk_by_addr groups), dst)) (f', (final, dst')) ->
    map ended final = map Some ends -> par_result ends x ->
    locked_read P faults m inflate sort fuel r f e dst (let* _ := x in Ok v) dst'.

(** ** Proof *)

Lemma nodup_disj {A} (a b : list A) x : NoDup (a ++ b) -> In x a -> In x b -> False.
Proof.
  induction a as [|y a IH]; cbn [app In]; intros H H1 H2; [easy|]. inversion H as [|? ? N1 N2]; subst.
  destruct H1 as [<-|H1]; auto. apply N1. apply in_app_iff. auto.
Qed.
Lemma nodup_r {A} (a b : list A) : NoDup (a ++ b) -> NoDup b.
Proof. induction a as [|y a IH]; cbn [app]; auto. intros H. inversion H. auto. Qed.
Lemma nodup_l {A} (a b : list A) : NoDup (a ++ b) -> NoDup a.
Proof.
  induction a as [|y a IH]; cbn [app]; [constructor|]. intros H. inversion H as [|? ? N1 N2]; subst. constructor; auto.
  intros X. apply N1. apply in_app_iff. auto.
Qed.
Lemma F2_in_l {A B} (R : A -> B -> Prop) l1 l2 a : Forall2 R l1 l2 -> In a l1 -> exists b, In b l2 /\ R a b.
Proof. induction 1 as [|x y l1 l2 H HF IH]; [easy|]. intros [<-|Hi]; [exists y; split; auto; now left|]. destruct (IH Hi) as (b & H1 & H2). exists b. split; auto. now right. Qed.
Lemma F2_mid {A B} (R : A -> B -> Prop) l k1 y k2 : Forall2 R l (k1 ++ y :: k2) -> exists l1 x l2, l = l1 ++ x :: l2 /\ Forall2 R l1 k1 /\ R x y /\ Forall2 R l2 k2.
Proof. intros H. apply Forall2_app_inv_r in H as (l1 & l2' & F1 & F2 & ->). inversion F2 as [|x ? l2 ? R1 F3]; subst. exists l1, x, l2. auto. Qed.
Lemma F2_mono {A B} (R R' : A -> B -> Prop) l k : (forall x y, In x l -> In y k -> R x y -> R' x y) -> Forall2 R l k -> Forall2 R' l k.
Proof. intros HI H. induction H as [|x y l k H1 H2 IH]; constructor; [apply HI; auto; now left|]. apply IH. intros. apply HI; auto; now right. Qed.

(** Two files that agree on bytes both have. *)
Lemma nth_same f f' a n : (n = 0 \/ a + n <= lenN f) -> (n = 0 \/ a + n <= lenN f') ->
  (forall k, a <= k < a + n -> nth_error f' (N.to_nat k) = nth_error f (N.to_nat k)) -> same_at f f' a n.
Proof.
  intros [->|H1]; [now left|]. intros [->|H2] HE; [now left|]. right. exists (firstn (N.to_nat n) (skipn (N.to_nat a) f)).
  split; [now apply slice_at|]. replace (firstn (N.to_nat n) (skipn (N.to_nat a) f)) with (firstn (N.to_nat n) (skipn (N.to_nat a) f')); [now apply slice_at|].
  apply nth_error_ext. intros i. destruct (Nat.ltb_spec i (N.to_nat n)) as [Hi|Hi].
  - rewrite !nth_error_firstn_ by exact Hi. rewrite !nth_error_skipn_. specialize (HE (a + N.of_nat i) ltac:(lia)).
    now replace (N.to_nat (a + N.of_nat i)) with (N.to_nat a + i)%nat in HE by lia.
  - rewrite !(proj2 (nth_error_None _ _)); auto; rewrite firstn_length; lia.
Qed.
Lemma same_at_trans f1 f2 f3 a n : same_at f1 f2 a n -> same_at f2 f3 a n -> same_at f1 f3 a n.
Proof.
  intros [H|(b & B1 & B2)]; [now left|]. intros [H|(c & C1 & C2)]; [now left|]. right. exists b. split; auto. now rewrite (bytes_at_fun _ _ _ _ _ B2 C1).
Qed.

Section T.
Context (P : bytes -> Prop) (fl : bool) (m : mode) (inflate : bytes -> option bytes) (ds : dataset) (csz : N) (dst : bytes) (f0 : bytes).
Context (output : bytes -> bytes) (G : list gsegment) (gs : list (list gsegment)).
Let dsz := d_dsize ds.
Let dlen := lenN dst.
Let L (v : bytes) : chunk -> res bytes := load m inflate v ds csz.
Let r := mkDirect ds (Some f0) csz.
Hypothesis HA : same_addr ds.
Hypothesis P0 : P f0.
Hypothesis HGc : Forall (fun g => In (g_chunk g) (d_chunks ds)) G.
Hypothesis HR : forall v, P v -> exists wss out, Forall2 (gseg_ok m (L v) dsz dlen) G wss /\
  Permutation (concat wss) (combine (seqN 0 (length out)) out) /\ output v = splice dst 0 out /\ lenN out <= dlen.
Hypothesis HGs : concat gs = G.
Hypothesis HOk : Forall group_ok gs.

(** Where a segment is written. *)
Definition pos (g : gsegment) : list N :=
  match mul64 m (g_dest g) dsz, mul64 m (g_from g) dsz, mul64 m (snd g) dsz with
  | Ok p, Ok s, Ok e => seqN p (N.to_nat (e - s))
  | _, _, _ => []
  end.
Lemma fst_combine {A B} : forall (a : list A) (b : list B), length a = length b -> map fst (combine a b) = a.
Proof. induction a as [|x a IH]; destruct b as [|y b]; cbn; try discriminate; auto. intros H. injection H as H. now rewrite IH. Qed.
Lemma gseg_pos K g ws : gseg_ok m K dsz dlen g ws -> map fst ws = pos g.
Proof.
  intros (p & o & E1 & (s & e & data & E2 & E3 & E4 & _ & E5 & Eo) & _ & ->). rewrite fst_combine by apply seqN_length. unfold pos.
  rewrite E1, E2, E3. f_equal. pose proof (slice_len data s e E4 E5) as X. rewrite <- Eo in X. unfold lenN in X. lia.
Qed.
Definition poss (g : list gsegment) : list N := flat_map pos g.
Lemma wss_pos K : forall g wss, Forall2 (gseg_ok m K dsz dlen) g wss -> map fst (concat wss) = poss g.
Proof.
  induction 1 as [|x y l1 l2 H HF IH]; auto. cbn [concat]. rewrite map_app, IH, (gseg_pos _ _ _ H). reflexivity.
Qed.
Lemma pos_nodup : NoDup (poss G).
Proof.
  destruct (HR f0 P0) as (wss & out & HF & HP & _). rewrite <- (wss_pos _ _ _ HF).
  apply (Permutation_NoDup (l := map fst (combine (seqN 0 (length out)) out))).
  - apply Permutation_map. now apply Permutation_sym.
  - rewrite fst_combine by apply seqN_length. apply seqN_NoDup.
Qed.
Lemma poss_concat : forall l, poss (concat l) = flat_map poss l.
Proof. unfold poss. induction l as [|g l IH]; auto. cbn [concat flat_map]. now rewrite flat_map_app, IH. Qed.
Lemma poss_in g1 g g2 : gs = g1 ++ g :: g2 -> NoDup (poss g) /\
  (forall g' p, In g' g1 \/ In g' g2 -> In p (poss g') -> In p (poss g) -> False).
Proof.
  intros E. pose proof pos_nodup as H. rewrite <- HGs, poss_concat, E, flat_map_app in H. cbn [flat_map] in H.
  split.
  - apply nodup_r in H. now apply nodup_l in H.
  - intros g' p [Hg|Hg] H1 H2.
    + apply (nodup_disj _ _ p H); [apply in_flat_map; eauto|apply in_app_iff; now left].
    + apply nodup_r in H. apply (nodup_disj _ _ p H); auto. apply in_flat_map. eauto.
Qed.
Lemma in_gs g sg : In g gs -> In sg g -> In sg G.
Proof. intros H1 H2. rewrite <- HGs. apply in_concat. eauto. Qed.

(** All that a group writes, for one version. *)
Definition all_of (v : bytes) (g : list gsegment) (ws : list (N * N)) : Prop :=
  exists wss, Forall2 (gseg_ok m (L v) dsz dlen) g wss /\ ws = concat wss.
Lemma all_pos v g ws : all_of v g ws -> map fst ws = poss g.
Proof. intros (wss & H & ->). eapply wss_pos; eauto. Qed.
Lemma all_output v g ws p b : P v -> In g gs -> all_of v g ws -> In (p, b) ws -> nth_error (output v) (N.to_nat p) = Some b /\ p < dlen.
Proof.
  intros Hv Hg (wss & HF & ->) Hin. apply in_concat in Hin as (w & Hw & Hin). destruct (F2_r _ _ _ _ HF Hw) as (sg & Hs & HO).
  apply (write_output P m inflate ds csz dst output G HR v sg w p b); auto. now apply (in_gs g).
Qed.
Lemma all_exists v g : P v -> In g gs -> exists ws, all_of v g ws.
Proof.
  intros Hv Hg. destruct (F2_choice (gseg_ok m (L v) dsz dlen) g) as (wss & HF); [|exists (concat wss), wss; auto].
  intros sg Hs. apply (gseg_of P m inflate ds csz dst output G HR v sg Hv). now apply (in_gs g).
Qed.

Lemma after_ok v c cur a b g' raw : P v -> In ((c, cur, a, b) :: g') gs -> read_exact v (c_addr c) (c_size c) = Ok raw ->
  exists ws, par_after m inflate r dlen ((c, cur, a, b) :: g') raw = (ws, FOk) /\ all_of v ((c, cur, a, b) :: g') ws.
Proof.
  intros Hv Hg HE. set (g := (c, cur, a, b) :: g') in *.
  assert (H0 : In (c, cur, a, b) G) by (apply (in_gs g); [auto|now left]).
  assert (Hc : In c (d_chunks ds)) by (rewrite Forall_forall in HGc; exact (HGc _ H0)).
  destruct (gseg_of P m inflate ds csz dst output G HR v _ Hv H0) as (w0 & p & o & _ & (s & e & data & _ & _ & _ & ED & _) & _).
  cbn [g_chunk fst] in ED. destruct (all_exists v g Hv Hg) as (ws & wss & HF & ->). exists (concat wss). split; [|exists wss; auto].
  unfold par_after, r. cbn [dr_csz dr_ds]. pose proof ED as ED'. unfold load, read_chunk in ED'. rewrite HE in ED'. cbn [bind] in ED'. rewrite ED'.
  apply (par_segs_iff m (L v)); [|exists wss; auto]. apply Forall_forall. intros sg Hs.
  rewrite <- ED. apply (L_same m inflate ds csz HA v (g_chunk sg) c); auto.
  - rewrite Forall_forall in HGc. apply HGc. now apply (in_gs g).
  - pose proof HOk as X. rewrite Forall_forall in X. specialize (X g Hg). cbn [group_ok g] in X. rewrite Forall_forall in X.
    destruct sg as [[[c1 o1] a1] b1]. exact (X _ Hs).
Qed.

(** *** The invariant *)

Definition calm : Prop := fl = false /\ forall c, In c (d_chunks ds) -> c_addr c < 2 ^ 63.
Definition bad_end (f : fin) : Prop := (exists e, f = FErr e) /\ ~ calm.
Definition written (d : bytes) (ws : list (N * N)) : Prop := forall p b, In (p, b) ws -> nth_error d (N.to_nat p) = Some b.
Definition tok (f d : bytes) (g : list gsegment) (t : ctask) : Prop :=
  match t with
  | CWait g' => g' = g
  | CLoad g' w => g' = g /\ exists c cur a b gr v, g = (c, cur, a, b) :: gr /\ P v /\ same_at v f (c_addr c) (c_size c) /\
      winv v [(c_addr c, c_size c)] w /\ (calm -> w_phase w <> Fault)
  | CRun ws x => (x = FOk /\ exists v done, P v /\ all_of v g (done ++ ws) /\ written d done) \/ (ws = [] /\ bad_end x)
  | CDone x => (x = FOk /\ exists v ws, P v /\ all_of v g ws /\ written d ws) \/ bad_end x
  | CSkip => True
  end.
Definition from_some (d : bytes) (i : nat) : Prop := exists v, P v /\ nth_error d i = nth_error (output v) i.
Definition linv (s : bytes * (list ctask * bytes)) : Prop :=
  let '(f, (ts, d)) := s in
  P f /\ Forall2 (tok f d) gs ts /\ lenN d = dlen /\ (In CSkip ts -> exists x, In (CDone x) ts /\ is_failure x) /\
  (forall i, from_some d i \/ nth_error d i = nth_error dst i) /\
  (forall i, ~ In (N.of_nat i) (poss G) -> nth_error d i = nth_error dst i).

Lemma in_file_g v c cur a b g : P v -> In ((c, cur, a, b) :: g) gs -> c_size c = 0 \/ c_addr c + c_size c <= lenN v.
Proof.
  intros Hv Hg. assert (H0 : In (c, cur, a, b) G) by (apply (in_gs ((c, cur, a, b) :: g)); [auto|now left]).
  apply (in_file P m inflate ds csz dst output G HR v c Hv); [|now exists (c, cur, a, b)].
  rewrite Forall_forall in HGc. exact (HGc _ H0).
Qed.

Lemma tstep_tok f d g t t' : P f -> In g gs -> tstep fl m inflate (on_file r f) dlen t t' -> tok f d g t -> tok f d g t'.
Proof.
  intros Hf Hin H HI. destruct H as [g' E|g' E|file E|file c cur a b g' p E|file g' w w' E H Hw|g' w H|g' w raw H1 H2 H3|x]; cbn [tok] in *.
  - discriminate E.
  - right. split; auto. split; [eauto|]. intros [C _]. congruence.
  - subst g. rewrite Forall_forall in HOk. destruct (HOk _ Hin).
  - split; auto. subst g. exists c, cur, a, b, g', f. split; auto. split; auto.
    assert (HB : c_size c = 0 \/ c_addr c + c_size c <= lenN f) by (eapply in_file_g; eauto).
    split; [now apply nth_same|]. split; [|discriminate]. apply (winv_fresh f (mkWorker [(c_addr c, c_size c)] p Idle [])). split; reflexivity.
  - cbn [on_file dr_file] in E. injection E as <-. destruct HI as (-> & c & cur & a & b & gr & v & -> & Hv & HS & HW & HC). split; auto.
    exists c, cur, a, b, gr, v. split; auto. split; auto. split; auto.
    split; [|intros [C _]; destruct Hw as [Hw|Hw]; [congruence|exact Hw]].
    apply (winv_step v _ w); auto. eapply wstep_same; eauto.
  - destruct HI as (-> & c & cur & a & b & gr & v & -> & Hv & HS & HW & HC). right. split; auto. split; [eauto|]. intros C.
    destruct H as [H|[H|H]].
    + destruct HW as (did & E & _ & HP). rewrite H in HP. destruct HP as (a1 & n & js & E1 & E2 & E3).
      destruct (in_file_g v c cur a b gr Hv Hin); destruct did as [|j did]; cbn [app] in E; rewrite E1 in E; [injection E as E4 E5 _; lia|destruct did; discriminate E|injection E as E4 E5 _; lia|destruct did; discriminate E].
    + destruct HW as (did & E & _ & HP). rewrite H in HP. destruct HP as (a1 & n & js & E1 & E2).
      destruct did as [|j did]; cbn [app] in E; rewrite E1 in E; [injection E as E4 E5 _|destruct did; discriminate E].
      destruct C as [_ C]. assert (Hc : In c (d_chunks ds)).
      { pose proof HGc as X. rewrite Forall_forall in X. apply (X (c, cur, a, b)). apply (in_gs ((c, cur, a, b) :: gr)); [auto|now left]. }
      specialize (C c Hc). lia.
    + now apply HC.
  - destruct HI as (-> & c & cur & a & b & gr & v & -> & Hv & HS & HW & HC).
    destruct (after_ok v c cur a b gr raw Hv Hin (winv_done v c w raw HW H1 H3)) as (ws & E & K).
    change (par_after m inflate (on_file r f)) with (par_after m inflate r). rewrite E. cbn [fst snd]. left. split; auto.
    exists v, []. split; auto. split; auto. intros p x [].
  - destruct HI as [(-> & v & done & Hv & K & HD)|[_ HB]]; [left|now right]. split; auto. exists v, done. rewrite app_nil_r in K. auto.
Qed.

Lemma cover_load f f' d ts : P f -> P f' -> Forall2 (tok f d) gs ts ->
  (forall c cur a b g w, In (CLoad ((c, cur, a, b) :: g) w) ts ->
     forall k, c_addr c <= k < c_addr c + c_size c -> nth_error f' (N.to_nat k) = nth_error f (N.to_nat k)) -> Forall2 (tok f' d) gs ts.
Proof.
  intros Hf Hf' HF HK. apply (F2_mono (tok f d)); auto. intros g t Hg Ht HT. destruct t as [g'|g' w|ws x|x|]; cbn [tok] in *; auto.
  destruct HT as (-> & c & cur & a & b & gr & v & E & Hv & HS & HW & HC). split; auto. exists c, cur, a, b, gr, v. split; auto. split; auto.
  split; [|auto]. subst g. apply (same_at_trans v f f'); auto. apply nth_same; [eapply in_file_g; eauto|eapply in_file_g; eauto|].
  eapply HK; eauto.
Qed.
Lemma tok_d f d d' g t : (forall p, In p (poss g) -> nth_error d' (N.to_nat p) = nth_error d (N.to_nat p)) -> tok f d g t -> tok f d' g t.
Proof.
  intros HE. assert (HW : forall v w ws, all_of v g (w ++ ws) -> written d w -> written d' w).
  { intros v w ws HA' HD p b Hin. rewrite HE; [now apply HD|]. rewrite <- (all_pos v g _ HA'). apply in_map_iff. exists (p, b). split; auto. apply in_app_iff. auto. }
  destruct t as [g'|g' w|ws x|x|]; cbn [tok]; auto.
  - intros [(-> & v & done & Hv & K & HD)|X]; [left|now right]. split; auto. exists v, done. split; auto. split; auto. eapply HW; eauto.
  - intros [(-> & v & ws & Hv & K & HD)|X]; [left|now right]. split; auto. exists v, ws. split; auto. split; auto. apply (HW v ws []); auto. now rewrite app_nil_r.
Qed.

Lemma cstep_linv f s t : cstep fl m inflate (on_file r f) dlen s t -> linv (f, s) -> linv (f, t).
Proof.
  intros H. unfold linv. destruct H as [l1 l2 t t' d H|l1 l2 p b ws x d|l1 l2 g x d H1 H2]; intros (I0 & I1 & I2 & I3 & I4 & I5).
  - destruct (F2_mid _ _ _ _ _ I1) as (g1 & g & g2 & EG & F1 & F2 & F3).
    assert (Hg : In g gs) by (rewrite EG; apply in_app_iff; right; now left).
    pose proof (tstep_tok f d g t t' I0 Hg H F2) as F2'.
    split; auto. split; [rewrite EG; apply Forall2_app; auto|]. split; auto. split; auto.
    intros HS. assert (X : exists x, In (CDone x) (l1 ++ t :: l2) /\ is_failure x).
    { apply I3. apply in_app_iff in HS as [HS|[HS|HS]]; apply in_app_iff; auto; [|right; now right]. subst t'. inversion H. }
    destruct X as (x & X & Y). exists x. split; auto. apply in_app_iff in X as [X|[X|X]]; apply in_app_iff; auto; [|right; now right].
    subst t. inversion H.
  - destruct (F2_mid _ _ _ _ _ I1) as (g1 & g & g2 & EG & F1 & F2 & F3).
    assert (Hg : In g gs) by (rewrite EG; apply in_app_iff; right; now left).
    destruct (poss_in g1 g g2 EG) as [ND NI]. cbn [tok] in F2. destruct F2 as [(-> & v & done & Hv & K & HD)|[E _]]; [|discriminate E].
    assert (Hin : In (p, b) (done ++ (p, b) :: ws)) by (apply in_app_iff; right; now left).
    destruct (all_output v g _ p b Hv Hg K Hin) as [Ev Hp].
    pose proof (all_pos v g _ K) as EP.
    assert (HpG : In p (poss g)) by (rewrite <- EP; apply in_map_iff; exists (p, b); auto).
    assert (HB : p + lenN [b] <= lenN d) by (rewrite I2; unfold lenN; cbn [length]; unfold dlen, lenN in *; lia).
    assert (SP : forall i, nth_error (splice d p [b]) i = if Nat.eq_dec i (N.to_nat p) then Some b else nth_error d i).
    { intros i. rewrite (splice_nth d p [b] i HB). destruct (Nat.eq_dec i (N.to_nat p)) as [->|Hn].
      - rewrite Nat.leb_refl. replace (N.to_nat p <? N.to_nat p + length [b])%nat with true by (symmetry; apply Nat.ltb_lt; cbn; lia).
        cbn [andb]. now rewrite Nat.sub_diag.
      - replace ((N.to_nat p <=? i) && (i <? N.to_nat p + length [b]))%nat with false; auto.
        symmetry. apply andb_false_iff. destruct (Nat.leb_spec (N.to_nat p) i); [right; apply Nat.ltb_ge; cbn; lia|now left]. }
    assert (ND' : ~ In p (map fst done)).
    { intros X. rewrite <- EP, map_app in ND. cbn [map fst] in ND. apply (nodup_disj _ _ p ND X). now left. }
    assert (HO : forall g', (In g' g1 \/ In g' g2) -> forall q, In q (poss g') -> nth_error (splice d p [b]) (N.to_nat q) = nth_error d (N.to_nat q)).
    { intros g' Hg' q Hq. rewrite SP. destruct (Nat.eq_dec (N.to_nat q) (N.to_nat p)) as [E|]; auto. exfalso. apply N2Nat.inj in E. subst q. eapply NI; eauto. }
    split; auto. split; [|split; [|split; [|split]]].
    + rewrite EG. apply Forall2_app; [|constructor].
      * apply (F2_mono (tok f d)); auto. intros g' t' Hg' _. apply tok_d, HO. auto.
      * left. split; auto. exists v, (done ++ [(p, b)]). rewrite <- app_assoc. split; auto. split; [exact K|].
        intros q y Hq. rewrite SP. apply in_app_iff in Hq as [Hq|[Hq|[]]].
        -- destruct (Nat.eq_dec (N.to_nat q) (N.to_nat p)) as [E|]; [|now apply HD]. exfalso. apply N2Nat.inj in E. subst q. apply ND'. apply in_map_iff. exists (p, y). auto.
        -- injection Hq as <- <-. now destruct (Nat.eq_dec (N.to_nat p) (N.to_nat p)).
      * apply (F2_mono (tok f d)); auto. intros g' t' Hg' _. apply tok_d, HO. auto.
    + rewrite splice_len; auto.
    + intros HS. assert (X : exists x, In (CDone x) (l1 ++ CRun ((p, b) :: ws) FOk :: l2) /\ is_failure x).
      { apply I3. apply in_app_iff in HS as [HS|[HS|HS]]; apply in_app_iff; auto; [discriminate|right; now right]. }
      destruct X as (x & X & Y). exists x. split; auto. apply in_app_iff in X as [X|[X|X]]; apply in_app_iff; auto; [discriminate|right; now right].
    + intros i. unfold from_some. rewrite SP. destruct (Nat.eq_dec i (N.to_nat p)) as [->|]; [left; exists v; auto|apply I4].
    + intros i Hi. rewrite SP. destruct (Nat.eq_dec i (N.to_nat p)) as [->|]; [|now apply I5]. destruct Hi. rewrite N2Nat.id.
      rewrite <- HGs, poss_concat. apply in_flat_map. eauto.
  - destruct (F2_mid _ _ _ _ _ I1) as (g1 & g' & g2 & EG & F1 & F2 & F3). split; auto. split; [|split; [auto|split; [|auto]]].
    + rewrite EG. apply Forall2_app; auto. constructor; auto. exact I.
    + intros _. exists x. split; auto. apply in_app_iff in H1 as [H1|H1]; apply in_app_iff; cbn [In]; auto.
Qed.
Lemma lsteps_linv s t : lsteps P fl m inflate r dlen s t -> linv s -> linv t.
Proof.
  induction 1 as [s|s t u H1 H2 IH]; auto. intros I0. apply IH. destruct H1 as [f s t H|f f' [ts d] Hf' HK].
  - eapply cstep_linv; eauto.
  - destruct I0 as (I0 & I1 & I2 & I3). cbn [fst] in HK. split; auto. split; [|auto]. eapply cover_load; eauto.
Qed.
Lemma linv_init : linv (f0, (map CWait gs, dst)).
Proof.
  split; auto. split; [|split; [reflexivity|split; [|split; auto]]].
  - clear. induction gs as [|g l IH]; cbn [map]; constructor; auto. reflexivity.
  - intros H. apply in_map_iff in H as (g & E & _). discriminate E.
Qed.

Lemma linv_done f' final ends d x : linv (f', (final, d)) -> map ended final = map Some ends -> par_result ends x ->
  lenN d = dlen /\ (forall i, from_some d i \/ nth_error d i = nth_error dst i) /\ (x = Ok tt \/ (exists e, x = Err e) /\ ~ calm) /\
  (x = Ok tt -> forall g, In g gs -> exists v ws, P v /\ all_of v g ws /\ written d ws).
Proof.
  intros (_ & I1 & I2 & I3 & I4 & _) HE HP.
  assert (HS : forall y, In (Done y) ends -> y = FOk \/ bad_end y).
  { intros y H. apply (in_map Some) in H. rewrite <- HE in H. apply in_map_iff in H as (t & E & Ht). destruct t; try discriminate E.
    cbn [ended] in E. injection E as ->. destruct (F2_r _ _ _ _ I1 Ht) as (g & _ & X). cbn [tok] in X. destruct X as [[-> _]|X]; auto. }
  split; auto. split; auto. split.
  - destruct HP as [H|H1 H|e H1 H2 H|H]; [| |right|now left].
    + destruct (HS _ H) as [E|[(e & E) _]]; discriminate E.
    + destruct (HS _ H) as [E|[(e & E) _]]; discriminate E.
    + destruct (HS _ H) as [E|[_ E]]; [discriminate E|]. eauto.
  - intros -> g Hg. inversion HP as [| | |HD]. clear HP.
    assert (HD' : forall y, In (CDone y) final -> y = FOk).
    { intros y Hf. apply HD. apply (in_map ended) in Hf. cbn [ended] in Hf. rewrite HE in Hf. apply in_map_iff in Hf as (z & E & Hz). now injection E as ->. }
    destruct (F2_in_l _ _ _ _ I1 Hg) as (t & Ht & HT).
    pose proof (in_map ended _ _ Ht) as HX. rewrite HE in HX. apply in_map_iff in HX as (y & E & _).
    destruct t as [g'|g' w|ws y'|y'|]; cbn [ended] in E; try discriminate E; cbn [tok] in HT.
    + pose proof (HD' y' Ht). subst y'. destruct HT as [(_ & HT)|[(e & HT) _]]; [exact HT|discriminate HT].
    + destruct (I3 Ht) as (z & F1 & F2). destruct F2. now apply HD'.
Qed.

Section W.
Context (u : N).
Hypothesis HW : Forall (fun g => whole m u ds (g_from g) (snd g) /\ forall p, mul64 m (g_dest g) dsz = Ok p -> exists q, p = q * u) G.
Lemma pos_whole g k i j : In g G -> i < u -> j < u -> In (k * u + i) (pos g) -> In (k * u + j) (pos g).
Proof.
  intros Hg Hi Hj. destruct (gseg_of P m inflate ds csz dst output G HR f0 g P0 Hg) as (ws & p & o & E1 & (s & e & data & E2 & E3 & E4 & _) & _).
  rewrite Forall_forall in HW. destruct (HW g Hg) as [W1 W2]. fold dsz in E1, E2, E3. unfold pos. rewrite E1, E2, E3.
  destruct (W2 p E1) as (q & ->). destruct (W1 s e E2 E3 E4) as (n & ->). rewrite !in_seqN, !N2Nat.id. intros [H1 H2].
  assert (A : q <= k). { destruct (N.le_gt_cases q k); auto. assert (X : (k + 1) * u <= q * u) by (apply N.mul_le_mono_r; lia). lia. }
  assert (B : k < q + n). { destruct (N.lt_ge_cases k (q + n)); auto. assert (X : (q + n) * u <= k * u) by (apply N.mul_le_mono_r; lia). lia. }
  assert (X : (k + 1) * u <= (q + n) * u) by (apply N.mul_le_mono_r; lia). assert (Y : q * u <= k * u) by (apply N.mul_le_mono_r; lia).
  rewrite N.mul_add_distr_r in X. lia.
Qed.
Lemma done_mixed d : lenN d = dlen -> (forall i, ~ In (N.of_nat i) (poss G) -> nth_error d i = nth_error dst i) ->
  (forall g, In g gs -> exists v ws, P v /\ all_of v g ws /\ written d ws) -> mixed_output P output u d.
Proof.
  intros HL H5 HD. split.
  - intros v Hv. destruct (HR v Hv) as (_ & out & _ & _ & -> & HB). rewrite HL. unfold dlen in HB. now rewrite splice_len by lia.
  - intros k. destruct (existsb (fun p => (k * u <=? p) && (p <? k * u + u)) (poss G)) eqn:EX.
    + apply existsb_exists in EX as (p & Hp & EX). apply andb_true_iff in EX as [X1 X2]. apply N.leb_le in X1. apply N.ltb_lt in X2.
      apply in_flat_map in Hp as (sg & Hs & Hp). pose proof Hs as Hs'. rewrite <- HGs in Hs'. apply in_concat in Hs' as (g & Hg & Hsg).
      destruct (HD g Hg) as (v & ws & Hv & HA' & HWr). exists v. split; auto. apply nth_error_ext. intros i. rewrite !nth_piece.
      destruct (Nat.ltb_spec i (N.to_nat u)) as [Hi|]; auto.
      assert (Hq : In (k * u + N.of_nat i) (pos sg)).
      { apply (pos_whole sg k (p - k * u)); [auto|lia|lia|]. now replace (k * u + (p - k * u)) with p by lia. }
      assert (Hq' : In (k * u + N.of_nat i) (map fst ws)) by (rewrite (all_pos v g ws HA'); apply in_flat_map; eauto).
      apply in_map_iff in Hq' as ([p' b] & E & Hin). cbn [fst] in E. subst p'.
      replace (N.to_nat (k * u) + i)%nat with (N.to_nat (k * u + N.of_nat i)) by lia.
      rewrite (HWr _ _ Hin). symmetry. apply (all_output v g ws _ b Hv Hg HA' Hin).
    + exists f0. split; auto. apply nth_error_ext. intros i. rewrite !nth_piece. destruct (Nat.ltb_spec i (N.to_nat u)) as [Hi|]; auto.
      assert (HN : ~ In (N.of_nat (N.to_nat (k * u) + i)) (poss G)).
      { intros X. assert (Y : existsb (fun p => (k * u <=? p) && (p <? k * u + u)) (poss G) = true); [|congruence].
        apply existsb_exists. eexists. split; [exact X|]. apply andb_true_iff. split; [apply N.leb_le|apply N.ltb_lt]; lia. }
      rewrite (H5 _ HN). symmetry. apply (write_none P m inflate ds csz dst output G HR f0 _ P0).
      intros sg ws Hs HO Hin. apply HN. rewrite (gseg_pos _ _ _ HO) in Hin. apply in_flat_map. eauto.
Qed.
End W.
End T.

(** ** The theorem *)

(** A dataset (compressed or not) that is overwritten while a parallel read runs, but no chunk while it is being read: every
    byte of the buffer is what it was, or as in the output for some version of the file. If the read succeeds, the latter,
    and if the selection is safe, every element is as in the output for one version. It does succeed unless a system call fails. *)
Theorem C96_locked (P : bytes -> Prop) fl m inflate sort fuel ds f0 rd e dst n output x d : addr_sort sort -> same_addr ds ->
  0 < d_dsize ds -> lenN dst < W64 -> P f0 -> direct_new m ds (Some f0) = Ok rd ->
  (forall v r', P v -> direct_new m ds (Some v) = Ok r' -> direct_read m inflate sort fuel r' e dst = (Ok n, output v)) ->
  locked_read P fl m inflate sort fuel rd f0 e dst x d ->
  lenN d = lenN dst /\
  (forall i, (exists v, P v /\ nth_error d i = nth_error (output v) i) \/ nth_error d i = nth_error dst i) /\
  (forall n', x = Ok n' -> n' = n /\ mixed_output P output 1 d /\
     forall idx cnt, safe_read ds e idx cnt dst fuel -> mixed_output P output (d_dsize ds) d) /\
  (x = Ok n \/ exists e, x = Err e) /\
  (fl = false -> (forall c, In c (d_chunks ds) -> c_addr c < 2 ^ 63) -> x = Ok n).
Proof.
  intros HSo HA Hd HW P0 HN HR H. unfold direct_new in HN. apply bind_ok in HN as (csz & B & HN). injection HN as <-.
  assert (HP : forall v, P v -> plain_read m inflate fuel v ds csz e dst = (Ok n, output v)).
  { intros v Hv. apply (direct_read_iff m inflate sort fuel (mkDirect ds (Some v) csz) v e dst n (output v)); auto.
    apply HR; auto. unfold direct_new. now rewrite B. }
  clear HR. pose proof (HP f0 P0) as H0. apply plain_read_iff in H0 as (Ev & out0 & RW0 & _).
  destruct (group_of_read _ _ sort _ _ _ _ _ HSo Hd HW RW0) as (G & wss0 & [EG HF0] & _).
  assert (HR : forall v, P v -> exists wss out, Forall2 (gseg_ok m (load m inflate v ds csz) (d_dsize ds) (lenN dst)) G wss /\
    Permutation (concat wss) (combine (seqN 0 (length out)) out) /\ output v = splice dst 0 out /\ lenN out <= lenN dst).
  { intros v Hv. pose proof (HP v Hv) as Hp. apply plain_read_iff in Hp as (_ & out & RW & EO).
    destruct (group_of_read _ _ sort _ _ _ _ _ HSo Hd HW RW) as (G' & wss & [EG' HF] & HPm). rewrite EG in EG'. injection EG' as <-.
    exists wss, out. split; auto. split; auto. split; auto. destruct RW as (segs & os & _ & _ & _ & Hb). exact Hb. }
  pose proof (group_chunks m sort fuel ds e G HSo EG) as HGc.
  inversion H as [x' E1 E2|v' x' E1 E2 E3|v' G' f' final ends d' x' E1 E2 E3 E4 E5]; subst; cbn [dr_ds] in *.
  - destruct (E2 _ Ev).
  - destruct (E3 _ EG).
  - rewrite EG in E2. injection E2 as <-. rewrite Ev in E1. injection E1 as <-.
    assert (HGs : concat (chunk_by_addr G) = G) by apply chunk_by_concat.
    pose proof (chunk_by_ok G) as HOk.
    pose proof (linv_init P fl m inflate ds csz dst f0 output G (chunk_by_addr G) P0) as I0.
    apply (lsteps_linv P fl m inflate ds csz dst f0 output G (chunk_by_addr G) HA P0 HGc HR HGs HOk _ _ E3) in I0.
    destruct (linv_done P fl m inflate ds csz dst output G (chunk_by_addr G) f' final ends d x' I0 E4 E5) as (D1 & D2 & D3 & D4).
    destruct I0 as (_ & _ & _ & _ & _ & D5).
    split; [exact D1|]. split; [exact D2|]. split; [|split].
    + intros n' E. destruct x' as [[]| | | |]; cbn [bind] in E; try discriminate E. injection E as <-. split; auto. specialize (D4 eq_refl).
      split.
      * apply (done_mixed P m inflate ds csz dst f0 output G (chunk_by_addr G) P0 HR HGs 1); auto.
        apply Forall_forall. intros g _. split; [apply whole_1|]. intros p _. exists p. lia.
      * intros idx cnt HS. apply (done_mixed P m inflate ds csz dst f0 output G (chunk_by_addr G) P0 HR HGs (d_dsize ds)); auto.
        pose proof (safe_read_ok m ds e idx cnt dst fuel HS) as HO.
        pose proof (ro_size m ds e idx cnt dst fuel HO) as (_ & _ & HC & _).
        destruct (group_dests m sort ds e idx cnt dst fuel HSo HO) as (segs & G' & _ & EG' & _ & _ & _ & HG). rewrite EG in EG'. injection EG' as <-.
        eapply Forall_impl; [|exact HG]. intros g [HWf HT]. unfold seg_wf in HWf. destruct HWf as (W1 & W2 & _). split; [now apply whole_safe|].
        intros p Hp. exists (g_dest g). pose proof (sf_cap _ _ _ _ _ _ HS) as X1. pose proof (sf_len _ _ _ _ _ _ HS) as X2.
        assert (X3 : g_dest g * d_dsize ds <= prodN cnt * d_dsize ds) by (apply N.mul_le_mono_r; lia).
        rewrite mul64_ok in Hp by lia. now injection Hp.
    + destruct D3 as [->|[(e' & ->) _]]; cbn [bind]; eauto.
    + intros F1 F2. destruct D3 as [->|[_ X]]; auto. destruct X. split; auto.
Qed.
Print Assumptions C96_locked.

Lemma lsteps_trans P fl m inflate r dlen s t u : lsteps P fl m inflate r dlen s t -> lsteps P fl m inflate r dlen t u -> lsteps P fl m inflate r dlen s u.
Proof. induction 1; auto. intros. econstructor; eauto. Qed.
(** One task runs from beginning to end. *)
Lemma task_go P m inflate r dlen f l1 g l2 d ws : low g -> par_task m inflate (on_file r f) dlen g = (ws, FOk) ->
  lsteps P false m inflate r dlen (f, (l1 ++ CWait g :: l2, d)) (f, (l1 ++ CDone FOk :: l2, fold_left (fun d pb => splice d (fst pb) [snd pb]) ws d)).
Proof.
  intros HL E. assert (C : forall s t, csteps false m inflate (on_file r f) dlen s t -> lsteps P false m inflate r dlen (f, s) (f, t)).
  { induction 1 as [s|s t u H1 H2 IH]; [constructor|]. econstructor; [apply ls_task; exact H1|exact IH]. }
  eapply lsteps_trans; [apply C; apply tsteps_csteps; now apply run_task|]. rewrite E. cbn [fst snd]. clear E. revert d.
  induction ws as [|[p b] ws IH]; intros d; cbn [fold_left fst snd].
  - econstructor; [apply ls_task, cs_task, ts_finish|constructor].
  - econstructor; [apply ls_task, cs_write|]. apply IH.
Qed.
(** The example file, compressed and shuffled, of which all values are increased by 50 when half of the tasks are done. *)
Example C96_case m :
  let new := map (fun b => if b =? 120 then b else b + 50) st_file in
  let V := fun v => v = st_file \/ v = new in
  let old_output := [12; 201; 13; 201; 14; 201; 15; 201; 22; 202; 23; 202; 24; 202; 25; 202; 32; 203; 33; 203; 34; 203; 35; 203] in
  let output := fun v : bytes => if nth 0 v 0 =? 1 then old_output else map (fun b => b + 50) old_output in
  exists rd, same_addr st_ds /\ addr_sort sort_by_addr /\ safe_read st_ds st_sel [1; 2] [3; 4] (repeat 9 24) 13 /\
  V st_file /\ direct_new m st_ds (Some st_file) = Ok rd /\
  (forall v r', V v -> direct_new m st_ds (Some v) = Ok r' -> direct_read m toy_inflate sort_by_addr 13 r' st_sel (repeat 9 24) = (Ok 24, output v)) /\
  locked_read V false m toy_inflate sort_by_addr 13 rd st_file st_sel (repeat 9 24) (Ok 24)
    [12; 201; 63; 251; 64; 251; 65; 251; 22; 202; 73; 252; 74; 252; 75; 252; 32; 203; 83; 253; 84; 253; 85; 253].
Proof.
  intros new V old_output output. destruct (C94_case m) as (_ & rd & _ & H2 & H1 & H3 & _ & _ & H4 & _ & _ & H5 & _).
  exists rd. split; [exact H2|]. split; [exact H1|]. split; [exact H3|]. split; [now left|]. split; [exact H4|]. split; [exact H5|].
  clear H1 H2 H3 H5. 
  change (Ok 24) with (let* _ := Ok tt in Ok 24).
  assert (X : exists groups, group_chunk_slices sort_by_addr m 13 st_ds st_sel = Ok groups) by (destruct m; vm_compute; eauto).
  destruct X as (groups & X).
  eapply (lr_run V false m toy_inflate sort_by_addr 13 rd st_file st_sel (repeat 9 24) 24 groups new [CDone FOk; CDone FOk; CDone FOk; CDone FOk]
    [Done FOk; Done FOk; Done FOk; Done FOk] _ (Ok tt)).
  - destruct m; vm_compute in H4; injection H4 as <-; vm_compute; reflexivity.
  - destruct m; vm_compute in H4; injection H4 as <-; exact X.
  - destruct m; vm_compute in H4; apply SerdeProofs.ok_inj in H4; subst rd; vm_compute in X; apply SerdeProofs.ok_inj in X; subst groups.
    all: match goal with |- lsteps _ _ _ _ _ _ (_, (map CWait ?g, _)) _ => let v := eval vm_compute in g in replace g with v by (vm_compute; reflexivity) end.
    all: cbn [map].
    all: eapply lsteps_trans; [eapply (task_go V _ toy_inflate _ _ st_file []); [vm_compute; reflexivity|vm_compute; reflexivity]|]; cbn [app].
    all: match goal with |- lsteps _ _ _ _ _ _ (_, (?t1 :: ?t2 :: ?l, _)) _ => change (t1 :: t2 :: l) with ([t1] ++ t2 :: l) end.
    all: eapply lsteps_trans; [eapply (task_go V _ toy_inflate _ _ st_file [CDone FOk]); [vm_compute; reflexivity|vm_compute; reflexivity]|]; cbn [app].
    all: eapply lss_step; [apply (ls_write _ _ _ _ _ _ st_file new); [now right|intros c cur a b g w H; cbn [fst In] in H; intuition discriminate]|].
    all: match goal with |- lsteps _ _ _ _ _ _ (_, (?t1 :: ?t2 :: ?t3 :: ?l, _)) _ => change (t1 :: t2 :: t3 :: l) with ([t1; t2] ++ t3 :: l) end.
    all: eapply lsteps_trans; [eapply (task_go V _ toy_inflate _ _ new [CDone FOk; CDone FOk]); [vm_compute; reflexivity|vm_compute; reflexivity]|]; cbn [app].
    all: match goal with |- lsteps _ _ _ _ _ _ (_, (?t1 :: ?t2 :: ?t3 :: ?t4 :: ?l, _)) _ => change (t1 :: t2 :: t3 :: t4 :: l) with ([t1; t2; t3] ++ t4 :: l) end.
    all: eapply lsteps_trans; [eapply (task_go V _ toy_inflate _ _ new [CDone FOk; CDone FOk; CDone FOk]); [vm_compute; reflexivity|vm_compute; reflexivity]|]; cbn [app].
    all: match goal with |- lsteps _ _ _ _ _ _ (_, (_, ?d)) _ => let v := eval vm_compute in d in replace d with v by (vm_compute; reflexivity) end.
    all: apply lss_refl.
  - reflexivity.
  - apply pr_ok. intros x [H|[H|[H|[H|[]]]]]; now injection H.
Qed.

(** Such reads are among those of C92 and C95, and those of a file nobody writes (C90) are among them. *)
Theorem C96_among (P : bytes -> Prop) fl m inflate sort fuel ds f0 rd e dst x d : direct_new m ds (Some f0) = Ok rd ->
  (sys_read fl m inflate sort fuel rd e dst x d -> locked_read P fl m inflate sort fuel rd f0 e dst x d) /\
  (locked_read P fl m inflate sort fuel rd f0 e dst x d -> live_read P fl m inflate sort fuel rd f0 e dst x d).
Proof.
  intros HN. unfold direct_new in HN. apply bind_ok in HN as (csz & B & HN). injection HN as <-. split; intros H.
  - inversion H as [x' E1 E2|v' x' E1 E2 E3|v' G' final ends d' x' E1 E2 E3 E4 E5]; subst.
    + now apply lr_size.
    + now apply (lr_group _ _ _ _ _ _ _ _ _ _ v').
    + apply (lr_run _ _ _ _ _ _ _ _ _ _ v' G' f0 final ends); auto. clear - E3. induction E3 as [s|s t u H1 H2 IH]; [constructor|].
      econstructor; [apply ls_task; exact H1|exact IH].
  - inversion H as [x' E1 E2|v' x' E1 E2 E3|v' G' f' final ends d' x' E1 E2 E3 E4 E5]; subst.
    + now apply lv_size.
    + now apply (lv_group _ _ _ _ _ _ _ _ _ _ v').
    + apply (lv_run _ _ _ _ _ _ _ _ _ _ v' G' f' final ends); auto. clear - E3. induction E3 as [s|s t u H1 H2 IH]; [constructor|].
      econstructor; [|exact IH]. destruct H1 as [f s t H|f f1 s Hf HK]; [now apply vs_task|now apply vs_write].
Qed.
Print Assumptions C96_among.
