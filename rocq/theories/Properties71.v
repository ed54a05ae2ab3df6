(** * C95: parallel reads of a file that is overwritten during the read. *)
From Coq Require Import List NArith Lia Bool Permutation.
From Verif Require Import Base Spec Extent Chunk Dataset Slicer Filters Reader SpecApi SpecReader CacheProofs Writes DirectProofs ReadProofs
  ReaderProps ParProofs Syscalls ParSys Changing Properties4 Properties15 Properties65 Properties66 Properties68 Properties70 ExamplesReader.
Import ListNotations.
Open Scope N_scope.

(** ** Proof *)

Lemma in_combine_nth {A} (b : A) : forall o p0 p, In (p, b) (combine (seqN p0 (length o)) o) <-> exists j, p = p0 + N.of_nat j /\ nth_error o j = Some b.
Proof.
  induction o as [|x o IH]; intros p0 p; cbn [length seqN combine In].
  - split; [easy|]. intros (j & _ & H). destruct j; discriminate.
  - rewrite IH. split.
    + intros [E|(j & E & H)]; [injection E as -> ->; exists 0%nat; cbn; split; [lia|auto]|]. exists (S j). cbn. split; [lia|auto].
    + intros ([|j] & E & H); cbn in H; [left; injection H as ->; f_equal; lia|]. right. exists j. split; [lia|auto].
Qed.

Section T.
Context (P : bytes -> Prop) (fl : bool) (m : mode) (inflate : bytes -> option bytes) (ds : dataset) (csz : N) (dst : bytes) (f0 : bytes).
Context (output : bytes -> bytes) (G : list gsegment) (gs : list (list gsegment)).
Let dsz := d_dsize ds.
Let dlen := lenN dst.
Let L (v : bytes) : chunk -> res bytes := load m inflate v ds csz.
Let r := mkDirect ds (Some f0) csz.
Hypothesis HA : same_addr ds.
Hypothesis HZ : d_gzip ds = None.
Hypothesis HSh : d_shuffle ds = false.
Hypothesis P0 : P f0.
Hypothesis HGc : Forall (fun g => In (g_chunk g) (d_chunks ds)) G.
Hypothesis HR : forall v, P v -> exists wss out, Forall2 (gseg_ok m (L v) dsz dlen) G wss /\
  Permutation (concat wss) (combine (seqN 0 (length out)) out) /\ output v = splice dst 0 out /\ lenN out <= dlen.
Hypothesis HGs : concat gs = G.
Hypothesis HOk : Forall group_ok gs.

Lemma F2_r {A B} (R : A -> B -> Prop) l1 l2 b : Forall2 R l1 l2 -> In b l2 -> exists a, In a l1 /\ R a b.
Proof. induction 1 as [|x y l1 l2 H HF IH]; [easy|]. intros [<-|Hi]; [exists x; split; auto; now left|]. destruct (IH Hi) as (a & H1 & H2). exists a. split; auto. now right. Qed.

Lemma F2_one {A B} (R : A -> B -> Prop) a b : Forall2 R [a] [b] -> R a b.
Proof. intros H. now inversion H. Qed.

Lemma gseg_of v g : P v -> In g G -> exists ws, gseg_ok m (L v) dsz dlen g ws.
Proof. intros Hv Hg. destruct (HR v Hv) as (wss & out & HF & _). destruct (Forall2_in_l _ _ _ _ HF Hg) as (ws & _ & H). eauto. Qed.
Lemma write_output v g ws p b : P v -> In g G -> gseg_ok m (L v) dsz dlen g ws -> In (p, b) ws ->
  nth_error (output v) (N.to_nat p) = Some b /\ p < dlen.
Proof.
  intros Hv Hg HO Hin. destruct (HR v Hv) as (wss & out & HF & HP & -> & HB). destruct (Forall2_in_l _ _ _ _ HF Hg) as (ws' & Hw & HO').
  rewrite (gseg_fun _ _ _ _ _ _ _ HO HO') in Hin. assert (X : In (p, b) (concat wss)) by (apply in_concat; eauto).
  apply (Permutation_in _ HP) in X. apply in_combine_nth in X as (j & -> & E).
  assert (Hj : (j < length out)%nat) by (apply nth_error_Some; congruence). unfold dlen, lenN in *. split; [|lia].
  rewrite splice_nth by (unfold lenN; lia). replace (N.to_nat (0 + N.of_nat j)) with j by lia.
  replace ((N.to_nat 0 <=? j) && (j <? N.to_nat 0 + length out))%nat with true by (symmetry; apply andb_true_iff; split; [apply Nat.leb_le|apply Nat.ltb_lt]; lia).
  now replace (j - N.to_nat 0)%nat with j by lia.
Qed.
Lemma write_none v i : P v -> (forall g ws, In g G -> gseg_ok m (L v) dsz dlen g ws -> ~ In (N.of_nat i) (map fst ws)) ->
  nth_error (output v) i = nth_error dst i.
Proof.
  intros Hv HN. destruct (HR v Hv) as (wss & out & HF & HP & -> & HB). unfold dlen in HB. rewrite splice_nth by lia.
  destruct (Nat.ltb_spec i (N.to_nat 0 + length out)); [|now rewrite andb_false_r]. exfalso.
  destruct (nth_error out i) as [b|] eqn:E; [|apply nth_error_None in E; lia].
  assert (X : In (N.of_nat i, b) (concat wss)). { apply (Permutation_in _ (Permutation_sym HP)), in_combine_nth. exists i. split; auto. }
  apply in_concat in X as (ws & Hw & X). destruct (F2_r _ _ _ _ HF Hw) as (g & Hg & HO). apply (HN g ws Hg HO). apply in_map_iff. exists (N.of_nat i, b). auto.
Qed.

Lemma load_plain v c data : L v c = Ok data -> c_size c <> 0 -> data = firstn (N.to_nat (c_size c)) (skipn (N.to_nat (c_addr c)) v).
Proof.
  unfold L, load, read_chunk, read_exact, decode_chunk. rewrite HZ, HSh. cbn [is_some andb]. intros H Hc.
  destruct (N.eqb_spec (c_size c) 0); [contradiction|]. destruct (c_addr c + c_size c <=? lenN v); [|discriminate]. cbn [bind] in H.
  apply bind_ok in H as (u & _ & H). now injection H.
Qed.
Lemma load_len v c data : L v c = Ok data -> lenN data = c_size c.
Proof.
  unfold L, load, read_chunk, read_exact, decode_chunk. rewrite HZ, HSh. cbn [is_some andb]. intros H.
  destruct (N.eqb_spec (c_size c) 0) as [E|E]; cbn [bind] in H.
  - apply bind_ok in H as (u & _ & H). injection H as <-. now rewrite E.
  - destruct (N.leb_spec (c_addr c + c_size c) (lenN v)); [|discriminate]. cbn [bind] in H. apply bind_ok in H as (u & _ & H). injection H as <-.
    unfold lenN in *. rewrite firstn_length, skipn_length. lia.
Qed.

(** A segment of a torn chunk. *)
Definition torn (c : chunk) (raw : bytes) : Prop := lenN raw = c_size c /\ from_versions P (c_addr c) raw.
Lemma torn_seg g c raw : In g G -> In c (d_chunks ds) -> c_addr (g_chunk g) = c_addr c -> torn c raw ->
  exists ws, gseg_ok m (fun _ => Ok raw) dsz dlen g ws /\ (exists ws0, gseg_ok m (L f0) dsz dlen g ws0 /\ map fst ws = map fst ws0) /\
    forall p b, In (p, b) ws -> p < dlen /\ exists v, P v /\ nth_error (output v) (N.to_nat p) = Some b.
Proof.
  intros Hg Hc Ea [T1 T2]. pose proof HGc as HGc'. rewrite Forall_forall in HGc'. pose proof (HGc' g Hg) as Hgc.
  assert (Es : c_size (g_chunk g) = c_size c) by (apply HA; auto).
  assert (C : forall v, P v -> exists p s e data, mul64 m (g_dest g) dsz = Ok p /\ mul64 m (g_from g) dsz = Ok s /\ mul64 m (snd g) dsz = Ok e /\ s <= e /\
    L v (g_chunk g) = Ok data /\ e <= lenN data /\ p + (e - s) <= dlen /\
    gseg_ok m (L v) dsz dlen g (combine (seqN p (length (firstn (N.to_nat (e - s)) (skipn (N.to_nat s) data)))) (firstn (N.to_nat (e - s)) (skipn (N.to_nat s) data)))).
  { intros v Hv. destruct (gseg_of v g Hv Hg) as (ws & p & o & E1 & (s & e & data & E2 & E3 & E4 & E5 & E6 & Eo) & E7 & Ew). subst o.
    rewrite slice_len in E7 by auto. exists p, s, e, data. repeat split; auto. exists p, (firstn (N.to_nat (e - s)) (skipn (N.to_nat s) data)).
    split; auto. split; [exists s, e, data; auto 7|]. split; auto. now rewrite slice_len by auto. }
  destruct (C f0 P0) as (p0 & s & e & data & E1 & E2 & E3 & E4 & E5 & E6 & E7 & E8).
  assert (Lr : lenN raw = lenN data) by (rewrite T1, <- Es; symmetry; eapply load_len; eauto).
  set (o := firstn (N.to_nat (e - s)) (skipn (N.to_nat s) raw)).
  assert (Lo : lenN o = e - s) by (apply slice_len; [auto|lia]).
  exists (combine (seqN p0 (length o)) o). split; [|split].
  - exists p0, o. split; auto. split; [|split; auto; lia]. exists s, e, raw. repeat split; auto. lia.
  - eexists. split; [exact E8|]. assert (X : length o = length (firstn (N.to_nat (e - s)) (skipn (N.to_nat s) data))).
    { pose proof (slice_len data s e E4 E6). unfold lenN in *. lia. }
    rewrite !map_fst_combine by apply seqN_length. now rewrite X.
  - intros p b Hin. apply in_combine_nth in Hin as (j & -> & Hj).
    assert (Hjl : (j < N.to_nat (e - s))%nat). { assert (j < length o)%nat by (apply nth_error_Some; congruence). unfold lenN in Lo. lia. }
    split; [lia|]. unfold o in Hj. rewrite nth_error_firstn_ in Hj by exact Hjl. rewrite nth_error_skipn_ in Hj.
    destruct (T2 _ _ Hj) as (v & Hv & Ev). exists v. split; auto.
    destruct (C v Hv) as (p1 & s1 & e1 & d1 & F1 & F2 & F3 & F4 & F5 & F6 & F7 & F8).
    rewrite E1 in F1. injection F1 as <-. rewrite E2 in F2. injection F2 as <-. rewrite E3 in F3. injection F3 as <-.
    apply (write_output v g _ (p0 + N.of_nat j) b Hv Hg F8). apply in_combine_nth. exists j. split; auto.
    rewrite nth_error_firstn_ by exact Hjl. rewrite nth_error_skipn_.
    assert (Hs : (N.to_nat s + j < N.to_nat (c_size c))%nat). { assert (N.to_nat s + j < length raw)%nat by (apply nth_error_Some; congruence). unfold lenN in T1. lia. }
    rewrite (load_plain v (g_chunk g) d1 F5) by (rewrite Es; lia). rewrite Ea, Es. rewrite nth_error_firstn_ by exact Hs. rewrite nth_error_skipn_. exact Ev.
Qed.

Definition gcov (g : list gsegment) (p : N) : Prop :=
  exists sg ws0, In sg g /\ gseg_ok m (L f0) dsz dlen sg ws0 /\ In p (map fst ws0).
Definition allowed (pb : N * N) : Prop := fst pb < dlen /\ exists v, P v /\ nth_error (output v) (N.to_nat (fst pb)) = Some (snd pb).

Lemma F2_choice {A B} (R : A -> B -> Prop) l : (forall a, In a l -> exists b, R a b) -> exists l', Forall2 R l l'.
Proof.
  induction l as [|a l IH]; intros H; [exists []; constructor|]. destruct (H a ltac:(now left)) as (b & Hb).
  destruct IH as (l' & Hl); [intros; apply H; now right|]. exists (b :: l'). now constructor.
Qed.
Lemma in_gs g sg : In g gs -> In sg g -> In sg G.
Proof. intros H1 H2. rewrite <- HGs. apply in_concat. eauto. Qed.
Lemma after_ok c cur a b g' raw : In ((c, cur, a, b) :: g') gs -> torn c raw ->
  exists ws, par_after m inflate r dlen ((c, cur, a, b) :: g') raw = (ws, FOk) /\ Forall allowed ws /\
    forall p, gcov ((c, cur, a, b) :: g') p -> In p (map fst ws).
Proof.
  intros Hg HT. set (g := (c, cur, a, b) :: g') in *.
  assert (H0 : In (c, cur, a, b) G) by (apply (in_gs g); [auto|now left]).
  assert (Hc : In c (d_chunks ds)) by (rewrite Forall_forall in HGc; exact (HGc _ H0)).
  assert (Ha : forall sg, In sg g -> c_addr (g_chunk sg) = c_addr c).
  { pose proof HOk as X. rewrite Forall_forall in X. specialize (X g Hg). cbn [group_ok g] in X. rewrite Forall_forall in X.
    intros [[[c1 o1] a1] b1] Hs. exact (X _ Hs). }
  destruct (F2_choice (fun sg ws => gseg_ok m (fun _ => Ok raw) dsz dlen sg ws /\ (exists ws0, gseg_ok m (L f0) dsz dlen sg ws0 /\ map fst ws = map fst ws0) /\
    forall p b, In (p, b) ws -> p < dlen /\ exists v, P v /\ nth_error (output v) (N.to_nat p) = Some b) g) as (wss & HF).
  { intros sg Hs. apply (torn_seg sg c raw); auto. now apply (in_gs g). }
  exists (concat wss). split; [|split].
  - unfold par_after, r. cbn [dr_csz dr_ds]. unfold decode_chunk. rewrite HZ, HSh. cbn [is_some andb].
    assert (D : dbg m (d_dsize ds <? 16) = Ok tt).
    { destruct (gseg_of f0 _ P0 H0) as (ws & p & o & _ & (s & e & data & _ & _ & _ & E & _) & _).
      unfold L, load, read_chunk, decode_chunk in E. apply bind_ok in E as (x & _ & E). apply bind_ok in E as ([] & E & _). exact E. }
    rewrite D. cbn [bind]. apply (par_segs_iff m (fun _ => Ok raw)); [apply Forall_forall; auto|]. exists wss. split; auto.
    clear - HF. induction HF as [|x y l1 l2 (H & _) HF IH]; constructor; auto.
  - apply Forall_forall. intros [p x] Hin. apply in_concat in Hin as (ws & Hw & Hin). destruct (F2_r _ _ _ _ HF Hw) as (sg & _ & _ & _ & K). exact (K p x Hin).
  - intros p (sg & ws0 & Hs & H1 & H2). destruct (Forall2_in_l _ _ _ _ HF Hs) as (ws & Hw & _ & (ws1 & K1 & K2) & _).
    rewrite (gseg_fun _ _ _ _ _ _ _ H1 K1), <- K2 in H2. apply in_map_iff in H2 as (pb & E & H2). apply in_map_iff. exists pb. split; auto. apply in_concat. eauto.
Qed.

(** *** The invariant *)

Definition calm : Prop := fl = false /\ forall c, In c (d_chunks ds) -> c_addr c < 2 ^ 63.
Definition sound_end (f : fin) : Prop := f = FOk \/ (exists e, f = FErr e) /\ ~ calm.
Definition tok (t : ctask) : Prop :=
  match t with
  | CWait g => In g gs
  | CLoad g w => In g gs /\ exists c cur a b g', g = (c, cur, a, b) :: g' /\ tornv P [(c_addr c, c_size c)] w /\
      (calm -> match w_phase w with AtEnd | Refused | Fault => False | _ => True end)
  | CRun ws f => Forall allowed ws /\ sound_end f
  | CDone f => sound_end f
  | CSkip => True
  end.
Lemma in_file v c : P v -> In c (d_chunks ds) -> (exists sg, In sg G /\ g_chunk sg = c) -> c_size c = 0 \/ c_addr c + c_size c <= lenN v.
Proof.
  intros Hv Hc (sg & Hs & E). destruct (gseg_of v sg Hv Hs) as (ws & p & o & _ & (s & e & data & _ & _ & _ & EL & _) & _). rewrite E in EL.
  unfold L, load, read_chunk, read_exact in EL. destruct (N.eqb_spec (c_size c) 0); [now left|right].
  destruct (N.leb_spec (c_addr c + c_size c) (lenN v)); [auto|discriminate EL].
Qed.
Lemma call_calm f c w w' : P f -> In c (d_chunks ds) -> (exists sg, In sg G /\ g_chunk sg = c) -> wstep f w w' -> (fl = true \/ w_phase w' <> Fault) ->
  tornv P [(c_addr c, c_size c)] w -> calm -> match w_phase w' with AtEnd | Refused | Fault => False | _ => True end.
Proof.
  intros Hf Hc Hin H Hw (did & E & _ & HP) [C1 C2]. pose proof (in_file f c Hf Hc Hin) as HB.
  destruct H as [a n js' p got Ha|a n js' p got Ha|js' p want acc got k H1 H2 H3|js' p want acc got H1|js' p want acc got H1 H2|j js' p acc got|js' p ph got H1];
    cbn [w_todo w_pos w_phase w_got] in *; auto.
  - destruct did as [|j did]; [|destruct did; discriminate E]. injection E as E1 _ _. rewrite <- E1 in Ha. specialize (C2 c Hc). lia.
  - destruct HP as (a & n & js2 & -> & Ep & En & _). destruct did as [|j did]; [|destruct did; discriminate E]. injection E as E1 E2 _. rewrite <- E1, <- E2 in *. lia.
  - destruct Hw as [Hw|Hw]; [congruence|now apply Hw].
Qed.
(** The task will write the byte (or the read fails). *)
Definition covers (t : ctask) (p : N) : Prop :=
  match t with
  | CWait g | CLoad g _ => gcov g p
  | CRun ws FOk => In p (map fst ws)
  | CDone FOk => False
  | _ => True
  end.
Definition from_some (d : bytes) (i : nat) : Prop := exists v, P v /\ nth_error d i = nth_error (output v) i.
Definition binv (s : list ctask * bytes) : Prop :=
  Forall tok (fst s) /\ lenN (snd s) = dlen /\ (In CSkip (fst s) -> exists f, In (CDone f) (fst s) /\ is_failure f) /\
  forall i, from_some (snd s) i \/ nth_error (snd s) i = nth_error dst i /\ exists t, In t (fst s) /\ covers t (N.of_nat i).

Lemma tstep_inv f t t' : P f -> tstep fl m inflate (on_file r f) dlen t t' -> tok t -> tok t' /\ forall p, covers t p -> covers t' p.
Proof.
  intros Hf H HI. destruct H as [g E|g E|file E|file c cur a b g p E|file g w w' E H Hw|g w H|g w raw H1 H2 H3|x]; cbn [tok covers] in *.
  - discriminate E.
  - split; [|auto]. split; [constructor|]. right. split; [eauto|]. intros [C _]. congruence.
  - rewrite Forall_forall in HOk. destruct (HOk _ HI).
  - split; auto. split; auto. exists c, cur, a, b, g. split; auto. split; [|cbn; auto]. apply (tornv_fresh P (mkWorker [(c_addr c, c_size c)] p Idle [])). split; reflexivity.
  - cbn [on_file dr_file] in E. injection E as <-. destruct HI as (Hg & c & cur & a & b & g' & -> & HT & _). split; auto. split; auto.
    exists c, cur, a, b, g'. split; auto. split; [eapply tornv_step; eauto|]. intros HC.
    assert (X : In (c, cur, a, b) G) by (apply (in_gs ((c, cur, a, b) :: g')); [auto|now left]).
    apply (call_calm f c w w'); auto; [|now exists (c, cur, a, b)]. rewrite Forall_forall in HGc. exact (HGc _ X).
  - destruct HI as (Hg & c & cur & a & b & g' & -> & HT & HC). split; [|auto]. split; [constructor|]. right. split; [eauto|].
    intros C. specialize (HC C). destruct H as [H|[H|H]]; rewrite H in HC; exact HC.
  - destruct HI as (Hg & c & cur & a & b & g' & -> & HT & _). destruct HT as (did & E & HF & _). rewrite H1, app_nil_r in E. subst did. rewrite H3 in HF.
    apply F2_one in HF as [F1 F2]. cbn [fst snd] in F1, F2.
    destruct (after_ok c cur a b g' raw Hg (conj F1 F2)) as (ws & E & K1 & K2). change (par_after m inflate (on_file r f)) with (par_after m inflate r).
    rewrite E. cbn [fst snd]. split; [split; [auto|now left]|auto].
  - destruct HI as [_ HI]. split; auto.
Qed.
Lemma cstep_binv f s t : P f -> cstep fl m inflate (on_file r f) dlen s t -> binv s -> binv t.
Proof.
  intros Hf H (I1 & I2 & I3 & I4). destruct H as [l1 l2 t t' d H|l1 l2 p b ws fn d|l1 l2 g fn d H1 H2]; cbn [fst snd] in *.
  - pose proof (proj1 (Forall_forall _ _) I1) as I1'. destruct (tstep_inv f t t' Hf H) as [T1 T2].
    { apply I1', in_app_iff. right. now left. }
    split; [|split; [auto|split]].
    + apply Forall_app in I1 as [A B]. inversion B; subst x l. apply Forall_app. split; auto.
    + intros HS. assert (X : exists fn, In (CDone fn) (l1 ++ t :: l2) /\ is_failure fn).
      { apply I3. apply in_app_iff in HS as [HS|[HS|HS]]; apply in_app_iff; auto; [|right; now right]. subst t'. inversion H. }
      destruct X as (fn & X & Y). exists fn. split; auto. apply in_app_iff in X as [X|[X|X]]; apply in_app_iff; auto; [|right; now right].
      subst t. inversion H.
    + intros i. destruct (I4 i) as [X|[X (u & Hu & Hc)]]; [now left|right]. split; auto.
      apply in_app_iff in Hu as [Hu|[<-|Hu]]; [exists u|exists t'|exists u]; (split; [apply in_app_iff; cbn [In]; auto|auto]).
  - pose proof I1 as I1'. apply Forall_app in I1' as [A B]. inversion B as [|? ? B1 B2]; subst x l. cbn [tok] in B1. destruct B1 as [B1 B6]. inversion B1 as [|? ? B3 B4]; subst x l.
    destruct B3 as [B5 (v & Hv & Ev)]. cbn [fst snd] in B5, Ev.
    assert (HB : p + lenN [b] <= lenN d) by (rewrite I2; unfold lenN; cbn [length]; unfold dlen, lenN in *; lia).
    split; [|split; [|split]]; cbn [fst snd].
    + apply Forall_app. split; auto. constructor; auto. split; auto.
    + rewrite splice_len; auto.
    + intros HS. assert (X : exists f1, In (CDone f1) (l1 ++ CRun ((p, b) :: ws) fn :: l2) /\ is_failure f1).
      { apply I3. apply in_app_iff in HS as [HS|[HS|HS]]; apply in_app_iff; auto; [discriminate|right; now right]. }
      destruct X as (f1 & X & Y). exists f1. split; auto. apply in_app_iff in X as [X|[X|X]]; apply in_app_iff; auto; [discriminate|right; now right].
    + intros i. unfold from_some. rewrite (splice_nth d p [b] i HB). destruct (Nat.eq_dec i (N.to_nat p)) as [->|Hn].
      * left. exists v. split; auto. rewrite Nat.leb_refl. replace (N.to_nat p <? N.to_nat p + length [b])%nat with true by (symmetry; apply Nat.ltb_lt; cbn; lia).
        cbn [andb]. rewrite Nat.sub_diag, Ev. reflexivity.
      * replace ((N.to_nat p <=? i) && (i <? N.to_nat p + length [b]))%nat with false.
        2:{ symmetry. apply andb_false_iff. destruct (Nat.leb_spec (N.to_nat p) i); [right; apply Nat.ltb_ge; cbn; lia|now left]. }
        destruct (I4 i) as [X|[X (u & Hu & Hc)]]; [now left|right]. split; auto.
        apply in_app_iff in Hu as [Hu|[<-|Hu]]; [exists u|exists (CRun ws fn)|exists u]; (split; [apply in_app_iff; cbn [In]; auto|auto]).
        cbn [covers] in *. destruct fn; auto. cbn [map fst In] in Hc. destruct Hc as [Hc|Hc]; auto. subst p. lia.
  - split; [|split; [auto|split]].
    + apply Forall_app in I1 as [A B]. inversion B; subst x l. apply Forall_app. split; auto. constructor; auto. exact I.
    + intros _. exists fn. split; auto. apply in_app_iff in H1 as [H1|H1]; apply in_app_iff; cbn [In]; auto.
    + intros i. destruct (I4 i) as [X|[X _]]; [now left|right]. split; auto. exists CSkip. split; [apply in_app_iff; cbn [In]; auto|exact I].
Qed.
Lemma vsteps_binv s t : vsteps P fl m inflate r dlen s t -> P (fst s) -> binv (snd s) -> binv (snd t).
Proof.
  induction 1 as [s|s t u H1 H2 IH]; intros Hf HB; auto. destruct H1 as [f s t H|f f' s Hf']; cbn [fst snd] in *; apply IH; auto.
  eapply cstep_binv; eauto.
Qed.
Lemma binv_init : binv (map CWait gs, dst).
Proof.
  split; [|split; [reflexivity|split]]; cbn [fst snd].
  - apply Forall_map, Forall_forall. cbn [tok]. auto.
  - intros H. apply in_map_iff in H as (g & E & _). discriminate E.
  - intros i. destruct (HR f0 P0) as (wss & out & HF & HP & HO & HB).
    destruct (Nat.ltb_spec i (length out)) as [Hi|Hi].
    + right. split; auto. destruct (nth_error out i) as [b|] eqn:E; [|apply nth_error_None in E; lia].
      assert (X : In (N.of_nat i, b) (concat wss)). { apply (Permutation_in _ (Permutation_sym HP)), in_combine_nth. exists i. split; auto. }
      apply in_concat in X as (ws & Hw & X). destruct (F2_r _ _ _ _ HF Hw) as (sg & Hs & HG1). rewrite <- HGs in Hs. apply in_concat in Hs as (g & Hg & Hs).
      exists (CWait g). split; [now apply in_map|]. exists sg, ws. repeat split; auto. apply in_map_iff. exists (N.of_nat i, b). auto.
    + left. exists f0. split; auto. rewrite HO. unfold dlen in HB. rewrite splice_nth by lia.
      replace (i <? N.to_nat 0 + length out)%nat with false by (symmetry; apply Nat.ltb_ge; lia). now rewrite andb_false_r.
Qed.
Lemma binv_done final ends d x : binv (final, d) -> map ended final = map Some ends -> par_result ends x ->
  (forall i, from_some d i \/ nth_error d i = nth_error dst i) /\ lenN d = dlen /\ (x = Ok tt -> forall i, from_some d i) /\
  (x = Ok tt \/ (exists e, x = Err e) /\ ~ calm).
Proof.
  intros (I1 & I2 & I3 & I4) HE HP. cbn [fst snd] in *. split; [|split; [auto|split]].
  - intros i. destruct (I4 i) as [X|[X _]]; auto.
  - intros -> i. inversion HP as [| | |HD]. clear HP.
    assert (HD' : forall f, In (CDone f) final -> f = FOk).
    { intros f Hf. apply HD. apply (in_map ended) in Hf. cbn [ended] in Hf. rewrite HE in Hf. apply in_map_iff in Hf as (y & E & Hy). now injection E as ->. }
    destruct (I4 i) as [X|[_ (t & Ht & Hc)]]; auto. exfalso.
    pose proof (in_map ended _ _ Ht) as HX. rewrite HE in HX. apply in_map_iff in HX as (y & E & _).
    destruct t as [g|g w|ws f|f|]; cbn [ended] in E; try discriminate E.
    + rewrite (HD' f Ht) in Hc. exact Hc.
    + destruct (I3 Ht) as (f & F1 & F2). now apply F2, HD'.
  - assert (HS : forall f, In (Done f) ends -> sound_end f).
    { intros f Hf. apply (in_map Some) in Hf. rewrite <- HE in Hf. apply in_map_iff in Hf as (t & E & Ht). destruct t; try discriminate E.
      cbn [ended] in E. injection E as ->. rewrite Forall_forall in I1. exact (I1 _ Ht). }
    destruct HP as [H|H1 H|e H1 H2 H|H]; [| |right|now left].
    + destruct (HS _ H) as [E|[(e & E) _]]; discriminate E.
    + destruct (HS _ H) as [E|[(e & E) _]]; discriminate E.
    + destruct (HS _ H) as [E|[_ E]]; [discriminate E|]. eauto.
Qed.
End T.


(** ** The theorem *)

(** An unfiltered dataset that is overwritten, in any way, while a parallel read runs: whatever happens, every byte of the
    buffer is what it was, or as in the output for some version of the file; if the read succeeds, the latter. It
    does succeed unless a system call fails. *)
Theorem C95_torn (P : bytes -> Prop) fl m inflate sort fuel ds f0 rd e dst n output x d : addr_sort sort -> same_addr ds ->
  d_gzip ds = None -> d_shuffle ds = false -> 0 < d_dsize ds -> lenN dst < W64 -> P f0 -> direct_new m ds (Some f0) = Ok rd ->
  (forall v r', P v -> direct_new m ds (Some v) = Ok r' -> direct_read m inflate sort fuel r' e dst = (Ok n, output v)) ->
  live_read P fl m inflate sort fuel rd f0 e dst x d ->
  lenN d = lenN dst /\
  (forall i, (exists v, P v /\ nth_error d i = nth_error (output v) i) \/ nth_error d i = nth_error dst i) /\
  (forall n', x = Ok n' -> n' = n /\ mixed_output P output 1 d) /\
  (x = Ok n \/ exists e, x = Err e) /\
  (fl = false -> (forall c, In c (d_chunks ds) -> c_addr c < 2 ^ 63) -> x = Ok n).
Proof.
  intros HSo HA HZ HSh Hd HW P0 HN HR H. unfold direct_new in HN. apply bind_ok in HN as (csz & B & HN). injection HN as <-.
  assert (HP : forall v, P v -> plain_read m inflate fuel v ds csz e dst = (Ok n, output v)).
  { intros v Hv. apply (direct_read_iff m inflate sort fuel (mkDirect ds (Some v) csz) v e dst n (output v)); auto.
    apply HR; auto. unfold direct_new. now rewrite B. }
  clear HR. pose proof (HP f0 P0) as H0. apply plain_read_iff in H0 as (Ev & out0 & RW0 & _).
  destruct (group_of_read _ _ sort _ _ _ _ _ HSo Hd HW RW0) as (G & wss0 & [EG HF0] & _).
  assert (HR : forall v, P v -> exists wss out, Forall2 (gseg_ok m (load m inflate v ds csz) (d_dsize ds) (lenN dst)) G wss /\
    Permutation (concat wss) (combine (seqN 0 (length out)) out) /\ output v = splice dst 0 out /\ lenN out <= lenN dst).
  { intros v Hv. pose proof (HP v Hv) as Hp. apply plain_read_iff in Hp as (_ & out & RW & EO).
    destruct (group_of_read _ _ sort _ _ _ _ _ HSo Hd HW RW) as (G' & wss & [EG' HF] & HPm). rewrite EG in EG'. injection EG' as <-.
    exists wss, out. split; auto. split; auto. split; auto. destruct RW as (segs & os & _ & _ & _ & Hb). exact Hb. }
  pose proof (group_chunks m sort fuel ds e G HSo EG) as HGc.
  inversion H as [x' E1 E2|v' x' E1 E2 E3|v' G' f' final ends d' x' E1 E2 E3 E4 E5]; subst; cbn [dr_ds] in *.
  - destruct (E2 _ Ev).
  - destruct (E3 _ EG).
  - rewrite EG in E2. injection E2 as <-. rewrite Ev in E1. injection E1 as <-.
    assert (HGs : concat (chunk_by_addr G) = G) by apply chunk_by_concat.
    pose proof (chunk_by_ok G) as HOk.
    pose proof (binv_init P fl m inflate ds csz dst f0 output G (chunk_by_addr G) P0 HR HGs) as I0.
    apply (vsteps_binv P fl m inflate ds csz dst f0 output G (chunk_by_addr G) HA HZ HSh P0 HGc HR HGs HOk _ _ E3 P0) in I0. cbn [snd] in I0.
    destruct (binv_done P fl m inflate ds csz dst f0 output (chunk_by_addr G) final ends d x' I0 E4 E5) as (D1 & D2 & D3 & D4).
    split; [exact D2|]. split; [exact D1|]. split; [|split].
    + intros n' E. destruct x' as [[]| | | |]; cbn [bind] in E; try discriminate E. injection E as <-. split; auto. specialize (D3 eq_refl).
      split.
      * intros v Hv. rewrite D2. destruct (HR v Hv) as (_ & out & _ & _ & -> & HB). now rewrite splice_len by lia.
      * intros k. destruct (D3 (N.to_nat k)) as (v & Hv & Ek). exists v. split; auto. apply nth_error_ext. intros i. rewrite !nth_piece.
        destruct (Nat.ltb_spec i (N.to_nat 1)); auto. replace (N.to_nat (k * 1) + i)%nat with (N.to_nat k) by lia. exact Ek.
    + destruct D4 as [->|[(e' & ->) _]]; cbn [bind]; eauto.
    + intros F1 F2. destruct D4 as [->|[_ X]]; auto. destruct X. split; auto.
Qed.
Print Assumptions C95_torn.

(** The file [1; 2], one element of two bytes, becomes [3; 4] between the two system calls by which it is read: the read
    succeeds with [1; 4]. *)
Example C95_case m :
  let ds := mkDataset (Int 2) 2 LE [mkChunk 0 2 [0]] [1] [1] [1] [1] [1] [1] false None in
  let P := fun v : bytes => v = [1; 2] \/ v = [3; 4] in
  exists rd, addr_sort sort_by_addr /\ same_addr ds /\ d_gzip ds = None /\ d_shuffle ds = false /\ P [1; 2] /\
  direct_new m ds (Some [1; 2]) = Ok rd /\
  (forall v r', P v -> direct_new m ds (Some v) = Ok r' -> direct_read m toy_inflate sort_by_addr 5 r' All [9; 9] = (Ok 2, v)) /\
  live_read P false m toy_inflate sort_by_addr 5 rd [1; 2] All [9; 9] (Ok 2) [1; 4].
Proof.
  intros ds P. exists (mkDirect ds (Some [1; 2]) 2). destruct (C24_case m) as (H1 & _).
  split; [exact H1|]. split; [|split; [reflexivity|split; [reflexivity|split; [now left|split; [destruct m; vm_compute; reflexivity|split]]]]].
  - intros c1 c2 [<-|[]] [<-|[]]. reflexivity.
  - intros v r' [-> | ->] HN; destruct m; vm_compute in HN; apply SerdeProofs.ok_inj in HN; subst r'; vm_compute; reflexivity.
  - change (Ok 2) with (let* _ := Ok tt in Ok 2).
    apply (lv_run P false m toy_inflate sort_by_addr 5 _ [1; 2] All [9; 9] 2 [(mkChunk 0 2 [0], 0, 0, 1)] [3; 4] [CDone FOk] [Done FOk] [1; 4] (Ok tt)).
    + destruct m; vm_compute; reflexivity.
    + destruct m; vm_compute; reflexivity.
    + change (chunk_by_addr [(mkChunk 0 2 [0], 0, 0, 1)]) with [[(mkChunk 0 2 [0], 0, 0, 1)]]. cbn [map].
      set (g := [(mkChunk 0 2 [0], 0, 0, 1)]).
      assert (T : forall f t t' u, cstep false m toy_inflate (on_file (mkDirect ds (Some [1; 2]) 2) f) 2 ([] ++ [t], [9; 9]) ([] ++ [t'], [9; 9]) ->
        vsteps P false m toy_inflate (mkDirect ds (Some [1; 2]) 2) 2 (f, ([t'], [9; 9])) u ->
        vsteps P false m toy_inflate (mkDirect ds (Some [1; 2]) 2) 2 (f, ([t], [9; 9])) u).
      { intros f t t' u HC HS. eapply vss_step; [apply vs_task; exact HC|exact HS]. }
      change (lenN [9; 9]) with 2. unfold g.
      eapply T; [apply cs_task; now apply (ts_load _ _ _ _ _ [1; 2] _ _ _ _ _ 0)|].
      eapply T; [apply cs_task; apply (ts_call _ _ _ _ _ [1; 2]); [reflexivity|now apply ws_seek|right; discriminate]|].
      eapply T; [apply cs_task; apply (ts_call _ _ _ _ _ [1; 2]); [reflexivity|apply (ws_read _ _ _ _ _ _ 1); vm_compute; congruence|right; discriminate]|].
      eapply vss_step; [apply (vs_write _ _ _ _ _ _ _ [3; 4]); now right|].
      eapply T; [apply cs_task; apply (ts_call _ _ _ _ _ [3; 4]); [reflexivity|apply (ws_read _ _ _ _ _ _ 1); vm_compute; congruence|right; discriminate]|].
      eapply T; [apply cs_task; apply (ts_call _ _ _ _ _ [3; 4]); [reflexivity|apply ws_full|right; discriminate]|].
      eapply T; [apply cs_task; apply (ts_loaded _ _ _ _ _ _ _ [1; 4]); reflexivity|].
      replace (par_after m toy_inflate (on_file (mkDirect ds (Some [1; 2]) 2) [3; 4]) 2 [(mkChunk 0 2 [0], 0, 0, 1)] [1; 4])
        with ([(0, 1); (1, 4)], FOk) by (destruct m; vm_compute; reflexivity). cbn [fst snd].
      eapply vss_step; [apply vs_task; apply (cs_write _ _ _ _ _ [] [])|].
      eapply vss_step; [apply vs_task; apply (cs_write _ _ _ _ _ [] [])|].
      eapply vss_step; [apply vs_task; apply (cs_task _ _ _ _ _ [] []); apply ts_finish|].
      apply vss_refl.
    + reflexivity.
    + apply pr_ok. intros f [[= <-]|[]]. reflexivity.
Qed.
