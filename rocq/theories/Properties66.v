(** * C90: parallel reads down to their system calls. *)
From Coq Require Import List NArith Lia Bool.
From Verif Require SerdeProofs.
From Verif Require Import Base Spec Chunk Dataset Slicer Filters Reader Syscalls ParSys SpecApi SpecReader DirectProofs ParProofs Termination ExamplesReader Properties4 Properties65.
Import ListNotations.
Open Scope N_scope.

(** ** Specification *)

(** Addresses a file can have: no file is as long as 2^63 bytes. *)
Definition seekable (r : direct) : Prop := forall c, In c (d_chunks (dr_ds r)) -> c_addr c < 2 ^ 63.

(** A run, and the number of its steps that are not interrupted calls (those change nothing). *)
Inductive steps_of (fl : bool) (m : mode) (inflate : bytes -> option bytes) (r : direct) (dlen : N) :
    nat -> list ctask * bytes -> list ctask * bytes -> Prop :=
| so_none s : steps_of fl m inflate r dlen 0 s s
| so_again n s t : cstep fl m inflate r dlen s s -> steps_of fl m inflate r dlen n s t -> steps_of fl m inflate r dlen n s t
| so_step n s t u : cstep fl m inflate r dlen s t -> s <> t -> steps_of fl m inflate r dlen n t u ->
    steps_of fl m inflate r dlen (S n) s u.

(** ** Proof *)

Section Sim.
Context (m : mode) (inflate : bytes -> option bytes) (r : direct) (dlen : N).

(** What a task of the finer model is in the coarser. *)
Definition coarse (t : ctask) : tstate :=
  match t with
  | CWait g | CLoad g _ => Waiting (par_task m inflate r dlen g)
  | CRun ws f => Running ws f
  | CDone f => Done f
  | CSkip => Skipped
  end.
Definition low (g : list gsegment) : Prop := match g with (c, _, _, _) :: _ => c_addr c < 2 ^ 63 | [] => True end.
Definition tinv (t : ctask) : Prop :=
  match t with
  | CWait g => low g
  | CLoad g w => low g /\ exists file c cur a b g', dr_file r = Some file /\ g = (c, cur, a, b) :: g' /\
      winv file [(c_addr c, c_size c)] w
  | _ => True
  end.

Lemma par_task_load file c cur a b g : dr_file r = Some file -> forall raw,
  read_exact file (c_addr c) (c_size c) = Ok raw ->
  par_task m inflate r dlen ((c, cur, a, b) :: g) = par_after m inflate r dlen ((c, cur, a, b) :: g) raw.
Proof. intros E raw R. unfold par_task, par_after, load, read_chunk. rewrite E, R. reflexivity. Qed.
Lemma par_task_end file c cur a b g : dr_file r = Some file -> 0 < c_size c -> lenN file < c_addr c + c_size c ->
  par_task m inflate r dlen ((c, cur, a, b) :: g) = ([], FErr EIo).
Proof.
  intros E H1 H2. unfold par_task, load, read_chunk, read_exact. rewrite E.
  rewrite (proj2 (N.eqb_neq _ _)) by lia. rewrite (proj2 (N.leb_gt _ _) H2). reflexivity.
Qed.
Lemma winv_done file c w raw : winv file [(c_addr c, c_size c)] w -> w_todo w = [] -> w_got w = [raw] ->
  read_exact file (c_addr c) (c_size c) = Ok raw.
Proof.
  intros (did & E & G & _) Et Eg. rewrite Et, app_nil_r in E. subst did. rewrite Eg in G.
  inversion G as [|? ? ? ? G1 _]; subst. cbn [fst snd] in G1. unfold read_exact.
  destruct G1 as [G1|[-> ->]]; [|reflexivity]. destruct (bytes_at_len _ _ _ _ G1) as [L1 L2].
  destruct (N.eqb_spec (c_size c) 0) as [Hn|Hn].
  - rewrite Hn in L2. destruct raw; [reflexivity|discriminate].
  - rewrite (proj2 (N.leb_le _ _) L1). f_equal. eapply bytes_at_fun; eauto using slice_at.
Qed.
Lemma winv_single file j w : winv file [j] w -> forall j' js, w_todo w = j' :: js -> j' = j /\ js = [].
Proof.
  intros (did & E & _) j' js Et. rewrite Et in E. destruct did as [|d did]; cbn [app] in E.
  - injection E as -> ->. auto.
  - injection E as _ E. destruct did; discriminate.
Qed.

Lemma tinv_step fl t t' : tstep fl m inflate r dlen t t' -> tinv t -> tinv t'.
Proof.
  intros H. destruct H as [g E|g E|file E|file c cur a b g p E|file g w w' E H Hf|g w H|g w raw H1 H2 H3|f]; cbn [tinv]; auto.
  - intros L. split; auto. exists file, c, cur, a, b, g. split; auto. split; auto.
    apply (winv_fresh file (mkWorker [(c_addr c, c_size c)] p Idle [])). split; reflexivity.
  - intros (L & file' & c & cur & a & b & g' & E' & -> & W). split; auto. exists file', c, cur, a, b, g'. split; auto. split; auto.
    rewrite E in E'. injection E' as <-. eapply winv_step; eauto.
Qed.

(** A step of a task that meets no fault is no step or some steps of the coarser model. *)
Lemma psteps_trans s t u : psteps s t -> psteps t u -> psteps s u.
Proof. induction 1; auto. intros. econstructor; eauto. Qed.
Lemma tstep_sim t t' l1 l2 dst : tstep false m inflate r dlen t t' -> tinv t -> (forall g w, t = CLoad g w -> w_phase w <> Fault) ->
  psteps (l1 ++ coarse t :: l2, dst) (l1 ++ coarse t' :: l2, dst).
Proof.
  intros H HI NF. destruct H as [g E|g E|file E|file c cur a b g p E|file g w w' E H Hf|g w H|g w raw H1 H2 H3|f]; cbn [coarse tinv] in *.
  - assert (Ep : par_task m inflate r dlen g = ([], FErr EOpen)) by (unfold par_task; now rewrite E). rewrite Ep.
    econstructor; [apply ps_start|constructor].
  - discriminate.
  - assert (Ep : par_task m inflate r dlen [] = ([], FPanic)) by (unfold par_task; now rewrite E). rewrite Ep.
    econstructor; [apply ps_start|constructor].
  - constructor.
  - constructor.
  - destruct HI as (L & file & c & cur & a & b & g' & E & -> & W).
    assert (Ep : par_task m inflate r dlen ((c, cur, a, b) :: g') = ([], FErr EIo)).
    { pose proof W as (did & Ed & G & P). destruct H as [H|[H|H]]; [| |exfalso; eapply NF; eauto]; rewrite H in P.
      - destruct P as (a0 & n & js' & Et & Hn & Hl). destruct (winv_single _ _ _ W _ _ Et) as [Ej _]. injection Ej as -> ->.
        eapply par_task_end; eauto.
      - destruct P as (a0 & n & js' & Et & Hn). destruct (winv_single _ _ _ W _ _ Et) as [Ej _]. injection Ej as -> ->.
        cbn [low] in L. lia. }
    rewrite Ep. econstructor; [apply ps_start|constructor].
  - destruct HI as (L & file & c & cur & a & b & g' & E & -> & W).
    rewrite (par_task_load file c cur a b g' E raw (winv_done file c w raw W H1 H3)).
    destruct (par_after _ _ _ _ _ _) as [ws f]. econstructor; [apply ps_start|constructor].
  - econstructor; [apply ps_finish|constructor].
Qed.
(** A task that has met a fault, or failed otherwise. *)
Definition bad1 (t : ctask) : Prop :=
  match t with
  | CLoad _ w => w_phase w = Fault
  | CRun _ f | CDone f => is_failure f
  | _ => False
  end.
Lemma tstep_bad fl t t' : tstep fl m inflate r dlen t t' -> bad1 t -> bad1 t'.
Proof.
  intros H. destruct H as [g E|g E|file E|file c cur a b g p E|file g w w' E H Hf|g w H|g w raw H1 H2 H3|f]; cbn [bad1]; try easy.
  - intros Hw. destruct H; cbn [w_phase] in *; try discriminate; auto. 
  - intros Hw. congruence.
Qed.
Lemma tstep_calm t t' : tstep true m inflate r dlen t t' -> ~ bad1 t' ->
  tstep false m inflate r dlen t t' /\ (forall g w, t = CLoad g w -> w_phase w <> Fault).
Proof.
  intros H HB. assert (HB' : ~ bad1 t) by (intros B; apply HB; eapply tstep_bad; eauto).
  split; [|intros g w -> E; now apply HB'].
  destruct H as [g E|g E|file E|file c cur a b g p E|file g w w' E H Hf|g w H|g w raw H1 H2 H3|f]; try (econstructor; eauto; fail).
  exfalso. apply HB. cbn. discriminate.
Qed.
Definition bad (l : list ctask) : Prop := Exists bad1 l.
Lemma cstep_bad fl s t : cstep fl m inflate r dlen s t -> bad (fst s) -> bad (fst t).
Proof.
  unfold bad. intros H. destruct H as [l1 l2 t t' dst H|l1 l2 p b ws f dst|l1 l2 g f dst H1 H2]; cbn [fst]; rewrite !Exists_app; intros [B|B]; auto;
    right; inversion B; subst; auto.
  apply Exists_cons_hd. eapply tstep_bad; eauto.
Qed.
Lemma csteps_bad fl s t : csteps fl m inflate r dlen s t -> bad (fst s) -> bad (fst t).
Proof. induction 1; auto. intros. eauto using cstep_bad. Qed.

Lemma map_mid {A B} (f : A -> B) l1 x l2 : map f (l1 ++ x :: l2) = map f l1 ++ f x :: map f l2.
Proof. now rewrite map_app. Qed.
Lemma cstep_inv fl s t : cstep fl m inflate r dlen s t -> Forall tinv (fst s) -> Forall tinv (fst t).
Proof.
  intros H. destruct H as [l1 l2 t t' dst H|l1 l2 p b ws f dst|l1 l2 g f dst H1 H2]; cbn [fst]; rewrite !Forall_app; intros [I1 I2]; split; auto;
    inversion I2; subst; constructor; cbn [tinv]; auto. eapply tinv_step; eauto.
Qed.
Lemma in_coarse f l : In (CDone f) l -> In (Done f) (map coarse l).
Proof. intros H. change (Done f) with (coarse (CDone f)). now apply in_map. Qed.
Lemma cstep_sim fl s t : cstep fl m inflate r dlen s t -> Forall tinv (fst s) -> fl = false /\ ~ (exists g w, In (CLoad g w) (fst s) /\ w_phase w = Fault) \/ ~ bad (fst t) ->
  psteps (map coarse (fst s), snd s) (map coarse (fst t), snd t).
Proof.
  intros H. destruct H as [l1 l2 t t' dst H|l1 l2 p b ws f dst|l1 l2 g f dst H1 H2]; cbn [fst snd]; intros HI HB; rewrite !map_mid.
  - apply Forall_app in HI as [_ HI]. inversion HI as [|? ? I1 _]; subst. destruct HB as [[-> HB]|HB].
    + apply tstep_sim; auto. intros g w -> E. apply HB. exists g, w. split; auto. apply in_app_iff. right. now left.
    + assert (HB1 : ~ bad1 t') by (intros B; apply HB; apply Exists_app; right; now apply Exists_cons_hd).
      destruct fl.
      * destruct (tstep_calm t t' H HB1) as [T1 T2]. now apply tstep_sim.
      * apply tstep_sim; auto. intros g w -> E. apply HB1. eapply tstep_bad; eauto.
  - cbn [coarse]. econstructor; [apply ps_write|constructor].
  - cbn [coarse]. econstructor; [eapply ps_skip; eauto|constructor]. rewrite <- map_app. now apply in_coarse.
Qed.
Lemma csteps_sim_good s u : csteps true m inflate r dlen s u -> Forall tinv (fst s) -> ~ bad (fst u) ->
  psteps (map coarse (fst s), snd s) (map coarse (fst u), snd u).
Proof.
  induction 1 as [s|s t u H1 H2 IH]; intros HI HB; [constructor|].
  eapply psteps_trans; [|apply IH; auto; eapply cstep_inv; eauto]. eapply cstep_sim; eauto. right.
  intros B. apply HB. eapply csteps_bad; eauto.
Qed.
Lemma calm_step s t : cstep false m inflate r dlen s t -> ~ (exists g w, In (CLoad g w) (fst s) /\ w_phase w = Fault) ->
  ~ (exists g w, In (CLoad g w) (fst t) /\ w_phase w = Fault).
Proof.
  intros H HN (g0 & w0 & Hin & Hw). destruct H as [l1 l2 t t' dst H|l1 l2 p b ws f dst|l1 l2 g f dst H1 H2]; cbn [fst] in *;
    apply in_app_iff in Hin as [Hin|[Hin|Hin]]; try (apply HN; exists g0, w0; split; auto; apply in_app_iff; cbn [In]; tauto);
    try discriminate Hin.
  subst t'. inversion H; subst.
  - cbn [w_phase] in Hw. discriminate.
  - destruct H5; congruence.
Qed.
Lemma csteps_sim_calm s u : csteps false m inflate r dlen s u -> Forall tinv (fst s) ->
  ~ (exists g w, In (CLoad g w) (fst s) /\ w_phase w = Fault) ->
  psteps (map coarse (fst s), snd s) (map coarse (fst u), snd u).
Proof.
  induction 1 as [s|s t u H1 H2 IH]; intros HI HN; [constructor|].
  eapply psteps_trans; [eapply cstep_sim; eauto|]. apply IH; eauto using cstep_inv, calm_step.
Qed.

(** The other way: a task can be run in one go. *)
Lemma csteps_trans fl s t u : csteps fl m inflate r dlen s t -> csteps fl m inflate r dlen t u -> csteps fl m inflate r dlen s u.
Proof. induction 1; auto. intros. econstructor; eauto. Qed.
Inductive tsteps : ctask -> ctask -> Prop :=
| tt_refl t : tsteps t t
| tt_step t t' t'' : tstep false m inflate r dlen t t' -> tsteps t' t'' -> tsteps t t''.
Lemma tsteps_csteps t t' l1 l2 dst : tsteps t t' -> csteps false m inflate r dlen (l1 ++ t :: l2, dst) (l1 ++ t' :: l2, dst).
Proof. induction 1; econstructor; eauto. now apply cs_task. Qed.
Lemma run_task g : low g -> tsteps (CWait g) (CRun (fst (par_task m inflate r dlen g)) (snd (par_task m inflate r dlen g))).
Proof.
  intros HL. destruct (dr_file r) as [file|] eqn:E.
  2:{ unfold par_task. rewrite E. cbn [fst snd]. econstructor; [now apply ts_nofile|constructor]. }
  destruct g as [|[[[c cur] a] b] g].
  { unfold par_task. rewrite E. cbn [fst snd]. econstructor; [now apply (ts_empty _ _ _ _ _ file)|constructor]. }
  cbn [low] in HL. unfold gsegment. econstructor; [now apply (ts_load _ _ _ _ _ file c cur a b g 0)|].
  econstructor; [apply (ts_call _ _ _ _ _ file); [exact E|now apply ws_seek|right; discriminate]|].
  destruct (N.eq_dec (c_size c) 0) as [Z|Z].
  - rewrite Z. econstructor; [apply (ts_call _ _ _ _ _ file); [exact E|apply ws_full|right; discriminate]|].
    rewrite (par_task_load file c cur a b g E []) by (unfold read_exact; now rewrite Z).
    econstructor; [apply ts_loaded; reflexivity|constructor].
  - destruct (N.le_gt_cases (c_addr c + c_size c) (lenN file)) as [L|L].
    + econstructor; [apply (ts_call _ _ _ _ _ file); [exact E|apply (ws_read _ _ _ _ _ _ (c_size c)); [lia|lia|exact L]|right; discriminate]|].
      rewrite N.sub_diag. econstructor; [apply (ts_call _ _ _ _ _ file); [exact E|apply ws_full|right; discriminate]|].
      cbn [app]. rewrite (par_task_load file c cur a b g E (firstn (N.to_nat (c_size c)) (skipn (N.to_nat (c_addr c)) file))).
      * econstructor; [apply ts_loaded; reflexivity|constructor].
      * unfold read_exact. rewrite (proj2 (N.eqb_neq _ _) Z). now rewrite (proj2 (N.leb_le _ _) L).
    + rewrite (par_task_end file c cur a b g E) by lia. cbn [fst snd].
      destruct (N.le_gt_cases (lenN file) (c_addr c)) as [P|P].
      * econstructor; [apply (ts_call _ _ _ _ _ file); [exact E|apply ws_end; [lia|exact P]|right; discriminate]|].
        econstructor; [apply ts_fail; left; reflexivity|constructor].
      * econstructor; [apply (ts_call _ _ _ _ _ file); [exact E|apply (ws_read _ _ _ _ _ _ (lenN file - c_addr c)); lia|right; discriminate]|].
        econstructor; [apply (ts_call _ _ _ _ _ file); [exact E|apply ws_end; lia|right; discriminate]|].
        econstructor; [apply ts_fail; left; reflexivity|constructor].
Qed.
Definition rel (t : tstate) (u : ctask) : Prop := t = coarse u /\ (forall g w, u <> CLoad g w) /\ tinv u.
Lemma pstep_sim s t : pstep s t -> forall l, Forall2 rel (fst s) l ->
  exists l', csteps false m inflate r dlen (l, snd s) (l', snd t) /\ Forall2 rel (fst t) l'.
Proof.
  intros H. destruct H as [l1 l2 ws f dst|l1 l2 p b ws f dst|l1 l2 f dst|l1 l2 tk f dst H1 H2]; cbn [fst snd]; intros l HF;
    apply Forall2_app_inv_l in HF as (k1 & k2' & F1 & F2 & ->); inversion F2 as [|? u ? k2 (R1 & R2 & R3) F3]; subst;
    destruct u as [g|g w|ws' f'|f'|]; try discriminate R1; try (exfalso; now apply (R2 g w)).
  - cbn [coarse] in R1. injection R1 as R1.
    exists (k1 ++ CRun (fst (par_task m inflate r dlen g)) (snd (par_task m inflate r dlen g)) :: k2). split.
    + apply tsteps_csteps. now apply run_task.
    + rewrite <- R1. apply Forall2_app; auto. constructor; auto. repeat split; auto. discriminate.
  - cbn [coarse] in R1. injection R1 as <- <-. exists (k1 ++ CRun ws f :: k2). split.
    + econstructor; [apply cs_write|constructor].
    + apply Forall2_app; auto. constructor; auto. repeat split; auto. discriminate.
  - cbn [coarse] in R1. injection R1 as <- <-. exists (k1 ++ CDone f :: k2). split.
    + econstructor; [apply cs_task; apply ts_finish|constructor].
    + apply Forall2_app; auto. constructor; auto. repeat split; auto. discriminate.
  - exists (k1 ++ CSkip :: k2). split.
    + econstructor; [eapply cs_skip; eauto|constructor].
      assert (FF : Forall2 rel (l1 ++ l2) (k1 ++ k2)) by now apply Forall2_app.
      clear - FF H1. induction FF as [|t u ts us (E & _ & _) _ IH]; [destruct H1|]. destruct H1 as [->|H1]; [|right; auto].
      left. destruct u; cbn [coarse] in E; try discriminate. congruence.
    + apply Forall2_app; auto. constructor; auto. repeat split; auto. discriminate.
Qed.
Lemma psteps_sim s t : psteps s t -> forall l, Forall2 rel (fst s) l ->
  exists l', csteps false m inflate r dlen (l, snd s) (l', snd t) /\ Forall2 rel (fst t) l'.
Proof.
  induction 1 as [s|s t u H1 H2 IH]; intros l HF; [exists l; split; [constructor|auto]|].
  destruct (pstep_sim s t H1 l HF) as (l1 & C1 & F1). destruct (IH l1 F1) as (l2 & C2 & F2). exists l2. split; auto.
  eapply csteps_trans; eauto.
Qed.
Lemma csteps_true s u : csteps false m inflate r dlen s u -> csteps true m inflate r dlen s u.
Proof.
  induction 1 as [s|s t u H1 H2 IH]; [constructor|]. econstructor; [|exact IH]. clear H2 IH.
  destruct H1 as [l1 l2 t t' dst H|l1 l2 p b ws f dst|l1 l2 g f dst H1 H2]; [|apply cs_write|eapply cs_skip; eauto].
  apply cs_task. destruct H; try (econstructor; eauto; fail).
Qed.

(** Steps left. *)
Definition copies (g : list gsegment) : N := lenN (fst (par_task m inflate r dlen g)).
Definition cwork (t : ctask) : N :=
  match t with
  | CWait g => match g with (c, _, _, _) :: _ => c_size c | [] => 0 end + 6 + copies g
  | CLoad g w => work w + 3 + copies g
  | CRun ws _ => 1 + lenN ws
  | _ => 0
  end.
Lemma tstep_work fl t t' : tstep fl m inflate r dlen t t' -> tinv t -> t = t' \/ cwork t' < cwork t.
Proof.
  intros H. destruct H as [g E|g E|file E|file c cur a b g p E|file g w w' E H Hf|g w H|g w raw H1 H2 H3|f]; cbn [cwork tinv]; intros HI;
    try (right; unfold lenN; cbn [length]; lia).
  - right. unfold work. cbn [w_phase w_todo map sumN snd]. generalize (copies ((c, cur, a, b) :: g)). intros. lia.
  - destruct HI as (_ & file' & c & cur & a & b & g' & E' & _ & W). rewrite E in E'. injection E' as <-.
    destruct (wstep_work file _ w w' W H) as [->|L]; [now left|right]. lia.
  - right. destruct HI as (_ & file & c & cur & a & b & g' & E & -> & W).
    rewrite <- (par_task_load file c cur a b g' E raw (winv_done file c w raw W H1 H3)). fold (copies ((c, cur, a, b) :: g')).
    change (list (N * N)) with (list (N * N)). unfold copies. lia.
Qed.
Lemma cstep_work fl s t : cstep fl m inflate r dlen s t -> Forall tinv (fst s) -> s = t \/ sumN (map cwork (fst t)) < sumN (map cwork (fst s)).
Proof.
  intros H. destruct H as [l1 l2 t t' dst H|l1 l2 p b ws f dst|l1 l2 g f dst H1 H2]; cbn [fst]; intros HI;
    rewrite !map_app, !sumN_app; cbn [map sumN].
  - apply Forall_app in HI as [_ HI]. inversion HI as [|? ? I1 _]; subst. destruct (tstep_work fl t t' H I1) as [->|L]; [now left|right; lia].
  - right. cbn [cwork]. unfold lenN. cbn [length]. lia.
  - right. cbn [cwork]. lia.
Qed.
Lemma steps_work fl n s t : steps_of fl m inflate r dlen n s t -> Forall tinv (fst s) ->
  N.of_nat n + sumN (map cwork (fst t)) <= sumN (map cwork (fst s)).
Proof.
  induction 1 as [s|n s t H1 H2 IH|n s t u H1 D H2 IH]; intros HI; [cbn; lia|auto|].
  specialize (IH (cstep_inv _ _ _ H1 HI)). destruct (cstep_work fl s t H1 HI) as [->|L]; [now contradiction D|].
  generalize dependent (sumN (map cwork (fst u))). intros. lia.
Qed.
Lemma tstep_progress t : tinv t -> ended t = None -> (exists p b ws f, t = CRun ((p, b) :: ws) f) \/
  exists t', tstep false m inflate r dlen t t' /\ t' <> t.
Proof.
  destruct t as [g|g w|ws f|f|]; cbn [tinv ended]; intros HI HE; try discriminate.
  - right. destruct (dr_file r) as [file|] eqn:E.
    + destruct g as [|[[[c cur] a] b] g].
      * eexists. split; [now apply (ts_empty _ _ _ _ _ file)|discriminate].
      * eexists. split; [now apply (ts_load _ _ _ _ _ file c cur a b g 0)|discriminate].
    + eexists. split; [now apply ts_nofile|discriminate].
  - right. destruct HI as (_ & file & c & cur & a & b & g' & E & -> & W). pose proof W as (did & Ed & G & P).
    assert (X : (exists raw, w_todo w = [] /\ w_phase w = Idle /\ w_got w = [raw]) \/
                (w_phase w = AtEnd \/ w_phase w = Refused \/ w_phase w = Fault) \/
                exists w', wstep file w w' /\ w' <> w /\ w_phase w' <> Fault).
    { destruct w as [todo pos ph got]. cbn [w_todo w_pos w_phase w_got] in *. destruct ph as [|want acc| | |]; auto 6.
      - destruct todo as [|[a0 n0] todo].
        + left. rewrite app_nil_r in Ed. subst did. inversion G as [|? raw ? ? _ G1]; subst. inversion G1; subst. eauto.
        + right. right. destruct (N.lt_ge_cases a0 (2 ^ 63)) as [Ha|Ha].
          * eexists. split; [now apply ws_seek|]. split; discriminate.
          * eexists. split; [now apply ws_refused|]. split; discriminate.
      - right. right. destruct P as (a0 & n0 & todo' & -> & _). destruct (N.eq_dec want 0) as [->|Hw].
        + eexists. split; [apply ws_full|]. split; discriminate.
        + destruct (N.lt_ge_cases pos (lenN file)) as [Hp|Hp].
          * eexists. split; [apply (ws_read _ _ _ _ _ _ 1); lia|]. split; [|discriminate]. intros E1. injection E1. intros. lia.
          * eexists. split; [apply ws_end; [lia|auto]|]. split; discriminate. }
    destruct X as [(raw & X1 & X2 & X3)|[X|(w' & X1 & X2 & X3)]].
    + eexists. split; [eapply ts_loaded; eauto|discriminate].
    + eexists. split; [now apply ts_fail|discriminate].
    + eexists. split; [eapply ts_call; eauto|]. congruence.
  - destruct ws as [|[p b] ws]; [right|left; eauto]. eexists. split; [apply ts_finish|discriminate].
Qed.
Lemma csteps_inv fl s t : csteps fl m inflate r dlen s t -> Forall tinv (fst s) -> Forall tinv (fst t).
Proof. induction 1; auto. intros. eauto using cstep_inv. Qed.
End Sim.

Lemma groups_low m sort fuel ds e G : addr_sort sort -> group_chunk_slices sort m fuel ds e = Ok G ->
  (forall c, In c (d_chunks ds) -> c_addr c < 2 ^ 63) -> Forall low (chunk_by_addr G).
Proof.
  intros HS E HA. pose proof (group_chunks m sort fuel ds e G HS E) as HF. rewrite <- (chunk_by_concat G) in HF.
  revert HF. generalize (chunk_by_addr G). intros L. induction L as [|g L IH]; intros HF; constructor; cbn [concat] in HF; apply Forall_app in HF as [F1 F2]; auto.
  destruct g as [|[[[c cur] a] b] g]; cbn [low]; auto. inversion F1 as [|? ? H _]; subst. apply HA. exact H.
Qed.
Lemma ended_coarse m inflate r dlen final ends : map ended final = map Some ends ->
  map (coarse m inflate r dlen) final = ends /\ Forall finished ends /\ (forall f, In (CDone f) final <-> In (Done f) ends).
Proof.
  revert ends. induction final as [|t final IH]; intros [|e ends] H; cbn [map] in *; try discriminate.
  - repeat split; auto.
  - injection H as H1 H2. destruct (IH ends H2) as (I1 & I2 & I3). rewrite I1.
    destruct t; cbn [ended coarse] in *; try discriminate; injection H1 as <-; (split; [reflexivity|]); (split; [constructor; cbn; auto|]);
      intros f'; cbn [In]; rewrite I3; (split; (intros [H|H]; [|auto])); try discriminate H; left; congruence.
Qed.

(** ** The theorems *)

(** If no call fails for a reason of the operating system, the outcomes of a parallel read at the level of system calls -
    short reads, interruptions, any interleaving of the calls and of the copying of bytes - are exactly those of the
    model in which a chunk is loaded at once, for which the other theorems are proved. *)
Theorem C90_same m inflate sort fuel r e dst x d : addr_sort sort -> seekable r ->
  (sys_read false m inflate sort fuel r e dst x d <-> par_read m inflate sort fuel r e dst x d).
Proof.
  intros HS HK. split.
  - intros H. destruct H as [x H1 H2|v x H1 H2 H3|v groups final ends dst' x H1 H2 H3 H4 H5].
    + now apply pa_size. + now apply (pa_group _ _ _ _ _ _ _ v).
    + destruct (ended_coarse m inflate r (lenN dst) final ends H4) as (E1 & E2 & _). apply (pa_run _ _ _ _ _ _ _ v groups ends); auto.
      pose proof (csteps_sim_calm m inflate r (lenN dst) _ _ H3) as S. cbn [fst snd] in S. rewrite E1, map_map in S. apply S.
      * pose proof (groups_low m sort fuel _ e groups HS H2 HK) as L. apply Forall_map. exact L.
      * intros (g & w & Hin & _). apply in_map_iff in Hin as (? & ? & _). discriminate.
  - intros H. destruct H as [x H1 H2|v x H1 H2 H3|v groups final dst' x H1 H2 H3 H4 H5].
    + now apply sy_size. + now apply (sy_group _ _ _ _ _ _ _ _ v).
    + destruct (psteps_sim m inflate r (lenN dst) _ _ H3 (map CWait (chunk_by_addr groups))) as (l' & C & F).
      { cbn [fst]. pose proof (groups_low m sort fuel _ e groups HS H2 HK) as L. revert L. generalize (chunk_by_addr groups).
        intros gs L. induction L as [|g gs Hg _ IH]; cbn [map]; constructor; auto. repeat split; auto. discriminate. }
      cbn [fst snd] in C, F. apply (sy_run _ _ _ _ _ _ _ _ v groups l' final); auto.
      clear - F H4. induction F as [|t u ts us (E & _ & _) F IH]; [reflexivity|]. inversion H4; subst. cbn [map]. f_equal; auto.
      destruct u; cbn [coarse finished ended] in *; try contradiction; reflexivity.
Qed.
Print Assumptions C90_same.

(** If calls may fail: a read that succeeds met no failure, and is one of those. *)
Theorem C90_faults m inflate sort fuel r e dst v d : addr_sort sort -> seekable r ->
  sys_read true m inflate sort fuel r e dst (Ok v) d -> par_read m inflate sort fuel r e dst (Ok v) d.
Proof.
  intros HS HK H. inversion H as [x H1 H2 E1 E2|v0 x H1 H2 H3 E1 E2|v0 groups final ends dst' x H1 H2 H3 H4 H5 E1 E2].
  - exfalso. exact (H2 _ eq_refl).
  - exfalso. destruct x; cbn in E1; discriminate.
  - subst dst'. destruct x as [[]| | | |]; try discriminate E1. cbn [bind] in E1. apply SerdeProofs.ok_inj in E1. subst v0.
    destruct (ended_coarse m inflate r (lenN dst) final ends H4) as (C1 & C2 & C3). change (Ok v) with (let* _ := Ok tt in Ok v).
    apply (pa_run _ _ _ _ _ _ _ v groups ends d (Ok tt)); auto.
    pose proof (csteps_sim_good m inflate r (lenN dst) _ _ H3) as S. cbn [fst snd] in S. rewrite C1, map_map in S. apply S.
    + pose proof (groups_low m sort fuel _ e groups HS H2 HK) as L. apply Forall_map. exact L.
    + unfold bad. rewrite Exists_exists. intros (t & Hin & B). inversion H5 as [| | |Hall]; subst.
      assert (Ht : ended t <> None).
      { apply (in_map ended) in Hin. rewrite H4 in Hin. apply in_map_iff in Hin as (y & <- & _). discriminate. }
      destruct t as [| | |f|]; cbn [ended bad1] in *; try congruence; try contradiction.
      apply C3 in Hin. apply Hall in Hin. now apply B.
Qed.
Print Assumptions C90_faults.

(** Either way a run has only so many steps that are not interrupted calls, counting what is to be loaded and copied. *)
Theorem C90_ends fl m inflate sort fuel r e dst groups : addr_sort sort -> seekable r ->
  group_chunk_slices sort m fuel (dr_ds r) e = Ok groups -> exists most, forall n s,
  steps_of fl m inflate r (lenN dst) n (map CWait (chunk_by_addr groups), dst) s -> (n <= most)%nat.
Proof.
  intros HS HK E. exists (N.to_nat (sumN (map (cwork m inflate r (lenN dst)) (map CWait (chunk_by_addr groups))))). intros n s H.
  apply steps_work in H.
  - cbn [fst] in H. generalize dependent (sumN (map (cwork m inflate r (lenN dst)) (fst s))). intros. lia.
  - cbn [fst]. apply Forall_map. exact (groups_low m sort fuel _ e groups HS E HK).
Qed.
Print Assumptions C90_ends.

(** And until all tasks have ended each that has not can go on, without waiting for another and without a failing call. *)
Theorem C90_progress fl m inflate sort fuel r e dst groups l1 t l2 d : addr_sort sort -> seekable r ->
  group_chunk_slices sort m fuel (dr_ds r) e = Ok groups ->
  csteps fl m inflate r (lenN dst) (map CWait (chunk_by_addr groups), dst) (l1 ++ t :: l2, d) -> ended t = None ->
  exists t' d', cstep false m inflate r (lenN dst) (l1 ++ t :: l2, d) (l1 ++ t' :: l2, d') /\ t' <> t.
Proof.
  intros HS HK E H HE. apply csteps_inv in H; [|cbn [fst]; apply Forall_map; exact (groups_low m sort fuel _ e groups HS E HK)].
  cbn [fst] in H. apply Forall_app in H as [_ H]. inversion H as [|? ? HI _]; subst.
  destruct (tstep_progress m inflate r (lenN dst) t HI HE) as [(p & b & ws & f & ->)|(t' & H1 & H2)].
  - eexists. eexists. split; [apply cs_write|]. intros X. injection X as X. assert (L : length ws = length ((p, b) :: ws)) by now rewrite <- X.
    cbn in L. lia.
  - exists t', d. split; [now apply cs_task|auto].
Qed.
Print Assumptions C90_progress.

(** So the parallel read of an open file, whatever calls are short, interrupted or fail and however they are interleaved,
    gives what the sequential one gives, if it succeeds; and it succeeds if that does and no call fails. *)
Theorem C90_right fl m inflate sort fuel ds file rd e dst : addr_sort sort -> same_addr ds -> 0 < d_dsize ds -> lenN dst < W64 ->
  direct_new m ds (Some file) = Ok rd -> seekable rd ->
  (forall v d, sys_read fl m inflate sort fuel rd e dst (Ok v) d -> direct_read m inflate sort fuel rd e dst = (Ok v, d)) /\
  (forall v d, direct_read m inflate sort fuel rd e dst = (Ok v, d) ->
     (exists x d', sys_read false m inflate sort fuel rd e dst x d') /\
     forall x d', sys_read false m inflate sort fuel rd e dst x d' -> x = Ok v /\ d' = d).
Proof.
  intros HS HA Hd HW HD HK. destruct (C25_schedules m inflate sort fuel ds file rd e dst HS HA Hd HW HD) as (X & _ & S1 & S2). split.
  - intros v d H. apply S1. destruct fl; [now apply C90_faults|]. now apply C90_same.
  - intros v d H. split.
    + destruct X as (x & d' & X). exists x, d'. now apply C90_same.
    + intros x d' H'. apply C90_same in H'; [|assumption|assumption]. eapply S2; eauto.
Qed.
Print Assumptions C90_right.

(** The example dataset: four chunks to load, six segments; the hypotheses hold, the outcome is there, and with failing
    calls there is another. *)
Example C90_case m : let rd := mkDirect st_ds (Some st_file) 12 in addr_sort sort_by_addr /\ same_addr st_ds /\ 0 < d_dsize st_ds /\
  direct_new m st_ds (Some st_file) = Ok rd /\ seekable rd /\
  (exists d, sys_read false m toy_inflate sort_by_addr 13 rd st_sel (repeat 9 24) (Ok 24) d) /\
  sys_read true m toy_inflate sort_by_addr 13 rd st_sel (repeat 9 24) (Err EOpen) (repeat 9 24).
Proof.
  intros rd. destruct (C24_case m) as (H1 & H2 & H3 & rd' & H4 & H5).
  assert (E4 : direct_new m st_ds (Some st_file) = Ok rd) by (destruct m; vm_compute; reflexivity).
  rewrite E4 in H4. injection H4 as <-.
  assert (HK : seekable rd).
  { unfold seekable. cbn [dr_ds rd]. intros c H. assert (F : forallb (fun c => c_addr c <? 2 ^ 63) (d_chunks st_ds) = true) by (vm_compute; reflexivity).
    rewrite forallb_forall in F. apply N.ltb_lt. now apply F. }
  repeat (split; [assumption|]). split.
  - destruct (direct_read m toy_inflate sort_by_addr 13 rd st_sel (repeat 9 24)) as [x d] eqn:E. cbn [fst] in H5. subst x.
    destruct (C90_right false m toy_inflate sort_by_addr 13 st_ds st_file rd st_sel (repeat 9 24) H1 H2 H3 ltac:(reflexivity) E4 HK) as [_ R].
    destruct (R _ _ E) as ((x & d' & S) & U). destruct (U _ _ S) as [-> ->]. eauto.
  - assert (G : exists groups, group_chunk_slices sort_by_addr m 13 st_ds st_sel = Ok groups /\ length (chunk_by_addr groups) = 4%nat).
    { assert (X : exists groups, group_chunk_slices sort_by_addr m 13 st_ds st_sel = Ok groups) by (destruct m; vm_compute; eauto).
      destruct X as (groups & X). exists groups. split; [exact X|]. destruct m; vm_compute in X; injection X as <-; reflexivity. }
    destruct G as (groups & G & GL).
    assert (RS : read_size m st_ds st_sel (repeat 9 24) = Ok 24) by (destruct m; vm_compute; reflexivity).
    destruct (chunk_by_addr groups) as [|g1 [|g2 [|g3 [|g4 [|g5 gs]]]]] eqn:EG; try discriminate GL.
    change (Err EOpen) with (let* _ := (Err EOpen : res unit) in Ok 24).
    apply (sy_run true m toy_inflate sort_by_addr 13 rd st_sel (repeat 9 24) 24 groups
             [CDone (FErr EOpen); CSkip; CSkip; CSkip] [Done (FErr EOpen); Skipped; Skipped; Skipped]); auto.
    + rewrite EG. cbn [map].
      econstructor; [apply (cs_task _ _ _ _ _ []); now apply ts_nofd|]. cbn [app].
      econstructor; [apply (cs_task _ _ _ _ _ []); apply ts_finish|]. cbn [app].
      assert (F : is_failure (FErr EOpen)) by discriminate.
      econstructor; [apply (cs_skip _ _ _ _ _ [CDone (FErr EOpen)] _ _ (FErr EOpen)); [now left|exact F]|]. cbn [app].
      econstructor; [apply (cs_skip _ _ _ _ _ [CDone (FErr EOpen); CSkip] _ _ (FErr EOpen)); [now left|exact F]|]. cbn [app].
      econstructor; [apply (cs_skip _ _ _ _ _ [CDone (FErr EOpen); CSkip; CSkip] _ _ (FErr EOpen)); [now left|exact F]|].
      constructor.
    + apply pr_err; [intros [H|[H|[H|[H|[]]]]]; discriminate|intros [H|[H|[H|[H|[]]]]]; discriminate|now left].
Qed.
