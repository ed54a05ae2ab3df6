(** * C89: system calls: short reads, interruptions, positions. *)
From Coq Require Import List NArith Lia Bool Relations.
From Verif Require Import Base Spec Filters Syscalls.
Import ListNotations.
Open Scope N_scope.

(** ** Specification *)

(** [b] is the [n] bytes at address [a] of the file. *)
Definition bytes_at (file : bytes) (a n : N) (b : bytes) : Prop :=
  exists before behind, file = before ++ b ++ behind /\ lenN before = a /\ lenN b = n.

(** A worker that has done all it had to, or has stopped with a failure. *)
Definition over (w : worker) : Prop :=
  w_phase w = Idle /\ w_todo w = [] \/ w_phase w = AtEnd \/ w_phase w = Refused \/ w_phase w = Fault.
(** A run, and the number of calls in it that were not interrupted. *)
Inductive calls (file : bytes) : nat -> list worker -> list worker -> Prop :=
| ca_none l : calls file 0 l l
| ca_again n l l' : sstep file l l -> calls file n l l' -> calls file n l l'
| ca_call n l1 l2 l3 : sstep file l1 l2 -> l1 <> l2 -> calls file n l2 l3 -> calls file (S n) l1 l3.
(** A seek, a read for each byte and a return, for every chunk of every worker. *)
Definition most (ws : list worker) : N := sumN (map (fun w => sumN (map (fun j => snd j + 2) (w_todo w))) ws).

(** ** Proof *)

Lemma slice_at file p k : p + k <= lenN file -> bytes_at file p k (firstn (N.to_nat k) (skipn (N.to_nat p) file)).
Proof.
  unfold lenN. intros H. exists (firstn (N.to_nat p) file), (skipn (N.to_nat k) (skipn (N.to_nat p) file)).
  split; [now rewrite firstn_skipn, firstn_skipn|]. unfold lenN. rewrite !firstn_length, skipn_length. lia.
Qed.
Lemma app_same {A} (a a' b b' : list A) : length a = length a' -> a ++ b = a' ++ b' -> a = a' /\ b = b'.
Proof.
  revert a'. induction a as [|x a IH]; intros [|y a'] HL H; cbn in *; try discriminate; auto.
  injection H as <- H. destruct (IH a') as [-> ->]; auto.
Qed.
Lemma bytes_at_fun file a n b c : bytes_at file a n b -> bytes_at file a n c -> b = c.
Proof.
  unfold bytes_at, lenN. intros (x & y & E & H1 & H2) (x' & y' & E' & H1' & H2'). rewrite E in E'.
  apply app_same in E' as [_ E']; [|lia]. apply app_same in E' as [-> _]; auto. lia.
Qed.
Lemma bytes_at_join file a n k b c : bytes_at file a n b -> bytes_at file (a + n) k c -> bytes_at file a (n + k) (b ++ c).
Proof.
  unfold bytes_at, lenN. intros (x & y & E & H1 & H2) (x' & y' & E' & H1' & H2'). exists x, y'. rewrite app_length.
  split; [|lia]. rewrite E, app_assoc in E'. apply app_same in E' as [<- ->]; [|rewrite app_length; lia].
  rewrite E. rewrite <- app_assoc. reflexivity.
Qed.
Lemma bytes_at_len file a n b : bytes_at file a n b -> a + n <= lenN file /\ lenN b = n.
Proof. unfold bytes_at, lenN. intros (x & y & -> & H1 & H2). rewrite !app_length. lia. Qed.

(** What holds of a worker that began with [js]. *)
Definition winv (file : bytes) (js : list (N * N)) (w : worker) : Prop :=
  exists did, js = did ++ w_todo w /\
    Forall2 (fun j b => bytes_at file (fst j) (snd j) b \/ snd j = 0 /\ b = []) did (w_got w) /\
    match w_phase w with
    | Idle | Fault => True
    | Reading want acc => exists a n js', w_todo w = (a, n) :: js' /\ w_pos w = a + lenN acc /\ lenN acc + want = n /\
        (bytes_at file a (lenN acc) acc \/ acc = [])
    | AtEnd => exists a n js', w_todo w = (a, n) :: js' /\ 0 < n /\ lenN file < a + n
    | Refused => exists a n js', w_todo w = (a, n) :: js' /\ 2 ^ 63 <= a
    end.
Lemma winv_step file js w w' : wstep file w w' -> winv file js w -> winv file js w'.
Proof.
  intros H (did & E & HF & HP).
  destruct H as [a n js' p got Ha|a n js' p got Ha|js' p want acc got k H1 H2 H3|js' p want acc got H1|js' p want acc got H1 H2|j js' p acc got|js' p ph got H1];
    cbn [w_todo w_pos w_phase w_got] in *.
  - exists did. repeat split; auto. cbn [w_phase w_todo w_pos]. exists a, n, js'. unfold lenN. cbn [length]. repeat split; auto; lia.
  - exists did. repeat split; auto. cbn [w_phase w_todo w_pos]. eauto.
  - exists did. repeat split; auto. cbn [w_phase w_todo w_pos]. destruct HP as (a & n & js2 & E2 & Ep & En & Hb).
    exists a, n, js2. pose proof (slice_at file p k H3) as S. pose proof (bytes_at_len _ _ _ _ S) as [_ SL].
    unfold lenN in *. rewrite app_length. repeat split; auto; try lia. left.
    replace (N.of_nat (length acc + length (firstn (N.to_nat k) (skipn (N.to_nat p) file)))) with (N.of_nat (length acc) + k) by lia.
    destruct Hb as [Hb| ->].
    + apply bytes_at_join; auto. now rewrite <- Ep.
    + cbn [length app] in *. replace a with p by lia. exact S.
  - exists did. repeat split; auto.
  - exists did. repeat split; auto. cbn [w_phase w_todo w_pos]. destruct HP as (a & n & js2 & E2 & Ep & En & Hb).
    exists a, n, js2. repeat split; auto; lia.
  - destruct HP as (a & n & js2 & E2 & Ep & En & Hb). injection E2 as -> ->. exists (did ++ [(a, n)]). cbn [w_todo w_got w_phase].
    rewrite <- app_assoc. repeat split; auto. apply Forall2_app; auto. constructor; [|constructor]. cbn [fst snd].
    replace n with (lenN acc) by lia. destruct Hb as [Hb| ->]; auto.
  - exists did. repeat split; auto.
Qed.
Lemma winv_fresh file w : fresh w -> winv file (w_todo w) w.
Proof. intros [H1 H2]. exists []. rewrite H1, H2. repeat split; auto. Qed.

Lemma sstep_inv file js l l' : sstep file l l' -> Forall2 (winv file) js l -> Forall2 (winv file) js l'.
Proof.
  intros [l0 w w' r Hw] HF. apply Forall2_app_inv_r in HF as (j1 & j2 & F1 & F2 & ->). inversion F2 as [|j w0 j2' r0 W1 W2]; subst.
  apply Forall2_app; auto. constructor; auto. eapply winv_step; eauto.
Qed.
Lemma ssteps_inv file js l l' : ssteps file l l' -> Forall2 (winv file) js l -> Forall2 (winv file) js l'.
Proof. induction 1; auto. intros. eauto using sstep_inv. Qed.

Lemma fresh_inv file ws : Forall fresh ws -> Forall2 (winv file) (map w_todo ws) ws.
Proof. induction 1; cbn [map]; constructor; auto using winv_fresh. Qed.

(** ** The theorems *)

(** Any number of workers with a descriptor each, whatever system calls are short or interrupted
    and in whatever order they happen: each worker has loaded the first chunks of its list, and
    each with the bytes at its address; it stops early only for a chunk that is not inside the
    file, for an address no file has, or for a failure of the operating system. *)
Theorem C89_bytes file ws ws' : ssteps file ws ws' -> Forall fresh ws ->
  Forall2 (fun w w' => exists did, w_todo w = did ++ w_todo w' /\
    Forall2 (fun j b => bytes_at file (fst j) (snd j) b \/ snd j = 0 /\ b = []) did (w_got w') /\
    (w_phase w' = AtEnd -> exists a n js, w_todo w' = (a, n) :: js /\ 0 < n /\ lenN file < a + n) /\
    (w_phase w' = Refused -> exists a n js, w_todo w' = (a, n) :: js /\ 2 ^ 63 <= a)) ws ws'.
Proof.
  intros H HF. assert (H0 : Forall2 (winv file) (map w_todo ws) ws) by now apply fresh_inv.
  apply (ssteps_inv _ _ _ _ H) in H0. clear H HF. revert ws' H0. induction ws as [|w ws IH]; intros ws' H; inversion H as [|? w' ? ws2 W1 W2]; subst; constructor; auto.
  destruct W1 as (did & E & G & P). exists did. repeat split; auto; intros EP; rewrite EP in P; auto.
Qed.
Print Assumptions C89_bytes.

(** What a worker that is done has loaded is what the model of the readers takes a load to be. *)
Theorem C89_loads file ws ws' : ssteps file ws ws' -> Forall fresh ws ->
  Forall2 (fun w w' => w_todo w' = [] -> Forall2 (fun j b => read_exact file (fst j) (snd j) = Ok b) (w_todo w) (w_got w')) ws ws'.
Proof.
  intros H HF. pose proof (C89_bytes file ws ws' H HF) as B. revert B. clear H HF. intros B.
  induction B as [|w w' ws ws' (did & E & G & _) _ IH]; constructor; auto. intros Et. rewrite Et, app_nil_r in E. rewrite E. clear - G.
  induction G as [|[a n] b did bs Hj G IH]; constructor; auto. cbn [fst snd] in *. unfold read_exact.
  destruct Hj as [Hj|[-> ->]]; [|reflexivity]. destruct (bytes_at_len _ _ _ _ Hj) as [L1 L2].
  destruct (N.eqb_spec n 0) as [->|Hn]; [destruct b; [reflexivity|discriminate]|].
  rewrite (proj2 (N.leb_le _ _) L1). f_equal. eapply bytes_at_fun; eauto using slice_at.
Qed.
Print Assumptions C89_loads.

(** Conversely a worker stops at the end of the file only if the model's load fails, and if it is neither done nor
    stopped it has a call to make that is not interrupted: the number of those is bounded. *)
Definition work (w : worker) : N :=
  match w_phase w with
  | Idle => sumN (map (fun j => snd j + 2) (w_todo w))
  | Reading want _ => want + 1 + sumN (map (fun j => snd j + 2) (tl (w_todo w)))
  | _ => 0
  end.
Lemma wstep_work file js w w' : winv file js w -> wstep file w w' -> w = w' \/ work w' < work w.
Proof.
  intros (did & _ & _ & HP) H.
  destruct H as [a n js' p got Ha|a n js' p got Ha|js' p want acc got k H1 H2 H3|js' p want acc got H1|js' p want acc got H1 H2|j js' p acc got|js' p ph got H1];
    unfold work; cbn [w_todo w_pos w_phase w_got tl map sumN fst snd] in *; auto; right; try lia.
  destruct H1 as [[-> H1]|(want & acc & -> & H1)]; [|lia]. destruct js' as [|[a n] js']; [contradiction|]. cbn [map sumN snd]. lia.
Qed.
Lemma calls_ssteps file n l l' : calls file n l l' -> ssteps file l l'.
Proof. induction 1; [constructor|auto|]. econstructor; eauto. Qed.

Lemma calls_work file js n l l' : calls file n l l' -> Forall2 (winv file) js l ->
  N.of_nat n + sumN (map work l') <= sumN (map work l).
Proof.
  induction 1 as [l|n l l' S H IH|n l1 l2 l3 S D H IH]; intros HF; [cbn; lia|auto|].
  specialize (IH (sstep_inv _ _ _ _ S HF)). destruct S as [l0 w w' r Hw].
  apply Forall2_app_inv_r in HF as (j1 & j2 & _ & F2 & ->). inversion F2 as [|j w0 j2' r0 W1 W2]; subst.
  destruct (wstep_work file j w w' W1 Hw) as [->|L]; [now contradiction D|].
  rewrite map_app, sumN_app in *. cbn [map sumN] in *. lia.
Qed.
Lemma fresh_work ws : Forall fresh ws -> sumN (map work ws) = most ws.
Proof.
  unfold most. induction 1 as [|w ws [H1 _] _ IH]; [reflexivity|]. cbn [map sumN]. rewrite IH. unfold work. now rewrite H1.
Qed.

(** The calls of a run that are not interrupted are at most a seek, a read per byte and a return for every chunk ... *)
Theorem C89_calls file n ws ws' : calls file n ws ws' -> Forall fresh ws -> N.of_nat n <= most ws.
Proof.
  intros H HF. pose proof (calls_work file _ n ws ws' H (fresh_inv file ws HF)) as W. rewrite (fresh_work ws HF) in W.
  generalize dependent (sumN (map work ws')). intros; lia.
Qed.
Print Assumptions C89_calls.

(** ... and until all workers are over each that is not has one to make, even if the operating system never fails. *)
Theorem C89_progress file ws ws' w : ssteps file ws ws' -> Forall fresh ws -> In w ws' -> ~ over w ->
  exists w', wstep file w w' /\ w' <> w /\ w_phase w' <> Fault.
Proof.
  intros H HF Hin HO. pose proof (ssteps_inv _ _ _ _ H (fresh_inv file ws HF)) as HI.
  assert (I : exists js, winv file js w).
  { clear - HI Hin. induction HI as [|js v jss vs Hv _ IH]; [destruct Hin|]. destruct Hin as [<-|Hin]; eauto. }
  destruct I as (js & did & _ & _ & HP). destruct w as [todo pos ph got]. unfold over in HO. cbn [w_todo w_pos w_phase w_got] in *.
  destruct ph as [|want acc| | |]; try (exfalso; apply HO; tauto).
  - destruct todo as [|[a n] todo]; [exfalso; apply HO; tauto|]. destruct (N.lt_ge_cases a (2 ^ 63)) as [Ha|Ha].
    + eexists. split; [now apply ws_seek|]. split; discriminate.
    + eexists. split; [now apply ws_refused|]. split; discriminate.
  - destruct HP as (a & n & todo' & -> & _). destruct (N.eq_dec want 0) as [->|Hw].
    + eexists. split; [apply ws_full|]. split; discriminate.
    + destruct (N.lt_ge_cases pos (lenN file)) as [Hp|Hp].
      * eexists. split; [apply (ws_read _ _ _ _ _ _ 1); lia|]. split; [|discriminate]. intros E. injection E. intros. lia.
      * eexists. split; [apply ws_end; [lia|auto]|]. split; discriminate.
Qed.
Print Assumptions C89_progress.

(** Together: when all workers are over and none met a fault, those whose chunks the model can load have loaded them. *)
Theorem C89_success file ws ws' : ssteps file ws ws' -> Forall fresh ws -> Forall over ws' ->
  Forall2 (fun w w' => w_phase w' <> Fault -> Forall (fun j => fst j < 2 ^ 63) (w_todo w) ->
    (forall j, In j (w_todo w) -> exists b, read_exact file (fst j) (snd j) = Ok b) ->
    Forall2 (fun j b => read_exact file (fst j) (snd j) = Ok b) (w_todo w) (w_got w')) ws ws'.
Proof.
  intros H HF HO. pose proof (C89_bytes file ws ws' H HF) as B. pose proof (C89_loads file ws ws' H HF) as L. clear H HF.
  revert HO L. induction B as [|w w' ws ws' (did & E & G & P1 & P2) B IH]; intros HO L; constructor.
  - inversion HO as [|? ? O1 O2]; subst. inversion L as [|? ? ? ? L1 L2]; subst. intros HFt HA HR. apply L1.
    destruct O1 as [[_ O1]|[O1|[O1|O1]]]; auto; [| |contradiction].
    + destruct (P1 O1) as (a & n & js & Et & Hn & Hl). exfalso. destruct (HR (a, n)) as (b & Hb).
      { rewrite E, Et. apply in_app_iff. right. now left. }
      unfold read_exact in Hb. cbn [fst snd] in Hb. rewrite (proj2 (N.eqb_neq n 0)) in Hb by lia.
      rewrite (proj2 (N.leb_gt _ _) Hl) in Hb. discriminate.
    + destruct (P2 O1) as (a & n & js & Et & Hn). exfalso. rewrite E, Et in HA. apply Forall_app in HA as [_ HA].
      inversion HA as [|? ? A1 _]; subst. cbn [fst] in A1. lia.
  - apply IH; [now inversion HO|now inversion L].
Qed.
Print Assumptions C89_success.

(** Two workers in a file of six bytes, reading at once: the first its two chunks, in reads of two bytes and of one, one
    of them interrupted, the second a chunk that reaches past the end. *)
Definition six : bytes := [10; 11; 12; 13; 14; 15].
Definition two_workers : list worker := [mkWorker [(3, 3); (0, 2)] 0 Idle []; mkWorker [(4, 4)] 5 Idle []].
Example C89_case : Forall fresh two_workers /\
  ssteps six two_workers [mkWorker [] 2 Idle [[13; 14; 15]; [10; 11]]; mkWorker [(4, 4)] 6 AtEnd []] /\
  most two_workers = 15.
Proof.
  split; [|split; [|reflexivity]].
  - repeat constructor.
  - assert (A : forall w w' v l, wstep six w w' -> ssteps six [w'; v] l -> ssteps six [w; v] l).
    { intros. econstructor; [apply (ss_one six [] w w' [v]); auto|auto]. }
    assert (B : forall w v v' l, wstep six v v' -> ssteps six [w; v'] l -> ssteps six [w; v] l).
    { intros. econstructor; [apply (ss_one six [w] v v' []); auto|auto]. }
    unfold two_workers.
    eapply A; [apply ws_seek; reflexivity|]. eapply B; [apply ws_seek; reflexivity|].
    eapply A; [apply (ws_read _ _ _ _ _ _ 2); [reflexivity|discriminate|discriminate]|].
    eapply B; [apply (ws_read _ _ _ _ _ _ 2); [reflexivity|discriminate|discriminate]|].
    eapply A; [apply ws_again; reflexivity|].
    eapply A; [apply (ws_read _ _ _ _ _ _ 1); [reflexivity|discriminate|discriminate]|].
    eapply A; [apply ws_full|]. eapply B; [apply ws_end; [reflexivity|discriminate]|].
    eapply A; [apply ws_seek; reflexivity|].
    eapply A; [apply (ws_read _ _ _ _ _ _ 2); [reflexivity|discriminate|discriminate]|].
    eapply A; [apply ws_full|]. apply sss_refl.
Qed.
