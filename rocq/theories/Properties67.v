(** * C91: reads while calls fail. *)
From Coq Require Import Lia Permutation.
From Verif Require Import Base Spec Safe Extent Chunk Dataset Slicer SpecApi ExtentProofs ApiLemmas Termination
  GroupProofs SliceProps Filters SpecFilter FilterProps Reader SpecReader CacheProofs Writes DirectProofs ParProofs
  ReadProofs ReaderProps StreamProofs Properties4 Properties15 Properties17 Examples ExamplesReader Syscalls ParSys Faults
  Properties65 Properties66.

(** ** Specification *)

(** Cached readers after any reads, in which loads may have failed. *)
Inductive tried (m : mode) (inflate : bytes -> option bytes) (ds : dataset) (file : bytes) : creader -> Prop :=
| tr_new r : cache_new m ds file = Ok r -> tried m inflate ds file r
| tr_read r fuel os e dst : tried m inflate ds file r ->
    tried m inflate ds file (snd (cache_read_f m inflate fuel os r e dst)).

(** ** Proof *)

Section C.
Context (m : mode) (inflate : bytes -> option bytes).

Lemma cache_seg_f_cases r os cache sg pos dst :
  fst (cache_seg_f m inflate r os cache sg pos dst) = cache_seg m inflate r cache sg pos dst \/
  fst (cache_seg_f m inflate r os cache sg pos dst) = (Err EIo, cache).
Proof.
  destruct sg as [[c a] b]. unfold cache_seg_f. destruct (byte_range _ _ _ _) as [x| | | |]; auto.
  destruct (lru_get _ _); auto. destruct os as [|[] os]; auto.
Qed.
Lemma cache_seg_f_none r cache sg pos dst : cache_seg_f m inflate r [] cache sg pos dst = (cache_seg m inflate r cache sg pos dst, []).
Proof.
  destruct sg as [[c a] b]. unfold cache_seg_f. destruct (byte_range _ _ _ _) as [x| | | |]; auto. destruct (lru_get _ _); auto.
Qed.
Lemma cache_loop_f_none r st : forall segs cache pos dst,
  cache_loop_f m inflate r segs st [] cache pos dst = cache_loop m inflate r segs st cache pos dst.
Proof.
  induction segs as [|sg segs IH]; intros cache pos dst; [reflexivity|]. cbn [cache_loop_f cache_loop]. rewrite cache_seg_f_none.
  destruct (cache_seg m inflate r cache sg pos dst) as [[[d p]| | | |] c]; auto.
Qed.
Lemma cache_loop_f_ok r st : same_addr (cr_ds r) -> forall segs os cache pos dst,
  cache_ok m inflate r cache -> Forall (fun sg => In (fst (fst sg)) (d_chunks (cr_ds r))) segs ->
  cache_ok m inflate r (snd (cache_loop_f m inflate r segs st os cache pos dst)) /\
  (fst (cache_loop_f m inflate r segs st os cache pos dst) = fst (cache_loop m inflate r segs st cache pos dst) \/
   fst (fst (cache_loop_f m inflate r segs st os cache pos dst)) = Err EIo /\
   exists s1 s2, segs = s1 ++ s2 /\ snd (fst (cache_loop_f m inflate r segs st os cache pos dst)) =
     snd (plain_loop m (rload m inflate r) (d_dsize (cr_ds r)) s1 SDone pos dst)).
Proof.
  intros HA. induction segs as [|sg segs IH]; intros os cache pos dst HC HF; cbn [cache_loop_f cache_loop]; [auto|].
  inversion HF as [|? ? H1 H2]; subst.
  destruct (cache_seg_plain m inflate r cache sg pos dst HA HC H1) as [E1 E2].
  destruct (cache_seg_f_cases r os cache sg pos dst) as [E|E]; destruct (cache_seg_f m inflate r os cache sg pos dst) as [y os'] eqn:EF; cbn [fst] in E; subst y.
  - destruct (cache_seg m inflate r cache sg pos dst) as [x cache'] eqn:Es. cbn [fst snd] in E1, E2.
    destruct x as [[dst' pos']| | | |]; cbn [fst snd]; auto.
    destruct (IH os' cache' pos' dst' E2 H2) as [I1 [I2|(I2 & s1 & s2 & -> & I3)]]; split; auto. right. split; auto.
    exists (sg :: s1), s2. split; auto. rewrite I3. cbn [plain_loop]. rewrite <- E1. reflexivity.
  - cbn [failed fst snd]. split; auto. right. split; auto. exists [], (sg :: segs). split; auto.
Qed.
Lemma tried_inv ds file r : same_addr ds -> tried m inflate ds file r ->
  cr_ds r = ds /\ cr_file r = file /\ chunk_bytes m ds = Ok (cr_csz r) /\ cache_cap (cr_csz r) = Ok (cr_cap r) /\
  cache_ok m inflate r (cr_cache r).
Proof.
  intros HA. induction 1 as [r H|r fuel os e dst H IH].
  - apply reachable_inv; auto. now constructor.
  - destruct IH as (A & B & C & D & F). rewrite <- A in HA. unfold cache_read_f.
    destruct (read_size m (cr_ds r) e dst); cbn [snd]; auto 6.
    pose proof (slices_in m fuel (cr_ds r) e) as HF. destruct (chunk_slices m fuel (cr_ds r) e) as [segs st]. cbn [fst] in HF.
    destruct (cache_loop_f_ok r st HA segs os (cr_cache r) 0 dst F HF) as [I _].
    destruct (cache_loop_f m inflate r segs st os (cr_cache r) 0 dst) as [[x d] c]. cbn [fst snd cr_ds cr_file cr_csz cr_cap cr_cache] in *.
    repeat split; auto.
Qed.
Lemma tried_read ds file r fuel e dst : same_addr ds -> tried m inflate ds file r ->
  fst (cache_read m inflate fuel r e dst) = plain_read m inflate fuel file ds (cr_csz r) e dst.
Proof.
  intros HA H. destruct (tried_inv _ _ _ HA H) as (A & B & _ & _ & F). rewrite <- A in HA.
  rewrite (proj1 (cache_read_plain m inflate fuel r e dst HA F)). now rewrite A, B.
Qed.

Lemma direct_load_f_cases r file os last c :
  fst (direct_load_f m inflate r file os last c) = direct_load m inflate r file last c \/ fst (direct_load_f m inflate r file os last c) = Err EIo.
Proof. unfold direct_load_f. destruct last as [[a d]|]; [destruct (a =? _)|]; cbn [negb]; auto; destruct os as [|[] os]; auto. Qed.
Lemma direct_loop_f_ok r file : forall G os last dst,
  direct_loop_f m inflate r file G os last dst = direct_loop m inflate r file G last dst \/
  fst (direct_loop_f m inflate r file G os last dst) = Err EIo /\
   exists g1 g2, G = g1 ++ g2 /\ snd (direct_loop_f m inflate r file G os last dst) = snd (direct_loop m inflate r file g1 last dst).
Proof.
  induction G as [|[[[c cur] a] b] G IH]; intros os last dst; cbn [direct_loop_f direct_loop]; auto.
  destruct (direct_load_f_cases r file os last c) as [E|E]; destruct (direct_load_f m inflate r file os last c) as [y os']; cbn [fst] in E; subst y.
  - destruct (direct_load m inflate r file last c) as [data| | | |] eqn:EL; auto.
    destruct (copy_at m data (d_dsize (dr_ds r)) cur a b dst) as [d1| | | |] eqn:EC; auto.
    destruct (IH os' (Some (c_addr c, data)) d1) as [I|(I & g1 & g2 & -> & J)]; auto. right. split; auto.
    exists ((c, cur, a, b) :: g1), g2. split; auto. rewrite J. cbn [direct_loop]. now rewrite EL, EC.
  - right. split; auto. exists [], ((c, cur, a, b) :: G). split; auto.
Qed.
End C.

(** A parallel read of which calls may fail: what each task has written, and what it writes. *)
Section P.
Context (m : mode) (inflate : bytes -> option bytes) (r : direct) (dlen : N).

Record prog : Type := mkProg { q_grp : list gsegment; q_task : ctask; q_done : list (N * N) }.
Definition full (g : list gsegment) : list (N * N) := fst (par_task m inflate r dlen g).
Definition q_ok (q : prog) : Prop :=
  match q_task q with
  | CWait g => g = q_grp q /\ q_done q = []
  | CLoad g w => g = q_grp q /\ q_done q = [] /\ exists file c cur a b g', dr_file r = Some file /\ g = (c, cur, a, b) :: g' /\
      winv file [(c_addr c, c_size c)] w
  | CRun ws _ => q_done q ++ ws = full (q_grp q) \/ q_done q = [] /\ ws = []
  | CDone _ => q_done q = full (q_grp q) \/ q_done q = []
  | CSkip => q_done q = []
  end.
Definition qinv (gs : list (list gsegment)) (dst0 : bytes) (s : list ctask * bytes) : Prop :=
  exists qs tr, map q_grp qs = gs /\ map q_task qs = fst s /\ Forall q_ok qs /\
    Permutation tr (concat (map q_done qs)) /\ snd s = apply_writes tr dst0.

Lemma q_tstep t t' g d : tstep true m inflate r dlen t t' -> q_ok (mkProg g t d) -> q_ok (mkProg g t' d).
Proof.
  intros H. destruct H as [g0 E|g0 E|file E|file c cur a b g0 p E|file g0 w w' E H Hf|g0 w H|g0 w raw H1 H2 H3|f];
    unfold q_ok; cbn [q_task q_grp q_done].
  - intros [-> ->]; auto.
  - intros [-> ->]; auto.
  - intros [<- ->]; auto.
  - intros [<- ->]. split; [auto|]. split; [auto|]. exists file, c, cur, a, b, g0. split; auto. split; auto.
    apply (winv_fresh file (mkWorker [(c_addr c, c_size c)] p Idle [])). split; reflexivity.
  - intros (<- & -> & file' & c & cur & a & b & g' & E' & -> & W). split; [auto|]. split; [auto|].
    exists file', c, cur, a, b, g'. split; auto. split; auto. rewrite E in E'. injection E' as <-. eapply winv_step; eauto.
  - intros (<- & -> & _); auto.
  - intros (<- & -> & file & c & cur & a & b & g' & E & -> & W). left. cbn [app]. unfold full.
    now rewrite (par_task_load m inflate r dlen file c cur a b g' E raw (winv_done file c w raw W H1 H3)).
  - intros [H|[-> _]]; auto. rewrite app_nil_r in H. auto.
Qed.
Lemma q_cstep gs dst0 s t : cstep true m inflate r dlen s t -> qinv gs dst0 s -> qinv gs dst0 t.
Proof.
  intros H (qs & tr & Q1 & Q2 & Q3 & Q4 & Q5). revert Q2 Q5.
  destruct H as [l1 l2 t t' dst H|l1 l2 p b ws f dst|l1 l2 g f dst H1 H2]; cbn [fst snd]; intros Q2 Q5;
    apply map_eq_app in Q2 as (q1 & q2' & -> & A1 & A2); apply map_eq_cons in A2 as ([g0 t0 d0] & q2 & -> & A2 & A3);
    cbn [q_task] in A2; subst t0; apply Forall_app in Q3 as [F1 F2]; inversion F2 as [|? ? F3 F4]; subst q2; 
    rewrite map_app in Q1, Q4; cbn [map q_grp q_done] in Q1, Q4.
  - exists (q1 ++ mkProg g0 t' d0 :: l), tr. rewrite !map_app. cbn [map q_grp q_task q_done fst snd]. subst x.
    repeat split; auto; try congruence. apply Forall_app. split; auto. constructor; auto. eapply q_tstep; eauto.
  - exists (q1 ++ mkProg g0 (CRun ws f) (d0 ++ [(p, b)]) :: l), (tr ++ [(p, b)]). rewrite !map_app. cbn [map q_grp q_task q_done fst snd]. subst x.
    repeat split; auto; try congruence.
    + apply Forall_app. split; auto. constructor; auto. unfold q_ok in *. cbn [q_task q_grp q_done] in *.
      destruct F3 as [F3|[_ F3]]; [|discriminate]. left. now rewrite <- app_assoc.
    + rewrite Q4, !concat_app. cbn [concat]. rewrite <- !app_assoc. apply Permutation_app_head. apply Permutation_app_head.
      apply Permutation_app_comm.
    + rewrite apply_app, <- Q5. reflexivity.
  - exists (q1 ++ mkProg g0 CSkip d0 :: l), tr. rewrite !map_app. cbn [map q_grp q_task q_done fst snd]. subst x.
    repeat split; auto; try congruence. apply Forall_app. split; auto. constructor; auto. unfold q_ok in *. cbn [q_task q_grp q_done] in *. tauto.
Qed.
Lemma q_csteps gs dst0 s t : csteps true m inflate r dlen s t -> qinv gs dst0 s -> qinv gs dst0 t.
Proof. induction 1; eauto using q_cstep. Qed.
Lemma q_init gs dst : qinv gs dst (map CWait gs, dst).
Proof.
  exists (map (fun g => mkProg g (CWait g) []) gs), []. rewrite !map_map. cbn [q_grp q_task q_done fst snd]. rewrite map_id.
  repeat split; auto.
  - apply Forall_forall. intros q H. apply in_map_iff in H as (g & <- & _). unfold q_ok. cbn. auto.
  - replace (concat (map _ gs)) with (@nil (N * N)); [constructor|]. induction gs; auto.
Qed.
Lemma q_done_all file : dr_file r = Some file -> same_addr (dr_ds r) ->
  forall qs wss, Forall group_ok (map q_grp qs) -> Forall (fun g => In (g_chunk g) (d_chunks (dr_ds r))) (concat (map q_grp qs)) ->
  Forall q_ok qs -> Forall (fun q => ended (q_task q) <> None) qs ->
  Forall2 (gseg_ok m (dload m inflate r file) (d_dsize (dr_ds r)) dlen) (concat (map q_grp qs)) wss ->
  exists S rest, Permutation (S ++ rest) wss /\ concat (map q_done qs) = concat S.
Proof.
  intros Hf HA. induction qs as [|[g t d] qs IH]; cbn [map concat q_grp q_done]; intros wss HG HF HO HE HW.
  - inversion HW; subst. exists [], []. auto.
  - inversion HG as [|? ? G1 G2]; subst. apply Forall_app in HF as [F1 F2]. inversion HO as [|? ? O1 O2]; subst.
    inversion HE as [|? ? E1 E2]; subst. apply Forall2_app_inv_l in HW as (w1 & w2 & W1 & W2 & ->).
    destruct (IH w2 G2 F2 O2 E2 W2) as (S & rest & P & E).
    assert (EG : full g = concat w1).
    { unfold full. now rewrite (proj2 (par_task_iff m inflate r file dlen g (concat w1) Hf HA G1 F1) (ex_intro _ w1 (conj W1 eq_refl))). }
    assert (TD : d = concat w1 \/ d = []).
    { unfold q_ok in O1. cbn [q_task q_grp q_done] in *. rewrite EG in O1. destruct t; cbn [ended] in E1; try congruence; tauto. }
    destruct TD as [-> | ->]; rewrite E.
    + exists (w1 ++ S), rest. split; [rewrite <- app_assoc; now apply Permutation_app_head|]. now rewrite concat_app.
    + exists S, (w1 ++ rest). split; [|reflexivity].
      rewrite Permutation_app_comm, <- app_assoc. apply Permutation_app_head. now rewrite Permutation_app_comm.
Qed.
End P.

(** ** The theorems *)

(** After any reads of which loads failed, a reader reads like a new one. *)
Theorem C91_recovers m inflate ds file r r0 fuel e dst : same_addr ds -> tried m inflate ds file r -> cache_new m ds file = Ok r0 ->
  fst (cache_read m inflate fuel r e dst) = fst (cache_read m inflate fuel r0 e dst) /\
  cache_read m inflate fuel r e dst = cache_read_f m inflate fuel [] r e dst.
Proof.
  intros HA HT HN. assert (HT0 : tried m inflate ds file r0) by now constructor. split.
  - rewrite (tried_read m inflate ds file r fuel e dst HA HT), (tried_read m inflate ds file r0 fuel e dst HA HT0).
    destruct (tried_inv m inflate _ _ _ HA HT) as (_ & _ & Z1 & _). destruct (tried_inv m inflate _ _ _ HA HT0) as (_ & _ & Z2 & _).
    rewrite Z1 in Z2. now injection Z2 as ->.
  - unfold cache_read, cache_read_f. destruct (read_size _ _ _ _); auto. destruct (chunk_slices _ _ _ _) as [segs st].
    now rewrite cache_loop_f_none.
Qed.
Print Assumptions C91_recovers.

(** A read in which loads fail gives what it gives if none does, or an error. *)
Theorem C91_result m inflate sort fuel ds file rc rd opens os e dst : same_addr ds ->
  tried m inflate ds file rc -> direct_new m ds (Some file) = Ok rd ->
  (fst (cache_read_f m inflate fuel os rc e dst) = fst (cache_read m inflate fuel rc e dst) \/
   fst (fst (cache_read_f m inflate fuel os rc e dst)) = Err EIo) /\
  (direct_read_f m inflate sort fuel opens os rd e dst = direct_read m inflate sort fuel rd e dst \/
   fst (direct_read_f m inflate sort fuel opens os rd e dst) = Err EIo \/
   direct_read_f m inflate sort fuel opens os rd e dst = (Err EOpen, dst)).
Proof.
  intros HA HT HD. split.
  - destruct (tried_inv m inflate _ _ _ HA HT) as (A & _ & _ & _ & F). rewrite <- A in HA. unfold cache_read_f, cache_read.
    destruct (read_size m (cr_ds rc) e dst); auto. pose proof (slices_in m fuel (cr_ds rc) e) as HF.
    destruct (chunk_slices m fuel (cr_ds rc) e) as [segs st]. cbn [fst] in HF.
    destruct (cache_loop_f_ok m inflate rc st HA segs os (cr_cache rc) 0 dst F HF) as [_ [I|(I & _)]];
      destruct (cache_loop_f m inflate rc segs st os (cr_cache rc) 0 dst) as [[x d] c]; destruct (cache_loop m inflate rc segs st (cr_cache rc) 0 dst) as [[x' d'] c'];
      cbn [fst] in *; [left; injection I as -> ->; auto|right; now rewrite I].
  - unfold direct_read_f, direct_read. destruct (read_size m (dr_ds rd) e dst); auto. destruct (group_chunk_slices _ _ _ _ _) as [G| | | |]; auto.
    destruct (dr_file rd) as [f|]; auto. destruct opens; auto.
    destruct (direct_loop_f_ok m inflate rd f G os None dst) as [I|(I & _)].
    + left. now rewrite I.
    + right. left. destruct (direct_loop_f m inflate rd f G os None dst) as [x d]. cbn [fst] in *. now rewrite I.
Qed.
Print Assumptions C91_result.

(** Any build mode, dataset with elements of 1, 2, 4 or 8 bytes, selection and buffer, safe
    or not, and any loads or calls that fail: if without failures the read succeeds with
    buffer [good], then whatever the read returns, each element of the buffer is as it was or
    as in [good]: none invented, none half written.  The cached reader writes a prefix. *)
Theorem C91_buffer m inflate sort fuel ds file rc rd e dst v good :
  addr_sort sort -> same_addr ds -> In (d_dsize ds) [1; 2; 4; 8] -> lenN dst < W64 ->
  tried m inflate ds file rc -> direct_new m ds (Some file) = Ok rd ->
  fst (cache_read m inflate fuel rc e dst) = (Ok v, good) ->
  (forall os, partly (d_dsize ds) dst good (snd (fst (cache_read_f m inflate fuel os rc e dst)))) /\
  (forall opens os, mixed (d_dsize ds) dst good (snd (direct_read_f m inflate sort fuel opens os rd e dst))) /\
  (forall x d, sys_read true m inflate sort fuel rd e dst x d -> mixed (d_dsize ds) dst good d).
Proof.
  intros HS HA H8 HW HT RD HG.
  assert (HD : (d_dsize ds | W64)) by now apply word_div.
  assert (Hd : 0 < d_dsize ds) by (destruct H8 as [<-|[<-|[<-|[<-|[]]]]]; lia).
  destruct (tried_inv m inflate ds file rc HA HT) as (A & B & Z1 & _ & CF).
  unfold direct_new in RD. rewrite Z1 in RD. cbn [bind] in RD. injection RD as <-.
  rewrite (tried_read m inflate ds file rc fuel e dst HA HT) in HG.
  apply plain_read_iff in HG as (ES & out & HO & ->).
  pose proof HO as (segs & os & EX & FO & EO & HB).
  assert (HIN : Forall (fun sg => In (fst (fst sg)) (d_chunks ds)) segs).
  { pose proof (slices_in m fuel ds e) as HF. now rewrite EX in HF. }
  assert (PRE : forall s1 s2 x d, segs = s1 ++ s2 ->
    plain_loop m (load m inflate file ds (cr_csz rc)) (d_dsize ds) s1 SDone 0 dst = (x, d) -> partly (d_dsize ds) dst (splice dst 0 out) d).
  { intros s1 s2 x d -> EP. apply plain_loop_prefix in EP as (s11 & s12 & os1 & -> & F1 & B1 & ->); [|lia].
    rewrite <- app_assoc in FO.
    destruct (Forall2_prefix_fun _ (seg_ok_fun m (load m inflate file ds (cr_csz rc)) (d_dsize ds)) s11 (s12 ++ s2) os1 os F1 FO) as (os2 & ->).
    assert (DV : (d_dsize ds | lenN (concat os1))).
    { clear -F1 HD. induction F1 as [|sg o s1 os1 H F1 IH]; [apply N.divide_0_r|]. cbn [concat]. rewrite lenN_app.
      apply N.divide_add_r; auto. eapply seg_ok_len; eauto. }
    destruct DV as (k & Ek). exists k. rewrite <- Ek. replace (N.to_nat (lenN (concat os1))) with (length (concat os1)) by (unfold lenN; lia).
    split; [unfold lenN in B1; lia|]. rewrite EO, concat_app in *. apply splice_partly. lia. }
  assert (SAME : mixed (d_dsize ds) dst (splice dst 0 out) dst) by (split; auto).
  assert (NONE : partly (d_dsize ds) dst (splice dst 0 out) dst) by (exists 0; split; [cbn; lia|reflexivity]).
  destruct (group_of_read m _ sort fuel ds e (lenN dst) out HS Hd HW HO) as (G & wss & (EG & FW) & PW).
  pose proof (group_in sort m fuel ds e G HS EG) as GI.
  assert (WH : Forall (whole (d_dsize ds)) wss).
  { clear -FW HD. induction FW; constructor; auto. eapply gseg_whole; eauto. }
  split; [|split].
  - intros fs. unfold cache_read_f. rewrite A, ES, EX.
    assert (HIN' : Forall (fun sg => In (fst (fst sg)) (d_chunks (cr_ds rc))) segs) by now rewrite A.
    destruct (cache_loop_f_ok m inflate rc SDone ltac:(now rewrite A) segs fs (cr_cache rc) 0 dst CF HIN') as [_ I].
    destruct I as [I|(_ & s1 & s2 & -> & I)].
    + rewrite (proj1 (cache_loop_plain m inflate rc SDone ltac:(now rewrite A) segs (cr_cache rc) 0 dst CF HIN')) in I.
      unfold rload in I. rewrite A, B in I.
      destruct (cache_loop_f m inflate rc segs SDone fs (cr_cache rc) 0 dst) as [[x d] c]. cbn [fst snd] in *.
      apply (PRE segs [] x d); [now rewrite app_nil_r|now rewrite <- I].
    + destruct (cache_loop_f m inflate rc (s1 ++ s2) SDone fs (cr_cache rc) 0 dst) as [[x d] c]. cbn [fst snd] in *. subst d.
      unfold rload. rewrite A, B.
      destruct (plain_loop m (load m inflate file ds (cr_csz rc)) (d_dsize ds) s1 SDone 0 dst) as [y d] eqn:E.
      apply (PRE s1 s2 y d); auto.
  - intros opens fs. unfold direct_read_f. cbn [dr_ds dr_file]. rewrite ES, EG. destruct opens; auto.
    destruct (direct_loop_f m inflate (mkDirect ds (Some file) (cr_csz rc)) file G fs None dst) as [x d] eqn:EF. cbn [snd].
    assert (PR : forall g1 g2 y, G = g1 ++ g2 -> direct_loop m inflate (mkDirect ds (Some file) (cr_csz rc)) file g1 None dst = (y, d) ->
      mixed (d_dsize ds) dst (splice dst 0 out) d).
    { intros g1 g2 y -> EL. apply Forall_app in GI as [GI1 _].
      apply (direct_loop_prefix m inflate (mkDirect ds (Some file) (cr_csz rc)) file HA) in EL as (G1 & G2 & w1 & -> & F1 & ->); auto; [|exact I].
      cbn [dr_ds] in F1. unfold dload in F1. cbn [dr_ds dr_csz] in F1. rewrite <- app_assoc in FW.
      destruct (Forall2_prefix_fun _ (gseg_fun m (load m inflate file ds (cr_csz rc)) (d_dsize ds) (lenN dst)) G1 (G2 ++ g2) w1 wss F1 FW) as (w2 & ->).
      apply (mixed_of (d_dsize ds) dst out (w1 ++ w2) w1 w2); auto. }
    destruct (direct_loop_f_ok m inflate (mkDirect ds (Some file) (cr_csz rc)) file G fs None dst) as [I|(_ & g1 & g2 & E & I)].
    + rewrite EF in I. apply (PR G [] x); [now rewrite app_nil_r|now rewrite <- I].
    + rewrite EF in I. cbn [snd] in I. destruct (direct_loop m inflate (mkDirect ds (Some file) (cr_csz rc)) file g1 None dst) as [y d'] eqn:E1.
      cbn [snd] in I. subst d'. apply (PR g1 g2 y); auto.
  - clear A B. intros x d HR. inversion HR as [x' E1 E2|v' x' E1 E2 E3|v' G' final ends d' x' E1 E2 E3 E4 E5]; subst; cbn [dr_ds] in *; auto.
    rewrite EG in E2. injection E2 as <-.
    destruct (q_csteps _ _ _ _ (chunk_by_addr G) dst _ _ E3 (q_init _ _ _ _ _ _)) as (qs & tr & Q1 & Q2 & Q3 & Q4 & Q5).
    cbn [fst snd] in Q2, Q5. subst d.
    destruct (q_done_all m inflate (mkDirect ds (Some file) (cr_csz rc)) (lenN dst) file eq_refl HA qs wss) as (S & rest & P & EC); auto.
    + rewrite Q1. apply chunk_by_ok.
    + rewrite Q1, chunk_by_concat. exact GI.
    + rewrite <- Q2 in E4. clear -E4. revert ends E4. induction qs as [|q qs IH]; intros [|x ends] E4; try discriminate; constructor.
      * cbn [map] in E4. injection E4 as E4 _. congruence.
      * cbn [map] in E4. injection E4 as _ E4. eauto.
    + rewrite Q1, chunk_by_concat. exact FW.
    + rewrite EC in Q4. apply (mixed_of (d_dsize ds) dst (concat os) wss S rest); auto.
Qed.
Print Assumptions C91_buffer.

(** The third load fails: a part of the buffer is written, and the reader then reads all. *)
Example C91_case m : exists rc rd good,
  addr_sort sort_by_addr /\ same_addr st_ds /\ In (d_dsize st_ds) [1; 2; 4; 8] /\
  cache_new m st_ds st_file = Ok rc /\ direct_new m st_ds (Some st_file) = Ok rd /\
  fst (cache_read m toy_inflate 13 rc st_sel (repeat 9 24)) = (Ok 24, good) /\
  let '(x, d, rc') := cache_read_f m toy_inflate 13 [false; false; true] rc st_sel (repeat 9 24) in
  x = Err EIo /\ d <> good /\ d <> repeat 9 24 /\ fst (cache_read m toy_inflate 13 rc' st_sel (repeat 9 24)) = (Ok 24, good) /\
  let '(y, d2) := direct_read_f m toy_inflate sort_by_addr 13 true [false; false; true] rd st_sel (repeat 9 24) in
  y = Err EIo /\ d2 <> good /\ d2 <> repeat 9 24.
Proof.
  destruct (C24_case m) as (H1 & H2 & _). destruct m; do 3 eexists;
    (split; [exact H1|]); (split; [exact H2|]); (split; [right; left; reflexivity|]); (split; [vm_compute; reflexivity|]);
    (split; [vm_compute; reflexivity|]); (split; [vm_compute; reflexivity|]); vm_compute; repeat split; discriminate.
Qed.
