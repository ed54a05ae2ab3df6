(** * C100: many streams at once, down to their system calls, of a file that is replaced. *)
From Coq Require Import Lia.
From Verif Require Import Base Spec SpecApi SpecReader Safe Chunk Extent Dataset Slicer DatasetProofs Filters SpecFilter Reader StreamPoll
  CacheProofs SliceProps ExamplesReader Properties4 Properties15 Properties18 Syscalls ParSys SeqSys Properties39 Properties65 Properties66 Properties74 StreamSys.

(** ** Specification *)

(** A stream (plain or XDR) as it is made: [p] down to its system calls, [ps] and [st] as in StreamPoll.v. *)
Definition made (m : mode) (inflate : bytes -> option bytes) (fuel : nat) (ds : dataset) (csz : N) (e : extents)
    (p : poller) (ps : pstream) (st : pstate) : Prop :=
  low_ds ds /\
  ((sys_stream m inflate fuel ds csz e = Ok p /\ stream_start m inflate fuel ds csz e = Ok (ps, st)) \/
   exists h al1 al2, sys_xdr m h al1 al2 inflate fuel ds csz e = Ok p /\ xdr_start m h al1 al2 inflate fuel ds csz e = Ok (ps, st)).
Definition made_some (m : mode) (p : poller) : Prop := exists inflate fuel ds csz e ps st, made m inflate fuel ds csz e p ps st.
(** A poll is under way. *)
Definition busy (p : poller) : Prop := match p_g p with GAt _ _ => False | _ => True end.
(** The polls that are over returned what the polls of StreamPoll.v do, each of which is one step. *)
Definition right_so_far (m : mode) (ps : pstream) (st : pstate) (p : poller) : Prop :=
  p_outs p = firstn (length (p_outs p)) (fst (fst (polls m ps (p_hist p) st))).
(** They did until one failed; then the stream is over. *)
Definition right_until (m : mode) (ps : pstream) (st : pstate) (p : poller) : Prop :=
  exists k e, (k < length (p_outs p))%nat /\ (e = EIo \/ k = 0%nat /\ e = EOpen) /\
    p_outs p = firstn k (fst (fst (polls m ps (p_hist p) st))) ++ PErr e :: repeat PEnd (length (p_outs p) - S k).
Definition items_of (ys : list polled) : list bytes := flat_map (fun y => match y with PItem b => [b] | _ => [] end) ys.
(** [n] steps of one stream within one poll, interrupted calls not counted. *)
Inductive within_poll (faults : bool) (m : mode) (ss : sstream) : nat -> gstate -> gstate -> Prop :=
| wp_none g : within_poll faults m ss 0 g g
| wp_again now n g g' : gstep faults m ss now g false None g -> within_poll faults m ss n g g' -> within_poll faults m ss n g g'
| wp_step now n g g1 g' : gstep faults m ss now g false None g1 -> g <> g1 -> within_poll faults m ss n g1 g' ->
    within_poll faults m ss (S n) g g'.

(** ** Proof *)

Definition low_list (l : list (chunk * N * N)) : Prop := Forall (fun sl => c_addr (fst (fst sl)) < 2 ^ 63) l.
Definition low_state (st : pstate) : Prop := match st with Fresh l | Opened _ l _ => low_list l | _ => True end.

Section One.
Context (faults : bool) (m : mode) (ss : sstream) (ps : pstream) (st0 : pstate).
Context (HG : forall file c, ps_get ps file c = (let* raw := read_exact file (c_addr c) (c_size c) in ss_fin ss raw)).
Context (HX : ps_xf ps = ss_xf ss) (HC : ps_cap ps = ss_cap ss) (HL : low_state st0).

Definition R (h : list (option bytes)) := fst (fst (polls m ps h st0)).
Definition F (h : list (option bytes)) := snd (fst (polls m ps h st0)).
Lemma polls_snoc now : forall h st, polls m ps (h ++ [now]) st =
  let '(ys, st1, ios) := polls m ps h st in let '(y, st2, io) := poll m ps now st1 in (ys ++ [y], st2, ios ++ [io]).
Proof.
  induction h as [|x h IH]; intros st.
  - cbn [app polls]. destruct (poll m ps now st) as [[y st1] io]. reflexivity.
  - cbn [app polls]. destruct (poll m ps x st) as [[y st1] io]. rewrite IH. destruct (polls m ps h st1) as [[ys st2] ios].
    destruct (poll m ps now st2) as [[y' st3] io']. reflexivity.
Qed.
Lemma R_snoc h now : R (h ++ [now]) = R h ++ [fst (fst (poll m ps now (F h)))].
Proof. unfold R, F. rewrite polls_snoc. destruct (polls m ps h st0) as [[ys st1] ios]. cbn [fst snd]. destruct (poll m ps now st1) as [[y st2] io]. reflexivity. Qed.
Lemma F_snoc h now : F (h ++ [now]) = snd (fst (poll m ps now (F h))).
Proof. unfold F. rewrite polls_snoc. destruct (polls m ps h st0) as [[ys st1] ios]. cbn [fst snd]. destruct (poll m ps now st1) as [[y st2] io]. reflexivity. Qed.
Lemma R_len h : length (R h) = length h.
Proof. induction h as [|now h IH] using rev_ind; [reflexivity|]. rewrite R_snoc, !app_length, IH. reflexivity. Qed.

Lemma poll_open_next f l cache : low_list l -> (forall l', snd (fst (poll_open m ps f l cache)) <> Fresh l') /\ low_state (snd (fst (poll_open m ps f l cache))).
Proof.
  intros H. destruct l as [|[[c s0] e0] l]; [split; [discriminate|exact I]|]. inversion H as [|? ? _ H']; subst. cbn [poll_open].
  assert (X : forall A (x : res A), (forall l', snd (halt x) <> Fresh l') /\ low_state (snd (halt x))) by (intros A [a|e| | |]; cbn; split; auto; discriminate).
  destruct (let* x := ps_xf ps in let* s := mul64 m s0 x in let* e := mul64 m e0 x in let* _ := dbg m (s <=? e) in Ok (s, e)) as [[s e]|e| | |];
    try (cbn; split; [discriminate|exact I]).
  destruct (lru_get (c_addr c) cache) as [[data cache']|].
  - destruct (take_slice m data s e); cbn; split; auto; discriminate.
  - destruct (ps_get ps f c) as [data| | | |]; try (cbn; split; [discriminate|exact I]). destruct (take_slice m data s e); cbn; split; auto; discriminate.
Qed.
Lemma F_low h : low_state (F h) /\ (h <> [] -> forall l, F h <> Fresh l).
Proof.
  induction h as [|now h [IH _]] using rev_ind; [split; [exact HL|now intros []]|]. rewrite F_snoc.
  assert (X : low_state (snd (fst (poll m ps now (F h)))) /\ forall l, snd (fst (poll m ps now (F h))) <> Fresh l).
  { destruct (F h) as [l|f l cache| |]; cbn [poll].
    - destruct now as [f|]; [|cbn; split; [auto|discriminate]]. destruct (poll_open_next f l [] IH). auto.
    - destruct (poll_open_next f l cache IH). auto.
    - cbn. split; [auto|discriminate].
    - cbn. split; [auto|discriminate]. }
  destruct X. split; auto.
Qed.

Definition cut_at (h : list (option bytes)) (outs : list polled) : Prop :=
  exists k e, (k < length outs)%nat /\ (e = EIo \/ k = 0%nat /\ e = EOpen) /\ outs = firstn k (R h) ++ PErr e :: repeat PEnd (length outs - S k).
Definition at_top (h : list (option bytes)) (outs : list polled) (f : bytes) (l : list (chunk * N * N)) (cache : lru) : Prop :=
  exists h0 now, h = h0 ++ [now] /\ outs = R h0 /\ poll m ps now (F h0) = poll_open m ps f l cache /\ low_list l.
Definition ginv (h : list (option bytes)) (outs : list polled) (g : gstate) : Prop :=
  match g with
  | GAt st fp => length outs = length h /\ (outs = R h /\ st = F h \/ st = Over /\ faults = true /\ cut_at h outs)
  | GTop f l cache fp => at_top h outs f l cache
  | GLoad f (c, s0, e0) l cache w => at_top h outs f ((c, s0, e0) :: l) cache /\ (exists v, scaled m ss s0 e0 = Ok v) /\
      lru_get (c_addr c) cache = None /\ winv f [(c_addr c, c_size c)] w /\ (faults = false -> w_phase w <> Fault)
  end.

(** A poll returns what it should. *)
Lemma top_returns h outs f l cache y st fp : at_top h outs f l cache -> fst (poll_open m ps f l cache) = (y, st) -> ginv h (outs ++ [y]) (GAt st fp).
Proof.
  intros (h0 & now & -> & -> & E & _) EP. split; [now rewrite !app_length, R_len|]. left. now rewrite R_snoc, F_snoc, E, EP.
Qed.
Lemma top_fails h outs f l cache fp : at_top h outs f l cache -> faults = true -> ginv h (outs ++ [PErr EIo]) (GAt Over fp).
Proof.
  intros (h0 & now & -> & -> & E & _) EF. split; [now rewrite !app_length, R_len|]. right. repeat split; auto.
  exists (length (R h0)), EIo. rewrite app_length. cbn [length]. split; [lia|]. split; [auto|]. rewrite R_snoc.
  rewrite firstn_app, Nat.sub_diag, firstn_all. cbn [firstn]. rewrite app_nil_r. replace (length (R h0) + 1 - S (length (R h0)))%nat with 0%nat by lia. reflexivity.
Qed.
Lemma top_low h outs f c s0 e0 l cache : at_top h outs f ((c, s0, e0) :: l) cache -> c_addr c < 2 ^ 63.
Proof. intros (h0 & now & _ & _ & _ & H). now inversion H. Qed.

Lemma scaled_ps s0 e0 : (let* x := ps_xf ps in let* s := mul64 m s0 x in let* e := mul64 m e0 x in let* _ := dbg m (s <=? e) in Ok (s, e)) = scaled m ss s0 e0.
Proof. now rewrite HX. Qed.
Lemma get_got f c w raw : winv f [(c_addr c, c_size c)] w -> w_todo w = [] -> w_got w = [raw] -> ps_get ps f c = ss_fin ss raw.
Proof. intros H1 H2 H3. rewrite HG. now rewrite (winv_done f c w raw H1 H2 H3). Qed.
Lemma get_atend f c w : winv f [(c_addr c, c_size c)] w -> w_phase w = AtEnd -> ps_get ps f c = Err EIo.
Proof.
  intros W HP. pose proof W as (did & _ & _ & P). rewrite HP in P. destruct P as (a & n & js & E & H1 & H2).
  destruct (winv_single f _ w W _ _ E) as [E' _]. injection E' as -> ->.
  rewrite HG. unfold read_exact. rewrite (proj2 (N.eqb_neq _ _)) by lia. now rewrite (proj2 (N.leb_gt _ _) H2).
Qed.

Lemma gstep_inv now g b o g' h outs : gstep faults m ss now g b o g' -> ginv h outs g -> ginv (h ++ if b then [now] else []) (outs ++ told o) g'.
Proof.
  intros H. destruct H as [f l fp H1|l fp H1|f l cache fp|fp|fp|f cache fp|f c s0 e0 l cache fp x H1 H2|f c s0 e0 l cache cache' fp s e data b H1 H2 H3
    |f c s0 e0 l cache cache' fp s e data x H1 H2 H3 H4|f c s0 e0 l cache fp v H1 H2|f [[c s0] e0] l cache w w' H1 H2|f [[c s0] e0] l cache w H1
    |f c s0 e0 l cache w raw s e data b H1 H2 H3 H4 H5 H6|f [[c s0] e0] l cache w raw x H1 H2 H3 H4 H5|f c s0 e0 l cache w raw s e data x H1 H2 H3 H4 H5 H6 H7];
    intros HI; cbn [told]; rewrite ?app_nil_r.
  - destruct HI as [LE [[-> E]|[E _]]]; [|discriminate]. exists h, now. repeat split; auto. { rewrite <- E, H1. reflexivity. }
    destruct (F_low h) as [X _]. now rewrite <- E in X.
  - destruct HI as [LE [[-> E]|[E _]]]; [|discriminate]. split; [now rewrite !app_length, R_len|].
    destruct now as [f|]; [|left; rewrite R_snoc, F_snoc, <- E; split; reflexivity]. destruct H1 as [H1|H1]; [discriminate|].
    destruct h as [|n0 h]; [|exfalso; apply (proj2 (F_low (n0 :: h)) ltac:(discriminate) l); auto].
    right. repeat split; auto. exists 0%nat, EOpen. cbn. repeat split; auto.
  - destruct HI as [LE [[-> E]|[E _]]]; [|discriminate]. exists h, now. repeat split; auto. { now rewrite <- E. }
    destruct (F_low h) as [X _]. now rewrite <- E in X.
  - destruct HI as [LE HI]. split; [rewrite !app_length; cbn; lia|]. destruct HI as [[-> E]|(_ & HF' & k & e & H1 & H2 & H3)].
    + left. rewrite R_snoc, F_snoc, <- E. split; reflexivity.
    + right. repeat split; auto. exists k, e. rewrite app_length. cbn [length]. split; [lia|]. split; auto.
      rewrite R_snoc, firstn_app, R_len. replace (k - length h)%nat with 0%nat by lia. cbn [firstn]. rewrite app_nil_r.
      replace (length outs + 1 - S k)%nat with (S (length outs - S k)) by lia. cbn [repeat]. rewrite repeat_cons. rewrite H3 at 1. now rewrite <- app_assoc.
  - destruct HI as [LE [[-> E]|[E _]]]; [|discriminate]. split; [now rewrite !app_length, R_len|]. left. rewrite R_snoc, F_snoc, <- E. split; reflexivity.
  - apply (top_returns h outs f [] cache); auto.
  - apply (top_returns h outs f ((c, s0, e0) :: l) cache); auto. cbn [poll_open]. rewrite scaled_ps, H1.
    destruct x; try reflexivity. now contradiction (H2 a).
  - apply (top_returns h outs f ((c, s0, e0) :: l) cache); auto. cbn [poll_open]. now rewrite scaled_ps, H1, H2, H3.
  - apply (top_returns h outs f ((c, s0, e0) :: l) cache); auto. cbn [poll_open]. rewrite scaled_ps, H1, H2, H3.
    destruct x as [d| | | |]; try reflexivity. now contradiction (H4 d).
  - split; [exact HI|]. split; [eauto|]. split; auto. split; [|discriminate]. apply (winv_fresh f (mkWorker [(c_addr c, c_size c)] fp Idle [])); split; reflexivity.
  - destruct HI as (T & S & C & W & P). split; auto. split; auto. split; auto. split; [now apply (winv_step f _ w)|].
    intros E. destruct H2 as [H2|H2]; auto. congruence.
  - destruct HI as (T & [[s e] S] & C & W & P). destruct H1 as [H1|[H1|H1]].
    + apply (top_returns h outs f ((c, s0, e0) :: l) cache); auto. cbn [poll_open]. rewrite scaled_ps, S, C. now rewrite (get_atend f c w W H1).
    + exfalso. pose proof W as (did & _ & _ & Q). rewrite H1 in Q. destruct Q as (a & n & js & E & Q).
      destruct (winv_single f _ w W _ _ E) as [E' _]. injection E' as -> ->. apply top_low in T. lia.
    + destruct faults eqn:EF; [|now contradiction (P eq_refl)]. apply (top_fails h outs f ((c, s0, e0) :: l) cache); auto.
  - destruct HI as (T & S & C & W & P). apply (top_returns h outs f ((c, s0, e0) :: l) cache); auto. cbn [poll_open]. rewrite scaled_ps, H4, C.
    rewrite (get_got f c w raw W H1 H3), H5, H6. now rewrite HC.
  - destruct HI as (T & [[s e] S] & C & W & P). apply (top_returns h outs f ((c, s0, e0) :: l) cache); auto. cbn [poll_open]. rewrite scaled_ps, S, C.
    rewrite (get_got f c w raw W H1 H3), H4. destruct x as [d| | | |]; try reflexivity. now contradiction (H5 d).
  - destruct HI as (T & S & C & W & P). apply (top_returns h outs f ((c, s0, e0) :: l) cache); auto. cbn [poll_open]. rewrite scaled_ps, H4, C.
    rewrite (get_got f c w raw W H1 H3), H5, H6. destruct x as [d| | | |]; try reflexivity. now contradiction (H7 d).
Qed.

(** How far a poll is from its end. *)
Definition gwork (g : gstate) : N :=
  match g with
  | GAt _ _ => 0
  | GTop f [] _ _ => 1
  | GTop f ((c, _, _) :: _) _ _ => c_size c + 8
  | GLoad f _ _ _ w => work w + 1
  end.
Definition resting (g : gstate) : Prop := match g with GAt _ _ => True | _ => False end.
Lemma gstep_work now g o g' h outs : gstep faults m ss now g false o g' -> o = None -> ginv h outs g ->
  ~ resting g' /\ (g = g' \/ gwork g' < gwork g).
Proof.
  clear HG HX HC HL. intros H E. remember false as b eqn:Eb. destruct H as [f l fp H1|l fp H1|f l cache fp|fp|fp|f cache fp|f c s0 e0 l cache fp x H1 H2|f c s0 e0 l cache cache' fp s e data b H1 H2 H3
    |f c s0 e0 l cache cache' fp s e data x H1 H2 H3 H4|f c s0 e0 l cache fp v H1 H2|f [[c s0] e0] l cache w w' H1 H2|f [[c s0] e0] l cache w H1
    |f c s0 e0 l cache w raw s e data b H1 H2 H3 H4 H5 H6|f [[c s0] e0] l cache w raw x H1 H2 H3 H4 H5|f c s0 e0 l cache w raw s e data x H1 H2 H3 H4 H5 H6 H7];
    try discriminate; intros HI; (split; [intros []|]).
  - right. cbn [gwork]. unfold work. cbn [map sumN fst snd w_phase w_todo]. lia.
  - destruct HI as (_ & _ & _ & W & _). destruct (wstep_work _ _ w w' W H1) as [->|L]; [now left|right]. cbn [gwork]. lia.
Qed.
Lemma gprog now g h outs : ginv h outs g -> ~ resting g ->
  exists o g', gstep false m ss now g false o g' /\ ((exists y, o = Some y /\ resting g') \/ (o = None /\ ~ resting g' /\ gwork g' < gwork g)).
Proof.
  clear HG HX HC HL. intros HI HB. destruct g as [st fp|f l cache fp|f [[c s0] e0] l cache w]; [now contradiction HB| |].
  - destruct l as [|[[c s0] e0] l]; [do 2 eexists; split; [constructor|left; eexists; split; [reflexivity|exact I]]|].
    destruct (res_dec (scaled m ss s0 e0)) as [([s e] & E)|E].
    2:{ do 2 eexists. split; [now apply gs_range with (x := scaled m ss s0 e0)|left; eexists; split; [reflexivity|exact I]]. }
    destruct (lru_get (c_addr c) cache) as [[data cache']|] eqn:EC.
    + destruct (res_dec (take_slice m data s e)) as [(b & EB)|EB].
      * do 2 eexists. split; [eapply gs_hit; eauto|left; eexists; split; [reflexivity|exact I]].
      * do 2 eexists. split; [eapply gs_hitbad; eauto|left; eexists; split; [reflexivity|exact I]].
    + do 2 eexists. split; [eapply gs_miss; eauto|right]. split; [reflexivity|]. split; [intros []|].
      cbn [gwork]. unfold work. cbn [map sumN fst snd w_phase w_todo]. lia.
  - destruct HI as (T & [[s e] S] & C & W & P). destruct (worker_goes f _ w W) as [B|[(raw & W1 & W2 & W3)|(w' & W1 & W2 & W3)]].
    + do 2 eexists. split; [now apply gs_fail|left; eexists; split; [reflexivity|exact I]].
    + destruct (res_dec (ss_fin ss raw)) as [(data & ED)|ED].
      2:{ do 2 eexists. split; [eapply gs_decode; eauto|left; eexists; split; [reflexivity|exact I]]. }
      destruct (res_dec (take_slice m data s e)) as [(b & EB)|EB].
      * do 2 eexists. split; [eapply gs_loaded; eauto|left; eexists; split; [reflexivity|exact I]].
      * do 2 eexists. split; [eapply gs_loadbad; eauto|left; eexists; split; [reflexivity|exact I]].
    + do 2 eexists. split; [apply gs_call; eauto|right]. split; [reflexivity|]. split; [intros []|]. cbn [gwork]. lia.
Qed.
End One.

Lemma made_facts m inflate fuel ds csz e p ps st : made m inflate fuel ds csz e p ps st ->
  (forall file c, ps_get ps file c = (let* raw := read_exact file (c_addr c) (c_size c) in ss_fin (p_ss p) raw)) /\
  ps_xf ps = ss_xf (p_ss p) /\ ps_cap ps = ss_cap (p_ss p) /\ (exists l, st = Fresh l) /\ low_state st /\
  p_hist p = [] /\ p_outs p = [] /\ exists fp, p_g p = GAt st fp.
Proof.
  intros [HL H]. assert (LOW : forall l, collect_slices m fuel ds e = Ok l -> low_list l).
  { intros l H0. apply collect_in in H0. eapply Forall_impl; [|exact H0]. cbn beta. intros sl. apply HL. }
  destruct H as [[H1 H2]|(h & al1 & al2 & H1 & H2)]; [unfold sys_stream in H1; unfold stream_start in H2|unfold sys_xdr in H1; unfold xdr_start in H2];
    apply bind_ok in H1 as (l & El & H1); rewrite El in H2; cbn [bind] in H2; apply bind_ok in H1 as (cap & Ec & H1); rewrite Ec in H2; cbn [bind] in H2;
    injection H1 as <-; injection H2 as <- <-; cbn [ps_get ps_xf ps_cap p_ss ss_fin ss_xf ss_cap p_hist p_outs p_g low_state].
  - repeat (split; eauto).
  - split; [|repeat (split; eauto)]. intros file c. unfold load, read_chunk, decoded. now destruct (read_exact file (c_addr c) (c_size c)).
Qed.

Section System.
Context (faults : bool) (m : mode).
Definition pinv (p0 p : poller) : Prop := p_ss p = p_ss p0 /\ made_some m p0 /\
  forall inflate fuel ds csz e ps st, made m inflate fuel ds csz e p0 ps st -> ginv faults m (p_ss p0) ps st (p_hist p) (p_outs p) (p_g p).
Lemma istep_inv starts s t : istep faults m s t -> Forall2 pinv starts (snd s) -> Forall2 pinv starts (snd t).
Proof.
  intros [now l1 l2 ss g b o g' h outs H|now now' ps]; cbn [snd]; auto. intros HF. apply Forall2_app_inv_r in HF as (k1 & k2 & F1 & F2 & ->).
  inversion F2 as [|p0 t0 k2' l2' (I1 & I0 & I2) I3]; subst. apply Forall2_app; auto. constructor; auto. cbn [p_ss p_g p_hist p_outs] in *. split; [auto|split; auto].
  intros inflate fuel ds csz e ps st M. cbn [p_ss p_g p_hist p_outs]. specialize (I2 _ _ _ _ _ _ _ M). pose proof (made_facts _ _ _ _ _ _ _ _ _ M) as (M1 & M2 & M3 & M4 & M5 & _).
  subst ss. apply (gstep_inv faults m (p_ss p0) ps st M1 M2 M3 M5 now g b o g' h outs H I2).
Qed.
Lemma isteps_inv starts s t : isteps faults m s t -> Forall2 pinv starts (snd s) -> Forall2 pinv starts (snd t).
Proof. induction 1; auto. intros. eauto using istep_inv. Qed.
Lemma starts_inv starts : Forall (made_some m) starts -> Forall2 pinv starts starts.
Proof.
  induction 1 as [|p starts Hp _ IH]; constructor; auto. split; [auto|split; auto]. intros inflate fuel ds csz e ps st M.
  apply made_facts in M as (_ & _ & _ & _ & _ & -> & -> & fp & ->). split; [reflexivity|]. left. split; reflexivity.
Qed.
Lemma reached starts now0 now l1 p l2 p0 : Forall (made_some m) starts -> isteps faults m (now0, starts) (now, l1 ++ p :: l2) ->
  nth_error starts (length l1) = Some p0 -> pinv p0 p.
Proof.
  intros HM H HN. pose proof (isteps_inv starts _ _ H (starts_inv starts HM)) as HI. cbn [snd] in HI.
  apply Forall2_app_inv_r in HI as (k1 & k2 & F1 & F2 & ->). inversion F2 as [|p0' t0 k2' l2' I1 I2]; subst.
  rewrite nth_error_app2 in HN by (rewrite (Forall2_length' _ _ _ F1); lia). rewrite (Forall2_length' _ _ _ F1), Nat.sub_diag in HN. injection HN as ->. exact I1.
Qed.
Lemma reached_some starts now0 now l1 p l2 : Forall (made_some m) starts -> isteps faults m (now0, starts) (now, l1 ++ p :: l2) ->
  exists p0, pinv p0 p.
Proof.
  intros HM H. pose proof (isteps_inv starts _ _ H (starts_inv starts HM)) as HI. cbn [snd] in HI.
  apply Forall2_app_inv_r in HI as (k1 & k2 & F1 & F2 & ->). inversion F2; subst. eauto.
Qed.

Lemma ginv_so_far ss ps st h outs g : ginv faults m ss ps st h outs g ->
  (length h = length outs + match g with GAt _ _ => 0 | _ => 1 end)%nat /\
  (outs = firstn (length outs) (fst (fst (polls m ps h st))) \/
   faults = true /\ cut_at m ps st h outs).
Proof.
  assert (T : forall f l cache, at_top m ps st h outs f l cache -> (length h = length outs + 1)%nat /\ outs = firstn (length outs) (fst (fst (polls m ps h st)))).
  { intros f l cache (h0 & now & -> & -> & _). split; [now rewrite app_length, R_len|]. fold (R m ps st (h0 ++ [now])).
    now rewrite R_snoc, firstn_app, Nat.sub_diag, firstn_all, app_nil_r. }
  destruct g as [st' fp|f l cache fp|f [[c s0] e0] l cache w]; cbn [ginv].
  - intros [E [[H _]|(_ & E1 & H)]]; (split; [lia|]); [left|right; auto]. rewrite H at 1. rewrite E. unfold R. 
    replace (length h) with (length (fst (fst (polls m ps h st)))) by apply R_len. now rewrite firstn_all.
  - intros H. apply T in H as [H1 H2]. auto.
  - intros (H & _). apply T in H as [H1 H2]. auto.
Qed.
End System.

(** ** The theorems *)

(** Without failures every stream's polls are those of StreamPoll.v, with the file at the path when each began, whatever
    system calls are short or interrupted and whatever the others do; a stream has at most one poll under way. *)
Theorem C100_plain m starts now0 now l1 p l2 p0 inflate fuel ds csz e ps st : Forall (made_some m) starts ->
  isteps false m (now0, starts) (now, l1 ++ p :: l2) -> nth_error starts (length l1) = Some p0 -> made m inflate fuel ds csz e p0 ps st ->
  right_so_far m ps st p /\ (busy p -> length (p_hist p) = S (length (p_outs p))) /\ (~ busy p -> length (p_hist p) = length (p_outs p)).
Proof.
  intros HM H HN M. destruct (reached false m _ _ _ _ _ _ _ HM H HN) as (_ & _ & I). specialize (I _ _ _ _ _ _ _ M).
  apply ginv_so_far in I as [L [I|[I _]]]; [|discriminate]. split; [exact I|]. unfold busy. destruct (p_g p); split; intros; try lia; tauto.
Qed.
Print Assumptions C100_plain.

(** If calls may fail, polls are right until one of the stream's own fails; that one gives the error, the later ones the end. *)
Theorem C100_failing faults m starts now0 now l1 p l2 p0 inflate fuel ds csz e ps st : Forall (made_some m) starts ->
  isteps faults m (now0, starts) (now, l1 ++ p :: l2) -> nth_error starts (length l1) = Some p0 -> made m inflate fuel ds csz e p0 ps st ->
  right_so_far m ps st p \/ right_until m ps st p.
Proof.
  intros HM H HN M. destruct (reached faults m _ _ _ _ _ _ _ HM H HN) as (_ & _ & I). specialize (I _ _ _ _ _ _ _ M).
  apply ginv_so_far in I as [L [I|[_ I]]]; [left; exact I|right; exact I].
Qed.
Print Assumptions C100_failing.

Lemma items_app a b : items_of (a ++ b) = items_of a ++ items_of b.
Proof. apply flat_map_app. Qed.
Lemma items_ending z n : items_of (ending z n) = [].
Proof.
  assert (X : forall y k, (forall b, y <> PItem b) -> items_of (repeat y k) = []).
  { intros y k H. induction k as [|k IH]; [reflexivity|]. cbn [repeat]. destruct y; try exact IH. now contradiction (H b). }
  destruct z as [|e|]; unfold ending; try (apply X; discriminate).
Qed.
Lemma items_map bs : items_of (map PItem bs) = bs.
Proof. induction bs as [|b bs IH]; [reflexivity|]. cbn. now f_equal. Qed.
Lemma items_firstn_nil k ys : items_of ys = [] -> items_of (firstn k ys) = [].
Proof.
  intros H. rewrite <- (firstn_skipn k ys), items_app in H. now apply app_eq_nil in H as [H _].
Qed.
Lemma items_prefix k bs ys : items_of ys = [] -> items_of (firstn k (map PItem bs ++ ys)) = firstn k bs.
Proof.
  intros H. rewrite firstn_app, items_app, firstn_map, items_map, items_firstn_nil by auto. apply app_nil_r.
Qed.
Lemma end_after k bs ys : In PEnd (firstn k (map PItem bs ++ ys)) -> firstn k bs = bs.
Proof.
  intros H. destruct (Nat.le_gt_cases (length bs) k) as [L|L]; [now apply firstn_all2|].
  rewrite firstn_app, map_length in H. replace (k - length bs)%nat with 0%nat in H by lia. cbn [firstn] in H. rewrite app_nil_r, firstn_map in H.
  apply in_map_iff in H as (b & H & _). discriminate.
Qed.

(** In whatever run, the items a stream has given are the first ones of the stream of the file it opened; all of them, once
    it has said that it is over and gave no error. *)
Theorem C100_items faults m starts now0 now l1 p l2 p0 inflate fuel ds csz e f hist bs z : Forall (made_some m) starts ->
  isteps faults m (now0, starts) (now, l1 ++ p :: l2) -> nth_error starts (length l1) = Some p0 -> low_ds ds -> p_hist p = Some f :: hist ->
  (sys_stream m inflate fuel ds csz e = Ok p0 /\ stream m inflate fuel (mkStreamer ds (Some f) csz) e = Ok (bs, z)) \/
  (exists h al1 al2, sys_xdr m h al1 al2 inflate fuel ds csz e = Ok p0 /\ stream_xdr m h al1 al2 inflate fuel (mkStreamer ds (Some f) csz) e = Ok (bs, z)) ->
  (exists k, items_of (p_outs p) = firstn k bs) /\
  (In PEnd (p_outs p) -> (forall er, ~ In (PErr er) (p_outs p)) -> items_of (p_outs p) = bs).
Proof.
  intros HM H HN HL HH HS.
  assert (X : exists ps st, made m inflate fuel ds csz e p0 ps st /\ fst (fst (polls m ps (p_hist p) st)) =
    firstn (length (p_hist p)) (map PItem bs ++ ending z (length (p_hist p)))).
  { rewrite HH. destruct HS as [[S1 S2]|(h & al1 & al2 & S1 & S2)].
    - pose proof S1 as S1'. unfold sys_stream in S1'. apply bind_ok in S1' as (l & El & S1'). apply bind_ok in S1' as (cap & Ec & _).
      assert (E : stream_start m inflate fuel ds csz e = Ok (mkPS (fun file => load m inflate file ds csz) (Ok 1) cap, Fresh l)) by (unfold stream_start; rewrite El; cbn [bind]; rewrite Ec; reflexivity).
      do 2 eexists. split; [split; [exact HL|left; eauto]|]. apply (C69_items m inflate fuel ds csz e _ _ f hist bs z E S2).
    - pose proof S1 as S1'. unfold sys_xdr in S1'. apply bind_ok in S1' as (l & El & S1'). apply bind_ok in S1' as (cap & Ec & _).
      assert (E : exists ps, xdr_start m h al1 al2 inflate fuel ds csz e = Ok (ps, Fresh l)) by (unfold xdr_start; rewrite El; cbn [bind]; rewrite Ec; cbn [bind]; eauto).
      destruct E as [ps E]. do 2 eexists. split; [split; [exact HL|right; eauto 6]|]. apply (C69_xdr_items m h al1 al2 inflate fuel ds csz e _ _ f hist bs z E S2). }
  destruct X as (ps & st & M & E). destruct (C100_failing faults m _ _ _ _ _ _ _ _ _ _ _ _ _ _ HM H HN M) as [A|(k & er & K1 & _ & A)].
  - unfold right_so_far in A. rewrite E, firstn_firstn in A. split.
    + eexists. rewrite A. apply items_prefix, items_ending.
    + intros P _. rewrite A in *. rewrite items_prefix by apply items_ending. now apply end_after in P.
  - rewrite E, firstn_firstn in A. split.
    + eexists. rewrite A, items_app, items_prefix by apply items_ending.
      assert (Y : forall n, items_of (PErr er :: repeat PEnd n) = []) by (intros n; induction n; auto). rewrite Y. apply app_nil_r.
    + intros _ P. exfalso. apply (P er). rewrite A. apply in_or_app. right. now left.
Qed.
Print Assumptions C100_items.

Lemma gstep_true m ss now g b o g' fl : gstep false m ss now g b o g' -> gstep fl m ss now g b o g'.
Proof.
  intros H. destruct H as [f l fp H1|l fp H1|f l cache fp|fp|fp|f cache fp|f c s0 e0 l cache fp x H1 H2|f c s0 e0 l cache cache' fp s e data b H1 H2 H3
    |f c s0 e0 l cache cache' fp s e data x H1 H2 H3 H4|f c s0 e0 l cache fp v H1 H2|f sl l cache w w' H1 H2|f sl l cache w H1
    |f c s0 e0 l cache w raw s e data b H1 H2 H3 H4 H5 H6|f sl l cache w raw x H1 H2 H3 H4 H5|f c s0 e0 l cache w raw s e data x H1 H2 H3 H4 H5 H6 H7];
    try (econstructor; eassumption).
  - constructor. destruct H1 as [H1|H1]; [auto|discriminate].
  - constructor; auto. destruct H2 as [H2|H2]; [discriminate|auto].
Qed.

Lemma finish_own m now l1 l2 fl ss0 ps st0 : forall n g h outs,
  (forall g b o g' h outs, gstep fl m ss0 now g b o g' -> ginv fl m ss0 ps st0 h outs g -> ginv fl m ss0 ps st0 (h ++ if b then [now] else []) (outs ++ told o) g') ->
  (N.to_nat (gwork g) < n)%nat -> ginv fl m ss0 ps st0 h outs g -> ~ resting g ->
  exists g' y, resting g' /\ isteps false m (now, l1 ++ mkP ss0 g h outs :: l2) (now, l1 ++ mkP ss0 g' h (outs ++ [y]) :: l2).
Proof.
  induction n as [|n IH]; intros g h outs HS Hn HI HB; [lia|].
  destruct (gprog fl m ss0 ps st0 now g h outs HI HB) as (o & g' & S & [(y & -> & R')|(-> & R' & W)]).
  - exists g', y. split; auto. econstructor; [|constructor]. pose proof (is_poll false m now l1 l2 ss0 g false (Some y) g' h outs S) as X. cbn [told] in X. now rewrite app_nil_r in X.
  - pose proof (HS g false None g' h outs (gstep_true _ _ _ _ _ _ _ fl S) HI) as HI'. cbn [told] in HI'. rewrite !app_nil_r in HI'.
    destruct (IH g' h outs HS ltac:(lia) HI' R') as (g2 & y & R2 & X). exists g2, y. split; auto. econstructor; [|exact X].
    pose proof (is_poll false m now l1 l2 ss0 g false None g' h outs S) as Y. cbn [told] in Y. now rewrite !app_nil_r in Y.
Qed.

(** No stream waits for another, nor for the file to be replaced: from any point a poll under way can return by steps of its
    own, and a stream that is not being polled can be. *)
Theorem C100_finish faults m starts now0 now l1 p l2 : Forall (made_some m) starts ->
  isteps faults m (now0, starts) (now, l1 ++ p :: l2) ->
  exists p' y, ~ busy p' /\ p_outs p' = p_outs p ++ [y] /\
    (busy p -> p_hist p' = p_hist p) /\ (~ busy p -> p_hist p' = p_hist p ++ [now]) /\ isteps false m (now, l1 ++ p :: l2) (now, l1 ++ p' :: l2).
Proof.
  intros HM H. destruct (reached_some faults m _ _ _ _ _ _ HM H) as (p0 & E0 & (inflate & fuel & ds & csz & e & ps & st & M) & I). specialize (I _ _ _ _ _ _ _ M).
  pose proof (made_facts _ _ _ _ _ _ _ _ _ M) as (M1 & M2 & M3 & M4 & M5 & _). destruct p as [ss g h outs]. cbn [p_ss p_hist p_outs p_g] in *. subst ss.
  assert (HS : forall g b o g' h outs, gstep faults m (p_ss p0) now g b o g' -> ginv faults m (p_ss p0) ps st h outs g ->
    ginv faults m (p_ss p0) ps st (h ++ if b then [now] else []) (outs ++ told o) g') by (intros; eapply gstep_inv; eauto).
  assert (D : resting g \/ ~ resting g) by (destruct g; cbn; auto). destruct D as [D|D].
  2:{ destruct (finish_own m now l1 l2 faults (p_ss p0) ps st _ g h outs HS (Nat.lt_succ_diag_r _) I D) as (g' & y & R' & X).
      exists (mkP (p_ss p0) g' h (outs ++ [y])), y. split; [destruct g'; cbn; auto|]. split; [reflexivity|]. split; [reflexivity|]. split; [|exact X].
      intros B. contradiction D. destruct g; cbn in *; auto. }
  destruct g as [st' fp|?|?]; try contradiction.
  assert (B : exists o g', gstep false m (p_ss p0) now (GAt st' fp) true o g' /\ ((exists y, o = Some y /\ resting g') \/ o = None /\ ~ resting g')).
  { destruct st' as [l|f l cache| |].
    - destruct now as [f|]; [do 2 eexists; split; [now apply gs_open|right; split; [reflexivity|intros []]]|].
      do 2 eexists. split; [apply gs_noopen; now left|left; eexists; split; [reflexivity|exact Logic.I]].
    - do 2 eexists. split; [apply gs_resume|right; split; [reflexivity|intros []]].
    - do 2 eexists. split; [apply gs_over|left; eexists; split; [reflexivity|exact Logic.I]].
    - do 2 eexists. split; [apply gs_poisoned|left; eexists; split; [reflexivity|exact Logic.I]]. }
  destruct B as (o & g' & S & [(y & -> & R')|(-> & R')]).
  - exists (mkP (p_ss p0) g' (h ++ [now]) (outs ++ [y])), y. split; [destruct g'; cbn; auto|]. split; [reflexivity|]. split; [intros []|]. split; [reflexivity|]. econstructor; [|constructor].
    apply (is_poll false m now l1 l2 (p_ss p0) (GAt st' fp) true (Some y) g' h outs S).
  - pose proof (HS _ true None g' h outs (gstep_true _ _ _ _ _ _ _ faults S) I) as I'. cbn [told] in I'. rewrite app_nil_r in I'.
    destruct (finish_own m now l1 l2 faults (p_ss p0) ps st _ g' (h ++ [now]) outs HS (Nat.lt_succ_diag_r _) I' R') as (g2 & y & R2 & X).
    exists (mkP (p_ss p0) g2 (h ++ [now]) (outs ++ [y])), y. split; [destruct g2; cbn; auto|]. split; [reflexivity|]. split; [intros []|]. split; [reflexivity|]. econstructor; [|exact X].
    pose proof (is_poll false m now l1 l2 (p_ss p0) (GAt st' fp) true None g' h outs S) as Y. cbn [told] in Y. now rewrite app_nil_r in Y.
Qed.
Print Assumptions C100_finish.

(** A poll ends: from any point its steps, interrupted calls not counted, are bounded. *)
Theorem C100_ends faults m starts now0 now l1 p l2 : Forall (made_some m) starts ->
  isteps faults m (now0, starts) (now, l1 ++ p :: l2) -> busy p ->
  exists most, forall n g, within_poll faults m (p_ss p) n (p_g p) g -> (n <= most)%nat.
Proof.
  intros HM H HB. destruct (reached_some faults m _ _ _ _ _ _ HM H) as (p0 & E0 & (inflate & fuel & ds & csz & e & ps & st & M) & I). specialize (I _ _ _ _ _ _ _ M).
  pose proof (made_facts _ _ _ _ _ _ _ _ _ M) as (M1 & M2 & M3 & M4 & M5 & _). rewrite E0.
  exists (N.to_nat (gwork (p_g p))). intros n g W. clear - I W M1 M2 M3 M5.
  induction W as [g|now n g g' S W IH|now n g g1 g' S D W IH]; [lia|auto|].
  destruct (gstep_work faults m (p_ss p0) ps st now g None g1 _ _ S eq_refl I) as [_ [->|L]]; [now contradiction D|].
  pose proof (gstep_inv faults m (p_ss p0) ps st M1 M2 M3 M5 now g false None g1 _ _ S I) as I'. cbn [told] in I'. rewrite !app_nil_r in I'.
  specialize (IH I'). lia.
Qed.
Print Assumptions C100_ends.

Lemma isteps_trans fl m s t u : isteps fl m s t -> isteps fl m t u -> isteps fl m s u.
Proof. induction 1; auto. intros. econstructor; eauto. Qed.

(** Two streams of the example file: the first is polled, the file is removed, the second is polled: it finds no file, while
    the first one's poll goes on and gives its item. *)
Example C100_case m : exists p1 p2 ps1 st1, Forall (made_some m) [p1; p2] /\ made m toy_inflate 13 st_ds 12 st_sel p1 ps1 st1 /\
  (exists bs, stream m toy_inflate 13 (mkStreamer st_ds (Some st_file) 12) st_sel = Ok (bs, SEnd) /\ (2 < length bs)%nat) /\
  exists q1 q2, busy q1 /\ p_outs q2 = [PErr EOpen] /\ isteps false m (Some st_file, [p1; p2]) (None, [q1; q2]) /\
  exists r1 b, ~ busy r1 /\ p_outs r1 = [PItem b] /\ p_hist r1 = [Some st_file] /\ isteps false m (Some st_file, [p1; p2]) (None, [r1; q2]).
Proof.
  assert (HK : low_ds st_ds).
  { intros c H. assert (F : forallb (fun c => c_addr c <? 2 ^ 63) (d_chunks st_ds) = true) by (vm_compute; reflexivity).
    rewrite forallb_forall in F. apply N.ltb_lt. now apply F. }
  assert (E1 : exists p ps st, sys_stream m toy_inflate 13 st_ds 12 st_sel = Ok p /\ stream_start m toy_inflate 13 st_ds 12 st_sel = Ok (ps, st) /\
    (exists b, fst (fst (polls m ps [Some st_file] st)) = [PItem b]) /\ exists ss l, p = mkP ss (GAt (Fresh l) 0) [] []).
  { destruct m; do 3 eexists; (split; [vm_compute; reflexivity|]); (split; [vm_compute; reflexivity|]);
      (split; [eexists; vm_compute; reflexivity|]); do 2 eexists; reflexivity. }
  assert (E2 : exists p ps st, sys_xdr m HostLE true true toy_inflate 13 st_ds 12 st_sel = Ok p /\ xdr_start m HostLE true true toy_inflate 13 st_ds 12 st_sel = Ok (ps, st) /\
    exists ss l, p = mkP ss (GAt (Fresh l) 0) [] []).
  { destruct m; do 3 eexists; (split; [vm_compute; reflexivity|]); (split; [vm_compute; reflexivity|]); do 2 eexists; reflexivity. }
  destruct E1 as (p1 & ps1 & st1 & A1 & B1 & (b & R1) & ss1 & l1 & D1). destruct E2 as (p2 & ps2 & st2 & A2 & B2 & ss2 & l2 & D2).
  assert (M1 : made m toy_inflate 13 st_ds 12 st_sel p1 ps1 st1) by (split; auto).
  assert (M2 : made m toy_inflate 13 st_ds 12 st_sel p2 ps2 st2) by (split; [auto|right; do 3 eexists; split; eassumption]).
  exists p1, p2, ps1, st1. assert (HM : Forall (made_some m) [p1; p2]).
  { constructor; [do 7 eexists; exact M1|]. constructor; [do 7 eexists; exact M2|constructor]. }
  split; [exact HM|]. split; [exact M1|]. split; [destruct m; eexists; (split; [vm_compute; reflexivity|cbn; lia])|].
  subst p1 p2. exists (mkP ss1 (GTop st_file l1 [] 0) [Some st_file] []), (mkP ss2 (GAt Over 0) [None] [PErr EOpen]).
  split; [exact I|]. split; [reflexivity|].
  match goal with |- ?S /\ _ => assert (ST : S) end.
  { econstructor; [apply (is_poll false m (Some st_file) [] _ ss1 _ true None (GTop st_file l1 [] 0) [] []); now apply gs_open|]. cbn [app told].
    econstructor; [apply (is_file false m _ None)|].
    econstructor; [apply (is_poll false m None [_] [] ss2 _ true (Some (PErr EOpen)) (GAt Over 0) [] []); apply gs_noopen; now left|]. cbn [app told]. constructor. }
  split; [exact ST|].
  destruct (C100_finish false m _ _ _ [] _ _ HM ST) as (r1 & y & N1 & O1 & H1 & _ & X). cbn [p_outs p_hist app] in O1, H1, X. specialize (H1 I).
  assert (Y := isteps_trans _ _ _ _ _ ST X). exists r1, b. split; [exact N1|]. split; [|split; [exact H1|exact Y]].
  destruct (C100_plain m _ _ _ [] r1 _ _ _ _ _ _ _ _ _ HM Y eq_refl M1) as [P _]. unfold right_so_far in P. rewrite H1, O1, R1 in P. cbn in P. now rewrite O1, P.
Qed.
