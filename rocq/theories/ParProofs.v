(** * The parallel reader: all schedules. *)
From Verif Require Import Base Spec Extent Chunk Dataset Slicer Filters SpecApi SpecFilter SpecReader
  FilterProofs Termination GroupProofs SliceProps Writes Reader CacheProofs DirectProofs.

(** ** Grouping *)

Lemma chunk_by_concat l : concat (chunk_by_addr l) = l.
Proof.
  induction l as [|g l IH]; cbn [chunk_by_addr]; auto.
  destruct (chunk_by_addr l) as [|[|h t] gs]; cbn [concat app] in *; try now rewrite IH.
  destruct (_ =? _); cbn [concat app] in *; now rewrite IH.
Qed.

Definition group_ok (grp : list gsegment) : Prop :=
  match grp with [] => False | g :: _ => Forall (fun h => g_addr h = g_addr g) grp end.
Lemma chunk_by_ok l : Forall group_ok (chunk_by_addr l).
Proof.
  induction l as [|g l IH]; cbn [chunk_by_addr]; [constructor|].
  destruct (chunk_by_addr l) as [|[|h t] gs]; cbn [group_ok] in *.
  - constructor; auto. cbn. constructor; auto.
  - inversion IH; subst. contradiction.
  - inversion IH as [|? ? H1 H2]; subst. destruct (N.eqb_spec (g_addr g) (g_addr h)) as [E|].
    + constructor; auto. cbn. rewrite E. constructor; auto.
    + constructor; auto. cbn. constructor; auto.
Qed.

(** ** One task *)

Lemma par_seg_iff m L dsz c cur a b data dlen ws : L c = Ok data ->
  (par_seg m data dsz cur a b dlen = Ok ws <-> gseg_ok m L dsz dlen (c, cur, a, b) ws).
Proof.
  intros EL. unfold par_seg, gseg_ok, seg_ok, g_dest, g_chunk, g_from. cbn [fst snd]. split.
  - intros H. apply bind_ok in H as (s & Es & H). apply bind_ok in H as (e & Ee & H).
    apply bind_ok in H as (p & Ep & H). debind H. debind H. apply bind_ok in H as (sz & Esz & H).
    debind H. apply bind_ok in H as (src & Esrc & H). apply slice_range_ok in Esrc as (Hse & Hed & Esrc).
    rewrite sub64_ok in Esz by auto. injection Esz as <-.
    assert (LS : lenN src = e - s) by (rewrite Esrc; now apply slice_len).
    destruct (N.leb_spec (p + (e - s)) dlen); [|discriminate]. injection H as <-.
    exists p, src. split; auto. split; [exists s, e, data; repeat split; auto|]. split; [lia|].
    f_equal. f_equal. unfold lenN in LS. lia.
  - intros (p & o & Ep & (s & e & data' & Es & Ee & Hse & EL' & Hed & Eo) & Hb & ->).
    assert (data' = data) by congruence. subst data'.
    assert (LS : lenN o = e - s) by (rewrite Eo; now apply slice_len).
    rewrite Es, Ee, Ep. cbn [bind].
    rewrite dbg_ok by (apply leb_true; lia). rewrite dbg_ok by (apply leb_true; lia). cbn [bind].
    rewrite sub64_ok by auto. cbn [bind]. rewrite (leb_true p) by lia. cbn [assert_ bind].
    rewrite slice_range_eq by auto. cbn [bind]. rewrite <- Eo.
    rewrite (leb_true (p + (e - s))) by lia. do 3 f_equal. unfold lenN in LS. lia.
Qed.

Lemma fin_of_ok {A} (x : res A) : fin_of x = FOk -> exists a, x = Ok a.
Proof. destruct x; try discriminate. eauto. Qed.

Lemma par_segs_iff m L dsz dlen data : forall grp ws,
  Forall (fun g => L (g_chunk g) = Ok data) grp ->
  (par_segs m data dsz dlen grp = (ws, FOk) <->
   exists wss, Forall2 (gseg_ok m L dsz dlen) grp wss /\ ws = concat wss).
Proof.
  induction grp as [|[[[c cur] a] b] grp IH]; intros ws HF; cbn [par_segs].
  - split.
    + intros [= <-]. exists []. split; [constructor|reflexivity].
    + intros (wss & H & ->). inversion H; subst. reflexivity.
  - inversion HF as [|? ? H1 H2]; subst. unfold g_chunk in H1. cbn [fst] in H1.
    pose proof (fun w => par_seg_iff m L dsz c cur a b data dlen w H1) as PI.
    assert (HN : (forall w, par_seg m data dsz cur a b dlen <> Ok w) ->
      ~ exists wss, Forall2 (gseg_ok m L dsz dlen) ((c, cur, a, b) :: grp) wss /\ ws = concat wss).
    { intros HN (wss & HH & ->). inversion HH as [|? w ? wss' W1 W2]; subst. apply PI in W1. now apply HN in W1. }
    destruct (par_seg m data dsz cur a b dlen) as [w1| | | |];
      try (split; [cbn [fin_of]; discriminate|intros HX; exfalso; apply HN; [discriminate|exact HX]]).
    pose proof (proj1 (PI w1) eq_refl) as W0.
    specialize (IH). destruct (par_segs m data dsz dlen grp) as [ws' f]. split.
    + intros [= <- ->]. destruct (proj1 (IH ws' H2) eq_refl) as (wss & A & ->).
      exists (w1 :: wss). split; [now constructor|reflexivity].
    + intros (wss & HH & ->). inversion HH as [|? w ? wss' W1 W2]; subst.
      rewrite (gseg_fun _ _ _ _ _ _ _ W1 W0). cbn [concat].
      pose proof (proj2 (IH (concat wss') H2) (ex_intro _ wss' (conj W2 eq_refl))) as E.
      injection E as -> ->. reflexivity.
Qed.

Lemma par_task_iff m inflate r file dlen grp ws :
  dr_file r = Some file -> same_addr (dr_ds r) -> group_ok grp ->
  Forall (fun g => In (g_chunk g) (d_chunks (dr_ds r))) grp ->
  (par_task m inflate r dlen grp = (ws, FOk) <->
   exists wss, Forall2 (gseg_ok m (dload m inflate r file) (d_dsize (dr_ds r)) dlen) grp wss /\ ws = concat wss).
Proof.
  intros Hf HA HG HF. unfold par_task. rewrite Hf. destruct grp as [|[[[c cur] a] b] grp]; [easy|].
  cbn [group_ok] in HG. fold (dload m inflate r file c).
  destruct (dload m inflate r file c) as [data| | | |] eqn:EL.
  - apply par_segs_iff. apply Forall_forall. intros g Hg.
    rewrite Forall_forall in HG, HF. specialize (HG g Hg). pose proof (HF g Hg) as H1.
    pose proof (HF _ (or_introl eq_refl)) as H0. unfold g_chunk in H0 at 1. cbn [fst] in H0.
    rewrite <- EL. unfold dload. destruct g as [[[c' ?] ?] ?]. unfold g_chunk, g_addr in *. cbn [fst] in *.
    apply load_same; auto.
  - split; [discriminate|]. intros (wss & HH & ->). inversion HH as [|? w ? wss' W1 W2]; subst.
    destruct W1 as (p1 & o1 & _ & (s1 & e1 & d1 & _ & _ & _ & E & _) & _). cbn in E. congruence.
  - split; [discriminate|]. intros (wss & HH & ->). inversion HH as [|? w ? wss' W1 W2]; subst.
    destruct W1 as (p1 & o1 & _ & (s1 & e1 & d1 & _ & _ & _ & E & _) & _). cbn in E. congruence.
  - split; [discriminate|]. intros (wss & HH & ->). inversion HH as [|? w ? wss' W1 W2]; subst.
    destruct W1 as (p1 & o1 & _ & (s1 & e1 & d1 & _ & _ & _ & E & _) & _). cbn in E. congruence.
  - split; [discriminate|]. intros (wss & HH & ->). inversion HH as [|? w ? wss' W1 W2]; subst.
    destruct W1 as (p1 & o1 & _ & (s1 & e1 & d1 & _ & _ & _ & E & _) & _). cbn in E. congruence.
Qed.

(** All tasks succeed exactly if all grouped segments do. *)
Lemma tasks_iff m inflate r file dlen : dr_file r = Some file -> same_addr (dr_ds r) -> forall gs,
  Forall group_ok gs -> Forall (fun g => In (g_chunk g) (d_chunks (dr_ds r))) (concat gs) ->
  (Forall (fun t => snd t = FOk) (map (par_task m inflate r dlen) gs) <->
   exists wss, Forall2 (gseg_ok m (dload m inflate r file) (d_dsize (dr_ds r)) dlen) (concat gs) wss) /\
  (forall wss, Forall2 (gseg_ok m (dload m inflate r file) (d_dsize (dr_ds r)) dlen) (concat gs) wss ->
     concat (map fst (map (par_task m inflate r dlen) gs)) = concat wss).
Proof.
  intros Hf HA. induction gs as [|grp gs IH]; intros HG HF; cbn [concat map].
  - split; [|intros wss H; inversion H; reflexivity]. split; [exists []; constructor|constructor].
  - inversion HG as [|? ? G1 G2]; subst. cbn [concat] in HF. apply Forall_app in HF as [F1 F2].
    destruct (IH G2 F2) as [I1 I2].
    pose proof (fun ws => par_task_iff m inflate r file dlen grp ws Hf HA G1 F1) as PI.
    split; [split|].
    + intros H. inversion H as [|? ? H1 H2]; subst. apply I1 in H2 as (wss2 & W2).
      destruct (par_task m inflate r dlen grp) as [ws f]. cbn [snd] in H1. subst f.
      destruct (proj1 (PI ws) eq_refl) as (wss1 & W1 & _). exists (wss1 ++ wss2). now apply Forall2_app.
    + intros (wss & W). apply Forall2_app_inv_l in W as (wss1 & wss2 & W1 & W2 & ->). constructor.
      * now rewrite (proj2 (PI (concat wss1)) (ex_intro _ wss1 (conj W1 eq_refl))).
      * apply I1. eauto.
    + intros wss W. apply Forall2_app_inv_l in W as (wss1 & wss2 & W1 & W2 & ->).
      rewrite (proj2 (PI (concat wss1)) (ex_intro _ wss1 (conj W1 eq_refl))). cbn [fst].
      rewrite (I2 wss2 W2). now rewrite concat_app.
Qed.

(** ** Schedules *)

(** A task, its state, and the writes it has made. *)
Record tracked : Type := mkT { t_task : task; t_state : tstate; t_done : list (N * N) }.
Definition t_ok (z : tracked) : Prop :=
  match t_state z with
  | Waiting t => t = t_task z /\ t_done z = []
  | Running ws f => t_done z ++ ws = fst (t_task z) /\ f = snd (t_task z)
  | Done f => t_done z = fst (t_task z) /\ f = snd (t_task z)
  | Skipped => t_done z = []
  end.

Definition pinv (ts : list task) (dst : bytes) (s : list tstate * bytes) : Prop :=
  exists zs tr, map t_task zs = ts /\ map t_state zs = fst s /\ Forall t_ok zs /\
    Permutation tr (concat (map t_done zs)) /\ snd s = apply_writes tr dst /\
    (In Skipped (fst s) -> exists f, In (Done f) (fst s) /\ is_failure f).

Lemma split_states zs l1 x l2 : map t_state zs = l1 ++ x :: l2 ->
  exists z1 z z2, zs = z1 ++ z :: z2 /\ map t_state z1 = l1 /\ t_state z = x /\ map t_state z2 = l2.
Proof.
  intros H. apply map_eq_app in H as (z1 & z3 & -> & <- & H).
  apply map_eq_cons in H as (z & z2 & -> & <- & <-). eauto 8.
Qed.

Lemma in_mid {A} (x y : A) l1 l2 : In x (l1 ++ l2) -> In x (l1 ++ y :: l2).
Proof. rewrite !in_app_iff. cbn. tauto. Qed.
Lemma in_mid_inv {A} (x y : A) l1 l2 : In x (l1 ++ y :: l2) -> x = y \/ In x (l1 ++ l2).
Proof. rewrite !in_app_iff. cbn. intuition. Qed.

Lemma pinv_step ts dst s s' : pinv ts dst s -> pstep s s' -> pinv ts dst s'.
Proof.
  intros (zs & tr & HT & HS & HO & HP & HD & HK) H. destruct H; cbn [fst snd] in *;
    apply split_states in HS as (z1 & z & z2 & -> & <- & Hz & <-);
    apply Forall_app in HO as [O1 O2]; inversion O2 as [|? ? Oz O3]; subst;
    unfold t_ok in Oz; rewrite Hz in Oz.
  - destruct Oz as [E1 E2].
    exists (z1 ++ mkT (t_task z) (Running ws f) [] :: z2), tr.
    rewrite !map_app. cbn [map t_task t_state t_done fst snd].
    split; [auto|]. split; [auto|]. split.
    { apply Forall_app. split; auto. constructor; auto. cbn. rewrite <- E1. auto. }
    split. { rewrite map_app in HP. cbn [map] in HP. now rewrite E2 in HP. }
    split; auto. intros HI. apply in_mid_inv in HI as [HI|HI]; [discriminate|].
    destruct HK as (f' & HI' & Hf'); [now apply in_mid|].
    apply in_mid_inv in HI' as [HI'|HI']; [discriminate|]. exists f'. split; auto. now apply in_mid.
  - destruct Oz as [E1 E2].
    exists (z1 ++ mkT (t_task z) (Running ws f) (t_done z ++ [(p, b)]) :: z2), (tr ++ [(p, b)]).
    rewrite !map_app. cbn [map t_task t_state t_done fst snd].
    split; [auto|]. split; [auto|]. split.
    { apply Forall_app. split; auto. constructor; auto. cbn. rewrite <- app_assoc. auto. }
    split.
    { rewrite map_app in HP. cbn [map] in HP. rewrite !concat_app in *. cbn [concat] in *.
      rewrite HP, <- !app_assoc. do 2 apply Permutation_app_head. cbn [app]. symmetry.
      apply Permutation_cons_append. }
    split. { rewrite apply_app. cbn [apply_writes]. reflexivity. }
    intros HI. apply in_mid_inv in HI as [HI|HI]; [discriminate|].
    destruct HK as (f' & HI' & Hf'); [now apply in_mid|].
    apply in_mid_inv in HI' as [HI'|HI']; [discriminate|]. exists f'. split; auto. now apply in_mid.
  - destruct Oz as [E1 E2].
    exists (z1 ++ mkT (t_task z) (Done f) (t_done z) :: z2), tr.
    rewrite !map_app. cbn [map t_task t_state t_done fst snd].
    split; [auto|]. split; [auto|]. split.
    { apply Forall_app. split; auto. constructor; auto. cbn. rewrite <- E1, app_nil_r. auto. }
    split. { rewrite map_app in HP. cbn [map] in HP. exact HP. }
    split; auto.
    intros HI. apply in_mid_inv in HI as [HI|HI]; [discriminate|].
    destruct HK as (f' & HI' & Hf'); [now apply in_mid|].
    apply in_mid_inv in HI' as [HI'|HI']; [discriminate|]. exists f'. split; auto. now apply in_mid.
  - destruct Oz as [E1 E2].
    exists (z1 ++ mkT (t_task z) Skipped [] :: z2), tr.
    rewrite !map_app. cbn [map t_task t_state t_done fst snd].
    split; [auto|]. split; [auto|]. split.
    { apply Forall_app. split; auto. constructor; auto. cbn. auto. }
    split. { rewrite map_app in HP. cbn [map] in HP. now rewrite E2 in HP. }
    split; auto. intros _. exists f. split; auto. now apply in_mid.
Qed.

Lemma pinv_init ts dst : pinv ts dst (map (@Waiting) ts, dst).
Proof.
  exists (map (fun t => mkT t (Waiting t) []) ts), []. rewrite !map_map. cbn [t_task t_state t_done fst snd].
  split; [apply map_id|]. split; auto. split.
  { apply Forall_forall. intros z Hz. apply in_map_iff in Hz as (t & <- & _). cbn. auto. }
  split. { induction ts; cbn [map concat app]; auto. }
  split; auto. intros HI. apply in_map_iff in HI as (t & E & _). discriminate.
Qed.

Lemma pinv_steps ts dst s s' : psteps s s' -> pinv ts dst s -> pinv ts dst s'.
Proof. induction 1 as [|s t u H HS IH]; auto. intros HI. apply IH. eapply pinv_step; eauto. Qed.

Lemma done_fin zs f : Forall t_ok zs -> In (Done f) (map t_state zs) -> In f (map snd (map t_task zs)).
Proof.
  intros HO HI. apply in_map_iff in HI as (z & Ez & Hz). rewrite Forall_forall in HO. specialize (HO z Hz).
  unfold t_ok in HO. rewrite Ez in HO. destruct HO as [_ ->]. rewrite map_map. apply in_map_iff. eauto.
Qed.

(** If all tasks succeed, every schedule ends in success with all writes made. *)
Lemma par_all_ok ts dst final dst' x :
  Forall (fun t => snd t = FOk) ts -> psteps (map (@Waiting) ts, dst) (final, dst') ->
  Forall finished final -> par_result final x ->
  x = Ok tt /\ exists tr, Permutation tr (concat (map fst ts)) /\ dst' = apply_writes tr dst.
Proof.
  intros HT HS HF HR. pose proof (pinv_steps ts dst _ _ HS (pinv_init ts dst)) as PI.
  destruct PI as (zs & tr & E1 & E2 & HO & HP & HD & HK). cbn [fst snd] in *.
  assert (FOK : forall f, In (Done f) final -> f = FOk).
  { intros f Hf. rewrite <- E2 in Hf. apply done_fin in Hf; auto. rewrite E1 in Hf.
    apply in_map_iff in Hf as (t & <- & Ht). rewrite Forall_forall in HT. auto. }
  split.
  - destruct HR as [H|H0 H|e H0 H1 H|H]; auto; apply FOK in H; discriminate.
  - exists tr. split; auto. rewrite HP.
    assert (E : map t_done zs = map fst ts); [|now rewrite E].
    rewrite <- E1, map_map. apply map_ext_in. intros z Hz.
    rewrite Forall_forall in HO, HF. specialize (HO z Hz).
    assert (Hin : In (t_state z) final) by (rewrite <- E2; now apply in_map).
    specialize (HF _ Hin). unfold t_ok in HO. destruct (t_state z) eqn:Ez; try contradiction; [tauto|].
    destruct (HK Hin) as (f & Hf & Hn). apply FOK in Hf. now apply Hn in Hf.
Qed.

(** If a schedule ends in success, all tasks succeeded. *)
Lemma par_ok_all ts dst final dst' :
  psteps (map (@Waiting) ts, dst) (final, dst') -> Forall finished final -> par_result final (Ok tt) ->
  Forall (fun t => snd t = FOk) ts.
Proof.
  intros HS HF HR. pose proof (pinv_steps ts dst _ _ HS (pinv_init ts dst)) as PI.
  destruct PI as (zs & tr & E1 & E2 & HO & HP & HD & HK). cbn [fst snd] in *.
  inversion HR as [| | |FOK]; subst. apply Forall_forall. intros t Ht. apply in_map_iff in Ht as (z & <- & Hz).
  rewrite Forall_forall in HO, HF. specialize (HO z Hz).
  assert (Hin : In (t_state z) (map t_state zs)) by now apply in_map.
  specialize (HF _ Hin). unfold t_ok in HO. destruct (t_state z) eqn:Ez; try contradiction.
  - destruct HO as [_ <-]. auto.
  - destruct (HK Hin) as (f & Hf & Hn). apply FOK in Hf. now apply Hn in Hf.
Qed.

(** Outcomes come from the tasks. *)
Lemma par_result_from ts dst final dst' x :
  psteps (map (@Waiting) ts, dst) (final, dst') -> par_result final x ->
  match x with
  | Ub => In FUb (map snd ts)
  | Panic => In FPanic (map snd ts)
  | Err e => In (FErr e) (map snd ts)
  | Hang => False
  | Ok _ => True
  end.
Proof.
  intros HS HR. pose proof (pinv_steps ts dst _ _ HS (pinv_init ts dst)) as PI.
  destruct PI as (zs & tr & E1 & E2 & HO & HP & HD & HK). cbn [fst snd] in *. subst final ts.
  destruct HR as [H|H0 H|e H0 H1 H|H]; auto; now apply done_fin.
Qed.

(** Bytes outside the tasks' writes are never changed, whatever the outcome. *)
Lemma par_writes ts dst final dst' :
  psteps (map (@Waiting) ts, dst) (final, dst') ->
  exists tr rest, Permutation (tr ++ rest) (concat (map fst ts)) /\ dst' = apply_writes tr dst.
Proof.
  intros HS. pose proof (pinv_steps ts dst _ _ HS (pinv_init ts dst)) as PI.
  destruct PI as (zs & tr & E1 & E2 & HO & HP & HD & HK). cbn [fst snd] in *. subst ts.
  assert (H : exists rest, Permutation (concat (map t_done zs) ++ rest) (concat (map fst (map t_task zs)))).
  { clear -HO. induction zs as [|z zs IH]; cbn [map concat]; [exists []; reflexivity|].
    inversion HO as [|? ? Oz O]; subst. destruct (IH O) as (rest & P).
    assert (exists r, t_done z ++ r = fst (t_task z)) as (r & <-).
    { unfold t_ok in Oz. destruct (t_state z).
      - destruct Oz as [_ Q]. exists (fst (t_task z)). now rewrite Q.
      - destruct Oz as [Q _]. eauto.
      - destruct Oz as [Q _]. exists []. now rewrite app_nil_r.
      - exists (fst (t_task z)). now rewrite Oz. }
    exists (r ++ rest). rewrite <- P. rewrite <- !app_assoc. apply Permutation_app_head.
    rewrite !app_assoc. apply Permutation_app_tail, Permutation_app_comm. }
  destruct H as (rest & P). exists tr, rest. split; auto. rewrite <- P. now apply Permutation_app_tail.
Qed.

(** ** Progress and termination of the scheduler *)

Definition weight (t : tstate) : nat :=
  match t with Waiting (ws, _) => 2 + length ws | Running ws _ => 1 + length ws | _ => 0 end.
Definition tot (l : list tstate) : nat := list_sum (map weight l).

Lemma list_sum_app' a b : list_sum (a ++ b) = (list_sum a + list_sum b)%nat.
Proof. unfold list_sum. induction a; cbn; auto. lia. Qed.
Lemma pstep_less s s' : pstep s s' -> (tot (fst s') < tot (fst s))%nat.
Proof.
  destruct 1; unfold tot; cbn [fst]; rewrite !map_app, !list_sum_app'; cbn [map weight list_sum fold_right length];
    try destruct t; lia.
Qed.
Lemma pstep_acc s : Acc (fun t u => pstep u t) s.
Proof.
  remember (tot (fst s)) as n. revert s Heqn. induction n as [n IH] using (well_founded_ind lt_wf).
  intros s ->. constructor. intros t H. apply (IH (tot (fst t))); auto. now apply pstep_less.
Qed.
Lemma pstep_progress l dst : ~ Forall finished l -> exists s, pstep (l, dst) s.
Proof.
  intros H. assert (E : exists t, In t l /\ ~ finished t).
  { clear -H. induction l as [|t l IH]; [destruct H; constructor|].
    destruct t; try (eexists; split; [now left|cbn; tauto]).
    - destruct IH as (t & A & B); [intros HH; apply H; constructor; cbn; auto|]. exists t. split; [now right|auto].
    - destruct IH as (t & A & B); [intros HH; apply H; constructor; cbn; auto|]. exists t. split; [now right|auto]. }
  destruct E as (t & Ht & Hn). apply in_split in Ht as (l1 & l2 & ->).
  destruct t as [[ws f]|[|[p b] ws] f|f|]; cbn in Hn; try tauto; eexists; constructor.
Qed.
Lemma par_finishes l dst : exists s, psteps (l, dst) s /\ Forall finished (fst s).
Proof.
  assert (G : forall s, exists s', psteps s s' /\ Forall finished (fst s')).
  { intros s. induction (pstep_acc s) as [s _ IH].
    assert (D : Forall finished (fst s) \/ ~ Forall finished (fst s)).
    { destruct (Forall_dec finished) with (l := fst s) as [?|?]; auto. intros []; cbn; auto. }
    destruct D as [D|D]; [exists s; split; [constructor|auto]|].
    destruct s as [l0 d0]. destruct (pstep_progress l0 d0 D) as (s1 & H1).
    destruct (IH s1 H1) as (s2 & H2 & H3). exists s2. split; auto. econstructor; eauto. }
  apply G.
Qed.
Lemma par_result_exists l : Forall finished l -> exists x, par_result l x.
Proof.
  intros HF.
  assert (D : forall f : fin, {In (Done f) l} + {~ In (Done f) l}).
  { intros f. apply in_dec. decide equality; try decide equality; try apply N.eq_dec; try decide equality;
      try decide equality; try apply N.eq_dec; decide equality; decide equality; apply N.eq_dec. }
  destruct (D FUb); [exists Ub; now constructor|]. destruct (D FPanic); [exists Panic; now constructor|].
  assert (E : (exists e, In (Done (FErr e)) l) \/ (forall f, In (Done f) l -> f = FOk)).
  { clear HF D. induction l as [|t l IH]; [right; easy|].
    destruct IH as [[e He]|IH]; [cbn in *; tauto|cbn in *; tauto|left; exists e; now right|].
    destruct t as [t0|ws f|f|]; try (right; intros f' [H|H]; [discriminate|auto]; fail).
    destruct f as [|e| |]; try (exfalso; cbn in *; tauto).
    - right. intros f' [[= <-]|H]; auto.
    - left. exists e. now left. }
  destruct E as [[e He]|E]; [exists (Err e)|exists (Ok tt)]; now constructor.
Qed.

(** ** The whole read *)

Definition tasks_of (m : mode) (inflate : bytes -> option bytes) (r : direct) (dlen : N) (G : list gsegment)
    : list task := map (par_task m inflate r dlen) (chunk_by_addr G).

Lemma par_read_total m inflate sort fuel r e dst : exists x dst', par_read m inflate sort fuel r e dst x dst'.
Proof.
  destruct (read_size m (dr_ds r) e dst) as [v| | | |] eqn:E1;
    try (do 2 eexists; eapply pa_size; [exact E1|discriminate]; fail).
  destruct (group_chunk_slices sort m fuel (dr_ds r) e) as [G| | | |] eqn:E2;
    try (do 2 eexists; eapply pa_group; [exact E1|exact E2|discriminate]; fail).
  destruct (par_finishes (map (fun g => Waiting (par_task m inflate r (lenN dst) g)) (chunk_by_addr G)) dst)
    as ([final dst'] & H1 & H2). destruct (par_result_exists _ H2) as (x & Hx).
  do 2 eexists. eapply pa_run; eauto.
Qed.

Lemma map_waiting {A} (f : A -> task) l : map (fun g => Waiting (f g)) l = map (@Waiting) (map f l).
Proof. now rewrite map_map. Qed.

Lemma tasks_group m inflate sort fuel r file e dlen G :
  addr_sort sort -> same_addr (dr_ds r) -> dr_file r = Some file ->
  group_chunk_slices sort m fuel (dr_ds r) e = Ok G ->
  (Forall (fun t => snd t = FOk) (tasks_of m inflate r dlen G) <->
   exists wss, Forall2 (gseg_ok m (dload m inflate r file) (d_dsize (dr_ds r)) dlen) G wss) /\
  (forall wss, Forall2 (gseg_ok m (dload m inflate r file) (d_dsize (dr_ds r)) dlen) G wss ->
     concat (map fst (tasks_of m inflate r dlen G)) = concat wss).
Proof.
  intros HS HA Hf EG. pose proof (group_chunks _ _ _ _ _ _ HS EG) as HG.
  rewrite <- (chunk_by_concat G) in HG.
  destruct (tasks_iff m inflate r file dlen Hf HA (chunk_by_addr G) (chunk_by_ok G) HG) as [A B].
  rewrite chunk_by_concat in A, B. auto.
Qed.

(** A sequential read that succeeds: every schedule gives the same. *)
Lemma par_of_plain m inflate sort fuel r file e dst v dst' x d :
  addr_sort sort -> same_addr (dr_ds r) -> 0 < d_dsize (dr_ds r) -> lenN dst < W64 -> dr_file r = Some file ->
  plain_read m inflate fuel file (dr_ds r) (dr_csz r) e dst = (Ok v, dst') ->
  par_read m inflate sort fuel r e dst x d -> x = Ok v /\ d = dst'.
Proof.
  intros HS HA Hd HW Hf HP HR. apply plain_read_iff in HP as (Ev & out & RW & ->).
  destruct (group_of_read _ _ sort _ _ _ _ _ HS Hd HW RW) as (G & wss & [EG HF] & P).
  destruct (tasks_group m inflate sort fuel r file e (lenN dst) G HS HA Hf EG) as [T1 T2].
  inversion HR as [x' E1 E2|v' x' E1 E2 E3|v' G' final d' x' E1 E2 E3 E4 E5]; subst.
  - now apply E2 in Ev.
  - now apply E3 in EG.
  - rewrite EG in E2. injection E2 as <-. rewrite map_waiting in E3.
    destruct (par_all_ok _ _ _ _ _ (proj2 T1 (ex_intro _ wss HF)) E3 E4 E5) as (-> & tr & PT & ->).
    cbn [bind]. split; [congruence|].
    fold (tasks_of m inflate r (lenN dst) G) in PT. rewrite (T2 wss HF), P in PT.
    destruct RW as (segs & os & _ & _ & _ & Hb).
    assert (EF : map fst (combine (seqN 0 (length out)) out) = seqN 0 (length out))
      by (apply map_fst_combine; apply seqN_length).
    rewrite <- (apply_combine out 0 dst) by lia. symmetry. apply apply_perm.
    + now symmetry.
    + rewrite EF. apply seqN_NoDup.
    + apply in_bounds_combine. lia.
Qed.

(** A schedule that succeeds: the sequential read succeeds. *)
Lemma plain_of_par m inflate sort fuel r file e dst v d :
  addr_sort sort -> same_addr (dr_ds r) -> 0 < d_dsize (dr_ds r) -> lenN dst < W64 -> dr_file r = Some file ->
  par_read m inflate sort fuel r e dst (Ok v) d ->
  plain_read m inflate fuel file (dr_ds r) (dr_csz r) e dst = (Ok v, d).
Proof.
  intros HS HA Hd HW Hf HR.
  assert (exists d', plain_read m inflate fuel file (dr_ds r) (dr_csz r) e dst = (Ok v, d')) as (d' & E).
  { inversion HR as [x' E1 E2|v' x' E1 E2 E3 EE|v' G final d' x' E1 E2 E3 E4 E5 E6]; subst.
    - now destruct (E2 v).
    - destruct (group_chunk_slices sort m fuel (dr_ds r) e); cbn [failed] in *; try discriminate.
    - destruct x' as [[]| | | |]; cbn [bind] in E6; try discriminate. injection E6 as ->.
      rewrite map_waiting in E3. apply par_ok_all in E3; auto.
      destruct (tasks_group m inflate sort fuel r file e (lenN dst) G HS HA Hf E2) as [T1 T2].
      destruct (proj1 T1 E3) as (wss & HF).
      destruct (read_of_group _ _ sort _ _ _ _ G wss HS Hd HW (conj E2 HF)) as (out & RW).
      exists (splice dst 0 out). apply plain_read_iff. eauto. }
  destruct (par_of_plain m inflate sort fuel r file e dst v d' (Ok v) d HS HA Hd HW Hf E HR) as [_ ->]. exact E.
Qed.
