(** * Property theorems C58: what a failed read of a damaged file leaves in the buffer. *)
From Verif Require Import Base Spec Safe Extent Chunk Dataset Slicer SpecApi ExtentProofs ApiLemmas Termination
  GroupProofs SliceProps Filters SpecFilter FilterProps Reader SpecReader CacheProofs Writes DirectProofs ParProofs
  ReadProofs ReaderProps StreamProofs Properties4 Properties15 Examples ExamplesReader.

(** ** Specification *)

(** Element by element (of [dsz] bytes), [d] holds what [dst] holds or what [good] holds. *)
Definition mixed (dsz : N) (dst good d : bytes) : Prop :=
  length d = length dst /\
  forall j, (forall i, j * dsz <= i < (j + 1) * dsz -> nth_error d (N.to_nat i) = nth_error dst (N.to_nat i)) \/
            (forall i, j * dsz <= i < (j + 1) * dsz -> nth_error d (N.to_nat i) = nth_error good (N.to_nat i)).

(** The first [k] elements of [good], the others of [dst]. *)
Definition partly (dsz : N) (dst good d : bytes) : Prop :=
  exists k, (N.to_nat (k * dsz) <= length dst)%nat /\
    d = firstn (N.to_nat (k * dsz)) good ++ skipn (N.to_nat (k * dsz)) dst.

(** A damaged copy [f] of the file [f']: each chunk of the dataset has the bytes it had, or
    can no longer be read (it is cut off, or does not decompress). *)
Definition damaged (inflate : bytes -> option bytes) (ds : dataset) (f f' : bytes) : Prop :=
  forall c, In c (d_chunks ds) ->
    file_bytes f (c_addr c) (c_size c) = file_bytes f' (c_addr c) (c_size c) /\
      (c_size c = 0 \/ c_addr c + c_size c <= lenN f') \/
    ~ readable inflate f ds c.

(** ** Whole segments *)

Lemma mul64_div m a d r : (d | W64) -> mul64 m a d = Ok r -> (d | r).
Proof.
  intros HD. unfold mul64. destruct (_ <? _); [intros [= <-]; apply N.divide_factor_r|].
  destruct m; [discriminate|]. intros [= <-]. rewrite N.mod_eq by discriminate.
  apply N.divide_sub_r; [apply N.divide_factor_r|]. now apply N.divide_mul_l.
Qed.
Lemma word_div d : In d [1; 2; 4; 8] -> (d | W64).
Proof.
  intros H. repeat (destruct H as [<-|H]; [now apply N.mod_divide|]). destruct H.
Qed.

Lemma seg_ok_len m L d sg o : (d | W64) -> seg_ok m L d sg o -> (d | lenN o).
Proof.
  intros HD. destruct sg as [[c a] b]. intros (s & e & data & E1 & E2 & H1 & _ & H2 & ->).
  rewrite slice_len by auto. apply mul64_div in E1, E2; auto. now apply N.divide_sub_r.
Qed.

(** A block of writes of whole elements. *)
Definition whole (d : N) (ws : list (N * N)) : Prop :=
  exists p o, (d | p) /\ (d | lenN o) /\ ws = combine (seqN p (length o)) o.
Lemma gseg_whole m L d dlen g ws : (d | W64) -> gseg_ok m L d dlen g ws -> whole d ws.
Proof.
  intros HD (p & o & E & Ho & _ & ->). exists p, o. split; [eapply mul64_div; eauto|]. split; auto.
  eapply seg_ok_len; eauto.
Qed.

Lemma whole_slot d ws j i : 0 < d -> whole d ws -> In (j * d) (map fst ws) -> j * d <= i < (j + 1) * d ->
  In i (map fst ws).
Proof.
  intros Hd (p & o & (x & ->) & (y & Ey) & ->) H Hi.
  rewrite map_fst_combine in * by now rewrite seqN_length. apply in_seqN in H. apply in_seqN. unfold lenN in Ey.
  rewrite Ey in *. assert (x <= j) by nia. assert (j + 1 <= x + y) by nia. nia.
Qed.

Lemma concat_map_fst (l : list (list (N * N))) : map fst (concat l) = concat (map (map fst) l).
Proof. induction l; cbn [concat map]; auto. now rewrite map_app, IHl. Qed.

Lemma mixed_of d dst out wss S rest tr : 0 < d -> lenN out <= lenN dst ->
  Permutation (concat wss) (combine (seqN 0 (length out)) out) -> Forall (whole d) wss ->
  Permutation (S ++ rest) wss -> Permutation tr (concat S) ->
  mixed d dst (splice dst 0 out) (apply_writes tr dst).
Proof.
  intros Hd HL HP HW HS HT.
  assert (HALL : Permutation (tr ++ concat rest) (combine (seqN 0 (length out)) out)).
  { rewrite HT, <- concat_app, <- HP. now apply perm_concat. }
  assert (HPOS : Permutation (map fst (tr ++ concat rest)) (seqN 0 (length out))).
  { rewrite (Permutation_map fst HALL). now rewrite map_fst_combine by now rewrite seqN_length. }
  assert (ND : NoDup (map fst (tr ++ concat rest))) by (apply (Permutation_NoDup (Permutation_sym HPOS)), seqN_NoDup).
  rewrite map_app in ND, HPOS.
  assert (ND1 : NoDup (map fst tr)) by (eapply NoDup_prefix; eauto).
  assert (HB : in_bounds (lenN dst) tr).
  { apply Forall_forall. intros w Hw. assert (H : In (fst w) (seqN 0 (length out))).
    { apply (Permutation_in _ HPOS), in_app_iff. left. now apply in_map. }
    apply in_seqN in H. unfold lenN in *. lia. }
  split; [now apply apply_length|]. intros j.
  assert (OLD : forall i, ~ In i (map fst tr) -> nth_error (apply_writes tr dst) (N.to_nat i) = nth_error dst (N.to_nat i)).
  { intros i Hi. destruct (apply_nth tr dst (N.to_nat i) HB ND1) as [_ A]. apply A. now rewrite N2Nat.id. }
  assert (NEW : forall i, In i (map fst tr) -> nth_error (apply_writes tr dst) (N.to_nat i) = nth_error (splice dst 0 out) (N.to_nat i)).
  { intros i Hi. apply in_map_iff in Hi as ([i' b] & E & Hi). cbn [fst] in E. subst i'.
    destruct (apply_nth tr dst (N.to_nat i) HB ND1) as [A _]. rewrite N2Nat.id in A. rewrite (A b Hi).
    rewrite <- apply_combine by lia.
    assert (HB2 : in_bounds (lenN dst) (combine (seqN 0 (length out)) out)) by (apply in_bounds_combine; lia).
    destruct (apply_nth (combine (seqN 0 (length out)) out) dst (N.to_nat i) HB2) as [A2 _].
    { rewrite map_fst_combine by now rewrite seqN_length. apply seqN_NoDup. }
    rewrite N2Nat.id in A2. symmetry. apply A2. apply (Permutation_in _ HALL), in_app_iff. now left. }
  destruct (in_dec N.eq_dec (j * d) (map fst tr)) as [Hin|Hin].
  - right. intros i Hi. apply NEW. rewrite (Permutation_map fst HT), concat_map_fst in *.
    apply in_concat in Hin as (ps & Hps & Hj). apply in_map_iff in Hps as (ws & <- & Hws).
    apply in_concat. exists (map fst ws). split; [now apply in_map|]. apply (whole_slot d ws j i); auto.
    rewrite Forall_forall in HW. apply HW. apply (Permutation_in _ HS), in_app_iff. now left.
  - left. intros i Hi. apply OLD. intros Hin2.
    assert (Hlt : j * d < N.of_nat (length out)).
    { assert (H : In i (seqN 0 (length out))) by (apply (Permutation_in _ HPOS), in_app_iff; now left).
      apply in_seqN in H. lia. }
    assert (Hj : In (j * d) (map fst (concat rest))).
    { assert (H : In (j * d) (map fst tr ++ map fst (concat rest))).
      { apply (Permutation_in _ (Permutation_sym HPOS)). apply in_seqN. lia. }
      apply in_app_iff in H as [H|H]; tauto. }
    rewrite concat_map_fst in Hj. apply in_concat in Hj as (ps & Hps & Hj). apply in_map_iff in Hps as (ws & <- & Hws).
    assert (Hi2 : In i (map fst (concat rest))).
    { rewrite concat_map_fst. apply in_concat. exists (map fst ws). split; [now apply in_map|].
      apply (whole_slot d ws j i); auto. rewrite Forall_forall in HW. apply HW.
      apply (Permutation_in _ HS), in_app_iff. now right. }
    clear -ND Hin2 Hi2. induction (map fst tr) as [|y l IH]; [destruct Hin2|]. cbn [app] in ND. inversion ND; subst.
    destruct Hin2 as [->|Hin2]; [|auto]. apply H1, in_app_iff. now right.
Qed.

(** ** What the loops do before they stop *)

Lemma plain_loop_prefix m L dsz st : forall segs pos dst x d, pos <= lenN dst ->
  plain_loop m L dsz segs st pos dst = (x, d) ->
  exists s1 s2 os1, segs = s1 ++ s2 /\ Forall2 (seg_ok m L dsz) s1 os1 /\ pos + lenN (concat os1) <= lenN dst /\
    d = splice dst pos (concat os1).
Proof.
  induction segs as [|sg segs IH]; intros pos dst x d HP H; cbn [plain_loop] in H.
  - injection H as _ <-. exists [], [], []. repeat split; auto. { unfold lenN in *; cbn; lia. } cbn [concat]; now rewrite splice_nil.
  - destruct (seg_copy m L dsz sg pos dst) as [[dst' pos']| | | |] eqn:E.
    2-5: injection H as _ <-; exists [], (sg :: segs), []; repeat split; auto; [unfold lenN in *; cbn; lia|cbn [concat]; now rewrite splice_nil].
    apply seg_copy_iff in E as (o & Ho & Hb & E). injection E as -> ->.
    destruct (IH (pos + lenN o) (splice dst pos o) x d) as (s1 & s2 & os1 & -> & F & B & ->); auto.
    { rewrite splice_len; lia. }
    rewrite splice_len in B by lia. exists (sg :: s1), s2, (o :: os1). split; auto. split; [now constructor|].
    cbn [concat]. rewrite lenN_app. split; [lia|]. now rewrite splice_app by lia.
Qed.

Lemma direct_loop_prefix m inflate r file : same_addr (dr_ds r) -> forall G last dst x d,
  lenN dst < W64 -> Forall (fun g => In (g_chunk g) (d_chunks (dr_ds r))) G ->
  last_ok (dr_ds r) (dload m inflate r file) last ->
  direct_loop m inflate r file G last dst = (x, d) ->
  exists G1 G2 wss, G = G1 ++ G2 /\
    Forall2 (gseg_ok m (dload m inflate r file) (d_dsize (dr_ds r)) (lenN dst)) G1 wss /\
    d = apply_writes (concat wss) dst.
Proof.
  intros HA. induction G as [|g G IH]; intros last dst x d HW HF HL H.
  - cbn in H. injection H as _ <-. exists [], [], []. repeat split; auto.
  - destruct g as [[[c cur] a] b]. cbn [direct_loop] in H. inversion HF as [|? ? H1 H2]; subst.
    unfold g_chunk in H1. cbn [fst] in H1. rewrite direct_load_eq in H by auto.
    destruct (dload m inflate r file c) as [data| | | |] eqn:EL.
    2-5: injection H as _ <-; exists [], ((c, cur, a, b) :: G), []; repeat split; auto.
    destruct (copy_at m data (d_dsize (dr_ds r)) cur a b dst) as [d1| | | |] eqn:EC.
    2-5: injection H as _ <-; exists [], ((c, cur, a, b) :: G), []; repeat split; auto.
    apply (proj1 (copy_at_iff m (dload m inflate r file) _ c cur a b data dst d1 HW EL)) in EC as (ws & Hws & ->).
    assert (EN : lenN (apply_writes ws dst) = lenN dst).
    { unfold lenN. rewrite apply_length; auto. eapply gseg_bounds; eauto. }
    destruct (IH (Some (c_addr c, data)) (apply_writes ws dst) x d) as (G1 & G2 & wss & -> & F & ->); auto;
      [now rewrite EN|exists c; auto|]. rewrite EN in F.
    exists ((c, cur, a, b) :: G1), G2, (ws :: wss). split; auto. split; [now constructor|]. cbn [concat]. now rewrite apply_app.
Qed.

Lemma seg_ok_extends m ds L L' dsz sg o : extends ds L L' -> In (fst (fst sg)) (d_chunks ds) ->
  seg_ok m L dsz sg o -> seg_ok m L' dsz sg o.
Proof.
  destruct sg as [[c a] b]. cbn [fst]. intros HL Hc (s & e & data & E1 & E2 & H1 & E3 & H2). exists s, e, data.
  repeat split; try tauto. now apply HL.
Qed.
Lemma gseg_ok_extends m ds L L' dsz dlen g ws : extends ds L L' -> In (g_chunk g) (d_chunks ds) ->
  gseg_ok m L dsz dlen g ws -> gseg_ok m L' dsz dlen g ws.
Proof.
  intros HL Hc (p & o & E & Ho & HB & EW). exists p, o. repeat split; auto. now apply (seg_ok_extends m ds L L').
Qed.

Lemma Forall2_prefix_fun {A B} (R : A -> B -> Prop) : (forall a b b', R a b -> R a b' -> b = b') ->
  forall l1 l2 m1 m, Forall2 R l1 m1 -> Forall2 R (l1 ++ l2) m -> exists m2, m = m1 ++ m2.
Proof.
  intros HF. induction l1 as [|a l1 IH]; intros l2 m1 m H1 H2.
  - inversion H1; subst. now exists m.
  - inversion H1 as [|? b ? m1' R1 T1]; subst. inversion H2 as [|? b' ? m' R2 T2]; subst.
    rewrite (HF a b' b R2 R1). destruct (IH l2 m1' m' T1 T2) as (m2 & ->). now exists m2.
Qed.

(** ** The schedules *)

Lemma tasks_done m inflate r r' f f' dlen : dr_file r = Some f -> dr_file r' = Some f' ->
  dr_ds r' = dr_ds r -> dr_csz r' = dr_csz r -> same_addr (dr_ds r) ->
  extends (dr_ds r) (dload m inflate r f) (dload m inflate r' f') ->
  forall gs zs wss, Forall group_ok gs -> Forall (fun g => In (g_chunk g) (d_chunks (dr_ds r))) (concat gs) ->
  map t_task zs = map (par_task m inflate r dlen) gs ->
  Forall t_ok zs -> Forall (fun z => finished (t_state z)) zs ->
  Forall2 (gseg_ok m (dload m inflate r' f') (d_dsize (dr_ds r')) dlen) (concat gs) wss ->
  exists S rest, Permutation (S ++ rest) wss /\ concat (map t_done zs) = concat S.
Proof.
  intros Hf Hf' ED EZ HA HL. induction gs as [|grp gs IH]; intros zs wss HG HF HT HO HD HW.
  - destruct zs; [|discriminate]. inversion HW; subst. exists [], []. auto.
  - destruct zs as [|z zs]; [discriminate|]. cbn [map concat] in *. injection HT as HT1 HT2.
    inversion HG as [|? ? G1 G2]; subst. apply Forall_app in HF as [F1 F2]. inversion HO as [|? ? O1 O2]; subst.
    inversion HD as [|? ? D1 D2]; subst. apply Forall2_app_inv_l in HW as (w1 & w2 & W1 & W2 & ->).
    destruct (IH zs w2 G2 F2 HT2 O2 D2 W2) as (S & rest & P & E).
    assert (EG : par_task m inflate r' dlen grp = (concat w1, FOk)).
    { rewrite <- ED in *. apply (par_task_iff m inflate r' f' dlen grp (concat w1)); auto. exists w1. auto. }
    assert (CT : fst (par_task m inflate r dlen grp) = concat w1 \/ fst (par_task m inflate r dlen grp) = []).
    { unfold par_task in *. rewrite Hf. rewrite Hf' in EG. destruct grp as [|[[[c cur] a] b] grp]; [now right|].
      unfold extends, dload in HL. rewrite ED, EZ in *.
      destruct (load m inflate f (dr_ds r) (dr_csz r) c) as [data| | | |] eqn:EL; try (now right).
      left. inversion F1 as [|? ? Fc _]; subst. rewrite (HL c data Fc EL) in EG. now rewrite EG. }
    assert (TD : t_done z = concat w1 \/ t_done z = []).
    { unfold t_ok in O1. destruct (t_state z); try (destruct D1; fail); auto. destruct O1 as [-> _]. now rewrite HT1. }
    destruct TD as [TD|TD]; rewrite TD, E.
    + exists (w1 ++ S), rest. split; [rewrite <- app_assoc; now apply Permutation_app_head|]. now rewrite concat_app.
    + exists S, (w1 ++ rest). split; [|reflexivity].
      rewrite Permutation_app_comm, <- app_assoc. apply Permutation_app_head. now rewrite Permutation_app_comm.
Qed.

(** ** Torn reads *)

Lemma splice_partly (dst : bytes) o1 o2 : lenN (o1 ++ o2) <= lenN dst ->
  splice dst 0 o1 = firstn (length o1) (splice dst 0 (o1 ++ o2)) ++ skipn (length o1) dst.
Proof.
  unfold splice. cbn. intros H. unfold lenN in H. rewrite app_length in *. rewrite <- app_assoc.
  rewrite firstn_app, Nat.sub_diag, firstn_all, app_nil_r. reflexivity.
Qed.

Lemma torn m inflate sort fuel ds f f' e dst rc rd rw v good :
  addr_sort sort -> same_addr ds -> In (d_dsize ds) [1; 2; 4; 8] -> lenN dst < W64 ->
  reachable m inflate ds f rc -> direct_new m ds (Some f) = Ok rd -> reachable m inflate ds f' rw ->
  extends ds (load m inflate f ds (cr_csz rc)) (load m inflate f' ds (cr_csz rc)) ->
  fst (cache_read m inflate fuel rw e dst) = (Ok v, good) ->
  partly (d_dsize ds) dst good (snd (fst (cache_read m inflate fuel rc e dst))) /\
  mixed (d_dsize ds) dst good (snd (direct_read m inflate sort fuel rd e dst)) /\
  (forall x d, par_read m inflate sort fuel rd e dst x d -> mixed (d_dsize ds) dst good d).
Proof.
  intros HS HA H8 HW RC RD RW HL HG.
  assert (HD : (d_dsize ds | W64)) by now apply word_div.
  assert (Hd : 0 < d_dsize ds) by (destruct H8 as [<-|[<-|[<-|[<-|[]]]]]; lia).
  destruct (reachable_inv m inflate ds f rc HA RC) as (_ & _ & Z1 & _).
  destruct (reachable_inv m inflate ds f' rw HA RW) as (_ & _ & Z2 & _). rewrite Z1 in Z2. injection Z2 as Z2.
  unfold direct_new in RD. rewrite Z1 in RD. cbn [bind] in RD. injection RD as <-.
  rewrite (cache_read_reachable m inflate ds f rc fuel e dst HA RC).
  rewrite (cache_read_reachable m inflate ds f' rw fuel e dst HA RW), <- Z2 in HG.
  apply plain_read_iff in HG as (ES & out & HO & ->).
  pose proof HO as (segs & os & EX & FO & EO & HB).
  assert (HIN : Forall (fun sg => In (fst (fst sg)) (d_chunks ds)) segs).
  { pose proof (slices_in m fuel ds e) as HF. now rewrite EX in HF. }
  split; [|split].
  - unfold plain_read. rewrite ES, EX.
    destruct (plain_loop m (load m inflate f ds (cr_csz rc)) (d_dsize ds) segs SDone 0 dst) as [x d] eqn:EP. cbn [snd].
    apply plain_loop_prefix in EP as (s1 & s2 & os1 & -> & F1 & B1 & ->); [|lia].
    apply Forall_app in HIN as [I1 _].
    assert (F1' : Forall2 (seg_ok m (load m inflate f' ds (cr_csz rc)) (d_dsize ds)) s1 os1).
    { clear -F1 I1 HL. induction F1 as [|sg o s1 os1 H F1 IH]; [constructor|]. inversion I1; subst. constructor; auto.
      now apply (seg_ok_extends m ds (load m inflate f ds (cr_csz rc))). }
    destruct (Forall2_prefix_fun _ (seg_ok_fun m (load m inflate f' ds (cr_csz rc)) (d_dsize ds)) s1 s2 os1 os F1' FO) as (os2 & ->).
    assert (DV : (d_dsize ds | lenN (concat os1))).
    { clear -F1 HD. induction F1 as [|sg o s1 os1 H F1 IH]; [apply N.divide_0_r|]. cbn [concat]. rewrite lenN_app.
      apply N.divide_add_r; auto. eapply seg_ok_len; eauto. }
    destruct DV as (k & Ek). exists k. rewrite <- Ek. replace (N.to_nat (lenN (concat os1))) with (length (concat os1)) by (unfold lenN; lia).
    split; [unfold lenN in B1; lia|]. rewrite EO, concat_app in *. apply splice_partly. lia.
  - unfold direct_read. cbn [dr_ds dr_file]. rewrite ES.
    destruct (group_of_read m _ sort fuel ds e (lenN dst) out HS Hd HW HO) as (G & wss & (EG & FW) & PW).
    rewrite EG. pose proof (group_in sort m fuel ds e G HS EG) as GI.
    destruct (direct_loop m inflate (mkDirect ds (Some f) (cr_csz rc)) f G None dst) as [x d] eqn:EL. cbn [snd].
    apply (direct_loop_prefix m inflate (mkDirect ds (Some f) (cr_csz rc)) f HA) in EL as (G1 & G2 & w1 & -> & F1 & ->); auto; [|exact I].
    apply Forall_app in GI as [I1 _]. cbn [dr_ds] in F1. unfold dload in F1. cbn [dr_ds dr_csz] in F1.
    assert (F1' : Forall2 (gseg_ok m (load m inflate f' ds (cr_csz rc)) (d_dsize ds) (lenN dst)) G1 w1).
    { clear -F1 I1 HL. induction F1 as [|g w G1 w1 H F1 IH]; [constructor|]. inversion I1; subst. constructor; auto.
      now apply (gseg_ok_extends m ds (load m inflate f ds (cr_csz rc))). }
    destruct (Forall2_prefix_fun _ (gseg_fun m (load m inflate f' ds (cr_csz rc)) (d_dsize ds) (lenN dst)) G1 G2 w1 wss F1' FW) as (w2 & ->).
    apply (mixed_of (d_dsize ds) dst out (w1 ++ w2) w1 w2); auto.
    clear -FW HD. induction FW; constructor; auto. eapply gseg_whole; eauto.
  - intros x d HR. inversion HR as [x' E1 E2|v' x' E1 E2 E3|v' G' final d' x' E1 E2 E3 E4 E5]; subst; cbn [dr_ds] in *.
    1,2: split; auto.
    destruct (group_of_read m _ sort fuel ds e (lenN dst) (concat os) HS Hd HW HO) as (G & wss & (EG & FW) & PW).
    rewrite EG in E2. injection E2 as <-. pose proof (group_in sort m fuel ds e G HS EG) as GI.
    rewrite map_waiting in E3.
    pose proof (pinv_steps _ _ _ _ E3 (pinv_init (map (par_task m inflate (mkDirect ds (Some f) (cr_csz rc)) (lenN dst)) (chunk_by_addr G)) dst)) as
      (zs & tr & T1 & T2 & T3 & T4 & T5 & _).
    cbn [fst snd] in T2, T5. subst d.
    destruct (tasks_done m inflate (mkDirect ds (Some f) (cr_csz rc)) (mkDirect ds (Some f') (cr_csz rc)) f f' (lenN dst)
                eq_refl eq_refl eq_refl eq_refl HA HL (chunk_by_addr G) zs wss) as (S & rest & P & EC); auto.
    + apply chunk_by_ok.
    + rewrite chunk_by_concat. exact GI.
    + rewrite <- T2 in E4. clear -E4. induction zs; cbn [map] in *; [constructor|]. inversion E4; subst. constructor; auto.
    + rewrite chunk_by_concat. exact FW.
    + rewrite EC in T4. apply (mixed_of (d_dsize ds) dst (concat os) wss S rest); auto.
      clear -FW HD. induction FW; constructor; auto. eapply gseg_whole; eauto.
Qed.

(** ** Theorems *)

(** Any build mode, dataset with elements of 1, 2, 4 or 8 bytes, selection and buffer, safe
    or not: if the read of the whole file succeeds with buffer [good], then a read of a
    truncated file - whatever it returns, in any reader state, under any schedule - leaves
    each element of the buffer as it was or as in [good]: nothing invented, no element
    half written.  The cached reader writes a prefix. *)
Theorem C58_truncated m inflate sort fuel ds file n e dst rc rd rw v good :
  addr_sort sort -> same_addr ds -> In (d_dsize ds) [1; 2; 4; 8] -> lenN dst < W64 ->
  reachable m inflate ds (firstn n file) rc -> direct_new m ds (Some (firstn n file)) = Ok rd ->
  reachable m inflate ds file rw -> fst (cache_read m inflate fuel rw e dst) = (Ok v, good) ->
  partly (d_dsize ds) dst good (snd (fst (cache_read m inflate fuel rc e dst))) /\
  mixed (d_dsize ds) dst good (snd (direct_read m inflate sort fuel rd e dst)) /\
  (forall x d, par_read m inflate sort fuel rd e dst x d -> mixed (d_dsize ds) dst good d).
Proof.
  intros HS HA H8 HW RC RD RW HG.
  apply (torn m inflate sort fuel ds (firstn n file) file e dst rc rd rw v good); auto.
  intros c b _ X. exact (proj1 (load_prefix m inflate ds (cr_csz rc) file n c b X)).
Qed.
Print Assumptions C58_truncated.

Lemma damaged_extends m inflate ds f f' : regular ds -> damaged inflate ds f f' ->
  extends ds (load m inflate f ds (csize ds)) (load m inflate f' ds (csize ds)).
Proof.
  intros HR HD c b Hc HL.
  destruct (load_total m inflate f ds c HR Hc) as [[HA _]|[_ (x & E)]]; [|congruence].
  destruct (HD c Hc) as [[EB HI]|HN]; [|contradiction].
  destruct HA as [HI' _]. rewrite <- HL. unfold load, read_chunk, read_exact. unfold file_bytes in EB. rewrite EB.
  destruct (N.eqb_spec (c_size c) 0) as [E|E]; auto.
  destruct HI as [?|HI]; [congruence|]. destruct HI' as [?|HI']; [congruence|].
  now rewrite !leb_true by auto.
Qed.

(** The same for any damage that leaves each chunk intact or unreadable. *)
Theorem C58_damaged m inflate sort fuel ds f f' e dst rc rd rw v good :
  addr_sort sort -> regular ds -> Forall (fun s => 0 < s) (d_chunk_shape ds) ->
  In (d_dsize ds) [1; 2; 4; 8] -> lenN dst < W64 -> damaged inflate ds f f' ->
  reachable m inflate ds f rc -> direct_new m ds (Some f) = Ok rd ->
  reachable m inflate ds f' rw -> fst (cache_read m inflate fuel rw e dst) = (Ok v, good) ->
  partly (d_dsize ds) dst good (snd (fst (cache_read m inflate fuel rc e dst))) /\
  mixed (d_dsize ds) dst good (snd (direct_read m inflate sort fuel rd e dst)) /\
  (forall x d, par_read m inflate sort fuel rd e dst x d -> mixed (d_dsize ds) dst good d).
Proof.
  intros HS HR HP H8 HW HD RC RD RW HG. assert (HA : same_addr ds) by apply HR.
  apply (torn m inflate sort fuel ds f f' e dst rc rd rw v good); auto.
  destruct (reachable_inv m inflate ds f rc HA RC) as (_ & _ & Z1 & _).
  assert (SZ : supported_sizes ds) by apply HR.
  rewrite (csize_fresh m ds (cr_csz rc) HP SZ Z1). now apply damaged_extends.
Qed.
Print Assumptions C58_damaged.
(** The example file (4 x 6 elements of 2 bytes) without its last 5 bytes: the read fails;
    the cached reader has written 15 elements, the direct one 18 others. *)
Example C58_case : exists rc rd rw good,
  reachable Debug toy_inflate st_ds (firstn 43 st_file) rc /\
  direct_new Debug st_ds (Some (firstn 43 st_file)) = Ok rd /\ reachable Debug toy_inflate st_ds st_file rw /\
  fst (cache_read Debug toy_inflate 50 rw All (repeat 9 48)) = (Ok 48, good) /\
  fst (cache_read Debug toy_inflate 50 rc All (repeat 9 48)) = (Err EIo, firstn 30 good ++ repeat 9 18) /\
  direct_read Debug toy_inflate sort_by_addr 50 rd All (repeat 9 48) =
    (Err EIo, firstn 30 good ++ repeat 9 6 ++ firstn 6 (skipn 36 good) ++ repeat 9 6) /\
  damaged toy_inflate st_ds (firstn 43 st_file) st_file.
Proof.
  eexists _, _, _, _. split; [apply rc_new; reflexivity|]. split; [reflexivity|]. split; [apply rc_new; reflexivity|].
  split; [vm_compute; reflexivity|]. split; [vm_compute; reflexivity|]. split; [vm_compute; reflexivity|].
  intros c Hc.
  destruct (N.le_gt_cases (c_addr c + c_size c) 43) as [D|D].
  - left. split.
    + apply file_bytes_prefix. right. exact D.
    + right. assert (48 <= lenN st_file) by (vm_compute; discriminate). lia.
  - right. intros [[E|E] _].
    + revert Hc E. cbn [st_ds d_chunks In]. intros Hc. repeat (destruct Hc as [<-|Hc]; [vm_compute; discriminate|]). destruct Hc.
    + assert (lenN (firstn 43 st_file) = 43) by (vm_compute; reflexivity). lia.
Qed.
