(** * C67: what the feature "unstable" changes. *)
From Verif Require Import Base Spec SpecApi SpecReader Safe Chunk Extent Dataset Slicer Filters SpecFilter Reader Unstable
  SlicerProofs SlicerExact3 SlicerTheorems SliceProps ReadProofs CacheProofs ReaderProps DirectProofs ParProofs ExamplesReader
  Properties4 Properties10 Properties23 Properties32.

Local Arguments N.add : simpl never.
Local Arguments N.sub : simpl never.
Local Arguments N.mul : simpl never.
Local Arguments N.div : simpl never.
Local Arguments N.modulo : simpl never.
Local Arguments N.min : simpl never.

(** Reading with either buffer comes down to one read into a buffer of at most the
    selection's bytes. *)
Lemma uninit_ok m h k w al ds read garbage e idx cnt out :
  full_dataset ds -> 0 < d_dsize ds -> get_start_count e (d_shape ds) = Ok (idx, cnt) -> sel_in (d_shape ds) idx cnt ->
  roomy m ds cnt -> values_uninit m h k w al ds read garbage e = Ok out ->
  exists n v d, n <= prodN cnt * d_dsize ds /\ n < W64 /\ read e (garbage n) = (Ok v, d) /\
    out = to_native_slice h k w (d_order ds) d /\
    forall read' garbage' v' d', read' e (garbage' n) = (Ok v', d') ->
      values_uninit m h k w al ds read' garbage' e = Ok (to_native_slice h k w (d_order ds) d').
Proof.
  intros HFull Hd He Hsel HR H. unfold values_uninit in *.
  rewrite (counts_of _ _ _ _ He) in *. cbn [bind] in *.
  assert (HP : prodN cnt < W64) by exact (x_eW ds idx cnt HFull Hsel).
  rewrite product64_lead in * by exact (sel_lead _ _ _ Hsel HP). cbn [bind] in *.
  apply bind_ok in H as (n & En & H). apply bind_ok in H as (vsz & Ev & H). apply bind_ok in H as (rem & Er & H).
  apply bind_ok in H as (u & E1 & H). apply bind_ok in H as (q & Eq & H). apply bind_ok in H as (rem2 & E2 & H).
  apply bind_ok in H as (u' & E3 & H).
  assert (EN : n = prodN cnt * d_dsize ds /\ n < W64).
  { unfold mul64 in En. destruct (N.ltb_spec (prodN cnt * d_dsize ds) W64) as [|B]; [injection En as <-; auto|].
    destruct m; [discriminate|]. exfalso. specialize (HR eq_refl). clear - HR B Hd HFull Hsel.
    assert (PC : 0 < prodN (d_chunk_shape ds)) by (apply prodN_pos, HFull).
    assert (PE : 0 < prodN cnt) by (apply prodN_pos, Hsel).
    set (C := prodN (d_chunk_shape ds)) in *. set (E := prodN cnt) in *. set (K := N.of_nat (length cnt + 3)) in *.
    assert (HK : 3 <= K) by (unfold K; lia). clearbody C E K. set (z := d_dsize ds) in *. clearbody z.
    assert (HH : E <= K * (E * C)) by (assert (H : E <= E * C) by (clear - PC; nia); set (X := E * C) in *; clearbody X; clear - HK H; nia). apply (N.mul_le_mono_r _ _ z) in HH. clear - HH HR B. lia. }
  destruct EN as [EN EW].
  assert (Ew : vsz * N.of_nat w <= n).
  { unfold div64 in Ev. destruct (N.eqb_spec (N.of_nat w) 0); [discriminate|]. injection Ev as <-.
    rewrite N.mul_comm. now apply N.mul_div_le. }
  unfold values_to in H. destruct (read e (garbage (vsz * N.of_nat w))) as [y d] eqn:Ey.
  destruct y as [v| | | |]; cbn [bind] in H; try discriminate. injection H as <-.
  exists (vsz * N.of_nat w), v, d. rewrite EN in Ew. split; [exact Ew|]. split; [lia|]. split; [exact Ey|]. split; [reflexivity|].
  intros read' garbage' v' d' Hr. rewrite En; cbn [bind]; rewrite Ev; cbn [bind]; rewrite Er; cbn [bind]; rewrite E1; cbn [bind]; rewrite Eq; cbn [bind]; rewrite E2; cbn [bind]; rewrite E3; cbn [bind].
  unfold values_to. rewrite Hr. reflexivity.
Qed.

Lemma values_zeros m h k w al ds read e :
  values m h k w al ds read e = values_uninit m h k w al ds read (fun n => repeat 0 (N.to_nat n)) e.
Proof.
  unfold values, values_uninit. destruct (get_counts e (d_shape ds)) as [c| | | |]; auto. cbn [bind].
  destruct (product64 m c) as [p| | | |]; auto. cbn [bind].
  destruct (mul64 m p (d_dsize ds)) as [n| | | |]; auto. cbn [bind].
  destruct (div64 n (N.of_nat w)) as [vsz| | | |]; auto. cbn [bind].
  replace (N.to_nat (vsz * N.of_nat w)) with (N.to_nat vsz * w)%nat by lia. reflexivity.
Qed.

(** Inside the dataset the feature changes no value: whatever the memory held, [values]
    with it returns what [values] without it returns, and succeeds for the same reads. *)
Theorem C67_values m h k w al inflate fuel ds file rc e idx cnt garbage out :
  full_dataset ds -> regular ds -> get_start_count e (d_shape ds) = Ok (idx, cnt) -> sel_in (d_shape ds) idx cnt ->
  roomy m ds cnt -> reachable m inflate ds file rc -> (forall n, lenN (garbage n) = n) ->
  let read := fun e dst => fst (cache_read m inflate fuel rc e dst) in
  (values_uninit m h k w al ds read garbage e = Ok out <-> values m h k w al ds read e = Ok out).
Proof.
  intros HFull HReg He Hsel HR HC HG read. rewrite values_zeros.
  assert (Hd : 0 < d_dsize ds) by apply HReg.
  assert (K : forall g g' : N -> bytes, (forall n, lenN (g n) = n) -> (forall n, lenN (g' n) = n) ->
    values_uninit m h k w al ds read g e = Ok out -> values_uninit m h k w al ds read g' e = Ok out).
  { intros g g' Hg Hg' H.
    destruct (uninit_ok m h k w al ds read g e idx cnt out HFull Hd He Hsel HR H) as (n & v & d & Hn & _ & Hr & -> & HAll).
    destruct (C64_filled m inflate fuel ds file rc e idx cnt (g n) v d HFull HReg He Hsel HR HC Hr) as (o & [O1 O2] & Ed & HF).
    rewrite (HAll read g' v (o ++ skipn (length o) (g' n)) (HF (g' n) ltac:(now rewrite Hg, Hg'))).
    subst d. pose proof (Hg n) as L1. pose proof (Hg' n) as L2. unfold lenN in *.
    rewrite !skipn_all2 by lia. reflexivity. }
  assert (HZ : forall n, lenN (repeat 0 (N.to_nat n)) = n) by (intros n; unfold lenN; rewrite repeat_length; lia).
  split; apply K; auto.
Qed.
Print Assumptions C67_values.

(** The same for [values_par], whatever the schedules of the two reads. *)
Theorem C67_values_par m h k w al inflate sort fuel ds file rd e idx cnt garbage read read' out :
  addr_sort sort -> full_dataset ds -> regular ds -> get_start_count e (d_shape ds) = Ok (idx, cnt) ->
  sel_in (d_shape ds) idx cnt -> roomy m ds cnt -> direct_new m ds (Some file) = Ok rd ->
  (forall n, lenN (garbage n) = n) ->
  (forall dst, lenN dst < W64 -> par_read m inflate sort fuel rd e dst (fst (read e dst)) (snd (read e dst))) ->
  (forall dst, lenN dst < W64 -> par_read m inflate sort fuel rd e dst (fst (read' e dst)) (snd (read' e dst))) ->
  (values_uninit m h k w al ds read garbage e = Ok out <-> values m h k w al ds read' e = Ok out).
Proof.
  intros HSort HFull HReg He Hsel HR Hrd HG HP HP'. rewrite values_zeros.
  assert (Hd : 0 < d_dsize ds) by apply HReg.
  assert (K : forall (r r' : read_fn) (g g' : N -> bytes),
    (forall dst, lenN dst < W64 -> par_read m inflate sort fuel rd e dst (fst (r e dst)) (snd (r e dst))) ->
    (forall dst, lenN dst < W64 -> par_read m inflate sort fuel rd e dst (fst (r' e dst)) (snd (r' e dst))) ->
    (forall n, lenN (g n) = n) -> (forall n, lenN (g' n) = n) ->
    values_uninit m h k w al ds r g e = Ok out -> values_uninit m h k w al ds r' g' e = Ok out).
  { intros r r' g g' Hpr Hpr' Hg Hg' H.
    destruct (uninit_ok m h k w al ds r g e idx cnt out HFull Hd He Hsel HR H) as (n & v & d & Hn & HW & Hr & -> & HAll).
    pose proof (Hpr (g n) ltac:(now rewrite Hg)) as P1. rewrite Hr in P1. cbn [fst snd] in P1.
    destruct (C64_par m inflate sort fuel ds file rd e idx cnt (g n) v d HSort HFull HReg He Hsel HR ltac:(now rewrite Hg) Hrd P1)
      as (o & [O1 O2] & Ed & HF).
    destruct (HF (g' n) _ _ ltac:(now rewrite Hg, Hg') (Hpr' (g' n) ltac:(now rewrite Hg'))) as [F1 F2].
    rewrite (HAll r' g' v (o ++ skipn (length o) (g' n))) by (destruct (r' e (g' n)); cbn [fst snd] in *; congruence).
    subst d. pose proof (Hg n) as L1. pose proof (Hg' n) as L2. unfold lenN in *.
    rewrite !skipn_all2 by lia. reflexivity. }
  assert (HZ : forall n, lenN (repeat 0 (N.to_nat n)) = n) by (intros n; unfold lenN; rewrite repeat_length; lia).
  split; apply K; auto.
Qed.
Print Assumptions C67_values_par.

(** Outside the dataset it does: a non-empty selection past the end of some dimension,
    for which the feature-less [values] returns zeros, returns the old contents of the
    memory, in the machine's order, with every reader. *)
Lemma uninit_outside m h k w al ds read e idx cnt g :
  get_start_count e (d_shape ds) = Ok (idx, cnt) ->
  fits64_lead cnt -> (prodN cnt * d_dsize ds) * d_dsize ds < W64 -> prodN cnt * d_dsize ds < W64 ->
  (0 < w)%nat -> 0 < al -> (N.of_nat w | d_dsize ds) -> (al | N.of_nat w) ->
  (forall n, lenN (g n) = n) ->
  let n := prodN cnt * d_dsize ds in
  (exists v, read e (g n) = (Ok v, g n)) ->
  values_uninit m h k w al ds read g e = Ok (to_native_slice h k w (d_order ds) (g n)).
Proof.
  intros HG HL HW2 HW Hw Hal [q Hq] [b Hb] Hg n [v Hv].
  unfold values_uninit. rewrite (counts_of _ _ _ _ HG). cbn [bind].
  rewrite product64_lead by exact HL. cbn [bind].
  assert (W0 : N.of_nat w <> 0) by (clear - Hw; lia).
  assert (En : n / N.of_nat w = prodN cnt * q).
  { unfold n. rewrite Hq. rewrite N.mul_assoc. now apply N.div_mul. }
  assert (Enw : n / N.of_nat w * N.of_nat w = n).
  { rewrite En. unfold n. rewrite Hq. clear. lia. }
  unfold mul64 at 1. rewrite (proj2 (N.ltb_lt _ _) HW). cbn [bind]. fold n.
  unfold div64. rewrite (proj2 (N.eqb_neq _ _) W0). cbn [bind].
  unfold rem64 at 1. rewrite (proj2 (N.eqb_neq _ _) W0). cbn [bind].
  replace (d_dsize ds mod N.of_nat w) with 0 by (rewrite Hq; symmetry; now apply N.mod_mul).
  cbn [N.eqb ensure bind].
  assert (Hq2 : d_dsize ds * (n / N.of_nat w) < W64).
  { eapply N.le_lt_trans; [|exact HW2]. fold n. rewrite N.mul_comm. apply N.mul_le_mono_r. rewrite <- Enw at 2.
    clear - Hw. set (x := n / N.of_nat w). clearbody x. assert (1 <= N.of_nat w) by lia. nia. }
  unfold mul64. rewrite (proj2 (N.ltb_lt _ _) Hq2). cbn [bind].
  unfold rem64. rewrite (proj2 (N.eqb_neq al 0) ltac:(clear - Hal; lia)). cbn [bind].
  replace ((d_dsize ds * (n / N.of_nat w)) mod al) with 0
    by (rewrite Hq, Hb; symmetry; replace (q * (b * al) * _) with ((q * b * (n / (b * al))) * al) by (generalize (n / (b * al)); clear; intros; lia); apply N.mod_mul; clear - Hal; lia).
  cbn [N.eqb ensure bind]. rewrite Enw. unfold values_to. rewrite Hv. reflexivity.
Qed.

Theorem C67_outside m h k w al inflate sort fuel ds file rc rd par e idx cnt garbage :
  addr_sort sort ->
  get_start_count e (d_shape ds) = Ok (idx, cnt) -> Forall2 (fun i n => i + n < W64) idx cnt ->
  (exists j i n s, nth_error idx j = Some i /\ nth_error cnt j = Some n /\ nth_error (d_shape ds) j = Some s /\ s < i + n) ->
  fits64_lead cnt -> (prodN cnt * d_dsize ds) * d_dsize ds < W64 -> prodN cnt * d_dsize ds < W64 ->
  (0 < w)%nat -> 0 < al -> (N.of_nat w | d_dsize ds) -> (al | N.of_nat w) ->
  cr_ds rc = ds -> dr_ds rd = ds -> dr_file rd = Some file -> (0 < fuel)%nat ->
  (forall n, lenN (garbage n) = n) ->
  (forall dst, lenN dst < W64 -> par_read m inflate sort fuel rd e dst (fst (par e dst)) (snd (par e dst))) ->
  let old := Ok (to_native_slice h k w (d_order ds) (garbage (prodN cnt * d_dsize ds))) in
  let zeros := Ok (to_native_slice h k w (d_order ds) (repeat 0 (N.to_nat (prodN cnt * d_dsize ds)))) in
  let cache := fun e dst => fst (cache_read m inflate fuel rc e dst) in
  let direct := direct_read m inflate sort fuel rd in
  (values_uninit m h k w al ds cache garbage e = old /\ values m h k w al ds cache e = zeros) /\
  (values_uninit m h k w al ds direct garbage e = old /\ values m h k w al ds direct e = zeros) /\
  (values_uninit m h k w al ds par garbage e = old /\ values m h k w al ds par e = zeros).
Proof.
  intros HSort HG HWF HO HL HW2 HW Hw Hal Hq Hb Hds Hrd Hfile Hf HGB HP old zeros cache direct. rewrite !values_zeros.
  assert (HZ : forall n, lenN (repeat 0 (N.to_nat n)) = n) by (intros n; unfold lenN; rewrite repeat_length; lia).
  assert (R : forall g : N -> bytes, (forall n, lenN (g n) = n) -> let n := prodN cnt * d_dsize ds in
    (exists v, cache e (g n) = (Ok v, g n)) /\ (exists v, direct e (g n) = (Ok v, g n)) /\ (exists v, par e (g n) = (Ok v, g n))).
  { intros g Hg n.
    destruct (C13_readers m inflate sort ds e idx cnt fuel (g n) HSort HG HWF (or_intror HO) Hf) as [C D].
    assert (F : fits64_lead cnt /\ prodN cnt * d_dsize ds <= lenN (g n) /\ prodN cnt * d_dsize ds < W64)
      by (rewrite Hg; repeat split; auto; apply N.le_refl).
    destruct (C rc Hds) as (x & Ex & Hx). rewrite (Hx F) in Ex.
    destruct (D rd file Hrd Hfile) as [(y & Ey & Hy) HPar]. rewrite (Hy F) in Ey.
    destruct (HPar _ _ (HP (g n) ltac:(now rewrite Hg))) as [P1 P2]. specialize (P2 F).
    split; [eexists; unfold cache; rewrite Ex; reflexivity|]. split; [eexists; exact Ey|].
    eexists. destruct (par e (g n)) as [a b']. cbn [fst snd] in *. rewrite P1, P2. reflexivity. }
  destruct (R garbage HGB) as (R1 & R2 & R3). destruct (R (fun n => repeat 0 (N.to_nat n)) HZ) as (Z1 & Z2 & Z3).
  unfold old, zeros.
  repeat split;
    (eapply (uninit_outside m h k w al ds _ e idx cnt garbage) || eapply (uninit_outside m h k w al ds _ e idx cnt (fun n => repeat 0 (N.to_nat n)))); eassumption.
Qed.
Print Assumptions C67_outside.

(** The sequential read is one of the schedules, for [st_ds]. *)
Lemma st_par m dst : lenN dst < W64 -> let rd := mkDirect st_ds (Some st_file) 12 in
  let read := direct_read m toy_inflate sort_by_addr 13 rd in
  par_read m toy_inflate sort_by_addr 13 rd st_sel dst (fst (read st_sel dst)) (snd (read st_sel dst)).
Proof.
  intros HW rd read. destruct (N.le_gt_cases 24 (lenN dst)) as [HL|HL].
  - destruct (new_sized m st_ds st_file st_full (rg_sizes _ st_regular)) as [[rc Hrc] _]. apply (rc_new m toy_inflate) in Hrc.
    destruct (C21_cached_partial m toy_inflate st_file st_ds st_value st_sel [1; 2] [3; 4] dst 13 rc st_stores
      (st_safe dst 13 HL HW ltac:(lia)) Hrc) as [E' _].
    assert (E : direct_read m toy_inflate sort_by_addr 13 rd st_sel dst =
      (Ok (prodN [3; 4] * d_dsize st_ds), concat (map st_value (slab [1; 2] [3; 4])) ++ skipn (N.to_nat (prodN [3; 4] * d_dsize st_ds)) dst)).
    { apply (C24_agree m toy_inflate sort_by_addr 13 st_ds st_file rc rd st_sel dst); auto using GroupProofs.sort_by_addr_ok, (rg_addr _ st_regular).
      destruct m; reflexivity. }
    destruct (C25_schedules m toy_inflate sort_by_addr 13 st_ds st_file rd st_sel dst
      GroupProofs.sort_by_addr_ok (rg_addr _ st_regular) ltac:(reflexivity) HW ltac:(destruct m; reflexivity)) as ((x & d & HP) & _ & _ & S2).
    unfold read. rewrite E. cbn [fst snd]. destruct (S2 _ _ E x d HP) as [<- <-]. exact HP.
  - assert (E : read_size m st_ds st_sel dst = Err ECapacity).
    { unfold read_size. change (get_counts st_sel (d_shape st_ds)) with (Ok [3; 4]). cbn [bind].
      replace (product64 m [3; 4]) with (Ok 12) by (destruct m; reflexivity). cbn [bind].
      replace (mul64 m 12 (d_dsize st_ds)) with (Ok 24) by (destruct m; reflexivity). cbn [bind].
      rewrite (proj2 (N.leb_gt _ _) HL); reflexivity. }
    unfold read, direct_read. cbn [dr_ds rd]. rewrite E. cbn [failed fst snd]. apply pa_size; [exact E|discriminate].
Qed.

Example C67_case m : let garbage := fun n => repeat 77 (N.to_nat n) in
  let rd := mkDirect st_ds (Some st_file) 12 in
  let read := direct_read m toy_inflate sort_by_addr 13 rd in
  (full_dataset st_ds /\ regular st_ds /\ get_start_count st_sel (d_shape st_ds) = Ok ([1; 2], [3; 4]) /\
   sel_in (d_shape st_ds) [1; 2] [3; 4] /\ roomy m st_ds [3; 4] /\ direct_new m st_ds (Some st_file) = Ok rd /\
   (forall n, lenN (garbage n) = n) /\
   (forall dst, lenN dst < W64 -> par_read m toy_inflate sort_by_addr 13 rd st_sel dst (fst (read st_sel dst)) (snd (read st_sel dst)))) /\
  (exists rc out, reachable m toy_inflate st_ds st_file rc /\
     values_uninit m HostLE KInt 2 2 st_ds (fun e dst => fst (cache_read m toy_inflate 13 rc e dst)) garbage st_sel = Ok out /\
     values_uninit m HostLE KInt 2 2 st_ds read garbage st_sel = Ok out) /\
  (let e := Extents [SliceCount 0 1; SliceCount 5 3] in
   get_start_count e (d_shape st_ds) = Ok ([0; 5], [1; 3]) /\ fits64_lead [1; 3] /\
   values_uninit m HostLE KInt 2 2 st_ds read garbage e = Ok [77; 77; 77; 77; 77; 77] /\
   values m HostLE KInt 2 2 st_ds read e = Ok [0; 0; 0; 0; 0; 0]).
Proof.
  cbn zeta. split; [|split].
  - split; [exact st_full|]. split; [exact st_regular|]. split; [reflexivity|]. split; [sel_in_tac|]. split; [intros _; reflexivity|].
    split; [destruct m; reflexivity|]. split; [intros n; unfold lenN; rewrite repeat_length; lia|]. intros dst HW. exact (st_par m dst HW).
  - destruct (new_sized m st_ds st_file st_full (rg_sizes _ st_regular)) as [[rc Hrc] _]. pose proof Hrc as Hrc'. apply (rc_new m toy_inflate) in Hrc'.
    exists rc, (concat (map st_value (slab [1; 2] [3; 4]))). split; [exact Hrc'|].
    vm_compute in Hrc. destruct m; injection Hrc as <-; split; vm_compute; reflexivity.
  - split; [reflexivity|]. split; [|destruct m; split; vm_compute; reflexivity].
    intros [|[|[|k]]]; vm_compute; reflexivity.
Qed.
