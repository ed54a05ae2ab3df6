(** * What the readers return, and that they do not fail otherwise. *)
From Verif Require Import Base Spec Safe Extent Chunk Dataset Slicer Filters SpecApi SpecFilter SpecReader
  FilterProofs FilterProps ApiLemmas Termination GroupProofs SliceProps Writes Reader CacheProofs DirectProofs ParProofs.

(** ** Debug builds: segments never sum to more than the selection *)

Lemma adv_loop_end e rs : forall carry adv soff vis rest k adv' soff',
  adv_loop Debug e rs carry adv soff = Ok (vis, rest, k, adv', soff') -> soff <= e -> soff' <= e.
Proof.
  induction rs as [|[r o] rs IH]; intros carry adv soff vis rest k adv' soff' H Hs; cbn [adv_loop] in H.
  - injection H as <- <- <- <- <-. auto.
  - debind H. debind H. destruct (_ && negb _).
    + debind H. debind H. debind H. apply bind_ok in H as ([[[[v1 r1] k1] a1'] f1] & E4 & H).
      injection H as <- <- <- <- <-. eapply IH; eauto.
    + do 13 debind H. destruct (_ && _ && _) eqn:Ec.
      * apply bind_ok in H as ([[[[v1 r1] k1] a1'] f1] & EX & H). injection H as <- <- <- <- <-.
        apply andb_true_iff in Ec as [_ Ec]. apply N.ltb_lt in Ec. eapply IH; [exact EX|lia].
      * apply bind_ok in H as ([] & EX & H). injection H as <- <- <- <- <-.
        unfold dbg in EX. destruct (N.leb_spec a10 e); [auto|discriminate].
Qed.

Lemma next_debug_sum ds st c a b st' :
  slicer_next Debug ds st = Ok (Some (c, a, b, st')) ->
  s_offset st' = s_offset st + (b - a) /\ s_offset st' <= s_end st' /\ s_end st' = s_end st.
Proof.
  unfold slicer_next. destruct (N.leb_spec (s_end st) (s_offset st)); [discriminate|].
  destruct (is_scalar ds).
  - intros H'. debind H'. debind H'. apply add64_debug in E0 as [-> _].
    destruct (d_chunks ds); [discriminate|]. injection H' as <- <- <- <-. cbn [s_offset s_end]. lia.
  - intros H'. debind H'. debind H'. debind H'. debind H'.
    apply bind_ok in H' as ([[[[v1 r1] k1] adv] soff] & E3 & H').
    pose proof (adv_loop_end _ _ _ _ _ _ _ _ _ _ E3) as EE. apply adv_loop_debug in E3 as (d & -> & ->).
    debind H'. debind H'. debind H'. debind H'. injection H' as <- <- <- <-. cbn [s_offset s_end].
    rewrite N.add_0_l in *. apply add64_debug in E5 as [-> _]. lia.
Qed.

Lemma run_debug_sum ds : forall fuel st, s_offset st <= s_end st ->
  total (fst (slicer_run Debug fuel ds st)) <= s_end st - s_offset st.
Proof.
  unfold total. induction fuel as [|fuel IH]; intros st Hs; cbn [slicer_run]; [cbn; lia|].
  destruct (slicer_next Debug ds st) as [[[[[c a] b] st']|]| | | |] eqn:E; cbn [fst map sumN]; try lia.
  apply next_debug_sum in E as (A & B & C). specialize (IH st').
  destruct (slicer_run Debug fuel ds st') as [l s]. cbn [fst map sumN] in *. lia.
Qed.

Lemma slices_debug_sum ds e fuel idx cnt : get_start_count e (d_shape ds) = Ok (idx, cnt) ->
  total (fst (chunk_slices Debug fuel ds e)) <= prodN cnt.
Proof.
  intros HG. unfold chunk_slices.
  destruct (chunk_slicer Debug ds e) as [st| | | |] eqn:E; try (cbn; lia).
  unfold chunk_slicer in E. rewrite HG in E. cbn [unwrap bind] in E. debind E.
  destruct (a || existsb (fun c => c =? 0) cnt) eqn:Eo.
  - injection E as <-. pose proof (run_debug_sum ds fuel (slicer_empty ds)). cbn in *. lia.
  - apply orb_false_iff in Eo as [_ Hz].
    assert (HP : 1 <= prodN cnt).
    { assert (0 < prodN cnt); [|lia]. apply prodN_pos, Forall_forall. intros x Hx.
      destruct (N.eq_dec x 0) as [->|]; [|lia].
      assert (existsb (fun c => c =? 0) cnt = true) by (apply existsb_exists; exists 0; auto). congruence. }
    apply slicer_new_debug in E as [O B]. pose proof (run_debug_sum ds fuel st). lia.
Qed.

(** ** Sizes *)

Lemma prodN_firstn_le l k : Forall (fun x => 0 < x) l -> prodN (firstn k l) <= prodN l.
Proof.
  intros HF. rewrite <- (firstn_skipn k l) at 2. rewrite prodN_app.
  assert (0 < prodN (skipn k l)); [|nia]. apply prodN_pos. apply Forall_forall. intros x Hx.
  rewrite Forall_forall in HF. apply HF. rewrite <- (firstn_skipn k l). apply in_app_iff. auto.
Qed.

Lemma counts_of e dims idx cnt : get_start_count e dims = Ok (idx, cnt) -> get_counts e dims = Ok cnt.
Proof.
  intros H. destruct (resolution_ok e dims) as [A B].
  destruct e as [|l].
  - destruct (B (or_introl eq_refl)) as (i & c & E1 & E2 & _). congruence.
  - destruct (Nat.eq_dec (length l) (length dims)) as [Hl|Hl].
    + destruct (B (or_intror (ex_intro _ l (conj eq_refl Hl)))) as (i & c & E1 & E2 & _). congruence.
    + destruct (A l eq_refl Hl) as [E _]. congruence.
Qed.

Lemma product64_lead_from m l : forall acc, (forall k, acc * prodN (firstn k l) < W64) ->
  product64_from m acc l = Ok (acc * prodN l).
Proof.
  induction l as [|x l IH]; intros acc H; cbn [product64_from prodN]; [f_equal; lia|].
  pose proof (H 1%nat) as H1. cbn [firstn prodN] in H1. rewrite mul64_ok by (cbn in H1; lia). cbn [bind].
  rewrite IH; [f_equal; lia|]. intros k. specialize (H (S k)). cbn [firstn prodN] in H. lia.
Qed.
Lemma product64_lead m l : fits64_lead l -> product64 m l = Ok (prodN l).
Proof. intros H. unfold product64. rewrite product64_lead_from; [f_equal; lia|]. intros k. specialize (H k). lia. Qed.

Lemma read_size_eq m ds e dst idx cnt :
  get_start_count e (d_shape ds) = Ok (idx, cnt) -> fits64_lead cnt -> prodN cnt * d_dsize ds < W64 ->
  read_size m ds e dst = if prodN cnt * d_dsize ds <=? lenN dst then Ok (prodN cnt * d_dsize ds) else Err ECapacity.
Proof.
  intros HG HF HW. unfold read_size. rewrite (counts_of _ _ _ _ HG). cbn [bind].
  rewrite product64_lead by auto. cbn [bind]. rewrite mul64_ok by auto. cbn [bind].
  unfold ensure. now destruct (_ <=? _).
Qed.
Lemma read_size_debug ds e dst idx cnt v :
  get_start_count e (d_shape ds) = Ok (idx, cnt) -> read_size Debug ds e dst = Ok v ->
  v = prodN cnt * d_dsize ds /\ v <= lenN dst /\ v < W64.
Proof.
  intros HG H. unfold read_size in H. rewrite (counts_of _ _ _ _ HG) in H. cbn [bind] in H.
  apply bind_ok in H as (p & Ep & H). apply bind_ok in H as (z & Ez & H). debind H. injection H as <-.
  unfold product64 in Ep. apply product64_from_debug in Ep as ->. apply mul64_debug in Ez as [-> HW].
  unfold ensure in E. destruct (N.leb_spec (1 * prodN cnt * d_dsize ds) (lenN dst)); [|discriminate]. lia.
Qed.
Lemma sel_lead shape idx cnt : sel_in shape idx cnt -> prodN cnt < W64 -> fits64_lead cnt.
Proof.
  intros (_ & _ & HP & _) HW k. pose proof (prodN_firstn_le cnt k HP). lia.
Qed.

Lemma chunk_bytes_ok m ds : Forall (fun c => 0 < c) (d_chunk_shape ds) -> supported_sizes ds ->
  chunk_bytes m ds = Ok (prodN (d_chunk_shape ds) * d_dsize ds).
Proof.
  intros HP [S1 S2 S3 S4]. unfold chunk_bytes. rewrite product64_ok; auto.
  - cbn [bind]. now rewrite mul64_ok.
  - nia.
Qed.

(** ** Loading chunks *)

Definition csize (ds : dataset) : N := prodN (d_chunk_shape ds) * d_dsize ds.

Lemma filters_std ds : std_filters (filters_of ds) (d_shuffle ds) (is_some (d_gzip ds)).
Proof. unfold filters_of. destruct (d_shuffle ds), (d_gzip ds); constructor. Qed.

Lemma read_exact_in file a s : a + s <= lenN file -> read_exact file a s = Ok (file_bytes file a s).
Proof.
  unfold read_exact, file_bytes. intros H. destruct (N.eqb_spec s 0) as [->|]; auto.
  apply N.leb_le in H. now rewrite H.
Qed.

Lemma load_stores m inflate file ds value c : stores inflate file ds value -> In c (d_chunks ds) ->
  exists raw, load m inflate file ds (csize ds) c = Ok raw /\ lenN raw = csize ds /\
    forall x k, in_shape x (d_shape ds) -> holds ds x (c, k) ->
      word (N.to_nat (d_dsize ds)) (N.to_nat k) raw = value x.
Proof.
  intros [[S1 S2 S3 S4] _ SC] Hc. destruct (SC c Hc) as (HF & raw & HP & HL & HV).
  exists raw. split; [|auto]. unfold load, read_chunk. rewrite read_exact_in by auto. cbn [bind].
  unfold csize. rewrite <- HL. rewrite <- (N2Nat.id (d_dsize ds)).
  eapply decode_ok; [apply filters_std|exact HP| |lia].
  intros Hs. specialize (S3 Hs). cbn in *.
  destruct S3 as [E|[E|[E|[E|[]]]]]; rewrite <- E; cbn; auto.
Qed.

Lemma decompress_cases inflate s n :
  (exists o, inflate s = Some o /\ lenN o <= n /\ exists d, decompress inflate s n = Ok d /\ lenN d = n) \/
  (~ (exists o, inflate s = Some o /\ lenN o <= n) /\ decompress inflate s n = Err EDecode).
Proof.
  unfold decompress. destruct (inflate s) as [o|].
  - destruct (N.leb_spec (lenN o) n).
    + left. exists o. repeat split; auto. eexists. split; eauto. rewrite lenN_app. unfold lenN in *.
      rewrite repeat_length. lia.
    + right. split; auto. intros (o' & [= <-] & ?). lia.
  - right. split; auto. intros (o' & ? & _). discriminate.
Qed.

Lemma unshuffle_len d w : In w [1; 2; 4; 8] -> (length d mod N.to_nat w = 0)%nat ->
  exists r, unshuffle_sized d w = Ok r /\ length r = length d.
Proof. intros Hw Hm. now apply (sized_safe d w). Qed.

Lemma load_total m inflate file ds c : regular ds -> In c (d_chunks ds) ->
  (readable inflate file ds c /\
   exists data, load m inflate file ds (csize ds) c = Ok data /\ lenN data = csize ds) \/
  (~ readable inflate file ds c /\ exists e, load m inflate file ds (csize ds) c = Err e).
Proof.
  intros [[S1 S2 S3 S4] _ SP] Hc. unfold load, read_chunk.
  assert (R : (c_size c = 0 \/ c_addr c + c_size c <= lenN file) /\
              read_exact file (c_addr c) (c_size c) = Ok (file_bytes file (c_addr c) (c_size c)) \/
              ~ (c_size c = 0 \/ c_addr c + c_size c <= lenN file) /\
              read_exact file (c_addr c) (c_size c) = Err EIo).
  { unfold read_exact. destruct (N.eqb_spec (c_size c) 0) as [E|E].
    - left. split; auto. unfold file_bytes. now rewrite E.
    - destruct (N.leb_spec (c_addr c + c_size c) (lenN file)); [left|right]; split; auto. intros [|]; lia. }
  destruct R as [[HR ->]|[HR ->]]; cbn [bind].
  2:{ right. split; [|eauto]. intros [H _]. auto. }
  assert (U : forall d, lenN d = csize ds ->
    exists data, (if d_shuffle ds && (1 <? d_dsize ds) then unshuffle_sized d (d_dsize ds) else Ok d) = Ok data /\
      lenN data = csize ds).
  { intros d Hd. destruct (d_shuffle ds) eqn:Es; cbn [andb]; [|eauto].
    destruct (1 <? d_dsize ds); [|eauto].
    destruct (unshuffle_len d (d_dsize ds)) as (r & Er & Hr); auto.
    - unfold csize, lenN in Hd. assert (length d = (N.to_nat (d_dsize ds) * N.to_nat (prodN (d_chunk_shape ds)))%nat) as -> by lia.
      apply mul_mod_0. lia.
    - exists r. split; auto. unfold lenN in *. now rewrite Hr. }
  unfold decode_chunk. rewrite dbg_ok by (now apply N.ltb_lt). cbn [bind].
  destruct (d_gzip ds) as [z|] eqn:Ez; cbn [is_some].
  - destruct (decompress_cases inflate (file_bytes file (c_addr c) (c_size c)) (csize ds))
      as [(o & Ho & Hl & d & Hd & Hld)|[HN ->]]; cbn [bind].
    + rewrite Hd. cbn [bind]. rewrite dbg_ok by (now apply N.eqb_eq). cbn [bind].
      left. split; [|now apply U]. split; auto. eauto.
    + right. split; [|eauto]. intros [_ H]. apply HN. apply H. rewrite Ez. discriminate.
  - cbn [bind]. left. split; [split; auto; rewrite Ez; congruence|]. apply U.
    specialize (SP eq_refl c Hc). destruct HR as [HR|HR].
    + assert (csize ds = 0) by (unfold csize; congruence). unfold file_bytes, lenN.
      rewrite HR. cbn. unfold csize in *. lia.
    + unfold file_bytes, lenN in *. rewrite firstn_length, skipn_length. unfold csize. rewrite <- SP. lia.
Qed.

(** ** Well-formed segments *)

Definition seg_wf (ds : dataset) (sg : segment) : Prop :=
  let '(c, a, b) := sg in a < b /\ b <= prodN (d_chunk_shape ds) /\ In c (d_chunks ds).

(** Loading gives a whole chunk or an error. *)
Definition total_load (ds : dataset) (L : chunk -> res bytes) : Prop :=
  forall c, In c (d_chunks ds) ->
    (exists data, L c = Ok data /\ lenN data = csize ds) \/ (exists e, L c = Err e).

Lemma seg_muls m ds c a b : csize ds < W64 -> seg_wf ds (c, a, b) ->
  mul64 m a (d_dsize ds) = Ok (a * d_dsize ds) /\ mul64 m b (d_dsize ds) = Ok (b * d_dsize ds) /\
  a * d_dsize ds <= b * d_dsize ds /\ b * d_dsize ds <= csize ds.
Proof.
  intros HW (A & B & _). unfold csize in *. rewrite !mul64_ok by nia. repeat split; auto; nia.
Qed.

Lemma seg_ok_load m ds L sg data : csize ds < W64 -> seg_wf ds sg ->
  L (fst (fst sg)) = Ok data -> lenN data = csize ds ->
  exists o, seg_ok m L (d_dsize ds) sg o /\ lenN o = (snd sg - snd (fst sg)) * d_dsize ds /\
    o = firstn (N.to_nat ((snd sg - snd (fst sg)) * d_dsize ds))
               (skipn (N.to_nat (snd (fst sg) * d_dsize ds)) data).
Proof.
  intros HW Hwf EL HD. destruct sg as [[c a] b]. cbn [fst snd] in *.
  destruct (seg_muls m ds c a b HW Hwf) as (E1 & E2 & H1 & H2).
  assert (EQ : (b - a) * d_dsize ds = b * d_dsize ds - a * d_dsize ds) by (rewrite N.mul_sub_distr_r; auto).
  eexists. split; [|split; [|reflexivity]].
  - cbn [seg_ok]. do 3 eexists. split; [exact E1|]. split; [exact E2|]. split; auto. split; [exact EL|].
    split; [lia|]. now rewrite EQ.
  - rewrite EQ. apply slice_len; lia.
Qed.

Lemma seg_copy_total m ds L sg pos dst : csize ds < W64 -> total_load ds L -> seg_wf ds sg ->
  pos + (snd sg - snd (fst sg)) * d_dsize ds <= lenN dst ->
  (exists o, seg_copy m L (d_dsize ds) sg pos dst = Ok (splice dst pos o, pos + (snd sg - snd (fst sg)) * d_dsize ds) /\
     lenN o = (snd sg - snd (fst sg)) * d_dsize ds) \/
  (exists e, seg_copy m L (d_dsize ds) sg pos dst = Err e).
Proof.
  intros HW HT Hwf Hp. assert (Hin : In (fst (fst sg)) (d_chunks ds)) by (destruct sg as [[c a] b]; apply Hwf).
  destruct (HT _ Hin) as [(data & EL & HD)|(e & EL)].
  - left. destruct (seg_ok_load m ds L sg data HW Hwf EL HD) as (o & Ho & Hl & _). exists o. split; auto.
    apply seg_copy_iff. exists o. split; auto. rewrite Hl. auto.
  - right. exists e. destruct sg as [[c a] b]. cbn [fst snd] in *. unfold seg_copy, byte_range.
    destruct (seg_muls m ds c a b HW Hwf) as (E1 & E2 & H1 & H2). rewrite E1, E2. cbn [bind].
    rewrite dbg_ok by now apply leb_true. cbn [bind]. rewrite sub64_ok by auto. cbn [bind]. now rewrite EL.
Qed.

Lemma plain_loop_total m ds L : csize ds < W64 -> total_load ds L -> forall segs pos dst,
  Forall (seg_wf ds) segs -> pos + total segs * d_dsize ds <= lenN dst ->
  (exists d, plain_loop m L (d_dsize ds) segs SDone pos dst = (Ok tt, d)) \/
  (exists e d, plain_loop m L (d_dsize ds) segs SDone pos dst = (Err e, d)).
Proof.
  intros HW HT. induction segs as [|sg segs IH]; intros pos dst HF Hp; cbn [plain_loop]; [left; eauto|].
  inversion HF as [|? ? F1 F2]; subst. unfold total in *. cbn [map sumN] in Hp.
  assert (Hs : (snd sg - snd (fst sg)) = (let '(_, a, b) := sg in b - a)) by (destruct sg as [[? ?] ?]; reflexivity).
  rewrite <- Hs in Hp.
  assert (Hp1 : pos + (snd sg - snd (fst sg)) * d_dsize ds <= lenN dst) by lia.
  destruct (seg_copy_total m ds L sg pos dst HW HT F1 Hp1) as [(o & -> & Ho)|(e & ->)].
  - apply IH; auto. rewrite splice_len; lia.
  - right. exists e, dst. reflexivity.
Qed.

(** ** Grouped segments *)

Definition g_wf (ds : dataset) (T : N) (g : gsegment) : Prop :=
  seg_wf ds (g_chunk g, g_from g, snd g) /\ g_dest g + g_len g <= T.

Lemma dests_wf ds segs T : Forall (seg_wf ds) segs -> total segs <= T ->
  Forall (g_wf ds T) (dests 0 segs).
Proof.
  intros HF HT. apply Forall_forall. intros g Hg. split.
  - rewrite Forall_forall in HF. apply HF. rewrite <- (dests_segs segs 0). apply in_map_iff. eauto.
  - assert (HF' : Forall (fun '(_, a, b) => a <= b) segs).
    { eapply Forall_impl; [|exact HF]. intros [[c a] b] (? & _). lia. }
    pose proof (dests_range segs 0 g HF' Hg). lia.
Qed.

Lemma g_muls m ds T g : csize ds < W64 -> T * d_dsize ds < W64 -> g_wf ds T g ->
  mul64 m (g_dest g) (d_dsize ds) = Ok (g_dest g * d_dsize ds) /\
  g_dest g * d_dsize ds + g_len g * d_dsize ds <= T * d_dsize ds.
Proof. intros HW HT [A B]. rewrite mul64_ok by nia. split; auto. nia. Qed.

Lemma gseg_load m ds L T g data dlen : csize ds < W64 -> T * d_dsize ds <= dlen -> dlen < W64 -> g_wf ds T g ->
  L (g_chunk g) = Ok data -> lenN data = csize ds -> exists ws, gseg_ok m L (d_dsize ds) dlen g ws.
Proof.
  intros HW HT HL Hg EL HD. destruct (g_muls m ds T g HW ltac:(lia) Hg) as [E1 H1]. destruct Hg as [Hwf Hr].
  destruct (seg_ok_load m ds L _ data HW Hwf EL HD) as (o & Ho & Hlo & _). cbn [fst snd] in Hlo.
  eexists. exists (g_dest g * d_dsize ds), o. split; [exact E1|]. split; [exact Ho|]. split; [|reflexivity].
  unfold g_len, g_from in *. lia.
Qed.

Lemma direct_loop_total m inflate r file T : same_addr (dr_ds r) -> csize (dr_ds r) < W64 ->
  total_load (dr_ds r) (dload m inflate r file) -> forall G last dst,
  lenN dst < W64 -> T * d_dsize (dr_ds r) <= lenN dst ->
  Forall (g_wf (dr_ds r) T) G -> last_ok (dr_ds r) (dload m inflate r file) last ->
  (exists d, direct_loop m inflate r file G last dst = (Ok tt, d)) \/
  (exists e d, direct_loop m inflate r file G last dst = (Err e, d)).
Proof.
  intros HA HC HT. induction G as [|g G IH]; intros last dst HW Hd HF HL; [left; exists dst; reflexivity|].
  destruct g as [[[c cur] a] b]. inversion HF as [|? ? F1 F2]; subst. cbn [direct_loop].
  assert (Hin : In c (d_chunks (dr_ds r))) by apply F1.
  rewrite direct_load_eq by auto.
  destruct (HT c Hin) as [(data & EL & HD)|(e & EL)]; rewrite EL; [|right; exists e, dst; reflexivity].
  destruct (gseg_load m (dr_ds r) (dload m inflate r file) T (c, cur, a, b) data (lenN dst) HC Hd HW F1 EL HD) as (ws & Hws).
  pose proof (proj2 (copy_at_iff m (dload m inflate r file) (d_dsize (dr_ds r)) c cur a b data dst (apply_writes ws dst) HW EL)
    (ex_intro _ ws (conj Hws eq_refl))) as EC. rewrite EC.
  assert (EN : lenN (apply_writes ws dst) = lenN dst).
  { unfold lenN. rewrite apply_length; auto. eapply gseg_bounds; eauto. }
  apply IH; rewrite ?EN; auto. exists c. auto.
Qed.

(** Tasks of the parallel reader end well or with an error. *)
Lemma par_segs_total m inflate r file T dlen data : csize (dr_ds r) < W64 -> dlen < W64 ->
  T * d_dsize (dr_ds r) <= dlen -> lenN data = csize (dr_ds r) -> forall grp,
  Forall (g_wf (dr_ds r) T) grp -> Forall (fun g => dload m inflate r file (g_chunk g) = Ok data) grp ->
  snd (par_segs m data (d_dsize (dr_ds r)) dlen grp) = FOk.
Proof.
  intros HC HW HT HD. induction grp as [|g grp IH]; intros HF HL; [reflexivity|].
  inversion HF as [|? ? F1 F2]; subst. inversion HL as [|? ? L1 L2]; subst.
  destruct g as [[[c cur] a] b]. cbn [par_segs]. unfold g_chunk in L1. cbn [fst] in L1.
  destruct (gseg_load m (dr_ds r) (dload m inflate r file) T (c, cur, a, b) data dlen HC HT HW F1 L1 HD) as (ws & Hws).
  rewrite (proj2 (par_seg_iff m (dload m inflate r file) (d_dsize (dr_ds r)) c cur a b data dlen ws L1) Hws).
  specialize (IH F2 L2). now destruct (par_segs m data (d_dsize (dr_ds r)) dlen grp).
Qed.

Lemma par_task_total m inflate r file T dlen grp : dr_file r = Some file ->
  same_addr (dr_ds r) -> csize (dr_ds r) < W64 -> total_load (dr_ds r) (dload m inflate r file) ->
  dlen < W64 -> T * d_dsize (dr_ds r) <= dlen -> group_ok grp -> Forall (g_wf (dr_ds r) T) grp ->
  snd (par_task m inflate r dlen grp) = FOk \/ exists e, snd (par_task m inflate r dlen grp) = FErr e.
Proof.
  intros Hf HA HC HT HW Hd HG HF. unfold par_task. rewrite Hf.
  destruct grp as [|[[[c cur] a] b] grp]; [easy|]. cbn [group_ok] in HG. fold (dload m inflate r file c).
  assert (Hin : In c (d_chunks (dr_ds r))) by (inversion HF as [|? ? F1 F2]; apply F1).
  destruct (HT c Hin) as [(data & EL & HD)|(e & EL)]; rewrite EL; [|right; exists e; reflexivity].
  left. apply (par_segs_total m inflate r file T dlen data); auto.
  rewrite Forall_forall in *. intros g Hg. transitivity (dload m inflate r file c); [|exact EL].
  assert (HE : c_addr (g_chunk g) = c_addr c) by (specialize (HG g Hg); destruct g as [[[? ?] ?] ?]; exact HG).
  apply load_same; auto. apply HA; auto. apply (HF g Hg).
Qed.

(** ** Writes of the parallel reader *)

Definition g_exact (m : mode) (dsz : N) (g : gsegment) : Prop :=
  m = Debug \/ g_dest g * dsz < W64 /\ g_from g * dsz < W64 /\ snd g * dsz < W64.

Lemma mul64_exact m a b r : m = Debug \/ a * b < W64 -> mul64 m a b = Ok r -> r = a * b.
Proof.
  intros [->|H] E; [now apply mul64_debug in E|]. rewrite mul64_ok in E by auto. congruence.
Qed.

(** The destination bytes of a grouped segment. *)
Definition g_range (dsz : N) (g : gsegment) : list N := seqN (g_dest g * dsz) (N.to_nat (g_len g * dsz)).

Lemma par_seg_range m data dsz c cur a b dlen ws : g_exact m dsz (c, cur, a, b) ->
  par_seg m data dsz cur a b dlen = Ok ws -> map fst ws = g_range dsz (c, cur, a, b).
Proof.
  unfold g_exact, g_range, g_dest, g_from, g_len, par_seg. cbn [fst snd]. intros HX H.
  apply bind_ok in H as (s & Es & H). apply bind_ok in H as (e & Ee & H).
  apply bind_ok in H as (p & Ep & H). debind H. debind H. apply bind_ok in H as (sz & Esz & H).
  debind H. apply bind_ok in H as (src & Esrc & H). apply slice_range_ok in Esrc as (Hse & Hed & Esrc).
  rewrite sub64_ok in Esz by auto. injection Esz as <-.
  assert (LS : lenN src = e - s) by (rewrite Esrc; now apply slice_len).
  destruct (N.leb_spec (p + (e - s)) dlen); [|discriminate]. injection H as <-.
  apply mul64_exact in Es; [|tauto]. apply mul64_exact in Ee; [|tauto]. apply mul64_exact in Ep; [|tauto].
  subst s e p. rewrite map_fst_combine by (rewrite seqN_length; unfold lenN in LS; lia).
  f_equal. rewrite N.mul_sub_distr_r. reflexivity.
Qed.

Lemma par_segs_range m data dsz dlen : forall grp, Forall (g_exact m dsz) grp ->
  exists rest, map fst (fst (par_segs m data dsz dlen grp)) ++ rest = concat (map (g_range dsz) grp).
Proof.
  induction grp as [|g grp IH]; intros HF; [exists []; reflexivity|].
  inversion HF as [|? ? F1 F2]; subst. destruct g as [[[c cur] a] b]. cbn [par_segs].
  destruct (par_seg m data dsz cur a b dlen) as [ws| | | |] eqn:E; try (eexists; reflexivity).
  apply (par_seg_range m data dsz c) in E; auto. destruct (IH F2) as (rest & Hr).
  destruct (par_segs m data dsz dlen grp) as [ws' f]. cbn [fst] in *. exists rest.
  rewrite map_app, E, <- app_assoc, Hr. reflexivity.
Qed.

Lemma par_task_range m inflate r dlen grp : Forall (g_exact m (d_dsize (dr_ds r))) grp ->
  exists rest, map fst (fst (par_task m inflate r dlen grp)) ++ rest = concat (map (g_range (d_dsize (dr_ds r))) grp).
Proof.
  intros HF. unfold par_task. destruct (dr_file r) as [file|]; [|eexists; reflexivity].
  destruct grp as [|[[[c cur] a] b] grp]; [eexists; reflexivity|].
  destruct (load m inflate file (dr_ds r) (dr_csz r) c); try (eexists; reflexivity).
  now apply par_segs_range.
Qed.

Lemma tasks_range m inflate r dlen : forall gs, Forall (g_exact m (d_dsize (dr_ds r))) (concat gs) ->
  exists rest, Permutation (map fst (concat (map fst (map (par_task m inflate r dlen) gs))) ++ rest)
                           (concat (map (g_range (d_dsize (dr_ds r))) (concat gs))).
Proof.
  induction gs as [|grp gs IH]; intros HF; cbn [map concat]; [exists []; reflexivity|].
  cbn [concat] in HF. apply Forall_app in HF as [F1 F2]. destruct (IH F2) as (r2 & P2).
  destruct (par_task_range m inflate r dlen grp F1) as (r1 & P1).
  exists (r1 ++ r2). rewrite !map_app, concat_app, <- P1, <- P2. rewrite <- !app_assoc.
  apply Permutation_app_head. rewrite !app_assoc. apply Permutation_app_tail, Permutation_app_comm.
Qed.

Lemma dests_ranges dsz : forall segs off,
  concat (map (g_range dsz) (dests off segs)) = seqN (off * dsz) (N.to_nat (total segs * dsz)).
Proof.
  unfold total. induction segs as [|[[c a] b] segs IH]; intros off; cbn [dests map concat sumN]; [reflexivity|].
  rewrite IH. unfold g_range, g_dest, g_len. cbn [fst snd].
  rewrite (N.mul_add_distr_r (b - a) (sumN _)), N2Nat.inj_add, seqN_app, N2Nat.id. do 2 f_equal. lia.
Qed.

Lemma tasks_positions m inflate r dlen segs G :
  Permutation G (dests 0 segs) -> Forall (g_exact m (d_dsize (dr_ds r))) G ->
  exists rest, Permutation (map fst (concat (map fst (tasks_of m inflate r dlen G))) ++ rest)
                           (seqN 0 (N.to_nat (total segs * d_dsize (dr_ds r)))).
Proof.
  intros HP HF. unfold tasks_of.
  destruct (tasks_range m inflate r dlen (chunk_by_addr G)) as (rest & P).
  { now rewrite chunk_by_concat. }
  exists rest. rewrite P, chunk_by_concat.
  pose proof (dests_ranges (d_dsize (dr_ds r)) segs 0) as DR. rewrite N.mul_0_l in DR. rewrite <- DR. apply perm_concat, Permutation_map, HP.
Qed.

(** No undefined behaviour while the segments fit. *)
Lemma par_seg_no_ub m data dsz c cur a b dlen : g_exact m dsz (c, cur, a, b) ->
  (cur + (b - a)) * dsz <= dlen -> par_seg m data dsz cur a b dlen <> Ub.
Proof.
  unfold g_exact, g_dest, g_from, par_seg. cbn [fst snd]. intros HX Hb H.
  destruct (mul64 m a dsz) as [s| | | |] eqn:Es; try (unfold mul64 in Es; destruct (_ <? _), m; discriminate); cbn [bind] in H; try discriminate.
  destruct (mul64 m b dsz) as [e| | | |] eqn:Ee; try (unfold mul64 in Ee; destruct (_ <? _), m; discriminate); cbn [bind] in H; try discriminate.
  destruct (mul64 m cur dsz) as [p| | | |] eqn:Ep; try (unfold mul64 in Ep; destruct (_ <? _), m; discriminate); cbn [bind] in H; try discriminate.
  destruct (dbg m (s <=? lenN data)) as [[]| | | |] eqn:Q1; cbn [bind] in H; try discriminate; try (unfold dbg in Q1; destruct m, (s <=? lenN data); discriminate).
  destruct (dbg m (e <=? lenN data)) as [[]| | | |] eqn:Q2; cbn [bind] in H; try discriminate; try (unfold dbg in Q2; destruct m, (e <=? lenN data); discriminate).
  destruct (sub64 m e s) as [sz| | | |] eqn:Esz; cbn [bind] in H; try discriminate; try (unfold sub64 in Esz; destruct (s <=? e), m; discriminate).
  destruct (p <=? dlen); cbn [assert_ bind] in H; [|discriminate].
  destruct (slice_range data s e) as [src| | | |] eqn:Esrc; cbn [bind] in H; try discriminate; try (unfold slice_range in Esrc; destruct (_ && _); discriminate).
  apply slice_range_ok in Esrc as (Hse & Hed & _). rewrite sub64_ok in Esz by auto. injection Esz as <-.
  apply mul64_exact in Es; [|tauto]. apply mul64_exact in Ee; [|tauto]. apply mul64_exact in Ep; [|tauto].
  subst. destruct (N.leb_spec (cur * dsz + (b * dsz - a * dsz)) dlen); [discriminate|].
  rewrite <- N.mul_sub_distr_r, <- N.mul_add_distr_r in *. lia.
Qed.
Lemma par_segs_no_ub m data dsz dlen T : T * dsz <= dlen -> forall grp, Forall (g_exact m dsz) grp ->
  Forall (fun g => g_dest g + g_len g <= T) grp -> snd (par_segs m data dsz dlen grp) <> FUb.
Proof.
  intros HT. induction grp as [|g grp IH]; intros HF HB; [discriminate|].
  inversion HF as [|? ? F1 F2]; subst. inversion HB as [|? ? B1 B2]; subst. destruct g as [[[c cur] a] b]. cbn [par_segs].
  pose proof (par_seg_no_ub m data dsz c cur a b dlen F1) as U. unfold g_dest, g_len in B1. cbn [fst snd] in B1.
  assert (B3 : (cur + (b - a)) * dsz <= dlen) by nia. specialize (U B3).
  specialize (IH F2 B2).
  destruct (par_seg m data dsz cur a b dlen); cbn [snd fin_of]; try discriminate; try congruence.
  now destruct (par_segs m data dsz dlen grp).
Qed.
Lemma bind_no_ub {A B} (x : res A) (f : A -> res B) :
  x <> Ub -> (forall a, f a <> Ub) -> bind x f <> Ub.
Proof. intros H1 H2. destruct x; cbn [bind]; auto; discriminate. Qed.
Lemma dbg_no_ub m b : dbg m b <> Ub.
Proof. unfold dbg, assert_. destruct m, b; discriminate. Qed.
Lemma unshuffle_no_ub d w : unshuffle_sized d w <> Ub.
Proof.
  intros E. pose proof (sized_safe d w) as [A B].
  destruct (in_dec N.eq_dec w [1; 2; 4; 8]) as [Hi|Hi].
  - destruct (Nat.eq_dec (length d mod N.to_nat w) 0).
    + destruct A as (r & Er & _); auto. congruence.
    + rewrite B in E by tauto. discriminate.
  - rewrite B in E by tauto. discriminate.
Qed.
Lemma load_no_ub m inflate file ds csz c : load m inflate file ds csz c <> Ub.
Proof.
  unfold load, read_chunk, decode_chunk. apply bind_no_ub.
  - unfold read_exact. destruct (_ =? _); [discriminate|]. destruct (_ <=? _); discriminate.
  - intros raw. apply bind_no_ub; [apply dbg_no_ub|]. intros _. apply bind_no_ub.
    + destruct (is_some _); [|discriminate]. apply bind_no_ub.
      * unfold decompress. destruct (inflate raw); [|discriminate]. destruct (_ <=? _); discriminate.
      * intros d. apply bind_no_ub; [apply dbg_no_ub|discriminate].
    + intros d. destruct (_ && _); [apply unshuffle_no_ub|discriminate].
Qed.
Lemma par_task_no_ub m inflate r dlen T grp : T * d_dsize (dr_ds r) <= dlen ->
  Forall (g_exact m (d_dsize (dr_ds r))) grp -> Forall (fun g => g_dest g + g_len g <= T) grp ->
  snd (par_task m inflate r dlen grp) <> FUb.
Proof.
  intros HT HF HB. unfold par_task. destruct (dr_file r) as [file|]; [|discriminate].
  destruct grp as [|[[[c cur] a] b] grp]; [discriminate|].
  destruct (load m inflate file (dr_ds r) (dr_csz r) c) eqn:EL; cbn [snd fin_of]; try discriminate.
  - eapply par_segs_no_ub; eauto.
  - now apply load_no_ub in EL.
Qed.
