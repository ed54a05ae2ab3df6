(** * Property theorems C57: what a read, successful or not, may change in the buffer. *)
From Verif Require Import Base Spec Safe Extent Chunk Dataset Slicer SpecApi ExtentProofs ApiLemmas Termination
  GroupProofs SliceProps Filters SpecFilter FilterProps Reader SpecReader CacheProofs Writes DirectProofs ParProofs
  ReadProofs ReaderProps StreamProofs Properties4 Examples ExamplesReader.

(** ** Specification *)

(** [d] is the buffer [dst] with at most its first [n] bytes changed. *)
Definition within (n : N) (dst d : bytes) : Prop :=
  length d = length dst /\ forall i, n <= N.of_nat i -> nth_error d i = nth_error dst i.

Lemma within_refl n d : within n d d.
Proof. split; auto. Qed.
Lemma within_trans n d1 d2 d3 : within n d1 d2 -> within n d2 d3 -> within n d1 d3.
Proof. intros [A B] [C D]. split; [congruence|]. intros i Hi. now rewrite D, B. Qed.
Lemma within_splice n dst p src : p + lenN src <= n -> p + lenN src <= lenN dst -> within n dst (splice dst p src).
Proof.
  intros H1 H2. split; [now apply splice_length|]. intros i Hi. rewrite splice_nth by auto.
  destruct (Nat.leb_spec (N.to_nat p) i); cbn [andb]; auto.
  destruct (Nat.ltb_spec i (N.to_nat p + length src)); auto. unfold lenN in *. lia.
Qed.
Lemma within_all d d' : length d' = length d -> within (lenN d) d d'.
Proof.
  intros L. split; auto. intros i Hi. unfold lenN in Hi.
  destruct (nth_error_None d i) as [_ A]. destruct (nth_error_None d' i) as [_ B]. rewrite A, B by lia. reflexivity.
Qed.

(** ** One copy *)

Lemma sub64_le m a b : b <= a -> sub64 m a b = Ok (a - b).
Proof. intros. now apply sub64_ok. Qed.

Lemma copy_slice_inv m data dsz a b s e sz pos dst d :
  byte_range m dsz a b = Ok (s, e, sz) -> copy_slice m data s e sz pos dst = Ok d ->
  exists src, lenN src = sz /\ sz = e - s /\ s <= e /\ pos + sz <= lenN dst /\ d = splice dst pos src.
Proof.
  unfold byte_range, copy_slice. intros H1 H2.
  apply bind_ok in H1 as (s' & _ & H1). apply bind_ok in H1 as (e' & _ & H1). debind H1.
  apply bind_ok in H1 as (sz' & ES & H1). injection H1 as -> -> ->.
  debind H2. debind H2. apply bind_ok in H2 as (u & EA & H2). apply bind_ok in H2 as (src & Esrc & H2). injection H2 as <-.
  apply slice_range_ok in Esrc as (Hse & Hed & Esrc). rewrite sub64_ok in ES by auto. injection ES as <-.
  exists src. assert (lenN src = e - s) by (rewrite Esrc; now apply slice_len).
  unfold assert_ in EA. destruct (N.leb_spec (pos + (e - s)) (lenN dst)); [|discriminate]. auto 10.
Qed.

Lemma copy_at_inv m data dsz cur a b dst d :
  copy_at m data dsz cur a b dst = Ok d ->
  exists s e p src, mul64 m a dsz = Ok s /\ mul64 m b dsz = Ok e /\ mul64 m cur dsz = Ok p /\
    s <= e /\ lenN src = e - s /\ p + (e - s) <= lenN dst /\ d = splice dst p src.
Proof.
  unfold copy_at. intros H.
  apply bind_ok in H as (s & Es & H). apply bind_ok in H as (e & Ee & H). apply bind_ok in H as (p & Ep & H).
  debind H. debind H. apply bind_ok in H as (sz & Esz & H). apply bind_ok in H as (q & Eq & H).
  apply bind_ok in H as (u & EA & H). apply bind_ok in H as (src & Esrc & H). apply bind_ok in H as (u2 & EB & H).
  injection H as <-. apply slice_range_ok in Esrc as (Hse & Hed & Esrc).
  assert (LS : lenN src = e - s) by (rewrite Esrc; now apply slice_len).
  unfold assert_ in EA, EB.
  destruct (N.leb_spec p q); [|discriminate]. destruct (N.leb_spec q (lenN dst)); [|discriminate].
  destruct (N.eqb_spec (q - p) (lenN src)); [|discriminate].
  exists s, e, p, src. repeat split; auto. lia.
Qed.

(** ** The loops *)

Definition s_exact (m : mode) (dsz : N) (sg : segment) : Prop :=
  m = Debug \/ snd (fst sg) * dsz < W64 /\ snd sg * dsz < W64.

Lemma byte_range_exact m dsz c a b s e sz : s_exact m dsz (c, a, b) -> byte_range m dsz a b = Ok (s, e, sz) ->
  s = a * dsz /\ e = b * dsz.
Proof.
  unfold s_exact, byte_range. cbn [fst snd]. intros HX H1.
  apply bind_ok in H1 as (s' & Es & H1). apply bind_ok in H1 as (e' & Ee & H1). debind H1.
  apply bind_ok in H1 as (sz' & ES & H1). injection H1 as -> -> ->.
  apply mul64_exact in Es; [|tauto]. apply mul64_exact in Ee; [|tauto]. auto.
Qed.

Lemma cache_seg_within m inflate r cache sg pos dst dst' pos' cache' :
  cache_seg m inflate r cache sg pos dst = (Ok (dst', pos'), cache') ->
  within pos' dst dst' /\ pos <= pos' <= lenN dst /\
  (s_exact m (d_dsize (cr_ds r)) sg -> pos' = pos + (snd sg - snd (fst sg)) * d_dsize (cr_ds r)).
Proof.
  destruct sg as [[c a] b]. unfold cache_seg. cbn [fst snd].
  destruct (byte_range m (d_dsize (cr_ds r)) a b) as [[[s e] sz]| | | |] eqn:EB; try discriminate.
  intros H.
  assert (exists data, copy_slice m data s e sz pos dst = Ok dst' /\ pos' = pos + sz) as (data & EC & ->).
  { destruct (lru_get (c_addr c) cache) as [[data c']|].
    - destruct (copy_slice m data s e sz pos dst) eqn:E; cbn [bind] in H; try discriminate. injection H as <- <- <-. eauto.
    - destruct (load m inflate (cr_file r) (cr_ds r) (cr_csz r) c) as [data| | | |]; try discriminate.
      destruct (copy_slice m data s e sz pos dst) eqn:E; try discriminate. injection H as <- <- <-. eauto. }
  destruct (copy_slice_inv _ _ _ _ _ _ _ _ _ _ _ EB EC) as (src & LS & EZ & Hse & HP & ->).
  split; [apply within_splice; lia|]. split; [lia|]. intros HX.
  destruct (byte_range_exact _ _ _ _ _ _ _ _ HX EB) as [-> ->]. rewrite N.mul_sub_distr_r. lia.
Qed.

Lemma cache_loop_within m inflate r st : forall segs cache pos dst x d cache', pos <= lenN dst ->
  cache_loop m inflate r segs st cache pos dst = (x, d, cache') ->
  length d = length dst /\
  (Forall (s_exact m (d_dsize (cr_ds r))) segs -> within (pos + total segs * d_dsize (cr_ds r)) dst d).
Proof.
  induction segs as [|sg segs IH]; intros cache pos dst x d cache' HP H; cbn [cache_loop] in H.
  { injection H as <- <- <-. split; auto. intros. apply within_refl. }
  destruct (cache_seg m inflate r cache sg pos dst) as [y c'] eqn:E.
  destruct y as [[dst' pos']| | | |].
  2-5: injection H as <- <- <-; split; auto; intros; apply within_refl.
  apply cache_seg_within in E as (A & B & C). destruct A as [A1 A2].
  destruct (IH c' pos' dst' x d cache') as [D F]; auto. { unfold lenN in *. rewrite A1. lia. }
  split; [congruence|]. intros HF. inversion HF; subst. specialize (F H3). rewrite (C H2) in *.
  assert (ET : total (sg :: segs) = (snd sg - snd (fst sg)) + total segs).
  { unfold total. cbn [map sumN]. destruct sg as [[c a] b]. reflexivity. }
  rewrite ET. split; [congruence|]. intros i Hi. destruct F as [F1 F2]. rewrite F2 by lia. apply A2. nia.
Qed.

Lemma direct_loop_within m inflate r file : forall G last dst x d,
  direct_loop m inflate r file G last dst = (x, d) ->
  length d = length dst /\
  (forall T, Forall (fun g => g_exact m (d_dsize (dr_ds r)) g /\ g_dest g + g_len g <= T) G ->
     within (T * d_dsize (dr_ds r)) dst d).
Proof.
  induction G as [|[[[c cur] a] b] G IH]; intros last dst x d H; cbn [direct_loop] in H.
  { injection H as <- <-. split; auto. intros. apply within_refl. }
  destruct (direct_load m inflate r file last c) as [data| | | |].
  2-5: injection H as <- <-; split; auto; intros; apply within_refl.
  destruct (copy_at m data (d_dsize (dr_ds r)) cur a b dst) as [dst'| | | |] eqn:EC.
  2-5: injection H as <- <-; split; auto; intros; apply within_refl.
  destruct (copy_at_inv _ _ _ _ _ _ _ _ EC) as (s & e & p & src & Es & Ee & Ep & Hse & LS & HB & ->).
  destruct (IH _ _ _ _ H) as [A B]. rewrite splice_length in A by lia. split; auto.
  intros T HF. inversion HF as [|? ? [F1 F2] F3]; subst. apply (within_trans _ _ (splice dst p src)); [|now apply B].
  unfold g_exact, g_dest, g_from, g_len, g_from in *. cbn [fst snd] in *.
  apply mul64_exact in Es; [|tauto]. apply mul64_exact in Ee; [|tauto]. apply mul64_exact in Ep; [|tauto]. subst.
  apply within_splice; [|lia]. rewrite LS. rewrite <- N.mul_sub_distr_r. nia.
Qed.

(** ** Theorems *)

(** Any build mode, dataset, file, selection and reader state: a read, whatever it
    returns, leaves a buffer of the same length.  (For the parallel reader this is C26.) *)
Theorem C57_length m inflate sort fuel e dst :
  (forall r x d r', cache_read m inflate fuel r e dst = (x, d, r') -> length d = length dst) /\
  (forall r x d, direct_read m inflate sort fuel r e dst = (x, d) -> length d = length dst).
Proof.
  split.
  - intros r x d r' H. unfold cache_read in H.
    destruct (read_size m (cr_ds r) e dst); try (now injection H as <- <- <-).
    destruct (chunk_slices m fuel (cr_ds r) e) as [segs st].
    destruct (cache_loop m inflate r segs st (cr_cache r) 0 dst) as [[y d'] c'] eqn:E. injection H as <- <- <-.
    apply cache_loop_within in E; [tauto|lia].
  - intros r x d H. unfold direct_read in H.
    destruct (read_size m (dr_ds r) e dst); try (now injection H as <- <-).
    destruct (group_chunk_slices sort m fuel (dr_ds r) e); try (now injection H as <- <-).
    destruct (dr_file r) as [f|]; try (now injection H as <- <-).
    destruct (direct_loop m inflate r f a0 None dst) as [y d'] eqn:E. injection H as <- <-.
    apply direct_loop_within in E. tauto.
Qed.
Print Assumptions C57_length.

Lemma resolved_or m ds e dst v : read_size m ds e dst = Ok v ->
  exists idx cnt, get_start_count e (d_shape ds) = Ok (idx, cnt).
Proof.
  intros ES. destruct (resolution_ok e (d_shape ds)) as [A B]. destruct e as [|l].
  - destruct (B (or_introl eq_refl)) as (i & c & E1 & _). eauto.
  - destruct (Nat.eq_dec (length l) (length (d_shape ds))) as [Hl|Hl].
    + destruct (B (or_intror (ex_intro _ l (conj eq_refl Hl)))) as (i & c & E1 & _). eauto.
    + destruct (A l eq_refl Hl) as [_ E]. unfold read_size in ES. rewrite E in ES. discriminate.
Qed.

(** Debug builds, any dataset, file, selection and reader state: a read, whatever it
    returns, changes nothing beyond the selection's bytes; and nothing at all when the
    selection does not resolve. *)
Theorem C57_debug inflate sort fuel e dst : addr_sort sort ->
  (forall r x d r', cache_read Debug inflate fuel r e dst = (x, d, r') ->
     (forall idx cnt, get_start_count e (d_shape (cr_ds r)) = Ok (idx, cnt) ->
        within (prodN cnt * d_dsize (cr_ds r)) dst d) /\
     ((forall p, get_start_count e (d_shape (cr_ds r)) <> Ok p) -> d = dst)) /\
  (forall r x d, direct_read Debug inflate sort fuel r e dst = (x, d) ->
     (forall idx cnt, get_start_count e (d_shape (dr_ds r)) = Ok (idx, cnt) ->
        within (prodN cnt * d_dsize (dr_ds r)) dst d) /\
     ((forall p, get_start_count e (d_shape (dr_ds r)) <> Ok p) -> d = dst)).
Proof.
  intros HS. split.
  - intros r x d r' H. unfold cache_read in H.
    destruct (read_size Debug (cr_ds r) e dst) as [v| | | |] eqn:ES.
    2-5: injection H as <- <- <-; split; auto; intros; apply within_refl.
    split; [|intros HN; destruct (resolved_or _ _ _ _ _ ES) as (i & c & E); now apply HN in E].
    intros idx cnt HG. pose proof (slices_debug_sum (cr_ds r) e fuel idx cnt HG) as HT.
    destruct (chunk_slices Debug fuel (cr_ds r) e) as [segs st]. cbn [fst] in HT.
    destruct (cache_loop Debug inflate r segs st (cr_cache r) 0 dst) as [[y d'] c'] eqn:E. injection H as <- <- <-.
    apply cache_loop_within in E as [A B]; [|lia]. destruct B as [_ B].
    { apply Forall_forall. intros; now left. }
    split; auto. intros i Hi. apply B. nia.
  - intros r x d H. unfold direct_read in H.
    destruct (read_size Debug (dr_ds r) e dst) as [v| | | |] eqn:ES.
    2-5: injection H as <- <-; split; auto; intros; apply within_refl.
    split; [|intros HN; destruct (resolved_or _ _ _ _ _ ES) as (i & c & E); now apply HN in E].
    intros idx cnt HG. pose proof (slices_debug_sum (dr_ds r) e fuel idx cnt HG) as HT.
    destruct (group_chunk_slices sort Debug fuel (dr_ds r) e) as [G| | | |] eqn:EG.
    2-5: injection H as <- <-; apply within_refl.
    destruct (dr_file r) as [f|]; [|injection H as <- <-; apply within_refl].
    destruct (direct_loop Debug inflate r f G None dst) as [y d'] eqn:E. injection H as <- <-.
    destruct (group_debug_dests _ _ _ _ _ HS EG) as (segs & EX & P & HL). rewrite EX in HT. cbn [fst] in HT.
    apply direct_loop_within in E as [_ E]. apply E. apply Forall_forall. intros g Hg. split; [now left|].
    apply (Permutation_in _ P) in Hg. pose proof (dests_range segs 0 g HL Hg). lia.
Qed.
Print Assumptions C57_debug.

(** Both modes, safe selections, any file (also truncated or corrupt), any reader state. *)
Theorem C57_safe m inflate sort fuel ds e idx cnt dst : addr_sort sort -> safe_read ds e idx cnt dst fuel ->
  (forall r x d r', cr_ds r = ds -> cache_read m inflate fuel r e dst = (x, d, r') -> within (prodN cnt * d_dsize ds) dst d) /\
  (forall r x d, dr_ds r = ds -> direct_read m inflate sort fuel r e dst = (x, d) -> within (prodN cnt * d_dsize ds) dst d) /\
  (forall r x d, dr_ds r = ds -> par_read m inflate sort fuel r e dst x d -> within (prodN cnt * d_dsize ds) dst d).
Proof.
  intros HS HF. pose proof (safe_read_ok m _ _ _ _ _ _ HF) as HO.
  destruct (ro_size _ _ _ _ _ _ _ HO) as (ES & HP & HC & Hd).
  destruct (group_dests m sort ds e idx cnt dst fuel HS HO) as (segs & G & EX & EG & PG & ET & Hwf & HG).
  pose proof (ro_cap _ _ _ _ _ _ _ HO) as Hcap. pose proof (ro_len _ _ _ _ _ _ _ HO) as Hlen.
  split; [|split].
  - intros r x d r' <- H. unfold cache_read in H. rewrite ES, EX in H.
    destruct (cache_loop m inflate r segs SDone (cr_cache r) 0 dst) as [[y d'] c'] eqn:E. injection H as <- <- <-.
    apply cache_loop_within in E as [A B]; [|lia]. rewrite <- ET. apply B.
    eapply Forall_impl; [|exact Hwf]. intros [[c a] b] (A1 & A2 & _). right. cbn [fst snd]. unfold csize in HC. nia.
  - intros r x d <- H. unfold direct_read in H. rewrite ES, EG in H.
    destruct (dr_file r) as [f|]; [|injection H as <- <-; apply within_refl].
    destruct (direct_loop m inflate r f G None dst) as [y d'] eqn:E. injection H as <- <-.
    apply direct_loop_within in E as [_ E]. apply E. eapply Forall_impl; [|exact HG].
    intros g [(A & B & _) C]. split; auto. right. unfold csize in HC. unfold g_len in *. repeat split; nia.
  - intros r x d <- H. destruct (par_right m inflate sort fuel r e idx cnt dst x d HS HO H) as (_ & A & B). now split.
Qed.
Print Assumptions C57_safe.
(** False in release builds outside the safe class: reading the last column (4 elements of
    4 bytes) of a 4 x 11 dataset in 2 x 10 chunks, from a sound file into a buffer of 50
    bytes, succeeds, reports 16 bytes, and overwrites 44. *)
Theorem C57_release_refuted inflate :
  exists rc rd d, reachable Release inflate col_ds (repeat 7 5000) rc /\
    direct_new Release col_ds (Some (repeat 7 5000)) = Ok rd /\
    full_dataset col_ds /\ sel_in (d_shape col_ds) [0; 10] [4; 1] /\
    get_start_count col_sel (d_shape col_ds) = Ok ([0; 10], [4; 1]) /\
    fst (cache_read Release inflate 9 rc col_sel (repeat 0 50)) = (Ok 16, d) /\
    direct_read Release inflate sort_by_addr 9 rd col_sel (repeat 0 50) = (Ok 16, d) /\
    ~ within 16 (repeat 0 50) d /\ d = repeat 7 44 ++ repeat 0 6.
Proof.
  eexists _, _, (repeat 7 44 ++ repeat 0 6).
  split; [apply rc_new; reflexivity|]. split; [reflexivity|]. split; [exact col_full|].
  split. { split; [reflexivity|]. split; [reflexivity|]. split; [repeat constructor|].
    intros [|[|[|j]]] i n s; cbn; intros; try discriminate;
    repeat match goal with H : Some _ = Some _ |- _ => injection H as <- end; lia. }
  split; [reflexivity|]. split; [vm_compute; reflexivity|]. split; [vm_compute; reflexivity|]. split; [|reflexivity].
  intros [_ H]. specialize (H 16%nat ltac:(vm_compute; discriminate)). discriminate H.
Qed.
Print Assumptions C57_release_refuted.

(** A failing read: the example file without its last bytes.  The buffer changes, within
    the selection's 48 bytes. *)
Example C57_case : exists r d, reachable Debug toy_inflate st_ds (firstn 43 st_file) r /\
  fst (cache_read Debug toy_inflate 50 r All (repeat 9 50)) = (Err EIo, d) /\ d <> repeat 9 50 /\
  within 48 (repeat 9 50) d /\
  safe_read st_ds st_sel [1; 2] [3; 4] (repeat 9 24) 13.
Proof.
  eexists _, _. split; [apply rc_new; reflexivity|]. split; [vm_compute; reflexivity|]. split; [discriminate|].
  split; [|apply st_safe; vm_compute; auto; try discriminate].
  assert (R : reachable Debug toy_inflate st_ds (firstn 43 st_file) (mkCR st_ds (firstn 43 st_file) 2796202 12 []))
    by (apply rc_new; reflexivity).
  pose proof (proj1 (C57_debug toy_inflate sort_by_addr 50 All (repeat 9 50) sort_by_addr_ok)
    (mkCR st_ds (firstn 43 st_file) 2796202 12 [])) as H.
  destruct (cache_read Debug toy_inflate 50 (mkCR st_ds (firstn 43 st_file) 2796202 12 []) All (repeat 9 50)) as [[x d] r'] eqn:E.
  destruct (H x d r' eq_refl) as [H1 _]. specialize (H1 [0; 0] [4; 6] eq_refl). vm_compute in E. injection E as <- <- <-.
  exact H1.
Qed.
