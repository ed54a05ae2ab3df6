(** * C20: exactly which filter pipelines are decoded.

    Each theorem is followed by a concrete case meeting its hypotheses. *)
From Verif Require Import Base Spec Safe Chunk Dataset SpecApi Filters SpecFilter FilterProofs FilterProps Examples Properties3.

Local Open Scope nat_scope.

(** How many deflate filters. *)
Fixpoint deflates (fs : list h5filter) : nat :=
  match fs with [] => 0 | FDeflate _ :: fs' => S (deflates fs') | _ :: fs' => deflates fs' end.

(** The pipelines that are decoded: none, shuffle, deflate, shuffle then deflate, the elements
    having 1, 2, 4 or 8 bytes if shuffled; elements of one byte may be shuffled at any stage
    and any number of times (which changes nothing). *)
Definition decodable (w : nat) (fs : list h5filter) : Prop :=
  (exists sh gz, std_filters fs sh gz /\ (sh = true -> In w [1; 2; 4; 8])) \/
  (w = 1 /\ deflates fs <= 1).

Lemma pipeline_app inflate w fs1 fs2 l s r : pipeline inflate w fs1 l s -> pipeline inflate w fs2 s r ->
  pipeline inflate w (fs1 ++ fs2) l r.
Proof. induction 1; cbn [app]; auto; intros; econstructor; eauto. Qed.

Lemma shuffle_exists w n l : (0 < w) -> length l = w * n -> exists s, shuffled_of w n l s /\ length s = w * n.
Proof.
  intros Hw HL. destruct (shuffle_inverse w n l (repeat 0%N (length l)) (repeat 0%N (length l))) as (s & _ & S & _);
    rewrite ?repeat_length; auto. exists s. split; auto. apply S.
Qed.

Lemma unshuffle_of w n l s : In w [1; 2; 4; 8] -> shuffled_of w n l s -> unshuffle_sized s (N.of_nat w) = Ok l.
Proof.
  intros Hw HS. assert (W0 : 0 < w) by (cbn in Hw; lia). pose proof HS as (S1 & _ & _).
  destruct (shuffle_inverse w n l (repeat 0%N (length l)) (repeat 0%N (length l))) as (s' & _ & S' & _ & _ & Z);
    rewrite ?repeat_length; auto. rewrite (shuffled_of_fun w n l s' s) in Z by auto. auto.
Qed.

(** Shuffling [k] times does not change nothing: a byte moves from 1 to [w^k], then to
    [w^(k-1)], and so on to [w]. *)
Lemma track inflate w K : 2 <= w -> forall t q l, length l = w * w ^ K -> t <= q <= K ->
  exists s, pipeline inflate w (repeat FShuffle t) l s /\ length s = w * w ^ K /\ nth (w ^ (q - t)) s 0%N = nth (w ^ q) l 0%N.
Proof.
  intros Hw. induction t as [|t IH]; intros q l HL Hq.
  - exists l. rewrite Nat.sub_0_r. split; [constructor|auto].
  - destruct (shuffle_exists w (w ^ K) l ltac:(lia) HL) as (s1 & S1 & L1).
    destruct (IH (q - 1) s1 L1 ltac:(lia)) as (s & P & L & E). exists s. split; [econstructor; eauto|]. split; auto.
    replace (q - S t) with (q - 1 - t) by lia. rewrite E. destruct S1 as (_ & _ & S1).
    assert (HP : w ^ (q - 1) < w ^ K) by (apply Nat.pow_lt_mono_r; lia).
    specialize (S1 0 (w ^ (q - 1)) ltac:(lia) HP). cbn [Nat.mul Nat.add] in S1. rewrite S1. f_equal.
    replace q with (S (q - 1)) at 2 by lia. cbn [Nat.pow]. lia.
Qed.

Lemma moved inflate w k : 2 <= w -> 1 <= k -> exists l s n, length l = w * n /\ length s = w * n /\
  pipeline inflate w (repeat FShuffle k) l s /\ s <> l.
Proof.
  intros Hw Hk. set (n := w ^ k).
  assert (Hn : 2 <= n) by (unfold n; destruct k as [|k]; [lia|]; cbn [Nat.pow]; pose proof (Nat.pow_nonzero w k ltac:(lia)); nia).
  set (l := 0%N :: 1%N :: repeat 0%N (w * n - 2)).
  assert (HL : length l = w * n) by (unfold l; cbn [length]; rewrite repeat_length; nia).
  destruct (shuffle_exists w n l ltac:(lia) HL) as (s1 & S1 & L1).
  destruct (track inflate w k Hw (k - 1) k s1 L1 ltac:(lia)) as (s & P & L & E).
  exists l, s, n. split; auto. split; auto. split.
  - destruct k as [|k]; [lia|]. cbn [Nat.sub] in P. rewrite Nat.sub_0_r in P. econstructor; eauto.
  - intros ->. replace (k - (k - 1)) with 1 in E by lia. rewrite Nat.pow_1_r in E. fold n in E.
    destruct S1 as (_ & _ & S1). specialize (S1 1 0 ltac:(lia) ltac:(lia)). cbn [Nat.mul Nat.add] in S1. rewrite !Nat.add_0_r in S1.
    rewrite S1 in E. unfold l in E. destruct w as [|[|w]]; try lia. cbn [nth] in E.
    destruct (nth_in_or_default w (repeat 0%N (S (S w) * n - 2)) 0%N) as [H|H]; [|congruence].
    apply repeat_spec in H. congruence.
Qed.

Lemma shuffle_only i1 i2 w k : forall l s, pipeline i1 w (repeat FShuffle k) l s -> pipeline i2 w (repeat FShuffle k) l s.
Proof. induction k as [|k IH]; intros l s H; inversion H; subst; [constructor|]. econstructor; eauto. Qed.

Definition accepted (fs : list h5filter) : Prop := ~ In FOther fs.

Lemma scan_flags fs : forall sh gz, accepted fs -> exists g,
  scan_filters fs sh gz = Ok (sh || existsb (fun f => match f with FShuffle => true | _ => false end) fs, g) /\
  (is_some g = is_some gz || negb (deflates fs =? 0)).
Proof.
  unfold accepted. induction fs as [|[|z|] fs IH]; intros sh gz HA; cbn [scan_filters existsb deflates].
  - exists gz. rewrite orb_false_r. cbn. now rewrite orb_false_r.
  - destruct (IH true gz) as (g & E1 & E2); [cbn in HA; tauto|]. exists g. rewrite E1. rewrite orb_true_r. auto.
  - destruct (IH sh (Some z)) as (g & E1 & E2); [cbn in HA; tauto|]. exists g. rewrite E1. split; auto. rewrite E2. cbn. now rewrite orb_true_r.
  - elim HA. now left.
Qed.

Definition shuffles (fs : list h5filter) : bool := existsb (fun f => match f with FShuffle => true | _ => false end) fs.

(** Growing by [w] bytes at each deflate. *)
Lemma grow w fs : (0 < w) -> accepted fs -> forall n l, length l = w * n ->
  exists s, pipeline (fun s => Some (skipn w s)) w fs l s /\ length s = w * (n + deflates fs).
Proof.
  intros Hw. induction fs as [|[|z|] fs IH]; intros HA n l HL; cbn [deflates].
  - exists l. split; [constructor|]. rewrite Nat.add_0_r. auto.
  - destruct (shuffle_exists w n l Hw HL) as (s & S & L). destruct (IH ltac:(intros H; apply HA; now right) n s L) as (r & P & LR).
    exists r. split; auto. econstructor; eauto.
  - destruct (IH ltac:(intros H; apply HA; now right) (S n) (repeat 0%N w ++ l)) as (r & P & LR).
    { rewrite app_length, repeat_length. lia. }
    exists r. split; [|lia]. econstructor; [|exact P]. cbn beta. rewrite skipn_app, repeat_length, Nat.sub_diag, skipn_all2 by (rewrite repeat_length; lia).
    reflexivity.
  - elim HA. now left.
Qed.

Lemma empty_pipe w fs : accepted fs -> pipeline (fun _ => Some []) w fs [] [].
Proof.
  induction fs as [|[|z|] fs IH]; intros HA; try (now elim HA; left); [constructor| |].
  - apply pl_shuffle with (n := 0) (s := []); [|apply IH; intros H; apply HA; now right].
    split; [cbn; lia|]. split; [cbn; lia|]. intros; lia.
  - econstructor; [reflexivity|apply IH; intros H; apply HA; now right].
Qed.

Lemma split_fs fs : accepted fs -> deflates fs <= 1 ->
  (fs = repeat FShuffle (length fs) /\ deflates fs = 0) \/
  exists a z b, fs = repeat FShuffle a ++ FDeflate z :: repeat FShuffle b /\ deflates fs = 1.
Proof.
  induction fs as [|[|z|] fs IH]; intros HA HD; cbn [deflates] in *.
  - left. auto.
  - destruct IH as [[-> E]|(a & z & b & -> & E)]; auto; [intros H; apply HA; now right| |].
    + left. cbn [length repeat]. rewrite repeat_length. split; auto.
    + right. exists (S a), z, b. auto.
  - destruct IH as [[-> E]|(a & z' & b & -> & E)]; auto; [intros H; apply HA; now right|lia| |lia].
    right. exists 0, z, (length fs). cbn [repeat app]. split; auto.
  - elim HA. now left.
Qed.

Lemma shuffles_repeat a fs : shuffles (repeat FShuffle a ++ fs) = negb (a =? 0) || shuffles fs.
Proof. destruct a; reflexivity. Qed.

Lemma one_byte inflate fs raw stored : pipeline inflate 1 fs raw stored ->
  (deflates fs = 0 -> stored = raw) /\ (deflates fs = 1 -> inflate stored = Some raw).
Proof.
  induction 1 as [l|fs l n s r (S1 & S2 & S3) P [IH1 IH2]|fs l z s r E P [IH1 IH2]]; cbn [deflates].
  - split; auto. discriminate.
  - assert (s = l) as <-.
    { apply (nth_ext _ _ 0%N 0%N); [congruence|]. intros j Hj. specialize (S3 0 j ltac:(lia) ltac:(lia)).
      cbn [Nat.mul Nat.add] in S3. rewrite S3. f_equal. lia. }
    auto.
  - split; [discriminate|]. intros [= H]. now rewrite (IH1 H).
Qed.

Lemma decode_right m w fs inflate raw stored : 0 < w < 16 -> accepted fs -> decodable w fs -> pipeline inflate w fs raw stored ->
  decode_chunk m inflate stored (lenN raw) (N.of_nat w) (negb (deflates fs =? 0)) (shuffles fs) = Ok raw.
Proof.
  intros Hw HA [(sh & gz & HS & Hin)|[-> HD]] HP.
  - pose proof (decode_ok m inflate fs sh gz w raw stored HS HP Hin ltac:(lia)) as E.
    inversion HS; subst; exact E.
  - destruct (one_byte _ _ _ _ HP) as [H0 H1]. unfold decode_chunk. rewrite dbg_ok by reflexivity. cbn [bind].
    change (1 <? N.of_nat 1)%N with false. rewrite andb_false_r.
    destruct (deflates fs) as [|[|d]] eqn:ED; [| |lia]; cbn [Nat.eqb negb].
    + cbn [bind]. now rewrite H0.
    + unfold decompress. rewrite H1 by auto. rewrite N.leb_refl. cbn [bind].
      replace (N.to_nat (lenN raw) - length raw) with 0 by (unfold lenN; lia). cbn [repeat]. rewrite app_nil_r.
      rewrite dbg_ok by (apply N.eqb_refl). reflexivity.
Qed.

Lemma decode_wrong m w fs : 0 < w < 16 -> accepted fs ->
  (forall inflate raw stored, pipeline inflate w fs raw stored ->
     decode_chunk m inflate stored (lenN raw) (N.of_nat w) (negb (deflates fs =? 0)) (shuffles fs) = Ok raw) -> decodable w fs.
Proof.
  intros Hw HA H.
  (* at most one deflate *)
  assert (HD : deflates fs <= 1).
  { destruct (Nat.le_gt_cases (deflates fs) 1) as [|HD]; auto. exfalso.
    destruct (grow w fs ltac:(lia) HA 1 (repeat 0%N w) ltac:(rewrite repeat_length; lia)) as (s & P & L).
    specialize (H _ _ _ P). unfold decode_chunk in H. rewrite dbg_ok in H by (apply N.ltb_lt; lia). cbn [bind] in H.
    replace (deflates fs =? 0) with false in H by (symmetry; apply Nat.eqb_neq; lia). cbn [negb] in H.
    unfold decompress in H. rewrite (proj2 (N.leb_gt _ _)) in H; [discriminate|].
    unfold lenN. rewrite skipn_length, L, repeat_length. nia. }
  (* the sizes *)
  assert (HW : shuffles fs = true -> In w [1; 2; 4; 8]).
  { intros HS. pose proof (H _ _ _ (empty_pipe w fs HA)) as E. unfold decode_chunk in E. rewrite dbg_ok in E by (apply N.ltb_lt; lia). cbn [bind] in E.
    rewrite HS in E. cbn [andb] in E.
    clear H HA HD HS. revert E. generalize (deflates fs =? 0). intros d E.
    do 16 (destruct w as [|w]; [try lia; cbn [In]; auto 10; exfalso; revert E; destruct d, m; vm_compute; discriminate|]). lia. }
  destruct (Nat.eq_dec w 1) as [->|W1]; [right; auto|].
  destruct (split_fs fs HA HD) as [[E0 ED]|(a & z & b & E0 & ED)].
  - (* only shuffles *)
    rewrite ED in H. cbn [Nat.eqb negb] in H. generalize dependent (length fs). intros k ->.
    destruct k as [|[|k]]; [left; exists false, false; split; [constructor|discriminate]
      |left; exists true, false; split; [constructor|auto]|]. exfalso.
    destruct (moved (fun _ => None) w (S k) ltac:(lia) ltac:(lia)) as (l & s & n & Ll & Ls & P & NE).
    destruct (shuffle_exists w n s ltac:(lia) Ls) as (r & SR & Lr).
    assert (PP : pipeline (fun _ => None) w (repeat FShuffle (S (S k))) l r).
    { replace (S (S k)) with (S k + 1) by lia. rewrite repeat_app. eapply pipeline_app; eauto. econstructor; eauto. constructor. }
    specialize (H _ _ _ PP). unfold decode_chunk in H. rewrite dbg_ok in H by (apply N.ltb_lt; lia). cbn [bind] in H.
    cbn [shuffles repeat existsb orb andb] in H. rewrite (proj2 (N.ltb_lt _ _)) in H by lia.
    rewrite (unshuffle_of w n s r) in H by auto. congruence.
  - rewrite ED in H. cbn [Nat.eqb negb] in H. subst fs.
    assert (HB : b = 0).
    { destruct b as [|b]; auto. exfalso.
      set (infl := fun d s : bytes => if list_eq_dec N.eq_dec s d then Some ([] : bytes) else None).
      destruct (moved (infl []) w (S b) ltac:(lia) ltac:(lia)) as (d & r & n & Ld & Lr & P & NE).
      assert (PP : pipeline (infl d) w (repeat FShuffle a ++ FDeflate z :: repeat FShuffle (S b)) [] r).
      { apply pipeline_app with (s := []).
        - clear. induction a; [constructor|]. apply pl_shuffle with (n := 0) (s := []); auto. split; [cbn; lia|]. split; [cbn; lia|]. intros; lia.
        - econstructor; [|eapply shuffle_only; exact P]. unfold infl. destruct (list_eq_dec N.eq_dec d d); congruence. }
      specialize (H _ _ _ PP). unfold decode_chunk in H. rewrite dbg_ok in H by (apply N.ltb_lt; lia). cbn [bind] in H.
      unfold decompress, infl in H. destruct (list_eq_dec N.eq_dec r d); [congruence|discriminate]. }
    subst b. cbn [repeat] in *.
    destruct a as [|[|a]]; [left; exists false, true; split; [constructor|discriminate]
      |left; exists true, true; split; [constructor|auto]|]. exfalso.
    destruct (moved (fun _ => None) w (S a) ltac:(lia) ltac:(lia)) as (l & s & n & Ll & Ls & P & NE).
    destruct (shuffle_exists w n s ltac:(lia) Ls) as (r & SR & Lr).
    assert (PP : pipeline (fun _ => Some r) w (repeat FShuffle (S (S a)) ++ [FDeflate z]) l []).
    { apply pipeline_app with (s := r); [|econstructor; [reflexivity|constructor]].
      replace (S (S a)) with (S a + 1) by lia. rewrite repeat_app. apply pipeline_app with (s := s); [eapply shuffle_only; exact P|]. econstructor; eauto. constructor. }
    specialize (H _ _ _ PP). unfold decode_chunk in H. rewrite dbg_ok in H by (apply N.ltb_lt; lia). cbn [bind] in H.
    unfold decompress in H. assert (LL : lenN r = lenN l) by (unfold lenN; congruence). rewrite LL, N.leb_refl in H. cbn [bind] in H.
    replace (N.to_nat (lenN l) - length r) with 0 in H by (unfold lenN in *; lia). cbn [repeat] in H. rewrite app_nil_r, LL in H.
    rewrite dbg_ok in H by (apply N.eqb_refl). cbn [bind] in H.
    cbn [shuffles existsb app orb andb] in H. rewrite (proj2 (N.ltb_lt _ _)) in H by lia.
    rewrite (unshuffle_of w n s r) in H by auto. congruence.
Qed.

(** For every dataset as the indexer builds it: all chunks, as every way of storing them allows,
    are decoded to the data - whatever the data, the size of the chunk and the compressor - if
    and only if the pipeline is one of those above. *)
Theorem C20_exact m h ds : dataset_index m h = Ok ds -> (0 < d_dsize ds < 16)%N ->
  ((forall inflate raw stored, pipeline inflate (N.to_nat (d_dsize ds)) (h_filters h) raw stored ->
      decode_chunk m inflate stored (lenN raw) (d_dsize ds) (is_some (d_gzip ds)) (d_shuffle ds) = Ok raw) <->
   decodable (N.to_nat (d_dsize ds)) (h_filters h)).
Proof.
  intros HI Hsz.
  assert (HX : accepted (h_filters h) /\ is_some (d_gzip ds) = negb (deflates (h_filters h) =? 0) /\ d_shuffle ds = shuffles (h_filters h)).
  { unfold dataset_index in HI. apply bind_ok in HI as ([sh gz] & Eg & HI).
    assert (HA : accepted (h_filters h)).
    { intros HF. clear - Eg HF. revert Eg. generalize false, (@None N). generalize dependent (h_filters h). intros fs.
      induction fs as [|[|z|] fs IH]; intros HF b o E; cbn [scan_filters] in E; try discriminate; [contradiction| |];
        (destruct HF as [HF|HF]; [discriminate|]); eapply IH; eauto. }
    destruct (scan_flags (h_filters h) false None HA) as (g & E1 & E2). rewrite E1 in Eg. injection Eg as <- <-.
    apply bind_ok in HI as (chunks & _ & HI). apply bind_ok in HI as (grid & _ & HI).
    apply bind_ok in HI as (ex & _ & HI). apply bind_ok in HI as ([] & _ & HI).
    unfold dataset_new in HI. repeat (apply bind_ok in HI as (? & _ & HI)). injection HI as <-. cbn [d_gzip d_shuffle]. auto. }
  destruct HX as (HA & -> & ->). 
  clear HI. revert Hsz. rewrite <- (N2Nat.id (d_dsize ds)). generalize (N.to_nat (d_dsize ds)) as w. intros w Hsz. rewrite Nat2N.id. split.
  - apply decode_wrong; auto. lia.
  - intros HD inflate raw stored HP. apply decode_right; auto. lia.
Qed.
Print Assumptions C20_exact.
Example C20_exact_case m : dataset_index m ex_h5 = Ok ex_ds /\ (0 < d_dsize ex_ds < 16)%N /\
  decodable (N.to_nat (d_dsize ex_ds)) (h_filters ex_h5) /\
  (exists ds, dataset_index m ds_h5 = Ok ds /\ (0 < d_dsize ds < 16)%N /\ ~ decodable (N.to_nat (d_dsize ds)) (h_filters ds_h5)).
Proof.
  split; [apply ex_indexed|]. split; [split; reflexivity|]. split.
  - left. exists true, true. split; [constructor|cbn; auto].
  - destruct C20_refuted as [(ds & HD) _]. destruct (HD m) as (E & F & S & _). exists ds. rewrite S. split; auto. split; [split; reflexivity|].
    rewrite F. intros [(sh & gz & HS & _)|[H _]]; [inversion HS|discriminate].
Qed.
