(** * When conversions of raw bytes succeed: exactly for aligned buffers of whole elements (C48, C37).

    Each theorem is followed by a concrete case meeting its hypotheses. *)
From Verif Require Import Base Spec SpecApi Safe Chunk Extent Dataset Slicer Filters SpecFilter FilterProofs FilterProps ApiLemmas Reader SpecReader
  DirectProofs ReaderProps ReadProofs CacheProofs StreamProofs ExamplesReader Examples SliceProps SlicerExact3
  Properties1 Properties4 Properties5 Properties10 Properties16 Properties23 Properties24 Properties27 Properties32.

(** ** C48 *)

(** What the conversion of a buffer to XDR takes: the bytes viewed as integers of [w] bytes,
    each widened to 4; viewed as integers of [w] bytes, each reversed; nothing; or it is not
    implemented. *)
Inductive xdr_way : Type := Widen (w : nat) | Reverse (w : nat) | Keep | Missing.
Definition way (dt : datatype) (o : order) : xdr_way :=
  match dt with
  | Custom _ => Keep
  | UInt 1 | Int 1 => Widen 1
  | UInt 2 | Int 2 => Widen 2
  | UInt s | Int s | Float s =>
      match o with
      | LE => if s =? 1 then Keep else if s =? 2 then Reverse 2 else if s =? 4 then Reverse 4
              else if s =? 8 then Reverse 8 else Missing
      | _ => Keep
      end
  end.

Lemma cast_ok_false al w l : al = false \/ (length l mod w <> 0)%nat -> cast_ok al w l = Err ECast.
Proof.
  unfold cast_ok, ensure. intros [-> |H]; [reflexivity|]. destruct al; [|reflexivity].
  destruct (Nat.eqb_spec (length l mod w) 0); [contradiction|reflexivity].
Qed.

Lemma sized_way h al o w l : In w [2; 4; 8]%nat ->
  to_big_e_sized h al o (N.of_nat w) l =
    match o with LE => let* _ := cast_ok al w l in Ok (map_words w (swap h KInt) l) | _ => Ok l end.
Proof. intros H. destruct o; try reflexivity. destruct H as [<-|[<-|[<-|[]]]]; reflexivity. Qed.

Lemma xdr_way_eq h al1 al2 src dt o :
  xdr h al1 al2 src dt o =
  match way dt o with
  | Keep => Ok src
  | Missing => Panic
  | Reverse w => let* _ := cast_ok al1 w src in Ok (map_words w (swap h KInt) src)
  | Widen w => xdr_cast_slice h al1 al2 (match dt with Int _ => true | _ => false end) w o src
  end.
Proof.
  assert (G : forall s,
    to_big_e_sized h al1 o s src =
    match (match o with
      | LE => if s =? 1 then Keep else if s =? 2 then Reverse 2 else if s =? 4 then Reverse 4
              else if s =? 8 then Reverse 8 else Missing
      | _ => Keep end) with
    | Keep => Ok src | Missing => Panic
    | Reverse w => let* _ := cast_ok al1 w src in Ok (map_words w (swap h KInt) src)
    | Widen w => Panic end).
  { intros s. destruct o; try reflexivity. cbn [to_big_e_sized].
    destruct (N.eqb_spec s 1) as [-> |N1]; [reflexivity|]. destruct (N.eqb_spec s 2) as [-> |N2]; [reflexivity|].
    destruct (N.eqb_spec s 4) as [-> |N4]; [reflexivity|]. destruct (N.eqb_spec s 8) as [-> |N8]; [reflexivity|].
    destruct s as [|p]; [reflexivity|].
    destruct p as [p|p|]; [reflexivity| |congruence].
    destruct p as [p|p|]; [reflexivity| |congruence].
    destruct p as [p|p|]; [reflexivity| |congruence].
    destruct p as [p|p|]; [reflexivity|reflexivity|congruence]. }
  destruct dt as [s|s|s|s]; [..|reflexivity].
  - destruct s as [|[p|[p|p|]|]]; try reflexivity; (cbn [xdr way dt_size]; rewrite G; destruct o; try reflexivity; repeat (destruct (_ =? _); try reflexivity)).
  - destruct s as [|[p|[p|p|]|]]; try reflexivity; (cbn [xdr way dt_size]; rewrite G; destruct o; try reflexivity; repeat (destruct (_ =? _); try reflexivity)).
  - cbn [xdr way dt_size]. rewrite G. destruct o; try reflexivity; repeat (destruct (_ =? _); try reflexivity).
Qed.

Lemma mapM_len {A B} (f : A -> res B) : forall l r, mapM f l = Ok r -> length r = length l.
Proof.
  induction l as [|a l IH]; intros r E; cbn [mapM] in E; [injection E as <-; reflexivity|].
  apply bind_ok in E as (b & _ & E). apply bind_ok in E as (bs & E1 & E). injection E as <-. cbn [length]. f_equal. auto.
Qed.

Lemma mapM_all {A B} (f : A -> res B) : forall l, Forall (fun a => exists b, f a = Ok b) l -> exists r, mapM f l = Ok r.
Proof.
  induction 1 as [|a l (b & E) _ (r & IH)]; cbn [mapM]; eauto. rewrite E, IH. cbn [bind]. eauto.
Qed.

(** The outcome of the XDR conversion for every datatype, byte order, buffer and alignment of
    the two allocations ([al1]: the buffer's, [al2]: the new one's): a buffer that is misaligned
    for the integers it is viewed as, or not a whole number of them, is an error; nothing else
    is. *)
Theorem C48_exact h al1 al2 src dt o :
  match way dt o with
  | Keep => xdr h al1 al2 src dt o = Ok src
  | Missing => xdr h al1 al2 src dt o = Panic
  | Reverse w =>
      (xdr h al1 al2 src dt o = Err ECast <-> al1 = false \/ (length src mod w <> 0)%nat) /\
      (xdr h al1 al2 src dt o = Err ECast \/ exists r, xdr h al1 al2 src dt o = Ok r)
  | Widen w =>
      (xdr h al1 al2 src dt o = Err ECast <-> al1 = false \/ (length src mod w <> 0)%nat \/ al2 = false) /\
      (xdr h al1 al2 src dt o = Err ECast \/
       (o <> Unknown \/ src = []) /\ (exists r, xdr h al1 al2 src dt o = Ok r) \/
       o = Unknown /\ src <> [] /\ xdr h al1 al2 src dt o = Panic)
  end.
Proof.
  rewrite xdr_way_eq. assert (HW : forall w, way dt o = Widen w -> (0 < w)%nat).
  { intros w. unfold way. destruct dt as [s|s|s|s]; try discriminate;
      (destruct s as [|[p|[p|p|]|]]; destruct o; try discriminate; repeat (destruct (_ =? _); try discriminate); intros [= <-]; lia). }
  destruct (way dt o) as [w|w| |] eqn:E; try reflexivity.
  - specialize (HW w eq_refl). set (sg := match dt with Int _ => true | _ => false end). clearbody sg. unfold xdr_cast_slice.
    destruct al1; [|rewrite cast_ok_false by auto; cbn [bind]; tauto].
    destruct (Nat.eq_dec (length src mod w) 0) as [HM|HM]; [|rewrite cast_ok_false by auto; cbn [bind]; tauto].
    rewrite cast_ok_true by auto. cbn [bind].
    destruct al2; [|rewrite cast_ok_false by auto; cbn [bind]; tauto].
    rewrite cast_ok_true by (rewrite repeat_length; apply Nat.mod_mul; lia). cbn [bind].
    destruct (length src / w)%nat as [|n] eqn:En.
    { assert (src = []) as ->.
      { pose proof (Nat.div_mod (length src) w ltac:(lia)) as DM. rewrite En, HM in DM. destruct src; [reflexivity|cbn [length] in DM; lia]. }
      cbn [words mapM bind concat]. split; [split; [discriminate|intros [?|[?|?]]; congruence]|]. right. left. split; eauto. }
    destruct o eqn:Eo.
    + destruct (mapM_all (xdr_elem h sg w BE) (words w (S n) src)) as [r Er].
      { apply Forall_forall. intros v _. unfold xdr_elem. destruct h; cbn [to_native_scalar bind]; eauto. }
      rewrite Er. cbn [bind]. split; [split; [discriminate|intros [?|[?|?]]; congruence]|]. right. left. split; [left; discriminate|eauto].
    + destruct (mapM_all (xdr_elem h sg w LE) (words w (S n) src)) as [r Er].
      { apply Forall_forall. intros v _. unfold xdr_elem. destruct h; cbn [to_native_scalar bind]; eauto. }
      rewrite Er. cbn [bind]. split; [split; [discriminate|intros [?|[?|?]]; congruence]|]. right. left. split; [left; discriminate|eauto].
    + cbn [words mapM]. unfold xdr_elem at 1 3 5. destruct h; cbn [to_native_scalar bind];
        (split; [split; [discriminate|intros [?|[?|?]]; congruence]|]; right; right; split; [reflexivity|]; split; [|reflexivity];
         intros ->; cbn in En; rewrite Nat.div_0_l in En by lia; discriminate).
  - destruct al1; [|rewrite cast_ok_false by auto; cbn [bind]; tauto].
    destruct (Nat.eq_dec (length src mod w) 0) as [HM|HM]; [|rewrite cast_ok_false by auto; cbn [bind]; tauto].
    rewrite cast_ok_true by auto. cbn [bind]. split; [split; [discriminate|intros [?|?]; congruence]|eauto].
Qed.
Print Assumptions C48_exact.

(** Three bytes are not 16-bit integers; a misaligned buffer of 4 bytes is refused too; the
    same bytes of a 4-byte float are kept if they are big-endian. *)
Example C48_exact_case h :
  way (Int 2) LE = Widen 2 /\ xdr h true true [1; 2; 3] (Int 2) LE = Err ECast /\
  xdr h false true [1; 2; 3; 4] (Int 2) LE = Err ECast /\
  xdr h true true [255; 255; 3; 4] (Int 2) LE = Ok [255; 255; 255; 255; 0; 0; 4; 3] /\
  way (Float 4) LE = Reverse 4 /\ xdr h false true [1; 2; 3; 4] (Float 4) LE = Err ECast /\
  way (Float 4) BE = Keep /\ xdr h false true [1; 2; 3; 4] (Float 4) BE = Ok [1; 2; 3; 4] /\
  way (Float 2) LE = Reverse 2 /\ way (UInt 16) LE = Missing.
Proof. destruct h; vm_compute; repeat split; reflexivity. Qed.

(** ** C37 *)

(** The items of a stream of values, one for one: an item that is misaligned for the type or
    is not a whole number of elements is an error item, every other one holds its elements in
    the host's order; an error item does not end the stream. *)
Theorem C37_items h k w al o items :
  length (stream_values h k w al o items) = length items /\
  forall j b, nth_error items j = Some b ->
    (al = false \/ (length b mod w <> 0)%nat -> nth_error (stream_values h k w al o items) j = Some (Err ECast)) /\
    (al = true -> (length b mod w = 0)%nat ->
     nth_error (stream_values h k w al o items) j = Some (Ok (to_native_slice h k w o b))).
Proof.
  unfold stream_values. split; [apply map_length|]. intros j b Hb. split.
  - intros H. erewrite map_nth_error by exact Hb. now rewrite cast_ok_false.
  - intros -> H. erewrite map_nth_error by exact Hb. now rewrite cast_ok_true.
Qed.
Print Assumptions C37_items.
Example C37_items_case :
  stream_values HostLE KInt 2 true BE [[1; 2]; [3]; [4; 5; 6; 7]] = [Ok [2; 1]; Err ECast; Ok [5; 4; 7; 6]] /\
  stream_values HostLE KInt 2 false BE [[1; 2]; [3]] = [Err ECast; Err ECast].
Proof. split; vm_compute; reflexivity. Qed.

Lemma native_len h k w o l : (0 < w)%nat -> (length l mod w = 0)%nat -> length (to_native_slice h k w o l) = length l.
Proof.
  intros Hw H. apply Nat.mod_divides in H as [q Hq]; [|lia]. rewrite (to_native_length h k w o l q); auto.
Qed.

(** Selections inside the dataset, any dataset with regular chunks, any file: [values]
    returns an array exactly if the stream ends without error after as many bytes as were
    selected, and then it is the stream of values. *)
Theorem C37_exact m h k w al inflate fuel ds file rc rs e idx cnt out :
  full_dataset ds -> regular ds -> get_start_count e (d_shape ds) = Ok (idx, cnt) -> sel_in (d_shape ds) idx cnt ->
  roomy m ds cnt -> reachable m inflate ds file rc -> streamer_new m ds (Some file) = Ok rs ->
  In w [1; 2; 4; 8]%nat -> 0 < al -> N.of_nat w mod al = 0 -> d_dsize ds mod N.of_nat w = 0 ->
  prodN cnt * d_dsize ds < W64 -> d_dsize ds * (prodN cnt * d_dsize ds) < W64 ->
  (values m h k w al ds (fun e dst => fst (cache_read m inflate fuel rc e dst)) e = Ok out <->
   exists items vs, stream m inflate fuel rs e = Ok (items, SEnd) /\
     stream_values h k w true (d_order ds) items = map Ok vs /\ concat vs = out /\ lenN out = prodN cnt * d_dsize ds).
Proof.
  intros HFull HReg He Hsel HR HC HN Hw Hal Hwal Hd HW HW2.
  assert (HA : same_addr ds) by apply HReg. assert (Hd0 : 0 < d_dsize ds) by apply HReg.
  assert (Hpos : (0 < w)%nat) by (cbn in Hw; lia).
  assert (HF : fits64_lead cnt) by exact (sel_lead _ _ _ Hsel (x_eW ds idx cnt HFull Hsel)).
  set (n := prodN cnt * d_dsize ds) in *. set (dst := repeat 0 (N.to_nat n)).
  assert (Ldst : lenN dst = n) by (unfold dst, lenN; rewrite repeat_length; lia).
  destruct (C47_values m h k w al ds (fun e dst => fst (cache_read m inflate fuel rc e dst)) e idx cnt He HF HW HW2 Hpos Hal Hwal) as [_ V].
  specialize (V Hd). fold n in V. fold dst in V.
  assert (ST : rs = mkStreamer ds (Some file) (csize ds)).
  { unfold streamer_new in HN. apply bind_ok in HN as (csz & EZ & HN). injection HN as <-.
    apply csize_fresh in EZ; [|apply HFull|apply HReg]. now subst csz. }
  assert (Hmod : forall items, stream m inflate fuel rs e = Ok (items, SEnd) ->
    n <= lenN (concat items) /\ Forall (fun b : bytes => (length b mod w = 0)%nat) items).
  { intros items HS. rewrite ST in HS. destruct (segs_of_stream _ _ _ _ _ _ _ _ HA HS) as (segs & E1 & E2). split.
    - apply (fill_writes m (load m inflate file ds (csize ds)) fuel ds e idx cnt (lenN (concat items)) (concat items)); auto.
      + exact (load_len m inflate file ds HReg).
      + exists segs, items. repeat split; auto. lia.
    - apply Forall_forall. intros o Ho. destruct (Forall2_in_r _ _ _ _ E2 Ho) as (sg & _ & Hsg). eapply seg_ok_mod; eauto. }
  rewrite V. split.
  - intros HV. destruct (fst (cache_read m inflate fuel rc e dst)) as [[v| | | |] d] eqn:ER; try discriminate. injection HV as <-.
    destruct (C35_agrees m inflate fuel ds file rc rs e dst v d HA HC HN ER) as (items & HS & Ed).
    destruct (Hmod items HS) as [HL HM].
    destruct (stream_values_ok h k w (d_order ds) items Hpos HM) as (vs & E1 & E2).
    pose proof (cache_read_len m inflate fuel rc e dst) as HLen. rewrite ER in HLen. cbn [snd] in HLen.
    assert (Ed' : d = concat items).
    { rewrite Ed, skipn_all2; [apply app_nil_r|]. unfold lenN in *. lia. }
    exists items, vs. split; [exact HS|]. split; [exact E1|]. split; [now rewrite E2, Ed'|].
    assert (Hdm : (length d mod w = 0)%nat).
    { unfold lenN in HLen, Ldst. assert (LD : length d = N.to_nat n) by lia. rewrite LD. unfold n.
      apply N.mod_divide in Hd as [z Hz]; [|lia]. rewrite Hz.
      replace (N.to_nat (prodN cnt * (z * N.of_nat w))) with (N.to_nat (prodN cnt * z) * w)%nat by lia. apply Nat.mod_mul. lia. }
    unfold lenN in *. rewrite (native_len h k w (d_order ds) d Hpos Hdm). lia.
  - intros (items & vs & HS & E1 & E2 & E3).
    destruct (Hmod items HS) as [HL HM].
    destruct (stream_values_ok h k w (d_order ds) items Hpos HM) as (vs' & E1' & E2').
    assert (vs = vs') as <-.
    { rewrite E1 in E1'. clear - E1'. revert vs' E1'. induction vs as [|a vs IH]; intros [|b vs'] E; try discriminate; auto.
      cbn [map] in E. injection E as <- E. f_equal. auto. }
    assert (LC : lenN (concat items) = n).
    { rewrite E2' in E2. subst out. rewrite <- E3. unfold lenN. rewrite native_len; auto.
      clear - HM Hpos. induction HM as [|b items Hb HM IH]; [now rewrite Nat.mod_0_l by lia|]. cbn [concat]. rewrite app_length.
      rewrite Nat.add_mod, Hb, IH, Nat.add_0_l, Nat.mod_0_l by lia. reflexivity. }
    assert (RS : read_size m ds e dst = Ok n).
    { rewrite (read_size_eq m ds e dst idx cnt He HF HW). fold n. rewrite Ldst, N.leb_refl. reflexivity. }
    rewrite (C35_converse m inflate fuel ds file rc rs e dst items n HA HC HN HS RS) by lia.
    rewrite skipn_all2 by (unfold lenN in *; lia). rewrite app_nil_r. f_equal. now rewrite <- E2, E2'.
Qed.
Print Assumptions C37_exact.

(** With overflow checks the size comes by itself: [values] returns an array exactly if the
    stream ends without error, and it is the stream of values. *)
Theorem C37_debug h k w al inflate fuel ds file rc rs e idx cnt out :
  full_dataset ds -> regular ds -> get_start_count e (d_shape ds) = Ok (idx, cnt) -> sel_in (d_shape ds) idx cnt ->
  reachable Debug inflate ds file rc -> streamer_new Debug ds (Some file) = Ok rs ->
  In w [1; 2; 4; 8]%nat -> 0 < al -> N.of_nat w mod al = 0 -> d_dsize ds mod N.of_nat w = 0 ->
  prodN cnt * d_dsize ds < W64 -> d_dsize ds * (prodN cnt * d_dsize ds) < W64 ->
  (values Debug h k w al ds (fun e dst => fst (cache_read Debug inflate fuel rc e dst)) e = Ok out <->
   exists items vs, stream Debug inflate fuel rs e = Ok (items, SEnd) /\
     stream_values h k w true (d_order ds) items = map Ok vs /\ concat vs = out).
Proof.
  intros HFull HReg He Hsel HC HN Hw Hal Hwal Hd HW HW2.
  assert (HR : roomy Debug ds cnt) by (intros H; discriminate).
  rewrite (C37_exact Debug h k w al inflate fuel ds file rc rs e idx cnt out HFull HReg He Hsel HR HC HN Hw Hal Hwal Hd HW HW2).
  split; [intros (items & vs & A & B & C & _); eauto|]. intros (items & vs & HS & E1 & E2). exists items, vs. repeat split; auto.
  assert (HA : same_addr ds) by apply HReg. assert (Hd0 : 0 < d_dsize ds) by apply HReg.
  assert (Hpos : (0 < w)%nat) by (cbn in Hw; lia).
  assert (ST : rs = mkStreamer ds (Some file) (csize ds)).
  { unfold streamer_new in HN. apply bind_ok in HN as (csz & EZ & HN). injection HN as <-.
    apply csize_fresh in EZ; [|apply HFull|apply HReg]. now subst csz. }
  rewrite ST in HS. destruct (segs_of_stream _ _ _ _ _ _ _ _ HA HS) as (segs & X1 & X2).
  destruct (fill_writes Debug (load Debug inflate file ds (csize ds)) fuel ds e idx cnt (lenN (concat items)) (concat items)) as [_ G]; auto.
  { exact (load_len Debug inflate file ds HReg). }
  { exists segs, items. repeat split; auto. lia. }
  assert (HM : Forall (fun b : bytes => (length b mod w = 0)%nat) items).
  { apply Forall_forall. intros o Ho. destruct (Forall2_in_r _ _ _ _ X2 Ho) as (sg & _ & Hsg). eapply seg_ok_mod; eauto. }
  destruct (stream_values_ok h k w (d_order ds) items Hpos HM) as (vs' & E1' & E2').
  assert (vs = vs') as <-.
  { rewrite E1 in E1'. clear - E1'. revert vs' E1'. induction vs as [|a vs IH]; intros [|b vs'] E; try discriminate; auto.
    cbn [map] in E. injection E as <- E. f_equal. auto. }
  rewrite <- (G eq_refl), <- E2, E2'. unfold lenN. rewrite native_len; auto.
  clear - HM Hpos. induction HM as [|b items Hb HM IH]; [now rewrite Nat.mod_0_l by lia|]. cbn [concat]. rewrite app_length.
  rewrite Nat.add_mod, Hb, IH, Nat.add_0_l, Nat.mod_0_l by lia. reflexivity.
Qed.
Print Assumptions C37_debug.

(** All of the 4 x 3 x 5 dataset in chunks of 2 x 2 x 5, in both build modes: outside the class
    of right reads, and still one and the same array. *)
Example C37_exact_case m h inflate : let rc := mkCR bad_ds (repeat 7 5000) 419430 80 [] in exists rs out,
  full_dataset bad_ds /\ regular bad_ds /\ get_start_count All (d_shape bad_ds) = Ok ([0; 0; 0], [4; 3; 5]) /\
  sel_in (d_shape bad_ds) [0; 0; 0] [4; 3; 5] /\ roomy m bad_ds [4; 3; 5] /\
  reachable m inflate bad_ds (repeat 7 5000) rc /\ streamer_new m bad_ds (Some (repeat 7 5000)) = Ok rs /\
  d_dsize bad_ds mod N.of_nat 4 = 0 /\
  values m h KInt 4 4 bad_ds (fun e dst => fst (cache_read m inflate 61 rc e dst)) All = Ok out.
Proof.
  intros rc. exists (mkStreamer bad_ds (Some (repeat 7 5000)) 80), (repeat 7 240).
  split; [exact bad_full|]. split; [exact bad_regular|]. split; [reflexivity|]. split; [sel_in_tac|]. split; [intros _; reflexivity|].
  split; [apply rc_new; destruct m; reflexivity|]. split; [destruct m; reflexivity|]. split; [reflexivity|].
  destruct m, h; vm_compute; reflexivity.
Qed.

(** Without overflow checks: of a column of the 4 x 11 dataset in chunks of 2 x 10 the stream
    ends without error, after 11 values instead of 4; [values] panics. *)
Theorem C37_release_refuted h inflate : let rc := mkCR col_ds (repeat 7 5000) 419430 80 [] in
  full_dataset col_ds /\ get_start_count col_sel (d_shape col_ds) = Ok ([0; 10], [4; 1]) /\
  sel_in (d_shape col_ds) [0; 10] [4; 1] /\ reachable Release inflate col_ds (repeat 7 5000) rc /\
  (exists items rs, streamer_new Release col_ds (Some (repeat 7 5000)) = Ok rs /\
     stream Release inflate 9 rs col_sel = Ok (items, SEnd) /\ length (concat items) = 44%nat) /\
  values Release h KInt 4 4 col_ds (fun e dst => fst (cache_read Release inflate 9 rc e dst)) col_sel = Panic.
Proof.
  intros rc. split; [exact col_full|]. split; [reflexivity|]. split; [sel_in_tac|]. split; [apply rc_new; reflexivity|].
  split.
  - do 2 eexists. split; [reflexivity|]. split; [vm_compute; reflexivity|]. reflexivity.
  - destruct h; vm_compute; reflexivity.
Qed.
Print Assumptions C37_release_refuted.
