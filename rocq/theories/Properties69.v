(** * C93: streams while calls fail and the file is written. *)
From Coq Require Import List NArith Lia Bool.
From Verif Require Import Base Spec Extent Chunk Dataset Slicer Filters Reader SpecApi SpecReader CacheProofs ReadProofs
  ReaderProps StreamProofs Changing StreamLive Properties4 Properties15 Properties65 Properties68 ExamplesReader.
Import ListNotations.
Open Scope N_scope.

(** ** Specification *)

(** What a stream that is cut short by a failure gives, of one that gives [items] and ends with [z]. *)
Definition cut (items items' : list bytes) (z z' : send) : Prop :=
  items' = items /\ z' = z \/ (exists rest, items = items' ++ rest) /\ z' = SErr EIo.
(** The [i]-th item is the [i]-th item of one of the streams, or there is a failure. *)
Definition mixed_items (streams : nat -> list bytes) (items' : list bytes) (z' : send) : Prop :=
  (forall i b, nth_error items' i = Some b -> exists n, nth_error (streams n) i = Some b) /\
  (z' = SEnd /\ (forall n, length items' = length (streams n)) \/ z' = SErr EIo /\ forall n, (length items' <= length (streams n))%nat).

(** ** Proof *)

Section L.
Context (m : mode) (cap : N) (xf : res N).

Lemma loop_cut (g0 : chunk -> res bytes) (get : nat -> chunk -> res bytes) (P : chunk -> Prop) :
  (forall n c, P c -> get n c = g0 c \/ get n c = Err EIo) -> forall l n cache, Forall (fun t => P (fst (fst t))) l ->
  cut (fst (stream_loop m g0 cap xf l cache)) (fst (stream_loop_n m get cap xf l n cache))
      (snd (stream_loop m g0 cap xf l cache)) (snd (stream_loop_n m get cap xf l n cache)).
Proof.
  intros HG. induction l as [|[[c s0] e0] l IH]; intros n cache HF; cbn [stream_loop stream_loop_n]; [left; auto|].
  inversion HF as [|? ? F1 F2]; subst. cbn [fst] in F1. fold (srange m xf s0 e0).
  destruct (srange m xf s0 e0) as [[s e]| | | |]; try (left; split; reflexivity).
  destruct (lru_get (c_addr c) cache) as [[data cache']|].
  - destruct (take_slice m data s e) as [b| | | |]; try (left; split; reflexivity).
    specialize (IH n cache' F2). destruct (stream_loop m g0 cap xf l cache') as [bs z]. destruct (stream_loop_n m get cap xf l n cache') as [bs' z'].
    cbn [fst snd] in *. destruct IH as [[-> ->]|[(rest & ->) ->]]; [left; auto|right]. split; auto. exists rest. reflexivity.
  - destruct (HG n c F1) as [-> | ->].
    + destruct (g0 c) as [data| | | |]; try (left; split; reflexivity).
      destruct (take_slice m data s e) as [b| | | |]; try (left; split; reflexivity).
      specialize (IH (S n) (lru_put cap (c_addr c) data cache) F2).
      destruct (stream_loop m g0 cap xf l (lru_put cap (c_addr c) data cache)) as [bs z]. destruct (stream_loop_n m get cap xf l (S n) (lru_put cap (c_addr c) data cache)) as [bs' z'].
      cbn [fst snd] in *. destruct IH as [[-> ->]|[(rest & ->) ->]]; [left; auto|right]. split; auto. exists rest. reflexivity.
    + right. cbn [fst snd send_of]. split; auto. now eexists.
Qed.

(** Every version [v] has a stream; the [n]-th load is of version [n], or fails. *)
Lemma loop_mixed (gv : nat -> chunk -> res bytes) (get : nat -> chunk -> res bytes) (P : chunk -> Prop) :
  (forall n c, P c -> get n c = gv n c \/ get n c = Err EIo) ->
  (forall n c c', P c -> P c' -> c_addr c = c_addr c' -> gv n c = gv n c') ->
  forall l n cache (streams : nat -> list bytes), Forall (fun t => P (fst (fst t))) l ->
  (forall v, splain m (gv v) xf l = (streams v, SEnd)) ->
  (forall k d, lru_find k cache = Some d -> exists v, forall c, P c -> c_addr c = k -> gv v c = Ok d) ->
  mixed_items streams (fst (stream_loop_n m get cap xf l n cache)) (snd (stream_loop_n m get cap xf l n cache)) /\
  ((forall n c, P c -> get n c = gv n c) -> snd (stream_loop_n m get cap xf l n cache) = SEnd).
Proof.
  intros HG HA. induction l as [|[[c s0] e0] l IH]; intros n cache streams HF HS HC; cbn [stream_loop_n].
  - split; [|reflexivity]. split; [intros i b H; destruct i; discriminate|]. left. split; auto. intros v. specialize (HS v). cbn in HS. injection HS as <-. reflexivity.
  - inversion HF as [|? ? F1 F2]; subst. cbn [fst] in F1. fold (srange m xf s0 e0).
    assert (HS1 : forall v, exists s e d b, srange m xf s0 e0 = Ok (s, e) /\ gv v c = Ok d /\ take_slice m d s e = Ok b /\
      streams v = b :: tl (streams v) /\ splain m (gv v) xf l = (tl (streams v), SEnd)).
    { intros v. specialize (HS v). cbn [splain] in HS. destruct (srange m xf s0 e0) as [[s e]| | | |]; try discriminate HS. cbn [bind] in HS.
      destruct (gv v c) as [d| | | |]; try discriminate HS. cbn [bind] in HS. destruct (take_slice m d s e) as [b| | | |] eqn:ET; try discriminate HS.
      destruct (splain m (gv v) xf l) as [bs z]. exists s, e, d, b. injection HS as <- ->. auto 6. }
    destruct (HS1 0%nat) as (s & e & _ & _ & ES & _). rewrite ES in *.
    assert (HS2 : forall v, exists d b, gv v c = Ok d /\ take_slice m d s e = Ok b /\ streams v = b :: tl (streams v)).
    { intros v. destruct (HS1 v) as (s' & e' & d & b & E1 & E2 & E3 & E4 & _). injection E1 as <- <-. eauto. }
    assert (HS3 : forall v, splain m (gv v) xf l = (tl (streams v), SEnd)) by (intros v; destruct (HS1 v) as (? & ? & ? & ? & _ & _ & _ & _ & X); exact X).
    clear HS HS1.
    assert (STEP : forall d n' cache', (exists v, gv v c = Ok d) ->
      (forall k d, lru_find k cache' = Some d -> exists v, forall c, P c -> c_addr c = k -> gv v c = Ok d) ->
      let o := match take_slice m d s e with Ok b => let (bs, z) := stream_loop_n m get cap xf l n' cache' in (b :: bs, z) | x => ([], send_of x) end in
      mixed_items streams (fst o) (snd o) /\ ((forall n c, P c -> get n c = gv n c) -> snd o = SEnd)).
    { intros d n' cache' (v & Ev) HC'. destruct (HS2 v) as (d' & b & E1 & E2 & E3). rewrite Ev in E1. injection E1 as <-. rewrite E2.
      specialize (IH n' cache' (fun v => tl (streams v)) F2 HS3 HC'). destruct (stream_loop_n m get cap xf l n' cache') as [bs z]. cbn [fst snd] in *.
      destruct IH as [[I1 I2] I3]. split; [split|exact I3].
      - intros [|i] b' Hi; cbn [nth_error] in Hi.
        + exists v. rewrite E3. exact Hi.
        + destruct (I1 i b' Hi) as (w & Hw). exists w. destruct (HS2 w) as (_ & b2 & _ & _ & E4). rewrite E4. exact Hw.
      - destruct I2 as [[-> I2]|[-> I2]]; [left|right]; (split; [auto|]); intros w; specialize (I2 w);
          destruct (HS2 w) as (_ & b2 & _ & _ & E4); rewrite E4; cbn [length]; lia. }
    destruct (lru_get (c_addr c) cache) as [[data cache']|] eqn:Eg.
    + apply get_some in Eg as (Hf & _ & Hs). apply STEP.
      * destruct (HC _ _ Hf) as (v & Hv). exists v. now apply Hv.
      * intros k d. rewrite Hs. apply HC.
    + destruct (HG n c F1) as [EG|EG]; rewrite EG.
      * destruct (HS2 n) as (d & b & E1 & _). rewrite E1. apply STEP; [eauto|].
        intros k d' Hk. apply put_find in Hk as [[E ->]|Hk]; [|eauto]. exists n. intros c' Hc' <-. rewrite <- E1. apply HA; auto.
      * cbn [fst snd send_of]. split.
        { split; [intros i b H; destruct i; discriminate|]. right. split; auto. intros v. cbn. lia. }
        intros HN. destruct (HS2 n) as (d & b & E1 & _). rewrite (HN n c F1), E1 in EG. discriminate EG.
Qed.
End L.

Lemma collect_in m fuel ds e l : collect_slices m fuel ds e = Ok l -> Forall (fun t => In (fst (fst t)) (d_chunks ds)) l.
Proof.
  unfold collect_slices. pose proof (slices_in m fuel ds e) as HF. destruct (chunk_slices m fuel ds e) as [segs st]. cbn [fst] in HF.
  intros H. apply bind_ok in H as (l' & H & E). apply bind_ok in E as (u & _ & E). injection E as <-.
  revert l' H. induction segs as [|[[c a] b] segs IH]; intros l' H; cbn [byte_slices] in H.
  - injection H as <-. constructor.
  - inversion HF; subst. apply bind_ok in H as (s & _ & H). apply bind_ok in H as (t & _ & H).
    apply bind_ok in H as (r & Hr & H). injection H as <-. constructor; auto.
Qed.
Lemma loop_same m cap xf (g0 : chunk -> res bytes) (get : nat -> chunk -> res bytes) (P : chunk -> Prop) :
  (forall n c, P c -> get n c = g0 c) -> forall l n cache, Forall (fun t => P (fst (fst t))) l ->
  stream_loop_n m get cap xf l n cache = stream_loop m g0 cap xf l cache.
Proof.
  intros HG. induction l as [|[[c s0] e0] l IH]; intros n cache HF; cbn [stream_loop stream_loop_n]; auto.
  inversion HF as [|? ? F1 F2]; subst. cbn [fst] in F1. fold (srange m xf s0 e0).
  destruct (srange m xf s0 e0) as [[s e]| | | |]; auto.
  destruct (lru_get (c_addr c) cache) as [[data cache']|].
  - destruct (take_slice m data s e) as [b| | | |]; auto. now rewrite (IH n cache' F2).
  - rewrite (HG n c F1). destruct (g0 c) as [data| | | |]; auto. destruct (take_slice m data s e) as [b| | | |]; auto.
    now rewrite (IH (S n) (lru_put cap (c_addr c) data cache) F2).
Qed.
Lemma load_n_cases m inflate fails vers ds csz f0 : (forall n, keeps f0 ds (vers n)) -> forall n c, In c (d_chunks ds) ->
  load_n m inflate fails vers ds csz n c = load m inflate f0 ds csz c \/ load_n m inflate fails vers ds csz n c = Err EIo.
Proof.
  intros HK n c Hc. unfold load_n. destruct (fails n); auto. left. symmetry. apply load_live. now apply HK.
Qed.
Lemma load_n_vers m inflate fails vers ds csz n c :
  load_n m inflate fails vers ds csz n c = load m inflate (vers n) ds csz c \/ load_n m inflate fails vers ds csz n c = Err EIo.
Proof. unfold load_n. destruct (fails n); auto. Qed.

(** ** The theorems *)

(** If other processes leave the dataset's chunks alone and no call fails, a stream is as if the file did not change. *)
Theorem C93_same m inflate fuel vers ds f0 r e : streamer_new m ds (Some f0) = Ok r -> (forall n, keeps f0 ds (vers n)) ->
  stream_live m inflate fuel true (fun _ => false) vers r e = stream m inflate fuel r e /\
  forall h al1 al2, stream_xdr_live m h al1 al2 inflate fuel true (fun _ => false) vers r e = stream_xdr m h al1 al2 inflate fuel r e.
Proof.
  intros HN HK. unfold streamer_new in HN. apply bind_ok in HN as (csz & EC & HN). injection HN as <-.
  unfold stream_live, stream, stream_xdr_live, stream_xdr. cbn [sr_ds sr_csz sr_file].
  destruct (collect_slices m fuel ds e) as [l| | | |] eqn:EL; cbn [bind]; auto. apply collect_in in EL.
  destruct (cache_cap csz) as [cap| | | |]; cbn [bind]; auto.
  assert (HG : forall n c, In c (d_chunks ds) -> load_n m inflate (fun _ => false) vers ds csz n c = load m inflate f0 ds csz c).
  { intros n c Hc. unfold load_n. symmetry. apply load_live. now apply HK. }
  split; [|intros h al1 al2]; f_equal; apply (loop_same m cap _ _ _ (fun c => In c (d_chunks ds))); auto.
  intros n c Hc. now rewrite HG.
Qed.
Print Assumptions C93_same.

(** If calls may fail: it gives what it would have given, or the first items of that and then an I/O error; or,
    if the open fails, that error alone. *)
Theorem C93_cut m inflate fuel opens fails vers ds f0 r e : streamer_new m ds (Some f0) = Ok r -> (forall n, keeps f0 ds (vers n)) ->
  match stream m inflate fuel r e with
  | Ok (items, z) => exists items' z', stream_live m inflate fuel opens fails vers r e = Ok (items', z') /\
      (if opens then cut items items' z z' else items' = [] /\ z' = SErr EOpen)
  | x => stream_live m inflate fuel opens fails vers r e = x
  end /\
  forall h al1 al2,
  match stream_xdr m h al1 al2 inflate fuel r e with
  | Ok (items, z) => exists items' z', stream_xdr_live m h al1 al2 inflate fuel opens fails vers r e = Ok (items', z') /\
      (if opens then cut items items' z z' else items' = [] /\ z' = SErr EOpen)
  | x => stream_xdr_live m h al1 al2 inflate fuel opens fails vers r e = x
  end.
Proof.
  intros HN HK. unfold streamer_new in HN. apply bind_ok in HN as (csz & EC & HN). injection HN as <-.
  unfold stream_live, stream, stream_xdr_live, stream_xdr. cbn [sr_ds sr_csz sr_file].
  destruct (collect_slices m fuel ds e) as [l| | | |] eqn:EL; cbn [bind]; auto. apply collect_in in EL.
  destruct (cache_cap csz) as [cap| | | |]; cbn [bind]; auto.
  pose proof (load_n_cases m inflate fails vers ds csz f0 HK) as HC.
  split; [|intros h al1 al2].
  - pose proof (loop_cut m cap (Ok 1) _ _ (fun c => In c (d_chunks ds)) HC l 0 [] EL) as X.
    destruct (stream_loop m _ cap (Ok 1) l []) as [items z]. destruct opens; [|eauto].
    destruct (stream_loop_n m _ cap (Ok 1) l 0 []) as [items' z']. eauto.
  - set (g := fun c => let* data := load m inflate f0 ds csz c in xdr h al1 al2 data (d_dtype ds) (d_order ds)).
    set (gn := fun n c => let* data := load_n m inflate fails vers ds csz n c in xdr h al1 al2 data (d_dtype ds) (d_order ds)).
    assert (HC' : forall n c, In c (d_chunks ds) -> gn n c = g c \/ gn n c = Err EIo).
    { intros n c Hc. unfold gn, g. destruct (HC n c Hc) as [-> | ->]; auto. }
    pose proof (loop_cut m cap (xdr_factor (d_dtype ds)) g gn (fun c => In c (d_chunks ds)) HC' l 0 [] EL) as X.
    destruct (stream_loop m g cap (xdr_factor (d_dtype ds)) l []) as [items z]. destruct opens; [|eauto].
    destruct (stream_loop_n m gn cap (xdr_factor (d_dtype ds)) l 0 []) as [items' z']. eauto.
Qed.
Print Assumptions C93_cut.

(** If other processes write the chunks between the loads, in a way that every version of the file can be streamed: the
    stream ends after the same number of items, the [i]-th of which is the [i]-th of the stream of some version; or it
    ends with an I/O error, after some items of this kind. *)
Theorem C93_mixed m inflate fuel fails vers ds r e (streams : nat -> list bytes) : same_addr ds ->
  streamer_new m ds (Some (vers 0%nat)) = Ok r ->
  (forall v r', streamer_new m ds (Some (vers v)) = Ok r' -> stream m inflate fuel r' e = Ok (streams v, SEnd)) ->
  exists items' z', stream_live m inflate fuel true fails vers r e = Ok (items', z') /\ mixed_items streams items' z' /\
    ((forall n, fails n = false) -> z' = SEnd).
Proof.
  intros HA HN HS. unfold streamer_new in HN. apply bind_ok in HN as (csz & EC & HN). injection HN as <-.
  assert (HS' : forall v, stream m inflate fuel (mkStreamer ds (Some (vers v)) csz) e = Ok (streams v, SEnd)).
  { intros v. apply HS. unfold streamer_new. now rewrite EC. }
  clear HS. unfold stream_live. unfold stream in HS'. cbn [sr_ds sr_csz sr_file] in *.
  destruct (collect_slices m fuel ds e) as [l| | | |] eqn:EL; cbn [bind] in *; try discriminate (HS' 0%nat). apply collect_in in EL.
  destruct (cache_cap csz) as [cap| | | |]; cbn [bind] in *; try discriminate (HS' 0%nat).
  assert (HL : forall n c c', In c (d_chunks ds) -> In c' (d_chunks ds) -> c_addr c = c_addr c' ->
    load m inflate (vers n) ds csz c = load m inflate (vers n) ds csz c').
  { intros n c c' H1 H2 E. apply CacheProofs.load_same; auto. }
  assert (HP : forall v, splain m (load m inflate (vers v) ds csz) (Ok 1) l = (streams v, SEnd)).
  { intros v. specialize (HS' v). injection HS' as HS'. rewrite <- HS'. symmetry.
    apply (stream_loop_plain m _ cap (Ok 1) (fun c => In c (d_chunks ds))); auto. intros k d X. discriminate X. }
  pose proof (loop_mixed m cap (Ok 1) (fun v => load m inflate (vers v) ds csz) (load_n m inflate fails vers ds csz) (fun c => In c (d_chunks ds))
    ltac:(intros; apply load_n_vers) HL l 0 [] streams EL HP ltac:(intros k d X; discriminate X)) as X.
  destruct (stream_loop_n m _ cap (Ok 1) l 0 []) as [items' z']. cbn [fst snd] in X. destruct X as [X1 X2].
  exists items', z'. split; [reflexivity|]. split; [exact X1|].
  intros HF. apply X2. intros n c _. unfold load_n. now rewrite HF.
Qed.
Print Assumptions C93_mixed.

(** The same of XDR streams. *)
Theorem C93_mixed_xdr m h al1 al2 inflate fuel fails vers ds r e (streams : nat -> list bytes) : same_addr ds ->
  streamer_new m ds (Some (vers 0%nat)) = Ok r ->
  (forall v r', streamer_new m ds (Some (vers v)) = Ok r' -> stream_xdr m h al1 al2 inflate fuel r' e = Ok (streams v, SEnd)) ->
  exists items' z', stream_xdr_live m h al1 al2 inflate fuel true fails vers r e = Ok (items', z') /\ mixed_items streams items' z' /\
    ((forall n, fails n = false) -> z' = SEnd).
Proof.
  intros HA HN HS. unfold streamer_new in HN. apply bind_ok in HN as (csz & EC & HN). injection HN as <-.
  assert (HS' : forall v, stream_xdr m h al1 al2 inflate fuel (mkStreamer ds (Some (vers v)) csz) e = Ok (streams v, SEnd)).
  { intros v. apply HS. unfold streamer_new. now rewrite EC. }
  clear HS. unfold stream_xdr_live. unfold stream_xdr in HS'. cbn [sr_ds sr_csz sr_file] in *.
  destruct (collect_slices m fuel ds e) as [l| | | |] eqn:EL; cbn [bind] in *; try discriminate (HS' 0%nat). apply collect_in in EL.
  destruct (cache_cap csz) as [cap| | | |]; cbn [bind] in *; try discriminate (HS' 0%nat).
  set (gv := fun v c => let* data := load m inflate (vers v) ds csz c in xdr h al1 al2 data (d_dtype ds) (d_order ds)).
  set (gn := fun n c => let* data := load_n m inflate fails vers ds csz n c in xdr h al1 al2 data (d_dtype ds) (d_order ds)).
  assert (HL : forall n c c', In c (d_chunks ds) -> In c' (d_chunks ds) -> c_addr c = c_addr c' -> gv n c = gv n c').
  { intros n c c' H1 H2 E. unfold gv. assert (X : load m inflate (vers n) ds csz c = load m inflate (vers n) ds csz c') by (apply CacheProofs.load_same; auto). now rewrite X. }
  assert (HG : forall n c, In c (d_chunks ds) -> gn n c = gv n c \/ gn n c = Err EIo).
  { intros n c Hc. unfold gn, gv. destruct (load_n_vers m inflate fails vers ds csz n c) as [-> | ->]; auto. }
  assert (HP : forall v, splain m (gv v) (xdr_factor (d_dtype ds)) l = (streams v, SEnd)).
  { intros v. specialize (HS' v). injection HS' as HS'. rewrite <- HS'. symmetry.
    apply (stream_loop_plain m _ cap (xdr_factor (d_dtype ds)) (fun c => In c (d_chunks ds))); auto; [exact (HL v)|]. intros k d X. discriminate X. }
  pose proof (loop_mixed m cap (xdr_factor (d_dtype ds)) gv gn (fun c => In c (d_chunks ds)) HG HL l 0 [] streams EL HP ltac:(intros k d X; discriminate X)) as X.
  change (stream_loop_n m (fun n c => let* data := load_n m inflate fails vers ds csz n c in xdr h al1 al2 data (d_dtype ds) (d_order ds)) cap (xdr_factor (d_dtype ds)) l 0 [])
    with (stream_loop_n m gn cap (xdr_factor (d_dtype ds)) l 0 []) in *.
  destruct (stream_loop_n m gn cap (xdr_factor (d_dtype ds)) l 0 []) as [items' z']. cbn [fst snd] in X. destruct X as [X1 X2].
  exists items', z'. split; [reflexivity|]. split; [exact X1|].
  intros HF. apply X2. intros n c _. unfold gn, gv, load_n. now rewrite HF.
Qed.
Print Assumptions C93_mixed_xdr.

(** The example file: something is appended before the second load; then the second load fails; then the open does. *)
Example C93_case m : let vers := fun n => match n with O => st_file | _ => st_file ++ [7; 7] end in
  exists r items, streamer_new m st_ds (Some st_file) = Ok r /\ same_addr st_ds /\ (forall n, keeps st_file st_ds (vers n)) /\
  stream m toy_inflate 13 r st_sel = Ok (items, SEnd) /\ (2 < length items)%nat /\
  stream_live m toy_inflate 13 true (fun _ => false) vers r st_sel = Ok (items, SEnd) /\
  stream_live m toy_inflate 13 true (Nat.eqb 1) vers r st_sel = Ok (firstn 1 items, SErr EIo) /\
  stream_live m toy_inflate 13 false (fun _ => false) vers r st_sel = Ok ([], SErr EOpen) /\
  (forall v r', streamer_new m st_ds (Some (vers v)) = Ok r' -> stream m toy_inflate 13 r' st_sel = Ok (items, SEnd)).
Proof.
  intros vers. destruct (C24_case m) as (_ & H2 & _).
  assert (F : forallb (fun c => c_addr c + c_size c <=? lenN st_file) (d_chunks st_ds) = true) by (vm_compute; reflexivity).
  rewrite forallb_forall in F.
  assert (K : forall t, keeps st_file st_ds (st_file ++ t)).
  { intros t c Hc. apply C92_append. apply N.leb_le. now apply F. }
  assert (K0 : keeps st_file st_ds st_file) by (specialize (K []); now rewrite app_nil_r in K).
  exists (mkStreamer st_ds (Some st_file) 12). eexists. split; [destruct m; vm_compute; reflexivity|]. split; [exact H2|].
  split; [intros [|n]; [exact K0|apply K]|].
  split; [destruct m; vm_compute; reflexivity|]. split; [vm_compute; lia|].
  split; [destruct m; vm_compute; reflexivity|].
  split; [destruct m; vm_compute; reflexivity|].
  split; [destruct m; vm_compute; reflexivity|].
  intros v r' HN. assert (E : r' = mkStreamer st_ds (Some (vers v)) 12) by (destruct m; vm_compute in HN; apply SerdeProofs.ok_inj in HN; rewrite <- HN; destruct v; reflexivity).
  rewrite E. destruct v; destruct m; vm_compute; reflexivity.
Qed.
