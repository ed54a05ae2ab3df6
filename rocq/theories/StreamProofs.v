(** * Streams: the loop without its cache, what it yields, and the values in it. *)
From Verif Require Import Base Spec Safe Extent Chunk Dataset Slicer SpecApi ApiLemmas Termination GroupProofs SliceProps Radix.
From Verif Require Import Filters SpecFilter FilterProofs FilterProps Reader SpecReader.
From Verif Require Import Writes CacheProofs DirectProofs ParProofs ReadProofs ReaderProps.

(** ** Without the cache *)

Definition srange (m : mode) (xf : res N) (s0 e0 : N) : res (N * N) :=
  let* x := xf in let* s := mul64 m s0 x in let* e := mul64 m e0 x in
  let* _ := dbg m (s <=? e) in Ok (s, e).
Fixpoint splain (m : mode) (get : chunk -> res bytes) (xf : res N) (l : list (chunk * N * N)) : list bytes * send :=
  match l with
  | [] => ([], SEnd)
  | (c, s0, e0) :: l' =>
      match (let* (s, e) := srange m xf s0 e0 in let* data := get c in take_slice m data s e) with
      | Ok b => let (bs, z) := splain m get xf l' in (b :: bs, z)
      | x => ([], send_of x)
      end
  end.

Lemma stream_loop_plain m get cap xf (P : chunk -> Prop) :
  (forall c c', P c -> P c' -> c_addr c = c_addr c' -> get c = get c') -> forall l cache,
  Forall (fun t => P (fst (fst t))) l ->
  (forall k v, lru_find k cache = Some v -> forall c, P c -> c_addr c = k -> get c = Ok v) ->
  stream_loop m get cap xf l cache = splain m get xf l.
Proof.
  intros HG. induction l as [|[[c s0] e0] l IH]; intros cache HF HC; cbn [stream_loop splain]; auto.
  inversion HF as [|? ? F1 F2]; subst. cbn [fst] in F1. fold (srange m xf s0 e0).
  destruct (srange m xf s0 e0) as [[s e]| | | |]; cbn [bind]; auto.
  destruct (lru_get (c_addr c) cache) as [[data cache']|] eqn:Eg.
  - apply get_some in Eg as (Hf & _ & Hs). rewrite (HC _ _ Hf c F1 eq_refl). cbn [bind].
    destruct (take_slice m data s e); auto. rewrite IH; auto. intros k v. rewrite Hs. apply HC.
  - destruct (get c) as [data| | | |] eqn:EG; cbn [bind]; auto. destruct (take_slice m data s e); auto.
    rewrite IH; auto. intros k v Hk c' Hc' <-. apply put_find in Hk as [[E ->]|Hk]; [|eauto].
    rewrite <- EG. apply HG; auto.
Qed.

Lemma byte_slices_ok m ds segs : csize ds < W64 -> Forall (seg_wf ds) segs ->
  byte_slices m (d_dsize ds) segs = Ok (map (fun '(c, a, b) => (c, a * d_dsize ds, b * d_dsize ds)) segs).
Proof.
  intros HC. induction 1 as [|[[c a] b] segs H HF IH]; [reflexivity|]. cbn [byte_slices map].
  destruct (seg_muls m ds c a b HC H) as (E1 & E2 & _). rewrite E1, E2. cbn [bind]. now rewrite IH.
Qed.

(** The bytes of a segment in units of [w] bytes per element. *)
Definition seg_bytes (w : N) (data : bytes) (sg : segment) : bytes :=
  firstn (N.to_nat ((snd sg - snd (fst sg)) * w)) (skipn (N.to_nat (snd (fst sg) * w)) data).

Lemma splain_cases m ds get x : 0 < x -> csize ds * x < W64 ->
  (forall c, In c (d_chunks ds) -> (exists data, get c = Ok data /\ lenN data = csize ds * x) \/ exists e, get c = Err e) ->
  forall segs, Forall (seg_wf ds) segs ->
  exists pre post items z, segs = pre ++ post /\
    splain m get (Ok x) (map (fun '(c, a, b) => (c, a * d_dsize ds, b * d_dsize ds)) segs) = (items, z) /\
    Forall2 (fun sg item => exists data, get (fst (fst sg)) = Ok data /\ lenN data = csize ds * x /\
               item = seg_bytes (d_dsize ds * x) data sg) pre items /\
    ((post = [] /\ z = SEnd) \/
     exists sg post' e, post = sg :: post' /\ get (fst (fst sg)) = Err e /\ z = SErr e).
Proof.
  intros Hx HC HT. induction 1 as [|[[c a] b] segs H HF IH].
  - exists [], [], [], SEnd. repeat split; auto.
  - destruct IH as (pre & post & items & z & -> & E & F2 & Hz). cbn [map splain]. unfold srange. cbn [bind].
    destruct H as (H1 & H2 & Hin).
    assert (B : b * d_dsize ds * x <= csize ds * x) by (unfold csize; repeat apply N.mul_le_mono; auto; lia).
    assert (A : a * d_dsize ds * x <= b * d_dsize ds * x) by (repeat apply N.mul_le_mono; lia).
    rewrite !mul64_ok by lia. cbn [bind]. rewrite dbg_ok by (apply N.leb_le; lia). cbn [bind].
    destruct (HT c Hin) as [(data & EG & HL)|(e & EG)].
    + rewrite EG. cbn [bind]. unfold take_slice. rewrite !dbg_ok by (apply N.leb_le; lia). cbn [bind].
      unfold slice_range. rewrite !leb_true by lia. cbn [andb].
      rewrite E. exists ((c, a, b) :: pre), post.
      eexists (_ :: items), z. split; [reflexivity|]. split; [reflexivity|]. split; auto.
      constructor; auto. exists data. cbn [fst snd]. split; auto. split; auto. unfold seg_bytes. cbn [fst snd].
      f_equal; [|f_equal]; lia.
    + rewrite EG. cbn [bind send_of]. exists [], ((c, a, b) :: pre ++ post), [], (SErr e).
      split; [reflexivity|]. split; [reflexivity|]. split; [constructor|]. right.
      exists (c, a, b), (pre ++ post), e. auto.
Qed.

(** ** Values in it *)

(** The loader yields, for chunk [c], words of [w] bytes related by [R] to the elements. *)
Definition gives (ds : dataset) (R : list N -> bytes -> Prop) (w : N) (get : chunk -> res bytes) (c : chunk) : Prop :=
  exists data, get c = Ok data /\ lenN data = prodN (d_chunk_shape ds) * w /\
    forall x k, in_shape x (d_shape ds) -> holds ds x (c, k) -> R x (word (N.to_nat w) (N.to_nat k) data).

Lemma seg_gives ds (R : list N -> bytes -> Prop) w data sg xs : lenN data = prodN (d_chunk_shape ds) * w -> seg_wf ds sg ->
  (forall x k, in_shape x (d_shape ds) -> holds ds x (fst (fst sg), k) -> R x (word (N.to_nat w) (N.to_nat k) data)) ->
  Forall2 (holds ds) xs (seg_elems sg) -> Forall (fun x => in_shape x (d_shape ds)) xs ->
  exists vs, Forall2 R xs vs /\ seg_bytes w data sg = concat vs.
Proof.
  intros HL Hwf HV HF HS. destruct sg as [[c a] b]. cbn [fst snd seg_elems] in *. destruct Hwf as (H1 & H2 & _).
  exists (map (fun k => word (N.to_nat w) (N.to_nat k) data) (seqN a (N.to_nat (b - a)))). split.
  - rewrite Forall_forall in HS. revert HS HF. generalize (seqN a (N.to_nat (b - a))). clear -HV. intros l HS HF.
    remember (map (fun k => (c, k)) l) as q. revert l Heqq.
    induction HF as [|x y xs q' H HF IH]; intros [|k l] E; try discriminate; cbn [map]; [constructor|].
    cbn [map] in E. injection E as -> E. constructor.
    + apply HV; auto. apply HS. now left.
    + apply IH; auto. intros; apply HS. now right.
  - unfold seg_bytes. cbn [fst snd]. unfold lenN in HL.
    replace (N.to_nat ((b - a) * w)) with (N.to_nat (b - a) * N.to_nat w)%nat by lia.
    replace (N.to_nat (a * w)) with (N.to_nat a * N.to_nat w)%nat by lia.
    rewrite word_split by nia. rewrite seqN_seq, map_map. f_equal. apply map_ext. intros j. f_equal. lia.
Qed.

Lemma segs_gives ds (R : list N -> bytes -> Prop) w get : forall segs items xs, Forall (seg_wf ds) segs ->
  Forall2 (fun sg item => gives ds R w get (fst (fst sg)) /\
     exists data, get (fst (fst sg)) = Ok data /\ item = seg_bytes w data sg) segs items ->
  Forall2 (holds ds) xs (flat_map seg_elems segs) -> Forall (fun x => in_shape x (d_shape ds)) xs ->
  exists vs, Forall2 R xs vs /\ concat items = concat vs.
Proof.
  intros segs items xs HW H. revert xs. induction H as [|sg item segs items [(d0 & E0 & L0 & V0) (data & E & ->)] HF IH]; intros xs HH HS.
  - cbn [flat_map] in HH. inversion HH; subst. exists []. split; [constructor|reflexivity].
  - rewrite E0 in E. injection E as <-. inversion HW as [|? ? W1 W2]; subst. cbn [flat_map] in HH.
    apply Forall2_app_inv_r in HH as (x1 & x2 & HH1 & HH2 & ->). apply Forall_app in HS as [S1 S2].
    destruct (seg_gives ds R w d0 sg x1 L0 W1 V0 HH1 S1) as (v1 & R1 & B1).
    destruct (IH W2 x2 HH2 S2) as (v2 & R2 & B2).
    exists (v1 ++ v2). split; [now apply Forall2_app|]. cbn [concat]. now rewrite concat_app, B1, B2.
Qed.

(** ** Loading partly readable files *)

Lemma load_readable m inflate file ds value c : stores_readable inflate file ds value -> In c (d_chunks ds) ->
  (readable inflate file ds c /\ loads ds value (load m inflate file ds (csize ds)) c) \/
  (~ readable inflate file ds c /\ exists e, load m inflate file ds (csize ds) c = Err e).
Proof.
  intros [HR HC] Hc. destruct (load_total m inflate file ds c HR Hc) as [[A (data & E & L)]|]; auto.
  left. split; auto. destruct (HC c Hc A) as (raw & HP & HL & HV). exists raw. split; [|auto].
  destruct HR as [[S1 S2 S3 S4] _ _]. destruct A as [A _].
  unfold load, read_chunk.
  assert (R : read_exact file (c_addr c) (c_size c) = Ok (file_bytes file (c_addr c) (c_size c))).
  { unfold read_exact. destruct (N.eqb_spec (c_size c) 0) as [Z|Z].
    - unfold file_bytes. now rewrite Z.
    - destruct A as [A|A]; [congruence|]. now rewrite leb_true. }
  rewrite R. cbn [bind]. unfold csize. rewrite <- HL. rewrite <- (N2Nat.id (d_dsize ds)).
  eapply decode_ok; [apply filters_std|exact HP| |lia].
  intros Hs. specialize (S3 Hs). cbn in *.
  destruct S3 as [Q|[Q|[Q|[Q|[]]]]]; rewrite <- Q; cbn; auto.
Qed.

(** ** A stream, item by item *)

Record stream_good (m : mode) (ds : dataset) (e : extents) (idx cnt : list N) (fuel : nat) : Prop := {
  sg_full : full_dataset ds;
  sg_reg : regular ds;
  sg_sel : get_start_count e (d_shape ds) = Ok (idx, cnt);
  sg_in : sel_in (d_shape ds) idx cnt;
  sg_right : reads_right m ds e idx cnt;
  sg_fuel : (N.to_nat (prodN cnt) < fuel)%nat
}.

Lemma stream_general m ds e idx cnt fuel (get : chunk -> res bytes) x cap (R : list N -> bytes -> Prop) :
  stream_good m ds e idx cnt fuel -> 0 < x -> csize ds * x < W64 ->
  (forall c c', c_addr c = c_addr c' -> c_size c = c_size c' -> get c = get c') ->
  (forall c, In c (d_chunks ds) -> gives ds R (d_dsize ds * x) get c \/ exists z, get c = Err z) ->
  exists l items z n vs, collect_slices m fuel ds e = Ok l /\ stream_loop m get cap (Ok x) l [] = (items, z) /\
    Forall2 R (firstn n (slab idx cnt)) vs /\ concat items = concat vs /\
    ((n = length (slab idx cnt) /\ z = SEnd /\ forall c, needs ds idx cnt c -> exists d, get c = Ok d) \/
     exists y c k er, nth_error (slab idx cnt) n = Some y /\ holds ds y (c, k) /\ get c = Err er /\ z = SErr er).
Proof.
  intros [HD HR HG HS (segs & HX & HT) Hf] Hx HC HA HV. specialize (HX fuel Hf).
  assert (HC1 : csize ds < W64) by nia.
  assert (Hwf : Forall (seg_wf ds) segs) by (eapply right_wf; eauto).
  pose proof (byte_slices_ok m ds segs HC1 Hwf) as EB.
  set (l := map (fun '(c, a, b) => (c, a * d_dsize ds, b * d_dsize ds)) segs) in *.
  assert (EL : collect_slices m fuel ds e = Ok l) by (unfold collect_slices; rewrite HX, EB; reflexivity).
  assert (HT' : forall c, In c (d_chunks ds) -> (exists data, get c = Ok data /\ lenN data = csize ds * x) \/ exists e, get c = Err e).
  { intros c Hc. destruct (HV c Hc) as [(data & E & L & _)|]; auto. left. exists data. split; auto. unfold csize. rewrite L. lia. }
  destruct (splain_cases m ds get x Hx HC HT' segs Hwf) as (pre & post & items & z & Es & EP & F2 & Hz).
  fold l in EP.
  assert (ELP : stream_loop m get cap (Ok x) l [] = (items, z)).
  { rewrite <- EP. apply stream_loop_plain with (P := fun c => In c (d_chunks ds)).
    - intros c c' H1 H2 H3. apply HA; auto. destruct HR as [_ SA _]. now apply SA.
    - unfold l. apply Forall_forall. intros t Ht. apply in_map_iff in Ht as ([[c a] b] & <- & Hin).
      cbn [fst]. rewrite Forall_forall in Hwf. now destruct (Hwf _ Hin) as (_ & _ & ?).
    - intros k v. discriminate. }
  pose proof HT as [HF _]. pose proof HF as HF0. rewrite Es, flat_map_app in HF.
  apply Forall2_app_inv_r in HF as (xs & ys & FX & FY & EX).
  assert (SXY : Forall (fun x => in_shape x (d_shape ds)) (slab idx cnt)).
  { apply Forall_forall. intros y Hy. eapply slab_in_shape; eauto. }
  rewrite EX in SXY. apply Forall_app in SXY as [SX SY].
  assert (Hwp : Forall (seg_wf ds) pre) by (rewrite Es in Hwf; now apply Forall_app in Hwf as [? _]).
  destruct (segs_gives ds R (d_dsize ds * x) get pre items xs Hwp) as (vs & RV & CV); auto.
  { clear -F2 HV Hwp. induction F2 as [|sg item pre items (data & A & B & C) F2 IH]; [constructor|].
    inversion Hwp as [|? ? W1 W2]; subst. constructor; eauto. split; eauto.
    destruct sg as [[c a] b]. destruct W1 as (_ & _ & Hin). cbn [fst] in *.
    destruct (HV c Hin) as [|(z & Ez)]; auto. congruence. }
  exists l, items, z, (length xs), vs. split; auto. split; auto.
  assert (EF : firstn (length xs) (slab idx cnt) = xs).
  { rewrite EX, firstn_app, Nat.sub_diag, firstn_all. cbn [firstn]. apply app_nil_r. }
  rewrite EF. split; auto. split; auto.
  destruct Hz as [[-> ->]|(sg & post' & er & -> & Ege & ->)].
  - left. cbn [flat_map] in FY. inversion FY; subst ys. rewrite app_nil_r in EX. rewrite EX. split; auto. split; auto.
    intros c Hc. apply (right_needs ds idx cnt segs c HD HS HT) in Hc. rewrite Es, app_nil_r in Hc.
    apply in_map_iff in Hc as (sg & <- & Hsg). destruct (Forall2_in_l _ _ _ _ F2 Hsg) as (it & _ & d & Ed & _). eauto.
  - right. cbn [flat_map] in FY. destruct sg as [[c a] b]. cbn [fst] in Ege.
    assert (Hab : a < b).
    { rewrite Es in Hwf. apply Forall_app in Hwf as [_ W]. inversion W as [|? ? W1 _]; subst. destruct W1 as (? & _). auto. }
    cbn [seg_elems] in FY. destruct (N.to_nat (b - a)) as [|q] eqn:Q; [lia|]. cbn [seqN map app] in FY.
    inversion FY as [|y ck ys' q' Hy FY' E1 E2]; subst.
    exists y, c, a, er. split; [|auto]. rewrite EX, nth_error_app2, Nat.sub_diag by lia. reflexivity.
Qed.

(** ** Plain streams *)

Lemma csize_pos ds : full_dataset ds -> regular ds -> 0 < csize ds.
Proof.
  intros HD [[S1 _ _ _] _ _]. unfold csize. apply N.mul_pos_pos; auto. apply prodN_pos. apply HD.
Qed.

Lemma streamer_made m ds f r : full_dataset ds -> regular ds -> streamer_new m ds f = Ok r ->
  r = mkStreamer ds f (csize ds).
Proof.
  intros HD HR E. unfold streamer_new in E. apply bind_ok in E as (csz & E1 & E). injection E as <-.
  f_equal. eapply csize_fresh; eauto; [apply HD|apply HR].
Qed.
Lemma streamer_exists m ds f : full_dataset ds -> regular ds -> streamer_new m ds f = Ok (mkStreamer ds f (csize ds)).
Proof.
  intros HD HR. unfold streamer_new. rewrite chunk_bytes_ok; [reflexivity|apply HD|apply HR].
Qed.

Lemma cap_exists csz : 0 < csz -> exists cap, cache_cap csz = Ok cap.
Proof. intros H. unfold cache_cap, div64. destruct (N.eqb_spec csz 0); [lia|]. cbn [bind]. eauto. Qed.

Lemma loads_gives ds value L c : loads ds value L c -> gives ds (fun x v => v = value x) (d_dsize ds * 1) L c.
Proof.
  intros (raw & E & HL & HV). exists raw. rewrite N.mul_1_r. split; auto.
Qed.

Lemma Forall2_eq_map {A B} (f : A -> B) l vs : Forall2 (fun x v => v = f x) l vs -> vs = map f l.
Proof. induction 1; cbn [map]; congruence. Qed.

Lemma stream_cases m inflate file ds value e idx cnt fuel :
  stream_good m ds e idx cnt fuel -> stores_readable inflate file ds value ->
  exists items z n, stream m inflate fuel (mkStreamer ds (Some file) (csize ds)) e = Ok (items, z) /\
    concat items = concat (map value (firstn n (slab idx cnt))) /\
    ((n = length (slab idx cnt) /\ z = SEnd /\ forall c, needs ds idx cnt c -> readable inflate file ds c) \/
     exists y c k er, nth_error (slab idx cnt) n = Some y /\ holds ds y (c, k) /\ ~ readable inflate file ds c /\ z = SErr er) /\
    Forall (fun x => exists c k, holds ds x (c, k) /\ readable inflate file ds c) (firstn n (slab idx cnt)).
Proof.
  intros HG HS. pose proof (sg_full _ _ _ _ _ _ HG) as HD. pose proof (sg_reg _ _ _ _ _ _ HG) as HR.
  destruct (cap_exists (csize ds) (csize_pos ds HD HR)) as (cap & Ecap).
  assert (HC : csize ds * 1 < W64) by (rewrite N.mul_1_r; apply HR).
  destruct (stream_general m ds e idx cnt fuel (load m inflate file ds (csize ds)) 1 cap
              (fun x v => v = value x /\ exists c k, holds ds x (c, k) /\ readable inflate file ds c)
              HG ltac:(lia) HC) as (l & items & z & n & vs & E1 & E2 & F & C & H).
  - intros c c' H1 H2. now apply load_same.
  - intros c Hc. destruct (load_readable m inflate file ds value c HS Hc) as [[HRd A]|[_ A]]; [left|right; auto].
    apply loads_gives in A. destruct A as (data & A1 & A2 & A3). exists data. split; auto. split; auto.
    intros x k Hx Hh. split; [now apply A3|eauto].
  - exists items, z, n. split; [|split; [|split]].
    + unfold stream. cbn [sr_ds sr_file sr_csz]. rewrite E1. cbn [bind]. rewrite Ecap. cbn [bind]. now rewrite E2.
    + rewrite C. f_equal. apply Forall2_eq_map. clear -F. induction F as [|x v xs vs [? _] F IH]; constructor; auto.
    + destruct H as [(A & B & D)|(y & c & k & er & A & B & D & F1)]; [left|right].
      * split; auto. split; auto. intros c Hc. destruct (D c Hc) as (d & Ed).
        assert (In c (d_chunks ds)) as Hin by (destruct Hc as (? & ? & _ & ? & _); auto).
        destruct (load_readable m inflate file ds value c HS Hin) as [[? _]|[_ [? ?]]]; auto. congruence.
      * exists y, c, k, er. split; auto. split; auto. split; auto. intros HH.
        assert (In c (d_chunks ds)) as Hin by (destruct B as (? & _); auto).
        destruct (load_readable m inflate file ds value c HS Hin) as [[_ (raw & E & _)]|[? _]]; auto. congruence.
    + clear -F. induction F as [|x v xs vs [_ ?] F IH]; constructor; auto.
Qed.

(** How a stream ends, whatever the chunks hold. *)
Lemma stream_ends m inflate file ds e idx cnt fuel :
  stream_good m ds e idx cnt fuel ->
  exists items z, stream m inflate fuel (mkStreamer ds (Some file) (csize ds)) e = Ok (items, z) /\
    ((z = SEnd /\ forall c, needs ds idx cnt c -> readable inflate file ds c) \/
     exists c er, needs ds idx cnt c /\ ~ readable inflate file ds c /\ z = SErr er).
Proof.
  intros HG. pose proof (sg_full _ _ _ _ _ _ HG) as HD. pose proof (sg_reg _ _ _ _ _ _ HG) as HR.
  destruct (cap_exists (csize ds) (csize_pos ds HD HR)) as (cap & Ecap).
  assert (HC : csize ds * 1 < W64) by (rewrite N.mul_1_r; apply HR).
  destruct (stream_general m ds e idx cnt fuel (load m inflate file ds (csize ds)) 1 cap
              (fun _ _ => True) HG ltac:(lia) HC) as (l & items & z & n & vs & E1 & E2 & F & C & H).
  - intros c c' H1 H2. now apply load_same.
  - intros c Hc. destruct (load_total m inflate file ds c HR Hc) as [[_ (d & Ed & L)]|[_ ?]]; [left|right; auto].
    exists d. split; auto. split; [rewrite N.mul_1_r; exact L|auto].
  - exists items, z. split.
    + unfold stream. cbn [sr_ds sr_file sr_csz]. rewrite E1. cbn [bind]. rewrite Ecap. cbn [bind]. now rewrite E2.
    + destruct H as [(A & B & D)|(y & c & k & er & A & B & D & F1)]; [left|right].
      * split; auto. intros c Hc. destruct (D c Hc) as (d & Ed).
        assert (In c (d_chunks ds)) as Hin by (destruct Hc as (? & ? & _ & ? & _); auto).
        destruct (load_total m inflate file ds c HR Hin) as [[? _]|[_ [? ?]]]; auto. congruence.
      * exists c, er. split; [exists y, k; split; [eapply nth_error_In; eauto|auto]|]. split; auto. intros HH.
        assert (In c (d_chunks ds)) as Hin by (destruct B as (? & _); auto).
        destruct (load_total m inflate file ds c HR Hin) as [[_ (d & Ed & _)]|[? _]]; auto. congruence.
Qed.

(** ** XDR streams *)

Lemma shuffled_bytes w n l s : (0 < w)%nat -> shuffled_of w n l s -> is_bytes s -> is_bytes l.
Proof.
  intros Hw (L1 & L2 & H) HB. unfold is_bytes in *. rewrite Forall_forall in *. intros x Hx.
  apply In_nth with (d := 0) in Hx as (p & Hp & <-). rewrite L1 in Hp.
  assert (n <> 0)%nat by (intros ->; lia).
  pose proof (Nat.div_mod p w ltac:(lia)) as D. pose proof (Nat.mod_upper_bound p w ltac:(lia)) as M.
  assert (p / w < n)%nat by (apply Nat.div_lt_upper_bound; lia).
  rewrite D. replace (w * (p / w) + p mod w)%nat with (p / w * w + p mod w)%nat by lia.
  rewrite <- H by auto. apply HB. apply nth_In. rewrite L2. nia.
Qed.
Lemma pipeline_bytes inflate w fs l s : (0 < w)%nat -> (forall a b, inflate a = Some b -> is_bytes b) ->
  pipeline inflate w fs l s -> is_bytes s -> is_bytes l.
Proof.
  intros Hw HI. induction 1; auto; intros HB.
  - eapply shuffled_bytes; eauto.
  - eapply HI; eauto.
Qed.
Lemma is_bytes_file file a n : is_bytes file -> is_bytes (file_bytes file a n).
Proof.
  unfold is_bytes, file_bytes. rewrite !Forall_forall. intros H x Hx. apply H.
  rewrite <- (firstn_skipn (N.to_nat a) file). apply in_app_iff. right.
  rewrite <- (firstn_skipn (N.to_nat n) (skipn (N.to_nat a) file)). apply in_app_iff. now left.
Qed.

(** Width of an XDR element. *)
Definition xdr_width (dt : datatype) : N :=
  match dt with UInt s | Int s => N.max 4 s | Float s => s | Custom s => s end.

Lemma int_value_num s o a b : length a = length b -> num_in BE a = num_in o b -> int_value s BE a = int_value s o b.
Proof. unfold int_value. intros HL ->. now rewrite HL. Qed.

Lemma big_words h o w n src : In w [1; 2; 4; 8]%nat -> length src = (w * n)%nat -> o <> Unknown ->
  exists r, to_big_e_sized h true o (N.of_nat w) src = Ok r /\ length r = (w * n)%nat /\
    forall j, (j < n)%nat -> length (word w j r) = w /\ num_in BE (word w j r) = num_in o (word w j src).
Proof.
  intros Hw HL Ho. destruct (big_e_ok h o w n src Hw HL) as (r & E & L & H & _). exists r. split; auto.
  split; [congruence|]. intros j Hj. split; [|now apply H].
  apply word_length with (n := n); auto; try congruence.
Qed.

Lemma xdr_words h dt o src n : is_bytes src -> indexed_type dt -> (o <> Unknown \/ exists s, dt = Custom s) ->
  length src = (N.to_nat (dt_size dt) * n)%nat ->
  exists r f, xdr h true true src dt o = Ok r /\ xdr_factor dt = Ok f /\ dt_size dt * f = xdr_width dt /\ 0 < f /\
    length r = (N.to_nat (xdr_width dt) * n)%nat /\
    forall j, (j < n)%nat -> xdr_of dt o (word (N.to_nat (dt_size dt)) j src) (word (N.to_nat (xdr_width dt)) j r).
Proof.
  intros HB HI Ho HL.
  assert (CU : forall sg w, o <> Unknown -> In w [1; 2]%nat -> length src = (w * n)%nat ->
     exists r, xdr_cast_slice h true true sg w o src = Ok r /\ length r = (4 * n)%nat /\
       forall j, (j < n)%nat -> lenN (word 4 j r) = 4 /\ int_value sg BE (word 4 j r) = int_value sg o (word w j src)).
  { intros sg w Hu Hw Hl. destruct (xdr_cast_ok h sg w n o src Hu Hw HB Hl) as (r & E & L & H). exists r. split; auto. split; auto.
    intros j Hj. split; [|auto]. unfold lenN. rewrite (word_length 4 n); auto. }
  assert (CB : forall sg w, o <> Unknown -> In w [4; 8]%nat -> length src = (w * n)%nat ->
     exists r, to_big_e_sized h true o (N.of_nat w) src = Ok r /\ length r = (w * n)%nat /\
       forall j, (j < n)%nat -> lenN (word w j r) = N.of_nat w /\
         num_in BE (word w j r) = num_in o (word w j src) /\
         int_value sg BE (word w j r) = int_value sg o (word w j src)).
  { intros sg w Hu Hw Hl. assert (Hw' : In w [1; 2; 4; 8]%nat) by (cbn in *; tauto).
    destruct (big_words h o w n src Hw' Hl Hu) as (r & E & L & H). exists r. split; auto. split; auto.
    intros j Hj. destruct (H j Hj) as [A B]. split; [unfold lenN; congruence|]. split; auto.
    apply int_value_num; auto. rewrite A. symmetry. apply word_length with (n := n); auto. }
  destruct dt as [s|s|s|s]; cbn [indexed_type] in HI; cbn [dt_size] in *.
  4:{ exists src, 1. cbn [xdr xdr_factor xdr_width xdr_of]. repeat split; auto; lia. }
  all: destruct Ho as [Ho|[s' Ho]]; [|discriminate].
  - destruct HI as [<-|[<-|[<-|[<-|[]]]]]; cbn [xdr dt_size] in *.
    + destruct (CU false 1%nat Ho) as (r & E & L & H); auto; [now left|]. exists r, 4. repeat split; auto. now apply H. now apply H.
    + destruct (CU false 2%nat Ho) as (r & E & L & H); auto; [right; now left|]. exists r, 2. repeat split; auto; now apply H.
    + destruct (CB false 4%nat Ho) as (r & E & L & H); auto; [now left|]. exists r, 1. repeat split; auto; now apply H.
    + destruct (CB false 8%nat Ho) as (r & E & L & H); auto; [right; now left|]. exists r, 1. repeat split; auto; now apply H.
  - destruct HI as [<-|[<-|[<-|[<-|[]]]]]; cbn [xdr dt_size] in *.
    + destruct (CU true 1%nat Ho) as (r & E & L & H); auto; [now left|]. exists r, 4. repeat split; auto; now apply H.
    + destruct (CU true 2%nat Ho) as (r & E & L & H); auto; [right; now left|]. exists r, 2. repeat split; auto; now apply H.
    + destruct (CB true 4%nat Ho) as (r & E & L & H); auto; [now left|]. exists r, 1. repeat split; auto; now apply H.
    + destruct (CB true 8%nat Ho) as (r & E & L & H); auto; [right; now left|]. exists r, 1. repeat split; auto; now apply H.
  - destruct HI as [<-|[<-|[]]]; cbn [xdr dt_size] in *.
    + destruct (CB true 4%nat Ho) as (r & E & L & H); auto; [now left|]. exists r, 1. repeat split; auto; now apply H.
    + destruct (CB true 8%nat Ho) as (r & E & L & H); auto; [right; now left|]. exists r, 1. repeat split; auto; now apply H.
Qed.

Definition xdr_get (m : mode) (h : host) (inflate : bytes -> option bytes) (file : bytes) (ds : dataset) (c : chunk) : res bytes :=
  let* data := load m inflate file ds (csize ds) c in xdr h true true data (d_dtype ds) (d_order ds).

Lemma loads_bytes m inflate file ds value c : is_bytes file -> (forall a b, inflate a = Some b -> is_bytes b) ->
  stores_readable inflate file ds value -> In c (d_chunks ds) -> readable inflate file ds c ->
  exists raw, load m inflate file ds (csize ds) c = Ok raw /\ lenN raw = csize ds /\ is_bytes raw /\
    forall x k, in_shape x (d_shape ds) -> holds ds x (c, k) ->
      word (N.to_nat (d_dsize ds)) (N.to_nat k) raw = value x.
Proof.
  intros HB HI HS Hc Hr. destruct (sr_chunk _ _ _ _ HS c Hc Hr) as (raw & HP & HL & HV).
  exists raw. destruct (sr_reg _ _ _ _ HS) as [[S1 S2 S3 S4] _ _].
  assert (E : load m inflate file ds (csize ds) c = Ok raw).
  { destruct Hr as [A _]. unfold load, read_chunk.
    assert (R : read_exact file (c_addr c) (c_size c) = Ok (file_bytes file (c_addr c) (c_size c))).
    { unfold read_exact. destruct (N.eqb_spec (c_size c) 0) as [Z|Z].
      - unfold file_bytes. now rewrite Z.
      - destruct A as [A|A]; [congruence|]. now rewrite leb_true. }
    rewrite R. cbn [bind]. unfold csize. rewrite <- HL. rewrite <- (N2Nat.id (d_dsize ds)).
    eapply decode_ok; [apply filters_std|exact HP| |lia].
    intros Hs. specialize (S3 Hs). cbn in *.
    destruct S3 as [Q|[Q|[Q|[Q|[]]]]]; rewrite <- Q; cbn; auto. }
  split; auto. split; auto. split; auto.
  eapply pipeline_bytes; [|exact HI|exact HP|now apply is_bytes_file]. lia.
Qed.

Lemma row_major_box cs : forall x off, in_box x off cs -> row_major cs (map2 N.sub x off) < prodN cs.
Proof.
  intros x off H. apply row_major_lt. revert x off H. induction cs as [|z cs IH]; intros x off (L1 & L2 & H).
  - destruct x; [|discriminate]. constructor.
  - destruct x as [|a x]; [discriminate|]. destruct off as [|o off]; [discriminate|]. cbn [map2]. constructor.
    + specialize (H 0%nat a o z eq_refl eq_refl eq_refl). lia.
    + apply IH. split; [now injection L1|]. split; [now injection L2|]. intros j. exact (H (S j)).
Qed.

Lemma xdr_gives m h inflate file ds value f c : well_made ds -> is_bytes file -> (forall a b, inflate a = Some b -> is_bytes b) ->
  stores_readable inflate file ds value -> indexed_type (d_dtype ds) ->
  (d_order ds <> Unknown \/ exists s, d_dtype ds = Custom s) -> xdr_factor (d_dtype ds) = Ok f ->
  In c (d_chunks ds) -> readable inflate file ds c ->
  gives ds (fun x v => xdr_of (d_dtype ds) (d_order ds) (value x) v) (d_dsize ds * f) (xdr_get m h inflate file ds) c.
Proof.
  intros HM HB HI HS HT Ho Hf Hc Hr.
  destruct (loads_bytes m inflate file ds value c HB HI HS Hc Hr) as (raw & E & L & B & V).
  pose proof (wm_dsize _ HM) as ED.
  destruct (xdr_words h (d_dtype ds) (d_order ds) raw (N.to_nat (prodN (d_chunk_shape ds)))) as (r & f' & Ex & Ef & EW & Hp & Lr & H); auto.
  { unfold csize, lenN in L. rewrite <- ED. lia. }
  rewrite Hf in Ef. injection Ef as <-. exists r. rewrite <- ED in EW, H.
  split; [unfold xdr_get; rewrite E; exact Ex|]. split; [unfold lenN; rewrite Lr, EW; lia|].
  intros x k Hx Hh. rewrite EW. rewrite <- (V x k Hx Hh). apply H.
  destruct Hh as (_ & HBx & Hk). cbn [fst snd] in *.
  assert (k < prodN (d_chunk_shape ds)); [|lia]. rewrite Hk.
  apply row_major_box; auto.
Qed.

Lemma xdr_stream_cases m h inflate file ds value e idx cnt fuel f :
  stream_good m ds e idx cnt fuel -> stores_readable inflate file ds value ->
  is_bytes file -> (forall a b, inflate a = Some b -> is_bytes b) ->
  indexed_type (d_dtype ds) -> (d_order ds <> Unknown \/ exists s, d_dtype ds = Custom s) ->
  xdr_factor (d_dtype ds) = Ok f -> 0 < f -> csize ds * f < W64 ->
  exists items z n vs, stream_xdr m h true true inflate fuel (mkStreamer ds (Some file) (csize ds)) e = Ok (items, z) /\
    Forall2 (fun x v => xdr_of (d_dtype ds) (d_order ds) (value x) v) (firstn n (slab idx cnt)) vs /\
    concat items = concat vs /\
    ((n = length (slab idx cnt) /\ z = SEnd /\ forall c, needs ds idx cnt c -> readable inflate file ds c) \/
     exists y c k er, nth_error (slab idx cnt) n = Some y /\ holds ds y (c, k) /\ ~ readable inflate file ds c /\ z = SErr er).
Proof.
  intros HG HS HB HI HT Ho Hf Hpos HC. pose proof (sg_full _ _ _ _ _ _ HG) as HD. pose proof (sg_reg _ _ _ _ _ _ HG) as HR.
  destruct (cap_exists (csize ds) (csize_pos ds HD HR)) as (cap & Ecap).
  assert (HV : forall c, In c (d_chunks ds) ->
     (readable inflate file ds c /\ gives ds (fun x v => xdr_of (d_dtype ds) (d_order ds) (value x) v) (d_dsize ds * f) (xdr_get m h inflate file ds) c) \/
     (~ readable inflate file ds c /\ exists z, xdr_get m h inflate file ds c = Err z)).
  { intros c Hc. destruct (load_readable m inflate file ds value c HS Hc) as [[A _]|[A (z & Ez)]].
    - left. split; auto. apply xdr_gives; auto. apply HD.
    - right. split; auto. exists z. unfold xdr_get. rewrite Ez. reflexivity. }
  destruct (stream_general m ds e idx cnt fuel (xdr_get m h inflate file ds) f cap
              (fun x v => xdr_of (d_dtype ds) (d_order ds) (value x) v) HG Hpos HC) as (l & items & z & n & vs & E1 & E2 & F & C & H).
  - intros c c' H1 H2. unfold xdr_get. now rewrite (load_same _ _ _ _ _ c c' H1 H2).
  - intros c Hc. destruct (HV c Hc) as [[_ ?]|[_ ?]]; auto.
  - exists items, z, n, vs. split; [|split; [|split]]; auto.
    + unfold stream_xdr. cbn [sr_ds sr_file sr_csz]. rewrite E1. cbn [bind]. rewrite Ecap. cbn [bind]. rewrite Hf.
      f_equal. exact E2.
    + destruct H as [(A & B & D)|(y & c & k & er & A & B & D & F1)]; [left|right].
      * split; auto. split; auto. intros c Hc. destruct (D c Hc) as (d & Ed).
        assert (In c (d_chunks ds)) as Hin by (destruct Hc as (? & ? & _ & ? & _); auto).
        destruct (HV c Hin) as [[? _]|[_ [? ?]]]; auto. congruence.
      * exists y, c, k, er. split; auto. split; auto. split; auto. intros HH.
        assert (In c (d_chunks ds)) as Hin by (destruct B as (? & _); auto).
        destruct (HV c Hin) as [[_ (raw & E & _)]|[? _]]; auto. congruence.
Qed.

(** ** Streaming and reading *)

(** Whenever a read succeeds the stream ends without error and its bytes are those read,
    whatever the dataset. *)
Lemma splain_of_segs m L dsz : forall segs os l, Forall2 (seg_ok m L dsz) segs os -> byte_slices m dsz segs = Ok l ->
  splain m L (Ok 1) l = (os, SEnd).
Proof.
  intros segs os l H. revert l. induction H as [|[[c a] b] o segs os (s & e & data & Es & Ee & Hse & EL & Hb & ->) HF IH]; intros l HL.
  - injection HL as <-. reflexivity.
  - cbn [byte_slices] in HL. rewrite Es in HL. cbn [bind] in HL. rewrite Ee in HL. cbn [bind] in HL.
    apply bind_ok in HL as (l' & El & HL). injection HL as <-. cbn [splain]. unfold srange. cbn [bind].
    assert (Hs : s < W64) by (unfold mul64 in Es; destruct (N.ltb_spec (a * dsz) W64); [injection Es as <-; auto|destruct m; [discriminate|]; injection Es as <-; apply N.mod_lt; discriminate]).
    assert (He : e < W64) by (unfold mul64 in Ee; destruct (N.ltb_spec (b * dsz) W64); [injection Ee as <-; auto|destruct m; [discriminate|]; injection Ee as <-; apply N.mod_lt; discriminate]).
    rewrite !mul64_ok by lia. cbn [bind]. rewrite !N.mul_1_r. rewrite dbg_ok by now apply N.leb_le. cbn [bind].
    rewrite EL. cbn [bind]. unfold take_slice. rewrite !dbg_ok by (apply N.leb_le; lia). cbn [bind].
    unfold slice_range. rewrite !leb_true by lia. cbn [andb]. now rewrite (IH l' El).
Qed.

Lemma byte_slices_of_ok m L dsz : forall segs os, Forall2 (seg_ok m L dsz) segs os -> exists l, byte_slices m dsz segs = Ok l /\
  map (fun t => fst (fst t)) l = map (fun sg => fst (fst sg)) segs.
Proof.
  intros segs os. induction 1 as [|[[c a] b] o segs os (s & e & data & Es & Ee & _) HF (l & El & Em)]; [now exists []|].
  cbn [byte_slices]. rewrite Es. cbn [bind]. rewrite Ee. cbn [bind]. rewrite El. cbn [bind].
  eexists. split; [reflexivity|]. cbn [map fst]. now rewrite Em.
Qed.

Lemma stream_of_read m inflate fuel file ds csz e dst v d : same_addr ds -> 0 < csz ->
  plain_read m inflate fuel file ds csz e dst = (Ok v, d) ->
  exists items, stream m inflate fuel (mkStreamer ds (Some file) csz) e = Ok (items, SEnd) /\
    d = splice dst 0 (concat items) /\ lenN (concat items) <= lenN dst /\
    exists segs, chunk_slices m fuel ds e = (segs, SDone) /\ Forall2 (seg_ok m (load m inflate file ds csz) (d_dsize ds)) segs items.
Proof.
  intros HA HZ H. apply plain_read_iff in H as (_ & out & (segs & os & EX & HF & -> & HB) & ->).
  destruct (byte_slices_of_ok _ _ _ _ _ HF) as (l & El & Em).
  destruct (cap_exists csz HZ) as (cap & Ecap).
  exists os. split; [|eauto]. unfold stream, collect_slices. cbn [sr_ds sr_file sr_csz].
  rewrite EX, El. cbn [bind stop_res]. rewrite Ecap. cbn [bind]. f_equal.
  rewrite (stream_loop_plain m _ cap (Ok 1) (fun c => In c (d_chunks ds))).
  - eapply splain_of_segs; eauto.
  - intros c c' H1 H2 H3. apply load_same; auto.
  - apply Forall_forall. intros t Ht. pose proof (slices_in m fuel ds e) as SI. rewrite EX in SI. cbn [fst] in SI.
    apply (in_map (fun t => fst (fst t))) in Ht. rewrite Em in Ht. apply in_map_iff in Ht as (sg & <- & Hsg).
    rewrite Forall_forall in SI. now apply SI.
  - intros k w. discriminate.
Qed.

(** ** Values of a stream *)

Lemma words_app w n : forall a b, length a = (w * n)%nat -> forall k, words w (n + k) (a ++ b) = words w n a ++ words w k b.
Proof.
  induction n as [|n IH]; intros a b HL k.
  - destruct a; [reflexivity|]. cbn [length] in HL. lia.
  - cbn [Nat.add words app]. rewrite firstn_app, skipn_app.
    replace (w - length a)%nat with 0%nat by nia. cbn [firstn skipn]. rewrite app_nil_r. f_equal.
    apply IH. rewrite skipn_length. nia.
Qed.
Lemma map_words_app w f a b n k : (0 < w)%nat -> length a = (w * n)%nat -> length b = (w * k)%nat ->
  map_words w f (a ++ b) = map_words w f a ++ map_words w f b.
Proof.
  intros Hw Ha Hb. unfold map_words. rewrite app_length, Ha, Hb.
  replace (w * n + w * k)%nat with (w * (n + k))%nat by lia. rewrite !mul_div by auto.
  rewrite words_app by auto. now rewrite map_app, concat_app.
Qed.
Lemma to_native_app h k w o a b n q : (0 < w)%nat -> length a = (w * n)%nat -> length b = (w * q)%nat ->
  to_native_slice h k w o (a ++ b) = to_native_slice h k w o a ++ to_native_slice h k w o b.
Proof. intros. unfold to_native_slice. destruct h, o; auto; eapply map_words_app; eauto. Qed.
Lemma to_native_nil h k w o : to_native_slice h k w o [] = [].
Proof. unfold to_native_slice, map_words. destruct h, o; auto; cbn [length]; destruct w; reflexivity. Qed.
Lemma to_native_concat h k w o items : (0 < w)%nat -> Forall (fun b : bytes => (length b mod w = 0)%nat) items ->
  to_native_slice h k w o (concat items) = concat (map (to_native_slice h k w o) items).
Proof.
  intros Hw. induction 1 as [|b items Hb HF IH]; [apply to_native_nil|]. cbn [concat map]. rewrite <- IH.
  assert (Hc : exists q, length (concat items) = (w * q)%nat).
  { clear -HF Hw. induction HF as [|b items Hb HF (q & IH)]; [exists 0%nat; cbn; lia|].
    cbn [concat]. rewrite app_length. apply Nat.mod_divides in Hb as [n Hn]; [|lia]. exists (n + q)%nat. nia. }
  destruct Hc as (q & Hq). apply Nat.mod_divides in Hb as [n Hn]; [|lia].
  now apply to_native_app with (n := n) (q := q).
Qed.
Lemma stream_values_ok h k w o items : (0 < w)%nat -> Forall (fun b : bytes => (length b mod w = 0)%nat) items ->
  exists vs, stream_values h k w true o items = map Ok vs /\ concat vs = to_native_slice h k w o (concat items).
Proof.
  intros Hw HF. exists (map (to_native_slice h k w o) items). split.
  - unfold stream_values. rewrite map_map. apply map_ext_in. intros b Hb. rewrite Forall_forall in HF.
    rewrite cast_ok_true by auto. reflexivity.
  - symmetry. now apply to_native_concat.
Qed.

(** A prefix of a file holds the same bytes of the chunks it still contains. *)
Lemma file_bytes_prefix (file : bytes) n c : (c_size c = 0 \/ c_addr c + c_size c <= lenN (firstn n file)) ->
  file_bytes (firstn n file) (c_addr c) (c_size c) = file_bytes file (c_addr c) (c_size c).
Proof.
  unfold file_bytes. intros [->|H]; [reflexivity|]. unfold lenN in H. rewrite firstn_length in H.
  rewrite <- (firstn_skipn n file) at 2. rewrite skipn_app, firstn_app.
  replace (N.to_nat (c_size c) - length (skipn (N.to_nat (c_addr c)) (firstn n file)))%nat with 0%nat
    by (rewrite skipn_length, firstn_length; lia).
  cbn [firstn]. now rewrite app_nil_r.
Qed.
