(** * Properties, part 20: XDR streams against plain streams, for every selection (C36). *)
From Verif Require Import Base Spec Safe Extent Chunk Dataset Slicer SpecApi ApiLemmas Termination GroupProofs SliceProps Radix.
From Verif Require Import Filters SpecFilter FilterProofs FilterProps Reader SpecReader SpecEnd.
From Verif Require Import Writes CacheProofs DirectProofs ParProofs ReadProofs ReaderProps StreamProofs Properties5.
From Verif Require Import Examples ExamplesReader.

(** The XDR form of a run of elements: custom types are passed on as they are; otherwise the
    bytes are elements one after the other, and so are those of the XDR form. *)
Definition xdr_run (dt : datatype) (o : order) (b r : bytes) : Prop :=
  match dt with
  | Custom _ => r = b
  | _ => exists vs rs, b = concat vs /\ r = concat rs /\
           Forall (fun v => lenN v = dt_size dt) vs /\ Forall2 (xdr_of dt o) vs rs
  end.

(** Uncompressed chunks hold whole elements, and their XDR form fits in memory. *)
Definition whole_chunks (ds : dataset) (f : N) : Prop :=
  d_gzip ds = None -> forall c, In c (d_chunks ds) -> c_size c mod d_dsize ds = 0 /\ c_size c * f < W64.

Lemma Forall_firstn_ {A} (P : A -> Prop) n l : Forall P l -> Forall P (firstn n l).
Proof. intros H. rewrite <- (firstn_skipn n l) in H. now apply Forall_app in H. Qed.
Lemma Forall_skipn_ {A} (P : A -> Prop) n l : Forall P l -> Forall P (skipn n l).
Proof. intros H. rewrite <- (firstn_skipn n l) in H. now apply Forall_app in H. Qed.

Lemma skipn_skipn_ {A} (l : list A) : forall a b, skipn a (skipn b l) = skipn (b + a) l.
Proof.
  induction l as [|x l IH]; intros a b; [now rewrite !skipn_nil|]. destruct b; [reflexivity|]. cbn [skipn Nat.add]. apply IH.
Qed.

Lemma copy_pairs_bytes src : is_bytes src -> forall pairs dest d, is_bytes dest -> copy_pairs pairs src dest = Ok d ->
  is_bytes d /\ length d = length dest.
Proof.
  intros HS. induction pairs as [|[a b] pairs IH]; intros dest d HD; cbn [copy_pairs].
  - intros [= <-]. auto.
  - unfold get_unchecked. destruct (nth_error src b) as [x|] eqn:Ex; [|discriminate]. cbn [bind].
    unfold put_unchecked. destruct (Nat.ltb_spec a (length dest)); [|discriminate]. cbn [bind]. intros E.
    apply IH in E as [E1 E2].
    + split; auto. rewrite E2, app_length. cbn [length]. rewrite firstn_length, skipn_length. lia.
    + unfold is_bytes in *. apply Forall_app. split; [now apply Forall_firstn_|]. constructor; [|now apply Forall_skipn_].
      rewrite Forall_forall in HS. apply HS. eapply nth_error_In; eauto.
Qed.

Lemma unshuffle_sized_bytes d w r : is_bytes d -> unshuffle_sized d w = Ok r -> is_bytes r /\ length r = length d.
Proof.
  intros HD. assert (HZ : is_bytes (repeat 0 (length d))).
  { apply Forall_forall. intros x Hx. apply repeat_spec in Hx. subst. lia. }
  assert (HU : forall N, unshuffle_structured N d (repeat 0 (length d)) = Ok r -> is_bytes r /\ length r = length d).
  { intros N. unfold unshuffle_structured. intros E. do 4 apply bind_ok in E as (? & _ & E).
    apply copy_pairs_bytes in E as [E1 E2]; auto. split; auto. rewrite E2. apply repeat_length. }
  unfold unshuffle_sized. 
  repeat match goal with |- context [match ?p with _ => _ end] => destruct p end; try discriminate; eauto; intros [= <-]; auto.
Qed.

(** What is loaded consists of bytes, is a whole number of elements and fits. *)
Lemma load_whole m inflate file ds c data csz : is_bytes file -> (forall a b, inflate a = Some b -> is_bytes b) ->
  csz mod d_dsize ds = 0 -> (d_gzip ds = None -> c_size c mod d_dsize ds = 0) ->
  load m inflate file ds csz c = Ok data ->
  is_bytes data /\ lenN data mod d_dsize ds = 0 /\ (lenN data = csz \/ d_gzip ds = None /\ lenN data = c_size c).
Proof.
  intros HB HI HZ HC. unfold load, read_chunk. intros E. apply bind_ok in E as (raw & ER & E).
  assert (R : is_bytes raw /\ lenN raw = c_size c).
  { unfold read_exact in ER. destruct (N.eqb_spec (c_size c) 0) as [H0|H0].
    - injection ER as <-. split; [constructor|]. unfold lenN. cbn. lia.
    - destruct (N.leb_spec (c_addr c + c_size c) (lenN file)); [|discriminate]. injection ER as <-. split.
      + apply Forall_firstn_, Forall_skipn_; auto.
      + unfold lenN in *. rewrite firstn_length, skipn_length. lia. }
  destruct R as [R1 R2]. unfold decode_chunk in E. apply bind_ok in E as (? & _ & E). apply bind_ok in E as (d & ED & E).
  assert (D : is_bytes d /\ lenN d mod d_dsize ds = 0 /\ (lenN d = csz \/ d_gzip ds = None /\ lenN d = c_size c)).
  { destruct (d_gzip ds) as [gz|] eqn:EGZ; cbn [is_some] in ED.
    - apply bind_ok in ED as (d' & E1 & ED). apply bind_ok in ED as (? & _ & ED). injection ED as <-.
      unfold decompress in E1. destruct (inflate raw) as [o|] eqn:EI; [|discriminate].
      destruct (N.leb_spec (lenN o) csz); [|discriminate]. injection E1 as <-.
      assert (L : lenN (o ++ repeat 0 (N.to_nat csz - length o)) = csz).
      { unfold lenN in *. rewrite app_length, repeat_length. lia. }
      rewrite L. split; [|split; auto]. apply Forall_app. split; [now apply (HI raw)|].
      apply Forall_forall. intros z Hz. apply repeat_spec in Hz. subst. lia.
    - injection ED as <-. rewrite R2. auto. }
  destruct (d_shuffle ds && (1 <? d_dsize ds)).
  - apply unshuffle_sized_bytes in E as [E1 E2]; [|tauto]. unfold lenN in *. rewrite E2. tauto.
  - injection E as <-. exact D.
Qed.

(** ** A slice of words *)
Lemma slice_words (l : bytes) w n : (0 < w)%nat -> length l = (w * n)%nat -> forall k i, (i + k <= n)%nat ->
  firstn (k * w) (skipn (i * w) l) = concat (map (fun j => word w j l) (seq i k)).
Proof.
  intros Hw HL. induction k as [|k IH]; intros i Hi; [reflexivity|].
  cbn [seq map concat]. rewrite <- (IH (S i)) by lia. unfold word.
  rewrite <- (firstn_skipn w (skipn (i * w) l)) at 1.
  rewrite firstn_app. replace (length (firstn w (skipn (i * w) l))) with w.
  2:{ rewrite firstn_length, skipn_length. nia. }
  rewrite (firstn_all2 (firstn w (skipn (i * w) l))) by (rewrite firstn_length, skipn_length; nia). f_equal.
  replace (S k * w - w)%nat with (k * w)%nat by lia. f_equal.
  rewrite skipn_skipn_. f_equal. lia.
Qed.

Lemma splain_xdr m get get' dt o w f (P : chunk -> Prop) :
  (forall s, dt <> Custom s) -> dt_size dt = N.of_nat w -> (0 < w)%nat -> 0 < f ->
  (forall c data, P c -> get c = Ok data -> lenN data * f < W64 /\ exists n r, length data = (w * n)%nat /\ get' c = Ok r /\
     length r = (w * N.to_nat f * n)%nat /\ forall j, (j < n)%nat -> xdr_of dt o (word w j data) (word (w * N.to_nat f) j r)) ->
  forall l items, Forall (fun t => P (fst (fst t)) /\ (snd (fst t) < W64 /\ snd (fst t) mod N.of_nat w = 0) /\ (snd t < W64 /\ snd t mod N.of_nat w = 0)) l ->
  splain m get (Ok 1) l = (items, SEnd) ->
  exists items', splain m get' (Ok f) l = (items', SEnd) /\ Forall2 (xdr_run dt o) items items'.
Proof.
  intros HC HS Hw Hf HG. induction l as [|[[c s] e] l IH]; intros items HF E; cbn [splain] in *.
  - injection E as <-. eexists. split; [reflexivity|constructor].
  - inversion HF as [|? ? (F1 & [F2 F2'] & [F3 F3']) F4]; subst. cbn [fst snd] in *.
    unfold srange in *. cbn [bind] in *. rewrite !mul64_ok in E by lia. cbn [bind] in E. rewrite !N.mul_1_r in E.
    unfold bind in E at 1.
    assert (E' : exists data b bs, s <= e /\ get c = Ok data /\ e <= lenN data /\
              b = firstn (N.to_nat (e - s)) (skipn (N.to_nat s) data) /\ splain m get (Ok 1) l = (bs, SEnd) /\ items = b :: bs).
    { destruct (dbg m (s <=? e)) as [?| | | |]; cbn [bind] in E; try discriminate.
      destruct (get c) as [data| | | |] eqn:EG; cbn [bind] in E; try discriminate.
      destruct (take_slice m data s e) as [b| | | |] eqn:ET; try discriminate.
      unfold take_slice in ET. apply bind_ok in ET as (? & _ & ET). apply bind_ok in ET as (? & _ & ET).
      unfold slice_range in ET. destruct (N.leb_spec s e); [|discriminate]. destruct (N.leb_spec e (lenN data)); [|discriminate].
      injection ET as <-. destruct (splain m get (Ok 1) l) as [bs z] eqn:EB. injection E as <- ->.
      exists data. do 2 eexists. repeat split; eauto. }
    destruct E' as (data & b & bs & Hse & EG & Hed & -> & EB & ->).
    destruct (HG c data F1 EG) as (HW & n & r & Ln & EG' & Lr & HX).
    destruct (IH bs F4 EB) as (bs' & EB' & HB). rewrite EG', EB'.
    rewrite !mul64_ok by nia. cbn [bind]. rewrite dbg_ok by (apply N.leb_le; nia). cbn [bind].
    assert (LR : lenN r = lenN data * f) by (unfold lenN; rewrite Lr, Ln; lia).
    unfold take_slice. rewrite !dbg_ok by (apply N.leb_le; nia). cbn [bind].
    unfold slice_range. rewrite !leb_true by nia. cbn [andb].
    eexists. split; [reflexivity|]. constructor; auto.
    apply N.mod_divide in F2' as [i Ei]; [|lia]. apply N.mod_divide in F3' as [j Ej]; [|lia].
    assert (Hij : i <= j) by nia.
    assert (Hjn : (N.to_nat j <= n)%nat) by (unfold lenN in Hed; nia).
    replace (N.to_nat (e - s)) with ((N.to_nat j - N.to_nat i) * w)%nat by nia.
    replace (N.to_nat s) with (N.to_nat i * w)%nat by nia.
    replace (N.to_nat (e * f - s * f)) with ((N.to_nat j - N.to_nat i) * (w * N.to_nat f))%nat
      by (subst s e; rewrite N2Nat.inj_sub, !N2Nat.inj_mul, !Nat2N.id, !Nat.mul_sub_distr_r, !Nat.mul_assoc; reflexivity).
    replace (N.to_nat (s * f)) with (N.to_nat i * (w * N.to_nat f))%nat
      by (subst s; rewrite !N2Nat.inj_mul, !Nat2N.id, !Nat.mul_assoc; reflexivity).
    rewrite (slice_words data w n) by (auto; lia).
    rewrite (slice_words r (w * N.to_nat f) n) by (auto; try lia; nia).
    assert (exists vs rs, concat (map (fun k => word w k data) (seq (N.to_nat i) (N.to_nat j - N.to_nat i))) = concat vs /\
      concat (map (fun k => word (w * N.to_nat f) k r) (seq (N.to_nat i) (N.to_nat j - N.to_nat i))) = concat rs /\
      Forall (fun v => lenN v = dt_size dt) vs /\ Forall2 (xdr_of dt o) vs rs) as Q.
    { do 2 eexists. split; [reflexivity|]. split; [reflexivity|].
      assert (QF : Forall (fun k => (k < n)%nat) (seq (N.to_nat i) (N.to_nat j - N.to_nat i))).
      { apply Forall_forall. intros k Hk. apply in_seq in Hk. lia. }
      clear - QF HX Ln HS Hw. induction QF as [|k ks Hk QF IH]; cbn [map]; split; try constructor; try apply IH; auto.
      unfold lenN. rewrite HS. f_equal. now apply word_length with (n := n). }
    destruct dt as [z|z|z|z]; try exact Q. now elim (HC z).
Qed.

Lemma mul64_multiple m a w s : In w [1; 2; 4; 8] -> mul64 m a w = Ok s -> s < W64 /\ s mod w = 0.
Proof.
  intros Hw. unfold mul64. destruct (N.ltb_spec (a * w) W64).
  - intros [= <-]. split; auto. apply N.mod_mul. intros ->. cbn in Hw. intuition discriminate.
  - destruct m; [discriminate|]. intros [= <-]. split; [now apply N.mod_lt|].
    assert (exists q, W64 = q * w /\ w <> 0) as (q & EQ & Hw0).
    { destruct Hw as [<-|[<-|[<-|[<-|[]]]]]; eexists; (split; [|discriminate]);
        [instantiate (1 := 18446744073709551616)|instantiate (1 := 9223372036854775808)|
         instantiate (1 := 4611686018427387904)|instantiate (1 := 2305843009213693952)]; reflexivity. }
    assert (q <> 0) by (intros ->; discriminate EQ). rewrite EQ.
    rewrite N.mul_mod_distr_r by auto. now apply N.mod_mul.
Qed.

Lemma byte_slices_all m w (P : chunk -> Prop) : In w [1; 2; 4; 8] -> forall segs l,
  Forall (fun sg : segment => P (fst (fst sg))) segs -> byte_slices m w segs = Ok l ->
  Forall (fun t => P (fst (fst t)) /\ (snd (fst t) < W64 /\ snd (fst t) mod w = 0) /\ (snd t < W64 /\ snd t mod w = 0)) l.
Proof.
  intros Hw. induction segs as [|[[c a] b] segs IH]; intros l HF E; cbn [byte_slices] in E.
  - injection E as <-. constructor.
  - inversion HF; subst. apply bind_ok in E as (s & E1 & E). apply bind_ok in E as (e & E2 & E).
    apply bind_ok in E as (r & E3 & E). injection E as <-. constructor; auto. cbn [fst snd].
    apply mul64_multiple in E1, E2; auto.
Qed.

Lemma byte_slices_chunks m w (P : chunk -> Prop) : forall segs l,
  Forall (fun sg : segment => P (fst (fst sg))) segs -> byte_slices m w segs = Ok l -> Forall (fun t => P (fst (fst t))) l.
Proof.
  induction segs as [|[[c a] b] segs IH]; intros l HF E; cbn [byte_slices] in E.
  - injection E as <-. constructor.
  - inversion HF; subst. apply bind_ok in E as (s & E1 & E). apply bind_ok in E as (e & E2 & E).
    apply bind_ok in E as (r & E3 & E). injection E as <-. constructor; auto.
Qed.

Lemma stream_is_plain m (get : chunk -> res bytes) xf fuel ds e l cap :
  (forall c c', In c (d_chunks ds) -> In c' (d_chunks ds) -> c_addr c = c_addr c' -> get c = get c') ->
  collect_slices m fuel ds e = Ok l ->
  stream_loop m get cap xf l [] = splain m get xf l.
Proof.
  intros HG. unfold collect_slices. pose proof (slices_in m fuel ds e) as SI.
  destruct (chunk_slices m fuel ds e) as [segs st]. intros E. apply bind_ok in E as (l' & E1 & E).
  apply bind_ok in E as (? & _ & E). injection E as ->.
  apply (stream_loop_plain m get cap xf (fun c => In c (d_chunks ds))); auto.
  - exact (byte_slices_chunks m (d_dsize ds) (fun c => In c (d_chunks ds)) segs l SI E1).
  - discriminate.
Qed.

Lemma chunk_bytes_whole m ds csz : In (d_dsize ds) [1; 2; 4; 8] -> chunk_bytes m ds = Ok csz -> csz < W64 /\ csz mod d_dsize ds = 0.
Proof. intros Hw E. apply bind_ok in E as (p & _ & E). now apply mul64_multiple in E. Qed.

(** ** C36, any selection *)

(** Any dataset (of any of the datatypes the indexer makes), any selection, any build:
    whenever the plain stream ends without an error, so does the XDR stream, and item by item
    it is the XDR form of the plain one.  The sizes are those of memory. *)
Theorem C36_agrees m h inflate fuel ds file rs e items f :
  same_addr ds -> whole_chunks ds f -> is_bytes file -> (forall a b, inflate a = Some b -> is_bytes b) ->
  indexed_type (d_dtype ds) -> d_dsize ds = dt_size (d_dtype ds) ->
  (d_order ds <> Unknown \/ exists s, d_dtype ds = Custom s) ->
  xdr_factor (d_dtype ds) = Ok f ->
  streamer_new m ds (Some file) = Ok rs ->
  sr_csz rs * f < W64 ->
  stream m inflate fuel rs e = Ok (items, SEnd) ->
  exists items', stream_xdr m h true true inflate fuel rs e = Ok (items', SEnd) /\
    Forall2 (xdr_run (d_dtype ds) (d_order ds)) items items'.
Proof.
  intros HA HWC HB HI HT HD Ho Hf HN HZ HS.
  unfold streamer_new in HN. apply bind_ok in HN as (csz & EZ & HN). injection HN as <-.
  unfold stream, stream_xdr in *. cbn [sr_ds sr_file sr_csz] in *.
  apply bind_ok in HS as (l & EL & HS). apply bind_ok in HS as (cap & ECAP & HS). injection HS as HS.
  rewrite EL. cbn [bind]. rewrite ECAP. cbn [bind].
  assert (HG : forall c c', In c (d_chunks ds) -> In c' (d_chunks ds) -> c_addr c = c_addr c' ->
     load m inflate file ds csz c = load m inflate file ds csz c') by (intros; apply load_same; auto).
  rewrite (stream_is_plain m _ (Ok 1) fuel ds e l cap HG EL) in HS.
  set (get' := fun c => let* data := load m inflate file ds csz c in xdr h true true data (d_dtype ds) (d_order ds)).
  rewrite (stream_is_plain m get' (xdr_factor (d_dtype ds)) fuel ds e l cap)
    by (auto; intros c c' H1 H2 H3; unfold get'; now rewrite (HG c c' H1 H2 H3)).
  rewrite Hf.
  destruct (d_dtype ds) as [s|s|s|s] eqn:ET; cycle 3.
  { cbn in Hf. injection Hf as <-.
    exists items. split. 2:{ clear. induction items; constructor; auto. reflexivity. }
    f_equal. rewrite <- HS. clear HS EL. induction l as [|[[c s0] e0] l IH]; cbn [splain]; auto.
    rewrite IH. unfold get' at 1. cbn [xdr]. destruct (load m inflate file ds csz c); cbn [bind]; reflexivity. }
  all: assert (Hw : In (d_dsize ds) [1; 2; 4; 8]) by (rewrite HD; cbn [indexed_type dt_size] in *; cbn in *; tauto).
  all: destruct (chunk_bytes_whole m ds csz Hw EZ) as [Z1 Z2].
  all: assert (Hf0 : 0 < f) by (cbn [xdr_factor dt_size] in *; cbn [indexed_type] in HT; cbn in HT;
    repeat (destruct HT as [<-|HT]; [vm_compute in Hf; injection Hf as <-; reflexivity|]); contradiction).
  all: unfold collect_slices in EL; pose proof (slices_in m fuel ds e) as SI;
    destruct (chunk_slices m fuel ds e) as [segs st]; apply bind_ok in EL as (l' & E1 & EL);
    apply bind_ok in EL as (? & _ & EL); injection EL as ->; cbn [fst] in SI;
    pose proof (byte_slices_all m (d_dsize ds) (fun c => In c (d_chunks ds)) Hw segs l SI E1) as SL.
  all: match goal with |- context [xdr_run ?dt ?o] =>
      destruct (splain_xdr m (load m inflate file ds csz) get' dt o (N.to_nat (d_dsize ds)) f (fun c => In c (d_chunks ds))) with (l := l) (items := items) as (items' & EI & HR) end.
  all: try (exists items'; rewrite EI; split; [reflexivity|exact HR]).
  all: try (intros; discriminate).
  all: try (rewrite N2Nat.id; auto).
  all: try (cbn in Hw; lia).
  all: auto.
  all: intros c data Hc EG; destruct (load_whole m inflate file ds c data csz HB HI Z2 (fun G => proj1 (HWC G c Hc)) EG) as (B1 & B2 & B3).
  all: split; [destruct B3 as [-> | [G ->]]; [auto|now apply (HWC G c Hc)]|].
  all: apply N.mod_divide in B2 as [n En]; [|intros H0; rewrite H0 in Hw; cbn in Hw; intuition discriminate].
  all: match goal with |- context [xdr_of ?dt ?o] =>
      destruct (xdr_words h dt o data (N.to_nat n) B1 HT Ho) as (r & f' & X1 & X2 & X3 & X4 & X5 & X6); [unfold lenN in En; rewrite <- HD; lia|] end.
  all: rewrite Hf in X2; injection X2 as <-.
  all: exists (N.to_nat n), r; split; [unfold lenN in En; lia|]; unfold get'; rewrite EG; cbn [bind]; split; [exact X1|].
  all: rewrite <- HD in X3, X6; rewrite <- X3, N2Nat.inj_mul in X5, X6; auto.
Qed.
Print Assumptions C36_agrees.

(** So what is read is, in XDR form, what is streamed. *)
Theorem C36_read m h inflate fuel ds file rc rs e dst v d f :
  same_addr ds -> whole_chunks ds f -> is_bytes file -> (forall a b, inflate a = Some b -> is_bytes b) ->
  indexed_type (d_dtype ds) -> d_dsize ds = dt_size (d_dtype ds) ->
  (d_order ds <> Unknown \/ exists s, d_dtype ds = Custom s) ->
  xdr_factor (d_dtype ds) = Ok f ->
  reachable m inflate ds file rc -> streamer_new m ds (Some file) = Ok rs -> sr_csz rs * f < W64 ->
  fst (cache_read m inflate fuel rc e dst) = (Ok v, d) ->
  exists items out, stream_xdr m h true true inflate fuel rs e = Ok (items, SEnd) /\
    d = out ++ skipn (length out) dst /\ xdr_run (d_dtype ds) (d_order ds) out (concat items).
Proof.
  intros HA HWC HB HI HT HD Ho Hf HC HN HZ E.
  destruct (C35_agrees m inflate fuel ds file rc rs e dst v d HA HC HN E) as (items & ES & Ed).
  destruct (C36_agrees m h inflate fuel ds file rs e items f HA HWC HB HI HT HD Ho Hf HN HZ ES) as (items' & EX & HX).
  exists items', (concat items). split; auto. split; auto.
  assert (Q : match d_dtype ds with Custom _ => True | _ => 
     exists vs rs, concat items = concat vs /\ concat items' = concat rs /\
           Forall (fun v => lenN v = dt_size (d_dtype ds)) vs /\ Forall2 (xdr_of (d_dtype ds) (d_order ds)) vs rs end).
  { clear - HX. destruct (d_dtype ds) as [s|s|s|s]; auto; cbn [xdr_run] in HX.
    all: induction HX as [|b b' l l' (vs & rs & -> & -> & H1 & H2) HX (vs' & rs' & E1 & E2 & H3 & H4)]; cbn [concat];
      [exists [], []; repeat split; auto; constructor|].
    all: exists (vs ++ vs'), (rs ++ rs'); rewrite !concat_app, E1, E2; split; [reflexivity|]; split; [reflexivity|].
    all: split; [apply Forall_app; auto|now apply Forall2_app]. }
  unfold xdr_run in *. destruct (d_dtype ds) as [s|s|s|s]; try exact Q.
  clear - HX. induction HX as [|b b' l l' -> HX IH]; cbn [concat]; congruence.
Qed.
Print Assumptions C36_read.

(** A full read outside [sel_safe] (of [bad_ds], whose elements come out in a wrong order,
    C11): the two streams agree all the same; and a compressed one. *)
Definition bad_file : bytes := map (fun k => N.of_nat k mod 251) (seq 0 4200).
Example C36_agrees_case m h : exists rs items,
  same_addr bad_ds /\ whole_chunks bad_ds 1 /\ is_bytes bad_file /\ indexed_type (d_dtype bad_ds) /\
  d_dsize bad_ds = dt_size (d_dtype bad_ds) /\ d_order bad_ds <> Unknown /\ xdr_factor (d_dtype bad_ds) = Ok 1 /\
  streamer_new m bad_ds (Some bad_file) = Ok rs /\ sr_csz rs * 1 < W64 /\
  stream m toy_inflate 61 rs All = Ok (items, SEnd) /\ lenN (concat items) = 240 /\
  sel_safe (d_shape bad_ds) (d_chunk_shape bad_ds) [0; 0; 0] [4; 3; 5] = false /\
  whole_chunks st_ds 2 /\ same_addr st_ds /\ xdr_factor (d_dtype st_ds) = Ok 2 /\
  (exists items, stream m toy_inflate 13 (mkStreamer st_ds (Some st_file) 12) st_sel = Ok (items, SEnd) /\
    stream_xdr m h true true toy_inflate 13 (mkStreamer st_ds (Some st_file) 12) st_sel =
    Ok ([[255;255;201;12]; [255;255;201;13; 255;255;201;14; 255;255;201;15];
         [255;255;202;22]; [255;255;202;23; 255;255;202;24; 255;255;202;25];
         [255;255;203;32]; [255;255;203;33; 255;255;203;34; 255;255;203;35]], SEnd)).
Proof.
  do 2 eexists. repeat apply conj.
  - intros c c'. cbn [bad_ds d_chunks In]. intros [<-|[<-|[<-|[<-|[]]]]] [<-|[<-|[<-|[<-|[]]]]]; reflexivity.
  - intros _ c. cbn [bad_ds d_chunks In]. intros [<-|[<-|[<-|[<-|[]]]]]; split; reflexivity.
  - apply Forall_forall. intros x Hx. apply in_map_iff in Hx as (k & <- & _). 
    assert (N.of_nat k mod 251 < 251) by now apply N.mod_lt. lia.
  - cbn. auto.
  - reflexivity.
  - discriminate.
  - reflexivity.
  - destruct m; reflexivity.
  - reflexivity.
  - destruct m; vm_compute; reflexivity.
  - vm_compute. reflexivity.
  - reflexivity.
  - discriminate.
  - intros c c'. cbn [st_ds d_chunks In]. intros [<-|[<-|[<-|[<-|[]]]]] [<-|[<-|[<-|[<-|[]]]]]; reflexivity.
  - reflexivity.
  - eexists. split; destruct m, h; vm_compute; reflexivity.
Qed.
