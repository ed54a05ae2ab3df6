(** * Property theorems C63: the element types of the index.

    Each theorem is followed by a concrete case meeting its hypotheses. *)
From Verif Require Import Base Spec Safe Chunk Extent Dataset Slicer SpecApi Filters SpecFilter FilterProofs FilterProps ApiLemmas
  Reader SpecReader ParProofs ReaderProps ReadProofs CacheProofs StreamProofs ExamplesReader Examples Python
  IndexTree Serde SpecTree TreeProofs SpecEnd Properties3 Properties5 Properties12 Properties13 Properties23 Properties24 H5Types.

(** ** What the index says of a type *)

(** The numbers that both HDF5 and the library know. *)
Definition number_type (t : h5type) : Prop :=
  t_std t = true /\ match t_class t with CInt _ => In (t_size t) [1; 2; 4; 8] | CFloat => In (t_size t) [4; 8] | COther => False end.

(** The datatype that a number has in the index. *)
Definition number_datatype (t : h5type) : datatype :=
  match t_class t with
  | CInt false => UInt (t_size t)
  | CInt true => Int (t_size t)
  | CFloat => Float (t_size t)
  | COther => Custom (t_size t)
  end.

Lemma h5order_eqb_spec a b : h5order_eqb a b = true <-> a = b.
Proof. destruct a, b; cbn; split; congruence. Qed.
Lemma class_eqb_spec a b : class_eqb a b = true -> a = b.
Proof. destruct a as [s| |], b as [s'| |]; cbn; try congruence. intros H. apply Bool.eqb_prop in H. congruence. Qed.

Lemma type_is_spec h t r : type_is h t r = true <->
  t_std t = true /\ t_order t = host_order h /\
  match r with RInt s w => t_class t = CInt s /\ t_size t = w | RFloat w => t_class t = CFloat /\ t_size t = w end.
Proof.
  unfold type_is. rewrite !andb_true_iff, h5order_eqb_spec, N.eqb_eq. destruct r as [s w|w]; cbn [native_type t_class t_size t_order]; split.
  - intros (((A & B) & C) & D). apply class_eqb_spec in A. auto.
  - intros (A & B & C & D). rewrite C. cbn. destruct s; auto.
  - intros (((A & B) & C) & D). apply class_eqb_spec in A. auto.
  - intros (A & B & C & D). rewrite C. cbn. auto.
Qed.

(** The index holds the class and size of exactly the numbers stored in the byte order of the
    host that made the index; anything else is a custom type of the right size. *)
Theorem C63_types h t :
  dt_size (datatype_of h t) = t_size t /\
  (number_type t -> t_order t = host_order h -> datatype_of h t = number_datatype t) /\
  (~ (number_type t /\ t_order t = host_order h) -> datatype_of h t = Custom (t_size t)) /\
  order_of (t_order t) = match t_order t with BigEndian => BE | LittleEndian => LE | _ => Unknown end.
Proof.
  split; [unfold datatype_of; repeat match goal with |- context [if ?b then _ else _] => destruct b end; reflexivity|].
  split; [|split; [|destruct (t_order t); reflexivity]].
  - intros [HS HC] HO. destruct t as [c s o d]. cbn in HS, HC, HO. subst d o. unfold number_datatype, datatype_of, type_is.
    cbn [t_class t_size t_order t_std native_type].
    destruct c as [sg| |]; cbn in HC; [| |contradiction]; repeat (destruct HC as [<-|HC]; [destruct h; try destruct sg; reflexivity|]); contradiction.
  - intros HN. assert (HF : forall r, match r with RInt _ w => In w [1; 2; 4; 8] | RFloat w => In w [4; 8] end -> type_is h t r = false).
    { intros r Hr. destruct (type_is h t r) eqn:E; auto. exfalso. apply HN. apply type_is_spec in E as (E1 & E2 & E3). split; auto. split; auto.
      destruct r; destruct E3 as [-> ->]; auto. }
    unfold datatype_of. rewrite !HF by (cbn; auto 10). reflexivity.
Qed.
Print Assumptions C63_types.

Lemma number_dec h t : {number_type t /\ t_order t = host_order h} + {~ (number_type t /\ t_order t = host_order h)}.
Proof.
  assert (D : {number_type t} + {~ number_type t}).
  { unfold number_type. destruct (t_std t); [|right; intros [H _]; discriminate].
    destruct (t_class t) as [sg| |]; [| |right; tauto].
    - destruct (in_dec N.eq_dec (t_size t) [1; 2; 4; 8]); [left; auto|right; tauto].
    - destruct (in_dec N.eq_dec (t_size t) [4; 8]); [left; auto|right; tauto]. }
  assert (E : {t_order t = host_order h} + {t_order t <> host_order h}) by decide equality.
  destruct D; [|right; tauto]. destruct E; [left; auto|right; tauto].
Defined.

(** So the datatypes of an index are those of [indexed_type], and all but custom ones have a
    byte order, the one of the host that made the index. *)
Theorem C63_known h t : indexed_type (datatype_of h t) /\
  ((exists s, datatype_of h t = Custom s) \/ order_of (t_order t) = match h with HostLE => LE | HostBE => BE end).
Proof.
  destruct (C63_types h t) as (_ & HY & HN & _). destruct (number_dec h t) as [[H1 H2]|H].
  - rewrite (HY H1 H2), H2. split; [|right; destruct h; reflexivity].
    unfold number_datatype. destruct H1 as [_ H1]. revert H1. destruct (t_class t) as [[]| |]; cbn [indexed_type]; auto.
  - rewrite (HN H). split; [exact I|left; eauto].
Qed.
Print Assumptions C63_known.

(** [xdr] of whole elements of any type an indexer (on any host) found succeeds and has the
    length the stream expects - also if [xdr] runs on another host. *)
Theorem C63_xdr_total hi h t src n : is_bytes src -> lenN src = t_size t * n ->
  exists r f, xdr h true true src (datatype_of hi t) (order_of (t_order t)) = Ok r /\
    xdr_factor (datatype_of hi t) = Ok f /\ lenN r = f * lenN src.
Proof.
  intros HB HL. destruct (C63_known hi t) as [HI HO]. destruct (C63_types hi t) as [HZ _].
  destruct HO as [[s HO]|HO].
  - rewrite HO. exists src, 1. split; [reflexivity|]. split; [reflexivity|lia].
  - apply (C48_factor_partial h (datatype_of hi t) (order_of (t_order t)) src n); auto; [|now rewrite HZ].
    left. rewrite HO. destruct hi; discriminate.
Qed.
Print Assumptions C63_xdr_total.

(** What indexing a dataset of an HDF5 type yields, whatever else the dataset is: the datatype and the byte order of the type,
    and elements of its size.  The order is that of the file, not of the host. *)
Theorem C63_indexed m hi t d ds : datasetd_index m (typed_of hi t d) = Ok ds ->
  d_dsize ds = t_size t /\ dt_size (d_dtype ds) = t_size t /\
  (number_type t -> t_order t = host_order hi -> d_dtype ds = number_datatype t) /\
  (~ (number_type t /\ t_order t = host_order hi) -> d_dtype ds = Custom (t_size t)) /\
  d_order ds = match t_order t with BigEndian => BE | LittleEndian => LE | _ => Unknown end.
Proof.
  intros H. destruct (C63_types hi t) as (A & B & C & D).
  assert (E : d_dtype ds = datatype_of hi t /\ d_order ds = order_of (t_order t) /\ d_dsize ds = dt_size (datatype_of hi t)).
  { unfold datasetd_index in H. destruct (_ <=? _)%nat; [|discriminate]. unfold dataset_index, dataset_new in H.
    cbn [h_filters h_chunk h_shape h_is_chunked h_offset h_storage h_visit h_dtype h_order typed_of] in H.
    apply bind_ok in H as ([sh gz] & _ & H). 
    repeat (apply bind_ok in H as (? & _ & H)). injection H as <-. auto. }
  destruct E as (-> & -> & ->). repeat split; auto.
Qed.
Print Assumptions C63_indexed.

Example C63_case : (* on a little-endian host *)
  datatype_of HostLE (mkT (CInt true) 2 LittleEndian true) = Int 2 /\
  datatype_of HostLE (mkT (CInt true) 2 BigEndian true) = Custom 2 /\
  datatype_of HostLE (mkT CFloat 4 LittleEndian true) = Float 4 /\
  datatype_of HostLE (mkT CFloat 2 LittleEndian true) = Custom 2 /\
  datatype_of HostLE (mkT CFloat 4 Vax false) = Custom 4 /\
  number_type (mkT (CInt true) 2 BigEndian true).
Proof. repeat split; cbn; auto. Qed.

(** The dataset of [C54_case] with numbers of the other byte order. *)
Example C63_indexed_case m : exists ds, datasetd_index m (typed_of HostLE (mkT (CInt true) 2 BigEndian true) st_h5) = Ok ds /\
  d_dtype ds = Custom 2 /\ d_order ds = BE.
Proof. destruct m; eexists; repeat split; reflexivity. Qed.

(** ** Numbers stored in the other byte order *)

(** A stored file whose type the index describes. *)
Definition h5_typed (hi : host) (t : h5type) (h : h5ds) : Prop :=
  h_dtype h = datatype_of hi t /\ h_order h = order_of (t_order t).

Definition foreign (hi : host) (t : h5type) : Prop :=
  number_type t /\ t_order t = match hi with HostLE => BigEndian | HostBE => LittleEndian end.

Lemma foreign_custom hi t : foreign hi t -> datatype_of hi t = Custom (t_size t).
Proof. intros [_ H]. apply C63_types. intros [_ H']. rewrite H' in H. destruct hi; discriminate. Qed.

(** [values] with a type of the size of the element does convert them: each element returned
    is, in the byte order of the reading host, the number stored (for integers on any host,
    for floating point on little-endian hosts; see C19).  Selections in [sel_safe]. *)
Theorem C63_values_partial m p root i k gs x h cs inflate file value hi t hst kd w al :
  named root -> index_file m (Some p) root = Ok i ->
  Forall (fun c => c <> [] /\ slash_free c) (gs ++ [x]) -> h5_dataset root gs x h ->
  h5_stores inflate file h cs value -> h5_typed hi t h -> t_order t <> Vax -> t_order t <> Mixed -> t_order t <> NoOrder ->
  (0 < w)%nat -> t_size t = N.of_nat w -> 0 < al -> N.of_nat w mod al = 0 -> (kd = KInt \/ hst = HostLE) ->
  exists ds, gi_open (i_root i) (slashes k ++ joined (gs ++ [x])) = Ok (p, ds) /\
    forall e idx cnt fuel rc,
    get_start_count e (h_shape h) = Ok (idx, cnt) -> sel_in (h_shape h) idx cnt ->
    sel_safe (h_shape h) cs idx cnt = true ->
    N.of_nat w * (prodN cnt * N.of_nat w) < W64 -> (N.to_nat (prodN cnt) < fuel)%nat ->
    reachable m inflate ds file rc ->
    exists vs, values m hst kd w al ds (fun e dst => fst (cache_read m inflate fuel rc e dst)) e = Ok (concat vs) /\
      Forall2 (fun c v => length v = w /\ num_in (native hst) v = num_in (order_of (t_order t)) (value c)) (slab idx cnt) vs.
Proof.
  intros HN E HFp HD HS [T1 T2] O1 O2 O3 Hw Hsz Hal Hwal HK.
  assert (HZ : dt_size (h_dtype h) = N.of_nat w) by (rewrite T1; destruct (C63_types hi t) as [-> _]; exact Hsz).
  destruct (indexed_stores m inflate file h cs value HS) as (ds0 & D1 & D2 & D3 & D4 & D5 & D6 & D7 & D8 & D9 & D10 & _).
  destruct (C54_values_partial m p root i k gs x h cs inflate file value hst kd w al HN E HFp HD HS Hw HZ Hal Hwal) as (ds & G & HV).
  exists ds. split; [exact G|]. intros e idx cnt fuel rc HG HI HSf HW HFu HR.
  eexists. split; [exact (HV e idx cnt fuel rc HG HI HSf HW HFu HR)|].
  assert (VL : Forall (fun c => length (value c) = w) (slab idx cnt)).
  { apply Forall_forall. intros c Hc. rewrite <- D5 in HI. rewrite (value_length inflate file ds0 value idx cnt c D2 D4 HI Hc), D9, HZ. lia. }
  rewrite T2. clear - VL O1 O2 O3 HK Hw. induction VL as [|c l Hc VL IH]; cbn [map]; constructor; auto.
  destruct (to_native_ok hst kd w 1 (order_of (t_order t)) (value c) Hw ltac:(lia) HK) as (L & HO & _).
  split; [congruence|].
  assert (HK' : order_of (t_order t) <> Unknown) by (destruct (t_order t); cbn; congruence).
  specialize (HO HK' 0%nat ltac:(lia)). unfold word in HO. cbn [Nat.mul skipn] in HO.
  rewrite !firstn_all2 in HO by lia. exact HO.
Qed.
Print Assumptions C63_values_partial.

(** But to the rest of the library they are not numbers: Python cannot read them at all, *)
Theorem C63_python_refuted m hi h inflate sort fuel ds file mem t arg y : foreign hi t ->
  d_dtype ds = datatype_of hi t -> py_get m h inflate sort fuel ds file mem arg y ->
  y = Panic \/ exists x, py_plan m (d_shape ds) arg = x /\ (forall p, x <> Ok p) /\ y = failed x.
Proof.
  intros HF HD HG. rewrite (foreign_custom hi t HF) in HD.
  inversion HG as [x E1 E2|p x E1 E2 E3|idx cnt k w x E1 E2 E3]; subst.
  - right. eexists. eauto.
  - left. rewrite HD. reflexivity.
  - rewrite HD in E2. discriminate.
Qed.
Print Assumptions C63_python_refuted.

(** and the XDR stream of 8- and 16-bit integers has one or two bytes per element instead of
    four. *)
Theorem C63_xdr_refuted m h hi t inflate file ds value e idx cnt fuel r :
  foreign hi t -> d_dtype ds = datatype_of hi t -> In (t_size t) [1; 2] ->
  stores inflate file ds value -> regular ds -> safe_stream ds e idx cnt fuel ->
  is_bytes file -> (forall a b, inflate a = Some b -> is_bytes b) ->
  streamer_new m ds (Some file) = Ok r ->
  exists items, stream_xdr m h true true inflate fuel r e = Ok (items, SEnd) /\
    concat items = concat (map value (slab idx cnt)) /\ lenN (concat items) = prodN cnt * t_size t /\
    (prodN cnt <> 0 -> lenN (concat items) <> 4 * prodN cnt).
Proof.
  intros HF HD Hsz HS HR HSS HB HI HN. pose proof (foreign_custom hi t HF) as HC. rewrite HC in HD.
  pose proof HSS as HSS'. destruct HSS as [A1 A2 A3 A4 A5 A6].
  assert (HZ : d_dsize ds = t_size t) by (replace (d_dsize ds) with (dt_size (d_dtype ds)) by (symmetry; apply A1); rewrite HD; reflexivity).
  destruct (C36_xdr_partial m h inflate file ds value e idx cnt fuel r 1) as (items & z & n & vs & E1 & E2 & E3 & E4); auto.
  - now apply stores_are_readable.
  - rewrite HD. exact I.
  - right. eauto.
  - rewrite HD. reflexivity.
  - rewrite N.mul_1_r. apply HR.
  - destruct E4 as [(-> & -> & _)|(y & c & k & er & _ & [Hc _] & E4 & _)].
    2:{ exfalso. cbn [fst] in Hc. destruct (load_pipeline m inflate file ds value c HS Hc) as (raw & EL & _).
        destruct (load_total m inflate file ds c HR Hc) as [[R _]|[_ [e' R]]]; [now apply E4|congruence]. }
    exists items. split; auto. rewrite firstn_all in E2. rewrite HD in E2.
    assert (EV : vs = map value (slab idx cnt)).
    { clear - E2. induction E2 as [|c v l l' H1 E2 IH]; auto. cbn [map]. cbn [xdr_of] in H1. congruence. }
    rewrite E3, EV. split; auto.
    assert (L : lenN (concat (map value (slab idx cnt))) = prodN cnt * t_size t).
    { rewrite <- HZ. exact (slab_bytes_len inflate file ds value idx cnt A1 HS A4). }
    split; [exact L|]. rewrite L. destruct Hsz as [<-|[<-|[]]]; lia.
Qed.
Print Assumptions C63_xdr_refuted.

(** [st_ds] (ExamplesReader.v), stored big-endian and indexed on a little-endian host. *)
Definition be_type : h5type := mkT (CInt true) 2 BigEndian true.
Definition be_ds : dataset := mkDataset (datatype_of HostLE be_type) 2 (order_of (t_order be_type)) (d_chunks st_ds)
  (d_shape st_ds) (d_chunk_shape st_ds) (d_chunk_shape_reduced st_ds) (d_scaled_dim_sz st_ds) (d_dim_sz st_ds) (d_chunk_dim_sz st_ds)
  (d_shuffle st_ds) (d_gzip st_ds).
Example C63_xdr_case m h : foreign HostLE be_type /\ d_dtype be_ds = datatype_of HostLE be_type /\ In (t_size be_type) [1; 2] /\
  stores toy_inflate st_file be_ds st_value /\ regular be_ds /\ safe_stream be_ds st_sel [1; 2] [3; 4] 13 /\ is_bytes st_file /\
  exists r, streamer_new m be_ds (Some st_file) = Ok r /\
    stream_xdr m h true true toy_inflate 13 r st_sel =
      Ok ([[12;201]; [13;201; 14;201; 15;201]; [22;202]; [23;202; 24;202; 25;202]; [32;203]; [33;203; 34;203; 35;203]], SEnd).
Proof.
  assert (FU : full_dataset be_ds).
  { destruct st_full as [[A B C D E F G] X Y]. constructor; [constructor|..]; auto. }
  assert (RE : regular be_ds).
  { destruct st_regular as [[A B C D] X Y]. constructor; [constructor|..]; auto. }
  assert (ST : stores toy_inflate st_file be_ds st_value).
  { destruct st_stores as [[A B C D] X Y]. constructor; [constructor|..]; auto. }
  split; [repeat split; cbn; auto|]. split; [reflexivity|]. split; [cbn; auto|]. split; [exact ST|]. split; [exact RE|].
  split; [|split].
  - destruct (st_safe (repeat 0 24) 13) as [A B C D E F G H]; [cbn; lia|reflexivity|lia|]. constructor; auto.
  - vm_compute. repeat constructor.
  - exists (mkStreamer be_ds (Some st_file) 12). split; [destruct m; reflexivity|destruct m, h; vm_compute; reflexivity].
Qed.
