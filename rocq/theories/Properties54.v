(** * Any selection can be read row by row (C79).

    Each theorem is followed by a concrete case meeting its hypotheses. *)
From Verif Require Import Base Spec Safe Chunk Extent Dataset Slicer SpecApi Filters SpecFilter FilterProofs FilterProps ApiLemmas
  Reader SpecReader DirectProofs ParProofs ReaderProps ReadProofs CacheProofs StreamProofs ExamplesReader Examples SliceProps ExactReads
  ExtentProofs DatasetProofs S3 SpecS3 S3Proofs Python SpecPython PythonProofs
  Properties1 Properties2 Properties4 Properties5 Properties6 Properties10 Properties12 Properties16 Properties23 Properties24 Properties31 Properties52.

(** ** Specification *)

(** The part [i .. i+n) of the row at [x]: an index in every dimension but the last. *)
Definition row_at (i n : N) (x : list N) : extents := Extents (map Index x ++ [SliceCount i n]).

(** One read per row with one cached reader, in order, each into its own part of a buffer. *)
Fixpoint read_rows (m : mode) (inflate : bytes -> option bytes) (fuel : nat) (r : creader)
    (rows : list (extents * bytes)) : list (res N * bytes) :=
  match rows with
  | [] => []
  | (e, dst) :: rows' =>
      let '(v, d, r') := cache_read m inflate fuel r e dst in
      (v, d) :: read_rows m inflate fuel r' rows'
  end.

(** ** Slabs *)

Lemma slab_snoc i n : forall idx cnt, length idx = length cnt ->
  slab (idx ++ [i]) (cnt ++ [n]) = flat_map (fun x => slab (x ++ [i]) (map (fun _ => 1) x ++ [n])) (slab idx cnt).
Proof.
  induction idx as [|a idx IH]; destruct cnt as [|k cnt]; intros H; try discriminate.
  - cbn [app slab flat_map map]. now rewrite app_nil_r.
  - injection H as H. cbn [app slab]. rewrite (IH cnt H). clear.
    induction (seqN a (N.to_nat k)) as [|b l IHl]; [reflexivity|]. cbn [flat_map]. rewrite flat_map_app, <- IHl. f_equal.
    clear. induction (slab idx cnt) as [|x xs IH]; [reflexivity|]. cbn [map flat_map]. rewrite map_app, <- IH. f_equal.
    cbn [app map slab]. change (N.to_nat 1) with 1%nat. cbn [seqN flat_map]. now rewrite app_nil_r.
Qed.

Lemma row_start_count i n s : forall x shape, length x = length shape ->
  get_start_count (row_at i n x) (shape ++ [s]) = Ok (x ++ [i], map (fun _ => 1) x ++ [n]).
Proof.
  intros x shape HL. unfold get_start_count, row_at. cbn [extents_canonicalise].
  rewrite !app_length, map_length, HL. cbn [length]. rewrite Nat.eqb_refl. cbn [bind].
  set (l := map (fun '(x0, d) => extent_canonicalise x0 d) (combine (map Index x ++ [SliceCount i n]) (shape ++ [s]))).
  assert (El : l = map Index x ++ [SliceCount i n]).
  { unfold l. clear l. revert shape HL. induction x as [|a x IH]; destruct shape as [|b shape]; intros HL; try discriminate; [reflexivity|].
    cbn [map app combine extent_canonicalise]. f_equal. apply IH. now injection HL. }
  rewrite El. clear l El.
  assert (EM : mapM unwrap_count (map Index x ++ [SliceCount i n]) = Ok (map (fun _ => 1) x ++ [n])).
  { clear. induction x as [|a x IH]; [reflexivity|]. cbn [map app mapM unwrap_count extent_count bind]. now rewrite IH. }
  rewrite EM. cbn [bind]. rewrite !app_length, map_length, HL. cbn [length]. rewrite Nat.eqb_refl. cbn [ensure bind].
  rewrite map_app, map_map. cbn [map extent_start]. now rewrite map_id.
Qed.

Lemma nth_snoc {A} (l : list A) a j y : nth_error (l ++ [a]) j = Some y ->
  nth_error l j = Some y \/ (j = length l /\ y = a).
Proof.
  intros H. destruct (Nat.lt_ge_cases j (length l)).
  - rewrite nth_error_app1 in H by auto. now left.
  - rewrite nth_error_app2 in H by auto. destruct (j - length l)%nat as [|k] eqn:E; cbn in H.
    + injection H as <-. right. split; auto. lia.
    + destruct k; discriminate.
Qed.

Lemma sel_in_cut shape s idx i cnt n : length idx = length shape -> length cnt = length shape ->
  sel_in (shape ++ [s]) (idx ++ [i]) (cnt ++ [n]) -> sel_in shape idx cnt /\ 0 < n /\ i + n <= s.
Proof.
  intros L1 L2 (_ & _ & HP & H). apply Forall_app in HP as [HP Hn]. inversion Hn; subst.
  split; [|split; auto].
  - split; [exact L1|]. split; [exact L2|]. split; [exact HP|]. intros j a k b Ha Hk Hb. apply (H j).
    + rewrite nth_error_app1 by (apply nth_error_Some; congruence). exact Ha.
    + rewrite nth_error_app1 by (apply nth_error_Some; congruence). exact Hk.
    + rewrite nth_error_app1 by (apply nth_error_Some; congruence). exact Hb.
  - apply (H (length shape)); rewrite ?nth_error_app2 by lia; rewrite ?L1, ?L2, Nat.sub_diag; reflexivity.
Qed.

Lemma row_in shape s idx i cnt n x : length idx = length shape -> length cnt = length shape ->
  sel_in (shape ++ [s]) (idx ++ [i]) (cnt ++ [n]) -> In x (slab idx cnt) ->
  length x = length shape /\ sel_in (shape ++ [s]) (x ++ [i]) (map (fun _ => 1) x ++ [n]).
Proof.
  intros L1 L2 HS Hx. destruct (sel_in_cut _ _ _ _ _ _ L1 L2 HS) as (HS' & Hn & Hi).
  pose proof (slab_in_shape _ _ _ _ HS' Hx) as HI. pose proof (DatasetProofs.Forall2_length' _ _ _ HI) as LX.
  split; [exact LX|]. split; [rewrite !app_length; cbn; lia|]. split; [rewrite !app_length, map_length; cbn; lia|]. split.
  - apply Forall_app. split; [|repeat constructor; exact Hn]. apply Forall_forall. intros k Hk.
    apply in_map_iff in Hk as (? & <- & _). reflexivity.
  - intros j a k b Ha Hk Hb. apply nth_snoc in Ha as [Ha|[-> ->]].
    + assert (HJ : (j < length x)%nat) by (apply nth_error_Some; congruence).
      rewrite nth_error_app1 in Hk by (rewrite map_length; exact HJ).
      rewrite nth_error_app1 in Hb by lia. rewrite nth_error_map, Ha in Hk. injection Hk as <-.
      pose proof (SliceProps.Forall2_nth _ _ _ HI j a b Ha Hb) as HJ2. cbn beta in HJ2. clear - HJ2. lia.
    + rewrite nth_error_app2, map_length, Nat.sub_diag in Hk by (rewrite map_length; lia). injection Hk as <-.
      rewrite nth_error_app2 in Hb by lia. rewrite LX, Nat.sub_diag in Hb. injection Hb as <-. exact Hi.
Qed.

(** ** The rows of a selection *)

Lemma ones_prod n (x : list N) : prodN (map (fun _ => 1) x ++ [n]) = n.
Proof. induction x as [|a x IH]; cbn [map app prodN]; [lia|]. rewrite IH. lia. Qed.

Section Rows.
Variables (m : mode) (inflate : bytes -> option bytes) (file : bytes) (ds : dataset) (value : list N -> bytes).
Variables (shape : list N) (s : N) (idx : list N) (i : N) (cnt : list N) (n : N) (fuel : nat).
Hypothesis HD : full_dataset ds.
Hypothesis HR : regular ds.
Hypothesis HS : stores inflate file ds value.
Hypothesis Hshape : d_shape ds = shape ++ [s].
Hypothesis Li : length idx = length shape.
Hypothesis Lc : length cnt = length shape.
Hypothesis HI : sel_in (shape ++ [s]) (idx ++ [i]) (cnt ++ [n]).
Hypothesis HW : n * d_dsize ds < W64.
Hypothesis HF : (N.to_nat n < fuel)%nat.

Lemma row_ok x dst : In x (slab idx cnt) -> lenN dst = n * d_dsize ds ->
  read_ok m ds (row_at i n x) (x ++ [i]) (map (fun _ => 1) x ++ [n]) dst fuel.
Proof.
  intros Hx Hd. destruct (row_in _ _ _ _ _ _ _ Li Lc HI Hx) as [LX HX].
  pose proof (row_start_count i n s x shape LX) as HG.
  constructor; auto; rewrite ?Hshape; auto.
  - apply (row_right m ds _ shape s x i _ n HD Hshape HG HX). apply Forall_forall. intros k Hk.
    apply in_map_iff in Hk as (? & <- & _). reflexivity.
  - rewrite ones_prod. lia.
  - rewrite Hd. exact HW.
  - rewrite ones_prod. exact HF.
Qed.

Definition row_bytes (x : list N) : bytes := concat (map value (slab (x ++ [i]) (map (fun _ => 1) x ++ [n]))).

Lemma row_cached x dst r : In x (slab idx cnt) -> lenN dst = n * d_dsize ds -> reachable m inflate ds file r ->
  fst (cache_read m inflate fuel r (row_at i n x) dst) = (Ok (n * d_dsize ds), row_bytes x).
Proof.
  intros Hx Hd HC.
  rewrite (C21_cached_right_partial m inflate file ds value _ _ _ dst fuel r HS (row_ok x dst Hx Hd) HC).
  rewrite ones_prod. unfold row_bytes. rewrite skipn_all2 by (unfold lenN in Hd; lia). now rewrite app_nil_r.
Qed.

Lemma rows_bytes : concat (map value (slab (idx ++ [i]) (cnt ++ [n]))) = concat (map row_bytes (slab idx cnt)).
Proof.
  rewrite slab_snoc by congruence. unfold row_bytes. induction (slab idx cnt) as [|x l IH]; [reflexivity|].
  cbn [flat_map map concat]. now rewrite map_app, concat_app, IH.
Qed.

End Rows.

(** ** Theorems *)

(** In every file and both builds, whichever selection of a dataset of any rank - also one
    that a single read gets wrong, reports an error for, panics on or never finishes - reading it row
    by row with one cached reader in any state succeeds at every row and gives exactly the selected
    elements, in order. *)
Theorem C79_rows m inflate file ds value shape s idx i cnt n fuel r bufs :
  full_dataset ds -> regular ds -> stores inflate file ds value ->
  d_shape ds = shape ++ [s] -> length idx = length shape -> length cnt = length shape ->
  sel_in (shape ++ [s]) (idx ++ [i]) (cnt ++ [n]) -> n * d_dsize ds < W64 -> (N.to_nat n < fuel)%nat ->
  reachable m inflate ds file r ->
  length bufs = length (slab idx cnt) -> Forall (fun b => lenN b = n * d_dsize ds) bufs ->
  let out := read_rows m inflate fuel r (combine (map (row_at i n) (slab idx cnt)) bufs) in
  map fst out = map (fun _ => Ok (n * d_dsize ds)) (slab idx cnt) /\
  concat (map snd out) = concat (map value (slab (idx ++ [i]) (cnt ++ [n]))).
Proof.
  intros HD HR HS Hsh Li Lc HI HW HF HC LB HB out.
  rewrite (rows_bytes value shape idx i cnt n Li Lc).
  unfold out. clear out.
  assert (HIn : forall x, In x (slab idx cnt) -> In x (slab idx cnt)) by auto. revert HIn LB.
  generalize (slab idx cnt) at 1 3 4 5 6 7 as l. intros l. revert r HC bufs HB.
  induction l as [|x l IH]; intros r HC bufs HB HIn LB; [split; reflexivity|].
  destruct bufs as [|b bufs]; [discriminate|]. apply Forall_cons_iff in HB as [Hb HB]. injection LB as LB.
  cbn [map combine read_rows].
  pose proof (row_cached m inflate file ds value shape s idx i cnt n fuel HD HR HS Hsh Li Lc HI HW HF x b r (HIn x (or_introl eq_refl)) Hb HC) as E.
  pose proof (rc_read m inflate ds file r fuel (row_at i n x) b HC) as HC'.
  destruct (cache_read m inflate fuel r (row_at i n x) b) as [[v d] r'] eqn:ER. cbn [fst snd] in *. injection E as -> ->.
  destruct (IH r' HC' bufs HB) as [E1 E2]; [intros y Hy; apply HIn; now right|exact LB|].
  cbn [map fst snd concat]. rewrite E1, E2. split; reflexivity.
Qed.
Print Assumptions C79_rows.

(** The same with the direct reader, in every order of equal addresses, and with parallel reads under
    every schedule: each row is right. *)
Theorem C79_direct m inflate sort file ds value shape s idx i cnt n fuel rd x dst :
  addr_sort sort -> full_dataset ds -> regular ds -> stores inflate file ds value ->
  d_shape ds = shape ++ [s] -> length idx = length shape -> length cnt = length shape ->
  sel_in (shape ++ [s]) (idx ++ [i]) (cnt ++ [n]) -> n * d_dsize ds < W64 -> (N.to_nat n < fuel)%nat ->
  direct_new m ds (Some file) = Ok rd -> In x (slab idx cnt) -> lenN dst = n * d_dsize ds ->
  let bytes_of x := concat (map value (slab (x ++ [i]) (map (fun _ => 1) x ++ [n]))) in
  direct_read m inflate sort fuel rd (row_at i n x) dst = (Ok (n * d_dsize ds), bytes_of x) /\
  (forall v d, par_read m inflate sort fuel rd (row_at i n x) dst v d -> v = Ok (n * d_dsize ds) /\ d = bytes_of x) /\
  concat (map bytes_of (slab idx cnt)) = concat (map value (slab (idx ++ [i]) (cnt ++ [n]))).
Proof.
  intros HSort HD HR HS Hsh Li Lc HI HW HF HN Hx Hd bytes_of.
  destruct (new_sized m ds file HD (rg_sizes _ HR)) as [[rc Hrc] _]. apply (rc_new m inflate) in Hrc.
  pose proof (row_cached m inflate file ds value shape s idx i cnt n fuel HD HR HS Hsh Li Lc HI HW HF x dst rc Hx Hd Hrc) as E.
  assert (HWd : lenN dst < W64) by (rewrite Hd; exact HW).
  assert (HP : 0 < d_dsize ds) by apply (ss_pos _ (rg_sizes _ HR)).
  apply (C24_agree m inflate sort fuel ds file rc rd (row_at i n x) dst _ _ HSort (rg_addr _ HR) HP HWd Hrc HN) in E.
  split; [exact E|]. split.
  - destruct (C25_schedules m inflate sort fuel ds file rd (row_at i n x) dst HSort (rg_addr _ HR) HP HWd HN) as (_ & _ & _ & H).
    intros v d Hv. exact (H _ _ E v d Hv).
  - symmetry. exact (rows_bytes value shape idx i cnt n Li Lc).
Qed.
Print Assumptions C79_direct.

(** The same with streams: the stream over each row ends without error after the row's bytes. *)
Theorem C79_stream m inflate file ds value shape s idx i cnt n fuel rs :
  full_dataset ds -> regular ds -> stores inflate file ds value ->
  d_shape ds = shape ++ [s] -> length idx = length shape -> length cnt = length shape ->
  sel_in (shape ++ [s]) (idx ++ [i]) (cnt ++ [n]) -> n * d_dsize ds < W64 -> (N.to_nat n < fuel)%nat ->
  streamer_new m ds (Some file) = Ok rs ->
  exists itemss, Forall2 (fun x items => stream m inflate fuel rs (row_at i n x) = Ok (items, SEnd)) (slab idx cnt) itemss /\
    concat (map (@concat N) itemss) = concat (map value (slab (idx ++ [i]) (cnt ++ [n]))).
Proof.
  intros HD HR HS Hsh Li Lc HI HW HF HN.
  destruct (new_sized m ds file HD (rg_sizes _ HR)) as [[rc Hrc] _]. apply (rc_new m inflate) in Hrc.
  rewrite (rows_bytes value shape idx i cnt n Li Lc).
  assert (HIn : forall x, In x (slab idx cnt) -> In x (slab idx cnt)) by auto. revert HIn.
  generalize (slab idx cnt) at 1 3 4 as l. intros l.
  set (dst := repeat 0 (N.to_nat (n * d_dsize ds))).
  assert (Hd : lenN dst = n * d_dsize ds) by (unfold lenN, dst; rewrite repeat_length; lia).
  induction l as [|x l IH]; intros HIn; [exists []; split; [constructor|reflexivity]|].
  destruct IH as (itemss & F & E); [intros y Hy; apply HIn; now right|].
  pose proof (row_cached m inflate file ds value shape s idx i cnt n fuel HD HR HS Hsh Li Lc HI HW HF x dst rc (HIn x (or_introl eq_refl)) Hd Hrc) as ER.
  destruct (C35_agrees m inflate fuel ds file rc rs (row_at i n x) dst _ _ (rg_addr _ HR) Hrc HN ER) as (items & ES & EI).
  exists (items :: itemss). split; [constructor; auto|]. cbn [map concat]. rewrite E. f_equal.
  pose proof (row_ok m ds shape s idx i cnt n fuel HD HR Hsh Li Lc HI HW HF x dst (HIn x (or_introl eq_refl)) Hd) as [B1 B2 B3 B4 B5 B6 B7 B8].
  assert (HG : stream_good m ds (row_at i n x) (x ++ [i]) (map (fun _ => 1) x ++ [n]) fuel).
  { constructor; auto. }
  pose proof (streamer_made m ds (Some file) rs HD HR HN) as ->.
  destruct (stream_cases m inflate file ds value _ _ _ fuel HG (stores_stores_readable _ _ _ _ HR HS))
    as (items' & z & k & ES' & EV & [(-> & _ & _)|(y & c & q & er & _ & _ & _ & ->)] & _).
  - rewrite ES in ES'. injection ES' as <- <-. rewrite EV, firstn_all. reflexivity.
  - rewrite ES in ES'. discriminate.
Qed.
Print Assumptions C79_stream.

(** The same from S3, in every order of completion, if the server honours ranges. *)
Theorem C79_s3 m inflate sort file srv ds value shape s idx i cnt n fuel rs x dst :
  addr_sort sort -> full_dataset ds -> regular ds -> stores inflate file ds value -> SpecS3.sizes_ok ds -> honours file srv ->
  d_shape ds = shape ++ [s] -> length idx = length shape -> length cnt = length shape ->
  sel_in (shape ++ [s]) (idx ++ [i]) (cnt ++ [n]) -> n * d_dsize ds < W64 -> (N.to_nat n < fuel)%nat ->
  s3_new m ds srv = Ok rs -> In x (slab idx cnt) -> lenN dst = n * d_dsize ds ->
  let bytes_of x := concat (map value (slab (x ++ [i]) (map (fun _ => 1) x ++ [n]))) in
  (exists v d, s3_read m inflate sort fuel rs (row_at i n x) dst v d) /\
  (forall v d, s3_read m inflate sort fuel rs (row_at i n x) dst v d -> v = Ok (n * d_dsize ds) /\ d = bytes_of x) /\
  concat (map bytes_of (slab idx cnt)) = concat (map value (slab (idx ++ [i]) (cnt ++ [n]))).
Proof.
  intros HSort HD HR HS HZ HH Hsh Li Lc HI HW HF HN Hx Hd bytes_of.
  destruct (new_sized m ds file HD (rg_sizes _ HR)) as [[rc Hrc] _]. apply (rc_new m inflate) in Hrc.
  pose proof (row_cached m inflate file ds value shape s idx i cnt n fuel HD HR HS Hsh Li Lc HI HW HF x dst rc Hx Hd Hrc) as E.
  assert (HWd : lenN dst < W64) by (rewrite Hd; exact HW).
  assert (HP : 0 < d_dsize ds) by apply (ss_pos _ (rg_sizes _ HR)).
  destruct (C33_agree m inflate sort fuel ds file srv rs rc (row_at i n x) dst HSort (rg_addr _ HR) HP HZ HWd HH HN Hrc) as (A & _ & B).
  split; [exact A|]. split.
  - intros v d Hv. exact (B _ _ E v d Hv).
  - symmetry. exact (rows_bytes value shape idx i cnt n Li Lc).
Qed.
Print Assumptions C79_s3.

(** Typed: the values of the row, in the host's byte order. *)
Theorem C79_values m h k w al inflate file ds value shape s idx i cnt n fuel r x :
  full_dataset ds -> regular ds -> stores inflate file ds value ->
  d_shape ds = shape ++ [s] -> length idx = length shape -> length cnt = length shape ->
  sel_in (shape ++ [s]) (idx ++ [i]) (cnt ++ [n]) -> d_dsize ds * (n * d_dsize ds) < W64 -> (N.to_nat n < fuel)%nat ->
  reachable m inflate ds file r -> In x (slab idx cnt) ->
  d_dsize ds = N.of_nat w -> 0 < al -> N.of_nat w mod al = 0 ->
  let bytes_of x := concat (map value (slab (x ++ [i]) (map (fun _ => 1) x ++ [n]))) in
  values m h k w al ds (fun e dst => fst (cache_read m inflate fuel r e dst)) (row_at i n x) =
    Ok (to_native_slice h k w (d_order ds) (bytes_of x)) /\
  concat (map (fun x => to_native_slice h k w (d_order ds) (bytes_of x)) (slab idx cnt)) =
    to_native_slice h k w (d_order ds) (concat (map value (slab (idx ++ [i]) (cnt ++ [n])))).
Proof.
  intros HD HR HS Hsh Li Lc HI HW HF HC Hx Hsz Hal Hwal bytes_of.
  assert (HP : 0 < d_dsize ds) by apply (ss_pos _ (rg_sizes _ HR)).
  assert (HW1 : n * d_dsize ds < W64) by (clear - HP HW; nia).
  split.
  - set (dst := repeat 0 (N.to_nat (n * d_dsize ds))).
    assert (Hd : lenN dst = n * d_dsize ds) by (unfold lenN, dst; rewrite repeat_length; lia).
    pose proof (row_cached m inflate file ds value shape s idx i cnt n fuel HD HR HS Hsh Li Lc HI HW1 HF x dst r Hx Hd HC) as E.
    pose proof (row_ok m ds shape s idx i cnt n fuel HD HR Hsh Li Lc HI HW1 HF x dst Hx Hd) as [B1 B2 B3 B4 B5 B6 B7 B8].
    assert (EP := ones_prod n x).
    assert (HFi : fits64_lead (map (fun _ => 1) x ++ [n])) by (apply (sel_lead _ _ _ B4); rewrite EP; clear - HW1 HP; nia).
    assert (Hw : (0 < w)%nat) by (clear - HP Hsz; lia).
    destruct (C47_values m h k w al ds (fun e dst => fst (cache_read m inflate fuel r e dst)) _ _ _ B3 HFi) as [_ HV]; auto.
    + rewrite EP. exact HW1.
    + rewrite EP. exact HW.
    + rewrite HV by (rewrite Hsz; apply N.mod_same; clear - Hw; lia). rewrite EP. fold dst. rewrite E. reflexivity.
  - rewrite (rows_bytes value shape idx i cnt n Li Lc).
    rewrite to_native_concat, map_map.
    + reflexivity.
    + clear - HP Hsz; lia.
    + apply Forall_forall. intros b Hb. apply in_map_iff in Hb as (y & <- & Hy).
      destruct (row_in _ _ _ _ _ _ _ Li Lc HI Hy) as [_ HX]. rewrite <- Hsh in HX.
      pose proof (slab_bytes_len inflate file ds value _ _ HD HS HX) as LV. rewrite ones_prod, Hsz in LV.
      unfold row_bytes, lenN in *.
      match goal with |- (?a mod w = 0)%nat => replace a with (N.to_nat n * w)%nat by lia end.
      apply Nat.mod_mul. clear - HP Hsz. lia.
Qed.
Print Assumptions C79_values.

(** From Python: [d[x0, x1, ..., i:i+n]] returns the row, under every schedule and whatever the
    newly allocated memory held. *)
Definition row_keys (i n : N) (x : list N) : list pykey :=
  map (fun a => PyInt (Z.of_N a)) x ++ [PySlice (Some (Z.of_N i)) (Some (Z.of_N (i + n))) None].

Lemma bound_in a b : a <= b -> np_bound (Z.of_N b) (Z.of_N a) = Z.of_N a.
Proof. intros H. unfold np_bound. destruct (Z.ltb_spec (Z.of_N a) 0); lia. Qed.
Lemma row_keys_np i n s : forall x shape, in_shape x shape -> i + n <= s ->
  on_axes forward (shape ++ [s]) (row_keys i n x) /\
  np_starts (shape ++ [s]) (row_keys i n x) = x ++ [i] /\ np_lens (shape ++ [s]) (row_keys i n x) = map (fun _ => 1) x ++ [n].
Proof.
  intros x shape H Hi. unfold row_keys. induction H as [|a b x shape Hab H (A & B & C)].
  - cbn [map app np_starts np_lens np_start np_len]. unfold np_lo, np_hi. rewrite !bound_in by lia.
    split; [|split; f_equal; lia].
    intros [|j] y k Hy Hk; [|destruct j; discriminate]. injection Hy as <-. injection Hk as <-. cbn [forward]. unfold unit_step, np_lo, np_hi. rewrite !bound_in by lia.
    split; [auto|lia].
  - cbn [map app np_starts np_lens np_start np_len]. rewrite B, C. split; [|split; [f_equal|reflexivity]].
    + intros [|j] y k Hy Hk; [|exact (A j y k Hy Hk)]. injection Hy as <-. injection Hk as <-. cbn [forward]. unfold in_range. lia.
    + destruct (Z.ltb_spec (Z.of_N a) 0); lia.
Qed.

Theorem C79_python m h inflate sort file mem ds value shape s idx i cnt n fuel k w x out :
  addr_sort sort -> full_dataset ds -> regular ds -> stores inflate file ds value ->
  d_shape ds = shape ++ [s] -> length idx = length shape -> length cnt = length shape ->
  sel_in (shape ++ [s]) (idx ++ [i]) (cnt ++ [n]) -> dims_fit (d_shape ds) -> (N.to_nat n < fuel)%nat ->
  py_type (d_dtype ds) = Ok (k, w) -> (Z.of_N (n * d_dsize ds) <= IMAX)%Z -> (forall n, lenN (mem n) = n) ->
  In x (slab idx cnt) ->
  py_get m h inflate sort fuel ds (Some file) mem (PyTuple (row_keys i n x)) out ->
  exists dims, prodN dims = n /\
    out = Ok (dims, to_native_slice h k w (d_order ds) (concat (map value (slab (x ++ [i]) (map (fun _ => 1) x ++ [n]))))).
Proof.
  intros HSort HD HR HS Hsh Li Lc HI HDf HF HT HB HM Hx HG.
  destruct (sel_in_cut _ _ _ _ _ _ Li Lc HI) as (HS' & Hn & Hin).
  pose proof (slab_in_shape _ _ _ _ HS' Hx) as HX.
  destruct (row_keys_np i n s x shape HX Hin) as (K1 & K2 & K3). rewrite <- Hsh in K1, K2, K3.
  assert (HL : (length (row_keys i n x) <= length (d_shape ds))%nat).
  { rewrite Hsh. unfold row_keys. rewrite !app_length, map_length, (DatasetProofs.Forall2_length' _ _ _ HX). cbn. lia. }
  assert (HP : py_plan m (d_shape ds) (PyTuple (row_keys i n x)) = Ok (x ++ [i], map (fun _ => 1) x ++ [n])).
  { rewrite py_plan_plain; auto.
    - destruct (forward_plan_np _ _ HL HDf K1) as [-> ->]. now rewrite K2, K3.
    - intros j b k0 Hb Hk. apply (forward_plain b k0); [|exact (K1 j b k0 Hb Hk)].
      exact (proj1 (Forall_forall _ _) HDf b (nth_error_In _ _ Hb)). }
  assert (HZ : ~ In 0 (map (fun _ => 1) x ++ [n])).
  { intros H. apply in_app_iff in H as [H|[H|[]]]; [|lia]. apply in_map_iff in H as (? & H & _). discriminate. }
  assert (EP := ones_prod n x).
  destruct (py_get_par m h inflate sort fuel ds file mem (row_keys i n x) _ _ k w HD HR HDf HL K1 HP HZ HT) as (HW & Hw & HSel & HPd & e & rd & Eg & ED & HIff);
    [rewrite EP; exact HB|].
  apply HIff in HG as (y & d & PR & ->). rewrite EP in *.
  set (b := n * d_dsize ds) in *.
  assert (HW64 : b < W64) by (clear - HB; unfold IMAX, W64 in *; lia).
  assert (LM : lenN (mem b) = b) by apply HM.
  destruct (new_sized m ds file HD (rg_sizes _ HR)) as [[rc Hrc] _]. apply (rc_new m inflate) in Hrc.
  assert (HA : same_addr ds) by apply HR. assert (Hd : 0 < d_dsize ds) by apply HR.
  assert (CR : fst (cache_read m inflate fuel rc e (mem b)) = (Ok b, concat (map value (slab (x ++ [i]) (map (fun _ => 1) x ++ [n]))))).
  { rewrite (C21_cached_right_partial m inflate file ds value e (x ++ [i]) (map (fun _ => 1) x ++ [n]) (mem b) fuel rc); auto.
    - rewrite EP. fold b. rewrite skipn_all2 by (unfold lenN in LM; lia). now rewrite app_nil_r.
    - rewrite Hsh in Eg, HSel. constructor; auto; rewrite ?Hsh, ?EP; auto.
      + apply (row_right m ds e shape s x i _ n HD Hsh Eg HSel). apply Forall_forall. intros q Hq.
        apply in_map_iff in Hq as (? & <- & _). reflexivity.
      + fold b. rewrite LM. apply N.le_refl.
      + now rewrite LM. }
  apply (C24_agree m inflate sort fuel ds file rc rd e (mem b)) in CR; auto; [|now rewrite LM].
  destruct (C25_schedules m inflate sort fuel ds file rd e (mem b) HSort HA Hd) as (_ & _ & _ & SS); [now rewrite LM|exact ED|].
  destruct (SS _ _ CR _ _ PR) as [-> ->]. cbn [bind]. exists (py_dims (map (fun _ => 1) x ++ [n])). split; [exact HPd|reflexivity].
Qed.
Print Assumptions C79_python.

(** [bad_ds] as a whole, which no single read gets right (C21_distinct_case), in twelve rows. *)
Example C79_case m inflate : exists r rd rs,
  let bufs := repeat (repeat 7 20) 12 in
  full_dataset bad_ds /\ regular bad_ds /\ stores inflate words_file bad_ds bad_value /\
  d_shape bad_ds = [4; 3] ++ [5] /\ sel_in ([4; 3] ++ [5]) ([0; 0] ++ [0]) ([4; 3] ++ [5]) /\ 5 * d_dsize bad_ds < W64 /\
  (N.to_nat 5 < 6)%nat /\ reachable m inflate bad_ds words_file r /\
  length bufs = length (slab [0; 0] [4; 3]) /\ Forall (fun b => lenN b = 5 * d_dsize bad_ds) bufs /\
  direct_new m bad_ds (Some words_file) = Ok rd /\ streamer_new m bad_ds (Some words_file) = Ok rs /\
  addr_sort sort_by_addr /\ dims_fit (d_shape bad_ds) /\ py_type (d_dtype bad_ds) = Ok (KInt, 4%nat) /\ d_dsize bad_ds = N.of_nat 4 /\
  SpecS3.sizes_ok bad_ds /\
  (forall dst, lenN dst = 240 -> fst (cache_read m inflate 61 r All dst) <>
     (Ok 240, concat (map bad_value (slab [0; 0; 0] [4; 3; 5])))).
Proof.
  destruct (C21_distinct_case m inflate) as (_ & _ & [A1 A2 A3 A4 A5 A6 A7 A8 A9 A10] & HF).
  destruct (new_sized m bad_ds words_file A1 (rg_sizes _ A2)) as [[r Hr] [rd Hrd]].
  exists r, rd, (mkStreamer bad_ds (Some words_file) 80). cbv zeta.
  repeat match goal with |- _ /\ _ => split end; auto; try reflexivity; try exact A6.
  all: try exact GroupProofs.sort_by_addr_ok; try (now constructor); try (cbn [repeat]; repeat constructor; fail); try (destruct m; reflexivity).
  - unfold dims_fit, IMAX. cbn [bad_ds d_shape]. repeat constructor; lia.
  - intros c. cbn [bad_ds d_chunks In]. intros [<-|[<-|[<-|[<-|[]]]]]; split; reflexivity.
  - intros dst Hd E.
    assert (HC : distinct_case m inflate words_file bad_ds bad_value All [0; 0; 0] [4; 3; 5] dst 61).
    { constructor; auto; try (rewrite Hd; vm_compute; congruence). intros M. specialize (A9 M). unfold lenN in *. rewrite Hd. exact A9. }
    pose proof (C21_distinct m inflate words_file bad_ds bad_value All _ _ dst 61 r HC (rc_new _ _ _ _ _ Hr)) as [H _].
    rewrite H in HF; [discriminate|]. rewrite E. rewrite skipn_all2; [now rewrite app_nil_r|]. unfold lenN in Hd.
    change (N.to_nat (prodN [4; 3; 5] * d_dsize bad_ds)) with 240%nat. lia.
Qed.
