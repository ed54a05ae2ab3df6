(** * Property theorems C53: the command-line tools hfxidx and hfxlst.

    [h5_open] is what the HDF5 library makes of the bytes of a file, [flex_ser] and [flex_de]
    what the flexbuffers crate does; theorems hold for all of them but for the hypotheses
    stated.  [tr] is the list of the states of the file system during a run of hfxidx after
    the first: a crash leaves the first or one of them. *)
From Coq Require Import String.
From Verif Require Import Base Spec SpecText Chunk Dataset IndexTree Serde SpecSerde SpecTree SerdeProofs SerdeTyped TreeProofs
  Examples Tools Properties7.

(** The states during [fs_write]. *)
Lemma write_all_states fs p data n r tr : write_all fs p data n r tr -> (n <= length data)%nat ->
  Forall (fun st => exists k, (k <= length data)%nat /\ st = fs_set fs p (firstn k data)) tr /\
  (r = Ok tt -> n = length data /\ tr = [] \/ exists tr', tr = tr' ++ [fs_set fs p data]) /\
  (r = Ok tt \/ r = Err EIo).
Proof.
  induction 1 as [|n|n k r tr Hk Hn H IH]; intros Hle.
  - repeat split; auto.
  - repeat split; auto. discriminate.
  - destruct (IH Hn) as (A & B & C). repeat split; auto.
    + constructor; eauto.
    + intros Hr. right. destruct (B Hr) as [[E ->]|[tr' ->]].
      * exists []. cbn [app]. now rewrite E, firstn_all.
      * now exists (fs_set fs p (firstn (n + k) data) :: tr').
Qed.
Lemma fs_write_states fs p data r tr : fs_write fs p data r tr ->
  Forall (fun st => exists k, (k <= length data)%nat /\ st = fs_set fs p (firstn k data)) tr /\
  (r = Ok tt -> last tr fs p = Some data) /\ (r = Ok tt \/ exists e, r = Err e).
Proof.
  assert (S : forall b, fs_set fs p b p = Some b) by (intros; unfold fs_set; now rewrite str_eqb_refl).
  intros [|r' tr' H].
  - repeat split; eauto. discriminate.
  - destruct (write_all_states _ _ _ _ _ _ H ltac:(lia)) as (A & B & C). repeat split.
    + constructor; auto. exists 0%nat. split; [lia|reflexivity].
    + intros Hr. destruct (B Hr) as [[E ->]|[tr2 ->]].
      * cbn [last]. rewrite S. f_equal. symmetry. now apply length_zero_iff_nil.
      * rewrite app_comm_cons, last_last. apply S.
    + destruct C as [-> | ->]; eauto.
Qed.

(** No other file is ever changed, whatever happens. *)
Theorem C53_other_files m fo bo fser h5 fs input output ty r tr :
  hfxidx m fo bo fser h5 fs input output ty r tr ->
  forall st, In st tr -> forall p, p <> output -> st p = fs p.
Proof.
  intros [x E1 E2|i x E1 E2 E3|i b r' tr' E1 E2 E3] st Hin p Hp; try easy.
  apply fs_write_states in E3 as (A & _). rewrite Forall_forall in A. destruct (A _ Hin) as (k & _ & ->).
  unfold fs_set. now rewrite str_eqb_neq.
Qed.
Print Assumptions C53_other_files.

(** If the input cannot be indexed, or the format is unknown or not compiled in, the run
    fails and the output is neither created nor emptied. *)
Theorem C53_untouched m fo bo fser h5 fs input output ty r tr :
  hfxidx m fo bo fser h5 fs input output ty r tr ->
  (forall root b i, fs input = Some b -> h5 b = Ok root -> index_file m (Some input) root <> Ok i) \/
  (~ (fo = true /\ (ty = text "any" \/ ty = text "flexbuffers")) /\ ~ (bo = true /\ (ty = text "any" \/ ty = text "bincode"))) ->
  tr = [] /\ r <> Ok tt.
Proof.
  intros H HX.
  assert (F : forall A (x : res A), (forall a, x <> Ok a) -> failed x <> Ok tt) by (intros A [] H0; cbn; congruence).
  destruct H as [x E1 E2|i x E1 E2 E3|i b r' tr' E1 E2 E3]; [split; auto..|]. exfalso.
  destruct HX as [HX|[HX HY]].
  - unfold index_path in E1. destruct (fs input) as [b'|] eqn:Ef; [|discriminate].
    apply bind_ok in E1 as (root & Er & E1). exact (HX root b' i eq_refl Er E1).
  - unfold encode in E2.
    destruct (fo && (str_eqb ty S_ANY || str_eqb ty S_FLEX)) eqn:Ef.
    { apply HX. apply andb_true_iff in Ef as [-> Ef]. split; auto. apply orb_true_iff in Ef as [Ef|Ef];
        apply str_eqb_spec in Ef; auto. }
    destruct (bo && (str_eqb ty S_ANY || str_eqb ty S_BINCODE)) eqn:Eb; [|discriminate].
    apply HY. apply andb_true_iff in Eb as [-> Eb]. split; auto. apply orb_true_iff in Eb as [Eb|Eb];
        apply str_eqb_spec in Eb; auto.
Qed.
Print Assumptions C53_untouched.

(** What a listing of a file should be: the names and shapes of the datasets with storage in
    its root group, each once. *)
Definition lists (root : h5group) (l : list (str * list N)) : Prop :=
  NoDup (map fst l) /\
  forall x s, In (x, s) l <-> exists d, h5_dataset root [] x d /\ has_storage d /\ s = h_shape d.

Lemma index_shape m h d : dataset_index m h = Ok d -> d_shape d = h_shape h.
Proof.
  intros E. unfold dataset_index in E. apply bind_ok in E as ([sh gz] & _ & E). apply bind_ok in E as (ch & _ & E).
  apply bind_ok in E as (gr & _ & E). apply bind_ok in E as (ex & _ & E). apply bind_ok in E as ([] & _ & E).
  unfold dataset_new in E.
  repeat match type of E with bind _ _ = _ => let x := fresh in let y := fresh in apply bind_ok in E as (x & y & E) end.
  apply ok_inj in E. now subst d.
Qed.

Definition listing (i : index) : option str * list (str * list N) :=
  (i_path i, map (fun nd => (fst nd, d_shape (snd nd))) (gi_datasets (i_root i))).

Lemma listing_right m path root i : named root -> index_file m path root = Ok i ->
  fst (listing i) = path /\ lists root (snd (listing i)).
Proof.
  intros HN E. destruct (C43_exact m path root i HN E) as (_ & K & _ & HP). split; [exact HP|].
  unfold index_file in E. apply bind_ok in E as (g & Eg & E). apply ok_inj in E. subst i. cbn [listing snd i_root] in *.
  destruct (keyed_inv _ K) as (ND & _).
  pose proof (datasets_match m path root [] g HN Eg []) as DM. destruct (index_all_ok m path root [] g HN Eg) as (_ & HAll & _).
  split.
  - rewrite map_map. exact ND.
  - intros x s. rewrite in_map_iff. split.
    + intros ([x' d] & E & Hin). cbn [fst snd] in E. injection E as <- <-.
      destruct (proj1 (DM x' d)) as (h & H1 & H2 & H3); [exists g; split; [constructor|auto]|].
      exists h. split; auto. split; auto. unfold datasetd_index in H3. destruct (_ <=? _)%nat; [|discriminate].
      exact (index_shape m h d H3).
    + intros (h & H1 & H2 & ->). destruct (HAll [] x h H1 H2) as (d & Ed).
      destruct (proj2 (DM x d)) as (g' & Hg & Hin); [eauto|]. inversion Hg; subst.
      exists (x, d). split; auto. cbn [fst snd]. f_equal. unfold datasetd_index in Ed. destruct (_ <=? _)%nat; [|discriminate].
      exact (index_shape m h d Ed).
Qed.

(** The run writes bincode, and is given a file the HDF5 library opens. *)
Record indexes (m : mode) (fo bo : bool) (h5 : byte_str -> res h5group) (fs : fsys) (input ty : str) (root : h5group) : Prop := {
  ix_bincode : bo = true /\ (ty = text "bincode" \/ ty = text "any" /\ fo = false);
  ix_input : exists b, fs input = Some b /\ h5 b = Ok root;
  ix_named : named root;
  ix_typed : typed_tree root;
  ix_path : lenN input < W64
}.

Lemma encode_bincode fo bo fser ty i : bo = true /\ (ty = text "bincode" \/ ty = text "any" /\ fo = false) ->
  encode fo bo fser ty i = bincode_serialize i.
Proof. intros [-> [-> | [-> ->]]]; unfold encode; cbn; now rewrite ?andb_false_r. Qed.

(** After a run that exits successfully hfxlst lists the input, if its own first attempt, as
    flexbuffers, rejects bincode (or is not compiled in). *)
Theorem C53_round_trip m fo bo fser fde h5 fs input output ty root r tr :
  indexes m fo bo h5 fs input ty root ->
  (fo = true -> forall i b, bincode_serialize i = Ok b -> exists e, fde b = Err e) ->
  hfxidx m fo bo fser h5 fs input output ty r tr -> r = Ok tt ->
  exists l, hfxlst fo bo fde (last tr fs) output = Ok (Some input, l) /\ lists root l.
Proof.
  intros [H1 (b0 & Ef & Eo) HN HT HP] HF H HR.
  assert (F : forall A (x : res A), (forall a, x <> Ok a) -> failed x <> Ok tt) by (intros A [] H0; cbn; congruence).
  destruct H as [x E1 E2|i x E1 E2 E3|i b r' tr' E1 E2 E3]; [now apply F in HR..|].
  rewrite encode_bincode in E2 by auto. unfold index_path in E1. rewrite Ef, Eo in E1. cbn [bind] in E1.
  destruct (fs_write_states _ _ _ _ _ E3) as (_ & L & _). specialize (L HR).
  destruct (listing_right m (Some input) root i HN E1) as [LP LL].
  assert (HU : utf8_path (Some input)).
  { destruct (C43_exact m (Some input) root i HN E1) as (_ & _ & _ & EP). rewrite <- EP.
    unfold bincode_serialize, ser_index in E2. apply bind_ok in E2 as (pb & Ep & _). apply ser_path_ok. eauto. }
  destruct (C41_indexed m (Some input) root i HN HT) as (b' & Eb & Ed); auto.
  { intros s [= <-]. exact HP. }
  rewrite E2 in Eb. apply ok_inj in Eb. subst b'.
  exists (snd (listing i)). split; auto. unfold hfxlst. rewrite L. unfold read_index. rewrite (proj1 H1), Ed.
  destruct fo.
  - destruct (HF eq_refl i b E2) as (e & ->). cbn [bind]. f_equal. rewrite <- LP. reflexivity.
  - cbn [bind]. f_equal. rewrite <- LP. reflexivity.
Qed.
Print Assumptions C53_round_trip.

(** At no point of any run, finished or not, does hfxlst list anything else. *)
Theorem C53_crash m fo bo fser fde h5 fs input output ty root r tr :
  indexes m fo bo h5 fs input ty root ->
  (fo = true -> forall i b pre q, bincode_serialize i = Ok b -> b = pre ++ q -> exists e, fde pre = Err e) ->
  hfxidx m fo bo fser h5 fs input output ty r tr ->
  forall st out, In st tr -> hfxlst fo bo fde st output = Ok out ->
    fst out = Some input /\ lists root (snd out).
Proof.
  intros [H1 (b0 & Ef & Eo) HN HT HP] HF H st out Hin HL.
  destruct H as [x E1 E2|i x E1 E2 E3|i b r' tr' E1 E2 E3]; try easy.
  rewrite encode_bincode in E2 by auto. unfold index_path in E1. rewrite Ef, Eo in E1. cbn [bind] in E1.
  destruct (fs_write_states _ _ _ _ _ E3) as (A & _). rewrite Forall_forall in A. destruct (A _ Hin) as (k & Hk & ->).
  destruct (listing_right m (Some input) root i HN E1) as [LP LL].
  assert (HU : utf8_path (Some input)).
  { destruct (C43_exact m (Some input) root i HN E1) as (_ & _ & _ & EP). rewrite <- EP.
    unfold bincode_serialize, ser_index in E2. apply bind_ok in E2 as (pb & Ep & _). apply ser_path_ok. eauto. }
  assert (TP : typed_path (Some input)) by (intros s [= <-]; exact HP).
  destruct (C41_indexed m (Some input) root i HN HT TP HU E1) as (b' & Eb & Ed).
  rewrite E2 in Eb. apply ok_inj in Eb. subst b'.
  unfold hfxlst, fs_set in HL. rewrite str_eqb_refl in HL. apply bind_ok in HL as (i' & Ei & HL). apply ok_inj in HL.
  assert (EB : bincode_deserialize (firstn k b) = Ok i').
  { unfold read_index in Ei. rewrite (proj1 H1) in Ei.
    assert (X : match bincode_deserialize (firstn k b) with Err _ => Err EDe | x => x end = Ok i').
    { destruct fo; auto. destruct (HF eq_refl i b (firstn k b) (skipn k b) E2 (eq_sym (firstn_skipn k b))) as (e & E).
      now rewrite E in Ei. }
    destruct (bincode_deserialize (firstn k b)); congruence. }
  destruct (skipn k b) as [|z q] eqn:Es.
  - assert (Eb : firstn k b = b) by (rewrite <- (firstn_skipn k b) at 2; now rewrite Es, app_nil_r).
    rewrite Eb, Ed in EB. apply ok_inj in EB. subst i'. subst out. split; [exact LP|exact LL].
  - exfalso. revert EB. apply (C41_truncated i b (firstn k b) (z :: q)); auto; [|rewrite <- Es; symmetry; apply firstn_skipn|discriminate].
    unfold index_file in E1. apply bind_ok in E1 as (g & Eg & E1). apply ok_inj in E1. subst i.
    split; auto. exact (index_group_typed m (Some input) root [] g HN HT TP Eg).
Qed.
Print Assumptions C53_crash.

(** Builds with flexbuffers, which then is what "any" means: the same if the flexbuffers crate
    reads back what it wrote. *)
Theorem C53_flexbuffers m bo fser fde h5 fs input output ty root b0 r tr :
  (forall i b, fser i = Ok b -> fde b = Ok i) -> ty = text "any" \/ ty = text "flexbuffers" ->
  fs input = Some b0 -> h5 b0 = Ok root -> named root ->
  hfxidx m true bo fser h5 fs input output ty r tr -> r = Ok tt ->
  exists l, hfxlst true bo fde (last tr fs) output = Ok (Some input, l) /\ lists root l.
Proof.
  intros HF Hty Ef Eo HN H HR.
  assert (F : forall A (x : res A), (forall a, x <> Ok a) -> failed x <> Ok tt) by (intros A [] H0; cbn; congruence).
  destruct H as [x E1 E2|i x E1 E2 E3|i b r' tr' E1 E2 E3]; [now apply F in HR..|].
  unfold index_path in E1. rewrite Ef, Eo in E1. cbn [bind] in E1.
  assert (E2' : fser i = Ok b) by (destruct Hty as [-> | ->]; exact E2).
  destruct (fs_write_states _ _ _ _ _ E3) as (_ & L & _). specialize (L HR).
  destruct (listing_right m (Some input) root i HN E1) as [LP LL].
  exists (snd (listing i)). split; auto. unfold hfxlst. rewrite L. unfold read_index. rewrite (HF i b E2').
  cbn [bind]. f_equal. rewrite <- LP. reflexivity.
Qed.
Print Assumptions C53_flexbuffers.

(** A run on the example file, and its listing; a run cut short after 100 bytes. *)
Definition ex_in : str := [47; 116; 47; 100; 46; 104; 53].
Definition ex_out : str := [47; 116; 47; 100; 46; 105; 120].
Definition ex_fs : fsys := fun p => if str_eqb p ex_in then Some [137; 72; 68; 70] else None.
Definition ex_h5_open (_ : byte_str) : res h5group := Ok ex_tree.
Definition no_flex : index -> res byte_str := fun _ => Err EDe.
Definition no_flex_de : byte_str -> res index := fun _ => Err EDe.
Example C53_case m :
  indexes m false true ex_h5_open ex_fs ex_in (text "any") ex_tree /\
  (exists tr, hfxidx m false true no_flex ex_h5_open ex_fs ex_in ex_out (text "any") (Ok tt) tr /\ length tr = 2%nat /\
     hfxlst false true no_flex_de (last tr ex_fs) ex_out = Ok (Some ex_in, [([120], [4; 6])])) /\
  (exists tr, hfxidx m false true no_flex ex_h5_open ex_fs ex_in ex_out (text "any") (Err EIo) tr /\ length tr = 2%nat /\
     hfxlst false true no_flex_de (last tr ex_fs) ex_out = Err EDe) /\
  exists tr, hfxidx m false true no_flex ex_h5_open ex_fs ex_in ex_out (text "flexbuffers") (Err EType) tr.
Proof.
  assert (EI : index_path m ex_h5_open ex_fs ex_in = Ok ex_index) by (destruct m; reflexivity).
  assert (EB : exists b, bincode_serialize ex_index = Ok b /\ (100 < length b)%nat /\ bincode_deserialize b = Ok ex_index /\
                 bincode_deserialize (firstn 100 b) = Err EDe).
  { eexists. split; [vm_compute; reflexivity|]. split; [vm_compute; lia|]. split; vm_compute; reflexivity. }
  destruct EB as (b & EB & HL & ED & EC).
  split; [|split; [|split]].
  - constructor; auto.
    + exists [137; 72; 68; 70]. split; reflexivity.
    + exact ex_tree_named.
    + exact ex_tree_typed.
    + reflexivity.
  - eexists. split; [|split].
    + apply (hi_write m false true no_flex ex_h5_open ex_fs ex_in ex_out (text "any") ex_index b); auto.
      apply fw_write. apply (wa_piece ex_fs ex_out b 0 (length b)); [lia|lia|]. apply wa_done.
    + reflexivity.
    + cbn [last Nat.add]. rewrite firstn_all. unfold hfxlst, fs_set. rewrite str_eqb_refl. unfold read_index. rewrite ED. reflexivity.
  - eexists. split; [|split].
    + apply (hi_write m false true no_flex ex_h5_open ex_fs ex_in ex_out (text "any") ex_index b); auto.
      apply fw_write. apply (wa_piece ex_fs ex_out b 0 100); [lia|lia|]. apply wa_fail.
    + reflexivity.
    + cbn [last Nat.add]. unfold hfxlst, fs_set. rewrite str_eqb_refl. unfold read_index. rewrite EC. reflexivity.
  - eexists. apply (hi_encode m false true no_flex ex_h5_open ex_fs ex_in ex_out (text "flexbuffers") ex_index (Err EType)); auto. discriminate.
Qed.
