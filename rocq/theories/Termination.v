(** * Termination of the chunk-slice iterator, and agreement of the two build modes. *)
From Verif Require Import Base Spec Radix Safe Chunk Extent Dataset Slicer SpecApi
  ChunkProofs DatasetProofs ExtentProofs SlicerProofs SlicerMain SlicerTheorems ApiLemmas.

(** ** Debug: every call advances or panics *)

Ltac debind H :=
  match type of H with bind _ _ = Ok _ =>
    let a := fresh "a" in let E := fresh "E" in apply bind_ok in H as (a & E & H) end.

Lemma adv_loop_debug e rs : forall carry adv soff vis rest k adv' soff',
  adv_loop Debug e rs carry adv soff = Ok (vis, rest, k, adv', soff') ->
  exists d, adv' = adv + d /\ soff' = soff + d.
Proof.
  induction rs as [|[r o] rs IH]; intros carry adv soff vis rest k adv' soff' H; cbn [adv_loop] in H.
  - injection H as <- <- <- <- <-. exists 0. lia.
  - debind H. debind H. destruct (_ && negb _).
    + debind H. debind H. debind H. apply bind_ok in H as ([[[[v1 r1] k1] a1'] f1] & E4 & H).
      injection H as <- <- <- <- <-. eapply IH; eauto.
    + debind H. debind H. debind H. debind H. debind H. debind H. debind H. debind H. debind H. debind H.
      debind H. debind H. debind H.
      apply add64_debug in E9 as [-> _]. apply add64_debug in E10 as [-> _].
      destruct (_ && _ && _).
      * apply bind_ok in H as ([[[[v1 r1] k1] a1'] f1] & EX & H). injection H as <- <- <- <- <-.
        apply IH in EX as (d' & -> & ->). exists (a8 + d'). lia.
      * debind H. injection H as <- <- <- <- <-. exists a8. lia.
Qed.

Lemma next_debug ds st sg st' :
  slicer_next Debug ds st = Ok (Some (sg, st')) ->
  s_offset st < s_end st /\ s_offset st < s_offset st' /\ s_end st' = s_end st /\
  (snd (fst sg) < snd sg).
Proof.
  unfold slicer_next. destruct (N.leb_spec (s_end st) (s_offset st)); [discriminate|].
  destruct (is_scalar ds).
  - intros H'. debind H'. debind H'. apply add64_debug in E0 as [-> _].
    destruct (d_chunks ds); [discriminate|]. injection H' as <- <-. cbn [s_offset s_end fst snd]. lia.
  - intros H'. debind H'. debind H'. debind H'. debind H'.
    apply bind_ok in H' as ([[[[v1 r1] k1] adv] soff] & E3 & H').
    apply adv_loop_debug in E3 as (d & -> & ->).
    debind H'. debind H'. debind H'. debind H'. injection H' as <- <-. cbn [s_offset s_end fst snd].
    rewrite N.add_0_l in *.
    assert (0 < d).
    { unfold dbg in E4. destruct (N.ltb_spec 0 d); [auto|discriminate]. }
    apply add64_debug in E5 as [-> _]. lia.
Qed.

(** In a debug build, iterating any selection of any dataset ends (or panics) after at
    most [s_end] segments. *)
Lemma run_debug ds : forall n st fuel,
  s_end st <= s_offset st + N.of_nat n -> (n < fuel)%nat ->
  snd (slicer_run Debug fuel ds st) <> SFuel /\
  (length (fst (slicer_run Debug fuel ds st)) <= n)%nat.
Proof.
  induction n as [|n IH]; intros st [|fuel] Hb Hf; try lia; cbn [slicer_run].
  - destruct (slicer_next Debug ds st) as [[[sg st']|]| | | |] eqn:E; cbn [fst snd length]; try (split; [discriminate|lia]).
    apply next_debug in E. lia.
  - destruct (slicer_next Debug ds st) as [[[sg st']|]| | | |] eqn:E; cbn [fst snd length]; try (split; [discriminate|lia]).
    apply next_debug in E as (A & B & C & _).
    specialize (IH st' fuel ltac:(lia) ltac:(lia)).
    destruct (slicer_run Debug fuel ds st') as [l s]. cbn [fst snd length] in *. split; [tauto|lia].
Qed.

Lemma slicer_new_debug ds idx cnt st :
  slicer_new Debug ds idx cnt = Ok st -> s_offset st = 0 /\ s_end st <= N.max 1 (prodN cnt).
Proof.
  unfold slicer_new. intros H. debind H. debind H. debind H. debind H. debind H. injection H as <-.
  cbn [s_offset s_end]. split; auto. destruct (is_scalar ds).
  - debind E. injection E as <-. lia.
  - unfold product64 in E. apply product64_from_debug in E as ->. lia.
Qed.

Lemma slices_debug ds e fuel :
  (forall idx cnt, get_start_count e (d_shape ds) = Ok (idx, cnt) ->
     (N.to_nat (N.max 1 (prodN cnt)) < fuel)%nat) -> (0 < fuel)%nat ->
  snd (chunk_slices Debug fuel ds e) <> SFuel /\
  (forall idx cnt, get_start_count e (d_shape ds) = Ok (idx, cnt) ->
     lenN (fst (chunk_slices Debug fuel ds e)) <= prodN cnt).
Proof.
  intros Hf Hf0. unfold chunk_slices.
  destruct (chunk_slicer Debug ds e) as [st| | | |] eqn:E; try (split; [discriminate|]; cbn; lia).
  unfold chunk_slicer in E. apply bind_ok in E as ([idx cnt] & E1 & E).
  assert (E1' : get_start_count e (d_shape ds) = Ok (idx, cnt)).
  { destruct (get_start_count e (d_shape ds)); cbn [unwrap] in E1; congruence. }
  specialize (Hf _ _ E1'). debind E.
  destruct (a || existsb (fun c => c =? 0) cnt) eqn:Eo.
  - injection E as <-. rewrite empty_run by auto. split; [discriminate|]. intros; cbn; lia.
  - apply orb_false_iff in Eo as [_ Hz].
    assert (HP : 1 <= prodN cnt).
    { assert (0 < prodN cnt); [|lia]. apply prodN_pos, Forall_forall. intros x Hx.
      destruct (N.eq_dec x 0) as [->|]; [|lia].
      assert (existsb (fun c => c =? 0) cnt = true) by (apply existsb_exists; exists 0; auto). congruence. }
    apply slicer_new_debug in E as [O B].
    destruct (run_debug ds (N.to_nat (prodN cnt)) st fuel) as [A C]; try lia.
    split; auto. intros i c Ei. rewrite E1' in Ei. injection Ei as <- <-. unfold lenN. lia.
Qed.

(** ** Debug refines Release: what succeeds with checks gives the same without *)

Definition refines {A} (x y : res A) : Prop := forall a, x = Ok a -> y = Ok a.

Lemma refines_refl {A} (x : res A) : refines x x. Proof. intros a; auto. Qed.
Lemma refines_bind {A B} (x y : res A) (f g : A -> res B) :
  refines x y -> (forall a, refines (f a) (g a)) -> refines (bind x f) (bind y g).
Proof.
  intros H1 H2 b E. apply bind_ok in E as (a & E1 & E2). rewrite (H1 a E1). cbn [bind]. now apply H2.
Qed.
Lemma refines_add a b : refines (add64 Debug a b) (add64 Release a b).
Proof. intros r H. apply add64_debug in H as [-> H]. now rewrite add64_ok. Qed.
Lemma refines_sub a b : refines (sub64 Debug a b) (sub64 Release a b).
Proof. intros r H. apply sub64_debug in H as [-> H]. now rewrite sub64_ok. Qed.
Lemma refines_mul a b : refines (mul64 Debug a b) (mul64 Release a b).
Proof. intros r H. apply mul64_debug in H as [-> H]. now rewrite mul64_ok. Qed.
Lemma refines_dbg b : refines (dbg Debug b) (dbg Release b).
Proof. intros r H. destruct r. reflexivity. Qed.
Lemma refines_dbg_res x y : refines (dbg_res Debug x) (dbg_res Release y).
Proof. intros r H. destruct r. reflexivity. Qed.

Local Hint Resolve refines_refl refines_add refines_sub refines_mul refines_dbg refines_dbg_res : ref.
Ltac ref := repeat (apply refines_bind; [auto with ref|intros]); auto with ref.

Lemma refines_product l : forall acc, refines (product64_from Debug acc l) (product64_from Release acc l).
Proof. induction l as [|x l IH]; intros acc; cbn [product64_from]; ref. Qed.
Lemma refines_adv e rs : forall carry adv soff,
  refines (adv_loop Debug e rs carry adv soff) (adv_loop Release e rs carry adv soff).
Proof.
  induction rs as [|[r o] rs IH]; intros carry adv soff; cbn [adv_loop]; [ref|].
  apply refines_bind; [ref|]. intros cde. apply refines_bind; [destruct (_ <? _); ref|].
  intros c'. destruct (_ && negb _).
  - do 3 (apply refines_bind; [ref|intros]). apply refines_bind; [apply IH|].
    intros [[[[? ?] ?] ?] ?]. ref.
  - do 13 (apply refines_bind; [ref|intros]). destruct (_ && _ && _).
    + apply refines_bind; [apply IH|]. intros [[[[? ?] ?] ?] ?]. ref.
    + ref.
Qed.
Lemma refines_carry rs : forall k, refines (carry_loop Debug rs k) (carry_loop Release rs k).
Proof.
  induction rs as [|[r o] rs IH]; intros k; cbn [carry_loop]; [ref|].
  do 3 (apply refines_bind; [ref|intros]). destruct (_ =? 0); ref.
Qed.
Lemma refines_addl a : forall b, refines (add_lists Debug a b) (add_lists Release a b).
Proof. induction a as [|x a IH]; intros [|y b]; cbn [add_lists]; ref. Qed.
Lemma refines_coord idx : forall acc cs sz,
  refines (coord_fold Debug acc idx cs sz) (coord_fold Release acc idx cs sz).
Proof. induction idx as [|x idx IH]; intros acc [|c cs] [|z sz]; cbn [coord_fold]; ref. Qed.
Lemma refines_cstart x : forall acc o z,
  refines (chunk_start Debug acc x o z) (chunk_start Release acc x o z).
Proof. induction x as [|v x IH]; intros acc [|o os] [|z zs]; cbn [chunk_start]; ref. Qed.
Lemma refines_lookup ds x : refines (chunk_at_coord Debug ds x) (chunk_at_coord Release ds x).
Proof.
  unfold chunk_at_coord. do 2 (apply refines_bind; [ref|intros]).
  apply refines_bind; [apply refines_coord|intros]. ref.
Qed.
Lemma refines_next ds st : refines (slicer_next Debug ds st) (slicer_next Release ds st).
Proof.
  unfold slicer_next. destruct (_ <=? _); [ref|]. destruct (is_scalar ds).
  - do 2 (apply refines_bind; [ref|intros]). ref.
  - apply refines_bind; [apply refines_addl|intros start].
    apply refines_bind; [apply refines_lookup|intros ch].
    apply refines_bind; [ref|intros _].
    apply refines_bind; [apply refines_cstart|intros cs].
    apply refines_bind; [apply refines_adv|intros [[[[? ?] ?] ?] ?]].
    apply refines_bind; [apply refines_carry|intros]. ref.
Qed.
Lemma refines_oob idx : forall cnt shape, refines (any_oob Debug idx cnt shape) (any_oob Release idx cnt shape).
Proof.
  induction idx as [|i idx IH]; intros [|n cnt] [|s shape]; cbn [any_oob]; ref. destruct (_ <? _); ref.
Qed.
Lemma refines_slicer ds e : refines (chunk_slicer Debug ds e) (chunk_slicer Release ds e).
Proof.
  unfold chunk_slicer. apply refines_bind; [ref|intros [idx cnt]].
  apply refines_bind; [apply refines_oob|intros oob]. destruct (oob || _); [ref|].
  unfold slicer_new. apply refines_bind; [|intros; ref].
  destruct (is_scalar ds); [ref|apply refines_product].
Qed.

Lemma run_refines ds : forall fuel st segs,
  slicer_run Debug fuel ds st = (segs, SDone) -> slicer_run Release fuel ds st = (segs, SDone).
Proof.
  induction fuel as [|fuel IH]; intros st segs H; cbn [slicer_run] in *; [discriminate|].
  pose proof (refines_next ds st) as R.
  destruct (slicer_next Debug ds st) as [[[sg st']|]| | | |] eqn:E; try discriminate.
  - rewrite (R _ eq_refl). destruct (slicer_run Debug fuel ds st') as [l s] eqn:El.
    injection H as <- ->. now rewrite (IH _ _ El).
  - rewrite (R _ eq_refl). exact H.
Qed.

Lemma slices_refine ds e fuel segs :
  chunk_slices Debug fuel ds e = (segs, SDone) -> chunk_slices Release fuel ds e = (segs, SDone).
Proof.
  unfold chunk_slices. pose proof (refines_slicer ds e) as R.
  destruct (chunk_slicer Debug ds e) as [st| | | |]; try discriminate.
  rewrite (R _ eq_refl). apply run_refines.
Qed.

(** ** Release: a selection on which the iteration never ends *)

(** A 2 x 5 x 1 x 1 dataset in chunks of 1 x 2 x 6 x 1. *)
Definition loop_ds : dataset :=
  mkDataset (Int 4) 4 LE
    [mkChunk 100 48 [0;0;0;0]; mkChunk 200 48 [0;2;0;0]; mkChunk 300 48 [0;4;0;0];
     mkChunk 400 48 [1;0;0;0]; mkChunk 500 48 [1;2;0;0]; mkChunk 600 48 [1;4;0;0]]
    [2;5;1;1] [1;2;6;1] [1;2;6;1] [3;1;1;1] [5;1;1;1] [12;6;1;1] false None.

Lemma loop_full : full_dataset loop_ds.
Proof.
  constructor; [constructor|..]; try reflexivity.
  - repeat constructor.
  - repeat split; repeat constructor.
Qed.

Definition loop_state : slicer := mkSlicer 2 [0;2;0;0] [0;0;0;0] [2;5;1;1] 10.

Lemma run_step m ds fuel st sg st' :
  slicer_next m ds st = Ok (Some (sg, st')) ->
  snd (slicer_run m (S fuel) ds st) = snd (slicer_run m fuel ds st').
Proof. intros H. cbn [slicer_run]. rewrite H. now destruct (slicer_run m fuel ds st'). Qed.

Lemma loop_cycle : forall k fuel, (fuel < 6 * k)%nat ->
  snd (slicer_run Release fuel loop_ds loop_state) = SFuel.
Proof.
  induction k as [|k IH]; intros fuel Hf; [lia|].
  destruct fuel as [|fuel]; [reflexivity|].
  erewrite run_step by (vm_compute; reflexivity).
  destruct fuel as [|fuel]; [reflexivity|]. erewrite run_step by (vm_compute; reflexivity).
  destruct fuel as [|fuel]; [reflexivity|]. erewrite run_step by (vm_compute; reflexivity).
  destruct fuel as [|fuel]; [reflexivity|]. erewrite run_step by (vm_compute; reflexivity).
  destruct fuel as [|fuel]; [reflexivity|]. erewrite run_step by (vm_compute; reflexivity).
  destruct fuel as [|fuel]; [reflexivity|]. erewrite run_step by (vm_compute; reflexivity).
  apply (IH fuel). lia.
Qed.

Lemma release_loops : forall fuel, snd (chunk_slices Release fuel loop_ds All) = SFuel.
Proof.
  intros fuel. unfold chunk_slices.
  replace (chunk_slicer Release loop_ds All) with (Ok (mkSlicer 0 [0;0;0;0] [0;0;0;0] [2;5;1;1] 10))
    by (vm_compute; reflexivity).
  destruct fuel as [|fuel]; [reflexivity|]. erewrite run_step by (vm_compute; reflexivity).
  apply (loop_cycle (S fuel)). lia.
Qed.
