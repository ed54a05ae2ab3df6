(** * Further theorems: repeated keys in a serialized index (C41), the n-dimensional typed
      parallel read (C47).

    Each theorem is followed by a concrete case meeting its hypotheses. *)
From Verif Require Import Base Spec Safe Chunk Extent Dataset Slicer SpecApi Filters SpecFilter FilterProofs
  Reader SpecReader ParProofs ReaderProps ReadProofs ExamplesReader Properties4 Properties5
  IndexTree Serde SpecSerde SpecTree SerdeProofs SerdeTyped TreeProofs Examples Properties7.

(** ** C41 *)

Lemma hget_hput {A} k (v : A) h k' :
  hget k' (hput k v h) = if str_eqb k' k then Some v else hget k' h.
Proof.
  induction h as [|[k0 v0] h IH]; cbn [hput hget].
  - destruct (str_eqb k' k); reflexivity.
  - destruct (str_eqb k k0) eqn:E; cbn [hget].
    + apply str_eqb_spec in E. subst k0. destruct (str_eqb k' k); reflexivity.
    + rewrite IH. destruct (str_eqb k' k0) eqn:E0; auto. destruct (str_eqb k' k) eqn:E1; auto.
      apply str_eqb_spec in E0, E1. subst. now rewrite str_eqb_refl in E.
Qed.

Lemma hget_collect {A} (l : list (str * A)) : forall h k,
  hget k (fold_left (fun h kv => hput (fst kv) (snd kv) h) l h) =
  match find (fun kv => str_eqb k (fst kv)) (rev l) with Some kv => Some (snd kv) | None => hget k h end.
Proof.
  induction l as [|[k0 v0] l IH]; intros h k; cbn [fold_left rev find]; [reflexivity|].
  rewrite IH. cbn [fst snd].
  assert (F : forall l1 l2 : list (str * A), find (fun kv => str_eqb k (fst kv)) (l1 ++ l2) =
     match find (fun kv => str_eqb k (fst kv)) l1 with Some x => Some x | None => find (fun kv => str_eqb k (fst kv)) l2 end).
  { intros l1 l2. induction l1 as [|x l1 IHl]; cbn [app find]; auto. destruct (str_eqb k (fst x)); auto. }
  rewrite F. destruct (find _ (rev l)) as [kv|]; [reflexivity|]. cbn [find fst]. rewrite hget_hput.
  destruct (str_eqb k k0); reflexivity.
Qed.

(** A serialized index whose map of datasets repeats keys (no writer makes one, but a file
    can hold it) loads, and each name gives the last dataset stored under it. *)
Theorem C41_repeated_key (l : list (str * dataset)) :
  Forall (fun kv => typed_string (fst kv) /\ exists D, typed_dataset D (snd kv)) l -> lenN l < W64 ->
  exists i,
    bincode_deserialize ([0; 0] ++ ser_seq (fun kv => ser_bytes (fst kv) ++ ser_datasetd (snd kv)) l ++ ser_u64 0) = Ok i /\
    forall k, slash_free k ->
      (forall d, gi_dataset (i_root i) k = Some d <->
         exists l1 l2, l = l1 ++ (k, d) :: l2 /\ ~ In k (map fst l2)).
Proof.
  intros HT HL. exists (mkIndex None (mkGroup None (hcollect l) [])). split.
  - unfold bincode_deserialize. set (b := _ ++ _). 
    assert (E : de_index (S (length b)) b = Ok (mkIndex None (mkGroup None (hcollect l) []), [])).
    { unfold de_index. unfold b. change ([0; 0] ++ ?x) with (ser_option (fun z : str => z) None ++ ser_option (fun z : str => z) None ++ x).
      rewrite (option_goes de_string _ None) by discriminate. cbn [bind].
      cbn [de_group]. rewrite (option_goes de_string _ None) by discriminate. cbn [bind].
      assert (HFl : Forall (fun x : list N * dataset => goes (fun b => let* (k, r) := de_string b in
                  let* (v, r') := de_datasetd r in Ok (k, v, r')) (ser_bytes (fst x) ++ ser_datasetd (snd x)) x) l).
      { apply Forall_forall. intros [k d] Hkd r. pose proof (proj1 (Forall_forall _ _) HT _ Hkd) as [H1 (D & H2)].
        cbn [fst snd] in *. rewrite <- app_assoc, string_goes by auto. cbn [bind].
        now rewrite (datasetd_goes D d H2). }
      unfold de_map at 1. rewrite (seq_goes _ _ l HL HFl). reflexivity. }
    rewrite E. reflexivity.
  - intros k Hk d. cbn [i_root]. unfold gi_dataset.
    assert (Et : trim_start k = k).
    { destruct k as [|x k]; [reflexivity|]. cbn [trim_start]. destruct (N.eqb_spec x SLASH) as [->|]; [|reflexivity].
      exfalso. apply Hk. now left. }
    rewrite Et, split_one by auto. cbn [rev app walk gi_datasets]. unfold hcollect. rewrite hget_collect. cbn [hget].
    clear HT HL. rewrite <- (rev_involutive l). generalize (rev l) as q. clear l. intros q. rewrite rev_involutive.
    induction q as [|[k0 d0] q IH]; cbn [find rev fst].
    + split; [discriminate|]. intros (l1 & l2 & E & _). destruct l1; discriminate.
    + destruct (str_eqb k k0) eqn:E.
      * apply str_eqb_spec in E. subst k0. cbn [snd]. split.
        -- intros [= ->]. exists (rev q), []. split; auto.
        -- intros (l1 & l2 & E & H). destruct l2 as [|x l2 _] using rev_ind.
           ++ apply app_inj_tail in E as [_ E]. congruence.
           ++ exfalso. apply H. rewrite app_comm_cons, app_assoc in E. apply app_inj_tail in E as [_ <-].
              rewrite map_app. apply in_app_iff. right. now left.
      * rewrite IH. split; intros (l1 & l2 & Eq & H).
        -- exists l1, (l2 ++ [(k0, d0)]). rewrite Eq, <- app_assoc. split; [reflexivity|].
           rewrite map_app. intros [Hi|[Hi|[]]]%in_app_iff; auto. cbn in Hi. subst k0. now rewrite str_eqb_refl in E.
        -- destruct l2 as [|x l2 _] using rev_ind.
           ++ apply app_inj_tail in Eq as [_ Eq]. injection Eq as -> _. now rewrite str_eqb_refl in E.
           ++ rewrite app_comm_cons, app_assoc in Eq. apply app_inj_tail in Eq as [Eq _]. exists l1, l2. split; auto.
              intros Hi. apply H. rewrite map_app. apply in_app_iff. auto.
Qed.
Print Assumptions C41_repeated_key.

Example C41_repeated_case : Forall (fun kv => typed_string (fst kv) /\ exists D, typed_dataset D (snd kv))
    [([120], ex_ds); ([121], ex_ds); ([120], ex_ds)] /\
  ~ NoDup (map fst [([120], ex_ds); ([121], ex_ds); ([120], ex_ds)]).
Proof.
  split.
  - assert (HX : exists D, typed_dataset D ex_ds) by (exists 2%nat; apply (C39_case Debug)).
    repeat constructor; auto.
  - intros H. inversion H as [|? ? H1 H2]; subst. apply H1. right. now left.
Qed.

(** ** C47 *)

(** [values_dyn_par] for a T of the element size and a safe selection, with the parallel
    reader: whatever the new array held and whatever the schedule ([read] returns an outcome
    of some schedule), the array has the selected counts as its shape and holds the selected
    values in row-major order and the host's byte order. *)
Theorem C47_dyn_partial m h inflate sort fuel ds file value e idx cnt k w al read garbage rd :
  addr_sort sort -> stores inflate file ds value -> direct_new m ds (Some file) = Ok rd ->
  safe_read ds e idx cnt (garbage (prodN cnt * d_dsize ds)) fuel ->
  (forall n, lenN (garbage n) = n) ->
  d_dsize ds = N.of_nat w -> 0 < al -> N.of_nat w mod al = 0 ->
  d_dsize ds * prodN cnt < W64 -> fits64_lead cnt ->
  (let dst := garbage (prodN cnt * d_dsize ds) in
   par_read m inflate sort fuel rd e dst (fst (read e dst)) (snd (read e dst))) ->
  values_dyn_par m h k w al ds read garbage e =
    Ok (cnt, to_native_slice h k w (d_order ds) (concat (map value (slab idx cnt)))) /\
  lenN (concat (map value (slab idx cnt))) = prodN cnt * N.of_nat w.
Proof.
  intros HSort HS ED SR HGar Hw Hal Hwal HW HFL HRd.
  pose proof SR as [HFull HReg HG HIn HSafe HCap HLen HFuel].
  assert (EC : exists rc, cache_new m ds file = Ok rc).
  { unfold cache_new. rewrite (chunk_bytes_ok m ds (wm_pos _ (fd_made _ HFull)) (rg_sizes _ HReg)). cbn [bind].
    unfold cache_cap, div64. assert (HC : 0 < csize ds).
    { unfold csize. pose proof (prodN_pos _ (wm_pos _ (fd_made _ HFull))). pose proof (ss_pos _ (rg_sizes _ HReg)). nia. }
    unfold csize in HC. rewrite (proj2 (N.eqb_neq (prodN (d_chunk_shape ds) * d_dsize ds) 0)) by lia. cbn [bind]. eauto. }
  destruct EC as [rc EC]. assert (RC : reachable m inflate ds file rc) by (now constructor).
  set (n := prodN cnt * d_dsize ds) in *.
  destruct (C21_cached_partial m inflate file ds value e idx cnt (garbage n) fuel rc HS SR RC) as [CR CL].
  assert (HA : same_addr ds) by apply HReg.
  assert (Hd : 0 < d_dsize ds) by apply HReg.
  pose proof CR as DR. apply (C24_agree m inflate sort fuel ds file rc rd e (garbage n)) in DR; auto.
  destruct (C25_schedules m inflate sort fuel ds file rd e (garbage n) HSort HA Hd HLen ED) as (_ & _ & _ & S).
  specialize (S _ _ DR _ _ HRd).
  assert (ET : skipn (N.to_nat (prodN cnt * d_dsize ds)) (garbage n) = []).
  { apply skipn_all2. specialize (HGar n). unfold lenN in HGar. unfold n in *. lia. }
  rewrite ET, app_nil_r in S. split; [|rewrite <- Hw; exact CL].
  unfold values_dyn_par. rewrite (counts_of _ _ _ _ HG). cbn [bind].
  rewrite product64_lead by auto. cbn [bind].
  assert (Hn : prodN cnt * d_dsize ds < W64) by lia. rewrite mul64_ok by auto. cbn [bind].
  unfold div64, rem64. destruct (N.eqb_spec (N.of_nat w) 0) as [?|_]; [lia|]. cbn [bind].
  unfold ensure. assert (Hs : d_dsize ds mod N.of_nat w = 0) by (rewrite Hw; apply N.mod_same; lia).
  rewrite Hs. cbn [N.eqb bind].
  assert (Hq : prodN cnt * d_dsize ds / N.of_nat w = prodN cnt) by (rewrite Hw; apply N.div_mul; lia).
  rewrite Hq. rewrite mul64_ok by auto. cbn [bind]. destruct (N.eqb_spec al 0); [lia|]. cbn [bind].
  assert (Hm : (d_dsize ds * prodN cnt) mod al = 0).
  { apply N.mod_divide; [lia|]. apply N.divide_mul_l. rewrite Hw. apply N.mod_divide; auto; lia. }
  rewrite Hm, N.eqb_refl. cbn [bind]. rewrite <- Hw. fold n. unfold values_to.
  destruct (read e (garbage n)) as [x d]. cbn [fst snd] in S. destruct S as [-> ->]. reflexivity.
Qed.
Print Assumptions C47_dyn_partial.
Example C47_dyn_right_case m :
  direct_new m st_ds (Some st_file) = Ok (mkDirect st_ds (Some st_file) 12) /\
  safe_read st_ds st_sel [1; 2] [3; 4] (repeat 77 24) 13 /\ d_dsize st_ds = N.of_nat 2 /\
  stores toy_inflate st_file st_ds st_value /\
  (exists read : read_fn, par_read m toy_inflate sort_by_addr 13 (mkDirect st_ds (Some st_file) 12) st_sel (repeat 77 24)
      (fst (read st_sel (repeat 77 24))) (snd (read st_sel (repeat 77 24)))) /\
  values_dyn_par m HostLE KInt 2 2 st_ds (direct_read m toy_inflate sort_by_addr 13 (mkDirect st_ds (Some st_file) 12))
    (fun n => repeat 77 (N.to_nat n)) st_sel = Ok ([3; 4], concat (map st_value (slab [1; 2] [3; 4]))).
Proof.
  split; [destruct m; reflexivity|]. split; [apply st_safe; [vm_compute; discriminate|reflexivity|lia]|].
  split; [reflexivity|]. split; [exact st_stores|]. split; [|destruct m; vm_compute; reflexivity].
  destruct (par_read_total m toy_inflate sort_by_addr 13 (mkDirect st_ds (Some st_file) 12) st_sel (repeat 77 24)) as (x & d & H).
  exists (fun _ _ => (x, d)). exact H.
Qed.
