(** * Proofs about paths and indexing of trees (C42, C43). *)
From Verif Require Import Base Chunk Dataset IndexTree Serde SpecSerde SpecTree SerdeProofs SerdeTyped.

(** ** Maps *)

Lemma hget_in {A} k (v : A) h : NoDup (map fst h) -> (hget k h = Some v <-> In (k, v) h).
Proof.
  induction h as [|[k0 v0] h IH]; cbn [map fst hget In]; intros H; [split; [discriminate|easy]|].
  inversion H as [|? ? H1 H2]; subst. destruct (str_eqb k k0) eqn:E.
  - apply str_eqb_spec in E. subst k0. split.
    + intros [= ->]. auto.
    + intros [[= ->]|Hin]; auto. exfalso. apply H1. apply in_map_iff. exists (k, v). auto.
  - rewrite IH by auto. split; auto. intros [[= -> ->]|Hin]; auto. now rewrite str_eqb_refl in E.
Qed.
Lemma keyed_inv g : keyed g -> NoDup (map fst (gi_datasets g)) /\ NoDup (map fst (gi_groups g)) /\
  forall k g', In (k, g') (gi_groups g) -> keyed g'.
Proof.
  intros H. inversion H as [p ds gs H1 H2 H3]; subst. cbn [gi_datasets gi_groups]. repeat split; auto.
  intros k g' Hin. rewrite Forall_forall in H3. exact (H3 _ Hin).
Qed.
Lemma walk_spec cs : forall g g', keyed g -> (walk g cs = Some g' <-> in_group g cs g').
Proof.
  induction cs as [|c cs IH]; intros g g' K; cbn [walk].
  - split; [intros [= ->]; constructor|]. intros H. now inversion H.
  - destruct (keyed_inv g K) as (_ & K2 & K3). split.
    + destruct (hget c (gi_groups g)) as [g1|] eqn:E; [|discriminate]. intros H.
      apply hget_in in E; auto. econstructor; [exact E|]. apply IH; eauto.
    + intros H. inversion H as [|? ? g1 ? ? Hin Hg]; subst. apply hget_in in Hin as Hin'; auto. rewrite Hin'.
      apply IH; eauto.
Qed.

(** ** Splitting *)

Lemma split_nonempty s : exists p ps, split_slash s = p :: ps.
Proof.
  induction s as [|b s (p & ps & IH)]; cbn [split_slash]; [eauto|].
  destruct (b =? SLASH); [eauto|]. rewrite IH. eauto.
Qed.
Lemma split_app c s : slash_free c -> split_slash (c ++ SLASH :: s) = c :: split_slash s.
Proof.
  induction c as [|b c IH]; intros H; cbn [app split_slash].
  - now rewrite N.eqb_refl.
  - rewrite (proj2 (N.eqb_neq b SLASH)) by (intros ->; apply H; now left).
    rewrite IH by (intros ?; apply H; now right). reflexivity.
Qed.
Lemma split_one c : slash_free c -> split_slash c = [c].
Proof.
  induction c as [|b c IH]; intros H; cbn [split_slash]; [reflexivity|].
  rewrite (proj2 (N.eqb_neq b SLASH)) by (intros ->; apply H; now left).
  rewrite IH by (intros ?; apply H; now right). reflexivity.
Qed.
Lemma split_joined cs : cs <> [] -> Forall slash_free cs -> split_slash (joined cs) = cs.
Proof.
  induction cs as [|c cs IH]; intros Hne HF; [contradiction|]. inversion HF as [|? ? H1 H2]; subst.
  destruct cs as [|c2 cs]; cbn [joined]; [now apply split_one|].
  change (split_slash (c ++ SLASH :: joined (c2 :: cs)) = c :: c2 :: cs). rewrite split_app by auto.
  now rewrite IH.
Qed.
Lemma joined_split s : joined (split_slash s) = s /\ Forall slash_free (split_slash s).
Proof.
  induction s as [|b s [IH1 IH2]]; cbn [split_slash]; [split; [reflexivity|repeat constructor; easy]|].
  destruct (split_nonempty s) as (p & ps & E). rewrite E in *. destruct (N.eqb_spec b SLASH) as [->|Hb].
  - split.
    + change (joined ([] :: p :: ps)) with ([] ++ SLASH :: joined (p :: ps)). now rewrite IH1.
    + constructor; auto. easy.
  - inversion IH2 as [|? ? H1 H2]; subst. split.
    + destruct ps as [|p2 ps]; cbn [joined app] in *; f_equal; auto.
    + constructor; auto. intros [?|?]; [congruence|contradiction].
Qed.
Lemma trim_slashes k s : (forall b s', s = b :: s' -> b <> SLASH) -> trim_start (slashes k ++ s) = s.
Proof.
  intros H. unfold slashes. induction k as [|k IH]; cbn [repeat app].
  - destruct s as [|b s]; cbn [trim_start]; auto. rewrite (proj2 (N.eqb_neq b SLASH)); auto. eapply H; reflexivity.
  - cbn [trim_start]. now rewrite N.eqb_refl.
Qed.
Lemma trim_start_split s : exists k, s = slashes k ++ trim_start s /\ forall b s', trim_start s = b :: s' -> b <> SLASH.
Proof.
  induction s as [|b s (k & IH1 & IH2)]; cbn [trim_start].
  - exists 0%nat. split; [reflexivity|discriminate].
  - destruct (N.eqb_spec b SLASH) as [->|Hb].
    + exists (S k). split; auto. cbn [slashes repeat app]. now f_equal.
    + exists 0%nat. split; [reflexivity|]. now intros ? ? [= <- <-].
Qed.
Lemma rev_slashes k : rev (slashes k) = slashes k.
Proof.
  unfold slashes. induction k as [|k IH]; cbn [repeat rev]; auto. rewrite IH.
  clear IH. induction k as [|k IH]; cbn [repeat app]; auto. now f_equal.
Qed.
Lemma trim_end_slashes k s : (forall b s', s = s' ++ [b] -> b <> SLASH) -> trim_end (s ++ slashes k) = s.
Proof.
  intros H. unfold trim_end. rewrite rev_app_distr, rev_slashes, trim_slashes, rev_involutive; auto.
  intros b s' E. apply (H b (rev s')). rewrite <- (rev_involutive s), E. reflexivity.
Qed.

(** The first byte of a joined path. *)
Lemma joined_head cs : Forall slash_free cs -> hd [] cs <> [] \/ (length cs <= 1)%nat ->
  forall b s, joined cs = b :: s -> b <> SLASH.
Proof.
  intros HF HH b s E. destruct cs as [|c cs]; [discriminate|]. inversion HF as [|? ? H1 H2]; subst.
  destruct c as [|b0 c].
  - destruct HH as [HH|HH]; [now cbn [hd] in HH|]. destruct cs; [discriminate|cbn [length] in HH; lia].
  - assert (b0 = b) as <-.
    { destruct cs; cbn [joined app] in E; congruence. }
    intros ->. apply H1. now left.
Qed.
Lemma joined_snoc cs c : cs <> [] -> joined (cs ++ [c]) = joined cs ++ SLASH :: c.
Proof.
  induction cs as [|a cs IH]; intros H; [contradiction|]. destruct cs as [|a2 cs]; [reflexivity|].
  change (joined ((a :: a2 :: cs) ++ [c])) with (a ++ SLASH :: joined ((a2 :: cs) ++ [c])).
  rewrite IH by discriminate. change (joined (a :: a2 :: cs)) with (a ++ SLASH :: joined (a2 :: cs)).
  rewrite <- app_assoc. reflexivity.
Qed.
Lemma joined_last cs : Forall slash_free cs -> last cs [] <> [] \/ (length cs <= 1)%nat ->
  forall b s, joined cs = s ++ [b] -> b <> SLASH.
Proof.
  intros HF HH b s E. destruct (@exists_last _ cs) as (cs' & c & ->).
  { intros ->. cbn [joined] in E. destruct s; discriminate. }
  apply Forall_app in HF as [HF1 HF2]. inversion HF2 as [|? ? Hc _]; subst.
  rewrite last_last in HH. rewrite app_length in HH. cbn [length] in HH.
  destruct c as [|b0 c0] eqn:Ec.
  - destruct HH as [HH|HH]; [contradiction|]. destruct cs' as [|a cs']; [|cbn [length] in HH; lia].
    cbn [app joined] in E. destruct s; discriminate.
  - rewrite <- Ec in *. assert (HL : exists t, joined (cs' ++ [c]) = t ++ c).
    { destruct cs' as [|a cs']; [exists []; reflexivity|]. exists (joined (a :: cs') ++ [SLASH]).
      rewrite joined_snoc by discriminate. now rewrite <- app_assoc. }
    destruct HL as (t & Et). rewrite Et in E. destruct (@exists_last _ c) as (c' & z & Ez); [now rewrite Ec|].
    rewrite Ez, app_assoc in E. apply app_inj_tail in E as [_ ->]. intros ->. apply Hc. rewrite Ez. apply in_app_iff. right. now left.
Qed.

(** ** C42 *)

Lemma dataset_spec g k gs x d : keyed g -> Forall slash_free (gs ++ [x]) -> (gs = [] \/ hd [] gs <> []) ->
  (gi_dataset g (slashes k ++ joined (gs ++ [x])) = Some d <->
   exists g', in_group g gs g' /\ In (x, d) (gi_datasets g')).
Proof.
  intros K HF HH. unfold gi_dataset. rewrite trim_slashes.
  2:{ apply joined_head; auto. destruct HH as [->|HH]; [right; cbn; lia|]. left. destruct gs; [contradiction|auto]. }
  rewrite split_joined by (auto; now destruct gs). rewrite rev_app_distr. cbn [rev app]. rewrite rev_involutive.
  split.
  - destruct (walk g gs) as [g'|] eqn:E; [|discriminate]. apply walk_spec in E; auto. intros H. exists g'. split; auto.
    apply hget_in in H; auto. clear -K E. induction E as [g|g c g1 cs g' Hin Hg IH]; [apply keyed_inv in K; apply K|].
    apply IH. destruct (keyed_inv _ K) as (_ & _ & K3). eauto.
  - intros (g' & Hg & Hin). apply walk_spec in Hg as Hw; auto. rewrite Hw. apply hget_in; auto.
    clear -K Hg. induction Hg as [g|g c g1 cs g' Hin Hg IH]; [apply keyed_inv in K; apply K|].
    apply IH. destruct (keyed_inv _ K) as (_ & _ & K3). eauto.
Qed.
Lemma group_spec g k j cs g' : keyed g -> cs <> [] -> Forall slash_free cs ->
  (cs = [[]] \/ (hd [] cs <> [] /\ last cs [] <> [])) ->
  (gi_group g (slashes k ++ joined cs ++ slashes j) = Some g' <-> in_group g cs g').
Proof.
  intros K Hne HF HH. unfold gi_group.
  assert (E : trim_end (trim_start (slashes k ++ joined cs ++ slashes j)) = joined cs).
  { destruct HH as [->|[H1 H2]].
    - cbn [joined app]. replace (slashes k ++ slashes j) with (slashes (k + j) ++ []) by (unfold slashes; rewrite app_nil_r; apply repeat_app).
      rewrite trim_slashes by discriminate. reflexivity.
    - rewrite trim_slashes.
      + apply trim_end_slashes. apply joined_last; auto.
      + intros b s E. destruct (joined cs) as [|b0 s0] eqn:Ej.
        * exfalso. destruct cs as [|c cs]; [contradiction|]. cbn [hd] in H1. destruct cs as [|c2 cs]; cbn [joined] in Ej; [contradiction|].
          apply app_eq_nil in Ej as [_ Ej]. discriminate.
        * cbn [app] in E. injection E as <- _. eapply (joined_head cs); eauto. }
  rewrite E, split_joined by auto. now apply walk_spec.
Qed.
Lemma dataset_strings s : exists k gs x, s = slashes k ++ joined (gs ++ [x]) /\ Forall slash_free (gs ++ [x]) /\ (gs = [] \/ hd [] gs <> []).
Proof.
  destruct (trim_start_split s) as (k & E & H). destruct (joined_split (trim_start s)) as [E1 E2].
  destruct (split_nonempty (trim_start s)) as (p & ps & E3).
  destruct (@exists_last _ (split_slash (trim_start s))) as (gs & x & E4); [rewrite E3; discriminate|].
  exists k, gs, x. rewrite E4 in *. split; [now rewrite E1|]. split; auto.
  destruct gs as [|[|b c] gs]; [now left| |right; discriminate]. exfalso.
  eapply H; [|reflexivity]. rewrite <- E1. cbn [app]. destruct gs; reflexivity.
Qed.
Lemma trim_end_split s : exists k, s = trim_end s ++ slashes k /\ forall b s', trim_end s = s' ++ [b] -> b <> SLASH.
Proof.
  destruct (trim_start_split (rev s)) as (k & E & H). exists k. unfold trim_end. split.
  - rewrite <- (rev_slashes k), <- rev_app_distr, <- E, rev_involutive. reflexivity.
  - intros b s' E'. apply (H b (rev s')). rewrite <- (rev_involutive (trim_start (rev s))), E', rev_app_distr. reflexivity.
Qed.
Lemma group_strings s : exists k cs j, s = slashes k ++ joined cs ++ slashes j /\ cs <> [] /\ Forall slash_free cs /\
  (cs = [[]] \/ (hd [] cs <> [] /\ last cs [] <> [])).
Proof.
  destruct (trim_start_split s) as (k & E & H). destruct (trim_end_split (trim_start s)) as (j & E' & H').
  set (t := trim_end (trim_start s)) in *. destruct (joined_split t) as [E1 E2]. destruct (split_nonempty t) as (p & ps & E3).
  exists k, (split_slash t), j. split; [rewrite E1, <- E'; exact E|]. split; [rewrite E3; discriminate|]. split; auto.
  rewrite E3 in *. destruct p as [|b p].
  - destruct ps as [|p2 ps]; [now left|]. exfalso. eapply H; [|reflexivity]. rewrite E', <- E1. reflexivity.
  - right. split; [discriminate|]. intros HL. destruct (@exists_last _ ((b :: p) :: ps)) as (cs' & c & E4); [discriminate|].
    rewrite E4, last_last in HL. subst c. destruct cs' as [|a cs'].
    + discriminate.
    + rewrite E4, joined_snoc in E1 by discriminate. eapply (H' SLASH (joined (a :: cs'))); [|reflexivity]. now rewrite E1.
Qed.

(** ** C43 *)

Lemma h5_ind (P : h5group -> Prop) :
  (forall b l, (forall c g, In (c, HGroup g) l -> P g) -> P (mkHG b l)) -> forall g, P g.
Proof.
  intros H. fix IH 1. intros [b l]. apply H.
  induction l as [|[c0 [d|g0|]] l IHl]; intros c g; cbn [In].
  - intros [].
  - intros [E|Hin]; [discriminate|exact (IHl c g Hin)].
  - intros [E|Hin]; [|exact (IHl c g Hin)]. injection E as _ <-. apply IH.
  - intros [E|Hin]; [discriminate|exact (IHl c g Hin)].
Qed.

(** The fix inside [index_group]. *)
Definition index_subs (m : mode) (path : option str) (name : str) (l : list (str * h5member)) : res (list (str * gindex)) :=
  (fix sub (l : list (str * h5member)) : res (list (str * gindex)) :=
      match l with
      | [] => Ok []
      | (k, HGroup g') :: l' =>
          let full := name ++ SLASH :: k in
          let* x := index_group m path full g' in
          let* r := sub l' in Ok ((last_component full, x) :: r)
      | _ :: l' => sub l'
      end) l.
Lemma index_group_eq m path name ok l : index_group m path name (mkHG ok l) =
  if ok then let* ds := index_datasets m l in let* gs := index_subs m path name l in
    Ok (mkGroup path (hcollect ds) (hcollect gs)) else Err EHdf5.
Proof. reflexivity. Qed.
Lemma split_last s k : slash_free k -> last (split_slash (s ++ SLASH :: k)) [] = k.
Proof.
  intros H. induction s as [|b s IH]; cbn [app split_slash].
  - rewrite N.eqb_refl. rewrite (split_one k H). reflexivity.
  - destruct (split_nonempty (s ++ SLASH :: k)) as (p & ps & E). rewrite E in *. destruct (b =? SLASH).
    + cbn [last] in *. exact IH.
    + destruct ps as [|p2 ps]; [|exact IH]. exfalso.
      pose proof (joined_split (s ++ SLASH :: k)) as [J1 J2]. rewrite E in *. cbn [joined] in J1. apply Forall_inv in J2.
      apply J2. rewrite J1. apply in_app_iff. right. now left.
Qed.
Lemma allocated_spec d : allocated d = true <-> has_storage d.
Proof.
  unfold allocated, has_storage. destruct (h_is_chunked d); cbn [orb]; [split; auto|].
  destruct (h_offset d); split; intros H; auto; try discriminate; [right; discriminate|destruct H; congruence].
Qed.

(** Datasets of one group. *)
Lemma index_datasets_ok m l r : index_datasets m l = Ok r ->
  (forall x ds, In (x, ds) r <-> exists d, In (x, HData d) l /\ has_storage d /\ datasetd_index m d = Ok ds) /\
  (NoDup (map fst l) -> NoDup (map fst r)) /\
  (forall x d, In (x, HData d) l -> has_storage d -> exists ds, datasetd_index m d = Ok ds).
Proof.
  revert r. induction l as [|[k [d|g|]] l IH]; intros r E; cbn [index_datasets] in E.
  - injection E as <-. split; [|split].
    + intros x ds. split; [easy|]. now intros (d & [] & _).
    + auto.
    + easy.
  - destruct (allocated d) eqn:Ea.
    + apply bind_ok in E as (y & Ey & E). apply bind_ok in E as (r' & Er & E). apply ok_inj in E. subst r.
      destruct (IH r' Er) as (I1 & I2 & I3). apply allocated_spec in Ea. split; [|split].
      * intros x ds. cbn [In]. rewrite I1. split.
        -- intros [[= <- <-]|(d' & H1 & H2)]; eauto.
        -- intros (d' & [[= <- <-]|H1] & H2 & H3); [left; congruence|right; eauto].
      * cbn [map fst]. intros H. inversion H as [|? ? A B]; subst. constructor; auto.
        intros Hin. apply in_map_iff in Hin as ([k' ds] & <- & Hin). apply I1 in Hin as (d' & Hin & _).
        apply A. apply in_map_iff. exists (k', HData d'). auto.
      * intros x d'. cbn [In]. intros [[= <- <-]|H1] H2; eauto.
    + destruct (IH r E) as (I1 & I2 & I3). split; [|split].
      * intros x ds. rewrite I1. cbn [In]. split; [intros (d' & ? & ?); eauto|].
        intros (d' & [[= <- <-]|H1] & H2 & H3); [|eauto]. apply allocated_spec in H2. congruence.
      * cbn [map fst]. intros H. inversion H; auto.
      * intros x d'. cbn [In]. intros [[= <- <-]|H1] H2; [|eauto]. apply allocated_spec in H2. congruence.
  - destruct (IH r E) as (I1 & I2 & I3). split; [|split].
    + intros x ds. rewrite I1. cbn [In]. split; [intros (d' & ? & ?); eauto|].
      intros (d' & [?|H1] & H2 & H3); [discriminate|eauto].
    + cbn [map fst]. intros H. inversion H; auto.
    + intros x d'. cbn [In]. intros [?|H1] H2; [discriminate|eauto].
  - destruct (IH r E) as (I1 & I2 & I3). split; [|split].
    + intros x ds. rewrite I1. cbn [In]. split; [intros (d' & ? & ?); eauto|].
      intros (d' & [?|H1] & H2 & H3); [discriminate|eauto].
    + cbn [map fst]. intros H. inversion H; auto.
    + intros x d'. cbn [In]. intros [?|H1] H2; [discriminate|eauto].
Qed.
Lemma index_datasets_total m l : (forall x d, In (x, HData d) l -> has_storage d -> exists ds, datasetd_index m d = Ok ds) ->
  exists r, index_datasets m l = Ok r.
Proof.
  induction l as [|[k [d|g|]] l IH]; intros H; cbn [index_datasets]; [eauto| | |];
    destruct IH as (r & Er); try (intros x d' Hin; apply (H x); now right); rewrite Er; eauto.
  destruct (allocated d) eqn:Ea; [|eauto]. apply allocated_spec in Ea.
  destruct (H k d) as (ds & ->); auto; [now left|]. cbn [bind]. eauto.
Qed.

(** Subgroups of one group. *)
Lemma index_subs_ok m path name l r : Forall (fun km => fst km <> [] /\ slash_free (fst km)) l -> index_subs m path name l = Ok r ->
  (forall x g', In (x, g') r <-> exists g, In (x, HGroup g) l /\ index_group m path (name ++ SLASH :: x) g = Ok g') /\
  (NoDup (map fst l) -> NoDup (map fst r)) /\
  (forall x g, In (x, HGroup g) l -> exists g', index_group m path (name ++ SLASH :: x) g = Ok g').
Proof.
  revert r. induction l as [|[k [d|g|]] l IH]; intros r HF E; cbn [index_subs] in E.
  - injection E as <-. split; [|split].
    + intros x ds. split; [easy|]. now intros (d & [] & _).
    + auto.
    + easy.
  - inversion HF as [|? ? _ HF']; subst. destruct (IH r HF' E) as (I1 & I2 & I3). split; [|split].
    + intros x ds. rewrite I1. cbn [In]. split; [intros (d' & ? & ?); eauto|].
      intros (d' & [?|H1] & H2); [discriminate|eauto].
    + cbn [map fst]. intros H. inversion H; auto.
    + intros x d'. cbn [In]. intros [?|H1]; [discriminate|eauto].
  - inversion HF as [|? ? HK HF']; subst. cbn [fst] in HK. destruct HK as [_ HK].
    apply bind_ok in E as (y & Ey & E). apply bind_ok in E as (r' & Er & E). apply ok_inj in E. subst r.
    unfold last_component. rewrite split_last by auto.
    destruct (IH r' HF' Er) as (I1 & I2 & I3). split; [|split].
    + intros x ds. cbn [In]. rewrite I1. split.
      * intros [[= <- <-]|(d' & H1 & H2)]; eauto.
      * intros (d' & [[= <- <-]|H1] & H2); [left; congruence|right; eauto].
    + cbn [map fst]. intros H. inversion H as [|? ? A B]; subst. constructor; auto.
      intros Hin. apply in_map_iff in Hin as ([k' ds] & <- & Hin). apply I1 in Hin as (d' & Hin & _).
      apply A. apply in_map_iff. exists (k', HGroup d'). auto.
    + intros x d'. cbn [In]. intros [[= <- <-]|H1]; eauto.
  - inversion HF as [|? ? _ HF']; subst. destruct (IH r HF' E) as (I1 & I2 & I3). split; [|split].
    + intros x ds. rewrite I1. cbn [In]. split; [intros (d' & ? & ?); eauto|].
      intros (d' & [?|H1] & H2); [discriminate|eauto].
    + cbn [map fst]. intros H. inversion H; auto.
    + intros x d'. cbn [In]. intros [?|H1]; [discriminate|eauto].
Qed.
Lemma index_subs_total m path name l : (forall x g, In (x, HGroup g) l -> exists g', index_group m path (name ++ SLASH :: x) g = Ok g') ->
  exists r, index_subs m path name l = Ok r.
Proof.
  induction l as [|[k [d|g|]] l IH]; intros H; cbn [index_subs]; [eauto| | |];
    destruct IH as (r & Er); try (intros x d' Hin; apply (H x); now right); fold (index_subs m path name l); rewrite Er; eauto.
  destruct (H k g) as (g' & ->); [now left|]. cbn [bind]. eauto.
Qed.

(** A whole tree. *)
Lemma index_group_ok m path : forall g name r, named g -> index_group m path name g = Ok r ->
  keyed r /\ gi_path r = path /\ h_lists g = true /\
  (forall x ds, In (x, ds) (gi_datasets r) <-> exists d, In (x, HData d) (h_members g) /\ has_storage d /\ datasetd_index m d = Ok ds) /\
  (forall x d, In (x, HData d) (h_members g) -> has_storage d -> exists ds, datasetd_index m d = Ok ds) /\
  (forall x g', In (x, g') (gi_groups r) <-> exists g1, In (x, HGroup g1) (h_members g) /\ index_group m path (name ++ SLASH :: x) g1 = Ok g') /\
  (forall x g1, In (x, HGroup g1) (h_members g) -> exists g', index_group m path (name ++ SLASH :: x) g1 = Ok g').
Proof.
  induction g as [b l IH] using h5_ind. intros name r HN E. inversion HN as [? ? N1 N2 N3]; subst.
  rewrite index_group_eq in E. destruct b; [|discriminate].
  apply bind_ok in E as (ds & Ed & E). apply bind_ok in E as (gs & Eg & E). apply ok_inj in E. subst r.
  destruct (index_datasets_ok m l ds Ed) as (D1 & D2 & D3). destruct (index_subs_ok m path name l gs N2 Eg) as (G1 & G2 & G3).
  rewrite (hcollect_nodup ds), (hcollect_nodup gs) by auto. cbn [gi_path gi_datasets gi_groups h_lists h_members].
  split; [|exact (conj eq_refl (conj eq_refl (conj D1 (conj D3 (conj G1 G3)))))].
  constructor; auto. apply Forall_forall. intros [x g'] Hin. cbn [snd]. apply G1 in Hin as (g1 & H1 & H2).
  exact (proj1 (IH x g1 H1 _ _ (N3 _ _ H1) H2)).
Qed.
Lemma index_group_total m path : forall g name, 
  (forall cs g', h5_group g cs g' -> h_lists g' = true) ->
  (forall cs x d, h5_dataset g cs x d -> has_storage d -> exists ds, datasetd_index m d = Ok ds) ->
  exists r, index_group m path name g = Ok r.
Proof.
  induction g as [b l IH] using h5_ind. intros name HL HD. rewrite index_group_eq.
  rewrite (HL [] (mkHG b l) (hg_here _) : b = true).
  destruct (index_datasets_total m l) as (ds & ->).
  { intros x d Hin. apply (HD [] x). exists (mkHG b l). split; [constructor|auto]. }
  cbn [bind]. destruct (index_subs_total m path name l) as (gs & ->); [|cbn [bind]; eauto].
  intros x g Hin. apply (IH x g Hin).
  - intros cs g' Hg. apply (HL (x :: cs)). econstructor; eauto.
  - intros cs y d (g' & Hg & Hd). apply (HD (x :: cs) y). exists g'. split; auto. econstructor; eauto.
Qed.

(** Groups of the file and of the index correspond. *)
Fixpoint full_name (name : str) (cs : list str) : str :=
  match cs with [] => name | c :: cs' => full_name (name ++ SLASH :: c) cs' end.
Lemma groups_match m path cs : forall g name r, named g -> index_group m path name g = Ok r ->
  (forall r', in_group r cs r' <-> exists g', h5_group g cs g' /\ index_group m path (full_name name cs) g' = Ok r') /\
  (forall g', h5_group g cs g' -> named g' /\ exists r', index_group m path (full_name name cs) g' = Ok r').
Proof.
  induction cs as [|c cs IH]; intros g name r HN E; cbn [full_name].
  - split.
    + intros r'. split.
      * intros H. inversion H; subst. exists g. split; [constructor|auto].
      * intros (g' & H1 & H2). inversion H1; subst. rewrite E in H2. apply ok_inj in H2. subst. constructor.
    + intros g' H. inversion H; subst. eauto.
  - destruct (index_group_ok m path g name r HN E) as (_ & _ & _ & _ & _ & G1 & G2).
    assert (HN' : forall k g1, In (k, HGroup g1) (h_members g) -> named g1).
    { inversion HN as [b l N1 N2 N3]; subst. exact N3. }
    split.
    + intros r'. split.
      * intros H. inversion H as [|? ? r1 ? ? Hin Hg]; subst. apply G1 in Hin as (g1 & Hin & E1).
        apply (proj1 (IH g1 _ r1 (HN' _ _ Hin) E1)) in Hg as (g' & Hg & E2). exists g'. split; auto. econstructor; eauto.
      * intros (g' & H & E2). inversion H as [|? ? g1 ? ? Hin Hg]; subst. destruct (G2 _ _ Hin) as (r1 & E1).
        econstructor; [apply G1; eauto|]. apply (proj1 (IH g1 _ r1 (HN' _ _ Hin) E1)). eauto.
    + intros g' H. inversion H as [|? ? g1 ? ? Hin Hg]; subst. destruct (G2 _ _ Hin) as (r1 & E1).
      exact (proj2 (IH g1 _ r1 (HN' _ _ Hin) E1) g' Hg).
Qed.
Lemma datasets_match m path g name r : named g -> index_group m path name g = Ok r -> forall cs x ds,
  (exists r', in_group r cs r' /\ In (x, ds) (gi_datasets r')) <->
  (exists d, h5_dataset g cs x d /\ has_storage d /\ datasetd_index m d = Ok ds).
Proof.
  intros HN E cs x ds. destruct (groups_match m path cs g name r HN E) as [M1 M2]. split.
  - intros (r' & Hr & Hin). apply M1 in Hr as (g' & Hg & E'). destruct (M2 g' Hg) as [HN' _].
    destruct (index_group_ok m path g' _ r' HN' E') as (_ & _ & _ & D1 & _). apply D1 in Hin as (d & H1 & H2 & H3).
    exists d. split; [exists g'; auto|auto].
  - intros (d & (g' & Hg & Hin) & H2 & H3). destruct (M2 g' Hg) as [HN' (r' & E')].
    destruct (index_group_ok m path g' _ r' HN' E') as (_ & _ & _ & D1 & _). exists r'. split; [apply M1; eauto|].
    apply D1. eauto.
Qed.
Lemma index_all_ok m path g name r : named g -> index_group m path name g = Ok r ->
  (forall cs g', h5_group g cs g' -> h_lists g' = true) /\
  (forall cs x d, h5_dataset g cs x d -> has_storage d -> exists ds, datasetd_index m d = Ok ds) /\
  (forall cs r', in_group r cs r' -> gi_path r' = path).
Proof.
  intros HN E. split; [|split].
  - intros cs g' Hg. destruct (groups_match m path cs g name r HN E) as [_ M2]. destruct (M2 g' Hg) as [HN' (r' & E')].
    now destruct (index_group_ok m path g' _ r' HN' E') as (_ & _ & H & _).
  - intros cs x d (g' & Hg & Hin) HS. destruct (groups_match m path cs g name r HN E) as [_ M2]. destruct (M2 g' Hg) as [HN' (r' & E')].
    destruct (index_group_ok m path g' _ r' HN' E') as (_ & _ & _ & _ & D & _). eauto.
  - intros cs r' Hr. destruct (groups_match m path cs g name r HN E) as [M1 M2]. apply M1 in Hr as (g' & Hg & E').
    destruct (M2 g' Hg) as [HN' _]. now destruct (index_group_ok m path g' _ r' HN' E') as (_ & H & _).
Qed.

(** ** Indexed trees are well typed *)
Lemma index_datasets_length m l : forall r, index_datasets m l = Ok r -> (length r <= length l)%nat.
Proof.
  induction l as [|[k [d|g|]] l IH]; intros r E; cbn [index_datasets length] in *.
  - injection E as <-. auto.
  - destruct (allocated d); [|specialize (IH r E); lia].
    apply bind_ok in E as (y & _ & E). apply bind_ok in E as (r' & Er & E). apply ok_inj in E. subst r.
    specialize (IH r' Er). cbn [length]. lia.
  - specialize (IH r E). lia.
  - specialize (IH r E). lia.
Qed.
Lemma index_subs_length m path name l : forall r, index_subs m path name l = Ok r -> (length r <= length l)%nat.
Proof.
  induction l as [|[k [d|g|]] l IH]; intros r E; cbn [index_subs length] in *; try (specialize (IH r E); lia).
  - injection E as <-. auto.
  - apply bind_ok in E as (y & _ & E). apply bind_ok in E as (r' & Er & E). apply ok_inj in E. subst r.
    specialize (IH r' Er). cbn [length]. lia.
Qed.
Lemma index_group_typed m path : forall g name r, named g -> typed_tree g -> typed_path path ->
  index_group m path name g = Ok r -> typed_group r.
Proof.
  induction g as [b l IH] using h5_ind. intros name r HN HT HP E.
  inversion HN as [? ? N1 N2 N3]; subst. inversion HT as [? ? T1 T2 T3 T4]; subst.
  rewrite index_group_eq in E. destruct b; [|discriminate].
  apply bind_ok in E as (ds & Ed & E). apply bind_ok in E as (gs & Eg & E). apply ok_inj in E. subst r.
  destruct (index_datasets_ok m l ds Ed) as (D1 & D2 & D3). destruct (index_subs_ok m path name l gs N2 Eg) as (G1 & G2 & G3).
  apply index_datasets_length in Ed. apply index_subs_length in Eg.
  rewrite (hcollect_nodup ds), (hcollect_nodup gs) by auto. rewrite Forall_forall in T1.
  constructor; auto.
  - split; [auto|split].
    + apply Forall_forall. intros k Hk. apply in_map_iff in Hk as ([k' x] & <- & Hin). apply D1 in Hin as (d & Hin & _).
      apply T1. apply in_map_iff. exists (k', HData d). auto.
    + unfold lenN in *. lia.
  - apply Forall_forall. intros [k x] Hin. apply D1 in Hin as (d & Hin & _ & E). cbn [snd].
    exists (length (h_shape d)). unfold datasetd_index in E. destruct (length (h_shape d) <=? 9)%nat; [|discriminate].
    apply (index_typed m); eauto.
  - split; [auto|split].
    + apply Forall_forall. intros k Hk. apply in_map_iff in Hk as ([k' x] & <- & Hin). apply G1 in Hin as (d & Hin & _).
      apply T1. apply in_map_iff. exists (k', HGroup d). auto.
    + unfold lenN in *. lia.
  - apply Forall_forall. intros [k x] Hin. apply G1 in Hin as (d & Hin & E). cbn [snd]. eapply IH; eauto.
Qed.
Lemma index_group_utf8 m path : forall g name r, named g -> utf8_path path -> index_group m path name g = Ok r -> utf8_group r.
Proof.
  induction g as [b l IH] using h5_ind. intros name r HN HP E.
  inversion HN as [? ? N1 N2 N3]; subst.
  rewrite index_group_eq in E. destruct b; [|discriminate].
  apply bind_ok in E as (ds & Ed & E). apply bind_ok in E as (gs & Eg & E). apply ok_inj in E. subst r.
  destruct (index_subs_ok m path name l gs N2 Eg) as (G1 & G2 & G3). rewrite (hcollect_nodup gs) by auto.
  constructor; auto. apply Forall_forall. intros [k x] Hin. apply G1 in Hin as (d & Hin & E). cbn [snd]. eapply IH; eauto.
Qed.
