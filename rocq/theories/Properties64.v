(** * C88: the group an xarray dataset is opened with. *)
From Coq Require Import List NArith Lia Bool String.
From Verif Require Import Base Spec SpecText Chunk Dataset IndexTree Serde SpecTree SerdeProofs TreeProofs Python XarrayGroup
  Examples Properties7 Properties8.
Import ListNotations.
Open Scope N_scope.

(** ** Specification *)

(** A string, cut at its slashes: [ps] are its pieces. *)
Definition pieces (s : str) (ps : list str) : Prop := s = joined ps /\ ps <> [] /\ Forall slash_free ps.
(** A piece that is not "." or "..". *)
Definition plain_piece (c : str) : Prop := c <> [46] /\ c <> [46; 46].
(** The pieces that are not empty, in order: [path_of ps cs]. *)
Inductive path_of : list str -> list str -> Prop :=
| po_nil : path_of [] []
| po_empty ps cs : path_of ps cs -> path_of ([] :: ps) cs
| po_name c ps cs : c <> [] -> path_of ps cs -> path_of (c :: ps) (c :: cs).
(** Slashes only at the ends, and single ones in between. *)
Definition tidy (s : str) (cs : list str) : Prop := exists k j, s = slashes k ++ joined cs ++ slashes j.

(** What the pieces of a string lead to: empty ones and "." to the same place, ".." back by one, and at the start of
    a string that begins with a slash nowhere. *)
Inductive leads (s : str) : list str -> list str -> Prop :=
| le_start : leads s [] []
| le_stay ps cs c : leads s ps cs -> c = [] \/ c = [46] -> leads s (ps ++ [c]) cs
| le_down ps cs c : leads s ps cs -> c <> [] -> plain_piece c -> slash_free c -> leads s (ps ++ [c]) (cs ++ [c])
| le_back ps cs c : leads s ps (cs ++ [c]) -> leads s (ps ++ [[46; 46]]) cs
| le_top ps s' : s = SLASH :: s' -> leads s ps [] -> leads s (ps ++ [[46; 46]]) [].

(** ** Proof *)

Lemma seqb_iff a b : str_eqb a b = true <-> a = b.
Proof. destruct (SerdeProofs.str_eqb_spec a b); split; auto; discriminate. Qed.
Lemma seqb_neq a b : a <> b -> str_eqb a b = false.
Proof. intros H. destruct (str_eqb a b) eqn:E; auto. apply seqb_iff in E. contradiction. Qed.

Lemma norm_plain abs : forall ps new cs, path_of ps cs -> Forall plain_piece ps ->
  norm_loop abs ps new = rev new ++ cs.
Proof.
  intros ps new cs H. revert new. induction H as [|ps cs H IH|c ps cs Hc H IH]; intros new HF; cbn [norm_loop].
  - now rewrite app_nil_r.
  - inversion HF; subst. replace (str_eqb [] []) with true by (symmetry; now apply seqb_iff). cbn [orb]. auto.
  - inversion HF as [|? ? [F1 F2] F3]; subst. rewrite (seqb_neq c []), (seqb_neq c s_dot), (seqb_neq c s_dotdot) by assumption.
    cbn [orb negb]. rewrite IH by auto. cbn [rev]. now rewrite <- app_assoc.
Qed.
Lemma join_is_joined cs : join_slash cs = joined cs.
Proof. induction cs as [|c cs IH]; [reflexivity|]. destruct cs; [reflexivity|]. cbn [join_slash joined] in *. now rewrite IH. Qed.

Lemma sal_free t : slash_free t -> split_at_last t = ([], t).
Proof.
  induction t as [|c t IH]; intros H; [reflexivity|]. cbn [split_at_last].
  rewrite IH by (intros Hin; apply H; now right). destruct (c =? SLASH) eqn:E; auto.
  apply N.eqb_eq in E. subst c. exfalso. apply H. now left.
Qed.
Lemma sal_app h t : slash_free t -> split_at_last (h ++ SLASH :: t) = (h ++ [SLASH], t).
Proof.
  intros H. induction h as [|c h IH]; cbn [app].
  - cbn [split_at_last]. rewrite sal_free by auto. reflexivity.
  - cbn [split_at_last]. rewrite IH. destruct h; reflexivity.
Qed.
Lemma split_slashes k s : split_slash (slashes k ++ s) = repeat [] k ++ split_slash s.
Proof.
  induction k as [|k IH]; [reflexivity|]. cbn [slashes repeat app]. change (repeat SLASH k) with (slashes k).
  change (SLASH :: slashes k ++ s) with ([] ++ SLASH :: (slashes k ++ s)). rewrite split_app by easy. now rewrite IH.
Qed.
Lemma trim_end_all k : trim_end (slashes k) = [].
Proof. exact (trim_end_slashes k [] ltac:(intros b s' H; destruct s'; discriminate)). Qed.
Lemma slashes_snoc k : slashes (S k) = slashes k ++ [SLASH].
Proof. induction k as [|k IH]; [reflexivity|]. cbn [slashes repeat app] in *. now rewrite IH. Qed.

Definition good (cs : list str) : Prop := Forall slash_free cs /\ Forall (fun c => c <> []) cs.
Lemma good_joined cs : cs <> [] -> good cs -> exists s b, joined cs = s ++ [b] /\ b <> SLASH.
Proof.
  intros H [F1 F2]. destruct (exists_last H) as (ds & x & ->).
  assert (x <> []) by (apply Forall_app in F2 as [_ F2]; now inversion F2).
  assert (slash_free x) by (apply Forall_app in F1 as [_ F1]; now inversion F1).
  destruct (exists_last H0) as (y & b & ->).
  assert (b <> SLASH) by (intros ->; apply H1; apply in_app_iff; right; now left).
  destruct ds as [|d ds]; [exists y, b; auto|].
  rewrite joined_snoc by discriminate. exists (joined (d :: ds) ++ SLASH :: y), b. split; auto.
  rewrite <- app_assoc. reflexivity.
Qed.

Lemma nc_walk_empty g k cs : nc_walk g (repeat [] k ++ cs) = nc_walk g cs.
Proof. induction k as [|k IH]; [reflexivity|]. cbn [repeat app nc_walk]. replace (str_eqb [] []) with true by (symmetry; now apply seqb_iff). exact IH. Qed.
Lemma nc_walk_spec : forall cs g g', named g -> Forall (fun c => c <> []) cs -> (nc_walk g cs = Ok g' <-> h5_group g cs g').
Proof.
  induction cs as [|c cs IH]; intros g g' HN HF; cbn [nc_walk].
  - split; [intros H; apply ok_inj in H; subst; constructor|]. intros H; now inversion H.
  - inversion HF as [|? ? F1 F2]; subst. rewrite (seqb_neq c []) by auto. unfold nc_sub.
    inversion HN as [b l N1 N2 N3]; subst. cbn [nc_members]. split.
    + destruct (hget c l) as [[d|g1| ]|] eqn:E; try discriminate. intros H. apply hget_in in E; auto.
      econstructor; [exact E|]. apply IH; eauto.
    + intros H. inversion H as [|? ? g1 ? ? Hin Hg]; subst. cbn [h_members] in Hin. pose proof Hin as Hin'.
      apply hget_in in Hin'; auto. rewrite Hin'. apply IH; eauto.
Qed.
Lemma h5_group_snoc cs c : forall g g', h5_group g (cs ++ [c]) g' <-> exists g1, h5_group g cs g1 /\ In (c, HGroup g') (h_members g1).
Proof.
  induction cs as [|d cs IH]; intros g g'; cbn [app].
  - split.
    + intros H. inversion H as [|? ? g1 ? ? Hin Hg]; subst. inversion Hg; subst. exists g. split; [constructor|auto].
    + intros (g1 & H & Hin). inversion H; subst. econstructor; [exact Hin|constructor].
  - split.
    + intros H. inversion H as [|? ? g1 ? ? Hin Hg]; subst. apply IH in Hg as (g2 & H2 & H3). exists g2. split; auto. econstructor; eauto.
    + intros (g1 & H & Hin). inversion H as [|? ? g2 ? ? Hin2 Hg]; subst. econstructor; [exact Hin2|]. apply IH. eauto.
Qed.
Lemma h5_group_named cs : forall g g', named g -> h5_group g cs g' -> named g'.
Proof.
  induction cs as [|c cs IH]; intros g g' HN H; inversion H as [|? ? g1 ? ? Hin Hg]; subst; auto.
  inversion HN as [b l N1 N2 N3]; subst. cbn [h_members] in Hin. apply (IH g1); auto. eapply N3; eauto.
Qed.

(** What the split of a normal path gives. *)
Lemma split_normal n ds x : good (ds ++ [x]) -> exists h, posix_split (slashes n ++ joined (ds ++ [x])) = (h, x) /\
  exists k, split_slash h = repeat [] k ++ ds \/ (ds = [] /\ split_slash h = repeat [] k).
Proof.
  intros HG. pose proof HG as [F1 F2]. apply Forall_app in F1 as [F1 F1x]. apply Forall_app in F2 as [F2 F2x].
  assert (X : slash_free x) by now inversion F1x. unfold posix_split. destruct ds as [|d ds].
  - cbn [app joined]. destruct n as [|n].
    + cbn [slashes repeat app]. rewrite sal_free by auto. exists []. split; [reflexivity|]. exists 1%nat. right. auto.
    + rewrite slashes_snoc, <- app_assoc. cbn [app]. rewrite sal_app by auto. rewrite <- slashes_snoc, trim_end_all.
      exists (slashes (S n)). split; auto. exists (S (S n)). right. split; auto.
      rewrite <- (app_nil_r (slashes (S n))), split_slashes. cbn [split_slash]. change [[]] with (repeat (@nil N) 1). rewrite <- repeat_app.
      f_equal. lia.
  - rewrite joined_snoc by discriminate. rewrite app_assoc, sal_app by auto.
    destruct (good_joined (d :: ds) ltac:(discriminate) (conj F1 F2)) as (s & b & E & Hb).
    assert (T : trim_end ((slashes n ++ joined (d :: ds)) ++ [SLASH]) = slashes n ++ joined (d :: ds)).
    { change [SLASH] with (slashes 1). apply trim_end_slashes. intros b' s' E'. rewrite E, app_assoc in E'.
      apply app_inj_tail in E' as [_ ->]. auto. }
    rewrite T. destruct (slashes n ++ joined (d :: ds)) as [|a l] eqn:EE.
    { exfalso. rewrite E in EE. destruct (slashes n), s; discriminate. }
    rewrite <- EE. eexists; split; [reflexivity|]. exists n. left. rewrite split_slashes, split_joined; auto. discriminate.
Qed.

Lemma path_of_good ps cs : path_of ps cs -> Forall slash_free ps -> Forall plain_piece ps -> good cs.
Proof.
  unfold good. induction 1 as [|ps cs H IH|c ps cs Hc H IH]; intros F1 F2; [split; constructor|..]; inversion F1; inversion F2; subst; auto.
  destruct IH; auto. 
Qed.
Lemma normpath_plain s ps cs : pieces s ps -> Forall plain_piece ps -> path_of ps cs -> cs <> [] ->
  exists n, normpath s = slashes n ++ joined cs.
Proof.
  intros (E & Hne & HF) HP HC Hcs. exists (leading s). unfold normpath.
  assert (Es : split_slash s = ps) by (rewrite E; now apply split_joined). rewrite Es. rewrite (norm_plain _ ps [] cs) by auto. cbn [rev app]. rewrite join_is_joined.
  destruct (good_joined cs Hcs (path_of_good ps cs HC HF HP)) as (t & b & Et & _). rewrite Et.
  change (repeat SLASH (leading s)) with (slashes (leading s)).
  destruct (slashes (leading s) ++ t ++ [b]) eqn:EE; auto. destruct (slashes (leading s)), t; discriminate.
Qed.

Lemma nc_normal root s cs : named root -> good cs -> cs <> [] -> (exists n, normpath s = slashes n ++ joined cs) ->
  forall g, store_group root (Some s) = Ok (NGroup g) <-> h5_group root cs g.
Proof.
  intros HN HG Hcs (n & E) g.
  destruct (exists_last Hcs) as (ds & x & ->).
  destruct (split_normal n ds x HG) as (h & E1 & k & E2). cbn [store_group]. unfold nc_getitem. rewrite E, E1.
  destruct HG as [G1 G2]. apply Forall_app in G2 as [G2 _].
  assert (W : nc_walk root (split_slash h) = nc_walk root ds).
  { destruct E2 as [E2|[-> E2]]; rewrite E2; [apply nc_walk_empty|].
    rewrite <- (app_nil_r (repeat [] k)). apply nc_walk_empty. }
  rewrite W, h5_group_snoc. split.
  - intros H. apply bind_ok in H as (g1 & H1 & H). exists g1. apply nc_walk_spec in H1; auto. split; auto.
    pose proof (h5_group_named _ _ _ HN H1) as HN1. inversion HN1 as [b l N1 N2 N3]; subst. cbn [nc_members h_members] in *.
    destruct (hget x l) as [[d|g2| ]|] eqn:EH; try discriminate. apply ok_inj in H. injection H as ->. now apply hget_in in EH.
  - intros (g1 & H1 & Hin). pose proof (h5_group_named _ _ _ HN H1) as HN1. apply nc_walk_spec in H1; auto. rewrite H1. cbn [bind].
    inversion HN1 as [b l N1 N2 N3]; subst. cbn [nc_members h_members] in *. apply hget_in in Hin; auto. now rewrite Hin.
Qed.

(** ** The theorems *)

(** netCDF4 finds the group at the path of the non-empty pieces, however they are separated;
    if there is none it raises (or finds a variable). *)
Theorem C88_netcdf root s ps cs : named root -> pieces s ps -> Forall plain_piece ps -> path_of ps cs -> cs <> [] ->
  forall g, store_group root (Some s) = Ok (NGroup g) <-> h5_group root cs g.
Proof.
  intros HN HS HP HC Hcs g. apply nc_normal; auto.
  - exact (path_of_good ps cs HC (proj2 (proj2 HS)) HP).
  - exact (normpath_plain s ps cs HS HP HC Hcs).
Qed.
Print Assumptions C88_netcdf.

(** With "." and ".." too: the group the pieces lead to, whether or not the groups gone through and left again exist. *)
Lemma leads_good s ps cs : leads s ps cs -> good cs /\ Forall plain_piece cs.
Proof.
  unfold good. induction 1 as [|ps cs c H [[I1 I2] I3] Hc|ps cs c H [[I1 I2] I3] Hc P F|ps cs c H [[I1 I2] I3]|ps s' E H I]; auto.
  - repeat split; apply Forall_app; auto.
  - apply Forall_app in I1, I2, I3. tauto.
Qed.
Lemma norm_leads s ps cs : leads s ps cs -> forall rest,
  norm_loop (starts_slash s) (ps ++ rest) [] = norm_loop (starts_slash s) rest (rev cs).
Proof.
  assert (R : forall c, str_eqb c c = true) by (intros c; now apply seqb_iff).
  induction 1 as [|ps cs c H IH Hc|ps cs c H IH Hc [P1 P2] F|ps cs c H IH|ps s' E H IH]; intros rest; [reflexivity|..];
    rewrite <- app_assoc, IH; cbn [app norm_loop].
  - destruct Hc as [-> | ->]; reflexivity.
  - rewrite (seqb_neq c []), (seqb_neq c s_dot), (seqb_neq c s_dotdot) by assumption. cbn [orb negb].
    rewrite rev_app_distr. reflexivity.
  - rewrite rev_app_distr. cbn [rev app]. change (str_eqb [46; 46] [] || str_eqb [46; 46] s_dot) with false.
    change (str_eqb [46; 46] s_dotdot) with true. cbn [negb].
    destruct (leads_good _ _ _ H) as [_ G]. apply Forall_app in G as [_ G]. inversion G as [|? ? [_ G2] _]; subst.
    rewrite (seqb_neq c s_dotdot) by assumption. reflexivity.
  - subst s. reflexivity.
Qed.
Theorem C88_leads root s ps cs : named root -> pieces s ps -> leads s ps cs -> cs <> [] ->
  forall g, store_group root (Some s) = Ok (NGroup g) <-> h5_group root cs g.
Proof.
  intros HN (E & Hne & HF) HL Hcs g. apply nc_normal; auto; [exact (proj1 (leads_good _ _ _ HL))|].
  exists (leading s). unfold normpath.
  assert (Es : split_slash s = ps) by (rewrite E; now apply split_joined). rewrite Es.
  pose proof (norm_leads s ps cs HL []) as NL. rewrite app_nil_r in NL. rewrite NL. cbn [norm_loop]. rewrite rev_involutive, join_is_joined.
  destruct (good_joined cs Hcs (proj1 (leads_good _ _ _ HL))) as (t & b & Et & _). rewrite Et.
  change (repeat SLASH (leading s)) with (slashes (leading s)).
  destruct (slashes (leading s) ++ t ++ [b]) eqn:EE; auto. destruct (slashes (leading s)), t; discriminate.
Qed.
Print Assumptions C88_leads.

(** The index finds a group by [s] exactly if netCDF4 finds one and [s] has slashes only at its ends and single ones
    in between; the variables of the store are then the datasets with storage of the group netCDF4 found. *)
Theorem C88_tidy m path root i s ps cs g : named root -> index_file m path root = Ok i ->
  pieces s ps -> Forall plain_piece ps -> path_of ps cs -> cs <> [] -> store_group root (Some s) = Ok (NGroup g) -> tidy s cs ->
  forall x, In x (py_datasets i (Some s)) <-> exists d, In (x, HData d) (h_members g) /\ has_storage d.
Proof.
  intros HN HI HS HP HC Hcs Hg (k & j & Es) x. pose proof (path_of_good ps cs HC (proj2 (proj2 HS)) HP) as [G1 G2].
  destruct (C51_listing m path root i k j cs HN HI G1 G2) as [L _].
  apply (C88_netcdf root s ps cs) in Hg; auto. destruct cs as [|c cs]; [contradiction|]. rewrite <- Es in L. rewrite (L x).
  split.
  - intros (d & (g' & H1 & H2) & H3). exists d. split; auto.
    replace g with g'; auto. apply (nc_walk_spec _ _ _ HN G2) in H1. apply (nc_walk_spec _ _ _ HN G2) in Hg. rewrite Hg in H1.
    now apply ok_inj in H1.
  - intros (d & H1 & H2). exists d. split; auto. exists g. auto.
Qed.
Print Assumptions C88_tidy.

Lemma split_trailing cs j : cs <> [] -> Forall slash_free cs -> split_slash (joined cs ++ slashes j) = cs ++ repeat [] j.
Proof.
  intros Hne HF. induction cs as [|c cs IH]; [contradiction|]. inversion HF as [|? ? F1 F2]; subst.
  destruct cs as [|c' cs].
  - cbn [joined app]. destruct j as [|j].
    + cbn [slashes repeat]. rewrite app_nil_r. now apply split_one.
    + cbn [slashes repeat]. rewrite split_app by auto. change (repeat SLASH j) with (slashes j).
      rewrite <- (app_nil_r (slashes j)), split_slashes. cbn [split_slash]. f_equal.
      change [[]] with (repeat (@nil N) 1). rewrite <- repeat_app. replace (j + 1)%nat with (S j) by lia. reflexivity.
  - change (joined (c :: c' :: cs)) with (c ++ SLASH :: joined (c' :: cs)). rewrite <- app_assoc. cbn [app].
    rewrite split_app by auto. rewrite IH by (auto; discriminate). reflexivity.
Qed.
Lemma path_of_fun ps a b : path_of ps a -> path_of ps b -> a = b.
Proof.
  intros H. revert b. induction H as [|ps cs H IH|c ps cs Hc H IH]; intros b Hb; inversion Hb; subst; auto; try congruence.
  f_equal; auto.
Qed.
Lemma path_of_app ps cs ps' cs' : path_of ps cs -> path_of ps' cs' -> path_of (ps ++ ps') (cs ++ cs').
Proof. induction 1; intros; cbn [app]; auto; constructor; auto. Qed.
Lemma path_of_empty k : path_of (repeat [] k) [].
Proof. induction k; cbn [repeat]; constructor; auto. Qed.
Lemma path_of_names cs : Forall (fun c => c <> []) cs -> path_of cs cs.
Proof. induction 1; constructor; auto. Qed.
Lemma h5_group_names cs : forall g g', named g -> h5_group g cs g' -> good cs.
Proof.
  induction cs as [|c cs IH]; intros g g' HN H; [split; constructor|]. inversion H as [|? ? g1 ? ? Hin Hg]; subst.
  inversion HN as [b l N1 N2 N3]; subst. cbn [h_members] in Hin. destruct (IH g1 g') as [I1 I2]; [eapply N3; eauto|auto|].
  rewrite Forall_forall in N2. destruct (N2 _ Hin) as [M1 M2]. split; constructor; auto.
Qed.
Lemma found m path root i s gi : named root -> index_file m path root = Ok i -> gi_group (i_root i) s = Some gi ->
  exists k cs j, s = slashes k ++ joined cs ++ slashes j /\ cs <> [] /\ good cs /\ exists g, h5_group root cs g.
Proof.
  intros HN HI Hg. destruct (group_strings s) as (k & cs & j & Es & Hne & HF & HH).
  destruct (C43_exact m path root i HN HI) as (_ & K & _ & _).
  rewrite Es in Hg. apply group_spec in Hg; auto.
  destruct (proj1 (C43_groups m path root i HN HI cs) (ex_intro _ gi Hg)) as (g & H5).
  exists k, cs, j. split; auto. split; auto. split; [eapply h5_group_names; eauto|]. eauto.
Qed.
Lemma tidy_pieces k cs j : cs <> [] -> good cs ->
  pieces (slashes k ++ joined cs ++ slashes j) (repeat [] k ++ cs ++ repeat [] j) /\ path_of (repeat [] k ++ cs ++ repeat [] j) cs.
Proof.
  intros Hne [G1 G2]. assert (E : split_slash (slashes k ++ joined cs ++ slashes j) = repeat [] k ++ cs ++ repeat [] j).
  { rewrite split_slashes, split_trailing; auto. }
  destruct (joined_split (slashes k ++ joined cs ++ slashes j)) as [J1 J2]. rewrite E in J1, J2. split.
  - split; [now rewrite J1|]. split; [|exact J2]. destruct cs; [contradiction|]. destruct k; discriminate.
  - replace cs with ([] ++ cs ++ []) at 2 by apply app_nil_r.
    repeat apply path_of_app; auto using path_of_empty, path_of_names.
Qed.
Lemma pieces_fun s a b : pieces s a -> pieces s b -> a = b.
Proof.
  intros (E1 & N1 & F1) (E2 & N2 & F2). rewrite <- (split_joined a), <- (split_joined b) by auto. now rewrite <- E1, <- E2.
Qed.

(** ... and by any other string the store has no variables at all, although netCDF4 finds the group. *)
Theorem C88_untidy m path root i s ps cs : named root -> index_file m path root = Ok i ->
  pieces s ps -> path_of ps cs -> ~ tidy s cs -> py_datasets i (Some s) = [].
Proof.
  intros HN HI HS HC HT. unfold py_datasets. destruct (gi_group (i_root i) s) as [gi|] eqn:E; auto. exfalso. apply HT.
  destruct (found m path root i s gi HN HI E) as (k & cs' & j & Es & Hne & HG & _).
  destruct (tidy_pieces k cs' j Hne HG) as [P1 P2]. rewrite <- Es in P1. rewrite (pieces_fun _ _ _ HS P1) in HC.
  rewrite (path_of_fun _ _ _ HC P2). exists k, j. exact Es.
Qed.
Print Assumptions C88_untidy.

(** With a piece "." or ".." (and no group of that name) the store has no variables either, whatever netCDF4 finds. *)
Theorem C88_dots m path root i s ps : named root -> index_file m path root = Ok i ->
  (forall cs g, h5_group root cs g -> Forall plain_piece cs) -> pieces s ps -> ~ Forall plain_piece ps ->
  py_datasets i (Some s) = [].
Proof.
  intros HN HI HP HS HD. unfold py_datasets. destruct (gi_group (i_root i) s) as [gi|] eqn:E; auto. exfalso. apply HD.
  destruct (found m path root i s gi HN HI E) as (k & cs & j & Es & Hne & HG & g & H5).
  destruct (tidy_pieces k cs j Hne HG) as [P1 P2]. rewrite <- Es in P1. rewrite (pieces_fun _ _ _ HS P1).
  assert (R : forall n, Forall plain_piece (repeat (@nil N) n)) by (induction n; constructor; auto; split; discriminate).
  apply Forall_app. split; auto. apply Forall_app. split; auto. exact (HP cs g H5).
Qed.
Print Assumptions C88_dots.

(** Whatever string the index finds a group by, netCDF4 finds the group of the file with the datasets the index has there. *)
Theorem C88_found m path root i s gi : named root -> index_file m path root = Ok i ->
  (forall cs g, h5_group root cs g -> Forall plain_piece cs) -> gi_group (i_root i) s = Some gi ->
  exists g, store_group root (Some s) = Ok (NGroup g) /\
    forall x, In x (map fst (gi_datasets gi)) <-> exists d, In (x, HData d) (h_members g) /\ has_storage d.
Proof.
  intros HN HI HP Hg. destruct (found m path root i s gi HN HI Hg) as (k & cs & j & Es & Hne & HG & g & H5).
  destruct (tidy_pieces k cs j Hne HG) as [P1 P2]. rewrite <- Es in P1.
  assert (HPP : Forall plain_piece (repeat [] k ++ cs ++ repeat [] j)).
  { assert (R : forall n, Forall plain_piece (repeat (@nil N) n)) by (induction n; constructor; auto; split; discriminate).
    apply Forall_app. split; auto. apply Forall_app. split; auto. exact (HP cs g H5). }
  exists g. assert (HSG : store_group root (Some s) = Ok (NGroup g)) by (apply (C88_netcdf root s _ cs HN P1 HPP P2 Hne); auto).
  split; auto. intros x. pose proof (C88_tidy m path root i s _ cs g HN HI P1 HPP P2 Hne HSG) as T.
  unfold py_datasets in T. rewrite Hg in T. apply T. exists k, j. exact Es.
Qed.
Print Assumptions C88_found.

(** The four spellings of the repository's test, and more slashes, for "a/b" in a small file; "a//b" and "./a/b", where
    netCDF4 finds the group and the store has no variable; "/" and "", an error of netCDF4. *)
Definition nested : h5group := mkHG true [([97], HGroup (mkHG true [([98], HGroup ex_tree)]))].
Definition nested_index : index := mkIndex tree_path (mkGroup tree_path [] [([97], mkGroup tree_path [] [([98], i_root ex_index)])]).
Definition by_names : list str :=
  [text "a/b/g"; text "/a/b/g"; text "a/b/g/"; text "/a/b/g/"; text "///a/b/g//"]%string.
Definition by_others : list str := [text "a//b/g"; text "./a/b/g"; text "a/../a/b/g"; text "a/b/./g"]%string.
Example C88_case : named nested /\ forall m, exists i g d, index_file m tree_path nested = Ok i /\ In ([120], HData d) (h_members g) /\ has_storage d /\
  Forall (fun s => store_group nested (Some s) = Ok (NGroup g) /\ py_datasets i (Some s) = [[120]]) by_names /\
  Forall (fun s => store_group nested (Some s) = Ok (NGroup g) /\ py_datasets i (Some s) = []) by_others /\
  Forall (fun s => exists e, store_group nested (Some s) = Err e) [text "/"; text ""; text "a/c"; text ".."]%string.
Proof.
  split.
  - constructor; [repeat constructor; intros []|..].
    + repeat constructor; cbn; [discriminate|]. intros [H|[]]. discriminate.
    + intros c g [H|[]]. injection H as <- <-. constructor; [repeat constructor; intros []|..].
      * repeat constructor; cbn; [discriminate|]. intros [H|[]]. discriminate.
      * intros c g [H|[]]. injection H as <- <-. exact ex_tree_named.
  - intros m. exists nested_index, (mkHG true [([120], HData ex_h5); ([121], HData unalloc_h5)]), ex_h5.
    split; [destruct m; reflexivity|]. split; [now left|]. split; [left; reflexivity|].
    assert (P : forall (P : str -> Prop) l, (forall s, In s l -> P s) -> Forall P l) by (intros P l; apply Forall_forall).
    repeat split; apply P.
    + intros s [<-|[<-|[<-|[<-|[<-|[]]]]]]; split; reflexivity.
    + intros s [<-|[<-|[<-|[<-|[]]]]]; split; reflexivity.
    + intros s [<-|[<-|[<-|[<-|[]]]]]; exists EMissing; reflexivity.
Qed.
