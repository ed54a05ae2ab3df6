(** * Proofs about the serialized form (C39-C41). *)
From Verif Require Import Base Chunk Dataset ChunkProofs IndexTree Serde SpecSerde.

(** ** Round trips of the parts *)

Lemma le_bytes_length k : forall n, length (le_bytes k n) = k.
Proof. induction k as [|k IH]; intros n; cbn [le_bytes length]; auto. Qed.
Lemma le_value_bytes k : forall n, n < 256 ^ N.of_nat k -> le_value (le_bytes k n) = n.
Proof.
  induction k as [|k IH]; intros n H; cbn [le_bytes le_value].
  - change (256 ^ N.of_nat 0) with 1 in H. lia.
  - rewrite IH.
    + pose proof (N.div_mod n 256 ltac:(lia)). lia.
    + apply N.div_lt_upper_bound; [lia|]. rewrite <- N.pow_succ_r'. rewrite <- Nnat.Nat2N.inj_succ. exact H.
Qed.

Lemma take_app n a r : lenN a = n -> take n (a ++ r) = Ok (a, r).
Proof.
  intros <-. unfold take. rewrite lenN_app. rewrite (proj2 (N.leb_le _ _)) by lia.
  unfold lenN. rewrite Nat2N.id. rewrite firstn_app, firstn_all, Nat.sub_diag, skipn_app, skipn_all, Nat.sub_diag.
  cbn [firstn skipn]. now rewrite app_nil_r.
Qed.

Definition goes {A} (p : parser A) (b : byte_str) (x : A) : Prop := forall r, p (b ++ r) = Ok (x, r).

Lemma u64_goes n : word64 n -> goes de_u64 (ser_u64 n) n.
Proof.
  intros H r. unfold de_u64, ser_u64. rewrite take_app by (unfold lenN; rewrite le_bytes_length; reflexivity).
  cbn [bind]. now rewrite le_value_bytes.
Qed.
Lemma u32_goes n : n < 4294967296 -> goes de_u32 (ser_u32 n) n.
Proof.
  intros H r. unfold de_u32, ser_u32. rewrite take_app by (unfold lenN; rewrite le_bytes_length; reflexivity).
  cbn [bind]. now rewrite le_value_bytes.
Qed.
Lemma u8_goes n : goes de_u8 [n] n.
Proof. intros r. unfold de_u8. rewrite take_app by reflexivity. cbn [bind le_value]. do 2 f_equal. lia. Qed.
Lemma bool_goes v : goes de_bool (ser_bool v) v.
Proof. intros r. unfold de_bool, ser_bool. rewrite u8_goes. now destruct v. Qed.
Lemma option_goes {A} (p : parser A) f v : (forall x, v = Some x -> goes p (f x) x) -> goes (de_option p) (ser_option f v) v.
Proof.
  intros H r. unfold de_option, ser_option. destruct v as [x|].
  - change ((1 :: f x) ++ r) with ([1] ++ (f x ++ r)). rewrite u8_goes. cbn [bind N.eqb Pos.eqb]. now rewrite H.
  - rewrite u8_goes. reflexivity.
Qed.
Lemma bytes_goes v : lenN v < W64 -> goes de_bytes (ser_bytes v) v.
Proof.
  intros H r. unfold de_bytes, ser_bytes. rewrite <- app_assoc, u64_goes by auto. cbn [bind]. now rewrite take_app.
Qed.
Lemma times_goes {A} (p : parser A) f : forall l, Forall (fun x => goes p (f x) x) l ->
  goes (de_times (length l) p) (flat_map f l) l.
Proof.
  induction l as [|x l IH]; intros H r; cbn [length de_times flat_map]; [reflexivity|].
  inversion H as [|? ? H1 H2]; subst. rewrite <- app_assoc, H1. cbn [bind]. rewrite (IH H2 r). reflexivity.
Qed.
Lemma seq_goes {A} (p : parser A) f l : lenN l < W64 -> Forall (fun x => goes p (f x) x) l -> goes (de_seq p) (ser_seq f l) l.
Proof.
  intros HL H r. unfold de_seq, ser_seq. rewrite <- app_assoc, u64_goes by auto. cbn [bind].
  unfold lenN. rewrite Nat2N.id. now apply times_goes.
Qed.
Lemma string_goes s : typed_string s -> goes de_string (ser_bytes s) s.
Proof. intros [H1 H2] r. unfold de_string. rewrite bytes_goes by auto. cbn [bind]. now rewrite H1. Qed.

Lemma words_goes v D : Forall word64 v -> lenN v < W64 -> length v = D -> goes (de_seq de_u64) (ser_arr v) v.
Proof.
  intros H HL _. apply seq_goes; auto. eapply Forall_impl; [|exact H]. intros. now apply u64_goes.
Qed.
Lemma fill_all v : fill (length v) v = v.
Proof. induction v as [|x v IH]; cbn [length fill]; [reflexivity|]. now rewrite IH. Qed.
Lemma small_len {A} (v : list A) D : (D <= 9)%nat -> length v = D -> lenN v < W64.
Proof. intros H E. unfold lenN. rewrite E. unfold W64. lia. Qed.
Lemma arr_goes D v : (D <= 9)%nat -> typed_array D v -> goes (de_arr D) (ser_arr v) v.
Proof.
  intros HD [HL HF] r. unfold de_arr. rewrite (words_goes v D); auto; [|eapply small_len; eauto].
  cbn [bind]. now rewrite <- HL, fill_all.
Qed.
Lemma sr_goes D v : (D <= 9)%nat -> typed_array D v -> Forall (fun x => 0 < x) v -> goes (de_sr D) (ser_arr v) v.
Proof.
  intros HD [HL HF] HP r. unfold de_sr. rewrite (words_goes v D); auto; [|eapply small_len; eauto].
  cbn [bind]. unfold sr_array. rewrite HL, Nat.eqb_refl.
  assert (E : mapM sr_new v = Ok v); [|now rewrite E].
  clear -HP. induction HP as [|x v H HP IH]; cbn [mapM]; [reflexivity|].
  unfold sr_new at 1. rewrite (proj2 (N.eqb_neq x 0)) by lia. cbn [bind]. now rewrite IH.
Qed.

Lemma flat_le_length w : length (flat_map ser_u64 w) = (8 * length w)%nat.
Proof.
  induction w as [|x w IH]; cbn [flat_map length]; auto. rewrite app_length, IH. unfold ser_u64.
  rewrite le_bytes_length. lia.
Qed.
Lemma words_of_bytes w : Forall word64 w -> words_of (length w) (flat_map ser_u64 w) = w.
Proof.
  induction 1 as [|x w H HF IH]; cbn [length words_of flat_map]; auto.
  assert (L : length (ser_u64 x) = 8%nat) by (unfold ser_u64; apply le_bytes_length).
  rewrite firstn_app, skipn_app, L, Nat.sub_diag, firstn_all2, skipn_all2 by lia. cbn [firstn skipn app].
  rewrite app_nil_r, IH. f_equal. unfold ser_u64. now apply le_value_bytes.
Qed.
Lemma as_words D cs : Forall (typed_chunk D) cs -> Forall word64 (slice_as_u64s cs) /\
  length (slice_as_u64s cs) = ((2 + D) * length cs)%nat /\ Forall (fun c => length (c_offset c) = D) cs.
Proof.
  unfold slice_as_u64s. induction 1 as [|c cs (A & B & C & E) H (IH1 & IH2 & IH3)]; cbn [flat_map length].
  - split; [constructor|]. split; [lia|constructor].
  - split; [apply Forall_app; split; auto; unfold as_u64s; auto|]. split; [|constructor; auto].
    rewrite app_length, IH2. unfold as_u64s. cbn [length]. lia.
Qed.
Lemma records_all D : forall cs r, Forall (fun c => length (c_offset c) = D) cs ->
  split_records D (length cs) (slice_as_u64s cs ++ r) = cs.
Proof.
  unfold slice_as_u64s. induction cs as [|c cs IH]; intros r H; [reflexivity|].
  inversion H as [|? ? H1 H2]; subst. cbn [length split_records flat_map as_u64s app].
  rewrite <- app_assoc, firstn_app, skipn_app, Nat.sub_diag, firstn_all, skipn_all. cbn [firstn skipn app].
  rewrite app_nil_r, IH by auto. destruct c. reflexivity.
Qed.
Lemma chunks_bytes D cs : Forall (typed_chunk D) cs -> chunks_of_bytes D (chunk_bytes_of cs) = Ok cs.
Proof.
  intros H. destruct (as_words D cs H) as (A & B & C). unfold chunks_of_bytes, chunk_bytes_of.
  rewrite flat_le_length. rewrite (Nat.mul_comm 8), Nat.mod_mul, Nat.div_mul by lia. cbn [Nat.eqb assert_ bind].
  rewrite words_of_bytes by auto. unfold slice_from_u64s. rewrite B.
  rewrite (Nat.mul_comm (2 + D)), Nat.mod_mul, Nat.div_mul by lia. cbn [Nat.eqb assert_ bind].
  f_equal. rewrite <- (app_nil_r (slice_as_u64s cs)). now apply records_all.
Qed.
Lemma chunks_goes D cs : Forall (typed_chunk D) cs -> lenN cs * (16 + 8 * N.of_nat D) < W64 ->
  goes (de_chunks D) (ser_chunks cs) cs.
Proof.
  intros H HM r. unfold de_chunks, ser_chunks. rewrite bytes_goes.
  - cbn [bind]. now rewrite chunks_bytes.
  - destruct (as_words D cs H) as (_ & B & _). unfold lenN, chunk_bytes_of in *. rewrite flat_le_length, B. lia.
Qed.

Lemma datatype_goes d : word64 (dt_size d) -> goes de_datatype (ser_datatype d) d.
Proof.
  intros H r. destruct d; cbn [ser_datatype dt_size] in *; unfold de_datatype;
    rewrite <- app_assoc, u32_goes by lia; cbn [bind]; now rewrite u64_goes.
Qed.
Lemma order_goes o : goes de_order (ser_order o) o.
Proof. intros r. unfold de_order, ser_order. rewrite u32_goes by (destruct o; lia). now destruct o. Qed.

Lemma dataset_goes D d : typed_dataset D d -> goes (de_dataset D) (ser_dataset d) d.
Proof.
  intros [H0 H1 H2 H3 H4 H5 H6 H7 H8 H9 H10 H11 H12] r. unfold de_dataset, ser_dataset.
  rewrite <- !app_assoc. rewrite datatype_goes by auto. cbn [bind]. rewrite u64_goes by auto. cbn [bind].
  rewrite order_goes. cbn [bind]. rewrite chunks_goes by auto. cbn [bind].
  rewrite arr_goes by auto. cbn [bind]. rewrite arr_goes by auto. cbn [bind]. rewrite sr_goes by auto. cbn [bind].
  rewrite arr_goes by auto. cbn [bind]. rewrite arr_goes by auto. cbn [bind]. rewrite arr_goes by auto. cbn [bind].
  rewrite bool_goes. cbn [bind]. rewrite (option_goes de_u8 (fun z => [z]) (d_gzip d)).
  - cbn [bind]. destruct d; reflexivity.
  - intros z _. apply u8_goes.
Qed.
Lemma datasetd_goes D d : typed_dataset D d -> goes de_datasetd (ser_datasetd d) d.
Proof.
  intros H r. unfold de_datasetd, ser_datasetd. pose proof (ty_rank _ _ H) as HR. destruct (ty_shape _ _ H) as [HL _].
  rewrite <- app_assoc, u32_goes by (unfold lenN; lia). cbn [bind].
  rewrite (proj2 (N.leb_le _ _)) by (unfold lenN; lia).
  unfold lenN. rewrite Nat2N.id, HL. now apply dataset_goes.
Qed.

(** ** Maps *)

Lemma str_eqb_spec a : forall b, str_eqb a b = true <-> a = b.
Proof.
  induction a as [|x a IH]; intros [|y b]; cbn [str_eqb]; split; intros H; try discriminate; auto.
  - apply andb_true_iff in H as [A B]. apply N.eqb_eq in A. apply IH in B. congruence.
  - injection H as -> ->. rewrite N.eqb_refl. cbn [andb]. now apply IH.
Qed.
Lemma str_eqb_refl a : str_eqb a a = true.
Proof. now apply str_eqb_spec. Qed.
Lemma str_eqb_neq a b : a <> b -> str_eqb a b = false.
Proof. intros H. destruct (str_eqb a b) eqn:E; auto. apply str_eqb_spec in E. contradiction. Qed.

Lemma hput_new {A} k (v : A) h : ~ In k (map fst h) -> hput k v h = h ++ [(k, v)].
Proof.
  induction h as [|[k' v'] h IH]; intros H; cbn [hput map fst app In] in *; auto.
  rewrite str_eqb_neq by (intros ->; apply H; auto). rewrite IH by auto. reflexivity.
Qed.
Lemma hcollect_from {A} (l : list (str * A)) : forall h, NoDup (map fst h ++ map fst l) ->
  fold_left (fun h kv => hput (fst kv) (snd kv) h) l h = h ++ l.
Proof.
  induction l as [|[k v] l IH]; intros h H; cbn [fold_left map fst snd] in *; [now rewrite app_nil_r|].
  rewrite hput_new.
  - rewrite IH; [rewrite <- app_assoc; reflexivity|]. rewrite map_app. cbn [map fst]. now rewrite <- app_assoc.
  - intros Hin. apply NoDup_remove_2 in H. apply H. apply in_app_iff. auto.
Qed.
Lemma hcollect_nodup {A} (l : list (str * A)) : NoDup (map fst l) -> hcollect l = l.
Proof. intros H. unfold hcollect. now rewrite hcollect_from. Qed.

Lemma map_goes {A} (p : parser A) f (h : hmap A) : typed_keys h -> Forall (fun kv => goes p (f (snd kv)) (snd kv)) h ->
  goes (de_map p) (ser_seq (fun kv => ser_bytes (fst kv) ++ f (snd kv)) h) h.
Proof.
  intros (H1 & H2 & H3) HF r. unfold de_map. rewrite seq_goes; auto.
  - cbn [bind]. now rewrite hcollect_nodup.
  - rewrite Forall_forall in *. intros [k v] Hkv r'. cbn [fst snd].
    rewrite <- app_assoc, string_goes. 2:{ apply H2. apply in_map_iff. exists (k, v). auto. }
    pose proof (HF (k, v) Hkv r') as HV. cbn [snd] in HV. cbn [bind]. now rewrite HV.
Qed.

(** ** Trees *)

Lemma gindex_ind' (P : gindex -> Prop) :
  (forall p ds gs, Forall (fun kv => P (snd kv)) gs -> P (mkGroup p ds gs)) -> forall g, P g.
Proof.
  intros H. fix IH 1. intros [p ds gs]. apply H.
  induction gs as [|[k g] gs IHgs]; constructor; [apply IH|exact IHgs].
Qed.

(** The fix inside [ser_group]. *)
Definition ser_subs (l : list (str * gindex)) : res byte_str :=
  (fix sub (l : list (str * gindex)) : res byte_str :=
     match l with
     | [] => Ok []
     | (k, g') :: l' => let* x := ser_group g' in let* r := sub l' in Ok (ser_bytes k ++ x ++ r)
     end) l.
Lemma ser_group_eq p ds gs : ser_group (mkGroup p ds gs) =
  (let* q := ser_opt_path p in let* subs := ser_subs gs in
   Ok (q ++ ser_seq (fun kv => ser_bytes (fst kv) ++ ser_datasetd (snd kv)) ds ++ ser_u64 (lenN gs) ++ subs)).
Proof. reflexivity. Qed.

Lemma de_group_S fuel b : de_group (S fuel) b =
  (let* (p, b) := de_option de_string b in
   let* (ds, b) := de_map de_datasetd b in
   let* (gs, b) := de_map (de_group fuel) b in Ok (mkGroup p ds gs, b)).
Proof. reflexivity. Qed.

Lemma ok_inj {A} (x y : A) : Ok x = Ok y -> x = y.
Proof. now intros [= ->]. Qed.
Lemma path_goes p q : typed_path p -> ser_opt_path p = Ok q -> goes (de_option de_string) q p.
Proof.
  intros HT E r. destruct p as [s|]; cbn [ser_opt_path] in E.
  - apply bind_ok in E as (x & Ex & E). injection E as <-. unfold ser_path in Ex.
    destruct (utf8 s) eqn:Eu; [|discriminate]. injection Ex as <-.
    apply (option_goes de_string ser_bytes (Some s)). intros x [= <-]. apply string_goes. split; auto.
  - injection E as <-. apply (option_goes de_string ser_bytes None). intros; discriminate.
Qed.

Lemma depth_sub p ds gs k g : In (k, g) gs -> (depth g < depth (mkGroup p ds gs))%nat.
Proof.
  intros H. cbn [depth]. apply Nat.lt_succ_r. induction gs as [|kv gs IH]; [easy|].
  cbn [fold_right]. destruct H as [-> |H]; [cbn [snd]; apply Nat.le_max_l|]. etransitivity; [apply IH; auto|apply Nat.le_max_r].
Qed.

Lemma group_goes : forall g, typed_group g -> forall b fuel, (depth g <= fuel)%nat -> ser_group g = Ok b ->
  goes (de_group fuel) b g.
Proof.
  induction g as [p ds gs IH] using gindex_ind'. intros HT b fuel Hf E r.
  inversion HT as [? ? ? T1 T2 T3 T4 T5]; subst.
  destruct fuel as [|fuel]; [cbn [depth] in Hf; lia|].
  rewrite ser_group_eq in E. apply bind_ok in E as (q & Eq & E). apply bind_ok in E as (subs & Es & E). apply ok_inj in E; rewrite <- E; clear E.
  rewrite de_group_S. rewrite <- !app_assoc. rewrite (path_goes p q T1 Eq). cbn [bind].
  rewrite (map_goes de_datasetd ser_datasetd ds T2).
  2:{ eapply Forall_impl; [|exact T3]. intros [k d] (D & HD). now apply (datasetd_goes D). }
  cbn [bind].
  assert (HG : forall kv, In kv gs -> (depth (snd kv) <= fuel)%nat).
  { intros [k g] Hin. pose proof (depth_sub p ds gs k g Hin). cbn [snd]. lia. }
  unfold de_map, de_seq. destruct T4 as (K1 & K2 & K3). rewrite u64_goes by auto. cbn [bind].
  assert (X : de_times (N.to_nat (lenN gs))
     (fun b => let* (k, r) := de_string b in let* (v, r') := de_group fuel r in Ok ((k, v), r')) (subs ++ r) = Ok (gs, r)).
  { unfold lenN. rewrite Nat2N.id. clear -Es IH T5 K2 HG. revert subs Es.
    induction gs as [|[k g] gs IHgs]; intros subs Es; cbn [ser_subs] in Es.
    - apply ok_inj in Es; rewrite <- Es; clear Es. reflexivity.
    - apply bind_ok in Es as (x & Ex & Es). apply bind_ok in Es as (r' & Er & Es). apply ok_inj in Es; rewrite <- Es; clear Es.
      inversion IH as [|? ? I1 I2]; subst. inversion T5 as [|? ? U1 U2]; subst.
      cbn [map fst] in K2. inversion K2 as [|? ? L1 L2]; subst.
      cbn [length de_times]. rewrite <- !app_assoc. rewrite string_goes by auto. cbn [bind].
      cbn [snd] in I1. rewrite (I1 U1 x fuel); auto; [|apply (HG (k, g)); now left]. cbn [bind].
      rewrite IHgs; auto. intros kv Hkv. apply HG. now right. }
  rewrite X. cbn [bind]. now rewrite hcollect_nodup.
Qed.

Lemma index_goes i b fuel : typed_index i -> (depth (i_root i) <= fuel)%nat -> ser_index i = Ok b -> goes (de_index fuel) b i.
Proof.
  intros [T1 T2] Hf E r. unfold ser_index in E. apply bind_ok in E as (q & Eq & E). apply bind_ok in E as (x & Ex & E).
  apply ok_inj in E; rewrite <- E; clear E. unfold de_index. rewrite <- app_assoc, (path_goes _ q T1 Eq). cbn [bind].
  rewrite (group_goes _ T2 x fuel Hf Ex). cbn [bind]. now destruct i.
Qed.

Lemma ser_path_ok p : utf8_path p <-> exists b, ser_opt_path p = Ok b.
Proof.
  unfold utf8_path, ser_opt_path, ser_path. destruct p as [s|]; [|split; [eauto|intros _ s [=]]].
  split.
  - intros H. rewrite (H s eq_refl). eexists. reflexivity.
  - intros (b & E) s' [= <-]. destruct (utf8 s); auto. discriminate.
Qed.
Lemma ser_path_err p : (exists b, ser_opt_path p = Ok b) \/ ser_opt_path p = Err EDe.
Proof. unfold ser_opt_path, ser_path. destruct p as [s|]; [destruct (utf8 s); cbn [bind]; eauto|eauto]. Qed.

Lemma ser_group_ok g : (utf8_group g <-> exists b, ser_group g = Ok b) /\
  ((exists b, ser_group g = Ok b) \/ ser_group g = Err EDe).
Proof.
  induction g as [p ds gs IH] using gindex_ind'. rewrite ser_group_eq.
  assert (S1 : (Forall (fun kv => utf8_group (snd kv)) gs <-> exists b, ser_subs gs = Ok b) /\
               ((exists b, ser_subs gs = Ok b) \/ ser_subs gs = Err EDe)).
  { induction IH as [|[k g] gs [H1 H2] HF [IH1 IH2]]; cbn [ser_subs snd] in *.
    - split; [split; eauto|eauto].
    - fold (ser_subs gs). split.
      + split.
        * intros H. inversion H as [|? ? A B]; subst. cbn [snd] in A. apply H1 in A as (x & ->).
          apply IH1 in B as (y & ->). cbn [bind]. eauto.
        * intros (b & E). apply bind_ok in E as (x & Ex & E). apply bind_ok in E as (y & Ey & E).
          constructor; [apply H1; eauto|apply IH1; eauto].
      + destruct H2 as [(x & ->)| ->]; cbn [bind]; [|auto]. destruct IH2 as [(y & ->)| ->]; cbn [bind]; eauto. }
  destruct S1 as [S1 S2]. split.
  - split.
    + intros H. inversion H as [? ? ? A B]; subst. apply ser_path_ok in A as (x & ->). cbn [bind].
      apply S1 in B as (y & ->). cbn [bind]. eauto.
    + intros (b & E). apply bind_ok in E as (x & Ex & E). apply bind_ok in E as (y & Ey & E).
      constructor; [apply ser_path_ok; eauto|apply S1; eauto].
  - destruct (ser_path_err p) as [(x & ->)| ->]; cbn [bind]; [|auto]. destruct S2 as [(y & ->)| ->]; cbn [bind]; eauto.
Qed.

(** ** More input never changes what was read *)

Definition mono {A} (p : parser A) : Prop := forall b x r q, p b = Ok (x, r) -> p (b ++ q) = Ok (x, r ++ q).

Lemma mono_bind {A B} (p : parser A) (f : A -> parser B) : mono p -> (forall x, mono (f x)) ->
  mono (fun b => let* (x, r) := p b in f x r).
Proof.
  intros Hp Hf b y r q E. apply bind_ok in E as ([x r1] & E1 & E). rewrite (Hp _ _ _ q E1). cbn [bind]. now apply Hf.
Qed.
Lemma mono_ret {A} (x : A) : mono (fun b => Ok (x, b)).
Proof. intros b y r q [= <- <-]. reflexivity. Qed.
Lemma mono_fail {A} e : mono (fun _ : byte_str => @Err (A * byte_str) e).
Proof. intros b y r q E. discriminate. Qed.
Lemma mono_res {A} (x : res A) : mono (fun b => let* v := x in Ok (v, b)).
Proof. intros b y r q E. destruct x; try discriminate. cbn [bind] in *. injection E as <- <-. reflexivity. Qed.
Lemma mono_take n : mono (take n).
Proof.
  intros b x r q E. unfold take in *. destruct (N.leb_spec n (lenN b)); [|discriminate]. injection E as <- <-.
  rewrite lenN_app. rewrite (proj2 (N.leb_le _ _)) by lia.
  unfold lenN in *. rewrite firstn_app, skipn_app. replace (N.to_nat n - length b)%nat with 0%nat by lia. cbn [firstn skipn].
  now rewrite app_nil_r.
Qed.
Lemma mono_ext {A} (p p' : parser A) : (forall b, p b = p' b) -> mono p -> mono p'.
Proof. intros E H b x r q. rewrite <- !E. apply H. Qed.
Ltac mono_tac := repeat first
  [ apply mono_take | apply mono_fail
  | apply (mono_bind (A := _)); [|intros] ].
Lemma mono_u64 : mono de_u64.
Proof. unfold de_u64. apply (mono_bind (take 8) (fun x b => Ok (le_value x, b))); [apply mono_take|intros; apply mono_ret]. Qed.
Lemma mono_u32 : mono de_u32.
Proof. unfold de_u32. apply (mono_bind (take 4) (fun x b => Ok (le_value x, b))); [apply mono_take|intros; apply mono_ret]. Qed.
Lemma mono_u8 : mono de_u8.
Proof. unfold de_u8. apply (mono_bind (take 1) (fun x b => Ok (le_value x, b))); [apply mono_take|intros; apply mono_ret]. Qed.
Lemma mono_bool : mono de_bool.
Proof.
  unfold de_bool. apply (mono_bind de_u8 (fun t r => if t =? 0 then Ok (false, r) else if t =? 1 then Ok (true, r) else Err EDe)); [apply mono_u8|].
  intros t. destruct (t =? 0); [apply mono_ret|]. destruct (t =? 1); [apply mono_ret|apply mono_fail].
Qed.
Lemma mono_option {A} (p : parser A) : mono p -> mono (de_option p).
Proof.
  intros Hp. unfold de_option.
  apply (mono_bind de_u8 (fun t r => if t =? 0 then Ok (None, r) else if t =? 1 then let* (x, r') := p r in Ok (Some x, r') else Err EDe)); [apply mono_u8|].
  intros t. destruct (t =? 0); [apply mono_ret|]. destruct (t =? 1); [|apply mono_fail].
  apply (mono_bind p (fun x r => Ok (Some x, r))); auto. intros; apply mono_ret.
Qed.
Lemma mono_bytes : mono de_bytes.
Proof. unfold de_bytes. apply (mono_bind de_u64 take); [apply mono_u64|apply mono_take]. Qed.
Lemma mono_times {A} (p : parser A) n : mono p -> mono (de_times n p).
Proof.
  intros Hp. induction n as [|n IH]; cbn [de_times]; [apply mono_ret|].
  apply (mono_bind p (fun x r => let* (xs, r') := de_times n p r in Ok (x :: xs, r'))); auto.
  intros x. apply (mono_bind (de_times n p) (fun xs r => Ok (x :: xs, r))); auto. intros; apply mono_ret.
Qed.
Lemma mono_seq {A} (p : parser A) : mono p -> mono (de_seq p).
Proof.
  intros Hp. unfold de_seq. apply (mono_bind de_u64 (fun n => de_times (N.to_nat n) p)); [apply mono_u64|].
  intros. now apply mono_times.
Qed.
Lemma mono_string : mono de_string.
Proof.
  unfold de_string. apply (mono_bind de_bytes (fun s r => if utf8 s then Ok (s, r) else Err EDe)); [apply mono_bytes|].
  intros s. destruct (utf8 s); [apply mono_ret|apply mono_fail].
Qed.
Lemma mono_arr D : mono (de_arr D).
Proof.
  unfold de_arr. apply (mono_bind (de_seq de_u64) (fun v r => Ok (fill D v, r))); [apply mono_seq, mono_u64|intros; apply mono_ret].
Qed.
Lemma mono_sr D : mono (de_sr D).
Proof.
  unfold de_sr. apply (mono_bind (de_seq de_u64) (fun v r => let* a := sr_array D v in Ok (a, r))); [apply mono_seq, mono_u64|].
  intros. apply mono_res.
Qed.
Lemma mono_chunks D : mono (de_chunks D).
Proof.
  unfold de_chunks. apply (mono_bind de_bytes (fun v r => let* a := chunks_of_bytes D v in Ok (a, r))); [apply mono_bytes|].
  intros. apply mono_res.
Qed.
Lemma mono_datatype : mono de_datatype.
Proof.
  unfold de_datatype.
  apply (mono_bind de_u32 (fun t r => match t with
    | 0 => let* (s, r') := de_u64 r in Ok (UInt s, r') | 1 => let* (s, r') := de_u64 r in Ok (Int s, r')
    | 2 => let* (s, r') := de_u64 r in Ok (Float s, r') | 3 => let* (s, r') := de_u64 r in Ok (Custom s, r')
    | _ => Err EDe end)); [apply mono_u32|].
  assert (X : forall f : N -> datatype, mono (fun r => let* (s, r') := de_u64 r in Ok (f s, r'))).
  { intros f. apply (mono_bind de_u64 (fun s r => Ok (f s, r))); [apply mono_u64|intros; apply mono_ret]. }
  intros [|[[?|?|]|[?|?|]|]]; try apply mono_fail; first [apply (X UInt)|apply (X Int)|apply (X Float)|apply (X Custom)].
Qed.
Lemma mono_order : mono de_order.
Proof.
  unfold de_order.
  apply (mono_bind de_u32 (fun t r => match t with 0 => Ok (BE, r) | 1 => Ok (LE, r) | 2 => Ok (Unknown, r) | _ => Err EDe end)); [apply mono_u32|].
  intros [|[[?|?|]|[?|?|]|]]; first [apply mono_fail|apply mono_ret].
Qed.
Lemma mono_dataset D : mono (de_dataset D).
Proof.
  unfold de_dataset. intros b x r q E.
  repeat (apply bind_ok in E; destruct E as ([? ?] & E1 & E);
    first [ apply (mono_datatype _ _ _ q) in E1 | apply (mono_u64 _ _ _ q) in E1 | apply (mono_order _ _ _ q) in E1
          | apply (mono_chunks D _ _ _ q) in E1 | apply (mono_arr D _ _ _ q) in E1 | apply (mono_sr D _ _ _ q) in E1
          | apply (mono_bool _ _ _ q) in E1 | apply (mono_option _ mono_u8 _ _ _ q) in E1 ];
    rewrite E1; cbn [bind]; clear E1).
  injection E as <- <-. reflexivity.
Qed.
Lemma mono_datasetd : mono de_datasetd.
Proof.
  unfold de_datasetd. apply (mono_bind de_u32 (fun t r => if t <=? 9 then de_dataset (N.to_nat t) r else Err EDe)); [apply mono_u32|].
  intros t. destruct (t <=? 9); [apply mono_dataset|apply mono_fail].
Qed.
Lemma mono_map {A} (p : parser A) : mono p -> mono (de_map p).
Proof.
  intros Hp. unfold de_map.
  pose (e := fun b : byte_str => let* (k, r) := de_string b in let* (v, r') := p r in Ok ((k, v), r')).
  assert (He : mono e).
  { apply (mono_bind de_string (fun k r => let* (v, r') := p r in Ok ((k, v), r'))); [apply mono_string|].
    intros k. apply (mono_bind p (fun v r => Ok ((k, v), r))); auto. intros; apply mono_ret. }
  apply (mono_bind (de_seq e) (fun l r => Ok (hcollect l, r))); [now apply mono_seq|intros; apply mono_ret].
Qed.
Lemma mono_group fuel : mono (de_group fuel).
Proof.
  induction fuel as [|fuel IH]; intros b x r q E; cbn [de_group] in *; [discriminate|].
  apply bind_ok in E as ([p b1] & E1 & E). rewrite (mono_option _ mono_string _ _ _ q E1). cbn [bind].
  apply bind_ok in E as ([ds b2] & E2 & E). rewrite (mono_map _ mono_datasetd _ _ _ q E2). cbn [bind].
  apply bind_ok in E as ([gs b3] & E3 & E). rewrite (mono_map _ IH _ _ _ q E3). cbn [bind].
  injection E as <- <-. reflexivity.
Qed.
Lemma mono_index fuel : mono (de_index fuel).
Proof.
  intros b x r q E. unfold de_index in *.
  apply bind_ok in E as ([p b1] & E1 & E). rewrite (mono_option _ mono_string _ _ _ q E1). cbn [bind].
  apply bind_ok in E as ([g b2] & E2 & E). rewrite (mono_group _ _ _ _ q E2). cbn [bind].
  injection E as <- <-. reflexivity.
Qed.

(** So a proper prefix of something that is read completely is never read. *)
Lemma prefix_rejected {A} (p : parser A) b x : mono p -> p b = Ok (x, []) ->
  forall pre q y r, b = pre ++ q -> q <> [] -> p pre <> Ok (y, r).
Proof.
  intros Hm E pre q y r -> Hq Ep. apply (Hm _ _ _ q) in Ep. rewrite E in Ep. injection Ep as _ Hr.
  symmetry in Hr. apply app_eq_nil in Hr as [_ Hr]. contradiction.
Qed.
