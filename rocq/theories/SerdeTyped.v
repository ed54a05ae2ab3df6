(** * Whatever is read is well typed; the nesting fuel suffices; what the indexer makes is
    well typed (C39-C41). *)
From Verif Require Import Base Spec Chunk Dataset ChunkProofs DatasetProofs IndexTree Serde SpecSerde SerdeProofs Termination.

(** ** What parsers give and leave *)

(** [yields p P]: from bytes, [p] gives values with [P] and leaves a suffix. *)
Definition yields {A} (p : parser A) (P : A -> Prop) : Prop :=
  forall b x r, is_bytes b -> p b = Ok (x, r) -> P x /\ is_bytes r /\ (length r <= length b)%nat.

Lemma yields_bind {A B} (p : parser A) P (f : A -> parser B) (Q : B -> Prop) :
  yields p P -> (forall x, P x -> yields (f x) Q) -> yields (fun b => let* (x, r) := p b in f x r) Q.
Proof.
  intros Hp Hf b y r Hb E. apply bind_ok in E as ([x r1] & E1 & E).
  destruct (Hp _ _ _ Hb E1) as (Px & Hb1 & L1). destruct (Hf x Px _ _ _ Hb1 E) as (Qy & Hb2 & L2).
  split; auto. split; auto. lia.
Qed.
Lemma yields_ret {A} (x : A) (P : A -> Prop) : P x -> yields (fun b => Ok (x, b)) P.
Proof. intros H b y r Hb [= <- <-]. split; auto. Qed.
Lemma yields_fail {A} e P : yields (fun _ : byte_str => @Err (A * byte_str) e) P.
Proof. intros b y r _ E. discriminate. Qed.
Lemma yields_res {A} (x : res A) (P : A -> Prop) : (forall v, x = Ok v -> P v) -> yields (fun b => let* v := x in Ok (v, b)) P.
Proof. intros H b y r Hb E. destruct x; try discriminate. cbn [bind] in E. injection E as <- <-. split; auto. Qed.
Lemma yields_weaken {A} (p : parser A) (P Q : A -> Prop) : yields p P -> (forall x, P x -> Q x) -> yields p Q.
Proof. intros H HPQ b x r Hb E. destruct (H _ _ _ Hb E) as (A1 & A2 & A3). auto. Qed.

Lemma yields_take n : yields (take n) (fun x => lenN x = n /\ is_bytes x).
Proof.
  intros b x r Hb E. unfold take in E. destruct (N.leb_spec n (lenN b)) as [H|]; [|discriminate]. injection E as <- <-.
  unfold lenN in *. split; [split|split].
  - rewrite firstn_length. lia.
  - unfold is_bytes in *. rewrite <- (firstn_skipn (N.to_nat n) b) in Hb. apply Forall_app in Hb. apply Hb.
  - unfold is_bytes in *. rewrite <- (firstn_skipn (N.to_nat n) b) in Hb. apply Forall_app in Hb. apply Hb.
  - rewrite skipn_length. lia.
Qed.
Lemma le_value_bound b : is_bytes b -> le_value b < 256 ^ lenN b.
Proof.
  unfold is_bytes, lenN. induction 1 as [|x b H HF IH]; cbn [le_value length]; [cbn; lia|].
  rewrite Nnat.Nat2N.inj_succ, N.pow_succ_r'. lia.
Qed.
Lemma yields_u64 : yields de_u64 word64.
Proof.
  unfold de_u64. apply (yields_bind (take 8) _ (fun x b => Ok (le_value x, b)) word64 (yields_take 8)).
  intros x (HL & HB). apply yields_ret. pose proof (le_value_bound x HB) as H. rewrite HL in H. exact H.
Qed.
Lemma yields_u32 : yields de_u32 (fun _ => True).
Proof.
  unfold de_u32. apply (yields_bind (take 4) _ (fun x b => Ok (le_value x, b)) _ (yields_take 4)).
  intros x _. now apply yields_ret.
Qed.
Lemma yields_u8 : yields de_u8 (fun z => z < 256).
Proof.
  unfold de_u8. apply (yields_bind (take 1) _ (fun x b => Ok (le_value x, b)) _ (yields_take 1)).
  intros x (HL & HB). apply yields_ret. pose proof (le_value_bound x HB) as H. rewrite HL in H. exact H.
Qed.
Lemma yields_bool : yields de_bool (fun _ => True).
Proof.
  unfold de_bool. apply (yields_bind de_u8 _ (fun t r => if t =? 0 then Ok (false, r) else if t =? 1 then Ok (true, r) else Err EDe) _ yields_u8).
  intros t _. destruct (t =? 0); [now apply yields_ret|]. destruct (t =? 1); [now apply yields_ret|apply yields_fail].
Qed.
Lemma yields_option {A} (p : parser A) P : yields p P -> yields (de_option p) (fun v => forall x, v = Some x -> P x).
Proof.
  intros Hp. unfold de_option.
  apply (yields_bind de_u8 _ (fun t r => if t =? 0 then Ok (None, r) else if t =? 1 then let* (x, r') := p r in Ok (Some x, r') else Err EDe) _ yields_u8).
  intros t _. destruct (t =? 0); [apply yields_ret; discriminate|]. destruct (t =? 1); [|apply yields_fail].
  apply (yields_bind p P (fun x r => Ok (Some x, r))); auto. intros x Hx. apply yields_ret. now intros y [= <-].
Qed.
Lemma yields_bytes : yields de_bytes (fun x => lenN x < W64 /\ is_bytes x).
Proof.
  unfold de_bytes. apply (yields_bind de_u64 word64 take); [apply yields_u64|].
  intros n Hn. eapply yields_weaken; [apply yields_take|]. cbn beta. intros x [<- Hx]. split; auto.
Qed.
Lemma yields_times {A} (p : parser A) P n : yields p P -> yields (de_times n p) (fun l => length l = n /\ Forall P l).
Proof.
  intros Hp. induction n as [|n IH]; cbn [de_times].
  - apply yields_ret. auto.
  - apply (yields_bind p P (fun x r => let* (xs, r') := de_times n p r in Ok (x :: xs, r'))); auto.
    intros x Px. apply (yields_bind (de_times n p) _ (fun xs r => Ok (x :: xs, r)) _ IH).
    intros xs [HL HF]. apply yields_ret. cbn [length]. split; auto.
Qed.
Lemma yields_seq {A} (p : parser A) P : yields p P -> yields (de_seq p) (fun l => lenN l < W64 /\ Forall P l).
Proof.
  intros Hp. unfold de_seq. apply (yields_bind de_u64 word64 (fun n => de_times (N.to_nat n) p)); [apply yields_u64|].
  intros n Hn. apply (yields_weaken _ _ _ (yields_times p P (N.to_nat n) Hp)). intros l [HL HF]. split; auto.
  unfold lenN, word64 in *. lia.
Qed.
Lemma yields_string : yields de_string typed_string.
Proof.
  unfold de_string. apply (yields_bind de_bytes _ (fun s r => if utf8 s then Ok (s, r) else Err EDe) _ yields_bytes).
  intros s [HL _]. destruct (utf8 s) eqn:E; [|apply yields_fail]. apply yields_ret. split; auto.
Qed.
Lemma fill_nil D : fill D [] = repeat 0 D.
Proof. induction D as [|D IH]; cbn [fill repeat]; auto. now rewrite IH. Qed.
Lemma fill_spec D : forall v, fill D v = firstn D v ++ repeat 0 (D - length v).
Proof.
  induction D as [|D IH]; intros v; [reflexivity|].
  destruct v as [|x v].
  - apply fill_nil.
  - cbn [fill firstn length app]. rewrite IH. reflexivity.
Qed.
Lemma fill_typed D v : Forall word64 v -> typed_array D (fill D v).
Proof.
  revert v. induction D as [|D IH]; intros v H; cbn [fill]; [split; auto|].
  destruct v as [|x v].
  - destruct (IH [] H) as [A B]. split; [cbn [length]; auto|]. constructor; auto. reflexivity.
  - inversion H; subst. destruct (IH v) as [A B]; auto. split; [cbn [length]; auto|]. constructor; auto.
Qed.
Lemma yields_arr D : yields (de_arr D) (typed_array D).
Proof.
  unfold de_arr. apply (yields_bind (de_seq de_u64) _ (fun v r => Ok (fill D v, r)) _ (yields_seq _ _ yields_u64)).
  intros v [_ H]. apply yields_ret. now apply fill_typed.
Qed.
Lemma sr_all v : forall a, mapM sr_new v = Ok a -> a = v /\ Forall (fun x => 0 < x) v.
Proof.
  induction v as [|x v IH]; intros a E; cbn [mapM] in E; [injection E as <-; auto|].
  apply bind_ok in E as (y & Ey & E). apply bind_ok in E as (a' & Ea & E). injection E as <-.
  unfold sr_new in Ey. destruct (N.eqb_spec x 0); [discriminate|]. injection Ey as <-.
  destruct (IH _ Ea) as [-> HF]. split; auto. constructor; auto. lia.
Qed.
Lemma yields_sr D : yields (de_sr D) (fun v => typed_array D v /\ Forall (fun x => 0 < x) v).
Proof.
  unfold de_sr. apply (yields_bind (de_seq de_u64) _ (fun v r => let* a := sr_array D v in Ok (a, r)) _ (yields_seq _ _ yields_u64)).
  intros v [_ H]. apply yields_res. intros a E. unfold sr_array in E. destruct (Nat.eqb_spec (length v) D); [|discriminate].
  apply sr_all in E as [-> HF]. split; auto. split; auto.
Qed.
Lemma words_of_spec n : forall b, is_bytes b -> Forall word64 (words_of n b) /\ length (words_of n b) = n.
Proof.
  induction n as [|n IH]; intros b Hb; cbn [words_of length]; [auto|].
  assert (H1 : is_bytes (firstn 8 b) /\ is_bytes (skipn 8 b)).
  { unfold is_bytes in *. rewrite <- (firstn_skipn 8 b) in Hb. now apply Forall_app in Hb. }
  destruct H1 as [H1 H2]. destruct (IH _ H2) as [A B]. split; auto. constructor; auto.
  pose proof (le_value_bound _ H1) as HL. unfold word64. eapply N.lt_le_trans; [exact HL|].
  change W64 with (256 ^ 8). apply N.pow_le_mono_r; [lia|]. unfold lenN. rewrite firstn_length. lia.
Qed.
Lemma split_typed D n : forall w, Forall word64 w -> ((2 + D) * n <= length w)%nat ->
  Forall (typed_chunk D) (split_records D n w) /\ length (split_records D n w) = n.
Proof.
  induction n as [|n IH]; intros w Hw HL; cbn [split_records]; [auto|].
  destruct w as [|a [|s o]]; cbn [length] in HL; try lia.
  inversion Hw as [|? ? Ha Hw1]; subst. inversion Hw1 as [|? ? Hs Ho]; subst.
  rewrite <- (firstn_skipn D o) in Ho. apply Forall_app in Ho as [Ho1 Ho2].
  destruct (IH (skipn D o) Ho2) as [A B]; [rewrite skipn_length; lia|].
  split; [|cbn [length]; auto]. constructor; auto. repeat split; cbn [c_addr c_size c_offset]; auto.
  rewrite firstn_length. lia.
Qed.
Lemma chunks_of_bytes_spec D v cs : is_bytes v -> chunks_of_bytes D v = Ok cs ->
  Forall (typed_chunk D) cs /\ (length v = length cs * (8 * (2 + D)))%nat.
Proof.
  intros Hv E. unfold chunks_of_bytes in E. apply bind_ok in E as ([] & E1 & E).
  unfold assert_ in E1. destruct (Nat.eqb_spec (length v mod 8) 0) as [E8|]; [|discriminate].
  unfold slice_from_u64s in E. apply bind_ok in E as ([] & E2 & E).
  destruct (words_of_spec (length v / 8) v Hv) as [W1 W2]. unfold assert_ in E2.
  destruct (Nat.eqb_spec (length (words_of (length v / 8) v) mod (2 + D)) 0) as [E9|]; [|discriminate].
  apply ok_inj in E. subst cs. rewrite W2 in *.
  pose proof (Nat.div_mod (length v) 8 ltac:(lia)) as X1. pose proof (Nat.div_mod (length v / 8) (2 + D) ltac:(lia)) as X2.
  destruct (split_typed D (length v / 8 / (2 + D)) (words_of (length v / 8) v) W1) as [A B]; [rewrite W2; lia|].
  split; auto. rewrite B. rewrite E8 in X1. rewrite E9 in X2.
  set (k := (length v / 8 / (2 + D))%nat) in *. set (j := (length v / 8)%nat) in *. rewrite X1, X2. lia.
Qed.
Lemma yields_chunks D : yields (de_chunks D) (fun cs => Forall (typed_chunk D) cs /\ lenN cs * (16 + 8 * N.of_nat D) < W64).
Proof.
  unfold de_chunks. apply (yields_bind de_bytes _ (fun v r => let* a := chunks_of_bytes D v in Ok (a, r)) _ yields_bytes).
  intros v [HL HB]. apply yields_res. intros cs E. destruct (chunks_of_bytes_spec D v cs HB E) as [A B]. split; auto.
  unfold lenN in *. lia.
Qed.
Lemma yields_datatype : yields de_datatype (fun d => word64 (dt_size d)).
Proof.
  unfold de_datatype.
  apply (yields_bind de_u32 _ (fun t r => match t with
    | 0 => let* (s, r') := de_u64 r in Ok (UInt s, r') | 1 => let* (s, r') := de_u64 r in Ok (Int s, r')
    | 2 => let* (s, r') := de_u64 r in Ok (Float s, r') | 3 => let* (s, r') := de_u64 r in Ok (Custom s, r')
    | _ => Err EDe end) _ yields_u32).
  assert (X : forall f : N -> datatype, (forall s, dt_size (f s) = s) ->
    yields (fun r => let* (s, r') := de_u64 r in Ok (f s, r')) (fun d => word64 (dt_size d))).
  { intros f Hf. apply (yields_bind de_u64 word64 (fun s r => Ok (f s, r))); [apply yields_u64|].
    intros s Hs. apply yields_ret. now rewrite Hf. }
  intros [|[[?|?|]|[?|?|]|]] _; try apply yields_fail; first [apply (X UInt)|apply (X Int)|apply (X Float)|apply (X Custom)]; reflexivity.
Qed.
Lemma yields_order : yields de_order (fun _ => True).
Proof.
  unfold de_order.
  apply (yields_bind de_u32 _ (fun t r => match t with 0 => Ok (BE, r) | 1 => Ok (LE, r) | 2 => Ok (Unknown, r) | _ => Err EDe end) _ yields_u32).
  intros [|[[?|?|]|[?|?|]|]] _; first [apply yields_fail|now apply yields_ret].
Qed.

Ltac step H :=
  match type of H with
  | _ = Ok (_, _) =>
    let E := fresh "E" in let x := fresh "x" in let b := fresh "b" in
    apply bind_ok in H; destruct H as ([x b] & E & H)
  end.
Lemma yields_dataset D : (D <= 9)%nat -> yields (de_dataset D) (typed_dataset D).
Proof.
  intros HD b d r Hb H. unfold de_dataset in H. cbv beta in H.
  apply bind_ok in H as ([x1 b1] & E1 & H). apply yields_datatype in E1 as (P1 & Hb1 & L1); [|assumption].
  apply bind_ok in H as ([x2 b2] & E2 & H). apply yields_u64 in E2 as (P2 & Hb2 & L2); [|assumption].
  apply bind_ok in H as ([x3 b3] & E3 & H). apply yields_order in E3 as (P3 & Hb3 & L3); [|assumption].
  apply bind_ok in H as ([x4 b4] & E4 & H). apply (yields_chunks D) in E4 as (P4 & Hb4 & L4); [|assumption].
  apply bind_ok in H as ([x5 b5] & E5 & H). apply (yields_arr D) in E5 as (P5 & Hb5 & L5); [|assumption].
  apply bind_ok in H as ([x6 b6] & E6 & H). apply (yields_arr D) in E6 as (P6 & Hb6 & L6); [|assumption].
  apply bind_ok in H as ([x7 b7] & E7 & H). apply (yields_sr D) in E7 as (P7 & Hb7 & L7); [|assumption].
  apply bind_ok in H as ([x8 b8] & E8 & H). apply (yields_arr D) in E8 as (P8 & Hb8 & L8); [|assumption].
  apply bind_ok in H as ([x9 b9] & E9 & H). apply (yields_arr D) in E9 as (P9 & Hb9 & L9); [|assumption].
  apply bind_ok in H as ([x10 b10] & E10 & H). apply (yields_arr D) in E10 as (P10 & Hb10 & L10); [|assumption].
  apply bind_ok in H as ([x11 b11] & E11 & H). apply yields_bool in E11 as (P11 & Hb11 & L11); [|assumption].
  apply bind_ok in H as ([x12 b12] & E12 & H). apply (yields_option _ _ yields_u8) in E12 as (P12 & Hb12 & L12); [|assumption].
  injection H as <- <-. split; [|split; [assumption|lia]].
  destruct P4, P7. constructor; cbn; auto.
Qed.
Lemma yields_datasetd : yields de_datasetd (fun d => exists D, typed_dataset D d).
Proof.
  unfold de_datasetd. apply (yields_bind de_u32 _ (fun t r => if t <=? 9 then de_dataset (N.to_nat t) r else Err EDe) _ yields_u32).
  intros t _. destruct (N.leb_spec t 9); [|apply yields_fail].
  eapply yields_weaken; [apply yields_dataset; lia|]. intros d Hd. eauto.
Qed.

Lemma hput_keys {A} k (v : A) h : forall k', In k' (map fst (hput k v h)) <-> k' = k \/ In k' (map fst h).
Proof.
  induction h as [|[k0 v0] h IH]; intros k'; cbn [hput map fst In]; [intuition|].
  destruct (str_eqb k k0) eqn:E; cbn [map fst In].
  - apply str_eqb_spec in E. subst. intuition.
  - rewrite IH. intuition.
Qed.
Lemma hput_nodup {A} k (v : A) h : NoDup (map fst h) -> NoDup (map fst (hput k v h)).
Proof.
  induction h as [|[k0 v0] h IH]; intros H; cbn [hput map fst]; [constructor; [easy|constructor]|].
  destruct (str_eqb k k0) eqn:E; cbn [map fst].
  - apply str_eqb_spec in E. now subst.
  - cbn [map fst] in H. inversion H as [|? ? A1 A2]; subst. constructor; auto.
    rewrite hput_keys. intros [-> |?]; auto. now rewrite str_eqb_refl in E.
Qed.
Lemma hput_length {A} k (v : A) h : (length (hput k v h) <= S (length h))%nat.
Proof. induction h as [|[k0 v0] h IH]; cbn [hput length]; auto. destruct (str_eqb k k0); cbn [length]; lia. Qed.
Lemma hput_forall {A} (P : str * A -> Prop) k v h : P (k, v) -> Forall P h -> Forall P (hput k v h).
Proof.
  intros H. induction 1 as [|[k0 v0] h H1 H2 IH]; cbn [hput]; [auto|]. destruct (str_eqb k k0); auto.
Qed.
Lemma hcollect_spec {A} (P : str * A -> Prop) (l : list (str * A)) : Forall P l ->
  NoDup (map fst (hcollect l)) /\ (length (hcollect l) <= length l)%nat /\ Forall P (hcollect l).
Proof.
  unfold hcollect. intros H.
  assert (G : forall h, NoDup (map fst h) -> Forall P h ->
    let h' := fold_left (fun h kv => hput (fst kv) (snd kv) h) l h in
    NoDup (map fst h') /\ (length h' <= length h + length l)%nat /\ Forall P h').
  { induction H as [|[k v] l H1 H2 IH]; intros h A1 A2; cbn [fold_left fst snd length].
    - split; auto. split; auto. lia.
    - destruct (IH (hput k v h)) as (B1 & B2 & B3); [now apply hput_nodup|now apply hput_forall|].
      split; auto. split; auto. pose proof (hput_length k v h). lia. }
  apply (G []); constructor.
Qed.
Lemma yields_map {A} (p : parser A) P : yields p P -> yields (de_map p) (fun h => typed_keys h /\ Forall (fun kv => P (snd kv)) h).
Proof.
  intros Hp. unfold de_map.
  pose (e := fun b : byte_str => let* (k, r) := de_string b in let* (v, r') := p r in Ok ((k, v), r')).
  assert (He : yields e (fun kv => typed_string (fst kv) /\ P (snd kv))).
  { apply (yields_bind de_string _ (fun k r => let* (v, r') := p r in Ok ((k, v), r')) _ yields_string).
    intros k Hk. apply (yields_bind p P (fun v r => Ok ((k, v), r))); auto. intros v Hv. now apply yields_ret. }
  apply (yields_bind (de_seq e) _ (fun l r => Ok (hcollect l, r)) _ (yields_seq _ _ He)).
  intros l [HL HF]. apply yields_ret. destruct (hcollect_spec _ l HF) as (A1 & A2 & A3).
  split; [split; auto; split|].
  - rewrite Forall_map. eapply Forall_impl; [|exact A3]. cbn beta. now intros kv [? _].
  - unfold lenN in *. lia.
  - eapply Forall_impl; [|exact A3]. cbn beta. now intros kv [_ ?].
Qed.
Lemma yields_path : yields (de_option de_string) (fun p => typed_path p /\ utf8_path p).
Proof.
  eapply yields_weaken; [apply yields_option, yields_string|]. cbn beta. intros p H. split; intros s E; now destruct (H s E).
Qed.
Lemma yields_group fuel : yields (de_group fuel) (fun g => typed_group g /\ utf8_group g).
Proof.
  induction fuel as [|fuel IH]; intros b g r Hb H; [discriminate|]. rewrite de_group_S in H.
  apply bind_ok in H as ([p b1] & E1 & H). apply yields_path in E1 as (P1 & Hb1 & L1); [|assumption].
  apply bind_ok in H as ([ds b2] & E2 & H). apply (yields_map _ _ yields_datasetd) in E2 as (P2 & Hb2 & L2); [|assumption].
  apply bind_ok in H as ([gs b3] & E3 & H). apply (yields_map _ _ IH) in E3 as (P3 & Hb3 & L3); [|assumption].
  injection H as <- <-. split; [|split; [assumption|lia]].
  destruct P1, P2, P3 as [K F]. split; constructor; auto; (eapply Forall_impl; [|exact F]); cbn beta; now intros kv [? ?].
Qed.
Lemma yields_index fuel : yields (de_index fuel) (fun i => typed_index i /\ utf8_path (i_path i) /\ utf8_group (i_root i)).
Proof.
  intros b i r Hb H. unfold de_index in H.
  apply bind_ok in H as ([p b1] & E1 & H). apply yields_path in E1 as (P1 & Hb1 & L1); [|assumption].
  apply bind_ok in H as ([g b2] & E2 & H). apply yields_group in E2 as (P2 & Hb2 & L2); [|assumption].
  injection H as <- <-. destruct P1, P2. split; [|split; [assumption|lia]]. repeat split; auto.
Qed.

(** ** The fuel *)

(** [calm n p]: on inputs shorter than [n], [p] never hangs; and it never lengthens. *)
Definition calm {A} (n : nat) (p : parser A) : Prop :=
  forall b, (length b < n)%nat -> p b <> Hang /\ forall x r, p b = Ok (x, r) -> (length r <= length b)%nat.
Lemma calm_bind {A B} n (p : parser A) (f : A -> parser B) :
  calm n p -> (forall x, calm n (f x)) -> calm n (fun b => let* (x, r) := p b in f x r).
Proof.
  intros Hp Hf b Hb. destruct (Hp b Hb) as [H1 H2]. destruct (p b) as [[x r1]| | | |] eqn:E; cbn [bind]; try (split; [discriminate|]); try discriminate; try contradiction.
  specialize (H2 x r1 eq_refl). destruct (Hf x r1) as [H3 H4]; [lia|]. split; auto. intros y r E'. specialize (H4 y r E'). lia.
Qed.
Lemma calm_ret {A} n (x : A) : calm n (fun b => Ok (x, b)).
Proof. intros b Hb. split; [discriminate|]. intros y r [= <- <-]. auto. Qed.
Lemma calm_fail {A} n e : calm n (fun _ : byte_str => @Err (A * byte_str) e).
Proof. intros b Hb. split; discriminate. Qed.
Lemma calm_res {A} n (x : res A) : x <> Hang -> calm n (fun b => let* v := x in Ok (v, b)).
Proof. intros H b Hb. destruct x; cbn [bind]; try contradiction; split; try discriminate. intros ? ? [= <- <-]. auto. Qed.
Lemma calm_take n k : calm n (take k).
Proof.
  intros b Hb. unfold take. destruct (k <=? lenN b); split; try discriminate. intros x r [= <- <-]. rewrite skipn_length. lia.
Qed.
Lemma calm_u64 n : calm n de_u64.
Proof. apply (calm_bind n (take 8) (fun x b => Ok (le_value x, b))); [apply calm_take|intros; apply calm_ret]. Qed.
Lemma calm_u32 n : calm n de_u32.
Proof. apply (calm_bind n (take 4) (fun x b => Ok (le_value x, b))); [apply calm_take|intros; apply calm_ret]. Qed.
Lemma calm_u8 n : calm n de_u8.
Proof. apply (calm_bind n (take 1) (fun x b => Ok (le_value x, b))); [apply calm_take|intros; apply calm_ret]. Qed.
Lemma calm_bool n : calm n de_bool.
Proof.
  apply (calm_bind n de_u8 (fun t r => if t =? 0 then Ok (false, r) else if t =? 1 then Ok (true, r) else Err EDe)); [apply calm_u8|].
  intros t. destruct (t =? 0); [apply calm_ret|]. destruct (t =? 1); [apply calm_ret|apply calm_fail].
Qed.
Lemma calm_option {A} n (p : parser A) : calm n p -> calm n (de_option p).
Proof.
  intros Hp. apply (calm_bind n de_u8 (fun t r => if t =? 0 then Ok (None, r) else if t =? 1 then let* (x, r') := p r in Ok (Some x, r') else Err EDe)); [apply calm_u8|].
  intros t. destruct (t =? 0); [apply calm_ret|]. destruct (t =? 1); [|apply calm_fail].
  apply (calm_bind n p (fun x r => Ok (Some x, r))); auto. intros; apply calm_ret.
Qed.
Lemma calm_bytes n : calm n de_bytes.
Proof. apply (calm_bind n de_u64 take); [apply calm_u64|apply calm_take]. Qed.
Lemma calm_times {A} n (p : parser A) k : calm n p -> calm n (de_times k p).
Proof.
  intros Hp. induction k as [|k IH]; cbn [de_times]; [apply calm_ret|].
  apply (calm_bind n p (fun x r => let* (xs, r') := de_times k p r in Ok (x :: xs, r'))); auto.
  intros x. apply (calm_bind n (de_times k p) (fun xs r => Ok (x :: xs, r))); auto. intros; apply calm_ret.
Qed.
Lemma calm_seq {A} n (p : parser A) : calm n p -> calm n (de_seq p).
Proof.
  intros Hp. apply (calm_bind n de_u64 (fun k => de_times (N.to_nat k) p)); [apply calm_u64|]. intros. now apply calm_times.
Qed.
Lemma calm_string n : calm n de_string.
Proof.
  apply (calm_bind n de_bytes (fun s r => if utf8 s then Ok (s, r) else Err EDe)); [apply calm_bytes|].
  intros s. destruct (utf8 s); [apply calm_ret|apply calm_fail].
Qed.
Lemma calm_arr n D : calm n (de_arr D).
Proof. apply (calm_bind n (de_seq de_u64) (fun v r => Ok (fill D v, r))); [apply calm_seq, calm_u64|intros; apply calm_ret]. Qed.
Lemma sr_calm v : mapM sr_new v <> Hang.
Proof.
  induction v as [|x v IH]; cbn [mapM]; [discriminate|]. unfold sr_new at 1. destruct (x =? 0); cbn [bind]; [discriminate|].
  destruct (mapM sr_new v); cbn [bind]; congruence.
Qed.
Lemma calm_sr n D : calm n (de_sr D).
Proof.
  apply (calm_bind n (de_seq de_u64) (fun v r => let* a := sr_array D v in Ok (a, r))); [apply calm_seq, calm_u64|].
  intros v. apply calm_res. unfold sr_array. destruct (length v =? D)%nat; [apply sr_calm|discriminate].
Qed.
Lemma calm_chunks n D : calm n (de_chunks D).
Proof.
  apply (calm_bind n de_bytes (fun v r => let* a := chunks_of_bytes D v in Ok (a, r))); [apply calm_bytes|].
  intros v. apply calm_res. unfold chunks_of_bytes, assert_, slice_from_u64s, assert_. destruct (_ =? _)%nat; cbn [bind]; [|discriminate].
  destruct (_ =? _)%nat; cbn [bind]; discriminate.
Qed.
Lemma calm_datatype n : calm n de_datatype.
Proof.
  apply (calm_bind n de_u32 (fun t r => match t with
    | 0 => let* (s, r') := de_u64 r in Ok (UInt s, r') | 1 => let* (s, r') := de_u64 r in Ok (Int s, r')
    | 2 => let* (s, r') := de_u64 r in Ok (Float s, r') | 3 => let* (s, r') := de_u64 r in Ok (Custom s, r')
    | _ => Err EDe end)); [apply calm_u32|].
  assert (X : forall f : N -> datatype, calm n (fun r => let* (s, r') := de_u64 r in Ok (f s, r'))).
  { intros f. apply (calm_bind n de_u64 (fun s r => Ok (f s, r))); [apply calm_u64|intros; apply calm_ret]. }
  intros [|[[?|?|]|[?|?|]|]]; try apply calm_fail; first [apply (X UInt)|apply (X Int)|apply (X Float)|apply (X Custom)].
Qed.
Lemma calm_order n : calm n de_order.
Proof.
  apply (calm_bind n de_u32 (fun t r => match t with 0 => Ok (BE, r) | 1 => Ok (LE, r) | 2 => Ok (Unknown, r) | _ => Err EDe end)); [apply calm_u32|].
  intros [|[[?|?|]|[?|?|]|]]; first [apply calm_fail|apply calm_ret].
Qed.
Lemma calm_dataset n D : calm n (de_dataset D).
Proof.
  unfold de_dataset.
  refine (calm_bind n de_datatype (fun x1 b => _) (calm_datatype n) (fun x1 => _)).
  refine (calm_bind n de_u64 (fun x2 b => _) (calm_u64 n) (fun x2 => _)).
  refine (calm_bind n de_order (fun x3 b => _) (calm_order n) (fun x3 => _)).
  refine (calm_bind n (de_chunks D) (fun x4 b => _) (calm_chunks n D) (fun x4 => _)).
  refine (calm_bind n (de_arr D) (fun x5 b => _) (calm_arr n D) (fun x5 => _)).
  refine (calm_bind n (de_arr D) (fun x6 b => _) (calm_arr n D) (fun x6 => _)).
  refine (calm_bind n (de_sr D) (fun x7 b => _) (calm_sr n D) (fun x7 => _)).
  refine (calm_bind n (de_arr D) (fun x8 b => _) (calm_arr n D) (fun x8 => _)).
  refine (calm_bind n (de_arr D) (fun x9 b => _) (calm_arr n D) (fun x9 => _)).
  refine (calm_bind n (de_arr D) (fun x10 b => _) (calm_arr n D) (fun x10 => _)).
  refine (calm_bind n de_bool (fun x11 b => _) (calm_bool n) (fun x11 => _)).
  refine (calm_bind n (de_option de_u8) (fun x12 b => _) (calm_option n _ (calm_u8 n)) (fun x12 => _)).
  apply calm_ret.
Qed.
Lemma calm_datasetd n : calm n de_datasetd.
Proof.
  apply (calm_bind n de_u32 (fun t r => if t <=? 9 then de_dataset (N.to_nat t) r else Err EDe)); [apply calm_u32|].
  intros t. destruct (t <=? 9); [apply calm_dataset|apply calm_fail].
Qed.
Lemma calm_map {A} n (p : parser A) : calm n p -> calm n (de_map p).
Proof.
  intros Hp.
  pose (e := fun b : byte_str => let* (k, r) := de_string b in let* (v, r') := p r in Ok ((k, v), r')).
  assert (He : calm n e).
  { apply (calm_bind n de_string (fun k r => let* (v, r') := p r in Ok ((k, v), r'))); [apply calm_string|].
    intros k. apply (calm_bind n p (fun v r => Ok ((k, v), r))); auto. intros; apply calm_ret. }
  apply (calm_bind n (de_seq e) (fun l r => Ok (hcollect l, r))); [now apply calm_seq|intros; apply calm_ret].
Qed.
Lemma u8_shorter b x r : de_u8 b = Ok (x, r) -> (length r < length b)%nat.
Proof.
  destruct b as [|y b]; [discriminate|]. intros E. pose proof (u8_goes y b) as G. cbn [app] in G. rewrite G in E.
  injection E as _ <-. cbn [length]. lia.
Qed.
Lemma option_shorter {A} n (p : parser A) : calm n p -> forall b, (length b < n)%nat -> forall x r, de_option p b = Ok (x, r) -> (length r < length b)%nat.
Proof.
  intros Hp b Hb x r E. unfold de_option in E. apply bind_ok in E as ([t b1] & E1 & E). apply u8_shorter in E1.
  destruct (t =? 0); [injection E as _ <-; auto|]. destruct (t =? 1); [|discriminate].
  apply bind_ok in E as ([y b2] & E2 & E). injection E as _ <-. apply Hp in E2; lia.
Qed.
Lemma calm_group fuel : calm fuel (de_group fuel).
Proof.
  induction fuel as [|fuel IH]; intros b Hb; [lia|]. rewrite de_group_S.
  destruct (calm_option (S fuel) _ (calm_string _) b Hb) as [H1 _].
  pose proof (option_shorter (S fuel) _ (calm_string _) b Hb) as H2.
  destruct (de_option de_string b) as [[p b1]| | | |]; cbn [bind]; try (split; discriminate); [|contradiction].
  specialize (H2 _ _ eq_refl).
  destruct (calm_bind fuel (de_map de_datasetd) (fun ds b => let* (gs, b) := de_map (de_group fuel) b in Ok (mkGroup p ds gs, b))
    (calm_map _ _ (calm_datasetd _))
    (fun ds => calm_bind fuel (de_map (de_group fuel)) (fun gs b => Ok (mkGroup p ds gs, b)) (calm_map _ _ IH) (fun gs => calm_ret fuel _))
    b1 ltac:(lia)) as [H3 H4].
  split; auto. intros x r E. specialize (H4 x r E). lia.
Qed.
Lemma calm_index fuel : calm fuel (de_index fuel).
Proof.
  apply (calm_bind fuel (de_option de_string) (fun p b => let* (g, b) := de_group fuel b in Ok (mkIndex p g, b)));
    [apply calm_option, calm_string|]. intros p.
  apply (calm_bind fuel (de_group fuel) (fun g b => Ok (mkIndex p g, b))); [apply calm_group|intros; apply calm_ret].
Qed.

(** [agrees p p']: whenever [p] does not hang, [p'] gives the same. *)
Definition agrees {A} (p p' : parser A) : Prop := forall b, p b <> Hang -> p' b = p b.
Lemma agrees_bind {A B} (p p' : parser A) (f f' : A -> parser B) : agrees p p' -> (forall x, agrees (f x) (f' x)) ->
  agrees (fun b => let* (x, r) := p b in f x r) (fun b => let* (x, r) := p' b in f' x r).
Proof.
  intros Hp Hf b H. specialize (Hp b). destruct (p b) as [[x r]| | | |]; rewrite ?Hp by discriminate; cbn [bind] in *; auto.
  - now apply Hf.
  - contradiction.
Qed.
Lemma agrees_refl {A} (p : parser A) : agrees p p.
Proof. now intros b _. Qed.
Lemma agrees_times {A} (p p' : parser A) n : agrees p p' -> agrees (de_times n p) (de_times n p').
Proof.
  intros H. induction n as [|n IH]; cbn [de_times]; [apply agrees_refl|].
  apply (agrees_bind p p' (fun x r => let* (xs, r') := de_times n p r in Ok (x :: xs, r'))
                          (fun x r => let* (xs, r') := de_times n p' r in Ok (x :: xs, r'))); auto.
  intros x. apply (agrees_bind (de_times n p) (de_times n p') (fun xs r => Ok (x :: xs, r)) (fun xs r => Ok (x :: xs, r))); auto.
  intros; apply agrees_refl.
Qed.
Lemma agrees_map {A} (p p' : parser A) : agrees p p' -> agrees (de_map p) (de_map p').
Proof.
  intros H. unfold de_map, de_seq.
  pose (e := fun b : byte_str => let* (k, r) := de_string b in let* (v, r') := p r in Ok ((k, v), r')).
  pose (e' := fun b : byte_str => let* (k, r) := de_string b in let* (v, r') := p' r in Ok ((k, v), r')).
  assert (He : agrees e e').
  { apply (agrees_bind de_string de_string (fun k r => let* (v, r') := p r in Ok ((k, v), r'))
                                           (fun k r => let* (v, r') := p' r in Ok ((k, v), r'))); [apply agrees_refl|].
    intros k. apply (agrees_bind p p' (fun v r => Ok ((k, v), r)) (fun v r => Ok ((k, v), r))); auto. intros; apply agrees_refl. }
  assert (Hs : agrees (fun b => let* (n, r) := de_u64 b in de_times (N.to_nat n) e r) (fun b => let* (n, r) := de_u64 b in de_times (N.to_nat n) e' r)).
  { apply (agrees_bind de_u64 de_u64 (fun n => de_times (N.to_nat n) e) (fun n => de_times (N.to_nat n) e')); [apply agrees_refl|].
    intros n. now apply agrees_times. }
  apply (agrees_bind _ _ (fun l r => Ok (hcollect l, r)) (fun l r => Ok (hcollect l, r)) Hs). intros; apply agrees_refl.
Qed.
Lemma agrees_group fuel : agrees (de_group fuel) (de_group (S fuel)).
Proof.
  induction fuel as [|fuel IH]; [now intros b H|].
  intros b. rewrite (de_group_S (S fuel)), (de_group_S fuel). revert b.
  apply (agrees_bind (de_option de_string) (de_option de_string)
    (fun p b => let* (ds, b) := de_map de_datasetd b in let* (gs, b) := de_map (de_group fuel) b in Ok (mkGroup p ds gs, b))
    (fun p b => let* (ds, b) := de_map de_datasetd b in let* (gs, b) := de_map (de_group (S fuel)) b in Ok (mkGroup p ds gs, b)));
    [apply agrees_refl|]. intros p.
  apply (agrees_bind (de_map de_datasetd) (de_map de_datasetd)
    (fun ds b => let* (gs, b) := de_map (de_group fuel) b in Ok (mkGroup p ds gs, b))
    (fun ds b => let* (gs, b) := de_map (de_group (S fuel)) b in Ok (mkGroup p ds gs, b))); [apply agrees_refl|]. intros ds.
  apply (agrees_bind _ _ (fun gs b => Ok (mkGroup p ds gs, b)) (fun gs b => Ok (mkGroup p ds gs, b)) (agrees_map _ _ IH)). intros; apply agrees_refl.
Qed.
Lemma agrees_index fuel : agrees (de_index fuel) (de_index (S fuel)).
Proof.
  apply (agrees_bind (de_option de_string) (de_option de_string) (fun p b => let* (g, b) := de_group fuel b in Ok (mkIndex p g, b))
    (fun p b => let* (g, b) := de_group (S fuel) b in Ok (mkIndex p g, b))); [apply agrees_refl|]. intros p.
  apply (agrees_bind _ _ (fun g b => Ok (mkIndex p g, b)) (fun g b => Ok (mkIndex p g, b)) (agrees_group fuel)). intros; apply agrees_refl.
Qed.
Lemma fuel_enough b fuel : (length b < fuel)%nat -> de_index fuel b = de_index (S (length b)) b /\ de_index fuel b <> Hang.
Proof.
  intros H. assert (X : forall k, de_index (S (length b) + k) b = de_index (S (length b)) b).
  { induction k as [|k IH]; [now rewrite Nat.add_0_r|]. rewrite Nat.add_succ_r, agrees_index; auto.
    rewrite IH. apply (calm_index (S (length b))). lia. }
  split; [|apply calm_index; auto]. replace fuel with (S (length b) + (fuel - S (length b)))%nat by lia. apply X.
Qed.

(** ** Depth and length *)
Lemma depth_length : forall g b, ser_group g = Ok b -> (depth g <= length b)%nat.
Proof.
  induction g as [p ds gs IH] using gindex_ind'. intros b E. rewrite ser_group_eq in E.
  apply bind_ok in E as (q & Eq & E). apply bind_ok in E as (subs & Es & E). apply ok_inj in E. subst b.
  assert (HS : (fold_right (fun kv d => Nat.max (depth (snd kv)) d) 0 gs <= length subs)%nat).
  { clear Eq. revert subs Es. induction IH as [|[k g] gs H HF IHf]; intros subs Es; cbn [fold_right]; [lia|].
    cbn [ser_subs] in Es. apply bind_ok in Es as (x & Ex & Es). apply bind_ok in Es as (r & Er & Es). apply ok_inj in Es. subst subs.
    cbn [snd] in *. specialize (H x Ex). specialize (IHf r Er). rewrite !app_length. lia. }
  cbn [depth]. rewrite !app_length. assert (1 <= length q)%nat; [|lia].
  destruct p as [s|]; cbn [ser_opt_path] in Eq.
  - apply bind_ok in Eq as (x & _ & Eq). apply ok_inj in Eq. subst q. cbn [length]. lia.
  - apply ok_inj in Eq. subst q. cbn [length]. lia.
Qed.

(** ** What the indexer produces *)

Lemma mul64_word m a b p : mul64 m a b = Ok p -> p < W64.
Proof.
  unfold mul64. destruct (N.ltb_spec (a * b) W64).
  - intros E. apply ok_inj in E. now subst p.
  - destruct m; [discriminate|]. intros E. apply ok_inj in E. subst p. apply N.mod_lt. unfold W64. lia.
Qed.
Lemma scan_mul_words m l : forall p r, word64 p -> scan_mul m p l = Ok r -> typed_array (length l) r.
Proof.
  induction l as [|c l IH]; intros p r Hp E; cbn [scan_mul] in E.
  - injection E as <-. split; auto.
  - apply bind_ok in E as (p' & Ep & E). apply bind_ok in E as (r' & Er & E). injection E as <-.
    destruct (IH p' r' (mul64_word _ _ _ _ Ep) Er) as [A B]. split; [cbn [length]; auto|]. constructor; auto.
Qed.
Lemma strides_words m l r : strides m l = Ok r -> typed_array (length l) r.
Proof.
  unfold strides. intros E. apply bind_ok in E as (x & Ex & E). injection E as <-.
  apply scan_mul_words in Ex as [A B]; [|reflexivity]. split.
  - now rewrite rev_length, A, rev_length.
  - now apply Forall_rev.
Qed.
Lemma chunk_insert_perm c l : Permutation (chunk_insert c l) (c :: l).
Proof.
  induction l as [|d l IH]; cbn [chunk_insert]; auto. destruct (chunk_cmp c d); auto.
  eapply perm_trans; [apply perm_skip, IH|apply perm_swap].
Qed.
Lemma chunk_sort_perm' l : Permutation (chunk_sort l) l.
Proof. induction l as [|c l IH]; cbn [chunk_sort]; auto. eapply perm_trans; [apply chunk_insert_perm|auto]. Qed.
Lemma mapM_length' {A B} (f : A -> res B) l : forall r, mapM f l = Ok r -> length r = length l.
Proof.
  induction l as [|a l IH]; intros r E; cbn [mapM] in E; [now injection E as <-|].
  apply bind_ok in E as (x & _ & E). apply bind_ok in E as (r' & Er & E). injection E as <-. cbn [length]. f_equal; auto.
Qed.
Lemma scan_filters_level fs : forall sh gz r, (forall z, In (FDeflate z) fs -> z < 256) -> (forall z, gz = Some z -> z < 256) ->
  scan_filters fs sh gz = Ok r -> forall z, snd r = Some z -> z < 256.
Proof.
  induction fs as [|f fs IH]; intros sh gz r H1 H2 E z Hz; cbn [scan_filters] in E; [injection E as <-; now apply H2|].
  destruct f as [|z'|].
  - eapply IH; [| |exact E|exact Hz]; auto. intros; apply H1; now right.
  - eapply IH; [| |exact E|exact Hz]; [intros; apply H1; now right|]. intros ? [= <-]. apply H1. now left.
  - discriminate.
Qed.
Lemma index_typed m h ds : typed_h5 h -> dataset_index m h = Ok ds -> typed_dataset (length (h_shape h)) ds.
Proof.
  intros [T1 T2 T3 T4 T5 T6 T7 T8 T9] E. unfold dataset_index in E.
  apply bind_ok in E as ([sh gz] & EF & E). apply bind_ok in E as (cs & EC & E).
  apply bind_ok in E as (g0 & _ & E). apply bind_ok in E as (ex & _ & E). apply bind_ok in E as ([] & _ & E).
  set (C := match h_chunk h with Some c => c | None => h_shape h end) in *.
  assert (HC : typed_array (length (h_shape h)) C).
  { unfold C. destruct (h_chunk h) as [c|]; [now apply T3|]. split; auto. }
  assert (Hcs : Forall (typed_chunk (length (h_shape h))) (chunk_sort cs) /\ lenN (chunk_sort cs) * (16 + 8 * N.of_nat (length (h_shape h))) < W64).
  { assert (X : Forall (typed_chunk (length (h_shape h))) cs /\ lenN cs * (16 + 8 * N.of_nat (length (h_shape h))) < W64).
    { destruct (h_is_chunked h), (h_offset h) as [o|] eqn:Eo; try discriminate; apply ok_inj in EC; subst cs.
      - split; auto.
      - split; [constructor; [|constructor]|unfold lenN, W64; cbn [length]; lia].
        repeat split; cbn [c_addr c_size c_offset]; auto; [apply map_length|].
        apply Forall_forall. intros x Hx. apply in_map_iff in Hx as (? & <- & _). reflexivity. }
    destruct X as [X1 X2]. pose proof (chunk_sort_perm' cs) as P. split.
    - eapply Permutation_Forall; [apply Permutation_sym; exact P|auto].
    - unfold lenN in *. now rewrite (Permutation_length P). }
  destruct Hcs as [Hc1 Hc2]. unfold dataset_new in E.
  apply bind_ok in E as (red & ER & E). apply bind_ok in E as (grid & EG & E).
  apply bind_ok in E as (sc & ES & E). apply bind_ok in E as (dm & ED & E). apply bind_ok in E as (cd & EK & E).
  apply ok_inj in E. subst ds. destruct HC as [HC1 HC2].
  apply sr_all in ER as [-> HP]. apply mapM_length' in EG. rewrite combine_length, HC1, Nat.min_id in EG.
  apply strides_words in ES, ED, EK. rewrite EG in ES. rewrite HC1 in EK.
  constructor; cbn [d_dtype d_dsize d_chunks d_shape d_chunk_shape d_chunk_shape_reduced d_scaled_dim_sz d_dim_sz d_chunk_dim_sz d_gzip]; auto; try (split; auto).
  intros z Hz. eapply (scan_filters_level _ false None); [exact T8|discriminate|exact EF|exact Hz].
Qed.
