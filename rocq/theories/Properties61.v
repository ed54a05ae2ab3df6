(** * C85: a cut-off index is an error, not a panic, and what makes the loader panic. *)
From Coq Require Import List NArith Lia Bool String.
From Verif Require Import Base Spec SpecText Chunk Dataset IndexTree Serde SpecSerde SpecTree SerdeProofs SerdeTyped TreeProofs
  Examples Tools Properties7 Properties11.
Import ListNotations.
Open Scope N_scope.

(** A parser that goes on after more input the way it did, whose only error is [EDe]. *)
Record plain {A} (p : parser A) : Prop := {
  pl_mono : mono p;
  pl_panic : forall b q, p b = Panic -> p (b ++ q) = Panic;
  pl_err : forall b e, p b = Err e -> e = EDe;
  pl_ub : forall b, p b <> Ub
}.

Lemma plain_bind {A B} (p : parser A) (f : A -> parser B) : plain p -> (forall x, plain (f x)) ->
  plain (fun b => let* (x, r) := p b in f x r).
Proof.
  intros [M1 P1 E1 U1] H. split.
  - apply mono_bind; auto. intros x. apply (H x).
  - intros b q E. destruct (p b) as [[x r]| | | |] eqn:Eb; cbn [bind] in E; try discriminate.
    + rewrite (M1 _ _ _ q Eb). cbn [bind]. now apply H.
    + rewrite (P1 _ q Eb). reflexivity.
  - intros b e E. destruct (p b) as [[x r]| | | |] eqn:Eb; cbn [bind] in E; try discriminate.
    + now apply H in E.
    + injection E as <-. eauto.
  - intros b E. destruct (p b) as [[x r]| | | |] eqn:Eb; cbn [bind] in E; try discriminate.
    + now apply H in E.
    + now apply U1 in Eb.
Qed.
Lemma plain_ret {A} (x : A) : plain (fun b => Ok (x, b)).
Proof. split; [apply mono_ret|discriminate|discriminate|discriminate]. Qed.
Lemma plain_fail {A} : plain (fun _ : byte_str => @Err (A * byte_str) EDe).
Proof. split; [apply mono_fail|discriminate|congruence|discriminate]. Qed.
Lemma plain_res {A} (x : res A) : (forall e, x = Err e -> e = EDe) -> x <> Ub ->
  plain (fun b => let* v := x in Ok (v, b)).
Proof.
  intros HE HU. split; [apply mono_res|..]; destruct x; cbn [bind]; try discriminate; auto; try congruence.
  intros _ e' [= ->]. now apply HE.
Qed.
Lemma plain_take n : plain (take n).
Proof.
  split; [apply mono_take|..]; unfold take; intros b; destruct (n <=? lenN b); try discriminate; congruence.
Qed.
Lemma plain_hang {A} : plain (fun _ : byte_str => @Hang (A * byte_str)).
Proof. split; [intros ? ? ? ? ?; discriminate|discriminate|discriminate|discriminate]. Qed.

Lemma plain_u64 : plain de_u64.
Proof. apply (plain_bind (take 8) (fun x b => Ok (le_value x, b))); [apply plain_take|intros; apply plain_ret]. Qed.
Lemma plain_u32 : plain de_u32.
Proof. apply (plain_bind (take 4) (fun x b => Ok (le_value x, b))); [apply plain_take|intros; apply plain_ret]. Qed.
Lemma plain_u8 : plain de_u8.
Proof. apply (plain_bind (take 1) (fun x b => Ok (le_value x, b))); [apply plain_take|intros; apply plain_ret]. Qed.
Lemma plain_bool : plain de_bool.
Proof.
  apply (plain_bind de_u8 (fun t r => if t =? 0 then Ok (false, r) else if t =? 1 then Ok (true, r) else Err EDe)); [apply plain_u8|].
  intros t. destruct (t =? 0); [apply plain_ret|]. destruct (t =? 1); [apply plain_ret|apply plain_fail].
Qed.
Lemma plain_option {A} (p : parser A) : plain p -> plain (de_option p).
Proof.
  intros Hp.
  apply (plain_bind de_u8 (fun t r => if t =? 0 then Ok (None, r) else if t =? 1 then let* (x, r') := p r in Ok (Some x, r') else Err EDe)); [apply plain_u8|].
  intros t. destruct (t =? 0); [apply plain_ret|]. destruct (t =? 1); [|apply plain_fail].
  apply (plain_bind p (fun x r => Ok (Some x, r))); auto. intros; apply plain_ret.
Qed.
Lemma plain_bytes : plain de_bytes.
Proof. apply (plain_bind de_u64 take); [apply plain_u64|apply plain_take]. Qed.
Lemma plain_times {A} (p : parser A) n : plain p -> plain (de_times n p).
Proof.
  intros Hp. induction n as [|n IH]; cbn [de_times]; [apply plain_ret|].
  apply (plain_bind p (fun x r => let* (xs, r') := de_times n p r in Ok (x :: xs, r'))); auto.
  intros x. apply (plain_bind (de_times n p) (fun xs r => Ok (x :: xs, r))); auto. intros; apply plain_ret.
Qed.
Lemma plain_seq {A} (p : parser A) : plain p -> plain (de_seq p).
Proof.
  intros Hp. apply (plain_bind de_u64 (fun n => de_times (N.to_nat n) p)); [apply plain_u64|].
  intros. now apply plain_times.
Qed.
Lemma plain_string : plain de_string.
Proof.
  apply (plain_bind de_bytes (fun s r => if utf8 s then Ok (s, r) else Err EDe)); [apply plain_bytes|].
  intros s. destruct (utf8 s); [apply plain_ret|apply plain_fail].
Qed.
Lemma plain_arr D : plain (de_arr D).
Proof.
  apply (plain_bind (de_seq de_u64) (fun v r => Ok (fill D v, r))); [apply plain_seq, plain_u64|intros; apply plain_ret].
Qed.
Lemma sr_all v : mapM sr_new v = if existsb (fun x => x =? 0) v then Panic else Ok v.
Proof.
  induction v as [|x v IH]; cbn [mapM existsb]; auto. unfold sr_new at 1. destruct (x =? 0); cbn [orb bind]; auto.
  rewrite IH. destruct (existsb (fun x => x =? 0) v); reflexivity.
Qed.
Lemma plain_sr D : plain (de_sr D).
Proof.
  apply (plain_bind (de_seq de_u64) (fun v r => let* a := sr_array D v in Ok (a, r))); [apply plain_seq, plain_u64|].
  intros v. apply plain_res; unfold sr_array; destruct (length v =? D)%nat; rewrite ?sr_all;
    try destruct (existsb (fun x => x =? 0) v); try discriminate; congruence.
Qed.
Lemma plain_chunks D : plain (de_chunks D).
Proof.
  apply (plain_bind de_bytes (fun v r => let* a := chunks_of_bytes D v in Ok (a, r))); [apply plain_bytes|].
  intros v. apply plain_res; unfold chunks_of_bytes, slice_from_u64s, assert_; destruct (_ =? _)%nat; cbn [bind];
    try discriminate; destruct (_ =? _)%nat; cbn [bind]; discriminate.
Qed.
Lemma plain_datatype : plain de_datatype.
Proof.
  apply (plain_bind de_u32 (fun t r => match t with
    | 0 => let* (s, r') := de_u64 r in Ok (UInt s, r') | 1 => let* (s, r') := de_u64 r in Ok (Int s, r')
    | 2 => let* (s, r') := de_u64 r in Ok (Float s, r') | 3 => let* (s, r') := de_u64 r in Ok (Custom s, r')
    | _ => Err EDe end)); [apply plain_u32|].
  assert (X : forall f : N -> datatype, plain (fun r => let* (s, r') := de_u64 r in Ok (f s, r'))).
  { intros f. apply (plain_bind de_u64 (fun s r => Ok (f s, r))); [apply plain_u64|intros; apply plain_ret]. }
  intros [|[[?|?|]|[?|?|]|]]; try apply plain_fail; first [apply (X UInt)|apply (X Int)|apply (X Float)|apply (X Custom)].
Qed.
Lemma plain_order : plain de_order.
Proof.
  apply (plain_bind de_u32 (fun t r => match t with 0 => Ok (BE, r) | 1 => Ok (LE, r) | 2 => Ok (Unknown, r) | _ => Err EDe end)); [apply plain_u32|].
  intros [|[[?|?|]|[?|?|]|]]; first [apply plain_fail|apply plain_ret].
Qed.
Lemma plain_dataset D : plain (de_dataset D).
Proof.
  unfold de_dataset.
  refine (plain_bind de_datatype _ plain_datatype _); intros.
  refine (plain_bind de_u64 _ plain_u64 _); intros.
  refine (plain_bind de_order _ plain_order _); intros.
  refine (plain_bind (de_chunks D) _ (plain_chunks D) _); intros.
  refine (plain_bind (de_arr D) _ (plain_arr D) _); intros.
  refine (plain_bind (de_arr D) _ (plain_arr D) _); intros.
  refine (plain_bind (de_sr D) _ (plain_sr D) _); intros.
  refine (plain_bind (de_arr D) _ (plain_arr D) _); intros.
  refine (plain_bind (de_arr D) _ (plain_arr D) _); intros.
  refine (plain_bind (de_arr D) _ (plain_arr D) _); intros.
  refine (plain_bind de_bool _ plain_bool _); intros.
  refine (plain_bind (de_option de_u8) _ (plain_option _ plain_u8) _); intros.
  apply plain_ret.
Qed.
Lemma plain_datasetd : plain de_datasetd.
Proof.
  apply (plain_bind de_u32 (fun t r => if t <=? 9 then de_dataset (N.to_nat t) r else Err EDe)); [apply plain_u32|].
  intros t. destruct (t <=? 9); [apply plain_dataset|apply plain_fail].
Qed.
Lemma plain_map {A} (p : parser A) : plain p -> plain (de_map p).
Proof.
  intros Hp.
  pose (e := fun b : byte_str => let* (k, r) := de_string b in let* (v, r') := p r in Ok ((k, v), r')).
  assert (He : plain e).
  { apply (plain_bind de_string (fun k r => let* (v, r') := p r in Ok ((k, v), r'))); [apply plain_string|].
    intros k. apply (plain_bind p (fun v r => Ok ((k, v), r))); auto. intros; apply plain_ret. }
  apply (plain_bind (de_seq e) (fun l r => Ok (hcollect l, r))); [now apply plain_seq|intros; apply plain_ret].
Qed.
Lemma plain_group fuel : plain (de_group fuel).
Proof.
  induction fuel as [|fuel IH]; cbn [de_group]; [apply plain_hang|].
  refine (plain_bind (de_option de_string) _ (plain_option _ plain_string) _); intros.
  refine (plain_bind (de_map de_datasetd) _ (plain_map _ plain_datasetd) _); intros.
  refine (plain_bind (de_map (de_group fuel)) _ (plain_map _ IH) _); intros.
  apply plain_ret.
Qed.
Lemma plain_index fuel : plain (de_index fuel).
Proof.
  unfold de_index. refine (plain_bind (de_option de_string) _ (plain_option _ plain_string) _); intros.
  refine (plain_bind (de_group fuel) _ (plain_group fuel) _); intros. apply plain_ret.
Qed.

Lemma plain_prefix {A} (p : parser A) b x : plain p -> p b = Ok (x, []) ->
  forall pre q, b = pre ++ q -> q <> [] -> p pre = Err EDe \/ p pre = Hang.
Proof.
  intros HP E pre q Eb Hq. destruct (p pre) as [[y r]|e| | |] eqn:Ep; auto.
  - exfalso. exact (prefix_rejected p b x (pl_mono _ HP) E pre q y r Eb Hq Ep).
  - left. f_equal. eapply pl_err; eauto.
  - apply (pl_panic _ HP _ q) in Ep. rewrite <- Eb in Ep. congruence.
  - exfalso. eapply pl_ub; eauto.
Qed.

(** C85: what is left of an index that was cut short anywhere is refused with an error: no
    panic, no index. *)
Theorem C85_truncated i b pre q : typed_index i -> bincode_serialize i = Ok b -> b = pre ++ q -> q <> [] ->
  bincode_deserialize pre = Err EDe.
Proof.
  intros HT E EP Hq.
  assert (HI : de_index (S (length b)) b = Ok (i, [])).
  { rewrite <- (app_nil_r b) at 2. apply (index_goes i b); auto. unfold bincode_serialize, ser_index in E.
    apply bind_ok in E as (p & Ep & E). apply bind_ok in E as (g & Eg & E). apply ok_inj in E. subst b.
    apply depth_length in Eg. rewrite app_length. lia. }
  assert (HF : (length pre < S (length b))%nat) by (rewrite EP, app_length; lia).
  destruct (fuel_enough pre (S (length b)) HF) as [HE HH].
  unfold bincode_deserialize. rewrite <- HE.
  destruct (plain_prefix _ b i (plain_index _) HI pre q EP Hq) as [-> |X]; [reflexivity|contradiction].
Qed.

(** The same for one dataset. *)
Theorem C85_truncated_dataset D d pre q : typed_dataset D d -> ser_dataset d = pre ++ q -> q <> [] ->
  de_dataset D pre = Err EDe.
Proof.
  intros H E Hq.
  assert (HI : de_dataset D (ser_dataset d) = Ok (d, [])) by (rewrite <- (app_nil_r (ser_dataset d)); now apply C39_dataset).
  destruct (plain_prefix _ _ d (plain_dataset D) HI pre q E Hq) as [-> |X]; auto.
  exfalso. destruct (calm_dataset (S (length pre)) D pre) as [N _]; [lia|contradiction].
Qed.

(** ** What the loader panics on *)

(** The bytes of a dataset of rank [D] up to the chunk table: data type, element size, byte
    order; then a byte string [v], and what follows. *)
Definition table_at (b v rest : byte_str) : Prop :=
  exists dt sz o, word64 (dt_size dt) /\ word64 sz /\ lenN v < W64 /\
    b = ser_datatype dt ++ ser_u64 sz ++ ser_order o ++ ser_bytes v ++ rest.
(** After it the shape and the chunk shape, of any lengths, and the divisors [w]. *)
Definition divisors_at (b w rest : byte_str) : Prop :=
  exists sh csh, Forall word64 sh /\ Forall word64 csh /\ Forall word64 w /\
    lenN sh < W64 /\ lenN csh < W64 /\ lenN w < W64 /\ b = ser_arr sh ++ ser_arr csh ++ ser_arr w ++ rest.

(** [undoes p ser P]: what [p] reads is what [ser] writes. *)
Definition undoes {A} (p : parser A) (ser : A -> byte_str) : Prop :=
  forall b x r, is_bytes b -> p b = Ok (x, r) -> b = ser x ++ r.

Lemma le_bytes_value l : is_bytes l -> le_bytes (length l) (le_value l) = l.
Proof.
  induction 1 as [|x l Hx Hl IH]; cbn [length le_bytes le_value]; auto.
  assert (E1 : (x + 256 * le_value l) mod 256 = x).
  { rewrite N.mul_comm, N.mod_add by lia. now apply N.mod_small. }
  assert (E2 : (x + 256 * le_value l) / 256 = le_value l).
  { rewrite N.mul_comm, N.div_add by lia. rewrite N.div_small by auto. lia. }
  rewrite E1, E2. now f_equal.
Qed.
Lemma undoes_take n : undoes (take n) (fun x => x).
Proof.
  intros b x r _ E. unfold take in E. destruct (n <=? lenN b); [|discriminate]. injection E as <- <-.
  symmetry. apply firstn_skipn.
Qed.
Lemma undoes_word k : undoes (fun b => let* (x, r) := take (N.of_nat k) b in Ok (le_value x, r)) (le_bytes k).
Proof.
  intros b x r Hb E. apply bind_ok in E as ([y r'] & E & H). injection H as <- <-.
  pose proof (undoes_take _ _ _ _ Hb E) as U. pose proof (yields_take (N.of_nat k) _ _ _ Hb E) as [[HL HB] _].
  rewrite U. f_equal. symmetry. replace k with (length y) by (unfold lenN in HL; lia). now apply le_bytes_value.
Qed.
Lemma undoes_u64 : undoes de_u64 ser_u64. Proof. exact (undoes_word 8). Qed.
Lemma undoes_u32 : undoes de_u32 ser_u32. Proof. exact (undoes_word 4). Qed.
Lemma undoes_bytes : undoes de_bytes ser_bytes.
Proof.
  intros b x r Hb E. unfold de_bytes in E. apply bind_ok in E as ([n r'] & E & H).
  pose proof (undoes_u64 _ _ _ Hb E) as ->. apply yields_u64 in E as (_ & Hb' & _); [|exact Hb].
  pose proof (undoes_take _ _ _ _ Hb' H) as U. apply yields_take in H as [[HL _] _]; [|exact Hb'].
  unfold ser_bytes. rewrite HL, <- app_assoc. now rewrite <- U.
Qed.
Lemma undoes_words : undoes (de_seq de_u64) ser_arr.
Proof.
  intros b x r Hb E. unfold de_seq in E. apply bind_ok in E as ([n r'] & E & H).
  pose proof (undoes_u64 _ _ _ Hb E) as ->. apply yields_u64 in E as (_ & Hb' & _); [|exact Hb].
  unfold ser_arr, ser_seq. rewrite <- app_assoc.
  assert (X : forall k b x r, is_bytes b -> de_times k de_u64 b = Ok (x, r) -> length x = k /\ b = flat_map ser_u64 x ++ r).
  { clear. induction k as [|k IH]; intros b x r Hb E; cbn [de_times] in E; [injection E as <- <-; auto|].
    apply bind_ok in E as ([y b1] & E1 & E). apply bind_ok in E as ([ys b2] & E2 & E). injection E as <- <-.
    pose proof (undoes_u64 _ _ _ Hb E1) as U. apply yields_u64 in E1 as (_ & Hb' & _); [|exact Hb].
    destruct (IH _ _ _ Hb' E2) as [L F]. split; [cbn; lia|]. cbn [flat_map]. rewrite <- app_assoc, <- F. exact U. }
  destruct (X _ _ _ _ Hb' H) as [L F]. unfold lenN. rewrite L, N2Nat.id. now rewrite <- F.
Qed.
Lemma undoes_datatype : undoes de_datatype ser_datatype.
Proof.
  intros b x r Hb E. unfold de_datatype in E. apply bind_ok in E as ([t r'] & E & H).
  pose proof (undoes_u32 _ _ _ Hb E) as ->. apply yields_u32 in E as (_ & Hb' & _); [|exact Hb].
  assert (X : forall (f : N -> datatype), (let* (s, q) := de_u64 r' in Ok (f s, q)) = Ok (x, r) ->
    exists s, x = f s /\ r' = ser_u64 s ++ r).
  { intros f Hf. apply bind_ok in Hf as ([s q] & E1 & Hf). injection Hf as <- <-.
    exists s. split; auto. now apply undoes_u64. }
  destruct t as [|[[?|?|]|[?|?|]|]]; try discriminate; apply X in H as (s & -> & ->); cbn [ser_datatype];
    now rewrite <- app_assoc.
Qed.
Lemma undoes_order : undoes de_order ser_order.
Proof.
  intros b x r Hb E. unfold de_order in E. apply bind_ok in E as ([t r'] & E & H).
  pose proof (undoes_u32 _ _ _ Hb E) as ->.
  destruct t as [|[[?|?|]|[?|?|]|]]; try discriminate; injection H as <- <-; reflexivity.
Qed.

Definition whole_table (D : nat) (v : byte_str) : Prop := (length v mod (8 * (2 + D)) = 0)%nat.

Lemma chunks_whole D v : (whole_table D v -> exists cs, chunks_of_bytes D v = Ok cs) /\
  (~ whole_table D v -> chunks_of_bytes D v = Panic).
Proof.
  unfold whole_table, chunks_of_bytes, slice_from_u64s.
  assert (EL : forall n b, length (words_of n b) = n) by (induction n; intros; cbn [words_of length]; auto).
  rewrite EL. destruct (Nat.eqb_spec (length v mod 8) 0) as [E8|N8]; cbn [assert_ bind].
  - rewrite (Nat.mod_mul_r (length v) 8 (2 + D)) by lia. rewrite E8, Nat.add_0_l.
    destruct (Nat.eqb_spec ((length v / 8) mod (2 + D)) 0) as [E9|N9]; cbn [assert_ bind].
    + split; [eauto|intros H; exfalso; apply H; rewrite E9; apply Nat.mul_0_r].
    + split; [|auto]. intros H. exfalso. apply N9. apply Nat.mul_eq_0_r in H; [exact H|discriminate].
  - split; [|auto]. intros H. exfalso. apply N8. rewrite (Nat.mod_mul_r (length v) 8 (2 + D)) in H by lia. lia.
Qed.

Definition quiet {A} (p : parser A) : Prop := forall b, p b <> Panic.
Lemma quiet_bind {A B} (p : parser A) (f : A -> parser B) : quiet p -> (forall x, quiet (f x)) ->
  quiet (fun b => let* (x, r) := p b in f x r).
Proof. intros H1 H2 b E. destruct (p b) as [[x r]| | | |] eqn:Eb; cbn [bind] in E; try discriminate; [now apply H2 in E|now apply H1 in Eb]. Qed.
Lemma quiet_ret {A} (x : A) : quiet (fun b => Ok (x, b)). Proof. intros b; discriminate. Qed.
Lemma quiet_fail {A} : quiet (fun _ : byte_str => @Err (A * byte_str) EDe). Proof. intros b; discriminate. Qed.
Lemma quiet_take n : quiet (take n). Proof. intros b. unfold take. destruct (_ <=? _); discriminate. Qed.
Lemma quiet_u64 : quiet de_u64.
Proof. apply (quiet_bind (take 8) (fun x b => Ok (le_value x, b))); [apply quiet_take|intros; apply quiet_ret]. Qed.
Lemma quiet_u32 : quiet de_u32.
Proof. apply (quiet_bind (take 4) (fun x b => Ok (le_value x, b))); [apply quiet_take|intros; apply quiet_ret]. Qed.
Lemma quiet_u8 : quiet de_u8.
Proof. apply (quiet_bind (take 1) (fun x b => Ok (le_value x, b))); [apply quiet_take|intros; apply quiet_ret]. Qed.
Lemma quiet_bytes : quiet de_bytes.
Proof. apply (quiet_bind de_u64 take); [apply quiet_u64|apply quiet_take]. Qed.
Lemma quiet_words : quiet (de_seq de_u64).
Proof.
  apply (quiet_bind de_u64 (fun n => de_times (N.to_nat n) de_u64)); [apply quiet_u64|]. intros n.
  generalize (N.to_nat n) as k. induction k as [|k IH]; cbn [de_times]; [apply quiet_ret|].
  apply (quiet_bind de_u64 (fun x r => let* (xs, r') := de_times k de_u64 r in Ok (x :: xs, r'))); [apply quiet_u64|].
  intros x. apply (quiet_bind (de_times k de_u64) (fun xs r => Ok (x :: xs, r))); auto. intros; apply quiet_ret.
Qed.
Lemma quiet_arr D : quiet (de_arr D).
Proof. apply (quiet_bind (de_seq de_u64) (fun v r => Ok (fill D v, r))); [apply quiet_words|intros; apply quiet_ret]. Qed.
Lemma quiet_bool : quiet de_bool.
Proof.
  apply (quiet_bind de_u8 (fun t r => if t =? 0 then Ok (false, r) else if t =? 1 then Ok (true, r) else Err EDe)); [apply quiet_u8|].
  intros t. destruct (t =? 0); [apply quiet_ret|]. destruct (t =? 1); [apply quiet_ret|apply quiet_fail].
Qed.
Lemma quiet_option : quiet (de_option de_u8).
Proof.
  apply (quiet_bind de_u8 (fun t r => if t =? 0 then Ok (None, r) else if t =? 1 then let* (x, r') := de_u8 r in Ok (Some x, r') else Err EDe)); [apply quiet_u8|].
  intros t. destruct (t =? 0); [apply quiet_ret|]. destruct (t =? 1); [|apply quiet_fail].
  apply (quiet_bind de_u8 (fun x r => Ok (Some x, r))); [apply quiet_u8|]. intros; apply quiet_ret.
Qed.
Lemma quiet_datatype : quiet de_datatype.
Proof.
  apply (quiet_bind de_u32 (fun t r => match t with
    | 0 => let* (s, r') := de_u64 r in Ok (UInt s, r') | 1 => let* (s, r') := de_u64 r in Ok (Int s, r')
    | 2 => let* (s, r') := de_u64 r in Ok (Float s, r') | 3 => let* (s, r') := de_u64 r in Ok (Custom s, r')
    | _ => Err EDe end)); [apply quiet_u32|].
  assert (X : forall f : N -> datatype, quiet (fun r => let* (s, r') := de_u64 r in Ok (f s, r'))).
  { intros f. apply (quiet_bind de_u64 (fun s r => Ok (f s, r))); [apply quiet_u64|intros; apply quiet_ret]. }
  intros [|[[?|?|]|[?|?|]|]]; try apply quiet_fail; first [apply (X UInt)|apply (X Int)|apply (X Float)|apply (X Custom)].
Qed.
Lemma quiet_order : quiet de_order.
Proof.
  apply (quiet_bind de_u32 (fun t r => match t with 0 => Ok (BE, r) | 1 => Ok (LE, r) | 2 => Ok (Unknown, r) | _ => Err EDe end)); [apply quiet_u32|].
  intros [|[[?|?|]|[?|?|]|]]; first [apply quiet_fail|apply quiet_ret].
Qed.

(** C85: the loader panics on the bytes of a dataset exactly if its chunk table is not a
    whole number of entries, or is and one of its divisors, as many as dimensions, is zero. *)
Theorem C85_panics D b : is_bytes b ->
  (de_dataset D b = Panic <->
   exists v rest, table_at b v rest /\
     (~ whole_table D v \/
      whole_table D v /\ exists w rest', divisors_at rest w rest' /\ length w = D /\ In 0 w)).
Proof.
  intros Hb. split.
  - intros E. unfold de_dataset in E.
    destruct (de_datatype b) as [[dt b1]| | | |] eqn:E1; cbn [bind] in E; try discriminate;
      [|now apply quiet_datatype in E1].
    pose proof (undoes_datatype _ _ _ Hb E1) as U1. apply yields_datatype in E1 as (P1 & Hb1 & _); [|exact Hb].
    destruct (de_u64 b1) as [[sz b2]| | | |] eqn:E2; cbn [bind] in E; try discriminate;
      [|now apply quiet_u64 in E2].
    pose proof (undoes_u64 _ _ _ Hb1 E2) as U2. apply yields_u64 in E2 as (P2 & Hb2 & _); [|exact Hb1].
    destruct (de_order b2) as [[o b3]| | | |] eqn:E3; cbn [bind] in E; try discriminate;
      [|now apply quiet_order in E3].
    pose proof (undoes_order _ _ _ Hb2 E3) as U3. apply yields_order in E3 as (_ & Hb3 & _); [|exact Hb2].
    unfold de_chunks at 1 in E.
    destruct (de_bytes b3) as [[v b4]| | | |] eqn:E4; cbn [bind] in E; try discriminate;
      [|now apply quiet_bytes in E4].
    pose proof (undoes_bytes _ _ _ Hb3 E4) as U4. apply yields_bytes in E4 as ((P4 & _) & Hb4 & _); [|exact Hb3].
    exists v, b4. split.
    { exists dt, sz, o. repeat split; auto. now rewrite U1, U2, U3, U4 at 1. }
    destruct (Nat.eq_dec (length v mod (8 * (2 + D))) 0) as [W|W]; [right|left; exact W]. split; [exact W|].
    destruct (proj1 (chunks_whole D v) W) as (cs & Ec). rewrite Ec in E. cbn [bind] in E.
    unfold de_arr at 1 in E. destruct (de_seq de_u64 b4) as [[sh b5]| | | |] eqn:E5; cbn [bind] in E; try discriminate;
      [|now apply quiet_words in E5].
    pose proof (undoes_words _ _ _ Hb4 E5) as U5.
    apply (yields_seq _ _ yields_u64) in E5 as ((L5 & P5) & Hb5 & _); [|exact Hb4].
    unfold de_arr at 1 in E. destruct (de_seq de_u64 b5) as [[csh b6]| | | |] eqn:E6; cbn [bind] in E; try discriminate;
      [|now apply quiet_words in E6].
    pose proof (undoes_words _ _ _ Hb5 E6) as U6.
    apply (yields_seq _ _ yields_u64) in E6 as ((L6 & P6) & Hb6 & _); [|exact Hb5].
    unfold de_sr at 1 in E. destruct (de_seq de_u64 b6) as [[w b7]| | | |] eqn:E7; cbn [bind] in E; try discriminate;
      [|now apply quiet_words in E7].
    pose proof (undoes_words _ _ _ Hb6 E7) as U7.
    apply (yields_seq _ _ yields_u64) in E7 as ((L7 & P7) & Hb7 & _); [|exact Hb6].
    exists w, b7. split.
    { exists sh, csh. repeat split; auto. now rewrite U5, U6, U7 at 1. }
    unfold sr_array in E. destruct (Nat.eqb_spec (length w) D) as [LD|]; cbn [bind] in E; [|discriminate].
    split; auto. rewrite sr_all in E. destruct (existsb (fun x => x =? 0) w) eqn:EZ.
    + apply existsb_exists in EZ as (z & Hz & E0). apply N.eqb_eq in E0. now subst z.
    + exfalso. cbn [bind] in E. revert E. generalize b7.
      refine (quiet_bind (de_arr D) _ (quiet_arr D) _); intros.
      refine (quiet_bind (de_arr D) _ (quiet_arr D) _); intros.
      refine (quiet_bind (de_arr D) _ (quiet_arr D) _); intros.
      refine (quiet_bind de_bool _ quiet_bool _); intros.
      refine (quiet_bind (de_option de_u8) _ quiet_option _); intros. apply quiet_ret.
  - intros (v & rest & (dt & sz & o & P1 & P2 & P3 & ->) & H). unfold de_dataset.
    rewrite (datatype_goes dt P1). cbn [bind]. rewrite (u64_goes sz P2). cbn [bind].
    rewrite (order_goes o). cbn [bind]. unfold de_chunks at 1. rewrite (bytes_goes v P3). cbn [bind].
    destruct H as [W|(W & w & rest' & (sh & csh & F1 & F2 & F3 & L1 & L2 & L3 & ->) & LD & H0)].
    + now rewrite (proj2 (chunks_whole D v) W).
    + destruct (proj1 (chunks_whole D v) W) as (cs & ->). cbn [bind].
      unfold de_arr at 1. rewrite (words_goes sh _ F1 L1 eq_refl). cbn [bind].
      unfold de_arr at 1. rewrite (words_goes csh _ F2 L2 eq_refl). cbn [bind].
      unfold de_sr at 1. rewrite (words_goes w _ F3 L3 eq_refl). cbn [bind].
      unfold sr_array. rewrite LD, Nat.eqb_refl, sr_all.
      assert (X : existsb (fun x => x =? 0) w = true) by (apply existsb_exists; exists 0; auto).
      now rewrite X.
Qed.

(** C85: at every state of a run of hfxidx in the bincode format, finished, failed or crashed
    at any point, hfxlst of the output lists the input or fails with an error; it does not
    panic (with flexbuffers compiled in: if that crate's loader refuses bincode indexes, cut
    or not, with an error). *)
Theorem C85_crash m fo bo fser fde h5 fs input output ty root r tr :
  indexes m fo bo h5 fs input ty root ->
  (fo = true -> forall i b pre q, bincode_serialize i = Ok b -> b = pre ++ q -> exists e, fde pre = Err e) ->
  hfxidx m fo bo fser h5 fs input output ty r tr ->
  forall st, In st tr ->
    hfxlst fo bo fde st output = Err EDe \/
    exists l, hfxlst fo bo fde st output = Ok (Some input, l) /\ lists root l.
Proof.
  intros HI HF H st Hin. destruct (hfxlst fo bo fde st output) as [[p l]|e| | |] eqn:EL.
  { right. destruct (C53_crash m fo bo fser fde h5 fs input output ty root r tr HI HF H st (p, l) Hin EL) as [P L].
    cbn [fst snd] in P, L. subst p. eauto. }
  all: left; destruct HI as [H1 (b0 & Ef & Eo) HN HT HP];
    destruct H as [x E1 E2|i x E1 E2 E3|i b r' tr' E1 E2 E3]; try easy;
    rewrite encode_bincode in E2 by auto; unfold index_path in E1; rewrite Ef, Eo in E1; cbn [bind] in E1;
    destruct (fs_write_states _ _ _ _ _ E3) as (A & _); rewrite Forall_forall in A; destruct (A _ Hin) as (k & Hk & ->);
    unfold hfxlst, fs_set in EL; rewrite str_eqb_refl in EL;
    assert (HU : utf8_path (Some input)) by
      (destruct (C43_exact m (Some input) root i HN E1) as (_ & _ & _ & EP); rewrite <- EP;
       unfold bincode_serialize, ser_index in E2; apply bind_ok in E2 as (pb & Ep & _); apply ser_path_ok; eauto);
    assert (TP : typed_path (Some input)) by (intros s [= <-]; exact HP);
    destruct (C41_indexed m (Some input) root i HN HT TP HU E1) as (b' & Eb & Ed);
    rewrite E2 in Eb; apply ok_inj in Eb; subst b';
    assert (HR : read_index fo bo fde (firstn k b) =
                 match bincode_deserialize (firstn k b) with Err _ => Err EDe | x => x end) by
      (unfold read_index; rewrite (proj1 H1); destruct fo; auto;
       destruct (HF eq_refl i b (firstn k b) (skipn k b) E2 (eq_sym (firstn_skipn k b))) as (e' & E); now rewrite E);
    rewrite HR in EL;
    assert (HB : bincode_deserialize (firstn k b) = Ok i \/ bincode_deserialize (firstn k b) = Err EDe) by
      (destruct (skipn k b) as [|z q] eqn:Es;
       [ left; assert (X : firstn k b = b) by (rewrite <- (firstn_skipn k b) at 2; now rewrite Es, app_nil_r);
         now rewrite X
       | right; apply (C85_truncated i b (firstn k b) (z :: q)); auto;
         [ unfold index_file in E1; apply bind_ok in E1 as (g & Eg & E1); apply ok_inj in E1; subst i;
           split; auto; exact (index_group_typed m (Some input) root [] g HN HT TP Eg)
         | rewrite <- Es; symmetry; apply firstn_skipn | discriminate ] ]);
    destruct HB as [HB|HB]; rewrite HB in EL; cbn [bind] in EL; congruence.
Qed.

(** ** Cases *)

Example C85_case :
  (exists b, bincode_serialize ex_index = Ok b /\ typed_index ex_index /\ (30 < length b)%nat /\
     bincode_deserialize (firstn 30 b) = Err EDe) /\
  (** a chunk table of one byte *)
  table_at (ser_datatype (Int 4) ++ ser_u64 4 ++ ser_order LE ++ ser_bytes [7]) [7] [] /\ ~ whole_table 2 [7] /\
  de_dataset 2 (ser_datatype (Int 4) ++ ser_u64 4 ++ ser_order LE ++ ser_bytes [7]) = Panic /\
  (** a divisor zero *)
  divisors_at (ser_arr [4; 6] ++ ser_arr [2; 3] ++ ser_arr [2; 0]) [2; 0] [] /\
  de_dataset 2 (ser_datatype (Int 4) ++ ser_u64 4 ++ ser_order LE ++ ser_bytes [] ++
    ser_arr [4; 6] ++ ser_arr [2; 3] ++ ser_arr [2; 0]) = Panic.
Proof.
  split; [|split; [|split; [|split; [|split]]]].
  - destruct (bincode_serialize ex_index) as [b| | | |] eqn:E; try (vm_compute in E; discriminate).
    exists b. split; auto. split.
    { destruct C41_case as (N & T & P & _ & X). specialize (X Debug). unfold index_file in X.
      apply bind_ok in X as (g & Eg & X). apply ok_inj in X. rewrite <- X.
      split; auto. exact (index_group_typed Debug tree_path ex_tree [] g N T P Eg). }
    revert E. vm_compute. intros [= <-]. split; [lia|reflexivity].
  - exists (Int 4), 4, LE. repeat split; reflexivity.
  - unfold whole_table. cbn. discriminate.
  - reflexivity.
  - exists [4; 6], [2; 3]. repeat split; repeat constructor.
  - reflexivity.
Qed.
