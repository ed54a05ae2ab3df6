(** * FilterProps: lemmas behind Properties3. *)
From Verif Require Import Base Spec Chunk Dataset Filters SpecFilter FilterProofs.

(** ** Shuffle *)

Lemma shuffle_inverse w n src d1 d2 :
  (0 < w)%nat -> length src = (w * n)%nat -> length d1 = length src -> length d2 = length src ->
  exists s, shuffle w src d1 = Ok s /\ shuffled_of w n src s /\
    unshuffle w s d2 = Ok src /\ unshuffle_structured w s d2 = Ok src /\
    (In w [1; 2; 4; 8]%nat -> unshuffle_sized s (N.of_nat w) = Ok src).
Proof.
  intros Hw Hs H1 H2. destruct (shuffle_ok w n src d1) as (s & E & S); auto; [congruence|].
  exists s. split; auto. split; auto. destruct S as (S1 & S2 & S3) eqn:ES. clear ES.
  assert (SS : shuffled_of w n src s) by (split; auto).
  destruct (unshuffle_ok w n s d2) as (u & Eu & U); auto; [congruence|].
  destruct (unshuffle_structured_ok w n s d2) as (v & Ev & V); auto; [congruence|].
  rewrite (shuffled_of_inj w n u src s) in Eu by auto.
  rewrite (shuffled_of_inj w n v src s) in Ev by auto.
  split; auto. split; auto. intros Hin.
  destruct (unshuffle_structured_ok w n s (repeat 0 (length s))) as (x & Ex & X); auto.
  { rewrite repeat_length. auto. }
  rewrite (shuffled_of_inj w n x src s) in Ex by auto.
  destruct Hin as [<-|[<-|[<-|[<-|[]]]]]; cbn [N.of_nat Pos.of_succ_nat Pos.succ unshuffle_sized]; auto.
  f_equal. apply list_eq_nth; [congruence|]. intros p Hp.
  specialize (S3 0%nat p ltac:(lia) ltac:(lia)). replace (p * 1 + 0)%nat with p in S3 by lia.
  cbn [Nat.mul Nat.add] in S3. exact S3.
Qed.

Lemma unshuffle_inverse w n src d1 d2 :
  (0 < w)%nat -> length src = (w * n)%nat -> length d1 = length src -> length d2 = length src ->
  exists u, unshuffle w src d1 = Ok u /\ unshuffle_structured w src d1 = Ok u /\
    shuffled_of w n u src /\ shuffle w u d2 = Ok src.
Proof.
  intros Hw Hs H1 H2. destruct (unshuffle_ok w n src d1) as (u & E & U); auto; [congruence|].
  destruct (unshuffle_structured_ok w n src d1) as (v & Ev & V); auto; [congruence|].
  rewrite (shuffled_of_inj w n v u src) in Ev by auto.
  exists u. split; auto. split; auto. split; auto.
  destruct (shuffle_ok w n u d2) as (s & Es & S); auto; try (rewrite ?H2; apply U || congruence).
  now rewrite (shuffled_of_fun w n u s src) in Es by auto.
Qed.

Lemma shuffle_safe w src dest : (0 < w)%nat -> (length src mod w = 0)%nat ->
  (length dest <> length src -> shuffle w src dest = Panic) /\
  (length dest = length src -> exists r, shuffle w src dest = Ok r /\ length r = length src).
Proof.
  intros Hw Hm. split; intros H.
  - unfold shuffle. apply Nat.eqb_neq in H. now rewrite H.
  - pose proof (Nat.div_mod (length src) w ltac:(lia)) as D. rewrite Hm, Nat.add_0_r in D.
    destruct (shuffle_ok w (length src / w) src dest) as (r & E & (_ & L & _)); auto; [congruence|].
    exists r. split; auto. congruence.
Qed.
Lemma unshuffle_safe w src dest : (0 < w)%nat -> (length dest mod w = 0)%nat ->
  (length dest <> length src -> unshuffle w src dest = Panic) /\
  (length dest = length src -> exists r, unshuffle w src dest = Ok r /\ length r = length src).
Proof.
  intros Hw Hm. split; intros H.
  - unfold unshuffle. apply Nat.eqb_neq in H. now rewrite H.
  - pose proof (Nat.div_mod (length dest) w ltac:(lia)) as D. rewrite Hm, Nat.add_0_r in D.
    destruct (unshuffle_ok w (length dest / w) src dest) as (r & E & (L & _ & _)); auto; [congruence|].
    exists r. split; auto. congruence.
Qed.
Lemma structured_safe w src dest :
  ((w <> 0 /\ length dest = length src /\ length src mod w = 0)%nat ->
   exists r, unshuffle_structured w src dest = Ok r /\ length r = length src) /\
  (~ (w <> 0 /\ length dest = length src /\ length src mod w = 0)%nat ->
   unshuffle_structured w src dest = Panic).
Proof.
  split.
  - intros (Hw & H & Hm). pose proof (Nat.div_mod (length src) w Hw) as D. rewrite Hm, Nat.add_0_r in D.
    destruct (unshuffle_structured_ok w (length src / w) src dest) as (r & E & (L & _ & _)); auto; try lia.
    exists r. split; auto. congruence.
  - intros H. unfold unshuffle_structured.
    destruct (Nat.eqb_spec (length src) (length dest)); cbn [assert_ bind]; auto.
    destruct (Nat.eqb_spec w 0); cbn [negb assert_ bind]; auto.
    destruct (Nat.eqb_spec (length src mod w) 0); cbn [assert_ bind]; auto.
    exfalso. apply H. auto.
Qed.
Lemma sized_safe src sz :
  (In sz [1; 2; 4; 8] /\ (length src mod N.to_nat sz = 0)%nat ->
   exists r, unshuffle_sized src sz = Ok r /\ length r = length src) /\
  (~ (In sz [1; 2; 4; 8] /\ (length src mod N.to_nat sz = 0)%nat) ->
   unshuffle_sized src sz = Panic).
Proof.
  pose proof (fun w => structured_safe w src (repeat 0 (length src))) as G.
  split.
  - intros [[<-|[<-|[<-|[<-|[]]]]] Hm]; cbn [unshuffle_sized]; [eauto|..];
      apply (proj1 (G _)); rewrite repeat_length; split; auto; discriminate.
  - intros H. unfold unshuffle_sized.
    destruct (N.eq_dec sz 1) as [->|N1].
    { exfalso. apply H. split; [now left|]. apply Nat.mod_1_r. }
    destruct (N.eq_dec sz 2) as [->|N2].
    { apply (proj2 (G _)). intros (_ & _ & Hm). apply H. split; [right; now left|exact Hm]. }
    destruct (N.eq_dec sz 4) as [->|N4].
    { apply (proj2 (G _)). intros (_ & _ & Hm). apply H. split; [do 2 right; now left|exact Hm]. }
    destruct (N.eq_dec sz 8) as [->|N8].
    { apply (proj2 (G _)). intros (_ & _ & Hm). apply H. split; [do 3 right; now left|exact Hm]. }
    destruct sz as [|p]; auto. destruct p as [p|p|]; auto; try congruence.
    destruct p as [p|p|]; auto; try congruence. destruct p as [p|p|]; auto; try congruence.
    destruct p as [p|p|]; auto; try congruence.
Qed.

(** ** Byte order *)

Lemma host_order h o v : o = native h -> num_in o v = Some (host_num h v).
Proof. intros ->. destruct h; cbn [num_in native host_num]; rewrite ?num_be_rev; reflexivity. Qed.

Lemma rev_length_w w : forall v : bytes, length v = w -> length (rev v) = w.
Proof. intros. now rewrite rev_length. Qed.

Lemma map_words_word w n f l j :
  (0 < w)%nat -> length l = (w * n)%nat -> (forall v, length v = w -> length (f v) = w) ->
  (j < n)%nat -> word w j (map_words w f l) = f (word w j l).
Proof.
  intros Hw HL Hf Hj. destruct (map_words_length w n f l Hw HL Hf) as [A B].
  pose proof (words_nth w n (map_words w f l) j Hj) as C. rewrite B in C.
  pose proof (map_nth_error f _ _ (words_nth w n l j Hj)) as E. unfold bytes in *. rewrite E in C.
  now injection C.
Qed.

Lemma to_native_ok h k w n o l :
  (0 < w)%nat -> length l = (w * n)%nat -> (k = KInt \/ h = HostLE) ->
  length (to_native_slice h k w o l) = length l /\
  (o <> Unknown -> forall j, (j < n)%nat ->
     num_in (native h) (word w j (to_native_slice h k w o l)) = num_in o (word w j l)) /\
  (o = Unknown -> to_native_slice h k w o l = l).
Proof.
  intros Hw HL Hk.
  assert (Hsw : forall v, length v = w -> length (swap h k v) = w).
  { intros v Hv. destruct k, h; cbn [swap]; auto; now rewrite rev_length. }
  assert (Hrev : forall v, swap h k v = rev v).
  { intros v. destruct k, h, Hk; try discriminate; reflexivity. }
  destruct (map_words_length w n (swap h k) l Hw HL Hsw) as [A _].
  split; [|split].
  - unfold to_native_slice. destruct h, o; auto.
  - intros Ho j Hj. unfold to_native_slice. destruct h, o; cbn [native]; auto; try congruence;
      rewrite (map_words_word w n) by auto; rewrite Hrev; cbn [num_in];
      rewrite num_be_rev, ?rev_involutive; reflexivity.
  - intros ->. destruct h; reflexivity.
Qed.

(** ** XDR *)

Lemma cast_ok_true w l : (length l mod w = 0)%nat -> cast_ok true w l = Ok tt.
Proof. intros H. unfold cast_ok. rewrite H. reflexivity. Qed.

Lemma is_bytes_word w j l : is_bytes l -> is_bytes (word w j l).
Proof.
  unfold is_bytes, word. rewrite !Forall_forall. intros H x Hx. apply H.
  rewrite <- (firstn_skipn (j * w) l). apply in_app_iff. right.
  rewrite <- (firstn_skipn w (skipn (j * w) l)). apply in_app_iff. now left.
Qed.

Lemma mul_mod_0 w n : (0 < w)%nat -> (w * n mod w = 0)%nat.
Proof. intros. rewrite Nat.mul_comm. apply Nat.mod_mul. lia. Qed.
Lemma mul_div w n : (0 < w)%nat -> (w * n / w = n)%nat.
Proof. intros. rewrite Nat.mul_comm. apply Nat.div_mul. lia. Qed.

(** 4- and 8-byte values. *)
Lemma big_e_ok h o w n l : In w [1; 2; 4; 8]%nat -> length l = (w * n)%nat ->
  exists r, to_big_e_sized h true o (N.of_nat w) l = Ok r /\ length r = length l /\
    (o <> Unknown -> forall j, (j < n)%nat -> num_in BE (word w j r) = num_in o (word w j l)) /\
    (o <> LE -> r = l).
Proof.
  intros Hw HL.
  assert (W0 : (0 < w)%nat) by (destruct Hw as [<-|[<-|[<-|[<-|[]]]]]; lia).
  assert (Hf : forall v : bytes, length v = w -> length (swap h KInt v) = w)
    by (intros; cbn [swap]; now rewrite rev_length).
  destruct (map_words_length w n (swap h KInt) l W0 HL Hf) as [A _].
  pose proof (fun j => map_words_word w n (swap h KInt) l j W0 HL Hf) as B.
  destruct o; cbn [to_big_e_sized].
  - exists l. repeat split; auto.
  - exists (match w with 1%nat => l | _ => map_words w (swap h KInt) l end).
    pose proof (cast_ok_true w l) as C. rewrite HL in C. specialize (C (mul_mod_0 w n W0)).
    destruct Hw as [<-|[<-|[<-|[<-|[]]]]]; cbn [N.of_nat Pos.of_succ_nat Pos.succ];
      rewrite ?C; cbn [bind]; repeat split; auto; try congruence; intros _ j Hj.
    + cbn [num_in]. f_equal. rewrite num_be_rev. pose proof (word_length 1 n j l HL Hj) as L.
      destruct (word 1 j l) as [|x [|y t]]; try discriminate. reflexivity.
    + rewrite B by auto. cbn [num_in swap]. now rewrite num_be_rev, rev_involutive.
    + rewrite B by auto. cbn [num_in swap]. now rewrite num_be_rev, rev_involutive.
    + rewrite B by auto. cbn [num_in swap]. now rewrite num_be_rev, rev_involutive.
  - exists l. repeat split; auto. congruence.
Qed.

Lemma num_in_bound o l v : is_bytes l -> num_in o l = Some v -> v < 256 ^ lenN l.
Proof.
  intros H. destruct o; cbn; intros [= <-].
  - rewrite num_be_rev. change num_le with le_num. replace (lenN l) with (lenN (rev l)).
    + apply le_num_bound. apply Forall_rev. exact H.
    + unfold lenN. now rewrite rev_length.
  - change num_le with le_num. now apply le_num_bound.
Qed.

Lemma pow256 w : 256 ^ N.of_nat w = 2 ^ (8 * N.of_nat w).
Proof. change 256 with (2 ^ 8). now rewrite <- N.pow_mul_r. Qed.

Lemma to_native_scalar_ok h o v : o <> Unknown ->
  exists v', to_native_scalar h KInt o v = Ok v' /\ num_in o v = Some (host_num h v').
Proof.
  intros Ho. destruct h, o; cbn [to_native_scalar swap]; try congruence; eexists; (split; [reflexivity|]);
    cbn [num_in host_num]; rewrite ?num_be_rev, ?rev_involutive; reflexivity.
Qed.

(** Sign extension preserves the value. *)
Lemma widen_ok (signed : bool) w v : In w [1; 2]%nat -> v < 2 ^ (8 * N.of_nat w) ->
  let v' := widen signed w v in
  v' < 2 ^ 32 /\
  (if signed then as_signed 4 v' else Z.of_N v') = (if signed then as_signed w v else Z.of_N v).
Proof.
  intros Hw Hv. destruct Hw as [<-|[<-|[]]]; unfold widen, as_signed; destruct signed; cbn [andb];
    cbn -[N.ltb N.leb] in *;
    repeat match goal with
           | |- context [?a <=? ?b] => destruct (N.leb_spec a b)
           | |- context [?a <? ?b] => destruct (N.ltb_spec a b) end; split; lia.
Qed.

Lemma host_bytes_be h v : v < 2 ^ 32 ->
  let r := to_big_e_scalar h KInt (native h) (host_bytes h 4 v) in
  length r = 4%nat /\ num_be r = v.
Proof.
  intros H. assert (P : 256 ^ N.of_nat 4 = 2 ^ 32) by reflexivity.
  destruct h; cbn [native to_big_e_scalar swap host_bytes].
  - rewrite rev_length, le_bytes_length. split; auto.
    rewrite num_be_rev, rev_involutive. change num_le with le_num. apply le_num_bytes. now rewrite P.
  - rewrite rev_length, le_bytes_length. split; auto.
    rewrite num_be_rev, rev_involutive. change num_le with le_num. apply le_num_bytes. now rewrite P.
Qed.

Lemma xdr_elem_ok h signed w o v : o <> Unknown -> In w [1; 2]%nat -> is_bytes v -> length v = w ->
  exists r, xdr_elem h signed w o v = Ok r /\ length r = 4%nat /\
    int_value signed BE r = int_value signed o v.
Proof.
  intros Ho Hw HB HL. unfold xdr_elem.
  destruct (to_native_scalar_ok h o v Ho) as (v' & E & EV). rewrite E. cbn [bind].
  eexists. split; [reflexivity|].
  pose proof (num_in_bound o v _ HB EV) as Hb. unfold lenN in Hb. rewrite HL, pow256 in Hb.
  destruct (widen_ok signed w _ Hw Hb) as [W1 W2].
  destruct (host_bytes_be h _ W1) as [L EB]. split; auto.
  unfold int_value. rewrite EV, HL. cbn [num_in]. rewrite EB, L. now rewrite W2.
Qed.

Lemma mapM_all {A B} (f : A -> res B) (P : A -> B -> Prop) l :
  (forall a, In a l -> exists b, f a = Ok b /\ P a b) ->
  exists bs, mapM f l = Ok bs /\ Forall2 P l bs.
Proof.
  induction l as [|a l IH]; intros H; cbn [mapM]; eauto.
  destruct (H a) as (b & E & HP); [now left|]. destruct IH as (bs & E2 & HF); [intros; apply H; now right|].
  rewrite E, E2. cbn [bind]. eauto.
Qed.

Lemma concat_word w ws j v : Forall (fun x : bytes => length x = w) ws ->
  nth_error ws j = Some v -> word w j (concat ws) = v.
Proof.
  intros HF Hj. pose proof (words_of_concat w ws HF) as E.
  assert (j < length ws)%nat by (apply nth_error_Some; congruence).
  pose proof (words_nth w (length ws) (concat ws) j H) as E2. unfold bytes in *. rewrite E in E2. congruence.
Qed.

Lemma xdr_cast_ok h signed w n o src :
  o <> Unknown -> In w [1; 2]%nat -> is_bytes src -> length src = (w * n)%nat ->
  exists r, xdr_cast_slice h true true signed w o src = Ok r /\ length r = (4 * n)%nat /\
    forall j, (j < n)%nat -> int_value signed BE (word 4 j r) = int_value signed o (word w j src).
Proof.
  intros Ho Hw HB HL.
  assert (W0 : (0 < w)%nat) by (destruct Hw as [<-|[<-|[]]]; lia).
  unfold xdr_cast_slice. rewrite cast_ok_true by (rewrite HL; now apply mul_mod_0). cbn [bind].
  rewrite HL, mul_div by auto.
  rewrite cast_ok_true by (rewrite repeat_length; apply Nat.mod_mul; lia). cbn [bind].
  destruct (mapM_all (xdr_elem h signed w o)
     (fun v r => length r = 4%nat /\ int_value signed BE r = int_value signed o v)
     (words w n src)) as (bs & E & HF).
  { intros v Hv. apply In_nth_error in Hv as [j Hj].
    assert (Hjn : (j < n)%nat) by (rewrite <- (words_length w n src); apply nth_error_Some; congruence).
    rewrite (words_nth w n src j Hjn) in Hj. injection Hj as <-.
    apply xdr_elem_ok; auto; [now apply is_bytes_word|]. now apply word_length with (n := n). }
  rewrite E. cbn [bind]. eexists. split; [reflexivity|].
  assert (H4 : Forall (fun x : bytes => length x = 4%nat) bs).
  { clear - HF. induction HF; constructor; tauto. }
  assert (LB : length bs = n).
  { clear - HF. revert HF. pose proof (words_length w n src) as L. rewrite <- L at 2. clear L.
    intros HF. induction HF; cbn [length]; auto. }
  split. { rewrite (concat_length 4 bs H4). lia. }
  intros j Hj. pose proof (words_nth w n src j Hj) as E1.
  destruct (nth_error bs j) as [b|] eqn:Eb.
  - rewrite (concat_word 4 bs j b) by auto.
    clear - HF E1 Eb. revert E1. generalize (word w j src) as v0. revert j Eb. intros j Eb v0 E1. revert j Eb E1. induction HF as [|x y l l' [_ H] HF IH]; intros [|j]; cbn [nth_error]; try discriminate.
    + intros [= <-] [= <-]. exact H.
    + apply IH.
  - apply nth_error_None in Eb. lia.
Qed.

(** Lengths, and values, for all datatypes. *)
Lemma xdr_length h dt o src n :
  is_bytes src ->
  match dt with
  | UInt s | Int s => In s [1; 2; 4; 8]
  | Float s => In s [4; 8]
  | Custom _ => True
  end ->
  (o <> Unknown \/ 4 <= dt_size dt) ->
  lenN src = dt_size dt * n ->
  exists r f, xdr h true true src dt o = Ok r /\ xdr_factor dt = Ok f /\ lenN r = f * lenN src.
Proof.
  intros HB Hdt Ho HL.
  assert (HLn : forall w, dt_size dt = N.of_nat w -> length src = (w * N.to_nat n)%nat).
  { intros w Ew. unfold lenN in HL. rewrite Ew in HL. lia. }
  pose proof (fun sg w => xdr_cast_ok h sg w (N.to_nat n) o src) as XC.
  pose proof (fun w => big_e_ok h o w (N.to_nat n) src) as XB.
  assert (K1 : forall sg w, In w [1; 2]%nat -> dt_size dt = N.of_nat w ->
     exists r, xdr_cast_slice h true true sg w o src = Ok r /\ lenN r = 4 * n).
  { intros sg w Hw Ew. destruct (XC sg w) as (r & E & L & _); auto.
    - destruct Ho as [Ho|Ho]; auto. destruct Hw as [<-|[<-|[]]]; rewrite Ew in Ho; cbn in Ho; lia.
    - exists r. split; auto. unfold lenN. lia. }
  assert (K2 : forall w, In w [1; 2; 4; 8]%nat -> dt_size dt = N.of_nat w ->
     exists r, to_big_e_sized h true o (N.of_nat w) src = Ok r /\ lenN r = lenN src).
  { intros w Hw Ew. destruct (XB w) as (r & E & L & _); auto. exists r. split; auto. unfold lenN. lia. }
  destruct dt as [s|s|s|s]; cbn [dt_size] in *.
  - destruct Hdt as [<-|[<-|[<-|[<-|[]]]]]; cbn [xdr xdr_factor dt_size].
    + destruct (K1 false 1%nat) as (r & -> & L); cbn; auto. exists r, 4. repeat split; auto. lia.
    + destruct (K1 false 2%nat) as (r & -> & L); cbn; auto. exists r, 2. repeat split; auto. lia.
    + destruct (K2 4%nat) as (r & E & L); cbn; auto. cbn [N.of_nat Pos.of_succ_nat Pos.succ] in E. rewrite E.
      exists r, 1. repeat split; auto. lia.
    + destruct (K2 8%nat) as (r & E & L); cbn; auto 7. cbn [N.of_nat Pos.of_succ_nat Pos.succ] in E. rewrite E.
      exists r, 1. repeat split; auto. lia.
  - destruct Hdt as [<-|[<-|[<-|[<-|[]]]]]; cbn [xdr xdr_factor dt_size].
    + destruct (K1 true 1%nat) as (r & -> & L); cbn; auto. exists r, 4. repeat split; auto. lia.
    + destruct (K1 true 2%nat) as (r & -> & L); cbn; auto. exists r, 2. repeat split; auto. lia.
    + destruct (K2 4%nat) as (r & E & L); cbn; auto. cbn [N.of_nat Pos.of_succ_nat Pos.succ] in E. rewrite E.
      exists r, 1. repeat split; auto. lia.
    + destruct (K2 8%nat) as (r & E & L); cbn; auto 7. cbn [N.of_nat Pos.of_succ_nat Pos.succ] in E. rewrite E.
      exists r, 1. repeat split; auto. lia.
  - destruct Hdt as [<-|[<-|[]]]; cbn [xdr xdr_factor dt_size].
    + destruct (K2 4%nat) as (r & E & L); cbn; auto. cbn [N.of_nat Pos.of_succ_nat Pos.succ] in E. rewrite E.
      exists r, 1. repeat split; auto. lia.
    + destruct (K2 8%nat) as (r & E & L); cbn; auto 7. cbn [N.of_nat Pos.of_succ_nat Pos.succ] in E. rewrite E.
      exists r, 1. repeat split; auto. lia.
  - exists src, 1. cbn [xdr xdr_factor]. repeat split; auto. lia.
Qed.

(** ** Decoding *)

Lemma decompress_exact inflate s l : inflate s = Some l -> decompress inflate s (lenN l) = Ok l.
Proof.
  intros E. unfold decompress. rewrite E, N.leb_refl. f_equal.
  unfold lenN. rewrite Nat2N.id, Nat.sub_diag. cbn. apply app_nil_r.
Qed.

(** The four filter lists the reader undoes in the right order. *)
Inductive std_filters : list h5filter -> bool -> bool -> Prop :=
| sf_none : std_filters [] false false
| sf_sh : std_filters [FShuffle] true false
| sf_de z : std_filters [FDeflate z] false true
| sf_shde z : std_filters [FShuffle; FDeflate z] true true.

Lemma pipeline_length inflate w fs sh gz raw stored :
  std_filters fs sh gz -> pipeline inflate w fs raw stored -> gz = false -> length stored = length raw.
Proof.
  intros HS HP Hg. destruct HS; try discriminate.
  - inversion HP; subst; auto.
  - inversion HP as [|? ? n s ? S P|]; subst. inversion P; subst. destruct S as (A & B & _). congruence.
Qed.

Lemma decode_ok m inflate fs sh gz w raw stored :
  std_filters fs sh gz -> pipeline inflate w fs raw stored ->
  (sh = true -> In w [1; 2; 4; 8]%nat) -> (w < 16)%nat ->
  decode_chunk m inflate stored (lenN raw) (N.of_nat w) gz sh = Ok raw.
Proof.
  intros HS HP Hw H16. unfold decode_chunk. rewrite dbg_ok by (apply N.ltb_lt; lia). cbn [bind].
  assert (U : forall n s, In w [1; 2; 4; 8]%nat -> shuffled_of w n raw s ->
     (if true && (1 <? N.of_nat w) then unshuffle_sized s (N.of_nat w) else Ok s) = Ok raw).
  { intros n s Hin S. pose proof S as (S1 & S2 & S3).
    assert (W0 : (0 < w)%nat) by (destruct Hin as [<-|[<-|[<-|[<-|[]]]]]; lia).
    destruct (shuffle_inverse w n raw (repeat 0 (length raw)) (repeat 0 (length raw))) as (s' & _ & S' & _ & _ & Z);
      rewrite ?repeat_length; auto.
    rewrite (shuffled_of_fun w n raw s' s) in Z by auto. specialize (Z Hin).
    destruct (N.ltb_spec 1 (N.of_nat w)); cbn [andb]; auto.
    assert (w = 1)%nat as -> by lia. exact Z. }
  destruct HS; cbn [bind].
  - inversion HP; subst. reflexivity.
  - inversion HP as [|? ? n s ? S P|]; subst. inversion P; subst. eapply U; eauto.
  - inversion HP as [| |? ? ? s ? I P]; subst. inversion P; subst.
    rewrite (decompress_exact _ _ _ I). cbn [bind]. rewrite dbg_ok by apply N.eqb_refl. reflexivity.
  - inversion HP as [|? ? n s ? S P|]; subst. inversion P as [| |? ? ? s' ? I P']; subst.
    inversion P'; subst. pose proof S as (S1 & S2 & S3).
    replace (lenN raw) with (lenN s) by (unfold lenN; congruence).
    rewrite (decompress_exact _ _ _ I). cbn [bind]. rewrite dbg_ok by apply N.eqb_refl. cbn [bind].
    eapply U; eauto.
Qed.

Lemma scan_std fs sh gz : std_filters fs sh gz ->
  exists g, scan_filters fs false None = Ok (sh, g) /\ (match g with Some _ => true | None => false end) = gz.
Proof. destruct 1; cbn; eauto. Qed.

Lemma decode_indexed m inflate h ds sh gz raw stored :
  dataset_index m h = Ok ds -> std_filters (h_filters h) sh gz ->
  pipeline inflate (N.to_nat (d_dsize ds)) (h_filters h) raw stored ->
  (In FShuffle (h_filters h) -> In (d_dsize ds) [1; 2; 4; 8]) -> d_dsize ds < 16 ->
  decode_chunk m inflate stored (lenN raw) (d_dsize ds) (is_some (d_gzip ds)) (d_shuffle ds) = Ok raw.
Proof.
  intros HI HS HP Hw H16.
  destruct (scan_std _ _ _ HS) as (g & Eg & Eb).
  unfold dataset_index in HI. rewrite Eg in HI. cbn [bind] in HI.
  apply bind_ok in HI as (chunks & _ & HI). apply bind_ok in HI as (grid & _ & HI).
  apply bind_ok in HI as (ex & _ & HI). apply bind_ok in HI as ([] & _ & HI).
  unfold dataset_new in HI.
  repeat (apply bind_ok in HI as (? & _ & HI)). injection HI as <-.
  cbn [d_gzip d_shuffle d_dsize] in *. unfold is_some. rewrite Eb.
  rewrite <- (N2Nat.id (dt_size (h_dtype h))) at 1.
  apply decode_ok with (fs := h_filters h); auto; [|lia].
  intros ->. assert (In FShuffle (h_filters h)) as Hin.
  { inversion HS; subst; now left. }
  specialize (Hw Hin). destruct Hw as [E|[E|[E|[E|[]]]]]; rewrite <- E; cbn; auto.
Qed.

(** A deflate-then-shuffle chunk is not decoded. *)
Definition ds_filters : list h5filter := [FDeflate 1; FShuffle].
Definition ds_h5 : h5ds := mkH5 [2] (Some [2]) true None 0 [mkChunk 100 4 [0]] ds_filters (Int 2) LE.
Definition ds_inflate (s : bytes) : option bytes :=
  match s with [1; 2; 3; 4] => Some [7; 0; 9; 0] | _ => None end.

Lemma deflate_shuffle_refuted :
  (exists ds, forall m, dataset_index m ds_h5 = Ok ds /\ h_filters ds_h5 = [FDeflate 1; FShuffle] /\
     d_dsize ds = 2 /\
     pipeline ds_inflate 2 (h_filters ds_h5) [7; 0; 9; 0] [1; 3; 2; 4] /\
     decode_chunk m ds_inflate [1; 3; 2; 4] 4 2 (is_some (d_gzip ds)) (d_shuffle ds) = Err EDecode) /\
  (forall m, decode_chunk m ds_inflate [1; 2; 3; 4; 5; 6] 6 3 false true = Panic).
Proof.
  split.
  - eexists. intros m. split; [destruct m; vm_compute; reflexivity|]. do 2 (split; [reflexivity|]). split.
    + eapply pl_deflate with (s := [1; 2; 3; 4]); [reflexivity|].
      eapply pl_shuffle with (n := 2%nat) (s := [1; 3; 2; 4]); [|constructor].
      split; [reflexivity|]. split; [reflexivity|].
      intros i j Hi Hj. destruct i as [|[|i]], j as [|[|j]]; try lia; reflexivity.
    + destruct m; reflexivity.
  - intros []; reflexivity.
Qed.
