(** * Proofs about the Python interface. *)
From Verif Require Import Base Spec Safe Extent Chunk Dataset Slicer SpecApi ExtentProofs ApiLemmas Termination
  GroupProofs SliceProps Filters SpecFilter FilterProps Reader SpecReader CacheProofs DirectProofs ParProofs
  ReadProofs ReaderProps IndexTree SpecTree TreeProofs Python SpecPython.

Lemma adjust_bound n x step : (0 <= n <= IMAX)%Z -> (0 < step)%Z -> adjust (clamp x) n step = np_bound n x.
Proof.
  intros Hn Hs. unfold adjust, np_bound, clamp, IMAX, IMIN in *.
  rewrite (proj2 (Z.ltb_ge step 0)) by lia.
  repeat match goal with |- context [(?a <? ?b)%Z] => destruct (Z.ltb_spec a b)
                       | |- context [(?a <=? ?b)%Z] => destruct (Z.leb_spec a b) end; lia.
Qed.
Lemma np_bound_range n x : (0 <= n)%Z -> (0 <= np_bound n x <= n)%Z.
Proof. unfold np_bound. destruct (Z.ltb_spec x 0); lia. Qed.
Lemma np_lo_range n a : (0 <= n)%Z -> (0 <= np_lo n a <= n)%Z.
Proof. destruct a; cbn [np_lo]; [apply np_bound_range|lia]. Qed.
Lemma np_hi_range n a : (0 <= n)%Z -> (0 <= np_hi n a <= n)%Z.
Proof. destruct a; cbn [np_hi]; [apply np_bound_range|lia]. Qed.

Lemma as_u64_small x : (0 <= x < W64Z)%Z -> as_u64 x = Z.to_N x.
Proof. intros H. unfold as_u64. now rewrite Z.mod_small. Qed.
Lemma as_u64_neg x : (- W64Z < x < 0)%Z -> as_u64 x = Z.to_N (W64Z + x).
Proof. intros H. unfold as_u64. f_equal. symmetry. apply Z.mod_unique with (-1)%Z; [left|]; lia. Qed.

Lemma py_axis_unit a b st n : unit_step st -> (Z.of_N n <= IMAX)%Z ->
  py_axis (a, b, st) n = Ok (Z.to_N (np_lo (Z.of_N n) a), as_u64 (np_hi (Z.of_N n) b - np_lo (Z.of_N n) a), 1).
Proof.
  intros Hst Hn. unfold py_axis. rewrite (proj2 (Z.leb_le _ _) Hn). cbn [assert_ bind].
  assert (ES : match st with None => 1%Z | Some x => Z.max (- IMAX) (clamp x) end = 1%Z).
  { destruct Hst as [-> | ->]; reflexivity. }
  rewrite ES. change ((1 =? 0)%Z) with false. change ((1 <? 0)%Z) with false. cbn [negb].
  assert (H0 : (0 <= Z.of_N n <= IMAX)%Z) by lia.
  assert (EL : adjust (match a with Some x => clamp x | None => 0%Z end) (Z.of_N n) 1 = np_lo (Z.of_N n) a).
  { destruct a as [x|]; cbn [np_lo]; [now apply adjust_bound|].
    transitivity (adjust (clamp 0) (Z.of_N n) 1); [reflexivity|]. rewrite adjust_bound by lia.
    unfold np_bound. change (0 <? 0)%Z with false. lia. }
  assert (EH : adjust (match b with Some x => clamp x | None => IMAX end) (Z.of_N n) 1 = np_hi (Z.of_N n) b).
  { destruct b as [x|]; cbn [np_hi]; [now apply adjust_bound|].
    transitivity (adjust (clamp IMAX) (Z.of_N n) 1); [reflexivity|]. rewrite adjust_bound by lia. unfold np_bound. change (IMAX <? 0)%Z with false. lia. }
  rewrite EL, EH. pose proof (np_lo_range (Z.of_N n) a). unfold IMAX in *.
  rewrite as_u64_small by (unfold W64Z; lia). reflexivity.
Qed.

(** The slice of a key. *)
Definition key_bounds (k : pykey) : option Z * option Z :=
  match k with PySlice a b _ => (a, b) | PyInt i => (Some i, Some (i + 1)%Z) | PyOther => (None, None) end.
Definition plain_key (k : pykey) : Prop :=
  match k with PySlice _ _ st => unit_step st | PyInt i => (IMIN <= i < IMAX)%Z | PyOther => False end.
Definition key_lo (n : N) (k : pykey) : Z := np_lo (Z.of_N n) (fst (key_bounds k)).
Definition key_hi (n : N) (k : pykey) : Z := np_hi (Z.of_N n) (snd (key_bounds k)).

Lemma py_slice_plain m k n : plain_key k -> (Z.of_N n <= IMAX)%Z ->
  (let* s := py_slice m k in py_axis s n) =
  Ok (Z.to_N (key_lo n k), as_u64 (key_hi n k - key_lo n k), 1).
Proof.
  intros Hk Hn. destruct k as [a b st|i|]; cbn [py_slice plain_key] in *; [| |easy].
  - cbn [bind]. now apply py_axis_unit.
  - rewrite (proj2 (Z.leb_le IMIN i)), (proj2 (Z.leb_le i IMAX)) by lia. cbn [andb].
    rewrite (proj2 (Z.eqb_neq i IMAX)) by lia. cbn [bind]. rewrite py_axis_unit by (auto; now right). reflexivity.
Qed.

Lemma int_bounds n i : in_range n i -> i <> (-1)%Z ->
  key_lo n (PyInt i) = (if (i <? 0)%Z then i + Z.of_N n else i)%Z /\ key_hi n (PyInt i) = (key_lo n (PyInt i) + 1)%Z.
Proof.
  unfold in_range, key_lo, key_hi. cbn [key_bounds fst snd np_lo np_hi]. unfold np_bound. intros H Hi.
  destruct (Z.ltb_spec i 0), (Z.ltb_spec (i + 1) 0); lia.
Qed.

Lemma forward_plain n k : (Z.of_N n <= IMAX)%Z -> forward n k -> plain_key k /\ (key_lo n k <= key_hi n k)%Z.
Proof.
  destruct k as [a b st|i|]; cbn [forward plain_key]; intros Hn; [tauto| |easy].
  intros [H Hi]. destruct (int_bounds n i H Hi) as [E1 E2]. split; [|lia].
  unfold in_range, IMIN, IMAX in *. lia.
Qed.

Lemma forward_axis n k x : (Z.of_N n <= IMAX)%Z -> forward n k ->
  (np_axis n k x <-> (key_lo n k <= Z.of_N x < key_hi n k)%Z).
Proof.
  intros Hn Hk. destruct k as [a b st|i|]; cbn [forward] in Hk; [| |easy].
  - unfold key_lo, key_hi. cbn [key_bounds fst snd]. split; [now inversion 1|]. intros H. constructor; tauto.
  - destruct Hk as [H Hi]. destruct (int_bounds n i H Hi) as [E1 E2]. rewrite E2, E1. unfold in_range in H.
    split.
    + intros HA. inversion HA as [i' x' Hx HO|]; subst. destruct (Z.ltb_spec i 0); lia.
    + intros HB. constructor; destruct (Z.ltb_spec i 0); lia.
Qed.

(** ** The plan *)

Definition axis_of (nk : N * pykey) : N * N * N :=
  (Z.to_N (key_lo (fst nk) (snd nk)), as_u64 (key_hi (fst nk) (snd nk) - key_lo (fst nk) (snd nk)), 1).

Lemma on_axes_cons P n shape k keys : on_axes P (n :: shape) (k :: keys) -> P n k /\ on_axes P shape keys.
Proof. intros H. split; [exact (H 0%nat n k eq_refl eq_refl)|intros j; exact (H (S j))]. Qed.

Lemma py_axes_plain m : forall keys shape, (length keys <= length shape)%nat -> dims_fit shape ->
  on_axes (fun _ => plain_key) shape keys ->
  py_axes m keys shape = Ok (map axis_of (combine shape keys)).
Proof.
  induction keys as [|k keys IH]; intros [|n shape] HL HD HP; cbn [length] in HL; try lia; [reflexivity|reflexivity|].
  apply on_axes_cons in HP as [Hk HP]. inversion HD as [|? ? Hn HD']; subst.
  cbn [py_axes combine map].
  pose proof (py_slice_plain m k n Hk Hn) as E. destruct (py_slice m k) as [s| | | |]; cbn [bind] in *; try discriminate.
  rewrite E. cbn [bind]. rewrite (IH shape) by (auto; lia). reflexivity.
Qed.

Definition plan_idx (shape : list N) (keys : list pykey) : list N :=
  map (fun nk => Z.to_N (key_lo (fst nk) (snd nk))) (combine shape keys) ++ repeat 0 (length shape - length keys).
Definition plan_cnt (shape : list N) (keys : list pykey) : list N :=
  map (fun nk => as_u64 (key_hi (fst nk) (snd nk) - key_lo (fst nk) (snd nk))) (combine shape keys) ++ skipn (length keys) shape.

Lemma py_plan_plain m keys shape : (length keys <= length shape)%nat -> dims_fit shape ->
  on_axes (fun _ => plain_key) shape keys ->
  py_plan m shape (PyTuple keys) = Ok (plan_idx shape keys, plan_cnt shape keys).
Proof.
  intros HL HD HP. unfold py_plan. rewrite py_axes_plain by auto. cbn [bind].
  rewrite !map_map, map_length, combine_length, Nat.min_r by lia. cbn [axis_of fst snd].
  assert (F : forallb (fun x => x =? 1) (map (fun _ : N * pykey => 1) (combine shape keys) ++ repeat 1 (length shape - length keys)) = true).
  { apply forallb_forall. intros x Hx. apply in_app_iff in Hx as [Hx|Hx].
    - apply in_map_iff in Hx as (y & <- & _). reflexivity.
    - apply repeat_spec in Hx. subst x. reflexivity. }
  rewrite F. reflexivity.
Qed.

Lemma plan_lengths shape keys : (length keys <= length shape)%nat ->
  length (plan_idx shape keys) = length shape /\ length (plan_cnt shape keys) = length shape.
Proof.
  intros H. unfold plan_idx, plan_cnt. rewrite !app_length, !map_length, combine_length, repeat_length, skipn_length. lia.
Qed.

Lemma plan_cons n shape k keys :
  plan_idx (n :: shape) (k :: keys) = Z.to_N (key_lo n k) :: plan_idx shape keys /\
  plan_cnt (n :: shape) (k :: keys) = as_u64 (key_hi n k - key_lo n k) :: plan_cnt shape keys.
Proof. split; reflexivity. Qed.
Lemma plan_nil n shape : plan_idx (n :: shape) [] = 0 :: plan_idx shape [] /\ plan_cnt (n :: shape) [] = n :: plan_cnt shape [].
Proof. unfold plan_idx, plan_cnt. cbn [combine map app length repeat skipn]. rewrite !Nat.sub_0_r. split; destruct shape; reflexivity. Qed.

Lemma slab_cons i idx n cnt x xs : In (x :: xs) (slab (i :: idx) (n :: cnt)) <-> i <= x < i + n /\ In xs (slab idx cnt).
Proof.
  cbn [slab]. rewrite in_flat_map. split.
  - intros (y & Hy & Hin). apply in_map_iff in Hin as (z & E & Hz). injection E as -> ->.
    apply in_seqN in Hy. split; [lia|auto].
  - intros [H Hin]. exists x. split; [apply in_seqN; lia|]. now apply in_map.
Qed.
Lemma slab_cons_nil i idx n cnt : ~ In [] (slab (i :: idx) (n :: cnt)).
Proof. cbn [slab]. rewrite in_flat_map. intros (y & _ & Hin). apply in_map_iff in Hin as (z & E & _). discriminate. Qed.

Lemma key_count n k : (Z.of_N n <= IMAX)%Z -> (key_lo n k <= key_hi n k)%Z ->
  as_u64 (key_hi n k - key_lo n k) = Z.to_N (key_hi n k - key_lo n k).
Proof.
  intros Hn H. pose proof (np_lo_range (Z.of_N n) (fst (key_bounds k))). pose proof (np_hi_range (Z.of_N n) (snd (key_bounds k))).
  unfold key_lo, key_hi, IMAX in *. apply as_u64_small. unfold W64Z. lia.
Qed.

Lemma plan_selects : forall shape keys, (length keys <= length shape)%nat -> dims_fit shape ->
  on_axes forward shape keys -> forall x,
  In x (slab (plan_idx shape keys) (plan_cnt shape keys)) <-> np_select shape keys x.
Proof.
  induction shape as [|n shape IH]; intros [|k keys] HL HD HF x; cbn [length] in HL; try lia.
  - cbn. split.
    + intros [<-|[]]. constructor.
    + inversion 1. now left.
  - destruct (plan_nil n shape) as [-> ->]. inversion HD as [|? ? Hn HD']; subst. destruct x as [|x xs].
    + split; [intros H; now apply slab_cons_nil in H|inversion 1].
    + rewrite slab_cons, IH; [|cbn [length]; lia|auto|intros [|j]; discriminate].
      split; [intros [H1 H2]; constructor; auto; lia|]. inversion 1; subst. split; auto; lia.
  - destruct (plan_cons n shape k keys) as [-> ->]. inversion HD as [|? ? Hn HD']; subst.
    apply on_axes_cons in HF as [Hk HF]. destruct (forward_plain n k Hn Hk) as [Hp HO]. destruct x as [|x xs].
    + split; [intros H; now apply slab_cons_nil in H|inversion 1].
    + rewrite slab_cons, IH by (auto; lia). rewrite key_count by auto.
      pose proof (np_lo_range (Z.of_N n) (fst (key_bounds k))) as R. fold (key_lo n k) in R.
      pose proof (forward_axis n k x Hn Hk) as A. split.
      * intros [H1 H2]. constructor; auto. apply A. lia.
      * intros HS. inversion HS as [| |n0 sh0 k0 ks0 x0 xs0 HA HS']; subst. split; auto. apply A in HA. lia.
Qed.

(** The plan stays inside the dataset. *)
Lemma plan_inside : forall shape keys, (length keys <= length shape)%nat -> dims_fit shape ->
  on_axes forward shape keys -> Forall2 (fun i_n s => fst i_n + snd i_n <= s)
    (combine (plan_idx shape keys) (plan_cnt shape keys)) shape.
Proof.
  induction shape as [|n shape IH]; intros [|k keys] HL HD HF; cbn [length] in HL; try lia.
  - constructor.
  - destruct (plan_nil n shape) as [-> ->]. inversion HD as [|? ? Hn HD']; subst. cbn [combine]. constructor; [cbn; lia|].
    apply IH; auto; [cbn; lia|intros [|j]; discriminate].
  - destruct (plan_cons n shape k keys) as [-> ->]. inversion HD as [|? ? Hn HD']; subst.
    apply on_axes_cons in HF as [Hk HF]. destruct (forward_plain n k Hn Hk) as [Hp HO].
    cbn [combine]. constructor; [|apply IH; auto; lia]. cbn [fst snd]. rewrite key_count by auto.
    pose proof (np_lo_range (Z.of_N n) (fst (key_bounds k))) as R. fold (key_lo n k) in R.
    pose proof (np_hi_range (Z.of_N n) (snd (key_bounds k))) as R2. fold (key_hi n k) in R2. lia.
Qed.

(** ** Arrays *)

Lemma prod_filter l : Forall (fun x => 0 < x) l -> prodN (filter (fun d => 1 <? d) l) = prodN l.
Proof.
  induction 1 as [|x l Hx HF IH]; [reflexivity|]. cbn [filter prodN]. destruct (N.ltb_spec 1 x); cbn [prodN]; rewrite IH; [auto|].
  replace x with 1 by lia. lia.
Qed.
Lemma prod_dims l : Forall (fun x => 0 < x) l -> prodN (py_dims l) = prodN l.
Proof.
  intros H. unfold py_dims. rewrite <- (prod_filter l H). destruct (filter _ l) as [|y l']; reflexivity.
Qed.
Lemma prod_big l b : In b l -> Forall (fun x => 0 < x) l -> b <= prodN l.
Proof.
  induction l as [|y l IH]; [easy|]. intros [<-|Hb] HF; inversion HF as [|? ? Hy HF']; subst; cbn [prodN].
  - pose proof (prodN_pos _ HF'). nia.
  - specialize (IH Hb HF'). nia.
Qed.
Lemma dims_pos l : Forall (fun x => 0 < x) (py_dims l).
Proof.
  unfold py_dims. destruct (filter _ l) as [|y l'] eqn:E; [repeat constructor|]. rewrite <- E.
  apply Forall_forall. intros x Hx. apply filter_In in Hx as [_ Hx]. apply N.ltb_lt in Hx. lia.
Qed.
Lemma dims_big l b : In b l -> 1 < b -> b <= prodN (py_dims l).
Proof.
  intros Hb H1. apply prod_big; [|apply dims_pos]. unfold py_dims.
  assert (In b (filter (fun d => 1 <? d) l)). { apply filter_In. split; auto. now apply N.ltb_lt. }
  destruct (filter _ l); [easy|auto].
Qed.

(** A negative count makes a huge array. *)
Lemma py_read_huge m h inflate sort fuel ds file mem k w idx cnt b x : (0 < w)%nat -> In b cnt -> (IMAX < Z.of_N b)%Z ->
  py_read m h inflate sort fuel ds file mem k w idx cnt x -> x = Panic.
Proof.
  intros Hw Hb HB HR.
  assert (HBig : (IMAX < Z.of_N (prodN (py_dims cnt) * N.of_nat w))%Z).
  { pose proof (dims_big cnt b Hb). unfold IMAX in *. nia. }
  inversion HR; subst; auto; lia.
Qed.

Lemma py_type_pos dt k w : py_type dt = Ok (k, w) -> (0 < w)%nat.
Proof.
  unfold py_type. destruct dt; repeat match goal with |- context [?a =? ?b] => destruct (a =? b) end; intros H; try discriminate;
    injection H as <- <-; lia.
Qed.
Lemma py_type_fails dt x : py_type dt = x -> (forall t, x <> Ok t) -> x = Panic.
Proof.
  unfold py_type. destruct dt; repeat match goal with |- context [?a =? ?b] => destruct (a =? b) end; intros <- H; auto;
    exfalso; eapply H; reflexivity.
Qed.
Lemma py_type_width dt k w : py_type dt = Ok (k, w) -> dt_size dt = N.of_nat w.
Proof.
  unfold py_type. destruct dt; cbn [dt_size];
    repeat match goal with |- context [?a =? ?b] => destruct (N.eqb_spec a b) end; intros H; try discriminate; subst; injection H as <- <-; reflexivity.
Qed.

(** ** Any key *)

Lemma py_slice_fails m k x : py_slice m k = x -> (forall s, x <> Ok s) -> x = Panic.
Proof.
  unfold py_slice. destruct k as [a b st|i|]; intros <- H; auto.
  - exfalso. eapply H. reflexivity.
  - destruct ((IMIN <=? i)%Z && (i <=? IMAX)%Z); auto. destruct (i =? IMAX)%Z; [destruct m; auto|];
      exfalso; eapply H; reflexivity.
Qed.
Lemma py_axis_fails s n x : py_axis s n = x -> (forall s, x <> Ok s) -> x = Panic.
Proof.
  unfold py_axis. destruct s as [[a b] st]. destruct (Z.of_N n <=? IMAX)%Z; cbn [assert_ bind]; [|auto].
  match goal with |- context [if ?c then Panic else _] => destruct c end; intros <- H; auto. exfalso. eapply H. reflexivity.
Qed.
Lemma py_axes_fails m keys : forall shape x, py_axes m keys shape = x -> (forall s, x <> Ok s) -> x = Panic.
Proof.
  induction keys as [|k keys IH]; intros [|n shape] x; cbn [py_axes]; intros <- H; try (exfalso; eapply H; reflexivity).
  - destruct (py_slice m k) as [s| | | |] eqn:E; cbn [bind] in *; try (apply (py_slice_fails m k) in E; [congruence|discriminate]).
    exfalso. eapply H. reflexivity.
  - destruct (py_slice m k) as [s| | | |] eqn:E; cbn [bind] in *;
      try (apply (py_slice_fails m k) in E; [congruence|discriminate]).
    destruct (py_axis s n) as [t| | | |] eqn:E2; cbn [bind] in *;
      try (apply (py_axis_fails s n) in E2; [congruence|discriminate]).
    destruct (py_axes m keys shape) as [r| | | |] eqn:E3; cbn [bind] in *;
      try (apply IH in E3; [congruence|discriminate]). exfalso. eapply H. reflexivity.
Qed.
Lemma py_plan_fails m shape keys x : py_plan m shape (PyTuple keys) = x -> (forall s, x <> Ok s) -> x = Panic.
Proof.
  unfold py_plan. destruct (py_axes m keys shape) as [l| | | |] eqn:E; cbn [bind];
    try (apply py_axes_fails in E; [|discriminate]; intros <- _; congruence).
  destruct (forallb _ _); cbn [assert_ bind]; intros <- H; auto. exfalso. eapply H. reflexivity.
Qed.

Lemma nth_error_skipn' {A} (l : list A) a j : nth_error (skipn a l) j = nth_error l (a + j).
Proof. revert l; induction a as [|a IH]; intros [|x l]; cbn [skipn Nat.add nth_error]; auto. now destruct j. Qed.
Lemma nth_error_repeat' {A} (x : A) n j : (j < n)%nat -> nth_error (repeat x n) j = Some x.
Proof. revert j; induction n as [|n IH]; intros [|j] H; cbn [repeat nth_error]; try lia; auto. apply IH. lia. Qed.

(** What a successful plan has for each key. *)
Lemma py_axes_nth m : forall keys shape l j n k, py_axes m keys shape = Ok l -> nth_error shape j = Some n -> nth_error keys j = Some k ->
  exists t, nth_error l j = Some t /\ (let* s := py_slice m k in py_axis s n) = Ok t.
Proof.
  induction keys as [|k0 keys IH]; intros [|n0 shape] l [|j] n k; cbn [nth_error py_axes]; intros E Hn Hk; try discriminate.
  - injection Hn as ->. injection Hk as ->. destruct (py_slice m k) as [s| | | |]; cbn [bind] in *; try discriminate.
    destruct (py_axis s n) as [t| | | |]; cbn [bind] in *; try discriminate.
    destruct (py_axes m keys shape) as [r| | | |]; cbn [bind] in *; try discriminate. injection E as <-. eauto.
  - destruct (py_slice m k0) as [s| | | |]; cbn [bind] in *; try discriminate.
    destruct (py_axis s n0) as [t| | | |]; cbn [bind] in *; try discriminate.
    destruct (py_axes m keys shape) as [r| | | |] eqn:E2; cbn [bind] in *; try discriminate. injection E as <-.
    cbn [nth_error]. exact (IH shape r j n k E2 Hn Hk).
Qed.
Lemma py_axes_length m : forall keys shape l, py_axes m keys shape = Ok l -> length l = Nat.min (length keys) (length shape).
Proof.
  induction keys as [|k0 keys IH]; intros [|n0 shape] l; cbn [py_axes]; intros E.
  - now injection E as <-.
  - now injection E as <-.
  - destruct (py_slice m k0); cbn [bind] in *; try discriminate. now injection E as <-.
  - destruct (py_slice m k0) as [s| | | |]; cbn [bind] in *; try discriminate.
    destruct (py_axis s n0) as [t| | | |]; cbn [bind] in *; try discriminate.
    destruct (py_axes m keys shape) as [r| | | |] eqn:E2; cbn [bind] in *; try discriminate. injection E as <-.
    cbn [length]. now rewrite (IH _ _ E2).
Qed.

Lemma py_plan_nth m shape keys idx cnt j n k : py_plan m shape (PyTuple keys) = Ok (idx, cnt) ->
  nth_error shape j = Some n -> nth_error keys j = Some k ->
  exists i c, nth_error idx j = Some i /\ nth_error cnt j = Some c /\
    (let* s := py_slice m k in py_axis s n) = Ok (i, c, 1).
Proof.
  intros E Hn Hk. unfold py_plan in E. destruct (py_axes m keys shape) as [l| | | |] eqn:EA; cbn [bind] in E; try discriminate.
  destruct (forallb _ _) eqn:EF; cbn [assert_ bind] in E; try discriminate. injection E as <- <-.
  destruct (py_axes_nth m keys shape l j n k EA Hn Hk) as (((i & c) & st) & Et & Eb).
  assert (HL : (j < length l)%nat) by (apply nth_error_Some; congruence).
  exists i, c. split; [|split].
  - rewrite nth_error_app1 by (rewrite map_length; auto). now rewrite nth_error_map, Et.
  - rewrite nth_error_app1 by (rewrite map_length; auto). now rewrite nth_error_map, Et.
  - rewrite Eb. rewrite forallb_forall in EF. specialize (EF st).
    rewrite (proj1 (N.eqb_eq st 1)); auto. apply EF. apply in_app_iff. left. apply in_map_iff. exists (i, c, st).
    split; auto. exact (nth_error_In _ _ Et).
Qed.

Lemma py_plan_full m shape keys idx cnt j n : py_plan m shape (PyTuple keys) = Ok (idx, cnt) ->
  nth_error shape j = Some n -> (length keys <= j)%nat -> nth_error idx j = Some 0 /\ nth_error cnt j = Some n.
Proof.
  intros E Hn Hk. unfold py_plan in E. destruct (py_axes m keys shape) as [l| | | |] eqn:EA; cbn [bind] in E; try discriminate.
  destruct (forallb _ _) eqn:EF; cbn [assert_ bind] in E; try discriminate. injection E as <- <-.
  assert (HJ : (j < length shape)%nat) by (apply nth_error_Some; congruence).
  pose proof (py_axes_length _ _ _ _ EA) as HL.
  rewrite !nth_error_app2 by (rewrite map_length; lia). rewrite !map_length. split.
  - apply nth_error_repeat'. lia.
  - rewrite nth_error_skipn'. replace (length l + (j - length l))%nat with j by lia. auto.
Qed.

Lemma py_plan_lengths m shape arg idx cnt : py_plan m shape arg = Ok (idx, cnt) -> length idx = length shape /\ length cnt = length shape.
Proof.
  destruct arg as [keys|k]; [|discriminate]. unfold py_plan. intros E.
  destruct (py_axes m keys shape) as [l| | | |] eqn:EA; cbn [bind] in E; try discriminate.
  destruct (forallb _ _) eqn:EF; cbn [assert_ bind] in E; try discriminate. injection E as <- <-.
  pose proof (py_axes_length _ _ _ _ EA) as HL.
  rewrite !app_length, !map_length, repeat_length, skipn_length. lia.
Qed.

Lemma backward_count m n k i c : backward n k -> (let* s := py_slice m k in py_axis s n) = Ok (i, c, 1) -> (IMAX < Z.of_N c)%Z.
Proof.
  intros HB E.
  assert (Hn : (Z.of_N n <= IMAX)%Z).
  { destruct (py_slice m k) as [[[a b] st]| | | |]; cbn [bind] in E; try discriminate. unfold py_axis in E.
    destruct (Z.leb_spec (Z.of_N n) IMAX); auto. discriminate. }
  assert (HP : plain_key k /\ (key_hi n k < key_lo n k)%Z).
  { destruct k as [a b st|j|]; cbn [backward plain_key] in *; [exact HB| |easy].
    destruct HB as [-> H1]. unfold key_lo, key_hi, IMIN, IMAX. cbn [key_bounds fst snd np_lo np_hi]. unfold np_bound.
    change (-1 + 1)%Z with 0%Z. change (-1 <? 0)%Z with true. change (0 <? 0)%Z with false. cbv iota. split; lia. }
  destruct HP as [HP HO]. rewrite py_slice_plain in E by auto. injection E as _ <-.
  pose proof (np_lo_range (Z.of_N n) (fst (key_bounds k))) as R. fold (key_lo n k) in R.
  pose proof (np_hi_range (Z.of_N n) (snd (key_bounds k))) as R2. fold (key_hi n k) in R2.
  unfold IMAX in *. rewrite as_u64_neg by (unfold W64Z; lia). unfold W64Z. lia.
Qed.

Lemma lost_count m n k i c : lost_int n k -> (let* s := py_slice m k in py_axis s n) = Ok (i, c, 1) -> c = 0.
Proof.
  intros HB E.
  assert (Hn : (Z.of_N n <= IMAX)%Z).
  { destruct (py_slice m k) as [[[a b] st]| | | |]; cbn [bind] in E; try discriminate. unfold py_axis in E.
    destruct (Z.leb_spec (Z.of_N n) IMAX); auto. discriminate. }
  destruct k as [a b st|j|]; cbn [lost_int] in *; try easy.
  assert (HP : (IMIN <= j < IMAX)%Z /\ key_hi n (PyInt j) = key_lo n (PyInt j)).
  { unfold key_lo, key_hi, in_range, IMIN, IMAX in *. cbn [key_bounds fst snd np_lo np_hi]. unfold np_bound.
    destruct (Z.ltb_spec j 0), (Z.ltb_spec (j + 1) 0); lia. }
  destruct HP as [HP HO]. rewrite py_slice_plain in E by auto. injection E as _ <-. rewrite HO, Z.sub_diag. reflexivity.
Qed.

Lemma idx_small m n k i c : (let* s := py_slice m k in py_axis s n) = Ok (i, c, 1) -> (Z.of_N i <= IMAX)%Z.
Proof.
  destruct (py_slice m k) as [[[a b] st]| | | |]; cbn [bind]; try discriminate. unfold py_axis.
  destruct (Z.leb_spec (Z.of_N n) IMAX); cbn [assert_ bind]; try discriminate.
  assert (HB : (- IMAX <= match st with None => 1 | Some x => Z.max (- IMAX) (clamp x) end <= IMAX)%Z).
  { destruct st as [x|]; unfold clamp, IMAX, IMIN; lia. }
  revert HB. generalize (match st with None => 1 | Some x => Z.max (- IMAX) (clamp x) end)%Z as step. intros step HB.
  destruct (Z.eqb_spec step 0); try discriminate. intros E. injection E as <- _ E.
  assert (HS : (0 < step)%Z).
  { destruct (Z.ltb_spec 0 step); auto. exfalso. unfold IMAX in HB. rewrite as_u64_neg in E by (unfold W64Z; lia).
    apply (f_equal Z.of_N) in E. rewrite Z2N.id in E by (unfold W64Z; lia). unfold W64Z in E. lia. }
  rewrite (proj2 (Z.ltb_ge step 0)) by lia.
  assert (R : (0 <= adjust match a with Some x => clamp x | None => 0%Z end (Z.of_N n) step <= Z.of_N n)%Z).
  { destruct a as [x|].
    - rewrite adjust_bound by lia. apply np_bound_range. lia.
    - replace (adjust 0 (Z.of_N n) step) with (adjust (clamp 0) (Z.of_N n) step) by reflexivity.
      rewrite adjust_bound by lia. apply np_bound_range. lia. }
  unfold IMAX in *. rewrite as_u64_small by (unfold W64Z; lia). lia.
Qed.

Lemma plan_idx_small m shape arg idx cnt : py_plan m shape arg = Ok (idx, cnt) -> Forall (fun i => (Z.of_N i <= IMAX)%Z) idx.
Proof.
  intros E. destruct (py_plan_lengths m shape arg idx cnt E) as [L1 L2]. destruct arg as [keys|k]; [|discriminate].
  apply Forall_forall. intros i Hi. apply In_nth_error in Hi as [j Hj].
  assert (HJ : (j < length shape)%nat) by (rewrite <- L1; apply nth_error_Some; congruence).
  destruct (nth_error shape j) as [n|] eqn:En; [|apply nth_error_None in En; lia].
  destruct (nth_error keys j) as [k|] eqn:Ek.
  - destruct (py_plan_nth m shape keys idx cnt j n k E En Ek) as (i' & c & E1 & _ & E2).
    rewrite Hj in E1. injection E1 as <-. exact (idx_small m n k i c E2).
  - apply nth_error_None in Ek. destruct (py_plan_full m shape keys idx cnt j n E En Ek) as [E1 _].
    rewrite Hj in E1. injection E1 as ->. unfold IMAX. lia.
Qed.

Lemma lead_le_dims l k : prodN (firstn k l) <= prodN (py_dims l).
Proof.
  assert (HF : forall l, Forall (fun x => 0 < x) (filter (fun d => 1 <? d) l)).
  { intros l0. apply Forall_forall. intros x Hx. apply filter_In in Hx as [_ Hx]. apply N.ltb_lt in Hx. lia. }
  assert (H : forall l k, prodN (firstn k l) <= prodN (filter (fun d => 1 <? d) l)).
  { clear l k. induction l as [|x l IH]; intros [|k]; cbn [firstn prodN filter]; try lia.
    - pose proof (prodN_pos _ (HF (x :: l))) as P. cbn [filter] in P. lia.
    - specialize (IH k). destruct (N.ltb_spec 1 x); cbn [prodN]; [nia|]. assert (x = 0 \/ x = 1) as [-> | ->] by lia; lia. }
  specialize (H l k). unfold py_dims. destruct (filter _ l); cbn [prodN] in *; lia.
Qed.
