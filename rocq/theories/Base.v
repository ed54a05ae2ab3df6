(** * Base: outcomes, build modes, u64 arithmetic and list helpers.

    These definitions model the Rust language semantics the code of /repo relies
    on rather than one particular function of it. *)
From Coq Require Export List NArith ZArith Lia Bool Permutation.
Export ListNotations.
Open Scope N_scope.

(** Cargo build profile.  [Debug]: overflow checks and [debug_assert!] are on
    (`cargo test`/`cargo build`).  [Release]: integer operations wrap and
    [debug_assert!] is compiled out (/repo/Cargo.toml lines 58-61 do not enable
    overflow-checks in the release profile). *)
Inductive mode : Type := Debug | Release.

(** The error values ([anyhow::Error]) the modelled code distinguishes by the
    place that creates them. *)
Inductive err : Type :=
| ERank        (* extent.rs 422: extents had the wrong length *)
| ELenMismatch (* extent.rs 520: indices and counts differ in length *)
| ESlice       (* extent.rs 473-489: ndarray slice not convertible *)
| ECapacity    (* "destination buffer has insufficient capacity" *)
| EOpen        (* File::open failed *)
| EIo          (* seek / read_exact failed *)
| EDecode      (* gzip.rs 8 *)
| ECast        (* byte_slice_cast error *)
| ESize        (* reader/dataset.rs 73: dsize not a multiple of size_of T *)
| EAlign       (* reader/dataset.rs 80 *)
| EStatus      (* s3.rs 176 *)
| EShort       (* s3.rs 182 *)
| EHttp        (* s3.rs 172: request failed *)
| EFilter      (* dataset.rs 66: unsupported filter *)
| ELayout      (* dataset.rs 127: unsupported layout *)
| ENumChunks   (* dataset.rs 145 *)
| EValid       (* dataset.rs 276 *)
| EDe          (* serialization or deserialization error *)
| EHdf5        (* error reported by the HDF5 library *)
| EMissing     (* index.rs 172-176: path or dataset missing *)
| EType.       (* python.rs 189: a Python argument of another type (TypeError) *)

(** Outcome of running a Rust function: normal return [Ok], [Err] (a returned
    [Result::Err]), a panic, undefined behaviour (an unchecked memory access
    outside its buffer), or [Hang]: the model's explicit fuel ran out before the
    function returned (used only by the chunk-slice iterator, which is a Rust
    `while`-style loop; theorems exclude it explicitly). *)
Inductive res (A : Type) : Type :=
| Ok (a : A) | Err (e : err) | Panic | Ub | Hang.
Arguments Ok {A} a.
Arguments Err {A} e.
Arguments Panic {A}.
Arguments Ub {A}.
Arguments Hang {A}.

Definition bind {A B} (x : res A) (f : A -> res B) : res B :=
  match x with Ok a => f a | Err e => Err e | Panic => Panic | Ub => Ub | Hang => Hang end.

Declare Scope res_scope.
Delimit Scope res_scope with res.
Notation "'let*' x ':=' e1 'in' e2" := (bind e1 (fun x => e2))
  (at level 200, x pattern, e1 at level 100, e2 at level 200, right associativity) : res_scope.
Open Scope res_scope.

(** 2^64, the modulus of u64 / 64-bit usize. *)
Definition W64 : N := 18446744073709551616.

(** u64 `+`, `-`, `*`: panic on overflow in [Debug], wrap in [Release]. *)
Definition add64 (m : mode) (a b : N) : res N :=
  if a + b <? W64 then Ok (a + b)
  else match m with Debug => Panic | Release => Ok ((a + b) mod W64) end.
Definition sub64 (m : mode) (a b : N) : res N :=
  if b <=? a then Ok (a - b)
  else match m with Debug => Panic | Release => Ok ((a + W64 - b) mod W64) end.
Definition mul64 (m : mode) (a b : N) : res N :=
  if a * b <? W64 then Ok (a * b)
  else match m with Debug => Panic | Release => Ok ((a * b) mod W64) end.

(** u64 `/` and `%`: panic on a zero divisor in both modes. *)
Definition div64 (a b : N) : res N := if b =? 0 then Panic else Ok (a / b).
Definition rem64 (a b : N) : res N := if b =? 0 then Panic else Ok (a mod b).

(** [u64::div_ceil] (panics on zero divisor). *)
Definition div_ceil64 (a b : N) : res N :=
  if b =? 0 then Panic
  else Ok (if a mod b =? 0 then a / b else a / b + 1).

(** [debug_assert!]. *)
Definition dbg (m : mode) (b : bool) : res unit :=
  match m with Debug => if b then Ok tt else Panic | Release => Ok tt end.

(** [assert!]. *)
Definition assert_ (b : bool) : res unit := if b then Ok tt else Panic.

(** [ensure!]. *)
Definition ensure (b : bool) (e : err) : res unit := if b then Ok tt else Err e.

(** [iter().product::<u64>()] (a left fold of the checked/wrapping product). *)
Fixpoint product64_from (m : mode) (acc : N) (l : list N) : res N :=
  match l with
  | [] => Ok acc
  | x :: l' => let* acc' := mul64 m acc x in product64_from m acc' l'
  end.
Definition product64 (m : mode) (l : list N) : res N := product64_from m 1 l.

(** A byte string; bytes are [N] below 256 (see [is_bytes]). *)
Definition bytes := list N.
Definition is_bytes (b : bytes) : Prop := Forall (fun x => x < 256) b.

(** Length as a u64. *)
Definition lenN {A} (l : list A) : N := N.of_nat (length l).

(** [&l[a..b]] : panics unless a <= b <= len. *)
Definition slice_range {A} (l : list A) (a b : N) : res (list A) :=
  if (a <=? b) && (b <=? lenN l)
  then Ok (firstn (N.to_nat (b - a)) (skipn (N.to_nat a) l))
  else Panic.

(** Overwrite [l] from position [a] with [src] (caller guarantees the bounds). *)
Definition splice {A} (l : list A) (a : N) (src : list A) : list A :=
  firstn (N.to_nat a) l ++ src ++ skipn (N.to_nat a + length src) l.

(** [l[a..a+src.len()].copy_from_slice(src)] : panics when out of bounds. *)
Definition copy_to {A} (l : list A) (a : N) (src : list A) : res (list A) :=
  if a + lenN src <=? lenN l then Ok (splice l a src) else Panic.

(** The numbers a, a+1, ..., a+n-1. *)
Fixpoint seqN (a : N) (n : nat) : list N :=
  match n with O => [] | S n' => a :: seqN (a + 1) n' end.

(** Mathematical product. *)
Fixpoint prodN (l : list N) : N :=
  match l with [] => 1 | x :: l' => x * prodN l' end.

Fixpoint sumN (l : list N) : N :=
  match l with [] => 0 | x :: l' => x + sumN l' end.

(** Sequencing a function over a list, stopping at the first non-[Ok]. *)
Fixpoint mapM {A B} (f : A -> res B) (l : list A) : res (list B) :=
  match l with
  | [] => Ok []
  | a :: l' => let* b := f a in let* bs := mapM f l' in Ok (b :: bs)
  end.

(** [Option::is_some]. *)
Definition is_some {A} (x : option A) : bool := match x with Some _ => true | None => false end.

(** A failure carried over to another result type (`?` and unwinding).  Never applied
    to [Ok]. *)
Definition failed {A B} (x : res A) : res B :=
  match x with Ok _ => Panic | Err e => Err e | Panic => Panic | Ub => Ub | Hang => Hang end.

(** ** Lemmas *)

Lemma W64_pos : 0 < W64. Proof. reflexivity. Qed.

Lemma add64_ok m a b : a + b < W64 -> add64 m a b = Ok (a + b).
Proof. intros H; unfold add64. apply N.ltb_lt in H. now rewrite H. Qed.
Lemma mul64_ok m a b : a * b < W64 -> mul64 m a b = Ok (a * b).
Proof. intros H; unfold mul64. apply N.ltb_lt in H. now rewrite H. Qed.
Lemma sub64_ok m a b : b <= a -> sub64 m a b = Ok (a - b).
Proof. intros H; unfold sub64. apply N.leb_le in H. now rewrite H. Qed.
Lemma dbg_ok m b : b = true -> dbg m b = Ok tt.
Proof. intros ->; destruct m; reflexivity. Qed.

Lemma bind_ok {A B} (x : res A) (f : A -> res B) b :
  bind x f = Ok b -> exists a, x = Ok a /\ f a = Ok b.
Proof. destruct x; simpl; intros H; try discriminate; eauto. Qed.

Lemma bind_assoc {A B C} (x : res A) (f : A -> res B) (g : B -> res C) :
  bind (bind x f) g = bind x (fun a => bind (f a) g).
Proof. destruct x; reflexivity. Qed.

Lemma add64_debug a b r : add64 Debug a b = Ok r -> r = a + b /\ a + b < W64.
Proof.
  unfold add64. destruct (N.ltb_spec (a + b) W64); intros E; inversion E; auto.
Qed.
Lemma sub64_debug a b r : sub64 Debug a b = Ok r -> r = a - b /\ b <= a.
Proof.
  unfold sub64. destruct (N.leb_spec b a); intros E; inversion E; auto.
Qed.
Lemma mul64_debug a b r : mul64 Debug a b = Ok r -> r = a * b /\ a * b < W64.
Proof.
  unfold mul64. destruct (N.ltb_spec (a * b) W64); intros E; inversion E; auto.
Qed.

Lemma prodN_app l1 l2 : prodN (l1 ++ l2) = prodN l1 * prodN l2.
Proof. induction l1 as [|x l IH]; cbn [app prodN]; [lia|]. rewrite IH; lia. Qed.
Lemma prodN_rev l : prodN (rev l) = prodN l.
Proof. induction l as [|x l IH]; cbn [rev prodN]; [auto|]. rewrite prodN_app, IH. cbn [prodN]. lia. Qed.
Lemma prodN_pos l : Forall (fun x => 0 < x) l -> 0 < prodN l.
Proof. induction 1; cbn [prodN]; nia. Qed.
Lemma sumN_app l1 l2 : sumN (l1 ++ l2) = sumN l1 + sumN l2.
Proof. induction l1 as [|x l IH]; cbn [app sumN]; [lia|]. rewrite IH; lia. Qed.

Lemma product64_from_ok m l : forall acc,
  0 < acc -> Forall (fun x => 0 < x) l -> acc * prodN l < W64 ->
  product64_from m acc l = Ok (acc * prodN l).
Proof.
  induction l as [|x l IH]; intros acc Ha HF HW; cbn [product64_from prodN] in *.
  - f_equal; lia.
  - inversion HF; subst.
    assert (0 < prodN l) by now apply prodN_pos.
    assert (acc * x <= acc * (x * prodN l)) by nia.
    rewrite mul64_ok by lia. cbn [bind].
    rewrite IH; [f_equal; lia| nia | auto | nia].
Qed.

Lemma product64_ok m l :
  Forall (fun x => 0 < x) l -> prodN l < W64 -> product64 m l = Ok (prodN l).
Proof.
  intros HF HW. unfold product64. rewrite product64_from_ok; auto; try lia.
  f_equal; lia.
Qed.

Lemma product64_from_debug l : forall acc r,
  product64_from Debug acc l = Ok r -> r = acc * prodN l.
Proof.
  induction l as [|x l IH]; intros acc r; cbn [product64_from prodN].
  - intros E; inversion E; lia.
  - intros E; apply bind_ok in E as (a & E1 & E2).
    apply mul64_debug in E1 as [-> _]. apply IH in E2. lia.
Qed.

Lemma seqN_length a n : length (seqN a n) = n.
Proof. revert a; induction n; intros; simpl; auto. Qed.
Lemma seqN_app a n k : seqN a (n + k) = seqN a n ++ seqN (a + N.of_nat n) k.
Proof.
  revert a; induction n as [|n IH]; intros a.
  - cbn [Nat.add seqN app]. f_equal. lia.
  - cbn [Nat.add seqN app]. rewrite IH. do 3 f_equal. lia.
Qed.
Lemma in_seqN x a n : In x (seqN a n) <-> a <= x < a + N.of_nat n.
Proof.
  revert a; induction n as [|n IH]; intros a.
  - cbn [seqN In]. lia.
  - cbn [seqN In]. rewrite IH. lia.
Qed.
Lemma seqN_nth a n k d : (k < n)%nat -> nth k (seqN a n) d = a + N.of_nat k.
Proof.
  revert a k; induction n as [|n IH]; intros a [|k] H; cbn [seqN nth]; try lia.
  rewrite IH by lia. lia.
Qed.
Lemma seqN_map a b n : seqN (a + b) n = map (fun x => a + x) (seqN b n).
Proof.
  revert b; induction n as [|n IH]; intros b; cbn [seqN map]; auto.
  f_equal. rewrite <- IH. f_equal. lia.
Qed.
Lemma seqN_NoDup a n : NoDup (seqN a n).
Proof.
  revert a; induction n as [|n IH]; intros a; cbn [seqN]; constructor; auto.
  rewrite in_seqN. lia.
Qed.

Lemma lenN_app {A} (l1 l2 : list A) : lenN (l1 ++ l2) = lenN l1 + lenN l2.
Proof. unfold lenN; rewrite app_length; lia. Qed.
Lemma lenN_cons {A} (x : A) l : lenN (x :: l) = 1 + lenN l.
Proof. unfold lenN; cbn [length]; lia. Qed.
Lemma lenN_nil {A} : lenN (@nil A) = 0. Proof. reflexivity. Qed.

Lemma splice_length {A} (l : list A) a src :
  a + lenN src <= lenN l -> length (splice l a src) = length l.
Proof.
  unfold splice, lenN; intros H.
  rewrite !app_length, firstn_length, skipn_length. lia.
Qed.

Lemma mapM_ok_length {A B} (f : A -> res B) l bs :
  mapM f l = Ok bs -> length bs = length l.
Proof.
  revert bs; induction l as [|a l IH]; intros bs; cbn [mapM].
  - intros E; inversion E; auto.
  - intros E; apply bind_ok in E as (b & _ & E); apply bind_ok in E as (bs' & E' & E).
    inversion E; subst; cbn [length]; f_equal; auto.
Qed.

Lemma mapM_ok_all {A B} (f : A -> res B) (g : A -> B) l :
  (forall a, In a l -> f a = Ok (g a)) -> mapM f l = Ok (map g l).
Proof.
  induction l as [|a l IH]; intros H; cbn [mapM map]; auto.
  rewrite H by now left. cbn [bind]. rewrite IH; auto.
  intros; apply H; now right.
Qed.
