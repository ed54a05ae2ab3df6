(** * Spec: specifications that do not mention the model.

    Nothing here transcribes /repo; these are the mathematical notions in which the
    properties are stated. *)
From Verif Require Import Base.

(** ** Arrays and hyperslabs *)

Fixpoint map2 {A B C} (f : A -> B -> C) (l1 : list A) (l2 : list B) : list C :=
  match l1, l2 with
  | a :: l1', b :: l2' => f a b :: map2 f l1' l2'
  | _, _ => []
  end.

(** All coordinates of the hyperslab with corner [idx] and size [cnt], in row-major
    (C) order: the last dimension varies fastest. *)
Fixpoint slab (idx cnt : list N) : list (list N) :=
  match idx, cnt with
  | i :: idx', n :: cnt' =>
      flat_map (fun x => map (cons x) (slab idx' cnt')) (seqN i (N.to_nat n))
  | _, _ => [[]]
  end.

(** Row-major (C order) position of a coordinate in an array of dimensions [dims]. *)
Fixpoint row_major (dims coord : list N) : N :=
  match dims, coord with
  | _ :: dims', x :: coord' => x * prodN dims' + row_major dims' coord'
  | _, _ => 0
  end.

(** Number of blocks of size [c] needed to cover [s] (for c > 0). *)
Definition ceil_div (s c : N) : N := (s + c - 1) / c.

(** Dimensions of the grid of chunks. *)
Definition grid_dims (shape cs : list N) : list N := map2 ceil_div shape cs.

(** Number of the chunk that holds a coordinate, counting chunks in row-major order. *)
Definition chunk_number (shape cs coord : list N) : N :=
  row_major (grid_dims shape cs) (map2 N.div coord cs).

(** Row-major position of the element at [coord] inside its chunk.  Chunks are
    stored in full, also when they stick out of the dataset. *)
Definition pos_in_chunk (cs coord : list N) : N :=
  row_major cs (map2 N.modulo coord cs).

(** Offsets of all chunks of the grid, in row-major order. *)
Definition grid_offsets (shape cs : list N) : list (list N) :=
  map (fun g => map2 N.mul g cs) (slab (map (fun _ => 0) shape) (grid_dims shape cs)).

(** A coordinate inside the array. *)
Definition in_shape (coord shape : list N) : Prop := Forall2 N.lt coord shape.

(** A coordinate inside the box [off, off+size). *)
Definition in_box (coord off size : list N) : Prop :=
  length coord = length off /\ length coord = length size /\
  forall j x o z, nth_error coord j = Some x -> nth_error off j = Some o ->
                  nth_error size j = Some z -> o <= x < o + z.

(** A selection lying inside the array, non-empty in every dimension. *)
Definition sel_in (shape idx cnt : list N) : Prop :=
  length idx = length shape /\ length cnt = length shape /\
  Forall (fun n => 0 < n) cnt /\
  forall j i n s, nth_error idx j = Some i -> nth_error cnt j = Some n ->
                  nth_error shape j = Some s -> i + n <= s.

(** ** Lemmas about the specification *)

Lemma map2_length {A B C} (f : A -> B -> C) l1 l2 :
  length (map2 f l1 l2) = Nat.min (length l1) (length l2).
Proof. revert l2; induction l1 as [|a l1 IH]; intros [|b l2]; cbn [map2 length Nat.min]; auto. Qed.

Lemma slab_length idx cnt :
  length idx = length cnt -> lenN (slab idx cnt) = prodN cnt.
Proof.
  revert cnt; induction idx as [|i idx IH]; intros [|n cnt] H; cbn [length] in H; try discriminate.
  - reflexivity.
  - cbn [slab prodN]. injection H as H.
    assert (G : forall k a, lenN (flat_map (fun x => map (cons x) (slab idx cnt)) (seqN a k))
                   = N.of_nat k * prodN cnt).
    { induction k as [|k IHk]; intros a; cbn [seqN flat_map].
      - rewrite lenN_nil. lia.
      - rewrite lenN_app, IHk. unfold lenN at 1. rewrite map_length.
        fold (lenN (slab idx cnt)). rewrite (IH cnt H). lia. }
    rewrite G. lia.
Qed.

Lemma in_slab idx cnt coord :
  length idx = length cnt ->
  (In coord (slab idx cnt) <->
   length coord = length idx /\
   forall j x i n, nth_error coord j = Some x -> nth_error idx j = Some i ->
                   nth_error cnt j = Some n -> i <= x < i + n).
Proof.
  revert cnt coord; induction idx as [|i idx IH]; intros [|n cnt] coord H; cbn [length] in H; try discriminate.
  - cbn [slab]. split.
    + intros [<-|[]]. split; auto. intros [|j]; discriminate.
    + intros [Hl _]. destruct coord; [now left|discriminate].
  - injection H as H. cbn [slab]. rewrite in_flat_map. split.
    + intros (x & Hx & Hin). apply in_map_iff in Hin as (c & <- & Hc).
      apply (IH cnt c H) in Hc as [Hl Hc]. split; [cbn [length]; lia|].
      intros [|j] y a b; cbn [nth_error].
      * intros [= <-] [= <-] [= <-]. apply in_seqN in Hx. lia.
      * apply Hc.
    + intros [Hl Hc]. destruct coord as [|x coord]; [discriminate|].
      exists x. split.
      * specialize (Hc 0%nat x i n eq_refl eq_refl eq_refl).
        apply in_seqN. lia.
      * apply in_map, (IH cnt coord H). split; [cbn [length] in Hl; lia|].
        intros j. apply (Hc (S j)).
Qed.

Lemma slab_NoDup idx cnt : NoDup (slab idx cnt).
Proof.
  revert cnt; induction idx as [|i idx IH]; intros [|n cnt];
    cbn [slab]; try (constructor; [easy|constructor]).
  assert (G : forall k a, NoDup (flat_map (fun x => map (cons x) (slab idx cnt)) (seqN a k))).
  { induction k as [|k IHk]; intros a; cbn [seqN flat_map]; [constructor|].
    assert (Hd : forall c, In c (map (cons a) (slab idx cnt)) ->
       ~ In c (flat_map (fun x => map (cons x) (slab idx cnt)) (seqN (a+1) k))).
    { intros c Hc Hc2. apply in_map_iff in Hc as (c1 & <- & _).
      apply in_flat_map in Hc2 as (y & Hy & Hc2).
      apply in_map_iff in Hc2 as (c2 & E & _). injection E as -> _.
      apply in_seqN in Hy. lia. }
    assert (H1 : NoDup (map (cons a) (slab idx cnt))).
    { apply FinFun.Injective_map_NoDup; [|apply IH]. intros u v E; now injection E. }
    revert Hd H1. generalize (map (cons a) (slab idx cnt)) as l1.
    induction l1 as [|z l1 IHl]; intros Hd H1; cbn [app]; [apply IHk|].
    inversion H1; subst. constructor.
    - rewrite in_app_iff. intros [?|?]; [contradiction|]. apply (Hd z); [now left|auto].
    - apply IHl; auto. intros c Hc; apply Hd; now right. }
  apply G.
Qed.

(** Row-major strides: the distance between neighbours in each dimension is the
    product of all later dimensions. *)
Fixpoint row_strides (dims : list N) : list N :=
  match dims with
  | [] => []
  | _ :: ds => prodN ds :: row_strides ds
  end.

(** Every product of trailing dimensions is representable in 64 bits. *)
Definition fits64 (dims : list N) : Prop := forall k, prodN (skipn k dims) < W64.

(** [row_strides] are the strides of [row_major]. *)
Fixpoint dot (a b : list N) : N :=
  match a, b with x :: a', y :: b' => x * y + dot a' b' | _, _ => 0 end.
Lemma row_strides_row_major dims coord :
  length coord = length dims -> dot coord (row_strides dims) = row_major dims coord.
Proof.
  revert coord; induction dims as [|d dims IH]; intros [|x coord] H; cbn [length] in H;
    try discriminate; cbn [row_strides dot row_major]; auto.
  rewrite IH by lia. reflexivity.
Qed.
Lemma row_strides_length dims : length (row_strides dims) = length dims.
Proof. induction dims; cbn [row_strides length]; auto. Qed.

Lemma fits64_cons d ds : fits64 (d :: ds) <-> d * prodN ds < W64 /\ fits64 ds.
Proof.
  split.
  - intros H. split; [exact (H 0%nat)|]. intros k. exact (H (S k)).
  - intros [H1 H2] [|k]; [exact H1|exact (H2 k)].
Qed.

(** For positive dimensions, one bound suffices. *)
Lemma fits64_pos dims :
  Forall (fun x => 0 < x) dims -> prodN dims < W64 -> fits64 dims.
Proof.
  induction 1 as [|d ds Hd HF IH]; intros H.
  - intros k. now rewrite skipn_nil.
  - apply fits64_cons. cbn [prodN] in H. split; auto. apply IH.
    pose proof (prodN_pos _ HF). nia.
Qed.
