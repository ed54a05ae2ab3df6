(** * C74: the memory that streams hold, plain and XDR.

    C69 bounds the number of chunks a plain stream holds and says what it reads.  Here the
    same for XDR streams, and the bound in bytes for both. *)
From Verif Require Import Base Spec SpecApi SpecReader Safe Chunk Extent Dataset Slicer Filters SpecFilter FilterProofs Reader StreamPoll
  ReadProofs CacheProofs ReaderProps SliceProps ExamplesReader Properties4 Properties18 Properties33 Properties39 Properties40.
Local Arguments N.add : simpl never.
Local Arguments N.mul : simpl never.

(** ** Specification *)

(** The bytes of chunk data a stream keeps between two polls. *)
Definition held_bytes (st : pstate) : N := sumN (map (fun kv => lenN (snd kv)) (held st)).

(** By how much XDR makes a value longer: integers of one and two bytes become four. *)
Definition grows (dt : datatype) : N :=
  match dt with
  | UInt 1 | Int 1 => 4
  | UInt 2 | Int 2 => 2
  | _ => 1
  end.

(** ** Entries *)
Lemma poll_entries m ps (Q : chunk -> Prop) B now st x st1 io l : 1 <= ps_cap ps ->
  (forall f c data, Q c -> ps_get ps f c = Ok data -> lenN data <= B) ->
  (st = Fresh l \/ exists f cache, st = Opened f l cache) -> Forall (fun sl : chunk * N * N => Q (fst (fst sl))) l ->
  lru_ok (ps_cap ps) (fun kv => lenN (snd kv) <= B) (held st) ->
  poll m ps now st = (x, st1, io) ->
  st1 = Over \/ st1 = Poisoned \/ exists f l' cache', st1 = Opened f l' cache' /\ Forall (fun sl : chunk * N * N => Q (fst (fst sl))) l' /\
     lru_ok (ps_cap ps) (fun kv => lenN (snd kv) <= B) cache'.
Proof.
  intros H1 HB Hst HQ HL E.
  assert (HH : forall A (y : res A) i, (halt y, i) = (x, st1, io) -> st1 = Over \/ st1 = Poisoned).
  { intros A y i Z. injection Z as Z _. destruct y; injection Z as _ <-; auto. }
  assert (HO : forall f cache, lru_ok (ps_cap ps) (fun kv => lenN (snd kv) <= B) cache -> poll_open m ps f l cache = (x, st1, io) ->
    st1 = Over \/ st1 = Poisoned \/ exists f l' cache', st1 = Opened f l' cache' /\ Forall (fun sl : chunk * N * N => Q (fst (fst sl))) l' /\
      lru_ok (ps_cap ps) (fun kv => lenN (snd kv) <= B) cache').
  { clear E Hst HL. intros f cache HL E. unfold poll_open in E. destruct l as [|[[c s0] e0] l']; [injection E as <- <- <-; auto|].
    inversion HQ as [|? ? HQc HQl]; subst. cbn [fst] in HQc.
    destruct (let* x := ps_xf ps in let* s := mul64 m s0 x in let* e := mul64 m e0 x in let* _ := dbg m (s <=? e) in Ok (s, e)) as [[s e]|er| | |].
    2-5: (apply (HH (N * N)%type) in E; tauto).
    destruct (lru_get (c_addr c) cache) as [[data cache']|] eqn:EG.
    - destruct (take_slice m data s e) as [b|er| | |].
      2-5: (apply (HH bytes) in E; tauto).
      injection E as <- <- <-. right; right. exists f, l', cache'. eauto using get_ok.
    - destruct (ps_get ps f c) as [data|er| | |] eqn:EL.
      2-5: (apply (HH bytes) in E; tauto).
      destruct (take_slice m data s e) as [b|er| | |].
      2-5: (apply (HH bytes) in E; tauto).
      injection E as <- <- <-. right; right. do 3 eexists. split; [reflexivity|]. split; auto. apply put_ok; auto. cbn [snd]. eauto. }
  destruct Hst as [-> | (f & cache & ->)]; cbn [poll held] in *.
  - destruct now as [f|]; [|injection E as <- <- <-; auto]. eauto.
  - eauto.
Qed.

Lemma polls_entries m ps (Q : chunk -> Prop) B : 1 <= ps_cap ps ->
  (forall f c data, Q c -> ps_get ps f c = Ok data -> lenN data <= B) ->
  forall hist st l, (st = Fresh l \/ exists f cache, st = Opened f l cache) -> Forall (fun sl : chunk * N * N => Q (fst (fst sl))) l ->
  lru_ok (ps_cap ps) (fun kv => lenN (snd kv) <= B) (held st) ->
  lru_ok (ps_cap ps) (fun kv => lenN (snd kv) <= B) (held (snd (fst (polls m ps hist st)))).
Proof.
  intros H1 HB.
  assert (H0 : lru_ok (ps_cap ps) (fun kv => lenN (snd kv) <= B) []) by (split; [unfold lenN; cbn; lia|split; constructor]).
  induction hist as [|now hist IH]; intros st l Hst HQ HL; [exact HL|].
  destruct (poll m ps now st) as [[x st1] io] eqn:E. rewrite (polls_cons _ _ _ _ _ _ _ _ E). cbn [fst snd].
  destruct (poll_entries m ps Q B now st x st1 io l H1 HB Hst HQ HL E) as [-> |[-> |(f & l' & cache' & -> & HQ' & HL')]].
  - rewrite polls_over. exact H0.
  - rewrite polls_poisoned. exact H0.
  - apply (IH _ l'); eauto.
Qed.

Lemma entries_bytes cap B c : lru_ok cap (fun kv => lenN (snd kv) <= B) c -> sumN (map (fun kv => lenN (snd kv)) c) <= cap * B.
Proof.
  intros (L & _ & F). apply N.le_trans with (lenN c * B); [|now apply N.mul_le_mono_r].
  clear L. induction F as [|[k v] c H HF IH]; cbn [map sumN snd] in *; [unfold lenN; cbn; lia|]. rewrite lenN_cons. lia.
Qed.

Lemma collect_in m fuel ds e l : collect_slices m fuel ds e = Ok l ->
  Forall (fun sl : chunk * N * N => In (fst (fst sl)) (d_chunks ds)) l.
Proof.
  intros El. apply Forall_forall. intros [[c s] e'] Hin. cbn [fst].
  apply In_nth_error in Hin as [k Hk]. unfold collect_slices in El.
  pose proof (slices_in m fuel ds e) as SI. destruct (chunk_slices m fuel ds e) as [segs z]. cbn [fst] in SI.
  apply bind_ok in El as (l' & El & Hl). apply bind_ok in Hl as (u & _ & Hl). injection Hl as ->.
  destruct (byte_slices_nth _ _ _ _ El _ _ _ _ Hk) as (a & b & Hs). apply nth_error_In in Hs.
  exact (proj1 (Forall_forall _ _) SI _ Hs).
Qed.

Lemma room_bytes csz B : 0 < csz -> N.max (CACHE_SZ / csz) 1 * (B * csz) <= B * N.max (32 * 1024 * 1024) csz.
Proof.
  intros H. change (32 * 1024 * 1024) with CACHE_SZ.
  assert (HD : csz * (CACHE_SZ / csz) <= CACHE_SZ) by (apply N.mul_div_le; lia).
  rewrite N.mul_assoc, (N.mul_comm _ B), <- N.mul_assoc. apply N.mul_le_mono_l.
  set (q := CACHE_SZ / csz) in *. clearbody q. generalize dependent CACHE_SZ. intros M HM.
  destruct (N.max_spec q 1) as [[_ ->]|[_ ->]]; lia.
Qed.

Lemma cap_room csz cap : cache_cap csz = Ok cap -> 0 < csz /\ cap = N.max (CACHE_SZ / csz) 1.
Proof.
  unfold cache_cap, div64. destruct (N.eqb_spec csz 0); [discriminate|]. cbn [bind]. intros [= <-]. split; [lia|reflexivity].
Qed.

(** ** Lengths of converted chunks, for any buffer and byte order *)
Lemma scalar_len h signed w o v r : xdr_elem h signed w o v = Ok r -> length r = 4%nat.
Proof.
  unfold xdr_elem. intros H. apply bind_ok in H as (v' & _ & H). apply (f_equal (fun x => match x with Ok y => length y | _ => 4%nat end)) in H.
  rewrite <- H. unfold to_big_e_scalar, swap, host_bytes.
  destruct h; cbn [native]; rewrite ?rev_length, le_bytes_length; reflexivity.
Qed.
Lemma mapM_forall {A B} (f : A -> res B) (P : B -> Prop) : (forall a b, f a = Ok b -> P b) -> forall l r, mapM f l = Ok r -> Forall P r.
Proof.
  intros HP. induction l as [|a l IH]; intros r E; cbn [mapM] in E; [injection E as <-; constructor|].
  apply bind_ok in E as (b & Eb & E). apply bind_ok in E as (bs & E1 & E). injection E as <-. constructor; eauto.
Qed.
Lemma cast_len h al1 al2 signed w o src r : (0 < w)%nat -> xdr_cast_slice h al1 al2 signed w o src = Ok r ->
  (length r * w = 4 * length src)%nat.
Proof.
  intros Hw H. unfold xdr_cast_slice in H. apply bind_ok in H as (u & Hc & H). apply bind_ok in H as (u2 & _ & H).
  apply bind_ok in H as (dsr & HM & H). injection H as <-.
  assert (HF : Forall (fun v : bytes => length v = 4%nat) dsr) by (eapply mapM_forall; [|exact HM]; intros a b; apply scalar_len).
  rewrite (concat_length 4 _ HF), (mapM_len _ _ _ HM), words_length.
  assert (HD : (length src mod w = 0)%nat).
  { destruct (Nat.eq_dec (length src mod w) 0); auto. rewrite cast_ok_false in Hc by auto. discriminate. }
  pose proof (Nat.div_mod (length src) w ltac:(lia)) as DM. nia.
Qed.
Lemma xdr_len h al1 al2 src dt o r : xdr h al1 al2 src dt o = Ok r -> lenN r = grows dt * lenN src.
Proof.
  rewrite xdr_way_eq. intros H.
  assert (G : match way dt o with
              | Widen w => (0 < w)%nat /\ grows dt * N.of_nat w = 4
              | Reverse w => (0 < w)%nat /\ grows dt = 1
              | Keep => grows dt = 1 | Missing => True end).
  { unfold way, grows. destruct dt as [s|s|s|s]; try reflexivity;
      (destruct s as [|[p|[p|p|]|]]; destruct o; try (split; [lia|reflexivity]); try reflexivity; repeat (destruct (_ =? _); try reflexivity; try (split; [lia|reflexivity]))). }
  destruct (way dt o) as [w|w| |] eqn:EW.
  - destruct G as [Hw G]. apply cast_len in H; auto. unfold lenN.
    assert (HN : N.of_nat (length r) * N.of_nat w = 4 * N.of_nat (length src)) by lia. rewrite <- G in HN. clear - HN Hw.
    assert (HE : (N.of_nat (length r)) * N.of_nat w = (grows dt * N.of_nat (length src)) * N.of_nat w) by (rewrite HN; lia).
    apply N.mul_cancel_r in HE; auto. lia.
  - destruct G as [Hw ->]. apply bind_ok in H as (u & Hc & H). injection H as <-.
    assert (HD : (length src mod w = 0)%nat).
    { destruct (Nat.eq_dec (length src mod w) 0); auto. rewrite cast_ok_false in Hc by auto. discriminate. }
    pose proof (Nat.div_mod (length src) w ltac:(lia)) as DM.
    destruct (map_words_length w (length src / w) (swap h KInt) src Hw) as [L _]; [lia|intros v; cbn [swap]; now rewrite rev_length|].
    unfold lenN. rewrite L. lia.
  - injection H as <-. rewrite G. lia.
  - discriminate.
Qed.

(** ** Theorems *)

(** Any regular dataset, any selection, any number of polls, whatever the file and whatever
    happens to its path: between two polls a stream holds at most 32 MiB of decoded data, or
    one chunk if that is larger. *)
Theorem C74_stream m inflate fuel ds csz e ps st hist :
  regular ds -> Forall (fun c => 0 < c) (d_chunk_shape ds) -> chunk_bytes m ds = Ok csz ->
  stream_start m inflate fuel ds csz e = Ok (ps, st) ->
  held_bytes (snd (fst (polls m ps hist st))) <= N.max (32 * 1024 * 1024) csz.
Proof.
  intros HR HP HC H. apply csize_fresh in HC; auto; [|apply HR]. unfold stream_start in H.
  apply bind_ok in H as (l & El & H). apply bind_ok in H as (cap & HCap & H). injection H as <- <-.
  apply cap_room in HCap as [H0 ->]. unfold held_bytes.
  eapply N.le_trans; [|rewrite <- (N.mul_1_l (N.max _ csz)); apply (room_bytes csz 1 H0)].
  apply entries_bytes. rewrite N.mul_1_l. subst csz.
  refine (polls_entries m (mkPS _ _ (N.max (CACHE_SZ / csize ds) 1)) (fun c => In c (d_chunks ds)) (csize ds) _ _ hist (Fresh l) l (or_introl eq_refl) (collect_in _ _ _ _ _ El) _);
    cbn [ps_cap ps_get held].
  - lia.
  - intros f c data Hc Hl. eapply C23_regular; eauto.
  - split; [unfold lenN; cbn; lia|split; constructor].
Qed.
Print Assumptions C74_stream.

(** XDR streams: the room is counted in chunks as they are stored in memory before the
    conversion, so what is held can be [grows] times as large. *)
Theorem C74_xdr m h al1 al2 inflate fuel ds csz e ps st hist :
  regular ds -> Forall (fun c => 0 < c) (d_chunk_shape ds) -> chunk_bytes m ds = Ok csz ->
  xdr_start m h al1 al2 inflate fuel ds csz e = Ok (ps, st) ->
  held_bytes (snd (fst (polls m ps hist st))) <= grows (d_dtype ds) * N.max (32 * 1024 * 1024) csz.
Proof.
  intros HR HP HC H. apply csize_fresh in HC; auto; [|apply HR]. unfold xdr_start in H.
  apply bind_ok in H as (l & El & H). apply bind_ok in H as (cap & HCap & H). injection H as <- <-.
  apply cap_room in HCap as [H0 ->]. unfold held_bytes.
  eapply N.le_trans; [|apply (room_bytes csz (grows (d_dtype ds)) H0)].
  apply entries_bytes. subst csz.
  refine (polls_entries m (mkPS _ _ (N.max (CACHE_SZ / csize ds) 1)) (fun c => In c (d_chunks ds)) (grows (d_dtype ds) * csize ds) _ _ hist (Fresh l) l (or_introl eq_refl) (collect_in _ _ _ _ _ El) _);
    cbn [ps_cap ps_get held].
  - lia.
  - intros f c data Hc Hl. apply bind_ok in Hl as (src & Hl & Hx). rewrite (xdr_len _ _ _ _ _ _ _ Hx).
    apply N.mul_le_mono_l. eapply C23_regular; eauto.
  - split; [unfold lenN; cbn; lia|split; constructor].
Qed.
Print Assumptions C74_xdr.

(** XDR streams too read nothing before they are polled, at most one chunk in each poll, that
    of the segment with the poll's number, and hold no more chunks than plain ones. *)
Theorem C74_xdr_lazy m h al1 al2 inflate fuel ds csz e ps st hist :
  xdr_start m h al1 al2 inflate fuel ds csz e = Ok (ps, st) ->
  (forall k io, nth_error (snd (polls m ps hist st)) k = Some io ->
     io = [] \/ exists c a b, nth_error (fst (chunk_slices m fuel ds e)) k = Some (c, a, b) /\ io = [c]) /\
  lenN (held (snd (fst (polls m ps hist st)))) <= N.max 1 (32 * 1024 * 1024 / csz).
Proof.
  unfold xdr_start. intros H. apply bind_ok in H as (l & El & H). apply bind_ok in H as (cap & HC & H). injection H as <- <-. split.
  - intros k io Hk.
    destruct (polls_lazy m _ hist _ l (or_introl eq_refl) k io Hk) as [-> |(c & s & e' & Hn & ->)]; auto. right.
    unfold collect_slices in El. destruct (chunk_slices m fuel ds e) as [segs z]. cbn [fst].
    apply bind_ok in El as (l' & El & H). apply bind_ok in H as (u & _ & H). injection H as ->.
    destruct (byte_slices_nth _ _ _ _ El _ _ _ _ Hn) as (a & b & Hs). eauto.
  - apply cap_room in HC as [H0 ->]. rewrite (N.max_comm 1).
    refine (proj1 (polls_held m (mkPS _ _ (N.max (CACHE_SZ / csz) 1)) _ hist (Fresh l) _ _)); cbn [ps_cap held]; [lia|unfold lenN; cbn; lia|constructor].
Qed.
Print Assumptions C74_xdr_lazy.

(** If the decoded chunks of the dataset together fit in 32 MiB an XDR stream reads no chunk
    twice. *)
Theorem C74_xdr_once m h al1 al2 inflate fuel ds csz e ps st hist :
  xdr_start m h al1 al2 inflate fuel ds csz e = Ok (ps, st) -> lenN (d_chunks ds) * csz <= 32 * 1024 * 1024 ->
  NoDup (map c_addr (concat (snd (polls m ps hist st)))).
Proof.
  unfold xdr_start. intros H HS. apply bind_ok in H as (l & El & H). apply bind_ok in H as (cap & HC & H). injection H as <- <-.
  destruct hist as [|[f|] hist].
  - constructor.
  - rewrite polls_fresh.
    refine (proj1 (polls_once m _ (map c_addr (d_chunks ds)) _ (Some f :: hist) l f [] _ _ _)).
    + cbn [ps_cap]. apply cap_room in HC as [H0 ->]. unfold lenN in *. rewrite map_length. etransitivity; [|apply N.le_max_l].
      apply N.div_le_lower_bound; [lia|]. unfold CACHE_SZ. lia.
    + constructor.
    + intros ? [].
    + eapply Forall_impl; [|exact (collect_in _ _ _ _ _ El)]. intros [[c s] e'] Hin. cbn [fst] in *. now apply in_map.
  - rewrite C69_missing. cbn [snd concat app]. assert (C : forall n, concat (repeat (@nil chunk) n) = []) by (induction n; auto).
    rewrite C. constructor.
Qed.
Print Assumptions C74_xdr_once.

(** The bound of plain streams is not one of XDR streams: a chunk of 32 MiB of one-byte
    integers becomes 128 MiB, all of which is held. *)
Theorem C74_xdr_refuted m h inflate f : 2 * wide <= lenN f ->
  exists ps st, chunk_bytes m wide_ds = Ok wide /\ xdr_start m h true true inflate 5 wide_ds wide wide_sel = Ok (ps, st) /\
    held_bytes (snd (fst (polls m ps [Some f] st))) = 4 * wide /\ N.max (32 * 1024 * 1024) wide < 4 * wide.
Proof.
  intros HW. do 2 eexists. split; [destruct m; reflexivity|]. split; [destruct m; reflexivity|]. split; [|reflexivity].
  destruct (load_total m inflate f wide_ds (mkChunk 0 wide [0; 0]) wide_regular ltac:(cbn; auto)) as [[_ (data & Ed & Ld)]|[HN _]].
  2:{ exfalso. apply HN. split; [right; cbn [c_addr c_size]; clear - HW; lia|]. intros H. now destruct H. }
  assert (EC : csize wide_ds = wide) by reflexivity. rewrite EC in Ed, Ld.
  destruct (C48_exact h true true data (Int 1) LE) as [E1 E2]. destruct E2 as [E2|[[_ (r & E2)]|[E2 _]]]; [|clear E1|discriminate].
  { apply (proj1 E1) in E2 as [E2|[E2|E2]]; try discriminate. destruct E2. apply Nat.mod_1_r. }
  pose proof (xdr_len _ _ _ _ _ _ _ E2) as Lr. rewrite Ld in Lr. cbn [grows] in Lr.
  assert (ET : exists b, take_slice m r 0 8 = Ok b).
  { unfold take_slice, slice_range. rewrite Lr.
    assert (Q : (0 <=? 4 * wide) = true /\ (8 <=? 4 * wide) = true) by (split; reflexivity). destruct Q as [Q1 Q2]. rewrite Q1, Q2.
    exists (firstn (N.to_nat (8 - 0)) (skipn (N.to_nat 0) r)). destruct m; reflexivity. }
  destruct ET as [b ET].
  assert (EP : forall l ps, l = [(mkChunk 0 wide [0; 0], 0, 2); (mkChunk wide wide [1; 0], 0, 2)] ->
     ps_xf ps = Ok 4 -> ps_get ps f (mkChunk 0 wide [0; 0]) = Ok r -> ps_cap ps = 1 ->
     held_bytes (snd (fst (polls m ps [Some f] (Fresh l)))) = 4 * wide).
  { clear - Lr ET. intros l ps -> E1 E2 E3. cbn [polls poll poll_open]. rewrite E1.
    replace (let* x := Ok 4 in let* s := mul64 m 0 x in let* e := mul64 m 2 x in let* _ := dbg m (s <=? e) in Ok (s, e)) with (Ok (A := N * N) (0, 8))
      by (destruct m; reflexivity).
    change (lru_get (c_addr {| c_addr := 0; c_size := wide; c_offset := [0; 0] |}) []) with (@None (bytes * lru)). rewrite E2, ET, E3.
    cbn [fst snd]. unfold held_bytes. cbn [held].
    change (lru_put 1 (c_addr {| c_addr := 0; c_size := wide; c_offset := [0; 0] |}) r []) with [(0, r)].
    cbn [map snd sumN]. rewrite Lr. apply N.add_0_r. }
  apply EP; [|reflexivity| |].
  - destruct m; reflexivity.
  - cbn [ps_get]. rewrite Ed. exact E2.
  - reflexivity.
Qed.
Print Assumptions C74_xdr_refuted.

(** The example dataset of 16-bit integers, in chunks of 12 bytes: after three polls the plain
    stream holds three chunks, the XDR stream the same three, twice as long. *)
Example C74_case m h : exists ps st ps' st',
  regular st_ds /\ Forall (fun c => 0 < c) (d_chunk_shape st_ds) /\ chunk_bytes m st_ds = Ok 12 /\ grows (d_dtype st_ds) = 2 /\
  stream_start m toy_inflate 13 st_ds 12 st_sel = Ok (ps, st) /\ xdr_start m h true true toy_inflate 13 st_ds 12 st_sel = Ok (ps', st') /\
  lenN (d_chunks st_ds) * 12 <= 32 * 1024 * 1024 /\
  held_bytes (snd (fst (polls m ps [Some st_file; None; None] st))) = 36 /\
  held_bytes (snd (fst (polls m ps' [Some st_file; None; None] st'))) = 72.
Proof.
  destruct m, h; (do 4 eexists; split; [exact st_regular|]; split; [repeat constructor|]; split; [reflexivity|]; split; [reflexivity|];
  split; [vm_compute; reflexivity|]; split; [vm_compute; reflexivity|];
  split; [vm_compute; discriminate|]; vm_compute; split; reflexivity).
Qed.
