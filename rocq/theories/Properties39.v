(** * C69: streams as they are polled. *)
From Verif Require Import Base Spec SpecApi SpecReader Safe Chunk Extent Dataset Slicer Filters SpecFilter Reader StreamPoll
  CacheProofs SliceProps ExamplesReader Properties4 Properties18.

(** What is seen of a stream polled [n] times more than it has items: its end, again and
    again; or the error, then the end; or the panic. *)
Definition ending (z : send) (n : nat) : list polled :=
  match z with
  | SEnd => repeat PEnd n
  | SErr e => PErr e :: repeat PEnd n
  | SPan => repeat PPanic n
  end.

Lemma polls_over m ps : forall hist, polls m ps hist Over = (repeat PEnd (length hist), Over, repeat [] (length hist)).
Proof. induction hist as [|x hist IH]; cbn [polls poll length repeat]; [reflexivity|]. now rewrite IH. Qed.
Lemma polls_poisoned m ps : forall hist,
  polls m ps hist Poisoned = (repeat PPanic (length hist), Poisoned, repeat [] (length hist)).
Proof. induction hist as [|x hist IH]; cbn [polls poll length repeat]; [reflexivity|]. now rewrite IH. Qed.

Lemma firstn_repeat_le {A} (x : A) : forall n k, (n <= k)%nat -> firstn n (repeat x k) = repeat x n.
Proof. induction n; intros [|k] H; cbn [firstn repeat]; auto; [lia|]. rewrite IHn by lia. reflexivity. Qed.

Lemma ending_more z n k : (k <= n)%nat -> firstn k (ending z n) = firstn k (ending z (S n)).
Proof.
  intros H. destruct z; unfold ending; try (rewrite !firstn_repeat_le by lia; reflexivity).
  destruct k; [reflexivity|]. cbn [firstn]. f_equal. rewrite !firstn_repeat_le by lia. reflexivity.
Qed.

Lemma halt_ending {A} (x : res A) m ps hist : (forall a, x <> Ok a) ->
  fst (fst (polls m ps hist (snd (halt x)))) = firstn (length hist) (skipn 1 (ending (send_of x) (S (length hist)))) /\
  [fst (halt x)] = firstn 1 (ending (send_of x) (S (length hist))) /\
  concat (snd (polls m ps hist (snd (halt x)))) = [].
Proof.
  assert (C : forall n, concat (repeat (@nil chunk) n) = []) by (induction n; auto).
  intros H. destruct x as [a|e| | |]; [now destruct (H a)|..]; cbn [halt fst snd send_of ending skipn];
    rewrite ?polls_over, ?polls_poisoned; cbn [fst snd]; (split; [|split; [reflexivity|apply C]]);
    rewrite ?firstn_repeat_le by lia; auto; cbn [repeat skipn]; now rewrite firstn_repeat_le by lia.
Qed.

Lemma polls_cons m ps now hist st x st1 io : poll m ps now st = (x, st1, io) ->
  polls m ps (now :: hist) st =
    (x :: fst (fst (polls m ps hist st1)), snd (fst (polls m ps hist st1)), io :: snd (polls m ps hist st1)).
Proof. intros E. cbn [polls]. rewrite E. destruct (polls m ps hist st1) as [[xs st2] ios]. reflexivity. Qed.

Lemma polls_open m ps f : forall hist l cache,
  fst (fst (polls m ps hist (Opened f l cache))) =
  let (bs, z) := stream_loop m (ps_get ps f) (ps_cap ps) (ps_xf ps) l cache in
  firstn (length hist) (map PItem bs ++ ending z (length hist)).
Proof.
  induction hist as [|now hist IH]; intros l cache; cbn [length].
  - destruct (stream_loop _ _ _ _ _ _). reflexivity.
  - assert (HH : forall A (x : res A) io, (forall a, x <> Ok a) -> poll m ps now (Opened f l cache) = (halt x, io) ->
      fst (fst (polls m ps (now :: hist) (Opened f l cache))) =
      firstn (S (length hist)) (map PItem [] ++ ending (send_of x) (S (length hist)))).
    { intros A x io Hx E. destruct (halt x) as [y st1] eqn:EH. rewrite (polls_cons _ _ _ _ _ _ _ _ E). cbn [fst map app].
      destruct (halt_ending x m ps hist Hx) as (H1 & H2 & _). rewrite EH in *. cbn [fst snd] in *.
      destruct (ending (send_of x) (S (length hist))) as [|w l0]; [discriminate|]. cbn [skipn firstn] in *.
      injection H2 as ->. now rewrite H1. }
    assert (HI : forall b l' cache' io bs z, poll m ps now (Opened f l cache) = (PItem b, Opened f l' cache', io) ->
      stream_loop m (ps_get ps f) (ps_cap ps) (ps_xf ps) l' cache' = (bs, z) ->
      fst (fst (polls m ps (now :: hist) (Opened f l cache))) =
      firstn (S (length hist)) (map PItem (b :: bs) ++ ending z (S (length hist)))).
    { intros b l' cache' io bs z E ES. rewrite (polls_cons _ _ _ _ _ _ _ _ E). cbn [fst]. rewrite IH, ES. cbn [map app firstn]. f_equal.
      rewrite !firstn_app. f_equal.
      apply ending_more. lia. }
    destruct l as [|[[c s0] e0] l'].
    { cbn [stream_loop]. rewrite (polls_cons m ps now hist (Opened f [] cache) PEnd Over [] eq_refl), polls_over. cbn [fst map app ending repeat firstn].
      now rewrite firstn_repeat_le by lia. }
    cbn [stream_loop]. unfold poll, poll_open in HH, HI.
    destruct (let* x := ps_xf ps in let* s := mul64 m s0 x in let* e := mul64 m e0 x in let* _ := dbg m (s <=? e) in Ok (s, e)) as [[s e]|er| | |] eqn:ER.
    2-5: (eapply (HH (N * N)%type); [|reflexivity]; discriminate).
    destruct (lru_get (c_addr c) cache) as [[data cache']|] eqn:EG.
    + destruct (take_slice m data s e) as [b|er| | |] eqn:ET.
      2-5: (eapply (HH bytes); [|reflexivity]; discriminate).
      destruct (stream_loop m (ps_get ps f) (ps_cap ps) (ps_xf ps) l' cache') as [bs z] eqn:ES. eapply HI; [reflexivity|exact ES].
    + destruct (ps_get ps f c) as [data|er| | |] eqn:EL.
      2-5: (eapply (HH bytes); [|reflexivity]; discriminate).
      destruct (take_slice m data s e) as [b|er| | |] eqn:ET.
      2-5: (eapply (HH bytes); [|reflexivity]; discriminate).
      destruct (stream_loop m (ps_get ps f) (ps_cap ps) (ps_xf ps) l' (lru_put (ps_cap ps) (c_addr c) data cache)) as [bs z] eqn:ES.
      eapply HI; [reflexivity|exact ES].
Qed.

Lemma polls_fresh m ps f hist l : polls m ps (Some f :: hist) (Fresh l) = polls m ps (Some f :: hist) (Opened f l []).
Proof. reflexivity. Qed.

(** Polling gives, one by one, the items of the stream of the file as it was at the first
    poll, whatever became of the path later; then the end, for ever. *)
Theorem C69_items m inflate fuel ds csz e ps st f hist bs z :
  stream_start m inflate fuel ds csz e = Ok (ps, st) ->
  stream m inflate fuel (mkStreamer ds (Some f) csz) e = Ok (bs, z) ->
  fst (fst (polls m ps (Some f :: hist) st)) =
    firstn (S (length hist)) (map PItem bs ++ ending z (S (length hist))).
Proof.
  unfold stream_start, stream. cbn [sr_ds sr_csz sr_file].
  destruct (collect_slices m fuel ds e) as [l| | | |]; cbn [bind]; try discriminate.
  destruct (cache_cap csz) as [cap| | | |]; cbn [bind]; try discriminate. intros H. injection H as <- <-. intros H. injection H as H.
  rewrite polls_fresh, polls_open. cbn [ps_get ps_cap ps_xf]. now rewrite H.
Qed.
Print Assumptions C69_items.

(** The same for XDR streams. *)
Theorem C69_xdr_items m h al1 al2 inflate fuel ds csz e ps st f hist bs z :
  xdr_start m h al1 al2 inflate fuel ds csz e = Ok (ps, st) ->
  stream_xdr m h al1 al2 inflate fuel (mkStreamer ds (Some f) csz) e = Ok (bs, z) ->
  fst (fst (polls m ps (Some f :: hist) st)) =
    firstn (S (length hist)) (map PItem bs ++ ending z (S (length hist))).
Proof.
  unfold xdr_start, stream_xdr. cbn [sr_ds sr_csz sr_file].
  destruct (collect_slices m fuel ds e) as [l| | | |]; cbn [bind]; try discriminate.
  destruct (cache_cap csz) as [cap| | | |]; cbn [bind]; try discriminate. intros H. injection H as <- <-. intros H. injection H as H.
  rewrite polls_fresh, polls_open. cbn [ps_get ps_cap ps_xf]. now rewrite H.
Qed.
Print Assumptions C69_xdr_items.

(** If the file cannot be opened at the first poll: one error, then the end, though the file
    may be there again later. *)
Theorem C69_missing m ps l hist : polls m ps (None :: hist) (Fresh l) =
  (PErr EOpen :: repeat PEnd (length hist), Over, [] :: repeat [] (length hist)).
Proof. cbn [polls poll]. now rewrite polls_over. Qed.

(** ** What is read, and when *)

(** The chunk read by the [k]-th poll, if any, is that of the [k]-th slice. *)
Lemma polls_lazy m ps : forall hist st l,
  (st = Fresh l \/ exists f cache, st = Opened f l cache) ->
  forall k io, nth_error (snd (polls m ps hist st)) k = Some io ->
    io = [] \/ exists c s e, nth_error l k = Some (c, s, e) /\ io = [c].
Proof.
  induction hist as [|now hist IH]; intros st l Hst k io Hk; [destruct k; discriminate|].
  destruct (poll m ps now st) as [[x st1] io1] eqn:E. rewrite (polls_cons _ _ _ _ _ _ _ _ E) in Hk. cbn [snd] in Hk.
  assert (HO : forall f cache, poll_open m ps f l cache = (x, st1, io1) ->
    (io1 = [] \/ exists c s e, nth_error l 0 = Some (c, s, e) /\ io1 = [c]) /\
    (st1 = Over \/ st1 = Poisoned \/ exists sl l' cache', l = sl :: l' /\ st1 = Opened f l' cache')).
  { intros f cache EP. unfold poll_open in EP. destruct l as [|[[c s0] e0] l']; [injection EP as <- <- <-; auto|].
    assert (HH : forall A (y : res A), snd (halt y) = Over \/ snd (halt y) = Poisoned) by (intros A []; cbn; auto).
    assert (HF : forall A (y : res A) i, (halt y, i) = (x, st1, io1) -> (st1 = Over \/ st1 = Poisoned) /\ io1 = i).
    { intros A y i Q. injection Q as Q <-. split; auto. specialize (HH A y). rewrite Q in HH. exact HH. }
    assert (H0 : exists c1 s e, nth_error ((c, s0, e0) :: l') 0 = Some (c1, s, e) /\ [c] = [c1]) by (exists c, s0, e0; auto).
    destruct (let* x := ps_xf ps in let* s := mul64 m s0 x in let* e := mul64 m e0 x in let* _ := dbg m (s <=? e) in Ok (s, e)) as [[s e]|er| | |].
    2-5: (apply (HF (N * N)%type) in EP as [[-> | ->] ->]; auto).
    destruct (lru_get (c_addr c) cache) as [[data cache']|].
    - destruct (take_slice m data s e) as [b|er| | |].
      2-5: (apply (HF bytes) in EP as [[-> | ->] ->]; auto).
      injection EP as <- <- <-. split; auto. right; right. eauto.
    - destruct (ps_get ps f c) as [data|er| | |].
      2-5: (apply (HF bytes) in EP as [[-> | ->] ->]; auto).
      destruct (take_slice m data s e) as [b|er| | |].
      2-5: (apply (HF bytes) in EP as [[-> | ->] ->]; auto).
      injection EP as <- <- <-. split; auto. right; right. eauto. }
  assert (HP : (exists f cache, poll_open m ps f l cache = (x, st1, io1)) \/ (io1 = [] /\ st1 = Over)).
  { destruct Hst as [-> | (f & cache & ->)]; cbn [poll] in E.
    - destruct now as [f|]; [left; eauto|right; injection E as <- <- <-; auto].
    - left; eauto. }
  assert (HZ : forall n k, nth_error (repeat (@nil chunk) n) k = Some io -> io = []).
  { intros n j Hj. apply nth_error_In in Hj. now apply repeat_spec in Hj. }
  destruct HP as [(f & cache & EP)|[-> ->]].
  - destruct (HO f cache EP) as [A B]. destruct k as [|k]; cbn [nth_error] in Hk.
    + injection Hk as <-. exact A.
    + destruct B as [HB | [HB | HB]]; [subst st1|subst st1|destruct HB as (sl & l' & cache' & HB1 & HB2); subst l st1].
      * rewrite polls_over in Hk. left. now apply HZ in Hk.
      * rewrite polls_poisoned in Hk. left. now apply HZ in Hk.
      * destruct (IH (Opened f l' cache') l' ltac:(right; eauto) k io Hk) as [-> |H]; auto.
  - destruct k as [|k]; cbn [nth_error] in Hk; [injection Hk as <-; auto|]. rewrite polls_over in Hk. left. now apply HZ in Hk.
Qed.

Lemma byte_slices_nth m dsz : forall segs l, byte_slices m dsz segs = Ok l -> forall k c s e, nth_error l k = Some (c, s, e) ->
  exists a b, nth_error segs k = Some (c, a, b).
Proof.
  induction segs as [|[[c0 a0] b0] segs IH]; intros l H k c s e Hk; cbn [byte_slices] in H.
  - injection H as <-. destruct k; discriminate.
  - apply bind_ok in H as (s1 & _ & H). apply bind_ok in H as (e1 & _ & H). apply bind_ok in H as (r & Er & H). injection H as <-.
    destruct k as [|k]; cbn [nth_error] in *; [injection Hk as <- <- <-; eauto|]. eapply IH; eauto.
Qed.

(** Streams are lazy: calling [stream] reads nothing; the [k]-th poll reads at most one
    chunk, that of the [k]-th segment.  So a stream dropped after [n] polls has read at most
    [n] chunks, those of the first [n] segments. *)
Theorem C69_lazy m inflate fuel ds csz e ps st hist k io :
  stream_start m inflate fuel ds csz e = Ok (ps, st) ->
  nth_error (snd (polls m ps hist st)) k = Some io ->
  io = [] \/ exists c a b, nth_error (fst (chunk_slices m fuel ds e)) k = Some (c, a, b) /\ io = [c].
Proof.
  unfold stream_start. intros H Hk. apply bind_ok in H as (l & El & H). apply bind_ok in H as (cap & _ & H). injection H as <- <-.
  destruct (polls_lazy m _ hist _ l (or_introl eq_refl) k io Hk) as [-> |(c & s & e' & Hn & ->)]; auto. right.
  unfold collect_slices in El. destruct (chunk_slices m fuel ds e) as [segs z]. cbn [fst].
  apply bind_ok in El as (l' & El & H). apply bind_ok in H as (u & _ & H). injection H as ->.
  destruct (byte_slices_nth _ _ _ _ El _ _ _ _ Hn) as (a & b & Hs). eauto.
Qed.
Print Assumptions C69_lazy.

(** ** What a stream holds, and how often it reads a chunk *)

Definition held (st : pstate) : lru := match st with Opened _ _ cache => cache | _ => [] end.

Lemma poll_held m ps now st x st1 io : 1 <= ps_cap ps -> lenN (held st) <= ps_cap ps -> NoDup (keys (held st)) ->
  poll m ps now st = (x, st1, io) -> lenN (held st1) <= ps_cap ps /\ NoDup (keys (held st1)).
Proof.
  intros H1 HL HN E.
  assert (HH : forall A (y : res A) i, (halt y, i) = (x, st1, io) -> held st1 = []).
  { intros A y i Q. injection Q as Q _. destruct y; injection Q as _ <-; reflexivity. }
  assert (H0 : held st1 = [] -> lenN (held st1) <= ps_cap ps /\ NoDup (keys (held st1))).
  { intros ->. split; [unfold lenN; cbn; lia|constructor]. }
  assert (HO : forall f l cache, lenN cache <= ps_cap ps -> NoDup (keys cache) -> poll_open m ps f l cache = (x, st1, io) ->
    lenN (held st1) <= ps_cap ps /\ NoDup (keys (held st1))).
  { clear E. intros f l cache L ND E. unfold poll_open in E. destruct l as [|[[c s0] e0] l']; [injection E as <- <- <-; now apply H0|].
    destruct (let* x := ps_xf ps in let* s := mul64 m s0 x in let* e := mul64 m e0 x in let* _ := dbg m (s <=? e) in Ok (s, e)) as [[s e]|er| | |].
    2-5: (apply (HH (N * N)%type) in E; now apply H0).
    destruct (lru_get (c_addr c) cache) as [[data cache']|] eqn:EG.
    - destruct (take_slice m data s e) as [b|er| | |].
      2-5: (apply (HH bytes) in E; now apply H0).
      injection E as <- <- <-. cbn [held].
      assert (P : lru_ok (ps_cap ps) (fun _ => True) cache) by (split; [exact L|split; [exact ND|now apply Forall_forall]]).
      destruct (get_ok _ _ _ _ _ _ P EG) as (A & B & _). auto.
    - destruct (ps_get ps f c) as [data|er| | |].
      2-5: (apply (HH bytes) in E; now apply H0).
      destruct (take_slice m data s e) as [b|er| | |].
      2-5: (apply (HH bytes) in E; now apply H0).
      injection E as <- <- <-. cbn [held].
      assert (P : lru_ok (ps_cap ps) (fun _ => True) cache) by (split; [exact L|split; [exact ND|now apply Forall_forall]]).
      destruct (put_ok (ps_cap ps) (fun _ => True) (c_addr c) data cache H1 P I) as (A & B & _). auto. }
  destruct st as [l|f l cache| |]; cbn [poll] in E.
  - destruct now as [f|]; [|injection E as <- <- <-; now apply H0]. apply (HO f l []); auto.
  - now apply (HO f l cache).
  - injection E as <- <- <-. now apply H0.
  - injection E as <- <- <-. now apply H0.
Qed.

Lemma polls_held m ps : 1 <= ps_cap ps -> forall hist st, lenN (held st) <= ps_cap ps -> NoDup (keys (held st)) ->
  let st' := snd (fst (polls m ps hist st)) in lenN (held st') <= ps_cap ps /\ NoDup (keys (held st')).
Proof.
  intros H1. induction hist as [|now hist IH]; intros st HL HN; [now split|].
  destruct (poll m ps now st) as [[x st1] io] eqn:E. rewrite (polls_cons _ _ _ _ _ _ _ _ E). cbn [fst snd].
  destruct (poll_held _ _ _ _ _ _ _ H1 HL HN E). now apply IH.
Qed.

(** A stream never holds more than 32 MiB of decoded chunks, or one chunk if that is larger
    (chunks of at most [csz] bytes, as [C23_regular] gives). *)
Theorem C69_bounded m inflate fuel ds csz e ps st hist :
  stream_start m inflate fuel ds csz e = Ok (ps, st) ->
  lenN (held (snd (fst (polls m ps hist st)))) <= N.max 1 (32 * 1024 * 1024 / csz).
Proof.
  unfold stream_start. intros H. apply bind_ok in H as (l & El & H). apply bind_ok in H as (cap & HC & H). injection H as <- <-.
  unfold cache_cap, div64 in HC. destruct (N.eqb_spec csz 0); [discriminate|]. cbn [bind] in HC. injection HC as <-.
  destruct (polls_held m (mkPS (fun file => load m inflate file ds csz) (Ok 1) (N.max (CACHE_SZ / csz) 1)) ltac:(cbn [ps_cap]; lia) hist (Fresh l)) as [A _].
  - unfold lenN. cbn. lia.
  - constructor.
  - cbn [ps_cap] in A. rewrite (N.max_comm 1). exact A.
Qed.
Print Assumptions C69_bounded.

(** No chunk is read twice if all fit. *)
Lemma polls_once m ps K : lenN K <= ps_cap ps -> forall hist l f cache,
  NoDup (keys cache) -> incl (keys cache) K -> Forall (fun sl : chunk * N * N => In (c_addr (fst (fst sl))) K) l ->
  let ios := concat (snd (polls m ps hist (Opened f l cache))) in
  NoDup (map c_addr ios) /\ (forall a, In a (map c_addr ios) -> ~ In a (keys cache)).
Proof.
  intros HK. induction hist as [|now hist IH]; intros l f cache ND HI HL; [cbn; split; [constructor|intros ? []]|].
  destruct (poll m ps now (Opened f l cache)) as [[x st1] io] eqn:E. cbn zeta. rewrite (polls_cons _ _ _ _ _ _ _ _ E). cbn [snd concat].
  assert (Z : st1 = Over \/ st1 = Poisoned -> concat (snd (polls m ps hist st1)) = []).
  { assert (C : forall n, concat (repeat (@nil chunk) n) = []) by (induction n; auto).
    intros [-> | ->]; rewrite ?polls_over, ?polls_poisoned; apply C. }
  assert (HH : forall A (y : res A) i, (halt y, i) = (x, st1, io) -> (st1 = Over \/ st1 = Poisoned) /\ io = i).
  { intros A y i Q. injection Q as Q <-. split; auto. destruct y; injection Q as _ <-; auto. }
  cbn [poll] in E. unfold poll_open in E.
  destruct l as [|[[c s0] e0] l'].
  { injection E as <- <- <-. rewrite Z by auto. cbn. split; [constructor|intros ? []]. }
  inversion HL as [|? ? Hc HL']; subst. cbn [fst] in Hc.
  destruct (let* x := ps_xf ps in let* s := mul64 m s0 x in let* e := mul64 m e0 x in let* _ := dbg m (s <=? e) in Ok (s, e)) as [[s e]|er| | |].
  2-5: (apply (HH (N * N)%type) in E as [Hs ->]; rewrite Z by exact Hs; cbn; split; [constructor|intros ? []]).
  destruct (lru_get (c_addr c) cache) as [[data cache']|] eqn:EG.
  - destruct (take_slice m data s e) as [b|er| | |].
    2-5: (apply (HH bytes) in E as [Hs ->]; rewrite Z by exact Hs; cbn; split; [constructor|intros ? []]).
    injection E as <- <- <-. cbn [app].
    destruct (get_keys _ _ _ _ ND EG) as (G1 & G2 & _).
    destruct (IH l' f cache' G1) as [A B]; auto.
    { intros a Ha. apply HI. now apply G2. }
    split; auto. intros a Ha Hin. apply (B a Ha). now apply G2.
  - assert (NI : ~ In (c_addr c) (keys cache)).
    { intros Hin. apply find_keys in Hin. unfold lru_get in EG. destruct (lru_find (c_addr c) cache); [discriminate|congruence]. }
    assert (ONE : NoDup (map c_addr ([c] ++ [])) /\ (forall a, In a (map c_addr ([c] ++ [])) -> ~ In a (keys cache))).
    { cbn. split; [constructor; [intros []|constructor]|]. intros a [<-|[]]. exact NI. }
    destruct (ps_get ps f c) as [data|er| | |].
    2-5: (apply (HH bytes) in E as [Hs ->]; rewrite Z by exact Hs; exact ONE).
    destruct (take_slice m data s e) as [b|er| | |].
    2-5: (apply (HH bytes) in E as [Hs ->]; rewrite Z by exact Hs; exact ONE).
    injection E as <- <- <-.
    assert (LT : lenN cache < ps_cap ps).
    { eapply N.lt_le_trans; [|exact HK]. unfold lenN. rewrite <- (map_length fst cache). fold (keys cache).
      assert (HX : (length (c_addr c :: keys cache) <= length K)%nat).
      { apply NoDup_incl_length; [now constructor|]. intros a [<-|Ha]; auto. }
      cbn [length] in HX. lia. }
    pose proof (put_keys (ps_cap ps) (c_addr c) data cache NI LT) as PK.
    destruct (IH l' f (lru_put (ps_cap ps) (c_addr c) data cache)) as [A B]; auto.
    { rewrite PK. now constructor. }
    { rewrite PK. intros a [<-|Ha]; auto. }
    cbn [app map]. rewrite PK in B. split.
    + constructor; auto. intros Hin. apply (B _ Hin). now left.
    + intros a [<-|Ha]; auto. intros Hin. apply (B a Ha). now right.
Qed.

(** If the dataset's decoded chunks together fit in 32 MiB a stream reads no chunk twice,
    however far it is polled. *)
Theorem C69_once m inflate fuel ds csz e ps st hist :
  stream_start m inflate fuel ds csz e = Ok (ps, st) -> lenN (d_chunks ds) * csz <= 32 * 1024 * 1024 ->
  NoDup (map c_addr (concat (snd (polls m ps hist st)))).
Proof.
  intros H HS. assert (H' := H). unfold stream_start in H. apply bind_ok in H as (l & El & H). apply bind_ok in H as (cap & HC & H). injection H as <- <-.
  destruct hist as [|[f|] hist].
  - constructor.
  - rewrite polls_fresh.
    refine (proj1 (polls_once m _ (map c_addr (d_chunks ds)) _ (Some f :: hist) l f [] _ _ _)).
    + cbn [ps_cap]. unfold cache_cap, div64 in HC. destruct (N.eqb_spec csz 0) as [->|Hz]; [discriminate|]. cbn [bind] in HC.
      injection HC as <-. unfold lenN in *. rewrite map_length. etransitivity; [|apply N.le_max_l].
      apply N.div_le_lower_bound; auto. unfold CACHE_SZ. lia.
    + constructor.
    + intros ? [].
    + apply Forall_forall. intros [[c s] e'] Hin. cbn [fst]. apply in_map.
      apply In_nth_error in Hin as [k Hk]. unfold collect_slices in El.
      pose proof (slices_in m fuel ds e) as SI. destruct (chunk_slices m fuel ds e) as [segs z]. cbn [fst] in SI.
      apply bind_ok in El as (l' & El & Hl). apply bind_ok in Hl as (u & _ & Hl). injection Hl as ->.
      destruct (byte_slices_nth _ _ _ _ El _ _ _ _ Hk) as (a & b & Hs). apply nth_error_In in Hs.
      exact (proj1 (Forall_forall _ _) SI _ Hs).
  - rewrite C69_missing. cbn [snd concat app]. assert (C : forall n, concat (repeat (@nil chunk) n) = []) by (induction n; auto).
    rewrite C. constructor.
Qed.
Print Assumptions C69_once.

(** The stream of the example selection: polled twice, then five times. *)
Example C69_case m : exists ps st,
  stream_start m toy_inflate 13 st_ds 12 st_sel = Ok (ps, st) /\
  (exists bs, stream m toy_inflate 13 (mkStreamer st_ds (Some st_file) 12) st_sel = Ok (bs, SEnd) /\ (2 < length bs)%nat) /\
  lenN (d_chunks st_ds) * 12 <= 32 * 1024 * 1024 /\
  map (map c_addr) (snd (polls m ps [Some st_file; None] st)) = [[4]; [30]] /\
  concat (snd (polls m ps (Some st_file :: repeat None 9) st)) <> [] /\
  fst (fst (polls m ps [None; Some st_file] st)) = [PErr EOpen; PEnd].
Proof.
  destruct m; do 2 eexists; (split; [vm_compute; reflexivity|]);
    (split; [eexists; split; [vm_compute; reflexivity|cbn; lia]|]); (split; [vm_compute; discriminate|]);
    (split; [vm_compute; reflexivity|]); (split; [vm_compute; discriminate|reflexivity]).
Qed.
