(** * C99: streams and S3 reads in the runtimes they are called from. *)
From Coq Require Import Lia.
From Verif Require Import Base Spec SpecApi SpecReader Safe Chunk Extent Dataset Slicer Filters SpecFilter Reader StreamPoll
  CacheProofs SliceProps ExamplesReader Properties4 Properties18 S3 Runtime Properties39.

(** ** Specification *)

(** The [k]-th poll reads a chunk that is in the file, where it may not block: [ios] are the chunks the polls read if they
    may. *)
Definition stuck (file : bytes) (hist : list (option bytes * context)) (ios : list (list chunk)) (k : nat) : Prop :=
  exists now x c raw, nth_error hist k = Some (now, x) /\ (x = Pinned \/ x = Single) /\ nth_error ios k = Some [c] /\
    read_exact file (c_addr c) (c_size c) = Ok raw.
(** What is wrong with a load is wrong with the chunk read. *)
Definition reads_first (ps : pstream) : Prop :=
  forall file c, (forall raw, read_exact file (c_addr c) (c_size c) <> Ok raw) -> ps_get ps file c = failed (read_exact file (c_addr c) (c_size c)).

(** ** Proof *)

Section P.
Context (m : mode) (ps : pstream) (HR : reads_first ps).

Lemma get_in_same x file c : may_block x = true -> get_in x ps file c = ps_get ps file c.
Proof.
  intros H. unfold get_in. rewrite H. destruct (read_exact file (c_addr c) (c_size c)) as [raw| | | |] eqn:E; cbn [bind]; auto;
    rewrite HR by (rewrite E; discriminate); now rewrite E.
Qed.
Lemma get_in_fails x file c : (forall raw, read_exact file (c_addr c) (c_size c) <> Ok raw) -> get_in x ps file c = ps_get ps file c.
Proof. intros H. rewrite HR by auto. unfold get_in. destruct (read_exact _ _ _); auto. now contradiction (H a). Qed.

(** A poll differs only if it is stuck; then it panics. *)
Lemma poll_open_in x f l cache : let ps' := mkPS (get_in x ps) (ps_xf ps) (ps_cap ps) in
  poll_open m ps' f l cache = poll_open m ps f l cache \/
  poll_open m ps' f l cache = (PPanic, Poisoned, snd (poll_open m ps f l cache)) /\
    may_block x = false /\ exists c raw, snd (poll_open m ps f l cache) = [c] /\ read_exact f (c_addr c) (c_size c) = Ok raw.
Proof.
  cbn zeta. destruct l as [|[[c s0] e0] l]; [now left|]. cbn [poll_open ps_get ps_xf ps_cap].
  destruct (let* x0 := ps_xf ps in let* s := mul64 m s0 x0 in let* e := mul64 m e0 x0 in let* _ := dbg m (s <=? e) in Ok (s, e)) as [[s e]| | | |]; auto.
  destruct (lru_get (c_addr c) cache) as [[data cache']|]; auto.
  destruct (may_block x) eqn:EB; [left; now rewrite get_in_same|].
  destruct (read_exact f (c_addr c) (c_size c)) as [raw| | | |] eqn:ER.
  2-5: (left; rewrite get_in_fails by (rewrite ER; discriminate); reflexivity).
  assert (E1 : get_in x ps f c = Panic) by (unfold get_in; rewrite ER, EB; reflexivity). rewrite E1. right.
  assert (E2 : snd (match ps_get ps f c with
     | Ok data => match take_slice m data s e with Ok b => (PItem b, Opened f l (lru_put (ps_cap ps) (c_addr c) data cache), [c]) | x0 => (halt x0, [c]) end
     | x0 => (halt x0, [c]) end) = [c]).
  { destruct (ps_get ps f c) as [data| | | |]; auto. now destruct (take_slice m data s e). }
  split; [|split; auto; exists c, raw; auto]. cbn [halt]. f_equal. symmetry. exact E2.
Qed.

Lemma polls_in_over hist : polls_in m ps hist Over = (repeat PEnd (length hist), Over, repeat [] (length hist)).
Proof. induction hist as [|[now x] hist IH]; [reflexivity|]. cbn [polls_in length repeat]. unfold poll_in. cbn [poll]. now rewrite IH. Qed.
Lemma polls_in_poisoned hist : polls_in m ps hist Poisoned = (repeat PPanic (length hist), Poisoned, repeat [] (length hist)).
Proof. induction hist as [|[now x] hist IH]; [reflexivity|]. cbn [polls_in length repeat]. unfold poll_in. cbn [poll]. now rewrite IH. Qed.
Lemma polls_in_cons now x hist st : polls_in m ps ((now, x) :: hist) st =
  (fst (fst (poll_in m x ps now st)) :: fst (fst (polls_in m ps hist (snd (fst (poll_in m x ps now st))))),
   snd (fst (polls_in m ps hist (snd (fst (poll_in m x ps now st))))),
   snd (poll_in m x ps now st) :: snd (polls_in m ps hist (snd (fst (poll_in m x ps now st))))).
Proof. cbn [polls_in]. destruct (poll_in m x ps now st) as [[y st1] io]. cbn [fst snd]. destruct (polls_in m ps hist st1) as [[ys st2] ios]. reflexivity. Qed.
Lemma polls_cons' now hist st : polls m ps (now :: hist) st =
  (fst (fst (poll m ps now st)) :: fst (fst (polls m ps hist (snd (fst (poll m ps now st))))),
   snd (fst (polls m ps hist (snd (fst (poll m ps now st))))),
   snd (poll m ps now st) :: snd (polls m ps hist (snd (fst (poll m ps now st))))).
Proof. destruct (poll m ps now st) as [[y st1] io] eqn:E. now rewrite (polls_cons _ _ _ _ _ _ _ _ E). Qed.

Definition file_of (st : pstate) (f : bytes) : Prop := match st with Opened g _ _ => g = f | Fresh _ => False | _ => True end.
Lemma poll_file now st f : file_of st f -> file_of (snd (fst (poll m ps now st))) f.
Proof.
  destruct st as [l|g l cache| |]; cbn [file_of poll]; auto. { intros []. } intros ->. destruct l as [|[[c s0] e0] l]; [exact I|]. cbn [poll_open].
  destruct (let* x0 := ps_xf ps in let* s := mul64 m s0 x0 in let* e := mul64 m e0 x0 in let* _ := dbg m (s <=? e) in Ok (s, e)) as [[s e]| | | |]; try exact I.
  destruct (lru_get (c_addr c) cache) as [[data cache']|].
  - destruct (take_slice m data s e); try exact I. reflexivity.
  - destruct (ps_get ps f c) as [data| | | |]; try exact I. destruct (take_slice m data s e); try exact I. reflexivity.
Qed.
Lemma poll_file_in x now st f : file_of st f -> poll_in m x ps now st = poll m ps now st \/
  poll_in m x ps now st = (PPanic, Poisoned, snd (poll m ps now st)) /\
    may_block x = false /\ exists c raw, snd (poll m ps now st) = [c] /\ read_exact f (c_addr c) (c_size c) = Ok raw.
Proof.
  destruct st as [l|g l cache| |]; cbn [file_of]; intros H; [contradiction| |now left|now left]. subst g. unfold poll_in. cbn [poll]. apply poll_open_in.
Qed.
Lemma may_not x : may_block x = false <-> x = Pinned \/ x = Single.
Proof. destruct x; cbn; split; auto; try discriminate; intros [H|H]; discriminate. Qed.

Lemma never_stuck f : forall hist st, file_of st f ->
  (forall k, ~ stuck f hist (snd (polls m ps (map fst hist) st)) k) -> polls_in m ps hist st = polls m ps (map fst hist) st.
Proof.
  induction hist as [|[now x] hist IH]; intros st HF HN; [reflexivity|]. cbn [map fst] in *. rewrite polls_in_cons, polls_cons' in *. cbn [snd] in HN.
  destruct (poll_file_in x now st f HF) as [E|(E & Hb & c & raw & E1 & E2)].
  - rewrite E. rewrite IH; auto using poll_file. intros k (now' & y & c & raw & H1 & H2 & H3 & H4). apply (HN (S k)). exists now', y, c, raw. auto.
  - exfalso. apply (HN 0%nat). exists now, x, c, raw. repeat split; auto. { now apply may_not. } cbn [nth_error]. now rewrite E1.
Qed.
Lemma first_stuck f : forall hist st k, file_of st f -> (forall j, (j < k)%nat -> ~ stuck f hist (snd (polls m ps (map fst hist) st)) j) ->
  stuck f hist (snd (polls m ps (map fst hist) st)) k ->
  fst (fst (polls_in m ps hist st)) = firstn k (fst (fst (polls m ps (map fst hist) st))) ++ repeat PPanic (length hist - k).
Proof.
  induction hist as [|[now x] hist IH]; intros st k HF HN HS.
  { destruct HS as (? & ? & ? & ? & H & _). now destruct k. }
  cbn [map fst] in *. rewrite polls_in_cons, polls_cons' in *. cbn [fst snd] in *. destruct k as [|k].
  - destruct HS as (now' & y & c & raw & H1 & H2 & H3 & H4). cbn [nth_error] in H1, H3. injection H1 as <- <-. injection H3 as H3.
    assert (E : poll_in m x ps now st = (PPanic, Poisoned, [c])).
    { destruct st as [l|g l cache| |]; cbn [file_of] in HF; try contradiction; try discriminate H3. subst g. unfold poll_in. cbn [poll] in *.
      destruct l as [|[[c1 s0] e0] l]; [discriminate H3|]. cbn [poll_open ps_get ps_xf ps_cap] in *.
      destruct (let* x0 := ps_xf ps in let* s := mul64 m s0 x0 in let* e := mul64 m e0 x0 in let* _ := dbg m (s <=? e) in Ok (s, e)) as [[s e]| | | |]; try discriminate H3.
      destruct (lru_get (c_addr c1) cache) as [[data cache']|]; [destruct (take_slice m data s e); discriminate H3|].
      assert (Ec : c1 = c) by (destruct (ps_get ps f c1) as [data| | | |]; [destruct (take_slice m data s e)|..]; cbn [snd] in H3; congruence). subst c1.
      unfold get_in. rewrite H4. cbn [bind]. apply may_not in H2. rewrite H2. reflexivity. }
    rewrite E. cbn [fst snd firstn app length]. rewrite polls_in_poisoned. cbn [fst]. reflexivity.
  - destruct (poll_file_in x now st f HF) as [E|(E & Hb & c & raw & E1 & E2)].
    + rewrite E. cbn [firstn app length]. f_equal. replace (S (length hist) - S k)%nat with (length hist - k)%nat by lia.
      apply IH; auto using poll_file.
      * intros j Hj (now' & y & c & raw & H1 & H2 & H3 & H4). apply (HN (S j) ltac:(lia)). exists now', y, c, raw. auto.
    + exfalso. apply (HN 0%nat ltac:(lia)). exists now, x, c, raw. repeat split; auto. { now apply may_not. } cbn [nth_error]. now rewrite E1.
Qed.
End P.

Lemma stream_reads_first m inflate ds csz xf cap : reads_first (mkPS (fun file => load m inflate file ds csz) xf cap).
Proof. intros file c H. cbn [ps_get]. unfold load, read_chunk. destruct (read_exact _ _ _); auto. now contradiction (H a). Qed.
Lemma xdr_reads_first m h al1 al2 inflate ds csz xf cap :
  reads_first (mkPS (fun file c => let* data := load m inflate file ds csz c in xdr h al1 al2 data (d_dtype ds) (d_order ds)) xf cap).
Proof. intros file c H. cbn [ps_get]. unfold load, read_chunk. destruct (read_exact _ _ _); auto. now contradiction (H a). Qed.

Lemma fresh_in m ps f x hist l : polls_in m ps ((Some f, x) :: hist) (Fresh l) = polls_in m ps ((Some f, x) :: hist) (Opened f l []).
Proof. reflexivity. Qed.

(** ** The theorems *)

(** A stream (plain or XDR) as [stream] and [stream_xdr] return it. *)
Definition started (m : mode) (inflate : bytes -> option bytes) (fuel : nat) (ds : dataset) (csz : N) (e : extents) (ps : pstream) (st : pstate) : Prop :=
  stream_start m inflate fuel ds csz e = Ok (ps, st) \/
  exists h al1 al2, xdr_start m h al1 al2 inflate fuel ds csz e = Ok (ps, st).
Lemma started_ok m inflate fuel ds csz e ps st : started m inflate fuel ds csz e ps st -> reads_first ps /\ exists l, st = Fresh l.
Proof.
  intros [H|(h & al1 & al2 & H)]; [unfold stream_start in H|unfold xdr_start in H]; apply bind_ok in H as (l & _ & H); apply bind_ok in H as (cap & _ & H);
    injection H as <- <-; (split; [|eauto]); [apply stream_reads_first|apply xdr_reads_first].
Qed.

(** Polls made where one may block, or that find the chunk in the stream's cache, or whose chunk cannot be read, give what
    they give anywhere (C69). *)
Theorem C99_anywhere m inflate fuel ds csz e ps st f x0 hist : started m inflate fuel ds csz e ps st ->
  (forall k, ~ stuck f ((Some f, x0) :: hist) (snd (polls m ps (Some f :: map fst hist) st)) k) ->
  fst (fst (polls_in m ps ((Some f, x0) :: hist) st)) = fst (fst (polls m ps (Some f :: map fst hist) st)).
Proof.
  intros HS HN. destruct (started_ok _ _ _ _ _ _ _ _ HS) as [HR (l & ->)]. rewrite fresh_in, (polls_fresh m ps f (map fst hist) l) in *.
  rewrite (never_stuck m ps HR f ((Some f, x0) :: hist) (Opened f l [])); auto. reflexivity.
Qed.
Print Assumptions C99_anywhere.

(** The first poll that has to read a chunk where it may not block panics, though the chunk is there, and so do all after
    it; those before it are right. *)
Theorem C99_stuck m inflate fuel ds csz e ps st f x0 hist k : started m inflate fuel ds csz e ps st ->
  (forall j, (j < k)%nat -> ~ stuck f ((Some f, x0) :: hist) (snd (polls m ps (Some f :: map fst hist) st)) j) ->
  stuck f ((Some f, x0) :: hist) (snd (polls m ps (Some f :: map fst hist) st)) k ->
  fst (fst (polls_in m ps ((Some f, x0) :: hist) st)) =
    firstn k (fst (fst (polls m ps (Some f :: map fst hist) st))) ++ repeat PPanic (S (length hist) - k).
Proof.
  intros HS HN HK. destruct (started_ok _ _ _ _ _ _ _ _ HS) as [HR (l & ->)]. rewrite fresh_in, (polls_fresh m ps f (map fst hist) l) in *.
  apply (first_stuck m ps HR f ((Some f, x0) :: hist) (Opened f l []) k); auto. reflexivity.
Qed.
Print Assumptions C99_stuck.

(** Polled on a current-thread runtime, or in a LocalSet, a stream never gives an item. *)
Theorem C99_none m inflate fuel ds csz e ps st hist b : started m inflate fuel ds csz e ps st ->
  Forall (fun hx => snd hx = Pinned \/ snd hx = Single) hist -> ~ In (PItem b) (fst (fst (polls_in m ps hist st))).
Proof.
  intros HS HF. destruct (started_ok _ _ _ _ _ _ _ _ HS) as [HR (l & ->)]. destruct hist as [|[now x] hist]; [intros []|].
  inversion HF as [|? ? Hx HF']; subst. cbn [snd] in Hx. rewrite polls_in_cons. cbn [fst].
  assert (X : (forall b, fst (fst (poll_in m x ps now (Fresh l))) <> PItem b) /\
    (snd (fst (poll_in m x ps now (Fresh l))) = Over \/ snd (fst (poll_in m x ps now (Fresh l))) = Poisoned)).
  { unfold poll_in. cbn [poll]. destruct now as [f|]; [|split; [discriminate|now left]]. destruct l as [|[[c s0] e0] l]; [split; [discriminate|now left]|].
    cbn [poll_open ps_get ps_xf ps_cap].
    assert (HH : forall A (y : res A) io, (forall a, y <> Ok a) -> (forall b0, fst (fst (halt y, io) : polled * pstate) <> PItem b0) /\
      (snd (fst (halt y, io) : polled * pstate) = Over \/ snd (fst (halt y, io : list chunk) : polled * pstate) = Poisoned)).
    { intros A y io Hy. destruct y as [a| | | |]; [now contradiction (Hy a)|..]; cbn; split; auto; discriminate. }
    destruct (let* x0 := ps_xf ps in let* s := mul64 m s0 x0 in let* e1 := mul64 m e0 x0 in let* _ := dbg m (s <=? e1) in Ok (s, e1)) as [[s e1]| | | |];
      try (apply (HH (N * N)%type); discriminate).
    cbn [lru_get lru_find find]. unfold get_in. apply may_not in Hx. rewrite Hx.
    destruct (read_exact f (c_addr c) (c_size c)) as [raw| | | |]; cbn [bind]; apply (HH bytes); discriminate. }
  destruct X as [X1 X2]. intros [H|H]; [now apply (X1 b)|]. destruct X2 as [X2|X2]; rewrite X2 in H; [rewrite polls_in_over in H|rewrite polls_in_poisoned in H];
    cbn [fst] in H; apply repeat_spec in H; discriminate.
Qed.
Print Assumptions C99_none.

(** A read from S3 gives the same outcomes wherever it is made, except in a LocalSet of a multi-threaded runtime: there it
    panics before anything is written. *)
Theorem C99_s3 x m inflate sort fuel r e dst v d :
  s3_read_to x m inflate sort fuel r e dst v d <->
  (x = Pinned /\ v = Panic /\ d = dst) \/ x <> Pinned /\ s3_read m inflate sort fuel r e dst v d.
Proof.
  split.
  - intros [y v' d' E H|E]; destruct x; cbn in E; try discriminate E; auto; right; split; auto; discriminate.
  - intros [(-> & -> & ->)|[N H]]; [now apply st_panic|]. destruct x; try (eapply st_drive; [reflexivity|exact H]). now contradiction N.
Qed.
Print Assumptions C99_s3.

(** The stream of C69's example: its first poll on a worker; then one on a current-thread runtime, and another. *)
Example C99_case m : exists ps st, started m toy_inflate 13 st_ds 12 st_sel ps st /\ (exists b, fst (fst (polls_in m ps [(Some st_file, Worker); (None, Single); (None, Worker)] st)) = [PItem b; PPanic; PPanic]) /\ stuck st_file [(Some st_file, Worker); (None, Single); (None, Worker)] (snd (polls m ps [Some st_file; None; None] st)) 1 /\ ~ stuck st_file [(Some st_file, Worker); (None, Single); (None, Worker)] (snd (polls m ps [Some st_file; None; None] st)) 0 /\ fst (fst (polls_in m ps [(Some st_file, Single)] st)) = [PPanic] /\ fst (fst (polls_in m ps [(Some [], Single); (None, Single)] st)) = [PErr EIo; PEnd].
Proof.
  destruct m; do 2 eexists; (split; [left; vm_compute; reflexivity|]);
    (split; [eexists; vm_compute; reflexivity|]);
    (split; [exists None, Single; do 2 eexists; split; [reflexivity|]; split; [now right|]; split; [vm_compute; reflexivity|vm_compute; reflexivity]|]);
    (split; [intros (now & x & c & raw & H & [-> | ->] & _); discriminate H|]);
    (split; vm_compute; reflexivity).
Qed.
