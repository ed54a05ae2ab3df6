(** * Properties43: C73, S3 reads make as few requests as their limits allow. *)
From Coq Require Import Permutation.
From Verif Require Import Base Spec Safe Extent Chunk Dataset Slicer SpecApi Reader SpecReader
  S3 S3Async SpecS3 GroupProofs DirectProofs SliceProps ReaderProps ExamplesReader Properties4 S3Group Properties6 Properties21.

(** ** Specification *)

(** Chunks that one request may fetch, in the order of the file: from one chunk to the
    next there are at most 32 KiB that nobody asked for, and all of them together (unless
    it is a single chunk, which must be fetched however large it is) are within 8 MiB. *)
Definition allowed (S : list chunk) : Prop :=
  (forall pre c1 c2 post, S = pre ++ c1 :: c2 :: post ->
     c_addr c1 + c_size c1 <= c_addr c2 /\ c_addr c2 - (c_addr c1 + c_size c1) <= 32 * 1024) /\
  (forall c1 mid c2, S = c1 :: mid ++ [c2] -> c_addr c2 + c_size c2 - c_addr c1 <= 8 * 1024 * 1024).

(** Another way to fetch the chunks that are needed: requests, each of them allowed and for
    needed chunks, such that every needed chunk is in one of them. *)
Definition another_way (need : chunk -> Prop) (alt : list (list chunk)) : Prop :=
  Forall allowed alt /\
  (forall S c, In S alt -> In c S -> need c) /\
  (forall c, need c -> exists S, In S alt /\ In c S).

(** ** Proof *)

Lemma allowed_after S : allowed S -> forall r p a b, S = p ++ a :: r -> In b r -> c_addr a + c_size a <= c_addr b.
Proof.
  intros [H _]. induction r as [|b' r IH]; intros p a b E Hb; [easy|].
  pose proof (proj1 (H _ _ _ _ E)) as H1. destruct Hb as [->|Hb]; auto.
  assert (E' : S = (p ++ [a]) ++ b' :: r) by now rewrite <- app_assoc.
  specialize (IH _ _ _ E' Hb). lia.
Qed.

Lemma straddle {A} (P : A -> Prop) : forall (l : list A) x y, (forall z, In z (x :: l ++ [y]) -> P z \/ ~ P z) -> P x -> ~ P y ->
  exists l1 a b l2, x :: l ++ [y] = l1 ++ a :: b :: l2 /\ P a /\ ~ P b.
Proof.
  induction l as [|z l IH]; intros x y HD Hx Hy; cbn [app].
  - exists [], x, y, []. auto.
  - destruct (HD z) as [Hz|Hz]; [right; left; reflexivity| |].
    + destruct (IH z y) as (l1 & a & b & l2 & E & Ha & Hb); auto.
      { intros w Hw. apply HD. right. exact Hw. }
      exists (x :: l1), a, b, l2. cbn [app] in E |- *. now rewrite E.
    + exists [], x, z, (l ++ [y]). auto.
Qed.

Lemma pigeons {A} : forall (hs : list A) (alt : list (list A)),
  (forall h, In h hs -> exists S, In S alt /\ In h S) ->
  (forall S p1 h p2 h' p3, In S alt -> hs = p1 ++ h :: p2 ++ h' :: p3 -> In h S -> In h' S -> False) ->
  (length hs <= length alt)%nat.
Proof.
  induction hs as [|h hs IH]; intros alt HC HN; [apply Nat.le_0_l|].
  destruct (HC h) as (S & HS & Hh); [now left|]. apply in_split in HS as (l1 & l2 & ->).
  assert (HL : (length hs <= length (l1 ++ l2))%nat).
  { apply IH.
    - intros h' Hh'. destruct (HC h') as (S' & HS' & Hin); [now right|].
      exists S'. split; auto. apply in_app_or in HS' as [?|[<- |?]]; try (apply in_or_app; auto).
      exfalso. apply in_split in Hh' as (p2 & p3 & ->).
      apply (HN S [] h p2 h' p3); auto. apply in_or_app. right. now left.
    - intros S' p1 a p2 b p3 HS' E Ha Hb. apply (HN S' (h :: p1) a p2 b p3); auto.
      + apply in_app_or in HS' as [?|?]; apply in_or_app; [left|right; right]; auto.
      + now rewrite E. }
  rewrite app_length in HL |- *. cbn [length]. lia.
Qed.

(** The segments of [gs] are in the chunks of the requests. *)
Lemma req_segs_chunk qs g : In g (flat_map req_segs qs) -> In (g_chunk g) (flat_map req_chunks qs).
Proof.
  intros H. apply in_flat_map in H as (q & Hq & H). unfold req_segs in H. apply in_flat_map in H as ([c ss] & Hc & H).
  apply in_map_iff in H as ([[cur a] b] & <- & _). cbn. apply in_flat_map. exists q. split; auto.
  unfold req_chunks. apply in_map_iff. now exists (c, ss).
Qed.

Section few.
Variables (m : mode) (gs : list gsegment) (qs : list request).
Hypothesis HB : SpecS3.by_addr gs.
Hypothesis HZ : Forall (fun g => 0 < c_size (g_chunk g) /\ c_addr (g_chunk g) + c_size (g_chunk g) < W64) gs.
Hypothesis HD : forall g h, In g gs -> In h gs -> g_chunk g <> g_chunk h ->
  c_addr (g_chunk g) + c_size (g_chunk g) <= c_addr (g_chunk h) \/
  c_addr (g_chunk h) + c_size (g_chunk h) <= c_addr (g_chunk g).
Hypothesis EQ : group_requests m gs = Ok qs.

Let HW : Forall (fun g => c_addr (g_chunk g) + c_size (g_chunk g) < W64) gs.
Proof. eapply Forall_impl; [|exact HZ]. intros g []. auto. Qed.

Let L := flat_map req_chunks qs.

Lemma few_in c : In c L <-> exists g, In g gs /\ g_chunk g = c.
Proof.
  destruct (S3Group.group_ok m gs qs (or_intror HW) HB EQ) as (HP & _ & _ & HI).
  assert (H1 : forall c, In c L -> exists g, In g gs /\ g_chunk g = c).
  { intros d Hd. apply HI, in_map_iff in Hd as (g & <- & Hg). now exists g. }
  split; [apply H1|]. intros (g & Hg & <-).
  assert (X : exists g', In g' (flat_map req_segs qs) /\ same_place g g').
  { clear -HP Hg. induction HP as [|x y l l' Hxy HP IH]; [easy|]. destruct Hg as [->|Hg].
    - exists y. split; auto. now left.
    - destruct (IH Hg) as (g' & ? & ?). exists g'. split; auto. now right. }
  destruct X as (g' & Hg' & SA & _). apply req_segs_chunk in Hg'. fold L in Hg'.
  destruct (H1 _ Hg') as (h & Hh & Eh).
  assert (DEC : g_chunk g = g_chunk h \/ g_chunk g <> g_chunk h).
  { destruct (list_eq_dec N.eq_dec (c_offset (g_chunk g)) (c_offset (g_chunk h))) as [E1|E1].
    - destruct (N.eq_dec (c_size (g_chunk g)) (c_size (g_chunk h))) as [E2|E2].
      + left. rewrite <- Eh in SA. destruct (g_chunk g), (g_chunk h). cbn in *. congruence.
      + right. congruence.
    - right. congruence. }
  destruct DEC as [->|NE]; [now rewrite Eh|exfalso].
  rewrite Forall_forall in HZ. pose proof (HZ _ Hg) as [Z1 _]. pose proof (HZ _ Hh) as [Z2 _].
  rewrite <- Eh in SA. destruct (HD g h Hg Hh NE); lia.
Qed.

Lemma few_size c : In c L -> 0 < c_size c.
Proof. intros H. apply few_in in H as (g & Hg & <-). rewrite Forall_forall in HZ. apply (HZ _ Hg). Qed.

(** Of two chunks in [L] the one that comes first ends before the other starts. *)
Lemma few_before l1 c l2 d l3 : L = l1 ++ c :: l2 ++ d :: l3 -> c_addr c + c_size c <= c_addr d.
Proof.
  intros E. destruct (S3Group.group_ok m gs qs (or_intror HW) HB EQ) as (_ & _ & HS & _).
  fold L in HS.
  assert (Hlt : c_addr c < c_addr d).
  { apply (HS (length l1) (length l1 + 1 + length l2)%nat); [lia| |]; rewrite E, nth_error_map.
    - now rewrite nth_error_app2, Nat.sub_diag by lia.
    - rewrite nth_error_app2 by lia. replace (length l1 + 1 + length l2 - length l1)%nat with (S (length l2)) by lia.
      cbn [nth_error]. now rewrite nth_error_app2, Nat.sub_diag by lia. }
  assert (Hc : In c L) by (rewrite E; apply in_or_app; right; now left).
  assert (Hd : In d L).
  { rewrite E. apply in_or_app. right. right. apply in_or_app. right. now left. }
  pose proof (few_size _ Hd) as Zd. apply few_in in Hc as (g & Hg & <-). apply few_in in Hd as (h & Hh & <-).
  destruct (HD g h Hg Hh) as [?|?]; [intros EE; rewrite EE in Hlt; lia| |]; lia.
Qed.

Definition head_of (q : request) (c : chunk) : Prop := exists rest, req_chunks q = c :: rest.

Lemma two_heads S p1 q p2 q' p3 h h' : allowed S -> (forall c, In c S -> In c L) ->
  qs = p1 ++ q :: p2 ++ q' :: p3 -> head_of q h -> head_of q' h' -> In h S -> In h' S -> False.
Proof.
  intros HA HS E [rh Hh] [rh' Hh'] Ih Ih'.
  destruct (S3Group.group_ok m gs qs (or_intror HW) HB EQ) as (_ & HG & _ & _).
  assert (Gq : req_good q).
  { rewrite Forall_forall in HG. apply HG. rewrite E. apply in_or_app. right. now left. }
  (* the request after q *)
  assert (N : exists q1 t, p2 ++ q' :: p3 = q1 :: t /\ (q1 = q' \/ exists t1, p2 = q1 :: t1)).
  { destruct p2 as [|q1 p2]; [exists q', p3; auto|]. exists q1, (p2 ++ q' :: p3). split; auto. right. now exists p2. }
  destruct N as (q1 & t & Et & Hq1).
  rewrite Et in E.
  destruct (group_maximal m gs qs HW HB EQ p1 q q1 t E) as (f & fs & frest & Ef & NJ).
  assert (Ef' : req_chunks q1 = f :: map fst frest) by (unfold req_chunks; now rewrite Ef).
  (* the last chunk of q *)
  destruct (rq_last _ Gq) as (lp & z & zs & Ez & Eend).
  destruct (rq_some _ Gq) as (c0 & ss0 & rest0 & E0 & Est).
  assert (c0 = h) as -> by (unfold req_chunks in Hh; rewrite E0 in Hh; cbn in Hh; congruence).
  assert (Ez' : req_chunks q = map fst lp ++ [z]) by (unfold req_chunks; rewrite Ez, map_app; reflexivity).
  set (X := flat_map req_chunks p1 ++ map fst lp).
  set (Y := map fst frest ++ flat_map req_chunks t).
  assert (EL : L = X ++ z :: f :: Y).
  { unfold L, X, Y. rewrite E, flat_map_app. cbn [flat_map]. rewrite Ez', Ef', <- !app_assoc. reflexivity. }
  assert (Hzf : c_addr z + c_size z <= c_addr f) by (apply (few_before X z [] f Y); exact EL).
  (* every chunk of L ends before z does or begins no earlier than f *)
  assert (SIDE : forall c, In c L -> (c_addr c + c_size c <= c_addr z + c_size z /\ c_addr c < c_addr f) \/ (c_addr f <= c_addr c)).
  { intros c Hc. rewrite EL in Hc. apply in_app_or in Hc as [Hc|[<- |[<- |Hc]]].
    - left. apply in_split in Hc as (x1 & x2 & EX).
      assert (H1 : c_addr c + c_size c <= c_addr z).
      { apply (few_before x1 c x2 z (f :: Y)). rewrite EL, EX, <- app_assoc. reflexivity. }
      assert (Hz : 0 < c_size z) by (apply few_size; rewrite EL; apply in_or_app; right; now left). lia.
    - left. assert (Hz : 0 < c_size z) by (apply few_size; rewrite EL; apply in_or_app; right; now left). lia.
    - right. lia.
    - right. apply in_split in Hc as (y1 & y2 & EY).
      assert (H1 : c_addr f + c_size f <= c_addr c).
      { apply (few_before (X ++ [z]) f y1 c y2). rewrite EL, EY, <- app_assoc. reflexivity. }
      lia. }
  (* h is on the left, h' on the right and f ends no later than h' *)
  assert (Lh : c_addr h < c_addr f).
  { pose proof (rq_cover _ Gq) as HC. rewrite Ez in HC. apply Forall_app in HC as [_ HC]. inversion HC as [|? ? (HC1 & _) _].
    cbn [fst] in HC1. assert (Hz : 0 < c_size z) by (apply few_size; rewrite EL; apply in_or_app; right; now left). lia. }
  assert (Rh' : c_addr f + c_size f <= c_addr h' + c_size h' /\ c_addr f <= c_addr h').
  { destruct Hq1 as [->|(t1 & ->)].
    - assert (f = h') as -> by congruence. lia.
    - cbn [app] in Et. injection Et as Et. assert (Hin : In h' (flat_map req_chunks t)).
      { rewrite <- Et, flat_map_app. cbn [flat_map]. rewrite Hh'. apply in_or_app. right. now left. }
      apply in_split in Hin as (y1 & y2 & EY).
      assert (H1 : c_addr f + c_size f <= c_addr h').
      { apply (few_before (X ++ [z]) f (map fst frest ++ y1) h' y2). rewrite EL. unfold Y. rewrite EY, <- !app_assoc. reflexivity. }
      lia. }
  (* in S, h comes first *)
  apply in_split in Ih as (s1 & s2 & ES).
  assert (Ih2 : In h' s2).
  { rewrite ES in Ih'. apply in_app_or in Ih' as [Ih'|[<- |Ih']]; auto; exfalso.
    - apply in_split in Ih' as (u1 & u2 & EU).
      assert (H1 : c_addr h' + c_size h' <= c_addr h).
      { eapply (allowed_after S HA (u2 ++ h :: s2) u1 h' h); [rewrite ES, EU, <- app_assoc; reflexivity|].
        apply in_or_app. right. now left. }
      lia.
    - lia. }
  apply in_split in Ih2 as (u1 & u2 & EU). subst s2.
  destruct (straddle (fun c => c_addr c < c_addr f) u1 h h') as (l1 & a & b & l2 & ED & Ha & Hb);
    [intros w _; lia|exact Lh|lia|].
  assert (ES' : S = (s1 ++ l1) ++ a :: b :: l2 ++ u2).
  { rewrite ES. replace (h :: u1 ++ h' :: u2) with ((h :: u1 ++ [h']) ++ u2) by (cbn [app]; rewrite <- app_assoc; reflexivity).
    rewrite ED, <- !app_assoc. reflexivity. }
  destruct (proj1 HA _ _ _ _ ES') as [Gab1 Gab2].
  assert (Sa : In a L) by (apply HS; rewrite ES'; apply in_or_app; right; now left).
  apply SIDE in Sa.
  apply NJ. unfold could_join, COALESCE_GAP, MAX_REQUEST_SZ. rewrite Eend, Est. split; [exact Hzf|]. split; [lia|].
  (* the span of S *)
  assert (FST : exists c1 s', S = c1 :: s' /\ c_addr c1 <= c_addr h).
  { destruct s1 as [|c1 s1']; [exists h; eexists; split; [exact ES|lia]|].
    exists c1. eexists. split; [exact ES|].
    assert (c_addr c1 + c_size c1 <= c_addr h); [|lia].
    eapply (allowed_after S HA _ [] c1 h ES). apply in_or_app. right. now left. }
  destruct FST as (c1 & s' & E1 & Hc1).
  assert (LST : exists s'' cl, S = s'' ++ [cl] /\ c_addr h' + c_size h' <= c_addr cl + c_size cl).
  { destruct (exists_last (l := h' :: u2)) as (u3 & cl & EU); [discriminate|].
    exists (s1 ++ h :: u1 ++ u3), cl. split; [rewrite ES, EU, <- !app_assoc; cbn [app]; rewrite <- app_assoc; reflexivity|].
    destruct u3 as [|d u3]; [injection EU as -> _; lia|]. injection EU as <- EU.
    assert (c_addr h' + c_size h' <= c_addr cl); [|lia].
    apply (allowed_after S HA u2 (s1 ++ h :: u1) h' cl).
    - rewrite ES, <- app_assoc. reflexivity.
    - rewrite EU. apply in_or_app. right. now left. }
  destruct LST as (s'' & cl & E2 & Hcl).
  destruct s'' as [|c1' s''].
  - exfalso. cbn in E2. rewrite ES in E2. destruct s1 as [|? s1]; [destruct u1; discriminate|destruct s1; discriminate].
  - assert (c1' = c1) as -> by (cbn in E2; congruence).
    pose proof (proj2 HA _ _ _ E2). lia.
Qed.

Lemma few alt : another_way (fun c => In c (map g_chunk gs)) alt -> (length qs <= length alt)%nat.
Proof.
  intros (HA & HI & HC).
  destruct (S3Group.group_ok m gs qs (or_intror HW) HB EQ) as (_ & HG & _ & _).
  assert (X : exists hs, Forall2 head_of qs hs).
  { clear -HG. induction HG as [|q l Hq HG (hs & IH)]; [now exists []|].
    destruct (rq_some _ Hq) as (c & ss & rest & E & _). exists (c :: hs). constructor; auto.
    exists (map fst rest). unfold req_chunks. now rewrite E. }
  destruct X as (hs & HF). rewrite (DatasetProofs.Forall2_length' _ _ _ HF).
  assert (SUB : forall S c, In S alt -> In c S -> In c L).
  { intros S c HS Hc. apply few_in. pose proof (HI S c HS Hc) as HI'. apply in_map_iff in HI' as (g & Eg & Hg). now exists g. }
  apply pigeons.
  - intros h Hh.
    assert (Hq : exists q, In q qs /\ head_of q h).
    { clear -HF Hh. induction HF as [|x y l l' Hxy HF IH]; [easy|]. destruct Hh as [->|Hh].
      - exists x. split; auto. now left.
      - destruct (IH Hh) as (q & ? & ?). exists q. split; auto. now right. }
    destruct Hq as (q & Hq & rest & Er).
    assert (HL : In h L) by (apply in_flat_map; exists q; split; auto; rewrite Er; now left).
    apply few_in in HL as (g & Hg & <-). apply HC. now apply in_map.
  - intros S a1 h a2 h' a3 HS Eh Hh Hh'. subst hs.
    apply Forall2_app_inv_r in HF as (q1 & q2 & _ & F2 & E1).
    destruct q2 as [|q q3]; [inversion F2|]. inversion F2 as [|? ? ? ? Hq F3]. clear F2. subst x y l l'.
    apply Forall2_app_inv_r in F3 as (q4 & q5 & _ & F4 & E4).
    destruct q5 as [|q' q6]; [inversion F4|]. inversion F4 as [|? ? ? ? Hq' F5]. clear F4. subst x y l l'.
    rewrite Forall_forall in HA. rewrite E4 in E1.
    eapply (two_heads S q1 q q4 q' q6 h h'); eauto.
Qed.

Lemma few_self : another_way (fun c => In c (map g_chunk gs)) (map req_chunks qs).
Proof.
  destruct (C32_limits m gs qs (or_intror HW) HB EQ) as [L1 L2]. rewrite Forall_forall in L1, L2.
  destruct (S3Group.group_ok m gs qs (or_intror HW) HB EQ) as (_ & HG & _ & _).
  split; [|split].
  - apply Forall_forall. intros S HS. apply in_map_iff in HS as (q & <- & Hq). split.
    + intros pre c1 c2 post E. exact (L2 q Hq pre c1 c2 post E).
    + intros c1 mid c2 E. specialize (L1 q Hq). rewrite Forall_forall in HG. pose proof (HG q Hq) as Gq.
      rewrite E in L1. cbn [length] in L1. rewrite app_length in L1. cbn [length] in L1.
      assert (HL : q_end q - q_start q <= 8 * 1024 * 1024) by (apply L1; lia).
      destruct (rq_some _ Gq) as (d & ss & rest & E1 & E2). destruct (rq_last _ Gq) as (lp & z & zs & E3 & E4).
      assert (d = c1) as -> by (unfold req_chunks in E; rewrite E1 in E; cbn in E; congruence).
      assert (z = c2) as ->.
      { unfold req_chunks in E. rewrite E3, map_app in E. cbn [map fst] in E.
        change (c1 :: mid ++ [c2]) with ((c1 :: mid) ++ [c2]) in E. now apply app_inj_tail in E as [_ ->]. }
      now rewrite E2, E4 in HL.
  - intros S c HS Hc. apply in_map_iff in HS as (q & <- & Hq). apply in_map_iff.
    assert (HL : In c L) by (apply in_flat_map; now exists q). apply few_in in HL as (g & ? & ?). now exists g.
  - intros c Hc. apply in_map_iff in Hc as (g & Eg & Hg). assert (HL : In c L) by (apply few_in; now exists g).
    apply in_flat_map in HL as (q & Hq & Hc). exists (req_chunks q). split; auto. now apply in_map.
Qed.
End few.

Lemma range_length (cs : list chunk) : (forall pre c1 c2 post, cs = pre ++ c1 :: c2 :: post ->
     c_addr c1 + c_size c1 <= c_addr c2 /\ c_addr c2 - (c_addr c1 + c_size c1) <= 32 * 1024) ->
  forall a b rest pre, cs = a :: rest -> cs = pre ++ [b] ->
  c_addr b + c_size b - c_addr a + 32 * 1024 <= sumN (map c_size cs) + 32 * 1024 * lenN cs.
Proof.
  induction cs as [|c cs IH]; intros HP a b rest pre E1 E2; [discriminate|].
  injection E1 as <- <-. cbn [map sumN]. unfold lenN. cbn [length]. destruct cs as [|d cs].
  - destruct pre as [|? [|? ?]]; try discriminate. injection E2 as <-. cbn [map sumN length]. lia.
  - destruct pre as [|p pre]; [discriminate|]. cbn [app] in E2. injection E2 as _ E2.
    assert (H1 : c_addr b + c_size b - c_addr d + 32 * 1024 <= sumN (map c_size (d :: cs)) + 32 * 1024 * lenN (d :: cs)).
    { eapply IH; eauto. intros pre' c1 c2 post E. apply (HP (c :: pre') c1 c2 post). now rewrite E. }
    pose proof (HP [] c d cs eq_refl) as [H2 H3]. unfold lenN in H1. remember (length (d :: cs)) as n.
    remember (sumN (map c_size (d :: cs))) as t. clear - H1 H2 H3. lia.
Qed.

Lemma group_facts m sort fuel ds e gs : addr_sort sort -> disjoint_chunks ds -> SpecS3.sizes_ok ds ->
  group_chunk_slices sort m fuel ds e = Ok gs ->
  SpecS3.by_addr gs /\
  Forall (fun g => 0 < c_size (g_chunk g) /\ c_addr (g_chunk g) + c_size (g_chunk g) < W64) gs /\
  (forall g h, In g gs -> In h gs -> g_chunk g <> g_chunk h ->
  c_addr (g_chunk g) + c_size (g_chunk g) <= c_addr (g_chunk h) \/
  c_addr (g_chunk h) + c_size (g_chunk h) <= c_addr (g_chunk g)).
Proof.
  intros HS HJ HZ E. pose proof (group_chunks m sort fuel ds e gs HS E) as HC. rewrite Forall_forall in HC.
  split; [exact (C31_sorted sort m fuel ds e gs HS E)|]. split.
  - apply Forall_forall. intros g Hg. apply HZ. auto.
  - intros g h Hg Hh NE. apply HJ; auto.
Qed.

Lemma safe_group_needs m sort fuel ds e idx cnt dst G c : addr_sort sort -> safe_read ds e idx cnt dst fuel ->
  group_chunk_slices sort m fuel ds e = Ok G -> (In c (map g_chunk G) <-> needs ds idx cnt c).
Proof.
  intros HS HF EG'. pose proof (safe_read_ok m _ _ _ _ _ _ HF) as HO.
  destruct (group_dests m sort ds e idx cnt dst fuel HS HO) as (segs & G' & EX & EG & PG & _).
  rewrite EG' in EG. injection EG as <-.
  destruct HO as [HD HR HG HSel (segs' & HX & HT) Hb HW Hf]. specialize (HX fuel Hf).
  rewrite EX in HX. injection HX as <-.
  rewrite (right_needs ds idx cnt segs c HD HSel HT). rewrite (Permutation_map g_chunk PG).
  rewrite <- (dests_segs segs 0) at 2. rewrite map_map. reflexivity.
Qed.

(** ** C73 *)

(** Safe selections, every server and every state a read can be in: it has sent no more
    requests than any other way to fetch the chunks that hold selected elements would. *)
Theorem C73_fewest m inflate sort fuel ds srv rs e idx cnt dst v qs n st alt :
  addr_sort sort -> safe_read ds e idx cnt dst fuel -> disjoint_chunks ds -> SpecS3.sizes_ok ds ->
  s3_new m ds srv = Ok rs -> s3_state m inflate sort fuel rs e dst v qs n st ->
  another_way (needs ds idx cnt) alt -> (length (a_sent st) <= length alt)%nat.
Proof.
  intros HS HF HJ HZ HN HST (A1 & A2 & A3).
  destruct (C61_limit _ _ _ _ _ _ _ _ _ _ _ HST) as (_ & (rest & Eq) & _).
  inversion HST as [? ? ? ? E1 E2 _]; subst v0 qs0 n0 st0.
  unfold s3_new in HN. apply bind_ok in HN as (csz & _ & HN). injection HN as <-. cbn [s3_ds] in *.
  apply bind_ok in E2 as (gs & EG & EQ).
  destruct (group_facts m sort fuel ds e gs HS HJ HZ EG) as (F1 & F2 & F3).
  assert (HL : (length qs <= length alt)%nat).
  { apply (few m gs qs F1 F2 F3 EQ). split; [exact A1|]. split.
    - intros S c H1 H2. apply (safe_group_needs m sort fuel ds e idx cnt dst gs c HS HF EG). eauto.
    - intros c Hc. apply A3. now apply (safe_group_needs m sort fuel ds e idx cnt dst gs c HS HF EG). }
  rewrite Eq, app_length in HL. lia.
Qed.
Print Assumptions C73_fewest.

(** The requests of a successful read are such a way, so its number of requests is the
    least there is. *)
Theorem C73_attained m inflate sort fuel ds srv rs e idx cnt dst v qs n st :
  addr_sort sort -> safe_read ds e idx cnt dst fuel -> disjoint_chunks ds -> SpecS3.sizes_ok ds ->
  s3_new m ds srv = Ok rs -> s3_state m inflate sort fuel rs e dst v qs n st -> a_out st = Some (Ok tt) ->
  another_way (needs ds idx cnt) (map req_chunks (a_sent st)).
Proof.
  intros HS HF HJ HZ HN HST HO.
  destruct (C61_ends _ _ _ _ _ _ _ _ _ _ _ HST) as (_ & _ & HE). destruct (HE HO) as [-> _].
  inversion HST as [? ? ? ? E1 E2 _]; subst v0 qs0 n0 st0.
  unfold s3_new in HN. apply bind_ok in HN as (csz & _ & HN). injection HN as <-. cbn [s3_ds] in *.
  apply bind_ok in E2 as (gs & EG & EQ).
  destruct (group_facts m sort fuel ds e gs HS HJ HZ EG) as (F1 & F2 & F3).
  destruct (few_self m gs qs F1 F2 F3 EQ) as (A1 & A2 & A3).
  split; [exact A1|]. split.
  - intros S c H1 H2. apply (safe_group_needs m sort fuel ds e idx cnt dst gs c HS HF EG). eauto.
  - intros c Hc. apply A3. now apply (safe_group_needs m sort fuel ds e idx cnt dst gs c HS HF EG).
Qed.
Print Assumptions C73_attained.

(** Any selection that is cut into segments at all: no other way to fetch the chunks of
    those segments has fewer requests. *)
Theorem C73_any m sort fuel ds e gs qs alt :
  addr_sort sort -> disjoint_chunks ds -> SpecS3.sizes_ok ds ->
  group_chunk_slices sort m fuel ds e = Ok gs -> group_requests m gs = Ok qs ->
  another_way (fun c => In c (map g_chunk gs)) alt -> (length qs <= length alt)%nat.
Proof.
  intros HS HJ HZ EG EQ HA. destruct (group_facts m sort fuel ds e gs HS HJ HZ EG) as (F1 & F2 & F3).
  exact (few m gs qs F1 F2 F3 EQ alt HA).
Qed.
Print Assumptions C73_any.

(** The price: in any state, any selection, the bytes asked for beyond those of the chunks
    of the requests are at most 32 KiB for each chunk that saved a request. *)
Theorem C73_overhead m inflate sort fuel ds srv rs e dst v qs n st :
  addr_sort sort -> SpecS3.sizes_ok ds ->
  s3_new m ds srv = Ok rs -> s3_state m inflate sort fuel rs e dst v qs n st ->
  let sent := a_sent st in let chunks := flat_map req_chunks sent in
  sumN (map (fun q => q_end q - q_start q) sent) + 32 * 1024 * lenN sent <=
  sumN (map c_size chunks) + 32 * 1024 * lenN chunks.
Proof.
  intros HS HZ HN HST.
  destruct (C61_limit _ _ _ _ _ _ _ _ _ _ _ HST) as (_ & (rest & Eq) & _).
  inversion HST as [? ? ? ? E1 E2 _]; subst v0 qs0 n0 st0.
  unfold s3_new in HN. apply bind_ok in HN as (csz & _ & HN). injection HN as <-. cbn [s3_ds] in *.
  apply bind_ok in E2 as (gs & EG & EQ).
  assert (HW : Forall (fun g => c_addr (g_chunk g) + c_size (g_chunk g) < W64) gs).
  { pose proof (group_chunks m sort fuel ds e gs HS EG) as HC. eapply Forall_impl; [|exact HC]. intros g Hg. now apply HZ. }
  pose proof (C31_sorted sort m fuel ds e gs HS EG) as HB.
  destruct (C32_limits m gs qs (or_intror HW) HB EQ) as [_ L2].
  destruct (S3Group.group_ok m gs qs (or_intror HW) HB EQ) as (_ & HG & _ & _).
  rewrite Eq in L2, HG. apply Forall_app in L2 as [L2 _]. apply Forall_app in HG as [HG _].
  revert L2 HG. generalize (a_sent st) as l. clear.
  induction l as [|q l IH]; intros L2 HG; [reflexivity|].
  inversion L2 as [|? ? P2 L2']; subst. inversion HG as [|? ? Gq HG']; subst. specialize (IH L2' HG').
  cbn [map sumN flat_map] in *.
  assert (SA : forall l1 l2 : list chunk, sumN (map c_size (l1 ++ l2)) = sumN (map c_size l1) + sumN (map c_size l2)).
  { intros l1 l2. induction l1 as [|x l1 IHl]; cbn [app map sumN]; [reflexivity|]. rewrite IHl. apply N.add_assoc. }
  assert (LA : forall l1 l2 : list chunk, lenN (l1 ++ l2) = lenN l1 + lenN l2) by (intros; unfold lenN; rewrite app_length; lia).
  assert (LC : lenN (q :: l) = 1 + lenN l) by (unfold lenN; cbn [length]; lia).
  rewrite SA, LA, LC.
  destruct (rq_some _ Gq) as (d & ss & rest & E1 & E2). destruct (rq_last _ Gq) as (lp & z & zs & E3 & E4).
  assert (H : c_addr z + c_size z - c_addr d + 32 * 1024 <= sumN (map c_size (req_chunks q)) + 32 * 1024 * lenN (req_chunks q)).
  { eapply (range_length (req_chunks q) P2 d z (map fst rest) (map fst lp)); unfold req_chunks.
    - now rewrite E1.
    - rewrite E3, map_app. reflexivity. }
  rewrite E2, E4.
  revert IH H. generalize (sumN (map c_size (req_chunks q))) (lenN (req_chunks q)) (lenN l)
    (sumN (map c_size (flat_map req_chunks l))) (lenN (flat_map req_chunks l)) (sumN (map (fun q0 => q_end q0 - q_start q0) l)).
  clear. intros. lia.
Qed.
Print Assumptions C73_overhead.

(** Four chunks, the last one far away; a selection with elements of all of them. *)
Definition far_ds : dataset :=
  mkDataset (Int 1) 1 LE [mkChunk 1000 10 [0]; mkChunk 1500 10 [10]; mkChunk 2500 10 [20]; mkChunk 90000 10 [30]]
    [40] [10] [10] [1] [1] [1] false None.
Definition far_sel : extents := Extents [SliceCount 5 30].
Lemma far_full : full_dataset far_ds.
Proof.
  constructor; [constructor|..]; try reflexivity.
  - repeat constructor.
  - repeat split; repeat constructor.
Qed.
Lemma far_regular : regular far_ds.
Proof.
  constructor; [constructor; [reflexivity|reflexivity|intros _; cbn; auto|reflexivity]| |].
  - intros c c'. cbn [far_ds d_chunks In]. intros [<-|[<-|[<-|[<-|[]]]]] [<-|[<-|[<-|[<-|[]]]]]; vm_compute; congruence.
  - intros _ c. cbn [far_ds d_chunks In]. intros [<-|[<-|[<-|[<-|[]]]]]; reflexivity.
Qed.
Lemma far_safe : safe_read far_ds far_sel [5] [30] (repeat 0 30) 31.
Proof.
  constructor; auto using far_full, far_regular; try reflexivity; try (cbn; lia).
  - cbn [far_ds d_shape]. sel_in_tac.
Qed.
Definition far_alt : list (list chunk) :=
  [[mkChunk 1000 10 [0]; mkChunk 1500 10 [10]]; [mkChunk 2500 10 [20]]; [mkChunk 90000 10 [30]]].

Example C73_case m inflate srv : exists rs qs st,
  safe_read far_ds far_sel [5] [30] (repeat 0 30) 31 /\ disjoint_chunks far_ds /\ SpecS3.sizes_ok far_ds /\
  s3_new m far_ds srv = Ok rs /\ s3_state m inflate sort_by_addr 31 rs far_sel (repeat 0 30) 30 qs 2 st /\
  map (fun q => (q_start q, q_end q)) (a_sent st) = [(1000, 2510); (90000, 90010)] /\
  another_way (needs far_ds [5] [30]) far_alt.
Proof.
  exists (mkS3 far_ds srv 10).
  assert (EG : exists gs, group_chunk_slices sort_by_addr m 31 far_ds far_sel = Ok gs /\
    map g_chunk gs = d_chunks far_ds /\ exists q1 q2, group_requests m gs = Ok [q1; q2] /\
    [(q_start q1, q_end q1); (q_start q2, q_end q2)] = [(1000, 2510); (90000, 90010)]).
  { destruct m; (eexists; split; [vm_compute; reflexivity|]; split; [reflexivity|]; eexists; eexists; split; reflexivity). }
  destruct EG as (gs & EG & EC & q1 & q2 & EQ & ER).
  exists [q1; q2], (mkA [] [q1; q2] (repeat 0 30) [q1; q2] None).
  split; [exact far_safe|]. split; [|split; [|split; [|split; [|split]]]].
  - intros c c'. cbn [far_ds d_chunks In].
    intros [<-|[<-|[<-|[<-|[]]]]] [<-|[<-|[<-|[<-|[]]]]] H; cbn [c_addr c_size]; try congruence; lia.
  - intros c. cbn [far_ds d_chunks In]. intros [<-|[<-|[<-|[<-|[]]]]]; split; reflexivity.
  - destruct m; reflexivity.
  - constructor.
    + destruct m; reflexivity.
    + cbn [s3_ds]. rewrite EG. exact EQ.
    + eapply ass_step; [apply as_send; cbn; unfold CONCURRENT_REQUESTS; lia|].
      eapply ass_step; [apply (as_send _ _ _ _ _ q2 [] [q1]); cbn; unfold CONCURRENT_REQUESTS; lia|]. constructor.
  - exact ER.
  - assert (HN : forall c, needs far_ds [5] [30] c <-> In c (d_chunks far_ds)).
    { intros c. rewrite <- EC.
      symmetry. exact (safe_group_needs m sort_by_addr 31 far_ds far_sel [5] [30] (repeat 0 30) gs c sort_by_addr_ok far_safe EG). }
    split; [|split].
    + apply Forall_forall. intros S. cbn [far_alt In]. intros [<-|[<-|[<-|[]]]]; split.
      * intros pre c1 c2 post E. destruct pre as [|? [|? [|? ?]]]; try discriminate. injection E as <- <- _. cbn [c_addr c_size]. lia.
      * intros c1 mid c2 E. destruct mid as [|? [|? ?]]; try discriminate. injection E as <- <-. cbn [c_addr c_size]. lia.
      * intros pre c1 c2 post E. destruct pre as [|? [|? ?]]; discriminate.
      * intros c1 mid c2 E. destruct mid; discriminate.
      * intros pre c1 c2 post E. destruct pre as [|? [|? ?]]; discriminate.
      * intros c1 mid c2 E. destruct mid; discriminate.
    + intros S c HS Hc. apply HN. cbn [far_alt far_ds d_chunks In] in *.
      destruct HS as [<-|[<-|[<-|[]]]]; cbn [In] in Hc; intuition.
    + intros c Hc. apply HN in Hc. cbn [far_alt far_ds d_chunks In] in *.
      destruct Hc as [<-|[<-|[<-|[<-|[]]]]].
      * eexists. split; [left; reflexivity|]. now left.
      * eexists. split; [left; reflexivity|]. right. now left.
      * eexists. split; [right; left; reflexivity|]. now left.
      * eexists. split; [right; right; left; reflexivity|]. now left.
Qed.
