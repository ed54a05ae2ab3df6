(** * Proofs about the grouping of segments into requests (C31, C32). *)
From Verif Require Import Base Spec Extent Chunk Dataset Slicer SpecApi GroupProofs S3 SpecS3.

(** Chunks of a request, newest first, with its range. *)
Inductive rgood : N -> N -> list (chunk * list seg3) -> Prop :=
| rg_one c ss : ss <> [] -> c_addr c + c_size c < W64 -> rgood (c_addr c) (c_addr c + c_size c) [(c, ss)]
| rg_more s e c ss c1 ss1 cs : rgood s e ((c1, ss1) :: cs) -> e = c_addr c1 + c_size c1 ->
    ss <> [] -> c_addr c + c_size c < W64 ->
    e <= c_addr c -> c_addr c - e <= COALESCE_GAP -> c_addr c + c_size c - s <= MAX_REQUEST_SZ ->
    rgood s (c_addr c + c_size c) ((c, ss) :: (c1, ss1) :: cs).

Lemma rgood_head s e c ss cs : rgood s e ((c, ss) :: cs) -> e = c_addr c + c_size c /\ ss <> [] /\ e < W64 /\ s <= c_addr c.
Proof.
  intros H. remember ((c, ss) :: cs) as l. revert c ss cs Heql.
  induction H as [c0 ss0 H1 H2|s e c0 ss0 c1 ss1 cs1 H IH He H1 H2 H3 H4 H5]; intros c ss cs [= <- <- <-].
  - repeat split; auto. lia.
  - destruct (IH _ _ _ eq_refl) as (A & B & C & D). repeat split; auto. lia.
Qed.

Lemma rgood_push s e c ss cs x : rgood s e ((c, ss) :: cs) -> rgood s e ((c, x :: ss) :: cs).
Proof. intros H. inversion H; subst; [apply rg_one; auto; discriminate|eapply rg_more; eauto; discriminate]. Qed.

Lemma rgood_cover s e cs : rgood s e cs -> Forall (fun cc => s <= c_addr (fst cc) /\ c_addr (fst cc) + c_size (fst cc) <= e /\ snd cc <> []) cs.
Proof.
  induction 1 as [c0 ss0 H1 H2|s e c0 ss0 c1 ss1 cs1 H IH He H1 H2 H3 H4 H5].
  - repeat constructor; cbn [fst snd]; auto; lia.
  - apply rgood_head in H as (_ & _ & _ & HS). constructor.
    + cbn [fst snd]. repeat split; auto; lia.
    + eapply Forall_impl; [|exact IH]. intros [c ss]; cbn [fst snd]. intros (A & B & C). repeat split; auto; lia.
Qed.

Lemma add64_exact m a b e : (m = Debug \/ a + b < W64) -> add64 m a b = Ok e -> e = a + b /\ a + b < W64.
Proof.
  unfold add64. intros H E. destruct (N.ltb_spec (a + b) W64); [injection E as <-; auto|].
  destruct H as [->|H]; [discriminate|lia].
Qed.

(** Everything newest first. *)
Definition rsegs (q : request) : list gsegment :=
  flat_map (fun '(c, ss) => map (fun '(cur, a, b) => (c, cur, a, b)) ss) (q_chunks q).
Definition raddrs (acc : list request) : list N := flat_map (fun q => map (fun cc => c_addr (fst cc)) (q_chunks q)) acc.

Inductive sdec : list N -> Prop :=
| sd_nil : sdec []
| sd_cons a l : Forall (fun b => b < a) l -> sdec l -> sdec (a :: l).

Definition acc_ok (acc : list request) : Prop :=
  Forall (fun q => rgood (q_start q) (q_end q) (q_chunks q)) acc /\ sdec (raddrs acc).

Lemma step_ok m acc g acc' :
  (m = Debug \/ c_addr (g_chunk g) + c_size (g_chunk g) < W64) ->
  acc_ok acc -> Forall (fun a => a <= c_addr (g_chunk g)) (raddrs acc) ->
  req_step m acc g = Ok acc' ->
  acc_ok acc' /\ Forall (fun a => a <= c_addr (g_chunk g)) (raddrs acc') /\
  exists g', same_place g g' /\ flat_map rsegs acc' = g' :: flat_map rsegs acc /\
    (g_chunk g' = g_chunk g \/ In (g_chunk g') (flat_map (fun q => map fst (q_chunks q)) acc)) /\
    incl (flat_map (fun q => map fst (q_chunks q)) acc') (g_chunk g :: flat_map (fun q => map fst (q_chunks q)) acc).
Proof.
  destruct g as [[[c cur] a] b]. unfold g_chunk. cbn [fst]. intros Hm [HG HS] HA E.
  assert (NEW : Forall (fun x => x < c_addr c) (raddrs acc) ->
     (let* e := add64 m (c_addr c) (c_size c) in Ok (mkReq (c_addr c) e [(c, [(cur, a, b)])] :: acc)) = Ok acc' ->
     acc_ok acc' /\ Forall (fun x => x <= c_addr c) (raddrs acc') /\
     exists g', same_place (c, cur, a, b) g' /\ flat_map rsegs acc' = g' :: flat_map rsegs acc /\
       (fst (fst (fst g')) = c \/ In (fst (fst (fst g'))) (flat_map (fun q => map fst (q_chunks q)) acc)) /\
       incl (flat_map (fun q => map fst (q_chunks q)) acc') (c :: flat_map (fun q => map fst (q_chunks q)) acc)).
  { intros HL E'. apply bind_ok in E' as (e & Ee & E'). injection E' as <-.
    apply add64_exact in Ee as [-> He]; auto. split; [split|split].
    - constructor; auto. cbn [q_start q_end q_chunks]. constructor; [discriminate|auto].
    - unfold raddrs. cbn [flat_map q_chunks map app fst]. constructor; auto.
    - unfold raddrs. cbn [flat_map q_chunks map app fst]. constructor; auto. lia.
    - exists (c, cur, a, b). split; [repeat split|]. split; [reflexivity|]. split; [auto|].
      cbn [flat_map q_chunks map app fst]. apply incl_refl. }
  unfold req_step in E. destruct acc as [|r acc1]; [apply NEW; auto; constructor|].
  inversion HG as [|? ? G1 G2]; subst. destruct r as [rs re [|[c0 ss] cs]]; cbn [q_start q_end q_chunks] in *; [discriminate|].
  destruct (rgood_head _ _ _ _ _ G1) as (He & Hss & Hlt & Hs).
  unfold raddrs in HS, HA. cbn [flat_map q_chunks map app fst] in HS, HA.
  inversion HS as [|? ? D1 D2]; subst. inversion HA as [|? ? A1 A2]; subst.
  destruct (N.eqb_spec (c_addr c0) (c_addr c)) as [EA|NA].
  - injection E as <-. split; [split|split].
    + constructor; auto. cbn [q_start q_end q_chunks]. now apply rgood_push.
    + unfold raddrs. cbn [flat_map q_chunks map app fst]. exact HS.
    + unfold raddrs. cbn [flat_map q_chunks map app fst]. exact HA.
    + exists (c0, cur, a, b). split; [repeat split; auto|]. split; [reflexivity|]. split.
      * right. cbn [flat_map q_chunks map app fst]. now left.
      * cbn [flat_map q_chunks map app fst]. apply incl_tl, incl_refl.
  - assert (HLT : Forall (fun x => x < c_addr c) (raddrs (mkReq rs (c_addr c0 + c_size c0) ((c0, ss) :: cs) :: acc1))).
    { unfold raddrs. cbn [flat_map q_chunks map app fst]. constructor; [lia|].
      eapply Forall_impl; [|exact D1]. cbn beta. intros; lia. }
    destruct (N.leb_spec (c_addr c0 + c_size c0) (c_addr c)) as [Hle|Hle]; cbn [bind] in E; [|now apply NEW].
    unfold sub64 at 1 in E. rewrite (proj2 (N.leb_le _ _) Hle) in E. cbn [bind] in E.
    destruct (N.leb_spec (c_addr c - (c_addr c0 + c_size c0)) COALESCE_GAP) as [Hg|Hg]; cbn [bind] in E; [|now apply NEW].
    destruct (add64 m (c_addr c) (c_size c)) as [e| | | |] eqn:EE; cbn [bind] in E; try discriminate.
    apply add64_exact in EE as HE; auto. destruct HE as [-> HE].
    assert (SUB : sub64 m (c_addr c + c_size c) rs = Ok (c_addr c + c_size c - rs)).
    { unfold sub64. rewrite (proj2 (N.leb_le _ _)); [reflexivity|lia]. }
    rewrite SUB in E. cbn [bind] in E.
    destruct (N.leb_spec (c_addr c + c_size c - rs) MAX_REQUEST_SZ) as [Hx|Hx]; [|apply NEW; auto; rewrite ?EE; exact E].
    injection E as <-. split; [split|split].
    + constructor; auto. cbn [q_start q_end q_chunks]. eapply rg_more; eauto. discriminate.
    + unfold raddrs in *. cbn [flat_map q_chunks map app fst] in *. constructor; auto.
    + unfold raddrs in *. cbn [flat_map q_chunks map app fst] in *. constructor; [lia|]. exact HA.
    + exists (c, cur, a, b). split; [repeat split; auto|]. split; [reflexivity|]. split; [auto|].
      cbn [flat_map q_chunks map app fst]. apply incl_refl.
Qed.

Lemma by_addr_cons g gs : by_addr (g :: gs) -> by_addr gs /\ Forall (fun h => c_addr (g_chunk g) <= c_addr (g_chunk h)) gs.
Proof.
  intros H. split.
  - intros i j x y Hij Hx Hy. apply (H (S i) (S j) x y); auto. lia.
  - apply Forall_forall. intros h Hh. apply In_nth_error in Hh as (j & Hj). apply (H 0%nat (S j) g h); auto. lia.
Qed.

Lemma loop_ok m : forall gs acc acc',
  (m = Debug \/ Forall (fun g => c_addr (g_chunk g) + c_size (g_chunk g) < W64) gs) -> by_addr gs ->
  acc_ok acc -> Forall (fun g => Forall (fun a => a <= c_addr (g_chunk g)) (raddrs acc)) gs ->
  req_loop m acc gs = Ok acc' ->
  acc_ok acc' /\
  exists new, Forall2 same_place gs (rev new) /\ flat_map rsegs acc' = new ++ flat_map rsegs acc /\
    incl (flat_map (fun q => map fst (q_chunks q)) acc') (map g_chunk gs ++ flat_map (fun q => map fst (q_chunks q)) acc).
Proof.
  induction gs as [|g gs IH]; intros acc acc' Hm HB HO HA E; cbn [req_loop] in E.
  - injection E as <-. split; auto. exists []. split; [constructor|]. split; [reflexivity|apply incl_refl].
  - apply bind_ok in E as (acc1 & E1 & E). apply by_addr_cons in HB as [HB HF].
    inversion HA as [|? ? A1 A2]; subst.
    assert (Hm1 : m = Debug \/ c_addr (g_chunk g) + c_size (g_chunk g) < W64).
    { destruct Hm as [|Hm]; auto. inversion Hm; subst; auto. }
    assert (Hm2 : m = Debug \/ Forall (fun g => c_addr (g_chunk g) + c_size (g_chunk g) < W64) gs).
    { destruct Hm as [|Hm]; auto. inversion Hm; subst; auto. }
    destruct (step_ok m acc g acc1 Hm1 HO A1 E1) as (O1 & R1 & g' & SP & EF & _ & INC).
    destruct (IH acc1 acc' Hm2 HB O1) as (O2 & new & F2 & EN & INC2); auto.
    { eapply Forall_impl; [|exact HF]. cbn beta. intros h Hh. eapply Forall_impl; [|exact R1]. cbn beta. intros; lia. }
    split; auto. exists (new ++ [g']). rewrite rev_app_distr. cbn [rev app]. split; [constructor; auto|].
    split; [rewrite EN, EF, <- app_assoc; reflexivity|].
    cbn [map app]. intros x Hx. apply INC2, in_app_iff in Hx as [Hx|Hx]; [right; apply in_app_iff; auto|].
    apply INC in Hx as [<-|Hx]; [now left|right; apply in_app_iff; auto].
Qed.

(** Finished requests, oldest first. *)
Lemma finish_segs q : req_segs (req_finish q) = rev (rsegs q).
Proof.
  unfold req_segs, rsegs, req_finish. cbn [q_chunks].
  set (f := fun '(c, ss) => map (fun '(cur, a, b) => (c, cur, a, b)) ss).
  set (k := fun '(c, ss) => (c, rev ss)).
  induction (q_chunks q) as [|x cs IH]; [reflexivity|].
  cbn [map rev flat_map]. rewrite flat_map_app. unfold seg3 in *. rewrite IH. cbn [flat_map]. rewrite app_nil_r, rev_app_distr. f_equal.
  destruct x as [c ss]. cbn [f k]. now rewrite map_rev.
Qed.
Lemma flat_rev {A B} (f h : A -> list B) (l : list A) (k : A -> A) : (forall x, f (k x) = rev (h x)) ->
  flat_map f (rev (map k l)) = rev (flat_map h l).
Proof.
  intros H. induction l as [|x l IH]; [reflexivity|]. cbn [map rev flat_map].
  rewrite flat_map_app, IH. cbn [flat_map]. now rewrite app_nil_r, rev_app_distr, H.
Qed.

Lemma finish_addrs acc : map c_addr (flat_map req_chunks (rev (map req_finish acc))) = rev (raddrs acc).
Proof.
  rewrite (flat_rev _ (fun q => map fst (q_chunks q))).
  - unfold raddrs. rewrite map_rev. f_equal. induction acc as [|q acc IH]; [reflexivity|].
    cbn [flat_map]. now rewrite map_app, IH, map_map.
  - intros q. unfold req_chunks, req_finish. cbn [q_chunks]. rewrite map_rev, map_map. f_equal.
    apply map_ext. now intros [c ss].
Qed.

Lemma sdec_nodup l : sdec l -> NoDup l.
Proof.
  induction 1 as [|a l H HS IH]; constructor; auto. intros Hin. rewrite Forall_forall in H. specialize (H a Hin). lia.
Qed.
Lemma sdec_sorted l : sdec l -> forall i j x y, (i < j)%nat -> nth_error (rev l) i = Some x -> nth_error (rev l) j = Some y -> x < y.
Proof.
  induction 1 as [|a l H HS IH]; intros i j x y Hij Hi Hj; cbn [rev] in *; [destruct i; discriminate|].
  assert (Hjl : (j < length (rev l ++ [a]))%nat) by (apply nth_error_Some; congruence).
  rewrite app_length in Hjl. cbn [length] in Hjl.
  rewrite nth_error_app1 in Hi by lia.
  destruct (Nat.eq_dec j (length (rev l))) as [->|Hne].
  - rewrite nth_error_app2, Nat.sub_diag in Hj by lia. injection Hj as <-.
    apply nth_error_In, in_rev in Hi. rewrite Forall_forall in H. auto.
  - rewrite nth_error_app1 in Hj by lia. eauto.
Qed.

(** Properties of one finished request. *)
Record req_good (q : request) : Prop := {
  rq_some : exists c ss rest, q_chunks q = (c, ss) :: rest /\ q_start q = c_addr c;
  rq_cover : Forall (fun cc => q_start q <= c_addr (fst cc) /\ c_addr (fst cc) + c_size (fst cc) <= q_end q /\ snd cc <> []) (q_chunks q);
  rq_last : exists pre c ss, q_chunks q = pre ++ [(c, ss)] /\ q_end q = c_addr c + c_size c;
  rq_end : q_end q < W64;
  rq_pairs : forall pre c1 s1 c2 s2 post, q_chunks q = pre ++ (c1, s1) :: (c2, s2) :: post ->
    c_addr c1 + c_size c1 <= c_addr c2 /\ c_addr c2 - (c_addr c1 + c_size c1) <= COALESCE_GAP;
  rq_max : (1 < length (q_chunks q))%nat -> q_end q - q_start q <= MAX_REQUEST_SZ
}.

Lemma rgood_pairs s e cs : rgood s e cs -> forall pre c1 s1 c2 s2 post, cs = pre ++ (c2, s2) :: (c1, s1) :: post ->
    c_addr c1 + c_size c1 <= c_addr c2 /\ c_addr c2 - (c_addr c1 + c_size c1) <= COALESCE_GAP.
Proof.
  induction 1 as [c0 ss0 H1 H2|s e c0 ss0 c1 ss1 cs1 H IH He H1 H2 H3 H4 H5]; intros pre d1 s1 d2 s2 post E.
  - destruct pre as [|? [|? ?]]; discriminate.
  - destruct pre as [|p pre].
    + injection E as -> -> -> -> ->. subst e. auto.
    + injection E as _ E. eapply IH; eauto.
Qed.

Lemma finish_good q : rgood (q_start q) (q_end q) (q_chunks q) -> req_good (req_finish q).
Proof.
  intros H. destruct q as [s e cs]. cbn [q_start q_end q_chunks] in H. unfold req_finish. cbn [q_start q_end q_chunks].
  set (f := fun '(c, ss) => (c, rev ss)) in *.
  assert (NE : cs <> []) by (inversion H; discriminate).
  constructor; cbn [q_start q_end q_chunks].
  - induction H as [c0 ss0 H1 H2|s e c0 ss0 c1 ss1 cs1 H IH He H1 H2 H3 H4 H5].
    + exists c0, (rev ss0), []. auto.
    + destruct IH as (c & ss & rest & E & Es); [discriminate|]. cbn [map rev] in *. rewrite E. cbn [app]. eauto.
  - apply Forall_rev. apply Forall_map. eapply Forall_impl; [|exact (rgood_cover _ _ _ H)].
    intros [c ss]; cbn [fst snd f]. intros (A & B & C). repeat split; auto. intros E. apply C.
    rewrite <- (rev_involutive ss), E. reflexivity.
  - destruct cs as [|[c ss] cs]; [congruence|]. cbn [map rev]. exists (rev (map f cs)), c, (rev ss).
    split; [reflexivity|]. now apply rgood_head in H as (? & _).
  - destruct cs as [|[c ss] cs]; [congruence|]. now apply rgood_head in H as (_ & _ & ? & _).
  - intros pre c1 s1 c2 s2 post E. apply (f_equal (@rev _)) in E. rewrite rev_involutive, rev_app_distr in E.
    cbn [rev] in E. rewrite <- !app_assoc in E. cbn [app] in E.
    assert (X : forall l p x y r, map f l = p ++ x :: y :: r -> exists p' x' y' r', l = p' ++ x' :: y' :: r' /\ f x' = x /\ f y' = y).
    { clear. intros l p. revert l. induction p as [|z p IH]; intros l x y r E.
      - destruct l as [|x' [|y' r']]; try discriminate. cbn [map app] in E. injection E as E1 E2 E3.
        exists [], x', y', r'. auto.
      - destruct l as [|z' l]; [discriminate|]. cbn [map app] in E. injection E as _ E. apply IH in E as (p' & x' & y' & r' & -> & A & B).
        exists (z' :: p'), x', y', r'. auto. }
    apply X in E as (p' & [x1 x2] & [y1 y2] & r' & -> & A & B). cbn [f] in A, B. injection A as -> _. injection B as -> _.
    eapply rgood_pairs; eauto.
  - rewrite rev_length, map_length. intros HL. inversion H; subst; cbn [length] in HL; [lia|auto].
Qed.

Lemma group_ok m gs qs :
  (m = Debug \/ Forall (fun g => c_addr (g_chunk g) + c_size (g_chunk g) < W64) gs) -> by_addr gs ->
  group_requests m gs = Ok qs ->
  Forall2 same_place gs (flat_map req_segs qs) /\
  Forall req_good qs /\
  (forall i j x y, (i < j)%nat -> nth_error (map c_addr (flat_map req_chunks qs)) i = Some x ->
     nth_error (map c_addr (flat_map req_chunks qs)) j = Some y -> x < y) /\
  incl (flat_map req_chunks qs) (map g_chunk gs).
Proof.
  intros Hm HB E. unfold group_requests in E. apply bind_ok in E as (acc & E & E2). injection E2 as <-.
  destruct (loop_ok m gs [] acc Hm HB) as ([HG HS] & new & F2 & EN & INC); auto.
  { split; constructor. }
  { apply Forall_forall. intros; constructor. }
  cbn [flat_map] in EN, INC. rewrite app_nil_r in EN, INC.
  split; [|split; [|split]].
  - rewrite (flat_rev req_segs rsegs acc req_finish finish_segs), EN. exact F2.
  - apply Forall_rev, Forall_map. eapply Forall_impl; [|exact HG]. intros q. apply finish_good.
  - rewrite finish_addrs. now apply sdec_sorted.
  - rewrite (flat_rev _ (fun q => map fst (q_chunks q))).
    + intros x Hx. apply in_rev in Hx. auto.
    + intros q. unfold req_chunks, req_finish. cbn [q_chunks]. rewrite map_rev, map_map. f_equal.
      apply map_ext. now intros [c ss].
Qed.

Lemma step_total m acc g : c_addr (g_chunk g) + c_size (g_chunk g) < W64 -> acc_ok acc ->
  Forall (fun a => a <= c_addr (g_chunk g)) (raddrs acc) ->
  exists acc', req_step m acc g = Ok acc'.
Proof.
  destruct g as [[[c cur] a] b]. unfold g_chunk. cbn [fst]. intros He [HG HS] HA. unfold req_step.
  assert (AE : add64 m (c_addr c) (c_size c) = Ok (c_addr c + c_size c)).
  { unfold add64. now rewrite (proj2 (N.ltb_lt _ _) He). }
  rewrite AE. cbn [bind]. destruct acc as [|r acc1]; [eauto|].
  inversion HG as [|? ? G1 G2]; subst. destruct r as [rs re [|[c0 ss] cs]]; cbn [q_start q_end q_chunks] in *; [inversion G1|].
  destruct (rgood_head _ _ _ _ _ G1) as (Hre & Hss & Hlt & Hs).
  unfold raddrs in HA. cbn [flat_map q_chunks map app fst] in HA. inversion HA as [|? ? A1 A2]; subst.
  destruct (_ =? _); [eauto|]. destruct (N.leb_spec (c_addr c0 + c_size c0) (c_addr c)); cbn [bind]; [|eauto].
  unfold sub64 at 1. rewrite (proj2 (N.leb_le _ _)) by auto. cbn [bind].
  destruct (_ <=? _); cbn [bind]; [|eauto]. unfold sub64. rewrite (proj2 (N.leb_le rs (c_addr c + c_size c))) by lia.
  cbn [bind]. destruct (_ <=? _); eauto.
Qed.

Lemma group_total m gs : Forall (fun g => c_addr (g_chunk g) + c_size (g_chunk g) < W64) gs -> by_addr gs ->
  exists qs, group_requests m gs = Ok qs.
Proof.
  intros HF HB. unfold group_requests.
  assert (G : forall acc, acc_ok acc -> Forall (fun g => Forall (fun a => a <= c_addr (g_chunk g)) (raddrs acc)) gs ->
            exists acc', req_loop m acc gs = Ok acc').
  { revert HB. induction HF as [|g gs H HF IH]; intros HB acc HO HA; cbn [req_loop]; [eauto|].
    apply by_addr_cons in HB as [HB HL]. inversion HA as [|? ? A1 A2]; subst.
    destruct (step_total m acc g H HO A1) as (acc1 & E1). rewrite E1. cbn [bind].
    destruct (step_ok m acc g acc1 (or_intror H) HO A1 E1) as (O1 & R1 & _). apply IH; auto.
    eapply Forall_impl; [|exact HL]. cbn beta. intros h Hh. eapply Forall_impl; [|exact R1]. cbn beta. intros; lia. }
  destruct (G []) as (acc & E); [split; constructor|apply Forall_forall; intros; constructor|].
  rewrite E. cbn [bind]. eauto.
Qed.

(** ** Requests are separate only if they have to be *)

Inductive asep : list request -> Prop :=
| as_nil : asep []
| as_one r : asep [r]
| as_more r r0 acc c ss cs : q_chunks r = cs ++ [(c, ss)] -> ~ could_join r0 c -> asep (r0 :: acc) -> asep (r :: r0 :: acc).

Lemma last_push {A B} (c0 : A) (s s' : B) cs l c ss : (c0, s) :: cs = l ++ [(c, ss)] ->
  exists l' ss', (c0, s') :: cs = l' ++ [(c, ss')].
Proof.
  destruct l as [|x l]; intros E; cbn [app] in E.
  - injection E as -> -> ->. exists [], s'. reflexivity.
  - injection E as _ ->. exists ((c0, s') :: l), ss. reflexivity.
Qed.

Lemma asep_push rs re c0 s s' cs acc : asep (mkReq rs re ((c0, s) :: cs) :: acc) -> asep (mkReq rs re ((c0, s') :: cs) :: acc).
Proof.
  intros H. inversion H as [|r E1|r r0 acc0 c ss l H1 H2 H3]; subst; [constructor|].
  cbn [q_chunks] in H1. destruct (last_push c0 s s' cs l c ss H1) as (l' & ss' & E).
  eapply as_more; [cbn [q_chunks]; exact E|auto|auto].
Qed.
Lemma asep_grow rs re re' x cs acc : cs <> [] -> asep (mkReq rs re cs :: acc) -> asep (mkReq rs re' (x :: cs) :: acc).
Proof.
  intros HN H. inversion H as [|r E1|r r0 acc0 c ss l H1 H2 H3]; subst; [constructor|].
  cbn [q_chunks] in H1. eapply as_more; [cbn [q_chunks]; rewrite H1; apply (app_comm_cons l [(c, ss)] x)|auto|auto].
Qed.

Lemma step_sep m acc g acc' : c_addr (g_chunk g) + c_size (g_chunk g) < W64 ->
  acc_ok acc -> Forall (fun a => a <= c_addr (g_chunk g)) (raddrs acc) ->
  asep acc -> req_step m acc g = Ok acc' -> asep acc'.
Proof.
  destruct g as [[[c cur] a] b]. unfold g_chunk. cbn [fst]. intros HW [HG _] HA HS E.
  assert (AE : add64 m (c_addr c) (c_size c) = Ok (c_addr c + c_size c)).
  { unfold add64. now rewrite (proj2 (N.ltb_lt _ _) HW). }
  unfold req_step in E. rewrite AE in E. cbn [bind] in E.
  destruct acc as [|[rs re [|[c0 ss] cs]] acc1]; [injection E as <-; constructor|discriminate|].
  inversion HG as [|? ? G1 G2]; subst. cbn [q_start q_end q_chunks] in *.
  destruct (rgood_head _ _ _ _ _ G1) as (He & Hss & Hlt & Hs).
  unfold raddrs in HA. cbn [flat_map q_chunks map app fst] in HA. inversion HA as [|? ? A1 A2]; subst.
  destruct (_ =? _); [injection E as <-; eapply asep_push; eauto|].
  assert (NEW : forall r, q_chunks r = [(c, [(cur, a, b)])] ->
     ~ could_join (mkReq rs (c_addr c0 + c_size c0) ((c0, ss) :: cs)) c ->
     asep (r :: mkReq rs (c_addr c0 + c_size c0) ((c0, ss) :: cs) :: acc1)).
  { intros r Er HC. eapply as_more with (cs := []); eauto. }
  unfold could_join in NEW. cbn [q_start q_end] in NEW.
  destruct (N.leb_spec (c_addr c0 + c_size c0) (c_addr c)) as [H1|H1]; cbn [bind] in E.
  2:{ injection E as <-. apply NEW; [reflexivity|lia]. }
  unfold sub64 at 1 in E. rewrite (proj2 (N.leb_le _ _) H1) in E. cbn [bind] in E.
  destruct (N.leb_spec (c_addr c - (c_addr c0 + c_size c0)) COALESCE_GAP) as [H2|H2]; cbn [bind] in E.
  2:{ injection E as <-. apply NEW; [reflexivity|lia]. }
  unfold sub64 in E. rewrite (proj2 (N.leb_le rs (c_addr c + c_size c))) in E by lia. cbn [bind] in E.
  destruct (N.leb_spec (c_addr c + c_size c - rs) MAX_REQUEST_SZ) as [H3|H3]; cbn [bind] in E; injection E as <-.
  - eapply asep_grow; [discriminate|eauto].
  - apply NEW; [reflexivity|lia].
Qed.

Lemma loop_sep m : forall gs acc acc',
  Forall (fun g => c_addr (g_chunk g) + c_size (g_chunk g) < W64) gs -> by_addr gs ->
  acc_ok acc -> Forall (fun g => Forall (fun a => a <= c_addr (g_chunk g)) (raddrs acc)) gs ->
  asep acc -> req_loop m acc gs = Ok acc' -> asep acc'.
Proof.
  induction gs as [|g gs IH]; intros acc acc' Hm HB HO HA HS E; cbn [req_loop] in E; [congruence|].
  apply bind_ok in E as (acc1 & E1 & E). apply by_addr_cons in HB as [HB HF].
  inversion HA as [|? ? A1 A2]; subst. inversion Hm as [|? ? M1 M2]; subst.
  destruct (step_ok m acc g acc1 (or_intror M1) HO A1 E1) as (O1 & R1 & _).
  apply (IH acc1 acc'); auto.
  - eapply Forall_impl; [|exact HF]. cbn beta. intros h Hh. eapply Forall_impl; [|exact R1]. cbn beta. intros; lia.
  - exact (step_sep m acc g acc1 M1 HO A1 HS E1).
Qed.

Lemma asep_at acc : asep acc -> forall pre r r0 post, acc = pre ++ r :: r0 :: post ->
  exists cs c ss, q_chunks r = cs ++ [(c, ss)] /\ ~ could_join r0 c.
Proof.
  induction 1 as [|r|r r0 acc c ss cs H1 H2 H3 IH]; intros pre x x0 post E.
  - destruct pre; discriminate.
  - destruct pre as [|? [|? ?]]; discriminate.
  - destruct pre as [|p pre]; cbn [app] in E.
    + injection E as <- <- _. eauto.
    + injection E as _ E. eauto.
Qed.

Lemma group_maximal m gs qs : Forall (fun g => c_addr (g_chunk g) + c_size (g_chunk g) < W64) gs -> by_addr gs ->
  group_requests m gs = Ok qs ->
  forall pre q q' post, qs = pre ++ q :: q' :: post ->
  exists c ss rest, q_chunks q' = (c, ss) :: rest /\ ~ could_join q c.
Proof.
  intros Hm HB E pre q q' post Eq. unfold group_requests in E. apply bind_ok in E as (acc & E & E2). injection E2 as E2.
  assert (HS : asep acc).
  { eapply (loop_sep m gs [] acc); eauto; [split; constructor|apply Forall_forall; intros; constructor|constructor]. }
  rewrite Eq in E2. apply (f_equal (@rev _)) in E2. rewrite rev_involutive, rev_app_distr in E2. cbn [rev] in E2.
  rewrite <- !app_assoc in E2. cbn [app] in E2.
  assert (X : forall l p x y r, map req_finish l = p ++ x :: y :: r ->
     exists p' x' y' r', l = p' ++ x' :: y' :: r' /\ req_finish x' = x /\ req_finish y' = y).
  { clear. intros l p. revert l. induction p as [|z p IH]; intros l x y r E.
    - destruct l as [|x' [|y' r']]; try discriminate. cbn [map app] in E. injection E as E1 E2 E3.
      exists [], x', y', r'. auto.
    - destruct l as [|z' l]; [discriminate|]. cbn [map app] in E. injection E as _ E. apply IH in E as (p' & x' & y' & r' & -> & A & B).
      exists (z' :: p'), x', y', r'. auto. }
  apply X in E2 as (p' & x' & y' & r' & -> & <- & <-).
  destruct (asep_at _ HS p' x' y' r' eq_refl) as (cs & c & ss & H1 & H2).
  unfold req_finish at 1. cbn [q_chunks]. rewrite H1, map_app, rev_app_distr. cbn [map rev app].
  eexists c, _, _. split; [reflexivity|]. exact H2.
Qed.
