(** * C97: files whose objects have several links, and link cycles. *)
From Coq Require Import List NArith Lia Bool.
From Verif Require Import Base Spec Extent Chunk Dataset IndexTree SpecTree LinkGraph TreeProofs Properties7 Examples.
Import ListNotations.
Open Scope N_scope.

(** ** Specification *)

(** [linked F a cs b]: the names [cs] lead from the group at [a] to the object at [b]. *)
Inductive linked (F : h5file) : N -> list str -> N -> Prop :=
| lk_here a : linked F a [] a
| lk_down a ok links c a1 cs b : obj F a = OGroup ok links -> In (c, a1) links -> linked F a1 cs b -> linked F a (c :: cs) b.
Definition is_group (F : h5file) (a : N) : Prop := exists ok links, obj F a = OGroup ok links.
(** Some group that can be reached contains itself. *)
Definition cyclic (F : h5file) (root : N) : Prop := exists cs a cs', linked F root cs a /\ is_group F a /\ cs' <> [] /\ linked F a cs' a.
(** Link names are distinct within a group, are not empty and contain no slash. *)
Definition links_named (F : h5file) : Prop := forall a ok links, obj F a = OGroup ok links ->
  NoDup (map fst links) /\ Forall (fun kb => fst kb <> [] /\ slash_free (fst kb)) links.
(** Nothing that can be reached makes indexing fail. *)
Definition indexable (m : mode) (F : h5file) (root : N) : Prop := forall cs b, linked F root cs b ->
  match obj F b with
  | OGroup ok _ => ok = true
  | OData d => has_storage d -> exists ds, datasetd_index m d = Ok ds
  | OOther => True
  end.
(** The tree one sees when going down from [a] along the links. *)
Inductive seen (F : h5file) : N -> h5group -> Prop :=
| seen_mk a ok links l : obj F a = OGroup ok links -> Forall2 (seen_link F) links l -> seen F a (mkHG ok l)
with seen_link (F : h5file) : (str * N) -> (str * h5member) -> Prop :=
| sl_group k b g : seen F b g -> seen_link F (k, b) (k, HGroup g)
| sl_data k b d : obj F b = OData d -> seen_link F (k, b) (k, HData d)
| sl_other k b : obj F b = OOther -> seen_link F (k, b) (k, HBroken).

(** ** The tree *)

Section F.
Context (F : h5file).

Definition member_of (unf : N -> option h5group) (b : N) : option h5member :=
  match obj F b with
  | OGroup _ _ => match unf b with Some g => Some (HGroup g) | None => None end
  | OData d => Some (HData d)
  | OOther => Some HBroken
  end.
Fixpoint members_of (unf : N -> option h5group) (l : list (str * N)) : option (list (str * h5member)) :=
  match l with
  | [] => Some []
  | (k, b) :: l' => match member_of unf b, members_of unf l' with Some x, Some r => Some ((k, x) :: r) | _, _ => None end
  end.
Fixpoint unf (fuel : nat) (a : N) : option h5group :=
  match fuel with
  | O => None
  | S fuel' =>
      match obj F a with
      | OGroup ok links => match members_of (unf fuel') links with Some l => Some (mkHG ok l) | None => None end
      | _ => None
      end
  end.

Lemma members_seen f links l : (forall b g, f b = Some g -> seen F b g) -> members_of f links = Some l -> Forall2 (seen_link F) links l.
Proof.
  intros HF. revert l. induction links as [|[k b] links IH]; intros l H; cbn [members_of] in H; [injection H as <-; constructor|].
  unfold member_of in H. destruct (obj F b) as [ok lk|d|] eqn:E.
  - destruct (f b) as [g|] eqn:Ef; [|discriminate]. destruct (members_of f links); [|discriminate]. injection H as <-. constructor; auto. apply sl_group; auto.
  - destruct (members_of f links); [|discriminate]. injection H as <-. constructor; auto. now apply sl_data.
  - destruct (members_of f links); [|discriminate]. injection H as <-. constructor; auto. now apply sl_other.
Qed.
Lemma unf_seen : forall fuel a g, unf fuel a = Some g -> seen F a g.
Proof.
  induction fuel as [|fuel IH]; intros a g H; [discriminate|]. cbn [unf] in H. destruct (obj F a) as [ok links|d|] eqn:E; try discriminate.
  destruct (members_of (unf fuel) links) as [l|] eqn:El; [|discriminate]. injection H as <-. apply (seen_mk F a ok links l E).
  eapply members_seen; eauto.
Qed.
Lemma members_mono f f' links l : (forall b g, f b = Some g -> f' b = Some g) -> members_of f links = Some l -> members_of f' links = Some l.
Proof.
  intros HF. revert l. induction links as [|[k b] links IH]; intros l H; cbn [members_of] in *; auto. unfold member_of in *.
  destruct (obj F b) as [ok lk|d|] eqn:E.
  - destruct (f b) as [g|] eqn:Ef; [|discriminate]. rewrite (HF _ _ Ef). destruct (members_of f links); [|discriminate]. now rewrite (IH _ eq_refl).
  - destruct (members_of f links); [|discriminate]. now rewrite (IH _ eq_refl).
  - destruct (members_of f links); [|discriminate]. now rewrite (IH _ eq_refl).
Qed.
Lemma unf_mono : forall fuel fuel' a g, (fuel <= fuel')%nat -> unf fuel a = Some g -> unf fuel' a = Some g.
Proof.
  induction fuel as [|fuel IH]; intros fuel' a g Hle H; [discriminate|]. destruct fuel' as [|fuel']; [lia|]. cbn [unf] in *.
  destruct (obj F a) as [ok links|d|]; try discriminate. destruct (members_of (unf fuel) links) as [l|] eqn:El; [|discriminate].
  rewrite (members_mono (unf fuel) (unf fuel') links l); auto. intros b g' Hb. apply IH; auto. lia.
Qed.
Lemma members_sub f links l : members_of f links = Some l -> forall k b, In (k, b) links -> is_group F b -> exists g, f b = Some g.
Proof.
  revert l. induction links as [|[k' b'] links IH]; intros l H k b Hin (ok & lk & E); [destruct Hin|]. cbn [members_of] in H.
  destruct (member_of f b') as [x|] eqn:E1; [|discriminate]. destruct (members_of f links) as [r|] eqn:E2; [|discriminate].
  destruct Hin as [Hin|Hin]; [injection Hin as <- <-|eapply IH; eauto; now exists ok, lk].
  unfold member_of in E1. rewrite E in E1. destruct (f b'); [eauto|discriminate].
Qed.
Lemma unf_down a cs b : linked F a cs b -> forall fuel g, unf fuel a = Some g -> is_group F b ->
  (length cs < fuel)%nat /\ exists g', unf (fuel - length cs) b = Some g'.
Proof.
  induction 1 as [a|a ok links c a1 cs b E Hin H IH]; intros fuel g Hu Hb; cbn [length].
  - destruct fuel; [discriminate|]. split; [lia|]. replace (S fuel - 0)%nat with (S fuel) by lia. eauto.
  - destruct fuel as [|fuel]; [discriminate|]. cbn [unf] in Hu. rewrite E in Hu.
    destruct (members_of (unf fuel) links) as [l|] eqn:El; [|discriminate].
    assert (G1 : is_group F a1). { inversion H as [|? ok' lk' ? ? ? ? E']; subst; auto. exists ok', lk'. auto. }
    destruct (members_sub _ _ _ El c a1 Hin G1) as (g1 & Hg1). destruct (IH fuel g1 Hg1 Hb) as (H1 & g' & H2). split; [lia|].
    exists g'. now replace (S fuel - S (length cs))%nat with (fuel - length cs)%nat by lia.
Qed.
Lemma no_cycle a cs : linked F a cs a -> cs <> [] -> is_group F a -> forall fuel g, unf fuel a <> Some g.
Proof.
  intros HL HN HG. induction fuel as [fuel IH] using (well_founded_induction Wf_nat.lt_wf). intros g Hu.
  destruct (unf_down a cs a HL fuel g Hu HG) as (H1 & g' & H2). apply (IH (fuel - length cs)%nat) in H2; auto.
  destruct cs; [congruence|cbn [length]; lia].
Qed.
Lemma cyclic_unf root : cyclic F root -> forall fuel, unf fuel root = None.
Proof.
  intros (cs & a & cs' & H1 & HG & HN & H2) fuel. destruct (unf fuel root) as [g|] eqn:E; auto. exfalso.
  destruct (unf_down root cs a H1 fuel g E HG) as (_ & g' & X). eapply no_cycle; eauto.
Qed.

(** *** Deep files are cyclic *)

Inductive chain : N -> list N -> Prop :=
| ch_nil a : chain a []
| ch_cons a ok links c b l : obj F a = OGroup ok links -> In (c, b) links -> is_group F b -> chain b l -> chain a (b :: l).
Lemma members_none f links : members_of f links = None -> exists k b, In (k, b) links /\ is_group F b /\ f b = None.
Proof.
  induction links as [|[k b] links IH]; intros H; cbn [members_of] in H; [discriminate|].
  destruct (member_of f b) as [x|] eqn:E1.
  - destruct (members_of f links); [discriminate|]. destruct (IH eq_refl) as (k' & b' & X & Y). exists k', b'. split; auto. now right.
  - unfold member_of in E1. destruct (obj F b) as [ok lk|d|] eqn:E; try discriminate. exists k, b. split; [now left|]. split; [now exists ok, lk|].
    now destruct (f b).
Qed.
Lemma unf_none : forall fuel a, unf fuel a = None -> is_group F a -> exists l, chain a l /\ length l = fuel.
Proof.
  induction fuel as [|fuel IH]; intros a H HG; [exists []; split; [constructor|auto]|]. destruct HG as (ok & links & E). cbn [unf] in H. rewrite E in H.
  destruct (members_of (unf fuel) links) eqn:El; [discriminate|]. destruct (members_none _ _ El) as (k & b & H1 & H2 & H3).
  destruct (IH b H3 H2) as (l & L1 & L2). exists (b :: l). split; [econstructor; eauto|cbn; lia].
Qed.
Lemma group_in a : is_group F a -> In a (map fst F).
Proof.
  intros (ok & links & E). induction F as [|[b o] F' IH]; cbn [obj] in E; [discriminate|]. destruct (N.eqb_spec a b) as [->|]; [now left|right; auto].
Qed.
Lemma chain_in a l : chain a l -> incl l (map fst F).
Proof. induction 1 as [a|a ok links c b l E Hin HG H IH]; [easy|]. intros x [<-|Hx]; [now apply group_in|now apply IH]. Qed.
Lemma repeated (l : list N) : ~ NoDup l -> exists x l1 l2 l3, l = l1 ++ x :: l2 ++ x :: l3.
Proof.
  induction l as [|y l IH]; intros H; [destruct H; constructor|]. destruct (in_dec N.eq_dec y l) as [Hi|Hi].
  - apply in_split in Hi as (l2 & l3 & ->). exists y, [], l2, l3. reflexivity.
  - destruct IH as (x & l1 & l2 & l3 & ->); [intros X; apply H; now constructor|]. exists x, (y :: l1), l2, l3. reflexivity.
Qed.
Lemma chain_split l1 x l2 : forall a, chain a (l1 ++ x :: l2) -> exists cs, cs <> [] /\ linked F a cs x /\ is_group F x /\ chain x l2.
Proof.
  induction l1 as [|y l1 IH]; intros a H; cbn [app] in H; inversion H as [|? ok links c b l E Hin HG HC]; subst.
  - exists [c]. split; [discriminate|]. split; [|auto]. eapply lk_down; eauto. constructor.
  - destruct (IH y HC) as (cs & H1 & H2 & H3). exists (c :: cs). split; [discriminate|]. split; auto. eapply lk_down; eauto.
Qed.
Lemma acyclic_unf root : is_group F root -> ~ cyclic F root -> exists t, unf (S (length F)) root = Some t.
Proof.
  intros HG HN. destruct (unf (S (length F)) root) as [t|] eqn:E; [eauto|]. exfalso. apply HN.
  destruct (unf_none _ _ E HG) as (l & HC & HL).
  assert (ND : ~ NoDup l). { intros X. pose proof (NoDup_incl_length X (chain_in _ _ HC)) as Y. rewrite map_length in Y. lia. }
  destruct (repeated l ND) as (x & l1 & l2 & l3 & ->). destruct (chain_split l1 x _ root HC) as (cs & _ & H1 & H2 & H3).
  destruct (chain_split l2 x l3 x H3) as (cs' & H4 & H5 & _). exists cs, x, cs'. auto.
Qed.

(** *** What the indexer does *)

Lemma seen_datasets m links l : Forall2 (seen_link F) links l -> link_datasets m F links = index_datasets m l.
Proof.
  induction 1 as [|[k b] [k' x] links l H HF IH]; auto. cbn [link_datasets index_datasets].
  inversion H as [k1 b1 g HS|k1 b1 d E|k1 b1 E]; subst.
  - inversion HS as [a ok lk l' E]; subst. now rewrite E.
  - rewrite E. rewrite IH. reflexivity.
  - now rewrite E.
Qed.
Lemma link_unf m path : forall fuel a t name, unf fuel a = Some t -> link_group fuel m F path name a = Some (index_group m path name t).
Proof.
  induction fuel as [|fuel IH]; intros a t name H; [discriminate|]. cbn [unf] in H. cbn [link_group].
  destruct (obj F a) as [ok links|d|]; try discriminate. destruct (members_of (unf fuel) links) as [l|] eqn:El; [|discriminate].
  injection H as <-. cbn [index_group]. destruct ok; [|reflexivity].
  rewrite (seen_datasets m links l) by (eapply members_seen; eauto using unf_seen).
  destruct (index_datasets m l) as [ds| | | |]; cbn [bind failed]; try reflexivity.
  match goal with |- match ?s links with _ => _ end = Some (let* gs := ?t l in _) => assert (X : s links = Some (t l)); [|rewrite X; reflexivity] end.
  clear ds. revert l El. induction links as [|[k b] links IHl]; intros l El; cbn [members_of] in El; [injection El as <-; reflexivity|].
  destruct (member_of (unf fuel) b) as [x|] eqn:E1; [|discriminate]. destruct (members_of (unf fuel) links) as [r|] eqn:E2; [|discriminate].
  injection El as <-. specialize (IHl r eq_refl). unfold member_of in E1. destruct (obj F b) as [ok lk|d|] eqn:Eb.
  - destruct (unf fuel b) as [g|] eqn:Eg; [|discriminate]. injection E1 as <-. rewrite (IH b g _ Eg).
    destruct (index_group m path (name ++ SLASH :: k) g) as [y| | | |]; cbn [bind failed]; try reflexivity. rewrite IHl. reflexivity.
  - injection E1 as <-. exact IHl.
  - injection E1 as <-. exact IHl.
Qed.
Lemma link_ok m path : forall fuel a name x, link_group fuel m F path name a = Some (Ok x) -> exists t, unf fuel a = Some t.
Proof.
  induction fuel as [|fuel IH]; intros a name x H; [discriminate|]. cbn [link_group] in H. cbn [unf].
  destruct (obj F a) as [ok links|d|]; try discriminate. destruct ok; [|discriminate].
  destruct (link_datasets m F links) as [ds| | | |]; cbn [failed] in H; try discriminate.
  match type of H with match ?s links with _ => _ end = _ => set (sub := s) in H end.
  assert (S : exists gs, sub links = Some (Ok gs)).
  { destruct (sub links) as [[gs| | | |]|]; cbn [bind] in H; try discriminate. eauto. }
  clear H. destruct S as (gs & HS). assert (X : exists l, members_of (unf fuel) links = Some l); [|destruct X as (l & ->); eauto].
  revert gs HS. induction links as [|[k b] links IHl]; intros gs HS; cbn [members_of]; [eauto|]. cbn in HS. unfold member_of.
  destruct (obj F b) as [ok lk|d|] eqn:Eb.
  - destruct (link_group fuel m F path (name ++ SLASH :: k) b) as [[y| | | |]|] eqn:Ey; cbn [failed] in HS; try discriminate.
    fold sub in HS. destruct (sub links) as [[gs'| | | |]|] eqn:Es; cbn [bind] in HS; try discriminate.
    destruct (IH _ _ _ Ey) as (g & ->). destruct (IHl gs' eq_refl) as (l & ->). eauto.
  - fold sub in HS. destruct (IHl gs HS) as (l & ->). eauto.
  - fold sub in HS. destruct (IHl gs HS) as (l & ->). eauto.
Qed.
Lemma alloc_storage d : allocated d = true <-> has_storage d.
Proof.
  unfold allocated, has_storage. rewrite orb_true_iff. destruct (h_offset d); split; intros [H|H]; auto; try discriminate; try (right; congruence); now left.
Qed.
Lemma indexable_datasets m a ok links : indexable m F a -> obj F a = OGroup ok links -> exists ds, link_datasets m F links = Ok ds.
Proof.
  intros HI E. assert (X : forall k b, In (k, b) links -> match obj F b with OData d => has_storage d -> exists ds, datasetd_index m d = Ok ds | _ => True end).
  { intros k b Hin. specialize (HI [k] b). destruct (obj F b); auto. apply HI. eapply lk_down; eauto. constructor. }
  clear E HI. induction links as [|[k b] links IH]; cbn [link_datasets]; [eauto|]. destruct IH as (r & ->); [intros; apply (X k0); now right|].
  specialize (X k b ltac:(now left)). destruct (obj F b) as [ok' lk|d|]; eauto. destruct (allocated d) eqn:Ea; [|eauto].
  destruct (X (proj1 (alloc_storage d) Ea)) as (ds & ->). cbn [bind]. eauto.
Qed.
Lemma indexable_ok m path : forall fuel a name x, indexable m F a -> is_group F a -> link_group fuel m F path name a = Some x -> exists g, x = Ok g.
Proof.
  induction fuel as [|fuel IH]; intros a name x HI (ok & links & E) H; [discriminate|]. cbn [link_group] in H. rewrite E in H.
  assert (Hok : ok = true) by (specialize (HI [] a (lk_here F a)); now rewrite E in HI). subst ok.
  destruct (indexable_datasets m a true links HI E) as (ds & Ed). rewrite Ed in H.
  match type of H with match ?s links with _ => _ end = _ => set (sub := s) in H end.
  assert (S : forall y, sub links = Some y -> exists gs, y = Ok gs).
  { assert (HI' : forall k b, In (k, b) links -> indexable m F b).
    { intros k b Hin cs b' HL. apply (HI (k :: cs)). eapply lk_down; eauto. }
    clear H E Ed. induction links as [|[k b] links IHl]; intros y Hy; cbn in Hy; [injection Hy as <-; eauto|]. fold sub in Hy.
    assert (IHl' := IHl (fun k' b' h => HI' k' b' (or_intror h))). destruct (obj F b) as [ok lk|d|] eqn:Eb; auto.
    destruct (link_group fuel m F path (name ++ SLASH :: k) b) as [z|] eqn:Ez; [|discriminate].
    destruct (IH b _ z (HI' k b ltac:(now left)) ltac:(now exists ok, lk) Ez) as (g & ->).
    destruct (sub links) as [w|] eqn:Ew; [|discriminate]. destruct (IHl' w eq_refl) as (gs & ->). cbn [bind] in Hy. injection Hy as <-. eauto. }
  destruct (sub links) as [y|] eqn:Ey; [|discriminate]. destruct (S y eq_refl) as (gs & ->). cbn [bind] in H. injection H as <-. eauto.
Qed.
End F.

(** *** Paths *)

Section G.
Context (F : h5file).
Lemma members_in f links l : members_of F f links = Some l -> map fst l = map fst links /\
  (forall c g, In (c, HGroup g) l <-> exists b, In (c, b) links /\ is_group F b /\ f b = Some g) /\
  (forall c d, In (c, HData d) l <-> exists b, In (c, b) links /\ obj F b = OData d).
Proof.
  revert l. induction links as [|[k b] links IH]; intros l H; cbn [members_of] in H.
  - injection H as <-. split; auto. split; intros c ?; (split; [intros []|intros (b & [] & _)]).
  - destruct (member_of F f b) as [x|] eqn:E1; [|discriminate]. destruct (members_of F f links) as [r|] eqn:E2; [|discriminate]. injection H as <-.
    destruct (IH r eq_refl) as (A & B & C). cbn [map fst In]. rewrite A. split; auto. unfold member_of in E1. split.
    + intros c g. rewrite B. split.
      * intros [E|(b' & H1 & H2)]; [|exists b'; auto]. injection E as <- ->. exists b. split; auto.
        destruct (obj F b) as [ok lk|d|] eqn:Eb; try discriminate. destruct (f b) as [g'|]; [|discriminate]. injection E1 as ->. split; auto. now exists ok, lk.
      * intros (b' & [E|H1] & (ok & lk & Eb) & H2); [left|right; exists b'; split; auto; split; auto; now exists ok, lk]. injection E as <- <-.
        rewrite Eb, H2 in E1. now injection E1 as <-.
    + intros c d. rewrite C. split.
      * intros [E|(b' & H1 & H2)]; [|exists b'; auto]. injection E as <- ->. exists b. split; auto.
        destruct (obj F b) as [ok lk|d'|] eqn:Eb; try discriminate; [destruct (f b); discriminate|]. now injection E1 as ->.
      * intros (b' & [E|H1] & H2); [left|right; eauto]. injection E as <- <-. rewrite H2 in E1. now injection E1 as <-.
Qed.
Lemma unf_named : links_named F -> forall fuel a g, unf F fuel a = Some g -> named g.
Proof.
  intros HN. induction fuel as [|fuel IH]; intros a g H; [discriminate|]. cbn [unf] in H. destruct (obj F a) as [ok links|d|] eqn:E; try discriminate.
  destruct (members_of F (unf F fuel) links) as [l|] eqn:El; [|discriminate]. injection H as <-. destruct (members_in _ _ _ El) as (A & B & _).
  destruct (HN _ _ _ E) as [N1 N2]. constructor.
  - now rewrite A.
  - rewrite Forall_forall in *. intros [k x] Hin. apply (in_map fst) in Hin. rewrite A in Hin. apply in_map_iff in Hin as ([k' b] & Ek & Hin).
    cbn [fst] in *. subst k'. exact (N2 _ Hin).
  - intros c g Hin. apply B in Hin as (b & _ & _ & Hb). eapply IH; eauto.
Qed.
Lemma unf_groups : forall cs fuel a t, unf F fuel a = Some t -> forall g,
  h5_group t cs g <-> exists b fuel', linked F a cs b /\ (fuel = length cs + fuel')%nat /\ is_group F b /\ unf F fuel' b = Some g.
Proof.
  induction cs as [|c cs IH]; intros fuel a t H g.
  - split.
    + intros X. inversion X; subst. exists a, fuel. repeat split; auto; [constructor|]. destruct fuel; [discriminate|]. cbn [unf] in H.
      destruct (obj F a) as [ok links|d|] eqn:E; try discriminate. now exists ok, links.
    + intros (b & fuel' & HL & -> & _ & Hb). inversion HL; subst. cbn [length Nat.add] in H. rewrite H in Hb. injection Hb as ->. constructor.
  - destruct fuel as [|fuel]; [discriminate|]. cbn [unf] in H. destruct (obj F a) as [ok links|d|] eqn:E; try discriminate.
    destruct (members_of F (unf F fuel) links) as [l|] eqn:El; [|discriminate]. injection H as <-. destruct (members_in _ _ _ El) as (_ & B & _). split.
    + intros X. inversion X as [|g0 c0 g1 cs0 g' Hin Hd]; subst. cbn [h_members] in Hin. apply B in Hin as (b & H1 & H2 & H3).
      apply (IH _ _ _ H3) in Hd as (b' & fuel' & K1 & -> & K2 & K3). exists b', fuel'. repeat split; auto. eapply lk_down; eauto.
    + intros (b & fuel' & HL & Ef & HG & Hb). inversion HL as [|a0 ok0 links0 c0 a1 cs0 b0 E0 Hin HL']; subst. rewrite E in E0. injection E0 as <- <-.
      cbn [length] in Ef. assert (Ef' : fuel = (length cs + fuel')%nat) by lia.
      assert (G1 : is_group F a1). { inversion HL' as [|? ok' lk' ? ? ? ? E']; subst; auto. exists ok', lk'. auto. }
      destruct (members_sub _ _ _ _ El c a1 Hin G1) as (g1 & Hg1). apply (hg_down _ c g1).
      * cbn [h_members]. apply B. eauto.
      * apply (IH _ _ _ Hg1). exists b, fuel'. auto.
Qed.
Lemma linked_snoc a cs x b : linked F a (cs ++ [x]) b <-> exists a1 ok links, linked F a cs a1 /\ obj F a1 = OGroup ok links /\ In (x, b) links.
Proof.
  revert a. induction cs as [|c cs IH]; intros a; cbn [app].
  - split.
    + intros H. inversion H as [|? ok links ? a1 ? ? E Hin HL]; subst. inversion HL; subst. exists a, ok, links. split; [constructor|auto].
    + intros (a1 & ok & links & HL & E & Hin). inversion HL; subst. eapply lk_down; eauto. constructor.
  - split.
    + intros H. inversion H as [|? ok links ? a1 ? ? E Hin HL]; subst. apply IH in HL as (a2 & ok2 & l2 & K1 & K2 & K3). exists a2, ok2, l2. split; auto. eapply lk_down; eauto.
    + intros (a1 & ok & links & HL & E & Hin). inversion HL as [|? ok2 l2 ? a2 ? ? E2 Hin2 HL2]; subst. eapply lk_down; eauto. apply IH. eauto 6.
Qed.
Lemma unf_dataset fuel a t : unf F fuel a = Some t -> forall cs x d,
  h5_dataset t cs x d <-> exists b, linked F a (cs ++ [x]) b /\ obj F b = OData d.
Proof.
  intros H cs x d. split.
  - intros (g & Hg & Hin). apply (unf_groups cs fuel a t H) in Hg as (b & fuel' & K1 & K2 & (ok & links & Eb) & K3).
    destruct fuel' as [|fuel']; [discriminate|]. cbn [unf] in K3. rewrite Eb in K3. destruct (members_of F (unf F fuel') links) as [l|] eqn:El; [|discriminate].
    injection K3 as <-. destruct (members_in _ _ _ El) as (_ & _ & C). cbn [h_members] in Hin. apply C in Hin as (b' & H1 & H2). exists b'. split; auto.
    apply linked_snoc. eauto 6.
  - intros (b & HL & Eb). apply linked_snoc in HL as (a1 & ok & links & K1 & K2 & K3).
    assert (HG : is_group F a1) by now exists ok, links.
    destruct (unf_down F a cs a1 K1 fuel t H HG) as (L1 & g & Hg). exists g. split.
    + apply (unf_groups cs fuel a t H). exists a1, (fuel - length cs)%nat. repeat split; auto. lia.
    + destruct (fuel - length cs)%nat as [|n]; [discriminate|]. cbn [unf] in Hg. rewrite K2 in Hg.
      destruct (members_of F (unf F n) links) as [l|] eqn:El; [|discriminate]. injection Hg as <-. destruct (members_in _ _ _ El) as (_ & _ & C).
      cbn [h_members]. apply C. eauto.
Qed.
End G.

(** ** The theorems *)

(** A file without link cycles is indexed as the tree one sees from its root, however many links lead to its objects; the
    calls nest no deeper than the file has objects, and one. *)
Theorem C97_acyclic m path F root : is_group F root -> ~ cyclic F root -> exists t, seen F root t /\
  forall fuel, (length F < fuel)%nat -> index_links fuel m path F root = Some (index_file m path t).
Proof.
  intros HG HN. destruct (acyclic_unf F root HG HN) as (t & Ht). exists t. split; [eapply unf_seen; eauto|]. intros fuel Hf. unfold index_links, index_file.
  rewrite (link_unf F m path fuel root t []); auto. eapply unf_mono; [|exact Ht]. lia.
Qed.
Print Assumptions C97_acyclic.

(** With a link cycle indexing never succeeds; if nothing else makes it fail before, the calls nest without end. *)
Theorem C97_cyclic m path F root : cyclic F root ->
  (forall fuel i, index_links fuel m path F root <> Some (Ok i)) /\
  (indexable m F root -> forall fuel, index_links fuel m path F root = None).
Proof.
  intros HC. pose proof (cyclic_unf F root HC) as HU. assert (A : forall fuel g, link_group fuel m F path [] root <> Some (Ok g)).
  { intros fuel g E. destruct (link_ok F m path fuel root [] g E) as (t & Et). rewrite HU in Et. discriminate. }
  split.
  - intros fuel i. unfold index_links. destruct (link_group fuel m F path [] root) as [[g| | | |]|] eqn:E; cbn [bind]; try discriminate. destruct (A fuel g E).
  - intros HI fuel. unfold index_links. destruct (link_group fuel m F path [] root) as [x|] eqn:E; auto. exfalso.
    destruct (indexable_ok F m path fuel root [] x HI) with (2 := E) as (g & ->); [|now apply (A fuel g)].
    destruct HC as (cs & a & cs' & H1 & HG & _). inversion H1 as [|? ok lk ? ? ? ? E']; subst; auto. exists ok, lk. auto.
Qed.
Print Assumptions C97_cyclic.

(** What is found in the index of a file: exactly what its links lead to. *)
Theorem C97_paths m path F root fuel i : links_named F -> index_links fuel m path F root = Some (Ok i) ->
  (forall gs x k ds, Forall (fun c => c <> [] /\ slash_free c) (gs ++ [x]) ->
     (gi_dataset (i_root i) (slashes k ++ joined (gs ++ [x])) = Some ds <->
      exists b d, linked F root (gs ++ [x]) b /\ obj F b = OData d /\ has_storage d /\ datasetd_index m d = Ok ds)) /\
  forall fuel', (fuel <= fuel')%nat -> index_links fuel' m path F root = Some (Ok i).
Proof.
  intros HN H. unfold index_links in H. destruct (link_group fuel m F path [] root) as [[g| | | |]|] eqn:E; cbn [bind] in H; try discriminate.
  injection H as <-. destruct (link_ok F m path fuel root [] g E) as (t & Et).
  assert (Ei : forall fuel', (fuel <= fuel')%nat -> index_links fuel' m path F root = Some (index_file m path t)).
  { intros fuel' Hf. unfold index_links, index_file. rewrite (link_unf F m path fuel' root t []); auto. eapply unf_mono; eauto. }
  assert (Eg : index_file m path t = Ok (mkIndex path g)).
  { specialize (Ei fuel (le_n _)). unfold index_links in Ei. rewrite E in Ei. now injection Ei. }
  split; [|intros fuel' Hf; rewrite Ei by auto; now rewrite Eg].
  intros gs x k ds HF. destruct (C43_exact m path t _ (unf_named F HN fuel root t Et) Eg) as (C & _). rewrite (C gs x HF k ds). split.
  - intros (d & H1 & H2 & H3). apply (unf_dataset F fuel root t Et) in H1 as (b & K1 & K2). eauto 6.
  - intros (b & d & H1 & H2 & H3 & H4). exists d. split; auto. apply (unf_dataset F fuel root t Et). eauto.
Qed.
Print Assumptions C97_paths.

(** So all the paths that lead to a dataset find the same. *)
Theorem C97_links m path F root fuel i : links_named F -> index_links fuel m path F root = Some (Ok i) ->
  forall gs x gs' x' k k' b, Forall (fun c => c <> [] /\ slash_free c) (gs ++ [x]) -> Forall (fun c => c <> [] /\ slash_free c) (gs' ++ [x']) ->
  linked F root (gs ++ [x]) b -> linked F root (gs' ++ [x']) b ->
  (exists d, obj F b = OData d) ->
  gi_dataset (i_root i) (slashes k ++ joined (gs ++ [x])) = gi_dataset (i_root i) (slashes k' ++ joined (gs' ++ [x'])).
Proof.
  intros HN H gs x gs' x' k k' b HF HF' HL HL' (d & Hd). destruct (C97_paths m path F root fuel i HN H) as (C & _).
  assert (U : forall cs b', linked F root cs b' -> linked F root cs b -> b' = b).
  { clear - HN. intros cs b' HL. revert b. induction HL as [a|a ok links c a1 cs b1 E Hin HL IH]; intros b HB; [now inversion HB|].
    inversion HB as [|? ok2 links2 ? a2 ? ? E2 Hin2 HL2]; subst. rewrite E in E2. injection E2 as <- <-. destruct (HN _ _ _ E) as [ND _].
    assert (a1 = a2).
    { clear - ND Hin Hin2. induction links as [|[k y] links IH]; [destruct Hin|]. inversion ND as [|? ? N1 N2]; subst.
      destruct Hin as [Hin|Hin], Hin2 as [H2|H2]; auto; [congruence| |]; exfalso; apply N1; [injection Hin as <- <-|injection H2 as <- <-]; apply in_map_iff.
      - exists (k, a2). auto. - exists (k, a1). auto. }
    subst a2. auto. }
  assert (S : forall g1 x1 g2 x2 k1 k2 ds, Forall (fun c => c <> [] /\ slash_free c) (g1 ++ [x1]) -> Forall (fun c => c <> [] /\ slash_free c) (g2 ++ [x2]) ->
    linked F root (g1 ++ [x1]) b -> linked F root (g2 ++ [x2]) b ->
    gi_dataset (i_root i) (slashes k1 ++ joined (g1 ++ [x1])) = Some ds -> gi_dataset (i_root i) (slashes k2 ++ joined (g2 ++ [x2])) = Some ds).
  { intros g1 x1 g2 x2 k1 k2 ds F1 F2 L1 L2 E. apply (C _ _ _ _ F1) in E as (b' & d' & H1 & H2 & H3). apply (C _ _ _ _ F2).
    pose proof (U _ _ H1 L1). subst b'. eauto. }
  destruct (gi_dataset (i_root i) (slashes k ++ joined (gs ++ [x]))) as [ds|] eqn:E1.
  - symmetry. now apply (S gs x gs' x' k k' ds).
  - destruct (gi_dataset (i_root i) (slashes k' ++ joined (gs' ++ [x']))) as [ds|] eqn:E2; auto.
    rewrite (S gs' x' gs x k' k ds) in E1; auto; discriminate.
Qed.
Print Assumptions C97_links.

(** Object 1, the root: a dataset x (object 2) and a group g (object 3), which has a link y to the same dataset and a group h
    (object 4) with a link z to it. In the second file, h also has a link "up" to g. *)
Definition link_file (up : bool) : h5file :=
  [(1, OGroup true [([120], 2); ([103], 3)]); (2, OData ex_h5); (3, OGroup true [([121], 2); ([104], 4); ([98], 99)]);
   (4, OGroup true (([122], 2) :: if up then [([117; 112], 3)] else []))].
Lemma link_obj up a ok links : obj (link_file up) a = OGroup ok links -> a = 1 \/ a = 3 \/ a = 4.
Proof.
  unfold link_file. cbn [obj]. destruct (N.eqb_spec a 1); [auto|]. destruct (N.eqb_spec a 2); [discriminate|].
  destruct (N.eqb_spec a 3); [auto|]. destruct (N.eqb_spec a 4); [auto|discriminate].
Qed.
Example C97_case m :
  (is_group (link_file false) 1 /\ links_named (link_file false) /\ ~ cyclic (link_file false) 1 /\
   exists i ds, index_links 5 m None (link_file false) 1 = Some (Ok i) /\ index_links 3 m None (link_file false) 1 = Some (Ok i) /\
     index_links 2 m None (link_file false) 1 = None /\
     gi_dataset (i_root i) [120] = Some ds /\ gi_dataset (i_root i) [103; 47; 121] = Some ds /\ gi_dataset (i_root i) [47; 103; 47; 104; 47; 122] = Some ds /\
     linked (link_file false) 1 [[120]] 2 /\ linked (link_file false) 1 [[103]; [104]; [122]] 2) /\
  (cyclic (link_file true) 1 /\ indexable m (link_file true) 1 /\ index_links 50 m None (link_file true) 1 = None).
Proof.
  split; [split; [|split; [|split]]|split; [|split]].
  - exists true. eexists. reflexivity.
  - intros a ok links H. pose proof (link_obj false a ok links H) as HA. destruct HA as [-> | [-> | ->]]; cbn in H; injection H as <- <-; cbn [map fst];
      (split; [repeat (constructor; [cbn; intuition discriminate|]); constructor|]);
      repeat (constructor; [cbn [fst]; split; [discriminate|unfold slash_free, SLASH; cbn; intuition discriminate]|]); constructor.
  - intros HC. pose proof (cyclic_unf _ _ HC 5) as X. vm_compute in X. discriminate X.
  - destruct m.
    + eexists. eexists. split; [vm_compute; reflexivity|]. split; [vm_compute; reflexivity|]. split; [vm_compute; reflexivity|].
      split; [vm_compute; reflexivity|]. split; [vm_compute; reflexivity|]. split; [vm_compute; reflexivity|]. split.
      * eapply lk_down; [reflexivity|now left|constructor].
      * eapply lk_down; [reflexivity|right; now left|]. eapply lk_down; [reflexivity|right; now left|]. eapply lk_down; [reflexivity|now left|constructor].
    + eexists. eexists. split; [vm_compute; reflexivity|]. split; [vm_compute; reflexivity|]. split; [vm_compute; reflexivity|].
      split; [vm_compute; reflexivity|]. split; [vm_compute; reflexivity|]. split; [vm_compute; reflexivity|]. split.
      * eapply lk_down; [reflexivity|now left|constructor].
      * eapply lk_down; [reflexivity|right; now left|]. eapply lk_down; [reflexivity|right; now left|]. eapply lk_down; [reflexivity|now left|constructor].
  - exists [[103]], 3, [[104]; [117; 112]]. split; [|split; [|split]].
    + eapply lk_down; [reflexivity|right; now left|constructor].
    + exists true. eexists. reflexivity.
    + discriminate.
    + eapply lk_down; [reflexivity|right; now left|]. eapply lk_down; [reflexivity|right; now left|constructor].
  - intros cs b _. destruct (obj (link_file true) b) as [ok links|d|] eqn:E; auto.
    + pose proof (link_obj true b ok links E) as HA. destruct HA as [-> | [-> | ->]]; cbn in E; now injection E as <- _.
    + intros _. assert (d = ex_h5). { unfold link_file in E. cbn [obj] in E. destruct (b =? 1); [discriminate|]. destruct (b =? 2); [now injection E as <-|].
        destruct (b =? 3); [discriminate|]. destruct (b =? 4); discriminate. }
      subst d. destruct m; vm_compute; eauto.
  - destruct m; vm_compute; reflexivity.
Qed.
