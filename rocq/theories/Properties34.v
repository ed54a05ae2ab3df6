(** * Which file names the xarray backend offers to open (C65).

    Each theorem is followed by a concrete case meeting its hypotheses. *)
From Coq Require Import ZArith Lia String.
From Verif Require Import Base SpecText Dataset IndexTree XarrayOpen.
Local Open Scope N_scope.

(** A path of a directory (nothing, or up to a slash), a name before the extension that is
    more than dots, and an extension. *)
Definition has_extension (p ext : str) : Prop :=
  exists dir stem, p = dir ++ stem ++ ext /\ (dir = [] \/ exists d, dir = d ++ text "/") /\
    ~ In 47 (* / *) stem /\ exists c, In c stem /\ c <> 46 (* . *).

(** The name a path object stands for, if it is text. *)
Definition text_of (p : pypath) (s : str) : Prop := p = PStr s \/ p = PLike (Some (inl s)).

Lemma rfind_spec c l : (rfind c l = -1 /\ ~ In c l)%Z \/
  exists a b, l = a ++ c :: b /\ ~ In c b /\ rfind c l = Z.of_nat (length a).
Proof.
  induction l as [|x l IH]; [left; auto|]. cbn [rfind]. destruct IH as [[E H]|(a & b & E & H & R)].
  - rewrite E. cbn [Z.leb Z.compare]. change (0 <=? -1)%Z with false. cbv iota. destruct (N.eqb_spec x c) as [-> |Hx].
    + right. exists [], l. auto.
    + left. split; [reflexivity|]. intros [?|?]; auto.
  - right. exists (x :: a), b. rewrite E. split; [reflexivity|]. split; [exact H|]. rewrite <- E, R.
    rewrite (proj2 (Z.leb_le 0 _)) by lia. cbn [length]. lia.
Qed.

Lemma scan_spec l : scan l = true <-> exists c, In c l /\ c <> c_dot.
Proof.
  induction l as [|x l IH]; cbn [scan]; [split; [discriminate|intros (c & [] & _)]|].
  destruct (N.eqb_spec x c_dot) as [-> |Hx]; cbn [negb].
  - rewrite IH. split; intros (c & H & Hc); exists c; split; auto; [now right|]. destruct H; [congruence|auto].
  - split; auto. intros _. exists x. split; auto. now left.
Qed.

Lemma app_split {A} (dec : forall x y : A, {x = y} + {x <> y}) (c : A) : forall a b a' b',
  a ++ c :: b = a' ++ c :: b' -> ~ In c b -> ~ In c b' -> a = a' /\ b = b'.
Proof.
  induction a as [|x a IH]; intros b [|y a'] b' E H H'; cbn [app] in E.
  - split; congruence.
  - injection E as E1 E2. exfalso. apply H. rewrite E2. apply in_or_app. right. now left.
  - injection E as E1 E2. exfalso. apply H'. rewrite <- E2. apply in_or_app. right. now left.
  - injection E as E1 E2. destruct (IH b a' b' E2 H H') as [-> ->]. subst. auto.
Qed.

Lemma splitext_spec p ext : ~ In c_dot ext -> ~ In c_slash ext ->
  (snd (splitext p) = c_dot :: ext <-> has_extension p (c_dot :: ext)).
Proof.
  intros HD HS. unfold splitext.
  destruct (rfind_spec c_dot p) as [[Ed Hd]|(a & b & Ep & Hb & Ed)].
  { rewrite Ed. assert (HR : (-1 <= rfind c_slash p)%Z) by (destruct (rfind_spec c_slash p) as [[-> _]|(? & ? & _ & _ & ->)]; lia).
    rewrite (proj2 (Z.ltb_ge _ _)) by lia. cbn [snd]. split; [discriminate|].
    intros (dir & stem & E & _). exfalso. apply Hd. rewrite E. apply in_or_app. right. apply in_or_app. right. now left. }
  rewrite Ed.
  assert (SK : skipn (Z.to_nat (Z.of_nat (length a))) p = c_dot :: b).
  { rewrite Nat2Z.id, Ep, skipn_app, skipn_all, Nat.sub_diag. reflexivity. }
  split.
  - intros H. destruct (Z.ltb_spec (rfind c_slash p) (Z.of_nat (length a))) as [HL|]; [|discriminate H].
    destruct (scan _) eqn:ES; [|discriminate H]. cbn [snd] in H. rewrite SK in H. injection H as ->.
    apply scan_spec in ES.
    destruct (rfind_spec c_slash p) as [[Es Hs]|(a1 & b1 & Ep1 & Hb1 & Es)].
    + exists [], a. split; [exact Ep|]. split; [now left|]. split.
      * intros H. apply Hs. rewrite Ep. apply in_or_app. now left.
      * rewrite Es in ES. change (Z.to_nat (-1 + 1)) with 0%nat in ES. cbn [skipn] in ES. rewrite Ep in ES.
        replace (Z.to_nat (Z.of_nat (length a) - (-1 + 1))) with (length a) in ES by lia.
        rewrite firstn_app, firstn_all, Nat.sub_diag in ES. cbn [firstn] in ES. now rewrite app_nil_r in ES.
    + rewrite Es in *. assert (LA : (length a1 < length a)%nat) by lia.
      (* a = a1 ++ slash :: stem *)
      assert (Ea : a = a1 ++ c_slash :: skipn (S (length a1)) a).
      { assert (F : firstn (length a) p = a) by (rewrite Ep, firstn_app, firstn_all, Nat.sub_diag; cbn [firstn]; now rewrite app_nil_r).
        rewrite Ep1 in F. rewrite firstn_app in F. rewrite (firstn_all2 a1) in F by lia.
        destruct (length a - length a1)%nat as [|q] eqn:Eq; [lia|]. cbn [firstn] in F.
        rewrite <- F. rewrite skipn_app, skipn_all2 by lia. replace (S (length a1) - length a1)%nat with 1%nat by lia. reflexivity. }
      set (stem := skipn (S (length a1)) a) in *.
      exists (a1 ++ [c_slash]), stem. split; [|split; [right; eauto|split]].
      * rewrite <- app_assoc. cbn [app]. rewrite Ep, Ea at 1. now rewrite <- app_assoc.
      * intros H. assert (E2 : b1 = stem ++ c_dot :: ext).
        { assert (E3 : a1 ++ c_slash :: b1 = a1 ++ c_slash :: (stem ++ c_dot :: ext)).
          { rewrite <- Ep1, Ep. rewrite Ea at 1. now rewrite <- app_assoc. }
          apply app_inv_head in E3. now injection E3. }
        apply Hb1. rewrite E2. apply in_or_app. now left.
      * assert (X : firstn (Z.to_nat (Z.of_nat (length a) - (Z.of_nat (length a1) + 1)))
                      (skipn (Z.to_nat (Z.of_nat (length a1) + 1)) p) = stem); [|now rewrite X in ES].
        replace (Z.to_nat (Z.of_nat (length a1) + 1)) with (S (length a1)) by lia.
        rewrite Ep, skipn_app. replace (S (length a1) - length a)%nat with 0%nat by lia. rewrite skipn_O. fold stem.
        assert (LS : length stem = (length a - S (length a1))%nat) by (unfold stem; apply skipn_length).
        rewrite firstn_app, (firstn_all2 stem) by lia.
        replace (Z.to_nat (Z.of_nat (length a) - (Z.of_nat (length a1) + 1)) - length stem)%nat with 0%nat by lia.
        cbn [firstn]. apply app_nil_r.
  - intros (dir & stem & E & Hdir & Hns & Hc). change (text "/") with [c_slash] in Hdir.
    assert (EA : a = dir ++ stem /\ b = ext).
    { apply (app_split N.eq_dec c_dot); auto. rewrite <- Ep, E. now rewrite app_assoc. }
    destruct EA as [-> ->].
    assert (ER : rfind c_slash p = (Z.of_nat (length dir) - 1)%Z).
    { destruct (rfind_spec c_slash p) as [[Es Hs]|(a1 & b1 & Ep1 & Hb1 & Es)].
      - destruct Hdir as [-> |(d & ->)]; [now rewrite Es|]. exfalso. apply Hs. rewrite E. apply in_or_app. left. apply in_or_app. right. now left.
      - assert (NS : ~ In c_slash (stem ++ c_dot :: ext)).
        { intros H. apply in_app_iff in H as [H|[H|H]]; auto. discriminate. }
        destruct Hdir as [-> |(d & ->)].
        + exfalso. apply NS. cbn [app] in E. rewrite <- E, Ep1. apply in_or_app. right. now left.
        + rewrite Es. rewrite E in Ep1. rewrite <- app_assoc in Ep1. cbn [app] in Ep1.
          destruct (app_split N.eq_dec c_slash _ _ _ _ Ep1 NS Hb1) as [<- _]. rewrite app_length. cbn [length]. lia. }
    rewrite ER. rewrite app_length. destruct Hc as (c & Hc & Hcd).
    assert (0 < length stem)%nat by (destruct stem; [destruct Hc|cbn; lia]).
    rewrite (proj2 (Z.ltb_lt _ _)) by lia.
    replace (Z.to_nat (Z.of_nat (length dir) - 1 + 1)) with (length dir) by lia.
    replace (Z.to_nat (Z.of_nat (length dir + length stem) - (Z.of_nat (length dir) - 1 + 1))) with (length stem) by lia.
    assert (X : firstn (length stem) (skipn (length dir) p) = stem).
    { rewrite E, skipn_app, skipn_all, Nat.sub_diag. cbn [app skipn]. rewrite firstn_app, firstn_all, Nat.sub_diag. cbn [firstn]. apply app_nil_r. }
    rewrite X. rewrite (proj2 (scan_spec stem)) by eauto. cbn [snd]. rewrite <- app_length. rewrite Nat2Z.id, Ep, skipn_app, skipn_all, Nat.sub_diag. reflexivity.
Qed.

Lemma str_eqb_true a b : str_eqb a b = true <-> a = b.
Proof. unfold str_eqb. destruct (list_eq_dec N.eq_dec a b); split; auto; discriminate. Qed.

(** The backend offers to open a file exactly if it is given as text (a str or a path object)
    and the last component of the path is a name with the extension `.nc`, `.nc4` or `.cdf`; it
    never raises.  Whatever it offers to open, opening does not refuse for its type. *)
Theorem C65_guess p :
  (guess_can_open p = true <-> exists s ext, text_of p s /\ In ext [text ".nc"; text ".nc4"; text ".cdf"] /\ has_extension s ext) /\
  (guess_can_open p = true -> exists s, text_of p s /\ store_open p = OpensAt s) /\
  (forall s, store_open p = OpensAt s <-> text_of p s).
Proof.
  change [text ".nc"; text ".nc4"; text ".cdf"] with [s_nc; s_nc4; s_cdf].
  assert (HF : forall s, fspath p = Some (inl s) <-> text_of p s).
  { intros s. unfold text_of. destruct p as [s'|b|[[s'|b]|]|]; cbn [fspath]; split; intros H;
      try discriminate; try (destruct H; discriminate); try (injection H as ->; auto); try (destruct H as [H|H]; congruence). }
  assert (HO : forall s, store_open p = OpensAt s <-> text_of p s).
  { intros s. rewrite <- HF. unfold store_open. destruct p as [s'|b|[[s'|b]|]|]; cbn [fspath]; split; congruence. }
  assert (HG : guess_can_open p = true -> exists s, text_of p s /\ exists ext, In ext [s_nc; s_nc4; s_cdf] /\ snd (splitext s) = ext).
  { unfold guess_can_open. destruct (fspath p) as [[s|b]|] eqn:E; try discriminate. intros H. exists s. split; [now apply HF|].
    destruct (splitext s) as [u ext]. apply existsb_exists in H as (x & Hx & Ex). apply str_eqb_true in Ex. subst x. exists ext. auto. }
  assert (HX : forall s ext, In ext [s_nc; s_nc4; s_cdf] -> (snd (splitext s) = ext <-> has_extension s ext)).
  { intros s ext [<-|[<-|[<-|[]]]]; apply splitext_spec; cbn; intuition discriminate. }
  split; [split|split].
  - intros H. destruct (HG H) as (s & Hs & ext & He & E). exists s, ext. split; auto. split; auto. now apply HX.
  - intros (s & ext & Hs & He & H). apply HX in H; auto. apply HF in Hs. unfold guess_can_open. rewrite Hs.
    destruct (splitext s) as [u x]. cbn [snd] in H. subst x. apply existsb_exists. exists ext. split; auto. now apply str_eqb_true.
  - intros H. destruct (HG H) as (s & Hs & _). exists s. split; auto. now apply HO.
  - exact HO.
Qed.
Print Assumptions C65_guess.

(** "d.x/a.b.nc" and "a.nc4" are offered; ".nc", "x/..nc", "a.nc.gz", "a.h5", "a.nc/b", "nc" and
    "a.NC" are not. *)
Example C65_guess_case :
  map (fun s => guess_can_open (PStr s))
    [text "d.x/a.b.nc"; text "a.nc4"; text ".nc"; text "x/..nc"; text "a.nc.gz"; text "a.h5"; text "a.nc/b"; text "nc"; text "a.NC"] =
    [true; true; false; false; false; false; false; false; false] /\
  has_extension (text "d.x/a.b.nc") (text ".nc") /\
  guess_can_open (PBytes (text "a.nc")) = false /\ guess_can_open POther = false /\
  guess_can_open (PLike (Some (inl (text "a.nc")))) = true.
Proof.
  split; [reflexivity|]. split; [|repeat split; reflexivity].
  exists (text "d.x/"), (text "a.b"). split; [reflexivity|]. split; [right; exists (text "d.x"); reflexivity|].
  split; [cbn; intuition discriminate|]. exists 97. split; [now left|discriminate].
Qed.

(** What a user might expect and does not hold: HDF5 files by other names are not offered, and
    remote URLs are, although they cannot be opened as local files. *)
Theorem C65_remote_refuted :
  exists s, firstn 8 s = text "https://" /\ guess_can_open (PStr s) = true /\
    store_open (PStr s) = OpensAt s.
Proof. exists (text "https://a/b.nc"). repeat split; reflexivity. Qed.
Print Assumptions C65_remote_refuted.
