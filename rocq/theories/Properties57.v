(** * The variables the xarray backend shows (C81).

    Each theorem is followed by a concrete case meeting its hypotheses. *)
From Coq Require Import String.
From Verif Require Import Base Dataset IndexTree Python Xarray XarrayStore SpecText SerdeProofs SerdeTyped TreeProofs Properties7 Properties9 Examples.

(** ** Specification *)

Section Spec.
Context {O T : Type} (py_eq : O -> O -> bool) (is_bytes_type : T -> bool) (to_bytes : O -> O).

(** What netCDF4 says of a variable: names of attributes and of filter settings are distinct,
    and no filter setting has the name of another entry of an encoding. *)
Definition entry_names : list (list N) :=
  map text ["least_significant_digit"; "contiguous"; "chunksizes"; "source"; "original_shape"; "dtype"]%string.
Record described (v : @ncvar O T) : Prop := {
  ds_attrs : NoDup (map fst (nv_attrs v));
  ds_filters : forall f, nv_filters v = Some f -> NoDup (map fst f) /\ forall k, In k (map fst f) -> ~ In k entry_names
}.
Definition attribute (v : @ncvar O T) (k : string) (o : O) : Prop := In (text k, o) (nv_attrs v).

(** The attributes that disagree about the fill value. *)
Definition conflicting (v : @ncvar O T) : Prop :=
  exists f mv, attribute v "_FillValue" f /\ attribute v "missing_value" mv /\ py_eq mv f = false.

(** The entries of the encoding. *)
Definition entry (path : list N) (v : @ncvar O T) (k : list N) (e : encv) : Prop :=
  (k = text "source" /\ e = EPath path) \/
  (k = text "original_shape" /\ e = ETuple (nv_shape v)) \/
  (k = text "dtype" /\ e = EDtype (nv_dtype v)) \/
  (k = text "least_significant_digit" /\ exists o, attribute v "least_significant_digit" o /\ e = EObj o) \/
  (k = text "contiguous" /\ (nv_chunking v = Some Contiguous /\ e = EBool true \/ exists l, nv_chunking v = Some (Chunks l) /\ e = EBool false)) \/
  (k = text "chunksizes" /\ (nv_chunking v = Some Contiguous /\ e = ENone \/ exists l, nv_chunking v = Some (Chunks l) /\ e = ETuple l)) \/
  (exists f o, nv_filters v = Some f /\ In (k, o) f /\ e = EObj o).

(** ** Proofs *)

Lemma keys_text : K_FILL = text "_FillValue" /\ K_MISSING = text "missing_value" /\ K_LSD = text "least_significant_digit" /\
  K_CONTIGUOUS = text "contiguous" /\ K_CHUNKSIZES = text "chunksizes" /\ K_SOURCE = text "source" /\
  K_SHAPE = text "original_shape" /\ K_DTYPE = text "dtype".
Proof. repeat split. Qed.

Lemma pop_in {A} k (h : hmap A) x a : In (x, a) (snd (dict_pop k h)) <-> In (x, a) h /\ x <> k.
Proof.
  unfold dict_pop. cbn [snd]. rewrite filter_In. cbn [fst]. destruct (str_eqb k x) eqn:E; cbn [negb].
  - apply str_eqb_spec in E. intuition congruence.
  - split; [intros [H _]; split; auto; intros ->; now rewrite str_eqb_refl in E|]. tauto.
Qed.
Lemma pop_nodup {A} k (h : hmap A) : NoDup (map fst h) -> NoDup (map fst (snd (dict_pop k h))).
Proof.
  unfold dict_pop. cbn [snd]. induction h as [|[x a] h IH]; intros H; cbn [filter map fst]; [constructor|].
  inversion H as [|? ? H1 H2]; subst. destruct (negb (str_eqb k x)); auto. cbn [map fst]. constructor; auto.
  intros Hx. apply H1. apply in_map_iff in Hx as ([y b] & <- & Hy). apply filter_In in Hy as [Hy _].
  apply in_map_iff. now exists (y, b).
Qed.
Lemma hget_none {A} k (h : hmap A) : hget k h = None <-> ~ In k (map fst h).
Proof.
  induction h as [|[x a] h IH]; cbn [hget map fst In]; [tauto|]. destruct (str_eqb k x) eqn:E.
  - apply str_eqb_spec in E. subst. split; [discriminate|tauto].
  - rewrite IH. split; [intros H [<-|?]; auto; now rewrite str_eqb_refl in E|tauto].
Qed.
Lemma ensure_none t (attrs : hmap O) : ~ In K_FILL (map fst attrs) -> ensure_fill_value is_bytes_type to_bytes t attrs = attrs.
Proof. intros H. unfold ensure_fill_value. apply hget_none in H. now rewrite H. Qed.
Lemma put_in {A} k (v : A) h x a : NoDup (map fst h) -> (In (x, a) (hput k v h) <-> x = k /\ a = v \/ x <> k /\ In (x, a) h).
Proof.
  intros H. rewrite <- (hget_in x a (hput k v h)) by now apply hput_nodup. rewrite hget_hput.
  destruct (str_eqb x k) eqn:E.
  - apply str_eqb_spec in E. subst. split; [intros [= ->]; auto|intros [[_ ->]|[? _]]; [reflexivity|tauto]].
  - rewrite hget_in by auto. split; [intros Hx; right; split; auto; intros ->; now rewrite str_eqb_refl in E|].
    intros [[-> _]|[_ ?]]; auto. now rewrite str_eqb_refl in E.
Qed.
Lemma update_in {A} (l : list (str * A)) : NoDup (map fst l) -> dict_update [] l = l.
Proof. intros H. exact (hcollect_nodup l H). Qed.


(** The encoding, entry by entry. *)
Definition enc0 (v : @ncvar O T) : list (list N * @encv O T) :=
  match nv_filters v with Some f => map (fun kv => (fst kv, EObj (snd kv))) f | None => [] end.
Definition enc1 (v : @ncvar O T) : list (list N * @encv O T) :=
  match nv_chunking v with
  | None => []
  | Some Contiguous => [(K_CONTIGUOUS, EBool true); (K_CHUNKSIZES, ENone)]
  | Some (Chunks l) => [(K_CONTIGUOUS, EBool false); (K_CHUNKSIZES, ETuple l)]
  end.
Definition enc2 (v : @ncvar O T) : list (list N * @encv O T) :=
  match hget K_LSD (nv_attrs v) with Some o => [(K_LSD, EObj o)] | None => [] end.
Definition enc3 (path : str) (v : @ncvar O T) : list (list N * @encv O T) :=
  [(K_SOURCE, EPath path); (K_SHAPE, ETuple (nv_shape v)); (K_DTYPE, EDtype (nv_dtype v))].
Lemma put_last {A} k (v : A) h : ~ In k (map fst h) -> hput k v h = (h ++ [(k, v)])%list.
Proof. apply hput_new. Qed.
Lemma keys0 v k : described v -> In k (map fst (enc0 v)) -> ~ In k entry_names.
Proof.
  intros [_ H] Hk. unfold enc0 in Hk. destruct (nv_filters v) as [f|]; [|destruct Hk].
  rewrite map_map in Hk. cbn [fst] in Hk. destruct (H f eq_refl) as [_ H']. now apply H'.
Qed.
Lemma attrs_of (v : @ncvar O T) k (o : O) : In (k, o) (snd (dict_pop K_LSD (snd (dict_pop K_MISSING (snd (dict_pop K_FILL (nv_attrs v))))))) <->
  In (k, o) (nv_attrs v) /\ k <> K_FILL /\ k <> K_MISSING /\ k <> K_LSD.
Proof. rewrite !pop_in. tauto. Qed.
Ltac key_tac := let H := fresh in intros H; cbn in H; repeat (destruct H as [H|H]; [discriminate H|]); exact H.
Lemma opened_as path v : described v ->
  open_variable py_eq is_bytes_type to_bytes path v =
  let* fill := xr_fill py_eq (hget K_FILL (nv_attrs v)) (hget K_MISSING (nv_attrs v)) in
  Ok (mkXV (nv_dims v) (nv_shape v) (nv_dtype v) fill
    (snd (dict_pop K_LSD (snd (dict_pop K_MISSING (snd (dict_pop K_FILL (nv_attrs v)))))))
    (enc0 v ++ enc1 v ++ enc2 v ++ enc3 path v)%list).
Proof.
  intros D. unfold open_variable. destruct (xr_fill _ _ _) as [fill| | | |]; cbn [bind]; auto.
  rewrite ensure_none.
  2:{ intros H. apply in_map_iff in H as ([k o] & E & H). cbn [fst] in E. subst k. rewrite !pop_in in H. tauto. }
  assert (E0 : match nv_filters v with
               | Some f => dict_update [] (map (fun kv : str * O => (fst kv, EObj (snd kv))) f)
               | None => []
               end = enc0 v).
  { unfold enc0. destruct (nv_filters v) as [f|] eqn:Ef; auto. apply update_in. rewrite map_map. cbn [fst].
    destruct D as [_ D]. exact (proj1 (D f Ef)). }
  rewrite E0. clear E0.
  assert (N0 : forall k, In k entry_names -> ~ In k (map fst (enc0 v))) by (intros k H1 H2; now apply (keys0 v k D) in H2).
  assert (I : In K_LSD entry_names /\ In K_CONTIGUOUS entry_names /\ In K_CHUNKSIZES entry_names /\ In K_SOURCE entry_names /\
    In K_SHAPE entry_names /\ In K_DTYPE entry_names) by (repeat split; unfold entry_names; cbn; tauto).
  destruct I as (I1 & I2 & I3 & I4 & I5 & I6).
  assert (E1 : match nv_chunking v with
               | None => enc0 v
               | Some Contiguous => hput K_CHUNKSIZES ENone (hput K_CONTIGUOUS (EBool true) (enc0 v))
               | Some (Chunks l) => hput K_CHUNKSIZES (ETuple l) (hput K_CONTIGUOUS (EBool false) (enc0 v))
               end = (enc0 v ++ enc1 v)%list).
  { unfold enc1. destruct (nv_chunking v) as [[|l]|]; [| |now rewrite app_nil_r].
    all: rewrite (put_last K_CONTIGUOUS) by auto; rewrite put_last, <- app_assoc; [reflexivity|];
      rewrite map_app, in_app_iff; intros [X|X]; [now apply (N0 _ I3)|revert X; key_tac]. }
  rewrite E1. clear E1.
  assert (N1 : forall k, In k entry_names -> k <> K_CONTIGUOUS -> k <> K_CHUNKSIZES -> ~ In k (map fst (enc0 v ++ enc1 v)%list)).
  { intros k H1 H2 H3. rewrite map_app, in_app_iff. intros [X|X]; [now apply (N0 _ H1)|]. unfold enc1 in X.
    destruct (nv_chunking v) as [[|l]|]; cbn [map fst In] in X; intuition congruence. }
  assert (EG : hget K_LSD (snd (dict_pop K_MISSING (snd (dict_pop K_FILL (nv_attrs v))))) = hget K_LSD (nv_attrs v)).
  { destruct D as [DA _]. destruct (hget K_LSD (nv_attrs v)) as [o|] eqn:EL.
    - apply hget_in; [now do 2 apply pop_nodup|]. apply hget_in in EL; auto. rewrite !pop_in. repeat split; auto; discriminate.
    - apply hget_none. apply hget_none in EL. intros H. apply EL. apply in_map_iff in H as ([k o] & E & H). cbn [fst] in E. subst k.
      rewrite !pop_in in H. apply in_map_iff. exists (K_LSD, o). tauto. }
  unfold pop_to. remember (snd (dict_pop K_MISSING (snd (dict_pop K_FILL (nv_attrs v))))) as A2 eqn:EA. clear EA.
  unfold dict_pop. cbn [snd]. rewrite EG.
  assert (NL : ~ In K_LSD (map fst (enc0 v ++ enc1 v)%list)) by (apply N1; auto; discriminate).
  assert (P : forall E2 : list (list N * @encv O T), (forall k, In k (map fst E2) -> k = K_LSD) ->
    hput K_DTYPE (EDtype (nv_dtype v)) (hput K_SHAPE (ETuple (nv_shape v)) (hput K_SOURCE (EPath path) ((enc0 v ++ enc1 v) ++ E2)%list)) =
    (enc0 v ++ enc1 v ++ E2 ++ enc3 path v)%list).
  { intros E2 H2. assert (N2 : forall k, In k entry_names -> k <> K_CONTIGUOUS -> k <> K_CHUNKSIZES -> k <> K_LSD ->
      ~ In k (map fst ((enc0 v ++ enc1 v) ++ E2)%list)).
    { intros k X1 X2 X3 X4. rewrite map_app, in_app_iff. intros [X|X]; [now apply (N1 k)|]. now apply X4, H2. }
    rewrite (put_last K_SOURCE) by (apply N2; auto; discriminate).
    rewrite (put_last K_SHAPE). 2:{ rewrite map_app, in_app_iff. intros [X|X]; [revert X; apply N2; auto; discriminate|revert X; key_tac]. }
    rewrite (put_last K_DTYPE). 2:{ intros X. apply in_map_iff in X as ([k e] & E & X). cbn [fst] in E. subst k. apply in_app_iff in X as [X|X]; [|revert X; cbn; intros [X|[]]; discriminate].
      apply in_app_iff in X as [X|X]; [|revert X; cbn; intros [X|[]]; discriminate].
      apply (N2 K_DTYPE); auto; try discriminate. apply in_map_iff. now exists (K_DTYPE, e). }
    unfold enc3. rewrite <- !app_assoc. reflexivity. }
  unfold enc2. destruct (hget K_LSD (nv_attrs v)) as [o|] eqn:EL; cbn [bind].
  - rewrite (proj2 (hget_none _ _) NL). cbn [bind]. rewrite (put_last K_LSD) by auto. rewrite P; [reflexivity|].
    cbn [map fst In]. intuition.
  - rewrite <- (app_nil_r (enc0 v ++ enc1 v)). rewrite P; [reflexivity|]. intros k [].
Qed.

Lemma nodup_app_names {A} (l1 l2 : list A) : NoDup l1 -> NoDup l2 -> (forall k, In k l1 -> ~ In k l2) -> NoDup (l1 ++ l2).
Proof.
  intros H1 H2 H. induction H1 as [|a l Ha H1 IH]; cbn [app]; auto. constructor.
  - rewrite in_app_iff. intros [X|X]; auto. apply (H a); auto. now left.
  - apply IH. intros k Hk. apply H. now right.
Qed.

(** *** C81: a variable *)
Theorem C81_variable path v : described v ->
  (open_variable py_eq is_bytes_type to_bytes path v = Panic <-> conflicting v) /\
  (~ conflicting v -> exists x, open_variable py_eq is_bytes_type to_bytes path v = Ok x) /\
  (forall x, open_variable py_eq is_bytes_type to_bytes path v = Ok x ->
     xv_dims x = nv_dims v /\ xv_shape x = nv_shape v /\ xv_dtype x = nv_dtype v /\
     NoDup (map fst (xv_attrs x)) /\ NoDup (map fst (xv_enc x)) /\
     (forall k o, In (k, o) (xv_attrs x) <->
        In (k, o) (nv_attrs v) /\ k <> text "_FillValue" /\ k <> text "missing_value" /\ k <> text "least_significant_digit") /\
     (forall o, xv_fill x = Some o <->
        attribute v "_FillValue" o \/ attribute v "missing_value" o /\ ~ exists f, attribute v "_FillValue" f) /\
     (forall k e, In (k, e) (xv_enc x) <-> entry path v k e)).
Proof.
  intros D. rewrite (opened_as path v D). pose proof D as [DA DF].
  unfold conflicting, attribute, entry. change (text "_FillValue") with K_FILL. change (text "missing_value") with K_MISSING.
  change (text "least_significant_digit") with K_LSD. change (text "contiguous") with K_CONTIGUOUS. change (text "chunksizes") with K_CHUNKSIZES.
  change (text "source") with K_SOURCE. change (text "original_shape") with K_SHAPE. change (text "dtype") with K_DTYPE.
  assert (GF : forall k o, hget k (nv_attrs v) = Some o <-> In (k, o) (nv_attrs v)) by (intros; now apply hget_in).
  assert (GN : forall k, hget k (nv_attrs v) = None -> forall o, ~ In (k, o) (nv_attrs v)) by (intros k Hk o Ho; apply GF in Ho; congruence).
  assert (C : (exists f mv, In (K_FILL, f) (nv_attrs v) /\ In (K_MISSING, mv) (nv_attrs v) /\ py_eq mv f = false) <->
    xr_fill py_eq (hget K_FILL (nv_attrs v)) (hget K_MISSING (nv_attrs v)) = Panic).
  { unfold xr_fill. destruct (hget K_MISSING (nv_attrs v)) as [mv|] eqn:EM; [destruct (hget K_FILL (nv_attrs v)) as [f|] eqn:EF|].
    - apply GF in EM as EM'. apply GF in EF as EF'. split.
      + intros (f' & mv' & H1 & H2 & H3). apply GF in H1, H2. rewrite EF in H1. rewrite EM in H2. injection H1 as <-. injection H2 as <-. now rewrite H3.
      + intros H. exists f, mv. split; auto. split; auto. destruct (py_eq mv f); [discriminate|reflexivity].
    - split; [|discriminate]. intros (f' & mv' & H1 & _). now apply GN with (o := f') in EF.
    - split; [|discriminate]. intros (f' & mv' & _ & H1 & _). now apply GN with (o := mv') in EM. }
  assert (CO : xr_fill py_eq (hget K_FILL (nv_attrs v)) (hget K_MISSING (nv_attrs v)) <> Panic ->
    exists fill, xr_fill py_eq (hget K_FILL (nv_attrs v)) (hget K_MISSING (nv_attrs v)) = Ok fill /\
      forall o, fill = Some o <-> In (K_FILL, o) (nv_attrs v) \/ In (K_MISSING, o) (nv_attrs v) /\ ~ exists f, In (K_FILL, f) (nv_attrs v)).
  { unfold xr_fill. destruct (hget K_MISSING (nv_attrs v)) as [mv|] eqn:EM; [destruct (hget K_FILL (nv_attrs v)) as [f|] eqn:EF|].
    - destruct (py_eq mv f); [|congruence]. intros _. exists (Some f). split; auto. intros o. rewrite <- (GF K_FILL o), EF.
      split; auto. intros [?|[_ X]]; auto. exfalso. apply X. exists f. now apply GF.
    - intros _. exists (Some mv). split; auto. intros o. rewrite <- (GF K_MISSING o), EM. split.
      + intros H. right. split; auto. intros (f & Hf). now apply GN with (o := f) in EF.
      + intros [X|[X _]]; auto. now apply GN with (o := o) in EF.
    - intros _. exists (hget K_FILL (nv_attrs v)). split; auto. intros o. rewrite GF. split; auto. intros [?|[X _]]; auto.
      now apply GN with (o := o) in EM. }
  rewrite C. split; [|split].
  - destruct (xr_fill _ _ _); cbn [bind]; split; congruence.
  - intros H. destruct (CO H) as (fill & -> & _). cbn [bind]. eauto.
  - intros x Hx. apply bind_ok in Hx as (fill & Ef & Hx). apply ok_inj in Hx. subst x. cbn [xv_dims xv_shape xv_dtype xv_attrs xv_enc xv_fill].
    split; auto. split; auto. split; auto. split; [now do 3 apply pop_nodup|]. split; [|split; [|split]].
    + unfold enc0, enc1, enc2, enc3. clear - D DF.
      assert (N0 : NoDup (map fst (enc0 v))).
      { unfold enc0. destruct (nv_filters v) as [f|] eqn:E; [|constructor]. rewrite map_map. cbn [fst]. exact (proj1 (DF f eq_refl)). }
      rewrite !map_app. apply nodup_app_names; [exact N0| |].
      * destruct (nv_chunking v) as [[|l]|], (hget K_LSD (nv_attrs v)); cbn [map fst app];
          repeat (constructor; [cbn [In]; intros H; repeat (destruct H as [H|H]; [discriminate H|]); exact H|]); constructor.
      * intros k Hk Hk'. apply (keys0 v k D Hk). unfold entry_names. 
        destruct (nv_chunking v) as [[|l]|], (hget K_LSD (nv_attrs v)); cbn [map fst app In] in Hk';
          repeat (destruct Hk' as [<-|Hk']; [cbn; tauto|]); destruct Hk'.
    + intros k o. apply attrs_of.
    + intros o. destruct CO as (fill' & E' & H'); [rewrite Ef; discriminate|]. rewrite Ef in E'. injection E' as ->. apply H'.
    + intros k e. rewrite !in_app_iff. unfold enc0, enc1, enc2, enc3. cbn [In].
      assert (H0 : In (k, e) match nv_filters v with Some f => map (fun kv : list N * O => (fst kv, EObj (snd kv))) f | None => [] end <->
        exists f o, nv_filters v = Some f /\ In (k, o) f /\ e = EObj o).
      { destruct (nv_filters v) as [f|]; [|split; [intros []|intros (f & o & X & _); discriminate]]. rewrite in_map_iff. split.
        - intros ([k' o] & E & H). injection E as <- <-. eauto.
        - intros (f' & o & X & H & ->). injection X as <-. exists (k, o). auto. }
      assert (H1 : In (k, e) match nv_chunking v with
          | None => []
          | Some Contiguous => [(K_CONTIGUOUS, EBool true); (K_CHUNKSIZES, ENone)]
          | Some (Chunks l) => [(K_CONTIGUOUS, EBool false); (K_CHUNKSIZES, ETuple l)] end <->
        (k = K_CONTIGUOUS /\ (nv_chunking v = Some Contiguous /\ e = EBool true \/ exists l, nv_chunking v = Some (Chunks l) /\ e = EBool false)) \/
        (k = K_CHUNKSIZES /\ (nv_chunking v = Some Contiguous /\ e = ENone \/ exists l, nv_chunking v = Some (Chunks l) /\ e = ETuple l))).
      { destruct (nv_chunking v) as [[|l]|]; cbn [In].
        - split.
          + intros [X|[X|[]]]; injection X as <- <-; auto.
          + intros [[-> [[_ ->]|(l & X & _)]]|[-> [[_ ->]|(l & X & _)]]]; auto; discriminate.
        - split.
          + intros [X|[X|[]]]; injection X as <- <-; eauto 6.
          + intros [[-> [[X _]|(l' & X & ->)]]|[-> [[X _]|(l' & X & ->)]]]; try discriminate; auto. injection X as <-. auto.
        - split; [intros []|]. intros [[-> [[X _]|(l' & X & _)]]|[-> [[X _]|(l' & X & _)]]]; discriminate. }
      assert (H2 : In (k, e) match hget K_LSD (nv_attrs v) with Some o => [(K_LSD, EObj o)] | None => [] end <->
        k = K_LSD /\ exists o, In (K_LSD, o) (nv_attrs v) /\ e = EObj o).
      { destruct (hget K_LSD (nv_attrs v)) as [o|] eqn:EL; cbn [In]; split.
        - intros [X|[]]. injection X as <- <-. split; auto. exists o. split; auto. now apply GF.
        - intros (-> & o' & X & ->). apply GF in X. rewrite EL in X. injection X as <-. auto.
        - intros [].
        - intros (-> & o' & X & _). now apply GN with (o := o') in EL. }
      rewrite H0, H1, H2.
      assert (P : forall (k0 : list N) (e0 : @encv O T), (k0, e0) = (k, e) <-> k = k0 /\ e = e0) by (intros; split; [intros [= <- <-]; auto|intros [-> ->]; auto]).
      rewrite !P. tauto.
Qed.

(** *** C81: the variables of a group

    [get_variables] (called when a file is opened) succeeds exactly if every dataset the index
    lists is a variable of netCDF4 without conflicting fill values, and shows exactly these
    datasets, in the index's order; a single conflict makes the whole fail. *)
Theorem C81_store i group path vars : (forall k v, vars k = Some v -> described v) ->
  ((exists l, get_variables py_eq is_bytes_type to_bytes i group path vars = Ok l) <->
   (forall k, In k (py_datasets i group) -> exists v, vars k = Some v /\ ~ conflicting v)) /\
  (forall l, get_variables py_eq is_bytes_type to_bytes i group path vars = Ok l ->
     map fst l = py_datasets i group /\
     (forall k x, In (k, x) l -> exists v, vars k = Some v /\ open_variable py_eq is_bytes_type to_bytes path v = Ok x)) /\
  (get_variables py_eq is_bytes_type to_bytes i group path vars = Panic ->
     exists k v, In k (py_datasets i group) /\ vars k = Some v /\ conflicting v) /\
  (forall e, get_variables py_eq is_bytes_type to_bytes i group path vars = Err e ->
     exists k, In k (py_datasets i group) /\ vars k = None).
Proof.
  intros HD. unfold get_variables. generalize (py_datasets i group). intros ks.
  assert (HO : forall v, described v -> (exists x, open_variable py_eq is_bytes_type to_bytes path v = Ok x) /\ ~ conflicting v \/
    open_variable py_eq is_bytes_type to_bytes path v = Panic /\ conflicting v).
  { intros v Dv. destruct (C81_variable path v Dv) as (A & B & _).
    destruct (open_variable py_eq is_bytes_type to_bytes path v) as [x|e| | |] eqn:E.
    - left. split; [eauto|]. intros C. apply A in C. discriminate.
    - exfalso. rewrite (opened_as path v Dv) in E. unfold xr_fill in E.
      destruct (hget K_MISSING _); [destruct (hget K_FILL _); [destruct (py_eq _ _)|]|]; discriminate.
    - right. split; auto. now apply A.
    - exfalso. rewrite (opened_as path v Dv) in E. unfold xr_fill in E.
      destruct (hget K_MISSING _); [destruct (hget K_FILL _); [destruct (py_eq _ _)|]|]; discriminate.
    - exfalso. rewrite (opened_as path v Dv) in E. unfold xr_fill in E.
      destruct (hget K_MISSING _); [destruct (hget K_FILL _); [destruct (py_eq _ _)|]|]; discriminate. }
  induction ks as [|k ks IH]; cbn [mapM].
  - split; [split; [intros _ k []|eauto]|]. split; [|split; [discriminate|discriminate]]. intros l [= <-]. split; [reflexivity|intros k x []].
  - destruct IH as (I1 & I2 & I3 & I4). destruct (vars k) as [v|] eqn:Ev; cbn [bind].
    2:{ split; [split; [intros [? ?]; discriminate|intros H; destruct (H k) as (v & X & _); [now left|congruence]]|].
        split; [discriminate|]. split; [discriminate|]. intros e _. exists k. split; [now left|auto]. }
    destruct (HO v (HD k v Ev)) as [[[x Ex] NC]|[Ex C]]; rewrite Ex; cbn [bind].
    2:{ split; [split; [intros [? ?]; discriminate|intros H; destruct (H k) as (v' & X & NC); [now left|]]|].
        - rewrite Ev in X. injection X as <-. contradiction.
        - split; [discriminate|]. split; [|discriminate]. intros _. exists k, v. split; [now left|auto]. }
    destruct (mapM _ ks) as [l|e| | |] eqn:El; cbn [bind].
    + split; [|split; [|split; [discriminate|discriminate]]].
      * split; [|eauto]. intros _ k' [<-|Hk']; [eauto|]. apply I1; eauto.
      * intros l' [= <-]. destruct (I2 l eq_refl) as [J1 J2]. split; [cbn [map fst]; now rewrite J1|].
        intros k' x' [X|X]; [injection X as <- <-; eauto|auto].
    + split; [split; [intros [? ?]; discriminate|intros H]|].
      * exfalso. destruct (proj2 I1) as [? ?]; [intros k' Hk'; apply H; now right|discriminate].
      * split; [discriminate|]. split; [discriminate|]. intros e' X. destruct (I4 e eq_refl) as (k' & Y & Z). exists k'. split; [now right|auto].
    + split; [split; [intros [? ?]; discriminate|intros H]|].
      * exfalso. destruct (proj2 I1) as [? ?]; [intros k' Hk'; apply H; now right|discriminate].
      * split; [discriminate|]. split; [|discriminate]. intros _. destruct (I3 eq_refl) as (k' & v' & Y & Z). exists k', v'. split; [now right|auto].
    + split; [split; [intros [? ?]; discriminate|intros H]|].
      * exfalso. destruct (proj2 I1) as [? ?]; [intros k' Hk'; apply H; now right|discriminate].
      * split; [discriminate|]. split; discriminate.
    + split; [split; [intros [? ?]; discriminate|intros H]|].
      * exfalso. destruct (proj2 I1) as [? ?]; [intros k' Hk'; apply H; now right|discriminate].
      * split; [discriminate|]. split; discriminate.
Qed.
End Spec.
Print Assumptions C81_variable.
Print Assumptions C81_store.

(** A variable with both fill value attributes, a scale factor and a number of significant
    digits, chunked and compressed; and the same with fill values that differ. *)
Definition xv_case (mv : N) : @ncvar N N :=
  mkVar [(text "_FillValue", 7); (text "scale_factor", 3); (text "least_significant_digit", 2); (text "missing_value", mv)]
    [text "time"; text "x"] [4; 6] 16 (Some [(text "zlib", 1); (text "shuffle", 1)]) (Some (Chunks [2; 3])).
Lemma xv_described mv : described (xv_case mv).
Proof.
  constructor.
  - cbn [xv_case nv_attrs map fst]. repeat (constructor; [cbn [In]; intros H; repeat (destruct H as [H|H]; [discriminate H|]); exact H|]). constructor.
  - intros f [= <-]. cbn [map fst]. split.
    + repeat (constructor; [cbn [In]; intros H; repeat (destruct H as [H|H]; [discriminate H|]); exact H|]). constructor.
    + intros k [<-|[<-|[]]]; vm_compute; intuition discriminate.
Qed.
Example C81_case :
  described (xv_case 7) /\ ~ conflicting N.eqb (xv_case 7) /\ conflicting N.eqb (xv_case 8) /\ described (xv_case 8) /\
  open_variable N.eqb (fun _ => false) (fun o => o) [46] (xv_case 8) = Panic /\
  open_variable N.eqb (fun _ => false) (fun o => o) [46] (xv_case 7) =
    Ok (mkXV [text "time"; text "x"] [4; 6] 16 (Some 7) [(text "scale_factor", 3)]
      [(text "zlib", EObj 1); (text "shuffle", EObj 1); (text "contiguous", EBool false); (text "chunksizes", ETuple [2; 3]);
       (text "least_significant_digit", EObj 2); (text "source", EPath [46]); (text "original_shape", ETuple [4; 6]); (text "dtype", EDtype 16)]) /\
  (exists l, get_variables N.eqb (fun _ => false) (fun o => o) ex_index (Some [103]) [46] (fun _ => Some (xv_case 7)) = Ok l) /\
  get_variables N.eqb (fun _ => false) (fun o => o) ex_index (Some [103]) [46] (fun _ => Some (xv_case 8)) = Panic.
Proof.
  split; [apply xv_described|]. split; [|split].
  - intros (f & mv & H1 & H2 & H3). unfold attribute in *. cbn in H1, H2.
    repeat destruct H1 as [H1|H1]; try discriminate; try contradiction. repeat destruct H2 as [H2|H2]; try discriminate; try contradiction.
    injection H1 as <-. injection H2 as <-. discriminate.
  - exists 7, 8. unfold attribute. split; [now left|]. split; [cbn; tauto|reflexivity].
  - split; [apply xv_described|]. split; [reflexivity|]. split; [reflexivity|]. split; [eexists; reflexivity|reflexivity].
Qed.
