(** * C41, continued: what UTF-8 means, and serializations are unambiguous.

    Each theorem is followed by a concrete case meeting its hypotheses. *)
From Verif Require Import Base Spec Chunk Dataset IndexTree Serde SpecSerde SerdeProofs SerdeTyped Properties7.
From Coq Require Import NArith Lia List.
Import ListNotations.
Local Open Scope N_scope.

(** ** The strings that are accepted are the encodings of Unicode text *)

(** Unicode scalar values: code points that are not surrogates. *)
Definition scalar (c : N) : Prop := c < 55296 \/ (57344 <= c /\ c <= 1114111).
(** UTF-8 (RFC 3629, section 3): the shortest of the four forms. *)
Definition utf8_encode (c : N) : list N :=
  if c <? 128 then [c]
  else if c <? 2048 then [192 + c / 64; 128 + c mod 64]
  else if c <? 65536 then [224 + c / 4096; 128 + (c / 64) mod 64; 128 + c mod 64]
  else [240 + c / 262144; 128 + (c / 4096) mod 64; 128 + (c / 64) mod 64; 128 + c mod 64].
Definition utf8_text (s : list N) : Prop := exists cs, Forall scalar cs /\ s = flat_map utf8_encode cs.

Lemma cont_iff b : cont b = true <-> 128 <= b <= 191.
Proof. unfold cont. rewrite andb_true_iff, !N.leb_le. tauto. Qed.
Lemma within_iff lo hi b : within lo hi b = true <-> lo <= b <= hi.
Proof. unfold within. rewrite andb_true_iff, !N.leb_le. tauto. Qed.

Lemma enc1 a : a < 128 -> scalar a /\ utf8_encode a = [a].
Proof. intros. split; [left; lia|]. unfold utf8_encode. now rewrite (proj2 (N.ltb_lt _ _)) by lia. Qed.
Lemma enc2 a b : 194 <= a <= 223 -> 128 <= b <= 191 ->
  exists c, scalar c /\ utf8_encode c = [a; b].
Proof.
  intros. exists ((a - 192) * 64 + (b - 128)).
  assert (E1 : ((a - 192) * 64 + (b - 128)) / 64 = a - 192) by (symmetry; apply N.div_unique with (b - 128); lia).
  assert (E2 : ((a - 192) * 64 + (b - 128)) mod 64 = b - 128) by (symmetry; apply N.mod_unique with (a - 192); lia).
  split; [left; lia|]. unfold utf8_encode. rewrite E1, E2.
  rewrite (proj2 (N.ltb_ge _ 128)) by lia. rewrite (proj2 (N.ltb_lt _ 2048)) by lia.
  f_equal; [lia|]. f_equal. lia.
Qed.
Lemma enc3 a b c : 224 <= a <= 239 -> 128 <= b <= 191 -> 128 <= c <= 191 ->
  (a = 224 -> 160 <= b) -> (a = 237 -> b <= 159) -> exists x, scalar x /\ utf8_encode x = [a; b; c].
Proof.
  intros HA HB HC H1 H2. set (x := (a - 224) * 4096 + (b - 128) * 64 + (c - 128)). exists x.
  assert (E1 : x / 4096 = a - 224) by (symmetry; apply N.div_unique with ((b - 128) * 64 + (c - 128)); unfold x; lia).
  assert (E2 : x / 64 = (a - 224) * 64 + (b - 128)) by (symmetry; apply N.div_unique with (c - 128); unfold x; lia).
  assert (E3 : x mod 64 = c - 128) by (symmetry; apply N.mod_unique with ((a - 224) * 64 + (b - 128)); unfold x; lia).
  assert (E4 : ((a - 224) * 64 + (b - 128)) mod 64 = b - 128) by (symmetry; apply N.mod_unique with (a - 224); lia).
  assert (G1 : 2048 <= x) by (unfold x; destruct (N.eq_dec a 224); [specialize (H1 e)|]; lia).
  assert (G2 : x < 65536) by (unfold x; lia).
  split.
  - unfold scalar. destruct (N.lt_ge_cases a 237); [left; unfold x; lia|].
    destruct (N.eq_dec a 237) as [e|n]; [specialize (H2 e); left; unfold x; lia|right; unfold x; lia].
  - unfold utf8_encode. rewrite (proj2 (N.ltb_ge _ 128)), (proj2 (N.ltb_ge _ 2048)), (proj2 (N.ltb_lt _ 65536)) by lia.
    rewrite E1, E2, E3, E4. f_equal; [lia|]. f_equal; [lia|]. f_equal. lia.
Qed.
Lemma enc4 a b c d : 240 <= a <= 244 -> 128 <= b <= 191 -> 128 <= c <= 191 -> 128 <= d <= 191 ->
  (a = 240 -> 144 <= b) -> (a = 244 -> b <= 143) -> exists x, scalar x /\ utf8_encode x = [a; b; c; d].
Proof.
  intros HA HB HC HD H1 H2. set (x := (a - 240) * 262144 + (b - 128) * 4096 + (c - 128) * 64 + (d - 128)). exists x.
  assert (E1 : x / 262144 = a - 240) by (symmetry; apply N.div_unique with ((b - 128) * 4096 + (c - 128) * 64 + (d - 128)); unfold x; lia).
  assert (E2 : x / 4096 = (a - 240) * 64 + (b - 128)) by (symmetry; apply N.div_unique with ((c - 128) * 64 + (d - 128)); unfold x; lia).
  assert (E3 : x / 64 = (a - 240) * 4096 + (b - 128) * 64 + (c - 128)) by (symmetry; apply N.div_unique with (d - 128); unfold x; lia).
  assert (E4 : x mod 64 = d - 128) by (symmetry; apply N.mod_unique with ((a - 240) * 4096 + (b - 128) * 64 + (c - 128)); unfold x; lia).
  assert (E5 : ((a - 240) * 64 + (b - 128)) mod 64 = b - 128) by (symmetry; apply N.mod_unique with (a - 240); lia).
  assert (E6 : ((a - 240) * 4096 + (b - 128) * 64 + (c - 128)) mod 64 = c - 128)
    by (symmetry; apply N.mod_unique with ((a - 240) * 64 + (b - 128)); lia).
  assert (G1 : 65536 <= x) by (unfold x; destruct (N.eq_dec a 240); [specialize (H1 e)|]; lia).
  assert (G2 : x <= 1114111) by (unfold x; destruct (N.eq_dec a 244); [specialize (H2 e)|]; lia).
  split; [right; lia|].
  unfold utf8_encode. rewrite (proj2 (N.ltb_ge _ 128)), (proj2 (N.ltb_ge _ 2048)), (proj2 (N.ltb_ge _ 65536)) by lia.
  rewrite E1, E2, E3, E4, E5, E6. f_equal; [lia|]. f_equal; [lia|]. f_equal; [lia|]. f_equal. lia.
Qed.

Lemma utf8_sound n : forall s, (length s <= n)%nat -> utf8 s = true -> utf8_text s.
Proof.
  assert (NIL : utf8_text []) by (exists []; split; [constructor|reflexivity]).
  assert (CONS : forall c s, scalar c -> utf8_text s -> utf8_text (utf8_encode c ++ s)).
  { intros c s Hc (cs & H1 & ->). exists (c :: cs). split; [now constructor|reflexivity]. }
  induction n as [|n IH]; intros [|a s1] HL H; auto; cbn [length] in HL; [lia|].
  cbn [utf8] in H. destruct (N.ltb_spec a 128) as [Ha|Ha].
  { destruct (enc1 a Ha) as [S1 E]. change (a :: s1) with ([a] ++ s1). rewrite <- E. apply CONS; auto. apply IH; auto. lia. }
  destruct s1 as [|b s2]; [discriminate|]. cbn [length] in HL.
  destruct (within 194 223 a) eqn:W2.
  { apply within_iff in W2. apply andb_true_iff in H as [H1 H2]. apply cont_iff in H1.
    destruct (enc2 a b W2 H1) as (c & S1 & E). change (a :: b :: s2) with ([a; b] ++ s2). rewrite <- E. apply CONS; auto. apply IH; auto. lia. }
  destruct s2 as [|c s3]; [discriminate|]. cbn [length] in HL.
  destruct (within 224 239 a) eqn:W3.
  { apply within_iff in W3. apply andb_true_iff in H as [H H3]. apply andb_true_iff in H as [H1 H2]. apply cont_iff in H2.
    assert (HB : 128 <= b <= 191 /\ (a = 224 -> 160 <= b) /\ (a = 237 -> b <= 159)).
    { destruct (N.eqb_spec a 224); [apply within_iff in H1; lia|]. destruct (N.eqb_spec a 237); [apply within_iff in H1; lia|].
      apply cont_iff in H1. lia. }
    destruct HB as (B1 & B2 & B3). destruct (enc3 a b c W3 B1 H2 B2 B3) as (x & S1 & E).
    change (a :: b :: c :: s3) with ([a; b; c] ++ s3). rewrite <- E. apply CONS; auto. apply IH; auto. lia. }
  destruct s3 as [|d s4]; [discriminate|]. cbn [length] in HL.
  apply andb_true_iff in H as [H H5]. apply andb_true_iff in H as [H H4]. apply andb_true_iff in H as [H H3].
  apply andb_true_iff in H as [H1 H2]. apply within_iff in H1. apply cont_iff in H3. apply cont_iff in H4.
  assert (HB : 128 <= b <= 191 /\ (a = 240 -> 144 <= b) /\ (a = 244 -> b <= 143)).
  { destruct (N.eqb_spec a 240); [apply within_iff in H2; lia|]. destruct (N.eqb_spec a 244); [apply within_iff in H2; lia|].
    apply cont_iff in H2. lia. }
  destruct HB as (B1 & B2 & B3). destruct (enc4 a b c d H1 B1 H3 H4 B2 B3) as (x & S1 & E).
  change (a :: b :: c :: d :: s4) with ([a; b; c; d] ++ s4). rewrite <- E. apply CONS; auto. apply IH; auto. lia.
Qed.

Lemma utf8_step c s : scalar c -> utf8 (utf8_encode c ++ s) = utf8 s.
Proof.
  intros Hc. unfold utf8_encode. unfold scalar in Hc.
  assert (D64 : c = 64 * (c / 64) + c mod 64 /\ c mod 64 < 64) by (split; [apply N.div_mod; lia|apply N.mod_lt; lia]).
  destruct (N.ltb_spec c 128) as [H1|H1].
  { cbn [app utf8]. now rewrite (proj2 (N.ltb_lt c 128)). }
  assert (DD : c / 64 = 64 * (c / 4096) + (c / 64) mod 64 /\ (c / 64) mod 64 < 64).
  { split; [|apply N.mod_lt; lia]. replace 4096 with (64 * 64) by reflexivity. rewrite <- N.div_div by lia. apply N.div_mod; lia. }
  assert (DDD : c / 4096 = 64 * (c / 262144) + (c / 4096) mod 64 /\ (c / 4096) mod 64 < 64).
  { split; [|apply N.mod_lt; lia]. replace 262144 with (4096 * 64) by reflexivity. rewrite <- N.div_div by lia. apply N.div_mod; lia. }
  set (q1 := c / 64) in *. set (r1 := c mod 64) in *. set (q2 := c / 4096) in *. set (r2 := q1 mod 64) in *.
  set (q3 := c / 262144) in *. set (r3 := q2 mod 64) in *. clearbody q1 r1 q2 r2 q3 r3.
  assert (CR : forall r, r < 64 -> cont (128 + r) = true) by (intros r Hr; apply cont_iff; lia).
  assert (NW : forall lo hi b, b < lo \/ hi < b -> within lo hi b = false).
  { intros lo hi b Hb. unfold within. apply andb_false_iff. rewrite !N.leb_gt. lia. }
  destruct (N.ltb_spec c 2048) as [H2|H2]; [|destruct (N.ltb_spec c 65536) as [H3|H3]].
  - cbn [app utf8]. rewrite (proj2 (N.ltb_ge _ 128)) by lia. rewrite (proj2 (within_iff 194 223 (192 + q1))) by lia.
    rewrite CR by lia. reflexivity.
  - cbn [app utf8]. rewrite (proj2 (N.ltb_ge _ 128)) by lia. rewrite NW by lia.
    rewrite (proj2 (within_iff 224 239 (224 + q2))) by lia. rewrite (CR r1) by lia.
    destruct (N.eqb_spec (224 + q2) 224); [rewrite (proj2 (within_iff 160 191 (128 + r2))) by lia; reflexivity|].
    destruct (N.eqb_spec (224 + q2) 237); [rewrite (proj2 (within_iff 128 159 (128 + r2))) by lia; reflexivity|].
    rewrite CR by lia. reflexivity.
  - cbn [app utf8]. rewrite (proj2 (N.ltb_ge _ 128)) by lia. rewrite !NW by lia.
    rewrite (proj2 (within_iff 240 244 (240 + q3))) by lia. rewrite (CR r1), (CR r2) by lia.
    destruct (N.eqb_spec (240 + q3) 240); [rewrite (proj2 (within_iff 144 191 (128 + r3))) by lia; reflexivity|].
    destruct (N.eqb_spec (240 + q3) 244); [rewrite (proj2 (within_iff 128 143 (128 + r3))) by lia; reflexivity|].
    rewrite CR by lia. reflexivity.
Qed.

Lemma utf8_iff s : utf8 s = true <-> utf8_text s.
Proof.
  split; [apply (utf8_sound (length s)); auto|]. intros (cs & H & ->).
  induction H as [|c cs Hc HF IH]; [reflexivity|]. cbn [flat_map]. now rewrite utf8_step.
Qed.

(** An index can be serialized if and only if its paths are Unicode text; and all names and
    paths of a loaded index are, whatever the bytes it was loaded from. *)
Inductive text_group : gindex -> Prop :=
| text_mk p ds gs : (forall s, p = Some s -> utf8_text s) -> Forall (fun kv => text_group (snd kv)) gs -> text_group (mkGroup p ds gs).
Inductive named_text : gindex -> Prop :=
| named_mk p ds gs : Forall (fun kv => utf8_text (fst kv)) ds -> Forall (fun kv => utf8_text (fst kv) /\ named_text (snd kv)) gs ->
    named_text (mkGroup p ds gs).

Fixpoint text_of_utf8 g (H : utf8_group g) {struct H} : text_group g.
Proof.
  destruct H as [p ds gs H1 H2]. constructor; [intros s E; apply utf8_iff, H1, E|].
  clear H1. induction H2 as [|kv gs H H2 IH]; constructor; auto.
Defined.
Fixpoint utf8_of_text g (H : text_group g) {struct H} : utf8_group g.
Proof.
  destruct H as [p ds gs H1 H2]. constructor; [intros s E; apply utf8_iff, H1, E|].
  clear H1. induction H2 as [|kv gs H H2 IH]; constructor; auto.
Defined.
Fixpoint names_of_typed g (H : typed_group g) {struct H} : named_text g.
Proof.
  destruct H as [p ds gs _ (_ & K1 & _) _ (_ & K2 & _) H2]. constructor.
  - apply Forall_forall. intros kv Hkv. apply utf8_iff. rewrite Forall_forall in K1. apply (in_map fst) in Hkv. apply (K1 _ Hkv).
  - clear K1. induction H2 as [|kv gs H H2 IH]; constructor.
    + split; auto. apply utf8_iff. inversion K2 as [|? ? T]; subst. apply T.
    + apply IH. now inversion K2.
Defined.

Theorem C41_text i :
  (typed_index i -> ((exists b, bincode_serialize i = Ok b) <->
     (forall s, i_path i = Some s -> utf8_text s) /\ text_group (i_root i))) /\
  (forall b, is_bytes b -> bincode_deserialize b = Ok i ->
     (forall s, i_path i = Some s -> utf8_text s) /\ text_group (i_root i) /\ named_text (i_root i)).
Proof.
  split.
  - intros HT. split.
    + intros (b & E). unfold bincode_serialize, ser_index in E. apply bind_ok in E as (p & Ep & E). apply bind_ok in E as (g & Eg & _).
      split.
      * intros s Es. apply utf8_iff. apply (proj2 (ser_path_ok (i_path i))); eauto.
      * apply text_of_utf8. apply (proj1 (ser_group_ok (i_root i))). eauto.
    + intros [H1 H2]. destruct (C41_round_trip i HT) as (b & E & _); eauto.
      * intros s Es. apply utf8_iff. auto.
      * now apply utf8_of_text.
  - intros b Hb E. destruct (C41_loaded_is_typed b i Hb E) as ([T1 T2] & U1 & U2).
    split; [intros s Es; apply utf8_iff; auto|]. split; [now apply text_of_utf8|now apply names_of_typed].
Qed.
Print Assumptions C41_text.

(** ** Serializations are unambiguous *)

(** No serialization of an index is a prefix of that of another (or of any stream that starts
    with one); in particular different indexes have different serializations. *)
Theorem C41_injective i j b c rest rest' : typed_index i -> typed_index j ->
  bincode_serialize i = Ok b -> bincode_serialize j = Ok c -> b ++ rest = c ++ rest' ->
  i = j /\ b = c /\ rest = rest'.
Proof.
  intros Hi Hj Eb Ec E.
  assert (W : forall k x, typed_index k -> bincode_serialize k = Ok x ->
    bincode_serialize k = Ok x /\ forall r, de_index (S (length (x ++ r))) (x ++ r) = Ok (k, r)).
  { intros k x Hk Ek. split; auto. destruct (proj1 (proj1 (C41_text k) Hk) (ex_intro _ x Ek)) as [P1 P2].
    destruct (C41_round_trip k Hk) as (y & Ey & _ & F).
    - intros s Es. apply utf8_iff. auto.
    - now apply utf8_of_text.
    - rewrite Ek in Ey. injection Ey as <-. intros r. apply F. }
  destruct (W i b Hi Eb) as [_ W1]. destruct (W j c Hj Ec) as [_ W2].
  specialize (W1 rest). specialize (W2 rest'). rewrite <- E in W2. rewrite W1 in W2. injection W2 as <- <-.
  rewrite Eb in Ec. injection Ec as <-. auto.
Qed.
Print Assumptions C41_injective.

(** Names: "a", "\u{e9}", "\u{20ac}" and "\u{1f600}"; a surrogate, an overlong form and a lone
    continuation byte are no text. *)
Example C41_text_case :
  utf8_text [97; 195; 169; 226; 130; 172; 240; 159; 152; 128] /\
  ~ utf8_text [237; 160; 128] /\ ~ utf8_text [192; 128] /\ ~ utf8_text [128] /\ ~ utf8_text [244; 144; 128; 128] /\
  exists i j b c, typed_index i /\ typed_index j /\ bincode_serialize i = Ok b /\ bincode_serialize j = Ok c /\ i <> j.
Proof.
  split; [apply utf8_iff; reflexivity|].
  split; [intros H; apply utf8_iff in H; discriminate|]. split; [intros H; apply utf8_iff in H; discriminate|].
  split; [intros H; apply utf8_iff in H; discriminate|]. split; [intros H; apply utf8_iff in H; discriminate|].
  exists (mkIndex (Some [97]) (mkGroup (Some [97]) [] [])), (mkIndex (Some [98]) (mkGroup (Some [97]) [] [])).
  do 2 eexists. split; [|split; [|split; [reflexivity|split; [reflexivity|discriminate]]]].
  - split; [intros s [= <-]; reflexivity|]. repeat constructor. intros s [= <-]; reflexivity.
  - split; [intros s [= <-]; reflexivity|]. repeat constructor. intros s [= <-]; reflexivity.
Qed.
