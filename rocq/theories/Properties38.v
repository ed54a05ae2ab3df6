(** * C68: what hfxlst prints says which datasets there are. *)
From Coq Require Import String Decimal DecimalN.
From Verif Require Import Base Spec SpecText Dataset IndexTree Serde SpecTree Tools Listing Properties7 Properties11 Properties26.

(** The first occurrence of a byte splits a text in one way. *)
Lemma split_first (x : N) : forall a b a' b', ~ In x a -> ~ In x a' -> a ++ x :: b = a' ++ x :: b' -> a = a' /\ b = b'.
Proof.
  induction a as [|y a IH]; intros b [|y' a'] b' Ha Ha' E; cbn [app] in E.
  - injection E as <-. auto.
  - injection E as <- _. exfalso. apply Ha'. now left.
  - injection E as -> _. exfalso. apply Ha. now left.
  - injection E as <- E. destruct (IH b a' b') as [-> ->]; auto.
    + intros H. apply Ha. now right.
    + intros H. apply Ha'. now right.
Qed.

(** A text cannot end before a byte it does not contain. *)
Lemma split_none (x : N) a b a' : ~ In x a' -> a ++ x :: b <> a'.
Proof. intros H <-. apply H, in_elt. Qed.

Lemma digits_range u : Forall (fun b => 48 <= b <= 57) (digits u).
Proof. induction u; cbn [digits]; constructor; auto; lia. Qed.
Lemma digits_inj u : forall v, digits u = digits v -> u = v.
Proof. induction u; intros []; cbn [digits]; intros H; try discriminate; auto; injection H as H; f_equal; auto. Qed.
Lemma show_inj n k : show_u64 n = show_u64 k -> n = k.
Proof. intros H. apply digits_inj in H. now apply Unsigned.to_uint_inj in H. Qed.
Lemma show_range n : Forall (fun b => 48 <= b <= 57) (show_u64 n).
Proof. apply digits_range. Qed.
Lemma show_not n b : b < 48 \/ 57 < b -> ~ In b (show_u64 n).
Proof. intros Hb H. pose proof (proj1 (Forall_forall _ _) (show_range n) b H). cbn in *. lia. Qed.
Lemma show_cons n : show_u64 n <> [].
Proof.
  intros H. change [] with (digits Nil) in H. apply digits_inj in H.
  pose proof (Unsigned.of_to n) as E. rewrite H in E. cbn in E. subst n. discriminate.
Qed.

Lemma show_list_not b : forall l, b < 48 \/ 57 < b -> b <> 44 -> b <> 32 -> ~ In b (show_list l).
Proof.
  induction l as [|n [|n' l] IH]; intros Hb H1 H2 H.
  - destruct H.
  - now apply (show_not n b).
  - change (show_list (n :: n' :: l)) with (show_u64 n ++ 44 :: 32 :: show_list (n' :: l)) in H.
    apply in_app_or in H as [H|[H|[H|H]]]; [now apply (show_not n b)|congruence|congruence|now apply IH].
Qed.

Lemma show_list_inj : forall l l', show_list l = show_list l' -> l = l'.
Proof.
  induction l as [|n l IH]; intros [|n' l'] E; auto.
  - destruct l'; cbn [show_list] in E; symmetry in E; [now apply show_cons in E|now apply app_eq_nil in E as [E _]; apply show_cons in E].
  - destruct l; cbn [show_list] in E; [now apply show_cons in E|now apply app_eq_nil in E as [E _]; apply show_cons in E].
  - destruct l as [|k l], l' as [|k' l'].
    + cbn [show_list] in E. now apply show_inj in E as ->.
    + exfalso. cbn [show_list] in E. symmetry in E. revert E. apply split_none. apply show_not. lia.
    + exfalso. cbn [show_list] in E. revert E. apply split_none. apply show_not. lia.
    + change (show_list (n :: k :: l)) with (show_u64 n ++ 44 :: 32 :: show_list (k :: l)) in E.
      change (show_list (n' :: k' :: l')) with (show_u64 n' ++ 44 :: 32 :: show_list (k' :: l')) in E.
      apply split_first in E as [E1 E2]; try (apply show_not; lia). apply show_inj in E1 as ->.
      injection E2 as E2. now rewrite (IH (k' :: l') E2).
Qed.

(** The last occurrence, too. *)
Lemma split_last (x : N) a b a' b' : ~ In x b -> ~ In x b' -> a ++ x :: b = a' ++ x :: b' -> a = a' /\ b = b'.
Proof.
  intros Hb Hb' E. apply (f_equal (@rev N)) in E. rewrite !rev_app_distr in E. cbn [rev] in E. rewrite <- !app_assoc in E. cbn [app] in E.
  apply split_first in E as [E1 E2].
  - split; [rewrite <- (rev_involutive a), E2; apply rev_involutive|rewrite <- (rev_involutive b), E1; apply rev_involutive].
  - now rewrite <- in_rev.
  - now rewrite <- in_rev.
Qed.

(** A name without its padding. *)
Definition untrailed (s : bytes) : Prop := forall s', s <> s' ++ [32].

Lemma spaces_inj : forall j k (a a' : bytes), untrailed a -> untrailed a' -> a ++ repeat 32 j = a' ++ repeat 32 k -> a = a'.
Proof.
  induction j as [|j IH]; intros [|k] a a' Ha Ha' E.
  - now rewrite !app_nil_r in E.
  - exfalso. replace (S k) with (k + 1)%nat in E by lia. rewrite app_nil_r, repeat_app, app_assoc in E. cbn [repeat] in E. now apply Ha in E.
  - exfalso. replace (S j) with (j + 1)%nat in E by lia. rewrite app_nil_r, repeat_app, app_assoc in E. cbn [repeat] in E. symmetry in E. now apply Ha' in E.
  - replace (S j) with (j + 1)%nat in E by lia. replace (S k) with (k + 1)%nat in E by lia.
    rewrite !repeat_app, !app_assoc in E. apply app_inj_tail in E as [E _]. now apply IH in E.
Qed.

(** Names as users give them: no line break, no space at the end. *)
Definition plain_name (s : bytes) : Prop := ~ In 10 s /\ untrailed s.

Lemma body_inj n s n' s' : untrailed n -> untrailed n' ->
  pad32 n ++ 32 :: show_shape s = pad32 n' ++ 32 :: show_shape s' -> n = n' /\ s = s'.
Proof.
  intros Hn Hn' E. unfold pad32, show_shape in E.
  change (32 :: 91 :: show_list s ++ [93]) with ([32] ++ 91 :: (show_list s ++ [93])) in E.
  change (32 :: 91 :: show_list s' ++ [93]) with ([32] ++ 91 :: (show_list s' ++ [93])) in E.
  rewrite !app_assoc in E.
  apply split_last in E as [E1 E2].
  - apply app_inj_tail in E1 as [E1 _]. apply app_inj_tail in E2 as [E2 _].
    split; [now apply spaces_inj in E1|now apply show_list_inj].
  - intros H. apply in_app_or in H as [H|[H|[]]]; [|discriminate]. revert H. apply show_list_not; lia.
  - intros H. apply in_app_or in H as [H|[H|[]]]; [|discriminate]. revert H. apply show_list_not; lia.
Qed.

Lemma body_line n s : ~ In 10 n -> ~ In 10 (pad32 n ++ 32 :: show_shape s).
Proof.
  intros Hn H. unfold pad32, show_shape in H. apply in_app_or in H as [H|[H|[H|H]]]; try discriminate.
  - apply in_app_or in H as [H|H]; auto. apply repeat_spec in H. discriminate.
  - apply in_app_or in H as [H|[H|[]]]; [|discriminate]. revert H. apply show_list_not; lia.
Qed.

(** The printed lines say which datasets were listed, with which shapes, in order: no two
    listings of plain names print the same. *)
Theorem C68_text l l' : Forall (fun ns => plain_name (fst ns)) l -> Forall (fun ns => plain_name (fst ns)) l' ->
  print_listing l = print_listing l' -> l = l'.
Proof.
  revert l'. induction l as [|[n s] l IH]; intros [|[n' s'] l'] Hl Hl' E; auto.
  - exfalso. cbn [print_listing flat_map print_line] in E. symmetry in E. apply app_eq_nil in E as [E _]. unfold print_line in E.
    apply app_eq_nil in E as [_ E]. discriminate.
  - exfalso. cbn [print_listing flat_map print_line] in E. apply app_eq_nil in E as [E _]. unfold print_line in E.
    apply app_eq_nil in E as [_ E]. discriminate.
  - inversion Hl as [|? ? [A1 A2] Hl1]; subst. inversion Hl' as [|? ? [B1 B2] Hl1']; subst. cbn [fst] in *.
    assert (P : forall n s l, print_listing ((n, s) :: l) = (pad32 n ++ 32 :: show_shape s) ++ 10 :: print_listing l).
    { intros. cbn [print_listing flat_map]. unfold print_line. cbn [fst snd]. rewrite <- !app_assoc. cbn [app]. rewrite <- !app_assoc. reflexivity. }
    rewrite !P in E. apply split_first in E as [E1 E2]; try (now apply body_line).
    apply body_inj in E1 as [-> ->]; auto. now rewrite (IH l').
Qed.
Print Assumptions C68_text.

(** Indexing two files and listing both indexes: the same dataset lines mean that the two
    files have the same datasets (with storage) in their root groups, with the same shapes. *)
Theorem C68_files m fo bo fser fde h5 fs input output ty root tr fs' input' output' ty' root' tr' p l p' l' :
  indexes m fo bo h5 fs input ty root -> indexes m fo bo h5 fs' input' ty' root' ->
  (fo = true -> forall i b, bincode_serialize i = Ok b -> exists e, fde b = Err e) ->
  (forall x d, h5_dataset root [] x d -> plain_name x) -> (forall x d, h5_dataset root' [] x d -> plain_name x) ->
  hfxidx m fo bo fser h5 fs input output ty (Ok tt) tr -> hfxidx m fo bo fser h5 fs' input' output' ty' (Ok tt) tr' ->
  hfxlst fo bo fde (last tr fs) output = Ok (p, l) -> hfxlst fo bo fde (last tr' fs') output' = Ok (p', l') ->
  print_listing l = print_listing l' ->
  forall x s, (exists d, h5_dataset root [] x d /\ has_storage d /\ s = h_shape d) <->
              (exists d, h5_dataset root' [] x d /\ has_storage d /\ s = h_shape d).
Proof.
  intros HI HI' HF HN HN' HR HR' HL HL' HP x s.
  destruct (C53_round_trip _ _ _ _ _ _ _ _ _ _ _ _ _ HI HF HR eq_refl) as (k & Ek & [_ Lk]).
  destruct (C53_round_trip _ _ _ _ _ _ _ _ _ _ _ _ _ HI' HF HR' eq_refl) as (k' & Ek' & [_ Lk']).
  rewrite HL in Ek. rewrite HL' in Ek'. injection Ek as _ <-. injection Ek' as _ <-.
  apply C68_text in HP.
  - subst l'. now rewrite <- Lk, <- Lk'.
  - apply Forall_forall. intros [y t] Hy. apply Lk in Hy as (d & Hd & _). eapply HN; eauto.
  - apply Forall_forall. intros [y t] Hy. apply Lk' in Hy as (d & Hd & _). eapply HN'; eauto.
Qed.
Print Assumptions C68_files.

(** Not so for other names: "a" and "a " are printed the same; and a name with a line break
    prints as two datasets. *)
Theorem C68_refuted :
  print_listing [([97], [4])] = print_listing [([97; 32], [4])] /\
  exists n, print_listing [([97], [4]); ([98], [5; 6])] = print_listing [(n, [5; 6])].
Proof.
  split; [reflexivity|]. exists (pad32 [97] ++ 32 :: show_shape [4] ++ [10] ++ pad32 [98]). vm_compute. reflexivity.
Qed.

Example C68_case : plain_name [116; 101; 109; 112] /\
  print_line ([116; 101; 109; 112], [2; 31; 580]) =
    [116; 101; 109; 112] ++ repeat 32 28 ++ [32; 91; 50; 44; 32; 51; 49; 44; 32; 53; 56; 48; 93; 10].
Proof.
  split; [|reflexivity]. split.
  - intros [H|[H|[H|[H|[]]]]]; discriminate.
  - intros [|a [|b [|c [|d [|e s]]]]] H; discriminate.
Qed.

(** ** The text itself

    A number in decimal: the digits 0 to 9, no superfluous zero in front. *)
Definition decimal (n : N) (s : list N) : Prop :=
  s <> [] /\ Forall (fun b => 48 <= b <= 57) s /\ (forall s', s = 48 :: s' -> s' = []) /\
  fold_left (fun v b => 10 * v + (b - 48)) s 0 = n.
Fixpoint joined (sep : list N) (l : list (list N)) : list N :=
  match l with [] => [] | [x] => x | x :: l' => x ++ sep ++ joined sep l' end.
(** The line of a dataset: its name, filled up with spaces to 32 characters, one space, the
    shape in brackets, a line feed. *)
Definition line_of (ns : list N * list N) (line : list N) : Prop :=
  exists cs nums, Forall scalar cs /\ fst ns = flat_map utf8_encode cs /\ Forall2 decimal (snd ns) nums /\
    line = fst ns ++ repeat 32 (32 - length cs) ++ text " [" ++ joined (text ", ") nums ++ text "]" ++ [10].

Lemma fold_digits u : forall acc, fold_left (fun v b => 10 * v + (b - 48)) (digits u) (Npos acc) = Npos (Pos.of_uint_acc u acc).
Proof. induction u; intros acc; cbn [digits fold_left Pos.of_uint_acc]; try reflexivity; rewrite <- IHu; f_equal; lia. Qed.
Lemma value_digits u : fold_left (fun v b => 10 * v + (b - 48)) (digits u) 0 = N.of_uint u.
Proof.
  unfold N.of_uint. induction u; cbn [digits fold_left Pos.of_uint]; try reflexivity; [exact IHu|..];
    rewrite <- fold_digits; reflexivity.
Qed.
Lemma show_decimal n : decimal n (show_u64 n).
Proof.
  split; [apply show_cons|]. split; [apply show_range|]. split.
  - intros s' E. unfold show_u64 in E. pose proof (Unsigned.to_of (N.to_uint n)) as U. rewrite Unsigned.of_to in U.
    rewrite U in E. destruct (nzhead (N.to_uint n)) eqn:EZ; unfold unorm in E; rewrite EZ in E; cbn [digits] in E; try discriminate.
    + now injection E as <-.
    + exfalso. clear E U. revert EZ. generalize (N.to_uint n). intros v. revert u. induction v; intros w EZ; cbn [nzhead] in EZ; try discriminate. eauto.
  - unfold show_u64. rewrite value_digits. apply Unsigned.of_to.
Qed.
Lemma chars_encode : forall cs, Forall scalar cs -> chars (flat_map utf8_encode cs) = length cs.
Proof.
  assert (NC : forall b, 128 <= b -> b < 192 -> negb ((128 <=? b) && (b <? 192)) = false).
  { intros b H1 H2. now rewrite (proj2 (N.leb_le _ _) H1), (proj2 (N.ltb_lt _ _) H2). }
  assert (YC : forall b, b < 128 \/ 192 <= b -> negb ((128 <=? b) && (b <? 192)) = true).
  { intros b [H|H]; [now rewrite (proj2 (N.leb_gt _ _) H)|]. rewrite (proj2 (N.ltb_ge _ _) H), andb_false_r. reflexivity. }
  assert (M : forall x, 128 <= 128 + x mod 64 /\ 128 + x mod 64 < 192).
  { intros x. pose proof (N.mod_lt x 64 ltac:(lia)). generalize dependent (x mod 64). intros; lia. }
  induction 1 as [|c cs Hc _ IH]; [reflexivity|]. cbn [flat_map length]. unfold chars in *. rewrite filter_app, app_length, IH.
  change (S (length cs)) with (1 + length cs)%nat. f_equal. unfold utf8_encode.
  destruct (N.ltb_spec c 128); [cbn [filter]; rewrite YC by auto; reflexivity|].
  destruct (c <? 2048); [|destruct (c <? 65536)]; cbn [filter];
    (rewrite YC by (right; refine (N.le_trans _ _ _ _ (N.le_add_r _ _)); vm_compute; discriminate)); repeat (rewrite NC by apply M); reflexivity.
Qed.
Lemma joined_show : forall l, joined (text ", ") (map show_u64 l) = show_list l.
Proof.
  induction l as [|n [|n' l] IH]; try reflexivity.
  change (show_list (n :: n' :: l)) with (show_u64 n ++ 44 :: 32 :: show_list (n' :: l)). rewrite <- IH. reflexivity.
Qed.

(** What is printed of a listing of datasets whose names are text: their lines, in order. *)
Theorem C68_format l : Forall (fun ns => utf8_text (fst ns)) l -> exists lines, Forall2 line_of l lines /\ print_listing l = concat lines.
Proof.
  induction 1 as [|[n s] l (cs & Hcs & E) _ (lines & HF & HL)]; [exists []; split; [constructor|reflexivity]|].
  exists (print_line (n, s) :: lines). split.
  - constructor; auto. exists cs, (map show_u64 s). cbn [fst snd] in *. split; auto. split; auto. split.
    + induction s; cbn [map]; constructor; auto using show_decimal.
    + unfold print_line, pad32, show_shape. cbn [fst snd]. rewrite joined_show. rewrite E at 2. rewrite chars_encode by auto.
      rewrite <- !app_assoc. cbn [app]. rewrite <- !app_assoc. reflexivity.
  - cbn [print_listing flat_map concat]. fold (print_listing l). now rewrite HL.
Qed.
Print Assumptions C68_format.
Example C68_format_case : utf8_text (text "temp") /\
  print_line (text "temp", [2; 31; 580]) = text "temp                             [2, 31, 580]" ++ [10] /\
  print_line ([195; 169] (* one character *), []) = [195; 169] ++ text "                                []" ++ [10].
Proof.
  split; [|split; reflexivity]. exists (text "temp"). split; [|reflexivity].
  repeat constructor.
Qed.

(** The names of the example file of C53, whose runs and listing are in C53_case. *)
Example C68_files_case m : indexes m false true ex_h5_open ex_fs ex_in (text "any") ex_tree /\
  (forall x d, h5_dataset ex_tree [] x d -> plain_name x) /\
  exists tr l, hfxidx m false true no_flex ex_h5_open ex_fs ex_in ex_out (text "any") (Ok tt) tr /\
    hfxlst false true no_flex_de (last tr ex_fs) ex_out = Ok (Some ex_in, l) /\ l <> [].
Proof.
  destruct (C53_case m) as (A & (tr & B & _ & C) & _). split; [exact A|]. split.
  - intros x d (g & Hg & Hin). inversion Hg; subst. destruct Hin as [H|[H|[H|[]]]]; try discriminate. injection H as <- _. split.
    + intros [H|[]]; discriminate.
    + intros [|a [|b s]] H; discriminate.
  - exists tr. eexists. split; [exact B|]. split; [exact C|discriminate].
Qed.
