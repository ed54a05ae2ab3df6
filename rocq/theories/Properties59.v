(** * C83: everything hfxlst prints, and the texts Python shows.

    Each theorem is followed by a concrete case meeting its hypotheses. *)
From Coq Require Import String.
From Verif Require Import Base Spec SpecText Chunk Dataset IndexTree Serde SpecTree Python Tools Listing Output Properties7 Properties11 Properties26 Properties38.
Close Scope string_scope.

(** ** Specification *)

(** A text in quotes, read back: printable characters stand for themselves, but for the
    backslash and the quotes; a backslash introduces a named character or a number in
    hexadecimal. *)
Definition hex_value (c : N) : N := if c <? 58 then c - 48 else c - 87.
Definition hex_char (c : N) : Prop := 48 <= c <= 57 \/ 97 <= c <= 102.
Inductive unescaped : list N -> list N -> Prop :=
| un_end : unescaped [] []
| un_plain b q p : 32 <= b -> b <> 127 -> ~ In b (text "\""'") -> unescaped q p -> unescaped (b :: q) (b :: p)
| un_named c b q p : In (c, b) (combine (text "0tnr\""'") ([0; 9; 10; 13] ++ text "\""'")) -> unescaped q p ->
    unescaped (text "\" ++ c :: q) (b :: p)
| un_hex ds b q p : ds <> [] -> Forall hex_char ds -> b = fold_left (fun v d => 16 * v + hex_value d) ds 0 -> unescaped q p ->
    unescaped (text "\u{" ++ ds ++ text "}" ++ q) (b :: p).

(** The line before the datasets. *)
Definition heading (path : option (list N)) (line : list N) : Prop :=
  match path with
  | None => line = text "Datasets"
  | Some p => exists q, unescaped q p /\ line = text "Datasets (source path: """ ++ q ++ text """)"
  end.

(** ** Proofs *)

Lemma below (P : N -> Prop) k : Forall P (map N.of_nat (seq 0 k)) -> forall b, b < N.of_nat k -> P b.
Proof.
  intros H b Hb. apply (proj1 (Forall_forall _ _) H). apply in_map_iff. exists (N.to_nat b). split; [apply N2Nat.id|]. apply in_seq. lia.
Qed.

(** One character, taken off the front. *)
Definition unescape_one (s : bytes) : option (N * bytes) :=
  match s with
  | [] => None
  | b :: r =>
      if b =? 92 then
        match r with
        | [] => None
        | c :: r1 =>
            if c =? 117 then
              match r1 with
              | _ :: x :: y :: r2 => if y =? 125 then Some (hex_value x, r2)
                                     else match r2 with _ :: r3 => Some (16 * hex_value x + hex_value y, r3) | [] => None end
              | _ => None
              end
            else Some (if c =? 48 then 0 else if c =? 116 then 9 else if c =? 114 then 13 else if c =? 110 then 10 else c, r1)
        end
      else Some (b, r)
  end.
Lemma large b : 128 <= b -> escape_debug b = [b].
Proof.
  intros H. unfold escape_debug. rewrite !(proj2 (N.eqb_neq b _)) by lia. rewrite (proj2 (N.ltb_ge b 32)) by lia. reflexivity.
Qed.
Lemma unescape_escape b s : unescape_one (escape_debug b ++ s) = Some (b, s).
Proof.
  destruct (N.lt_ge_cases b 128) as [H|H].
  - revert b H. apply (below (fun b => unescape_one (escape_debug b ++ s) = Some (b, s)) 128).
    cbn [seq map N.of_nat Pos.of_succ_nat Pos.succ]. repeat (constructor; [reflexivity|]). constructor.
  - rewrite (large b H). cbn [app unescape_one]. now rewrite (proj2 (N.eqb_neq b 92)) by lia.
Qed.
Lemma escape_head b : exists c s, escape_debug b = c :: s /\ c <> 34 /\ 32 <= c.
Proof.
  destruct (N.lt_ge_cases b 128) as [H|H].
  - revert b H. apply (below (fun b => exists c s, escape_debug b = c :: s /\ c <> 34 /\ 32 <= c) 128).
    assert (T : forall b, (match escape_debug b with c :: _ => negb (c =? 34) && (32 <=? c) | [] => false end) = true ->
      exists c s, escape_debug b = c :: s /\ c <> 34 /\ 32 <= c).
    { intros b Hb. destruct (escape_debug b) as [|c s]; [discriminate|]. apply andb_true_iff in Hb as [H1 H2].
      exists c, s. split; auto. split; [apply N.eqb_neq; now destruct (c =? 34)|now apply N.leb_le]. }
    apply Forall_forall. intros b Hb. apply T. revert b Hb. apply Forall_forall.
    cbn [seq map N.of_nat Pos.of_succ_nat Pos.succ]. repeat (constructor; [reflexivity|]). constructor.
  - rewrite (large b H). exists b, []. split; auto. lia.
Qed.
Lemma path_inj : forall p p' r r', flat_map escape_debug p ++ 34 :: r = flat_map escape_debug p' ++ 34 :: r' -> p = p' /\ r = r'.
Proof.
  induction p as [|b p IH]; intros [|b' p'] r r' E; cbn [flat_map app] in E.
  - injection E as <-. auto.
  - exfalso. destruct (escape_head b') as (c & s & Es & Hc & _). rewrite Es in E. injection E as E _. congruence.
  - exfalso. destruct (escape_head b) as (c & s & Es & Hc & _). rewrite Es in E. injection E as E _. congruence.
  - rewrite <- !app_assoc in E. apply (f_equal unescape_one) in E. rewrite !unescape_escape in E. injection E as <- E.
    destruct (IH _ _ _ E) as [-> ->]. auto.
Qed.
Lemma shown_inj p p' r r' : show_path p ++ r = show_path p' ++ r' -> p = p' /\ r = r'.
Proof. unfold show_path. cbn [app]. rewrite <- !app_assoc. cbn [app]. intros [= E]. now apply path_inj. Qed.
Lemma escape_text p : unescaped (flat_map escape_debug p) p /\ Forall (fun b => 32 <= b) (flat_map escape_debug p).
Proof.
  assert (S1 : forall b q p, unescaped q p -> unescaped (escape_debug b ++ q) (b :: p)).
  { intros b q p0 U. destruct (N.lt_ge_cases b 128) as [H|H].
    - revert b H. apply (below (fun b => unescaped (escape_debug b ++ q) (b :: p0)) 128).
      assert (PL : forall b, (32 <=? b) && negb (b =? 127) && negb (existsb (N.eqb b) (text "\""'")) = true ->
        escape_debug b = [b] -> unescaped (escape_debug b ++ q) (b :: p0)).
      { intros b Hb ->. apply andb_true_iff in Hb as [Hb H3]. apply andb_true_iff in Hb as [H1 H2]. apply un_plain; auto.
        - now apply N.leb_le.
        - apply N.eqb_neq. now destruct (b =? 127).
        - intros Hin. assert (existsb (N.eqb b) (text "\""'") = true) as Ex by (apply existsb_exists; exists b; split; [auto|apply N.eqb_refl]).
          rewrite Ex in H3. discriminate. }
      assert (NM : forall c b, escape_debug b = [92; c] -> In (c, b) (combine (text "0tnr\""'") ([0; 9; 10; 13] ++ text "\""'")) ->
        unescaped (escape_debug b ++ q) (b :: p0)).
      { intros c b -> Hin. exact (un_named c b q p0 Hin U). }
      assert (HX : forall ds b, escape_debug b = text "\u{" ++ ds ++ text "}" -> ds <> [] ->
        forallb (fun c => (48 <=? c) && (c <=? 57) || (97 <=? c) && (c <=? 102)) ds = true ->
        b = fold_left (fun v d => 16 * v + hex_value d) ds 0 -> unescaped (escape_debug b ++ q) (b :: p0)).
      { intros ds b -> Hd Hf Hb. rewrite <- !app_assoc. apply un_hex; auto. apply Forall_forall. intros c Hc.
        pose proof (proj1 (forallb_forall _ _) Hf c Hc) as Hx. cbn beta in Hx. unfold hex_char. apply orb_true_iff in Hx as [Hx|Hx];
          apply andb_true_iff in Hx as [X1 X2]; apply N.leb_le in X1, X2; auto. }
      cbn [seq map N.of_nat Pos.of_succ_nat Pos.succ].
      repeat (constructor; [first
        [ apply PL; reflexivity
        | eapply NM; [reflexivity|vm_compute; tauto]
        | match goal with |- unescaped (escape_debug ?b ++ _) _ =>
            let e := eval vm_compute in (escape_debug b) in
            match e with
            | [_; _; _; ?x; _] => apply (HX [x]); [reflexivity|discriminate|reflexivity|reflexivity]
            | [_; _; _; ?x; ?y; _] => apply (HX [x; y]); [reflexivity|discriminate|reflexivity|reflexivity]
            end end ]|]).
      constructor.
    - rewrite (large b H). apply un_plain; auto; [lia..|]. intros Hin. vm_compute in Hin. lia. }
  assert (S2 : forall b, Forall (fun b => 32 <= b) (escape_debug b)).
  { intros b. destruct (N.lt_ge_cases b 128) as [H|H].
    - revert b H. apply (below (fun b => Forall (fun b => 32 <= b) (escape_debug b)) 128).
      apply Forall_forall. intros b Hb. apply Forall_forall. intros c Hc. apply N.leb_le. revert c Hc. apply forallb_forall.
      revert b Hb. apply forallb_forall. vm_compute. reflexivity.
    - rewrite (large b H). constructor; [lia|constructor]. }
  induction p as [|b p [I1 I2]]; cbn [flat_map]; [split; constructor|]. split; [now apply S1|]. apply Forall_app. auto.
Qed.

(** *** C83: everything hfxlst prints

    First "Loading index from", the argument and two dots, whatever happens.  If the index
    cannot be read, nothing else.  Otherwise the heading, with the source path in quotes, and
    one line per dataset; a run ends well exactly if it prints them. *)
Theorem C83_output fo bo fde fs input : exists rest,
  let (out, r) := hfxlst_run fo bo fde fs input in
  out = text "Loading index from " ++ input ++ text ".." ++ [10] ++ rest /\
  (forall path l, hfxlst fo bo fde fs input = Ok (path, l) -> Forall (fun ns => utf8_text (fst ns)) l ->
     r = Ok tt /\ exists line lines, heading path line /\ Forall2 line_of l lines /\ rest = line ++ [10] ++ concat lines) /\
  ((forall x, hfxlst fo bo fde fs input <> Ok x) -> rest = [] /\ r <> Ok tt) /\
  (r = Ok tt <-> rest <> []).
Proof.
  unfold hfxlst_run, hfxlst. destruct (fs input) as [b|].
  2:{ exists []. split; [reflexivity|]. split; [intros; discriminate|]. split; [split; [reflexivity|discriminate]|]. split; [discriminate|congruence]. }
  destruct (read_index fo bo fde b) as [i|e| | |] eqn:ER; cbn [bind failed].
  2,3,4,5: exists []; split; [reflexivity|]; split; [intros; discriminate|]; split; [split; [reflexivity|discriminate]|]; split; [discriminate|congruence].
  set (l0 := map (fun nd => (fst nd, d_shape (snd nd))) (gi_datasets (i_root i))).
  eexists. split; [|split; [|split]].
  - change T_LOADING with (text "Loading index from "). change [46; 46; 10] with (text ".." ++ [10]). rewrite <- !app_assoc. reflexivity.
  - intros path l [= <- <-] HU. split; [reflexivity|]. destruct (C68_format l0 HU) as (lines & HF & HL).
    destruct (i_path i) as [p|].
    + exists (text "Datasets (source path: """ ++ flat_map escape_debug p ++ text """)"), lines. split; [|split; [exact HF|]].
      * exists (flat_map escape_debug p). split; [apply escape_text|reflexivity].
      * rewrite HL. change (text "Datasets (source path: """) with (T_DATASETS ++ T_SOURCE ++ [34]). unfold show_path.
        cbn [app]. rewrite <- !app_assoc. cbn [app]. rewrite <- !app_assoc. reflexivity.
    + exists (text "Datasets"), lines. split; [reflexivity|]. split; [exact HF|]. rewrite HL, <- app_assoc. reflexivity.
  - intros H. exfalso. exact (H _ eq_refl).
  - split; [|reflexivity]. intros _. destruct (i_path i); discriminate.
Qed.
Print Assumptions C83_output.

(** *** C83: the text says everything

    Two runs that print the same, of arguments without line breaks and indexes whose dataset
    names are plain, had the same argument; both or none succeeded; and the source paths
    (whatever characters they have), the datasets, their order and their shapes are the same. *)
Theorem C83_same fo bo fde fo' bo' fde' fs fs' input input' out r r' :
  ~ In 10 input -> ~ In 10 input' ->
  (forall p l, hfxlst fo bo fde fs input = Ok (p, l) -> Forall (fun ns => plain_name (fst ns)) l) ->
  (forall p l, hfxlst fo' bo' fde' fs' input' = Ok (p, l) -> Forall (fun ns => plain_name (fst ns)) l) ->
  hfxlst_run fo bo fde fs input = (out, r) -> hfxlst_run fo' bo' fde' fs' input' = (out, r') ->
  input = input' /\ (r = Ok tt <-> r' = Ok tt) /\
  (r = Ok tt -> exists p l, hfxlst fo bo fde fs input = Ok (p, l) /\ hfxlst fo' bo' fde' fs' input' = Ok (p, l)).
Proof.
  intros Hi Hi' HP HP' E E'.
  assert (RUN : forall fo bo fde fs input out r, hfxlst_run fo bo fde fs input = (out, r) ->
    (out = T_LOADING ++ input ++ [46; 46; 10] /\ r <> Ok tt) \/
    r = Ok tt /\ exists p l, hfxlst fo bo fde fs input = Ok (p, l) /\
      out = T_LOADING ++ input ++ [46; 46; 10] ++
        match p with Some p => T_DATASETS ++ T_SOURCE ++ show_path p ++ [41; 10] | None => T_DATASETS ++ [10] end ++ print_listing l).
  { clear. intros fo bo fde fs input out r. unfold hfxlst_run, hfxlst. destruct (fs input) as [b|]; [|intros [= <- <-]; left; split; [auto|discriminate]].
    destruct (read_index fo bo fde b) as [i|e| | |]; cbn [bind failed]; intros [= <- <-]; try (left; split; [auto|discriminate]).
    right. split; [reflexivity|]. eexists. eexists. split; [reflexivity|]. rewrite <- !app_assoc. reflexivity. }
  assert (SP : forall input input' rest rest', ~ In 10 input -> ~ In 10 input' ->
    T_LOADING ++ input ++ [46; 46; 10] ++ rest = T_LOADING ++ input' ++ [46; 46; 10] ++ rest' -> input = input' /\ rest = rest').
  { clear. intros input input' rest rest' H H' E. apply app_inv_head in E.
    change ([46; 46; 10] ++ rest) with ([46; 46] ++ 10 :: rest) in E. change ([46; 46; 10] ++ rest') with ([46; 46] ++ 10 :: rest') in E.
    rewrite !app_assoc in E. apply split_first in E as [E1 E2].
    - split; auto. now apply app_inv_tail in E1.
    - intros X. apply in_app_or in X as [X|[X|[X|[]]]]; auto; discriminate.
    - intros X. apply in_app_or in X as [X|[X|[X|[]]]]; auto; discriminate. }
  assert (NE : forall (p : option str) l, match p with Some p => T_DATASETS ++ T_SOURCE ++ show_path p ++ [41; 10] | None => T_DATASETS ++ [10] end ++ print_listing l <> [])
    by (intros [p|] l; discriminate).
  apply RUN in E as [[E1 E2]|(-> & p & l & EL & E)]; apply RUN in E' as [[E1' E2']|(-> & p' & l' & EL' & E')].
  - subst out. rewrite <- (app_nil_r [46; 46; 10]) in E1'. apply SP in E1' as [<- _]; auto. split; auto. split; [tauto|]. contradiction.
  - exfalso. subst out. rewrite <- (app_nil_r [46; 46; 10]) in E' at 1. apply SP in E' as [_ E']; auto. now apply (NE p' l').
  - exfalso. subst out. rewrite <- (app_nil_r [46; 46; 10]) in E1' at 2. apply SP in E1' as [_ E1']; auto. now apply (NE p l).
  - subst out. apply SP in E' as [<- E']; auto. split; auto. split; [tauto|]. intros _. exists p, l. split; auto. rewrite EL'.
    destruct p as [p|], p' as [p'|]; rewrite <- !app_assoc in E'; apply app_inv_head in E'; try discriminate.
    + apply app_inv_head in E'. apply shown_inj in E' as [<- E']. injection E' as E'. apply C68_text in E'; [now subst|eauto..].
    + injection E' as E'. apply C68_text in E'; [now subst|eauto..].
Qed.
Print Assumptions C83_same.

(** *** C83: the texts of Python

    `repr` of an index says the path of the file and how many datasets its root group has; of a
    dataset, its name. *)
Theorem C83_repr i i' n n' :
  (index_repr i = index_repr i' <-> i_path i = i_path i' /\ length (gi_datasets (i_root i)) = length (gi_datasets (i_root i'))) /\
  (dataset_repr n = dataset_repr n' <-> n = n') /\
  (exists q num, decimal (lenN (gi_datasets (i_root i))) num /\
     match i_path i with
     | Some p => unescaped q p /\ index_repr i = text "Index(file: Some(""" ++ q ++ text """), datasets: " ++ num
     | None => index_repr i = text "Index(file: None, datasets: " ++ num
     end) /\
  dataset_repr n = text "Dataset (""" ++ n ++ text """)".
Proof.
  split; [|split; [|split]].
  - unfold index_repr. split.
    + intros E. apply app_inv_head in E. destruct (i_path i) as [p|], (i_path i') as [p'|]; rewrite <- ?app_assoc in E; try discriminate.
      * apply app_inv_head in E. apply shown_inj in E as [<- E]. apply app_inv_head in E. apply app_inv_head in E. apply show_inj in E.
        split; auto. unfold lenN in E. lia.
      * apply app_inv_head in E. apply app_inv_head in E. apply show_inj in E. split; auto. unfold lenN in E. lia.
    + intros [-> H]. unfold lenN. now rewrite H.
  - split; [|now intros ->]. unfold dataset_repr. intros E. apply app_inv_head in E. now apply app_inv_tail in E.
  - destruct (i_path i) as [p|] eqn:EP.
    + exists (flat_map escape_debug p), (show_u64 (lenN (gi_datasets (i_root i)))). split; [apply show_decimal|]. split; [apply escape_text|].
      unfold index_repr. rewrite EP. change (text "Index(file: Some(""") with (T_INDEX ++ [83; 111; 109; 101; 40] ++ [34]).
      change (text """), datasets: ") with ([34; 41] ++ T_COUNT). unfold show_path. cbn [app]. rewrite <- !app_assoc. reflexivity.
    + exists [], (show_u64 (lenN (gi_datasets (i_root i)))). split; [apply show_decimal|].
      unfold index_repr. rewrite EP. reflexivity.
  - reflexivity.
Qed.
Print Assumptions C83_repr.

(** *** C83: from file to text

    hfxidx has written the index of a file; hfxlst on it prints the path of that file. *)
Theorem C83_source m fo bo fser fde h5 fs input output ty root r tr :
  indexes m fo bo h5 fs input ty root ->
  (fo = true -> forall i b, bincode_serialize i = Ok b -> exists e, fde b = Err e) ->
  (forall x d, h5_dataset root [] x d -> utf8_text x) ->
  hfxidx m fo bo fser h5 fs input output ty r tr -> r = Ok tt ->
  exists q l lines, unescaped q input /\ lists root l /\ Forall2 line_of l lines /\
    hfxlst_run fo bo fde (last tr fs) output =
      (text "Loading index from " ++ output ++ text ".." ++ [10] ++
       text "Datasets (source path: """ ++ q ++ text """)" ++ [10] ++ concat lines, Ok tt).
Proof.
  intros HI HF HU HR Hr. destruct (C53_round_trip _ _ _ _ _ _ _ _ _ _ _ _ _ HI HF HR Hr) as (l & EL & HL).
  destruct (C83_output fo bo fde (last tr fs) output) as (rest & H). destruct (hfxlst_run fo bo fde (last tr fs) output) as [out r'].
  destruct H as (-> & HO & _). destruct (HO _ _ EL) as (-> & line & lines & (q & Uq & ->) & HLs & ->).
  - apply Forall_forall. intros [x s] Hx. apply HL in Hx as (d & Hd & _). eapply HU; eauto.
  - exists q, l, lines. split; auto. split; auto. split; auto. rewrite <- !app_assoc. reflexivity.
Qed.
Print Assumptions C83_source.

(** Paths with a quote, a line break and control characters; the index of [C53_case], listed;
    a file that is no index, and one that is not there. *)
Example C83_case m :
  show_path (text "a""b" ++ [10; 1; 127]) = text """a\""b\n\u{1}\u{7f}""" /\
  unescaped (text "a\""b\n\u{1}\u{7f}") (text "a""b" ++ [10; 1; 127]) /\
  (exists tr, hfxidx m false true no_flex ex_h5_open ex_fs ex_in ex_out (text "any") (Ok tt) tr /\
     indexes m false true ex_h5_open ex_fs ex_in (text "any") ex_tree /\
     snd (hfxlst_run false true no_flex_de (last tr ex_fs) ex_out) = Ok tt) /\
  hfxlst_run false true no_flex_de (fun _ => Some [1; 2]) (text "x") = (text "Loading index from x.." ++ [10], Err EDe) /\
  hfxlst_run false true no_flex_de (fun _ => None) (text "x") = (text "Loading index from x.." ++ [10], Err EOpen) /\
  ~ In 10 ex_out /\ utf8_text [120] /\ plain_name [120] /\
  index_repr ex_index = text "Index(file: Some(""" ++ ex_in ++ text """), datasets: 1".
Proof.
  split; [reflexivity|]. split; [exact (proj1 (escape_text (text "a""b" ++ [10; 1; 127])))|].
  destruct (C53_case m) as (A & (tr & B1 & B2 & B3) & _).
  split; [|split; [vm_compute; reflexivity|split; [reflexivity|]]].
  - exists tr. split; [exact B1|]. split; [exact A|]. unfold hfxlst in B3. unfold hfxlst_run.
    destruct (last tr ex_fs ex_out) as [b|]; [|discriminate]. destruct (read_index false true no_flex_de b); cbn [bind] in B3; try discriminate. reflexivity.
  - split; [vm_compute; intuition discriminate|]. split; [exists [120]; split; [repeat constructor|reflexivity]|]. split; [|reflexivity].
    split; [intros [H|[]]; discriminate|]. intros [|a [|b s]] H; discriminate.
Qed.
