(** CutFacts.v -- beginnings of JSON texts, and JSON texts followed by something (property C78) *)
From Coq Require Import String List NArith ZArith Bool Lia.
From Verif Require Import Base BaseFacts Types GenModel Float JsonModel JsonText JsonSafeSpec JsonSafe JsonTextSpec JsonTextFacts JsonTextTop JsonTextEnd GrammarSpec GrammarFacts CutSpec.
Import ListNotations.
Local Open Scope list_scope.

Lemma number_is_number T t j : number T t j -> is_number j.
Proof. intros [| |]; exact I. Qed.
Lemma value_number T t j : value_text T t j -> is_number j -> number T t j.
Proof. intros V N. destruct V; try contradiction. assumption. Qed.

(** where a value which is no number ends does not depend on what follows *)
Lemma any_end T t j : value_text T t j -> ~ is_number j -> forall rest f, (2 * length t < f)%nat -> parse_value T f (t ++ rest) = TOk j rest.
Proof.
  intros V NN rest [|f] L; [lia|]. destruct V as [| | |t j N|t s Q|w B|w t l B V|w B|w t ms B V]; try reflexivity.
  - destruct (NN (number_is_number T t j N)).
  - destruct (quoted_complete _ _ Q rest) as (t' & -> & P). cbn [parse_value]. cbn [beqb Byte.eqb]. 
    change (tbind (parse_string t') (fun x r => TOk (JStr x) r) = TOk (JStr s) rest). rewrite P. reflexivity.
  - change ((chr "[" ++ w ++ chr "]") ++ rest) with (Byte.x5b :: (w ++ [Byte.x5d]) ++ rest). rewrite <- app_assoc.
    change (match consume (bs "]") (skip_ws (w ++ [Byte.x5d] ++ rest)) with Some r => TOk (JArr []) r
      | None => tbind (parse_items T f (skip_ws (w ++ [Byte.x5d] ++ rest))) (fun l r => TOk (JArr l) r) end = TOk (JArr []) rest).
    rewrite skip_blanks by exact B. reflexivity.
  - change ((chr "[" ++ w ++ t ++ chr "]") ++ rest) with (Byte.x5b :: (w ++ t ++ [Byte.x5d]) ++ rest). rewrite <- !app_assoc.
    change (match consume (bs "]") (skip_ws (w ++ t ++ [Byte.x5d] ++ rest)) with Some r => TOk (JArr []) r
      | None => tbind (parse_items T f (skip_ws (w ++ t ++ [Byte.x5d] ++ rest))) (fun l r => TOk (JArr l) r) end = TOk (JArr l) rest).
    pose proof (items_headed T t l V) as Hd.
    rewrite skip_blanks by exact B. rewrite headed_ws by exact Hd. change (bs "]") with [Byte.x5d]. rewrite headed_not by (exact Hd || reflexivity).
    cbn [app]. rewrite (proj1 (proj2 (text_complete T)) t l V); [reflexivity|]. rewrite !app_length in L. cbn in L. lia.
  - change ((chr "{" ++ w ++ chr "}") ++ rest) with (Byte.x7b :: (w ++ [Byte.x7d]) ++ rest). rewrite <- app_assoc.
    change (match consume (bs "}") (skip_ws (w ++ [Byte.x7d] ++ rest)) with Some r => TOk (JObj []) r
      | None => tbind (parse_members T f (skip_ws (w ++ [Byte.x7d] ++ rest))) (fun l r => TOk (JObj l) r) end = TOk (JObj []) rest).
    rewrite skip_blanks by exact B. reflexivity.
  - change ((chr "{" ++ w ++ t ++ chr "}") ++ rest) with (Byte.x7b :: (w ++ t ++ [Byte.x7d]) ++ rest). rewrite <- !app_assoc.
    change (match consume (bs "}") (skip_ws (w ++ t ++ [Byte.x7d] ++ rest)) with Some r => TOk (JObj []) r
      | None => tbind (parse_members T f (skip_ws (w ++ t ++ [Byte.x7d] ++ rest))) (fun l r => TOk (JObj l) r) end = TOk (JObj ms) rest).
    rewrite skip_blanks by exact B. destruct (members_headed _ _ _ V) as (t' & Et).
    assert (Hw : forall r, skip_ws (t ++ r) = t ++ r) by (intros r; rewrite Et; reflexivity). rewrite Hw.
    assert (Hc : forall r, consume (bs "}") (t ++ r) = None) by (intros r; rewrite Et; reflexivity). rewrite Hc.
    cbn [app]. rewrite (proj2 (proj2 (text_complete T)) t ms V); [reflexivity|]. rewrite !app_length in L. cbn in L. lia.
Qed.

(** the first character tells whether it is a number *)
Lemma head_decides T t j t' j' x x' : value_text T t j -> ~ is_number j -> value_text T t' j' -> t ++ x = t' ++ x' -> ~ is_number j'.
Proof.
  intros V NN V' E N'. apply (value_number T t' j' V') in N'. apply number_head in N'. destruct N' as (b & u & -> & Hb).
  destruct V as [| | |t j N|t s (u' & -> & _)|w B|w t l B V|w B|w t ms B V]; try (cbn in E; injection E as <- _; destruct Hb as [Hb|Hb]; discriminate Hb).
  exact (NN (number_is_number T t j N)).
Qed.
Lemma same_end T t j t' j' x x' : value_text T t j -> ~ is_number j -> value_text T t' j' -> t ++ x = t' ++ x' -> t = t' /\ j = j' /\ x = x'.
Proof.
  intros V NN V' E. pose proof (head_decides T t j t' j' x x' V NN V' E) as NN'.
  pose proof (any_end T t j V NN x (S (2 * length t + 2 * length t')) ltac:(lia)) as P.
  pose proof (any_end T t' j' V' NN' x' (S (2 * length t + 2 * length t')) ltac:(lia)) as P'. rewrite E in P. rewrite P in P'. injection P' as -> ->.
  apply app_inv_tail in E. auto.
Qed.

Lemma start m w t x : mark m -> blanks w -> headed t -> skip_ws (skip_bom (m ++ w ++ t ++ x)) = t ++ x.
Proof.
  intros M B Hd.
  assert (NM : no_mark (w ++ t ++ x)).
  { destruct B as [|b w0 Hb _]; cbn [app].
    - destruct Hd as (b & t' & -> & H). cbn [app no_mark]. destruct b; try discriminate H; repeat split; discriminate.
    - cbn [no_mark]. repeat (destruct Hb as [<- | Hb]; [repeat split; discriminate|]). destruct Hb. }
  rewrite skip_mark by assumption. rewrite skip_blanks by exact B. apply headed_ws. exact Hd.
Qed.

Lemma cut_refused T m w t j q s : mark m -> blanks w -> value_text T t j -> ~ is_number j -> m ++ w ++ t = q ++ s -> s <> [] ->
  forall j', ~ json_text T q j'.
Proof.
  intros M B V NN E NE j' (m2 & w2 & t2 & w2' & rest & -> & M2 & B2 & V2 & B2' & R).
  pose proof (start m w t [] M B (value_headed T t j V)) as S1. rewrite app_nil_r in S1.
  pose proof (start m2 w2 t2 (w2' ++ rest ++ s) M2 B2 (value_headed T t2 j' V2)) as S2. rewrite <- !app_assoc in E.
  rewrite E, S2 in S1. rewrite <- (app_nil_r t) in S1. destruct (same_end T t j t2 j' [] (w2' ++ rest ++ s) V NN V2 (eq_sym S1)) as (_ & _ & X).
  destruct w2'; [|discriminate]. destruct rest; [|discriminate]. cbn in X. congruence.
Qed.

Lemma extended_iff T m w t j x : mark m -> blanks w -> value_text T t j -> ~ is_number j ->
  forall j', json_text T (m ++ w ++ t ++ x) j' <-> j' = j /\ exists w' rest, x = w' ++ rest /\ blanks w' /\ (rest = [] \/ hd_error rest = Some Byte.x00).
Proof.
  intros M B V NN j'. split.
  - intros (m2 & w2 & t2 & w2' & rest & E & M2 & B2 & V2 & B2' & R).
    pose proof (start m w t x M B (value_headed T t j V)) as S1. rewrite E in S1. rewrite (start m2 w2 t2 (w2' ++ rest) M2 B2 (value_headed T t2 j' V2)) in S1.
    destruct (same_end T t j t2 j' x (w2' ++ rest) V NN V2 (eq_sym S1)) as (_ & <- & ->). split; [reflexivity|]. exists w2', rest. auto.
  - intros (-> & w' & rest & -> & B' & R). exists m, w, t, w', rest. auto 10.
Qed.

(** * texts written by the library *)
Lemma cut_refused_parse T m w t j q : mark m -> blanks w -> value_text T t j -> ~ is_number j -> cut_text q (m ++ w ++ t) -> parseJsonDocFromString T q = TErr.
Proof.
  intros M B V NN (s & NE & E). destruct (doc_total T q) as [P|(j' & r & P & _)]; [exact P|]. exfalso.
  eapply (cut_refused T m w t j q s M B V NN E NE j'). eapply document_sound. exact P.
Qed.
Lemma no_mark_text : mark [].
Proof. exists [], [], []. auto. Qed.
Lemma nulled_number j : ~ is_number j -> ~ is_number (nulled j).
Proof. destruct j; cbn; auto. Qed.
Lemma nulled_ints j : ints_ok j -> ints_ok (nulled j).
Proof.
  induction j as [| b | z | n | s | l IH | ms IH] using json_ind2; cbn [nulled]; intros W; try exact W.
  - destruct (f64_finite n); [exact W|]. split; exact I.
  - apply ew_arr; [exact I|]. apply Forall_map, Forall_forall. intros x Hx. apply (proj1 (Forall_forall _ _) IH x Hx). eapply ew_item; eauto.
  - apply ew_obj; [exact I|]. apply Forall_map, Forall_forall. intros [n x] Hx. cbn [snd]. apply (proj1 (Forall_forall _ _) IH _ Hx). cbn [snd]. eapply ew_member; eauto.
Qed.
Lemma written_text T j : dtoa_ok T -> ints_ok j -> finite j -> exists j', value_text T (serializeJsonDocToString T j) j' /\ reparsed T j j'.
Proof.
  intros D I F. apply (write_complete T) in F. destruct (write T j) as [t ok] eqn:E. cbn in F. subst ok.
  destruct (parses_all T D j I t E) as (j' & R & P). exists j'. split; [|exact R]. unfold serializeJsonDocToString. rewrite E. cbn [fst].
  specialize (P [] (S (2 * length t)) Logic.I (Nat.lt_succ_diag_r _)). apply (proj1 (text_sound T _)) in P. destruct P as (t' & Et & V). rewrite !app_nil_r in Et. subst t'. exact V.
Qed.
Lemma reparsed_number T j j' : reparsed T j j' -> is_number j' -> is_number j.
Proof. intros [] N; try exact N; exact I. Qed.

Lemma written_cut_refused T j q : dtoa_ok T -> ints_ok j -> ~ is_number j -> cut_text q (serializeJsonDocToString T j) -> parseJsonDocFromString T q = TErr.
Proof.
  intros D I NN (s & NE & E).
  assert (X: exists s', s' <> [] /\ serializeJsonDocToString T (nulled j) = q ++ s').
  { unfold serializeJsonDocToString in *. destruct (cut_all T j) as [C1 C2]. destruct (snd (write T j)) eqn:K.
    - rewrite (C1 eq_refl). eauto.
    - destruct (C2 eq_refl) as [rest ->]. rewrite E, <- app_assoc. eexists. split; [|reflexivity]. intros Z. apply app_eq_nil in Z. destruct Z; auto. }
  destruct (written_text T (nulled j) D (nulled_ints j I) (null_finite j)) as (j' & V & R).
  apply (cut_refused_parse T [] [] _ j' q no_mark_text (Forall_nil _) V).
  - intros N. apply (nulled_number j NN). exact (reparsed_number T _ _ R N).
  - exact X.
Qed.

(** * the last character *)
Lemma decimal_last ds : digit_run ds -> exists u b, ds = u ++ [b] /\ is_digit b = true.
Proof.
  intros [NE [n D]]. destruct D as [|ds n b d D Hd Hb]; [contradiction|]. exists ds, b. split; [reflexivity|]. unfold is_digit. rewrite andb_true_iff, !N.leb_le. lia.
Qed.
Lemma ends_app a t (P : Byte.byte -> Prop) : (exists u b, t = u ++ [b] /\ P b) -> exists u b, a ++ t = u ++ [b] /\ P b.
Proof. intros (u & b & -> & H). exists (a ++ u), b. rewrite app_assoc. auto. Qed.
Definition solid (b : Byte.byte) : Prop := ~ In b [Byte.x20; Byte.x09; Byte.x0a; Byte.x0d; Byte.x00].
Lemma digit_solid b : is_digit b = true -> solid b.
Proof. intros D I. repeat (destruct I as [<- | I]; [discriminate D|]). destruct I. Qed.
Lemma run_solid ds : digit_run ds -> exists u b, ds = u ++ [b] /\ solid b.
Proof. intros R. apply decimal_last in R. destruct R as (u & b & E & D). exists u, b. split; [exact E|apply digit_solid, D]. Qed.
Lemma number_last m i f e : number_text m i f e -> exists u b, m ++ i ++ f ++ e = u ++ [b] /\ solid b.
Proof.
  intros [_ Hi Hf He]. apply ends_app. destruct He as [-> |(x & g & d & -> & _ & _ & R)]; [|apply ends_app, ends_app, ends_app, ends_app, run_solid, R].
  rewrite app_nil_r. destruct Hf as [-> |(d & -> & R)]; [|apply ends_app, ends_app, run_solid, R].
  rewrite app_nil_r. destruct Hi as [-> | [R _]]; [|apply run_solid, R]. exists [], Byte.x30. split; [reflexivity|apply digit_solid; reflexivity].
Qed.
Lemma value_last T t j : value_text T t j -> exists u b, t = u ++ [b] /\ solid b.
Proof.
  assert (L: forall a c, solid c -> exists u b, a ++ [c] = u ++ [b] /\ solid b) by (intros a c H; exists a, c; auto).
  assert (S1: forall c, c = Byte.x5d \/ c = Byte.x7d \/ c = Byte.x22 \/ c = Byte.x6c \/ c = Byte.x65 -> solid c).
  { intros c H I. repeat (destruct I as [<- | I]; [repeat (destruct H as [H|H]; try discriminate H); discriminate H|]). destruct I. }
  intros [| | |t0 j0 N|t0 s (x & -> & _)|w _|w t0 l _ _|w _|w t0 ms _ _].
  - apply (L (chr "nul")). apply S1. auto 10.
  - apply (L (chr "tru")). apply S1. auto 10.
  - apply (L (chr "fals")). apply S1. auto 10.
  - destruct N as [m i z NT _ _|m i z d NT _ _ _|m i f e d NT _ _]; apply number_last in NT; rewrite ?app_nil_r in NT; exact NT.
  - apply (ends_app [_] (x ++ [_])). apply L, S1. auto 10.
  - apply (ends_app [_] (w ++ [_])). apply L, S1. auto 10.
  - apply (ends_app [_] (w ++ t0 ++ [_])). apply ends_app. apply L, S1. auto 10.
  - apply (ends_app [_] (w ++ [_])). apply L, S1. auto 10.
  - apply (ends_app [_] (w ++ t0 ++ [_])). apply ends_app. apply L, S1. auto 10.
Qed.
Lemma blanks_last u b : solid b -> ~ blanks (u ++ [b]).
Proof. intros S B. apply Forall_app in B. destruct B as [_ B]. inversion B as [|? ? Hb _]; subst. apply S. cbn in *. tauto. Qed.

Lemma overwritten T j1 j2 s : dtoa_ok T -> ints_ok j1 -> ints_ok j2 -> finite j1 -> finite j2 -> ~ is_number j1 ->
  s <> [] -> (exists p, serializeJsonDocToString T j2 = p ++ s) -> parseJsonDocFromString T (serializeJsonDocToString T j1 ++ s) = TErr.
Proof.
  intros D I1 I2 F1 F2 NN NE (p & E).
  destruct (written_text T j1 D I1 F1) as (j1' & V1 & R1). destruct (written_text T j2 D I2 F2) as (j2' & V2 & _).
  assert (NC: no_control s).
  { pose proof (write_no_control T j2 D) as N. unfold serializeJsonDocToString in E. rewrite E in N. apply Forall_app in N. apply N. }
  destruct (doc_total T (serializeJsonDocToString T j1 ++ s)) as [P|(j' & r & P & _)]; [exact P|]. exfalso.
  apply document_sound in P.
  assert (NN': ~ is_number j1') by (intros N; apply NN; exact (reparsed_number T _ _ R1 N)).
  destruct (proj1 (extended_iff T [] [] _ j1' s no_mark_text (Forall_nil _) V1 NN' j') P) as (_ & w' & rest & -> & B & R).
  destruct R as [-> | R].
  - rewrite app_nil_r in *. destruct (value_last T _ _ V2) as (u & b & E2 & S). rewrite E2 in E. destruct (exists_last NE) as (u' & b' & Ew).
    rewrite Ew, app_assoc in E. apply app_inj_tail in E. destruct E as [_ <-]. rewrite Ew in B. exact (blanks_last u' b S B).
  - destruct rest as [|x rest]; [discriminate|]. injection R as ->. apply Forall_app in NC. destruct NC as [_ NC]. inversion NC as [|? ? H _]; subst. cbn in H. lia.
Qed.
