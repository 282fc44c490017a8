(** JsonTextTop.v -- incomplete texts, arbitrary texts, whole documents *)
From Coq Require Import String List NArith ZArith Bool Lia.
From Verif Require Import Base BaseFacts Types GenModel Float JsonModel JsonSafeSpec JsonSafe JsonText JsonTextSpec JsonTextFacts.
Import ListNotations.
Local Open Scope list_scope.
Local Open Scope N_scope.

(* ------------------------------------------------------------------ *)
(** * Completeness of the text *)

Lemma write_complete T j : snd (write T j) = true <-> finite j.
Proof.
  unfold finite. induction j as [| b | z | n | s | l IH | ms IH] using json_ind2; cbn [everywhere].
  - cbn. tauto.
  - destruct b; cbn; tauto.
  - cbn. tauto.
  - cbn [write]. destruct (f64_finite n); cbn; intuition discriminate.
  - cbn. tauto.
  - rewrite write_arr. unfold wbind at 1. cbn [fst snd].
    assert (Q: forall b, snd (witems T b l) = true <-> (fix all l := match l with [] => True | x :: l' => everywhere (fun j => match j with JDbl n => f64_finite n = true | _ => True end) x /\ all l' end) l).
    { induction IH as [|x l Hx F IHl]; intros b; [cbn; tauto|]. cbn [witems]. unfold wbind at 1. cbn [fst snd]. rewrite <- Hx, <- (IHl false). unfold wbind.
      destruct (snd (write T x)) eqn:W; cbn [snd]; rewrite ?W; intuition congruence. }
    rewrite Q. tauto.
  - rewrite write_obj. unfold wbind at 1. cbn [fst snd].
    assert (Q: forall b, snd (wmembers T b ms) = true <-> (fix all ms := match ms with [] => True | (_, x) :: ms' => everywhere (fun j => match j with JDbl n => f64_finite n = true | _ => True end) x /\ all ms' end) ms).
    { induction IH as [|[n x] l Hx F IHl]; intros b; [cbn; tauto|]. cbn [wmembers]. unfold wbind at 1. cbn [fst snd] in *. rewrite <- Hx, <- (IHl false). unfold wbind.
      destruct (snd (write T x)) eqn:W; cbn [snd]; rewrite ?W; intuition congruence. }
    rewrite Q. tauto.
Qed.

(* ------------------------------------------------------------------ *)
(** * What is not written completely is not parsed *)

Definition fails (T : tenv) (j : json) : Prop := forall t, write T j = (t, false) -> forall f, (2 * length t < f)%nat -> parse_value T f t = TErr.

Lemma witems_first T l t : witems T false l = (t, false) -> exists t', t = bs "," ++ t' /\ witems T true l = (t', false).
Proof.
  destruct l as [|x l]; [discriminate|]. cbn [witems]. intros H. apply wbind_fail in H. destruct H as [H|(ta & tb & E & H & ->)]; [discriminate|].
  inversion E; subst. exists tb. split; [reflexivity|]. unfold wbind at 1. cbn [fst snd app]. destruct (wbind (write T x) (witems T false l)); inversion H; reflexivity.
Qed.
Lemma wmembers_first T l t : wmembers T false l = (t, false) -> exists t', t = bs "," ++ t' /\ wmembers T true l = (t', false).
Proof.
  destruct l as [|[n x] l]; [discriminate|]. cbn [wmembers]. intros H. apply wbind_fail in H. destruct H as [H|(ta & tb & E & H & ->)]; [discriminate|].
  exists (([] ++ write_string n ++ bs ":") ++ tb). assert (ta = bs "," ++ write_string n ++ bs ":") by congruence. subst ta. split; [rewrite <- !app_assoc; reflexivity|].
  unfold wbind at 1. cbn [fst snd]. rewrite H. reflexivity.
Qed.
Lemma witems_headed T l t : dtoa_ok T -> witems T true l = (t, false) -> headed t \/ t = [].
Proof.
  intros D. destruct l as [|x l]; [discriminate|]. cbn [witems]. intros H. apply wbind_fail in H. destruct H as [H|(ta & tb & E & H & ->)]; [discriminate|].
  inversion E; subst. cbn [app]. apply wbind_fail in H. destruct H as [H|(tx & tl & Wx & Wl & ->)].
  - apply write_headed in H; [|exact D]. tauto.
  - left. apply write_true_headed in Wx; [|exact D]. destruct Wx as (b & t' & -> & V). exists b, (t' ++ tl). auto.
Qed.
Lemma headed_ws0 t : headed t \/ t = [] -> skip_ws t = t.
Proof. intros [H| ->]; [|reflexivity]. rewrite <- (app_nil_r t). apply headed_ws, H. Qed.

Lemma items_fail T : dtoa_ok T -> forall l, Forall (parses T) l -> Forall (fails T) l -> forall t, witems T true l = (t, false) ->
  forall f, (2 * length t + 1 < f)%nat -> parse_items T f t = TErr.
Proof.
  intros D. induction l as [|x l IH]; intros FP FF t Ht f Hf; [discriminate|]. inversion FP as [|? ? Px FP']; subst. inversion FF as [|? ? Fx FF']; subst.
  cbn [witems] in Ht. apply wbind_fail in Ht. destruct Ht as [Ht|(ta & tb & E & Ht & ->)]; [discriminate|]. inversion E; subst ta; clear E. cbn [app] in *.
  apply wbind_fail in Ht. destruct f as [|f]; [lia|]. cbn [parse_items]. destruct Ht as [Ht|(tx & tl & Wx & Wl & ->)].
  - rewrite (Fx _ Ht) by lia. reflexivity.
  - apply witems_first in Wl. destruct Wl as (t' & -> & Wl). destruct (Px tx Wx) as (x' & _ & Hx). rewrite !app_length in Hf. change (length (bs ",")) with 1%nat in Hf.
    rewrite Hx; [|apply stops_byte; try reflexivity; discriminate|lia]. cbn [tbind]. change (skip_ws (bs "," ++ t')) with (bs "," ++ t'). change (consume (bs ",") (bs "," ++ t')) with (Some t'). cbv iota.
    rewrite headed_ws0 by (eapply witems_headed; eauto). rewrite (IH FP' FF' t' Wl) by lia. reflexivity.
Qed.

Lemma members_fail T : dtoa_ok T -> forall l, Forall (fun x => parses T (snd x)) l -> Forall (fun x => fails T (snd x)) l -> forall t, wmembers T true l = (t, false) ->
  (exists n t', t = write_string n ++ t') /\ forall f, (2 * length t < f)%nat -> parse_members T f t = TErr.
Proof.
  intros D. induction l as [|[n x] l IH]; intros FP FF t Ht; [discriminate|]. inversion FP as [|? ? Px FP']; subst. inversion FF as [|? ? Fx FF']; subst. cbn [snd] in *.
  cbn [wmembers] in Ht. apply wbind_fail in Ht. destruct Ht as [Ht|(ta & tb & E & Ht & ->)]; [discriminate|].
  assert (ta = write_string n ++ bs ":") by (cbn [app] in E; congruence). subst ta. clear E. split; [exists n, (bs ":" ++ tb); rewrite <- app_assoc; reflexivity|]. intros f Hf.
  destruct f as [|f]; [lia|]. rewrite !app_length in Hf. change (length (bs ":")) with 1%nat in Hf. cbn [parse_members]. unfold write_string at 1. rewrite <- !app_assoc.
  match goal with |- context [consume quote (quote ++ ?z)] => change (consume quote (quote ++ z)) with (Some z) end. cbv iota.
  rewrite parse_string_write. cbn [tbind]. match goal with |- context [skip_ws (bs ":" ++ ?z)] => change (skip_ws (bs ":" ++ z)) with (bs ":" ++ z); change (consume (bs ":") (bs ":" ++ z)) with (Some z) end. cbv iota.
  apply wbind_fail in Ht. destruct Ht as [Ht|(tx & tl & Wx & Wl & ->)].
  - apply write_headed in Ht as Hh; [|exact D]. rewrite headed_ws0 by tauto. rewrite (Fx _ Ht) by lia. reflexivity.
  - apply wmembers_first in Wl. destruct Wl as (t' & -> & Wl). destruct (Px tx Wx) as (x' & _ & Hx). rewrite !app_length in Hf. change (length (bs ",")) with 1%nat in Hf.
    rewrite headed_ws by (eapply write_true_headed; eauto).
    rewrite Hx; [|apply stops_byte; try reflexivity; discriminate|lia]. cbn [tbind]. change (skip_ws (bs "," ++ t')) with (bs "," ++ t'). change (consume (bs ",") (bs "," ++ t')) with (Some t'). cbv iota.
    destruct (IH FP' FF' t' Wl) as ((m & t2 & ->) & HI). change (skip_ws (write_string m ++ t2)) with (write_string m ++ t2). rewrite HI by lia. reflexivity.
Qed.

Lemma fails_all T : dtoa_ok T -> forall j, ints_ok j -> fails T j.
Proof.
  intros D j. induction j as [| b | z | n | s | l IH | ms IH] using json_ind2; intros W t Ht f Hf.
  - discriminate Ht.
  - destruct b; discriminate Ht.
  - discriminate Ht.
  - cbn [write] in Ht. destruct (f64_finite n); inversion Ht; subst. destruct f; [lia|reflexivity].
  - discriminate Ht.
  - assert (WF: Forall ints_ok l) by (apply Forall_forall; intros x Hx; eapply ew_item; eauto).
    assert (F: Forall (fails T) l) by (clear -IH WF; induction l; inversion IH; inversion WF; subst; constructor; auto).
    assert (P: Forall (parses T) l) by (eapply Forall_impl; [|exact WF]; intros; apply parses_all; auto).
    rewrite write_arr in Ht. apply wbind_fail in Ht. destruct Ht as [Ht|(ta & ti & E & Wi & ->)]; [discriminate|]. inversion E; subst ta; clear E.
    rewrite app_length in Hf. change (length (bs "[")) with 1%nat in Hf. destruct f; [lia|].
    change (parse_value T (S f) (bs "[" ++ ti)) with (match consume (bs "]") (skip_ws ti) with Some r => TOk (JArr []) r | None => tbind (parse_items T f (skip_ws ti)) (fun l r => TOk (JArr l) r) end).
    pose proof (witems_headed T l ti D Wi) as Hh. rewrite headed_ws0 by exact Hh.
    assert (consume (bs "]") ti = None) as ->.
    { destruct Hh as [Hh| ->]; [|reflexivity]. rewrite <- (app_nil_r ti). change (bs "]") with [Byte.x5d]. apply headed_not; [exact Hh|reflexivity]. }
    rewrite (items_fail T D l P F ti Wi) by lia. reflexivity.
  - assert (WF: Forall (fun x => ints_ok (snd x)) ms) by (apply Forall_forall; intros [n x] Hx; eapply ew_member; eauto).
    assert (F: Forall (fun x => fails T (snd x)) ms) by (clear -IH WF; induction ms; inversion IH; inversion WF; subst; constructor; auto).
    assert (P: Forall (fun x => parses T (snd x)) ms) by (eapply Forall_impl; [|exact WF]; intros; apply parses_all; auto).
    rewrite write_obj in Ht. apply wbind_fail in Ht. destruct Ht as [Ht|(ta & ti & E & Wi & ->)]; [discriminate|]. inversion E; subst ta; clear E.
    rewrite app_length in Hf. change (length (bs "{")) with 1%nat in Hf. destruct f; [lia|].
    change (parse_value T (S f) (bs "{" ++ ti)) with (match consume (bs "}") (skip_ws ti) with Some r => TOk (JObj []) r | None => tbind (parse_members T f (skip_ws ti)) (fun l r => TOk (JObj l) r) end).
    destruct (members_fail T D ms P F ti Wi) as ((m & t' & ->) & HI). change (skip_ws (write_string m ++ t')) with (write_string m ++ t').
    change (consume (bs "}") (write_string m ++ t')) with (@None bytes). rewrite HI by lia. reflexivity.
Qed.

(* ------------------------------------------------------------------ *)
(** * Whole documents *)

Lemma headed_bom t : headed t -> skip_bom t = t.
Proof. intros (b & t' & -> & H). destruct b; try discriminate H; reflexivity. Qed.
Lemma headed_end t : headed t -> at_end t = false.
Proof. intros (b & t' & -> & H). destruct b; try discriminate H; reflexivity. Qed.

Lemma doc_complete T j : dtoa_ok T -> ints_ok j -> finite j ->
  exists j', reparsed T j j' /\ parseJsonDocFromString T (serializeJsonDocToString T j) = TOk j' [].
Proof.
  intros D W F. unfold serializeJsonDocToString. apply (write_complete T) in F. destruct (write T j) as [t b] eqn:E. cbn [fst snd] in *. subst b.
  destruct (parses_all T D j W t E) as (j' & R & HP). exists j'. split; [exact R|]. unfold parseJsonDocFromString.
  pose proof (write_true_headed T j t D E) as Hh. rewrite headed_bom, headed_ws0, headed_end by auto.
  rewrite <- (app_nil_r t) at 2. rewrite HP; [reflexivity|exact I|lia].
Qed.
Lemma doc_incomplete T j : dtoa_ok T -> ints_ok j -> ~ finite j -> parseJsonDocFromString T (serializeJsonDocToString T j) = TErr.
Proof.
  intros D W F. unfold serializeJsonDocToString. rewrite <- (write_complete T) in F. destruct (write T j) as [t b] eqn:E. cbn [fst snd] in *. destruct b; [contradiction F; reflexivity|].
  unfold parseJsonDocFromString. destruct (write_headed T j t false D E) as [Hh|[_ ->]]; [|reflexivity].
  rewrite headed_bom, headed_ws0, headed_end by auto. rewrite (fails_all T D j W t E) by lia. reflexivity.
Qed.

Lemma reparsed_same T j : doubles (survives T) j -> forall j', reparsed T j j' -> j' = j.
Proof.
  induction j as [| b | z | n | s | l IH | ms IH] using json_ind2; intros S j' R; inversion R as [| | | |  | l0 l' HF| ms0 ms' HF]; subst; try reflexivity.
  - destruct S as [S _]. unfold survives in S. congruence.
  - f_equal. assert (SF: Forall (doubles (survives T)) l) by (apply Forall_forall; intros x Hx; eapply ew_item; eauto). clear R S.
    induction HF as [|x y l l' Hx HF IHl]; [reflexivity|]. inversion IH; subst. inversion SF; subst. f_equal; auto.
  - f_equal. assert (SF: Forall (fun x => doubles (survives T) (snd x)) ms) by (apply Forall_forall; intros [n x] Hx; eapply ew_member; eauto). clear R S.
    induction HF as [|[n x] [m y] l l' [E Hx] HF IHl]; [reflexivity|]. inversion IH; subst. inversion SF; subst. cbn [fst snd] in *. subst m. f_equal; [|auto]. f_equal. auto.
Qed.

(* ------------------------------------------------------------------ *)
(** * Arbitrary texts *)

Lemma skip_ws_len s : (length (skip_ws s) <= length s)%nat.
Proof. induction s as [|b s IH]; cbn; [lia|]. destruct (is_ws b); cbn; lia. Qed.
Lemma consume_len w : forall s r, consume w s = Some r -> length s = (length w + length r)%nat.
Proof.
  induction w as [|c w IH]; intros s r H; cbn in H; [inversion H; reflexivity|]. destruct s as [|b s]; [discriminate|]. destruct (beqb c b); [|discriminate]. apply IH in H. cbn. lia.
Qed.

Definition shrinks {A} (m : tres A) (s : bytes) : Prop := m <> TFuel /\ forall a r, m = TOk a r -> (length r < length s)%nat.
Lemma shrinks_put c m s s' : shrinks m s -> (length s <= length s')%nat -> shrinks (put c m) s'.
Proof. intros [H1 H2] L. unfold put, tbind. destruct m as [a r| |]; split; try discriminate; try contradiction. intros a' r' E. inversion E; subst. specialize (H2 _ _ eq_refl). lia. Qed.
Lemma shrinks_err {A} s : shrinks (@TErr A) s. Proof. split; discriminate. Qed.

Lemma parse_string_shrinks n : forall s, (length s <= n)%nat -> shrinks (parse_string s) s.
Proof.
  induction n as [|n IH]; intros s L; (destruct s as [|b s1]; [apply shrinks_err|]); [cbn in L; lia|]. cbn [length] in L. cbn [parse_string].
  destruct (beqb b Byte.x5c).
  - destruct s1 as [|e s2]; [apply shrinks_err|]. destruct (unescape e); [eapply shrinks_put; [apply IH; cbn in *; lia|cbn; lia]|].
    destruct (beqb e Byte.x75); [|apply shrinks_err]. destruct s2 as [|h1 [|h2 [|h3 [|h4 s3]]]]; try apply shrinks_err. destruct (hex4 h1 h2 h3 h4) as [c|]; [|apply shrinks_err].
    destruct ((55296 <=? c) && (c <=? 57343)); [|eapply shrinks_put; [apply IH; cbn in *; lia|cbn; lia]].
    destruct (c <=? 56319); [|apply shrinks_err]. destruct s3 as [|k1 [|k2 [|l1 [|l2 [|l3 [|l4 s4]]]]]]; try apply shrinks_err.
    destruct (beqb k1 Byte.x5c && beqb k2 Byte.x75); [|apply shrinks_err]. destruct (hex4 l1 l2 l3 l4) as [d|]; [|apply shrinks_err].
    destruct ((56320 <=? d) && (d <=? 57343)); [|apply shrinks_err]. eapply shrinks_put; [apply IH; cbn in *; lia|cbn; lia].
  - destruct (beqb b Byte.x22); [split; [discriminate|]; intros a r E; inversion E; subst; cbn; lia|].
    destruct (bval b <? 32); [apply shrinks_err|]. eapply shrinks_put; [apply IH; lia|cbn; lia].
Qed.
Lemma digits_len s : (length (snd (digits s)) <= length s)%nat /\ (fst (digits s) <> [] -> length (snd (digits s)) < length s)%nat.
Proof.
  induction s as [|b s [I1 I2]]; cbn; [split; [lia|contradiction]|]. destruct (is_digit b); [|cbn; split; [lia|contradiction]].
  destruct (digits s) as [d r]. cbn in *. split; [|intros _]; lia.
Qed.
Lemma int_part_len s ip r : int_part s = Some (ip, r) -> (length r < length s)%nat.
Proof.
  destruct s as [|b s]; [discriminate|]. cbn [int_part]. destruct (beqb b Byte.x30); [intros E; inversion E; subst; cbn; lia|]. destruct (is_digit b) eqn:E; [|discriminate].
  intros Q. assert (Q': digits (b :: s) = (ip, r)) by congruence. pose proof (proj2 (digits_len (b :: s))) as L. rewrite Q' in L. cbn [fst snd] in L. apply L.
  cbn in Q'. rewrite E in Q'. destruct (digits s). inversion Q'. discriminate.
Qed.
Lemma frac_part_len s fp r : frac_part s = Some (fp, r) -> (length r <= length s)%nat.
Proof.
  destruct s as [|b s]; cbn [frac_part]; [intros E; inversion E; subst; lia|].
  assert (D: forall fp r, match digits s with ([], _) => None | (d, r) => Some (Byte.x2e :: d, r) end = Some (fp, r) -> (length r <= length (b :: s))%nat).
  { intros fp' r' E. pose proof (proj1 (digits_len s)) as L. destruct (digits s) as [[|x d] r0]; [discriminate|]. inversion E; subst. cbn in *. lia. }
  destruct b; try (intros E; inversion E; subst; cbn; lia). apply D.
Qed.
Lemma exp_part_len s ep r : exp_part s = Some (ep, r) -> (length r <= length s)%nat.
Proof.
  destruct s as [|b s]; cbn [exp_part]; [intros E; inversion E; subst; lia|].
  assert (D: forall e fp r, (let '(g, s2) := match s with (Byte.x2b | Byte.x2d) as c :: s'' => ([c], s'') | _ => ([], s) end in
      match digits s2 with ([], _) => None | (d, r) => Some (e :: g ++ d, r) end) = Some (fp, r) -> (length r <= length (b :: s))%nat).
  { intros e fp' r' E. 
    assert (X: exists g s2, (match s with (Byte.x2b | Byte.x2d) as c :: s'' => ([c], s'') | _ => ([], s) end) = (g, s2) /\ (length s2 <= length s)%nat).
    { destruct s as [|c s']; [eexists _, _; split; [reflexivity|lia]|]. destruct c; eexists _, _; (split; [reflexivity|cbn; lia]). }
    destruct X as (g & s2 & X & L2). rewrite X in E. pose proof (proj1 (digits_len s2)) as L. destruct (digits s2) as [[|x d] r0]; [discriminate|]. inversion E; subst. cbn in *. lia. }
  destruct b; try (intros E; inversion E; subst; cbn; lia); apply D.
Qed.
Lemma minus_len s : (length (snd (minus s)) <= length s)%nat.
Proof. destruct s as [|b s]; cbn; [lia|]. destruct b; cbn; lia. Qed.

Definition int64 (z : Z) : Prop := (- 2 ^ 63 <= z < 2 ^ 64)%Z.
Lemma parse_number_spec T s : shrinks (parse_number T s) s
  /\ forall j r, parse_number T s = TOk j r -> (exists z, j = JInt z /\ int64 z) \/ (exists n x, j = JDbl n /\ te_strtod T x = Some n).
Proof.
  rewrite parse_number_unfold. destruct (minus s) as [m s0] eqn:M. pose proof (minus_len s) as L0. rewrite M in L0. cbn [snd] in L0.
  destruct (int_part s0) as [[ip s1]|] eqn:E1; [|split; [apply shrinks_err|discriminate]]. apply int_part_len in E1.
  destruct (frac_part s1) as [[fp s2]|] eqn:E2; [|split; [apply shrinks_err|discriminate]]. apply frac_part_len in E2.
  destruct (exp_part s2) as [[ep s3]|] eqn:E3; [|split; [apply shrinks_err|discriminate]]. apply exp_part_len in E3.
  unfold number_of. match goal with |- context [if ?c then _ else _] => destruct c eqn:C end.
  - split; [split; [discriminate|]; intros a r E; inversion E; subst; lia|]. intros j r E. inversion E; subst. left. eexists. split; [reflexivity|].
    apply andb_true_iff in C. destruct C as [_ C]. apply N.ltb_lt in C. unfold int64. destruct m; lia.
  - destruct (te_strtod T (m ++ ip ++ fp ++ ep)) as [n|] eqn:ED; [|split; [apply shrinks_err|discriminate]].
    split; [split; [discriminate|]; intros a r E; inversion E; subst; lia|]. intros j r E. inversion E; subst. right. eexists _, _. split; [reflexivity|exact ED].
Qed.

(** numbers of a parsed document *)
Definition parsed_ok (T : tenv) : json -> Prop := everywhere (fun j =>
  match j with JInt z => int64 z | JDbl n => exists x, te_strtod T x = Some n | _ => True end).

Lemma ew_arr (P : json -> Prop) l : P (JArr l) -> Forall (everywhere P) l -> everywhere P (JArr l).
Proof. intros H F. split; [exact H|]. clear H. induction F; [exact I|split; assumption]. Qed.
Lemma ew_obj (P : json -> Prop) ms : P (JObj ms) -> Forall (fun x => everywhere P (snd x)) ms -> everywhere P (JObj ms).
Proof. intros H F. split; [exact H|]. clear H. induction F as [|[n x] ms H F IH]; [exact I|split; assumption]. Qed.

Lemma parse_spec T f :
  (forall s, (2 * length s < f)%nat -> shrinks (parse_value T f s) s /\ forall j r, parse_value T f s = TOk j r -> parsed_ok T j)
  /\ (forall s, (2 * length s + 1 < f)%nat -> shrinks (parse_items T f s) s /\ forall l r, parse_items T f s = TOk l r -> Forall (parsed_ok T) l)
  /\ (forall s, (2 * length s < f)%nat -> shrinks (parse_members T f s) s /\ forall l r, parse_members T f s = TOk l r -> Forall (fun x => parsed_ok T (snd x)) l).
Proof.
  induction f as [|f (IV & II & IM)]; [split; [|split]; intros; lia|].
  assert (Leaf: forall j r s0, parsed_ok T j -> (length r < length s0)%nat -> shrinks (TOk j r) s0 /\ forall j' r', TOk j r = TOk j' r' -> parsed_ok T j').
  { intros j r s0 H L. split; [split; [discriminate|]; intros a r0 E; inversion E; subst; exact L|]. intros j' r' E; inversion E; subst; exact H. }
  assert (Err: forall s0, shrinks (@TErr json) s0 /\ forall j' r', (@TErr json) = TOk j' r' -> parsed_ok T j').
  { intros. split; [apply shrinks_err|discriminate]. }
  split; [|split]; intros s L.
  - destruct s as [|b s1]; [apply Err|]. cbn [length] in L. cbn [parse_value].
    assert (KW: forall w j, parsed_ok T j -> shrinks (match consume w s1 with Some r => TOk j r | None => TErr end) (b :: s1)
      /\ forall j' r', match consume w s1 with Some r => TOk j r | None => TErr end = TOk j' r' -> parsed_ok T j').
    { intros w j H. destruct (consume w s1) as [r|] eqn:E; [|apply Err]. apply consume_len in E. apply Leaf; [exact H|cbn; lia]. }
    destruct (beqb b Byte.x6e); [apply KW; split; exact I|]. destruct (beqb b Byte.x74); [apply KW; split; exact I|]. destruct (beqb b Byte.x66); [apply KW; split; exact I|].
    destruct (beqb b Byte.x22).
    { destruct (parse_string_shrinks _ s1 (le_n _)) as [N1 N2]. destruct (parse_string s1) as [x r| |]; [|apply Err|contradiction]. cbn [tbind]. apply Leaf; [split; exact I|]. specialize (N2 _ _ eq_refl). cbn; lia. }
    pose proof (skip_ws_len s1) as LS.
    destruct (beqb b Byte.x7b).
    { destruct (consume (bs "}") (skip_ws s1)) as [r|] eqn:E; [apply consume_len in E; apply Leaf; [split; exact I|cbn in *; lia]|].
      destruct (IM (skip_ws s1) ltac:(lia)) as [[N1 N2] N3]. destruct (parse_members T f (skip_ws s1)) as [ms r| |]; [|apply Err|contradiction]. cbn [tbind].
      apply Leaf; [apply ew_obj; [exact I|eapply N3; reflexivity]|]. specialize (N2 _ _ eq_refl). cbn; lia. }
    destruct (beqb b Byte.x5b).
    { destruct (consume (bs "]") (skip_ws s1)) as [r|] eqn:E; [apply consume_len in E; apply Leaf; [split; exact I|cbn in *; lia]|].
      destruct (II (skip_ws s1) ltac:(lia)) as [[N1 N2] N3]. destruct (parse_items T f (skip_ws s1)) as [l r| |]; [|apply Err|contradiction]. cbn [tbind].
      apply Leaf; [apply ew_arr; [exact I|eapply N3; reflexivity]|]. specialize (N2 _ _ eq_refl). cbn; lia. }
    destruct (parse_number_spec T (b :: s1)) as [N1 N2]. split; [exact N1|]. intros j r E. destruct (N2 _ _ E) as [(z & -> & H)|(n & x & -> & H)]; (split; [|exact I]); [exact H|exists x; exact H].
  - cbn [parse_items]. destruct (IV s ltac:(lia)) as [[N1 N2] N3]. destruct (parse_value T f s) as [x r| |]; [|split; [apply shrinks_err|discriminate]|contradiction]. cbn [tbind].
    specialize (N2 _ _ eq_refl). specialize (N3 _ _ eq_refl). pose proof (skip_ws_len r) as LR.
    destruct (consume (bs ",") (skip_ws r)) as [r'|] eqn:E.
    + apply consume_len in E. change (length (bs ",")) with 1%nat in E. pose proof (skip_ws_len r') as LR'.
      destruct (II (skip_ws r') ltac:(lia)) as [[M1 M2] M3]. destruct (parse_items T f (skip_ws r')) as [l r''| |]; [|split; [apply shrinks_err|discriminate]|contradiction]. cbn [tbind].
      specialize (M2 _ _ eq_refl). specialize (M3 _ _ eq_refl). split; [split; [discriminate|]; intros a q Q; inversion Q; subst; lia|]. intros l' q Q. inversion Q; subst. constructor; assumption.
    + destruct (consume (bs "]") (skip_ws r)) as [r'|] eqn:E2; [|split; [apply shrinks_err|discriminate]]. apply consume_len in E2.
      split; [split; [discriminate|]; intros a q Q; inversion Q; subst; lia|]. intros l' q Q. inversion Q; subst. constructor; [assumption|constructor].
  - cbn [parse_members]. destruct (consume quote s) as [s1|] eqn:E0; [|split; [apply shrinks_err|discriminate]]. apply consume_len in E0. change (length quote) with 1%nat in E0.
    destruct (parse_string_shrinks _ s1 (le_n _)) as [K1 K2]. destruct (parse_string s1) as [n r| |]; [|split; [apply shrinks_err|discriminate]|contradiction]. cbn [tbind]. specialize (K2 _ _ eq_refl).
    pose proof (skip_ws_len r) as LR. destruct (consume (bs ":") (skip_ws r)) as [r1|] eqn:E1; [|split; [apply shrinks_err|discriminate]]. apply consume_len in E1. pose proof (skip_ws_len r1) as LR1.
    destruct (IV (skip_ws r1) ltac:(lia)) as [[N1 N2] N3]. destruct (parse_value T f (skip_ws r1)) as [x r2| |]; [|split; [apply shrinks_err|discriminate]|contradiction]. cbn [tbind].
    specialize (N2 _ _ eq_refl). specialize (N3 _ _ eq_refl). pose proof (skip_ws_len r2) as LR2.
    destruct (consume (bs ",") (skip_ws r2)) as [r3|] eqn:E.
    + apply consume_len in E. change (length (bs ",")) with 1%nat in E. pose proof (skip_ws_len r3) as LR'.
      destruct (IM (skip_ws r3) ltac:(lia)) as [[M1 M2] M3]. destruct (parse_members T f (skip_ws r3)) as [l r4| |]; [|split; [apply shrinks_err|discriminate]|contradiction]. cbn [tbind].
      specialize (M2 _ _ eq_refl). specialize (M3 _ _ eq_refl). split; [split; [discriminate|]; intros a q Q; inversion Q; subst; lia|]. intros l' q Q. inversion Q; subst. constructor; assumption.
    + destruct (consume (bs "}") (skip_ws r2)) as [r3|] eqn:E2; [|split; [apply shrinks_err|discriminate]]. apply consume_len in E2.
      split; [split; [discriminate|]; intros a q Q; inversion Q; subst; lia|]. intros l' q Q. inversion Q; subst. constructor; [assumption|constructor].
Qed.

(** every text is parsed or refused *)
Lemma doc_total T text : parseJsonDocFromString T text = TErr \/ exists j r, parseJsonDocFromString T text = TOk j r /\ parsed_ok T j.
Proof.
  unfold parseJsonDocFromString. destruct (at_end (skip_ws (skip_bom text))); [left; reflexivity|].
  destruct (proj1 (parse_spec T _) (skip_ws (skip_bom text)) (Nat.lt_succ_diag_r _)) as [[N1 _] N3].
  destruct (parse_value T _ _) as [j r| |]; [|left; reflexivity|contradiction]. cbn [tbind]. destruct (at_end (skip_ws r)); [|left; reflexivity].
  right. exists j, r. split; [reflexivity|]. eapply N3; reflexivity.
Qed.
