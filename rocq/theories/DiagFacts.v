(** DiagFacts.v -- C41: exactly which diagnostics the user gets to see (proofs) *)
From Coq Require Import String List NArith Bool Lia.
From Verif Require Import Base Types GenModel ToolModel ToolFacts DiagSpec.
Import ListNotations.
Local Open Scope list_scope.
Local Open Scope N_scope.

Lemma soft_dec d : {semantic_error d} + {~ semantic_error d}.
Proof.
  unfold semantic_error. destruct (any_dec d) as [A|A]; [|right; intros [X _]; contradiction].
  destruct (N.eq_dec (d_category d) 2); [left; split; assumption|right; intros [_ X]; contradiction].
Qed.
Lemma softened_fun d a b : softened d a -> softened d b -> a = b.
Proof. intros [A1 A2] [B1 B2]. destruct (soft_dec d) as [S|S]; [rewrite (A1 S), (B1 S)|rewrite (A2 S), (B2 S)]; reflexivity. Qed.
Lemma softened_ex d : exists d', softened d d'.
Proof. destruct (soft_dec d); eexists; split; intros; try contradiction; reflexivity. Qed.
Lemma message_fun a b : limit_message a -> limit_message b -> a = b.
Proof. destruct a, b. intros (A & B & C) (D & E & F). cbn in *. subst. reflexivity. Qed.

Theorem reported_fun limit res f n q ds o1 : reported limit res f n q ds o1 -> forall o2, reported limit res f n q ds o2 -> o1 = o2.
Proof.
  intros H. induction H; intros o2 HX; inversion HX; subst; try congruence; try reflexivity.
  all: try match goal with A : d_level ?d = _, B : d_level ?d = _ \/ d_level ?d = _ |- _ => rewrite A in B; destruct B; discriminate end.
  all: try match goal with A : d_level ?d = _ \/ d_level ?d = _, B : semantic_error ?d |- _ => destruct B as [[B|B] _], A; congruence end.
  all: try match goal with A : d_level ?d = _, B : semantic_error ?d |- _ => destruct B as [[B|B] _]; congruence end.
  all: try match goal with A : false = true \/ ~ _ |- _ => destruct A as [A|A]; [discriminate A|exfalso; apply A; auto] end.
  all: try match goal with A : ?x = 0 \/ _ |- _ => is_var x; destruct A; lia end.
  all: try (f_equal; auto; fail).
  all: f_equal; auto; try (destruct res; subst).
  all: try solve [eapply softened_fun; eassumption|eapply message_fun; eassumption|reflexivity].
Qed.

Definition at_state (res f : bool) (n : N) (q : bool) (s : engine * consumer) : Prop :=
  dc_resilient (snd s) = res /\ en_fatal (fst s) = false /\ en_last (fst s) <> DFatal /\ en_errors (fst s) = n
  /\ leqb (en_last (fst s)) DIgnored = q /\ (res = true -> (f = false <-> dc_real (snd s) = 0)) /\ (res = true -> f = false -> n = 0).

Lemma stopped limit ds : forall e c, en_fatal e = true -> dc_proxy (snd (fold_left (process limit) ds (e, c))) = dc_proxy c.
Proof.
  induction ds as [|d ds IH]; intros e c H; cbn [fold_left]; [reflexivity|].
  unfold process at 2. destruct (leqb (d_level d) DNote).
  - rewrite H. rewrite IH by reflexivity. reflexivity.
  - cbn [en_fatal]. rewrite H. cbn [orb]. rewrite IH by reflexivity. reflexivity.
Qed.
Lemma stopping limit ds : forall e c, en_fatal e = false -> en_last e = DFatal ->
  dc_proxy (snd (fold_left (process limit) ds (e, c))) = dc_proxy c ++ leading_notes ds.
Proof.
  induction ds as [|d ds IH]; intros e c H L; cbn [fold_left leading_notes]; [symmetry; apply app_nil_r|].
  destruct (leqb (d_level d) DNote) eqn:N.
  - assert (DL: d_level d = DNote) by (destruct (d_level d); auto; discriminate).
    unfold process at 2. rewrite DL. cbn. rewrite H, L. cbn. unfold emit, handle_diagnostic. rewrite DL. cbn. rewrite andb_false_r. cbn.
    rewrite IH by assumption. cbn. rewrite <- app_assoc. cbn. repeat f_equal. destruct d; cbn in *; subst; reflexivity.
  - unfold process at 2. rewrite N. cbn [en_fatal]. rewrite H, L. cbn [orb leqb lnum N.eqb]. cbn.
    rewrite stopped by reflexivity. destruct (d_level d); try discriminate; symmetry; apply app_nil_r.
Qed.

Lemma same d : {| d_level := d_level d; d_category := d_category d; d_text := d_text d |} = d.
Proof. destruct d; reflexivity. Qed.

Theorem reported_all limit res ds : forall s f n q, at_state res f n q s ->
  exists out, reported limit res f n q ds out /\ dc_proxy (snd (fold_left (process limit) ds s)) = dc_proxy (snd s) ++ out.
Proof.
  induction ds as [|d ds IH]; intros [e c] f n q (A1 & A2 & A3 & A4 & A5 & A6 & A7); cbn [fst snd] in *.
  { exists []. split; [constructor|]. cbn. symmetry. apply app_nil_r. }
  cbn [fold_left].
  assert (K: forall s' f' n' q' (l : list diag), at_state res f' n' q' s' -> dc_proxy (snd s') = dc_proxy c ++ l ->
    process limit (e, c) d = s' -> (forall out, reported limit res f' n' q' ds out -> reported limit res f n q (d :: ds) (l ++ out)) ->
    exists out, reported limit res f n q (d :: ds) out /\ dc_proxy (snd (fold_left (process limit) ds (process limit (e, c) d))) = dc_proxy c ++ out).
  { intros s' f' n' q' l Hs P E R. destruct (IH s' f' n' q' Hs) as (out & R1 & P1). exists (l ++ out). split; [auto|]. rewrite E, P1, P, app_assoc. reflexivity. }
  assert (NF: leqb (en_last e) DFatal = false) by (apply leqb_false, A3).
  destruct (d_level d) eqn:DL.
  - (* ignored *) eapply (K _ f n true []); [| | |intros; cbn; apply rep_ignored; assumption].
    3: { unfold process. rewrite DL. cbn. rewrite A2, NF. cbn. reflexivity. }
    + repeat split; cbn; auto; try congruence; try (apply A6; assumption).
    + symmetry; apply app_nil_r.
  - (* note *) destruct q.
    + eapply (K (e, c) f n true []); [| | |intros; cbn; apply rep_note_lost; assumption].
      * repeat split; cbn; auto; apply A6; assumption.
      * symmetry; apply app_nil_r.
      * unfold process. rewrite DL. cbn. rewrite A2, A5. reflexivity.
    + eapply (K _ f n false [d]); [| | |intros; cbn; apply rep_note; assumption].
      3: { unfold process. rewrite DL. cbn. rewrite A2, A5. cbn. unfold emit, handle_diagnostic. rewrite DL. cbn. rewrite andb_false_r. reflexivity. }
      * repeat split; cbn; auto; apply A6; assumption.
      * cbn. rewrite <- DL, same. reflexivity.
  - eapply (K _ f n false [d]); [| | |intros; cbn; apply rep_harmless; auto].
    3: { unfold process. rewrite DL. cbn. rewrite A2, NF. cbn. unfold emit, handle_diagnostic. rewrite DL. cbn. rewrite andb_false_r. reflexivity. }
    + repeat split; cbn; auto; try congruence; try (apply A6; assumption).
    + cbn. rewrite <- DL, same. reflexivity.
  - eapply (K _ f n false [d]); [| | |intros; cbn; apply rep_harmless; auto].
    3: { unfold process. rewrite DL. cbn. rewrite A2, NF. cbn. unfold emit, handle_diagnostic. rewrite DL. cbn. rewrite andb_false_r. reflexivity. }
    + repeat split; cbn; auto; try congruence; try (apply A6; assumption).
    + cbn. rewrite <- DL, same. reflexivity.
  - (* error *)
    assert (AE: any_error d) by (left; exact DL).
    destruct (bool_dec res true) as [R|R]; [|apply not_true_is_false in R].
    + destruct (soft_dec d) as [S|S].
      * pose proof S as [_ C2]. destruct f.
        -- destruct (negb (limit =? 0) && (limit <? n + 1)) eqn:LM.
           ++ exists [too_many]. split.
              { apply andb_true_iff in LM. destruct LM as [L1 L2]. apply negb_true_iff, N.eqb_neq in L1. apply N.ltb_lt in L2.
                apply rep_limit; auto. repeat split. }
              unfold process at 2. rewrite DL. cbn. rewrite A2, NF. cbn. rewrite A4, LM. cbn. unfold emit, handle_diagnostic. rewrite A1, R. cbn.
              rewrite stopped by reflexivity. reflexivity.
           ++ eapply (K _ true (n + 1) false [{| d_level := DWarning; d_category := 2; d_text := d_text d |}]).
              3: { unfold process. rewrite DL. cbn. rewrite A2, NF. cbn. rewrite A4, LM. cbn. unfold emit, handle_diagnostic. rewrite A1, R, DL, C2. cbn. reflexivity. }
              ** assert (NZ: (dc_real c =? 0) = false) by (apply N.eqb_neq; intros X; apply (A6 R) in X; discriminate X).
                 rewrite NZ. repeat split; cbn; auto; try congruence. intros X. apply (A6 R) in X. discriminate X.
              ** reflexivity.
              ** intros out Ho. cbn [app]. apply rep_error; auto.
                 { apply andb_false_iff in LM. destruct LM as [L|L]; [left; apply negb_false_iff, N.eqb_eq in L; exact L|right; apply N.ltb_ge in L; lia]. }
                 rewrite R. split; [reflexivity|contradiction].
        -- pose proof (A7 R eq_refl) as n0. rewrite n0 in A4.
           assert (LM: negb (limit =? 0) && (limit <? 0 + 1) = false) by (destruct (limit =? 0) eqn:L; cbn; auto; apply N.eqb_neq in L; apply N.ltb_ge; lia).
           assert (NZ: (dc_real c =? 0) = true) by (apply N.eqb_eq, (A6 R); reflexivity).
           eapply (K _ false 0 true [{| d_level := DWarning; d_category := 2; d_text := d_text d |}]).
           3: { unfold process. rewrite DL. cbn. rewrite A2, NF. cbn. rewrite A4. cbn [N.add] in LM. cbn [N.add]. rewrite LM. cbn. unfold emit, handle_diagnostic. rewrite A1, R, DL, C2. cbn. rewrite NZ. reflexivity. }
           ++ apply N.eqb_eq in NZ. repeat split; cbn; auto; congruence.
           ++ reflexivity.
           ++ intros out Ho. cbn [app]. apply rep_forgotten; auto. split; [reflexivity|contradiction].
      * assert (C2: (d_category d =? 2) = false) by (apply N.eqb_neq; intros X; apply S; split; auto).
        destruct (negb (limit =? 0) && (limit <? n + 1)) eqn:LM.
        -- exists [too_many]. split.
           { apply andb_true_iff in LM. destruct LM as [L1 L2]. apply negb_true_iff, N.eqb_neq in L1. apply N.ltb_lt in L2.
             apply rep_limit; auto; [right; intros [_ X]; contradiction|]. repeat split. }
           unfold process at 2. rewrite DL. cbn. rewrite A2, NF. cbn. rewrite A4, LM. cbn. unfold emit, handle_diagnostic. rewrite A1, R. cbn.
           rewrite stopped by reflexivity. reflexivity.
        -- eapply (K _ true (n + 1) false [d]).
           3: { unfold process. rewrite DL. cbn. rewrite A2, NF. cbn. rewrite A4, LM. cbn. unfold emit, handle_diagnostic. rewrite A1, R, DL, C2. cbn. reflexivity. }
           ++ repeat split; cbn; auto; try congruence. intros X. lia.
           ++ cbn. rewrite <- DL, same. reflexivity.
           ++ intros out Ho. cbn [app]. apply rep_error; auto.
              { right; intros [_ X]; contradiction. }
              { apply andb_false_iff in LM. destruct LM as [L|L]; [left; apply negb_false_iff, N.eqb_eq in L; exact L|right; apply N.ltb_ge in L; lia]. }
              rewrite R. split; [contradiction|reflexivity].
    + destruct (negb (limit =? 0) && (limit <? n + 1)) eqn:LM.
      * exists [too_many]. split.
        { apply andb_true_iff in LM. destruct LM as [L1 L2]. apply negb_true_iff, N.eqb_neq in L1. apply N.ltb_lt in L2.
          apply rep_limit; auto; [right; intros [X _]; congruence|]. repeat split. }
        unfold process at 2. rewrite DL. cbn. rewrite A2, NF. cbn. rewrite A4, LM. cbn. unfold emit, handle_diagnostic. rewrite A1, R. cbn.
        rewrite stopped by reflexivity. reflexivity.
      * eapply (K _ true (n + 1) false [d]).
        3: { unfold process. rewrite DL. cbn. rewrite A2, NF. cbn. rewrite A4, LM. cbn. unfold emit, handle_diagnostic. rewrite A1, R, DL. cbn. reflexivity. }
        -- repeat split; cbn; auto; congruence.
        -- cbn. rewrite <- DL, same. reflexivity.
        -- intros out Ho. cbn [app]. apply rep_error; auto.
           { right; intros [X _]; congruence. }
           { apply andb_false_iff in LM. destruct LM as [L|L]; [left; apply negb_false_iff, N.eqb_eq in L; exact L|right; apply N.ltb_ge in L; lia]. }
           rewrite R. reflexivity.
  - (* fatal *)
    assert (AE: any_error d) by (right; exact DL).
    destruct (bool_dec res true) as [R|R]; [|apply not_true_is_false in R].
    + destruct (soft_dec d) as [S|S].
      * pose proof S as [_ C2]. destruct f.
        -- assert (NZ: (dc_real c =? 0) = false) by (apply N.eqb_neq; intros X; apply (A6 R) in X; discriminate X).
           eexists. split.
           { apply (rep_fatal limit res true n q d {| d_level := DWarning; d_category := 2; d_text := d_text d |}); auto. rewrite R. split; [reflexivity|contradiction]. }
           unfold process at 2. rewrite DL. cbn. rewrite A2, NF. cbn. rewrite andb_false_r. unfold emit, handle_diagnostic. rewrite A1, R, DL, C2. cbn. rewrite NZ.
           rewrite stopping by reflexivity. cbn. rewrite <- app_assoc. reflexivity.
        -- pose proof (A7 R eq_refl) as n0. rewrite n0 in A4.
           assert (NZ: (dc_real c =? 0) = true) by (apply N.eqb_eq, (A6 R); reflexivity).
           eapply (K _ false 0 true [{| d_level := DWarning; d_category := 2; d_text := d_text d |}]).
           3: { unfold process. rewrite DL. cbn. rewrite A2, NF. cbn. rewrite andb_false_r. unfold emit, handle_diagnostic. rewrite A1, R, DL, C2. cbn. rewrite NZ. reflexivity. }
           ++ apply N.eqb_eq in NZ. repeat split; cbn; auto; congruence.
           ++ reflexivity.
           ++ intros out Ho. cbn [app]. apply rep_forgotten; auto. split; [reflexivity|contradiction].
      * assert (C2: (d_category d =? 2) = false) by (apply N.eqb_neq; intros X; apply S; split; auto).
        eexists. split.
        { apply (rep_fatal limit res f n q d d); auto; [right; intros [_ X]; contradiction|]. rewrite R. split; [contradiction|reflexivity]. }
        unfold process at 2. rewrite DL. cbn. rewrite A2, NF. cbn. rewrite andb_false_r. unfold emit, handle_diagnostic. rewrite A1, R, DL, C2. cbn.
        rewrite stopping by reflexivity. cbn. rewrite <- app_assoc, <- DL, same. reflexivity.
    + eexists. split.
      { apply (rep_fatal limit res f n q d d); auto; [right; intros [X _]; congruence|]. rewrite R. reflexivity. }
      unfold process at 2. rewrite DL. cbn. rewrite A2, NF. cbn. rewrite andb_false_r. unfold emit, handle_diagnostic. rewrite A1, R, DL. cbn.
      rewrite stopping by reflexivity. cbn. rewrite <- app_assoc, <- DL, same. reflexivity.
Qed.
