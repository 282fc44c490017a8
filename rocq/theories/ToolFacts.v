(** ToolFacts.v -- specification vocabulary and lemmas for ToolModel.v *)
From Coq Require Import String List NArith ZArith Bool Lia.
From Verif Require Import Base BaseFacts Types GenModel ToolModel.
Import ListNotations.
Local Open Scope list_scope.
Local Open Scope N_scope.

(* ------------------------------------------------------------------ *)
(** * Specification *)

(** [ps] joined with ';' *)
Fixpoint joined (ps : list bytes) : bytes :=
  match ps with [] => [] | [p] => p | p :: ps' => p ++ semicolon :: joined ps' end.
(** [ps] are the parts of [s]: at least one, none of them with a ';', and joined they are [s] *)
Definition parts_of (s : bytes) (ps : list bytes) : Prop := ps <> [] /\ Forall (fun p => ~ In semicolon p) ps /\ joined ps = s.

(** [b] is [a] without its empty items *)
Inductive nonempties : list bytes -> list bytes -> Prop :=
| ne_nil : nonempties [] []
| ne_skip a b : nonempties a b -> nonempties ([] :: a) b
| ne_take x a b : x <> [] -> nonempties a b -> nonempties (x :: a) (x :: b).

(** an error of category "Semantic Issue"; any other error is a real one *)
Definition semantic_error (d : diag) : Prop := (d_level d = DError \/ d_level d = DFatal) /\ d_category d = 2.
Definition real_error (d : diag) : Prop := (d_level d = DError \/ d_level d = DFatal) /\ d_category d <> 2.
Definition any_error (d : diag) : Prop := d_level d = DError \/ d_level d = DFatal.

(** [n] items of [l] fulfil [P] *)
Inductive counted {A} (P : A -> Prop) : list A -> N -> Prop :=
| cnt_nil : counted P [] 0
| cnt_yes x l n : P x -> counted P l n -> counted P (x :: l) (n + 1)
| cnt_no x l n : ~ P x -> counted P l n -> counted P (x :: l) n.

(** [d'] is [d], but a semantic error became a warning *)
Definition softened (d d' : diag) : Prop :=
  (semantic_error d -> d' = {| d_level := DWarning; d_category := 2; d_text := d_text d |}) /\ (~ semantic_error d -> d' = d).

(* ------------------------------------------------------------------ *)
(** * Splitting *)

Lemma split_nonnil s : split_simple s <> [].
Proof. destruct s as [|b s]; cbn; [discriminate|]. destruct (beqb b semicolon); [discriminate|]. destruct (split_simple s); discriminate. Qed.
Lemma joined_cons p ps : ps <> [] -> joined (p :: ps) = p ++ semicolon :: joined ps.
Proof. destruct ps; [contradiction|reflexivity]. Qed.
Lemma split_parts s : parts_of s (split_simple s).
Proof.
  unfold parts_of. induction s as [|b s IH]; cbn [split_simple].
  - split; [discriminate|]. split; [constructor; [intros []|constructor]|reflexivity].
  - destruct IH as (I1 & I2 & I3). destruct (beqb b semicolon) eqn:E.
    + split; [discriminate|]. split; [constructor; [intros []|exact I2]|]. rewrite joined_cons by exact I1. rewrite I3. apply Byte.byte_dec_bl in E. subst b. reflexivity.
    + destruct (split_simple s) as [|p ps]; [contradiction|]. split; [discriminate|]. inversion I2 as [|? ? P1 P2]; subst. split.
      * constructor; [|exact P2]. intros [->|H]; [discriminate E|contradiction].
      * destruct ps; reflexivity.
Qed.
Lemma split_unique_aux a b x y : ~ In semicolon a -> ~ In semicolon b -> a ++ semicolon :: x = b ++ semicolon :: y -> a = b /\ x = y.
Proof.
  revert b. induction a as [|c a IH]; intros [|d b] Ha Hb E; cbn in E.
  - inversion E; auto.
  - inversion E; subst. exfalso; apply Hb; left; reflexivity.
  - inversion E; subst. exfalso; apply Ha; left; reflexivity.
  - inversion E; subst. destruct (IH b) as [-> ->]; auto; intros Q; [apply Ha|apply Hb]; right; exact Q.
Qed.
Lemma parts_unique s : forall ps qs, parts_of s ps -> parts_of s qs -> ps = qs.
Proof.
  intros ps qs (P1 & P2 & P3) (Q1 & Q2 & Q3). rewrite <- Q3 in P3. clear s Q3. revert qs Q1 Q2 P3.
  induction ps as [|p ps IH]; intros qs Q1 Q2 E; [contradiction|]. destruct qs as [|q qs]; [contradiction|].
  inversion P2 as [|? ? Hp Hps]; subst. inversion Q2 as [|? ? Hq Hqs]; subst.
  destruct ps as [|p' ps], qs as [|q' qs].
  - cbn in E. congruence.
  - cbn in E. exfalso. apply Hp. rewrite E. apply in_or_app; right; left; reflexivity.
  - cbn in E. exfalso. apply Hq. rewrite <- E. apply in_or_app; right; left; reflexivity.
  - rewrite !joined_cons in E by discriminate. apply split_unique_aux in E; auto. destruct E as [-> E]. f_equal. apply IH; auto; discriminate.
Qed.

Lemma nonempties_filter l : nonempties l (filter (fun p => negb (is_empty p)) l).
Proof. induction l as [|[|b x] l IH]; cbn; constructor; auto; discriminate. Qed.
Lemma nonempties_app a b a' b' : nonempties a a' -> nonempties b b' -> nonempties (a ++ b) (a' ++ b').
Proof. induction 1; intros; cbn; auto; constructor; auto. Qed.
Lemma nonempties_fun a : forall b c, nonempties a b -> nonempties a c -> b = c.
Proof. induction a as [|x a IH]; intros b c H1 H2; inversion H1; subst; inversion H2; subst; auto; try contradiction; try (f_equal; auto). Qed.
Lemma clang_options_spec vs : exists pss, Forall2 parts_of vs pss /\ nonempties (concat pss) (clang_options vs).
Proof.
  exists (map split_simple vs). split.
  - induction vs; constructor; auto. apply split_parts.
  - unfold clang_options. induction vs as [|v vs IH]; cbn; [constructor|]. apply nonempties_app; [apply nonempties_filter|exact IH].
Qed.

Lemma split_free p : ~ In semicolon p -> split_simple p = [p].
Proof. intros H. apply (parts_unique p); [apply split_parts|]. split; [discriminate|]. split; [constructor; [exact H|constructor]|reflexivity]. Qed.
Lemma filter_id {A} (f : A -> bool) l : Forall (fun x => f x = true) l -> filter f l = l.
Proof. induction 1; cbn; [reflexivity|]. rewrite H. f_equal; auto. Qed.

(* ------------------------------------------------------------------ *)
(** * Diagnostics *)

Lemma is_error_any l : is_error l = true <-> l = DError \/ l = DFatal.
Proof. destruct l; split; intros H; try discriminate H; auto; destruct H; discriminate. Qed.

Definition handle_all (c : consumer) (ds : list diag) : consumer := fold_left (fun c d => fst (handle_diagnostic c d)) ds c.

Lemma handle_resilient c d : dc_resilient c = true ->
  exists d', softened d d' /\ fst (handle_diagnostic c d)
    = {| dc_resilient := true; dc_real := dc_real c + (if is_error (d_level d) && negb (d_category d =? 2) then 1 else 0);
         dc_errors := dc_errors c + (if is_error (d_level d) && negb (d_category d =? 2) then 1 else 0); dc_proxy := dc_proxy c ++ [d'] |}
  /\ snd (handle_diagnostic c d) = is_error (d_level d) && (d_category d =? 2) && (dc_real c =? 0).
Proof.
  intros R. unfold handle_diagnostic. rewrite R. destruct (is_error (d_level d)) eqn:E, (d_category d =? 2) eqn:C; cbn [andb negb].
  - exists {| d_level := DWarning; d_category := 2; d_text := d_text d |}. apply N.eqb_eq in C. rewrite C. apply is_error_any in E.
    split; [split; [reflexivity|intros N; exfalso; apply N; split; auto]|]. split; [change (is_error DWarning) with false; cbv iota; rewrite !N.add_0_r; reflexivity|reflexivity].
  - exists d. apply N.eqb_neq in C. apply is_error_any in E as E'. split; [split; [intros [_ X]; contradiction|reflexivity]|].
    split; [|reflexivity]. rewrite E. destruct d; reflexivity.
  - exists d. split; [split; [intros [X _]; apply is_error_any in X; congruence|reflexivity]|]. split; [|reflexivity]. rewrite E, !N.add_0_r. destruct d; reflexivity.
  - exists d. split; [split; [intros [X _]; apply is_error_any in X; congruence|reflexivity]|]. split; [|reflexivity]. rewrite E, !N.add_0_r. destruct d; reflexivity.
Qed.

Lemma real_bool d : is_error (d_level d) && negb (d_category d =? 2) = true <-> real_error d.
Proof.
  unfold real_error. rewrite <- is_error_any, andb_true_iff, negb_true_iff, N.eqb_neq. tauto.
Qed.
Lemma semantic_bool d : is_error (d_level d) && (d_category d =? 2) = true <-> semantic_error d.
Proof. unfold semantic_error. rewrite <- is_error_any, andb_true_iff, N.eqb_eq. tauto. Qed.

Lemma handle_all_resilient ds : forall c, dc_resilient c = true ->
  exists n ds', counted real_error ds n /\ Forall2 softened ds ds'
    /\ handle_all c ds = {| dc_resilient := true; dc_real := dc_real c + n; dc_errors := dc_errors c + n; dc_proxy := dc_proxy c ++ ds' |}.
Proof.
  induction ds as [|d ds IH]; intros c R.
  - exists 0, []. split; [constructor|]. split; [constructor|]. cbn. rewrite !N.add_0_r, app_nil_r. destruct c; cbn in *; subst; reflexivity.
  - destruct (handle_resilient c d R) as (d' & S & E & _). cbn [handle_all fold_left]. rewrite E.
    destruct (IH {| dc_resilient := true; dc_real := dc_real c + (if is_error (d_level d) && negb (d_category d =? 2) then 1 else 0);
         dc_errors := dc_errors c + (if is_error (d_level d) && negb (d_category d =? 2) then 1 else 0); dc_proxy := dc_proxy c ++ [d'] |} eq_refl) as (n & ds' & H1 & H2 & H3).
    unfold handle_all in H3. rewrite H3. cbn [dc_real dc_errors dc_proxy]. rewrite <- app_assoc.
    destruct (is_error (d_level d) && negb (d_category d =? 2)) eqn:B.
    + exists (n + 1), (d' :: ds'). split; [constructor; [apply real_bool, B|exact H1]|]. split; [constructor; auto|]. cbn [app]. f_equal; lia.
    + exists n, (d' :: ds'). split; [constructor; [|exact H1]|].
      { intros X. apply real_bool in X. congruence. }
      split; [constructor; auto|]. cbn [app]. f_equal; lia.
Qed.

Lemma handle_all_plain ds : forall c, dc_resilient c = false ->
  exists n, counted any_error ds n
    /\ handle_all c ds = {| dc_resilient := false; dc_real := dc_real c; dc_errors := dc_errors c + n; dc_proxy := dc_proxy c ++ ds |}.
Proof.
  induction ds as [|d ds IH]; intros c R.
  - exists 0. split; [constructor|]. cbn. rewrite !N.add_0_r, app_nil_r. destruct c; cbn in *; subst; reflexivity.
  - cbn [handle_all fold_left]. unfold handle_diagnostic at 2. rewrite R. cbn [andb fst].
    destruct (IH {| dc_resilient := false; dc_real := dc_real c; dc_errors := dc_errors c + (if is_error (d_level d) then 1 else 0);
       dc_proxy := dc_proxy c ++ [{| d_level := d_level d; d_category := d_category d; d_text := d_text d |}] |} eq_refl) as (n & H1 & H2).
    unfold handle_all in H2. rewrite H2. cbn [dc_real dc_errors dc_proxy]. rewrite <- app_assoc. destruct (is_error (d_level d)) eqn:E.
    + exists (n + 1). split; [constructor; [apply is_error_any, E|exact H1]|]. destruct d. cbn [app]. f_equal. lia.
    + exists n. split; [constructor; [intros X; apply is_error_any in X; congruence|exact H1]|]. destruct d. cbn [app]. f_equal. lia.
Qed.

(** ** the engine *)

(** nothing but semantic errors so far *)
Definition clean (s : engine * consumer) : Prop :=
  dc_resilient (snd s) = true /\ dc_real (snd s) = 0 /\ dc_errors (snd s) = 0
  /\ en_error (fst s) = false /\ en_fatal (fst s) = false /\ en_errors (fst s) = 0 /\ is_error (en_last (fst s)) = false.

Lemma leqb_false a b : a <> b -> leqb a b = false.
Proof. destruct a, b; intros; try reflexivity; contradiction. Qed.
Lemma not_error_fatal l : is_error l = false -> leqb l DFatal = false.
Proof. destruct l; auto; discriminate. Qed.

Lemma process_clean limit s d : clean s -> ~ real_error d -> clean (process limit s d).
Proof.
  intros (R & R0 & E0 & H1 & H2 & H3 & H4) N. destruct s as [e c]. cbn [fst snd] in *. unfold process.
  assert (B: is_error (d_level d) && negb (d_category d =? 2) = false) by (destruct (is_error (d_level d) && negb (d_category d =? 2)) eqn:X; [apply real_bool in X; contradiction|reflexivity]).
  assert (W: forall e', en_error e' = is_error (d_level d) -> en_fatal e' = false -> en_errors e' = (if is_error (d_level d) then 1 else 0) ->
    (is_error (d_level d) = false -> is_error (en_last e') = false) -> clean (emit e' c d)).
  { intros e' W1 W2 W3 W4. unfold emit. destruct (handle_diagnostic c d) as [c' r] eqn:HD.
    destruct (handle_resilient c d R) as (d' & _ & E & SN). rewrite HD in E, SN. cbn [fst snd] in E, SN. rewrite B in E. rewrite R0 in SN, E. rewrite E0 in E.
    subst c'. unfold clean. cbn [fst snd dc_resilient dc_real dc_errors]. repeat (split; [reflexivity|]).
    destruct (is_error (d_level d)) eqn:X.
    - cbn [andb] in B. apply negb_false_iff in B. rewrite B in SN. cbn in SN. subst r. cbn. auto.
    - cbn [andb] in SN. subst r. auto. }
  destruct (leqb (d_level d) DNote) eqn:LN.
  - assert (d_level d = DNote) as DL by (destruct (d_level d); auto; discriminate). rewrite DL in *. rewrite H2. cbn [orb andb is_error leqb lnum] in *.
    cbn. destruct (leqb (en_last e) DIgnored); [repeat split; assumption|]. apply W; auto.
  - cbn [en_fatal en_errors en_last en_error]. rewrite H2, (not_error_fatal _ H4). cbn [orb andb]. rewrite H1, H3.
    destruct (leqb (d_level d) DIgnored) eqn:LI; cbn [orb].
    + repeat split; cbn; auto. destruct (d_level d); auto; discriminate.
    + destruct (is_error (d_level d)) eqn:X.
      * cbn [N.add]. assert (negb (limit =? 0) && (limit <? 1) = false) as -> by (destruct (limit =? 0) eqn:L; cbn; auto; apply N.eqb_neq in L; apply N.ltb_ge; lia).
        cbn [andb]. apply W; auto; discriminate.
      * apply W; cbn; auto.
Qed.

Lemma process_errors_mono limit s d : dc_errors (snd s) <= dc_errors (snd (process limit s d)).
Proof.
  destruct s as [e c]. unfold process, emit, handle_diagnostic. cbn [snd].
  repeat match goal with |- context [if ?b then _ else _] => destruct b end; cbn; lia.
Qed.
Lemma process_all_mono limit ds : forall s, dc_errors (snd s) <= dc_errors (snd (fold_left (process limit) ds s)).
Proof. induction ds as [|d ds IH]; intros s; cbn; [lia|]. specialize (IH (process limit s d)). pose proof (process_errors_mono limit s d). lia. Qed.

Lemma process_clean_real limit s d : clean s -> real_error d -> dc_errors (snd (process limit s d)) = 1 /\ dc_real (snd (process limit s d)) = 1
  /\ dc_proxy (snd (process limit s d)) = dc_proxy (snd s) ++ [d].
Proof.
  intros (R & R0 & E0 & H1 & H2 & H3 & H4) N. destruct s as [e c]. cbn [fst snd] in *. unfold process.
  pose proof (proj2 (real_bool d) N) as B. apply andb_true_iff in B. destruct B as [X C]. rewrite X.
  assert (LN: leqb (d_level d) DNote = false) by (destruct (d_level d); auto; discriminate).
  assert (LI: leqb (d_level d) DIgnored = false) by (destruct (d_level d); auto; discriminate).
  rewrite LN, LI. cbn [en_fatal en_errors en_last en_error]. rewrite H2, (not_error_fatal _ H4), H3. cbn [orb andb N.add].
  assert (negb (limit =? 0) && (limit <? 1) = false) as -> by (destruct (limit =? 0) eqn:L; cbn; auto; apply N.eqb_neq in L; apply N.ltb_ge; lia).
  cbn [andb]. unfold emit, handle_diagnostic. rewrite R, X. cbn [andb]. apply negb_true_iff in C. rewrite C, X, R0, E0. cbn. destruct d; auto.
Qed.

Lemma clean_all limit ds : forall s, clean s -> Forall (fun d => ~ real_error d) ds -> clean (fold_left (process limit) ds s).
Proof. induction ds as [|d ds IH]; intros s C F; cbn; [exact C|]. inversion F; subst. apply IH; auto. apply process_clean; auto. Qed.
Lemma clean0 : clean (engine0, consumer0 true).
Proof. repeat split. Qed.

Lemma first_sat {A} (P : A -> Prop) (dec : forall x, {P x} + {~ P x}) l : Forall (fun x => ~ P x) l \/ exists a x b, l = a ++ x :: b /\ Forall (fun y => ~ P y) a /\ P x.
Proof.
  induction l as [|x l [IH|(a & y & b & -> & H1 & H2)]]; [left; constructor| |]; destruct (dec x) as [D|D].
  - right. exists [], x, l. auto.
  - left. constructor; auto.
  - right. exists [], x, (a ++ y :: b). auto.
  - right. exists (x :: a), y, b. auto.
Qed.
Lemma real_dec d : {real_error d} + {~ real_error d}.
Proof. destruct (is_error (d_level d) && negb (d_category d =? 2)) eqn:B; [left; apply real_bool, B|right; intros X; apply real_bool in X; congruence]. Qed.
Lemma any_dec d : {any_error d} + {~ any_error d}.
Proof. destruct (is_error (d_level d)) eqn:B; [left; apply is_error_any, B|right; intros X; apply is_error_any in X; congruence]. Qed.

Lemma resilient_success limit ds : run_succeeds limit true ds = true <-> Forall (fun d => ~ real_error d) ds.
Proof.
  unfold run_succeeds, process_all. rewrite N.eqb_eq. split.
  - intros E. destruct (first_sat real_error real_dec ds) as [F|(a & x & b & -> & H1 & H2)]; [exact F|].
    rewrite fold_left_app in E. cbn [fold_left] in E. pose proof (clean_all limit a _ clean0 H1) as C.
    destruct (process_clean_real limit _ x C H2) as [Q _]. pose proof (process_all_mono limit b (process limit (fold_left (process limit) a (engine0, consumer0 true)) x)). rewrite Q in H. lia.
  - intros F. destruct (clean_all limit ds _ clean0 F) as (_ & _ & E & _). exact E.
Qed.

(** non-resilient *)
Definition quiet_engine (s : engine * consumer) : Prop :=
  dc_resilient (snd s) = false /\ dc_errors (snd s) = 0 /\ en_fatal (fst s) = false /\ en_errors (fst s) = 0 /\ is_error (en_last (fst s)) = false.
Lemma process_quiet limit s d : quiet_engine s -> ~ any_error d -> quiet_engine (process limit s d).
Proof.
  intros (R & E0 & H2 & H3 & H4) N. destruct s as [e c]. cbn [fst snd] in *. unfold process.
  assert (X: is_error (d_level d) = false) by (destruct (is_error (d_level d)) eqn:B; [apply is_error_any in B; contradiction|reflexivity]). rewrite X.
  assert (W: forall e', en_fatal e' = false -> en_errors e' = 0 -> is_error (en_last e') = false -> quiet_engine (emit e' c d)).
  { intros e' W1 W2 W3. unfold emit, handle_diagnostic. rewrite R, X. cbn [andb]. repeat split; cbn; auto. rewrite E0, X. reflexivity. }
  destruct (leqb (d_level d) DNote); cbn [en_fatal en_errors en_last en_error].
  - rewrite H2. match goal with |- context [if ?b then (e, c) else _] => destruct b end; [repeat split; assumption|]. apply W; assumption.
  - rewrite H2, (not_error_fatal _ H4). cbn [orb]. match goal with |- context [if ?b then (_, c) else _] => destruct b end; [repeat split; cbn; auto|]. apply W; cbn; auto.
Qed.
Lemma process_quiet_error limit s d : quiet_engine s -> any_error d -> dc_errors (snd (process limit s d)) = 1.
Proof.
  intros (R & E0 & H2 & H3 & H4) N. destruct s as [e c]. cbn [fst snd] in *. unfold process. apply is_error_any in N as X. rewrite X.
  assert (LN: leqb (d_level d) DNote = false) by (destruct (d_level d); auto; discriminate).
  assert (LI: leqb (d_level d) DIgnored = false) by (destruct (d_level d); auto; discriminate).
  rewrite LN, LI. cbn [en_fatal en_errors en_last en_error]. rewrite H2, (not_error_fatal _ H4), H3. cbn [orb andb N.add].
  assert (negb (limit =? 0) && (limit <? 1) = false) as -> by (destruct (limit =? 0) eqn:L; cbn; auto; apply N.eqb_neq in L; apply N.ltb_ge; lia).
  cbn [andb]. unfold emit, handle_diagnostic. rewrite R. cbn [andb]. rewrite E0, X. reflexivity.
Qed.
Lemma quiet_all limit ds : forall s, quiet_engine s -> Forall (fun d => ~ any_error d) ds -> quiet_engine (fold_left (process limit) ds s).
Proof. induction ds as [|d ds IH]; intros s C F; cbn; [exact C|]. inversion F; subst. apply IH; auto. apply process_quiet; auto. Qed.
Lemma plain_success limit ds : run_succeeds limit false ds = true <-> Forall (fun d => ~ any_error d) ds.
Proof.
  unfold run_succeeds, process_all. rewrite N.eqb_eq.
  assert (Q0: quiet_engine (engine0, consumer0 false)) by (repeat split). split.
  - intros E. destruct (first_sat any_error any_dec ds) as [F|(a & x & b & -> & H1 & H2)]; [exact F|].
    rewrite fold_left_app in E. cbn [fold_left] in E. pose proof (quiet_all limit a _ Q0 H1) as C.
    pose proof (process_quiet_error limit _ x C H2) as Q. pose proof (process_all_mono limit b (process limit (fold_left (process limit) a (engine0, consumer0 false)) x)). rewrite Q in H. lia.
  - intros F. destruct (quiet_all limit ds _ Q0 F) as (_ & E & _). exact E.
Qed.

(** as long as no real error occurred, the engine considers nothing an error *)
Lemma resilient_engine limit ds : Forall (fun d => ~ real_error d) ds ->
  let e := fst (process_all limit true ds) in en_error e = false /\ en_fatal e = false /\ en_errors e = 0.
Proof. intros F. destruct (clean_all limit ds _ clean0 F) as (_ & _ & _ & H1 & H2 & H3 & _). cbn. auto. Qed.

(** nothing is lost: everything but ignored diagnostics and notes gets to the previous consumer *)
Definition shown (d : diag) : bool := negb (leqb (d_level d) DIgnored) && negb (leqb (d_level d) DNote).
Lemma process_proxy_clean limit s d : clean s -> ~ real_error d ->
  exists l, dc_proxy (snd (process limit s d)) = dc_proxy (snd s) ++ l /\
    (shown d = true -> exists d', l = [d'] /\ softened d d') /\ (d_level d = DIgnored -> l = []) /\ (d_level d = DNote -> l = [] \/ l = [d]).
Proof.
  intros (R & R0 & E0 & H1 & H2 & H3 & H4) N. destruct s as [e c]. cbn [fst snd] in *. unfold process.
  assert (W: forall e', exists d', dc_proxy (snd (emit e' c d)) = dc_proxy c ++ [d'] /\ softened d d').
  { intros e'. unfold emit. destruct (handle_diagnostic c d) as [c' r] eqn:HD. destruct (handle_resilient c d R) as (d' & S & E & _). rewrite HD in E. cbn [fst] in E.
    exists d'. subst c'. split; [reflexivity|exact S]. }
  unfold shown. destruct (leqb (d_level d) DNote) eqn:LN.
  - assert (d_level d = DNote) as DL by (destruct (d_level d); auto; discriminate). rewrite DL. rewrite H2. cbn [orb andb leqb lnum N.eqb negb is_error].
    change (0 =? 1) with false. cbn [orb]. destruct (leqb (en_last e) DIgnored).
    + exists []. rewrite app_nil_r. split; [reflexivity|]. split; [discriminate|]. split; [discriminate|auto].
    + change (is_error DNote) with false. destruct (W e) as (d' & Q1 & Q2). exists [d']. split; [exact Q1|]. split; [discriminate|]. split; [discriminate|].
      intros _. right. destruct Q2 as [_ Q2]. rewrite Q2; [reflexivity|]. intros [[X|X] _]; congruence.
  - cbn [en_fatal en_errors en_last en_error]. rewrite H2, (not_error_fatal _ H4). cbn [orb andb].
    destruct (leqb (d_level d) DIgnored) eqn:LI; cbn [orb].
    + exists []. rewrite app_nil_r. split; [reflexivity|]. split; [discriminate|]. split; [auto|]. intros X; rewrite X in LN; discriminate.
    + rewrite H3. cbn [N.add]. assert (negb (limit =? 0) && (limit <? 1) = false) as -> by (destruct (limit =? 0) eqn:L; cbn; auto; apply N.eqb_neq in L; apply N.ltb_ge; lia).
      cbn [andb]. destruct (is_error (d_level d)).
      * match goal with |- context [emit ?x c d] => destruct (W x) as (d' & Q1 & Q2) end. exists [d']. split; [exact Q1|]. split; [intros _; exists d'; auto|].
        split; intros X; rewrite X in *; discriminate.
      * match goal with |- context [emit ?x c d] => destruct (W x) as (d' & Q1 & Q2) end. exists [d']. split; [exact Q1|]. split; [intros _; exists d'; auto|].
        split; intros X; rewrite X in *; discriminate.
Qed.
Lemma proxy_clean_all limit ds : forall s, clean s -> Forall (fun d => ~ real_error d) ds ->
  exists l, dc_proxy (snd (fold_left (process limit) ds s)) = dc_proxy (snd s) ++ l
    /\ Forall2 softened (filter shown ds) (filter shown l) /\ (forall d, In d l -> d_level d = DNote -> In d ds).
Proof.
  induction ds as [|d ds IH]; intros s C F; cbn [fold_left filter].
  - exists []. rewrite app_nil_r. split; [reflexivity|]. split; [constructor|]. intros ? [].
  - inversion F as [|? ? N F']; subst. destruct (process_proxy_clean limit s d C N) as (l1 & P1 & A1 & A2 & A3).
    destruct (IH _ (process_clean limit s d C N) F') as (l2 & P2 & B1 & B2).
    exists (l1 ++ l2). rewrite P2, P1, <- app_assoc. split; [reflexivity|]. rewrite filter_app. split.
    + destruct (shown d) eqn:S.
      * destruct (A1 eq_refl) as (d' & -> & SO). cbn [filter app].
        assert (shown d' = true) as ->.
        { destruct SO as [SO1 SO2]. destruct (is_error (d_level d) && (d_category d =? 2)) eqn:X.
          - rewrite SO1 by (apply semantic_bool, X). reflexivity.
          - rewrite SO2 by (intros Y; apply semantic_bool in Y; congruence). exact S. }
        constructor; auto.
      * assert (filter shown l1 = []) as ->; [|exact B1]. unfold shown in S. apply andb_false_iff in S. rewrite !negb_false_iff in S.
        destruct S as [S|S].
        -- rewrite A2; [reflexivity|]. destruct (d_level d); auto; discriminate.
        -- assert (DL: d_level d = DNote) by (destruct (d_level d); auto; discriminate). destruct (A3 DL) as [-> | ->]; [reflexivity|]. cbn. unfold shown. rewrite DL. reflexivity.
    + intros x Hx DN. apply in_app_or in Hx. destruct Hx as [Hx|Hx]; [|right; apply B2; auto]. left.
      destruct (d_level d) eqn:DL; try (rewrite A2 in Hx by reflexivity; destruct Hx; fail).
      1: destruct (A3 eq_refl) as [-> | ->]; [destruct Hx|destruct Hx as [Hx|[]]; exact Hx].
      all: exfalso; destruct (A1 ltac:(unfold shown; rewrite DL; reflexivity)) as (d' & -> & SO); destruct Hx as [<-|[]]; destruct SO as [SO1 SO2];
        destruct (is_error (d_level d) && (d_category d =? 2)) eqn:X; [rewrite SO1 in DN by (apply semantic_bool, X); discriminate|
        rewrite SO2 in DN by (intros Y; apply semantic_bool in Y; congruence); rewrite DL in DN; discriminate].
Qed.

(* ------------------------------------------------------------------ *)
(** * Generators *)
Lemma select_spec ns : forall gs, select_generators ns = Some gs <-> Forall2 (fun n g => n = match g with GJson => bs "json" | GBinary => bs "binary" end) ns gs.
Proof.
  induction ns as [|n ns IH]; intros gs; cbn [select_generators].
  - split; intros H; [inversion H; constructor|inversion H; reflexivity].
  - assert (A: forall g, generator_by_name n = Some g <-> n = match g with GJson => bs "json" | GBinary => bs "binary" end).
    { intros g. unfold generator_by_name. split.
      - destruct (bytes_eqb n (bs "json")) eqn:E1; [intros X; inversion X; apply bytes_eqb_eq, E1|].
        destruct (bytes_eqb n (bs "binary")) eqn:E2; [intros X; inversion X; apply bytes_eqb_eq, E2|discriminate].
      - intros ->. destruct g; vm_compute; reflexivity. }
    split.
    + destruct (generator_by_name n) as [g|]; [|discriminate]. destruct (select_generators ns) as [gs'|]; [|discriminate]. intros X; inversion X; subst.
      constructor; [apply A; reflexivity|apply IH; reflexivity].
    + intros X; inversion X as [|n0 g ns0 gs' H1 H2 Q1 Q2]. subst gs n0 ns0. clear X. apply A in H1. rewrite H1. apply IH in H2. rewrite H2. reflexivity.
Qed.
