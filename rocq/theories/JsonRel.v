(** JsonRel.v -- a relation between computations which is respected by the primitive effects of
    pull is respected by pull; used for fuel monotonicity and the statements about the error list *)
From Coq Require Import List NArith ZArith Bool Lia.
From Verif Require Import Base BaseFacts Types BinModel Float JsonModel.
Import ListNotations.

Lemma pull_S G J f : pull G J (S f) = pull_body G J (pull G J f) (pull_cls G J f).
Proof. reflexivity. Qed.
Lemma pull_cls_S G J f : pull_cls G J (S f) = pull_cls_body G (pull G J f) (pull_cls G J f).
Proof. reflexivity. Qed.
Lemma push_S G J H f : push G J H (S f) = push_body J H (push G J H f) (push_cls G J H f).
Proof. reflexivity. Qed.
Lemma push_cls_S G J H f : push_cls G J H (S f) = push_cls_body G (push G J H f) (push_cls G J H f).
Proof. reflexivity. Qed.

Record mrel (G : genv) (R : forall A, M A -> M A -> Prop) : Prop := {
  mr_ret : forall A (a : A), R A (ret a) (ret a);
  mr_bind : forall A B m m' (k k' : A -> M B), R A m m' -> (forall a, R B (k a) (k' a)) -> R B (bind m k) (bind m' k');
  mr_ub : forall A, R A ub ub;
  mr_stuck : forall A, R A stuck stuck;
  mr_report : forall k e a, k <> UnexpectedDuplicate -> R unit (report k e a) (report k e a);
  mr_unchecked : forall e a, R unit (report_unchecked UnexpectedDuplicate e a) (report_unchecked UnexpectedDuplicate e a);
  mr_items : forall A (s s' : A -> json -> M A) js i a, (forall a j, R A (s a j) (s' a j)) -> R A (pull_items s i js a) (pull_items s' i js a);
  mr_member : forall A n m m', R A m m' -> R A (in_member n m) (in_member n m');
  mr_record : forall A n m m', R A m m' -> R A (in_record n m) (in_record n m');
  mr_new : forall t m m', R val m m' -> R N (in_new G t m) (in_new G t m') }.

(** relations respected by assigning the index are respected by the loops over arrays *)
Lemma items_from_index (R : forall A, M A -> M A -> Prop) :
  (forall A (a : A), R A (ret a) (ret a)) ->
  (forall A B m m' (k k' : A -> M B), R A m m' -> (forall a, R B (k a) (k' a)) -> R B (bind m k) (bind m' k')) ->
  (forall i, R unit (set_index i) (set_index i)) ->
  forall A (s s' : A -> json -> M A) js i a, (forall a j, R A (s a j) (s' a j)) -> R A (pull_items s i js a) (pull_items s' i js a).
Proof.
  intros Hr Hb Hi A s s' js i a H. revert i a. induction js as [|j js IH]; intros i a; cbn [pull_items].
  - apply Hb; [apply Hi|intros _; apply Hr].
  - apply Hb; [apply Hi|intros _]. apply Hb; [apply H|intros a'; apply IH].
Qed.

Section Rel.
  Variable G : genv.
  Variable J : jenv.
  Variable R : forall A, M A -> M A -> Prop.
  Hypothesis HR : mrel G R.

  Lemma rel_fold {A B} (s s' : A -> B -> M A) l :
    (forall a b, R A (s a b) (s' a b)) -> forall a, R A (fold_m s l a) (fold_m s' l a).
  Proof.
    intros H. induction l as [|x l IH]; intros a; cbn [fold_m]; [apply (mr_ret _ _ HR)|].
    apply (mr_bind _ _ HR); [apply H|intros a'; apply IH].
  Qed.
  Lemma rel_tuple (p p' : ty -> val -> json -> M val) :
    (forall t o j, R val (p t o j) (p' t o j)) ->
    forall ts os js, R (list val) (pull_tuple p ts os js) (pull_tuple p' ts os js).
  Proof.
    intros H. induction ts as [|t ts IH]; intros [|o os] js; cbn [pull_tuple];
      try apply (mr_stuck _ _ HR); [apply (mr_ret _ _ HR)|].
    destruct js; [apply (mr_ub _ _ HR)|].
    apply (mr_bind _ _ HR); [apply H|intros x]. apply (mr_bind _ _ HR); [apply IH|intros xs; apply (mr_ret _ _ HR)].
  Qed.

  Ltac rl := repeat first
    [ apply (mr_ret _ _ HR) | apply (mr_ub _ _ HR) | apply (mr_stuck _ _ HR)
    | (apply (mr_report _ _ HR); discriminate) | apply (mr_unchecked _ _ HR)
    | match goal with |- R _ (bind _ _) (bind _ _) => apply (mr_bind _ _ HR); [|intro] end
    | match goal with |- R _ (pull_items _ _ _ _) (pull_items _ _ _ _) => apply (mr_items _ _ HR); intros end
    | match goal with |- R _ (fold_m _ _ _) (fold_m _ _ _) => apply rel_fold; intros end
    | match goal with |- R _ (pull_tuple _ _ _ _) (pull_tuple _ _ _ _) => apply rel_tuple; intros end
    | match goal with |- R _ (in_member _ _) (in_member _ _) => apply (mr_member _ _ HR) end
    | match goal with |- R _ (in_record _ _) (in_record _ _) => apply (mr_record _ _ HR) end
    | match goal with |- R _ (in_new _ _ _) (in_new _ _ _) => apply (mr_new _ _ HR) end
    | match goal with H : forall _, _ |- _ => solve [apply H] end
    | progress (unfold mismatch, get_int, cast_double, pull_member; cbv zeta)
    | match goal with |- R _ (match ?x with _ => _ end) _ => destruct x eqn:? end
    | match goal with |- R _ ((fun _ => _) _) _ => cbv beta end ].

  Lemma pull_body_rel p p' pc pc' :
    (forall t o j, R val (p t o j) (p' t o j)) ->
    (forall c os ms, R (list (fkey * val)) (pc c os ms) (pc' c os ms)) ->
    forall t o j, R val (pull_body G J p pc t o j) (pull_body G J p' pc' t o j).
  Proof. intros Hp Hc t o j. unfold pull_body. destruct t; rl. Qed.

  Lemma pull_cls_body_rel p p' pc pc' :
    (forall t o j, R val (p t o j) (p' t o j)) ->
    (forall c os ms, R (list (fkey * val)) (pc c os ms) (pc' c os ms)) ->
    forall c os ms, R (list (fkey * val)) (pull_cls_body G p pc c os ms) (pull_cls_body G p' pc' c os ms).
  Proof. intros Hp Hc c os ms. unfold pull_cls_body. rl. Qed.

  Hypothesis HF : forall A, R A nofuel nofuel.
  Lemma pull_rel f :
    (forall t o j, R val (pull G J f t o j) (pull G J f t o j))
    /\ (forall c os ms, R (list (fkey * val)) (pull_cls G J f c os ms) (pull_cls G J f c os ms)).
  Proof.
    induction f as [|f [IH1 IH2]].
    - split; intros; apply HF.
    - split; intros; rewrite ?pull_S, ?pull_cls_S; [apply pull_body_rel|apply pull_cls_body_rel]; assumption.
  Qed.

  (** the high-level function *)
  Lemma fromJson_rel f t j : R val (fromJson G J f t j) (fromJson G J f t j).
  Proof.
    destruct (pull_rel f) as [P _]. unfold fromJson. destruct t; rl.
  Qed.
End Rel.

(* ------------------------------------------------------------------ *)
(** * More fuel never changes a result other than "out of fuel" *)

Definition le_out {A} (m m' : M A) : Prop := forall st, m st = PFuel \/ m' st = m st.

Lemma le_out_mrel G : mrel G (fun A => @le_out A).
Proof.
  assert (HB: forall A B (m m' : M A) (k k' : A -> M B), le_out m m' -> (forall a, le_out (k a) (k' a)) -> le_out (bind m k) (bind m' k')).
  { intros A B m m' k k' H H0 st. unfold bind. destruct (H st) as [E|E]; rewrite E; [left; reflexivity|].
    destruct (m st); try (right; reflexivity). apply H0. }
  constructor; intros; try (intros st; right; reflexivity).
  - apply HB; assumption.
  - apply (items_from_index (fun A => @le_out A)); try assumption; intros; intros st; right; reflexivity.
  - intros st. unfold in_member. destruct (H (put_member (Some n) st)) as [E|E]; rewrite E; [left|right]; reflexivity.
  - intros st. unfold in_record. destruct (H (put_record (Some n) st)) as [E|E]; rewrite E; [left|right]; reflexivity.
  - intros st. unfold in_new. match goal with |- context [m ?s] => destruct (H s) as [E|E] end; rewrite E; [left|right]; reflexivity.
Qed.

Lemma pull_mono1 G J f :
  (forall t o j, le_out (pull G J f t o j) (pull G J (S f) t o j))
  /\ (forall c os ms, le_out (pull_cls G J f c os ms) (pull_cls G J (S f) c os ms)).
Proof.
  induction f as [|f [IH1 IH2]].
  - split; intros; intros st; left; reflexivity.
  - split; intros.
    + rewrite (pull_S G J (S f)), (pull_S G J f). apply (pull_body_rel G J (fun A => @le_out A) (le_out_mrel G)); assumption.
    + rewrite (pull_cls_S G J (S f)), (pull_cls_S G J f). apply (pull_cls_body_rel G (fun A => @le_out A) (le_out_mrel G)); assumption.
Qed.
Lemma le_out_trans {A} (a b c : M A) : le_out a b -> le_out b c -> le_out a c.
Proof. intros H1 H2 st. destruct (H1 st) as [E|E]; [left; exact E|]. destruct (H2 st) as [E2|E2]; [left; congruence|right; congruence]. Qed.
Lemma pull_mono G J f f' : f <= f' ->
  (forall t o j, le_out (pull G J f t o j) (pull G J f' t o j))
  /\ (forall c os ms, le_out (pull_cls G J f c os ms) (pull_cls G J f' c os ms)).
Proof.
  induction 1 as [|f' Hle [IH1 IH2]]; [split; intros; intros st; right; reflexivity|].
  destruct (pull_mono1 G J f') as [M1 M2]. split; intros; eapply le_out_trans; eauto.
Qed.
Lemma pull_more G J f f' t o j st r : f <= f' -> pull G J f t o j st = r -> r <> PFuel -> pull G J f' t o j st = r.
Proof. intros L E N. destruct (pull_mono G J f f' L) as [Mo _]. destruct (Mo t o j st); congruence. Qed.
Lemma pull_cls_more G J f f' c os ms st r : f <= f' -> pull_cls G J f c os ms st = r -> r <> PFuel -> pull_cls G J f' c os ms st = r.
Proof. intros L E N. destruct (pull_mono G J f f' L) as [_ Mo]. destruct (Mo c os ms st); congruence. Qed.

Lemma le_push_iter {A B} (p p' : A -> res B) l :
  (forall x, p x = RFuel \/ p' x = p x) -> push_iter p l = RFuel \/ push_iter p' l = push_iter p l.
Proof.
  intros H. induction l as [|x l IH]; cbn [push_iter]; [right; reflexivity|].
  destruct (H x) as [E|E]; rewrite E; [left; reflexivity|]. destruct (p x); cbn; try (right; reflexivity).
  destruct IH as [E2|E2]; rewrite E2; [left|right]; reflexivity.
Qed.
Lemma le_push_fold {A} (p p' : A -> list (bytes * json) -> res (list (bytes * json))) l :
  (forall x ms, p x ms = RFuel \/ p' x ms = p x ms) -> forall ms, push_fold p l ms = RFuel \/ push_fold p' l ms = push_fold p l ms.
Proof.
  intros H. induction l as [|x l IH]; intros ms; cbn [push_fold]; [right; reflexivity|].
  destruct (H x ms) as [E|E]; rewrite E; [left; reflexivity|]. destruct (p x ms); cbn; try (right; reflexivity). apply IH.
Qed.
Definition le_r {A} (m m' : res A) : Prop := m = RFuel \/ m' = m.
Lemma le_r_bind A B (m m' : res A) (k k' : A -> res B) : le_r m m' -> (forall a, le_r (k a) (k' a)) -> le_r (rbind m k) (rbind m' k').
Proof. intros [E|E] Hk; rewrite E; [left; reflexivity|]. destruct m; cbn; try (right; reflexivity). apply Hk. Qed.
Lemma le_r_refl A (a : res A) : le_r a a. Proof. right; reflexivity. Qed.
Lemma push_body_le G J H p p' pc pc' :
  (forall t v, le_r (p t v) (p' t v)) -> (forall c fs ms, le_r (pc c fs ms) (pc' c fs ms)) ->
  (forall t v, le_r (push_body J H p pc t v) (push_body J H p' pc' t v))
  /\ (forall c fs ms, le_r (push_cls_body G p pc c fs ms) (push_cls_body G p' pc' c fs ms)).
Proof.
  intros IH1 IH2. split; intros.
  - assert (FF: forall (q : bytes -> json -> list (bytes*json) -> list (bytes*json)) vt l ms,
      let F (p : ty -> val -> res json) := push_fold (fun x ms => match x with
                       | VPair (VStr k) v => let! j := p vt v in ROk (q k j ms)
                       | _ => RStuck end) l ms in le_r (F p) (F p')).
    { intros q vt l ms. apply le_push_fold. intros x ms1. destruct x; try apply le_r_refl. destruct x1; try apply le_r_refl.
      apply le_r_bind; [auto|intros; apply le_r_refl]. }
    unfold push_body.
    destruct t, v; try apply le_r_refl; repeat match goal with
      | |- le_r (match ?x with _ => _ end) _ => destruct x; try apply le_r_refl
      end; try (apply le_r_bind; [|intros; apply le_r_refl]); try apply le_push_iter; auto;
      try apply (FF (fun k j ms => ms ++ [(cstr k, j)])); try apply (FF add_multi).
    + intros x; apply IH1.
    + intros x; apply IH1.
    + apply le_r_bind; [auto|intros; apply le_r_bind; auto; intros; apply le_r_refl].
    + intros [t' x]. apply IH1.
    + destruct (nth_error ts i); [|apply le_r_refl]. destruct t; auto. apply le_r_refl.
  - unfold push_cls_body.
    destruct (g_class G c); [|apply le_r_refl]. apply le_r_bind; [apply le_push_fold; intros; apply IH2|].
    intros ms1. apply le_push_fold. intros x ms2. destruct (alookup _ _ _); [|apply le_r_refl].
    apply le_r_bind; auto. intros; apply le_r_refl.
Qed.
Lemma push_mono1 G J H f :
  (forall t v, push G J H f t v = RFuel \/ push G J H (S f) t v = push G J H f t v)
  /\ (forall c fs ms, push_cls G J H f c fs ms = RFuel \/ push_cls G J H (S f) c fs ms = push_cls G J H f c fs ms).
Proof.
  induction f as [|f [IH1 IH2]]; [split; intros; left; reflexivity|].
  destruct (push_body_le G J H _ _ _ _ IH1 IH2) as [Q1 Q2]. split; [exact Q1|exact Q2].
Qed.
Lemma push_mono G J H f f' : f <= f' ->
  (forall t v, push G J H f t v = RFuel \/ push G J H f' t v = push G J H f t v)
  /\ (forall c fs ms, push_cls G J H f c fs ms = RFuel \/ push_cls G J H f' c fs ms = push_cls G J H f c fs ms).
Proof.
  induction 1 as [|f' Hle [IH1 IH2]]; [split; intros; right; reflexivity|].
  destruct (push_mono1 G J H f') as [M1 M2]. split; intros.
  - destruct (IH1 t v) as [E|E]; [left; exact E|]. destruct (M1 t v) as [E2|E2]; [left; congruence|right; congruence].
  - destruct (IH2 c fs ms) as [E|E]; [left; exact E|]. destruct (M2 c fs ms) as [E2|E2]; [left; congruence|right; congruence].
Qed.
Lemma push_more G J H f f' t v r : f <= f' -> push G J H f t v = r -> r <> RFuel -> push G J H f' t v = r.
Proof. intros L E N. destruct (push_mono G J H f f' L) as [Mo _]. destruct (Mo t v); congruence. Qed.
Lemma push_cls_more G J H f f' c fs ms r : f <= f' -> push_cls G J H f c fs ms = r -> r <> RFuel -> push_cls G J H f' c fs ms = r.
Proof. intros L E N. destruct (push_mono G J H f f' L) as [_ Mo]. destruct (Mo c fs ms); congruence. Qed.
