(** PropertiesHist.v -- property C70: whatever a program restores, from whatever data and in whatever order, its objects stay usable
    (vocabulary: HistSpec.v, BinSafeSpec.v, JsonSafeSpec.v, SerSpec.v) *)
From Coq Require Import String List NArith ZArith Bool Lia.
From Verif Require Import Base BaseFacts Types TypesFacts BinModel BinSpec BinSafeSpec BinSafe BinTop BinExc BinExcFacts BinExcTop JsonModel JsonErr JsonText JsonTextEnd JsonSpec JsonTerm JsonTop JsonSafeSpec JsonFacts JsonExc JsonExcFacts JsonExcTop
  DispatchSpec SerSpec JTreeSpec JTreeGrow PropertiesText PropertiesJson PropertiesExc PropertiesJsonExc PropertiesSer PropertiesAddr HistSpec HistFacts.
From Verif Require XTree.
Import ListNotations.
Local Open Scope list_scope.
Local Open Scope nat_scope.

(** what is required of the classes and of the conversions of other libraries *)
Definition usable (G : genv) (J : jenv) (T : tenv) : Prop :=
  alloc_ok G /\ place_ok G /\ env_ok G false /\ jenv_ok G false (fun _ => True) false /\ conv_ok J /\ (forall x n, te_strtod T x = Some n -> (n < 2 ^ 64)%N).

(** C70: after any number of steps, all variables and objects are values of their types; variables keep their types *)
Theorem C70_stays_proper : forall G J T, usable G J T -> forall w l w', proper G w -> run G J T w l w' ->
  proper G w' /\ map fst (w_vars w') = map fst (w_vars w).
Proof. intros G J T (HA & HP & EO & JO & HC & HS) w l w'. apply run_proper; assumption. Qed.
Print Assumptions C70_stays_proper.

(** C70: a variable which is not assigned keeps its value, and it is serialised exactly as before -- to JSON and to binary data -- although the variables which
    are assigned may have shared objects with it *)
Theorem C70_others_unaffected : forall G J T, usable G J T -> distinct_members G -> forall w l w' k t v, proper G w -> run G J T w l w' ->
  (forall a, In a l -> ~ assigns k a) -> nth_error (w_vars w) k = Some (t, v) ->
  nth_error (w_vars w') k = Some (t, v)
  /\ (forall a c, hget (w_heap w) a = Some c -> hget (w_heap w') a = Some c)
  /\ forall fuel, push G J (w_heap w') fuel t v = push G J (w_heap w) fuel t v
       /\ toJson T G J (w_heap w') fuel t v = toJson T G J (w_heap w) fuel t v
       /\ forall ver, BinModel.write G (w_heap w') fuel ver t v [] = BinModel.write G (w_heap w) fuel ver t v [].
Proof.
  intros G J T (HA & HP & EO & JO & HC & HS) DM w l w' k t v P R N E.
  destruct (run_other G J T HA HP EO JO HC HS w l w' k P R N) as [E' X]. split; [congruence|]. split; [exact X|].
  pose proof (typed_no_dangling G _ DM (proj1 P)) as ND. pose proof (typed_refers G _ DM t v (proj2 P _ _ _ E)) as RF. intros fuel.
  assert (Q : push G J (w_heap w') fuel t v = push G J (w_heap w) fuel t v) by (symmetry; apply push_same; assumption).
  split; [exact Q|]. split; [|intros ver; symmetry; apply write_same; assumption]. unfold toJson, toJsonDocument. rewrite Q. reflexivity.
Qed.
Print Assumptions C70_others_unaffected.

(** C70: so a copy made before is a backup, although it shares objects with the original: whatever is restored into the original, the copy is serialised as the
    original was *)
Theorem C70_backup : forall G J T, usable G J T -> distinct_members G -> forall w i k w1 l w' t v, proper G w ->
  step G J T w (Copy k i) w1 -> run G J T w1 l w' -> (forall a, In a l -> ~ assigns k a) -> nth_error (w_vars w) i = Some (t, v) ->
  nth_error (w_vars w') k = Some (t, v)
  /\ forall fuel, toJson T G J (w_heap w') fuel t v = toJson T G J (w_heap w) fuel t v
       /\ forall ver, BinModel.write G (w_heap w') fuel ver t v [] = BinModel.write G (w_heap w) fuel ver t v [].
Proof.
  intros G J T U DM w i k w1 l w' t v P St R N E. pose proof U as (HA & HP & EO & JO & HC & HS).
  pose proof (proj1 (step_proper G J T HA HP EO JO HC HS _ _ _ P St)) as P1.
  inversion St as [| | | | | | | |k' i' t' old v' Ek Ei X1 X2|]; subst. assert (t' = t /\ v' = v) as [-> ->] by (split; congruence).
  destruct (C70_others_unaffected G J T U DM _ l w' k t v P1 R N) as (A & _ & B).
  - cbn. rewrite replaced_nth, Nat.eqb_refl, Ek. reflexivity.
  - split; [exact A|]. intros fuel. destruct (B fuel) as (_ & B1 & B2). split; [exact B1|exact B2].
Qed.
Print Assumptions C70_backup.

(** C70: in every situation which can arise, everything can be written as binary data: writing ends without undefined behaviour, and the only exception is the one
    about sizes which cannot be expressed *)
Theorem C70_binary_possible : forall G J T, usable G J T -> writers_ok G -> forall w l w' k t v, proper G w -> run G J T w l w' ->
  nth_error (w_vars w') k = Some (t, v) -> writable G t ->
  exists F, (exists bs W, forall fuel, F <= fuel -> BinModel.write G (w_heap w') fuel 0 t v [] = ROk (bs, W))
    \/ (forall fuel, F <= fuel -> BinModel.write G (w_heap w') fuel 0 t v [] = RThrow ExConv).
Proof.
  intros G J T U WO w l w' k t v P R E Hw. destruct (C70_stays_proper G J T U w l w' P R) as [[PH PV] _]. exact (C57_write_outcome G (w_heap w') WO PH 0 t v [] Hw (PV _ _ _ E)).
Qed.
Print Assumptions C70_binary_possible.

(** C70: if only JSON is deserialised, and values are copied, then everything can be serialised as JSON, if that was so at the beginning (no cycles of shared pointers) *)
Theorem C70_json_possible : forall G J T, usable G J T -> plain_defaults G -> distinct_members G -> pushers_ok G -> variants_small_members G ->
  forall w l w', proper G w -> acyclic (w_heap w) -> run G J T w l w' -> (forall a, In a l -> json_only a) ->
  forall k t v, nth_error (w_vars w') k = Some (t, v) -> pushable G t -> variants_small t ->
  exists F j, json_wf j /\ forall fuel, F <= fuel -> push G J (w_heap w') fuel t v = ROk j.
Proof.
  intros G J T U PD DM PO VM w l w' P AC R O k t v E Hq Hv. pose proof U as (HA & HP & EO & JO & HC & HS).
  assert (X : acyclic (w_heap w')).
  { clear E. induction R as [|w a w1 l w2 St R IH]; [exact AC|]. apply IH.
    - exact (proj1 (step_proper G J T HA HP EO JO HC HS _ _ _ P St)).
    - apply (step_acyclic G J T HA HP PD DM w a w1 P (O a (or_introl eq_refl)) St AC).
    - intros b I. apply O. right. exact I. }
  destruct (C70_stays_proper G J T U w l w' P R) as [[PH PV] _]. exact (C57_push_succeeds G J (w_heap w') PO VM PH X t v Hq Hv (PV _ _ _ E)).
Qed.
Print Assumptions C70_json_possible.

(** C70: and the next step is always possible.  Restoring from any bytes ends, by returning or throwing: *)
Theorem C70_restore_possible : forall G J T, usable G J T -> by_value_ok G -> forall w l w' k c v data, proper G w -> run G J T w l w' ->
  nth_error (w_vars w') k = Some (TStruct c, v) -> readable G (TStruct c) -> exists w2, step G J T w' (Restore k data) w2.
Proof.
  intros G J T U BV w l w' k c v data P R E Hr. destruct (C70_stays_proper G J T U w l w' P R) as [[PH PV] _]. pose proof U as (HA & HP & EO & JO & HC & HS).
  assert (exists os, v = VObj os) as [os ->]. { specialize (PV _ _ _ E). inversion PV; subst; [discriminate|eauto]. }
  assert (S : state_ok G false {| r_heap := w_heap w'; r_ptr := [] |}) by (split; [exact PH|intros id a t X; discriminate X]).
  destruct (exception_safe G false HA HP EO BV 0%N (TStruct c) (VObj os) data {| r_heap := w_heap w'; r_ptr := [] |} Hr (PV _ _ _ E) S) as (F & Q).
  destruct (Q (Datatypes.S F) ltac:(lia)) as (x & st & [(r & X)|(e & X & _)] & _); rewrite xread_S in X; cbn [xread_body] in X.
  - destruct (xread_cls G F 0 c os data {| r_heap := w_heap w'; r_ptr := [] |}) as [[fs ver] r' st'|e [fs ver] st'| | |] eqn:Y; cbn in X; try discriminate.
    eexists. eapply st_restored; [exact E|exact Hr|unfold xrestoreFromBinary; exact Y].
  - destruct (xread_cls G F 0 c os data {| r_heap := w_heap w'; r_ptr := [] |}) as [[fs ver] r' st'|e' [fs ver] st'| | |] eqn:Y; cbn in X; try discriminate.
    eexists. eapply st_restore_thrown; [exact E|exact Hr|unfold xrestoreFromBinary; exact Y].
Qed.
Print Assumptions C70_restore_possible.
(** deserialising any document ends, by returning or throwing, unless its behaviour is undefined; *)
Theorem C70_pull_possible : forall G J T, usable G J T -> no_pull_cycle G -> forall w l w' k t v doc, proper G w -> run G J T w l w' ->
  nth_error (w_vars w') k = Some (t, v) -> pullable G (fun _ => True) false t -> json_wf doc ->
  (exists w2, step G J T w' (Pull k doc) w2)
  \/ (exists F, forall fuel, F <= fuel -> pull G J fuel t v doc {| p_heap := w_heap w'; p_err := w_errs w' |} = PUB).
Proof.
  intros G J T U NC w l w' k t v doc P R E Hp Hj. destruct (C70_stays_proper G J T U w l w' P R) as [[PH PV] _]. pose proof U as (HA & HP & EO & JO & HC & HS).
  destruct (C47_terminates G J NC t doc) as (F & Q). set (st := {| p_heap := w_heap w'; p_err := w_errs w' |}).
  pose proof (C53_same_deserialisation G J F t v doc st) as A. pose proof (C53_exception_safe G J false HA HP JO HC t doc v F st Hp Hj PH (or_introl (PV _ _ _ E))) as B.
  destruct (xpull G J F t v doc st) as [x s|e x s| | |] eqn:X.
  - left. eexists. eapply st_pulled; [exact E|exact Hp|exact Hj|exact X].
  - left. eexists. eapply st_pull_thrown; [exact E|exact Hp|exact Hj|exact X].
  - right. exists F. intros fuel L. destruct (Q fuel L v st) as [_ Y]. congruence.
  - destruct (Q F (le_n F) v st) as [Y _]. contradiction.
  - contradiction.
Qed.
Print Assumptions C70_pull_possible.
(** which it is not if a list of errors is passed, numbers are in range and sets do not have scalar elements *)
Theorem C70_pull_defined : forall G J T K, usable G J T -> no_pull_cycle G -> jenv_ok G false K true -> forall w l w' k t v doc, proper G w -> run G J T w l w' ->
  nth_error (w_vars w') k = Some (t, v) -> pullable G (fun _ => True) false t -> pullable G K true t -> json_wf doc -> numbers_fit K doc -> w_errs w' <> None ->
  exists w2, step G J T w' (Pull k doc) w2.
Proof.
  intros G J T K U NC JK w l w' k t v doc P R E Hp Hk Hj Hn He. destruct (C70_pull_possible G J T U NC w l w' k t v doc P R E Hp Hj) as [X|(F & X)]; [exact X|].
  destruct (C70_stays_proper G J T U w l w' P R) as [[PH PV] _]. pose proof U as (HA & HP & EO & JO & HC & HS). specialize (X F (le_n F)).
  exfalso. exact (C48_no_undefined_behaviour G J false K HA HP JK HC t doc v F {| p_heap := w_heap w'; p_err := w_errs w' |} Hk Hj Hn He PH (or_introl (PV _ _ _ E)) X).
Qed.
Print Assumptions C70_pull_defined.
(** and the same holds for assigning what is deserialised from any text *)
Theorem C70_assign_possible : forall G J T, usable G J T -> no_pull_cycle G -> forall w l w' k t v text, proper G w -> run G J T w l w' ->
  nth_error (w_vars w') k = Some (t, v) -> pullable G (fun _ => True) false t -> top_kind t = true ->
  (exists w2, step G J T w' (Assign k text) w2)
  \/ (exists F, forall fuel, F <= fuel -> fromJsonText T G J fuel t text {| p_heap := w_heap w'; p_err := w_errs w' |} = Some PUB).
Proof.
  intros G J T U NC w l w' k t v text P R E Hp Tk. destruct (C70_stays_proper G J T U w l w' P R) as [[PH PV] _]. pose proof U as (HA & HP & EO & JO & HC & HS).
  destruct (C50_terminates T G J NC t text) as (F & Q). set (st := {| p_heap := w_heap w'; p_err := w_errs w' |}).
  pose proof (C50_any_text T G J false HA HP JO HC HS t text F st Tk Hp PH) as B.
  destruct (fromJsonText T G J F t text st) as [[x s|e s| | |]|] eqn:X.
  - left. eexists. eapply st_assigned; [exact E|exact Hp|exact Tk|exact X].
  - left. eexists. eapply st_assign_thrown; [exact E|exact Hp|exact Tk|exact X].
  - right. exists F. intros fuel L. destruct (Q fuel L st) as [_ Y]. congruence.
  - destruct (Q F (le_n F) st) as [Y _]. contradiction.
  - contradiction.
  - left. eexists. eapply st_assign_parse_error; [exact E|exact Hp|exact Tk|exact X].
Qed.
Print Assumptions C70_assign_possible.

(** C65 also holds when an exception is thrown: objects which were there are unchanged, what has been created is separate, and there are no cycles *)
Theorem C65_when_throwing : forall G J fuel t old j st e v st', alloc_ok G -> place_ok G -> plain_defaults G ->
  xpull G J fuel t old j st = QThrow e v st' ->
  (forall a, exists_at (p_heap st) a -> exists_at (p_heap st') a /\ hget (p_heap st') a = hget (p_heap st) a)
  /\ (forall a, refers v a -> refers old a \/ (~ exists_at (p_heap st) a /\ exists_at (p_heap st') a))
  /\ (forall a t' x b, ~ exists_at (p_heap st) a -> hget (p_heap st') a = Some (t', x) -> refers x b -> ~ exists_at (p_heap st) b /\ exists_at (p_heap st') b)
  /\ (no_dangling (p_heap st) -> acyclic (p_heap st) -> no_dangling (p_heap st') /\ acyclic (p_heap st')).
Proof.
  intros G J fuel t old j st e v st' HA HP HD E. pose proof (proj1 (XTree.xgrown_all G J HA HP HD fuel) t old j st) as B. rewrite E in B. destruct B as [B GR].
  pose proof GR as [K C _]. split; [exact K|]. split; [exact B|]. split; [|intros ND AC; exact (grown_total _ _ GR ND AC)].
  intros a t' x b Ha Ea R. eapply (C a t' x b); [split; [exact Ha|eapply BoundFacts.hget_in; exact Ea]|exact Ea|exact R].
Qed.
Print Assumptions C65_when_throwing.
