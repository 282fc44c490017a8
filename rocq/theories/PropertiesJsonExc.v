(** PropertiesJsonExc.v -- what is left behind when JSON deserialisation throws, JsonDeserializationErrors::throwOn
    (model: JsonExc.v, vocabulary: BinExcSpec.v, JsonSafeSpec.v, JsonSpec.v) *)
From Coq Require Import List NArith ZArith Bool Lia.
From Verif Require Import Base Types TypesFacts BinModel BinSpec BinSafeSpec BinFacts BinExcSpec JsonModel JsonErr JsonSpec JsonSafeSpec JsonExc JsonExcFacts JsonExcTop.
Import ListNotations.

(** C53: whatever the document and throwOn, and whether pull returns or throws: the variable holds a value of its type (or
    is as indeterminate as it was), every object owned by a shared pointer has its type, and objects which existed before
    are unchanged. *)
Theorem C53_exception_safe : forall G J ud, alloc_ok G -> place_ok G -> jenv_ok G ud (fun _ => True) false -> conv_ok J ->
  forall t j old fuel st,
    pullable G (fun _ => True) false t -> json_wf j ->
    heap_typed G ud (p_heap st) -> variable_ok G ud (p_heap st) t old ->
    match xpull G J fuel t old j st with
    | QOk v st' | QThrow _ v st' => (has_type G ud (p_heap st') t v \/ (v = VUndef /\ old = VUndef /\ raw t = true))
                   /\ heap_typed G ud (p_heap st') /\ heap_extends (p_heap st) (p_heap st')
    | QUB | QFuel => True
    | QStuck => False
    end.
Proof. exact json_exception_safe. Qed.
Print Assumptions C53_exception_safe.

(** the model with exceptions and the one the other theorems are about (JsonModel.v) describe the same function: same value
    and state when it returns, same exception and error list when it throws *)
Theorem C53_same_deserialisation : forall G J fuel t old j st,
  match xpull G J fuel t old j st with
  | QOk v st' => pull G J fuel t old j st = POk v st'
  | QThrow x _ st' => exists st2, pull G J fuel t old j st = PThrow x st2 /\ p_err st2 = p_err st'
  | QUB => pull G J fuel t old j st = PUB
  | QFuel => pull G J fuel t old j st = PFuel
  | QStuck => pull G J fuel t old j st = PStuck
  end.
Proof.
  intros G J fuel t old j st. pose proof (proj1 (xpull_agrees G J fuel) t old j st) as A.
  destruct (xpull G J fuel t old j st), (pull G J fuel t old j st); cbn [agree] in A; try contradiction; try reflexivity.
  - destruct A as [-> ->]. reflexivity.
  - destruct A as [-> A]. eauto.
Qed.
Print Assumptions C53_same_deserialisation.

(** C53: if an error stops the deserialisation of an object then its members have been restored in order: those before the
    one with the error as without throwOn, those after it as before ([progress]) *)
Theorem C53_members_in_order : forall G J ud, alloc_ok G -> place_ok G -> jenv_ok G ud (fun _ => True) false -> conv_ok J ->
  forall fuel c rc L os ms h e T x now st2,
  g_class G c = Some rc -> members G rc_pull c L -> json_wf (JObj ms) ->
  has_type G ud h (TStruct c) (VObj os) -> heap_typed G ud h -> es_throw e = 0%N ->
  xpull G J fuel (TStruct c) (VObj os) (JObj ms) {| p_heap := h; p_err := Some (throwing_on T e) |} = QThrow x now st2 ->
  forall after st', pull G J fuel (TStruct c) (VObj os) (JObj ms) {| p_heap := h; p_err := Some e |} = POk (VObj after) st' ->
  exists fs, now = VObj fs /\ progress G ud (rc_layout rc) (map jf_key L) os h after (p_heap st') fs (p_heap st2).
Proof. exact json_members_in_order. Qed.
Print Assumptions C53_members_in_order.

(** C53: if an error stops the deserialisation of a sequence then it consists of the elements before the one with the error,
    as without throwOn, and that one *)
Theorem C53_stop_in_sequence : forall G J fuel t old js h e T x now st2, es_throw e = 0%N ->
  xpull G J fuel (TSeq t) old (JArr js) {| p_heap := h; p_err := Some (throwing_on T e) |} = QThrow x now st2 ->
  forall after st', pull G J fuel (TSeq t) old (JArr js) {| p_heap := h; p_err := Some e |} = POk (VList after) st' ->
  exists i cur, i < length js /\ now = VList (firstn i after ++ [cur]).
Proof. exact json_stop_in_sequence. Qed.
Print Assumptions C53_stop_in_sequence.
