(** PropertiesAgain.v -- property C73: what a variable contained before does not matter for what is reported, and deserialising the same document again changes nothing (vocabulary in AgainSpec.v) *)
From Coq Require Import String List NArith ZArith Bool Lia.
From Verif Require Import Base BaseFacts Types TypesFacts BinModel BinSpec BinSafeSpec BinFacts ContFacts Float JsonModel JsonRel JsonErr JsonSpec JsonSafeSpec JsonSafe JsonMembers JsonColl
  PropertiesJson EquivSpec AgainSpec AgainFacts AgainTop AgainComplete.
Import ListNotations.
Local Open Scope list_scope.

(** C73: a document is pulled into two variables of the same type with whatever contents (and with whatever other objects in memory and errors reported before). Then both calls return,
    or both throw the same error, having reported exactly the same errors. *)
Theorem C73_same_outcome : forall G J ud C, alloc_ok G -> place_ok G -> jenv_ok G ud (fun _ => True) false -> conv_ok J -> classes_considered G C ->
  forall m t old old' j fuel st st', pullable G (fun _ => True) false t -> considered C m t -> json_wf j ->
    heap_typed G ud (p_heap st) -> heap_typed G ud (p_heap st') -> variable_ok G ud (p_heap st) t old -> variable_ok G ud (p_heap st') t old' -> same_context (p_err st) (p_err st') ->
    same_outcome st st' (pull G J fuel t old j st) (pull G J fuel t old' j st').
Proof. intros G J ud C HA HP HJ HV HC m t old old' j fuel st st'. apply (outcome G J ud C HA HP HJ HV HC). Qed.
Print Assumptions C73_same_outcome.

(** C73: without shared pointers, the value a variable has after a document has been pulled into it depends only on the value it had before and on the document: not on other objects
    in memory, errors reported before, kinds of errors which throw, or the position within a bigger document; and nothing else is changed in memory *)
Theorem C73_value : forall G J C, classes_considered G C -> forall m t old j fuel fuel' st st' v v' s s', m <> Any -> considered C m t ->
  pull G J fuel t old j st = POk v s -> pull G J fuel' t old j st' = POk v' s' -> v = v' /\ p_heap s = p_heap st.
Proof.
  intros G J C HC m t old j fuel fuel' st st' v v' s s' Hm K E E'. exact (proj1 (value_det G J C HC fuel) fuel' m t old j Hm K st st' v s v' s' E E').
Qed.
Print Assumptions C73_value.

(** C73: when the same document is pulled again into the variable, the variable keeps its value, nothing is changed in memory and the same errors are reported again *)
Theorem C73_again : forall G J ud C, alloc_ok G -> place_ok G -> jenv_ok G ud (fun _ => True) false -> conv_ok J -> classes_considered G C -> (forall ord, string_keys G ord) ->
  forall t old j fuel st v st1, pullable G (fun _ => True) false t -> considered C Repeatable t -> json_wf j -> distinct_names j ->
    heap_typed G ud (p_heap st) -> variable_ok G ud (p_heap st) t old -> keyed G t old ->
    pull G J fuel t old j st = POk v st1 ->
    keyed G t v /\ forall e, same_context (p_err st) e ->
    exists st2, pull G J fuel t v j {| p_heap := p_heap st1; p_err := e |} = POk v st2
      /\ p_heap st2 = p_heap st1 /\ same_errors st {| p_heap := p_heap st1; p_err := e |} st1 st2.
Proof.
  intros G J ud C HA HP HJ HV HC SK t old j fuel st v st1 A K W D T O Ko E. split; [eapply (keyed_all G J C HP SK HC); eassumption|]. intros e X.
  assert (S1 := C48_type_safe G J ud HA HP HJ HV t j old fuel st A W T O). rewrite E in S1. destruct S1 as (Tv & T1 & _).
  assert (Ov : variable_ok G ud (p_heap st1) t v) by (destruct Tv as [Tv|(-> & _ & R)]; [left; exact Tv|right; auto]).
  assert (Q := C73_same_outcome G J ud C HA HP HJ HV HC Repeatable t old v j fuel st {| p_heap := p_heap st1; p_err := e |} A K W T T1 O Ov X). rewrite E in Q.
  destruct (pull G J fuel t v j {| p_heap := p_heap st1; p_err := e |}) as [w st2| | | |] eqn:E2; try contradiction. cbn [same_outcome] in Q.
  assert (w = v) as -> by (eapply (again_all G J C HP SK HC j D t old fuel st v st1); eassumption). exists st2. split; [reflexivity|]. split; [|exact Q].
  assert (NA : Repeatable <> Any) by discriminate. apply (C73_value G J C HC Repeatable t v j fuel fuel _ _ _ _ _ _ NA K E2 E2).
Qed.
Print Assumptions C73_again.

(** C73: a document which specifies a whole value determines the value, whatever the variable contained before *)
Theorem C73_complete_document : forall G J C ud ud', classes_considered G C -> forall m t j old old' fuel fuel' st st' v v' s s', m <> Any -> considered C m t -> complete G J t j ->
  variable_ok G ud (p_heap st) t old -> variable_ok G ud' (p_heap st') t old' ->
  pull G J fuel t old j st = POk v s -> pull G J fuel' t old' j st' = POk v' s' -> v = v'.
Proof. intros G J C ud ud' HC m t j old old' fuel fuel' st st' v v' s s' Hm K CP O O' E E'. exact (complete_all G J C HC ud ud' j m t Hm K CP _ _ old old' fuel st v s fuel' st' v' s' O O' E E'). Qed.
Print Assumptions C73_complete_document.
