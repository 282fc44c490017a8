(** HistSpec.v -- histories: a program with several variables the contents of which are restored from binary data, JSON documents and JSON texts
    in any order, with and without exceptions (property C70) *)
From Coq Require Import String List NArith ZArith Bool.
From Verif Require Import Base Types BinModel BinExc BinSafeSpec JsonModel JsonText JsonSafeSpec JsonFacts JsonExc.
Import ListNotations.
Local Open Scope list_scope.

(** The variables of a program with their types, the objects owned by shared pointers and the list of errors which is passed when deserialising
    JSON ([None]: no list is passed). *)
Record world := { w_vars : list (ty * val); w_heap : heap; w_errs : option est }.

Fixpoint replaced {A} (i : nat) (x : A) (l : list A) : list A :=
  match l, i with
  | [], _ => []
  | _ :: l', O => x :: l'
  | y :: l', S i' => y :: replaced i' x l'
  end.
Definition become (w : world) (i : nat) (t : ty) (v : val) (h : heap) (er : option est) : world :=
  {| w_vars := replaced i (t, v) (w_vars w); w_heap := h; w_errs := er |}.

(** What a program does with the library:
    - [Restore i data]: x.restoreFromBinary(stream with these bytes), x being variable [i],
    - [Pull i doc]: JsonReflector::pull(x, document, errors),
    - [Assign i text]: x = JsonReflector::fromJson<X>(text, errors),
    - [Errors er]: another list of errors, or none, is passed from now on (also: throwOn is changed),
    - [Copy i k]: x = y, y being variable [k] of the same type; shared pointers then refer to the same objects,
    - [Own]: anything else, as long as variables and objects stay values of their types.
    Exceptions are caught. *)
Inductive action :=
| Restore (i : nat) (data : bytes)
| Pull (i : nat) (doc : json)
| Assign (i : nat) (text : bytes)
| Errors (er : option est)
| Copy (i k : nat)
| Own.

(** variables and objects are values of their types *)
Definition proper (G : genv) (w : world) : Prop :=
  heap_typed G false (w_heap w) /\ forall i t v, nth_error (w_vars w) i = Some (t, v) -> has_type G false (w_heap w) t v.

(** [step G J T w a w']: the program does [a] in the situation [w] and then [w'] is the situation.  The call has to compile; nothing is said of calls with
    undefined behaviour. *)
Inductive step (G : genv) (J : jenv) (T : tenv) (w : world) : action -> world -> Prop :=
| st_restored i data c os fuel fs ver rest st :
    nth_error (w_vars w) i = Some (TStruct c, VObj os) -> readable G (TStruct c) ->
    xrestoreFromBinary G fuel c os data (w_heap w) = XOk (fs, ver) rest st ->
    step G J T w (Restore i data) (become w i (TStruct c) (VObj fs) (r_heap st) (w_errs w))
| st_restore_thrown i data c os fuel e fs ver st :
    nth_error (w_vars w) i = Some (TStruct c, VObj os) -> readable G (TStruct c) ->
    xrestoreFromBinary G fuel c os data (w_heap w) = XThrow e (fs, ver) st ->
    step G J T w (Restore i data) (become w i (TStruct c) (VObj fs) (r_heap st) (w_errs w))
| st_pulled i doc t old fuel v st :
    nth_error (w_vars w) i = Some (t, old) -> pullable G (fun _ => True) false t -> json_wf doc ->
    xpull G J fuel t old doc {| p_heap := w_heap w; p_err := w_errs w |} = QOk v st ->
    step G J T w (Pull i doc) (become w i t v (p_heap st) (p_err st))
| st_pull_thrown i doc t old fuel e v st :
    nth_error (w_vars w) i = Some (t, old) -> pullable G (fun _ => True) false t -> json_wf doc ->
    xpull G J fuel t old doc {| p_heap := w_heap w; p_err := w_errs w |} = QThrow e v st ->
    step G J T w (Pull i doc) (become w i t v (p_heap st) (p_err st))
| st_assigned i text t old fuel v st :
    nth_error (w_vars w) i = Some (t, old) -> pullable G (fun _ => True) false t -> top_kind t = true ->
    fromJsonText T G J fuel t text {| p_heap := w_heap w; p_err := w_errs w |} = Some (POk v st) ->
    step G J T w (Assign i text) (become w i t v (p_heap st) (p_err st))
| st_assign_thrown i text t old fuel e st :
    nth_error (w_vars w) i = Some (t, old) -> pullable G (fun _ => True) false t -> top_kind t = true ->
    fromJsonText T G J fuel t text {| p_heap := w_heap w; p_err := w_errs w |} = Some (PThrow e st) ->
    step G J T w (Assign i text) {| w_vars := w_vars w; w_heap := w_heap w; w_errs := p_err st |}
| st_assign_parse_error i text t old fuel :
    nth_error (w_vars w) i = Some (t, old) -> pullable G (fun _ => True) false t -> top_kind t = true ->
    fromJsonText T G J fuel t text {| p_heap := w_heap w; p_err := w_errs w |} = None ->
    step G J T w (Assign i text) w
| st_errors er : step G J T w (Errors er) {| w_vars := w_vars w; w_heap := w_heap w; w_errs := er |}
| st_copy i k t old v :
    nth_error (w_vars w) i = Some (t, old) -> nth_error (w_vars w) k = Some (t, v) ->
    step G J T w (Copy i k) (become w i t v (w_heap w) (w_errs w))
| st_own w' : map fst (w_vars w') = map fst (w_vars w) -> proper G w' -> step G J T w Own w'.

(** any number of steps *)
Inductive run (G : genv) (J : jenv) (T : tenv) : world -> list action -> world -> Prop :=
| run_nil w : run G J T w [] w
| run_cons w a w1 l w2 : step G J T w a w1 -> run G J T w1 l w2 -> run G J T w (a :: l) w2.

(** the action assigns the variable [k] *)
Definition assigns (k : nat) (a : action) : Prop :=
  match a with Restore i _ | Pull i _ | Assign i _ | Copy i _ => i = k | Errors _ => False | Own => True end.
(** the action is about JSON or copies *)
Definition json_only (a : action) : Prop := match a with Pull _ _ | Assign _ _ | Errors _ | Copy _ _ => True | Restore _ _ | Own => False end.
(** the members of a class are different ones *)
Definition distinct_members (G : genv) : Prop := forall c rc, g_class G c = Some rc -> NoDup (map fst (rc_layout rc)).
