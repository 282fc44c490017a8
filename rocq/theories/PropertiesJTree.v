(** PropertiesJTree.v -- property C65: deserialising JSON makes trees: the objects it creates are owned by one pointer each, pointers do not form
    cycles and objects which were there are left alone; so what has been deserialised can be serialised again *)
From Coq Require Import String List NArith ZArith Bool Lia.
From Verif Require Import Base BaseFacts Types TypesFacts BinModel BinSpec BinSafeSpec Float JsonModel JsonErr JsonText JsonTextSpec JsonTextEnd JsonSpec JsonSafeSpec JsonSafe JsonFacts DispatchSpec SerSpec BoundSpec BoundFacts
  JBoundFacts JTreeSpec JTreeFacts JTreeGrow PropertiesJson PropertiesText PropertiesSer.
Import ListNotations.
Local Open Scope list_scope.
Local Open Scope nat_scope.

(** C65: objects which exist already do not get any further shared pointer, and an object which is created gets a single one:
    however often a value occurs in the document, nothing is shared *)
Theorem C65_no_sharing : forall G J fuel t old j st v st', alloc_ok G -> place_ok G -> plain_defaults G ->
  pull G J fuel t old j st = POk v st' ->
  forall a, pointers a v + heap_pointers a (p_heap st')
    <= pointers a old + heap_pointers a (p_heap st) + (if exists_dec (p_heap st) a then 0 else if exists_dec (p_heap st') a then 1 else 0).
Proof.
  intros G J fuel t old j st v st' HA HP HD E a. pose proof (proj1 (pointers_all G J a HA HP HD fuel) t old j st) as B. rewrite E in B. destruct B as [B K].
  unfold pot in B. unfold exists_dec. destruct (in_dec N.eq_dec a (map fst (p_heap st))) as [I1|I1], (in_dec N.eq_dec a (map fst (p_heap st'))) as [I2|I2]; lia.
Qed.
Print Assumptions C65_no_sharing.

(** C65: so every object which was created is owned by at most one pointer, in the value or in another object *)
Theorem C65_single_owner : forall G J fuel t old j st v st', alloc_ok G -> place_ok G -> plain_defaults G ->
  pull G J fuel t old j st = POk v st' -> no_dangling (p_heap st) -> (forall a, refers old a -> exists_at (p_heap st) a) ->
  forall a, ~ exists_at (p_heap st) a -> pointers a v + heap_pointers a (p_heap st') <= 1.
Proof.
  intros G J fuel t old j st v st' HA HP HD E HN HO a Ha. pose proof (C65_no_sharing G J fuel t old j st v st' HA HP HD E a) as B.
  assert (pointers a old = 0) as Z1. { destruct (Nat.eq_dec (pointers a old) 0) as [X|X]; [exact X|]. exfalso. apply Ha, HO, pointers_refers, X. }
  assert (heap_pointers a (p_heap st) = 0) as Z2.
  { unfold heap_pointers. assert (X : forall l, list_sum (map (fun b => match hget (p_heap st) b with Some (_, x) => pointers a x | None => 0 end) l) = 0).
    { induction l as [|b l IH]; [reflexivity|]. cbn [map]. change (list_sum (?x :: ?l)) with (x + list_sum l). rewrite IH.
      destruct (hget (p_heap st) b) as [[tb x]|] eqn:Eb; [|reflexivity]. destruct (Nat.eq_dec (pointers a x) 0) as [X|X]; [lia|]. exfalso. apply Ha. eapply HN; [exact Eb|apply pointers_refers, X]. }
    apply X. }
  destruct (exists_dec (p_heap st) a); [contradiction|]. destruct (exists_dec (p_heap st') a); lia.
Qed.
Print Assumptions C65_single_owner.

(** C65: objects which were there are not changed; the value refers only to what it referred to before and to objects which have been created;
    and those refer only to objects which have been created *)
Theorem C65_separate : forall G J fuel t old j st v st', alloc_ok G -> place_ok G -> plain_defaults G ->
  pull G J fuel t old j st = POk v st' ->
  (forall a, exists_at (p_heap st) a -> exists_at (p_heap st') a /\ hget (p_heap st') a = hget (p_heap st) a)
  /\ (forall a, refers v a -> refers old a \/ (~ exists_at (p_heap st) a /\ exists_at (p_heap st') a))
  /\ (forall a t' x b, ~ exists_at (p_heap st) a -> hget (p_heap st') a = Some (t', x) -> refers x b -> ~ exists_at (p_heap st) b /\ exists_at (p_heap st') b).
Proof.
  intros G J fuel t old j st v st' HA HP HD E. pose proof (proj1 (grown_all G J HA HP HD fuel) t old j st) as B. rewrite E in B. destruct B as [B [K C _]].
  split; [exact K|]. split; [exact B|]. intros a t' x b Ha Ea R. eapply (C a t' x b); [split; [exact Ha|eapply BoundFacts.hget_in; exact Ea]|exact Ea|exact R].
Qed.
Print Assumptions C65_separate.

(** C65: shared pointers do not form cycles afterwards if they did not before, nor do they dangle *)
Theorem C65_no_cycles : forall G J fuel t old j st v st', alloc_ok G -> place_ok G -> plain_defaults G ->
  pull G J fuel t old j st = POk v st' -> no_dangling (p_heap st) -> acyclic (p_heap st) ->
  no_dangling (p_heap st') /\ acyclic (p_heap st').
Proof.
  intros G J fuel t old j st v st' HA HP HD E HN AC. pose proof (proj1 (grown_all G J HA HP HD fuel) t old j st) as B. rewrite E in B. destruct B as [_ B].
  exact (grown_total _ _ B HN AC).
Qed.
Print Assumptions C65_no_cycles.

(** C65: so whatever has been deserialised can be serialised again: the recursion through shared pointers ends *)
Theorem C65_serialised_again : forall G J fuel t old j st v st', alloc_ok G -> place_ok G -> plain_defaults G ->
  jenv_ok G false (fun _ => True) false -> conv_ok J -> pushers_ok G -> variants_small_members G ->
  pullable G (fun _ => True) false t -> pushable G t -> variants_small t -> json_wf j ->
  heap_typed G false (p_heap st) -> no_dangling (p_heap st) -> acyclic (p_heap st) -> has_type G false (p_heap st) t old ->
  pull G J fuel t old j st = POk v st' ->
  exists F j', json_wf j' /\ forall fuel', F <= fuel' -> push G J (p_heap st') fuel' t v = ROk j'.
Proof.
  intros G J fuel t old j st v st' HA HP HD HE HC PO VM Hp Hq Hv Hj HT HN AC Ho E.
  destruct (C65_no_cycles _ _ _ _ _ _ _ _ _ HA HP HD E HN AC) as [_ AC'].
  pose proof (C48_type_safe G J false HA HP HE HC t j old fuel st Hp Hj HT (or_introl Ho)) as S. rewrite E in S. destruct S as (S & HT' & _).
  destruct S as [S|(-> & -> & _)]; [|inversion Ho; discriminate].
  exact (C57_push_succeeds G J (p_heap st') PO VM HT' AC' t v Hq Hv S).
Qed.
Print Assumptions C65_serialised_again.

(** C65: likewise for the functions working on text: if fromJson returns, for any text, with or without errors, toJsonDocument succeeds for what it returned *)
Theorem C65_text_again : forall T G J fuel t text st v st', alloc_ok G -> place_ok G -> plain_defaults G ->
  jenv_ok G false (fun _ => True) false -> conv_ok J -> pushers_ok G -> variants_small_members G ->
  (forall x n, te_strtod T x = Some n -> (n < 2 ^ 64)%N) ->
  top_kind t = true -> pullable G (fun _ => True) false t -> pushable G t -> variants_small t ->
  heap_typed G false (p_heap st) -> no_dangling (p_heap st) -> acyclic (p_heap st) ->
  fromJsonText T G J fuel t text st = Some (POk v st') ->
  exists F j', json_wf j' /\ forall fuel', F <= fuel' -> toJsonDocument G J (p_heap st') fuel' t v = ROk j'.
Proof.
  intros T G J fuel t text st v st' HA HP HD HE HC PO VM HS Tk Hp Hq Hv HT HN AC E.
  pose proof (C50_any_text T G J false HA HP HE HC HS t text fuel st Tk Hp HT) as S. rewrite E in S. destruct S as (S & HT' & _).
  assert (AC' : acyclic (p_heap st')).
  { unfold fromJsonText in E. destruct (parseJsonDocFromString T text) as [j r| |]; try discriminate. injection E as E.
    assert (X1 : pull G J fuel t (dinit G t) j st = POk v st' -> acyclic (p_heap st')) by (intros E1; exact (proj2 (C65_no_cycles _ _ _ _ _ _ _ _ _ HA HP HD E1 HN AC))).
    assert (X2 : mismatch t j (vinit G t) st = POk v st' -> acyclic (p_heap st')).
    { intros E1. pose proof (report_from TypeMismatch (expected_type t) (type_of j) (vinit G t) st) as B. unfold mismatch in E1. rewrite E1 in B. destruct B as (_ & ->). exact AC. }
    assert (X3 : forall x : val, ret x st = POk v st' -> acyclic (p_heap st')) by (intros x [= _ <-]; exact AC).
    unfold fromJson in E. destruct t; try discriminate E; repeat match type of E with
      | (if ?b then _ else _) _ = _ => destruct b; try discriminate E
      | match ?x with _ => _ end _ = _ => destruct x end; eauto. }
  destruct (C57_push_succeeds G J (p_heap st') PO VM HT' AC' t v Hq Hv S) as (F & j' & W & Q). exists F, j'. split; [exact W|]. intros fuel' L. specialize (Q fuel' L).
  unfold toJsonDocument. destruct t; cbn in Tk; try discriminate; try exact Q. rewrite Tk. exact Q.
Qed.
Print Assumptions C65_text_again.
