(** PropertiesPrev.v -- property C75: what an object contained before does not influence how binary data is read into it, and reading the same data again changes nothing
    (vocabulary in PrevSpec.v) *)
From Coq Require Import List NArith ZArith Bool Lia.
From Verif Require Import Base BaseFacts Bytes Types TypesFacts BinModel FuelFacts BinSpec BinSafeSpec BinSafe BinFacts ContFacts PrevSpec PrevFacts PrevAgain.
Import ListNotations.
Local Open Scope list_scope.

(** C75: the same data is read into two variables of the same type with whatever contents. Then both calls throw the same exception, or both return, having consumed the same bytes and
    having created the same objects with the same IDs. The two variables are equal afterwards if the type has no sets and maps (except within what is created anew)
    and no members which are read from certain versions only. *)
Theorem C75_same_course : forall G ud C, alloc_ok G -> place_ok G -> env_ok G ud -> classes_overwritten G C ->
  forall fuel ver t old old' s st, readable G t -> state_ok G ud st ->
    is_scalar t = true \/ has_type G ud (r_heap st) t old /\ has_type G ud (r_heap st) t old' ->
    same_course (fun v v' => overwritten C t -> v = v') (read G fuel ver t old s st) (read G fuel ver t old' s st).
Proof.
  intros G ud C HA HP HE HC fuel ver t old old' s st R S O.
  assert (Q := proj1 (two_all G ud C HA HP HE HC fuel) ver t old old' s st R ltac:(destruct O as [O|[O O']]; [left|right]; assumption) ltac:(destruct O as [O|[O O']]; [left|right]; assumption) S).
  unfold agree, Q_val in Q. unfold same_course. destruct (read G fuel ver t old s st) as [[[v r] st1]| | | |], (read G fuel ver t old' s st) as [[[v' r'] st1']| | | |]; try contradiction; exact Q.
Qed.
Print Assumptions C75_same_course.

(** C75: restoreFromBinary is called with the same data on two objects of the same class with whatever contents. Both calls throw the same exception, or both return the same version, having
    consumed the same bytes and having created the same objects; and then every member is equal in both objects if it has been equal before or is read from data of any version and overwritten. *)
Theorem C75_restore : forall G ud C, alloc_ok G -> place_ok G -> env_ok G ud -> classes_overwritten G C ->
  forall fuel c rc p os os' s h, g_class G c = Some rc -> rc_rd rc = Some p -> heap_typed G ud h ->
    has_type G ud h (TStruct c) (VObj os) -> has_type G ud h (TStruct c) (VObj os') ->
    match restoreFromBinary G fuel c os s h, restoreFromBinary G fuel c os' s h with
    | ROk (o, v, r, st), ROk (o', v', r', st') => v = v' /\ r = r' /\ st = st'
        /\ forall k, alookup fkey_eqb k os = alookup fkey_eqb k os' \/ renewed G C c k -> alookup fkey_eqb k o = alookup fkey_eqb k o'
    | RThrow e, RThrow e' => e = e'
    | RUB, RUB | RFuel, RFuel | RStuck, RStuck => True
    | _, _ => False
    end.
Proof.
  intros G ud C HA HP HE HC fuel c rc p os os' s h Hc Hp Hh O O'. unfold restoreFromBinary.
  assert (FO : forall fs, has_type G ud h (TStruct c) (VObj fs) -> fieldsok G ud h (rc_layout rc) fs).
  { intros fs X. inversion X as [ | | | | | | | | | | | | | | | | | | | | |c0 rc0 fs0 Hc0 K F | | | | | | ]; subst. rewrite Hc in Hc0. inversion Hc0; subst. split; assumption. }
  assert (Q := proj2 (two_all G ud C HA HP HE HC fuel) 0%N c rc p (rc_layout rc) os os' s {| r_heap := h; r_ptr := [] |} Hc Hp ltac:(auto) (FO _ O) (FO _ O') ltac:(constructor; [exact Hh|intros ? ? ? X; discriminate X])).
  unfold agree, Q_cls in Q. destruct (read_cls G fuel 0 c os s _) as [[[[o v] r] st1]| | | |], (read_cls G fuel 0 c os' s _) as [[[[o' v'] r'] st1']| | | |]; try contradiction; exact Q.
Qed.
Print Assumptions C75_restore.

(** C75: an object all members of which are overwritten is determined by the data *)
Theorem C75_determined : forall G ud C, alloc_ok G -> place_ok G -> env_ok G ud -> classes_overwritten G C ->
  forall fuel c rc p os os' s h, C c -> g_class G c = Some rc -> rc_rd rc = Some p -> heap_typed G ud h ->
    has_type G ud h (TStruct c) (VObj os) -> has_type G ud h (TStruct c) (VObj os') ->
    restoreFromBinary G fuel c os s h = restoreFromBinary G fuel c os' s h.
Proof.
  intros G ud C HA HP HE HC fuel c rc p os os' s h Cc Hc Hp Hh O O'.
  assert (Q := C75_restore G ud C HA HP HE HC fuel c rc p os os' s h Hc Hp Hh O O').
  assert (FO : forall fs, has_type G ud h (TStruct c) (VObj fs) -> fieldsok G ud h (rc_layout rc) fs).
  { intros fs X. inversion X as [ | | | | | | | | | | | | | | | | | | | | |c0 rc0 fs0 Hc0 K F | | | | | | ]; subst. rewrite Hc in Hc0. inversion Hc0; subst. split; assumption. }
  assert (SO : state_ok G ud {| r_heap := h; r_ptr := [] |}) by (constructor; [exact Hh|intros ? ? ? X; discriminate X]).
  assert (SC := proj2 (safe_all G ud HA HP HE fuel)).
  assert (P1 := SC 0%N c rc p (rc_layout rc) os s {| r_heap := h; r_ptr := [] |} Hc Hp ltac:(auto) (FO _ O) SO). assert (P2 := SC 0%N c rc p (rc_layout rc) os' s {| r_heap := h; r_ptr := [] |} Hc Hp ltac:(auto) (FO _ O') SO).
  unfold restoreFromBinary in *. destruct (read_cls G fuel 0 c os s _) as [[[[o v] r] st1]| | | |], (read_cls G fuel 0 c os' s _) as [[[[o' v'] r'] st1']| | | |]; try contradiction; try reflexivity; [|f_equal; exact Q].
  destruct Q as (-> & -> & -> & Q). destruct P1 as [[K1 _] _]. destruct P2 as [[K2 _] _]. destruct (HC c Cc) as (rc2 & Ec2 & ND & RN). rewrite Hc in Ec2. inversion Ec2; subst rc2.
  assert (o = o') as ->; [|reflexivity]. apply AgainComplete.fields_ext; [congruence|rewrite K1; exact ND|]. intros k Hk. apply Q. right. apply RN. rewrite <- K1. exact Hk.
Qed.
Print Assumptions C75_determined.

(** C75: without shared pointers, what is read depends neither on the objects in memory nor on the IDs known from before; and nothing is created in memory *)
Theorem C75_memory : forall G U, classes_unshared G U -> forall fuel ver t old s st st', unshared U t ->
  match read G fuel ver t old s st with
  | ROk (v, r, st1) => st1 = st /\ read G fuel ver t old s st' = ROk (v, r, st')
  | RThrow e => read G fuel ver t old s st' = RThrow e
  | RUB => read G fuel ver t old s st' = RUB
  | RFuel => read G fuel ver t old s st' = RFuel
  | RStuck => read G fuel ver t old s st' = RStuck
  end.
Proof. intros G U HU fuel ver t old s st st' K. exact (proj1 (free_all G U HU fuel) ver t old s K st st'). Qed.
Print Assumptions C75_memory.

(** C75: when the same data is read again into the variable, the variable keeps its value and the same bytes are consumed, whatever happened in memory in between *)
Theorem C75_again : forall G U R, place_ok G -> classes_unshared G U -> classes_repeatable G U R ->
  forall fuel ver t old s st v r st1, repeatable G U R t -> content G t old -> read G fuel ver t old s st = ROk (v, r, st1) ->
    content G t v /\ forall st2, read G fuel ver t v s st2 = ROk (v, r, st2).
Proof. intros G U R HP HU HR fuel. exact (proj1 (again_all G U R HP HU HR fuel)). Qed.
Print Assumptions C75_again.

(** C75: restoreFromBinary called again with the same data returns the same version and leaves the object as it is *)
Theorem C75_restore_again : forall G U R, place_ok G -> classes_unshared G U -> classes_repeatable G U R ->
  forall fuel c os s h o v r st, R c -> content G (TStruct c) (VObj os) -> restoreFromBinary G fuel c os s h = ROk (o, v, r, st) ->
    content G (TStruct c) (VObj o) /\ forall h2, restoreFromBinary G fuel c o s h2 = ROk (o, v, r, {| r_heap := h2; r_ptr := [] |}).
Proof.
  intros G U R HP HU HR fuel c os s h o v r st Rc CO E. destruct (HR c Rc) as (_ & rc & L & Ec & HL & ND & HT & _). unfold restoreFromBinary in *.
  inversion CO as [| | | |c0 fs CF|t0 v0 X]; subst; [|contradiction].
  destruct (again_self G L os o _ (proj2 (again_all G U R HP HU HR fuel) 0%N c L HL ND HT os s {| r_heap := h; r_ptr := [] |} o v r st (fun fd x Hfd => CF L fd x HL Hfd) E)) as [P1 A1].
  split; [apply ct_struct; intros L' fd x HL'; rewrite <- (reads_fun G c L HL L' HL'); apply P1|]. intros h2. apply A1.
Qed.
Print Assumptions C75_restore_again.

Lemma restore_typed G ud fuel c rc p os s h o v r st : alloc_ok G -> place_ok G -> env_ok G ud -> g_class G c = Some rc -> rc_rd rc = Some p -> heap_typed G ud h ->
  has_type G ud h (TStruct c) (VObj os) -> restoreFromBinary G fuel c os s h = ROk (o, v, r, st) ->
  heap_typed G ud (r_heap st) /\ has_type G ud (r_heap st) (TStruct c) (VObj o).
Proof.
  intros HA HP HE Hc Hp Hh O E.
  assert (FO : fieldsok G ud h (rc_layout rc) os).
  { inversion O as [ | | | | | | | | | | | | | | | | | | | | |c0 rc0 fs0 Hc0 K F | | | | | | ]; subst. rewrite Hc in Hc0. inversion Hc0; subst. split; assumption. }
  assert (SO : state_ok G ud {| r_heap := h; r_ptr := [] |}) by (constructor; [exact Hh|intros ? ? ? X; discriminate X]).
  assert (P1 := proj2 (safe_all G ud HA HP HE fuel) 0%N c rc p (rc_layout rc) os s {| r_heap := h; r_ptr := [] |} Hc Hp ltac:(auto) FO SO).
  unfold restoreFromBinary in E. rewrite E in P1. destruct P1 as [[K F] GS]. split; [apply GS|].
  apply (ht_struct G ud (r_heap st) c rc o Hc K F).
Qed.
(** C75: an object of a class all members of which are overwritten is used for reading again and again; afterwards it is what a new object would be into which only the last data has been
    read.  (Nothing of the data read before is left.) *)
Theorem C75_last_data : forall G ud C, alloc_ok G -> place_ok G -> env_ok G ud -> classes_overwritten G C ->
  forall fuel c rc p os h l o1 h1, C c -> g_class G c = Some rc -> rc_rd rc = Some p -> heap_typed G ud h ->
    has_type G ud h (TStruct c) (VObj os) -> restore_each G fuel c os h l = ROk (o1, h1) ->
    forall s, restoreFromBinary G fuel c o1 s h1 = restoreFromBinary G fuel c (rc_vinit rc) s h1.
Proof.
  intros G ud C HA HP HE HC fuel c rc p os h l. revert os h. induction l as [|d l IH]; intros os h o1 h1 Cc Hc Hp Hh O E s; cbn [restore_each] in E.
  - injection E as <- <-. apply (C75_determined G ud C HA HP HE HC fuel c rc p os (rc_vinit rc) s h Cc Hc Hp Hh O).
    apply (ht_mono_h G ud [] h); [intros a t E; discriminate E|]. apply (eo_vinit _ _ HE c rc Hc).
  - destruct (restoreFromBinary G fuel c os d h) as [[[[o v] r] st]| | | |] eqn:E1; try discriminate. cbn [rbind] in E.
    destruct (restore_typed G ud fuel c rc p os d h o v r st HA HP HE Hc Hp Hh O E1) as (Hh' & O').
    exact (IH o (r_heap st) o1 h1 Cc Hc Hp Hh' O' E s).
Qed.
Print Assumptions C75_last_data.
