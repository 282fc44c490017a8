(** PropertiesSettle.v -- property C71: what has been read, from whatever data, survives being written and read again (vocabulary in SettleSpec.v) *)
From Coq Require Import List NArith ZArith Bool Lia.
From Verif Require Import Base Types TypesFacts BinModel FuelFacts BinSpec BinSafeSpec BinSafe BinFacts ContFacts BinTop BinPaths BinExcSpec PropertiesBin PropertiesSer SettleSpec SettleFacts.
Import ListNotations.

Lemma heap_settled G h : objects_good G h -> addresses_64 h -> heap_good G h.
Proof. intros O A a t x E. split; [eapply A; exact E|eapply O; exact E]. Qed.
Lemma read_good G V fuel ver t ex wv rv old s h v rest st : alloc_ok G -> place_ok G -> env_ok G false -> settling G V -> settled G V ex wv rv t -> objects_good G h ->
  good G h ex wv rv t old old -> read G fuel ver t old s {| r_heap := h; r_ptr := [] |} = ROk (v, rest, st) -> good G (r_heap st) ex wv rv t old v /\ objects_good G (r_heap st).
Proof.
  intros HA HP EO SV Se OG g R. pose proof (proj1 (read_settles G V HA HP EO SV fuel) ver t old s {| r_heap := h; r_ptr := [] |} ex wv rv Se (or_intror g)) as Q. rewrite R in Q.
  destruct Q as [Q1 [Q2 _]]; [constructor; [exact OG|discriminate]|]. split; [exact Q1|apply Q2].
Qed.
Lemma restore_good G V fuel c ex wv rv os s h fs v rest st : alloc_ok G -> place_ok G -> env_ok G false -> settling G V -> V ex wv rv c -> objects_good G h ->
  good G h ex wv rv (TStruct c) (VObj os) (VObj os) -> restoreFromBinary G fuel c os s h = ROk (fs, v, rest, st) -> good G (r_heap st) ex wv rv (TStruct c) (VObj os) (VObj fs) /\ objects_good G (r_heap st).
Proof.
  intros HA HP EO SV Se OG g R. eapply (read_good G V (S fuel) 0%N (TStruct c) ex wv rv (VObj os) s h (VObj fs) rest st); try assumption. rewrite read_S. cbn [read_body].
  unfold restoreFromBinary in R. rewrite R. reflexivity.
Qed.

(** C71: a variable has been read from any data whatsoever (damaged, written by another program or by another version of it).  Then it can be written, and reading what
    has been written restores an equal value and a copy of the object graph; the identical value without shared pointers and hash containers.  The variable is one which
    survives this itself, for instance one which has just been created, and so do the objects which existed before. *)
Theorem C71_read_again : forall G V fuel ver t ex wv rv old s h v rest st, alloc_ok G -> place_ok G -> env_ok G false -> settling G V -> settled G V ex wv rv t ->
  objects_good G h -> good G h ex wv rv t old old ->
  read G fuel ver t old s {| r_heap := h; r_ptr := [] |} = ROk (v, rest, st) -> addresses_64 (r_heap st) ->
  exists F, forall fuel', (F <= fuel')%nat -> exists bs W,
    write G (r_heap st) fuel' wv t v [] = ROk (bs, W)
    /\ forall h0 rest', exists v' h' ptrs ro,
         read G fuel' rv t old (bs ++ rest') {| r_heap := h0; r_ptr := [] |} = ROk (v', rest', {| r_heap := h'; r_ptr := ptrs |})
         /\ same_value G ro t v v' /\ graph_iso G (r_heap st) h0 h' ro.
Proof.
  intros G V fuel ver t ex wv rv old s h v rest st HA HP EO SV Se OG g R A64. destruct (read_good _ _ _ _ _ _ _ _ _ _ _ _ _ _ HA HP EO SV Se OG g R) as [Gv OG'].
  exact (C04_binary_round_trip G (r_heap st) ex wv rv t old v HA HP (heap_settled _ _ OG' A64) Gv).
Qed.
Print Assumptions C71_read_again.
(** C71: a newly created variable survives this *)
Theorem C71_new_variable : forall G V ex wv rv t h, settling G V -> settled G V ex wv rv t -> good G h ex wv rv t (vinit G t) (vinit G t).
Proof. intros G V ex wv rv t h SV Se. eapply good_hle; [apply hle_nil|]. eapply vinit_good; eassumption. Qed.
Print Assumptions C71_new_variable.
(** C71: the object graph restored from what has been written cannot be distinguished from the one which has been read before by following members, elements and pointers *)
Theorem C71_same_graph : forall G V fuel ver t ex wv rv old s h v rest st, alloc_ok G -> place_ok G -> env_ok G false -> settling G V -> settled G V ex wv rv t ->
  objects_good G h -> good G h ex wv rv t old old ->
  read G fuel ver t old s {| r_heap := h; r_ptr := [] |} = ROk (v, rest, st) -> addresses_64 (r_heap st) ->
  exists F, forall fuel', (F <= fuel')%nat -> exists bs W,
    write G (r_heap st) fuel' wv t v [] = ROk (bs, W)
    /\ forall h0 rest', exists v' h' ptrs,
         read G fuel' rv t old (bs ++ rest') {| r_heap := h0; r_ptr := [] |} = ROk (v', rest', {| r_heap := h'; r_ptr := ptrs |})
         /\ same_graph G (r_heap st) h' t v v'.
Proof.
  intros G V fuel ver t ex wv rv old s h v rest st HA HP EO SV Se OG g R A64. destruct (read_good _ _ _ _ _ _ _ _ _ _ _ _ _ _ HA HP EO SV Se OG g R) as [Gv OG'].
  destruct (C06_same_graph G (r_heap st) ex wv rv t old v HA HP (heap_settled _ _ OG' A64) Gv) as [F HF]. exists F. intros fuel' Hf. destruct (HF fuel' Hf) as (bs & W & E & Q). exists bs, W. split; [exact E|].
  intros h0 rest'. destruct (Q h0 rest') as (v' & h' & ptrs & E' & SG & _). exists v', h', ptrs. split; assumption.
Qed.
Print Assumptions C71_same_graph.
(** C71: without shared pointers and hash containers there is a normal form of the data: reading what has been written restores the identical value, and writing that gives
    the identical data *)
Theorem C71_normal_form : forall G V fuel ver t wv rv old s h v rest st, alloc_ok G -> place_ok G -> env_ok G false -> settling G V -> settled G V true wv rv t ->
  objects_good G h -> good G h true wv rv t old old ->
  read G fuel ver t old s {| r_heap := h; r_ptr := [] |} = ROk (v, rest, st) -> addresses_64 (r_heap st) ->
  exists F, forall fuel', (F <= fuel')%nat -> exists bs W,
    write G (r_heap st) fuel' wv t v [] = ROk (bs, W)
    /\ forall h0 rest', exists h' ptrs,
         read G fuel' rv t old (bs ++ rest') {| r_heap := h0; r_ptr := [] |} = ROk (v, rest', {| r_heap := h'; r_ptr := ptrs |})
         /\ write G h' fuel' wv t v [] = ROk (bs, W).
Proof.
  intros G V fuel ver t wv rv old s h v rest st HA HP EO SV Se OG g R A64. destruct (read_good _ _ _ _ _ _ _ _ _ _ _ _ _ _ HA HP EO SV Se OG g R) as [Gv OG'].
  pose proof (heap_settled _ _ OG' A64) as HG.
  destruct (C58_binary_again G (r_heap st) wv rv t old v HA HP HG Gv) as [F1 H1]. destruct (C04_binary_round_trip_exact G (r_heap st) wv rv t old v HA HP HG Gv) as [F2 H2].
  exists (F1 + F2). intros fuel' Hf. destruct (H1 fuel') as (bs & W & E & Q1); [lia|]. destruct (H2 fuel') as (bs2 & W2 & E2 & Q2); [lia|]. rewrite E in E2. injection E2 as <- <-. exists bs, W. split; [exact E|].
  intros h0 rest'. destruct (Q1 h0 rest') as (v' & h' & ptrs & R1 & E1). destruct (Q2 h0 rest') as (h2 & ptrs2 & R2). rewrite R1 in R2. injection R2 as -> <- <-. exists h', ptrs. split; assumption.
Qed.
Print Assumptions C71_normal_form.
(** C71: restoreFromBinary and toBinary *)
Theorem C71_restore_again : forall G V fuel c ex ver os s h fs v rest st, alloc_ok G -> place_ok G -> env_ok G false -> settling G V -> V ex ver 0%N c ->
  objects_good G h -> good G h ex ver 0 (TStruct c) (VObj os) (VObj os) ->
  restoreFromBinary G fuel c os s h = ROk (fs, v, rest, st) -> addresses_64 (r_heap st) ->
  exists F, forall fuel', (F <= fuel')%nat -> exists bs,
    toBinary G (r_heap st) fuel' c fs ver = ROk bs
    /\ forall h0 rest', exists fs' h' ptrs ro,
         restoreFromBinary G fuel' c os (bs ++ rest') h0 = ROk (fs', restored_version G ver 0 c, rest', {| r_heap := h'; r_ptr := ptrs |})
         /\ same_value G ro (TStruct c) (VObj fs) (VObj fs') /\ graph_iso G (r_heap st) h0 h' ro
         /\ (ex = true -> fs' = fs).
Proof.
  intros G V fuel c ex ver os s h fs v rest st HA HP EO SV Se OG g R A64. destruct (restore_good _ _ _ _ _ _ _ _ _ _ _ _ _ _ HA HP EO SV Se OG g R) as [Gv OG'].
  exact (C04_to_and_from_binary G (r_heap st) ex ver c os fs HA HP (heap_settled _ _ OG' A64) Gv).
Qed.
Print Assumptions C71_restore_again.
(** C71: fromBinary and toBinary *)
Theorem C71_from_binary_again : forall G V fuel c rc ex ver s h fs rest st, alloc_ok G -> place_ok G -> env_ok G false -> settling G V -> V ex ver 0%N c ->
  g_class G c = Some rc -> objects_good G h -> good G h ex ver 0 (TStruct c) (VObj (rc_dinit rc)) (VObj (rc_dinit rc)) ->
  fromBinary G fuel c s h = ROk (fs, rest, st) -> addresses_64 (r_heap st) ->
  exists F, forall fuel', (F <= fuel')%nat -> exists bs,
    toBinary G (r_heap st) fuel' c fs ver = ROk bs
    /\ forall h0 rest', exists fs' h' ptrs ro,
         fromBinary G fuel' c (bs ++ rest') h0 = ROk (fs', rest', {| r_heap := h'; r_ptr := ptrs |})
         /\ same_value G ro (TStruct c) (VObj fs) (VObj fs') /\ graph_iso G (r_heap st) h0 h' ro
         /\ (ex = true -> fs' = fs).
Proof.
  intros G V fuel c rc ex ver s h fs rest st HA HP EO SV Se Hc OG g R A64. unfold fromBinary in R. rewrite Hc in R.
  destruct (restoreFromBinary G fuel c (rc_dinit rc) s h) as [[[[fs0 v0] r0] st0]| | | |] eqn:E; try discriminate R. cbn in R. injection R as -> -> ->.
  destruct (restore_good _ _ _ _ _ _ _ _ _ _ _ _ _ _ HA HP EO SV Se OG g E) as [Gv OG'].
  exact (C04_from_binary G (r_heap st) ex ver c rc fs HA HP (heap_settled _ _ OG' A64) Hc Gv).
Qed.
Print Assumptions C71_from_binary_again.
(** C71: wherever a set is in what has been read from any data, its elements are in order and none occurs twice *)
Theorem C71_sets_in_order : forall G V fuel ver t ex wv rv old s h v rest st, alloc_ok G -> place_ok G -> env_ok G false -> settling G V -> settled G V ex wv rv t ->
  objects_good G h -> good G h ex wv rv t old old ->
  read G fuel ver t old s {| r_heap := h; r_ptr := [] |} = ROk (v, rest, st) ->
  forall ord multi et w, part_of G (r_heap st) t v (TSet ord multi et) w -> exists l, w = VList l /\ proper_order G ord multi et l.
Proof.
  intros G V fuel ver t ex wv rv old s h v rest st HA HP EO SV Se OG g R ord multi et w P. destruct (read_good _ _ _ _ _ _ _ _ _ _ _ _ _ _ HA HP EO SV Se OG g R) as [Gv OG'].
  destruct (part_good G V SV _ OG' _ _ _ _ P _ _ _ _ Se Gv) as [E|(ex' & wv' & rv' & old' & g')]; [discriminate|]. inversion g'; subst. eexists. split; [reflexivity|].
  match goal with Q : cont_inv _ _ _ _ _ _ |- _ => apply cont_proper in Q; cbn [keyof] in Q; rewrite map_id in Q; exact Q end.
Qed.
Print Assumptions C71_sets_in_order.
(** C71: wherever a map is in what has been read from any data, its entries are in the order of the keys and no key occurs twice *)
Theorem C71_maps_in_order : forall G V fuel ver t ex wv rv old s h v rest st, alloc_ok G -> place_ok G -> env_ok G false -> settling G V -> settled G V ex wv rv t ->
  objects_good G h -> good G h ex wv rv t old old ->
  read G fuel ver t old s {| r_heap := h; r_ptr := [] |} = ROk (v, rest, st) ->
  forall ord multi kt vt w, part_of G (r_heap st) t v (TMap ord multi kt vt) w ->
    exists l, w = VList (map (fun e => VPair (fst e) (snd e)) l) /\ proper_order G ord multi kt (map fst l).
Proof.
  intros G V fuel ver t ex wv rv old s h v rest st HA HP EO SV Se OG g R ord multi kt vt w P. destruct (read_good _ _ _ _ _ _ _ _ _ _ _ _ _ _ HA HP EO SV Se OG g R) as [Gv OG'].
  destruct (part_good G V SV _ OG' _ _ _ _ P _ _ _ _ Se Gv) as [E|(ex' & wv' & rv' & old' & g')]; [discriminate|]. inversion g'; subst.
  match goal with Q : cont_inv _ _ _ _ _ ?l, Pr : forall x, In x ?l -> exists k v, x = VPair k v |- _ =>
    apply cont_proper in Q; exists (map (fun x => match x with VPair k v => (k, v) | _ => (x, x) end) l);
    assert (X : map (fun e => VPair (fst e) (snd e)) (map (fun x => match x with VPair k v => (k, v) | _ => (x, x) end) l) = l /\ map fst (map (fun x => match x with VPair k v => (k, v) | _ => (x, x) end) l) = map (keyof true) l);
    [clear - Pr; induction l as [|x l IH]; [split; reflexivity|]; destruct (Pr x (or_introl eq_refl)) as (k & y & ->); destruct IH as [I1 I2]; [intros z Hz; apply Pr; right; exact Hz|]; cbn; rewrite I1, I2; split; reflexivity|];
    destruct X as [X1 X2]; rewrite X1, X2; split; [reflexivity|exact Q] end.
Qed.
Print Assumptions C71_maps_in_order.
