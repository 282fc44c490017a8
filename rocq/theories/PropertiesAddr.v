(** PropertiesAddr.v -- property C68: results do not depend on where objects are allocated *)
From Coq Require Import List NArith ZArith Bool Lia.
From Verif Require Import Base BaseFacts Types TypesFacts BinModel FuelFacts BinSpec BinSafeSpec BinTop Float JsonModel JsonRel JsonText SerSpec JTreeSpec AddrSpec AddrFacts AddrJson AddrWrite AddrAgain PropertiesBin.
Import ListNotations.
Local Open Scope list_scope.

(** C68: reading any bytes with two memory allocators has the same outcome: the same exception or undefined behaviour, or the same bytes are left, the values are the same except
    that they refer to different objects, and these objects correspond to each other one to one and are the same likewise *)
Theorem C68_read : forall G alloc alloc', allocator alloc -> allocator alloc' -> plain_defaults G -> read_members_free G ->
  forall fuel ver t old old' s ro h h' ptrs ptrs', keys_free G t ->
  one_to_one ro -> heaps_alike ro h h' -> tables_alike ro ptrs ptrs' -> alike ro old old' ->
  same_outcome (fun '(v, r, st) '(v', r', st') => r = r' /\ exists ro2, grown ro h h' ro2 (r_heap st) (r_heap st') /\ tables_alike ro2 (r_ptr st) (r_ptr st') /\ alike ro2 v v')
    (read (with_alloc G alloc) fuel ver t old s {| r_heap := h; r_ptr := ptrs |}) (read (with_alloc G alloc') fuel ver t old' s {| r_heap := h'; r_ptr := ptrs' |}).
Proof.
  intros G alloc alloc' HA HA' PD MF fuel ver t old old' s ro h h' ptrs ptrs' K O H T A.
  pose proof (proj1 (read_alike G alloc alloc' HA HA' PD MF fuel) ver t old old' s ro {| r_heap := h; r_ptr := ptrs |} {| r_heap := h'; r_ptr := ptrs' |} K (conj O (conj H T)) A) as Q.
  destruct (read (with_alloc G alloc) fuel ver t old s _) as [[[v r] st]| | | |], (read (with_alloc G alloc') fuel ver t old' s _) as [[[v' r'] st']| | | |]; cbn [same_outcome] in *; try contradiction; try exact Q.
  destruct Q as (E2 & ro2 & [S F2] & A2). split; [exact E2|]. exists ro2. exact (conj S (conj F2 A2)).
Qed.
Print Assumptions C68_read.

(** C68: restoreFromBinary; the determined version is the same, too *)
Theorem C68_restore : forall G alloc alloc', allocator alloc -> allocator alloc' -> plain_defaults G -> read_members_free G ->
  forall fuel c os os' s ro h h', one_to_one ro -> heaps_alike ro h h' -> alike_members ro os os' ->
  same_outcome (fun '(fs, ver, r, st) '(fs', ver', r', st') => ver = ver' /\ r = r' /\ exists ro2, grown ro h h' ro2 (r_heap st) (r_heap st') /\ alike_members ro2 fs fs')
    (restoreFromBinary (with_alloc G alloc) fuel c os s h) (restoreFromBinary (with_alloc G alloc') fuel c os' s h').
Proof.
  intros G alloc alloc' HA HA' PD MF fuel c os os' s ro h h' O H A. inversion A as [ | | | | | | | | | | | | | | |? ? F]; subst.
  pose proof (proj2 (read_alike G alloc alloc' HA HA' PD MF fuel) 0%N c os os' s ro {| r_heap := h; r_ptr := [] |} {| r_heap := h'; r_ptr := [] |} (conj O (conj H (Forall2_nil _))) F) as Q.
  unfold restoreFromBinary. destruct (read_cls (with_alloc G alloc) fuel 0 c os s _) as [[[[fs n] r] st]| | | |], (read_cls (with_alloc G alloc') fuel 0 c os' s _) as [[[[fs' n'] r'] st']| | | |]; cbn [same_outcome] in *; try contradiction; try exact Q.
  destruct Q as (E1 & E2 & ro2 & [S _] & F2). split; [exact E1|]. split; [exact E2|]. exists ro2. split; [exact S|constructor; exact F2].
Qed.
Print Assumptions C68_restore.

Lemma sim_result {A} (V : renaming -> A -> A -> Prop) ro st st' (r r' : out A) : sim V ro st st' r r' ->
  same_result (fun v st1 v' st1' => p_err st1 = p_err st1' /\ exists ro2, grown ro (p_heap st) (p_heap st') ro2 (p_heap st1) (p_heap st1') /\ V ro2 v v') r r'.
Proof.
  unfold sim. destruct r, r'; cbn [same_result]; try contradiction; try (intros X; exact X). intros (ro2 & [S E] & X). split; [exact E|]. exists ro2. exact (conj S X).
Qed.

(** C68: deserialising JSON: the errors are the same as well, and so is an exception *)
Theorem C68_pull : forall G J alloc alloc', allocator alloc -> allocator alloc' -> plain_defaults G -> pulled_members_free G ->
  forall fuel t old old' j ro h h' errs, keys_free G t -> one_to_one ro -> heaps_alike ro h h' -> alike ro old old' ->
  same_result (fun v st v' st' => p_err st = p_err st' /\ exists ro2, grown ro h h' ro2 (p_heap st) (p_heap st') /\ alike ro2 v v')
    (pull (with_alloc G alloc) J fuel t old j {| p_heap := h; p_err := errs |}) (pull (with_alloc G alloc') J fuel t old' j {| p_heap := h'; p_err := errs |}).
Proof.
  intros G J alloc alloc' HA HA' PD MF fuel t old old' j ro h h' errs K O H A.
  exact (sim_result alike ro _ _ _ _ (proj1 (pull_alike G J alloc alloc' HA HA' PD MF fuel) t old old' j ro {| p_heap := h; p_err := errs |} {| p_heap := h'; p_err := errs |} K (conj O (conj H eq_refl)) A)).
Qed.
Print Assumptions C68_pull.

(** no object of one run corresponds to one of the other run *)
Definition none : renaming := fun _ _ => False.
Lemma none_one : one_to_one none. Proof. intros a b a' b' []. Qed.
Lemma none_alike h h' : heaps_alike none h h'. Proof. intros a a' []. Qed.

Lemma fromJson_alike G J alloc alloc' : allocator alloc -> allocator alloc' -> plain_defaults G -> pulled_members_free G ->
  forall fuel t j h h' errs, keys_free G t ->
  sim alike none {| p_heap := h; p_err := errs |} {| p_heap := h'; p_err := errs |}
    (fromJson (with_alloc G alloc) J fuel t j {| p_heap := h; p_err := errs |}) (fromJson (with_alloc G alloc') J fuel t j {| p_heap := h'; p_err := errs |}).
Proof.
  intros HA HA' PD MF fuel t j h h' errs K.
  assert (R : jready none {| p_heap := h; p_err := errs |} {| p_heap := h'; p_err := errs |}) by exact (conj none_one (conj (none_alike h h') eq_refl)).
  assert (P : sim alike none {| p_heap := h; p_err := errs |} {| p_heap := h'; p_err := errs |} (pull (with_alloc G alloc) J fuel t (dinit G t) j {| p_heap := h; p_err := errs |}) (pull (with_alloc G alloc') J fuel t (dinit G t) j {| p_heap := h'; p_err := errs |}))
    by exact (proj1 (pull_alike G J alloc alloc' HA HA' PD MF fuel) t (dinit G t) (dinit G t) j none _ _ K R (dinit_alike G none PD t)).
  assert (Q : sim alike none {| p_heap := h; p_err := errs |} {| p_heap := h'; p_err := errs |} (mismatch t j (vinit G t) {| p_heap := h; p_err := errs |}) (mismatch t j (vinit G t) {| p_heap := h'; p_err := errs |}))
    by exact (sim_mismatch none _ _ t j (vinit G t) (vinit G t) R (vinit_alike G none PD t)).
  unfold fromJson. destruct t; try exact I; try (destruct j; first [exact P|exact Q|apply sim_ret; [exact R|constructor]]; fail).
  - destruct (json_kind k); [|exact I]. destruct j; try exact Q. destruct (in_range k z); [apply sim_ret; [exact R|constructor]|exact Q].
  - destruct j; try exact Q. destruct (is_float n); [apply sim_ret; [exact R|constructor]|exact Q].
Qed.

(** C68: fromJson for any text, whatever objects exist *)
Theorem C68_fromJson : forall E G J alloc alloc', allocator alloc -> allocator alloc' -> plain_defaults G -> pulled_members_free G ->
  forall fuel t text h h' errs, keys_free G t ->
  match fromJsonText E (with_alloc G alloc) J fuel t text {| p_heap := h; p_err := errs |}, fromJsonText E (with_alloc G alloc') J fuel t text {| p_heap := h'; p_err := errs |} with
  | Some r, Some r' => same_result (fun v st v' st' => p_err st = p_err st' /\ exists ro2, grown none h h' ro2 (p_heap st) (p_heap st') /\ alike ro2 v v') r r'
  | None, None => True
  | _, _ => False
  end.
Proof.
  intros E G J alloc alloc' HA HA' PD MF fuel t text h h' errs K. unfold fromJsonText. destruct (parseJsonDocFromString E text) as [j r| |]; try exact I.
  exact (sim_result alike none _ _ _ _ (fromJson_alike G J alloc alloc' HA HA' PD MF fuel t j h h' errs K)).
Qed.
Print Assumptions C68_fromJson.

(** C68: values which are the same except that they refer to different objects which are the same likewise are serialised to the same JSON (it does not even matter whether
    pointers which are equal in one value are equal in the other one) *)
Theorem C68_push : forall G J H H' ro fuel t v v', heaps_alike ro H H' -> alike ro v v' -> push G J H fuel t v = push G J H' fuel t v'.
Proof. intros G J H H' ro fuel t v v' HH A. exact (proj1 (push_alike G J H H' ro HH fuel) t v v' A). Qed.
Print Assumptions C68_push.
Theorem C68_toJson : forall E G J H H' ro fuel t v v', heaps_alike ro H H' -> alike ro v v' -> toJson E G J H fuel t v = toJson E G J H' fuel t v'.
Proof.
  intros E G J H H' ro fuel t v v' HH A. unfold toJson, toJsonDocument. rewrite (C68_push G J H H' ro fuel t v v' HH A). reflexivity.
Qed.
Print Assumptions C68_toJson.

(** C68: and to binary data which differs in the IDs of shared objects only *)
Theorem C68_write : forall G H H' ro fuel ver t v v' W W', one_to_one ro -> heaps_alike ro H H' -> alike ro v v' -> Forall2 ro W W' ->
  same_outcome (fun x y => same_but_ids ro (fst x) (fst y) /\ Forall2 ro (snd x) (snd y)) (BinModel.write G H fuel ver t v W) (BinModel.write G H' fuel ver t v' W').
Proof. intros G H H' ro fuel ver t v v' W W' O HH A F. exact (proj1 (write_alike G H H' ro O HH fuel) ver t v v' W W' A F). Qed.
Print Assumptions C68_write.
Theorem C68_toBinary : forall G H H' ro fuel c fs fs' ver, one_to_one ro -> heaps_alike ro H H' -> alike_members ro fs fs' ->
  same_outcome (same_but_ids ro) (toBinary G H fuel c fs ver) (toBinary G H' fuel c fs' ver).
Proof.
  intros G H H' ro fuel c fs fs' ver O HH A. inversion A as [ | | | | | | | | | | | | | | |? ? F]; subst. unfold toBinary.
  eapply outcome_bind; [exact (proj2 (write_alike G H H' ro O HH fuel) ver c fs fs' [] [] F (Forall2_nil _))|]. intros [b W] [b' W'] [B _]. exact B.
Qed.
Print Assumptions C68_toBinary.

(** C68: what is read from the same binary data, wherever objects are allocated, is serialised to the same JSON and to the same binary data except for IDs *)
Theorem C68_same_serialisation : forall E G J alloc alloc', allocator alloc -> allocator alloc' -> plain_defaults G -> read_members_free G ->
  forall fuel c s h h' os, (forall a, ~ refers (VObj os) a) ->
  match restoreFromBinary (with_alloc G alloc) fuel c os s h, restoreFromBinary (with_alloc G alloc') fuel c os s h' with
  | ROk (fs, ver, r, st), ROk (fs', ver', r', st') => ver = ver' /\ r = r'
      /\ (forall fuel', toJson E G J (r_heap st) fuel' (TStruct c) (VObj fs) = toJson E G J (r_heap st') fuel' (TStruct c) (VObj fs'))
      /\ (forall fuel' ver'', same_outcome (fun bs bs' => exists ro, one_to_one ro /\ same_but_ids ro bs bs') (toBinary G (r_heap st) fuel' c fs ver'') (toBinary G (r_heap st') fuel' c fs' ver''))
  | ROk _, _ | _, ROk _ => False
  | r, r' => same_outcome (fun _ _ => True) r r'
  end.
Proof.
  intros E G J alloc alloc' HA HA' PD MF fuel c s h h' os N.
  pose proof (C68_restore G alloc alloc' HA HA' PD MF fuel c os os s none h h' none_one (none_alike h h') (alike_self none _ N)) as Q.
  destruct (restoreFromBinary (with_alloc G alloc) fuel c os s h) as [[[[fs n] r] st]| | | |], (restoreFromBinary (with_alloc G alloc') fuel c os s h') as [[[[fs' n'] r'] st']| | | |]; cbn [same_outcome] in *; try contradiction; try exact Q.
  destruct Q as (E1 & E2 & ro2 & S & F2). split; [exact E1|]. split; [exact E2|]. split.
  - intros fuel'. exact (C68_toJson E G J _ _ ro2 fuel' (TStruct c) (VObj fs) (VObj fs') (gr_alike _ _ _ _ _ _ S) F2).
  - intros fuel' ver''. pose proof (C68_toBinary G _ _ ro2 fuel' c fs fs' ver'' (gr_one _ _ _ _ _ _ S) (gr_alike _ _ _ _ _ _ S) F2) as B.
    destruct (toBinary G (r_heap st) fuel' c fs ver''), (toBinary G (r_heap st') fuel' c fs' ver''); cbn [same_outcome] in *; try contradiction; try exact B.
    exists ro2. split; [exact (gr_one _ _ _ _ _ _ S)|exact B].
Qed.
Print Assumptions C68_same_serialisation.

(** C68: writing a value, restoring it and writing it again gives the same data except for the IDs of shared objects, if no hash containers are involved *)
Theorem C68_binary_again : forall G C ud H ex wv rv t old v, alloc_ok G -> place_ok G -> heap_good G H -> good G H ex wv rv t old v ->
  ordered_layouts G C -> ordered_type C t -> (forall a u x, hget H a = Some (u, x) -> ordered_type C u) -> heap_typed G ud H -> has_type G ud H t v ->
  exists F, forall fuel, F <= fuel -> exists bs W,
    BinModel.write G H fuel wv t v [] = ROk (bs, W)
    /\ forall h0 rest, exists v' st' bs' W' ro,
         read G fuel rv t old (bs ++ rest) {| r_heap := h0; r_ptr := [] |} = ROk (v', rest, st')
         /\ BinModel.write G (r_heap st') fuel wv t v' [] = ROk (bs', W')
         /\ one_to_one ro /\ same_but_ids ro bs bs'.
Proof.
  intros G C ud H ex wv rv t old v HA HP HG Hg OL OT OH HT T. destruct (C04_binary_round_trip G H ex wv rv t old v HA HP HG Hg) as [F HF]. exists F. intros fuel L.
  destruct (HF fuel L) as (bs & W & E & R). exists bs, W. split; [exact E|]. intros h0 rest. destruct (R h0 rest) as (v' & h' & ptrs & ro & ER & SV & GI).
  pose proof (C68_write G H h' (paired ro) fuel wv t v v' [] [] (iso_one G H h0 h' ro GI) (iso_alike G C OL ud H h0 h' ro HT OH GI) (same_alike G C OL ud H ro t v v' SV T OT) (Forall2_nil _)) as Q.
  rewrite E in Q. destruct (BinModel.write G h' fuel wv t v' []) as [[bs' W']| | | |] eqn:E2; cbn [same_outcome] in Q; try contradiction.
  exists v', {| r_heap := h'; r_ptr := ptrs |}, bs', W', (paired ro). split; [exact ER|]. split; [exact E2|]. split; [exact (iso_one G H h0 h' ro GI)|exact (proj1 Q)].
Qed.
Print Assumptions C68_binary_again.
