(** ExamplesAddr.v -- the hypotheses of C68 are met by non-trivial cases, and what happens without them *)
From Coq Require Import String List NArith ZArith Bool Arith Lia.
From Verif Require Import Base BaseFacts Types TypesFacts BinModel BinSpec BinSafeSpec Float JsonModel JsonText SerSpec JTreeSpec AddrSpec AddrFacts AddrAgain PropertiesAddr ExamplesEnv ExamplesBin ExamplesJson ExamplesText ExamplesJTree.
Import ListNotations.
Local Open Scope list_scope.
Local Open Scope N_scope.

(** comparing integers and strings does not look at addresses *)
Lemma GE_address_free t : address_free GE t.
Proof.
  intros ro O. split.
  - intros x x' y y' A A'. cbn. destruct A, A'; split; reflexivity.
  - intros l l' x x' F A. cbn. apply Forall2_app; [exact F|repeat constructor; exact A].
Qed.
Lemma GE_keys_free t : keys_free GE t.
Proof.
  induction t using ty_ind'; cbn [keys_free]; auto using GE_address_free.
  - induction ts as [|t ts IHt]; [exact I|]. inversion H; subst. split; [assumption|apply IHt; assumption].
  - induction ts as [|t ts IHt]; [exact I|]. inversion H; subst. split; [assumption|apply IHt; assumption].
Qed.
Example GE_read_free : read_members_free GE. Proof. intros c rc p fd _ _ _. apply GE_keys_free. Qed.
Example GE_pulled_free : pulled_members_free GE. Proof. intros c rc p fd _ _ _. apply GE_keys_free. Qed.

(** two allocators: upwards; and downwards from 1000 if that is possible *)
Definition up (h : heap) : N := 1 + fold_right N.max 0 (map fst h).
Lemma up_ok : allocator up. Proof. exact GE_alloc. Qed.
Definition down (h : heap) : N :=
  let a := 1000 - N.of_nat (length h) in if in_dec N.eq_dec a (map fst h) then up h else a.
Lemma down_ok : allocator down.
Proof. intros h. unfold down. cbv zeta. destruct (in_dec N.eq_dec _ _) as [I|I]; [apply up_ok|exact I]. Qed.

(** the cyclic graph of ExamplesBin.v is restored at the addresses 1, 2 or 1000, 999: the objects correspond *)
Definition cyclic_data : bytes := hex [1; 0x90;  0; 0; 0; 7;  5; 0xFF; 0; 0; 0; 0; 0; 0; 0x20;  0xFF; 0xFF; 0xFF; 0xFF;  2; 0x90; 6; 0xFF; 0; 0; 0; 0; 0; 0; 0x20].
Example cyclic_both : exists st st',
  read (with_alloc GE up) 10 0 two (vinit GE two) cyclic_data {| r_heap := []; r_ptr := [] |} = ROk (VPair (VShared (Some 1)) (VShared (Some 2)), [], st)
  /\ read (with_alloc GE down) 10 0 two (vinit GE two) cyclic_data {| r_heap := []; r_ptr := [] |} = ROk (VPair (VShared (Some 1000)) (VShared (Some 999)), [], st')
  /\ exists ro, ro 1 1000 /\ ro 2 999 /\ one_to_one ro /\ heaps_alike ro (r_heap st) (r_heap st').
Proof.
  pose proof (C68_read GE up down up_ok down_ok GE_plain GE_read_free 10 0 two (vinit GE two) (vinit GE two) cyclic_data none [] [] [] [] (GE_keys_free two) none_one (none_alike [] []) (Forall2_nil _)
    (vinit_alike GE none GE_plain two)) as Q.
  destruct (read (with_alloc GE up) 10 0 two (vinit GE two) cyclic_data {| r_heap := []; r_ptr := [] |}) as [[[v r] st]| | | |] eqn:E1; try (vm_compute in E1; discriminate).
  destruct (read (with_alloc GE down) 10 0 two (vinit GE two) cyclic_data {| r_heap := []; r_ptr := [] |}) as [[[v' r'] st']| | | |] eqn:E2; try (vm_compute in E2; discriminate).
  assert (v = VPair (VShared (Some 1)) (VShared (Some 2)) /\ r = []) as [-> ->] by (vm_compute in E1; injection E1; intros; subst; split; reflexivity).
  assert (v' = VPair (VShared (Some 1000)) (VShared (Some 999)) /\ r' = []) as [-> ->] by (vm_compute in E2; injection E2; intros; subst; split; reflexivity).
  exists st, st'. split; [reflexivity|]. split; [reflexivity|]. destruct Q as (_ & ro & Gr & _ & A). exists ro. inversion A as [ | | | | | | |? ? ? ? A1 A2| | | | | | | |]; subst.
  inversion A1; subst. inversion A2; subst. split; [assumption|]. split; [assumption|]. split; [exact (gr_one _ _ _ _ _ _ Gr)|exact (gr_alike _ _ _ _ _ _ Gr)].
Qed.

(** all hypotheses of C68_fromJson are met for a class with shared pointers (the text of ExamplesJTree.v); the JSON of what has been read is the same *)
Example text_both : exists v st v' st',
  fromJsonText TW (with_alloc GE up) JE 20 (TStruct 3) derived_text {| p_heap := []; p_err := None |} = Some (POk v st)
  /\ fromJsonText TW (with_alloc GE down) JE 20 (TStruct 3) derived_text {| p_heap := []; p_err := None |} = Some (POk v' st')
  /\ v <> v' /\ toJson TW GE JE (p_heap st) 20 (TStruct 3) v = toJson TW GE JE (p_heap st') 20 (TStruct 3) v'.
Proof.
  pose proof (C68_fromJson TW GE JE up down up_ok down_ok GE_plain GE_pulled_free 20 (TStruct 3) derived_text [] [] None (GE_keys_free _)) as Q.
  destruct (fromJsonText TW (with_alloc GE up) JE 20 (TStruct 3) derived_text {| p_heap := []; p_err := None |}) as [[v st| | | |]|] eqn:E1; try (vm_compute in E1; discriminate).
  destruct (fromJsonText TW (with_alloc GE down) JE 20 (TStruct 3) derived_text {| p_heap := []; p_err := None |}) as [[v' st'| | | |]|] eqn:E2; try (vm_compute in E2; discriminate).
  exists v, st, v', st'. split; [reflexivity|]. split; [reflexivity|]. split.
  - vm_compute in E1, E2. injection E1 as <- _. injection E2 as <- _. intros X. discriminate X.
  - destruct Q as (_ & ro & Gr & A). exact (C68_toJson TW GE JE _ _ ro 20 (TStruct 3) v v' (gr_alike _ _ _ _ _ _ Gr) A).
Qed.

(** hypotheses of C68_same_serialisation: an object without pointers to start with *)
Example start_plain : forall a, ~ refers (VObj (rc_vinit cDerived)) a.
Proof. intros a R. inversion R as [| | | | | |? k x ? I Q]; subst. exact (GE_plain 3 cDerived k x a eq_refl (or_introl I) Q). Qed.

(** hypotheses of C68_binary_again: the cyclic graph *)
Example node_ordered : ordered_layouts GE (fun c => c = 1).
Proof.
  intros c rc -> Hc. vm_compute in Hc. injection Hc as <-. split; [nodup|]. intros k t. cbn [rc_layout cNode mkclass app plain_layout node map alookup].
  destruct (fkey_eqb _ _); [intros [= <-]; exact I|]. destruct (fkey_eqb _ _); [intros [= <-]; reflexivity|discriminate].
Qed.
Example HC_typed : heap_typed GE false HC.
Proof.
  assert (N : forall z b, in_range KI32 z = true -> hty HC b = Some (TStruct 1) -> has_type GE false HC (TStruct 1) (nodeval z (Some b))).
  { intros z b R T. eapply ht_struct; [reflexivity|reflexivity|]. intros k t v. cbn [rc_layout cNode mkclass app plain_layout node map alookup nodeval].
    destruct (fkey_eqb k (1, B "value")); [intros [= <-] [= <-]; constructor; exact R|].
    destruct (fkey_eqb k (1, B "next")); [intros [= <-] [= <-]; constructor; exact T|discriminate]. }
  intros a t x E. unfold HC, hget in E. cbn [alookup] in E.
  destruct (a =? a1) eqn:E1; [|destruct (a =? a2) eqn:E2; [|discriminate]]; injection E as <- <-; apply N; reflexivity.
Qed.
Example cyclic_twice : exists F, forall fuel, (F <= fuel)%nat -> exists bs W,
    BinModel.write GE HC fuel 0 two (VPair (VShared (Some a1)) (VShared (Some a2))) [] = ROk (bs, W)
    /\ forall h0 rest, exists v' st' bs' W' ro,
         read GE fuel 0 two (vinit GE two) (bs ++ rest) {| r_heap := h0; r_ptr := [] |} = ROk (v', rest, st')
         /\ BinModel.write GE (r_heap st') fuel 0 two v' [] = ROk (bs', W')
         /\ one_to_one ro /\ same_but_ids ro bs bs'.
Proof.
  apply (C68_binary_again GE (fun c => c = 1) false HC false 0 0 two (vinit GE two)); [exact GE_alloc|exact GE_place|exact HC_good|exact cyclic_good|exact node_ordered|split; reflexivity| |exact HC_typed|].
  - intros a u x E. unfold HC, hget in E. cbn [alookup] in E. destruct (a =? a1); [injection E as <- _; reflexivity|]. destruct (a =? a2); [injection E as <- _; reflexivity|discriminate].
  - constructor; constructor; reflexivity.
Qed.

(** finding: std::set<std::shared_ptr<T>> is ordered by address, so restoring the same data in two runs of a program may give elements in a different order:
    what is read depends on the allocator (and so do the JSON and the binary data made of it) *)
Definition ptr_ltb (a b : val) : bool := match a, b with VShared (Some x), VShared (Some y) => x <? y | _, _ => val_ltb a b end.
Definition GP : genv := {| g_class := g_class GE; g_lt := fun _ => ptr_ltb; g_eq := g_eq GE; g_place := g_place GE; g_alloc := up |}.
Definition ptr_set : ty := TSet true false (TShared i32).
Definition ptr_data : bytes := hex [0x82;  1; 0x81; 0; 0; 0; 7;  1; 0x82; 0; 0; 0; 8].
Theorem C68_ordered_by_address_refuted : exists v st v' st',
  read (with_alloc GP up) 10 0 ptr_set (vinit GP ptr_set) ptr_data {| r_heap := []; r_ptr := [] |} = ROk (v, [], st)
  /\ read (with_alloc GP down) 10 0 ptr_set (vinit GP ptr_set) ptr_data {| r_heap := []; r_ptr := [] |} = ROk (v', [], st')
  /\ (forall ro, heaps_alike ro (r_heap st) (r_heap st') -> ~ alike ro v v')
  /\ push GP JE (r_heap st) 10 ptr_set v = ROk (JArr [JInt 7; JInt 8])
  /\ push GP JE (r_heap st') 10 ptr_set v' = ROk (JArr [JInt 8; JInt 7]).
Proof.
  do 4 eexists. split; [vm_compute; reflexivity|]. split; [vm_compute; reflexivity|]. split; [|split; vm_compute; reflexivity].
  intros ro HH A. inversion A as [ | | | | | |? ? F| | | | | | | | |]; subst. inversion F as [|? ? ? ? A1 F1]; subst. inversion A1; subst.
  match goal with R : ro _ _ |- _ => destruct (HH _ _ R) as (t & x & x' & E1 & E2 & B0) end. vm_compute in E1, E2. injection E1 as <- <-. injection E2 as <-. inversion B0.
Qed.
Print Assumptions C68_ordered_by_address_refuted.
