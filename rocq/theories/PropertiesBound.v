(** PropertiesBound.v -- property C61: what is created when reading is bounded by the data read *)
From Coq Require Import List NArith ZArith Bool Lia.
From Verif Require Import Base BaseFacts Bytes Types TypesFacts BinModel FuelFacts BinSpec BinFacts BoundSpec BoundFacts.
Import ListNotations.
Local Open Scope nat_scope.

(** C61: after reading [used] the size of the value and of all shared objects together has grown by at most [2*k] per byte *)
Theorem C61_size : forall G k fuel ver t old used rest st v st', alloc_ok G -> place_ok G -> 1 <= k -> compact_members G k -> compact G k t ->
  read G fuel ver t old (used ++ rest) st = ROk (v, rest, st') ->
  vsize v + heap_size (r_heap st') <= vsize old + heap_size (r_heap st) + 2 * k * length used.
Proof.
  intros G k fuel ver t old used rest st v st' HA HP Hk HM HC E. destruct (proj1 (bound_all G k HA HP Hk HM fuel) _ _ _ _ _ _ _ _ HC E) as [[B _] _].
  rewrite app_length in B. rewrite Nat.mul_add_distr_l in B. lia.
Qed.
Print Assumptions C61_size.
Theorem C61_restore : forall G k fuel c os used rest h fs ver st', alloc_ok G -> place_ok G -> 1 <= k -> compact_members G k ->
  restoreFromBinary G fuel c os (used ++ rest) h = ROk (fs, ver, rest, st') ->
  fsizes fs + heap_size (r_heap st') <= fsizes os + heap_size h + 2 * k * length used.
Proof.
  intros G k fuel c os used rest h fs ver st' HA HP Hk HM E. destruct (proj2 (bound_all G k HA HP Hk HM fuel) _ _ _ _ _ _ _ _ _ E) as [[B _] _].
  cbn [r_heap] in B. rewrite app_length in B. rewrite Nat.mul_add_distr_l in B. lia.
Qed.
Print Assumptions C61_restore.
(** C61: and however many values are read one after another with the same deserializer *)
Theorem C61_sizes : forall G k fuel l used rest st vs st', alloc_ok G -> place_ok G -> 1 <= k -> compact_members G k ->
  (forall ver t old, In (ver, t, old) l -> compact G k t) ->
  read_values G fuel l (used ++ rest) st = ROk (vs, rest, st') ->
  vsizes vs + heap_size (r_heap st') <= vsizes (map snd l) + heap_size (r_heap st) + 2 * k * length used.
Proof.
  intros G k fuel l used rest st vs st' HA HP Hk HM HC E.
  enough (X : vsizes vs + heap_size (r_heap st') + 2 * k * length rest <= vsizes (map snd l) + heap_size (r_heap st) + 2 * k * length (used ++ rest)).
  { rewrite app_length in X. rewrite Nat.mul_add_distr_l in X. lia. }
  revert E. generalize (used ++ rest). clear used. intros s E. revert s st vs E.
  induction l as [|[[ver t] old] l IH]; intros s st vs E; cbn [read_values] in E; [injection E as <- <- <-; cbn; lia|].
  apply rbind_ok in E. destruct E as ([[v s1] st1] & E1 & E). apply rbind_ok in E. destruct E as ([[vs1 s2] st2] & E2 & E). injection E as <- -> ->.
  destruct (proj1 (bound_all G k HA HP Hk HM fuel) _ _ _ _ _ _ _ _ (HC _ _ _ (or_introl eq_refl)) E1) as [[B _] _].
  apply IH in E2; [|intros ? ? ? I; eapply HC; right; exact I]. cbn [map snd]. rewrite !vsizes_cons. lia.
Qed.
Print Assumptions C61_sizes.

(** C61: for every shared object created at least two bytes have been read; this holds for all types *)
Theorem C61_objects : forall G fuel ver t old used rest st v st', read G fuel ver t old (used ++ rest) st = ROk (v, rest, st') ->
  2 * length (addresses (r_heap st')) <= 2 * length (addresses (r_heap st)) + length used.
Proof.
  intros G fuel ver t old used rest st v st' E. destruct (proj1 (count_all G fuel) _ _ _ _ _ _ _ _ E) as [[[B _] _] _].
  rewrite app_length in B. unfold objects in B. lia.
Qed.
Print Assumptions C61_objects.
Theorem C61_objects_restored : forall G fuel c os used rest h fs ver st', restoreFromBinary G fuel c os (used ++ rest) h = ROk (fs, ver, rest, st') ->
  2 * length (addresses (r_heap st')) <= 2 * length (addresses h) + length used.
Proof.
  intros G fuel c os used rest h fs ver st' E. destruct (proj2 (count_all G fuel) _ _ _ _ _ _ _ _ _ E) as [[[B _] _] _].
  rewrite app_length in B. unfold objects in B. cbn [r_heap] in B. lia.
Qed.
Print Assumptions C61_objects_restored.

(** C61: data of a type which occupies something is never empty *)
Theorem C61_not_empty : forall G fuel ver t old used rest st v st', occupies G t -> read G fuel ver t old (used ++ rest) st = ROk (v, rest, st') ->
  1 <= length used.
Proof.
  intros G fuel ver t old used rest st v st' O E. destruct (proj1 (count_all G fuel) _ _ _ _ _ _ _ _ E) as [_ B]. destruct (B O) as [[_ B2] _].
  rewrite app_length in B2. lia.
Qed.
Print Assumptions C61_not_empty.

(** C61: a sequence restored has fewer elements than bytes have been read *)
Theorem C61_sequence : forall G fuel ver t olds used rest st l st', occupies G t ->
  read G fuel ver (TSeq t) (VList olds) (used ++ rest) st = ROk (VList l, rest, st') -> length l < length used.
Proof.
  intros G [|f] ver t olds used rest st l st' O E; [discriminate|]. rewrite read_S in E. unfold read_body in E.
  apply rbind_ok in E. destruct E as ([n s1] & E1 & E). apply rbind_ok in E. destruct E as ([[[os' acc] s2] st2] & E2 & E). injection E as <- -> ->.
  apply (rd_varint_len 1 (le_n 1)) in E1. apply loop_counted_elements in E2; [|exact O]. destruct E2 as [_ E2]. cbn [length] in E2.
  rewrite app_length in E1. rewrite rev_length. lia.
Qed.
Print Assumptions C61_sequence.
(** C61: sets and maps grow by fewer elements than bytes have been read *)
Theorem C61_set : forall G fuel ver ord multi t olds used rest st l st', place_ok G -> occupies G t ->
  read G fuel ver (TSet ord multi t) (VList olds) (used ++ rest) st = ROk (VList l, rest, st') -> length l < length olds + length used.
Proof.
  intros G [|f] ver ord multi t olds used rest st l st' HP O E; [discriminate|]. rewrite read_S in E. unfold read_body in E.
  apply rbind_ok in E. destruct E as ([n s1] & E1 & E). apply rbind_ok in E. destruct E as ([[l2 s2] st2] & E2 & E). injection E as -> -> ->.
  apply (rd_varint_len 1 (le_n 1)) in E1. apply (loop_counted_inserts G f t (dinit G t) (fun x l => fst (emplace G false ord multi t x l))) in E2;
    [|intros; apply emplace_length; assumption|exact O]. rewrite app_length in E1. lia.
Qed.
Print Assumptions C61_set.
Theorem C61_map : forall G fuel ver ord multi a b olds used rest st l st', place_ok G -> occupies G (TPair a b) ->
  read G fuel ver (TMap ord multi a b) (VList olds) (used ++ rest) st = ROk (VList l, rest, st') -> length l < length olds + length used.
Proof.
  intros G [|f] ver ord multi a b olds used rest st l st' HP O E; [discriminate|]. rewrite read_S in E. unfold read_body in E.
  apply rbind_ok in E. destruct E as ([n s1] & E1 & E). apply rbind_ok in E. destruct E as ([[l2 s2] st2] & E2 & E). injection E as -> -> ->.
  apply (rd_varint_len 1 (le_n 1)) in E1.
  apply (loop_counted_inserts G f (TPair a b) (VPair (vinit G a) (vinit G b)) (fun x l => fst (emplace G true ord multi a x l))) in E2;
    [|intros; apply emplace_length; assumption|exact O]. rewrite app_length in E1. lia.
Qed.
Print Assumptions C61_map.
