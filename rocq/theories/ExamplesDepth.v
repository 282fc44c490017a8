(** ExamplesDepth.v -- the hypotheses of PropertiesDepth.v are met; there is no constant limit (property C67) *)
From Coq Require Import String List NArith ZArith Bool Arith Lia.
From Verif Require Import Base BaseFacts Bytes Types TypesFacts BinModel BinSpec BinSafeSpec FuelFacts GenModel Float JsonModel JsonRel JsonText JsonTextSpec JsonTextFacts JsonSpec JsonSafeSpec JsonSafe
  JsonFacts DispatchSpec SerSpec BoundSpec BoundFacts JBoundSpec JBoundFacts JTreeSpec JTreeFacts ExamplesEnv ExamplesBin ExamplesJson ExamplesText ExamplesDispatch ExamplesSer ExamplesBound ExamplesJBound
  ExamplesJTree SizeSpec PropertiesBin PropertiesText ExamplesSize DepthSpec DepthFacts PropertiesDepth.
Import ListNotations.
Local Open Scope string_scope.
Local Open Scope list_scope.
Local Open Scope nat_scope.

(** the classes of the example: one level of base classes, members nested at most three deep *)
Definition level (c : N) : nat := if N.eqb c 3 then 1 else 0.
Lemma level_le c : level c <= 1. Proof. unfold level. destruct (N.eqb c 3); lia. Qed.
Ltac levels := exists level; split; [exact level_le|]; intros c rc b Hc Hb; cbn [g_class GE] in Hc; class_cases Hc; cbn in Hb; try contradiction; destruct Hb as [<- | []]; vm_compute; lia.
Example GE_written_levels : base_levels GE written_bases 1. Proof. levels. Qed.
Example GE_pushed_levels : base_levels GE pushed_bases 1. Proof. levels. Qed.
Example GE_pulled_levels : base_levels GE pulled_bases 1. Proof. levels. Qed.
Example GE_members_nested : members_nested GE 3.
Proof.
  intros c rc p fd Hc Hp Hfd. cbn [g_class GE] in Hc. class_cases Hc; injection Hp as <-; cbn in Hfd; repeat (destruct Hfd as [<- | Hfd]; [vm_compute; lia|]); destruct Hfd.
Qed.
(** reading Outer (4) means reading its member inner (2) and that one's members; Derived (3) reads its base class (2) *)
Definition calls (c : N) : nat := match c with 3%N => 2 | 4%N => 3 | _ => 1 end.
Example GE_shallow : classes_shallow GE calls 5.
Proof.
  intros c rc p Hc Hp. cbn [g_class GE] in Hc. class_cases Hc; injection Hp as <-; (split; [intros b Hb; cbn in Hb; try contradiction; destruct Hb as [<- | []]; vm_compute; lia|]);
    intros fd Hfd; cbn in Hfd; repeat (destruct Hfd as [<- | Hfd]; [vm_compute; repeat split; lia|]); destruct Hfd.
Qed.

(** the bounds applied *)
Example derived_reads s h : restoreFromBinary GE (5 * (1 + length s)) 3 (rc_dinit cDerived) s h <> RFuel.
Proof. apply (C67_restore GE calls 5); [exact GE_shallow|vm_compute; repeat split; lia|apply le_n]. Qed.
Example derived_pulls text st : fromJsonText TW GE JE (1 + 5 * length text) (TStruct 3) text st <> Some PFuel.
Proof. apply (C67_fromJson TW GE JE 1 3); [exact GE_pulled_levels|exact GE_members_nested|apply le_n]. Qed.
Example derived_depth : toBinary GE H3 27 3 derived_obj 0 <> RFuel /\ push GE JE H3 27 (TStruct 3) (VObj derived_obj) <> RFuel.
Proof.
  split.
  - apply (C67_toBinary GE H3 1); [exact GE_written_levels|vm_compute; lia].
  - apply (C67_push GE JE H3 1); [exact GE_pushed_levels| |vm_compute; lia].
    exists (fun a => if N.eqb a a1 then 1 else 0). intros a t x b Hx. unfold hget, H3 in Hx. cbn [alookup] in Hx.
    destruct (N.eqb a a1) eqn:E1; [|destruct (N.eqb a a2) eqn:E2; [|discriminate]].
    all: injection Hx as <- <-; intros Rb; unfold nodeval in Rb; inversion Rb; subst;
      repeat match goal with H : In _ _ |- _ => destruct H as [[= <- <-]|H] | H : In _ [] |- _ => destruct H | H : refers _ _ |- _ => inversion H; subst; clear H end; try contradiction; cbn; lia.
Qed.

(** finding: there is no limit.  Nodes nested in each other need one call each (at least): in JSON, ... *)
Fixpoint nest (n : nat) : json := match n with O => JObj [] | S n' => JObj [(B "next", nest n')] end.
Lemma nest_deep n : forall fuel st, fuel <= n -> pull GE JE fuel (TStruct 1) (VObj (rc_vinit cNode)) (nest n) st = PFuel.
Proof.
  induction n as [|n IH]; intros fuel st L; [replace fuel with 0 by lia; reflexivity|].
  destruct fuel as [|f]; [reflexivity|]. rewrite pull_S. cbn [pull_body nest].
  enough (E : pull_cls GE JE f 1 (rc_vinit cNode) [(B "next", nest n)] st = PFuel) by (unfold bind; rewrite E; reflexivity).
  destruct f as [|f]; [reflexivity|].
  assert (E2 : forall s, pull GE JE f (TShared (TStruct 1)) (VShared None) (nest n) s = PFuel).
  { intros s. destruct f as [|f]; [reflexivity|]. rewrite pull_S. cbn [pull_body].
    assert (E3 : bind (in_new GE (TStruct 1) (pull GE JE f (TStruct 1) (vinit GE (TStruct 1)) (nest n))) (fun a => ret (VShared (Some a))) s = PFuel).
    { unfold bind, in_new. change (vinit GE (TStruct 1)) with (VObj (rc_vinit cNode)). rewrite IH by lia. reflexivity. }
    destruct n; exact E3. }
  rewrite pull_cls_S. unfold pull_cls_body. change (g_class GE 1) with (Some cNode). cbv beta iota.
  change (rc_pull cNode) with (Some (jprog_of 1 [] "Node" node)). cbv beta iota zeta. unfold bind, in_record, in_member, pull_member, bind, ret.
  cbn -[pull pull_cls nest put_member put_record]. unfold bind, in_member. cbv beta. rewrite E2. reflexivity.
Qed.
Lemma nest_text n : length (serializeJsonDocToString TW (nest n)) = 9 * n + 2.
Proof.
  unfold serializeJsonDocToString. induction n as [|n IH]; [reflexivity|].
  assert (W : snd (JsonText.write TW (nest n)) = true) by (clear; induction n as [|n IH]; [reflexivity|]; cbn [nest JsonText.write]; unfold wbind; cbn -[JsonText.write nest]; rewrite IH; reflexivity).
  cbn [nest JsonText.write]. unfold wbind. destruct (JsonText.write TW (nest n)) as [b ok]. cbn [fst snd] in *. rewrite W. cbn. rewrite app_length. cbn. lia.
Qed.
Theorem C67_json_unlimited_refuted : forall limit, exists text, length text = 9 * limit + 2 /\ forall st, fromJsonText TW GE JE limit (TStruct 1) text st = Some PFuel.
Proof.
  intros limit. exists (serializeJsonDocToString TW (nest limit)). split; [apply nest_text|]. intros st. unfold fromJsonText.
  rewrite C23_without_doubles.
  - f_equal. pose proof (nest_deep limit limit st (le_n _)) as E. unfold fromJson. destruct limit; exact E.
  - induction limit as [|n IH]; [split; exact I|]. split; [exact I|]. split; [exact IH|exact I].
  - induction limit as [|n IH]; [split; exact I|]. split; [exact I|]. split; [exact IH|exact I].
Qed.
Print Assumptions C67_json_unlimited_refuted.

(** ... in binary data, ... *)
Fixpoint nest_bytes (n : nat) : bytes := match n with O => hex [0; 0; 0; 0; 0]%N | S n' => hex [0; 0; 0; 0; 1; 129]%N ++ nest_bytes n' end.
Lemma nest_bytes_deep n : forall fuel ver st, fuel <= n -> read GE fuel ver (TStruct 1) (VObj (rc_vinit cNode)) (nest_bytes n) st = RFuel.
Proof.
  induction n as [|n IH]; intros fuel ver st L; [replace fuel with 0 by lia; reflexivity|].
  destruct fuel as [|f]; [reflexivity|]. rewrite read_S. cbn [read_body].
  enough (E : read_cls GE f ver 1 (rc_vinit cNode) (nest_bytes (S n)) st = RFuel) by (rewrite E; reflexivity).
  destruct f as [|f]; [reflexivity|].
  assert (E2 : forall ver s, read GE f ver (TShared (TStruct 1)) (VShared None) (hex [1; 129]%N ++ nest_bytes n) s = RFuel).
  { intros ver0 s. destruct f as [|f]; [reflexivity|]. rewrite read_S. unfold read_body.
    change (hex [1; 129]%N ++ nest_bytes n) with (mkb 1 :: ([mkb 129] ++ nest_bytes n)). change (rd_byte (mkb 1 :: ([mkb 129] ++ nest_bytes n))) with (ROk (1%N, [mkb 129] ++ nest_bytes n)).
    cbn [rbind]. change (1 =? 0)%N with false. change (negb (N.land 1 4 =? 0)%N) with false. cbv iota. rewrite (BytesFacts.rd_wr_varint 1 [mkb 129]) by reflexivity. cbn [rbind].
    change (N.land 1 3 =? 1)%N with true. cbv iota zeta. change (vinit GE (TStruct 1)) with (VObj (rc_vinit cNode)). rewrite IH by lia. reflexivity. }
  rewrite read_cls_S. unfold read_cls_body. change (g_class GE 1) with (Some cNode). cbv beta iota.
  change (rc_rd cNode) with (Some (prog 1 [] 0 node)). cbv beta iota zeta. cbn -[read read_cls nest_bytes].
  assert (E1 : read GE f ver i32 (VInt 0) (nest_bytes (S n)) st = RFuel \/ read GE f ver i32 (VInt 0) (nest_bytes (S n)) st = ROk (VInt 0, hex [1; 129]%N ++ nest_bytes n, st)).
  { destruct f as [|f]; [left; reflexivity|right]. rewrite read_S. reflexivity. }
  destruct E1 as [E1 | E1]; rewrite E1; [reflexivity|]. cbn -[read read_cls nest_bytes hex]. rewrite E2. reflexivity.
Qed.
Theorem C67_binary_unlimited_refuted : forall limit, exists s, length s = 6 * limit + 5 /\
  forall st ver, read GE limit ver (TStruct 1) (vinit GE (TStruct 1)) s st = RFuel.
Proof.
  intros limit. exists (nest_bytes limit). split.
  - induction limit as [|n IH]; [reflexivity|]. change (nest_bytes (S n)) with (hex [0; 0; 0; 0; 1; 129]%N ++ nest_bytes n). rewrite app_length, IH. change (length (hex _)) with 6. lia.
  - intros st ver. apply (nest_bytes_deep limit limit ver st (le_n _)).
Qed.
Print Assumptions C67_binary_unlimited_refuted.

(** ... and when a list of nodes is serialised (each node owns the next one) *)
Fixpoint nodes_heap (n : nat) : heap :=
  match n with O => [] | S n' => (N.of_nat n, (TStruct 1, nodeval 0 (match n' with O => None | _ => Some (N.of_nat n') end))) :: nodes_heap n' end.
Definition first_node (n : nat) : val := VShared (match n with O => None | _ => Some (N.of_nat n) end).
Lemma nodes_get m : forall n, 0 < n <= m -> hget (nodes_heap m) (N.of_nat n) = Some (TStruct 1, nodeval 0 (match pred n with O => None | _ => Some (N.of_nat (pred n)) end)).
Proof.
  induction m as [|m IH]; intros n Hn; [lia|]. unfold hget in *. cbn [nodes_heap alookup]. destruct (N.eqb (N.of_nat n) (N.of_nat (S m))) eqn:E.
  - apply N.eqb_eq in E. assert (n = S m) as -> by lia. reflexivity.
  - apply N.eqb_neq in E. apply IH. lia.
Qed.
Lemma nodes_push m : forall n fuel, n <= m -> fuel <= n -> push GE JE (nodes_heap m) fuel (TShared (TStruct 1)) (first_node n) = RFuel.
Proof.
  induction n as [|n IH]; intros fuel Hn L; [replace fuel with 0 by lia; reflexivity|].
  destruct fuel as [|f]; [reflexivity|]. rewrite push_S. unfold push_body, first_node. rewrite nodes_get by lia. cbv beta iota. rewrite ty_eqb_refl. cbn [pred].
  destruct f as [|f]; [reflexivity|]. rewrite push_S. unfold push_body, nodeval. 
  enough (E : push_cls GE JE (nodes_heap m) f 1 [((1%N, B "value"), VInt 0); ((1%N, B "next"), first_node n)] [] = RFuel) by (unfold first_node in E; rewrite E; reflexivity).
  destruct f as [|f]; [reflexivity|]. rewrite push_cls_S. unfold push_cls_body. change (g_class GE 1) with (Some cNode). cbn -[push first_node nodes_heap].
  rewrite (IH f) by lia. destruct f as [|f]; reflexivity.
Qed.
Lemma nodes_write m : forall n fuel ver W, n <= m -> fuel <= n -> (forall i, 0 < i <= n -> existsb (N.eqb (N.of_nat i)) W = false) ->
  BinModel.write GE (nodes_heap m) fuel ver (TShared (TStruct 1)) (first_node n) W = RFuel.
Proof.
  induction n as [|n IH]; intros fuel ver W Hn L HW; [replace fuel with 0 by lia; reflexivity|].
  destruct fuel as [|f]; [reflexivity|]. rewrite write_S. unfold write_body, first_node. rewrite (HW (S n)) by lia. rewrite nodes_get by lia. cbn [pred].
  assert (Hh : exists b, wr_ptr_head 1 (N.of_nat (S n)) = ROk b).
  { unfold wr_ptr_head. destruct (bigId (N.of_nat (S n))) eqn:Eb; [eauto|]. unfold bigId in Eb. apply N.leb_gt in Eb.
    destruct (proj1 (PropertiesBin.C01_varint_round_trip (N.of_nat (S n)) [])) as (b & E & _); [change (2 ^ 56)%N with 72057594037927936%N; lia|]. rewrite E. cbn. eauto. }
  destruct Hh as [b Hh]. rewrite Hh. cbn [rbind]. rewrite ty_eqb_refl.
  enough (E : BinModel.write GE (nodes_heap m) f 0 (TStruct 1) (nodeval 0 (match n with O => None | _ => Some (N.of_nat n) end)) (N.of_nat (S n) :: W) = RFuel) by (rewrite E; reflexivity).
  destruct f as [|f]; [reflexivity|]. rewrite write_S. unfold write_body, nodeval.
  destruct f as [|f]; [reflexivity|]. rewrite write_cls_S. unfold write_cls_body. change (g_class GE 1) with (Some cNode). cbv beta iota zeta.
  change (rc_wr cNode) with (prog 1 [] 0 node). cbn -[BinModel.write first_node nodes_heap].
  change (VShared (match n with O => None | _ => Some (N.of_nat n) end)) with (first_node n).
  destruct f as [|f]; [reflexivity|].
  assert (E1 : forall W0, BinModel.write GE (nodes_heap m) (S f) 0 i32 (VInt 0) W0 = ROk (wr_int KI32 0, W0)) by reflexivity. rewrite E1. cbn [rbind].
  rewrite (IH (S f)); [reflexivity|lia|lia|].
  intros i Hi. change (N.eqb (N.of_nat i) (N.of_nat (S n)) || existsb (N.eqb (N.of_nat i)) W = false)%bool. rewrite (HW i) by lia. rewrite orb_false_r. apply N.eqb_neq. lia.
Qed.
Theorem C67_serialise_unlimited_refuted : forall limit, exists H v, heap_height H = 2 * limit /\ height v = 1 /\ acyclic H /\
  BinModel.write GE H limit 0 (TShared (TStruct 1)) v [] = RFuel /\ push GE JE H limit (TShared (TStruct 1)) v = RFuel.
Proof.
  intros limit. exists (nodes_heap limit), (first_node limit). split; [|split; [|split; [|split]]].
  - unfold heap_height. assert (A : forall m, (forall a, In a (addresses (nodes_heap m)) -> exists i, 0 < i <= m /\ a = N.of_nat i) /\ length (addresses (nodes_heap m)) = m).
    { induction m as [|m [IH1 IH2]]; [split; [intros a []|reflexivity]|].
      assert (E : addresses (nodes_heap (S m)) = N.of_nat (S m) :: addresses (nodes_heap m)).
      { apply addresses_new. intros I. apply addresses_in, IH1 in I. destruct I as (i & Hi & E). lia. }
      rewrite E. split; [|cbn; lia]. intros a [<- |I]; [exists (S m); lia|]. destruct (IH1 a I) as (i & Hi & ->). exists i. lia. }
    destruct (A limit) as [A1 A2]. replace (2 * limit) with (2 * length (addresses (nodes_heap limit))) by (rewrite A2; reflexivity). revert A1. generalize (addresses (nodes_heap limit)). induction l as [|a l IH]; intros A1; [reflexivity|].
    cbn [map length]. rewrite sum_cons. destruct (A1 a (or_introl eq_refl)) as (i & Hi & ->). unfold object_height at 1. rewrite (nodes_get limit i Hi). rewrite IH by (intros b I; apply A1; right; exact I).
    cbn [height nodeval]. destruct (pred i); cbn; lia.
  - destruct limit; reflexivity.
  - exists N.to_nat. intros a t x b Hx Rb. assert (Hi : exists i, 0 < i <= limit /\ a = N.of_nat i).
    { clear Rb. revert Hx. induction limit as [|m IH]; [discriminate|]. unfold hget in *. cbn [nodes_heap alookup]. destruct (N.eqb a (N.of_nat (S m))) eqn:E.
      - apply N.eqb_eq in E. intros _. exists (S m). split; [lia|exact E].
      - intros Hx. destruct (IH Hx) as (i & Hi & ->). exists i. split; [lia|reflexivity]. }
    destruct Hi as (i & Hi & ->). rewrite (nodes_get limit i Hi) in Hx. injection Hx as <- <-. unfold nodeval in Rb. inversion Rb; subst.
    match goal with H : In _ _ |- _ => destruct H as [[= <- <-]|[[= <- <-]|[]]] end; match goal with H : refers _ _ |- _ => inversion H; subst end.
    destruct i as [|[|i]]; try discriminate; try lia. cbn [pred] in *. assert (b = N.of_nat (S i)) as -> by congruence. lia.
  - apply nodes_write; [lia|lia|]. reflexivity.
  - apply nodes_push; lia.
Qed.
Print Assumptions C67_serialise_unlimited_refuted.
