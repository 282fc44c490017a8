(** ExamplesBound.v -- the hypotheses of PropertiesBound.v are met; what is not bounded (property C61) *)
From Coq Require Import String List NArith ZArith Bool Lia.
From Verif Require Import Base BaseFacts Bytes BytesFacts Types TypesFacts BinModel FuelFacts BinSpec BinFacts BinExc ExamplesEnv ExamplesBin BoundSpec BoundFacts PropertiesBound.
Import ListNotations.
Local Open Scope string_scope.
Local Open Scope list_scope.
Local Open Scope nat_scope.

(** all classes of the example are compact *)
Lemma GE_occ_base t : (forall a b, t <> TPair a b) -> (forall c, t <> TStruct c) -> occupies GE t.
Proof. apply oc_other. Qed.
Example Ver_occupies : occupies GE (TStruct 2).
Proof. apply oc_struct. eapply oc_version; [reflexivity|reflexivity|discriminate]. Qed.
Example Node_occupies : occupies GE (TStruct 1).
Proof.
  apply oc_struct. eapply oc_member with (fd := bf 1 "value" i32 0 0); [reflexivity|reflexivity|left; reflexivity|reflexivity|reflexivity|].
  apply oc_other; discriminate.
Qed.
Ltac occ := first [exact Ver_occupies | exact Node_occupies | (apply oc_first; apply oc_other; discriminate) | apply oc_other; discriminate].
Ltac compacts := cbn [bf bf_ty compact]; repeat match goal with |- _ /\ _ => split end; try exact I; try occ; try (vm_compute; lia).
Example GE_compact : compact_members GE 5.
Proof.
  intros c rc p fd Hc. cbn [g_class GE] in Hc. class_cases Hc; intros [= <-] I; cbn in I; repeat (destruct I as [<- | I]; [compacts|]); destruct I.
Qed.
Example two_compact : compact GE 5 two. Proof. compacts. Qed.

(** two nodes referring to each other; the bound applied to what is actually read *)
Definition two_bytes : bytes := hex [1; 0x90;  0; 0; 0; 7;  5; 0xFF; 0; 0; 0; 0; 0; 0; 0x20;  0xFF; 0xFF; 0xFF; 0xFF;  2; 0x90; 6; 0xFF; 0; 0; 0; 0; 0; 0; 0x20]%N.
Example two_restored : exists v st', read GE 10 0%N two (VPair (VShared None) (VShared None)) (two_bytes ++ []) {| r_heap := []; r_ptr := [] |} = ROk (v, [], st')
  /\ vsize v + heap_size (r_heap st') = 9 /\ length (addresses (r_heap st')) = 2
  /\ vsize v + heap_size (r_heap st') <= 3 + 2 * 5 * 30 /\ 2 * length (addresses (r_heap st')) <= 30.
Proof.
  eexists. eexists. split; [vm_compute; reflexivity|]. split; [vm_compute; reflexivity|]. split; [vm_compute; reflexivity|].
  assert (K5 : 1 <= 5) by lia. split.
  - eapply (C61_size GE 5 10 0 two (VPair (VShared None) (VShared None)) two_bytes [] {| r_heap := []; r_ptr := [] |} _ _ GE_alloc GE_place K5 GE_compact two_compact). vm_compute. reflexivity.
  - eapply (C61_objects GE 10 0%N two (VPair (VShared None) (VShared None)) two_bytes [] {| r_heap := []; r_ptr := [] |}). vm_compute. reflexivity.
Qed.
Example numbers_restored : exists l, read GE 10 0 (TSeq i32) (VList [VInt 3; VInt 4; VInt 5]) (hex [0x82; 0; 0; 0; 1; 0; 0; 0; 2]%N ++ []) {| r_heap := []; r_ptr := [] |}
  = ROk (VList l, [], {| r_heap := []; r_ptr := [] |}) /\ length l < 9.
Proof.
  eexists. split; [vm_compute; reflexivity|].
  eapply (C61_sequence GE 10 0%N i32 [VInt 3; VInt 4; VInt 5] (hex [0x82; 0; 0; 0; 1; 0; 0; 0; 2]%N) [] {| r_heap := []; r_ptr := [] |}); [occ|vm_compute; reflexivity].
Qed.

(** finding: the bound does not hold when reading fails.  At most eight bytes suffice to create a vector of any size below 2^56 before
    the end of the data is noticed (lib/binary/reflector.h:175-182: the container is resized before its elements are read). *)
Theorem C61_hostile_size_refuted : forall n, (0 < n < 2 ^ 56)%N -> exists bs, length bs <= 8
  /\ forall st, xread GE 2 0 (TSeq i32) (VList []) bs st = XThrow ExIo (VList (repeat (VInt 0) (N.to_nat n))) st.
Proof.
  intros n [Hn Hlt]. destruct (wr_varint_ok n Hlt) as (bs & E). exists bs. split.
  - apply wr_varint_from_spec in E. destruct E as (j & Hj & _ & -> & _). rewrite be_length. lia.
  - intros st. cbn [xread]. unfold xread_body at 1. rewrite <- (app_nil_r bs). rewrite (rd_wr_varint _ _ _ E). cbn [xprim].
    unfold resize. rewrite firstn_nil. cbn [app length]. rewrite Nat.sub_0_r.
    destruct (N.to_nat n) as [|m] eqn:Em; [lia|]. reflexivity.
Qed.
Print Assumptions C61_hostile_size_refuted.

(** finding: nor does it hold for elements the data of which is empty, e.g. objects of a class without members: at most eight bytes
    are enough for any number of them below 2^56, so the hypothesis on elements cannot be dropped *)
Definition cEmpty := mkclass 0 "Empty" [] 0 [] [] [].
Definition GV : genv := {| g_class := fun c => if N.eqb c 0 then Some cEmpty else None; g_lt := fun _ => val_ltb; g_eq := fun _ => val_eqb;
  g_place := fun _ l x => l ++ [x]; g_alloc := g_alloc GE |}.
Theorem C61_empty_elements_refuted : forall n, (n < 2 ^ 56)%N -> exists bs, length bs <= 8
  /\ forall st, read GV 3 0 (TSeq (TStruct 0)) (VList []) bs st = ROk (VList (repeat (VObj []) (N.to_nat n)), [], st).
Proof.
  intros n Hlt. destruct (wr_varint_ok n Hlt) as (bs & E). exists bs. split.
  - apply wr_varint_from_spec in E. destruct E as (j & Hj & _ & -> & _). rewrite be_length. lia.
  - intros st. rewrite read_S. unfold read_body at 1. rewrite <- (app_nil_r bs). rewrite (rd_wr_varint _ _ _ E). cbn [rbind].
    rewrite loopN_loopnat.
    assert (X : forall m acc, loopnat m (fun '(os, acc, s, st) =>
        let o := match os with o :: _ => o | [] => vinit GV (TStruct 0) end in
        let! (x, s', st') := read GV 2 0 (TStruct 0) o s st in ROk (tl os, x :: acc, s', st')) ([], acc, [], st)
      = ROk ([], repeat (VObj []) m ++ acc, [], st)).
    { induction m as [|m IH]; intros acc; [reflexivity|]. cbn [loopnat].
      change (let! (x, s', st') := read GV 2 0 (TStruct 0) (vinit GV (TStruct 0)) [] st in ROk (tl [], x :: acc, s', st'))
        with (@ROk (list val * list val * bytes * rstate) ([], VObj [] :: acc, [], st)).
      cbn [rbind]. rewrite IH. f_equal. f_equal. f_equal. f_equal.
      change (VObj [] :: acc) with (repeat (VObj []) 1 ++ acc). rewrite app_assoc, <- repeat_app. rewrite Nat.add_comm. reflexivity. }
    rewrite X. cbn [rbind]. rewrite app_nil_r. f_equal. f_equal. f_equal. f_equal.
    clear. induction (N.to_nat n) as [|m IH]; [reflexivity|]. cbn [repeat rev]. rewrite IH.
    change [VObj []] with (repeat (VObj []) 1). rewrite <- repeat_app. rewrite Nat.add_comm. reflexivity.
Qed.
Print Assumptions C61_empty_elements_refuted.
Example empty_not_occupies : ~ occupies GV (TStruct 0).
Proof.
  intros O. inversion O as [? _ Hn| | |? O1]; subst; [eapply Hn; reflexivity|].
  inversion O1 as [? rc p Hc Hp Hv|? rc p b Hc Hp Hb|? rc p fd Hc Hp Hf]; subst; injection Hc as <-; injection Hp as <-;
    [apply Hv; reflexivity|destruct Hb|destruct Hf].
Qed.
