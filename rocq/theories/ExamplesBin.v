(** ExamplesBin.v -- the hypotheses of the theorems in PropertiesBin.v are met by concrete
    classes and object graphs; the model reproduces the bytes expected by
    /repo/lib/tests/binaryreflector.cpp; counterexamples to stronger claims *)
From Coq Require Import String List NArith ZArith Bool Lia Permutation.
From Verif Require Import Base BaseFacts Bytes Types TypesFacts BinModel BinSpec BinSafeSpec BinFacts ContFacts BinTerm BinTop BinMore BinPaths ExamplesEnv.
Import ListNotations.
Local Open Scope string_scope.
Local Open Scope list_scope.
Local Open Scope N_scope.

(** lib/tests/binaryreflector.cpp:230-253 *)
Definition test_object : list (fkey * val) :=
  [((0, B "number"), VInt 5); ((0, B "number2"), VF64 0x4004000000000000); ((0, B "numbers"), VList [VInt 1; VInt 2; VInt 3; VInt 4; VInt 5]);
   ((0, B "text"), VStr (B "some text")); ((0, B "boolean"), VBool true);
   ((0, B "someMap"), VList [VPair (VStr (B "bar")) (VInt 19); VPair (VStr (B "foo")) (VInt 17)]); ((0, B "someHash"), VList []);
   ((0, B "someSet"), VList [VStr (B "1"); VStr (B "2"); VStr (B "3")]);
   ((0, B "someMultiset"), VList [VStr (B "1"); VStr (B "2"); VStr (B "2"); VStr (B "3")]);
   ((0, B "someUnorderedSet"), VList []); ((0, B "someUnorderedMultiset"), VList []);
   ((0, B "someEnum"), VInt 1); ((0, B "someEnumClass"), VInt 2); ((0, B "timeSpan"), VInt 0xABCD); ((0, B "dateTime"), VInt 0xEFAB)].
(** lib/tests/binaryreflector.cpp:190-223 *)
Definition expected_bytes : bytes := hex [
   0x00; 0x00; 0x00; 0x05;
   0x40; 0x04; 0x00; 0x00; 0x00; 0x00; 0x00; 0x00;
   0x85; 0x00; 0x00; 0x00; 0x01; 0x00; 0x00; 0x00; 0x02; 0x00; 0x00; 0x00; 0x03; 0x00; 0x00; 0x00; 0x04; 0x00; 0x00; 0x00; 0x05;
   0x89; 0x73; 0x6F; 0x6D; 0x65; 0x20; 0x74; 0x65; 0x78; 0x74;
   0x01;
   0x82; 0x83; 0x62; 0x61; 0x72; 0x00; 0x00; 0x00; 0x13; 0x83; 0x66; 0x6f; 0x6f; 0x00; 0x00; 0x00; 0x11;
   0x80;
   0x83; 0x81; 0x31; 0x81; 0x32; 0x81; 0x33;
   0x84; 0x81; 0x31; 0x81; 0x32; 0x81; 0x32; 0x81; 0x33;
   0x80; 0x80;
   0x00; 0x00; 0x00; 0x01; 0x00; 0x02;
   0x00; 0x00; 0x00; 0x00; 0x00; 0x00; 0xAB; 0xCD;
   0x00; 0x00; 0x00; 0x00; 0x00; 0x00; 0xEF; 0xAB].

(** testSerializeSimpleStruct, testDeserializeSimpleStruct *)
Example test_serialize : toBinary GE [] 10 0 test_object 0 = ROk expected_bytes.
Proof. vm_compute. reflexivity. Qed.
Example test_deserialize : restoreFromBinary GE 10 0 (rc_vinit cTest) expected_bytes []
  = ROk (test_object, 0, [], {| r_heap := []; r_ptr := [] |}).
Proof. vm_compute. reflexivity. Qed.

(** ** a cyclic object graph: two nodes referring to each other, one address beyond 2^55 *)
Definition a1 : N := 16.
Definition a2 : N := 0xFF00000000000020.
Definition nodeval (v : Z) (n : option N) : val := VObj [((1, B "value"), VInt v); ((1, B "next"), VShared n)].
Definition HC : heap := [(a1, (TStruct 1, nodeval 7 (Some a2))); (a2, (TStruct 1, nodeval (-1) (Some a1)))].

Lemma node_visits : visits GE 0 0 1 [mkvisit 0 0 (bf 1 "value" i32 0 0); mkvisit 0 0 (bf 1 "next" (TShared (TStruct 1)) 0 0)].
Proof.
  change [mkvisit 0 0 (bf 1 "value" i32 0 0); mkvisit 0 0 (bf 1 "next" (TShared (TStruct 1)) 0 0)]
    with (concat [] ++ [mkvisit 0 0 (bf 1 "value" i32 0 0); mkvisit 0 0 (bf 1 "next" (TShared (TStruct 1)) 0 0)])%list.
  eapply visits_intro; [reflexivity|reflexivity|reflexivity|reflexivity|constructor|]. cbn. split; reflexivity.
Qed.

Ltac nodup := repeat constructor; cbn; intuition congruence.

Lemma node_good H v n : in_range KI32 v = true ->
  (forall a, n = Some a -> exists x, hget H a = Some (TStruct 1, x)) ->
  good GE H false 0 0 (TStruct 1) (vinit GE (TStruct 1)) (nodeval v n).
Proof.
  intros Hv Hn. cbn [vinit]. eapply g_struct_once with (rc := cNode).
  - reflexivity.
  - reflexivity.
  - reflexivity.
  - nodup.
  - apply node_visits.
  - nodup.
  - intros x [<-|[<-|[]]]; reflexivity.
  - intros x o w [<-|[<-|[]]]; vm_compute; intros E1 E2; inversion E1; inversion E2; subst.
    + apply g_int; [reflexivity|exact Hv].
    + destruct n as [a|]; [|apply g_shared_none]. destruct (Hn a eq_refl) as [x Hx]. eapply g_shared_some. exact Hx.
  - intros k w Hk Ew. exfalso. apply Hk. cbn. unfold nodeval in Ew. cbn [alookup] in Ew.
    destruct (fkey_eqb k (1, B "value")) eqn:E1; [left; symmetry; apply fkey_eqb_eq; exact E1|].
    destruct (fkey_eqb k (1, B "next")) eqn:E2; [right; left; symmetry; apply fkey_eqb_eq; exact E2|discriminate].
Qed.

Example HC_good : heap_good GE HC.
Proof.
  intros a t x E. unfold HC, hget in E. cbn [alookup] in E.
  destruct (a =? a1) eqn:E1; [|destruct (a =? a2) eqn:E2; [|discriminate]].
  - apply N.eqb_eq in E1. inversion E; subst. split; [reflexivity|]. apply node_good; [reflexivity|].
    intros b Eb. inversion Eb; subst. eexists. vm_compute. reflexivity.
  - apply N.eqb_eq in E2. inversion E; subst. split; [reflexivity|]. apply node_good; [reflexivity|].
    intros b Eb. inversion Eb; subst. eexists. vm_compute. reflexivity.
Qed.

(** the pair of pointers to both nodes: hypotheses of C04..C08 and C13 *)
Definition two : ty := TPair (TShared (TStruct 1)) (TShared (TStruct 1)).
Example cyclic_good : good GE HC false 0 0 two (vinit GE two) (VPair (VShared (Some a1)) (VShared (Some a2))).
Proof. apply g_pair; eapply g_shared_some; reflexivity. Qed.
Example cyclic_bytes : write GE HC 10 0 two (VPair (VShared (Some a1)) (VShared (Some a2))) [] =
  ROk (hex [1; 0x90;  0; 0; 0; 7;  5; 0xFF; 0; 0; 0; 0; 0; 0; 0x20;  0xFF; 0xFF; 0xFF; 0xFF;  2; 0x90;
            6; 0xFF; 0; 0; 0; 0; 0; 0; 0x20], [a2; a1]).
Proof. vm_compute. reflexivity. Qed.
Example cyclic_restored :
  read GE 10 0 two (vinit GE two) (hex [1; 0x90;  0; 0; 0; 7;  5; 0xFF; 0; 0; 0; 0; 0; 0; 0x20;  0xFF; 0xFF; 0xFF; 0xFF;  2; 0x90;
            6; 0xFF; 0; 0; 0; 0; 0; 0; 0x20]) {| r_heap := []; r_ptr := [] |}
  = ROk (VPair (VShared (Some 1)) (VShared (Some 2)), [],
      {| r_heap := [(1, (TStruct 1, nodeval 7 (Some 2))); (2, (TStruct 1, nodeval (-1) (Some 1))); (2, (TStruct 1, nodeval 0 None)); (1, (TStruct 1, nodeval 0 None))];
         r_ptr := [(a2, (2, TStruct 1)); (a1, (1, TStruct 1))] |}).
Proof. vm_compute. reflexivity. Qed.

(** ** versions: the members of version 2 of class [Ver] (hypotheses of C15..C17) *)
Definition ver_obj : list (fkey * val) :=
  [((2, B "a"), VInt 1); ((2, B "b"), VStr (B "hi")); ((2, B "c"), VInt 3); ((2, B "d"), VOpt (Some (nodeval 4 None)))].
Lemma ver_visits v : v = 0 \/ v = 1 \/ v = 2 \/ v = 3 -> exists L, visits GE v 0 2 L /\ map (fun x => snd (vi_key x)) L =
   (if v =? 1 then [B "a"; B "c"] else if v =? 2 then [B "a"; B "b"; B "c"] else [B "a"; B "b"; B "d"]).
Proof.
  intros Hv. eexists (concat [] ++ _)%list. split.
  - eapply visits_intro; [reflexivity|reflexivity|reflexivity|reflexivity|constructor|].
    change (bp_vmax (rc_wr cVer) =? 0) with false. cbv iota. eexists. split; [reflexivity|].
    split; [destruct Hv as [->|[->|[->| ->]]]; vm_compute; discriminate|].
    split; [destruct Hv as [->|[->|[->| ->]]]; vm_compute; reflexivity|].
    split; reflexivity.
  - destruct Hv as [->|[->|[->| ->]]]; vm_compute; reflexivity.
Qed.
Example ver2_bytes : toBinary GE [] 10 2 ver_obj 2 = ROk (hex [0x82; 0; 0; 0; 1; 0x82; 0x68; 0x69; 0; 0; 0; 3]).
Proof. vm_compute. reflexivity. Qed.
Example ver_default_bytes : toBinary GE [] 10 2 ver_obj 0 = ROk (hex [0x83; 0; 0; 0; 1; 0x82; 0x68; 0x69; 1; 0; 0; 0; 4; 0]).
Proof. vm_compute. reflexivity. Qed.
(** reading version 2 leaves member "d" alone *)
Example ver2_restored : restoreFromBinary GE 10 2 (rc_vinit cVer) (hex [0x82; 0; 0; 0; 1; 0x82; 0x68; 0x69; 0; 0; 0; 3]) [] =
  ROk ([((2, B "a"), VInt 1); ((2, B "b"), VStr (B "hi")); ((2, B "c"), VInt 3); ((2, B "d"), VOpt None)], 2, [], {| r_heap := []; r_ptr := [] |}).
Proof. vm_compute. reflexivity. Qed.
(** version 4 is refused *)
Example ver4_refused : restoreFromBinary GE 10 2 (rc_vinit cVer) (hex [0x84; 0; 0]) [] = RThrow (ExVersion 4 3 (B "Ver")).
Proof. vm_compute. reflexivity. Qed.

(** hypotheses of C15_others_no_influence: "d" is not part of version 2 *)
Example d_not_in_2 : ~ written GE 2 2 (2, B "d") /\ written GE 2 2 (2, B "c") /\ written GE 3 2 (2, B "d").
Proof.
  split; [|split].
  - intros Hw. inversion Hw as [c rc fd Hc Hf Hv E1 E2|c rc b k Hc Hb _ E1 E2]; subst.
    + inversion Hc; subst. vm_compute in Hf. destruct Hf as [<-|[<-|[<-|[<-|[]]]]]; vm_compute in E2, Hv; congruence.
    + inversion Hc; subst. vm_compute in Hb. destruct Hb.
  - change (2, B "c") with (bf_key (bf 2 "c" i32 0 2)). eapply written_own; [reflexivity|vm_compute; tauto|reflexivity].
  - change (2, B "d") with (bf_key (bf 2 "d" (TOptional (TStruct 1)) 3 0)). eapply written_own; [reflexivity|vm_compute; tauto|reflexivity].
Qed.
(** hypotheses of C04_to_and_from_binary and C04_from_binary: a node of the cyclic graph *)
Example node_object_good : good GE HC false 0 0 (TStruct 1) (VObj (rc_dinit cNode)) (nodeval 3 (Some a1))
  /\ restored_version GE 0 0 1 = 0 /\ restored_version GE 2 0 2 = 2 /\ restored_version GE 0 0 2 = 3.
Proof.
  split; [|vm_compute; auto].
  assert (E: VObj (rc_dinit cNode) = vinit GE (TStruct 1)) by reflexivity. rewrite E.
  apply node_good; [reflexivity|]. intros b Eb. inversion Eb; subst. eexists. vm_compute. reflexivity.
Qed.
(** hypotheses of C07_further_occurrence *)
Example further_occurrence : exists bs W,
  write_values GE HC 10 [(0, two, VPair (VShared (Some a1)) (VShared (Some a2))); (0, TShared (TStruct 1), VShared (Some a2))] [] = ROk (bs, W).
Proof. eexists. eexists. vm_compute. reflexivity. Qed.

(** ** reading arbitrary bytes: hypotheses of C10 *)
Lemma z0_typed t : In t (map (fun '(n, t, a, u) => t) (testobj ++ node ++ ver ++ derived)) -> has_type GE false [] t (z0 t).
Proof.
  cbn. intros HH. repeat (destruct HH as [<-|HH]; [clear; cbn [z0];
    solve [constructor; first [reflexivity | intros ? [] | intros ? ? []]
          | constructor
          | apply ht_map; [intros ? []|intros ? ? []|intros ? ? []]
          | eapply ht_variant; [reflexivity|constructor; reflexivity]]|]).
  destruct HH.
Qed.

Lemma plain_typed c rc ms : classes c = Some rc -> rc_layout rc = plain_layout c ms ->
  (forall n t a u, In (n, t, a, u) ms -> In t (map (fun '(n, t, a, u) => t) (testobj ++ node ++ ver ++ derived))) ->
  has_type GE false [] (TStruct c) (VObj (inits c ms)).
Proof.
  intros Hc Hl Hm. eapply ht_struct with (rc := rc); [exact Hc| |].
  - rewrite Hl. unfold inits, plain_layout. rewrite !map_map. apply map_ext. intros [[[n t] a] u]. reflexivity.
  - rewrite Hl. intros k t v. apply (vinit_typed ms c rc). intros n t' a u Hin. apply z0_typed. eapply Hm. exact Hin.
Qed.

Lemma in_all (l m r : list (string * ty * N * N)) n t a u : In (n, t, a, u) m -> In t (map (fun '(n, t, a, u) => t) (l ++ m ++ r)).
Proof. intros Hin. apply in_map_iff. exists (n, t, a, u). split; [reflexivity|]. apply in_or_app. right. apply in_or_app. left. exact Hin. Qed.

Lemma alookup_app_some {V} k (l m : list (fkey * V)) v : alookup fkey_eqb k (l ++ m) = Some v ->
  alookup fkey_eqb k l = Some v \/ alookup fkey_eqb k m = Some v.
Proof. induction l as [|[k' w] l IH]; cbn; [auto|]. destruct (fkey_eqb k k'); auto. Qed.
Lemma alookup_app_l {V} k (l m : list (fkey * V)) v : alookup fkey_eqb k l = Some v -> alookup fkey_eqb k (l ++ m) = Some v.
Proof. induction l as [|[k' w] l IH]; cbn; [discriminate|]. destruct (fkey_eqb k k'); auto. Qed.

Lemma GE_init c rc : classes c = Some rc -> has_type GE false [] (TStruct c) (VObj (rc_vinit rc)).
Proof.
  intros Hc. assert (Hcc := Hc). class_cases Hc.
  - apply (plain_typed 0 cTest testobj); [reflexivity|reflexivity|]. intros n t a u Hin. eapply (in_all [] testobj). exact Hin.
  - apply (plain_typed 1 cNode node); [reflexivity|reflexivity|]. intros n t a u Hin. apply (in_all testobj node (ver ++ derived) n t a u). exact Hin.
  - apply (plain_typed 2 cVer ver); [reflexivity|reflexivity|]. intros n t a u Hin. apply (in_all (testobj ++ node) ver derived n t a u). exact Hin.
  - eapply ht_struct with (rc := cDerived); [reflexivity|reflexivity|].
    intros k t v E1 E2.
    assert (HT: forall k t v, alookup fkey_eqb k (plain_layout 2 ver) = Some t -> alookup fkey_eqb k (inits 2 ver) = Some v -> has_type GE false [] t v).
    { apply (vinit_typed ver 2 cVer). intros n t' a u Hin. apply z0_typed. apply (in_all (testobj ++ node) ver derived n t' a u). exact Hin. }
    cbn [rc_layout rc_vinit cDerived mkclass] in E1, E2.
    assert (D: forall k t v, alookup fkey_eqb k (plain_layout 3 derived) = Some t -> alookup fkey_eqb k (inits 3 derived) = Some v -> has_type GE false [] t v).
    { apply (vinit_typed derived 3 cVer). intros n t' a u Hin. apply z0_typed. apply (in_all (testobj ++ node ++ ver) derived []  n t' a u) in Hin. cbn in Hin |- *. exact Hin. }
    (* the keys of the two parts are disjoint: they name their class *)
    assert (K1: forall k (x : ty), alookup fkey_eqb k (plain_layout 2 ver) = Some x -> fst k = 2).
    { intros k0 x Ex. apply (alookup_some_key _ fkey_eqb_eq) in Ex. cbn in Ex. intuition (subst; reflexivity). }
    assert (K2: forall k (x : ty), alookup fkey_eqb k (plain_layout 3 derived) = Some x -> fst k = 3).
    { intros k0 x Ex. apply (alookup_some_key _ fkey_eqb_eq) in Ex. cbn in Ex. intuition (subst; reflexivity). }
    assert (K3: forall k (x : val), alookup fkey_eqb k (inits 2 ver) = Some x -> fst k = 2).
    { intros k0 x Ex. apply (alookup_some_key _ fkey_eqb_eq) in Ex. cbn in Ex. intuition (subst; reflexivity). }
    assert (K4: forall k (x : val), alookup fkey_eqb k (inits 3 derived) = Some x -> fst k = 3).
    { intros k0 x Ex. apply (alookup_some_key _ fkey_eqb_eq) in Ex. cbn in Ex. intuition (subst; reflexivity). }
    apply alookup_app_some in E1. apply alookup_app_some in E2. destruct E1 as [E1|E1], E2 as [E2|E2].
    + eapply HT; eauto.
    + apply K1 in E1. apply K4 in E2. congruence.
    + apply K2 in E1. apply K3 in E2. congruence.
    + eapply D; eauto.
  - eapply ht_struct with (rc := cOuter); [reflexivity|reflexivity|]. intros k t v E1 E2. cbn -[B] in E1, E2.
    destruct (fkey_eqb k (4, B "inner")); [inversion E1; inversion E2; subst|].
    + apply (plain_typed 2 cVer ver); [reflexivity|reflexivity|]. intros n t a u Hin. apply (in_all (testobj ++ node) ver derived n t a u). exact Hin.
    + destruct (fkey_eqb k (4, B "list")); [inversion E1; inversion E2; subst|discriminate]. constructor. intros ? [].
Qed.

Example GE_env_ok : env_ok GE false.
Proof.
  constructor.
  - intros c rc Hc. apply GE_init. exact Hc.
  - intros c rc Hc. assert (E: rc_dinit rc = rc_vinit rc) by (cbn in Hc; class_cases Hc; reflexivity). rewrite E. apply GE_init. exact Hc.
  - intros c rc p fd Hc Hp Hin. cbn in Hc. class_cases Hc; inversion Hp; subst; cbn in Hin;
      repeat (destruct Hin as [<-|Hin]; [split; [vm_compute; reflexivity|cbn;
        repeat match goal with
        | |- _ /\ _ => split
        | |- True => exact I
        | |- _ = _ => reflexivity
        | |- _ <> _ => discriminate
        | |- TMono = TMono \/ _ => left
        | |- _ \/ _ => right
        | |- exists _, _ => eexists
        end]|]); destruct Hin.
  - intros c rc p b Hc Hp Hin. cbn in Hc. class_cases Hc; inversion Hp; subst; cbn in Hin; try contradiction.
    destruct Hin as [<-|[]]. eexists _, _. split; [reflexivity|]. split; [reflexivity|]. intros k t E. apply alookup_app_l. exact E.
Qed.
Example GE_by_value : by_value_ok GE.
Proof.
  exists (fun c : N => if (2 <? c)%N then 2%nat else if (c =? 0)%N then 0%nat else 1%nat). intros c rc p Hc Hp. cbn in Hc.
  class_cases Hc; inversion Hp; subst; split; intros x Hin; cbn in Hin;
    repeat (destruct Hin as [<-|Hin]; [cbn; lia|]); try destruct Hin.
Qed.
Example GE_no_cycle : no_base_cycle GE.
Proof.
  exists (fun c : N => if (2 <? c)%N then 2%nat else if (c =? 0)%N then 0%nat else 1%nat). intros c rc b Hc Hin. cbn in Hc.
  class_cases Hc; cbn in Hin; repeat (destruct Hin as [<-|Hin]; [cbn; lia|]); try destruct Hin.
Qed.
Example empty_state_ok : state_ok GE false {| r_heap := []; r_ptr := [] |}.
Proof. constructor; cbn; intros; discriminate. Qed.
Example two_readable : readable GE two /\ has_type GE false [] two (vinit GE two).
Proof. split; [split; cbn; eexists _, _; split; reflexivity|]. apply ht_pair; apply ht_shared_none. Qed.

(** a hostile back reference (hypotheses of C11) *)
Example dangling : read GE 10 0 (TShared (TStruct 1)) (VShared None) (hex [2; 0x90]) {| r_heap := []; r_ptr := [(16, (3, TString))] |} = RThrow ExConv.
Proof. vm_compute. reflexivity. Qed.

(** following the cycle (hypotheses of [same_graph], C06): two paths to the same object *)
Example cyclic_paths : exists t1 t2,
  at_path GE HC two (VPair (VShared (Some a1)) (VShared (Some a2)))
    [SFst; STarget; SMember (1, B "next"); STarget; SMember (1, B "next")] t1 (VShared (Some a1))
  /\ at_path GE HC two (VPair (VShared (Some a1)) (VShared (Some a2))) [SFst] t2 (VShared (Some a1)).
Proof.
  eexists _, _. split.
  - apply ap_fst. eapply ap_target; [reflexivity|]. eapply ap_member; [reflexivity..|]. eapply ap_target; [reflexivity|].
    eapply ap_member; [reflexivity..|]. apply ap_here.
  - apply ap_fst, ap_here.
Qed.
(** a size not written by the library: 5 in two bytes (C02); a flag byte other than 0 and 1 (C03) *)
Example long_varint : rd_varint (hex [0x40; 5; 9]) = ROk (5, hex [9]) /\ 2 ^ (8 - N.of_nat 2) <= bval (mkb 0x40) < 2 ^ (9 - N.of_nat 2).
Proof. split; [vm_compute; reflexivity|]. vm_compute. split; [discriminate|reflexivity]. Qed.
Example flag_byte : read GE 10 0 (TOptional TBool) (VOpt None) (hex [7; 2]) {| r_heap := []; r_ptr := [] |} = ROk (VOpt (Some (VBool true)), [], {| r_heap := []; r_ptr := [] |}).
Proof. vm_compute. reflexivity. Qed.

(** ** stronger claims which are false of the code *)

(** Not every object written with the default version can be read back: a member of a class
    with a lower own version is written with the outer class' version
    (generator/binaryserializationcodegenerator.cpp:276-291 passes [version] on). *)
Definition outer_obj : list (fkey * val) := [((4, B "inner"), VObj ver_obj); ((4, B "list"), VList [])].
Theorem C16_nested_default_version_refuted : exists bs,
  toBinary GE [] 10 4 outer_obj 0 = ROk bs
  /\ restoreFromBinary GE 10 4 (rc_vinit cOuter) bs [] = RThrow (ExVersion 5 3 (B "Ver")).
Proof. eexists. split; [vm_compute; reflexivity|]. vm_compute. reflexivity. Qed.

(** Writing does not check the requested version: what is written for an unsupported version
    cannot be read. *)
Theorem C16_write_unchecked_refuted : exists bs,
  toBinary GE [] 10 2 ver_obj 9 = ROk bs
  /\ restoreFromBinary GE 10 2 (rc_vinit cVer) bs [] = RThrow (ExVersion 9 3 (B "Ver")).
Proof. eexists. split; [vm_compute; reflexivity|]. vm_compute. reflexivity. Qed.

(** Two shared pointers with the same address but different types (aliasing constructor, base
    and derived class pointers) do not survive: the second one is a mistyped back reference. *)
Theorem C06_aliasing_refuted : exists bs W,
  let H := [(16, (TInt KI32, VInt 1))] in
  write GE H 10 0 (TPair (TShared (TInt KI32)) (TShared (TEnum KI32))) (VPair (VShared (Some 16)) (VShared (Some 16))) [] = ROk (bs, W)
  /\ read GE 10 0 (TPair (TShared (TInt KI32)) (TShared (TEnum KI32))) (VPair (VShared None) (VShared None)) bs {| r_heap := []; r_ptr := [] |} = RThrow ExConv.
Proof. eexists _, _. split; [vm_compute; reflexivity|]. vm_compute. reflexivity. Qed.

(** Reading into a set which is not empty does not give the stored value. *)
Theorem C14_set_not_replaced_refuted : exists bs W v s st,
  write GE [] 10 0 (TSet true false i32) (VList [VInt 1]) [] = ROk (bs, W)
  /\ read GE 10 0 (TSet true false i32) (VList [VInt 2]) bs {| r_heap := []; r_ptr := [] |} = ROk (v, s, st)
  /\ v = VList [VInt 1; VInt 2].
Proof. do 5 eexists. split; [vm_compute; reflexivity|]. split; [vm_compute; reflexivity|]. vm_compute. reflexivity. Qed.

Print Assumptions C16_nested_default_version_refuted.
Print Assumptions C16_write_unchecked_refuted.
Print Assumptions C06_aliasing_refuted.
Print Assumptions C14_set_not_replaced_refuted.
