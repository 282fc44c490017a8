(** ExamplesHana.v -- the hypotheses of C59 are met by a program with inheritance; stronger claims are false *)
From Coq Require Import String List NArith ZArith Bool Lia.
From Verif Require Import Base BaseFacts Types BinModel JsonModel JsonSpec ExamplesEnv ExamplesBin ExamplesJson HanaSpec PropertiesHana.
Import ListNotations.
Local Open Scope list_scope.
Local Open Scope N_scope.

(** the example program with the unversioned class Sub, which is derived from Node *)
Definition sub : list (string * ty * N * N) := [("tags", TSeq TString, 0, 0); ("when", TDateTime, 0, 0)]%string.
Definition cSub := mkclass 5 "Sub" [1] 0 (rc_layout cNode) (rc_vinit cNode) sub.
Definition classes5 (c : N) : option rtclass := if c =? 5 then Some cSub else classes c.
Definition G5 : genv := with_classes GE classes5.

(** BOOST_HANA_ADAPT_STRUCT for JSON: Node, Derived (with the members inherited from Ver) and Sub; for binary: Node and Sub *)
Definition jfs (c : N) (ms : list (string * ty * N * N)) := map (fun '(n, t, _, _) => jf c n t) ms.
Definition bfs (c : N) (ms : list (string * ty * N * N)) := map (fun '(n, t, a, u) => bf c n t a u) ms.
Definition with_json (L : list jfield) (rc : rtclass) : rtclass :=
  {| rc_name := rc_name rc; rc_layout := rc_layout rc; rc_dinit := rc_dinit rc; rc_vinit := rc_vinit rc; rc_wr := rc_wr rc; rc_rd := rc_rd rc;
     rc_push := hana_json L; rc_pull := Some (hana_json L) |}.
Definition with_binary (L : list bfield) (rc : rtclass) : rtclass :=
  {| rc_name := rc_name rc; rc_layout := rc_layout rc; rc_dinit := rc_dinit rc; rc_vinit := rc_vinit rc; rc_wr := hana_binary L; rc_rd := Some (hana_binary L);
     rc_push := rc_push rc; rc_pull := rc_pull rc |}.
Definition hana5 (c : N) : option rtclass :=
  match c with
  | 1 => Some (with_json (jfs 1 node) (with_binary (bfs 1 node) cNode))
  | 3 => Some (with_json (jfs 2 ver ++ jfs 3 derived) cDerived)
  | 5 => Some (with_json (jfs 1 node ++ jfs 5 sub) (with_binary (bfs 1 node ++ bfs 5 sub) cSub))
  | _ => classes5 c
  end.

Lemma base_members prog c rc p : g_class G5 c = Some rc -> prog rc = Some p -> jp_bases p = [] -> members G5 prog c (jp_fields p).
Proof. intros E1 E2 E3. apply (members_intro G5 prog c rc p [] E1 E2). rewrite E3. constructor. Qed.
Lemma base_unversioned prog c rc p : g_class G5 c = Some rc -> prog rc = Some p -> bp_bases p = [] -> bp_vmax p = 0 ->
  (forall fd, In fd (bp_fields p) -> bf_asof fd = 0 /\ bf_until fd = 0) -> unversioned G5 prog c (bp_fields p).
Proof. intros E1 E2 E3 E4 E5. apply (unversioned_intro G5 prog c rc p [] E1 E2 E4 E5). rewrite E3. constructor. Qed.

Lemma node_hana prog : (prog cNode = Some (rc_push cNode)) -> members G5 prog 1 (jfs 1 node).
Proof. intros E. apply (base_members prog 1 cNode (rc_push cNode) eq_refl E eq_refl). Qed.
Lemma sub_hana prog : prog cNode = Some (rc_push cNode) -> prog cSub = Some (rc_push cSub) -> members G5 prog 5 (jfs 1 node ++ jfs 5 sub).
Proof.
  intros E0 E. apply (members_intro G5 prog 5 cSub (rc_push cSub) [jfs 1 node] eq_refl E). constructor; [apply node_hana; exact E0|constructor].
Qed.
Lemma derived_hana prog : prog cVer = Some (rc_push cVer) -> prog cDerived = Some (rc_push cDerived) -> members G5 prog 3 (jfs 2 ver ++ jfs 3 derived).
Proof.
  intros E0 E. apply (members_intro G5 prog 3 cDerived (rc_push cDerived) [jfs 2 ver] eq_refl E). constructor; [|constructor].
  apply (base_members prog 2 cVer (rc_push cVer) eq_refl E0 eq_refl).
Qed.
Lemma node_hana_b prog : prog cNode = Some (rc_wr cNode) -> unversioned G5 prog 1 (bfs 1 node).
Proof.
  intros E. apply (base_unversioned prog 1 cNode (rc_wr cNode) eq_refl E eq_refl eq_refl).
  intros fd I. cbn in I. intuition (subst; auto).
Qed.
Lemma sub_hana_b prog : prog cNode = Some (rc_wr cNode) -> prog cSub = Some (rc_wr cSub) -> unversioned G5 prog 5 (bfs 1 node ++ bfs 5 sub).
Proof.
  intros E0 E. apply (unversioned_intro G5 prog 5 cSub (rc_wr cSub) [bfs 1 node] eq_refl E eq_refl).
  - intros fd I. cbn in I. intuition (subst; auto).
  - constructor; [apply node_hana_b; exact E0|constructor].
Qed.

Lemma unchanged G c rc : adapted G c rc rc.
Proof. constructor; auto. Qed.
Example hana5_ok : with_hana G5 hana5.
Proof.
  intros c. unfold hana5. cbn [g_class G5 with_classes].
  destruct (N.eq_dec c 1) as [->|N1]; [cbn [classes5 N.eqb classes]|].
  { constructor; try reflexivity; right.
    - exists (jfs 1 node). split; [apply node_hana; reflexivity|reflexivity].
    - exists (jfs 1 node). split; [apply (node_hana rc_pull); reflexivity|reflexivity].
    - exists (bfs 1 node). split; [apply node_hana_b; reflexivity|reflexivity].
    - exists (bfs 1 node). split; [apply (node_hana_b rc_rd); reflexivity|reflexivity]. }
  destruct (N.eq_dec c 3) as [->|N3].
  { constructor; try reflexivity; try (left; reflexivity); right.
    - exists (jfs 2 ver ++ jfs 3 derived). split; [apply derived_hana; reflexivity|reflexivity].
    - exists (jfs 2 ver ++ jfs 3 derived). split; [apply (derived_hana rc_pull); reflexivity|reflexivity]. }
  destruct (N.eq_dec c 5) as [->|N5].
  { constructor; try reflexivity; right.
    - exists (jfs 1 node ++ jfs 5 sub). split; [apply sub_hana; reflexivity|reflexivity].
    - exists (jfs 1 node ++ jfs 5 sub). split; [apply (sub_hana rc_pull); reflexivity|reflexivity].
    - exists (bfs 1 node ++ bfs 5 sub). split; [apply sub_hana_b; reflexivity|reflexivity].
    - exists (bfs 1 node ++ bfs 5 sub). split; [apply (sub_hana_b rc_rd); reflexivity|reflexivity]. }
  assert (E: match c with
             | 1 => Some (with_json (jfs 1 node) (with_binary (bfs 1 node) cNode))
             | 3 => Some (with_json (jfs 2 ver ++ jfs 3 derived) cDerived)
             | 5 => Some (with_json (jfs 1 node ++ jfs 5 sub) (with_binary (bfs 1 node ++ bfs 5 sub) cSub))
             | _ => classes5 c
             end = classes5 c).
  { destruct c as [|p]; [reflexivity|]. destruct p as [[p|[]|]|p|]; try reflexivity; congruence. }
  rewrite E. destruct (classes5 c) as [rc|]; [apply unchanged|exact I].
Qed.
Example G5_finite : finitely_many_classes G5.
Proof.
  exists [0; 1; 2; 3; 4; 5]. intros c Hc. cbn [g_class G5 with_classes] in Hc. unfold classes5 in Hc. destruct (N.eqb_spec c 5) as [E5|_]; [rewrite E5; cbn; auto 10|].
  destruct (classes c) as [rc|] eqn:E; [|congruence]. class_cases E; cbn; auto 10.
Qed.

Definition subval : list (fkey * val) :=
  [((1, B "value"), VInt 4); ((1, B "next"), VShared (Some a1)); ((5, B "tags"), VList [VStr (B "t")]); ((5, B "when"), VInt 12)].
(** the object with inherited members, evaluated with both programs *)
Example sub_both : exists bs, toBinary G5 H3 20 5 subval 0 = ROk bs /\ toBinary (with_classes G5 hana5) H3 20 5 subval 0 = ROk bs
  /\ bs = hex [0; 0; 0; 4; 1; 0x90; 0; 0; 0; 7; 5; 0xFF; 0; 0; 0; 0; 0; 0; 0x20; 0xFF; 0xFF; 0xFF; 0xFF; 0; 0x81; 0x81; 0x74; 0; 0; 0; 0; 0; 0; 0; 12].
Proof. eexists. split; [vm_compute; reflexivity|]. split; [vm_compute; reflexivity|]. vm_compute. reflexivity. Qed.
Example derived_both : push (with_classes G5 hana5) JE H3 20 (TStruct 3) (VObj derived_obj) = ROk derived_doc.
Proof. vm_compute. reflexivity. Qed.
(** an error: the generated code names the class, Boost.Hana does not *)
Example errors_both :
  let doc := JObj [(B "value", JStr (B "x"))] in
  let st := {| p_heap := []; p_err := Some est0 |} in
  exists v e e', pull G5 JE 20 (TStruct 5) (vinit G5 (TStruct 5)) doc st = POk v {| p_heap := []; p_err := Some e |}
    /\ pull (with_classes G5 hana5) JE 20 (TStruct 5) (vinit G5 (TStruct 5)) doc st = POk v {| p_heap := []; p_err := Some e' |}
    /\ map e_record (es_errs e) = [Some (B "Node")] /\ map e_record (es_errs e') = [Some (B "[document]")]
    /\ map e_member (es_errs e) = [Some (B "value")] /\ map e_member (es_errs e') = [Some (B "value")].
Proof. vm_compute. do 3 eexists. repeat split. Qed.
Example hana_has_no_records : forall c rc p, g_class (with_classes GE (fun c => if c =? 1 then hana5 1 else None)) c = Some rc -> rc_pull rc = Some p -> jp_record p = None.
Proof. intros c rc p. cbn. destruct (c =? 1); [|discriminate]. intros [= <-]. cbn. intros [= <-]. reflexivity. Qed.

(** C59: a versioned class cannot be replaced: Boost.Hana writes no version *)
Theorem C59_versioned_refuted :
  let fs := [((2, B "a"), VInt 1); ((2, B "b"), VStr []); ((2, B "c"), VInt 2); ((2, B "d"), VOpt None)] in
  let hana c := if c =? 2 then Some (with_binary (bfs 2 ver) cVer) else classes c in
  exists bs bs', toBinary GE [] 20 2 fs 0 = ROk bs /\ toBinary (with_classes GE hana) [] 20 2 fs 0 = ROk bs' /\ bs <> bs'.
Proof. vm_compute. do 2 eexists. repeat split. discriminate. Qed.
(** C59: adapting a class without its inherited members is something else *)
Theorem C59_own_members_only_refuted :
  let hana c := if c =? 3 then Some (with_json (jfs 3 derived) cDerived) else classes c in
  push (with_classes GE hana) JE H3 20 (TStruct 3) (VObj derived_obj) <> push GE JE H3 20 (TStruct 3) (VObj derived_obj).
Proof. vm_compute. discriminate. Qed.

Print Assumptions C59_versioned_refuted.
Print Assumptions C59_own_members_only_refuted.
