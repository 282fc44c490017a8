(** ExamplesSize.v -- the hypotheses of PropertiesSize.v are met; what is not bounded (property C66) *)
From Coq Require Import String List NArith ZArith Bool Arith Lia.
From Verif Require Import Base BaseFacts Types TypesFacts BinModel BinSpec BinSafeSpec FuelFacts GenModel Float JsonModel JsonRel JsonText JsonTextSpec JsonTextFacts JsonSpec JsonSafeSpec JsonSafe
  JsonFacts DispatchSpec SerSpec BoundSpec BoundFacts JBoundSpec JBoundFacts JTreeSpec JTreeFacts ExamplesEnv ExamplesBin ExamplesJson ExamplesText ExamplesDispatch ExamplesSer ExamplesBound ExamplesJBound
  ExamplesJTree SizeSpec SizeBin SizeJson SizeText PropertiesSize.
Import ListNotations.
Local Open Scope string_scope.
Local Open Scope list_scope.
Local Open Scope nat_scope.

(** the classes of the example: at most two versions (Derived and its base class), names of at most 21 characters *)
Lemma no_base_written c rc : g_class GE c = Some rc -> bp_bases (rc_wr rc) = [] ->
  writes GE c (concat [] ++ bp_fields (rc_wr rc)) (list_sum [] + (if N.eqb (bp_vmax (rc_wr rc)) 0 then 0 else 1)).
Proof. intros Ec Eb. constructor; [exact Ec|]. rewrite Eb. constructor. Qed.
Example GE_written_once : written_once GE 2.
Proof.
  intros c rc Hc. cbn [g_class GE] in Hc. class_cases Hc.
  4: { eexists. eexists. split; [|split].
       - eapply writes_intro with (c := 3%N) (rc := cDerived); [reflexivity|]. cbn [cDerived mkclass rc_wr prog bp_bases]. constructor; [|constructor].
         eapply (no_base_written 2%N cVer); reflexivity.
       - nodup.
       - vm_compute. lia. }
  all: eexists; eexists; split; [eapply no_base_written; reflexivity|split; [nodup|vm_compute; lia]].
Qed.
Lemma no_base_pushed c rc : g_class GE c = Some rc -> jp_bases (rc_push rc) = [] -> members GE pushed_by c (jp_fields (rc_push rc)).
Proof. intros Ec Eb. change (jp_fields (rc_push rc)) with (concat [] ++ jp_fields (rc_push rc)). econstructor; [exact Ec|reflexivity|]. rewrite Eb. constructor. Qed.
Ltac short_names := let fd := fresh in let I := fresh in intros fd I; cbn in I; repeat (destruct I as [<- | I]; [vm_compute; lia|]); destruct I.
Example GE_pushed_once : pushed_once GE 21.
Proof.
  intros c rc Hc. cbn [g_class GE] in Hc. class_cases Hc.
  4: exists L3; split; [exact L3_pushed|split; [nodup|short_names]].
  all: eexists; split; [eapply no_base_pushed; reflexivity|split; [nodup|short_names]].
Qed.
(** dates are printed as numbers of 64 bits, doubles as their bits *)
Definition JS : jenv := {| je_dt_print := fun z => itoa (z mod 2 ^ 64); je_dt_parse := parse_z KU64; je_ts_print := fun z => itoa (z mod 2 ^ 64); je_ts_parse := parse_z KI64 |}.
Example JS_short : short_dates JS 20.
Proof. intros z. assert (0 <= z mod 2 ^ 64 < 2 ^ 64)%Z by (apply Z.mod_pos_bound; lia). split; apply itoa_length; lia. Qed.
Definition TS : tenv := {| te_dtoa := fun n => dec (n mod 2 ^ 64) ++ bs ".0"; te_strtod := te_strtod TW |}.
Example TS_short : forall n, f64_finite n = true -> length (te_dtoa TS n) <= 22.
Proof.
  intros n _. cbn [te_dtoa TS]. rewrite app_length. change (length (bs ".0")) with 2. enough (length (dec (n mod 2 ^ 64)) <= 20) by lia.
  apply dec_length; [|lia]. assert (n mod 2 ^ 64 < 2 ^ 64)%N by (apply N.mod_lt; discriminate). change (10 ^ N.of_nat 20)%N with 100000000000000000000%N. lia.
Qed.

(** the bounds applied: two nodes which refer to each other (binary), the same nodes without the cycle (JSON), a text and the text made of it *)
Example cyclic_short : exists bs W, BinModel.write GE HC 20 0 two (VPair (VShared (Some a1)) (VShared (Some a2))) [] = ROk (bs, W)
  /\ length bs <= 25 * (vsize (VPair (VShared (Some a1)) (VShared (Some a2))) + heap_size HC).
Proof.
  destruct (BinModel.write GE HC 20 0 two (VPair (VShared (Some a1)) (VShared (Some a2))) []) as [[bs W]| | | |] eqn:E; try (vm_compute in E; discriminate).
  exists bs, W. split; [reflexivity|]. pose proof (C66_binary GE HC 2 20 0 two _ [] bs W GE_written_once E) as B.
  change (unwritten HC []) with (heap_size HC) in B. change (9 + 8 * 2) with 25 in B. lia.
Qed.
Example derived_short : exists bs, toBinary GE H3 20 3 derived_obj 0 = ROk bs /\ length bs = 64 /\ length bs <= 25 * (vsize (VObj derived_obj) + heap_size H3).
Proof.
  destruct (toBinary GE H3 20 3 derived_obj 0) as [bs| | | |] eqn:E; try (vm_compute in E; discriminate). exists bs. split; [reflexivity|]. pose proof (C66_toBinary GE H3 2 20 3 derived_obj 0 bs GE_written_once E) as B.
  split; [vm_compute in E; injection E as <-; vm_compute; reflexivity|]. exact B.
Qed.

(** the nodes of H3 belong to one object each *)
Example derived_unshared : unshared H3 (VObj derived_obj).
Proof.
  intros a. destruct (N.eq_dec a a1) as [-> |N1]; [vm_compute; lia|]. destruct (N.eq_dec a a2) as [-> |N2]; [vm_compute; lia|].
  assert (E1 : N.eqb a a1 = false) by (apply N.eqb_neq; congruence). assert (E2 : N.eqb a a2 = false) by (apply N.eqb_neq; congruence).
  assert (P : pointers a (VObj derived_obj) = 0) by (cbn; rewrite ?E1, ?E2; reflexivity).
  assert (Q : heap_pointers a H3 = 0) by (cbn; rewrite ?E1, ?E2; reflexivity). lia.
Qed.
Example derived_json_short : exists j, push GE JS H3 20 (TStruct 3) (VObj derived_obj) = ROk j /\ jsize j <= 52 * (vsize (VObj derived_obj) + heap_size H3).
Proof.
  destruct (push GE JS H3 20 (TStruct 3) (VObj derived_obj)) as [j| | | |] eqn:E; try (vm_compute in E; discriminate). exists j. split; [reflexivity|].
  exact (C66_json_unshared GE JS H3 21 20 20 (TStruct 3) (VObj derived_obj) j GE_pushed_once JS_short derived_unshared E).
Qed.
Example text_again_short : exists v st' text', fromJsonText TS GE JS 20 (TStruct 3) derived_text {| p_heap := []; p_err := None |} = Some (POk v st')
  /\ toJson TS GE JS (p_heap st') 20 (TStruct 3) v = ROk text' /\ length text' <= (24 + 22) * (21 + 20 + 11) * (Nat.max (vsize (dinit GE (TStruct 3))) (vsize (vinit GE (TStruct 3))) + 7 * length derived_text).
Proof.
  destruct (fromJsonText TS GE JS 20 (TStruct 3) derived_text {| p_heap := []; p_err := None |}) as [[v st'| | | |]|] eqn:E; try (vm_compute in E; discriminate).
  destruct (toJson TS GE JS (p_heap st') 20 (TStruct 3) v) as [text'| | | |] eqn:E'; try (vm_compute in E; injection E as <- <-; vm_compute in E'; discriminate).
  exists v, st', text'. split; [reflexivity|]. split; [exact E'|].
  destruct text_hyps as (HA & HP & HE & HC & _ & Tk & Hp & HT). assert (K7 : 1 <= 7) by lia.
  pose proof (C66_text_again TS GE JS 7 21 20 22 20 (TStruct 3) derived_text {| p_heap := []; p_err := None |} v st' 20 text' HA HP GE_plain HE HC GE_pushers_ok GE_variants_small TW_bits
    Tk Hp (proj1 (proj2 derived_writable)) I K7 GE_jcompact GE_distinct I GE_pushed_once JS_short TS_short eq_refl E E') as B.
  exact B.
Qed.

(** finding: objects which are shared are serialised as JSON as often as they are reached: n objects, each of which refers to the next one twice, become 2^n values.
    The binary format writes each of them once (C66_binary). *)
Fixpoint dag_type (n : nat) : ty := match n with O => i32 | S n' => TShared (TPair (dag_type n') (dag_type n')) end.
Definition dag_val (n : nat) : val := match n with O => VInt 0 | S n' => VShared (Some (N.of_nat n')) end.
Fixpoint dag_heap (n : nat) : heap := match n with O => [] | S n' => (N.of_nat n', (TPair (dag_type n') (dag_type n'), VPair (dag_val n') (dag_val n'))) :: dag_heap n' end.
Fixpoint dag_json (n : nat) : json := match n with O => JInt 0 | S n' => JArr [dag_json n'; dag_json n'] end.
Lemma dag_get n : forall i, i < n -> hget (dag_heap n) (N.of_nat i) = Some (TPair (dag_type i) (dag_type i), VPair (dag_val i) (dag_val i)).
Proof.
  induction n as [|n IH]; intros i Hi; [lia|]. unfold hget in *. cbn [dag_heap alookup]. destruct (N.eqb (N.of_nat i) (N.of_nat n)) eqn:E.
  - apply N.eqb_eq in E. assert (i = n) as -> by lia. reflexivity.
  - apply N.eqb_neq in E. apply IH. lia.
Qed.
Lemma dag_pushed G J h n : (forall i, i < n -> hget h (N.of_nat i) = Some (TPair (dag_type i) (dag_type i), VPair (dag_val i) (dag_val i))) ->
  push G J h (2 * n + 1) (dag_type n) (dag_val n) = ROk (dag_json n).
Proof.
  induction n as [|n IH]; intros Hh; [reflexivity|]. replace (2 * S n + 1) with (S (S (2 * n + 1))) by lia. specialize (IH (fun i Hi => Hh i (Nat.lt_lt_succ_r _ _ Hi))).
  rewrite push_S. cbn [push_body dag_type dag_val]. rewrite (Hh n (Nat.lt_succ_diag_r n)). rewrite push_S. cbn [push_body]. rewrite IH, ty_eqb_refl. reflexivity.
Qed.
Theorem C66_shared_refuted : forall n, exists t H v j, push GE JE H (2 * n + 1) t v = ROk j /\ vsize v + heap_size H <= 1 + 3 * n /\ 2 ^ n <= jsize j.
Proof.
  intros n. exists (dag_type n), (dag_heap n), (dag_val n), (dag_json n). split; [apply dag_pushed, dag_get|]. split.
  - assert (V : forall m, vsize (dag_val m) = 1) by (intros []; reflexivity).
    enough (S : heap_size (dag_heap n) = 3 * n) by (rewrite S, V; lia).
    unfold heap_size. assert (A : forall m, (forall a, In a (addresses (dag_heap m)) -> exists i, i < m /\ a = N.of_nat i) /\ length (addresses (dag_heap m)) = m).
    { induction m as [|m [IH1 IH2]]; [split; [intros a []|reflexivity]|].
      assert (E : addresses (dag_heap (S m)) = N.of_nat m :: addresses (dag_heap m)).
      { apply addresses_new. intros I. apply addresses_in, IH1 in I. destruct I as (i & Hi & E). lia. }
      rewrite E. split; [|cbn; lia]. intros a [<- |I]; [exists m; lia|]. destruct (IH1 a I) as (i & Hi & ->). exists i. lia. }
    destruct (A n) as [A1 A2]. rewrite <- A2 at 2. revert A1. generalize (addresses (dag_heap n)). induction l as [|a l IH]; intros A1; [reflexivity|].
    cbn [map length]. rewrite sum_cons. destruct (A1 a (or_introl eq_refl)) as (i & Hi & ->). rewrite (dag_get n i Hi). rewrite IH by (intros b I; apply A1; right; exact I).
    cbn [vsize]. rewrite V. lia.
  - induction n as [|n IH]; [cbn; lia|]. cbn [dag_json]. rewrite jsize_arr, !jsizes_cons. change (jsizes []) with 0. cbn [Nat.pow]. lia.
Qed.
Print Assumptions C66_shared_refuted.

(** finding: with three levels of inheritance, the generated code writes the members of the topmost class twice (see C39): once because it is a base class
    of the last class, once because it is one of the class in between.  If such a member owns another object of the last class, the data grows exponentially:
    n nested objects become 2^n bytes. *)
Definition link : list (string * ty * N * N) := [("next", TUnique (TStruct 2), 0%N, 0%N)].
Definition cA := mkclass 0 "A" [] 0 [] [] link.
Definition cB := mkclass 1 "B" [0%N] 0 (rc_layout cA) (rc_vinit cA) [].
Definition cC := mkclass 2 "C" [0%N; 1%N] 0 (rc_layout cA) (rc_vinit cA) [].
Definition G3 : genv := {| g_class := fun c => match c with 0%N => Some cA | 1%N => Some cB | 2%N => Some cC | _ => None end; g_lt := fun _ => val_ltb; g_eq := fun _ => val_eqb;
  g_place := fun _ l x => l ++ [x]; g_alloc := g_alloc GE |}.
Definition link_obj (x : val) : list (fkey * val) := [((0%N, B "next"), x)].
Fixpoint chain (n : nat) : val := VObj (link_obj (match n with O => VOpt None | S n' => VOpt (Some (chain n')) end)).
Fixpoint chain_bytes (n : nat) : bytes := match n with O => [mkb 0; mkb 0] | S n' => (mkb 1 :: chain_bytes n') ++ (mkb 1 :: chain_bytes n') end.
Lemma link_written H f x bs : (forall W, BinModel.write G3 H f 0 (TUnique (TStruct 2)) x W = ROk (bs, W)) ->
  forall W, write_cls G3 H (S (S (S f))) 0 2 (link_obj x) W = ROk (bs ++ bs, W).
Proof.
  intros E. assert (E' : forall f', f <= f' -> forall W, BinModel.write G3 H f' 0 (TUnique (TStruct 2)) x W = ROk (bs, W)).
  { intros f' L W. eapply write_more; [exact L|apply E|discriminate]. }
  assert (EA : forall f', f <= f' -> forall W, write_cls G3 H (S f') 0 0 (link_obj x) W = ROk (bs, W)).
  { intros f' L W. rewrite write_cls_S. unfold write_cls_body. cbn [g_class G3]. cbn -[BinModel.write]. rewrite E' by exact L. cbn. rewrite ?app_nil_r. reflexivity. }
  assert (EB : forall W, write_cls G3 H (S (S f)) 0 1 (link_obj x) W = ROk (bs, W)).
  { intros W. rewrite write_cls_S. unfold write_cls_body. cbn [g_class G3]. cbn -[BinModel.write write_cls]. rewrite EA by lia. cbn. rewrite ?app_nil_r. reflexivity. }
  intros W. rewrite write_cls_S. unfold write_cls_body. cbn [g_class G3]. cbn -[BinModel.write write_cls]. rewrite EA by lia. cbn -[BinModel.write write_cls]. rewrite EB. cbn. rewrite ?app_nil_r. reflexivity.
Qed.
Lemma chain_written H n : forall W, BinModel.write G3 H (5 * n + 5) 0 (TStruct 2) (chain n) W = ROk (chain_bytes n, W).
Proof.
  induction n as [|n IH]; intros W.
  - change (5 * 0 + 5) with 5. vm_compute. reflexivity.
  - replace (5 * S n + 5) with (S (S (S (S (S (5 * n + 5)))))) by lia. rewrite write_S. unfold write_body. cbn [chain].
    rewrite (link_written H (S (5 * n + 5)) (VOpt (Some (chain n))) (mkb 1 :: chain_bytes n)); [reflexivity|].
    intros W'. rewrite write_S. unfold write_body. rewrite IH. reflexivity.
Qed.
Theorem C66_written_twice_refuted : forall n, exists fs bs, toBinary G3 [] (5 * n + 5) 2 fs 0 = ROk bs /\ fsizes fs <= 1 + 2 * n /\ 2 ^ n <= length bs.
Proof.
  intros n. assert (X : exists fs, chain n = VObj fs) by (destruct n; eexists; reflexivity). destruct X as (fs & Ef). exists fs, (chain_bytes n). split; [|split].
  - pose proof (chain_written [] n []) as E. unfold toBinary. replace (5 * n + 5) with (S (5 * n + 4)) in * by lia. rewrite write_S in E. unfold write_body in E. rewrite Ef in E.
    assert (E2 : write_cls G3 [] (5 * n + 4) 0 2 fs [] = ROk (chain_bytes n, [])) by exact E.
    rewrite (write_cls_more G3 [] (5 * n + 4) (S (5 * n + 4)) 0 2 fs [] _ (Nat.le_succ_diag_r _) E2); [reflexivity|discriminate].
  - enough (S : vsize (chain n) = 2 * n + 2) by (rewrite Ef, vsize_obj in S; lia).
    clear. induction n as [|n IH]; [reflexivity|]. cbn [chain]. unfold link_obj. rewrite vsize_obj, fsizes_cons. cbn [vsize]. rewrite IH. change (fsizes []) with 0. lia.
  - clear. induction n as [|n IH]; [cbn; lia|]. cbn [chain_bytes]. rewrite app_length. cbn [length Nat.pow]. lia.
Qed.
Print Assumptions C66_written_twice_refuted.
