(** ExamplesJBound.v -- the hypotheses of PropertiesJBound.v are met; what is not bounded (property C64) *)
From Coq Require Import String List NArith ZArith Bool Lia.
From Verif Require Import Base BaseFacts Types TypesFacts BinModel BinSpec Float JsonModel JsonRel JsonText JsonSpec ExamplesEnv ExamplesJson ExamplesText BoundSpec BoundFacts
  GrammarSpec JBoundSpec JBoundFacts PropertiesJBound.
Import ListNotations.
Local Open Scope string_scope.
Local Open Scope list_scope.
Local Open Scope nat_scope.

(** the classes of the example *)
Ltac jcompacts := cbn [jf jf_ty jcompact news]; repeat match goal with |- _ /\ _ => split end; try exact I; try reflexivity; try (vm_compute; lia).
Example GE_jcompact : jcompact_members GE 7.
Proof.
  intros c rc p fd Hc. cbn [g_class GE] in Hc. class_cases Hc; intros [= <-] I; cbn in I; repeat (destruct I as [<- | I]; [jcompacts|]); destruct I.
Qed.
Lemma no_base c rc p : g_class GE c = Some rc -> rc_pull rc = Some p -> jp_bases p = [] -> members GE rc_pull c (jp_fields p).
Proof. intros Ec Ep Eb. change (jp_fields p) with (concat [] ++ jp_fields p). econstructor; [exact Ec|exact Ep|]. rewrite Eb. constructor. Qed.
Ltac nodup := repeat (constructor; [vm_compute; intuition discriminate|]); constructor.
Example GE_distinct : distinct_names GE.
Proof.
  intros c rc p Hc. cbn [g_class GE] in Hc. class_cases Hc; intros [= <-].
  4: exists L3; split; [exact L3_pulled|nodup].
  all: eexists; split; [eapply no_base; reflexivity|nodup].
Qed.
(** an object with all kinds of members; the bound applied to it *)
Definition small_text : bytes := B "{""a"":1,""b"":""text"",""d"":{""value"":2,""next"":{""value"":3,""next"":null}},""x"":{""k"":[1,2]},""y"":{""index"":1,""data"":""s""}}".
Example small_restored : exists v st', fromJsonText TE GE JE 20 (TStruct 3) small_text {| p_heap := []; p_err := Some est0 |} = Some (POk v st')
  /\ vsize v + heap_size (p_heap st') = 25 /\ errors st' = 0
  /\ vsize v + heap_size (p_heap st') <= 8 + 7 * length small_text /\ errors st' <= 3 * length small_text.
Proof.
  eexists. eexists. split; [vm_compute; reflexivity|]. split; [vm_compute; reflexivity|]. split; [vm_compute; reflexivity|].
  assert (K7 : 1 <= 7) by lia.
  destruct (C64_fromJson TE GE JE 7 20 (TStruct 3) small_text {| p_heap := []; p_err := Some est0 |} _ _ GE_alloc GE_place K7 GE_jcompact GE_distinct I ltac:(vm_compute; reflexivity)) as [A B].
  split; [exact A|exact B].
Qed.

(** errors: at most three per value are possible, e.g. for sets of points of time: twice that the element is no string, and that it is there already *)
Example three_errors : exists v st', pull GE JE 5 (TSet true false TDateTime) (VList []) (JArr [JInt 1; JInt 2; JInt 3]) {| p_heap := []; p_err := Some est0 |} = POk v st'
  /\ errors st' = 8 /\ jsize (JArr [JInt 1; JInt 2; JInt 3]) = 4.
Proof. eexists. eexists. split; [vm_compute; reflexivity|]. vm_compute. auto. Qed.

(** finding: the elements of a multimap are not bounded by a multiple of the document's size: the name of the member is copied for each
    of its elements (lib/json/reflector.h:764-786).  With a name of n characters and n elements the values have n*n characters. *)
Theorem C64_multimap_refuted : forall n, exists j v, jsize j = 2 + 2 * n
  /\ (forall h, pull GE JE 3 (TMap true true TString i32) (VList []) j {| p_heap := h; p_err := None |} = POk v {| p_heap := h; p_err := None |})
  /\ n * n <= vsize v.
Proof.
  intros n. set (name := repeat Byte.x61 n). assert (Hc : cstr name = name). { unfold name. induction n as [|n IH]; [reflexivity|]. cbn. f_equal. exact IH. }
  assert (Hn : length name = n) by apply repeat_length.
  set (ins := fun l x => fst (emplace GE true true true TString (VPair (VStr (cstr name)) x) l)).
  assert (X : forall m h l, fold_m (fun l j'' => let? x := pull GE JE 2 i32 (vinit GE i32) j'' in ret (ins l x)) (repeat (JInt 5) m) l {| p_heap := h; p_err := None |}
    = POk (fold_left (fun l _ => ins l (VInt 5)) (repeat tt m) l) {| p_heap := h; p_err := None |}).
  { induction m as [|m IH]; intros h l; [reflexivity|]. cbn [repeat fold_m]. unfold bind at 1.
    change (bind (pull GE JE 2 i32 (vinit GE i32) (JInt 5)) (fun x => ret (ins l x)) {| p_heap := h; p_err := None |}) with (POk (ins l (VInt 5)) {| p_heap := h; p_err := None |}).
    cbv beta iota. rewrite IH. reflexivity. }
  exists (JObj [(name, JArr (repeat (JInt 5) n))]), (VList (fold_left (fun l _ => ins l (VInt 5)) (repeat tt n) [])). split; [|split].
  - rewrite jsize_obj, msizes_cons, jsize_arr, Hn. change (msizes []) with 0. assert (S : forall m, jsizes (repeat (JInt 5) m) = m) by (induction m as [|m IH]; [reflexivity|]; cbn [repeat]; rewrite jsizes_cons, IH; reflexivity).
    rewrite S. lia.
  - intros h. change (bind (bind (fold_m (fun l j'' => let? x := pull GE JE 2 i32 (vinit GE i32) j'' in ret (ins l x)) (repeat (JInt 5) n) []) (fun l => ret l)) (fun l => ret (VList l))
      {| p_heap := h; p_err := None |} = POk (VList (fold_left (fun l _ => ins l (VInt 5)) (repeat tt n) [])) {| p_heap := h; p_err := None |}).
    unfold bind at 1 2. rewrite (X n h []). reflexivity.
  - rewrite vsize_list. assert (S : forall m l, vsizes (fold_left (fun l _ => ins l (VInt 5)) (repeat tt m) l) = m * (3 + n) + vsizes l).
    { induction m as [|m IH]; intros l; [reflexivity|]. cbn [repeat fold_left]. rewrite IH. unfold ins at 1.
      destruct (emplace_cases GE true true true TString (VPair (VStr (cstr name)) (VInt 5)) l GE_place) as [[_ P]|(_ & _ & Hm)]; [|discriminate Hm].
      rewrite <- (vsizes_perm _ _ P), vsizes_cons. cbn [vsize]. rewrite Hc, Hn. lia. }
    rewrite S. nia.
Qed.
Print Assumptions C64_multimap_refuted.

(** finding: when a class and its base class have members with the same name, both are restored from the same member of the JSON object.
    Nested objects are then restored exponentially often: 2^n objects from a document with n levels. *)
Definition twin : list (string * ty * N * N) := [("a", TUnique (TStruct 1), 0%N, 0%N)].
Definition cBase := mkclass 0 "Base" [] 0 [] [] twin.
Definition cTwin := mkclass 1 "Twin" [0%N] 0 (rc_layout cBase) (rc_vinit cBase) twin.
Definition G2 : genv := {| g_class := fun c => if N.eqb c 0 then Some cBase else if N.eqb c 1 then Some cTwin else None; g_lt := fun _ => val_ltb; g_eq := fun _ => val_eqb;
  g_place := fun _ l x => l ++ [x]; g_alloc := g_alloc GE |}.
Fixpoint nested (n : nat) : json := match n with O => JObj [] | S n' => JObj [(B "a", nested n')] end.
Fixpoint tree (n : nat) : val :=
  let x := match n with O => VOpt None | S n' => VOpt (Some (tree n')) end in VObj [((0%N, B "a"), x); ((1%N, B "a"), x)].
Lemma nested_pulled n : forall f h, 5 * n + 4 <= f ->
  pull G2 JE f (TStruct 1) (vinit G2 (TStruct 1)) (nested n) {| p_heap := h; p_err := None |} = POk (tree n) {| p_heap := h; p_err := None |}.
Proof.
  induction n as [|n IH]; intros f h Hf.
  - do 4 (destruct f as [|f]; [lia|]). reflexivity.
  - do 5 (destruct f as [|f]; [lia|]).
    assert (U : forall f' o, 5 * n + 4 <= f' -> pull G2 JE (S f') (TUnique (TStruct 1)) o (nested n) {| p_heap := h; p_err := None |} = POk (VOpt (Some (tree n))) {| p_heap := h; p_err := None |}).
    { intros f' o Hf'. rewrite pull_S. cbn [pull_body]. assert (Ej : nested n <> JNull) by (destruct n; discriminate).
      transitivity (bind (pull G2 JE f' (TStruct 1) (vinit G2 (TStruct 1)) (nested n)) (fun x => ret (VOpt (Some x))) {| p_heap := h; p_err := None |}).
      - destruct (nested n); try reflexivity. congruence.
      - unfold bind. rewrite IH by exact Hf'. reflexivity. }
    assert (Mb : forall f' os o fd, alookup fkey_eqb (jf_key fd) os = Some o -> jf_name fd = B "a" -> jf_ty fd = TUnique (TStruct 1) -> 5 * n + 4 <= f' ->
      pull_member (pull G2 JE (S f')) [(B "a", nested n)] fd os {| p_heap := h; p_err := None |} = POk (aupdate fkey_eqb (jf_key fd) (VOpt (Some (tree n))) os) {| p_heap := h; p_err := None |}).
    { intros f' os o fd E1 E2 E3 Hf'. unfold pull_member. rewrite E1, E2, E3. change (alookup bytes_eqb (B "a") [(B "a", nested n)]) with (Some (nested n)).
      unfold bind, in_member. cbn [p_err put_member option_map p_heap]. rewrite U by exact Hf'. reflexivity. }
    rewrite pull_S. cbn [pull_body nested]. cbn [vinit G2 g_class N.eqb Pos.eqb]. unfold bind at 1.
    assert (E : pull_cls G2 JE (S (S (S (S f)))) 1 (rc_vinit cTwin) [(B "a", nested n)] {| p_heap := h; p_err := None |}
      = POk [((0%N, B "a"), VOpt (Some (tree n))); ((1%N, B "a"), VOpt (Some (tree n)))] {| p_heap := h; p_err := None |}).
    { assert (E0 : pull_cls G2 JE (S (S (S f))) 0 (rc_vinit cTwin) [(B "a", nested n)] {| p_heap := h; p_err := None |}
        = POk [((0%N, B "a"), VOpt (Some (tree n))); ((1%N, B "a"), VOpt None)] {| p_heap := h; p_err := None |}).
      { rewrite pull_cls_S. unfold pull_cls_body. cbn [G2 g_class N.eqb rc_pull cBase mkclass jprog_of jp_bases fold_m jp_record jp_fields map twin].
        unfold bind at 1. cbn [ret]. unfold in_record. cbn [p_err put_record option_map p_heap]. unfold bind at 1.
        erewrite Mb; [|reflexivity|reflexivity|reflexivity|lia]. reflexivity. }
      rewrite pull_cls_S. unfold pull_cls_body. cbn [G2 g_class N.eqb Pos.eqb rc_pull cTwin mkclass jprog_of jp_bases fold_m jp_record jp_fields map twin].
      unfold bind at 1. unfold bind at 1. fold cBase. fold cTwin. rewrite E0. cbn [ret]. unfold in_record. cbn [p_err put_record option_map p_heap]. unfold bind at 1.
      erewrite Mb; [|reflexivity|reflexivity|reflexivity|lia]. reflexivity. }
    change (vinit G2 (TStruct 1)) with (VObj (rc_vinit cTwin)). rewrite E. reflexivity.
Qed.
Theorem C64_same_names_refuted : forall n, exists j v, jsize j = 1 + 2 * n
  /\ (forall h, pull G2 JE (5 * n + 4) (TStruct 1) (vinit G2 (TStruct 1)) j {| p_heap := h; p_err := None |} = POk v {| p_heap := h; p_err := None |})
  /\ 2 ^ n <= vsize v.
Proof.
  intros n. exists (nested n), (tree n). split; [|split].
  - induction n as [|n IH]; [reflexivity|]. cbn [nested]. rewrite jsize_obj, msizes_cons, IH. change (msizes []) with 0. cbn [length B list_byte_of_string]. change (length (B "a")) with 1. lia.
  - intros h. apply nested_pulled. lia.
  - induction n as [|n IH]; [cbn; lia|]. cbn [tree]. rewrite vsize_obj, !fsizes_cons. cbn [vsize Nat.pow]. lia.
Qed.
Print Assumptions C64_same_names_refuted.
Example G2_not_distinct : ~ distinct_names G2.
Proof.
  intros H. destruct (H 1%N cTwin (jprog_of 1 [0%N] "Twin" twin) eq_refl eq_refl) as (L & ML & ND). inversion ML as [c rc p Ls Ec Ep HB]; subst.
  injection Ec as <-. injection Ep as <-. cbn [jprog_of jp_bases] in HB. inversion HB as [|? L0 ? Ls' M0 HB']; subst. inversion HB'; subst.
  inversion M0 as [c rc p Ls0 Ec Ep HB0]; subst. injection Ec as <-. injection Ep as <-. cbn [jprog_of jp_bases] in HB0. inversion HB0; subst.
  cbn in ND. inversion ND as [|? ? N1 N2]; subst. apply N1. left. reflexivity.
Qed.
