(** ExamplesJSettle.v -- the hypotheses of the theorems in PropertiesJSettle.v are met, and stronger claims which are false of the code *)
From Coq Require Import String List NArith ZArith Bool Lia.
From Verif Require Import Base BaseFacts Types TypesFacts BinModel BinSpec BinSafeSpec BinFacts ContFacts Float JsonModel JsonErr JsonSpec JsonSafeSpec JsonSafe JsonTop JsonText JsonTextSpec SerSpec ExamplesEnv ExamplesBin ExamplesJson ExamplesText ExamplesSer JSettleSpec JSettleFacts PropertiesJSettle.
Import ListNotations.
Local Open Scope list_scope.
Local Open Scope N_scope.

(** the classes Node and Derived *)
Definition VJ (ex : bool) (c : N) : Prop := ex = false /\ (c = 1 \/ c = 3).
Example GE_jsettling : jsettling GE JE VJ.
Proof.
  intros ex c [-> [-> | ->]].
  - exists cNode, (map (fun '(n, t, _, _) => jf 1 n t) node). split; [reflexivity|]. split; [apply L1_members|]. split.
    + intros fd [<-|[<-|[]]]; cbn; [reflexivity|]. unfold VJ. auto.
    + apply (node_jgood [] 0 None); [reflexivity|discriminate].
  - exists cDerived, L3. split; [reflexivity|]. split; [exact L3_pulled|]. split.
    + intros fd [<-|[<-|[<-|[<-|[<-|[<-|[]]]]]]]; cbn; unfold VJ; repeat split; try discriminate; auto; apply (GE_keys TString).
    + eapply jg_struct_once with (rc := cDerived) (Lp := L3) (Lq := L3) (oo := fun k => match alookup fkey_eqb k (rc_vinit cDerived) with Some v => v | None => VUndef end);
        [reflexivity|reflexivity|reflexivity|nodup|exact L3_pushed|exact L3_pulled|nodup|nodup|apply incl_refl| | | |].
      * intros fd H. repeat (destruct H as [<-|H]; [vm_compute; reflexivity|]). destruct H.
      * intros fd H. repeat (destruct H as [<-|H]; [vm_compute; reflexivity|]). destruct H.
      * intros fd w [<-|[<-|[<-|[<-|[<-|[<-|[]]]]]]] E; vm_compute in E; inversion E; subst; clear E.
        -- apply jg_int; reflexivity.
        -- apply jg_string. apply json_string_lit; reflexivity.
        -- apply jg_int; reflexivity.
        -- apply jg_opt_none.
        -- match goal with |- jgood _ _ _ _ _ ?o _ => change o with (VList []) end. apply jg_map; [discriminate|constructor|intros x []|intros k v []|intros _ _ a b []].
        -- eapply jg_var; [reflexivity|reflexivity|discriminate|apply jg_int; reflexivity].
      * intros k w Hk Ew. exfalso. apply Hk. cbn in Ew |- *.
        repeat match type of Ew with (if fkey_eqb k ?k' then _ else _) = _ => destruct (fkey_eqb k k') eqn:Q; [apply fkey_eqb_eq in Q; rewrite Q; vm_compute; tauto|clear Q] end. discriminate Ew.
Qed.

(** documents with unknown members, members of the wrong kind, a fractional number for an integer, duplicates in a set, a name which occurs twice and a list which gets longer *)
Definition pair_type : ty := TPair (TStruct 3) (TSet true false TString).
Definition odd1 : json := JArr [JObj [(B "a", JDbl 0x3ffc000000000000); (B "b", JInt 5); (B "zzz", JNull); (B "d", JObj [(B "value", JStr (B "x")); (B "next", JObj [(B "next", JObj [])])]);
  (B "x", JObj [(B "k", JArr [JInt 1; JNull]); (B "j", JInt 3); (B "k", JArr [JInt 9])]); (B "y", JObj [(B "data", JNull); (B "index", JInt 2)])]; JArr [JStr (B "q"); JInt 4; JStr (B "c"); JStr (B "q")]].
Definition odd2 : json := JArr [JObj [(B "b", JStr (B "text")); (B "x", JObj [(B "l", JArr [])]); (B "y", JObj [(B "index", JInt 7); (B "data", JNull)])]; JNull].
Definition odd_result : val := VPair (VObj [((2, B "a"), VInt 1); ((2, B "b"), VStr (B "text")); ((2, B "c"), VInt 0); ((2, B "d"), VOpt (Some (nodeval 0 (Some 1))));
   ((3, B "x"), VList [VPair (VStr (B "j")) (VList []); VPair (VStr (B "k")) (VList [VInt 9]); VPair (VStr (B "l")) (VList [])]); ((3, B "y"), VVar 2 VMono)]) (VList [VStr []; VStr (B "c"); VStr (B "q")]).
Example odd_pulled : exists st, deserialised GE JE pair_type [odd1; odd2] (vinit GE pair_type) SE odd_result st.
Proof. eexists. eapply (ds_next _ _ _ 20); [vm_compute; reflexivity|]. eapply (ds_next _ _ _ 20); [vm_compute; reflexivity|]. apply ds_none. Qed.
Example odd_wf : forall j, In j [odd1; odd2] -> json_wf j /\ strings_32 j.
Proof.
  intros j [<-|[<-|[]]]; (split; [cbn; repeat split; auto; lia|]); unfold strings_32; cbn [everywhere odd1 odd2];
    repeat match goal with
    | |- _ /\ _ => split
    | |- True => exact I
    | |- forall n, In n _ -> _ => intros n Hn; cbn [map fst In] in Hn; repeat (destruct Hn as [<-|Hn]; [apply N.leb_le; vm_compute; reflexivity|]); destruct Hn
    | |- (_ <= _)%N => apply N.leb_le; vm_compute; reflexivity
    end.
Qed.
Example pair_settled : jsettled GE JE VJ false pair_type.
Proof.
  split; [split; auto|]. split; [discriminate|]. split; [apply (GE_keys TString)|]. split; [exact I|right]. apply jg_string. apply json_string_lit; reflexivity.
Qed.
Example C72_case : forall st, deserialised GE JE pair_type [odd1; odd2] (vinit GE pair_type) SE odd_result st ->
  exists F j', forall fuel, (F <= fuel)%nat -> push GE JE (p_heap st) fuel pair_type odd_result = ROk j'
    /\ forall h er, exists v' h' er', pull GE JE fuel pair_type (vinit GE pair_type) j' {| p_heap := h; p_err := er |} = POk v' {| p_heap := h'; p_err := er' |}
      /\ jsame GE (p_heap st) h h' pair_type odd_result v' /\ (false = true -> v' = odd_result) /\ hext h h' /\ quiet er er'.
Proof.
  intros st D. refine (C72_pulled_again GE JE VJ pair_type false (vinit GE pair_type) (vinit GE pair_type) [odd1; odd2] SE odd_result st GE_alloc GE_place GE_jsettling pair_settled odd_wf _ D).
  exact (C72_new_variable GE JE VJ false pair_type _ GE_jsettling pair_settled).
Qed.
Example C72_case_normal : forall st, deserialised GE JE pair_type [odd1; odd2] (vinit GE pair_type) SE odd_result st ->
  exists F j', forall fuel, (F <= fuel)%nat -> push GE JE (p_heap st) fuel pair_type odd_result = ROk j'
    /\ forall h er, exists v' h' er', pull GE JE fuel pair_type (vinit GE pair_type) j' {| p_heap := h; p_err := er |} = POk v' {| p_heap := h'; p_err := er' |}
      /\ push GE JE h' fuel pair_type v' = ROk j'.
Proof.
  intros st D. refine (C72_normal_form GE JE without_hashes VJ pair_type false (vinit GE pair_type) (vinit GE pair_type) [odd1; odd2] SE odd_result st GE_alloc GE_place GE_pushers_ok GE_ordered _ GE_jsettling pair_settled odd_wf _ D).
  - cbn. unfold without_hashes. auto.
  - exact (C72_new_variable GE JE VJ false pair_type _ GE_jsettling pair_settled).
Qed.
(** fromJson<Derived> of a text *)
Lemma derived_init : is_scalar (TStruct 3) = true \/ (jgood GE JE [] false (TStruct 3) (dinit GE (TStruct 3)) (dinit GE (TStruct 3)) /\ jgood GE JE [] false (TStruct 3) (dinit GE (TStruct 3)) (vinit GE (TStruct 3))).
Proof. right. split; exact (C72_new_variable GE JE VJ false (TStruct 3) [] GE_jsettling (conj eq_refl (or_intror eq_refl))). Qed.
Definition odd_text2 : bytes := B "{""b"":""x"",""b"":2,""x"":{""k"":[1,""2"",3],""k"":[true]},""y"":{""index"":1,""data"":[]},""d"":{""next"":{""value"":2}}}".
Definition TX : tenv := {| te_dtoa := te_dtoa TE; te_strtod := fun s => option_map (fun n => n mod 2 ^ 64) (te_strtod TE s) |}.
Lemma TX_ok : dtoa_ok TX.
Proof. intros n Hn. destruct (TE_ok n Hn) as [D [m E]]. split; [exact D|]. unfold TX, te_strtod at 1. change (te_dtoa {| te_dtoa := te_dtoa TE; te_strtod := fun s => option_map (fun n => n mod 2 ^ 64) (te_strtod TE s) |} n) with (te_dtoa TE n). rewrite E. eexists. reflexivity. Qed.
Lemma TX_bits : forall x n, te_strtod TX x = Some n -> (n < 2 ^ 64).
Proof. intros x n. cbn [te_strtod TX]. destruct (te_strtod TE x); [|discriminate]. intros E; inversion E. apply N.mod_lt. discriminate. Qed.
Example C72_case_text : exists v st', fromJsonText TX GE JE 20 (TStruct 3) odd_text2 {| p_heap := []; p_err := None |} = Some (POk v st')
  /\ exists F0 j', (forall fuel', (F0 <= fuel')%nat -> toJsonDocument GE JE (p_heap st') fuel' (TStruct 3) v = ROk j')
    /\ (finite j' -> doubles (survives TX) j' -> exists F text', forall fuel', (F <= fuel')%nat ->
        toJson TX GE JE (p_heap st') fuel' (TStruct 3) v = ROk text'
        /\ forall h er, exists v' h' er', fromJsonText TX GE JE fuel' (TStruct 3) text' {| p_heap := h; p_err := er |} = Some (POk v' {| p_heap := h'; p_err := er' |})
             /\ jsame GE (p_heap st') h h' (TStruct 3) v v' /\ (false = true -> v' = v) /\ hext h h' /\ quiet er er').
Proof.
  destruct (fromJsonText TX GE JE 20 (TStruct 3) odd_text2 {| p_heap := []; p_err := None |}) as [[v st'| | | |]|] eqn:E; try (vm_compute in E; discriminate).
  exists v, st'. split; [reflexivity|].
  refine (C72_text_again TX GE JE VJ false 20 (TStruct 3) odd_text2 {| p_heap := []; p_err := None |} v st' GE_alloc GE_place TX_ok TX_bits GE_jsettling (conj eq_refl (or_intror eq_refl)) _ derived_init E I).
  apply N.leb_le. vm_compute. reflexivity.
Qed.

(** a float: fromJson<float> of 3.4028234e38 gives the largest float, which fromJson<float> does not accept when it has been written *)
Theorem C72_float_refuted : forall f, fromJson GE JE f TF32 (JDbl 0x47efffffd586b834) SE = POk (VF32 0x7f7fffff) SE
  /\ toJsonDocument GE JE [] (S f) TF32 (VF32 0x7f7fffff) = ROk (JDbl (f64_of_f32 0x7f7fffff))
  /\ exists e, fromJson GE JE f TF32 (JDbl (f64_of_f32 0x7f7fffff)) SE = POk (VF32 0) {| p_heap := []; p_err := Some e |} /\ es_errs e = [error_in est0 TypeMismatch JTNumber JTNumber].
Proof. intros f. split; [vm_compute; reflexivity|]. split; [reflexivity|]. eexists. split; vm_compute; reflexivity. Qed.
(** a list of floats: 1e300 becomes infinity, what is written cannot be parsed *)
Theorem C72_overflow_refuted : fromJson GE JE 5 (TSeq TF32) (JArr [JDbl 0x7e37e43c8800759c]) SE = POk (VList [VF32 0x7f800000]) SE
  /\ exists text, toJson TE GE JE [] 5 (TSeq TF32) (VList [VF32 0x7f800000]) = ROk text /\ text = B "[" /\ parseJsonDocFromString TE text = TErr.
Proof. split; [vm_compute; reflexivity|]. eexists. split; [vm_compute; reflexivity|]. split; [reflexivity|vm_compute; reflexivity]. Qed.
Print Assumptions C72_float_refuted.
Print Assumptions C72_overflow_refuted.
