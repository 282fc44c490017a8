(** ExamplesJson.v -- concrete cases which meet the hypotheses of the theorems in PropertiesJson.v, and stronger claims
    which are false of the code *)
From Coq Require Import String List NArith ZArith Bool Lia Permutation DecimalString.
From Verif Require Import Base BaseFacts Bytes Types TypesFacts BinModel BinSpec BinSafeSpec BinFacts ContFacts BinTerm GenModel GenSem GenSpec Float
  JsonModel JsonErr JsonSpec JsonTop JsonTerm JsonSafeSpec JsonFacts JsonMembers JsonColl JsonScalar JsonGen PropertiesJson ExamplesEnv ExamplesBin ExamplesGen.
Import ListNotations.
Local Open Scope list_scope.
Local Open Scope N_scope.

(** dates as decimal numbers of ticks *)
Definition print_z (z : Z) : bytes := list_byte_of_string (NilZero.string_of_int (Z.to_int z)).
Definition parse_z (k : ikind) (s : bytes) : option Z :=
  match NilZero.int_of_string (string_of_list_byte s) with
  | Some i => let z := Z.of_int i in if in_range k z then Some z else None
  | None => None
  end.
Definition JE : jenv := {| je_dt_print := print_z; je_dt_parse := parse_z KU64; je_ts_print := print_z; je_ts_parse := parse_z KI64 |}.
Example JE_conv : conv_ok JE.
Proof.
  split; cbn; unfold parse_z; intros s z; destruct (NilZero.int_of_string _); try discriminate;
    match goal with |- context [if ?b then _ else _] => destruct b eqn:E end; try discriminate; intros Q; inversion Q; subst; exact E.
Qed.

(* ------------------------------------------------------------------ *)
(** ** environment: hypotheses of C25, C47, C48 *)

Ltac pull_types := cbn; repeat match goal with
        | |- _ /\ _ => split
        | |- True => exact I
        | |- _ = _ => reflexivity
        | |- _ <> _ => discriminate
        | |- _ = true -> _ => intros _
        | |- TMono = TMono \/ _ => left
        | |- _ \/ _ => right
        | |- exists _, _ => eexists
        end.
Lemma GE_jenv (K : ikind -> Prop) (strict : bool) : K KI32 -> jenv_ok GE false K strict.
Proof.
  intros HK. constructor.
  - intros c rc Hc. apply GE_init. exact Hc.
  - intros c rc Hc. assert (E: rc_dinit rc = rc_vinit rc) by (cbn in Hc; class_cases Hc; reflexivity). rewrite E. apply GE_init. exact Hc.
  - intros c rc p fd Hc Hp Hin. cbn in Hc. class_cases Hc; inversion Hp; subst; cbn in Hin;
      repeat (destruct Hin as [<-|Hin]; [split; [vm_compute; reflexivity|pull_types; try exact HK]|]); destruct Hin.
  - intros c rc p b Hc Hp Hin. cbn in Hc. class_cases Hc; inversion Hp; subst; cbn in Hin; try contradiction.
    destruct Hin as [<-|[]]. eexists _, _. split; [reflexivity|]. split; [reflexivity|]. intros k t E. apply alookup_app_l. exact E.
Qed.
Example GE_no_pull_cycle : no_pull_cycle GE.
Proof.
  exists (fun c : N => if (2 <? c)%N then 2%nat else if (c =? 0)%N then 0%nat else 1%nat). intros c rc p b Hc Hp Hin. cbn in Hc.
  class_cases Hc; inversion Hp; subst; cbn in Hin; repeat (destruct Hin as [<-|Hin]; [cbn; lia|]); try destruct Hin.
Qed.
Example GE_string_keys ord : string_keys GE ord.
Proof.
  intros a b. destruct ord; cbn.
  - split; [|intros ->; split; apply bytes_ltb_irrefl]. revert b. induction a as [|x a IH]; intros [|y b] [H1 H2]; cbn in *; try discriminate; auto.
    apply orb_false_iff in H1, H2. destruct H1 as [A1 A2], H2 as [B1 B2]. apply N.ltb_ge in A1, B1. assert (E: bval x = bval y) by lia.
    rewrite E, N.eqb_refl in *. cbn in A2, B2. f_equal; [|apply IH; auto]. rewrite <- (mkb_bval x), <- (mkb_bval y), E. reflexivity.
  - apply bytes_eqb_eq.
Qed.
Lemma empty_heap_typed : heap_typed GE false [].
Proof. intros a t x E. discriminate. Qed.

(* ------------------------------------------------------------------ *)
(** ** C22, C25, C28, C37: a class with a base class, optional, shared pointer, map of arrays and variant *)

Definition L3 : list jfield := map (fun '(n, t, _, _) => jf 2 n t) ver ++ map (fun '(n, t, _, _) => jf 3 n t) derived.
Lemma L3_members prog : (forall rc, In rc [cVer; cDerived] -> prog rc = Some (rc_push rc)) -> members GE prog 3 L3.
Proof.
  intros HP.
  assert (M2: members GE prog 2 (map (fun '(n, t, _, _) => jf 2 n t) ver)).
  { change (map (fun '(n, t, _, _) => jf 2 n t) ver) with (concat [] ++ jp_fields (jprog_of 2 [] "Ver" ver)).
    apply members_intro with (rc := cVer); [reflexivity|apply HP; left; reflexivity|constructor]. }
  change L3 with (concat [map (fun '(n, t, _, _) => jf 2 n t) ver] ++ jp_fields (jprog_of 3 [2] "Derived" derived)).
  apply members_intro with (rc := cDerived); [reflexivity|apply HP; right; left; reflexivity|]. constructor; [exact M2|constructor].
Qed.
Example L3_pushed : members GE pushed_by 3 L3.
Proof. apply L3_members. reflexivity. Qed.
Example L3_pulled : members GE rc_pull 3 L3.
Proof. apply L3_members. intros rc [<-|[<-|[]]]; reflexivity. Qed.
Example L1_members : members GE pushed_by 1 (map (fun '(n, t, _, _) => jf 1 n t) node) /\ members GE rc_pull 1 (map (fun '(n, t, _, _) => jf 1 n t) node).
Proof.
  split; change (map (fun '(n, t, _, _) => jf 1 n t) node) with (concat [] ++ jp_fields (jprog_of 1 [] "Node" node));
    apply members_intro with (rc := cNode); try reflexivity; constructor.
Qed.

(** two nodes, the first one pointing to the second *)
Definition H3 : heap := [(a1, (TStruct 1, nodeval 7 (Some a2))); (a2, (TStruct 1, nodeval (-1) None))].
Definition derived_obj : list (fkey * val) :=
  [((2, B "a"), VInt 1); ((2, B "b"), VStr (B "hi")); ((2, B "c"), VInt (-3)); ((2, B "d"), VOpt (Some (nodeval 5 (Some a1))));
   ((3, B "x"), VList [VPair (VStr (B "k1")) (VList [VInt 1; VInt 2]); VPair (VStr (B "k2")) (VList [])]);
   ((3, B "y"), VVar 1 (VStr (B "alternative")))].

Lemma node_jgood H v n : in_range KI32 v = true ->
  (forall a, n = Some a -> exists x, hget H a = Some (TStruct 1, x) /\ nonnull x /\ jgood GE JE H false (TStruct 1) (vinit GE (TStruct 1)) x) ->
  jgood GE JE H false (TStruct 1) (vinit GE (TStruct 1)) (nodeval v n).
Proof.
  intros Hv Hn. cbn [vinit]. destruct L1_members as [M1 M2].
  eapply jg_struct_once with (rc := cNode) (oo := fun k => if fkey_eqb k (1, B "value") then VInt 0 else VShared None).
  - reflexivity.
  - reflexivity.
  - reflexivity.
  - nodup.
  - exact M1.
  - exact M2.
  - nodup.
  - nodup.
  - apply incl_refl.
  - intros fd [<-|[<-|[]]]; reflexivity.
  - intros fd [<-|[<-|[]]]; reflexivity.
  - intros fd w [<-|[<-|[]]] E; vm_compute in E; inversion E; subst.
    + apply jg_int; [reflexivity|exact Hv].
    + destruct n as [a|]; [|apply jg_shared_none]. destruct (Hn a eq_refl) as (x & Hx & Hnn & Hg). eapply jg_shared_some; eauto.
  - intros k w Hk Ew. exfalso. apply Hk. cbn. unfold nodeval in Ew. cbn [alookup] in Ew.
    destruct (fkey_eqb k (1, B "value")) eqn:E1; [left; symmetry; apply fkey_eqb_eq; exact E1|].
    destruct (fkey_eqb k (1, B "next")) eqn:E2; [right; left; symmetry; apply fkey_eqb_eq; exact E2|discriminate].
Qed.

Lemma json_string_lit s : forallb (fun b => negb (beqb b Byte.x00)) s = true -> (N.of_nat (length s) <=? size_max) = true -> json_string s.
Proof.
  intros H1 H2. split; [|apply N.leb_le; exact H2]. intros Hin. rewrite forallb_forall in H1. apply H1 in Hin. discriminate.
Qed.

Example derived_jgood : jgood GE JE H3 false (TStruct 3) (vinit GE (TStruct 3)) (VObj derived_obj).
Proof.
  cbn [vinit]. eapply jg_struct_once with (rc := cDerived) (Lp := L3) (Lq := L3)
    (oo := fun k => match alookup fkey_eqb k (rc_vinit cDerived) with Some v => v | None => VUndef end).
  - reflexivity.
  - reflexivity.
  - reflexivity.
  - nodup.
  - exact L3_pushed.
  - exact L3_pulled.
  - nodup.
  - nodup.
  - apply incl_refl.
  - intros fd H. repeat (destruct H as [<-|H]; [vm_compute; reflexivity|]). destruct H.
  - intros fd H. repeat (destruct H as [<-|H]; [vm_compute; reflexivity|]). destruct H.
  - intros fd w [<-|[<-|[<-|[<-|[<-|[<-|[]]]]]]] E; vm_compute in E; inversion E; subst; clear E.
    + apply jg_int; reflexivity.
    + apply jg_string. apply json_string_lit; reflexivity.
    + apply jg_int; reflexivity.
    + apply jg_opt_some; [exact I|]. apply (node_jgood H3 5 (Some a1)); [reflexivity|].
      intros a Ea. inversion Ea; subst a. eexists. split; [vm_compute; reflexivity|]. split; [exact I|].
      apply (node_jgood H3 7 (Some a2)); [reflexivity|].
      intros a Ea'. inversion Ea'; subst a. eexists. split; [vm_compute; reflexivity|]. split; [exact I|].
      apply (node_jgood H3 (-1) None); [reflexivity|]. discriminate.
    + match goal with |- jgood _ _ _ _ _ ?o _ => change o with (VList []) end. apply jg_map.
      * reflexivity.
      * cbn. repeat constructor.
      * intros x [<-|[<-|[]]]; eexists _, _; (split; [reflexivity|]); apply json_string_lit; reflexivity.
      * intros k v [Q|[Q|[]]]; inversion Q; subst; apply jg_seq; [intros x [<-|[<-|[]]]; apply jg_int; reflexivity|intros x []].
      * discriminate.
    + match goal with |- jgood _ _ _ _ _ ?o _ => generalize o; intros old end.
      apply (jg_var GE JE H3 false _ old 1 TString); [reflexivity|reflexivity|discriminate|]. apply jg_string. apply json_string_lit; reflexivity.
  - intros k v Hk E. exfalso. apply Hk. apply (alookup_some_key _ fkey_eqb_eq) in E. cbn in E |- *. intuition (subst; auto 10).
Qed.
Definition derived_doc : json := JObj
  [(B "a", JInt 1); (B "b", JStr (B "hi")); (B "c", JInt (-3));
   (B "d", JObj [(B "value", JInt 5); (B "next", JObj [(B "value", JInt 7); (B "next", JObj [(B "value", JInt (-1)); (B "next", JNull)])])]);
   (B "x", JObj [(B "k1", JArr [JInt 1; JInt 2]); (B "k2", JArr [])]);
   (B "y", JObj [(B "index", JInt 1); (B "data", JStr (B "alternative"))])].
Example derived_pushed : push GE JE H3 20 (TStruct 3) (VObj derived_obj) = ROk derived_doc.
Proof. vm_compute. reflexivity. Qed.
Example derived_pulled : exists v h, pull GE JE 20 (TStruct 3) (vinit GE (TStruct 3)) derived_doc {| p_heap := []; p_err := Some est0 |}
  = POk v {| p_heap := h; p_err := Some est0 |} /\ jsame GE H3 [] h (TStruct 3) (VObj derived_obj) v.
Proof.
  destruct (C22_round_trip GE JE H3 false _ _ _ GE_alloc GE_place derived_jgood) as (F & j & Q).
  destruct (Q (Nat.max F 20) (Nat.le_max_l _ _)) as [E1 E2].
  assert (E3: push GE JE H3 (Nat.max F 20) (TStruct 3) (VObj derived_obj) = ROk derived_doc).
  { eapply JsonRel.push_more; [apply Nat.le_max_r|exact derived_pushed|discriminate]. }
  assert (j = derived_doc) by congruence. subst j. destruct (E2 [] (Some est0)) as (v' & h' & er' & P & S & _).
  assert (X: exists v st', pull GE JE 20 (TStruct 3) (vinit GE (TStruct 3)) derived_doc {| p_heap := []; p_err := Some est0 |} = POk v st'
     /\ p_err st' = Some est0) by (eexists _, _; vm_compute; split; reflexivity).
  destruct X as (v & [h er] & X & Xe). cbn in Xe. subst er.
  assert (Y := JsonRel.pull_more GE JE 20 (Nat.max F 20) _ _ _ _ _ (Nat.le_max_r _ _) X ltac:(discriminate)). exists v, h. split; [exact X|].
  assert (Z: POk v' {| p_heap := h'; p_err := er' |} = POk v {| p_heap := h; p_err := Some est0 |}) by congruence. inversion Z; subst. exact S.
Qed.

(** C22: an exact case (no shared pointers) for fromJson *)
Example seq_jgood : jgood GE JE [] true (TSeq (TPair TString (TOptional (TEnum KU8)))) (dinit GE (TSeq (TPair TString (TOptional (TEnum KU8)))))
  (VList [VPair (VStr (B "x")) (VOpt (Some (VInt 255))); VPair (VStr []) (VOpt None)]) /\
  top_type (TSeq (TPair TString (TOptional (TEnum KU8)))) (VList [VPair (VStr (B "x")) (VOpt (Some (VInt 255))); VPair (VStr []) (VOpt None)]).
Proof.
  split; [|exact I]. apply jg_seq. intros x [<-|[<-|[]]]; apply jg_pair.
  - apply jg_string. apply json_string_lit; reflexivity.
  - apply jg_opt_some; [exact I|]. apply jg_enum. reflexivity.
  - apply jg_string. apply json_string_lit; reflexivity.
  - apply jg_opt_none.
Qed.

(** C25, C47, C48: a document with a missing member, an unknown one and a double for an integer *)
Definition partial_doc : json := JObj
  [(B "c", JDbl 0x4004000000000000 (* 2.5 *)); (B "unknown", JArr [JNull; JStr (B "x")]); (B "d", JNull);
   (B "x", JObj [(B "k", JArr [JInt 1; JInt 2])]); (B "y", JObj [(B "index", JInt 2); (B "data", JNull)])].
Example partial_wf : json_wf partial_doc.
Proof. cbn. repeat split; auto. Qed.
Example partial_conforms : conforms GE JE (TStruct 3) partial_doc.
Proof.
  apply cf_struct with (L := L3); [exact L3_pulled|].
  intros fd j [<-|[<-|[<-|[<-|[<-|[<-|[]]]]]]] E; vm_compute in E; inversion E; subst; clear E.
  - eapply cf_int_dbl; [reflexivity|vm_compute; reflexivity|reflexivity].
  - apply cf_null_opt.
  - apply cf_map. intros n j [Q|[]]; inversion Q; subst. apply cf_seq. intros j [<-|[<-|[]]]; apply cf_int; reflexivity.
  - eapply cf_mono with (z := 2%Z); reflexivity.
Qed.
Example struct3_pullable (K : ikind -> Prop) (strict : bool) : pullable GE K strict (TStruct 3).
Proof. cbn. eexists _, _. split; reflexivity. Qed.
Example struct3_variable : variable_ok GE false [] (TStruct 3) (VObj derived_obj) \/ variable_ok GE false [] (TStruct 3) (vinit GE (TStruct 3)).
Proof. right. left. apply GE_init. reflexivity. Qed.
Example partial_quiet : exists F, forall fuel, (F <= fuel)%nat -> exists v st',
  pull GE JE fuel (TStruct 3) (vinit GE (TStruct 3)) partial_doc {| p_heap := []; p_err := Some est0 |} = POk v st' /\ quiet (Some est0) (p_err st').
Proof.
  destruct (C25_conforming GE JE false (TStruct 3) partial_doc GE_alloc GE_place (GE_jenv _ false I) JE_conv GE_no_pull_cycle (struct3_pullable _ _) partial_wf partial_conforms) as (F & Q).
  exists F. intros fuel Hf. destruct (Q fuel Hf [] (Some est0) (vinit GE (TStruct 3)) empty_heap_typed ltac:(left; apply GE_init; reflexivity)) as (v & st' & E & N & _). eauto.
Qed.
(** C48: hypotheses of the second theorem, with int as the only integral type *)
Example partial_fits : numbers_fit (fun k => k = KI32) partial_doc /\ jenv_ok GE false (fun k => k = KI32) true.
Proof.
  split; [|apply GE_jenv; reflexivity]. cbn. repeat split; auto; intros k ->; try reflexivity. exists 2%Z. split; reflexivity.
Qed.

(** C25: a mismatch within an array within a member *)
Example mismatch_context : exists v, pull GE JE 20 (TStruct 3) (vinit GE (TStruct 3)) (JObj [(B "x", JObj [(B "k", JArr [JInt 1; JStr (B "2")])])]) {| p_heap := []; p_err := Some est0 |}
  = POk v {| p_heap := []; p_err := Some (appended est0
       {| e_kind := TypeMismatch; e_expected := JTNumber; e_actual := JTString; e_record := Some (B "Derived"); e_member := Some (B "x"); e_index := Some 1 |}) |}.
Proof. eexists. vm_compute. reflexivity. Qed.
Example mismatch_hyps : pullable GE (fun _ => True) false (TMap true false TString i32) /\ variable_ok GE false [] (TMap true false TString i32) (VList [])
  /\ kind_fits (TMap true false TString i32) (JArr []) = false.
Proof. split; [cbn; auto|]. split; [|reflexivity]. left. apply ht_map; intros ? []; intros []. Qed.

(** C29: duplicates in a set *)
Example set_duplicates : exists e, pull GE JE 5 (TSet true false TString) (VList []) (JArr [JStr (B "b"); JStr (B "a"); JStr (B "b")]) {| p_heap := []; p_err := Some est0 |}
  = POk (VList [VStr (B "a"); VStr (B "b")]) {| p_heap := []; p_err := Some e |}
  /\ es_errs e = [{| e_kind := UnexpectedDuplicate; e_expected := JTArray; e_actual := JTArray; e_record := Some (B "[document]"); e_member := None; e_index := Some 2 |}].
Proof. eexists. split; vm_compute; reflexivity. Qed.
(** C30: merging *)
Example map_merge : pull GE JE 5 (TMap true false TString (TMap true false TString i32))
    (VList [VPair (VStr (B "k")) (VList [VPair (VStr (B "1")) (VInt 1)]); VPair (VStr (B "o")) (VList [])])
    (JObj [(B "k", JObj [(B "2", JInt 2)]); (B "a", JObj [])]) {| p_heap := []; p_err := None |}
  = POk (VList [VPair (VStr (B "a")) (VList []); VPair (VStr (B "k")) (VList [VPair (VStr (B "1")) (VInt 1); VPair (VStr (B "2")) (VInt 2)]); VPair (VStr (B "o")) (VList [])])
    {| p_heap := []; p_err := None |}.
Proof. vm_compute. reflexivity. Qed.
Example multimap_merge : pull GE JE 5 (TMap true true TString i32) (VList [VPair (VStr (B "k")) (VInt 1)])
    (JObj [(B "k", JArr [JInt 2; JInt 3]); (B "a", JInt 4); (B "k", JArr [])]) {| p_heap := []; p_err := None |}
  = POk (VList [VPair (VStr (B "a")) (VInt 4); VPair (VStr (B "k")) (VInt 1); VPair (VStr (B "k")) (VInt 2); VPair (VStr (B "k")) (VInt 3)]) {| p_heap := []; p_err := None |}.
Proof. vm_compute. reflexivity. Qed.
(** C46 *)
Definition mm : list val := [VPair (VStr (B "a")) (VInt 1); VPair (VStr (B "b")) (VInt 2); VPair (VStr (B "b")) (VInt 1)].
Example multimap_doc : push GE JE [] 5 (TMap true true TString i32) (VList mm) = ROk (JObj [(B "a", JArr [JInt 1]); (B "b", JArr [JInt 2; JInt 1])]).
Proof. vm_compute. reflexivity. Qed.
Example multimap_hyps : map_shape mm /\ (forall k, In k (map_keys mm) -> json_string k) /\ jgood GE JE [] false (TMap true true TString i32) (VList []) (VList mm).
Proof.
  split; [|split].
  - intros x [<-|[<-|[<-|[]]]]; eauto.
  - intros k [<-|[<-|[<-|[]]]]; apply json_string_lit; reflexivity.
  - apply jg_map.
    + discriminate.
    + cbn. repeat constructor.
    + intros x [<-|[<-|[<-|[]]]]; eexists _, _; (split; [reflexivity|]); apply json_string_lit; reflexivity.
    + intros k v [Q|[Q|[Q|[]]]]; inversion Q; subst; apply jg_int; reflexivity.
    + intros _ _ a b Ha Hb. destruct Ha as [<-|[<-|[<-|[]]]], Hb as [<-|[<-|[<-|[]]]]; vm_compute; congruence.
Qed.

(** C37: classes generated for [family] (three levels) and a hierarchy of two levels *)
Definition jfo := {| o_template := o_template fo; o_adaption := o_adaption fo; o_classes := o_classes fo; o_visibility := o_visibility fo; o_main := o_main fo |}.
Example family_generated_json : forall k, In k (relevant_classes fo family) -> exists rc, g_class GF (cr_id (k_rec k)) = Some rc /\ generated_json fo family k rc.
Proof.
  intros k H. exists (fam_class k). split; [|split; reflexivity].
  vm_compute in H. repeat (destruct H as [<-|H]; [vm_compute; reflexivity|]). destruct H.
Qed.
Definition kparent : rclass := {| k_rec := mk 12 "Parent" 0 [base 11 (B "Grand") "Grand" 0; base 3 bt "BinarySerializable<Parent, 1>" 1] [pub "p" TString; MField (B "c") Public true i32; MField (B "s") Private false i32];
  k_base := Some (base 3 bt "BinarySerializable<Parent, 1>" 1) |}.
Definition kgrand : rclass := Eval vm_compute in hd kparent (find_bases family (relevant_classes fo family) kparent).
Lemma an_eq k Ns bs ns : find_bases family (relevant_classes fo family) k = bs -> Forall2 (all_names fo family) bs Ns ->
  concat Ns ++ map jf_name (own_push k) = ns -> all_names fo family k ns.
Proof. intros <- H <-. apply an_intro; [exact H|]. apply own_names_push. Qed.
Lemma all_names_child : all_names fo family kchild (map B ["g"; "g"; "p"; "c"; "x"]%string).
Proof.
  assert (G1: all_names fo family kgrand (map B ["g"]%string)) by (apply (an_eq _ [] []); [vm_compute; reflexivity|constructor|vm_compute; reflexivity]).
  assert (P1: all_names fo family kparent (map B ["g"; "p"; "c"]%string)).
  { apply (an_eq _ [map B ["g"]%string] [kgrand]); [vm_compute; reflexivity| |vm_compute; reflexivity]. constructor; [exact G1|constructor]. }
  apply (an_eq _ [map B ["g"]; map B ["g"; "p"; "c"]]%string [kgrand; kparent]); [vm_compute; reflexivity| |vm_compute; reflexivity].
  constructor; [exact G1|]. constructor; [exact P1|constructor].
Qed.
Example child_names_twice : ~ NoDup (map B ["g"; "g"; "p"; "c"; "x"]%string).
Proof.
  assert (KP: exists p g, In p (find_bases family (relevant_classes fo family) kchild) /\ In g (find_bases family (relevant_classes fo family) p) /\ has_member g (B "g")).
  { eexists _, _. split; [vm_compute; right; left; reflexivity|]. split; [vm_compute; left; reflexivity|]. eexists _, _, _. split; [left; reflexivity|right; reflexivity]. }
  destruct KP as (p & g & Hp & Hg & Hm). eapply C37_three_levels_refuted; [exact all_names_child|apply family_defs|apply family_defs|exact Hp|exact Hg|exact Hm].
Qed.
Example parent_two_levels : In kparent (relevant_classes fo family)
  /\ (forall b, In b (find_bases family (relevant_classes fo family) kparent) -> find_bases family (relevant_classes fo family) b = [])
  /\ NoDup (find_bases family (relevant_classes fo family) kparent) /\ ~ In kparent (find_bases family (relevant_classes fo family) kparent).
Proof.
  split; [vm_compute; auto|]. split; [|split].
  - intros b Hb. vm_compute in Hb. destruct Hb as [<-|[]]. vm_compute. reflexivity.
  - vm_compute. constructor; [intros []|constructor].
  - vm_compute. intros [Q|[]]. discriminate.
Qed.

(* ------------------------------------------------------------------ *)
(** ** stronger claims which are false of the code *)

Definition S0 : pst := {| p_heap := []; p_err := None |}.
Definition SE : pst := {| p_heap := []; p_err := Some est0 |}.

(** C24: without error list a duplicate in a set is undefined behaviour (errors->reportUnexpectedDuplicate without check,
    lib/json/reflector.h:732-733) *)
Theorem C24_duplicate_without_errors_refuted : forall f,
  pull GE JE (S (S f)) (TSet true false TString) (VList []) (JArr [JStr (B "a"); JStr (B "a")]) S0 = PUB.
Proof. intros. vm_compute. reflexivity. Qed.

(** C25/C48: a mismatching item of a set of integers is undefined behaviour: the item is default-initialised
    (lib/json/reflector.h:728-731) *)
Theorem C48_set_of_scalars_refuted : forall f,
  pull GE JE (S (S f)) (TSet true false i32) (VList []) (JArr [JStr (B "a")]) SE = PUB.
Proof. intros. vm_compute. reflexivity. Qed.
(** C48: a number which is out of range is undefined behaviour *)
Theorem C48_out_of_range_refuted : forall f, pull GE JE (S f) i32 (VInt 0) (JInt (2 ^ 40)) SE = PUB.
Proof. intros. vm_compute. reflexivity. Qed.

(** C36: strings with NUL characters are not restored *)
Theorem C36_nul_refuted : exists s, s <> [] /\ forall f, push GE JE [] (S f) TString (VStr s) = ROk (JStr s)
  /\ pull GE JE (S f) TString (VStr (B "old")) (JStr s) SE = POk (VStr []) SE.
Proof. exists [Byte.x00]. split; [discriminate|]. intros. split; reflexivity. Qed.
(** C36/C22: two keys of a map may become the same *)
Theorem C36_map_keys_collide_refuted : forall f, push GE JE [] (S (S f)) (TMap true false TString i32)
    (VList [VPair (VStr [Byte.x61; Byte.x00]) (VInt 1); VPair (VStr [Byte.x61; Byte.x00; Byte.x62]) (VInt 2)])
  = ROk (JObj [(B "a", JInt 1); (B "a", JInt 2)]).
Proof. intros. vm_compute. reflexivity. Qed.
(** C46: values of a multimap's key with a NUL character are not grouped and get lost when there is another key *)
Theorem C46_nul_refuted : forall f, push GE JE [] (S (S f)) (TMap true true TString i32)
    (VList [VPair (VStr [Byte.x61]) (VInt 1); VPair (VStr [Byte.x61; Byte.x00]) (VInt 2); VPair (VStr [Byte.x62; Byte.x00]) (VInt 3); VPair (VStr [Byte.x62; Byte.x00]) (VInt 4)])
  = ROk (JObj [(B "a", JArr [JInt 1; JInt 2]); ([Byte.x62; Byte.x00], JArr [JInt 3]); ([Byte.x62; Byte.x00], JArr [JInt 4])]).
Proof. intros. vm_compute. reflexivity. Qed.

(** C26: the index is not restored after a nested array: the item after it is reported without index *)
Theorem C26_index_lost_refuted : exists e, forall f,
  pull GE JE (S (S (S (S f)))) (TTuple [TSeq i32; i32]) (VList [VList []; VInt 0]) (JArr [JArr []; JStr []])
    {| p_heap := []; p_err := Some {| es_errs := []; es_record := None; es_member := None; es_index := Some 5; es_throw := 0 |} |}
  = POk (VList [VList []; VInt 0]) {| p_heap := []; p_err := Some e |} /\ map e_index (es_errs e) = [None].
Proof. eexists. intros f. split; vm_compute; reflexivity. Qed.
(** C26: after an exception the context is that of the error *)
Theorem C26_stale_context_refuted : exists x e, forall f,
  pull GE JE (S (S (S (S f)))) (TStruct 1) (VObj (rc_vinit cNode)) (JObj [(B "value", JNull)])
    {| p_heap := []; p_err := Some (throwing_on 1 est0) |} = PThrow x {| p_heap := []; p_err := Some e |}
  /\ es_record e = Some (B "Node") /\ es_member e = Some (B "value") /\ es_record est0 = Some (B "[document]") /\ es_member est0 = None.
Proof. eexists _, _. intros f. split; [vm_compute; reflexivity|]. vm_compute. auto. Qed.

(** C25: fromJson<double>("5") reports "expected number, got number" (lib/json/reflector.h:1125-1131) *)
Theorem C25_number_is_no_number_refuted : forall f, exists e, fromJson GE JE f TF64 (JInt 5) SE = POk (VF64 0) {| p_heap := []; p_err := Some e |}
  /\ es_errs e = [error_in est0 TypeMismatch JTNumber JTNumber].
Proof. intros f. eexists. split; vm_compute; reflexivity. Qed.
(** C22: the largest float is not restored by fromJson<float> *)
Theorem C22_flt_max_refuted : forall f, exists e, fromJson GE JE f TF32 (JDbl (f64_of_f32 0x7f7fffff)) SE = POk (VF32 0) {| p_heap := []; p_err := Some e |}
  /\ es_errs e = [error_in est0 TypeMismatch JTNumber JTNumber].
Proof. intros f. eexists. split; vm_compute; reflexivity. Qed.
(** C22: nested optionals collapse *)
Theorem C22_nested_optional_refuted : forall f, push GE JE [] (S (S f)) (TOptional (TOptional i32)) (VOpt (Some (VOpt None))) = ROk JNull
  /\ pull GE JE (S f) (TOptional (TOptional i32)) (VOpt None) JNull SE = POk (VOpt None) SE.
Proof. intros; split; reflexivity. Qed.
(** C22: a valueless variant is pushed as null, which is no variant *)
Theorem C22_valueless_refuted : forall f, exists e, push GE JE [] (S f) (TVariant [i32]) VValueless = ROk JNull
  /\ pull GE JE (S f) (TVariant [i32]) (VVar 0 (VInt 0)) JNull SE = POk (VVar 0 (VInt 0)) {| p_heap := []; p_err := Some e |}
  /\ es_errs e = [error_in est0 TypeMismatch JTObject JTNull].
Proof. intros f. eexists. split; [reflexivity|]. split; vm_compute; reflexivity. Qed.
(** C22: objects shared by two pointers are two objects afterwards *)
Theorem C22_sharing_lost_refuted :
  let H := [(a1, (i32, VInt 5))] in
  push GE JE H 5 (TPair (TShared i32) (TShared i32)) (VPair (VShared (Some a1)) (VShared (Some a1))) = ROk (JArr [JInt 5; JInt 5])
  /\ exists x y h, pull GE JE 5 (TPair (TShared i32) (TShared i32)) (VPair (VShared None) (VShared None)) (JArr [JInt 5; JInt 5]) S0
       = POk (VPair (VShared (Some x)) (VShared (Some y))) {| p_heap := h; p_err := None |} /\ x <> y.
Proof. split; [vm_compute; reflexivity|]. eexists _, _, _. split; [vm_compute; reflexivity|discriminate]. Qed.
(** C22: pushing cyclic data never finishes (the binary serialiser handles it, see C08) *)
Theorem C22_cycles_refuted : forall f, push GE JE HC f (TShared (TStruct 1)) (VShared (Some a1)) = RFuel.
Proof.
  assert (Q: forall f, (push GE JE HC f (TShared (TStruct 1)) (VShared (Some a1)) = RFuel /\ push GE JE HC f (TShared (TStruct 1)) (VShared (Some a2)) = RFuel)).
  { induction f as [f IH] using lt_wf_ind. destruct f as [|[|[|f]]]; [split; reflexivity|split; reflexivity|split; reflexivity|].
    destruct (IH f ltac:(lia)) as [I1 I2].
    assert (N: forall v n, push GE JE HC f (TShared (TStruct 1)) (VShared (Some n)) = RFuel -> push GE JE HC (S (S f)) (TStruct 1) (nodeval v (Some n)) = RFuel).
    { intros v n E. rewrite JsonRel.push_S. cbn [push_body nodeval]. rewrite JsonRel.push_cls_S. unfold push_cls_body.
      change (g_class GE 1) with (Some cNode). cbv beta iota. cbn [rc_push cNode mkclass jp_bases jprog_of jp_fields push_fold map rbind node jf jf_key jf_ty jf_name].
      change (alookup fkey_eqb (1, B "value") [((1, B "value"), VInt v); ((1, B "next"), VShared (Some n))]) with (Some (VInt v)).
      change (alookup fkey_eqb (1, B "next") [((1, B "value"), VInt v); ((1, B "next"), VShared (Some n))]) with (Some (VShared (Some n))).
      cbv beta iota. rewrite E. destruct f; reflexivity. }
    split; rewrite JsonRel.push_S; cbn [push_body].
    - change (hget HC a1) with (Some (TStruct 1, nodeval 7 (Some a2))). cbv beta iota. cbn [fst snd]. apply N, I2.
    - change (hget HC a2) with (Some (TStruct 1, nodeval (-1) (Some a1))). cbv beta iota. cbn [fst snd]. apply N, I1. }
  intros f. apply Q.
Qed.
(** C25: a date which is no string: the mismatch is reported, then a conversion error *)
Theorem C25_date_two_errors_refuted : forall f, exists e, pull GE JE (S f) TDateTime (VInt 7) JNull SE = POk (VInt 7) {| p_heap := []; p_err := Some e |}
  /\ es_errs e = [error_in est0 TypeMismatch JTString JTNull; error_in est0 ConversionError JTString JTString].
Proof. intros f. eexists. split; vm_compute; reflexivity. Qed.
(** C28: members of a base class and the class with the same name get the same value (see C37_unique_names) *)
Theorem C28_shadowed_members_refuted : forall G J f k1 k2 t n j st x st' os o,
  k1 <> k2 -> alookup fkey_eqb k1 os = Some o -> alookup fkey_eqb k2 os = Some o ->
  pull G J f t o j (put_member (Some n) st) = POk x st' ->
  let st1 := put_member (match p_err st with Some e => es_member e | None => None end) st' in
  pull_member (pull G J f) [(n, j)] {| jf_name := n; jf_key := k1; jf_ty := t |} os st = POk (aupdate fkey_eqb k1 x os) st1
  /\ alookup fkey_eqb k2 (aupdate fkey_eqb k1 x os) = Some o
  /\ (forall x2 st2, pull G J f t o j (put_member (Some n) st1) = POk x2 st2 ->
      exists st3, pull_member (pull G J f) [(n, j)] {| jf_name := n; jf_key := k2; jf_ty := t |} (aupdate fkey_eqb k1 x os) st1
        = POk (aupdate fkey_eqb k2 x2 (aupdate fkey_eqb k1 x os)) st3).
Proof.
  intros G J f k1 k2 t n j st x st' os o Hne E1 E2 P st1.
  assert (E3: alookup fkey_eqb k2 (aupdate fkey_eqb k1 x os) = Some o) by (rewrite (alookup_aupdate_other _ fkey_eqb_eq); auto).
  split; [|split; [exact E3|]].
  - unfold pull_member. cbn [jf_key jf_name jf_ty alookup]. rewrite E1, bytes_eqb_refl. unfold bind, in_member. rewrite P. reflexivity.
  - intros x2 st2 P2. unfold pull_member. cbn [jf_key jf_name jf_ty alookup]. rewrite E3, bytes_eqb_refl. unfold bind, in_member. rewrite P2. eexists. reflexivity.
Qed.

Print Assumptions C24_duplicate_without_errors_refuted.
Print Assumptions C48_set_of_scalars_refuted.
Print Assumptions C48_out_of_range_refuted.
Print Assumptions C36_nul_refuted.
Print Assumptions C36_map_keys_collide_refuted.
Print Assumptions C46_nul_refuted.
Print Assumptions C26_index_lost_refuted.
Print Assumptions C26_stale_context_refuted.
Print Assumptions C25_number_is_no_number_refuted.
Print Assumptions C22_flt_max_refuted.
Print Assumptions C22_nested_optional_refuted.
Print Assumptions C22_valueless_refuted.
Print Assumptions C22_sharing_lost_refuted.
Print Assumptions C22_cycles_refuted.
Print Assumptions C25_date_two_errors_refuted.
Print Assumptions C28_shadowed_members_refuted.
