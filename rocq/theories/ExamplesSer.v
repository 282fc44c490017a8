(** ExamplesSer.v -- properties C57, C58: concrete classes and values which meet the hypotheses of the theorems, and stronger
    claims which are false of the code *)
From Coq Require Import String List NArith ZArith Bool Lia.
From Verif Require Import Base BaseFacts Bytes Types TypesFacts BinModel BinSpec BinSafeSpec BinFacts BinTop JsonModel JsonErr JsonSpec JsonTop JsonSafeSpec
  JsonText JsonTextSpec DispatchSpec SerSpec SerFacts SerJson SerStable PropertiesSer ExamplesEnv ExamplesBin ExamplesJson ExamplesText ExamplesDispatch.
Import ListNotations.
Import BinModel.
Local Open Scope list_scope.
Local Open Scope N_scope.

(** ** the classes of ExamplesEnv.v *)
Example GE_writers_ok : writers_ok GE.
Proof.
  constructor.
  - intros c rc fd Hc I. cbn in Hc. class_cases Hc; cbn in I; repeat (destruct I as [<-|I]; [vm_compute; reflexivity|]); destruct I.
  - exact GE_writable_members.
  - intros c rc b Hc I. cbn in Hc. class_cases Hc; cbn in I; try contradiction. destruct I as [<-|[]].
    eexists. split; [reflexivity|]. intros k t E. apply alookup_app_l. exact E.
  - exact GE_no_cycle.
  - intros c rc Hc. cbn in Hc. class_cases Hc; reflexivity.
Qed.
Example GE_pushers_ok : pushers_ok GE.
Proof.
  constructor.
  - intros c rc fd Hc I. cbn in Hc. class_cases Hc; cbn in I; repeat (destruct I as [<-|I]; [vm_compute; reflexivity|]); destruct I.
  - exact GE_pushable_members.
  - intros c rc b Hc I. cbn in Hc. class_cases Hc; cbn in I; try contradiction. destruct I as [<-|[]].
    eexists. split; [reflexivity|]. intros k t E. apply alookup_app_l. exact E.
  - exists (fun c : N => if (2 <? c)%N then 2%nat else if (c =? 0)%N then 0%nat else 1%nat). intros c rc b Hc Hin. cbn in Hc.
    class_cases Hc; cbn in Hin; repeat (destruct Hin as [<-|Hin]; [cbn; lia|]); try destruct Hin.
Qed.
Example GE_variants_small : variants_small_members GE.
Proof.
  intros c rc fd Hc I. cbn in Hc. class_cases Hc; cbn in I; repeat (destruct I as [<-|I]; [cbn; unfold alternatives; repeat split; cbn; lia|]); destruct I.
Qed.
(** the classes Node, Ver, Derived and Outer have no hash containers; TestObject has *)
Definition without_hashes (c : N) : Prop := c = 1 \/ c = 2 \/ c = 3 \/ c = 4.
Example GE_ordered : ordered_members GE without_hashes.
Proof.
  intros c rc [-> | [-> | [-> | ->]]] Hc; cbn in Hc; injection Hc as <-; (split; intros x I; cbn in I;
    repeat (destruct I as [<-|I]; [unfold without_hashes; cbn; auto 10|]); destruct I).
Qed.

(** ** an object with a base class, an optional, shared pointers, a map and a variant *)
Lemma struct_typed G H c rc fs : g_class G c = Some rc ->
  Forall2 (fun (kt : fkey * ty) (kv : fkey * val) => fst kt = fst kv /\ has_type G false H (snd kt) (snd kv)) (rc_layout rc) fs ->
  has_type G false H (TStruct c) (VObj fs).
Proof.
  intros Hc F. econstructor; [exact Hc| |].
  - induction F as [|[k t] [k' v] l m [E _] F IH]; [reflexivity|]. cbn in *. congruence.
  - induction F as [|[k t] [k' v] l m [E T] F IH]; [discriminate|]. cbn in E, T. subst k'. cbn. intros k0 t0 v0.
    destruct (fkey_eqb k0 k); [intros [= <-] [= <-]; exact T|apply IH].
Qed.
Lemma node_typed H v n : in_range KI32 v = true -> (forall a, n = Some a -> hty H a = Some (TStruct 1)) -> has_type GE false H (TStruct 1) (nodeval v n).
Proof.
  intros Hv Hn. apply (struct_typed GE H 1 cNode); [reflexivity|]. cbn. constructor; [split; [reflexivity|constructor; exact Hv]|].
  constructor; [split; [reflexivity|]|constructor]. cbn [snd]. destruct n as [a|]; [apply ht_shared_some, Hn; reflexivity|apply ht_shared_none].
Qed.
Lemma H3_get a t x : hget H3 a = Some (t, x) -> (a = a1 /\ t = TStruct 1 /\ x = nodeval 7 (Some a2)) \/ (a = a2 /\ t = TStruct 1 /\ x = nodeval (-1) None).
Proof.
  unfold H3, hget. cbn [alookup]. destruct (N.eqb_spec a a1) as [-> |]; [intros [= <- <-]; auto|].
  destruct (N.eqb_spec a a2) as [-> |]; [intros [= <- <-]; auto|discriminate].
Qed.
Example H3_typed : heap_typed GE false H3.
Proof.
  intros a t x E. destruct (H3_get a t x E) as [(-> & -> & ->) | (-> & -> & ->)]; apply node_typed; try reflexivity; [intros b [= <-]; reflexivity|discriminate].
Qed.
Example H3_acyclic : acyclic H3.
Proof.
  exists (fun a => if a =? a1 then 1%nat else 0%nat). intros a t x b E R. destruct (H3_get a t x E) as [(-> & -> & ->) | (-> & -> & ->)].
  - inversion R; subst. match goal with I : In _ _ |- _ => destruct I as [I|[I|[]]]; injection I as <- <- end.
    + match goal with I : refers _ b |- _ => inversion I end.
    + match goal with I : refers _ b |- _ => inversion I end. subst. cbn. lia.
  - inversion R; subst. match goal with I : In _ _ |- _ => destruct I as [I|[I|[]]]; injection I as <- <- end;
    match goal with I : refers _ b |- _ => inversion I end.
Qed.
Example H3_sizes : forall a t x, hget H3 a = Some (t, x) -> sizes_below (2 ^ 56) x.
Proof. intros a t x E. destruct (H3_get a t x E) as [(-> & -> & ->) | (-> & -> & ->)]; cbn; auto. Qed.
Example derived_typed : has_type GE false H3 (TStruct 3) (VObj derived_obj).
Proof.
  apply (struct_typed GE H3 3 cDerived); [reflexivity|]. cbn.
  repeat (apply Forall2_cons; [split; [reflexivity|]; cbn [snd]|]); try apply Forall2_nil.
  - constructor; reflexivity.
  - constructor.
  - constructor; reflexivity.
  - apply ht_opt_some. apply node_typed; [reflexivity|]. intros b [= <-]. reflexivity.
  - apply ht_map.
    + intros x [<-|[<-|[]]]; eauto.
    + intros k v [E|[E|[]]]; injection E as <- <-; constructor.
    + intros k v [E|[E|[]]]; injection E as <- <-; constructor; cbn; [intros x [<-|[<-|[]]]; constructor; reflexivity|intros x []].
  - eapply ht_variant; [reflexivity|constructor].
Qed.
Example derived_sizes : sizes_below (2 ^ 56) (VObj derived_obj).
Proof. cbn. repeat split; reflexivity. Qed.
Example derived_writable : writable GE (TStruct 3) /\ pushable GE (TStruct 3) /\ variants_small (TStruct 3).
Proof. split; [eexists; reflexivity|]. split; [eexists; reflexivity|exact I]. Qed.
Example derived_written : exists F bs, forall fuel, (F <= fuel)%nat -> toBinary GE H3 fuel 3 derived_obj 4 = ROk bs.
Proof. apply (C57_toBinary_succeeds GE H3 GE_writers_ok H3_typed H3_sizes 4 3 derived_obj); [reflexivity|exact derived_typed|exact derived_sizes]. Qed.
Example derived_text_written : exists F j, json_wf j /\ forall fuel, (F <= fuel)%nat ->
  toJsonDocument GE JE H3 fuel (TStruct 3) (VObj derived_obj) = ROk j /\ toJson TE GE JE H3 fuel (TStruct 3) (VObj derived_obj) = ROk (serializeJsonDocToString TE j).
Proof.
  apply (C57_toJson_succeeds TE GE JE H3 GE_pushers_ok GE_variants_small H3_typed H3_acyclic (TStruct 3)); [apply derived_writable|exact I|exact derived_typed|exact I].
Qed.
(** the data of ExamplesBin.v: cyclic, hence it can be written but not pushed *)
Example cyclic_written : exists F bs W, forall fuel, (F <= fuel)%nat -> write GE HC fuel 0 two (VPair (VShared (Some a1)) (VShared (Some a2))) [] = ROk (bs, W).
Proof.
  assert (HG: forall a t x, hget HC a = Some (t, x) -> t = TStruct 1 /\ exists v b, in_range KI32 v = true /\ hty HC b = Some (TStruct 1) /\ x = nodeval v (Some b)).
  { intros a t x. unfold HC, hget. cbn [alookup]. destruct (a =? a1); [intros [= <- <-]; split; [reflexivity|exists 7%Z, a2; auto]|].
    destruct (a =? a2); [intros [= <- <-]; split; [reflexivity|exists (-1)%Z, a1; auto]|discriminate]. }
  apply C57_write_succeeds.
  - exact GE_writers_ok.
  - intros a t x E. destruct (HG a t x E) as (-> & v & b & Hv & Hb & ->). apply node_typed; [exact Hv|]. intros ? [= <-]. exact Hb.
  - intros a t x E. destruct (HG a t x E) as (-> & v & b & _ & _ & ->). cbn. auto.
  - reflexivity.
  - cbn. split; eexists; reflexivity.
  - constructor; apply ht_shared_some; reflexivity.
  - cbn. auto.
Qed.

(** the restored object is serialised to the same document and the same text *)
Example derived_again : exists F text, forall fuel, (F <= fuel)%nat ->
    toJson TE GE JE H3 fuel (TStruct 3) (VObj derived_obj) = ROk text
    /\ forall h er, exists v' h' er',
         fromJsonText TE GE JE fuel (TStruct 3) text {| p_heap := h; p_err := er |} = Some (POk v' {| p_heap := h'; p_err := er' |})
         /\ toJson TE GE JE h' fuel (TStruct 3) v' = ROk text.
Proof.
  destruct value_hyps as (A & B & C & D & E).
  exact (C58_text_again TE GE without_hashes JE H3 false (TStruct 3) (VObj derived_obj) derived_doc 20 GE_alloc GE_place TE_ok GE_pushers_ok GE_ordered
    (or_intror (or_intror (or_introl eq_refl))) A B C D E).
Qed.

(** ** stronger claims which are false *)
(** C57: a valueless variant (left behind by an exception) cannot be written to binary data *)
Theorem C57_valueless_refuted : forall f W, write GE [] (S f) 0 (TVariant [i32]) VValueless W = RThrow ExBadVariant.
Proof. reflexivity. Qed.
(** C57: indeterminate members must not be serialised *)
Theorem C57_indeterminate_refuted : forall f W, write GE [] (S f) 0 i32 VUndef W = RUB /\ push GE JE [] (S f) i32 VUndef = RUB.
Proof. split; reflexivity. Qed.
(** C57: a version of 2^56 or more cannot be written *)
Theorem C57_version_refuted : forall f H fs W, write_cls GE H (S f) (2 ^ 56) 2 fs W = RThrow ExConv.
Proof. reflexivity. Qed.
(** C58: the IDs of shared objects are their addresses: what has been restored is written to different data in general *)
Theorem C58_addresses_refuted :
  let H := [(a1, (i32, VInt 5))] in
  write GE H 5 0 (TShared i32) (VShared (Some a1)) [] = ROk (hex [1; 0x90; 0; 0; 0; 5], [a1])
  /\ exists h, read GE 5 0 (TShared i32) (VShared None) (hex [1; 0x90; 0; 0; 0; 5]) {| r_heap := []; r_ptr := [] |}
                = ROk (VShared (Some 1), [], {| r_heap := h; r_ptr := [(a1, (1, i32))] |})
     /\ write GE h 5 0 (TShared i32) (VShared (Some 1)) [] = ROk (hex [1; 0x81; 0; 0; 0; 5], [1]).
Proof. split; [vm_compute; reflexivity|]. exists [(1, (i32, VInt 5)); (1, (i32, VInt 0))]. split; vm_compute; reflexivity. Qed.
(** C58: strings with NUL characters (which are no proper values for JSON) can have the same document *)
Theorem C58_nul_refuted : forall f, push GE JE [] (S (S f)) (TMap true false TString i32) (VList [VPair (VStr [Byte.x61; Byte.x00]) (VInt 1)])
  = push GE JE [] (S (S f)) (TMap true false TString i32) (VList [VPair (VStr [Byte.x61]) (VInt 1)]).
Proof. reflexivity. Qed.
(** C58: so can a pointer and a pointer to an empty pointer *)
Theorem C58_nested_refuted : forall f, push GE JE [] (S (S f)) (TOptional (TOptional i32)) (VOpt None) = ROk JNull
  /\ push GE JE [] (S (S f)) (TOptional (TOptional i32)) (VOpt (Some (VOpt None))) = ROk JNull.
Proof. split; reflexivity. Qed.

Print Assumptions C57_valueless_refuted.
Print Assumptions C57_indeterminate_refuted.
Print Assumptions C57_version_refuted.
Print Assumptions C58_addresses_refuted.
Print Assumptions C58_nul_refuted.
Print Assumptions C58_nested_refuted.
