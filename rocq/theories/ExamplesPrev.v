(** ExamplesPrev.v -- concrete cases which meet the hypotheses of the theorems in PropertiesPrev.v, and stronger claims which are refuted *)
From Coq Require Import String List NArith ZArith Bool Lia Permutation.
From Verif Require Import Base BaseFacts Bytes Types TypesFacts BinModel FuelFacts BinSpec BinSafeSpec BinFacts ContFacts BinTerm BinTop ExamplesEnv ExamplesBin PrevSpec PrevFacts PrevAgain PropertiesPrev.
Import ListNotations.
Local Open Scope list_scope.
Local Open Scope N_scope.

Definition S0 : rstate := {| r_heap := []; r_ptr := [] |}.

(** objects of class [Node] are overwritten as a whole *)
Definition CP (c : N) : Prop := c = 1.
Example GE_overwritten : classes_overwritten GE CP.
Proof.
  intros c ->. exists cNode. split; [reflexivity|]. split.
  - cbn. repeat constructor; cbn; intuition discriminate.
  - intros k [<-|[<-|[]]].
    + apply (rn_own GE CP 1 cNode (prog 1 [] 0 node) (bf 1 "value" i32 0 0)); [reflexivity|reflexivity|left; reflexivity|split; reflexivity|exact I].
    + apply (rn_own GE CP 1 cNode (prog 1 [] 0 node) (bf 1 "next" (TShared (TStruct 1)) 0 0)); [reflexivity|reflexivity|right; left; reflexivity|split; reflexivity|exact I].
Qed.
Example ver_a_renewed : renewed GE CP 3 (2, B "a") /\ renewed GE CP 3 (3, B "y").
Proof.
  split.
  - apply (rn_base GE CP 3 cDerived (prog 3 [2] 5 derived) 2); [reflexivity|reflexivity|left; reflexivity|].
    apply (rn_own GE CP 2 cVer (prog 2 [] 3 ver) (bf 2 "a" i32 0 0)); [reflexivity|reflexivity|left; reflexivity|split; reflexivity|exact I].
  - apply (rn_own GE CP 3 cDerived (prog 3 [2] 5 derived) (bf 3 "y" (TVariant [i32; TString; TMono]) 0 0)); [reflexivity|reflexivity|right; left; reflexivity|split; reflexivity|exact I].
Qed.

(** an object of class [Derived] with members different from the ones of a new object *)
Definition used : list (fkey * val) :=
  [((2, B "a"), VInt 7); ((2, B "b"), VStr (B "old")); ((2, B "c"), VInt 9); ((2, B "d"), VOpt None);
   ((3, B "x"), VList [VPair (VStr (B "k")) (VList [VInt 1])]); ((3, B "y"), VVar 1 (VStr (B "z")))].
(** data with version 1 of [Ver] (members a and c) and version 5 of [Derived]: x = {"m": []}, y = 5 *)
Definition data1 : bytes := hex [0x81; 0; 0; 0; 1; 0; 0; 0; 2; 0x85; 0x81; 0x81; 0x6d; 0x80; 0; 0; 0; 0; 5].
Example used_typed : has_type GE false [] (TStruct 3) (VObj used).
Proof.
  apply (ht_struct GE false [] 3 cDerived); [reflexivity|reflexivity|].
  intros k t v. cbn. repeat match goal with |- context [fkey_eqb k ?x] => destruct (fkey_eqb k x);
    [intros E1 E2; injection E1 as <-; injection E2 as <-; try (constructor; reflexivity); try constructor|] end; try discriminate.
  - intros x [<-|[]]. eauto.
  - intros a b [E|[]]. injection E as <- <-. constructor.
  - intros a b [E|[]]. injection E as <- <-. constructor. intros y [<-|[]]. constructor. reflexivity.
  - apply (ht_variant _ _ _ _ 1%nat TString); [reflexivity|constructor].
Qed.
Example new_typed : has_type GE false [] (TStruct 3) (VObj (rc_vinit cDerived)).
Proof. apply (eo_vinit _ _ GE_env_ok 3 cDerived). reflexivity. Qed.

(** a new object and the one with other contents: the same version and bytes; a and y are equal afterwards; b is not in the data and keeps its value; x keeps its element *)
Example restore_instance : exists o o' st,
    restoreFromBinary GE 9 3 (rc_vinit cDerived) data1 [] = ROk (o, 5, [], st) /\ restoreFromBinary GE 9 3 used data1 [] = ROk (o', 5, [], st)
    /\ alookup fkey_eqb (2, B "a") o = alookup fkey_eqb (2, B "a") o' /\ alookup fkey_eqb (3, B "y") o = alookup fkey_eqb (3, B "y") o'
    /\ alookup fkey_eqb (2, B "d") o = alookup fkey_eqb (2, B "d") o'
    /\ alookup fkey_eqb (2, B "b") o = Some (VStr []) /\ alookup fkey_eqb (2, B "b") o' = Some (VStr (B "old"))
    /\ alookup fkey_eqb (3, B "x") o = Some (VList [VPair (VStr (B "m")) (VList [])])
    /\ alookup fkey_eqb (3, B "x") o' = Some (VList [VPair (VStr (B "k")) (VList [VInt 1]); VPair (VStr (B "m")) (VList [])]).
Proof.
  destruct (restoreFromBinary GE 9 3 (rc_vinit cDerived) data1 []) as [[[[o v] r] st]| | | |] eqn:E1; try (vm_compute in E1; discriminate).
  destruct (restoreFromBinary GE 9 3 used data1 []) as [[[[o' v'] r'] st']| | | |] eqn:E2; try (vm_compute in E2; discriminate).
  assert (Q := C75_restore GE false CP GE_alloc GE_place GE_env_ok GE_overwritten 9 3 cDerived (prog 3 [2] 5 derived) (rc_vinit cDerived) used data1 [] eq_refl eq_refl
    (fun a t x (H : hget [] a = Some (t, x)) => ltac:(discriminate H)) new_typed used_typed).
  rewrite E1, E2 in Q. destruct Q as (Qv & Qr & Qs & Q). exists o, o', st. subst v' r' st'.
  assert (v = 5 /\ r = []) as [-> ->] by (vm_compute in E1; injection E1; auto). split; [reflexivity|]. split; [reflexivity|].
  split; [apply Q; right; apply ver_a_renewed|]. split; [apply Q; right; apply ver_a_renewed|]. split; [apply Q; left; reflexivity|].
  vm_compute in E1, E2. injection E1 as <- _. injection E2 as <- _. vm_compute. auto.
Qed.
(** broken data: both calls throw the same exception *)
Example restore_broken : restoreFromBinary GE 9 3 used (firstn 12 data1) [] = RThrow ExIo /\ restoreFromBinary GE 9 3 (rc_vinit cDerived) (firstn 12 data1) [] = RThrow ExIo.
Proof. split; reflexivity. Qed.
(** a list element which existed before and one which did not *)
Definition nd (z : Z) : val := VObj [((1, B "value"), VInt z); ((1, B "next"), VShared None)].
Example determined_instance : overwritten CP (TSeq (TStruct 1)) /\ has_type GE false [] (TSeq (TStruct 1)) (VList [nd 1; nd 2])
  /\ read GE 9 0 (TSeq (TStruct 1)) (VList [nd 1; nd 2]) (hex [0x81; 0; 0; 0; 3; 0]) S0 = read GE 9 0 (TSeq (TStruct 1)) (VList []) (hex [0x81; 0; 0; 0; 3; 0]) S0
  /\ exists r st, read GE 9 0 (TSeq (TStruct 1)) (VList []) (hex [0x81; 0; 0; 0; 3; 0]) S0 = ROk (VList [nd 3], r, st).
Proof.
  split; [reflexivity|]. assert (T : has_type GE false [] (TSeq (TStruct 1)) (VList [nd 1; nd 2])).
  { constructor. assert (W : forall z, in_range KI32 z = true -> has_type GE false [] (TStruct 1) (nd z)).
    { intros z Hz. apply (ht_struct GE false [] 1 cNode); [reflexivity|reflexivity|]. intros k t v. cbn.
      repeat match goal with |- context [fkey_eqb k ?x] => destruct (fkey_eqb k x); [intros E1 E2; injection E1 as <-; injection E2 as <-; constructor; exact Hz|] end; discriminate. }
    intros x [<-|[<-|[]]]; apply W; reflexivity. }
  split; [exact T|]. split; [|eexists; eexists; vm_compute; reflexivity].
  assert (T0 : has_type GE false [] (TSeq (TStruct 1)) (VList [])) by (constructor; intros ? []).
  assert (RD : readable GE (TSeq (TStruct 1))) by (exists cNode; eexists; split; reflexivity).
  assert (Q := C75_same_course GE false CP GE_alloc GE_place GE_env_ok GE_overwritten 9 0 (TSeq (TStruct 1)) (VList [nd 1; nd 2]) (VList []) (hex [0x81; 0; 0; 0; 3; 0]) S0 RD empty_state_ok (or_intror (conj T T0))).
  destruct (read GE 9 0 (TSeq (TStruct 1)) (VList [nd 1; nd 2]) (hex [0x81; 0; 0; 0; 3; 0]) S0) as [[[v r] st]| | | |], (read GE 9 0 (TSeq (TStruct 1)) (VList []) (hex [0x81; 0; 0; 0; 3; 0]) S0) as [[[v' r'] st']| | | |];
    try contradiction; try reflexivity; [|f_equal; exact Q]. destruct Q as (-> & -> & Q). rewrite Q; [reflexivity|]. reflexivity.
Qed.

(** * Reading again: a class with a base class, sets, maps, versions, and a multiset within an optional *)
Definition tagged : list (string * ty * N * N) := [("tags", TSet true false TString, 0, 0)]%string.
Definition thing : list (string * ty * N * N) :=
  [("counts", TMap false false TString i32, 0, 0); ("list", TSeq (TPair i32 (TSet true false i32)), 0, 0); ("bag", TOptional (TSet true true TString), 2, 0); ("inner", TSeq (TStruct 0), 0, 0)]%string.
Definition cTagged := mkclass 0 "Tagged" [] 0 [] [] tagged.
Definition cThing := mkclass 1 "Thing" [0] 3 (rc_layout cTagged) (rc_vinit cTagged) thing.
Definition GP : genv := {| g_class := fun c => match c with 0 => Some cTagged | 1 => Some cThing | _ => None end; g_lt := fun _ => val_ltb; g_eq := fun _ => val_eqb; g_place := fun _ l x => l ++ [x];
  g_alloc := fun h => 1 + fold_right N.max 0 (map fst h) |}.
Definition UP (c : N) : Prop := c = 0 \/ c = 1.
Definition L0 : list bfield := map (fun '(n, t, a, u) => bf 0 n t a u) tagged.
Definition L1 : list bfield := map (fun '(n, t, a, u) => bf 1 n t a u) thing.
Lemma reads0 : reads GP 0 L0. Proof. exact (rds_intro GP 0 cTagged (prog 0 [] 0 tagged) [] eq_refl eq_refl (Forall2_nil _)). Qed.
Lemma reads1 : reads GP 1 (L0 ++ L1). Proof. exact (rds_intro GP 1 cThing (prog 1 [0] 3 thing) [L0] eq_refl eq_refl (Forall2_cons _ _ reads0 (Forall2_nil _))). Qed.
Example GP_place : place_ok GP. Proof. intros t l x. cbn. apply Permutation_cons_append. Qed.
Example GP_unshared : classes_unshared GP UP.
Proof.
  intros c [->| ->]; [exists L0; split; [exact reads0|]|exists (L0 ++ L1); split; [exact reads1|]].
  - intros fd [<-|[]]. exact I.
  - intros fd [<-|[<-|[<-|[<-|[<-|[]]]]]]; cbn; auto. left; reflexivity.
Qed.
Lemma GP_keys t : keys_ok GP t.
Proof. destruct (GE_keys t) as [A C D]. constructor; [exact A|exact C|exact D]. Qed.
Example GP_strings_self_equal : self_equal GP TString (vinit GP TString).
Proof.
  intros f s st k r st1 E. destruct f as [|f]; [discriminate|]. rewrite read_S in E. cbn [read_body] in E. destruct (rd_string s) as [[x r0]| | | |] eqn:E1; try discriminate. cbn [rbind] in E. injection E as <- _ _. cbn. apply bytes_eqb_eq. reflexivity.
Qed.
Lemma empty_content t : match t with TSet _ _ _ | TMap _ _ _ _ | TSeq _ => True | _ => False end -> content GP t (VList []).
Proof. destruct t; intros []; [apply ct_seq; intros ? []|apply ct_set|apply ct_map]; unfold cont_inv; repeat match goal with |- context [if ?b then _ else _] => destruct b end; try exact I; constructor. Qed.
Example GP_repeatable : classes_repeatable GP UP UP.
Proof.
  assert (RT : repeatable GP UP UP (TSet true false TString)) by (cbn; split; [reflexivity|]; split; [apply GP_keys|]; split; [discriminate|exact I]).
  intros c [->| ->].
  - split; [left; reflexivity|]. exists cTagged, L0. split; [reflexivity|]. split; [exact reads0|]. split; [apply nodup_once; repeat constructor; intros []|]. split; [intros fd [<-|[]]; exact RT|].
    apply ct_struct. intros L fd x HL Hfd E. rewrite <- (reads_fun _ _ _ reads0 _ HL) in Hfd. destruct Hfd as [<-|[]]. vm_compute in E. injection E as <-. apply empty_content. exact I.
  - split; [right; reflexivity|]. exists cThing, (L0 ++ L1). split; [reflexivity|]. split; [exact reads1|]. split; [|split].
    + apply nodup_once. cbn. repeat constructor; cbn; intuition discriminate.
    + intros fd [<-|[<-|[<-|[<-|[<-|[]]]]]]; [exact RT| | | |].
      * cbn. split; [reflexivity|]. split; [apply GP_keys|]. split; [intros _; exact GP_strings_self_equal|]. split; exact I.
      * cbn. split; [exact I|]. split; [reflexivity|]. split; [apply GP_keys|]. split; [discriminate|exact I].
      * exact I.
      * left. reflexivity.
    + apply ct_struct. intros L fd x HL Hfd E. rewrite <- (reads_fun _ _ _ reads1 _ HL) in Hfd. destruct Hfd as [<-|[<-|[<-|[<-|[<-|[]]]]]]; vm_compute in E; injection E as <-; try (apply empty_content; exact I). apply ct_other. exact I.
Qed.

(** tags {"b","a"} ; version 3; counts {"k": 1, "k": 2}; list [(7, {2, 1})]; bag {"x","x"}; inner [{tags {"q"}}] *)
Definition data2 : bytes := hex [0x82; 0x81; 0x62; 0x81; 0x61; 0x83; 0x82; 0x81; 0x6b; 0; 0; 0; 1; 0x81; 0x6b; 0; 0; 0; 2; 0x81; 0; 0; 0; 7; 0x82; 0; 0; 0; 2; 0; 0; 0; 1; 1; 0x82; 0x81; 0x78; 0x81; 0x78; 0x81; 0x81; 0x81; 0x71; 0xff].
Definition thing_old : list (fkey * val) :=
  [((0, B "tags"), VList [VStr (B "b"); VStr (B "c")]); ((1, B "counts"), VList [VPair (VStr (B "z")) (VInt 4)]); ((1, B "list"), VList [VPair (VInt 3) (VList [VInt 5])]); ((1, B "bag"), VOpt None);
   ((1, B "inner"), VList [VObj [((0, B "tags"), VList [VStr (B "t")])]])].
Definition thing_new : list (fkey * val) :=
  [((0, B "tags"), VList [VStr (B "a"); VStr (B "b"); VStr (B "c")]); ((1, B "counts"), VList [VPair (VStr (B "z")) (VInt 4); VPair (VStr (B "k")) (VInt 1)]); ((1, B "list"), VList [VPair (VInt 7) (VList [VInt 1; VInt 2; VInt 5])]);
   ((1, B "bag"), VOpt (Some (VList [VStr (B "x"); VStr (B "x")]))); ((1, B "inner"), VList [VObj [((0, B "tags"), VList [VStr (B "q"); VStr (B "t")])]])].
Example thing_old_content : content GP (TStruct 1) (VObj thing_old).
Proof.
  apply ct_struct. intros L fd x HL Hfd E. rewrite <- (reads_fun _ _ _ reads1 _ HL) in Hfd. destruct Hfd as [<-|[<-|[<-|[<-|[<-|[]]]]]]; vm_compute in E; injection E as <-.
  - apply ct_set. repeat constructor.
  - apply ct_map. repeat constructor.
  - apply ct_seq. intros x [<-|[]]. apply ct_pair; [apply ct_other; exact I|]. apply ct_set. repeat constructor.
  - apply ct_other. exact I.
  - apply ct_seq. intros x [<-|[]]. apply ct_struct. intros L' fd x HL' Hfd E. rewrite <- (reads_fun _ _ _ reads0 _ HL') in Hfd. destruct Hfd as [<-|[]]. vm_compute in E. injection E as <-. apply ct_set. repeat constructor.
Qed.
Example again_instance : restoreFromBinary GP 9 1 thing_old data2 [] = ROk (thing_new, 3, hex [0xff], S0)
  /\ forall h, restoreFromBinary GP 9 1 thing_new data2 h = ROk (thing_new, 3, hex [0xff], {| r_heap := h; r_ptr := [] |}).
Proof.
  assert (E : restoreFromBinary GP 9 1 thing_old data2 [] = ROk (thing_new, 3, hex [0xff], S0)) by (vm_compute; reflexivity).
  split; [exact E|]. exact (proj2 (C75_restore_again GP UP UP GP_place GP_unshared GP_repeatable 9 1 thing_old data2 [] thing_new 3 (hex [0xff]) S0 (or_intror eq_refl) thing_old_content E)).
Qed.

(** members which are read several times: the generated code for a class reads the base class of its base class again *)
Definition grand : list (string * ty * N * N) := [("id", i32, 0, 0); ("name", TOptional TString, 2, 0); ("path", TSeq i32, 0, 0)]%string.
Definition mid : list (string * ty * N * N) := [("tags", TSet true false TString, 0, 0)]%string.
Definition cGrand := mkclass 0 "Grand" [] 3 [] [] grand.
Definition cMid := mkclass 1 "Mid" [0] 0 (rc_layout cGrand) (rc_vinit cGrand) mid.
Definition cLow := mkclass 2 "Low" [1; 0] 0 (rc_layout cMid) (rc_vinit cMid) [("z", TSeq i32, 0, 0)]%string.
Definition GM : genv := {| g_class := fun c => match c with 0 => Some cGrand | 1 => Some cMid | 2 => Some cLow | _ => None end; g_lt := fun _ => val_ltb; g_eq := fun _ => val_eqb; g_place := fun _ l x => l ++ [x];
  g_alloc := fun h => 1 + fold_right N.max 0 (map fst h) |}.
Definition LG : list bfield := map (fun '(n, t, a, u) => bf 0 n t a u) grand.
Definition LM : list bfield := LG ++ map (fun '(n, t, a, u) => bf 1 n t a u) mid.
Definition LL : list bfield := (LM ++ LG) ++ [bf 2 "z" (TSeq i32) 0 0].
Lemma readsG : reads GM 0 LG. Proof. exact (rds_intro GM 0 cGrand (prog 0 [] 3 grand) [] eq_refl eq_refl (Forall2_nil _)). Qed.
Lemma readsM : reads GM 1 LM. Proof. exact (rds_intro GM 1 cMid (prog 1 [0] 0 mid) [LG] eq_refl eq_refl (Forall2_cons _ _ readsG (Forall2_nil _))). Qed.
Lemma readsL : reads GM 2 LL. Proof. exact (rds_intro GM 2 cLow (prog 2 [1; 0] 0 [("z", TSeq i32, 0, 0)]%string) [LM; LG] eq_refl eq_refl (Forall2_cons _ _ readsM (Forall2_cons _ _ readsG (Forall2_nil _)))). Qed.
Definition UM (c : N) : Prop := c = 2.
Example GM_place : place_ok GM. Proof. intros t l x. cbn. apply Permutation_cons_append. Qed.
Example GM_unshared : classes_unshared GM UM.
Proof. intros c ->. exists LL. split; [exact readsL|]. intros fd H. cbn in H. repeat (destruct H as [<-|H]; [exact I|]). destruct H. Qed.
Example GM_again : ~ NoDup (map bf_key LL) /\ once_or_overwritten LL.
Proof.
  split.
  - intros N. vm_compute in N. inversion N as [|? ? Q _]; subst. apply Q. right. right. right. left. reflexivity.
  - intros A fd B fd' E H K. repeat (destruct A as [|? A]; [|cbn in E; first [discriminate E|injection E as ? E; subst]]); cbn in E; try discriminate E; injection E as ? ?; subst; cbn in H;
      repeat (destruct H as [<-|H]; [first [discriminate K|split; [reflexivity|exact I]]|]); destruct H.
Qed.
Example GM_repeatable : classes_repeatable GM UM UM.
Proof.
  intros c ->. split; [reflexivity|]. exists cLow, LL. split; [reflexivity|]. split; [exact readsL|]. split; [exact (proj2 GM_again)|]. split.
  - intros fd H. cbn in H. repeat (destruct H as [<-|H]; [first [exact I|cbn; split; [reflexivity|]; split; [destruct (GE_keys TString) as [A C D]; constructor; [exact A|exact C|exact D]|]; split; [discriminate|exact I]]|]). destruct H.
  - apply ct_struct. intros L fd x HL Hfd E. rewrite <- (reads_fun _ _ _ readsL _ HL) in Hfd. cbn in Hfd.
    repeat (destruct Hfd as [<-|Hfd]; [vm_compute in E; injection E as <-; first [apply ct_other; exact I|apply ct_seq; intros ? []|apply ct_set; constructor]|]). destruct Hfd.
Qed.
(** version 3 id 5 name "a" path [1, 2]; tags {"t"}; version 1 id 6 path [3]; z [1].  The second time the id is read first from the first part again, and then replaced; the name is not in the second part *)
Definition data3 : bytes := hex [0x83; 0; 0; 0; 5; 1; 0x81; 0x61; 0x82; 0; 0; 0; 1; 0; 0; 0; 2; 0x81; 0x81; 0x74; 0x81; 0; 0; 0; 6; 0x81; 0; 0; 0; 3; 0x81; 0; 0; 0; 1].
Definition low_new : list (fkey * val) := [((0, B "id"), VInt 6); ((0, B "name"), VOpt (Some (VStr (B "a")))); ((0, B "path"), VList [VInt 3]); ((1, B "tags"), VList [VStr (B "t")]); ((2, B "z"), VList [VInt 1])].
Example C75_case_repeatedly : restoreFromBinary GM 9 2 (rc_vinit cLow) data3 [] = ROk (low_new, 0, [], S0)
  /\ forall h, restoreFromBinary GM 9 2 low_new data3 h = ROk (low_new, 0, [], {| r_heap := h; r_ptr := [] |}).
Proof.
  assert (E : restoreFromBinary GM 9 2 (rc_vinit cLow) data3 [] = ROk (low_new, 0, [], S0)) by (vm_compute; reflexivity).
  split; [exact E|]. destruct (GM_repeatable 2 eq_refl) as (_ & rc & L & Ec & _ & _ & _ & CO). injection Ec as <-.
  exact (proj2 (C75_restore_again GM UM UM GM_place GM_unshared GM_repeatable 9 2 (rc_vinit cLow) data3 [] low_new 0 [] S0 eq_refl CO E)).
Qed.

(** an object of class [Node] is read three times; the second data has a pointer to another node, the third one has none *)
Definition datas : list bytes := [hex [0; 0; 0; 3; 0]; hex [0; 0; 0; 4; 1; 0x85; 0; 0; 0; 6; 0]].
Definition node_old : list (fkey * val) := [((1, B "value"), VInt 1); ((1, B "next"), VShared None)].
Definition node_last : list (fkey * val) := [((1, B "value"), VInt 4); ((1, B "next"), VShared (Some 1))].
Example C75_case_last_data : exists h1, restore_each GE 9 1 node_old [] datas = ROk (node_last, h1) /\ hget h1 1 = Some (TStruct 1, nd 6)
  /\ (forall s, restoreFromBinary GE 9 1 node_last s h1 = restoreFromBinary GE 9 1 (rc_vinit cNode) s h1)
  /\ exists st, restoreFromBinary GE 9 1 node_last (hex [0; 0; 0; 9; 0]) h1 = ROk ([((1, B "value"), VInt 9); ((1, B "next"), VShared None)], 0, [], st).
Proof.
  destruct (restore_each GE 9 1 node_old [] datas) as [[o h1]| | | |] eqn:E; try (vm_compute in E; discriminate E).
  assert (Q : o = node_last /\ hget h1 1 = Some (TStruct 1, nd 6)) by (vm_compute in E; injection E as <- <-; split; vm_compute; reflexivity). destruct Q as [-> Q].
  exists h1. split; [reflexivity|]. split; [exact Q|]. split.
  - refine (C75_last_data GE false CP GE_alloc GE_place GE_env_ok GE_overwritten 9 1 cNode (prog 1 [] 0 node) node_old [] datas node_last h1 eq_refl eq_refl eq_refl _ _ E).
    + intros a t x H. discriminate H.
    + apply (ht_struct GE false [] 1 cNode); [reflexivity|reflexivity|]. intros k t v. cbn.
      repeat match goal with |- context [fkey_eqb k ?x] => destruct (fkey_eqb k x); [intros E1 E2; injection E1 as <-; injection E2 as <-; constructor; reflexivity|] end; discriminate.
  - vm_compute in E. injection E as <-. eexists. vm_compute. reflexivity.
Qed.

(** * What is not true *)

(** the elements of a std::multiset are there twice when read twice *)
Theorem C75_multiset_refuted : exists v r st w, read GE 9 0 (TSet true true TString) (VList []) (hex [0x81; 0x81; 0x61]) S0 = ROk (v, r, st)
  /\ read GE 9 0 (TSet true true TString) v (hex [0x81; 0x81; 0x61]) S0 = ROk (w, r, st) /\ w <> v.
Proof. do 4 eexists. split; [vm_compute; reflexivity|]. split; [vm_compute; reflexivity|]. discriminate. Qed.
Print Assumptions C75_multiset_refuted.

(** a NaN is inserted into a std::unordered_set<double> each time *)
Theorem C75_nan_refuted : exists v r st w, read GE 9 0 (TSet false false TF64) (VList []) (hex [0x81; 0x7f; 0xf8; 0; 0; 0; 0; 0; 0]) S0 = ROk (v, r, st)
  /\ read GE 9 0 (TSet false false TF64) v (hex [0x81; 0x7f; 0xf8; 0; 0; 0; 0; 0; 0]) S0 = ROk (w, r, st) /\ w <> v.
Proof. do 4 eexists. split; [vm_compute; reflexivity|]. split; [vm_compute; reflexivity|]. discriminate. Qed.
Print Assumptions C75_nan_refuted.

(** a std::shared_ptr refers to another object after it has been read again *)
Theorem C75_shared_refuted : exists v r st w st2, read GE 9 0 (TShared i32) (VShared None) (hex [1; 0x81; 0; 0; 0; 5]) S0 = ROk (v, r, st)
  /\ read GE 9 0 (TShared i32) v (hex [1; 0x81; 0; 0; 0; 5]) {| r_heap := r_heap st; r_ptr := [] |} = ROk (w, r, st2) /\ w <> v.
Proof. do 5 eexists. split; [vm_compute; reflexivity|]. split; [vm_compute; reflexivity|]. discriminate. Qed.
Print Assumptions C75_shared_refuted.

(** the sets within a std::vector keep their elements although the vector is resized to the number of elements in the data *)
Theorem C75_nested_set_refuted : exists v v' r st, read GE 9 0 (TSeq (TSet true false i32)) (VList []) (hex [0x81; 0x81; 0; 0; 0; 5]) S0 = ROk (v, r, st)
  /\ read GE 9 0 (TSeq (TSet true false i32)) (VList [VList [VInt 1]; VList []]) (hex [0x81; 0x81; 0; 0; 0; 5]) S0 = ROk (v', r, st) /\ v = VList [VList [VInt 5]] /\ v' = VList [VList [VInt 1; VInt 5]].
Proof. do 4 eexists. split; [vm_compute; reflexivity|]. split; [vm_compute; reflexivity|]. split; reflexivity. Qed.
Print Assumptions C75_nested_set_refuted.
