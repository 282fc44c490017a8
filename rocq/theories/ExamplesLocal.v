(** ExamplesLocal.v -- declarations which meet the hypotheses of the theorems in PropertiesLocal.v, and changes which do matter *)
From Coq Require Import String List NArith ZArith Bool Lia Permutation.
From Verif Require Import Base BaseFacts Bytes Types BinModel BinSpec GenModel GenSem GenSpec GenSelect JsonGen LocalSpec LocalFacts PropertiesLocal ExamplesEnv ExamplesGen.
Import ListNotations.
Local Open Scope list_scope.
Local Open Scope N_scope.

(** ** further declarations: a function, a class of a header derived from Child, a class in the main file which is not (de)serialised *)
Definition hidden : decl := DRecord (mk 20 "Hidden" 5 [base 13 (B "Child") "Child" 0; base 5 bt "BinarySerializable<Hidden>" 0] [pub "h" i32]).
Definition helper : decl := DRecord (mk 21 "Helper" 0 [] [pub "y" i32; MOther]).
Definition family_more : list decl := hidden :: DOther :: firstn 2 family ++ helper :: skipn 2 family ++ [DOther].
Definition extra (d : decl) : Prop := d = hidden \/ d = helper \/ d = DOther.
Lemma extra_another d : extra d -> another fo family d.
Proof.
  intros [-> | [-> | ->]] r E; try discriminate; injection E as <-; (split; [|intros q (_ & Q & _); vm_compute in Q; discriminate]);
    intros _ r' H _; (repeat (destruct H as [H|H]; [injection H as <-; split; [vm_compute; discriminate|]; cbn; intros b Hb; repeat (destruct Hb as [<-|Hb]; [vm_compute; discriminate|]); destruct Hb|]); destruct H).
Qed.
Lemma extra_unwanted d : extra d -> unwanted fo family_more d.
Proof.
  intros D r E W. apply relevant_iff in W. subst d.
  destruct D as [E|[E|E]]; try discriminate; injection E as ->; vm_compute in W; repeat (destruct W as [W|W]; [discriminate W|]); destruct W.
Qed.
Example family_more_inserted : inserted (fun d => another fo family d /\ unwanted fo family_more d) family family_more.
Proof.
  apply inserted_impl with (P := extra); [intros d D; split; [apply extra_another|apply extra_unwanted]; exact D|].
  unfold family_more, family. cbn [firstn skipn app]. unfold extra.
  apply ins_more; [auto|]. apply ins_more; [auto|]. do 2 apply ins_same. apply ins_more; [auto|]. do 3 apply ins_same. apply ins_more; [auto|]. constructor.
Qed.
Theorem C79_example_irrelevant : generate_binary fo family_more = generate_binary fo family /\ generate_binary fo family <> [].
Proof. split; [apply C79_irrelevant_declarations, family_more_inserted|vm_compute; discriminate]. Qed.
Print Assumptions C79_example_irrelevant.

(** ** a further class derived from Parent: one more section *)
Definition sibling : decl := DRecord (mk 22 "Sibling" 0 [base 12 (B "Parent") "Parent" 0; base 6 bt "BinarySerializable<Sibling>" 0] [pub "z" i32]).
Definition family_sibling : list decl := firstn 3 family ++ sibling :: skipn 3 family.
Example family_sibling_inserted : inserted (another fo family) family family_sibling.
Proof.
  unfold family_sibling. change family with (firstn 3 family ++ skipn 3 family) at 2. apply inserted_app; [apply inserted_refl|]. apply ins_more; [|apply inserted_refl].
  intros r E. injection E as <-. split; [|intros q (_ & Q & _); vm_compute in Q; discriminate].
  intros _ r' H _. repeat (destruct H as [H|H]; [injection H as <-; split; [vm_compute; discriminate|]; cbn; intros b Hb; repeat (destruct Hb as [<-|Hb]; [vm_compute; discriminate|]); destruct Hb|]). destruct H.
Qed.
Theorem C79_example_sibling : map qname (relevant_classes fo family_sibling) = map B ["Grand"; "Parent"; "Sibling"; "Child"]%string
  /\ (exists S S', inserted anything S S' /\ generate_binary fo family = output "BinaryReflector" S /\ generate_binary fo family_sibling = output "BinaryReflector" S' /\ length S = 3%nat /\ length S' = 4%nat)
  /\ generated_binary fo family_sibling kchild (fam_class kchild).
Proof.
  split; [vm_compute; reflexivity|]. split.
  - destruct (C79_further_classes fo family family_sibling family_sibling_inserted) as [(S & S' & I & N & N' & _ & T & T') _]. exists S, S'. split; [exact I|]. split; [exact T|]. split; [exact T'|].
    split; [apply (f_equal (@length _)) in N; rewrite !map_length in N; rewrite N; vm_compute; reflexivity|apply (f_equal (@length _)) in N'; rewrite !map_length in N'; rewrite N'; vm_compute; reflexivity].
  - apply (proj1 (proj2 (C79_same_functions fo family family_sibling kchild family_sibling_inserted child_relevant))). split; reflexivity.
Qed.
Print Assumptions C79_example_sibling.

(** ** methods, a const member and a static member variable are added to Parent, and its base classes are exchanged *)
Definition parent_more : crecord := mk 12 "Parent" 0 [base 3 bt "BinarySerializable<Parent, 1>" 1; base 11 (B "Grand") "Grand" 0]
  [MOther; pub "p" TString; MVar (B "instances") (Some 7); MField (B "c") Public true i32; MOther; MField (B "d") Public true TBool; MField (B "s") Private false i32].
Definition family_methods : list decl := firstn 2 family ++ DRecord parent_more :: skipn 3 family.
Lemma extended_class_refl o P r : (forall b b', In b (cr_bases r) -> In b' (cr_bases r) -> cb_id b <> None -> cb_id b' <> None -> cb_qname b = o_template o -> cb_qname b' = o_template o -> b = b') -> extended_class o P r r.
Proof. intros H. unfold extended_class. do 8 (split; [reflexivity|]). split; [apply inserted_refl|]. split; [apply Permutation_refl|exact H]. Qed.
Example family_methods_extended : extended fo silent_binary family family_methods.
Proof.
  unfold extended, family_methods, family. cbn [firstn skipn app].
  assert (U : forall q f bases ds i, (forall b b', In b bases -> In b' bases -> cb_id b <> None -> cb_id b' <> None -> cb_qname b = bt -> cb_qname b' = bt -> b = b') -> extended_class fo silent_binary (mk i q f bases ds) (mk i q f bases ds))
    by (intros; apply extended_class_refl; assumption).
  repeat (apply Forall2_cons; [|]); try apply Forall2_nil.
  1, 2, 4, 5: apply U; intros b b' H H' _ _ E E'; cbn in H, H'; repeat (destruct H as [<-|H]; [vm_compute in E; try discriminate E; repeat (destruct H' as [<-|H']; [vm_compute in E'; try discriminate E'; reflexivity|]); destruct H'|]); destruct H.
  unfold extended_class, parent_more. do 8 (split; [reflexivity|]). split; [|split].
  - cbn [cr_decls mk]. apply ins_more; [left; reflexivity|]. apply ins_same. apply ins_more; [|apply ins_same, ins_more; [left; reflexivity|]].
    + right; right; left. exists (B "instances"), (Some 7). split; [reflexivity|]. split; intros s E; vm_compute in E; discriminate.
    + apply ins_more; [right; right; right; exists (B "d"), Public, TBool; reflexivity|]. apply inserted_refl.
  - apply perm_swap.
  - intros b b' H H' _ _ E E'. cbn in H, H'. repeat (destruct H as [<-|H]; [vm_compute in E; try discriminate E; repeat (destruct H' as [<-|H']; [vm_compute in E'; try discriminate E'; reflexivity|]); destruct H'|]); destruct H.
Qed.
Theorem C79_example_methods : generate_binary fo family_methods = generate_binary fo family.
Proof. apply C79_methods_binary, family_methods_extended. Qed.
Print Assumptions C79_example_methods.
(** JSON: a const member does matter *)
Theorem C79_const_json_refuted : exists ds ds', extended fo silent_binary ds ds' /\ generate_json (jopts 0 ["C"%string]) ds' <> generate_json (jopts 0 ["C"%string]) ds.
Proof.
  exists [DRecord (mk 2 "C" 0 [] [pub "a" i32])], [DRecord (mk 2 "C" 0 [] [MField (B "k") Public true i32; pub "a" i32])]. split; [|vm_compute; discriminate].
  constructor; [|constructor]. unfold extended_class. do 8 (split; [reflexivity|]). split; [|split; [apply perm_nil|intros ? ? []]].
  apply ins_more; [right; right; right; exists (B "k"), Public, i32; reflexivity|apply inserted_refl].
Qed.
Print Assumptions C79_const_json_refuted.

(** ** what does matter: the order of the declarations of base classes.  Exchanging the definitions of two classes changes the binary format of the class
    which is derived from both: data written before is restored with the members exchanged, without any error. *)
Definition left_class : decl := DRecord (mk 11 "Left" 0 [base 2 bt "BinarySerializable<Left>" 0] [pub "l" i32]).
Definition right_class : decl := DRecord (mk 12 "Right" 0 [base 3 bt "BinarySerializable<Right>" 0] [pub "r" i32]).
Definition both_class : decl := DRecord (mk 13 "Both" 0 [base 11 (B "Left") "Left" 0; base 12 (B "Right") "Right" 0; base 4 bt "BinarySerializable<Both>" 0] []).
Definition before : list decl := [left_class; right_class; both_class].
Definition after : list decl := [right_class; left_class; both_class].
Definition compiled (ds : list decl) : genv :=
  let ks := relevant_classes fo ds in
  {| g_class := fun c => option_map (fun k => let rbs := find_bases ds ks k in
       {| rc_name := qname k; rc_layout := []; rc_dinit := []; rc_vinit := []; rc_wr := writer_prog rbs k; rc_rd := reader_prog rbs k;
          rc_push := push_prog rbs k; rc_pull := pull_prog rbs k |}) (find (fun k => cr_id (k_rec k) =? c) ks);
     g_lt := g_lt GE; g_eq := g_eq GE; g_place := g_place GE; g_alloc := g_alloc GE |}.
Example compiled_generated ds : In ds [before; after] -> forall k, In k (relevant_classes fo ds) -> exists rc, g_class (compiled ds) (cr_id (k_rec k)) = Some rc /\ generated_binary fo ds k rc.
Proof. intros [<-|[<-|[]]] k H; vm_compute in H; repeat (destruct H as [<-|H]; [eexists; split; [reflexivity|split; reflexivity]|]); destruct H. Qed.
Theorem C79_declaration_order_refuted : Permutation before after /\ one_definition before /\ wf_bases before /\ generate_binary fo before <> generate_binary fo after
  /\ exists s, toBinary (compiled before) [] 10 13 [((11, B "l"), VInt 1); ((12, B "r"), VInt 2)] 0 = ROk s
  /\ exists v r st, restoreFromBinary (compiled after) 10 13 [((11, B "l"), VInt 0); ((12, B "r"), VInt 0)] s [] = ROk ([((11, B "l"), VInt 2); ((12, B "r"), VInt 1)], v, r, st).
Proof.
  split; [apply perm_swap|]. split; [|split; [|split]].
  - intros r r' H H'. repeat (destruct H as [H|H]; [inversion H; subst; clear H; repeat (destruct H' as [H'|H']; [inversion H'; subst; cbn; intros; try discriminate; reflexivity|]); destruct H'|]). destruct H.
  - intros r b i H _. repeat (destruct H as [H|H]; [inversion H; subst; clear H; cbn; intros Hb; repeat (destruct Hb as [<-|Hb]; [cbn; intros E; inversion E; subst; reflexivity|]); destruct Hb|]). destruct H.
  - vm_compute. discriminate.
  - eexists. split; [vm_compute; reflexivity|]. eexists _, _, _. vm_compute. reflexivity.
Qed.
Print Assumptions C79_declaration_order_refuted.
