(** ExamplesSettle.v -- the hypotheses of the theorems in PropertiesSettle.v are met *)
From Coq Require Import String List NArith ZArith Bool Lia.
From Verif Require Import Base BaseFacts Types TypesFacts BinModel BinSpec BinSafeSpec BinSafe BinFacts ContFacts BinTerm BinExcSpec ExamplesEnv ExamplesBin SettleSpec SettleFacts PropertiesSettle.
Import ListNotations.
Local Open Scope N_scope.

(** a versioned class with a set, a multimap, a variant and, as of version 2, a list of shared nodes *)
Definition doc : list (string * ty * N * N) :=
  [("id", i32, 0, 0); ("tags", TSet true false TString, 0, 0); ("notes", TMap true true i32 (TOptional TString), 0, 0); ("links", TSeq (TShared (TStruct 1)), 2, 0); ("kind", TVariant [i32; TMono], 2, 0)]%string.
Definition cDoc := mkclass 5 "Doc" [] 2 [] [] doc.
Definition GS : genv := {|
  g_class := fun c => if c =? 1 then Some cNode else if c =? 5 then Some cDoc else None;
  g_lt := g_lt GE; g_eq := g_eq GE; g_place := g_place GE; g_alloc := g_alloc GE |}.
Lemma GS_class c rc : g_class GS c = Some rc -> (c = 1 /\ rc = cNode) \/ (c = 5 /\ rc = cDoc).
Proof. cbn. destruct (c =? 1) eqn:E1; [apply N.eqb_eq in E1; intros Q; injection Q as <-; auto|]. destruct (c =? 5) eqn:E2; [apply N.eqb_eq in E2; intros Q; injection Q as <-; auto|discriminate]. Qed.
Lemma GS_alloc : alloc_ok GS. Proof. exact GE_alloc. Qed.
Lemma GS_place : place_ok GS. Proof. exact GE_place. Qed.
Lemma GS_keys t : keys_ok GS t. Proof. destruct (GE_keys t) as [A B C]. constructor; [exact A|exact B|exact C]. Qed.

Ltac members := repeat match goal with H : alookup _ ?k _ = Some _ |- _ => cbn [alookup] in H; match type of H with (if fkey_eqb k ?k' then _ else _) = _ => destruct (fkey_eqb k k') eqn:?; [injection H as <-|] | None = Some _ => discriminate H end end.

Example GS_env_ok : env_ok GS false.
Proof.
  assert (X : forall c rc, g_class GS c = Some rc -> has_type GS false [] (TStruct c) (VObj (rc_vinit rc))).
  { intros c rc Hc. destruct (GS_class _ _ Hc) as [[-> ->]|[-> ->]]; (eapply ht_struct; [reflexivity|reflexivity|]); intros k t v E1 E2; cbn in E1, E2;
    repeat match type of E1 with (if fkey_eqb k ?k' then _ else _) = _ => destruct (fkey_eqb k k'); [injection E1 as <-; injection E2 as <-|] end; try discriminate E1;
    try (constructor; reflexivity); try (constructor; intros; contradiction); try (constructor; fail). eapply ht_variant; [reflexivity|constructor; reflexivity]. }
  constructor.
  - exact X.
  - intros c rc Hc. assert (E : rc_dinit rc = rc_vinit rc) by (destruct (GS_class _ _ Hc) as [[-> ->]|[-> ->]]; reflexivity). rewrite E. apply X. exact Hc.
  - intros c rc p fd Hc Hp Hin. destruct (GS_class _ _ Hc) as [[-> ->]|[-> ->]]; inversion Hp; subst; cbn in Hin;
      repeat (destruct Hin as [<-|Hin]; [split; [vm_compute; reflexivity|cbn;
        repeat match goal with
        | |- _ /\ _ => split
        | |- True => exact I
        | |- _ = _ => reflexivity
        | |- _ <> _ => discriminate
        | |- TMono = TMono \/ _ => left
        | |- _ \/ _ => right
        | |- exists _, _ => eexists
        end]|]); destruct Hin.
  - intros c rc p b Hc Hp Hin. destruct (GS_class _ _ Hc) as [[-> ->]|[-> ->]]; inversion Hp; subst; destruct Hin.
Qed.

(** both classes, written with the most recent version *)
Definition VS (ex : bool) (wv rv c : N) : Prop := ex = false /\ wv = 0 /\ rv = 0 /\ (c = 1 \/ c = 5).
Definition Ldoc : list visit := map (mkvisit 2 2) (bp_fields (rc_wr cDoc)).
Lemma doc_visits : visits GS 0 0 5 Ldoc.
Proof.
  change Ldoc with (concat [] ++ Ldoc)%list. eapply visits_intro; [reflexivity|reflexivity|reflexivity|reflexivity|constructor|].
  change (bp_vmax (rc_wr cDoc) =? 0) with false. cbv iota. eexists. split; [reflexivity|]. split; [vm_compute; discriminate|]. split; [vm_compute; reflexivity|]. split; reflexivity.
Qed.
Definition Lnode : list visit := map (mkvisit 0 0) (bp_fields (rc_wr cNode)).
Lemma snode_visits : visits GS 0 0 1 Lnode.
Proof. change Lnode with (concat [] ++ Lnode)%list. eapply visits_intro; [reflexivity|reflexivity|reflexivity|reflexivity|constructor|]. cbn. split; reflexivity. Qed.

Example GS_settling : settling GS VS.
Proof.
  intros ex wv rv c (-> & -> & -> & [-> | ->]).
  - exists cNode, Lnode, (map vi_key Lnode). split; [reflexivity|]. split; [exact snode_visits|]. split; [apply nodup_repeatable; nodup|]. split.
    { intros x [<-|[<-|[]]]; cbn; [reflexivity|]. repeat split; auto. }
    split; [exact (rmo_intro GS 1 cNode (rc_wr cNode) [] eq_refl eq_refl (Forall2_nil _))|]. split; [apply once_replaced; nodup|]. split; [apply incl_refl|].
    eapply g_struct_once; [reflexivity|reflexivity|reflexivity|nodup|exact snode_visits|nodup|intros x [<-|[<-|[]]]; reflexivity| |].
    + intros x o v [<-|[<-|[]]]; vm_compute; intros E1 E2; inversion E1; inversion E2; subst; constructor; reflexivity.
    + intros k v Hk E. exfalso. cbn in E. apply Hk. repeat match type of E with (if fkey_eqb k ?k' then _ else _) = _ => destruct (fkey_eqb k k') eqn:Q; [apply fkey_eqb_eq in Q; rewrite Q; vm_compute; tauto|clear Q] end. discriminate E.
  - exists cDoc, Ldoc, (map vi_key Ldoc). split; [reflexivity|]. split; [exact doc_visits|]. split; [apply nodup_repeatable; nodup|]. split.
    { intros x [<-|[<-|[<-|[<-|[<-|[]]]]]]; cbn; repeat split; try discriminate; auto; try apply GS_keys; try lia. }
    split; [exact (rmo_intro GS 5 cDoc (rc_wr cDoc) [] eq_refl eq_refl (Forall2_nil _))|]. split; [apply once_replaced; nodup|]. split; [apply incl_refl|].
    eapply g_struct_once; [reflexivity|reflexivity|reflexivity|nodup|exact doc_visits|nodup|intros x [<-|[<-|[<-|[<-|[<-|[]]]]]]; reflexivity| |].
    + intros x o v [<-|[<-|[<-|[<-|[<-|[]]]]]]; vm_compute; intros E1 E2; inversion E1; inversion E2; subst; try (constructor; try reflexivity; try discriminate; try (intros; contradiction); constructor; fail).
      * constructor; [cbn; lia|]. intros [|i] x E; discriminate E.
      * eapply g_var; [cbn; lia|reflexivity|discriminate|constructor; reflexivity].
    + intros k v Hk E. exfalso. cbn in E. apply Hk. repeat match type of E with (if fkey_eqb k ?k' then _ else _) = _ => destruct (fkey_eqb k k') eqn:Q; [apply fkey_eqb_eq in Q; rewrite Q; vm_compute; tauto|clear Q] end. discriminate E.
Qed.

(** data of version 1: the tags "b", "a", "b" and two notes with the same key *)
Definition old_data : bytes := hex [0x81;  0; 0; 0; 9;  0x83; 0x81; 98; 0x81; 97; 0x81; 98;  0x82; 0; 0; 0; 5; 0; 0; 0; 0; 4; 7; 0x81; 120;  0xEE].
Definition doc_read : list (fkey * val) :=
  [((5, B "id"), VInt 9); ((5, B "tags"), VList [VStr (B "a"); VStr (B "b")]); ((5, B "notes"), VList [VPair (VInt 4) (VOpt (Some (VStr (B "x")))); VPair (VInt 5) (VOpt None)]);
   ((5, B "links"), VList []); ((5, B "kind"), VVar 0 (VInt 0))].
Example old_data_read : restoreFromBinary GS 10 5 (rc_vinit cDoc) old_data [] = ROk (doc_read, 1, hex [0xEE], {| r_heap := []; r_ptr := [] |}).
Proof. vm_compute. reflexivity. Qed.
(** data of version 2: a cycle of two nodes, IDs chosen by someone else, a note which occurs twice and the variant holding std::monostate *)
Definition hostile : bytes := hex [0x82;  0; 0; 0; 9;  0x80;  0x81; 0; 0; 0; 5; 0;  0x82; 1; 0x83;  0; 0; 0; 1; 1; 0x87;  0; 0; 0; 2; 2; 0x83;  2; 0x87;  1].
Definition hostile_heap : heap := [(1, (TStruct 1, nodeval 1 (Some 2))); (2, (TStruct 1, nodeval 2 (Some 1))); (2, (TStruct 1, nodeval 0 None)); (1, (TStruct 1, nodeval 0 None))].
Example hostile_read : exists fs, restoreFromBinary GS 10 5 (rc_vinit cDoc) hostile [] = ROk (fs, 2, [], {| r_heap := hostile_heap; r_ptr := [(7, (2, TStruct 1)); (3, (1, TStruct 1))] |})
  /\ alookup fkey_eqb (5, B "links") fs = Some (VList [VShared (Some 1); VShared (Some 2)]) /\ alookup fkey_eqb (5, B "kind") fs = Some (VVar 1 VMono).
Proof. eexists. split; [vm_compute; reflexivity|]. split; vm_compute; reflexivity. Qed.

Lemma none_good : objects_good GS []. Proof. intros a t x E. discriminate E. Qed.
Lemma doc_init_good : good GS [] false 0 0 (TStruct 5) (VObj (rc_vinit cDoc)) (VObj (rc_vinit cDoc)).
Proof. exact (C71_new_variable GS VS false 0 0 (TStruct 5) [] GS_settling ltac:(cbn; repeat split; auto)). Qed.
Example C71_case : forall fs v rest st, restoreFromBinary GS 10 5 (rc_vinit cDoc) hostile [] = ROk (fs, v, rest, st) ->
  exists F, forall fuel, (F <= fuel)%nat -> exists bs, toBinary GS (r_heap st) fuel 5 fs 0 = ROk bs
    /\ forall h0 rest', exists fs' h' ptrs ro, restoreFromBinary GS fuel 5 (rc_vinit cDoc) (bs ++ rest') h0 = ROk (fs', 2, rest', {| r_heap := h'; r_ptr := ptrs |})
      /\ same_value GS ro (TStruct 5) (VObj fs) (VObj fs') /\ graph_iso GS (r_heap st) h0 h' ro /\ (false = true -> fs' = fs).
Proof.
  intros fs v rest st E. assert (A : addresses_64 (r_heap st)).
  { destruct hostile_read as (fs' & E' & _). rewrite E in E'. injection E' as -> -> -> ->. cbn [r_heap]. intros a c Ec. unfold hget, hostile_heap in Ec. cbn [alookup] in Ec.
    repeat match type of Ec with (if a =? ?b then _ else _) = _ => destruct (a =? b) eqn:Q; [apply N.eqb_eq in Q; subst a; reflexivity|clear Q] end. discriminate Ec. }
  exact (C71_restore_again GS VS 10 5 false 0 (rc_vinit cDoc) hostile [] fs v rest st GS_alloc GS_place GS_env_ok GS_settling ltac:(cbn; repeat split; auto) none_good doc_init_good E A).
Qed.
Example C71_case_tags : forall fs v rest st, restoreFromBinary GS 10 5 (rc_vinit cDoc) old_data [] = ROk (fs, v, rest, st) ->
  part_of GS (r_heap st) (TStruct 5) (VObj fs) (TSet true false TString) (VList [VStr (B "a"); VStr (B "b")]).
Proof.
  intros fs v rest st E. rewrite old_data_read in E. injection E as <- <- <- <-. eapply (po_member _ _ _ cDoc (map vi_key Ldoc) _ (5, B "tags")); [reflexivity| | | | |apply po_itself].
  - exact (rmo_intro GS 5 cDoc (rc_wr cDoc) [] eq_refl eq_refl (Forall2_nil _)).
  - vm_compute. tauto.
  - vm_compute. reflexivity.
  - vm_compute. reflexivity.
Qed.

(** without the condition that every member which is read is written as well the theorem does not hold: the member "c" of class [Ver] belongs to the versions up to 2.  It is
    restored from data of version 1, not written with the current version 3, and hence lost *)
Theorem C71_outdated_member_refuted :
  exists fs st, restoreFromBinary GE 10 2 (rc_vinit cVer) (hex [0x81; 0; 0; 0; 1; 0; 0; 0; 7]) [] = ROk (fs, 1, [], st)
    /\ alookup fkey_eqb (2, B "c") fs = Some (VInt 7)
    /\ exists bs fs' st', toBinary GE (r_heap st) 10 2 fs 0 = ROk bs /\ restoreFromBinary GE 10 2 (rc_vinit cVer) bs [] = ROk (fs', 3, [], st')
      /\ alookup fkey_eqb (2, B "c") fs' = Some (VInt 0).
Proof. eexists _, _. split; [vm_compute; reflexivity|]. split; [vm_compute; reflexivity|]. eexists _, _, _. split; [vm_compute; reflexivity|]. split; vm_compute; reflexivity. Qed.
Print Assumptions C71_outdated_member_refuted.

(** members which are accessed repeatedly: generated code for [Child] accesses both base classes [Parent] and [Grand], and the one for [Parent] accesses [Grand] as well *)
Definition grand : list (string * ty * N * N) := [("g", i32, 0, 0); ("names", TSeq TString, 0, 0); ("best", TOptional TString, 0, 0)]%string.
Definition parent : list (string * ty * N * N) := [("p", TString, 0, 0)]%string.
Definition child : list (string * ty * N * N) := [("x", TMap true false TString i32, 0, 0)]%string.
Definition cGrand := mkclass 6 "Grand" [] 0 [] [] grand.
Definition cParent := mkclass 7 "Parent" [6] 0 (rc_layout cGrand) (rc_vinit cGrand) parent.
Definition cChild := mkclass 8 "Child" [7; 6] 0 (rc_layout cParent) (rc_vinit cParent) child.
Definition GT : genv := {|
  g_class := fun c => if c =? 6 then Some cGrand else if c =? 7 then Some cParent else if c =? 8 then Some cChild else None;
  g_lt := g_lt GE; g_eq := g_eq GE; g_place := g_place GE; g_alloc := g_alloc GE |}.
Lemma GT_class c rc : g_class GT c = Some rc -> (c = 6 /\ rc = cGrand) \/ (c = 7 /\ rc = cParent) \/ (c = 8 /\ rc = cChild).
Proof.
  cbn. destruct (c =? 6) eqn:E1; [apply N.eqb_eq in E1; intros Q; injection Q as <-; auto|]. destruct (c =? 7) eqn:E2; [apply N.eqb_eq in E2; intros Q; injection Q as <-; auto|].
  destruct (c =? 8) eqn:E3; [apply N.eqb_eq in E3; intros Q; injection Q as <-; auto|discriminate].
Qed.
Lemma GT_alloc : alloc_ok GT. Proof. exact GE_alloc. Qed.
Lemma GT_place : place_ok GT. Proof. exact GE_place. Qed.
Lemma GT_keys t : keys_ok GT t. Proof. destruct (GE_keys t) as [A B' C]. constructor; [exact A|exact B'|exact C]. Qed.
Example GT_env_ok : env_ok GT false.
Proof.
  assert (X : forall c rc, g_class GT c = Some rc -> has_type GT false [] (TStruct c) (VObj (rc_vinit rc))).
  { intros c rc Hc. destruct (GT_class _ _ Hc) as [[-> ->]|[[-> ->]|[-> ->]]]; (eapply ht_struct; [reflexivity|reflexivity|]); intros k t v E1 E2; cbn in E1, E2;
    repeat match type of E1 with (if fkey_eqb k ?k' then _ else _) = _ => destruct (fkey_eqb k k'); [injection E1 as <-; injection E2 as <-|] end; try discriminate E1;
    try (constructor; reflexivity); try (constructor; intros; contradiction); try (constructor; fail). }
  constructor.
  - exact X.
  - intros c rc Hc. assert (E : rc_dinit rc = rc_vinit rc) by (destruct (GT_class _ _ Hc) as [[-> ->]|[[-> ->]|[-> ->]]]; reflexivity). rewrite E. apply X. exact Hc.
  - intros c rc p fd Hc Hp Hin. destruct (GT_class _ _ Hc) as [[-> ->]|[[-> ->]|[-> ->]]]; inversion Hp; subst; cbn in Hin;
      repeat (destruct Hin as [<-|Hin]; [split; [vm_compute; reflexivity|cbn;
        repeat match goal with
        | |- _ /\ _ => split
        | |- True => exact I
        | |- _ = _ => reflexivity
        | |- _ <> _ => discriminate
        | |- exists _, _ => eexists
        end]|]); destruct Hin.
  - intros c rc p b Hc Hp Hin. destruct (GT_class _ _ Hc) as [[-> ->]|[[-> ->]|[-> ->]]]; inversion Hp; subst; cbn in Hin.
    + destruct Hin.
    + destruct Hin as [<-|[]]. exists cGrand, (rc_wr cGrand). split; [reflexivity|]. split; [reflexivity|]. intros k t E. cbn in E |- *.
      repeat match type of E with (if fkey_eqb k ?k' then _ else _) = _ => destruct (fkey_eqb k k'); [exact E|] end. discriminate E.
    + destruct Hin as [<-|[<-|[]]].
      * exists cParent, (rc_wr cParent). split; [reflexivity|]. split; [reflexivity|]. intros k t E. cbn in E |- *.
        repeat match type of E with (if fkey_eqb k ?k' then _ else _) = _ => destruct (fkey_eqb k k'); [exact E|] end. discriminate E.
      * exists cGrand, (rc_wr cGrand). split; [reflexivity|]. split; [reflexivity|]. intros k t E. cbn in E |- *.
        repeat match type of E with (if fkey_eqb k ?k' then _ else _) = _ => destruct (fkey_eqb k k'); [exact E|] end. discriminate E.
Qed.
Definition VT (ex : bool) (wv rv c : N) : Prop := ex = true /\ wv = 0 /\ rv = 0 /\ c = 8.
Definition Lgrand : list visit := map (mkvisit 0 0) (bp_fields (rc_wr cGrand)).
Definition Lparent : list visit := map (mkvisit 0 0) (bp_fields (rc_wr cParent)).
Definition Lchild : list visit := (concat [concat [Lgrand] ++ Lparent; Lgrand] ++ map (mkvisit 0 0) (bp_fields (rc_wr cChild)))%list.
Lemma grand_visits : visits GT 0 0 6 Lgrand.
Proof. change Lgrand with (concat [] ++ Lgrand)%list. eapply visits_intro; [reflexivity|reflexivity|reflexivity|reflexivity|constructor|]. cbn. split; reflexivity. Qed.
Lemma child_visits : visits GT 0 0 8 Lchild.
Proof.
  eapply visits_intro; [reflexivity|reflexivity|reflexivity|reflexivity| |cbn; split; reflexivity]. constructor; [|constructor; [exact grand_visits|constructor]].
  eapply visits_intro; [reflexivity|reflexivity|reflexivity|reflexivity|constructor; [exact grand_visits|constructor]|cbn; split; reflexivity].
Qed.
Lemma child_members : read_members_of GT 8 (map vi_key Lchild).
Proof.
  pose proof (rmo_intro GT 6 cGrand (rc_wr cGrand) [] eq_refl eq_refl (Forall2_nil _)) as X.
  pose proof (rmo_intro GT 7 cParent (rc_wr cParent) _ eq_refl eq_refl (Forall2_cons _ _ X (Forall2_nil _))) as Y.
  exact (rmo_intro GT 8 cChild (rc_wr cChild) _ eq_refl eq_refl (Forall2_cons _ _ Y (Forall2_cons _ _ X (Forall2_nil _)))).
Qed.
Lemma Lchild_direct x : In x Lchild -> vi_key x <> (8, B "x") -> rereadable GT (vi_w x) (vi_r x) (vi_ty x).
Proof. intros Hx N. cbn in Hx. repeat (destruct Hx as [<-|Hx]; [try (apply rr_direct; exact I); try (apply rr_seq, rr_direct; exact I); exfalso; apply N; reflexivity|]). destruct Hx. Qed.
Lemma Lchild_repeatable : repeatable GT Lchild.
Proof.
  unfold repeatable. assert (X : ForallOrdPairs (fun x y => vi_key x = vi_key y -> x = y /\ vi_key x <> (8, B "x")) Lchild).
  { cbn. repeat (constructor; [repeat (apply Forall_cons; [cbn; intros E; first [discriminate E|split; [reflexivity|discriminate]]|]); apply Forall_nil|]). constructor. }
  assert (Y : forall x, In x Lchild -> In x Lchild) by auto. revert X Y. generalize Lchild at 1 2 4. intros l. induction 1 as [|a l Ha Hl IH]; intros Y; [constructor|]. constructor.
  - rewrite Forall_forall in Ha |- *. intros y Hy E. destruct (Ha y Hy E) as [E1 E2]. split; [exact E1|]. apply Lchild_direct; [apply Y; left; reflexivity|exact E2].
  - apply IH. intros x Hx. apply Y. right. exact Hx.
Qed.
Lemma Lchild_again : replaced_again GT Lchild (map vi_key Lchild).
Proof.
  unfold replaced_again. assert (X : ForallOrdPairs (fun k k' => k = k' -> k <> (8, B "x")) (map vi_key Lchild)).
  { cbn. repeat (constructor; [repeat (apply Forall_cons; [intros E; first [discriminate E|discriminate]|]); apply Forall_nil|]). constructor. }
  revert X. generalize (map vi_key Lchild). intros l. induction 1 as [|a l Ha Hl IH]; [constructor|]. constructor; [|exact IH].
  rewrite Forall_forall in Ha |- *. intros k Hk <- x Hx <-. apply Lchild_direct; [exact Hx|]. exact (Ha _ Hk eq_refl).
Qed.
Example GT_settling : settling GT VT.
Proof.
  intros ex wv rv c (-> & -> & -> & ->). exists cChild, Lchild, (map vi_key Lchild). split; [reflexivity|]. split; [exact child_visits|]. split; [exact Lchild_repeatable|]. split.
  { intros x Hx. cbn in Hx. repeat (destruct Hx as [<-|Hx]; [cbn; auto; repeat split; auto; apply GT_keys|]). destruct Hx. }
  split; [exact child_members|]. split; [exact Lchild_again|]. split; [apply incl_refl|].
  eapply g_struct; [reflexivity|reflexivity|reflexivity|nodup|exact child_visits|exact Lchild_repeatable| | |].
  - intros x Hx. cbn in Hx. repeat (destruct Hx as [<-|Hx]; [reflexivity|]). destruct Hx.
  - intros x o v Hx. cbn in Hx. repeat (destruct Hx as [<-|Hx]; [vm_compute; intros E1 E2; inversion E1; inversion E2; subst; first [solve [constructor; try reflexivity; try discriminate; try (intros; contradiction); constructor]|constructor; [cbn; lia|intros [|i] x E; discriminate E]]|]).
    destruct Hx.
  - intros k v Hk E. exfalso. cbn in E. apply Hk. repeat match type of E with (if fkey_eqb k ?k' then _ else _) = _ => destruct (fkey_eqb k k') eqn:Q; [apply fkey_eqb_eq in Q; rewrite Q; vm_compute; tauto|clear Q] end. discriminate E.
Qed.
(** data which has different values where the members of [Grand] are read for the second time: the last ones stay, and the object survives being written and read *)
Definition differing : bytes := hex [0; 0; 0; 1; 0x82; 0x81; 97; 0x81; 98; 1; 0x81; 99;  0x81; 112;  0; 0; 0; 2; 0x81; 0x81; 100; 0;  0x81; 0x81; 101; 0; 0; 0; 3].
Definition child_read : list (fkey * val) :=
  [((6, B "g"), VInt 2); ((6, B "names"), VList [VStr (B "d")]); ((6, B "best"), VOpt None); ((7, B "p"), VStr (B "p")); ((8, B "x"), VList [VPair (VStr (B "e")) (VInt 3)])].
Example differing_read : restoreFromBinary GT 10 8 (rc_vinit cChild) differing [] = ROk (child_read, 0, [], {| r_heap := []; r_ptr := [] |}).
Proof. vm_compute. reflexivity. Qed.
Example C71_case_repeatedly : exists F, forall fuel, (F <= fuel)%nat -> exists bs, toBinary GT [] fuel 8 child_read 0 = ROk bs
    /\ forall h0 rest', exists h' ptrs, restoreFromBinary GT fuel 8 (rc_vinit cChild) (bs ++ rest') h0 = ROk (child_read, 0, rest', {| r_heap := h'; r_ptr := ptrs |}).
Proof.
  destruct (C71_restore_again GT VT 10 8 true 0 (rc_vinit cChild) differing [] child_read 0 [] {| r_heap := []; r_ptr := [] |} GT_alloc GT_place GT_env_ok GT_settling ltac:(cbn; repeat split; auto)
    ltac:(intros a t x E; discriminate E) (C71_new_variable GT VT true 0 0 (TStruct 8) [] GT_settling ltac:(cbn; repeat split; auto)) differing_read ltac:(intros a x E; discriminate E)) as [F HF].
  exists F. intros fuel Hf. destruct (HF fuel Hf) as (bs & E & Q). exists bs. split; [exact E|]. intros h0 rest'. destruct (Q h0 rest') as (fs' & h' & ptrs & ro & R & _ & _ & X).
  rewrite (X eq_refl) in R. exists h', ptrs. exact R.
Qed.

(** the condition on members which are accessed repeatedly is needed: a std::multiset which is read twice has all the elements which have been written twice, hence what has
    been read does not survive being written and read *)
Definition cBag := mkclass 6 "Bag" [] 0 [] [] [("items", TSet true true TString, 0, 0)]%string.
Definition cHolder := mkclass 7 "Holder" [6] 0 (rc_layout cBag) (rc_vinit cBag) [].
Definition cOwner := mkclass 8 "Owner" [7; 6] 0 (rc_layout cHolder) (rc_vinit cHolder) [].
Definition GU : genv := {|
  g_class := fun c => if c =? 6 then Some cBag else if c =? 7 then Some cHolder else if c =? 8 then Some cOwner else None;
  g_lt := g_lt GE; g_eq := g_eq GE; g_place := g_place GE; g_alloc := g_alloc GE |}.
Theorem C71_read_repeatedly_refuted :
  exists fs st, restoreFromBinary GU 10 8 (rc_vinit cOwner) (hex [0x81; 0x81; 97; 0x80]) [] = ROk (fs, 0, [], st)
    /\ fs = [((6, B "items"), VList [VStr (B "a")])]
    /\ exists bs fs' st', toBinary GU (r_heap st) 10 8 fs 0 = ROk bs /\ restoreFromBinary GU 10 8 (rc_vinit cOwner) bs [] = ROk (fs', 0, [], st')
      /\ fs' = [((6, B "items"), VList [VStr (B "a"); VStr (B "a")])].
Proof. eexists _, _. split; [vm_compute; reflexivity|]. split; [reflexivity|]. eexists _, _, _. split; [vm_compute; reflexivity|]. split; vm_compute; reflexivity. Qed.
Print Assumptions C71_read_repeatedly_refuted.
