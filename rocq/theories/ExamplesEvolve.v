(** ExamplesEvolve.v -- a class of which version 2 has been introduced: member "c" is retired, member "b" is new.
    The hypotheses of the theorems in PropertiesEvolve.v are met; and a change which is not compatible. *)
From Coq Require Import String List NArith ZArith Bool Lia.
From Verif Require Import Base BaseFacts Bytes Types TypesFacts BinModel BinSpec BinFacts GenModel GenSem GenSpec GenMarkers GenSelect
  EvolveSpec EvolveFacts EvolveTop EvolveGen PropertiesEvolve ExamplesEnv ExamplesGen ExamplesBin.
Import ListNotations.
Local Open Scope N_scope.

Definition as_of (v : N) : mdecl := MVar (B "rrjAsOfVersion1") (Some v).
Definition until (v : N) : mdecl := MVar (B "rrjUntilVersion1") (Some v).
(** struct Doc : BinarySerializable<Doc, 1> { int a; int c; }; *)
Definition doc1 := mk 2 "Doc" 0 [base 1 bt "BinarySerializable<Doc, 1>" 1] [pub "a" i32; pub "c" i32].
(** struct Doc : BinarySerializable<Doc, 2> { int a; until_version(1): int c; as_of_version(2): std::string b; }; *)
Definition doc2 := mk 2 "Doc" 0 [base 1 bt "BinarySerializable<Doc, 2>" 2]
  [pub "a" i32; until 1; pub "c" i32; as_of 2; pub "b" TString].
Definition k1 : rclass := {| k_rec := doc1; k_base := Some (base 1 bt "BinarySerializable<Doc, 1>" 1) |}.
Definition k2 : rclass := {| k_rec := doc2; k_base := Some (base 1 bt "BinarySerializable<Doc, 2>" 2) |}.
Example doc_relevant : relevant_classes (bopts 0 []) [DRecord doc1] = [k1] /\ relevant_classes (bopts 0 []) [DRecord doc2] = [k2].
Proof. split; vm_compute; reflexivity. Qed.

Definition rt1 : rtclass := {| rc_name := B "Doc"; rc_layout := [((2, B "a"), i32); ((2, B "c"), i32)];
  rc_dinit := [((2, B "a"), VUndef); ((2, B "c"), VUndef)]; rc_vinit := [((2, B "a"), VInt 0); ((2, B "c"), VInt 0)];
  rc_wr := writer_prog [] k1; rc_rd := reader_prog [] k1; rc_push := jprog_of 2 [] "Doc" []; rc_pull := None |}.
Definition rt2 : rtclass := {| rc_name := B "Doc"; rc_layout := [((2, B "a"), i32); ((2, B "c"), i32); ((2, B "b"), TString)];
  rc_dinit := [((2, B "a"), VUndef); ((2, B "c"), VUndef); ((2, B "b"), VStr [])];
  rc_vinit := [((2, B "a"), VInt 0); ((2, B "c"), VInt 0); ((2, B "b"), VStr [])];
  rc_wr := writer_prog [] k2; rc_rd := reader_prog [] k2; rc_push := jprog_of 2 [] "Doc" []; rc_pull := None |}.
Definition env (r : rtclass) : genv := {| g_class := fun c => if c =? 2 then Some r else None;
  g_lt := g_lt GE; g_eq := g_eq GE; g_place := g_place GE; g_alloc := g_alloc GE |}.
Definition G1 := env rt1.
Definition G2 := env rt2.
Lemma G1_alloc : alloc_ok G1. Proof. exact GE_alloc. Qed.
Lemma G2_alloc : alloc_ok G2. Proof. exact GE_alloc. Qed.
Lemma G2_place : place_ok G2. Proof. exact GE_place. Qed.

(** the change is one of those C54_previous_versions_kept is about *)
Lemma not_marker n t : (forall a, ~ as_of_marker (pub n t) a) /\ (forall u, ~ until_marker (pub n t) u).
Proof. split; intros x [y E]; discriminate E. Qed.
Example doc_evolves : evolves 1 (cr_decls doc1) (cr_decls doc2).
Proof.
  apply ev_append with (ds2 := [pub "a" i32; until 1; pub "c" i32]).
  - eapply ev_retire; [apply ev_refl|]. exists [pub "a" i32], (until 1), 1, [pub "c" i32].
    split; [reflexivity|]. split; [reflexivity|]. split; [exists (B "1"); reflexivity|]. split; [lia|]. split; [|split].
    + intros x [<-|[]]. apply not_marker.
    + intros u (p1 & d & p2 & E & M & _). destruct p1 as [|? [|? ?]]; inversion E; subst. destruct (proj2 (not_marker "a" i32) _ M).
    + intros u (p1 & d & p2 & E & M & _). destruct p1 as [|? [|? ?]]; inversion E; subst. destruct (proj1 (not_marker "a" i32) _ M).
  - exists (as_of 2), 2, [pub "b" TString]. split; [reflexivity|]. split; [exists (B "1"); reflexivity|]. split; [lia|]. split.
    + intros x a [<-|[]] M. destruct (proj1 (not_marker "b" TString) _ M).
    + intros x a [<-|[]] M. destruct (proj2 (not_marker "b" TString) _ M).
Qed.
Example doc_selected : selected false 1 [] (cr_decls doc2) [B "a"; B "c"] /\ selected false 2 [] (cr_decls doc2) [B "a"; B "b"].
Proof. split; apply selected_iff; vm_compute; reflexivity. Qed.

(** hypotheses of C54_generated_code_compatible: version 1's data for version 2's program *)
Example doc_compatible : exists own, visits (across G1 G2) 0 0 2 own /\ map (fun x => snd (vi_key x)) own = [B "a"; B "c"].
Proof.
  destruct (C54_generated_code_compatible G1 G2 (bopts 0 []) [DRecord doc1] (bopts 0 []) [DRecord doc2] k1 k2 rt1 rt2 0 [])
    as (own & V & S & _); try reflexivity.
  - constructor; reflexivity.
  - constructor; reflexivity.
  - vm_compute. constructor.
  - vm_compute. discriminate.
  - vm_compute. discriminate.
  - vm_compute. discriminate.
  - exact doc_evolves.
  - exists own. split; [exact V|]. eapply selected_fun; [exact S|]. apply selected_iff. vm_compute. reflexivity.
Qed.
(** hypotheses of C54_written_for_older_program *)
Example doc_back : exists own, visits (across G2 G1) 1 0 2 own /\ map (fun x => snd (vi_key x)) own = [B "a"; B "c"].
Proof.
  destruct (C54_written_for_older_program G2 G1 (bopts 0 []) [DRecord doc2] (bopts 0 []) [DRecord doc1] k2 k1 rt2 rt1 1 [])
    as (own & V & S & _); try reflexivity.
  - constructor; reflexivity.
  - constructor; reflexivity.
  - vm_compute. constructor.
  - vm_compute. discriminate.
  - vm_compute. discriminate.
  - exact doc_evolves.
  - exists own. split; [exact V|]. eapply selected_fun; [exact S|]. apply selected_iff. vm_compute. reflexivity.
Qed.

(** what happens: version 1's program writes, version 2's program restores and leaves "b" alone *)
Definition old_obj : list (fkey * val) := [((2, B "a"), VInt 5); ((2, B "c"), VInt 6)].
Definition new_old : list (fkey * val) := [((2, B "a"), VInt 0); ((2, B "c"), VInt 0); ((2, B "b"), VStr (B "default"))].
Example doc_bytes : toBinary G1 [] 10 2 old_obj 0 = ROk (hex [0x81; 0; 0; 0; 5; 0; 0; 0; 6]).
Proof. vm_compute. reflexivity. Qed.
Example doc_restored : restoreFromBinary G2 10 2 new_old (hex [0x81; 0; 0; 0; 5; 0; 0; 0; 6]) []
  = ROk ([((2, B "a"), VInt 5); ((2, B "c"), VInt 6); ((2, B "b"), VStr (B "default"))], 1, [], {| r_heap := []; r_ptr := [] |}).
Proof. vm_compute. reflexivity. Qed.
Lemma doc_visits : visits (across G1 G2) 0 0 2 (map (mkvisit 1 1) [bf 2 "a" i32 0 0; bf 2 "c" i32 0 0]).
Proof.
  change (map (mkvisit 1 1) [bf 2 "a" i32 0 0; bf 2 "c" i32 0 0]) with (concat [] ++ map (mkvisit 1 1) [bf 2 "a" i32 0 0; bf 2 "c" i32 0 0]).
  eapply visits_intro; [reflexivity|reflexivity|reflexivity| |constructor|].
  - split; intros E; vm_compute in E; discriminate.
  - match goal with |- context [?x =? 0] => change (x =? 0) with false end. cbv iota. exists 1.
    split; [vm_compute; reflexivity|]. split; [vm_compute; discriminate|]. split; [vm_compute; reflexivity|].
    split; vm_compute; reflexivity.
Qed.
(** hypotheses of C54_object_of_other_program *)
Example doc_object_hyps : exists L, visits (across G1 G2) 0 0 2 L /\ NoDup (map vi_key L)
  /\ heap_good (across G1 G2) [] /\ heap_alike G1 [] []
  /\ forall x, In x L -> exists o v0 v, alookup fkey_eqb (vi_key x) new_old = Some o /\ alookup fkey_eqb (vi_key x) old_obj = Some v0
      /\ alike G1 (vi_w x) (vi_ty x) v0 v /\ good (across G1 G2) [] true (vi_w x) (vi_r x) (vi_ty x) o v.
Proof.
  exists (map (mkvisit 1 1) [bf 2 "a" i32 0 0; bf 2 "c" i32 0 0]). split; [|split; [|split; [|split]]].
  - exact doc_visits.
  - vm_compute. repeat constructor; intros HH; repeat (destruct HH as [HH|HH]; [discriminate HH|]); exact HH.
  - intros a t x E. discriminate E.
  - intros a t x E. discriminate E.
  - intros x [<-|[<-|[]]].
    + exists (VInt 0), (VInt 5), (VInt 5). split; [reflexivity|]. split; [reflexivity|]. split; [apply al_same|]. apply g_int; reflexivity.
    + exists (VInt 0), (VInt 6), (VInt 6). split; [reflexivity|]. split; [reflexivity|]. split; [apply al_same|]. apply g_int; reflexivity.
Qed.

(** hypotheses of C54_value_of_other_program: a vector of documents *)
Definition new_obj : list (fkey * val) := [((2, B "a"), VInt 5); ((2, B "c"), VInt 6); ((2, B "b"), VStr [])].
Example docs_alike : alike G1 0 (TSeq (TStruct 2)) (VList [VObj old_obj; VObj old_obj]) (VList [VObj new_obj; VObj new_obj]).
Proof.
  assert (Q: alike G1 0 (TStruct 2) (VObj old_obj) (VObj new_obj)).
  { apply al_struct. intros k e t v Hw Hk.
    inversion Hw as [c rc fd e0 Hc Hf He Hv E1 E2 E3|c rc b k0 e0 t0 Hc Hb _]; subst.
    - inversion Hc; subst rc. vm_compute in Hf. destruct Hf as [<-|[<-|[]]]; vm_compute in Hk; inversion Hk; subst; eexists; (split; [reflexivity|apply al_same]).
    - inversion Hc; subst rc. vm_compute in Hb. destruct Hb. }
  apply al_seq. constructor; [exact Q|]. constructor; [exact Q|constructor].
Qed.
Example docs_good : good (across G1 G2) [] true 0 0 (TSeq (TStruct 2)) (VList []) (VList [VObj new_obj; VObj new_obj]).
Proof.
  assert (Q: good (across G1 G2) [] true 0 0 (TStruct 2) (VObj (rc_vinit rt2)) (VObj new_obj)).
  { eapply g_struct_once with (L := map (mkvisit 1 1) [bf 2 "a" i32 0 0; bf 2 "c" i32 0 0]); [reflexivity|reflexivity|reflexivity| | | | | |].
    - vm_compute. repeat constructor; intros HH; repeat (destruct HH as [HH|HH]; [discriminate HH|]); exact HH.
    - exact doc_visits.
    - vm_compute. repeat constructor; intros HH; repeat (destruct HH as [HH|HH]; [discriminate HH|]); exact HH.
    - intros x [<-|[<-|[]]]; vm_compute; reflexivity.
    - intros x o v [<-|[<-|[]]] Eo Ev; vm_compute in Eo, Ev; inversion Eo; inversion Ev; subst; apply g_int; reflexivity.
    - intros k v Hk Ev. unfold new_obj in Ev. cbn [alookup] in Ev.
      destruct (fkey_eqb k (2, B "a")) eqn:E1; [apply fkey_eqb_eq in E1; subst; exfalso; apply Hk; vm_compute; auto|].
      destruct (fkey_eqb k (2, B "c")) eqn:E2; [apply fkey_eqb_eq in E2; subst; exfalso; apply Hk; vm_compute; auto|].
      destruct (fkey_eqb k (2, B "b")) eqn:E3; [|discriminate]. inversion Ev; subst. cbn [rt2 rc_vinit alookup]. rewrite E1, E2, E3. auto. }
  apply g_seq; [vm_compute; reflexivity|]. intros [|[|i]] x E; cbn in E; try (destruct i; discriminate); inversion E; subst; exact Q.
Qed.
Example docs_restored : exists bs, write G1 [] 10 0 (TSeq (TStruct 2)) (VList [VObj old_obj; VObj old_obj]) [] = ROk (bs, [])
  /\ read G2 10 0 (TSeq (TStruct 2)) (VList []) bs {| r_heap := []; r_ptr := [] |}
     = ROk (VList [VObj new_obj; VObj new_obj], [], {| r_heap := []; r_ptr := [] |}).
Proof. exists (hex [0x82; 0x81; 0; 0; 0; 5; 0; 0; 0; 6; 0x81; 0; 0; 0; 5; 0; 0; 0; 6]). split; vm_compute; reflexivity. Qed.

(** hypotheses of C54_newer_refused *)
Example doc_newer : exists bs, toBinary G2 [] 10 2 new_obj 0 = ROk bs
  /\ restoreFromBinary G1 10 2 old_obj bs [] = RThrow (ExVersion 2 1 (B "Doc")).
Proof. exists (hex [0x82; 0; 0; 0; 5; 0x80]). split; vm_compute; reflexivity. Qed.

(** hypotheses of C54_newer_refused_derived: struct Sheet : Doc, BinarySerializable<Sheet, n> { int n; }; the base class is read before the version is refused *)
Definition sheet (n : N) : rtclass := {| rc_name := B "Sheet"; rc_layout := []; rc_dinit := []; rc_vinit := [];
  rc_wr := {| bp_bases := [2]; bp_vmax := n; bp_fields := [bf 4 "n" i32 0 0]; bp_ret0 := false |};
  rc_rd := Some {| bp_bases := [2]; bp_vmax := n; bp_fields := [bf 4 "n" i32 0 0]; bp_ret0 := false |}; rc_push := jprog_of 4 [] "Sheet" []; rc_pull := None |}.
Definition sheets (n : N) (r : rtclass) : genv := {| g_class := fun c => if c =? 2 then Some r else if c =? 4 then Some (sheet n) else None;
  g_lt := g_lt GE; g_eq := g_eq GE; g_place := g_place GE; g_alloc := g_alloc GE |}.
Definition sheet_obj : list (fkey * val) := ((4, B "n"), VInt 7) :: old_obj.
Theorem C54_sheet_refused : exists bs, toBinary (sheets 3 rt1) [] 10 4 sheet_obj 0 = ROk bs
  /\ exists F, forall fuel', (F <= fuel')%nat -> forall rest h0, restoreFromBinary (sheets 2 rt2) fuel' 4 (((4, B "n"), VInt 0) :: new_old) (bs ++ rest) h0 = RThrow (ExVersion 3 2 (B "Sheet")).
Proof.
  eexists. split; [vm_compute; reflexivity|].
  apply (C54_newer_refused_derived (sheets 3 rt1) (sheets 2 rt2) [] [] true 10 4 (sheet 3) (sheet 2) {| bp_bases := [2]; bp_vmax := 2; bp_fields := [bf 4 "n" i32 0 0]; bp_ret0 := false |}
    [map (mkvisit 1 1) [bf 2 "a" i32 0 0; bf 2 "c" i32 0 0]] sheet_obj (((4, B "n"), VInt 0) :: new_old) 0); try reflexivity.
  - exact G2_alloc.
  - exact G2_place.
  - intros a t x E. discriminate E.
  - intros a t x E. discriminate E.
  - constructor; [|constructor]. econstructor 1 with (Ls := []); [reflexivity|reflexivity|reflexivity| |constructor|].
    + split; vm_compute; discriminate.
    + match goal with |- context [?x =? 0] => change (x =? 0) with false end. cbv iota. exists 1.
      split; [vm_compute; reflexivity|]. split; [vm_compute; discriminate|]. split; [vm_compute; reflexivity|].
      split; vm_compute; reflexivity.
  - apply nodup_repeatable. vm_compute. repeat constructor; intros HH; repeat (destruct HH as [HH|HH]; [discriminate HH|]); exact HH.
  - intros x [<-|[<-|[]]].
    + exists (VInt 0), (VInt 5), (VInt 5). split; [reflexivity|]. split; [reflexivity|]. split; [apply al_same|]. apply g_int; reflexivity.
    + exists (VInt 0), (VInt 6), (VInt 6). split; [reflexivity|]. split; [reflexivity|]. split; [apply al_same|]. apply g_int; reflexivity.
  - vm_compute. discriminate.
  - vm_compute. discriminate.
Qed.
Print Assumptions C54_sheet_refused.

(** ** claims which are false *)
(** adding a member without a version marker (or to a class without version) breaks existing data:
    struct Doc : BinarySerializable<Doc, 1> { int a; int c; std::string b; }; *)
Definition doc1b := mk 2 "Doc" 0 [base 1 bt "BinarySerializable<Doc, 1>" 1] [pub "a" i32; pub "c" i32; pub "b" TString].
Definition k1b : rclass := {| k_rec := doc1b; k_base := Some (base 1 bt "BinarySerializable<Doc, 1>" 1) |}.
Definition rt1b : rtclass := {| rc_name := B "Doc"; rc_layout := rc_layout rt2; rc_dinit := rc_dinit rt2; rc_vinit := rc_vinit rt2;
  rc_wr := writer_prog [] k1b; rc_rd := reader_prog [] k1b; rc_push := jprog_of 2 [] "Doc" []; rc_pull := None |}.
Theorem C54_unmarked_member_refuted : ~ (forall Gw Gr c fs0 os ver bs h0,
  (forall k, written Gw ver c k -> exists v, alookup fkey_eqb k os = Some v) ->
  toBinary Gw [] 10 c fs0 ver = ROk bs ->
  exists os' v st, restoreFromBinary Gr 10 c os bs h0 = ROk (os', v, [], st)).
Proof.
  intros HH. destruct (HH G1 (env rt1b) 2 old_obj new_old 0 (hex [0x81; 0; 0; 0; 5; 0; 0; 0; 6]) []) as (os' & v & st & E).
  - intros k Hw. inversion Hw as [c rc fd Hc Hf Hv E1 E2|c rc b k0 Hc Hb _]; subst.
    + inversion Hc; subst rc. vm_compute in Hf. destruct Hf as [<-|[<-|[]]]; eexists; reflexivity.
    + inversion Hc; subst rc. vm_compute in Hb. destruct Hb.
  - vm_compute. reflexivity.
  - vm_compute in E. discriminate E.
Qed.
(** an [until_version] marker of an earlier version than the [as_of_version] in effect lifts the latter, so that
    the members behind it become part of the previous versions *)
Theorem C54_contradicting_marker_refuted : ~ (forall old m more a n ver names,
  as_of_marker m a -> n < a -> ver <= n ->
  (forall x a', In x more -> as_of_marker x a' -> n < a') ->
  selected false ver [] old names -> selected false ver [] (old ++ m :: more) names).
Proof.
  intros HH. assert (S: selected false 1 [] ([pub "a" i32] ++ as_of 3 :: [until 2; pub "b" i32]) [B "a"]).
  { apply (HH [pub "a" i32] (as_of 3) [until 2; pub "b" i32] 3 1 1 [B "a"]).
    - exists (B "1"). reflexivity.
    - lia.
    - lia.
    - intros x a' [<-|[<-|[]]] [s E]; discriminate E.
    - apply selected_iff. vm_compute. reflexivity. }
  apply selected_iff in S. vm_compute in S. discriminate S.
Qed.

Print Assumptions C54_unmarked_member_refuted.
Print Assumptions C54_contradicting_marker_refuted.
