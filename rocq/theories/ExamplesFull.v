(** ExamplesFull.v -- declarations and objects which meet the hypotheses of the theorems in PropertiesFull.v, and hierarchies which do not *)
From Coq Require Import String List NArith ZArith Bool Lia.
From Verif Require Import Base Bytes Types TypesFacts BinModel BinSpec BinRoundTrip GenModel GenSem GenSpec Float JsonModel JsonRel JsonErr JsonSpec JsonGen JsonText JsonTextSpec JsonTextFacts CxxText CxxTop PropertiesCxx FullSpec FullFacts FullJson PropertiesFull
  ExamplesEnv ExamplesGen ExamplesCxx ExamplesJson.
Import ListNotations.
Local Open Scope list_scope.
Local Open Scope N_scope.

(** ** binary: class Parent (version 1, a const and a private member) of ExamplesGen.v, derived from Grand *)
Example full_family : exists W R, binary_program fo family GF fam_resolve W R.
Proof.
  destruct (C56_binary_file fo family cxx_family_proper) as (W & R & F). exists W, R.
  split; [exact cxx_family_proper|apply family_defs|apply family_defs| |exact F|exact family_resolves|exact family_generated].
  rewrite family_relevant. repeat constructor; cbn; intuition discriminate.
Qed.
Definition kparent : rclass := {| k_rec := mk 12 "Parent" 0 [base 11 (B "Grand") "Grand" 0; base 3 bt "BinarySerializable<Parent, 1>" 1] [pub "p" TString; MField (B "c") Public true i32; MField (B "s") Private false i32];
  k_base := Some (base 3 bt "BinarySerializable<Parent, 1>" 1) |}.
Definition kgrand : rclass := {| k_rec := mk 11 "Grand" 0 [base 2 bt "BinarySerializable<Grand>" 0] [pub "g" i32]; k_base := Some (base 2 bt "BinarySerializable<Grand>" 0) |}.
Example parent_relevant : In kparent (relevant_classes fo family). Proof. vm_compute. auto. Qed.
Example parent_parts W R : binary_program fo family GF fam_resolve W R -> forall b, part_of fo family kparent b -> b = kparent \/ b = kgrand.
Proof. intros P b H. apply (part_iff fo family GF fam_resolve W R P) in H. destruct H as [H|H]; [left; exact H|vm_compute in H; destruct H as [<-|[]]; right; reflexivity]. Qed.
Example parent_two_levels : two_levels fo family kparent.
Proof.
  destruct full_family as (W & R & P). intros b c Hb Nb Hc. destruct (parent_parts W R P b Hb) as [->|Eb]; [congruence|]. subst b.
  apply (part_iff fo family GF fam_resolve W R P) in Hc. destruct Hc as [Hc|Hc]; [exact Hc|vm_compute in Hc; destruct Hc].
Qed.
Definition parent_object : list (fkey * val) := [((11, B "g"), VInt 7); ((12, B "p"), VStr (B "hello")); ((12, B "c"), VInt 1); ((12, B "s"), VInt 2)].
Definition parent_other : list (fkey * val) := [((11, B "g"), VInt 0); ((12, B "p"), VStr []); ((12, B "c"), VInt 3); ((12, B "s"), VInt 4)].
Definition parent_restored : list (fkey * val) := [((11, B "g"), VInt 7); ((12, B "p"), VStr (B "hello")); ((12, B "c"), VInt 3); ((12, B "s"), VInt 4)].
Example parent_members : (forall b n t, In b [kparent; kgrand] -> distinct_members b -> serialized b 0 n -> has_member b n t -> exists old v,
   alookup fkey_eqb (cr_id (k_rec b), n) parent_other = Some old /\ alookup fkey_eqb (cr_id (k_rec b), n) parent_object = Some v /\ good GF [] true (version_of b 0) (version_of b 0) t old v).
Proof.
  intros b n t Hb D S M. assert (X := serialized_own b 0 n t D S M). destruct Hb as [<-|[<-|[]]]; vm_compute in X; destruct X as [X|[]]; injection X as <- <-; eexists _, _; (split; [reflexivity|]); (split; [reflexivity|]).
  - apply g_string. vm_compute. reflexivity.
  - apply g_int; reflexivity.
Qed.
Example parent_classes : forall b, In b [kparent; kgrand] -> restorable b 0 /\ distinct_members b.
Proof.
  intros b H. destruct H as [<-|[<-|[]]]; split.
  - split; [reflexivity|]. split; [reflexivity|]. split; [reflexivity|]. intros _. split; vm_compute; [discriminate|reflexivity].
  - unfold distinct_members. vm_compute. repeat constructor; cbn; intuition discriminate.
  - split; [reflexivity|]. split; [reflexivity|]. split; [reflexivity|]. intros E. exfalso. apply E. reflexivity.
  - unfold distinct_members. vm_compute. repeat constructor; cbn; intuition discriminate.
Qed.
(** the object of class Parent is restored by the generated text *)
Theorem C76_parent : exists W R F, binary_program fo family GF fam_resolve W R /\ forall f, (F <= f)%nat -> exists bs Ws e,
    run_write fam_versions (lib_write_base GF [] f fam_resolve parent_object) (lib_write_member GF [] f 12 fam_types parent_object) lib_write_varint (W kparent) 0 ([], []) = ROk (e, (bs, Ws))
    /\ forall h0 rest, exists os' h' ptrs,
      run_read fam_versions (lib_read_base GF f fam_resolve) (lib_read_member GF f 12 fam_types) lib_read_varint (R kparent) 0 (parent_other, bs ++ rest, {| r_heap := h0; r_ptr := [] |})
        = ROk (1, (os', rest, {| r_heap := h'; r_ptr := ptrs |}))
      /\ (forall key, alookup fkey_eqb key os' = alookup fkey_eqb key parent_restored).
Proof.
  destruct full_family as (W & R & P).
  assert (PB : forall b, part_of fo family kparent b -> In b [kparent; kgrand]) by (intros b Hb; destruct (parent_parts W R P b Hb) as [-> | ->]; cbn; auto).
  destruct (C76_binary fo family GF fam_resolve W R P [] true 0 kparent fam_types fam_versions parent_object parent_other) as (F & Q).
  { exact GE_alloc. } { exact GE_place. } { intros a t x Hx. discriminate Hx. } { exact parent_relevant. } { intros b Hb. apply parent_classes, PB, Hb. }
  { intros b n t (c & Pc & Nc & Pb & Nb). exfalso. exact (Nb (parent_two_levels c b Pc Nc Pb)). }
  { apply cxx_family_types, parent_relevant. } { apply cxx_family_types, parent_relevant. }
  { intros b n t Hb S M. apply parent_members; auto. apply parent_classes, PB, Hb. }
  exists W, R, F. split; [exact P|]. intros f Hf. destruct (Q f Hf) as (bs & Ws & e & E1 & E2). exists bs, Ws, e. split; [exact E1|]. intros h0 rest. destruct (E2 h0 rest) as (os' & h' & ptrs & ro & RR & _ & A & U).
  exists os', h', ptrs. split; [exact RR|].
  assert (Pp : part_of fo family kparent kparent) by (left; reflexivity).
  assert (Pg : part_of fo family kparent kgrand) by (apply (part_iff fo family GF fam_resolve W R P); right; vm_compute; auto).
  assert (SG : serialized kgrand 0 (B "g")).
  { destruct (own_serialized kgrand 0 {| vi_key := (11, B "g"); vi_ty := i32; vi_w := 0; vi_r := 0 |}) as (n & t & E & _ & _ & _ & S & _); [vm_compute; auto|]. cbn in E. injection E as <-. exact S. }
  assert (SP : serialized kparent 0 (B "p")).
  { destruct (own_serialized kparent 0 {| vi_key := (12, B "p"); vi_ty := TString; vi_w := 1; vi_r := 1 |}) as (n & t & E & _ & _ & _ & S & _); [vm_compute; auto|]. cbn in E. injection E as <-. exact S. }
  intros key. destruct (fkey_eqb key (11, B "g")) eqn:K1; [|destruct (fkey_eqb key (12, B "p")) eqn:K2].
  - apply fkey_eqb_eq in K1. subst key. destruct (A kgrand (B "g") i32 Pg SG) as (v & v' & V1 & V2 & S); [exists Public, false; cbn; auto|]. cbn in V1. injection V1 as <-.
    change (cr_id (k_rec kgrand)) with 11 in V2. rewrite V2. inversion S; subst; reflexivity.
  - apply fkey_eqb_eq in K2. subst key. destruct (A kparent (B "p") TString Pp SP) as (v & v' & V1 & V2 & S); [exists Public, false; cbn; auto|]. cbn in V1. injection V1 as <-.
    change (cr_id (k_rec kparent)) with 12 in V2. rewrite V2. inversion S; subst; reflexivity.
  - rewrite U.
    + unfold parent_restored, parent_other. cbn [alookup]. rewrite K1, K2. reflexivity.
    + intros b n Hb S E. assert (M : exists t, has_member b n t).
      { destruct S as (names & S & Hn). clear - S Hn. unfold has_member. induction S as [pre|pre d l m names (acc & t & -> & _) _ S IH|pre d l names _ S IH]; [destruct Hn| |destruct (IH Hn) as (t & x & y & Q); exists t, x, y; right; exact Q].
        destruct Hn as [<-|Hn]; [exists t, acc, false; left; reflexivity|]. destruct (IH Hn) as (t' & x & y & Q). exists t', x, y. right; exact Q. }
      destruct M as [t M]. assert (X := serialized_own b 0 n t (proj2 (parent_classes b (PB b Hb))) S M). destruct (PB b Hb) as [<-|[<-|[]]]; vm_compute in X; destruct X as [X|[]]; injection X as <- <-; subst key; vm_compute in K1, K2; discriminate.
Qed.
Print Assumptions C76_parent.

(** the hierarchy of class Child has three levels: the member of class Grand is written and read twice *)
Example child_three_levels : revisited fo family kchild kgrand.
Proof.
  destruct full_family as (W & R & P). exists kparent. split; [|split; [discriminate|split; [|discriminate]]]; apply (part_iff fo family GF fam_resolve W R P); right; vm_compute; auto.
Qed.
Example child_parts W R : binary_program fo family GF fam_resolve W R -> forall b, part_of fo family kchild b -> In b [kchild; kparent; kgrand].
Proof. intros P b H. apply (part_iff fo family GF fam_resolve W R P) in H. destruct H as [->|H]; [left; reflexivity|vm_compute in H; destruct H as [<-|[<-|[]]]; cbn; auto]. Qed.
Definition child_object : list (fkey * val) := ((13, B "x"), VInt 9) :: parent_object.
Definition child_other : list (fkey * val) := ((13, B "x"), VInt 0) :: parent_other.
Example child_class : restorable kchild 0 /\ distinct_members kchild.
Proof.
  split.
  - split; [reflexivity|]. split; [reflexivity|]. split; [reflexivity|]. intros E. exfalso. apply E. reflexivity.
  - unfold distinct_members. vm_compute. repeat constructor; cbn; intuition discriminate.
Qed.
Theorem C76_child : exists W R F, binary_program fo family GF fam_resolve W R /\ forall f, (F <= f)%nat -> exists bs Ws e,
    run_write fam_versions (lib_write_base GF [] f fam_resolve child_object) (lib_write_member GF [] f 13 fam_types child_object) lib_write_varint (W kchild) 0 ([], []) = ROk (e, (bs, Ws))
    /\ forall h0 rest, exists os' h' ptrs,
      run_read fam_versions (lib_read_base GF f fam_resolve) (lib_read_member GF f 13 fam_types) lib_read_varint (R kchild) 0 (child_other, bs ++ rest, {| r_heap := h0; r_ptr := [] |})
        = ROk (0, (os', rest, {| r_heap := h'; r_ptr := ptrs |}))
      /\ alookup fkey_eqb (11, B "g") os' = Some (VInt 7) /\ alookup fkey_eqb (12, B "p") os' = Some (VStr (B "hello")) /\ alookup fkey_eqb (13, B "x") os' = Some (VInt 9).
Proof.
  destruct full_family as (W & R & P). assert (PB := child_parts W R P).
  assert (CL : forall b, In b [kchild; kparent; kgrand] -> restorable b 0 /\ distinct_members b) by (intros b [<-|Hb]; [exact child_class|apply parent_classes; exact Hb]).
  destruct (C76_binary fo family GF fam_resolve W R P [] true 0 kchild fam_types fam_versions child_object child_other) as (F & Q).
  { exact GE_alloc. } { exact GE_place. } { intros a t x Hx. discriminate Hx. } { exact child_relevant. } { intros b Hb. apply CL, PB, Hb. }
  { intros b n t (c & Pc & Nc & Pb & Nb) S M. assert (X := serialized_own b 0 n t (proj2 (CL b (PB b (part_trans fo family GF fam_resolve W R P _ _ _ Pc Pb)))) S M).
    destruct (PB b (part_trans fo family GF fam_resolve W R P _ _ _ Pc Pb)) as [<-|[<-|[<-|[]]]]; vm_compute in X; destruct X as [X|[]]; injection X as <- <-; apply rr_direct; exact I. }
  { apply cxx_family_types, child_relevant. } { apply cxx_family_types, child_relevant. }
  { intros b n t Hb S M. assert (X := serialized_own b 0 n t (proj2 (CL b (PB b Hb))) S M).
    destruct (PB b Hb) as [<-|[<-|[<-|[]]]]; vm_compute in X; destruct X as [X|[]]; injection X as <- <-; eexists _, _; (split; [reflexivity|]); (split; [reflexivity|]).
    - apply g_int; reflexivity.
    - apply g_string. vm_compute. reflexivity.
    - apply g_int; reflexivity. }
  exists W, R, F. split; [exact P|]. intros f Hf. destruct (Q f Hf) as (bs & Ws & e & E1 & E2). exists bs, Ws, e. split; [exact E1|]. intros h0 rest. destruct (E2 h0 rest) as (os' & h' & ptrs & ro & RR & _ & A & _).
  exists os', h', ptrs. split; [exact RR|].
  assert (Y : forall b x, In b [kchild; kparent; kgrand] -> In x (own_of b 0) -> exists v v', alookup fkey_eqb (vi_key x) child_object = Some v /\ alookup fkey_eqb (vi_key x) os' = Some v' /\ same_value GF ro (vi_ty x) v v').
  { intros b x Hb Hx. destruct (own_serialized b 0 x Hx) as (n & t & -> & -> & _ & _ & S & M). apply (A b n t); [|exact S|exact M].
    apply (part_iff fo family GF fam_resolve W R P). destruct Hb as [<-|[<-|[<-|[]]]]; [left; reflexivity|right; vm_compute; auto..]. }
  split; [|split].
  - destruct (Y kgrand {| vi_key := (11, B "g"); vi_ty := i32; vi_w := 0; vi_r := 0 |}) as (v & v' & V1 & V2 & S); [cbn; auto|vm_compute; auto|]. cbn in V1. injection V1 as <-. cbn [vi_key] in V2. rewrite V2. inversion S; subst; reflexivity.
  - destruct (Y kparent {| vi_key := (12, B "p"); vi_ty := TString; vi_w := 1; vi_r := 1 |}) as (v & v' & V1 & V2 & S); [cbn; auto|vm_compute; auto|]. cbn in V1. injection V1 as <-. cbn [vi_key] in V2. rewrite V2. inversion S; subst; reflexivity.
  - destruct (Y kchild {| vi_key := (13, B "x"); vi_ty := i32; vi_w := 0; vi_r := 0 |}) as (v & v' & V1 & V2 & S); [cbn; auto|vm_compute; auto|]. cbn in V1. injection V1 as <-. cbn [vi_key] in V2. rewrite V2. inversion S; subst; reflexivity.
Qed.
Print Assumptions C76_child.

(** ** JSON: class JParent (a const member, a private one, a list) derived from JGrand; class JChild derived from JParent *)
Definition jfamily : list decl :=
  [DRecord (mk 11 "JGrand" 0 [base 2 jt "JsonSerializable<JGrand>" 0] [pub "g" i32]);
   DRecord (mk 12 "JParent" 0 [base 11 (B "JGrand") "JGrand" 0; base 3 jt "JsonSerializable<JParent>" 0] [pub "p" (TSeq TString); MField (B "c") Public true i32; MField (B "s") Private false i32]);
   DRecord (mk 13 "JChild" 0 [base 12 (B "JParent") "JParent" 0; base 4 jt "JsonSerializable<JChild>" 0] [pub "x" TString])].
Definition jfo := jopts 0 [].
Example jfamily_relevant : map (fun k => cr_id (k_rec k)) (relevant_classes jfo jfamily) = [11; 12; 13].
Proof. vm_compute. reflexivity. Qed.
Example jfamily_defs : one_definition jfamily /\ wf_bases jfamily.
Proof.
  split.
  - intros r r' H H'. repeat (destruct H as [H|H]; [inversion H; subst; clear H; repeat (destruct H' as [H'|H']; [inversion H'; subst; cbn; intros; try discriminate; reflexivity|]); destruct H'|]). destruct H.
  - intros r b i H _. repeat (destruct H as [H|H]; [inversion H; subst; clear H; cbn; intros Hb; repeat (destruct Hb as [<-|Hb]; [cbn; intros E; inversion E; subst; reflexivity|]); destruct Hb|]). destruct H.
Qed.
Example jfamily_proper : proper_names jfo jfamily.
Proof.
  split; [left; reflexivity|split; [|split; [|split]]].
  - intros r H. repeat (destruct H as [H|H]; [inversion H; subst; clear H; cbn [cr_qname mk]; eexists [_]; split; [discriminate|split; [|reflexivity]]; repeat constructor; vm_compute; auto|]). destruct H.
  - intros r b H. repeat (destruct H as [H|H]; [inversion H; subst; clear H; cbn; intros Hb; repeat (destruct Hb as [<-|Hb]; [vm_compute; auto|]); destruct Hb|]). destruct H.
  - intros r n a c t H. repeat (destruct H as [H|H]; [inversion H; subst; clear H; cbn; intros Hb; repeat (destruct Hb as [Hb|Hb]; [inversion Hb; subst; vm_compute; auto|]); destruct Hb|]). destruct H.
  - intros r n v H. repeat (destruct H as [H|H]; [inversion H; subst; clear H; cbn; intros Hb; repeat (destruct Hb as [Hb|Hb]; [discriminate|]); destruct Hb|]). destruct H.
Qed.
Definition jfam_class (k : rclass) : rtclass :=
  let rbs := find_bases jfamily (relevant_classes jfo jfamily) k in
  {| rc_name := qname k; rc_layout := []; rc_dinit := []; rc_vinit := []; rc_wr := writer_prog rbs k; rc_rd := reader_prog rbs k;
     rc_push := push_prog rbs k; rc_pull := pull_prog rbs k |}.
Definition GJ : genv := {|
  g_class := fun c => option_map jfam_class (find (fun k => cr_id (k_rec k) =? c) (relevant_classes jfo jfamily));
  g_lt := g_lt GE; g_eq := g_eq GE; g_place := g_place GE; g_alloc := g_alloc GE |}.
Definition jfam_resolve (q : bytes) : option N := option_map (fun k => cr_id (k_rec k)) (find (fun k => bytes_eqb (qname k) q) (relevant_classes jfo jfamily)).
Example full_jfamily : exists W R, json_program jfo jfamily GJ jfam_resolve W R.
Proof.
  destruct (C56_json_file jfo jfamily jfamily_proper) as (W & R & F). exists W, R.
  split; [exact jfamily_proper|apply jfamily_defs|apply jfamily_defs| |exact F| |].
  - rewrite jfamily_relevant. repeat constructor; cbn; intuition discriminate.
  - intros k H. vm_compute in H. repeat (destruct H as [<-|H]; [vm_compute; reflexivity|]). destruct H.
  - intros k H. exists (jfam_class k). split; [|split; reflexivity]. vm_compute in H. repeat (destruct H as [<-|H]; [vm_compute; reflexivity|]). destruct H.
Qed.
Definition kjparent : rclass := {| k_rec := mk 12 "JParent" 0 [base 11 (B "JGrand") "JGrand" 0; base 3 jt "JsonSerializable<JParent>" 0] [pub "p" (TSeq TString); MField (B "c") Public true i32; MField (B "s") Private false i32];
  k_base := Some (base 3 jt "JsonSerializable<JParent>" 0) |}.
Definition kjgrand : rclass := {| k_rec := mk 11 "JGrand" 0 [base 2 jt "JsonSerializable<JGrand>" 0] [pub "g" i32]; k_base := Some (base 2 jt "JsonSerializable<JGrand>" 0) |}.
Example jparent_relevant : In kjparent (relevant_classes jfo jfamily). Proof. vm_compute. auto. Qed.
Example jparent_parts W R : json_program jfo jfamily GJ jfam_resolve W R -> forall b, part_of jfo jfamily kjparent b -> In b [kjparent; kjgrand].
Proof. intros P b H. apply (jpart_iff jfo jfamily GJ jfam_resolve W R P) in H. destruct H as [->|H]; [left; reflexivity|vm_compute in H; destruct H as [<-|[]]; right; left; reflexivity]. Qed.
Example jparent_two_levels : two_levels jfo jfamily kjparent.
Proof.
  destruct full_jfamily as (W & R & P). intros b c Hb Nb Hc. destruct (jparent_parts W R P b Hb) as [<-|[<-|[]]]; [congruence|].
  apply (jpart_iff jfo jfamily GJ jfam_resolve W R P) in Hc. destruct Hc as [Hc|Hc]; [exact Hc|vm_compute in Hc; destruct Hc].
Qed.
Example jparent_classes : forall b, In b [kjparent; kjgrand] -> transferable b /\ distinct_members b.
Proof.
  intros b H. destruct H as [<-|[<-|[]]]; split; try (split; [reflexivity|vm_compute; discriminate]); unfold distinct_members; vm_compute; repeat constructor; cbn; intuition discriminate.
Qed.
Lemma pushed_member b n : pushed b n -> exists t, has_member b n t.
Proof. intros (d & Hd & acc & c & t & -> & _). exists t, acc, c. exact Hd. Qed.
Example jparent_pushed : forall b n t, In b [kjparent; kjgrand] -> pushed b n -> has_member b n t ->
  (b = kjparent /\ n = B "p" /\ t = TSeq TString) \/ (b = kjparent /\ n = B "c" /\ t = i32) \/ (b = kjgrand /\ n = B "g" /\ t = i32).
Proof.
  intros b n t Hb S M. assert (X := pushed_own b n t (proj2 (jparent_classes b Hb)) S M). destruct Hb as [<-|[<-|[]]]; vm_compute in X; repeat (destruct X as [X|X]; [inversion X; subst|]); try (destruct X; fail).
  - left. split; [reflexivity|split; reflexivity].
  - right; left. split; [reflexivity|split; reflexivity].
  - right; right. split; [reflexivity|split; reflexivity].
Qed.
Example jparent_apart : names_apart jfo jfamily kjparent.
Proof.
  destruct full_jfamily as (W & R & P). intros b b' n Hb Hb' S S'. destruct (pushed_member b n S) as [t M]. destruct (pushed_member b' n S') as [t' M'].
  destruct (jparent_pushed b n t (jparent_parts W R P b Hb) S M) as [(-> & -> & ->)|[(-> & -> & ->)|(-> & -> & ->)]]; destruct (jparent_pushed b' _ t' (jparent_parts W R P b' Hb') S' M') as [(-> & E & ->)|[(-> & E & ->)|(-> & E & ->)]]; try reflexivity; discriminate E.
Qed.
Definition jparent_types (n : bytes) : ty := if bytes_eqb n (B "p") then TSeq TString else i32.
Definition jparent_object : list (fkey * val) := [((11, B "g"), VInt (-7)); ((12, B "p"), VList [VStr (B "hello"); VStr (B "world")]); ((12, B "c"), VInt 1); ((12, B "s"), VInt 2)].
Definition jparent_other : list (fkey * val) := [((11, B "g"), VInt 0); ((12, B "p"), VList [VStr (B "x")]); ((12, B "c"), VInt 3); ((12, B "s"), VInt 4)].
Definition jparent_restored : list (fkey * val) := [((11, B "g"), VInt (-7)); ((12, B "p"), VList [VStr (B "hello"); VStr (B "world")]); ((12, B "c"), VInt 3); ((12, B "s"), VInt 4)].
Definition jparent_document : list (bytes * json) := [(B "g", JInt (-7)); (B "p", JArr [JStr (B "hello"); JStr (B "world")]); (B "c", JInt 1)].
Example jparent_members : forall b n t, In b [kjparent; kjgrand] -> pushed b n -> has_member b n t -> exists old v,
  (pulled b n -> alookup fkey_eqb (cr_id (k_rec b), n) jparent_other = Some old) /\ alookup fkey_eqb (cr_id (k_rec b), n) jparent_object = Some v /\ jgood GJ JE [] true t old v.
Proof.
  intros b n t Hb S M. assert (Js : forall s, In s [B "hello"; B "world"] -> json_string s).
  { intros s Hs. repeat (destruct Hs as [<-|Hs]; [split; [intros X; vm_compute in X; intuition discriminate|vm_compute; discriminate]|]). destruct Hs. }
  destruct (jparent_pushed b n t Hb S M) as [(-> & -> & ->)|[(-> & -> & ->)|(-> & -> & ->)]].
  - eexists _, _. split; [reflexivity|]. split; [reflexivity|]. apply jg_seq. intros x [<-|[<-|[]]]; apply jg_string, Js; cbn; auto.
  - exists (VInt 3). eexists. split; [reflexivity|]. split; [reflexivity|]. apply jg_int; reflexivity.
  - eexists _, _. split; [reflexivity|]. split; [reflexivity|]. apply jg_int; reflexivity.
Qed.
(** the object of class JParent is restored by the generated text *)
Theorem C76_jparent : exists W R F ms, json_program jfo jfamily GJ jfam_resolve W R /\ forall f, (F <= f)%nat ->
    run_push_text (lib_push_base GJ JE [] f jfam_resolve jparent_object) (lib_push_member GJ JE [] f 12 jparent_types jparent_object) (W kjparent) [] = ROk ms
    /\ (forall n, In n (map fst ms) <-> In n [B "g"; B "p"; B "c"])
    /\ forall h er, exists os' h' er',
      run_pull_text (lib_pull_base GJ JE f jfam_resolve ms) (lib_pull_member GJ JE f 12 jparent_types ms) (R kjparent) jparent_other {| p_heap := h; p_err := er |} = POk os' {| p_heap := h'; p_err := er' |}
      /\ quiet er er' /\ (forall key, alookup fkey_eqb key os' = alookup fkey_eqb key jparent_restored).
Proof.
  destruct full_jfamily as (W & R & P).
  destruct (C76_json jfo jfamily GJ jfam_resolve W R P JE [] true kjparent jparent_types jparent_object jparent_other) as (F & ms & Q).
  { exact GE_alloc. } { exact GE_place. } { exact jparent_relevant. } { exact jparent_apart. } { intros b Hb. apply jparent_classes, (jparent_parts W R P), Hb. }
  { intros b n t (c & P1 & N1 & P2 & N2). destruct N2. exact (jparent_two_levels c b P1 N1 P2). }
  { intros n a c t Hm. vm_compute in Hm. repeat (destruct Hm as [Hm|Hm]; [try discriminate; injection Hm as <- <- <- <-; vm_compute; reflexivity|]). destruct Hm. }
  { intros b n t Hb S M. apply jparent_members; auto. apply (jparent_parts W R P), Hb. }
  assert (Pp : part_of jfo jfamily kjparent kjparent) by (left; reflexivity).
  assert (Pg : part_of jfo jfamily kjparent kjgrand) by (apply (jpart_iff jfo jfamily GJ jfam_resolve W R P); right; vm_compute; auto).
  exists W, R, F, ms. split; [exact P|]. intros f Hf. destruct (Q f Hf) as (E1 & _ & N & _ & E2). split; [exact E1|]. split.
  { intros n. rewrite N. split.
    - intros (b & Hb & S). destruct (pushed_member b n S) as [t M]. destruct (jparent_pushed b n t (jparent_parts W R P b Hb) S M) as [(_ & -> & _)|[(_ & -> & _)|(_ & -> & _)]]; cbn; auto.
    - intros [<-|[<-|[<-|[]]]].
      + exists kjgrand. split; [exact Pg|]. eexists. split; [left; reflexivity|]. exists Public, false, i32. auto.
      + exists kjparent. split; [exact Pp|]. eexists. split; [left; reflexivity|]. exists Public, false, (TSeq TString). auto.
      + exists kjparent. split; [exact Pp|]. eexists. split; [right; left; reflexivity|]. exists Public, true, i32. auto. }
  intros h er. destruct (E2 h er) as (os' & h' & er' & RR & _ & Qu & A & U). exists os', h', er'. split; [exact RR|]. split; [exact Qu|].
  intros key. destruct (fkey_eqb key (11, B "g")) eqn:K1; [|destruct (fkey_eqb key (12, B "p")) eqn:K2].
  - apply fkey_eqb_eq in K1. subst key. destruct (A kjgrand (B "g") i32 Pg) as (v & v' & V1 & V2 & _ & S).
    { eexists. split; [left; reflexivity|]. exists Public, i32. auto. } { exists Public, false; cbn; auto. }
    cbn in V1. injection V1 as <-. change (cr_id (k_rec kjgrand)) with 11 in V2. rewrite V2, (S eq_refl). reflexivity.
  - apply fkey_eqb_eq in K2. subst key. destruct (A kjparent (B "p") (TSeq TString) Pp) as (v & v' & V1 & V2 & _ & S).
    { eexists. split; [left; reflexivity|]. exists Public, (TSeq TString). auto. } { exists Public, false; cbn; auto. }
    cbn in V1. injection V1 as <-. change (cr_id (k_rec kjparent)) with 12 in V2. rewrite V2, (S eq_refl). reflexivity.
  - rewrite U.
    + unfold jparent_restored, jparent_other. cbn [alookup]. rewrite K1, K2. reflexivity.
    + intros b n Hb (d & Hd & acc & t & -> & Hp) E. destruct (jparent_parts W R P b Hb) as [<-|[<-|[]]]; cbn in Hd; subst key.
      * destruct Hd as [Hd|[Hd|[Hd|[]]]]; inversion Hd; subst; [vm_compute in K2; discriminate|]. destruct Hp as [Hp|Hp]; discriminate Hp.
      * destruct Hd as [Hd|[]]; inversion Hd; subst. vm_compute in K1; discriminate.
Qed.
Print Assumptions C76_jparent.
(** and the document is the expected one *)
Example jparent_doc : push_cls GJ JE [] 9 12 jparent_object [] = ROk jparent_document.
Proof. vm_compute. reflexivity. Qed.

(** the hierarchy of class JChild has three levels: the member of class JGrand is pushed and pulled twice *)
Definition kjchild : rclass := {| k_rec := mk 13 "JChild" 0 [base 12 (B "JParent") "JParent" 0; base 4 jt "JsonSerializable<JChild>" 0] [pub "x" TString]; k_base := Some (base 4 jt "JsonSerializable<JChild>" 0) |}.
Example jchild_relevant : In kjchild (relevant_classes jfo jfamily). Proof. vm_compute. auto. Qed.
Example jchild_three_levels : revisited jfo jfamily kjchild kjgrand.
Proof.
  destruct full_jfamily as (W & R & P). exists kjparent. split; [|split; [discriminate|split; [|discriminate]]]; apply (jpart_iff jfo jfamily GJ jfam_resolve W R P); right; vm_compute; auto.
Qed.
Example jchild_parts W R : json_program jfo jfamily GJ jfam_resolve W R -> forall b, part_of jfo jfamily kjchild b -> In b [kjchild; kjparent; kjgrand].
Proof. intros P b H. apply (jpart_iff jfo jfamily GJ jfam_resolve W R P) in H. destruct H as [->|H]; [left; reflexivity|vm_compute in H; destruct H as [<-|[<-|[]]]; cbn; auto]. Qed.
Example jchild_classes : forall b, In b [kjchild; kjparent; kjgrand] -> transferable b /\ distinct_members b.
Proof.
  intros b [<-|H]; [|apply jparent_classes; exact H]. split; try (split; [reflexivity|vm_compute; discriminate]); unfold distinct_members; vm_compute; repeat constructor; cbn; intuition discriminate.
Qed.
Example jchild_pushed : forall b n t, In b [kjchild; kjparent; kjgrand] -> pushed b n -> has_member b n t ->
  (b = kjchild /\ n = B "x" /\ t = TString) \/ (b = kjparent /\ n = B "p" /\ t = TSeq TString) \/ (b = kjparent /\ n = B "c" /\ t = i32) \/ (b = kjgrand /\ n = B "g" /\ t = i32).
Proof.
  intros b n t [<-|Hb] S M; [|right; apply jparent_pushed; assumption]. assert (X := pushed_own kjchild n t (proj2 (jchild_classes kjchild (or_introl eq_refl))) S M).
  vm_compute in X; repeat (destruct X as [X|X]; [inversion X; subst|]); try (destruct X; fail). left. split; [reflexivity|split; reflexivity].
Qed.
Example jchild_apart : names_apart jfo jfamily kjchild.
Proof.
  destruct full_jfamily as (W & R & P). intros b b' n Hb Hb' S S'. destruct (pushed_member b n S) as [t M]. destruct (pushed_member b' n S') as [t' M'].
  destruct (jchild_pushed b n t (jchild_parts W R P b Hb) S M) as [(-> & -> & ->)|[(-> & -> & ->)|[(-> & -> & ->)|(-> & -> & ->)]]]; destruct (jchild_pushed b' _ t' (jchild_parts W R P b' Hb') S' M') as [(-> & E & ->)|[(-> & E & ->)|[(-> & E & ->)|(-> & E & ->)]]]; try reflexivity; discriminate E.
Qed.
Definition jchild_types (n : bytes) : ty := TString.
Definition jchild_object : list (fkey * val) := ((13, B "x"), VStr (B "more")) :: jparent_object.
Definition jchild_other : list (fkey * val) := ((13, B "x"), VStr []) :: jparent_other.
Definition jchild_document : list (bytes * json) := [(B "g", JInt (-7)); (B "g", JInt (-7)); (B "p", JArr [JStr (B "hello"); JStr (B "world")]); (B "c", JInt 1); (B "x", JStr (B "more"))].
(** the object of class JChild is restored by the generated text although the document has the member "g" twice *)
Theorem C76_jchild : exists W R F ms, json_program jfo jfamily GJ jfam_resolve W R /\ forall f, (F <= f)%nat ->
    run_push_text (lib_push_base GJ JE [] f jfam_resolve jchild_object) (lib_push_member GJ JE [] f 13 jchild_types jchild_object) (W kjchild) [] = ROk ms
    /\ forall h er, exists os' h' er',
      run_pull_text (lib_pull_base GJ JE f jfam_resolve ms) (lib_pull_member GJ JE f 13 jchild_types ms) (R kjchild) jchild_other {| p_heap := h; p_err := er |} = POk os' {| p_heap := h'; p_err := er' |}
      /\ quiet er er' /\ alookup fkey_eqb (11, B "g") os' = Some (VInt (-7)) /\ alookup fkey_eqb (12, B "p") os' = Some (VList [VStr (B "hello"); VStr (B "world")])
      /\ alookup fkey_eqb (13, B "x") os' = Some (VStr (B "more")) /\ alookup fkey_eqb (12, B "c") os' = Some (VInt 3).
Proof.
  destruct full_jfamily as (W & R & P). assert (PB := jchild_parts W R P).
  destruct (C76_json jfo jfamily GJ jfam_resolve W R P JE [] true kjchild jchild_types jchild_object jchild_other) as (F & ms & Q).
  { exact GE_alloc. } { exact GE_place. } { exact jchild_relevant. } { exact jchild_apart. } { intros b Hb. apply jchild_classes, PB, Hb. }
  { intros b n t Rb S M. assert (Hb := PB b (jrevisited_part jfo jfamily GJ jfam_resolve W R P _ _ Rb)). assert (X := pulled_own b n t (proj2 (jchild_classes b Hb)) S M).
    destruct Hb as [<-|[<-|[<-|[]]]]; vm_compute in X; repeat (destruct X as [X|X]; [inversion X; subst; apply rp_direct; exact I|]); destruct X. }
  { intros n a c t Hm. vm_compute in Hm. repeat (destruct Hm as [Hm|Hm]; [try discriminate; injection Hm as <- <- <- <-; vm_compute; reflexivity|]). destruct Hm. }
  { intros b n t Hb S M. destruct (PB b Hb) as [<-|Hb'].
    - destruct (jchild_pushed kjchild n t (or_introl eq_refl) S M) as [(_ & -> & ->)|[(X & _)|[(X & _)|(X & _)]]]; try discriminate X.
      eexists _, _. split; [reflexivity|]. split; [reflexivity|]. apply jg_string. split; [intros X; vm_compute in X; intuition discriminate|vm_compute; discriminate].
    - destruct (jparent_members b n t Hb' S M) as (old & v & A & B' & C). assert (Ne : fkey_eqb (cr_id (k_rec b), n) (13, B "x") = false) by (destruct Hb' as [<-|[<-|[]]]; reflexivity).
      exists old, v. unfold jchild_other, jchild_object. cbn [alookup]. rewrite Ne. auto. }
  exists W, R, F, ms. split; [exact P|]. intros f Hf. destruct (Q f Hf) as (E1 & _ & _ & _ & E2). split; [exact E1|].
  intros h er. destruct (E2 h er) as (os' & h' & er' & RR & _ & Qu & A & U). exists os', h', er'. split; [exact RR|]. split; [exact Qu|].
  assert (PP : forall b, In b [kjchild; kjparent; kjgrand] -> part_of jfo jfamily kjchild b).
  { intros b Hb. apply (jpart_iff jfo jfamily GJ jfam_resolve W R P). destruct Hb as [<-|[<-|[<-|[]]]]; [left; reflexivity|right; vm_compute; auto..]. }
  split; [|split; [|split]].
  - destruct (A kjgrand (B "g") i32) as (v & v' & V1 & V2 & _ & S); [apply PP; cbn; auto|eexists; split; [left; reflexivity|]; exists Public, i32; auto|exists Public, false; cbn; auto|].
    cbn in V1. injection V1 as <-. change (cr_id (k_rec kjgrand)) with 11 in V2. rewrite V2, (S eq_refl). reflexivity.
  - destruct (A kjparent (B "p") (TSeq TString)) as (v & v' & V1 & V2 & _ & S); [apply PP; cbn; auto|eexists; split; [left; reflexivity|]; exists Public, (TSeq TString); auto|exists Public, false; cbn; auto|].
    cbn in V1. injection V1 as <-. change (cr_id (k_rec kjparent)) with 12 in V2. rewrite V2, (S eq_refl). reflexivity.
  - destruct (A kjchild (B "x") TString) as (v & v' & V1 & V2 & _ & S); [apply PP; cbn; auto|eexists; split; [left; reflexivity|]; exists Public, TString; auto|exists Public, false; cbn; auto|].
    cbn in V1. injection V1 as <-. change (cr_id (k_rec kjchild)) with 13 in V2. rewrite V2, (S eq_refl). reflexivity.
  - rewrite U; [reflexivity|]. intros b n Hb (d & Hd & acc & t & -> & Hp) E. destruct (PB b Hb) as [<-|[<-|[<-|[]]]]; cbn in Hd, E; try (injection E; discriminate).
    destruct Hd as [Hd|[Hd|[Hd|[]]]]; inversion Hd; subst; discriminate E.
Qed.
Print Assumptions C76_jchild.
Example jchild_doc : push_cls GJ JE [] 9 13 jchild_object [] = ROk jchild_document.
Proof. vm_compute. reflexivity. Qed.

(** Finding: the hypothesis that names are distinct is needed: with a member of the same name in base and derived class the document has the name twice
    and both member variables are given the value of the base class *)
Definition jclash : list decl :=
  [DRecord (mk 11 "JGrand" 0 [base 2 jt "JsonSerializable<JGrand>" 0] [pub "g" i32]);
   DRecord (mk 12 "JParent" 0 [base 11 (B "JGrand") "JGrand" 0; base 3 jt "JsonSerializable<JParent>" 0] [pub "g" i32])].
Definition jclash_class (k : rclass) : rtclass :=
  let rbs := find_bases jclash (relevant_classes jfo jclash) k in
  {| rc_name := qname k; rc_layout := []; rc_dinit := []; rc_vinit := []; rc_wr := writer_prog rbs k; rc_rd := reader_prog rbs k;
     rc_push := push_prog rbs k; rc_pull := pull_prog rbs k |}.
Definition GK : genv := {|
  g_class := fun c => option_map jclash_class (find (fun k => cr_id (k_rec k) =? c) (relevant_classes jfo jclash));
  g_lt := g_lt GE; g_eq := g_eq GE; g_place := g_place GE; g_alloc := g_alloc GE |}.
Theorem C76_names_apart_refuted : exists ms,
  push_cls GK JE [] 9 12 [((11, B "g"), VInt 1); ((12, B "g"), VInt 2)] [] = ROk ms /\ map fst ms = [B "g"; B "g"]
  /\ forall st, pull_cls GK JE 9 12 [((11, B "g"), VInt 0); ((12, B "g"), VInt 0)] ms {| p_heap := st; p_err := None |}
     = POk [((11, B "g"), VInt 1); ((12, B "g"), VInt 1)] {| p_heap := st; p_err := None |}.
Proof. eexists. split; [vm_compute; reflexivity|]. split; [reflexivity|]. intros st. vm_compute. reflexivity. Qed.
Print Assumptions C76_names_apart_refuted.
