(** ExamplesEnv.v -- a concrete class environment used to show that the hypotheses of the
    theorems are met and to compare the model with the expectations in /repo's unit tests *)
From Coq Require Import String List NArith ZArith Bool Lia Permutation.
From Verif Require Import Base BaseFacts Types TypesFacts BinModel BinSpec BinSafeSpec BinFacts ContFacts BinTerm.
Import ListNotations.
Local Open Scope N_scope.

Definition B (s : string) : bytes := list_byte_of_string s.
Definition hex (l : list N) : bytes := map mkb l.

(** lexicographic comparison of byte strings (std::string::operator<) *)
Fixpoint bytes_ltb (a b : bytes) : bool :=
  match a, b with
  | [], [] => false
  | [], _ :: _ => true
  | _ :: _, [] => false
  | x :: a', y :: b' => (bval x <? bval y) || ((bval x =? bval y) && bytes_ltb a' b')
  end.

Definition val_ltb (a b : val) : bool :=
  match a, b with VInt x, VInt y => (x <? y)%Z | VStr x, VStr y => bytes_ltb x y | _, _ => false end.
Definition val_eqb (a b : val) : bool :=
  match a, b with VInt x, VInt y => (x =? y)%Z | VStr x, VStr y => bytes_eqb x y | _, _ => false end.

Definition jf (c : N) (n : string) (t : ty) : jfield := {| jf_name := B n; jf_key := (c, B n); jf_ty := t |}.
Definition bf (c : N) (n : string) (t : ty) (a u : N) : bfield := {| bf_asof := a; bf_until := u; bf_key := (c, B n); bf_ty := t |}.

(** a class without bases: members (name, type, as-of, until), version *)
Definition plain_layout (c : N) (ms : list (string * ty * N * N)) : list (fkey * ty) :=
  map (fun '(n, t, _, _) => ((c, B n), t)) ms.
Definition prog (c : N) (bases : list N) (vmax : N) (ms : list (string * ty * N * N)) : bprog :=
  {| bp_bases := bases; bp_vmax := vmax; bp_fields := map (fun '(n, t, a, u) => bf c n t a u) ms; bp_ret0 := false |}.

Definition i32 := TInt KI32.
Definition testobj : list (string * ty * N * N) :=
  [("number", i32, 0, 0); ("number2", TF64, 0, 0); ("numbers", TSeq i32, 0, 0); ("text", TString, 0, 0); ("boolean", TBool, 0, 0);
   ("someMap", TMap true false TString i32, 0, 0); ("someHash", TMap false false TString TBool, 0, 0);
   ("someSet", TSet true false TString, 0, 0); ("someMultiset", TSet true true TString, 0, 0);
   ("someUnorderedSet", TSet false false TString, 0, 0); ("someUnorderedMultiset", TSet false true TString, 0, 0);
   ("someEnum", TEnum KU32, 0, 0); ("someEnumClass", TEnum KU16, 0, 0); ("timeSpan", TTimeSpan, 0, 0); ("dateTime", TDateTime, 0, 0)]%string.
Definition node : list (string * ty * N * N) := [("value", i32, 0, 0); ("next", TShared (TStruct 1), 0, 0)]%string.
Definition ver : list (string * ty * N * N) := [("a", i32, 0, 0); ("b", TString, 2, 0); ("c", i32, 0, 2); ("d", TOptional (TStruct 1), 3, 0)]%string.
Definition derived : list (string * ty * N * N) := [("x", TMap true false TString (TSeq i32), 0, 0); ("y", TVariant [i32; TString; TMono], 0, 0)]%string.
Definition outer : list (string * ty * N * N) := [("inner", TStruct 2, 0, 0); ("list", TSeq (TStruct 2), 0, 0)]%string.

(** value-initialised members of classes declared without default member initialisers *)
Definition z0 (t : ty) : val :=
  match t with
  | TBool => VBool false | TF64 => VF64 0 | TInt _ | TEnum _ | TTimeSpan | TDateTime => VInt 0
  | TString => VStr [] | TSeq _ | TSet _ _ _ | TMap _ _ _ _ => VList [] | TOptional _ | TUnique _ => VOpt None
  | TShared _ => VShared None | TVariant _ => VVar 0 (VInt 0)
  | _ => VUndef
  end.
Definition inits (c : N) (ms : list (string * ty * N * N)) : list (fkey * val) := map (fun '(n, t, _, _) => ((c, B n), z0 t)) ms.

Definition jprog_of (c : N) (bases : list N) (name : string) (ms : list (string * ty * N * N)) : jprog :=
  {| jp_bases := bases; jp_record := Some (B name); jp_fields := map (fun '(n, t, _, _) => jf c n t) ms |}.

Definition mkclass (c : N) (name : string) (bases : list N) (vmax : N) (inherited : list (fkey * ty)) (inherited0 : list (fkey * val))
    (ms : list (string * ty * N * N)) : rtclass :=
  {| rc_name := B name; rc_layout := inherited ++ plain_layout c ms;
     rc_dinit := inherited0 ++ inits c ms; rc_vinit := inherited0 ++ inits c ms;
     rc_wr := prog c bases vmax ms; rc_rd := Some (prog c bases vmax ms);
     rc_push := jprog_of c bases name ms; rc_pull := Some (jprog_of c bases name ms) |}.

Definition cTest := mkclass 0 "TestObject" [] 0 [] [] testobj.
Definition cNode := mkclass 1 "Node" [] 0 [] [] node.
Definition cVer := mkclass 2 "Ver" [] 3 [] [] ver.
Definition cDerived := mkclass 3 "Derived" [2] 5 (rc_layout cVer) (rc_vinit cVer) derived.
(** [Outer] has the member "inner" of class [Ver], the default version of which is lower *)
Definition cOuter :=
  {| rc_name := B "Outer"; rc_layout := plain_layout 4 outer;
     rc_dinit := [((4, B "inner"), VObj (rc_vinit cVer)); ((4, B "list"), VList [])];
     rc_vinit := [((4, B "inner"), VObj (rc_vinit cVer)); ((4, B "list"), VList [])];
     rc_wr := prog 4 [] 5 outer; rc_rd := Some (prog 4 [] 5 outer);
     rc_push := jprog_of 4 [] "Outer" outer; rc_pull := Some (jprog_of 4 [] "Outer" outer) |}.

Definition classes (c : N) : option rtclass :=
  match c with 0 => Some cTest | 1 => Some cNode | 2 => Some cVer | 3 => Some cDerived | 4 => Some cOuter | _ => None end.

(** hash containers append; std::make_shared uses the next unused number *)
Definition GE : genv := {|
  g_class := classes;
  g_lt := fun _ => val_ltb;
  g_eq := fun _ => val_eqb;
  g_place := fun _ l x => l ++ [x];
  g_alloc := fun h => 1 + fold_right N.max 0 (map fst h) |}.

Lemma GE_alloc : alloc_ok GE.
Proof.
  intros h Hin. cbn [g_alloc GE] in Hin. revert Hin. generalize (map fst h) as l. intros l.
  assert (Q: forall x, In x l -> x <= fold_right N.max 0 l).
  { induction l as [|y l IH]; intros x []; cbn [fold_right]; [subst; lia|]. apply IH in H. lia. }
  intros Hin. apply Q in Hin. lia.
Qed.
Lemma GE_place : place_ok GE.
Proof. intros t l x. cbn. apply Permutation_cons_append. Qed.

Lemma bytes_ltb_irrefl a : bytes_ltb a a = false.
Proof. induction a as [|x a IH]; cbn; [reflexivity|]. rewrite N.ltb_irrefl, IH, andb_false_r. reflexivity. Qed.
Lemma bytes_ltb_trans a : forall b c, bytes_ltb a b = true -> bytes_ltb b c = true -> bytes_ltb a c = true.
Proof.
  induction a as [|x a IH]; intros [|y b] [|z c]; cbn; try discriminate; auto.
  rewrite !orb_true_iff, !andb_true_iff, !N.ltb_lt, !N.eqb_eq.
  intros [H1|[H1 H1']] [H2|[H2 H2']]; try (left; lia). right. split; [lia|]. eapply IH; eauto.
Qed.
Lemma bytes_eqb_sym a : forall b, bytes_eqb a b = bytes_eqb b a.
Proof.
  induction a as [|x a IH]; intros [|y b]; cbn; auto. rewrite IH. f_equal.
  unfold beqb. destruct (Byte.eqb x y) eqn:E.
  - apply Byte.byte_dec_bl in E. subst. symmetry. apply Byte.byte_dec_lb. reflexivity.
  - destruct (Byte.eqb y x) eqn:E2; [|reflexivity]. apply Byte.byte_dec_bl in E2. subst. rewrite Byte.byte_dec_lb in E; [discriminate|reflexivity].
Qed.
Lemma GE_keys t : keys_ok GE t.
Proof.
  constructor; cbn.
  - intros a. destruct a; cbn; auto; [apply Z.ltb_irrefl|apply bytes_ltb_irrefl].
  - intros [] [] []; cbn; try discriminate; [rewrite !Z.ltb_lt; lia|apply bytes_ltb_trans].
  - intros [] []; cbn; try reflexivity; [apply Z.eqb_sym|apply bytes_eqb_sym].
Qed.

Lemma classes_inv c rc : classes c = Some rc ->
  (c = 0 /\ rc = cTest) \/ (c = 1 /\ rc = cNode) \/ (c = 2 /\ rc = cVer) \/ (c = 3 /\ rc = cDerived) \/ (c = 4 /\ rc = cOuter).
Proof.
  unfold classes. destruct c as [|p]; [intros E; inversion E; auto|].
  destruct p as [[|[]|]|[|[]|]|]; intros E; inversion E; auto 10.
Qed.

(** case analysis on the class *)
Ltac class_cases H := apply classes_inv in H; destruct H as [[-> ->]|[[-> ->]|[[-> ->]|[[-> ->]|[-> ->]]]]].

Lemma vinit_typed ms c (rc : rtclass) :
  (forall n t a u, In (n, t, a, u) ms -> has_type GE false [] t (z0 t)) ->
  forall k t v, alookup fkey_eqb k (plain_layout c ms) = Some t -> alookup fkey_eqb k (inits c ms) = Some v -> has_type GE false [] t v.
Proof.
  induction ms as [|[[[n t0] a] u] ms IH]; intros Hz k t v; cbn; [discriminate|].
  destruct (fkey_eqb k (c, B n)).
  - intros E1 E2; inversion E1; inversion E2; subst. eapply Hz. left; reflexivity.
  - apply IH. intros n' t' a' u' Hin. eapply Hz. right; exact Hin.
Qed.
