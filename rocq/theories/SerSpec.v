(** SerSpec.v -- vocabulary for the statements about serialising: which classes can be serialised, sizes, object graphs
    without cycles *)
From Coq Require Import List NArith ZArith Bool.
From Verif Require Import Base Types BinModel BinSpec BinSafeSpec JsonModel DispatchSpec.
Import ListNotations.

(** functions for serialising a class access existing members with their declared type, and base classes the members of which are part of
    the class; no class is its own base (C++ forbids it) *)
Record writers_ok (G : genv) : Prop := {
  wo_fields : forall c rc fd, g_class G c = Some rc -> In fd (bp_fields (rc_wr rc)) ->
    alookup fkey_eqb (bf_key fd) (rc_layout rc) = Some (bf_ty fd);
  wo_types : writable_members G;
  wo_bases : forall c rc b, g_class G c = Some rc -> In b (bp_bases (rc_wr rc)) ->
    exists rb, g_class G b = Some rb /\ forall k t, alookup fkey_eqb k (rc_layout rb) = Some t -> alookup fkey_eqb k (rc_layout rc) = Some t;
  wo_acyclic : exists rk : N -> nat, forall c rc b, g_class G c = Some rc -> In b (bp_bases (rc_wr rc)) -> rk b < rk c;
  wo_version : forall c rc, g_class G c = Some rc -> (bp_vmax (rc_wr rc) < 2 ^ 56)%N }.
Record pushers_ok (G : genv) : Prop := {
  po_fields : forall c rc fd, g_class G c = Some rc -> In fd (jp_fields (rc_push rc)) ->
    alookup fkey_eqb (jf_key fd) (rc_layout rc) = Some (jf_ty fd);
  po_types : pushable_members G;
  po_bases : forall c rc b, g_class G c = Some rc -> In b (jp_bases (rc_push rc)) ->
    exists rb, g_class G b = Some rb /\ forall k t, alookup fkey_eqb k (rc_layout rb) = Some t -> alookup fkey_eqb k (rc_layout rc) = Some t;
  po_acyclic : exists rk : N -> nat, forall c rc b, g_class G c = Some rc -> In b (jp_bases (rc_push rc)) -> rk b < rk c }.

(** no string has, and no container in a value has, [n] elements or more *)
Fixpoint sizes_below (n : N) (v : val) : Prop :=
  match v with
  | VStr s => (N.of_nat (length s) < n)%N
  | VList l => (N.of_nat (length l) < n)%N /\ (fix all l := match l with [] => True | x :: l' => sizes_below n x /\ all l' end) l
  | VPair a b => sizes_below n a /\ sizes_below n b
  | VOpt (Some x) | VVar _ x => sizes_below n x
  | VObj fs => (fix all l := match l with [] => True | (_, x) :: l' => sizes_below n x /\ all l' end) fs
  | _ => True
  end.

(** [refers v a]: the value contains a shared pointer to the object at address [a] *)
Inductive refers : val -> N -> Prop :=
| rf_shared a : refers (VShared (Some a)) a
| rf_item l x a : In x l -> refers x a -> refers (VList l) a
| rf_first x y a : refers x a -> refers (VPair x y) a
| rf_second x y a : refers y a -> refers (VPair x y) a
| rf_some x a : refers x a -> refers (VOpt (Some x)) a
| rf_alt i x a : refers x a -> refers (VVar i x) a
| rf_member fs k x a : In (k, x) fs -> refers x a -> refers (VObj fs) a.
(** shared pointers do not form cycles: the objects can be numbered such that pointers lead to smaller numbers *)
Definition acyclic (H : heap) : Prop :=
  exists rk : N -> nat, forall a t x b, hget H a = Some (t, x) -> refers x b -> rk b < rk a.

(** the alternatives of a variant are numbered by std::size_t *)
Definition alternatives (n : nat) : Prop := (Z.of_nat n < 2 ^ 63)%Z.
Fixpoint variants_small (t : ty) : Prop :=
  match t with
  | TSeq t | TSet _ _ t | TUnique t | TOptional t | TShared t => variants_small t
  | TMap _ _ a b | TPair a b => variants_small a /\ variants_small b
  | TTuple ts => (fix all l := match l with [] => True | t :: l' => variants_small t /\ all l' end) ts
  | TVariant ts => alternatives (length ts) /\ (fix all l := match l with [] => True | t :: l' => variants_small t /\ all l' end) ts
  | _ => True
  end.
Definition variants_small_members (G : genv) : Prop :=
  forall c rc fd, g_class G c = Some rc -> In fd (jp_fields (rc_push rc)) -> variants_small (jf_ty fd).

(** types without hash containers: the iteration order is determined by the content; [C]: the classes which may be used *)
Fixpoint ordered_type (C : N -> Prop) (t : ty) : Prop :=
  match t with
  | TSeq t | TUnique t | TOptional t | TShared t => ordered_type C t
  | TSet ord _ t => ord = true /\ ordered_type C t
  | TMap ord _ a b => ord = true /\ ordered_type C a /\ ordered_type C b
  | TPair a b => ordered_type C a /\ ordered_type C b
  | TTuple ts | TVariant ts => (fix all l := match l with [] => True | t :: l' => ordered_type C t /\ all l' end) ts
  | TStruct c => C c
  | _ => True
  end.
(** the classes [C] have such members only *)
Definition ordered_members (G : genv) (C : N -> Prop) : Prop :=
  forall c rc, C c -> g_class G c = Some rc ->
    (forall fd, In fd (jp_fields (rc_push rc)) -> ordered_type C (jf_ty fd)) /\ (forall b, In b (jp_bases (rc_push rc)) -> C b).
