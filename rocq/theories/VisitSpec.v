(** VisitSpec.v -- vocabulary for property C77: which shared objects are visited when a value is serialised as JSON.
    Nothing here is used by the model itself. *)
From Coq Require Import List NArith ZArith Bool Relations.
From Verif Require Import Base Types JsonModel.
Import ListNotations.

(** the class [d] is [c] or one of the base classes the function for [c] serialises, or a base class of that and so on *)
Inductive pushed_base (G : genv) : N -> N -> Prop :=
| pb_self c : pushed_base G c c
| pb_base c rc b d : g_class G c = Some rc -> In b (jp_bases (rc_push rc)) -> pushed_base G b d -> pushed_base G c d.

(** [points G t v a]: the value [v] of type [t] has a shared pointer to the object at address [a], and this pointer is serialised with it: it
    is in an item of a sequence or set, in a value of a map, in an element of a tuple or pair, in what a pointer or optional owns, in the
    assigned alternative of a variant or in a member variable (other member variables don't count) *)
Inductive points (G : genv) : ty -> val -> N -> Prop :=
| pt_shared t a : points G (TShared t) (VShared (Some a)) a
| pt_item t l x a : In x l -> points G t x a -> points G (TSeq t) (VList l) a
| pt_set o m t l x a : In x l -> points G t x a -> points G (TSet o m t) (VList l) a
| pt_map o m kt vt l k x a : In (VPair k x) l -> points G vt x a -> points G (TMap o m kt vt) (VList l) a
| pt_element ts l i t x a : nth_error ts i = Some t -> nth_error l i = Some x -> points G t x a -> points G (TTuple ts) (VList l) a
| pt_first ta tb x y a : points G ta x a -> points G (TPair ta tb) (VPair x y) a
| pt_second ta tb x y a : points G tb y a -> points G (TPair ta tb) (VPair x y) a
| pt_unique t x a : points G t x a -> points G (TUnique t) (VOpt (Some x)) a
| pt_optional t x a : points G t x a -> points G (TOptional t) (VOpt (Some x)) a
| pt_alternative ts i t x a : nth_error ts i = Some t -> points G t x a -> points G (TVariant ts) (VVar i x) a
| pt_member c d rd fd fs x a : pushed_base G c d -> g_class G d = Some rd -> In fd (jp_fields (rc_push rd)) ->
    alookup fkey_eqb (jf_key fd) fs = Some x -> points G (jf_ty fd) x a -> points G (TStruct c) (VObj fs) a.

(** the object at [a] has such a pointer to the object at [b] *)
Definition leads (G : genv) (H : heap) (a b : N) : Prop := exists t x, hget H a = Some (t, x) /\ points G t x b.
(** ... possibly via further objects *)
Definition leads_to (G : genv) (H : heap) : N -> N -> Prop := clos_trans N (leads G H).
(** serialising the value visits the object at [a] *)
Definition visits_object (G : genv) (H : heap) (t : ty) (v : val) (a : N) : Prop :=
  points G t v a \/ exists b, points G t v b /\ leads_to G H b a.
(** no object which is visited visits itself *)
Definition no_cycle (G : genv) (H : heap) (t : ty) (v : val) : Prop := forall a, visits_object G H t v a -> ~ leads_to G H a a.
