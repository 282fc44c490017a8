(** BoundSpec.v -- vocabulary for the bounds on what is created when reading untrusted input (property C61).
    Nothing here is used by the model itself. *)
From Coq Require Import List NArith ZArith Bool Arith.
From Verif Require Import Base Types.
Import ListNotations.
Local Open Scope nat_scope.

(** size of a value: the number of its parts (elements, members, characters ...), itself included; objects owned by shared pointers are not part of it *)
Fixpoint vsize (v : val) : nat :=
  match v with
  | VStr s => 1 + length s
  | VList l => 1 + (fix sum l := match l with [] => 0 | x :: l' => vsize x + sum l' end) l
  | VPair a b => 1 + vsize a + vsize b
  | VOpt (Some x) => 1 + vsize x
  | VVar _ x => 1 + vsize x
  | VObj fs => 1 + (fix sum l := match l with [] => 0 | (_, x) :: l' => vsize x + sum l' end) fs
  | _ => 1
  end.
Definition vsizes (l : list val) : nat := list_sum (map vsize l).
Definition fsizes (l : list (fkey * val)) : nat := list_sum (map (fun kv => vsize (snd kv)) l).

(** the objects which exist in a heap, and the size of all of them together *)
Definition addresses (h : heap) : list N := nodup N.eq_dec (map fst h).
Definition heap_size (h : heap) : nat :=
  list_sum (map (fun a => match hget h a with Some (_, x) => vsize x | None => 0 end) (addresses h)).

(** [occupies G t]: data of the type is never empty.  Only objects can be empty: those of classes which have no version and in
    which all members (inherited ones, too) are conditional or empty themselves. *)
Inductive occupies (G : genv) : ty -> Prop :=
| oc_other t : (forall a b, t <> TPair a b) -> (forall c, t <> TStruct c) -> occupies G t
| oc_first a b : occupies G a -> occupies G (TPair a b)
| oc_second a b : occupies G b -> occupies G (TPair a b)
| oc_struct c : occupies_class G c -> occupies G (TStruct c)
with occupies_class (G : genv) : N -> Prop :=
| oc_version c rc p : g_class G c = Some rc -> rc_rd rc = Some p -> bp_vmax p <> 0%N -> occupies_class G c
| oc_base c rc p b : g_class G c = Some rc -> rc_rd rc = Some p -> In b (bp_bases p) -> occupies_class G b -> occupies_class G c
| oc_member c rc p fd : g_class G c = Some rc -> rc_rd rc = Some p -> In fd (bp_fields p) -> bf_asof fd = 0%N -> bf_until fd = 0%N ->
    occupies G (bf_ty fd) -> occupies_class G c.

(** [compact G k t]: elements of containers are never empty, and what is created for an element, an optional value, a shared object or an
    alternative before it is read has at most the size [k] (only default member initialisers can make it large) *)
Fixpoint compact (G : genv) (k : nat) (t : ty) : Prop :=
  match t with
  | TSeq t' => compact G k t' /\ occupies G t' /\ vsize (vinit G t') <= k
  | TSet _ _ t' => compact G k t' /\ occupies G t' /\ vsize (dinit G t') <= k
  | TMap _ _ a b => compact G k a /\ compact G k b /\ occupies G (TPair a b) /\ vsize (VPair (vinit G a) (vinit G b)) <= k
  | TPair a b => compact G k a /\ compact G k b
  | TUnique t' | TOptional t' | TShared t' => compact G k t' /\ vsize (vinit G t') <= k
  | TVariant ts => (fix all l := match l with [] => True | t' :: l' => (compact G k t' /\ vsize (vinit G t') <= k) /\ all l' end) ts
  | _ => True
  end.
(** the same for the members of all classes *)
Definition compact_members (G : genv) (k : nat) : Prop :=
  forall c rc p fd, g_class G c = Some rc -> rc_rd rc = Some p -> In fd (bp_fields p) -> compact G k (bf_ty fd).
