(** JTreeSpec.v -- vocabulary for the statements about the object graphs deserialising JSON makes (property C65).
    Nothing here is used by the model itself; see SerSpec.v for [refers] and [acyclic]. *)
From Coq Require Import List NArith Bool Arith.
From Verif Require Import Base Types JsonModel BoundSpec SerSpec.
Import ListNotations.
Local Open Scope nat_scope.

(** the number of shared pointers in a value which refer to the object at address [a] *)
Fixpoint pointers (a : N) (v : val) : nat :=
  match v with
  | VShared (Some b) => if N.eqb a b then 1 else 0
  | VList l => (fix sum l := match l with [] => 0 | x :: l' => pointers a x + sum l' end) l
  | VPair x y => pointers a x + pointers a y
  | VOpt (Some x) | VVar _ x => pointers a x
  | VObj fs => (fix sum l := match l with [] => 0 | (_, x) :: l' => pointers a x + sum l' end) fs
  | _ => 0
  end.
(** the number of shared pointers in all objects of a heap which refer to it *)
Definition heap_pointers (a : N) (h : heap) : nat :=
  list_sum (map (fun b => match hget h b with Some (_, x) => pointers a x | None => 0 end) (addresses h)).

(** there is an object at the address *)
Definition exists_at (h : heap) (a : N) : Prop := In a (map fst h).
Definition exists_dec h a : {exists_at h a} + {~ exists_at h a} := in_dec N.eq_dec a (map fst h).

(** pointers of objects refer to objects *)
Definition no_dangling (h : heap) : Prop := forall a t x b, hget h a = Some (t, x) -> refers x b -> exists_at h b.
(** objects which have just been constructed do not own shared objects *)
Definition plain_defaults (G : genv) : Prop :=
  forall c rc k x a, g_class G c = Some rc -> In (k, x) (rc_vinit rc) \/ In (k, x) (rc_dinit rc) -> ~ refers x a.
