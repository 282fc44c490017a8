(** DepthSpec.v -- vocabulary for the bounds on the depth of nested calls (property C67).  Nothing here is used by the model itself; see
    BoundSpec.v for the objects of a heap and SerSpec.v for object graphs without cycles.

    The functions of the library call each other recursively; the model's functions take the number of nested calls which are allowed as
    argument ("fuel") and answer [RFuel]/[PFuel] if more would be needed.  So "[f fuel ... <> RFuel]" says that the stack never holds more than
    [fuel] of these calls at the same time (loops do not count: only the calls within each other). *)
From Coq Require Import List NArith ZArith Bool Arith.
From Verif Require Import Base Types JsonModel BoundSpec.
Import ListNotations.
Local Open Scope nat_scope.

(** how deep arrays and objects are nested in a document *)
Fixpoint jdepth (j : json) : nat :=
  match j with
  | JArr l => 1 + (fix most l := match l with [] => 0 | x :: l' => Nat.max (jdepth x) (most l') end) l
  | JObj ms => 1 + (fix most l := match l with [] => 0 | (_, x) :: l' => Nat.max (jdepth x) (most l') end) ms
  | _ => 0
  end.
(** how deep the parts of a value are nested; objects owned by shared pointers are not part of it *)
Fixpoint height (v : val) : nat :=
  match v with
  | VList l => 1 + (fix most l := match l with [] => 0 | x :: l' => Nat.max (height x) (most l') end) l
  | VPair a b => 1 + Nat.max (height a) (height b)
  | VOpt (Some x) | VVar _ x => 1 + height x
  | VObj fs => 1 + (fix most l := match l with [] => 0 | (_, x) :: l' => Nat.max (height x) (most l') end) fs
  | _ => 1
  end.
(** the heights of all objects of a heap together, and of those which are not among the addresses [W] *)
Definition object_height (h : heap) (a : N) : nat := match hget h a with Some (_, x) => height x | None => 0 end.
Definition heap_height (h : heap) : nat := list_sum (map (object_height h) (addresses h)).
Definition unwritten_height (h : heap) (W : list N) : nat :=
  list_sum (map (fun a => if existsb (N.eqb a) W then 0 else object_height h a) (addresses h)).

(** no class has more than [R] levels of base classes *)
Definition base_levels (G : genv) (bases : rtclass -> list N) (R : nat) : Prop :=
  exists rk : N -> nat, (forall c, rk c <= R) /\ forall c rc b, g_class G c = Some rc -> In b (bases rc) -> rk b < rk c.
Definition written_bases (rc : rtclass) : list N := bp_bases (rc_wr rc).
Definition pushed_bases (rc : rtclass) : list N := jp_bases (rc_push rc).
Definition pulled_bases (rc : rtclass) : list N := match rc_pull rc with Some p => jp_bases p | None => [] end.

(** how deep a type is nested; classes count 1 *)
Fixpoint nested (t : ty) : nat :=
  match t with
  | TSeq t | TSet _ _ t | TUnique t | TOptional t | TShared t => 1 + nested t
  | TMap _ _ a b | TPair a b => 1 + Nat.max (nested a) (nested b)
  | TTuple ts | TVariant ts => 1 + (fix most l := match l with [] => 0 | t :: l' => Nat.max (nested t) (most l') end) ts
  | _ => 1
  end.
(** the types of the members which are read from JSON are nested at most [T] deep *)
Definition members_nested (G : genv) (T : nat) : Prop :=
  forall c rc p fd, g_class G c = Some rc -> rc_pull rc = Some p -> In fd (jp_fields p) -> nested (jf_ty fd) <= T.

(** binary data.  [direct rk t]: how many calls within each other are needed at most for a value of the type until something has been read, if
    the function for class [c] needs [rk c] further calls: pairs and classes are read member by member while anything else starts with reading at least one byte *)
Fixpoint direct (rk : N -> nat) (t : ty) : nat :=
  match t with
  | TPair a b => 1 + Nat.max (direct rk a) (direct rk b)
  | TStruct c => 2 + rk c
  | _ => 1
  end.
(** [shallow rk A t]: that is at most [A] for the type and for all types it consists of *)
Fixpoint shallow (rk : N -> nat) (A : nat) (t : ty) : Prop :=
  direct rk t <= A /\
  match t with
  | TSeq t | TSet _ _ t | TUnique t | TOptional t | TShared t => shallow rk A t
  | TMap _ _ a b => 1 + Nat.max (direct rk a) (direct rk b) <= A /\ shallow rk A a /\ shallow rk A b
  | TPair a b => shallow rk A a /\ shallow rk A b
  | TVariant ts => (fix all l := match l with [] => True | t :: l' => shallow rk A t /\ all l' end) ts
  | _ => True
  end.
(** the function for class [c] needs [rk c] further calls (a class does not contain itself), and the members of all classes are shallow *)
Definition classes_shallow (G : genv) (rk : N -> nat) (A : nat) : Prop :=
  forall c rc p, g_class G c = Some rc -> rc_rd rc = Some p ->
    (forall b, In b (bp_bases p) -> rk b < rk c) /\
    (forall fd, In fd (bp_fields p) -> direct rk (bf_ty fd) <= rk c /\ shallow rk A (bf_ty fd)).
