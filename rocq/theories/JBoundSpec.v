(** JBoundSpec.v -- vocabulary for the bounds on what is created when deserialising JSON (property C64); see BoundSpec.v for the
    size of values and of the shared objects.  Nothing here is used by the model itself. *)
From Coq Require Import List NArith Bool Arith.
From Verif Require Import Base Types JsonModel JsonSpec BoundSpec.
Import ListNotations.
Local Open Scope nat_scope.

(** size of a document: the number of its values, of the characters of its strings and of its member names *)
Fixpoint jsize (j : json) : nat :=
  match j with
  | JStr s => 1 + length s
  | JArr l => 1 + (fix sum l := match l with [] => 0 | x :: l' => jsize x + sum l' end) l
  | JObj ms => 1 + (fix sum l := match l with [] => 0 | (n, x) :: l' => length n + jsize x + sum l' end) ms
  | _ => 1
  end.

(** what pointers and optionals create before anything is read: the size of the objects (only default member initialisers can make it large) *)
Fixpoint news (G : genv) (t : ty) : nat :=
  match t with
  | TUnique t' | TOptional t' | TShared t' => vsize (vinit G t') + news G t'
  | _ => 0
  end.

(** [jcompact G k t]: what is created for an element, a member or an alternative before it is read has at most the size [k].  Multimaps
    are left out: they have a copy of the member's name for every element. *)
Fixpoint jcompact (G : genv) (k : nat) (t : ty) : Prop :=
  match t with
  | TSeq t' => jcompact G k t' /\ vsize (vinit G t') + news G t' <= k
  | TSet _ _ t' => jcompact G k t' /\ vsize (dinit G t') + news G t' <= k
  | TMap _ multi _ t' => multi = false /\ jcompact G k t' /\ 2 + vsize (vinit G t') + news G t' <= k
  | TPair a b => (jcompact G k a /\ news G a <= k) /\ (jcompact G k b /\ news G b <= k)
  | TTuple ts => (fix all l := match l with [] => True | t' :: l' => (jcompact G k t' /\ news G t' <= k) /\ all l' end) ts
  | TUnique t' | TOptional t' | TShared t' => jcompact G k t'
  | TVariant ts => (fix all l := match l with [] => True | t' :: l' => (jcompact G k t' /\ vsize (vinit G t') + news G t' <= k) /\ all l' end) ts
  | _ => True
  end.
(** the same for the members of all classes *)
Definition jcompact_members (G : genv) (k : nat) : Prop :=
  forall c rc p fd, g_class G c = Some rc -> rc_pull rc = Some p -> In fd (jp_fields p) -> jcompact G k (jf_ty fd) /\ news G (jf_ty fd) <= k.
(** the members of a class, inherited ones included, have different names *)
Definition distinct_names (G : genv) : Prop :=
  forall c rc p, g_class G c = Some rc -> rc_pull rc = Some p -> exists L, members G rc_pull c L /\ NoDup (map jf_name L).

(** number of errors collected *)
Definition errors (st : pst) : nat := match p_err st with Some e => length (es_errs e) | None => 0 end.
