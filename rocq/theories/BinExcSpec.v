(** BinExcSpec.v -- vocabulary for the statements about reading which fails; nothing here is used by the model. *)
From Coq Require Import List NArith ZArith Bool Lia.
From Verif Require Import Base Bytes Types BinModel BinSafeSpec.
Import ListNotations.

(** the members the reader of class [c] knows, in the order they are read: base classes first.  A member may occur twice if
    its class is a base class in more than one way. *)
Inductive read_members_of (G : genv) : N -> list fkey -> Prop :=
| rmo_intro c rc p Ls :
    g_class G c = Some rc -> rc_rd rc = Some p -> Forall2 (read_members_of G) (bp_bases p) Ls ->
    read_members_of G c (concat Ls ++ map bf_key (bp_fields p)).

(** the members [fs] are those of [lay] and have their types, shared objects being those of [h] *)
Definition members_typed (G : genv) (ud : bool) (h : heap) (lay : list (fkey * ty)) (fs : list (fkey * val)) : Prop :=
  map fst fs = map fst lay
  /\ forall k t v, alookup fkey_eqb k lay = Some t -> alookup fkey_eqb k fs = Some v -> has_type G ud h t v.

(** [progress G ud lay L before h0 after h1 now h2]: the members [L] are read one after another; reading all of them turns
    the object [before] into [after] and the shared objects [h0] into [h1], reading stopped with [now] and [h2].
    There is a stage [mid], [hm] of reading, where the members [done] have been read and those of [todo] have not been
    touched, and only one member, [current], (or none) is different from that: members read before it are as after reading
    everything (unless they are to be read again), all members but it and those read before are as before; objects which
    are referred to by the members at that stage are as after reading everything, too. *)
Definition progress (G : genv) (ud : bool) (lay : list (fkey * ty)) (L : list fkey)
    (before : list (fkey * val)) (h0 : heap) (after : list (fkey * val)) (h1 : heap) (now : list (fkey * val)) (h2 : heap) : Prop :=
  exists done current todo mid hm,
    L = done ++ current ++ todo /\ length current <= 1
    /\ (forall k, ~ In k current -> alookup fkey_eqb k now = alookup fkey_eqb k mid)
    /\ (forall k, ~ In k (current ++ todo) -> alookup fkey_eqb k mid = alookup fkey_eqb k after)
    /\ (forall k, ~ In k done -> alookup fkey_eqb k mid = alookup fkey_eqb k before)
    /\ members_typed G ud hm lay mid
    /\ heap_extends h0 hm /\ heap_extends hm h1 /\ heap_extends hm h2.
