(** SizeSpec.v -- vocabulary for the bounds on the size of serialised data (property C66).  Nothing here is used by the model itself;
    see BoundSpec.v for the sizes of values and heaps, JBoundSpec.v for the size of a document and JTreeSpec.v for the number of pointers. *)
From Coq Require Import List NArith ZArith Bool Arith.
From Verif Require Import Base Types JsonModel JsonSpec BoundSpec JTreeSpec.
Import ListNotations.
Local Open Scope nat_scope.

(** [writes G c L n]: the writer of class [c] writes the members [L] and [n] versions, those of its base classes included, as often as they are
    written *)
Inductive writes (G : genv) : N -> list bfield -> nat -> Prop :=
| writes_intro c rc Ls ns : g_class G c = Some rc -> writes_bases G (bp_bases (rc_wr rc)) Ls ns ->
    writes G c (concat Ls ++ bp_fields (rc_wr rc)) (list_sum ns + (if N.eqb (bp_vmax (rc_wr rc)) 0 then 0 else 1))
with writes_bases (G : genv) : list N -> list (list bfield) -> list nat -> Prop :=
| writes_nil : writes_bases G [] [] []
| writes_cons b bs L Ls n ns : writes G b L n -> writes_bases G bs Ls ns -> writes_bases G (b :: bs) (L :: Ls) (n :: ns).
(** every member is written once and an object has at most [n] versions *)
Definition written_once (G : genv) (n : nat) : Prop :=
  forall c rc, g_class G c = Some rc -> exists L m, writes G c L m /\ NoDup (map bf_key L) /\ m <= n.
(** the size of the objects of a heap which are not among the addresses [W] *)
Definition unwritten (h : heap) (W : list N) : nat :=
  list_sum (map (fun a => if existsb (N.eqb a) W then 0 else match hget h a with Some (_, x) => vsize x | None => 0 end) (addresses h)).

(** JSON: every member is serialised once, the names have at most [n] characters *)
Definition pushed_once (G : genv) (n : nat) : Prop :=
  forall c rc, g_class G c = Some rc -> exists L, members G pushed_by c L /\ NoDup (map jf_key L) /\ forall fd, In fd L -> length (jf_name fd) <= n.
(** dates and times are printed with at most [n] characters *)
Definition short_dates (J : jenv) (n : nat) : Prop := forall z, length (je_dt_print J z) <= n /\ length (je_ts_print J z) <= n.

(** the objects the shared pointers in a value refer to, in order, as often as there are pointers *)
Fixpoint targets (v : val) : list N :=
  match v with
  | VShared (Some a) => [a]
  | VList l => (fix all l := match l with [] => [] | x :: l' => targets x ++ all l' end) l
  | VPair x y => targets x ++ targets y
  | VOpt (Some x) | VVar _ x => targets x
  | VObj fs => (fix all l := match l with [] => [] | (_, x) :: l' => targets x ++ all l' end) fs
  | _ => []
  end.
(** the size of the tree one gets by following all shared pointers, up to a depth: objects count as often as they are reached *)
Fixpoint unfolded (h : heap) (depth : nat) (v : val) : nat :=
  vsize v + match depth with
            | O => 0
            | S d => list_sum (map (fun a => match hget h a with Some (_, x) => unfolded h d x | None => 0 end) (targets v))
            end.
(** nothing is shared: no object has more than one pointer to it, in the value or in another object *)
Definition unshared (h : heap) (v : val) : Prop := forall a, pointers a v + heap_pointers a h <= 1.
