(** PrevSpec.v -- vocabulary for "what an object contained before does not influence how binary data is read into it, and reading the same data again
    changes nothing" (property C75).  Nothing here is used by the model itself. *)
From Coq Require Import List NArith ZArith Bool.
From Verif Require Import Base Types BinModel BinSpec BinFacts ContFacts.
Import ListNotations.

(** both calls return, having consumed the same bytes and having created the same objects (with the same addresses, contents and IDs), and the values are related by [Q];
    or both throw the same exception *)
Definition same_course {A} (Q : A -> A -> Prop) (m m' : res (A * bytes * rstate)) : Prop :=
  match m, m' with
  | ROk (a, r, st), ROk (a', r', st') => r = r' /\ st = st' /\ Q a a'
  | RThrow e, RThrow e' => e = e'
  | RUB, RUB | RFuel, RFuel | RStuck, RStuck => True
  | _, _ => False
  end.

(** a member which is read whatever version the data has *)
Definition always (fd : bfield) : Prop := bf_asof fd = 0%N /\ bf_until fd = 0%N.

Section Overwritten.
  Variable G : genv.
  (** [C c]: objects of class [c] are overwritten as a whole *)
  Variable C : N -> Prop.
  (** Types of which nothing is left of the previous value: no sets and maps (these keep their elements) unless they are part of something which is
      created anew (what optionals, smart pointers and variants contain) *)
  Fixpoint overwritten (t : ty) : Prop :=
    match t with
    | TSeq t => overwritten t
    | TPair a b => overwritten a /\ overwritten b
    | TSet _ _ _ | TMap _ _ _ _ => False
    | TStruct c => C c
    | _ => True
    end.
  (** the member [k] of class [c] is read from all data and overwritten *)
  Inductive renewed : N -> fkey -> Prop :=
  | rn_own c rc p fd : g_class G c = Some rc -> rc_rd rc = Some p -> In fd (bp_fields p) -> always fd -> overwritten (bf_ty fd) -> renewed c (bf_key fd)
  | rn_base c rc p b k : g_class G c = Some rc -> rc_rd rc = Some p -> In b (bp_bases p) -> renewed b k -> renewed c k.
  Definition classes_overwritten : Prop := forall c, C c ->
    exists rc, g_class G c = Some rc /\ NoDup (map fst (rc_layout rc)) /\ forall k, In k (map fst (rc_layout rc)) -> renewed c k.
End Overwritten.

(** the members the reader of class [c] knows, in the order they are read: base classes first *)
Inductive reads (G : genv) : N -> list bfield -> Prop :=
| rds_intro c rc p Ls : g_class G c = Some rc -> rc_rd rc = Some p -> Forall2 (reads G) (bp_bases p) Ls -> reads G c (concat Ls ++ bp_fields p).

(** a member which is read several times (generated code reads the base class of a base class again) is overwritten each time: numbers, strings, enumerations, dates, what
    optionals, smart pointers and variants contain, and vectors and pairs of these *)
Definition once_or_overwritten (L : list bfield) : Prop := forall A fd B fd', L = A ++ fd :: B -> In fd' (A ++ B) -> bf_key fd' = bf_key fd ->
  bf_ty fd' = bf_ty fd /\ overwritten (fun _ => False) (bf_ty fd).

Section Repeatable.
  Variable G : genv.
  (** [U c]: class [c] has no shared pointers anywhere; [R c]: class [c] is considered *)
  Variables U R : N -> Prop.
  Fixpoint unshared (t : ty) : Prop :=
    match t with
    | TSeq t | TSet _ _ t | TUnique t | TOptional t => unshared t
    | TMap _ _ a b | TPair a b => unshared a /\ unshared b
    | TVariant ts => (fix all l := match l with [] => True | t :: l' => unshared t /\ all l' end) ts
    | TShared _ => False
    | TStruct c => U c
    | _ => True
    end.
  Definition classes_unshared : Prop := forall c, U c -> exists L, reads G c L /\ forall fd, In fd L -> unshared (bf_ty fd).

  (** a key which is read (into a fresh variable [o]) is equal to itself: not so if it is a NaN *)
  Definition self_equal (t : ty) (o : val) : Prop := forall f s st k r st1, read G f 0 t o s st = ROk (k, r, st1) -> g_eq G t k k = true.

  (** no shared pointers, and multisets/multimaps only as part of what is created anew; keys are compared by a proper order or
      equality, and in hash containers keys are equal to themselves *)
  Fixpoint repeatable (t : ty) : Prop :=
    match t with
    | TSeq t => repeatable t
    | TPair a b => repeatable a /\ repeatable b
    | TSet ord multi t => multi = false /\ keys_ok G t /\ (ord = false -> self_equal t (dinit G t)) /\ unshared t
    | TMap ord multi kt vt => multi = false /\ keys_ok G kt /\ (ord = false -> self_equal kt (vinit G kt)) /\ unshared kt /\ unshared vt
    | TStruct c => R c
    | t => unshared t
    end.

  (** the sets and maps into which elements are merged are in the state any container is in: sorted or without duplicates *)
  Inductive content : ty -> val -> Prop :=
  | ct_set ord multi t l : cont_inv G false ord multi t l -> content (TSet ord multi t) (VList l)
  | ct_map ord multi kt vt l : cont_inv G true ord multi kt l -> content (TMap ord multi kt vt) (VList l)
  | ct_seq t l : (forall x, In x l -> content t x) -> content (TSeq t) (VList l)
  | ct_pair ta tb a b : content ta a -> content tb b -> content (TPair ta tb) (VPair a b)
  | ct_struct c fs : (forall L fd x, reads G c L -> In fd L -> alookup fkey_eqb (bf_key fd) fs = Some x -> content (bf_ty fd) x) -> content (TStruct c) (VObj fs)
  | ct_other t v : match t with TSet _ _ _ | TMap _ _ _ _ | TSeq _ | TPair _ _ | TStruct _ => False | _ => True end -> content t v.

  (** a member variable which is not overwritten is accessed once; constructors create proper sets and maps *)
  Definition classes_repeatable : Prop := forall c, R c -> U c /\
    exists rc L, g_class G c = Some rc /\ reads G c L /\ once_or_overwritten L /\ (forall fd, In fd L -> repeatable (bf_ty fd)) /\ content (TStruct c) (VObj (rc_vinit rc)).
End Repeatable.

(** restoreFromBinary is called on the same object again and again with the given data; the object and the memory afterwards *)
Fixpoint restore_each (G : genv) (fuel : nat) (c : N) (os : list (fkey * val)) (h : heap) (l : list bytes) : res (list (fkey * val) * heap) :=
  match l with
  | [] => ROk (os, h)
  | s :: l' => let! (o, _, _, st) := restoreFromBinary G fuel c os s h in restore_each G fuel c o (r_heap st) l'
  end.
