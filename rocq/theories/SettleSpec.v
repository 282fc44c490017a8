(** SettleSpec.v -- vocabulary for "what has been read, from whatever data, survives being written and read again" (property C71) *)
From Coq Require Import List NArith ZArith Bool.
From Verif Require Import Base Types BinModel BinSpec BinFacts ContFacts BinExcSpec.
Import ListNotations.

Section Settled.
  Variable G : genv.
  (** [V ex wv rv c]: class [c] is considered when written with version [wv] and read with version [rv]; [ex]: without shared pointers and hash containers *)
  Variable V : bool -> N -> N -> N -> Prop.

  (** types which are considered: what is used as key of a set or map does not contain shared pointers or hash containers and is compared by a proper order or equality, and an element of a set
      which is read is not indeterminate to begin with; variants have less than 255 alternatives *)
  Fixpoint settled (ex : bool) (wv rv : N) (t : ty) : Prop :=
    match t with
    | TBool | TF32 | TF64 | TString | TDateTime | TTimeSpan => True
    | TInt k | TEnum k => bin_kind k = true
    | TSeq t | TOptional t | TUnique t => settled ex 0 0 t
    | TSet ord _ t => (ex = true -> ord = true) /\ keys_ok G t /\ settled true 0 0 t /\ (replaced t = true \/ good G [] true 0 0 t (dinit G t) (dinit G t))
    | TMap ord _ kt vt => (ex = true -> ord = true) /\ keys_ok G kt /\ settled true 0 0 kt /\ settled ex 0 0 vt
    | TPair a b => settled ex 0 0 a /\ settled ex 0 0 b
    | TShared t => ex = false /\ settled false 0 0 t
    | TVariant ts => ts <> [] /\ length ts < 255 /\ (fix all l := match l with [] => True | t :: l' => (t = TMono \/ settled ex 0 0 t) /\ all l' end) ts
    | TStruct c => V ex wv rv c
    | TTuple _ | TMono | TView | TCStr => False
    end.

  (** the classes: reading and writing access the same members; whatever version the data has, the reader does not access other ones (hence no member is read from old
      data but not written anymore); a member which is accessed several times (generated code does that for the base classes of base classes) is one which is replaced
      when it is read again; and newly constructed objects survive being written and read *)
  Definition replaced_again (L : list visit) (K : list fkey) : Prop :=
    ForallOrdPairs (fun k k' => k = k' -> forall x, In x L -> vi_key x = k -> rereadable G (vi_w x) (vi_r x) (vi_ty x)) K.
  Definition settling : Prop := forall ex wv rv c, V ex wv rv c -> exists rc L K,
    g_class G c = Some rc /\ visits G wv rv c L /\ repeatable G L /\ (forall x, In x L -> settled ex (vi_w x) (vi_r x) (vi_ty x))
    /\ read_members_of G c K /\ replaced_again L K /\ incl K (map vi_key L)
    /\ good G [] ex wv rv (TStruct c) (VObj (rc_vinit rc)) (VObj (rc_vinit rc)).
End Settled.

(** in particular if no member is accessed twice *)
Lemma once_replaced G L K : NoDup K -> replaced_again G L K.
Proof.
  unfold replaced_again. induction K as [|k K IH]; intros N; [constructor|]. inversion N as [|? ? Nk N']; subst. constructor; [|apply IH; exact N'].
  apply Forall_forall. intros k' Hk' <-. contradiction.
Qed.

(** all objects owned by shared pointers survive being written and read *)
Definition objects_good (G : genv) (h : heap) : Prop := forall a t x, hget h a = Some (t, x) -> good G h false 0 0 t (vinit G t) x.
(** addresses have 64 bits *)
Definition addresses_64 (h : heap) : Prop := forall a c, hget h a = Some c -> (a < 2 ^ 64)%N.

(** [part_of G H t v t' w]: the value [w] of type [t'] is part of the value [v] of type [t]: an element, a key or mapped value, a restored member, what an optional or
    pointer refers to and so on *)
Inductive part_of (G : genv) (H : heap) : ty -> val -> ty -> val -> Prop :=
| po_itself t v : part_of G H t v t v
| po_seq t l x t' w : In x l -> part_of G H t x t' w -> part_of G H (TSeq t) (VList l) t' w
| po_set ord multi t l x t' w : In x l -> part_of G H t x t' w -> part_of G H (TSet ord multi t) (VList l) t' w
| po_key ord multi kt vt l k v t' w : In (VPair k v) l -> part_of G H kt k t' w -> part_of G H (TMap ord multi kt vt) (VList l) t' w
| po_mapped ord multi kt vt l k v t' w : In (VPair k v) l -> part_of G H vt v t' w -> part_of G H (TMap ord multi kt vt) (VList l) t' w
| po_fst ta tb a b t' w : part_of G H ta a t' w -> part_of G H (TPair ta tb) (VPair a b) t' w
| po_snd ta tb a b t' w : part_of G H tb b t' w -> part_of G H (TPair ta tb) (VPair a b) t' w
| po_optional t x t' w : part_of G H t x t' w -> part_of G H (TOptional t) (VOpt (Some x)) t' w
| po_unique t x t' w : part_of G H t x t' w -> part_of G H (TUnique t) (VOpt (Some x)) t' w
| po_variant ts i t x t' w : nth_error ts i = Some t -> part_of G H t x t' w -> part_of G H (TVariant ts) (VVar i x) t' w
| po_member c rc K fs k t x t' w : g_class G c = Some rc -> read_members_of G c K -> In k K -> alookup fkey_eqb k (rc_layout rc) = Some t -> alookup fkey_eqb k fs = Some x ->
    part_of G H t x t' w -> part_of G H (TStruct c) (VObj fs) t' w
| po_target t a t1 x t' w : hget H a = Some (t1, x) -> part_of G H t1 x t' w -> part_of G H (TShared t) (VShared (Some a)) t' w.

(** the elements are in the order of the container: strictly ascending in a std::set or std::map, ascending in a std::multiset or std::multimap; and no two elements (or
    keys) are equal in a std::unordered_set or std::unordered_map *)
Definition proper_order (G : genv) (ord multi : bool) (kt : ty) (keys : list val) : Prop :=
  forall i j x y, i < j -> nth_error keys i = Some x -> nth_error keys j = Some y ->
    match ord, multi with
    | true, false => g_lt G kt x y = true
    | true, true => g_lt G kt y x = false
    | false, false => g_eq G kt x y = false
    | false, true => True
    end.
