(** BinSpec.v -- vocabulary for the statements about binary (de)serialisation:
    when two values are "the same", and which values/classes are covered.
    Nothing here is used by the model itself. *)
From Coq Require Import List NArith ZArith Bool Lia Permutation.
From Verif Require Import Base Types BinModel.
Import ListNotations.

(** no (non-null) shared pointer inside the value *)
Fixpoint shfree (v : val) : bool :=
  match v with
  | VShared (Some _) => false
  | VList l => forallb shfree l
  | VPair a b => shfree a && shfree b
  | VOpt (Some x) => shfree x
  | VVar _ x => shfree x
  | VObj fs => forallb (fun kv => shfree (snd kv)) fs
  | _ => true
  end.

(** [same_value G ro t v v']: [v] and [v'] are equal values of type [t] when the
    object at address [a] is identified with the object at [a'] for [(a,a')] in [ro]:
    scalars and strings are identical, sequences and ordered containers agree
    element by element, hash containers agree up to iteration order, class
    objects have the same members with the same values. *)
Inductive same_value (G : genv) (ro : list (N * N)) : ty -> val -> val -> Prop :=
| sv_same t v : shfree v = true -> same_value G ro t v v
| sv_seq t l l' :
    length l = length l' ->
    (forall x x', In (x, x') (combine l l') -> same_value G ro t x x') ->
    same_value G ro (TSeq t) (VList l) (VList l')
| sv_set (ord multi : bool) t l l' m :
    length l = length m ->
    (forall x x', In (x, x') (combine l m) -> same_value G ro t x x') ->
    (if ord then l' = m else Permutation m l') ->
    same_value G ro (TSet ord multi t) (VList l) (VList l')
| sv_map (ord multi : bool) kt vt l l' m :
    length l = length m ->
    (forall x x', In (x, x') (combine l m) -> same_value G ro (TPair kt vt) x x') ->
    (if ord then l' = m else Permutation m l') ->
    same_value G ro (TMap ord multi kt vt) (VList l) (VList l')
| sv_pair ta tb a b a' b' :
    same_value G ro ta a a' -> same_value G ro tb b b' ->
    same_value G ro (TPair ta tb) (VPair a b) (VPair a' b')
| sv_optional t x x' : same_value G ro t x x' -> same_value G ro (TOptional t) (VOpt (Some x)) (VOpt (Some x'))
| sv_unique t x x' : same_value G ro t x x' -> same_value G ro (TUnique t) (VOpt (Some x)) (VOpt (Some x'))
| sv_shared t a a' : In (a, a') ro -> same_value G ro (TShared t) (VShared (Some a)) (VShared (Some a'))
| sv_variant ts i t x x' :
    nth_error ts i = Some t -> same_value G ro t x x' ->
    same_value G ro (TVariant ts) (VVar i x) (VVar i x')
| sv_struct c rc fs fs' :
    g_class G c = Some rc ->
    map fst fs' = map fst fs ->
    (forall k t v v', alookup fkey_eqb k (rc_layout rc) = Some t ->
       alookup fkey_eqb k fs = Some v -> alookup fkey_eqb k fs' = Some v' -> same_value G ro t v v') ->
    same_value G ro (TStruct c) (VObj fs) (VObj fs').

(** invariant of the iteration order of std::set, std::multiset, std::unordered_set, ... *)
Definition cont_inv (G : genv) (ismap ord multi : bool) (kt : ty) (l : list val) : Prop :=
  match ord, multi with
  | true, false => ForallOrdPairs (fun x y => g_lt G kt (keyof ismap x) (keyof ismap y) = true) l
  | true, true => ForallOrdPairs (fun x y => g_lt G kt (keyof ismap y) (keyof ismap x) = false) l
  | false, false => ForallOrdPairs (fun x y => g_eq G kt (keyof ismap x) (keyof ismap y) = false) l
  | false, true => True
  end.

(** A member access performed by a (de)serialisation function of a class: the
    member, its type, and the version passed on when writing and reading. *)
Record visit := { vi_key : fkey; vi_ty : ty; vi_w : N; vi_r : N }.
Definition mkvisit (wv rv : N) (f : bfield) : visit :=
  {| vi_key := bf_key f; vi_ty := bf_ty f; vi_w := wv; vi_r := rv |}.

(** [visits G wv rv c L]: writing class [c] with version [wv] and reading it with
    version [rv] access the same members [L] in the same order: for a versioned
    class the reader gets the version from the data (which must be a version the reader
    supports; the maximum versions of writer and reader and
    the version ranges of the members may differ); otherwise the passed versions must select the same members. *)
Inductive visits (G : genv) (wv rv : N) : N -> list visit -> Prop :=
| visits_intro c rc pr Ls own :
    g_class G c = Some rc ->
    rc_rd rc = Some pr ->
    bp_bases pr = bp_bases (rc_wr rc) ->
    (bp_vmax pr = 0%N <-> bp_vmax (rc_wr rc) = 0%N) ->
    Forall2 (visits G wv rv) (bp_bases (rc_wr rc)) Ls ->
    (if (bp_vmax (rc_wr rc) =? 0)%N
     then map (mkvisit wv rv) (filter (visible wv) (bp_fields (rc_wr rc)))
            = map (mkvisit wv rv) (filter (visible rv) (bp_fields pr))
          /\ own = map (mkvisit wv rv) (filter (visible wv) (bp_fields (rc_wr rc)))
     else exists e, e = (if (wv =? 0)%N then bp_vmax (rc_wr rc) else wv)
          /\ (e <= bp_vmax pr)%N /\ (e < 2 ^ 56)%N
          /\ map (mkvisit e e) (filter (visible e) (bp_fields (rc_wr rc)))
               = map (mkvisit e e) (filter (visible e) (bp_fields pr))
          /\ own = map (mkvisit e e) (filter (visible e) (bp_fields (rc_wr rc)))) ->
    visits G wv rv c (concat Ls ++ own).

Lemma visits_fun G wv rv : forall c L, visits G wv rv c L -> forall L', visits G wv rv c L' -> L = L'.
Proof.
  fix IH 3. intros c L V L' V'. destruct V as [c rc pr Ls own Hc Hr Hb Hv F Ho]. inversion V' as [c' rc' pr' Ls' own' Hc' Hr' Hb' Hv' F' Ho' E1 E2]; subst.
  assert (rc' = rc) by congruence. subst rc'. f_equal.
  - f_equal. clear - IH F F'. revert Ls' F'. induction F as [|b L bs Ls V F IHF]; intros Ls' F'; inversion F' as [|b' L' bs' Ls0 V' F0]; subst; [reflexivity|]. f_equal; [exact (IH _ _ V _ V')|apply IHF; exact F0].
  - destruct (bp_vmax (rc_wr rc) =? 0)%N; [destruct Ho as [_ ->], Ho' as [_ ->]; reflexivity|]. destruct Ho as (e & -> & _ & _ & _ & ->), Ho' as (e' & -> & _ & _ & _ & ->). reflexivity.
Qed.

(** [rereadable G wv rv t]: reading a value of type [t] replaces whatever has been read before: neither a set or map is extended nor are there
    members which are not read (behind pointers, in optionals and in variants anything is allowed, these are created anew) *)
Inductive rereadable (G : genv) : N -> N -> ty -> Prop :=
| rr_direct wv rv t :
    match t with
    | TBool | TInt _ | TEnum _ | TF32 | TF64 | TString | TDateTime | TTimeSpan | TOptional _ | TUnique _ | TShared _ | TVariant _ => True
    | _ => False
    end -> rereadable G wv rv t
| rr_seq wv rv t : rereadable G 0 0 t -> rereadable G wv rv (TSeq t)
| rr_pair wv rv ta tb : rereadable G 0 0 ta -> rereadable G 0 0 tb -> rereadable G wv rv (TPair ta tb)
| rr_struct wv rv c rc L :
    g_class G c = Some rc -> visits G wv rv c L ->
    (forall k, In k (map fst (rc_layout rc)) -> In k (map vi_key L)) ->
    (forall x, In x L -> rereadable G (vi_w x) (vi_r x) (vi_ty x)) ->
    rereadable G wv rv (TStruct c).
(** a member which is accessed more than once (generated code does so for the base classes of base classes, see C39) is
    accessed in the same way each time, and reading it again replaces what has been read before *)
Definition repeatable (G : genv) (L : list visit) : Prop :=
  ForallOrdPairs (fun x y => vi_key x = vi_key y -> x = y /\ rereadable G (vi_w x) (vi_r x) (vi_ty x)) L.
(** in particular if no member is accessed twice *)
Lemma nodup_repeatable G L : NoDup (map vi_key L) -> repeatable G L.
Proof.
  induction L as [|x L IH]; intros ND; [constructor|]. cbn in ND. inversion ND as [|? ? N1 N2]; subst. constructor; [|apply IH; exact N2].
  apply Forall_forall. intros y Hy E. exfalso. apply N1. rewrite E. apply in_map. exact Hy.
Qed.

(** the version which is returned after reading what was written with version [wv] while [rv] is passed to
    the reader: the one stored in the data for versioned classes, otherwise the passed one (always 0 for
    Boost.Hana adapted classes) *)
Definition restored_version (G : genv) (wv rv : N) (c : N) : N :=
  match g_class G c with
  | None => 0
  | Some rc =>
    match rc_rd rc with
    | None => 0
    | Some pr => if bp_ret0 pr then 0 else if (bp_vmax (rc_wr rc) =? 0)%N then rv
                 else if (wv =? 0)%N then bp_vmax (rc_wr rc) else wv
    end
  end%N.

(** [written G ver c k]: member [k] is part of the serialization of class [c] for version [ver]: it is a
    member of the class or of one of its bases and the version (0 stands for the class' own one) lies
    within its range *)
Inductive written (G : genv) (ver : N) : N -> fkey -> Prop :=
| written_own c rc fd :
    g_class G c = Some rc -> In fd (bp_fields (rc_wr rc)) ->
    visible (if (bp_vmax (rc_wr rc) =? 0)%N then ver else if (ver =? 0)%N then bp_vmax (rc_wr rc) else ver) fd = true ->
    written G ver c (bf_key fd)
| written_base c rc b k :
    g_class G c = Some rc -> In b (bp_bases (rc_wr rc)) -> written G ver b k -> written G ver c k.

(** [good G H ex wv rv t old v]: [v] is a proper value of type [t] which can be written
    with version [wv] and restored into a variable holding [old] which is read
    with version [rv]: integers are in range, containers respect their
    invariants and are smaller than 2^56, sets and maps in [old] are empty
    (freshly constructed), members which are not accessed already have the right
    value, and accessing a member twice makes no difference.  Shared pointers refer to objects of
    the right type in [H] (the objects themselves are covered by [heap_good]).
    [ex] = true restricts to values which are restored identically (no shared
    pointers and no hash containers), as demanded for keys. *)
Inductive good (G : genv) (H : heap) : bool -> N -> N -> ty -> val -> val -> Prop :=
| g_bool ex wv rv old b : good G H ex wv rv TBool old (VBool b)
| g_int ex wv rv k old z : bin_kind k = true -> in_range k z = true -> good G H ex wv rv (TInt k) old (VInt z)
| g_enum ex wv rv k old z : bin_kind k = true -> in_range k z = true -> good G H ex wv rv (TEnum k) old (VInt z)
| g_f32 ex wv rv old n : (n < 2 ^ 32)%N -> good G H ex wv rv TF32 old (VF32 n)
| g_f64 ex wv rv old n : (n < 2 ^ 64)%N -> good G H ex wv rv TF64 old (VF64 n)
| g_string ex wv rv old x : (N.of_nat (length x) < 2 ^ 56)%N -> good G H ex wv rv TString old (VStr x)
| g_dt ex wv rv old z : in_range KU64 z = true -> good G H ex wv rv TDateTime old (VInt z)
| g_ts ex wv rv old z : in_range KI64 z = true -> good G H ex wv rv TTimeSpan old (VInt z)
| g_seq ex wv rv t olds l :
    (N.of_nat (length l) < 2 ^ 56)%N ->
    (forall i x, nth_error l i = Some x -> good G H ex 0 0 t (nth i olds (vinit G t)) x) ->
    good G H ex wv rv (TSeq t) (VList olds) (VList l)
| g_set ex wv rv ord multi t l :
    (ex = true -> ord = true) ->
    (N.of_nat (length l) < 2 ^ 56)%N ->
    cont_inv G false ord multi t l ->
    (forall x, In x l -> good G H true 0 0 t (dinit G t) x) ->
    good G H ex wv rv (TSet ord multi t) (VList []) (VList l)
| g_map ex wv rv ord multi kt vt l :
    (ex = true -> ord = true) ->
    (N.of_nat (length l) < 2 ^ 56)%N ->
    cont_inv G true ord multi kt l ->
    (forall x, In x l -> exists k v, x = VPair k v) ->
    (forall k v, In (VPair k v) l -> good G H true 0 0 kt (vinit G kt) k) ->
    (forall k v, In (VPair k v) l -> good G H ex 0 0 vt (vinit G vt) v) ->
    good G H ex wv rv (TMap ord multi kt vt) (VList []) (VList l)
| g_pair ex wv rv ta tb oa ob a b :
    good G H ex 0 0 ta oa a -> good G H ex 0 0 tb ob b ->
    good G H ex wv rv (TPair ta tb) (VPair oa ob) (VPair a b)
| g_opt_none ex wv rv t old : good G H ex wv rv (TOptional t) old (VOpt None)
| g_opt_some ex wv rv t old x : good G H ex 0 0 t (vinit G t) x -> good G H ex wv rv (TOptional t) old (VOpt (Some x))
| g_uni_none ex wv rv t old : good G H ex wv rv (TUnique t) old (VOpt None)
| g_uni_some ex wv rv t old x : good G H ex 0 0 t (vinit G t) x -> good G H ex wv rv (TUnique t) old (VOpt (Some x))
| g_shared_none ex wv rv t old : good G H ex wv rv (TShared t) old (VShared None)
| g_shared_some wv rv t old a x : hget H a = Some (t, x) -> good G H false wv rv (TShared t) old (VShared (Some a))
| g_var_mono ex wv rv ts old i :
    length ts < 255 -> nth_error ts i = Some TMono -> good G H ex wv rv (TVariant ts) old (VVar i VMono)
| g_var ex wv rv ts old i t x :
    length ts < 255 -> nth_error ts i = Some t -> t <> TMono ->
    good G H ex 0 0 t (vinit G t) x -> good G H ex wv rv (TVariant ts) old (VVar i x)
| g_struct ex wv rv c rc os fs L :
    g_class G c = Some rc ->
    map fst os = map fst fs -> map fst (rc_layout rc) = map fst fs -> NoDup (map fst fs) ->
    visits G wv rv c L -> repeatable G L ->
    (forall x, In x L -> alookup fkey_eqb (vi_key x) (rc_layout rc) = Some (vi_ty x)) ->
    (forall x o v, In x L -> alookup fkey_eqb (vi_key x) os = Some o -> alookup fkey_eqb (vi_key x) fs = Some v ->
       good G H ex (vi_w x) (vi_r x) (vi_ty x) o v) ->
    (forall k v, ~ In k (map vi_key L) -> alookup fkey_eqb k fs = Some v ->
       alookup fkey_eqb k os = Some v /\ shfree v = true) ->
    good G H ex wv rv (TStruct c) (VObj os) (VObj fs).

Lemma g_struct_once G H ex wv rv c rc os fs L :
    g_class G c = Some rc ->
    map fst os = map fst fs -> map fst (rc_layout rc) = map fst fs -> NoDup (map fst fs) ->
    visits G wv rv c L -> NoDup (map vi_key L) ->
    (forall x, In x L -> alookup fkey_eqb (vi_key x) (rc_layout rc) = Some (vi_ty x)) ->
    (forall x o v, In x L -> alookup fkey_eqb (vi_key x) os = Some o -> alookup fkey_eqb (vi_key x) fs = Some v ->
       good G H ex (vi_w x) (vi_r x) (vi_ty x) o v) ->
    (forall k v, ~ In k (map vi_key L) -> alookup fkey_eqb k fs = Some v ->
       alookup fkey_eqb k os = Some v /\ shfree v = true) ->
    good G H ex wv rv (TStruct c) (VObj os) (VObj fs).
Proof. intros. eapply g_struct; eauto using nodup_repeatable. Qed.

(** every object owned by shared pointers is a proper value; addresses are 64-bit *)
Definition heap_good (G : genv) (H : heap) : Prop :=
  forall a t x, hget H a = Some (t, x) -> (a < 2 ^ 64)%N /\ good G H false 0 0 t (vinit G t) x.

(** std::make_shared returns an address which is not in use *)
Definition alloc_ok (G : genv) : Prop := forall h, ~ In (g_alloc G h) (map fst h).

(** The objects made while reading ([h'] compared to [h0]) are a copy of the object graph
    in [H]: [ro] pairs each original object with exactly one new object (both ways), the
    contents correspond under [ro], objects which existed before are unchanged, and
    nothing else has been allocated. *)
Record graph_iso (G : genv) (H h0 h' : heap) (ro : list (N * N)) : Prop := {
  gi_fun : NoDup (map fst ro);
  gi_inj : NoDup (map snd ro);
  gi_content : forall a a', In (a, a') ro -> exists t x x',
      hget H a = Some (t, x) /\ hget h' a' = Some (t, x') /\ same_value G ro t x x' /\ ~ In a' (map fst h0);
  gi_old : forall a, In a (map fst h0) -> hget h' a = hget h0 a;
  gi_only : forall a', In a' (map fst h') -> In a' (map fst h0) \/ In a' (map snd ro) }.
