(** JsonSpec.v -- vocabulary for the statements about JSON (de)serialisation: which values survive,
    and when two values are "the same".  Nothing here is used by the model itself. *)
From Coq Require Import List NArith ZArith Bool Lia Permutation.
From Verif Require Import Base Types BinModel BinSpec Float JsonModel.
Import ListNotations.

(** strings which JSON (as used by the library) can transport: no NUL character, at most 2^32-1 bytes *)
Definition nul_free (s : bytes) : Prop := ~ In Byte.x00 s.
Definition json_string (s : bytes) : Prop := nul_free s /\ (N.of_nat (length s) <= size_max)%N.

(** [jsame G H h0 h t v v']: [v] (the objects owned by its shared pointers being in [H]) and [v'] (likewise
    in [h]) are equal values of type [t]: scalars and strings are identical, sequences and ordered
    containers agree element by element, hash containers agree up to iteration order, class objects
    have the same members with the same values, shared pointers point to equal objects; the
    objects [v'] owns did not exist in [h0]. *)
Inductive jsame (G : genv) (H h0 h : heap) : ty -> val -> val -> Prop :=
| js_same t v : shfree v = true -> jsame G H h0 h t v v
| js_seq t l l' :
    length l = length l' ->
    (forall x x', In (x, x') (combine l l') -> jsame G H h0 h t x x') ->
    jsame G H h0 h (TSeq t) (VList l) (VList l')
| js_set (ord multi : bool) t l l' m :
    length l = length m ->
    (forall x x', In (x, x') (combine l m) -> jsame G H h0 h t x x') ->
    (if ord then l' = m else Permutation m l') ->
    jsame G H h0 h (TSet ord multi t) (VList l) (VList l')
| js_map (ord multi : bool) kt vt l l' m :
    length l = length m ->
    (forall x x', In (x, x') (combine l m) -> jsame G H h0 h (TPair kt vt) x x') ->
    (if ord then l' = m else Permutation m l') ->
    jsame G H h0 h (TMap ord multi kt vt) (VList l) (VList l')
| js_pair ta tb a b a' b' :
    jsame G H h0 h ta a a' -> jsame G H h0 h tb b b' ->
    jsame G H h0 h (TPair ta tb) (VPair a b) (VPair a' b')
| js_tuple ts l l' :
    length l = length ts -> length l' = length ts ->
    (forall i t x x', nth_error ts i = Some t -> nth_error l i = Some x -> nth_error l' i = Some x' -> jsame G H h0 h t x x') ->
    jsame G H h0 h (TTuple ts) (VList l) (VList l')
| js_optional t x x' : jsame G H h0 h t x x' -> jsame G H h0 h (TOptional t) (VOpt (Some x)) (VOpt (Some x'))
| js_unique t x x' : jsame G H h0 h t x x' -> jsame G H h0 h (TUnique t) (VOpt (Some x)) (VOpt (Some x'))
| js_shared t a a' x x' :
    hget H a = Some (t, x) -> hget h0 a' = None -> hget h a' = Some (t, x') -> jsame G H h0 h t x x' ->
    jsame G H h0 h (TShared t) (VShared (Some a)) (VShared (Some a'))
| js_variant ts i t x x' :
    nth_error ts i = Some t -> jsame G H h0 h t x x' ->
    jsame G H h0 h (TVariant ts) (VVar i x) (VVar i x')
| js_struct c rc fs fs' :
    g_class G c = Some rc ->
    map fst fs' = map fst fs ->
    (forall k t v v', alookup fkey_eqb k (rc_layout rc) = Some t ->
       alookup fkey_eqb k fs = Some v -> alookup fkey_eqb k fs' = Some v' -> jsame G H h0 h t v v') ->
    jsame G H h0 h (TStruct c) (VObj fs) (VObj fs').

(** [members G prog c L]: the members the push ([rc_push]) or pull function of class [c] accesses,
    those of the base classes first *)
Inductive members (G : genv) (prog : rtclass -> option jprog) : N -> list jfield -> Prop :=
| members_intro c rc p Ls :
    g_class G c = Some rc -> prog rc = Some p ->
    Forall2 (members G prog) (jp_bases p) Ls ->
    members G prog c (concat Ls ++ jp_fields p).
Definition pushed_by (rc : rtclass) : option jprog := Some (rc_push rc).

Lemma members_fun G prog : forall c L, members G prog c L -> forall L', members G prog c L' -> L = L'.
Proof.
  fix IH 3. intros c L [c1 rc p Ls Ec Ep F] L' H'. inversion H' as [c2 rc' p' Ls' Ec' Ep' F']; subst. rewrite Ec in Ec'. injection Ec' as <-. rewrite Ep in Ep'. injection Ep' as <-.
  f_equal. f_equal. clear - IH F F'. revert Ls' F'. induction F as [|b L bs Ls Hb F IHF]; intros Ls' F'; inversion F'; subst; [reflexivity|]. f_equal; [apply (IH _ _ Hb); assumption|apply IHF; assumption].
Qed.

(** [repullable G t]: pulling a value of type [t] replaces whatever has been pulled before: neither a map is extended nor are there members which
    are not pulled (within sequences and sets, behind pointers, in optionals and in variants anything is allowed, these are created anew) *)
Inductive repullable (G : genv) : ty -> Prop :=
| rp_direct t :
    match t with
    | TBool | TInt _ | TEnum _ | TF32 | TF64 | TString | TDateTime | TTimeSpan | TSeq _ | TSet _ _ _ | TOptional _ | TUnique _ | TShared _ | TVariant _ => True
    | _ => False
    end -> repullable G t
| rp_pair ta tb : repullable G ta -> repullable G tb -> repullable G (TPair ta tb)
| rp_tuple ts : (forall t, In t ts -> repullable G t) -> repullable G (TTuple ts)
| rp_struct c rc L :
    g_class G c = Some rc -> members G rc_pull c L ->
    (forall k, In k (map fst (rc_layout rc)) -> In k (map jf_key L)) ->
    (forall fd, In fd L -> repullable G (jf_ty fd)) ->
    repullable G (TStruct c).
(** a member which is pulled more than once (generated code does so for the base classes of base classes, see C39) is the same member each time and
    pulling it again replaces what has been pulled before *)
Definition pulled_again (G : genv) (L : list jfield) : Prop :=
  ForallOrdPairs (fun x y => jf_key x = jf_key y -> x = y /\ repullable G (jf_ty x)) L.
(** members which are pushed under the same name are the same member *)
Definition pushed_apart (L : list jfield) : Prop := forall x y, In x L -> In y L -> jf_name x = jf_name y -> x = y.
(** in particular if no member is accessed twice *)
Lemma nodup_pulled_again G L : NoDup (map jf_key L) -> pulled_again G L.
Proof.
  induction L as [|x L IH]; intros ND; [constructor|]. cbn in ND. inversion ND as [|? ? N1 N2]; subst. constructor; [|apply IH; exact N2].
  apply Forall_forall. intros y Hy E. exfalso. apply N1. rewrite E. apply in_map. exact Hy.
Qed.
Lemma nodup_pushed_apart L : NoDup (map jf_name L) -> pushed_apart L.
Proof.
  induction L as [|z L IH]; intros ND; [intros x y []|]. cbn in ND. inversion ND as [|? ? N1 N2]; subst. intros x y [<-|Hx] [<-|Hy] E; [reflexivity| | |apply IH; assumption].
  - exfalso. apply N1. rewrite E. apply in_map; exact Hy.
  - exfalso. apply N1. rewrite <- E. apply in_map; exact Hx.
Qed.

(** pointers/optionals which are (or are not) empty *)
Definition nonnull (v : val) : Prop := match v with VOpt None | VShared None => False | _ => True end.

(** [jgood G J H ex t old v]: [v] is a proper value of type [t] which survives being pushed and pulled
    into a variable holding [old]: integers are in range, floats are no signalling NaNs,
    strings can be transported, dates are restored by the conversion functions, string views already
    refer to the right string (they cannot be pulled), containers respect their invariants, maps in [old]
    are empty, optionals/pointers are not nested such that an empty one is inside a non-empty one, members of
    a class have distinct JSON names (or are the same member), and members which are pushed but not pulled (const ones)
    already have the right value.  Shared pointers refer to proper objects in [H] (and hence do
    not form cycles).  [ex] = true restricts to values which are restored identically (no
    shared pointers and no hash containers). *)
Inductive jgood (G : genv) (J : jenv) (H : heap) : bool -> ty -> val -> val -> Prop :=
| jg_bool ex old b : jgood G J H ex TBool old (VBool b)
| jg_int ex k old z : (json_kind k || byte_kind k) = true -> in_range k z = true -> jgood G J H ex (TInt k) old (VInt z)
| jg_f32 ex old n : (n < 2 ^ 32)%N -> f32_snan n = false -> jgood G J H ex TF32 old (VF32 n)
| jg_f64 ex old n : jgood G J H ex TF64 old (VF64 n)
| jg_enum ex k old z : in_range k z = true -> jgood G J H ex (TEnum k) old (VInt z)
| jg_string ex old s : json_string s -> jgood G J H ex TString old (VStr s)
| jg_dt ex old z : je_dt_parse J (cstr (sized (je_dt_print J z))) = Some z -> jgood G J H ex TDateTime old (VInt z)
| jg_ts ex old z : je_ts_parse J (cstr (sized (je_ts_print J z))) = Some z -> jgood G J H ex TTimeSpan old (VInt z)
| jg_view ex s : jgood G J H ex TView (VOpt (Some (VStr s))) (VOpt (Some (VStr s)))
| jg_cstr ex s : jgood G J H ex TCStr (VOpt (Some (VStr s))) (VOpt (Some (VStr s)))
| jg_seq ex t old l :
    (forall x, In x l -> jgood G J H ex t (vinit G t) x) ->
    jgood G J H ex (TSeq t) old (VList l)
| jg_set ex ord multi t old l :
    (ex = true -> ord = true) ->
    cont_inv G false ord multi t l ->
    (forall x, In x l -> jgood G J H true t (dinit G t) x) ->
    jgood G J H ex (TSet ord multi t) old (VList l)
| jg_map ex ord multi vt l :
    (ex = true -> ord = true) ->
    cont_inv G true ord multi TString l ->
    (forall x, In x l -> exists k v, x = VPair (VStr k) v /\ json_string k) ->
    (forall k v, In (VPair k v) l -> jgood G J H ex vt (vinit G vt) v) ->
    (ord = true -> multi = true -> forall a b, In a l -> In b l ->
       g_lt G TString (keyof true a) (keyof true b) = false -> g_lt G TString (keyof true b) (keyof true a) = false -> keyof true a = keyof true b) ->
    jgood G J H ex (TMap ord multi TString vt) (VList []) (VList l)
| jg_pair ex ta tb oa ob a b :
    jgood G J H ex ta oa a -> jgood G J H ex tb ob b ->
    jgood G J H ex (TPair ta tb) (VPair oa ob) (VPair a b)
| jg_tuple ex ts os l :
    ts <> [] -> length os = length ts -> length l = length ts ->
    (forall i t o x, nth_error ts i = Some t -> nth_error os i = Some o -> nth_error l i = Some x -> jgood G J H ex t o x) ->
    jgood G J H ex (TTuple ts) (VList os) (VList l)
| jg_opt_none ex t old : jgood G J H ex (TOptional t) old (VOpt None)
| jg_opt_some ex t old x : nonnull x -> jgood G J H ex t (vinit G t) x -> jgood G J H ex (TOptional t) old (VOpt (Some x))
| jg_uni_none ex t old : jgood G J H ex (TUnique t) old (VOpt None)
| jg_uni_some ex t old x : nonnull x -> jgood G J H ex t (vinit G t) x -> jgood G J H ex (TUnique t) old (VOpt (Some x))
| jg_shared_none ex t old : jgood G J H ex (TShared t) old (VShared None)
| jg_shared_some t old a x :
    hget H a = Some (t, x) -> nonnull x -> jgood G J H false t (vinit G t) x ->
    jgood G J H false (TShared t) old (VShared (Some a))
| jg_var_mono ex ts old i :
    in_range KU64 (Z.of_nat i) = true -> nth_error ts i = Some TMono -> jgood G J H ex (TVariant ts) old (VVar i VMono)
| jg_var ex ts old i t x :
    in_range KU64 (Z.of_nat i) = true -> nth_error ts i = Some t -> t <> TMono ->
    jgood G J H ex t (vinit G t) x -> jgood G J H ex (TVariant ts) old (VVar i x)
| jg_struct ex c rc os fs Lp Lq (oo : fkey -> val) :
    g_class G c = Some rc ->
    map fst os = map fst fs -> map fst (rc_layout rc) = map fst fs -> NoDup (map fst fs) ->
    members G pushed_by c Lp -> members G rc_pull c Lq ->
    pushed_apart Lp -> pulled_again G Lq -> incl Lq Lp ->
    (forall fd, In fd Lp -> alookup fkey_eqb (jf_key fd) (rc_layout rc) = Some (jf_ty fd)) ->
    (forall fd, In fd Lq -> alookup fkey_eqb (jf_key fd) os = Some (oo (jf_key fd))) ->
    (forall fd v, In fd Lp -> alookup fkey_eqb (jf_key fd) fs = Some v -> jgood G J H ex (jf_ty fd) (oo (jf_key fd)) v) ->
    (forall k v, ~ In k (map jf_key Lq) -> alookup fkey_eqb k fs = Some v ->
       alookup fkey_eqb k os = Some v /\ shfree v = true) ->
    jgood G J H ex (TStruct c) (VObj os) (VObj fs).

Lemma jg_struct_once G J H ex c rc os fs Lp Lq (oo : fkey -> val) :
    g_class G c = Some rc ->
    map fst os = map fst fs -> map fst (rc_layout rc) = map fst fs -> NoDup (map fst fs) ->
    members G pushed_by c Lp -> members G rc_pull c Lq ->
    NoDup (map jf_name Lp) -> NoDup (map jf_key Lq) -> incl Lq Lp ->
    (forall fd, In fd Lp -> alookup fkey_eqb (jf_key fd) (rc_layout rc) = Some (jf_ty fd)) ->
    (forall fd, In fd Lq -> alookup fkey_eqb (jf_key fd) os = Some (oo (jf_key fd))) ->
    (forall fd v, In fd Lp -> alookup fkey_eqb (jf_key fd) fs = Some v -> jgood G J H ex (jf_ty fd) (oo (jf_key fd)) v) ->
    (forall k v, ~ In k (map jf_key Lq) -> alookup fkey_eqb k fs = Some v ->
       alookup fkey_eqb k os = Some v /\ shfree v = true) ->
    jgood G J H ex (TStruct c) (VObj os) (VObj fs).
Proof. intros. eapply jg_struct; eauto using nodup_pushed_apart, nodup_pulled_again. Qed.

(** nothing has been reported and the error context is as before, up to the index *)
Definition quiet (er er' : option est) : Prop :=
  match er, er' with
  | None, None => True
  | Some e, Some e' =>
      es_errs e' = es_errs e /\ es_record e' = es_record e /\ es_member e' = es_member e /\ es_throw e' = es_throw e
      /\ (es_index e' = es_index e \/ es_index e' = None)
  | _, _ => False
  end.

(** the errors which throwOn = [T] makes fatal: bit 0 type mismatches, bit 1 array size mismatches, bit 2 conversion
    errors, bit 3 unexpected duplicates (JsonDeserializationErrors::ThrowOn, lib/json/errorhandling.h:170-176);
    errors concerning variants are never fatal *)
Definition fatal (T : N) (x : jerror) : bool :=
  match e_kind x with
  | TypeMismatch => N.testbit T 0
  | ArraySizeMismatch => N.testbit T 1
  | ConversionError => N.testbit T 2
  | UnexpectedDuplicate => N.testbit T 3
  | InvalidVariantObject | InvalidVariantIndex => false
  end.
(** an error list with another throwOn *)
Definition throwing_on (T : N) (e : est) : est :=
  {| es_errs := es_errs e; es_record := es_record e; es_member := es_member e; es_index := es_index e; es_throw := T |}.

(** deserialisations: pull of a document [j] into a variable of type [t] holding [old], or fromJson *)
Inductive deserialisation (G : genv) (J : jenv) : M val -> Prop :=
| d_pull f t old j : deserialisation G J (pull G J f t old j)
| d_fromJson f t j : deserialisation G J (fromJson G J f t j).
