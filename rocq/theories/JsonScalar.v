(** JsonScalar.v -- variants, null, numbers, strings and the expected type of errors (C32..C36) *)
From Coq Require Import String List NArith ZArith Bool Lia Permutation.
From Verif Require Import Base BaseFacts Types TypesFacts BinModel BinSpec BinSafeSpec BinSafe BinFacts Float FloatFacts JsonModel JsonRel JsonErr JsonSpec
  JsonRoundTrip JsonSafeSpec JsonSafe JsonFit JsonFacts.
Import ListNotations.
Local Open Scope list_scope.
Local Open Scope nat_scope.

(* ------------------------------------------------------------------ *)
(** * Variants *)

Lemma variant_pushed G J H ts i x f j : push G J H (S f) (TVariant ts) (VVar i x) = ROk j ->
  exists t d, nth_error ts i = Some t
    /\ j = JObj [(list_byte_of_string "index", JInt (Z.of_nat i)); (list_byte_of_string "data", d)]
    /\ (t = TMono -> d = JNull) /\ (t <> TMono -> push G J H f t x = ROk d).
Proof.
  rewrite push_S. cbn [push_body]. destruct (nth_error ts i) as [t|]; [|discriminate].
  intros E. exists t.
  assert (C: t = TMono \/ t <> TMono) by (destruct t; (left; reflexivity) || (right; discriminate)).
  destruct C as [->|C].
  - inversion E; subst. exists JNull. split; [reflexivity|]. split; [reflexivity|]. split; [auto|congruence].
  - assert (exists d, push G J H f t x = ROk d /\ j = JObj [(list_byte_of_string "index", JInt (Z.of_nat i)); (list_byte_of_string "data", d)]) as (d & Ed & ->).
    { destruct t; try congruence; (match type of E with (let! _ := ?m in _) = _ => destruct m as [d| | | |] end; try discriminate; inversion E; subst; eauto). }
    exists d. split; [reflexivity|]. split; [reflexivity|]. split; [congruence|auto].
Qed.
Lemma variant_valueless G J H ts f : push G J H (S f) (TVariant ts) VValueless = ROk JNull.
Proof. reflexivity. Qed.

Section Variant.
  Variables (G : genv) (J : jenv) (ts : list ty) (old : val) (ms : list (bytes * json)) (f : nat) (st : pst).
  Let ix := alookup bytes_eqb (list_byte_of_string "index") ms.
  Let dt := alookup bytes_eqb (list_byte_of_string "data") ms.
  Lemma variant_lacking : ix = None \/ dt = None ->
    pull G J (S f) (TVariant ts) old (JObj ms) st = reports InvalidVariantObject JTObject JTObject old st.
  Proof.
    intros E. rewrite pull_S. cbn [pull_body]. fold ix. fold dt.
    destruct ix as [ji|], dt as [jd|]; try apply reports_spec. destruct E; discriminate.
  Qed.
  Lemma variant_no_index ji jd : ix = Some ji -> dt = Some jd -> (forall z, ji = JInt z -> in_range KU64 z = false) ->
    pull G J (S f) (TVariant ts) old (JObj ms) st = reports InvalidVariantIndex JTNumber (type_of ji) old st.
  Proof.
    intros E1 E2 Hz. rewrite pull_S. cbn [pull_body]. fold ix. fold dt. rewrite E1, E2.
    destruct ji; try apply reports_spec. rewrite (Hz z eq_refl). apply reports_spec.
  Qed.
  Lemma variant_index_too_big z jd : ix = Some (JInt z) -> dt = Some jd -> (Z.of_nat (length ts) <= z)%Z -> 
    pull G J (S f) (TVariant ts) old (JObj ms) st = reports InvalidVariantIndex JTNumber JTNumber old st.
  Proof.
    intros E1 E2 Hz. rewrite pull_S. cbn [pull_body]. fold ix. fold dt. rewrite E1, E2.
    destruct (in_range KU64 z); [|apply reports_spec].
    replace (Z.to_N z <? N.of_nat (length ts))%N with false by (symmetry; apply N.ltb_ge; lia). apply reports_spec.
  Qed.
  Lemma variant_ok z jd t : ix = Some (JInt z) -> dt = Some jd -> (0 <= z < 2 ^ 64)%Z -> nth_error ts (Z.to_nat z) = Some t ->
    (t = TMono -> pull G J (S f) (TVariant ts) old (JObj ms) st = POk (VVar (Z.to_nat z) VMono) st)
    /\ (t <> TMono -> pull G J (S f) (TVariant ts) old (JObj ms) st =
          match pull G J f t (vinit G t) jd st with
          | POk x st' => POk (VVar (Z.to_nat z) x) st'
          | PThrow e st' => PThrow e st' | PUB => PUB | PFuel => PFuel | PStuck => PStuck
          end).
  Proof.
    intros E1 E2 Hz En. rewrite pull_S. cbn [pull_body]. fold ix. fold dt. rewrite E1, E2.
    assert (R: in_range KU64 z = true). { unfold in_range, kmin, kmax. cbn [ksigned ksize]. apply andb_true_iff. split; apply Z.leb_le; cbn; lia. }
    rewrite R, (idx_lt ts z t En), En. split.
    - intros ->. reflexivity.
    - intros Ht. destruct t; try congruence; unfold bind; match goal with |- match ?m with _ => _ end = _ => destruct m; reflexivity end.
  Qed.
End Variant.
Lemma variant_not_fatal T e k x a : k = InvalidVariantObject \/ k = InvalidVariantIndex -> fatal T (error_in e k x a) = false.
Proof. intros [-> | ->]; reflexivity. Qed.

(* ------------------------------------------------------------------ *)
(** * null *)

Lemma null_resets G J t old f st :
  pull G J (S f) (TOptional t) old JNull st = POk (VOpt None) st
  /\ pull G J (S f) (TUnique t) old JNull st = POk (VOpt None) st
  /\ pull G J (S f) (TShared t) old JNull st = POk (VShared None) st.
Proof. repeat split; reflexivity. Qed.
Lemma empty_is_null G J H t f :
  push G J H (S f) (TOptional t) (VOpt None) = ROk JNull
  /\ push G J H (S f) (TUnique t) (VOpt None) = ROk JNull
  /\ push G J H (S f) (TShared t) (VShared None) = ROk JNull.
Proof. repeat split; reflexivity. Qed.
Lemma nonnull_engages G J t j old f st v st' : j <> JNull ->
  (pull G J (S f) (TOptional t) old j st = POk v st' -> exists x, v = VOpt (Some x) /\ pull G J f t (vinit G t) j st = POk x st')
  /\ (pull G J (S f) (TUnique t) old j st = POk v st' -> exists x, v = VOpt (Some x) /\ pull G J f t (vinit G t) j st = POk x st')
  /\ (alloc_ok G -> pull G J (S f) (TShared t) old j st = POk v st' -> exists a x,
        v = VShared (Some a) /\ hget (p_heap st) a = None /\ hget (p_heap st') a = Some (t, x)
        /\ exists h, pull G J f t (vinit G t) j {| p_heap := hset (p_heap st) a (t, vinit G t); p_err := p_err st |} = POk x {| p_heap := h; p_err := p_err st' |}
             /\ p_heap st' = hset h a (t, x)).
Proof.
  intros Hj. rewrite pull_S. cbn [pull_body]. split; [|split].
  - intros E. assert (E': (let? x := pull G J f t (vinit G t) j in ret (VOpt (Some x))) st = POk v st') by (destruct j; try exact E; congruence).
    unfold bind in E'. destruct (pull G J f t (vinit G t) j st) as [x s1| | | |]; try discriminate. inversion E'; subst. eauto.
  - intros E. assert (E': (let? x := pull G J f t (vinit G t) j in ret (VOpt (Some x))) st = POk v st') by (destruct j; try exact E; congruence).
    unfold bind in E'. destruct (pull G J f t (vinit G t) j st) as [x s1| | | |]; try discriminate. inversion E'; subst. eauto.
  - intros HA E. assert (E': (let? a := in_new G t (pull G J f t (vinit G t) j) in ret (VShared (Some a))) st = POk v st') by (destruct j; try exact E; congruence).
    unfold bind, in_new in E'.
    destruct (pull G J f t (vinit G t) j {| p_heap := hset (p_heap st) (g_alloc G (p_heap st)) (t, vinit G t); p_err := p_err st |}) as [x s1| | | |] eqn:Ep; try discriminate.
    inversion E'; subst. cbn [p_heap p_err]. exists (g_alloc G (p_heap st)), x. split; [reflexivity|]. split; [apply hget_not_in, HA|].
    split; [apply hget_hset_same|]. exists (p_heap s1). split; [|reflexivity]. rewrite Ep. destruct s1; reflexivity.
Qed.

(* ------------------------------------------------------------------ *)
(** * Numbers *)

Lemma int_exact G J k z old f st : json_kind k = true -> in_range k z = true -> pull G J (S f) (TInt k) old (JInt z) st = POk (VInt z) st.
Proof. intros Hk Hz. rewrite pull_S. cbn [pull_body]. rewrite Hk. cbn [is_number]. unfold bind, get_int. rewrite Hz. reflexivity. Qed.
Lemma int_out_of_range G J k z old f st : json_kind k = true -> json_wf (JInt z) -> in_range k z = false -> pull G J (S f) (TInt k) old (JInt z) st = PUB.
Proof.
  intros Hk Hw Hz. rewrite pull_S. cbn [pull_body]. rewrite Hk. cbn [is_number]. unfold bind, get_int. rewrite Hz. unfold cast_double. cbn [get_double].
  destruct (f64_trunc (f64_of_Z z)) as [z'|] eqn:E; [|reflexivity].
  rewrite (f64_of_Z_out_of_range k z z' (proj1 Hw)); [reflexivity| |exact Hz|exact E]. destruct k; cbn in Hk; try discriminate; tauto.
Qed.
Lemma int_from_double G J k n old f st : json_kind k = true ->
  pull G J (S f) (TInt k) old (JDbl n) st = match f64_trunc n with Some z => if in_range k z then POk (VInt z) st else PUB | None => PUB end.
Proof.
  intros Hk. rewrite pull_S. cbn [pull_body]. rewrite Hk. cbn [is_number]. unfold bind, get_int, cast_double. cbn [get_double].
  destruct (f64_trunc n) as [z|]; [|reflexivity]. destruct (in_range k z); reflexivity.
Qed.
Lemma byte_wraps G J k z old f st : byte_kind k = true -> json_wf (JInt z) ->
  pull G J (S f) (TInt k) old (JInt z) st = if in_range KI32 z then POk (VInt (wrap k z)) st else PUB.
Proof.
  intros Hk Hw. rewrite pull_S. cbn [pull_body]. rewrite (byte_json k Hk), Hk. cbn [is_number]. unfold bind, get_int.
  destruct (in_range KI32 z) eqn:Hz; [reflexivity|]. unfold cast_double. cbn [get_double].
  destruct (f64_trunc (f64_of_Z z)) as [z'|] eqn:E; [|reflexivity].
  rewrite (f64_of_Z_out_of_range KI32 z z' (proj1 Hw) (or_introl eq_refl) Hz E). reflexivity.
Qed.
Lemma enum_wraps G J k z old f st : in_range (if ksigned k then KI64 else KU64) z = true ->
  pull G J (S f) (TEnum k) old (JInt z) st = POk (VInt (wrap k z)) st.
Proof. intros Hz. rewrite pull_S. cbn [pull_body]. unfold enum_kind. rewrite Hz. reflexivity. Qed.
Lemma int_pushed G J H k z f : (json_kind k || byte_kind k) = true -> push G J H (S f) (TInt k) (VInt z) = ROk (JInt z).
Proof. intros Hk. rewrite push_S. cbn [push_body]. rewrite Hk. reflexivity. Qed.

(** [wrap k z] is the value of type [k] which is congruent to [z] *)
Lemma wrap_congruent k z : in_range k (wrap k z) = true /\ exists q, (wrap k z = z + q * 2 ^ (8 * Z.of_nat (ksize k)))%Z.
Proof.
  split; [apply wrap_range|]. unfold wrap. cbv zeta. set (m := (2 ^ (8 * Z.of_nat (ksize k)))%Z).
  assert (Hm: (0 < m)%Z) by (apply Z.pow_pos_nonneg; lia). assert (D := Z.div_mod z m ltac:(lia)).
  destruct (ksigned k && _); [exists (- (z / m) - 1)%Z|exists (- (z / m))%Z]; nia.
Qed.

Lemma double_pulled G J n old f st : pull G J (S f) TF64 old (JDbl n) st = POk (VF64 n) st.
Proof. reflexivity. Qed.
(** integers up to 2^53 are converted to double exactly *)
Lemma double_of_int G J z old f st : (Z.abs z < 2 ^ 53)%Z ->
  exists n, pull G J (S f) TF64 old (JInt z) st = POk (VF64 n) st /\ f64_trunc n = Some z.
Proof.
  intros Hz. exists (f64_of_Z z). split; [reflexivity|]. destruct (f64_of_Z_trunc z ltac:(lia)) as [E _]. rewrite E.
  rewrite f64_nearest_small by (apply N2Z.inj_lt; rewrite Z2N.id by lia; exact Hz). rewrite Z2N.id by lia. f_equal. lia.
Qed.

(* ------------------------------------------------------------------ *)
(** * The expected type *)

Lemma pushed_type G J H t v f j : push G J H f t v = ROk j -> nonnull v -> v <> VValueless -> kind_checked t = true \/ t = TDateTime \/ t = TTimeSpan ->
  type_of j = match t with TPair _ _ | TTuple _ => JTArray | TMap _ true _ _ => JTObject | _ => expected_type t end.
Proof.
  destruct f as [|f]; [discriminate|]. rewrite push_S. intros E Hn Hv Hk.
  destruct t; cbn in Hk; try (destruct Hk as [Hk|[Hk|Hk]]; discriminate); cbn [push_body] in E; destruct v; try discriminate E; try (inversion E; subst; reflexivity);
    repeat match type of E with
    | (if ?b then _ else _) = _ => destruct b; try discriminate E
    | (let! _ := ?m in _) = _ => let r := fresh in destruct m as [r| | | |]; try discriminate E; cbn [rbind] in E
    | ROk _ = ROk _ => inversion E; subst; reflexivity
    | match ?o with Some _ => _ | None => _ end = _ => destruct o; try discriminate E; try contradiction
    | match ?o with VUndef => _ | _ => _ end = _ => destruct o; try discriminate E
    | match ?o with TBool => _ | _ => _ end = _ => destruct o; try discriminate E
    | match ?o with [] => _ | _ => _ end = _ => destruct o; try discriminate E
    end; try congruence.
Qed.

(* ------------------------------------------------------------------ *)
(** * Strings *)

(** [cstr s] is the part of [s] before the first NUL character *)
Lemma cstr_spec s : nul_free (cstr s) /\ ((nul_free s /\ cstr s = s) \/ exists rest, s = cstr s ++ Byte.x00 :: rest).
Proof.
  split; [apply cstr_nul_free|]. induction s as [|b s IH]; [left; split; [intros []|reflexivity]|]. cbn [cstr].
  destruct (beqb b Byte.x00) eqn:E.
  - apply beqb_eq in E. subst. right. exists s. reflexivity.
  - destruct IH as [[N C]|(rest & C)].
    + left. split; [|congruence]. intros [->|Hin]; [|exact (N Hin)]. rewrite (proj2 (beqb_eq _ _) eq_refl) in E. discriminate.
    + right. exists rest. cbn [app]. congruence.
Qed.
Lemma string_pushed G J H s f : (N.of_nat (length s) <= size_max)%N -> push G J H (S f) TString (VStr s) = ROk (JStr s).
Proof. intros L. rewrite push_S. cbn [push_body]. rewrite (sized_id s L). reflexivity. Qed.
Lemma string_pulled G J s old f st : pull G J (S f) TString old (JStr s) st = POk (VStr (cstr s)) st.
Proof. reflexivity. Qed.
Lemma string_fromJson G J s f st : fromJson G J f TString (JStr s) st = POk (VStr (cstr s)) st.
Proof. reflexivity. Qed.

Lemma map_pushed G J H ord vt l f j : push G J H f (TMap ord false TString vt) (VList l) = ROk j ->
  exists ms, j = JObj ms /\ Forall2 (fun x m => exists k v f', x = VPair (VStr k) v /\ fst m = cstr k /\ push G J H f' vt v = ROk (snd m)) l ms.
Proof.
  intros E. destruct f as [|f]; [discriminate|]. rewrite push_S in E. cbn [push_body] in E.
  match type of E with (let! _ := ?m in _) = _ => destruct m as [ms| | | |] eqn:E1; try discriminate end. cbn [rbind] in E. inversion E; subst. exists ms. split; [reflexivity|].
  assert (Q: forall l m0, push_fold (fun x ms => match x with
                       | VPair (VStr k) v => let! j := push G J H f vt v in ROk (ms ++ [(cstr k, j)])
                       | _ => RStuck end) l m0 = ROk ms ->
             exists new, ms = m0 ++ new /\ Forall2 (fun x m => exists k v f', x = VPair (VStr k) v /\ fst m = cstr k /\ push G J H f' vt v = ROk (snd m)) l new).
  { clear. induction l as [|x l IH]; intros m0 E; cbn [push_fold] in E.
    - inversion E; subst. exists []. split; [symmetry; apply app_nil_r|constructor].
    - destruct x as [ | | | | | | |[ | | | | |k| | | | | | | | ] v| | | | | | ]; try discriminate.
      destruct (push G J H f vt v) as [y| | | |] eqn:Ey; try discriminate. cbn [rbind] in E. destruct (IH _ E) as (new & -> & F).
      exists ((cstr k, y) :: new). rewrite <- app_assoc. split; [reflexivity|]. constructor; [|exact F]. exists k, v, f. auto. }
  destruct (Q _ _ E1) as (new & -> & F). exact F.
Qed.
