(** JsonSafe.v -- deserialising arbitrary documents: type safety (C48) *)
From Coq Require Import String List NArith ZArith Bool Lia Permutation.
From Verif Require Import Base BaseFacts Types TypesFacts BinModel BinSpec BinSafeSpec BinSafe Float FloatFacts JsonModel JsonRel JsonErr JsonSafeSpec.
Import ListNotations.
Local Open Scope list_scope.
Local Open Scope nat_scope.

(** ** numbers *)
Lemma wrap_range k z : in_range k (wrap k z) = true.
Proof.
  apply in_range_spec. unfold wrap, kmin, kmax. cbv zeta. set (b := (8 * Z.of_nat (ksize k))%Z).
  assert (Hb: (1 <= b)%Z) by (unfold b; destruct k; cbn; lia).
  assert (P2: (2 ^ b = 2 * 2 ^ (b - 1))%Z) by (rewrite <- Z.pow_succ_r by lia; f_equal; lia).
  assert (P1: (0 < 2 ^ (b - 1))%Z) by (apply Z.pow_pos_nonneg; lia).
  pose proof (Z.mod_pos_bound z (2 ^ b)%Z ltac:(lia)) as Hm.
  assert (D: (2 ^ b / 2 = 2 ^ (b - 1))%Z) by (rewrite P2; replace (2 * 2 ^ (b - 1))%Z with (2 ^ (b - 1) * 2)%Z by lia; apply Z.div_mul; lia).
  rewrite D. destruct (ksigned k); cbn [andb]; [|lia]. destruct (Z.leb_spec (2 ^ (b - 1)) (z mod 2 ^ b)%Z); lia.
Qed.

Lemma f64_of_Z_bound z : in_range KI64 z = true \/ in_range KU64 z = true -> (f64_of_Z z < 2 ^ 64)%N.
Proof.
  intros Hz. unfold f64_of_Z. cbv zeta. set (a := Z.to_N (Z.abs z)).
  assert (Ha: (a < 2 ^ 64)%N). { unfold a. destruct Hz as [E|E]; apply in_range_spec in E; unfold kmin, kmax in E; cbn in E; lia. }
  assert (Hn: (z < 0)%Z -> (a <= 2 ^ 63)%N). { intros L. unfold a. destruct Hz as [E|E]; apply in_range_spec in E; unfold kmin, kmax in E; cbn in E; lia. }
  clearbody a. destruct (N.eqb_spec a 0) as [->|Hz0]; [reflexivity|].
  set (k := N.log2 a). assert (L := N.log2_spec a ltac:(lia)). fold k in L. rewrite N.pow_succ_r' in L. 
  assert (Hk: (k < 64)%N). { apply (N.pow_lt_mono_r_iff 2); [lia|]. eapply N.le_lt_trans; [apply L|exact Ha]. }
  assert (Hm: ((if (k <=? 52)%N then a * 2 ^ (52 - k) else rne a (k - 52)) <= 2 ^ 53)%N).
  { destruct (N.leb_spec k 52) as [Lk|Lk].
    - assert (E: (2 ^ 53 = 2 * 2 ^ k * 2 ^ (52 - k))%N). { rewrite <- N.pow_succ_r', <- N.pow_add_r. f_equal. lia. }
      rewrite E. apply N.mul_le_mono_r. lia.
    - pose proof (rne_bounds a (k - 52)) as [_ Hr]. etransitivity; [exact Hr|].
      assert (a / 2 ^ (k - 52) < 2 ^ 53)%N; [|lia]. apply N.div_lt_upper_bound; [apply N.pow_nonzero; lia|].
      assert (E: (2 ^ (k - 52) * 2 ^ 53 = 2 * 2 ^ k)%N). { rewrite <- N.pow_succ_r', <- N.pow_add_r. f_equal. lia. }
      rewrite E. apply L. }
  set (m := if (k <=? 52)%N then (a * 2 ^ (52 - k))%N else rne a (k - 52)) in *. clearbody m.
  assert (Hs: ((if (z <? 0)%Z then 2 ^ 63 else 0) <= 2 ^ 63)%N) by (destruct (z <? 0)%Z; lia).
  set (s := if (z <? 0)%Z then (2 ^ 63)%N else 0%N) in *. clearbody s.
  assert ((k + 1022) * 2 ^ 52 <= 1085 * 2 ^ 52)%N by (apply N.mul_le_mono_r; lia).
  set (x := ((k + 1022) * 2 ^ 52)%N) in *. clearbody x.
  change (1085 * 2 ^ 52)%N with 4886405595696988160%N in *. change (2 ^ 63)%N with 9223372036854775808%N in *.
  change (2 ^ 53)%N with 9007199254740992%N in *. change (2 ^ 64)%N with 18446744073709551616%N. lia.
Qed.

Lemma f32_of_f64_bound n : (n < 2 ^ 64)%N -> (f32_of_f64 n < 2 ^ 32)%N.
Proof.
  intros Hn. unfold f32_of_f64. cbv zeta.
  assert (Hs: (n / 2 ^ 63 <= 1)%N). { assert (n / 2 ^ 63 < 2)%N; [|lia]. apply N.div_lt_upper_bound; [apply N.pow_nonzero; lia|exact Hn]. }
  assert (Hm: (f64_mant n < 2 ^ 52)%N) by (apply N.mod_lt, N.pow_nonzero; lia).
  set (s := (n / 2 ^ 63)%N) in *. set (m := f64_mant n) in *. clearbody s m.
  match goal with |- (_ + ?x < _)%N => assert (Hx: (x < 2 ^ 31)%N) end.
  { destruct (f64_exp n =? 2047)%N.
    - assert (Hl: ((if (m =? 0)%N then 0 else N.lor (m / 2 ^ 29) (2 ^ 22)) < 2 ^ 23)%N).
      { destruct (m =? 0)%N; [reflexivity|].
        assert (D: (m / 2 ^ 29 < 2 ^ 23)%N) by (apply N.div_lt_upper_bound; [apply N.pow_nonzero; lia|exact Hm]).
        destruct (N.eq_dec (m / 2 ^ 29) 0) as [->|Hne]; [reflexivity|].
        apply N.log2_lt_pow2. { destruct (m / 2 ^ 29)%N; cbn; lia. }
        rewrite N.log2_lor. apply N.max_lub_lt; [|reflexivity]. apply N.log2_lt_pow2; [lia|exact D]. }
      change (255 * 2 ^ 23)%N with 2139095040%N. change (2 ^ 31)%N with 2147483648%N. change (2 ^ 23)%N with 8388608%N in Hl. lia.
    - match goal with |- ((if (_ <=? ?r)%N then _ else _) < _)%N => set (rr := r) end.
      destruct (N.leb_spec (255 * 2 ^ 23) rr) as [L|L]; [reflexivity|]. change (2 ^ 31)%N with 2147483648%N. change (255 * 2 ^ 23)%N with 2139095040%N in L. lia. }
  change (2 ^ 31)%N with 2147483648%N in *. change (2 ^ 32)%N with 4294967296%N. lia.
Qed.

(** ** documents *)
Lemma ew_here P j : everywhere P j -> P j.
Proof. destruct j; cbn; tauto. Qed.
Lemma ew_item P l x : everywhere P (JArr l) -> In x l -> everywhere P x.
Proof. cbn. intros [_ H]. induction l as [|y l IH]; intros []; [subst; tauto|apply IH; tauto]. Qed.
Lemma ew_member P ms n x : everywhere P (JObj ms) -> In (n, x) ms -> everywhere P x.
Proof. cbn. intros [_ H]. induction ms as [|[m y] l IH]; intros []; [inversion H0; subst; tauto|apply IH; tauto]. Qed.
Lemma ew_lookup P ms n x : everywhere P (JObj ms) -> alookup bytes_eqb n ms = Some x -> everywhere P x.
Proof.
  intros HE. assert (Q: forall l, incl l ms -> alookup bytes_eqb n l = Some x -> everywhere P x).
  { induction l as [|[m y] l IH]; intros I; cbn; [discriminate|]. destruct (bytes_eqb n m).
    - intros E; inversion E; subst. eapply ew_member; [exact HE|apply I; left; reflexivity].
    - apply IH. intros z Hz; apply I; right; exact Hz. }
  apply Q, incl_refl.
Qed.

Section Safe.
  Variable G : genv.
  Variable J : jenv.
  Variable ud : bool.
  Variable K : ikind -> Prop.
  Variable cl : bool. (* excludes undefined behaviour *)
  Hypothesis HA : alloc_ok G.
  Hypothesis HP : place_ok G.
  Hypothesis HE : jenv_ok G ud K cl.
  Hypothesis HC : conv_ok J.

  Notation ht := (has_type G ud).
  Notation able := (pullable G K cl).

  Definition sok (st : pst) : Prop := heap_typed G ud (p_heap st) /\ (cl = true -> p_err st <> None).
  Definition mpost {A} (h : heap) (m : M A) (Q : A -> heap -> Prop) : Prop := forall st, p_heap st = h -> sok st ->
    match m st with
    | POk a st' => Q a (p_heap st') /\ sok st' /\ hext h (p_heap st')
    | PThrow _ st' => heap_typed G ud (p_heap st') /\ hext h (p_heap st')
    | PUB => cl = false
    | PFuel => True
    | PStuck => False
    end.
  Definition docok (j : json) : Prop := json_wf j /\ (cl = true -> numbers_fit K j).

  Lemma mp_ret {A} h (a : A) (Q : A -> heap -> Prop) : Q a h -> mpost h (ret a) Q.
  Proof. intros HQ st <- Hs. cbn. split; [exact HQ|]. split; [exact Hs|apply hext_refl]. Qed.
  Lemma mp_bind {A B} h (m : M A) (k : A -> M B) (Q : A -> heap -> Prop) (R : B -> heap -> Prop) :
    mpost h m Q -> (forall a h', hext h h' -> Q a h' -> mpost h' (k a) R) -> mpost h (bind m k) R.
  Proof.
    intros Hm Hk st Eh Hs. unfold bind. specialize (Hm st Eh Hs). destruct (m st) as [a st'|x st'| | |]; auto.
    destruct Hm as (HQ & Hs' & X). specialize (Hk a (p_heap st') X HQ st' eq_refl Hs').
    destruct (k a st') as [b st2|x st2| | |]; auto.
    - destruct Hk as (HR & Hs2 & X2). split; [exact HR|]. split; [exact Hs2|eapply hext_trans; eauto].
    - destruct Hk as (HT & X2). split; [exact HT|eapply hext_trans; eauto].
  Qed.
  Lemma mp_imp {A} h (m : M A) (Q R : A -> heap -> Prop) : mpost h m Q -> (forall a h', hext h h' -> Q a h' -> R a h') -> mpost h m R.
  Proof. intros Hm HQ st Eh Hs. specialize (Hm st Eh Hs). destruct (m st) as [a st'|x st'| | |]; auto. destruct Hm as (H1 & H2 & H3). auto. Qed.
  Lemma mp_ub {A} h (Q : A -> heap -> Prop) : cl = false -> mpost h ub Q.
  Proof. intros E st _ _. exact E. Qed.
  Lemma mp_emplace e k x a h (Q : unit -> heap -> Prop) : heap_typed G ud h -> Q tt h ->
    match emplace_error e k x a h with
    | POk a st' => Q a (p_heap st') /\ sok st' /\ hext h (p_heap st')
    | PThrow _ st' => heap_typed G ud (p_heap st') /\ hext h (p_heap st')
    | PUB => cl = false
    | PFuel => True
    | PStuck => False
    end.
  Proof.
    intros Hh HQ. unfold emplace_error. destruct (N.eqb _ _); cbn [p_heap].
    - split; [exact HQ|]. split; [|apply hext_refl]. split; [exact Hh|discriminate].
    - split; [exact Hh|apply hext_refl].
  Qed.
  Lemma mp_report h k x a (Q : unit -> heap -> Prop) : Q tt h -> mpost h (report k x a) Q.
  Proof.
    intros HQ st Eh Hs. unfold report. destruct (p_err st) eqn:E.
    - rewrite Eh. apply mp_emplace; [rewrite <- Eh; apply Hs|exact HQ].
    - rewrite Eh. split; [exact HQ|]. split; [exact Hs|apply hext_refl].
  Qed.
  Lemma mp_unchecked h k x a (Q : unit -> heap -> Prop) : Q tt h -> mpost h (report_unchecked k x a) Q.
  Proof.
    intros HQ st Eh Hs. unfold report_unchecked. destruct (p_err st) eqn:E.
    - rewrite Eh. apply mp_emplace; [rewrite <- Eh; apply Hs|exact HQ].
    - destruct Hs as [_ Hs]. destruct cl; [specialize (Hs eq_refl); congruence|reflexivity].
  Qed.
  Lemma mp_index h i (Q : unit -> heap -> Prop) : Q tt h -> mpost h (set_index i) Q.
  Proof.
    intros HQ st Eh Hs. cbn. rewrite Eh. split; [exact HQ|]. split; [|apply hext_refl]. destruct Hs as [H1 H2]. rewrite Eh in H1. split; [exact H1|].
    intros E. specialize (H2 E). cbn. destruct (p_err st); cbn; congruence.
  Qed.
  Lemma mp_member {A} h n (m : M A) Q : mpost h m Q -> mpost h (in_member n m) Q.
  Proof.
    intros Hm st Eh Hs. unfold in_member. specialize (Hm (put_member (Some n) st) Eh).
    assert (S1: sok (put_member (Some n) st)). { destruct Hs as [H1 H2]. split; [exact H1|]. intros E. specialize (H2 E). cbn. destruct (p_err st); cbn; congruence. }
    specialize (Hm S1). destruct (m _) as [a st'|x st'| | |]; auto. destruct Hm as (H1 & H2 & H3). split; [exact H1|]. split; [|exact H3].
    destruct H2 as [H2 H4]. split; [exact H2|]. intros E. specialize (H4 E). cbn. destruct (p_err st'); cbn; congruence.
  Qed.
  Lemma mp_record {A} h n (m : M A) Q : mpost h m Q -> mpost h (in_record n m) Q.
  Proof.
    intros Hm st Eh Hs. unfold in_record. specialize (Hm (put_record (Some n) st) Eh).
    assert (S1: sok (put_record (Some n) st)). { destruct Hs as [H1 H2]. split; [exact H1|]. intros E. specialize (H2 E). cbn. destruct (p_err st); cbn; congruence. }
    specialize (Hm S1). destruct (m _) as [a st'|x st'| | |]; auto. destruct Hm as (H1 & H2 & H3). split; [exact H1|]. split; [|exact H3].
    destruct H2 as [H2 H4]. split; [exact H2|]. intros E. specialize (H4 E). cbn. destruct (p_err st'); cbn; congruence.
  Qed.
  Lemma mp_mismatch h t j old (Q : val -> heap -> Prop) : Q old h -> mpost h (mismatch t j old) Q.
  Proof. intros HQ. unfold mismatch. eapply mp_bind; [apply (mp_report h _ _ _ (fun _ h' => h' = h)); reflexivity|]. intros _ h' _ ->. apply mp_ret. exact HQ. Qed.
  Lemma mp_report_ret {A} h k x a (v : A) (Q : A -> heap -> Prop) : Q v h -> mpost h (let? _ := report k x a in ret v) Q.
  Proof. intros HQ. eapply mp_bind; [apply (mp_report h _ _ _ (fun _ h' => h' = h)); reflexivity|]. intros _ h' _ ->. apply mp_ret. exact HQ. Qed.
  Lemma mp_items {A} (s : A -> json -> M A) (P : A -> heap -> Prop) js :
    forall h, (forall a j h', In j js -> hext h h' -> P a h' -> mpost h' (s a j) P) -> forall i a, P a h -> mpost h (pull_items s i js a) P.
  Proof.
    induction js as [|j js IH]; intros h Hs i a Ha; cbn [pull_items].
    - eapply mp_bind; [apply (mp_index h _ (fun _ h' => h' = h)); reflexivity|]. intros _ h' _ ->. apply mp_ret; exact Ha.
    - eapply mp_bind; [apply (mp_index h _ (fun _ h' => h' = h)); reflexivity|]. intros _ h' _ ->.
      eapply mp_bind; [apply Hs; [left; reflexivity|apply hext_refl|exact Ha]|]. intros a' h1 X1 H1. apply IH; [|exact H1].
      intros b j' h2 Hin X2. apply Hs; [right; exact Hin|eapply hext_trans; eauto].
  Qed.
  Lemma mp_fold {A B} (s : A -> B -> M A) (P : A -> heap -> Prop) l :
    forall h, (forall a b h', In b l -> hext h h' -> P a h' -> mpost h' (s a b) P) -> forall a, P a h -> mpost h (fold_m s l a) P.
  Proof.
    induction l as [|j js IH]; intros h Hs a Ha; cbn [fold_m].
    - apply mp_ret; exact Ha.
    - eapply mp_bind; [apply Hs; [left; reflexivity|apply hext_refl|exact Ha]|]. intros a' h1 X1 H1. apply IH; [|exact H1].
      intros b j' h2 Hin X2. apply Hs; [right; exact Hin|eapply hext_trans; eauto].
  Qed.

  Lemma hext_hle h h' : hext h h' -> hle h h'. Proof. exact (extends_hle h h'). Qed.
  Lemma ht_ext h h' t v : hext h h' -> ht h t v -> ht h' t v.
  Proof. intros X. apply ht_mono_h. apply hext_hle. exact X. Qed.

  Lemma vinit_able t : able t -> ht [] t (vinit G t).
  Proof.
    induction t using ty_ind'; intros R; cbn [vinit]; cbn [pullable] in R; try contradiction; try (constructor; try reflexivity; fail).
    - constructor. apply in_range_spec. unfold kmin, kmax. destruct k; cbn; lia.
    - constructor. apply in_range_spec. unfold kmin, kmax. destruct k; cbn; lia.
    - constructor. intros x [].
    - constructor. intros x [].
    - constructor; [intros x []| |]; intros k0 v [].
    - constructor; [apply IHt1|apply IHt2]; apply R.
    - destruct R as [_ R]. constructor; [apply map_length|]. intros i t x Et Ex. revert i Et Ex. induction ts as [|t0 ts IH]; intros [|i] Et Ex; cbn in Et, Ex; try discriminate.
      + inversion Et; inversion Ex; subst. inversion H; subst. destruct R as [R _]. auto.
      + inversion H; subst. destruct R as [_ R]. eapply IH; eauto.
    - destruct ts as [|t ts]; [destruct R as [R _]; contradiction|].
      inversion H as [|t1 ts1 Ht Hts]; subst. destruct R as [_ [[->|R] _]].
      + eapply ht_variant; [reflexivity|]. constructor.
      + eapply ht_variant; [reflexivity|]. apply Ht. exact R.
    - destruct R as (rc & p & Ec & _). rewrite Ec. apply (jo_vinit _ _ _ _ HE). exact Ec.
  Qed.
  Lemma vinit_any t h : able t -> ht h t (vinit G t).
  Proof. intros R. eapply ht_mono_h; [apply hle_nil|]. apply vinit_able; exact R. Qed.

  Notation oldok := (variable_ok G ud).
  Lemma dinit_ok t h : able t -> oldok h t (dinit G t).
  Proof.
    intros R. destruct t; cbn [dinit]; try (left; apply (vinit_any _ _ R)); try (right; split; reflexivity).
    left. cbn in R. destruct R as (rc & p & Ec & _). rewrite Ec. eapply ht_mono_h; [apply hle_nil|]. apply (jo_dinit _ _ _ _ HE). exact Ec.
  Qed.
  Lemma raw_undef h t : ht h t VUndef -> raw t = true.
  Proof. clear HE. intros Ht. inversion Ht; subst; [destruct t; try discriminate; reflexivity|reflexivity]. Qed.

  Definition pulled (t : ty) (old : val) (v : val) (h : heap) : Prop := ht h t v \/ (v = VUndef /\ old = VUndef /\ raw t = true).
  Lemma pulled_ht h h' t old v : hext h h' -> ht h t old -> pulled t old v h' -> ht h' t v.
  Proof. intros X Ho [H|(-> & -> & _)]; [exact H|eapply ht_ext; eauto]. Qed.
  Lemma pulled_old h t old : oldok h t old -> pulled t old old h.
  Proof. intros [H|[H1 ->]]; [left; exact H|right; auto]. Qed.

  Lemma mp_new h t m : able t -> (forall h1, hext h h1 -> mpost h1 m (fun v h' => ht h' t v)) -> mpost h (in_new G t m) (fun a h' => hty h' a = Some t).
  Proof.
    intros R Hm st Eh Hs. unfold in_new. rewrite Eh. set (a := g_alloc G h). pose proof (HA h) as Hfresh. fold a in Hfresh.
    assert (X1: hext h (hset h a (t, vinit G t))) by (exact (hle_hset_fresh _ _ _ Hfresh)).
    assert (S1: sok {| p_heap := hset h a (t, vinit G t); p_err := p_err st |}).
    { destruct Hs as [H1 H2]. rewrite Eh in H1. split; [|exact H2]. cbn [p_heap]. intros b u x E. destruct (N.eq_dec a b) as [<-|Hn].
      - rewrite hget_hset_same in E. inversion E; subst. apply vinit_any; exact R.
      - rewrite hget_hset_other in E by exact Hn. eapply ht_ext; [exact X1|]. eapply H1; exact E. }
    specialize (Hm (hset h a (t, vinit G t)) X1 {| p_heap := hset h a (t, vinit G t); p_err := p_err st |} eq_refl S1).
    destruct (m _) as [x st'|x st'| | |]; auto.
    - destruct Hm as (Hx & [T2 N2] & X2).
      assert (Ha: hget (p_heap st') a = Some (t, vinit G t)) by (apply X2; apply hget_hset_same).
      assert (Hle: hle (p_heap st') (hset (p_heap st') a (t, x))) by (apply hle_hset_same; unfold hty; rewrite Ha; reflexivity).
      cbn [p_heap]. split; [unfold hty; rewrite hget_hset_same; reflexivity|]. split.
      + split; [|exact N2]. cbn [p_heap]. intros b u y E. eapply ht_mono_h; [exact Hle|]. destruct (N.eq_dec a b) as [<-|Hn].
        * rewrite hget_hset_same in E. inversion E; subst. exact Hx.
        * rewrite hget_hset_other in E by exact Hn. eapply T2; eauto.
      + intros b c E. rewrite hget_hset_other; [apply X2, X1, E|]. intros ->. apply Hfresh. eapply alookup_some_key; [apply N.eqb_eq|exact E].
    - destruct Hm as (T2 & X2). split; [exact T2|eapply hext_trans; eauto].
  Qed.

  Lemma mp_get_int k j h : K k -> docok j -> is_number j = true -> mpost h (get_int k j) (fun z _ => in_range k z = true).
  Proof.
    intros Hk [Hw Hn] E. unfold get_int.
    assert (C: match j with JInt z => in_range k z = false | _ => True end -> mpost h (cast_double k j) (fun z _ => in_range k z = true)).
    { intros Hz. unfold cast_double. destruct j as [ | |z|n| | | ]; try discriminate; cbn [get_double].
      - assert (cl = false). { destruct cl; [|reflexivity]. specialize (Hn eq_refl). apply ew_here in Hn. cbn in Hn. specialize (Hn k Hk). congruence. }
        destruct (f64_trunc _) as [z'|]; [|apply mp_ub; assumption]. destruct (in_range k z') eqn:Er; [apply mp_ret; exact Er|apply mp_ub; assumption].
      - destruct (f64_trunc n) as [z'|] eqn:Et.
        + destruct (in_range k z') eqn:Er; [apply mp_ret; exact Er|]. apply mp_ub. destruct cl; [|reflexivity]. specialize (Hn eq_refl). apply ew_here in Hn. cbn in Hn.
          destruct (Hn k Hk) as (z & E1 & E2). congruence.
        + apply mp_ub. destruct cl; [|reflexivity]. specialize (Hn eq_refl). apply ew_here in Hn. cbn in Hn.
          destruct (Hn k Hk) as (z & E1 & E2). congruence. }
    destruct j as [ | |z|n| | | ]; try (apply C; exact I). destruct (in_range k z) eqn:Er; [apply mp_ret; exact Er|apply C; reflexivity].
  Qed.

  Lemma doc_item l x : docok (JArr l) -> In x l -> docok x.
  Proof. intros [H1 H2] Hin. split; [eapply ew_item; eauto|]. intros E. eapply ew_item; [exact (H2 E)|exact Hin]. Qed.
  Lemma doc_member ms n x : docok (JObj ms) -> In (n, x) ms -> docok x.
  Proof. intros [H1 H2] Hin. split; [eapply ew_member; eauto|]. intros E. eapply ew_member; [exact (H2 E)|exact Hin]. Qed.
  Lemma doc_lookup ms n x : docok (JObj ms) -> alookup bytes_eqb n ms = Some x -> docok x.
  Proof. intros [H1 H2] Hin. split; [eapply ew_lookup; eauto|]. intros E. eapply ew_lookup; [exact (H2 E)|exact Hin]. Qed.

  Definition S_val f := forall t old j h, able t -> oldok h t old -> docok j -> mpost h (pull G J f t old j) (fun v h' => pulled t old v h').
  Definition S_cls f := forall c rc p lay os ms h, g_class G c = Some rc -> rc_pull rc = Some p ->
    (forall k t, alookup fkey_eqb k (rc_layout rc) = Some t -> alookup fkey_eqb k lay = Some t) ->
    fieldsok G ud h lay os -> docok (JObj ms) ->
    mpost h (pull_cls G J f c os ms) (fun os' h' => fieldsok G ud h' lay os').

  Lemma S_cls_step f : S_val f -> S_cls f -> S_cls (S f).
  Proof.
    intros SV SC c rc p lay os ms h Hc Hp Hlay Hos Hd.
    rewrite pull_cls_S. unfold pull_cls_body. rewrite Hc, Hp.
    eapply mp_bind.
    { apply (mp_fold _ (fun os' h' => fieldsok G ud h' lay os')); [|exact Hos]. intros os0 b h0 Hb X0 F0.
      destruct (jo_bases _ _ _ _ HE c rc p b Hc Hp Hb) as (rb & pb & Eb & Epb & Hsub). eapply SC; eauto. }
    intros os1 h1 X1 F1. cbv zeta.
    match goal with |- mpost _ (match _ with Some n => in_record n ?m | None => ?m end) _ => assert (Q: mpost h1 m (fun os' h' => fieldsok G ud h' lay os')) end.
    { apply (mp_fold _ (fun os' h' => fieldsok G ud h' lay os')); [|exact F1]. intros os0 fd h0 Hfd X0 F0.
      destruct (jo_fields _ _ _ _ HE c rc p fd Hc Hp Hfd) as [Hl Hr]. apply Hlay in Hl. destruct F0 as [K0 F0].
      assert (exists o, alookup fkey_eqb (jf_key fd) os0 = Some o) as [o Eo].
      { apply (alookup_some_in _ fkey_eqb_eq). rewrite K0. eapply alookup_some_key; [apply fkey_eqb_eq|exact Hl]. }
      unfold pull_member. rewrite Eo. destruct (alookup bytes_eqb (jf_name fd) ms) as [j|] eqn:El; [|apply mp_ret; split; assumption].
      assert (Ho := F0 _ _ _ Hl Eo).
      eapply mp_bind; [apply mp_member; apply (SV (jf_ty fd) o j h0 Hr (or_introl Ho)); eapply doc_lookup; eauto|].
      intros x h2 X2 Px. apply mp_ret. assert (Hx := pulled_ht _ _ _ _ _ X2 Ho Px). split; [rewrite aupdate_keys; exact K0|].
      intros k t v E1 E2. destruct (fkey_eq_dec (jf_key fd) k) as [<-|Hn].
      - rewrite (alookup_aupdate_same _ fkey_eqb_eq) in E2 by (eapply alookup_some_key; [apply fkey_eqb_eq|exact Eo]).
        inversion E2; subst v. rewrite Hl in E1. inversion E1; subst t. exact Hx.
      - rewrite (alookup_aupdate_other _ fkey_eqb_eq) in E2 by congruence. eapply ht_ext; [exact X2|]. eapply F0; eauto. }
    destruct (jp_record p); [apply mp_record|]; exact Q.
  Qed.

  Lemma able_nth ts i t : (fix all l := match l with [] => True | t :: l' => able t /\ all l' end) ts -> nth_error ts i = Some t -> able t.
  Proof. revert i. induction ts as [|t0 ts IH]; intros [|i] R E; cbn in E; try discriminate; [inversion E; subst; apply R|eapply IH; [apply R|exact E]]. Qed.
  Lemma able_vnth ts i t : (fix all l := match l with [] => True | t :: l' => (t = TMono \/ able t) /\ all l' end) ts -> nth_error ts i = Some t -> t = TMono \/ able t.
  Proof. revert i. induction ts as [|t0 ts IH]; intros [|i] R E; cbn in E; try discriminate; [inversion E; subst; apply R|eapply IH; [apply R|exact E]]. Qed.

  Lemma S_val_step f : S_val f -> S_cls f -> S_val (S f).
  Proof.
    intros SV SC t old j h R O Hd. rewrite pull_S.
    assert (MM: mpost h (mismatch t j old) (fun v h' => pulled t old v h')) by (apply mp_mismatch; apply pulled_old; exact O).
    assert (RT: forall v, ht h t v -> mpost h (ret v) (fun v h' => pulled t old v h')) by (intros v Hv; apply mp_ret; left; exact Hv).
    assert (RR: forall k x a, mpost h (let? _ := report k x a in ret old) (fun v h' => pulled t old v h')) by (intros; apply mp_report_ret; apply pulled_old; exact O).
    assert (SN: forall t' j' h', able t' -> docok j' -> mpost h' (pull G J f t' (vinit G t') j') (fun v h'' => ht h'' t' v)).
    { intros t' j' h' R' D'. assert (Ho := vinit_any t' h' R'). eapply mp_imp; [apply (SV t' _ j' h' R' (or_introl Ho) D')|]. intros v h2 X2 P2. eapply pulled_ht; eauto. }
    destruct t; cbn [pull_body]; cbn [pullable] in R; try contradiction.
    - destruct j; try exact MM. apply RT. constructor.
    - destruct (json_kind k) eqn:Ek.
      + destruct (is_number j) eqn:En; [|exact MM]. eapply mp_bind; [apply (mp_get_int k j h R Hd En)|]. intros z h' X Hz. apply mp_ret. left. constructor. exact Hz.
      + destruct R as [Rb Rk]. rewrite Rb. destruct (is_number j) eqn:En; [|exact MM]. eapply mp_bind; [apply (mp_get_int KI32 j h Rk Hd En)|]. intros z h' X Hz. apply mp_ret. left. constructor. apply wrap_range.
    - destruct Hd as [Hw _]. apply ew_here in Hw. destruct j; cbn [get_double]; try exact MM; apply RT; constructor; apply f32_of_f64_bound; [apply f64_of_Z_bound|]; exact Hw.
    - destruct Hd as [Hw _]. apply ew_here in Hw. destruct j; cbn [get_double]; try exact MM; apply RT; constructor; [apply f64_of_Z_bound|]; exact Hw.
    - destruct j; try exact MM. destruct (in_range _ _); [|exact MM]. apply RT. constructor. apply wrap_range.
    - destruct j; try exact MM. apply RT. constructor.
    - (* sequences *) destruct j as [ | | | | |js| ]; try exact MM.
      eapply mp_bind; [apply (mp_items _ (fun l h' => forall x, In x l -> ht h' t x))|].
      + intros l j' h' Hin X Hl. eapply mp_bind; [apply SN; [exact R|eapply doc_item; eauto]|]. intros x h2 X2 Hx. apply mp_ret.
        intros y Hy. apply in_app_or in Hy. destruct Hy as [Hy|[<-|[]]]; [eapply ht_ext; [exact X2|auto]|exact Hx].
      + intros x [].
      + intros l h' X Hl. apply mp_ret. left. constructor. exact Hl.
    - (* sets *) destruct R as [R Rr]. destruct j as [ | | | | |js| ]; try exact MM.
      eapply mp_bind; [apply (mp_items _ (fun l h' => forall x, In x l -> ht h' t x))|].
      + intros l j' h' Hin X Hl. eapply mp_bind; [apply (SV t _ j' h' R (dinit_ok t h' R)); eapply doc_item; eauto|]. intros x h2 X2 Px.
        destruct (is_undef x) eqn:Eu.
        * apply mp_ub. destruct cl; [|reflexivity]. specialize (Rr eq_refl). destruct x; try discriminate. destruct Px as [Hx|(_ & _ & Hx)]; [apply raw_undef in Hx|]; congruence.
        * assert (Hx: ht h2 t x) by (destruct Px as [Hx|(-> & _)]; [exact Hx|discriminate]).
          assert (Q: forall l' b, emplace G false ord multi t x l = (l', b) -> forall y, In y l' -> ht h2 t y).
          { intros l' b E y Hy. assert (Hy' : In y (fst (emplace G false ord multi t x l))) by (rewrite E; exact Hy).
            apply (emplace_in _ _ _ _ _ _ _ _ HP) in Hy'. destruct Hy' as [->|Hy']; [exact Hx|eapply ht_ext; [exact X2|auto]]. }
          destruct (emplace G false ord multi t x l) as [l' b] eqn:Ee. specialize (Q l' b eq_refl).
          destruct (multi || b); [apply mp_ret; exact Q|].
          eapply mp_bind; [apply (mp_unchecked h2 _ _ _ (fun _ h' => h' = h2)); reflexivity|]. intros _ h3 _ ->. apply mp_ret; exact Q.
      + intros x [].
      + intros l h' X Hl. apply mp_ret. left. constructor. exact Hl.
    - (* maps *) destruct R as [-> R].
      assert (exists olds, old = VList olds /\ (forall x, In x olds -> ht h (TPair TString t2) x)) as (olds & -> & Ho).
      { destruct O as [O|[O _]]; [|discriminate]. inversion O; subst; [discriminate|]. exists l. split; [reflexivity|]. intros x Hx. match goal with Q : forall x, In x l -> exists k v, x = VPair k v |- _ => destruct (Q x Hx) as (k & v & ->) end. constructor; eauto. }
      assert (Fin: forall l h', (forall x, In x l -> ht h' (TPair TString t2) x) -> ht h' (TMap ord multi TString t2) (VList l)).
      { intros l h' Hl. constructor.
        - intros x Hx. specialize (Hl x Hx). inversion Hl; subst; [discriminate|eauto].
        - intros k v Hx. specialize (Hl _ Hx). inversion Hl; subst. assumption.
        - intros k v Hx. specialize (Hl _ Hx). inversion Hl; subst. assumption. }
      assert (Ins: forall l h' h2 n x, (forall x, In x l -> ht h' (TPair TString t2) x) -> hext h' h2 -> ht h2 t2 x ->
         forall y, In y (fst (emplace G true ord multi TString (VPair (VStr n) x) l)) -> ht h2 (TPair TString t2) y).
      { intros l h' h2 n x Hl X2 Hx y Hy. apply (emplace_in _ _ _ _ _ _ _ _ HP) in Hy. destruct Hy as [->|Hy]; [constructor; [constructor|exact Hx]|eapply ht_ext; [exact X2|auto]]. }
      destruct multi; (destruct j as [ | | | | | |ms]; try exact MM).
      + eapply mp_bind; [apply (mp_fold _ (fun l h' => forall x, In x l -> ht h' (TPair TString t2) x)); [|exact Ho]|].
        * intros l [n j'] h' Hin X Hl. cbv zeta. assert (D' := doc_member _ _ _ Hd Hin).
          assert (One: mpost h' (let? x := pull G J f t2 (vinit G t2) j' in ret (fst (emplace G true ord true TString (VPair (VStr (cstr n)) x) l))) (fun l h' => forall x, In x l -> ht h' (TPair TString t2) x)).
          { eapply mp_bind; [apply SN; [exact R|exact D']|]. intros x h2 X2 Hx. apply mp_ret. intros y Hy. exact (Ins _ _ _ _ _ Hl X2 Hx y Hy). }
          destruct j' as [ | | | | |js| ]; try exact One.
          apply (mp_fold _ (fun l h' => forall x, In x l -> ht h' (TPair TString t2) x)); [|exact Hl].
          intros l2 j2 h3 Hin2 X3 Hl2. eapply mp_bind; [apply SN; [exact R|eapply doc_item; eauto]|]. intros x h2 X2 Hx. apply mp_ret. intros y Hy. exact (Ins _ _ _ _ _ Hl2 X2 Hx y Hy).
        * intros l h' X Hl. apply mp_ret. left. apply Fin; exact Hl.
      + eapply mp_bind; [apply (mp_fold _ (fun l h' => forall x, In x l -> ht h' (TPair TString t2) x)); [|exact Ho]|].
        * intros l [n j'] h' Hin X Hl. cbv zeta. assert (D' := doc_member _ _ _ Hd Hin).
          destruct (map_find G ord TString (VPair (VStr (cstr n)) VUndef) l) as [v|] eqn:Ef.
          -- assert (Hv: ht h' t2 v).
             { clear -Ef Hl. induction l as [|y l IH]; cbn [map_find] in Ef; [discriminate|]. destruct (same_key _ _ _ y _).
               - assert (Hy := Hl y (or_introl eq_refl)). inversion Hy; subst; try discriminate. inversion Ef; subst. assumption.
               - apply IH; [|exact Ef]. intros x Hx; apply Hl; right; exact Hx. }
             eapply mp_bind; [apply (SV t2 v j' h' R (or_introl Hv) D')|]. intros x h2 X2 Px. apply mp_ret. assert (Hx := pulled_ht _ _ _ _ _ X2 Hv Px).
             assert (Hl2: forall x, In x l -> ht h2 (TPair TString t2) x) by (intros y Hy; eapply ht_ext; [exact X2|auto]). clear -Hl2 Hx.
             induction l as [|y l IH]; cbn [map_put]; [intros y []|]. destruct (same_key _ _ _ y _).
             ++ assert (Hy := Hl2 y (or_introl eq_refl)). inversion Hy; subst; [discriminate|]. intros z [<-|Hz]; [constructor; assumption|apply Hl2; right; exact Hz].
             ++ intros z [<-|Hz]; [apply Hl2; left; reflexivity|]. apply IH; [|exact Hz]. intros w Hw; apply Hl2; right; exact Hw.
          -- eapply mp_bind; [apply SN; [exact R|exact D']|]. intros x h2 X2 Hx. apply mp_ret. intros y Hy. exact (Ins _ _ _ _ _ Hl X2 Hx y Hy).
        * intros l h' X Hl. apply mp_ret. left. apply Fin; exact Hl.
    - (* pair *) destruct R as [R1 R2]. destruct O as [O|[O _]]; [|discriminate]. 
      assert (exists a b, old = VPair a b /\ ht h t1 a /\ ht h t2 b) as (a & b & -> & H2 & H3) by (inversion O; subst; [discriminate|eauto]).
      destruct j as [ | | | | |js| ]; try exact MM. destruct (Nat.eqb_spec (length js) 2) as [E|E]; [|apply RR].
      destruct js as [|ja [|jb [|]]]; try discriminate. cbn [nth_error].
      eapply mp_bind; [apply (SV t1 a ja h R1 (or_introl H2)); eapply doc_item; [exact Hd|left; reflexivity]|]. intros x h1 X1 P1. assert (Hx := pulled_ht _ _ _ _ _ X1 H2 P1).
      assert (Hb := ht_ext _ _ _ _ X1 H3).
      eapply mp_bind; [apply (SV t2 b jb h1 R2 (or_introl Hb)); eapply doc_item; [exact Hd|right; left; reflexivity]|]. intros y h2 X2 P2. assert (Hy := pulled_ht _ _ _ _ _ X2 Hb P2).
      apply mp_ret. left. constructor; [eapply ht_ext; eauto|exact Hy].
    - (* tuple *) destruct R as [Rn R]. destruct ts as [|t0 ts]; [congruence|]. set (us := t0 :: ts) in *.
      destruct O as [O|[O _]]; [|discriminate].
      assert (exists l, old = VList l /\ length l = length us /\ (forall i t x, nth_error us i = Some t -> nth_error l i = Some x -> ht h t x)) as (l & -> & H2 & H3)
        by (inversion O; subst; [discriminate|eauto]).
      destruct j as [ | | | | |js| ]; try exact MM. destruct (Nat.eqb_spec (length js) (length us)) as [E|E]; [|apply RR].
      assert (Q: forall vs os js h, length os = length vs -> length js = length vs ->
         (forall i t, nth_error vs i = Some t -> able t) -> (forall j, In j js -> docok j) ->
         (forall i t x, nth_error vs i = Some t -> nth_error os i = Some x -> ht h t x) ->
         mpost h (pull_tuple (pull G J f) vs os js) (fun l' h' => length l' = length vs /\ forall i t x, nth_error vs i = Some t -> nth_error l' i = Some x -> ht h' t x)).
      { clear -SV. induction vs as [|v vs IH]; intros [|o os] [|j js] h L1 L2 HR HD HO; cbn in L1, L2; try discriminate; cbn [pull_tuple].
        - apply mp_ret. split; [reflexivity|]. intros [|i] t x E; discriminate.
        - assert (Ho: ht h v o) by (apply (HO 0 v o); reflexivity).
          eapply mp_bind; [apply (SV v o j h (HR 0 v eq_refl) (or_introl Ho)); apply HD; left; reflexivity|]. intros x h1 X1 P1. assert (Hx := pulled_ht _ _ _ _ _ X1 Ho P1).
          eapply mp_bind; [apply (IH os js h1); [lia|lia| | |]|].
          + intros i t E. apply (HR (S i) t E).
          + intros j' Hj. apply HD. right; exact Hj.
          + intros i t y E1 E2. eapply ht_ext; [exact X1|]. apply (HO (S i) t y E1 E2).
          + intros xs h2 X2 [Lx Hxs]. apply mp_ret. split; [cbn; lia|]. intros [|i] t y E1 E2; cbn in E1, E2.
            * inversion E1; inversion E2; subst. eapply ht_ext; eauto.
            * eapply Hxs; eauto. }
      eapply mp_bind; [apply (Q us l js h); auto|].
      + intros i t E1. apply (able_nth us i t); [exact R|exact E1].
      + intros j Hj. eapply doc_item; eauto.
      + intros l' h' X [L' Hl']. apply mp_ret. left. constructor; assumption.
    - (* unique *) assert (P: mpost h (let? x := pull G J f t (vinit G t) j in ret (VOpt (Some x))) (fun v h' => pulled (TUnique t) old v h')).
      { eapply mp_bind; [apply SN; assumption|]. intros x h1 X1 Hx. apply mp_ret. left. constructor. exact Hx. }
      destruct j; try exact P. apply RT. constructor.
    - (* optional *) assert (P: mpost h (let? x := pull G J f t (vinit G t) j in ret (VOpt (Some x))) (fun v h' => pulled (TOptional t) old v h')).
      { eapply mp_bind; [apply SN; assumption|]. intros x h1 X1 Hx. apply mp_ret. left. constructor. exact Hx. }
      destruct j; try exact P. apply RT. constructor.
    - (* shared *) assert (P: mpost h (let? a := in_new G t (pull G J f t (vinit G t) j) in ret (VShared (Some a))) (fun v h' => pulled (TShared t) old v h')).
      { eapply mp_bind; [apply mp_new; [exact R|]|]. { intros h1 X1. apply SN; assumption. } intros a h1 X1 Ha. apply mp_ret. left. constructor. exact Ha. }
      destruct j; try exact P. apply RT. constructor.
    - (* variant *) destruct R as [_ R]. destruct j as [ | | | | | |ms]; try exact MM.
      destruct (alookup _ _ ms) as [ji|]; [|apply RR]. destruct (alookup _ _ ms) as [jd|] eqn:Ed; [|apply RR].
      destruct ji as [ | |z| | | | ]; try apply RR. destruct (in_range KU64 z); [|apply RR].
      destruct (Z.to_N z <? N.of_nat (length ts))%N; [|apply RR]. destruct (nth_error ts (Z.to_nat z)) as [t'|] eqn:En; [|apply RR].
      assert (D' := doc_lookup _ _ _ Hd Ed).
      destruct (able_vnth _ _ _ R En) as [->|R']; [apply RT; econstructor; [exact En|constructor]|].
      assert (P: mpost h (let? x := pull G J f t' (vinit G t') jd in ret (VVar (Z.to_nat z) x)) (fun v h' => pulled (TVariant ts) old v h')).
      { eapply mp_bind; [apply SN; assumption|]. intros x h1 X1 Hx. apply mp_ret. left. econstructor; eauto. }
      destruct t'; try exact P. destruct R'.
    - (* class *) destruct R as (rc & p & Ec & Ep). destruct O as [O|[O _]]; [|discriminate]. 
      assert (exists fs, old = VObj fs /\ fieldsok G ud h (rc_layout rc) fs) as (fs & -> & H2).
      { inversion O; subst; [discriminate|]. exists fs. split; [reflexivity|]. match goal with Q : g_class G c = Some ?x |- _ => rewrite Ec in Q; inversion Q; subst x end. split; assumption. }
      destruct j as [ | | | | | |ms]; try exact MM.
      eapply mp_bind; [apply (SC c rc p (rc_layout rc) fs ms h Ec Ep (fun _ _ e => e)); [exact H2|exact Hd]|].
      intros os' h' X [K' F']. apply mp_ret. left. econstructor; eauto.
    - (* date *) eapply (mp_bind _ _ _ (fun _ h' => h' = h)).
      { destruct j; try (eapply mp_bind; [apply (mp_mismatch h _ _ _ (fun _ h' => h' = h)); reflexivity|intros _ h' _ ->; apply mp_ret; reflexivity]). apply mp_ret; reflexivity. }
      intros s h' _ ->. destruct (je_dt_parse J s) as [z|] eqn:Ez; [|apply RR]. apply RT. constructor. eapply HC; eauto.
    - (* time span *) eapply (mp_bind _ _ _ (fun _ h' => h' = h)).
      { destruct j; try (eapply mp_bind; [apply (mp_mismatch h _ _ _ (fun _ h' => h' = h)); reflexivity|intros _ h' _ ->; apply mp_ret; reflexivity]). apply mp_ret; reflexivity. }
      intros s h' _ ->. destruct (je_ts_parse J s) as [z|] eqn:Ez; [|apply RR]. apply RT. constructor. eapply HC; eauto.
    - destruct j; try exact MM. apply mp_ret. apply pulled_old; exact O.
    - destruct j; try exact MM. apply mp_ret. apply pulled_old; exact O.
  Qed.

  Lemma all_safe f : S_val f /\ S_cls f.
  Proof.
    induction f as [|f [IH1 IH2]].
    - split; repeat intro; cbn; exact I.
    - split; [apply S_val_step|apply S_cls_step]; assumption.
  Qed.
End Safe.
