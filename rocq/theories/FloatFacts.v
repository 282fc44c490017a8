(** FloatFacts.v -- conversions between floating point numbers and integers *)
From Coq Require Import List NArith ZArith Bool Lia Znumtheory.
From Verif Require Import Base Types TypesFacts Float.
Import ListNotations.
Local Open Scope N_scope.

Lemma rne_exact a sh : rne (a * 2 ^ sh) sh = a.
Proof.
  unfold rne. cbv zeta. assert (P: 2 ^ sh <> 0) by (apply N.pow_nonzero; discriminate).
  rewrite N.div_mul, N.mod_mul by exact P.
  assert (Z0: (2 ^ sh / 2 <? 0) = false) by (apply N.ltb_ge; apply N.le_0_l). rewrite Z0.
  destruct (0 =? 2 ^ sh / 2) eqn:E; [|reflexivity]. apply N.eqb_eq in E.
  destruct (sh =? 0) eqn:E2; [reflexivity|]. apply N.eqb_neq in E2. exfalso.
  assert (Q: 2 ^ 1 <= 2 ^ sh) by (apply N.pow_le_mono_r; lia).
  assert (1 <= 2 ^ sh / 2). { apply N.div_le_lower_bound; [lia|]. exact Q. } lia.
Qed.

(** the rounded quotient is one of the two neighbours *)
Lemma rne_bounds a sh : a / 2 ^ sh <= rne a sh <= a / 2 ^ sh + 1.
Proof. unfold rne. cbv zeta. destruct (_ || _); lia. Qed.

(** splitting and joining bit fields *)
Lemma split_div a b c : b < c -> (a * c + b) / c = a.
Proof. intros H. rewrite N.div_add_l by lia. rewrite N.div_small by exact H. lia. Qed.
Lemma split_mod a b c : b < c -> (a * c + b) mod c = b.
Proof. intros H. rewrite N.add_comm, N.mod_add by lia. apply N.mod_small; exact H. Qed.

Lemma f64_parts s e m : s < 2 -> e < 2 ^ 11 -> m < 2 ^ 52 ->
  let n := s * 2 ^ 63 + (e * 2 ^ 52 + m) in n / 2 ^ 63 = s /\ f64_exp n = e /\ f64_mant n = m /\ n < 2 ^ 64.
Proof.
  intros Hs He Hm n. unfold n. clear n.
  assert (B: e * 2 ^ 52 + m < 2 ^ 63). { change (2 ^ 63) with (2 ^ 11 * 2 ^ 52). change (2^11) with 2048 in *. nia. }
  split; [apply split_div; exact B|]. unfold f64_exp, f64_mant.
  replace (s * 2 ^ 63 + (e * 2 ^ 52 + m)) with ((s * 2 ^ 11 + e) * 2 ^ 52 + m) by (change (2 ^ 63) with (2 ^ 11 * 2 ^ 52); ring).
  split; [|split].
  - rewrite split_div by exact Hm. apply split_mod; exact He.
  - apply split_mod; exact Hm.
  - change (2 ^ 64) with (2 ^ 12 * 2 ^ 52). change (2 ^ 11) with 2048 in *. change (2 ^ 12) with 4096. nia.
Qed.

Lemma f32_split n : n < 2 ^ 32 -> n / 2 ^ 31 < 2 /\ f32_exp n < 256 /\ f32_mant n < 2 ^ 23
  /\ n = (n / 2 ^ 31) * 2 ^ 31 + (f32_exp n * 2 ^ 23 + f32_mant n).
Proof.
  intros H. unfold f32_exp, f32_mant. split; [apply N.div_lt_upper_bound; [lia|]; exact H|].
  split; [apply N.mod_lt; lia|]. split; [apply N.mod_lt; lia|].
  assert (E1 := N.div_mod n (2 ^ 23) ltac:(lia)).
  assert (E2 := N.div_mod (n / 2 ^ 23) (2 ^ 8) ltac:(lia)).
  rewrite N.div_div in E2 by lia. change (2 ^ 23 * 2 ^ 8) with (2 ^ 31) in E2.
  change (2 ^ 31) with (2 ^ 8 * 2 ^ 23) in *. nia.
Qed.

Lemma lor_set a k : N.testbit a k = true -> N.lor a (2 ^ k) = a.
Proof.
  intros H. apply N.bits_inj. intros i. rewrite N.lor_spec. destruct (N.eq_dec i k) as [->|Hi].
  - rewrite H. reflexivity.
  - rewrite N.pow2_bits_false by auto. apply orb_false_r.
Qed.
Lemma top_bit m k : 2 ^ k <= m < 2 ^ (k + 1) -> N.testbit m k = true.
Proof.
  intros [H1 H2]. assert (E: N.log2 m = k). { apply N.log2_unique; [lia|]. rewrite <- N.add_1_r. auto. }
  rewrite <- E. apply N.bit_log2. assert (2 ^ k <> 0) by (apply N.pow_nonzero; lia). lia.
Qed.

(** every float which is not a signalling NaN survives the conversion to double and back *)
Lemma f32_round_trip n : n < 2 ^ 32 -> f32_snan n = false -> f32_of_f64 (f64_of_f32 n) = n /\ f64_of_f32 n < 2 ^ 64.
Proof.
  intros H Hs. destruct (f32_split n H) as (S1 & S2 & S3 & S4). unfold f32_snan in Hs.
  unfold f64_of_f32. cbv zeta. revert S1 S2 S3 S4 Hs. generalize (n / 2 ^ 31) (f32_exp n) (f32_mant n). intros s e m S1 S2 S3 S4 Hs.
  destruct (N.eqb_spec e 255) as [E|E].
  - (* NaN and infinity *)
    subst e. set (y := if m =? 0 then 0 else N.lor (m * 2 ^ 29) (2 ^ 51)).
    assert (Y: y = m * 2 ^ 29). { unfold y. destruct (N.eqb_spec m 0) as [->|Hm]; [reflexivity|].
      cbn [N.eqb Pos.eqb negb andb] in Hs. apply N.ltb_ge in Hs.
      apply lor_set.
      replace 51 with (22 + 29) by reflexivity. rewrite N.mul_pow2_bits_add. apply top_bit. change (2 ^ (22 + 1)) with (2 ^ 23). lia. }
    rewrite Y. assert (B: m * 2 ^ 29 < 2 ^ 52). { change (2 ^ 52) with (2 ^ 23 * 2 ^ 29). apply N.mul_lt_mono_pos_r; [lia|exact S3]. }
    destruct (f64_parts s 2047 (m * 2 ^ 29) S1 ltac:(reflexivity) B) as (P1 & P2 & P3 & P4).
    split; [|exact P4]. unfold f32_of_f64. rewrite P1, P2, P3. cbn [N.eqb Pos.eqb].
    rewrite S4. f_equal. f_equal.
    destruct (N.eqb_spec (m * 2 ^ 29) 0) as [Z|Z]; [lia|]. rewrite N.div_mul by lia.
    destruct (N.eqb_spec m 0) as [->|Hm]; [lia|]. cbn [N.eqb Pos.eqb negb andb] in Hs. apply N.ltb_ge in Hs.
    apply lor_set. apply top_bit. change (2 ^ (22 + 1)) with (2 ^ 23). lia.
  - destruct (N.eqb_spec e 0) as [E0|E0].
    + subst e. destruct (N.eqb_spec m 0) as [->|Hm].
      * destruct (f64_parts s 0 0 S1 ltac:(reflexivity) ltac:(reflexivity)) as (P1 & P2 & P3 & P4). cbn [N.mul N.add] in P1, P2, P3, P4.
        split; [|exact P4]. unfold f32_of_f64. rewrite P1, P2, P3. rewrite S4. reflexivity.
      * cbv zeta. set (k := N.log2 m). assert (K := N.log2_spec m ltac:(lia)). fold k in K. destruct K as [K1 K2].
        assert (K3: k < 23). { destruct (N.lt_ge_cases k 23) as [L|L]; [exact L|]. exfalso.
          assert (2 ^ 23 <= 2 ^ k) by (apply N.pow_le_mono_r; lia). lia. }
        assert (PP: 2 ^ k * 2 ^ (52 - k) = 2 ^ 52). { rewrite <- N.pow_add_r. f_equal. lia. }
        assert (PQ: 2 ^ N.succ k * 2 ^ (52 - k) = 2 ^ 53). { rewrite <- N.pow_add_r. f_equal. lia. }
        assert (PS: 2 ^ (52 - k) <> 0) by (apply N.pow_nonzero; lia).
        assert (B1: 2 ^ 52 <= m * 2 ^ (52 - k)). { rewrite <- PP. apply N.mul_le_mono_r. exact K1. }
        assert (B2: m * 2 ^ (52 - k) < 2 ^ 53). { rewrite <- PQ. apply N.mul_lt_mono_pos_r; [lia|exact K2]. }
        assert (B3: m * 2 ^ (52 - k) - 2 ^ 52 < 2 ^ 52). { change (2 ^ 53) with (2 ^ 52 + 2 ^ 52) in B2. lia. }
        destruct (f64_parts s (k + 874) _ S1 ltac:(change (2 ^ 11) with 2048; lia) B3) as (P1 & P2 & P3 & P4).
        split; [|exact P4]. unfold f32_of_f64. rewrite P1, P2, P3.
        replace (k + 874 =? 2047) with false by (symmetry; apply N.eqb_neq; lia).
        replace (k + 874 =? 0) with false by (symmetry; apply N.eqb_neq; lia). cbv zeta.
        rewrite N.max_l by lia. replace (897 <=? k + 874) with false by (symmetry; apply N.leb_gt; lia).
        replace (926 - (k + 874)) with (52 - k) by lia.
        replace (2 ^ 52 + (m * 2 ^ (52 - k) - 2 ^ 52)) with (m * 2 ^ (52 - k)) by lia.
        rewrite rne_exact. replace (255 * 2 ^ 23 <=? m) with false by (symmetry; apply N.leb_gt; change (2^23) with 8388608 in *; lia).
        rewrite S4. change (2^23) with 8388608. lia.
    + assert (B: m * 2 ^ 29 < 2 ^ 52). { change (2 ^ 52) with (2 ^ 23 * 2 ^ 29). apply N.mul_lt_mono_pos_r; [lia|exact S3]. }
      destruct (f64_parts s (e + 896) _ S1 ltac:(change (2 ^ 11) with 2048; lia) B) as (P1 & P2 & P3 & P4).
      split; [|exact P4]. unfold f32_of_f64. rewrite P1, P2, P3.
      replace (e + 896 =? 2047) with false by (symmetry; apply N.eqb_neq; lia).
      replace (e + 896 =? 0) with false by (symmetry; apply N.eqb_neq; lia). cbv zeta.
      rewrite N.max_l by lia. replace (897 <=? e + 896) with true by (symmetry; apply N.leb_le; lia).
      replace (2 ^ 52 + m * 2 ^ 29) with ((2 ^ 23 + m) * 2 ^ 29) by (change (2 ^ 52) with (2 ^ 23 * 2 ^ 29); lia).
      rewrite rne_exact. change (2^23) with 8388608 in *.
      replace (255 * 8388608 <=? (e + 896 - 897) * 8388608 + (8388608 + m)) with false by (symmetry; apply N.leb_gt; nia).
      rewrite S4. nia.
Qed.

(** the integer nearest to [a] which a double can represent *)
Definition f64_nearest (a : N) : N :=
  if N.log2 a <=? 52 then a else rne a (N.log2 a - 52) * 2 ^ (N.log2 a - 52).

Lemma f64_nearest_small a : a < 2 ^ 53 -> f64_nearest a = a.
Proof.
  intros H. unfold f64_nearest. destruct (N.leb_spec (N.log2 a) 52) as [L|L]; [reflexivity|]. exfalso.
  destruct (N.eq_dec a 0) as [->|Ha]; [cbn in L; lia|]. destruct (N.log2_spec a ltac:(lia)) as [K _].
  assert (2 ^ 53 <= 2 ^ N.log2 a) by (apply N.pow_le_mono_r; lia). lia.
Qed.

Lemma f64_nearest_big a : 2 ^ 53 <= a -> 2 ^ N.log2 a <= f64_nearest a.
Proof.
  intros H. unfold f64_nearest. assert (K: 53 <= N.log2 a). { apply N.log2_le_pow2; lia. }
  replace (N.log2 a <=? 52) with false by (symmetry; apply N.leb_gt; lia).
  destruct (rne_bounds a (N.log2 a - 52)) as [R _]. destruct (N.log2_spec a ltac:(lia)) as [L _].
  set (k := N.log2 a) in *. assert (P: 2 ^ (k - 52) <> 0) by (apply N.pow_nonzero; lia).
  assert (E: 2 ^ k = 2 ^ 52 * 2 ^ (k - 52)). { rewrite <- N.pow_add_r. f_equal. lia. }
  rewrite E. apply N.mul_le_mono_r. etransitivity; [|exact R].
  apply N.div_le_lower_bound; [exact P|]. rewrite N.mul_comm. rewrite <- E. exact L.
Qed.

Lemma f64_of_Z_trunc z : (- 2 ^ 64 < z < 2 ^ 64)%Z ->
  f64_trunc (f64_of_Z z) = Some (Z.sgn z * Z.of_N (f64_nearest (Z.to_N (Z.abs z))))%Z /\ f64_of_Z z < 2 ^ 64.
Proof.
  intros Hz. set (a := Z.to_N (Z.abs z)). assert (Ea: Z.of_N a = Z.abs z) by (unfold a; rewrite Z2N.id; lia).
  unfold f64_of_Z. fold a. destruct (N.eqb_spec a 0) as [A0|A0].
  { rewrite A0. cbn. split; [|reflexivity]. assert (z = 0)%Z by lia. subst; reflexivity. }
  cbv zeta. set (k := N.log2 a). destruct (N.log2_spec a ltac:(lia)) as [K1 K2]. fold k in K1, K2.
  assert (K3: k < 64). { apply N.log2_lt_pow2; [lia|]. change (2 ^ 64) with 18446744073709551616. lia. }
  set (s := if (z <? 0)%Z then 1 else 0). 
  assert (Es: (if (z <? 0)%Z then 2 ^ 63 else 0) = s * 2 ^ 63) by (unfold s; destruct (z <? 0)%Z; reflexivity).
  assert (Hs: s < 2) by (unfold s; destruct (z <? 0)%Z; lia).
  assert (TR: forall e mm v, e < 2047 -> 1 <= e -> mm < 2 ^ 52 ->
      v = (if e <? 1075 then (2 ^ 52 + mm) / 2 ^ (1075 - e) else (2 ^ 52 + mm) * 2 ^ (e - 1075)) ->
      f64_trunc (s * 2 ^ 63 + (e * 2 ^ 52 + mm)) = Some (Z.sgn z * Z.of_N v)%Z /\ s * 2 ^ 63 + (e * 2 ^ 52 + mm) < 2 ^ 64).
  { intros e mm v He He1 Hm ->. destruct (f64_parts s e mm Hs ltac:(change (2 ^ 11) with 2048; lia) Hm) as (P1 & P2 & P3 & P4).
    split; [|exact P4]. unfold f64_trunc, f64_finite, f64_sign. rewrite P1, P2, P3.
    replace (e =? 2047) with false by (symmetry; apply N.eqb_neq; lia). cbn [negb].
    replace (e =? 0) with false by (symmetry; apply N.eqb_neq; lia). f_equal.
    unfold s. destruct (z <? 0)%Z eqn:Z0; cbn [N.eqb negb]; [apply Z.ltb_lt in Z0; rewrite Z.sgn_neg by lia|apply Z.ltb_ge in Z0; rewrite Z.sgn_pos by lia]; lia. }
  rewrite Es. unfold f64_nearest. fold k. destruct (N.leb_spec k 52) as [L|L].
  - assert (PP: 2 ^ k * 2 ^ (52 - k) = 2 ^ 52) by (rewrite <- N.pow_add_r; f_equal; lia).
    assert (PQ: 2 ^ N.succ k * 2 ^ (52 - k) = 2 ^ 53) by (rewrite <- N.pow_add_r; f_equal; lia).
    assert (PS: 2 ^ (52 - k) <> 0) by (apply N.pow_nonzero; lia).
    assert (B1: 2 ^ 52 <= a * 2 ^ (52 - k)). { rewrite <- PP. apply N.mul_le_mono_r. exact K1. }
    assert (B2: a * 2 ^ (52 - k) < 2 ^ 53). { rewrite <- PQ. apply N.mul_lt_mono_pos_r; [lia|exact K2]. }
    change (2 ^ 53) with (2 ^ 52 + 2 ^ 52) in B2.
    replace (s * 2 ^ 63 + (k + 1022) * 2 ^ 52 + a * 2 ^ (52 - k)) with (s * 2 ^ 63 + ((k + 1023) * 2 ^ 52 + (a * 2 ^ (52 - k) - 2 ^ 52))) by lia.
    apply TR; try lia. replace (2 ^ 52 + (a * 2 ^ (52 - k) - 2 ^ 52)) with (a * 2 ^ (52 - k)) by lia.
    destruct (N.ltb_spec (k + 1023) 1075) as [L2|L2].
    + replace (1075 - (k + 1023)) with (52 - k) by lia. rewrite N.div_mul by exact PS. reflexivity.
    + assert (k = 52) by lia. subst k. rewrite H. cbn. lia.
  - set (q := rne a (k - 52)). assert (PS: 2 ^ (k - 52) <> 0) by (apply N.pow_nonzero; lia).
    assert (E1: 2 ^ k = 2 ^ 52 * 2 ^ (k - 52)) by (rewrite <- N.pow_add_r; f_equal; lia).
    assert (E2: 2 ^ N.succ k = 2 ^ 53 * 2 ^ (k - 52)) by (rewrite <- N.pow_add_r; f_equal; lia).
    assert (Q: 2 ^ 52 <= q <= 2 ^ 53). { unfold q. destruct (rne_bounds a (k - 52)) as [R1 R2]. split.
      - etransitivity; [|exact R1]. apply N.div_le_lower_bound; [exact PS|]. rewrite N.mul_comm, <- E1. exact K1.
      - etransitivity; [exact R2|]. assert (a / 2 ^ (k - 52) < 2 ^ 53). { apply N.div_lt_upper_bound; [exact PS|]. rewrite N.mul_comm, <- E2. exact K2. } lia. }
    destruct (N.eq_dec q (2 ^ 53)) as [Eq|Eq].
    + replace (s * 2 ^ 63 + (k + 1022) * 2 ^ 52 + q) with (s * 2 ^ 63 + ((k + 1024) * 2 ^ 52 + 0)) by (rewrite Eq; change (2 ^ 53) with (2 * 2 ^ 52); lia).
      apply TR; try lia. replace (k + 1024 <? 1075) with false by (symmetry; apply N.ltb_ge; lia).
      replace (k + 1024 - 1075) with ((k - 52) + 1) by lia. rewrite N.add_0_r, N.pow_add_r, Eq. change (2 ^ 53) with (2 ^ 52 * 2 ^ 1). lia.
    + replace (s * 2 ^ 63 + (k + 1022) * 2 ^ 52 + q) with (s * 2 ^ 63 + ((k + 1023) * 2 ^ 52 + (q - 2 ^ 52))) by lia.
      apply TR; try lia.
      replace (k + 1023 <? 1075) with false by (symmetry; apply N.ltb_ge; lia).
      replace (k + 1023 - 1075) with (k - 52) by lia. f_equal. lia.
Qed.

(** an integer which does not fit is not turned into one which fits by the detour via double *)
Lemma f64_of_Z_out_of_range k z z' : in_range KI64 z = true \/ in_range KU64 z = true -> 
  k = KI32 \/ k = KU32 \/ k = KI64 \/ k = KU64 -> in_range k z = false ->
  f64_trunc (f64_of_Z z) = Some z' -> in_range k z' = false.
Proof.
  intros Hz Hk Ho Ht.
  assert (Rz: (- 2 ^ 63 <= z < 2 ^ 64)%Z). { destruct Hz as [Hz|Hz]; apply in_range_spec in Hz; unfold kmin, kmax in Hz; cbn in Hz; lia. }
  destruct (f64_of_Z_trunc z ltac:(lia)) as [E _]. rewrite E in Ht. inversion Ht as [Ez]; clear Ht E.
  set (a := Z.to_N (Z.abs z)) in *. assert (Ea: Z.of_N a = Z.abs z) by (unfold a; rewrite Z2N.id; lia).
  destruct (in_range k (Z.sgn z * Z.of_N (f64_nearest a))%Z) eqn:Hr; [|reflexivity]. exfalso.
  destruct (N.lt_ge_cases a (2 ^ 53)) as [L|L].
  - rewrite f64_nearest_small in Hr by exact L. replace (Z.sgn z * Z.of_N a)%Z with z in Hr by lia. congruence.
  - assert (B := f64_nearest_big a L). assert (K: 53 <= N.log2 a) by (apply N.log2_le_pow2; lia).
    assert (B53: 2 ^ 53 <= f64_nearest a). { etransitivity; [|exact B]. apply N.pow_le_mono_r; lia. }
    assert (B63: 2 ^ 63 <= a -> 2 ^ 63 <= f64_nearest a). { intros L2. etransitivity; [|exact B]. apply N.pow_le_mono_r; [lia|]. apply N.log2_le_pow2; lia. }
    apply in_range_spec in Hr.
    assert (Hn: ~ (kmin k <= z <= kmax k)%Z). { intros C. apply in_range_spec in C. congruence. }
    set (b := f64_nearest a) in *. clearbody b. change (2 ^ 53) with 9007199254740992 in *. change (2 ^ 63) with 9223372036854775808 in *.
    destruct Hk as [-> | [-> | [-> | ->]]]; unfold kmin, kmax in *; cbn in *.
    + destruct (Z.sgn_spec z) as [[? S]|[[? S]|[? S]]]; rewrite S in Hr; lia.
    + destruct (Z.sgn_spec z) as [[? S]|[[? S]|[? S]]]; rewrite S in Hr; lia.
    + destruct (Z.sgn_spec z) as [[? S]|[[? S]|[? S]]]; rewrite S in Hr; try lia.
    + destruct (Z.sgn_spec z) as [[? S]|[[? S]|[? S]]]; rewrite S in Hr; lia.
Qed.
