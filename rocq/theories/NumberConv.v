(** NumberConv.v -- conversions of integers to double, and between float and double (Float.v), with real numbers *)
From Coq Require Import List NArith ZArith Bool Reals Psatz.
From Flocq Require Import Core.
From Verif Require Import Base Float NumberSpec NumberFloat NumberReal.
Import ListNotations.
Local Open Scope list_scope.
Local Open Scope Z_scope.

Lemma pow_NZ s : Z.of_N (2 ^ s) = 2 ^ Z.of_N s.
Proof. apply N2Z.inj_pow. Qed.
Lemma bpow_N s : bpow radix2 (Z.of_N s) = IZR (Z.of_N (2 ^ s)).
Proof. rewrite pow_NZ, <- IZR_Zpower by lia. reflexivity. Qed.
(** [rne] is rounding to nearest, ties to even *)
Lemma rne_nearest a s : Z.of_N (rne a s) = ZnearestE (IZR (Z.of_N a) * bpow radix2 (- Z.of_N s)).
Proof.
  rewrite bpow_opp, bpow_N. set (P := (2 ^ s)%N). assert (P0 : (0 < P)%N) by (apply N.neq_0_lt_0; unfold P; apply N.pow_nonzero; discriminate).
  unfold rne. cbv zeta. fold P. assert (DM := N.div_mod a P ltac:(lia)). assert (RL := N.mod_lt a P ltac:(lia)). set (q := (a / P)%N) in *. set (r := (a mod P)%N) in *. clearbody q r.
  assert (PR : (0 < IZR (Z.of_N P))%R) by (apply IZR_lt; lia). set (x := (IZR (Z.of_N a) * / IZR (Z.of_N P))%R).
  assert (Ex : x = (IZR (Z.of_N q) + IZR (Z.of_N r) / IZR (Z.of_N P))%R). { unfold x. rewrite DM, N2Z.inj_add, N2Z.inj_mul, plus_IZR, mult_IZR. field. lra. }
  assert (R0 : (0 <= IZR (Z.of_N r) / IZR (Z.of_N P) < 1)%R). { split; [apply Rmult_le_pos; [apply IZR_le; lia|left; apply Rinv_0_lt_compat; exact PR]|]. apply Rmult_lt_reg_r with (IZR (Z.of_N P)); [exact PR|]. unfold Rdiv. rewrite Rmult_assoc, Rinv_l, Rmult_1_r, Rmult_1_l by lra. apply IZR_lt. lia. }
  assert (Fl : Zfloor x = Z.of_N q). { apply Zfloor_imp. rewrite plus_IZR, Ex. lra. }
  unfold Znearest. rewrite Fl. replace (x - IZR (Z.of_N q))%R with (IZR (Z.of_N r) / IZR (Z.of_N P))%R by (rewrite Ex; ring).
  assert (Ce : (0 < r)%N -> Zceil x = Z.of_N q + 1). { intros Hr. apply Zceil_imp. rewrite plus_IZR, Ex. replace (Z.of_N q + 1 - 1) with (Z.of_N q) by lia. assert (0 < IZR (Z.of_N r) / IZR (Z.of_N P))%R by (apply Rmult_lt_0_compat; [apply IZR_lt; lia|apply Rinv_0_lt_compat; exact PR]). lra. }
  assert (CM : Rcompare (IZR (Z.of_N r) / IZR (Z.of_N P)) (/ 2) = (2 * r ?= P)%N).
  { rewrite <- (Rcompare_mult_r (2 * IZR (Z.of_N P))) by lra. replace (IZR (Z.of_N r) / IZR (Z.of_N P) * (2 * IZR (Z.of_N P)))%R with (IZR (Z.of_N (2 * r))) by (rewrite N2Z.inj_mul, mult_IZR; cbn; field; lra). replace (/ 2 * (2 * IZR (Z.of_N P)))%R with (IZR (Z.of_N P)) by field. rewrite Rcompare_IZR. apply N2Z.inj_compare. }
  rewrite CM. destruct (N.eq_dec s 0) as [->|Hs].
  - change P with 1%N in *. assert (r = 0%N) by lia. subst r. cbn. reflexivity.
  - assert (EP : P = (2 * (P / 2))%N). { unfold P. replace s with (N.succ (s - 1)) by lia. rewrite N.pow_succ_r'. rewrite (N.mul_comm 2 (2 ^ (s - 1))) at 2. rewrite N.div_mul by discriminate. reflexivity. }
    set (h := (P / 2)%N) in *. clearbody h. rewrite (proj2 (N.eqb_neq s 0) Hs). cbn [negb]. rewrite andb_true_r. destruct (N.compare_spec (2 * r) P) as [E|L|G].
    + assert (r = h) by lia. subst r. rewrite N.ltb_irrefl, N.eqb_refl. cbn [orb andb]. rewrite Ce by lia. assert (EO : N.odd q = negb (Z.even (Z.of_N q))) by (destruct q as [|[| |]]; reflexivity). rewrite EO. destruct (Z.even (Z.of_N q)); cbn [negb]; lia.
    + destruct (N.ltb_spec h r); [lia|]. destruct (N.eqb_spec r h); [lia|]. reflexivity.
    + destruct (N.ltb_spec h r); [|lia]. cbn [orb]. rewrite Ce by lia. lia.
Qed.
(** a number with one bit more than [k] is rounded to 53 bits *)
Lemma RND_int a : (0 < a)%N -> (52 < N.log2 a)%N -> RND (IZR (Z.of_N a)) = (IZR (Z.of_N (rne a (N.log2 a - 52))) * bpow radix2 (Z.of_N (N.log2 a - 52)))%R.
Proof.
  intros A K. unfold RND, round, F2R. cbn [Fnum Fexp]. assert (M : mag radix2 (IZR (Z.of_N a)) = Z.of_N (N.log2 a) + 1 :> Z).
  { destruct (N.log2_spec a A) as [L1 L2]. apply mag_unique_pos. replace (Z.of_N (N.log2 a) + 1 - 1) with (Z.of_N (N.log2 a)) by lia. replace (Z.of_N (N.log2 a) + 1) with (Z.of_N (N.succ (N.log2 a))) by lia. rewrite !bpow_N. split; [apply IZR_le|apply IZR_lt]; lia. }
  assert (C : cexp radix2 fx (IZR (Z.of_N a)) = Z.of_N (N.log2 a - 52)) by (unfold cexp; rewrite M; unfold FLT_exp; lia). unfold scaled_mantissa. rewrite C. rewrite rne_nearest. reflexivity.
Qed.
Lemma value_pattern k r : (0 < k < 2047)%N -> (r < 2 ^ 52)%N -> f64_value (k * 2 ^ 52 + r) = (IZR (Z.of_N (2 ^ 52 + r)) * bpow radix2 (Z.of_N k - 1075))%R.
Proof.
  intros Hk Hr. destruct (pattern k r ltac:(lia) Hr) as (_ & E0 & M0 & S0 & _). rewrite value_F2R. unfold sig, ex. rewrite E0, M0, S0. destruct (N.eqb_spec k 0) as [E|_]; [lia|]. unfold F2R. cbn [Fnum Fexp]. rewrite N2Z.inj_add. reflexivity.
Qed.
Lemma of_N_value a : (0 < a < 2 ^ 64)%N -> let k := N.log2 a in let m := (if k <=? 52 then a * 2 ^ (52 - k) else rne a (k - 52))%N in
  exists e r, ((k + 1022) * 2 ^ 52 + m = e * 2 ^ 52 + r)%N /\ (0 < e < 2047)%N /\ (r < 2 ^ 52)%N /\ f64_value (e * 2 ^ 52 + r) = RND (IZR (Z.of_N a)).
Proof.
  intros [A0 A1] k m. destruct (N.log2_spec a A0) as [L1 L2]. fold k in L1, L2.
  assert (K : (k <= 63)%N). { unfold k. destruct (N.le_gt_cases (N.log2 a) 63) as [G|G]; [exact G|]. exfalso. assert (2 ^ 64 <= 2 ^ k)%N by (apply N.pow_le_mono_r; [discriminate|unfold k; lia]). lia. }
  assert (E52 : (2 ^ 52 = 4503599627370496)%N) by reflexivity. assert (E53 : (2 ^ 53 = 9007199254740992)%N) by reflexivity.
  assert (Hm : (2 ^ 52 <= m <= 2 ^ 53)%N /\ RND (IZR (Z.of_N a)) = (IZR (Z.of_N m) * bpow radix2 (Z.of_N k - 52))%R).
  { unfold m. destruct (N.leb_spec k 52) as [H|H].
    - assert (P1 : (2 ^ k * 2 ^ (52 - k) = 2 ^ 52)%N) by (rewrite <- N.pow_add_r; f_equal; lia). assert (P2 : (2 ^ N.succ k * 2 ^ (52 - k) = 2 ^ 53)%N) by (rewrite <- N.pow_add_r; f_equal; lia).
      assert (Q : (0 < 2 ^ (52 - k))%N) by (apply N.neq_0_lt_0, N.pow_nonzero; discriminate). split; [rewrite <- P1, <- P2; split; [apply N.mul_le_mono_r; exact L1|apply N.lt_le_incl, N.mul_lt_mono_pos_r; [exact Q|exact L2]]|].
      rewrite rnd_exact.
      + rewrite N2Z.inj_mul, mult_IZR, <- bpow_N, Rmult_assoc, <- bpow_plus. replace (Z.of_N (52 - k) + (Z.of_N k - 52)) with 0 by lia. cbn [bpow]. ring.
      + split; [lia|]. assert (S1 : (2 ^ N.succ k <= 2 ^ 53)%N) by (apply N.pow_le_mono_r; [discriminate|lia]). change (2 ^ 53) with (Z.of_N (2 ^ 53)). lia.
    - rewrite RND_int by (try exact A0; exact H). fold k. split; [|do 2 f_equal; lia]. unfold rne. cbv zeta. set (s := (k - 52)%N) in *. assert (PS : (2 ^ s <> 0)%N) by (apply N.pow_nonzero; discriminate).
      assert (P1 : (2 ^ s * 2 ^ 52 = 2 ^ k)%N) by (rewrite <- N.pow_add_r; f_equal; unfold s; lia). assert (P2 : (2 ^ s * 2 ^ 53 = 2 ^ N.succ k)%N) by (rewrite <- N.pow_add_r; f_equal; unfold s; lia).
      assert (Q1 : (2 ^ 52 <= a / 2 ^ s)%N) by (apply N.div_le_lower_bound; [exact PS|lia]). assert (Q2 : (a / 2 ^ s < 2 ^ 53)%N) by (apply N.div_lt_upper_bound; [exact PS|lia]).
      destruct ((2 ^ s / 2 <? a mod 2 ^ s)%N || (a mod 2 ^ s =? 2 ^ s / 2)%N && negb (s =? 0)%N && N.odd (a / 2 ^ s)); lia. }
  destruct Hm as [Hm Hv]. rewrite Hv. clearbody m. clear A1 L1 L2 Hv. rewrite E52, E53 in Hm.
  destruct (N.eq_dec m 9007199254740992) as [->|Hn].
  - exists (k + 1024)%N, 0%N. split; [rewrite E52; clearbody k; lia|]. split; [clearbody k; lia|]. split; [reflexivity|]. rewrite value_pattern by (try reflexivity; clearbody k; lia).
    replace (Z.of_N 9007199254740992) with (Z.of_N (2 ^ 52 + 0) * 2) by reflexivity. rewrite mult_IZR, Rmult_assoc. f_equal. replace (Z.of_N (k + 1024) - 1075) with (1 + (Z.of_N k - 52)) by lia. rewrite bpow_plus. reflexivity.
  - exists (k + 1023)%N, (m - 4503599627370496)%N. split; [rewrite E52; clearbody k; lia|]. split; [clearbody k; lia|]. split; [rewrite E52; lia|]. rewrite value_pattern by (try (rewrite E52; lia); clearbody k; lia).
    rewrite E52. replace (4503599627370496 + (m - 4503599627370496))%N with m by lia. do 2 f_equal. lia.
Qed.
Lemma of_Z_nearest z : - 2 ^ 64 < z < 2 ^ 64 -> nearest (IZR z) (f64_of_Z z).
Proof.
  intros Hz. unfold f64_of_Z. cbv zeta. destruct (N.eqb_spec (Z.to_N (Z.abs z)) 0) as [E|N].
  - assert (z = 0) by lia. subst z. apply value_nearest; [split; reflexivity|]. rewrite rnd_exact by lia. unfold f64_value. cbn. ring.
  - assert (A : (0 < Z.to_N (Z.abs z) < 2 ^ 64)%N) by (change (2 ^ 64)%N with (Z.to_N (2 ^ 64)); lia). assert (Q := of_N_value _ A). cbv zeta in Q. destruct Q as (e & r & E & He & Hr & V). rewrite <- N.add_assoc, E. rewrite Z2N.id in V by lia.
    destruct (pattern e r ltac:(lia) Hr) as (L & _ & _ & S0 & F0). destruct (Z.ltb_spec z 0) as [Z0|Z0].
    + destruct (neg_bits _ L F0 S0) as (D & _ & V2). apply value_nearest; [exact D|]. rewrite V2, V. replace (IZR z) with (- IZR (Z.abs z))%R by (rewrite Z.abs_neq, opp_IZR by lia; ring). unfold RND. rewrite round_NE_opp. reflexivity.
    + rewrite N.add_0_l. apply value_nearest; [split; [apply N.lt_trans with (1 := L); reflexivity|exact F0]|]. rewrite V. rewrite Z.abs_eq by lia. reflexivity.
Qed.
