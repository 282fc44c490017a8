(** NumberSingle.v -- floats (binary32): conversions from and to double (Float.v) in terms of real numbers *)
From Coq Require Import List NArith ZArith Bool Reals Psatz.
From Flocq Require Import Core.
From Verif Require Import Base Float FloatFacts JsonModel NumberSpec NumberFloat NumberReal NumberConv.
Import ListNotations.
Local Open Scope list_scope.
Local Open Scope Z_scope.

Notation fs := (FLT_exp (-149) 24).
Definition RNS (x : R) : R := round radix2 fs ZnearestE x.
Global Instance P24 : Prec_gt_0 24 := eq_refl _.

Definition sig32 (n : N) : Z := if (f32_exp n =? 0)%N then Z.of_N (f32_mant n) else (2 ^ 23 + Z.of_N (f32_mant n))%Z.
Definition ex32 (n : N) : Z := if (f32_exp n =? 0)%N then (-149)%Z else (Z.of_N (f32_exp n) - 150)%Z.
Lemma value32_F2R n : f32_value n = F2R (Float radix2 (if f32_sign n then - sig32 n else sig32 n) (ex32 n)).
Proof.
  unfold f32_value, sig32, ex32, F2R. destruct (f32_exp n =? 0)%N; cbn [Fnum Fexp]; rewrite powerRZ_bpow; destruct (f32_sign n); rewrite ?opp_IZR; ring.
Qed.
Lemma sig32_bound n : (0 <= sig32 n < 2 ^ 24) /\ (ex32 n = -149 \/ 2 ^ 23 <= sig32 n) /\ (-149 <= ex32 n).
Proof.
  unfold sig32, ex32. assert (M : (f32_mant n < 2 ^ 23)%N) by (apply N.mod_lt; discriminate). change (2 ^ 23)%N with 8388608%N in M. change (2 ^ 24) with 16777216. change (2 ^ 23) with 8388608.
  destruct (f32_exp n =? 0)%N eqn:E; [lia|]. apply N.eqb_neq in E. lia.
Qed.
Lemma value32_format n : generic_format radix2 fs (f32_value n).
Proof.
  rewrite value32_F2R. apply generic_format_FLT. destruct (sig32_bound n) as (B & _ & E). exists (Float radix2 (if f32_sign n then - sig32 n else sig32 n) (ex32 n)); [reflexivity| |exact E].
  cbn [Fnum]. change (radix2 ^ 24) with (2 ^ 24). destruct (f32_sign n); lia.
Qed.
Lemma sig32_even n : N.even n = Z.even (sig32 n).
Proof.
  assert (E : N.even n = N.even (f32_mant n)).
  { unfold f32_mant. rewrite (N.div_mod n (2 ^ 23)) at 1 by discriminate. rewrite N.even_add, N.even_mul. cbn [N.even]. replace (N.even (2 ^ 23)) with true by reflexivity. cbn [orb]. destruct (N.even (n mod 2 ^ 23)); reflexivity. }
  rewrite E. assert (Q : forall m, N.even m = Z.even (Z.of_N m)) by (intros [|[| |]]; reflexivity). unfold sig32. destruct (f32_exp n =? 0)%N; rewrite ?Z.even_add, Q; [reflexivity|]. replace (Z.even (2 ^ 23)) with true by reflexivity. destruct (Z.even (Z.of_N (f32_mant n))); reflexivity.
Qed.
Lemma sig32_canonical n : sig32 n <> 0 -> canonical radix2 fs (Float radix2 (if f32_sign n then - sig32 n else sig32 n) (ex32 n)).
Proof.
  intros Hn. destruct (sig32_bound n) as ((B0 & B1) & C & E). unfold canonical, cexp. cbn [Fexp].
  assert (A : Zdigits radix2 (if f32_sign n then - sig32 n else sig32 n) = Zdigits radix2 (sig32 n)) by (destruct (f32_sign n); [apply Zdigits_opp|reflexivity]).
  rewrite mag_F2R_Zdigits by (destruct (f32_sign n); lia). rewrite A. unfold FLT_exp.
  assert (D1 : (Zdigits radix2 (sig32 n) <= 24)%Z) by (apply Zdigits_le_Zpower; rewrite Z.abs_eq by exact B0; exact B1).
  destruct C as [C|C].
  - rewrite C. lia.
  - assert (D2 : (23 < Zdigits radix2 (sig32 n))%Z) by (apply (Zdigits_gt_Zpower radix2 23); rewrite Z.abs_eq by exact B0; exact C). lia.
Qed.
Lemma value_nearest_single x n : is_single n -> f32_value n = RNS x -> nearest_single x n.
Proof.
  intros D V. split; [exact D|]. intros n' D'. assert (NE : Rnd_NE_pt radix2 fs x (RNS x)) by (apply round_NE_pt; [apply FLT_exp_valid; reflexivity|apply exists_NE_FLT; right; reflexivity]).
  destruct NE as [[_ N] U]. rewrite V. assert (Q := N _ (value32_format n')). destruct (Rle_lt_or_eq_dec _ _ Q) as [L|E]; [left; exact L|right]. split; [exact E|].
  destruct (Req_dec (f32_value n') (RNS x)) as [E2|N2]; [left; exact E2|]. right. destruct U as [(g & Eg & Cg & Ev)|U].
  - rewrite sig32_even. destruct (Z.eq_dec (sig32 n) 0) as [->|N0]; [reflexivity|].
    assert (Eq : g = Float radix2 (if f32_sign n then - sig32 n else sig32 n) (ex32 n)).
    { apply (canonical_unique radix2 fs); [exact Cg|apply sig32_canonical; exact N0|]. rewrite <- Eg, <- V. apply value32_F2R. }
    subst g. cbn [Fnum] in Ev. destruct (f32_sign n); [rewrite Z.even_opp in Ev|]; exact Ev.
  - exfalso. apply N2. apply U. split; [apply value32_format|]. intros g Hg. rewrite <- E. apply N. exact Hg.
Qed.

(** patterns of floats *)
Lemma pattern32 s k r : (s < 2)%N -> (k < 255)%N -> (r < 2 ^ 23)%N -> let n := (s * 2 ^ 31 + (k * 2 ^ 23 + r))%N in
  is_single n /\ f32_value n = ((if (s =? 0)%N then 1 else -1) * (if (k =? 0)%N then IZR (Z.of_N r) * bpow radix2 (-149) else IZR (Z.of_N (2 ^ 23 + r)) * bpow radix2 (Z.of_N k - 150)))%R.
Proof.
  intros Hs Hk Hr n. assert (E31 : (2 ^ 31 = 256 * 2 ^ 23)%N) by reflexivity. assert (E8 : (2 ^ 8 = 256)%N) by reflexivity. assert (E23 : (2 ^ 23 <> 0)%N) by discriminate.
  assert (X : f32_exp n = k). { unfold f32_exp, n. rewrite E31, E8. replace (s * (256 * 2 ^ 23) + (k * 2 ^ 23 + r))%N with ((s * 256 + k) * 2 ^ 23 + r)%N by lia. rewrite split_div by exact Hr. rewrite N.add_comm, N.mod_add by discriminate. apply N.mod_small. lia. }
  assert (M : f32_mant n = r). { unfold f32_mant, n. rewrite E31. replace (s * (256 * 2 ^ 23) + (k * 2 ^ 23 + r))%N with ((s * 256 + k) * 2 ^ 23 + r)%N by lia. apply split_mod. exact Hr. }
  assert (L : (k * 2 ^ 23 + r < 2 ^ 31)%N) by (rewrite E31; nia). assert (S : (n / 2 ^ 31 = s)%N) by (unfold n; apply split_div; exact L).
  split; [split|].
  - unfold n. change (2 ^ 32)%N with (2 * 2 ^ 31)%N. nia.
  - unfold f32_finite. rewrite X. apply negb_true_iff, N.eqb_neq. lia.
  - unfold f32_value, f32_sign. rewrite X, M, S, !powerRZ_bpow. assert (S2 : (s = 0 \/ s = 1)%N) by lia. replace (2 ^ 23 + Z.of_N r) with (Z.of_N (2 ^ 23 + r)) by (rewrite N2Z.inj_add; reflexivity). destruct S2 as [-> | ->]; cbn [N.eqb negb]; destruct (k =? 0)%N; cbn [N.eqb Pos.eqb]; ring.
Qed.
(** a pattern below that of infinity, as a number *)
Lemma pattern_num s p : (s < 2)%N -> (p < 255 * 2 ^ 23)%N -> exists k r, p = (k * 2 ^ 23 + r)%N /\ (k < 255)%N /\ (r < 2 ^ 23)%N.
Proof.
  intros Hs Hp. exists (p / 2 ^ 23)%N, (p mod 2 ^ 23)%N. split; [rewrite N.mul_comm; apply N.div_mod; discriminate|]. split; [apply N.div_lt_upper_bound; [discriminate|lia]|apply N.mod_lt; discriminate].
Qed.

(** a double which is finite has the value M * 2^(e1 - 1075) *)
Lemma double_value n : f64_value n = ((if f64_sign n then -1 else 1) * (IZR (Z.of_N (if (f64_exp n =? 0)%N then f64_mant n else 2 ^ 52 + f64_mant n)) * bpow radix2 (Z.of_N (N.max (f64_exp n) 1) - 1075)))%R.
Proof.
  rewrite value_F2R. unfold sig, ex, F2R. cbn [Fnum Fexp]. destruct (N.eqb_spec (f64_exp n) 0) as [E|E].
  - rewrite E. change (Z.of_N (N.max 0 1) - 1075) with (-1074). destruct (f64_sign n); rewrite ?opp_IZR; ring.
  - rewrite N.max_l by lia. replace (2 ^ 52 + Z.of_N (f64_mant n)) with (Z.of_N (2 ^ 52 + f64_mant n)) by (rewrite N2Z.inj_add; reflexivity). destruct (f64_sign n); rewrite ?opp_IZR; ring.
Qed.
Definition single_part (e m : N) : N :=
  let M := (if e =? 0 then m else 2 ^ 52 + m)%N in
  let e1 := N.max e 1 in
  (if 897 <=? e1 then (e1 - 897) * 2 ^ 23 + rne M 29 else rne M (926 - e1))%N.
Lemma RNS_at x c : cexp radix2 fs x = c -> RNS x = (IZR (ZnearestE (x * bpow radix2 (- c))) * bpow radix2 c)%R.
Proof. intros C. unfold RNS, round, scaled_mantissa, F2R. cbn [Fnum Fexp]. rewrite C. reflexivity. Qed.
Lemma rne_range M s b : (0 < s)%N -> (M < 2 ^ (b + s))%N -> (rne M s <= 2 ^ b)%N.
Proof.
  intros Hs HM. destruct (rne_bounds M s) as [_ H]. assert (P : (2 ^ s <> 0)%N) by (apply N.pow_nonzero; discriminate). assert (Q : (M / 2 ^ s < 2 ^ b)%N) by (apply N.div_lt_upper_bound; [exact P|]; rewrite <- N.pow_add_r, N.add_comm; exact HM). lia.
Qed.
Lemma rne_low M s b : (2 ^ (b + s) <= M)%N -> (2 ^ b <= rne M s)%N.
Proof.
  intros HM. destruct (rne_bounds M s) as [H _]. assert (P : (2 ^ s <> 0)%N) by (apply N.pow_nonzero; discriminate). assert (Q : (2 ^ b <= M / 2 ^ s)%N) by (apply N.div_le_lower_bound; [exact P|]; rewrite <- N.pow_add_r, N.add_comm; exact HM). lia.
Qed.
(** the value of a float pattern, computed from a mantissa of 24 bits (or 2^24) and an exponent *)
Lemma pattern_scaled s c q : (s < 2)%N -> (2 ^ 23 <= q <= 2 ^ 24)%N -> (c * 2 ^ 23 + q < 255 * 2 ^ 23)%N ->
  is_single (s * 2 ^ 31 + (c * 2 ^ 23 + q)) /\ f32_value (s * 2 ^ 31 + (c * 2 ^ 23 + q)) = ((if (s =? 0)%N then 1 else -1) * (IZR (Z.of_N q) * bpow radix2 (Z.of_N c - 149)))%R.
Proof.
  intros Hs Hq HL. assert (E23 : (2 ^ 23 = 8388608)%N) by reflexivity. assert (E24 : (2 ^ 24 = 16777216)%N) by reflexivity. rewrite E23, E24 in Hq. rewrite E23 in HL. destruct (N.eq_dec q 16777216) as [->|Hn].
  - replace (c * 2 ^ 23 + 16777216)%N with ((c + 2) * 2 ^ 23 + 0)%N by (rewrite E23; lia). destruct (pattern32 s (c + 2) 0 Hs ltac:(lia) ltac:(reflexivity)) as [D V]. split; [exact D|]. rewrite V. destruct (N.eqb_spec (c + 2) 0); [lia|]. f_equal.
    replace (Z.of_N (c + 2) - 150) with (1 + (Z.of_N c - 149)) by lia. rewrite bpow_plus. rewrite <- Rmult_assoc. f_equal. change (bpow radix2 1) with (IZR 2). rewrite <- mult_IZR. reflexivity.
  - replace (c * 2 ^ 23 + q)%N with ((c + 1) * 2 ^ 23 + (q - 8388608))%N by (rewrite E23; lia). destruct (pattern32 s (c + 1) (q - 8388608) Hs ltac:(lia) ltac:(rewrite E23; lia)) as [D V]. split; [exact D|]. rewrite V. destruct (N.eqb_spec (c + 1) 0); [lia|]. f_equal.
    rewrite E23. replace (8388608 + (q - 8388608))%N with q by lia. do 2 f_equal. lia.
Qed.
Lemma mag_at a k : (2 ^ k <= a < 2 ^ N.succ k)%N -> forall c, mag radix2 (IZR (Z.of_N a) * bpow radix2 c) = Z.of_N k + 1 + c :> Z.
Proof.
  intros H c. rewrite mag_mult_bpow.
  - f_equal. apply mag_unique_pos. replace (Z.of_N k + 1 - 1) with (Z.of_N k) by lia. replace (Z.of_N k + 1) with (Z.of_N (N.succ k)) by lia. rewrite !bpow_N. split; [apply IZR_le|apply IZR_lt]; lia.
  - apply Rgt_not_eq. apply IZR_lt. assert (2 ^ k <> 0)%N by (apply N.pow_nonzero; discriminate). lia.
Qed.
Lemma single_value s e m : (s < 2)%N -> (e < 2047)%N -> (m < 2 ^ 52)%N -> (single_part e m < 255 * 2 ^ 23)%N ->
  let x := (IZR (Z.of_N (if (e =? 0)%N then m else 2 ^ 52 + m)) * bpow radix2 (Z.of_N (N.max e 1) - 1075))%R in
  is_single (s * 2 ^ 31 + single_part e m) /\ f32_value (s * 2 ^ 31 + single_part e m) = ((if (s =? 0)%N then 1 else -1) * RNS x)%R.
Proof.
  intros Hs He Hm HP x. unfold single_part in *. cbv zeta in *. set (M := (if (e =? 0)%N then m else 2 ^ 52 + m)%N) in *. set (e1 := N.max e 1) in *.
  assert (HM : (M < 2 ^ 53)%N) by (unfold M; change (2 ^ 53)%N with (2 * 2 ^ 52)%N; destruct (e =? 0)%N; lia).
  destruct (N.leb_spec 897 e1) as [L|L].
  - assert (Me : (2 ^ 52 <= M)%N) by (unfold M; destruct (N.eqb_spec e 0) as [E|E]; [unfold e1 in L; lia|lia]).
    assert (C : cexp radix2 fs x = Z.of_N e1 - 1046). { unfold cexp, x. rewrite (mag_at M 52 (conj Me HM)). unfold FLT_exp. lia. }
    assert (ER : RNS x = (IZR (Z.of_N (rne M 29)) * bpow radix2 (Z.of_N e1 - 1046))%R).
    { rewrite (RNS_at x (Z.of_N e1 - 1046)) by auto. rewrite rne_nearest. unfold x. rewrite Rmult_assoc, <- bpow_plus. do 5 f_equal. lia. }
    rewrite ER. destruct (pattern_scaled s (e1 - 897) (rne M 29) Hs) as [D V]; [split; [apply (rne_low M 29 23); exact Me|apply (rne_range M 29 24); [reflexivity|exact HM]]|exact HP|].
    split; [exact D|]. rewrite V. do 3 f_equal. lia.
  - assert (C : M <> 0%N -> cexp radix2 fs x = -149).
    { intros M0. unfold cexp, x. assert (H0 : (0 < M)%N) by lia. destruct (N.log2_spec M H0) as [L1 L2]. rewrite (mag_at M (N.log2 M) (conj L1 L2)). unfold FLT_exp. assert (LM : (N.log2 M <= 52)%N) by (apply N.lt_succ_r; apply N.log2_lt_pow2; [exact H0|exact HM]). lia. }
    set (q := rne M (926 - e1)) in *. assert (ER : RNS x = (IZR (Z.of_N q) * bpow radix2 (-149))%R).
    { destruct (N.eq_dec M 0) as [M0|M0].
      - unfold x, q. rewrite M0. cbn [Z.of_N]. rewrite Rmult_0_l. unfold RNS. rewrite round_0 by apply valid_rnd_N. unfold rne. cbv zeta. rewrite N.div_0_l, N.mod_0_l by (apply N.pow_nonzero; discriminate).
        destruct (N.ltb_spec (2 ^ (926 - e1) / 2) 0); [exfalso; eapply N.nlt_0_r; eassumption|]. cbn [orb N.odd]. rewrite andb_false_r. cbn. ring.
      - rewrite (RNS_at x (-149)) by auto. unfold q. rewrite rne_nearest. unfold x. rewrite Rmult_assoc, <- bpow_plus. do 5 f_equal. lia. }
    assert (Q : (q <= 2 ^ 23)%N). { apply rne_range; [lia|]. apply N.lt_le_trans with (1 := HM). apply N.pow_le_mono_r; [discriminate|lia]. }
    rewrite ER. assert (E23 : (2 ^ 23 = 8388608)%N) by reflexivity. destruct (N.eq_dec q (2 ^ 23)) as [->|Hq].
    + destruct (pattern_scaled s 0 (2 ^ 23) Hs ltac:(split; discriminate) ltac:(reflexivity)) as [D V]. split; [exact D|exact V].
    + destruct (pattern32 s 0 q Hs ltac:(reflexivity) ltac:(lia)) as [D V]. split; [exact D|]. exact V.
Qed.
(** the threshold from which on the result is infinity *)
Lemma single_finite n : f64_finite n = true -> (Rabs (f64_value n) < IZR (2 ^ 128 - 2 ^ 103))%R -> (single_part (f64_exp n) (f64_mant n) < 255 * 2 ^ 23)%N.
Proof.
  intros F H. set (e := f64_exp n) in *. set (m := f64_mant n) in *. destruct (N.lt_ge_cases (single_part e m) (255 * 2 ^ 23)) as [G|G]; [exact G|]. exfalso.
  assert (Hm : (m < 2 ^ 52)%N) by (apply N.mod_lt; discriminate). assert (V := double_value n). fold e m in V. unfold single_part in G. cbv zeta in G. set (M := (if (e =? 0)%N then m else 2 ^ 52 + m)%N) in *. set (e1 := N.max e 1) in *.
  assert (HM : (M < 2 ^ 53)%N) by (unfold M; change (2 ^ 53)%N with (2 * 2 ^ 52)%N; destruct (e =? 0)%N; lia).
  assert (AV : Rabs (f64_value n) = (IZR (Z.of_N M) * bpow radix2 (Z.of_N e1 - 1075))%R).
  { rewrite V, Rabs_mult. rewrite (Rabs_pos_eq (IZR (Z.of_N M) * _)) by (apply Rmult_le_pos; [apply IZR_le; lia|apply bpow_ge_0]). destruct (f64_sign n); [rewrite Rabs_left by lra|rewrite Rabs_R1]; ring. }
  rewrite AV in H. clear AV V. destruct (N.leb_spec 897 e1) as [L|L].
  - assert (R1 := rne_range M 29 24 ltac:(reflexivity) HM). destruct (N.le_gt_cases e1 1150) as [A|A].
    + assert (Ee : (e1 = 1150 \/ e1 < 1150)%N) by (clear - A; clearbody e1; lia). destruct Ee as [Ee|Ee]; [|exfalso; clear - R1 G Ee L; change (2 ^ 24)%N with 16777216%N in R1; change (255 * 2 ^ 23)%N with 2139095040%N in G; change (2 ^ 23)%N with 8388608%N in G; set (q := rne M 29) in *; clearbody q e1; lia].
      rewrite Ee in G, H. assert (R2 : (rne M 29 = 2 ^ 24)%N) by (change (2 ^ 24)%N with 16777216%N in *; change (2 ^ 23)%N with 8388608%N in G; lia).
      assert (ML : (2 ^ 53 - 2 ^ 28 <= M)%N).
      { unfold rne in R2. cbv zeta in R2. assert (DM := N.div_mod M (2 ^ 29) ltac:(discriminate)). assert (Q : (M / 2 ^ 29 < 2 ^ 24)%N) by (apply N.div_lt_upper_bound; [discriminate|exact HM]). change (2 ^ 29 / 2)%N with 268435456%N in R2. change (2 ^ 24)%N with 16777216%N in *. change (2 ^ 29)%N with 536870912%N in *. change (2 ^ 53 - 2 ^ 28)%N with 9007198986305536%N.
        set (q := (M / 536870912)%N) in *. set (r := (M mod 536870912)%N) in *. clearbody q r. clear - R2 DM Q. destruct (N.ltb_spec 268435456 r) as [A1|A1]; [cbn [orb] in R2; lia|]. destruct (N.eqb_spec r 268435456) as [A2|A2]; cbn [orb andb] in R2; [destruct (negb (29 =? 0)%N && N.odd q); lia|lia]. }
      revert H. apply Rle_not_lt. change (Z.of_N 1150 - 1075) with 75. replace (2 ^ 128 - 2 ^ 103) with ((2 ^ 53 - 2 ^ 28) * 2 ^ 75) by reflexivity. rewrite mult_IZR. apply Rmult_le_compat; [apply IZR_le; discriminate|apply IZR_le; discriminate|apply IZR_le|].
      * change (2 ^ 53 - 2 ^ 28) with (Z.of_N (2 ^ 53 - 2 ^ 28)). lia.
      * rewrite <- IZR_Zpower by discriminate. apply Rle_refl.
    + assert (Me : (2 ^ 52 <= M)%N) by (unfold M; destruct (N.eqb_spec e 0) as [E|E]; [unfold e1 in L; lia|lia]).
      revert H. apply Rle_not_lt. apply Rle_trans with (IZR (2 ^ 52) * bpow radix2 76)%R; [rewrite <- IZR_Zpower by discriminate; rewrite <- mult_IZR; apply IZR_le; vm_compute; discriminate|].
      apply Rmult_le_compat; [apply IZR_le; discriminate|apply bpow_ge_0|apply IZR_le; change (2 ^ 52) with (Z.of_N (2 ^ 52)); lia|apply bpow_le; lia].
  - assert (Q : (rne M (926 - e1) <= 2 ^ 23)%N). { apply rne_range; [lia|]. apply N.lt_le_trans with (1 := HM). apply N.pow_le_mono_r; [discriminate|lia]. } change (2 ^ 23)%N with 8388608%N in *. lia.
Qed.
Lemma of_double_nearest n : is_double n -> (Rabs (f64_value n) < IZR (2 ^ 128 - 2 ^ 103))%R -> nearest_single (f64_value n) (f32_of_f64 n).
Proof.
  intros [D F] H. assert (HP := single_finite n F H). assert (E : f32_of_f64 n = (n / 2 ^ 63 * 2 ^ 31 + single_part (f64_exp n) (f64_mant n))%N).
  { unfold f32_of_f64. cbv zeta. f_equal. unfold f64_finite in F. apply negb_true_iff in F. rewrite F. fold (single_part (f64_exp n) (f64_mant n)). change (if (897 <=? N.max (f64_exp n) 1)%N then _ else _) with (single_part (f64_exp n) (f64_mant n)). destruct (N.leb_spec (255 * 2 ^ 23) (single_part (f64_exp n) (f64_mant n))); [lia|reflexivity]. }
  assert (Hs : (n / 2 ^ 63 < 2)%N) by (apply N.div_lt_upper_bound; [discriminate|exact D]). assert (He : (f64_exp n < 2047)%N). { unfold f64_finite in F. apply negb_true_iff, N.eqb_neq in F. assert (f64_exp n < 2 ^ 11)%N by (apply N.mod_lt; discriminate). change (2 ^ 11)%N with 2048%N in *. lia. }
  assert (Hm : (f64_mant n < 2 ^ 52)%N) by (apply N.mod_lt; discriminate). assert (Q := single_value _ _ _ Hs He Hm HP). cbv zeta in Q. rewrite <- E in Q. destruct Q as [S V].
  apply value_nearest_single; [exact S|]. rewrite V, double_value. unfold f64_sign. set (y := (IZR _ * bpow radix2 _)%R). destruct (N.eqb_spec (n / 2 ^ 63) 0); cbn [negb]; [rewrite !Rmult_1_l; reflexivity|]. replace (-1 * y)%R with (- y)%R by ring. unfold RNS. rewrite round_NE_opp. ring.
Qed.

(** doubles as sign and pattern *)
Lemma signed_pattern s k r : (s < 2)%N -> (k < 2047)%N -> (r < 2 ^ 52)%N -> is_double (s * 2 ^ 63 + (k * 2 ^ 52 + r)) /\
  f64_value (s * 2 ^ 63 + (k * 2 ^ 52 + r)) = ((if (s =? 0)%N then 1 else -1) * (if (k =? 0)%N then IZR (Z.of_N r) * bpow radix2 (-1074) else IZR (Z.of_N (2 ^ 52 + r)) * bpow radix2 (Z.of_N k - 1075)))%R.
Proof.
  intros Hs Hk Hr. destruct (pattern k r Hk Hr) as (L & E0 & M0 & S0 & F0). assert (V0 : f64_value (k * 2 ^ 52 + r) = (if (k =? 0)%N then IZR (Z.of_N r) * bpow radix2 (-1074) else IZR (Z.of_N (2 ^ 52 + r)) * bpow radix2 (Z.of_N k - 1075))%R).
  { rewrite value_F2R. unfold sig, ex. rewrite E0, M0, S0. unfold F2R. destruct (k =? 0)%N; cbn [Fnum Fexp]; [reflexivity|]. rewrite N2Z.inj_add. reflexivity. }
  assert (S2 : (s = 0 \/ s = 1)%N) by lia. destruct S2 as [-> | ->].
  - rewrite N.mul_0_l, N.add_0_l. split; [split; [apply N.lt_trans with (1 := L); reflexivity|exact F0]|]. rewrite V0. cbn [N.eqb]. ring.
  - rewrite N.mul_1_l. destruct (neg_bits _ L F0 S0) as (D & _ & V). split; [exact D|]. rewrite V, V0. cbn [N.eqb]. ring.
Qed.
Lemma of_single_exact n : is_single n -> is_double (f64_of_f32 n) /\ f64_value (f64_of_f32 n) = f32_value n.
Proof.
  intros [D F]. destruct (f32_split n D) as (Hs & He & Hm & En). unfold f32_finite in F. apply negb_true_iff, N.eqb_neq in F.
  destruct (pattern32 (n / 2 ^ 31) (f32_exp n) (f32_mant n) Hs ltac:(lia) Hm) as [_ V]. cbv zeta in V. rewrite <- En in V. rewrite V. clear V En D. unfold f64_of_f32. cbv zeta.
  revert Hs He Hm F. generalize (n / 2 ^ 31)%N (f32_exp n) (f32_mant n). clear n. intros s e m Hs He Hm F. destruct (N.eqb_spec e 255); [lia|]. destruct (N.eqb_spec e 0) as [->|E0].
  - destruct (N.eqb_spec m 0) as [->|M0].
    + replace (s * 2 ^ 63 + 0)%N with (s * 2 ^ 63 + (0 * 2 ^ 52 + 0))%N by reflexivity. destruct (signed_pattern s 0 0 Hs ltac:(reflexivity) ltac:(reflexivity)) as [D V]. split; [exact D|]. rewrite V. cbn [N.eqb Z.of_N]. ring.
    + set (k := N.log2 m). assert (m0 : (0 < m)%N) by lia. destruct (N.log2_spec m m0) as [L1 L2]. fold k in L1, L2. assert (K : (k < 23)%N) by (apply N.log2_lt_pow2; assumption).
      assert (P1 : (2 ^ k * 2 ^ (52 - k) = 2 ^ 52)%N) by (rewrite <- N.pow_add_r; f_equal; lia). assert (P2 : (2 ^ N.succ k * 2 ^ (52 - k) = 2 ^ 53)%N) by (rewrite <- N.pow_add_r; f_equal; lia).
      assert (Q : (0 < 2 ^ (52 - k))%N) by (apply N.neq_0_lt_0, N.pow_nonzero; discriminate). assert (B1 : (2 ^ 52 <= m * 2 ^ (52 - k))%N) by (rewrite <- P1; apply N.mul_le_mono_r; exact L1). assert (B2 : (m * 2 ^ (52 - k) < 2 ^ 53)%N) by (rewrite <- P2; apply N.mul_lt_mono_pos_r; [exact Q|exact L2]).
      set (w := (m * 2 ^ (52 - k))%N) in *. assert (W : (w - 2 ^ 52 < 2 ^ 52)%N) by (change (2 ^ 53)%N with (2 * 2 ^ 52)%N in B2; lia).
      destruct (signed_pattern s (k + 874) (w - 2 ^ 52) Hs ltac:(clearbody k; lia) W) as [D V]. split; [exact D|]. rewrite V. destruct (N.eqb_spec (k + 874) 0) as [Z|_]; [clearbody k; lia|]. f_equal.
      replace (2 ^ 52 + (w - 2 ^ 52))%N with w by lia. unfold w. rewrite N2Z.inj_mul, mult_IZR, <- bpow_N, Rmult_assoc, <- bpow_plus. do 2 f_equal. clearbody k. lia.
  - assert (W : (m * 2 ^ 29 < 2 ^ 52)%N) by (change (2 ^ 52)%N with (2 ^ 23 * 2 ^ 29)%N; apply N.mul_lt_mono_pos_r; [reflexivity|exact Hm]). destruct (signed_pattern s (e + 896) (m * 2 ^ 29) Hs ltac:(lia) W) as [D V]. split; [exact D|]. rewrite V. destruct (N.eqb_spec (e + 896) 0) as [Z|_]; [lia|]. f_equal.
    replace (2 ^ 52 + m * 2 ^ 29)%N with ((2 ^ 23 + m) * 2 ^ 29)%N by (rewrite N.mul_add_distr_r; reflexivity). rewrite N2Z.inj_mul, mult_IZR, <- bpow_N, Rmult_assoc, <- bpow_plus. do 2 f_equal. lia.
Qed.

(** the range accepted by [is_float] *)
Lemma in_range_float n : is_double n -> JsonModel.is_float n = true -> (Rabs (f64_value n) < IZR (2 ^ 128 - 2 ^ 103))%R.
Proof.
  intros [D F] H. unfold JsonModel.is_float in H. apply N.leb_le in H. set (e := f64_exp n). set (m := f64_mant n). assert (Hm : (m < 2 ^ 52)%N) by (apply N.mod_lt; discriminate).
  assert (E : (n mod 2 ^ 63 = e * 2 ^ 52 + m)%N).
  { unfold e, m, f64_exp, f64_mant. assert (DM := N.div_mod n (2 ^ 52) ltac:(discriminate)). change (2 ^ 63)%N with (2 ^ 52 * 2 ^ 11)%N. rewrite N.mod_mul_r by discriminate. lia. }
  rewrite E in H. assert (V := double_value n). fold e m in V. set (M := (if (e =? 0)%N then m else 2 ^ 52 + m)%N) in *. set (e1 := N.max e 1) in *.
  assert (AV : Rabs (f64_value n) = (IZR (Z.of_N M) * bpow radix2 (Z.of_N e1 - 1075))%R).
  { rewrite V, Rabs_mult. rewrite (Rabs_pos_eq (IZR (Z.of_N M) * _)) by (apply Rmult_le_pos; [apply IZR_le; lia|apply bpow_ge_0]). destruct (f64_sign n); [rewrite Rabs_left by lra|rewrite Rabs_R1]; ring. }
  rewrite AV. clear AV V E F D. change (2 ^ 52)%N with 4503599627370496%N in *. assert (HM : (M < 9007199254740992)%N) by (unfold M; destruct (e =? 0)%N; lia).
  assert (He : (e <= 1150)%N) by (clear - H; clearbody e m; lia).
  destruct (N.eq_dec e 1150) as [Ee|Ne].
  - assert (e1 = 1150%N) as -> by (unfold e1; rewrite Ee; reflexivity). assert (ML : (M <= 9007198986305535)%N) by (unfold M; rewrite Ee in *; cbn [N.eqb]; clear - H; clearbody m; lia). change (Z.of_N 1150 - 1075) with 75. replace (2 ^ 128 - 2 ^ 103) with ((2 ^ 53 - 2 ^ 28) * 2 ^ 75) by reflexivity. rewrite mult_IZR.
    rewrite <- IZR_Zpower by discriminate. change (radix_val radix2) with 2. apply Rmult_lt_compat_r; [apply IZR_lt; reflexivity|]. apply IZR_lt. change (2 ^ 53 - 2 ^ 28) with 9007198986305536. clear - ML. clearbody M. lia.
  - apply Rlt_trans with (IZR 9007199254740992 * bpow radix2 (Z.of_N e1 - 1075))%R; [apply Rmult_lt_compat_r; [apply bpow_gt_0|apply IZR_lt; clear - HM; clearbody M; lia]|].
    apply Rle_lt_trans with (IZR 9007199254740992 * bpow radix2 74)%R; [apply Rmult_le_compat_l; [apply IZR_le; discriminate|apply bpow_le; unfold e1; clear - He Ne; clearbody e; lia]|]. rewrite <- IZR_Zpower by discriminate. rewrite <- mult_IZR. apply IZR_lt. reflexivity.
Qed.
