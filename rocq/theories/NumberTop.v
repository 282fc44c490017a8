(** NumberTop.v -- accuracy of the conversion of a number *)
From Coq Require Import List NArith ZArith Bool Reals Psatz Floats.SpecFloat.
From Flocq Require Import Core.
From Flocq.IEEE754 Require Import BinarySingleNaN.
From Verif Require Import Base Float JsonText JsonNumber NumberSpec NumberFloat NumberReal NumberFacts.
Import ListNotations.
Local Open Scope list_scope.
Local Open Scope Z_scope.

Definition lim (neg : bool) : Z := if neg then 2 ^ 63 + 1 else 2 ^ 64.
Definition sig0 (ip : bytes) : Z := match ip with [Byte.x30] => 0 | _ => Z.of_nat (length ip) - 1 end.
(** the first part of [double_of] *)
Definition significand (neg : bool) (ip fp : bytes) : dbl * Z :=
  let i := int_digits (lim neg) ip (inl 0) in
  match fp with
  | [] => (match i with inl z => of_Z z | inr d => d end, 0)
  | _ => match i with
         | inl z => let '(ds, z', ef, sig) := frac_int fp z 0 (sig0 ip) in frac_dbl ds (of_Z z') ef sig
         | inr d => frac_dbl fp d 0 (sig0 ip)
         end
  end.
Definition expo (e : option Z) : Z := match e with Some x => x | None => 0 end.
Lemma double_of_eq neg ip fp e : double_of neg ip fp e =
  let '(d, expFrac) := significand neg ip fp in
  if 308 - expFrac <? expo e then None
  else match bits (strtodNormalPrecision d (expo e + expFrac)) with Some n => Some (if neg then (2 ^ 63 + n)%N else n) | None => None end.
Proof. reflexivity. Qed.

(** digits of an integral part *)
Definition int_ok (ip : bytes) : Prop := all_digits ip /\ (ip = [Byte.x30] \/ (ip <> [] /\ hd Byte.x30 ip <> Byte.x30)).
Lemma digit_zero b : digit b = 0 -> b = Byte.x30.
Proof. unfold digit. intros H. assert (E : bval b = 48%N) by lia. revert E. destruct b; vm_compute; intros E; try discriminate E; reflexivity. Qed.
Lemma int_sig ip : int_ok ip -> sigok (acc ip 0) (sig0 ip) /\ (1 <= length ip)%nat.
Proof.
  intros [F [->|[N H]]]; [split; [repeat split; cbn; lia|cbn; lia]|]. destruct ip as [|b ip]; [contradiction|]. cbn [hd] in H. inversion F as [|x l Hb F']; subst. assert (Hd := digit_range b Hb).
  assert (D1 : 1 <= digit b). { destruct (Z.eq_dec (digit b) 0) as [E|]; [|lia]. apply digit_zero in E. contradiction. }
  assert (E0 : sig0 (b :: ip) = Z.of_nat (length ip)). { unfold sig0. destruct ip; [destruct b; try reflexivity; contradiction|destruct b; cbn [length]; lia]. }
  rewrite E0. split; [|cbn; lia]. cbn [acc fold_left]. change (fold_left (fun a b0 => a * 10 + digit b0) ip (0 * 10 + digit b)) with (acc ip (0 * 10 + digit b)). destruct (acc_spec ip F' (0 * 10 + digit b)) as (r & -> & Hr).
  assert (Hp : 10 ^ (Z.of_nat (length ip) + 1) = 10 * 10 ^ Z.of_nat (length ip)) by (rewrite Z.pow_add_r by lia; lia). assert (P0 : 0 < 10 ^ Z.of_nat (length ip)) by (apply Z.pow_pos_nonneg; lia).
  assert (Pm : 10 ^ (Z.of_nat (length ip) - 1) <= 10 ^ Z.of_nat (length ip)) by (apply Z.pow_le_mono_r; lia). repeat split; nia.
Qed.
Lemma acc_pos ds : all_digits ds -> 0 <= acc ds 0.
Proof. intros F. destruct (acc_spec ds F 0) as (r & -> & H). lia. Qed.
Lemma of_int z : 1 <= z <= 2 ^ 64 -> rep (of_Z z) (RND (IZR z)) /\ roundings 1 (RND (IZR z)) (IZR z).
Proof.
  intros H. split.
  - apply of_Z_rep; [lia|]. apply Rle_trans with (2 := MX_big). apply IZR_le. apply Z.le_trans with (1 := proj2 H). vm_compute. discriminate.
  - apply rnd_roundings. apply tiny1. assert (1 <= IZR z)%R by (apply IZR_le; lia). lra.
Qed.

Lemma sig_spec neg ip fp : int_ok ip -> all_digits fp -> (length ip <= 300)%nat -> 0 < acc (ip ++ fp) 0 ->
  exists d X r v K, significand neg ip fp = (d, Z.of_nat r - Z.of_nat (length fp)) /\ (r <= length fp)%nat /\ rep d v /\ roundings K v (IZR X) /\ (K <= 5 + 2 * (length ip - 18))%nat
    /\ 1 <= X < 10 ^ 300 /\ (exists q, acc (ip ++ fp) 0 = X * 10 ^ Z.of_nat r + q /\ 0 <= q < 10 ^ Z.of_nat r) /\ (r = 0%nat \/ 10 ^ 16 <= X).
Proof.
  intros HI Ff HL Hn. destruct (int_sig ip HI) as [HS L1]. destruct HI as [Fi _]. rewrite acc_app in *. assert (B64 : 2 ^ 64 <= 10 ^ 20) by (vm_compute; discriminate). assert (B300 : 10 ^ 20 < 10 ^ 300) by reflexivity.
  assert (HM : 2 ^ 63 <= lim neg <= 2 ^ 64) by (unfold lim; destruct neg; vm_compute; split; discriminate).
  assert (Q := int_spec (lim neg) ip HM Fi 0 0 ltac:(vm_compute; split; [discriminate|destruct neg; reflexivity]) ltac:(reflexivity) ltac:(lia) ltac:(lia)). unfold significand. cbv zeta.
  destruct (int_digits (lim neg) ip (inl 0)) as [z|d].
  - destruct Q as [-> Hz]. set (z := acc ip 0) in *. destruct fp as [|b fp].
    + exists (of_Z z), z, 0%nat, (RND (IZR z)), 1%nat. cbn [acc fold_left] in Hn. destruct (of_int z ltac:(lia)) as [R A]. split; [reflexivity|]. split; [apply Nat.le_0_l|]. split; [exact R|]. split; [exact A|]. split; [lia|].
      split; [|split; [|left; reflexivity]]; [split; [lia|]; apply Z.le_lt_trans with (2 := B300); lia|]. exists 0. change (10 ^ Z.of_nat 0) with 1. cbn [acc fold_left]. lia.
    + remember (b :: fp) as ds eqn:Eds. clear Eds b fp.
      destruct (frac_int_spec ds Ff z 0 (sig0 ip) HS) as (pre & rest & z' & sg' & -> & -> & E3 & S' & HR & HM').
      apply Forall_app in Ff. destruct Ff as [Fp Fr]. rewrite app_length. rewrite acc_app, <- E3 in *. assert (Hz' : z' <= 2 ^ 64). { change (2 ^ 53) with 9007199254740992 in HM'. change (2 ^ 64) with 18446744073709551616 in *. lia. }
      destruct rest as [|b rest].
      * cbn [acc fold_left] in Hn. destruct (of_int z' ltac:(lia)) as [R A]. cbn [frac_dbl]. exists (of_Z z'), z', 0%nat, (RND (IZR z')), 1%nat. split; [f_equal; cbn [length]; lia|]. split; [lia|]. split; [exact R|]. split; [exact A|]. split; [lia|].
        split; [split; [lia|apply Z.le_lt_trans with (2 := B300); lia]|]. split; [|left; reflexivity]. exists 0. change (10 ^ Z.of_nat 0) with 1. cbn [acc fold_left]. lia.
      * destruct HR as [HR|HR]; [discriminate|]. change (2 ^ 53) with 9007199254740992 in HR. destruct (of_int z' ltac:(lia)) as [R A]. remember (b :: rest) as ds2 eqn:Eds. clear Eds b rest.
        assert (Hsg : 15 <= sg'). { destruct (Z.le_gt_cases 15 sg') as [G|G]; [exact G|]. destruct S' as (S0 & B & _). assert (P := pow_mono (sg' + 1) 15 ltac:(lia)). change (10 ^ 15) with 1000000000000000 in P. lia. }
        destruct (frac_dbl_spec ds2 Fr (of_Z z') _ 1%nat z' (0 - Z.of_nat (length pre)) sg' R A ltac:(split; [lia|apply Z.le_lt_trans with (2 := B300); lia]) Hsg S' ltac:(lia)) as (p2 & r2 & d' & v' & -> & -> & R' & A' & HR2 & HB & HLn).
        apply Forall_app in Fr. destruct Fr as [Fp2 Fr2]. exists d', (acc p2 z'), (length r2), v', (1 + 2 * length p2)%nat. rewrite app_length. split; [f_equal; lia|]. split; [lia|]. split; [exact R'|]. split; [exact A'|]. split; [lia|].
        split; [split; [lia|]; apply Z.le_lt_trans with (10 ^ 23); [|reflexivity]; change (2 ^ 64) with 18446744073709551616 in *; change (10 ^ 23) with 100000000000000000000000; lia|].
        rewrite acc_app. split; [apply acc_spec; exact Fr2|]. destruct HR2 as [->|HR2]; [left; reflexivity|right; exact HR2].
  - destruct Q as (v & K & R & A & HK & HB). set (X := acc ip 0) in *. change (Z.to_nat 0) with 0%nat in HK. cbn [Nat.add] in HK.
    assert (B16 : 10 ^ 16 <= 2 ^ 63) by (vm_compute; discriminate). assert (X1 : 1 <= X < 10 ^ 300) by (split; [change (2 ^ 63) with 9223372036854775808 in HB; lia|apply HB]).
    destruct fp as [|b fp].
    + exists d, X, 0%nat, v, K. split; [reflexivity|]. split; [apply Nat.le_0_l|]. split; [exact R|]. split; [exact A|]. split; [lia|]. split; [exact X1|]. split; [|left; reflexivity]. exists 0. change (10 ^ Z.of_nat 0) with 1. cbn [acc fold_left]. lia.
    + remember (b :: fp) as ds eqn:Eds. clear Eds b fp. exists d, X, (length ds), v, K.
      assert (S17 : 17 <= sig0 ip). { destruct (Z.le_gt_cases 17 (sig0 ip)) as [G|G]; [exact G|]. destruct HS as (S0 & B & _). assert (P := pow_mono (sig0 ip + 1) 17 ltac:(lia)). change (10 ^ 17) with 100000000000000000 in P. change (2 ^ 63) with 9223372036854775808 in HB. lia. }
      assert (E : forall l, frac_dbl l d 0 (sig0 ip) = (d, 0)). { induction l as [|c l IHl]; [reflexivity|]. cbn [frac_dbl]. destruct (Z.ltb_spec (sig0 ip) 17); [lia|exact IHl]. }
      rewrite E. split; [f_equal; lia|]. split; [lia|]. split; [exact R|]. split; [exact A|]. split; [lia|]. split; [exact X1|]. split; [apply acc_spec; exact Ff|]. right. lia.
Qed.

Lemma p10_pos k : 0 <= k -> powerRZ 10 k = IZR (10 ^ k).
Proof. intros H. rewrite <- (Z2Nat.id k H). rewrite <- pow_powerRZ. rewrite pow_IZR. reflexivity. Qed.
Lemma p10_neg k : 0 <= k -> powerRZ 10 (- k) = (/ IZR (10 ^ k))%R.
Proof. intros H. rewrite powerRZ_neg', p10_pos by exact H. reflexivity. Qed.
Lemma p10_lt0 k : (0 < powerRZ 10 k)%R.
Proof. apply powerRZ_lt. lra. Qed.
Lemma pow10_rep k : 0 <= k <= 308 -> rep (pow10 k) (RND (IZR (10 ^ k))) /\ roundings 1 (RND (IZR (10 ^ k))) (IZR (10 ^ k)).
Proof.
  intros H. assert (P : 1 <= 10 ^ k <= 10 ^ 308) by (split; [|apply Z.pow_le_mono_r; lia]; assert (0 < 10 ^ k) by (apply Z.pow_pos_nonneg; lia); lia). split.
  - apply of_Z_rep; [lia|]. apply Rle_trans with (2 := MX_big). apply IZR_le. apply P.
  - apply rnd_roundings. apply tiny1. assert (1 <= IZR (10 ^ k))%R by (apply IZR_le; apply P). lra.
Qed.
Lemma fast_rep d v k Y p : rep d v -> roundings k v Y -> (k <= 4000)%nat -> -308 <= p <= 308 -> (0 < Y)%R ->
  (/ IZR (2 * 10 ^ 307) <= Y * powerRZ 10 p <= IZR (2 * 10 ^ 307))%R ->
  exists v', rep (fastPath d p) v' /\ roundings (k + 2) v' (Y * powerRZ 10 p).
Proof.
  intros R A Hk Hp HY HB. unfold fastPath. destruct (Z.ltb_spec p (-308)) as [L|_]; [lia|].
  assert (Z4 : forall z, roundings (k + 1) z (Y * powerRZ 10 p) -> (z <= MX)%R /\ (bpow radix2 (-1022) <= z)%R).
  { intros z Az. assert (T0 : (0 <= Y * powerRZ 10 p)%R) by (left; apply Rmult_lt_0_compat; [exact HY|apply p10_lt0]). assert (K4 : (k + 1 <= 4096)%nat) by lia. assert (L2 := r_le2 _ _ _ K4 T0 Az). assert (G2 := r_ge2 _ _ _ K4 T0 Az).
    assert (E2 : IZR (2 * 10 ^ 307) = (2 * IZR (10 ^ 307))%R) by (rewrite mult_IZR; reflexivity). assert (MB := MX_big). assert (TB := tiny). replace (10 ^ 308) with (10 * 10 ^ 307) in MB by reflexivity. rewrite mult_IZR in MB, TB. rewrite E2 in HB.
    assert (C0 : (1 <= IZR (10 ^ 307))%R) by (apply IZR_le; vm_compute; discriminate). set (c := IZR (10 ^ 307)) in *. split; [lra|]. apply Rle_trans with (1 := TB). apply Rle_trans with (2 := G2). replace (/ (4 * c))%R with (/ (2 * c) / 2)%R by (field; lra). lra. }
  destruct (Z.leb_spec 0 p) as [P|P].
  - destruct (pow10_rep p ltac:(lia)) as [Rp Ap]. assert (Az : roundings (k + 1) (v * RND (IZR (10 ^ p))) (Y * powerRZ 10 p)).
    { rewrite p10_pos by exact P. apply r_mul; [lra|apply IZR_le; apply Z.pow_nonneg; lia|exact A|exact Ap]. }
    destruct (Z4 _ Az) as [M B]. eexists. split; [apply dmul_rep; [exact R|exact Rp|exact M]|]. replace (k + 2)%nat with (1 + (k + 1))%nat by lia. eapply r_trans; [apply rnd_roundings; exact B|exact Az].
  - destruct (pow10_rep (- p) ltac:(lia)) as [Rp Ap]. assert (P0 : (0 < IZR (10 ^ (- p)))%R) by (apply IZR_lt; apply Z.pow_pos_nonneg; lia). assert (Pr := r_pos_lt _ _ _ P0 Ap).
    assert (Az : roundings (k + 1) (v / RND (IZR (10 ^ (- p)))) (Y * powerRZ 10 p)).
    { replace p with (- - p) at 2 by lia. rewrite p10_neg by lia. apply r_div; [lra|exact P0|exact A|exact Ap]. }
    destruct (Z4 _ Az) as [M B]. eexists. split; [apply ddiv_rep; [exact R|exact Rp|exact Pr|exact M]|]. replace (k + 2)%nat with (1 + (k + 1))%nat by lia. eapply r_trans; [apply rnd_roundings; exact B|exact Az].
Qed.
Lemma normal_rep d v k X p : rep d v -> roundings k v (IZR X) -> (k <= 3000)%nat -> 1 <= X < 10 ^ 300 ->
  (/ IZR (2 * 10 ^ 307) <= magnitude (Z.to_N X) p <= IZR (2 * 10 ^ 307))%R ->
  exists v', p <= 308 /\ rep (strtodNormalPrecision d p) v' /\ roundings (k + 4) v' (magnitude (Z.to_N X) p).
Proof.
  intros R A Hk HX HB. unfold magnitude in *. rewrite Z2N.id in * by lia. assert (X1 : (1 <= IZR X)%R) by (apply IZR_le; lia).
  assert (Hp : p <= 308). { destruct (Z.le_gt_cases p 308) as [Q|Q]; [exact Q|]. exfalso. destruct HB as [_ HB]. rewrite p10_pos in HB by lia.
    assert (IZR (10 ^ 309) <= IZR (10 ^ p))%R by (apply IZR_le; apply Z.pow_le_mono_r; lia). assert (IZR (2 * 10 ^ 307) < IZR (10 ^ 309))%R by (apply IZR_lt; reflexivity).
    assert (IZR (10 ^ p) <= IZR X * IZR (10 ^ p))%R by (rewrite <- (Rmult_1_l (IZR (10 ^ p))) at 1; apply Rmult_le_compat_r; [apply IZR_le; apply Z.pow_nonneg; lia|exact X1]). lra. }
  unfold strtodNormalPrecision. destruct (Z.ltb_spec p (-308)) as [L|L].
  - (* twice *)
    assert (Hp2 : -616 <= p). { destruct (Z.le_gt_cases (-616) p) as [Q|Q]; [exact Q|]. exfalso. destruct HB as [HB _].
      assert (Hpow : (powerRZ 10 p <= / IZR (10 ^ 616))%R). { replace p with (- - p) by lia. rewrite p10_neg by lia. apply Rinv_le; [apply IZR_lt; reflexivity|]. apply IZR_le. apply Z.pow_le_mono_r; lia. }
      assert (XM : (IZR X <= IZR (10 ^ 300))%R) by (apply IZR_le; lia).
      assert (Q2 : (IZR X * powerRZ 10 p <= IZR (10 ^ 300) * / IZR (10 ^ 616))%R) by (apply Rmult_le_compat; [lra|left; apply p10_lt0|exact XM|exact Hpow]).
      replace (10 ^ 616) with (10 ^ 300 * 10 ^ 316) in Q2 by (rewrite <- Z.pow_add_r by lia; reflexivity). rewrite mult_IZR in Q2. assert (C0 : (0 < IZR (10 ^ 300))%R) by (apply IZR_lt; reflexivity). assert (C1 : (0 < IZR (10 ^ 316))%R) by (apply IZR_lt; reflexivity).
      rewrite Rinv_mult in Q2. rewrite <- Rmult_assoc, Rinv_r, Rmult_1_l in Q2 by lra.
      assert (Q3 : (/ IZR (10 ^ 316) < / IZR (2 * 10 ^ 307))%R) by (apply Rinv_lt_contravar; [apply Rmult_lt_0_compat; apply IZR_lt; reflexivity|apply IZR_lt; reflexivity]). lra. }
    assert (E : (IZR X * powerRZ 10 p)%R = (IZR X * powerRZ 10 (-308) * powerRZ 10 (p + 308))%R).
    { rewrite Rmult_assoc, <- powerRZ_add by lra. do 2 f_equal. lia. }
    assert (Q8 : (powerRZ 10 (p + 308) <= 1)%R). { replace (p + 308) with (- - (p + 308)) by lia. rewrite p10_neg by lia. rewrite <- Rinv_1. apply Rinv_le; [lra|]. apply IZR_le. assert (0 < 10 ^ (- (p + 308))) by (apply Z.pow_pos_nonneg; lia). lia. }
    assert (P8 := p10_lt0 (p + 308)). assert (T1 : (0 < IZR X * powerRZ 10 (-308))%R) by (apply Rmult_lt_0_compat; [lra|apply p10_lt0]).
    assert (B1 : (/ IZR (2 * 10 ^ 307) <= IZR X * powerRZ 10 (-308) <= IZR (2 * 10 ^ 307))%R).
    { rewrite E in HB. split.
      - apply Rle_trans with (1 := proj1 HB). rewrite <- (Rmult_1_r (IZR X * powerRZ 10 (-308))) at 2. apply Rmult_le_compat_l; lra.
      - apply Rle_trans with (IZR X * 1)%R; [apply Rmult_le_compat_l; [lra|]; change (-308) with (- (308)); rewrite p10_neg by lia; rewrite <- Rinv_1; apply Rinv_le; [lra|apply IZR_le; vm_compute; discriminate]|]. rewrite Rmult_1_r. apply IZR_le. apply Z.le_trans with (10 ^ 300); [lia|]. vm_compute. discriminate. }
    destruct (fast_rep d v k (IZR X) (-308) R A ltac:(lia) ltac:(lia) ltac:(lra) B1) as (v1 & R1 & A1). rewrite E in HB.
    destruct (fast_rep _ v1 (k + 2) _ (p + 308) R1 A1 ltac:(lia) ltac:(lia) T1 HB) as (v2 & R2 & A2). exists v2. split; [exact Hp|]. split; [exact R2|]. rewrite E. replace (k + 4)%nat with (k + 2 + 2)%nat by lia. exact A2.
  - destruct (fast_rep d v k (IZR X) p R A ltac:(lia) ltac:(lia) ltac:(lra) HB) as (v1 & R1 & A1). exists v1. split; [exact Hp|]. split; [exact R1|]. eapply r_more; [|left; apply Rmult_lt_0_compat; [lra|apply p10_lt0]|exact A1]. lia.
Qed.

(** the digits which are left out *)
Lemma left_out X r q : 1 <= X -> 0 <= q < 10 ^ Z.of_nat r -> (r = 0%nat \/ 10 ^ 16 <= X) -> roundings 1 (IZR X * IZR (10 ^ Z.of_nat r)) (IZR (X * 10 ^ Z.of_nat r + q)).
Proof.
  intros HX Hq Hr. assert (HU := U_pos). rewrite plus_IZR, mult_IZR. assert (P : (0 < IZR (10 ^ Z.of_nat r))%R) by (apply IZR_lt; lia). assert (X1 : (1 <= IZR X)%R) by (apply IZR_le; lia).
  apply r_unfold. rewrite pow_1. destruct Hr as [->|Hr].
  - change (10 ^ Z.of_nat 0) with 1 in *. assert (q = 0) by lia. subst q. rewrite Rplus_0_r. split; [apply Rmult_le_reg_r with U; [lra|]; unfold Rdiv; rewrite Rmult_assoc, Rinv_l by lra|]; nra.
  - assert (Q : (0 <= IZR q < IZR (10 ^ Z.of_nat r))%R) by (split; [apply IZR_le|apply IZR_lt]; lia). assert (X16 : (IZR (10 ^ 16) <= IZR X)%R) by (apply IZR_le; exact Hr). set (c := IZR (10 ^ Z.of_nat r)) in *.
    assert (EU : (U = 1 + / 9007199254740992)%R) by (unfold U; rewrite powerRZ_bpow; reflexivity). change (10 ^ 16) with 10000000000000000 in X16. set (x := IZR X) in *.
    assert (B : (c <= x * c * / 9007199254740992)%R). { rewrite (Rmult_comm x c), Rmult_assoc. rewrite <- (Rmult_1_r c) at 1. apply Rmult_le_compat_l; [lra|]. lra. }
    split.
    + apply Rmult_le_reg_r with U; [lra|]. unfold Rdiv. rewrite Rmult_assoc, Rinv_l, Rmult_1_r by lra. rewrite EU. lra.
    + apply Rle_trans with (x * c + IZR q)%R; [lra|]. rewrite <- (Rmult_1_r (x * c + IZR q)) at 1. apply Rmult_le_compat_l; [|lra]. assert (0 <= x * c)%R by (apply Rmult_le_pos; lra). lra.
Qed.

Lemma double_of_accurate neg ip fp e : int_ok ip -> all_digits fp -> (length ip <= 300)%nat ->
  (/ IZR (10 ^ 307) <= magnitude (dval (ip ++ fp)) (expo e - Z.of_nat (length fp)) <= IZR (10 ^ 307))%R ->
  exists m, double_of neg ip fp e = Some m /\ is_double m /\ f64_sign m = neg
    /\ roundings (10 + 2 * (length ip - 18)) (Rabs (f64_value m)) (magnitude (dval (ip ++ fp)) (expo e - Z.of_nat (length fp))).
Proof.
  intros HI Ff HL HB. assert (Fa : all_digits (ip ++ fp)) by (apply Forall_app; split; [apply HI|exact Ff]). assert (En := acc_dval _ Fa). unfold magnitude in *. rewrite <- En in *. clear En.
  assert (C1 : (0 < / IZR (10 ^ 307))%R) by (apply Rinv_0_lt_compat, IZR_lt; reflexivity).
  assert (Hn : 0 < acc (ip ++ fp) 0). { assert (A0 := acc_pos _ Fa). destruct (Z.eq_dec (acc (ip ++ fp) 0) 0) as [E|N]; [|lia]. rewrite E, Rmult_0_l in HB. lra. }
  destruct (sig_spec neg ip fp HI Ff HL Hn) as (d & X & r & v & K & ES & Hr & R & A & HK & HX & (q & Eq & Hq) & Hor).
  set (x := (IZR (acc (ip ++ fp) 0) * powerRZ 10 (expo e - Z.of_nat (length fp)))%R) in *.
  assert (Ax : roundings 1 (magnitude (Z.to_N X) (expo e + (Z.of_nat r - Z.of_nat (length fp)))) x).
  { unfold magnitude, x. rewrite Z2N.id by lia. replace (expo e + (Z.of_nat r - Z.of_nat (length fp))) with (Z.of_nat r + (expo e - Z.of_nat (length fp))) by lia. rewrite powerRZ_add by lra. rewrite (p10_pos (Z.of_nat r)) by lia. rewrite <- Rmult_assoc. rewrite Eq.
    replace 1%nat with (1 + 0)%nat by reflexivity. apply r_mul; [apply IZR_le; nia|left; apply p10_lt0|apply left_out; [lia|exact Hq|exact Hor]|apply r_refl]. }
  assert (x0 : (0 <= x)%R) by lra. assert (K1 : (1 <= 4096)%nat) by lia. assert (L2 := r_le2 _ _ _ K1 x0 Ax). assert (G2 := r_ge2 _ _ _ K1 x0 Ax).
  assert (B2 : (/ IZR (2 * 10 ^ 307) <= magnitude (Z.to_N X) (expo e + (Z.of_nat r - Z.of_nat (length fp))) <= IZR (2 * 10 ^ 307))%R).
  { rewrite mult_IZR, Rinv_mult. lra. }
  assert (K3 : (K <= 3000)%nat) by lia. destruct (normal_rep d v K X _ R A K3 HX B2) as (v' & Hp & R' & A'). destruct (rep_bits _ _ R') as (m & Eb & Lm & Fm & Sm & Vm).
  rewrite double_of_eq, ES. destruct (Z.ltb_spec (308 - (Z.of_nat r - Z.of_nat (length fp))) (expo e)) as [Q|_]; [exfalso; lia|]. rewrite Eb.
  assert (A2 : roundings (10 + 2 * (length ip - 18)) v' x). { eapply r_more; [|exact x0|exact (r_trans _ _ _ _ _ A' Ax)]. lia. }
  assert (V0 := rep_pos _ _ R'). eexists. split; [reflexivity|]. destruct neg.
  - destruct (neg_bits m Lm Fm Sm) as (D & S & V). split; [exact D|]. split; [exact S|]. rewrite V, Vm, Rabs_Ropp, Rabs_pos_eq by exact V0. exact A2.
  - split; [split; [|exact Fm]; apply N.lt_trans with (1 := Lm); reflexivity|]. split; [exact Sm|]. rewrite Vm, Rabs_pos_eq by exact V0. exact A2.
Qed.

(** few digits, small exponent: correctly rounded *)
Lemma pow10_exact k : 0 <= k <= 22 -> rep (pow10 k) (IZR (10 ^ k)).
Proof.
  intros H. assert (E : RND (IZR (10 ^ k)) = IZR (10 ^ k)).
  { apply round_generic; [apply valid_rnd_N|]. apply generic_format_FLT. exists (Float radix2 (5 ^ k) k).
    - unfold F2R. cbn [Fnum Fexp]. rewrite <- IZR_Zpower by lia. rewrite <- mult_IZR. f_equal. change (radix_val radix2) with 2. rewrite <- Z.pow_mul_l. reflexivity.
    - cbn [Fnum]. apply Z.le_lt_trans with (5 ^ 22); [|reflexivity]. rewrite Z.abs_eq by (apply Z.pow_nonneg; lia). apply Z.pow_le_mono_r; lia.
    - cbn [Fexp]. lia. }
  rewrite <- E. apply pow10_rep. lia.
Qed.
Lemma all_in ds : all_digits ds -> forall i ef sg, 0 <= i -> acc ds i < 2 ^ 53 -> exists sg', frac_int ds i ef sg = ([], acc ds i, ef - Z.of_nat (length ds), sg').
Proof.
  intros F. induction F as [|b ds Hb F IH]; intros i ef sg Hi HL; [eexists; cbn [frac_int acc fold_left length Z.of_nat]; rewrite Z.sub_0_r; reflexivity|].
  assert (Hd := digit_range b Hb). change (acc (b :: ds) i) with (acc ds (i * 10 + digit b)) in *. destruct (acc_spec ds F (i * 10 + digit b)) as (r & E & Hr). assert (P : 0 < 10 ^ Z.of_nat (length ds)) by (apply Z.pow_pos_nonneg; lia).
  assert (i < 2 ^ 53) by nia. cbn [frac_int]. destruct (Z.ltb_spec (2 ^ 53 - 1) i) as [Q|_]; [lia|]. destruct (IH (i * 10 + digit b) (ef - 1) (if i * 10 + digit b =? 0 then sg else sg + 1) ltac:(lia) HL) as (sg' & E2).
  cbv zeta. rewrite E2. exists sg'. f_equal. f_equal. cbn [length]. lia.
Qed.
Lemma int_in lim ds : 2 ^ 53 <= lim -> all_digits ds -> forall i, 0 <= i -> acc ds i < 2 ^ 53 -> int_digits lim ds (inl i) = inl (acc ds i).
Proof.
  intros HM F. induction F as [|b ds Hb F IH]; intros i Hi HL; [reflexivity|].
  assert (Hd := digit_range b Hb). change (acc (b :: ds) i) with (acc ds (i * 10 + digit b)) in *. destruct (acc_spec ds F (i * 10 + digit b)) as (r & E & Hr). assert (P : 0 < 10 ^ Z.of_nat (length ds)) by (apply Z.pow_pos_nonneg; lia).
  assert (i * 10 + digit b < 2 ^ 53) by nia. cbn [int_digits]. destruct (Z.ltb_spec (i * 10 + digit b) lim) as [_|Q]; [|lia]. apply IH; [lia|exact HL].
Qed.
Lemma double_of_exact neg ip fp e : all_digits ip -> all_digits fp -> (dval (ip ++ fp) < 2 ^ 53)%N -> -22 <= expo e - Z.of_nat (length fp) <= 22 ->
  exists m, double_of neg ip fp e = Some m /\ is_double m /\ f64_sign m = neg
    /\ f64_value m = (if neg then - RND (magnitude (dval (ip ++ fp)) (expo e - Z.of_nat (length fp))) else RND (magnitude (dval (ip ++ fp)) (expo e - Z.of_nat (length fp))))%R.
Proof.
  intros Fi Ff Hn Hp. assert (Fa : all_digits (ip ++ fp)) by (apply Forall_app; split; assumption). assert (En := acc_dval _ Fa). unfold magnitude. rewrite <- En.
  assert (Hz : 0 <= acc (ip ++ fp) 0 < 2 ^ 53). { split; [apply acc_pos; exact Fa|]. rewrite En. change (2 ^ 53) with (Z.of_N (2 ^ 53)). lia. } clear En Hn.
  assert (ES : significand neg ip fp = (of_Z (acc (ip ++ fp) 0), - Z.of_nat (length fp))).
  { unfold significand. cbv zeta. rewrite acc_app in *. assert (Hi : 0 <= acc ip 0) by (apply acc_pos; exact Fi). assert (Hi2 : acc ip 0 < 2 ^ 53).
    { destruct (acc_spec fp Ff (acc ip 0)) as (r & E & Hr). assert (P : 0 < 10 ^ Z.of_nat (length fp)) by (apply Z.pow_pos_nonneg; lia). nia. }
    rewrite int_in; [|unfold lim; destruct neg; vm_compute; discriminate|exact Fi|lia|exact Hi2]. destruct fp as [|b fp]; [reflexivity|]. remember (b :: fp) as ds. destruct (all_in ds Ff (acc ip 0) 0 (sig0 ip) Hi (proj2 Hz)) as (sg' & ->). cbn [frac_dbl]. f_equal. }
  rewrite double_of_eq, ES. destruct (Z.ltb_spec (308 - - Z.of_nat (length fp)) (expo e)) as [Q|_]; [exfalso; lia|]. replace (expo e + - Z.of_nat (length fp)) with (expo e - Z.of_nat (length fp)) by lia. set (p := expo e - Z.of_nat (length fp)) in *. set (z := acc (ip ++ fp) 0) in *.
  assert (R : rep (of_Z z) (IZR z)) by (apply of_small; lia). assert (Z1 : (0 <= IZR z <= IZR (2 ^ 53))%R) by (split; apply IZR_le; lia). assert (MB : (IZR (2 ^ 53 * 10 ^ 22) <= MX)%R) by (apply Rle_trans with (2 := MX_big); apply IZR_le; vm_compute; discriminate). rewrite mult_IZR in MB.
  assert (R2 : rep (strtodNormalPrecision (of_Z z) p) (RND (IZR z * powerRZ 10 p))).
  { unfold strtodNormalPrecision, fastPath. destruct (Z.ltb_spec p (-308)) as [Q|_]; [lia|]. destruct (Z.leb_spec 0 p) as [P|P].
    - rewrite p10_pos by exact P. apply dmul_rep; [exact R|apply pow10_exact; lia|]. apply Rle_trans with (2 := MB). apply Rmult_le_compat; try apply Z1; [apply IZR_le, Z.pow_nonneg; lia|apply IZR_le, pow_mono; lia].
    - replace p with (- - p) at 2 by lia. rewrite p10_neg by lia. assert (P0 : 0 < 10 ^ - p) by (apply Z.pow_pos_nonneg; lia). apply ddiv_rep; [exact R|apply pow10_exact; lia|apply IZR_lt; exact P0|]. apply Rle_trans with (2 := MB).
      apply Rmult_le_compat; try apply Z1; [left; apply Rinv_0_lt_compat, IZR_lt; exact P0|]. apply Rle_trans with 1%R; [rewrite <- Rinv_1; apply Rinv_le; [lra|apply IZR_le; lia]|apply IZR_le; vm_compute; discriminate]. }
  destruct (rep_bits _ _ R2) as (m & Eb & Lm & Fm & Sm & Vm). rewrite Eb. eexists. split; [reflexivity|]. destruct neg.
  - destruct (neg_bits m Lm Fm Sm) as (D & S & V). split; [exact D|]. split; [exact S|]. rewrite V, Vm. reflexivity.
  - split; [split; [|exact Fm]; apply N.lt_trans with (1 := Lm); reflexivity|]. split; [exact Sm|]. exact Vm.
Qed.
