(** NumberReal.v -- numbers which differ by a number of roundings *)
From Coq Require Import List NArith ZArith Bool Reals Psatz.
From Flocq Require Import Core Relative.
From Verif Require Import Base NumberSpec NumberFloat.
Import ListNotations.
Local Open Scope R_scope.

Definition U : R := 1 + powerRZ 2 (-53).
Lemma U_pos : 1 < U.
Proof. unfold U. rewrite powerRZ_bpow. assert (0 < bpow radix2 (-53)) by apply bpow_gt_0. lra. Qed.
Lemma Uk_pos k : 1 <= U ^ k.
Proof. apply pow_R1_Rle. left. apply U_pos. Qed.
Lemma Uk0 k : 0 < U ^ k.
Proof. assert (H := Uk_pos k). lra. Qed.
Lemma Uinv k : 0 < / U ^ k <= 1.
Proof. split; [apply Rinv_0_lt_compat; apply Uk0|]. rewrite <- Rinv_1. apply Rinv_le; [lra|apply Uk_pos]. Qed.
Lemma r_unfold k v x : roundings k v x <-> x / U ^ k <= v <= x * U ^ k.
Proof. reflexivity. Qed.

Lemma r_pos k v x : 0 <= x -> roundings k v x -> 0 <= v.
Proof. intros H [A _]. fold U in A. assert (Q := Uinv k). apply Rle_trans with (2 := A). apply Rmult_le_pos; lra. Qed.
Lemma r_pos_lt k v x : 0 < x -> roundings k v x -> 0 < v.
Proof. intros H [A _]. fold U in A. assert (Q := Uinv k). apply Rlt_le_trans with (2 := A). apply Rmult_lt_0_compat; lra. Qed.
Lemma r_refl x : roundings 0 x x.
Proof. apply r_unfold. cbn. lra. Qed.
Lemma r_trans k l v y x : roundings k v y -> roundings l y x -> roundings (k + l) v x.
Proof.
  rewrite !r_unfold. intros [A1 A2] [B1 B2]. rewrite pow_add. assert (Pk := Uk0 k). assert (Pl := Uk0 l). split.
  - apply Rle_trans with (2 := A1). replace (x / (U ^ k * U ^ l)) with (x / U ^ l / U ^ k) by (field; lra). apply Rmult_le_compat_r; [left; apply Uinv|exact B1].
  - apply Rle_trans with (1 := A2). replace (x * (U ^ k * U ^ l)) with (x * U ^ l * U ^ k) by ring. apply Rmult_le_compat_r; [left; exact Pk|exact B2].
Qed.
Lemma r_weak k x : 0 <= x -> roundings k x x.
Proof. intros H. apply r_unfold. assert (P := Uk_pos k). assert (Q := Uinv k). split; [unfold Rdiv; rewrite <- (Rmult_1_r x) at 2; apply Rmult_le_compat_l; lra|rewrite <- (Rmult_1_r x) at 1; apply Rmult_le_compat_l; lra]. Qed.
Lemma r_more k l v x : (k <= l)%nat -> 0 <= x -> roundings k v x -> roundings l v x.
Proof. intros L H R. replace l with (k + (l - k))%nat by lia. eapply r_trans; [exact R|apply r_weak; exact H]. Qed.
Lemma r_mul k l v w x y : 0 <= x -> 0 <= y -> roundings k v x -> roundings l w y -> roundings (k + l) (v * w) (x * y).
Proof.
  intros Hx Hy Rv Rw. assert (Pv := r_pos _ _ _ Hx Rv). assert (Pw := r_pos _ _ _ Hy Rw). rewrite r_unfold in *. destruct Rv as [A1 A2], Rw as [B1 B2]. rewrite pow_add. assert (Pk := Uk0 k). assert (Pl := Uk0 l). assert (Qk := Uinv k). assert (Ql := Uinv l). split.
  - replace (x * y / (U ^ k * U ^ l)) with (x / U ^ k * (y / U ^ l)) by (field; lra). apply Rmult_le_compat; try assumption; apply Rmult_le_pos; lra.
  - replace (x * y * (U ^ k * U ^ l)) with (x * U ^ k * (y * U ^ l)) by ring. apply Rmult_le_compat; assumption.
Qed.
Lemma r_inv l w y : 0 < y -> roundings l w y -> roundings l (/ w) (/ y).
Proof.
  intros Hy Rw. assert (Pw := r_pos_lt _ _ _ Hy Rw). rewrite r_unfold in *. destruct Rw as [B1 B2]. assert (Pl := Uk0 l). split.
  - replace (/ y / U ^ l) with (/ (y * U ^ l)) by (field; lra). apply Rinv_le; assumption.
  - replace (/ y * U ^ l) with (/ (y / U ^ l)) by (field; lra). apply Rinv_le; [apply Rmult_lt_0_compat; [assumption|apply Rinv_0_lt_compat; assumption]|assumption].
Qed.
Lemma r_div k l v w x y : 0 <= x -> 0 < y -> roundings k v x -> roundings l w y -> roundings (k + l) (v / w) (x / y).
Proof. intros Hx Hy Rv Rw. apply r_mul; [exact Hx|left; apply Rinv_0_lt_compat; exact Hy|exact Rv|apply r_inv; assumption]. Qed.
Lemma r_add k v w x y : roundings k v x -> roundings k w y -> roundings k (v + w) (x + y).
Proof. rewrite !r_unfold. unfold Rdiv. intros [A1 A2] [B1 B2]. rewrite !Rmult_plus_distr_r. lra. Qed.

Lemma rnd_roundings z : bpow radix2 (-1022) <= z -> roundings 1 (RND z) z.
Proof.
  intros Hz. assert (P : 0 < bpow radix2 (-1022)) by apply bpow_gt_0. unfold RND. rewrite round_FLT_FLX by (cbn [Z.add Z.sub Z.opp]; rewrite Rabs_pos_eq by lra; exact Hz).
  assert (H := relative_error_N_FLX' radix2 53 P53 (fun x => negb (Z.even x)) z). rewrite (Rabs_pos_eq z) in H by lra.
  assert (Eu : u_ro radix2 53 = powerRZ 2 (-53)).
  { unfold u_ro. rewrite powerRZ_bpow. change (- (53) + 1)%Z with (1 + -53)%Z. rewrite bpow_plus. set (w := bpow radix2 (-53)). change (bpow radix2 1) with (IZR 2). field. }
  rewrite Eu in H. change (Znearest (fun x => negb (Z.even x))) with ZnearestE in H. set (r := round _ _ _ z) in *. apply r_unfold. rewrite pow_1. assert (HU := U_pos). unfold U in *. set (u := powerRZ 2 (-53)) in *.
  assert (Q : u / (1 + u) * z = z - z / (1 + u)) by (field; lra). rewrite Q in H. apply Rabs_le_inv in H. split; [lra|].
  assert (z - z / (1 + u) <= u * z); [|lra]. rewrite <- Q. apply Rmult_le_compat_r; [lra|]. apply Rmult_le_reg_r with (1 + u); [lra|]. replace (u / (1 + u) * (1 + u)) with u by (field; lra). nra.
Qed.
Lemma rnd_exact z : (0 <= z <= 2 ^ 53)%Z -> RND (IZR z) = IZR z.
Proof.
  intros Hz. apply round_generic; [apply valid_rnd_N|]. destruct (Z.eq_dec z (2 ^ 53)) as [->|Hn].
  - change (IZR (2 ^ 53)) with (bpow radix2 53). apply generic_format_bpow. unfold FLT_exp. cbn. lia.
  - apply generic_format_FLT. exists (Float radix2 z 0); [unfold F2R; cbn; ring|cbn [Fnum]; change (radix2 ^ 53)%Z with (2 ^ 53)%Z; lia|cbn; lia].
Qed.
(** a bounded number of roundings does not double the number *)
Lemma U_small k : (k <= 4096)%nat -> U ^ k <= 1 + INR k * powerRZ 2 (-52) <= 2.
Proof.
  intros Hk. assert (Hb : INR k * powerRZ 2 (-52) <= / 2).
  { assert (INR k <= INR 4096) by (apply le_INR; exact Hk). rewrite (INR_IZR_INZ 4096) in H. change (Z.of_nat 4096) with 4096%Z in H. assert (powerRZ 2 (-52) = / IZR 4503599627370496) as -> by (rewrite powerRZ_bpow; reflexivity). 
    apply Rle_trans with (4096 * / 4503599627370496); [apply Rmult_le_compat_r; lra|lra]. }
  split; [|lra].
  assert (Q : forall j, (j <= k)%nat -> U ^ j <= 1 + INR j * powerRZ 2 (-52)).
  { induction j as [|j IH]; intros Hj; [cbn; lra|]. specialize (IH ltac:(lia)). cbn [pow]. rewrite S_INR.
    assert (J : INR j * powerRZ 2 (-52) <= / 2). { apply Rle_trans with (2 := Hb). apply Rmult_le_compat_r; [rewrite powerRZ_bpow; apply bpow_ge_0|]. apply le_INR. lia. }
    assert (E2 : powerRZ 2 (-52) = 2 * powerRZ 2 (-53)) by (rewrite !powerRZ_bpow; change (-52)%Z with (1 + -53)%Z; rewrite bpow_plus; reflexivity).
    assert (HU := U_pos). unfold U in *. set (u := powerRZ 2 (-53)) in *. apply Rle_trans with ((1 + u) * (1 + INR j * powerRZ 2 (-52))); [apply Rmult_le_compat_l; lra|]. rewrite E2 in *. nra. }
  apply Q. lia.
Qed.
Lemma r_le2 k v x : (k <= 4096)%nat -> 0 <= x -> roundings k v x -> v <= 2 * x.
Proof. intros Hk Hx [_ H]. fold U in H. destruct (U_small k Hk). apply Rle_trans with (1 := H). rewrite (Rmult_comm 2). apply Rmult_le_compat_l; lra. Qed.
Lemma r_ge2 k v x : (k <= 4096)%nat -> 0 <= x -> roundings k v x -> x / 2 <= v.
Proof. intros Hk Hx [H _]. fold U in H. destruct (U_small k Hk). apply Rle_trans with (2 := H). apply Rmult_le_compat_l; [exact Hx|]. apply Rinv_le; [apply Uk0|lra]. Qed.
(** the relative error *)
Lemma r_error k v x : (k <= 4096)%nat -> 0 <= x -> roundings k v x -> Rabs (v - x) <= INR k * powerRZ 2 (-52) * x.
Proof.
  intros Hk Hx [A1 A2]. fold U in A1, A2. destruct (U_small k Hk) as [H1 H2]. assert (P := Uk_pos k). assert (B2 : x * U ^ k <= x * (1 + INR k * powerRZ 2 (-52))) by (apply Rmult_le_compat_l; lra).
  assert (I : 1 - INR k * powerRZ 2 (-52) <= / U ^ k).
  { apply Rmult_le_reg_r with (U ^ k); [lra|]. rewrite Rinv_l by lra. set (d := INR k * powerRZ 2 (-52)) in *. apply Rle_trans with ((1 - d) * (1 + d)); [apply Rmult_le_compat_l; [lra|exact H1]|nra]. }
  assert (B1 : x * (1 - INR k * powerRZ 2 (-52)) <= x / U ^ k) by (apply Rmult_le_compat_l; lra). apply Rabs_le. lra.
Qed.
