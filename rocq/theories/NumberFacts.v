(** NumberFacts.v -- the conversion of the digits of a number *)
From Coq Require Import List NArith ZArith Bool Reals Psatz Floats.SpecFloat.
From Flocq Require Import Core.
From Flocq.IEEE754 Require Import BinarySingleNaN.
From Verif Require Import Base Float JsonText JsonNumber NumberSpec NumberFloat NumberReal.
Import ListNotations.
Local Open Scope list_scope.
Local Open Scope Z_scope.

Definition all_digits (ds : bytes) : Prop := Forall (fun b => is_digit b = true) ds.
Lemma digit_range b : is_digit b = true -> 0 <= digit b <= 9.
Proof. unfold is_digit, digit. intros H. apply andb_true_iff in H. destruct H as [H1 H2]. apply N.leb_le in H1, H2. lia. Qed.
(** the number the digits [ds] denote after [a] *)
Definition acc (ds : bytes) (a : Z) : Z := fold_left (fun a b => a * 10 + digit b) ds a.
Lemma acc_app a b z : acc (a ++ b) z = acc b (acc a z).
Proof. apply fold_left_app. Qed.
Lemma acc_spec ds : all_digits ds -> forall a, exists r, acc ds a = a * 10 ^ Z.of_nat (length ds) + r /\ 0 <= r < 10 ^ Z.of_nat (length ds).
Proof.
  induction ds as [|b ds IH]; intros F a; [exists 0; cbn; lia|]. inversion F as [|x l Hb F']; subst. assert (Hd := digit_range b Hb). destruct (IH F' (a * 10 + digit b)) as (r & E & Hr).
  cbn [acc fold_left length] in *. unfold acc in E. rewrite E. rewrite Nat2Z.inj_succ, Z.pow_succ_r by lia. exists (digit b * 10 ^ Z.of_nat (length ds) + r). split; [ring|]. nia.
Qed.
Lemma acc_dval ds : all_digits ds -> acc ds 0 = Z.of_N (dval ds).
Proof.
  unfold acc, dval. replace 0 with (Z.of_N 0) by reflexivity. generalize 0%N. induction ds as [|b ds IH]; intros a F; [reflexivity|]. inversion F as [|x l Hb F']; subst. cbn [fold_left]. rewrite <- IH by exact F'. f_equal.
  unfold digit. unfold is_digit in Hb. apply andb_true_iff in Hb. destruct Hb as [H1 H2]. apply N.leb_le in H1, H2. lia.
Qed.

Lemma MX_big : (IZR (10 ^ 308) <= MX)%R.
Proof. unfold MX, F2R. cbn [Fnum Fexp]. rewrite <- IZR_Zpower by discriminate. rewrite <- mult_IZR. apply IZR_le. vm_compute. discriminate. Qed.
Lemma tiny : (bpow radix2 (-1022) <= / IZR (4 * 10 ^ 307))%R.
Proof.
  change (-1022) with (- (1022)). rewrite bpow_opp. apply Rinv_le; [apply IZR_lt; reflexivity|]. rewrite <- IZR_Zpower by discriminate. apply IZR_le. vm_compute. discriminate.
Qed.
Lemma tiny1 z : (/ 2 <= z)%R -> (bpow radix2 (-1022) <= z)%R.
Proof. intros H. apply Rle_trans with (/ 2)%R; [|exact H]. apply Rle_trans with (1 := tiny). apply Rinv_le; [lra|]. apply IZR_le. vm_compute. discriminate. Qed.
Lemma of_small g : 0 <= g <= 2 ^ 53 -> rep (of_Z g) (IZR g).
Proof.
  intros H. rewrite <- (rnd_exact g H). apply of_Z_rep; [lia|]. apply Rle_trans with (2 := MX_big). apply IZR_le. apply Z.le_trans with (1 := proj2 H). vm_compute. discriminate.
Qed.
Lemma rep_finite d v : rep d v -> (0 < v)%R -> exists m e, d = S754_finite false m e.
Proof. intros (b & <- & F & <- & S) H. destruct b as [s|s| |s m e Hb]; cbn in *; try lra; try discriminate. subst. eauto. Qed.

(** one more digit *)
Definition step (d : dbl) (g : Z) : dbl := dadd (dmul d (of_Z 10)) (of_Z g).
Lemma step_rep d v k X g : rep d v -> roundings k v (IZR X) -> 1 <= X < 10 ^ 305 -> (k <= 4000)%nat -> 0 <= g <= 9 ->
  exists v', rep (step d g) v' /\ roundings (k + 2) v' (IZR (X * 10 + g)).
Proof.
  intros R A HX Hk Hg. assert (X1 : (1 <= IZR X)%R) by (apply IZR_le; lia). assert (XM : (IZR X <= IZR (10 ^ 305))%R) by (apply IZR_le; lia).
  assert (MB := MX_big). replace (10 ^ 308) with (1000 * 10 ^ 305) in MB by reflexivity. rewrite mult_IZR in MB. set (C := IZR (10 ^ 305)) in *.
  assert (G : (0 <= IZR g <= 9)%R) by (split; apply IZR_le; lia).
  assert (L2 : (v <= 2 * IZR X)%R) by (apply (r_le2 k); [lia|lra|exact A]). assert (G2 : (IZR X / 2 <= v)%R) by (apply (r_ge2 k); [lia|lra|exact A]).
  assert (R10 := of_small 10 ltac:(lia)). assert (Rg := of_small g ltac:(lia)).
  assert (M := dmul_rep _ _ _ _ R R10). specialize (M ltac:(lra)). assert (A1 : roundings 1 (RND (v * IZR 10)) (v * IZR 10)) by (apply rnd_roundings; apply tiny1; lra).
  assert (A2 : roundings (1 + k) (RND (v * IZR 10)) (IZR X * IZR 10)). { eapply r_trans; [exact A1|]. replace k with (k + 0)%nat by lia. apply r_mul; [lra|lra|exact A|apply r_refl]. }
  assert (L3 : (RND (v * IZR 10) <= 2 * (IZR X * IZR 10))%R) by (apply (r_le2 (1 + k)); [lia|lra|exact A2]). assert (G3 : (IZR X * IZR 10 / 2 <= RND (v * IZR 10))%R) by (apply (r_ge2 (1 + k)); [lia|lra|exact A2]).
  exists (RND (RND (v * IZR 10) + IZR g)). split; [apply dadd_rep; [exact M|exact Rg|lra]|].
  replace (k + 2)%nat with (1 + (1 + k))%nat by lia. eapply r_trans; [apply rnd_roundings; apply tiny1; lra|]. rewrite plus_IZR, mult_IZR. apply r_add; [exact A2|]. apply r_weak. lra.
Qed.

Lemma pow_mono a b : 0 <= a <= b -> 10 ^ a <= 10 ^ b.
Proof. intros H. apply Z.pow_le_mono_r; lia. Qed.

(** digits of the integral part which do not fit the integer *)
Lemma int_dbl lim ds : all_digits ds -> forall t d v k X, rep d v -> roundings k v (IZR X) -> 1 <= X < 10 ^ t -> 0 <= t -> t + Z.of_nat (length ds) <= 300 -> (Z.of_nat k <= 2 * t) ->
  exists d' v', int_digits lim ds (inr d) = inr d' /\ rep d' v' /\ roundings (k + 2 * length ds) v' (IZR (acc ds X)) /\ X <= acc ds X < 10 ^ (t + Z.of_nat (length ds)).
Proof.
  intros F. induction F as [|b ds Hb F IH]; intros t d v k X R A HX Ht HL Hk.
  - exists d, v. cbn [int_digits length acc fold_left]. split; [reflexivity|]. split; [exact R|]. split; [rewrite Nat.mul_0_r, Nat.add_0_r; exact A|]. rewrite Z.add_0_r. lia.
  - assert (Hd := digit_range b Hb). cbn [length] in HL. rewrite Nat2Z.inj_succ in HL.
    assert (H305 := pow_mono t 305 ltac:(lia)).
    destruct (step_rep d v k X (digit b) R A ltac:(lia) ltac:(lia) Hd) as (v1 & R1 & A1). cbn [int_digits acc fold_left]. unfold step in R1.
    assert (Hp : 10 ^ (t + 1) = 10 * 10 ^ t) by (rewrite Z.pow_add_r by lia; lia).
    destruct (IH (t + 1) _ v1 (k + 2)%nat (X * 10 + digit b) R1 A1 ltac:(lia) ltac:(lia) ltac:(lia) ltac:(lia)) as (d' & v' & E & R' & A' & B). exists d', v'. split; [exact E|]. split; [exact R'|].
    change (fold_left (fun a b0 => a * 10 + digit b0) ds (X * 10 + digit b)) with (acc ds (X * 10 + digit b)). split; [replace (k + 2 * length (b :: ds))%nat with (k + 2 + 2 * length ds)%nat by (cbn [length]; lia); exact A'|].
    cbn [length]. rewrite Nat2Z.inj_succ. replace (t + Z.succ (Z.of_nat (length ds))) with (t + 1 + Z.of_nat (length ds)) by lia. lia.
Qed.
Lemma int_spec lim ds : 2 ^ 63 <= lim <= 2 ^ 64 -> all_digits ds -> forall t i, 0 <= i < lim -> i < 10 ^ t -> 0 <= t -> t + Z.of_nat (length ds) <= 300 ->
  match int_digits lim ds (inl i) with
  | inl z => z = acc ds i /\ 0 <= z < lim
  | inr d => exists v k, rep d v /\ roundings k v (IZR (acc ds i)) /\ (k <= 1 + 2 * (Z.to_nat t + length ds - 18))%nat /\ 2 ^ 63 <= acc ds i < 10 ^ 300
  end.
Proof.
  intros Hlim F. induction F as [|b ds Hb F IH]; intros t i Hi Ht T0 HL.
  - cbn [int_digits acc fold_left]. auto.
  - assert (Hd := digit_range b Hb). cbn [length] in *. rewrite Nat2Z.inj_succ in HL. cbn [int_digits acc fold_left].
    assert (Hp : 10 ^ (t + 1) = 10 * 10 ^ t) by (rewrite Z.pow_add_r by lia; lia).
    destruct (Z.ltb_spec (i * 10 + digit b) lim) as [L|L].
    + specialize (IH (t + 1) (i * 10 + digit b) ltac:(lia) ltac:(lia) ltac:(lia) ltac:(lia)). destruct (int_digits lim ds (inl (i * 10 + digit b))) as [z|d]; [exact IH|].
      destruct IH as (v & k & R & A & K & B). exists v, k. split; [exact R|]. split; [exact A|]. split; [|exact B]. replace (Z.to_nat t + S (length ds))%nat with (Z.to_nat (t + 1) + length ds)%nat by lia. exact K.
    + assert (T18 : 18 <= t). { destruct (Z.le_gt_cases 18 t) as [Q|Q]; [exact Q|]. assert (Q2 := pow_mono (t + 1) 18 ltac:(lia)). change (10 ^ 18) with 1000000000000000000 in Q2. change (2 ^ 63) with 9223372036854775808 in Hlim. lia. }
      assert (I1 : 1 <= i) by (change (2 ^ 63) with 9223372036854775808 in Hlim; lia).
      assert (Ri : rep (of_Z i) (RND (IZR i))). { apply of_Z_rep; [lia|]. apply Rle_trans with (2 := MX_big). apply IZR_le. apply Z.le_trans with (2 ^ 64); [lia|]. vm_compute. discriminate. }
      assert (Ai : roundings 1 (RND (IZR i)) (IZR i)). { apply rnd_roundings. apply tiny1. assert (1 <= IZR i)%R by (apply IZR_le; exact I1). lra. }
      assert (H305 := pow_mono t 305 ltac:(lia)).
      destruct (step_rep _ _ _ _ (digit b) Ri Ai ltac:(lia) ltac:(lia) Hd) as (v1 & R1 & A1). unfold step in R1.
      destruct (int_dbl lim ds F (t + 1) _ v1 3%nat (i * 10 + digit b) R1 A1 ltac:(lia) ltac:(lia) ltac:(lia) ltac:(lia)) as (d' & v' & E & R' & A' & B'). rewrite E. exists v', (3 + 2 * length ds)%nat.
      change (fold_left (fun a b0 => a * 10 + digit b0) ds (i * 10 + digit b)) with (acc ds (i * 10 + digit b)). split; [exact R'|]. split; [exact A'|]. split; [lia|]. assert (Q2 := pow_mono (t + 1 + Z.of_nat (length ds)) 300 ltac:(lia)). lia.
Qed.

(** ** the fraction *)
(** the number of significant digits (without the first one) of [z] *)
Definition sigok (z sg : Z) : Prop := 0 <= sg /\ 0 <= z < 10 ^ (sg + 1) /\ (z = 0 -> sg = 0) /\ (0 < z -> 10 ^ (sg - 1) <= z).
Lemma sigok_step z sg g : sigok z sg -> 0 <= g <= 9 -> sigok (z * 10 + g) (if z * 10 + g =? 0 then sg else sg + 1).
Proof.
  intros (S0 & Z0 & S1 & S2) Hg. destruct (Z.eqb_spec (z * 10 + g) 0) as [E|N].
  - assert (z = 0) by lia. subst. assert (S := S1 eq_refl). subst. rewrite E. repeat split; try lia. 
  - assert (Hp : 10 ^ (sg + 1 + 1) = 10 * 10 ^ (sg + 1)) by (rewrite (Z.pow_add_r 10 (sg + 1)) by lia; lia). split; [lia|]. split; [lia|]. split; [lia|]. intros _.
    replace (sg + 1 - 1) with sg by lia. destruct (Z.eq_dec z 0) as [->|Nz]; [rewrite (S1 eq_refl); cbn; lia|]. specialize (S2 ltac:(lia)). destruct (Z.eq_dec sg 0) as [->|Ns]; [cbn; lia|].
    replace sg with (sg - 1 + 1) by lia. rewrite Z.pow_add_r by lia. lia.
Qed.
Lemma frac_int_spec ds : all_digits ds -> forall i ef sg, sigok i sg -> exists pre rest z sg', frac_int ds i ef sg = (rest, z, ef - Z.of_nat (length pre), sg')
  /\ ds = pre ++ rest /\ z = acc pre i /\ sigok z sg' /\ (rest = [] \/ 2 ^ 53 <= z) /\ z <= Z.max i (10 * 2 ^ 53).
Proof.
  intros F. induction F as [|b ds Hb F IH]; intros i ef sg HS; cbn [frac_int].
  - exists [], [], i, sg. split; [cbn [length Z.of_nat]; rewrite Z.sub_0_r; reflexivity|]. repeat split; try assumption; try apply HS; auto; lia.
  - destruct (Z.ltb_spec (2 ^ 53 - 1) i) as [L|L].
    + exists [], (b :: ds), i, sg. split; [cbn [length Z.of_nat]; rewrite Z.sub_0_r; reflexivity|]. repeat split; try assumption; try apply HS; auto; try lia.
    + cbv zeta. assert (Hd := digit_range b Hb). destruct (IH (i * 10 + digit b) (ef - 1) _ (sigok_step i sg (digit b) HS Hd)) as (pre & rest & z & sg' & E & E2 & E3 & S' & HR & HM).
      exists (b :: pre), rest, z, sg'. split; [replace (ef - Z.of_nat (length (b :: pre))) with (ef - 1 - Z.of_nat (length pre)) by (cbn [length]; lia); exact E|]. split; [rewrite E2; reflexivity|]. split; [exact E3|]. split; [exact S'|]. split; [exact HR|]. change (2 ^ 53) with 9007199254740992 in *. lia.
Qed.
Lemma frac_dbl_spec ds : all_digits ds -> forall d v k X ef sg, rep d v -> roundings k v (IZR X) -> 1 <= X < 10 ^ 300 -> 15 <= sg -> sigok X sg -> Z.of_nat k + 2 * (17 - sg) <= 3000 ->
  exists pre rest d' v', frac_dbl ds d ef sg = (d', ef - Z.of_nat (length pre)) /\ ds = pre ++ rest /\ rep d' v' /\ roundings (k + 2 * length pre) v' (IZR (acc pre X))
    /\ (rest = [] \/ 10 ^ 16 <= acc pre X) /\ X <= acc pre X <= 100 * X + 99 /\ (length pre = 0%nat \/ Z.of_nat (length pre) <= 17 - sg).
Proof.
  intros F. induction F as [|b ds Hb F IH]; intros d v k X ef sg R A HX Hsg HS Hk; cbn [frac_dbl].
  - exists [], [], d, v. cbn [length acc fold_left app Nat.mul]. rewrite Z.sub_0_r, Nat.add_0_r. split; [reflexivity|]. split; [reflexivity|]. split; [exact R|]. split; [exact A|]. split; [left; reflexivity|]. split; [lia|left; reflexivity].
  - destruct (Z.ltb_spec sg 17) as [L|L].
    + assert (Hd := digit_range b Hb). cbv zeta. assert (H305 : 1 <= X < 10 ^ 305) by (split; [apply HX|eapply Z.lt_le_trans; [apply HX|apply Z.pow_le_mono_r; [reflexivity|discriminate]]]).
      destruct (step_rep d v k X (digit b) R A H305 ltac:(lia) Hd) as (v1 & R1 & A1). change (dadd (dmul d (of_Z 10)) (of_Z (digit b))) with (step d (digit b)).
      assert (P1 : (0 < v1)%R). { eapply r_pos_lt; [|exact A1]. apply IZR_lt. lia. } destruct (rep_finite _ _ R1 P1) as (m & e & Ef).
      assert (HX2 : X < 10 ^ 18). { destruct HS as (_ & B & _). assert (Q := pow_mono (sg + 1) 18 ltac:(lia)). lia. }
      assert (HX3 : 1 <= X * 10 + digit b < 10 ^ 300).
      { split; [lia|]. apply Z.lt_le_trans with (10 ^ 20); [|apply Z.pow_le_mono_r; [reflexivity|discriminate]]. change (10 ^ 18) with 1000000000000000000 in HX2. change (10 ^ 20) with 100000000000000000000. lia. }
      clear HX2 H305.
      assert (HS1 := sigok_step X sg (digit b) HS Hd). destruct (Z.eqb_spec (X * 10 + digit b) 0) as [Q|_]; [lia|].
      rewrite Ef. rewrite <- Ef.
      destruct (IH _ v1 (k + 2)%nat (X * 10 + digit b) (ef - 1) (sg + 1) R1 A1 HX3 ltac:(lia) HS1 ltac:(lia)) as (pre & rest & d' & v' & E & E2 & R' & A' & HR & HB & HLn).
      exists (b :: pre), rest, d', v'. split; [replace (ef - Z.of_nat (length (b :: pre))) with (ef - 1 - Z.of_nat (length pre)) by (cbn [length]; lia); exact E|]. split; [rewrite E2; reflexivity|]. split; [exact R'|]. split; [replace (k + 2 * length (b :: pre))%nat with (k + 2 + 2 * length pre)%nat by (cbn [length]; lia); exact A'|].
      split; [exact HR|]. assert (HLen : (length pre <= 1)%nat) by lia. split; [|right; cbn [length]; lia].
      cbn [acc fold_left]. change (fold_left (fun a b0 => a * 10 + digit b0) pre (X * 10 + digit b)) with (acc pre (X * 10 + digit b)). 
      assert (Fp : all_digits pre) by (rewrite E2 in F; apply Forall_app in F; apply F). destruct (acc_spec pre Fp (X * 10 + digit b)) as (r & Er & Hr).
      destruct pre as [|b2 [|]]; cbn [length] in *; [cbn [acc fold_left]; lia| |lia]. change (10 ^ Z.of_nat 1) with 10 in *. lia.
    + exists [], (b :: ds), d, v. cbn [length acc fold_left app Nat.mul]. rewrite Z.sub_0_r, Nat.add_0_r.
      assert (E : forall l, frac_dbl l d ef sg = (d, ef)). { induction l as [|c l IHl]; [reflexivity|]. cbn [frac_dbl]. destruct (Z.ltb_spec sg 17); [lia|exact IHl]. } rewrite E.
      split; [reflexivity|]. split; [reflexivity|]. split; [exact R|]. split; [exact A|]. split; [|split; [lia|left; reflexivity]]. right. destruct HS as (_ & _ & _ & S2). assert (Q := pow_mono 16 (sg - 1) ltac:(lia)). lia.
Qed.
