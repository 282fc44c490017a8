(** NumberFloat.v -- the arithmetic of JsonNumber.v (Coq.Floats.SpecFloat) and the bit patterns of doubles, in terms of rounded real numbers (Flocq) *)
From Coq Require Import List NArith ZArith Bool Reals Psatz Floats.SpecFloat.
From Flocq Require Import Core Relative.
From Flocq.IEEE754 Require Import BinarySingleNaN.
From Verif Require Import Base Float JsonText JsonNumber NumberSpec.
Import ListNotations.
Local Open Scope R_scope.

Global Instance P53 : Prec_gt_0 53 := eq_refl _.
Global Instance E1024 : Prec_lt_emax 53 1024 := eq_refl _.
Notation fx := (FLT_exp (-1074) 53).
Definition RND (x : R) : R := round radix2 fx ZnearestE x.
Notation bf := (binary_float 53 1024).

(** [d] is a finite double with the value [x >= 0], not "-0" *)
Definition rep (d : dbl) (x : R) : Prop := exists b : bf, B2SF b = d /\ is_finite b = true /\ B2R b = x /\ Bsign b = false.

Lemma round_nearest_even_equiv s m l : round_nearest_even m l = choice_mode mode_NE s m l.
Proof. case l; [reflexivity|intro c]. case c; [|reflexivity..]. now simpl; unfold Round.cond_incr; case Z.even. Qed.
Lemma binary_round_aux_equiv sx mx ex lx : SpecFloat.binary_round_aux 53 1024 sx mx ex lx = binary_round_aux 53 1024 mode_NE sx mx ex lx.
Proof. unfold SpecFloat.binary_round_aux, binary_round_aux. set (m := shr_fexp _ _ _). case m; intros mrs' e'; simpl. now rewrite (round_nearest_even_equiv sx). Qed.
Lemma binary_round_equiv s m e : SpecFloat.binary_round 53 1024 s m e = binary_round 53 1024 mode_NE s m e.
Proof. unfold SpecFloat.binary_round, binary_round, shl_align_fexp. set (mez := shl_align _ _ _); case mez as [mz ez]. apply binary_round_aux_equiv. Qed.
Lemma binary_normalize_equiv m e szero : SpecFloat.binary_normalize 53 1024 m e szero = B2SF (binary_normalize 53 1024 P53 E1024 mode_NE m e szero).
Proof. case m as [ | p | p]; [now simpl|simpl; rewrite B2SF_SF2B; apply binary_round_equiv..]. Qed.
Lemma mul_equiv (x y : bf) : SFmul 53 1024 (B2SF x) (B2SF y) = B2SF (Bmult mode_NE x y).
Proof. case x as [sx|sx| |sx mx ex Bx]; case y as [sy|sy| |sy my ey By]; [now trivial.. | ]. simpl. rewrite B2SF_SF2B. apply binary_round_aux_equiv. Qed.
Lemma add_equiv (x y : bf) : SFadd 53 1024 (B2SF x) (B2SF y) = B2SF (Bplus mode_NE x y).
Proof. case x as [sx|sx| |sx mx ex Bx]; case y as [sy|sy| |sy my ey By]; [now (trivial || simpl; case Bool.eqb).. | ]. apply binary_normalize_equiv. Qed.
Lemma div_equiv (x y : bf) : SFdiv 53 1024 (B2SF x) (B2SF y) = B2SF (Bdiv mode_NE x y).
Proof.
  case x as [sx|sx| |sx mx ex Bx]; case y as [sy|sy| |sy my ey By]; [now (trivial || simpl; case Bool.eqb).. | ].
  simpl. rewrite B2SF_SF2B. set (melz := SFdiv_core_binary _ _ _ _ _ _). case melz as [[mz ez] lz]. apply binary_round_aux_equiv.
Qed.

(** below the largest double *)
Definition MX : R := F2R (Float radix2 3 1022).
Lemma rnd_lt x : 0 <= x <= MX -> Rabs (RND x) < bpow radix2 1024.
Proof.
  intros [H0 H]. apply Rle_lt_trans with MX.
  - unfold RND. apply abs_round_le_generic; [apply FLT_exp_valid; reflexivity|apply valid_rnd_N| |rewrite Rabs_pos_eq; assumption].
    apply generic_format_FLT. exists (Float radix2 3 1022); [reflexivity|reflexivity|discriminate].
  - unfold MX, F2R. cbn [Fnum Fexp]. change 1024%Z with (2 + 1022)%Z. rewrite bpow_plus. change (bpow radix2 2) with 4. assert (0 < bpow radix2 1022) by apply bpow_gt_0. lra.
Qed.
Lemma of_Z_rep z : (0 <= z)%Z -> IZR z <= MX -> rep (of_Z z) (RND (IZR z)).
Proof.
  intros H0 Hz. assert (H := binary_normalize_correct 53 1024 P53 E1024 mode_NE z 0 false). cbv zeta in H. unfold F2R in H. cbn [Fnum Fexp bpow round_mode] in H. rewrite Rmult_1_r in H.
  change (round radix2 (SpecFloat.fexp 53 1024) ZnearestE (IZR z)) with (RND (IZR z)) in H.
  assert (Hz0 : 0 <= IZR z) by (apply IZR_le; exact H0).
  rewrite Rlt_bool_true in H by (apply rnd_lt; split; assumption). destruct H as (V & F & S). eexists. split; [symmetry; apply binary_normalize_equiv|]. split; [exact F|]. split; [exact V|].
  rewrite S. destruct (Rcompare_spec (IZR z) 0); [lra|reflexivity|reflexivity].
Qed.
Lemma rep_pos d x : rep d x -> 0 <= x.
Proof.
  intros (b & _ & F & <- & S). destruct b as [s|s| |s m e H]; cbn in *; try lra. subst. unfold F2R. cbn. apply Rmult_le_pos; [apply IZR_le; lia|apply bpow_ge_0].
Qed.
Lemma finite_nan (b : bf) : is_finite b = true -> is_nan b = false.
Proof. destruct b; cbn; congruence. Qed.
Lemma dmul_rep a b x y : rep a x -> rep b y -> x * y <= MX -> rep (dmul a b) (RND (x * y)).
Proof.
  intros Ra Rb Hxy. assert (Hx := rep_pos _ _ Ra). assert (Hy := rep_pos _ _ Rb). destruct Ra as (p & <- & Fp & <- & Sp). destruct Rb as (q & <- & Fq & <- & Sq).
  assert (H := Bmult_correct 53 1024 P53 E1024 mode_NE p q). cbn [round_mode] in H.
  change (round radix2 (SpecFloat.fexp 53 1024) ZnearestE (B2R p * B2R q)) with (RND (B2R p * B2R q)) in H.
  rewrite Rlt_bool_true in H by (apply rnd_lt; split; [apply Rmult_le_pos; assumption|assumption]). destruct H as (V & F & S). rewrite Fp, Fq in F.
  eexists. split; [symmetry; apply mul_equiv|]. split; [exact F|]. split; [exact V|]. rewrite S by (apply finite_nan; exact F). rewrite Sp, Sq. reflexivity.
Qed.
Lemma ddiv_rep a b x y : rep a x -> rep b y -> 0 < y -> x / y <= MX -> rep (ddiv a b) (RND (x / y)).
Proof.
  intros Ra Rb Hy Hxy. assert (Hx := rep_pos _ _ Ra). destruct Ra as (p & <- & Fp & <- & Sp). destruct Rb as (q & <- & Fq & <- & Sq).
  assert (H := Bdiv_correct 53 1024 P53 E1024 mode_NE p q). cbn [round_mode] in H. specialize (H (Rgt_not_eq _ _ Hy)).
  change (round radix2 (SpecFloat.fexp 53 1024) ZnearestE (B2R p / B2R q)) with (RND (B2R p / B2R q)) in H.
  rewrite Rlt_bool_true in H by (apply rnd_lt; split; [apply Rmult_le_pos; [assumption|left; apply Rinv_0_lt_compat; assumption]|assumption]). destruct H as (V & F & S). rewrite Fp in F.
  eexists. split; [symmetry; apply div_equiv|]. split; [exact F|]. split; [exact V|]. rewrite S by (apply finite_nan; exact F). rewrite Sp, Sq. reflexivity.
Qed.
Lemma dadd_rep a b x y : rep a x -> rep b y -> x + y <= MX -> rep (dadd a b) (RND (x + y)).
Proof.
  intros Ra Rb Hxy. assert (Hx := rep_pos _ _ Ra). assert (Hy := rep_pos _ _ Rb). destruct Ra as (p & <- & Fp & <- & Sp). destruct Rb as (q & <- & Fq & <- & Sq).
  assert (H := Bplus_correct 53 1024 P53 E1024 mode_NE p q Fp Fq). cbn [round_mode] in H.
  change (round radix2 (SpecFloat.fexp 53 1024) ZnearestE (B2R p + B2R q)) with (RND (B2R p + B2R q)) in H.
  rewrite Rlt_bool_true in H by (apply rnd_lt; split; lra). destruct H as (V & F & S).
  eexists. split; [symmetry; apply add_equiv|]. split; [exact F|]. split; [exact V|]. rewrite S, Sp, Sq. destruct (Rcompare_spec (B2R p + B2R q) 0); [lra|reflexivity|reflexivity].
Qed.

(* ------------------------------------------------------------------ *)
(** * Bit patterns *)

Lemma powerRZ_bpow e : powerRZ 2 e = bpow radix2 e.
Proof. rewrite bpow_powerRZ. reflexivity. Qed.

(** mantissa (with the implicit bit) and exponent *)
Definition sig (n : N) : Z := if (f64_exp n =? 0)%N then Z.of_N (f64_mant n) else (2 ^ 52 + Z.of_N (f64_mant n))%Z.
Definition ex (n : N) : Z := if (f64_exp n =? 0)%N then (-1074)%Z else (Z.of_N (f64_exp n) - 1075)%Z.
Lemma value_F2R n : f64_value n = F2R (Float radix2 (if f64_sign n then - sig n else sig n) (ex n)).
Proof.
  unfold f64_value, sig, ex, F2R. destruct (f64_exp n =? 0)%N; cbn [Fnum Fexp]; rewrite powerRZ_bpow; destruct (f64_sign n); rewrite ?opp_IZR; ring.
Qed.
Lemma sig_bound n : (0 <= sig n < 2 ^ 53)%Z /\ (ex n = -1074 \/ 2 ^ 52 <= sig n)%Z /\ (-1074 <= ex n)%Z.
Proof.
  unfold sig, ex. assert (M : (f64_mant n < 2 ^ 52)%N) by (apply N.mod_lt; discriminate). change (2 ^ 52)%N with 4503599627370496%N in M. change (2 ^ 53)%Z with 9007199254740992%Z. change (2 ^ 52)%Z with 4503599627370496%Z.
  destruct (f64_exp n =? 0)%N eqn:E; [lia|]. apply N.eqb_neq in E. lia.
Qed.
Lemma value_format n : generic_format radix2 fx (f64_value n).
Proof.
  rewrite value_F2R. apply generic_format_FLT. destruct (sig_bound n) as (B & _ & E). exists (Float radix2 (if f64_sign n then - sig n else sig n) (ex n)); [reflexivity| |exact E].
  cbn [Fnum]. change (radix2 ^ 53)%Z with (2 ^ 53)%Z. destruct (f64_sign n); lia.
Qed.
Lemma sig_even n : N.even n = Z.even (sig n).
Proof.
  assert (E : N.even n = N.even (f64_mant n)).
  { unfold f64_mant. rewrite (N.div_mod n (2 ^ 52)) at 1 by discriminate. rewrite N.even_add, N.even_mul. cbn [N.even]. replace (N.even (2 ^ 52)) with true by reflexivity. cbn [orb]. destruct (N.even (n mod 2 ^ 52)); reflexivity. }
  rewrite E. assert (Q : forall m, N.even m = Z.even (Z.of_N m)) by (intros [|[| |]]; reflexivity). unfold sig. destruct (f64_exp n =? 0)%N; rewrite ?Z.even_add, Q; [reflexivity|]. replace (Z.even (2 ^ 52)) with true by reflexivity. destruct (Z.even (Z.of_N (f64_mant n))); reflexivity.
Qed.
Lemma sig_canonical n : sig n <> 0%Z -> canonical radix2 fx (Float radix2 (if f64_sign n then - sig n else sig n) (ex n)).
Proof.
  intros Hn. destruct (sig_bound n) as ((B0 & B1) & C & E). unfold canonical, cexp. cbn [Fexp].
  assert (A : Zdigits radix2 (if f64_sign n then - sig n else sig n) = Zdigits radix2 (sig n)) by (destruct (f64_sign n); [apply Zdigits_opp|reflexivity]).
  rewrite mag_F2R_Zdigits by (destruct (f64_sign n); lia). rewrite A. unfold FLT_exp.
  assert (D1 : (Zdigits radix2 (sig n) <= 53)%Z) by (apply Zdigits_le_Zpower; rewrite Z.abs_eq by exact B0; exact B1).
  destruct C as [C|C].
  - rewrite C. lia.
  - assert (D2 : (52 < Zdigits radix2 (sig n))%Z) by (apply (Zdigits_gt_Zpower radix2 52); rewrite Z.abs_eq by exact B0; exact C). lia.
Qed.

(** a double whose value is the rounded number is the nearest one *)
Lemma value_nearest x n : is_double n -> f64_value n = RND x -> nearest x n.
Proof.
  intros D V. split; [exact D|]. intros n' D'. assert (NE : Rnd_NE_pt radix2 fx x (RND x)) by (apply round_NE_pt; [apply FLT_exp_valid; reflexivity|apply exists_NE_FLT; right; reflexivity]).
  destruct NE as [[_ N] U]. rewrite V. assert (Q := N _ (value_format n')). destruct (Rle_lt_or_eq_dec _ _ Q) as [L|E]; [left; exact L|right]. split; [exact E|].
  destruct (Req_dec (f64_value n') (RND x)) as [E2|N2]; [left; exact E2|]. right. destruct U as [(g & Eg & Cg & Ev)|U].
  - rewrite sig_even. destruct (Z.eq_dec (sig n) 0) as [->|N0]; [reflexivity|].
    assert (Eq : g = Float radix2 (if f64_sign n then - sig n else sig n) (ex n)).
    { apply (canonical_unique radix2 fx); [exact Cg|apply sig_canonical; exact N0|]. rewrite <- Eg, <- V. apply value_F2R. }
    subst g. cbn [Fnum] in Ev. destruct (f64_sign n); [rewrite Z.even_opp in Ev|]; exact Ev.
  - exfalso. apply N2. apply U. split; [apply value_format|]. intros g Hg. rewrite <- E. apply N. exact Hg.
Qed.

(** patterns composed of exponent and mantissa *)
Lemma pattern k r : (k < 2047)%N -> (r < 2 ^ 52)%N ->
  (k * 2 ^ 52 + r < 2 ^ 63)%N /\ f64_exp (k * 2 ^ 52 + r) = k /\ f64_mant (k * 2 ^ 52 + r) = r /\ f64_sign (k * 2 ^ 52 + r) = false /\ f64_finite (k * 2 ^ 52 + r) = true.
Proof.
  intros Hk Hr. assert (E63 : (2 ^ 63 = 2048 * 2 ^ 52)%N) by reflexivity. assert (E11 : (2 ^ 11 = 2048)%N) by reflexivity. assert (L : (2 ^ 52 <> 0)%N) by discriminate. 
  assert (E0 : f64_exp (k * 2 ^ 52 + r) = k).
  { unfold f64_exp. rewrite E11. remember (2 ^ 52)%N as P eqn:EP. clear EP E63. rewrite N.div_add_l, (N.div_small r), N.add_0_r by assumption. apply N.mod_small. lia. }
  assert (L63 : (k * 2 ^ 52 + r < 2 ^ 63)%N) by (rewrite E63; remember (2 ^ 52)%N as P eqn:EP; clear EP E63; nia).
  split; [exact L63|]. split; [exact E0|]. split; [|split].
  - unfold f64_mant. remember (2 ^ 52)%N as P eqn:EP. clear EP. rewrite N.add_comm, N.mod_add by exact L. apply N.mod_small. exact Hr.
  - unfold f64_sign. rewrite (N.div_small _ _ L63). reflexivity.
  - unfold f64_finite. rewrite E0. apply negb_true_iff. apply N.eqb_neq. lia.
Qed.
Lemma finite_bits m e : bounded 53 1024 m e = true ->
  exists k r, (k < 2047)%N /\ (r < 2 ^ 52)%N /\ bits (S754_finite false m e) = Some (k * 2 ^ 52 + r)%N
    /\ Zpos m = (if (k =? 0)%N then Z.of_N r else 2 ^ 52 + Z.of_N r)%Z /\ e = (if (k =? 0)%N then -1074 else Z.of_N k - 1075)%Z.
Proof.
  intros H. unfold bounded in H. apply andb_true_iff in H. destruct H as [C1 C2]. apply Zle_bool_imp_le in C2. unfold canonical_mantissa in C1. apply Zeq_bool_eq in C1.
  rewrite Zpos_digits2_pos in C1. unfold SpecFloat.fexp, SpecFloat.emin in C1. assert (Dg := Zdigits_correct radix2 (Zpos m)). destruct Dg as [_ D2]. cbn [Z.abs] in D2. cbn [bits].
  assert (E52 : (2 ^ 52 = 4503599627370496)%N) by reflexivity. assert (R52 : (radix2 ^ 52 = 4503599627370496)%Z) by reflexivity. assert (R53 : (radix2 ^ 53 = 9007199254740992)%Z) by reflexivity. assert (Z52 : (2 ^ 52 = 4503599627370496)%Z) by reflexivity.
  rewrite Z52, E52. destruct (N.ltb_spec (Npos m) 4503599627370496) as [L|L].
  - assert (Dm : (Zdigits radix2 (Zpos m) <= 52)%Z) by (apply Zdigits_le_Zpower; rewrite R52; cbn [Z.abs]; clear - L; lia).
    exists 0%N, (Npos m). split; [reflexivity|]. split; [exact L|]. split; [reflexivity|]. split; [reflexivity|]. clear - C1 Dm. cbn [N.eqb]. lia.
  - assert (Dm : (52 < Zdigits radix2 (Zpos m))%Z) by (apply Zdigits_gt_Zpower; rewrite R52; cbn [Z.abs]; clear - L; lia).
    assert (Dm2 : (Zdigits radix2 (Zpos m) = 53)%Z) by (clear - C1 C2 Dm; lia). rewrite Dm2, R53 in D2. exists (Z.to_N (e + 1075)), (Npos m - 4503599627370496)%N.
    clear E52 R52 R53 Z52. split; [lia|]. split; [lia|]. split; [rewrite N.add_0_l; reflexivity|]. destruct (N.eqb_spec (Z.to_N (e + 1075)) 0); [lia|]. lia.
Qed.
(** the pattern of a finite double which is not negative *)
Lemma rep_bits d x : rep d x -> exists n, bits d = Some n /\ (n < 2 ^ 63)%N /\ f64_finite n = true /\ f64_sign n = false /\ f64_value n = x.
Proof.
  intros (b & <- & F & <- & S). destruct b as [s|s| |s m e H]; try discriminate F; cbn [Bsign] in S; subst s.
  - exists 0%N. split; [reflexivity|]. split; [reflexivity|]. split; [reflexivity|]. split; [reflexivity|]. cbn. ring.
  - clear F. cbn [B2SF B2R cond_Zopp]. destruct (finite_bits m e H) as (k & r & Hk & Hr & Eb & Em & Ee). destruct (pattern k r Hk Hr) as (L & E0 & M0 & S0 & F0).
    exists (k * 2 ^ 52 + r)%N. split; [exact Eb|]. split; [exact L|]. split; [exact F0|]. split; [exact S0|]. rewrite value_F2R. unfold sig, ex. rewrite S0, E0, M0. rewrite Em, Ee. destruct (k =? 0)%N; reflexivity.
Qed.
(** the same after a minus *)
Lemma neg_bits n : (n < 2 ^ 63)%N -> f64_finite n = true -> f64_sign n = false -> is_double (2 ^ 63 + n) /\ f64_sign (2 ^ 63 + n) = true /\ f64_value (2 ^ 63 + n) = - f64_value n.
Proof.
  intros L F S. change (2 ^ 63)%N with 9223372036854775808%N in *.
  assert (E0 : f64_exp (9223372036854775808 + n) = f64_exp n).
  { unfold f64_exp. change (2 ^ 52)%N with 4503599627370496%N. replace 9223372036854775808%N with (2048 * 4503599627370496)%N by reflexivity. rewrite N.div_add_l by discriminate. change (2 ^ 11)%N with 2048%N. rewrite N.add_comm. replace 2048%N with (1 * 2048)%N at 1 by reflexivity. apply N.mod_add. discriminate. }
  assert (M0 : f64_mant (9223372036854775808 + n) = f64_mant n).
  { unfold f64_mant. change (2 ^ 52)%N with 4503599627370496%N. replace 9223372036854775808%N with (2048 * 4503599627370496)%N by reflexivity. rewrite N.add_comm. apply N.mod_add. discriminate. }
  assert (S0 : f64_sign (9223372036854775808 + n) = true).
  { unfold f64_sign. change (2 ^ 63)%N with 9223372036854775808%N. replace (9223372036854775808 + n)%N with (1 * 9223372036854775808 + n)%N by lia. rewrite N.div_add_l, (N.div_small n) by (discriminate || exact L). reflexivity. }
  split; [split; [change (2 ^ 64)%N with 18446744073709551616%N; lia|unfold f64_finite in *; rewrite E0; exact F]|]. split; [exact S0|].
  rewrite !value_F2R. unfold sig, ex. rewrite S0, S, E0, M0. unfold F2R. cbn [Fnum Fexp]. rewrite opp_IZR. ring.
Qed.
