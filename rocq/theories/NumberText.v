(** NumberText.v -- the text of a number and what is made of it *)
From Coq Require Import String List NArith ZArith Bool Reals Psatz Floats.SpecFloat.
From Flocq Require Import Core.
From Flocq.IEEE754 Require Import BinarySingleNaN.
From Verif Require Import Base Types GenModel Float JsonModel JsonText JsonTextSpec JsonTextFacts JsonTextTop JsonNumber GrammarSpec GrammarFacts NumberSpec NumberFloat NumberReal NumberFacts NumberTop.
Import ListNotations.
Local Open Scope list_scope.
Local Open Scope Z_scope.

Definition minus_sign (m : bytes) : bool := match m with [] => false | _ => true end.
Lemma nondigit_app f e : (f = [] \/ exists d, f = chr "." ++ d) -> (e = [] \/ exists x g d, e = x ++ g ++ d /\ (x = chr "e" \/ x = chr "E")) -> match f ++ e with b :: _ => is_digit b = false | [] => True end.
Proof.
  intros [->|(d & ->)] [->|(x & g & d' & -> & [->| ->])]; cbn; auto.
Qed.
Lemma digits_front ds b r : all_digits ds -> ds <> [] -> ds ++ r = b :: r -> is_digit b = true.
Proof. intros F N E. destruct F; [contradiction|]. injection E as <- _. assumption. Qed.
Lemma strtod_text m i f e n p : denotes m i f e n p ->
  exists ds k, strtod_normal (m ++ i ++ f ++ e) = double_of (minus_sign m) i ds k /\ int_ok i /\ all_digits ds /\ dval (i ++ ds) = n /\ p = expo k - Z.of_nat (length ds).
Proof.
  intros (NT & ds & k & Hf & D & He & ->). destruct (decimal_dval _ _ D) as [Fd Ed]. apply Forall_app in Fd. destruct Fd as [Fi Fds]. destruct NT as [Hm Hi Hf' He'].
  assert (I : int_ok i). { split; [exact Fi|]. destruct Hi as [Hi|[Hr Hh]]; [left; exact Hi|right]. split; [apply Hr|]. apply hd_lead; [apply Hr|exact Hh]. }
  assert (E0 : strtod_normal (m ++ i ++ f ++ e) = (let '(ip, s1) := digits (i ++ f ++ e) in
    let '(fp, s2) := match s1 with Byte.x2e :: s' => digits s' | _ => ([], s1) end in
    let e := match s2 with
           | (Byte.x65 | Byte.x45) :: Byte.x2d :: s' => Some (- Z.of_N (dval s'))
           | (Byte.x65 | Byte.x45) :: Byte.x2b :: s' => Some (Z.of_N (dval s'))
           | (Byte.x65 | Byte.x45) :: s' => Some (Z.of_N (dval s'))
           | _ => None
           end in
    double_of (minus_sign m) ip fp e)).
  { unfold strtod_normal. destruct Hm as [->| ->]; [|reflexivity]. cbn [app minus_sign]. destruct I as [_ I]. destruct i as [|b i]; [exfalso; destruct I as [I|[I _]]; [discriminate|contradiction]|]. inversion Fi as [|x l Hb _]; subst. cbn [app]. destruct b; try reflexivity; discriminate Hb. }
  rewrite E0. clear E0. assert (Hf2 : f = [] \/ exists d, f = chr "." ++ d) by (destruct Hf as [[-> _]| ->]; eauto).
  assert (He2 : e = [] \/ exists x g d, e = x ++ g ++ d /\ (x = chr "e" \/ x = chr "E")) by (destruct He' as [->|(x & g & d & -> & X & _)]; eauto 10).
  rewrite digits_app by (try exact Fi; apply nondigit_app; assumption).
  set (ee := match e with
           | (Byte.x65 | Byte.x45) :: Byte.x2d :: s' => Some (- Z.of_N (dval s'))
           | (Byte.x65 | Byte.x45) :: Byte.x2b :: s' => Some (Z.of_N (dval s'))
           | (Byte.x65 | Byte.x45) :: s' => Some (Z.of_N (dval s'))
           | _ => None
           end).
  assert (Ek : expo ee = k).
  { unfold ee. destruct He as [|x g dd q Hx Hg Hn Hd|x dd q Hx Hn Hd]; [reflexivity|..]; destruct (decimal_dval _ _ Hd) as [Fx Ex].
    - destruct Hx as [->| ->], Hg as [->| ->]; cbn [app chr list_byte_of_string]; destruct dd as [|c dd]; try contradiction; inversion Fx as [|? ? Hc _]; subst; cbn -[dval]; try (rewrite Ex; reflexivity); destruct c; try discriminate Hc; reflexivity.
    - destruct Hx as [->| ->]; cbn -[dval]; rewrite Ex; reflexivity. }
  exists ds, ee. split; [|split; [exact I|split; [exact Fds|split; [exact Ed|rewrite Ek; reflexivity]]]].
  destruct Hf as [[-> ->]| ->].
  - cbn [app]. assert (E1 : match e with Byte.x2e :: s' => digits s' | _ => ([], e) end = ([], e)). { destruct He2 as [->|(x & g & d & -> & [->| ->])]; reflexivity. } rewrite E1. reflexivity.
  - cbn [app chr list_byte_of_string]. cbn. rewrite digits_app; [reflexivity|exact Fds|]. destruct He2 as [->|(x & g & d & -> & [->| ->])]; cbn; auto.
Qed.

(** two nearest doubles *)
Lemma nearest_RND x n n0 : is_double n0 -> f64_value n0 = RND x -> nearest x n -> f64_value n = RND x.
Proof.
  intros D0 V0 N. assert (N0 := value_nearest x n0 D0 V0). destruct N as [D N]. destruct (N n0 D0) as [L|[E Q]].
  - exfalso. destruct (proj2 N0 n D) as [L'|[E' _]]; lra.
  - destruct Q as [Q|Ev]; [rewrite <- V0; symmetry; exact Q|]. 
    assert (NE : Rnd_NE_pt radix2 (FLT_exp (-1074) 53) x (RND x)) by (apply round_NE_pt; [apply FLT_exp_valid; reflexivity|apply exists_NE_FLT; right; reflexivity]).
    destruct NE as [[F0 N1] U]. rewrite V0 in E. destruct (Req_dec (f64_value n) (RND x)) as [Z|Z]; [exact Z|]. destruct U as [U|U].
    + assert (P0 : Rnd_NE_pt radix2 (FLT_exp (-1074) 53) x (RND x)) by (split; [split; assumption|left; exact U]).
      assert (MN : round_pred_monotone (Rnd_NE_pt radix2 (FLT_exp (-1074) 53))) by (apply Rnd_NE_pt_monotone; [apply FLT_exp_valid; reflexivity|apply exists_NE_FLT; right; reflexivity]).
      assert (P1 : Rnd_NE_pt radix2 (FLT_exp (-1074) 53) x (f64_value n)); [|apply Rle_antisym; [exact (MN x x _ _ P1 P0 (Rle_refl x))|exact (MN x x _ _ P0 P1 (Rle_refl x))]]. split; [split; [apply value_format|intros g Hg; rewrite E; apply N1; exact Hg]|]. left.
      destruct (Z.eq_dec (sig n) 0) as [S0|S0].
      * exists (Float radix2 0 (cexp radix2 (FLT_exp (-1074) 53) 0)). rewrite value_F2R, S0. split; [destruct (f64_sign n); unfold F2R; cbn; ring|]. split; [|reflexivity]. unfold canonical. cbn [Fexp]. f_equal. unfold F2R. cbn. ring.
      * exists (Float radix2 (if f64_sign n then - sig n else sig n) (ex n)). split; [apply value_F2R|]. split; [apply sig_canonical; exact S0|]. cbn [Fnum]. rewrite sig_even in Ev. destruct (f64_sign n); [rewrite Z.even_opp|]; exact Ev.
    + exfalso. apply Z. apply U. split; [apply value_format|intros g Hg; rewrite E; apply N1; exact Hg].
Qed.
Lemma parts n : (n < 2 ^ 64)%N -> n = ((if f64_sign n then 2 ^ 63 else 0) + f64_exp n * 2 ^ 52 + f64_mant n)%N.
Proof.
  intros H. unfold f64_sign, f64_exp, f64_mant. change (2 ^ 64)%N with 18446744073709551616%N in H. change (2 ^ 63)%N with 9223372036854775808%N. change (2 ^ 52)%N with 4503599627370496%N. change (2 ^ 11)%N with 2048%N.
  assert (A := N.div_mod n 4503599627370496 ltac:(discriminate)). assert (B := N.div_mod (n / 4503599627370496) 2048 ltac:(discriminate)).
  assert (C : (n / 4503599627370496 / 2048 = n / 9223372036854775808)%N) by (rewrite N.div_div by discriminate; reflexivity). rewrite C in B. clear C.
  assert (H2 : (n / 9223372036854775808 < 2)%N) by (apply N.div_lt_upper_bound; [discriminate|exact H]).
  set (q := (n / 9223372036854775808)%N) in *. set (u := (n / 4503599627370496)%N) in *. set (w := (u mod 2048)%N) in *. set (mm := (n mod 4503599627370496)%N) in *. clearbody q u w mm. assert (Q2 : (q = 0 \/ q = 1)%N) by lia. destruct Q2 as [-> | ->]; cbn [N.eqb negb N.odd Pos.eqb] in *; lia.
Qed.
Lemma value_inj n n' : (n < 2 ^ 64)%N -> (n' < 2 ^ 64)%N -> f64_sign n = f64_sign n' -> f64_value n = f64_value n' -> n = n'.
Proof.
  intros H H' S V. assert (E : sig n = sig n' /\ (sig n = 0 \/ ex n = ex n')).
  { rewrite !value_F2R in V. destruct (Z.eq_dec (sig n) 0) as [Z|Z], (Z.eq_dec (sig n') 0) as [Z'|Z'].
    - rewrite Z, Z'. auto.
    - exfalso. rewrite Z in V. symmetry in V. assert (Q : F2R (Float radix2 (if f64_sign n' then - sig n' else sig n') (ex n')) = 0%R) by (rewrite V; destruct (f64_sign n); unfold F2R; cbn; ring). apply eq_0_F2R in Q. destruct (f64_sign n'); lia.
    - exfalso. rewrite Z' in V. assert (Q : F2R (Float radix2 (if f64_sign n then - sig n else sig n) (ex n)) = 0%R) by (rewrite V; destruct (f64_sign n'); unfold F2R; cbn; ring). apply eq_0_F2R in Q. destruct (f64_sign n); lia.
    - apply (canonical_unique radix2 (FLT_exp (-1074) 53)) in V; [|apply sig_canonical; assumption..]. injection V as V1 V2. rewrite S in V1. destruct (f64_sign n'); split; auto; lia. }
  destruct E as [E1 E2]. rewrite (parts n H), (parts n' H'), <- S. assert (M : (f64_mant n < 2 ^ 52)%N) by (apply N.mod_lt; discriminate). assert (M' : (f64_mant n' < 2 ^ 52)%N) by (apply N.mod_lt; discriminate).
  change (2 ^ 52)%N with 4503599627370496%N in *. unfold sig, ex in *. change (2 ^ 52) with 4503599627370496 in *. destruct (N.eqb_spec (f64_exp n) 0) as [A|A], (N.eqb_spec (f64_exp n') 0) as [A'|A']; try (exfalso; lia).
  - rewrite A, A'. f_equal. lia.
  - f_equal; [f_equal|lia]. f_equal. lia.
Qed.

(** too large numbers *)
Lemma dmul_over a b x y : rep a x -> rep b y -> (bpow radix2 1024 <= x * y)%R -> bits (dmul a b) = None.
Proof.
  intros Ra Rb Hxy. destruct Ra as (p & <- & Fp & <- & Sp). destruct Rb as (q & <- & Fq & <- & Sq).
  assert (H := Bmult_correct 53 1024 P53 E1024 mode_NE p q). cbn [round_mode] in H.
  rewrite Rlt_bool_false in H.
  - unfold dmul. rewrite mul_equiv, H, Sp, Sq. reflexivity.
  - apply Rle_trans with (2 := Rle_abs _). apply round_ge_generic; [apply FLT_exp_valid; reflexivity|apply valid_rnd_N| |exact Hxy]. apply generic_format_bpow. vm_compute. discriminate.
Qed.
Lemma double_of_over neg ip fp e : int_ok ip -> all_digits fp -> (length ip <= 300)%nat -> (IZR (2 * 10 ^ 308) <= magnitude (dval (ip ++ fp)) (expo e - Z.of_nat (length fp)))%R -> double_of neg ip fp e = None.
Proof.
  intros HI Ff HL HB. assert (Fa : all_digits (ip ++ fp)) by (apply Forall_app; split; [apply HI|exact Ff]). assert (En := acc_dval _ Fa). unfold magnitude in *. rewrite <- En in *. clear En.
  assert (C1 : (0 < IZR (2 * 10 ^ 308))%R) by (apply IZR_lt; reflexivity).
  assert (Hn : 0 < acc (ip ++ fp) 0). { assert (A0 := acc_pos _ Fa). destruct (Z.eq_dec (acc (ip ++ fp) 0) 0) as [E|N]; [|lia]. rewrite E, Rmult_0_l in HB. lra. }
  destruct (sig_spec neg ip fp HI Ff HL Hn) as (d & X & r & v & K & ES & Hr & R & A & HK & HX & (q & Eq & Hq) & Hor).
  set (x := (IZR (acc (ip ++ fp) 0) * powerRZ 10 (expo e - Z.of_nat (length fp)))%R) in *. set (p := expo e + (Z.of_nat r - Z.of_nat (length fp))).
  assert (Ax : roundings 1 (IZR X * powerRZ 10 p) x).
  { unfold x, p. replace (expo e + (Z.of_nat r - Z.of_nat (length fp))) with (Z.of_nat r + (expo e - Z.of_nat (length fp))) by lia. rewrite powerRZ_add by lra. rewrite (p10_pos (Z.of_nat r)) by lia. rewrite <- Rmult_assoc. rewrite Eq.
    replace 1%nat with (1 + 0)%nat by reflexivity. apply r_mul; [apply IZR_le; nia|left; apply p10_lt0|apply left_out; [lia|exact Hq|exact Hor]|apply r_refl]. }
  rewrite double_of_eq, ES. destruct (Z.ltb_spec (308 - (Z.of_nat r - Z.of_nat (length fp))) (expo e)) as [Q|Q]; [reflexivity|]. fold p. assert (Hp : p <= 308) by (unfold p; lia).
  assert (X1 : (1 <= IZR X)%R) by (apply IZR_le; lia).
  assert (P0 : 0 <= p). { destruct (Z.le_gt_cases 0 p) as [G|G]; [exact G|]. exfalso. assert (x0 : (0 <= x)%R) by lra. assert (K1 : (1 <= 4096)%nat) by lia. assert (G2 := r_ge2 _ _ _ K1 x0 Ax).
    assert (Q8 : (powerRZ 10 p <= 1)%R). { replace p with (- - p) by lia. rewrite p10_neg by lia. rewrite <- Rinv_1. apply Rinv_le; [lra|]. apply IZR_le. assert (0 < 10 ^ (- p)) by (apply Z.pow_pos_nonneg; lia). lia. }
    assert (B : (IZR X * powerRZ 10 p <= IZR X * 1)%R) by (apply Rmult_le_compat_l; lra). assert (XM : (IZR X <= IZR (10 ^ 300))%R) by (apply IZR_le; lia).
    assert (CC : (2 * IZR (10 ^ 300) < IZR (2 * 10 ^ 308))%R) by (change 2%R with (IZR 2) at 1; rewrite <- mult_IZR; apply IZR_lt; reflexivity). lra. }
  destruct (pow10_rep p ltac:(lia)) as [Rp Ap].
  assert (Az : roundings (K + 1 + 1) (v * RND (IZR (10 ^ p))) x). { eapply r_trans; [|exact Ax]. rewrite p10_pos by exact P0. apply r_mul; [lra|apply IZR_le, Z.pow_nonneg; lia|exact A|exact Ap]. }
  unfold strtodNormalPrecision, fastPath. destruct (Z.ltb_spec p (-308)) as [G|_]; [lia|]. destruct (Z.leb_spec 0 p) as [_|G]; [|lia].
  rewrite (dmul_over d (pow10 p) v _ R Rp); [reflexivity|].
  assert (K4 : (K + 1 + 1 <= 4096)%nat) by lia. assert (x0 : (0 <= x)%R) by lra. assert (Er := r_error _ _ _ K4 x0 Az). set (w := (v * RND (IZR (10 ^ p)))%R) in *.
  assert (HK6 : (K + 1 + 1 <= 600)%nat) by lia. apply le_INR in HK6. rewrite (INR_IZR_INZ 600) in HK6. change (Z.of_nat 600) with 600 in HK6. assert (E52 : powerRZ 2 (-52) = (/ IZR 4503599627370496)%R) by (rewrite powerRZ_bpow; reflexivity). rewrite E52 in Er. clear E52.
  assert (Er2 : (INR (K + 1 + 1) * / 4503599627370496 * x <= / 100 * x)%R). { apply Rmult_le_compat_r; [exact x0|]. apply Rle_trans with (600 * / 4503599627370496)%R; [apply Rmult_le_compat_r; lra|lra]. }
  assert (W : (99 / 100 * x <= w)%R). { assert (Q9 := Rle_abs (- (w - x))). rewrite Rabs_Ropp in Q9. lra. }
  apply Rle_trans with (99 / 100 * IZR (2 * 10 ^ 308))%R; [|apply Rle_trans with (2 := W); apply Rmult_le_compat_l; lra].
  rewrite <- IZR_Zpower by discriminate. apply Rmult_le_reg_l with (IZR 100); [apply IZR_lt; reflexivity|]. replace (100 * (99 / 100 * IZR (2 * 10 ^ 308)))%R with (IZR 99 * IZR (2 * 10 ^ 308))%R by field. rewrite <- !mult_IZR. apply IZR_le. vm_compute. discriminate.
Qed.

(** a number which cannot be converted *)
Lemma refused_number T m i f e : (m = [] \/ m = bs "-") -> (i = bs "0" \/ (digit_seq i /\ hd Byte.x30 i <> Byte.x30)) -> (f = [] \/ exists d, f = bs "." ++ d /\ digit_seq d)
  -> (e = [] \/ exists x g d, e = x ++ g ++ d /\ (x = bs "e" \/ x = bs "E") /\ (g = [] \/ g = bs "+" \/ g = bs "-") /\ digit_seq d) -> f ++ e <> [] ->
  te_strtod T (m ++ i ++ f ++ e) = None -> parseJsonDocFromString T (m ++ i ++ f ++ e) = TErr.
Proof.
  intros A B C D NE E. assert (DT : double_text (m ++ i ++ f ++ e)) by (exists m, i, f, e; auto 10). unfold parseJsonDocFromString. assert (Hh := double_headed _ DT). rewrite headed_bom, headed_ws0, headed_end by auto.
  assert (HP := parse_number_parts T m i f e [] A B C D I). rewrite app_nil_r in HP. assert (DN := double_num _ [] DT). rewrite app_nil_r in DN. rewrite parse_value_number by exact DN. rewrite HP. unfold number_of. rewrite E. destruct (f ++ e); [contradiction|]. reflexivity.
Qed.
