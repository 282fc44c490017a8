(** ExamplesNumber.v -- instances for PropertiesNumber.v and stronger claims which are false *)
From Coq Require Import String List NArith ZArith Bool Reals Psatz.
From Flocq Require Import Core.
From Verif Require Import Base Types GenModel BinModel Float JsonModel JsonText JsonTextSpec JsonTextFacts JsonNumber GrammarSpec GrammarFacts NumberSpec NumberFloat PropertiesNumber ExamplesEnv ExamplesJson ExamplesText.
Import ListNotations.
Local Open Scope list_scope.

Ltac run_of := split; [discriminate|eexists; apply dval_decimal; repeat constructor].
Example n01 : denotes [] (chr "0") (chr ".1") [] 1 (-1).
Proof.
  split; [constructor; [auto|left; reflexivity|right; exists (chr "1"); split; [reflexivity|run_of]|auto]|]. exists (chr "1"), 0%Z. split; [right; reflexivity|]. split; [exact (dval_decimal (chr "01") ltac:(repeat constructor))|]. split; [constructor|reflexivity].
Qed.
Example n15 : denotes (chr "-") (chr "1") (chr ".5") (chr "e-7") 15 (-8).
Proof.
  split; [constructor; [auto|right; split; [run_of|discriminate]|right; exists (chr "5"); split; [reflexivity|run_of]|right; exists (chr "e"), (chr "-"), (chr "7"); split; [reflexivity|]; split; [auto|]; split; [auto|]; run_of]|].
  exists (chr "5"), (-7)%Z. split; [right; reflexivity|]. split; [exact (dval_decimal (chr "15") ltac:(repeat constructor))|]. split; [|reflexivity]. apply (ex_minus (chr "e") (chr "7") 7); [auto|discriminate|exact (dval_decimal (chr "7") ltac:(repeat constructor))].
Qed.
Definition d01 : N := 4591870180066957722.
Example c01 : nearest (magnitude 1 (-1)) d01.
Proof.
  destruct (C74_correctly_rounded _ _ _ _ _ _ n01 ltac:(reflexivity) ltac:(split; discriminate)) as (d & E & N & _). assert (E2 : strtod_normal (chr "0.1") = Some d01) by (vm_compute; reflexivity).
  cbn [app] in E. change (chr "0" ++ chr ".1" ++ []) with (chr "0.1") in E. rewrite E2 in E. injection E as <-. exact N.
Qed.
Example c15 : exists d, strtod_normal (chr "-1.5e-7") = Some d /\ nearest (- magnitude 15 (-8)) d /\ f64_sign d = true.
Proof. exact (C74_correctly_rounded _ _ _ _ _ _ n15 ltac:(reflexivity) ltac:(split; discriminate)). Qed.
(** a number with more digits *)
Example n94 : denotes [] (chr "0") (chr ".9452706955539223") [] 9452706955539223 (-16).
Proof.
  split; [constructor; [auto|left; reflexivity|right; exists (chr "9452706955539223"); split; [reflexivity|run_of]|auto]|]. exists (chr "9452706955539223"), 0%Z. split; [right; reflexivity|].
  split; [exact (dval_decimal (chr "09452706955539223") ltac:(repeat constructor))|]. split; [constructor|reflexivity].
Qed.
Lemma m94 : magnitude 9452706955539223 (-16) = (9452706955539223 / 10000000000000000)%R.
Proof. unfold magnitude. change (-16)%Z with (- (16))%Z. rewrite NumberTop.p10_neg by discriminate. reflexivity. Qed.
Example range94 : (/ IZR (10 ^ 307) <= magnitude 9452706955539223 (-16) <= IZR (10 ^ 307))%R.
Proof.
  rewrite m94. assert (1 <= IZR (10 ^ 307))%R by (apply IZR_le; vm_compute; discriminate). assert (IZR (10 ^ 2) <= IZR (10 ^ 307))%R by (apply IZR_le; vm_compute; discriminate).
  assert (/ IZR (10 ^ 307) <= / IZR (10 ^ 2))%R by (apply Rinv_le; [apply IZR_lt; reflexivity|assumption]). change (10 ^ 2)%Z with 100%Z in *. lra.
Qed.
Example e94 : exists d, strtod_normal (chr "0.9452706955539223") = Some d /\ is_double d /\ (Rabs (f64_value d - magnitude 9452706955539223 (-16)) <= 10 * powerRZ 2 (-52) * magnitude 9452706955539223 (-16))%R.
Proof. exact (C74_relative_error _ _ _ _ _ _ n94 ltac:(cbn; lia) range94). Qed.
(** C74: it need not be the nearest one then *)
Theorem C74_nearest_beyond_refuted : exists d, strtod_normal (chr "0.9452706955539223") = Some d /\ ~ nearest (magnitude 9452706955539223 (-16)) d.
Proof.
  exists (d9452 + 1)%N. split; [vm_compute; reflexivity|]. intros [_ N]. specialize (N d9452 ltac:(split; vm_compute; reflexivity)). rewrite m94 in N.
  assert (V1 : f64_value d9452 = (IZR 8514241504521788 * / 9007199254740992)%R) by (rewrite value_F2R; replace (sig d9452) with 8514241504521788%Z by (vm_compute; reflexivity); replace (ex d9452) with (-53)%Z by (vm_compute; reflexivity); replace (f64_sign d9452) with false by (vm_compute; reflexivity); reflexivity).
  assert (V2 : f64_value (d9452 + 1) = (IZR 8514241504521789 * / 9007199254740992)%R) by (rewrite value_F2R; replace (sig (d9452 + 1)) with 8514241504521789%Z by (vm_compute; reflexivity); replace (ex (d9452 + 1)) with (-53)%Z by (vm_compute; reflexivity); replace (f64_sign (d9452 + 1)) with false by (vm_compute; reflexivity); reflexivity).
  rewrite V1, V2 in N. revert N. unfold Rabs. destruct (Rcase_abs _), (Rcase_abs _); lra.
Qed.
Print Assumptions C74_nearest_beyond_refuted.
(** too large *)
Example n309 : denotes [] (chr "2") [] (chr "e308") 2 308.
Proof.
  split; [constructor; [auto|right; split; [run_of|discriminate]|auto|right; exists (chr "e"), [], (chr "308"); split; [reflexivity|]; split; [auto|]; split; [auto|]; run_of]|].
  exists [], 308%Z. split; [left; auto|]. split; [exact (dval_decimal (chr "2") ltac:(repeat constructor))|]. split; [|reflexivity]. apply (ex_plus (chr "e") [] (chr "308") 308); [auto|auto|discriminate|exact (dval_decimal (chr "308") ltac:(repeat constructor))].
Qed.
Example c309 : strtod_normal (chr "2e308") = None.
Proof.
  refine (C74_too_large _ _ _ _ _ _ n309 ltac:(cbn; lia) _). unfold magnitude. rewrite mult_IZR. replace (powerRZ 10 308) with (IZR (10 ^ 308)) by (rewrite <- (Z2Nat.id 308) by discriminate; rewrite <- pow_powerRZ, pow_IZR; reflexivity). apply Rle_refl.
Qed.
(** C74: not only numbers which are too large are refused: zero with a large exponent is *)
Theorem C74_refused_only_if_large_refuted : exists m i f e p, denotes m i f e 0 p /\ strtod_normal (m ++ i ++ f ++ e) = None.
Proof.
  exists [], (chr "0"), [], (chr "e309"), 309%Z. split; [|vm_compute; reflexivity]. split; [constructor; [auto|left; reflexivity|auto|right; exists (chr "e"), [], (chr "309"); split; [reflexivity|]; split; [auto|]; split; [auto|]; run_of]|].
  exists [], 309%Z. split; [left; auto|]. split; [exact (dval_decimal (chr "0") ltac:(repeat constructor))|]. split; [|reflexivity]. apply (ex_plus (chr "e") [] (chr "309") 309); [auto|auto|discriminate|exact (dval_decimal (chr "309") ltac:(repeat constructor))].
Qed.
Print Assumptions C74_refused_only_if_large_refuted.
(** conversions of doubles to text and back, and a document *)
Definition TN : tenv := {| te_dtoa := fun d => if (d =? d01)%N then bs "0.1" else bs "0.0"; te_strtod := strtod_normal |}.
Example TN_ok : dtoa_ok TN.
Proof.
  intros n _. cbn [te_dtoa te_strtod TN]. destruct (n =? d01)%N.
  - split; [|eexists; vm_compute; reflexivity]. exists [], (bs "0"), (bs ".1"), []. repeat split; auto; [|discriminate]. right. exists (bs "1"). split; [reflexivity|]. split; [discriminate|repeat constructor].
  - split; [|eexists; vm_compute; reflexivity]. exists [], (bs "0"), (bs ".0"), []. repeat split; auto; [|discriminate]. right. exists (bs "0"). split; [reflexivity|]. split; [discriminate|repeat constructor].
Qed.
Example short01 : short_text (te_dtoa TN d01) d01.
Proof. exists [], (chr "0"), (chr ".1"), [], 1%N, (-1)%Z. split; [reflexivity|]. split; [exact n01|]. split; [reflexivity|]. split; [split; discriminate|]. split; [exact c01|reflexivity]. Qed.
Example doc01 : parseJsonDocFromString TN (serializeJsonDocToString TN (JArr [JDbl d01; JInt 3])) = TOk (JArr [JDbl d01; JInt 3]) [].
Proof.
  apply C74_documents_survive; [exact TN_ok|reflexivity| | |].
  - cbn. repeat split; lia.
  - cbn. repeat split.
  - unfold doubles. cbn. repeat split. exact short01.
Qed.
(** an integer which is no double *)
Example int53 : nearest (IZR (2 ^ 53 + 1)) (f64_of_Z (2 ^ 53 + 1)) /\ f64_of_Z (2 ^ 53 + 1) = f64_of_Z (2 ^ 53).
Proof. split; [|vm_compute; reflexivity]. destruct (C74_integers GE JE 0 VUndef (2 ^ 53 + 1) {| p_heap := []; p_err := None |} ltac:(lia)) as (d & E & N). cbn [pull get_double] in E. injection E as <-. exact N. Qed.
(** floats: 0.1 in JSON; 1/3 as float *)
Example float01 : exists n, pull GE JE 1 TF32 (VF32 0) (JDbl d01) {| p_heap := []; p_err := None |} = POk (VF32 n) {| p_heap := []; p_err := None |} /\ nearest_single (f64_value d01) n.
Proof.
  apply C74_float_pulled; [split; vm_compute; reflexivity|]. rewrite value_F2R. replace (sig d01) with 7205759403792794%Z by (vm_compute; reflexivity). replace (ex d01) with (-56)%Z by (vm_compute; reflexivity). replace (f64_sign d01) with false by (vm_compute; reflexivity).
  unfold F2R. cbn [Fnum Fexp]. rewrite Rabs_pos_eq by (apply Rmult_le_pos; [apply IZR_le; lia|apply bpow_ge_0]). apply Rlt_trans with (IZR 7205759403792794 * bpow radix2 0)%R; [apply Rmult_lt_compat_l; [apply IZR_lt; reflexivity|apply bpow_lt; reflexivity]|]. cbn [bpow]. rewrite Rmult_1_r. apply IZR_lt. reflexivity.
Qed.
Example third : exists d, push GE JE [] 1 TF32 (VF32 1051372203) = ROk (JDbl d) /\ is_double d /\ f64_value d = f32_value 1051372203.
Proof. apply C74_float_pushed. split; vm_compute; reflexivity. Qed.
Example float_fromJson : exists v st', fromJson GE JE 1 TF32 (JDbl d01) {| p_heap := []; p_err := Some est0 |} = POk v st' /\ p_err st' = Some est0 /\ is_double d01.
Proof. eexists _, _. split; [vm_compute; reflexivity|]. split; [reflexivity|split; vm_compute; reflexivity]. Qed.
