(** PropertiesNumber.v -- property C74: how accurate numbers in JSON texts are (vocabulary in NumberSpec.v; doubles are described by the real number they stand for) *)
From Coq Require Import String List NArith ZArith Bool Reals Psatz.
From Flocq Require Import Core.
From Verif Require Import Base Types BinModel Float JsonModel JsonText JsonTextSpec JsonTextFacts JsonTextTop JsonTextEnd JsonNumber GrammarSpec GrammarFacts PropertiesText PropertiesGrammar
  NumberSpec NumberFloat NumberReal NumberFacts NumberTop NumberText NumberConv NumberSingle.
Import ListNotations.
Local Open Scope list_scope.

(** C74: the text of a number which denotes [n * 10^p] or [- n * 10^p] with [n < 2^53] and [-22 <= p <= 22] (in particular: up to 15 digits, with a small exponent or without) is
    converted to the double which is nearest to this number (if there are two, the one with even mantissa) *)
Theorem C74_correctly_rounded : forall m i f e n p, denotes m i f e n p -> (n < 2 ^ 53)%N -> (-22 <= p <= 22)%Z ->
  exists d, strtod_normal (m ++ i ++ f ++ e) = Some d /\ nearest (signed m (magnitude n p)) d /\ f64_sign d = match m with [] => false | _ => true end.
Proof.
  intros m i f e n p D Hn Hp. destruct (strtod_text m i f e n p D) as (ds & k & E & I & F & En & Ep). rewrite Ep in Hp. rewrite <- En in Hn.
  destruct (double_of_exact (minus_sign m) i ds k (proj1 I) F Hn Hp) as (d & Ed & Dd & Sd & Vd). rewrite <- Ep, En in Vd. exists d. split; [rewrite E; exact Ed|]. split; [|exact Sd].
  apply value_nearest; [exact Dd|]. rewrite Vd. unfold minus_sign, signed. destruct m; [reflexivity|]. unfold RND. rewrite round_NE_opp. reflexivity.
Qed.
Print Assumptions C74_correctly_rounded.
(** C74: every other number between 10^-307 and 10^307 with at most 300 digits before the point (and any number of digits after it, and any exponent) is converted to a double which differs by at most
    ten roundings, plus two for each digit before the point beyond the 18th *)
Theorem C74_roundings : forall m i f e n p, denotes m i f e n p -> length i <= 300 -> (/ IZR (10 ^ 307) <= magnitude n p <= IZR (10 ^ 307))%R ->
  exists d, strtod_normal (m ++ i ++ f ++ e) = Some d /\ is_double d /\ f64_sign d = match m with [] => false | _ => true end
    /\ roundings (10 + 2 * (length i - 18)) (Rabs (f64_value d)) (magnitude n p).
Proof.
  intros m i f e n p D HL HB. destruct (strtod_text m i f e n p D) as (ds & k & E & I & F & En & Ep). rewrite E. rewrite Ep, <- En in *. apply (double_of_accurate (minus_sign m) i ds k); assumption.
Qed.
Print Assumptions C74_roundings.
(** C74: so the relative error is at most 10 * 2^-52 (with up to 18 digits before the point; see C74_roundings for more) *)
Theorem C74_relative_error : forall m i f e n p, denotes m i f e n p -> length i <= 18 -> (/ IZR (10 ^ 307) <= magnitude n p <= IZR (10 ^ 307))%R ->
  exists d, strtod_normal (m ++ i ++ f ++ e) = Some d /\ is_double d /\ (Rabs (f64_value d - signed m (magnitude n p)) <= 10 * powerRZ 2 (-52) * magnitude n p)%R.
Proof.
  intros m i f e n p D HL HB. assert (HL2 : length i <= 300) by lia. destruct (C74_roundings m i f e n p D HL2 HB) as (d & E & Dd & S & A). exists d. split; [exact E|]. split; [exact Dd|].
  replace (10 + 2 * (length i - 18)) with 10 in A by lia. assert (P : (0 < / IZR (10 ^ 307))%R) by (apply Rinv_0_lt_compat, IZR_lt; reflexivity). assert (x0 : (0 <= magnitude n p)%R) by lra. assert (K : 10 <= 4096) by lia. assert (Q := r_error _ _ _ K x0 A).
  replace (INR 10) with 10%R in Q by (cbn; ring). assert (AV : (f64_value d = if f64_sign d then - Rabs (f64_value d) else Rabs (f64_value d))%R).
  { assert (V := value_F2R d). destruct (sig_bound d) as [[B0 _] _]. destruct (f64_sign d).
    - rewrite Rabs_left1; [ring|]. rewrite V. apply F2R_le_0. cbn [Fnum]. lia.
    - rewrite Rabs_pos_eq; [reflexivity|]. rewrite V. apply F2R_ge_0. cbn [Fnum]. lia. }
  rewrite AV, S. unfold signed. destruct m; [exact Q|]. replace (- Rabs (f64_value d) - - magnitude n p)%R with (- (Rabs (f64_value d) - magnitude n p))%R by ring. rewrite Rabs_Ropp. exact Q.
Qed.
Print Assumptions C74_relative_error.
(** C74: numbers which are too large are refused *)
Theorem C74_too_large : forall m i f e n p, denotes m i f e n p -> length i <= 300 -> (IZR (2 * 10 ^ 308) <= magnitude n p)%R -> strtod_normal (m ++ i ++ f ++ e) = None.
Proof.
  intros m i f e n p D HL HB. destruct (strtod_text m i f e n p D) as (ds & k & E & I & F & En & Ep). rewrite E. rewrite Ep, <- En in *. apply (double_of_over (minus_sign m) i ds k); assumption.
Qed.
Print Assumptions C74_too_large.
(** C74: a text which consists of such a number is accepted, and fromJson gives the nearest double (or throws, if the number is too large, before anything else happens) *)
Theorem C74_fromJson : forall T G J fuel m i f e n p st, te_strtod T = strtod_normal -> denotes m i f e n p -> f ++ e <> [] ->
  ((n < 2 ^ 53)%N -> (-22 <= p <= 22)%Z -> exists d, fromJsonText T G J fuel TF64 (m ++ i ++ f ++ e) st = Some (POk (VF64 d) st) /\ nearest (signed m (magnitude n p)) d)
  /\ (length i <= 300 -> (IZR (2 * 10 ^ 308) <= magnitude n p)%R -> fromJsonText T G J fuel TF64 (m ++ i ++ f ++ e) st = None).
Proof.
  intros T G J fuel m i f e n p st ET D NE. split.
  - intros Hn Hp. destruct (C74_correctly_rounded m i f e n p D Hn Hp) as (d & E & N & _). exists d. split; [|exact N].
    assert (JT : json_text T (m ++ i ++ f ++ e) (JDbl d)).
    { exists [], [], (m ++ i ++ f ++ e), [], []. rewrite !app_nil_r. split; [reflexivity|]. split; [exists [], [], []; auto|]. split; [constructor|]. split; [|split; [constructor|left; reflexivity]]. constructor. apply nm_double; [apply D|exact NE|rewrite ET; exact E]. }
    rewrite (proj1 (C62_fromJson T G J fuel TF64 _ st) _ JT). reflexivity.
  - intros HL HB. assert (E := C74_too_large m i f e n p D HL HB). unfold fromJsonText. enough (X : parseJsonDocFromString T (m ++ i ++ f ++ e) = TErr) by (rewrite X; reflexivity).
    rewrite <- ET in E. destruct D as [NT _]. apply text_parts in NT. destruct NT as (A & B & C & X). apply (refused_number T m i f e A B C X NE E).
Qed.
Print Assumptions C74_fromJson.
(** C74: a double which is printed as a number with few digits and small exponent is read as it was (cf. C23) *)
Theorem C74_doubles_survive : forall T d, te_strtod T = strtod_normal -> short_text (te_dtoa T d) d -> survives T d.
Proof.
  intros T d ET (m & i & f & e & n & p & Et & D & Hn & Hp & N & S). unfold survives. rewrite ET, Et. destruct (C74_correctly_rounded m i f e n p D Hn Hp) as (d' & -> & N' & S'). f_equal.
  destruct (strtod_text m i f e n p D) as (ds & k & _ & I & F & En & Ep). assert (Hp2 := Hp). rewrite Ep in Hp2. assert (Hn2 := Hn). rewrite <- En in Hn2.
  destruct (double_of_exact (minus_sign m) i ds k (proj1 I) F Hn2 Hp2) as (d0 & _ & Dd & _ & Vd). rewrite <- Ep, En in Vd.
  assert (V0 : f64_value d0 = RND (signed m (magnitude n p))) by (rewrite Vd; unfold minus_sign, signed; destruct m; [reflexivity|]; unfold RND; rewrite round_NE_opp; reflexivity).
  apply value_inj; [apply N'|apply N|congruence|]. rewrite (nearest_RND _ d' d0 Dd V0 N'), (nearest_RND _ d d0 Dd V0 N). reflexivity.
Qed.
Print Assumptions C74_doubles_survive.
(** C74: so documents with such doubles survive being written and read, exactly *)
Theorem C74_documents_survive : forall T j, dtoa_ok T -> te_strtod T = strtod_normal -> ints_ok j -> finite j -> doubles (fun d => short_text (te_dtoa T d) d) j ->
  parseJsonDocFromString T (serializeJsonDocToString T j) = TOk j [].
Proof.
  intros T j D ET W F S. apply C23_exact; [exact D|exact W|exact F|]. eapply ew_imp; [|exact S]. intros []; auto. apply C74_doubles_survive. exact ET.
Qed.
Print Assumptions C74_documents_survive.
(** C74: an integer in a JSON document which is deserialised into a double becomes the nearest double *)
Theorem C74_integers : forall G J fuel old z st, (- 2 ^ 64 < z < 2 ^ 64)%Z -> exists d, pull G J (S fuel) TF64 old (JInt z) st = POk (VF64 d) st /\ nearest (IZR z) d.
Proof. intros G J fuel old z st Hz. exists (f64_of_Z z). split; [reflexivity|]. apply of_Z_nearest. exact Hz. Qed.
Print Assumptions C74_integers.
(** C74: a float becomes a double with exactly the same value in JSON documents *)
Theorem C74_float_pushed : forall G J H fuel n, is_single n -> exists d, push G J H (S fuel) TF32 (VF32 n) = ROk (JDbl d) /\ is_double d /\ f64_value d = f32_value n.
Proof. intros G J H fuel n D. exists (f64_of_f32 n). split; [reflexivity|]. apply of_single_exact. exact D. Qed.
Print Assumptions C74_float_pushed.
(** C74: a double in a JSON document below the largest float (plus half the distance to the next one) which is deserialised into a float becomes the nearest float *)
Theorem C74_float_pulled : forall G J fuel old d st, is_double d -> (Rabs (f64_value d) < IZR (2 ^ 128 - 2 ^ 103))%R ->
  exists n, pull G J (S fuel) TF32 old (JDbl d) st = POk (VF32 n) st /\ nearest_single (f64_value d) n.
Proof. intros G J fuel old d st D B. exists (f32_of_f64 d). split; [reflexivity|]. apply of_double_nearest; assumption. Qed.
Print Assumptions C74_float_pulled.
(** C74: whenever fromJson gives a float for a double without reporting an error, it is the nearest one *)
Theorem C74_float_fromJson : forall G J fuel d h er v st', is_double d -> fromJson G J fuel TF32 (JDbl d) {| p_heap := h; p_err := Some er |} = POk v st' -> p_err st' = Some er ->
  exists n, v = VF32 n /\ nearest_single (f64_value d) n.
Proof.
  intros G J fuel d h er v st' D E Q. cbn [fromJson] in E. destruct (is_float d) eqn:F.
  - injection E as <- <-. exists (f32_of_f64 d). split; [reflexivity|]. apply of_double_nearest; [exact D|]. apply in_range_float; assumption.
  - exfalso. unfold mismatch, report, bind in E. cbn [p_err p_heap] in E. unfold emplace_error in E. cbv zeta in E. destruct (N.land _ _ =? 0)%N; [|discriminate]. injection E as _ <-. cbn in Q. injection Q as Q. apply (f_equal (fun e => length (es_errs e))) in Q. cbn [es_errs add_err] in Q. rewrite app_length in Q. cbn in Q. lia.
Qed.
Print Assumptions C74_float_fromJson.
