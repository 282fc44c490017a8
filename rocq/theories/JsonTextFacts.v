(** JsonTextFacts.v -- writing and parsing texts of JSON documents *)
From Coq Require Import String List NArith ZArith Bool Lia DecimalN DecimalString.
From Verif Require Import Base BaseFacts Types GenModel Float JsonModel JsonSafeSpec JsonSafe JsonText JsonTextSpec ErrFormat.
Import ListNotations.
Local Open Scope list_scope.
Local Open Scope N_scope.

Lemma beqb_eq a b : beqb a b = true -> a = b. Proof. apply Byte.byte_dec_bl. Qed.
Lemma beqb_refl a : beqb a a = true. Proof. apply Byte.byte_dec_lb. reflexivity. Qed.
Lemma beqb_neq a b : a <> b -> beqb a b = false.
Proof. intros H. destruct (beqb a b) eqn:E; [apply beqb_eq in E; contradiction|reflexivity]. Qed.

(* ------------------------------------------------------------------ *)
(** * Strings *)
Lemma parse_escape b X : parse_string (escape b ++ X) = put [b] (parse_string X).
Proof. destruct b; reflexivity. Qed.
Lemma parse_string_write s rest : parse_string (flat_map escape s ++ quote ++ rest) = TOk s rest.
Proof.
  induction s as [|b s IH]; [reflexivity|]. cbn [flat_map]. rewrite <- app_assoc, parse_escape, IH. reflexivity.
Qed.

(* ------------------------------------------------------------------ *)
(** * Numbers *)
Lemma digits_app ds rest : Forall (fun b => is_digit b = true) ds -> match rest with b :: _ => is_digit b = false | [] => True end ->
  digits (ds ++ rest) = (ds, rest).
Proof.
  intros F R. induction F as [|b ds Hb F IH].
  - destruct rest as [|b rest]; [reflexivity|]. cbn. rewrite R. reflexivity.
  - cbn [app digits]. rewrite Hb, IH. reflexivity.
Qed.

Fixpoint dstr (u : Decimal.uint) : bytes :=
  match u with
  | Decimal.Nil => []
  | Decimal.D0 u => Byte.x30 :: dstr u | Decimal.D1 u => Byte.x31 :: dstr u | Decimal.D2 u => Byte.x32 :: dstr u | Decimal.D3 u => Byte.x33 :: dstr u
  | Decimal.D4 u => Byte.x34 :: dstr u | Decimal.D5 u => Byte.x35 :: dstr u | Decimal.D6 u => Byte.x36 :: dstr u | Decimal.D7 u => Byte.x37 :: dstr u
  | Decimal.D8 u => Byte.x38 :: dstr u | Decimal.D9 u => Byte.x39 :: dstr u
  end.
Lemma bs_cons a s : bs (String a s) = Ascii.byte_of_ascii a :: bs s.
Proof. reflexivity. Qed.
Lemma dstr_spec u : bs (NilEmpty.string_of_uint u) = dstr u.
Proof. induction u; cbn [NilEmpty.string_of_uint dstr]; [reflexivity|..]; rewrite bs_cons, IHu; reflexivity. Qed.
Lemma dec_dstr n : dec n = dstr (N.to_uint n).
Proof.
  unfold dec. pose proof (to_uint_nonnil n) as H. destruct (N.to_uint n); [contradiction|..]; apply dstr_spec.
Qed.
Lemma dstr_digits u : Forall (fun b => is_digit b = true) (dstr u).
Proof. induction u; cbn; constructor; auto; reflexivity. Qed.
Lemma dval_acc u p : fold_left (fun a b => a * 10 + (bval b - 48)) (dstr u) (Npos p) = Npos (Pos.of_uint_acc u p).
Proof.
  revert p. induction u as [|u IH|u IH|u IH|u IH|u IH|u IH|u IH|u IH|u IH|u IH]; intros p; [reflexivity|..]; cbn [dstr fold_left Pos.of_uint_acc]; rewrite <- IH; f_equal;
    unfold bval; cbn [Byte.to_N]; lia.
Qed.
Lemma dval_dstr u : dval (dstr u) = N.of_uint u.
Proof.
  unfold dval. induction u as [|u IH|u IH|u IH|u IH|u IH|u IH|u IH|u IH|u IH|u IH]; [reflexivity|exact IH|..]; cbn [dstr fold_left]; apply dval_acc.
Qed.
Lemma dval_dec n : dval (dec n) = n.
Proof. rewrite dec_dstr, dval_dstr. apply DecimalN.Unsigned.of_to. Qed.
Lemma dec_lead n : dec n = [Byte.x30] \/ exists b t, dec n = b :: t /\ b <> Byte.x30.
Proof.
  rewrite dec_dstr. pose proof (DecimalN.Unsigned.to_of (N.to_uint n)) as H. rewrite DecimalN.Unsigned.of_to in H. unfold Decimal.unorm in H.
  assert (Z: forall u v, Decimal.nzhead u <> Decimal.D0 v).
  { induction u; cbn; try discriminate. exact IHu. }
  destruct (Decimal.nzhead (N.to_uint n)) eqn:E; rewrite H; try (left; reflexivity); try (right; eexists _, _; split; [reflexivity|discriminate]).
  exfalso. eapply Z; exact E.
Qed.

Definition stops (rest : bytes) : Prop :=
  match rest with [] => True | b :: _ => is_digit b = false /\ b <> Byte.x2e /\ b <> Byte.x65 /\ b <> Byte.x45 end.
Lemma stops_digit rest : stops rest -> match rest with b :: _ => is_digit b = false | [] => True end.
Proof. destruct rest; cbn; tauto. Qed.

Lemma frac_none rest : match rest with b :: _ => b <> Byte.x2e | [] => True end -> frac_part rest = Some ([], rest).
Proof. destruct rest as [|b rest]; [reflexivity|]. intros H. destruct b; try reflexivity. contradiction H; reflexivity. Qed.
Lemma exp_none rest : match rest with b :: _ => b <> Byte.x65 /\ b <> Byte.x45 | [] => True end -> exp_part rest = Some ([], rest).
Proof. destruct rest as [|b rest]; [reflexivity|]. intros [H1 H2]. destruct b; try reflexivity; contradiction. Qed.

Lemma digit_cases b : is_digit b = true -> In b [Byte.x30; Byte.x31; Byte.x32; Byte.x33; Byte.x34; Byte.x35; Byte.x36; Byte.x37; Byte.x38; Byte.x39].
Proof. destruct b; intros H; try discriminate H; cbn; auto 12. Qed.

Lemma int_part_app ip rest : ip = bs "0" \/ (digit_seq ip /\ hd Byte.x30 ip <> Byte.x30) -> match rest with b :: _ => is_digit b = false | [] => True end ->
  int_part (ip ++ rest) = Some (ip, rest).
Proof.
  intros [->|[[N F] H]] R; [reflexivity|]. destruct ip as [|b ip]; [contradiction|]. cbn [hd] in H. cbn [app int_part].
  rewrite beqb_neq by exact H. inversion F; subst. rewrite H2. change (b :: ip ++ rest) with ((b :: ip) ++ rest). rewrite digits_app by assumption. reflexivity.
Qed.
Lemma frac_part_app d rest : digit_seq d -> match rest with b :: _ => is_digit b = false | [] => True end ->
  frac_part ((bs "." ++ d) ++ rest) = Some (bs "." ++ d, rest).
Proof.
  intros [N F] R. change ((bs "." ++ d) ++ rest) with (Byte.x2e :: (d ++ rest)). cbn [frac_part]. rewrite digits_app by assumption. destruct d; [contradiction|reflexivity].
Qed.
Lemma exp_part_app e g d rest : (e = bs "e" \/ e = bs "E") -> (g = [] \/ g = bs "+" \/ g = bs "-") -> digit_seq d -> match rest with b :: _ => is_digit b = false | [] => True end ->
  exp_part ((e ++ g ++ d) ++ rest) = Some (e ++ g ++ d, rest).
Proof.
  intros E G [N F] R. rewrite <- !app_assoc.
  assert (Q: match d ++ rest with (Byte.x2b | Byte.x2d) as c :: s'' => ([c], s'') | _ => ([], d ++ rest) end = ([], d ++ rest)).
  { destruct d as [|b d]; [contradiction|]. inversion F as [|? ? Hb F']; subst. cbn [app]. destruct b; try reflexivity; discriminate Hb. }
  destruct E as [-> | ->], G as [-> |[-> | ->]]; cbn [app]; change (bs "e") with [Byte.x65]; change (bs "E") with [Byte.x45]; change (bs "+") with [Byte.x2b]; change (bs "-") with [Byte.x2d];
    cbn [app exp_part]; rewrite ?Q; rewrite digits_app by assumption; (destruct d; [contradiction|]); reflexivity.
Qed.

Definition minus (s : bytes) : bytes * bytes := match s with Byte.x2d :: s' => ([Byte.x2d], s') | _ => ([], s) end.
Lemma minus_none s : match s with b :: _ => b <> Byte.x2d | [] => True end -> minus s = ([], s).
Proof. destruct s as [|b s]; [reflexivity|]. intros H. destruct b; try reflexivity. contradiction H; reflexivity. Qed.

Definition number_of (T : tenv) (m ip fp ep rest : bytes) : tres json :=
  if match fp ++ ep with [] => true | _ => false end && (dval ip <? (match m with [] => 2 ^ 64 | _ => 2 ^ 63 + 1 end))
  then TOk (JInt (match m with [] => Z.of_N (dval ip) | _ => - Z.of_N (dval ip) end)) rest
  else match te_strtod T (m ++ ip ++ fp ++ ep) with Some n => TOk (JDbl n) rest | None => TErr end.
Lemma parse_number_unfold T s : parse_number T s = let '(m, s0) := minus s in
  match int_part s0 with None => TErr | Some (ip, s1) =>
    match frac_part s1 with None => TErr | Some (fp, s2) =>
      match exp_part s2 with None => TErr | Some (ep, s3) => number_of T m ip fp ep s3 end end end.
Proof. reflexivity. Qed.

Lemma parse_number_parts T m ip fp ep rest :
  (m = [] \/ m = bs "-") -> (ip = bs "0" \/ (digit_seq ip /\ hd Byte.x30 ip <> Byte.x30)) ->
  (fp = [] \/ exists d, fp = bs "." ++ d /\ digit_seq d) ->
  (ep = [] \/ exists e g d, ep = e ++ g ++ d /\ (e = bs "e" \/ e = bs "E") /\ (g = [] \/ g = bs "+" \/ g = bs "-") /\ digit_seq d) ->
  stops rest -> parse_number T ((m ++ ip ++ fp ++ ep) ++ rest) = number_of T m ip fp ep rest.
Proof.
  intros Hm Hi Hf He R.
  assert (M: minus ((m ++ ip ++ fp ++ ep) ++ rest) = (m, ip ++ fp ++ ep ++ rest)).
  { rewrite <- !app_assoc. destruct Hm as [-> | ->]; [|reflexivity]. cbn [app]. apply minus_none.
    destruct Hi as [->|[[N F] _]]; [discriminate|]. destruct ip as [|b ip]; [contradiction|]. inversion F as [|? ? Hb F']; subst. cbn [app]. intros ->. discriminate Hb. }
  rewrite parse_number_unfold, M. cbv beta iota.
  assert (RE: match ep ++ rest with b :: _ => is_digit b = false /\ b <> Byte.x2e | [] => True end).
  { destruct He as [->|(e & g & d & -> & [-> | ->] & _)]; [|split; [reflexivity|discriminate]..]. cbn [app]. destruct rest; [exact I|]. cbn in R. tauto. }
  assert (RF: match fp ++ ep ++ rest with b :: _ => is_digit b = false | [] => True end).
  { destruct Hf as [->|(d & -> & _)]; [|reflexivity]. cbn [app]. destruct (ep ++ rest); tauto. }
  rewrite int_part_app by assumption. cbv beta iota.
  assert (FP: frac_part (fp ++ ep ++ rest) = Some (fp, ep ++ rest)).
  { destruct Hf as [->|(d & -> & D)]; [cbn [app]; apply frac_none; destruct (ep ++ rest); tauto|]. apply frac_part_app; [exact D|]. destruct (ep ++ rest); tauto. }
  rewrite FP. cbv beta iota.
  assert (EP: exp_part (ep ++ rest) = Some (ep, rest)).
  { destruct He as [->|(e & g & d & -> & E & Gs & D)]; [cbn [app]; apply exp_none; destruct rest; cbn in R; tauto|]. apply exp_part_app; auto. apply stops_digit, R. }
  rewrite EP. reflexivity.
Qed.

Lemma parse_number_double T s n rest : double_text s -> te_strtod T s = Some n -> stops rest -> parse_number T (s ++ rest) = TOk (JDbl n) rest.
Proof.
  intros (m & ip & fp & ep & -> & Hm & Hi & Hf & He & NE) E R. rewrite parse_number_parts by assumption. unfold number_of. rewrite E.
  destruct (fp ++ ep); [contradiction|reflexivity].
Qed.
Lemma dec_int_part n : dec n = bs "0" \/ (digit_seq (dec n) /\ hd Byte.x30 (dec n) <> Byte.x30).
Proof.
  destruct (dec_lead n) as [H|(b & t & H & N)]; [left; exact H|]. right. split; [split; [rewrite H; discriminate|rewrite dec_dstr; apply dstr_digits]|rewrite H; exact N].
Qed.
Lemma parse_number_int T z rest : (- 2 ^ 63 <= z < 2 ^ 64)%Z -> stops rest -> parse_number T (itoa z ++ rest) = TOk (JInt z) rest.
Proof.
  intros Rz R. unfold itoa. destruct (Z.ltb_spec z 0).
  - change (Byte.x2d :: dec (Z.to_N (- z))) with (bs "-" ++ dec (Z.to_N (- z))). rewrite <- (app_nil_r (dec (Z.to_N (- z)))). change (@nil Byte.byte) with (@nil Byte.byte ++ []) at 1.
    rewrite parse_number_parts; auto using dec_int_part. unfold number_of. cbn [app andb]. rewrite dval_dec. change (bs "-") with [Byte.x2d]. cbv iota.
    destruct (N.ltb_spec (Z.to_N (- z)) (2 ^ 63 + 1)); [f_equal; f_equal; lia|lia].
  - rewrite <- (app_nil_r (dec (Z.to_N z))). change (@nil Byte.byte) with (@nil Byte.byte ++ []) at 1. change (dec (Z.to_N z) ++ [] ++ []) with ([] ++ dec (Z.to_N z) ++ [] ++ []).
    rewrite parse_number_parts; auto using dec_int_part. unfold number_of. cbn [app andb]. rewrite dval_dec.
    destruct (N.ltb_spec (Z.to_N z) (2 ^ 64)); [f_equal; f_equal; lia|lia].
Qed.

(* ------------------------------------------------------------------ *)
(** * Structure of the written text *)

Lemma json_ind2 (P : json -> Prop) : P JNull -> (forall b, P (JBool b)) -> (forall z, P (JInt z)) -> (forall n, P (JDbl n)) -> (forall s, P (JStr s)) ->
  (forall l, Forall P l -> P (JArr l)) -> (forall ms, Forall (fun x => P (snd x)) ms -> P (JObj ms)) -> forall j, P j.
Proof.
  intros H1 H2 H3 H4 H5 H6 H7. fix IH 1. intros [| b | z | n | s | l | ms]; [exact H1|apply H2|apply H3|apply H4|apply H5| |].
  - apply H6. induction l as [|x l IHl]; constructor; [apply IH|exact IHl].
  - apply H7. induction ms as [|[n x] ms IHl]; constructor; [apply IH|exact IHl].
Qed.

Fixpoint witems (T : tenv) (first : bool) (l : list json) : bytes * bool :=
  match l with
  | [] => (bs "]", true)
  | x :: l' => wbind (if first then [] else bs ",", true) (wbind (write T x) (witems T false l'))
  end.
Fixpoint wmembers (T : tenv) (first : bool) (ms : list (bytes * json)) : bytes * bool :=
  match ms with
  | [] => (bs "}", true)
  | (n, x) :: ms' => wbind ((if first then [] else bs ",") ++ write_string n ++ bs ":", true) (wbind (write T x) (wmembers T false ms'))
  end.
Lemma write_arr T l : write T (JArr l) = wbind (bs "[", true) (witems T true l).
Proof.
  cbn [write]. match goal with |- wbind ?a (?g true l) = _ => enough (E: forall b, g b l = witems T b l) by (rewrite E; reflexivity) end.
  induction l as [|x l IH]; intros b; [reflexivity|]. cbn [witems]. rewrite <- IH. reflexivity.
Qed.
Lemma write_obj T ms : write T (JObj ms) = wbind (bs "{", true) (wmembers T true ms).
Proof.
  cbn [write]. match goal with |- wbind ?a (?g true ms) = _ => enough (E: forall b, g b ms = wmembers T b ms) by (rewrite E; reflexivity) end.
  induction ms as [|[n x] ms IH]; intros b; [reflexivity|]. cbn [wmembers]. rewrite <- IH. reflexivity.
Qed.
Lemma wbind_ok a b t : wbind a b = (t, true) -> exists ta tb, a = (ta, true) /\ b = (tb, true) /\ t = ta ++ tb.
Proof. unfold wbind. destruct a as [ta [|]], b as [tb ob]; cbn; intros H; inversion H; subst; eauto. Qed.
Lemma wbind_fail a b t : wbind a b = (t, false) -> (a = (t, false)) \/ exists ta tb, a = (ta, true) /\ b = (tb, false) /\ t = ta ++ tb.
Proof. unfold wbind. destruct a as [ta [|]], b as [tb ob]; cbn; intros H; inversion H; subst; eauto 6. Qed.

Definition value_head (b : Byte.byte) : bool :=
  match b with Byte.x6e | Byte.x74 | Byte.x66 | Byte.x22 | Byte.x7b | Byte.x5b | Byte.x2d => true | _ => is_digit b end.
Definition headed (t : bytes) : Prop := exists b t', t = b :: t' /\ value_head b = true.
Lemma headed_ws t rest : headed t -> skip_ws (t ++ rest) = t ++ rest.
Proof. intros (b & t' & -> & H). cbn [app skip_ws]. destruct b; try discriminate H; reflexivity. Qed.
Lemma headed_not t rest c : headed t -> value_head c = false -> consume [c] (t ++ rest) = None.
Proof. intros (b & t' & -> & H) N. cbn [app consume]. rewrite beqb_neq; [reflexivity|]. intros ->. congruence. Qed.
Lemma digit_head b : is_digit b = true -> value_head b = true.
Proof. destruct b; intros H; try discriminate H; reflexivity. Qed.
Lemma dec_headed n : headed (dec n).
Proof.
  pose proof (dstr_digits (N.to_uint n)) as F. rewrite <- dec_dstr in F. destruct (dec_lead n) as [H|(b & t & H & _)]; rewrite H in *.
  - exists Byte.x30, []. auto.
  - exists b, t. split; [reflexivity|]. inversion F; subst. apply digit_head; assumption.
Qed.
Lemma double_headed s : double_text s -> headed s.
Proof.
  intros (m & ip & fp & ep & -> & [-> | ->] & Hi & _).
  - cbn [app]. destruct Hi as [->|[[N F] _]]; [exists Byte.x30, (fp ++ ep); auto|]. destruct ip as [|b ip]; [contradiction|]. exists b, (ip ++ fp ++ ep). split; [reflexivity|]. inversion F; subst. apply digit_head; assumption.
  - exists Byte.x2d, (ip ++ fp ++ ep). auto.
Qed.
Lemma itoa_headed z : headed (itoa z).
Proof. unfold itoa. destruct (z <? 0)%Z; [eexists _, _; split; reflexivity|apply dec_headed]. Qed.

Lemma write_headed T j t b : dtoa_ok T -> write T j = (t, b) -> headed t \/ (b = false /\ t = []).
Proof.
  intros D. destruct j as [| [|] | z | n | s | l | ms]; try rewrite write_arr; try rewrite write_obj; cbn [write]; intros H.
  - inversion H. left. eexists _, _; split; reflexivity.
  - inversion H. left. eexists _, _; split; reflexivity.
  - inversion H. left. eexists _, _; split; reflexivity.
  - inversion H. left. apply itoa_headed.
  - destruct (f64_finite n) eqn:F; inversion H; [left|right; auto]. apply double_headed, D, F.
  - inversion H. left. eexists _, _; split; reflexivity.
  - left. unfold wbind in H. cbn [fst snd] in H. inversion H. eexists _, _; split; reflexivity.
  - left. unfold wbind in H. cbn [fst snd] in H. inversion H. eexists _, _; split; reflexivity.
Qed.
Lemma write_true_headed T j t : dtoa_ok T -> write T j = (t, true) -> headed t.
Proof. intros D H. destruct (write_headed T j t true D H) as [Q|[Q _]]; [exact Q|discriminate]. Qed.
Lemma headed_len t : headed t -> (1 <= length t)%nat.
Proof. intros (b & t' & -> & _). cbn. lia. Qed.

(** a number is parsed as number *)
Lemma parse_value_number T f s : match s with b :: _ => is_digit b = true \/ b = Byte.x2d | [] => False end -> parse_value T (S f) s = parse_number T s.
Proof. destruct s as [|b s]; [intros []|]. intros H. destruct b; try reflexivity; destruct H as [H|H]; try discriminate H. Qed.
Lemma itoa_num z rest : match itoa z ++ rest with b :: _ => is_digit b = true \/ b = Byte.x2d | [] => False end.
Proof.
  unfold itoa. destruct (z <? 0)%Z; [right; reflexivity|]. pose proof (dstr_digits (N.to_uint (Z.to_N z))) as F. rewrite <- dec_dstr in F.
  destruct (dec_lead (Z.to_N z)) as [H|(b & t & H & _)]; rewrite H in *; inversion F; subst; left; assumption.
Qed.
Lemma double_num s rest : double_text s -> match s ++ rest with b :: _ => is_digit b = true \/ b = Byte.x2d | [] => False end.
Proof.
  intros (m & ip & fp & ep & -> & [-> | ->] & Hi & _).
  - cbn [app]. destruct Hi as [->|[[N F] _]]; [left; reflexivity|]. destruct ip as [|b ip]; [contradiction|]. inversion F; subst. left; assumption.
  - right; reflexivity.
Qed.

(* ------------------------------------------------------------------ *)
(** * What is written completely is parsed *)

Definition parses (T : tenv) (j : json) : Prop := forall t, write T j = (t, true) ->
  exists j', reparsed T j j' /\ forall rest f, stops rest -> (2 * length t < f)%nat -> parse_value T f (t ++ rest) = TOk j' rest.

Lemma skip_ws_head b s : is_ws b = false -> skip_ws (b :: s) = b :: s.
Proof. intros H. cbn. rewrite H. reflexivity. Qed.
Lemma stops_byte b s : is_digit b = false -> b <> Byte.x2e -> b <> Byte.x65 -> b <> Byte.x45 -> stops (b :: s).
Proof. cbn. auto. Qed.

Lemma tail_stops_items T l t rest : witems T false l = (t, true) -> stops (t ++ rest).
Proof. destruct l; intros H; [inversion H|apply wbind_ok in H; destruct H as (ta & tb & E & _ & ->); inversion E]; apply stops_byte; try reflexivity; discriminate. Qed.
Lemma tail_stops_members T l t rest : wmembers T false l = (t, true) -> stops (t ++ rest).
Proof. destruct l as [|[n x] l]; intros H; [inversion H|apply wbind_ok in H; destruct H as (ta & tb & E & _ & ->); inversion E]; apply stops_byte; try reflexivity; discriminate. Qed.

Lemma parse_items_ok T : dtoa_ok T -> forall l, Forall (parses T) l -> forall x tx tl, parses T x -> write T x = (tx, true) -> witems T false l = (tl, true) ->
  exists x' l', reparsed T x x' /\ Forall2 (reparsed T) l l' /\
    forall rest f, (2 * length (tx ++ tl) < f)%nat -> parse_items T f (tx ++ tl ++ rest) = TOk (x' :: l') rest.
Proof.
  intros D. induction l as [|y l IH]; intros F x tx tl Px Wx Wl.
  - destruct (Px tx Wx) as (x' & Rx & Hx). exists x', []. split; [exact Rx|]. split; [constructor|]. intros rest f Hf.
    pose proof (headed_len _ (write_true_headed T x tx D Wx)). inversion Wl; subst tl. rewrite app_length in Hf. cbn [length bs list_byte_of_string] in Hf.
    destruct f as [|f]; [lia|]. cbn [parse_items]. rewrite Hx; [|apply stops_byte; try reflexivity; discriminate|cbn in Hf; lia].
    cbn [tbind]. change (bs "]" ++ rest) with (Byte.x5d :: rest). rewrite skip_ws_head by reflexivity. reflexivity.
  - inversion F as [|? ? Py F']; subst. cbn [witems] in Wl. apply wbind_ok in Wl. destruct Wl as (tc & t1 & E & Wl & ->). inversion E; subst tc; clear E.
    apply wbind_ok in Wl. destruct Wl as (ty & tl' & Wy & Wl & ->).
    destruct (Px tx Wx) as (x' & Rx & Hx). destruct (IH F' y ty tl' Py Wy Wl) as (y' & l' & Ry & Rl & HI).
    exists x', (y' :: l'). split; [exact Rx|]. split; [constructor; assumption|]. intros rest f Hf.
    rewrite !app_length in Hf. change (length (bs ",")) with 1%nat in Hf. destruct f as [|f]; [lia|]. cbn [parse_items].
    rewrite Hx; [|apply stops_byte; try reflexivity; discriminate|lia]. cbn [tbind].
    change ((bs "," ++ ty ++ tl') ++ rest) with (Byte.x2c :: (ty ++ tl') ++ rest). rewrite skip_ws_head by reflexivity. cbn [consume bs list_byte_of_string].
    change (consume (bs ",") (Byte.x2c :: (ty ++ tl') ++ rest)) with (Some ((ty ++ tl') ++ rest)). cbv iota.
    rewrite <- app_assoc. rewrite headed_ws by (eapply write_true_headed; eauto). rewrite HI by (rewrite app_length; lia). reflexivity.
Qed.

Lemma parse_members_ok T : dtoa_ok T -> forall l, Forall (fun x => parses T (snd x)) l -> forall n x tx tl, parses T x -> write T x = (tx, true) -> wmembers T false l = (tl, true) ->
  exists x' l', reparsed T x x' /\ Forall2 (fun x y => fst x = fst y /\ reparsed T (snd x) (snd y)) l l' /\
    forall rest f, (2 * length (write_string n ++ bs ":" ++ tx ++ tl) < f)%nat -> parse_members T f (write_string n ++ bs ":" ++ tx ++ tl ++ rest) = TOk ((n, x') :: l') rest.
Proof.
  intros D. induction l as [|[m y] l IH]; intros F n x tx tl Px Wx Wl.
  - destruct (Px tx Wx) as (x' & Rx & Hx). exists x', []. split; [exact Rx|]. split; [constructor|]. intros rest f Hf.
    pose proof (headed_len _ (write_true_headed T x tx D Wx)). inversion Wl; subst tl. rewrite !app_length in Hf. change (length (bs ":")) with 1%nat in Hf.
    destruct f as [|f]; [lia|]. cbn [parse_members]. unfold write_string at 1. rewrite <- !app_assoc.
    match goal with |- context [consume quote (quote ++ ?z)] => change (consume quote (quote ++ z)) with (Some z) end. cbv iota.
    rewrite parse_string_write. cbn [tbind]. match goal with |- context [skip_ws (bs ":" ++ ?z)] => change (skip_ws (bs ":" ++ z)) with (bs ":" ++ z); change (consume (bs ":") (bs ":" ++ z)) with (Some z) end. cbv iota.
    rewrite headed_ws by (eapply write_true_headed; eauto). rewrite Hx; [|apply stops_byte; try reflexivity; discriminate|lia].
    cbn [tbind]. change (bs "}" ++ rest) with (Byte.x7d :: rest). rewrite skip_ws_head by reflexivity. reflexivity.
  - inversion F as [|? ? Py F']; subst. cbn [wmembers] in Wl. apply wbind_ok in Wl. destruct Wl as (tc & t1 & E & Wl & ->). assert (tc = bs "," ++ write_string m ++ bs ":") by congruence; subst tc; clear E.
    apply wbind_ok in Wl. destruct Wl as (ty & tl' & Wy & Wl & ->).
    destruct (Px tx Wx) as (x' & Rx & Hx). destruct (IH F' m y ty tl' Py Wy Wl) as (y' & l' & Ry & Rl & HI).
    exists x', ((m, y') :: l'). split; [exact Rx|]. split; [constructor; auto|]. intros rest f Hf.
    rewrite <- !app_assoc in *. rewrite !app_length in Hf. change (length (bs ",")) with 1%nat in Hf. change (length (bs ":")) with 1%nat in Hf. destruct f as [|f]; [lia|]. cbn [parse_members]. unfold write_string at 1. rewrite <- !app_assoc.
    match goal with |- context [consume quote (quote ++ ?z)] => change (consume quote (quote ++ z)) with (Some z) end. cbv iota.
    rewrite parse_string_write. cbn [tbind]. match goal with |- context [skip_ws (bs ":" ++ ?z)] => change (skip_ws (bs ":" ++ z)) with (bs ":" ++ z); change (consume (bs ":") (bs ":" ++ z)) with (Some z) end. cbv iota.
    rewrite headed_ws by (eapply write_true_headed; eauto).
    match goal with |- context [tx ++ bs "," ++ ?z] => rewrite (Hx (bs "," ++ z)); [|apply stops_byte; try reflexivity; discriminate|lia]; cbn [tbind]; change (skip_ws (bs "," ++ z)) with (bs "," ++ z); change (consume (bs ",") (bs "," ++ z)) with (Some z) end.
    cbv iota. match goal with |- context [skip_ws (write_string m ++ ?z)] => change (skip_ws (write_string m ++ z)) with (write_string m ++ z) end.
    rewrite HI by (rewrite !app_length; change (length (bs ":")) with 1%nat; lia). reflexivity.
Qed.

Lemma parses_all T : dtoa_ok T -> forall j, ints_ok j -> parses T j.
Proof.
  intros D j. induction j as [| b | z | n | s | l IH | ms IH] using json_ind2; intros W t Ht.
  - inversion Ht; subst. exists JNull. split; [constructor|]. intros rest f _ Hf. destruct f; [lia|]. reflexivity.
  - exists (JBool b). split; [constructor|]. destruct b; inversion Ht; subst; intros rest f _ Hf; (destruct f; [lia|]); reflexivity.
  - exists (JInt z). split; [constructor|]. inversion Ht; subst. intros rest f R Hf. destruct f; [lia|]. rewrite parse_value_number by apply itoa_num. apply parse_number_int; [apply W|exact R].
  - cbn [write] in Ht. destruct (f64_finite n) eqn:Fi; [|discriminate Ht]. inversion Ht; subst. destruct (D n Fi) as (DT & m & E). exists (JDbl m). split; [constructor; exact E|].
    intros rest f R Hf. destruct f; [lia|]. rewrite parse_value_number by (apply double_num, DT). apply parse_number_double; assumption.
  - exists (JStr s). split; [constructor|]. inversion Ht; subst. intros rest f _ Hf. destruct f; [lia|]. unfold write_string. rewrite <- !app_assoc.
    match goal with |- parse_value T (S f) (quote ++ ?z) = _ => change (parse_value T (S f) (quote ++ z)) with (tbind (parse_string z) (fun x r => TOk (JStr x) r)) end.
    rewrite parse_string_write. reflexivity.
  - rewrite write_arr in Ht. apply wbind_ok in Ht. destruct Ht as (ta & ti & E & Wi & ->). inversion E; subst ta; clear E.
    assert (WF: Forall ints_ok l) by (apply Forall_forall; intros x Hx; eapply ew_item; eauto).
    assert (F: Forall (parses T) l) by (clear -IH WF; induction l; inversion IH; inversion WF; subst; constructor; auto).
    destruct l as [|x l].
    + inversion Wi; subst. exists (JArr []). split; [constructor; constructor|]. intros rest f _ Hf. destruct f; [cbn in Hf; lia|]. reflexivity.
    + cbn [witems] in Wi. apply wbind_ok in Wi. destruct Wi as (tc & t1 & E & Wi & ->). inversion E; subst tc; clear E. apply wbind_ok in Wi. destruct Wi as (tx & tl & Wx & Wl & ->).
      inversion F as [|? ? Px F']; subst. destruct (parse_items_ok T D l F' x tx tl Px Wx Wl) as (x' & l' & Rx & Rl & HI).
      exists (JArr (x' :: l')). split; [constructor; constructor; assumption|]. intros rest f R Hf. cbn [app] in *. rewrite app_length in Hf. change (length (bs "[")) with 1%nat in Hf. destruct f; [lia|].
      rewrite <- !app_assoc. match goal with |- parse_value T (S f) (bs "[" ++ ?z) = _ => change (parse_value T (S f) (bs "[" ++ z)) with
        (match consume (bs "]") (skip_ws z) with Some r => TOk (JArr []) r | None => tbind (parse_items T f (skip_ws z)) (fun l r => TOk (JArr l) r) end) end.
      rewrite headed_ws by (eapply write_true_headed; eauto). change (bs "]") with [Byte.x5d]. rewrite headed_not; [|eapply write_true_headed; eauto|reflexivity]. cbv iota. rewrite HI by lia. reflexivity.
  - rewrite write_obj in Ht. apply wbind_ok in Ht. destruct Ht as (ta & ti & E & Wi & ->). inversion E; subst ta; clear E.
    assert (WF: Forall (fun x => ints_ok (snd x)) ms) by (apply Forall_forall; intros [n x] Hx; eapply ew_member; eauto).
    assert (F: Forall (fun x => parses T (snd x)) ms) by (clear -IH WF; induction ms; inversion IH; inversion WF; subst; constructor; auto).
    destruct ms as [|[n x] ms].
    + inversion Wi; subst. exists (JObj []). split; [constructor; constructor|]. intros rest f _ Hf. destruct f; [cbn in Hf; lia|]. reflexivity.
    + cbn [wmembers] in Wi. apply wbind_ok in Wi. destruct Wi as (tc & t1 & E & Wi & ->). assert (tc = write_string n ++ bs ":") by (cbn [app] in E; congruence); subst tc; clear E. apply wbind_ok in Wi. destruct Wi as (tx & tl & Wx & Wl & ->).
      inversion F as [|? ? Px F']; subst. destruct (parse_members_ok T D ms F' n x tx tl Px Wx Wl) as (x' & l' & Rx & Rl & HI).
      exists (JObj ((n, x') :: l')). split; [constructor; constructor; auto|]. intros rest f R Hf. cbn [app] in *. rewrite <- !app_assoc in *. rewrite app_length in Hf. change (length (bs "{")) with 1%nat in Hf. destruct f; [lia|].
      match goal with |- parse_value T (S f) (bs "{" ++ ?z) = _ => change (parse_value T (S f) (bs "{" ++ z)) with
        (match consume (bs "}") (skip_ws z) with Some r => TOk (JObj []) r | None => tbind (parse_members T f (skip_ws z)) (fun l r => TOk (JObj l) r) end) end.
      match goal with |- context [skip_ws (write_string n ++ ?z)] => change (skip_ws (write_string n ++ z)) with (write_string n ++ z) end.
      match goal with |- context [consume (bs "}") (write_string n ++ ?z)] => change (consume (bs "}") (write_string n ++ z)) with (@None bytes) end.
      cbv iota. rewrite HI by lia. reflexivity.
Qed.
