(** GrammarFacts.v -- the parser of JsonText.v accepts exactly the texts of GrammarSpec.v *)
From Coq Require Import String List NArith ZArith Bool Lia.
From Verif Require Import Base BaseFacts Types GenModel Float JsonModel JsonText JsonTextSpec JsonTextFacts JsonTextTop GrammarSpec.
Import ListNotations.
Local Open Scope list_scope.
Local Open Scope N_scope.

(** ** digits *)
Lemma decimal_dval ds n : decimal ds n -> Forall (fun b => is_digit b = true) ds /\ dval ds = n.
Proof.
  induction 1 as [|ds n b d D [IH1 IH2] Hd Hb]; [split; [constructor|reflexivity]|]. split.
  - apply Forall_app. split; [exact IH1|]. constructor; [|constructor]. unfold is_digit. rewrite andb_true_iff, !N.leb_le. lia.
  - unfold dval in *. rewrite fold_left_app. cbn [fold_left]. rewrite IH2. lia.
Qed.
Lemma dval_decimal ds : Forall (fun b => is_digit b = true) ds -> decimal ds (dval ds).
Proof.
  induction ds as [|b ds IH] using rev_ind; intros F; [constructor|]. apply Forall_app in F. destruct F as [F1 F2]. inversion F2 as [|? ? Hb _]; subst.
  unfold dval. rewrite fold_left_app. cbn [fold_left]. fold (dval ds). unfold is_digit in Hb. rewrite andb_true_iff, !N.leb_le in Hb.
  replace (dval ds * 10 + (bval b - 48)) with (10 * dval ds + (bval b - 48)) by lia. apply dc_digit; [auto|lia|lia].
Qed.
Lemma run_seq ds : digit_run ds <-> digit_seq ds.
Proof.
  split; intros [N D]; (split; [exact N|]).
  - destruct D as [n D]. apply (decimal_dval _ _ D).
  - exists (dval ds). apply dval_decimal, D.
Qed.
Lemma decimal_unique ds n : digit_run ds -> decimal ds n -> n = dval ds.
Proof. intros _ D. symmetry. apply (decimal_dval _ _ D). Qed.
Lemma hd_lead i : i <> [] -> (hd_error i <> Some Byte.x30 <-> hd Byte.x30 i <> Byte.x30).
Proof. destruct i; [congruence|]. intros _. cbn. split; congruence. Qed.
Lemma text_parts m i f e : number_text m i f e <->
  ((m = [] \/ m = bs "-") /\ (i = bs "0" \/ (digit_seq i /\ hd Byte.x30 i <> Byte.x30)) /\ (f = [] \/ exists d, f = bs "." ++ d /\ digit_seq d)
   /\ (e = [] \/ exists x g d, e = x ++ g ++ d /\ (x = bs "e" \/ x = bs "E") /\ (g = [] \/ g = bs "+" \/ g = bs "-") /\ digit_seq d)).
Proof.
  split.
  - intros [A B C D]. split; [exact A|]. split; [|split].
    + destruct B as [B|[[N B1] B2]]; [left; exact B|right]. split; [apply run_seq; split; assumption|apply hd_lead; assumption].
    + destruct C as [C|(d & C1 & C2)]; [left; exact C|right]. exists d. split; [exact C1|apply run_seq, C2].
    + destruct D as [D|(x & g & d & D1 & D2 & D3 & D4)]; [left; exact D|right]. exists x, g, d. repeat split; try assumption; apply run_seq in D4; apply D4.
  - intros (A & B & C & D). constructor.
    + exact A.
    + destruct B as [B|[B1 B2]]; [left; exact B|right]. split; [apply run_seq, B1|apply hd_lead; [apply B1|exact B2]].
    + destruct C as [C|(d & C1 & C2)]; [left; exact C|right]. exists d. split; [exact C1|apply run_seq, C2].
    + destruct D as [D|(x & g & d & D1 & D2 & D3 & D4)]; [left; exact D|right]. exists x, g, d. repeat split; try assumption; apply run_seq in D4; apply D4.
Qed.
Lemma int_digits i : i = bs "0" \/ (digit_seq i /\ hd Byte.x30 i <> Byte.x30) -> Forall (fun b => is_digit b = true) i.
Proof. intros [-> | [[_ F] _]]; [repeat constructor|exact F]. Qed.

Lemma number_complete T t j rest : number T t j -> stops rest -> parse_number T (t ++ rest) = TOk j rest.
Proof.
  assert (X : forall m i z, number_text m i [] [] -> integer m i z ->
    parse_number T ((m ++ i) ++ rest) = parse_number T ((m ++ i ++ [] ++ []) ++ rest) /\ z = (match m with [] => Z.of_N (dval i) | _ => - Z.of_N (dval i) end)%Z
    /\ (dval i <? (match m with [] => 2 ^ 64 | _ => 2 ^ 63 + 1 end) = true <-> fits64 z)).
  { intros m i z N (n & D & Ez). apply decimal_dval in D. destruct D as [_ <-]. split; [cbn [app]; rewrite app_nil_r; reflexivity|].
    destruct N as [[-> | ->] _ _ _]; cbn in Ez |- *; subst z; (split; [reflexivity|]); rewrite N.ltb_lt; unfold fits64; lia. }
  intros H R. destruct H as [m i z N I F|m i z d N I F E|m i f e d N NE E].
  - destruct (X m i z N I) as (-> & Ez & L). pose proof N as N'. apply text_parts in N'. destruct N' as (A & B & C & D).
    rewrite parse_number_parts by assumption. unfold number_of. cbn [app]. rewrite (proj2 L F). cbn [andb]. rewrite <- Ez. reflexivity.
  - destruct (X m i z N I) as (-> & Ez & L). pose proof N as N'. apply text_parts in N'. destruct N' as (A & B & C & D).
    rewrite parse_number_parts by assumption. unfold number_of. cbn [app].
    match goal with |- context [?a <? ?b] => destruct (a <? b) eqn:Q end; [exfalso; apply F; apply L; reflexivity|]. cbn [andb]. rewrite app_nil_r. rewrite E. reflexivity.
  - apply text_parts in N. destruct N as (A & B & C & D). rewrite parse_number_parts by assumption.
    unfold number_of. rewrite E. destruct (f ++ e); [contradiction|reflexivity].
Qed.

Lemma digits_split s d r : digits s = (d, r) -> s = d ++ r /\ Forall (fun b => is_digit b = true) d.
Proof.
  revert d r. induction s as [|b s IH]; intros d r; cbn; [intros [= <- <-]; split; [reflexivity|constructor]|].
  destruct (is_digit b) eqn:Eb; [|intros [= <- <-]; split; [reflexivity|constructor]]. destruct (digits s) as [d' r']. intros [= <- <-].
  destruct (IH _ _ eq_refl) as [-> F]. split; [reflexivity|constructor; assumption].
Qed.
Lemma int_part_ok s i r : int_part s = Some (i, r) -> s = i ++ r /\ (i = bs "0" \/ (digit_seq i /\ hd Byte.x30 i <> Byte.x30)).
Proof.
  destruct s as [|b s]; cbn [int_part]; [discriminate|]. destruct (beqb b Byte.x30) eqn:E0.
  - apply beqb_eq in E0. subst b. intros [= <- <-]. split; [reflexivity|left; reflexivity].
  - destruct (is_digit b) eqn:Eb; [|discriminate]. intros [= E]. cbn [digits] in E. rewrite Eb in E. destruct (digits s) as [d' r'] eqn:Ed. injection E as <- <-.
    destruct (digits_split _ _ _ Ed) as [-> F]. split; [reflexivity|]. right. split; [split; [discriminate|constructor; assumption]|]. cbn. intros ->. rewrite beqb_refl in E0. discriminate.
Qed.
Lemma frac_part_ok s f r : frac_part s = Some (f, r) -> s = f ++ r /\ (f = [] \/ exists d, f = bs "." ++ d /\ digit_seq d).
Proof.
  destruct s as [|b s]; cbn [frac_part]; [intros [= <- <-]; auto|].
  destruct b; try (intros [= <- <-]; auto; fail). destruct (digits s) as [[|x d] r'] eqn:Ed; [discriminate|]. intros [= <- <-].
  destruct (digits_split _ _ _ Ed) as [-> F]. split; [reflexivity|right]. exists (x :: d). split; [reflexivity|]. split; [discriminate|exact F].
Qed.
Lemma exp_part_ok s e r : exp_part s = Some (e, r) -> s = e ++ r
  /\ (e = [] \/ exists x g d, e = x ++ g ++ d /\ (x = bs "e" \/ x = bs "E") /\ (g = [] \/ g = bs "+" \/ g = bs "-") /\ digit_seq d).
Proof.
  assert (X : forall s g s2, (match s with (Byte.x2b | Byte.x2d) as c :: s'' => ([c], s'') | _ => ([], s) end) = (g, s2) -> s = g ++ s2 /\ (g = [] \/ g = bs "+" \/ g = bs "-")).
  { intros [|b s0] g s2; [intros [= <- <-]; auto|]. destruct b; intros [= <- <-]; auto. }
  destruct s as [|b s]; cbn [exp_part]; [intros [= <- <-]; auto|].
  assert (Y : forall x, (x = bs "e" \/ x = bs "E") -> b :: s = x ++ s ->
    (let '(g, s2) := match s with (Byte.x2b | Byte.x2d) as c :: s'' => ([c], s'') | _ => ([], s) end in
     match digits s2 with ([], _) => None | (d, r) => Some (b :: g ++ d, r) end) = Some (e, r) ->
    b :: s = e ++ r /\ (e = [] \/ exists x g d, e = x ++ g ++ d /\ (x = bs "e" \/ x = bs "E") /\ (g = [] \/ g = bs "+" \/ g = bs "-") /\ digit_seq d)).
  { intros x Hx Eb. destruct (match s with (Byte.x2b | Byte.x2d) as c :: s'' => ([c], s'') | _ => ([], s) end) as [g s2] eqn:Eg. apply X in Eg. destruct Eg as [Eg Hg].
    destruct (digits s2) as [[|y d] r'] eqn:Ed; [discriminate|]. intros [= <- <-]. destruct (digits_split _ _ _ Ed) as [-> F]. rewrite Eg. split; [cbn [app]; rewrite <- app_assoc; reflexivity|].
    right. exists x, g, (y :: d). split; [destruct Hx as [-> | ->]; injection Eb as ->; reflexivity|]. repeat split; try assumption. discriminate. }
  destruct b; try (intros [= <- <-]; auto; fail).
  - apply (Y (bs "E")); auto.
  - apply (Y (bs "e")); auto.
Qed.

Lemma number_sound T s j r : parse_number T s = TOk j r -> exists t, s = t ++ r /\ number T t j.
Proof.
  rewrite parse_number_unfold. destruct (minus s) as [m s0] eqn:Em.
  assert (M : s = m ++ s0 /\ (m = [] \/ m = bs "-")).
  { unfold minus in Em. destruct s as [|b s]; [injection Em as <- <-; auto|]. destruct b; injection Em as <- <-; auto. }
  destruct M as [-> M]. destruct (int_part s0) as [[i s1]|] eqn:Ei; [|discriminate]. apply int_part_ok in Ei. destruct Ei as [-> I].
  destruct (frac_part s1) as [[f s2]|] eqn:Ef; [|discriminate]. apply frac_part_ok in Ef. destruct Ef as [-> F].
  destruct (exp_part s2) as [[e s3]|] eqn:Ee; [|discriminate]. apply exp_part_ok in Ee. destruct Ee as [-> E].
  assert (N : number_text m i f e) by (apply text_parts; auto). unfold number_of.
  assert (D : decimal i (dval i)) by (apply dval_decimal, int_digits, I).
  assert (Z : integer m i (match m with [] => Z.of_N (dval i) | _ => - Z.of_N (dval i) end)%Z) by (exists (dval i); split; [exact D|destruct m; reflexivity]).
  destruct (f ++ e) as [|x y] eqn:Efe.
  - apply app_eq_nil in Efe. destruct Efe as [-> ->]. cbn [app]. rewrite app_nil_r.
    destruct (dval i <? _) eqn:L; cbn [andb].
    + intros [= <- <-]. exists (m ++ i). split; [rewrite <- app_assoc; reflexivity|]. apply nm_integer; [exact N|exact Z|]. apply N.ltb_lt in L.
      unfold fits64. destruct M as [-> | ->]; cbn in L |- *; lia.
    + destruct (te_strtod T (m ++ i)) as [d|] eqn:Ed; [|discriminate]. intros [= <- <-]. exists (m ++ i). split; [rewrite <- app_assoc; reflexivity|].
      eapply nm_large; [exact N|exact Z| |exact Ed]. apply N.ltb_ge in L. unfold fits64. destruct M as [-> | ->]; cbn in L |- *; lia.
  - cbn [andb]. destruct (te_strtod T (m ++ i ++ x :: y)) as [d|] eqn:Ed; [|discriminate]. intros [= <- <-].
    exists (m ++ i ++ f ++ e). split; [rewrite <- !app_assoc; reflexivity|]. apply nm_double; [exact N|rewrite Efe; discriminate|rewrite Efe; exact Ed].
Qed.

(** ** strings *)
Lemma hex_val_in b n : hex_val b = Some n <-> In (b, n) hex_digits.
Proof.
  split.
  - destruct b; intros H; cbv in H; try discriminate H; injection H as <-; cbv; tauto.
  - intros H. repeat (destruct H as [H|H]; [injection H as <- <-; reflexivity|]). destruct H.
Qed.
Lemma hex4_code a b c d n : hex4 a b c d = Some n <-> hex_code [a; b; c; d] n.
Proof.
  unfold hex4, hex_code. split.
  - destruct (hex_val a) as [x1|] eqn:E1; [|discriminate]. destruct (hex_val b) as [x2|] eqn:E2; [|discriminate].
    destruct (hex_val c) as [x3|] eqn:E3; [|discriminate]. destruct (hex_val d) as [x4|] eqn:E4; [|discriminate].
    intros [= <-]. exists a, b, c, d, x1, x2, x3, x4. rewrite <- !hex_val_in. repeat split; try assumption. lia.
  - intros (h1 & h2 & h3 & h4 & a1 & a2 & a3 & a4 & [= -> -> -> ->] & H1 & H2 & H3 & H4 & ->). apply hex_val_in in H1, H2, H3, H4. rewrite H1, H2, H3, H4. f_equal. lia.
Qed.
Lemma hex_code_len h n : hex_code h n -> exists a b c d, h = [a; b; c; d] /\ n < 65536.
Proof.
  intros (h1 & h2 & h3 & h4 & a1 & a2 & a3 & a4 & -> & H1 & H2 & H3 & H4 & ->). exists h1, h2, h3, h4. split; [reflexivity|].
  assert (X : forall h a, In (h, a) hex_digits -> a <= 15). { intros h a H. repeat (destruct H as [H|H]; [injection H as <- <-; lia|]). destruct H. }
  apply X in H1, H2, H3, H4. lia.
Qed.
Lemma div64 a b : b < 64 -> (a * 64 + b) / 64 = a /\ (a * 64 + b) mod 64 = b.
Proof. intros H. split; [rewrite N.div_add_l by lia; rewrite N.div_small by lia; lia|]. rewrite N.add_comm, N.mod_add by lia. apply N.mod_small, H. Qed.
Lemma utf8_of_utf8 c u : utf8_of c u -> u = utf8 c.
Proof.
  unfold utf8. intros [c0 H|a b Ha Hb H|a b c0 Ha Hb Hc H|a b c0 d Ha Hb Hc Hd H].
  - destruct (N.leb_spec c0 127); [reflexivity|lia].
  - destruct (N.leb_spec (a * 64 + b) 127); [lia|]. destruct (N.leb_spec (a * 64 + b) 2047); [|lia]. destruct (div64 a b Hb) as [-> ->]. reflexivity.
  - destruct (N.leb_spec ((a * 64 + b) * 64 + c0) 127); [lia|]. destruct (N.leb_spec ((a * 64 + b) * 64 + c0) 2047); [lia|]. destruct (N.leb_spec ((a * 64 + b) * 64 + c0) 65535); [|lia].
    change 4096 with (64 * 64). rewrite <- N.div_div by lia. destruct (div64 (a * 64 + b) c0 Hc) as [-> ->]. destruct (div64 a b Hb) as [-> ->]. reflexivity.
  - set (x := ((a * 64 + b) * 64 + c0) * 64 + d) in *. destruct (N.leb_spec x 127); [lia|]. destruct (N.leb_spec x 2047); [lia|]. destruct (N.leb_spec x 65535); [lia|]. unfold x.
    change 262144 with (64 * 64 * 64). change 4096 with (64 * 64). rewrite <- !N.div_div by lia. destruct (div64 ((a * 64 + b) * 64 + c0) d Hd) as [-> ->].
    destruct (div64 (a * 64 + b) c0 Hc) as [-> ->]. destruct (div64 a b Hb) as [-> ->]. reflexivity.
Qed.
Lemma split64 c : c = c / 64 * 64 + c mod 64 /\ c mod 64 < 64.
Proof. pose proof (N.div_mod c 64). pose proof (N.mod_lt c 64). lia. Qed.
Lemma utf8_utf8_of c : c <= 0x10FFFF -> utf8_of c (utf8 c).
Proof.
  intros L. unfold utf8. destruct (N.leb_spec c 127); [constructor; lia|].
  destruct (split64 c) as [E1 B1]. destruct (split64 (c / 64)) as [E2 B2]. destruct (split64 (c / 64 / 64)) as [E3 B3].
  destruct (N.leb_spec c 2047); [rewrite E1 at 1; constructor; lia|].
  change 4096 with (64 * 64). change 262144 with (64 * 64 * 64). rewrite <- !N.div_div by lia.
  destruct (N.leb_spec c 65535).
  - replace c with ((c / 64 / 64 * 64 + c / 64 mod 64) * 64 + c mod 64) at 1 by lia. constructor; lia.
  - replace c with (((c / 64 / 64 / 64 * 64 + c / 64 / 64 mod 64) * 64 + c / 64 mod 64) * 64 + c mod 64) at 1 by lia. constructor; lia.
Qed.
Lemma unescape_in e c : unescape e = Some c <-> In (e, c) short_escapes.
Proof.
  split.
  - destruct e; intros H; try discriminate H; injection H as <-; cbv; tauto.
  - intros H. repeat (destruct H as [H|H]; [injection H as <- <-; reflexivity|]). destruct H.
Qed.

Lemma string_complete t s : chars t s -> forall rest, parse_string (t ++ Byte.x22 :: rest) = TOk s rest.
Proof.
  induction 1 as [|b t s H1 H2 H3 C IH|e c t s H C IH|h c u t s H1 H2 H3 C IH|h1 h2 hi lo u t s H1 H2 L1 L2 H3 C IH]; intros rest.
  - reflexivity.
  - cbn [app parse_string]. rewrite (beqb_neq _ _ H3), (beqb_neq _ _ H2). destruct (N.ltb_spec (bval b) 32); [lia|]. rewrite IH. reflexivity.
  - cbn [app parse_string]. rewrite beqb_refl. apply unescape_in in H. rewrite H, IH. reflexivity.
  - destruct (hex_code_len _ _ H1) as (a1 & a2 & a3 & a4 & -> & L). apply hex4_code in H1. cbn [chr list_byte_of_string app].
    change (parse_string (Byte.x5c :: Byte.x75 :: a1 :: a2 :: a3 :: a4 :: t ++ Byte.x22 :: rest) = TOk (u ++ s) rest).
    cbn [parse_string]. rewrite !beqb_refl. cbn [unescape]. rewrite H1. 
    destruct ((55296 <=? c) && (c <=? 57343)) eqn:Q; [rewrite andb_true_iff, !N.leb_le in Q; lia|]. rewrite IH. cbn. rewrite (utf8_of_utf8 _ _ H3). reflexivity.
  - destruct (hex_code_len _ _ H1) as (a1 & a2 & a3 & a4 & -> & _). destruct (hex_code_len _ _ H2) as (b1 & b2 & b3 & b4 & -> & _). apply hex4_code in H1, H2.
    change (parse_string (Byte.x5c :: Byte.x75 :: a1 :: a2 :: a3 :: a4 :: Byte.x5c :: Byte.x75 :: b1 :: b2 :: b3 :: b4 :: t ++ Byte.x22 :: rest) = TOk (u ++ s) rest).
    cbn [parse_string]. rewrite !beqb_refl. cbn [unescape andb]. rewrite H1, H2.
    replace ((55296 <=? hi) && (hi <=? 57343)) with true by (symmetry; rewrite andb_true_iff, !N.leb_le; lia).
    replace (hi <=? 56319) with true by (symmetry; rewrite N.leb_le; lia).
    replace ((56320 <=? lo) && (lo <=? 57343)) with true by (symmetry; rewrite andb_true_iff, !N.leb_le; lia).
    rewrite IH. cbn. rewrite (utf8_of_utf8 _ _ H3). f_equal. f_equal. f_equal. lia.
Qed.
Lemma put_ok a m s r : put a m = TOk s r -> exists s', m = TOk s' r /\ s = a ++ s'.
Proof. unfold put, tbind. destruct m; try discriminate. intros [= <- <-]. eauto. Qed.
Lemma string_sound n : forall x s r, (length x <= n)%nat -> parse_string x = TOk s r -> exists t, x = t ++ Byte.x22 :: r /\ chars t s.
Proof.
  induction n as [|n IH]; intros x s r L E; [destruct x; [discriminate|cbn in L; lia]|].
  destruct x as [|b s1]; [discriminate|]. cbn [parse_string] in E. cbn [length] in L. destruct (beqb b Byte.x5c) eqn:Eb.
  - apply beqb_eq in Eb. subst b. destruct s1 as [|e s2]; [discriminate|]. cbn [length] in L. destruct (unescape e) as [c|] eqn:Eu.
    + apply put_ok in E. destruct E as (s' & E & ->). apply IH in E; [|lia]. destruct E as (t & -> & C). exists (Byte.x5c :: e :: t). split; [reflexivity|].
      apply (ch_short e c); [apply unescape_in, Eu|exact C].
    + destruct (beqb e Byte.x75) eqn:Ee; [|discriminate]. apply beqb_eq in Ee. subst e.
      destruct s2 as [|h1 [|h2 [|h3 [|h4 s3]]]]; try discriminate. cbn [length] in L. destruct (hex4 h1 h2 h3 h4) as [c|] eqn:Eh; [|discriminate].
      apply hex4_code in Eh. destruct (hex_code_len _ _ Eh) as (_ & _ & _ & _ & _ & Lc).
      destruct ((55296 <=? c) && (c <=? 57343)) eqn:Q.
      * rewrite andb_true_iff, !N.leb_le in Q. destruct (N.leb_spec c 56319) as [L1|_]; [|discriminate].
        destruct s3 as [|k1 [|k2 [|l1 [|l2 [|l3 [|l4 s4]]]]]]; try discriminate. cbn [length] in L.
        destruct (beqb k1 Byte.x5c) eqn:K1; [|discriminate]. destruct (beqb k2 Byte.x75) eqn:K2; [|discriminate]. apply beqb_eq in K1, K2. subst k1 k2. cbn [andb] in E.
        destruct (hex4 l1 l2 l3 l4) as [d|] eqn:El; [|discriminate]. apply hex4_code in El.
        destruct ((56320 <=? d) && (d <=? 57343)) eqn:Q2; [|discriminate]. rewrite andb_true_iff, !N.leb_le in Q2.
        apply put_ok in E. destruct E as (s' & E & ->). apply IH in E; [|lia]. destruct E as (t & -> & C).
        exists (chr "\u" ++ [h1; h2; h3; h4] ++ chr "\u" ++ [l1; l2; l3; l4] ++ t). split; [reflexivity|].
        eapply ch_pair; [exact Eh|exact El|lia|lia| |exact C].
        replace (0x10000 + (c - 0xD800) * 0x400 + (d - 0xDC00)) with ((c - 55296) * 1024 + (d - 56320) + 65536) by lia. apply utf8_utf8_of. lia.
      * apply put_ok in E. destruct E as (s' & E & ->). apply IH in E; [|lia]. destruct E as (t & -> & C).
        exists (chr "\u" ++ [h1; h2; h3; h4] ++ t). split; [reflexivity|]. eapply ch_code; [exact Eh| |apply utf8_utf8_of; lia|exact C].
        intros [A B]. apply andb_false_iff in Q. rewrite !N.leb_gt in Q. lia.
  - destruct (beqb b Byte.x22) eqn:Eq.
    + apply beqb_eq in Eq. subst b. injection E as <- <-. exists []. split; [reflexivity|constructor].
    + destruct (N.ltb_spec (bval b) 32); [discriminate|]. apply put_ok in E. destruct E as (s' & E & ->). apply IH in E; [|lia]. destruct E as (t & -> & C).
      exists (b :: t). split; [reflexivity|]. apply ch_plain; [lia| | |exact C]; intros ->; rewrite beqb_refl in *; discriminate.
Qed.

(** ** whitespace *)
Lemma ws_in b : is_ws b = true <-> In b [Byte.x20; Byte.x09; Byte.x0a; Byte.x0d].
Proof. split; [destruct b; intros H; try discriminate H; cbv; tauto|]. intros H. repeat (destruct H as [<- | H]; [reflexivity|]). destruct H. Qed.
Lemma skip_blanks w r : blanks w -> skip_ws (w ++ r) = skip_ws r.
Proof. induction 1 as [|b w H F IH]; [reflexivity|]. apply ws_in in H. cbn [app skip_ws]. rewrite H. exact IH. Qed.
Lemma skip_split s : exists w, s = w ++ skip_ws s /\ blanks w.
Proof.
  induction s as [|b s (w & E & F)]; [exists []; split; [reflexivity|constructor]|]. cbn [skip_ws]. destruct (is_ws b) eqn:Eb.
  - exists (b :: w). split; [cbn [app]; f_equal; exact E|]. constructor; [apply ws_in, Eb|exact F].
  - exists []. split; [reflexivity|constructor].
Qed.
Lemma consume_ok w : forall s r, consume w s = Some r <-> s = w ++ r.
Proof.
  induction w as [|c w IH]; intros s r; cbn; [split; [intros [= ->]; reflexivity|intros ->; reflexivity]|].
  destruct s as [|b s]; [split; discriminate|]. destruct (beqb c b) eqn:E.
  - apply beqb_eq in E. subst b. rewrite IH. split; [intros ->; reflexivity|intros [= ->]; reflexivity].
  - split; [discriminate|]. intros [= -> ->]. rewrite beqb_refl in E. discriminate.
Qed.
Lemma consume_char c r : consume [c] (c :: r) = Some r. Proof. cbn. rewrite beqb_refl. reflexivity. Qed.
Lemma consume_other c b r : b <> c -> consume [c] (b :: r) = None. Proof. intros H. cbn. rewrite beqb_neq; congruence. Qed.

(** ** values *)
Scheme value_text_ind2 := Induction for value_text Sort Prop
  with items_text_ind2 := Induction for items_text Sort Prop
  with members_text_ind2 := Induction for members_text Sort Prop.
Combined Scheme text_ind from value_text_ind2, items_text_ind2, members_text_ind2.

Lemma digit_run_headed i : i = chr "0" \/ (digit_run i /\ hd_error i <> Some Byte.x30) -> exists b t, i = b :: t /\ is_digit b = true.
Proof.
  intros [-> | [D _]]; [exists Byte.x30, []; auto|]. apply run_seq in D. destruct D as [N F]. destruct i as [|b i]; [contradiction|]. inversion F; subst. eauto.
Qed.
Lemma number_head T t j : number T t j -> exists b t', t = b :: t' /\ (is_digit b = true \/ b = Byte.x2d).
Proof.
  assert (X : forall m i f e r, number_text m i f e -> exists b t', m ++ i ++ r = b :: t' /\ (is_digit b = true \/ b = Byte.x2d)).
  { intros m i f e r [[-> | ->] I _ _].
    - apply digit_run_headed in I. destruct I as (b & t0 & -> & D). exists b, (t0 ++ r). auto.
    - exists Byte.x2d, (i ++ r). auto. }
  intros [m i z N _ _|m i z d N _ _ _|m i f e d N _ _].
  - rewrite <- (app_nil_r i). eapply X; eassumption.
  - rewrite <- (app_nil_r i). eapply X; eassumption.
  - eapply X; eassumption.
Qed.
Lemma value_headed T t j : value_text T t j -> headed t.
Proof.
  intros [| | |t0 j0 N|t0 s (x & -> & _)|w _|w t0 l _ _|w _|w t0 ms _ _]; try (eexists _, _; split; reflexivity).
  apply number_head in N. destruct N as (b & t' & -> & [D| ->]); [|eexists _, _; split; reflexivity]. exists b, t'. split; [reflexivity|apply digit_head, D].
Qed.
Lemma stops_blank w r : blanks w -> stops r -> stops (w ++ r).
Proof.
  intros B S. destruct B as [|b w H _]; [exact S|]. cbn [app]. repeat (destruct H as [<- | H]; [cbn; repeat split; try reflexivity; discriminate|]). destruct H.
Qed.
Lemma items_headed T t l : items_text T t l -> headed t.
Proof. intros [t0 j w V _|t0 j w w' r l0 V _ _ _]; apply value_headed in V; destruct V as (b & t' & -> & H); eexists b, _; split; reflexivity || exact H. Qed.
Lemma members_headed T t ms : members_text T t ms -> exists t', t = Byte.x22 :: t'.
Proof. intros [n s w1 w2 t0 j w (x & -> & _) _ _ _ _|n s w1 w2 t0 j w w' r ms0 (x & -> & _) _ _ _ _ _ _]; eexists; reflexivity. Qed.

Lemma quoted_complete t s : quoted t s -> forall rest, exists t', t ++ rest = Byte.x22 :: t' /\ parse_string t' = TOk s rest.
Proof. intros (x & -> & C) rest. exists (x ++ Byte.x22 :: rest). split; [cbn [app]; rewrite <- app_assoc; reflexivity|apply string_complete, C]. Qed.

Lemma text_complete T :
  (forall t j, value_text T t j -> forall rest f, stops rest -> (2 * length t < f)%nat -> parse_value T f (t ++ rest) = TOk j rest)
  /\ (forall t l, items_text T t l -> forall rest f, (2 * length t + 1 < f)%nat -> parse_items T f (t ++ Byte.x5d :: rest) = TOk l rest)
  /\ (forall t ms, members_text T t ms -> forall rest f, (2 * length t + 1 < f)%nat -> parse_members T f (t ++ Byte.x7d :: rest) = TOk ms rest).
Proof.
  apply text_ind.
  - intros rest [|f] S L; [lia|]. reflexivity.
  - intros rest [|f] S L; [lia|]. reflexivity.
  - intros rest [|f] S L; [lia|]. reflexivity.
  - intros t j N rest [|f] S L; [lia|]. rewrite parse_value_number; [apply number_complete; assumption|].
    apply number_head in N. destruct N as (b & t' & -> & H). exact H.
  - intros t s Q rest [|f] S L; [lia|]. destruct (quoted_complete _ _ Q rest) as (t' & -> & P). cbn [parse_value]. cbn [beqb Byte.eqb]. 
    change (tbind (parse_string t') (fun x r => TOk (JStr x) r) = TOk (JStr s) rest). rewrite P. reflexivity.
  - intros w B rest [|f] S L; [lia|]. change ((chr "[" ++ w ++ chr "]") ++ rest) with (Byte.x5b :: (w ++ [Byte.x5d]) ++ rest). rewrite <- app_assoc.
    change (match consume (bs "]") (skip_ws (w ++ [Byte.x5d] ++ rest)) with Some r => TOk (JArr []) r
      | None => tbind (parse_items T f (skip_ws (w ++ [Byte.x5d] ++ rest))) (fun l r => TOk (JArr l) r) end = TOk (JArr []) rest).
    rewrite skip_blanks by exact B. reflexivity.
  - intros w t l B V IH rest [|f] S L; [lia|]. change ((chr "[" ++ w ++ t ++ chr "]") ++ rest) with (Byte.x5b :: (w ++ t ++ [Byte.x5d]) ++ rest). rewrite <- !app_assoc.
    change (match consume (bs "]") (skip_ws (w ++ t ++ [Byte.x5d] ++ rest)) with Some r => TOk (JArr []) r
      | None => tbind (parse_items T f (skip_ws (w ++ t ++ [Byte.x5d] ++ rest))) (fun l r => TOk (JArr l) r) end = TOk (JArr l) rest).
    rewrite skip_blanks by exact B. apply items_headed in V. rewrite headed_ws by exact V. change (bs "]") with [Byte.x5d]. rewrite headed_not by (exact V || reflexivity).
    cbn [app]. rewrite IH; [reflexivity|]. rewrite !app_length in L. cbn in L. lia.
  - intros w B rest [|f] S L; [lia|]. change ((chr "{" ++ w ++ chr "}") ++ rest) with (Byte.x7b :: (w ++ [Byte.x7d]) ++ rest). rewrite <- app_assoc.
    change (match consume (bs "}") (skip_ws (w ++ [Byte.x7d] ++ rest)) with Some r => TOk (JObj []) r
      | None => tbind (parse_members T f (skip_ws (w ++ [Byte.x7d] ++ rest))) (fun l r => TOk (JObj l) r) end = TOk (JObj []) rest).
    rewrite skip_blanks by exact B. reflexivity.
  - intros w t ms B V IH rest [|f] S L; [lia|]. change ((chr "{" ++ w ++ t ++ chr "}") ++ rest) with (Byte.x7b :: (w ++ t ++ [Byte.x7d]) ++ rest). rewrite <- !app_assoc.
    change (match consume (bs "}") (skip_ws (w ++ t ++ [Byte.x7d] ++ rest)) with Some r => TOk (JObj []) r
      | None => tbind (parse_members T f (skip_ws (w ++ t ++ [Byte.x7d] ++ rest))) (fun l r => TOk (JObj l) r) end = TOk (JObj ms) rest).
    rewrite skip_blanks by exact B. destruct (members_headed _ _ _ V) as (t' & Et).
    assert (Hw : forall r, skip_ws (t ++ r) = t ++ r) by (intros r; rewrite Et; reflexivity). rewrite Hw.
    assert (Hc : forall r, consume (bs "}") (t ++ r) = None) by (intros r; rewrite Et; reflexivity). rewrite Hc.
    cbn [app]. rewrite IH; [reflexivity|]. rewrite !app_length in L. cbn in L. lia.
  - intros t j w V IH B rest [|f] L; [lia|]. rewrite app_length in L. cbn [parse_items]. rewrite <- app_assoc.
    rewrite IH; [|apply stops_blank; [exact B|cbn; repeat split; try reflexivity; discriminate]|lia]. cbn [tbind]. rewrite skip_blanks by exact B. reflexivity.
  - intros t j w w' r l V IH B B' I IHl rest [|f] L; [lia|]. rewrite !app_length in L. change (length (chr ",")) with 1%nat in L. cbn [parse_items]. rewrite <- !app_assoc.
    change (chr ",") with [Byte.x2c]. cbn [app].
    rewrite IH; [|apply stops_blank; [exact B|cbn; repeat split; try reflexivity; discriminate]|lia]. cbn [tbind]. rewrite skip_blanks by exact B.
    change (skip_ws (Byte.x2c :: w' ++ r ++ Byte.x5d :: rest)) with (Byte.x2c :: w' ++ r ++ Byte.x5d :: rest). change (bs ",") with [Byte.x2c]. rewrite consume_char.
    rewrite skip_blanks by exact B'. rewrite headed_ws by (eapply items_headed; exact I). rewrite IHl; [reflexivity|]. lia.
  - intros n s w1 w2 t j w Q B1 B2 V IH B rest [|f] L; [lia|]. rewrite !app_length in L. cbn [parse_members]. rewrite <- !app_assoc.
    destruct (quoted_complete _ _ Q (w1 ++ chr ":" ++ w2 ++ t ++ w ++ Byte.x7d :: rest)) as (t' & -> & P). change quote with [Byte.x22]. rewrite consume_char. rewrite P. cbn [tbind].
    rewrite skip_blanks by exact B1. change (chr ":") with [Byte.x3a]. cbn [app]. change (skip_ws (Byte.x3a :: w2 ++ t ++ w ++ Byte.x7d :: rest)) with (Byte.x3a :: w2 ++ t ++ w ++ Byte.x7d :: rest).
    change (bs ":") with [Byte.x3a]. rewrite consume_char. rewrite skip_blanks by exact B2. rewrite headed_ws by (eapply value_headed; exact V).
    rewrite IH; [|apply stops_blank; [exact B|cbn; repeat split; try reflexivity; discriminate]|lia]. cbn [tbind]. rewrite skip_blanks by exact B. reflexivity.
  - intros n s w1 w2 t j w w' r ms Q B1 B2 V IH B B' I IHl rest [|f] L; [lia|]. rewrite !app_length in L. cbn [parse_members]. rewrite <- !app_assoc.
    destruct (quoted_complete _ _ Q (w1 ++ chr ":" ++ w2 ++ t ++ w ++ chr "," ++ w' ++ r ++ Byte.x7d :: rest)) as (t' & -> & P). change quote with [Byte.x22]. rewrite consume_char. rewrite P. cbn [tbind].
    rewrite skip_blanks by exact B1. change (chr ":") with [Byte.x3a]. change (chr ",") with [Byte.x2c] in *. cbn [app]. 
    match goal with |- context [skip_ws (Byte.x3a :: ?X)] => change (skip_ws (Byte.x3a :: X)) with (Byte.x3a :: X) end.
    change (bs ":") with [Byte.x3a]. rewrite consume_char. rewrite skip_blanks by exact B2. rewrite headed_ws by (eapply value_headed; exact V).
    rewrite IH; [|apply stops_blank; [exact B|cbn; repeat split; try reflexivity; discriminate]|lia]. cbn [tbind]. rewrite skip_blanks by exact B.
    match goal with |- context [skip_ws (Byte.x2c :: ?X)] => change (skip_ws (Byte.x2c :: X)) with (Byte.x2c :: X) end. change (bs ",") with [Byte.x2c]. rewrite consume_char.
    rewrite skip_blanks by exact B'. destruct (members_headed _ _ _ I) as (r' & Er).
    assert (Hw : forall x, skip_ws (r ++ x) = r ++ x) by (intros x; rewrite Er; reflexivity). rewrite Hw. rewrite IHl; [reflexivity|]. cbn [length] in L. lia.
Qed.

(** ** soundness *)
Lemma text_sound T f :
  (forall s j r, parse_value T f s = TOk j r -> exists t, s = t ++ r /\ value_text T t j)
  /\ (forall s l r, parse_items T f s = TOk l r -> exists t, s = t ++ Byte.x5d :: r /\ items_text T t l)
  /\ (forall s ms r, parse_members T f s = TOk ms r -> exists t, s = t ++ Byte.x7d :: r /\ members_text T t ms).
Proof.
  induction f as [|f (IV & II & IM)]; [repeat split; discriminate|]. repeat apply conj.
  - intros [|b s1] j r E; [discriminate|]. cbn [parse_value] in E.
    destruct (beqb b Byte.x6e) eqn:E1. { apply beqb_eq in E1. subst b. destruct (consume (bs "ull") s1) as [r0|] eqn:C; [|discriminate]. injection E as <- <-. apply consume_ok in C. subst s1.
      exists (chr "null"). split; [reflexivity|constructor]. }
    destruct (beqb b Byte.x74) eqn:E2. { apply beqb_eq in E2. subst b. destruct (consume (bs "rue") s1) as [r0|] eqn:C; [|discriminate]. injection E as <- <-. apply consume_ok in C. subst s1.
      exists (chr "true"). split; [reflexivity|constructor]. }
    destruct (beqb b Byte.x66) eqn:E3. { apply beqb_eq in E3. subst b. destruct (consume (bs "alse") s1) as [r0|] eqn:C; [|discriminate]. injection E as <- <-. apply consume_ok in C. subst s1.
      exists (chr "false"). split; [reflexivity|constructor]. }
    destruct (beqb b Byte.x22) eqn:E4. { apply beqb_eq in E4. subst b. destruct (parse_string s1) as [x r0| |] eqn:P; try discriminate. injection E as <- <-.
      apply (string_sound (length s1)) in P; [|lia]. destruct P as (t & -> & C). exists ([Byte.x22] ++ t ++ [Byte.x22]). split; [cbn [app]; rewrite <- app_assoc; reflexivity|].
      apply vt_string. exists t. auto. }
    destruct (skip_split s1) as (w & Ew & Bw).
    destruct (beqb b Byte.x7b) eqn:E5. { apply beqb_eq in E5. subst b. destruct (consume (bs "}") (skip_ws s1)) as [r0|] eqn:C.
      - injection E as <- <-. apply consume_ok in C. rewrite C in Ew. subst s1. exists (chr "{" ++ w ++ chr "}"). split; [cbn [app chr]; rewrite <- !app_assoc; reflexivity|]. constructor; exact Bw.
      - destruct (parse_members T f (skip_ws s1)) as [ms r0| |] eqn:P; try discriminate. injection E as <- <-. apply IM in P. destruct P as (t & Et & V). rewrite Et in Ew. subst s1.
        exists (chr "{" ++ w ++ t ++ chr "}"). split; [cbn [app chr]; rewrite <- !app_assoc; reflexivity|]. constructor; assumption. }
    destruct (beqb b Byte.x5b) eqn:E6. { apply beqb_eq in E6. subst b. destruct (consume (bs "]") (skip_ws s1)) as [r0|] eqn:C.
      - injection E as <- <-. apply consume_ok in C. rewrite C in Ew. subst s1. exists (chr "[" ++ w ++ chr "]"). split; [cbn [app chr]; rewrite <- !app_assoc; reflexivity|]. constructor; exact Bw.
      - destruct (parse_items T f (skip_ws s1)) as [ms r0| |] eqn:P; try discriminate. injection E as <- <-. apply II in P. destruct P as (t & Et & V). rewrite Et in Ew. subst s1.
        exists (chr "[" ++ w ++ t ++ chr "]"). split; [cbn [app chr]; rewrite <- !app_assoc; reflexivity|]. constructor; assumption. }
    apply number_sound in E. destruct E as (t & E & N). exists t. split; [exact E|]. apply vt_number, N.
  - intros s l r E. cbn [parse_items] in E. destruct (parse_value T f s) as [x r0| |] eqn:P; try discriminate. cbn [tbind] in E. apply IV in P. destruct P as (t & -> & V).
    destruct (skip_split r0) as (w & Ew & Bw). destruct (consume (bs ",") (skip_ws r0)) as [r1|] eqn:C.
    + apply consume_ok in C. destruct (parse_items T f (skip_ws r1)) as [l0 r2| |] eqn:P; try discriminate. injection E as <- <-. apply II in P. destruct P as (t' & Et & I).
      destruct (skip_split r1) as (w' & Ew' & Bw'). rewrite Et in Ew'. rewrite Ew' in C. rewrite C in Ew. subst r0. exists (t ++ w ++ chr "," ++ w' ++ t'). split; [rewrite <- !app_assoc; reflexivity|].
      constructor; assumption.
    + destruct (consume (bs "]") (skip_ws r0)) as [r1|] eqn:C2; [|discriminate]. injection E as <- <-. apply consume_ok in C2. rewrite C2 in Ew. subst r0.
      exists (t ++ w). split; [rewrite <- !app_assoc; reflexivity|]. constructor; assumption.
  - intros s ms r E. cbn [parse_members] in E. destruct (consume quote s) as [s1|] eqn:Q; [|discriminate]. apply consume_ok in Q. subst s.
    destruct (parse_string s1) as [n r0| |] eqn:P; try discriminate. cbn [tbind] in E. apply (string_sound (length s1)) in P; [|lia]. destruct P as (q & -> & C).
    destruct (skip_split r0) as (w1 & Ew1 & B1). destruct (consume (bs ":") (skip_ws r0)) as [r1|] eqn:Cc; [|discriminate]. apply consume_ok in Cc. rewrite Cc in Ew1.
    destruct (skip_split r1) as (w2 & Ew2 & B2). destruct (parse_value T f (skip_ws r1)) as [x r2| |] eqn:P; try discriminate. cbn [tbind] in E. apply IV in P. destruct P as (t & Et & V). rewrite Et in Ew2.
    destruct (skip_split r2) as (w & Ew & B). assert (Qq : quoted ([Byte.x22] ++ q ++ [Byte.x22]) n) by (exists q; auto).
    destruct (consume (bs ",") (skip_ws r2)) as [r3|] eqn:C3.
    + apply consume_ok in C3. rewrite C3 in Ew. destruct (parse_members T f (skip_ws r3)) as [ms0 r4| |] eqn:P; try discriminate. injection E as <- <-. apply IM in P. destruct P as (t' & Et' & I).
      destruct (skip_split r3) as (w' & Ew' & B'). rewrite Et' in Ew'. subst r0. subst r1. subst r2. rewrite Ew'.
      exists (([Byte.x22] ++ q ++ [Byte.x22]) ++ w1 ++ chr ":" ++ w2 ++ t ++ w ++ chr "," ++ w' ++ t'). split; [unfold quote; change (bs """") with [Byte.x22]; rewrite <- !app_assoc; cbn [app]; reflexivity|].
      apply mt_more; assumption.
    + destruct (consume (bs "}") (skip_ws r2)) as [r3|] eqn:C4; [|discriminate]. injection E as <- <-. apply consume_ok in C4. rewrite C4 in Ew. subst r0. subst r1. subst r2.
      exists (([Byte.x22] ++ q ++ [Byte.x22]) ++ w1 ++ chr ":" ++ w2 ++ t ++ w). split; [unfold quote; rewrite <- !app_assoc; cbn [app]; reflexivity|].
      apply mt_last; assumption.
Qed.

(** ** documents *)
Lemma skip_byte_ok b s : exists a, (a = [] \/ a = [b]) /\ s = a ++ skip_byte b s.
Proof.
  unfold skip_byte. destruct (consume [b] s) as [r|] eqn:C; [|exists []; auto]. apply consume_ok in C. exists [b]. auto.
Qed.
Lemma skip_bom_mark s : exists m, mark m /\ s = m ++ skip_bom s.
Proof.
  unfold skip_bom. destruct (skip_byte_ok Byte.xef s) as (a & Ha & Ea). destruct (skip_byte_ok Byte.xbb (skip_byte Byte.xef s)) as (b & Hb & Eb).
  destruct (skip_byte_ok Byte.xbf (skip_byte Byte.xbb (skip_byte Byte.xef s))) as (c & Hc & Ec). exists (a ++ b ++ c). split; [exists a, b, c; auto|].
  rewrite <- !app_assoc. rewrite <- Ec, <- Eb. exact Ea.
Qed.
Definition no_mark (s : bytes) : Prop := match s with b :: _ => b <> Byte.xef /\ b <> Byte.xbb /\ b <> Byte.xbf | [] => True end.
Lemma skip_byte_not b s : match s with x :: _ => x <> b | [] => True end -> skip_byte b s = s.
Proof. unfold skip_byte. destruct s as [|x s]; [reflexivity|]. intros H. rewrite consume_other by exact H. reflexivity. Qed.
Lemma skip_mark m s : mark m -> no_mark s -> skip_bom (m ++ s) = s.
Proof.
  intros (a & b & c & -> & Ha & Hb & Hc) N. unfold skip_bom.
  assert (X : forall y (z : list Byte.byte), (z = [] \/ z = [y]) -> skip_byte y (z ++ s) = s \/ (s <> [] /\ hd_error s = Some y)).
  { intros y z [-> | ->]; cbn [app]; [|left; unfold skip_byte; rewrite consume_char; reflexivity].
    destruct s as [|x s']; [left; reflexivity|]. destruct (beqb x y) eqn:E; [apply beqb_eq in E; subst; right; split; [discriminate|reflexivity]|].
    left. apply skip_byte_not. intros ->. rewrite beqb_refl in E. discriminate. }
  assert (NN : forall y, In y [Byte.xef; Byte.xbb; Byte.xbf] -> skip_byte y s = s).
  { intros y Hy. apply skip_byte_not. destruct s as [|x s']; [exact I|]. destruct N as (N1 & N2 & N3). intros ->. repeat (destruct Hy as [<- | Hy]; [congruence|]). destruct Hy. }
  assert (S1 : skip_byte Byte.xef ((a ++ b ++ c) ++ s) = (b ++ c) ++ s).
  { destruct Ha as [-> | ->]; cbn [app].
    - destruct Hb as [-> | ->]; [|apply skip_byte_not; discriminate]. destruct Hc as [-> | ->]; [|apply skip_byte_not; discriminate]. apply NN; cbn; auto.
    - unfold skip_byte. rewrite consume_char. reflexivity. }
  rewrite S1.
  assert (S2 : skip_byte Byte.xbb ((b ++ c) ++ s) = c ++ s).
  { destruct Hb as [-> | ->]; cbn [app].
    - destruct Hc as [-> | ->]; [|apply skip_byte_not; discriminate]. apply NN; cbn; auto.
    - unfold skip_byte. rewrite consume_char. reflexivity. }
  rewrite S2. destruct Hc as [-> | ->]; cbn [app]; [apply NN; cbn; auto|]. unfold skip_byte. rewrite consume_char. reflexivity.
Qed.
Lemma at_end_hd s : at_end s = true <-> s = [] \/ hd_error s = Some Byte.x00.
Proof.
  destruct s as [|b s]; cbn; [tauto|]. split; [intros H; apply beqb_eq in H; subst; auto|]. intros [H|H]; [discriminate|]. injection H as ->. apply beqb_refl.
Qed.

Lemma document_complete T text j : json_text T text j -> exists rest, parseJsonDocFromString T text = TOk j rest.
Proof.
  intros (m & w & t & w' & rest & -> & M & B & V & B' & R). unfold parseJsonDocFromString.
  pose proof (value_headed _ _ _ V) as Hd.
  assert (NM : no_mark (w ++ t ++ w' ++ rest)).
  { destruct B as [|b w0 Hb _]; cbn [app].
    - destruct Hd as (b & t' & -> & H). cbn [app no_mark]. destruct b; try discriminate H; repeat split; discriminate.
    - cbn [no_mark]. repeat (destruct Hb as [<- | Hb]; [repeat split; discriminate|]). destruct Hb. }
  rewrite skip_mark by assumption. rewrite skip_blanks by exact B. rewrite headed_ws by exact Hd.
  destruct Hd as (b & t' & Et & H). assert (E0 : at_end (t ++ w' ++ rest) = false).
  { rewrite Et. cbn [app at_end]. destruct b; try discriminate H; reflexivity. }
  rewrite E0. rewrite (proj1 (text_complete T) t j V); [| |rewrite app_length; lia].
  - cbn [tbind]. rewrite skip_blanks by exact B'.
    assert (Z : skip_ws rest = rest). { destruct rest as [|x rest]; [reflexivity|]. destruct R as [R|R]; [discriminate|]. injection R as ->. reflexivity. }
    rewrite Z. rewrite (proj2 (at_end_hd rest) R). eauto.
  - apply stops_blank; [exact B'|]. destruct rest as [|x rest]; [exact I|]. destruct R as [R|R]; [discriminate|]. injection R as ->. cbn. repeat split; try reflexivity; discriminate.
Qed.
Lemma document_sound T text j rest : parseJsonDocFromString T text = TOk j rest -> json_text T text j.
Proof.
  unfold parseJsonDocFromString. destruct (skip_bom_mark text) as (m & M & Em). destruct (skip_split (skip_bom text)) as (w & Ew & B).
  destruct (at_end (skip_ws (skip_bom text))); [discriminate|].
  destruct (parse_value T _ (skip_ws (skip_bom text))) as [j0 r| |] eqn:P; try discriminate. cbn [tbind].
  destruct (at_end (skip_ws r)) eqn:E; [|discriminate]. intros [= <- <-]. apply (proj1 (text_sound T _)) in P. destruct P as (t & Et & V).
  destruct (skip_split r) as (w' & Ew' & B'). exists m, w, t, w', (skip_ws r). split; [|split; [exact M|split; [exact B|split; [exact V|split; [exact B'|apply at_end_hd, E]]]]].
  rewrite Em at 1. rewrite Ew at 1. rewrite Et at 1. rewrite Ew' at 1. reflexivity.
Qed.
