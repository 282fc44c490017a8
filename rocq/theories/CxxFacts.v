(** CxxFacts.v -- generated text, token by token and statement by statement *)
From Coq Require Import String List NArith ZArith Bool Lia DecimalString DecimalN.
From Verif Require Import Base BaseFacts Types GenModel GenSem GenSpec GenFacts GenMarkers GenSelect GenText JsonModel CxxText.
Import ListNotations.
Local Open Scope list_scope.
Local Open Scope N_scope.

(* ------------------------------------------------------------------ *)
(** * Tokens of concatenated text *)

Definition prepend (ts : list token) (r : pending * list token) : pending * list token := (fst r, ts ++ snd r).
Lemma prepend_nil r : prepend [] r = r. Proof. destruct r; reflexivity. Qed.
Lemma prepend_app a b r : prepend a (prepend b r) = prepend (a ++ b) r.
Proof. unfold prepend; cbn [fst snd]. rewrite app_assoc. reflexivity. Qed.

Lemma lex_cons p b s : lex_text p (b :: s) = prepend (snd (lex_char p b)) (lex_text (fst (lex_char p b)) s).
Proof. cbn [lex_text]. destruct (lex_char p b) as [p1 t1]. cbn [fst snd]. destruct (lex_text p1 s) as [p2 t2]. reflexivity. Qed.
Lemma lex_app a : forall p s, lex_text p (a ++ s) = prepend (snd (lex_text p a)) (lex_text (fst (lex_text p a)) s).
Proof.
  induction a as [|b a IH]; intros p s; [cbn [app lex_text fst snd]; rewrite prepend_nil; reflexivity|].
  change ((b :: a) ++ s) with (b :: (a ++ s)). rewrite !lex_cons, IH, prepend_app. cbn [fst snd prepend]. reflexivity.
Qed.
Lemma lex_fix a ts : lex_text PNone a = (PNone, ts) -> forall s, lex_text PNone (a ++ s) = prepend ts (lex_text PNone s).
Proof. intros E s. rewrite lex_app, E. reflexivity. Qed.

(** the text cannot continue a word *)
Definition sep (s : bytes) : Prop := match s with b :: _ => letter b || digit b = false | [] => False end.

Lemma emit_prepend t r : emit t r = prepend [t] r. Proof. destruct r; reflexivity. Qed.

Lemma lex_word_sep acc s : sep s -> lex_text (PWord acc) s = prepend [word (rev acc)] (lex_text PNone s).
Proof.
  destruct s as [|b s]; intros H; [destruct H|]. cbn [sep] in H. rewrite !lex_cons. cbn [lex_char]. rewrite H, emit_prepend.
  cbn [fst snd prepend]. rewrite prepend_app. reflexivity.
Qed.
Lemma lex_num_sep acc s : sep s -> lex_text (PNum acc) s = prepend [Num (rev acc)] (lex_text PNone s).
Proof.
  destruct s as [|b s]; intros H; [destruct H|]. cbn [sep] in H. rewrite !lex_cons. cbn [lex_char]. rewrite H, emit_prepend.
  cbn [fst snd prepend]. rewrite prepend_app. reflexivity.
Qed.
Lemma lex_word_more w : forallb (fun x => letter x || digit x) w = true -> forall acc s, lex_text (PWord acc) (w ++ s) = lex_text (PWord (rev w ++ acc)) s.
Proof.
  induction w as [|b w IH]; cbn [forallb]; intros H acc s; [reflexivity|].
  apply andb_true_iff in H. destruct H as [Hb Hw]. change ((b :: w) ++ s) with (b :: (w ++ s)). rewrite lex_cons. cbn [lex_char]. rewrite Hb.
  cbn [fst snd]. rewrite prepend_nil, IH by exact Hw. cbn [rev]. rewrite <- app_assoc. reflexivity.
Qed.
Lemma lex_num_more w : forallb (fun x => letter x || digit x) w = true -> forall acc s, lex_text (PNum acc) (w ++ s) = lex_text (PNum (rev w ++ acc)) s.
Proof.
  induction w as [|b w IH]; cbn [forallb]; intros H acc s; [reflexivity|].
  apply andb_true_iff in H. destruct H as [Hb Hw]. change ((b :: w) ++ s) with (b :: (w ++ s)). rewrite lex_cons. cbn [lex_char]. rewrite Hb.
  cbn [fst snd]. rewrite prepend_nil, IH by exact Hw. cbn [rev]. rewrite <- app_assoc. reflexivity.
Qed.

Lemma lex_name n s : identifier n -> sep s -> lex_text PNone (n ++ s) = prepend [Id n] (lex_text PNone s).
Proof.
  intros [H K] Hs. destruct n as [|b n]; [destruct H|]. destruct H as [Hb Hn].
  change ((b :: n) ++ s) with (b :: (n ++ s)). rewrite lex_cons. cbn [lex_char]. unfold begin_token. rewrite Hb. cbn [fst snd]. rewrite prepend_nil.
  rewrite lex_word_more by exact Hn. rewrite lex_word_sep by exact Hs.
  rewrite rev_app_distr, rev_involutive. cbn [rev app]. unfold word. rewrite K. reflexivity.
Qed.

(** tokens of a qualified name *)
Fixpoint qtoks (l : list bytes) : list token :=
  match l with [] => [] | [x] => [Id x] | x :: l' => Id x :: Punct (bs "::") :: qtoks l' end.
Lemma lex_qualified l s : l <> [] -> Forall identifier l -> sep s -> lex_text PNone (join l ++ s) = prepend (qtoks l) (lex_text PNone s).
Proof.
  induction l as [|x l IH]; intros N F Hs; [congruence|]. inversion F; subst. destruct l as [|y l]; [cbn [join qtoks]; apply lex_name; assumption|].
  change (join (x :: y :: l)) with (x ++ bs "::" ++ join (y :: l)). change (qtoks (x :: y :: l)) with (Id x :: Punct (bs "::") :: qtoks (y :: l)).
  rewrite <- !app_assoc. rewrite lex_name; [|assumption|reflexivity].
  rewrite (lex_fix (bs "::") [Punct (bs "::")]) by reflexivity. rewrite IH by (try discriminate; assumption).
  rewrite !prepend_app. reflexivity.
Qed.
Lemma spell_qtoks l : spell (qtoks l) = join l.
Proof.
  induction l as [|x l IH]; [reflexivity|]. destruct l as [|y l]; [cbn; rewrite app_nil_r; reflexivity|].
  change (join (x :: y :: l)) with (x ++ bs "::" ++ join (y :: l)). change (qtoks (x :: y :: l)) with (Id x :: Punct (bs "::") :: qtoks (y :: l)).
  rewrite <- IH. reflexivity.
Qed.

(** strings and comments *)
Definition string_char (b : Byte.byte) : bool := negb (beqb b Byte.x22) && negb (beqb b Byte.x5c) && negb (beqb b Byte.x0a).
Lemma lex_str w : forallb string_char w = true -> forall acc s, lex_text (PStr acc) (w ++ quote ++ s) = prepend [Str (rev acc ++ w)] (lex_text PNone s).
Proof.
  induction w as [|b w IH]; cbn [forallb]; intros H acc s.
  - cbn [app]. unfold quote. cbn [app]. rewrite lex_cons. cbn [lex_char]. rewrite app_nil_r. reflexivity.
  - apply andb_true_iff in H. destruct H as [Hb Hw]. change ((b :: w) ++ quote ++ s) with (b :: (w ++ quote ++ s)). rewrite lex_cons. cbn [lex_char].
    unfold string_char in Hb. apply andb_true_iff in Hb. destruct Hb as [Hb H3]. apply andb_true_iff in Hb. destruct Hb as [H1 H2].
    apply negb_true_iff in H1, H2, H3. rewrite H1, H2, H3. cbn [orb fst snd]. rewrite prepend_nil, IH by exact Hw. cbn [rev]. rewrite <- app_assoc. reflexivity.
Qed.
Lemma lex_string w s : forallb string_char w = true -> lex_text PNone (quote ++ w ++ quote ++ s) = prepend [Str w] (lex_text PNone s).
Proof.
  intros H. unfold quote at 1. cbn [app]. rewrite lex_cons. change (lex_char PNone Byte.x22) with (PStr [], @nil token). cbn [fst snd]. rewrite prepend_nil.
  rewrite lex_str by exact H. reflexivity.
Qed.
Definition no_newline (s : bytes) : Prop := forallb (fun b => negb (beqb b Byte.x0a)) s = true.
Lemma lex_comment w : no_newline w -> forall s, lex_text PComment (w ++ s) = lex_text PComment s.
Proof.
  unfold no_newline. induction w as [|b w IH]; cbn [forallb]; intros H s; [reflexivity|].
  apply andb_true_iff in H. destruct H as [Hb Hw]. apply negb_true_iff in Hb. change ((b :: w) ++ s) with (b :: (w ++ s)). rewrite lex_cons. cbn [lex_char].
  rewrite Hb. cbn [fst snd]. rewrite prepend_nil. apply IH, Hw.
Qed.
Lemma lex_note a w s : lex_text PNone a = (PComment, []) -> no_newline w -> lex_text PNone (a ++ w ++ nl ++ s) = lex_text PNone s.
Proof.
  intros E H. rewrite lex_app, E. cbn [fst snd]. rewrite prepend_nil, lex_comment by exact H. unfold nl. cbn [app]. rewrite lex_cons. cbn. apply prepend_nil.
Qed.

(** numbers *)
Lemma dec_chars n : forallb digit (dec n) = true /\ dec n <> [].
Proof.
  unfold dec, bs. destruct (N.to_uint n) as [|u|u|u|u|u|u|u|u|u|u]; [split; [reflexivity|discriminate]|..]; unfold NilZero.string_of_uint;
  cbn [NilEmpty.string_of_uint]; unfold list_byte_of_string; cbn [list_ascii_of_string map forallb]; (split; [|discriminate]);
  (apply andb_true_iff; split; [reflexivity|]);
  induction u; cbn [NilEmpty.string_of_uint list_ascii_of_string map forallb]; auto.
Qed.
Lemma lex_dec n s : sep s -> lex_text PNone (dec n ++ s) = prepend [Num (dec n)] (lex_text PNone s).
Proof.
  intros Hs. destruct (dec_chars n) as [H NN]. destruct (dec n) as [|b w]; [congruence|]. cbn [forallb] in H. apply andb_true_iff in H. destruct H as [Hb Hw].
  change ((b :: w) ++ s) with (b :: (w ++ s)). rewrite lex_cons. cbn [lex_char]. unfold begin_token.
  assert (L: letter b = false).
  { unfold digit, between in Hb. apply andb_true_iff in Hb. destruct Hb as [B1 B2]. apply N.leb_le in B1, B2. unfold letter, between.
    apply orb_false_iff. split; [apply orb_false_iff; split|]; [apply andb_false_iff; left; apply N.leb_gt; lia|apply andb_false_iff; left; apply N.leb_gt; lia|apply N.eqb_neq; lia]. }
  rewrite L, Hb. cbn [fst snd]. rewrite prepend_nil. rewrite lex_num_more, lex_num_sep; [|exact Hs|].
  - rewrite rev_app_distr, rev_involutive. reflexivity.
  - rewrite forallb_forall in Hw |- *. intros x Hx. rewrite (Hw _ Hx). apply orb_true_r.
Qed.

Lemma nzhead_no_zero u v : Decimal.nzhead u = Decimal.D0 v -> False.
Proof. revert v. induction u; cbn; intros v H; try discriminate H. eapply IHu; eauto. Qed.
Lemma to_uint_no_zero n v : N.to_uint n = Decimal.D0 v -> n = 0.
Proof.
  intros H. pose proof (DecimalN.Unsigned.to_of (N.to_uint n)) as Q. rewrite DecimalN.Unsigned.of_to, H in Q.
  unfold Decimal.unorm in Q. destruct (Decimal.nzhead (Decimal.D0 v)) eqn:E; try discriminate Q.
  - injection Q as ->. rewrite <- (DecimalN.Unsigned.of_to n), H. reflexivity.
  - exfalso. eapply nzhead_no_zero; eauto.
Qed.
Lemma to_uint_nonnil n : N.to_uint n <> Decimal.Nil.
Proof. intros E. pose proof (DecimalN.Unsigned.of_to n) as Q. rewrite E in Q. cbn in Q. subst n. discriminate E. Qed.
Lemma literal_dec n : n < 2 ^ 63 -> literal (dec n) = Some n.
Proof.
  intros H. assert (V: match NilZero.uint_of_string (string_of_list_byte (dec n)) with Some u => let m := N.of_uint u in if m <? 2 ^ 63 then Some m else None | None => None end = Some n).
  { unfold dec, bs. rewrite string_of_list_byte_of_string, NilZero.usu by apply to_uint_nonnil. cbv zeta. rewrite DecimalN.Unsigned.of_to.
    apply N.ltb_lt in H. rewrite H. reflexivity. }
  unfold literal. destruct (dec n) as [|b w] eqn:E; [destruct (dec_chars n); congruence|].
  destruct w as [|c w]; [destruct b; exact V|].
  assert (B: b <> Byte.x30).
  { intros ->. unfold dec, bs in E. destruct (N.to_uint n) as [|u|u|u|u|u|u|u|u|u|u] eqn:U; try discriminate E.
    pose proof (to_uint_no_zero _ _ U). subst n. injection U as <-. discriminate E. }
  destruct b; try exact V. congruence.
Qed.

(** types: the text between the angle brackets *)
Definition ttoks (s : bytes) : list token := match tokens s with Some ts => ts | None => [] end.
Definition fpend (p : pending) : list token :=
  match p with PWord acc => [word (rev acc)] | PNum acc => [Num (rev acc)] | PSym a => [Punct [a]] | _ => [] end.
(** states reached within types *)
Definition tstate (p : pending) : Prop :=
  match p with PNone | PWord _ | PNum _ => True | PSym a => a = Byte.x3a \/ a = Byte.x3c \/ a = Byte.x3e | _ => False end.
Lemma tstate_step p b : tstate p -> type_char b = true -> tstate (fst (lex_char p b)).
Proof.
  intros T H. assert (BT: tstate (fst (begin_token b))).
  { unfold begin_token. destruct (letter b) eqn:L; [exact I|]. destruct (digit b) eqn:D; [exact I|].
    unfold type_char in H. rewrite L, D in H. cbn [orb] in H. destruct b; try discriminate H; cbn; auto. }
  destruct p as [|acc|acc|a| |acc|]; cbn [lex_char tstate] in *; try contradiction.
  - exact BT.
  - destruct (letter b || digit b); [exact I|]. exact BT.
  - destruct (letter b || digit b); [exact I|]. exact BT.
  - destruct (pair_of a b) eqn:P; [exact I|].
    destruct T as [-> | [-> | ->]]; cbn [beqb Byte.eqb]; change (beqb Byte.x3a Byte.x2f) with false; change (beqb Byte.x3c Byte.x2f) with false; change (beqb Byte.x3e Byte.x2f) with false;
    cbn [andb emit fst]; exact BT.
Qed.
Lemma tstate_text s : forall p, tstate p -> forallb type_char s = true -> tstate (fst (lex_text p s)).
Proof.
  induction s as [|b s IH]; cbn [forallb]; intros p T H; [exact T|]. apply andb_true_iff in H. destruct H as [Hb Hs].
  rewrite lex_cons. cbn [prepend fst]. apply IH; [apply tstate_step; assumption|exact Hs].
Qed.
Lemma tstate_close p s : tstate p -> lex_text p (Byte.x3e :: s) = prepend (fpend p) (lex_text PNone (Byte.x3e :: s)).
Proof.
  intros T. rewrite !lex_cons. destruct p as [|acc|acc|a| |acc|]; cbn [tstate] in T; try contradiction; cbn [fpend].
  - symmetry. apply prepend_nil.
  - cbn [lex_char]. change (letter Byte.x3e || digit Byte.x3e) with false. cbn [emit fst snd]. rewrite prepend_app. reflexivity.
  - cbn [lex_char]. change (letter Byte.x3e || digit Byte.x3e) with false. cbn [emit fst snd]. rewrite prepend_app. reflexivity.
  - rewrite prepend_app. destruct T as [-> | [-> | ->]]; reflexivity.
Qed.
Lemma lex_type s r : type_name s -> lex_text PNone (s ++ Byte.x3e :: r) = prepend (ttoks s) (lex_text PNone (Byte.x3e :: r)).
Proof.
  intros [_ H]. rewrite lex_app. pose proof (tstate_text s PNone I H) as T. unfold ttoks, tokens.
  destruct (lex_text PNone s) as [p ts]. cbn [fst snd] in *. rewrite tstate_close by exact T. rewrite prepend_app.
  destruct p as [|acc|acc|a| |acc|]; cbn [tstate] in T; try contradiction; cbn [fpend]; rewrite ?app_nil_r; reflexivity.
Qed.
