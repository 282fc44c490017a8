(** JsonFit.v -- conforming documents are pulled without errors, others are reported (C25) *)
From Coq Require Import String List NArith ZArith Bool Lia Permutation.
From Verif Require Import Base BaseFacts Types TypesFacts BinModel BinSpec BinSafeSpec BinSafe BinFacts Float FloatFacts JsonModel JsonRel JsonErr JsonSpec
  JsonRoundTrip JsonTerm JsonSafeSpec JsonSafe JsonTop.
Import ListNotations.
Local Open Scope list_scope.
Local Open Scope nat_scope.

(** ** nothing is reported *)
Definition calm {A} (m : M A) : Prop := forall st,
  match m st with POk _ st' => noerr (p_err st) (p_err st') | PFuel | PStuck => True | _ => False end.

Lemma calm_ret {A} (a : A) : calm (ret a). Proof. intros st. apply noerr_refl. Qed.
Lemma calm_stuck {A} : calm (@stuck A). Proof. intros st; exact I. Qed.
Lemma calm_fuel {A} : calm (@nofuel A). Proof. intros st; exact I. Qed.
Lemma calm_bind {A B} (m : M A) (k : A -> M B) (Q : A -> Prop) :
  calm m -> (forall st a st', m st = POk a st' -> Q a) -> (forall a, Q a -> calm (k a)) -> calm (bind m k).
Proof.
  intros Hm HQ Hk st. unfold bind. assert (Hm1 := Hm st). destruct (m st) as [a st'|x st'| | |] eqn:E; auto.
  specialize (Hk a (HQ _ _ _ E) st'). destruct (k a st'); auto. eapply noerr_trans; eauto.
Qed.
Lemma calm_bind' {A B} (m : M A) (k : A -> M B) : calm m -> (forall a, calm (k a)) -> calm (bind m k).
Proof. intros Hm Hk. apply (calm_bind m k (fun _ => True)); auto. Qed.
Lemma calm_index i : calm (set_index i).
Proof. intros [h [e|]]; cbn; auto. Qed.
Lemma calm_member {A} n (m : M A) : calm m -> calm (in_member n m).
Proof.
  intros Hm st. unfold in_member. specialize (Hm (put_member (Some n) st)). destruct (m _) as [a st'|x st'| | |]; auto.
  destruct st as [h [e|]], st' as [h' [e'|]]; cbn in *; auto.
Qed.
Lemma calm_record {A} n (m : M A) : calm m -> calm (in_record n m).
Proof.
  intros Hm st. unfold in_record. specialize (Hm (put_record (Some n) st)). destruct (m _) as [a st'|x st'| | |]; auto.
  destruct st as [h [e|]], st' as [h' [e'|]]; cbn in *; auto.
Qed.
Lemma calm_new G t m : calm m -> calm (in_new G t m).
Proof. intros Hm st. unfold in_new. match goal with |- context [m ?s] => specialize (Hm s) end. destruct (m _) as [a st'|x st'| | |]; auto. Qed.
Lemma calm_items {A} (s : A -> json -> M A) (P : list json -> A -> Prop) js :
  (forall done j rest a, js = done ++ j :: rest -> P done a -> calm (s a j) /\ forall st a' st', s a j st = POk a' st' -> P (done ++ [j]) a') ->
  forall i a, P [] a -> calm (pull_items s i js a).
Proof.
  intros Hs. assert (Q: forall rest done, js = done ++ rest -> forall i a, P done a -> calm (pull_items s i rest a)).
  { induction rest as [|j rest IH]; intros done E i a Ha; cbn [pull_items].
    - apply calm_bind'; [apply calm_index|intros; apply calm_ret].
    - apply calm_bind'; [apply calm_index|intros _]. destruct (Hs done j rest a E Ha) as [C1 C2].
      eapply calm_bind; [exact C1|exact C2|]. intros a' Ha'. apply (IH (done ++ [j])); [rewrite <- app_assoc; exact E|exact Ha']. }
  intros i a. apply (Q js []). reflexivity.
Qed.
Lemma calm_items' {A} (s : A -> json -> M A) js : (forall a j, In j js -> calm (s a j)) -> forall i a, calm (pull_items s i js a).
Proof.
  intros Hs i a. apply (calm_items s (fun _ _ => True)); [|exact I]. intros done j rest a' -> _. split; [|auto].
  apply Hs. apply in_or_app. right; left; reflexivity.
Qed.
Lemma calm_fold {A B} (s : A -> B -> M A) l : (forall a b, In b l -> calm (s a b)) -> forall a, calm (fold_m s l a).
Proof.
  induction l as [|b l IH]; intros Hs a; cbn [fold_m]; [apply calm_ret|].
  apply calm_bind'; [apply Hs; left; reflexivity|]. intros a'. apply IH. intros; apply Hs; right; assumption.
Qed.
Lemma calm_tuple p ts : forall os js, length js = length ts ->
  (forall i t j, nth_error ts i = Some t -> nth_error js i = Some j -> forall o, calm (p t o j)) -> calm (pull_tuple p ts os js).
Proof.
  induction ts as [|t ts IH]; intros [|o os] js L Hp; cbn [pull_tuple]; try apply calm_stuck; [apply calm_ret|].
  destruct js as [|j js]; [discriminate|]. apply calm_bind'; [apply (Hp 0 t j); reflexivity|]. intros x.
  apply calm_bind'; [apply IH; [cbn in L; lia|intros i t' j' E1 E2; apply (Hp (S i) t' j' E1 E2)]|intros; apply calm_ret].
Qed.

Section Fit.
  Variable G : genv.
  Variable J : jenv.
  Hypothesis HP : place_ok G.

  Lemma byte_json k : byte_kind k = true -> json_kind k = false.
  Proof. destruct k; intros E; try discriminate E; reflexivity. Qed.
  Lemma dbl_range k n z : byte_kind k = true -> f64_trunc n = Some z -> in_range k z = true -> in_range KI32 z = true.
  Proof. intros B _ R. eapply byte_range; eauto. Qed.

  Lemma idx_lt {A} (ts : list A) z t : nth_error ts (Z.to_nat z) = Some t -> (Z.to_N z <? N.of_nat (length ts))%N = true.
  Proof. intros E. apply N.ltb_lt. assert (Z.to_nat z < length ts) by (apply nth_error_Some; congruence). lia. Qed.

  Lemma conforms_value t j f old st x st' : conforms G J t j -> t <> TCStr -> old = dinit G t -> pull G J f t old j st = POk x st' -> is_undef x = false.
  Proof.
    intros C Ht Eo. destruct f as [|f]; [discriminate|]. rewrite pull_S.
    assert (Bd: forall (B : Type) (m : M B) (k : B -> val) st, (forall b, is_undef (k b) = false) -> bind m (fun b => ret (k b)) st = POk x st' -> is_undef x = false).
    { intros B m k st0 Hk. unfold bind. destruct (m st0); try discriminate. cbn. intros E; inversion E; subst; apply Hk. }
    inversion C; subst; cbn [pull_body]; try congruence;
      repeat match goal with
      | Hn : is_number ?j = true |- _ => destruct j; try discriminate Hn; clear Hn; cbn [get_double]
      | Hr : ?l = Some _ |- context [?l] => rewrite Hr
      | Hr : ?l = true |- context [?l] => rewrite Hr
      end;
      try (intros E; inversion E; subst; reflexivity);
      try (apply Bd; reflexivity).
    - destruct (json_kind k); [apply Bd; reflexivity|]. destruct (byte_kind k); [apply Bd; reflexivity|discriminate].
    - destruct (json_kind k); [apply Bd; reflexivity|]. destruct (byte_kind k); [apply Bd; reflexivity|discriminate].
    - unfold bind, ret at 1. match goal with Hr : je_dt_parse _ _ = Some _ |- _ => rewrite Hr end. intros E; inversion E; reflexivity.
    - unfold bind, ret at 1. match goal with Hr : je_ts_parse _ _ = Some _ |- _ => rewrite Hr end. intros E; inversion E; reflexivity.
    - cbn [dinit vinit length Nat.eqb nth_error]. unfold bind. destruct (pull _ _ _ _ _ ja _); try discriminate. destruct (pull _ _ _ _ _ jb _); try discriminate.
      intros E; inversion E; reflexivity.
    - destruct ts as [|t0 ts]; [discriminate|]. cbn [dinit vinit]. destruct (Nat.eqb_spec (length js) (length (t0 :: ts))); [apply Bd; reflexivity|congruence].
    - destruct j; try (apply Bd; reflexivity). intros E; inversion E; reflexivity.
    - destruct j; try (apply Bd; reflexivity). intros E; inversion E; reflexivity.
    - destruct j; try (apply Bd; reflexivity). intros E; inversion E; reflexivity.
    - rewrite (idx_lt ts z TMono) by assumption. intros E; inversion E; reflexivity.
    - rewrite (idx_lt ts z t0) by assumption. destruct t0; try (apply Bd; reflexivity). intros E; inversion E; reflexivity.
    - destruct (dinit G (TStruct c)); try discriminate. apply Bd; reflexivity.
  Qed.

  Lemma calm_int k z j : (j = JInt z \/ exists n, j = JDbl n /\ f64_trunc n = Some z) -> in_range k z = true -> calm (get_int k j).
  Proof.
    intros [->|(n & -> & E)] R; unfold get_int.
    - rewrite R. apply calm_ret.
    - unfold cast_double. cbn [get_double]. rewrite E, R. apply calm_ret.
  Qed.

  (** base classes and members *)
  Lemma cls_calm ms : forall f c L, members G rc_pull c L ->
    (forall fd j, In fd L -> alookup bytes_eqb (jf_name fd) ms = Some j -> forall f old, calm (pull G J f (jf_ty fd) old j)) ->
    forall os, calm (pull_cls G J f c os ms).
  Proof.
    induction f as [|f IH]; intros c L HL HF os; [apply calm_fuel|].
    inversion HL as [c' rc p Ls Ec Ep HB]; subst. rewrite pull_cls_S. unfold pull_cls_body. rewrite Ec, Ep.
    apply calm_bind'.
    - apply calm_fold. intros os' b Hb. 
      assert (exists Lb, In Lb Ls /\ members G rc_pull b Lb) as (Lb & HLb & Mb).
      { clear -HB Hb. induction HB as [|b0 L0 bs Ls0 M0 HB IH]; [destruct Hb|]. destruct Hb as [->|Hb]; [exists L0; split; [left; reflexivity|exact M0]|].
        destruct (IH Hb) as (Lb & H1 & H2). exists Lb. split; [right; exact H1|exact H2]. }
      apply (IH b Lb Mb). intros fd j Hfd. apply HF. apply in_or_app. left. apply in_concat. exists Lb. auto.
    - intros os1. cbv zeta.
      match goal with |- calm (match _ with Some n => in_record n ?m | None => ?m end) => assert (Q: calm m) end.
      { apply calm_fold. intros os' fd Hfd. unfold pull_member. destruct (alookup fkey_eqb (jf_key fd) os') as [o|]; [|apply calm_stuck].
        destruct (alookup bytes_eqb (jf_name fd) ms) as [j|] eqn:El; [|apply calm_ret].
        apply calm_bind'; [|intros; apply calm_ret]. apply calm_member. apply (HF fd j); [|exact El]. apply in_or_app. right; exact Hfd. }
      destruct (jp_record p); [apply calm_record|]; exact Q.
  Qed.

  Lemma conforms_calm t j : conforms G J t j -> forall f old, calm (pull G J f t old j).
  Proof.
    induction 1; intros f old; (destruct f as [|f]; [apply calm_fuel|]); rewrite pull_S; cbn [pull_body]; try apply calm_ret.
    - destruct (json_kind k) eqn:Ej; cbn [is_number].
      + apply calm_bind'; [|intros; apply calm_ret]. apply (calm_int k z); auto.
      + destruct (byte_kind k) eqn:Eb; [|apply calm_stuck]. apply calm_bind'; [|intros; apply calm_ret]. apply (calm_int KI32 z); auto. eapply byte_range; eauto.
    - destruct (json_kind k) eqn:Ej; cbn [is_number].
      + apply calm_bind'; [|intros; apply calm_ret]. apply (calm_int k z); eauto.
      + destruct (byte_kind k) eqn:Eb; [|apply calm_stuck]. apply calm_bind'; [|intros; apply calm_ret]. apply (calm_int KI32 z); eauto. eapply byte_range; eauto.
    - destruct j; try discriminate; apply calm_ret.
    - destruct j; try discriminate; apply calm_ret.
    - rewrite H. apply calm_ret.
    - match goal with Hr : je_dt_parse _ _ = Some _ |- _ => rename Hr into R end. intros st. unfold bind, ret. rewrite R. apply noerr_refl.
    - match goal with Hr : je_ts_parse _ _ = Some _ |- _ => rename Hr into R end. intros st. unfold bind, ret. rewrite R. apply noerr_refl.
    - apply calm_bind'; [|intros; apply calm_ret]. apply calm_items'. intros a j Hj. apply calm_bind'; [auto|intros; apply calm_ret].
    - rename H into Hcs, H0 into HC, H1 into IHs, H2 into HD.
      apply calm_bind'; [|intros; apply calm_ret].
      apply (calm_items _ (fun done l => forall y, In y l -> exists j0 f st st', In j0 done /\ pull G J f t (dinit G t) j0 st = POk y st')); [|intros y []].
      intros done j rest l Ejs Hl.
      assert (Hj: In j js) by (subst js; apply in_or_app; right; left; reflexivity).
      split.
      + eapply (calm_bind _ _ (fun x => exists st st', pull G J f t (dinit G t) j st = POk x st')); [apply IHs, Hj|eauto|].
        intros x (st & st' & Ex).
        rewrite (conforms_value t j f (dinit G t) st x st' (HC j Hj) Hcs eq_refl Ex).
        destruct (emplace G false ord multi t x l) as [l' ins] eqn:Ee.
        destruct (multi || ins) eqn:Eb; [apply calm_ret|exfalso].
        apply orb_false_iff in Eb. destruct Eb as [-> ->].
        assert (Er: snd (emplace G false ord false t x l) = false) by (rewrite Ee; reflexivity).
        destruct (emplace_rejected _ _ _ _ _ _ _ Er) as (_ & _ & y & Hy & Ky). cbn [keyof] in Ky.
        destruct (Hl y Hy) as (j0 & f0 & s0 & s0' & Hj0 & Ey).
        assert (D: distinct_items G J ord t j0 j).
        { specialize (HD eq_refl). rewrite Ejs in HD. clear -HD Hj0. induction done as [|d done IH]; [destruct Hj0|].
          cbn in HD. inversion HD as [|? ? F1 F2]; subst. destruct Hj0 as [->|Hj0]; [|auto].
          eapply Forall_forall in F1; [exact F1|]. apply in_or_app; right; left; reflexivity. }
        exact (D _ _ _ _ _ _ _ _ Ey Ex Ky).
      + intros st l2 st2 E2 y Hy. unfold bind in E2.
        destruct (pull G J f t (dinit G t) j st) as [x st'| | | |] eqn:Ex; try discriminate.
        destruct (is_undef x); [discriminate|].
        destruct (emplace G false ord multi t x l) as [l' ins] eqn:Ee.
        assert (l2 = l') as ->.
        { destruct (multi || ins); [inversion E2; reflexivity|]. destruct (report_unchecked _ _ _ st'); try discriminate. inversion E2; reflexivity. }
        assert (Hy': In y (fst (emplace G false ord multi t x l))) by (rewrite Ee; exact Hy).
        destruct (emplace_in _ _ _ _ _ _ _ _ HP Hy') as [->|Hy2].
        * exists j, f, st, st'. split; [apply in_or_app; right; left; reflexivity|exact Ex].
        * destruct (Hl y Hy2) as (j0 & f0 & s0 & s0' & Hj0 & Ey). exists j0, f0, s0, s0'. split; [apply in_or_app; left; exact Hj0|exact Ey].
    - destruct old; try apply calm_stuck. apply calm_bind'; [|intros; apply calm_ret]. apply calm_fold. intros l' [n j] Hb.
      destruct (map_find _ _ _ _ _); apply calm_bind'; try (intros; apply calm_ret); eauto.
    - destruct old; try apply calm_stuck. apply calm_bind'; [|intros; apply calm_ret]. apply calm_fold. intros l' [n j] Hb. cbv zeta.
      destruct j; try (apply calm_bind'; [|intros; apply calm_ret]; match goal with Hx : forall n j, In (n, j) ms -> _ -> forall f old, calm _ |- _ => apply (Hx n); [exact Hb|discriminate] end).
      apply calm_fold. intros a j Hj. apply calm_bind'; [|intros; apply calm_ret]. eauto.
    - destruct old; try apply calm_stuck. cbn [length Nat.eqb nth_error]. apply calm_bind'; [auto|]. intros. apply calm_bind'; [auto|]. intros; apply calm_ret.
    - destruct ts as [|t0 ts]; [apply calm_stuck|]. destruct old; try apply calm_stuck.
      destruct (Nat.eqb_spec (length js) (length (t0 :: ts))) as [El|]; [|congruence].
      apply calm_bind'; [|intros; apply calm_ret]. apply calm_tuple; [exact El|]. eauto.
    - destruct j; try apply calm_ret; (apply calm_bind'; [auto|intros; apply calm_ret]).
    - destruct j; try apply calm_ret; (apply calm_bind'; [auto|intros; apply calm_ret]).
    - destruct j; try apply calm_ret; (apply calm_bind'; [apply calm_new; auto|intros; apply calm_ret]).
    - rewrite H, H0, H1, (idx_lt ts z TMono), H2 by assumption. apply calm_ret.
    - rewrite H, H0, H1, (idx_lt ts z t), H2 by assumption. destruct t; try (apply calm_bind'; [auto|intros; apply calm_ret]). apply calm_ret.
    - destruct old; try apply calm_stuck. apply calm_bind'; [|intros; apply calm_ret]. eapply cls_calm; [eassumption|]. eauto.
  Qed.
End Fit.
