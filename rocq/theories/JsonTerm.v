(** JsonTerm.v -- deserialising any JSON document terminates (C47) *)
From Coq Require Import String List NArith ZArith Bool Lia.
From Verif Require Import Base BaseFacts Types TypesFacts BinModel Float JsonModel JsonRel.
Import ListNotations.
Local Open Scope list_scope.
Local Open Scope nat_scope.

(** number of values in a document *)
Fixpoint jsize (j : json) : nat :=
  match j with
  | JArr l => S (fold_right (fun x n => jsize x + n) 0 l)
  | JObj ms => S (fold_right (fun m n => jsize (snd m) + n) 0 ms)
  | _ => 1
  end.
Lemma jsize_item l x : In x l -> jsize x < jsize (JArr l).
Proof. cbn. induction l as [|y l IH]; cbn; [intros []|]. intros [->|Hi]; [lia|]. apply IH in Hi. lia. Qed.
Lemma jsize_member ms n x : In (n, x) ms -> jsize x < jsize (JObj ms).
Proof. cbn. induction ms as [|[n' y] l IH]; cbn; [intros []|]. intros [E|Hi]; [inversion E; subst; lia|]. apply IH in Hi. lia. Qed.
Lemma in_lookup k (ms : list (bytes * json)) x : alookup bytes_eqb k ms = Some x -> exists n, In (n, x) ms.
Proof.
  induction ms as [|[n y] ms IH]; cbn; [discriminate|]. destruct (bytes_eqb k n).
  - intros E; inversion E; subst. exists n. left; reflexivity.
  - intros E. destruct (IH E) as (m & Hm). exists m. right; exact Hm.
Qed.

(** a class is not its own base (C++ forbids it) *)
Definition no_pull_cycle (G : genv) : Prop :=
  exists rk : N -> nat, forall c rc p b, g_class G c = Some rc -> rc_pull rc = Some p -> In b (jp_bases p) -> rk b < rk c.

Definition nf {A} (m : M A) : Prop := forall st, m st <> PFuel.
Lemma nf_ret {A} (a : A) : nf (ret a). Proof. intros st E; discriminate E. Qed.
Lemma nf_ub {A} : nf (@ub A). Proof. intros st E; discriminate E. Qed.
Lemma nf_stuck {A} : nf (@stuck A). Proof. intros st E; discriminate E. Qed.
Lemma nf_bind {A B} (m : M A) (k : A -> M B) : nf m -> (forall a, nf (k a)) -> nf (bind m k).
Proof. intros Hm Hk st. unfold bind. specialize (Hm st). destruct (m st); try discriminate; [apply Hk|congruence]. Qed.
Lemma nf_emplace e k x a h : emplace_error e k x a h <> PFuel.
Proof. unfold emplace_error. destruct (N.eqb _ _); discriminate. Qed.
Lemma nf_report k x a : nf (report k x a).
Proof. intros st. unfold report. destruct (p_err st); [apply nf_emplace|discriminate]. Qed.
Lemma nf_unchecked k x a : nf (report_unchecked k x a).
Proof. intros st. unfold report_unchecked. destruct (p_err st); [apply nf_emplace|discriminate]. Qed.
Lemma nf_index i : nf (set_index i). Proof. intros st E; discriminate E. Qed.
Lemma nf_member {A} n (m : M A) : nf m -> nf (in_member n m).
Proof. intros Hm st. unfold in_member. specialize (Hm (put_member (Some n) st)). destruct (m _); try discriminate; congruence. Qed.
Lemma nf_record {A} n (m : M A) : nf m -> nf (in_record n m).
Proof. intros Hm st. unfold in_record. specialize (Hm (put_record (Some n) st)). destruct (m _); try discriminate; congruence. Qed.
Lemma nf_new G t m : nf m -> nf (in_new G t m).
Proof. intros Hm st. unfold in_new. match goal with |- context [m ?s] => specialize (Hm s) end. destruct (m _); try discriminate; congruence. Qed.
Lemma nf_mismatch t j o : nf (mismatch t j o).
Proof. unfold mismatch. apply nf_bind; [apply nf_report|intros; apply nf_ret]. Qed.
Lemma nf_items {A} (s : A -> json -> M A) js : (forall a j, In j js -> nf (s a j)) -> forall i a, nf (pull_items s i js a).
Proof.
  induction js as [|j js IH]; intros Hs i a; cbn [pull_items].
  - apply nf_bind; [apply nf_index|intros; apply nf_ret].
  - apply nf_bind; [apply nf_index|intros _]. apply nf_bind; [apply Hs; left; reflexivity|]. intros a'. apply IH. intros; apply Hs; right; assumption.
Qed.
Lemma nf_fold {A B} (s : A -> B -> M A) l : (forall a b, In b l -> nf (s a b)) -> forall a, nf (fold_m s l a).
Proof.
  induction l as [|b l IH]; intros Hs a; cbn [fold_m]; [apply nf_ret|].
  apply nf_bind; [apply Hs; left; reflexivity|]. intros a'. apply IH. intros; apply Hs; right; assumption.
Qed.
Lemma nf_tuple p js : (forall t j o, In j js -> nf (p t o j)) -> forall ts os, nf (pull_tuple p ts os js).
Proof.
  intros Hp ts. revert js Hp. induction ts as [|t ts IH]; intros js Hp [|o os]; cbn [pull_tuple]; try apply nf_stuck; [apply nf_ret|].
  destruct js as [|j js]; [apply nf_ub|]. apply nf_bind; [apply Hp; left; reflexivity|intros x].
  apply nf_bind; [apply IH; intros; apply Hp; right; assumption|intros; apply nf_ret].
Qed.
Lemma nf_cast k j : nf (cast_double k j).
Proof. unfold cast_double. destruct (get_double j); [|apply nf_stuck]. destruct (f64_trunc n); [|apply nf_ub]. destruct (in_range k z); [apply nf_ret|apply nf_ub]. Qed.
Lemma nf_get_int k j : nf (get_int k j).
Proof. unfold get_int. destruct j; try apply nf_cast. destruct (in_range k z); [apply nf_ret|apply nf_cast]. Qed.

Section Term.
  Variable G : genv.
  Variable J : jenv.
  Variable rk : N -> nat.
  Hypothesis HR : forall c rc p b, g_class G c = Some rc -> rc_pull rc = Some p -> In b (jp_bases p) -> rk b < rk c.

  Definition ends (F : nat) (t : ty) (j : json) : Prop := forall old, nf (pull G J F t old j).
  Definition ends_cls (F : nat) (c : N) (ms : list (bytes * json)) : Prop := forall os, nf (pull_cls G J F c os ms).

  Lemma ends_more F F' t j : F <= F' -> ends F t j -> ends F' t j.
  Proof. intros L E old st. specialize (E old st). rewrite (pull_more G J F F' t old j st _ L eq_refl E). exact E. Qed.
  Lemma ends_cls_more F F' c ms : F <= F' -> ends_cls F c ms -> ends_cls F' c ms.
  Proof. intros L E os st. specialize (E os st). rewrite (pull_cls_more G J F F' c os ms st _ L eq_refl E). exact E. Qed.

  Lemma ends_all {A} (P : nat -> A -> Prop) l : (forall F F' x, F <= F' -> P F x -> P F' x) ->
    (forall x, In x l -> exists F, P F x) -> exists F, forall x, In x l -> P F x.
  Proof.
    intros Mo. induction l as [|x l IH]; intros Hl; [exists 0; intros x []|].
    destruct (Hl x (or_introl eq_refl)) as [F1 H1]. destruct IH as [F2 H2]; [intros y Hy; apply Hl; right; exact Hy|].
    exists (max F1 F2). intros y [<-|Hy]; [eapply Mo; [|exact H1]; lia|eapply Mo; [|exact (H2 y Hy)]; lia].
  Qed.

  Lemma cls_ends ms : (forall t n j, In (n, j) ms -> exists F, ends F t j) ->
    forall n c, rk c < n -> exists F, ends_cls F c ms.
  Proof.
    intros Hj. induction n as [|n IH]; intros c Hc; [lia|].
    destruct (g_class G c) as [rc|] eqn:Ec.
    2: { exists 1. intros os. rewrite pull_cls_S. unfold pull_cls_body. rewrite Ec. apply nf_stuck. }
    destruct (rc_pull rc) as [p|] eqn:Ep.
    2: { exists 1. intros os. rewrite pull_cls_S. unfold pull_cls_body. rewrite Ec, Ep. apply nf_stuck. }
    destruct (ends_all (fun F b => ends_cls F b ms) (jp_bases p) (fun F F' b => ends_cls_more F F' b ms)) as [F1 H1].
    { intros b Hb. apply IH. specialize (HR c rc p b Ec Ep Hb). lia. }
    destruct (ends_all (fun F fd => forall j, alookup bytes_eqb (jf_name fd) ms = Some j -> ends F (jf_ty fd) j) (jp_fields p)) as [F2 H2].
    { intros F F' fd L Hf j E. eapply ends_more; eauto. }
    { intros fd Hfd. destruct (alookup bytes_eqb (jf_name fd) ms) as [j|] eqn:El; [|exists 0; discriminate].
      destruct (in_lookup _ _ _ El) as (m & Hm). destruct (Hj (jf_ty fd) m j Hm) as [F HF]. exists F. intros j' E. inversion E; subst; exact HF. }
    exists (S (max F1 F2)). intros os. rewrite pull_cls_S. unfold pull_cls_body. rewrite Ec, Ep.
    apply nf_bind.
    - apply nf_fold. intros os' b Hb. eapply ends_cls_more; [|exact (H1 b Hb)]; lia.
    - intros os1. cbv zeta.
      match goal with |- nf (match _ with Some n => in_record n ?m | None => ?m end) => assert (Q: nf m) end.
      { apply nf_fold. intros os' fd Hfd. unfold pull_member. destruct (alookup fkey_eqb (jf_key fd) os') as [o|]; [|apply nf_stuck].
        destruct (alookup bytes_eqb (jf_name fd) ms) as [j|] eqn:El; [|apply nf_ret].
        apply nf_bind; [|intros; apply nf_ret]. apply nf_member. eapply ends_more; [|exact (H2 fd Hfd j El)]; lia. }
      destruct (jp_record p); [apply nf_record|]; exact Q.
  Qed.

  Lemma all_end : forall n j, jsize j < n -> forall t, exists F, ends F t j.
  Proof.
    induction n as [|n IHn]; intros j Hj t; [lia|].
    assert (HI: forall js t', j = JArr js -> exists F, forall x, In x js -> ends F t' x).
    { intros js t' ->. apply ends_all; [intros F F' x; apply ends_more|]. intros x Hx. apply IHn. apply jsize_item in Hx. lia. }
    assert (HM: forall ms t', j = JObj ms -> exists F, forall x, In x ms -> ends F t' (snd x)).
    { intros ms t' ->. apply ends_all; [intros F F' x; apply ends_more|]. intros [m x] Hx. apply IHn. apply jsize_member in Hx. cbn [snd]. lia. }
    induction t using ty_ind'.
    - exists 1. intros old. rewrite pull_S. cbn [pull_body]. destruct j; try apply nf_mismatch; apply nf_ret.
    - exists 1. intros old. rewrite pull_S. cbn [pull_body]. destruct (json_kind k); [|destruct (byte_kind k); [|apply nf_stuck]];
        (destruct (is_number j); [|apply nf_mismatch]); (apply nf_bind; [apply nf_get_int|intros; apply nf_ret]).
    - exists 1. intros old. rewrite pull_S. cbn [pull_body]. destruct (get_double j); [apply nf_ret|apply nf_mismatch].
    - exists 1. intros old. rewrite pull_S. cbn [pull_body]. destruct (get_double j); [apply nf_ret|apply nf_mismatch].
    - exists 1. intros old. rewrite pull_S. cbn [pull_body]. destruct j; try apply nf_mismatch. destruct (in_range _ _); [apply nf_ret|apply nf_mismatch].
    - exists 1. intros old. rewrite pull_S. cbn [pull_body]. destruct j; try apply nf_mismatch; apply nf_ret.
    - destruct j; try (exists 1; intros old; rewrite pull_S; cbn [pull_body]; apply nf_mismatch).
      destruct (HI l t eq_refl) as [F HF]. exists (S F). intros old. rewrite pull_S. cbn [pull_body].
      apply nf_bind; [|intros; apply nf_ret]. apply nf_items. intros a x Hx. apply nf_bind; [apply HF; exact Hx|intros; apply nf_ret].
    - destruct j; try (exists 1; intros old; rewrite pull_S; cbn [pull_body]; apply nf_mismatch).
      destruct (HI l t eq_refl) as [F HF]. exists (S F). intros old. rewrite pull_S. cbn [pull_body].
      apply nf_bind; [|intros; apply nf_ret]. apply nf_items. intros a x Hx. apply nf_bind; [apply HF; exact Hx|intros y].
      destruct (is_undef y); [apply nf_ub|]. destruct (emplace _ _ _ _ _ _ _) as [l' ins]. destruct (m || ins); [apply nf_ret|].
      apply nf_bind; [apply nf_unchecked|intros; apply nf_ret].
    - destruct j as [ | | | | | |ms].
      1-6: exists 1; intros old; rewrite pull_S; cbn [pull_body]; destruct m, t1; try apply nf_stuck; destruct old; try apply nf_stuck; apply nf_mismatch.
      destruct (HM ms t2 eq_refl) as [F1 H1].
      destruct (ends_all (fun F x => match snd x with JArr js => forall j, In j js -> ends F t2 j | _ => True end) ms) as [F2 H2].
      { intros F F' [nm x] L. cbn. destruct x; auto. intros Hl j Hjl. eapply ends_more; eauto. }
      { intros [nm x] Hx. cbn [snd]. destruct x; try (exists 0; exact I). apply ends_all; [intros F F' y; apply ends_more|].
        intros y Hy. apply IHn. apply jsize_member in Hx. apply jsize_item in Hy. lia. }
      exists (S (max F1 F2)). intros old. rewrite pull_S. cbn [pull_body].
      assert (Q1: forall x o0, In x ms -> nf (pull G J (max F1 F2) t2 o0 (snd x))). { intros x o0 Hx. eapply ends_more; [|exact (H1 x Hx)]; lia. }
      destruct m, t1; try apply nf_stuck; (destruct old; try apply nf_stuck); (apply nf_bind; [|intros; apply nf_ret]); apply nf_fold; intros a [nm x] Hx.
      + cbv zeta. destruct x as [ | | | | |js|]; try (apply nf_bind; [apply (Q1 _ _ Hx)|intros; apply nf_ret]).
        apply nf_fold. intros a' y Hy. apply nf_bind; [|intros; apply nf_ret]. specialize (H2 _ Hx). cbn [snd] in H2.
        eapply ends_more; [|exact (H2 y Hy)]; lia.
      + cbv zeta. destruct (map_find _ _ _ _ _); (apply nf_bind; [apply (Q1 _ _ Hx)|intros; apply nf_ret]).
    - destruct j as [ | | | | |js| ].
      1-5,7: exists 1; intros old; rewrite pull_S; cbn [pull_body]; destruct old; try apply nf_stuck; apply nf_mismatch.
      destruct (HI js t1 eq_refl) as [F1 H1]. destruct (HI js t2 eq_refl) as [F2 H2].
      exists (S (max F1 F2)). intros old. rewrite pull_S. cbn [pull_body]. destruct old; try apply nf_stuck.
      destruct (Nat.eqb _ _); [|apply nf_bind; [apply nf_report|intros; apply nf_ret]].
      destruct (nth_error js 0) as [ja|] eqn:Ea; [|apply nf_ub]. destruct (nth_error js 1) as [jb|] eqn:Eb; [|apply nf_ub].
      apply nf_bind; [|intros a; apply nf_bind; [|intros; apply nf_ret]].
      + eapply ends_more; [|exact (H1 ja (nth_error_In _ _ Ea))]; lia.
      + eapply ends_more; [|exact (H2 jb (nth_error_In _ _ Eb))]; lia.
    - destruct j as [ | | | | |js| ].
      1-5,7: exists 1; intros old; rewrite pull_S; cbn [pull_body]; destruct ts; try apply nf_stuck; destruct old; try apply nf_stuck; apply nf_mismatch.
      destruct (ends_all (fun F t' => forall x, In x js -> ends F t' x) ts) as [F HF].
      { intros F F' t' L Hl x Hx. eapply ends_more; eauto. } { intros t' _. apply HI. reflexivity. }
      exists (S F). intros old. rewrite pull_S. cbn [pull_body]. destruct ts as [|t0 ts]; [apply nf_stuck|]. destruct old; try apply nf_stuck.
      destruct (Nat.eqb _ _); [|apply nf_bind; [apply nf_report|intros; apply nf_ret]]. apply nf_bind; [|intros; apply nf_ret].
      set (us := t0 :: ts) in *. clearbody us. clear H Hj HI HM.
      assert (Q: forall us' os js', incl us' us -> incl js' js -> nf (pull_tuple (pull G J F) us' os js')).
      { induction us' as [|u us' IH]; intros [|o os] js' I1 I2; cbn [pull_tuple]; try apply nf_stuck; [apply nf_ret|].
        destruct js' as [|j js']; [apply nf_ub|]. apply nf_bind; [apply (HF u); [apply I1; left; reflexivity|apply I2; left; reflexivity]|intros x].
        apply nf_bind; [apply IH; [intros y Hy; apply I1; right; exact Hy|intros y Hy; apply I2; right; exact Hy]|intros; apply nf_ret]. }
      apply Q; apply incl_refl.
    - destruct IHt as [F HF]. exists (S F). intros old. rewrite pull_S. cbn [pull_body]. destruct j; try apply nf_ret; (apply nf_bind; [apply HF|intros; apply nf_ret]).
    - destruct IHt as [F HF]. exists (S F). intros old. rewrite pull_S. cbn [pull_body]. destruct j; try apply nf_ret; (apply nf_bind; [apply HF|intros; apply nf_ret]).
    - destruct IHt as [F HF]. exists (S F). intros old. rewrite pull_S. cbn [pull_body]. destruct j; try apply nf_ret; (apply nf_bind; [apply nf_new, HF|intros; apply nf_ret]).
    - destruct j as [ | | | | | |ms]; try (exists 1; intros old; rewrite pull_S; cbn [pull_body]; apply nf_mismatch).
      destruct (ends_all (fun F t' => forall x, In x ms -> ends F t' (snd x)) ts) as [F HF].
      { intros F F' t' L Hl x Hx. eapply ends_more; eauto. } { intros t' _. apply HM. reflexivity. }
      exists (S F). intros old. rewrite pull_S. cbn [pull_body].
      assert (RR: forall k x a, nf (let? _ := report k x a in ret old)) by (intros; apply nf_bind; [apply nf_report|intros; apply nf_ret]).
      destruct (alookup _ _ ms) as [ji|]; [|apply RR]. destruct (alookup _ _ ms) as [jd|] eqn:Ed; [|apply RR].
      destruct ji as [ | |z| | | | ]; try apply RR. destruct (in_range KU64 z); [|apply RR].
      destruct (Z.to_N z <? N.of_nat (length ts))%N; [|apply RR]. destruct (nth_error ts (Z.to_nat z)) as [t'|] eqn:En; [|apply RR].
      destruct (in_lookup _ _ _ Ed) as (m & Hm). assert (Q: forall o, nf (pull G J F t' o jd)) by (intros o; exact (HF t' (nth_error_In _ _ En) (m, jd) Hm o)).
      destruct t'; try apply nf_ret; (apply nf_bind; [apply Q|intros; apply nf_ret]).
    - exists 1. intros old. rewrite pull_S. cbn [pull_body]. apply nf_stuck.
    - destruct j as [ | | | | | |ms]; try (exists 1; intros old; rewrite pull_S; cbn [pull_body]; destruct old; try apply nf_stuck; apply nf_mismatch).
      destruct (cls_ends ms) with (n := S (rk c)) (c := c) as [F HF]; [|lia|].
      { intros t m x Hx. apply IHn. apply jsize_member in Hx. lia. }
      exists (S F). intros old. rewrite pull_S. cbn [pull_body]. destruct old; try apply nf_stuck. apply nf_bind; [apply HF|intros; apply nf_ret].
    - exists 1. intros old. rewrite pull_S. cbn [pull_body]. apply nf_bind.
      { destruct j; try (apply nf_bind; [apply nf_mismatch|intros; apply nf_ret]); apply nf_ret. }
      intros s. destruct (je_dt_parse J s); [apply nf_ret|apply nf_bind; [apply nf_report|intros; apply nf_ret]].
    - exists 1. intros old. rewrite pull_S. cbn [pull_body]. apply nf_bind.
      { destruct j; try (apply nf_bind; [apply nf_mismatch|intros; apply nf_ret]); apply nf_ret. }
      intros s. destruct (je_ts_parse J s); [apply nf_ret|apply nf_bind; [apply nf_report|intros; apply nf_ret]].
    - exists 1. intros old. rewrite pull_S. cbn [pull_body]. destruct j; try apply nf_mismatch; apply nf_ret.
    - exists 1. intros old. rewrite pull_S. cbn [pull_body]. destruct j; try apply nf_mismatch; apply nf_ret.
  Qed.
End Term.

Theorem pull_terminates G J : no_pull_cycle G -> forall t j, exists F, forall fuel, F <= fuel ->
  forall old st, pull G J fuel t old j st <> PFuel /\ pull G J fuel t old j st = pull G J F t old j st.
Proof.
  intros [rk HR] t j. destruct (all_end G J rk HR (S (jsize j)) j ltac:(lia) t) as [F HF].
  exists F. intros fuel L old st. specialize (HF old st). rewrite (pull_more G J F fuel t old j st _ L eq_refl HF). auto.
Qed.
