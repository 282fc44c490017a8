(** PrevFacts.v -- reading the same data into two variables *)
From Coq Require Import List NArith ZArith Bool Lia.
From Verif Require Import Base BaseFacts Bytes Types TypesFacts BinModel FuelFacts BinSpec BinSafeSpec BinSafe BinFacts ContFacts PrevSpec.
From Verif Require AgainComplete.
Import ListNotations.

Definition agree {A} (Q : A -> A -> Prop) (m m' : res A) : Prop :=
  match m, m' with
  | ROk a, ROk a' => Q a a'
  | RThrow e, RThrow e' => e = e'
  | RUB, RUB | RFuel, RFuel | RStuck, RStuck => True
  | _, _ => False
  end.
Lemma agree_bind {A B} (Q : A -> A -> Prop) (R : B -> B -> Prop) m m' (k k' : A -> res B) :
  agree Q m m' -> (forall a a', m = ROk a -> m' = ROk a' -> Q a a' -> agree R (k a) (k' a')) -> agree R (rbind m k) (rbind m' k').
Proof. intros H K. destruct m, m'; cbn in *; try contradiction; auto. Qed.
Lemma agree_refl {A} (Q : A -> A -> Prop) m : (forall a, Q a a) -> agree Q m m.
Proof. intros H. destruct m; cbn; auto. Qed.
Lemma agree_same {A B} (R : B -> B -> Prop) (m : res A) (k k' : A -> res B) : (forall a, m = ROk a -> agree R (k a) (k' a)) -> agree R (rbind m k) (rbind m k').
Proof. intros K. destruct m; cbn; auto. Qed.
Lemma agree_imp {A} (Q R : A -> A -> Prop) m m' : (forall a a', Q a a' -> R a a') -> agree Q m m' -> agree R m m'.
Proof. intros H. destruct m, m'; cbn; auto. Qed.
Lemma agree_loop {S} (I : S -> S -> Prop) n (r r' : S -> res S) : (forall a b, I a b -> agree I (r a) (r' b)) -> forall a b, I a b -> agree I (loopN n r a) (loopN n r' b).
Proof.
  intros H a b. rewrite !loopN_loopnat. generalize (N.to_nat n) as k. intros k. revert a b. induction k as [|k IH]; intros a b Iab; cbn [loopnat]; [exact Iab|].
  eapply agree_bind; [apply H, Iab|]. intros; apply IH; assumption.
Qed.

Section Two.
  Variables (G : genv) (ud : bool) (C : N -> Prop).
  Hypothesis HA : alloc_ok G.
  Hypothesis HP : place_ok G.
  Hypothesis HE : env_ok G ud.
  Hypothesis HC : classes_overwritten G C.

  Notation ht := (has_type G ud).
  Notation oldok := (oldok G ud).
  Notation fieldsok := (fieldsok G ud).
  Notation good_st := (good_st G ud).

  Definition Q_val (t : ty) (x y : val * bytes * rstate) : Prop :=
    let '(v, r, st) := x in let '(v', r', st') := y in r = r' /\ st = st' /\ (overwritten C t -> v = v').
  Definition Q_cls (c : N) (os os' : list (fkey * val)) (x y : list (fkey * val) * N * bytes * rstate) : Prop :=
    let '(o, v, r, st) := x in let '(o', v', r', st') := y in v = v' /\ r = r' /\ st = st'
    /\ (forall k, alookup fkey_eqb k os = alookup fkey_eqb k os' \/ renewed G C c k -> alookup fkey_eqb k o = alookup fkey_eqb k o').

  Definition T_val f := forall ver t old old' s st, readable G t -> oldok (r_heap st) t old -> oldok (r_heap st) t old' -> state_ok G ud st ->
    agree (Q_val t) (read G f ver t old s st) (read G f ver t old' s st).
  Definition T_cls f := forall ver c rc p lay os os' s st, g_class G c = Some rc -> rc_rd rc = Some p ->
    (forall k t, alookup fkey_eqb k (rc_layout rc) = Some t -> alookup fkey_eqb k lay = Some t) ->
    fieldsok (r_heap st) lay os -> fieldsok (r_heap st) lay os' -> state_ok G ud st ->
    agree (Q_cls c os os') (read_cls G f ver c os s st) (read_cls G f ver c os' s st).

  Lemma post_ok {A} (P : A -> Prop) m a : post P m -> m = ROk a -> P a.
  Proof. intros H ->. exact H. Qed.

  (** a fold over bases or members; [E]: members renewed so far *)
  Definition Q_it (os os' : list (fkey * val)) (E : fkey -> Prop) (x y : list (fkey * val) * bytes * rstate) : Prop :=
    let '(o, r, st) := x in let '(o', r', st') := y in r = r' /\ st = st'
    /\ (forall k, alookup fkey_eqb k os = alookup fkey_eqb k os' \/ E k -> alookup fkey_eqb k o = alookup fkey_eqb k o').
  Definition okit (lay : list (fkey * ty)) (x : list (fkey * val) * bytes * rstate) : Prop :=
    let '(o, r, st) := x in fieldsok (r_heap st) lay o /\ state_ok G ud st.

  Lemma agree_iter {A} lay (F : A -> fkey -> Prop) (step : A -> list (fkey * val) * bytes * rstate -> res (list (fkey * val) * bytes * rstate)) l :
    (forall a x, In a l -> okit lay x -> post (okit lay) (step a x)) ->
    (forall a o o' s st, In a l -> okit lay (o, s, st) -> okit lay (o', s, st) -> agree (Q_it o o' (F a)) (step a (o, s, st)) (step a (o', s, st))) ->
    forall os os' s st, okit lay (os, s, st) -> okit lay (os', s, st) ->
    agree (fun x y => Q_it os os' (fun k => exists a, In a l /\ F a k) x y /\ okit lay x /\ okit lay y) (rd_iter step l (os, s, st)) (rd_iter step l (os', s, st)).
  Proof.
    induction l as [|a l IH]; intros HPo HS os os' s st O O'; cbn [rd_iter].
    - cbn. repeat split; auto; try apply O; try apply O'. intros k [E|(a & [] & _)]. exact E.
    - eapply agree_bind; [apply HS; [left; reflexivity|exact O|exact O']|]. intros [[o1 s1] st1] [[o1' s1'] st1'] E1 E1' (<- & <- & Q1).
      assert (O1 := post_ok _ _ _ (HPo a _ (or_introl eq_refl) O) E1). assert (O1' := post_ok _ _ _ (HPo a _ (or_introl eq_refl) O') E1').
      eapply agree_imp; [|apply IH; [intros; apply HPo; [right; assumption|assumption]|intros; apply HS; [right; assumption|assumption|assumption]|exact O1|exact O1']].
      intros [[o2 s2] st2] [[o2' s2'] st2'] ((-> & -> & Q2) & K1 & K2). repeat split; auto; try apply K1; try apply K2.
      intros k [E|(b & [<-|Hb] & Fb)]; apply Q2; [left; apply Q1; auto|left; apply Q1; auto|right; eauto].
  Qed.

  Lemma T_cls_step f : T_val f -> T_cls f -> T_cls (S f).
  Proof.
    intros TV TC ver c rc p lay os os' s st Hc Hrd Hlay Hos Hos' Hst. rewrite !read_cls_S. unfold read_cls_body. rewrite Hc, Hrd.
    destruct (safe_all G ud HA HP HE f) as [SV SC].
    eapply agree_bind.
    { apply (agree_iter lay (fun b => renewed G C b)) with (os := os) (os' := os'); [| |split; assumption|split; assumption].
      - intros b [[o0 s0] st0] Hb [F0 S0]. destruct (eo_bases _ _ HE c rc p b Hc Hrd Hb) as (rb & pb & Eb & Epb & Hsub).
        eapply post_bind; [eapply (SC ver b rb pb lay o0 s0 st0); eauto|]. intros [[[o1 v1] s1] st1] [F1 G1]. split; [exact F1|apply G1].
      - intros b o o' s0 st0 Hb [F0 S0] [F0' _]. destruct (eo_bases _ _ HE c rc p b Hc Hrd Hb) as (rb & pb & Eb & Epb & Hsub).
        eapply agree_bind; [eapply (TC ver b rb pb lay o o' s0 st0); eauto|]. intros [[[o1 v1] s1] st1] [[[o1' v1'] s1'] st1'] _ _ (<- & <- & <- & Q). cbn. auto. }
    intros [[os1 s1] st1] [[os1' s1'] st1'] _ _ ((<- & <- & Q1) & O1 & O1').
    eapply agree_same. intros [ver' s2] Ev.
    eapply agree_bind.
    { apply (agree_iter lay (fun fd k => k = bf_key fd /\ always fd /\ overwritten C (bf_ty fd))) with (os := os1) (os' := os1'); [| |exact O1|exact O1'].
      - intros fd [[o0 s0] st0] Hfd [[K0 F0] S0]. destruct (visible ver' fd); [|split; [split|]; assumption].
        destruct (eo_fields _ _ HE c rc p fd Hc Hrd Hfd) as [Hl Hr]. apply Hlay in Hl.
        destruct (alookup fkey_eqb (bf_key fd) o0) as [o|] eqn:Eo.
        2: { destruct (alookup_some_in _ fkey_eqb_eq (bf_key fd) o0) as [o X]; [rewrite K0; eapply alookup_some_key; [apply fkey_eqb_eq|exact Hl]|congruence]. }
        eapply post_bind; [apply (SV ver' (bf_ty fd) o s0 st0 Hr (or_intror (F0 _ _ _ Hl Eo)) S0)|].
        intros [[x s3] st3] [Hx G3]. split; [|apply G3]. split; [rewrite aupdate_keys; exact K0|].
        intros k t v E1 E2. destruct (fkey_eq_dec (bf_key fd) k) as [<-|Hn].
        + rewrite (alookup_aupdate_same _ fkey_eqb_eq) in E2 by (eapply alookup_some_key; [apply fkey_eqb_eq|exact Eo]).
          inversion E2; subst v. rewrite Hl in E1. inversion E1; subst t. exact Hx.
        + rewrite (alookup_aupdate_other _ fkey_eqb_eq) in E2 by congruence.
          eapply ht_mono_h; [apply extends_hle, G3|]. eapply F0; eauto.
      - intros fd o o' s0 st0 Hfd [[K0 F0] S0] [[K0' F0'] _]. destruct (visible ver' fd) eqn:V.
        2: { cbn. repeat split; auto. intros k [E|(_ & [A1 A2] & _)]; [exact E|]. unfold visible in V. rewrite A1, A2 in V. cbn in V. discriminate V. }
        destruct (eo_fields _ _ HE c rc p fd Hc Hrd Hfd) as [Hl Hr]. apply Hlay in Hl.
        destruct (alookup fkey_eqb (bf_key fd) o) as [x|] eqn:Eo.
        2: { destruct (alookup_some_in _ fkey_eqb_eq (bf_key fd) o) as [y X]; [rewrite K0; eapply alookup_some_key; [apply fkey_eqb_eq|exact Hl]|congruence]. }
        destruct (alookup fkey_eqb (bf_key fd) o') as [x'|] eqn:Eo'.
        2: { destruct (alookup_some_in _ fkey_eqb_eq (bf_key fd) o') as [y X]; [rewrite K0'; eapply alookup_some_key; [apply fkey_eqb_eq|exact Hl]|congruence]. }
        assert (W : agree (fun a b => Q_val (bf_ty fd) a b /\ (x = x' -> a = b)) (read G f ver' (bf_ty fd) x s0 st0) (read G f ver' (bf_ty fd) x' s0 st0)).
        { pose proof (TV ver' (bf_ty fd) x x' s0 st0 Hr (or_intror (F0 _ _ _ Hl Eo)) (or_intror (F0' _ _ _ Hl Eo')) S0) as W.
          destruct (read G f ver' (bf_ty fd) x s0 st0) as [[[a r] st2]| | | |] eqn:Ea, (read G f ver' (bf_ty fd) x' s0 st0) as [[[b r'] st2']| | | |] eqn:Eb; cbn in *; try contradiction; auto.
          split; [exact W|]. intros <-. rewrite Ea in Eb. congruence. }
        eapply agree_bind; [exact W|]. intros [[a s3] st3] [[a' s3'] st3'] _ _ [(<- & <- & OW) EQ]. cbn. repeat split; auto.
        intros k K. destruct (fkey_eq_dec (bf_key fd) k) as [<-|Hn].
        + rewrite !(alookup_aupdate_same _ fkey_eqb_eq) by (eapply alookup_some_key; [apply fkey_eqb_eq|eassumption]). f_equal.
          destruct K as [K|(_ & _ & K)]; [|apply OW, K]. assert (x = x') as Ex by congruence. specialize (EQ Ex). congruence.
        + rewrite !(alookup_aupdate_other _ fkey_eqb_eq) by congruence. destruct K as [K|(K & _)]; [exact K|congruence]. }
    intros [[os3 s3] st3] [[os3' s3'] st3'] _ _ ((<- & <- & Q3) & _ & _). cbn. repeat split; auto.
    intros k K. apply Q3. destruct K as [K|K]; [left; apply Q1; left; exact K|].
    inversion K as [c0 rc0 p0 fd E1 E2 Hin A O Ek|c0 rc0 p0 b k0 E1 E2 Hin Kb Ec]; subst; rewrite Hc in E1; inversion E1; subst rc0; rewrite Hrd in E2; inversion E2; subst p0.
    - right. exists fd. auto.
    - left. apply Q1. right. exists b. auto.
  Qed.

  Lemma Q_val_refl t x : Q_val t x x. Proof. destruct x as [[v r] st]. cbn. auto. Qed.

  Lemma T_val_step f : T_val f -> T_cls f -> T_val (S f).
  Proof.
    intros TV TC ver t old old' s st R O O' Hst. rewrite !read_S. destruct (safe_all G ud HA HP HE f) as [SV SC].
    destruct t; cbn [read_body]; cbn [readable] in R; try contradiction; try (apply agree_refl; apply Q_val_refl).
    - (* sequences *)
      destruct O as [O|O]; [discriminate|]. inversion O as [ | | | | | | | | | t0 l Hl | | | | | | | | | | | | | | | | | | ]; subst; [discriminate|].
      destruct O' as [O'|O']; [discriminate|]. inversion O' as [ | | | | | | | | | t0 l' Hl' | | | | | | | | | | | | | | | | | | ]; subst; [discriminate|].
      apply agree_same. intros [n r] _.
      eapply (agree_bind (fun '(o, acc, s1, st1) '(o', acc', s1', st1') => s1 = s1' /\ st1 = st1' /\ state_ok G ud st1 /\ (forall y, In y o -> ht (r_heap st1) t y) /\ (forall y, In y o' -> ht (r_heap st1) t y)
         /\ (overwritten C t -> acc = acc'))).
      2: { intros [[[o acc] s1] st1] [[[o' acc'] s1'] st1'] _ _ (<- & <- & _ & _ & _ & A). cbn. repeat split; auto. intros OW. rewrite (A OW). reflexivity. }
      apply (agree_loop (fun '(o, acc, s1, st1) '(o', acc', s1', st1') => s1 = s1' /\ st1 = st1' /\ state_ok G ud st1 /\ (forall y, In y o -> ht (r_heap st1) t y) /\ (forall y, In y o' -> ht (r_heap st1) t y)
         /\ (overwritten C t -> acc = acc'))).
      2: { repeat split; auto; apply Hst. }
      intros [[[o acc] s1] st1] [[[o' acc'] s1'] st1'] (<- & <- & S1 & Ho & Ho' & A). cbv zeta.
      assert (W : forall o, (forall y, In y o -> ht (r_heap st1) t y) -> oldok (r_heap st1) t (match o with x :: _ => x | [] => vinit G t end)).
      { intros q Hq. right. destruct q as [|x q]; [eapply ht_mono_h; [apply hle_nil|]; apply (vinit_ht G ud HE); exact R|apply Hq; left; reflexivity]. }
      pose proof (SV 0%N t _ s1 st1 R (W o Ho) S1) as P1.
      eapply agree_bind; [apply (TV 0%N t _ _ s1 st1 R (W o Ho) (W o' Ho') S1)|].
      intros [[y s2] st2] [[y' s2'] st2'] E1 _ (<- & <- & OW). rewrite E1 in P1. destruct P1 as [_ G2]. pose proof (extends_hle _ _ (gs_ext _ _ _ _ _ _ G2)) as Hle.
      cbn. split; [reflexivity|]. split; [reflexivity|]. split; [apply G2|]. split; [|split].
      + intros z Hz. eapply ht_mono_h; [exact Hle|]. apply Ho. destruct o; [destruct Hz|right; exact Hz].
      + intros z Hz. eapply ht_mono_h; [exact Hle|]. apply Ho'. destruct o'; [destruct Hz|right; exact Hz].
      + intros K. rewrite (OW K), (A K). reflexivity.
    - (* sets *)
      destruct O as [O|O]; [discriminate|]. inversion O as [ | | | | | | | | | | ord1 multi1 t0 l Hl | | | | | | | | | | | | | | | | | ]; subst; [discriminate|].
      destruct O' as [O'|O']; [discriminate|]. inversion O' as [ | | | | | | | | | | ord1 multi1 t0 l' Hl' | | | | | | | | | | | | | | | | | ]; subst; [discriminate|].
      apply agree_same. intros [n r] _.
      eapply (agree_bind (fun '(_, s1, st1) '(_, s1', st1') => s1 = s1' /\ st1 = st1')).
      2: { intros [[o s1] st1] [[o' s1'] st1'] _ _ (<- & <-). cbn. repeat split; auto. intros []. }
      apply (agree_loop (fun '(_, s1, st1) '(_, s1', st1') => s1 = s1' /\ st1 = st1')); [|auto].
      intros [[o s1] st1] [[o' s1'] st1'] (<- & <-). apply agree_same. intros [[x s2] st2] _. cbn. auto.
    - (* maps *)
      destruct O as [O|O]; [discriminate|]. inversion O as [ | | | | | | | | | | | ord1 multi1 kt1 vt1 l Hp Hk Hv | | | | | | | | | | | | | | | | ]; subst; [discriminate|].
      destruct O' as [O'|O']; [discriminate|]. inversion O' as [ | | | | | | | | | | | ord1 multi1 kt1 vt1 l' Hp' Hk' Hv' | | | | | | | | | | | | | | | | ]; subst; [discriminate|].
      apply agree_same. intros [n r] _.
      eapply (agree_bind (fun '(_, s1, st1) '(_, s1', st1') => s1 = s1' /\ st1 = st1')).
      2: { intros [[o s1] st1] [[o' s1'] st1'] _ _ (<- & <-). cbn. repeat split; auto. intros []. }
      apply (agree_loop (fun '(_, s1, st1) '(_, s1', st1') => s1 = s1' /\ st1 = st1')); [|auto].
      intros [[o s1] st1] [[o' s1'] st1'] (<- & <-). apply agree_same. intros [[x s2] st2] _. cbn. auto.
    - (* pair *)
      destruct O as [O|O]; [discriminate|]. inversion O as [ | | | | | | | | | | | |ta1 tb1 a b Oa Ob| | | | | | | | | | | | | | | ]; subst; [discriminate|].
      destruct O' as [O'|O']; [discriminate|]. inversion O' as [ | | | | | | | | | | | |ta1 tb1 a' b' Oa' Ob'| | | | | | | | | | | | | | | ]; subst; [discriminate|].
      destruct R as [R1 R2]. pose proof (SV 0%N t1 a s st R1 (or_intror Oa) Hst) as P1.
      eapply agree_bind; [apply (TV 0%N t1 a a' s st R1 (or_intror Oa) (or_intror Oa') Hst)|]. intros [[x s1] st1] [[x' s1'] st1'] E1 _ (<- & <- & W1).
      rewrite E1 in P1. destruct P1 as [_ G1]. pose proof (extends_hle _ _ (gs_ext _ _ _ _ _ _ G1)) as Hle.
      eapply agree_bind; [apply (TV 0%N t2 b b' s1 st1 R2); [right; eapply ht_mono_h; [exact Hle|assumption]|right; eapply ht_mono_h; [exact Hle|assumption]|apply G1]|].
      intros [[y s2] st2] [[y' s2'] st2'] _ _ (<- & <- & W2). cbn. repeat split; auto. intros [A B]. rewrite (W1 A), (W2 B). reflexivity.
    - (* struct *)
      destruct O as [O|O]; [discriminate|]. inversion O as [ | | | | | | | | | | | | | | | | | | | | |c0 rc fs Hc K F | | | | | | ]; subst; [discriminate|].
      destruct O' as [O'|O']; [discriminate|]. inversion O' as [ | | | | | | | | | | | | | | | | | | | | |c0 rc0 fs' Hc0 K' F' | | | | | | ]; subst; [discriminate|].
      rewrite Hc in Hc0. inversion Hc0; subst rc0. destruct R as (rc' & p & Ec & Ep). rewrite Hc in Ec. inversion Ec; subst rc'.
      pose proof (SC ver c rc p (rc_layout rc) fs s st Hc Ep ltac:(auto) (conj K F) Hst) as P1. pose proof (SC ver c rc p (rc_layout rc) fs' s st Hc Ep ltac:(auto) (conj K' F') Hst) as P2.
      eapply agree_bind; [apply (TC ver c rc p (rc_layout rc) fs fs' s st Hc Ep); auto; split; assumption|].
      intros [[[o v] s1] st1] [[[o' v'] s1'] st1'] E1 E2 (<- & <- & <- & Q). rewrite E1 in P1. rewrite E2 in P2. destruct P1 as [[K1 _] _]. destruct P2 as [[K2 _] _].
      cbn. repeat split; auto. intros Cc. f_equal. destruct (HC c Cc) as (rc2 & Ec2 & ND & RN). rewrite Hc in Ec2. inversion Ec2; subst rc2.
      apply AgainComplete.fields_ext; [congruence|rewrite K1; exact ND|]. intros k Hk. apply Q. right. apply RN. rewrite <- K1. exact Hk.
  Qed.

  Lemma two_all f : T_val f /\ T_cls f.
  Proof.
    induction f as [|f [TV TC]]; [split; repeat intro; exact I|]. split; [apply T_val_step|apply T_cls_step]; assumption.
  Qed.
End Two.
