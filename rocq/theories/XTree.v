(** XTree.v -- deserialising JSON with throwOn: also when an exception is thrown, only closed parts without cycles have been added to the object graph (properties C65, C70) *)
From Coq Require Import String List NArith ZArith Bool Arith Lia Permutation.
From Verif Require Import Base BaseFacts Types TypesFacts BinModel BinSpec BinFacts Float JsonModel JsonRel JsonSpec SerSpec BoundSpec BoundFacts JBoundSpec JBoundFacts JTreeSpec JTreeFacts JTreeGrow JsonExc JsonExcFacts.
Import ListNotations.
Local Open Scope list_scope.
Local Open Scope nat_scope.

(** holds for the value of the variable and the state whether the function returns or throws *)
Definition xpost {A} (o : xout A) (Q : A -> pst -> Prop) : Prop :=
  match o with QOk a st | QThrow _ a st => Q a st | _ => True end.
Lemma xp_imp {A} (o : xout A) (Q Q' : A -> pst -> Prop) : xpost o Q -> (forall a s, Q a s -> Q' a s) -> xpost o Q'.
Proof. destruct o; cbn; auto. Qed.
Lemma xp_bind {A B} (m : XM A) (w : A -> B) (k : A -> XM B) st (Q' : A -> pst -> Prop) (Q : B -> pst -> Prop) : xpost (m st) Q' -> (forall a s, Q' a s -> Q (w a) s) -> (forall a s, Q' a s -> xpost (k a s) Q) -> xpost (xbind m w k st) Q.
Proof. unfold xbind. intros H1 H2 H3. destruct (m st); cbn in *; auto. Qed.
Lemma xp_map {A B} (m : XM A) (g : A -> B) st (Q : B -> pst -> Prop) : xpost (m st) (fun a s => Q (g a) s) -> xpost (xbind m g (fun a => xret (g a)) st) Q.
Proof. intros H. eapply xp_bind; [exact H|auto|cbn; auto]. Qed.
Lemma xp_lift {A B} (old : B) (m : M A) (k : A -> XM B) st (Q' : A -> pst -> Prop) (E' : pst -> Prop) (Q : B -> pst -> Prop) : ends (m st) Q' E' -> (forall s, E' s -> Q old s) -> (forall a s, Q' a s -> xpost (k a s) Q) -> xpost (xlift old m k st) Q.
Proof. unfold xlift. intros H1 H2 H3. destruct (m st); cbn in *; auto. Qed.
Lemma xp_member {A} n (m : XM A) st (Q : A -> pst -> Prop) : (forall a s x, Q a s -> Q a (put_member x s)) -> xpost (m (put_member (Some n) st)) Q -> xpost (xin_member n m st) Q.
Proof. intros HQ H. unfold xin_member. destruct (m _); cbn in *; auto. Qed.
Lemma xp_record {A} n (m : XM A) st (Q : A -> pst -> Prop) : (forall a s x, Q a s -> Q a (put_record x s)) -> xpost (m (put_record (Some n) st)) Q -> xpost (xin_record n m st) Q.
Proof. intros HQ H. unfold xin_record. destruct (m _); cbn in *; auto. Qed.

Lemma xitems_inv {A} (Inv : A -> heap -> Prop) (step : A -> json -> XM A) js :
  (forall a j st, In j js -> Inv a (p_heap st) -> xpost (step a j st) (fun a' st' => Inv a' (p_heap st'))) ->
  forall i a st, Inv a (p_heap st) -> xpost (xitems step i js a st) (fun a' st' => Inv a' (p_heap st')).
Proof.
  induction js as [|j js IH]; intros Hs i a st Ha; [exact Ha|]. cbn [xitems]. unfold xlift at 1, set_index.
  eapply xp_bind; [apply Hs; [left; reflexivity|exact Ha]|auto|]. cbn beta. intros a' s H'. apply IH; [intros; apply Hs; [right; assumption|assumption]|exact H'].
Qed.
Lemma xfold_inv {A B} (Inv : A -> heap -> Prop) (step : A -> B -> XM A) l :
  (forall a b st, In b l -> Inv a (p_heap st) -> xpost (step a b st) (fun a' st' => Inv a' (p_heap st'))) ->
  forall a st, Inv a (p_heap st) -> xpost (xfold step l a st) (fun a' st' => Inv a' (p_heap st')).
Proof.
  induction l as [|b l IH]; intros Hs a st Ha; [exact Ha|]. cbn [xfold].
  eapply xp_bind; [apply Hs; [left; reflexivity|exact Ha]|auto|]. cbn beta. intros a' s H'. apply IH; [intros; apply Hs; [right; assumption|assumption]|exact H'].
Qed.

(** reporting leaves the objects alone, whether it throws or not *)
Definition still (st s : pst) : Prop := p_heap s = p_heap st.
Lemma report_still {A} e x y (a : A) st : ends (bind (report e x y) (fun _ => ret a) st) (fun b s => b = a /\ still st s) (still st).
Proof. eapply ends_bind with (Q' := fun _ s => still st s); [apply ends_report; intros s He _; split; exact He|]. cbn. auto. Qed.
Lemma report_alone e x y st : ends (report e x y st) (fun _ s => still st s) (still st).
Proof. apply ends_report. intros s He _. split; exact He. Qed.

Section Grow.
  Variable G : genv.
  Variable J : jenv.
  Hypothesis HA : alloc_ok G.
  Hypothesis HP : place_ok G.
  Hypothesis HD : plain_defaults G.
  Definition XGval (f : nat) : Prop := forall t old j st,
    xpost (xpull G J f t old j st) (fun v st' => from (refers old) (refers v) (p_heap st) (p_heap st')).
  Definition XGcls (f : nat) : Prop := forall c os ms st,
    xpost (xpull_cls G J f c os ms st) (fun fs st' => from (orefers os) (orefers fs) (p_heap st) (p_heap st')).

  Ltac norefs := let a := fresh "a" in let R := fresh "R" in intros a R; exfalso; inversion R; fail.
  Ltac sleaf := match goal with
    | |- ends (stuck _) _ _ => exact I
    | |- ends (ub _) _ _ => exact I
    | |- ends (mismatch _ _ _ _) _ _ => eapply ends_imp; [apply report_still|cbn beta; intros ? ? (-> & ?); split; [assumption|auto]|auto]
    | |- ends (bind (report _ _ _) (fun _ => ret _) _) _ _ => eapply ends_imp; [apply report_still|cbn beta; intros ? ? (-> & ?); split; [assumption|auto]|auto]
    | |- ends (ret _ _) _ _ => cbn [ends ret]; split; [reflexivity|first [norefs | auto]]
    end.
  Lemma int_still k j st (Q : Z -> pst -> Prop) E : (forall z, Q z st) -> ends (get_int k j st) Q E.
  Proof. intros H. apply get_int_errors. exact H. Qed.
  Definition scalar (t : ty) : bool := match t with TBool | TInt _ | TF32 | TF64 | TEnum _ | TString | TView | TCStr | TDateTime | TTimeSpan | TMono => true | _ => false end.
  Lemma scalar_still p pc t old j st : scalar t = true -> ends (pull_body G J p pc t old j st) (fun v s => still st s /\ forall a, refers v a -> refers old a) (still st).
  Proof.
    intros S. unfold pull_body. destruct t; try discriminate S; try exact I.
    - destruct j; sleaf.
    - destruct (json_kind k).
      + destruct (is_number j); [|sleaf]. apply ends_map, int_still. intros z. split; [reflexivity|norefs].
      + destruct (byte_kind k); [|sleaf]. destruct (is_number j); [|sleaf]. apply ends_map, int_still. intros z. split; [reflexivity|norefs].
    - destruct (get_double j); sleaf.
    - destruct (get_double j); sleaf.
    - destruct j; try sleaf. destruct (in_range (enum_kind k) z); sleaf.
    - destruct j; sleaf.
    - eapply ends_bind with (Q' := fun _ s => still st s).
      { destruct j; try (eapply ends_bind; [apply report_still|cbn beta; intros ? ? (_ & H); exact H]). cbn. reflexivity. }
      intros s0 s Hs. cbn beta. destruct (je_dt_parse J s0); [cbn [ends ret]; split; [exact Hs|norefs]|].
      eapply ends_imp; [apply report_still|cbn beta; intros ? ? (-> & H); split; [unfold still in *; congruence|auto]|intros s2 H; unfold still in *; congruence].
    - eapply ends_bind with (Q' := fun _ s => still st s).
      { destruct j; try (eapply ends_bind; [apply report_still|cbn beta; intros ? ? (_ & H); exact H]). cbn. reflexivity. }
      intros s0 s Hs. cbn beta. destruct (je_ts_parse J s0); [cbn [ends ret]; split; [exact Hs|norefs]|].
      eapply ends_imp; [apply report_still|cbn beta; intros ? ? (-> & H); split; [unfold still in *; congruence|auto]|intros s2 H; unfold still in *; congruence].
    - destruct j; sleaf.
    - destruct j; sleaf.
  Qed.

  Lemma from_still (P Q : N -> Prop) st s : still st s -> (forall a, Q a -> P a) -> from P Q (p_heap st) (p_heap s).
  Proof. intros E H. rewrite E. apply from_refl. exact H. Qed.
  Lemma refuse_from t j old st : xpost (xlift old (mismatch t j old) xret st) (fun v st' => from (refers old) (refers v) (p_heap st) (p_heap st')).
  Proof.
    eapply xp_lift; [apply report_still|intros s H; apply from_still; [exact H|auto]|]. cbn beta. intros a s (-> & H). cbn. apply from_still; [exact H|auto].
  Qed.
  Lemma reported_from e x y old st : xpost (xlift old (report e x y) (fun _ => xret old) st) (fun v st' => from (refers old) (refers v) (p_heap st) (p_heap st')).
  Proof.
    eapply xp_lift; [apply report_alone|intros s H; apply from_still; [exact H|auto]|]. cbn beta. intros a s H. cbn. apply from_still; [exact H|auto].
  Qed.
  Ltac leaf := match goal with
    | |- xpost QStuck _ => exact I
    | |- xpost QUB _ => exact I
    | |- xpost (xlift _ (mismatch _ _ _) xret _) _ => apply refuse_from
    | |- xpost (xlift _ (report _ _ _) (fun _ => xret _) _) _ => apply reported_from
    | |- xpost (xret _ _) _ => cbn [xpost xret]; apply from_refl; first [norefs | auto]
    end.

  Lemma xtuple_from f ts : XGval f -> forall os js st,
    xpost (xtuple (xpull G J f) ts os js st) (fun xs st' => from (lrefers os) (lrefers xs) (p_heap st) (p_heap st')).
  Proof.
    intros IH. induction ts as [|t ts IHt]; intros os js st; destruct os as [|o os]; cbn [xtuple]; try exact I.
    - cbn [xpost xret]. apply from_refl. auto.
    - destruct js as [|j js]; [exact I|].
      assert (HQ : forall x s, from (refers o) (refers x) (p_heap st) (p_heap s) -> from (lrefers (o :: os)) (refers x) (p_heap st) (p_heap s)).
      { intros x s H. eapply from_imp; [exact H| |auto]. intros a R. apply lrefers_cons. left. exact R. }
      eapply xp_bind; [apply IH| |]; cbn beta; intros x s Hs.
      + eapply from_imp; [apply HQ; exact Hs|auto|]. intros a R. apply lrefers_cons in R. destruct R as [R|R]; [left; exact R|right; apply lrefers_cons; right; exact R].
      + apply xp_map. eapply xp_imp; [apply IHt|]. cbn beta. intros xs s2 Hs2. eapply from_imp; [eapply from_trans; [apply HQ; exact Hs|exact Hs2|]|auto|].
        * intros a R. left. apply lrefers_cons. right. exact R.
        * intros a R. apply lrefers_cons in R. left. exact R.
  Qed.

  Lemma xadd_from (l0 l : N -> Prop) t j f st0 st (Q : val -> N -> Prop) : XGval f ->
    from l0 l (p_heap st0) (p_heap st) -> (forall x a, Q x a -> refers x a \/ l a) ->
    xpost (xpull G J f t (vinit G t) j st) (fun x st' => from l0 (Q x) (p_heap st0) (p_heap st')).
  Proof.
    intros IH H0 HQ. eapply xp_imp; [apply IH|cbn beta; intros x s Hs].
    eapply from_imp; [eapply from_trans; [exact H0|exact Hs|]|auto|].
    - intros a R. exfalso. exact (vinit_none G HD _ _ R).
    - intros a R. destruct (HQ x a R); tauto.
  Qed.

  Lemma xgval_step f : XGval f -> XGcls f -> XGval (S f).
  Proof.
    intros IH IHc t old j st. rewrite xpull_S. unfold xpull_body. cbv zeta. destruct t;
      try (eapply xp_lift; [apply scalar_still; reflexivity|intros s H; apply from_still; [exact H|auto]|cbn beta; intros v s (H1 & H2); cbn; apply from_still; assumption]).
    - (* seq *) destruct j; try leaf. apply xp_map.
      apply (xitems_inv (fun l h => from (refers old) (lrefers l) (p_heap st) h)).
      + intros a j st0 _ H0. apply xp_map. apply (xadd_from (refers old) (lrefers a) t j f st st0 (fun x => lrefers (a ++ [x])) IH H0).
        intros x b R. apply lrefers_app in R. rewrite lrefers_cons in R. destruct R as [R|[R|R]]; [tauto|tauto|exfalso; exact (lrefers_nil _ R)].
      + apply from_refl. intros a R. exfalso. exact (lrefers_nil _ R).
    - (* set *) destruct j; try leaf. apply xp_map.
      apply (xitems_inv (fun l h => from (refers old) (lrefers l) (p_heap st) h)).
      + intros a j st0 _ H0.
        assert (HX : forall x s, from (refers (dinit G t)) (refers x) (p_heap st0) (p_heap s) -> from (refers old) (fun b => lrefers a b \/ refers x b) (p_heap st) (p_heap s)).
        { intros x s Hs. eapply from_trans; [exact H0|exact Hs|]. intros b R. exfalso. exact (dinit_none G HD _ _ R). }
        eapply xp_bind; [apply IH| |]; cbn beta; intros x s Hs; [eapply from_imp; [apply (HX x s Hs)|auto|auto]|]. destruct (is_undef x); [exact I|].
        pose proof (fun b => emplace_refers G false ord multi t x a b HP) as ES. destruct (emplace G false ord multi t x a) as [l' ins]. cbn [fst] in ES.
        assert (HY : from (refers old) (lrefers l') (p_heap st) (p_heap s)).
        { eapply from_imp; [apply (HX x s Hs)|auto|]. intros b R. destruct (ES b R); tauto. }
        destruct (multi || ins); [exact HY|].
        eapply xp_lift with (Q' := fun _ s2 => still s s2) (E' := still s); [apply ends_report_unchecked; intros s2 He _; split; exact He| |].
        * intros s2 H2. rewrite H2. exact HY.
        * cbn beta. intros _ s2 H2. cbn. rewrite H2. exact HY.
      + apply from_refl. intros a R. exfalso. exact (lrefers_nil _ R).
    - (* map *) destruct multi; destruct t1; try exact I; destruct old as [| | | | | |olds| | | | | | |]; try exact I; destruct j; try leaf; apply xp_map;
        (apply (xfold_inv (fun l h => from (lrefers olds) (lrefers l) (p_heap st) h)); [|apply from_refl; auto]).
      + intros a [n j] st0 _ H0. cbv zeta.
        assert (X : forall a j st0, from (lrefers olds) (lrefers a) (p_heap st) (p_heap st0) ->
          xpost (xbind (xpull G J f t2 (vinit G t2) j) (fun x => fst (emplace G true ord true TString (VPair (VStr (cstr n)) x) a)) (fun x => xret (fst (emplace G true ord true TString (VPair (VStr (cstr n)) x) a))) st0)
          (fun a' st' => from (lrefers olds) (lrefers a') (p_heap st) (p_heap st'))).
        { clear a j st0 H0. intros a j st0 H0. apply xp_map.
          apply (xadd_from (lrefers olds) (lrefers a) t2 j f st st0 (fun x => lrefers (fst (emplace G true ord true TString (VPair (VStr (cstr n)) x) a))) IH H0).
          intros x b R. apply (emplace_refers _ _ _ _ _ _ _ _ HP) in R. destruct R as [R|R]; [|tauto]. inversion R; subst; [match goal with X : refers (VStr _) _ |- _ => inversion X end|tauto]. }
        destruct j; try (apply X; exact H0). apply (xfold_inv (fun l h => from (lrefers olds) (lrefers l) (p_heap st) h)); [|exact H0]. intros a' j' st1 _ H1. apply X. exact H1.
      + intros a [n j] st0 _ H0. cbv zeta. destruct (map_find _ _ _ _ a) as [v|] eqn:Ef; apply xp_map.
        * eapply xp_imp; [apply IH|cbn beta; intros x s Hs]. eapply from_imp; [eapply from_trans; [exact H0|exact Hs|]|auto|].
          -- intros b R. right. eapply map_find_refers; eassumption.
          -- intros b R. destruct (map_put_refers _ _ _ _ _ _ _ _ Ef R); tauto.
        * apply (xadd_from (lrefers olds) (lrefers a) t2 j f st st0 (fun x => lrefers (fst (emplace G true ord false TString (VPair (VStr (cstr n)) x) a))) IH H0).
          intros x b R. apply (emplace_refers _ _ _ _ _ _ _ _ HP) in R. destruct R as [R|R]; [|tauto]. inversion R; subst; [match goal with X : refers (VStr _) _ |- _ => inversion X end|tauto].
    - (* pair *) destruct old as [| | | | | | |oa ob| | | | | |]; try exact I. destruct j; try leaf. destruct (length l =? 2); [|leaf].
      destruct l as [|j1 [|j2 l]]; try exact I. cbn [nth_error].
      assert (HQ : forall x s, from (refers oa) (refers x) (p_heap st) (p_heap s) -> from (refers (VPair oa ob)) (refers x) (p_heap st) (p_heap s)) by (intros x s Hs; eapply from_imp; [exact Hs|intros a R; apply rf_first; exact R|auto]).
      eapply xp_bind; [apply IH| |]; cbn beta; intros x s Hs.
      + eapply from_imp; [apply HQ; exact Hs|auto|]. intros a R. inversion R; subst; [tauto|right; apply rf_second; assumption].
      + apply xp_map. eapply xp_imp; [apply IH|cbn beta; intros y s2 Hs2].
        eapply from_imp; [eapply from_trans; [apply HQ; exact Hs|exact Hs2|]|auto|].
        * intros a R. left. apply rf_second. exact R.
        * intros a R. inversion R; subst; tauto.
    - (* tuple *) destruct ts as [|t0 ts]; [exact I|]. destruct old as [| | | | | |olds| | | | | | |]; try exact I. destruct j; try leaf.
      destruct (length l =? length (t0 :: ts)); [|leaf]. apply xp_map. apply (xtuple_from f _ IH).
    - (* unique *) destruct j; try leaf; apply xp_map;
        (match goal with |- xpost (xpull _ _ _ _ _ ?jj _) _ => apply (xadd_from (refers old) none t jj f st st (fun x => refers (VOpt (Some x))) IH); [apply from_refl; intros a []|] end;
         let x := fresh "x" in let y := fresh "y" in let R := fresh "R" in intros x y R; inversion R; tauto).
    - destruct j; try leaf; apply xp_map;
        (match goal with |- xpost (xpull _ _ _ _ _ ?jj _) _ => apply (xadd_from (refers old) none t jj f st st (fun x => refers (VOpt (Some x))) IH); [apply from_refl; intros a []|] end;
         let x := fresh "x" in let y := fresh "y" in let R := fresh "R" in intros x y R; inversion R; tauto).
    - (* shared *) assert (X : xpost (xbind (xin_new G t (xpull G J f t (vinit G t) j)) (fun a => VShared (Some a)) (fun a => xret (VShared (Some a))) st)
        (fun v st' => from (refers old) (refers v) (p_heap st) (p_heap st'))).
      { apply xp_map. unfold xin_new. cbv zeta. set (a := g_alloc G (p_heap st)). assert (Hn : ~ exists_at (p_heap st) a) by apply HA.
        set (st1 := {| p_heap := hset _ _ _; p_err := p_err st |}). specialize (IH t (vinit G t) j st1).
        assert (Y : forall x s, from (refers (vinit G t)) (refers x) (p_heap st1) (p_heap s) -> from (refers old) (refers (VShared (Some a))) (p_heap st) (hset (p_heap s) a (t, x))).
        { intros x s [Hs Gs]. assert (Hx : forall b, refers x b -> JTreeGrow.fresh (p_heap st1) (p_heap s) b) by (intros b R; destruct (Hs b R) as [H|H]; [exfalso; exact (vinit_none G HD _ _ H)|exact H]).
          destruct (grown_new _ a t (vinit G t) x _ Hn Gs Hx) as [G3 F3]. split; [|exact G3]. intros b R. right. inversion R; subst. exact F3. }
        destruct (xpull G J f t (vinit G t) j st1) as [x s|e x s| | |]; cbn [xpost p_heap] in *; try exact I; apply Y; exact IH. }
      destruct j; try exact X. leaf.
    - (* variant *) destruct j; try leaf. destruct (alookup bytes_eqb (list_byte_of_string "index") ms) as [ji|]; [|leaf].
      destruct (alookup bytes_eqb (list_byte_of_string "data") ms) as [jd|] eqn:Ed; [|leaf]. destruct ji; try leaf.
      destruct (in_range KU64 z); [|leaf]. destruct (if N.ltb _ _ then nth_error ts (Z.to_nat z) else None) as [t'|] eqn:En; [|leaf].
      assert (X : xpost (xbind (xpull G J f t' (vinit G t') jd) (VVar (Z.to_nat z)) (fun x => xret (VVar (Z.to_nat z) x)) st)
        (fun v st' => from (refers old) (refers v) (p_heap st) (p_heap st'))).
      { apply xp_map. apply (xadd_from (refers old) none t' jd f st st (fun x => refers (VVar (Z.to_nat z) x)) IH); [apply from_refl; intros a []|]. let x := fresh "x" in let y := fresh "y" in let R := fresh "R" in intros x y R; inversion R; tauto. }
      destruct t'; try exact X. cbn [xpost xret]. apply from_refl. intros a R. exfalso. inversion R; subst. inversion H2.
    - (* class *) destruct old as [| | | | | | | | | | | | |os]; try exact I. destruct j; try leaf. apply xp_map. apply (IHc c os ms st).
  Qed.

  Lemma xgcls_step f : XGval f -> XGcls f -> XGcls (S f).
  Proof.
    intros IH IHc c os ms st. rewrite xpull_cls_S. unfold xpull_cls_body. destruct (g_class G c) as [rc|]; [|exact I]. destruct (rc_pull rc) as [p|]; [|exact I]. cbv zeta.
    eapply xp_bind.
    { apply (xfold_inv (fun l h => from (orefers os) (orefers l) (p_heap st) h)); [|apply from_refl; auto]. intros a b st0 _ H0.
      eapply xp_imp; [apply IHc|cbn beta; intros fs s Hs]. eapply from_imp; [eapply from_trans; [exact H0|exact Hs|auto]|auto|]. cbn. auto. }
    { auto. }
    cbn beta. intros os1 s1 H1.
    assert (X : forall st0, p_heap st0 = p_heap s1 -> xpost (xfold (fun os fd => xpull_member (xpull G J f) ms fd os) (jp_fields p) os1 st0)
      (fun fs s => from (orefers os) (orefers fs) (p_heap st) (p_heap s))).
    { intros st0 E0. apply (xfold_inv (fun l h => from (orefers os) (orefers l) (p_heap st) h)); [|rewrite E0; exact H1].
      intros a fd s Hin H0. unfold xpull_member. destruct (alookup fkey_eqb (jf_key fd) a) as [o|] eqn:Eo; [|exact I].
      destruct (alookup bytes_eqb (jf_name fd) ms) as [j|]; [|exact H0]. apply xp_map. apply xp_member.
      - intros x s2 y. auto.
      - eapply xp_imp; [apply IH|cbn beta; intros x s2 Hs]. eapply from_imp; [eapply from_trans; [exact H0|exact Hs|]|auto|].
        + intros b R. right. apply orefers_in. destruct (alookup_in_f _ _ _ Eo) as [k Hk]. eauto.
        + intros b R. destruct (update_refers _ _ _ _ R); tauto. }
    destruct (jp_record p) as [n|].
    - apply xp_record; [intros x s2 y; auto|]. apply X. reflexivity.
    - apply X. reflexivity.
  Qed.
  Lemma xgrown_all f : XGval f /\ XGcls f.
  Proof. induction f as [|f [A B]]; [split; [intros t old j st; exact I|intros c os ms st; exact I]|]. split; [apply xgval_step|apply xgcls_step]; assumption. Qed.
End Grow.
