(** JTreeGrow.v -- proofs for property C65: deserialising adds parts to the object graph which are closed and have no cycles *)
From Coq Require Import String List NArith ZArith Bool Arith Lia Permutation.
From Verif Require Import Base BaseFacts Types TypesFacts BinModel BinSpec BinFacts Float JsonModel JsonRel JsonSpec SerSpec BoundSpec BoundFacts JBoundSpec JBoundFacts JTreeSpec JTreeFacts.
Import ListNotations.
Local Open Scope list_scope.
Local Open Scope nat_scope.

(** the object at the address has been created between two states *)
Definition fresh (h h' : heap) (a : N) : Prop := ~ exists_at h a /\ exists_at h' a.
Record grown (h h' : heap) : Prop := {
  gr_kept : keeps h h';
  gr_closed : forall a t x b, fresh h h' a -> hget h' a = Some (t, x) -> refers x b -> fresh h h' b;
  gr_ranks : exists rk : N -> nat, forall a t x b, fresh h h' a -> hget h' a = Some (t, x) -> refers x b -> rk b < rk a }.
Lemma fresh_none h a : ~ fresh h h a. Proof. intros [A B]. contradiction. Qed.
Lemma grown_refl h : grown h h.
Proof.
  split; [apply keeps_refl| |exists (fun _ => 0)]; intros a t x b F; exfalso; exact (fresh_none _ _ F).
Qed.
Lemma kept_at h h' a : keeps h h' -> exists_at h a -> exists_at h' a /\ hget h' a = hget h a. Proof. intros K. apply K. Qed.
Lemma fresh_left h h1 h2 a : keeps h1 h2 -> fresh h h1 a -> fresh h h2 a.
Proof. intros K [F1 F2]. split; [exact F1|]. exact (proj1 (K a F2)). Qed.
Lemma fresh_right h h1 h2 a : keeps h h1 -> fresh h1 h2 a -> fresh h h2 a.
Proof. intros K [F1 F2]. split; [|exact F2]. intros F. apply F1. exact (proj1 (K a F)). Qed.
Lemma grown_trans h h1 h2 : grown h h1 -> grown h1 h2 -> grown h h2.
Proof.
  intros [K1 C1 [r1 R1]] [K2 C2 [r2 R2]].
  assert (X : forall a, fresh h h2 a -> fresh h h1 a /\ hget h2 a = hget h1 a \/ fresh h1 h2 a).
  { intros a [F1 F2]. destruct (exists_dec h1 a) as [E|E]; [left; split; [split; assumption|exact (proj2 (K2 a E))]|right; split; assumption]. }
  split.
  - eapply keeps_trans; eassumption.
  - intros a t x b F E R. destruct (X a F) as [[F1 E1]|F1].
    + rewrite E1 in E. eapply fresh_left; [exact K2|]. exact (C1 _ _ _ _ F1 E R).
    + eapply fresh_right; [exact K1|]. exact (C2 _ _ _ _ F1 E R).
  - exists (fun c => if exists_dec h1 c then r1 c else r2 c). intros a t x b F E R. destruct (X a F) as [[F1 E1]|F1].
    + rewrite E1 in E. pose proof (C1 _ _ _ _ F1 E R) as Fb. destruct F1 as [_ F1], Fb as [_ Fb].
      destruct (exists_dec h1 a); [|contradiction]. destruct (exists_dec h1 b); [|contradiction]. eapply R1; [split; [|exact F1]|exact E|exact R]. exact (proj1 F).
    + pose proof (C2 _ _ _ _ F1 E R) as Fb. assert (F1' := F1). destruct F1 as [F1 _], Fb as [Fb _].
      destruct (exists_dec h1 a); [contradiction|]. destruct (exists_dec h1 b); [contradiction|]. eapply R2; eassumption.
Qed.

(** a number above all ranks *)
Lemma above (rk : N -> nat) l : exists m, forall a, In a l -> rk a < m.
Proof.
  induction l as [|b l [m IH]]; [exists 0; intros a []|]. exists (S (Nat.max m (rk b))). intros a [<- | H]; [lia|]. specialize (IH a H). lia.
Qed.
Lemma grown_new h a t x0 x h2 : ~ exists_at h a -> grown (hset h a (t, x0)) h2 -> (forall b, refers x b -> fresh (hset h a (t, x0)) h2 b) ->
  grown h (hset h2 a (t, x)) /\ fresh h (hset h2 a (t, x)) a.
Proof.
  intros Hn [K C [rk R]] HR. set (h1 := hset h a (t, x0)) in *. set (h3 := hset h2 a (t, x)).
  assert (K0 : keeps h h1) by (apply keeps_new; exact Hn).
  assert (Ha1 : exists_at h1 a) by (left; reflexivity). assert (Ha2 : exists_at h2 a) by exact (proj1 (K a Ha1)).
  assert (E1 : forall b, exists_at h3 b <-> exists_at h2 b). { intros b. unfold h3. cbn. split; [intros [<- | H]; [exact Ha2|exact H]|intros H; right; exact H]. }
  assert (E0 : forall b, exists_at h1 b <-> b = a \/ exists_at h b). { intros b. unfold h1. cbn. split; (intros [H | H]; [left; symmetry; exact H|right; exact H]). }
  assert (Fa : fresh h h3 a) by (split; [exact Hn|apply E1; exact Ha2]).
  assert (F13 : forall b, fresh h1 h2 b -> fresh h h3 b).
  { intros b [F1 F2]. split; [|apply E1; exact F2]. intros H. apply F1. apply E0. right. exact H. }
  assert (Fx : forall b, fresh h h3 b -> b = a \/ b <> a /\ fresh h1 h2 b).
  { intros b [F1 F2]. destruct (N.eq_dec b a) as [E|E]; [left; exact E|right]. split; [exact E|]. split; [|apply E1; exact F2]. intros H. apply E0 in H. destruct H; contradiction. }
  assert (Na : forall b, fresh h1 h2 b -> b <> a) by (intros b [F1 _] ->; contradiction).
  split; [|exact Fa]. split.
  - intros b Hb. destruct (K0 b Hb) as [H1 H2]. destruct (K b H1) as [H3 H4]. split; [apply E1; exact H3|]. unfold h3. rewrite hget_hset_other; [congruence|].
    intros <-. contradiction.
  - intros b t' y c F E Rc. destruct (Fx b F) as [-> | [Hb F1]].
    + unfold h3 in E. rewrite hget_hset_same in E. injection E as _ <-. apply F13, HR, Rc.
    + unfold h3 in E. rewrite hget_hset_other in E by congruence. apply F13. exact (C _ _ _ _ F1 E Rc).
  - destruct (above rk (map fst h2)) as [m Hm]. exists (fun c => if N.eqb c a then m else rk c). intros b t' y c F E Rc. destruct (Fx b F) as [-> | [Hb F1]].
    + unfold h3 in E. rewrite hget_hset_same in E. injection E as _ <-. rewrite N.eqb_refl. pose proof (HR _ Rc) as Fc. destruct (N.eqb_spec c a) as [Ec|Ec]; [exfalso; exact (Na _ Fc Ec)|].
      apply Hm. exact (proj2 Fc).
    + unfold h3 in E. rewrite hget_hset_other in E by congruence. pose proof (C _ _ _ _ F1 E Rc) as Fc.
      destruct (N.eqb_spec c a) as [Ec|Ec]; [exfalso; exact (Na _ Fc Ec)|]. destruct (N.eqb_spec b a); [contradiction|]. eapply R; eassumption.
Qed.
(** such an extension keeps the object graph free of dangling pointers and cycles *)
Lemma grown_total h h' : grown h h' -> no_dangling h -> acyclic h -> no_dangling h' /\ acyclic h'.
Proof.
  intros [K C [rk R]] HN [r0 A].
  assert (X : forall a t x, hget h' a = Some (t, x) -> (exists_at h a /\ hget h a = Some (t, x)) \/ fresh h h' a).
  { intros a t x E. destruct (exists_dec h a) as [Ea|Ea]; [left; split; [exact Ea|rewrite <- (proj2 (K a Ea)); exact E]|right; split; [exact Ea|]]. eapply hget_in. exact E. }
  split.
  - intros a t x b E Rb. destruct (X _ _ _ E) as [[Ea E0]|F]; [exact (proj1 (K b (HN _ _ _ _ E0 Rb)))|exact (proj2 (C _ _ _ _ F E Rb))].
  - exists (fun c => if exists_dec h c then r0 c else rk c). intros a t x b E Rb. destruct (X _ _ _ E) as [[Ea E0]|F].
    + pose proof (HN _ _ _ _ E0 Rb) as Eb. destruct (exists_dec h a); [|contradiction]. destruct (exists_dec h b); [|contradiction]. eapply A; eassumption.
    + pose proof (C _ _ _ _ F E Rb) as [Fb _]. assert (Fa := proj1 F). destruct (exists_dec h a); [contradiction|]. destruct (exists_dec h b); [contradiction|]. eapply R; eassumption.
Qed.

(** ** loops *)
Lemma items_inv {A} (Inv : A -> heap -> Prop) (step : A -> json -> M A) js :
  (forall a j st, In j js -> Inv a (p_heap st) -> ends (step a j st) (fun a' st' => Inv a' (p_heap st')) any) ->
  forall i a st, Inv a (p_heap st) -> ends (pull_items step i js a st) (fun a' st' => Inv a' (p_heap st')) any.
Proof.
  induction js as [|j js IH]; intros Hs i a st Ha; [exact Ha|]. cbn [pull_items]. unfold bind at 1, set_index.
  eapply ends_bind; [apply Hs; [left; reflexivity|exact Ha]|]. cbn beta. intros a' s H'. apply IH; [intros; apply Hs; [right; assumption|assumption]|exact H'].
Qed.
Lemma fold_inv {A B} (Inv : A -> heap -> Prop) (step : A -> B -> M A) l :
  (forall a b st, In b l -> Inv a (p_heap st) -> ends (step a b st) (fun a' st' => Inv a' (p_heap st')) any) ->
  forall a st, Inv a (p_heap st) -> ends (fold_m step l a st) (fun a' st' => Inv a' (p_heap st')) any.
Proof.
  induction l as [|b l IH]; intros Hs a st Ha; [exact Ha|]. cbn [fold_m].
  eapply ends_bind; [apply Hs; [left; reflexivity|exact Ha]|]. cbn beta. intros a' s H'. apply IH; [intros; apply Hs; [right; assumption|assumption]|exact H'].
Qed.

Definition lrefers (l : list val) (a : N) : Prop := refers (VList l) a.
Definition orefers (l : list (fkey * val)) (a : N) : Prop := refers (VObj l) a.
Lemma lrefers_nil a : ~ lrefers [] a. Proof. intros R. inversion R; subst. contradiction. Qed.
Lemma lrefers_in l a : lrefers l a <-> exists x, In x l /\ refers x a.
Proof. split; [intros R; inversion R; subst; eauto|intros (x & I1 & R); econstructor; eassumption]. Qed.
Lemma lrefers_cons x l a : lrefers (x :: l) a <-> refers x a \/ lrefers l a.
Proof.
  rewrite !lrefers_in. split.
  - intros (y & [<- | I1] & R); [left; exact R|right; eauto].
  - intros [R | (y & I1 & R)]; [exists x; split; [left; reflexivity|exact R]|exists y; split; [right; exact I1|exact R]].
Qed.
Lemma lrefers_app l m a : lrefers (l ++ m) a <-> lrefers l a \/ lrefers m a.
Proof.
  rewrite !lrefers_in. split.
  - intros (y & I1 & R). apply in_app_or in I1. destruct I1; [left|right]; eauto.
  - intros [(y & I1 & R) | (y & I1 & R)]; exists y; (split; [apply in_or_app; tauto|exact R]).
Qed.
Lemma lrefers_perm l m a : Permutation l m -> lrefers l a -> lrefers m a.
Proof. rewrite !lrefers_in. intros P (x & I1 & R). exists x. split; [eapply Permutation_in; eassumption|exact R]. Qed.
Lemma emplace_refers G ismap ord multi t x l a : place_ok G -> lrefers (fst (emplace G ismap ord multi t x l)) a -> refers x a \/ lrefers l a.
Proof.
  intros HP. destruct (emplace_cases G ismap ord multi t x l HP) as [[_ P]|[_ [E _]]].
  - intros R. apply lrefers_cons. eapply lrefers_perm; [apply Permutation_sym; exact P|exact R].
  - rewrite E. auto.
Qed.
Lemma map_put_refers G ord kt q x l a : forall v, map_find G ord kt q l = Some v -> lrefers (map_put G ord kt q x l) a -> refers x a \/ lrefers l a.
Proof.
  induction l as [|y l IH]; intros v; cbn [map_find map_put]; [discriminate|]. destruct (same_key G ord kt y q).
  - destruct y; try discriminate. intros _ R. apply lrefers_cons in R. rewrite lrefers_cons. destruct R as [R|R]; [|tauto]. inversion R; subst; [|tauto]. right. left. constructor. assumption.
  - intros E R. apply lrefers_cons in R. rewrite lrefers_cons. destruct R as [R|R]; [tauto|]. destruct (IH _ E R); tauto.
Qed.
Lemma map_find_refers G ord kt q l a : forall v, map_find G ord kt q l = Some v -> refers v a -> lrefers l a.
Proof.
  induction l as [|y l IH]; intros v; cbn [map_find]; [discriminate|]. destruct (same_key G ord kt y q).
  - destruct y; try discriminate. intros [= ->] R. apply lrefers_cons. left. apply rf_second. exact R.
  - intros E R. apply lrefers_cons. right. eapply IH; eassumption.
Qed.
Lemma orefers_in l a : orefers l a <-> exists k x, In (k, x) l /\ refers x a.
Proof. split; [intros R; inversion R; subst; eauto|intros (k & x & I1 & R); econstructor; eassumption]. Qed.
Lemma alookup_in_f k (l : list (fkey * val)) x : alookup fkey_eqb k l = Some x -> exists k', In (k', x) l.
Proof.
  induction l as [|[k' y] l IH]; cbn [alookup]; [discriminate|]. destruct (fkey_eqb k k'); [intros [= ->]; exists k'; left; reflexivity|].
  intros E. destruct (IH E) as [k2 I2]. exists k2. right. exact I2.
Qed.
Lemma aupdate_in k x (l : list (fkey * val)) : forall k' y, In (k', y) (aupdate fkey_eqb k x l) -> y = x \/ In (k', y) l.
Proof.
  induction l as [|[k1 z] l IH]; cbn [aupdate]; intros k' y; [intros []|]. destruct (fkey_eqb k k1).
  - intros [[= <- <-] | H]; [left; reflexivity|right; right; exact H].
  - intros [[= <- <-] | H]; [right; left; reflexivity|]. destruct (IH _ _ H); [left; assumption|right; right; assumption].
Qed.
Lemma update_refers k x os a : orefers (aupdate fkey_eqb k x os) a -> refers x a \/ orefers os a.
Proof.
  rewrite !orefers_in. intros (k' & y & I1 & R). destruct (aupdate_in _ _ _ _ _ I1) as [-> | I2]; [left; exact R|right; eauto].
Qed.

Section Grow.
  Variable G : genv.
  Variable J : jenv.
  Hypothesis HA : alloc_ok G.
  Hypothesis HP : place_ok G.
  Hypothesis HD : plain_defaults G.

  (** what a value refers to afterwards is what it referred to before or has been created *)
  Definition from (P Q : N -> Prop) (h h' : heap) : Prop := (forall a, Q a -> P a \/ fresh h h' a) /\ grown h h'.
  Definition none (a : N) : Prop := False.
  Definition Gval (f : nat) : Prop := forall t old j st,
    ends (pull G J f t old j st) (fun v st' => from (refers old) (refers v) (p_heap st) (p_heap st')) any.
  Definition Gcls (f : nat) : Prop := forall c os ms st,
    ends (pull_cls G J f c os ms st) (fun fs st' => from (orefers os) (orefers fs) (p_heap st) (p_heap st')) any.

  Lemma from_refl (P Q : N -> Prop) h : (forall a, Q a -> P a) -> from P Q h h.
  Proof. intros H. split; [auto|apply grown_refl]. Qed.
  Lemma from_trans (P Q R S : N -> Prop) h h1 h2 : from P Q h h1 -> from R S h1 h2 -> (forall a, R a -> P a \/ Q a) -> from P (fun a => Q a \/ S a) h h2.
  Proof.
    intros [A1 G1] [A2 G2] HR. assert (F : forall a, P a \/ fresh h h1 a -> P a \/ fresh h h2 a) by (intros a [H|H]; [left; exact H|right; eapply fresh_left; [apply G2|exact H]]).
    split; [|eapply grown_trans; eassumption]. intros a [H|H]; [apply F, A1, H|].
    destruct (A2 a H) as [H2|H2]; [|right; eapply fresh_right; [apply G1|exact H2]]. destruct (HR a H2) as [H3|H3]; [left; exact H3|apply F, A1, H3].
  Qed.
  Lemma from_imp (P Q P' Q' : N -> Prop) h h' : from P Q h h' -> (forall a, P a -> P' a) -> (forall a, Q' a -> Q a \/ P' a) -> from P' Q' h h'.
  Proof. intros [A1 G1] H1 H2. split; [|exact G1]. intros a H. destruct (H2 a H) as [H3|H3]; [|left; exact H3]. destruct (A1 a H3) as [H4|H4]; [left; apply H1, H4|right; exact H4]. Qed.
  Lemma vinit_none t a : refers (vinit G t) a -> False. Proof. apply plain_vinit. exact HD. Qed.
  Lemma dinit_none t a : refers (dinit G t) a -> False. Proof. apply plain_dinit. exact HD. Qed.

  Lemma report_from {A} e x y (a : A) st : ends (bind (report e x y) (fun _ => ret a) st) (fun b st' => b = a /\ p_heap st' = p_heap st) any.
  Proof.
    eapply ends_bind with (Q' := fun _ s => p_heap s = p_heap st); [apply ends_report; intros s He _; split; [exact He|exact I]|]. cbn. intros _ s Hs.
    split; [reflexivity|exact Hs].
  Qed.
  Ltac norefs := let a := fresh "a" in let R := fresh "R" in intros a R; exfalso; inversion R; fail.
  Ltac leaf := match goal with
    | |- ends (stuck _) _ _ => exact I
    | |- ends (ub _) _ _ => exact I
    | |- ends (mismatch _ _ _ _) _ _ => eapply ends_imp; [apply report_from|cbn beta; intros ? ? (-> & ->); apply from_refl; auto|auto]
    | |- ends (bind (report _ _ _) (fun _ => ret _) _) _ _ => eapply ends_imp; [apply report_from|cbn beta; intros ? ? (-> & ->); apply from_refl; auto|auto]
    | |- ends (ret _ _) _ _ => cbn [ends ret]; apply from_refl; first [norefs | auto]
    end.

  Lemma tuple_from f ts : Gval f -> forall os js st,
    ends (pull_tuple (pull G J f) ts os js st) (fun xs st' => from (lrefers os) (lrefers xs) (p_heap st) (p_heap st')) any.
  Proof.
    intros IH. induction ts as [|t ts IHt]; intros os js st; destruct os as [|o os]; cbn [pull_tuple]; try exact I.
    - cbn [ends ret]. apply from_refl. auto.
    - destruct js as [|j js]; [exact I|]. eapply ends_bind; [apply IH|]. cbn beta. intros x s Hs.
      eapply ends_bind; [apply IHt|]. cbn beta. intros xs s2 Hs2. cbn [ends ret].
      assert (Hs' : from (lrefers (o :: os)) (refers x) (p_heap st) (p_heap s)).
      { eapply from_imp; [exact Hs| |auto]. intros a R. apply lrefers_cons. left. exact R. }
      eapply from_imp; [eapply from_trans; [exact Hs'|exact Hs2|]|auto|].
      + intros a R. left. apply lrefers_cons. right. exact R.
      + intros a R. apply lrefers_cons in R. left. exact R.
  Qed.

  (** elements are constructed, deserialised into and added to what there is *)
  Lemma add_from (l0 l : N -> Prop) t j f st0 st (Q : val -> N -> Prop) : Gval f ->
    from l0 l (p_heap st0) (p_heap st) -> (forall x a, Q x a -> refers x a \/ l a) ->
    ends (pull G J f t (vinit G t) j st) (fun x st' => from l0 (Q x) (p_heap st0) (p_heap st')) any.
  Proof.
    intros IH H0 HQ. eapply ends_imp; [apply IH|cbn beta; intros x s Hs|auto].
    eapply from_imp; [eapply from_trans; [exact H0|exact Hs|]|auto|].
    - intros a R. exfalso. exact (vinit_none _ _ R).
    - intros a R. destruct (HQ x a R); tauto.
  Qed.

  Lemma gval_step f : Gval f -> Gcls f -> Gval (S f).
  Proof.
    intros IH IHc t old j st. rewrite pull_S. unfold pull_body. destruct t; try exact I.
    - destruct j; leaf.
    - destruct (json_kind k).
      + destruct (is_number j); [|leaf]. apply ends_map, get_int_sizes. intros z. apply from_refl. norefs.
      + destruct (byte_kind k); [|leaf]. destruct (is_number j); [|leaf]. apply ends_map, get_int_sizes. intros z. apply from_refl. norefs.
    - destruct (get_double j); leaf.
    - destruct (get_double j); leaf.
    - destruct j; try leaf. destruct (in_range (enum_kind k) z); leaf.
    - destruct j; leaf.
    - (* seq *) destruct j; try leaf. apply ends_map.
      apply (items_inv (fun l h => from (refers old) (lrefers l) (p_heap st) h)).
      + intros a j st0 _ H0. apply ends_map. apply (add_from (refers old) (lrefers a) t j f st st0 (fun x => lrefers (a ++ [x])) IH H0).
        intros x b R. apply lrefers_app in R. rewrite lrefers_cons in R. destruct R as [R|[R|R]]; [tauto|tauto|exfalso; exact (lrefers_nil _ R)].
      + apply from_refl. intros a R. exfalso. exact (lrefers_nil _ R).
    - (* set *) destruct j; try leaf. apply ends_map.
      apply (items_inv (fun l h => from (refers old) (lrefers l) (p_heap st) h)).
      + intros a j st0 _ H0. eapply ends_bind; [apply IH|]. cbn beta. intros x s Hs. destruct (is_undef x); [exact I|].
        assert (HX : from (refers old) (fun b => lrefers a b \/ refers x b) (p_heap st) (p_heap s)).
        { eapply from_trans; [exact H0|exact Hs|]. intros b R. exfalso. exact (dinit_none _ _ R). }
        pose proof (fun b => emplace_refers G false ord multi t x a b HP) as ES. destruct (emplace G false ord multi t x a) as [l' ins]. cbn [fst] in ES.
        assert (HY : from (refers old) (lrefers l') (p_heap st) (p_heap s)).
        { eapply from_imp; [exact HX|auto|]. intros b R. destruct (ES b R); tauto. }
        destruct (multi || ins); [exact HY|].
        eapply ends_bind with (Q' := fun _ s2 => p_heap s2 = p_heap s); [apply ends_report_unchecked; intros s2 He _; split; [exact He|exact I]|].
        cbn beta. intros _ s2 H2. cbn [ends ret]. rewrite H2. exact HY.
      + apply from_refl. intros a R. exfalso. exact (lrefers_nil _ R).
    - (* map *) destruct multi; destruct t1; try exact I; destruct old as [| | | | | |olds| | | | | | |]; try exact I; destruct j; try leaf; apply ends_map;
        (apply (fold_inv (fun l h => from (lrefers olds) (lrefers l) (p_heap st) h)); [|apply from_refl; auto]).
      + intros a [n j] st0 _ H0. cbv zeta.
        assert (X : forall a j st0, from (lrefers olds) (lrefers a) (p_heap st) (p_heap st0) ->
          ends (bind (pull G J f t2 (vinit G t2) j) (fun x => ret (fst (emplace G true ord true TString (VPair (VStr (cstr n)) x) a))) st0)
          (fun a' st' => from (lrefers olds) (lrefers a') (p_heap st) (p_heap st')) any).
        { clear a j st0 H0. intros a j st0 H0. apply ends_map.
          apply (add_from (lrefers olds) (lrefers a) t2 j f st st0 (fun x => lrefers (fst (emplace G true ord true TString (VPair (VStr (cstr n)) x) a))) IH H0).
          intros x b R. apply (emplace_refers _ _ _ _ _ _ _ _ HP) in R. destruct R as [R|R]; [|tauto]. inversion R; subst; [match goal with X : refers (VStr _) _ |- _ => inversion X end|tauto]. }
        destruct j; try (apply X; exact H0). apply (fold_inv (fun l h => from (lrefers olds) (lrefers l) (p_heap st) h)); [|exact H0]. intros a' j' st1 _ H1. apply X. exact H1.
      + intros a [n j] st0 _ H0. cbv zeta. destruct (map_find _ _ _ _ a) as [v|] eqn:Ef; apply ends_map.
        * eapply ends_imp; [apply IH|cbn beta; intros x s Hs|auto]. eapply from_imp; [eapply from_trans; [exact H0|exact Hs|]|auto|].
          -- intros b R. right. eapply map_find_refers; eassumption.
          -- intros b R. destruct (map_put_refers _ _ _ _ _ _ _ _ Ef R); tauto.
        * apply (add_from (lrefers olds) (lrefers a) t2 j f st st0 (fun x => lrefers (fst (emplace G true ord false TString (VPair (VStr (cstr n)) x) a))) IH H0).
          intros x b R. apply (emplace_refers _ _ _ _ _ _ _ _ HP) in R. destruct R as [R|R]; [|tauto]. inversion R; subst; [match goal with X : refers (VStr _) _ |- _ => inversion X end|tauto].
    - (* pair *) destruct old as [| | | | | | |oa ob| | | | | |]; try exact I. destruct j; try leaf. destruct (length l =? 2); [|leaf].
      destruct l as [|j1 [|j2 l]]; try exact I. cbn [nth_error].
      eapply ends_bind; [apply IH|]. cbn beta. intros x s Hs.
      eapply ends_bind; [apply IH|]. cbn beta. intros y s2 Hs2. cbn [ends ret].
      assert (Hs' : from (refers (VPair oa ob)) (refers x) (p_heap st) (p_heap s)) by (eapply from_imp; [exact Hs|intros a R; apply rf_first; exact R|auto]).
      eapply from_imp; [eapply from_trans; [exact Hs'|exact Hs2|]|auto|].
      + intros a R. left. apply rf_second. exact R.
      + intros a R. inversion R; subst; tauto.
    - (* tuple *) destruct ts as [|t0 ts]; [exact I|]. destruct old as [| | | | | |olds| | | | | | |]; try exact I. destruct j; try leaf.
      destruct (length l =? length (t0 :: ts)); [|leaf]. apply ends_map. apply (tuple_from f _ IH).
    - (* unique *) destruct j; try leaf; apply ends_map;
        (match goal with |- ends (pull _ _ _ _ _ ?jj _) _ _ => apply (add_from (refers old) none t jj f st st (fun x => refers (VOpt (Some x))) IH); [apply from_refl; intros a []|] end;
         let x := fresh "x" in let y := fresh "y" in let R := fresh "R" in intros x y R; inversion R; tauto).
    - destruct j; try leaf; apply ends_map;
        (match goal with |- ends (pull _ _ _ _ _ ?jj _) _ _ => apply (add_from (refers old) none t jj f st st (fun x => refers (VOpt (Some x))) IH); [apply from_refl; intros a []|] end;
         let x := fresh "x" in let y := fresh "y" in let R := fresh "R" in intros x y R; inversion R; tauto).
    - (* shared *) assert (X : ends (bind (in_new G t (pull G J f t (vinit G t) j)) (fun a => ret (VShared (Some a))) st)
        (fun v st' => from (refers old) (refers v) (p_heap st) (p_heap st')) any).
      { apply ends_map. unfold in_new. cbv zeta. set (a := g_alloc G (p_heap st)). assert (Hn : ~ exists_at (p_heap st) a) by apply HA.
        set (st1 := {| p_heap := hset _ _ _; p_err := p_err st |}). specialize (IH t (vinit G t) j st1).
        destruct (pull G J f t (vinit G t) j st1) as [x s| | | |]; cbn [ends] in *; try exact I. destruct IH as [Hs Gs].
        assert (Hx : forall b, refers x b -> JTreeGrow.fresh (p_heap st1) (p_heap s) b) by (intros b R; destruct (Hs b R) as [H|H]; [exfalso; exact (vinit_none _ _ H)|exact H]).
        destruct (grown_new _ a t (vinit G t) x _ Hn Gs Hx) as [G3 F3]. cbn [p_heap]. split; [|exact G3].
        intros b R. right. inversion R; subst. exact F3. }
      destruct j; try exact X. leaf.
    - (* variant *) destruct j; try leaf. destruct (alookup bytes_eqb (list_byte_of_string "index") ms) as [ji|]; [|leaf].
      destruct (alookup bytes_eqb (list_byte_of_string "data") ms) as [jd|] eqn:Ed; [|leaf]. destruct ji; try leaf.
      destruct (in_range KU64 z); [|leaf]. destruct (if N.ltb _ _ then nth_error ts (Z.to_nat z) else None) as [t'|] eqn:En; [|leaf].
      assert (X : ends (bind (pull G J f t' (vinit G t') jd) (fun x => ret (VVar (Z.to_nat z) x)) st)
        (fun v st' => from (refers old) (refers v) (p_heap st) (p_heap st')) any).
      { apply ends_map. apply (add_from (refers old) none t' jd f st st (fun x => refers (VVar (Z.to_nat z) x)) IH); [apply from_refl; intros a []|]. let x := fresh "x" in let y := fresh "y" in let R := fresh "R" in intros x y R; inversion R; tauto. }
      destruct t'; try exact X. cbn [ends ret]. apply from_refl. intros a R. exfalso. inversion R; subst. inversion H2.
    - (* class *) destruct old as [| | | | | | | | | | | | |os]; try exact I. destruct j; try leaf. apply ends_map. apply (IHc c os ms st).
    - (* date *) eapply ends_bind with (Q' := fun _ s => p_heap s = p_heap st).
      { destruct j; try (eapply ends_bind; [apply report_from|cbn beta; intros ? ? (_ & H); exact H]). cbn. reflexivity. }
      intros s0 s Hs. cbn beta. destruct (je_dt_parse J s0); [cbn [ends ret]; rewrite Hs; apply from_refl; norefs|].
      eapply ends_imp; [apply report_from|cbn beta; intros ? ? (-> & ->); rewrite Hs; apply from_refl; auto|auto].
    - eapply ends_bind with (Q' := fun _ s => p_heap s = p_heap st).
      { destruct j; try (eapply ends_bind; [apply report_from|cbn beta; intros ? ? (_ & H); exact H]). cbn. reflexivity. }
      intros s0 s Hs. cbn beta. destruct (je_ts_parse J s0); [cbn [ends ret]; rewrite Hs; apply from_refl; norefs|].
      eapply ends_imp; [apply report_from|cbn beta; intros ? ? (-> & ->); rewrite Hs; apply from_refl; auto|auto].
    - destruct j; leaf.
    - destruct j; leaf.
  Qed.

  Lemma gcls_step f : Gval f -> Gcls f -> Gcls (S f).
  Proof.
    intros IH IHc c os ms st. rewrite pull_cls_S. unfold pull_cls_body. destruct (g_class G c) as [rc|]; [|exact I]. destruct (rc_pull rc) as [p|]; [|exact I]. cbv zeta.
    eapply ends_bind.
    { apply (fold_inv (fun l h => from (orefers os) (orefers l) (p_heap st) h)); [|apply from_refl; auto]. intros a b st0 _ H0.
      eapply ends_imp; [apply IHc|cbn beta; intros fs s Hs|auto]. eapply from_imp; [eapply from_trans; [exact H0|exact Hs|auto]|auto|]. cbn. auto. }
    cbn beta. intros os1 s1 H1.
    assert (X : forall st0, p_heap st0 = p_heap s1 -> ends (fold_m (fun os fd => pull_member (pull G J f) ms fd os) (jp_fields p) os1 st0)
      (fun fs s => from (orefers os) (orefers fs) (p_heap st) (p_heap s)) any).
    { intros st0 E0. apply (fold_inv (fun l h => from (orefers os) (orefers l) (p_heap st) h)); [|rewrite E0; exact H1].
      intros a fd s Hin H0. unfold pull_member. destruct (alookup fkey_eqb (jf_key fd) a) as [o|] eqn:Eo; [|exact I].
      destruct (alookup bytes_eqb (jf_name fd) ms) as [j|]; [|exact H0]. apply ends_map. apply ends_member.
      - intros x s2 y. auto.
      - eapply ends_imp; [apply IH|cbn beta; intros x s2 Hs|auto]. eapply from_imp; [eapply from_trans; [exact H0|exact Hs|]|auto|].
        + intros b R. right. apply orefers_in. destruct (alookup_in_f _ _ _ Eo) as [k Hk]. eauto.
        + intros b R. destruct (update_refers _ _ _ _ R); tauto. }
    destruct (jp_record p) as [n|].
    - apply ends_record; [intros x s2 y; auto|]. apply X. reflexivity.
    - apply X. reflexivity.
  Qed.
  Lemma grown_all f : Gval f /\ Gcls f.
  Proof. induction f as [|f [A B]]; [split; [intros t old j st; exact I|intros c os ms st; exact I]|]. split; [apply gval_step|apply gcls_step]; assumption. Qed.
End Grow.
