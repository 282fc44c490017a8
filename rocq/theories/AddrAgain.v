(** AddrAgain.v -- values which have been restored from binary data are the same except for addresses, so writing them again gives the same data except for IDs *)
From Coq Require Import List NArith ZArith Bool Lia.
From Verif Require Import Base BaseFacts Types TypesFacts BinModel BinSpec BinSafeSpec SerSpec AddrSpec AddrFacts.
Import ListNotations.

Lemma shfree_refers : forall v a, shfree v = true -> ~ refers v a.
Proof.
  intros v a S R. revert S. induction R; cbn [shfree]; intros S; try discriminate; auto.
  - apply IHR. rewrite forallb_forall in S. apply S. assumption.
  - apply andb_prop in S. apply IHR, S.
  - apply andb_prop in S. apply IHR, S.
  - apply IHR. rewrite forallb_forall in S. exact (S (k, x) H).
Qed.
Definition paired (ro : list (N * N)) : renaming := fun a b => In (a, b) ro.
Lemma combine_forall2 {A B} (R : A -> B -> Prop) l l' : length l = length l' -> (forall x x', In (x, x') (combine l l') -> R x x') -> Forall2 R l l'.
Proof.
  revert l'. induction l as [|x l IH]; intros [|x' l'] E H; try discriminate; constructor; [apply H; left; reflexivity|].
  apply IH; [cbn in E; congruence|]. intros y y' Hy. apply H. right; exact Hy.
Qed.
Lemma combine_in {A B} (l : list A) (l' : list B) x x' : In (x, x') (combine l l') -> In x l /\ In x' l'.
Proof. intros H. split; [eapply in_combine_l|eapply in_combine_r]; exact H. Qed.
Lemma key_lookup (fs : list (fkey * val)) k x : NoDup (map fst fs) -> In (k, x) fs -> alookup fkey_eqb k fs = Some x.
Proof.
  induction fs as [|[k0 x0] fs IH]; intros ND I0; [destruct I0|]. cbn [map] in ND. inversion ND as [|? ? Ni ND']; subst. cbn [alookup]. destruct I0 as [[= -> ->] |I0].
  - rewrite (proj2 (fkey_eqb_eq k k) eq_refl). reflexivity.
  - destruct (fkey_eqb k k0) eqn:E; [|apply IH; assumption]. apply fkey_eqb_eq in E. subst k0. destruct Ni. change k with (fst (k, x)). apply in_map. exact I0.
Qed.
Lemma members_pairwise ro (fs fs' : list (fkey * val)) : NoDup (map fst fs) -> map fst fs' = map fst fs ->
  (forall k v v', alookup fkey_eqb k fs = Some v -> alookup fkey_eqb k fs' = Some v' -> alike ro v v') -> Forall2 (pairwise ro) fs fs'.
Proof.
  intros ND E H. assert (H2 : forall k v v', In (k, v) fs -> In (k, v') fs' -> alike ro v v').
  { intros k v v' I1 I2. apply (H k); apply key_lookup; try assumption. rewrite E. exact ND. }
  clear H ND. revert fs' E H2. induction fs as [|[k v] fs IH]; intros [|[k' v'] fs'] E H2; try discriminate; constructor.
  - cbn in E. injection E as -> E. split; [reflexivity|]. apply (H2 k); left; reflexivity.
  - cbn in E. injection E as -> E. apply IH; [exact E|]. intros k0 x x' I1 I2. apply (H2 k0); right; assumption.
Qed.

Section Again.
  Variable G : genv.
  Variable C : N -> Prop.
  Hypothesis OL : ordered_layouts G C.
  Lemma ordered_nth (ts : list ty) i t : (fix all l := match l with [] => True | t :: l' => ordered_type C t /\ all l' end) ts -> nth_error ts i = Some t -> ordered_type C t.
  Proof. revert i. induction ts as [|u ts IH]; intros [|i]; cbn; try discriminate. - intros [K _] [= <-]. exact K. - intros [_ K]. exact (IH i K). Qed.

  Lemma same_alike ud H ro t v v' : same_value G ro t v v' -> has_type G ud H t v -> ordered_type C t -> alike (paired ro) v v'.
  Proof.
    induction 1; intros T O.
    - apply alike_self. intros a R. exact (shfree_refers _ _ H0 R).
    - constructor. cbn [ordered_type] in O. inversion T; subst; try discriminate. apply combine_forall2; [assumption|]. intros x x' I1. apply H2; auto. match goal with Hx : forall x, In x l -> _ |- _ => apply Hx, (combine_in _ _ _ _ I1) end.
    - destruct O as [-> O]. subst m. constructor. inversion T; subst; try discriminate. apply combine_forall2; [assumption|]. intros x x' I1. apply H2; auto. match goal with Hx : forall x, In x l -> _ |- _ => apply Hx, (combine_in _ _ _ _ I1) end.
    - destruct O as (-> & O1 & O2). subst m. constructor. inversion T; subst; try discriminate. apply combine_forall2; [assumption|]. intros x x' I1. apply H2; auto; [|split; assumption].
      destruct (combine_in _ _ _ _ I1) as [I2 _]. match goal with Hx : forall x, In x l -> exists _, _ |- _ => destruct (Hx x I2) as (k & y & ->) end. constructor; eauto.
    - destruct O as [O1 O2]. inversion T; subst; try discriminate. constructor; auto.
    - inversion T; subst; try discriminate. constructor; auto.
    - inversion T; subst; try discriminate. constructor; auto.
    - constructor. assumption.
    - inversion T; subst; try discriminate. match goal with Hn : nth_error ts i = Some ?u |- _ => assert (u = t) as -> by congruence end. constructor. apply IHsame_value; [assumption|]. eapply ordered_nth; [exact O|eassumption].
    - inversion T; subst; try discriminate. match goal with Hc : g_class G c = Some ?r |- _ => assert (r = rc) as -> by congruence end.
      destruct (OL c rc O H0) as [ND OT].
      match goal with Hm : map fst fs = map fst (rc_layout rc) |- _ => rename Hm into EK end.
      match goal with Ht : forall k t v, _ -> _ -> has_type _ _ _ t v |- _ => rename Ht into HT end.
      constructor. apply members_pairwise; [rewrite EK; exact ND|assumption|]. intros k v v' E1 E2.
      assert (IK : In k (map fst (rc_layout rc))) by (rewrite <- EK; eapply (alookup_some_key _ fkey_eqb_eq); exact E1).
      destruct (alookup_some_in _ fkey_eqb_eq _ _ IK) as [u Eu]. eapply H3; eauto.
  Qed.
  Lemma iso_alike ud H h0 h' ro : heap_typed G ud H -> (forall a t x, hget H a = Some (t, x) -> ordered_type C t) -> graph_iso G H h0 h' ro -> heaps_alike (paired ro) H h'.
  Proof.
    intros HT HO GI a a' R. destruct (gi_content _ _ _ _ _ GI a a' R) as (t & x & x' & E1 & E2 & S & _). exists t, x, x'. split; [exact E1|]. split; [exact E2|].
    eapply same_alike; [exact S|exact (HT _ _ _ E1)|exact (HO _ _ _ E1)].
  Qed.
  Lemma iso_one H h0 h' ro : graph_iso G H h0 h' ro -> one_to_one (paired ro).
  Proof.
    intros GI a b a' b' X Y. unfold paired in *. pose proof (gi_fun _ _ _ _ _ GI) as F. pose proof (gi_inj _ _ _ _ _ GI) as F2. clear GI. revert X Y F F2. induction ro as [|[p q] l IH]; [intros []|].
    cbn [map fst snd]. intros X Y F F2. inversion F as [|? ? N1 F1]; subst. inversion F2 as [|? ? N2 F3]; subst.
    assert (M : forall x y, In (x, y) l -> In x (map fst l) /\ In y (map snd l)) by (intros x y Hxy; split; [apply (in_map fst l (x, y))|apply (in_map snd l (x, y))]; exact Hxy).
    destruct X as [[= <- <-] |X], Y as [[= <- <-] |Y].
    - tauto.
    - destruct (M _ _ Y). split; intros <-; contradiction.
    - destruct (M _ _ X). split; intros ->; contradiction.
    - apply IH; assumption.
  Qed.
End Again.
