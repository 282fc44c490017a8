(** EquivExact.v -- documents which differ in members which do not matter have exactly the same effect *)
From Coq Require Import String List NArith ZArith Bool Permutation Lia.
From Verif Require Import Base BaseFacts Types TypesFacts BinModel Float JsonModel JsonRel JsonSpec EquivSpec.
Import ListNotations.
Local Open Scope list_scope.

Lemma equivalent_kind G r t j j' : equivalent G r t j j' -> j = j' \/ (exists js js', j = JArr js /\ j' = JArr js') \/ (exists ms ms', j = JObj ms /\ j' = JObj ms').
Proof.
  induction 1 as [| | |t j j' U T| | | | | | | | |]; auto; try (right; left; do 2 eexists; split; reflexivity); try (right; right; do 2 eexists; split; reflexivity).
  destruct j; try (destruct U; fail); destruct j' as [|[]| | | | |]; try discriminate T; [right; left|right; right]; do 2 eexists; split; reflexivity.
Qed.
Lemma equivalent_type G r t j j' : equivalent G r t j j' -> type_of j = type_of j'.
Proof. intros E. destruct (equivalent_kind _ _ _ _ _ E) as [-> |[(a & b & -> & ->)|(a & b & -> & ->)]]; reflexivity. Qed.

Lemma bind_ext {A B} (m m' : M A) (k k' : A -> M B) st : (forall st, m st = m' st) -> (forall a st, k a st = k' a st) -> bind m k st = bind m' k' st.
Proof. intros E F. unfold bind. rewrite E. destruct (m' st); auto. Qed.
Lemma items_ext {A} (R : json -> json -> Prop) (s : A -> json -> M A) : (forall a j j' st, R j j' -> s a j st = s a j' st) ->
  forall js js', Forall2 R js js' -> forall i a st, pull_items s i js a st = pull_items s i js' a st.
Proof. intros E. induction 1 as [|j j' js js' X F IH]; intros i a st; cbn [pull_items]; [reflexivity|]. apply bind_ext; [reflexivity|]. intros _ st1. apply bind_ext; [intros; apply E; exact X|]. intros; apply IH. Qed.
Lemma fold_ext {A B} (R : B -> B -> Prop) (s : A -> B -> M A) : (forall a x x' st, R x x' -> s a x st = s a x' st) ->
  forall l l', Forall2 R l l' -> forall a st, fold_m s l a st = fold_m s l' a st.
Proof. intros E. induction 1 as [|j j' js js' X F IH]; intros a st; cbn [fold_m]; [reflexivity|]. apply bind_ext; [intros; apply E; exact X|]. intros; apply IH. Qed.
Lemma fold_ext2 {A B} (s s' : A -> B -> M A) l : (forall a x st, In x l -> s a x st = s' a x st) -> forall a st, fold_m s l a st = fold_m s' l a st.
Proof. induction l as [|x l IH]; intros E a st; cbn [fold_m]; [reflexivity|]. apply bind_ext; [intros; apply E; left; reflexivity|]. intros b st1. apply IH. intros; apply E; right; assumption. Qed.
Lemma tuple_ext (p : ty -> val -> json -> M val) (R : ty -> json -> json -> Prop) : (forall t o j j' st, R t j j' -> p t o j st = p t o j' st) ->
  forall ts os js js', length js = length js' -> (forall i t j j', nth_error ts i = Some t -> nth_error js i = Some j -> nth_error js' i = Some j' -> R t j j') ->
  forall st, pull_tuple p ts os js st = pull_tuple p ts os js' st.
Proof.
  intros E. induction ts as [|t ts IH]; intros os js js' L H st; destruct os as [|o os]; cbn [pull_tuple]; try reflexivity.
  destruct js as [|j js], js' as [|j' js']; try discriminate L; [reflexivity|]. apply bind_ext; [intros; apply E; exact (H 0 t j j' eq_refl eq_refl eq_refl)|].
  intros x st1. apply bind_ext; [|reflexivity]. apply IH; [injection L; auto|]. intros i u k k' Hu Hk Hk'. exact (H (S i) u k k' Hu Hk Hk').
Qed.

Lemma Forall2_in_l {A B} (R : A -> B -> Prop) l l' : Forall2 R l l' -> forall x, In x l -> exists y, In y l' /\ R x y.
Proof. induction 1 as [|a b l l' X F IH]; intros x I; [destruct I|]. destruct I as [<- |I]; [exists b; split; [left; reflexivity|exact X]|]. destruct (IH x I) as (y & Y & Z). exists y. split; [right; exact Y|exact Z]. Qed.

Section Exact.
  Variable G : genv.
  Variable J : jenv.
  Notation eqv := (equivalent G false).

  Lemma same_mismatch t t' j j' old st : eqv t j j' -> mismatch t' j old st = mismatch t' j' old st.
  Proof. intros E. unfold mismatch. rewrite (equivalent_type _ _ _ _ _ E). reflexivity. Qed.

  Lemma wrong_same f t j j' old st : unsuitable t j -> type_of j = type_of j' -> pull G J f t old j st = pull G J f t old j' st.
  Proof.
    intros U T. destruct f; [reflexivity|]. rewrite !pull_S. assert (MM : forall t', mismatch t' j old = mismatch t' j' old) by (intros; unfold mismatch; rewrite T; reflexivity).
    destruct j; try (destruct U; fail); destruct j' as [|[]| | | | |]; try discriminate T; (destruct t; try (destruct U; fail); cbn [pull_body is_number get_double]; rewrite ?MM; try reflexivity).
  Qed.

  Lemma pull_exact f : (forall t j j' old st, eqv t j j' -> pull G J f t old j st = pull G J f t old j' st)
    /\ (forall c L ms ms' os st, members G rc_pull c L -> (forall fd, In fd L -> both (eqv (jf_ty fd)) (alookup bytes_eqb (jf_name fd) ms) (alookup bytes_eqb (jf_name fd) ms')) ->
         pull_cls G J f c os ms st = pull_cls G J f c os ms' st).
  Proof.
    induction f as [|f [IH IHc]]; [split; reflexivity|]. split.
    - intros t j j' old st E. rewrite !pull_S.
      destruct t; inversion E; subst; try reflexivity; try (match goal with U : unsuitable _ _ |- _ => rewrite <- !pull_S; apply wrong_same; assumption end); cbn [pull_body].
      + apply bind_ext; [|reflexivity]. intros st1. apply (items_ext (eqv t)); [|assumption]. intros l x x' st2 X. apply bind_ext; [|reflexivity]. intros; apply IH; exact X.
      + apply bind_ext; [|reflexivity]. intros st1. apply (items_ext (eqv t)); [|assumption]. intros l x x' st2 X. apply bind_ext; [|reflexivity]. intros; apply IH; exact X.
      + match goal with H : rearranged _ _ _ _ |- _ => destruct H as [-> |[X _]]; [|discriminate X] end. destruct old; try reflexivity. apply bind_ext; [|reflexivity]. intros st1.
        eapply fold_ext; [|eassumption]. intros a [n x] [n' x'] st2 [N X]. cbn [fst snd] in N, X. rewrite N.
        destruct (map_find _ _ _ _ _); apply bind_ext; try reflexivity; intros; apply IH; exact X.
      + match goal with H : rearranged _ _ _ _ |- _ => destruct H as [-> |[X _]]; [|discriminate X] end. destruct old; try reflexivity. apply bind_ext; [|reflexivity]. intros st1.
        eapply fold_ext; [|eassumption]. intros a [n x] [n' x'] st2 [N X]. cbn [fst snd] in N, X. cbv zeta. rewrite N.
        destruct X as [(js & js' & -> & -> & X)|[NA X]].
        * eapply fold_ext; [|eassumption]. intros l0 y y' st3 Y. apply bind_ext; [|reflexivity]. intros; apply IH; exact Y.
        * assert (NA' : forall js, x' <> JArr js). { intros js ->. destruct (equivalent_kind _ _ _ _ _ X) as [-> |[(p & q & -> & _)|(p & q & -> & Y)]]; [exact (NA _ eq_refl)|exact (NA _ eq_refl)|discriminate Y]. }
          assert (Q : forall st3, bind (pull G J f t2 (vinit G t2) x) (fun y => ret (fst (emplace G true ord true TString (VPair (VStr (cstr n')) y) a))) st3
             = bind (pull G J f t2 (vinit G t2) x') (fun y => ret (fst (emplace G true ord true TString (VPair (VStr (cstr n')) y) a))) st3) by (intros; apply bind_ext; [intros; apply IH; exact X|reflexivity]).
          destruct x; try (exfalso; eapply NA; reflexivity); destruct x'; try (exfalso; eapply NA'; reflexivity); apply Q.
      + destruct old; try reflexivity. replace (length js') with (length js) by assumption. destruct (Nat.eqb_spec (length js) 2) as [E2|E2]; [|reflexivity].
        destruct js as [|ja [|jb [|]]]; try discriminate E2. destruct js' as [|ja' [|jb' [|]]]; try discriminate. cbn [nth_error].
        apply bind_ext; [intros; apply IH; auto|]. intros a st1. apply bind_ext; [|reflexivity]. intros; apply IH; auto.
      + destruct ts as [|t ts]; [reflexivity|]. destruct old; try reflexivity. replace (length js') with (length js) by assumption. destruct (_ =? _)%nat; [|reflexivity].
        apply bind_ext; [|reflexivity]. intros st1. apply (tuple_ext _ eqv); [exact (fun t o j j' st X => IH t j j' o st X)|assumption|assumption].
      + assert (Q : forall st, bind (pull G J f t (vinit G t) j) (fun x => ret (VOpt (Some x))) st = bind (pull G J f t (vinit G t) j') (fun x => ret (VOpt (Some x))) st) by (intros; apply bind_ext; [intros; apply IH; assumption|reflexivity]).
        match goal with H : eqv t j j' |- _ => destruct (equivalent_kind _ _ _ _ _ H) as [-> |[(a & b & -> & ->)|(a & b & -> & ->)]] end; [reflexivity|apply Q|apply Q].
      + assert (Q : forall st, bind (pull G J f t (vinit G t) j) (fun x => ret (VOpt (Some x))) st = bind (pull G J f t (vinit G t) j') (fun x => ret (VOpt (Some x))) st) by (intros; apply bind_ext; [intros; apply IH; assumption|reflexivity]).
        match goal with H : eqv t j j' |- _ => destruct (equivalent_kind _ _ _ _ _ H) as [-> |[(a & b & -> & ->)|(a & b & -> & ->)]] end; [reflexivity|apply Q|apply Q].
      + assert (Q : forall st, bind (in_new G t (pull G J f t (vinit G t) j)) (fun x => ret (VShared (Some x))) st = bind (in_new G t (pull G J f t (vinit G t) j')) (fun x => ret (VShared (Some x))) st).
        { intros. apply bind_ext; [|reflexivity]. intros st1. unfold in_new. cbv zeta. match goal with H : eqv t j j' |- _ => rewrite (IH t j j' _ _ H) end. reflexivity. }
        match goal with H : eqv t j j' |- _ => destruct (equivalent_kind _ _ _ _ _ H) as [-> |[(a & b & -> & ->)|(a & b & -> & ->)]] end; [reflexivity|apply Q|apply Q].
      + match goal with H : both same_index _ _ |- _ => inversion H as [Ei Ei'|ji ji' Si Ei Ei']; [reflexivity|] end.
        match goal with H : both (fun _ _ => _) _ _ |- _ => rewrite <- Ei in H; inversion H as [|jd jd' X E1 E2]; [reflexivity|] end.
        destruct Si as [<- |(N1 & N2 & T)]; [|rewrite <- T; destruct ji, ji'; try discriminate N1; try discriminate N2; reflexivity].
        destruct ji; try reflexivity. destruct (in_range KU64 z); [|reflexivity]. destruct (if (Z.to_N z <? N.of_nat (length ts))%N then nth_error ts (Z.to_nat z) else None) as [t'|] eqn:En; [|reflexivity].
        assert (X' : eqv t' jd jd') by (apply (X z t' eq_refl); destruct (Z.to_N z <? N.of_nat (length ts))%N; [exact En|discriminate]).
        assert (Q : forall st, bind (pull G J f t' (vinit G t') jd) (fun x => ret (VVar (Z.to_nat z) x)) st = bind (pull G J f t' (vinit G t') jd') (fun x => ret (VVar (Z.to_nat z) x)) st) by (intros; apply bind_ext; [intros; apply IH; assumption|reflexivity]).
        destruct t'; try apply Q. reflexivity.
      + destruct old; try reflexivity. apply bind_ext; [|reflexivity]. intros st1. eapply IHc; eassumption.
    - intros c L ms ms' os st ML H. rewrite !pull_cls_S. unfold pull_cls_body. inversion ML as [c0 rc p Ls Ec Ep F E0 E1]; subst. rewrite Ec, Ep.
      apply bind_ext.
      + intros st1. apply fold_ext2. intros a b st2 Hb. destruct (Forall2_in_l _ _ _ F b Hb) as (Lb & HLb & Mb). eapply IHc; [exact Mb|]. intros fd Hfd. apply H. apply in_or_app. left. apply in_concat. exists Lb. split; assumption.
      + intros os1 st1. cbv zeta.
        assert (Q : forall st2, fold_m (fun os fd => pull_member (pull G J f) ms fd os) (jp_fields p) os1 st2 = fold_m (fun os fd => pull_member (pull G J f) ms' fd os) (jp_fields p) os1 st2).
        { intros st2. apply fold_ext2. intros a fd st3 Hfd. unfold pull_member. destruct (alookup fkey_eqb _ _); [|reflexivity].
          assert (X := H fd (in_or_app _ _ _ (or_intror Hfd))). inversion X as [|y y' Y Y1 Y2]; [reflexivity|]. apply bind_ext; [|reflexivity].
          intros st4. unfold in_member. cbv zeta. rewrite (IH _ _ _ v _ Y). reflexivity. }
        destruct (jp_record p); [|apply Q]. unfold in_record. cbv zeta. rewrite Q. reflexivity.
  Qed.
End Exact.
