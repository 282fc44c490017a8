(** SerJson.v -- serialising values of supported types to a JSON document succeeds *)
From Coq Require Import String List NArith ZArith Bool Lia.
From Verif Require Import Base BaseFacts Types TypesFacts BinModel BinTotal BinFacts BinTerm BinSpec BinSafeSpec Float FloatFacts
  JsonModel JsonRel JsonSpec JsonSafeSpec JsonSafe JsonText JsonTextSpec JsonTextTop JsonTextEnd DispatchSpec SerSpec SerFacts.
Import ListNotations.
Local Open Scope list_scope.
Local Open Scope nat_scope.

(** * the documents are proper *)
Lemma lor_bound a b k : (a < 2 ^ k -> b < 2 ^ k -> N.lor a b < 2 ^ k)%N.
Proof.
  intros A B. destruct (N.eq_dec (N.lor a b) 0) as [->|Z]; [lia|]. apply N.log2_lt_pow2; [lia|]. rewrite N.log2_lor.
  assert (Q: forall x, (x < 2 ^ k -> 0 < k \/ x = 0)%N). { intros x X. destruct (N.eq_dec k 0) as [->|]; [right; cbn in X; lia|left; lia]. }
  assert (K: (0 < k)%N). { destruct (Q a A) as [|Ea]; [assumption|]. destruct (Q b B) as [|Eb]; [assumption|]. subst. exfalso; apply Z; reflexivity. }
  assert (L: forall x, (x < 2 ^ k -> N.log2 x < k)%N).
  { intros x X. destruct (N.eq_dec x 0) as [->|]; [exact K|]. apply N.log2_lt_pow2; lia. }
  pose proof (L a A). pose proof (L b B). lia.
Qed.
Lemma widened n : (n < 2 ^ 32 -> f64_of_f32 n < 2 ^ 64)%N.
Proof.
  intros L. destruct (f32_snan n) eqn:S; [|apply f32_round_trip; assumption].
  destruct (f32_split n L) as (A & B & C & _). unfold f32_snan in S. apply andb_true_iff in S. destruct S as [S1 S2].
  apply andb_true_iff in S1. destruct S1 as [S1 S3]. unfold f64_of_f32. rewrite S1. apply negb_true_iff in S3. rewrite S3.
  set (m := f32_mant n) in *. assert (M: (m * 2 ^ 29 < 2 ^ 52)%N). { replace (2 ^ 52)%N with (2 ^ 23 * 2 ^ 29)%N by reflexivity. apply N.mul_lt_mono_pos_r; [reflexivity|exact C]. }
  assert (M2: (2 ^ 51 < 2 ^ 52)%N) by reflexivity. pose proof (lor_bound _ _ _ M M2) as Q. remember (N.lor (m * 2 ^ 29) (2 ^ 51)) as q eqn:Eq. clear Eq M M2.
  set (s := (n / 2 ^ 31)%N) in *. clearbody s. clear -A Q. change (2 ^ 64)%N with (2 ^ 63 + 2 ^ 63)%N. change (2 ^ 63)%N with (2047 * 2 ^ 52 + 2 ^ 52)%N.
  set (p := (2 ^ 52)%N) in *. clearbody p.
  assert (X: (s = 0 \/ s = 1)%N) by (clear -A; lia). destruct X as [-> | ->]; clear A; lia.
Qed.

Lemma wf_leaf j : (match j with JInt z => (- 2 ^ 63 <= z < 2 ^ 64)%Z | JDbl n => (n < 2 ^ 64)%N | JArr _ | JObj _ => False | _ => True end) -> json_wf j.
Proof.
  destruct j; intros Q; try contradiction; (split; [|exact I]); try exact I; [|exact Q].
  unfold in_range. destruct (Z.ltb_spec z 0); [left|right]; apply andb_true_iff; rewrite !Z.leb_le; cbn; lia.
Qed.
Lemma wf_arr l : Forall json_wf l -> json_wf (JArr l). Proof. intros. apply ew_arr; [exact I|assumption]. Qed.
Lemma wf_obj ms : Forall (fun x => json_wf (snd x)) ms -> json_wf (JObj ms). Proof. intros. apply ew_obj; [exact I|assumption]. Qed.
Lemma wf_arr_iff l : json_wf (JArr l) <-> Forall json_wf l.
Proof. split; [|apply wf_arr]. intros W. apply Forall_forall. intros x Hx. eapply ew_item; eauto. Qed.

Lemma small_index n i : alternatives n -> i < n -> (- 2 ^ 63 <= Z.of_nat i < 2 ^ 64)%Z.
Proof. unfold alternatives. lia. Qed.
Lemma small_alt ts i t : variants_small (TVariant ts) -> nth_error ts i = Some t -> (- 2 ^ 63 <= Z.of_nat i < 2 ^ 64)%Z /\ variants_small t.
Proof.
  intros [L A] E. split; [eapply small_index; [exact L|]; apply nth_error_Some; congruence|]. clear L. revert i A E.
  induction ts as [|u ts IH]; intros [|i] A E; try discriminate; [injection E as ->; apply A|apply (IH i); [apply A|exact E]].
Qed.
Lemma small_tuple ts i t : variants_small (TTuple ts) -> nth_error ts i = Some t -> variants_small t.
Proof. revert i. induction ts as [|u ts IH]; intros [|i] A E; try discriminate; [injection E as ->; apply A|apply (IH i); [apply A|exact E]]. Qed.
Lemma pushable_alt G ts i t : pushable G (TVariant ts) -> nth_error ts i = Some t -> t = TMono \/ pushable G t.
Proof.
  intros [_ A]. revert i A. induction ts as [|u ts IH]; intros [|i] A E; try discriminate; [injection E as ->; apply A|apply (IH i); [apply A|exact E]].
Qed.
Lemma pushable_tuple G ts i t : pushable G (TTuple ts) -> nth_error ts i = Some t -> pushable G t.
Proof.
  intros [_ A]. revert i A. induction ts as [|u ts IH]; intros [|i] A E; try discriminate; [injection E as ->; apply A|apply (IH i); [apply A|exact E]].
Qed.
Lemma in_combine_nth {A B} (l : list A) (m : list B) x y : In (x, y) (combine l m) -> exists i, nth_error l i = Some x /\ nth_error m i = Some y.
Proof.
  intros I. apply In_nth_error in I. destruct I as [i Hi]. exists i. revert i m Hi.
  induction l as [|a l IH]; intros [|i] [|b m] Hi; cbn in *; try discriminate; [inversion Hi; auto|exact (IH i m Hi)].
Qed.

Section Pushes.
  Variables (G : genv) (J : jenv) (H : heap).
  Hypothesis PO : pushers_ok G.
  Hypothesis VS : variants_small_members G.
  Hypothesis HT : heap_typed G false H.

  Definition sound {A} (Q : A -> Prop) (r : res A) : Prop := match r with ROk a => Q a | RFuel => True | _ => False end.
  Lemma sound_bind {A B} (P : A -> Prop) (Q : B -> Prop) (m : res A) (k : A -> res B) :
    sound P m -> (forall a, P a -> sound Q (k a)) -> sound Q (rbind m k).
  Proof. destruct m as [a|e| | |]; cbn; auto. Qed.
  Lemma sound_iter {A B} (p : A -> res B) (Q : B -> Prop) l : (forall x, In x l -> sound Q (p x)) -> sound (Forall Q) (push_iter p l).
  Proof.
    induction l as [|x l IH]; intros Hx; cbn [push_iter]; [constructor|].
    eapply sound_bind; [apply Hx; left; reflexivity|intros y Qy]. eapply sound_bind; [apply IH; intros z Hz; apply Hx; right; exact Hz|].
    intros ys Qs. constructor; assumption.
  Qed.
  Lemma sound_fold {A} (p : A -> list (bytes * json) -> res (list (bytes * json))) (Q : list (bytes * json) -> Prop) l :
    (forall x ms, In x l -> Q ms -> sound Q (p x ms)) -> forall ms, Q ms -> sound Q (push_fold p l ms).
  Proof.
    induction l as [|x l IH]; intros Hx ms Qm; cbn [push_fold]; [exact Qm|].
    eapply sound_bind; [apply Hx; [left; reflexivity|exact Qm]|intros m1 Q1]. apply IH; [|exact Q1]. intros y m Hy; apply Hx; right; exact Hy.
  Qed.

  Definition object (ms : list (bytes * json)) : Prop := Forall (fun x => json_wf (snd x)) ms.
  Definition members_there (c : N) (fs : list (fkey * val)) : Prop := exists rc, g_class G c = Some rc
    /\ forall k t, alookup fkey_eqb k (rc_layout rc) = Some t -> exists v, alookup fkey_eqb k fs = Some v /\ has_type G false H t v.

  Lemma push_sound f :
    (forall t v, pushable G t -> variants_small t -> has_type G false H t v -> sound json_wf (push G J H f t v))
    /\ (forall c fs ms, members_there c fs -> object ms -> sound object (push_cls G J H f c fs ms)).
  Proof.
    induction f as [|f [IH IHc]]; [split; intros; exact I|]. split.
    - intros t v Hp Hs T. rewrite push_S. destruct T; cbn [push_body]; try discriminate; try (apply wf_leaf; exact I); try (exfalso; exact Hp).
      + cbn in Hp. replace (json_kind k || byte_kind k) with true by (symmetry; apply orb_true_iff; exact Hp).
        apply wf_leaf, (range64 k). assumption.
      + apply wf_leaf, (range64 k). assumption.
      + apply wf_leaf, widened. assumption.
      + apply wf_leaf. assumption.
      + eapply sound_bind; [|intros js; apply wf_arr]. apply sound_iter. intros x Hx. apply IH; auto.
      + eapply sound_bind; [|intros js; apply wf_arr]. apply sound_iter. intros x Hx. apply IH; auto.
      + destruct Hp as [-> Hp]. destruct Hs as [_ Hs].
        destruct multi; (eapply sound_bind; [|intros ms; apply wf_obj]); (apply sound_fold; [|constructor]); intros x ms Hx Q;
        destruct (H0 x Hx) as (k & w & ->); pose proof (H1 k w Hx) as Tk; inversion Tk; subst; try discriminate;
        (eapply sound_bind; [apply IH; [exact Hp|exact Hs|eapply H2; exact Hx]|intros j Wj]).
        * apply add_multi_all; [apply wf_arr_iff|exact Wj|exact Q].
        * apply Forall_app. split; [exact Q|]. constructor; [exact Wj|constructor].
      + destruct Hp as [Pa Pb]. destruct Hs as [Sa Sb]. eapply sound_bind; [apply IH; assumption|intros ja Wa].
        eapply sound_bind; [apply IH; assumption|intros jb Wb]. apply wf_arr. constructor; [exact Wa|constructor; [exact Wb|constructor]].
      + destruct Hp as [Hp _]. apply IH; assumption.
      + destruct Hp as [Hp _]. apply IH; assumption.
      + unfold hty in H0. destruct (hget H a) as [[t' x]|] eqn:E; [|discriminate]. cbn in H0. injection H0 as ->. rewrite ty_eqb_refl.
        destruct Hp as [Hp _]. apply IH; [exact Hp|exact Hs|exact (HT _ _ _ E)].
      + rewrite H0. destruct (small_alt ts i t Hs H0) as [Ri St].
        assert (K: forall d, json_wf d -> json_wf (JObj [(list_byte_of_string "index", JInt (Z.of_nat i)); (list_byte_of_string "data", d)])).
        { intros d Wd. apply wf_obj. constructor; [apply wf_leaf; exact Ri|constructor; [exact Wd|constructor]]. }
        destruct (pushable_alt G ts i t Hp H0) as [-> | Pt].
        { cbn [rbind]. apply K. apply wf_leaf. exact I. }
        assert (Q: sound json_wf (push G J H f t x)) by (apply IH; assumption).
        eapply sound_bind; [|exact K]. destruct t; try exact Q. apply wf_leaf. exact I.
      + eapply sound_bind; [|intros ms; apply wf_obj]. apply IHc; [|constructor]. exists rc. split; [assumption|]. intros k t Ek.
        destruct (alookup_some_in fkey_eqb fkey_eqb_eq k fs) as [v Ev]. { rewrite H1. eapply alookup_some_key; [apply fkey_eqb_eq|exact Ek]. }
        exists v. split; [exact Ev|eapply H2; eassumption].
      + destruct ts as [|t0 ts]; [exfalso; apply Hp; reflexivity|]. rewrite (proj2 (Nat.eqb_eq _ _) H0).
        eapply sound_bind; [|intros js; apply wf_arr]. apply sound_iter. intros [t' x] Hx.
        destruct (in_combine_nth _ _ _ _ Hx) as (i & E1 & E2). apply IH; [eapply pushable_tuple; [exact Hp|exact E1]|eapply small_tuple; [exact Hs|exact E1]|].
        eapply H1; eassumption.
    - intros c fs ms (rc & Hc & Hm) Q. rewrite push_cls_S. unfold push_cls_body. rewrite Hc.
      eapply sound_bind.
      { apply (sound_fold _ object); [|exact Q]. intros b m Hb Qm. apply IHc; [|exact Qm]. destruct (po_bases G PO c rc b Hc Hb) as (rb & Eb & L).
        exists rb. split; [exact Eb|]. intros k t E. apply Hm, L, E. }
      intros ms1 Q1. apply sound_fold; [|exact Q1]. intros fd m Hfd Qm. destruct (Hm _ _ (po_fields G PO c rc fd Hc Hfd)) as (v & -> & T).
      eapply sound_bind; [apply IH; [exact (po_types G PO c rc fd Hc Hfd)|exact (VS c rc fd Hc Hfd)|exact T]|]. intros j Wj.
      apply Forall_app. split; [exact Qm|constructor; [exact Wj|constructor]].
  Qed.
End Pushes.

(** * termination *)
Lemma lookup_in (fs : list (fkey * val)) k x : alookup fkey_eqb k fs = Some x -> exists k', In (k', x) fs.
Proof.
  induction fs as [|[k' y] fs IH]; cbn; [discriminate|]. destruct (fkey_eqb k k'); [intros [= ->]; exists k'; left; reflexivity|].
  intros E. destruct (IH E) as [k'' I]. exists k''. right; exact I.
Qed.
Lemma all_max {A} (P : nat -> A -> Prop) (l : list A) : (forall x, In x l -> exists F, forall f, F <= f -> P f x) ->
  exists F, forall f, F <= f -> forall x, In x l -> P f x.
Proof.
  induction l as [|y l IH]; intros Hx; [exists 0; intros f _ x []|].
  destruct (Hx y (or_introl eq_refl)) as [F1 E1]. destruct (IH (fun x I => Hx x (or_intror I))) as [F2 E2].
  exists (max F1 F2). intros f L x [<-|I]; [apply E1; lia|apply E2; [lia|exact I]].
Qed.
Lemma iter_nofuel {A B} (p : A -> res B) l : (forall x, In x l -> p x <> RFuel) -> push_iter p l <> RFuel.
Proof.
  induction l as [|x l IH]; intros Hx; cbn [push_iter]; [discriminate|]. specialize (IH (fun y I => Hx y (or_intror I))). specialize (Hx x (or_introl eq_refl)).
  destruct (p x); cbn; try congruence. destruct (push_iter p l); cbn; congruence.
Qed.
Lemma fold_nofuel {A} (p : A -> list (bytes * json) -> res (list (bytes * json))) l : (forall x ms, In x l -> p x ms <> RFuel) -> forall ms, push_fold p l ms <> RFuel.
Proof.
  induction l as [|x l IH]; intros Hx ms; cbn [push_fold]; [discriminate|]. pose proof (Hx x ms (or_introl eq_refl)).
  destruct (p x ms); cbn; try congruence. apply IH. intros y m I; apply Hx; right; exact I.
Qed.
Lemma bind_nofuel {A B} (m : res A) (k : A -> res B) : m <> RFuel -> (forall a, k a <> RFuel) -> rbind m k <> RFuel.
Proof. destruct m; cbn; intros; try congruence; auto. Qed.

Section Terminates.
  Variables (G : genv) (J : jenv) (H : heap) (rk : N -> nat) (ck : N -> nat).
  Hypothesis HR : forall a t x b, hget H a = Some (t, x) -> refers x b -> rk b < rk a.
  Hypothesis HB : forall c rc b, g_class G c = Some rc -> In b (jp_bases (rc_push rc)) -> ck b < ck c.

  Definition ends (t : ty) (v : val) : Prop := exists F, forall f, F <= f -> push G J H f t v <> RFuel.
  Definition below (n : nat) (v : val) : Prop := forall a, refers v a -> rk a < n.

  Lemma cls_ends fs : (forall k t v, alookup fkey_eqb k fs = Some v -> ends t v) -> forall m c, ck c < m ->
    exists F, forall f, F <= f -> forall ms, push_cls G J H f c fs ms <> RFuel.
  Proof.
    intros E. induction m as [|m IH]; intros c Lc; [lia|]. destruct (g_class G c) as [rc|] eqn:Hc.
    2: { exists 1. intros [|f] L ms; [lia|]. rewrite push_cls_S. unfold push_cls_body. rewrite Hc. discriminate. }
    destruct (all_max (fun f b => forall ms, push_cls G J H f b fs ms <> RFuel) (jp_bases (rc_push rc))) as [F1 E1].
    { intros b Hb. apply IH. pose proof (HB c rc b Hc Hb). lia. }
    destruct (all_max (fun f fd => forall v, alookup fkey_eqb (jf_key fd) fs = Some v -> push G J H f (jf_ty fd) v <> RFuel) (jp_fields (rc_push rc))) as [F2 E2].
    { intros fd _. destruct (alookup fkey_eqb (jf_key fd) fs) as [v|] eqn:Ev; [|exists 0; discriminate].
      destruct (E _ (jf_ty fd) v Ev) as [F Q]. exists F. intros f L v' [= <-]. apply Q, L. }
    exists (S (max F1 F2)). intros [|f] L ms; [lia|]. rewrite push_cls_S. unfold push_cls_body. rewrite Hc.
    apply bind_nofuel; [apply fold_nofuel; intros b m' Hb; apply (E1 f); [lia|exact Hb]|intros ms1].
    apply fold_nofuel. intros fd m' Hfd. destruct (alookup fkey_eqb (jf_key fd) fs) as [v|] eqn:Ev; [|discriminate].
    apply bind_nofuel; [apply (E2 f ltac:(lia) fd Hfd v Ev)|discriminate].
  Qed.

  Lemma value_ends n : (forall a t x, rk a < n -> hget H a = Some (t, x) -> ends t x) ->
    forall m v, vsize v < m -> below n v -> forall t, ends t v.
  Proof.
    intros HP. induction m as [|m IH]; intros v Lv Bv t; [lia|].
    assert (Leaf: (forall p pc, push_body J H p pc t v <> RFuel) -> ends t v).
    { intros Q. exists 1. intros [|f] L; [lia|]. rewrite push_S. apply Q. }
    assert (It: forall l t', v = VList l -> exists F, forall f, F <= f -> push_iter (push G J H f t') l <> RFuel).
    { intros l t' ->. destruct (all_max (fun f x => push G J H f t' x <> RFuel) l) as [F E].
      - intros x Hx. apply IH; [cbn in Lv; pose proof (vsize_in l x Hx); lia|]. intros a Ra. apply Bv. eapply rf_item; eassumption.
      - exists F. intros f L. apply iter_nofuel. intros x Hx. apply E; assumption. }
    destruct t; destruct v as [ | b | z | n0 | n0 | s | l | x y | [x|] | [a|] | i x | | | fs ]; try (apply Leaf; intros p pc; cbn; congruence).
    all: try (apply Leaf; intros p pc; cbn; destruct x; congruence).
    all: try match goal with |- ends (TSeq ?u) (VList ?l) => destruct (It l u eq_refl) as [F E]; exists (S F); intros [|f] L; [lia|]; rewrite push_S; cbn [push_body]; apply bind_nofuel; [apply E; lia|discriminate]
      | |- ends (TSet _ _ ?u) (VList ?l) => destruct (It l u eq_refl) as [F E]; exists (S F); intros [|f] L; [lia|]; rewrite push_S; cbn [push_body]; apply bind_nofuel; [apply E; lia|discriminate] end.
    all: try match goal with |- ends (?k ?u) (VOpt (Some ?x)) => 
      destruct (IH x ltac:(cbn in Lv; lia) ltac:(intros a Ra; apply Bv; constructor; exact Ra) u) as [F E]; exists (S F); intros [|f] L; [lia|]; rewrite push_S; cbn [push_body]; apply E; lia end.
    all: try match goal with |- ends (TTuple ?ts) ?w => match w with VList _ => fail 1 | _ => destruct ts; apply Leaf; intros p pc; discriminate end
      | |- ends (TMap _ ?mu ?u _) ?w => match w with VList _ => fail 1 | _ => destruct mu, u; apply Leaf; intros p pc; discriminate end end.
    - apply Leaf; intros p pc; cbn. destruct (_ || _); congruence.
    - destruct (all_max (fun f x => forall k w, x = VPair k w -> push G J H f t2 w <> RFuel) l) as [F E].
      { intros x Hx. destruct x as [ | | | | | | | k w | | | | | | ]; try (exists 0; discriminate).
        destruct (IH w) with (t := t2) as [F E].
        - cbn in Lv. pose proof (vsize_in l _ Hx) as Q. cbn in Q. lia.
        - intros a Ra. apply Bv. eapply rf_item; [exact Hx|]. apply rf_second; exact Ra.
        - exists F. intros f L k' w' [= <- <-]. apply E, L. }
      exists (S F). intros [|f] L; [lia|]. rewrite push_S.
      destruct t1; try (destruct multi; discriminate). 
      destruct multi; cbn [push_body]; (apply bind_nofuel; [|discriminate]); apply fold_nofuel; intros x ms Hx; destruct x as [ | | | | | | | k w | | | | | | ]; try discriminate; destruct k; try discriminate;
      (apply bind_nofuel; [apply (E f ltac:(lia) _ Hx _ _ eq_refl)|discriminate]).
    - destruct (IH x ltac:(cbn in Lv; lia) ltac:(intros a Ra; apply Bv; apply rf_first; exact Ra) t1) as [F1 E1].
      destruct (IH y ltac:(cbn in Lv; lia) ltac:(intros a Ra; apply Bv; apply rf_second; exact Ra) t2) as [F2 E2].
      exists (S (max F1 F2)). intros [|f] L; [lia|]. rewrite push_S. cbn [push_body].
      apply bind_nofuel; [apply E1; lia|intros ja]. apply bind_nofuel; [apply E2; lia|discriminate].
    - destruct ts as [|t0 ts]; [apply Leaf; intros p pc; discriminate|].
      destruct (all_max (fun f tx => push G J H f (fst tx) (snd tx) <> RFuel) (combine (t0 :: ts) l)) as [F E].
      { intros [t' x] Hx. apply in_combine_r in Hx. apply (IH x); [cbn in Lv; pose proof (vsize_in l x Hx); lia|]. intros a Ra. apply Bv. eapply rf_item; eassumption. }
      exists (S F). intros [|f] L; [lia|]. rewrite push_S. cbn [push_body]. destruct (_ =? _)%nat; [|discriminate].
      apply bind_nofuel; [|discriminate]. apply iter_nofuel. intros [t' x] Hx. apply (E f ltac:(lia) _ Hx).
    - destruct (hget H a) as [[t' x]|] eqn:E.
      + destruct (ty_eqb t t') eqn:Et.
        * apply ty_eqb_eq in Et. subst t'. destruct (HP a t x (Bv a (rf_shared a)) E) as [F Q]. exists (S F). intros [|f] L; [lia|].
          rewrite push_S. cbn [push_body]. rewrite E, ty_eqb_refl. apply Q. lia.
        * apply Leaf; intros p pc; cbn [push_body]. rewrite E, Et. discriminate.
      + apply Leaf; intros p pc; cbn [push_body]. rewrite E. discriminate.
    - destruct (nth_error ts i) as [t'|] eqn:Ei.
      2: { apply Leaf; intros p pc; cbn [push_body]. rewrite Ei. discriminate. }
      destruct (IH x ltac:(cbn in Lv; lia) ltac:(intros a Ra; apply Bv; constructor; exact Ra) t') as [F E]. exists (S F). intros [|f] L; [lia|].
      rewrite push_S. cbn [push_body]. rewrite Ei. apply bind_nofuel; [|discriminate]. specialize (E f ltac:(lia)). destruct t'; exact E || discriminate.
    - destruct (cls_ends fs) with (m := S (ck c)) (c := c) as [F E]; [|lia|].
      { intros k t v Ev. destruct (lookup_in fs k v Ev) as [k' I]. apply IH; [cbn in Lv; pose proof (vsize_member fs k v Ev); lia|].
        intros a Ra. apply Bv. eapply rf_member; eassumption. }
      exists (S F). intros [|f] L; [lia|]. rewrite push_S. cbn [push_body]. apply bind_nofuel; [apply E; lia|discriminate].
  Qed.

  Lemma object_ends n : forall a t x, rk a < n -> hget H a = Some (t, x) -> ends t x.
  Proof.
    induction n as [|n IH]; intros a t x L E; [lia|]. eapply (value_ends n IH); [apply Nat.lt_succ_diag_r|].
    intros b Rb. pose proof (HR a t x b E Rb). lia.
  Qed.

  Lemma refers_bounded v : exists n, below n v.
  Proof.
    assert (Q: forall m v, vsize v < m -> exists n, below n v).
    { induction m as [|m IH]; intros w L; [lia|].
      destruct w as [ | b | z | n0 | n0 | s | l | x y | [x|] | [a|] | i x | | | fs ]; try (exists 0; intros a Ra; inversion Ra; fail).
      - destruct (all_max (fun n x => below n x) l) as [n E].
        { intros x Hx. destruct (IH x) as [n E]; [cbn in L; pose proof (vsize_in l x Hx); lia|]. exists n. intros f Lf a Ra. specialize (E a Ra). lia. }
        exists n. intros a Ra. inversion Ra; subst. eapply E; [apply le_n|eassumption|assumption].
      - destruct (IH x) as [n1 E1]; [cbn in L; lia|]. destruct (IH y) as [n2 E2]; [cbn in L; lia|]. exists (max n1 n2).
        intros a Ra. inversion Ra; subst; [pose proof (E1 a ltac:(assumption))|pose proof (E2 a ltac:(assumption))]; lia.
      - destruct (IH x) as [n E]; [cbn in L; lia|]. exists n. intros a Ra. inversion Ra; subst. apply E; assumption.
      - exists (S (rk a)). intros b Rb. inversion Rb; subst. lia.
      - destruct (IH x) as [n E]; [cbn in L; lia|]. exists n. intros a Ra. inversion Ra; subst. apply E; assumption.
      - destruct (all_max (fun n (kx : fkey * val) => below n (snd kx)) fs) as [n E].
        { intros [k x] Hx. destruct (IH x) as [n E].
          - cbn in L. assert (vsize x <= fold_right (fun kv n => vsize (snd kv) + n) 0 fs); [|lia]. clear -Hx. induction fs as [|y fs IH]; [destruct Hx|].
            destruct Hx as [->|Hx]; cbn; [lia|]. specialize (IH Hx). lia.
          - exists n. intros f Lf a Ra. specialize (E a Ra). lia. }
        exists n. intros a Ra. inversion Ra; subst. apply (E n (le_n _) (k, x)); assumption. }
    apply (Q (S (vsize v))). lia.
  Qed.

  Lemma push_ends t v : ends t v.
  Proof.
    destruct (refers_bounded v) as [n B]. apply (value_ends n (object_ends n) (S (vsize v))); [lia|exact B].
  Qed.
End Terminates.

Lemma push_terminates G J H : pushers_ok G -> acyclic H -> forall t v, exists F, forall f, F <= f -> push G J H f t v <> RFuel.
Proof. intros PO [rk HR] t v. destruct (po_acyclic G PO) as [ck HB]. exact (push_ends G J H rk ck HR HB t v). Qed.

Lemma push_succeeds G J H : pushers_ok G -> variants_small_members G -> heap_typed G false H -> acyclic H ->
  forall t v, pushable G t -> variants_small t -> has_type G false H t v ->
  exists F j, json_wf j /\ forall fuel, F <= fuel -> push G J H fuel t v = ROk j.
Proof.
  intros PO VS HT AC t v Hp Hs T. destruct (push_terminates G J H PO AC t v) as [F Q].
  pose proof (proj1 (push_sound G J H PO VS HT F) t v Hp Hs T) as S. specialize (Q F (le_n F)).
  destruct (push G J H F t v) as [j|e| | |] eqn:E; cbn in S; try contradiction; try congruence.
  exists F, j. split; [exact S|]. intros fuel L. eapply push_more; [exact L|exact E|discriminate].
Qed.
