(** VisitFacts.v -- serialising to JSON ends exactly if no cycle of shared objects is visited (property C77) *)
From Coq Require Import String List NArith ZArith Bool Lia Arith Relations.
From Verif Require Import Base BaseFacts Types TypesFacts BinModel BinTotal BinFacts BinTerm BinSpec BinSafeSpec
  JsonModel JsonRel JsonSpec JsonSafeSpec DispatchSpec SerSpec SerFacts SerJson VisitSpec.
Import ListNotations.
Local Open Scope list_scope.
Local Open Scope nat_scope.

(** * what is visited has been serialised *)
Section Visited.
  Variables (G : genv) (J : jenv) (H : heap).

  Lemma iter_each {A B} (p : A -> res B) l js x : push_iter p l = ROk js -> In x l -> exists j, p x = ROk j.
  Proof.
    revert js. induction l as [|y l IH]; intros js E I; [destruct I|]. cbn [push_iter] in E.
    destruct (p y) as [j| | | |] eqn:Ey; cbn in E; try discriminate.
    destruct (push_iter p l) as [js'| | | |] eqn:El; cbn in E; try discriminate.
    destruct I as [-> | I]; [exists j; exact Ey|exact (IH js' eq_refl I)].
  Qed.
  Lemma fold_each {A} (p : A -> list (bytes * json) -> res (list (bytes * json))) l x : forall ms ms', push_fold p l ms = ROk ms' -> In x l ->
    exists m m', p x m = ROk m'.
  Proof.
    induction l as [|y l IH]; intros ms ms' E I; [destruct I|]. cbn [push_fold] in E.
    destruct (p y ms) as [m| | | |] eqn:Ey; cbn in E; try discriminate.
    destruct I as [-> | I]; [exists ms, m; exact Ey|exact (IH m ms' E I)].
  Qed.
  Lemma in_combine_of {A B} (l : list A) (m : list B) i x y : nth_error l i = Some x -> nth_error m i = Some y -> In (x, y) (combine l m).
  Proof.
    revert i m. induction l as [|a l IH]; intros [|i] [|b m] E F; cbn in *; try discriminate.
    - injection E as ->. injection F as ->. left; reflexivity.
    - right. exact (IH i m E F).
  Qed.

  Lemma base_pushed c d : pushed_base G c d -> forall f fs ms ms', push_cls G J H f c fs ms = ROk ms' ->
    exists f' m m', f' <= f /\ push_cls G J H f' d fs m = ROk m'.
  Proof.
    induction 1 as [c|c rc b d Hc Hb P IH]; intros f fs ms ms' E; [exists f, ms, ms'; auto|].
    destruct f as [|f]; [discriminate|]. rewrite push_cls_S in E. unfold push_cls_body in E. rewrite Hc in E.
    destruct (push_fold (fun b ms => push_cls G J H f b fs ms) (jp_bases (rc_push rc)) ms) as [m1| | | |] eqn:E1; cbn in E; try discriminate.
    destruct (fold_each _ _ b _ _ E1 Hb) as (m & m' & Eb). destruct (IH _ _ _ _ Eb) as (f' & n & n' & L & Q). exists f', n, n'. split; [lia|exact Q].
  Qed.

  Lemma points_pushed t v a : points G t v a -> forall f j, push G J H f t v = ROk j ->
    exists t' x f' j', hget H a = Some (t', x) /\ f' < f /\ push G J H f' t' x = ROk j'.
  Proof.
    assert (K: forall t x a f n, f < n -> (forall f j, push G J H f t x = ROk j ->
        exists t' x f' j', hget H a = Some (t', x) /\ f' < f /\ push G J H f' t' x = ROk j') -> (exists j, push G J H f t x = ROk j) ->
        exists t' x f' j', hget H a = Some (t', x) /\ f' < n /\ push G J H f' t' x = ROk j').
    { intros u w b f n L IH (j & E). destruct (IH f j E) as (t' & x & f' & j' & Ha & L' & Q). exists t', x, f', j'. repeat split; [exact Ha|lia|exact Q]. }
    induction 1 as [t a|t l x a I P IH|o m t l x a I P IH|o m kt vt l k x a I P IH|ts l i t x a E1 E2 P IH|ta tb x y a P IH|ta tb x y a P IH|t x a P IH|t x a P IH
      |ts i t x a E1 P IH|c d rd fd fs x a B Hd Hf Hx P IH]; intros [|f] j E; try discriminate; rewrite push_S in E; cbn [push_body] in E.
    - destruct (hget H a) as [[t' x]|] eqn:Ea; [|discriminate]. destruct (ty_eqb t t') eqn:Et; [|discriminate]. apply ty_eqb_eq in Et. subst t'.
      exists t, x, f, j. auto.
    - destruct (push_iter (push G J H f t) l) as [js| | | |] eqn:El; cbn in E; try discriminate.
      apply (K t x a f (S f) (Nat.lt_succ_diag_r f) IH). exact (iter_each _ _ _ _ El I).
    - destruct (push_iter (push G J H f t) l) as [js| | | |] eqn:El; cbn in E; try discriminate.
      apply (K t x a f (S f) (Nat.lt_succ_diag_r f) IH). exact (iter_each _ _ _ _ El I).
    - apply (K vt x a f (S f) (Nat.lt_succ_diag_r f) IH).
      destruct m, kt; try discriminate;
        (match goal with E : rbind (push_fold ?p l []) _ = _ |- _ => destruct (push_fold p l []) as [ms| | | |] eqn:El; cbn in E; try discriminate;
          destruct (fold_each _ _ _ _ _ El I) as (m0 & m1 & Q) end; cbn in Q; destruct k; try discriminate;
        destruct (push G J H f vt x) as [jx| | | |]; cbn in Q; try discriminate; eauto).
    - destruct ts as [|t0 ts]; [discriminate|]. destruct (length l =? length (t0 :: ts)) eqn:EL; [|discriminate].
      match goal with E : rbind (push_iter ?p ?q) _ = _ |- _ => destruct (push_iter p q) as [js| | | |] eqn:El; cbn in E; try discriminate end.
      apply (K t x a f (S f) (Nat.lt_succ_diag_r f) IH). destruct (iter_each _ _ _ _ El (in_combine_of _ _ i t x E1 E2)) as (jx & Q). exists jx. exact Q.
    - destruct (push G J H f ta x) as [ja| | | |] eqn:Ea; cbn in E; try discriminate. apply (K ta x a f (S f) (Nat.lt_succ_diag_r f) IH). eauto.
    - destruct (push G J H f ta x) as [ja| | | |] eqn:Ea; cbn in E; try discriminate.
      destruct (push G J H f tb y) as [jb| | | |] eqn:Eb; cbn in E; try discriminate. apply (K tb y a f (S f) (Nat.lt_succ_diag_r f) IH). eauto.
    - apply (K t x a f (S f) (Nat.lt_succ_diag_r f) IH). eauto.
    - apply (K t x a f (S f) (Nat.lt_succ_diag_r f) IH). eauto.
    - rewrite E1 in E. apply (K t x a f (S f) (Nat.lt_succ_diag_r f) IH).
      destruct t; try (match goal with E : rbind ?m _ = _ |- _ => destruct m as [jx| | | |] eqn:Ex; cbn in E; try discriminate end; eauto; fail).
      inversion P.
    - destruct (push_cls G J H f c fs []) as [ms| | | |] eqn:Ec; cbn in E; try discriminate.
      destruct (base_pushed c d B f fs [] ms Ec) as (f' & m & m' & L & Q). destruct f' as [|f']; [discriminate|].
      rewrite push_cls_S in Q. unfold push_cls_body in Q. rewrite Hd in Q.
      match goal with E : rbind (push_fold ?p ?l m) _ = _ |- _ => destruct (push_fold p l m) as [m1| | | |] eqn:E1; cbn in E; try discriminate end.
      destruct (fold_each _ _ fd _ _ Q Hf) as (n & n' & R). cbn in R. rewrite Hx in R.
      apply (K (jf_ty fd) x a f' (S f) ltac:(lia) IH). destruct (push G J H f' (jf_ty fd) x) as [jx| | | |]; cbn in R; try discriminate; eauto.
  Qed.

  Lemma leads_pushed a b : leads_to G H a b -> forall t x f j, hget H a = Some (t, x) -> push G J H f t x = ROk j ->
    exists t' x' f' j', hget H b = Some (t', x') /\ f' < f /\ push G J H f' t' x' = ROk j'.
  Proof.
    induction 1 as [a b (t0 & x0 & Ea & P)|a b c Q1 IH1 Q2 IH2]; intros t x f j E Ep.
    - rewrite Ea in E. injection E as -> ->. exact (points_pushed t x b P f j Ep).
    - destruct (IH1 t x f j E Ep) as (t1 & x1 & f1 & j1 & Eb & L1 & E1). destruct (IH2 t1 x1 f1 j1 Eb E1) as (t2 & x2 & f2 & j2 & Ec & L2 & E2).
      exists t2, x2, f2, j2. repeat split; [exact Ec|lia|exact E2].
  Qed.
  Lemma visited_pushed t v a : visits_object G H t v a -> forall f j, push G J H f t v = ROk j ->
    exists t' x f' j', hget H a = Some (t', x) /\ f' < f /\ push G J H f' t' x = ROk j'.
  Proof.
    intros [P|(b & P & Q)] f j E; [exact (points_pushed t v a P f j E)|].
    destruct (points_pushed t v b P f j E) as (t1 & x1 & f1 & j1 & Eb & L1 & E1). destruct (leads_pushed b a Q t1 x1 f1 j1 Eb E1) as (t2 & x2 & f2 & j2 & Ec & L2 & E2).
    exists t2, x2, f2, j2. repeat split; [exact Ec|lia|exact E2].
  Qed.
  Lemma cycle_never a : leads_to G H a a -> forall f t x j, hget H a = Some (t, x) -> push G J H f t x <> ROk j.
  Proof.
    intros C. induction f as [f IH] using lt_wf_ind. intros t x j Ea E. destruct (leads_pushed a a C t x f j Ea E) as (t' & x' & f' & j' & Ea' & L & E').
    exact (IH f' L t' x' j' Ea' E').
  Qed.
  Lemma returned_no_cycle t v f j : push G J H f t v = ROk j -> no_cycle G H t v.
  Proof.
    intros E a V C. destruct (visited_pushed t v a V f j E) as (t' & x & f' & j' & Ea & _ & E'). exact (cycle_never a C f' t' x j' Ea E').
  Qed.
End Visited.

(** * without cycles it ends *)
Section Ends.
  Variables (G : genv) (J : jenv) (H : heap) (ck : N -> nat).
  Hypothesis HB : forall c rc b, g_class G c = Some rc -> In b (jp_bases (rc_push rc)) -> ck b < ck c.
  Notation ends := (ends G J H).

  Lemma cls_ends2 fs : forall m c, ck c < m ->
    (forall d rd fd v, pushed_base G c d -> g_class G d = Some rd -> In fd (jp_fields (rc_push rd)) -> alookup fkey_eqb (jf_key fd) fs = Some v -> ends (jf_ty fd) v) ->
    exists F, forall f, F <= f -> forall ms, push_cls G J H f c fs ms <> RFuel.
  Proof.
    induction m as [|m IH]; intros c Lc E; [lia|]. destruct (g_class G c) as [rc|] eqn:Hc.
    2: { exists 1. intros [|f] L ms; [lia|]. rewrite push_cls_S. unfold push_cls_body. rewrite Hc. discriminate. }
    destruct (all_max (fun f b => forall ms, push_cls G J H f b fs ms <> RFuel) (jp_bases (rc_push rc))) as [F1 E1].
    { intros b Hb. apply IH; [pose proof (HB c rc b Hc Hb); lia|]. intros d rd fd v P. apply (E d rd fd v). eapply pb_base; eassumption. }
    destruct (all_max (fun f fd => forall v, alookup fkey_eqb (jf_key fd) fs = Some v -> push G J H f (jf_ty fd) v <> RFuel) (jp_fields (rc_push rc))) as [F2 E2].
    { intros fd Hfd. destruct (alookup fkey_eqb (jf_key fd) fs) as [v|] eqn:Ev; [|exists 0; discriminate].
      destruct (E c rc fd v (pb_self G c) Hc Hfd Ev) as [F Q]. exists F. intros f L v' [= <-]. apply Q, L. }
    exists (S (max F1 F2)). intros [|f] L ms; [lia|]. rewrite push_cls_S. unfold push_cls_body. rewrite Hc.
    apply bind_nofuel; [apply fold_nofuel; intros b m' Hb; apply (E1 f); [lia|exact Hb]|intros ms1].
    apply fold_nofuel. intros fd m' Hfd. destruct (alookup fkey_eqb (jf_key fd) fs) as [v|] eqn:Ev; [|discriminate].
    apply bind_nofuel; [apply (E2 f ltac:(lia) fd Hfd v Ev)|discriminate].
  Qed.

  Lemma pointers_end : forall m v, vsize v < m -> forall t,
    (forall a t' x, points G t v a -> hget H a = Some (t', x) -> ends t' x) -> ends t v.
  Proof.
    induction m as [|m IH]; intros v Lv t HP; [lia|].
    assert (Leaf: (forall p pc, push_body J H p pc t v <> RFuel) -> ends t v).
    { intros Q. exists 1. intros [|f] L; [lia|]. rewrite push_S. apply Q. }
    assert (Sub: forall t' x, vsize x < vsize v -> (forall a, points G t' x a -> points G t v a) -> ends t' x).
    { intros t' x L P. apply (IH x ltac:(lia)). intros a u y Py. apply (HP a u y), P, Py. }
    assert (It: forall l t', v = VList l -> (forall x a, In x l -> points G t' x a -> points G t v a) -> exists F, forall f, F <= f -> push_iter (push G J H f t') l <> RFuel).
    { intros l t' -> P. destruct (all_max (fun f x => push G J H f t' x <> RFuel) l) as [F E].
      - intros x Hx. apply Sub; [pose proof (vsize_in l x Hx); change (vsize (VList l)) with (S (fold_right (fun x n => vsize x + n) 0 l)); lia|]. intros a. apply P, Hx.
      - exists F. intros f L. apply iter_nofuel. intros x Hx. apply E; assumption. }
    destruct t; destruct v as [ | b | z | n0 | n0 | s | l | x y | [x|] | [a|] | i x | | | fs ]; try (apply Leaf; intros p pc; cbn; congruence).
    all: try (apply Leaf; intros p pc; cbn; destruct x; congruence).
    all: try match goal with |- ends (TSeq ?u) (VList ?l) => destruct (It l u eq_refl ltac:(intros; eapply pt_item; eassumption)) as [F E]; exists (S F); intros [|f] L; [lia|]; rewrite push_S; cbn [push_body]; apply bind_nofuel; [apply E; lia|discriminate]
      | |- ends (TSet _ _ ?u) (VList ?l) => destruct (It l u eq_refl ltac:(intros; eapply pt_set; eassumption)) as [F E]; exists (S F); intros [|f] L; [lia|]; rewrite push_S; cbn [push_body]; apply bind_nofuel; [apply E; lia|discriminate] end.
    all: try match goal with |- ends (?k ?u) (VOpt (Some ?x)) => 
      destruct (Sub u x ltac:(cbn; lia) ltac:(intros; constructor; assumption)) as [F E]; exists (S F); intros [|f] L; [lia|]; rewrite push_S; cbn [push_body]; apply E; lia end.
    all: try match goal with |- ends (TTuple ?ts) ?w => match w with VList _ => fail 1 | _ => destruct ts; apply Leaf; intros p pc; discriminate end
      | |- ends (TMap _ ?mu ?u _) ?w => match w with VList _ => fail 1 | _ => destruct mu, u; apply Leaf; intros p pc; discriminate end end.
    - apply Leaf; intros p pc; cbn. destruct (_ || _); congruence.
    - destruct (all_max (fun f x => forall k w, x = VPair k w -> push G J H f t2 w <> RFuel) l) as [F E].
      { intros x Hx. destruct x as [ | | | | | | | k w | | | | | | ]; try (exists 0; discriminate).
        destruct (Sub t2 w) as [F E].
        - pose proof (vsize_in l _ Hx) as Q. change (vsize (VPair k w)) with (S (vsize k + vsize w)) in Q. change (vsize (VList l)) with (S (fold_right (fun x n => vsize x + n) 0 l)). lia.
        - intros a Pa. eapply pt_map; eassumption.
        - exists F. intros f L k' w' [= <- <-]. apply E, L. }
      exists (S F). intros [|f] L; [lia|]. rewrite push_S.
      destruct t1; try (destruct multi; discriminate). 
      destruct multi; cbn [push_body]; (apply bind_nofuel; [|discriminate]); apply fold_nofuel; intros x ms Hx; destruct x as [ | | | | | | | k w | | | | | | ]; try discriminate; destruct k; try discriminate;
      (apply bind_nofuel; [apply (E f ltac:(lia) _ Hx _ _ eq_refl)|discriminate]).
    - destruct (Sub t1 x ltac:(cbn; lia) ltac:(intros; apply pt_first; assumption)) as [F1 E1].
      destruct (Sub t2 y ltac:(cbn; lia) ltac:(intros; apply pt_second; assumption)) as [F2 E2].
      exists (S (max F1 F2)). intros [|f] L; [lia|]. rewrite push_S. cbn [push_body].
      apply bind_nofuel; [apply E1; lia|intros ja]. apply bind_nofuel; [apply E2; lia|discriminate].
    - destruct ts as [|t0 ts]; [apply Leaf; intros p pc; discriminate|].
      destruct (all_max (fun f tx => push G J H f (fst tx) (snd tx) <> RFuel) (combine (t0 :: ts) l)) as [F E].
      { intros [t' x] Hx. destruct (in_combine_nth _ _ _ _ Hx) as (i & E1 & E2). apply in_combine_r in Hx.
        apply (Sub t' x); [pose proof (vsize_in l x Hx); change (vsize (VList l)) with (S (fold_right (fun x n => vsize x + n) 0 l)); lia|]. intros a Pa. eapply pt_element; eassumption. }
      exists (S F). intros [|f] L; [lia|]. rewrite push_S. cbn [push_body]. destruct (_ =? _)%nat; [|discriminate].
      apply bind_nofuel; [|discriminate]. apply iter_nofuel. intros [t' x] Hx. apply (E f ltac:(lia) _ Hx).
    - destruct (hget H a) as [[t' x]|] eqn:E.
      + destruct (ty_eqb t t') eqn:Et.
        * apply ty_eqb_eq in Et. subst t'. destruct (HP a t x (pt_shared G t a) E) as [F Q]. exists (S F). intros [|f] L; [lia|].
          rewrite push_S. cbn [push_body]. rewrite E, ty_eqb_refl. apply Q. lia.
        * apply Leaf; intros p pc; cbn [push_body]. rewrite E, Et. discriminate.
      + apply Leaf; intros p pc; cbn [push_body]. rewrite E. discriminate.
    - destruct (nth_error ts i) as [t'|] eqn:Ei.
      2: { apply Leaf; intros p pc; cbn [push_body]. rewrite Ei. discriminate. }
      destruct (Sub t' x ltac:(cbn; lia) ltac:(intros a Pa; eapply pt_alternative; eassumption)) as [F E]. exists (S F). intros [|f] L; [lia|].
      rewrite push_S. cbn [push_body]. rewrite Ei. apply bind_nofuel; [|discriminate]. specialize (E f ltac:(lia)). destruct t'; exact E || discriminate.
    - destruct (cls_ends2 fs (S (ck c)) c) as [F E]; [lia| |].
      { intros d rd fd w P Hd Hf Ev. apply Sub.
        - pose proof (vsize_member fs _ w Ev). change (vsize (VObj fs)) with (S (fold_right (fun (kv : fkey * val) n => vsize (snd kv) + n) 0 fs)). lia.
        - intros a Pa. eapply pt_member; eassumption. }
      exists (S F). intros [|f] L; [lia|]. rewrite push_S. cbn [push_body]. apply bind_nofuel; [apply E; lia|discriminate].
  Qed.

  (** following pointers, an object is met which is not among those already visited *)
  Lemma path_ends : forall n seen, NoDup seen -> incl seen (map fst H) -> length (map fst H) <= n + length seen ->
    forall t v, no_cycle G H t v -> (forall s a, In s seen -> points G t v a -> leads_to G H s a) -> ends t v.
  Proof.
    induction n as [|n IH]; intros seen ND IN L t v NC S.
    - eapply pointers_end; [apply Nat.lt_succ_diag_r|]. intros a t' x P E. exfalso.
      assert (I: In a seen). { apply (NoDup_length_incl ND L IN). eapply alookup_some_key; [apply N.eqb_eq|exact E]. }
      exact (NC a (or_introl P) (S a a I P)).
    - eapply pointers_end; [apply Nat.lt_succ_diag_r|]. intros a t' x P E.
      assert (NI: ~ In a seen). { intros I. exact (NC a (or_introl P) (S a a I P)). }
      assert (LA: forall b, points G t' x b -> leads_to G H a b). { intros b Pb. apply t_step. exists t', x. auto. }
      apply (IH (a :: seen)).
      + constructor; assumption.
      + intros b [<-|I]; [eapply alookup_some_key; [apply N.eqb_eq|exact E]|exact (IN b I)].
      + cbn. lia.
      + intros b V. apply NC. right. exists a. split; [exact P|]. destruct V as [Pb|(b' & Pb & Q)]; [exact (LA b Pb)|].
        eapply t_trans; [exact (LA b' Pb)|exact Q].
      + intros s b [<-|I] Pb; [exact (LA b Pb)|]. eapply t_trans; [exact (S s a I P)|exact (LA b Pb)].
  Qed.
  Lemma no_cycle_ends t v : no_cycle G H t v -> ends t v.
  Proof. intros NC. apply (path_ends (length (map fst H)) []); [constructor|intros ? []|lia|exact NC|intros ? ? []]. Qed.
End Ends.
