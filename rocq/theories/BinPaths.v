(** BinPaths.v -- object graphs compared by what can be observed following members, elements and pointers: vocabulary (first
    part) and proof that restored graphs cannot be distinguished (C06) *)
From Coq Require Import List NArith ZArith Bool Lia Permutation.
From Verif Require Import Base BaseFacts Types TypesFacts BinSpec.
Import ListNotations.

(** a step from an object to one of its parts: the [i]-th element of a sequence or ordered container, the components of a
    pair, the content of an optional, unique pointer or variant, a member, the object a shared pointer refers to *)
Inductive step := SElem (i : nat) | SFst | SSnd | SContent | SMember (k : fkey) | STarget.

(** [at_path G H t v p t' w]: following [p] from the value [v] of type [t] leads to the value [w] of type [t'], shared
    objects being those of [H]; there are no paths into hash containers as their iteration order is not determined *)
Inductive at_path (G : genv) (H : heap) : ty -> val -> list step -> ty -> val -> Prop :=
| ap_here t v : at_path G H t v [] t v
| ap_seq t l i x p t' w : nth_error l i = Some x -> at_path G H t x p t' w -> at_path G H (TSeq t) (VList l) (SElem i :: p) t' w
| ap_set multi t l i x p t' w : nth_error l i = Some x -> at_path G H t x p t' w -> at_path G H (TSet true multi t) (VList l) (SElem i :: p) t' w
| ap_map multi kt vt l i x p t' w : nth_error l i = Some x -> at_path G H (TPair kt vt) x p t' w ->
    at_path G H (TMap true multi kt vt) (VList l) (SElem i :: p) t' w
| ap_fst ta tb a b p t' w : at_path G H ta a p t' w -> at_path G H (TPair ta tb) (VPair a b) (SFst :: p) t' w
| ap_snd ta tb a b p t' w : at_path G H tb b p t' w -> at_path G H (TPair ta tb) (VPair a b) (SSnd :: p) t' w
| ap_optional t x p t' w : at_path G H t x p t' w -> at_path G H (TOptional t) (VOpt (Some x)) (SContent :: p) t' w
| ap_unique t x p t' w : at_path G H t x p t' w -> at_path G H (TUnique t) (VOpt (Some x)) (SContent :: p) t' w
| ap_variant ts i t x p t' w : nth_error ts i = Some t -> at_path G H t x p t' w -> at_path G H (TVariant ts) (VVar i x) (SContent :: p) t' w
| ap_member c rc fs k t x p t' w : g_class G c = Some rc -> alookup fkey_eqb k (rc_layout rc) = Some t -> alookup fkey_eqb k fs = Some x ->
    at_path G H t x p t' w -> at_path G H (TStruct c) (VObj fs) (SMember k :: p) t' w
| ap_target t a t1 x p t' w : hget H a = Some (t1, x) -> at_path G H t1 x p t' w -> at_path G H (TShared t) (VShared (Some a)) (STarget :: p) t' w.

(** what is observed of a value without following any path: scalars and strings completely, the size of containers, whether
    optionals and pointers are empty, which alternative a variant has, the members of an object *)
Inductive observation :=
| OScalar (v : val) | OSize (n : nat) | OPair | OEngaged (b : bool) | OTarget (b : bool) | OAlternative (i : nat) | OMembers (ks : list fkey).
Definition look (v : val) : observation :=
  match v with
  | VList l => OSize (length l)
  | VPair _ _ => OPair
  | VOpt o => OEngaged (match o with Some _ => true | None => false end)
  | VShared o => OTarget (match o with Some _ => true | None => false end)
  | VVar i _ => OAlternative i
  | VObj fs => OMembers (map fst fs)
  | _ => OScalar v
  end.

(** [v] with the shared objects [H] and [v'] with [h'] cannot be distinguished: the same observations can be made following
    the same paths, and two paths lead to the same shared object on one side iff they do on the other *)
Record same_graph (G : genv) (H h' : heap) (t : ty) (v v' : val) : Prop := {
  sg_forth : forall p t' w, at_path G H t v p t' w -> exists w', at_path G h' t v' p t' w' /\ look w' = look w;
  sg_back : forall p t' w', at_path G h' t v' p t' w' -> exists w, at_path G H t v p t' w /\ look w' = look w;
  sg_alias : forall p1 p2 t1 t2 a1 a2 b1 b2,
    at_path G H t v p1 t1 (VShared (Some a1)) -> at_path G H t v p2 t2 (VShared (Some a2)) ->
    at_path G h' t v' p1 t1 (VShared (Some b1)) -> at_path G h' t v' p2 t2 (VShared (Some b2)) -> (a1 = a2 <-> b1 = b2) }.

(* ------------------------------------------------------------------ *)

Section Paths.
  Variable G : genv.
  Variable H h0 h' : heap.
  Variable ro : list (N * N).
  Hypothesis GI : graph_iso G H h0 h' ro.
  Notation sv := (same_value G ro).

  Lemma look_same t v v' : sv t v v' -> look v' = look v.
  Proof.
    intros S. destruct S; try reflexivity; cbn.
    - congruence.
    - f_equal. destruct ord; [subst; congruence|]. apply Permutation_length in H2. congruence.
    - f_equal. destruct ord; [subst; congruence|]. apply Permutation_length in H2. congruence.
    - congruence.
  Qed.

  Lemma shfree_nth l i x : shfree (VList l) = true -> nth_error l i = Some x -> shfree x = true.
  Proof. cbn. intros F E. rewrite forallb_forall in F. apply F. eapply nth_error_In; exact E. Qed.

  Lemma shfree_path hA hB t v p t' w : at_path G hA t v p t' w -> shfree v = true -> at_path G hB t v p t' w /\ shfree w = true.
  Proof.
    induction 1; intros F.
    - split; [constructor|exact F].
    - destruct IHat_path as [A B]; [eapply shfree_nth; eauto|]. split; [econstructor; eauto|exact B].
    - destruct IHat_path as [A B]; [eapply shfree_nth; eauto|]. split; [econstructor; eauto|exact B].
    - destruct IHat_path as [A B]; [eapply shfree_nth; eauto|]. split; [econstructor; eauto|exact B].
    - cbn in F. apply andb_true_iff in F. destruct IHat_path as [A B]; [tauto|]. split; [econstructor; eauto|exact B].
    - cbn in F. apply andb_true_iff in F. destruct IHat_path as [A B]; [tauto|]. split; [econstructor; eauto|exact B].
    - destruct IHat_path as [A B]; [exact F|]. split; [econstructor; eauto|exact B].
    - destruct IHat_path as [A B]; [exact F|]. split; [econstructor; eauto|exact B].
    - destruct IHat_path as [A B]; [exact F|]. split; [econstructor; eauto|exact B].
    - destruct IHat_path as [A B].
      { cbn in F. rewrite forallb_forall in F. specialize (F (k, x)). apply F. apply (alookup_in _ fkey_eqb_eq). assumption. }
      split; [econstructor; eauto|exact B].
    - discriminate.
  Qed.

  Lemma nth_combine {A B} (l : list A) (m : list B) i x : length l = length m -> nth_error l i = Some x -> exists y, nth_error m i = Some y /\ In (x, y) (combine l m).
  Proof.
    revert m i. induction l as [|a l IH]; intros [|b m] [|i] L E; cbn in *; try discriminate.
    - inversion E; subst. eauto.
    - destruct (IH m i ltac:(lia) E) as (y & E1 & E2). eauto.
  Qed.
  Lemma nth_combine_r {A B} (l : list A) (m : list B) i y : length l = length m -> nth_error m i = Some y -> exists x, nth_error l i = Some x /\ In (x, y) (combine l m).
  Proof.
    revert m i. induction l as [|a l IH]; intros [|b m] [|i] L E; cbn in *; try discriminate.
    - inversion E; subst. eauto.
    - destruct (IH m i ltac:(lia) E) as (x & E1 & E2). eauto.
  Qed.

  Lemma forth t v p t' w : at_path G H t v p t' w -> forall v', sv t v v' -> exists w', at_path G h' t v' p t' w' /\ sv t' w w'.
  Proof.
    assert (Free: forall t v p t' w, at_path G H t v p t' w -> shfree v = true -> exists w', at_path G h' t v p t' w' /\ sv t' w w').
    { intros. destruct (shfree_path H h' _ _ _ _ _ H0 H1) as [A B]. exists w0. split; [exact A|constructor; exact B]. }
    induction 1 as [t v|t l i x p t' w E A IH|multi t l i x p t' w E A IH|multi kt vt l i x p t' w E A IH|ta tb a b p t' w A IH|ta tb a b p t' w A IH
      |t x p t' w A IH|t x p t' w A IH|ts i t x p t' w E A IH|c rc fs k t x p t' w E1 E2 E3 A IH|t a t1 x p t' w E A IH]; intros v' S.
    - exists v'. split; [constructor|exact S].
    - inversion S; subst; [eapply Free; [econstructor; eassumption|assumption]|].
      match goal with L : length l = length _ |- _ => destruct (nth_combine _ _ _ _ L E) as (y & Ey & Hy) end. destruct (IH y) as (w' & P & Q); [auto|]. exists w'. split; [econstructor; eauto|exact Q].
    - inversion S; subst; [eapply Free; [econstructor; eassumption|assumption]|].
      match goal with L : length l = length _ |- _ => destruct (nth_combine _ _ _ _ L E) as (y & Ey & Hy) end. destruct (IH y) as (w' & P & Q); [auto|]. exists w'. split; [econstructor; eauto|exact Q].
    - inversion S; subst; [eapply Free; [econstructor; eassumption|assumption]|].
      match goal with L : length l = length _ |- _ => destruct (nth_combine _ _ _ _ L E) as (y & Ey & Hy) end. destruct (IH y) as (w' & P & Q); [auto|]. exists w'. split; [econstructor; eauto|exact Q].
    - inversion S; subst; [eapply Free; [econstructor; eassumption|assumption]|].
      destruct (IH a') as (w' & P & Q); [auto|]. exists w'. split; [econstructor; eauto|exact Q].
    - inversion S; subst; [eapply Free; [econstructor; eassumption|assumption]|].
      destruct (IH b') as (w' & P & Q); [auto|]. exists w'. split; [econstructor; eauto|exact Q].
    - inversion S; subst; [eapply Free; [econstructor; eassumption|assumption]|].
      destruct (IH x') as (w' & P & Q); [auto|]. exists w'. split; [econstructor; eauto|exact Q].
    - inversion S; subst; [eapply Free; [econstructor; eassumption|assumption]|].
      destruct (IH x') as (w' & P & Q); [auto|]. exists w'. split; [econstructor; eauto|exact Q].
    - inversion S; subst; [eapply Free; [econstructor; eassumption|assumption]|].
      match goal with Q : nth_error ts i = Some _ |- _ => rewrite E in Q; inversion Q; subst end. destruct (IH x') as (w' & P & Q); [auto|]. exists w'. split; [econstructor; eauto|exact Q].
    - inversion S; subst; [eapply Free; [econstructor; eassumption|assumption]|].
      match goal with Q : g_class G c = Some ?r |- _ => lazymatch r with rc => fail | _ => rewrite E1 in Q; inversion Q; subst r end end.
      assert (exists y, alookup fkey_eqb k fs' = Some y) as [y Ey].
      { apply (alookup_some_in _ fkey_eqb_eq). match goal with Q : map fst _ = map fst _ |- _ => rewrite Q end. eapply alookup_some_key; [apply fkey_eqb_eq|exact E3]. }
      destruct (IH y) as (w' & P & Q); [eauto|]. exists w'. split; [econstructor; eauto|exact Q].
    - inversion S; subst; [discriminate|].
      match goal with Q : In (a, a') ro |- _ => rename Q into HI end. destruct (gi_content _ _ _ _ _ GI a a' HI) as (t2 & x2 & x' & F1 & F2 & F3 & _). rewrite E in F1. inversion F1; subst.
      destruct (IH x') as (w' & P & Q); [auto|]. exists w'. split; [econstructor; eauto|exact Q].
  Qed.

  Lemma back t v' p t' w' : at_path G h' t v' p t' w' -> forall v, sv t v v' -> exists w, at_path G H t v p t' w /\ sv t' w w'.
  Proof.
    assert (Free: forall t v p t' w, at_path G h' t v p t' w -> shfree v = true -> exists w', at_path G H t v p t' w' /\ sv t' w' w).
    { intros. destruct (shfree_path h' H _ _ _ _ _ H0 H1) as [A B]. exists w. split; [exact A|constructor; exact B]. }
    induction 1 as [t v|t l i x p t' w E A IH|multi t l i x p t' w E A IH|multi kt vt l i x p t' w E A IH|ta tb a b p t' w A IH|ta tb a b p t' w A IH
      |t x p t' w A IH|t x p t' w A IH|ts i t x p t' w E A IH|c rc fs k t x p t' w E1 E2 E3 A IH|t a t1 x p t' w E A IH]; intros v0 S.
    - exists v0. split; [constructor|exact S].
    - inversion S; subst; [eapply Free; [econstructor; eassumption|assumption]|].
      match goal with E : nth_error ?l i = Some x, L : length _ = length ?l |- _ => destruct (nth_combine_r _ _ _ _ L E) as (y & Ey & Hy) end. destruct (IH y) as (w0 & P & Q); [auto|]. exists w0. split; [econstructor; eauto|exact Q].
    - inversion S; subst; [eapply Free; [econstructor; eassumption|assumption]|].
      match goal with E : nth_error ?l i = Some x, L : length _ = length ?l |- _ => destruct (nth_combine_r _ _ _ _ L E) as (y & Ey & Hy) end. destruct (IH y) as (w0 & P & Q); [auto|]. exists w0. split; [econstructor; eauto|exact Q].
    - inversion S; subst; [eapply Free; [econstructor; eassumption|assumption]|].
      match goal with E : nth_error ?l i = Some x, L : length _ = length ?l |- _ => destruct (nth_combine_r _ _ _ _ L E) as (y & Ey & Hy) end. destruct (IH y) as (w0 & P & Q); [auto|]. exists w0. split; [econstructor; eauto|exact Q].
    - inversion S; subst; [eapply Free; [econstructor; eassumption|assumption]|].
      destruct (IH a0) as (w0 & P & Q); [auto|]. exists w0. split; [econstructor; eauto|exact Q].
    - inversion S; subst; [eapply Free; [econstructor; eassumption|assumption]|].
      destruct (IH b0) as (w0 & P & Q); [auto|]. exists w0. split; [econstructor; eauto|exact Q].
    - inversion S; subst; [eapply Free; [econstructor; eassumption|assumption]|].
      destruct (IH x0) as (w0 & P & Q); [auto|]. exists w0. split; [econstructor; eauto|exact Q].
    - inversion S; subst; [eapply Free; [econstructor; eassumption|assumption]|].
      destruct (IH x0) as (w0 & P & Q); [auto|]. exists w0. split; [econstructor; eauto|exact Q].
    - inversion S; subst; [eapply Free; [econstructor; eassumption|assumption]|].
      match goal with Q : nth_error ts i = Some _ |- _ => rewrite E in Q; inversion Q; subst end. destruct (IH x0) as (w0 & P & Q); [auto|]. exists w0. split; [econstructor; eauto|exact Q].
    - inversion S; subst; [eapply Free; [econstructor; eassumption|assumption]|].
      match goal with Q : g_class G c = Some ?r |- _ => lazymatch r with rc => fail | _ => rewrite E1 in Q; inversion Q; subst r end end.
      assert (exists y, alookup fkey_eqb k fs0 = Some y) as [y Ey].
      { apply (alookup_some_in _ fkey_eqb_eq). match goal with Q : map fst _ = map fst _ |- _ => rewrite <- Q end. eapply alookup_some_key; [apply fkey_eqb_eq|exact E3]. }
      destruct (IH y) as (w0 & P & Q); [eauto|]. exists w0. split; [econstructor; eauto|exact Q].
    - inversion S; subst; [discriminate|].
      match goal with Q : In (a0, a) ro |- _ => rename Q into HI end. destruct (gi_content _ _ _ _ _ GI a0 a HI) as (t2 & x2 & x' & F1 & F2 & F3 & _). rewrite E in F2. inversion F2; subst.
      destruct (IH x2) as (w0 & P & Q); [auto|]. exists w0. split; [econstructor; eauto|exact Q].
  Qed.

  Lemma at_path_fun hh t v p t1 w1 : at_path G hh t v p t1 w1 -> forall t2 w2, at_path G hh t v p t2 w2 -> t1 = t2 /\ w1 = w2.
  Proof.
    induction 1; intros t2 w2 A2; inversion A2; subst; auto; try (apply IHat_path; congruence).
  Qed.

  Theorem paths_same t v v' : sv t v v' -> same_graph G H h' t v v'.
  Proof.
    intros S. constructor.
    - intros p t' w A. destruct (forth _ _ _ _ _ A _ S) as (w' & B & Q). exists w'. split; [exact B|eapply look_same; exact Q].
    - intros p t' w' A. destruct (back _ _ _ _ _ A _ S) as (w & B & Q). exists w. split; [exact B|eapply look_same; exact Q].
    - intros p1 p2 t1 t2 a1 a2 b1 b2 A1 A2 B1 B2.
      assert (I: forall p t' a b, at_path G H t v p t' (VShared (Some a)) -> at_path G h' t v' p t' (VShared (Some b)) -> In (a, b) ro).
      { intros p t' a b A B. destruct (forth _ _ _ _ _ A _ S) as (w' & B' & Q). destruct (at_path_fun _ _ _ _ _ _ B _ _ B') as [_ <-].
        inversion Q; subst; [discriminate|assumption]. }
      assert (I1 := I _ _ _ _ A1 B1). assert (I2 := I _ _ _ _ A2 B2). clear I.
      split; intros ->.
      + pose proof (gi_fun _ _ _ _ _ GI) as N. clear -N I1 I2. induction ro as [|[x y] r IH]; [destruct I1|]. cbn in N. inversion N; subst.
        destruct I1 as [E1|I1], I2 as [E2|I2]; [congruence| | |apply IH; assumption].
        * inversion E1; subst. exfalso. apply H1. apply (in_map fst) in I2. exact I2.
        * inversion E2; subst. exfalso. apply H1. apply (in_map fst) in I1. exact I1.
      + pose proof (gi_inj _ _ _ _ _ GI) as N. clear -N I1 I2. induction ro as [|[x y] r IH]; [destruct I1|]. cbn in N. inversion N; subst.
        destruct I1 as [E1|I1], I2 as [E2|I2]; [congruence| | |apply IH; assumption].
        * inversion E1; subst. exfalso. apply H1. apply (in_map snd) in I2. exact I2.
        * inversion E2; subst. exfalso. apply H1. apply (in_map snd) in I1. exact I1.
  Qed.
  Theorem paths_new t v v' : sv t v v' -> forall p t' b, at_path G h' t v' p t' (VShared (Some b)) -> ~ In b (map fst h0).
  Proof.
    intros S p t' b A. destruct (back _ _ _ _ _ A _ S) as (w & B & Q). inversion Q; subst; [discriminate|].
    match goal with I : In (_, b) ro |- _ => destruct (gi_content _ _ _ _ _ GI _ _ I) as (t2 & x & x' & _ & _ & _ & N) end. exact N.
  Qed.
End Paths.
