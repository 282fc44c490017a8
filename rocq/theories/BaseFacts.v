(** BaseFacts.v -- lemmas about Base.v *)
From Coq Require Import List NArith ZArith Bool Lia Permutation.
From Coq.Init Require Byte.
From Coq.Strings Require Byte.
From Verif Require Import Base.
Import ListNotations.

Lemma bval_lt b : (bval b < 256)%N.
Proof. unfold bval. pose proof (Byte.to_N_bounded b). lia. Qed.

Lemma mkb_bval b : mkb (bval b) = b.
Proof.
  unfold mkb. rewrite N.mod_small by apply bval_lt.
  unfold bval. rewrite Byte.of_to_N. reflexivity.
Qed.

Lemma bval_mkb n : bval (mkb n) = (n mod 256)%N.
Proof.
  unfold mkb, bval.
  destruct (Byte.of_N (n mod 256)) eqn:E.
  - apply Byte.to_of_N in E. exact E.
  - apply Byte.of_N_None_iff in E.
    pose proof (N.mod_lt n 256 ltac:(discriminate)). lia.
Qed.

Lemma bval_inj a b : bval a = bval b -> a = b.
Proof. intros H. rewrite <- (mkb_bval a), <- (mkb_bval b), H. reflexivity. Qed.

Lemma beqb_eq a b : beqb a b = true <-> a = b.
Proof.
  unfold beqb. split; intros H.
  - apply Byte.byte_dec_bl in H. exact H.
  - apply Byte.byte_dec_lb in H. exact H.
Qed.

Lemma bytes_eqb_eq a b : bytes_eqb a b = true <-> a = b.
Proof.
  revert b; induction a as [|x a IH]; intros [|y b]; cbn; try (split; [discriminate|discriminate] || easy).
  rewrite andb_true_iff, beqb_eq, IH. split; [intros [-> ->]; reflexivity | intros E; inversion E; auto].
Qed.

Lemma bytes_eqb_refl a : bytes_eqb a a = true.
Proof. apply bytes_eqb_eq; reflexivity. Qed.

Lemma bytes_eqb_neq a b : bytes_eqb a b = false <-> a <> b.
Proof.
  split; intros H.
  - intros ->. rewrite bytes_eqb_refl in H; discriminate.
  - destruct (bytes_eqb a b) eqn:E; [apply bytes_eqb_eq in E; contradiction | reflexivity].
Qed.

Lemma bytes_eq_dec (a b : bytes) : {a = b} + {a <> b}.
Proof.
  destruct (bytes_eqb a b) eqn:E; [left; apply bytes_eqb_eq; exact E | right; apply bytes_eqb_neq; exact E].
Qed.

(** ** rbind *)
Lemma rbind_ok {A B} (m : res A) (f : A -> res B) b :
  rbind m f = ROk b -> exists a, m = ROk a /\ f a = ROk b.
Proof. destruct m; cbn; intros H; try discriminate. eauto. Qed.

Lemma rbind_eq {A B} (m : res A) (f : A -> res B) a r : m = ROk a -> f a = r -> rbind m f = r.
Proof. intros -> <-. reflexivity. Qed.

Lemma rbind_assoc {A B C} (m : res A) (f : A -> res B) (g : B -> res C) :
  rbind (rbind m f) g = rbind m (fun a => rbind (f a) g).
Proof. destruct m; reflexivity. Qed.

Lemma rbind_ext {A B} (m : res A) (f g : A -> res B) :
  (forall a, f a = g a) -> rbind m f = rbind m g.
Proof. intros H; destruct m; cbn; auto. Qed.

Lemma rbind_ret {A} (m : res A) : rbind m (fun a => ROk a) = m.
Proof. destruct m; reflexivity. Qed.

(** ** loops *)
Lemma loopnat_add {S} n m (f : S -> res S) s :
  loopnat (n + m) f s = rbind (loopnat n f s) (loopnat m f).
Proof.
  revert s; induction n as [|n IH]; intros s; cbn; [reflexivity|].
  rewrite rbind_assoc. apply rbind_ext. intros a. apply IH.
Qed.

Lemma loopP_loopnat {S} p (f : S -> res S) s : loopP p f s = loopnat (Pos.to_nat p) f s.
Proof.
  revert s; induction p as [p IH|p IH|]; intros s.
  - rewrite Pos2Nat.inj_xI. cbn [loopP loopnat].
    replace (2 * Pos.to_nat p) with (Pos.to_nat p + Pos.to_nat p) by lia.
    cbn [loopnat]. apply rbind_ext. intros a. rewrite loopnat_add, IH.
    apply rbind_ext. intros b. apply IH.
  - rewrite Pos2Nat.inj_xO. cbn [loopP].
    replace (2 * Pos.to_nat p) with (Pos.to_nat p + Pos.to_nat p) by lia.
    rewrite loopnat_add, IH. apply rbind_ext. intros b. apply IH.
  - change (Pos.to_nat 1) with 1%nat. cbn [loopP loopnat]. destruct (f s); reflexivity.
Qed.

Lemma loopN_loopnat {S} n (f : S -> res S) s : loopN n f s = loopnat (N.to_nat n) f s.
Proof. destruct n; [reflexivity|]. cbn [loopN N.to_nat]. apply loopP_loopnat. Qed.

Lemma loopN_of_nat {S} n (f : S -> res S) s : loopN (N.of_nat n) f s = loopnat n f s.
Proof. rewrite loopN_loopnat, Nat2N.id. reflexivity. Qed.

(** ** insert_at *)
Lemma insert_at_perm {A} n (x : A) l : Permutation (x :: l) (insert_at n x l).
Proof.
  revert l; induction n as [|n IH]; intros [|y l]; cbn; try apply Permutation_refl.
  rewrite perm_swap. apply perm_skip. apply IH.
Qed.

(** ** association lists *)
Section Assoc.
  Context {K V : Type} (eqb : K -> K -> bool).
  Hypothesis eqb_eq : forall a b, eqb a b = true <-> a = b.

  Lemma eqb_refl' a : eqb a a = true. Proof. apply eqb_eq; reflexivity. Qed.
  Lemma eqb_neq' a b : a <> b -> eqb a b = false.
  Proof. intros H. destruct (eqb a b) eqn:E; [apply eqb_eq in E; contradiction|reflexivity]. Qed.

  Lemma alookup_aupdate_same k v (l : list (K * V)) :
    In k (map fst l) -> alookup eqb k (aupdate eqb k v l) = Some v.
  Proof.
    induction l as [|[k' v'] l IH]; cbn; [intros []|].
    destruct (eqb k k') eqn:E; cbn; rewrite E; [reflexivity|].
    intros [->|Hin]; [rewrite eqb_refl' in E; discriminate|auto].
  Qed.

  Lemma alookup_aupdate_other k k2 v (l : list (K * V)) :
    k2 <> k -> alookup eqb k2 (aupdate eqb k v l) = alookup eqb k2 l.
  Proof.
    intros Hne. induction l as [|[k' v'] l IH]; cbn; [reflexivity|].
    destruct (eqb k k') eqn:E; cbn.
    - apply eqb_eq in E; subst k'. rewrite (eqb_neq' _ _ Hne). reflexivity.
    - destruct (eqb k2 k'); [reflexivity|apply IH].
  Qed.

  Lemma aupdate_keys k v (l : list (K * V)) : map fst (aupdate eqb k v l) = map fst l.
  Proof.
    induction l as [|[k' v'] l IH]; cbn; [reflexivity|].
    destruct (eqb k k'); cbn; [reflexivity|]. rewrite IH. reflexivity.
  Qed.

  Lemma alookup_in k (l : list (K * V)) v : alookup eqb k l = Some v -> In (k, v) l.
  Proof.
    induction l as [|[k' v'] l IH]; cbn; [discriminate|].
    destruct (eqb k k') eqn:E; intros H.
    - apply eqb_eq in E; subst. inversion H; subst. left; reflexivity.
    - right; auto.
  Qed.

  Lemma alookup_some_in k (l : list (K * V)) : In k (map fst l) -> exists v, alookup eqb k l = Some v.
  Proof.
    induction l as [|[k' v'] l IH]; cbn; [intros []|].
    destruct (eqb k k') eqn:E; intros H; [eauto|].
    destruct H as [->|H]; [rewrite eqb_refl' in E; discriminate|auto].
  Qed.

  Lemma alookup_none k (l : list (K * V)) : ~ In k (map fst l) -> alookup eqb k l = None.
  Proof.
    induction l as [|[k' v'] l IH]; cbn; [reflexivity|].
    intros H. destruct (eqb k k') eqn:E; [apply eqb_eq in E; subst; tauto|]. apply IH. tauto.
  Qed.

  Lemma in_alookup k v (l : list (K * V)) : NoDup (map fst l) -> In (k, v) l -> alookup eqb k l = Some v.
  Proof.
    induction l as [|[k' v'] l IH]; cbn; [intros _ []|].
    intros Hnd. apply NoDup_cons_iff in Hnd. destruct Hnd as [Hni Hnd].
    intros [E|Hin].
    - inversion E; subst. rewrite eqb_refl'. reflexivity.
    - destruct (eqb k k') eqn:E; [|auto].
      apply eqb_eq in E; subst. exfalso. apply Hni. apply in_map_iff. exists (k', v). auto.
  Qed.

  Lemma alookup_some_key k (l : list (K * V)) v : alookup eqb k l = Some v -> In k (map fst l).
  Proof. intros H. apply alookup_in in H. apply in_map_iff. exists (k, v); auto. Qed.
End Assoc.
