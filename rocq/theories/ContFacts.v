(** ContFacts.v -- associative containers keep their invariant when elements are inserted *)
From Coq Require Import List NArith ZArith Bool Lia Permutation.
From Verif Require Import Base BaseFacts Types TypesFacts BinSpec BinFacts.
Import ListNotations.

(** what the comparison/equality given to a container has to satisfy (a strict weak
    order is transitive and irreflexive; an equality predicate is symmetric) *)
Record keys_ok (G : genv) (kt : ty) : Prop := {
  ko_irrefl : forall a, g_lt G kt a a = false;
  ko_trans : forall a b c, g_lt G kt a b = true -> g_lt G kt b c = true -> g_lt G kt a c = true;
  ko_sym : forall a b, g_eq G kt a b = g_eq G kt b a }.

Section Ord.
  Context {A : Type}.
  Variable lt : A -> A -> bool.
  Hypothesis irrefl : forall a, lt a a = false.
  Hypothesis trans : forall a b c, lt a b = true -> lt b c = true -> lt a c = true.

  Lemma ins_uniq_in x l y : In y (fst (ins_uniq lt x l)) -> y = x \/ In y l.
  Proof.
    induction l as [|z l IH]; cbn; [intros [->|[]]; auto|].
    destruct (lt z x); [|destruct (lt x z); cbn; intuition].
    destruct (ins_uniq lt x l) as [r b]. cbn in *. intros [->|Hi]; [auto|]. apply IH in Hi. intuition.
  Qed.

  Lemma ins_uniq_sorted x l : ForallOrdPairs (fun a b => lt a b = true) l ->
    ForallOrdPairs (fun a b => lt a b = true) (fst (ins_uniq lt x l)).
  Proof.
    induction l as [|z l IH]; intros S; cbn; [repeat constructor|].
    inversion S as [|z' l' Fz Sl]; subst.
    destruct (lt z x) eqn:E1.
    - specialize (IH Sl). destruct (ins_uniq lt x l) as [r b] eqn:E. cbn in *. constructor; [|exact IH].
      apply Forall_forall. intros y Hy. assert (Hy': In y (fst (ins_uniq lt x l))) by (rewrite E; exact Hy).
      apply ins_uniq_in in Hy'. destruct Hy' as [->|Hy']; [exact E1|]. rewrite Forall_forall in Fz. apply Fz; exact Hy'.
    - destruct (lt x z) eqn:E2; cbn; [|exact S]. constructor; [|exact S]. constructor; [exact E2|].
      rewrite Forall_forall in Fz |- *. intros y Hy. eapply trans; [exact E2|apply Fz; exact Hy].
  Qed.

  Lemma ins_multi_in x l y : In y (ins_multi lt x l) -> y = x \/ In y l.
  Proof. induction l as [|z l IH]; cbn; [intros [->|[]]; auto|]. destruct (lt x z); cbn; intuition. Qed.

  Lemma ins_multi_sorted x l : ForallOrdPairs (fun a b => lt b a = false) l -> ForallOrdPairs (fun a b => lt b a = false) (ins_multi lt x l).
  Proof.
    induction l as [|z l IH]; intros S; cbn; [repeat constructor|].
    inversion S as [|z' l' Fz Sl]; subst. destruct (lt x z) eqn:E.
    - constructor; [|exact S]. constructor.
      + destruct (lt z x) eqn:E2; [|reflexivity]. rewrite <- (irrefl x). symmetry. eapply trans; eauto.
      + rewrite Forall_forall in Fz |- *. intros y Hy. destruct (lt y x) eqn:E2; [|reflexivity].
        rewrite <- (Fz y Hy). symmetry. eapply trans; eauto.
    - constructor; [|apply IH; exact Sl]. apply Forall_forall. intros y Hy. apply ins_multi_in in Hy.
      destruct Hy as [->|Hy]; [exact E|]. rewrite Forall_forall in Fz. apply Fz; exact Hy.
  Qed.

  Lemma sorted_unique l x y : ForallOrdPairs (fun a b => lt a b = true) l -> In x l -> In y l -> lt x y = false -> lt y x = false -> x = y.
  Proof.
    induction 1 as [|z l Fz S IH]; intros Hx Hy E1 E2; [destruct Hx|]. rewrite Forall_forall in Fz.
    destruct Hx as [->|Hx], Hy as [->|Hy]; [reflexivity| | |apply IH; assumption].
    - rewrite (Fz y Hy) in E1. discriminate.
    - rewrite (Fz x Hx) in E2. discriminate.
  Qed.
End Ord.

Section Hash.
  Context {A : Type}.
  Variable eq : A -> A -> bool.
  Hypothesis sym : forall a b, eq a b = eq b a.
  Lemma fop_perm l l' : Permutation l l' -> ForallOrdPairs (fun a b => eq a b = false) l -> ForallOrdPairs (fun a b => eq a b = false) l'.
  Proof.
    induction 1 as [|x l l' P IH|x y l|l1 l2 l3 P1 IH1 P2 IH2]; intros S.
    - exact S.
    - inversion S as [|z m F S']; subst. constructor; [|apply IH; exact S'].
      rewrite Forall_forall in F |- *. intros z Hz. apply F. eapply Permutation_in; [symmetry; exact P|exact Hz].
    - inversion S as [|z m F S']; subst. inversion S' as [|z m F' S'']; subst. inversion F as [|z m Exy Fy]; subst.
      constructor; [constructor; [rewrite sym; exact Exy|exact F']|]. constructor; [exact Fy|exact S''].
    - apply IH2, IH1, S.
  Qed.
  Lemma fop_unique l x y : ForallOrdPairs (fun a b => eq a b = false) l -> In x l -> In y l -> eq x y = true -> x = y.
  Proof.
    induction 1 as [|z l Fz S IH]; intros Hx Hy E; [destruct Hx|]. rewrite Forall_forall in Fz.
    destruct Hx as [->|Hx], Hy as [->|Hy]; [reflexivity| | |apply IH; assumption].
    - rewrite (Fz y Hy) in E. discriminate.
    - rewrite sym, (Fz x Hx) in E. discriminate.
  Qed.
End Hash.

Lemma emplace_inv G ismap ord multi kt x l : place_ok G -> keys_ok G kt ->
  cont_inv G ismap ord multi kt l -> cont_inv G ismap ord multi kt (fst (emplace G ismap ord multi kt x l)).
Proof.
  intros HP [Ki Kt Ks] I. unfold cont_inv, emplace in *. destruct ord, multi; cbn [fst].
  - apply (ins_multi_sorted (fun a b => g_lt G kt (keyof ismap a) (keyof ismap b))); [intros; apply Ki|intros a b c; apply Kt|exact I].
  - apply (ins_uniq_sorted (fun a b => g_lt G kt (keyof ismap a) (keyof ismap b))); [intros a b c; apply Kt|exact I].
  - exact I.
  - destruct (existsb _ l) eqn:E; cbn [fst]; [exact I|].
    apply (fop_perm (fun a b => g_eq G kt (keyof ismap a) (keyof ismap b))) with (l := x :: l); [intros a b; apply Ks|apply HP|].
    constructor; [|exact I]. apply Forall_forall. intros y Hy.
    destruct (g_eq G kt (keyof ismap x) (keyof ismap y)) eqn:E2; [|reflexivity].
    rewrite <- E. symmetry. apply existsb_exists. exists y. split; [exact Hy|]. rewrite Ks. exact E2.
Qed.

Lemma emplace_all_inv G ismap ord multi kt xs : place_ok G -> keys_ok G kt -> forall l,
  cont_inv G ismap ord multi kt l -> cont_inv G ismap ord multi kt (emplace_all G ismap ord multi kt xs l).
Proof.
  intros HP HK. induction xs as [|x xs IH]; intros l I; [exact I|]. cbn. apply IH. apply emplace_inv; assumption.
Qed.

(** a unique container holds at most one element per key *)
Lemma cont_unique G ismap ord kt l x y : keys_ok G kt -> cont_inv G ismap ord false kt l -> In x l -> In y l ->
  key_equiv G ord kt (keyof ismap x) (keyof ismap y) -> x = y.
Proof.
  intros [Ki Kt Ks] I Hx Hy E. unfold cont_inv, key_equiv in *. destruct ord.
  - destruct E as [E1 E2]. eapply (sorted_unique (fun a b => g_lt G kt (keyof ismap a) (keyof ismap b))); eauto.
  - eapply (fop_unique (fun a b => g_eq G kt (keyof ismap a) (keyof ismap b))); eauto.
Qed.

(** merging items into a container *)
Record merged (G : genv) (ismap ord multi : bool) (kt : ty) (olds xs l : list val) : Prop := {
  mg_keep : forall y, In y olds -> In y l;
  mg_only : forall y, In y l -> In y olds \/ In y xs;
  mg_present : forall x, In x xs -> In x l \/ (multi = false /\ exists y, In y l /\ key_equiv G ord kt (keyof ismap y) (keyof ismap x));
  mg_inv : keys_ok G kt -> cont_inv G ismap ord multi kt olds -> cont_inv G ismap ord multi kt l;
  mg_old_wins : keys_ok G kt -> multi = false -> cont_inv G ismap ord multi kt olds ->
     forall y z, In y olds -> In z l -> key_equiv G ord kt (keyof ismap y) (keyof ismap z) -> z = y;
  mg_multi : multi = true -> Permutation (xs ++ olds) l }.

Lemma emplace_all_multi G ismap ord kt xs : place_ok G -> forall l, Permutation (xs ++ l) (emplace_all G ismap ord true kt xs l).
Proof.
  intros HP. induction xs as [|x xs IH]; intros l; [apply Permutation_refl|]. cbn [emplace_all fold_left].
  etransitivity; [|apply IH]. destruct (emplace_cases G ismap ord true kt x l HP) as [[_ Hp]|[_ [_ Hm]]]; [|discriminate].
  cbn [app]. etransitivity; [apply Permutation_middle|]. apply Permutation_app_head. exact Hp.
Qed.

Lemma emplace_all_merged G ismap ord multi kt olds xs : place_ok G ->
  merged G ismap ord multi kt olds xs (emplace_all G ismap ord multi kt xs olds).
Proof.
  intros HP. constructor.
  - intros y Hy. apply emplace_all_keeps; assumption.
  - intros y Hy. apply (emplace_all_only G ismap ord multi kt xs HP). exact Hy.
  - intros x Hx. apply emplace_all_present; assumption.
  - intros HK I. apply emplace_all_inv; assumption.
  - intros HK -> I y z Hy Hz E. symmetry. eapply cont_unique; [exact HK|eapply emplace_all_inv; eassumption| |exact Hz|exact E].
    apply emplace_all_keeps; assumption.
  - intros ->. apply emplace_all_multi; assumption.
Qed.
