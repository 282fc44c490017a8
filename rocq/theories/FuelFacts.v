(** FuelFacts.v -- more fuel never changes a result other than "out of fuel" *)
From Coq Require Import List NArith ZArith Bool Lia.
From Verif Require Import Base BaseFacts Bytes Types BinModel.
Import ListNotations.

Lemma write_S G H f : write G H (S f) = write_body H (write G H f) (write_cls G H f).
Proof. reflexivity. Qed.
Lemma write_cls_S G H f : write_cls G H (S f) = write_cls_body G (write G H f) (write_cls G H f).
Proof. reflexivity. Qed.
Lemma read_S G f : read G (S f) = read_body G (read G f) (read_cls G f).
Proof. reflexivity. Qed.
Lemma read_cls_S G f : read_cls G (S f) = read_cls_body G (read G f) (read_cls G f).
Proof. reflexivity. Qed.

Definition le_res {A} (r r' : res A) : Prop := r = RFuel \/ r' = r.

Lemma le_res_refl {A} (r : res A) : le_res r r. Proof. right; reflexivity. Qed.
Lemma le_res_fuel {A} (r : res A) : le_res RFuel r. Proof. left; reflexivity. Qed.

Lemma le_res_ok {A} (r r' : res A) : le_res r r' -> r <> RFuel -> r' = r.
Proof. intros [H|H] Hn; [contradiction|exact H]. Qed.

Lemma le_res_trans {A} (a b c : res A) : le_res a b -> le_res b c -> le_res a c.
Proof. intros [-> | ->] [E|E]; subst; try (left; reflexivity); [right; reflexivity]. Qed.

Lemma le_rbind {A B} (m m' : res A) (k k' : A -> res B) :
  le_res m m' -> (forall a, le_res (k a) (k' a)) -> le_res (rbind m k) (rbind m' k').
Proof.
  intros [-> | ->] H; [left; reflexivity|]. destruct m; cbn; try apply le_res_refl; apply H.
Qed.

Lemma le_wr_iter {A} (w w' : A -> list N -> res (bytes * list N)) l :
  (forall x W, le_res (w x W) (w' x W)) -> forall W, le_res (wr_iter w l W) (wr_iter w' l W).
Proof.
  intros H. induction l as [|x l IH]; intros W; cbn [wr_iter]; [apply le_res_refl|].
  apply le_rbind; [apply H|]. intros [b1 W1]. apply le_rbind; [apply IH|]. intros [b2 W2]. apply le_res_refl.
Qed.

Lemma le_rd_iter {A S} (w w' : A -> S -> res S) l :
  (forall x s, le_res (w x s) (w' x s)) -> forall s, le_res (rd_iter w l s) (rd_iter w' l s).
Proof.
  intros H. induction l as [|x l IH]; intros s; cbn [rd_iter]; [apply le_res_refl|].
  apply le_rbind; [apply H|]. intros s1. apply IH.
Qed.

Lemma le_loopnat {S} n (w w' : S -> res S) :
  (forall s, le_res (w s) (w' s)) -> forall s, le_res (loopnat n w s) (loopnat n w' s).
Proof.
  intros H. induction n as [|n IH]; intros s; cbn [loopnat]; [apply le_res_refl|].
  apply le_rbind; [apply H|]. intros s1. apply IH.
Qed.

Lemma le_loopN {S} n (w w' : S -> res S) :
  (forall s, le_res (w s) (w' s)) -> forall s, le_res (loopN n w s) (loopN n w' s).
Proof. intros H s. rewrite !loopN_loopnat. apply le_loopnat. exact H. Qed.

Ltac le_step :=
  repeat first
    [ apply le_res_refl
    | apply le_res_fuel
    | match goal with |- le_res (rbind _ _) (rbind _ _) => apply le_rbind; [|intro] end
    | match goal with |- le_res (wr_iter _ _ _) (wr_iter _ _ _) => apply le_wr_iter; intros end
    | match goal with |- le_res (rd_iter _ _ _) (rd_iter _ _ _) => apply le_rd_iter; intros end
    | match goal with |- le_res (loopN _ _ _) (loopN _ _ _) => apply le_loopN; intros end
    | match goal with H : forall _, _ |- _ => solve [apply H] end
    | match goal with |- le_res (match ?x with _ => _ end) _ => destruct x eqn:? end ].

Section Write.
  Variable G : genv.
  Variable H : heap.
  Lemma write_mono1 f :
    (forall ver t v W, le_res (write G H f ver t v W) (write G H (S f) ver t v W))
    /\ (forall ver c fs W, le_res (write_cls G H f ver c fs W) (write_cls G H (S f) ver c fs W)).
  Proof.
    induction f as [|f [IH1 IH2]].
    - split; intros; apply le_res_fuel.
    - split; intros.
      + rewrite !write_S. unfold write_body. destruct t, v; le_step.
      + rewrite !write_cls_S. unfold write_cls_body. le_step.
  Qed.

  Lemma write_mono f f' : f <= f' ->
    (forall ver t v W, le_res (write G H f ver t v W) (write G H f' ver t v W))
    /\ (forall ver c fs W, le_res (write_cls G H f ver c fs W) (write_cls G H f' ver c fs W)).
  Proof.
    induction 1 as [|f' Hle [IH1 IH2]]; [split; intros; apply le_res_refl|].
    destruct (write_mono1 f') as [M1 M2].
    split; intros; eapply le_res_trans; eauto.
  Qed.
End Write.

Section Read.
  Variable G : genv.
  Lemma read_mono1 f :
    (forall ver t o s st, le_res (read G f ver t o s st) (read G (S f) ver t o s st))
    /\ (forall ver c os s st, le_res (read_cls G f ver c os s st) (read_cls G (S f) ver c os s st)).
  Proof.
    induction f as [|f [IH1 IH2]].
    - split; intros; apply le_res_fuel.
    - split; intros.
      + rewrite !read_S. unfold read_body. destruct t; le_step.
      + rewrite !read_cls_S. unfold read_cls_body. le_step.
  Qed.

  Lemma read_mono f f' : f <= f' ->
    (forall ver t o s st, le_res (read G f ver t o s st) (read G f' ver t o s st))
    /\ (forall ver c os s st, le_res (read_cls G f ver c os s st) (read_cls G f' ver c os s st)).
  Proof.
    induction 1 as [|f' Hle [IH1 IH2]]; [split; intros; apply le_res_refl|].
    destruct (read_mono1 f') as [M1 M2].
    split; intros; eapply le_res_trans; eauto.
  Qed.
End Read.

Lemma write_more G H f f' ver t v W r : f <= f' -> write G H f ver t v W = r -> r <> RFuel -> write G H f' ver t v W = r.
Proof. intros L E N. destruct (write_mono G H f f' L) as [M _]. rewrite <- E in *. apply le_res_ok; auto. Qed.
Lemma write_cls_more G H f f' ver c fs W r : f <= f' -> write_cls G H f ver c fs W = r -> r <> RFuel -> write_cls G H f' ver c fs W = r.
Proof. intros L E N. destruct (write_mono G H f f' L) as [_ M]. rewrite <- E in *. apply le_res_ok; auto. Qed.
Lemma read_more G f f' ver t o s st r : f <= f' -> read G f ver t o s st = r -> r <> RFuel -> read G f' ver t o s st = r.
Proof. intros L E N. destruct (read_mono G f f' L) as [M _]. rewrite <- E in *. apply le_res_ok; auto. Qed.
Lemma read_cls_more G f f' ver c os s st r : f <= f' -> read_cls G f ver c os s st = r -> r <> RFuel -> read_cls G f' ver c os s st = r.
Proof. intros L E N. destruct (read_mono G f f' L) as [_ M]. rewrite <- E in *. apply le_res_ok; auto. Qed.
