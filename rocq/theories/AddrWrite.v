(** AddrWrite.v -- serialising objects which are the same except for their addresses *)
From Coq Require Import List NArith ZArith Bool Lia.
From Verif Require Import Base BaseFacts Bytes BytesFacts Types TypesFacts BinModel FuelFacts Float JsonModel JsonRel AddrSpec AddrFacts.
Import ListNotations.

Lemma push_iter_alike {A A' B} (R : A -> A' -> Prop) (p : A -> res B) (p' : A' -> res B) l l' : Forall2 R l l' -> (forall x x', R x x' -> p x = p' x') -> push_iter p l = push_iter p' l'.
Proof. intros F H. induction F as [|x x' l l' A0 F IH]; [reflexivity|]. cbn [push_iter]. rewrite (H x x' A0), IH. reflexivity. Qed.
Lemma push_fold_alike {A A'} (R : A -> A' -> Prop) (p : A -> list (bytes * json) -> res (list (bytes * json))) (p' : A' -> list (bytes * json) -> res (list (bytes * json))) l l' :
  Forall2 R l l' -> (forall x x' ms, R x x' -> p x ms = p' x' ms) -> forall ms, push_fold p l ms = push_fold p' l' ms.
Proof. intros F H. induction F as [|x x' l l' A0 F IH]; intros ms; [reflexivity|]. cbn [push_fold]. rewrite (H x x' ms A0). destruct (p' x' ms); cbn; try reflexivity. apply IH. Qed.
Lemma Forall2_self {A} (l : list A) : Forall2 eq l l.
Proof. induction l; constructor; auto. Qed.

Lemma alikes_length {A B} (R : A -> B -> Prop) l l' : Forall2 R l l' -> length l = length l'.
Proof. induction 1; cbn; congruence. Qed.

Section Push.
  Variable G : genv.
  Variable J : jenv.
  Variables H H' : heap.
  Variable ro : renaming.
  Hypothesis HH : heaps_alike ro H H'.

  Lemma push_alike f :
    (forall t v v', alike ro v v' -> push G J H f t v = push G J H' f t v')
    /\ (forall c fs fs' ms, Forall2 (pairwise ro) fs fs' -> push_cls G J H f c fs ms = push_cls G J H' f c fs' ms).
  Proof.
    induction f as [|f [IH IHc]]; [split; reflexivity|]. split.
    - intros t v v' A. rewrite !push_S. unfold push_body.
      destruct t; try (destruct A; reflexivity).
      + destruct A; try reflexivity. erewrite push_iter_alike; [reflexivity|eassumption|]. intros; apply IH; assumption.
      + destruct A; try reflexivity. erewrite push_iter_alike; [reflexivity|eassumption|]. intros; apply IH; assumption.
      + destruct multi, t1; try (destruct A; reflexivity); (destruct A; try reflexivity); (erewrite push_fold_alike; [reflexivity|eassumption|]); intros x x' ms B; cbv beta;
          (destruct B as [ | | | | | | |ka va ka' va' Bk Bv| | | | | | | |]; try reflexivity; destruct Bk; try reflexivity; rewrite (IH _ _ _ Bv); reflexivity).
      + destruct A as [ | | | | | | |ka va ka' va' Bk Bv| | | | | | | |]; try reflexivity. rewrite (IH _ _ _ Bk), (IH _ _ _ Bv). reflexivity.
      + destruct ts as [|t0 ts]; [destruct A; reflexivity|]. destruct A as [ | | | | | |l l' F| | | | | | | | |]; try reflexivity. rewrite (alikes_length _ _ _ F).
        destruct (length l' =? length (t0 :: ts))%nat; [|reflexivity]. erewrite (push_iter_alike (fun x y => fst x = fst y /\ alike ro (snd x) (snd y))); [reflexivity| |].
        * generalize (t0 :: ts) as us. induction F as [|x x' l l' B F IHF]; intros [|u us]; cbn [combine]; try constructor; [split; [reflexivity|exact B]|apply IHF].
        * intros [u x] [u' x'] [E B]. cbn in E, B. subst u'. apply IH, B.
      + destruct A; try reflexivity. apply IH; assumption.
      + destruct A; try reflexivity. apply IH; assumption.
      + destruct A as [ | | | | | | | | | | |a a' R| | | |]; try reflexivity. destruct (HH a a' R) as (u & x & x' & E1 & E2 & B). rewrite E1, E2. destruct (ty_eqb t u); [|reflexivity]. apply IH, B.
      + destruct A as [ | | | | | | | | | | | |i x x' B| | |]; try reflexivity. destruct (nth_error ts i) as [t'|]; [|reflexivity]. destruct t'; rewrite ?(IH _ _ _ B); reflexivity.
      + destruct A as [ | | | | | | | | | | | | | | |fs fs' F]; try reflexivity. rewrite (IHc c fs fs' [] F). reflexivity.
      + destruct A as [ | | | | | | | | |x x' B| | | | | |]; try reflexivity. destruct B; reflexivity.
      + destruct A as [ | | | | | | | | |x x' B| | | | | |]; try reflexivity. destruct B; reflexivity.
    - intros c fs fs' ms F. rewrite !push_cls_S. unfold push_cls_body. destruct (g_class G c) as [rc|]; [|reflexivity].
      rewrite (push_fold_alike eq _ (fun b ms => push_cls G J H' f b fs' ms) _ _ (Forall2_self _)) by (intros b b' m ->; apply IHc; exact F).
      destruct (push_fold (fun b ms => push_cls G J H' f b fs' ms) (jp_bases (rc_push rc)) ms) as [ms1| | | |]; cbn [rbind]; try reflexivity.
      apply (push_fold_alike eq); [apply Forall2_self|]. intros fd fd' m ->. pose proof (members_lookup ro (jf_key fd') fs fs' F) as ML.
      destruct (alookup fkey_eqb (jf_key fd') fs) as [v|], (alookup fkey_eqb (jf_key fd') fs') as [v'|]; try contradiction; [|reflexivity]. rewrite (IH _ _ _ ML). reflexivity.
  Qed.
End Push.

(** data *)
Lemma ids_nil ro : same_but_ids ro [] [].
Proof. exists []. repeat split; destruct H. Qed.
Lemma ids_same ro bs : same_but_ids ro bs bs.
Proof. exists [Same bs]. cbn. rewrite app_nil_r. repeat split; destruct H as [H| []]; discriminate. Qed.
Lemma ids_app ro b1 b1' b2 b2' : same_but_ids ro b1 b1' -> same_but_ids ro b2 b2' -> same_but_ids ro (b1 ++ b2) (b1' ++ b2').
Proof.
  intros (p1 & -> & -> & P1) (p2 & -> & -> & P2). exists (p1 ++ p2). rewrite !map_app, !concat_app. split; [reflexivity|]. split; [reflexivity|].
  intros m a a' Hi. apply in_app_or in Hi. destruct Hi as [Hi|Hi]; [apply P1|apply P2]; exact Hi.
Qed.
Lemma ids_ref (ro : renaming) m a a' : m = 1%N \/ m = 2%N -> ro a a' -> same_but_ids ro (reference m a) (reference m a').
Proof. intros M R. exists [Reference m a a']. cbn. rewrite !app_nil_r. split; [reflexivity|]. split; [reflexivity|]. intros m0 b b' [[= <- <- <-]| []]. split; assumption. Qed.
Lemma head_ok m a : wr_ptr_head m a = ROk (reference m a).
Proof.
  unfold reference. assert (E : exists bs, wr_ptr_head m a = ROk bs); [|destruct E as [bs E]; rewrite E; reflexivity].
  unfold wr_ptr_head. destruct (bigId a) eqn:E; [eauto|]. unfold bigId in E. apply N.leb_gt in E.
  destruct (wr_varint_ok a) as [bs Eb]; [eapply N.lt_trans; [exact E|reflexivity]|]. rewrite Eb. cbn [rbind]. eauto.
Qed.
Definition wrote ro (x y : bytes * list N) : Prop := same_but_ids ro (fst x) (fst y) /\ Forall2 ro (snd x) (snd y).
Lemma table_alike ro a a' W W' : one_to_one ro -> ro a a' -> Forall2 ro W W' -> existsb (N.eqb a) W = existsb (N.eqb a') W'.
Proof.
  intros O R. induction 1 as [|b b' W W' X F IH]; [reflexivity|]. cbn [existsb]. rewrite IH. f_equal. pose proof (O a a' b b' R X) as E.
  destruct (N.eqb_spec a b), (N.eqb_spec a' b'); tauto.
Qed.
Lemma wrote_iter {A A'} ro (I : A -> A' -> Prop) (w : A -> list N -> res (bytes * list N)) (w' : A' -> list N -> res (bytes * list N)) l l' : Forall2 I l l' ->
  (forall x x' W W', I x x' -> Forall2 ro W W' -> same_outcome (wrote ro) (w x W) (w' x' W')) ->
  forall W W', Forall2 ro W W' -> same_outcome (wrote ro) (wr_iter w l W) (wr_iter w' l' W').
Proof.
  intros F H. induction F as [|x x' l l' X F IH]; intros W W' FW; cbn [wr_iter]; [split; [apply ids_nil|exact FW]|].
  eapply outcome_bind; [apply H; eassumption|]. intros [b1 W1] [b1' W1'] [B1 F1]. eapply outcome_bind; [apply IH; exact F1|]. intros [b2 W2] [b2' W2'] [B2 F2].
  split; [apply ids_app; assumption|exact F2].
Qed.

Section Write.
  Variable G : genv.
  Variables H H' : heap.
  Variable ro : renaming.
  Hypothesis HO : one_to_one ro.
  Hypothesis HH : heaps_alike ro H H'.

  Lemma write_alike f :
    (forall ver t v v' W W', alike ro v v' -> Forall2 ro W W' -> same_outcome (wrote ro) (write G H f ver t v W) (write G H' f ver t v' W'))
    /\ (forall ver c fs fs' W W', Forall2 (pairwise ro) fs fs' -> Forall2 ro W W' -> same_outcome (wrote ro) (write_cls G H f ver c fs W) (write_cls G H' f ver c fs' W')).
  Proof.
    induction f as [|f [IH IHc]]; [split; repeat intro; exact I|]. split.
    - intros ver t v v' W W' A F. rewrite !write_S. unfold write_body.
      assert (ST : forall bs, wrote ro (bs, W) (bs, W')) by (intros; split; [apply ids_same|exact F]).
      assert (OK : forall m : res bytes, same_outcome (wrote ro) (let! bs := m in ROk (bs, W)) (let! bs := m in ROk (bs, W'))) by (intros; apply outcome_same; intros; apply ST).
      assert (CO : forall l l' t', Forall2 (alike ro) l l' -> same_outcome (wrote ro)
        (let! p := wr_varint (N.of_nat (length l)) in let! (b, W1) := wr_iter (write G H f 0 t') l W in ROk (p ++ b, W1))
        (let! p := wr_varint (N.of_nat (length l')) in let! (b, W1) := wr_iter (write G H' f 0 t') l' W' in ROk (p ++ b, W1))).
      { intros l l' t' Fl. rewrite (alikes_length _ _ _ Fl). apply outcome_same. intros p. eapply outcome_bind; [eapply (wrote_iter ro (alike ro)); [exact Fl| |exact F]|].
        - intros x x' W1 W1' Ax F1. apply IH; assumption.
        - intros [b1 W1] [b1' W1'] [B1 F1]. split; [apply ids_app; [apply ids_same|exact B1]|exact F1]. }
      assert (ONE : forall (bs : bytes) t' x x' W1 W1', alike ro x x' -> Forall2 ro W1 W1' -> forall hd hd', same_but_ids ro hd hd' -> same_outcome (wrote ro)
        (let! (bx, W2) := write G H f 0 t' x W1 in ROk (hd ++ bx, W2)) (let! (bx, W2) := write G H' f 0 t' x' W1' in ROk (hd' ++ bx, W2))).
      { intros bs t' x x' W1 W1' Ax F1 hd hd' Hd. eapply outcome_bind; [apply IH; eassumption|]. intros [b1 W2] [b1' W2'] [B1 F2]. split; [apply ids_app; assumption|exact F2]. }
      destruct t; try (destruct A; first [exact I | apply ST | apply OK]; fail).
      + destruct A; try exact I. destruct (bin_kind k); [apply ST|exact I].
      + destruct A; try exact I. destruct (bin_kind k); [apply ST|exact I].
      + destruct A; try exact I. apply CO. assumption.
      + destruct A; try exact I. apply CO. assumption.
      + destruct A; try exact I. apply CO. assumption.
      + destruct A as [ | | | | | | |ka va ka' va' Bk Bv| | | | | | | |]; try exact I.
        eapply outcome_bind; [apply IH; eassumption|]. intros [b1 W1] [b1' W1'] [B1 F1]. eapply outcome_bind; [apply IH; eassumption|]. intros [b2 W2] [b2' W2'] [B2 F2].
        split; [apply ids_app; assumption|exact F2].
      + destruct A; try exact I; [apply ST|]. exact (ONE [] t x x' W W' A F [_] [_] (ids_same ro _)).
      + destruct A; try exact I; [apply ST|]. exact (ONE [] t x x' W W' A F [_] [_] (ids_same ro _)).
      + destruct A as [ | | | | | | | | | | |a a' R| | | |]; try exact I; [apply ST|]. rewrite (table_alike ro a a' W W' HO R F). rewrite !head_ok. cbn [rbind].
        destruct (existsb (N.eqb a') W'); [split; [apply ids_ref; [right; reflexivity|exact R]|exact F]|].
        destruct (HH a a' R) as (u & x & x' & E1 & E2 & B). rewrite E1, E2. destruct (ty_eqb t u); [|exact I].
        apply (ONE []); [exact B|constructor; assumption|apply ids_ref; [left; reflexivity|exact R]].
      + destruct A as [ | | | | | | | | | | | |i x x' B| | |]; try exact I; [|reflexivity]. destruct (nth_error ts i) as [t'|]; [|exact I].
        destruct t'; try (exact (ONE [] _ x x' W W' B F [_] [_] (ids_same ro _))). apply ST.
      + destruct A as [ | | | | | | | | | | | | | | |fs fs' Fs]; try exact I. apply IHc; assumption.
      + destruct A as [ | | | | | | | | |x x' B| | | | | |]; try exact I; [apply OK|]. destruct B; try exact I. apply OK.
    - intros ver c fs fs' W W' Fs F. rewrite !write_cls_S. unfold write_cls_body. destruct (g_class G c) as [rc|]; [|exact I]. cbv zeta.
      eapply outcome_bind; [eapply (wrote_iter ro eq); [apply Forall2_self| |exact F]; intros b b' W1 W1' <- F1; apply IHc; assumption|].
      intros [b1 W1] [b1' W1'] [B1 F1]. apply outcome_same. intros bv. set (ver' := if _ && _ then _ else _).
      eapply outcome_bind; [eapply (wrote_iter ro eq); [apply Forall2_self| |exact F1]|].
      + intros fd fd' W2 W2' <- F2. cbv beta. destruct (visible ver' fd); [|split; [apply ids_nil|exact F2]].
        pose proof (members_lookup ro (bf_key fd) fs fs' Fs) as ML. destruct (alookup fkey_eqb (bf_key fd) fs) as [v|], (alookup fkey_eqb (bf_key fd) fs') as [v'|]; try contradiction; [|exact I].
        apply IH; assumption.
      + intros [b2 W2] [b2' W2'] [B2 F2]. split; [|exact F2]. cbn [fst]. apply ids_app; [exact B1|]. apply ids_app; [apply ids_same|exact B2].
  Qed.
End Write.
