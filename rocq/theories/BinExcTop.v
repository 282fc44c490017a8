(** BinExcTop.v -- reading which stops in the middle: members are restored in order *)
From Coq Require Import List NArith ZArith Bool Lia Permutation.
From Verif Require Import Base BaseFacts Bytes BytesFacts Types TypesFacts BinModel FuelFacts BinSpec BinSafeSpec BinSafe BinStream BinFacts BinTerm BinTop
  BinExc BinExcFacts BinExcSpec.
Import ListNotations.

Lemma xread_ext G f ver t old s st v r st' x : xread G f ver t old s st = XOk v r st' -> xread G f ver t old (s ++ x) st = XOk v (r ++ x) st'.
Proof.
  intros E. destruct (xread_erase G f) as [Ev _]. pose proof (Ev ver t old s st) as E1. rewrite E in E1. cbn in E1. symmetry in E1.
  apply (read_ext _ _ _ _ _ _ _ _ _ _ x) in E1. rewrite <- Ev in E1.
  destruct (xread G f ver t old (s ++ x) st); cbn in E1; inversion E1; reflexivity.
Qed.

Section Progress.
  Variable G : genv.
  Variable ud : bool.
  Hypothesis HA : alloc_ok G.
  Hypothesis HP : place_ok G.
  Hypothesis HE : env_ok G ud.
  Variable lay : list (fkey * ty).
  Notation fok := (members_typed G ud).
  Notation lk := (alookup fkey_eqb).
  Notation prog := (progress G ud lay).

  Definition step_ok (R : list (fkey * val) -> bytes -> rstate -> xres (list (fkey * val))) (L : list fkey) : Prop :=
    (forall os s st os' s' st', fok (r_heap st) lay os -> state_ok G ud st -> R os s st = XOk os' s' st' ->
       fok (r_heap st') lay os' /\ state_ok G ud st' /\ heap_extends (r_heap st) (r_heap st')
       /\ (forall k, ~ In k L -> lk k os' = lk k os)
       /\ forall x, R os (s ++ x) st = XOk os' (s' ++ x) st')
    /\ (forall os q y st e now st2 after s' st', fok (r_heap st) lay os -> state_ok G ud st ->
       R os q st = XThrow e now st2 -> R os (q ++ y) st = XOk after s' st' ->
       prog L os (r_heap st) after (r_heap st') now (r_heap st2)).

  Lemma hx_refl h : heap_extends h h. Proof. intros a c E; exact E. Qed.
  Lemma hx_trans a b c : heap_extends a b -> heap_extends b c -> heap_extends a c.
  Proof. intros X Y k v E. apply Y, X, E. Qed.

  Lemma step_nil : step_ok (fun os s st => XOk os s st) [].
  Proof.
    split.
    - intros os s st os' s' st' F S E. inversion E; subst. repeat split; try assumption; try apply F; try apply S; auto using hx_refl.
    - intros os q y st e now st2 after s' st' F S E. discriminate.
  Qed.

  Lemma step_seq R1 R2 L1 L2 : step_ok R1 L1 -> step_ok R2 L2 ->
    step_ok (fun os s st => xseq (R1 os s st) (fun os1 => os1) (fun os1 s1 st1 => R2 os1 s1 st1)) (L1 ++ L2).
  Proof.
    intros [A1 B1] [A2 B2]. split.
    - intros os s st os' s' st' F S E. destruct (R1 os s st) as [os1 s1 st1|e os1 st1| | |] eqn:E1; cbn [xseq] in E; try discriminate.
      destruct (A1 _ _ _ _ _ _ F S E1) as (F1 & S1 & X1 & K1 & T1). destruct (A2 _ _ _ _ _ _ F1 S1 E) as (F2 & S2 & X2 & K2 & T2).
      split; [exact F2|]. split; [exact S2|]. split; [eapply hx_trans; eauto|]. split.
      + intros k Hk. rewrite K2, K1; [reflexivity| |]; intros H; apply Hk, in_or_app; auto.
      + intros x. rewrite T1. cbn [xseq]. apply T2.
    - intros os q y st e now st2 after s' st' F S E Ef.
      destruct (R1 os q st) as [os1 s1 st1|e1 os1 st1| | |] eqn:E1; cbn [xseq] in E; try discriminate.
      + destruct (A1 _ _ _ _ _ _ F S E1) as (F1 & S1 & X1 & K1 & T1). rewrite T1 in Ef. cbn [xseq] in Ef.
        destruct (B2 _ _ _ _ _ _ _ _ _ _ F1 S1 E Ef) as (d & c & t & mid & hm & EL & Hc & N1 & N2 & N3 & Fm & X2 & X3 & X4).
        exists (L1 ++ d), c, t, mid, hm. rewrite EL, app_assoc. split; [reflexivity|]. split; [exact Hc|]. split; [exact N1|]. split; [exact N2|].
        split; [|split; [exact Fm|split; [exact (hx_trans _ _ _ X1 X2)|split; assumption]]].
        intros k Hk. rewrite N3, K1; [reflexivity| |]; intros H; apply Hk, in_or_app; auto.
      + inversion E; subst. destruct (R1 os (q ++ y) st) as [os1 s1 st1|e1 os1 st1| | |] eqn:E2; cbn [xseq] in Ef; try discriminate.
        destruct (A1 _ _ _ _ _ _ F S E2) as (F1 & S1 & X1 & K1 & T1). destruct (A2 _ _ _ _ _ _ F1 S1 Ef) as (F2 & S2 & X2 & K2 & T2).
        destruct (B1 _ _ _ _ _ _ _ _ _ _ F S E1 E2) as (d & c & t & mid & hm & EL & Hc & N1 & N2 & N3 & Fm & X3 & X4 & X5).
        exists d, c, (t ++ L2), mid, hm. rewrite EL, <- !app_assoc. split; [reflexivity|]. split; [exact Hc|]. split; [exact N1|].
        split; [|split; [exact N3|split; [exact Fm|split; [exact X3|split; [exact (hx_trans _ _ _ X4 X2)|exact X5]]]]].
        intros k Hk. rewrite N2, K2; [reflexivity| |]; intros H; apply Hk; rewrite ?app_assoc; apply in_or_app; [right|left]; exact H.
  Qed.

  Lemma step_prim {A} (m : bytes -> res (A * bytes)) R L :
    (forall s v s' x, m s = ROk (v, s') -> m (s ++ x) = ROk (v, s' ++ x)) -> (forall v, step_ok (R v) L) ->
    step_ok (fun os s st => xprim (m s) os st (fun v s' => R v os s' st)) L.
  Proof.
    intros Hm HR.
    assert (P1: forall os s st os' s' st', fok (r_heap st) lay os -> state_ok G ud st ->
       xprim (m s) os st (fun v s' => R v os s' st) = XOk os' s' st' ->
       fok (r_heap st') lay os' /\ state_ok G ud st' /\ heap_extends (r_heap st) (r_heap st')
       /\ (forall k, ~ In k L -> lk k os' = lk k os)
       /\ forall x, xprim (m (s ++ x)) os st (fun v s' => R v os s' st) = XOk os' (s' ++ x) st').
    { intros os s st os' s' st' F S E. destruct (m s) as [[v s1]|e| | |] eqn:Em; cbn [xprim] in E; try discriminate.
      destruct (HR v) as [A1 _]. destruct (A1 _ _ _ _ _ _ F S E) as (F1 & S1 & X1 & K1 & T1).
      split; [exact F1|]. split; [exact S1|]. split; [exact X1|]. split; [exact K1|].
      intros x. rewrite (Hm _ _ _ _ Em). cbn [xprim]. apply T1. }
    split; [exact P1|].
    intros os q y st e now st2 after s' st' F S E Ef.
    destruct (m q) as [[v s1]|e1| | |] eqn:Em; cbn [xprim] in E; try discriminate.
    - rewrite (Hm _ _ _ _ Em) in Ef. cbn [xprim] in Ef. destruct (HR v) as [_ B1]. eapply B1; eauto.
    - inversion E; subst. destruct (P1 _ _ _ _ _ _ F S Ef) as (F1 & S1 & X1 & K1 & T1).
      exists [], [], L, now, (r_heap st2). split; [reflexivity|]. split; [cbn; lia|]. split; [reflexivity|]. split; [|split; [reflexivity|]].
      + intros k Hk. symmetry. apply K1. exact Hk.
      + split; [exact F|]. auto using hx_refl.
  Qed.

  Lemma step_iter {A} (r : A -> list (fkey * val) -> bytes -> rstate -> xres (list (fkey * val))) l Ls :
    Forall2 (fun a La => step_ok (r a) La) l Ls -> step_ok (xiter r l) (concat Ls).
  Proof.
    induction 1 as [|a La l Ls Ha _ IH]; [exact step_nil|]. cbn [concat]. exact (step_seq (r a) (xiter r l) _ _ Ha IH).
  Qed.

  (** reading a member *)
  Lemma step_member f ver fd :
    lk (bf_key fd) lay = Some (bf_ty fd) -> readable G (bf_ty fd) ->
    step_ok (fun os s st =>
      if visible ver fd then
        match lk (bf_key fd) os with
        | Some o => xseq (xread G f ver (bf_ty fd) o s st) (fun x => aupdate fkey_eqb (bf_key fd) x os)
                      (fun x s' st' => XOk (aupdate fkey_eqb (bf_key fd) x os) s' st')
        | None => XStuck
        end
      else XOk os s st) [bf_key fd].
  Proof.
    intros Hl Hr. destruct (xsafe_all G ud HA HP HE f) as [XV _].
    assert (Keep: forall (x : val) os k, ~ In k [bf_key fd] -> lk k (aupdate fkey_eqb (bf_key fd) x os) = lk k os).
    { intros x os k Hk. apply (alookup_aupdate_other _ fkey_eqb_eq). intros E. apply Hk. left. congruence. }
    assert (Upd: forall h h' (x : val) os, fok h lay os -> heap_extends h h' -> has_type G ud h' (bf_ty fd) x -> fok h' lay (aupdate fkey_eqb (bf_key fd) x os)).
    { intros h h' x os [K F] X Hx. split; [rewrite aupdate_keys; exact K|]. intros k t v E1 E2.
      destruct (fkey_eq_dec (bf_key fd) k) as [<-|Hn].
      - destruct (lk (bf_key fd) os) as [o|] eqn:Eo.
        + rewrite (alookup_aupdate_same _ fkey_eqb_eq) in E2 by (eapply alookup_some_key; [apply fkey_eqb_eq|exact Eo]).
          inversion E2; subst v. rewrite Hl in E1. inversion E1; subst t. exact Hx.
        + exfalso. assert (Hk: In (bf_key fd) (map fst (aupdate fkey_eqb (bf_key fd) x os))) by (eapply alookup_some_key; [apply fkey_eqb_eq|exact E2]).
          rewrite aupdate_keys in Hk. apply (alookup_some_in _ fkey_eqb_eq) in Hk. destruct Hk as [w Hw]. congruence.
      - rewrite (alookup_aupdate_other _ fkey_eqb_eq) in E2 by congruence.
        eapply ht_mono_h; [apply extends_hle; exact X|]. eapply F; eauto. }
    split.
    - intros os s st os' s' st' F S E. destruct (visible ver fd).
      2: { inversion E; subst. repeat split; try assumption; try apply F; try apply S; auto using hx_refl. }
      destruct (lk (bf_key fd) os) as [o|] eqn:Eo; [|discriminate].
      pose proof (XV ver (bf_ty fd) o s st Hr (or_intror (proj2 F _ _ _ Hl Eo)) S) as Q.
      destruct (xread G f ver (bf_ty fd) o s st) as [x s1 st1|e x st1| | |] eqn:Ex; cbn [xseq] in E; try discriminate.
      cbn [xpost] in Q. destruct Q as [Hx [S1 X1]]. inversion E; subst.
      split; [eapply Upd; eauto|]. split; [exact S1|]. split; [exact X1|]. split; [intros k Hk; apply Keep; exact Hk|].
      intros z. rewrite (xread_ext _ _ _ _ _ _ _ _ _ _ z Ex). reflexivity.
    - intros os q y st e now st2 after s' st' F S E Ef. destruct (visible ver fd); [|discriminate].
      destruct (lk (bf_key fd) os) as [o|] eqn:Eo; [|discriminate].
      pose proof (XV ver (bf_ty fd) o q st Hr (or_intror (proj2 F _ _ _ Hl Eo)) S) as Q1.
      pose proof (XV ver (bf_ty fd) o (q ++ y) st Hr (or_intror (proj2 F _ _ _ Hl Eo)) S) as Q2.
      destruct (xread G f ver (bf_ty fd) o q st) as [x s1 st1|e1 x st1| | |] eqn:Ex; cbn [xseq] in E; try discriminate.
      destruct (xread G f ver (bf_ty fd) o (q ++ y) st) as [x2 s3 st3|e3 x2 st3| | |] eqn:Ex2; cbn [xseq] in Ef; try discriminate.
      cbn [xpost] in Q1, Q2. destruct Q1 as [_ [S1 X1]]. destruct Q2 as [Hx [S2 X2]]. inversion E; subst. inversion Ef; subst.
      exists [], [bf_key fd], [], os, (r_heap st). split; [reflexivity|]. split; [cbn; lia|]. split; [intros k Hk; apply Keep; exact Hk|].
      split; [intros k Hk; symmetry; apply Keep; exact Hk|]. split; [reflexivity|]. split; [exact F|]. auto using hx_refl.
  Qed.

  Definition cls_step f ver c := fun os s st => xseq (xread_cls G f ver c os s st) fst (fun p s1 st1 => XOk (fst p) s1 st1).

  Lemma step_ok_ext R R' L : (forall os s st, R os s st = R' os s st) -> step_ok R L -> step_ok R' L.
  Proof.
    intros Heq [A B]. split.
    - intros os s st os' s' st' F S E. rewrite <- Heq in E. destruct (A _ _ _ _ _ _ F S E) as (F1 & S1 & X1 & K1 & T1).
      repeat (split; [assumption|]). intros x. rewrite <- Heq. apply T1.
    - intros os q y st e now st2 after s' st' F S E Ef. rewrite <- Heq in E, Ef. eapply B; eauto.
  Qed.

  Lemma cls_step_ok f : forall ver c rc p L, read_members_of G c L -> g_class G c = Some rc -> rc_rd rc = Some p ->
    (forall k t, lk k (rc_layout rc) = Some t -> lk k lay = Some t) -> step_ok (cls_step f ver c) L.
  Proof.
    induction f as [|f IH]; intros ver c rc p L HL Hc Hrd Hlay.
    { split; intros; discriminate. }
    destruct HL as [c rc' p' Ls Hc' Hrd' HB]. rewrite Hc in Hc'. inversion Hc'; subst rc'. rewrite Hrd in Hrd'. inversion Hrd'; subst p'.
    set (ver_m := fun s1 => if (bp_vmax p =? 0)%N then ROk (ver, s1)
                 else let! (v, s') := rd_varint s1 in
                      if (v <=? bp_vmax p)%N then ROk (v, s') else RThrow (ExVersion v (bp_vmax p) (rc_name rc))).
    set (mem := fun ver' (fd : bfield) os s st =>
      if visible ver' fd then
        match lk (bf_key fd) os with
        | Some o => xseq (xread G f ver' (bf_ty fd) o s st) (fun x => aupdate fkey_eqb (bf_key fd) x os)
                      (fun x s' st' => XOk (aupdate fkey_eqb (bf_key fd) x os) s' st')
        | None => XStuck
        end
      else XOk os s st).
    apply (step_ok_ext (fun os s st => xseq (xiter (cls_step f ver) (bp_bases p) os s st) (fun os1 => os1)
      (fun os1 s1 st1 => xprim (ver_m s1) os1 st1 (fun ver' s2 => xiter (mem ver') (bp_fields p) os1 s2 st1)))).
    - intros os s st. unfold cls_step at 2. rewrite xread_cls_S. unfold xread_cls_body. rewrite Hc, Hrd.
      unfold cls_step, ver_m, mem.
      match goal with |- xseq ?m _ _ = _ => destruct m; cbn [xseq fst]; try reflexivity end.
      match goal with |- xprim ?m _ _ _ = _ => destruct m as [[ver' s2]|e| | |]; cbn [xprim xseq fst]; try reflexivity end.
      match goal with |- ?m = xseq (xseq ?m _ _) _ _ => destruct m; reflexivity end.
    - apply (step_seq _ (fun os1 s1 st1 => xprim (ver_m s1) os1 st1 (fun ver' s2 => xiter (mem ver') (bp_fields p) os1 s2 st1))).
      + apply step_iter.
        assert (HI: forall b, In b (bp_bases p) -> forall Lb, read_members_of G b Lb -> step_ok (cls_step f ver b) Lb).
        { intros b Hb Lb HLb. destruct (eo_bases _ _ HE c rc p b Hc Hrd Hb) as (rb & pb & Eb & Epb & Hsub).
          eapply (IH ver b rb pb); eauto. }
        clear -HB HI. induction HB as [|b Lb bs Ls Hb HB IHB]; constructor.
        * apply HI; [left; reflexivity|exact Hb].
        * apply IHB. intros b' Hb'. apply HI. right. exact Hb'.
      + apply (step_prim ver_m (fun ver' os s st => xiter (mem ver') (bp_fields p) os s st)).
        * intros s v s' x E. unfold ver_m in *. destruct (bp_vmax p =? 0)%N; [inversion E; reflexivity|].
          destruct (rd_varint_trunc x s) as [T|T].
          -- rewrite T in E. discriminate.
          -- destruct (rd_varint s) as [[w s1]|e| | |]; cbn in E; try discriminate. rewrite T. cbn. destruct (w <=? bp_vmax p)%N; [|discriminate].
             inversion E; reflexivity.
        * intros ver'. replace (map bf_key (bp_fields p)) with (concat (map (fun fd => [bf_key fd]) (bp_fields p))).
          2: { clear. induction (bp_fields p) as [|fd l IHl]; cbn; [reflexivity|]. rewrite IHl. reflexivity. }
          apply step_iter.
          assert (HI: forall fd, In fd (bp_fields p) -> lk (bf_key fd) lay = Some (bf_ty fd) /\ readable G (bf_ty fd)).
          { intros fd Hfd. destruct (eo_fields _ _ HE c rc p fd Hc Hrd Hfd) as [A B]. split; [apply Hlay; exact A|exact B]. }
          induction (bp_fields p) as [|fd l IHl]; cbn [map]; constructor.
          -- destruct (HI fd (or_introl eq_refl)) as [A B]. exact (step_member f ver' fd A B).
          -- apply IHl. intros g Hg. apply HI. right. exact Hg.
  Qed.
End Progress.

Lemma xread_cls_ext G f ver c os s st a r st' x : xread_cls G f ver c os s st = XOk a r st' -> xread_cls G f ver c os (s ++ x) st = XOk a (r ++ x) st'.
Proof.
  intros E. destruct (xread_erase G f) as [_ Ev]. pose proof (Ev ver c os s st) as E1. rewrite E in E1. destruct a as [fs v]. cbn in E1. symmetry in E1.
  apply (read_cls_ext _ _ _ _ _ _ _ _ _ _ _ x) in E1. rewrite <- Ev in E1.
  destruct (xread_cls G f ver c os (s ++ x) st) as [[fs2 v2] r2 st2|e [fs2 v2] st2| | |]; cbn in E1; inversion E1; reflexivity.
Qed.

(** ** whatever is read *)
Theorem exception_safe : forall G ud, alloc_ok G -> place_ok G -> env_ok G ud -> by_value_ok G ->
  forall ver t old s st, readable G t -> has_type G ud (r_heap st) t old -> state_ok G ud st ->
  exists F, forall fuel, (F <= fuel)%nat -> exists v st',
    ((exists r, xread G fuel ver t old s st = XOk v r st') \/ (exists e, xread G fuel ver t old s st = XThrow e v st' /\ e <> ExBadVariant))
    /\ has_type G ud (r_heap st') t v /\ state_ok G ud st' /\ heap_extends (r_heap st) (r_heap st').
Proof.
  intros G ud HA HP HE HB ver t old s st R T S. destruct (arbitrary_bytes_safe G ud HA HP HE HB ver t old s st R T S) as [F HF].
  exists F. intros fuel Hf. specialize (HF fuel Hf). destruct (xread_erase G fuel) as [Ev _]. specialize (Ev ver t old s st).
  destruct (xsafe_all G ud HA HP HE fuel) as [XV _]. specialize (XV ver t old s st R (or_intror T) S).
  destruct (xread G fuel ver t old s st) as [v r st'|e v st'| | |]; cbn [erase xpost] in Ev, XV.
  - exists v, st'. destruct XV as [Hv [S' X']]. split; [left; eauto|]. auto.
  - exists v, st'. destruct XV as [Hv [S' X']]. destruct HF as [(v0 & r0 & st0 & E & _)|(e0 & E & Hne)]; [congruence|].
    split; [right; exists e; split; [reflexivity|congruence]|]. split; [|auto].
    destruct Hv as [Hv| ->]; [exact Hv|]. eapply ht_mono_h; [apply extends_hle; exact X'|exact T].
  - contradiction.
  - destruct HF as [(v0 & r0 & st0 & E & _)|(e0 & E & _)]; congruence.
  - contradiction.
Qed.

(** ** where the input ends *)
Theorem cut_anywhere : forall G ud, alloc_ok G -> place_ok G -> env_ok G ud ->
  forall fuel c rc L os s h fs w r st',
  g_class G c = Some rc -> read_members_of G c L ->
  has_type G ud h (TStruct c) (VObj os) -> heap_typed G ud h ->
  restoreFromBinary G fuel c os s h = ROk (fs, w, r, st') ->
  forall q x, s = q ++ x ++ r -> x <> [] ->
  exists now w' st2, xrestoreFromBinary G fuel c os q h = XThrow ExIo (now, w') st2
    /\ has_type G ud (r_heap st2) (TStruct c) (VObj now)
    /\ progress G ud (rc_layout rc) L os h fs (r_heap st') now (r_heap st2).
Proof.
  intros G ud HA HP HE fuel c rc L os s h fs w r st' Hc HL HT Hh E q x -> Hx. unfold restoreFromBinary in E. unfold xrestoreFromBinary.
  set (st := {| r_heap := h; r_ptr := [] |}) in *.
  assert (S: state_ok G ud st) by (constructor; [exact Hh|intros id a t El; discriminate]).
  assert (Hrd: exists p, rc_rd rc = Some p).
  { inversion HL as [c0 rc0 p0 Ls0 Hc0 Hrd0 HB0]; subst. rewrite Hc in Hc0. inversion Hc0; subst. eauto. }
  destruct Hrd as [p Hrd].
  assert (F: members_typed G ud h (rc_layout rc) os).
  { inversion HT as [ | | | | | | | | | | | | | | | | | | | | |c0 rc0 fs0 Hc0 K0 F0 | | | | | | ]; subst. rewrite Hc in Hc0. inversion Hc0; subst. split; assumption. }
  destruct (read_trunc (x ++ r) G fuel) as [_ T]. specialize (T 0%N c os q st).
  assert (Eq: read_cls G fuel 0 c os q st = RThrow ExIo).
  { destruct T as [T|T]; [exact T|]. rewrite E in T. exfalso.
    destruct (read_cls G fuel 0 c os q st) as [[[[v2 w2] r2] st2]| | | |]; cbn in T; try discriminate. inversion T as [[Ev Ew Er Es]].
    apply (f_equal (@length _)) in Er. rewrite !app_length in Er. destruct x; [contradiction|cbn in Er; lia]. }
  destruct (xread_erase G fuel) as [_ Ev]. pose proof (Ev 0%N c os q st) as E1. pose proof (Ev 0%N c os (q ++ x ++ r) st) as E2.
  rewrite Eq in E1. rewrite E in E2.
  destruct (xread_cls G fuel 0 c os q st) as [[fs1 v1] r1 st1|e [now w'] st2| | |] eqn:X1; cbn [erase_cls] in E1; try discriminate.
  destruct (xread_cls G fuel 0 c os (q ++ x ++ r) st) as [[fs2 v2] r2 st3|e2 [now2 w2] st3| | |] eqn:X2; cbn [erase_cls] in E2; try discriminate.
  inversion E1; subst e. inversion E2; subst fs2 v2 r2 st3. exists now, w', st2. split; [reflexivity|]. split.
  - destruct (xsafe_all G ud HA HP HE fuel) as [_ XC].
    specialize (XC 0%N c rc p (rc_layout rc) os q st Hc Hrd (fun k t H => H) F S). rewrite X1 in XC. cbn [xpost fst] in XC.
    destruct XC as [[K1 F1] _]. econstructor; eauto.
  - destruct (cls_step_ok G ud HA HP HE (rc_layout rc) fuel 0%N c rc p L HL Hc Hrd (fun k t H => H)) as [_ B].
    apply (B os q (x ++ r) st ExIo now st2 fs r st' F S); unfold cls_step; rewrite ?X1, ?X2; reflexivity.
Qed.

Lemma rd_iter_erase G f ver bs os s st os1 s1 st1 : read_bases G f ver bs os s st = ROk (os1, s1, st1) ->
  xiter (fun b os s st => xseq (xread_cls G f ver b os s st) fst (fun p s1 st1 => XOk (fst p) s1 st1)) bs os s st = XOk os1 s1 st1.
Proof.
  unfold read_bases. intros E. rewrite (erase_iter (fun b os s st => xseq (xread_cls G f ver b os s st) fst (fun p s1 st1 => XOk (fst p) s1 st1))) in E.
  2: { intros b os0 s0 st0. destruct (xread_erase G f) as [_ IHc]. rewrite <- IHc.
       destruct (xread_cls G f ver b os0 s0 st0) as [[os2 v2] s2 st2|e a st2| | |]; reflexivity. }
  destruct (xiter _ bs os s st); cbn in E; inversion E; reflexivity.
Qed.

(** ** a version which is not supported: own members are untouched *)
Theorem refused_untouched : forall G f ver c rc p os s st os1 s1 st1,
  g_class G c = Some rc -> rc_rd rc = Some p -> bp_vmax p <> 0%N ->
  read_bases G f ver (bp_bases p) os s st = ROk (os1, s1, st1) ->
  forall v s2, rd_varint s1 = ROk (v, s2) -> (bp_vmax p < v)%N ->
  exists w, xread_cls G (S f) ver c os s st = XThrow (ExVersion v (bp_vmax p) (rc_name rc)) (os1, w) st1.
Proof.
  intros G f ver c rc p os s st os1 s1 st1 Hc Hrd Hv HB v s2 Ev Hlt. exists 0%N. rewrite xread_cls_S. unfold xread_cls_body. rewrite Hc, Hrd.
  rewrite (rd_iter_erase _ _ _ _ _ _ _ _ _ _ HB). cbn [xseq]. apply N.eqb_neq in Hv. rewrite Hv, Ev. cbn [rbind].
  replace (v <=? bp_vmax p)%N with false by (symmetry; apply N.leb_gt; exact Hlt). reflexivity.
Qed.

(** ** sequences *)
Lemma nth_error_skipn_add {A} (l : list A) : forall n m, nth_error (skipn n l) m = nth_error l (n + m).
Proof. induction l as [|x l IH]; intros [|n] m; cbn; try reflexivity; [destruct m; reflexivity|]. apply IH. Qed.
Lemma xelements_cut (r : val -> bytes -> rstate -> xres val) :
  (forall o s st v s' st' x, r o s st = XOk v s' st' -> r o (s ++ x) st = XOk v (s' ++ x) st') ->
  forall l q y st e now st2 after s' st',
  xelements r l q st = XThrow e now st2 -> xelements r l (q ++ y) st = XOk after s' st' ->
  exists i, i < length l /\ length now = length l /\ firstn i now = firstn i after /\ skipn (S i) now = skipn (S i) l.
Proof.
  intros Hr. induction l as [|o l IH]; intros q y st e now st2 after s' st' E Ef; cbn [xelements] in E; [discriminate|].
  cbn [xelements] in Ef. destruct (r o q st) as [x s1 st1|e1 x st1| | |] eqn:E1; cbn [xseq] in E; try discriminate.
  - rewrite (Hr _ _ _ _ _ _ y E1) in Ef. cbn [xseq] in Ef.
    destruct (xelements r l s1 st1) as [xs s3 st3|e3 xs st3| | |] eqn:E3; cbn [xseq] in E; try discriminate. inversion E; subst.
    destruct (xelements r l (s1 ++ y) st1) as [ys s4 st4|e4 ys st4| | |] eqn:E4; cbn [xseq] in Ef; try discriminate. inversion Ef; subst.
    destruct (IH _ _ _ _ _ _ _ _ _ E3 E4) as (i & Hi & Hn & H1 & H2). exists (S i). cbn [length firstn skipn].
    split; [lia|]. split; [lia|]. split; [congruence|exact H2].
  - inversion E; subst. exists 0. cbn [length firstn skipn]. split; [lia|]. split; [reflexivity|]. split; reflexivity.
Qed.

Theorem cut_in_sequence : forall G f ver t olds q y n r1 st e now st2 after s' st',
  rd_varint q = ROk (n, r1) ->
  xread G (S f) ver (TSeq t) (VList olds) q st = XThrow e now st2 ->
  read G (S f) ver (TSeq t) (VList olds) (q ++ y) st = ROk (VList after, s', st') ->
  exists l i, now = VList l /\ N.of_nat (length l) = n /\ length l = length after /\ i < length l
    /\ firstn i l = firstn i after
    /\ forall j x, i < j -> nth_error l j = Some x -> nth_error olds j = Some x \/ (length olds <= j /\ x = vinit G t).
Proof.
  intros G f ver t olds q y n r1 st e now st2 after s' st' Eq Ex Er.
  destruct (xread_erase G (S f)) as [Ev _]. rewrite <- Ev in Er. rewrite xread_S in Ex, Er. cbn [xread_body] in Ex, Er.
  assert (Eq2: rd_varint (q ++ y) = ROk (n, r1 ++ y)).
  { destruct (rd_varint_trunc y q) as [T|T]; rewrite Eq in T; [discriminate|exact T]. }
  rewrite Eq in Ex. rewrite Eq2 in Er. cbn [xprim] in Ex, Er.
  destruct (xelements (xread G f 0 t) (resize (vinit G t) n olds) r1 st) as [l1 s1 st1|e1 l1 st1| | |] eqn:E1; cbn [xseq] in Ex; try discriminate.
  destruct (xelements (xread G f 0 t) (resize (vinit G t) n olds) (r1 ++ y) st) as [l2 s3 st3|e2 l2 st3| | |] eqn:E2; cbn [xseq erase] in Er; try discriminate.
  inversion Ex; subst. inversion Er; subst. clear Ex Er.
  assert (Hlen: length after = length (resize (vinit G t) n olds)).
  { clear -E2. revert E2. generalize (resize (vinit G t) n olds) as l. generalize (r1 ++ y) as s. intros s l. revert s st s' st' after.
    induction l as [|o l IH]; intros s st s' st' after E; cbn [xelements] in E; [inversion E; reflexivity|].
    destruct (xread G f 0 t o s st) as [x s1 st1|e1 x st1| | |]; cbn [xseq] in E; try discriminate.
    destruct (xelements (xread G f 0 t) l s1 st1) as [xs s3 st3|e1 xs st3| | |] eqn:E3; cbn [xseq] in E; try discriminate.
    inversion E; subst. cbn. f_equal. eapply IH; exact E3. }
  destruct (xelements_cut (xread G f 0 t) (fun o s st v s' st' x => xread_ext G f 0%N t o s st v s' st' x) _ _ _ _ _ _ _ _ _ _ E1 E2) as (i & Hi & Hn & H1 & H2).
  exists l1, i. split; [reflexivity|]. split; [|split; [congruence|split; [lia|split; [exact H1|]]]].
  - rewrite Hn. unfold resize. rewrite app_length, firstn_length, repeat_length. lia.
  - intros j x Hj Ej.
    assert (Ej2: nth_error (resize (vinit G t) n olds) j = Some x).
    { rewrite <- Ej. replace j with (S i + (j - S i)) by lia. rewrite <- !nth_error_skipn_add. rewrite H2. reflexivity. }
    unfold resize in Ej2. destruct (Nat.lt_ge_cases j (length (firstn (N.to_nat n) olds))) as [Hl|Hl].
    + rewrite nth_error_app1 in Ej2 by exact Hl. left. rewrite <- (firstn_skipn (N.to_nat n) olds), nth_error_app1 by exact Hl. exact Ej2.
    + rewrite nth_error_app2 in Ej2 by exact Hl. right. rewrite firstn_length in Hl, Ej2.
      assert (Hjn: j < N.to_nat n).
      { assert (j < length l1) by (apply nth_error_Some; congruence). rewrite Hn in H. unfold resize in H.
        rewrite app_length, firstn_length, repeat_length in H. lia. }
      split; [lia|]. apply nth_error_In in Ej2. apply repeat_spec in Ej2. exact Ej2.
Qed.
