(** EvolveFacts.v -- facts about [across] and [alike] *)
From Coq Require Import List NArith ZArith Bool Lia Permutation.
From Verif Require Import Base BaseFacts Bytes BytesFacts Types TypesFacts BinModel FuelFacts BinSpec BinRoundTrip BinTotal
  BinFacts BinTop EvolveSpec.
Import ListNotations.
Local Open Scope N_scope.

Section E.
  Variables Gw Gr : genv.
  Notation A := (across Gw Gr).

  Lemma across_class c rc : g_class A c = Some rc ->
    exists r, g_class Gr c = Some r /\ rc_layout rc = rc_layout r /\ rc_rd rc = rc_rd r /\ rc_name rc = rc_name r
      /\ rc_dinit rc = rc_dinit r /\ rc_vinit rc = rc_vinit r
      /\ rc_wr rc = match g_class Gw c with Some w => rc_wr w | None => never c end.
  Proof.
    cbn [across g_class]. destruct (g_class Gr c) as [r|]; [|discriminate]. intros E. inversion E; subst. exists r. cbn. auto 10.
  Qed.

  Lemma across_vinit t : vinit A t = vinit Gr t.
  Proof.
    induction t using ty_ind'; cbn [vinit]; try reflexivity; try congruence.
    - f_equal. induction H; cbn; congruence.
    - destruct H; [reflexivity|]. congruence.
    - cbn [across g_class]. destruct (g_class Gr c); reflexivity.
  Qed.
  Lemma across_dinit t : dinit A t = dinit Gr t.
  Proof.
    unfold dinit. destruct t; try reflexivity; try apply across_vinit.
    cbn [across g_class]. destruct (g_class Gr c); reflexivity.
  Qed.
  Lemma across_alloc : alloc_ok Gr -> alloc_ok A. Proof. intros X; exact X. Qed.
  Lemma across_place : place_ok Gr -> place_ok A. Proof. intros X; exact X. Qed.

  (** ** reading *)
  Lemma across_read f :
    (forall ver t o s st, le_res (read A f ver t o s st) (read Gr f ver t o s st))
    /\ (forall ver c os s st, le_res (read_cls A f ver c os s st) (read_cls Gr f ver c os s st)).
  Proof.
    induction f as [|f [IH1 IH2]].
    - split; intros; apply le_res_fuel.
    - split; intros.
      + rewrite !read_S. unfold read_body, emplace. rewrite ?across_vinit, ?across_dinit.
        cbn [across g_lt g_eq g_place g_alloc].
        destruct t; rewrite ?across_vinit, ?across_dinit;
        repeat first [ progress le_step | progress rewrite ?across_vinit, ?across_dinit ].
      + rewrite !read_cls_S. unfold read_cls_body. cbn [across g_class].
        destruct (g_class Gr c) as [r|]; [|apply le_res_refl]. cbn [rc_rd rc_name]. le_step.
  Qed.

  Lemma across_same_value ro t v v' : same_value A ro t v v' -> same_value Gr ro t v v'.
  Proof.
    induction 1; try (econstructor; eauto; fail).
    destruct (across_class _ _ H) as (r & Hr & HL & _). rewrite HL in *.
    eapply sv_struct; eauto.
  Qed.
  Lemma across_iso H h0 h' ro : graph_iso A H h0 h' ro -> graph_iso Gr H h0 h' ro.
  Proof.
    intros [X1 X2 X3 X4 X5]. constructor; auto. intros a a' Ha. destruct (X3 a a' Ha) as (t & x & x' & E1 & E2 & E3 & E4).
    exists t, x, x'. auto using across_same_value.
  Qed.

  (** ** writing *)
  Variables H0 H : heap.
  Hypothesis HH : heap_alike Gw H0 H.

  Lemma iter_alike {X} (R : X -> X -> Prop) (w w' : X -> list N -> res (bytes * list N)) l0 l :
    Forall2 R l0 l -> (forall x0 x W r, R x0 x -> w x W = ROk r -> w' x0 W = ROk r) ->
    forall W r, wr_iter w l W = ROk r -> wr_iter w' l0 W = ROk r.
  Proof.
    intros F Hw. induction F as [|x0 x l0 l Hx F IH]; intros W r E; [exact E|].
    cbn [wr_iter] in *. apply rbind_ok in E. destruct E as [[b1 W1] [E1 E]].
    apply rbind_ok in E. destruct E as [[b2 W2] [E2 E]].
    rewrite (Hw _ _ _ _ Hx E1). cbn [rbind]. rewrite (IH _ _ E2). exact E.
  Qed.
  Lemma iter_impl {X} (w w' : X -> list N -> res (bytes * list N)) l :
    (forall x W r, In x l -> w x W = ROk r -> w' x W = ROk r) ->
    forall W r, wr_iter w l W = ROk r -> wr_iter w' l W = ROk r.
  Proof.
    induction l as [|x l IH]; intros Hw W r E; [exact E|].
    cbn [wr_iter] in *. apply rbind_ok in E. destruct E as [[b1 W1] [E1 E]].
    apply rbind_ok in E. destruct E as [[b2 W2] [E2 E]].
    rewrite (Hw x _ _ (or_introl eq_refl) E1). cbn [rbind]. rewrite (IH (fun y W r Hy => Hw y W r (or_intror Hy)) _ _ E2). exact E.
  Qed.
  Lemma f2_length {X Y} (R : X -> Y -> Prop) l0 l : Forall2 R l0 l -> length l0 = length l.
  Proof. induction 1; cbn; congruence. Qed.
  Lemma same_Forall2 {X} (R : X -> X -> Prop) l : (forall x, R x x) -> Forall2 R l l.
  Proof. intros HR. induction l; constructor; auto. Qed.

  Lemma never_not_ok f ver c fs W r : g_class Gw c = None -> write_cls A H f ver c fs W <> ROk r.
  Proof.
    intros Hc. revert ver fs W r. induction f as [|f IH]; intros ver fs W r E; [discriminate|].
    rewrite write_cls_S in E. unfold write_cls_body in E. cbn [across g_class] in E.
    destruct (g_class Gr c); [|discriminate]. cbn [rc_wr] in E. rewrite Hc in E. cbn [never bp_bases wr_iter] in E.
    apply rbind_ok in E. destruct E as [? [E _]]. apply rbind_ok in E. destruct E as [? [E _]]. eapply IH; exact E.
  Qed.

  Definition members_alike (ver c : N) (fs0 fs : list (fkey * val)) : Prop :=
    forall k e t v, written_as Gw ver c k e t -> alookup fkey_eqb k fs = Some v ->
       exists v0, alookup fkey_eqb k fs0 = Some v0 /\ alike Gw e t v0 v.

  Lemma across_write f :
    (forall ver t v0 v W r, alike Gw ver t v0 v -> write A H f ver t v W = ROk r -> write Gw H0 f ver t v0 W = ROk r)
    /\ (forall ver c fs0 fs W r, members_alike ver c fs0 fs -> write_cls A H f ver c fs W = ROk r -> write_cls Gw H0 f ver c fs0 W = ROk r).
  Proof.
    induction f as [|f [IH1 IH2]]; [split; discriminate|]. split.
    - intros ver t v0 v W r HA E. rewrite write_S in *.
      assert (ItT: forall t l0 l W r, Forall2 (alike Gw 0 t) l0 l ->
          (let! p := wr_varint (N.of_nat (length l)) in let! (b, W1) := wr_iter (write A H f 0 t) l W in ROk (p ++ b, W1)) = ROk r ->
          (let! p := wr_varint (N.of_nat (length l0)) in let! (b, W1) := wr_iter (write Gw H0 f 0 t) l0 W in ROk (p ++ b, W1)) = ROk r).
      { intros t1 l0 l W1 r1 F E1. rewrite (f2_length _ _ _ F). apply rbind_ok in E1. destruct E1 as [p [Ep E1]].
        apply rbind_ok in E1. destruct E1 as [[b W2] [Eb E1]]. rewrite Ep. cbn [rbind].
        rewrite (iter_alike _ _ _ _ _ F (fun x0 x W r => IH1 0 t1 x0 x W r) _ _ Eb). exact E1. }
      destruct HA.
      + destruct t, v; cbn [write_body] in E |- *; try exact E; try discriminate;
        try (eapply ItT; [apply same_Forall2; intros; apply al_same|exact E]; fail).
        * apply rbind_ok in E. destruct E as [[ba W1] [E1 E]]. apply rbind_ok in E. destruct E as [[bb W2] [E2 E]].
          rewrite (IH1 _ _ _ _ _ _ (al_same _ _ _ _) E1). cbn [rbind]. rewrite (IH1 _ _ _ _ _ _ (al_same _ _ _ _) E2). exact E.
        * destruct o as [x|]; [|exact E]. apply rbind_ok in E. destruct E as [[ba W1] [E1 E]].
          rewrite (IH1 _ _ _ _ _ _ (al_same _ _ _ _) E1). exact E.
        * destruct o as [x|]; [|exact E]. apply rbind_ok in E. destruct E as [[ba W1] [E1 E]].
          rewrite (IH1 _ _ _ _ _ _ (al_same _ _ _ _) E1). exact E.
        * destruct o as [a|]; [|exact E]. destruct (existsb (N.eqb a) W); [exact E|].
          apply rbind_ok in E. destruct E as [hd [E1 E]]. rewrite E1. cbn [rbind].
          destruct (hget H a) as [[t' x]|] eqn:Ea; [|discriminate]. destruct (HH _ _ _ Ea) as (x0 & -> & Hx).
          destruct (ty_eqb t t') eqn:Et; [|discriminate]. apply ty_eqb_eq in Et. subst t'.
          apply rbind_ok in E. destruct E as [[ba W1] [E2 E]]. rewrite (IH1 _ _ _ _ _ _ Hx E2). exact E.
        * destruct (nth_error ts i) as [t'|]; [|exact E].
          assert (X: (let! (bx, W1) := write A H f 0 t' v W in ROk (mkb (N.of_nat i) :: bx, W1)) = ROk r ->
             (let! (bx, W1) := write Gw H0 f 0 t' v W in ROk (mkb (N.of_nat i) :: bx, W1)) = ROk r).
          { intros E'. apply rbind_ok in E'. destruct E' as [[ba W1] [E1 E']].
            rewrite (IH1 _ _ _ _ _ _ (al_same _ _ _ _) E1). exact E'. }
          destruct t'; try exact E; apply X; exact E.
        * eapply IH2; [|exact E]. intros k e t v Hw Hk. exists v. split; [exact Hk|apply al_same].
      + cbn [write_body] in *. eapply ItT; eauto.
      + cbn [write_body] in *. eapply ItT; eauto.
      + cbn [write_body] in *. eapply ItT; eauto.
      + cbn [write_body] in *. apply rbind_ok in E. destruct E as [[ba W1] [E1 E]]. apply rbind_ok in E. destruct E as [[bb W2] [E2 E]].
        rewrite (IH1 _ _ _ _ _ _ HA1 E1). cbn [rbind]. rewrite (IH1 _ _ _ _ _ _ HA2 E2). exact E.
      + cbn [write_body] in *. apply rbind_ok in E. destruct E as [[ba W1] [E1 E]]. rewrite (IH1 _ _ _ _ _ _ HA E1). exact E.
      + cbn [write_body] in *. apply rbind_ok in E. destruct E as [[ba W1] [E1 E]]. rewrite (IH1 _ _ _ _ _ _ HA E1). exact E.
      + cbn [write_body] in *. rewrite H1 in *.
        assert (X: (let! (bx, W1) := write A H f 0 t x W in ROk (mkb (N.of_nat i) :: bx, W1)) = ROk r ->
             (let! (bx, W1) := write Gw H0 f 0 t x0 W in ROk (mkb (N.of_nat i) :: bx, W1)) = ROk r).
        { intros E'. apply rbind_ok in E'. destruct E' as [[ba W1] [E1 E']]. rewrite (IH1 _ _ _ _ _ _ HA E1). exact E'. }
        destruct t; try exact E; apply X; exact E.
      + cbn [write_body] in *. eapply IH2; [|exact E]. exact H1.
    - intros ver c fs0 fs W r HM E. destruct (g_class Gw c) as [w|] eqn:Hw.
      2: { exfalso. eapply never_not_ok; eauto. }
      rewrite write_cls_S in *. unfold write_cls_body in *. rewrite Hw. cbn [across g_class] in E.
      destruct (g_class Gr c) as [rr|]; [|discriminate]. cbn [rc_wr] in E. rewrite Hw in E. cbv zeta in *.
      apply rbind_ok in E. destruct E as [[bb W1] [E1 E]]. apply rbind_ok in E. destruct E as [bv [E2 E]].
      apply rbind_ok in E. destruct E as [[bm W2] [E3 E]].
      rewrite (iter_impl (fun b => write_cls A H f ver b fs) (fun b => write_cls Gw H0 f ver b fs0) _ ) with (r := (bb, W1)); [| |exact E1].
      2: { intros b W0 r0 Hb. apply IH2. intros k e t v Hk. apply HM. eapply wa_base; eauto. }
      cbn [rbind]. rewrite E2. cbn [rbind].
      erewrite iter_impl; [| |exact E3]; [exact E|].
      intros fd W0 r0 Hf E0. cbn beta in *.
      match goal with |- (if ?b then _ else _) = _ => destruct b eqn:Ev end; [|exact E0].
      destruct (alookup fkey_eqb (bf_key fd) fs) as [v|] eqn:Ek; [|discriminate].
      destruct (HM (bf_key fd) (if bp_vmax (rc_wr w) =? 0 then ver else if ver =? 0 then bp_vmax (rc_wr w) else ver) (bf_ty fd) v) as (v0 & -> & Hv).
      { eapply wa_own; [exact Hw|exact Hf|reflexivity|]. destruct (bp_vmax (rc_wr w) =? 0); cbn [negb andb] in Ev; exact Ev. }
      { exact Ek. }
      assert (Ee: (if negb (bp_vmax (rc_wr w) =? 0) && (ver =? 0) then bp_vmax (rc_wr w) else ver)
        = (if bp_vmax (rc_wr w) =? 0 then ver else if ver =? 0 then bp_vmax (rc_wr w) else ver)).
      { destruct (bp_vmax (rc_wr w) =? 0); reflexivity. }
      rewrite Ee in *. eapply IH1; [exact Hv|exact E0].
  Qed.
End E.
