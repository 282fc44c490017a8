(** BinTotal.v -- writing terminates and succeeds for every proper value, also if the
    shared objects refer to each other cyclically *)
From Coq Require Import List NArith ZArith Bool Lia Permutation.
From Verif Require Import Base BaseFacts Bytes BytesFacts Types TypesFacts BinModel FuelFacts BinSpec.
Import ListNotations.

(** induction on [visits] through the list of base classes *)
Section VisitsInd.
  Variable G : genv.
  Variables wv rv : N.
  Variable P : N -> list visit -> Prop.
  Hypothesis step : forall c rc pr Ls own,
    g_class G c = Some rc ->
    rc_rd rc = Some pr ->
    bp_bases pr = bp_bases (rc_wr rc) ->
    (bp_vmax pr = 0%N <-> bp_vmax (rc_wr rc) = 0%N) ->
    Forall2 (visits G wv rv) (bp_bases (rc_wr rc)) Ls ->
    Forall2 P (bp_bases (rc_wr rc)) Ls ->
    (if (bp_vmax (rc_wr rc) =? 0)%N
     then map (mkvisit wv rv) (filter (visible wv) (bp_fields (rc_wr rc))) = map (mkvisit wv rv) (filter (visible rv) (bp_fields pr))
          /\ own = map (mkvisit wv rv) (filter (visible wv) (bp_fields (rc_wr rc)))
     else exists e, e = (if (wv =? 0)%N then bp_vmax (rc_wr rc) else wv)
          /\ (e <= bp_vmax pr)%N /\ (e < 2 ^ 56)%N
          /\ map (mkvisit e e) (filter (visible e) (bp_fields (rc_wr rc))) = map (mkvisit e e) (filter (visible e) (bp_fields pr))
          /\ own = map (mkvisit e e) (filter (visible e) (bp_fields (rc_wr rc)))) ->
    P c (concat Ls ++ own).
  Fixpoint visits_ind' c L (V : visits G wv rv c L) : P c L :=
    match V with
    | visits_intro _ _ _ c rc pr Ls own h1 h2 h3 h4 h5 h6 =>
        step c rc pr Ls own h1 h2 h3 h4 h5
          ((fix go bs Ls (F : Forall2 (visits G wv rv) bs Ls) : Forall2 P bs Ls :=
             match F with
             | Forall2_nil _ => Forall2_nil _
             | @Forall2_cons _ _ _ b L bs Ls h t => @Forall2_cons _ _ _ b L bs Ls (visits_ind' b L h) (go bs Ls t)
             end) _ _ h5) h6
    end.
End VisitsInd.

Section Total.
  Variable G : genv.
  Variable H : heap.
  Hypothesis HG : heap_good G H.

  (** number of objects which have not been written yet *)
  Definition unwritten (W : list N) : nat :=
    length (filter (fun a => negb (existsb (N.eqb a) W)) (nodup N.eq_dec (map fst H))).

  Lemma filter_le {A} (p q : A -> bool) l : (forall x, In x l -> p x = true -> q x = true) ->
    length (filter p l) <= length (filter q l).
  Proof.
    induction l as [|x l IH]; intros Hpq; cbn; [lia|].
    assert (L: length (filter p l) <= length (filter q l)) by (apply IH; intros y Hy; apply Hpq; right; exact Hy).
    destruct (p x) eqn:E.
    - rewrite (Hpq x (or_introl eq_refl) E). cbn. lia.
    - destruct (q x); cbn; lia.
  Qed.

  Lemma existsb_in a W : existsb (N.eqb a) W = true <-> In a W.
  Proof.
    rewrite existsb_exists. split.
    - intros (x & Hx & E). apply N.eqb_eq in E. subst; exact Hx.
    - intros Hx. exists a. split; [exact Hx|apply N.eqb_refl].
  Qed.

  Lemma unwritten_incl W W' : incl W W' -> unwritten W' <= unwritten W.
  Proof.
    intros Hi. apply filter_le. intros a _. rewrite !negb_true_iff. intros E.
    destruct (existsb (N.eqb a) W) eqn:E2; [|reflexivity].
    apply existsb_in in E2. apply Hi, existsb_in in E2. congruence.
  Qed.

  Lemma filter_lt {A} (p q : A -> bool) l x : (forall x, In x l -> p x = true -> q x = true) ->
    In x l -> q x = true -> p x = false -> length (filter p l) < length (filter q l).
  Proof.
    induction l as [|y l IH]; intros Hpq Hin Hq Hp; [destruct Hin|]. cbn.
    assert (L: length (filter p l) <= length (filter q l)) by (apply filter_le; intros z Hz; apply Hpq; right; exact Hz).
    destruct Hin as [->|Hin].
    - rewrite Hq, Hp. cbn. lia.
    - assert (L2: length (filter p l) < length (filter q l)) by (apply IH; auto; intros z Hz; apply Hpq; right; exact Hz).
      destruct (p y) eqn:E.
      + rewrite (Hpq y (or_introl eq_refl) E). cbn. lia.
      + destruct (q y); cbn; lia.
  Qed.

  Lemma unwritten_cons a W : In a (map fst H) -> ~ In a W -> unwritten (a :: W) < unwritten W.
  Proof.
    intros Hd Hn. apply filter_lt with (x := a).
    - intros b _. rewrite !negb_true_iff. intros E. cbn in E. apply orb_false_iff in E. apply E.
    - apply nodup_In. exact Hd.
    - apply negb_true_iff. destruct (existsb (N.eqb a) W) eqn:E; [|reflexivity]. apply existsb_in in E. contradiction.
    - cbn. rewrite N.eqb_refl. reflexivity.
  Qed.

  Definition Tot (n : nat) (wv : N) (t : ty) (v : val) : Prop :=
    forall W, unwritten W <= n -> exists F bs W', write G H F wv t v W = ROk (bs, W') /\ incl W W'.

  Lemma iter_total {A} (w : nat -> A -> list N -> res (bytes * list N)) n :
    (forall f f' x W r, f <= f' -> w f x W = ROk r -> w f' x W = ROk r) ->
    forall l, (forall x, In x l -> forall W, unwritten W <= n -> exists F bs W', w F x W = ROk (bs, W') /\ incl W W') ->
    forall W, unwritten W <= n -> exists F bs W', (forall F', F <= F' -> wr_iter (w F') l W = ROk (bs, W')) /\ incl W W'.
  Proof.
    intros M l. induction l as [|x l IH]; intros Hx W HW.
    - exists 0, [], W. split; [reflexivity|apply incl_refl].
    - destruct (Hx x (or_introl eq_refl) W HW) as (F1 & b1 & W1 & E1 & I1).
      destruct (IH (fun y Hy => Hx y (or_intror Hy)) W1) as (F2 & b2 & W2 & E2 & I2).
      { etransitivity; [apply unwritten_incl; exact I1|exact HW]. }
      exists (max F1 F2), (b1 ++ b2), W2. split; [|eapply incl_tran; eauto].
      intros F' HF. cbn [wr_iter]. rewrite (M F1 F' x W _ ltac:(lia) E1). cbn [rbind].
      rewrite (E2 F') by lia. reflexivity.
  Qed.

  Lemma wr_ok_more f f' ver t v W r : f <= f' -> write G H f ver t v W = ROk r -> write G H f' ver t v W = ROk r.
  Proof. intros L E. eapply write_more; eauto; discriminate. Qed.
  Lemma wrc_ok_more f f' ver t v W r : f <= f' -> write_cls G H f ver t v W = ROk r -> write_cls G H f' ver t v W = ROk r.
  Proof. intros L E. eapply write_cls_more; eauto; discriminate. Qed.

  (** class bodies *)
  Lemma cls_total n wv rv fs c L : visits G wv rv c L ->
    (forall x, In x L -> exists v, alookup fkey_eqb (vi_key x) fs = Some v /\ Tot n (vi_w x) (vi_ty x) v) ->
    forall W, unwritten W <= n -> exists F bs W', write_cls G H F wv c fs W = ROk (bs, W') /\ incl W W'.
  Proof.
    intros V. induction V as [c rc pr Ls own Hc Hrd Hb Hvm HF HI Hown] using visits_ind'. intros HL W HW.
    assert (B: exists F bs W', (forall F', F <= F' -> wr_iter (fun b => write_cls G H F' wv b fs) (bp_bases (rc_wr rc)) W = ROk (bs, W')) /\ incl W W').
    { apply (iter_total (fun F b => write_cls G H F wv b fs) n); [intros; eapply wrc_ok_more; eauto| |exact HW].
      clear -HI HL. assert (HL': forall x, In x (concat Ls) -> exists v, alookup fkey_eqb (vi_key x) fs = Some v /\ Tot n (vi_w x) (vi_ty x) v)
        by (intros x Hx; apply HL, in_or_app; left; exact Hx).
      clear HL. induction HI as [|b L bs Ls Hb HI IH]; [intros x []|].
      intros x [<-|Hx].
      - apply Hb. intros y Hy. apply HL'. cbn. apply in_or_app. left; exact Hy.
      - apply IH; [|exact Hx]. intros y Hy. apply HL'. cbn. apply in_or_app. right; exact Hy. }
    destruct B as (F1 & bb & W1 & E1 & I1).
    set (ver' := if negb (bp_vmax (rc_wr rc) =? 0)%N && (wv =? 0)%N then bp_vmax (rc_wr rc) else wv).
    assert (Own: forall fd, In fd (bp_fields (rc_wr rc)) -> visible ver' fd = true ->
       exists v, alookup fkey_eqb (bf_key fd) fs = Some v /\ Tot n ver' (bf_ty fd) v).
    { intros fd Hfd Hv. destruct (bp_vmax (rc_wr rc) =? 0)%N eqn:Ez.
      - destruct Hown as [_ ->]. subst ver'. cbn in *.
        apply (HL (mkvisit wv rv fd)). apply in_or_app. right. apply in_map. apply filter_In. auto.
      - destruct Hown as (e & He & _ & _ & _ & ->). subst ver'. cbn [negb andb] in *. rewrite <- He in *.
        apply (HL (mkvisit e e fd)). apply in_or_app. right. apply in_map. apply filter_In. auto. }
    assert (V: exists bv, (if negb (bp_vmax (rc_wr rc) =? 0)%N then wr_varint ver' else ROk []) = ROk bv).
    { destruct (bp_vmax (rc_wr rc) =? 0)%N eqn:Ez; cbn [negb]; [eauto|].
      destruct Hown as (e & He & _ & Hlt & _ & _). subst ver'. cbn [negb andb]. rewrite <- He. apply wr_varint_ok. exact Hlt. }
    destruct V as [bv EV].
    assert (HW1: unwritten W1 <= n) by (etransitivity; [apply unwritten_incl; exact I1|exact HW]).
    destruct (iter_total (fun F fd W => if visible ver' fd then
              match alookup fkey_eqb (bf_key fd) fs with
              | Some v => write G H F ver' (bf_ty fd) v W
              | None => RStuck
              end
            else ROk ([], W)) n) with (l := bp_fields (rc_wr rc)) (W := W1) as (F2 & bm & W2 & E2 & I2); auto.
    { intros f f' x W0 r Hle E. destruct (visible ver' x); [|exact E].
      destruct (alookup fkey_eqb (bf_key x) fs); [|exact E]. eapply wr_ok_more; eauto. }
    { intros fd Hfd W0 HW0. destruct (visible ver' fd) eqn:Ev.
      - destruct (Own fd Hfd Ev) as (v & -> & T). apply T. exact HW0.
      - exists 0, [], W0. split; [reflexivity|apply incl_refl]. }
    exists (S (max F1 F2)), (bb ++ bv ++ bm), W2. split; [|eapply incl_tran; eauto].
    rewrite write_cls_S. unfold write_cls_body. rewrite Hc.
    eapply rbind_eq; [apply E1; lia|]. cbn beta iota. eapply rbind_eq; [exact EV|]. cbn beta iota.
    eapply rbind_eq; [apply E2; lia|]. reflexivity.
  Qed.

  Lemma head_total mode a : (a < 2 ^ 64)%N -> exists hd, wr_ptr_head mode a = ROk hd.
  Proof.
    intros Ha. unfold wr_ptr_head. destruct (bigId a) eqn:E; [eauto|].
    unfold bigId in E. apply N.leb_gt in E.
    destruct (wr_varint_ok a) as [p ->]; [|cbn; eauto].
    change 0x80000000000000%N with (2 ^ 55)%N in E. lia.
  Qed.

  Lemma write_total_n n : forall ex wv rv t old v, good G H ex wv rv t old v -> Tot n wv t v.
  Proof.
    induction n as [n IHn] using (well_founded_induction Wf_nat.lt_wf).
    intros ex wv rv t old v Hg. induction Hg; intros W HW.
    1-8: exists 1; rewrite write_S; cbn [write_body].
    - eexists _, _. split; [reflexivity|apply incl_refl].
    - rewrite H0. eexists _, _. split; [reflexivity|apply incl_refl].
    - rewrite H0. eexists _, _. split; [reflexivity|apply incl_refl].
    - eexists _, _. split; [reflexivity|apply incl_refl].
    - eexists _, _. split; [reflexivity|apply incl_refl].
    - unfold wr_string. destruct (wr_varint_ok _ H0) as [p ->]. cbn. eexists _, _. split; [reflexivity|apply incl_refl].
    - eexists _, _. split; [reflexivity|apply incl_refl].
    - eexists _, _. split; [reflexivity|apply incl_refl].
    - destruct (wr_varint_ok _ H0) as [p Ep].
      destruct (iter_total (fun F => write G H F 0 t) n (fun f f' x W r => wr_ok_more f f' 0 t x W r) l) with (W := W)
        as (F & bs & W' & E & I); auto.
      { intros x Hx. apply In_nth_error in Hx. destruct Hx as [i Hi]. exact (H2 i x Hi). }
      exists (S F). eexists _, W'. split; [|exact I].
      rewrite write_S; cbn [write_body]. rewrite Ep. cbn [rbind]. rewrite (E F) by lia. reflexivity.
    - destruct (wr_varint_ok _ H1) as [p Ep].
      destruct (iter_total (fun F => write G H F 0 t) n (fun f f' x W r => wr_ok_more f f' 0 t x W r) l) with (W := W)
        as (F & bs & W' & E & I); auto.
      exists (S F). eexists _, W'. split; [|exact I].
      rewrite write_S; cbn [write_body]. rewrite Ep. cbn [rbind]. rewrite (E F) by lia. reflexivity.
    - destruct (wr_varint_ok _ H1) as [p Ep].
      destruct (iter_total (fun F => write G H F 0 (TPair kt vt)) n (fun f f' x W r => wr_ok_more f f' 0 (TPair kt vt) x W r) l) with (W := W)
        as (F & bs & W' & E & I); auto.
      { intros x Hx W0 HW0. destruct (H3 x Hx) as (k & v & ->).
        destruct (H5 k v Hx W0 HW0) as (F1 & b1 & W1 & E1 & I1).
        destruct (H7 k v Hx W1) as (F2 & b2 & W2 & E2 & I2).
        { etransitivity; [apply unwritten_incl; exact I1|exact HW0]. }
        exists (S (max F1 F2)), (b1 ++ b2), W2. split; [|eapply incl_tran; eauto].
        rewrite write_S; cbn [write_body]. rewrite (wr_ok_more F1 (max F1 F2) _ _ _ _ _ ltac:(lia) E1). cbn [rbind].
        rewrite (wr_ok_more F2 (max F1 F2) _ _ _ _ _ ltac:(lia) E2). reflexivity. }
      exists (S F). eexists _, W'. split; [|exact I].
      rewrite write_S; cbn [write_body]. rewrite Ep. cbn [rbind]. rewrite (E F) by lia. reflexivity.
    - destruct (IHHg1 W HW) as (F1 & b1 & W1 & E1 & I1).
      destruct (IHHg2 W1) as (F2 & b2 & W2 & E2 & I2).
      { etransitivity; [apply unwritten_incl; exact I1|exact HW]. }
      exists (S (max F1 F2)), (b1 ++ b2), W2. split; [|eapply incl_tran; eauto].
      rewrite write_S; cbn [write_body]. rewrite (wr_ok_more F1 (max F1 F2) _ _ _ _ _ ltac:(lia) E1). cbn [rbind].
      rewrite (wr_ok_more F2 (max F1 F2) _ _ _ _ _ ltac:(lia) E2). reflexivity.
    - exists 1. eexists _, _. split; [reflexivity|apply incl_refl].
    - destruct (IHHg W HW) as (F & b & W1 & E & I). exists (S F). eexists _, W1. split; [|exact I].
      rewrite write_S; cbn [write_body]. rewrite E. reflexivity.
    - exists 1. eexists _, _. split; [reflexivity|apply incl_refl].
    - destruct (IHHg W HW) as (F & b & W1 & E & I). exists (S F). eexists _, W1. split; [|exact I].
      rewrite write_S; cbn [write_body]. rewrite E. reflexivity.
    - exists 1. eexists _, _. split; [reflexivity|apply incl_refl].
    - destruct (HG a t x H0) as [Ha Hgx]. destruct (existsb (N.eqb a) W) eqn:EW.
      + destruct (head_total 2 a Ha) as [hd Eh]. exists 1. eexists _, W. split; [|apply incl_refl].
        rewrite write_S; cbn [write_body]. rewrite EW, Eh. reflexivity.
      + destruct (head_total 1 a Ha) as [hd Eh].
        assert (Hlt: unwritten (a :: W) < unwritten W).
        { apply unwritten_cons.
          - eapply alookup_some_key; [apply N.eqb_eq|exact H0].
          - intros Hc. apply existsb_in in Hc. congruence. }
        destruct (IHn (unwritten (a :: W)) ltac:(lia) _ _ _ _ _ _ Hgx (a :: W) (le_n _)) as (F & b & W1 & E & I).
        exists (S F). eexists _, W1. split; [|intros y Hy; apply I; right; exact Hy].
        rewrite write_S; cbn [write_body]. rewrite EW, Eh. cbn [rbind]. rewrite H0, ty_eqb_refl, E. reflexivity.
    - exists 1. eexists _, _. split; [|apply incl_refl]. rewrite write_S; cbn [write_body]. rewrite H1. reflexivity.
    - destruct (IHHg W HW) as (F & b & W1 & E & I). exists (S F). eexists _, W1. split; [|exact I].
      rewrite write_S; cbn [write_body]. rewrite H1. destruct t; try congruence; rewrite E; reflexivity.
    - destruct (cls_total n wv rv fs c L H4) with (W := W) as (F & b & W1 & E & I); auto.
      { intros x Hx. pose proof (H6 x Hx) as Hl. apply (alookup_some_key _ fkey_eqb_eq) in Hl.
        assert (exists o, alookup fkey_eqb (vi_key x) os = Some o) as [o Eo].
        { apply (alookup_some_in _ fkey_eqb_eq). congruence. }
        assert (exists o, alookup fkey_eqb (vi_key x) fs = Some o) as [v Ev].
        { apply (alookup_some_in _ fkey_eqb_eq). congruence. }
        exists v. split; [exact Ev|]. eapply H8; eauto. }
      exists (S F), b, W1. split; [|exact I]. rewrite write_S; cbn [write_body]. exact E.
  Qed.

  Theorem write_total ex wv rv t old v W : good G H ex wv rv t old v ->
    exists F bs W', write G H F wv t v W = ROk (bs, W').
  Proof.
    intros Hg. destruct (write_total_n (unwritten W) _ _ _ _ _ _ Hg W (le_n _)) as (F & bs & W' & E & _). eauto.
  Qed.
End Total.
