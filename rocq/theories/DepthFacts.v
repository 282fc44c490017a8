(** DepthFacts.v -- lemmas for the bounds on the depth of nested calls (C67) *)
From Coq Require Import String List NArith ZArith Bool Arith Lia.
From Verif Require Import Base BaseFacts Bytes BytesFacts Types TypesFacts BinModel FuelFacts BinFacts BinTerm BinSafe Float JsonModel JsonRel JsonTerm SerSpec BoundSpec DepthSpec.
Import ListNotations.
Local Open Scope list_scope.
Local Open Scope nat_scope.

(** ** depths *)
Lemma depth_item l x : In x l -> jdepth x < jdepth (JArr l).
Proof. cbn [jdepth]. induction l as [|y l IH]; cbn; [intros []|]. intros [-> | Hi]; [lia|]. apply IH in Hi. lia. Qed.
Lemma depth_member ms n x : In (n, x) ms -> jdepth x < jdepth (JObj ms).
Proof. cbn [jdepth]. induction ms as [|[n' y] l IH]; cbn; [intros []|]. intros [E | Hi]; [inversion E; subst; lia|]. apply IH in Hi. lia. Qed.
Lemma height_item l x : In x l -> height x < height (VList l).
Proof. cbn [height]. induction l as [|y l IH]; cbn; [intros []|]. intros [-> | Hi]; [lia|]. apply IH in Hi. lia. Qed.
Lemma height_lookup (fs : list (fkey * val)) k x : alookup fkey_eqb k fs = Some x -> height x < height (VObj fs).
Proof.
  cbn [height]. induction fs as [|[k' y] fs IH]; cbn; [discriminate|]. destruct (fkey_eqb k k').
  - intros E; inversion E; lia.
  - intros E. apply IH in E. lia.
Qed.
Lemma height_pos v : 1 <= height v.
Proof. destruct v; cbn; try lia. destruct o; lia. Qed.
Lemma nested_pos t : 1 <= nested t.
Proof. destruct t; cbn; lia. Qed.
Lemma nested_in ts t : In t ts -> nested t <= (fix most l := match l with [] => 0 | t :: l' => Nat.max (nested t) (most l') end) ts.
Proof. induction ts as [|y l IH]; [intros []|]. intros [-> | Hi]; [lia|]. apply IH in Hi. lia. Qed.
Lemma height_vsize v : height v <= vsize v.
Proof.
  revert v. fix IH 1. intros v. destruct v; try (cbn; lia).
  - cbn [height vsize]. apply le_n_S. induction l as [|x l IHl]; [lia|]. pose proof (IH x). lia.
  - cbn [height vsize]. pose proof (IH v1). pose proof (IH v2). lia.
  - destruct o as [x|]; cbn [height vsize]; [|lia]. pose proof (IH x). lia.
  - cbn [height vsize]. pose proof (IH v). lia.
  - cbn [height vsize]. apply le_n_S. induction fs as [|[k x] l IHl]; [lia|]. pose proof (IH x). lia.
Qed.

Section Pull.
  Variable G : genv.
  Variable J : jenv.
  Variable rk : N -> nat.
  Variables R T A : nat.
  Hypothesis HK : forall c, rk c <= R.
  Hypothesis HB : forall c rc b, g_class G c = Some rc -> In b (pulled_bases rc) -> rk b < rk c.
  Hypothesis HT : members_nested G T.
  Hypothesis HA : R + T + 1 <= A.

  Lemma pull_depth : forall f,
    (forall t old j, nested t + A * jdepth j <= f -> nf (pull G J f t old j)) /\
    (forall c os ms, rk c + 1 + T + A * (jdepth (JObj ms) - 1) <= f -> nf (pull_cls G J f c os ms)).
  Proof.
    induction f as [|f [IHp IHc]].
    { split; [intros t old j L; pose proof (nested_pos t); exfalso; apply (Nat.le_trans (nested t)) in L; [|apply Nat.le_add_r]; lia|intros c os ms L; exfalso; revert L; generalize (A * (jdepth (JObj ms) - 1)); intros; lia]. }
    assert (IHi : forall t old js j x, j = JArr js -> In x js -> A * jdepth j + nested t <= f -> nf (pull G J f t old x)).
    { intros t old js j x -> Hx L. apply IHp. pose proof (depth_item js x Hx). nia. }
    assert (IHm : forall t old ms n x j, j = JObj ms -> In (n, x) ms -> A * jdepth j + nested t <= f -> nf (pull G J f t old x)).
    { intros t old ms n x j -> Hx L. apply IHp. pose proof (depth_member ms n x Hx). nia. }
    split.
    - intros t old j L. rewrite pull_S. destruct t; cbn [pull_body nested] in *.
      + destruct j; try apply nf_mismatch; apply nf_ret.
      + destruct (json_kind k); [|destruct (byte_kind k); [|apply nf_stuck]];
        (destruct (is_number j); [|apply nf_mismatch]); (apply nf_bind; [apply nf_get_int|intros; apply nf_ret]).
      + destruct (get_double j); [apply nf_ret|apply nf_mismatch].
      + destruct (get_double j); [apply nf_ret|apply nf_mismatch].
      + destruct j; try apply nf_mismatch. destruct (in_range _ _); [apply nf_ret|apply nf_mismatch].
      + destruct j; try apply nf_mismatch; apply nf_ret.
      + destruct j; try apply nf_mismatch. apply nf_bind; [|intros; apply nf_ret]. apply nf_items. intros a x Hx.
        apply nf_bind; [eapply IHi; [reflexivity|exact Hx|lia]|intros; apply nf_ret].
      + destruct j; try apply nf_mismatch. apply nf_bind; [|intros; apply nf_ret]. apply nf_items. intros a x Hx.
        apply nf_bind; [eapply IHi; [reflexivity|exact Hx|lia]|intros y].
        destruct (is_undef y); [apply nf_ub|]. destruct (emplace _ _ _ _ _ _ _) as [l' ins].
        match goal with |- nf (if ?b then _ else _) => destruct b end; [apply nf_ret|].
        apply nf_bind; [apply nf_unchecked|intros; apply nf_ret].
      + destruct multi, t1; try apply nf_stuck; (destruct old; try apply nf_stuck); destruct j as [ | | | | | |ms]; try apply nf_mismatch;
          (apply nf_bind; [|intros; apply nf_ret]); apply nf_fold; intros a [nm x] Hx.
        * cbv zeta.
          assert (Q : forall o0, nf (pull G J f t2 o0 x)) by (intros o0; eapply IHm; [reflexivity|exact Hx|cbn [nested] in *; lia]).
          destruct x as [ | | | | |js|]; try (apply nf_bind; [apply Q|intros; apply nf_ret]).
          apply nf_fold. intros a' y Hy. apply nf_bind; [|intros; apply nf_ret]. apply IHp.
          pose proof (depth_member ms nm _ Hx). pose proof (depth_item js y Hy). cbn [nested] in *. nia.
        * cbv zeta. destruct (map_find _ _ _ _ _); (apply nf_bind; [eapply IHm; [reflexivity|exact Hx|cbn [nested] in *; lia]|intros; apply nf_ret]).
      + destruct old; try apply nf_stuck. destruct j as [ | | | | |js|]; try apply nf_mismatch.
        destruct (Nat.eqb _ _); [|apply nf_bind; [apply nf_report|intros; apply nf_ret]].
        destruct (nth_error js 0) as [ja|] eqn:Ea; [|apply nf_ub]. destruct (nth_error js 1) as [jb|] eqn:Eb; [|apply nf_ub].
        apply nf_bind; [|intros a; apply nf_bind; [|intros; apply nf_ret]].
        * eapply IHi; [reflexivity|exact (nth_error_In _ _ Ea)|lia].
        * eapply IHi; [reflexivity|exact (nth_error_In _ _ Eb)|lia].
      + destruct ts as [|t0 ts]; [apply nf_stuck|]. destruct old; try apply nf_stuck. destruct j as [ | | | | |js|]; try apply nf_mismatch.
        destruct (Nat.eqb _ _); [|apply nf_bind; [apply nf_report|intros; apply nf_ret]]. apply nf_bind; [|intros; apply nf_ret].
        set (us := t0 :: ts) in *.
        assert (Q: forall us' os js', incl us' us -> incl js' js -> nf (pull_tuple (pull G J f) us' os js')).
        { induction us' as [|u us' IH]; intros [|o os] js' I1 I2; cbn [pull_tuple]; try apply nf_stuck; [apply nf_ret|].
          destruct js' as [|x js']; [apply nf_ub|]. apply nf_bind; [|intros y; apply nf_bind; [|intros; apply nf_ret]].
          - eapply IHi; [reflexivity|apply I2; left; reflexivity|]. pose proof (nested_in us u (I1 _ (or_introl eq_refl))) as Ln. unfold us in Ln. change (nested u <= Nat.max (nested t0) ((fix most l := match l with [] => 0 | t :: l' => Nat.max (nested t) (most l') end) ts)) in Ln. lia.
          - apply IH; intros y' Hy; [apply I1|apply I2]; right; exact Hy. }
        apply Q; apply incl_refl.
      + destruct j; try apply nf_ret; (apply nf_bind; [apply IHp; lia|intros; apply nf_ret]).
      + destruct j; try apply nf_ret; (apply nf_bind; [apply IHp; lia|intros; apply nf_ret]).
      + destruct j; try apply nf_ret; (apply nf_bind; [apply nf_new, IHp; lia|intros; apply nf_ret]).
      + destruct j as [ | | | | | |ms]; try apply nf_mismatch.
        assert (RR: forall k x a, nf (let? _ := report k x a in ret old)) by (intros; apply nf_bind; [apply nf_report|intros; apply nf_ret]).
        destruct (alookup _ _ ms) as [ji|]; [|apply RR]. destruct (alookup _ _ ms) as [jd|] eqn:Ed; [|apply RR].
        destruct ji as [ | |z| | | | ]; try apply RR. destruct (in_range KU64 z); [|apply RR].
        destruct (Z.to_N z <? N.of_nat (length ts))%N; [|apply RR]. destruct (nth_error ts (Z.to_nat z)) as [t'|] eqn:En; [|apply RR].
        destruct (in_lookup _ _ _ Ed) as (m & Hm). pose proof (nested_in ts t' (nth_error_In _ _ En)) as Ln.
        assert (Q: forall o, nf (pull G J f t' o jd)) by (intros o; eapply IHm; [reflexivity|exact Hm|lia]).
        destruct t'; try apply nf_ret; (apply nf_bind; [apply Q|intros; apply nf_ret]).
      + apply nf_stuck.
      + destruct old; try apply nf_stuck. destruct j as [ | | | | | |ms]; try apply nf_mismatch.
        apply nf_bind; [apply IHc|intros; apply nf_ret]. pose proof (HK c).
        assert (X: exists m, jdepth (JObj ms) = S m) by (cbn; eauto). destruct X as [m X]. rewrite X in *. replace (S m - 1) with m by lia. nia.
      + apply nf_bind.
        { destruct j; try (apply nf_bind; [apply nf_mismatch|intros; apply nf_ret]); apply nf_ret. }
        intros s. destruct (je_dt_parse J s); [apply nf_ret|apply nf_bind; [apply nf_report|intros; apply nf_ret]].
      + apply nf_bind.
        { destruct j; try (apply nf_bind; [apply nf_mismatch|intros; apply nf_ret]); apply nf_ret. }
        intros s. destruct (je_ts_parse J s); [apply nf_ret|apply nf_bind; [apply nf_report|intros; apply nf_ret]].
      + destruct j; try apply nf_mismatch; apply nf_ret.
      + destruct j; try apply nf_mismatch; apply nf_ret.
    - intros c os ms L. rewrite pull_cls_S. unfold pull_cls_body. destruct (g_class G c) as [rc|] eqn:Ec; [|apply nf_stuck].
      destruct (rc_pull rc) as [p|] eqn:Ep; [|apply nf_stuck]. apply nf_bind.
      + apply nf_fold. intros os' b Hb. apply IHc. assert (rk b < rk c); [|lia]. apply (HB c rc b Ec). unfold pulled_bases. rewrite Ep. exact Hb.
      + intros os1. cbv zeta.
        match goal with |- nf (match _ with Some n => in_record n ?m | None => ?m end) => assert (Q: nf m) end.
        { apply nf_fold. intros os' fd Hfd. unfold pull_member. destruct (alookup fkey_eqb (jf_key fd) os') as [o|]; [|apply nf_stuck].
          destruct (alookup bytes_eqb (jf_name fd) ms) as [j|] eqn:El; [|apply nf_ret].
          apply nf_bind; [|intros; apply nf_ret]. apply nf_member. destruct (in_lookup _ _ _ El) as (m & Hm). apply IHp.
          pose proof (HT c rc p fd Ec Ep Hfd). pose proof (depth_member ms m j Hm). nia. }
        destruct (jp_record p); [apply nf_record|]; exact Q.
  Qed.
End Pull.

(** ** sums over the objects of a heap *)
Lemma sum_le {A} (f g : A -> nat) l : (forall x, In x l -> f x <= g x) -> list_sum (map f l) <= list_sum (map g l).
Proof.
  induction l as [|x l IH]; intros Hx; [apply le_n|]. change (f x + list_sum (map f l) <= g x + list_sum (map g l)).
  pose proof (Hx x (or_introl eq_refl)). assert (list_sum (map f l) <= list_sum (map g l)) by (apply IH; intros y Hy; apply Hx; right; exact Hy). lia.
Qed.
Lemma sum_one {A} (f g : A -> nat) l x0 n : In x0 l -> NoDup l -> (forall x, In x l -> f x <= g x) -> f x0 + n <= g x0 ->
  list_sum (map f l) + n <= list_sum (map g l).
Proof.
  induction l as [|x l IH]; intros Hi ND Hx H0; [destruct Hi|]. inversion ND; subst.
  change (f x + list_sum (map f l) + n <= g x + list_sum (map g l)).
  assert (S : list_sum (map f l) <= list_sum (map g l)) by (apply sum_le; intros y Hy; apply Hx; right; exact Hy).
  pose proof (Hx x (or_introl eq_refl)). destruct Hi as [-> | Hi]; [lia|].
  assert (list_sum (map f l) + n <= list_sum (map g l)) by (apply IH; auto; intros y Hy; apply Hx; right; exact Hy). lia.
Qed.
Lemma address_in h a c : hget h a = Some c -> In a (addresses h).
Proof. intros E. unfold addresses. apply nodup_In. eapply alookup_some_key; [apply N.eqb_eq|exact E]. Qed.

Section Write.
  Variable G : genv.
  Variable H : heap.
  Variable rk : N -> nat.
  Variables R A : nat.
  Hypothesis HK : forall c, rk c <= R.
  Hypothesis HB : forall c rc b, g_class G c = Some rc -> In b (written_bases rc) -> rk b < rk c.
  Hypothesis HA : R + 2 <= A.

  Lemma unwritten_grows W W' : grows W W' -> unwritten_height H W' <= unwritten_height H W.
  Proof.
    intros (news & -> & _). apply sum_le. intros a _. rewrite existsb_app. destruct (existsb (N.eqb a) W); [rewrite orb_true_r; lia|].
    destruct (existsb (N.eqb a) news); cbn; lia.
  Qed.
  Lemma unwritten_visit W a t x : hget H a = Some (t, x) -> existsb (N.eqb a) W = false -> unwritten_height H (a :: W) + height x <= unwritten_height H W.
  Proof.
    intros E EW. eapply (sum_one _ _ _ a); [eapply address_in; exact E|apply NoDup_nodup| |].
    - intros b _. cbn [existsb]. destruct (N.eqb b a); cbn; [lia|]. destruct (existsb (N.eqb b) W); lia.
    - cbn [existsb]. rewrite N.eqb_refl. cbn. rewrite EW. unfold object_height. rewrite E. lia.
  Qed.

  Lemma iter_nofuel {B} (w : B -> list N -> res (bytes * list N)) n :
    (forall x W b W', w x W = ROk (b, W') -> grows W W') ->
    forall l, (forall x, In x l -> forall W, unwritten_height H W <= n -> w x W <> RFuel) ->
    forall W, unwritten_height H W <= n -> wr_iter w l W <> RFuel.
  Proof.
    intros Gr l. induction l as [|x l IH]; intros Hx W HW; [discriminate|]. cbn [wr_iter].
    pose proof (Hx x (or_introl eq_refl) W HW) as E1. destruct (w x W) as [[b1 W1]| | | |] eqn:Ew; cbn [rbind]; try congruence; try discriminate.
    assert (HW1: unwritten_height H W1 <= n) by (etransitivity; [apply unwritten_grows; eapply Gr; exact Ew|exact HW]).
    pose proof (IH (fun y Hy => Hx y (or_intror Hy)) W1 HW1) as E2. destruct (wr_iter w l W1) as [[? ?]| | | |]; cbn; congruence.
  Qed.

  Lemma write_depth : forall f,
    (forall ver t v W, A * (height v + unwritten_height H W) <= f -> write G H f ver t v W <> RFuel) /\
    (forall ver c fs W, rk c + 1 + A * (height (VObj fs) - 1 + unwritten_height H W) <= f -> write_cls G H f ver c fs W <> RFuel).
  Proof.
    induction f as [|f [IHw IHc]].
    { split; [intros ver t v W L; exfalso; pose proof (height_pos v); assert (X : 1 * 1 <= A * (height v + unwritten_height H W)) by (apply Nat.mul_le_mono; lia); lia|].
      intros ver c fs W L; exfalso; revert L; generalize (A * (height (VObj fs) - 1 + unwritten_height H W)); intros; lia. }
    assert (It : forall t l W, A * (height (VList l) + unwritten_height H W) <= S f -> wr_iter (write G H f 0 t) l W <> RFuel).
    { intros t l W L. apply (iter_nofuel _ (unwritten_height H W)); [|intros x Hx W0 HW0|lia].
      - intros x W0 b W' E. exact (proj1 (write_grows G H f) _ _ _ _ _ _ E).
      - apply IHw. pose proof (height_item l x Hx). nia. }
    split.
    - intros ver t v W L. rewrite write_S. unfold write_body.
      assert (Lv : forall h U, h < height v -> U <= unwritten_height H W -> A * (h + U) <= f) by (intros; nia).
      destruct t; try (destruct v; discriminate);
        try (destruct v; try discriminate; destruct (bin_kind k); discriminate).
      + destruct v; try discriminate. pose proof (wr_string_nofuel s). destruct (wr_string s); cbn; congruence.
      + destruct v; try discriminate. pose proof (wr_varint_nofuel (N.of_nat (length l))) as Nv.
        destruct (wr_varint _); cbn [rbind]; try congruence. pose proof (It t l W L). destruct (wr_iter _ l W) as [[? ?]| | | |]; cbn; congruence.
      + destruct v; try discriminate. pose proof (wr_varint_nofuel (N.of_nat (length l))) as Nv.
        destruct (wr_varint _); cbn [rbind]; try congruence. pose proof (It t l W L). destruct (wr_iter _ l W) as [[? ?]| | | |]; cbn; congruence.
      + destruct v; try discriminate. pose proof (wr_varint_nofuel (N.of_nat (length l))) as Nv.
        destruct (wr_varint _); cbn [rbind]; try congruence. pose proof (It (TPair t1 t2) l W L). destruct (wr_iter _ l W) as [[? ?]| | | |]; cbn; congruence.
      + destruct v; try discriminate. assert (E1 : write G H f 0 t1 v1 W <> RFuel) by (apply IHw, Lv; cbn [height]; lia).
        destruct (write G H f 0 t1 v1 W) as [[b1 W1]| | | |] eqn:Ew; cbn [rbind]; try congruence; try discriminate.
        assert (E2 : write G H f 0 t2 v2 W1 <> RFuel).
        { apply IHw, Lv; [cbn [height]; lia|]. apply unwritten_grows. exact (proj1 (write_grows G H f) _ _ _ _ _ _ Ew). }
        destruct (write G H f 0 t2 v2 W1) as [[? ?]| | | |]; cbn; congruence.
      + destruct v; try discriminate. destruct o as [x|]; [|discriminate].
        assert (E : write G H f 0 t x W <> RFuel) by (apply IHw, Lv; cbn [height]; lia). destruct (write G H f 0 t x W) as [[? ?]| | | |]; cbn; congruence.
      + destruct v; try discriminate. destruct o as [x|]; [|discriminate].
        assert (E : write G H f 0 t x W <> RFuel) by (apply IHw, Lv; cbn [height]; lia). destruct (write G H f 0 t x W) as [[? ?]| | | |]; cbn; congruence.
      + destruct v; try discriminate. destruct o as [a|]; [|discriminate].
        destruct (existsb (N.eqb a) W) eqn:EW.
        * pose proof (head_nofuel 2 a). destruct (wr_ptr_head 2 a); cbn; congruence.
        * pose proof (head_nofuel 1 a). destruct (wr_ptr_head 1 a); cbn [rbind]; try congruence.
          destruct (hget H a) as [[t' x]|] eqn:Ea; [|discriminate]. destruct (ty_eqb t t'); [|discriminate].
          assert (E : write G H f 0 t x (a :: W) <> RFuel).
          { apply IHw. pose proof (unwritten_visit W a t' x Ea EW). cbn [height] in L. nia. }
          destruct (write G H f 0 t x (a :: W)) as [[? ?]| | | |]; cbn; congruence.
      + destruct v; try discriminate. destruct (nth_error ts i) as [t|] eqn:En; [|discriminate].
        assert (E : write G H f 0 t v W <> RFuel) by (apply IHw, Lv; cbn [height]; lia).
        destruct t; try discriminate; (match goal with |- rbind ?x _ <> _ => destruct x as [[? ?]| | | |] end; cbn; congruence).
      + destruct v; try discriminate. apply IHc. pose proof (HK c).
        assert (X : exists m, height (VObj fs) = S m) by (cbn; eauto). destruct X as [m X]. rewrite X in *. replace (S m - 1) with m by lia. nia.
      + destruct v; try discriminate. destruct o as [x|]; [destruct x; try discriminate |].
        * pose proof (wr_string_nofuel s). destruct (wr_string s); cbn; congruence.
        * pose proof (wr_string_nofuel []). destruct (wr_string []); cbn; congruence.
    - intros ver c fs W L. rewrite write_cls_S. unfold write_cls_body. destruct (g_class G c) as [rc|] eqn:Hc; [|discriminate]. cbv zeta.
      assert (E1 : wr_iter (fun b => write_cls G H f ver b fs) (bp_bases (rc_wr rc)) W <> RFuel).
      { apply (iter_nofuel _ (unwritten_height H W)); [|intros b Hb W0 HW0|lia].
        - intros x W0 b W' E. exact (proj2 (write_grows G H f) _ _ _ _ _ _ E).
        - apply IHc. pose proof (HB c rc b Hc Hb). nia. }
      destruct (wr_iter (fun b => write_cls G H f ver b fs) (bp_bases (rc_wr rc)) W) as [[bb W1]| | | |] eqn:Eb; cbn [rbind]; try congruence; try discriminate.
      assert (HW1 : unwritten_height H W1 <= unwritten_height H W).
      { apply unwritten_grows. eapply grows_iter; [|exact Eb]. intros x W0 b0 W0' E0. exact (proj2 (write_grows G H f) _ _ _ _ _ _ E0). }
      match goal with |- rbind ?m _ <> _ => assert (Ev : m <> RFuel) end.
      { destruct (negb (bp_vmax (rc_wr rc) =? 0)%N); [apply wr_varint_nofuel|discriminate]. }
      match goal with |- rbind ?m _ <> _ => destruct m as [bv| | | |]; cbn [rbind]; try congruence; try discriminate end.
      match goal with |- rbind ?m _ <> _ => assert (Em : m <> RFuel) end.
      { apply (iter_nofuel _ (unwritten_height H W)); [|intros fd _ W0 HW0|exact HW1].
        - intros fd W0 b W' E. destruct (visible _ fd); [|inversion E; apply grows_refl].
          destruct (alookup _ _ _); [|discriminate]. exact (proj1 (write_grows G H f) _ _ _ _ _ _ E).
        - destruct (visible _ fd); [|discriminate]. destruct (alookup fkey_eqb (bf_key fd) fs) as [v|] eqn:El; [|discriminate].
          apply IHw. pose proof (height_lookup fs _ v El). nia. }
      match goal with |- rbind ?m _ <> _ => destruct m as [[? ?]| | | |]; cbn; congruence end.
  Qed.
End Write.

Lemma rd_be_nf k s : BinSafe.nofuel (fun '(_, r) => length r <= length s) (rd_be k s).
Proof. destruct (rd_be_cases k s) as [(n & r & -> & _ & p & -> & _)| ->]; [cbn; rewrite app_length; lia|exact I]. Qed.
Lemma rd_varint_nf s : BinSafe.nofuel (fun '(_, r) => length r < length s) (rd_varint s).
Proof.
  destruct (rd_varint_cases s) as [(v & r & E)|[(s' & _ & ->)|[-> _]]]; [|exact I|exact I].
  rewrite E. cbn. apply rd_varint_ok in E. destruct E as (t & -> & L & _). rewrite app_length. lia.
Qed.
Lemma rd_string_nf s : BinSafe.nofuel (fun '(_, r) => length r <= length s) (rd_string s).
Proof.
  unfold rd_string. eapply nofuel_bind; [apply rd_varint_nf|]. intros [n r] L.
  unfold rd_bytes. destruct (takeN n r) as [[t r2]|] eqn:E; [|exact I]. apply takeN_some in E. destruct E as [-> _].
  rewrite app_length in L. cbn. lia.
Qed.

Section Read.
  Variable G : genv.
  Variable rk : N -> nat.
  Variable A : nat.
  Hypothesis HS : classes_shallow G rk A.

  Lemma shallow_direct t : shallow rk A t -> direct rk t <= A.
  Proof. destruct t; cbn [shallow]; intros X; exact (proj1 X). Qed.
  Lemma shallow_in ts t : (fix all l := match l with [] => True | t :: l' => shallow rk A t /\ all l' end) ts -> In t ts -> shallow rk A t.
  Proof. induction ts as [|u ts IH]; [intros _ []|]. intros [H1 H2] [-> | Hi]; [exact H1|apply IH; assumption]. Qed.

  Lemma read_depth : forall f,
    (forall ver t old s st, shallow rk A t -> direct rk t + A * length s <= f ->
       BinSafe.nofuel (fun '(_, r, _) => length r <= length s) (read G f ver t old s st)) /\
    (forall ver c os s st, rk c + 1 + A * length s <= f ->
       BinSafe.nofuel (fun '(_, _, r, _) => length r <= length s) (read_cls G f ver c os s st)).
  Proof.
    induction f as [|f [IHr IHc]].
    { split; [intros ver t old s st _ L|intros ver c os s st L]; exfalso.
      - assert (1 <= direct rk t) by (destruct t; cbn; lia). revert L. generalize (A * length s). intros; lia.
      - revert L. generalize (A * length s). intros; lia. }
    assert (Less : forall t, shallow rk A t -> forall n ver old s st, 1 + A * n <= S f -> length s < n ->
              BinSafe.nofuel (fun '(_, r, _) => length r <= length s) (read G f ver t old s st)).
    { intros t Ht n ver old s st L Ls. apply IHr; [exact Ht|]. pose proof (shallow_direct t Ht). nia. }
    split.
    - intros ver t old s st Ht L. rewrite read_S.
      destruct t; cbn [read_body direct shallow] in *; destruct Ht as [Hd Ht];
        try exact I;
        try (match goal with
             | |- context [rd_byte s] => fail 1
             | |- context [rd_varint s] => fail 1
             | |- context [rd_be _ s] => eapply nofuel_bind; [apply rd_be_nf|]; intros [z r] Lr; cbn; lia
             | |- context [rd_string s] => eapply nofuel_bind; [apply rd_string_nf|]; intros [z r] Lr; cbn; lia
             | |- context [bin_kind ?kk] => destruct (bin_kind kk); [|exact I]; eapply nofuel_bind; [apply rd_int_nf|]; intros [z r] Lr; cbn; lia
             | |- context [rd_int _ s] => eapply nofuel_bind; [apply rd_int_nf|]; intros [z r] Lr; cbn; lia
             end).
      + eapply nofuel_bind; [apply rd_byte_nf|]; intros [z r] Lr; cbn; lia.
      + destruct old; try exact I.
        eapply nofuel_bind; [apply rd_varint_nf|]. intros [m r] Lr.
        eapply (nofuel_bind (fun '(_, r, _) => length r < length s)).
        2: { intros [[[o acc] r2] st2] L2. cbn. lia. }
        apply nofuel_loopN; [|exact Lr]. intros [[[o acc] s1] st1] L1. cbv zeta.
        eapply nofuel_bind; [apply (Less t Ht (length s)); [lia|exact L1]|]. intros [[x s2] st2] L2. cbn. lia.
      + destruct old; try exact I.
        eapply nofuel_bind; [apply rd_varint_nf|]. intros [m r] Lr.
        eapply (nofuel_bind (fun '(_, r, _) => length r < length s)).
        2: { intros [[o r2] st2] L2. cbn. lia. }
        apply nofuel_loopN; [|exact Lr]. intros [[o s1] st1] L1.
        eapply nofuel_bind; [apply (Less t Ht (length s)); [lia|exact L1]|]. intros [[x s2] st2] L2. cbn. lia.
      + destruct old; try exact I. destruct Ht as (Hp & Ha & Hb).
        assert (Ht : shallow rk A (TPair t1 t2)) by (cbn [shallow direct]; auto).
        eapply nofuel_bind; [apply rd_varint_nf|]. intros [m r] Lr.
        eapply (nofuel_bind (fun '(_, r, _) => length r < length s)).
        2: { intros [[o r2] st2] L2. cbn. lia. }
        apply nofuel_loopN; [|exact Lr]. intros [[o s1] st1] L1.
        eapply nofuel_bind; [apply (Less _ Ht (length s)); [lia|exact L1]|]. intros [[x s2] st2] L2. cbn. lia.
      + destruct old; try exact I. destruct Ht as (Ha & Hb).
        eapply nofuel_bind; [apply IHr; [exact Ha|lia]|]. intros [[x s1] st1] L1.
        eapply nofuel_bind; [apply IHr; [exact Hb|nia]|]. intros [[y s2] st2] L2. cbn. lia.
      + eapply nofuel_bind; [apply rd_byte_nf|]. intros [m r] Lr. destruct (m =? 0)%N; [cbn; lia|].
        eapply nofuel_bind; [apply (Less t Ht (length s)); [lia|exact Lr]|]. intros [[x s2] st2] L2. cbn. lia.
      + eapply nofuel_bind; [apply rd_byte_nf|]. intros [m r] Lr. destruct (m =? 0)%N; [cbn; lia|].
        eapply nofuel_bind; [apply (Less t Ht (length s)); [lia|exact Lr]|]. intros [[x s2] st2] L2. cbn. lia.
      + eapply nofuel_bind; [apply rd_byte_nf|]. intros [m r] Lr. destruct (m =? 0)%N; [cbn; lia|].
        eapply (nofuel_bind (fun '(_, r) => length r < length s)).
        { destruct (negb (N.land m 4 =? 0)%N).
          - eapply nofuel_imp; [|apply rd_be_nf]. intros [a r2]. lia.
          - eapply nofuel_imp; [|apply rd_varint_nf]. intros [a r2]. lia. }
        intros [id r2] L2. destruct (N.land m 3 =? 1)%N.
        * cbv zeta. eapply nofuel_bind; [apply (Less t Ht (length s)); [lia|exact L2]|]. intros [[x s2] st2] L3. cbn. lia.
        * destruct (alookup N.eqb id (r_ptr st)) as [[a t']|]; [|exact I]. destruct (ty_eqb t' t); [cbn; lia|exact I].
      + eapply nofuel_bind; [apply rd_byte_nf|]. intros [i r] Lr.
        destruct (nth_error ts (N.to_nat i)) as [t0|] eqn:En; [|exact I].
        assert (P: BinSafe.nofuel (fun '(_, r0, _) => length r0 <= length s)
                    (let! (x, s2, st2) := read G f 0 t0 (vinit G t0) r st in ROk (VVar (N.to_nat i) x, s2, st2))).
        { eapply nofuel_bind; [apply (Less t0 (shallow_in ts t0 Ht (nth_error_In _ _ En)) (length s)); [lia|exact Lr]|]. intros [[x s2] st2] L2. cbn. lia. }
        destruct t0; try exact P. cbn. lia.
      + destruct old; try exact I.
        eapply nofuel_bind; [apply IHc; lia|]. intros [[[x v] s2] st2] L2. cbn. lia.
    - intros ver c os s st L. rewrite read_cls_S. unfold read_cls_body. destruct (g_class G c) as [rc|] eqn:Hc; [|exact I].
      destruct (rc_rd rc) as [p|] eqn:Hrd; [|exact I]. destruct (HS c rc p Hc Hrd) as [Hb Hf].
      eapply (nofuel_bind (fun '(_, r, _) => length r <= length s)).
      { apply nofuel_iter; [|lia]. intros b [[os0 s0] st0] Hin L0. pose proof (Hb b Hin).
        eapply nofuel_bind; [apply IHc; nia|]. intros [[[os1 v1] s1] st1] L1. cbn. lia. }
      intros [[os1 s1] st1] L1.
      eapply (nofuel_bind (fun '(_, r) => length r <= length s)).
      { destruct (bp_vmax p =? 0)%N; [cbn; lia|]. eapply nofuel_bind; [apply rd_varint_nf|]. intros [v r] Lr.
        destruct (v <=? bp_vmax p)%N; cbn; [lia|exact I]. }
      intros [ver' s2] L2.
      eapply (nofuel_bind (fun '(_, r, _) => length r <= length s)).
      { apply nofuel_iter; [|lia]. intros fd [[os0 s0] st0] Hin L0. destruct (Hf fd Hin) as [Hfd Hsh].
        destruct (visible ver' fd); [|cbn; lia]. destruct (alookup fkey_eqb (bf_key fd) os0); [|exact I].
        eapply nofuel_bind; [apply IHr; [exact Hsh|nia]|]. intros [[x s3] st3] L3. cbn. lia. }
      intros [[os3 s3] st3] L3. cbn. exact L3.
  Qed.
End Read.

Section Push.
  Variable G : genv.
  Variable J : jenv.
  Variable H : heap.
  Variable rk : N -> nat.
  Variable hk : N -> nat.
  Variables R A : nat.
  Hypothesis HK : forall c, rk c <= R.
  Hypothesis HB : forall c rc b, g_class G c = Some rc -> In b (pushed_bases rc) -> rk b < rk c.
  Hypothesis HC : forall a t x b, hget H a = Some (t, x) -> refers x b -> hk b < hk a.
  Hypothesis HA : R + 2 <= A.

  (** the heights of the objects numbered below [r] *)
  Definition lower (r : nat) : nat := list_sum (map (fun a => if hk a <? r then object_height H a else 0) (addresses H)).
  Lemma lower_visit a t x r : hget H a = Some (t, x) -> hk a < r -> lower (hk a) + height x <= lower r.
  Proof.
    intros E L. eapply (sum_one _ _ _ a); [eapply address_in; exact E|apply NoDup_nodup| |].
    - intros b _. destruct (hk b <? hk a) eqn:E1; [|lia]. apply Nat.ltb_lt in E1. replace (hk b <? r) with true by (symmetry; apply Nat.ltb_lt; lia). lia.
    - rewrite Nat.ltb_irrefl. replace (hk a <? r) with true by (symmetry; apply Nat.ltb_lt; lia). unfold object_height. rewrite E. lia.
  Qed.
  Lemma lower_all r : lower r <= heap_height H.
  Proof. apply sum_le. intros a _. destruct (hk a <? r); [apply le_n|apply Nat.le_0_l]. Qed.

  Lemma iter_nf {B} (w : B -> res json) l : (forall x, In x l -> w x <> RFuel) -> push_iter w l <> RFuel.
  Proof.
    induction l as [|x l IH]; intros Hx; [discriminate|]. cbn [push_iter]. pose proof (Hx x (or_introl eq_refl)) as E. destruct (w x); cbn; try congruence; try discriminate.
    assert (E2 : push_iter w l <> RFuel) by (apply IH; intros y Hy; apply Hx; right; exact Hy). destruct (push_iter w l); cbn; congruence.
  Qed.
  Lemma fold_nf {B} (w : B -> list (bytes * json) -> res (list (bytes * json))) l : (forall x a, In x l -> w x a <> RFuel) -> forall a, push_fold w l a <> RFuel.
  Proof.
    induction l as [|x l IH]; intros Hx a; [discriminate|]. cbn [push_fold]. pose proof (Hx x a (or_introl eq_refl)) as E. destruct (w x a); cbn [rbind]; try congruence; try discriminate.
    apply IH. intros y b Hy. apply Hx; right; exact Hy.
  Qed.

  Lemma push_depth : forall f r,
    (forall t v, (forall b, refers v b -> hk b < r) -> A * (height v + lower r) <= f -> push G J H f t v <> RFuel) /\
    (forall c fs ms, (forall b, refers (VObj fs) b -> hk b < r) -> rk c + 1 + A * (height (VObj fs) - 1 + lower r) <= f -> push_cls G J H f c fs ms <> RFuel).
  Proof.
    induction f as [|f IH]; intros r.
    { split.
      - intros t v _ L. exfalso. pose proof (height_pos v). assert (X : 1 * 1 <= A * (height v + lower r)) by (apply Nat.mul_le_mono; lia). lia.
      - intros c fs ms _ L. exfalso. revert L. generalize (A * (height (VObj fs) - 1 + lower r)). intros; lia. }
    split.
    - intros t v HV L. rewrite push_S. unfold push_body.
      assert (Sub : forall t x, height x < height v -> (forall b, refers x b -> refers v b) -> push G J H f t x <> RFuel).
      { intros t0 x Hx Hb. apply (proj1 (IH r)); [intros b Rb; apply HV, Hb, Rb|nia]. }
      destruct t; try (destruct v; discriminate); try (destruct v; try discriminate; match goal with |- (if ?b then _ else _) <> _ => destruct b end; discriminate).
      + destruct v; try discriminate. match goal with |- rbind ?m _ <> _ => assert (Q : m <> RFuel); [|destruct m; cbn; congruence] end.
        apply iter_nf. intros x Hx. apply Sub; [apply height_item; exact Hx|intros b; apply rf_item; exact Hx].
      + destruct v; try discriminate. match goal with |- rbind ?m _ <> _ => assert (Q : m <> RFuel); [|destruct m; cbn; congruence] end.
        apply iter_nf. intros x Hx. apply Sub; [apply height_item; exact Hx|intros b; apply rf_item; exact Hx].
      + destruct multi, t1; try (destruct v; discriminate); (destruct v; try discriminate); (match goal with |- rbind ?m _ <> _ => assert (Q : m <> RFuel); [|destruct m; cbn; congruence] end);
          apply fold_nf; intros x a Hx; destruct x; try discriminate; match goal with |- match ?k with _ => _ end <> _ => destruct k end; try discriminate;
          match goal with |- rbind ?m _ <> _ => assert (Q : m <> RFuel); [|destruct m; cbn; congruence] end; pose proof (height_item _ _ Hx) as HX; cbn [height] in HX;
          (apply Sub; [cbn [height] in *; lia|intros b Rb; eapply rf_item; [exact Hx|apply rf_second; exact Rb]]).
      + destruct v; try discriminate. assert (Q1 : push G J H f t1 v1 <> RFuel) by (apply Sub; [cbn [height]; lia|intros b; apply rf_first]).
        assert (Q2 : push G J H f t2 v2 <> RFuel) by (apply Sub; [cbn [height]; lia|intros b; apply rf_second]).
        destruct (push G J H f t1 v1); cbn; try congruence; try discriminate. destruct (push G J H f t2 v2); cbn; congruence.
      + destruct ts as [|t0 ts]; [destruct v; discriminate|]. destruct v; try discriminate. destruct (length l =? _)%nat; [|discriminate].
        match goal with |- rbind ?m _ <> _ => assert (Q : m <> RFuel); [|destruct m; cbn; congruence] end.
        apply iter_nf. intros [t' x] Hx. apply in_combine_r in Hx. apply Sub; [apply height_item; exact Hx|intros b; apply rf_item; exact Hx].
      + destruct v; try discriminate. destruct o as [x|]; [|discriminate]. apply Sub; [cbn [height]; lia|intros b; apply rf_some].
      + destruct v; try discriminate. destruct o as [x|]; [|discriminate]. apply Sub; [cbn [height]; lia|intros b; apply rf_some].
      + destruct v; try discriminate. destruct o as [a|]; [|discriminate]. destruct (hget H a) as [[t' x]|] eqn:Ea; [|discriminate].
        destruct (ty_eqb t t'); [|discriminate]. pose proof (lower_visit a t' x r Ea (HV a (rf_shared a))) as Lo.
        apply (proj1 (IH (hk a))); [intros b Rb; exact (HC a t' x b Ea Rb)|]. cbn [height] in L. nia.
      + destruct v; try discriminate. destruct (nth_error ts i) as [t'|]; [|discriminate].
        assert (Q : push G J H f t' v <> RFuel) by (apply Sub; [cbn [height]; lia|intros b; apply rf_alt]).
        destruct t'; try discriminate; (match goal with |- rbind ?m _ <> _ => destruct m; cbn; congruence end).
      + destruct v; try discriminate. assert (Q : push_cls G J H f c fs [] <> RFuel).
        { apply (proj2 (IH r)); [exact HV|]. pose proof (HK c).
          assert (X : exists m, height (VObj fs) = S m) by (cbn; eauto). destruct X as [m X]. rewrite X in *. replace (S m - 1) with m by lia. nia. }
        destruct (push_cls G J H f c fs []); cbn; congruence.
      + destruct v; try discriminate. destruct o as [x|]; [destruct x|]; discriminate.
      + destruct v; try discriminate. destruct o as [x|]; [destruct x|]; discriminate.
    - intros c fs ms HV L. rewrite push_cls_S. unfold push_cls_body. destruct (g_class G c) as [rc|] eqn:Ec; [|discriminate].
      match goal with |- rbind ?m _ <> _ => assert (Q : m <> RFuel); [|destruct m as [ms1| | | |]; cbn [rbind]; try congruence; try discriminate] end.
      { apply fold_nf. intros b ms0 Hb. apply (proj2 (IH r)); [exact HV|]. pose proof (HB c rc b Ec Hb). nia. }
      apply fold_nf. intros fd ms0 Hfd. destruct (alookup fkey_eqb (jf_key fd) fs) as [x|] eqn:El; [|discriminate].
      match goal with |- rbind ?m _ <> _ => assert (Q2 : m <> RFuel); [|destruct m; cbn; congruence] end.
      pose proof (height_lookup fs _ x El). apply (alookup_in fkey_eqb fkey_eqb_eq) in El. apply (proj1 (IH r)); [intros b Rb; apply HV; eapply rf_member; [exact El|exact Rb]|]. nia.
  Qed.
End Push.
