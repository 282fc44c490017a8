(** WireFacts.v -- what is written is what the grammar says, and vice versa *)
From Coq Require Import List NArith ZArith Bool Lia.
From Verif Require Import Base BaseFacts Bytes BytesFacts Types TypesFacts BinModel FuelFacts WireSpec.
Import ListNotations.
Local Open Scope N_scope.

Lemma number_acc s : forall a, fold_left (fun n b => 256 * n + bval b) s a = a * 256 ^ N.of_nat (length s) + be_val s.
Proof.
  induction s as [|b s IH]; intros a; cbn [fold_left length be_val]; [change (256 ^ N.of_nat 0) with 1; lia|].
  rewrite IH, Nat2N.inj_succ, N.pow_succ_r'. nia.
Qed.
Lemma number_be s : number s = be_val s.
Proof. unfold number. rewrite number_acc. lia. Qed.
Lemma pow256 k : 256 ^ k = 2 ^ (8 * k).
Proof. rewrite N.pow_mul_r. reflexivity. Qed.

Lemma fixed_iff k n bs : fixed k n bs <-> bs = be k n.
Proof.
  unfold fixed. rewrite number_be, <- pow256. split.
  - intros [<- E]. rewrite <- (be_be_val bs) at 1. rewrite E.
    assert (X: forall k n, be k (n mod 256 ^ N.of_nat k) = be k n).
    { intros k m. transitivity (be k (be_val (be k m))); [rewrite be_val_be; reflexivity|].
      pose proof (be_be_val (be k m)) as Q. rewrite be_length in Q. exact Q. }
    apply X.
  - intros ->. rewrite be_length, be_val_be. split; reflexivity.
Qed.
Lemma integral_iff k z bs : integral k z bs <-> bs = wr_int k z.
Proof.
  unfold integral, wr_int, enc_int. set (m := (2 ^ (8 * Z.of_nat (ksize k)))%Z).
  assert (Pm: (0 < m)%Z) by (apply Z.pow_pos_nonneg; lia).
  pose proof (Z.mod_pos_bound z m Pm) as B.
  assert (Em: m = Z.of_N (2 ^ (8 * N.of_nat (ksize k)))).
  { unfold m. rewrite N2Z.inj_pow, N2Z.inj_mul, nat_N_Z. reflexivity. }
  rewrite <- (fixed_iff (ksize k) (Z.to_N (z mod m)) bs). unfold fixed.
  rewrite N.mod_small by lia. split; intros [L E]; (split; [exact L|]); lia.
Qed.
Lemma lor_add k v : v < 2 ^ k -> N.lor v (2 ^ k) = 2 ^ k + v.
Proof.
  intros L. rewrite N.add_comm. symmetry.
  assert (D: N.land v (2 ^ k) = 0).
  { apply N.bits_inj. intros i. rewrite N.land_spec, N.bits_0, N.pow2_bits_eqb. destruct (N.eqb_spec k i) as [<-|]; [|apply andb_false_r].
    rewrite andb_true_r. destruct (N.eq_dec v 0) as [->|Nz]; [apply N.bits_0|]. apply N.bits_above_log2. apply N.log2_lt_pow2; lia. }
  rewrite <- N.lxor_lor by exact D. apply N.add_nocarry_lxor. exact D.
Qed.
Lemma vint_iff n bs : vint n bs <-> wr_varint n = ROk bs.
Proof.
  assert (W: forall bs, wr_varint n = ROk bs -> vint n bs).
  { intros bs' E. apply wr_varint_from_spec in E. destruct E as (j & Hj & Hv & -> & Hmin). exists j.
    assert (j <= 8)%nat by lia. rewrite be_length, number_be, lor_add by exact Hv. repeat split; try lia.
    - rewrite be_val_be_small; [reflexivity|]. rewrite pow256.
      assert (2 ^ (7 * N.of_nat j) * 2 <= 2 ^ (8 * N.of_nat j)).
      { rewrite N.mul_comm, <- N.pow_succ_r'. apply N.pow_le_mono_r; lia. }
      lia.
    - intros i Hi. apply Hmin. lia. }
  split; [|apply W].
  intros (k & Hk & L & Hn & E & Hmin).
  assert (B: n < 2 ^ 56). { eapply N.lt_le_trans; [exact Hn|]. apply N.pow_le_mono_r; lia. }
  destruct (wr_varint_ok n B) as (bs' & E'). rewrite E'. f_equal. destruct (W bs' E') as (k' & Hk' & L' & Hn' & En' & Hmin').
  assert (H: k = k').
  { destruct (Nat.lt_trichotomy k k') as [X|[X|X]]; [|exact X|].
    - specialize (Hmin' k ltac:(lia)). lia.
    - specialize (Hmin k' ltac:(lia)). lia. }
  rewrite <- H in *. clear H k'. transitivity (be k (be_val bs')); [rewrite <- L'; symmetry; apply be_be_val|].
  rewrite <- number_be, En', <- E, number_be, <- L. apply be_be_val.
Qed.
Lemma string_iff x bs : string_bytes x bs <-> wr_string x = ROk bs.
Proof.
  unfold string_bytes, wr_string. split.
  - intros (p & V & ->). apply vint_iff in V. rewrite V. reflexivity.
  - destruct (wr_varint _) as [p| | | |] eqn:E; cbn; try discriminate. intros [= <-]. exists p. split; [apply vint_iff; exact E|reflexivity].
Qed.
Lemma byte_iff n b : n < 256 -> (bval b = n <-> b = mkb n).
Proof.
  intros L. split; [|intros ->; rewrite bval_mkb; apply N.mod_small; exact L].
  intros <-. symmetry. apply mkb_bval.
Qed.
Lemma byte_mod_iff n b : bval b = n mod 256 <-> b = mkb n.
Proof.
  split; [|intros ->; apply bval_mkb]. intros E. rewrite <- (mkb_bval b), E. 
  rewrite <- (mkb_bval (mkb n)), bval_mkb. reflexivity.
Qed.
Lemma id_iff mode a bs : mode = 1 \/ mode = 2 -> (id_bytes mode a bs <-> wr_ptr_head mode a = ROk bs).
Proof.
  intros Hm. unfold wr_ptr_head, bigId. change 0x80000000000000 with (2 ^ 55). split.
  - intros [b p L B V|b p L B V].
    + destruct (N.leb_spec (2 ^ 55) a); [lia|]. apply vint_iff in V. rewrite V. cbn. apply byte_iff in B; [|lia]. rewrite B. reflexivity.
    + destruct (N.leb_spec (2 ^ 55) a); [|lia]. apply fixed_iff in V. apply byte_iff in B; [|lia]. rewrite B, V. destruct Hm; subst mode; reflexivity.
  - destruct (N.leb_spec (2 ^ 55) a) as [L|L].
    + intros [= <-]. apply id_big; [exact L| |apply fixed_iff; reflexivity]. destruct Hm; subst mode; reflexivity.
    + destruct (wr_varint a) as [p| | | |] eqn:E; cbn; try discriminate. intros [= <-].
      apply id_small; [exact L|destruct Hm; subst mode; reflexivity|apply vint_iff; exact E].
Qed.
Lemma visible_iff v fd : visible v fd = true <-> applies v fd.
Proof.
  unfold visible, applies. rewrite andb_true_iff, !orb_true_iff, !N.eqb_eq, !N.leb_le. split; [intros [[A|A] B]|intros [A B]]; split; auto; lia.
Qed.

Scheme wire_mut := Minimality for wire Sort Prop
  with wires_mut := Minimality for wires Sort Prop
  with wire_class_mut := Minimality for wire_class Sort Prop
  with wire_bases_mut := Minimality for wire_bases Sort Prop.
Combined Scheme wire_ind4 from wire_mut, wires_mut, wire_class_mut, wire_bases_mut.

Section Wire.
  Variable G : genv.
  Variable H : heap.

  Lemma wr_iter_wires (ver : N) (t : ty) (w : N -> ty -> val -> list N -> res (bytes * list N)) :
    (forall ver t v W bs W', w ver t v W = ROk (bs, W') -> wire G H ver t v W bs W') ->
    forall l W bs W', wr_iter (w ver t) l W = ROk (bs, W') -> wires G H (map (fun x => (ver, t, x)) l) W bs W'.
  Proof.
    intros Hw. induction l as [|x l IH]; intros W bs W'; cbn [wr_iter map].
    - intros [= <- <-]. constructor.
    - destruct (w ver t x W) as [[b1 W1]| | | |] eqn:E1; cbn [rbind]; try discriminate.
      destruct (wr_iter (w ver t) l W1) as [[b2 W2]| | | |] eqn:E2; cbn [rbind]; try discriminate.
      intros [= <- <-]. econstructor; [apply Hw; exact E1|apply IH; exact E2].
  Qed.

  Lemma written_wire f : (forall ver t v W bs W', write G H f ver t v W = ROk (bs, W') -> wire G H ver t v W bs W')
    /\ (forall ver c fs W bs W', write_cls G H f ver c fs W = ROk (bs, W') -> wire_class G H ver c fs W bs W').
  Proof.
    induction f as [|f [IH1 IH2]]; [split; discriminate|]. split.
    - intros ver t v W bs W'. rewrite write_S. unfold write_body.
      assert (It: forall t' l p, wr_varint (N.of_nat (length l)) = ROk p ->
        (t = TSeq t' \/ (exists o m, t = TSet o m t') \/ (exists o m kt vt, t = TMap o m kt vt /\ t' = TPair kt vt)) ->
        (let! (b, W1) := wr_iter (write G H f 0 t') l W in ROk (p ++ b, W1)) = ROk (bs, W') -> wire G H ver t (VList l) W bs W').
      { intros t' l p Ep Ht. destruct (wr_iter _ l W) as [[b W1]| | | |] eqn:E; cbn [rbind]; try discriminate. intros [= <- <-].
        apply (w_seq G H ver t t'); [exact Ht|apply vint_iff; exact Ep|]. eapply wr_iter_wires; [|exact E]. apply IH1. }
      destruct t; destruct v as [ | b0 | z | n0 | n0 | s | l | x y | [x|] | [a|] | i x | | | fs ]; try discriminate.
      + destruct b0; intros [= <- <-]; [apply w_true|apply w_false]; reflexivity.
      + destruct (bin_kind k) eqn:Ek; [|discriminate]. intros [= <- <-]. apply w_int; [destruct k; discriminate|apply integral_iff; reflexivity].
      + intros [= <- <-]. apply w_float, fixed_iff. reflexivity.
      + intros [= <- <-]. apply w_double, fixed_iff. reflexivity.
      + destruct (bin_kind k) eqn:Ek; [|discriminate]. intros [= <- <-]. apply w_enum; [destruct k; discriminate|apply integral_iff; reflexivity].
      + destruct (wr_string s) as [p| | | |] eqn:E; cbn [rbind]; try discriminate. intros [= <- <-]. apply w_string, string_iff, E.
      + destruct (wr_varint _) as [p| | | |] eqn:E; cbn [rbind]; try discriminate. apply It; [exact E|auto].
      + destruct (wr_varint _) as [p| | | |] eqn:E; cbn [rbind]; try discriminate. apply It; [exact E|eauto].
      + destruct (wr_varint _) as [p| | | |] eqn:E; cbn [rbind]; try discriminate. apply It; [exact E|eauto 10].
      + destruct (write G H f 0 t1 x W) as [[b1 W1]| | | |] eqn:E1; cbn [rbind]; try discriminate.
        destruct (write G H f 0 t2 y W1) as [[b2 W2]| | | |] eqn:E2; cbn [rbind]; try discriminate.
        intros [= <- <-]. apply w_pair. rewrite <- (app_nil_r b2). econstructor; [apply IH1; exact E1|]. econstructor; [apply IH1; exact E2|constructor].
      + destruct (write G H f 0 t x W) as [[b1 W1]| | | |] eqn:E1; cbn [rbind]; try discriminate.
        intros [= <- <-]. eapply w_some; [left; reflexivity|reflexivity|apply IH1; exact E1].
      + intros [= <- <-]. eapply w_none; [left; reflexivity|reflexivity].
      + destruct (write G H f 0 t x W) as [[b1 W1]| | | |] eqn:E1; cbn [rbind]; try discriminate.
        intros [= <- <-]. eapply w_some; [right; reflexivity|reflexivity|apply IH1; exact E1].
      + intros [= <- <-]. eapply w_none; [right; reflexivity|reflexivity].
      + destruct (existsb (N.eqb a) W) eqn:Ex.
        * destruct (wr_ptr_head 2 a) as [p| | | |] eqn:E; cbn [rbind]; try discriminate. intros [= <- <-].
          apply w_again; [|apply id_iff; [auto|exact E]]. apply existsb_exists in Ex. destruct Ex as (b & I & Eb). apply N.eqb_eq in Eb. subst b. exact I.
        * destruct (wr_ptr_head 1 a) as [p| | | |] eqn:E; cbn [rbind]; try discriminate.
          destruct (hget H a) as [[t'' x]|] eqn:Eh; [|discriminate]. destruct (ty_eqb t t'') eqn:Et; [|discriminate].
          apply ty_eqb_eq in Et. subst t''. destruct (write G H f 0 t x (a :: W)) as [[b1 W1]| | | |] eqn:E1; cbn [rbind]; try discriminate. intros [= <- <-].
          eapply w_first; [|exact Eh|apply id_iff; [auto|exact E]|apply IH1; exact E1].
          intros I. assert (existsb (N.eqb a) W = true) by (apply existsb_exists; exists a; split; [exact I|apply N.eqb_refl]). congruence.
      + intros [= <- <-]. apply w_null. reflexivity.
      + destruct (nth_error ts i) as [t'|] eqn:En; [|discriminate].
        assert (Q: (let! (bx, W1) := write G H f 0 t' x W in ROk (mkb (N.of_nat i) :: bx, W1)) = ROk (bs, W') -> t' <> TMono -> wire G H ver (TVariant ts) (VVar i x) W bs W').
        { destruct (write G H f 0 t' x W) as [[b1 W1]| | | |] eqn:E1; cbn [rbind]; try discriminate. intros [= <- <-] Nm.
          eapply w_variant; [exact En|exact Nm|apply bval_mkb|apply IH1; exact E1]. }
        destruct t'; try (intros E; apply Q; [exact E|discriminate]).
        intros [= <- <-]. eapply w_mono; [exact En|apply bval_mkb].
      + intros E. apply w_object, IH2, E.
      + intros [= <- <-]. apply w_datetime, integral_iff. reflexivity.
      + intros [= <- <-]. apply w_timespan, integral_iff. reflexivity.
      + destruct x; try discriminate. destruct (wr_string s) as [p| | | |] eqn:E; cbn [rbind]; try discriminate. intros [= <- <-]. apply w_view, string_iff, E.
      + destruct (wr_string []) as [p| | | |] eqn:E; cbn [rbind]; try discriminate. intros [= <- <-]. apply w_no_view, string_iff, E.
    - intros ver c fs W bs W'. rewrite write_cls_S. unfold write_cls_body. destruct (g_class G c) as [rc|] eqn:Ec; [|discriminate].
      assert (Bs: forall l W bb W1, wr_iter (fun b => write_cls G H f ver b fs) l W = ROk (bb, W1) -> wire_bases G H ver l fs W bb W1).
      { induction l as [|b l IH]; intros W0 bb W1; cbn [wr_iter]; [intros [= <- <-]; constructor|].
        destruct (write_cls G H f ver b fs W0) as [[b1 W2]| | | |] eqn:E1; cbn [rbind]; try discriminate.
        destruct (wr_iter _ l W2) as [[b2 W3]| | | |] eqn:E2; cbn [rbind]; try discriminate. intros [= <- <-].
        econstructor; [apply IH2; exact E1|apply IH; exact E2]. }
      assert (Fs: forall v l W bm W1, wr_iter (fun fd W =>
            if visible v fd then
              match alookup fkey_eqb (bf_key fd) fs with
              | Some x => write G H f v (bf_ty fd) x W
              | None => RStuck
              end
            else ROk ([], W)) l W = ROk (bm, W1) -> exists ms, chosen v fs l ms /\ wires G H ms W bm W1).
      { intros v. induction l as [|fd l IH]; intros W0 bm W1; cbn [wr_iter]; [intros [= <- <-]; exists []; split; constructor|].
        destruct (visible v fd) eqn:Ev.
        - destruct (alookup fkey_eqb (bf_key fd) fs) as [x|] eqn:Ea; [|discriminate].
          destruct (write G H f v (bf_ty fd) x W0) as [[b1 W2]| | | |] eqn:E1; cbn [rbind]; try discriminate.
          destruct (wr_iter _ l W2) as [[b2 W3]| | | |] eqn:E2; cbn [rbind]; try discriminate. intros [= <- <-].
          destruct (IH _ _ _ E2) as (ms & C & Ws). eexists. split; [apply chosen_take; [apply visible_iff; exact Ev|exact Ea|exact C]|].
          econstructor; [apply IH1; exact E1|exact Ws].
        - cbn [rbind]. destruct (wr_iter _ l W0) as [[b2 W3]| | | |] eqn:E2; cbn [rbind]; try discriminate. intros [= <- <-].
          destruct (IH _ _ _ E2) as (ms & C & Ws). exists ms. split; [apply chosen_skip; [rewrite <- visible_iff; congruence|exact C]|exact Ws]. }
      destruct (wr_iter _ (bp_bases (rc_wr rc)) W) as [[bb W1]| | | |] eqn:E1; cbn [rbind]; try discriminate. apply Bs in E1.
      destruct (N.eqb_spec (bp_vmax (rc_wr rc)) 0) as [E0|E0]; cbn [negb andb].
      + cbn [rbind]. destruct (wr_iter _ (bp_fields (rc_wr rc)) W1) as [[bm W2]| | | |] eqn:E2; cbn [rbind]; try discriminate.
        intros [= <- <-]. apply Fs in E2. destruct E2 as (ms & C & Ws). eapply wc_unversioned; eassumption.
      + destruct (wr_varint _) as [bv| | | |] eqn:Ev; cbn [rbind]; try discriminate.
        destruct (wr_iter _ (bp_fields (rc_wr rc)) W1) as [[bm W2]| | | |] eqn:E2; cbn [rbind]; try discriminate.
        intros [= <- <-]. apply Fs in E2. destruct E2 as (ms & C & Ws). eapply wc_versioned; try eassumption; [reflexivity|]. apply vint_iff. exact Ev.
  Qed.

  Definition writes ver t v W bs W' := exists F, forall f, (F <= f)%nat -> write G H f ver t v W = ROk (bs, W').
  Definition writes_all (l : list (N * ty * val)) W bs W' := exists F, forall f, (F <= f)%nat -> wr_iter (fun '(ver, t, v) => write G H f ver t v) l W = ROk (bs, W').
  Definition writes_cls ver c fs W bs W' := exists F, forall f, (F <= f)%nat -> write_cls G H f ver c fs W = ROk (bs, W').
  Definition writes_bases ver l fs W bs W' := exists F, forall f, (F <= f)%nat -> wr_iter (fun b => write_cls G H f ver b fs) l W = ROk (bs, W').

  Lemma wr_iter_map {A B} (w : B -> list N -> res (bytes * list N)) (g : A -> B) l : forall W, wr_iter w (map g l) W = wr_iter (fun x => w (g x)) l W.
  Proof. induction l as [|x l IH]; intros W; [reflexivity|]. cbn [map wr_iter]. destruct (w (g x) W) as [[b W1]| | | |]; cbn [rbind]; try reflexivity. rewrite IH. reflexivity. Qed.
  Lemma chosen_iter f v fs l ms : chosen v fs l ms -> forall W,
    wr_iter (fun fd W => if visible v fd then
              match alookup fkey_eqb (bf_key fd) fs with Some x => write G H f v (bf_ty fd) x W | None => RStuck end
            else ROk ([], W)) l W = wr_iter (fun '(ver, t, v) => write G H f ver t v) ms W.
  Proof.
    induction 1 as [|fd l ms Na C IH|fd l ms x Ap Ea C IH]; intros W; [reflexivity| |].
    - cbn [wr_iter]. assert (E: visible v fd = false). { destruct (visible v fd) eqn:E; [|reflexivity]. apply visible_iff in E. contradiction. }
      rewrite E. cbn [rbind]. rewrite IH. destruct (wr_iter _ ms W) as [[b W1]| | | |]; reflexivity.
    - cbn [wr_iter]. apply visible_iff in Ap. rewrite Ap, Ea. destruct (write G H f v (bf_ty fd) x W) as [[b W1]| | | |]; cbn [rbind]; try reflexivity.
      rewrite IH. reflexivity.
  Qed.

  Ltac leaf := exists 1%nat; intros [|f] L; [lia|]; rewrite write_S; cbn [write_body].
  Lemma wire_written : (forall ver t v W bs W', wire G H ver t v W bs W' -> writes ver t v W bs W')
    /\ (forall l W bs W', wires G H l W bs W' -> writes_all l W bs W')
    /\ (forall ver c fs W bs W', wire_class G H ver c fs W bs W' -> writes_cls ver c fs W bs W')
    /\ (forall ver l fs W bs W', wire_bases G H ver l fs W bs W' -> writes_bases ver l fs W bs W').
  Proof.
    apply (wire_ind4 G H writes writes_all writes_cls writes_bases).
    - intros ver W b E. leaf. apply byte_iff in E; [|lia]. rewrite E. reflexivity.
    - intros ver W b E. leaf. apply byte_iff in E; [|lia]. rewrite E. reflexivity.
    - intros ver k z W bs Nk I. leaf. apply integral_iff in I. rewrite I. destruct k; try reflexivity. congruence.
    - intros ver k z W bs Nk I. leaf. apply integral_iff in I. rewrite I. destruct k; try reflexivity. congruence.
    - intros ver n W bs I. leaf. apply fixed_iff in I. rewrite I. reflexivity.
    - intros ver n W bs I. leaf. apply fixed_iff in I. rewrite I. reflexivity.
    - intros ver z W bs I. leaf. apply integral_iff in I. rewrite I. reflexivity.
    - intros ver z W bs I. leaf. apply integral_iff in I. rewrite I. reflexivity.
    - intros ver x W bs I. leaf. apply string_iff in I. rewrite I. reflexivity.
    - intros ver x W bs I. leaf. apply string_iff in I. rewrite I. reflexivity.
    - intros ver W bs I. leaf. apply string_iff in I. rewrite I. reflexivity.
    - intros ver ta tb a b W bs W' _ (F & E). exists (S F). intros [|f] L; [lia|]. rewrite write_S. cbn [write_body].
      specialize (E f ltac:(lia)). cbn [wr_iter] in E. destruct (write G H f 0 ta a W) as [[b1 W1]| | | |]; cbn [rbind] in *; try discriminate.
      destruct (write G H f 0 tb b W1) as [[b2 W2]| | | |]; cbn [rbind] in *; try discriminate. rewrite app_nil_r in E. exact E.
    - intros ver t t' W b [-> | ->] E; leaf; apply byte_iff in E; try lia; rewrite E; reflexivity.
    - intros ver t t' x W b bs W' Ht Eb _ (F & E). exists (S F). intros [|f] L; [lia|]. rewrite write_S. apply byte_iff in Eb; [|lia]. rewrite Eb.
      specialize (E f ltac:(lia)). destruct Ht as [-> | ->]; cbn [write_body]; rewrite E; reflexivity.
    - intros ver t W b E. leaf. apply byte_iff in E; [|lia]. rewrite E. reflexivity.
    - intros ver t a W bs I Hi. leaf. assert (X: existsb (N.eqb a) W = true) by (apply existsb_exists; exists a; split; [exact I|apply N.eqb_refl]).
      rewrite X. apply id_iff in Hi; [|auto]. rewrite Hi. reflexivity.
    - intros ver t a x W h bs W' Ni Eh Hi _ (F & E). exists (S F). intros [|f] L; [lia|]. rewrite write_S. cbn [write_body].
      assert (X: existsb (N.eqb a) W = false).
      { destruct (existsb (N.eqb a) W) eqn:X; [|reflexivity]. apply existsb_exists in X. destruct X as (b & I & Eb). apply N.eqb_eq in Eb. subst b. contradiction. }
      rewrite X. apply id_iff in Hi; [|auto]. rewrite Hi. cbn [rbind]. rewrite Eh, (proj2 (ty_eqb_eq t t) eq_refl), (E f) by lia. reflexivity.
    - intros ver t t' l W p bs W' Ht Hp _ (F & E). exists (S F). intros [|f] L; [lia|]. rewrite write_S. apply vint_iff in Hp.
      specialize (E f ltac:(lia)). rewrite wr_iter_map in E.
      destruct Ht as [-> | [(o & m & ->) | (o & m & kt & vt & -> & ->)]]; cbn [write_body]; rewrite Hp; cbn [rbind];
        match type of E with ?y = _ => match goal with |- rbind ?x _ = _ => change x with y end end; rewrite E; reflexivity.
    - intros ver ts i v W b En E. leaf. rewrite En. apply byte_mod_iff in E. rewrite E. reflexivity.
    - intros ver ts i t x W b bs W' En Nm Eb _ (F & E). exists (S F). intros [|f] L; [lia|]. rewrite write_S. cbn [write_body]. rewrite En.
      apply byte_mod_iff in Eb. rewrite Eb. specialize (E f ltac:(lia)). destruct t; try congruence; rewrite E; reflexivity.
    - intros ver c fs W bs W' _ (F & E). exists (S F). intros [|f] L; [lia|]. rewrite write_S. cbn [write_body]. apply E. lia.
    - intros W. exists 0%nat. reflexivity.
    - intros ver t v l W b1 W1 b2 W2 _ (F1 & E1) _ (F2 & E2). exists (max F1 F2). intros f L. cbn [wr_iter]. rewrite E1 by lia. cbn [rbind]. rewrite E2 by lia. reflexivity.
    - intros ver c rc fs ms W bb W1 bm W2 Ec Ev _ (F1 & E1) C _ (F2 & E2). exists (S (max F1 F2)). intros [|f] L; [lia|]. rewrite write_cls_S. unfold write_cls_body.
      rewrite Ec, E1 by lia. cbn [rbind]. rewrite Ev. cbn [N.eqb negb andb rbind]. rewrite (chosen_iter f ver fs _ ms C W1), E2 by lia. reflexivity.
    - intros ver c rc fs v ms W bb W1 bv bm W2 Ec Ev Evv _ (F1 & E1) Hv C _ (F2 & E2). exists (S (max F1 F2)). intros [|f] L; [lia|]. rewrite write_cls_S. unfold write_cls_body.
      rewrite Ec, E1 by lia. cbn [rbind]. apply N.eqb_neq in Ev. rewrite Ev. cbn [negb andb]. rewrite <- Evv. apply vint_iff in Hv. rewrite Hv. cbn [rbind].
      rewrite (chosen_iter f v fs _ ms C W1), E2 by lia. reflexivity.
    - intros ver fs W. exists 0%nat. reflexivity.
    - intros ver c l fs W b1 W1 b2 W2 _ (F1 & E1) _ (F2 & E2). exists (max F1 F2). intros f L. cbn [wr_iter]. rewrite E1 by lia. cbn [rbind]. rewrite E2 by lia. reflexivity.
  Qed.
End Wire.
