(** SizeBin.v -- proofs for property C66: the size of binary data *)
From Coq Require Import String List NArith ZArith Bool Arith Lia Permutation.
From Verif Require Import Base BaseFacts Bytes BytesFacts Types TypesFacts BinModel BinSpec BinFacts FuelFacts BoundSpec BoundFacts SizeSpec.
Import ListNotations.
Local Open Scope list_scope.
Local Open Scope nat_scope.

Definition bpicked (fs : list (fkey * val)) (L : list bfield) : nat :=
  list_sum (map (fun fd => match alookup fkey_eqb (bf_key fd) fs with Some v => vsize v | None => 0 end) L).
Lemma bpicked_app fs L L' : bpicked fs (L ++ L') = bpicked fs L + bpicked fs L'.
Proof. unfold bpicked. rewrite map_app, list_sum_app. reflexivity. Qed.
Lemma bpicked_cons fs fd L : bpicked fs (fd :: L) = match alookup fkey_eqb (bf_key fd) fs with Some v => vsize v | None => 0 end + bpicked fs L.
Proof. reflexivity. Qed.
Lemma bpicked_out k v fs L : ~ In k (map bf_key L) -> bpicked ((k, v) :: fs) L = bpicked fs L.
Proof.
  induction L as [|fd L IH]; intros H; [reflexivity|]. rewrite !bpicked_cons, IH by (intros X; apply H; right; exact X).
  cbn [alookup]. destruct (fkey_eqb (bf_key fd) k) eqn:E; [|reflexivity]. apply fkey_eqb_eq in E. exfalso. apply H. left. exact E.
Qed.
Lemma bpicked_in k v fs L : NoDup (map bf_key L) -> bpicked ((k, v) :: fs) L <= vsize v + bpicked fs L.
Proof.
  induction L as [|fd L IH]; intros ND; [cbn; lia|]. cbn [map] in ND. apply NoDup_cons_iff in ND. destruct ND as [N1 N2]. specialize (IH N2).
  rewrite !bpicked_cons. cbn [alookup]. destruct (fkey_eqb (bf_key fd) k) eqn:E.
  - apply fkey_eqb_eq in E. subst k. rewrite bpicked_out by exact N1. lia.
  - lia.
Qed.
Lemma bpicked_le fs L : NoDup (map bf_key L) -> bpicked fs L <= fsizes fs.
Proof.
  intros ND. induction fs as [|[k v] fs IH].
  - assert (X : forall L, bpicked [] L = 0) by (induction L0 as [|fd L0 IH]; [reflexivity|exact IH]). rewrite X. lia.
  - pose proof (bpicked_in k v fs L ND). unfold fsizes in *. cbn [map snd]. rewrite sum_cons. lia.
Qed.

Lemma vsize_obj fs : vsize (VObj fs) = S (fsizes fs).
Proof. induction fs as [|[k x] l IH]; [reflexivity|]. cbn [vsize] in *. unfold fsizes in *. cbn [map snd]. rewrite sum_cons. lia. Qed.

(** marking an object as written *)
Lemma unwritten_in h a W t x : hget h a = Some (t, x) -> existsb (N.eqb a) W = false -> vsize x + unwritten h (a :: W) = unwritten h W.
Proof.
  intros E EW. unfold unwritten. assert (Hin : In a (addresses h)) by (apply addresses_in; eapply hget_in; exact E).
  assert (ND : NoDup (addresses h)) by apply NoDup_nodup. revert Hin ND. generalize (addresses h). induction l as [|b l IH]; intros [] ND; cbn [map]; rewrite !sum_cons; inversion ND; subst.
  - cbn [existsb]. rewrite N.eqb_refl, EW, E. cbn [orb].
    assert (X : forall l, ~ In a l -> map (fun a0 => if existsb (N.eqb a0) (a :: W) then 0 else match hget h a0 with Some (_, x0) => vsize x0 | None => 0 end) l
      = map (fun a0 => if existsb (N.eqb a0) W then 0 else match hget h a0 with Some (_, x0) => vsize x0 | None => 0 end) l).
    { clear. induction l as [|c l IH]; intros Hn; [reflexivity|]. cbn [map]. rewrite IH by (intros X; apply Hn; right; exact X). cbn [existsb].
      destruct (N.eqb_spec c a) as [->|_]; [exfalso; apply Hn; left; reflexivity|]. reflexivity. }
    change (fun a0 : N => if ((a0 =? a)%N || existsb (N.eqb a0) W)%bool then 0 else match hget h a0 with Some (_, x0) => vsize x0 | None => 0 end)
      with (fun a0 => if existsb (N.eqb a0) (a :: W) then 0 else match hget h a0 with Some (_, x0) => vsize x0 | None => 0 end).
    rewrite X by assumption. lia.
  - specialize (IH ltac:(assumption) ltac:(assumption)). cbn [existsb] in *. destruct (N.eqb_spec b a) as [->|_]; [contradiction|]. cbn [orb]. lia.
Qed.

Section Sizes.
  Variable G : genv.
  Variable H : heap.
  Variable n : nat.
  Hypothesis HO : written_once G n.
  Definition K : nat := 9 + 8 * n.

  Definition u (W : list N) : nat := K * unwritten H W.
  (** the data written and what remains to be written *)
  Definition within (r : res (bytes * list N)) (W : list N) (b : nat) : Prop :=
    match r with ROk (bs, W') => length bs + u W' <= b + u W | _ => True end.
  Lemma within_ret bs W b : length bs <= b -> within (ROk (bs, W)) W b. Proof. cbn. lia. Qed.
  Lemma within_le r W b b' : within r W b -> b <= b' -> within r W b'. Proof. destruct r as [[bs W']| | | |]; cbn; try auto; lia. Qed.
  (** one after another *)
  Lemma within_bind (r : res (bytes * list N)) (k : bytes * list N -> res (bytes * list N)) W b1 b :
    within r W b1 -> (forall bs W', length bs + u W' <= b1 + u W -> match k (bs, W') with ROk (bs', W'') => length bs' + u W'' <= b + u W | _ => True end) ->
    within (let! x := r in k x) W b.
  Proof. intros H1 H2. destruct r as [[bs W']| | | |]; cbn [rbind]; try exact I. exact (H2 bs W' H1). Qed.
  Lemma within_iter {A} (w : A -> list N -> res (bytes * list N)) (c : A -> nat) l :
    (forall x W, In x l -> within (w x W) W (c x)) -> forall W, within (wr_iter w l W) W (list_sum (map c l)).
  Proof.
    induction l as [|x l IH]; intros Hw W; [cbn; lia|]. cbn [wr_iter map]. rewrite sum_cons.
    eapply within_bind; [apply Hw; left; reflexivity|]. intros b1 W1 E1. cbn beta.
    specialize (IH (fun y W Hy => Hw y W (or_intror Hy)) W1). destruct (wr_iter w l W1) as [[b2 W2]| | | |]; cbn [rbind within] in *; try exact I. rewrite app_length. lia.
  Qed.

  Lemma varint_le m bs : wr_varint m = ROk bs -> length bs <= 8.
  Proof. intros E. apply wr_varint_length in E. lia. Qed.
  Lemma head_le m a bs : wr_ptr_head m a = ROk bs -> length bs <= 9.
  Proof.
    unfold wr_ptr_head. pose proof (be_length 8 a) as L8. destruct (bigId a); [generalize dependent (be 8 a); intros x Lx [= <-]; cbn [length]; lia|].
    intros E. apply rbind_ok in E. destruct E as (p & E1 & E2). injection E2 as <-. apply varint_le in E1. cbn. lia.
  Qed.
  Lemma string_le s bs : wr_string s = ROk bs -> length bs <= 8 + length s.
  Proof. unfold wr_string. intros E. apply rbind_ok in E. destruct E as (p & E1 & E2). injection E2 as <-. apply varint_le in E1. rewrite app_length. lia. Qed.
  Lemma int_le k z : length (wr_int k z) <= 8.
  Proof. unfold wr_int, enc_int. rewrite be_length. destruct k; cbn; lia. Qed.

  Definition Wval (f : nat) : Prop := forall ver t v W, within (write G H f ver t v W) W (K * vsize v).
  Definition Wcls (f : nat) : Prop := forall ver c fs W L m, writes G c L m -> within (write_cls G H f ver c fs W) W (8 * m + K * bpicked fs L).

  Lemma wval_step f : Wval f -> Wcls f -> Wval (S f).
  Proof.
    intros IH IHc ver t v W. cbn [write]. assert (P9 : 9 <= K) by (unfold K; lia).
    assert (X : forall bs b, length bs <= 9 -> 1 <= b -> within (ROk (bs, W)) W (K * b)) by (intros bs b L1 L2; apply within_ret; nia).
    assert (XS : forall s b, length s < b -> within (let! bs := wr_string s in ROk (bs, W)) W (K * b)).
    { intros s b L. destruct (wr_string s) as [bs| | | |] eqn:E; cbn [rbind]; try exact I. apply string_le in E. apply within_ret. nia. }
    assert (XL : forall (w : val -> list N -> res (bytes * list N)) l, (forall x W, within (w x W) W (K * vsize x)) ->
      within (let! p := wr_varint (N.of_nat (length l)) in let! (b, W1) := wr_iter w l W in ROk (p ++ b, W1)) W (K * vsize (VList l))).
    { intros w l Hw. destruct (wr_varint _) as [p| | | |] eqn:Ep; cbn [rbind]; try exact I. apply varint_le in Ep.
      pose proof (within_iter w (fun x => K * vsize x) l (fun x W _ => Hw x W) W) as B. destruct (wr_iter w l W) as [[b W1]| | | |]; cbn [rbind within] in *; try exact I.
      assert (Es : list_sum (map (fun x => K * vsize x) l) = K * vsizes l) by (clear; induction l as [|x l IHl]; [cbn; lia|cbn [map]; rewrite sum_cons, vsizes_cons, IHl; lia]).
      rewrite Es in B. rewrite vsize_list, app_length, Nat.mul_succ_r. lia. }
    assert (XO : forall t' x m, (m <= 9) -> forall b0, b0 = mkb (N.of_nat m) -> within (let! (bx, W1) := write G H f 0%N t' x W in ROk (b0 :: bx, W1)) W (K * S (vsize x))).
    { intros t' x m _ b0 _. pose proof (IH 0%N t' x W) as B. destruct (write G H f 0 t' x W) as [[bx W1]| | | |]; cbn [rbind within] in *; try exact I. cbn [length]. rewrite Nat.mul_succ_r. lia. }
    unfold write_body. destruct t; try (destruct v; exact I).
    - destruct v; try exact I. apply X; cbn; lia.
    - destruct v; try exact I. destruct (bin_kind k); [|exact I]. apply X; [pose proof (int_le k z); lia|cbn; lia].
    - destruct v; try exact I. apply X; [rewrite be_length; lia|cbn; lia].
    - destruct v; try exact I. apply X; [rewrite be_length; lia|cbn; lia].
    - destruct v; try exact I. destruct (bin_kind k); [|exact I]. apply X; [pose proof (int_le k z); lia|cbn; lia].
    - destruct v; try exact I. apply XS. cbn; lia.
    - destruct v; try exact I. apply XL. intros; apply IH.
    - destruct v; try exact I. apply XL. intros; apply IH.
    - destruct v; try exact I. apply XL. intros; apply IH.
    - (* pair *) destruct v; try exact I. eapply within_bind; [apply IH|]. intros b1 W1 E1. cbn beta.
      pose proof (IH 0%N t2 v2 W1) as B. destruct (write G H f 0 t2 v2 W1) as [[b2 W2]| | | |]; cbn [rbind within] in *; try exact I. rewrite app_length. cbn [vsize].
      rewrite Nat.add_succ_l, Nat.mul_succ_r. cbn [Nat.add]. rewrite Nat.mul_add_distr_l. lia.
    - destruct v as [| | | | | | | |[x|]| | | | |]; try exact I; [apply (XO t x 1); [lia|reflexivity]|apply X; cbn; lia].
    - destruct v as [| | | | | | | |[x|]| | | | |]; try exact I; [apply (XO t x 1); [lia|reflexivity]|apply X; cbn; lia].
    - (* shared *) destruct v as [| | | | | | | | |[a|]| | | |]; try exact I; [|apply X; cbn; lia].
      destruct (existsb (N.eqb a) W) eqn:EW.
      + destruct (wr_ptr_head 2 a) as [hd| | | |] eqn:Eh; cbn [rbind]; try exact I. apply head_le in Eh. apply X; [lia|cbn; lia].
      + destruct (wr_ptr_head 1 a) as [hd| | | |] eqn:Eh; cbn [rbind]; try exact I. apply head_le in Eh. destruct (hget H a) as [[t'' x]|] eqn:Eg; [|exact I].
        destruct (ty_eqb t t''); [|exact I]. pose proof (IH 0%N t x (a :: W)) as B. destruct (write G H f 0 t x (a :: W)) as [[bx W1]| | | |]; cbn [rbind within] in *; try exact I.
        pose proof (unwritten_in H a W t'' x Eg EW) as EU. rewrite app_length. cbn [vsize]. unfold u in *. rewrite <- EU, Nat.mul_add_distr_l. lia.
    - (* variant *) destruct v; try exact I. destruct (nth_error ts i) as [t'|]; [|exact I].
      assert (Y : within (let! (bx, W1) := write G H f 0%N t' v W in ROk (mkb (N.of_nat i) :: bx, W1)) W (K * S (vsize v))).
      { pose proof (IH 0%N t' v W) as B. destruct (write G H f 0 t' v W) as [[bx W1]| | | |]; cbn [rbind within] in *; try exact I. cbn [length]. rewrite Nat.mul_succ_r. lia. }
      destruct t'; try exact Y. apply X; cbn; lia.
    - (* class *) destruct v; try exact I. destruct (g_class G c) as [rc|] eqn:Ec.
      + destruct (HO c rc Ec) as (L & m & HW & ND & Hm). pose proof (IHc ver c fs W L m HW) as B. eapply within_le; [exact B|].
        pose proof (bpicked_le fs L ND) as BL. rewrite vsize_obj, Nat.mul_succ_r. assert (K * bpicked fs L <= K * fsizes fs) by (apply Nat.mul_le_mono_l; exact BL). unfold K in *. lia.
      + destruct f as [|f]; [exact I|]. cbn [write_cls]. unfold write_cls_body. rewrite Ec. exact I.
    - destruct v; try exact I. apply X; [pose proof (int_le KU64 z); lia|cbn; lia].
    - destruct v; try exact I. apply X; [pose proof (int_le KI64 z); lia|cbn; lia].
    - destruct v as [| | | | | | | |[x|]| | | | |]; try exact I.
      + destruct x; try exact I. apply XS. cbn; lia.
      + apply XS. cbn; lia.
  Qed.

  Lemma wcls_step f : Wval f -> Wcls f -> Wcls (S f).
  Proof.
    intros IH IHc ver c fs W L m HW. cbn [write_cls]. unfold write_cls_body. inversion HW as [c0 rc Ls ns Ec HB]; subst. rewrite Ec. cbv zeta.
    assert (B1 : within (wr_iter (fun b => write_cls G H f ver b fs) (bp_bases (rc_wr rc)) W) W (8 * list_sum ns + K * bpicked fs (concat Ls))).
    { clear HW Ec. revert W. induction HB as [|b bs L0 Ls n0 ns W0 HB IHb]; intros W; [cbn; lia|]. cbn [wr_iter concat]. rewrite sum_cons, bpicked_app.
      eapply within_bind; [apply (IHc ver b fs W L0 n0 W0)|]. intros b1 W1 E1. cbn beta. specialize (IHb W1).
      destruct (wr_iter _ bs W1) as [[b2 W2]| | | |]; cbn [rbind within] in *; try exact I. rewrite app_length, !Nat.mul_add_distr_l. lia. }
    eapply within_bind; [exact B1|]. intros bb W1 E1. cbn beta.
    destruct (if negb (bp_vmax (rc_wr rc) =? 0)%N then wr_varint _ else ROk []) as [bv| | | |] eqn:Ev; cbn [rbind]; try exact I.
    assert (Lv : length bv <= 8 * (if (bp_vmax (rc_wr rc) =? 0)%N then 0 else 1)).
    { destruct (bp_vmax (rc_wr rc) =? 0)%N; cbn [negb] in Ev; [injection Ev as <-; cbn; lia|]. apply varint_le in Ev. lia. }
    match goal with |- context [wr_iter ?w (bp_fields (rc_wr rc)) W1] =>
      pose proof (within_iter w (fun fd => K * match alookup fkey_eqb (bf_key fd) fs with Some v => vsize v | None => 0 end) (bp_fields (rc_wr rc))) as B2 end.
    specialize (B2 ltac:(intros fd W0 _; cbv beta; match goal with |- context [visible ?e fd] => destruct (visible e fd) end; [destruct (alookup fkey_eqb (bf_key fd) fs) as [v|]; [apply IH|exact I]|apply within_ret; cbn; lia]) W1).
    assert (Es : list_sum (map (fun fd => K * match alookup fkey_eqb (bf_key fd) fs with Some v => vsize v | None => 0 end) (bp_fields (rc_wr rc))) = K * bpicked fs (bp_fields (rc_wr rc))).
    { clear. generalize (bp_fields (rc_wr rc)). induction l as [|fd l IHl]; [cbn; lia|]. cbn [map]. rewrite sum_cons, bpicked_cons, IHl. lia. }
    rewrite Es in B2. match type of B2 with within ?r _ _ => destruct r as [[bm W2]| | | |] end; cbn [rbind within] in *; try exact I.
    rewrite !app_length, bpicked_app, !Nat.mul_add_distr_l. lia.
  Qed.
  Lemma sizes_bin f : Wval f /\ Wcls f.
  Proof. induction f as [|f [A B]]; [split; [intros ver t v W; exact I|intros ver c fs W L m _; exact I]|]. split; [apply wval_step|apply wcls_step]; assumption. Qed.
End Sizes.
