(** BytesFacts.v -- proofs about Bytes.v *)
From Coq Require Import List NArith ZArith Bool Lia ZifyBool ZifyN ZifyNat.
From Verif Require Import Base BaseFacts Bytes.
Import ListNotations.
Local Open Scope N_scope.

Lemma be_length k v : length (be k v) = k.
Proof. induction k as [|k IH]; cbn; [reflexivity|]. rewrite IH. reflexivity. Qed.

Lemma be_val_bound s : be_val s < 256 ^ N.of_nat (length s).
Proof.
  induction s as [|b s IH]; cbn [be_val length]; [vm_compute; reflexivity|].
  rewrite Nat2N.inj_succ, N.pow_succ_r'. pose proof (bval_lt b). nia.
Qed.

Lemma pow256_pos k : 0 < 256 ^ k.
Proof. apply N.neq_0_lt_0, N.pow_nonzero. discriminate. Qed.

Lemma be_val_be k v : be_val (be k v) = v mod 256 ^ N.of_nat k.
Proof.
  induction k as [|k IH]; cbn [be be_val]; [rewrite N.mod_1_r; reflexivity|].
  rewrite be_length, bval_mkb, IH, Nat2N.inj_succ, N.pow_succ_r'.
  pose proof (pow256_pos (N.of_nat k)) as Hp.
  rewrite (N.mul_comm 256).
  rewrite N.mod_mul_r by lia. lia.
Qed.

Lemma be_val_be_small k v : v < 256 ^ N.of_nat k -> be_val (be k v) = v.
Proof. intros H. rewrite be_val_be. apply N.mod_small; exact H. Qed.

Lemma be_be_val s : be (length s) (be_val s) = s.
Proof.
  (* be k only depends on the value modulo 256^k *)
  assert (G: forall k v w, v mod 256 ^ N.of_nat k = w mod 256 ^ N.of_nat k -> be k v = be k w).
  { induction k as [|k IH]; intros v w H; cbn [be]; [reflexivity|].
    rewrite Nat2N.inj_succ, N.pow_succ_r', (N.mul_comm 256) in H.
    pose proof (pow256_pos (N.of_nat k)) as Hp.
    rewrite !N.mod_mul_r in H by lia.
    assert (Hlo: v mod 256 ^ N.of_nat k = w mod 256 ^ N.of_nat k).
    { pose proof (N.mod_lt v (256 ^ N.of_nat k) ltac:(lia)).
      pose proof (N.mod_lt w (256 ^ N.of_nat k) ltac:(lia)).
      assert (E: (v mod 256 ^ N.of_nat k + 256 ^ N.of_nat k * ((v / 256 ^ N.of_nat k) mod 256)) mod 256 ^ N.of_nat k
              = (w mod 256 ^ N.of_nat k + 256 ^ N.of_nat k * ((w / 256 ^ N.of_nat k) mod 256)) mod 256 ^ N.of_nat k) by (rewrite H; reflexivity).
      rewrite (N.mul_comm (256 ^ N.of_nat k) ((v / 256 ^ N.of_nat k) mod 256)), (N.mul_comm (256 ^ N.of_nat k) ((w / 256 ^ N.of_nat k) mod 256)) in E.
      rewrite !N.mod_add in E by lia. rewrite !N.mod_mod in E by lia. exact E. }
    f_equal; [|apply IH; exact Hlo].
    apply bval_inj. rewrite !bval_mkb.
    rewrite Hlo in H. apply N.add_cancel_l in H. apply N.mul_cancel_l in H; [exact H|lia]. }
  induction s as [|b s IH]; cbn [length be be_val]; [reflexivity|].
  pose proof (be_val_bound s) as Hb. pose proof (pow256_pos (N.of_nat (length s))) as Hp.
  f_equal.
  - rewrite N.div_add_l by lia. rewrite N.div_small by exact Hb. rewrite N.add_0_r. apply mkb_bval.
  - transitivity (be (length s) (be_val s)); [|exact IH]. apply G. rewrite N.add_comm, N.mod_add by lia. reflexivity.
Qed.

(** takeN *)
Lemma takeN_app t s : takeN (N.of_nat (length t)) (t ++ s) = Some (t, s).
Proof.
  induction t as [|b t IH]; [destruct s; reflexivity|].
  cbn [length app takeN]. rewrite Nat2N.inj_succ.
  destruct (N.eqb_spec (N.succ (N.of_nat (length t))) 0); [lia|].
  rewrite N.pred_succ, IH. reflexivity.
Qed.

Lemma takeN_some n s t r : takeN n s = Some (t, r) -> s = t ++ r /\ N.of_nat (length t) = n.
Proof.
  revert n t r; induction s as [|b s IH]; intros n t r; cbn [takeN].
  - destruct (N.eqb_spec n 0); [|discriminate]. intros E; inversion E; subst. split; reflexivity.
  - destruct (N.eqb_spec n 0); [intros E; inversion E; subst; split; reflexivity|].
    destruct (takeN (N.pred n) s) as [[t' r']|] eqn:E; [|discriminate].
    intros E2; inversion E2; subst. apply IH in E. destruct E as [-> Hl].
    split; [reflexivity|]. cbn [length]. lia.
Qed.

Lemma takeN_none n s : takeN n s = None <-> N.of_nat (length s) < n.
Proof.
  revert n; induction s as [|b s IH]; intros n; cbn [takeN length].
  - destruct (N.eqb_spec n 0); split; intros H; try discriminate; try lia; reflexivity.
  - destruct (N.eqb_spec n 0); [split; [discriminate|lia]|].
    specialize (IH (N.pred n)). destruct (takeN (N.pred n) s) as [[t r]|].
    + split; [discriminate|]. intros H. assert (N.of_nat (length s) < N.pred n) by lia.
      apply IH in H0. discriminate.
    + split; [|reflexivity]. intros _. assert (N.of_nat (length s) < N.pred n) by (apply IH; reflexivity). lia.
Qed.

Lemma rd_bytes_app t s : rd_bytes (N.of_nat (length t)) (t ++ s) = ROk (t, s).
Proof. unfold rd_bytes. rewrite takeN_app. reflexivity. Qed.

Lemma rd_bytes_app' n t s : n = N.of_nat (length t) -> rd_bytes n (t ++ s) = ROk (t, s).
Proof. intros ->. apply rd_bytes_app. Qed.

Lemma rd_bytes_ok n s t r : rd_bytes n s = ROk (t, r) -> s = t ++ r /\ N.of_nat (length t) = n.
Proof.
  unfold rd_bytes. destruct (takeN n s) as [[t' r']|] eqn:E; [|discriminate].
  intros H; inversion H; subst. apply takeN_some; exact E.
Qed.

Lemma rd_bytes_throw n s e : rd_bytes n s = RThrow e -> e = ExIo /\ N.of_nat (length s) < n.
Proof.
  unfold rd_bytes. destruct (takeN n s) as [[t' r']|] eqn:E; [discriminate|].
  intros H; inversion H; subst. split; [reflexivity|]. apply takeN_none; exact E.
Qed.

Lemma rd_be_be k v s : v < 256 ^ N.of_nat k -> rd_be k (be k v ++ s) = ROk (v, s).
Proof.
  intros H. unfold rd_be. rewrite rd_bytes_app' by (rewrite be_length; reflexivity).
  cbn [rbind]. rewrite be_val_be_small by exact H. reflexivity.
Qed.

Lemma rd_be_ok k s v r : rd_be k s = ROk (v, r) -> s = be k v ++ r /\ v < 256 ^ N.of_nat k.
Proof.
  unfold rd_be. intros H. apply rbind_ok in H. destruct H as [[t s'] [H1 H2]].
  inversion H2; subst. apply rd_bytes_ok in H1. destruct H1 as [-> Hl].
  apply Nat2N.inj in Hl. subst k.
  rewrite be_be_val. split; [reflexivity|]. apply be_val_bound.
Qed.

(** ** two's complement *)
Lemma pow8k k : Z.of_N (256 ^ N.of_nat k) = (2 ^ (8 * Z.of_nat k))%Z.
Proof.
  rewrite N2Z.inj_pow. rewrite nat_N_Z. change (Z.of_N 256) with (2 ^ 8)%Z.
  rewrite <- Z.pow_mul_r by lia. reflexivity.
Qed.

Lemma enc_int_length k z : length (enc_int k z) = k.
Proof. apply be_length. Qed.

Lemma rd_be_enc_int k z s :
  rd_be k (enc_int k z ++ s) = ROk (Z.to_N (z mod 2 ^ (8 * Z.of_nat k))%Z, s).
Proof.
  apply rd_be_be. pose proof (pow8k k) as Hp.
  assert (0 < 2 ^ (8 * Z.of_nat k))%Z by (apply Z.pow_pos_nonneg; lia).
  pose proof (Z.mod_pos_bound z (2 ^ (8 * Z.of_nat k))%Z H). lia.
Qed.

Lemma dec_unsigned_enc k z :
  (0 <= z < 2 ^ (8 * Z.of_nat k))%Z -> Z.of_N (Z.to_N (z mod 2 ^ (8 * Z.of_nat k))%Z) = z.
Proof. intros H. rewrite Z.mod_small by exact H. lia. Qed.

Lemma dec_signed_enc k z :
  (1 <= k)%nat ->
  (- 2 ^ (8 * Z.of_nat k - 1) <= z < 2 ^ (8 * Z.of_nat k - 1))%Z ->
  dec_signed k (Z.to_N (z mod 2 ^ (8 * Z.of_nat k))%Z) = z.
Proof.
  intros Hk H. unfold dec_signed.
  set (h := (2 ^ (8 * Z.of_nat k - 1))%Z) in *.
  assert (Hm: (2 ^ (8 * Z.of_nat k) = 2 * h)%Z).
  { unfold h. rewrite <- Z.pow_succ_r by lia. f_equal. lia. }
  rewrite Hm. assert (0 < h)%Z by (apply Z.pow_pos_nonneg; lia).
  rewrite (Z.mul_comm 2 h), Z.div_mul, (Z.mul_comm h 2) by lia.
  destruct (Z.ltb_spec z 0).
  - assert (E: (z mod (2 * h) = z + 2 * h)%Z).
    { rewrite <- (Z.mod_add z 1) by lia. rewrite Z.mul_1_l. apply Z.mod_small. lia. }
    rewrite E. destruct (Z.ltb_spec (Z.of_N (Z.to_N (z + 2 * h))) h); lia.
  - rewrite Z.mod_small by lia.
    destruct (Z.ltb_spec (Z.of_N (Z.to_N z)) h); lia.
Qed.

Lemma dec_signed_range k n :
  (1 <= k)%nat -> n < 256 ^ N.of_nat k ->
  (- 2 ^ (8 * Z.of_nat k - 1) <= dec_signed k n < 2 ^ (8 * Z.of_nat k - 1))%Z.
Proof.
  intros Hk H. unfold dec_signed. pose proof (pow8k k) as Hp.
  set (h := (2 ^ (8 * Z.of_nat k - 1))%Z) in *.
  assert (Hm: (2 ^ (8 * Z.of_nat k) = 2 * h)%Z).
  { unfold h. rewrite <- Z.pow_succ_r by lia. f_equal. lia. }
  rewrite Hm in *. assert (0 < h)%Z by (apply Z.pow_pos_nonneg; lia).
  rewrite (Z.mul_comm 2 h), Z.div_mul, (Z.mul_comm h 2) by lia.
  destruct (Z.ltb_spec (Z.of_N n) h); lia.
Qed.

(** ** variable-length integers *)

(** the bytes which [prefix_len] maps to length [k]: those with [k-1] leading zeros *)
Definition all_bytes : list N := map N.of_nat (seq 0 256).

Lemma all_bytes_in n : n < 256 -> In n all_bytes.
Proof.
  intros H. unfold all_bytes. rewrite <- (N2Nat.id n). apply in_map. apply in_seq. lia.
Qed.

Definition plen_ok (b : N) : bool :=
  match prefix_len 8 1 128 b with
  | None => b =? 0
  | Some (k, mask) =>
      (1 <=? k)%nat && (k <=? 8)%nat && (mask =? 2 ^ (8 - N.of_nat k)) && (mask <=? b) && (b <? 2 * mask)
      && (N.lxor b mask =? b - mask)
  end.

Lemma plen_ok_all b : b < 256 -> plen_ok b = true.
Proof.
  intros H. assert (G: forallb plen_ok all_bytes = true) by (vm_compute; reflexivity).
  rewrite forallb_forall in G. apply G, all_bytes_in, H.
Qed.

Lemma prefix_len_some b k mask : b < 256 -> prefix_len 8 1 128 b = Some (k, mask) ->
  (1 <= k <= 8)%nat /\ mask = 2 ^ (8 - N.of_nat k) /\ mask <= b < 2 * mask /\ N.lxor b mask = b - mask.
Proof.
  intros Hb E. pose proof (plen_ok_all b Hb) as H. unfold plen_ok in H. rewrite E in H.
  rewrite !andb_true_iff in H. destruct H as [[[[[H1 H2] H3] H4] H5] H6].
  apply Nat.leb_le in H1, H2. apply N.eqb_eq in H3, H6. apply N.leb_le in H4. apply N.ltb_lt in H5.
  repeat split; auto; lia.
Qed.

Lemma prefix_len_none b : b < 256 -> prefix_len 8 1 128 b = None <-> b = 0.
Proof.
  intros Hb. pose proof (plen_ok_all b Hb) as H. unfold plen_ok in H.
  destruct (prefix_len 8 1 128 b) as [[k mask]|] eqn:E.
  - split; [discriminate|]. intros ->. vm_compute in E. discriminate.
  - apply N.eqb_eq in H. subst. split; reflexivity.
Qed.

Lemma prefix_len_interval b k : (1 <= k <= 8)%nat -> b < 256 ->
  2 ^ (8 - N.of_nat k) <= b < 2 * 2 ^ (8 - N.of_nat k) ->
  prefix_len 8 1 128 b = Some (k, 2 ^ (8 - N.of_nat k)).
Proof.
  intros Hk Hb Hi. destruct (prefix_len 8 1 128 b) as [[k' mask]|] eqn:E.
  - apply prefix_len_some in E; [|exact Hb]. destruct E as (Hk' & Hm & Hi' & _). subst mask.
    assert (k = k').
    { destruct (Nat.lt_trichotomy k k') as [L|[L|L]]; [|exact L|]; exfalso.
      - assert (2 * 2 ^ (8 - N.of_nat k') <= 2 ^ (8 - N.of_nat k)).
        { rewrite <- N.pow_succ_r'. apply N.pow_le_mono_r; lia. } lia.
      - assert (2 * 2 ^ (8 - N.of_nat k) <= 2 ^ (8 - N.of_nat k')).
        { rewrite <- N.pow_succ_r'. apply N.pow_le_mono_r; lia. } lia. }
    subst. reflexivity.
  - apply prefix_len_none in E; [|exact Hb]. subst.
    assert (0 < 2 ^ (8 - N.of_nat k)) by (apply N.neq_0_lt_0, N.pow_nonzero; discriminate). lia.
Qed.

(** number of bytes used for [v] *)
Fixpoint vlen_from (left k : nat) (v : N) : nat :=
  match left with O => k | S l => if v <? 2 ^ (7 * N.of_nat k) then k else vlen_from l (S k) v end.
Definition vlen (v : N) : nat := vlen_from 7 1 v.

Lemma lor_marker v k : v < 2 ^ k -> N.lor v (2 ^ k) = v + 2 ^ k.
Proof.
  intros H. symmetry.
  rewrite <- (N.lxor_lor v (2^k)).
  - apply N.add_nocarry_lxor. apply N.bits_inj_0. intros i.
    rewrite N.land_spec, N.pow2_bits_eqb. destruct (N.eqb_spec k i); [|apply andb_false_r].
    subst. destruct (N.eq_dec v 0) as [->|Hv]; [rewrite N.bits_0; reflexivity|].
    rewrite N.bits_above_log2; [reflexivity|]. apply N.log2_lt_pow2; lia.
  - apply N.bits_inj_0. intros i.
    rewrite N.land_spec, N.pow2_bits_eqb. destruct (N.eqb_spec k i); [|apply andb_false_r].
    subst. destruct (N.eq_dec v 0) as [->|Hv]; [rewrite N.bits_0; reflexivity|].
    rewrite N.bits_above_log2; [reflexivity|]. apply N.log2_lt_pow2; lia.
Qed.

Lemma ivl q mk : q < mk -> mk <= q + mk < 2 * mk.
Proof. lia. Qed.

Lemma rd_varint_encoded k v s : (1 <= k <= 8)%nat -> v < 2 ^ (7 * N.of_nat k) ->
  rd_varint (be k (N.lor v (2 ^ (7 * N.of_nat k))) ++ s) = ROk (v, s).
Proof.
  intros Hk Hv. rewrite lor_marker by exact Hv.
  set (m := 2 ^ (7 * N.of_nat k)) in *. destruct k as [|k']; [lia|].
  cbn [be app rd_varint].
  set (p := 256 ^ N.of_nat k').
  assert (Hp: 0 < p) by (unfold p; apply N.neq_0_lt_0, N.pow_nonzero; discriminate).
  remember (2 ^ (8 - N.of_nat (S k'))) as mk eqn:Emk.
  assert (Hm: m = mk * p).
  { unfold m, p. rewrite Emk. change 256 with (2 ^ 8). rewrite <- N.pow_mul_r, <- N.pow_add_r. f_equal. lia. }
  assert (Hmk: 0 < mk) by (rewrite Emk; apply N.neq_0_lt_0, N.pow_nonzero; discriminate).
  assert (Hmk2: mk <= 128).
  { rewrite Emk. change 128 with (2 ^ 7). apply N.pow_le_mono_r; lia. }
  assert (Hd: (v + m) / p = v / p + mk) by (rewrite Hm; apply N.div_add; lia).
  assert (Hvp: v / p < mk).
  { apply N.div_lt_upper_bound; [lia|]. rewrite N.mul_comm. rewrite <- Hm. exact Hv. }
  assert (Hlt: v / p + mk < 256) by (revert Hvp; generalize (v / p); clear -Hmk2; intros q Hvp; lia).
  assert (Hb: bval (mkb ((v + m) / p)) = v / p + mk).
  { rewrite bval_mkb, Hd. apply N.mod_small. exact Hlt. }
  rewrite Hb. rewrite (prefix_len_interval _ (S k')); [|exact Hk|exact Hlt|]. 2:{ rewrite <- Emk. apply ivl. exact Hvp. }
  rewrite <- Emk.
  change (mkb ((v + m) / p) :: be k' (v + m) ++ s) with ((mkb ((v + m) / p) :: be k' (v + m)) ++ s).
  rewrite rd_bytes_app' by (cbn [length]; rewrite be_length; reflexivity).
  cbn [rbind]. rewrite Hb.
  assert (Hx: N.lxor (v / p + mk) mk = v / p).
  { assert (P: prefix_len 8 1 128 (v / p + mk) = Some (S k', mk)) by (rewrite Emk at 2; apply prefix_len_interval; [exact Hk|exact Hlt|rewrite <- Emk; apply ivl; exact Hvp]).
    apply prefix_len_some in P; [|exact Hlt]. destruct P as (_ & _ & _ & ->). apply N.add_sub. }
  rewrite Hx. cbn [be_val]. rewrite bval_mkb, N.mod_small by (eapply N.lt_trans; [exact Hvp|]; clear -Hmk2; lia). rewrite be_length, be_val_be. fold p.
  replace ((v + m) mod p) with (v mod p) by (rewrite Hm, N.mod_add by lia; reflexivity).
  do 2 f_equal. rewrite N.mul_comm. symmetry. apply N.div_mod. clear -Hp; lia.
Qed.

Lemma wr_varint_from_spec left k v bs : wr_varint_from left k v = ROk bs ->
  exists j, (k <= j < k + left)%nat /\ v < 2 ^ (7 * N.of_nat j) /\ bs = be j (N.lor v (2 ^ (7 * N.of_nat j)))
            /\ (forall i, (k <= i < j)%nat -> 2 ^ (7 * N.of_nat i) <= v).
Proof.
  revert k; induction left as [|left IH]; intros k; cbn [wr_varint_from]; [discriminate|].
  destruct (N.ltb_spec v (2 ^ (7 * N.of_nat k))) as [L|L].
  - intros E; inversion E; subst. exists k. repeat split; auto; lia.
  - intros E. apply IH in E. destruct E as (j & Hj & Hv & -> & Hmin).
    exists j. repeat split; auto; try lia. intros i Hi.
    destruct (Nat.eq_dec i k) as [->|]; [exact L|]. apply Hmin. lia.
Qed.

Lemma wr_varint_from_throw left k v : wr_varint_from left k v = RThrow ExConv \/ exists bs, wr_varint_from left k v = ROk bs.
Proof.
  revert k; induction left as [|left IH]; intros k; cbn [wr_varint_from]; [left; reflexivity|].
  destruct (v <? 2 ^ (7 * N.of_nat k)); [right; eauto|apply IH].
Qed.

Lemma wr_varint_from_ok left k v : (0 < left)%nat -> v < 2 ^ (7 * N.of_nat (k + left - 1)) -> exists bs, wr_varint_from left k v = ROk bs.
Proof.
  revert k; induction left as [|left IH]; intros k Hl Hv; [lia|]. cbn [wr_varint_from].
  destruct (N.ltb_spec v (2 ^ (7 * N.of_nat k))) as [L|L]; [eauto|].
  destruct left as [|left]; [replace (k + 1 - 1)%nat with k in Hv by lia; lia|].
  apply IH; [lia|]. replace (S k + S left - 1)%nat with (k + S (S left) - 1)%nat by lia. exact Hv.
Qed.

Lemma wr_varint_ok v : v < 2 ^ 56 -> exists bs, wr_varint v = ROk bs.
Proof. intros H. apply wr_varint_from_ok; [lia|exact H]. Qed.

Lemma wr_varint_big v : 2 ^ 56 <= v -> wr_varint v = RThrow ExConv.
Proof.
  intros H. destruct (wr_varint_from_throw 8 1 v) as [E|[bs E]]; [exact E|].
  apply wr_varint_from_spec in E. destruct E as (j & Hj & Hv & _).
  assert (2 ^ (7 * N.of_nat j) <= 2 ^ 56) by (apply N.pow_le_mono_r; lia). lia.
Qed.

Lemma wr_varint_inv v bs : wr_varint v = ROk bs -> v < 2 ^ 56.
Proof.
  intros E. destruct (N.lt_ge_cases v (2 ^ 56)) as [L|L]; [exact L|].
  apply wr_varint_big in L. rewrite L in E. discriminate.
Qed.

Lemma rd_wr_varint v bs s : wr_varint v = ROk bs -> rd_varint (bs ++ s) = ROk (v, s).
Proof.
  intros E. apply wr_varint_from_spec in E. destruct E as (j & Hj & Hv & -> & _).
  apply rd_varint_encoded; [lia|exact Hv].
Qed.

Lemma wr_varint_length v bs : wr_varint v = ROk bs ->
  (1 <= length bs <= 8)%nat /\ v < 2 ^ (7 * N.of_nat (length bs))
  /\ ((1 < length bs)%nat -> 2 ^ (7 * N.of_nat (length bs - 1)) <= v).
Proof.
  intros E. apply wr_varint_from_spec in E. destruct E as (j & Hj & Hv & -> & Hmin).
  rewrite be_length. repeat split; try lia; try exact Hv. intros H. apply Hmin. lia.
Qed.

Lemma rd_varint_ok s v r : rd_varint s = ROk (v, r) ->
  exists t, s = t ++ r /\ (1 <= length t <= 8)%nat /\ v < 2 ^ (7 * N.of_nat (length t)).
Proof.
  unfold rd_varint. destruct s as [|b s]; [discriminate|].
  destruct (prefix_len 8 1 128 (bval b)) as [[k mask]|] eqn:E; [|discriminate].
  apply prefix_len_some in E; [|apply bval_lt]. destruct E as (Hk & Hm & Hi & Hx).
  intros H. apply rbind_ok in H. destruct H as [[t s'] [H1 H2]].
  apply rd_bytes_ok in H1. destruct H1 as [Hs Hl].
  destruct t as [|b0 t']; [discriminate|]. inversion H2; subst r v. clear H2.
  exists (b0 :: t'). split; [exact Hs|]. apply Nat2N.inj in Hl.
  split; [lia|]. cbn [app] in Hs. inversion Hs; subst b0. rewrite Hl.
  cbn [be_val]. rewrite bval_mkb, Hx. pose proof (be_val_bound t') as Hb. cbn [length] in Hl.
  replace (length t') with (k - 1)%nat in * by lia.
  rewrite N.mod_small by (pose proof (bval_lt b); lia).
  assert (E: 2 ^ (7 * N.of_nat k) = mask * 256 ^ N.of_nat (k - 1)).
  { subst mask. change 256 with (2 ^ 8). rewrite <- N.pow_mul_r, <- N.pow_add_r. f_equal. lia. }
  rewrite E. nia.
Qed.

Lemma rd_varint_lt s v r : rd_varint s = ROk (v, r) -> v < 2 ^ 56.
Proof.
  intros H. apply rd_varint_ok in H. destruct H as (t & _ & Hl & Hv).
  assert (2 ^ (7 * N.of_nat (length t)) <= 2 ^ 56) by (apply N.pow_le_mono_r; lia). lia.
Qed.

(** total classification of what the reader does on arbitrary bytes *)
Lemma rd_varint_cases s :
  (exists v r, rd_varint s = ROk (v, r))
  \/ (exists s', s = Byte.x00 :: s' /\ rd_varint s = RThrow ExConv)
  \/ (rd_varint s = RThrow ExIo /\ (length s < 8)%nat).
Proof.
  unfold rd_varint. destruct s as [|b s].
  - right; right; split; [reflexivity|cbn; lia].
  - destruct (prefix_len 8 1 128 (bval b)) as [[k mask]|] eqn:E.
    + apply prefix_len_some in E; [|apply bval_lt]. destruct E as (Hk & Hm & Hi & Hx).
      unfold rd_bytes. destruct (takeN (N.of_nat k) (b :: s)) as [[t r]|] eqn:T.
      * left. pose proof (takeN_some _ _ _ _ T) as [Hs Hl]. destruct t; [cbn in Hl; lia|]. cbn [rbind]. eauto.
      * right; right. split; [reflexivity|]. apply takeN_none in T. lia.
    + right; left. exists s. apply prefix_len_none in E; [|apply bval_lt].
      split; [|reflexivity]. f_equal. apply bval_inj. rewrite E. reflexivity.
Qed.

(** extending the input does not change a successful read *)
Lemma rd_bytes_ext n s t r x : rd_bytes n s = ROk (t, r) -> rd_bytes n (s ++ x) = ROk (t, r ++ x).
Proof.
  intros H. apply rd_bytes_ok in H. destruct H as [-> <-]. rewrite <- app_assoc. apply rd_bytes_app.
Qed.

Lemma rd_varint_ext s v r x : rd_varint s = ROk (v, r) -> rd_varint (s ++ x) = ROk (v, r ++ x).
Proof.
  unfold rd_varint. destruct s as [|b s]; [discriminate|]. cbn [app].
  destruct (prefix_len 8 1 128 (bval b)) as [[k mask]|]; [|discriminate].
  intros H. apply rbind_ok in H. destruct H as [[t s'] [H1 H2]].
  change (b :: s ++ x) with ((b :: s) ++ x).
  rewrite (rd_bytes_ext _ _ _ _ x H1). cbn [rbind].
  destruct t; [discriminate|]. inversion H2; subst. reflexivity.
Qed.

Lemma rd_be_ext k s v r x : rd_be k s = ROk (v, r) -> rd_be k (s ++ x) = ROk (v, r ++ x).
Proof.
  unfold rd_be. intros H. apply rbind_ok in H. destruct H as [[t s'] [H1 H2]].
  rewrite (rd_bytes_ext _ _ _ _ x H1). cbn [rbind]. inversion H2; subst; reflexivity.
Qed.

Lemma rd_byte_ext s v r x : rd_byte s = ROk (v, r) -> rd_byte (s ++ x) = ROk (v, r ++ x).
Proof. destruct s; cbn; [discriminate|]. intros H; inversion H; subst; reflexivity. Qed.

Lemma rd_wr_string x bs s : wr_string x = ROk bs -> rd_string (bs ++ s) = ROk (x, s).
Proof.
  unfold wr_string, rd_string. intros H. apply rbind_ok in H. destruct H as [p [H1 H2]].
  inversion H2; subst. rewrite <- app_assoc. rewrite (rd_wr_varint _ _ _ H1). cbn [rbind].
  apply rd_bytes_app.
Qed.

Lemma rd_string_ext s v r x : rd_string s = ROk (v, r) -> rd_string (s ++ x) = ROk (v, r ++ x).
Proof.
  unfold rd_string. intros H. apply rbind_ok in H. destruct H as [[n s1] [H1 H2]].
  rewrite (rd_varint_ext _ _ _ x H1). cbn [rbind]. apply rd_bytes_ext; exact H2.
Qed.
