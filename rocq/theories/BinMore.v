(** BinMore.v -- reading sizes and scalars from arbitrary bytes, exactly *)
From Coq Require Import List NArith ZArith Bool Lia Permutation.
From Verif Require Import Base BaseFacts Bytes BytesFacts Types TypesFacts BinModel FuelFacts BinSpec BinSafeSpec
  BinRoundTrip BinTotal BinStream BinSafe BinFacts ContFacts BinTerm.
Import ListNotations.
Local Open Scope N_scope.

Lemma varint_value b s k : (1 <= k <= 8)%nat -> 2 ^ (8 - N.of_nat k) <= bval b < 2 ^ (9 - N.of_nat k) ->
  (forall p r, b :: s = p ++ r -> length p = k -> 2 ^ (7 * N.of_nat k) <= be_val p /\ rd_varint (b :: s) = ROk (be_val p - 2 ^ (7 * N.of_nat k), r))
  /\ ((length (b :: s) < k)%nat -> rd_varint (b :: s) = RThrow ExIo).
Proof.
  intros Hk Hb. assert (E2: 2 ^ (9 - N.of_nat k) = 2 * 2 ^ (8 - N.of_nat k)).
  { replace (9 - N.of_nat k) with (N.succ (8 - N.of_nat k)) by lia. apply N.pow_succ_r'. }
  rewrite E2 in Hb. pose proof (prefix_len_interval (bval b) k Hk (bval_lt b) Hb) as Ep.
  pose proof (prefix_len_some _ _ _ (bval_lt b) Ep) as (_ & _ & _ & Ex).
  unfold rd_varint. rewrite Ep. split.
  - intros p r Es Hl. rewrite Es, <- Hl, rd_bytes_app. cbn [rbind].
    destruct p as [|b0 p]; [cbn in Hl; lia|]. cbn [app] in Es. inversion Es; subst b0 s. rewrite Hl.
    cbn [be_val]. rewrite Ex. rewrite bval_mkb, N.mod_small by (pose proof (bval_lt b); lia).
    assert (Hn: length p = (k - 1)%nat) by (cbn in Hl; lia). rewrite Hn.
    assert (E7: 2 ^ (8 - N.of_nat k) * 256 ^ N.of_nat (k - 1) = 2 ^ (7 * N.of_nat k)).
    { change 256 with (2 ^ 8). rewrite <- N.pow_mul_r, <- N.pow_add_r. f_equal. lia. }
    set (M := 2 ^ (8 - N.of_nat k)) in *. set (P := 256 ^ N.of_nat (k - 1)) in *.
    assert (E8: bval b * P = M * P + (bval b - M) * P) by (rewrite N.mul_sub_distr_r; assert (M * P <= bval b * P) by (apply N.mul_le_mono_r; lia); lia).
    rewrite E8, E7. split; [lia|]. do 2 f_equal. lia.
  - intros Hl. unfold rd_bytes. replace (takeN (N.of_nat k) (b :: s)) with (@None (bytes * bytes)); [reflexivity|]. symmetry. apply takeN_none. lia.
Qed.
Lemma varint_zero s : rd_varint (Byte.x00 :: s) = RThrow ExConv. Proof. reflexivity. Qed.

Lemma rd_be_bytes bs s : rd_be (length bs) (bs ++ s) = ROk (be_val bs, s).
Proof. unfold rd_be. rewrite rd_bytes_app. reflexivity. Qed.
Lemma rd_be_short k s : (length s < k)%nat -> rd_be k s = RThrow ExIo.
Proof. intros Hl. unfold rd_be, rd_bytes. replace (takeN (N.of_nat k) s) with (@None (bytes * bytes)); [reflexivity|]. symmetry. apply takeN_none. lia. Qed.
Lemma rd_int_bytes k bs s : length bs = ksize k -> exists z, rd_int k (bs ++ s) = ROk (z, s) /\ in_range k z = true
  /\ (z mod 2 ^ (8 * Z.of_nat (ksize k)))%Z = Z.of_N (be_val bs).
Proof.
  intros Hl. unfold rd_int. rewrite <- Hl, rd_be_bytes, Hl. cbn [rbind]. eexists. split; [reflexivity|].
  assert (Hn: be_val bs < 256 ^ N.of_nat (ksize k)) by (rewrite <- Hl; apply be_val_bound).
  assert (Hm: (Z.of_N (be_val bs) < 2 ^ (8 * Z.of_nat (ksize k)))%Z) by (rewrite <- pow8k; lia).
  assert (0 < ksize k)%nat by (destruct k; cbn; lia).
  split.
  - destruct (rd_int_cases k (bs ++ s)) as [(z & r & E & R & _)|E]; unfold rd_int in E; rewrite <- Hl, rd_be_bytes, Hl in E; cbn [rbind] in E; [|discriminate].
    inversion E; subst. exact R.
  - destruct (ksigned k).
    + unfold dec_signed. destruct (Z.of_N (be_val bs) <? _)%Z; [apply Z.mod_small; lia|].
      replace (Z.of_N (be_val bs) - 2 ^ (8 * Z.of_nat (ksize k)))%Z with (Z.of_N (be_val bs) + (-1) * 2 ^ (8 * Z.of_nat (ksize k)))%Z by lia.
      rewrite Z_mod_plus_full. apply Z.mod_small; lia.
    + apply Z.mod_small; lia.
Qed.

Lemma scalars_arbitrary G f ver old st :
  (forall b s, read G (S f) ver TBool old (b :: s) st = ROk (VBool (if bval b =? 0 then false else true), s, st))
  /\ (forall k bs s, bin_kind k = true -> length bs = ksize k -> exists z,
        read G (S f) ver (TInt k) old (bs ++ s) st = ROk (VInt z, s, st) /\ read G (S f) ver (TEnum k) old (bs ++ s) st = ROk (VInt z, s, st)
        /\ in_range k z = true /\ (z mod 2 ^ (8 * Z.of_nat (ksize k)))%Z = Z.of_N (be_val bs))
  /\ (forall bs s, length bs = 4%nat -> read G (S f) ver TF32 old (bs ++ s) st = ROk (VF32 (be_val bs), s, st))
  /\ (forall bs s, length bs = 8%nat -> read G (S f) ver TF64 old (bs ++ s) st = ROk (VF64 (be_val bs), s, st))
  /\ (forall bs s, length bs = 8%nat -> read G (S f) ver TDateTime old (bs ++ s) st = ROk (VInt (Z.of_N (be_val bs)), s, st))
  /\ (forall bs s, length bs = 8%nat -> exists z, read G (S f) ver TTimeSpan old (bs ++ s) st = ROk (VInt z, s, st)
        /\ in_range KI64 z = true /\ (z mod 2 ^ 64)%Z = Z.of_N (be_val bs)).
Proof.
  split; [|split; [|split; [|split; [|split]]]].
  - intros b s. rewrite read_S. cbn. destruct (bval b =? 0); reflexivity.
  - intros k bs s Hk Hl. destruct (rd_int_bytes k bs s Hl) as (z & E & R & M). exists z. rewrite !read_S. cbn [read_body]. rewrite Hk, E. auto.
  - intros bs s Hl. rewrite read_S. cbn [read_body]. rewrite <- Hl, rd_be_bytes. reflexivity.
  - intros bs s Hl. rewrite read_S. cbn [read_body]. rewrite <- Hl, rd_be_bytes. reflexivity.
  - intros bs s Hl. rewrite read_S. cbn [read_body]. unfold rd_int. cbn [ksize ksigned]. rewrite <- Hl, rd_be_bytes. reflexivity.
  - intros bs s Hl. destruct (rd_int_bytes KI64 bs s Hl) as (z & E & R & M). exists z. rewrite read_S. cbn [read_body]. rewrite E. auto.
Qed.

(** the flag byte of optionals and unique pointers *)
Lemma flags_arbitrary G f ver t t' old b s st : t = TUnique t' \/ t = TOptional t' ->
  (bval b = 0 -> read G (S f) ver t old (b :: s) st = ROk (VOpt None, s, st))
  /\ (bval b <> 0 -> read G (S f) ver t old (b :: s) st
        = match read G f 0 t' (vinit G t') s st with ROk (x, r, st') => ROk (VOpt (Some x), r, st') | RThrow e => RThrow e | RUB => RUB | RFuel => RFuel | RStuck => RStuck end).
Proof.
  intros Ho. rewrite read_S. split; intros Hb.
  - destruct Ho as [-> | ->]; cbn; rewrite Hb; reflexivity.
  - apply N.eqb_neq in Hb. destruct Ho as [-> | ->]; cbn [read_body rd_byte rbind]; rewrite Hb; destruct (read G f 0 t' (vinit G t') s st) as [[[x r] st']| | | |]; reflexivity.
Qed.
