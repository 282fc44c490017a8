(** SizeText.v -- the text of a document is at most a constant times as long as the document is large (property C66) *)
From Coq Require Import String List NArith ZArith Bool Arith Lia.
From Verif Require Import Base BaseFacts Types GenModel Float JsonModel JsonText JsonTextSpec JsonTextFacts JsonTextTop JsonTextEnd JsonSafeSpec JsonSafe JBoundSpec JBoundFacts.
Import ListNotations.
Local Open Scope list_scope.
Local Open Scope nat_scope.

Lemma digits_grow ds : forall a, (a * 10 ^ N.of_nat (length ds) <= fold_left (fun a b => a * 10 + (bval b - 48)) ds a)%N.
Proof.
  induction ds as [|b ds IH]; intros a; cbn [length fold_left]; [cbn; lia|]. etransitivity; [|apply IH]. rewrite Nat2N.inj_succ, N.pow_succ_r'.
  rewrite N.mul_assoc. apply N.mul_le_mono_r. lia.
Qed.
Lemma dec_length n k : (n < 10 ^ N.of_nat k)%N -> 1 <= k -> length (dec n) <= k.
Proof.
  intros Hn Hk. destruct (dec_lead n) as [H|(b & t & H & N)]; rewrite H; [exact Hk|]. cbn [length].
  pose proof (dval_dec n) as V. pose proof (dstr_digits (N.to_uint n)) as F. rewrite <- dec_dstr in F. rewrite H in *. inversion F as [|? ? Db _]; subst.
  unfold dval in Hn. cbn [fold_left] in Hn. apply digit_cases in Db. pose proof (digits_grow t (0 * 10 + (bval b - 48))%N) as L.
  assert (1 <= bval b - 48)%N as B1. { cbn [In] in Db. repeat destruct Db as [<- | Db]; [congruence|..]; try contradiction; vm_compute; discriminate. }
  destruct (le_lt_dec k (length t)) as [Q|Q]; [|lia]. exfalso.
  assert (10 ^ N.of_nat k <= 10 ^ N.of_nat (length t))%N by (apply N.pow_le_mono_r; lia). nia.
Qed.
Lemma itoa_length z : (- 2 ^ 63 <= z < 2 ^ 64)%Z -> length (itoa z) <= 20.
Proof.
  intros Hz. unfold itoa. destruct (z <? 0)%Z eqn:E.
  - cbn [length]. apply Z.ltb_lt in E. enough (length (dec (Z.to_N (- z))) <= 19) by lia. apply dec_length; [|lia]. change (10 ^ N.of_nat 19)%N with 10000000000000000000%N. lia.
  - apply Z.ltb_ge in E. apply dec_length; [|lia]. change (10 ^ N.of_nat 20)%N with 100000000000000000000%N. lia.
Qed.
Lemma escape_length b : length (escape b) <= 6.
Proof. destruct b; cbv; lia. Qed.
Lemma string_length s : length (write_string s) <= 2 + 6 * length s.
Proof.
  unfold write_string. rewrite !app_length. change (length quote) with 1. enough (length (flat_map escape s) <= 6 * length s) by lia.
  induction s as [|b s IH]; [cbn; lia|]. cbn [flat_map]. rewrite app_length. pose proof (escape_length b). cbn [length]. lia.
Qed.
Lemma wbind_length a b : length (fst (wbind a b)) <= length (fst a) + length (fst b).
Proof. unfold wbind. destruct (snd a); cbn; rewrite ?app_length; lia. Qed.

Lemma text_length T d : (forall n, f64_finite n = true -> length (te_dtoa T n) <= d) -> forall j, ints_ok j ->
  length (fst (JsonText.write T j)) + 4 <= (24 + d) * jsize j.
Proof.
  intros HD. induction j as [|b|z|n|s|l IH|ms IH] using json_ind2; intros HI.
  - cbn. lia.
  - destruct b; cbn; lia.
  - destruct HI as [HI _]. cbn [JsonText.write fst jsize]. pose proof (itoa_length z HI). lia.
  - cbn [JsonText.write jsize]. destruct (f64_finite n) eqn:E; cbn [fst length]; [pose proof (HD n E)|]; lia.
  - cbn [JsonText.write fst jsize]. pose proof (string_length s). nia.
  - rewrite jsize_arr. apply ints_arr_iff in HI. cbn [JsonText.write]. match goal with |- length (fst (wbind _ (?g true l))) + 4 <= _ => set (items := g) end.
    assert (X : forall first, length (fst (items first l)) <= 1 + (24 + d) * jsizes l).
    { induction l as [|x l IHl]; intros first; [cbn; lia|]. inversion IH; subst. inversion HI; subst. cbn [items]. fold items.
      rewrite jsizes_cons. etransitivity; [apply wbind_length|]. cbn [fst]. assert (length (if first then [] else bs ",") <= 1) by (destruct first; cbn; lia).
      pose proof (wbind_length (JsonText.write T x) (items false l)). assert (Q := IHl ltac:(assumption) ltac:(assumption) false).
      match goal with Hx : ints_ok x -> _, Hy : ints_ok x |- _ => specialize (Hx Hy) end. lia. }
    specialize (X true). pose proof (wbind_length (bs "[", true) (items true l)) as Y. cbn [fst] in Y. change (length (bs "[")) with 1 in Y. lia.
  - rewrite jsize_obj. assert (HI' : Forall (fun x => ints_ok (snd x)) ms).
    { apply Forall_forall. intros [k x] Hx. eapply ew_member; [exact HI|exact Hx]. }
    clear HI. cbn [JsonText.write]. match goal with |- length (fst (wbind _ (?g true ms))) + 4 <= _ => set (items := g) end.
    assert (X : forall first, length (fst (items first ms)) <= 1 + (24 + d) * msizes ms).
    { induction ms as [|[k x] ms IHl]; intros first; [cbn; lia|]. inversion IH; subst. inversion HI'; subst. cbn [items]. fold items.
      rewrite msizes_cons. etransitivity; [apply wbind_length|]. cbn [fst]. rewrite !app_length. assert (length (if first then [] else bs ",") <= 1) by (destruct first; cbn; lia).
      change (length (bs ":")) with 1. pose proof (string_length k).
      pose proof (wbind_length (JsonText.write T x) (items false ms)). assert (Q := IHl ltac:(assumption) ltac:(assumption) false). cbn [snd] in *.
      match goal with Hx : ints_ok x -> _, Hy : ints_ok x |- _ => specialize (Hx Hy) end.
      assert (6 * length k <= (24 + d) * length k) by nia. lia. }
    specialize (X true). pose proof (wbind_length (bs "{", true) (items true ms)) as Y. cbn [fst] in Y. change (length (bs "{")) with 1 in Y. lia.
Qed.
