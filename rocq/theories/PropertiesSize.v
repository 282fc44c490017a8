(** PropertiesSize.v -- property C66: the size of serialised data is bounded by the size of the objects *)
From Coq Require Import String List NArith ZArith Bool Arith Lia.
From Verif Require Import Base BaseFacts Types TypesFacts BinModel BinSpec BinSafeSpec Float JsonModel JsonRel JsonText JsonTextSpec JsonTextFacts JsonSpec JsonSafeSpec JsonSafe JsonFacts JsonTop
  SerSpec DispatchSpec BoundSpec BoundFacts JBoundSpec JBoundFacts JTreeSpec JTreeFacts JTreeGrow PropertiesSer PropertiesBound PropertiesJBound PropertiesJTree SizeSpec SizeBin SizeJson SizeText.
Import ListNotations.
Local Open Scope list_scope.
Local Open Scope nat_scope.

(** C66: the data written for a value is at most [9 + 8 n] times as long as the value and the shared objects written for the first time are large,
    if an object has at most [n] versions and every member is written once.  [W] and [W']: the objects already written before and afterwards *)
Theorem C66_binary : forall G H n fuel ver t v W bs W', written_once G n ->
  BinModel.write G H fuel ver t v W = ROk (bs, W') ->
  length bs + (9 + 8 * n) * unwritten H W' <= (9 + 8 * n) * (vsize v + unwritten H W).
Proof.
  intros G H n fuel ver t v W bs W' HO E. pose proof (proj1 (sizes_bin G H n HO fuel) ver t v W) as B. rewrite E in B. cbn in B. unfold u, K in B. lia.
Qed.
Print Assumptions C66_binary.

(** C66: so toBinary writes at most [9 + 8 n] bytes per unit of size of the object and of all objects which exist, however they refer to each other *)
Theorem C66_toBinary : forall G H n fuel c fs ver bs, written_once G n ->
  toBinary G H fuel c fs ver = ROk bs ->
  length bs <= (9 + 8 * n) * (vsize (VObj fs) + heap_size H).
Proof.
  intros G H n fuel c fs ver bs HO E. unfold toBinary in E. apply rbind_ok in E. destruct E as ([bs' W'] & E & E2). injection E2 as ->.
  destruct (g_class G c) as [rc|] eqn:Ec; [|destruct fuel; [discriminate|]; rewrite FuelFacts.write_cls_S in E; unfold write_cls_body in E; rewrite Ec in E; discriminate].
  destruct (HO c rc Ec) as (L & m & HW & ND & Hm). pose proof (proj2 (sizes_bin G H n HO fuel) ver c fs [] L m HW) as B. rewrite E in B. cbn [within] in B. unfold u, K in B.
  pose proof (bpicked_le fs L ND) as P. rewrite vsize_obj. assert (U : unwritten H [] = heap_size H) by reflexivity. rewrite U in B. nia.
Qed.
Print Assumptions C66_toBinary.

(** C66: a JSON document is at most [n + d + 11] times as large as the tree one gets by following the pointers, if names have at most [n] and dates at most [d] characters *)
Theorem C66_json : forall G J H n d fuel t v j, pushed_once G n -> short_dates J d ->
  push G J H fuel t v = ROk j -> jsize j <= (n + d + 11) * unfolded H fuel v.
Proof. intros G J H n d fuel t v j HO HJ E. pose proof (proj1 (sizes_json G J H n d HO HJ fuel) t v j E) as B. unfold Kj in B. lia. Qed.
Print Assumptions C66_json.

(** C66: if nothing is shared, that tree is not larger than the objects *)
Theorem C66_json_unshared : forall G J H n d fuel t v j, pushed_once G n -> short_dates J d -> unshared H v ->
  push G J H fuel t v = ROk j -> jsize j <= (n + d + 11) * (vsize v + heap_size H).
Proof.
  intros G J H n d fuel t v j HO HJ HU E. etransitivity; [exact (C66_json G J H n d fuel t v j HO HJ E)|]. apply Nat.mul_le_mono_l, unfolded_unshared, HU.
Qed.
Print Assumptions C66_json_unshared.

(** C66: the text is at most [24 + d] times as long as the document is large, if doubles are printed with at most [d] characters (dtoa: 25) *)
Theorem C66_text : forall T d j, (forall n, f64_finite n = true -> length (te_dtoa T n) <= d) -> ints_ok j ->
  length (serializeJsonDocToString T j) <= (24 + d) * jsize j.
Proof. intros T d j HD HI. pose proof (text_length T d HD j HI) as B. unfold serializeJsonDocToString. lia. Qed.
Print Assumptions C66_text.

Lemma wf_ints j : json_wf j -> ints_ok j.
Proof.
  induction j as [|b|z|n|s|l IH|ms IH] using json_ind2; intros HW; try (split; exact I).
  - destruct HW as [[HW|HW] _]; split; try exact I; unfold in_range, kmin, kmax in HW; cbn in HW; apply andb_true_iff in HW; destruct HW as [A B]; apply Z.leb_le in A, B; lia.
  - apply JsonTextEnd.ints_arr, Forall_forall. intros x Hx. apply (proj1 (Forall_forall _ _) IH x Hx). eapply ew_item; [exact HW|exact Hx].
  - apply JsonTextEnd.ints_obj, Forall_forall. intros [k x] Hx. apply (proj1 (Forall_forall _ _) IH _ Hx). eapply ew_member; [exact HW|exact Hx].
Qed.

(** C66: what fromJson made of a text, toJson turns into a text which is at most a constant times longer (and longer than for the object created first);
    whether there have been errors does not matter *)
Theorem C66_text_again : forall T G J k n d dd fuel t text st v st' fuel' text', alloc_ok G -> place_ok G -> plain_defaults G ->
  jenv_ok G false (fun _ => True) false -> conv_ok J -> pushers_ok G -> variants_small_members G ->
  (forall x n, te_strtod T x = Some n -> (n < 2 ^ 64)%N) ->
  top_kind t = true -> pullable G (fun _ => True) false t -> pushable G t -> variants_small t ->
  1 <= k -> jcompact_members G k -> distinct_names G -> jcompact G k t ->
  pushed_once G n -> short_dates J d -> (forall m, f64_finite m = true -> length (te_dtoa T m) <= dd) ->
  p_heap st = [] ->
  fromJsonText T G J fuel t text st = Some (POk v st') -> toJson T G J (p_heap st') fuel' t v = ROk text' ->
  length text' <= (24 + dd) * (n + d + 11) * (Nat.max (vsize (dinit G t)) (vsize (vinit G t)) + k * length text).
Proof.
  intros T G J k n d dd fuel t text st v st' fuel' text' HA HP HPD HE HC PO VM HS Tk Hp Hq Hv Hk HM HD HCo HO HJ HT0 Hst E E'.
  assert (HT : heap_typed G false (p_heap st)) by (rewrite Hst; intros a t0 x Hx; discriminate Hx).
  assert (HN : no_dangling (p_heap st)) by (rewrite Hst; intros a t0 x b Hx; discriminate Hx).
  assert (AC : acyclic (p_heap st)) by (rewrite Hst; exists (fun _ => 0); intros a t0 x b Hx; discriminate Hx).
  destruct (C65_text_again T G J fuel t text st v st' HA HP HPD HE HC PO VM HS Tk Hp Hq Hv HT HN AC E) as (F & j' & W & Q).
  destruct (C64_fromJson T G J k fuel t text st v st' HA HP Hk HM HD HCo E) as [B _].
  unfold toJson in E'. apply rbind_ok in E'. destruct E' as (j & Ej & Et). injection Et as <-.
  assert (Ep : push G J (p_heap st') fuel' t v = ROk j) by (unfold toJsonDocument in Ej; destruct t; cbn in Tk; try discriminate; try exact Ej; rewrite Tk in Ej; exact Ej).
  assert (j = j') as ->.
  { pose proof (Q (F + fuel') (Nat.le_add_r _ _)) as Q1. unfold toJsonDocument in Q1.
    assert (Q2 : push G J (p_heap st') (F + fuel') t v = ROk j') by (destruct t; cbn in Tk; try discriminate; try exact Q1; rewrite Tk in Q1; exact Q1).
    rewrite (push_more G J (p_heap st') fuel' (F + fuel') t v (ROk j)) in Q2; [congruence|lia|exact Ep|discriminate]. }
  assert (U : unshared (p_heap st') v).
  { intros a. unfold fromJsonText in E. destruct (parseJsonDocFromString T text) as [j r| |]; try discriminate. injection E as E.
    assert (X1 : pull G J fuel t (dinit G t) j st = POk v st' -> pointers a v + heap_pointers a (p_heap st') <= 1).
    { intros E1. eapply (C65_single_owner G J fuel t); [exact HA|exact HP|exact HPD|exact E1|exact HN| |rewrite Hst; intros []].
      intros b R. exfalso. exact (plain_dinit G HPD _ _ R). }
    assert (Z : forall b, pointers b (vinit G t) = 0).
    { intros b. destruct (Nat.eq_dec (pointers b (vinit G t)) 0) as [X|X]; [exact X|]. exfalso. apply pointers_refers in X. exact (plain_vinit G HPD _ _ X). }
    assert (X2 : mismatch t j (vinit G t) st = POk v st' -> pointers a v + heap_pointers a (p_heap st') <= 1).
    { intros E1. pose proof (report_from TypeMismatch (expected_type t) (type_of j) (vinit G t) st) as R. unfold mismatch in E1. rewrite E1 in R. destruct R as (-> & ->).
      rewrite Hst, Z. cbn. lia. }
    assert (X3 : forall x : val, ret x st = POk v st' -> pointers a x = 0 -> pointers a v + heap_pointers a (p_heap st') <= 1) by (intros x [= <- <-] ->; rewrite Hst; cbn; lia).
    unfold fromJson in E. destruct t; try discriminate E; repeat match type of E with
      | (if ?b then _ else _) _ = _ => destruct b; try discriminate E
      | match ?x with _ => _ end _ = _ => destruct x end; eauto. }
  pose proof (C66_json_unshared G J (p_heap st') n d fuel' t v j' HO HJ U Ep) as B1.
  pose proof (C66_text T dd j' HT0 (wf_ints j' W)) as B2. rewrite Hst in B. change (heap_size []) with 0 in B. rewrite Nat.add_0_r in B.
  etransitivity; [exact B2|]. rewrite <- Nat.mul_assoc. apply Nat.mul_le_mono_l. etransitivity; [exact B1|]. apply Nat.mul_le_mono_l. exact B.
Qed.
Print Assumptions C66_text_again.

(** C66: likewise for binary data: writing what has been restored, at most a constant times as many bytes are needed as have been read *)
Theorem C66_binary_again : forall G k n fuel c os used rest fs ver st' fuel' ver' bs, alloc_ok G -> place_ok G -> 1 <= k -> compact_members G k -> written_once G n ->
  restoreFromBinary G fuel c os (used ++ rest) [] = ROk (fs, ver, rest, st') ->
  toBinary G (r_heap st') fuel' c fs ver' = ROk bs ->
  length bs <= (9 + 8 * n) * (1 + fsizes os + 2 * k * length used).
Proof.
  intros G k n fuel c os used rest fs ver st' fuel' ver' bs HA HP Hk HM HO E E'.
  pose proof (C61_restore G k fuel c os used rest [] fs ver st' HA HP Hk HM E) as B1. pose proof (C66_toBinary G (r_heap st') n fuel' c fs ver' bs HO E') as B2.
  change (heap_size []) with 0 in B1. rewrite vsize_obj in B2. etransitivity; [exact B2|]. apply Nat.mul_le_mono_l. lia.
Qed.
Print Assumptions C66_binary_again.
