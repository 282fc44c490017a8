(** PropertiesDepth.v -- property C67: the depth of nested calls is bounded by the data *)
From Coq Require Import String List NArith ZArith Bool Arith Lia.
From Verif Require Import Base BaseFacts Types TypesFacts BinModel FuelFacts BinSpec BinSafeSpec Float JsonModel JsonRel JsonText JsonTextSpec JsonTextFacts JsonTextTop JsonSpec JsonSafeSpec JsonFacts JsonTop
  SerSpec DispatchSpec BoundSpec BoundFacts JBoundSpec JBoundFacts JBoundText JTreeSpec SizeSpec GrammarSpec PropertiesGrammar PropertiesBound PropertiesJBound PropertiesJTree DepthSpec DepthFacts.
Import ListNotations.
Local Open Scope list_scope.
Local Open Scope nat_scope.

(** C67: deserialising a document needs at most [R + T + 1] nested calls per level of the document's nesting, if classes have at most [R] levels of base classes and
    member types are nested at most [T] deep; how long arrays and objects are does not matter *)
Theorem C67_pull : forall G J R T fuel t old j st, base_levels G pulled_bases R -> members_nested G T ->
  nested t + (R + T + 1) * jdepth j <= fuel -> pull G J fuel t old j st <> PFuel.
Proof.
  intros G J R T fuel t old j st (rk & HK & HB) HT L. exact (proj1 (pull_depth G J rk R T (R + T + 1) HK HB HT (le_n _) fuel) t old j L st).
Qed.
Print Assumptions C67_pull.

Lemma depth_arr l n : (forall x, In x l -> jdepth x <= n) -> jdepth (JArr l) <= S n.
Proof.
  intros Hx. cbn [jdepth]. apply le_n_S. induction l as [|x l IH]; [lia|]. apply Nat.max_lub; [apply Hx; left; reflexivity|].
  apply IH. intros y Hy. apply Hx. right; exact Hy.
Qed.
Lemma depth_obj (ms : list (bytes * json)) n : (forall k x, In (k, x) ms -> jdepth x <= n) -> jdepth (JObj ms) <= S n.
Proof.
  intros Hx. cbn [jdepth]. apply le_n_S. induction ms as [|[k x] l IH]; [lia|]. apply Nat.max_lub; [apply (Hx k); left; reflexivity|].
  apply IH. intros k' y Hy. apply (Hx k'). right; exact Hy.
Qed.
Lemma jsize_some_item l x : In x l -> jsize x < jsize (JArr l).
Proof. rewrite jsize_arr. induction l as [|y l IH]; [intros []|]. rewrite jsizes_cons. intros [-> | Hi]; [lia|]. apply IH in Hi. lia. Qed.
Lemma jsize_some_member ms k x : In (k, x) ms -> jsize x < jsize (JObj ms).
Proof. rewrite jsize_obj. induction ms as [|[k' y] l IH]; [intros []|]. rewrite msizes_cons. intros [[= -> ->] | Hi]; [lia|]. apply IH in Hi. lia. Qed.
Lemma jdepth_jsize j : jdepth j <= jsize j.
Proof.
  induction j as [|b|z|n|s|l IH|ms IH] using json_ind2; try (cbn; lia).
  - pose proof (jsize_pos (JArr l)). replace (jsize (JArr l)) with (S (jsize (JArr l) - 1)) by lia.
    apply depth_arr. intros x Hx. assert (Q : jdepth x <= jsize x) by exact (proj1 (Forall_forall _ _) IH x Hx). pose proof (jsize_some_item l x Hx). lia.
  - pose proof (jsize_pos (JObj ms)). replace (jsize (JObj ms)) with (S (jsize (JObj ms) - 1)) by lia.
    apply depth_obj. intros k x Hx. assert (Q : jdepth x <= jsize x) by exact (proj1 (Forall_forall _ _) IH _ Hx). pose proof (jsize_some_member ms k x Hx). cbn [snd] in *. lia.
Qed.
Lemma targets_complete : forall v b, refers v b -> In b (targets v).
Proof.
  induction 1; cbn [targets]; try (apply in_or_app; auto; fail); try assumption.
  - left; reflexivity.
  - induction l as [|y l IHl]; [destruct H|]. apply in_or_app. destruct H as [-> | Hi]; [left; assumption|right; apply IHl; assumption].
  - induction fs as [|[k' y] l IHl]; [destruct H|]. apply in_or_app. destruct H as [[= -> ->] | Hi]; [left; assumption|right; apply IHl; assumption].
Qed.

(** C67: so a text needs at most [R + T + 1] nested calls per byte *)
Theorem C67_fromJson : forall E G J R T fuel t text st, base_levels G pulled_bases R -> members_nested G T ->
  nested t + (R + T + 1) * length text <= fuel -> fromJsonText E G J fuel t text st <> Some PFuel.
Proof.
  intros E G J R T fuel t text st HB HT L X. unfold fromJsonText in X. destruct (parseJsonDocFromString E text) as [j r| |] eqn:Ep; [|discriminate|].
  - assert (Hj : jdepth j <= length text).
    { pose proof (jdepth_jsize j). assert (jsize j <= length text); [|lia]. apply (document_length E). apply C62_accepted_iff_json. eexists; exact Ep. }
    injection X as X. assert (Q : pull G J fuel t (dinit G t) j st <> PFuel) by (apply (C67_pull G J R T); [exact HB|exact HT|nia]).
    assert (M : mismatch t j (vinit G t) st <> PFuel) by apply JsonTerm.nf_mismatch.
    unfold fromJson in X. destruct t; try discriminate X; repeat match type of X with
      | (if ?b then _ else _) _ = _ => destruct b; try discriminate X
      | match ?x with _ => _ end _ = _ => destruct x; try discriminate X end; contradiction.
  - destruct (doc_total E text) as [D|(j & r & D & _)]; congruence.
Qed.
Print Assumptions C67_fromJson.

(** C67: writing binary data needs at most [R + 2] nested calls per level of nesting of the value and of the shared objects which have not been written yet *)
Theorem C67_write : forall G H R fuel ver t v W, base_levels G written_bases R ->
  (R + 2) * (height v + unwritten_height H W) <= fuel -> BinModel.write G H fuel ver t v W <> RFuel.
Proof. intros G H R fuel ver t v W (rk & HK & HB) L. exact (proj1 (write_depth G H rk R (R + 2) HK HB (le_n _) fuel) ver t v W L). Qed.
Print Assumptions C67_write.

Theorem C67_toBinary : forall G H R fuel c fs ver, base_levels G written_bases R ->
  (R + 2) * (height (VObj fs) + heap_height H) <= fuel -> toBinary G H fuel c fs ver <> RFuel.
Proof.
  intros G H R fuel c fs ver (rk & HK & HB) L. unfold toBinary.
  assert (Q : write_cls G H fuel ver c fs [] <> RFuel).
  { apply (write_depth G H rk R (R + 2) HK HB (le_n _) fuel). change (unwritten_height H []) with (heap_height H). pose proof (HK c).
    assert (X : exists m, height (VObj fs) = S m) by (cbn; eauto). destruct X as [m X]. rewrite X in *. replace (S m - 1) with m by lia. nia. }
  destruct (write_cls G H fuel ver c fs []) as [[bs W]| | | |]; cbn; congruence.
Qed.
Print Assumptions C67_toBinary.

(** C67: reading binary data needs at most [A] nested calls per byte, whatever the bytes are, where [A] depends on the classes only *)
Theorem C67_read : forall G rk A fuel ver t old s st, classes_shallow G rk A -> shallow rk A t ->
  A * (1 + length s) <= fuel -> read G fuel ver t old s st <> RFuel.
Proof.
  intros G rk A fuel ver t old s st HS Ht L E. pose proof (shallow_direct rk A t Ht).
  pose proof (proj1 (read_depth G rk A HS fuel) ver t old s st Ht ltac:(lia)) as B. rewrite E in B. exact B.
Qed.
Print Assumptions C67_read.

Theorem C67_restore : forall G rk A fuel c os s h, classes_shallow G rk A -> shallow rk A (TStruct c) ->
  A * (1 + length s) <= fuel -> restoreFromBinary G fuel c os s h <> RFuel.
Proof.
  intros G rk A fuel c os s h HS Ht L E. pose proof (shallow_direct rk A _ Ht) as D. cbn [direct] in D. unfold restoreFromBinary in E.
  pose proof (proj2 (read_depth G rk A HS fuel) 0%N c os s {| r_heap := h; r_ptr := [] |} ltac:(lia)) as B. rewrite E in B. exact B.
Qed.
Print Assumptions C67_restore.

(** C67: serialising as JSON needs at most [R + 2] nested calls per level of nesting of the value and of all objects, unless shared pointers form a cycle *)
Theorem C67_push : forall G J H R fuel t v, base_levels G pushed_bases R -> acyclic H ->
  (R + 2) * (height v + heap_height H) <= fuel -> push G J H fuel t v <> RFuel.
Proof.
  intros G J H R fuel t v (rk & HK & HB) (hk & HC) L.
  assert (M : exists r, forall b, refers v b -> hk b < r).
  { assert (M1 : exists l, forall b, refers v b -> In b l).
    { exists (targets v). intros b Rb. apply targets_complete. exact Rb. }
    destruct M1 as (l & Hl). exists (S (list_max (map hk l))). intros b Rb. apply Hl in Rb.
    pose proof (proj1 (list_max_le (map hk l) _) (le_n _)) as F. rewrite Forall_forall in F. specialize (F (hk b) (in_map hk l b Rb)). lia. }
  destruct M as (r & HM). apply (proj1 (push_depth G J H rk hk R (R + 2) HK HB HC (le_n _) fuel r)); [exact HM|].
  pose proof (lower_all H hk r). nia.
Qed.
Print Assumptions C67_push.

Lemma heap_height_size h : heap_height h <= heap_size h.
Proof. apply sum_le. intros a _. unfold object_height. destruct (hget h a) as [[t x]|]; [apply height_vsize|apply le_n]. Qed.

(** C67: the document made for a value is nested at most twice as deep as the calls have been (multimaps: an object of arrays); printing it needs one call per level *)
Theorem C67_document : forall G J H fuel t v j, push G J H fuel t v = ROk j -> jdepth j <= 2 * fuel.
Proof.
  intros G J H.
  assert (IT : forall B n (w : B -> res json) l js, (forall x j, In x l -> w x = ROk j -> jdepth j <= n) -> push_iter w l = ROk js -> forall j, In j js -> jdepth j <= n).
  { intros B n w. induction l as [|x l IH]; intros js Hw E j Hj; cbn [push_iter] in E; [injection E as <-; destruct Hj|].
    apply rbind_ok in E. destruct E as (j0 & E0 & E). apply rbind_ok in E. destruct E as (js' & E1 & E). injection E as <-.
    destruct Hj as [<- | Hj]; [apply (Hw x); [left; reflexivity|exact E0]|]. eapply IH; [intros y jy Hy; apply Hw; right; exact Hy|exact E1|exact Hj]. }
  assert (FO : forall B n (w : B -> list (bytes * json) -> res (list (bytes * json))) l ms ms',
    (forall x m m', In x l -> (forall k j, In (k, j) m -> jdepth j <= n) -> w x m = ROk m' -> forall k j, In (k, j) m' -> jdepth j <= n) ->
    (forall k j, In (k, j) ms -> jdepth j <= n) -> push_fold w l ms = ROk ms' -> forall k j, In (k, j) ms' -> jdepth j <= n).
  { intros B n w. induction l as [|x l IH]; intros ms ms' Hw Hm E; cbn [push_fold] in E; [injection E as <-; exact Hm|].
    apply rbind_ok in E. destruct E as (m1 & E0 & E). eapply IH; [intros y a a' Hy; apply Hw; right; exact Hy| |exact E].
    eapply Hw; [left; reflexivity|exact Hm|exact E0]. }
  assert (AM : forall n k j ms, jdepth j <= n -> (forall k j, In (k, j) ms -> jdepth j <= S n) -> forall k' j', In (k', j') (add_multi k j ms) -> jdepth j' <= S n).
  { intros n k j ms Hj Hm k' j' Hi. unfold add_multi in Hi.
    assert (AE : forall ms ms', (forall k j, In (k, j) ms -> jdepth j <= S n) -> append_existing (cstr k) j ms = Some ms' -> forall k j, In (k, j) ms' -> jdepth j <= S n).
    { induction ms0 as [|[k0 j0] ms0 IH]; intros ms' Hm0 E; cbn [append_existing] in E; [discriminate|]. destruct (bytes_eqb _ _).
      - destruct j0; try discriminate. injection E as <-. intros k1 j1 [[= <- <-] | Hi1]; [|apply (Hm0 k1); right; exact Hi1].
        apply depth_arr. intros x Hx. apply in_app_or in Hx. destruct Hx as [Hx | [<- | []]]; [|exact Hj]. pose proof (depth_item l x Hx). pose proof (Hm0 k0 _ (or_introl eq_refl)). lia.
      - destruct (append_existing (cstr k) j ms0) as [m|]; [|discriminate]. injection E as <-. intros k1 j1 [[= <- <-] | Hi1]; [apply (Hm0 k0); left; reflexivity|].
        eapply IH; [intros k2 j2 H2; apply (Hm0 k2); right; exact H2|reflexivity|exact Hi1]. }
    destruct (append_existing (cstr k) j ms) as [m|] eqn:Ea; [exact (AE _ _ Hm Ea _ _ Hi)|].
    apply in_app_or in Hi. destruct Hi as [Hi | [[= <- <-] | []]]; [exact (Hm _ _ Hi)|]. apply depth_arr. intros x [<- | []]. exact Hj. }
  induction fuel as [|f IH]; [discriminate|].
  assert (HC : forall f', (forall t v j, push G J H f' t v = ROk j -> jdepth j <= 2 * f) -> f' <= f -> forall c fs ms ms', (forall k j, In (k, j) ms -> jdepth j <= 2 * f) ->
    push_cls G J H f' c fs ms = ROk ms' -> forall k j, In (k, j) ms' -> jdepth j <= 2 * f).
  { induction f' as [|f' IHc]; intros HP L c fs ms ms' Hm E; [discriminate|]. rewrite push_cls_S in E. unfold push_cls_body in E.
    destruct (g_class G c) as [rc|]; [|discriminate]. apply rbind_ok in E. destruct E as (ms1 & E1 & E2).
    assert (HP' : forall t v j, push G J H f' t v = ROk j -> jdepth j <= 2 * f).
    { intros t v j Ej. apply (HP t v). eapply push_more; [|exact Ej|discriminate]. lia. }
    assert (H1 : forall k j, In (k, j) ms1 -> jdepth j <= 2 * f).
    { eapply FO; [|exact Hm|exact E1]. intros b m m' _ Hmm Eb. exact (IHc HP' (Nat.le_trans _ _ _ (Nat.le_succ_diag_r _) L) b fs m m' Hmm Eb). }
    eapply FO; [|exact H1|exact E2]. intros fd m m' _ Hmm Eb. cbv beta in Eb. destruct (alookup fkey_eqb (jf_key fd) fs) as [x|]; [|discriminate].
    apply rbind_ok in Eb. destruct Eb as (j & Ej & Eb). injection Eb as <-. intros k j' Hi. apply in_app_or in Hi. destruct Hi as [Hi | [[= <- <-] | []]]; [exact (Hmm k j' Hi)|exact (HP' _ _ _ Ej)]. }
  intros t v j E. rewrite push_S in E. unfold push_body in E. replace (2 * S f) with (S (S (2 * f))) by lia.
  assert (IH' : forall t v j, push G J H f t v = ROk j -> jdepth j <= S (S (2 * f))) by (intros t0 v0 j0 E0; pose proof (IH t0 v0 j0 E0); lia).
  destruct t; try (destruct v; try discriminate E; try (match type of E with (if ?b then _ else _) = _ => destruct b end; [|discriminate E]); injection E as <-; cbn; lia).
  - destruct v; try discriminate E. apply rbind_ok in E. destruct E as (js & E & Ej). injection Ej as <-. apply Nat.le_le_succ_r, depth_arr. eapply IT; [|exact E]. intros x jx _. apply IH.
  - destruct v; try discriminate E. apply rbind_ok in E. destruct E as (js & E & Ej). injection Ej as <-. apply Nat.le_le_succ_r, depth_arr. eapply IT; [|exact E]. intros x jx _. apply IH.
  - destruct multi, t1; try (destruct v; discriminate E); (destruct v; try discriminate E); apply rbind_ok in E; destruct E as (ms & E & Ej); injection Ej as <-; apply depth_obj.
    + refine (FO _ _ _ _ _ _ _ _ E); [|intros k0 j0 []]. intros x m m' _ Hm Ex. cbv beta in Ex. destruct x as [| | | | | | |x1 x2| | | | | |]; try discriminate. destruct x1; try discriminate.
      apply rbind_ok in Ex. destruct Ex as (jx & Ejx & Ex). injection Ex as <-. apply AM; [exact (IH _ _ _ Ejx)|exact Hm].
    + intros k0 j0 Hi. apply Nat.le_le_succ_r. revert k0 j0 Hi. refine (FO _ _ _ _ _ _ _ _ E); [|intros k0 j0 []]. intros x m m' _ Hm Ex. cbv beta in Ex.
      destruct x as [| | | | | | |x1 x2| | | | | |]; try discriminate. destruct x1; try discriminate.
      apply rbind_ok in Ex. destruct Ex as (jx & Ejx & Ex). injection Ex as <-. intros k0 j0 Hi. apply in_app_or in Hi. destruct Hi as [Hi | [[= <- <-] | []]]; [exact (Hm k0 j0 Hi)|exact (IH _ _ _ Ejx)].
  - destruct v; try discriminate E. apply rbind_ok in E. destruct E as (ja & Ea & E). apply rbind_ok in E. destruct E as (jb & Eb & E). injection E as <-.
    apply Nat.le_le_succ_r, depth_arr. intros x [<- | [<- | []]]; [exact (IH _ _ _ Ea)|exact (IH _ _ _ Eb)].
  - destruct ts as [|t0 ts]; [destruct v; discriminate E|]. destruct v; try discriminate E. destruct (length l =? _)%nat; [|discriminate].
    apply rbind_ok in E. destruct E as (js & E & Ej). injection Ej as <-. apply Nat.le_le_succ_r, depth_arr. eapply IT; [|exact E]. intros [t' x] jx _. apply IH.
  - destruct v; try discriminate E. destruct o as [x|]; [exact (IH' _ _ _ E)|injection E as <-; cbn; lia].
  - destruct v; try discriminate E. destruct o as [x|]; [exact (IH' _ _ _ E)|injection E as <-; cbn; lia].
  - destruct v; try discriminate E. destruct o as [a|]; [|injection E as <-; cbn; lia]. destruct (hget H a) as [[t' x]|]; [|discriminate]. destruct (ty_eqb t t'); [|discriminate]. exact (IH' _ _ _ E).
  - destruct v; try discriminate E; [|injection E as <-; cbn; lia]. apply rbind_ok in E. destruct E as (d & Ed & E). injection E as <-. apply Nat.le_le_succ_r, depth_obj.
    assert (D : jdepth d <= 2 * f) by (destruct (nth_error ts i) as [t'|]; [|discriminate]; destruct t'; first [exact (IH _ _ _ Ed)|injection Ed as <-; cbn; lia]).
    intros k0 x [[= <- <-] | [[= <- <-] | []]]; [cbn; lia|exact D].
  - destruct v; try discriminate E. apply rbind_ok in E. destruct E as (ms & E & Ej). injection Ej as <-. apply Nat.le_le_succ_r, depth_obj. eapply (HC f); [exact IH|apply le_n| |exact E]. intros k0 j0 [].
  - destruct v; try discriminate E. destruct o as [x|]; [destruct x; try discriminate E|]; injection E as <-; cbn; lia.
  - destruct v; try discriminate E; destruct o as [x|]; [destruct x; try discriminate E|]; injection E as <-; cbn; lia.
Qed.
Print Assumptions C67_document.

(** C67: writing what has been read from binary data needs nested calls in proportion to the data only *)
Theorem C67_binary_again : forall G k R fuel c os used rest fs ver st' fuel' ver', alloc_ok G -> place_ok G -> 1 <= k -> compact_members G k -> base_levels G written_bases R ->
  restoreFromBinary G fuel c os (used ++ rest) [] = ROk (fs, ver, rest, st') ->
  (R + 2) * (1 + fsizes os + 2 * k * length used) <= fuel' -> toBinary G (r_heap st') fuel' c fs ver' <> RFuel.
Proof.
  intros G k R fuel c os used rest fs ver st' fuel' ver' HA HP Hk HM HB E L. apply (C67_toBinary G (r_heap st') R); [exact HB|].
  pose proof (C61_restore G k fuel c os used rest [] fs ver st' HA HP Hk HM E) as B. change (heap_size []) with 0 in B.
  pose proof (height_vsize (VObj fs)) as V. rewrite vsize_obj in V.
  assert (HH : heap_height (r_heap st') <= heap_size (r_heap st')) by apply heap_height_size.
  etransitivity; [|exact L]. apply Nat.mul_le_mono_l. lia.
Qed.
Print Assumptions C67_binary_again.

(** C67: and so does serialising again what fromJson has made of a text *)
Theorem C67_json_again : forall E G J k R fuel t text st v st' fuel', alloc_ok G -> place_ok G -> plain_defaults G -> 1 <= k -> jcompact_members G k -> distinct_names G -> jcompact G k t ->
  base_levels G pushed_bases R -> p_heap st = [] ->
  fromJsonText E G J fuel t text st = Some (POk v st') ->
  (R + 2) * (Nat.max (vsize (dinit G t)) (vsize (vinit G t)) + k * length text) <= fuel' -> toJson E G J (p_heap st') fuel' t v <> RFuel.
Proof.
  intros T G J k R fuel t text st v st' fuel' HA HP HD Hk HM HN HC HB Hst E L.
  destruct (C64_fromJson T G J k fuel t text st v st' HA HP Hk HM HN HC E) as [B _]. rewrite Hst in B. change (heap_size []) with 0 in B. rewrite Nat.add_0_r in B.
  assert (ND : no_dangling (p_heap st)) by (rewrite Hst; intros a t0 x b Hx; discriminate Hx).
  assert (AC : acyclic (p_heap st)) by (rewrite Hst; exists (fun _ => 0); intros a t0 x b Hx; discriminate Hx).
  assert (AC' : acyclic (p_heap st')).
  { unfold fromJsonText in E. destruct (parseJsonDocFromString T text) as [j r| |]; try discriminate. injection E as E.
    assert (X1 : pull G J fuel t (dinit G t) j st = POk v st' -> acyclic (p_heap st')) by (intros E1; exact (proj2 (C65_no_cycles _ _ _ _ _ _ _ _ _ HA HP HD E1 ND AC))).
    assert (X2 : mismatch t j (vinit G t) st = POk v st' -> acyclic (p_heap st')).
    { intros E1. pose proof (JTreeGrow.report_from TypeMismatch (expected_type t) (type_of j) (vinit G t) st) as Q. unfold mismatch in E1. rewrite E1 in Q. destruct Q as (_ & ->). exact AC. }
    assert (X3 : forall x : val, ret x st = POk v st' -> acyclic (p_heap st')) by (intros x [= _ <-]; exact AC).
    unfold fromJson in E. destruct t; try discriminate E; repeat match type of E with
      | (if ?b then _ else _) _ = _ => destruct b; try discriminate E
      | match ?x with _ => _ end _ = _ => destruct x end; eauto. }
  assert (Q : push G J (p_heap st') fuel' t v <> RFuel).
  { apply (C67_push G J (p_heap st') R); [exact HB|exact AC'|]. pose proof (height_vsize v). pose proof (heap_height_size (p_heap st')).
    etransitivity; [|exact L]. apply Nat.mul_le_mono_l. lia. }
  unfold toJson. assert (Q2 : toJsonDocument G J (p_heap st') fuel' t v <> RFuel) by (unfold toJsonDocument; destruct t; try discriminate; try exact Q; destruct (json_kind k0); [exact Q|discriminate]).
  destruct (toJsonDocument G J (p_heap st') fuel' t v); cbn; congruence.
Qed.
Print Assumptions C67_json_again.
