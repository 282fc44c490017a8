(** LocalFacts.v -- generated code depends on the class and its base classes only *)
From Coq Require Import String List NArith ZArith Bool Lia Permutation.
From Verif Require Import Base BaseFacts Types GenModel GenSem GenSpec GenSelect LocalSpec JsonGen.
Import ListNotations.
Local Open Scope list_scope.
Local Open Scope N_scope.

Lemma inserted_refl {A} (P : A -> Prop) l : inserted P l l.
Proof. induction l; constructor; auto. Qed.
Lemma inserted_app {A} (P : A -> Prop) l1 l1' l2 l2' : inserted P l1 l1' -> inserted P l2 l2' -> inserted P (l1 ++ l2) (l1' ++ l2').
Proof. intros H. induction H; cbn; intros; [auto|constructor; auto|constructor; auto]. Qed.
Lemma inserted_in {A} (P : A -> Prop) l l' : inserted P l l' -> forall x, In x l -> In x l'.
Proof. intros H. induction H; cbn; intros y Hy; [auto|destruct Hy; auto|right; auto]. Qed.
Lemma inserted_new {A} (P : A -> Prop) l l' : inserted P l l' -> forall x, In x l' -> In x l \/ P x.
Proof. intros H. induction H as [|x l l' H IH|x l l' Px H IH]; cbn; intros y Hy; [auto| |]; destruct Hy as [<-|Hy]; auto; destruct (IH y Hy); auto. Qed.
Lemma inserted_impl {A} (P Q : A -> Prop) l l' : (forall x, P x -> Q x) -> inserted P l l' -> inserted Q l l'.
Proof. intros I H. induction H; constructor; auto. Qed.
Lemma inserted_map {A B} (f : A -> B) (P : A -> Prop) (Q : B -> Prop) l l' : (forall x, P x -> Q (f x)) -> inserted P l l' -> inserted Q (map f l) (map f l').
Proof. intros I H. induction H; cbn; constructor; auto. Qed.
Lemma inserted_filter {A} (f g : A -> bool) (P : A -> Prop) l l' : inserted P l l' -> (forall x, In x l -> g x = f x) -> inserted (fun x => P x /\ g x = true) (filter f l) (filter g l').
Proof.
  intros H. induction H as [|x l l' H IH|x l l' Px H IH]; intros E; cbn [filter]; [constructor| |].
  - rewrite (E x (or_introl eq_refl)). assert (X := IH (fun y Hy => E y (or_intror Hy))). destruct (f x); [constructor|]; exact X.
  - destruct (g x) eqn:G; [apply ins_more; auto|auto].
Qed.
Lemma inserted_none {A} (P : A -> Prop) l l' : inserted P l l' -> (forall x, In x l' -> ~ P x) -> l' = l.
Proof.
  intros H. induction H as [|x l l' H IH|x l l' Px H IH]; intros N; [reflexivity| |].
  - f_equal. apply IH. intros y Hy. apply N. right. exact Hy.
  - destruct (N x (or_introl eq_refl) Px).
Qed.

(* ------------------------------------------------------------------ *)
(** * Further declarations *)
Definition existed (ds : list decl) (c : N) : Prop :=
  exists r, In (DRecord r) ds /\ cr_complete r = true /\ (cr_id r = c \/ exists b, In b (cr_bases r) /\ cb_id b = Some c).

Lemma def_of_inserted c l l' : inserted (fun d => forall r, d = DRecord r -> cr_complete r = true -> cr_id r <> c) l l' -> def_of l' c = def_of l c.
Proof.
  intros H. induction H as [|x l l' H IH|x l l' Px H IH]; [reflexivity| |].
  - destruct x as [r|]; cbn; [|exact IH]. unfold def_of in IH. rewrite IH. reflexivity.
  - destruct x as [r|]; cbn; [|exact IH]. destruct ((cr_id r =? c) && cr_complete r) eqn:E; [|exact IH].
    apply andb_true_iff in E. destruct E as [E1 E2]. apply N.eqb_eq in E1. destruct (Px r eq_refl E2 E1).
Qed.

Lemma existed_apart o ds c d : existed ds c -> another o ds d -> forall r, d = DRecord r -> cr_complete r = true -> cr_id r <> c.
Proof.
  intros (r' & Hin & Hc & Hx) A r E C Q. destruct (A r E) as [U _]. destruct (U C r' Hin Hc) as [U1 U2].
  destruct Hx as [<-|(b & Hb & I)]; [congruence|]. apply (U2 b Hb). congruence.
Qed.

Lemma derived_from_further o ds ds' : inserted (another o ds) ds ds' -> forall f c b, existed ds c -> derived_from ds' f c b = derived_from ds f c b.
Proof.
  intros INS f. induction f as [|f IH]; intros c b X; cbn [derived_from]; [reflexivity|].
  rewrite (def_of_inserted c ds ds') by (eapply inserted_impl; [|exact INS]; intros d A; eapply existed_apart; eauto).
  destruct (def_of ds c) as [r|] eqn:D; [|reflexivity]. apply def_of_some in D. destruct D as (Hin & Hc & _).
  assert (G : forall l, (forall x, In x l -> In x (cr_bases r)) ->
    existsb (fun x => match cb_id x with Some d => (d =? b) || derived_from ds' f d b | None => false end) l
    = existsb (fun x => match cb_id x with Some d => (d =? b) || derived_from ds f d b | None => false end) l).
  { induction l as [|x l IHl]; intros S; cbn; [reflexivity|]. rewrite IHl by (intros y Hy; apply S; right; exact Hy). f_equal.
    destruct (cb_id x) as [d|] eqn:I; [|reflexivity]. rewrite IH; [reflexivity|]. exists r. split; [exact Hin|]. split; [exact Hc|]. right. exists x. split; [apply S; left; reflexivity|exact I]. }
  apply G. auto.
Qed.

Lemma derived_from_existed ds f : forall c b, derived_from ds f c b = true -> existed ds b.
Proof.
  induction f as [|f IH]; intros c b; cbn [derived_from]; [discriminate|].
  destruct (def_of ds c) as [r|] eqn:D; [|discriminate]. apply def_of_some in D. destruct D as (Hin & Hc & _).
  rewrite existsb_exists. intros (x & Hx & Q). destruct (cb_id x) as [d|] eqn:I; [|discriminate].
  apply orb_true_iff in Q. destruct Q as [Q|Q]; [|eauto]. apply N.eqb_eq in Q. subst d. exists r. eauto 6.
Qed.

(** the classes code is generated for are found one by one *)
Definition found (o : gopts) (ads : list (bytes * crecord)) (r : crecord) : list rclass :=
  if kept o r then match compute_relevant o ads r with (RelYes, b) => [{| k_rec := r; k_base := b |}] | _ => [] end else [].
Definition found_decl (o : gopts) (ads : list (bytes * crecord)) (d : decl) : list rclass := match d with DRecord r => found o ads r | DOther => [] end.
Lemma found_records o ads ds : flat_map (found_decl o ads) ds = flat_map (found o ads) (records ds).
Proof. induction ds as [|[r|] ds IH]; [reflexivity| |exact IH]. rewrite records_cons, flat_map_app, <- IH. cbn. rewrite app_nil_r. reflexivity. Qed.
Lemma found_kept o ads rs : flat_map (found o ads) rs = flat_map (fun r => match compute_relevant o ads r with (RelYes, b) => [{| k_rec := r; k_base := b |}] | _ => [] end) (filter (kept o) rs).
Proof. induction rs as [|r rs IH]; [reflexivity|]. cbn. unfold found at 1. destruct (kept o r); cbn [flat_map]; rewrite IH; reflexivity. Qed.
Lemma relevant_found o ds : relevant_classes o ds = flat_map (found_decl o (flat_map (adaption_of o) (records ds))) ds.
Proof.
  unfold relevant_classes, find_relevant. rewrite add_declarations_spec. cbn [s_records s_adaptions]. generalize (flat_map (adaption_of o) (records ds)). intros ads.
  rewrite found_records, found_kept. reflexivity.
Qed.

Lemma adaptions_further o ds ds' : inserted (another o ds) ds ds' -> forall q,
  existsb (fun '(q', a) => negb (only_included o a) && bytes_eqb q' q) (flat_map (adaption_of o) (records ds'))
  = existsb (fun '(q', a) => negb (only_included o a) && bytes_eqb q' q) (flat_map (adaption_of o) (records ds)).
Proof.
  intros INS q. set (p := fun x : bytes * crecord => _). 
  assert (G : forall l l', inserted (another o ds) l l' -> existsb p (flat_map (adaption_of o) (records l')) = existsb p (flat_map (adaption_of o) (records l))); [|apply G; exact INS].
  intros l l' H. induction H as [|x l l' H IH|x l l' Px H IH]; [reflexivity| |].
  - rewrite (records_cons x l'), (records_cons x l), !flat_map_app, !existsb_app, IH. reflexivity.
  - rewrite (records_cons x l'), flat_map_app, existsb_app, IH. destruct x as [r|]; [|reflexivity].
    destruct (Px r eq_refl) as [_ NA]. cbn [records flat_map app]. rewrite app_nil_r.
    assert (E : existsb p (adaption_of o r) = false); [|rewrite E; reflexivity].
    apply not_true_iff_false. rewrite existsb_exists. intros ([q' a] & Hin & Q). unfold adaption_of in Hin.
    destruct (cr_hasdef r) eqn:HD; [|destruct Hin]. destruct (cr_spec r) as [[|[[q2|]|] [|? ?]]|] eqn:SP; try destruct Hin.
    destruct (bytes_eqb (cr_qname r) (o_adaption o)) eqn:E; [|destruct Hin]. apply bytes_eqb_eq in E. destruct Hin as [Hin|[]]. inversion Hin; subst.
    unfold p in Q. apply andb_true_iff in Q. destruct Q as [Q _]. apply negb_true_iff, only_included_spec in Q.
    apply (NA q'); [|exact Q]. split; [exact HD|split; [exact E|exact SP]].
Qed.

Lemma compute_further o ds ds' r : inserted (another o ds) ds ds' ->
  compute_relevant o (flat_map (adaption_of o) (records ds')) r = compute_relevant o (flat_map (adaption_of o) (records ds)) r.
Proof. intros INS. unfold compute_relevant. rewrite (adaptions_further o ds ds' INS). reflexivity. Qed.

Lemma relevant_complete o ds k : In k (relevant_classes o ds) -> In (DRecord (k_rec k)) ds /\ cr_complete (k_rec k) = true.
Proof.
  intros H. assert (W := proj1 (relevant_iff o ds (k_rec k)) (in_map k_rec _ _ H)). destruct W as (A & _ & B & _). auto.
Qed.

Lemma relevant_further o ds ds' : inserted (another o ds) ds ds' ->
  inserted (fun k => In (DRecord (k_rec k)) ds' /\ wanted o ds' (k_rec k) /\ another o ds (DRecord (k_rec k))) (relevant_classes o ds) (relevant_classes o ds').
Proof.
  intros INS. rewrite !relevant_found. set (ads := flat_map (adaption_of o) (records ds)).
  assert (FE : forall d, found_decl o (flat_map (adaption_of o) (records ds')) d = found_decl o ads d).
  { intros [r|]; [|reflexivity]. cbn. unfold found. rewrite (compute_further o ds ds' r INS). reflexivity. }
  assert (G : forall l l', inserted (another o ds) l l' -> (forall x, In x l' -> In x ds') ->
    inserted (fun k => In (DRecord (k_rec k)) ds' /\ wanted o ds' (k_rec k) /\ another o ds (DRecord (k_rec k)))
      (flat_map (found_decl o ads) l) (flat_map (found_decl o (flat_map (adaption_of o) (records ds'))) l')); [|apply G; auto].
  intros l l' H. induction H as [|x l l' H IH|x l l' Px H IH]; intros S; cbn [flat_map].
  - constructor.
  - apply inserted_app; [rewrite FE; apply inserted_refl|]. apply IH. intros y Hy. apply S. right; exact Hy.
  - change (flat_map (found_decl o ads) l) with ([] ++ flat_map (found_decl o ads) l). apply inserted_app; [|apply IH; intros y Hy; apply S; right; exact Hy].
    assert (Hx := S x (or_introl eq_refl)).
    destruct x as [r|]; cbn; [|constructor]. unfold found. destruct (kept o r) eqn:K; [|constructor].
    destruct (compute_relevant o _ r) as [[] b] eqn:E; try constructor; [|constructor]. cbn [k_rec].
    split; [exact Hx|]. split; [|exact Px]. apply relevant_iff. rewrite relevant_found. change r with (k_rec {| k_rec := r; k_base := b |}). apply in_map. apply in_flat_map. exists (DRecord r). split; [exact Hx|].
    cbn. unfold found. rewrite K, E. left. reflexivity.
Qed.

Lemma bases_further o ds ds' k : inserted (another o ds) ds ds' -> In k (relevant_classes o ds) ->
  find_bases ds' (relevant_classes o ds') k = find_bases ds (relevant_classes o ds) k.
Proof.
  intros INS Hk. destruct (relevant_complete o ds k Hk) as [Hin Hc]. unfold find_bases.
  assert (X : existed ds (cr_id (k_rec k))) by (exists (k_rec k); eauto).
  assert (H := inserted_filter (fun x => negb (cr_id (k_rec k) =? cr_id (k_rec x)) && derived_from ds (N.to_nat (cr_id (k_rec k))) (cr_id (k_rec k)) (cr_id (k_rec x)))
    (fun x => negb (cr_id (k_rec k) =? cr_id (k_rec x)) && derived_from ds' (N.to_nat (cr_id (k_rec k))) (cr_id (k_rec k)) (cr_id (k_rec x))) _ _ _ (relevant_further o ds ds' INS)).
  eapply inserted_none in H; [exact H| |].
  - intros x Hx. cbn beta. rewrite (derived_from_further o ds ds' INS) by exact X. reflexivity.
  - intros x _ ((Hx & W & A) & Q). apply andb_true_iff in Q. destruct Q as [_ Q]. rewrite (derived_from_further o ds ds' INS) in Q by exact X.
    apply derived_from_existed in Q. assert (C := existed_apart o ds _ _ Q A (k_rec x) eq_refl).
    destruct W as (_ & _ & W & _). apply C; [exact W|reflexivity].
Qed.

Lemma relevant_unwanted o ds ds' : inserted (fun d => another o ds d /\ unwanted o ds' d) ds ds' -> relevant_classes o ds' = relevant_classes o ds.
Proof.
  intros INS.
  assert (INS0 : inserted (another o ds) ds ds') by (eapply inserted_impl; [|exact INS]; intros x [H _]; exact H).
  rewrite !relevant_found. set (ads := flat_map (adaption_of o) (records ds)).
  assert (FE : forall d, found_decl o (flat_map (adaption_of o) (records ds')) d = found_decl o ads d).
  { intros [r|]; [|reflexivity]. cbn. unfold found. rewrite (compute_further o ds ds' r INS0). reflexivity. }
  assert (G : forall l l', inserted (fun d => another o ds d /\ unwanted o ds' d) l l' -> (forall x, In x l' -> In x ds') ->
      flat_map (found_decl o (flat_map (adaption_of o) (records ds'))) l' = flat_map (found_decl o ads) l); [|apply G; auto].
  intros l l' H. induction H as [|x l l' H IH|x l l' Px H IH]; intros S; cbn [flat_map].
  - reflexivity.
  - rewrite FE, IH by (intros y Hy; apply S; right; exact Hy). reflexivity.
  - rewrite IH by (intros y Hy; apply S; right; exact Hy). assert (Hx := S x (or_introl eq_refl)).
    destruct x as [r|]; [|reflexivity]. cbn. unfold found. destruct (kept o r) eqn:K; [|reflexivity].
    destruct (compute_relevant o _ r) as [[] b] eqn:E; try reflexivity. exfalso. apply (proj2 Px r eq_refl).
    apply relevant_iff. rewrite relevant_found. change r with (k_rec {| k_rec := r; k_base := b |}). apply in_map. apply in_flat_map. exists (DRecord r). split; [exact Hx|].
    cbn. unfold found. rewrite K, E. left. reflexivity.
Qed.

Lemma text_further ns tx o ds ds' : inserted (fun d => another o ds d /\ unwanted o ds' d) ds ds' ->
  generate_text ns tx ds' (relevant_classes o ds') = generate_text ns tx ds (relevant_classes o ds).
Proof.
  intros INS. assert (RE := relevant_unwanted o ds ds' INS).
  assert (INS0 : inserted (another o ds) ds ds') by (eapply inserted_impl; [|exact INS]; intros x [H _]; exact H).
  assert (B := fun k => bases_further o ds ds' k INS0). rewrite RE in B |- *. unfold generate_text. destruct (relevant_classes o ds) as [|k0 ks0]; [reflexivity|].
  rewrite (map_ext_in (fun k => tx (find_bases ds' (k0 :: ks0) k) k) (fun k => tx (find_bases ds (k0 :: ks0) k) k)) by (intros k Hk; rewrite B by exact Hk; reflexivity). reflexivity.
Qed.

(** the text as a list of sections *)
Definition sections_of (tx : list rclass -> rclass -> bytes) (ds : list decl) (ks : list rclass) : list (bytes * bytes) := map (fun k => (qname k, tx (find_bases ds ks k) k)) ks.
Lemma text_sections ns tx ds ks : generate_text ns tx ds ks = output ns (sections_of tx ds ks).
Proof.
  unfold generate_text, output, sections_of. destruct ks as [|k ks]; [reflexivity|]. unfold nl. rewrite map_map. cbn [map]. reflexivity.
Qed.
Lemma sections_further tx o ds ds' : inserted (another o ds) ds ds' ->
  inserted anything (sections_of tx ds (relevant_classes o ds)) (sections_of tx ds' (relevant_classes o ds')).
Proof.
  intros INS. unfold sections_of.
  rewrite (map_ext_in (fun k => (qname k, tx (find_bases ds (relevant_classes o ds) k) k)) (fun k => (qname k, tx (find_bases ds' (relevant_classes o ds') k) k)))
    by (intros k Hk; rewrite (bases_further o ds ds' k INS Hk); reflexivity).
  eapply inserted_map; [|apply relevant_further; exact INS]. intros; exact I.
Qed.
Lemma binary_section o rbs k : section (qname k) (binary_class_text o rbs k).
Proof. unfold section, binary_class_text. eexists. reflexivity. Qed.
Lemma json_section o rbs k : section (qname k) (json_class_text o rbs k).
Proof. unfold section, json_class_text. eexists. reflexivity. Qed.

(* ------------------------------------------------------------------ *)
(** * Which classes are listed *)
Definition set_classes (o : gopts) (l : list bytes) : gopts :=
  {| o_template := o_template o; o_adaption := o_adaption o; o_classes := l; o_visibility := o_visibility o; o_main := o_main o |}.
Lemma listed_same o l r : (In (cr_qname r) l <-> In (cr_qname r) (o_classes o)) ->
  existsb (fun q => bytes_eqb q (cr_qname r)) l = existsb (fun q => bytes_eqb q (cr_qname r)) (o_classes o).
Proof.
  intros H. apply eq_true_iff_eq. rewrite listed_b, <- H. exact (listed_b (set_classes o l) r).
Qed.
Lemma relevant_listed o l ds : (forall r, In (DRecord r) ds -> In (cr_qname r) l <-> In (cr_qname r) (o_classes o)) ->
  relevant_classes (set_classes o l) ds = relevant_classes o ds.
Proof.
  intros H. unfold relevant_classes, find_relevant. rewrite !add_declarations_spec. cbn [s_records s_adaptions].
  change (filter (kept (set_classes o l))) with (filter (kept o)). change (flat_map (adaption_of (set_classes o l)) (records ds)) with (flat_map (adaption_of o) (records ds)).
  generalize (flat_map (adaption_of o) (records ds)). intros ads.
  assert (G : forall rs, (forall r, In r rs -> In (DRecord r) ds) ->
    flat_map (fun r => match compute_relevant (set_classes o l) ads r with (RelYes, b) => [{| k_rec := r; k_base := b |}] | _ => [] end) rs
    = flat_map (fun r => match compute_relevant o ads r with (RelYes, b) => [{| k_rec := r; k_base := b |}] | _ => [] end) rs).
  { induction rs as [|r rs IH]; intros S; cbn [flat_map]; [reflexivity|]. rewrite IH by (intros x Hx; apply S; right; exact Hx). f_equal.
    replace (compute_relevant (set_classes o l) ads r) with (compute_relevant o ads r); [reflexivity|].
    unfold compute_relevant. change (only_included (set_classes o l)) with (only_included o). change (o_template (set_classes o l)) with (o_template o). cbn [o_classes set_classes].
    rewrite (listed_same o l r) by (apply H, S; left; reflexivity). reflexivity. }
  apply G. intros r Hr. apply filter_In in Hr. apply in_records. apply Hr.
Qed.

(* ------------------------------------------------------------------ *)
(** * Declarations within classes which do not matter *)
Lemma starts_with_split p : forall s, starts_with p s = true -> exists t, s = p ++ t.
Proof.
  induction p as [|x p IH]; intros s H; [exists s; reflexivity|]. destruct s as [|y s]; [discriminate|]. cbn in H. apply andb_true_iff in H. destruct H as [H1 H2].
  apply beqb_eq in H1. subst y. destruct (IH s H2) as [t ->]. exists t. reflexivity.
Qed.
Lemma silent_marker n l m : (forall s, n <> bs "rrjAsOfVersion" ++ s) -> (forall s, n <> bs "rrjUntilVersion" ++ s) -> marker m n l = m.
Proof.
  intros A U. unfold marker. destruct l as [v|]; [|reflexivity].
  destruct (starts_with (bs "rrjAsOfVersion") n) eqn:E; [apply starts_with_split in E; destruct E as [t E]; destruct (A t E)|].
  destruct (starts_with (bs "rrjUntilVersion") n) eqn:F; [apply starts_with_split in F; destruct F as [t F]; destruct (U t F)|]. reflexivity.
Qed.

Lemma writer_members_silent priv l l' : inserted silent_binary l l' -> forall m, writer_members priv l' m = writer_members priv l m.
Proof.
  intros H. induction H as [|x l l' H IH|x l l' Px H IH]; intros m; [reflexivity| |].
  - destruct x as [n v|n acc const t|]; cbn [writer_members]; rewrite ?IH; [reflexivity| |reflexivity].
    destruct const; [reflexivity|]. destruct (negb priv && negb (is_public acc)); [reflexivity|]. destruct (write_condition m) as [c m1]. rewrite IH. reflexivity.
  - destruct Px as [->|[[n ->]|[(n & v & -> & A & U)|(n & acc & t & ->)]]]; cbn [writer_members]; rewrite ?(silent_marker _ _ _ A U); apply IH.
Qed.
Lemma reader_members_silent priv l l' : inserted silent_binary l l' -> forall m, reader_members priv l' m = reader_members priv l m.
Proof.
  intros H. induction H as [|x l l' H IH|x l l' Px H IH]; intros m; [reflexivity| |].
  - destruct x as [n v|n acc const t|]; cbn [reader_members]; rewrite ?IH; [reflexivity| |reflexivity].
    destruct const; [reflexivity|]. destruct (write_condition m) as [c m1]. destruct (priv || is_public acc); rewrite IH; reflexivity.
  - destruct Px as [->|[[n ->]|[(n & v & -> & A & U)|(n & acc & t & ->)]]]; cbn [reader_members]; rewrite ?(silent_marker _ _ _ A U); apply IH.
Qed.
Lemma push_members_silent priv l l' : inserted silent_json l l' -> GenModel.push_members priv l' = GenModel.push_members priv l.
Proof.
  intros H. unfold GenModel.push_members. induction H as [|x l l' H IH|x l l' Px H IH]; cbn [flat_map]; [reflexivity|rewrite IH; reflexivity|].
  rewrite IH. destruct Px as [->|(n & v & ->)]; reflexivity.
Qed.
Lemma pull_members_silent priv l l' : inserted silent_json l l' -> GenModel.pull_members priv l' = GenModel.pull_members priv l.
Proof.
  intros H. unfold GenModel.pull_members. induction H as [|x l l' H IH|x l l' Px H IH]; cbn [flat_map]; [reflexivity|rewrite IH; reflexivity|].
  rewrite IH. destruct Px as [->|(n & v & ->)]; reflexivity.
Qed.

Lemma find_permutation {A} (p : A -> bool) l l' : Permutation l l' -> (forall x y, In x l -> In y l -> p x = true -> p y = true -> x = y) -> find p l' = find p l.
Proof.
  intros H U. destruct (find p l) as [x|] eqn:E.
  - apply find_some in E. destruct E as [Hx Px]. destruct (find p l') as [y|] eqn:F.
    + apply find_some in F. destruct F as [Hy Py]. f_equal. apply U; auto. eapply Permutation_in; [apply Permutation_sym; exact H|exact Hy].
    + exfalso. assert (Q := find_none _ _ F x (Permutation_in _ H Hx)). congruence.
  - destruct (find p l') as [y|] eqn:F; [|reflexivity]. apply find_some in F. destruct F as [Hy Py].
    assert (Q := find_none _ _ E y (Permutation_in _ (Permutation_sym H) Hy)). congruence.
Qed.
Lemma existsb_permutation {A} (p : A -> bool) l l' : Permutation l l' -> existsb p l' = existsb p l.
Proof.
  intros H. apply eq_true_iff_eq. rewrite !existsb_exists. split; intros (x & Hx & P); exists x; (split; [|exact P]).
  - eapply Permutation_in; [apply Permutation_sym; exact H|exact Hx].
  - eapply Permutation_in; eauto.
Qed.

Section Extended.
  Variables (o : gopts) (P : mdecl -> Prop).

  Definition same_found (r r' : crecord) : Prop := extended_class o P r r'.
  Lemma extended_inherits r r' : extended_class o P r r' -> inherits_from (o_template o) r' = inherits_from (o_template o) r.
  Proof.
    intros (_ & _ & _ & _ & _ & _ & _ & _ & _ & PM & U). unfold inherits_from. apply find_permutation; [exact PM|].
    intros x y Hx Hy Ex Ey. destruct (cb_id x) as [i|] eqn:Ix; [|discriminate]. destruct (cb_id y) as [j|] eqn:Iy; [|discriminate].
    apply bytes_eqb_eq in Ex, Ey. apply U; auto; congruence.
  Qed.

  Lemma extended_def ds ds' : extended o P ds ds' -> forall c, match def_of ds c, def_of ds' c with Some r, Some r' => extended_class o P r r' | None, None => True | _, _ => False end.
  Proof.
    intros H c. induction H as [|d d' l l' Hd H IH]; [exact I|]. destruct d as [r|], d' as [r'|]; try contradiction; cbn; [|exact IH].
    assert (Q := Hd). destruct Hd as (E1 & _ & _ & E4 & _). rewrite E1, E4. destruct ((cr_id r =? c) && cr_complete r); [exact Q|exact IH].
  Qed.
  Lemma extended_derived ds ds' : extended o P ds ds' -> forall f c b, derived_from ds' f c b = derived_from ds f c b.
  Proof.
    intros H f. induction f as [|f IH]; intros c b; cbn [derived_from]; [reflexivity|].
    assert (D := extended_def ds ds' H c). destruct (def_of ds c) as [r|], (def_of ds' c) as [r'|]; try contradiction; [|reflexivity].
    assert (PM : Permutation (cr_bases r) (cr_bases r')) by (destruct D as (_ & _ & _ & _ & _ & _ & _ & _ & _ & PM & _); exact PM).
    rewrite (existsb_permutation _ _ _ PM). clear - IH. induction (cr_bases r) as [|x l IHl]; cbn; [reflexivity|].
    rewrite IHl. destruct (cb_id x); [rewrite IH|]; reflexivity.
  Qed.

  Lemma extended_records ds ds' : extended o P ds ds' -> Forall2 (extended_class o P) (records ds) (records ds').
  Proof.
    intros H. induction H as [|d d' l l' Hd H IH]; [constructor|]. destruct d as [r|], d' as [r'|]; try contradiction; [|exact IH].
    rewrite (records_cons (DRecord r)), (records_cons (DRecord r')). cbn. constructor; assumption.
  Qed.
  Definition same_adaption (a a' : bytes * crecord) : Prop := fst a' = fst a /\ cr_file (snd a') = cr_file (snd a).
  Lemma extended_adaptions rs rs' : Forall2 (extended_class o P) rs rs' -> Forall2 same_adaption (flat_map (adaption_of o) rs) (flat_map (adaption_of o) rs').
  Proof.
    intros H. induction H as [|r r' l l' Hr H IH]; [constructor|]. cbn [flat_map]. apply Forall2_app; [|exact IH].
    destruct Hr as (_ & E2 & E3 & _ & E5 & E6 & _). unfold adaption_of. rewrite E2, E3, E6.
    destruct (cr_hasdef r); [|constructor]. destruct (cr_spec r) as [[|[[q|]|] [|? ?]]|]; try constructor.
    destruct (bytes_eqb (cr_qname r) (o_adaption o)); repeat constructor. exact E5.
  Qed.
  Lemma extended_adapted ads ads' q : Forall2 same_adaption ads ads' ->
    existsb (fun '(q', a) => negb (only_included o a) && bytes_eqb q' q) ads' = existsb (fun '(q', a) => negb (only_included o a) && bytes_eqb q' q) ads.
  Proof.
    intros H. induction H as [|[x a] [x' a'] l l' [E1 E2] H IH]; cbn; [reflexivity|]. cbn in E1, E2. unfold only_included at 1 3. rewrite E1, E2, IH. reflexivity.
  Qed.
  Definition extended_found (k k' : rclass) : Prop := extended_class o P (k_rec k) (k_rec k') /\ k_base k' = k_base k.
  Lemma extended_relevant ds ds' : extended o P ds ds' -> Forall2 extended_found (relevant_classes o ds) (relevant_classes o ds').
  Proof.
    intros H. rewrite !relevant_found, !found_records. assert (R := extended_records ds ds' H). assert (A := extended_adaptions _ _ R).
    revert A. generalize (flat_map (adaption_of o) (records ds)) (flat_map (adaption_of o) (records ds')). intros ads ads' A.
    induction R as [|r r' l l' Hr R IH]; [constructor|]. cbn [flat_map]. apply Forall2_app; [|exact IH].
    assert (Q := Hr). assert (EI := extended_inherits r r' Hr). destruct Hr as (_ & E2 & E3 & E4 & E5 & E6 & _).
    assert (OI : only_included o r' = only_included o r) by (unfold only_included; rewrite E5; reflexivity).
    unfold found, kept, is_adaption_b, compute_relevant. rewrite E2, E3, E4, OI, E6, EI.
    rewrite (extended_adapted ads ads' (cr_qname r) A).
    match goal with |- Forall2 _ (if ?c then _ else _) _ => destruct c; [|constructor] end.
    match goal with |- Forall2 _ (match ?c with _ => _ end) _ => destruct c as [[] b]; constructor; [|constructor] end.
    split; [exact Q|reflexivity].
  Qed.
  Lemma extended_bases ds ds' ks ks' k k' : extended o P ds ds' -> Forall2 extended_found ks ks' -> extended_found k k' ->
    Forall2 extended_found (find_bases ds ks k) (find_bases ds' ks' k').
  Proof.
    intros H F K. unfold find_bases. induction F as [|x x' l l' Hx F IH]; [constructor|]. cbn [filter].
    assert (E : cr_id (k_rec k') = cr_id (k_rec k)) by (destruct K as [(E & _) _]; exact E).
    assert (E' : cr_id (k_rec x') = cr_id (k_rec x)) by (destruct Hx as [(E' & _) _]; exact E').
    rewrite E', E, (extended_derived ds ds' H). rewrite E in IH. match goal with |- Forall2 _ (if ?c then _ else _) _ => destruct c end; [constructor; [exact Hx|exact IH]|exact IH].
  Qed.
  Lemma extended_names ks ks' : Forall2 extended_found ks ks' -> map qname ks' = map qname ks.
  Proof. intros F. induction F as [|x x' l l' Hx F IH]; [reflexivity|]. cbn. rewrite IH. destruct Hx as [(_ & E & _) _]. unfold qname at 1. rewrite E. reflexivity. Qed.
  Lemma extended_no_bases ks ks' : Forall2 extended_found ks ks' -> no_bases ks' = no_bases ks.
  Proof. intros F. destruct F; reflexivity. Qed.
  Lemma extended_text ns tx ds ds' : extended o P ds ds' ->
    (forall rbs rbs' k k', Forall2 extended_found rbs rbs' -> extended_found k k' -> tx rbs' k' = tx rbs k) ->
    generate_text ns tx ds' (relevant_classes o ds') = generate_text ns tx ds (relevant_classes o ds).
  Proof.
    intros H T. assert (F := extended_relevant ds ds' H). unfold generate_text.
    assert (E : map (fun k => tx (find_bases ds' (relevant_classes o ds') k) k) (relevant_classes o ds') = map (fun k => tx (find_bases ds (relevant_classes o ds) k) k) (relevant_classes o ds)).
    { assert (G : forall ks ks', Forall2 extended_found ks ks' -> map (fun k => tx (find_bases ds' (relevant_classes o ds') k) k) ks' = map (fun k => tx (find_bases ds (relevant_classes o ds) k) k) ks); [|apply G; exact F].
      intros ks ks' K. induction K as [|x x' l l' Hx K IH]; [reflexivity|]. cbn [map]. rewrite IH. f_equal. apply T; [|exact Hx]. apply extended_bases; assumption. }
    rewrite E. destruct F; reflexivity.
  Qed.
End Extended.

Lemma base_lines ks : map (fun b => LBase (qname b)) ks = map LBase (map qname ks).
Proof. rewrite map_map. reflexivity. Qed.
Lemma jbase_lines ks : map (fun b => JBase (qname b)) ks = map JBase (map qname ks).
Proof. rewrite map_map. reflexivity. Qed.

Lemma extended_binary_text o rbs rbs' k k' : Forall2 (extended_found o silent_binary) rbs rbs' -> extended_found o silent_binary k k' -> binary_class_text o rbs' k' = binary_class_text o rbs k.
Proof.
  intros F [(E1 & E2 & E3 & E4 & E5 & E6 & E7 & E8 & D & _) B].
  unfold binary_class_text, writer_lines, reader_lines, version_lines, befriends, qname. rewrite E2, E7, E8, B.
  rewrite (writer_members_silent _ _ _ D), (reader_members_silent _ _ _ D), !base_lines, (extended_names _ _ _ _ F), (extended_no_bases _ _ _ _ F). reflexivity.
Qed.
Lemma extended_json_text o rbs rbs' k k' : Forall2 (extended_found o silent_json) rbs rbs' -> extended_found o silent_json k k' -> json_class_text o rbs' k' = json_class_text o rbs k.
Proof.
  intros F [(E1 & E2 & E3 & E4 & E5 & E6 & E7 & E8 & D & _) B].
  unfold json_class_text, push_lines, pull_lines, befriends, qname. rewrite E2, E7, E8.
  rewrite (push_members_silent _ _ _ D), (pull_members_silent _ _ _ D), !jbase_lines, (extended_names _ _ _ _ F), (extended_no_bases _ _ _ _ F). reflexivity.
Qed.

(** ** order of the base classes *)
Lemma inserted_filter_sub {A} (p : A -> bool) l : inserted anything (filter p l) l.
Proof. induction l as [|x l IH]; cbn; [constructor|]. destruct (p x); constructor; auto. exact I. Qed.
Lemma inserted_trans {A} (l1 l2 l3 : list A) : inserted anything l1 l2 -> inserted anything l2 l3 -> inserted anything l1 l3.
Proof.
  intros H1 H2. revert l1 H1. induction H2 as [|x l l' H IH|x l l' Px H IH]; intros l1 H1; [exact H1| |].
  - inversion H1; subst; constructor; auto.
  - apply ins_more; [exact I|auto].
Qed.
Lemma bases_ordered o ds k : inserted anything (map k_rec (find_bases ds (relevant_classes o ds) k)) (records ds).
Proof.
  destruct (relevant_map o ds) as (p & E & _). eapply inserted_trans with (l2 := map k_rec (relevant_classes o ds)).
  - unfold find_bases. eapply inserted_map; [|apply inserted_filter_sub]. intros; exact I.
  - rewrite E. apply inserted_filter_sub.
Qed.
