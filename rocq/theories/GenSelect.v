(** GenSelect.v -- class selection and base classes *)
From Coq Require Import String List NArith ZArith Bool Lia.
From Verif Require Import Base BaseFacts Types GenModel GenSem GenSpec.
Import ListNotations.
Local Open Scope N_scope.

Definition is_adaption_b (o : gopts) (r : crecord) : bool :=
  match cr_spec r with Some _ => bytes_eqb (cr_qname r) (o_adaption o) | None => false end.

Lemma is_adaption_b_spec o r : is_adaption_b o r = true <-> is_adaption o r.
Proof.
  unfold is_adaption_b, is_adaption. destruct (cr_spec r); [rewrite bytes_eqb_eq|]; intuition congruence.
Qed.

Definition kept (o : gopts) (r : crecord) : bool := cr_hasdef r && negb (is_adaption_b o r).

Definition adaption_of (o : gopts) (r : crecord) : list (bytes * crecord) :=
  if cr_hasdef r then
    match cr_spec r with
    | Some [TArgType (Some q)] => if bytes_eqb (cr_qname r) (o_adaption o) then [(q, r)] else []
    | _ => []
    end
  else [].

Lemma add_declaration_spec o st d :
  s_records (add_declaration o st d) = s_records st ++ filter (kept o) (records [d])
  /\ s_adaptions (add_declaration o st d) = s_adaptions st ++ flat_map (adaption_of o) (records [d]).
Proof.
  destruct d as [r|]; cbn [add_declaration records flat_map app filter]; [|rewrite !app_nil_r; auto].
  unfold kept, is_adaption_b, adaption_of. destruct (cr_hasdef r); cbn [negb andb]; [|rewrite !app_nil_r; auto].
  destruct (cr_spec r) as [args|]; cbn [negb]; [|rewrite !app_nil_r; auto].
  destruct (bytes_eqb (cr_qname r) (o_adaption o)); cbn [negb];
    destruct args as [|[[q|]|] [|? ?]]; cbn [s_records s_adaptions app]; rewrite ?app_nil_r; auto.
Qed.

Lemma records_cons d ds : records (d :: ds) = records [d] ++ records ds.
Proof. unfold records. cbn. rewrite app_nil_r. reflexivity. Qed.

Lemma fold_declarations o ds : forall st,
  s_records (fold_left (add_declaration o) ds st) = s_records st ++ filter (kept o) (records ds)
  /\ s_adaptions (fold_left (add_declaration o) ds st) = s_adaptions st ++ flat_map (adaption_of o) (records ds).
Proof.
  induction ds as [|d ds IH]; intros st; cbn [fold_left]; [cbn; rewrite !app_nil_r; auto|].
  rewrite records_cons, filter_app, flat_map_app.
  destruct (IH (add_declaration o st d)) as [-> ->]. destruct (add_declaration_spec o st d) as [-> ->]. rewrite !app_assoc. auto.
Qed.

Lemma add_declarations_spec o ds : add_declarations o ds = {| s_records := filter (kept o) (records ds); s_adaptions := flat_map (adaption_of o) (records ds) |}.
Proof.
  unfold add_declarations. pose proof (fold_declarations o ds {| s_records := []; s_adaptions := [] |}) as [A B].
  destruct (fold_left _ _ _). cbn in *. congruence.
Qed.

Lemma in_records r ds : In r (records ds) <-> In (DRecord r) ds.
Proof.
  unfold records. rewrite in_flat_map. split.
  - intros ([r'|] & Hin & Q); [destruct Q as [->|[]]; exact Hin|destruct Q].
  - intros Hin. exists (DRecord r). split; [exact Hin|left; reflexivity].
Qed.

Lemma adapted_b o ds r :
  existsb (fun '(q, a) => negb (only_included o a) && bytes_eqb q (cr_qname r)) (flat_map (adaption_of o) (records ds)) = true <-> adapted o ds r.
Proof.
  rewrite existsb_exists. unfold adapted, adapts, only_included. split.
  - intros ([q a] & Hin & Q). apply in_flat_map in Hin. destruct Hin as (x & Hx & Hq).
    apply in_records in Hx. apply andb_true_iff in Q. destruct Q as [Q1 Q2]. rewrite negb_involutive in Q1. apply N.eqb_eq in Q1. apply bytes_eqb_eq in Q2.
    unfold adaption_of in Hq. destruct (cr_hasdef x) eqn:HD; [|destruct Hq].
    destruct (cr_spec x) as [[|[[q'|]|] [|? ?]]|] eqn:SP; try destruct Hq.
    destruct (bytes_eqb (cr_qname x) (o_adaption o)) eqn:E; [|destruct Hq]. apply bytes_eqb_eq in E.
    destruct Hq as [Hq|[]]. inversion Hq; subst. exists a. auto.
  - intros (a & Hin & (HD & HQ & SP) & F). exists (cr_qname r, a). split.
    + apply in_flat_map. exists a. split; [apply in_records; exact Hin|]. unfold adaption_of. rewrite HD, SP, (proj2 (bytes_eqb_eq _ _) HQ). left; reflexivity.
    + rewrite negb_involutive, bytes_eqb_refl, andb_true_r. apply N.eqb_eq. exact F.
Qed.

Lemma inherits_b o r : (exists b, inherits_from (o_template o) r = Some b) <-> inherits o r.
Proof.
  unfold inherits_from, inherits. split.
  - intros [b E]. apply find_some in E. destruct E as [Hin Q]. destruct (cb_id b) as [i|] eqn:I; [|discriminate]. apply bytes_eqb_eq in Q. eauto.
  - intros (b & i & Hin & I & Q).
    destruct (find _ (cr_bases r)) as [b'|] eqn:E; [eauto|]. eapply find_none in E; [|exact Hin]. cbn in E. rewrite I, Q, bytes_eqb_refl in E. discriminate.
Qed.

Lemma only_included_spec o r : only_included o r = false <-> cr_file r = o_main o.
Proof. unfold only_included. rewrite negb_false_iff. apply N.eqb_eq. Qed.

Lemma listed_b o r : existsb (fun q => bytes_eqb q (cr_qname r)) (o_classes o) = true <-> In (cr_qname r) (o_classes o).
Proof.
  rewrite existsb_exists. split; [intros (x & Hin & E); apply bytes_eqb_eq in E; subst; exact Hin|].
  intros Hin. exists (cr_qname r). split; [exact Hin|apply bytes_eqb_refl].
Qed.

Lemma compute_relevant_spec o ds r :
  (exists b, compute_relevant o (flat_map (adaption_of o) (records ds)) r = (RelYes, b)) <->
  cr_complete r = true /\ (adapted o ds r \/ cr_file r = o_main o /\ (inherits o r \/ In (cr_qname r) (o_classes o))).
Proof.
  unfold compute_relevant. destruct (cr_complete r); cbn [negb]; [|split; [intros [b E]; discriminate|intros [E _]; discriminate]].
  rewrite <- adapted_b. destruct (existsb _ (flat_map _ _)); [split; [auto|eauto]|].
  rewrite <- only_included_spec. destruct (only_included o r); [split; [intros [b E]; discriminate|intros [_ [E|[E _]]]; discriminate]|].
  rewrite <- inherits_b, <- listed_b. destruct (inherits_from (o_template o) r) as [b|].
  - split; [eauto 6|eauto].
  - destruct (existsb _ (o_classes o)).
    + split; [eauto 8|eauto].
    + split; [intros [b E]; discriminate|]. intros [_ [E|[_ [[b E]|E]]]]; discriminate.
Qed.

Lemma relevant_map o ds : exists p, map k_rec (relevant_classes o ds) = filter p (records ds)
  /\ forall r, p r = true <-> (cr_hasdef r = true /\ ~ is_adaption o r /\ cr_complete r = true
        /\ (adapted o ds r \/ cr_file r = o_main o /\ (inherits o r \/ In (cr_qname r) (o_classes o)))).
Proof.
  exists (fun r => kept o r && match compute_relevant o (flat_map (adaption_of o) (records ds)) r with (RelYes, _) => true | _ => false end).
  split.
  - unfold relevant_classes, find_relevant. rewrite add_declarations_spec. cbn [s_records s_adaptions].
    generalize (flat_map (adaption_of o) (records ds)). intros ads. induction (records ds) as [|r rs IH]; cbn; [reflexivity|].
    destruct (kept o r); cbn [andb]; [|exact IH]. cbn [flat_map].
    rewrite map_app, IH. destruct (compute_relevant o ads r) as [[] b]; reflexivity.
  - intros r. rewrite andb_true_iff. unfold kept. rewrite andb_true_iff, negb_true_iff.
    rewrite <- not_true_iff_false, is_adaption_b_spec.
    assert (E: (match compute_relevant o (flat_map (adaption_of o) (records ds)) r with (RelYes, _) => true | _ => false end = true)
               <-> exists b, compute_relevant o (flat_map (adaption_of o) (records ds)) r = (RelYes, b)).
    { destruct compute_relevant as [[] b]; split; eauto; try discriminate; intros [b' E]; discriminate. }
    rewrite E, compute_relevant_spec. tauto.
Qed.

Lemma relevant_iff o ds r : In r (map k_rec (relevant_classes o ds)) <-> wanted o ds r.
Proof.
  destruct (relevant_map o ds) as (p & -> & P). rewrite filter_In, in_records, P. unfold wanted. tauto.
Qed.

(** the template instantiation a class inherits from *)
Lemma relevant_base o ds k : In k (relevant_classes o ds) ->
  (adapted o ds (k_rec k) -> k_base k = None)
  /\ (~ adapted o ds (k_rec k) -> k_base k = inherits_from (o_template o) (k_rec k)).
Proof.
  unfold relevant_classes, find_relevant. rewrite add_declarations_spec. cbn [s_records s_adaptions].
  rewrite in_flat_map. intros (r & _ & Hk).
  destruct (compute_relevant o _ r) as [[] b] eqn:E; [destruct Hk as [<-|[]]|destruct Hk|destruct Hk]. cbn [k_rec k_base].
  unfold compute_relevant in E. destruct (cr_complete r); [|discriminate]. cbn [negb] in E.
  rewrite <- adapted_b. destruct (existsb _ (flat_map _ _)).
  - inversion E; subst. split; [auto|]. intros H; destruct H; reflexivity.
  - split; [discriminate|]. intros _. destruct (only_included o r); [discriminate|].
    destruct (inherits_from (o_template o) r); [inversion E; reflexivity|]. destruct (existsb _ (o_classes o)); inversion E; reflexivity.
Qed.

(** two runs with different main files *)
Lemma two_runs o o' ds r : o_template o = o_template o' -> o_adaption o = o_adaption o' -> o_main o <> o_main o' ->
  In r (map k_rec (relevant_classes o ds)) -> In r (map k_rec (relevant_classes o' ds)) -> adapted o ds r \/ adapted o' ds r.
Proof.
  rewrite !relevant_iff. intros _ _ Hm (_ & _ & _ & _ & A) (_ & _ & _ & _ & A').
  destruct A as [A|[F _]]; [auto|]. destruct A' as [A'|[F' _]]; [auto|]. congruence.
Qed.

(* ------------------------------------------------------------------ *)
Lemma def_of_some ds c r : def_of ds c = Some r -> In (DRecord r) ds /\ cr_complete r = true /\ cr_id r = c.
Proof.
  induction ds as [|[r'|] ds IH]; cbn; [discriminate| |].
  - destruct ((cr_id r' =? c) && cr_complete r') eqn:E.
    + intros Q; inversion Q; subst. apply andb_true_iff in E. destruct E as [E1 E2]. apply N.eqb_eq in E1. auto.
    + intros Q. destruct (IH Q) as (? & ? & ?). auto.
  - intros Q. destruct (IH Q) as (? & ? & ?). auto.
Qed.
Lemma def_of_in ds r : one_definition ds -> In (DRecord r) ds -> cr_complete r = true -> def_of ds (cr_id r) = Some r.
Proof.
  intros OD Hin Hc. destruct (def_of ds (cr_id r)) as [r'|] eqn:E.
  - apply def_of_some in E. destruct E as (H1 & H2 & H3). f_equal. apply OD; auto.
  - exfalso. clear OD. induction ds as [|[r'|] ds IH]; cbn in *; [destruct Hin| |].
    + destruct ((cr_id r' =? cr_id r) && cr_complete r') eqn:Q; [discriminate|].
      destruct Hin as [Hin|Hin]; [inversion Hin; subst; rewrite N.eqb_refl, Hc in Q; discriminate|auto].
    + destruct Hin as [Hin|Hin]; [discriminate|auto].
Qed.

Lemma derived_from_sound ds f : forall c b, derived_from ds f c b = true -> derives ds c b.
Proof.
  induction f as [|f IH]; intros c b; cbn [derived_from]; [discriminate|].
  destruct (def_of ds c) as [r|] eqn:D; [|discriminate]. apply def_of_some in D. destruct D as (Hin & Hc & <-).
  rewrite existsb_exists. intros (x & Hx & Q). destruct (cb_id x) as [d|] eqn:I; [|discriminate].
  apply orb_true_iff in Q. destruct Q as [Q|Q].
  - apply N.eqb_eq in Q. subst d. eapply der_direct; eauto.
  - eapply der_step; eauto.
Qed.

Lemma derived_from_complete ds : one_definition ds -> wf_bases ds -> forall c b, derives ds c b ->
  forall f, (N.to_nat c <= f)%nat -> derived_from ds f c b = true.
Proof.
  intros OD WF c b H. induction H as [r x b Hin Hc Hx I|r x d b Hin Hc Hx I _ IH]; intros f Hf;
    pose proof (WF _ _ _ Hin Hc Hx I) as Lt; (destruct f as [|f]; [lia|]); cbn [derived_from];
    rewrite (def_of_in _ _ OD Hin Hc), existsb_exists; exists x; (split; [exact Hx|]); rewrite I; apply orb_true_iff.
  - left. apply N.eqb_refl.
  - right. apply IH. lia.
Qed.

Lemma find_bases_spec o ds k b : one_definition ds -> wf_bases ds ->
  (In b (find_bases ds (relevant_classes o ds) k) <->
   In b (relevant_classes o ds) /\ cr_id (k_rec k) <> cr_id (k_rec b) /\ derives ds (cr_id (k_rec k)) (cr_id (k_rec b))).
Proof.
  intros OD WF. unfold find_bases. rewrite filter_In, andb_true_iff, negb_true_iff, N.eqb_neq.
  split; intros (H1 & H2 & H3); (split; [exact H1|]); (split; [exact H2|]).
  - eapply derived_from_sound; eauto.
  - eapply derived_from_complete; eauto.
Qed.

Lemma derives_lt ds : wf_bases ds -> forall c b, derives ds c b -> b < c.
Proof.
  intros WF c b H. induction H as [r x b Hin Hc Hx I|r x d b Hin Hc Hx I _ IH]; pose proof (WF _ _ _ Hin Hc Hx I); lia.
Qed.

Lemma derives_trans ds a b c : derives ds a b -> derives ds b c -> derives ds a c.
Proof. intros H. induction H; intros Hc; [eapply der_step; eauto|eapply der_step; eauto]. Qed.
