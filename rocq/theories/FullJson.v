(** FullJson.v -- generated JSON code from declarations to restored objects *)
From Coq Require Import String List NArith ZArith Bool Lia.
From Verif Require Import Base BaseFacts Bytes Types TypesFacts BinModel BinSpec GenModel GenSem GenFacts GenSpec GenMarkers GenSelect GenText GenLink Float JsonModel JsonRel JsonErr JsonSpec JsonRoundTrip JsonTop JsonGen
  JsonText JsonTextSpec JsonTextFacts JsonTextTop JsonTextEnd CxxText CxxTop PropertiesCxx FullSpec FullFacts.
Import ListNotations.
Local Open Scope list_scope.
Local Open Scope N_scope.

Lemma own_push_in b fd : In fd (own_push b) <-> exists n t acc c, fd = {| jf_name := n; jf_key := (cr_id (k_rec b), n); jf_ty := t |} /\ In (MField n acc c t) (cr_decls (k_rec b))
    /\ (befriends (k_rec b) fn_push = true \/ acc = Public).
Proof.
  unfold own_push, jmembers. rewrite in_flat_map. split.
  - intros (l & Hl & Hfd). apply push_members_in in Hl. destruct Hl as (n & acc & c & t & -> & Hin & A). destruct Hfd as [<-|[]]. eauto 10.
  - intros (n & t & acc & c & -> & Hin & A). exists (JMember n t). split; [apply push_members_in; eauto 10|left; reflexivity].
Qed.
Lemma own_pull_in b fd : In fd (own_pull b) <-> exists n t acc, fd = {| jf_name := n; jf_key := (cr_id (k_rec b), n); jf_ty := t |} /\ In (MField n acc false t) (cr_decls (k_rec b))
    /\ (befriends (k_rec b) fn_pull = true \/ acc = Public).
Proof.
  unfold own_pull, jmembers. rewrite in_flat_map. split.
  - intros (l & Hl & Hfd). apply pull_members_in in Hl. destruct Hl as (n & acc & t & -> & Hin & A). destruct Hfd as [<-|[]]. eauto 10.
  - intros (n & t & acc & -> & Hin & A). exists (JMember n t). split; [apply pull_members_in; eauto 10|left; reflexivity].
Qed.
Lemma own_push_pushed b fd : In fd (own_push b) -> jf_key fd = (cr_id (k_rec b), jf_name fd) /\ pushed b (jf_name fd) /\ has_member b (jf_name fd) (jf_ty fd).
Proof.
  intros H. apply own_push_in in H. destruct H as (n & t & acc & c & -> & Hin & A). cbn. split; [reflexivity|]. split; [|exists acc, c; exact Hin].
  exists (MField n acc c t). split; [exact Hin|]. exists acc, c, t. auto.
Qed.
Lemma own_pull_pulled b fd : In fd (own_pull b) -> jf_key fd = (cr_id (k_rec b), jf_name fd) /\ pulled b (jf_name fd) /\ has_member b (jf_name fd) (jf_ty fd).
Proof.
  intros H. apply own_pull_in in H. destruct H as (n & t & acc & -> & Hin & A). cbn. split; [reflexivity|]. split; [|exists acc, false; exact Hin].
  exists (MField n acc false t). split; [exact Hin|]. exists acc, t. auto.
Qed.
Lemma pushed_own b n t : distinct_members b -> pushed b n -> has_member b n t -> In {| jf_name := n; jf_key := (cr_id (k_rec b), n); jf_ty := t |} (own_push b).
Proof.
  intros D (d & Hd & acc & c & t' & -> & A) (acc' & c' & Hin). rewrite <- (field_type_unique _ _ _ _ _ _ _ _ D Hd Hin). apply own_push_in. exists n, t', acc, c. auto.
Qed.
Lemma pulled_own b n t : distinct_members b -> pulled b n -> has_member b n t -> In {| jf_name := n; jf_key := (cr_id (k_rec b), n); jf_ty := t |} (own_pull b).
Proof.
  intros D (d & Hd & acc & t' & -> & A) (acc' & c' & Hin). rewrite <- (field_type_unique _ _ _ _ _ _ _ _ D Hd Hin). apply own_pull_in. exists n, t', acc. auto.
Qed.
Lemma own_push_nodup b : distinct_members b -> NoDup (map jf_name (own_push b)).
Proof.
  unfold distinct_members, own_push. generalize (befriends (k_rec b) fn_push) as p. induction (cr_decls (k_rec b)) as [|d l IH]; intros p ND; [constructor|].
  unfold GenModel.push_members, jmembers. cbn [flat_map]. destruct d as [n l0|n acc const t|]; cbn [app] in *; [apply IH, ND| |apply IH, ND].
  cbn in ND. inversion ND as [|? ? N1 N2]; subst. specialize (IH p N2). destruct (p || is_public acc) eqn:A; [|exact IH]. cbn [app flat_map map jf_name]. constructor; [|exact IH].
  intros X. apply in_map_iff in X. destruct X as (fd & E & Hfd). apply N1. apply in_flat_map in Hfd. destruct Hfd as (ln & Hln & Hfd).
  change (In ln (GenModel.push_members p l)) in Hln. apply push_members_in in Hln. destruct Hln as (n' & acc' & c' & t' & -> & Hin & _). destruct Hfd as [<-|[]]. cbn in E. subst n'.
  apply in_flat_map. eexists. split; [exact Hin|left; reflexivity].
Qed.
Lemma own_pull_nodup b : distinct_members b -> NoDup (map jf_key (own_pull b)).
Proof.
  unfold distinct_members, own_pull. generalize (befriends (k_rec b) fn_pull) as p. induction (cr_decls (k_rec b)) as [|d l IH]; intros p ND; [constructor|].
  unfold GenModel.pull_members, jmembers. cbn [flat_map]. destruct d as [n l0|n acc const t|]; cbn [app] in *; [apply IH, ND| |apply IH, ND].
  cbn in ND. inversion ND as [|? ? N1 N2]; subst. specialize (IH p N2). destruct const; [exact IH|]. destruct (p || is_public acc) eqn:A; [|exact IH]. cbn [app flat_map map jf_key]. constructor; [|exact IH].
  intros X. apply in_map_iff in X. destruct X as (fd & E & Hfd). apply N1. apply in_flat_map in Hfd. destruct Hfd as (ln & Hln & Hfd).
  change (In ln (GenModel.pull_members p l)) in Hln. apply pull_members_in in Hln. destruct Hln as (n' & acc' & t' & -> & Hin & _). destruct Hfd as [<-|[]]. cbn in E. injection E as ->.
  apply in_flat_map. eexists. split; [exact Hin|left; reflexivity].
Qed.

Lemma nodup_concat {A} (ls : list (list A)) : (forall l, In l ls -> NoDup l) -> ForallOrdPairs (fun l m => forall x, In x l -> ~ In x m) ls -> NoDup (concat ls).
Proof.
  intros H F. induction F as [|l ls Fl F IH]; cbn; [constructor|]. assert (N1 := H l (or_introl eq_refl)). assert (N2 := IH (fun m Hm => H m (or_intror Hm))).
  clear - N1 N2 Fl. induction N1 as [|x l Nx N1 IH]; cbn; [exact N2|]. constructor.
  - rewrite in_app_iff. intros [X|X]; [exact (Nx X)|]. apply in_concat in X. destruct X as (m & Hm & Xm). rewrite Forall_forall in Fl. exact (Fl m Hm x (or_introl eq_refl) Xm).
  - apply IH. eapply Forall_impl; [|exact Fl]. intros m Hm y Hy. apply Hm. right; exact Hy.
Qed.

Section Json.
  Variables (o : gopts) (ds : list decl) (G : genv) (resolve : bytes -> option N) (W R : rclass -> list node).
  Hypothesis BP : json_program o ds G resolve W R.
  Notation bases := (find_bases ds (relevant_classes o ds)).
  Let fbs k b := find_bases_spec o ds k b (jpr_defined _ _ _ _ _ _ BP) (jpr_bases _ _ _ _ _ _ BP).

  Lemma jpart_iff k b : part_of o ds k b <-> b = k \/ In b (bases k).
  Proof. unfold part_of. rewrite (fbs k b). reflexivity. Qed.
  Lemma jsame_class b b' : In b (relevant_classes o ds) -> In b' (relevant_classes o ds) -> cr_id (k_rec b) = cr_id (k_rec b') -> b = b'.
  Proof.
    intros H1 H2 E. assert (ND := jpr_once _ _ _ _ _ _ BP). clear - ND H1 H2 E. induction (relevant_classes o ds) as [|c l IH]; [destruct H1|]. cbn in ND. inversion ND as [|? ? N1 N2]; subst.
    destruct H1 as [->|H1], H2 as [->|H2]; [reflexivity| | |apply IH; assumption]; exfalso; apply N1; [rewrite E|rewrite <- E]; apply (in_map (fun k => cr_id (k_rec k))); assumption.
  Qed.
  Lemma jpart_relevant k b : In k (relevant_classes o ds) -> part_of o ds k b -> In b (relevant_classes o ds).
  Proof. intros Hk [->|(Hb & _)]; assumption. Qed.
  Lemma jpart_trans k c b : part_of o ds k c -> part_of o ds c b -> part_of o ds k b.
  Proof.
    intros [->|(H1 & N1 & D1)] [->|(H2 & N2 & D2)]; [left; reflexivity|right; auto|right; auto|]. right. split; [exact H2|].
    assert (D : derives ds (cr_id (k_rec k)) (cr_id (k_rec b))).
    { clear - D1 D2. induction D1 as [r x b' Hin Hc Hx I|r x d b' Hin Hc Hx I D IH]; [eapply der_step; eauto|eapply der_step; eauto]. }
    split; [|exact D]. apply (derives_lt ds (jpr_bases _ _ _ _ _ _ BP)) in D. lia.
  Qed.
  Lemma jpart_lt k b : part_of o ds k b -> b <> k -> cr_id (k_rec b) < cr_id (k_rec k).
  Proof. intros [->|(_ & _ & D)] Ne; [congruence|]. apply (derives_lt ds (jpr_bases _ _ _ _ _ _ BP)) in D. exact D. Qed.
  Lemma jrevisited_part k b : revisited o ds k b -> part_of o ds k b.
  Proof. intros (c & P1 & _ & P2 & _). eapply jpart_trans; eauto. Qed.
  Lemma class_push k Ls : In k (relevant_classes o ds) -> Forall2 (JsonSpec.members G pushed_by) (map (fun b => cr_id (k_rec b)) (bases k)) Ls ->
    JsonSpec.members G pushed_by (cr_id (k_rec k)) (concat Ls ++ own_push k).
  Proof.
    intros Hk HLs. destruct (jpr_code _ _ _ _ _ _ BP k Hk) as (rc & HC & [_ GP GQ]). rewrite <- (push_prog_fields (bases k) k), <- GP.
    apply members_intro with (rc := rc); [exact HC|reflexivity|]. rewrite GP. exact HLs.
  Qed.
  Lemma class_pull k Ls : In k (relevant_classes o ds) -> transferable k -> Forall2 (JsonSpec.members G rc_pull) (map (fun b => cr_id (k_rec b)) (bases k)) Ls ->
    JsonSpec.members G rc_pull (cr_id (k_rec k)) (concat Ls ++ own_pull k).
  Proof.
    intros Hk (D & _) HLs. destruct (jpr_code _ _ _ _ _ _ BP k Hk) as (rc & HC & [_ GP GQ]).
    destruct (pull_prog (bases k) k) as [p|] eqn:PP; [|unfold pull_prog in PP; rewrite D in PP; discriminate]. assert (Ep := pull_prog_fields _ _ _ PP).
    replace (own_pull k) with (jp_fields p) by (rewrite Ep; reflexivity). apply members_intro with (rc := rc); [exact HC|exact GQ|]. rewrite Ep. exact HLs.
  Qed.
  (** members accessed more than once are those of revisited base classes *)
  Definition jtwice (own : rclass -> list jfield) (k : rclass) (x y : jfield) : Prop := jf_key x = jf_key y -> exists b, revisited o ds k b /\ In x (own b) /\ In y (own b).
  Lemma object_members prog (own : rclass -> list jfield) (ok : rclass -> Prop) :
    (forall b x, In x (own b) -> fst (jf_key x) = cr_id (k_rec b)) ->
    (forall b, ok b -> NoDup (map jf_key (own b))) ->
    (forall k Ls, In k (relevant_classes o ds) -> ok k -> Forall2 (JsonSpec.members G prog) (map (fun b => cr_id (k_rec b)) (bases k)) Ls -> JsonSpec.members G prog (cr_id (k_rec k)) (concat Ls ++ own k)) ->
    forall n k, (N.to_nat (cr_id (k_rec k)) < n)%nat -> In k (relevant_classes o ds) -> (forall b, part_of o ds k b -> ok b) ->
    exists L, JsonSpec.members G prog (cr_id (k_rec k)) L /\ (forall x, In x L <-> exists b, part_of o ds k b /\ In x (own b)) /\ ForallOrdPairs (jtwice own k) L.
  Proof.
    intros own_key own_nodup class_members. induction n as [|n IH]; intros k Hn Hk HB; [lia|].
    assert (HLs : exists Ls, Forall2 (JsonSpec.members G prog) (map (fun b => cr_id (k_rec b)) (bases k)) Ls
      /\ Forall2 (fun c L => (forall x, In x L <-> exists b, part_of o ds c b /\ In x (own b)) /\ ForallOrdPairs (jtwice own c) L) (bases k) Ls).
    { assert (P : forall c, In c (bases k) -> exists L, JsonSpec.members G prog (cr_id (k_rec c)) L /\ (forall x, In x L <-> exists b, part_of o ds c b /\ In x (own b)) /\ ForallOrdPairs (jtwice own c) L).
      { intros c Hc. assert (Pc : part_of o ds k c) by (apply jpart_iff; right; exact Hc). apply IH.
        - destruct (proj1 (fbs k c) Hc) as (_ & _ & D). apply (derives_lt ds (jpr_bases _ _ _ _ _ _ BP)) in D. lia.
        - eapply jpart_relevant; eauto.
        - intros b Hb. apply HB. eapply jpart_trans; eauto. }
      clear - P. induction (bases k) as [|c l IHl]; [exists []; split; constructor|]. destruct (P c (or_introl eq_refl)) as (L & V & Q). destruct IHl as (Ls & F1 & F2); [intros; apply P; right; assumption|].
      exists (L :: Ls). split; constructor; auto. }
    destruct HLs as (Ls & F1 & F2). exists (concat Ls ++ own k). split; [apply class_members; [exact Hk|apply HB; left; reflexivity|exact F1]|].
    assert (HC : forall x, In x (concat Ls) <-> exists c b, In c (bases k) /\ part_of o ds c b /\ In x (own b)).
    { intros x. clear - F2. induction F2 as [|c L bs Ls (Q & _) F IH]; cbn; [split; [intros []|intros (c & b & [] & _)]|]. rewrite in_app_iff, Q, IH. split.
      - intros [(b & Hb & Hx)|(c' & b & Hc & Hb & Hx)]; [exists c, b|exists c', b]; auto.
      - intros (c' & b & [<-|Hc] & Hb & Hx); [left; eauto|right; exists c', b; auto]. }
    split.
    - intros x. rewrite in_app_iff, HC. split.
      + intros [(c & b & Hc & Hb & Hx)|Hx]; [exists b; split; [eapply jpart_trans; [apply jpart_iff; right; exact Hc|exact Hb]|exact Hx]|exists k; split; [left; reflexivity|exact Hx]].
      + intros (b & Hb & Hx). apply jpart_iff in Hb. destruct Hb as [->|Hb]; [right; exact Hx|left]. exists b, b. split; [exact Hb|]. split; [left; reflexivity|exact Hx].
    - assert (NB : NoDup (bases k)) by (apply (NoDup_map_inv (fun b => cr_id (k_rec b))); unfold find_bases; apply nodup_filter_map, (jpr_once _ _ _ _ _ _ BP)).
      assert (KB : forall c, In c (bases k) -> part_of o ds k c /\ c <> k).
      { intros c Hc. split; [apply jpart_iff; right; exact Hc|]. apply (fbs k c) in Hc. destruct Hc as (_ & Ne & _). intros ->; congruence. }
      apply FOP_intro.
      + clear HC F1. revert NB KB. induction F2 as [|c L bs Ls (Q & T) F IHF]; intros NB KB; cbn; [constructor|]. inversion NB as [|? ? N1 N2]; subst.
        destruct (KB c (or_introl eq_refl)) as [Kc Nc]. apply FOP_intro.
        * eapply FOP_weak; [|exact T]. intros x y _ _ Hxy E. destruct (Hxy E) as (b & (d & P1 & D1 & P2 & D2) & B1 & B2). exists b. split; [|auto].
          exists c. do 2 (split; [assumption|]). split; [eapply jpart_trans; eauto|]. intros ->. pose proof (jpart_lt _ _ P1 D1). pose proof (jpart_lt _ _ P2 D2). lia.
        * apply IHF; [exact N2|intros; apply KB; right; assumption].
        * intros x y Hx Hy E. apply Q in Hx. destruct Hx as (b & Hb & Hx).
          assert (exists c' b', In c' bs /\ part_of o ds c' b' /\ In y (own b')) as (c' & b' & Hc' & Hb' & Hy').
          { clear - F Hy. induction F as [|c0 L0 bs Ls (Q & _) F IH]; cbn in Hy; [destruct Hy|]. apply in_app_iff in Hy. destruct Hy as [Hy|Hy].
            - apply Q in Hy. destruct Hy as (b & Hb & Hy). exists c0, b. split; [left; reflexivity|auto].
            - destruct (IH Hy) as (c1 & b & Hc & R1). exists c1, b. split; [right; exact Hc|exact R1]. }
          destruct (KB c' (or_intror Hc')) as [Kc' Nc']. assert (Rc := jpart_relevant _ _ Hk Kc). assert (Rc' := jpart_relevant _ _ Hk Kc').
          assert (b' = b) as ->. { apply jsame_class; [eapply jpart_relevant; [exact Rc'|eassumption]|eapply jpart_relevant; [exact Rc|eassumption]|]. rewrite <- (own_key _ _ Hx), <- (own_key _ _ Hy'), E. reflexivity. }
          exists b. split; [|auto]. assert (c <> c') by (intros ->; contradiction). destruct (N.eq_dec (cr_id (k_rec b)) (cr_id (k_rec c))) as [Eb|Nb].
          -- exists c'. do 2 (split; [assumption|]). split; [exact Hb'|]. intros ->. apply H. symmetry. apply jsame_class; assumption.
          -- exists c. do 2 (split; [assumption|]). split; [exact Hb|]. intros ->; congruence.
      + assert (ND := own_nodup k (HB k (or_introl eq_refl))). clear - ND. induction (own k) as [|x l IH]; constructor; cbn in ND; inversion ND as [|? ? N1 N2]; subst; [|apply IH, N2].
        apply Forall_forall. intros y Hy E. exfalso. apply N1. rewrite E. apply in_map. exact Hy.
      + intros x y Hx Hy E. exfalso. apply HC in Hx. destruct Hx as (c & b & Hc & Hb & Hx). destruct (KB c Hc) as [Kc Nc]. apply own_key in Hx. apply own_key in Hy. rewrite E, Hy in Hx.
        pose proof (jpart_lt _ _ Kc Nc). destruct Hb as [->|(_ & _ & D)]; [lia|]. apply (derives_lt ds (jpr_bases _ _ _ _ _ _ BP)) in D. lia.
  Qed.
  Lemma nodup_same {A B} (key : A -> B) l x y : NoDup (map key l) -> In x l -> In y l -> key x = key y -> x = y.
  Proof.
    intros ND Hx Hy E. revert Hx Hy ND. induction l as [|z l IH]; intros Hx Hy ND; [destruct Hx|]. cbn in ND. inversion ND as [|? ? N1 N2]; subst.
    destruct Hx as [->|Hx], Hy as [->|Hy]; [reflexivity| | |apply IH; assumption]; exfalso; apply N1; [rewrite E|rewrite <- E]; apply in_map; assumption.
  Qed.
  Lemma Forall2_Forall_r {A B} (P : A -> B -> Prop) (Q : B -> Prop) l m : Forall2 P l m -> (forall a b, In a l -> P a b -> Q b) -> Forall Q m.
  Proof. intros F. induction F as [|a b l m Pab F IH]; intros HQ; constructor; [eapply HQ; [left; reflexivity|exact Pab]|apply IH; intros x y Hx; apply HQ; right; exact Hx]. Qed.

  Theorem full_json J H ex k mtype fs os :
    alloc_ok G -> place_ok G ->
    In k (relevant_classes o ds) -> names_apart o ds k ->
    (forall b, part_of o ds k b -> transferable b /\ distinct_members b) ->
    (forall b n t, revisited o ds k b -> pulled b n -> has_member b n t -> repullable G t) ->
    declared_types k mtype ->
    (forall b n t, part_of o ds k b -> pushed b n -> has_member b n t -> exists old v,
       (pulled b n -> alookup fkey_eqb (cr_id (k_rec b), n) os = Some old) /\ alookup fkey_eqb (cr_id (k_rec b), n) fs = Some v /\ jgood G J H ex t old v) ->
    exists F ms, forall f, (F <= f)%nat ->
      run_push_text (lib_push_base G J H f resolve fs) (lib_push_member G J H f (cr_id (k_rec k)) mtype fs) (W k) [] = ROk ms
      /\ (two_levels o ds k -> NoDup (map fst ms)) /\ (forall n, In n (map fst ms) <-> exists b, part_of o ds k b /\ pushed b n)
      /\ (forall T, dtoa_ok T -> finite (JObj ms) -> doubles (survives T) (JObj ms) -> parseJsonDocFromString T (serializeJsonDocToString T (JObj ms)) = TOk (JObj ms) [])
      /\ forall h er, exists os' h' er',
        run_pull_text (lib_pull_base G J f resolve ms) (lib_pull_member G J f (cr_id (k_rec k)) mtype ms) (R k) os {| p_heap := h; p_err := er |}
          = POk os' {| p_heap := h'; p_err := er' |}
        /\ hext h h' /\ quiet er er'
        /\ (forall b n t, part_of o ds k b -> pulled b n -> has_member b n t -> exists v v',
              alookup fkey_eqb (cr_id (k_rec b), n) fs = Some v /\ alookup fkey_eqb (cr_id (k_rec b), n) os' = Some v' /\ jsame G H h h' t v v' /\ (ex = true -> v' = v))
        /\ (forall key, (forall b n, part_of o ds k b -> pulled b n -> key <> (cr_id (k_rec b), n)) -> alookup fkey_eqb key os' = alookup fkey_eqb key os).
  Proof.
    intros HA HP Hk NA HB HRP DT HV. destruct (jpr_code _ _ _ _ _ _ BP k Hk) as (rc & HC & GC).
    assert (HT : forall b, part_of o ds k b -> transferable b) by (intros b Hb; apply HB, Hb). assert (HD : forall b, part_of o ds k b -> distinct_members b) by (intros b Hb; apply HB, Hb).
    destruct (object_members pushed_by own_push distinct_members) with (n := S (N.to_nat (cr_id (k_rec k)))) (k := k) as (Lp & Mp & AP & TP).
    { intros b x Hx. destruct (own_push_pushed _ _ Hx) as (-> & _). reflexivity. }
    { intros b D. assert (ND := own_push_nodup b D). assert (EK : forall x, In x (own_push b) -> jf_key x = (cr_id (k_rec b), jf_name x)) by (intros x Hx; apply (own_push_pushed _ _ Hx)).
      clear - ND EK. induction (own_push b) as [|x l IH]; [constructor|]. cbn in ND |- *. inversion ND as [|? ? N1 N2]; subst. constructor; [|apply IH; [exact N2|intros; apply EK; right; assumption]].
      intros X. apply in_map_iff in X. destruct X as (y & Ey & Hy). apply N1. apply in_map_iff. exists y. split; [|exact Hy]. rewrite (EK y (or_intror Hy)), (EK x (or_introl eq_refl)) in Ey. congruence. }
    { intros c Ls Hc _ HLs. apply class_push; assumption. }
    { lia. } { exact Hk. } { exact HD. }
    destruct (object_members rc_pull own_pull (fun b => transferable b /\ distinct_members b)) with (n := S (N.to_nat (cr_id (k_rec k)))) (k := k) as (Lq & Mq & AQ & TQ).
    { intros b x Hx. destruct (own_pull_pulled _ _ Hx) as (-> & _). reflexivity. }
    { intros b [_ D]. apply own_pull_nodup, D. }
    { intros c Ls Hc [Tc _] HLs. apply class_pull; assumption. }
    { lia. } { exact Hk. } { exact HB. }
    destruct (JsonRoundTrip.push_members G J H _ _ Mp) as (d1 & PP). destruct (JsonRoundTrip.pull_members G J H _ _ Mq) as (d2 & PQ).
    assert (ND1 : pushed_apart Lp).
    { intros x y Hx Hy E. apply AP in Hx. destruct Hx as (b & Hb & Hx). apply AP in Hy. destruct Hy as (b' & Hb' & Hy). destruct (own_push_pushed _ _ Hx) as (_ & P1 & _). destruct (own_push_pushed _ _ Hy) as (_ & P2 & _).
      rewrite <- E in P2. assert (b' = b) by (symmetry; apply (NA b b' _ Hb Hb' P1 P2)). subst b'. eapply nodup_same; [apply own_push_nodup, (HD b Hb)| | |]; eassumption. }
    assert (ND1' : two_levels o ds k -> NoDup (map jf_name Lp)).
    { intros T. assert (NR : forall b, ~ revisited o ds k b) by (intros b (c & P1 & D1 & P2 & D2); apply D2, (T c b P1 D1 P2)).
      assert (FF : ForallOrdPairs (fun x y => jf_name x = jf_name y -> False) Lp).
      { eapply FOP_weak; [|exact TP]. intros x y Hx Hy Hxy E. assert (x = y) as <- by (apply ND1; assumption). destruct (Hxy eq_refl) as (b & Rb & _). exact (NR b Rb). }
      clear - FF. induction FF as [|x l Fx F IH]; cbn; constructor; [|exact IH]. intros X. apply in_map_iff in X. destruct X as (y & Ey & Hy). rewrite Forall_forall in Fx. exact (Fx y Hy (eq_sym Ey)). }
    assert (ND2 : pulled_again G Lq).
    { eapply FOP_weak; [|exact TQ]. intros x y _ _ Hxy E. destruct (Hxy E) as (b & Rb & Hx & Hy). split; [eapply nodup_same; [apply own_pull_nodup, HD; eapply jrevisited_part; eauto| | |]; eassumption|].
      destruct (own_pull_pulled _ _ Hx) as (_ & P & M). eapply HRP; eauto. }
    assert (IN : incl Lq Lp).
    { intros x Hx. apply AQ in Hx. destruct Hx as (b & Hb & Hx). apply AP. exists b. split; [exact Hb|]. exact (own_pull_incl b (proj2 (HT b Hb)) x Hx). }
    destruct (gather (fun F fd j => exists old v, (In fd Lq -> alookup fkey_eqb (jf_key fd) os = Some old) /\ alookup fkey_eqb (jf_key fd) fs = Some v /\ jgood G J H ex (jf_ty fd) old v
        /\ spec G J H ex (jf_ty fd) old v F j) Lp) as (F & jl & FA).
    { intros F F' x j L (old & v & A & B & C & D). exists old, v. split; [exact A|]. split; [exact B|]. split; [exact C|eapply spec_more; eauto]. }
    { intros x Hx. assert (Hx0 := Hx). apply AP in Hx. destruct Hx as (b & Hb & Hx). destruct (own_push_pushed _ _ Hx) as (Ek & P1 & P2). destruct (HV b _ _ Hb P1 P2) as (old & v & A & B & C).
      destruct (round_trip G J H HA HP _ _ _ _ C) as (F & j & S). exists F, j, old, v. rewrite Ek. split; [|auto]. intros Hq. apply A. apply AQ in Hq. destruct Hq as (b' & Hb' & Hq).
      destruct (own_pull_pulled _ _ Hq) as (Ek' & Q1 & _). assert (b' = b); [|subst b'; exact Q1]. symmetry. apply (NA b b' (jf_name x) Hb Hb' P1).
      assert (X := own_pull_incl b' (proj2 (HT b' Hb')) x Hq). apply own_push_pushed in X. apply X. }
    set (ms := combine (map jf_name Lp) jl).
    assert (LE : length (map jf_name Lp) = length jl) by (rewrite map_length; apply (proj1 (Forall2_comb _ _ _ FA))).
    assert (FN : map fst ms = map jf_name Lp).
    { unfold ms. clear - LE. revert jl LE. induction (map jf_name Lp) as [|n l IH]; intros [|j jl] E; cbn in *; try discriminate; [reflexivity|]. rewrite IH by congruence. reflexivity. }
    exists (F + d1 + d2)%nat, ms. intros f Hf.
    assert (EP : push_cls G J H (S f) (cr_id (k_rec k)) fs [] = ROk ms).
    { apply (PP F fs jl [] (S f)); [|lia]. eapply Forall2_imp; [|exact FA]. intros x j _ (old & v & _ & B & _ & S1 & _). exists v. split; [exact B|]. intros g Hg. apply S1, Hg. }
    split; [rewrite (C56_text_pushes o ds G J resolve W R (jpr_names _ _ _ _ _ _ BP) (jpr_resolve _ _ _ _ _ _ BP) (jpr_file _ _ _ _ _ _ BP) k rc mtype Hk HC GC DT); exact EP|].
    split; [rewrite FN; exact ND1'|]. split.
    { intros n. rewrite FN, in_map_iff. split.
      - intros (x & <- & Hx). apply AP in Hx. destruct Hx as (b & Hb & Hx). exists b. split; [exact Hb|]. apply (own_push_pushed _ _ Hx).
      - intros (b & Hb & (d & Hd & acc & c & t & -> & A)). exists {| jf_name := n; jf_key := (cr_id (k_rec b), n); jf_ty := t |}. split; [reflexivity|]. apply AP. exists b. split; [exact Hb|].
        apply own_push_in. eauto 10. }
    split.
    { intros TT D Fi Su. assert (Wi : ints_ok (JObj ms)).
      { apply ints_obj. assert (FJ : Forall ints_ok jl).
        { eapply Forall2_Forall_r; [exact FA|]. intros x j _ (old & v & _ & _ & C & S1 & _). destruct (S1 F (le_n _)) as [E1 _]. exact (proj1 (pushed_ints G J H F) _ _ _ _ _ C E1). }
        unfold ms. clear - FJ. revert FJ. generalize (map jf_name Lp). intros l. revert jl. induction l as [|n l IH]; intros [|j jl] FJ; cbn; constructor; inversion FJ; subst; cbn; auto. }
      destruct (doc_complete TT (JObj ms) D Wi Fi) as (j' & Rp & P1). apply (reparsed_same TT (JObj ms) Su) in Rp. subst j'. exact P1. }
    intros h er. destruct (PQ F ex fs os ms (S f) ND2) with (h := h) (er := er) as (os' & h' & er' & RR & HX & NE & PO); [|lia|].
    { intros fd Hfd. destruct (lookup_pushed Lp jl fd _ ND1 FA (IN fd Hfd)) as (j & Ej & old & v & A & B & C & S1 & _). exists v, j, old. split; [exact Ej|]. split; [exact B|]. split; [exact (A Hfd)|].
      exists old. split; [apply again_old|]. intros g o' Hg Ho. apply S1; assumption. }
    exists os', h', er'. split.
    { rewrite (C56_text_pulls o ds G J resolve W R (jpr_names _ _ _ _ _ _ BP) (jpr_resolve _ _ _ _ _ _ BP) (jpr_file _ _ _ _ _ _ BP) k rc mtype Hk HC GC DT (proj1 (HT k (or_introl eq_refl)))). exact RR. }
    split; [exact HX|]. split.
    { assert (C := pull_cls_ctx G J (S f) (cr_id (k_rec k)) os ms {| p_heap := h; p_err := er |}). rewrite RR in C. exact (quiet_of _ _ C NE). }
    split.
    - intros b n t Hb P M. assert (Hx := pulled_own b n t (HD b Hb) P M).
      destruct (po_in _ _ _ _ _ _ _ _ _ PO _ (proj2 (AQ _) (ex_intro _ b (conj Hb Hx)))) as (v & v' & A & B & C & D). exists v, v'. split; [exact A|]. split; [exact B|]. split; [apply C, newin_refl|exact D].
    - intros key Hn. apply (po_out _ _ _ _ _ _ _ _ _ PO). intros X. apply in_map_iff in X. destruct X as (x & Ex & Hx). apply AQ in Hx. destruct Hx as (b & Hb & Hx).
      destruct (own_pull_pulled _ _ Hx) as (Ek & S & _). apply (Hn b (jf_name x) Hb S). congruence.
  Qed.
End Json.
