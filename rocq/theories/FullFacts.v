(** FullFacts.v -- generated binary code from declarations to restored objects *)
From Coq Require Import String List NArith ZArith Bool Lia.
From Verif Require Import Base BaseFacts Bytes Types TypesFacts BinModel FuelFacts BinSpec BinRoundTrip BinTotal BinFacts GenModel GenSem GenFacts GenSpec GenMarkers GenSelect GenLink CxxText CxxTop EvolveGen PropertiesCxx FullSpec.
Import ListNotations.
Local Open Scope list_scope.
Local Open Scope N_scope.

Definition own_of (b : rclass) (ver : N) : list visit :=
  map (mkvisit (version_of b ver) (version_of b ver)) (filter (visible (version_of b ver)) (members (befriends (k_rec b) fn_write) (cr_id (k_rec b)) (cr_decls (k_rec b)) 0 0)).

Lemma member_declared priv c ds : forall a u fd, In fd (members priv c ds a u) -> fst (bf_key fd) = c /\ exists acc, In (MField (snd (bf_key fd)) acc false (bf_ty fd)) ds.
Proof.
  induction ds as [|d ds IH]; intros a u fd; cbn [members]; [intros []|]. destruct d as [n l|n acc const t|].
  - destruct (bounds n l a u) as [a' u']. intros H. destruct (IH _ _ _ H) as (E & x & Hx). split; [exact E|]. exists x. right; exact Hx.
  - destruct (negb const && (priv || is_public acc)) eqn:A; [|intros H; destruct (IH _ _ _ H) as (E & x & Hx); split; [exact E|]; exists x; right; exact Hx].
    intros [<-|H]; [|destruct (IH _ _ _ H) as (E & x & Hx); split; [exact E|]; exists x; right; exact Hx].
    cbn. split; [reflexivity|]. exists acc. destruct const; [discriminate|]. left; reflexivity.
  - intros H. destruct (IH _ _ _ H) as (E & x & Hx). split; [exact E|]. exists x. right; exact Hx.
Qed.
Lemma members_nodup priv c ds : forall a u, NoDup (member_names ds) -> NoDup (map bf_key (members priv c ds a u)).
Proof.
  induction ds as [|d ds IH]; intros a u ND; cbn [members]; [constructor|]. destruct d as [n l|n acc const t|]; [destruct (bounds n l a u); apply IH, ND| |apply IH, ND].
  cbn in ND. inversion ND as [|? ? N1 N2]; subst. destruct (negb const && (priv || is_public acc)); [|apply IH, N2]. cbn. constructor; [|apply IH, N2].
  intros X. apply in_map_iff in X. destruct X as (fd & E & Hfd). destruct (member_declared _ _ _ _ _ _ Hfd) as (_ & acc' & Hin). rewrite E in Hin. apply N1.
  unfold member_names. apply in_flat_map. exists (MField n acc' false (bf_ty fd)). split; [exact Hin|left; reflexivity].
Qed.
Lemma nodup_filter_map {A B} (f : A -> B) p l : NoDup (map f l) -> NoDup (map f (filter p l)).
Proof.
  induction l as [|a l IH]; intros ND; [exact ND|]. cbn in ND. inversion ND as [|? ? N1 N2]; subst. cbn. destruct (p a); [|apply IH, N2]. cbn. constructor; [|apply IH, N2].
  intros X. apply N1. apply in_map_iff in X. destruct X as (y & E & Hy). apply in_map_iff. exists y. split; [exact E|]. apply filter_In in Hy. apply Hy.
Qed.
Lemma NoDup_snoc {A} (l : list A) a : NoDup l -> ~ In a l -> NoDup (l ++ [a]).
Proof.
  induction l as [|x l IH]; intros ND Ha; cbn; [repeat constructor; intros []|]. inversion ND as [|? ? N1 N2]; subst. constructor; [|apply IH; [exact N2|intros X; apply Ha; right; exact X]].
  rewrite in_app_iff. intros [X|[<-|[]]]; [exact (N1 X)|apply Ha; left; reflexivity].
Qed.
Lemma field_type_unique ds n a c t a' c' t' : NoDup (member_names ds) -> In (MField n a c t) ds -> In (MField n a' c' t') ds -> t = t'.
Proof.
  induction ds as [|d ds IH]; intros ND H1 H2; [destruct H1|].
  assert (Q : forall x y z, In (MField n x y z) ds -> In n (member_names ds)) by (intros x y z X; apply in_flat_map; eexists; split; [exact X|left; reflexivity]).
  destruct H1 as [->|H1], H2 as [E|H2].
  - congruence.
  - cbn in ND. inversion ND; subst. exfalso. eauto.
  - subst d. cbn in ND. inversion ND; subst. exfalso. eauto.
  - apply IH; auto. destruct d; cbn in ND; [exact ND|inversion ND; assumption|exact ND].
Qed.

Lemma own_spec b ver x : In x (own_of b ver) <-> exists n t acc, x = {| vi_key := (cr_id (k_rec b), n); vi_ty := t; vi_w := version_of b ver; vi_r := version_of b ver |}
    /\ In {| bf_asof := fst acc; bf_until := snd acc; bf_key := (cr_id (k_rec b), n); bf_ty := t |}
          (filter (visible (version_of b ver)) (members (befriends (k_rec b) fn_write) (cr_id (k_rec b)) (cr_decls (k_rec b)) 0 0)).
Proof.
  unfold own_of. rewrite in_map_iff. split.
  - intros (fd & <- & Hfd). assert (Hm := proj1 (proj1 (filter_In _ _ _) Hfd)). destruct (member_declared _ _ _ _ _ _ Hm) as (E & _).
    destruct fd as [a u [c n] t]. cbn in E. subst c. exists n, t, (a, u). split; [reflexivity|exact Hfd].
  - intros (n & t & acc & -> & Hfd). eexists. split; [|exact Hfd]. reflexivity.
Qed.
(** the members of [own_of]: those which are serialized *)
Lemma own_serialized b ver x : In x (own_of b ver) -> exists n t, vi_key x = (cr_id (k_rec b), n) /\ vi_ty x = t /\ vi_w x = version_of b ver /\ vi_r x = version_of b ver
    /\ serialized b ver n /\ has_member b n t.
Proof.
  intros Hx. apply own_spec in Hx. destruct Hx as (n & t & acc & -> & Hfd). exists n, t. cbn. do 4 (split; [reflexivity|]).
  assert (Hm := proj1 (proj1 (filter_In _ _ _) Hfd)). destruct (member_declared _ _ _ _ _ _ Hm) as (_ & ac & Hin). cbn in Hin. split; [|exists ac, false; exact Hin].
  exists (map (fun fd => snd (bf_key fd)) (filter (visible (version_of b ver)) (members (befriends (k_rec b) fn_write) (cr_id (k_rec b)) (cr_decls (k_rec b)) 0 0))).
  split; [apply members_selected, bounds_ok_nil|]. apply in_map_iff. eexists. split; [|exact Hfd]. reflexivity.
Qed.
Lemma serialized_own b ver n t : distinct_members b -> serialized b ver n -> has_member b n t ->
  In {| vi_key := (cr_id (k_rec b), n); vi_ty := t; vi_w := version_of b ver; vi_r := version_of b ver |} (own_of b ver).
Proof.
  intros DM (names & S & Hn) (acc & cst & Hin). rewrite (selected_fun _ _ _ _ _ S _ (members_selected _ (cr_id (k_rec b)) _ _ [] 0 0 bounds_ok_nil)) in Hn.
  apply in_map_iff in Hn. destruct Hn as (fd & En & Hfd). assert (Hm := proj1 (proj1 (filter_In _ _ _) Hfd)). destruct (member_declared _ _ _ _ _ _ Hm) as (E & ac & Hin'). rewrite En in Hin'.
  apply in_map_iff. exists fd. split; [|exact Hfd]. unfold mkvisit. destruct fd as [a u [c m] t']. cbn in *. subst c m. rewrite (field_type_unique _ _ _ _ _ _ _ _ DM Hin Hin'). reflexivity.
Qed.

Section Bin.
  Variables (o : gopts) (ds : list decl) (G : genv) (resolve : bytes -> option N) (W R : rclass -> list node).
  Hypothesis BP : binary_program o ds G resolve W R.
  Notation bases := (find_bases ds (relevant_classes o ds)).

  Lemma part_iff k b : part_of o ds k b <-> b = k \/ In b (bases k).
  Proof. unfold part_of. rewrite (find_bases_spec o ds k b (bpr_defined _ _ _ _ _ _ BP) (bpr_bases _ _ _ _ _ _ BP)). reflexivity. Qed.
  Lemma class_visits k ver Ls : In k (relevant_classes o ds) -> restorable k ver -> Forall2 (visits G ver 0) (map (fun b => cr_id (k_rec b)) (bases k)) Ls ->
    visits G ver 0 (cr_id (k_rec k)) (concat Ls ++ own_of k ver).
  Proof.
    intros Hk (D & F & V0 & V1) HLs. destruct (bpr_code _ _ _ _ _ _ BP k Hk) as (rc & HC & [_ GW GR]). unfold reader_prog in GR. rewrite D in GR.
    apply visits_intro with (rc := rc) (pr := {| bp_bases := map (fun b => cr_id (k_rec b)) (bases k); bp_vmax := class_version k; bp_fields := members (befriends (k_rec k) fn_read) (cr_id (k_rec k)) (cr_decls (k_rec k)) 0 0; bp_ret0 := false |});
      [exact HC|exact GR|rewrite GW; reflexivity|rewrite GW; reflexivity|rewrite GW; exact HLs|]. rewrite GW. cbn [bp_vmax bp_fields writer_prog]. rewrite <- F. unfold own_of, version_of.
    destruct (class_version k =? 0) eqn:E.
    - apply N.eqb_eq in E. rewrite (V0 E). split; reflexivity.
    - apply N.eqb_neq in E. destruct (V1 E) as [A B]. exists (if ver =? 0 then class_version k else ver). split; [reflexivity|].
      assert (Q: (if ver =? 0 then class_version k else ver) <= class_version k) by (destruct (ver =? 0); [apply N.le_refl|exact A]).
      split; [exact Q|]. split; [eapply N.le_lt_trans; eauto|]. split; reflexivity.
  Qed.
  Lemma own_nodup b ver : distinct_members b -> NoDup (map vi_key (own_of b ver)).
  Proof. intros D. unfold own_of. rewrite map_map. cbn [mkvisit vi_key]. apply nodup_filter_map, members_nodup, D. Qed.
  Lemma own_key b ver x : In x (own_of b ver) -> fst (vi_key x) = cr_id (k_rec b).
  Proof. intros Hx. destruct (own_serialized _ _ _ Hx) as (n & t & -> & _). reflexivity. Qed.
  Lemma same_class b b' : In b (relevant_classes o ds) -> In b' (relevant_classes o ds) -> cr_id (k_rec b) = cr_id (k_rec b') -> b = b'.
  Proof.
    intros H1 H2 E. assert (ND := bpr_once _ _ _ _ _ _ BP). clear - ND H1 H2 E. induction (relevant_classes o ds) as [|c l IH]; [destruct H1|]. cbn in ND. inversion ND as [|? ? N1 N2]; subst.
    destruct H1 as [->|H1], H2 as [->|H2]; [reflexivity| | |apply IH; assumption]; exfalso; apply N1; [rewrite E|rewrite <- E]; apply (in_map (fun k => cr_id (k_rec k))); assumption.
  Qed.
  Lemma part_relevant k b : In k (relevant_classes o ds) -> part_of o ds k b -> In b (relevant_classes o ds).
  Proof. intros Hk [->|(Hb & _)]; assumption. Qed.
  Lemma part_trans k c b : part_of o ds k c -> part_of o ds c b -> part_of o ds k b.
  Proof.
    intros [->|(H1 & N1 & D1)] [->|(H2 & N2 & D2)]; [left; reflexivity|right; auto|right; auto|]. right. split; [exact H2|].
    assert (D : derives ds (cr_id (k_rec k)) (cr_id (k_rec b))).
    { clear - D1 D2. induction D1 as [r x b' Hin Hc Hx I|r x d b' Hin Hc Hx I D IH]; [eapply der_step; eauto|eapply der_step; eauto]. }
    split; [|exact D]. apply (derives_lt ds (bpr_bases _ _ _ _ _ _ BP)) in D. lia.
  Qed.
  Lemma part_lt k b : part_of o ds k b -> b <> k -> cr_id (k_rec b) < cr_id (k_rec k).
  Proof. intros [->|(_ & _ & D)] Ne; [congruence|]. apply (derives_lt ds (bpr_bases _ _ _ _ _ _ BP)) in D. exact D. Qed.

  Definition twice (k : rclass) (ver : N) (x y : visit) : Prop := vi_key x = vi_key y -> exists b, revisited o ds k b /\ In x (own_of b ver) /\ In y (own_of b ver).
  Lemma FOP_intro {A} (P : A -> A -> Prop) l m : ForallOrdPairs P l -> ForallOrdPairs P m -> (forall x y, In x l -> In y m -> P x y) -> ForallOrdPairs P (l ++ m).
  Proof.
    intros F Hm HX. induction F as [|a l Fa F IH]; cbn; [exact Hm|]. constructor; [|apply IH; intros; apply HX; [right; assumption|assumption]].
    apply Forall_app. split; [exact Fa|]. apply Forall_forall. intros y Hy. apply HX; [left; reflexivity|exact Hy].
  Qed.
  Lemma FOP_weak {A} (P Q : A -> A -> Prop) l : (forall x y, In x l -> In y l -> P x y -> Q x y) -> ForallOrdPairs P l -> ForallOrdPairs Q l.
  Proof.
    intros HI F. induction F as [|a l Fa F IH]; constructor.
    - rewrite Forall_forall in *. intros y Hy. apply HI; [left; reflexivity|right; exact Hy|apply Fa; exact Hy].
    - apply IH. intros x y Hx Hy. apply HI; right; assumption.
  Qed.
  Lemma object_visits ver : forall n k, (N.to_nat (cr_id (k_rec k)) < n)%nat -> In k (relevant_classes o ds) -> (forall b, part_of o ds k b -> restorable b ver /\ distinct_members b) ->
    exists L, visits G ver 0 (cr_id (k_rec k)) L /\ (forall x, In x L <-> exists b, part_of o ds k b /\ In x (own_of b ver)) /\ ForallOrdPairs (twice k ver) L.
  Proof.
    induction n as [|n IH]; intros k Hn Hk HB; [lia|].
    assert (HLs : exists Ls, Forall2 (visits G ver 0) (map (fun b => cr_id (k_rec b)) (bases k)) Ls
      /\ Forall2 (fun c L => (forall x, In x L <-> exists b, part_of o ds c b /\ In x (own_of b ver)) /\ ForallOrdPairs (twice c ver) L) (bases k) Ls).
    { assert (P : forall c, In c (bases k) -> exists L, visits G ver 0 (cr_id (k_rec c)) L /\ (forall x, In x L <-> exists b, part_of o ds c b /\ In x (own_of b ver)) /\ ForallOrdPairs (twice c ver) L).
      { intros c Hc. assert (Pc : part_of o ds k c) by (apply part_iff; right; exact Hc). apply IH.
        - destruct (proj1 (find_bases_spec o ds k c (bpr_defined _ _ _ _ _ _ BP) (bpr_bases _ _ _ _ _ _ BP)) Hc) as (_ & _ & D). apply (derives_lt ds (bpr_bases _ _ _ _ _ _ BP)) in D. lia.
        - eapply part_relevant; eauto.
        - intros b Hb. apply HB. eapply part_trans; eauto. }
      clear - P. induction (bases k) as [|c l IHl]; [exists []; split; constructor|]. destruct (P c (or_introl eq_refl)) as (L & V & Q). destruct IHl as (Ls & F1 & F2); [intros; apply P; right; assumption|].
      exists (L :: Ls). split; constructor; auto. }
    destruct HLs as (Ls & F1 & F2). exists (concat Ls ++ own_of k ver). split; [apply class_visits; [exact Hk|apply HB; left; reflexivity|exact F1]|].
    assert (HC : forall x, In x (concat Ls) <-> exists c b, In c (bases k) /\ part_of o ds c b /\ In x (own_of b ver)).
    { intros x. clear - F2. induction F2 as [|c L bs Ls (Q & _) F IH]; cbn; [split; [intros []|intros (c & b & [] & _)]|]. rewrite in_app_iff, Q, IH. split.
      - intros [(b & Hb & Hx)|(c' & b & Hc & Hb & Hx)]; [exists c, b|exists c', b]; auto.
      - intros (c' & b & [<-|Hc] & Hb & Hx); [left; eauto|right; exists c', b; auto]. }
    split.
    - intros x. rewrite in_app_iff, HC. split.
      + intros [(c & b & Hc & Hb & Hx)|Hx]; [exists b; split; [eapply part_trans; [apply part_iff; right; exact Hc|exact Hb]|exact Hx]|exists k; split; [left; reflexivity|exact Hx]].
      + intros (b & Hb & Hx). apply part_iff in Hb. destruct Hb as [->|Hb]; [right; exact Hx|left]. exists b, b. split; [exact Hb|]. split; [left; reflexivity|exact Hx].
    - assert (NB : NoDup (bases k)) by (apply (NoDup_map_inv (fun b => cr_id (k_rec b))); unfold find_bases; apply nodup_filter_map, (bpr_once _ _ _ _ _ _ BP)).
      assert (KB : forall c, In c (bases k) -> part_of o ds k c /\ c <> k).
      { intros c Hc. split; [apply part_iff; right; exact Hc|]. apply (find_bases_spec o ds k c (bpr_defined _ _ _ _ _ _ BP) (bpr_bases _ _ _ _ _ _ BP)) in Hc. destruct Hc as (_ & Ne & _). intros ->; congruence. }
      apply FOP_intro.
      + clear HC F1. revert NB KB. induction F2 as [|c L bs Ls (Q & T) F IHF]; intros NB KB; cbn; [constructor|]. inversion NB as [|? ? N1 N2]; subst.
        destruct (KB c (or_introl eq_refl)) as [Kc Nc]. apply FOP_intro.
        * eapply FOP_weak; [|exact T]. intros x y _ _ Hxy E. destruct (Hxy E) as (b & (d & P1 & D1 & P2 & D2) & B1 & B2). exists b. split; [|auto].
          exists c. do 2 (split; [assumption|]). split; [eapply part_trans; eauto|]. intros ->. pose proof (part_lt _ _ P1 D1). pose proof (part_lt _ _ P2 D2). lia.
        * apply IHF; [exact N2|intros; apply KB; right; assumption].
        * intros x y Hx Hy E. apply Q in Hx. destruct Hx as (b & Hb & Hx).
          assert (exists c' b', In c' bs /\ part_of o ds c' b' /\ In y (own_of b' ver)) as (c' & b' & Hc' & Hb' & Hy').
          { clear - F Hy. induction F as [|c0 L0 bs Ls (Q & _) F IH]; cbn in Hy; [destruct Hy|]. apply in_app_iff in Hy. destruct Hy as [Hy|Hy].
            - apply Q in Hy. destruct Hy as (b & Hb & Hy). exists c0, b. split; [left; reflexivity|auto].
            - destruct (IH Hy) as (c1 & b & Hc & R1). exists c1, b. split; [right; exact Hc|exact R1]. }
          destruct (KB c' (or_intror Hc')) as [Kc' Nc']. assert (Rc := part_relevant _ _ Hk Kc). assert (Rc' := part_relevant _ _ Hk Kc').
          assert (b' = b) as ->. { apply same_class; [eapply part_relevant; [exact Rc'|eassumption]|eapply part_relevant; [exact Rc|eassumption]|]. rewrite <- (own_key _ _ _ Hx), <- (own_key _ _ _ Hy'), E. reflexivity. }
          exists b. split; [|auto]. assert (c <> c') by (intros ->; contradiction). destruct (N.eq_dec (cr_id (k_rec b)) (cr_id (k_rec c))) as [Eb|Nb].
          -- exists c'. do 2 (split; [assumption|]). split; [exact Hb'|]. intros ->. apply H. symmetry. apply same_class; assumption.
          -- exists c. do 2 (split; [assumption|]). split; [exact Hb|]. intros ->; congruence.
      + assert (ND := own_nodup k ver (proj2 (HB k (or_introl eq_refl)))). clear - ND. induction (own_of k ver) as [|x l IH]; constructor; cbn in ND; inversion ND as [|? ? N1 N2]; subst; [|apply IH, N2].
        apply Forall_forall. intros y Hy E. exfalso. apply N1. rewrite E. apply in_map. exact Hy.
      + intros x y Hx Hy E. exfalso. apply HC in Hx. destruct Hx as (c & b & Hc & Hb & Hx). destruct (KB c Hc) as [Kc Nc]. apply own_key in Hx. apply own_key in Hy. rewrite E, Hy in Hx.
        pose proof (part_lt _ _ Kc Nc). destruct Hb as [->|(_ & _ & D)]; [lia|]. apply (derives_lt ds (bpr_bases _ _ _ _ _ _ BP)) in D. lia.
  Qed.
  Lemma same_own b ver x y : distinct_members b -> In x (own_of b ver) -> In y (own_of b ver) -> vi_key x = vi_key y -> x = y.
  Proof.
    intros D. assert (ND := own_nodup b ver D). intros Hx Hy E. revert Hx Hy ND. induction (own_of b ver) as [|z l IH]; intros Hx Hy ND; [destruct Hx|]. cbn in ND. inversion ND as [|? ? N1 N2]; subst.
    destruct Hx as [->|Hx], Hy as [->|Hy]; [reflexivity| | |apply IH; assumption]; exfalso; apply N1; [rewrite E|rewrite <- E]; apply in_map; assumption.
  Qed.
  Lemma revisited_part k b : revisited o ds k b -> part_of o ds k b.
  Proof. intros (c & P1 & _ & P2 & _). eapply part_trans; eauto. Qed.
End Bin.

Section BinTop.
  Variables (o : gopts) (ds : list decl) (G : genv) (resolve : bytes -> option N) (W R : rclass -> list node).
  Hypothesis BP : binary_program o ds G resolve W R.

  Lemma restored_is k ver : In k (relevant_classes o ds) -> restorable k ver -> restored_version G ver 0 (cr_id (k_rec k)) = version_of k ver.
  Proof.
    intros Hk (D & F & V0 & V1). destruct (bpr_code _ _ _ _ _ _ BP k Hk) as (rc & HC & [_ GW GR]). unfold reader_prog in GR. rewrite D in GR. unfold restored_version. rewrite HC, GR, GW. unfold version_of.
    cbn [writer_prog bp_vmax]. destruct (class_version k =? 0) eqn:E; [apply N.eqb_eq in E; rewrite (V0 E)|]; reflexivity.
  Qed.

  Theorem full_binary H ex ver k mtype vmax fs os :
    alloc_ok G -> place_ok G -> heap_good G H ->
    In k (relevant_classes o ds) ->
    (forall b, part_of o ds k b -> restorable b ver /\ distinct_members b) ->
    (forall b n t, revisited o ds k b -> serialized b ver n -> has_member b n t -> rereadable G (version_of b ver) (version_of b ver) t) ->
    declared_types k mtype -> version_constant vmax k ->
    (forall b n t, part_of o ds k b -> serialized b ver n -> has_member b n t -> exists old v,
       alookup fkey_eqb (cr_id (k_rec b), n) os = Some old /\ alookup fkey_eqb (cr_id (k_rec b), n) fs = Some v
       /\ good G H ex (version_of b ver) (version_of b ver) t old v) ->
    exists F, forall f, (F <= f)%nat -> exists bs Ws e,
      run_write vmax (lib_write_base G H f resolve fs) (lib_write_member G H f (cr_id (k_rec k)) mtype fs) lib_write_varint (W k) ver ([], []) = ROk (e, (bs, Ws))
      /\ forall h0 rest, exists os' h' ptrs ro,
        run_read vmax (lib_read_base G f resolve) (lib_read_member G f (cr_id (k_rec k)) mtype) lib_read_varint (R k) 0 (os, bs ++ rest, {| r_heap := h0; r_ptr := [] |})
          = ROk (version_of k ver, (os', rest, {| r_heap := h'; r_ptr := ptrs |}))
        /\ graph_iso G H h0 h' ro
        /\ (forall b n t, part_of o ds k b -> serialized b ver n -> has_member b n t -> exists v v',
              alookup fkey_eqb (cr_id (k_rec b), n) fs = Some v /\ alookup fkey_eqb (cr_id (k_rec b), n) os' = Some v' /\ same_value G ro t v v')
        /\ (forall key, (forall b n, part_of o ds k b -> serialized b ver n -> key <> (cr_id (k_rec b), n)) -> alookup fkey_eqb key os' = alookup fkey_eqb key os).
  Proof.
    intros HA HP HG Hk HB HT DT VC HV. destruct (bpr_code _ _ _ _ _ _ BP k Hk) as (rc & HC & GC).
    assert (HR : forall b, part_of o ds k b -> restorable b ver) by (intros b Hb; apply HB, Hb). assert (HD : forall b, part_of o ds k b -> distinct_members b) by (intros b Hb; apply HB, Hb).
    destruct (object_visits o ds G resolve W R BP ver _ k (Nat.lt_succ_diag_r _) Hk HB) as (L & V & AI & TW).
    assert (ND : repeatable G L).
    { eapply FOP_weak; [|exact TW]. intros x y _ _ Hxy E. destruct (Hxy E) as (b & Rb & Hx & Hy). split; [eapply same_own; eauto; apply HD; eapply revisited_part; eauto|].
      destruct (own_serialized _ _ _ Hx) as (n & t & _ & -> & -> & -> & S & M). eapply HT; eauto. }
    clear TW.
    assert (HL : forall x, In x L -> exists old v, alookup fkey_eqb (vi_key x) os = Some old /\ alookup fkey_eqb (vi_key x) fs = Some v /\ good G H ex (vi_w x) (vi_r x) (vi_ty x) old v).
    { intros x Hx. apply AI in Hx. destruct Hx as (b & Hb & Hx). destruct (own_serialized _ _ _ Hx) as (n & t & -> & -> & -> & -> & S & M). exact (HV b n t Hb S M). }
    destruct (cls_total G H (unwritten H []) ver 0 fs _ L V) with (W := @nil N) as (F & bs & W' & E & _).
    { intros x Hx. destruct (HL x Hx) as (old & v & _ & Ev & Hg). exists v. split; [exact Ev|]. intros Ws HW. eapply (write_total_n G H HG (unwritten H [])); eauto. }
    { lia. }
    exists F. intros f Hle. assert (E' : write_cls G H (S f) ver (cr_id (k_rec k)) fs [] = ROk (bs, W')) by (eapply write_cls_more; [|exact E|discriminate]; lia).
    assert (TW := C56_text_writes o ds G resolve W R (bpr_names _ _ _ _ _ _ BP) (bpr_resolve _ _ _ _ _ _ BP) (bpr_file _ _ _ _ _ _ BP) k rc mtype vmax Hk HC GC DT VC H f fs ver []).
    rewrite E' in TW.
    destruct (run_write _ _ _ _ _ _ _) as [[e s]| | | |]; try discriminate. cbn in TW. injection TW as ->. exists bs, W', e. split; [reflexivity|]. intros h0 rest.
    destruct (class_round_trip G H ex (S f) ver 0 _ L fs os bs W' HA HP HG V ND HL E' h0 rest) as (os' & h' & ptrs & ro & RR & I & Q1 & Q2).
    exists os', h', ptrs, ro. rewrite (restored_is k ver Hk (HR k (or_introl eq_refl))) in RR.
    assert (TR := C56_text_reads o ds G resolve W R (bpr_names _ _ _ _ _ _ BP) (bpr_resolve _ _ _ _ _ _ BP) (bpr_file _ _ _ _ _ _ BP) k rc mtype vmax Hk HC GC DT VC (proj1 (HR k (or_introl eq_refl))) f os 0 (bs ++ rest) {| r_heap := h0; r_ptr := [] |}).
    rewrite RR in TR. split; [|split; [exact I|split]].
    - destruct (run_read _ _ _ _ _ _ _) as [[e' [[os1 s1] st1]]| | | |]; try discriminate. cbn in TR. injection TR as -> -> -> ->. reflexivity.
    - intros b n t Hb S M. assert (Hx := serialized_own b ver n t (HD b Hb) S M). destruct (Q1 _ (proj2 (AI _) (ex_intro _ b (conj Hb Hx)))) as (v & v' & A & B & C). exists v, v'. auto.
    - intros key Hn. apply Q2. intros X. apply in_map_iff in X. destruct X as (x & Ex & Hx). apply AI in Hx. destruct Hx as (b & Hb & Hx).
      destruct (own_serialized _ _ _ Hx) as (n & t & Ek & _ & _ & _ & S & _). apply (Hn b n Hb S). congruence.
  Qed.
End BinTop.
