(** EvolveGen.v -- which changes of a class keep the members of its previous versions *)
From Coq Require Import String List NArith ZArith Bool Lia.
From Verif Require Import Base BaseFacts Bytes Types TypesFacts BinModel BinSpec BinFacts GenModel GenSem GenFacts GenSpec GenSelect GenMarkers
  EvolveSpec EvolveFacts.
Import ListNotations.
Local Open Scope N_scope.

(** the bounds after the declarations [ds] *)
Fixpoint after (ds : list mdecl) (a u : N) : N * N :=
  match ds with
  | [] => (a, u)
  | MVar n l :: ds' => let (a', u') := bounds n l a u in after ds' a' u'
  | _ :: ds' => after ds' a u
  end.

Lemma members_app priv c ds2 : forall ds1 a u,
  members priv c (ds1 ++ ds2) a u = members priv c ds1 a u ++ members priv c ds2 (fst (after ds1 a u)) (snd (after ds1 a u)).
Proof.
  induction ds1 as [|d ds1 IH]; intros a u; [reflexivity|]. destruct d as [n l|n acc const t|]; cbn [app members after].
  - destruct (bounds n l a u) as [a' u']. apply IH.
  - rewrite IH. destruct (negb const && (priv || is_public acc)); reflexivity.
  - apply IH.
Qed.

Lemma after_ok ds : forall pre a u, bounds_ok pre a u -> bounds_ok (pre ++ ds) (fst (after ds a u)) (snd (after ds a u)).
Proof.
  induction ds as [|d ds IH]; intros pre a u Hb; [rewrite app_nil_r; exact Hb|].
  pose proof (bounds_ok_snoc _ _ _ d Hb) as Hn. replace (pre ++ d :: ds) with ((pre ++ [d]) ++ ds) by (rewrite <- app_assoc; reflexivity).
  destruct d as [n l|n acc const t|]; cbn [after].
  - destruct (bounds n l a u) as [a' u'] eqn:B. cbn [fst snd] in Hn. apply IH. exact Hn.
  - apply IH. exact Hn.
  - apply IH. exact Hn.
Qed.

Lemma late_invisible priv c ver : forall more a u, ver < a ->
  (forall x a', In x more -> as_of_marker x a' -> ver < a') ->
  (forall x u', In x more -> until_marker x u' -> a <= u' /\ forall y a', In y more -> as_of_marker y a' -> a' <= u') ->
  filter (visible ver) (members priv c more a u) = [].
Proof.
  induction more as [|d more IH]; intros a u Ha HA HU; [reflexivity|].
  assert (HA': forall x a', In x more -> as_of_marker x a' -> ver < a') by (intros x a' Hx; apply HA; right; exact Hx).
  assert (HU': forall b, (b = a \/ as_of_marker d b) -> forall x u', In x more -> until_marker x u' -> b <= u' /\ forall y a', In y more -> as_of_marker y a' -> a' <= u').
  { intros b Hb x u' Hx Hu. destruct (HU x u' (or_intror Hx) Hu) as [H1 H2]. split.
    - destruct Hb as [->|Hb]; [exact H1|]. apply (H2 d b (or_introl eq_refl) Hb).
    - intros y a' Hy. apply H2. right. exact Hy. }
  destruct (marker_cases d) as [(v & M & Q)|[(v & M & Q)|(N1 & N2 & Q)]].
  - destruct (Q a u) as [E Bd]. rewrite E. cbn [members]. rewrite Bd. apply IH.
    + apply (HA d v (or_introl eq_refl) M).
    + exact HA'.
    + apply HU'. right. exact M.
  - destruct (Q a u) as [E Bd]. rewrite E. cbn [members]. rewrite Bd.
    destruct (HU d v (or_introl eq_refl) M) as [Hle _]. replace (v <? a) with false by (symmetry; apply N.ltb_ge; exact Hle).
    apply IH; [exact Ha|exact HA'|apply HU'; left; reflexivity].
  - destruct d as [n l|n acc const t|]; cbn [members].
    + rewrite (Q n l eq_refl). apply IH; [exact Ha|exact HA'|apply HU'; left; reflexivity].
    + destruct (negb const && (priv || is_public acc)).
      * cbn [filter]. assert (V: visible ver {| bf_asof := a; bf_until := u; bf_key := (c, n); bf_ty := t |} = false).
        { unfold visible. cbn [bf_asof bf_until]. replace (a =? 0) with false by (symmetry; apply N.eqb_neq; lia).
          replace (a <=? ver) with false by (symmetry; apply N.leb_gt; exact Ha). reflexivity. }
        rewrite V. apply IH; [exact Ha|exact HA'|apply HU'; left; reflexivity].
      * apply IH; [exact Ha|exact HA'|apply HU'; left; reflexivity].
    + apply IH; [exact Ha|exact HA'|apply HU'; left; reflexivity].
Qed.

Lemma appended_members priv c old m more a ver :
  as_of_marker m a -> ver < a ->
  (forall x a', In x more -> as_of_marker x a' -> ver < a') ->
  (forall x u', In x more -> until_marker x u' -> a <= u' /\ forall y a', In y more -> as_of_marker y a' -> a' <= u') ->
  filter (visible ver) (members priv c (old ++ m :: more) 0 0) = filter (visible ver) (members priv c old 0 0).
Proof.
  intros HM Ha HA HU. rewrite members_app, filter_app.
  assert (E: filter (visible ver) (members priv c (m :: more) (fst (after old 0 0)) (snd (after old 0 0))) = []); [|rewrite E; apply app_nil_r].
  destruct (marker_cases m) as [(v & M & Q)|[(v & M & Q)|(N1 & N2 & Q)]].
  - destruct (Q (fst (after old 0 0)) (snd (after old 0 0))) as [E Bd]. rewrite (as_fun _ _ _ M HM) in *. rewrite E. cbn [members]. rewrite Bd.
    apply late_invisible; assumption.
  - destruct (as_until_excl _ _ _ HM M).
  - destruct (N1 _ HM).
Qed.

Lemma selected_iff friend ver ds names :
  selected friend ver [] ds names <-> names = map (fun fd => snd (bf_key fd)) (filter (visible ver) (members friend 0 ds 0 0)).
Proof.
  pose proof (members_selected friend 0 ver ds [] 0 0 bounds_ok_nil) as S. split.
  - intros S'. eapply selected_fun; eauto.
  - intros ->. exact S.
Qed.

Lemma appended_selects friend old m more a ver :
  as_of_marker m a -> ver < a ->
  (forall x a', In x more -> as_of_marker x a' -> ver < a') ->
  (forall x u', In x more -> until_marker x u' -> a <= u' /\ forall y a', In y more -> as_of_marker y a' -> a' <= u') ->
  forall names, selected friend ver [] (old ++ m :: more) names <-> selected friend ver [] old names.
Proof.
  intros HM Ha HA HU names. rewrite !selected_iff. rewrite (appended_members friend 0 old m more a ver HM Ha HA HU). reflexivity.
Qed.

Lemma retired_mid priv c ver u a (Hv : ver <= u) : forall mid, markerless mid ->
  map (mkvisit ver ver) (filter (visible ver) (members priv c mid a u)) = map (mkvisit ver ver) (filter (visible ver) (members priv c mid a 0)).
Proof.
  induction mid as [|d mid IH]; intros HM; [reflexivity|].
  assert (HM': markerless mid) by (intros x Hx; apply HM; right; exact Hx).
  destruct d as [n l|n acc const t|]; cbn [members].
  - assert (Bd: forall u0, bounds n l a u0 = (a, u0)).
    { destruct (HM _ (or_introl eq_refl)) as [N1 N2]. destruct (marker_cases (MVar n l)) as [(v & M & Q)|[(v & M & Q)|(_ & _ & Q)]];
      [destruct (N1 _ M)|destruct (N2 _ M)|]. intros u0. apply Q. reflexivity. }
    rewrite !Bd. apply IH. exact HM'.
  - destruct (negb const && (priv || is_public acc)); [|apply IH; exact HM'].
    cbn [filter].
    assert (V: visible ver {| bf_asof := a; bf_until := u; bf_key := (c, n); bf_ty := t |}
             = visible ver {| bf_asof := a; bf_until := 0; bf_key := (c, n); bf_ty := t |}).
    { unfold visible. cbn [bf_asof bf_until]. replace (ver <=? u) with true by (symmetry; apply N.leb_le; exact Hv).
      rewrite orb_true_r. reflexivity. }
    rewrite V. destruct (visible ver {| bf_asof := a; bf_until := 0; bf_key := (c, n); bf_ty := t |}); [|apply IH; exact HM'].
    cbn [map]. rewrite (IH HM'). reflexivity.
  - apply IH. exact HM'.
Qed.

Lemma retired_members priv c pre m mid u ver :
  until_marker m u -> ver <= u -> markerless mid ->
  (forall u', until_in_effect pre u' -> u' = 0) -> (forall a', as_of_in_effect pre a' -> a' <= u) ->
  map (mkvisit ver ver) (filter (visible ver) (members priv c (pre ++ m :: mid) 0 0))
  = map (mkvisit ver ver) (filter (visible ver) (members priv c (pre ++ mid) 0 0)).
Proof.
  intros HM Hv Hmid HU HA. rewrite !members_app, !filter_app, !map_app. f_equal.
  pose proof (after_ok pre [] 0 0 bounds_ok_nil) as [BA BU]. cbn [app] in BA, BU.
  set (a0 := fst (after pre 0 0)) in *. set (u0 := snd (after pre 0 0)) in *.
  assert (Eu: u0 = 0). { destruct (N.eq_dec u0 0) as [E|E]; [exact E|]. apply HU. apply BU; auto. }
  assert (Ea: a0 <= u). { destruct (N.eq_dec a0 0) as [E|E]; [lia|]. apply HA. apply BA; auto. }
  rewrite Eu.
  destruct (marker_cases m) as [(v & M & Q)|[(v & M & Q)|(N1 & N2 & Q)]].
  - destruct (as_until_excl _ _ _ M HM).
  - destruct (Q a0 0) as [E Bd]. rewrite (until_fun _ _ _ M HM) in *. rewrite E. cbn [members]. rewrite Bd.
    replace (u <? a0) with false by (symmetry; apply N.ltb_ge; exact Ea). apply retired_mid; assumption.
  - destruct (N2 _ HM).
Qed.

Lemma retired_selects friend pre m mid u ver :
  until_marker m u -> ver <= u -> markerless mid ->
  (forall u', until_in_effect pre u' -> u' = 0) -> (forall a', as_of_in_effect pre a' -> a' <= u) ->
  forall names, selected friend ver [] (pre ++ m :: mid) names <-> selected friend ver [] (pre ++ mid) names.
Proof.
  intros HM Hv Hmid HU HA names. rewrite !selected_iff.
  pose proof (retired_members friend 0 pre m mid u ver HM Hv Hmid HU HA) as E.
  apply (f_equal (map (fun x => snd (vi_key x)))) in E. rewrite !map_map in E. cbn [mkvisit vi_key] in E. rewrite E. reflexivity.
Qed.

Lemma appended_before old new n ver : appended old new n -> ver <= n -> forall priv c,
  map (mkvisit ver ver) (filter (visible ver) (members priv c new 0 0)) = map (mkvisit ver ver) (filter (visible ver) (members priv c old 0 0)).
Proof.
  intros (m & a & more & -> & HM & Ha & HA & HU) Hv priv c. rewrite (appended_members priv c old m more a ver HM); [reflexivity|lia| |exact HU].
  intros x a' Hx Hm. specialize (HA x a' Hx Hm). lia.
Qed.
Lemma evolves_members n old new : evolves n old new -> forall ver, ver <= n -> forall priv c,
  map (mkvisit ver ver) (filter (visible ver) (members priv c new 0 0)) = map (mkvisit ver ver) (filter (visible ver) (members priv c old 0 0)).
Proof.
  induction 1 as [ds|ds1 ds2 ds3 E IH HA|ds1 ds2 ds3 E IH HR]; intros ver Hv priv c; [reflexivity| |].
  - rewrite (appended_before _ _ _ _ HA Hv). apply IH. exact Hv.
  - destruct HR as (pre & m & u & mid & -> & -> & HM & Hu & Hmid & HU & HA).
    rewrite (retired_members priv c pre m mid u ver HM); [apply IH; exact Hv|lia|exact Hmid|exact HU|exact HA].
Qed.
Lemma evolves_selects n old new : evolves n old new -> forall ver, ver <= n -> forall friend names,
  selected friend ver [] new names <-> selected friend ver [] old names.
Proof.
  intros E ver Hv friend names. rewrite !selected_iff. pose proof (evolves_members _ _ _ E ver Hv friend 0) as Q.
  apply (f_equal (map (fun x => snd (vi_key x)))) in Q. rewrite !map_map in Q. cbn [mkvisit vi_key] in Q. rewrite Q. reflexivity.
Qed.

(** the generated functions of two states of a class access the same members if the declarations select the same ones
    with the same types *)
Lemma generated_evolves Gw Gr ow dw ork dr kw kr rcw rcr ver Ls :
  g_class Gw (cr_id (k_rec kw)) = Some rcw -> generated_binary ow dw kw rcw ->
  g_class Gr (cr_id (k_rec kr)) = Some rcr -> generated_binary ork dr kr rcr ->
  cr_id (k_rec kw) = cr_id (k_rec kr) -> cr_defctor (k_rec kr) = true ->
  befriends (k_rec kw) fn_write = befriends (k_rec kr) fn_read ->
  map (fun b => cr_id (k_rec b)) (find_bases dw (relevant_classes ow dw) kw)
    = map (fun b => cr_id (k_rec b)) (find_bases dr (relevant_classes ork dr) kr) ->
  Forall2 (visits (across Gw Gr) ver 0) (map (fun b => cr_id (k_rec b)) (find_bases dw (relevant_classes ow dw) kw)) Ls ->
  class_version kw <> 0 ->
  forall e, e = (if ver =? 0 then class_version kw else ver) -> e <= class_version kr -> e < 2 ^ 56 -> class_version kr <> 0 ->
  (forall priv c, map (mkvisit e e) (filter (visible e) (members priv c (cr_decls (k_rec kr)) 0 0))
     = map (mkvisit e e) (filter (visible e) (members priv c (cr_decls (k_rec kw)) 0 0))) ->
  exists own, visits (across Gw Gr) ver 0 (cr_id (k_rec kr)) (concat Ls ++ own)
    /\ selected (befriends (k_rec kw) fn_write) e [] (cr_decls (k_rec kw)) (map (fun x => snd (vi_key x)) own)
    /\ (forall x, In x own -> fst (vi_key x) = cr_id (k_rec kw) /\ vi_w x = e /\ vi_r x = e).
Proof.
  intros Hw [_ GW _] Hr [_ _ GR] Eid D F Eb HB Vw e He Hle H56 Vr Hm.
  exists (map (mkvisit e e) (filter (visible e) (members (befriends (k_rec kw) fn_write) (cr_id (k_rec kw)) (cr_decls (k_rec kw)) 0 0))).
  split; [|split].
  - unfold reader_prog in GR. rewrite D in GR. rewrite Eid in *.
    eapply visits_intro.
    + cbn [across g_class]. rewrite Hr, Hw. reflexivity.
    + cbn [rc_rd]. exact GR.
    + cbn [bp_bases rc_wr]. rewrite GW. cbn [writer_prog bp_bases]. symmetry. exact Eb.
    + cbn [bp_vmax rc_wr]. rewrite GW. cbn [writer_prog bp_vmax]. tauto.
    + cbn [rc_wr]. rewrite GW. cbn [writer_prog bp_bases]. exact HB.
    + cbn [rc_wr]. rewrite GW. cbn [writer_prog bp_vmax bp_fields]. apply N.eqb_neq in Vw. rewrite Vw.
      exists e. split; [exact He|]. split; [exact Hle|]. split; [exact H56|]. rewrite <- F. split; [|rewrite Eid; reflexivity].
      rewrite Eid. symmetry. apply Hm.
  - rewrite map_map. cbn [mkvisit vi_key]. apply (members_selected _ _ e _ [] 0 0 bounds_ok_nil).
  - intros x Hx. apply in_map_iff in Hx. destruct Hx as (fd & <- & Hf). apply filter_In in Hf. destruct Hf as [Hf _].
    cbn [mkvisit vi_key vi_w vi_r]. split; [|auto]. clear -Hf. revert Hf. generalize (cr_decls (k_rec kw)) as ds. generalize 0 at 1 as a. generalize 0 as u.
    intros u a ds. revert u a. induction ds as [|d ds IH]; intros u a; cbn [members]; [intros []|].
    destruct d as [n l|n acc const t|]; [destruct (bounds n l a u); apply IH| |apply IH].
    destruct (negb const && (_ || is_public acc)); [|apply IH]. intros [<-|Hin]; [reflexivity|eapply IH; eauto].
Qed.
