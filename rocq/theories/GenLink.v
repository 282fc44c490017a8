(** GenLink.v -- executing the generated statements is what the binary model does for the class *)
From Coq Require Import String List NArith ZArith Bool Lia.
From Verif Require Import Base BaseFacts Bytes Types TypesFacts BinModel BinSpec BinFacts GenModel GenSem GenFacts GenSpec GenSelect GenMarkers.
Import ListNotations.
Local Open Scope N_scope.

Lemma iter_acc {A B} (w : A -> list N -> res (bytes * list N)) (g : B -> A) (step : B -> bytes * list N -> res (bytes * list N)) l :
  (forall x out W, In x l -> step x (out, W) = (let! (o, W') := w (g x) W in ROk (out ++ o, W'))) ->
  forall out W, rd_iter step l (out, W) = (let! (o, W') := wr_iter w (map g l) W in ROk (out ++ o, W')).
Proof.
  induction l as [|x l IH]; intros Hs out W; cbn [rd_iter wr_iter map]; [cbn; rewrite app_nil_r; reflexivity|].
  rewrite (Hs x) by (left; reflexivity). destruct (w (g x) W) as [[o W']| | | |]; cbn [rbind]; try reflexivity.
  rewrite IH by (intros; apply Hs; right; assumption).
  destruct (wr_iter w (map g l) W') as [[o2 W2]| | | |]; cbn [rbind]; try reflexivity. rewrite app_assoc. reflexivity.
Qed.

Lemma member_keys priv c ds a u fd : In fd (members priv c ds a u) -> fst (bf_key fd) = c.
Proof.
  revert a u; induction ds as [|d ds IH]; intros a u; cbn [members]; [intros []|].
  destruct d as [n l|n acc const t|]; [destruct (bounds n l a u); apply IH| |apply IH].
  destruct (negb const && (priv || is_public acc)); [|apply IH]. intros [<-|Hin]; [reflexivity|eapply IH; eauto].
Qed.

Lemma wr_iter_filter {A} (p : A -> bool) (w : A -> list N -> res (bytes * list N)) l : forall W,
  wr_iter (fun x W => if p x then w x W else ROk ([], W)) l W = wr_iter w (filter p l) W.
Proof.
  induction l as [|x l IH]; intros W; cbn [wr_iter filter]; [reflexivity|].
  destruct (p x); cbn [wr_iter rbind].
  - apply rbind_ext. intros [b W1]. rewrite IH. reflexivity.
  - rewrite IH. destruct (wr_iter w (filter p l) W) as [[? ?]| | | |]; reflexivity.
Qed.
Lemma rd_iter_filter {A S} (p : A -> bool) (r : A -> S -> res S) l : forall s,
  rd_iter (fun x s => if p x then r x s else ROk s) l s = rd_iter r (filter p l) s.
Proof.
  induction l as [|x l IH]; intros s; cbn [rd_iter filter]; [reflexivity|].
  destruct (p x); cbn [rd_iter rbind]; [apply rbind_ext; intros; apply IH|apply IH].
Qed.
Lemma rd_iter_map {A B S} (g : A -> B) (r : B -> S -> res S) l : forall s, rd_iter r (map g l) s = rd_iter (fun x => r (g x)) l s.
Proof. induction l as [|x l IH]; intros s; cbn; [reflexivity|]. apply rbind_ext. intros. apply IH. Qed.
Lemma rd_iter_ext_in {A S} (r r' : A -> S -> res S) l : (forall x s, In x l -> r x s = r' x s) -> forall s, rd_iter r l s = rd_iter r' l s.
Proof.
  induction l as [|x l IH]; intros H s; cbn; [reflexivity|]. rewrite (H x) by (left; reflexivity). apply rbind_ext. intros. apply IH.
  intros; apply H; right; assumption.
Qed.

Section L.
  Variables (o : gopts) (ds : list decl) (G : genv) (resolve : bytes -> option N).
  Hypothesis RES : forall k, In k (relevant_classes o ds) -> resolve (qname k) = Some (cr_id (k_rec k)).

  Theorem run_writer_is_model H f k rc ver fs W :
    g_class G (cr_id (k_rec k)) = Some rc -> generated_binary o ds k rc ->
    run_writer G H f resolve (cr_id (k_rec k)) (class_version k) fs (writer_lines (find_bases ds (relevant_classes o ds) k) k) ver W
    = write_cls G H (S f) ver (cr_id (k_rec k)) fs W.
  Proof.
    intros HC [_ GW _]. unfold run_writer. rewrite exec_writer. cbn [write_cls]. unfold write_cls_body, body. rewrite HC, GW.
    set (rbs := find_bases ds (relevant_classes o ds) k).
    assert (RB: forall b, In b rbs -> resolve (qname b) = Some (cr_id (k_rec b))).
    { intros b Hb. apply RES. apply filter_In in Hb. apply Hb. }
    rewrite (iter_acc (fun b => write_cls G H f ver b fs) (fun b => cr_id (k_rec b))); [|intros x out W' Hx; rewrite (RB _ Hx); reflexivity].
    change (bp_bases (writer_prog rbs k)) with (map (fun b => cr_id (k_rec b)) rbs).
    rewrite !rbind_assoc.
    destruct (wr_iter (fun b => write_cls G H f ver b fs) (map (fun b : rclass => cr_id (k_rec b)) rbs) W) as [[bb W1]| | | |]; cbn [rbind app]; try reflexivity.
    change (bp_vmax (writer_prog rbs k)) with (class_version k).
    assert (M: forall e bv, (let! s3 := visit_members (fun n t ver '(out, W) => match alookup fkey_eqb (cr_id (k_rec k), n) fs with
                  | Some v => let! (o0, W') := write G H f ver t v W in ROk (out ++ o0, W') | None => RStuck end) e (bp_fields (writer_prog rbs k)) (bv, W1) in ROk s3)
              = (let! (bm, W2) := wr_iter (fun fd W => if visible e fd then match alookup fkey_eqb (bf_key fd) fs with Some v => write G H f e (bf_ty fd) v W | None => RStuck end else ROk ([], W))
                      (bp_fields (writer_prog rbs k)) W1 in ROk (bv ++ bm, W2))).
    { intros e bv. rewrite rbind_ret. unfold visit_members. rewrite wr_iter_filter.
      rewrite <- (map_id (filter (visible e) (bp_fields (writer_prog rbs k)))) at 2.
      apply iter_acc. intros fd out W' Hin. apply filter_In in Hin. destruct Hin as [Hin _]. apply member_keys in Hin.
      destruct (bf_key fd) as [c n] eqn:K. cbn [fst snd] in *. subst c.
      destruct (alookup fkey_eqb (cr_id (k_rec k), n) fs); [|reflexivity].
      destruct (write G H f e (bf_ty fd) v W') as [[? ?]| | | |]; reflexivity. }
    assert (M': forall e bv, (let! (_, (out, W')) := (let! s3 := visit_members (fun n t ver '(out, W) => match alookup fkey_eqb (cr_id (k_rec k), n) fs with
                  | Some v => let! (o0, W') := write G H f ver t v W in ROk (out ++ o0, W') | None => RStuck end) e (bp_fields (writer_prog rbs k)) (bv, W1) in ROk (e, s3)) in ROk (out, W'))
              = (let! (bm, W2) := wr_iter (fun fd W => if visible e fd then match alookup fkey_eqb (bf_key fd) fs with Some v => write G H f e (bf_ty fd) v W | None => RStuck end else ROk ([], W))
                      (bp_fields (writer_prog rbs k)) W1 in ROk (bv ++ bm, W2))).
    { intros e bv. rewrite <- M. destruct (visit_members _ e (bp_fields (writer_prog rbs k)) (bv, W1)) as [[? ?]| | | |]; reflexivity. }
    unfold class_version. destruct (k_base k) as [b|]; cbn [rbind].
    - destruct (cb_version b =? 0) eqn:V; cbn [negb andb rbind].
      + rewrite M'. cbn [app]. reflexivity.
      + destruct (wr_varint (if ver =? 0 then cb_version b else ver)) as [bv| | | |]; cbn [rbind]; try reflexivity.
        rewrite M'. apply rbind_ext. intros [bm W2]. rewrite app_assoc. reflexivity.
    - change (0 =? 0) with true. cbn [negb andb rbind]. rewrite M'. reflexivity.
  Qed.

  Theorem run_reader_is_model f k rc ver os s st :
    g_class G (cr_id (k_rec k)) = Some rc -> generated_binary o ds k rc -> cr_defctor (k_rec k) = true ->
    run_reader G f resolve (cr_id (k_rec k)) (class_version k) (qname k) (reader_lines (find_bases ds (relevant_classes o ds) k) k) ver os s st
    = read_cls G (S f) ver (cr_id (k_rec k)) os s st.
  Proof.
    intros HC [GN _ GR] D. unfold run_reader.
    set (rbs := find_bases ds (relevant_classes o ds) k) in *.
    destruct (reader_prog rbs k) as [p|] eqn:RP; [|unfold reader_prog in RP; rewrite D in RP; discriminate].
    rewrite (exec_reader _ _ _ _ _ _ _ _ RP). cbn [read_cls]. unfold read_cls_body, body. rewrite HC, GR, GN.
    unfold reader_prog in RP. rewrite D in RP. inversion RP; subst p; clear RP. cbn [bp_bases bp_vmax bp_fields bp_ret0].
    assert (RB: forall b, In b rbs -> resolve (qname b) = Some (cr_id (k_rec b))).
    { intros b Hb. apply RES. apply filter_In in Hb. apply Hb. }
    rewrite rd_iter_map.
    rewrite (rd_iter_ext_in _ (fun x '(os0, s0, st0) => let! (os', _, s', st') := read_cls G f ver (cr_id (k_rec x)) os0 s0 st0 in ROk (os', s', st')) rbs);
      [|intros x [[? ?] ?] Hx; rewrite (RB _ Hx); reflexivity].
    rewrite !rbind_assoc. apply rbind_ext. intros [[os1 s1] st1].
    assert (M: forall e s2, (let! s3 := visit_members (fun n t ver0 '(os0, s0, st0) => match alookup fkey_eqb (cr_id (k_rec k), n) os0 with
                   | Some o0 => let! (x, s', st') := read G f ver0 t o0 s0 st0 in ROk (aupdate fkey_eqb (cr_id (k_rec k), n) x os0, s', st')
                   | None => RStuck end) e (members (befriends (k_rec k) fn_read) (cr_id (k_rec k)) (cr_decls (k_rec k)) 0 0) (os1, s2, st1) in ROk s3)
      = rd_iter (fun fd '(os0, s0, st0) => if visible e fd then match alookup fkey_eqb (bf_key fd) os0 with
                    | Some o0 => let! (x, s', st') := read G f e (bf_ty fd) o0 s0 st0 in ROk (aupdate fkey_eqb (bf_key fd) x os0, s', st')
                    | None => RStuck end else ROk (os0, s0, st0)) (members (befriends (k_rec k) fn_read) (cr_id (k_rec k)) (cr_decls (k_rec k)) 0 0) (os1, s2, st1)).
    { intros e s2. rewrite rbind_ret. unfold visit_members.
      rewrite (rd_iter_ext_in (fun fd '(os0, s0, st0) => if visible e fd then _ else _)
        (fun fd s0 => if visible e fd then (fun '(os0, s0, st0) => match alookup fkey_eqb (bf_key fd) os0 with
                    | Some o0 => let! (x, s', st') := read G f e (bf_ty fd) o0 s0 st0 in ROk (aupdate fkey_eqb (bf_key fd) x os0, s', st')
                    | None => RStuck end) s0 else ROk s0)) by (intros x [[? ?] ?] _; destruct visible; reflexivity).
      rewrite rd_iter_filter. apply rd_iter_ext_in. intros fd [[os0 s0] st0] Hin. apply filter_In in Hin. destruct Hin as [Hin _]. apply member_keys in Hin.
      destruct (bf_key fd) as [c n] eqn:K. cbn [fst snd] in *. subst c. reflexivity. }
    assert (M': forall e s2, (let! (ver', (os', s', st')) := (let! s3 := visit_members (fun n t ver0 '(os0, s0, st0) => match alookup fkey_eqb (cr_id (k_rec k), n) os0 with
                   | Some o0 => let! (x, s', st') := read G f ver0 t o0 s0 st0 in ROk (aupdate fkey_eqb (cr_id (k_rec k), n) x os0, s', st')
                   | None => RStuck end) e (members (befriends (k_rec k) fn_read) (cr_id (k_rec k)) (cr_decls (k_rec k)) 0 0) (os1, s2, st1) in ROk (e, s3)) in ROk (os', ver', s', st'))
      = (let! (os3, s3, st3) := rd_iter (fun fd '(os0, s0, st0) => if visible e fd then match alookup fkey_eqb (bf_key fd) os0 with
                    | Some o0 => let! (x, s', st') := read G f e (bf_ty fd) o0 s0 st0 in ROk (aupdate fkey_eqb (bf_key fd) x os0, s', st')
                    | None => RStuck end else ROk (os0, s0, st0)) (members (befriends (k_rec k) fn_read) (cr_id (k_rec k)) (cr_decls (k_rec k)) 0 0) (os1, s2, st1) in ROk (os3, e, s3, st3))).
    { intros e s2. rewrite <- M. destruct (visit_members _ e _ (os1, s2, st1)) as [[[? ?] ?]| | | |]; reflexivity. }
    unfold class_version. destruct (k_base k) as [b|]; cbn [rbind].
    - destruct (cb_version b =? 0) eqn:V; cbn [rbind]; [apply M'|].
      destruct (rd_varint s1) as [[v s']| | | |]; cbn [rbind]; try reflexivity.
      destruct (v <=? cb_version b); cbn [rbind]; [apply M'|reflexivity].
    - change (0 =? 0) with true. cbn [rbind]. apply M'.
  Qed.
End L.

(** [k] or a base class of it which code is generated for *)
Definition self_or_base (o : gopts) (ds : list decl) (k b : rclass) : Prop :=
  b = k \/ In b (find_bases ds (relevant_classes o ds) k).

(** what reader and writer of generated classes access agrees *)
Theorem generated_visits o ds G wv rv :
  one_definition ds -> wf_bases ds ->
  (forall k, In k (relevant_classes o ds) -> exists rc, g_class G (cr_id (k_rec k)) = Some rc /\ generated_binary o ds k rc) ->
  forall k, In k (relevant_classes o ds) ->
  (forall b, self_or_base o ds k b ->
     cr_defctor (k_rec b) = true /\ befriends (k_rec b) fn_write = befriends (k_rec b) fn_read
     /\ (class_version b = 0 -> wv = rv)
     /\ (class_version b <> 0 -> wv <= class_version b /\ class_version b < 2 ^ 56)) ->
  exists L, visits G wv rv (cr_id (k_rec k)) L.
Proof.
  intros OD WF GEN k. remember (N.to_nat (cr_id (k_rec k))) as n eqn:En. revert k En.
  induction n as [n IH] using lt_wf_ind. intros k En Hk HB.
  destruct (GEN _ Hk) as (rc & HC & [_ GW GR]).
  set (rbs := find_bases ds (relevant_classes o ds) k) in *.
  destruct (HB k (or_introl eq_refl)) as (D & F & U & V).
  assert (Bases: exists Ls, Forall2 (visits G wv rv) (map (fun b => cr_id (k_rec b)) rbs) Ls).
  { assert (P: forall b, In b rbs -> exists L, visits G wv rv (cr_id (k_rec b)) L).
    { intros b Hb. pose proof (proj1 (find_bases_spec o ds k b OD WF) Hb) as (Hr & Hne & Hd).
      pose proof (derives_lt _ WF _ _ Hd) as Lt. apply (IH (N.to_nat (cr_id (k_rec b)))) with (k := b); auto; [lia|].
      intros b' [->|Hb']; apply HB; right; [exact Hb|].
      apply find_bases_spec in Hb'; auto. destruct Hb' as (Hr' & Hne' & Hd'). apply find_bases_spec; auto. split; [exact Hr'|].
      pose proof (derives_trans _ _ _ _ Hd Hd') as Hdd. split; [|exact Hdd]. pose proof (derives_lt _ WF _ _ Hdd). lia. }
    clear -P. induction rbs as [|b rbs IHr]; [exists []; constructor|].
    destruct (P b (or_introl eq_refl)) as [L HL]. destruct IHr as [Ls HLs]; [intros; apply P; right; assumption|]. exists (L :: Ls). constructor; assumption. }
  destruct Bases as [Ls HLs].
  unfold reader_prog in GR. rewrite D in GR.
  destruct (class_version k =? 0) eqn:E.
  - eexists. eapply visits_intro with (rc := rc) (Ls := Ls); [exact HC|exact GR|rewrite GW; reflexivity|rewrite GW; reflexivity|rewrite GW; exact HLs|].
    rewrite GW. cbn [bp_vmax bp_fields writer_prog]. rewrite <- F. rewrite E.
    apply N.eqb_eq in E. rewrite (U E). split; reflexivity.
  - eexists. eapply visits_intro with (rc := rc) (Ls := Ls); [exact HC|exact GR|rewrite GW; reflexivity|rewrite GW; reflexivity|rewrite GW; exact HLs|].
    rewrite GW. cbn [bp_vmax bp_fields writer_prog]. rewrite <- F. rewrite E.
    apply N.eqb_neq in E. destruct (V E) as [V1 V2]. exists (if wv =? 0 then class_version k else wv).
    split; [reflexivity|].
    assert (Q: (if wv =? 0 then class_version k else wv) <= class_version k) by (destruct (wv =? 0); [apply N.le_refl|exact V1]).
    split; [exact Q|]. split; [eapply N.le_lt_trans; eauto|]. split; reflexivity.
Qed.
