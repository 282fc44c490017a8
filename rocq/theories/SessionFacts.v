(** SessionFacts.v -- using one serializer for several values (property C80) *)
From Coq Require Import List NArith ZArith Bool Lia.
From Verif Require Import Base BaseFacts Bytes BytesFacts Types TypesFacts BinModel FuelFacts BinSpec BinSafeSpec BinSafe BinRoundTrip BinTotal BinFacts BinTop SettleFacts SessionSpec.
Import ListNotations.
Local Open Scope list_scope.
Local Open Scope nat_scope.

(** what is written depends only on the objects which are written for the first time *)
Section Local.
  Variable G : genv.
  Variables H H' : heap.
  Definition agree (W W' : list N) : Prop := forall a x, In a W' -> ~ In a W -> hget H a = Some x -> hget H' a = Some x.
  Lemma agree_l W W1 W2 : incl W1 W2 -> agree W W2 -> agree W W1. Proof. intros I A a x Ha Hn E. eapply A; [apply I; exact Ha|exact Hn|exact E]. Qed.
  Lemma agree_r W W1 W2 : incl W W1 -> agree W W2 -> agree W1 W2. Proof. intros I A a x Ha Hn E. eapply A; [exact Ha|intros Q; apply Hn, I, Q|exact E]. Qed.
  Definition local {A} (w w' : A -> list N -> res (bytes * list N)) : Prop := forall x W bs W1, w x W = ROk (bs, W1) -> incl W W1 /\ (agree W W1 -> w' x W = ROk (bs, W1)).
  Lemma local_iter {A} (w w' : A -> list N -> res (bytes * list N)) : local w w' -> local (wr_iter w) (wr_iter w').
  Proof.
    intros L l. induction l as [|x l IH]; intros W bs W2 E; cbn [wr_iter] in E |- *.
    - injection E as <- <-. split; [apply incl_refl|reflexivity].
    - destruct (w x W) as [[b1 W1]| | | |] eqn:E1; try discriminate E. cbn [rbind] in E. destruct (wr_iter w l W1) as [[b2 W3]| | | |] eqn:E2; try discriminate E. cbn in E. injection E as <- <-.
      destruct (L _ _ _ _ E1) as [I1 K1]. destruct (IH _ _ _ E2) as [I2 K2]. split; [eapply incl_tran; eassumption|]. intros A0.
      rewrite (K1 (agree_l _ _ _ I2 A0)). cbn [rbind]. rewrite (K2 (agree_r _ _ _ I1 A0)). reflexivity.
  Qed.
  Definition Lv (f : nat) : Prop := forall ver t, local (write G H f ver t) (write G H' f ver t).
  Definition Lc (f : nat) : Prop := forall ver (fs : list (fkey * val)), local (fun c => write_cls G H f ver c fs) (fun c => write_cls G H' f ver c fs).
  Lemma local_step f : Lv f /\ Lc f -> Lv (S f) /\ Lc (S f).
  Proof.
    intros [IV IC]. split.
    - intros ver t v W bs W' E. rewrite write_S in E |- *.
      destruct t; destruct v as [ | b | z | n0 | n0 | s | l | x y | [x|] | [a|] | i x | | | fs ]; cbn [write_body] in E |- *; try discriminate E;
        try (injection E as <- <-; split; [apply incl_refl|reflexivity]);
        try (destruct (bin_kind _); [injection E as <- <-; split; [apply incl_refl|reflexivity]|discriminate E]).
      all: try (destruct (wr_varint _) as [p| | | |]; try discriminate E; cbn [rbind] in E |- *;
        match type of E with rbind ?m _ = _ => destruct m as [[b1 W1]| | | |] eqn:E1 end; try discriminate E; cbn in E; injection E as <- <-;
        destruct (local_iter _ _ (IV 0%N _) _ _ _ _ E1) as [I1 K1]; split; [exact I1|intros A0; rewrite (K1 A0); reflexivity]).
      all: try (match type of E with rbind (wr_string ?s) _ = _ => destruct (wr_string s) as [p| | | |] end; try discriminate E; cbn in E |- *; injection E as <- <-; split; [apply incl_refl|reflexivity]).
      all: try (match type of E with rbind ?m (fun '(bx, W1) => ROk (mkb 1 :: bx, W1)) = _ => destruct m as [[b1 W1]| | | |] eqn:E1 end; try discriminate E; cbn in E; injection E as <- <-;
        destruct (IV 0%N _ _ _ _ _ E1) as [I1 K1]; split; [exact I1|intros A0; rewrite (K1 A0); reflexivity]).
      + (* pair *)
        destruct (write G H f 0 t1 x W) as [[b1 W1]| | | |] eqn:E1; try discriminate E. cbn [rbind] in E. destruct (write G H f 0 t2 y W1) as [[b2 W2]| | | |] eqn:E2; try discriminate E. cbn in E. injection E as <- <-.
        destruct (IV _ _ _ _ _ _ E1) as [I1 K1]. destruct (IV _ _ _ _ _ _ E2) as [I2 K2]. split; [eapply incl_tran; eassumption|]. intros A0.
        rewrite (K1 (agree_l _ _ _ I2 A0)). cbn [rbind]. rewrite (K2 (agree_r _ _ _ I1 A0)). reflexivity.
      + (* shared *)
        destruct (existsb (N.eqb a) W) eqn:Ex.
        * destruct (wr_ptr_head 2 a) as [hd| | | |]; try discriminate E. cbn in E |- *. injection E as <- <-. split; [apply incl_refl|reflexivity].
        * destruct (wr_ptr_head 1 a) as [hd| | | |]; try discriminate E. cbn [rbind] in E |- *. destruct (hget H a) as [[t'' x]|] eqn:Eg; [|discriminate E]. destruct (ty_eqb t t'') eqn:Et; [|discriminate E].
          destruct (write G H f 0 t x (a :: W)) as [[b1 W1]| | | |] eqn:E1; try discriminate E. cbn in E. injection E as <- <-. destruct (IV _ _ _ _ _ _ E1) as [I1 K1].
          split; [intros q Q; apply I1; right; exact Q|]. intros A0.
          assert (Q : hget H' a = Some (t'', x)). { apply A0; [apply I1; left; reflexivity| |exact Eg]. intros Q. assert (existsb (N.eqb a) W = true); [|congruence]. apply existsb_exists. exists a. split; [exact Q|apply N.eqb_refl]. }
          rewrite Q, Et. rewrite K1; [reflexivity|]. eapply agree_r; [|exact A0]. intros q Hq. right. exact Hq.
      + (* variant *)
        destruct (nth_error ts i) as [t0|]; [|discriminate E]. destruct t0; try (injection E as <- <-; split; [apply incl_refl|reflexivity]);
          (match type of E with rbind ?m _ = _ => destruct m as [[b1 W1]| | | |] eqn:E1 end; try discriminate E; cbn in E; injection E as <- <-; destruct (IV 0%N _ _ _ _ _ E1) as [I1 K1]; split; [exact I1|intros A0; rewrite (K1 A0); reflexivity]).
      + apply (IC ver fs c). exact E.
      + destruct x; try discriminate E. destruct (wr_string s) as [p| | | |]; try discriminate E. cbn in E |- *. injection E as <- <-. split; [apply incl_refl|reflexivity].
    - intros ver fs c W bs W' E. rewrite write_cls_S in E |- *. unfold write_cls_body in E |- *. destruct (g_class G c) as [rc|]; [|discriminate E]. cbv zeta in E |- *.
      destruct (wr_iter (fun b => write_cls G H f ver b fs) (bp_bases (rc_wr rc)) W) as [[bb W1]| | | |] eqn:E1; try discriminate E. cbn [rbind] in E.
      destruct (local_iter _ _ (IC ver fs) _ _ _ _ E1) as [I1 K1].
      set (ver' := if negb (bp_vmax (rc_wr rc) =? 0)%N && (ver =? 0)%N then bp_vmax (rc_wr rc) else ver) in *.
      destruct (if negb (bp_vmax (rc_wr rc) =? 0)%N then wr_varint ver' else ROk []) as [bv| | | |]; try discriminate E. cbn [rbind] in E.
      set (wf := fun Hx fd W => if visible ver' fd then match alookup fkey_eqb (bf_key fd) fs with Some v => write G Hx f ver' (bf_ty fd) v W | None => RStuck end else ROk ([], W)).
      change (rbind (wr_iter (wf H) (bp_fields (rc_wr rc)) W1) (fun '(bm, W2) => ROk (bb ++ bv ++ bm, W2)) = ROk (bs, W')) in E.
      assert (LF : local (wf H) (wf H')).
      { intros fd V b2 V2 E2. unfold wf in E2 |- *. destruct (visible ver' fd); [|injection E2 as <- <-; split; [apply incl_refl|reflexivity]].
        destruct (alookup fkey_eqb (bf_key fd) fs) as [v|]; [|discriminate E2]. exact (IV _ _ _ _ _ _ E2). }
      destruct (wr_iter (wf H) (bp_fields (rc_wr rc)) W1) as [[bm W2]| | | |] eqn:E2; try discriminate E. cbn in E. injection E as <- <-.
      destruct (local_iter _ _ LF _ _ _ _ E2) as [I2 K2]. split; [eapply incl_tran; eassumption|]. intros A0. rewrite (K1 (agree_l _ _ _ I2 A0)). cbn [rbind].
      change (rbind (wr_iter (wf H') (bp_fields (rc_wr rc)) W1) (fun '(bm, W2) => ROk (bb ++ bv ++ bm, W2)) = ROk (bb ++ bv ++ bm, W2)). rewrite (K2 (agree_r _ _ _ I1 A0)). reflexivity.
  Qed.
  Theorem write_local f : Lv f.
  Proof.
    assert (X : Lv f /\ Lc f); [|apply X]. induction f as [|f IH]; [|apply local_step; exact IH]. split; intros ? ? ? ? ? ? E; discriminate E.
  Qed.
End Local.

Section Session.
  Variable G : genv.
  Lemma hget_app (h1 h2 : heap) a : hget (h1 ++ h2) a = match hget h1 a with Some x => Some x | None => hget h2 a end.
  Proof. unfold hget. induction h1 as [|[b x] h1 IH]; [reflexivity|]. cbn. destruct (N.eqb a b); [reflexivity|exact IH]. Qed.
  (** all objects which have been in memory *)
  Definition all_objects (l : list call) : heap := concat (map cl_heap l).
  Lemma all_from l : from_calls l (all_objects l).
  Proof.
    intros a x. unfold all_objects. induction l as [|c l IH]; cbn [map concat]; [discriminate|]. rewrite hget_app. destruct (hget (cl_heap c) a) as [y|] eqn:E.
    - intros Q. injection Q as <-. exists c. split; [left; reflexivity|exact E].
    - intros Q. destruct (IH Q) as (c' & I & E'). exists c'. split; [right; exact I|exact E'].
  Qed.
  Lemma all_have l c a x : In c l -> hget (cl_heap c) a = Some x -> exists y, hget (all_objects l) a = Some y.
  Proof.
    unfold all_objects. induction l as [|c' l IH]; intros [] E; cbn [map concat]; rewrite hget_app.
    - subst c'. rewrite E. eauto.
    - destruct (hget (cl_heap c') a); [eauto|]. apply IH; assumption.
  Qed.
  Lemma all_types l : types_agree l -> forall c, In c l -> hle (cl_heap c) (all_objects l).
  Proof.
    intros T c Hc a t E. unfold hty in E. destruct (hget (cl_heap c) a) as [[t1 x]|] eqn:Eg; [|discriminate]. cbn in E. injection E as ->.
    destruct (all_have _ _ _ _ Hc Eg) as [[t2 y] Q]. unfold hty. rewrite Q. cbn. destruct (all_from _ _ _ Q) as (c' & Hc' & Q').
    f_equal. apply (T c' c a t2 t Hc' Hc); unfold hty; [rewrite Q'|rewrite Eg]; reflexivity.
  Qed.
  Lemma override (H base : heap) (ds : list N) : exists S, forall a, hget S a = if existsb (N.eqb a) ds then match hget H a with Some x => Some x | None => hget base a end else hget base a.
  Proof.
    induction ds as [|d ds [S IH]]; [exists base; reflexivity|]. destruct (hget H d) as [x|] eqn:E.
    - exists (hset S d x). intros a. cbn [existsb]. destruct (N.eqb a d) eqn:Ed; cbn [orb].
      + apply N.eqb_eq in Ed. subst a. rewrite hget_hset_same, E. reflexivity.
      + rewrite hget_hset_other by (intros ->; rewrite N.eqb_refl in Ed; discriminate). apply IH.
    - exists S. intros a. cbn [existsb]. destruct (N.eqb a d) eqn:Ed; cbn [orb]; [|apply IH]. apply N.eqb_eq in Ed. subst a. rewrite IH, E. destruct (existsb (N.eqb d) ds); reflexivity.
  Qed.
  Lemma ex_in a W : existsb (N.eqb a) W = true <-> In a W.
  Proof. rewrite existsb_exists. split; [intros (x & I & E); apply N.eqb_eq in E; subst; exact I|intros I; exists a; split; [exact I|apply N.eqb_refl]]. Qed.
  Lemma write_grow H f ver t v W bs W' : write G H f ver t v W = ROk (bs, W') -> incl W W'.
  Proof. intros E. eapply (write_local G H H f); exact E. Qed.
  Lemma wa_cons f c l W bs W' : write_all G f (c :: l) W = ROk (bs, W') ->
    exists b1 W1 b2, write G (cl_heap c) f (cl_wv c) (cl_ty c) (cl_val c) W = ROk (b1, W1) /\ write_all G f l W1 = ROk (b2, W') /\ bs = b1 ++ b2.
  Proof. exact (wr_iter_cons (fun c W => write G (cl_heap c) f (cl_wv c) (cl_ty c) (cl_val c) W) c l W bs W'). Qed.
  Lemma write_all_grow f l : forall W bs W', write_all G f l W = ROk (bs, W') -> incl W W'.
  Proof.
    induction l as [|c l IH]; intros W bs W' E; [injection E as _ <-; apply incl_refl|]. apply wa_cons in E. destruct E as (b1 & W1 & b2 & E1 & E2 & _). eapply incl_tran; [eapply write_grow; exact E1|eapply IH; exact E2].
  Qed.

  (** the snapshot of the objects exists *)
  Lemma snapshot_exists f L : types_agree L -> forall l W bs W', incl l L -> write_all G f l W = ROk (bs, W') ->
    exists S, from_calls L S /\ (forall a, hty S a = hty (all_objects L) a) /\ (forall a, In a W -> hget S a = hget (all_objects L) a)
      /\ forall done c todo b1 W1 b2 W2 a x, l = done ++ c :: todo -> write_all G f done W = ROk (b1, W1) -> write G (cl_heap c) f (cl_wv c) (cl_ty c) (cl_val c) W1 = ROk (b2, W2) ->
           In a W2 -> ~ In a W1 -> hget (cl_heap c) a = Some x -> hget S a = Some x.
  Proof.
    intros T. induction l as [|c l IH]; intros W bs W' Il E.
    - exists (all_objects L). split; [apply all_from|]. split; [reflexivity|]. split; [reflexivity|]. intros done c todo b1 W1 b2 W2 a x Q. destruct done; discriminate Q.
    - apply wa_cons in E. destruct E as (b1 & W1 & b2 & E1 & E2 & ->). destruct (IH _ _ _ ltac:(intros q Q; apply Il; right; exact Q) E2) as (S & F1 & F2 & F3 & F4).
      assert (Hc : In c L) by (apply Il; left; reflexivity).
      destruct (override (cl_heap c) S (filter (fun a => negb (existsb (N.eqb a) W)) W1)) as [S' HS].
      assert (Hin : forall a, existsb (N.eqb a) (filter (fun a => negb (existsb (N.eqb a) W)) W1) = true <-> In a W1 /\ ~ In a W).
      { intros a. rewrite ex_in, filter_In, negb_true_iff, <- (ex_in a W). destruct (existsb (N.eqb a) W); intuition congruence. }
      exists S'. split; [|split; [|split]].
      + intros a x. rewrite HS. destruct (existsb _ _); [|apply F1]. destruct (hget (cl_heap c) a) as [y|] eqn:Eg; [|apply F1]. intros Q. injection Q as <-. exists c. split; assumption.
      + intros a. unfold hty at 1. rewrite HS. fold (hty S a). destruct (existsb _ _); [|apply F2]. destruct (hget (cl_heap c) a) as [[t x]|] eqn:Eg; [|apply F2]. cbn. symmetry. apply (all_types L T c Hc). unfold hty. rewrite Eg. reflexivity.
      + intros a Ha. rewrite HS. destruct (existsb _ _) eqn:Ex; [apply Hin in Ex; tauto|]. apply F3. eapply write_grow; [exact E1|exact Ha].
      + intros done c' todo b3 W3 b4 W4 a x El Ed Ec I4 N3 Eg. rewrite HS. destruct done as [|d done]; cbn [app] in El; injection El as -> ->.
        * injection Ed as _ <-. rewrite E1 in Ec. injection Ec as _ <-. rewrite (proj2 (Hin a)) by (split; assumption). rewrite Eg. reflexivity.
        * apply wa_cons in Ed. destruct Ed as (b5 & W5 & b6 & E5 & E6 & ->). rewrite E1 in E5. injection E5 as _ <-.
          destruct (existsb _ _) eqn:Ex; [|eapply F4; try eassumption; reflexivity]. exfalso. apply Hin in Ex. apply N3. eapply write_all_grow; [exact E6|apply Ex].
  Qed.

  Lemma write_all_total l : (forall c, In c l -> proper G c) -> forall W, exists F bs W', forall f, F <= f -> write_all G f l W = ROk (bs, W').
  Proof.
    induction l as [|c l IH]; intros HP W; [exists 0, [], W; reflexivity|]. destruct (HP c (or_introl eq_refl)) as [Hh Hg].
    destruct (write_total G (cl_heap c) Hh _ _ _ _ _ _ W Hg) as (F1 & b1 & W1 & E1). destruct (IH (fun c' I => HP c' (or_intror I)) W1) as (F2 & b2 & W2 & E2).
    exists (F1 + F2), (b1 ++ b2), W2. intros f Hf. unfold write_all. cbn [wr_iter]. rewrite (wr_ok_more G _ F1 f _ _ _ _ _ ltac:(lia) E1). cbn [rbind].
    change (rbind (write_all G f l W1) (fun '(b3, W3) => ROk (b1 ++ b3, W3)) = ROk (b1 ++ b2, W2)). rewrite (E2 f) by lia. reflexivity.
  Qed.

  (** writing the calls one after another is like writing all values with the objects of the snapshot *)
  Lemma write_all_snapshot f S l : forall W bs W',
    (forall done c todo b1 W1 b2 W2 a x, l = done ++ c :: todo -> write_all G f done W = ROk (b1, W1) -> write G (cl_heap c) f (cl_wv c) (cl_ty c) (cl_val c) W1 = ROk (b2, W2) ->
       In a W2 -> ~ In a W1 -> hget (cl_heap c) a = Some x -> hget S a = Some x) ->
    write_all G f l W = ROk (bs, W') -> wr_iter (fun c W => write G S f (cl_wv c) (cl_ty c) (cl_val c) W) l W = ROk (bs, W').
  Proof.
    induction l as [|c l IH]; intros W bs W' HS E; [exact E|]. apply wa_cons in E. destruct E as (b1 & W1 & b2 & E1 & E2 & ->). cbn [wr_iter].
    destruct (write_local G (cl_heap c) S f _ _ _ _ _ _ E1) as [_ K]. rewrite K; [cbn [rbind]|].
    - rewrite (IH W1 b2 W'); [reflexivity| |exact E2]. intros done c' todo b3 W3 b4 W4 a x El Ed. apply (HS (c :: done) c' todo (b1 ++ b3) W3 b4 W4 a x); [rewrite El; reflexivity|].
      unfold write_all. cbn [wr_iter]. rewrite E1. cbn [rbind]. change (rbind (write_all G f done W1) (fun '(b5, W5) => ROk (b1 ++ b5, W5)) = ROk (b1 ++ b3, W3)). rewrite Ed. reflexivity.
    - intros a x I N Eg. eapply (HS [] c l [] W b1 W1); try eassumption; reflexivity.
  Qed.

  Hypothesis HA : alloc_ok G.
  Hypothesis HP : place_ok G.
  Lemma snapshot_good L S : (forall c, In c L -> proper G c) -> types_agree L -> from_calls L S -> (forall a, hty S a = hty (all_objects L) a) -> heap_good G S /\ forall c, In c L -> hle (cl_heap c) S.
  Proof.
    intros HL T F E. assert (X : forall c, In c L -> hle (cl_heap c) S) by (intros c Hc a t Q; rewrite E; exact (all_types L T c Hc a t Q)). split; [|exact X].
    intros a t x Q. destruct (F _ _ Q) as (c & Hc & Q'). destruct (HL c Hc) as [Hh _]. destruct (Hh _ _ _ Q') as [Ha Hx]. split; [exact Ha|]. eapply good_hle; [apply X; exact Hc|exact Hx].
  Qed.
  Lemma step_iso S h0 ptrs ro W st : step G S [] [] {| r_heap := h0; r_ptr := ptrs |} ro W st -> graph_iso G S h0 (r_heap st) ro.
  Proof.
    intros Q. constructor.
    - apply (p_sync _ _ _ _ _ _ _ _ Q).
    - apply (p_sync _ _ _ _ _ _ _ _ Q).
    - intros a a' Ha. destruct (p_new _ _ _ _ _ _ _ _ Q a a' Ha) as [[]|(t & x & x' & H1 & H2 & H3 & H4)]. exists t, x, x'. auto.
    - intros a Ha. apply (p_old _ _ _ _ _ _ _ _ Q). exact Ha.
    - intros a' Ha. destruct (p_cover _ _ _ _ _ _ _ _ Q a' Ha) as [Hb|[a Hb]]; [left; exact Hb|right]. apply in_map_iff. exists (a, a'). auto.
  Qed.
  Lemma sync_used S st : sync S [] [] st.
  Proof. constructor; [intros a []|intros a a' []|constructor|constructor]. Qed.
  Theorem session_round_trip L : (forall c, In c L -> proper G c) -> types_agree L ->
    exists F, forall f, F <= f -> exists bs W S, write_all G f L [] = ROk (bs, W) /\ snapshot G f L S /\ from_calls L S
      /\ forall st rest, exists vs st' ro, read_all G f L (bs ++ rest) st = ROk (vs, rest, st')
           /\ Forall2 (fun c v' => same_value G ro (cl_ty c) (cl_val c) v' /\ (cl_ex c = true -> v' = cl_val c)) L vs /\ graph_iso G S (r_heap st) (r_heap st') ro /\ (forall a, In a W <-> In a (map fst ro)).
  Proof.
    intros HL T. destruct (write_all_total L HL []) as (F & bs & W & HF). exists F. intros f Hf. specialize (HF f Hf). destruct (snapshot_exists f L T L [] bs W (incl_refl _) HF) as (S & F1 & F2 & _ & F4).
    exists bs, W, S. split; [exact HF|]. split; [intros done c todo b1 W1 b2 W2 a x; apply F4|]. split; [exact F1|]. destruct (snapshot_good L S HL T F1 F2) as [HG X].
    pose proof (write_all_snapshot f S L [] bs W F4 HF) as E. intros st rest.
    assert (Y : forall l, incl l L -> forall W bs W', wr_iter (fun c W => write G S f (cl_wv c) (cl_ty c) (cl_val c) W) l W = ROk (bs, W') -> forall ro st, sync S ro W st ->
      exists vs st' ro', read_all G f l (bs ++ rest) st = ROk (vs, rest, st') /\ step G S ro W st ro' W' st'
        /\ Forall2 (fun c v' => same_value G ro' (cl_ty c) (cl_val c) v' /\ (cl_ex c = true -> v' = cl_val c)) l vs).
    { clear - HA HP HL X HG. induction l as [|c l IH]; intros Il W bs W' E ro st Sy.
      - injection E as <- <-. exists [], st, ro. split; [reflexivity|]. split; [apply step_refl; exact Sy|constructor].
      - apply wr_iter_cons in E. destruct E as (b1 & W1 & b2 & E1 & E2 & ->). assert (Hc : In c L) by (apply Il; left; reflexivity).
        destruct (P_all G S HA HP HG f) as [PV _].
        destruct (PV _ _ _ _ _ _ _ _ _ (good_hle _ _ _ _ _ _ _ _ _ (X c Hc) (proj2 (HL c Hc))) E1 ro st (b2 ++ rest) Sy) as (v' & st1 & ro1 & R1 & S1 & Q1 & Z1).
        destruct (IH ltac:(intros q Q; apply Il; right; exact Q) W1 b2 W' E2 ro1 st1 (p_sync _ _ _ _ _ _ _ _ S1)) as (vs & st2 & ro2 & R2 & S2 & Q2).
        exists (v' :: vs), st2, ro2. split; [|split].
        + unfold read_all in *. cbn [map read_values]. rewrite <- app_assoc. rewrite R1. cbn [rbind]. rewrite R2. reflexivity.
        + eapply step_trans; eassumption.
        + constructor; [|exact Q2]. split; [|exact Z1]. eapply sv_mono; [apply (p_ro _ _ _ _ _ _ _ _ S2)|exact Q1]. }
    destruct (Y L (incl_refl _) [] bs W E [] st (sync_used S st)) as (vs & st' & ro & R & Q & A). exists vs, st', ro. split; [exact R|]. split; [exact A|]. split; [destruct st as [h0 ptrs]; eapply step_iso; exact Q|].
    intros a. pose proof (p_sync _ _ _ _ _ _ _ _ Q) as Sy. split.
    - intros Ha. destruct (s_dom _ _ _ _ Sy a Ha) as (a' & t & x & I & _). apply (in_map fst) in I. exact I.
    - intros Ha. apply in_map_iff in Ha. destruct Ha as ([b b'] & <- & I). apply (s_ro _ _ _ _ Sy) in I. apply I.
  Qed.
End Session.
