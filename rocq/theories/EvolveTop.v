(** EvolveTop.v -- the statements of PropertiesEvolve.v, proved from the facts *)
From Coq Require Import List NArith ZArith Bool Lia Permutation.
From Verif Require Import Base BaseFacts Bytes BytesFacts Types TypesFacts BinModel FuelFacts BinSpec BinRoundTrip BinTotal
  BinFacts BinTop EvolveSpec EvolveFacts.
Import ListNotations.
Local Open Scope N_scope.

Lemma evolve_value Gw Gr H0 H ex wv rv t old v0 v :
  alloc_ok Gr -> place_ok Gr -> heap_good (across Gw Gr) H -> heap_alike Gw H0 H ->
  good (across Gw Gr) H ex wv rv t old v -> alike Gw wv t v0 v ->
  exists F, forall fuel, (F <= fuel)%nat -> exists bs W,
    write Gw H0 fuel wv t v0 [] = ROk (bs, W)
    /\ forall h0 rest, exists v' h' ptrs ro,
         read Gr fuel rv t old (bs ++ rest) {| r_heap := h0; r_ptr := [] |}
           = ROk (v', rest, {| r_heap := h'; r_ptr := ptrs |})
         /\ same_value Gr ro t v v' /\ graph_iso Gr H h0 h' ro.
Proof.
  intros HA HP HG HH Hg Hv.
  destruct (binary_round_trip (across Gw Gr) H ex wv rv t old v HA HP HG Hg) as [F HF]. exists F. intros fuel Hle.
  destruct (HF fuel Hle) as (bs & W & E & R). exists bs, W. split.
  - eapply (proj1 (across_write Gw Gr H0 H HH fuel)); eauto.
  - intros h0 rest. destruct (R h0 rest) as (v' & h' & ptrs & ro & E2 & S & I). exists v', h', ptrs, ro. split.
    + pose proof (proj1 (across_read Gw Gr fuel) rv t old (bs ++ rest) {| r_heap := h0; r_ptr := [] |}) as L.
      rewrite E2 in L. destruct L as [L|L]; [discriminate|exact L].
    + split; [eapply across_same_value; exact S|eapply across_iso; exact I].
Qed.

Lemma visits_written_as Gw Gr wv rv : forall c L, visits (across Gw Gr) wv rv c L ->
  forall k e t, written_as Gw wv c k e t -> exists x, In x L /\ vi_key x = k /\ vi_w x = e /\ vi_ty x = t.
Proof.
  intros c L V. induction V as [c rc pr Ls own Hc Hrd Hb Hvm HF HI Hown] using visits_ind'. intros k e t Hw.
  destruct (across_class _ _ _ _ Hc) as (r & _ & _ & _ & _ & _ & _ & Ew).
  inversion Hw as [c0 w fd e0 Hc0 Hf He Hv|c0 w b k0 e0 t0 Hc0 Hbb Hw']; subst; rewrite Hc0 in Ew; rewrite <- Ew in *; clear Ew.
  - destruct (bp_vmax (rc_wr rc) =? 0).
    + destruct Hown as [_ ->]. exists (mkvisit wv rv fd). split; [|auto]. apply in_or_app. right. apply in_map. apply filter_In. auto.
    + destruct Hown as (e & -> & _ & _ & _ & ->). exists (mkvisit (if wv =? 0 then bp_vmax (rc_wr rc) else wv) (if wv =? 0 then bp_vmax (rc_wr rc) else wv) fd).
      split; [|auto]. apply in_or_app. right. apply in_map. apply filter_In. auto.
  - assert (Q: exists x, In x (concat Ls) /\ vi_key x = k /\ vi_w x = e /\ vi_ty x = t).
    { clear -HI Hbb Hw'. induction HI as [|b0 L0 bl Ls Hb0 HI IH]; [destruct Hbb|]. destruct Hbb as [->|Hbb].
      - destruct (Hb0 k e t Hw') as (x & Hx & Q). exists x. split; [apply in_or_app; left; exact Hx|exact Q].
      - destruct (IH Hbb) as (x & Hx & Q). exists x. split; [apply in_or_app; right; exact Hx|exact Q]. }
    destruct Q as (x & Hx & Q). exists x. split; [apply in_or_app; left; exact Hx|exact Q].
Qed.

(** members which are accessed more than once are accessed in the same way *)
Lemma repeatable_same G L : repeatable G L -> forall x y, In x L -> In y L -> vi_key x = vi_key y -> x = y.
Proof.
  unfold repeatable. intros R x y Hx Hy E. destruct (ForallOrdPairs_In R x y Hx Hy) as [Q|[Q|Q]]; [exact Q|exact (proj1 (Q E))|symmetry; exact (proj1 (Q (eq_sym E)))].
Qed.
(** finite choice: an object which has the given members *)
Lemma choose_members (P : visit -> val -> Prop) L : (forall x y, In x L -> In y L -> vi_key x = vi_key y -> x = y) -> (forall x, In x L -> exists v, P x v) ->
  exists fs, forall x, In x L -> exists v, alookup fkey_eqb (vi_key x) fs = Some v /\ P x v.
Proof.
  induction L as [|x L IH]; intros ND HP; [exists []; intros x []|].
  destruct (IH (fun a b Ha Hb => ND a b (or_intror Ha) (or_intror Hb)) (fun y Hy => HP y (or_intror Hy))) as [fs Hfs].
  destruct (HP x (or_introl eq_refl)) as [v Hv]. exists ((vi_key x, v) :: fs). intros y Hy. cbn [alookup].
  destruct (fkey_eqb (vi_key y) (vi_key x)) eqn:Ek.
  - apply fkey_eqb_eq in Ek. assert (y = x) by (apply ND; [exact Hy|left; reflexivity|exact Ek]). subst y. eauto.
  - destruct Hy as [<-|Hy]; [|apply Hfs; exact Hy]. exfalso. assert (E: fkey_eqb (vi_key x) (vi_key x) = true) by (apply fkey_eqb_eq; reflexivity). congruence.
Qed.

Lemma evolve_class Gw Gr H0 H ex ver c L fs0 os :
  alloc_ok Gr -> place_ok Gr -> heap_good (across Gw Gr) H -> heap_alike Gw H0 H ->
  visits (across Gw Gr) ver 0 c L -> repeatable (across Gw Gr) L ->
  (forall x, In x L -> exists o v0 v, alookup fkey_eqb (vi_key x) os = Some o /\ alookup fkey_eqb (vi_key x) fs0 = Some v0
      /\ alike Gw (vi_w x) (vi_ty x) v0 v /\ good (across Gw Gr) H ex (vi_w x) (vi_r x) (vi_ty x) o v) ->
  exists F, forall fuel, (F <= fuel)%nat -> exists bs,
    toBinary Gw H0 fuel c fs0 ver = ROk bs
    /\ forall h0 rest, exists os' h' ptrs ro,
         restoreFromBinary Gr fuel c os (bs ++ rest) h0
           = ROk (os', restored_version (across Gw Gr) ver 0 c, rest, {| r_heap := h'; r_ptr := ptrs |})
         /\ graph_iso Gr H h0 h' ro
         /\ (forall x, In x L -> exists v0 v v', alookup fkey_eqb (vi_key x) fs0 = Some v0 /\ alike Gw (vi_w x) (vi_ty x) v0 v
               /\ alookup fkey_eqb (vi_key x) os' = Some v' /\ same_value Gr ro (vi_ty x) v v')
         /\ (forall k, ~ In k (map vi_key L) -> alookup fkey_eqb k os' = alookup fkey_eqb k os).
Proof.
  intros HA HP HG HH V ND HL. set (A := across Gw Gr) in *.
  destruct (choose_members (fun x v => exists o v0, alookup fkey_eqb (vi_key x) os = Some o /\ alookup fkey_eqb (vi_key x) fs0 = Some v0
      /\ alike Gw (vi_w x) (vi_ty x) v0 v /\ good A H ex (vi_w x) (vi_r x) (vi_ty x) o v) L (repeatable_same _ _ ND)) as [fs Hfs].
  { intros x Hx. destruct (HL x Hx) as (o & v0 & v & Q). exists v, o, v0. exact Q. }
  destruct (cls_total A H (unwritten H []) ver 0 fs c L V) with (W := @nil N) as (F & bs & W' & E & _).
  { intros x Hx. destruct (Hfs x Hx) as (v & Ev & o & v0 & _ & _ & _ & Hg). exists v. split; [exact Ev|].
    intros W HW. eapply (write_total_n A H HG (unwritten H [])); eauto. }
  { lia. }
  exists F. intros fuel Hle.
  assert (E': write_cls A H fuel ver c fs [] = ROk (bs, W')) by (eapply write_cls_more; [exact Hle|exact E|discriminate]).
  exists bs. split.
  - unfold toBinary. rewrite (proj2 (across_write Gw Gr H0 H HH fuel) ver c fs0 fs [] (bs, W')); [reflexivity| |exact E'].
    intros k e t v Hw Hk. destruct (visits_written_as _ _ _ _ _ _ V k e t Hw) as (x & Hx & <- & <- & <-).
    destruct (Hfs x Hx) as (v1 & Ev & o & v0 & _ & E0 & Hal & _). exists v0. split; [exact E0|]. congruence.
  - intros h0 rest. destruct (class_round_trip A H ex fuel ver 0 c L fs os bs W' HA HP HG V ND) with (h0 := h0) (rest := rest)
      as (os' & h' & ptrs & ro & R & I & Q1 & Q2).
    { intros x Hx. destruct (Hfs x Hx) as (v & Ev & o & v0 & Eo & _ & _ & Hg). exists o, v. auto. }
    { exact E'. }
    exists os', h', ptrs, ro. split; [|split; [|split]].
    + unfold restoreFromBinary. pose proof (proj2 (across_read Gw Gr fuel) 0 c os (bs ++ rest) {| r_heap := h0; r_ptr := [] |}) as L'.
      fold A in L'. rewrite R in L'. destruct L' as [L'|L']; [discriminate|exact L'].
    + eapply across_iso; exact I.
    + intros x Hx. destruct (Q1 x Hx) as (v & v' & Ev & Ev' & S). destruct (Hfs x Hx) as (v1 & Ev1 & o & v0 & _ & E0 & Hal & _).
      exists v0, v, v'. split; [exact E0|]. split; [congruence|]. split; [exact Ev'|]. eapply across_same_value; exact S.
    + exact Q2.
Qed.

(** data of a version the reading program does not know *)
Lemma newer_refused Gw Gr H0 fuel fuel' c w r p fs0 os ver bs rest h0 :
  g_class Gw c = Some w -> g_class Gr c = Some r -> rc_rd r = Some p ->
  bp_bases (rc_wr w) = [] -> bp_bases p = [] -> bp_vmax (rc_wr w) <> 0 -> bp_vmax p <> 0 ->
  toBinary Gw H0 fuel c fs0 ver = ROk bs ->
  bp_vmax p < (if ver =? 0 then bp_vmax (rc_wr w) else ver) ->
  restoreFromBinary Gr (S fuel') c os (bs ++ rest) h0
    = RThrow (ExVersion (if ver =? 0 then bp_vmax (rc_wr w) else ver) (bp_vmax p) (rc_name r)).
Proof.
  intros Hw Hr Hp Bw Br Vw Vr E Hlt. unfold toBinary in E. apply rbind_ok in E. destruct E as [[b W] [E1 E]]. inversion E; subst b; clear E.
  destruct fuel as [|f]; [discriminate|]. rewrite write_cls_S in E1. unfold write_cls_body in E1. rewrite Hw in E1. cbv zeta in E1.
  apply rbind_ok in E1. destruct E1 as [[bb W1] [E1 E2]]. rewrite Bw in E1. cbn [wr_iter] in E1. inversion E1; subst; clear E1.
  apply rbind_ok in E2. destruct E2 as [bv [E2 E3]]. apply rbind_ok in E3. destruct E3 as [[bm W2] [E3 E4]]. inversion E4; subst; clear E4.
  apply N.eqb_neq in Vw. rewrite Vw in E2. cbn [negb andb] in E2. cbn [app].
  unfold restoreFromBinary. rewrite read_cls_S. unfold read_cls_body. rewrite Hr, Hp, Br. cbn [rd_iter rbind].
  apply N.eqb_neq in Vr. rewrite Vr. rewrite <- app_assoc, (rd_wr_varint _ _ _ E2). cbn [rbind].
  replace (_ <=? bp_vmax p) with false by (symmetry; apply N.leb_gt; exact Hlt). reflexivity.
Qed.

(** ... likewise if the class has base classes: they are read first *)
Lemma newer_refused_derived Gw Gr H0 H ex fuel c w r p Ls fs0 os ver bs :
  alloc_ok Gr -> place_ok Gr -> heap_good (across Gw Gr) H -> heap_alike Gw H0 H ->
  g_class Gw c = Some w -> g_class Gr c = Some r -> rc_rd r = Some p ->
  bp_bases (rc_wr w) = bp_bases p -> Forall2 (visits (across Gw Gr) ver 0) (bp_bases p) Ls -> repeatable (across Gw Gr) (concat Ls) ->
  (forall x, In x (concat Ls) -> exists o v0 v, alookup fkey_eqb (vi_key x) os = Some o /\ alookup fkey_eqb (vi_key x) fs0 = Some v0
      /\ alike Gw (vi_w x) (vi_ty x) v0 v /\ good (across Gw Gr) H ex (vi_w x) (vi_r x) (vi_ty x) o v) ->
  bp_vmax (rc_wr w) <> 0 -> bp_vmax p <> 0 ->
  toBinary Gw H0 fuel c fs0 ver = ROk bs ->
  bp_vmax p < (if ver =? 0 then bp_vmax (rc_wr w) else ver) ->
  exists F, forall fuel', (F <= fuel')%nat -> forall rest h0, restoreFromBinary Gr fuel' c os (bs ++ rest) h0
    = RThrow (ExVersion (if ver =? 0 then bp_vmax (rc_wr w) else ver) (bp_vmax p) (rc_name r)).
Proof.
  intros HA HP HG HH Hw Hr Hp HB V ND HL Vw Vr E Hlt. set (A := across Gw Gr) in *.
  destruct (choose_members (fun x v => exists o v0, alookup fkey_eqb (vi_key x) os = Some o /\ alookup fkey_eqb (vi_key x) fs0 = Some v0
      /\ alike Gw (vi_w x) (vi_ty x) v0 v /\ good A H ex (vi_w x) (vi_r x) (vi_ty x) o v) (concat Ls) (repeatable_same _ _ ND)) as [fs Hfs].
  { intros x Hx. destruct (HL x Hx) as (o & v0 & v & Q). exists v, o, v0. exact Q. }
  unfold toBinary in E. apply rbind_ok in E. destruct E as [[b W] [E1 E]]. inversion E; subst b; clear E.
  destruct fuel as [|f]; [discriminate|]. rewrite write_cls_S in E1. unfold write_cls_body in E1. rewrite Hw in E1. cbv zeta in E1.
  apply rbind_ok in E1. destruct E1 as [[bb W1] [E1 E2]].
  apply rbind_ok in E2. destruct E2 as [bv [E2 E3]]. apply rbind_ok in E3. destruct E3 as [[bm W2] [E3 E4]]. inversion E4; subst; clear E4.
  apply N.eqb_neq in Vw. rewrite Vw in E2. cbn [negb andb] in E2.
  (* the bases, written as the reading program sees them *)
  assert (T : exists F bb' W1', (forall F', (F <= F')%nat -> wr_iter (fun b => write_cls A H F' ver b fs) (bp_bases p) [] = ROk (bb', W1')) /\ incl [] W1').
  { apply (iter_total H (fun F b => write_cls A H F ver b fs) (unwritten H [])); [intros; eapply wrc_ok_more; eauto| |apply PeanoNat.Nat.le_refl].
    intros x Hx W0 HW0.
    assert (VL : exists L, visits A ver 0 x L /\ incl L (concat Ls)).
    { clear - V Hx. induction V as [|b L bs Ls Hb V IH]; [destruct Hx|]. destruct Hx as [<-|Hx].
      - exists L. split; [exact Hb|]. cbn. intros y Hy. apply in_or_app. left; exact Hy.
      - destruct (IH Hx) as (L' & VL & I). exists L'. split; [exact VL|]. cbn. intros y Hy. apply in_or_app. right. apply I; exact Hy. }
    destruct VL as (L & VL & I). destruct (cls_total A H (unwritten H []) ver 0 fs x L VL) with (W := W0) as (F & b' & W' & Q & QI); [|exact HW0|exists F, b', W'; auto].
    intros y Hy. destruct (Hfs y (I y Hy)) as (v & Ev & o & v0 & _ & _ & _ & Hg). exists v. split; [exact Ev|].
    intros W' HW'. eapply (write_total_n A H HG (unwritten H [])); eauto. }
  destruct T as (F & bb' & W1' & T & _).
  (* they are written like this by the writing program *)
  assert (EB : bb' = bb).
  { pose (M := Nat.max F f). assert (T' := T M (PeanoNat.Nat.le_max_l _ _)).
    assert (G1 : forall l W' r', (forall b, In b l -> In b (bp_bases p)) -> wr_iter (fun b => write_cls A H M ver b fs) l W' = ROk r' -> wr_iter (fun b => write_cls Gw H0 M ver b fs0) l W' = ROk r').
    { induction l as [|x l IH]; intros W' r' S Q; [exact Q|]. destruct r' as [q W'']. apply wr_iter_cons in Q. destruct Q as (b1 & W3 & b2 & Q1 & Q2 & ->).
      cbn [wr_iter]. rewrite (proj2 (across_write Gw Gr H0 H HH M) ver x fs0 fs W' (b1, W3)); [|
        |exact Q1].
      - cbn [rbind]. rewrite (IH W3 (b2, W'')); [reflexivity| |exact Q2]. intros y Hy. apply S. right; exact Hy.
      - intros k e t v Hk Hv.
        assert (VL : exists L, visits A ver 0 x L /\ incl L (concat Ls)).
        { assert (Hx := S x (or_introl eq_refl)). clear - V Hx. induction V as [|b L bs Ls Hb V IH]; [destruct Hx|]. destruct Hx as [<-|Hx].
          - exists L. split; [exact Hb|]. cbn. intros y Hy. apply in_or_app. left; exact Hy.
          - destruct (IH Hx) as (L' & VL & I). exists L'. split; [exact VL|]. cbn. intros y Hy. apply in_or_app. right. apply I; exact Hy. }
        destruct VL as (L & VL & I). destruct (visits_written_as _ _ _ _ _ _ VL k e t Hk) as (y & Hy & <- & <- & <-).
        destruct (Hfs y (I y Hy)) as (v1 & Ev & o & v0 & _ & E0 & Hal & _). exists v0. split; [exact E0|]. congruence. }
    assert (G2 : forall l W' r', wr_iter (fun b => write_cls Gw H0 f ver b fs0) l W' = ROk r' -> wr_iter (fun b => write_cls Gw H0 M ver b fs0) l W' = ROk r').
    { induction l as [|x l IH]; intros W' r' Q; [exact Q|]. destruct r' as [q W'']. apply wr_iter_cons in Q. destruct Q as (b1 & W3 & b2 & Q1 & Q2 & ->).
      cbn [wr_iter]. rewrite (wrc_ok_more Gw H0 f M ver x fs0 W' (b1, W3) (PeanoNat.Nat.le_max_r _ _) Q1). cbn [rbind]. rewrite (IH W3 (b2, W'') Q2). reflexivity. }
    rewrite HB in E1. assert (X := G1 _ _ _ (fun b Hb => Hb) T'). assert (Y := G2 _ _ _ E1). rewrite X in Y. injection Y; auto. }
  subst bb'. exists (S F). intros fuel' Hle rest h0. destruct fuel' as [|g]; [lia|].
  destruct (P_all A H HA HP HG g) as [_ PC].
  destruct (bases_rt A H g ex ver 0 fs PC _ _ V os [] bb W1' ND) with (ro := @nil (N * N)) (st := {| r_heap := h0; r_ptr := [] |}) (rest := bv ++ bm ++ rest) as (os' & st' & ro' & RR & _).
  { intros x Hx. destruct (Hfs x Hx) as (v & Ev & o & v0 & Eo & _ & _ & Hg). exists o, v. auto. }
  { apply T. lia. }
  { apply sync_init. }
  unfold restoreFromBinary. rewrite read_cls_S. unfold read_cls_body. rewrite Hr, Hp. rewrite <- !app_assoc.
  assert (RG : rd_iter (fun b '(os, s, st) => let! (os', _, s', st') := read_cls Gr g 0 b os s st in ROk (os', s', st')) (bp_bases p) (os, bb ++ bv ++ bm ++ rest, {| r_heap := h0; r_ptr := [] |}) = ROk (os', bv ++ bm ++ rest, st')).
  { clear - RR. revert RR. generalize (os, bb ++ bv ++ bm ++ rest, {| r_heap := h0; r_ptr := [] |}). induction (bp_bases p) as [|x l IH]; intros s Q; [exact Q|].
    cbn [rd_iter] in Q |- *. destruct s as [[o s] st]. apply rbind_ok in Q. destruct Q as [s1 [Q1 Q2]]. apply rbind_ok in Q1. destruct Q1 as [[[[o2 v2] s2] st2] [Q1 Q3]].
    pose proof (proj2 (across_read Gw Gr g) 0 x o s st) as L. fold A in L. rewrite Q1 in L. destruct L as [L|L]; [discriminate|]. rewrite L. cbn [rbind]. injection Q3 as <-. apply IH. exact Q2. }
  eapply rbind_eq; [exact RG|]. cbn beta iota.
  apply N.eqb_neq in Vr. rewrite Vr. rewrite (rd_wr_varint _ _ _ E2). cbn [rbind].
  replace (_ <=? bp_vmax p) with false by (symmetry; apply N.leb_gt; exact Hlt). reflexivity.
Qed.
