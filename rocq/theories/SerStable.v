(** SerStable.v -- equal values are serialised to the same document; what has been restored can be serialised again *)
From Coq Require Import String List NArith ZArith Bool Lia Permutation.
From Verif Require Import Base BaseFacts Bytes Types TypesFacts BinModel FuelFacts BinTotal BinFacts BinTerm BinSpec BinSafeSpec BinTop Float FloatFacts
  JsonModel JsonRel JsonSpec JsonTop JsonSafeSpec JsonText JsonTextSpec JsonTextTop JsonTextEnd DispatchSpec SerSpec SerFacts SerJson.
Import ListNotations.
Local Open Scope list_scope.
Local Open Scope nat_scope.

Lemma iter_ext {A B} (p q : A -> res B) l : (forall x, In x l -> p x = q x) -> push_iter p l = push_iter q l.
Proof.
  induction l as [|x l IH]; intros Hx; [reflexivity|]. cbn [push_iter]. rewrite (Hx x (or_introl eq_refl)), (IH (fun y I => Hx y (or_intror I))). reflexivity.
Qed.
Lemma fold_ext {A} (p q : A -> list (bytes * json) -> res (list (bytes * json))) l : (forall x ms, In x l -> p x ms = q x ms) -> forall ms, push_fold p l ms = push_fold q l ms.
Proof.
  induction l as [|x l IH]; intros Hx ms; [reflexivity|]. cbn [push_fold]. rewrite (Hx x ms (or_introl eq_refl)).
  destruct (q x ms); cbn; try reflexivity. apply IH. intros y m I; apply Hx; right; exact I.
Qed.
Lemma iter_two {A B} (p q : A -> res B) : forall l m, length l = length m -> (forall x y, In (x, y) (combine l m) -> p x = q y) -> push_iter p l = push_iter q m.
Proof.
  induction l as [|x l IH]; intros [|y m] L Hx; try discriminate; [reflexivity|]. cbn [push_iter]. rewrite (Hx x y (or_introl eq_refl)).
  rewrite (IH m); [reflexivity|cbn in L; lia|]. intros a b I. apply Hx. right; exact I.
Qed.
Lemma fold_two {A} (p q : A -> list (bytes * json) -> res (list (bytes * json))) : forall l m, length l = length m ->
  (forall x y, In (x, y) (combine l m) -> forall ms, p x ms = q y ms) -> forall ms, push_fold p l ms = push_fold q m ms.
Proof.
  induction l as [|x l IH]; intros [|y m] L Hx ms; try discriminate; [reflexivity|]. cbn [push_fold]. rewrite (Hx x y (or_introl eq_refl)).
  destruct (q y ms); cbn; try reflexivity. apply IH; [cbn in L; lia|]. intros u w I. apply Hx. right; exact I.
Qed.

Lemma shfree_lookup fs k v : shfree (VObj fs) = true -> alookup fkey_eqb k fs = Some v -> shfree v = true.
Proof. cbn. intros F E. destruct (lookup_in fs k v E) as [k' I]. rewrite forallb_forall in F. exact (F _ I). Qed.

(** without shared pointers the heap does not matter *)
Lemma push_heap_free G J H h f :
  (forall t v, shfree v = true -> push G J H f t v = push G J h f t v)
  /\ (forall c fs ms, shfree (VObj fs) = true -> push_cls G J H f c fs ms = push_cls G J h f c fs ms).
Proof.
  induction f as [|f [IH IHc]]; [split; reflexivity|]. split.
  - intros t v Fv. rewrite !push_S.
    assert (L: forall l x, v = VList l -> In x l -> shfree x = true) by (intros l x -> I; cbn in Fv; rewrite forallb_forall in Fv; auto).
    destruct t; destruct v as [ | b | z | n0 | n0 | s | l | x y | [x|] | [a|] | i x | | | fs ]; try reflexivity; try discriminate; cbn [push_body].
    all: try (rewrite (iter_ext (push G J H f t) (push G J h f t)); [reflexivity|]; intros x Hx; apply IH, (L l); auto; fail).
    all: try (apply IH; exact Fv).
    + assert (Q: forall k w, In (VPair k w) l -> push G J H f t2 w = push G J h f t2 w).
      { intros k w I. apply IH. specialize (L l _ eq_refl I). cbn in L. apply andb_true_iff in L. apply L. }
      destruct multi, t1; try reflexivity; (erewrite fold_ext; [reflexivity|]); intros x ms Hx; destruct x; try reflexivity; cbv beta iota;
      match goal with |- context [match ?k with VUndef => _ | _ => _ end] => destruct k; try reflexivity end; rewrite (Q _ _ Hx); reflexivity.
    + cbn in Fv. apply andb_true_iff in Fv. rewrite (IH t1 x (proj1 Fv)), (IH t2 y (proj2 Fv)). reflexivity.
    + destruct ts as [|t0 ts]; [reflexivity|]. destruct (_ =? _)%nat; [|reflexivity]. erewrite iter_ext; [reflexivity|]. intros [t' x] Hx.
      apply IH, (L l); [reflexivity|]. eapply in_combine_r; exact Hx.
    + destruct (nth_error ts i) as [t'|]; [|reflexivity]. rewrite (IH t' x Fv). reflexivity.
    + rewrite IHc; [reflexivity|exact Fv].
  - intros c fs ms Ff. rewrite !push_cls_S. unfold push_cls_body. destruct (g_class G c) as [rc|]; [|reflexivity].
    erewrite fold_ext; [|intros b m Hb; apply IHc; exact Ff]. destruct (push_fold _ (jp_bases _) ms) as [ms1| | | |]; cbn; try reflexivity.
    apply fold_ext. intros fd m Hfd. destruct (alookup fkey_eqb (jf_key fd) fs) as [v|] eqn:E; [|reflexivity].
    rewrite (IH (jf_ty fd) v); [reflexivity|]. eapply shfree_lookup; eassumption.
Qed.

Lemma ordered_alt C ts i t : ordered_type C (TVariant ts) -> nth_error ts i = Some t -> ordered_type C t.
Proof. revert i. induction ts as [|u ts IH]; intros [|i] A E; try discriminate; [injection E as ->; apply A|apply (IH i); [apply A|exact E]]. Qed.

Section Same.
  Variables (G : genv) (C : N -> Prop) (J : jenv) (H h0 h : heap).
  Hypothesis PO : pushers_ok G.
  Hypothesis OM : ordered_members G C.

  Definition same_members (c : N) (fs fs' : list (fkey * val)) : Prop := exists rc, g_class G c = Some rc
    /\ forall k t v v', alookup fkey_eqb k (rc_layout rc) = Some t -> alookup fkey_eqb k fs = Some v -> alookup fkey_eqb k fs' = Some v' ->
         jsame G H h0 h t v v'.

  Lemma same_keys (fs fs' : list (fkey * val)) k : map fst fs' = map fst fs -> alookup fkey_eqb k fs = None -> alookup fkey_eqb k fs' = None.
  Proof.
    revert fs'. induction fs as [|[a x] fs IH]; intros [|[b y] fs'] E L; try discriminate; [reflexivity|]. cbn in *. injection E as -> E.
    destruct (fkey_eqb k a); [discriminate|]. apply IH; assumption.
  Qed.

  Lemma push_same f :
    (forall t v v', ordered_type C t -> jsame G H h0 h t v v' -> push G J H f t v = push G J h f t v')
    /\ (forall c fs fs' ms, C c -> map fst fs' = map fst fs -> same_members c fs fs' -> push_cls G J H f c fs ms = push_cls G J h f c fs' ms).
  Proof.
    induction f as [|f [IH IHc]]; [split; reflexivity|]. split.
    - intros t v v' Ot S. destruct S.
      + apply push_heap_free. assumption.
      + rewrite !push_S. cbn [push_body]. rewrite (iter_two (push G J H f t) (push G J h f t) l l'); auto.
      + destruct Ot as [-> Ot]. subst l'. rewrite !push_S. cbn [push_body]. rewrite (iter_two (push G J H f t) (push G J h f t) l m); auto.
      + destruct Ot as [-> [Ok Ov]]. subst l'. rewrite !push_S.
        assert (Q: forall x y, In (x, y) (combine l m) -> (exists k w w', x = VPair k w /\ y = VPair k w' /\ push G J H f vt w = push G J h f vt w') \/ kt <> TString \/ (x = y /\ shfree x = true)).
        { intros x y I. specialize (H1 x y I). inversion H1; subst.
          - right; right. auto.
          - destruct (ty_eqb kt TString) eqn:Ek; [apply ty_eqb_eq in Ek; subst kt|right; left; intros ->; rewrite ty_eqb_refl in Ek; discriminate].
            left. match goal with A : jsame _ _ _ _ TString ?a ?a', B : jsame _ _ _ _ vt ?b ?b' |- _ => inversion A; subst; exists a', b, b' end.
            split; [reflexivity|]. split; [reflexivity|]. apply IH; assumption. }
        assert (R: forall x y, In (x, y) (combine l m) -> kt <> TString \/ (forall k, x <> VPair (VStr k) (match x with VPair _ w => w | _ => x end)) /\ (forall k, y <> VPair (VStr k) (match y with VPair _ w => w | _ => y end)) \/
          exists k w w', x = VPair (VStr k) w /\ y = VPair (VStr k) w' /\ push G J H f vt w = push G J h f vt w').
        { intros x y I. destruct (Q x y I) as [(k & w & w' & -> & -> & E) | [N | [-> Fx]]].
          - destruct k; try (right; left; split; congruence). right; right. eauto 10.
          - left; exact N.
          - destruct y as [ | | | | | | | k w | | | | | | ]; try (right; left; split; congruence). destruct k; try (right; left; split; congruence).
            right; right. exists s, w, w. split; [reflexivity|]. split; [reflexivity|]. apply push_heap_free. cbn in Fx. exact Fx. }
        destruct multi, kt; try reflexivity; cbn [push_body]; (erewrite fold_two; [reflexivity|assumption|]); intros x y I ms;
        (destruct (R x y I) as [N | [[N1 N2] | (k & w & w' & -> & -> & E)]]; [congruence| |cbv beta iota; rewrite E; reflexivity]);
        (transitivity (@RStuck (list (bytes * json))); [destruct x as [ | | | | | | | k w | | | | | | ]; try reflexivity; destruct k; try reflexivity; exfalso; eapply N1; reflexivity
         |destruct y as [ | | | | | | | k w | | | | | | ]; try reflexivity; destruct k; try reflexivity; exfalso; eapply N2; reflexivity]).
      + destruct Ot as [Oa Ob]. rewrite !push_S. cbn [push_body]. rewrite (IH _ _ _ Oa S1), (IH _ _ _ Ob S2). reflexivity.
      + rewrite !push_S. destruct ts as [|t0 ts]; [reflexivity|]. cbn [push_body]. rewrite (proj2 (Nat.eqb_eq _ _) H0), (proj2 (Nat.eqb_eq _ _) H1).
        erewrite (iter_two _ (fun '(t', x) => push G J h f t' x) (combine (t0 :: ts) l) (combine (t0 :: ts) l')); [reflexivity|rewrite !combine_length; lia|].
        intros [t1 x] [t2 y] I. apply in_combine_nth in I. destruct I as (i & E1 & E2).
        assert (N: forall (A B : Type) (l : list A) (m : list B) i x y, nth_error (combine l m) i = Some (x, y) -> nth_error l i = Some x /\ nth_error m i = Some y).
        { clear. induction l as [|a l IH]; intros [|b m] [|i] x y E; try discriminate; [inversion E; auto|exact (IH m i x y E)]. }
        destruct (N _ _ _ _ _ _ _ E1) as [A1 A2]. destruct (N _ _ _ _ _ _ _ E2) as [B1 B2].
        assert (t1 = t2) by congruence. subst t2. apply IH; [exact (ordered_alt C (t0 :: ts) i t1 Ot A1)|]. eapply H2; eassumption.
      + rewrite !push_S. cbn [push_body]. apply IH; assumption.
      + rewrite !push_S. cbn [push_body]. apply IH; assumption.
      + rewrite !push_S. cbn [push_body]. rewrite H0, H2, ty_eqb_refl. apply IH; assumption.
      + rewrite !push_S. cbn [push_body]. rewrite H0. rewrite (IH t x x'); [reflexivity|eapply ordered_alt; eassumption|exact S].
      + rewrite !push_S. cbn [push_body]. rewrite (IHc c fs fs' []); [reflexivity|exact Ot|assumption|]. exists rc. split; assumption.
    - intros c fs fs' ms Cc Ek (rc & Hc & Hm). destruct (OM c rc Cc Hc) as [OF OB]. rewrite !push_cls_S. unfold push_cls_body. rewrite Hc.
      rewrite (fold_ext (fun b ms => push_cls G J H f b fs ms) (fun b ms => push_cls G J h f b fs' ms)).
      2: { intros b m Hb. apply IHc; [exact (OB b Hb)|exact Ek|]. destruct (po_bases G PO c rc b Hc Hb) as (rb & Eb & L). exists rb. split; [exact Eb|].
           intros k t v v' E. apply Hm, L, E. }
      destruct (push_fold _ (jp_bases _) ms) as [ms1| | | |]; cbn; try reflexivity. apply fold_ext. intros fd m Hfd.
      destruct (alookup fkey_eqb (jf_key fd) fs) as [v|] eqn:Ev.
      + destruct (alookup fkey_eqb (jf_key fd) fs') as [v'|] eqn:Ev'.
        * rewrite (IH (jf_ty fd) v v'); [reflexivity|exact (OF fd Hfd)|]. eapply Hm; [exact (po_fields G PO c rc fd Hc Hfd)|exact Ev|exact Ev'].
        * rewrite (same_keys fs' fs (jf_key fd) (eq_sym Ek) Ev') in Ev. discriminate.
      + rewrite (same_keys fs fs' (jf_key fd) Ek Ev). reflexivity.
  Qed.
End Same.

(** * what has been restored can be serialised again *)
Lemma json_again G C J H ex t old v : alloc_ok G -> place_ok G -> pushers_ok G -> ordered_members G C -> ordered_type C t -> jgood G J H ex t old v ->
  exists F j, forall fuel, F <= fuel ->
    push G J H fuel t v = ROk j
    /\ forall h er, exists v' h' er',
         pull G J fuel t old j {| p_heap := h; p_err := er |} = POk v' {| p_heap := h'; p_err := er' |}
         /\ push G J h' fuel t v' = ROk j.
Proof.
  intros HA HP PO OM OT Hg. destruct (json_round_trip G J H ex t old v HA HP Hg) as (F & j & R). exists F, j. intros fuel L.
  destruct (R fuel L) as [E P]. split; [exact E|]. intros h er. destruct (P h er) as (v' & h' & er' & E' & S & _). exists v', h', er'. split; [exact E'|].
  rewrite <- (proj1 (push_same G C J H h h' PO OM fuel) t v v' OT S). exact E.
Qed.
Lemma document_same G C J H h0 h fuel t v v' : pushers_ok G -> ordered_members G C -> ordered_type C t -> jsame G H h0 h t v v' ->
  toJsonDocument G J H fuel t v = toJsonDocument G J h fuel t v'.
Proof.
  intros PO OM OT S. pose proof (proj1 (push_same G C J H h0 h PO OM fuel) t v v' OT S) as Q. unfold toJsonDocument. destruct t; try exact Q; try reflexivity.
  destruct (json_kind k); [exact Q|reflexivity].
Qed.
Lemma document_again G C J H ex t v : alloc_ok G -> place_ok G -> pushers_ok G -> ordered_members G C -> ordered_type C t ->
  jgood G J H ex t (dinit G t) v -> top_type t v ->
  exists F j, forall fuel, F <= fuel ->
    toJsonDocument G J H fuel t v = ROk j
    /\ forall h er, exists v' h' er',
         fromJson G J fuel t j {| p_heap := h; p_err := er |} = POk v' {| p_heap := h'; p_err := er' |}
         /\ toJsonDocument G J h' fuel t v' = ROk j.
Proof.
  intros HA HP PO OM OT Hg Ht. destruct (fromJson_round_trip G J H ex t v HA HP Hg Ht) as (F & j & R). exists F, j. intros fuel L.
  destruct (R fuel L) as [E P]. split; [exact E|]. intros h er. destruct (P h er) as (v' & h' & er' & E' & S & _). exists v', h', er'. split; [exact E'|].
  rewrite <- (document_same G C J H h h' fuel t v v' PO OM OT S). exact E.
Qed.
Lemma text_again T G C J H ex t v j f : alloc_ok G -> place_ok G -> dtoa_ok T -> pushers_ok G -> ordered_members G C -> ordered_type C t ->
  jgood G J H ex t (dinit G t) v -> top_type t v ->
  toJsonDocument G J H f t v = ROk j -> finite j -> doubles (survives T) j ->
  exists F text, forall fuel, F <= fuel ->
    toJson T G J H fuel t v = ROk text
    /\ forall h er, exists v' h' er',
         fromJsonText T G J fuel t text {| p_heap := h; p_err := er |} = Some (POk v' {| p_heap := h'; p_err := er' |})
         /\ toJson T G J h' fuel t v' = ROk text.
Proof.
  intros HA HP D PO OM OT Hg Ht Ej Fj Dj. destruct (text_round_trip T G J H ex t v j f HA HP D Hg Ht Ej Fj Dj) as (F & text & R).
  exists F, text. intros fuel L. destruct (R fuel L) as [E P]. split; [exact E|]. intros h er. destruct (P h er) as (v' & h' & er' & E' & _ & S & _).
  exists v', h', er'. split; [exact E'|]. unfold toJson in *. rewrite <- (document_same G C J H h h' fuel t v v' PO OM OT S). exact E.
Qed.

(** * different values are serialised differently *)
Import BinModel.
Lemma json_injective G J H1 H2 ex t old v1 v2 f1 f2 j : alloc_ok G -> place_ok G ->
  jgood G J H1 ex t old v1 -> jgood G J H2 ex t old v2 ->
  push G J H1 f1 t v1 = ROk j -> push G J H2 f2 t v2 = ROk j ->
  (exists h v', jsame G H1 [] h t v1 v' /\ jsame G H2 [] h t v2 v') /\ (ex = true -> v1 = v2).
Proof.
  intros HA HP G1 G2 E1 E2. destruct (json_round_trip G J H1 ex t old v1 HA HP G1) as (F1 & j1 & R1).
  destruct (json_round_trip G J H2 ex t old v2 HA HP G2) as (F2 & j2 & R2). set (F := max (max F1 F2) (max f1 f2)).
  destruct (R1 F ltac:(lia)) as [A1 P1]. destruct (R2 F ltac:(lia)) as [A2 P2].
  assert (B1: push G J H1 F t v1 = ROk j) by (eapply push_more; [|exact E1|discriminate]; lia). 
  assert (B2: push G J H2 F t v2 = ROk j) by (eapply push_more; [|exact E2|discriminate]; lia).
  assert (j1 = j) by congruence. assert (j2 = j) by congruence. subst j1 j2.
  destruct (P1 [] None) as (v' & h' & er' & Q1 & S1 & X1 & _). destruct (P2 [] None) as (w' & k' & es' & Q2 & S2 & X2 & _).
  assert (w' = v' /\ k' = h') by (rewrite Q1 in Q2; injection Q2; auto). destruct H as [-> ->]. split; [exists h', v'; auto|].
  intros X. rewrite <- (X1 X), <- (X2 X). reflexivity.
Qed.
Lemma binary_injective G H1 H2 ex wv rv t old v1 v2 f1 f2 b1 b2 W1 W2 r1 r2 : alloc_ok G -> place_ok G -> heap_good G H1 -> heap_good G H2 ->
  good G H1 ex wv rv t old v1 -> good G H2 ex wv rv t old v2 ->
  write G H1 f1 wv t v1 [] = ROk (b1, W1) -> write G H2 f2 wv t v2 [] = ROk (b2, W2) -> b1 ++ r1 = b2 ++ r2 ->
  b1 = b2 /\ r1 = r2
  /\ (exists h v' ro1 ro2, same_value G ro1 t v1 v' /\ graph_iso G H1 [] h ro1 /\ same_value G ro2 t v2 v' /\ graph_iso G H2 [] h ro2)
  /\ (ex = true -> v1 = v2).
Proof.
  intros HA HP HG1 HG2 G1 G2 E1 E2 E.
  assert (X: r1 = r2 /\ (exists h v' ro1 ro2, same_value G ro1 t v1 v' /\ graph_iso G H1 [] h ro1 /\ same_value G ro2 t v2 v' /\ graph_iso G H2 [] h ro2)).
  { destruct (binary_round_trip G H1 ex wv rv t old v1 HA HP HG1 G1) as (F1 & R1). destruct (binary_round_trip G H2 ex wv rv t old v2 HA HP HG2 G2) as (F2 & R2).
    set (F := max (max F1 F2) (max f1 f2)). destruct (R1 F ltac:(lia)) as (c1 & U1 & A1 & P1). destruct (R2 F ltac:(lia)) as (c2 & U2 & A2 & P2).
    assert (B1: write G H1 F wv t v1 [] = ROk (b1, W1)) by (eapply wr_ok_more; [|exact E1]; lia).
    assert (B2: write G H2 F wv t v2 [] = ROk (b2, W2)) by (eapply wr_ok_more; [|exact E2]; lia).
    assert (c1 = b1) by congruence. assert (c2 = b2) by congruence. subst c1 c2.
    destruct (P1 [] r1) as (v' & h' & ptrs & ro1 & Q1 & S1 & I1). destruct (P2 [] r2) as (w' & k' & ptrs2 & ro2 & Q2 & S2 & I2).
    rewrite E, Q2 in Q1. injection Q1 as -> -> -> ->. split; [reflexivity|]. exists h', v', ro1, ro2. auto. }
  destruct X as [-> Y]. split; [eapply app_inv_tail; exact E|]. split; [reflexivity|]. split; [exact Y|]. intros ->.
  destruct (binary_round_trip_exact G H1 wv rv t old v1 HA HP HG1 G1) as (F1 & R1). destruct (binary_round_trip_exact G H2 wv rv t old v2 HA HP HG2 G2) as (F2 & R2).
  set (F := max (max F1 F2) (max f1 f2)). destruct (R1 F ltac:(lia)) as (c1 & U1 & A1 & P1). destruct (R2 F ltac:(lia)) as (c2 & U2 & A2 & P2).
  assert (B1: write G H1 F wv t v1 [] = ROk (b1, W1)) by (eapply wr_ok_more; [|exact E1]; lia).
  assert (B2: write G H2 F wv t v2 [] = ROk (b2, W2)) by (eapply wr_ok_more; [|exact E2]; lia).
  assert (c1 = b1) by congruence. assert (c2 = b2) by congruence. subst c1 c2.
  destruct (P1 [] r2) as (h' & ptrs & Q1). destruct (P2 [] r2) as (k' & ptrs2 & Q2). rewrite E, Q2 in Q1. injection Q1; auto.
Qed.

(** * binary data without shared pointers *)
Lemma wr_iter_ext {A} (w w' : A -> list N -> res (bytes * list N)) l : (forall x W, In x l -> w x W = w' x W) -> forall W, wr_iter w l W = wr_iter w' l W.
Proof.
  induction l as [|x l IH]; intros Hx W; [reflexivity|]. cbn [wr_iter]. rewrite (Hx x W (or_introl eq_refl)).
  destruct (w' x W) as [[b1 W1]| | | |]; cbn; try reflexivity. rewrite IH; [reflexivity|]. intros y V I; apply Hx; right; exact I.
Qed.
Lemma write_heap_free G H h f :
  (forall ver t v W, shfree v = true -> write G H f ver t v W = write G h f ver t v W)
  /\ (forall ver c fs W, shfree (VObj fs) = true -> write_cls G H f ver c fs W = write_cls G h f ver c fs W).
Proof.
  induction f as [|f [IH IHc]]; [split; reflexivity|]. split.
  - intros ver t v W Fv. rewrite !write_S.
    assert (L: forall l x, v = VList l -> In x l -> shfree x = true) by (intros l x -> I; cbn in Fv; rewrite forallb_forall in Fv; auto).
    destruct t; destruct v as [ | b | z | n0 | n0 | s | l | x y | [x|] | [a|] | i x | | | fs ]; try reflexivity; try discriminate; cbn [write_body].
    all: try (destruct (wr_varint _); [cbn [rbind]|reflexivity..]; erewrite wr_iter_ext; [reflexivity|]; intros x W' Hx; apply IH; eapply L; [reflexivity|exact Hx]).
    + cbn in Fv. apply andb_true_iff in Fv. rewrite (IH 0%N t1 x W (proj1 Fv)). destruct (write G h f 0 t1 x W) as [[ba W1]| | | |]; cbn; try reflexivity.
      rewrite (IH 0%N t2 y W1 (proj2 Fv)). reflexivity.
    + cbn in Fv. rewrite (IH 0%N t x W Fv). reflexivity.
    + cbn in Fv. rewrite (IH 0%N t x W Fv). reflexivity.
    + cbn in Fv. destruct (nth_error ts i) as [t'|]; [|reflexivity]. rewrite (IH 0%N t' x W Fv). reflexivity.
    + apply IHc. exact Fv.
  - intros ver c fs W Ff. rewrite !write_cls_S. unfold write_cls_body. destruct (g_class G c) as [rc|]; [|reflexivity]. cbv zeta.
    erewrite wr_iter_ext; [|intros b V Hb; apply IHc; exact Ff]. destruct (wr_iter _ (bp_bases _) W) as [[bb W1]| | | |]; cbn [rbind]; try reflexivity.
    destruct (if negb (bp_vmax (rc_wr rc) =? 0)%N then _ else _); cbn [rbind]; try reflexivity.
    match goal with |- rbind ?A _ = rbind ?B _ => assert (Q: A = B) end; [|rewrite Q; reflexivity].
    apply wr_iter_ext. intros fd V Hfd. destruct (visible _ fd); [|reflexivity].
    destruct (alookup fkey_eqb (bf_key fd) fs) as [v|] eqn:E; [|reflexivity]. apply IH. eapply shfree_lookup; eassumption.
Qed.
Lemma exact_shfree G H ex wv rv t old v : good G H ex wv rv t old v -> ex = true -> shfree v = true.
Proof.
  induction 1; intros X; try reflexivity; try discriminate; try (apply IHgood; exact X); cbn [shfree].
  - apply forallb_forall. intros x I. apply In_nth_error in I. destruct I as [i I]. eauto.
  - apply forallb_forall. intros x I. auto.
  - apply forallb_forall. intros x I. destruct (H3 x I) as (k & v & ->). cbn. rewrite (H5 k v I eq_refl), (H7 k v I X). reflexivity.
  - rewrite IHgood1, IHgood2 by exact X. reflexivity.
  - apply forallb_forall. intros [k v] I. cbn [snd].
    assert (Ev: alookup fkey_eqb k fs = Some v) by (apply (in_alookup fkey_eqb fkey_eqb_eq); assumption).
    destruct (existsb (fkey_eqb k) (map vi_key L)) eqn:Ex.
    + apply existsb_exists in Ex. destruct Ex as (k' & Ik & Ek'). apply fkey_eqb_eq in Ek'. subst k'.
      apply in_map_iff in Ik. destruct Ik as (x & Ek & Ix). subst k.
      destruct (alookup_some_in fkey_eqb fkey_eqb_eq (vi_key x) os) as [o Eo]. { rewrite H1. apply in_map_iff. exists (vi_key x, v). auto. }
      eapply H8; eassumption.
    + apply (H9 k v); [|exact Ev]. intros Ik. assert (C: existsb (fkey_eqb k) (map vi_key L) = true); [|congruence].
      apply existsb_exists. exists k. split; [exact Ik|apply fkey_eqb_eq; reflexivity].
Qed.
Lemma binary_again G H wv rv t old v : alloc_ok G -> place_ok G -> heap_good G H -> good G H true wv rv t old v ->
  exists F, forall fuel, F <= fuel -> exists bs W,
    write G H fuel wv t v [] = ROk (bs, W)
    /\ forall h0 rest, exists v' h' ptrs,
         read G fuel rv t old (bs ++ rest) {| r_heap := h0; r_ptr := [] |} = ROk (v', rest, {| r_heap := h'; r_ptr := ptrs |})
         /\ write G h' fuel wv t v' [] = ROk (bs, W).
Proof.
  intros HA HP HG Hg. destruct (binary_round_trip_exact G H wv rv t old v HA HP HG Hg) as (F & R). exists F. intros fuel L.
  destruct (R fuel L) as (bs & W & E & P). exists bs, W. split; [exact E|]. intros h0 rest. destruct (P h0 rest) as (h' & ptrs & Q). exists v, h', ptrs.
  split; [exact Q|]. rewrite <- (proj1 (write_heap_free G H h' fuel)); [exact E|]. eapply exact_shfree; [exact Hg|reflexivity].
Qed.
