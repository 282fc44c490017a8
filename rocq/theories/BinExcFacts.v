(** BinExcFacts.v -- facts about BinExc.v *)
From Coq Require Import List NArith ZArith Bool Lia Permutation.
From Verif Require Import Base BaseFacts Bytes BytesFacts Types TypesFacts BinModel FuelFacts BinSpec BinSafeSpec BinSafe BinStream BinFacts BinExc.
Import ListNotations.

Lemma xread_S G f : xread G (S f) = xread_body G (xread G f) (xread_cls G f). Proof. reflexivity. Qed.
Lemma xread_cls_S G f : xread_cls G (S f) = xread_cls_body G (xread G f) (xread_cls G f). Proof. reflexivity. Qed.

(** forget what is left behind *)
Definition erase {A} (m : xres A) : res (A * bytes * rstate) :=
  match m with XOk a s st => ROk (a, s, st) | XThrow e _ _ => RThrow e | XUB => RUB | XFuel => RFuel | XStuck => RStuck end.
Definition erase_cls (m : xres (list (fkey * val) * N)) : res (list (fkey * val) * N * bytes * rstate) :=
  match m with XOk (os, v) s st => ROk (os, v, s, st) | XThrow e _ _ => RThrow e | XUB => RUB | XFuel => RFuel | XStuck => RStuck end.

Lemma erase_xseq {A B} (m : xres A) (w : A -> B) k :
  erase (xseq m w k) = rbind (erase m) (fun '(a, s, st) => erase (k a s st)).
Proof. destruct m; reflexivity. Qed.
Lemma erase_xprim {A B} (m : res (A * bytes)) (old : B) st k :
  erase (xprim m old st k) = rbind m (fun '(a, s) => erase (k a s)).
Proof. destruct m as [[a s]|e| | |]; reflexivity. Qed.
Lemma rbind_ext {A B} (m : res A) (k k' : A -> res B) : (forall a, k a = k' a) -> rbind m k = rbind m k'.
Proof. intros E. destruct m; cbn; auto. Qed.

Lemma erase_elements (r : val -> bytes -> rstate -> xres val) (r' : val -> bytes -> rstate -> res (val * bytes * rstate)) d :
  (forall o s st, erase (r o s st) = r' o s st) ->
  forall n olds acc s st,
  (let! (_, acc', s2, st2) :=
     loopnat n (fun '(os, acc, s, st) =>
       let o := match os with o :: _ => o | [] => d end in
       let! (x, s', st') := r' o s st in ROk (tl os, x :: acc, s', st')) (olds, acc, s, st) in
   ROk (VList (rev acc'), s2, st2))
  = (let! (l, s2, st2) := erase (xelements r (firstn n olds ++ repeat d (n - length olds)) s st) in ROk (VList (rev acc ++ l), s2, st2)).
Proof.
  intros Hr. induction n as [|n IH]; intros olds acc s st.
  - cbn. rewrite app_nil_r. reflexivity.
  - assert (E: firstn (S n) olds ++ repeat d (S n - length olds)
             = (match olds with o :: _ => o | [] => d end) :: (firstn n (tl olds) ++ repeat d (n - length (tl olds)))).
    { destruct olds as [|o olds]; cbn; [|reflexivity]. rewrite firstn_nil, Nat.sub_0_r. reflexivity. }
    rewrite E. cbn [loopnat xelements]. rewrite erase_xseq, Hr.
    destruct (r' _ s st) as [[[x s1] st1]|e| | |]; cbn [rbind]; try reflexivity.
    rewrite IH, erase_xseq. destruct (erase (xelements r _ s1 st1)) as [[[l s2] st2]|e| | |]; cbn [rbind erase]; try reflexivity.
    cbn [rev]. rewrite <- app_assoc. reflexivity.
Qed.
Lemma erase_inserts (r : bytes -> rstate -> xres val) (r' : bytes -> rstate -> res (val * bytes * rstate)) ins :
  (forall s st, erase (r s st) = r' s st) ->
  forall n l s st,
  loopnat n (fun '(l, s, st) => let! (x, s', st') := r' s st in ROk (ins x l, s', st')) (l, s, st)
  = erase (xinserts r ins n l s st).
Proof.
  intros Hr. induction n as [|n IH]; intros l s st; [reflexivity|]. cbn [loopnat xinserts]. rewrite erase_xseq, Hr.
  destruct (r' s st) as [[[x s1] st1]|e| | |]; cbn [rbind]; try reflexivity. apply IH.
Qed.
Lemma erase_iter {A} (r : A -> list (fkey * val) -> bytes -> rstate -> xres (list (fkey * val)))
    (r' : A -> list (fkey * val) * bytes * rstate -> res (list (fkey * val) * bytes * rstate)) :
  (forall a os s st, erase (r a os s st) = r' a (os, s, st)) ->
  forall l os s st, rd_iter r' l (os, s, st) = erase (xiter r l os s st).
Proof.
  intros Hr. induction l as [|a l IH]; intros os s st; [reflexivity|]. cbn [rd_iter xiter]. rewrite erase_xseq, Hr.
  destruct (r' a (os, s, st)) as [[[os1 s1] st1]|e| | |]; cbn [rbind]; try reflexivity. apply IH.
Qed.

Lemma xread_erase G f :
  (forall ver t old s st, erase (xread G f ver t old s st) = read G f ver t old s st)
  /\ (forall ver c os s st, erase_cls (xread_cls G f ver c os s st) = read_cls G f ver c os s st).
Proof.
  induction f as [|f [IHv IHc]]; [split; reflexivity|]. split.
  - intros ver t old s st. rewrite xread_S, read_S.
    assert (HP: forall A (m : res (A * bytes)) (k : A -> bytes -> xres val) k', (forall a s1, erase (k a s1) = k' (a, s1)) ->
      erase (xprim m old st k) = rbind m k').
    { intros A m k k' Hk. rewrite erase_xprim. apply rbind_ext. intros [a s1]. apply Hk. }
    destruct t; cbn [xread_body read_body]; try reflexivity.
    + apply HP. reflexivity.
    + destruct (bin_kind k); [apply HP|]; reflexivity.
    + apply HP. reflexivity.
    + apply HP. reflexivity.
    + destruct (bin_kind k); [apply HP|]; reflexivity.
    + apply HP. reflexivity.
    + destruct old; try reflexivity. apply HP. intros n s1. rewrite erase_xseq, loopN_loopnat. unfold resize. symmetry.
      pose proof (erase_elements (xread G f 0 t) (read G f 0 t) (vinit G t) (IHv 0%N t) (N.to_nat n) l [] s1 st) as E.
      cbn zeta in E. rewrite E. apply rbind_ext. intros [[l' s2] st2]. reflexivity.
    + destruct old; try reflexivity. apply HP. intros n s1. rewrite erase_xseq, loopN_loopnat.
      rewrite <- (erase_inserts _ (read G f 0 t (dinit G t)) _ (IHv 0%N t (dinit G t))). apply rbind_ext. intros [[l' s2] st2]. reflexivity.
    + destruct old; try reflexivity. apply HP. intros n s1. rewrite erase_xseq, loopN_loopnat.
      rewrite <- (erase_inserts _ (read G f 0 (TPair t1 t2) (VPair (vinit G t1) (vinit G t2))) _ (IHv 0%N _ _)).
      apply rbind_ext. intros [[l' s2] st2]. reflexivity.
    + destruct old; try reflexivity. rewrite erase_xseq, IHv. apply rbind_ext. intros [[a s1] st1].
      rewrite erase_xseq, IHv. apply rbind_ext. intros [[b s2] st2]. reflexivity.
    + apply HP. intros n s1. destruct (n =? 0)%N; [reflexivity|]. rewrite erase_xseq, IHv. apply rbind_ext. intros [[b s2] st2]. reflexivity.
    + apply HP. intros n s1. destruct (n =? 0)%N; [reflexivity|]. rewrite erase_xseq, IHv. apply rbind_ext. intros [[b s2] st2]. reflexivity.
    + apply HP. intros n s1. destruct (n =? 0)%N; [reflexivity|]. apply HP. intros id s2. destruct (N.land n 3 =? 1)%N.
      * cbv zeta. rewrite <- IHv. destruct (xread G f 0 t (vinit G t) s2 _); reflexivity.
      * destruct (alookup N.eqb id (r_ptr st)) as [[a t'']|]; [|reflexivity]. destruct (ty_eqb t'' t); reflexivity.
    + apply HP. intros n s1. destruct (nth_error ts (N.to_nat n)) as [t|]; [|reflexivity].
      assert (K: erase (xseq (xread G f 0 t (vinit G t) s1 st) (VVar (N.to_nat n)) (fun x s2 st2 => XOk (VVar (N.to_nat n) x) s2 st2))
        = (let! (x, s2, st2) := read G f 0 t (vinit G t) s1 st in ROk (VVar (N.to_nat n) x, s2, st2))).
      { rewrite erase_xseq, IHv. apply rbind_ext. intros [[b s2] st2]. reflexivity. }
      destruct t; try exact K. reflexivity.
    + destruct old; try reflexivity. rewrite erase_xseq, <- IHc. destruct (xread_cls G f ver c fs s st) as [[os v] s1 st1|e a st1| | |]; reflexivity.
    + apply HP. reflexivity.
    + apply HP. reflexivity.
  - intros ver c os s st. rewrite xread_cls_S, read_cls_S. unfold xread_cls_body, read_cls_body.
    destruct (g_class G c) as [rc|]; [|reflexivity]. destruct (rc_rd rc) as [p|]; [|reflexivity].
    rewrite (erase_iter (fun b os s st => xseq (xread_cls G f ver b os s st) fst (fun p s1 st1 => XOk (fst p) s1 st1))).
    2: { intros b os0 s0 st0. rewrite <- IHc. destruct (xread_cls G f ver b os0 s0 st0) as [[os1 v1] s1 st1|e a st1| | |]; reflexivity. }
    destruct (xiter _ (bp_bases p) os s st) as [os1 s1 st1|e a st1| | |]; cbn [xseq erase rbind erase_cls]; try reflexivity.
    match goal with |- erase_cls (xprim ?m _ _ _) = _ => destruct m as [[ver' s2]|e| | |]; cbn [xprim rbind erase_cls]; try reflexivity end.
    match goal with |- erase_cls (xseq (xiter ?r _ _ _ _) _ _) = _ => rewrite (erase_iter r) end.
    2: { intros fd os0 s0 st0. destruct (visible ver' fd); [|reflexivity]. destruct (alookup fkey_eqb (bf_key fd) os0); [|reflexivity].
         rewrite erase_xseq, IHv. apply rbind_ext. intros [[x s3] st3]. reflexivity. }
    match goal with |- erase_cls (xseq ?m _ _) = _ => destruct m; reflexivity end.
Qed.

(** ** type safety *)
Definition xpost {A} (Q : A -> bytes -> rstate -> Prop) (E : A -> rstate -> Prop) (m : xres A) : Prop :=
  match m with XOk a s st => Q a s st | XThrow _ a st => E a st | XFuel => True | XUB | XStuck => False end.
Lemma xpost_seq {A B} (Q : A -> bytes -> rstate -> Prop) (E : A -> rstate -> Prop) (Q' : B -> bytes -> rstate -> Prop) (E' : B -> rstate -> Prop) m w k :
  xpost Q E m -> (forall a st, E a st -> E' (w a) st) -> (forall a s st, Q a s st -> xpost Q' E' (k a s st)) -> xpost Q' E' (xseq m w k).
Proof. intros Hm He Hk. destruct m; cbn in *; auto. Qed.
Lemma xpost_prim {A B} (P : A * bytes -> Prop) (Q : B -> bytes -> rstate -> Prop) (E : B -> rstate -> Prop) m old st k :
  post P m -> E old st -> (forall a s, P (a, s) -> xpost Q E (k a s)) -> xpost Q E (xprim m old st k).
Proof. intros Hm He Hk. destruct m as [[a s]|e| | |]; cbn in *; auto. Qed.
Lemma xpost_imp {A} (Q Q' : A -> bytes -> rstate -> Prop) (E E' : A -> rstate -> Prop) m :
  (forall a s st, Q a s st -> Q' a s st) -> (forall a st, E a st -> E' a st) -> xpost Q E m -> xpost Q' E' m.
Proof. intros HQ HE Hm. destruct m; cbn in *; auto. Qed.

Section Safe.
  Variable G : genv.
  Variable ud : bool.
  Hypothesis HA : alloc_ok G.
  Hypothesis HP : place_ok G.
  Hypothesis HE : env_ok G ud.
  Notation ht := (has_type G ud).
  Notation oldok := (oldok G ud).
  Notation fieldsok := (fieldsok G ud).
  Notation vinit_ht := (vinit_ht G ud HE).
  Notation ht_mono_h := (ht_mono_h G ud).

  (** the state is proper and has the objects of [h0] unchanged *)
  Definition sound (h0 : heap) (st : rstate) : Prop := state_ok G ud st /\ heap_extends h0 (r_heap st).
  Lemma sound_refl st : state_ok G ud st -> sound (r_heap st) st.
  Proof. intros Hs. split; [exact Hs|intros a c Ec; exact Ec]. Qed.
  Lemma sound_trans h0 st st' : sound h0 st -> sound (r_heap st) st' -> sound h0 st'.
  Proof. intros [A1 A2] [B1 B2]. split; [exact B1|]. intros a c Ec. apply B2, A2, Ec. Qed.
  Lemma sound_hle h0 st : sound h0 st -> hle h0 (r_heap st).
  Proof. intros [_ He]. apply extends_hle. exact He. Qed.

  Definition okv (h0 : heap) (t : ty) (v : val) (_ : bytes) (st : rstate) : Prop := ht (r_heap st) t v /\ sound h0 st.
  Definition exv (h0 : heap) (t : ty) (old v : val) (st : rstate) : Prop := (ht (r_heap st) t v \/ v = old) /\ sound h0 st.
  Definition X_val f := forall ver t old s st, readable G t -> oldok (r_heap st) t old -> state_ok G ud st ->
    xpost (okv (r_heap st) t) (exv (r_heap st) t old) (xread G f ver t old s st).
  Definition X_cls f := forall ver c rc p lay os s st, g_class G c = Some rc -> rc_rd rc = Some p ->
    (forall k t, alookup fkey_eqb k (rc_layout rc) = Some t -> alookup fkey_eqb k lay = Some t) ->
    fieldsok (r_heap st) lay os -> state_ok G ud st ->
    xpost (fun a _ st' => fieldsok (r_heap st') lay (fst a) /\ sound (r_heap st) st')
          (fun a st' => fieldsok (r_heap st') lay (fst a) /\ sound (r_heap st) st') (xread_cls G f ver c os s st).

  Lemma xpost_iter {A} (r : A -> list (fkey * val) -> bytes -> rstate -> xres (list (fkey * val))) lay l h0 :
    (forall a os s st, In a l -> fieldsok (r_heap st) lay os -> sound h0 st ->
       xpost (fun os' _ st' => fieldsok (r_heap st') lay os' /\ sound h0 st') (fun os' st' => fieldsok (r_heap st') lay os' /\ sound h0 st') (r a os s st)) ->
    forall os s st, fieldsok (r_heap st) lay os -> sound h0 st ->
      xpost (fun os' _ st' => fieldsok (r_heap st') lay os' /\ sound h0 st') (fun os' st' => fieldsok (r_heap st') lay os' /\ sound h0 st') (xiter r l os s st).
  Proof.
    induction l as [|a l IH]; intros Hr os s st Ho Hs; cbn [xiter]; [split; assumption|].
    eapply xpost_seq; [apply Hr; [left; reflexivity|exact Ho|exact Hs]|auto|]. intros os1 s1 st1 [F1 S1]. apply IH; [|exact F1|exact S1].
    intros b os2 s2 st2 Hb. apply Hr. right. exact Hb.
  Qed.

  Lemma X_cls_step f : X_val f -> X_cls f -> X_cls (S f).
  Proof.
    intros XV XC ver c rc p lay os s st Hc Hrd Hlay Hos Hst. rewrite xread_cls_S. unfold xread_cls_body. rewrite Hc, Hrd.
    eapply xpost_seq.
    { apply (xpost_iter _ lay (bp_bases p) (r_heap st)); [|exact Hos|apply sound_refl; exact Hst].
      intros b os0 s0 st0 Hb F0 S0. destruct (eo_bases _ _ HE c rc p b Hc Hrd Hb) as (rb & pb & Eb & Epb & Hsub).
      eapply xpost_seq; [eapply (XC ver b rb pb lay os0 s0 st0); eauto; apply S0| |].
      - intros a st1 [F1 S1]. split; [exact F1|eapply sound_trans; eauto].
      - intros a s1 st1 [F1 S1]. split; [exact F1|eapply sound_trans; eauto]. }
    { intros a st1 H1. exact H1. }
    intros os1 s1 st1 [F1 S1].
    eapply (xpost_prim (fun _ => True)).
    { destruct (bp_vmax p =? 0)%N; [exact I|]. eapply post_bind; [apply rd_varint_post|]. intros [v r] _. destruct (v <=? bp_vmax p)%N; exact I. }
    { split; [exact F1|exact S1]. }
    intros ver' s2 _.
    eapply xpost_seq.
    { apply (xpost_iter _ lay (bp_fields p) (r_heap st)); [|exact F1|exact S1].
      intros fd os0 s0 st0 Hfd F0 S0. destruct (visible ver' fd); [|split; assumption].
      destruct (eo_fields _ _ HE c rc p fd Hc Hrd Hfd) as [Hl Hr]. apply Hlay in Hl. destruct F0 as [K0 F0].
      assert (exists o, alookup fkey_eqb (bf_key fd) os0 = Some o) as [o Eo].
      { apply (alookup_some_in _ fkey_eqb_eq). rewrite K0. eapply alookup_some_key; [apply fkey_eqb_eq|exact Hl]. }
      rewrite Eo.
      assert (U: forall x st2, ht (r_heap st2) (bf_ty fd) x \/ x = o -> sound (r_heap st0) st2 -> fieldsok (r_heap st2) lay (aupdate fkey_eqb (bf_key fd) x os0) /\ sound (r_heap st) st2).
      { intros x st2 Hx S2. split; [|eapply sound_trans; eauto]. split; [rewrite aupdate_keys; exact K0|].
        intros k t v E1 E2. destruct (fkey_eq_dec (bf_key fd) k) as [<-|Hn].
        - rewrite (alookup_aupdate_same _ fkey_eqb_eq) in E2 by (eapply alookup_some_key; [apply fkey_eqb_eq|exact Eo]).
          inversion E2; subst v. rewrite Hl in E1. inversion E1; subst t. destruct Hx as [Hx| ->]; [exact Hx|].
          eapply ht_mono_h; [apply sound_hle; exact S2|]. eapply F0; eauto.
        - rewrite (alookup_aupdate_other _ fkey_eqb_eq) in E2 by congruence.
          eapply ht_mono_h; [apply sound_hle; exact S2|]. eapply F0; eauto. }
      eapply xpost_seq; [apply (XV ver' (bf_ty fd) o s0 st0 Hr (or_intror (F0 _ _ _ Hl Eo))); apply S0| |].
      - intros x st2 [Hx S2]. apply U; assumption.
      - intros x s2' st2 [Hx S2]. apply U; [left; exact Hx|exact S2]. }
    { intros os3 st3 H3. exact H3. }
    intros os3 s3 st3 H3. exact H3.
  Qed.

  Definition all_of (h0 : heap) (t : ty) (l : list val) (st : rstate) : Prop := (forall o, In o l -> ht (r_heap st) t o) /\ sound h0 st.
  Lemma xpost_elements f t : X_val f -> readable G t -> forall l s st,
    (forall o, In o l -> ht (r_heap st) t o) -> state_ok G ud st ->
    xpost (fun l' _ st' => all_of (r_heap st) t l' st') (fun l' st' => all_of (r_heap st) t l' st') (xelements (xread G f 0%N t) l s st).
  Proof.
    intros XV R. induction l as [|o l IH]; intros s st Hl Hs; cbn [xelements]; [split; [intros o []|apply sound_refl; exact Hs]|].
    assert (M: forall st1, sound (r_heap st) st1 -> forall x, In x l -> ht (r_heap st1) t x).
    { intros st1 S1 x Hx. eapply ht_mono_h; [apply sound_hle; exact S1|]. apply Hl. right. exact Hx. }
    eapply xpost_seq; [apply (XV 0%N t o s st R (or_intror (Hl o (or_introl eq_refl))) Hs)| |].
    - intros x st1 [Hx S1]. split; [|exact S1]. intros y [<-|Hy]; [|apply M; assumption].
      destruct Hx as [Hx| ->]; [exact Hx|]. eapply ht_mono_h; [apply sound_hle; exact S1|]. apply Hl. left. reflexivity.
    - intros x s1 st1 [Hx S1].
      assert (U: forall xs st2, all_of (r_heap st1) t xs st2 -> all_of (r_heap st) t (x :: xs) st2).
      { intros xs st2 [Hxs S2]. split; [|eapply sound_trans; eauto]. intros y [<-|Hy]; [|apply Hxs; exact Hy].
        eapply ht_mono_h; [apply sound_hle; exact S2|exact Hx]. }
      eapply xpost_seq; [apply (IH s1 st1 (M st1 S1) (proj1 S1))| |]; [intros xs st2; apply U|intros xs s2 st2; apply U].
  Qed.
  Lemma xpost_inserts f t o ins : X_val f -> readable G t -> oldok [] t o ->
    (forall x l y, In y (ins x l) -> y = x \/ In y l) -> forall n l s st,
    (forall o, In o l -> ht (r_heap st) t o) -> state_ok G ud st ->
    xpost (fun l' _ st' => all_of (r_heap st) t l' st') (fun l' st' => all_of (r_heap st) t l' st') (xinserts (xread G f 0%N t o) ins n l s st).
  Proof.
    intros XV R Ho Hi. induction n as [|n IH]; intros l s st Hl Hs; cbn [xinserts]; [split; [exact Hl|apply sound_refl; exact Hs]|].
    eapply xpost_seq; [apply (XV 0%N t o s st R); [eapply oldok_mono; [apply hle_nil|exact Ho]|exact Hs]| |].
    - intros x st1 [_ S1]. split; [|exact S1]. intros y Hy. eapply ht_mono_h; [apply sound_hle; exact S1|]. apply Hl, Hy.
    - intros x s1 st1 [Hx S1]. eapply xpost_imp; [| |apply IH].
      + intros l' s2 st2 [A B]. split; [exact A|eapply sound_trans; eauto].
      + intros l' st2 [A B]. split; [exact A|eapply sound_trans; eauto].
      + intros y Hy. apply Hi in Hy. destruct Hy as [->|Hy]; [exact Hx|]. eapply ht_mono_h; [apply sound_hle; exact S1|]. apply Hl, Hy.
      + apply S1.
  Qed.

  Lemma X_val_step f : X_val f -> X_cls f -> X_val (S f).
  Proof.
    intros XV XC ver t old s st R O Hst. rewrite xread_S.
    assert (Hnil: forall t, readable G t -> oldok (r_heap st) t (vinit G t)).
    { intros t' R'. right. eapply ht_mono_h; [apply hle_nil|]. apply vinit_ht; exact R'. }
    assert (S0: sound (r_heap st) st) by (apply sound_refl; exact Hst).
    assert (X0: forall t, exv (r_heap st) t old old st) by (intros t'; split; [right; reflexivity|exact S0]).
    destruct t; cbn [xread_body]; cbn [readable] in R; try contradiction.
    - eapply xpost_prim; [apply rd_byte_post|apply X0|]. intros n r _. split; [constructor|exact S0].
    - rewrite R. eapply xpost_prim; [apply rd_int_post|apply X0|]. intros n r [Hn _]. split; [constructor; exact Hn|exact S0].
    - eapply xpost_prim; [apply rd_be_post|apply X0|]. intros n r [Hn _]. split; [constructor; exact Hn|exact S0].
    - eapply xpost_prim; [apply rd_be_post|apply X0|]. intros n r [Hn _]. split; [constructor; exact Hn|exact S0].
    - rewrite R. eapply xpost_prim; [apply rd_int_post|apply X0|]. intros n r [Hn _]. split; [constructor; exact Hn|exact S0].
    - eapply xpost_prim; [apply rd_string_post|apply X0|]. intros n r _. split; [constructor|exact S0].
    - (* sequences *)
      destruct O as [O|O]; [discriminate|]. inversion O as [ | | | | | | | | | t0 l Hl | | | | | | | | | | | | | | | | | | ]; subst; [discriminate|].
      eapply xpost_prim; [apply rd_varint_post|apply X0|]. intros n r _.
      eapply xpost_seq; [apply (xpost_elements f t XV R); [|exact Hst]| |].
      + intros o Ho. unfold resize in Ho. apply in_app_or in Ho. destruct Ho as [Ho|Ho].
        * apply Hl. rewrite <- (firstn_skipn (N.to_nat n) l). apply in_or_app. left. exact Ho.
        * apply repeat_spec in Ho. subst o. eapply ht_mono_h; [apply hle_nil|]. apply vinit_ht; exact R.
      + intros l' st1 [Hx S1]. split; [left; constructor; exact Hx|exact S1].
      + intros l' s1 st1 [Hx S1]. split; [constructor; exact Hx|exact S1].
    - (* sets *)
      destruct O as [O|O]; [discriminate|]. inversion O as [ | | | | | | | | | | ord1 multi1 t0 l Hl | | | | | | | | | | | | | | | | | ]; subst; [discriminate|].
      eapply xpost_prim; [apply rd_varint_post|apply X0|]. intros n r _.
      eapply xpost_seq; [apply (xpost_inserts f t (dinit G t)); [exact XV|exact R|apply (dinit_old G ud HE); exact R| |exact Hl|exact Hst]| |].
      + intros x l0 y Hy. apply (emplace_in _ _ _ _ _ _ _ _ HP) in Hy. exact Hy.
      + intros l' st1 [Hx S1]. split; [left; constructor; exact Hx|exact S1].
      + intros l' s1 st1 [Hx S1]. split; [constructor; exact Hx|exact S1].
    - (* maps *)
      destruct O as [O|O]; [discriminate|]. inversion O as [ | | | | | | | | | | | ord1 multi1 kt1 vt1 l Hp Hk Hv | | | | | | | | | | | | | | | | ]; subst; [discriminate|].
      destruct R as [R1 R2].
      assert (M: forall h l', (forall y, In y l' -> ht h (TPair t1 t2) y) -> ht h (TMap ord multi t1 t2) (VList l')).
      { intros h l' Ha. constructor.
        - intros x Hx. specialize (Ha x Hx). inversion Ha; subst; [discriminate|eauto].
        - intros k v Hx. specialize (Ha _ Hx). inversion Ha; subst. assumption.
        - intros k v Hx. specialize (Ha _ Hx). inversion Ha; subst. assumption. }
      eapply xpost_prim; [apply rd_varint_post|apply X0|]. intros n r _.
      eapply xpost_seq; [apply (xpost_inserts f (TPair t1 t2) (VPair (vinit G t1) (vinit G t2))); [exact XV|split; assumption| | | |exact Hst]| |].
      + right. apply (vinit_ht (TPair t1 t2)). split; assumption.
      + intros x l0 y Hy. apply (emplace_in _ _ _ _ _ _ _ _ HP) in Hy. exact Hy.
      + intros y Hy. destruct (Hp y Hy) as (k & v & ->). constructor; eauto.
      + intros l' st1 [Hx S1]. split; [left; apply M; exact Hx|exact S1].
      + intros l' s1 st1 [Hx S1]. split; [apply M; exact Hx|exact S1].
    - (* pair *)
      destruct O as [O|O]; [discriminate|]. inversion O as [ | | | | | | | | | | | |ta1 tb1 a b Oa Ob| | | | | | | | | | | | | | | ]; subst; [discriminate|]. destruct R as [R1 R2].
      eapply xpost_seq; [apply (XV 0%N t1 a s st R1 (or_intror Oa) Hst)| |].
      + intros x st1 [Hx S1]. split; [left|exact S1]. constructor; [|eapply ht_mono_h; [apply sound_hle; exact S1|exact Ob]].
        destruct Hx as [Hx| ->]; [exact Hx|eapply ht_mono_h; [apply sound_hle; exact S1|exact Oa]].
      + intros x s1 st1 [Hx S1].
        assert (Ob1: ht (r_heap st1) t2 b) by (eapply ht_mono_h; [apply sound_hle; exact S1|exact Ob]).
        eapply xpost_seq; [apply (XV 0%N t2 b s1 st1 R2 (or_intror Ob1)); apply S1| |].
        * intros y st2 [Hy S2]. split; [left|eapply sound_trans; eauto]. constructor; [eapply ht_mono_h; [apply sound_hle; exact S2|exact Hx]|].
          destruct Hy as [Hy| ->]; [exact Hy|eapply ht_mono_h; [apply sound_hle; exact S2|exact Ob1]].
        * intros y s2 st2 [Hy S2]. split; [|eapply sound_trans; eauto]. constructor; [eapply ht_mono_h; [apply sound_hle; exact S2|exact Hx]|exact Hy].
    - eapply xpost_prim; [apply rd_byte_post|apply X0|]. intros n r _.
      destruct (n =? 0)%N; [split; [constructor|exact S0]|].
      eapply xpost_seq; [apply (XV 0%N t _ r st R (Hnil _ R) Hst)| |].
      + intros x st1 [Hx S1]. split; [left; constructor|exact S1]. destruct Hx as [Hx| ->]; [exact Hx|]. eapply ht_mono_h; [apply hle_nil|]. apply vinit_ht; exact R.
      + intros x s1 st1 [Hx S1]. split; [constructor; exact Hx|exact S1].
    - eapply xpost_prim; [apply rd_byte_post|apply X0|]. intros n r _.
      destruct (n =? 0)%N; [split; [constructor|exact S0]|].
      eapply xpost_seq; [apply (XV 0%N t _ r st R (Hnil _ R) Hst)| |].
      + intros x st1 [Hx S1]. split; [left; constructor|exact S1]. destruct Hx as [Hx| ->]; [exact Hx|]. eapply ht_mono_h; [apply hle_nil|]. apply vinit_ht; exact R.
      + intros x s1 st1 [Hx S1]. split; [constructor; exact Hx|exact S1].
    - (* shared *)
      eapply xpost_prim; [apply rd_byte_post|apply X0|]. intros mode r _.
      destruct (mode =? 0)%N; [split; [constructor|exact S0]|].
      eapply (xpost_prim (fun _ => True)); [|apply X0|].
      { destruct (negb (N.land mode 4 =? 0)%N).
        - eapply post_imp; [|apply rd_be_post]. auto.
        - eapply post_imp; [|apply rd_varint_post]. auto. }
      intros id r2 _. destruct (N.land mode 3 =? 1)%N.
      + cbv zeta. set (a := g_alloc G (r_heap st)). pose proof (HA (r_heap st)) as Hfresh. fold a in Hfresh.
        set (st1 := {| r_heap := hset (r_heap st) a (t, vinit G t); r_ptr := (id, (a, t)) :: r_ptr st |}).
        assert (X1: heap_extends (r_heap st) (r_heap st1)) by (apply hle_hset_fresh; exact Hfresh).
        assert (S1: state_ok G ud st1).
        { constructor.
          - intros b u x E. cbn [r_heap st1] in E. destruct (N.eq_dec a b) as [<-|Hn].
            + rewrite hget_hset_same in E. inversion E; subst. eapply ht_mono_h; [apply hle_nil|]. apply vinit_ht; exact R.
            + rewrite hget_hset_other in E by exact Hn. eapply ht_mono_h; [apply extends_hle; exact X1|]. eapply (so_heap _ _ _ Hst); eauto.
          - intros id2 b u E. cbn [r_ptr st1] in E. cbn [alookup] in E. destruct (N.eqb id2 id).
            + inversion E; subst. unfold hty. cbn [r_heap st1]. rewrite hget_hset_same. reflexivity.
            + apply (extends_hle _ _ X1). eapply (so_ptr _ _ _ Hst); eauto. }
        assert (V1: ht (r_heap st1) t (vinit G t)) by (eapply ht_mono_h; [apply hle_nil|]; apply vinit_ht; exact R).
        assert (U: forall x st2, ht (r_heap st2) t x -> sound (r_heap st1) st2 ->
          ht (hset (r_heap st2) a (t, x)) (TShared t) (VShared (Some a))
          /\ sound (r_heap st) {| r_heap := hset (r_heap st2) a (t, x); r_ptr := r_ptr st2 |}).
        { intros x st2 Hx [K2 G2].
          assert (Ha: hget (r_heap st2) a = Some (t, vinit G t)) by (apply G2; cbn [r_heap st1]; apply hget_hset_same).
          assert (Hle: hle (r_heap st2) (hset (r_heap st2) a (t, x))) by (apply hle_hset_same; unfold hty; rewrite Ha; reflexivity).
          split; [constructor; unfold hty; rewrite hget_hset_same; reflexivity|]. split.
          - constructor; cbn [r_heap r_ptr].
            + intros b u y E. eapply ht_mono_h; [exact Hle|]. destruct (N.eq_dec a b) as [<-|Hn].
              * rewrite hget_hset_same in E. inversion E; subst. exact Hx.
              * rewrite hget_hset_other in E by exact Hn. eapply (so_heap _ _ _ K2); eauto.
            + intros id2 b u E. apply Hle. eapply (so_ptr _ _ _ K2); eauto.
          - cbn [r_heap]. intros b c E. rewrite hget_hset_other.
            + apply G2, X1, E.
            + intros ->. apply Hfresh. eapply alookup_some_key; [apply N.eqb_eq|exact E]. }
        pose proof (XV 0%N t (vinit G t) r2 st1 R (or_intror V1) S1) as Q.
        destruct (xread G f 0 t (vinit G t) r2 st1) as [x s3 st2|e x st2| | |]; cbn [xpost] in Q |- *; try exact Q.
        * destruct Q as [Hx G2]. exact (U x st2 Hx G2).
        * destruct Q as [Hx G2].
          assert (Hx': ht (r_heap st2) t x) by (destruct Hx as [Hx| ->]; [exact Hx|eapply ht_mono_h; [apply sound_hle; exact G2|exact V1]]).
          destruct (U x st2 Hx' G2) as [U1 U2]. split; [left; exact U1|exact U2].
      + destruct (alookup N.eqb id (r_ptr st)) as [[a t']|] eqn:El; [|apply X0].
        destruct (ty_eqb t' t) eqn:Et; [|apply X0]. apply ty_eqb_eq in Et. subst t'.
        split; [constructor; eapply (so_ptr _ _ _ Hst); eauto|exact S0].
    - (* variant *)
      eapply xpost_prim; [apply rd_byte_post|apply X0|]. intros i r _.
      destruct (nth_error ts (N.to_nat i)) as [t0|] eqn:En; [|apply X0].
      assert (R0: t0 = TMono \/ readable G t0).
      { destruct R as [_ R]. clear -R En. revert R En. generalize (N.to_nat i) as m. induction ts as [|t ts IH]; intros [|m] R En; try discriminate.
        - cbn in En. inversion En; subst. apply R.
        - cbn in En. eapply IH; [apply R|exact En]. }
      assert (Hm: t0 = TMono \/ t0 <> TMono) by (destruct t0; auto; right; discriminate).
      destruct Hm as [->|Hm].
      + split; [eapply ht_variant; [exact En|constructor]|exact S0].
      + destruct R0 as [->|R0]; [contradiction|].
        assert (P: xpost (okv (r_heap st) (TVariant ts)) (exv (r_heap st) (TVariant ts) old)
                    (xseq (xread G f 0 t0 (vinit G t0) r st) (VVar (N.to_nat i)) (fun x s2 st2 => XOk (VVar (N.to_nat i) x) s2 st2))).
        { eapply xpost_seq; [apply (XV 0%N t0 _ r st R0 (Hnil _ R0) Hst)| |].
          - intros x st1 [Hx S1]. split; [left; eapply ht_variant; [exact En|]|exact S1].
            destruct Hx as [Hx| ->]; [exact Hx|]. eapply ht_mono_h; [apply hle_nil|]. apply vinit_ht; exact R0.
          - intros x s1 st1 [Hx S1]. split; [eapply ht_variant; eauto|exact S1]. }
        destruct t0; try exact P. contradiction.
    - (* struct *)
      destruct O as [O|O]; [discriminate|]. inversion O as [ | | | | | | | | | | | | | | | | | | | | |c0 rc fs Hc K F | | | | | | ]; subst; [discriminate|].
      destruct R as (rc' & p & Ec & Ep). rewrite Hc in Ec. inversion Ec; subst rc'.
      eapply xpost_seq; [apply (XC ver c rc p (rc_layout rc) fs s st Hc Ep); auto; split; assumption| |].
      + intros a st1 [[K1 F1] S1]. split; [left; econstructor; eauto|exact S1].
      + intros a s1 st1 [[K1 F1] S1]. split; [econstructor; eauto|exact S1].
    - eapply xpost_prim; [apply rd_int_post|apply X0|]. intros n r [Hn _]. split; [constructor; exact Hn|exact S0].
    - eapply xpost_prim; [apply rd_int_post|apply X0|]. intros n r [Hn _]. split; [constructor; exact Hn|exact S0].
  Qed.

  Lemma xsafe_all f : X_val f /\ X_cls f.
  Proof.
    induction f as [|f [XV XC]].
    - split; intros; [intros ver t old s st R O Hst|intros ver c rc p lay os s st Hc Hrd Hlay Hos Hst]; exact I.
    - split; [apply X_val_step|apply X_cls_step]; assumption.
  Qed.
End Safe.
