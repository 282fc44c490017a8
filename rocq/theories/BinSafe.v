(** BinSafe.v -- reading arbitrary bytes: type safety and termination *)
From Coq Require Import List NArith ZArith Bool Lia Permutation.
From Verif Require Import Base BaseFacts Bytes BytesFacts Types TypesFacts BinModel FuelFacts BinSpec BinSafeSpec.
Import ListNotations.

(** ** shapes of the primitive readers *)
Lemma rd_byte_cases s : (exists n r, rd_byte s = ROk (n, r) /\ (n < 256)%N /\ exists b, s = b :: r) \/ rd_byte s = RThrow ExIo.
Proof. destruct s as [|b s]; cbn; [right; reflexivity|left]. exists (bval b), s. split; [reflexivity|]. split; [apply bval_lt|eauto]. Qed.

Lemma rd_be_cases k s : (exists n r, rd_be k s = ROk (n, r) /\ (n < 256 ^ N.of_nat k)%N /\ exists p, s = p ++ r /\ length p = k) \/ rd_be k s = RThrow ExIo.
Proof.
  unfold rd_be. destruct (rd_bytes (N.of_nat k) s) as [[t r]|e| | |] eqn:E; cbn.
  - left. apply rd_bytes_ok in E. destruct E as [-> L]. exists (be_val t), r. split; [reflexivity|].
    assert (length t = k) by lia. subst k. split; [apply be_val_bound|]. exists t. split; [reflexivity|reflexivity].
  - right. apply rd_bytes_throw in E. destruct E as [-> _]. reflexivity.
  - unfold rd_bytes in E. destruct (takeN _ s); discriminate.
  - unfold rd_bytes in E. destruct (takeN _ s); discriminate.
  - unfold rd_bytes in E. destruct (takeN _ s); discriminate.
Qed.

Lemma rd_int_cases k s : (exists z r, rd_int k s = ROk (z, r) /\ in_range k z = true /\ exists p, s = p ++ r) \/ rd_int k s = RThrow ExIo.
Proof.
  unfold rd_int. destruct (rd_be_cases (ksize k) s) as [(n & r & -> & Hn & p & Hp & _)| ->]; cbn; [left|right; reflexivity].
  eexists _, r. split; [reflexivity|]. split; [|eauto].
  apply in_range_spec. unfold kmin, kmax. destruct (ksigned k) eqn:E.
  - pose proof (dec_signed_range (ksize k) n) as R.
    assert (0 < ksize k)%nat by (destruct k; cbn; lia). specialize (R ltac:(lia) Hn). lia.
  - pose proof (pow8k (ksize k)). lia.
Qed.


(** ** outcomes *)
Definition okexn (e : exn) : Prop := match e with ExBadVariant => False | _ => True end.
Definition post {A} (Q : A -> Prop) (m : res A) : Prop :=
  match m with ROk a => Q a | RThrow e => okexn e | RFuel => True | RUB | RStuck => False end.

Lemma post_bind {A B} (Q : A -> Prop) (R : B -> Prop) m (k : A -> res B) :
  post Q m -> (forall a, Q a -> post R (k a)) -> post R (rbind m k).
Proof. intros Hm Hk. destruct m; cbn in *; auto. Qed.

Lemma post_imp {A} (Q R : A -> Prop) m : (forall a, Q a -> R a) -> post Q m -> post R m.
Proof. intros HQ Hm. destruct m; cbn in *; auto. Qed.

Definition suf (r s : bytes) : Prop := exists p, s = p ++ r.
Lemma suf_refl s : suf s s. Proof. exists []. reflexivity. Qed.
Lemma suf_trans a b c : suf a b -> suf b c -> suf a c.
Proof. intros [p ->] [q ->]. exists (q ++ p). rewrite <- app_assoc. reflexivity. Qed.
Lemma suf_len r s : suf r s -> length r <= length s.
Proof. intros [p ->]. rewrite app_length. lia. Qed.
Definition ssuf (r s : bytes) : Prop := suf r s /\ length r < length s.

Lemma rd_byte_post s : post (fun '(n, r) => (n < 256)%N /\ ssuf r s) (rd_byte s).
Proof.
  destruct (rd_byte_cases s) as [(n & r & -> & Hn & b & ->)| ->]; [|exact I]. cbn. split; [exact Hn|].
  split; [exists [b]; reflexivity|cbn; lia].
Qed.
Lemma rd_be_post k s : post (fun '(n, r) => (n < 256 ^ N.of_nat k)%N /\ suf r s) (rd_be k s).
Proof. destruct (rd_be_cases k s) as [(n & r & -> & Hn & p & -> & _)| ->]; [|exact I]. cbn. split; [exact Hn|exists p; reflexivity]. Qed.
Lemma rd_int_post k s : post (fun '(z, r) => in_range k z = true /\ suf r s) (rd_int k s).
Proof. destruct (rd_int_cases k s) as [(n & r & -> & Hn & p & ->)| ->]; [|exact I]. cbn. split; [exact Hn|exists p; reflexivity]. Qed.
Lemma rd_varint_post s : post (fun '(n, r) => ssuf r s) (rd_varint s).
Proof.
  destruct (rd_varint_cases s) as [(v & r & E)|[(s' & _ & ->)|[-> _]]]; [|exact I|exact I].
  rewrite E. cbn. apply rd_varint_ok in E. destruct E as (t & -> & L & _). split; [exists t; reflexivity|rewrite app_length; lia].
Qed.
Lemma rd_bytes_post n s : post (fun '(_, r) => suf r s) (rd_bytes n s).
Proof.
  destruct (rd_bytes n s) as [[t r]|e| | |] eqn:E; cbn.
  - apply rd_bytes_ok in E. destruct E as [-> _]. exists t. reflexivity.
  - apply rd_bytes_throw in E. destruct E as [-> _]. exact I.
  - unfold rd_bytes in E. destruct (takeN _ s); discriminate.
  - exact I.
  - unfold rd_bytes in E. destruct (takeN _ s); discriminate.
Qed.
Lemma rd_string_post s : post (fun '(_, r) => suf r s) (rd_string s).
Proof.
  unfold rd_string. eapply post_bind; [apply rd_varint_post|]. intros [n r] [Hs _].
  eapply post_imp; [|apply rd_bytes_post]. intros [t r2] H2. eapply suf_trans; eauto.
Qed.

Lemma post_iter {A S} (Inv : S -> Prop) (r : A -> S -> res S) l :
  (forall a s, In a l -> Inv s -> post Inv (r a s)) -> forall s, Inv s -> post Inv (rd_iter r l s).
Proof.
  induction l as [|a l IH]; intros Hr s Hs; cbn [rd_iter]; [exact Hs|].
  eapply post_bind; [apply Hr; [left; reflexivity|exact Hs]|]. intros s1 H1. apply IH; [|exact H1].
  intros b s2 Hb. apply Hr. right; exact Hb.
Qed.
Lemma post_loopN {S} (Inv : S -> Prop) n (r : S -> res S) :
  (forall s, Inv s -> post Inv (r s)) -> forall s, Inv s -> post Inv (loopN n r s).
Proof.
  intros Hr s Hs. rewrite loopN_loopnat. generalize (N.to_nat n) as m. intros m. revert s Hs.
  induction m as [|m IH]; intros s Hs; cbn [loopnat]; [exact Hs|].
  eapply post_bind; [apply Hr; exact Hs|]. exact IH.
Qed.

Section Safe.
  Variable G : genv.
  Variable ud : bool.
  Hypothesis HA : alloc_ok G.
  Hypothesis HP : place_ok G.
  Hypothesis HE : env_ok G ud.

  Notation ht := (has_type G ud).

  Definition hle (h h' : heap) : Prop := forall a t, hty h a = Some t -> hty h' a = Some t.
  Lemma hle_refl h : hle h h. Proof. intros a t E; exact E. Qed.
  Lemma hle_trans a b c : hle a b -> hle b c -> hle a c. Proof. intros H1 H2 x t E. apply H2, H1, E. Qed.
  Lemma ht_mono_h h h' t v : hle h h' -> ht h t v -> ht h' t v.
  Proof. intros Hl Ht. induction Ht; try (econstructor; eauto; fail). Qed.
  Lemma hle_nil h : hle [] h. Proof. intros a t E. discriminate E. Qed.
  Lemma extends_hle h h' : heap_extends h h' -> hle h h'.
  Proof. intros He a t E. unfold hty in *. destruct (hget h a) as [[t0 x]|] eqn:Eg; [|discriminate]. rewrite (He _ _ Eg). exact E. Qed.
  Lemma hle_hset_fresh h a c : ~ In a (map fst h) -> heap_extends h (hset h a c).
  Proof. intros Hf b x E. rewrite hget_hset_other; [exact E|]. intros ->. apply Hf. eapply alookup_some_key; [apply N.eqb_eq|exact E]. Qed.
  Lemma hle_hset_same h a t x : hty h a = Some t -> hle h (hset h a (t, x)).
  Proof.
    intros E b u Eb. unfold hty. destruct (N.eq_dec a b) as [->|Hn].
    - rewrite hget_hset_same. cbn. congruence.
    - rewrite hget_hset_other by exact Hn. exact Eb.
  Qed.

  Lemma vinit_ht t : readable G t -> ht [] t (vinit G t).
  Proof.
    induction t using ty_ind'; intros R; cbn [vinit]; cbn [readable] in R; try contradiction; try (constructor; try reflexivity; fail).
    - constructor. apply in_range_spec. unfold kmin, kmax. destruct k; cbn; lia.
    - constructor. apply in_range_spec. unfold kmin, kmax. destruct k; cbn; lia.
    - constructor. intros x [].
    - constructor. intros x [].
    - constructor; [intros x []| |]; intros k v [].
    - constructor; [apply IHt1|apply IHt2]; apply R.
    - destruct ts as [|t ts]; [destruct R as [R _]; contradiction|].
      inversion H as [|t1 ts1 Ht Hts]; subst. destruct R as [_ [[->|R] _]].
      + eapply ht_variant; [reflexivity|]. constructor.
      + eapply ht_variant; [reflexivity|]. apply Ht. exact R.
    - destruct R as (rc & p & Ec & _). rewrite Ec. apply (eo_vinit _ _ HE). exact Ec.
  Qed.

  (** what may be passed as variable to read into: scalars are overwritten without being looked at *)
  Definition oldok (h : heap) (t : ty) (old : val) : Prop := is_scalar t = true \/ ht h t old.

  Lemma dinit_old t : readable G t -> oldok [] t (dinit G t).
  Proof.
    intros R. destruct t; cbn [dinit]; try (right; apply (vinit_ht _ R)); try (left; reflexivity); try contradiction.
    right. cbn in R. destruct R as (rc & p & Ec & _). rewrite Ec. apply (eo_dinit _ _ HE). exact Ec.
  Qed.

  Lemma oldok_mono h h' t v : hle h h' -> oldok h t v -> oldok h' t v.
  Proof. intros Hl [S|T]; [left; exact S|right; eapply ht_mono_h; eauto]. Qed.

  Record good_st (h0 : heap) (s0 : bytes) (s : bytes) (st : rstate) : Prop := {
    gs_ok : state_ok G ud st;
    gs_ext : heap_extends h0 (r_heap st);
    gs_suf : suf s s0 }.

  Definition fieldsok (h : heap) (lay : list (fkey * ty)) (fs : list (fkey * val)) : Prop :=
    map fst fs = map fst lay /\
    forall k t v, alookup fkey_eqb k lay = Some t -> alookup fkey_eqb k fs = Some v -> ht h t v.

  Definition S_val f := forall ver t old s st, readable G t -> oldok (r_heap st) t old -> state_ok G ud st ->
    post (fun '(v, r, st') => ht (r_heap st') t v /\ good_st (r_heap st) s r st') (read G f ver t old s st).
  (** [lay]: layout of the most derived class *)
  Definition S_cls f := forall ver c rc p lay os s st, g_class G c = Some rc -> rc_rd rc = Some p ->
    (forall k t, alookup fkey_eqb k (rc_layout rc) = Some t -> alookup fkey_eqb k lay = Some t) ->
    fieldsok (r_heap st) lay os -> state_ok G ud st ->
    post (fun '(os', _, r, st') => fieldsok (r_heap st') lay os' /\ good_st (r_heap st) s r st') (read_cls G f ver c os s st).

  Lemma gs_refl s st : state_ok G ud st -> good_st (r_heap st) s s st.
  Proof. intros Hs. constructor; [exact Hs|intros a c E; exact E|apply suf_refl]. Qed.
  Lemma gs_trans h0 s0 s st s' st' : good_st h0 s0 s st -> good_st (r_heap st) s s' st' -> good_st h0 s0 s' st'.
  Proof.
    intros A B. constructor; [apply B| |].
    - intros a c E. apply (gs_ext _ _ _ _ B), (gs_ext _ _ _ _ A), E.
    - eapply suf_trans; [apply B|apply A].
  Qed.
  Lemma gs_skip s s1 st : state_ok G ud st -> suf s1 s -> good_st (r_heap st) s s1 st.
  Proof. intros Hs Hf. constructor; [exact Hs|intros a c E; exact E|exact Hf]. Qed.

  Lemma fieldsok_mono h h' lay fs : hle h h' -> fieldsok h lay fs -> fieldsok h' lay fs.
  Proof. intros Hl [K F]. split; [exact K|]. intros k t v E1 E2. eapply ht_mono_h; [exact Hl|eauto]. Qed.

  Lemma S_cls_step f : S_val f -> S_cls f -> S_cls (S f).
  Proof.
    intros SV SC ver c rc p lay os s st Hc Hrd Hlay Hos Hst.
    rewrite read_cls_S. unfold read_cls_body. rewrite Hc, Hrd.
    eapply (post_bind (fun '(os1, s1, st1) => fieldsok (r_heap st1) lay os1 /\ good_st (r_heap st) s s1 st1)).
    { apply (post_iter (fun '(os1, s1, st1) => fieldsok (r_heap st1) lay os1 /\ good_st (r_heap st) s s1 st1)).
      2: { split; [exact Hos|apply gs_refl; exact Hst]. }
      intros b [[os0 s0] st0] Hb [F0 G0].
      destruct (eo_bases _ _ HE c rc p b Hc Hrd Hb) as (rb & pb & Eb & Epb & Hsub).
      eapply post_bind; [eapply (SC ver b rb pb lay os0 s0 st0); eauto; apply G0|].
      intros [[[os1 v1] s1] st1] [F1 G1]. split; [exact F1|eapply gs_trans; eauto]. }
    intros [[os1 s1] st1] [F1 G1].
    eapply (post_bind (fun '(ver', s2) => good_st (r_heap st) s s2 st1)).
    { destruct (bp_vmax p =? 0)%N; [exact G1|].
      eapply post_bind; [apply rd_varint_post|]. intros [v r] [Hr _].
      destruct (v <=? bp_vmax p)%N; [|exact I]. cbn.
      eapply gs_trans; [exact G1|]. apply gs_skip; [apply G1|exact Hr]. }
    intros [ver' s2] G2.
    eapply (post_bind (fun '(os1, s1, st1) => fieldsok (r_heap st1) lay os1 /\ good_st (r_heap st) s s1 st1)).
    { apply (post_iter (fun '(os1, s1, st1) => fieldsok (r_heap st1) lay os1 /\ good_st (r_heap st) s s1 st1)).
      2: { split; [exact F1|exact G2]. }
      intros fd [[os0 s0] st0] Hfd [F0 G0].
      destruct (visible ver' fd); [|split; assumption].
      destruct (eo_fields _ _ HE c rc p fd Hc Hrd Hfd) as [Hl Hr].
      apply Hlay in Hl. destruct F0 as [K0 F0].
      assert (exists o, alookup fkey_eqb (bf_key fd) os0 = Some o) as [o Eo].
      { apply (alookup_some_in _ fkey_eqb_eq). rewrite K0. eapply alookup_some_key; [apply fkey_eqb_eq|exact Hl]. }
      rewrite Eo.
      eapply post_bind; [apply (SV ver' (bf_ty fd) o s0 st0 Hr (or_intror (F0 _ _ _ Hl Eo))); apply G0|].
      intros [[x s3] st3] [Hx G3]. split; [|eapply gs_trans; eauto]. split; [rewrite aupdate_keys; exact K0|].
      intros k t v E1 E2. destruct (fkey_eq_dec (bf_key fd) k) as [<-|Hn].
      - rewrite (alookup_aupdate_same _ fkey_eqb_eq) in E2 by (eapply alookup_some_key; [apply fkey_eqb_eq|exact Eo]).
        inversion E2; subst v. rewrite Hl in E1. inversion E1; subst t. exact Hx.
      - rewrite (alookup_aupdate_other _ fkey_eqb_eq) in E2 by congruence.
        eapply ht_mono_h; [apply extends_hle, G3|]. eapply F0; eauto. }
    intros [[os3 s3] st3] HH. exact HH.
  Qed.

  Lemma S_val_step f : S_val f -> S_cls f -> S_val (S f).
  Proof.
    intros SV SC ver t old s st R O Hst. rewrite read_S.
    assert (Hnil: forall t, readable G t -> oldok (r_heap st) t (vinit G t)).
    { intros t' R'. right. eapply ht_mono_h; [apply hle_nil|]. apply vinit_ht; exact R'. }
    destruct t; cbn [read_body]; cbn [readable] in R; try contradiction.
    - eapply post_bind; [apply rd_byte_post|]. intros [n r] [_ [Hr _]]. split; [constructor|apply gs_skip; assumption].
    - rewrite R. eapply post_bind; [apply rd_int_post|]. intros [n r] [Hn Hr]. split; [constructor; exact Hn|apply gs_skip; assumption].
    - eapply post_bind; [apply rd_be_post|]. intros [n r] [Hn Hr]. split; [constructor; exact Hn|apply gs_skip; assumption].
    - eapply post_bind; [apply rd_be_post|]. intros [n r] [Hn Hr]. split; [constructor; exact Hn|apply gs_skip; assumption].
    - rewrite R. eapply post_bind; [apply rd_int_post|]. intros [n r] [Hn Hr]. split; [constructor; exact Hn|apply gs_skip; assumption].
    - eapply post_bind; [apply rd_string_post|]. intros [n r] Hr. split; [constructor|apply gs_skip; assumption].
    - (* sequences *)
      destruct O as [O|O]; [discriminate|]. inversion O as [ | | | | | | | | | t0 l Hl | | | | | | | | | | | | | | | | | | ]; subst; [discriminate|].
      eapply post_bind; [apply rd_varint_post|]. intros [n r] [Hr _].
      eapply (post_bind (fun '(os, acc, s1, st1) => (forall y, In y os -> ht (r_heap st1) t y) /\ (forall y, In y acc -> ht (r_heap st1) t y) /\ good_st (r_heap st) s s1 st1)).
      2: { intros [[[os acc] s1] st1] (_ & Ha & Hg). split; [|exact Hg]. constructor. intros y Hy. apply Ha. apply in_rev. exact Hy. }
      apply post_loopN.
      2: { split; [exact Hl|split; [intros y []|apply gs_skip; assumption]]. }
      intros [[[os acc] s1] st1] (Ho & Ha & Hg). cbv zeta.
      eapply post_bind; [apply (SV 0%N t _ s1 st1 R); [|apply Hg]|].
      { destruct os as [|o os]; [|right; apply Ho; left; reflexivity].
        right. eapply ht_mono_h; [apply hle_nil|]. apply vinit_ht; exact R. }
      intros [[y s2] st2] [Hy G2]. pose proof (extends_hle _ _ (gs_ext _ _ _ _ G2)) as Hle.
      split; [|split; [|eapply gs_trans; eauto]].
      + intros z Hz. eapply ht_mono_h; [exact Hle|]. apply Ho. destruct os; [destruct Hz|right; exact Hz].
      + intros z [<-|Hz]; [exact Hy|]. eapply ht_mono_h; [exact Hle|]. apply Ha. exact Hz.
    - (* sets *)
      destruct O as [O|O]; [discriminate|]. inversion O as [ | | | | | | | | | | ord1 multi1 t0 l Hl | | | | | | | | | | | | | | | | | ]; subst; [discriminate|].
      eapply post_bind; [apply rd_varint_post|]. intros [n r] [Hr _].
      eapply (post_bind (fun '(l, s1, st1) => (forall y, In y l -> ht (r_heap st1) t y) /\ good_st (r_heap st) s s1 st1)).
      2: { intros [[os s1] st1] (Ha & Hg). split; [|exact Hg]. constructor. exact Ha. }
      apply post_loopN.
      2: { split; [exact Hl|apply gs_skip; assumption]. }
      intros [[os s1] st1] (Ho & Hg).
      eapply post_bind; [apply (SV 0%N t _ s1 st1 R); [|apply Hg]|].
      { eapply oldok_mono; [apply hle_nil|]. apply dinit_old; exact R. }
      intros [[y s2] st2] [Hy G2]. pose proof (extends_hle _ _ (gs_ext _ _ _ _ G2)) as Hle.
      split; [|eapply gs_trans; eauto].
      intros z Hz. apply (emplace_in _ _ _ _ _ _ _ _ HP) in Hz. destruct Hz as [->|Hz]; [exact Hy|].
      eapply ht_mono_h; [exact Hle|]. apply Ho. exact Hz.
    - (* maps *)
      destruct O as [O|O]; [discriminate|]. inversion O as [ | | | | | | | | | | | ord1 multi1 kt1 vt1 l Hp Hk Hv | | | | | | | | | | | | | | | | ]; subst; [discriminate|].
      destruct R as [R1 R2].
      eapply post_bind; [apply rd_varint_post|]. intros [n r] [Hr _].
      eapply (post_bind (fun '(l, s1, st1) => (forall y, In y l -> ht (r_heap st1) (TPair t1 t2) y) /\ good_st (r_heap st) s s1 st1)).
      2: { intros [[os s1] st1] (Ha & Hg). split; [|exact Hg]. constructor.
           - intros x Hx. specialize (Ha x Hx). inversion Ha; subst; [discriminate|eauto].
           - intros k v Hx. specialize (Ha _ Hx). inversion Ha; subst. assumption.
           - intros k v Hx. specialize (Ha _ Hx). inversion Ha; subst. assumption. }
      apply post_loopN.
      2: { split; [|apply gs_skip; assumption]. intros y Hy. destruct (Hp y Hy) as (k & v & ->). constructor; eauto. }
      intros [[os s1] st1] (Ho & Hg).
      eapply post_bind; [apply (SV 0%N (TPair t1 t2) _ s1 st1 (conj R1 R2)); [|apply Hg]|].
      { right. eapply ht_mono_h; [apply hle_nil|]. apply (vinit_ht (TPair t1 t2)). split; assumption. }
      intros [[y s2] st2] [Hy G2]. pose proof (extends_hle _ _ (gs_ext _ _ _ _ G2)) as Hle.
      split; [|eapply gs_trans; eauto].
      intros z Hz. apply (emplace_in _ _ _ _ _ _ _ _ HP) in Hz. destruct Hz as [->|Hz]; [exact Hy|].
      eapply ht_mono_h; [exact Hle|]. apply Ho. exact Hz.
    - (* pair *)
      destruct O as [O|O]; [discriminate|]. inversion O as [ | | | | | | | | | | | |ta1 tb1 a b Oa Ob| | | | | | | | | | | | | | | ]; subst; [discriminate|]. destruct R as [R1 R2].
      eapply post_bind; [apply (SV 0%N t1 a s st R1 (or_intror Oa) Hst)|]. intros [[x s1] st1] [Hx G1].
      eapply post_bind; [apply (SV 0%N t2 b s1 st1 R2); [right; eapply ht_mono_h; [apply extends_hle, G1|eassumption]|apply G1]|].
      intros [[y s2] st2] [Hy G2]. split; [|eapply gs_trans; eauto].
      constructor; [eapply ht_mono_h; [apply extends_hle, G2|exact Hx]|exact Hy].
    - eapply post_bind; [apply rd_byte_post|]. intros [n r] [_ [Hr _]].
      destruct (n =? 0)%N; [split; [constructor|apply gs_skip; assumption]|].
      eapply post_bind; [apply (SV 0%N t _ r st R (Hnil _ R) Hst)|]. intros [[x s1] st1] [Hx G1].
      split; [constructor; exact Hx|]. eapply gs_trans; [apply gs_skip; eassumption|exact G1].
    - eapply post_bind; [apply rd_byte_post|]. intros [n r] [_ [Hr _]].
      destruct (n =? 0)%N; [split; [constructor|apply gs_skip; assumption]|].
      eapply post_bind; [apply (SV 0%N t _ r st R (Hnil _ R) Hst)|]. intros [[x s1] st1] [Hx G1].
      split; [constructor; exact Hx|]. eapply gs_trans; [apply gs_skip; eassumption|exact G1].
    - (* shared *)
      eapply post_bind; [apply rd_byte_post|]. intros [mode r] [_ [Hr _]].
      destruct (mode =? 0)%N; [split; [constructor|apply gs_skip; assumption]|].
      eapply (post_bind (fun '(_, r2) => suf r2 s)).
      { destruct (negb (N.land mode 4 =? 0)%N).
        - eapply post_imp; [|apply rd_be_post]. intros [n r2] [_ H2]. eapply suf_trans; eauto.
        - eapply post_imp; [|apply rd_varint_post]. intros [n r2] [H2 _]. eapply suf_trans; eauto. }
      intros [id r2] Hr2. destruct (N.land mode 3 =? 1)%N.
      + cbv zeta. set (a := g_alloc G (r_heap st)). pose proof (HA (r_heap st)) as Hfresh. fold a in Hfresh.
        set (st1 := {| r_heap := hset (r_heap st) a (t, vinit G t); r_ptr := (id, (a, t)) :: r_ptr st |}).
        assert (X1: heap_extends (r_heap st) (r_heap st1)) by (apply hle_hset_fresh; exact Hfresh).
        assert (S1: state_ok G ud st1).
        { constructor.
          - intros b u x E. cbn [r_heap st1] in E. destruct (N.eq_dec a b) as [<-|Hn].
            + rewrite hget_hset_same in E. inversion E; subst. eapply ht_mono_h; [apply hle_nil|]. apply vinit_ht; exact R.
            + rewrite hget_hset_other in E by exact Hn. eapply ht_mono_h; [apply extends_hle; exact X1|]. eapply (so_heap _ _ _ Hst); eauto.
          - intros id2 b u E. cbn [r_ptr st1] in E. cbn [alookup] in E. destruct (N.eqb id2 id).
            + inversion E; subst. unfold hty. cbn [r_heap st1]. rewrite hget_hset_same. reflexivity.
            + apply (extends_hle _ _ X1). eapply (so_ptr _ _ _ Hst); eauto. }
        eapply post_bind; [apply (SV 0%N t _ r2 st1 R); [|exact S1]|].
        { right. eapply ht_mono_h; [apply hle_nil|]. apply vinit_ht; exact R. }
        intros [[x s3] st2] [Hx G2].
        assert (Ha: hget (r_heap st2) a = Some (t, vinit G t)).
        { apply (gs_ext _ _ _ _ G2). cbn [r_heap st1]. apply hget_hset_same. }
        assert (Hle: hle (r_heap st2) (hset (r_heap st2) a (t, x))).
        { apply hle_hset_same. unfold hty. rewrite Ha. reflexivity. }
        split; [constructor; unfold hty; cbn [r_heap]; rewrite hget_hset_same; reflexivity|].
        constructor.
        * constructor; cbn [r_heap r_ptr].
          -- intros b u y E. eapply ht_mono_h; [exact Hle|]. destruct (N.eq_dec a b) as [<-|Hn].
             ++ rewrite hget_hset_same in E. inversion E; subst. exact Hx.
             ++ rewrite hget_hset_other in E by exact Hn. eapply (so_heap _ _ _ (gs_ok _ _ _ _ G2)); eauto.
          -- intros id2 b u E. apply Hle. eapply (so_ptr _ _ _ (gs_ok _ _ _ _ G2)); eauto.
        * cbn [r_heap]. intros b c E. rewrite hget_hset_other.
          -- apply (gs_ext _ _ _ _ G2), X1, E.
          -- intros ->. apply Hfresh. eapply alookup_some_key; [apply N.eqb_eq|exact E].
        * eapply suf_trans; [apply G2|exact Hr2].
      + destruct (alookup N.eqb id (r_ptr st)) as [[a t']|] eqn:El; [|exact I].
        destruct (ty_eqb t' t) eqn:Et; [|exact I]. apply ty_eqb_eq in Et. subst t'.
        split; [constructor; eapply (so_ptr _ _ _ Hst); eauto|apply gs_skip; assumption].
    - (* variant *)
      eapply post_bind; [apply rd_byte_post|]. intros [i r] [_ [Hr _]].
      destruct (nth_error ts (N.to_nat i)) as [t0|] eqn:En; [|exact I].
      assert (R0: t0 = TMono \/ readable G t0).
      { destruct R as [_ R]. clear -R En. revert R En. generalize (N.to_nat i) as m. induction ts as [|t ts IH]; intros [|m] R En; try discriminate.
        - cbn in En. inversion En; subst. apply R.
        - cbn in En. eapply IH; [apply R|exact En]. }
      assert (Hm: t0 = TMono \/ t0 <> TMono) by (destruct t0; auto; right; discriminate).
      destruct Hm as [->|Hm].
      + split; [eapply ht_variant; [exact En|constructor]|apply gs_skip; assumption].
      + destruct R0 as [->|R0]; [contradiction|].
        assert (P: post (fun '(v, r0, st') => ht (r_heap st') (TVariant ts) v /\ good_st (r_heap st) s r0 st')
                    (let! (x, s2, st2) := read G f 0 t0 (vinit G t0) r st in ROk (VVar (N.to_nat i) x, s2, st2))).
        { eapply post_bind; [apply (SV 0%N t0 _ r st R0 (Hnil _ R0) Hst)|]. intros [[x s1] st1] [Hx G1].
          split; [eapply ht_variant; eauto|]. eapply gs_trans; [apply gs_skip; eassumption|exact G1]. }
        destruct t0; try exact P. contradiction.
    - (* struct *)
      destruct O as [O|O]; [discriminate|]. inversion O as [ | | | | | | | | | | | | | | | | | | | | |c0 rc fs Hc K F | | | | | | ]; subst; [discriminate|].
      destruct R as (rc' & p & Ec & Ep). rewrite Hc in Ec. inversion Ec; subst rc'.
      eapply post_bind; [apply (SC ver c rc p (rc_layout rc) fs s st Hc Ep); auto; split; assumption|].
      intros [[[os' v'] s1] st1] [[K1 F1] G1]. split; [|exact G1]. econstructor; eauto.
    - eapply post_bind; [apply rd_int_post|]. intros [n r] [Hn Hr]. split; [constructor; exact Hn|apply gs_skip; assumption].
    - eapply post_bind; [apply rd_int_post|]. intros [n r] [Hn Hr]. split; [constructor; exact Hn|apply gs_skip; assumption].
  Qed.

  Lemma safe_all f : S_val f /\ S_cls f.
  Proof.
    induction f as [|f [SV SC]].
    - split; intros; [intros ver t old s st R O Hst|intros ver c rc p lay os s st Hc Hrd Hlay Hos Hst]; exact I.
    - split; [apply S_val_step|apply S_cls_step]; assumption.
  Qed.
End Safe.

(** ** termination on every input *)
Section Term.
  Variable G : genv.
  Variable rk : N -> nat.
  Hypothesis HR : forall c rc p, g_class G c = Some rc -> rc_rd rc = Some p ->
    (forall b, In b (bp_bases p) -> rk b < rk c) /\ (forall fd, In fd (bp_fields p) -> trank rk (bf_ty fd) <= rk c).

  Definition nofuel {A} (Q : A -> Prop) (m : res A) : Prop := match m with RFuel => False | ROk a => Q a | _ => True end.
  Lemma nofuel_bind {A B} (Q : A -> Prop) (R : B -> Prop) m (k : A -> res B) :
    nofuel Q m -> (forall a, Q a -> nofuel R (k a)) -> nofuel R (rbind m k).
  Proof. intros Hm Hk. destruct m; cbn in *; auto. Qed.
  Lemma nofuel_imp {A} (Q R : A -> Prop) m : (forall a, Q a -> R a) -> nofuel Q m -> nofuel R m.
  Proof. intros HQ Hm. destruct m; cbn in *; auto. Qed.
  Lemma nofuel_iter {A S} (Inv : S -> Prop) (r : A -> S -> res S) l :
    (forall a s, In a l -> Inv s -> nofuel Inv (r a s)) -> forall s, Inv s -> nofuel Inv (rd_iter r l s).
  Proof.
    induction l as [|a l IH]; intros Hr s Hs; cbn [rd_iter]; [exact Hs|].
    eapply nofuel_bind; [apply Hr; [left; reflexivity|exact Hs]|]. intros s1 H1. apply IH; [|exact H1].
    intros b s2 Hb. apply Hr. right; exact Hb.
  Qed.
  Lemma nofuel_loopN {S} (Inv : S -> Prop) n (r : S -> res S) :
    (forall s, Inv s -> nofuel Inv (r s)) -> forall s, Inv s -> nofuel Inv (loopN n r s).
  Proof.
    intros Hr s Hs. rewrite loopN_loopnat. generalize (N.to_nat n) as m. intros m. revert s Hs.
    induction m as [|m IH]; intros s Hs; cbn [loopnat]; [exact Hs|].
    eapply nofuel_bind; [apply Hr; exact Hs|]. exact IH.
  Qed.
  Lemma post_nofuel {A} (Q : A -> Prop) m : post Q m -> m <> RFuel -> nofuel Q m.
  Proof. destruct m; cbn; auto. Qed.

  (** fuel [F] suffices for type [t] and streams of length at most [n] *)
  Definition enough (n : nat) (t : ty) (F : nat) : Prop :=
    forall F' ver old s st, F <= F' -> length s <= n ->
      nofuel (fun '(_, r, _) => length r <= length s) (read G F' ver t old s st).
  Definition enough_cls (n : nat) (c : N) (F : nat) : Prop :=
    forall F' ver os s st, F <= F' -> length s <= n ->
      nofuel (fun '(_, _, r, _) => length r <= length s) (read_cls G F' ver c os s st).

  Lemma enough_list (P : ty -> nat -> Prop) (l : list ty) :
    (forall t F F', P t F -> F <= F' -> P t F') ->
    (forall t, In t l -> exists F, P t F) -> exists F, forall t, In t l -> P t F.
  Proof.
    intros M. induction l as [|t l IH]; intros HF; [exists 0; intros t []|].
    destruct (HF t (or_introl eq_refl)) as [F1 H1]. destruct IH as [F2 H2]; [intros u Hu; apply HF; right; exact Hu|].
    exists (max F1 F2). intros u [<-|Hu]; [eapply M; [exact H1|lia]|eapply M; [apply H2; exact Hu|lia]].
  Qed.
  Lemma enough_more n t F F' : enough n t F -> F <= F' -> enough n t F'.
  Proof. intros E L F2 ver old s st L2 Ls. apply E; lia. Qed.

  Lemma rd_byte_nf s : nofuel (fun '(_, r) => length r < length s) (rd_byte s).
  Proof. destruct s; cbn; [exact I|lia]. Qed.
  Lemma rd_be_nf k s : nofuel (fun '(_, r) => length r <= length s) (rd_be k s).
  Proof.
    destruct (rd_be_cases k s) as [(n & r & -> & _ & p & -> & _)| ->]; [cbn; rewrite app_length; lia|exact I].
  Qed.
  Lemma rd_int_nf k s : nofuel (fun '(_, r) => length r <= length s) (rd_int k s).
  Proof. destruct (rd_int_cases k s) as [(n & r & -> & _ & p & ->)| ->]; [cbn; rewrite app_length; lia|exact I]. Qed.
  Lemma rd_varint_nf s : nofuel (fun '(_, r) => length r < length s) (rd_varint s).
  Proof.
    destruct (rd_varint_cases s) as [(v & r & E)|[(s' & _ & ->)|[-> _]]]; [|exact I|exact I].
    rewrite E. cbn. apply rd_varint_ok in E. destruct E as (t & -> & L & _). rewrite app_length. lia.
  Qed.
  Lemma rd_string_nf s : nofuel (fun '(_, r) => length r <= length s) (rd_string s).
  Proof.
    unfold rd_string. eapply nofuel_bind; [apply rd_varint_nf|]. intros [n r] L.
    unfold rd_bytes. destruct (takeN n r) as [[t r2]|] eqn:E; [|exact I]. apply takeN_some in E. destruct E as [-> _].
    rewrite app_length in L. cbn. lia.
  Qed.

  Lemma term_cls n : forall k c, rk c < k ->
    (forall m, m < k -> forall t, trank rk t <= m -> exists F, enough n t F) ->
    (forall b, rk b < rk c -> exists F, enough_cls n b F) ->
    exists F, enough_cls n c F.
  Proof.
    intros k c Hk IHt IHb.
    destruct (g_class G c) as [rc|] eqn:Hc.
    2: { exists 1. intros [|F'] ver os s st L Ls; [lia|]. rewrite read_cls_S. unfold read_cls_body. rewrite Hc. exact I. }
    destruct (rc_rd rc) as [p|] eqn:Hrd.
    2: { exists 1. intros [|F'] ver os s st L Ls; [lia|]. rewrite read_cls_S. unfold read_cls_body. rewrite Hc, Hrd. exact I. }
    destruct (HR c rc p Hc Hrd) as [Hb Hf].
    assert (B: exists F, forall b, In b (bp_bases p) -> enough_cls n b F).
    { clear -Hb IHb. induction (bp_bases p) as [|b l IH]; [exists 0; intros b []|].
      destruct (IHb b (Hb b (or_introl eq_refl))) as [F1 H1]. destruct IH as [F2 H2]; [intros x Hx; apply Hb; right; exact Hx|].
      exists (max F1 F2). intros x [<-|Hx] F' ver os s st L Ls; [apply H1|apply (H2 x Hx)]; lia. }
    destruct B as [F1 B].
    destruct (enough_list (fun t F => enough n t F) (map bf_ty (bp_fields p))) as [F2 D].
    { intros t F F' E L. eapply enough_more; eauto. }
    { intros t Ht. apply in_map_iff in Ht. destruct Ht as (fd & <- & Hfd). apply (IHt (rk c) Hk). apply Hf; exact Hfd. }
    exists (S (max F1 F2)). intros [|F'] ver os s st L Ls; [lia|].
    rewrite read_cls_S. unfold read_cls_body. rewrite Hc, Hrd.
    eapply (nofuel_bind (fun '(_, r, _) => length r <= length s)).
    { apply nofuel_iter; [|lia]. intros b [[os0 s0] st0] Hin L0.
      eapply nofuel_bind; [apply (B b Hin F'); lia|]. intros [[[os1 v1] s1] st1] L1. cbn. lia. }
    intros [[os1 s1] st1] L1.
    eapply (nofuel_bind (fun '(_, r) => length r <= length s)).
    { destruct (bp_vmax p =? 0)%N; [cbn; lia|]. eapply nofuel_bind; [apply rd_varint_nf|]. intros [v r] Lr.
      destruct (v <=? bp_vmax p)%N; cbn; [lia|exact I]. }
    intros [ver' s2] L2.
    eapply (nofuel_bind (fun '(_, r, _) => length r <= length s)).
    { apply nofuel_iter; [|lia]. intros fd [[os0 s0] st0] Hin L0.
      destruct (visible ver' fd); [|cbn; lia]. destruct (alookup fkey_eqb (bf_key fd) os0); [|exact I].
      eapply nofuel_bind; [apply (D (bf_ty fd) (in_map _ _ _ Hin) F'); lia|]. intros [[x s3] st3] L3. cbn. lia. }
    intros [[os3 s3] st3] L3. cbn. exact L3.
  Qed.

  Lemma term_all n : forall t, exists F, enough n t F.
  Proof.
    induction n as [n IHn] using (well_founded_induction Wf_nat.lt_wf).
    (* after at least one byte has been consumed *)
    assert (Less: forall t, exists F, forall F' ver old s st, F <= F' -> length s < n ->
              nofuel (fun '(_, r, _) => length r <= length s) (read G F' ver t old s st)).
    { intros t. destruct n as [|n].
      - exists 0. intros; lia.
      - destruct (IHn n (Nat.lt_succ_diag_r n) t) as [F E]. exists F. intros. apply E; lia. }
    assert (K: forall k, (forall t, trank rk t <= k -> exists F, enough n t F) /\ (forall c, rk c < k -> exists F, enough_cls n c F)).
    { induction k as [k IHk] using (well_founded_induction Wf_nat.lt_wf).
      assert (KC: forall c, rk c < k -> exists F, enough_cls n c F).
      { intros c. remember (rk c) as q eqn:Eq. revert c Eq. induction q as [q IHq] using (well_founded_induction Wf_nat.lt_wf).
        intros c -> Hk. apply (term_cls n k c Hk).
        - intros m Hm t Ht. apply (IHk m Hm). exact Ht.
        - intros b Hb. apply (IHq (rk b) Hb b eq_refl). lia. }
      split; [|exact KC]. intros t Ht.
      destruct t; cbn [trank] in Ht;
        try (exists 1; intros [|F'] ver old s st L Ls; [lia|]; rewrite read_S; cbn [read_body];
             first [ exact I
                   | eapply nofuel_bind; [apply rd_byte_nf|]; intros [z r] Lr; cbn; lia
                   | eapply nofuel_bind; [apply rd_be_nf|]; intros [z r] Lr; cbn; lia
                   | eapply nofuel_bind; [apply rd_int_nf|]; intros [z r] Lr; cbn; lia
                   | eapply nofuel_bind; [apply rd_string_nf|]; intros [z r] Lr; cbn; lia
                   | destruct (bin_kind k0); [|exact I]; eapply nofuel_bind; [apply rd_int_nf|]; intros [z r] Lr; cbn; lia ]; fail).
      - destruct (Less t) as [F E]. exists (S F). intros [|F'] ver old s st L Ls; [lia|]. rewrite read_S; cbn [read_body].
        destruct old; try exact I.
        eapply nofuel_bind; [apply rd_varint_nf|]. intros [m r] Lr.
        eapply (nofuel_bind (fun '(_, r, _) => length r < length s)).
        2: { intros [[[o acc] r2] st2] L2. cbn. lia. }
        apply nofuel_loopN; [|exact Lr]. intros [[[o acc] s1] st1] L1. cbv zeta.
        eapply nofuel_bind; [apply (E F'); lia|]. intros [[x s2] st2] L2. cbn. lia.
      - destruct (Less t) as [F E]. exists (S F). intros [|F'] ver old s st L Ls; [lia|]. rewrite read_S; cbn [read_body].
        destruct old; try exact I.
        eapply nofuel_bind; [apply rd_varint_nf|]. intros [m r] Lr.
        eapply (nofuel_bind (fun '(_, r, _) => length r < length s)).
        2: { intros [[o r2] st2] L2. cbn. lia. }
        apply nofuel_loopN; [|exact Lr]. intros [[o s1] st1] L1.
        eapply nofuel_bind; [apply (E F'); lia|]. intros [[x s2] st2] L2. cbn. lia.
      - destruct (Less (TPair t1 t2)) as [F E]. exists (S F). intros [|F'] ver old s st L Ls; [lia|]. rewrite read_S; cbn [read_body].
        destruct old; try exact I.
        eapply nofuel_bind; [apply rd_varint_nf|]. intros [m r] Lr.
        eapply (nofuel_bind (fun '(_, r, _) => length r < length s)).
        2: { intros [[o r2] st2] L2. cbn. lia. }
        apply nofuel_loopN; [|exact Lr]. intros [[o s1] st1] L1.
        eapply nofuel_bind; [apply (E F'); lia|]. intros [[x s2] st2] L2. cbn. lia.
      - destruct (IHk (max (trank rk t1) (trank rk t2)) ltac:(lia)) as [IHt _].
        destruct (IHt t1 ltac:(lia)) as [F1 E1]. destruct (IHt t2 ltac:(lia)) as [F2 E2].
        exists (S (max F1 F2)). intros [|F'] ver old s st L Ls; [lia|]. rewrite read_S; cbn [read_body].
        destruct old; try exact I.
        eapply nofuel_bind; [apply (E1 F'); lia|]. intros [[x s1] st1] L1.
        eapply nofuel_bind; [apply (E2 F'); lia|]. intros [[y s2] st2] L2. cbn. lia.
      - destruct (Less t) as [F E]. exists (S F). intros [|F'] ver old s st L Ls; [lia|]. rewrite read_S; cbn [read_body].
        eapply nofuel_bind; [apply rd_byte_nf|]. intros [m r] Lr. destruct (m =? 0)%N; [cbn; lia|].
        eapply nofuel_bind; [apply (E F'); lia|]. intros [[x s2] st2] L2. cbn. lia.
      - destruct (Less t) as [F E]. exists (S F). intros [|F'] ver old s st L Ls; [lia|]. rewrite read_S; cbn [read_body].
        eapply nofuel_bind; [apply rd_byte_nf|]. intros [m r] Lr. destruct (m =? 0)%N; [cbn; lia|].
        eapply nofuel_bind; [apply (E F'); lia|]. intros [[x s2] st2] L2. cbn. lia.
      - destruct (Less t) as [F E]. exists (S F). intros [|F'] ver old s st L Ls; [lia|]. rewrite read_S; cbn [read_body].
        eapply nofuel_bind; [apply rd_byte_nf|]. intros [m r] Lr. destruct (m =? 0)%N; [cbn; lia|].
        eapply (nofuel_bind (fun '(_, r) => length r < length s)).
        { destruct (negb (N.land m 4 =? 0)%N).
          - eapply nofuel_imp; [|apply rd_be_nf]. intros [a r2]. lia.
          - eapply nofuel_imp; [|apply rd_varint_nf]. intros [a r2]. lia. }
        intros [id r2] L2. destruct (N.land m 3 =? 1)%N.
        + cbv zeta. eapply nofuel_bind; [apply (E F'); lia|]. intros [[x s2] st2] L3. cbn. lia.
        + destruct (alookup N.eqb id (r_ptr st)) as [[a t']|]; [|exact I]. destruct (ty_eqb t' t); [cbn; lia|exact I].
      - destruct (enough_list (fun t F => forall F' ver old s st, F <= F' -> length s < n ->
              nofuel (fun '(_, r, _) => length r <= length s) (read G F' ver t old s st)) ts) as [F E].
        { intros t F F' E L F2 ver old s st L2 Ls. apply E; lia. }
        { intros t _. apply Less. }
        exists (S F). intros [|F'] ver old s st L Ls; [lia|]. rewrite read_S; cbn [read_body].
        eapply nofuel_bind; [apply rd_byte_nf|]. intros [i r] Lr.
        destruct (nth_error ts (N.to_nat i)) as [t0|] eqn:En; [|exact I].
        assert (P: nofuel (fun '(_, r0, _) => length r0 <= length s)
                    (let! (x, s2, st2) := read G F' 0 t0 (vinit G t0) r st in ROk (VVar (N.to_nat i) x, s2, st2))).
        { eapply nofuel_bind; [apply (E t0 (nth_error_In _ _ En) F'); lia|]. intros [[x s2] st2] L2. cbn. lia. }
        destruct t0; try exact P. cbn. lia.
      - destruct (KC c ltac:(lia)) as [F E]. exists (S F). intros [|F'] ver old s st L Ls; [lia|]. rewrite read_S; cbn [read_body].
        destruct old; try exact I.
        eapply nofuel_bind; [apply (E F'); lia|]. intros [[[x v] s2] st2] L2. cbn. lia. }
    intros t. apply (K (trank rk t)). lia.
  Qed.
End Term.
