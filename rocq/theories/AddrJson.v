(** AddrJson.v -- two runs of deserialising JSON with different memory allocators *)
From Coq Require Import List NArith ZArith Bool Lia.
From Verif Require Import Base BaseFacts Types TypesFacts BinModel Float JsonModel JsonRel SerSpec JTreeSpec AddrSpec AddrFacts.
Import ListNotations.

Definition jready (ro : renaming) (st st' : pst) : Prop := one_to_one ro /\ heaps_alike ro (p_heap st) (p_heap st') /\ p_err st = p_err st'.
Definition jstep (ro : renaming) (st st' : pst) (ro2 : renaming) (st2 st2' : pst) : Prop :=
  grown ro (p_heap st) (p_heap st') ro2 (p_heap st2) (p_heap st2') /\ p_err st2 = p_err st2'.
Lemma jstep_ready ro st st' ro2 st2 st2' : jstep ro st st' ro2 st2 st2' -> jready ro2 st2 st2'.
Proof. intros [A B]. exact (conj (gr_one _ _ _ _ _ _ A) (conj (gr_alike _ _ _ _ _ _ A) B)). Qed.
Lemma jstep_refl ro st st' : jready ro st st' -> jstep ro st st' ro st st'.
Proof. intros (A & B & C). split; [apply grown_refl; assumption|exact C]. Qed.
Lemma jstep_trans r1 s1 s1' r2 s2 s2' r3 s3 s3' : jstep r1 s1 s1' r2 s2 s2' -> jstep r2 s2 s2' r3 s3 s3' -> jstep r1 s1 s1' r3 s3 s3'.
Proof. intros [A _] [B C]. split; [eapply grown_trans; eassumption|exact C]. Qed.
Lemma jstep_extends r1 s1 s1' r2 s2 s2' : jstep r1 s1 s1' r2 s2 s2' -> extends r1 r2.
Proof. intros [A _]. apply (gr_extends _ _ _ _ _ _ A). Qed.

Definition sim {A A'} (V : renaming -> A -> A' -> Prop) (ro : renaming) (st st' : pst) (r : out A) (r' : out A') : Prop :=
  same_result (fun a st1 b st1' => exists ro2, jstep ro st st' ro2 st1 st1' /\ V ro2 a b) r r'.
Lemma sim_bind {A A' B B'} (V : renaming -> A -> A' -> Prop) (V2 : renaming -> B -> B' -> Prop) ro st st' (m : M A) (m' : M A') (k : A -> M B) (k' : A' -> M B') :
  sim V ro st st' (m st) (m' st') ->
  (forall ro2 a a' st2 st2', jstep ro st st' ro2 st2 st2' -> V ro2 a a' -> sim V2 ro2 st2 st2' (k a st2) (k' a' st2')) ->
  sim V2 ro st st' (bind m k st) (bind m' k' st').
Proof.
  unfold bind, sim. destruct (m st) as [a st1|e st1| | |], (m' st') as [a' st1'|e' st1'| | |]; cbn [same_result]; try contradiction; try (intros X _; exact X).
  intros (ro2 & S & Va) H. specialize (H ro2 a a' st1 st1' S Va). destruct (k a st1), (k' a' st1'); cbn [same_result] in *; try contradiction; try exact H.
  destruct H as (ro3 & S3 & Vb). exists ro3. split; [eapply jstep_trans; eassumption|exact Vb].
Qed.
Lemma sim_ret {A A'} (V : renaming -> A -> A' -> Prop) ro st st' a a' : jready ro st st' -> V ro a a' -> sim V ro st st' (ret a st) (ret a' st').
Proof. intros R X. exists ro. split; [apply jstep_refl; exact R|exact X]. Qed.
Definition any {A} (ro : renaming) (a b : A) : Prop := a = b.
Lemma sim_emplace ro e k x y h h' : one_to_one ro -> heaps_alike ro h h' ->
  sim any ro {| p_heap := h; p_err := Some e |} {| p_heap := h'; p_err := Some e |} (emplace_error e k x y h) (emplace_error e k x y h').
Proof.
  intros O H. unfold emplace_error. destruct (N.land (es_throw e) (throw_flag k) =? 0)%N; cbn; [|split; reflexivity].
  exists ro. split; [|reflexivity]. split; [apply grown_refl; assumption|reflexivity].
Qed.
Lemma sim_report ro st st' k x y : jready ro st st' -> sim any ro st st' (report k x y st) (report k x y st').
Proof.
  intros R. pose proof R as (O & H & E). unfold report. rewrite <- E. destruct st as [h [e|]], st' as [h' e']; cbn in *; subst e'.
  - apply sim_emplace; assumption.
  - exact (sim_ret any ro _ _ tt tt R eq_refl).
Qed.
Lemma sim_unchecked ro st st' k x y : jready ro st st' -> sim any ro st st' (report_unchecked k x y st) (report_unchecked k x y st').
Proof.
  intros R. pose proof R as (O & H & E). unfold report_unchecked. rewrite <- E. destruct st as [h [e|]], st' as [h' e']; cbn in *; subst e'.
  - apply sim_emplace; assumption.
  - exact I.
Qed.
Lemma sim_index ro st st' i : jready ro st st' -> sim any ro st st' (set_index i st) (set_index i st').
Proof. intros (O & H & E). exists ro. split; [|reflexivity]. split; [apply grown_refl; assumption|cbn; rewrite E; reflexivity]. Qed.
Lemma sim_mismatch ro st st' t j old old' : jready ro st st' -> alike ro old old' -> sim alike ro st st' (mismatch t j old st) (mismatch t j old' st').
Proof.
  intros R A. eapply sim_bind; [apply sim_report; exact R|]. intros ro2 [] [] st2 st2' S _. apply sim_ret; [exact (jstep_ready _ _ _ _ _ _ S)|].
  eapply alike_more; [exact (jstep_extends _ _ _ _ _ _ S)|exact A].
Qed.
Lemma sim_member {A A'} (V : renaming -> A -> A' -> Prop) ro st st' n (m : M A) (m' : M A') : jready ro st st' ->
  (forall st1 st1', jready ro st1 st1' -> sim V ro st1 st1' (m st1) (m' st1')) -> sim V ro st st' (in_member n m st) (in_member n m' st').
Proof.
  intros (O & H & E) S. unfold in_member. cbv zeta. specialize (S (put_member (Some n) st) (put_member (Some n) st')).
  assert (R1 : jready ro (put_member (Some n) st) (put_member (Some n) st')) by (refine (conj O (conj H _)); cbn; rewrite E; reflexivity).
  specialize (S R1). unfold sim in *. destruct (m (put_member (Some n) st)), (m' (put_member (Some n) st')); cbn [same_result] in *; try contradiction; try exact S.
  destruct S as (ro2 & [S1 S2] & Va). exists ro2. split; [|exact Va]. split; [exact S1|]. cbn. rewrite S2, E. reflexivity.
Qed.
Lemma sim_record {A A'} (V : renaming -> A -> A' -> Prop) ro st st' n (m : M A) (m' : M A') : jready ro st st' ->
  (forall st1 st1', jready ro st1 st1' -> sim V ro st1 st1' (m st1) (m' st1')) -> sim V ro st st' (in_record n m st) (in_record n m' st').
Proof.
  intros (O & H & E) S. unfold in_record. cbv zeta. specialize (S (put_record (Some n) st) (put_record (Some n) st')).
  assert (R1 : jready ro (put_record (Some n) st) (put_record (Some n) st')) by (refine (conj O (conj H _)); cbn; rewrite E; reflexivity).
  specialize (S R1). unfold sim in *. destruct (m (put_record (Some n) st)), (m' (put_record (Some n) st')); cbn [same_result] in *; try contradiction; try exact S.
  destruct S as (ro2 & [S1 S2] & Va). exists ro2. split; [|exact Va]. split; [exact S1|]. cbn. rewrite S2, E. reflexivity.
Qed.
Lemma sim_items {A A'} (V : renaming -> A -> A' -> Prop) (HV : forall ro ro2 a a', extends ro ro2 -> V ro a a' -> V ro2 a a') (f : A -> json -> M A) (f' : A' -> json -> M A') js :
  (forall ro st st' a a' j, jready ro st st' -> V ro a a' -> sim V ro st st' (f a j st) (f' a' j st')) ->
  forall i ro st st' a a', jready ro st st' -> V ro a a' -> sim V ro st st' (pull_items f i js a st) (pull_items f' i js a' st').
Proof.
  intros H. induction js as [|j js IH]; intros i ro st st' a a' R Va; cbn [pull_items].
  - eapply sim_bind; [apply sim_index; exact R|]. intros ro2 [] [] st2 st2' S _. apply sim_ret; [exact (jstep_ready _ _ _ _ _ _ S)|]. eapply HV; [exact (jstep_extends _ _ _ _ _ _ S)|exact Va].
  - eapply sim_bind; [apply sim_index; exact R|]. intros ro2 [] [] st2 st2' S _. eapply sim_bind.
    + apply H; [exact (jstep_ready _ _ _ _ _ _ S)|]. eapply HV; [exact (jstep_extends _ _ _ _ _ _ S)|exact Va].
    + intros ro3 b b' st3 st3' S3 Vb. apply IH; [exact (jstep_ready _ _ _ _ _ _ S3)|exact Vb].
Qed.
Lemma sim_fold {A A' B} (V : renaming -> A -> A' -> Prop) (f : A -> B -> M A) (f' : A' -> B -> M A') l :
  (forall ro st st' a a' x, In x l -> jready ro st st' -> V ro a a' -> sim V ro st st' (f a x st) (f' a' x st')) ->
  forall ro st st' a a', jready ro st st' -> V ro a a' -> sim V ro st st' (fold_m f l a st) (fold_m f' l a' st').
Proof.
  induction l as [|x l IH]; intros H ro st st' a a' R Va; cbn [fold_m]; [apply sim_ret; assumption|].
  eapply sim_bind; [apply H; [left; reflexivity|exact R|exact Va]|]. intros ro2 b b' st2 st2' S Vb. apply IH; [|exact (jstep_ready _ _ _ _ _ _ S)|exact Vb].
  intros; apply H; [right; assumption|assumption|assumption].
Qed.
Lemma sim_pure {A A' B} (V : renaming -> A -> A' -> Prop) ro st st' (m : M B) (k : B -> M A) (k' : B -> M A') :
  (forall s1 s2, match m s1, m s2 with POk a s1', POk b s2' => a = b /\ s1' = s1 /\ s2' = s2 | PUB, PUB | PStuck, PStuck => True | _, _ => False end) ->
  (forall b, sim V ro st st' (k b st) (k' b st')) -> sim V ro st st' (bind m k st) (bind m k' st').
Proof. intros P H. unfold bind. specialize (P st st'). destruct (m st), (m st'); try contradiction; try exact I. destruct P as (-> & -> & ->). apply H. Qed.
Lemma pure_get k j s1 s2 : match get_int k j s1, get_int k j s2 with POk a s1', POk b s2' => a = b /\ s1' = s1 /\ s2' = s2 | PUB, PUB | PStuck, PStuck => True | _, _ => False end.
Proof.
  assert (Q : match cast_double k j s1, cast_double k j s2 with POk a s1', POk b s2' => a = b /\ s1' = s1 /\ s2' = s2 | PUB, PUB | PStuck, PStuck => True | _, _ => False end).
  { unfold cast_double. destruct (get_double j) as [d|]; [|exact I]. destruct (f64_trunc d) as [z|]; [|exact I]. destruct (in_range k z); [repeat split|exact I]. }
  unfold get_int. destruct j; try exact Q. destruct (in_range k z); [repeat split|exact Q].
Qed.

Lemma map_find_alike G ro ord k l l' : one_to_one ro -> address_free G TString -> Forall2 (alike ro) l l' ->
  match map_find G ord TString (VPair (VStr k) VUndef) l, map_find G ord TString (VPair (VStr k) VUndef) l' with Some v, Some v' => alike ro v v' | None, None => True | _, _ => False end.
Proof.
  intros O AF. destruct (AF ro O) as [C _].
  assert (SK : forall y y', alike ro y y' -> same_key G ord TString y (VPair (VStr k) VUndef) = same_key G ord TString y' (VPair (VStr k) VUndef)).
  { intros y y' A. pose proof (keyof_alike ro true y y' A) as B. pose proof (al_str ro k) as B2. unfold same_key. cbn [keyof] in *.
    destruct (C _ _ _ _ B B2) as [E1 E2]. destruct (C _ _ _ _ B2 B) as [E3 _]. cbn [keyof] in *. rewrite E1, E2, E3. reflexivity. }
  induction 1 as [|y y' l l' A F IH]; [exact I|]. cbn [map_find]. rewrite (SK _ _ A). destruct (same_key _ _ _ y' _); [|exact IH]. destruct A; auto.
Qed.
Lemma map_put_alike G ro ord k v v' l l' : one_to_one ro -> address_free G TString -> alike ro v v' -> Forall2 (alike ro) l l' ->
  Forall2 (alike ro) (map_put G ord TString (VPair (VStr k) VUndef) v l) (map_put G ord TString (VPair (VStr k) VUndef) v' l').
Proof.
  intros O AF Av. destruct (AF ro O) as [C _].
  assert (SK : forall y y', alike ro y y' -> same_key G ord TString y (VPair (VStr k) VUndef) = same_key G ord TString y' (VPair (VStr k) VUndef)).
  { intros y y' A. pose proof (keyof_alike ro true y y' A) as B. pose proof (al_str ro k) as B2. unfold same_key. cbn [keyof] in *.
    destruct (C _ _ _ _ B B2) as [E1 E2]. destruct (C _ _ _ _ B2 B) as [E3 _]. cbn [keyof] in *. rewrite E1, E2, E3. reflexivity. }
  induction 1 as [|y y' l l' A F IH]; [constructor|]. cbn [map_put]. rewrite (SK _ _ A). destruct (same_key _ _ _ y' _); [|constructor; assumption].
  destruct A; constructor; try assumption; constructor; assumption.
Qed.

Lemma map_find_alloc G al ord kt k l : map_find (with_alloc G al) ord kt k l = map_find G ord kt k l.
Proof. induction l as [|y l IH]; [reflexivity|]. cbn [map_find]. rewrite IH. reflexivity. Qed.
Lemma map_put_alloc G al ord kt k v l : map_put (with_alloc G al) ord kt k v l = map_put G ord kt k v l.
Proof. induction l as [|y l IH]; [reflexivity|]. cbn [map_put]. rewrite IH. reflexivity. Qed.

Section Pull.
  Variable G : genv.
  Variable J : jenv.
  Variables alloc alloc' : heap -> N.
  Hypothesis HA : allocator alloc.
  Hypothesis HA' : allocator alloc'.
  Hypothesis PD : plain_defaults G.
  Hypothesis MF : pulled_members_free G.
  Notation G1 := (with_alloc G alloc).
  Notation G2 := (with_alloc G alloc').

  Definition pull_ok f : Prop := forall t old old' j ro st st', keys_free G t -> jready ro st st' -> alike ro old old' ->
    sim alike ro st st' (pull G1 J f t old j st) (pull G2 J f t old' j st').
  Definition members ro := Forall2 (pairwise ro).
  Definition items ro := Forall2 (alike ro).
  Definition pull_cls_ok f : Prop := forall c os os' ms ro st st', jready ro st st' -> members ro os os' ->
    sim members ro st st' (pull_cls G1 J f c os ms st) (pull_cls G2 J f c os' ms st').

  Lemma sim_new f t j ro st st' : pull_ok f -> keys_free G t -> jready ro st st' ->
    sim (fun r a a' => r a a') ro st st' (in_new G1 t (pull G1 J f t (vinit G t) j) st) (in_new G2 t (pull G2 J f t (vinit G t) j) st').
  Proof.
    intros IH K (O & H & E). unfold in_new. cbn [g_alloc with_alloc]. set (a := alloc (p_heap st)). set (a' := alloc' (p_heap st')).
    change (vinit G1 t) with (vinit G t). change (vinit G2 t) with (vinit G t).
    pose proof (grown_new ro (p_heap st) (p_heap st') a a' t (vinit G t) (vinit G t) O H (HA _) (HA' _) (fun r => vinit_alike G r PD t)) as Gn.
    assert (Paa : plus ro a a' a a') by (right; split; reflexivity).
    set (s1 := {| p_heap := hset (p_heap st) a (t, vinit G t); p_err := p_err st |}). set (s1' := {| p_heap := hset (p_heap st') a' (t, vinit G t); p_err := p_err st' |}).
    assert (R1 : jstep ro st st' (plus ro a a') s1 s1') by (split; [exact Gn|exact E]).
    pose proof (IH t (vinit G t) (vinit G t) j _ _ _ K (jstep_ready _ _ _ _ _ _ R1) (vinit_alike G _ PD t)) as S. unfold sim in *.
    destruct (pull G1 J f t (vinit G t) j s1), (pull G2 J f t (vinit G t) j s1'); cbn [same_result] in *; try contradiction; try exact S.
    destruct S as (ro3 & S3 & Ax). exists ro3. pose proof (jstep_ready _ _ _ _ _ _ S3) as (O3 & H3 & T3).
    assert (R3 : ro3 a a') by (apply (jstep_extends _ _ _ _ _ _ S3); exact Paa). split; [|exact R3].
    eapply jstep_trans; [exact R1|]. eapply jstep_trans; [exact S3|]. split; [apply grown_set; assumption|exact T3].
  Qed.

  Lemma sim_tuple f : pull_ok f -> forall ts os os' js ro st st', Forall (keys_free G) ts -> jready ro st st' -> items ro os os' ->
    sim items ro st st' (pull_tuple (pull G1 J f) ts os js st) (pull_tuple (pull G2 J f) ts os' js st').
  Proof.
    intros IH. induction ts as [|t ts IHt]; intros os os' js ro st st' K R F; (destruct F as [|o o' os os' A F]); cbn [pull_tuple]; try exact I; [apply sim_ret; [exact R|constructor]|].
    destruct js as [|j js]; [exact I|]. inversion K; subst.
    eapply sim_bind; [apply (IH t o o' j ro st st'); assumption|]. intros ro2 x x' st2 st2' S Ax.
    eapply sim_bind; [apply (IHt os os' js ro2 st2 st2'); [assumption|exact (jstep_ready _ _ _ _ _ _ S)|eapply alikes_more; [exact (jstep_extends _ _ _ _ _ _ S)|exact F]]|].
    intros ro3 xs xs' st3 st3' S3 Axs. apply sim_ret; [exact (jstep_ready _ _ _ _ _ _ S3)|]. constructor; [|exact Axs]. eapply alike_more; [exact (jstep_extends _ _ _ _ _ _ S3)|exact Ax].
  Qed.
  Lemma all_forall (ts : list ty) : (fix all l := match l with [] => True | t :: l' => keys_free G t /\ all l' end) ts -> Forall (keys_free G) ts.
  Proof. induction ts as [|t ts IH]; intros K; constructor; [exact (proj1 K)|exact (IH (proj2 K))]. Qed.
  Lemma items_more ro ro2 l l' : extends ro ro2 -> items ro l l' -> items ro2 l l'.
  Proof. intros E. exact (alikes_more ro ro2 E l l'). Qed.

  Lemma pull_alike f : pull_ok f /\ pull_cls_ok f.
  Proof.
    induction f as [|f [IH IHc]]; [split; repeat intro; exact I|]. split.
    - intros t old old' j ro st st' K R A. rewrite !pull_S. unfold pull_body.
      assert (VI : forall r t, alike r (vinit G t) (vinit G t)) by (intros; apply vinit_alike; exact PD).
      assert (MM : forall t' j', sim alike ro st st' (mismatch t' j' old st) (mismatch t' j' old' st')) by (intros; apply sim_mismatch; assumption).
      assert (HR : forall v, (forall r, alike r v v) -> sim alike ro st st' (ret v st) (ret v st')) by (intros v Hv; apply sim_ret; [exact R|apply Hv]).
      assert (RP : forall k x y, sim alike ro st st' (bind (report k x y) (fun _ => ret old) st) (bind (report k x y) (fun _ => ret old') st')).
      { intros k x y. eapply sim_bind; [apply sim_report; exact R|]. intros ro2 [] [] st2 st2' S _. apply sim_ret; [exact (jstep_ready _ _ _ _ _ _ S)|]. eapply alike_more; [exact (jstep_extends _ _ _ _ _ _ S)|exact A]. }
      assert (DT : forall (parse : bytes -> option Z) t', sim alike ro st st'
        (bind (match j with JStr s => ret (cstr s) | _ => let? _ := mismatch t' j old in ret [] end) (fun s => match parse s with Some z => ret (VInt z) | None => bind (report ConversionError JTString JTString) (fun _ => ret old) end) st)
        (bind (match j with JStr s => ret (cstr s) | _ => let? _ := mismatch t' j old' in ret [] end) (fun s => match parse s with Some z => ret (VInt z) | None => bind (report ConversionError JTString JTString) (fun _ => ret old') end) st')).
      { intros parse t'. eapply (sim_bind (@any bytes)).
        - assert (Q : forall j', sim any ro st st' (bind (mismatch t' j' old) (fun _ => ret []) st) (bind (mismatch t' j' old') (fun _ => ret (@nil Byte.byte)) st')).
          { intros j'. eapply sim_bind; [apply sim_mismatch; [exact R|exact A]|]. intros ro2 a a' st2 st2' S _. apply sim_ret; [exact (jstep_ready _ _ _ _ _ _ S)|reflexivity]. }
          destruct j; try apply Q. apply sim_ret; [exact R|reflexivity].
        - intros ro2 s s' st2 st2' S X. unfold any in X. subst s'. destruct (parse s); [apply sim_ret; [exact (jstep_ready _ _ _ _ _ _ S)|constructor]|].
          eapply sim_bind; [apply sim_report; exact (jstep_ready _ _ _ _ _ _ S)|]. intros ro3 [] [] st3 st3' S3 _. apply sim_ret; [exact (jstep_ready _ _ _ _ _ _ S3)|].
          eapply alike_more; [eapply extends_trans; [exact (jstep_extends _ _ _ _ _ _ S)|exact (jstep_extends _ _ _ _ _ _ S3)]|exact A]. }
      destruct t.
      + destruct j; try apply MM. apply HR. constructor.
      + destruct (json_kind k); [|destruct (byte_kind k); [|exact I]]; (destruct (is_number j); [|apply MM]); (apply sim_pure; [apply pure_get|]); intros z; apply HR; constructor.
      + destruct (get_double j); [apply HR; constructor|apply MM].
      + destruct (get_double j); [apply HR; constructor|apply MM].
      + destruct j; try apply MM. destruct (in_range (enum_kind k) z); [apply HR; constructor|apply MM].
      + destruct j; try apply MM. apply HR. constructor.
      + (* seq *) destruct j; try apply MM. eapply (sim_bind items).
        * apply (sim_items items items_more); [|exact R|constructor]. intros ro2 st2 st2' l1 l1' j R2 F. eapply sim_bind; [apply (IH t _ _ j ro2 st2 st2' K R2); apply VI|].
          intros ro3 x x' st3 st3' S3 Ax. apply sim_ret; [exact (jstep_ready _ _ _ _ _ _ S3)|]. apply Forall2_app; [eapply alikes_more; [exact (jstep_extends _ _ _ _ _ _ S3)|exact F]|repeat constructor; exact Ax].
        * intros ro2 l1 l1' st2 st2' S F. apply sim_ret; [exact (jstep_ready _ _ _ _ _ _ S)|constructor; exact F].
      + (* set *) destruct K as [KF K]. destruct j; try apply MM. eapply (sim_bind items).
        * apply (sim_items items items_more); [|exact R|constructor]. intros ro2 st2 st2' l1 l1' j R2 F. eapply sim_bind; [apply (IH t _ _ j ro2 st2 st2' K R2); apply (dinit_alike G ro2 PD)|].
          intros ro3 x x' st3 st3' S3 Ax. pose proof (jstep_ready _ _ _ _ _ _ S3) as R3.
          assert (U : is_undef x = is_undef x') by (destruct Ax; reflexivity). rewrite <- U. destruct (is_undef x); [exact I|].
          destruct (emplace_alike G ro3 false ord multi t x x' l1 l1' (proj1 R3) KF Ax (items_more _ _ _ _ (jstep_extends _ _ _ _ _ _ S3) F)) as [E1 E2].
          change (emplace G1 false ord multi t x l1) with (emplace G false ord multi t x l1). change (emplace G2 false ord multi t x' l1') with (emplace G false ord multi t x' l1').
          destruct (emplace G false ord multi t x l1) as [l2 i2], (emplace G false ord multi t x' l1') as [l2' i2']. cbn [fst snd] in E1, E2. subst i2'.
          destruct (multi || i2); [apply sim_ret; [exact R3|exact E1]|].
          eapply sim_bind; [apply sim_unchecked; exact R3|]. intros ro4 [] [] st4 st4' S4 _. apply sim_ret; [exact (jstep_ready _ _ _ _ _ _ S4)|]. eapply items_more; [exact (jstep_extends _ _ _ _ _ _ S4)|exact E1].
        * intros ro2 l1 l1' st2 st2' S F. apply sim_ret; [exact (jstep_ready _ _ _ _ _ _ S)|constructor; exact F].
      + (* map *) destruct K as (KF & K1 & K2). destruct multi, t1; try exact I; (inversion A; subst; try exact I); (destruct j as [| | | | | |ms]; try apply MM); (eapply (sim_bind items);
          [|intros ro2 l1 l1' st2 st2' S F; apply sim_ret; [exact (jstep_ready _ _ _ _ _ _ S)|constructor; exact F]]); (apply (sim_fold items); [|exact R|exact H]).
        * intros ro2 st2 st2' l1 l1' [n j'] _ R2 F. cbv zeta.
          assert (INS : forall j0 ro2 st2 st2' l1 l1', jready ro2 st2 st2' -> items ro2 l1 l1' -> sim items ro2 st2 st2'
             (bind (pull G1 J f t2 (vinit G t2) j0) (fun x => ret (fst (emplace G1 true ord true TString (VPair (VStr (cstr n)) x) l1))) st2)
             (bind (pull G2 J f t2 (vinit G t2) j0) (fun x => ret (fst (emplace G2 true ord true TString (VPair (VStr (cstr n)) x) l1'))) st2')).
          { clear ro2 st2 st2' l1 l1' R2 F. intros j0 ro2 st2 st2' l1 l1' R2 F. eapply sim_bind; [apply (IH t2 _ _ j0 ro2 st2 st2' K2 R2); apply VI|].
            intros ro3 x x' st3 st3' S3 Ax. pose proof (jstep_ready _ _ _ _ _ _ S3) as R3. apply sim_ret; [exact R3|].
            apply (emplace_alike G ro3 true ord true TString); [exact (proj1 R3)|exact KF|constructor; [constructor|exact Ax]|exact (items_more _ _ _ _ (jstep_extends _ _ _ _ _ _ S3) F)]. }
          destruct j'; try (apply INS; assumption). apply (sim_fold items); [|exact R2|exact F]. intros ro3 st3 st3' l3 l3' j3 _ R3 F3. apply INS; assumption.
        * intros ro2 st2 st2' l1 l1' [n j'] _ R2 F. cbv zeta.
          rewrite !map_find_alloc.
          pose proof (map_find_alike G ro2 ord (cstr n) l1 l1' (proj1 R2) KF F) as MFi.
          destruct (map_find G ord TString (VPair (VStr (cstr n)) VUndef) l1) as [v|], (map_find G ord TString (VPair (VStr (cstr n)) VUndef) l1') as [v'|]; try contradiction.
          -- eapply sim_bind; [apply (IH t2 _ _ j' ro2 st2 st2' K2 R2); exact MFi|].
             intros ro3 x x' st3 st3' S3 Ax. pose proof (jstep_ready _ _ _ _ _ _ S3) as R3. apply sim_ret; [exact R3|].
             rewrite !map_put_alloc. apply map_put_alike; [exact (proj1 R3)|exact KF|exact Ax|exact (items_more _ _ _ _ (jstep_extends _ _ _ _ _ _ S3) F)].
          -- eapply sim_bind; [apply (IH t2 _ _ j' ro2 st2 st2' K2 R2); apply VI|].
             intros ro3 x x' st3 st3' S3 Ax. pose proof (jstep_ready _ _ _ _ _ _ S3) as R3. apply sim_ret; [exact R3|].
             apply (emplace_alike G ro3 true ord false TString); [exact (proj1 R3)|exact KF|constructor; [constructor|exact Ax]|exact (items_more _ _ _ _ (jstep_extends _ _ _ _ _ _ S3) F)].
      + (* pair *) destruct K as [K1 K2]. inversion A; subst; try exact I. destruct j as [| | | | |js|]; try apply MM. destruct (length js =? 2)%nat; [|apply RP].
        destruct (nth_error js 0) as [ja|]; [|exact I]. destruct (nth_error js 1) as [jb|]; [|exact I].
        eapply sim_bind; [apply (IH t1 a a' ja ro st st' K1 R); assumption|]. intros ro2 x x' st2 st2' S Ax.
        eapply sim_bind; [apply (IH t2 b b' jb ro2 st2 st2' K2 (jstep_ready _ _ _ _ _ _ S)); eapply alike_more; [exact (jstep_extends _ _ _ _ _ _ S)|assumption]|].
        intros ro3 y y' st3 st3' S3 Ay. apply sim_ret; [exact (jstep_ready _ _ _ _ _ _ S3)|]. constructor; [|exact Ay]. eapply alike_more; [exact (jstep_extends _ _ _ _ _ _ S3)|exact Ax].
      + (* tuple *) destruct ts as [|t0 ts]; [exact I|]. inversion A; subst; try exact I. destruct j as [| | | | |js|]; try apply MM. destruct (length js =? length (t0 :: ts))%nat; [|apply RP].
        eapply (sim_bind items); [apply (sim_tuple f IH (t0 :: ts)); [exact (all_forall (t0 :: ts) K)|exact R|assumption]|]. intros ro2 l1 l1' st2 st2' S F. apply sim_ret; [exact (jstep_ready _ _ _ _ _ _ S)|constructor; exact F].
      + assert (Q : sim alike ro st st' (bind (pull G1 J f t (vinit G t) j) (fun x => ret (VOpt (Some x))) st) (bind (pull G2 J f t (vinit G t) j) (fun x => ret (VOpt (Some x))) st')).
        { eapply sim_bind; [apply (IH t _ _ j ro st st' K R); apply VI|]. intros ro2 x x' st2 st2' S Ax. apply sim_ret; [exact (jstep_ready _ _ _ _ _ _ S)|constructor; exact Ax]. }
        destruct j; try exact Q. apply HR. constructor.
      + assert (Q : sim alike ro st st' (bind (pull G1 J f t (vinit G t) j) (fun x => ret (VOpt (Some x))) st) (bind (pull G2 J f t (vinit G t) j) (fun x => ret (VOpt (Some x))) st')).
        { eapply sim_bind; [apply (IH t _ _ j ro st st' K R); apply VI|]. intros ro2 x x' st2 st2' S Ax. apply sim_ret; [exact (jstep_ready _ _ _ _ _ _ S)|constructor; exact Ax]. }
        destruct j; try exact Q. apply HR. constructor.
      + assert (Q : sim alike ro st st' (bind (in_new G1 t (pull G1 J f t (vinit G t) j)) (fun a => ret (VShared (Some a))) st) (bind (in_new G2 t (pull G2 J f t (vinit G t) j)) (fun a => ret (VShared (Some a))) st')).
        { eapply sim_bind; [apply sim_new; [exact IH|exact K|exact R]|]. intros ro2 x x' st2 st2' S Ax. apply sim_ret; [exact (jstep_ready _ _ _ _ _ _ S)|constructor; exact Ax]. }
        destruct j; try exact Q. apply HR. constructor.
      + (* variant *) destruct j as [| | | | | |ms]; try apply MM. destruct (alookup bytes_eqb _ ms) as [ji|]; [|apply RP]. destruct (alookup bytes_eqb _ ms) as [jd|]; [|apply RP].
        destruct ji; try apply RP. destruct (in_range KU64 z); [|apply RP].
        destruct (if (Z.to_N z <? N.of_nat (length ts))%N then nth_error ts (Z.to_nat z) else None) as [t'|] eqn:En; [|apply RP].
        assert (K' : keys_free G t') by (destruct (Z.to_N z <? N.of_nat (length ts))%N; [|discriminate]; exact (all_nth G ts _ _ K En)).
        assert (Q : sim alike ro st st' (bind (pull G1 J f t' (vinit G t') jd) (fun x => ret (VVar (Z.to_nat z) x)) st) (bind (pull G2 J f t' (vinit G t') jd) (fun x => ret (VVar (Z.to_nat z) x)) st')).
        { eapply sim_bind; [apply (IH t' _ _ jd ro st st' K' R); apply VI|]. intros ro2 x x' st2 st2' S Ax. apply sim_ret; [exact (jstep_ready _ _ _ _ _ _ S)|constructor; exact Ax]. }
        destruct t'; try exact Q. apply HR. repeat constructor.
      + exact I.
      + (* class *) inversion A; subst; try exact I. destruct j as [| | | | | |ms]; try apply MM. eapply (sim_bind members); [apply (IHc c fs fs' ms ro st st' R); assumption|].
        intros ro2 l1 l1' st2 st2' S F. apply sim_ret; [exact (jstep_ready _ _ _ _ _ _ S)|constructor; exact F].
      + apply DT.
      + apply DT.
      + destruct j; try apply MM. apply sim_ret; assumption.
      + destruct j; try apply MM. apply sim_ret; assumption.
    - intros c os os' ms ro st st' R A. rewrite !pull_cls_S. unfold pull_cls_body. cbn [g_class with_alloc]. destruct (g_class G c) as [rc|] eqn:Ec; [|exact I].
      destruct (rc_pull rc) as [p|] eqn:Ep; [|exact I].
      eapply (sim_bind members); [apply (sim_fold members); [|exact R|exact A]; intros ro2 st2 st2' o o' b _ R2 F; apply IHc; assumption|].
      intros ro2 o1 o1' st2 st2' S F. cbv zeta. pose proof (jstep_ready _ _ _ _ _ _ S) as R2.
      assert (Q : forall st3 st3', jready ro2 st3 st3' -> sim members ro2 st3 st3' (fold_m (fun os fd => pull_member (pull G1 J f) ms fd os) (jp_fields p) o1 st3) (fold_m (fun os fd => pull_member (pull G2 J f) ms fd os) (jp_fields p) o1' st3')).
      { intros st3 st3' R3. apply (sim_fold members); [|exact R3|exact F]. intros ro4 st4 st4' o o' fd Hfd R4 F4. unfold pull_member.
        pose proof (members_lookup ro4 (jf_key fd) o o' F4) as ML. destruct (alookup fkey_eqb (jf_key fd) o) as [v|], (alookup fkey_eqb (jf_key fd) o') as [v'|]; try contradiction; [|exact I].
        destruct (alookup bytes_eqb (jf_name fd) ms) as [jm|]; [|apply sim_ret; assumption].
        eapply sim_bind; [apply (sim_member alike); [exact R4|]; intros st5 st5' R5; apply (IH (jf_ty fd) v v' jm ro4 st5 st5' (MF c rc p fd Ec Ep Hfd) R5 ML)|].
        intros ro5 x x' st5 st5' S5 Ax. apply sim_ret; [exact (jstep_ready _ _ _ _ _ _ S5)|]. apply members_update; [exact Ax|]. eapply members_more; [exact (jstep_extends _ _ _ _ _ _ S5)|exact F4]. }
      destruct (jp_record p) as [n|]; [apply sim_record; [exact R2|exact Q]|apply Q; exact R2].
  Qed.
End Pull.
