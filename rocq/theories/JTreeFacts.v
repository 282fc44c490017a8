(** JTreeFacts.v -- proofs for property C65 *)
From Coq Require Import String List NArith ZArith Bool Arith Lia Permutation.
From Verif Require Import Base BaseFacts Types TypesFacts BinModel BinSpec BinFacts Float JsonModel JsonRel JsonSpec SerSpec BoundSpec BoundFacts JBoundSpec JBoundFacts JTreeSpec.
Import ListNotations.
Local Open Scope list_scope.
Local Open Scope nat_scope.

Definition pts (a : N) (l : list val) : nat := list_sum (map (pointers a) l).
Definition fpts (a : N) (l : list (fkey * val)) : nat := list_sum (map (fun kv => pointers a (snd kv)) l).
Lemma pointers_list a l : pointers a (VList l) = pts a l.
Proof. induction l as [|x l IH]; [reflexivity|]. cbn [pointers] in *. unfold pts in *. cbn [map]. rewrite sum_cons. lia. Qed.
Lemma pointers_obj a l : pointers a (VObj l) = fpts a l.
Proof. induction l as [|[k x] l IH]; [reflexivity|]. cbn [pointers] in *. unfold fpts in *. cbn [map snd]. rewrite sum_cons. lia. Qed.
Lemma pts_cons a x l : pts a (x :: l) = pointers a x + pts a l. Proof. reflexivity. Qed.
Lemma pts_app a l m : pts a (l ++ m) = pts a l + pts a m.
Proof. unfold pts. rewrite map_app, list_sum_app. reflexivity. Qed.
Lemma pts_perm a l m : Permutation l m -> pts a l = pts a m.
Proof. induction 1 as [|x l m _ IH|x y l|l m n _ IH1 _ IH2]; rewrite ?pts_cons in *; lia. Qed.
Lemma fpts_cons a k x l : fpts a ((k, x) :: l) = pointers a x + fpts a l. Proof. reflexivity. Qed.
Lemma fpts_update a k x os : forall o, alookup fkey_eqb k os = Some o -> fpts a (aupdate fkey_eqb k x os) + pointers a o = fpts a os + pointers a x.
Proof.
  induction os as [|[k' y] os IH]; intros o; cbn [alookup aupdate]; [discriminate|]. destruct (fkey_eqb k k').
  - intros [= ->]. rewrite !fpts_cons. lia.
  - intros E. apply IH in E. rewrite !fpts_cons. lia.
Qed.
Lemma emplace_pts G a ismap ord multi t x l : place_ok G -> pts a (fst (emplace G ismap ord multi t x l)) <= pointers a x + pts a l.
Proof.
  intros HP. destruct (emplace_cases G ismap ord multi t x l HP) as [[_ P]|[_ [E _]]].
  - rewrite <- (pts_perm _ _ _ P). rewrite pts_cons. lia.
  - rewrite E. lia.
Qed.
Lemma map_put_pts G a ord kt q x l : forall v, map_find G ord kt q l = Some v -> pts a (map_put G ord kt q x l) + pointers a v = pts a l + pointers a x.
Proof.
  induction l as [|y l IH]; intros v; cbn [map_find map_put]; [discriminate|]. destruct (same_key G ord kt y q).
  - destruct y; try discriminate. intros [= ->]. rewrite !pts_cons. cbn [pointers]. lia.
  - intros E. apply IH in E. rewrite !pts_cons. lia.
Qed.
(** pointers which are counted are those the value refers with *)
Lemma pointers_refers a : forall v, pointers a v <> 0 -> refers v a.
Proof.
  fix IH 1. intros [| | | | | |l|x y|[x|]|[b|]|i x| | |fs]; cbn [pointers]; try (intros H; exfalso; apply H; reflexivity).
  - induction l as [|x l IHl]; intros H; [exfalso; apply H; reflexivity|]. destruct (Nat.eq_dec (pointers a x) 0) as [E|E].
    + rewrite E in H. assert (X : refers (VList l) a) by (apply IHl; exact H). inversion X; subst. eapply rf_item; [right; eassumption|assumption].
    + apply rf_item with (x := x); [left; reflexivity|apply IH; exact E].
  - intros H. destruct (Nat.eq_dec (pointers a x) 0) as [E|E]; [apply rf_second, IH; lia|apply rf_first, IH; exact E].
  - intros H. apply rf_some, IH, H.
  - clear IH. destruct (N.eqb a b) eqn:E; [|intros H; exfalso; apply H; reflexivity]. apply N.eqb_eq in E. rewrite E. intros _. constructor.
  - intros H. apply rf_alt, IH, H.
  - induction fs as [|[k x] fs IHl]; intros H; [exfalso; apply H; reflexivity|]. destruct (Nat.eq_dec (pointers a x) 0) as [E|E].
    + rewrite E in H. assert (X : refers (VObj fs) a) by (apply IHl; exact H). inversion X; subst. eapply rf_member; [right; eassumption|assumption].
    + apply rf_member with (k := k) (x := x); [left; reflexivity|apply IH; exact E].
Qed.
Lemma plain_vinit G : plain_defaults G -> forall t a, ~ refers (vinit G t) a.
Proof.
  intros HD. fix IH 1. intros [| | | | | |t|ord multi t|ord multi kt vt|ta tb|ts|t|t|t|ts| |c| | | |] a; cbn [vinit]; try (intros R; inversion R; fail).
  - intros R. inversion R; subst. contradiction.
  - intros R. inversion R; subst. contradiction.
  - intros R. inversion R; subst. contradiction.
  - intros R. inversion R; subst; [exact (IH _ _ H2)|exact (IH _ _ H2)].
  - intros R. inversion R as [|? x ? Hin Hx| | | | |]; subst. revert Hin Hx. induction ts as [|t ts IHt]; [intros []|].
    intros [<- | Hin] Hx; [exact (IH _ _ Hx)|]. apply IHt; try assumption. eapply rf_item; eassumption.
  - destruct ts as [|t ts]; [intros R; inversion R|]. intros R. inversion R; subst. exact (IH _ _ H2).
  - destruct (g_class G c) as [rc|] eqn:Ec; [|intros R; inversion R]. intros R. inversion R; subst. eapply HD; [exact Ec|left; eassumption|eassumption].
Qed.
Lemma plain_dinit G : plain_defaults G -> forall t a, ~ refers (dinit G t) a.
Proof.
  intros HD t a. destruct t; try exact (plain_vinit G HD _ a); cbn [dinit]; try (intros R; inversion R; fail).
  destruct (g_class G c) as [rc|] eqn:Ec; [|intros R; inversion R]. intros R. inversion R; subst. eapply HD; [exact Ec|right; eassumption|eassumption].
Qed.

(** heaps *)
Definition hentry (a : N) (h : heap) (b : N) : nat := match hget h b with Some (_, x) => pointers a x | None => 0 end.
Lemma heap_pointers_entry a h : heap_pointers a h = list_sum (map (hentry a h) (addresses h)). Proof. reflexivity. Qed.
Lemma hentries_other a h b c l : ~ In b l -> list_sum (map (hentry a (hset h b c)) l) = list_sum (map (hentry a h) l).
Proof.
  induction l as [|d l IH]; [reflexivity|]. intros Hn. cbn [map]. rewrite !sum_cons, IH by (cbn in Hn; tauto). unfold hentry. rewrite hget_hset_other by (intros ->; apply Hn; left; reflexivity). reflexivity.
Qed.
Lemma heap_pointers_new a h b t x : ~ In b (map fst h) -> heap_pointers a (hset h b (t, x)) = pointers a x + heap_pointers a h.
Proof.
  intros Hn. rewrite !heap_pointers_entry, addresses_new by exact Hn. cbn [map]. rewrite sum_cons, hentries_other; [|rewrite addresses_in; exact Hn].
  unfold hentry at 1. rewrite hget_hset_same. reflexivity.
Qed.
Lemma hentries_update a h b t x y t0 l : hget h b = Some (t0, y) -> NoDup l -> In b l ->
  list_sum (map (hentry a (hset h b (t, x))) l) + pointers a y = list_sum (map (hentry a h) l) + pointers a x.
Proof.
  intros E. induction l as [|d l IH]; intros ND Hin; [destruct Hin|]. cbn [map]. rewrite !sum_cons. inversion ND; subst. destruct (N.eq_dec b d) as [<- | Hne].
  - rewrite hentries_other by assumption. assert (hentry a (hset h b (t, x)) b = pointers a x) by (unfold hentry; rewrite hget_hset_same; reflexivity).
    assert (hentry a h b = pointers a y) by (unfold hentry; rewrite E; reflexivity). lia.
  - destruct Hin as [Hin | Hin]; [congruence|]. specialize (IH ltac:(assumption) Hin). assert (hentry a (hset h b (t, x)) d = hentry a h d) by (unfold hentry; rewrite hget_hset_other by exact Hne; reflexivity). lia.
Qed.
Lemma heap_pointers_update a h b t x y t0 : hget h b = Some (t0, y) -> heap_pointers a (hset h b (t, x)) + pointers a y = heap_pointers a h + pointers a x.
Proof.
  intros E. rewrite !heap_pointers_entry, addresses_old by (eapply hget_in; exact E). eapply hentries_update; [exact E|apply NoDup_nodup|].
  apply addresses_in. eapply hget_in. exact E.
Qed.

(** ** pointers to an object *)
Section Pointers.
  Variable G : genv.
  Variable J : jenv.
  Variable a0 : N.
  Hypothesis HA : alloc_ok G.
  Hypothesis HP : place_ok G.
  Hypothesis HD : plain_defaults G.

  (** pointers to the object in the heap, plus one as long as it does not exist *)
  Definition pot (st : pst) : nat := heap_pointers a0 (p_heap st) + (if in_dec N.eq_dec a0 (map fst (p_heap st)) then 0 else 1).
  Notation cnt := (pointers a0).
  Lemma pot_heap st st' : p_heap st' = p_heap st -> pot st' = pot st. Proof. intros E. unfold pot. rewrite E. reflexivity. Qed.
  Lemma cnt_vinit t : cnt (vinit G t) = 0.
  Proof. destruct (Nat.eq_dec (cnt (vinit G t)) 0) as [E|E]; [exact E|]. apply pointers_refers in E. exfalso. exact (plain_vinit G HD _ _ E). Qed.
  Lemma cnt_dinit t : cnt (dinit G t) = 0.
  Proof. destruct (Nat.eq_dec (cnt (dinit G t)) 0) as [E|E]; [exact E|]. apply pointers_refers in E. exfalso. exact (plain_dinit G HD _ _ E). Qed.

  Definition Pval (f : nat) : Prop := forall t old j st,
    ends (pull G J f t old j st) (fun v st' => cnt v + pot st' <= cnt old + pot st /\ kept st st') any.
  Definition Pcls (f : nat) : Prop := forall c os ms st,
    ends (pull_cls G J f c os ms st) (fun fs st' => fpts a0 fs + pot st' <= fpts a0 os + pot st /\ kept st st') any.

  Lemma report_pot {A} e x y (a : A) st : ends (bind (report e x y) (fun _ => ret a) st) (fun b st' => b = a /\ pot st' = pot st /\ kept st st') any.
  Proof.
    eapply ends_bind with (Q' := fun _ s => p_heap s = p_heap st); [apply ends_report; intros s He _; split; [exact He|exact I]|]. cbn. intros _ s Hs.
    unfold pot, kept. rewrite Hs. split; [reflexivity|split; [reflexivity|apply keeps_refl]].
  Qed.
  Ltac leaf := match goal with
    | |- ends (stuck _) _ _ => exact I
    | |- ends (ub _) _ _ => exact I
    | |- ends (mismatch _ _ _ _) _ _ => eapply ends_imp; [apply report_pot|cbn beta; intros ? ? (-> & ? & ?); split; [lia|assumption]|auto]
    | |- ends (bind (report _ _ _) (fun _ => ret _) _) _ _ => eapply ends_imp; [apply report_pot|cbn beta; intros ? ? (-> & ? & ?); split; [lia|assumption]|auto]
    | |- ends (ret _ _) _ _ => cbn [ends ret pointers]; split; [lia|apply kept_refl]
    end.

  Lemma zsum {B} (l : list B) : list_sum (map (fun _ => 0) l) = 0. Proof. induction l; [reflexivity|]. cbn [map]. rewrite sum_cons. lia. Qed.
  Lemma items_pot (step : list val -> json -> M (list val)) js : 
    (forall a j st, ends (step a j st) (fun a' st' => pts a0 a' + pot st' <= pts a0 a + pot st /\ kept st st') any) ->
    forall a st, ends (pull_items step 0 js a st) (fun a' st' => pts a0 a' + pot st' <= pts a0 a + pot st /\ kept st st') any.
  Proof.
    intros H a st.
    eapply ends_imp; [apply (items_bound (fun a s => pts a0 a + pot s) kept kept_refl kept_trans any step (fun _ => 0) js) with (base := pts a0 a + pot st)| |].
    - intros a1 s i. reflexivity.
    - intros s i. unfold kept; cbn [p_heap]; apply keeps_refl.
    - intros a1 j st0 _ _. eapply ends_imp; [apply H|cbn beta; intros x s [X1 X2]; split; [lia|exact X2]|auto].
    - rewrite zsum. lia.
    - cbn beta. rewrite zsum. intros x s [X1 X2]. split; [lia|exact X2].
    - auto.
  Qed.
  Lemma fold_pot {A B} (w : A -> nat) (step : A -> B -> M A) l : 
    (forall a x st, In x l -> ends (step a x st) (fun a' st' => w a' + pot st' <= w a + pot st /\ kept st st') any) ->
    forall a st, ends (fold_m step l a st) (fun a' st' => w a' + pot st' <= w a + pot st /\ kept st st') any.
  Proof.
    intros H a st.
    eapply ends_imp; [apply (fold_bound (fun a s => w a + pot s) kept kept_refl kept_trans any step (fun _ => 0) l) with (base := w a + pot st)| |].
    - intros a1 j st0 Hin _. eapply ends_imp; [apply H; exact Hin|cbn beta; intros x s [X1 X2]; split; [lia|exact X2]|auto].
    - rewrite zsum. lia.
    - cbn beta. rewrite zsum. intros x s [X1 X2]. split; [lia|exact X2].
    - auto.
  Qed.
  Lemma tuple_pot f ts : Pval f -> forall os js st,
    ends (pull_tuple (pull G J f) ts os js st) (fun xs st' => pts a0 xs + pot st' <= pts a0 os + pot st /\ kept st st') any.
  Proof.
    intros IH. induction ts as [|t ts IHt]; intros os js st; destruct os as [|o os]; cbn [pull_tuple]; try exact I.
    - cbn [ends ret]. split; [lia|apply kept_refl].
    - destruct js as [|j js]; [exact I|]. eapply ends_bind; [apply IH|]. cbn beta. intros x s [Hs Ks].
      eapply ends_bind; [apply IHt|]. cbn beta. intros xs s2 [Hs2 Ks2]. cbn [ends ret]. rewrite !pts_cons. split; [lia|eapply kept_trans; eassumption].
  Qed.

  Lemma pval_step f : Pval f -> Pcls f -> Pval (S f).
  Proof.
    intros IH IHc t old j st. rewrite pull_S. unfold pull_body. destruct t; try exact I.
    - destruct j; leaf.
    - destruct (json_kind k).
      + destruct (is_number j); [|leaf]. apply ends_map, get_int_sizes. intros z. cbn [pointers]. split; [lia|apply kept_refl].
      + destruct (byte_kind k); [|leaf]. destruct (is_number j); [|leaf]. apply ends_map, get_int_sizes. intros z. cbn [pointers]. split; [lia|apply kept_refl].
    - destruct (get_double j); leaf.
    - destruct (get_double j); leaf.
    - destruct j; try leaf. destruct (in_range (enum_kind k) z); leaf.
    - destruct j; leaf.
    - (* seq *) destruct j; try leaf. apply ends_map. eapply ends_imp; [apply items_pot|cbn beta; intros a s [Hs Ks]|auto].
      + intros a j st0. apply ends_map. eapply ends_imp; [apply IH|cbn beta; intros x s [Hs Ks]|auto].
        rewrite pts_app, pts_cons. change (pts a0 []) with 0. rewrite cnt_vinit in Hs. split; [lia|exact Ks].
      + rewrite pointers_list. change (pts a0 []) with 0 in Hs. split; [lia|exact Ks].
    - (* set *) destruct j; try leaf. apply ends_map. eapply ends_imp; [apply items_pot|cbn beta; intros a s [Hs Ks]|auto].
      + intros a j st0. eapply ends_bind; [apply IH|]. cbn beta. intros x s [Hs Ks]. rewrite cnt_dinit in Hs. destruct (is_undef x); [exact I|].
        pose proof (emplace_pts G a0 false ord multi t x a HP) as ES. destruct (emplace G false ord multi t x a) as [l' ins]. cbn [fst] in ES.
        destruct (multi || ins); [cbn [ends ret]; split; [lia|exact Ks]|].
        eapply ends_bind with (Q' := fun _ s2 => p_heap s2 = p_heap s); [apply ends_report_unchecked; intros s2 He _; split; [exact He|exact I]|].
        cbn beta. intros _ s2 H2. cbn [ends ret]. rewrite (pot_heap _ _ H2). unfold kept in *. rewrite H2. split; [lia|exact Ks].
      + rewrite pointers_list. change (pts a0 []) with 0 in Hs. split; [lia|exact Ks].
    - (* map *) destruct multi; destruct t1; try exact I; destruct old as [| | | | | |olds| | | | | | |]; try exact I; destruct j; try leaf; apply ends_map;
        (eapply ends_imp; [apply (fold_pot (pts a0))|cbn beta; intros a s [Hs Ks]; rewrite !pointers_list; split; [lia|exact Ks]|auto]).
      + intros a [n j] st0 _. cbv zeta.
        assert (X : forall a j st0, ends (bind (pull G J f t2 (vinit G t2) j) (fun x => ret (fst (emplace G true ord true TString (VPair (VStr (cstr n)) x) a))) st0)
          (fun a' st' => pts a0 a' + pot st' <= pts a0 a + pot st0 /\ kept st0 st') any).
        { clear a j st0. intros a j st0. apply ends_map. eapply ends_imp; [apply IH|cbn beta; intros x s [Hs Ks]|auto].
          pose proof (emplace_pts G a0 true ord true TString (VPair (VStr (cstr n)) x) a HP) as ES. cbn [pointers] in ES. rewrite cnt_vinit in Hs. split; [lia|exact Ks]. }
        destruct j; try apply X. apply (fold_pot (pts a0)). intros a' j' st1 _. apply X.
      + intros a [n j] st0 _. cbv zeta. destruct (map_find _ _ _ _ a) as [v|] eqn:Ef; apply ends_map; (eapply ends_imp; [apply IH|cbn beta; intros x s [Hs Ks]|auto]).
        * pose proof (map_put_pts _ a0 _ _ _ x _ _ Ef) as EP. split; [lia|exact Ks].
        * pose proof (emplace_pts G a0 true ord false TString (VPair (VStr (cstr n)) x) a HP) as ES. cbn [pointers] in ES. rewrite cnt_vinit in Hs. split; [lia|exact Ks].
    - (* pair *) destruct old as [| | | | | | |oa ob| | | | | |]; try exact I. destruct j; try leaf. destruct (length l =? 2); [|leaf].
      destruct l as [|j1 [|j2 l]]; try exact I. cbn [nth_error].
      eapply ends_bind; [apply IH|]. cbn beta. intros x s [Hs Ks].
      eapply ends_bind; [apply IH|]. cbn beta. intros y s2 [Hs2 Ks2]. cbn [ends ret pointers]. split; [lia|eapply kept_trans; eassumption].
    - (* tuple *) destruct ts as [|t0 ts]; [exact I|]. destruct old as [| | | | | |olds| | | | | | |]; try exact I. destruct j; try leaf.
      destruct (length l =? length (t0 :: ts)); [|leaf]. apply ends_map. eapply ends_imp; [apply (tuple_pot f _ IH)|cbn beta; intros xs s [Hs Ks]|auto].
      rewrite !pointers_list. split; [lia|exact Ks].
    - (* unique *) destruct j; try leaf; apply ends_map; (eapply ends_imp; [apply IH|cbn beta; intros x s8 [Hs Ks]|auto]); cbn [pointers]; rewrite cnt_vinit in Hs; (split; [lia|exact Ks]).
    - destruct j; try leaf; apply ends_map; (eapply ends_imp; [apply IH|cbn beta; intros x s8 [Hs Ks]|auto]); cbn [pointers]; rewrite cnt_vinit in Hs; (split; [lia|exact Ks]).
    - (* shared *) assert (X : ends (bind (in_new G t (pull G J f t (vinit G t) j)) (fun a => ret (VShared (Some a))) st)
        (fun v st' => cnt v + pot st' <= cnt old + pot st /\ kept st st') any).
      { apply ends_map. unfold in_new. cbv zeta. set (a := g_alloc G (p_heap st)). assert (Hn : ~ In a (map fst (p_heap st))) by apply HA.
        set (st1 := {| p_heap := hset _ _ _; p_err := p_err st |}). specialize (IH t (vinit G t) j st1). rewrite cnt_vinit in IH.
        destruct (pull G J f t (vinit G t) j st1) as [x s| | | |]; cbn [ends] in *; try exact I. destruct IH as [Hs Ks].
        unfold kept in *. unfold st1 in *. cbn [p_heap pointers] in *.
        assert (Ka : In a (map fst (p_heap s)) /\ hget (p_heap s) a = Some (t, vinit G t)).
        { destruct (Ks a ltac:(left; reflexivity)) as [E1 E2]. split; [exact E1|]. rewrite E2. apply hget_hset_same. }
        destruct Ka as [Ka Eg]. pose proof (heap_pointers_update a0 _ _ t x _ _ Eg) as HU. rewrite cnt_vinit in HU. split.
        - unfold pot in *. cbn [p_heap] in *. rewrite (heap_pointers_new a0 _ _ _ _ Hn), cnt_vinit in Hs.
          assert (I1 : In a0 (map fst (hset (p_heap st) a (t, vinit G t))) <-> a = a0 \/ In a0 (map fst (p_heap st))) by reflexivity.
          assert (I2 : In a0 (map fst (hset (p_heap s) a (t, x))) <-> a = a0 \/ In a0 (map fst (p_heap s))) by reflexivity.
          destruct (N.eqb a0 a) eqn:Ea.
          + apply N.eqb_eq in Ea. rewrite <- Ea in Hn, Ka.
            destruct (in_dec N.eq_dec a0 (map fst (hset (p_heap st) a (t, vinit G t)))) as [M1|M1], (in_dec N.eq_dec a0 (map fst (p_heap st))) as [M2|M2],
              (in_dec N.eq_dec a0 (map fst (hset (p_heap s) a (t, x)))) as [M3|M3], (in_dec N.eq_dec a0 (map fst (p_heap s))) as [M4|M4]; try lia; exfalso; symmetry in Ea; tauto.
          + apply N.eqb_neq in Ea.
            destruct (in_dec N.eq_dec a0 (map fst (hset (p_heap st) a (t, vinit G t)))) as [M1|M1], (in_dec N.eq_dec a0 (map fst (p_heap st))) as [M2|M2],
              (in_dec N.eq_dec a0 (map fst (hset (p_heap s) a (t, x)))) as [M3|M3], (in_dec N.eq_dec a0 (map fst (p_heap s))) as [M4|M4]; try lia; exfalso; intuition congruence.
        - intros b Hin. destruct (keeps_new _ _ (t, vinit G t) Hn b Hin) as [I1 I2]. destruct (Ks b I1) as [I3 I4]. split; [right; exact I3|].
          rewrite hget_hset_other; [congruence|]. intros <-. contradiction. }
      destruct j; try exact X. leaf.
    - (* variant *) destruct j; try leaf. destruct (alookup bytes_eqb (list_byte_of_string "index") ms) as [ji|]; [|leaf].
      destruct (alookup bytes_eqb (list_byte_of_string "data") ms) as [jd|] eqn:Ed; [|leaf]. destruct ji; try leaf.
      destruct (in_range KU64 z); [|leaf]. destruct (if N.ltb _ _ then nth_error ts (Z.to_nat z) else None) as [t'|] eqn:En; [|leaf].
      assert (X : ends (bind (pull G J f t' (vinit G t') jd) (fun x => ret (VVar (Z.to_nat z) x)) st)
        (fun v st' => cnt v + pot st' <= cnt old + pot st /\ kept st st') any).
      { apply ends_map. eapply ends_imp; [apply IH|cbn beta; intros x s [Hs Ks]|auto]. cbn [pointers]. rewrite cnt_vinit in Hs. split; [lia|exact Ks]. }
      destruct t'; try exact X. leaf.
    - (* class *) destruct old as [| | | | | | | | | | | | |os]; try exact I. destruct j; try leaf. apply ends_map.
      eapply ends_imp; [apply (IHc c os ms st)|cbn beta; intros fs s [Hs Ks]|auto]. rewrite !pointers_obj. split; [lia|exact Ks].
    - (* date *) eapply ends_bind with (Q' := fun _ s => pot s = pot st /\ kept st s).
      { destruct j; try (eapply ends_bind; [apply report_pot|cbn beta; intros ? ? (_ & H); exact H]). cbn. split; [reflexivity|apply kept_refl]. }
      intros s0 s [Hs Ks]. cbn beta. destruct (je_dt_parse J s0); [cbn [ends ret pointers]; split; [lia|exact Ks]|].
      eapply ends_imp; [apply report_pot|cbn beta; intros ? ? (-> & E1 & E2); split; [lia|eapply kept_trans; eassumption]|auto].
    - eapply ends_bind with (Q' := fun _ s => pot s = pot st /\ kept st s).
      { destruct j; try (eapply ends_bind; [apply report_pot|cbn beta; intros ? ? (_ & H); exact H]). cbn. split; [reflexivity|apply kept_refl]. }
      intros s0 s [Hs Ks]. cbn beta. destruct (je_ts_parse J s0); [cbn [ends ret pointers]; split; [lia|exact Ks]|].
      eapply ends_imp; [apply report_pot|cbn beta; intros ? ? (-> & E1 & E2); split; [lia|eapply kept_trans; eassumption]|auto].
    - destruct j; leaf.
    - destruct j; leaf.
  Qed.

  Lemma pcls_step f : Pval f -> Pcls f -> Pcls (S f).
  Proof.
    intros IH IHc c os ms st. rewrite pull_cls_S. unfold pull_cls_body. destruct (g_class G c) as [rc|]; [|exact I]. destruct (rc_pull rc) as [p|]; [|exact I]. cbv zeta.
    eapply ends_bind; [apply (fold_pot (fpts a0)); intros a b st0 _; apply IHc|]. cbn beta. intros os1 s1 [H1 K1].
    assert (X : forall st0, p_heap st0 = p_heap s1 -> ends (fold_m (fun os fd => pull_member (pull G J f) ms fd os) (jp_fields p) os1 st0)
      (fun fs s => fpts a0 fs + pot s <= fpts a0 os + pot st /\ kept st s) any).
    { intros st0 E0. eapply ends_imp; [apply (fold_pot (fpts a0))|cbn beta; intros fs s2 [H2 K2]|auto].
      2:{ rewrite (pot_heap _ _ E0) in H2. split; [lia|]. eapply kept_trans; [exact K1|]. unfold kept in *. rewrite E0 in K2. exact K2. }
      intros a fd s Hin. unfold pull_member. destruct (alookup fkey_eqb (jf_key fd) a) as [o|] eqn:Eo; [|exact I].
      destruct (alookup bytes_eqb (jf_name fd) ms) as [j|]; [|cbn [ends ret]; split; [lia|apply kept_refl]]. apply ends_map. apply ends_member.
      - intros x s2 y. auto.
      - eapply ends_imp; [apply IH|cbn beta; intros x s2 [H2 K2]|auto]. pose proof (fpts_update a0 _ x _ _ Eo) as FU.
        change (pot (put_member (Some (jf_name fd)) s)) with (pot s) in H2. split; [lia|exact K2]. }
    destruct (jp_record p) as [n|].
    - apply ends_record; [intros x s2 y; auto|]. apply X. reflexivity.
    - apply X. reflexivity.
  Qed.
  Lemma pointers_all f : Pval f /\ Pcls f.
  Proof. induction f as [|f [A B]]; [split; [intros t old j st; exact I|intros c os ms st; exact I]|]. split; [apply pval_step|apply pcls_step]; assumption. Qed.
End Pointers.
