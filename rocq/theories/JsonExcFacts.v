(** JsonExcFacts.v -- facts about JsonExc.v *)
From Coq Require Import String List NArith ZArith Bool Lia Permutation.
From Verif Require Import Base BaseFacts Types TypesFacts BinModel BinSpec BinSafeSpec BinSafe BinFacts Float JsonModel JsonRel JsonErr JsonSpec JsonSafeSpec JsonSafe JsonExc.
Import ListNotations.
Local Open Scope list_scope.
Local Open Scope nat_scope.

Lemma xpull_S G J f : xpull G J (S f) = xpull_body G J (xpull G J f) (xpull_cls G J f). Proof. reflexivity. Qed.
Lemma xpull_cls_S G J f : xpull_cls G J (S f) = xpull_cls_body G (xpull G J f) (xpull_cls G J f). Proof. reflexivity. Qed.

(** both models agree: same value and state, or same exception and state of the error list *)
Definition agree {A} (q : xout A) (o : out A) : Prop :=
  match q, o with
  | QOk a st, POk b st' => a = b /\ st = st'
  | QThrow e _ st, PThrow e' st' => e = e' /\ p_err st = p_err st'
  | QUB, PUB | QFuel, PFuel | QStuck, PStuck => True
  | _, _ => False
  end.
Definition agrees {A} (m : XM A) (n : M A) : Prop := forall st, agree (m st) (n st).

Lemma ag_ret {A} (a : A) : agrees (xret a) (ret a). Proof. intros st. split; reflexivity. Qed.
Lemma ag_bind {A B} (m : XM A) (w : A -> B) k n k' : agrees m n -> (forall a, agrees (k a) (k' a)) -> agrees (xbind m w k) (bind n k').
Proof.
  intros Hm Hk st. unfold xbind, bind. specialize (Hm st). destruct (m st), (n st); cbn in *; try contradiction; try exact I.
  - destruct Hm as [-> ->]. apply Hk.
  - exact Hm.
Qed.
Lemma ag_lift {A B} (old : B) (m : M A) k k' : (forall a, agrees (k a) (k' a)) -> agrees (xlift old m k) (bind m k').
Proof. intros Hk st. unfold xlift, bind. destruct (m st); cbn; try exact I; [apply Hk|split; reflexivity]. Qed.
Lemma ag_lift_ret {A} (old : A) (m : M A) : agrees (xlift old m xret) m.
Proof. intros st. unfold xlift. destruct (m st); cbn; auto. Qed.
Lemma ag_member {A} n (m : XM A) m' : agrees m m' -> agrees (xin_member n m) (in_member n m').
Proof.
  intros Hm st. unfold xin_member, in_member. specialize (Hm (put_member (Some n) st)).
  destruct (m _), (m' _); cbn in *; try contradiction; try exact I; [destruct Hm as [-> ->]; auto|exact Hm].
Qed.
Lemma ag_record {A} n (m : XM A) m' : agrees m m' -> agrees (xin_record n m) (in_record n m').
Proof.
  intros Hm st. unfold xin_record, in_record. specialize (Hm (put_record (Some n) st)).
  destruct (m _), (m' _); cbn in *; try contradiction; try exact I; [destruct Hm as [-> ->]; auto|exact Hm].
Qed.
Lemma ag_new G t m m' : agrees m m' -> agrees (xin_new G t m) (in_new G t m').
Proof.
  intros Hm st. unfold xin_new, in_new. cbv zeta. specialize (Hm {| p_heap := hset (p_heap st) (g_alloc G (p_heap st)) (t, vinit G t); p_err := p_err st |}).
  destruct (m _), (m' _); cbn in *; try contradiction; try exact I; [destruct Hm as [-> ->]; auto|exact Hm].
Qed.
Lemma ag_items {A} (s : A -> json -> XM A) s' js : (forall a j, agrees (s a j) (s' a j)) -> forall i a, agrees (xitems s i js a) (pull_items s' i js a).
Proof.
  intros Hs. induction js as [|j js IH]; intros i a; cbn [xitems pull_items]; apply ag_lift; intros _; [apply ag_ret|].
  apply ag_bind; [apply Hs|]. intros a'. apply IH.
Qed.
Lemma ag_fold {A B} (s : A -> B -> XM A) s' l : (forall a b, agrees (s a b) (s' a b)) -> forall a, agrees (xfold s l a) (fold_m s' l a).
Proof.
  intros Hs. induction l as [|b l IH]; intros a; cbn [xfold fold_m]; [apply ag_ret|]. apply ag_bind; [apply Hs|]. intros a'. apply IH.
Qed.
Lemma ag_tuple (p : ty -> val -> json -> XM val) p' ts : (forall t o j, agrees (p t o j) (p' t o j)) -> forall os js, agrees (xtuple p ts os js) (pull_tuple p' ts os js).
Proof.
  intros Hp. induction ts as [|t ts IH]; intros [|o os] js; cbn [xtuple pull_tuple]; try (intros st; exact I); [apply ag_ret|].
  destruct js as [|j js]; [intros st; exact I|]. apply ag_bind; [apply Hp|]. intros x. apply ag_bind; [apply IH|]. intros xs. apply ag_ret.
Qed.

Lemma xpull_agrees G J f : (forall t old j, agrees (xpull G J f t old j) (pull G J f t old j)) /\ (forall c os ms, agrees (xpull_cls G J f c os ms) (pull_cls G J f c os ms)).
Proof.
  induction f as [|f [IHv IHc]]; [split; intros; intros st; exact I|]. split.
  - intros t old j. rewrite xpull_S, pull_S.
    assert (Hopt: forall t', agrees (xbind (xpull G J f t' (vinit G t') j) (fun x => VOpt (Some x)) (fun x => xret (VOpt (Some x))))
                               (let? x := pull G J f t' (vinit G t') j in ret (VOpt (Some x)))).
    { intros t'. apply ag_bind; [apply IHv|]. intros x. apply ag_ret. }
    assert (Hrep: forall k x a, agrees (xlift old (report k x a) (fun _ => xret old)) (let? _ := report k x a in ret old)).
    { intros k x a. apply ag_lift. intros _. apply ag_ret. }
    destruct t; cbn [xpull_body pull_body]; try (apply ag_lift_ret).
    + destruct j; try apply ag_lift_ret. apply ag_bind; [|intros l0; apply ag_ret]. apply ag_items. intros a j'. apply ag_bind; [apply IHv|]. intros x. apply ag_ret.
    + destruct j; try apply ag_lift_ret. apply ag_bind; [|intros l0; apply ag_ret]. apply ag_items. intros a j'. apply ag_bind; [apply IHv|]. intros x.
      destruct (is_undef x); [intros st; exact I|]. destruct (emplace G false ord multi t x a) as [l' b]. destruct (multi || b); [apply ag_ret|].
      apply ag_lift. intros _. apply ag_ret.
    + destruct t1; try (destruct multi; intros st; exact I). destruct multi; (destruct old; try (intros st; exact I)); (destruct j as [ | | | | | |ms]; try apply ag_lift_ret).
      * apply ag_bind; [|intros l0; apply ag_ret]. apply ag_fold. intros a [n j']. cbv zeta.
        assert (One: agrees (xbind (xpull G J f t2 (vinit G t2) j') (fun x => fst (emplace G true ord true TString (VPair (VStr (cstr n)) x) a))
                      (fun x => xret (fst (emplace G true ord true TString (VPair (VStr (cstr n)) x) a))))
                    (let? x := pull G J f t2 (vinit G t2) j' in ret (fst (emplace G true ord true TString (VPair (VStr (cstr n)) x) a)))).
        { apply ag_bind; [apply IHv|]. intros x. apply ag_ret. }
        destruct j' as [ | | | | |js| ]; try exact One. apply ag_fold. intros a' j''. apply ag_bind; [apply IHv|]. intros x. apply ag_ret.
      * apply ag_bind; [|intros l0; apply ag_ret]. apply ag_fold. intros a [n j']. cbv zeta.
        destruct (map_find G ord TString (VPair (VStr (cstr n)) VUndef) a); (apply ag_bind; [apply IHv|]; intros x; apply ag_ret).
    + destruct old; try (intros st; exact I). destruct j as [ | | | | |js| ]; try apply ag_lift_ret. destruct (Nat.eqb (length js) 2); [|apply Hrep].
      destruct (nth_error js 0) as [ja|]; [|intros st; exact I]. destruct (nth_error js 1) as [jb|]; [|intros st; exact I].
      apply ag_bind; [apply IHv|]. intros x. apply ag_bind; [apply IHv|]. intros y. apply ag_ret.
    + destruct ts as [|t0 ts]; [intros st; exact I|]. destruct old; try (intros st; exact I). destruct j as [ | | | | |js| ]; try apply ag_lift_ret.
      destruct (Nat.eqb _ _); [|apply Hrep]. apply ag_bind; [|intros l0; apply ag_ret]. apply ag_tuple. exact IHv.
    + destruct j; try apply ag_ret; apply Hopt.
    + destruct j; try apply ag_ret; apply Hopt.
    + assert (P: agrees (xbind (xin_new G t (xpull G J f t (vinit G t) j)) (fun a => VShared (Some a)) (fun a => xret (VShared (Some a))))
                   (let? a := in_new G t (pull G J f t (vinit G t) j) in ret (VShared (Some a)))).
      { apply ag_bind; [apply ag_new; apply IHv|]. intros a. apply ag_ret. }
      destruct j; try exact P. apply ag_ret.
    + destruct j as [ | | | | | |ms]; try apply ag_lift_ret. destruct (alookup _ _ ms) as [ji|]; [|apply Hrep]. destruct (alookup _ _ ms) as [jd|]; [|apply Hrep].
      destruct ji as [ | |z| | | | ]; try apply Hrep. destruct (in_range KU64 z); [|apply Hrep].
      destruct (if (_ <? _)%N then _ else None) as [t'|]; [|apply Hrep].
      assert (P: agrees (xbind (xpull G J f t' (vinit G t') jd) (VVar (Z.to_nat z)) (fun x => xret (VVar (Z.to_nat z) x)))
                   (let? x := pull G J f t' (vinit G t') jd in ret (VVar (Z.to_nat z) x))).
      { apply ag_bind; [apply IHv|]. intros x. apply ag_ret. }
      destruct t'; try exact P. apply ag_ret.
    + destruct old; try (intros st; exact I). destruct j; try apply ag_lift_ret. apply ag_bind; [apply IHc|]. intros x. apply ag_ret.
  - intros c os ms. rewrite xpull_cls_S, pull_cls_S. unfold xpull_cls_body, pull_cls_body.
    destruct (g_class G c) as [rc|]; [|intros st; exact I]. destruct (rc_pull rc) as [p|]; [|intros st; exact I].
    apply ag_bind; [apply ag_fold; intros a b; apply IHc|]. intros os1. cbv zeta.
    assert (Q: agrees (xfold (fun os fd => xpull_member (xpull G J f) ms fd os) (jp_fields p) os1) (fold_m (fun os fd => pull_member (pull G J f) ms fd os) (jp_fields p) os1)).
    { apply ag_fold. intros a fd. unfold xpull_member, pull_member. destruct (alookup fkey_eqb _ a); [|intros st; exact I].
      destruct (alookup bytes_eqb _ ms); [|apply ag_ret]. apply ag_bind; [apply ag_member; apply IHv|]. intros x. apply ag_ret. }
    destruct (jp_record p); [apply ag_record|]; exact Q.
Qed.

(** ** type safety *)
Section Safe.
  Variable G : genv.
  Variable J : jenv.
  Variable ud : bool.
  Variable K : ikind -> Prop.
  Hypothesis HA : alloc_ok G.
  Hypothesis HP : place_ok G.
  Hypothesis HE : jenv_ok G ud K false.
  Hypothesis HC : conv_ok J.
  Notation ht := (has_type G ud).
  Notation able := (pullable G K false).
  Notation pulled := (pulled G ud).
  Notation mp := (mpost G ud false).
  Notation oldok := (variable_ok G ud).
  Notation docok := (docok K false).

  (** whether [m] returns or throws, [Q] holds for the value *)
  Definition qpost {A} (h : heap) (m : XM A) (Q : A -> heap -> Prop) : Prop := forall st, p_heap st = h -> heap_typed G ud (p_heap st) ->
    match m st with
    | QOk a st' | QThrow _ a st' => Q a (p_heap st') /\ heap_typed G ud (p_heap st') /\ hext h (p_heap st')
    | QUB | QFuel => True
    | QStuck => False
    end.

  Lemma qp_ret {A} h (a : A) (Q : A -> heap -> Prop) : Q a h -> qpost h (xret a) Q.
  Proof. intros HQ st <- Hs. cbn. split; [exact HQ|]. split; [exact Hs|apply hext_refl]. Qed.
  Lemma qp_ub {A} h (Q : A -> heap -> Prop) : qpost h (fun _ => QUB) Q.
  Proof. intros st _ _. exact I. Qed.
  Lemma qp_bind {A B} h (m : XM A) w (k : A -> XM B) (Q : A -> heap -> Prop) (R : B -> heap -> Prop) :
    qpost h m Q -> (forall a h', hext h h' -> Q a h' -> R (w a) h') -> (forall a h', hext h h' -> Q a h' -> qpost h' (k a) R) -> qpost h (xbind m w k) R.
  Proof.
    intros Hm Hw Hk st Eh Hs. unfold xbind. specialize (Hm st Eh Hs). destruct (m st) as [a st'|x a st'| | |]; auto.
    - destruct Hm as (HQ & Hs' & X). specialize (Hk a (p_heap st') X HQ st' eq_refl Hs').
      destruct (k a st') as [b st2|x b st2| | |]; auto; (destruct Hk as (HR & Hs2 & X2); split; [exact HR|]; split; [exact Hs2|eapply hext_trans; eauto]).
    - destruct Hm as (HQ & Hs' & X). split; [apply Hw; assumption|]. auto.
  Qed.
  (** [w] and the value returned are the same *)
  Lemma qp_map {A B} h (m : XM A) (w : A -> B) (Q : A -> heap -> Prop) (R : B -> heap -> Prop) :
    qpost h m Q -> (forall a h', hext h h' -> Q a h' -> R (w a) h') -> qpost h (xbind m w (fun a => xret (w a))) R.
  Proof. intros Hm Hw. eapply qp_bind; [exact Hm|exact Hw|]. intros a h' X HQ. apply qp_ret. apply Hw; assumption. Qed.
  Lemma qp_lift {A B} h (old : B) (m : M A) (k : A -> XM B) (Q : A -> heap -> Prop) (R : B -> heap -> Prop) :
    mp h m Q -> (forall h', hext h h' -> R old h') -> (forall a h', hext h h' -> Q a h' -> qpost h' (k a) R) -> qpost h (xlift old m k) R.
  Proof.
    intros Hm Hw Hk st Eh Hs. unfold xlift. assert (S: sok G ud false st) by (split; [exact Hs|discriminate]). specialize (Hm st Eh S).
    destruct (m st) as [a st'|x st'| | |]; auto.
    - destruct Hm as (HQ & [Hs' _] & X). specialize (Hk a (p_heap st') X HQ st' eq_refl Hs').
      destruct (k a st') as [b st2|x2 b st2| | |]; auto; (destruct Hk as (HR & Hs2 & X2); split; [exact HR|]; split; [exact Hs2|eapply hext_trans; eauto]).
    - destruct Hm as (Hs' & X). auto.
  Qed.
  Lemma qp_lift_ret {A} h (old : A) (m : M A) (Q : A -> heap -> Prop) : mp h m Q -> (forall h', hext h h' -> Q old h') -> qpost h (xlift old m xret) Q.
  Proof. intros Hm Ho. eapply qp_lift; [exact Hm|exact Ho|]. intros a h' X HQ. apply qp_ret. exact HQ. Qed.
  Lemma qp_imp {A} h (m : XM A) (Q R : A -> heap -> Prop) : qpost h m Q -> (forall a h', hext h h' -> Q a h' -> R a h') -> qpost h m R.
  Proof. intros Hm HQ st Eh Hs. specialize (Hm st Eh Hs). destruct (m st) as [a st'|x a st'| | |]; auto; destruct Hm as (H1 & H2 & H3); auto. Qed.
  Lemma qp_member {A} h n (m : XM A) Q : qpost h m Q -> qpost h (xin_member n m) Q.
  Proof.
    intros Hm st Eh Hs. unfold xin_member. specialize (Hm (put_member (Some n) st) Eh Hs). destruct (m _) as [a st'|x a st'| | |]; auto.
  Qed.
  Lemma qp_record {A} h n (m : XM A) Q : qpost h m Q -> qpost h (xin_record n m) Q.
  Proof.
    intros Hm st Eh Hs. unfold xin_record. specialize (Hm (put_record (Some n) st) Eh Hs). destruct (m _) as [a st'|x a st'| | |]; auto.
  Qed.
  Lemma qp_items {A} (s : A -> json -> XM A) (P : A -> heap -> Prop) js :
    (forall a h h', hext h h' -> P a h -> P a h') ->
    forall h, (forall a j h', In j js -> hext h h' -> P a h' -> qpost h' (s a j) P) -> forall i a, P a h -> qpost h (xitems s i js a) P.
  Proof.
    intros Mono. induction js as [|j js IH]; intros h Hs i a Ha; cbn [xitems].
    - eapply qp_lift; [apply (mp_index G ud false h _ (fun _ h' => h' = h)); reflexivity|intros h' X; eapply Mono; eauto|]. intros _ h' _ ->. apply qp_ret; exact Ha.
    - eapply qp_lift; [apply (mp_index G ud false h _ (fun _ h' => h' = h)); reflexivity|intros h' X; eapply Mono; eauto|]. intros _ h' _ ->.
      eapply qp_bind; [apply Hs; [left; reflexivity|apply hext_refl|exact Ha]|auto|]. intros a' h1 X1 H1. apply IH; [|exact H1].
      intros b j' h2 Hin X2. apply Hs; [right; exact Hin|eapply hext_trans; eauto].
  Qed.
  Lemma qp_fold {A B} (s : A -> B -> XM A) (P : A -> heap -> Prop) l :
    forall h, (forall a b h', In b l -> hext h h' -> P a h' -> qpost h' (s a b) P) -> forall a, P a h -> qpost h (xfold s l a) P.
  Proof.
    induction l as [|j js IH]; intros h Hs a Ha; cbn [xfold].
    - apply qp_ret; exact Ha.
    - eapply qp_bind; [apply Hs; [left; reflexivity|apply hext_refl|exact Ha]|auto|]. intros a' h1 X1 H1. apply IH; [|exact H1].
      intros b j' h2 Hin X2. apply Hs; [right; exact Hin|eapply hext_trans; eauto].
  Qed.
  Lemma qp_new h t m : able t -> (forall h1, hext h h1 -> qpost h1 m (fun v h' => ht h' t v)) -> qpost h (xin_new G t m) (fun a h' => hty h' a = Some t).
  Proof.
    intros R Hm st Eh Hs. unfold xin_new. rewrite Eh. set (a := g_alloc G h). pose proof (HA h) as Hfresh. fold a in Hfresh. cbv zeta.
    assert (X1: hext h (hset h a (t, vinit G t))) by (exact (hle_hset_fresh _ _ _ Hfresh)).
    assert (S1: heap_typed G ud (hset h a (t, vinit G t))).
    { rewrite Eh in Hs. intros b u x E. destruct (N.eq_dec a b) as [<-|Hn].
      - rewrite hget_hset_same in E. inversion E; subst. apply (vinit_any G ud K false HE); exact R.
      - rewrite hget_hset_other in E by exact Hn. eapply ht_ext; [exact X1|]. eapply Hs; exact E. }
    specialize (Hm (hset h a (t, vinit G t)) X1 {| p_heap := hset h a (t, vinit G t); p_err := p_err st |} eq_refl S1).
    assert (U: forall x st', ht (p_heap st') t x /\ heap_typed G ud (p_heap st') /\ hext (hset h a (t, vinit G t)) (p_heap st') ->
      hty (hset (p_heap st') a (t, x)) a = Some t /\ heap_typed G ud (hset (p_heap st') a (t, x)) /\ hext h (hset (p_heap st') a (t, x))).
    { intros x st' (Hx & T2 & X2).
      assert (Ha: hget (p_heap st') a = Some (t, vinit G t)) by (apply X2; apply hget_hset_same).
      assert (Hle: hle (p_heap st') (hset (p_heap st') a (t, x))) by (apply hle_hset_same; unfold hty; rewrite Ha; reflexivity).
      split; [unfold hty; rewrite hget_hset_same; reflexivity|]. split.
      + intros b u y E. eapply ht_mono_h; [exact Hle|]. destruct (N.eq_dec a b) as [<-|Hn].
        * rewrite hget_hset_same in E. inversion E; subst. exact Hx.
        * rewrite hget_hset_other in E by exact Hn. eapply T2; eauto.
      + intros b c E. rewrite hget_hset_other; [apply X2, X1, E|]. intros ->. apply Hfresh. eapply alookup_some_key; [apply N.eqb_eq|exact E]. }
    destruct (m _) as [x st'|e x st'| | |]; auto; apply U; exact Hm.
  Qed.

  Lemma pulled_ext h h' t old : hext h h' -> oldok h t old -> pulled t old old h'.
  Proof. intros X [O|[O ->]]; [left; eapply ht_ext; eauto|right; auto]. Qed.

  Definition Q_val f := forall t old j h, able t -> oldok h t old -> docok j -> qpost h (xpull G J f t old j) (fun v h' => pulled t old v h').
  Definition Q_cls f := forall c rc p lay os ms h, g_class G c = Some rc -> rc_pull rc = Some p ->
    (forall k t, alookup fkey_eqb k (rc_layout rc) = Some t -> alookup fkey_eqb k lay = Some t) ->
    fieldsok G ud h lay os -> docok (JObj ms) ->
    qpost h (xpull_cls G J f c os ms) (fun os' h' => fieldsok G ud h' lay os').

  Lemma fieldsok_upd h h' lay os fd o x : hext h h' -> fieldsok G ud h lay os -> alookup fkey_eqb (jf_key fd) lay = Some (jf_ty fd) ->
    alookup fkey_eqb (jf_key fd) os = Some o -> ht h' (jf_ty fd) x -> fieldsok G ud h' lay (aupdate fkey_eqb (jf_key fd) x os).
  Proof.
    intros X [K0 F0] Hl Eo Hx. split; [rewrite aupdate_keys; exact K0|].
    intros k t v E1 E2. destruct (fkey_eq_dec (jf_key fd) k) as [<-|Hn].
    - rewrite (alookup_aupdate_same _ fkey_eqb_eq) in E2 by (eapply alookup_some_key; [apply fkey_eqb_eq|exact Eo]).
      inversion E2; subst v. rewrite Hl in E1. inversion E1; subst t. exact Hx.
    - rewrite (alookup_aupdate_other _ fkey_eqb_eq) in E2 by congruence. eapply ht_ext; [exact X|]. eapply F0; eauto.
  Qed.

  Lemma Q_cls_step f : Q_val f -> Q_cls f -> Q_cls (S f).
  Proof.
    intros SV SC c rc p lay os ms h Hc Hp Hlay Hos Hd.
    rewrite xpull_cls_S. unfold xpull_cls_body. rewrite Hc, Hp.
    eapply qp_bind.
    { apply (qp_fold _ (fun os' h' => fieldsok G ud h' lay os')); [|exact Hos]. intros os0 b h0 Hb X0 F0.
      destruct (jo_bases _ _ _ _ HE c rc p b Hc Hp Hb) as (rb & pb & Eb & Epb & Hsub). eapply SC; eauto. }
    { auto. }
    intros os1 h1 X1 F1. cbv zeta.
    match goal with |- qpost _ (match _ with Some n => xin_record n ?m | None => ?m end) _ => assert (Q: qpost h1 m (fun os' h' => fieldsok G ud h' lay os')) end.
    { apply (qp_fold _ (fun os' h' => fieldsok G ud h' lay os')); [|exact F1]. intros os0 fd h0 Hfd X0 F0.
      destruct (jo_fields _ _ _ _ HE c rc p fd Hc Hp Hfd) as [Hl Hr]. apply Hlay in Hl.
      assert (exists o, alookup fkey_eqb (jf_key fd) os0 = Some o) as [o Eo].
      { apply (alookup_some_in _ fkey_eqb_eq). rewrite (proj1 F0). eapply alookup_some_key; [apply fkey_eqb_eq|exact Hl]. }
      unfold xpull_member. rewrite Eo. destruct (alookup bytes_eqb (jf_name fd) ms) as [j|] eqn:El; [|apply qp_ret; exact F0].
      assert (Ho := proj2 F0 _ _ _ Hl Eo).
      eapply qp_map; [apply qp_member; apply (SV (jf_ty fd) o j h0 Hr (or_introl Ho)); eapply doc_lookup; eauto|].
      intros x h2 X2 Px. assert (Hx := pulled_ht _ _ _ _ _ _ _ X2 Ho Px). eapply fieldsok_upd; eauto. }
    destruct (jp_record p); [apply qp_record|]; exact Q.
  Qed.

  Lemma Q_val_step f : Q_val f -> Q_cls f -> Q_val (S f).
  Proof.
    intros SV SC t old j h R O Hd. rewrite xpull_S.
    assert (PO: forall h', hext h h' -> pulled t old old h') by (intros h' X; eapply pulled_ext; eauto).
    assert (MM: qpost h (xlift old (mismatch t j old) xret) (fun v h' => pulled t old v h')).
    { apply qp_lift_ret; [|exact PO]. apply mp_mismatch. apply PO. apply hext_refl. }
    assert (RT: forall v, ht h t v -> qpost h (xret v) (fun v h' => pulled t old v h')) by (intros v Hv; apply qp_ret; left; exact Hv).
    assert (RR: forall k x a, qpost h (xlift old (report k x a) (fun _ => xret old)) (fun v h' => pulled t old v h')).
    { intros k x a. eapply qp_lift; [apply (mp_report G ud false h k x a (fun _ h' => h' = h)); reflexivity|exact PO|]. intros _ h' _ ->. apply qp_ret. apply PO, hext_refl. }
    assert (SN: forall t' j' h', able t' -> docok j' -> qpost h' (xpull G J f t' (vinit G t') j') (fun v h'' => ht h'' t' v)).
    { intros t' j' h' R' D'. assert (Ho := vinit_any G ud K false HE t' h' R'). eapply qp_imp; [apply (SV t' _ j' h' R' (or_introl Ho) D')|]. intros v h2 X2 P2. eapply pulled_ht; eauto. }
    assert (LF: qpost h (xlift old (pull G J (S f) t old j) xret) (fun v h' => pulled t old v h')).
    { apply qp_lift_ret; [|exact PO]. destruct (all_safe G J ud K false HA HP HE HC (S f)) as [AV _]. apply AV; assumption. }
    destruct t; cbn [xpull_body]; cbn [pullable] in R; try contradiction; try exact LF; clear LF.
    - (* sequences *) destruct j as [ | | | | |js| ]; try exact MM.
      eapply qp_map; [apply (qp_items _ (fun l h' => forall x, In x l -> ht h' t x))|].
      + intros l h1 h2 X Hl x Hx. eapply ht_ext; [exact X|auto].
      + intros l j' h' Hin X Hl. eapply (qp_map _ _ (fun x => l ++ [x])); [apply SN; [exact R|eapply doc_item; eauto]|]. intros x h2 X2 Hx.
        intros y Hy. apply in_app_or in Hy. destruct Hy as [Hy|[<-|[]]]; [eapply ht_ext; [exact X2|auto]|exact Hx].
      + intros x [].
      + intros l h' X Hl. left. constructor. exact Hl.
    - (* sets *) destruct R as [R Rr]. destruct j as [ | | | | |js| ]; try exact MM.
      eapply qp_map; [apply (qp_items _ (fun l h' => forall x, In x l -> ht h' t x))|].
      + intros l h1 h2 X Hl x Hx. eapply ht_ext; [exact X|auto].
      + intros l j' h' Hin X Hl. eapply qp_bind; [apply (SV t _ j' h' R (dinit_ok G ud K false HE t h' R)); eapply doc_item; eauto| |].
        { intros x h2 X2 _ y Hy. eapply ht_ext; [exact X2|auto]. }
        intros x h2 X2 Px.
        destruct (is_undef x) eqn:Eu; [apply qp_ub|].
        assert (Hx: ht h2 t x) by (destruct Px as [Hx|(-> & _)]; [exact Hx|discriminate]).
        assert (Q: forall l' b, emplace G false ord multi t x l = (l', b) -> forall h3, hext h2 h3 -> forall y, In y l' -> ht h3 t y).
        { intros l' b E h3 X3 y Hy. assert (Hy' : In y (fst (emplace G false ord multi t x l))) by (rewrite E; exact Hy).
          eapply ht_ext; [exact X3|].
          apply (emplace_in _ _ _ _ _ _ _ _ HP) in Hy'. destruct Hy' as [->|Hy']; [exact Hx|eapply ht_ext; [exact X2|auto]]. }
        destruct (emplace G false ord multi t x l) as [l' b] eqn:Ee. specialize (Q l' b eq_refl).
        destruct (multi || b); [apply qp_ret; apply Q; apply hext_refl|].
        eapply qp_lift; [apply (mp_unchecked G ud K false HE h2 _ _ _ (fun _ h' => h' = h2)); reflexivity|exact Q|]. intros _ h3 _ ->. apply qp_ret; apply Q; apply hext_refl.
      + intros x [].
      + intros l h' X Hl. left. constructor. exact Hl.
    - (* maps *) destruct R as [-> R].
      assert (exists olds, old = VList olds /\ (forall x, In x olds -> ht h (TPair TString t2) x)) as (olds & -> & Ho).
      { destruct O as [O|[O _]]; [|discriminate]. inversion O; subst; [discriminate|]. exists l. split; [reflexivity|]. intros x Hx. match goal with Q : forall x, In x l -> exists k v, x = VPair k v |- _ => destruct (Q x Hx) as (k & v & ->) end. constructor; eauto. }
      assert (Fin: forall l h', (forall x, In x l -> ht h' (TPair TString t2) x) -> ht h' (TMap ord multi TString t2) (VList l)).
      { intros l h' Hl. constructor.
        - intros x Hx. specialize (Hl x Hx). inversion Hl; subst; [discriminate|eauto].
        - intros k v Hx. specialize (Hl _ Hx). inversion Hl; subst. assumption.
        - intros k v Hx. specialize (Hl _ Hx). inversion Hl; subst. assumption. }
      assert (Ins: forall l h' h2 n x, (forall x, In x l -> ht h' (TPair TString t2) x) -> hext h' h2 -> ht h2 t2 x ->
         forall y, In y (fst (emplace G true ord multi TString (VPair (VStr n) x) l)) -> ht h2 (TPair TString t2) y).
      { intros l h' h2 n x Hl X2 Hx y Hy. apply (emplace_in _ _ _ _ _ _ _ _ HP) in Hy. destruct Hy as [->|Hy]; [constructor; [constructor|exact Hx]|eapply ht_ext; [exact X2|auto]]. }
      destruct multi; (destruct j as [ | | | | | |ms]; try exact MM).
      + eapply qp_map; [apply (qp_fold _ (fun l h' => forall x, In x l -> ht h' (TPair TString t2) x)); [|exact Ho]|].
        * intros l [n j'] h' Hin X Hl. cbv zeta. assert (D' := doc_member _ _ _ _ _ Hd Hin).
          assert (One: qpost h' (xbind (xpull G J f t2 (vinit G t2) j') (fun x => fst (emplace G true ord true TString (VPair (VStr (cstr n)) x) l))
                (fun x => xret (fst (emplace G true ord true TString (VPair (VStr (cstr n)) x) l)))) (fun l h' => forall x, In x l -> ht h' (TPair TString t2) x)).
          { eapply (qp_map _ _ (fun x => fst (emplace G true ord true TString (VPair (VStr (cstr n)) x) l))); [apply SN; [exact R|exact D']|].
            intros x h2 X2 Hx y Hy. exact (Ins _ _ _ _ _ Hl X2 Hx y Hy). }
          destruct j' as [ | | | | |js| ]; try exact One.
          apply (qp_fold _ (fun l h' => forall x, In x l -> ht h' (TPair TString t2) x)); [|exact Hl].
          intros l2 j2 h3 Hin2 X3 Hl2. eapply (qp_map _ _ (fun x => fst (emplace G true ord true TString (VPair (VStr (cstr n)) x) l2))); [apply SN; [exact R|eapply doc_item; eauto]|].
          intros x h2 X2 Hx y Hy. exact (Ins _ _ _ _ _ Hl2 X2 Hx y Hy).
        * intros l h' X Hl. left. apply Fin; exact Hl.
      + eapply qp_map; [apply (qp_fold _ (fun l h' => forall x, In x l -> ht h' (TPair TString t2) x)); [|exact Ho]|].
        * intros l [n j'] h' Hin X Hl. cbv zeta. assert (D' := doc_member _ _ _ _ _ Hd Hin).
          destruct (map_find G ord TString (VPair (VStr (cstr n)) VUndef) l) as [v|] eqn:Ef.
          -- assert (Hv: ht h' t2 v).
             { clear -Ef Hl. induction l as [|y l IH]; cbn [map_find] in Ef; [discriminate|]. destruct (same_key _ _ _ y _).
               - assert (Hy := Hl y (or_introl eq_refl)). inversion Hy; subst; try discriminate. inversion Ef; subst. assumption.
               - apply IH; [|exact Ef]. intros x Hx; apply Hl; right; exact Hx. }
             eapply (qp_map _ _ (fun x => map_put G ord TString (VPair (VStr (cstr n)) VUndef) x l)); [apply (SV t2 v j' h' R (or_introl Hv) D')|].
             intros x h2 X2 Px. assert (Hx := pulled_ht _ _ _ _ _ _ _ X2 Hv Px).
             assert (Hl2: forall x, In x l -> ht h2 (TPair TString t2) x) by (intros y Hy; eapply ht_ext; [exact X2|auto]). clear -Hl2 Hx.
             induction l as [|y l IH]; cbn [map_put]; [intros y []|]. destruct (same_key _ _ _ y _).
             ++ assert (Hy := Hl2 y (or_introl eq_refl)). inversion Hy; subst; [discriminate|]. intros z [<-|Hz]; [constructor; assumption|apply Hl2; right; exact Hz].
             ++ intros z [<-|Hz]; [apply Hl2; left; reflexivity|]. apply IH; [|exact Hz]. intros w Hw; apply Hl2; right; exact Hw.
          -- eapply (qp_map _ _ (fun x => fst (emplace G true ord false TString (VPair (VStr (cstr n)) x) l))); [apply SN; [exact R|exact D']|].
             intros x h2 X2 Hx y Hy. exact (Ins _ _ _ _ _ Hl X2 Hx y Hy).
        * intros l h' X Hl. left. apply Fin; exact Hl.
    - (* pair *) destruct R as [R1 R2]. destruct O as [O|[O _]]; [|discriminate]. 
      assert (exists a b, old = VPair a b /\ ht h t1 a /\ ht h t2 b) as (a & b & -> & H2 & H3) by (inversion O; subst; [discriminate|eauto]).
      destruct j as [ | | | | |js| ]; try exact MM. destruct (Nat.eqb_spec (length js) 2) as [E|E]; [|apply RR].
      destruct js as [|ja [|jb [|]]]; try discriminate. cbn [nth_error].
      eapply qp_bind; [apply (SV t1 a ja h R1 (or_introl H2)); eapply doc_item; [exact Hd|left; reflexivity]| |].
      { intros x h1 X1 P1. left. constructor; [eapply pulled_ht; eauto|eapply ht_ext; eauto]. }
      intros x h1 X1 P1. assert (Hx := pulled_ht _ _ _ _ _ _ _ X1 H2 P1).
      assert (Hb := ht_ext _ _ _ _ _ _ X1 H3).
      eapply (qp_map _ _ (fun b => VPair x b)); [apply (SV t2 b jb h1 R2 (or_introl Hb)); eapply doc_item; [exact Hd|right; left; reflexivity]|].
      intros y h2 X2 P2. assert (Hy := pulled_ht _ _ _ _ _ _ _ X2 Hb P2).
      left. constructor; [eapply ht_ext; eauto|exact Hy].
    - (* tuple *) destruct R as [Rn R]. destruct ts as [|t0 ts]; [congruence|]. set (us := t0 :: ts) in *.
      destruct O as [O|[O _]]; [|discriminate].
      assert (exists l, old = VList l /\ length l = length us /\ (forall i t x, nth_error us i = Some t -> nth_error l i = Some x -> ht h t x)) as (l & -> & H2 & H3)
        by (inversion O; subst; [discriminate|eauto]).
      destruct j as [ | | | | |js| ]; try exact MM. destruct (Nat.eqb_spec (length js) (length us)) as [E|E]; [|apply RR].
      assert (Q: forall vs os js h, length os = length vs -> length js = length vs ->
         (forall i t, nth_error vs i = Some t -> able t) -> (forall j, In j js -> docok j) ->
         (forall i t x, nth_error vs i = Some t -> nth_error os i = Some x -> ht h t x) ->
         qpost h (xtuple (xpull G J f) vs os js) (fun l' h' => length l' = length vs /\ forall i t x, nth_error vs i = Some t -> nth_error l' i = Some x -> ht h' t x)).
      { clear -SV. induction vs as [|v vs IH]; intros [|o os] [|j js] h L1 L2 HR HD HO; cbn in L1, L2; try discriminate; cbn [xtuple].
        - apply qp_ret. split; [reflexivity|]. intros [|i] t x E; discriminate.
        - assert (Ho: ht h v o) by (apply (HO 0 v o); reflexivity).
          eapply qp_bind; [apply (SV v o j h (HR 0 v eq_refl) (or_introl Ho)); apply HD; left; reflexivity| |].
          { intros x h1 X1 P1. assert (Hx := pulled_ht _ _ _ _ _ _ _ X1 Ho P1). split; [cbn; lia|]. intros [|i] t y E1 E2; cbn in E1, E2.
            - inversion E1; inversion E2; subst. exact Hx.
            - eapply ht_ext; [exact X1|]. apply (HO (S i) t y E1 E2). }
          intros x h1 X1 P1. assert (Hx := pulled_ht _ _ _ _ _ _ _ X1 Ho P1).
          eapply (qp_map _ _ (fun xs => x :: xs)); [apply (IH os js h1); [lia|lia| | |]|].
          + intros i t E. apply (HR (S i) t E).
          + intros j' Hj. apply HD. right; exact Hj.
          + intros i t y E1 E2. eapply ht_ext; [exact X1|]. apply (HO (S i) t y E1 E2).
          + intros xs h2 X2 [Lx Hxs]. split; [cbn; lia|]. intros [|i] t y E1 E2; cbn in E1, E2.
            * inversion E1; inversion E2; subst. eapply ht_ext; eauto.
            * eapply Hxs; eauto. }
      eapply qp_map; [apply (Q us l js h); auto|].
      + intros i t E1. apply (able_nth G K false us i t); [exact R|exact E1].
      + intros j Hj. eapply doc_item; eauto.
      + intros l' h' X [L' Hl']. left. constructor; assumption.
    - (* unique *) assert (P: qpost h (xbind (xpull G J f t (vinit G t) j) (fun x => VOpt (Some x)) (fun x => xret (VOpt (Some x)))) (fun v h' => pulled (TUnique t) old v h')).
      { eapply (qp_map _ _ (fun x => VOpt (Some x))); [apply SN; assumption|]. intros x h1 X1 Hx. left. constructor. exact Hx. }
      destruct j; try exact P. apply RT. constructor.
    - (* optional *) assert (P: qpost h (xbind (xpull G J f t (vinit G t) j) (fun x => VOpt (Some x)) (fun x => xret (VOpt (Some x)))) (fun v h' => pulled (TOptional t) old v h')).
      { eapply (qp_map _ _ (fun x => VOpt (Some x))); [apply SN; assumption|]. intros x h1 X1 Hx. left. constructor. exact Hx. }
      destruct j; try exact P. apply RT. constructor.
    - (* shared *) assert (P: qpost h (xbind (xin_new G t (xpull G J f t (vinit G t) j)) (fun a => VShared (Some a)) (fun a => xret (VShared (Some a)))) (fun v h' => pulled (TShared t) old v h')).
      { eapply (qp_map _ _ (fun a => VShared (Some a))); [apply qp_new; [exact R|]|]. { intros h1 X1. apply SN; assumption. } intros a h1 X1 Ha. left. constructor. exact Ha. }
      destruct j; try exact P. apply RT. constructor.
    - (* variant *) destruct R as [_ R]. destruct j as [ | | | | | |ms]; try exact MM.
      destruct (alookup _ _ ms) as [ji|]; [|apply RR]. destruct (alookup _ _ ms) as [jd|] eqn:Ed; [|apply RR].
      destruct ji as [ | |z| | | | ]; try apply RR. destruct (in_range KU64 z); [|apply RR].
      destruct (Z.to_N z <? N.of_nat (length ts))%N; [|apply RR]. destruct (nth_error ts (Z.to_nat z)) as [t'|] eqn:En; [|apply RR].
      assert (D' := doc_lookup _ _ _ _ _ Hd Ed).
      destruct (able_vnth _ _ _ _ _ _ R En) as [->|R']; [apply RT; econstructor; [exact En|constructor]|].
      assert (P: qpost h (xbind (xpull G J f t' (vinit G t') jd) (VVar (Z.to_nat z)) (fun x => xret (VVar (Z.to_nat z) x))) (fun v h' => pulled (TVariant ts) old v h')).
      { eapply (qp_map _ _ (VVar (Z.to_nat z))); [apply SN; assumption|]. intros x h1 X1 Hx. left. econstructor; eauto. }
      destruct t'; try exact P. destruct R'.
    - (* class *) destruct R as (rc & p & Ec & Ep). destruct O as [O|[O _]]; [|discriminate]. 
      assert (exists fs, old = VObj fs /\ fieldsok G ud h (rc_layout rc) fs) as (fs & -> & H2).
      { inversion O; subst; [discriminate|]. exists fs. split; [reflexivity|]. match goal with Q : g_class G c = Some ?x |- _ => rewrite Ec in Q; inversion Q; subst x end. split; assumption. }
      destruct j as [ | | | | | |ms]; try exact MM.
      eapply qp_map; [apply (SC c rc p (rc_layout rc) fs ms h Ec Ep (fun _ _ e => e)); [exact H2|exact Hd]|].
      intros os' h' X [K' F']. left. econstructor; eauto.
  Qed.

  Lemma xsafe_all f : Q_val f /\ Q_cls f.
  Proof.
    induction f as [|f [IH1 IH2]].
    - split; repeat intro; cbn; exact I.
    - split; [apply Q_val_step|apply Q_cls_step]; assumption.
  Qed.
End Safe.
