(** EquivPull.v -- deserialising documents which are the same except for the order of members *)
From Coq Require Import String List NArith ZArith Bool Permutation Lia.
From Verif Require Import Base BaseFacts Types TypesFacts BinModel BinSpec BinSafeSpec BinSafe Float JsonModel JsonRel JsonErr JsonSpec JsonSafeSpec JsonSafe JsonColl SerSpec JTreeSpec AddrSpec AddrFacts AddrJson EquivSpec EquivExact EquivRun EquivMap.
Import ListNotations.
Local Open Scope list_scope.

Lemma Forall2_same {A} (R : A -> A -> Prop) l : (forall x, R x x) -> Forall2 R l l.
Proof. intros H. induction l; constructor; auto. Qed.

Section Inv.
  Variable G : genv.
  Notation eqv := (equivalent G true).
  Lemma inv_seq t js j' : eqv (TSeq t) (JArr js) j' -> exists js', j' = JArr js' /\ Forall2 (eqv t) js js'.
  Proof. intros E. inversion E; subst; try contradiction; eexists; (split; [reflexivity|]); [apply Forall2_same; intros; apply eq_same|assumption]. Qed.
  Lemma inv_set o m t js j' : eqv (TSet o m t) (JArr js) j' -> exists js', j' = JArr js' /\ Forall2 (eqv t) js js'.
  Proof. intros E. inversion E; subst; try contradiction; eexists; (split; [reflexivity|]); [apply Forall2_same; intros; apply eq_same|assumption]. Qed.
  Definition tuplewise (ts : list ty) (js js' : list json) : Prop :=
    length js = length js' /\ forall i t j j', nth_error ts i = Some t -> nth_error js i = Some j -> nth_error js' i = Some j' -> eqv t j j'.
  Lemma tuplewise_same ts js : tuplewise ts js js.
  Proof. split; [reflexivity|]. intros i t j j' _ E E'. rewrite E in E'. injection E' as <-. apply eq_same. Qed.
  Lemma inv_tuple ts js j' : eqv (TTuple ts) (JArr js) j' -> exists js', j' = JArr js' /\ tuplewise ts js js'.
  Proof. intros E. inversion E; subst; try contradiction; eexists; (split; [reflexivity|]); [apply tuplewise_same|split; assumption]. Qed.
  Lemma inv_pair ta tb js j' : eqv (TPair ta tb) (JArr js) j' -> exists js', j' = JArr js' /\ tuplewise [ta; tb] js js'.
  Proof.
    intros E. inversion E; subst; try contradiction; eexists; (split; [reflexivity|]); [apply tuplewise_same|]. split; [assumption|]. intros [|[|[|i]]] t j j'; try discriminate; intros [= <-]; auto.
  Qed.
  Definition mapwise (R : json -> json -> Prop) (ord : bool) (ms ms' : list (bytes * json)) : Prop :=
    exists msr, rearranged true ord ms msr /\ Forall2 (fun m m' => cstr (fst m) = cstr (fst m') /\ R (snd m) (snd m')) msr ms'.
  Lemma mapwise_same (R : json -> json -> Prop) ord ms : (forall j, R j j) -> mapwise R ord ms ms.
  Proof. intros H. exists ms. split; [left; reflexivity|]. apply Forall2_same. intros x. split; [reflexivity|apply H]. Qed.
  Lemma inv_map ord vt ms j' : eqv (TMap ord false TString vt) (JObj ms) j' -> exists ms', j' = JObj ms' /\ mapwise (eqv vt) ord ms ms'.
  Proof. intros E. inversion E; subst; try contradiction; eexists; (split; [reflexivity|]); [apply mapwise_same; intros; apply eq_same|eexists; split; eassumption]. Qed.
  (** the value of an entry of a multimap *)
  Definition items_or_one (vt : ty) (j j' : json) : Prop :=
    (exists js js', j = JArr js /\ j' = JArr js' /\ Forall2 (eqv vt) js js') \/ ((forall js, j <> JArr js) /\ (forall js, j' <> JArr js) /\ eqv vt j j').
  Lemma items_same vt j : items_or_one vt j j.
  Proof. destruct j; try (right; split; [intros ? ?; discriminate|]; split; [intros ? ?; discriminate|apply eq_same]). left. do 2 eexists. split; [reflexivity|]. split; [reflexivity|]. apply Forall2_same. intros; apply eq_same. Qed.
  Lemma items_cases vt j j' : (exists js js', j = JArr js /\ j' = JArr js' /\ Forall2 (eqv vt) js js') \/ ((forall js, j <> JArr js) /\ eqv vt j j') -> items_or_one vt j j'.
  Proof.
    intros [E|[N E]]; [left; exact E|].
    right. split; [exact N|]. split; [|exact E]. intros js ->. destruct (equivalent_kind _ _ _ _ _ E) as [-> |[(p & q & -> & _)|(p & q & -> & Y)]]; [exact (N _ eq_refl)|exact (N _ eq_refl)|discriminate Y].
  Qed.
  Lemma inv_multimap ord vt ms j' : eqv (TMap ord true TString vt) (JObj ms) j' -> exists ms', j' = JObj ms' /\ mapwise (items_or_one vt) ord ms ms'.
  Proof.
    intros E. inversion E; subst; try contradiction; eexists; (split; [reflexivity|]); [apply mapwise_same; intros; apply items_same|]. eexists; split; [eassumption|].
    match goal with H : Forall2 _ _ _ |- _ => induction H as [|? ? ? ? [X Y] F IH] end; constructor; [split; [exact X|apply items_cases; exact Y]|].
    match goal with H : rearranged _ _ _ _ |- _ => clear H end. clear - F. induction F as [|? ? ? ? [X Y] F IH]; constructor; [split; [exact X|apply items_cases; exact Y]|exact IH].
  Qed.
  Lemma inv_unique t j j' : eqv (TUnique t) j j' -> eqv t j j'. Proof. intros E. inversion E; subst; [apply eq_same|destruct j; contradiction|assumption]. Qed.
  Lemma inv_optional t j j' : eqv (TOptional t) j j' -> eqv t j j'. Proof. intros E. inversion E; subst; [apply eq_same|destruct j; contradiction|assumption]. Qed.
  Lemma inv_shared t j j' : eqv (TShared t) j j' -> eqv t j j'. Proof. intros E. inversion E; subst; [apply eq_same|destruct j; contradiction|assumption]. Qed.
  Lemma null_or_not r t j j' : equivalent G r t j j' -> (j = JNull /\ j' = JNull) \/ (j <> JNull /\ j' <> JNull).
  Proof.
    intros E. destruct (equivalent_kind _ _ _ _ _ E) as [-> |[(a & b & -> & ->)|(a & b & -> & ->)]]; try (right; split; discriminate). destruct j'; try (right; split; discriminate). left. split; reflexivity.
  Qed.
  Lemma inv_variant ts ms j' : eqv (TVariant ts) (JObj ms) j' -> exists ms', j' = JObj ms' /\
    both same_index (alookup bytes_eqb (list_byte_of_string "index") ms) (alookup bytes_eqb (list_byte_of_string "index") ms') /\
    both (fun jd jd' => forall z t, alookup bytes_eqb (list_byte_of_string "index") ms = Some (JInt z) -> nth_error ts (Z.to_nat z) = Some t -> eqv t jd jd')
      (alookup bytes_eqb (list_byte_of_string "data") ms) (alookup bytes_eqb (list_byte_of_string "data") ms').
  Proof.
    intros E. inversion E; subst; try contradiction; eexists; (split; [reflexivity|]); [|split; assumption]. split.
    - destruct (alookup bytes_eqb (list_byte_of_string "index") ms); constructor. left; reflexivity.
    - destruct (alookup bytes_eqb (list_byte_of_string "data") ms); constructor. intros; apply eq_same.
  Qed.
  (** the members of a class in the two documents *)
  Definition classwise (c : N) (ms ms' : list (bytes * json)) : Prop :=
    ms = ms' \/ exists L, JsonSpec.members G rc_pull c L /\ forall fd, In fd L -> both (eqv (jf_ty fd)) (alookup bytes_eqb (jf_name fd) ms) (alookup bytes_eqb (jf_name fd) ms').
  Lemma inv_struct c ms j' : eqv (TStruct c) (JObj ms) j' -> exists ms', j' = JObj ms' /\ classwise c ms ms'.
  Proof. intros E. inversion E; subst; try contradiction; eexists; (split; [reflexivity|]); [left; reflexivity|right; eexists; split; eassumption]. Qed.
  Lemma classwise_base c rc p b ms ms' : g_class G c = Some rc -> rc_pull rc = Some p -> In b (jp_bases p) -> classwise c ms ms' -> classwise b ms ms'.
  Proof.
    intros Ec Ep Hb [-> |(L & ML & H)]; [left; reflexivity|]. inversion ML as [c0 rc0 p0 Ls Ec0 Ep0 F E0 E1]; subst. rewrite Ec in Ec0. injection Ec0 as <-. rewrite Ep in Ep0. injection Ep0 as <-.
    destruct (Forall2_in_l _ _ _ F b Hb) as (Lb & HLb & Mb). right. exists Lb. split; [exact Mb|]. intros fd Hfd. apply H. apply in_or_app. left. apply in_concat. exists Lb. split; assumption.
  Qed.
  Lemma classwise_field c rc p fd ms ms' : g_class G c = Some rc -> rc_pull rc = Some p -> In fd (jp_fields p) -> classwise c ms ms' ->
    both (eqv (jf_ty fd)) (alookup bytes_eqb (jf_name fd) ms) (alookup bytes_eqb (jf_name fd) ms').
  Proof.
    intros Ec Ep Hb [-> |(L & ML & H)]; [destruct (alookup _ _ ms'); constructor; apply eq_same|]. inversion ML as [c0 rc0 p0 Ls Ec0 Ep0 F E0 E1]; subst. rewrite Ec in Ec0. injection Ec0 as <-. rewrite Ep in Ep0. injection Ep0 as <-.
    apply H. apply in_or_app. right. exact Hb.
  Qed.
End Inv.

Section Pull.
  Variable G : genv.
  Variable J : jenv.
  Variable ud : bool.
  Notation K := (fun _ : ikind => True).
  Hypothesis HA : alloc_ok G.
  Hypothesis HP : place_ok G.
  Hypothesis HE : jenv_ok G ud K false.
  Hypothesis HC : conv_ok J.
  Hypothesis PD : plain_defaults G.
  Hypothesis MF : pulled_members_free G.
  Hypothesis SO : strings_ordered G.
  Notation eqv := (equivalent G true).
  Notation ht := (has_type G ud).
  Notation able := (pullable G K false).
  Notation oldok := (variable_ok G ud).
  Notation docok := (docok K false).
  Notation ready := (oready G ud).
  Notation osim := (osim G ud).
  Notation mpost := (mpost G ud false).

  Lemma mp_ok {A} h (m : M A) Q st a st2 : mpost h m Q -> p_heap st = h -> heap_typed G ud h -> m st = POk a st2 -> Q a (p_heap st2) /\ heap_typed G ud (p_heap st2) /\ hext h (p_heap st2).
  Proof. intros H E T X. specialize (H st E). rewrite X in H. destruct H as (H1 & [H2 _] & H3); [split; [rewrite E; exact T|discriminate]|]. repeat split; assumption. Qed.
  Lemma safe_val f : S_val G J ud K false f. Proof. apply all_safe; assumption. Qed.
  Lemma safe_cls f : S_cls G J ud K false f. Proof. apply all_safe; assumption. Qed.
  Lemma safe_new f t j h : able t -> docok j -> mpost h (pull G J f t (vinit G t) j) (fun v h' => ht h' t v).
  Proof.
    intros R D. assert (Ho := vinit_any G ud K false HE t h R). eapply mp_imp; [apply (safe_val f t _ j h R (or_introl Ho) D)|]. intros v h2 X P2. eapply pulled_ht; eassumption.
  Qed.

  Definition P_val f : Prop := forall t old old' j j' ro st st', able t -> oldok (p_heap st) t old -> docok j -> keys_free G t -> ready ro st st' -> alike ro old old' -> eqv t j j' ->
    osim alk ro st st' (pull G J f t old j st) (pull G J f t old' j' st').
  Definition objs (lay : list (fkey * ty)) (r : renaming) (h : heap) (os os' : list (fkey * val)) : Prop := Forall2 (pairwise r) os os' /\ fieldsok G ud h lay os.
  Definition P_cls f : Prop := forall c rc p lay os os' ms ms' ro st st', g_class G c = Some rc -> rc_pull rc = Some p ->
    (forall k t, alookup fkey_eqb k (rc_layout rc) = Some t -> alookup fkey_eqb k lay = Some t) ->
    docok (JObj ms) -> ready ro st st' -> objs lay ro (p_heap st) os os' -> classwise G c ms ms' ->
    osim (objs lay) ro st st' (pull_cls G J f c os ms st) (pull_cls G J f c os' ms' st').

  Definition its (r : renaming) (h : heap) := Forall2 (alike r).
  Lemma its_more ro ro2 (h h2 : heap) l l' : extends ro ro2 -> hext h h2 -> its ro h l l' -> its ro2 h2 l l'.
  Proof. intros E _. exact (alikes_more ro ro2 E l l'). Qed.
  Lemma objs_more lay ro ro2 h h2 l l' : extends ro ro2 -> hext h h2 -> objs lay ro h l l' -> objs lay ro2 h2 l l'.
  Proof. intros E X [F K]. split; [eapply members_more; eassumption|]. eapply fieldsok_mono; [apply hext_hle; exact X|exact K]. Qed.
  Definition entries (vt : ty) (r : renaming) (h : heap) (l l' : list val) : Prop := Forall2 (alike r) l l' /\ forall x, In x l -> ht h (TPair TString vt) x.
  Lemma entries_more vt ro ro2 h h2 l l' : extends ro ro2 -> hext h h2 -> entries vt ro h l l' -> entries vt ro2 h2 l l'.
  Proof. intros E X [F H]. split; [eapply alikes_more; eassumption|]. intros x Hx. eapply ht_ext; [exact X|apply H; exact Hx]. Qed.

  Lemma hext_set h h2 a c d : ~ In a (map fst h) -> hext (hset h a c) h2 -> hext h (hset h2 a d).
  Proof.
    intros N X b x E. assert (Nb : a <> b) by (intros ->; apply N; eapply hget_key; exact E). rewrite hget_hset_other by exact Nb. apply X. rewrite hget_hset_other by exact Nb. exact E.
  Qed.
  Lemma keys_set h a c b : In b (map fst h) -> In b (map fst (hset h a c)).
  Proof. intros I. apply in_keys in I as [x E]. apply in_keys. rewrite hget_hset. destruct (b =? a)%N; eexists; [reflexivity|exact E]. Qed.

  Lemma osim_new t m m' ro st st' : able t -> ready ro st st' -> (forall h1, hext (p_heap st) h1 -> mpost h1 m (fun v h' => ht h' t v)) ->
    (forall ro1 s s', ready ro1 s s' -> osim alk ro1 s s' (m s) (m' s')) ->
    osim (fun r _ a a' => r a a') ro st st' (in_new G t m st) (in_new G t m' st').
  Proof.
    intros R Rd Hm Sm x st1 E.
    assert (X := mp_new G ud K false HA HE (p_heap st) t m R Hm). destruct (mp_ok _ _ _ _ _ _ X eq_refl (or_typed _ _ _ _ _ Rd) E) as (_ & X2 & X3). clear X.
    unfold in_new in *. set (a := g_alloc G (p_heap st)) in *. set (a' := g_alloc G (p_heap st')).
    assert (Na : ~ In a (map fst (p_heap st))) by apply HA. assert (Na' : ~ In a' (map fst (p_heap st'))) by apply HA.
    set (s1 := {| p_heap := hset (p_heap st) a (t, vinit G t); p_err := p_err st |}) in *. set (s1' := {| p_heap := hset (p_heap st') a' (t, vinit G t); p_err := p_err st' |}).
    destruct (m s1) as [v s2| | | |] eqn:Em; try discriminate E. injection E as <- <-.
    pose proof (grown_new ro (p_heap st) (p_heap st') a a' t (vinit G t) (vinit G t) (or_one _ _ _ _ _ Rd) (or_alike _ _ _ _ _ Rd) Na Na' (fun r => vinit_alike G r PD t)) as Gn.
    assert (Paa : plus ro a a' a a') by (right; split; reflexivity).
    assert (R1 : ready (plus ro a a') s1 s1').
    { constructor; [exact (gr_one _ _ _ _ _ _ Gn)|exact (gr_alike _ _ _ _ _ _ Gn)|exact (or_calm _ _ _ _ _ Rd)|]. cbn [p_heap s1]. assert (X1: hext (p_heap st) (hset (p_heap st) a (t, vinit G t))) by (exact (hle_hset_fresh _ _ _ Na)).
      intros b u y E. destruct (N.eq_dec a b) as [<-|Hn].
      - rewrite hget_hset_same in E. inversion E; subst. apply (vinit_any G ud K false HE); exact R.
      - rewrite hget_hset_other in E by exact Hn. eapply ht_ext; [exact X1|]. eapply (or_typed _ _ _ _ _ Rd); exact E. }
    destruct (Sm _ _ _ R1 v s2 Em) as (v' & s2' & ro3 & E' & S3 & Av). rewrite E'. do 3 eexists. split; [reflexivity|].
    assert (R3 : ro3 a a') by (apply (ostep_extends _ _ _ _ _ _ _ _ S3); exact Paa). split; [|exact R3].
    pose proof (ostep_ready _ _ _ _ _ _ _ _ R1 S3) as Rd3.
    constructor; cbn [p_heap].
    - eapply grown_trans; [exact Gn|]. eapply grown_trans; [exact (os_grown _ _ _ _ _ _ _ _ S3)|]. apply grown_set; [exact (or_one _ _ _ _ _ Rd3)|exact (or_alike _ _ _ _ _ Rd3)|exact R3|exact Av].
    - intros p q Q. destruct (os_fresh _ _ _ _ _ _ _ _ S3 p q Q) as [[Y|[-> ->]]|[Y1 Y2]]; [left; exact Y|right; split; assumption|right]. split; intros I; [apply Y1|apply Y2]; apply keys_set; exact I.
    - exact X3.
    - eapply hext_set; [exact Na'|]. exact (os_ext' _ _ _ _ _ _ _ _ S3).
    - exact (os_calm _ _ _ _ _ _ _ _ S3).
    - exact (os_calm' _ _ _ _ _ _ _ _ S3).
    - exact X2.
    - exact (os_errors _ _ _ _ _ _ _ _ S3).
  Qed.

  Lemma osim_tuple f : P_val f -> forall ts os os' js js' ro st st', Forall able ts -> Forall (keys_free G) ts -> (forall j, In j js -> docok j) -> tuplewise G ts js js' ->
    (forall i t x, nth_error ts i = Some t -> nth_error os i = Some x -> ht (p_heap st) t x) -> ready ro st st' -> Forall2 (alike ro) os os' ->
    osim its ro st st' (pull_tuple (pull G J f) ts os js st) (pull_tuple (pull G J f) ts os' js' st').
  Proof.
    intros IH. induction ts as [|t ts IHt]; intros os os' js js' ro st st' A K D [L W] T R F; (destruct F as [|o o' os os' Ao F]); cbn [pull_tuple];
      try (apply osim_no; intros; discriminate); [apply osim_ret; [exact R|constructor]|].
    destruct js as [|j js], js' as [|j' js']; try discriminate L; [apply osim_no; intros; discriminate|]. inversion A; inversion K; subst.
    assert (Ho : ht (p_heap st) t o) by (apply (T 0 t o); reflexivity).
    eapply (osim_bind G ud alk); [exact R|apply (IH t o o' j j' ro st st'); try assumption; [left; exact Ho|apply D; left; reflexivity|apply (W 0 t j j'); reflexivity]|]. intros ro2 x x' st2 st2' Ex S1 R2 Ax.
    eapply (osim_bind G ud its); [exact R2|apply (IHt os os' js js' ro2 st2 st2'); try assumption|].
    - intros; apply D; right; assumption.
    - split; [injection L; auto|]. intros i u k k' Hu Hk Hk'. exact (W (S i) u k k' Hu Hk Hk').
    - intros i u y Hu Hy. eapply ht_ext; [exact (os_ext _ _ _ _ _ _ _ _ S1)|]. exact (T (S i) u y Hu Hy).
    - eapply alikes_more; [exact (ostep_extends _ _ _ _ _ _ _ _ S1)|exact F].
    - intros ro3 xs xs' st3 st3' _ S3 R3 Axs. apply osim_ret; [exact R3|]. constructor; [|exact Axs]. eapply alike_more; [exact (ostep_extends _ _ _ _ _ _ _ _ S3)|exact Ax].
  Qed.
  Lemma osim_pure {A A' B} (V : renaming -> heap -> A -> A' -> Prop) ro st st' (m : M B) (k : B -> M A) (k' : B -> M A') :
    (forall s1 s2, match m s1, m s2 with POk a s1', POk b s2' => a = b /\ s1' = s1 /\ s2' = s2 | PUB, PUB | PStuck, PStuck => True | _, _ => False end) ->
    (forall b, osim V ro st st' (k b st) (k' b st')) -> osim V ro st st' (bind m k st) (bind m k' st').
  Proof. intros P H. unfold bind. specialize (P st st'). destruct (m st), (m st'); try contradiction; try (apply osim_no; intros; discriminate). destruct P as (-> & -> & ->). apply H. Qed.

  (** ** maps *)
  Lemma alike_shape ro l l' : Forall2 (alike ro) l l' -> map_shape l -> map_shape l'.
  Proof.
    induction 1 as [|x x' l l' A F IH]; intros S; [exact S|]. destruct (shape_cons x l S) as [(k & v & ->) S'].
    assert (exists v', x' = VPair (VStr k) v') as (v' & ->). { inversion A as [| | | | | |? ?|p q p' q' Ap Aq| | | | | | | |]; subst. inversion Ap; subst. eexists; reflexivity. }
    apply shape_both; [do 2 eexists; reflexivity|apply IH; exact S'].
  Qed.
  Lemma typed_pair h ta tb x : ht h (TPair ta tb) x -> exists a b, x = VPair a b /\ ht h ta a /\ ht h tb b.
  Proof. intros H. inversion H; subst; [discriminate|]. eauto. Qed.
  Lemma typed_shape h vt l : (forall x, In x l -> ht h (TPair TString vt) x) -> map_shape l.
  Proof. intros H x Hx. destruct (typed_pair _ _ _ _ (H x Hx)) as (a & b & -> & Ha & Hb). inversion Ha; subst; [discriminate|]. eauto. Qed.
  Lemma typed_find h ord vt n l v : (forall x, In x l -> ht h (TPair TString vt) x) -> map_find G ord TString (VPair (VStr n) VUndef) l = Some v -> ht h vt v.
  Proof.
    intros Hl Ef. induction l as [|y l IH]; cbn [map_find] in Ef; [discriminate|]. destruct (same_key _ _ _ y _).
    - destruct (typed_pair _ _ _ _ (Hl y (or_introl eq_refl))) as (a & b & -> & Ha & Hb). injection Ef as <-. exact Hb.
    - apply IH; [|exact Ef]. intros x Hx; apply Hl; right; exact Hx.
  Qed.
  Lemma typed_put h ord vt n x l : (forall y, In y l -> ht h (TPair TString vt) y) -> ht h vt x -> forall y, In y (map_put G ord TString (VPair (VStr n) VUndef) x l) -> ht h (TPair TString vt) y.
  Proof.
    intros Hl Hx. induction l as [|y l IH]; cbn [map_put]; [intros y []|]. destruct (same_key _ _ _ y _).
    - destruct (typed_pair _ _ _ _ (Hl y (or_introl eq_refl))) as (a & b & -> & Ha & Hb). intros z [<-|Hz]; [constructor; assumption|apply Hl; right; exact Hz].
    - intros z [<-|Hz]; [apply Hl; left; reflexivity|]. apply IH; [|exact Hz]. intros w Hw; apply Hl; right; exact Hw.
  Qed.
  Lemma typed_ins h ord multi vt n x l : (forall y, In y l -> ht h (TPair TString vt) y) -> ht h vt x ->
    forall y, In y (fst (emplace G true ord multi TString (VPair (VStr n) x) l)) -> ht h (TPair TString vt) y.
  Proof. intros Hl Hx y Hy. apply (emplace_in _ _ _ _ _ _ _ _ HP) in Hy. destruct Hy as [->|Hy]; [constructor; [constructor|exact Hx]|auto]. Qed.

  (** reading a value for an entry *)
  Definition act1 (f : nat) (vt : ty) (o : option val) (j : json) : M (list val) :=
    let? x := pull G J f vt (match o with Some v => v | None => vinit G vt end) j in ret [x].
  Definition act2 (f : nat) (vt : ty) (o : option val) (j : json) : M (list val) :=
    match j with
    | JArr js => fold_m (fun xs j' => let? x := pull G J f vt (vinit G vt) j' in ret (xs ++ [x])) js []
    | _ => let? x := pull G J f vt (vinit G vt) j in ret [x]
    end.
  Definition held (vt : ty) (o : option val) (h : heap) : Prop := match o with Some v => ht h vt v | None => True end.
  Lemma held_var vt o h : able vt -> held vt o h -> ht h vt (match o with Some v => v | None => vinit G vt end).
  Proof. intros R. destruct o; [exact (fun x => x)|]. intros _. apply (vinit_any G ud K false HE); exact R. Qed.
  Lemma held_ext vt o h h' : hext h h' -> held vt o h -> held vt o h'.
  Proof. intros X. destruct o; [apply ht_ext; exact X|auto]. Qed.

  Lemma pull_fine f t old j s x s' : able t -> oldok (p_heap s) t old -> docok j -> fine G ud s -> pull G J f t old j s = POk x s' -> fine_step G ud s s'.
  Proof.
    intros R O D [T C] E. destruct (mp_ok _ _ _ _ _ _ (safe_val f t old j _ R O D) eq_refl T E) as (_ & T2 & X).
    pose proof (pull_ctx G J f t old j s) as Q. rewrite E in Q. unfold ctx_ok in Q.
    assert (CS : calm s s'). { unfold calm in *. destruct (p_err s), (p_err s'); try contradiction; try exact I. destruct Q as (Q1 & Q2 & Q3 & _), C as (C1 & _). repeat split; congruence. }
    split; [split; [exact T2|eapply calm_right; exact CS]|]. split; [exact X|]. split; [exact CS|]. unfold reported. destruct (p_err s), (p_err s'); try contradiction; [|exists []; reflexivity].
    destruct Q as (_ & _ & _ & _ & new & Q & _). exists new. exact Q.
  Qed.

  Section Map.
    Variable f : nat.
    Hypothesis IH : P_val f.
    Variable vt : ty.
    Hypothesis R : able vt.
    Hypothesis KF : address_free G TString.
    Hypothesis KV : keys_free G vt.

    Lemma act1_fine o j s xs s' : fine G ud s -> held vt o (p_heap s) -> docok j -> act1 f vt o j s = POk xs s' -> fine_step G ud s s'.
    Proof.
      intros F Hd D E. unfold act1, bind in E. destruct (pull G J f vt _ j s) as [x s2| | | |] eqn:Ep; try discriminate E. injection E as <- <-.
      eapply pull_fine; [exact R|left; apply held_var; [exact R|exact Hd]|exact D|exact F|exact Ep].
    Qed.
    Lemma act1_sim o o' j j' ro s s' : ready ro s s' -> both (alike ro) o o' -> held vt o (p_heap s) -> docok j -> eqv vt j j' ->
      osim its ro s s' (act1 f vt o j s) (act1 f vt o' j' s').
    Proof.
      intros Rd B Hd D E. unfold act1. eapply (osim_bind G ud alk); [exact Rd| |].
      - apply IH; try assumption; [left; apply held_var; assumption|]. destruct B; [apply vinit_alike; exact PD|assumption].
      - intros ro2 x x' s2 s2' _ S R2 A. apply osim_ret; [exact R2|]. constructor; [exact A|constructor].
    Qed.
    Lemma fold_fine js : (forall j, In j js -> docok j) -> forall xs s ys s', fine G ud s ->
      fold_m (fun xs j' => let? x := pull G J f vt (vinit G vt) j' in ret (xs ++ [x])) js xs s = POk ys s' -> fine_step G ud s s'.
    Proof.
      induction js as [|j js IHj]; intros D xs s ys s' F E; cbn [fold_m] in E; [injection E as <- <-; apply fine_refl; exact F|]. unfold bind at 1 2 in E.
      destruct (pull G J f vt _ j s) as [x s2| | | |] eqn:Ep; try discriminate E. cbn [ret] in E.
      assert (F2 : fine_step G ud s s2) by (eapply pull_fine; [exact R|left; apply (vinit_any G ud K false HE); exact R|apply D; left; reflexivity|exact F|exact Ep]).
      eapply fine_trans; [exact F2|]. eapply IHj; [intros; apply D; right; assumption|apply F2|exact E].
    Qed.
    Lemma act2_fine o j s xs s' : fine G ud s -> held vt o (p_heap s) -> docok j -> act2 f vt o j s = POk xs s' -> fine_step G ud s s'.
    Proof.
      intros F _ D E. assert (Q : forall j, docok j -> bind (pull G J f vt (vinit G vt) j) (fun x => ret [x]) s = POk xs s' -> fine_step G ud s s') by (intros j1 D1 E1; exact (act1_fine None j1 s xs s' F I D1 E1)).
      unfold act2 in E. destruct j; try (eapply Q; eassumption). eapply fold_fine; [|exact F|exact E]. intros j Hj. eapply doc_item; eassumption.
    Qed.
    Lemma act2_sim o o' j j' ro s s' : ready ro s s' -> both (alike ro) o o' -> held vt o (p_heap s) -> docok j -> items_or_one G vt j j' ->
      osim its ro s s' (act2 f vt o j s) (act2 f vt o' j' s').
    Proof.
      intros Rd _ _ D [(js & js' & -> & -> & F)|(N & N' & E)].
      - cbn [act2]. apply (osim_fold G ud its (eqv vt) _ _ js js' F); [|exact Rd|constructor]. intros ro2 s2 s2' a a' x x' Hx X R2 A.
        eapply (osim_bind G ud alk); [exact R2|apply IH; try assumption; [left; apply (vinit_any G ud K false HE); exact R|eapply doc_item; eassumption|apply vinit_alike; exact PD]|].
        intros ro3 y y' s3 s3' _ S R3 Ay. apply osim_ret; [exact R3|]. apply Forall2_app; [eapply alikes_more; [exact (ostep_extends _ _ _ _ _ _ _ _ S)|exact A]|repeat constructor; exact Ay].
      - assert (Q := act1_sim None None j j' ro s s' Rd (both_none _) I D E). unfold act1 in Q. destruct j; try (destruct (N _ eq_refl)); destruct j'; try (destruct (N' _ eq_refl)); exact Q.
    Qed.

    Definition step1 (ord : bool) (l : list val) (m : bytes * json) : M (list val) :=
      match map_find G ord TString (VPair (VStr (cstr (fst m))) VUndef) l with
      | Some v => let? x := pull G J f vt v (snd m) in ret (map_put G ord TString (VPair (VStr (cstr (fst m))) VUndef) x l)
      | None => let? x := pull G J f vt (vinit G vt) (snd m) in ret (fst (emplace G true ord false TString (VPair (VStr (cstr (fst m))) x) l))
      end.
    Definition step2 (ord : bool) (l : list val) (m : bytes * json) : M (list val) :=
      match snd m with
      | JArr js => fold_m (fun l j => let? x := pull G J f vt (vinit G vt) j in ret (fst (emplace G true ord true TString (VPair (VStr (cstr (fst m))) x) l))) js l
      | _ => let? x := pull G J f vt (vinit G vt) (snd m) in ret (fst (emplace G true ord true TString (VPair (VStr (cstr (fst m))) x) l))
      end.
    Lemma step1_entry l m st : step1 true l m st = entry (key1 G) (put1 G) (act1 f vt) l m st.
    Proof.
      unfold step1, entry, act1, bind. change (map_find G true TString (VPair (VStr (cstr (fst m))) VUndef) l) with (key1 G (cstr (fst m)) l). destruct (key1 G (cstr (fst m)) l) eqn:E;
        (destruct (pull G J f vt _ (snd m) st); [|reflexivity..]); cbn [ret put1]; rewrite E; reflexivity.
    Qed.
    Lemma step2_entry l m st : step2 true l m st = entry key2 (put2 G) (act2 f vt) l m st.
    Proof.
      destruct m as [n j]. unfold step2, entry, act2. cbn [fst snd]. assert (Q : forall j, bind (pull G J f vt (vinit G vt) j) (fun x => ret (fst (emplace G true true true TString (VPair (VStr (cstr n)) x) l))) st
        = bind (bind (pull G J f vt (vinit G vt) j) (fun x => ret [x])) (fun xs => ret (put2 G (cstr n) xs l)) st).
      { intros j1. unfold bind. destruct (pull G J f vt _ j1 st); reflexivity. }
      destruct j as [| | | | |js|]; try apply Q. clear Q.
      assert (Q : forall js xs st, fold_m (fun l j => bind (pull G J f vt (vinit G vt) j) (fun x => ret (fst (emplace G true true true TString (VPair (VStr (cstr n)) x) l)))) js (put2 G (cstr n) xs l) st
        = bind (fold_m (fun xs j => bind (pull G J f vt (vinit G vt) j) (fun x => ret (xs ++ [x]))) js xs) (fun xs => ret (put2 G (cstr n) xs l)) st).
      { clear. induction js as [|j js IHj]; intros xs st; [reflexivity|]. cbn [fold_m]. unfold bind in *. destruct (pull G J f vt (vinit G vt) j st) as [x st2| | | |]; try reflexivity. cbn [ret].
        rewrite <- IHj. unfold put2 at 2. rewrite fold_left_app. reflexivity. }
      exact (Q js [] st).
    Qed.
    (** an entry after the other *)
    Lemma step1_sim ord l l' m m' ro st st' : docok (snd m) -> cstr (fst m) = cstr (fst m') -> eqv vt (snd m) (snd m') -> ready ro st st' -> entries vt ro (p_heap st) l l' ->
      osim (entries vt) ro st st' (step1 ord l m st) (step1 ord l' m' st').
    Proof.
      intros D N E Rd [F T]. unfold step1. rewrite <- N. pose proof (map_find_alike G ro ord (cstr (fst m)) l l' (or_one _ _ _ _ _ Rd) KF F) as MFi.
      destruct (map_find G ord TString (VPair (VStr (cstr (fst m))) VUndef) l) as [v|] eqn:Ef, (map_find G ord TString (VPair (VStr (cstr (fst m))) VUndef) l') as [v'|]; try contradiction.
      - assert (Hv := typed_find _ _ _ _ _ _ T Ef). eapply (osim_bind G ud alk); [exact Rd|apply IH; try assumption; left; exact Hv|].
        intros ro2 x x' st2 st2' Ex S R2 Ax. apply osim_ret; [exact R2|].
        destruct (mp_ok _ _ _ _ _ _ (safe_val f vt v (snd m) _ R (or_introl Hv) D) eq_refl (or_typed _ _ _ _ _ Rd) Ex) as (Px & _ & X).
        destruct (entries_more vt _ _ _ _ _ _ (ostep_extends _ _ _ _ _ _ _ _ S) X (conj F T)) as [F2 T2]. split.
        + apply map_put_alike; [exact (or_one _ _ _ _ _ R2)|exact KF|exact Ax|exact F2].
        + apply typed_put; [exact T2|]. eapply pulled_ht; eassumption.
      - eapply (osim_bind G ud alk); [exact Rd|apply IH; try assumption; [left; apply (vinit_any G ud K false HE); exact R|apply vinit_alike; exact PD]|].
        intros ro2 x x' st2 st2' Ex S R2 Ax. apply osim_ret; [exact R2|].
        destruct (mp_ok _ _ _ _ _ _ (safe_new f vt (snd m) _ R D) eq_refl (or_typed _ _ _ _ _ Rd) Ex) as (Px & _ & X).
        destruct (entries_more vt _ _ _ _ _ _ (ostep_extends _ _ _ _ _ _ _ _ S) X (conj F T)) as [F2 T2]. split.
        + apply (emplace_alike G ro2 true ord false TString); [exact (or_one _ _ _ _ _ R2)|exact KF|constructor; [constructor|exact Ax]|exact F2].
        + apply typed_ins; assumption.
    Qed.
    Lemma ins_sim ord n l l' j j' ro st st' : docok j -> eqv vt j j' -> ready ro st st' -> entries vt ro (p_heap st) l l' ->
      osim (entries vt) ro st st' (bind (pull G J f vt (vinit G vt) j) (fun x => ret (fst (emplace G true ord true TString (VPair (VStr n) x) l))) st)
        (bind (pull G J f vt (vinit G vt) j') (fun x => ret (fst (emplace G true ord true TString (VPair (VStr n) x) l'))) st').
    Proof.
      intros D E Rd [F T]. eapply (osim_bind G ud alk); [exact Rd|apply IH; try assumption; [left; apply (vinit_any G ud K false HE); exact R|apply vinit_alike; exact PD]|].
      intros ro2 x x' st2 st2' Ex S R2 Ax. apply osim_ret; [exact R2|].
      destruct (mp_ok _ _ _ _ _ _ (safe_new f vt j _ R D) eq_refl (or_typed _ _ _ _ _ Rd) Ex) as (Px & _ & X).
      destruct (entries_more vt _ _ _ _ _ _ (ostep_extends _ _ _ _ _ _ _ _ S) X (conj F T)) as [F2 T2]. split.
      - apply (emplace_alike G ro2 true ord true TString); [exact (or_one _ _ _ _ _ R2)|exact KF|constructor; [constructor|exact Ax]|exact F2].
      - apply typed_ins; assumption.
    Qed.
    Lemma step2_sim ord l l' m m' ro st st' : docok (snd m) -> cstr (fst m) = cstr (fst m') -> items_or_one G vt (snd m) (snd m') -> ready ro st st' -> entries vt ro (p_heap st) l l' ->
      osim (entries vt) ro st st' (step2 ord l m st) (step2 ord l' m' st').
    Proof.
      intros D N E Rd En. unfold step2. rewrite <- N. destruct E as [(js & js' & E1 & E2 & F)|(N1 & N2 & E)].
      - rewrite E1 in D |- *. rewrite E2. apply (osim_fold G ud (entries vt) (eqv vt) _ _ js js' F); [|exact Rd|exact En]. intros ro2 s2 s2' a a' x x' Hx X R2 A.
        apply ins_sim; try assumption. eapply doc_item; eassumption.
      - assert (Q := ins_sim ord (cstr (fst m)) l l' _ _ ro st st' D E Rd En). destruct (snd m); try (destruct (N1 _ eq_refl)); destruct (snd m'); try (destruct (N2 _ eq_refl)); exact Q.
    Qed.

    Lemma map1_sim ord l l' ms ms' ro st st' : docok (JObj ms) -> mapwise (eqv vt) ord ms ms' -> ready ro st st' -> entries vt ro (p_heap st) l l' ->
      osim its ro st st' (fold_m (step1 ord) ms l st) (fold_m (step1 ord) ms' l' st').
    Proof.
      intros D (msr & [-> |(_ & -> & PM & ND)] & F) Rd En.
      - eapply osim_imp; [apply (osim_fold G ud (entries vt) _ _ _ msr ms' F); [|exact Rd|exact En]|intros ro2 a a' s2 s2' _ _ [X _]; exact X].
        intros ro2 s2 s2' a a' [n j] x' Hx [X1 X2] R2 A. apply step1_sim; try assumption. eapply doc_member; eassumption.
      - rewrite (fold_ext2 _ _ ms (fun a x s _ => step1_entry a x s)), (fold_ext2 _ _ ms' (fun a x s _ => step1_entry a x s)). destruct En as [F0 T0]. assert (SH := typed_shape _ _ _ T0).
        apply (run_permuted G ud (key1 G) (put1 G) (act1 f vt) (held vt) (eqv vt) docok) with (msr := msr); try assumption.
        + intros n xs a. apply put1_shape; exact SO.
        + intros n m xs a. apply put1_key; exact SO.
        + intros n m xs ys a. apply put1_comm; exact SO.
        + intros r n a a' O Fa. pose proof (map_find_alike G r true n a a' O KF Fa) as X. unfold key1. destruct (map_find _ _ _ _ a), (map_find _ _ _ _ a'); try contradiction; constructor; exact X.
        + intros r n xs xs' a a' O Fx Fa. destruct Fx as [|x x' xs xs' Ax Fx]; [exact Fa|]. destruct Fx; [|exact Fa]. cbn [put1].
          pose proof (map_find_alike G r true n a a' O KF Fa) as X. unfold key1. destruct (map_find _ _ _ _ a), (map_find _ _ _ _ a'); try contradiction.
          * apply map_put_alike; assumption.
          * apply (emplace_alike G r true true false TString); [exact O|exact KF|constructor; [constructor|exact Ax]|exact Fa].
        + intros o h h'. apply held_ext.
        + exact act1_fine.
        + exact act1_sim.
        + eapply alike_shape; eassumption.
        + intros m _. unfold held. destruct (key1 G (cstr (fst m)) l) as [v|] eqn:Ek; [|exact I]. eapply typed_find; [exact T0|exact Ek].
        + intros [n j] Hm. eapply doc_member; eassumption.
    Qed.
    Lemma map2_sim ord l l' ms ms' ro st st' : docok (JObj ms) -> mapwise (items_or_one G vt) ord ms ms' -> ready ro st st' -> entries vt ro (p_heap st) l l' ->
      osim its ro st st' (fold_m (step2 ord) ms l st) (fold_m (step2 ord) ms' l' st').
    Proof.
      intros D (msr & [-> |(_ & -> & PM & ND)] & F) Rd En.
      - eapply osim_imp; [apply (osim_fold G ud (entries vt) _ _ _ msr ms' F); [|exact Rd|exact En]|intros ro2 a a' s2 s2' _ _ [X _]; exact X].
        intros ro2 s2 s2' a a' [n j] x' Hx [X1 X2] R2 A. apply step2_sim; try assumption. eapply doc_member; eassumption.
      - rewrite (fold_ext2 _ _ ms (fun a x s _ => step2_entry a x s)), (fold_ext2 _ _ ms' (fun a x s _ => step2_entry a x s)). destruct En as [F0 T0]. assert (SH := typed_shape _ _ _ T0).
        apply (run_permuted G ud key2 (put2 G) (act2 f vt) (held vt) (items_or_one G vt) docok) with (msr := msr); try assumption.
        + intros n xs a. apply put2_shape.
        + intros n m xs a _ _. reflexivity.
        + intros n m xs ys a. apply put2_comm; exact SO.
        + intros r n a a' O Fa. constructor.
        + intros r n xs xs' a a' O Fx. revert a a'. induction Fx as [|x x' xs xs' Ax Fx IHx]; intros a a' Fa; [exact Fa|]. cbn. apply IHx.
          apply (emplace_alike G r true true true TString); [exact O|exact KF|constructor; [constructor|exact Ax]|exact Fa].
        + intros o h h'. apply held_ext.
        + exact act2_fine.
        + exact act2_sim.
        + eapply alike_shape; eassumption.
        + intros m _. exact I.
        + intros [n j] Hm. eapply doc_member; eassumption.
    Qed.
  End Map.

  Lemma able_all ts : (fix all l := match l with [] => True | t :: l' => able t /\ all l' end) ts -> Forall able ts.
  Proof. induction ts as [|t ts IHt]; intros H; constructor; [exact (proj1 H)|exact (IHt (proj2 H))]. Qed.
  Definition atom (t : ty) : Prop := match t with TBool | TInt _ | TF32 | TF64 | TEnum _ | TString | TDateTime | TTimeSpan | TView | TCStr | TMono => True | _ => False end.
  (** documents which cannot be read at all *)
  Lemma equiv_atom f t j j' old : eqv t j j' -> exists j2, eqv t j j2 /\ (atom t -> j = j2) /\ forall st, pull G J f t old j' st = pull G J f t old j2 st.
  Proof.
    intros E. assert (D : (unsuitable t j /\ type_of j = type_of j') \/ (atom t -> j = j')) by (inversion E; subst; auto; right; intros []).
    destruct D as [[U T]|D]; [|exists j'; auto]. exists j. split; [apply eq_same|]. split; [auto|]. intros st. symmetry. apply wrong_same; assumption.
  Qed.

  Lemma pull_sim f : P_val f /\ P_cls f.
  Proof.
    induction f as [|f [IH IHc]]; [split; repeat intro; discriminate|]. split.
    - intros t old old' j j0' ro st st' R O D KF Rd A E0. destruct (equiv_atom (S f) _ _ _ old' E0) as (j' & E & At & ->). clear E0 j0'. rewrite !pull_S. unfold pull_body.
      assert (Ty := equivalent_type _ _ _ _ _ E).
      assert (VI : forall r t, alike r (vinit G t) (vinit G t)) by (intros; apply vinit_alike; exact PD).
      assert (VO : forall h t, able t -> oldok h t (vinit G t)) by (intros; left; apply (vinit_any G ud K false HE); assumption).
      assert (MM : forall t', osim alk ro st st' (mismatch t' j old st) (mismatch t' j' old' st')) by (intros; apply osim_mismatch; assumption).
      assert (HR : forall v, (forall r, alike r v v) -> osim alk ro st st' (ret v st) (ret v st')) by (intros v Hv; apply osim_ret; [exact Rd|apply Hv]).
      assert (RP : forall k x y, osim alk ro st st' (bind (report k x y) (fun _ => ret old) st) (bind (report k x y) (fun _ => ret old') st')).
      { intros k x y. eapply (osim_bind G ud agree); [exact Rd|apply osim_report; exact Rd|]. intros ro2 [] [] st2 st2' _ S R2 _. apply osim_ret; [exact R2|]. eapply alike_more; [exact (ostep_extends _ _ _ _ _ _ _ _ S)|exact A]. }
      assert (DT : forall (parse : bytes -> option Z) t', j = j' -> osim alk ro st st'
        (bind (match j with JStr s => ret (cstr s) | _ => let? _ := mismatch t' j old in ret [] end) (fun s => match parse s with Some z => ret (VInt z) | None => bind (report ConversionError JTString JTString) (fun _ => ret old) end) st)
        (bind (match j' with JStr s => ret (cstr s) | _ => let? _ := mismatch t' j' old' in ret [] end) (fun s => match parse s with Some z => ret (VInt z) | None => bind (report ConversionError JTString JTString) (fun _ => ret old') end) st')).
      { intros parse t' <-. eapply (osim_bind G ud (@agree bytes)); [exact Rd| |].
        - assert (Q : osim agree ro st st' (bind (mismatch t' j old) (fun _ => ret []) st) (bind (mismatch t' j old') (fun _ => ret (@nil Byte.byte)) st')).
          { eapply (osim_bind G ud alk); [exact Rd|apply osim_mismatch; [reflexivity|exact Rd|exact A]|]. intros ro2 a a' st2 st2' _ S R2 _. apply osim_ret; [exact R2|reflexivity]. }
          destruct j; try exact Q. apply osim_ret; [exact Rd|reflexivity].
        - intros ro2 s s' st2 st2' _ S R2 X. unfold agree in X. subst s'. destruct (parse s); [apply osim_ret; [exact R2|constructor]|].
          eapply (osim_bind G ud agree); [exact R2|apply osim_report; exact R2|]. intros ro3 [] [] st3 st3' _ S3 R3 _. apply osim_ret; [exact R3|].
          eapply alike_more; [eapply extends_trans; [exact (ostep_extends _ _ _ _ _ _ _ _ S)|exact (ostep_extends _ _ _ _ _ _ _ _ S3)]|exact A]. }
      assert (NW : forall t' j0 j0' (k : val -> val), able t' -> docok j0 -> keys_free G t' -> eqv t' j0 j0' -> (forall r x x', alike r x x' -> alike r (k x) (k x')) ->
        osim alk ro st st' (bind (pull G J f t' (vinit G t') j0) (fun x => ret (k x)) st) (bind (pull G J f t' (vinit G t') j0') (fun x => ret (k x)) st')).
      { intros t' j0 j0' k R' D' K' E' Hk. eapply (osim_bind G ud alk); [exact Rd|apply IH; auto|]. intros ro2 x x' st2 st2' _ S R2 Ax. apply osim_ret; [exact R2|apply Hk; exact Ax]. }
      destruct t.
      + assert (j = j') as <- by (exact (At I)). destruct j; try apply MM. apply HR. constructor.
      + assert (j = j') as <- by (exact (At I)). destruct (json_kind k); [|destruct (byte_kind k); [|apply osim_no; intros; discriminate]]; (destruct (is_number j); [|apply MM]); (apply osim_pure; [apply pure_get|]); intros z; apply HR; constructor.
      + assert (j = j') as <- by (exact (At I)). destruct (get_double j); [apply HR; constructor|apply MM].
      + assert (j = j') as <- by (exact (At I)). destruct (get_double j); [apply HR; constructor|apply MM].
      + assert (j = j') as <- by (exact (At I)). destruct j; try apply MM. destruct (in_range (enum_kind k) z); [apply HR; constructor|apply MM].
      + assert (j = j') as <- by (exact (At I)). destruct j; try apply MM. apply HR. constructor.
      + (* seq *) destruct j as [| | | | |js|]; try (destruct j'; try discriminate Ty; apply MM). destruct (inv_seq _ _ _ _ E) as (js' & -> & F). eapply (osim_bind G ud its); [exact Rd| |].
        * apply (osim_items G ud its its_more (eqv t) _ _ js js' F); [|exact Rd|constructor]. intros ro2 st2 st2' l1 l1' j1 j1' Hj Ej R2 F2.
          eapply (osim_bind G ud alk); [exact R2|apply IH; auto; eapply doc_item; eassumption|].
          intros ro3 x x' st3 st3' _ S3 R3 Ax. apply osim_ret; [exact R3|]. apply Forall2_app; [eapply alikes_more; [exact (ostep_extends _ _ _ _ _ _ _ _ S3)|exact F2]|repeat constructor; exact Ax].
        * intros ro2 l1 l1' st2 st2' _ S R2 F2. apply osim_ret; [exact R2|constructor; exact F2].
      + (* set *) destruct KF as [KF0 KF]. destruct R as [R _]. destruct j as [| | | | |js|]; try (destruct j'; try discriminate Ty; apply MM). destruct (inv_set _ _ _ _ _ _ E) as (js' & -> & F). eapply (osim_bind G ud its); [exact Rd| |].
        * apply (osim_items G ud its its_more (eqv t) _ _ js js' F); [|exact Rd|constructor]. intros ro2 st2 st2' l1 l1' j1 j1' Hj Ej R2 F2.
          eapply (osim_bind G ud alk); [exact R2|apply IH; auto; [apply (dinit_ok G ud K false HE); exact R|eapply doc_item; eassumption|apply (dinit_alike G ro2 PD)]|].
          intros ro3 x x' st3 st3' _ S3 R3 Ax.
          assert (U : is_undef x = is_undef x') by (destruct Ax; reflexivity). rewrite <- U. destruct (is_undef x); [apply osim_no; intros; discriminate|].
          destruct (emplace_alike G ro3 false ord multi t x x' l1 l1' (or_one _ _ _ _ _ R3) KF0 Ax (alikes_more _ _ (ostep_extends _ _ _ _ _ _ _ _ S3) _ _ F2)) as [E1 E2].
          destruct (emplace G false ord multi t x l1) as [l2 i2], (emplace G false ord multi t x' l1') as [l2' i2']. cbn [fst snd] in E1, E2. subst i2'.
          destruct (multi || i2); [apply osim_ret; [exact R3|exact E1]|].
          eapply (osim_bind G ud agree); [exact R3|apply osim_unchecked; exact R3|]. intros ro4 [] [] st4 st4' _ S4 R4 _. apply osim_ret; [exact R4|]. eapply alikes_more; [exact (ostep_extends _ _ _ _ _ _ _ _ S4)|exact E1].
        * intros ro2 l1 l1' st2 st2' _ S R2 F2. apply osim_ret; [exact R2|constructor; exact F2].
      + (* map *) destruct KF as (KF0 & K1 & K2). destruct R as [-> R].
        assert (exists olds, old = VList olds /\ (forall x, In x olds -> ht (p_heap st) (TPair TString t2) x)) as (olds & -> & Ho).
        { destruct O as [O|[O _]]; [|discriminate]. inversion O; subst; [discriminate|]. exists l. split; [reflexivity|]. intros x Hx. match goal with Q : forall x, In x l -> exists k v, x = VPair k v |- _ => destruct (Q x Hx) as (k & v & ->) end. constructor; eauto. }
        assert (exists olds', old' = VList olds' /\ Forall2 (alike ro) olds olds') as (olds' & -> & Fo) by (inversion A; subst; eauto).
        destruct multi.
        * destruct j as [| | | | | |ms]; try (destruct j'; try discriminate Ty; apply MM). destruct (inv_multimap _ _ _ _ _ E) as (ms' & -> & W). eapply (osim_bind G ud its); [exact Rd| |].
          -- assert (Q := map2_sim f IH t2 R KF0 K2 ord olds olds' ms ms' ro st st' D W Rd (conj Fo Ho)).
             rewrite <- (fold_ext2 (fun l m => step2 f t2 ord l m) _ ms), <- (fold_ext2 (fun l m => step2 f t2 ord l m) _ ms'); [exact Q| |]; intros a [n x] s _; reflexivity.
          -- intros ro2 l1 l1' st2 st2' _ S R2 F2. apply osim_ret; [exact R2|constructor; exact F2].
        * destruct j as [| | | | | |ms]; try (destruct j'; try discriminate Ty; apply MM). destruct (inv_map _ _ _ _ _ E) as (ms' & -> & W). eapply (osim_bind G ud its); [exact Rd| |].
          -- assert (Q := map1_sim f IH t2 R KF0 K2 ord olds olds' ms ms' ro st st' D W Rd (conj Fo Ho)).
             rewrite <- (fold_ext2 (fun l m => step1 f t2 ord l m) _ ms), <- (fold_ext2 (fun l m => step1 f t2 ord l m) _ ms'); [exact Q| |]; intros a [n x] s _; reflexivity.
          -- intros ro2 l1 l1' st2 st2' _ S R2 F2. apply osim_ret; [exact R2|constructor; exact F2].
      + (* pair *) destruct KF as [K1 K2]. destruct R as [R1 R2]. destruct O as [O|[O _]]; [|discriminate].
        destruct (typed_pair _ _ _ _ O) as (a & b & -> & Ha & Hb). assert (exists a' b', old' = VPair a' b' /\ alike ro a a' /\ alike ro b b') as (a' & b' & -> & Aa & Ab) by (inversion A; subst; eauto).
        destruct j as [| | | | |js|]; try (destruct j'; try discriminate Ty; apply MM). destruct (inv_pair _ _ _ _ _ E) as (js' & -> & L & W). rewrite <- L. destruct (Nat.eqb_spec (length js) 2) as [E2|E2]; [|apply RP].
        destruct js as [|ja [|jb [|]]]; try discriminate E2. destruct js' as [|ja' [|jb' [|]]]; try discriminate L. cbn [nth_error].
        eapply (osim_bind G ud alk); [exact Rd|apply (IH t1 a a' ja ja' ro st st'); auto; [left; exact Ha|eapply doc_item; [exact D|left; reflexivity]|apply (W 0); reflexivity]|]. intros ro2 x x' st2 st2' Ex S Rd2 Ax.
        eapply (osim_bind G ud alk); [exact Rd2|apply (IH t2 b b' jb jb' ro2 st2 st2'); auto; [left; eapply ht_ext; [exact (os_ext _ _ _ _ _ _ _ _ S)|exact Hb]|eapply doc_item; [exact D|right; left; reflexivity]|eapply alike_more; [exact (ostep_extends _ _ _ _ _ _ _ _ S)|exact Ab]|apply (W 1); reflexivity]|].
        intros ro3 y y' st3 st3' _ S3 R3 Ay. apply osim_ret; [exact R3|]. constructor; [|exact Ay]. eapply alike_more; [exact (ostep_extends _ _ _ _ _ _ _ _ S3)|exact Ax].
      + (* tuple *) destruct R as [Rn R]. destruct ts as [|t0 ts]; [congruence|]. destruct O as [O|[O _]]; [|discriminate].
        assert (exists l, old = VList l /\ (forall i t x, nth_error (t0 :: ts) i = Some t -> nth_error l i = Some x -> ht (p_heap st) t x)) as (l & -> & Ho) by (inversion O; subst; [discriminate|eauto]).
        assert (exists l', old' = VList l' /\ Forall2 (alike ro) l l') as (l' & -> & Fo) by (inversion A; subst; eauto).
        destruct j as [| | | | |js|]; try (destruct j'; try discriminate Ty; apply MM). destruct (inv_tuple _ _ _ _ E) as (js' & -> & L & W). rewrite <- L. destruct (length js =? length (t0 :: ts))%nat; [|apply RP].
        eapply (osim_bind G ud its); [exact Rd|apply (osim_tuple f IH (t0 :: ts)); try assumption; [exact (able_all (t0 :: ts) R)|exact (all_forall G (t0 :: ts) KF)|intros; eapply doc_item; eassumption|split; assumption]|].
        intros ro2 l1 l1' st2 st2' _ S R2 F2. apply osim_ret; [exact R2|constructor; exact F2].
      + assert (Q := NW t j j' (fun x => VOpt (Some x)) R D KF (inv_unique _ _ _ _ E) (fun r x x' a => al_some r x x' a)).
        destruct (null_or_not _ _ _ _ _ E) as [[-> ->]|[N N']]; [apply HR; constructor|]. destruct j; try congruence; destruct j'; try congruence; exact Q.
      + assert (Q := NW t j j' (fun x => VOpt (Some x)) R D KF (inv_optional _ _ _ _ E) (fun r x x' a => al_some r x x' a)).
        destruct (null_or_not _ _ _ _ _ E) as [[-> ->]|[N N']]; [apply HR; constructor|]. destruct j; try congruence; destruct j'; try congruence; exact Q.
      + assert (Q : osim alk ro st st' (bind (in_new G t (pull G J f t (vinit G t) j)) (fun a => ret (VShared (Some a))) st) (bind (in_new G t (pull G J f t (vinit G t) j')) (fun a => ret (VShared (Some a))) st')).
        { eapply (osim_bind G ud (fun r _ a a' => r a a')); [exact Rd|apply osim_new; [exact R|exact Rd|intros h1 _; apply safe_new; assumption|intros ro1 s s' R1; apply IH; auto; apply inv_shared; exact E]|].
          intros ro2 x x' st2 st2' _ S R2 Ax. apply osim_ret; [exact R2|constructor; exact Ax]. }
        destruct (null_or_not _ _ _ _ _ E) as [[-> ->]|[N N']]; [apply HR; constructor|]. destruct j; try congruence; destruct j'; try congruence; exact Q.
      + (* variant *) destruct R as [_ R]. destruct j as [| | | | | |ms]; try (destruct j'; try discriminate Ty; apply MM). destruct (inv_variant _ _ _ _ E) as (ms' & -> & Ei & Ed).
        destruct (alookup bytes_eqb (list_byte_of_string "index") ms) as [ji|] eqn:Eji; inversion Ei as [E3 E4|? ji' Si E3 E4]; [|apply RP]. destruct (alookup bytes_eqb (list_byte_of_string "data") ms) as [jd|] eqn:Ejd; inversion Ed as [|? jd' Hd E1 E2]; [|apply RP].
        destruct Si as [<- |(N1 & N2 & T)]; [|rewrite <- T; destruct ji, ji'; try discriminate N1; try discriminate N2; apply RP].
        destruct ji; try apply RP. destruct (in_range KU64 z); [|apply RP].
        destruct (if (Z.to_N z <? N.of_nat (length ts))%N then nth_error ts (Z.to_nat z) else None) as [t'|] eqn:En; [|apply RP].
        assert (En' : nth_error ts (Z.to_nat z) = Some t') by (destruct (Z.to_N z <? N.of_nat (length ts))%N; [exact En|discriminate]).
        assert (K' : keys_free G t') by (exact (all_nth G ts _ _ KF En')). assert (D' := doc_lookup _ _ _ _ _ D Ejd).
        destruct (able_vnth _ _ _ _ _ _ R En') as [-> |R']; [apply HR; repeat constructor|].
        assert (Q := NW t' jd jd' (VVar (Z.to_nat z)) R' D' K' (Hd z t' eq_refl En') (fun r x x' a => al_var r _ x x' a)).
        destruct t'; try exact Q. apply HR. repeat constructor.
      + apply osim_no; intros; discriminate.
      + (* class *) destruct R as (rc & p & Ec & Ep). destruct O as [O|[O _]]; [|discriminate].
        assert (exists fs, old = VObj fs /\ fieldsok G ud (p_heap st) (rc_layout rc) fs) as (fs & -> & H2).
        { inversion O; subst; [discriminate|]. exists fs. split; [reflexivity|]. match goal with Q : g_class G c = Some ?x |- _ => rewrite Ec in Q; inversion Q; subst x end. split; assumption. }
        assert (exists fs', old' = VObj fs' /\ Forall2 (pairwise ro) fs fs') as (fs' & -> & Fo) by (inversion A; subst; eauto).
        destruct j as [| | | | | |ms]; try (destruct j'; try discriminate Ty; apply MM). destruct (inv_struct _ _ _ _ E) as (ms' & -> & W).
        eapply (osim_bind G ud (objs (rc_layout rc))); [exact Rd|apply (IHc c rc p (rc_layout rc) fs fs' ms ms' ro st st' Ec Ep (fun _ _ e => e) D Rd (conj Fo H2) W)|].
        intros ro2 l1 l1' st2 st2' _ S R2 [F2 _]. apply osim_ret; [exact R2|constructor; exact F2].
      + apply DT. exact (At I).
      + apply DT. exact (At I).
      + assert (j = j') as <- by (exact (At I)). destruct j; try apply MM. apply osim_ret; assumption.
      + assert (j = j') as <- by (exact (At I)). destruct j; try apply MM. apply osim_ret; assumption.
    - intros c rc p lay os os' ms ms' ro st st' Ec Ep Hlay D Rd A W. rewrite !pull_cls_S. unfold pull_cls_body. rewrite Ec, Ep.
      eapply (osim_bind G ud (objs lay)); [exact Rd|apply (osim_fold G ud (objs lay) eq _ _ (jp_bases p) (jp_bases p) (Forall2_same _ _ (fun x => eq_refl))); [|exact Rd|exact A]|].
      { intros ro2 st2 st2' o o' b b' Hb <- R2 F. destruct (jo_bases _ _ _ _ HE c rc p b Ec Ep Hb) as (rb & pb & Eb & Epb & Hsub).
        apply (IHc b rb pb lay); auto. exact (classwise_base G c rc p b ms ms' Ec Ep Hb W). }
      intros ro2 o1 o1' st2 st2' _ S R2 F. cbv zeta.
      assert (Q : forall st3 st3', p_heap st3 = p_heap st2 -> ready ro2 st3 st3' -> osim (objs lay) ro2 st3 st3' (fold_m (fun os fd => pull_member (pull G J f) ms fd os) (jp_fields p) o1 st3) (fold_m (fun os fd => pull_member (pull G J f) ms' fd os) (jp_fields p) o1' st3')).
      { intros st3 st3' Eh R3. apply (osim_fold G ud (objs lay) eq _ _ (jp_fields p) (jp_fields p) (Forall2_same _ _ (fun x => eq_refl))); [|exact R3|rewrite Eh; exact F]. intros ro4 st4 st4' o o' fd fd' Hfd <- R4 [F4 T4]. unfold pull_member.
        pose proof (members_lookup ro4 (jf_key fd) o o' F4) as ML. destruct (alookup fkey_eqb (jf_key fd) o) as [v|] eqn:Ev, (alookup fkey_eqb (jf_key fd) o') as [v'|]; try contradiction; [|apply osim_no; intros; discriminate].
        assert (B := classwise_field G c rc p fd ms ms' Ec Ep Hfd W). destruct (alookup bytes_eqb (jf_name fd) ms) as [jm|] eqn:Ejm; inversion B as [|? jm' Hm E1 E2]; subst; [|apply osim_ret; [exact R4|split; assumption]].
        destruct (jo_fields _ _ _ _ HE c rc p fd Ec Ep Hfd) as [Hl Hr]. apply Hlay in Hl. assert (Ho : ht (p_heap st4) (jf_ty fd) v) by (exact (proj2 T4 _ _ _ Hl Ev)).
        assert (Dm := doc_lookup _ _ _ _ _ D Ejm).
        eapply (osim_bind G ud alk); [exact R4|apply (osim_member G ud alk); [exact R4|]; intros st5 st5' Eh5 R5; apply IH; auto; [left; rewrite Eh5; exact Ho|exact (MF c rc p fd Ec Ep Hfd)]|].
        intros ro5 x x' st5 st5' Ex S5 R5 Ax. apply osim_ret; [exact R5|].
        destruct (mp_ok _ _ _ _ _ _ (mp_member G ud false _ (jf_name fd) _ _ (safe_val f (jf_ty fd) v jm _ Hr (or_introl Ho) Dm)) eq_refl (or_typed _ _ _ _ _ R4) Ex) as (Px & _ & X).
        assert (Hx := pulled_ht _ _ _ _ _ _ _ X Ho Px).
        split; [apply members_update; [exact Ax|]; eapply members_more; [exact (ostep_extends _ _ _ _ _ _ _ _ S5)|exact F4]|].
        destruct T4 as [K0 F0]. split; [rewrite aupdate_keys; exact K0|].
        intros k t w E3 E4. destruct (fkey_eq_dec (jf_key fd) k) as [<-|Hn].
        - rewrite (alookup_aupdate_same _ fkey_eqb_eq) in E4 by (eapply alookup_some_key; [apply fkey_eqb_eq|exact Ev]).
          inversion E4; subst w. rewrite Hl in E3. inversion E3; subst t. exact Hx.
        - rewrite (alookup_aupdate_other _ fkey_eqb_eq) in E4 by congruence. eapply ht_ext; [exact X|]. eapply F0; eauto. }
      destruct (jp_record p) as [n|]; [apply osim_record; [exact R2|exact Q]|apply Q; [reflexivity|exact R2]].
  Qed.
End Pull.
