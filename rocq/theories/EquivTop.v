(** EquivTop.v -- documents which only differ in the order of members *)
From Coq Require Import String List NArith ZArith Bool Permutation Lia.
From Verif Require Import Base BaseFacts Types TypesFacts BinModel BinSpec BinSafeSpec BinSafe Float JsonModel JsonRel JsonErr JsonSpec JsonSafeSpec JsonSafe JsonTextFacts SerSpec JTreeSpec AddrSpec AddrFacts EquivSpec EquivExact EquivRun EquivMap EquivPull.
Import ListNotations.
Local Open Scope list_scope.

(** ** reordering *)
Lemma names_fst ms : NoDup (names ms) -> NoDup (map fst ms).
Proof. unfold names. rewrite <- (map_map fst cstr). apply NoDup_map_inv. Qed.
Lemma lookup_in {A} (ms : list (bytes * A)) n j : NoDup (map fst ms) -> (alookup bytes_eqb n ms = Some j <-> In (n, j) ms).
Proof.
  induction ms as [|[m x] ms IH]; intros ND; [split; [discriminate|intros []]|]. inversion ND as [|? ? N ND']; subst. cbn [alookup]. destruct (bytes_eqb n m) eqn:E.
  - apply bytes_eqb_eq in E. subst m. split; [intros [= <-]; left; reflexivity|]. intros [X|X]; [injection X as <-; reflexivity|]. destruct N. apply (in_map fst) in X. exact X.
  - split; [intros X; right; apply IH; assumption|]. intros [X|X]; [|apply IH; assumption]. injection X as <- <-. assert (Y : bytes_eqb m m = true) by (apply bytes_eqb_eq; reflexivity). congruence.
Qed.
Lemma lookup_perm {A} (ms msr : list (bytes * A)) n : Permutation ms msr -> NoDup (map fst ms) -> alookup bytes_eqb n ms = alookup bytes_eqb n msr.
Proof.
  intros P ND. assert (ND' : NoDup (map fst msr)) by (eapply Permutation_NoDup; [apply Permutation_map; exact P|exact ND]).
  destruct (alookup bytes_eqb n ms) as [j|] eqn:E.
  - symmetry. apply lookup_in; [exact ND'|]. eapply Permutation_in; [exact P|]. apply lookup_in; assumption.
  - destruct (alookup bytes_eqb n msr) as [j|] eqn:E'; [|reflexivity]. apply lookup_in in E'; [|exact ND']. apply (Permutation_in _ (Permutation_sym P)) in E'. apply lookup_in in E'; [congruence|exact ND].
Qed.
Definition memberwise (R : json -> json -> Prop) (m m' : bytes * json) : Prop := fst m = fst m' /\ R (snd m) (snd m').
Lemma lookup_both (R : json -> json -> Prop) ms ms' n : Forall2 (memberwise R) ms ms' -> both R (alookup bytes_eqb n ms) (alookup bytes_eqb n ms').
Proof. induction 1 as [|[m x] [m' x'] ms ms' [N X] F IH]; cbn [alookup]; [constructor|]. cbn in N, X. subst m'. destruct (bytes_eqb n m); [constructor; exact X|exact IH]. Qed.

Section Sub.
  Variable P : json -> json -> Prop.
  Lemma sub_arr js js' : Forall (fun j => forall j', reordered j j' -> P j j') js -> Forall2 reordered js js' -> Forall2 P js js'.
  Proof. intros A F. induction F; [constructor|]. inversion A; subst. constructor; auto. Qed.
  Lemma sub_obj ms ms' : Forall (fun m : bytes * json => forall j', reordered (snd m) j' -> P (snd m) j') ms -> Forall2 (memberwise reordered) ms ms' -> Forall2 (memberwise P) ms ms'.
  Proof. intros A F. induction F as [|m m' ms ms' [N X] F IH]; [constructor|]. inversion A; subst. constructor; [split; auto|auto]. Qed.
End Sub.

Lemma reordered_sym : forall j j', reordered j j' -> reordered j' j.
Proof.
  intros j. induction j as [| b | z | n | s | l IH | ms IH] using json_ind2; intros j' R; inversion R as [|js js' F|msx msr ms' PM ND F]; subst; try constructor.
  - apply (sub_arr (fun j j' => reordered j' j)) in F; [|exact IH]. clear - F. induction F; constructor; assumption.
  - destruct (Permutation_Forall2 (Permutation_sym PM) F) as (msr' & PM' & F').
    assert (Fn : map (@fst bytes json) msr = map fst ms') by (clear - F; induction F as [|m m' ? ? [X _] _ IHF]; [reflexivity|cbn; rewrite X, IHF; reflexivity]).
    apply (ro_obj ms' msr' ms); [exact PM'| |].
    + unfold names in *. rewrite <- (map_map fst cstr) in *. rewrite <- Fn. rewrite map_map in *. eapply Permutation_NoDup; [apply Permutation_map; exact PM|exact ND].
    + apply (sub_obj (fun j j' => reordered j' j)) in F'; [|exact IH]. clear - F'. induction F' as [|m m' ? ? [X Y] _ IHF]; constructor; [split; [symmetry; exact X|exact Y]|exact IHF].
Qed.

Lemma all_items P (l : list json) : (forall x, In x l -> everywhere P x) -> (fix all l := match l with [] => True | x :: l' => everywhere P x /\ all l' end) l.
Proof. induction l as [|x l IH]; intros H; [exact I|]. split; [apply H; left; reflexivity|apply IH; intros; apply H; right; assumption]. Qed.
Lemma all_members P (ms : list (bytes * json)) : (forall m, In m ms -> everywhere P (snd m)) -> (fix all ms := match ms with [] => True | (_, x) :: ms' => everywhere P x /\ all ms' end) ms.
Proof. induction ms as [|[n x] l IH]; intros H; [exact I|]. split; [apply (H (n, x)); left; reflexivity|apply IH; intros; apply H; right; assumption]. Qed.
Lemma Forall2_in_r {A B} (R : A -> B -> Prop) l l' : Forall2 R l l' -> forall y, In y l' -> exists x, In x l /\ R x y.
Proof. induction 1 as [|a b l l' X F IH]; intros y I; [destruct I|]. destruct I as [<- |I]; [exists a; split; [left; reflexivity|exact X]|]. destruct (IH y I) as (x & Y & Z). exists x. split; [right; exact Y|exact Z]. Qed.
Lemma reordered_wf : forall j j', reordered j j' -> json_wf j -> json_wf j'.
Proof.
  intros j. induction j as [| b | z | n | s | l IH | ms IH] using json_ind2; intros j' R W; inversion R as [|js js' F|msx msr ms' PM ND F]; subst; try exact W.
  - split; [exact I|]. apply all_items. intros x Hx. destruct (Forall2_in_r _ _ _ F x Hx) as (y & Hy & Y). rewrite Forall_forall in IH. apply (IH y Hy x Y). eapply ew_item; [exact W|exact Hy].
  - split; [exact I|]. apply all_members. intros x Hx. destruct (Forall2_in_r _ _ _ F x Hx) as ([n y] & Hy & _ & Y). apply (Permutation_in _ (Permutation_sym PM)) in Hy. rewrite Forall_forall in IH. apply (IH (n, y) Hy _ Y). eapply ew_member; [exact W|exact Hy].
Qed.

Lemma type_index j j' : reordered j j' -> same_index j j'.
Proof. intros R. inversion R; subst; [left; reflexivity|right; repeat split..]. Qed.

Section Equiv.
  Variable G : genv.
  Variable C : N -> Prop.
  Hypothesis CO : classes_ordered G C.
  Lemma mo_nth ts i t : (fix all l := match l with [] => True | t :: l' => maps_ordered C t /\ all l' end) ts -> nth_error ts i = Some t -> maps_ordered C t.
  Proof. revert i. induction ts as [|u ts IH]; intros [|i]; cbn; try discriminate. - intros [K _] [= <-]. exact K. - intros [_ K]. exact (IH i K). Qed.
  Lemma Forall2_nth {A B} (R : A -> B -> Prop) l l' i x y : Forall2 R l l' -> nth_error l i = Some x -> nth_error l' i = Some y -> R x y.
  Proof. intros F. revert i. induction F; intros [|i]; cbn; try discriminate; [intros [= <-] [= <-]; assumption|apply IHF]. Qed.
  Lemma Forall2_len {A B} (R : A -> B -> Prop) l l' : Forall2 R l l' -> length l = length l'.
  Proof. induction 1; [reflexivity|cbn; congruence]. Qed.

  Notation sub js := (forall t, maps_ordered C t -> forall j, In j js -> forall j', reordered j j' -> equivalent G true t j j').
  Lemma items_equivalent js js' t : sub js -> maps_ordered C t -> Forall2 reordered js js' -> Forall2 (equivalent G true t) js js'.
  Proof. intros S M F. induction F; constructor; [apply S; [exact M|left; reflexivity|assumption]|]. apply IHF. intros u Mu z Hz. apply S; [exact Mu|right; exact Hz]. Qed.
  Lemma nth_equivalent js js' i t j j' : sub js -> maps_ordered C t -> Forall2 reordered js js' -> nth_error js i = Some j -> nth_error js' i = Some j' -> equivalent G true t j j'.
  Proof. intros S M F E E'. apply S; [exact M|eapply nth_error_In; exact E|eapply Forall2_nth; eassumption]. Qed.

  Lemma arr_equivalent js js' : sub js -> Forall2 reordered js js' -> forall t, maps_ordered C t -> equivalent G true t (JArr js) (JArr js').
  Proof.
    intros S F. induction t using ty_ind'; intros M; try (apply eq_wrong; [exact I|reflexivity]).
    - apply eq_seq. apply items_equivalent; assumption.
    - apply eq_set. apply items_equivalent; assumption.
    - destruct M as [M1 M2]. apply eq_pair; [eapply Forall2_len; exact F| |]; intros j j' E E'; eapply nth_equivalent; eassumption.
    - apply eq_tuple; [eapply Forall2_len; exact F|]. intros i t j j' Et E E'. eapply nth_equivalent; try eassumption. eapply mo_nth; [exact M|exact Et].
    - apply eq_unique. auto.
    - apply eq_optional. auto.
    - apply eq_shared. auto.
  Qed.
  Lemma obj_equivalent ms msr ms' : (forall t, maps_ordered C t -> forall m, In m ms -> forall j', reordered (snd m) j' -> equivalent G true t (snd m) j') ->
    (forall m js, In m ms -> snd m = JArr js -> forall t, maps_ordered C t -> forall j, In j js -> forall j', reordered j j' -> equivalent G true t j j') ->
    Permutation ms msr -> NoDup (names ms) -> Forall2 (memberwise reordered) msr ms' -> forall t, maps_ordered C t -> equivalent G true t (JObj ms) (JObj ms').
  Proof.
    intros S S2 PM ND F.
    assert (LK : forall n, both (fun j j' => reordered j j' /\ exists m, In m ms /\ snd m = j) (alookup bytes_eqb n ms) (alookup bytes_eqb n ms')).
    { intros n. rewrite (lookup_perm ms msr n PM (names_fst _ ND)).
      assert (I2 : forall m, In m msr -> In m ms) by (intros m; apply Permutation_in, Permutation_sym, PM). clear PM ND S S2.
      induction F as [|[m x] [m' x'] msr ms' [N X] F IH]; cbn [alookup]; [constructor|]. cbn in N, X. subst m'. destruct (bytes_eqb n m); [|apply IH; intros; apply I2; right; assumption].
      constructor. split; [exact X|]. exists (m, x). split; [apply I2; left; reflexivity|reflexivity]. }
    assert (EQ : forall t n, maps_ordered C t -> both (equivalent G true t) (alookup bytes_eqb n ms) (alookup bytes_eqb n ms')).
    { intros t n M. destruct (LK n) as [|j j' (R & m & Hm & <-)]; constructor. apply S; assumption. }
    assert (FE : forall (R : json -> json -> Prop), (forall m j', In m ms -> reordered (snd m) j' -> R (snd m) j') -> Forall2 (fun m m' : bytes * json => cstr (fst m) = cstr (fst m') /\ R (snd m) (snd m')) msr ms').
    { intros R HR. assert (I2 : forall m, In m msr -> In m ms) by (intros m; apply Permutation_in, Permutation_sym, PM). clear - F I2 HR.
      induction F as [|m m' msr ms' [N X] F IH]; constructor; [split; [rewrite N; reflexivity|apply HR; [apply I2; left; reflexivity|exact X]]|]. apply IH. intros; apply I2; right; assumption. }
    induction t using ty_ind'; intros M; try (apply eq_wrong; [exact I|reflexivity]).
    - destruct M as (-> & -> & M). match goal with |- equivalent _ _ (TMap true ?m TString _) _ _ => destruct m end.
      + apply (eq_multimap G true true t2 ms msr ms'); [right; auto|]. apply (FE (fun j j' => (exists js js', j = JArr js /\ j' = JArr js' /\ Forall2 (equivalent G true t2) js js') \/ ((forall js, j <> JArr js) /\ equivalent G true t2 j j'))). intros m j' Hm R. destruct (snd m) as [| | | | |js|] eqn:Em; try (right; split; [intros; discriminate|]; rewrite <- Em; apply S; [exact M|exact Hm|rewrite Em; exact R]).
        left. exists js. inversion R; subst.
        * exists js. split; [reflexivity|]. split; [reflexivity|]. apply Forall2_same. intros; apply eq_same.
        * eexists. split; [reflexivity|]. split; [reflexivity|]. apply items_equivalent; [exact (S2 m js Hm Em)|exact M|assumption].
      + apply (eq_map G true true t2 ms msr ms'); [right; auto|]. apply FE. intros m j' Hm R. apply S; assumption.
    - apply eq_unique. auto.
    - apply eq_optional. auto.
    - apply eq_shared. auto.
    - apply eq_variant.
      + destruct (LK (list_byte_of_string "index")) as [|j j' (R & _)]; constructor. apply type_index. exact R.
      + destruct (LK (list_byte_of_string "data")) as [|j j' (R & m & Hm & <-)]; constructor. intros z t _ Et. apply S; [eapply mo_nth; [exact M|exact Et]|exact Hm|exact R].
    - destruct (CO c M) as (L & ML & HL). apply (eq_struct G true c L); [exact ML|]. intros fd Hfd. apply EQ. apply HL. exact Hfd.
  Qed.
  Lemma reordered_equivalent : forall j j', reordered j j' -> forall t, maps_ordered C t -> equivalent G true t j j'.
  Proof.
    intros j. enough (H : forall t, maps_ordered C t -> forall j', reordered j j' -> equivalent G true t j j') by eauto.
    assert (HH : (forall t, maps_ordered C t -> forall j', reordered j j' -> equivalent G true t j j') /\
       (forall js, j = JArr js -> forall t, maps_ordered C t -> forall x, In x js -> forall j', reordered x j' -> equivalent G true t x j')); [|apply HH].
    induction j as [| b | z | n | s | l IH | ms IH] using json_ind2; (split; [intros t M j' R; inversion R as [|js js' F|msx msr ms' PM ND F]; subst; try apply eq_same|try (intros; discriminate)]).
    - apply arr_equivalent; [|exact F|exact M]. rewrite Forall_forall in IH. intros u Mu x Hx. apply (IH x Hx); exact Mu.
    - intros js [= <-]. rewrite Forall_forall in IH. intros u Mu x Hx. apply (IH x Hx); exact Mu.
    - rewrite Forall_forall in IH. apply (obj_equivalent ms msr ms'); try assumption.
      + intros u Mu m Hm. apply (IH m Hm). exact Mu.
      + intros m js Hm E. apply (IH m Hm). exact E.
  Qed.
End Equiv.

(** ** the same object in both runs *)
Lemma alike_at (ro : renaming) : forall v, (forall a, refers v a -> ro a a) -> alike ro v v.
Proof.
  fix IH 1. intros v N. destruct v as [|b|z|n|n|s|l|a b|[x|]|[a|]|i x| | |fs]; try (constructor; fail).
  - constructor. induction l as [|x l IHl]; constructor.
    + apply IH. intros a R. apply (N a). econstructor; [left; reflexivity|exact R].
    + apply IHl. intros a R. apply (N a). inversion R as [|? x' ? I Q| | | | |]; subst. econstructor; [right; exact I|exact Q].
  - constructor; apply IH; intros c R; apply (N c); [apply rf_first|apply rf_second]; exact R.
  - constructor. apply IH. intros c R. apply (N c). constructor. exact R.
  - constructor. apply N. constructor.
  - constructor. apply IH. intros c R. apply (N c). constructor. exact R.
  - constructor. induction fs as [|[k x] l IHl]; constructor.
    + split; [reflexivity|]. apply IH. intros a R. apply (N a). econstructor; [left; reflexivity|exact R].
    + apply IHl. intros a R. apply (N a). inversion R as [| | | | | |? k' x' ? I Q]; subst. econstructor; [right; exact I|exact Q].
Qed.
Definition itself (h : heap) : renaming := fun a b => a = b /\ exists_at h a.
Lemma itself_one h : one_to_one (itself h). Proof. intros a b a' b' [-> _] [-> _]. reflexivity. Qed.
Lemma itself_alike h : no_dangling h -> heaps_alike (itself h) h h.
Proof.
  intros ND a b [<- X]. apply in_keys in X as [[t x] E]. exists t, x, x. split; [exact E|]. split; [exact E|]. apply alike_at. intros c R. split; [reflexivity|]. eapply ND; eassumption.
Qed.

Section Top.
  Variable G : genv.
  Variable J : jenv.
  Variable ud : bool.
  Hypothesis HA : alloc_ok G.
  Hypothesis HP : place_ok G.
  Hypothesis HE : jenv_ok G ud (fun _ => True) false.
  Hypothesis HC : conv_ok J.
  Hypothesis PD : plain_defaults G.
  Hypothesis MF : pulled_members_free G.
  Hypothesis SO : strings_ordered G.

  Lemma calm_self st : calm st st. Proof. unfold calm. destruct (p_err st); repeat split. Qed.
  Lemma itself_ready st : heap_typed G ud (p_heap st) -> no_dangling (p_heap st) -> oready G ud (itself (p_heap st)) st st.
  Proof. intros T ND. constructor; [apply itself_one|apply itself_alike; exact ND|apply calm_self|exact T]. Qed.
  Lemma ostep_effect st st1 st1' ro v v' : ostep G ud (itself (p_heap st)) st st ro st1 st1' -> alike ro v v' -> same_effect st v st1 v' st1'.
  Proof.
    intros S A. assert (EI : forall a, exists_at (p_heap st) a -> ro a a) by (intros a X; apply (ostep_extends _ _ _ _ _ _ _ _ S); split; [reflexivity|exact X]).
    pose proof (os_grown _ _ _ _ _ _ _ _ S) as Gr. split.
    - exists ro. split; [exact (gr_one _ _ _ _ _ _ Gr)|]. split; [exact EI|]. split; [|split; [|split; [exact (gr_alike _ _ _ _ _ _ Gr)|exact A]]].
      + intros a X. destruct (gr_left _ _ _ _ _ _ Gr a X) as [Y|Y]; [exists a; apply EI; exact Y|exact Y].
      + intros b X. destruct (gr_right _ _ _ _ _ _ Gr b X) as [Y|Y]; [exists b; apply EI; exact Y|exact Y].
    - exact (os_errors _ _ _ _ _ _ _ _ S).
  Qed.
  Lemma pull_effect fuel t old j j' st v st1 : pullable G (fun _ => True) false t -> keys_free G t -> variable_ok G ud (p_heap st) t old -> (forall a, refers old a -> exists_at (p_heap st) a) ->
    heap_typed G ud (p_heap st) -> no_dangling (p_heap st) -> json_wf j -> equivalent G true t j j' ->
    pull G J fuel t old j st = POk v st1 -> exists v' st1', pull G J fuel t old j' st = POk v' st1' /\ same_effect st v st1 v' st1'.
  Proof.
    intros R K O RO T ND W E X.
    destruct (pull_sim G J ud HA HP HE HC PD MF SO fuel) as [P _]. unfold P_val in P.
    specialize (P t old old j j' (itself (p_heap st)) st st R O). assert (D : docok (fun _ => True) false j) by (split; [exact W|intros Z; discriminate Z]). specialize (P D). specialize (P K). specialize (P (itself_ready st T ND)).
    specialize (P (alike_at (itself (p_heap st)) old (fun a r => conj eq_refl (RO a r))) E). unfold osim in P.
    specialize (P v st1 X). destruct P as (v' & st1' & ro & E' & S & A).
    exists v', st1'. split; [exact E'|]. eapply ostep_effect; eassumption.
  Qed.
End Top.
