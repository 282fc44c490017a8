(** SettleFacts.v -- what has been read is proper (property C71) *)
From Coq Require Import List NArith ZArith Bool Lia Permutation.
From Verif Require Import Base BaseFacts Bytes BytesFacts Types TypesFacts BinModel FuelFacts BinSpec BinSafeSpec BinSafe BinFacts ContFacts BinExcSpec BoundFacts SettleSpec.
Import ListNotations.
Local Open Scope list_scope.
Local Open Scope nat_scope.

Definition whenok {A} (m : res A) (Q : A -> Prop) : Prop := match m with ROk a => Q a | _ => True end.
Lemma wo_bind {A B} (m : res A) (k : A -> res B) Q R : whenok m Q -> (forall a, Q a -> whenok (k a) R) -> whenok (rbind m k) R.
Proof. destruct m; cbn; auto. Qed.
Lemma wo_imp {A} (m : res A) (Q R : A -> Prop) : whenok m Q -> (forall a, Q a -> R a) -> whenok m R.
Proof. destruct m; cbn; auto. Qed.
Lemma wo_post {A} (m : res A) Q : post Q m -> whenok m Q.
Proof. destruct m; cbn; auto. Qed.
Lemma wo_iter {A S} (Inv : list A -> S -> Prop) (r : A -> S -> res S) l :
  (forall done a todo s, l = done ++ a :: todo -> Inv done s -> whenok (r a s) (Inv (done ++ [a]))) -> forall s, Inv [] s -> whenok (rd_iter r l s) (Inv l).
Proof.
  intros Hr s Hs. assert (X : forall todo done s, l = done ++ todo -> Inv done s -> whenok (rd_iter r todo s) (Inv l)).
  { induction todo as [|a todo IH]; intros done s0 E H; cbn [rd_iter]; [rewrite E, app_nil_r; exact H|].
    eapply wo_bind; [eapply Hr; [exact E|exact H]|]. cbn beta. intros s1 H1. apply (IH (done ++ [a])); [rewrite <- app_assoc; exact E|exact H1]. }
  apply (X l []); [reflexivity|exact Hs].
Qed.
Lemma wo_loop {S} (Inv : nat -> S -> Prop) n (r : S -> res S) :
  (forall i s, Inv i s -> whenok (r s) (Inv (Datatypes.S i))) -> forall s, Inv 0 s -> whenok (loopN n r s) (Inv (N.to_nat n)).
Proof.
  intros Hr s Hs. rewrite loopN_loopnat. generalize (N.to_nat n) as m. intros m.
  assert (X : forall m i s, Inv i s -> whenok (loopnat m r s) (Inv (i + m))).
  { clear - Hr. induction m as [|m IH]; intros i s H; cbn [loopnat]; [rewrite Nat.add_0_r; exact H|]. eapply wo_bind; [apply Hr; exact H|]. intros s1 H1. rewrite <- Nat.add_succ_comm. apply IH. exact H1. }
  apply (X m 0). exact Hs.
Qed.

Lemma rmo_fun G : forall c L, read_members_of G c L -> forall L', read_members_of G c L' -> L = L'.
Proof.
  fix IH 3. intros c L M L' M'. destruct M as [c rc p Ls Hc Hp F]. inversion M' as [c' rc' p' Ls' Hc' Hp' F' E1 E2]; subst.
  assert (rc' = rc) by congruence. subst rc'. assert (p' = p) by congruence. subst p'. f_equal. f_equal.
  clear - IH F F'. revert Ls' F'. induction F as [|b L bs Ls V F IHF]; intros Ls' F'; inversion F' as [|b' L' bs' Ls0 V' F0]; subst; [reflexivity|]. f_equal; [exact (IH _ _ V _ V')|apply IHF; exact F0].
Qed.
Lemma fop_nth {A} (R : A -> A -> Prop) l i j x y : ForallOrdPairs R l -> i < j -> nth_error l i = Some x -> nth_error l j = Some y -> R x y.
Proof.
  intros F. revert i j. induction F as [|a l Ha F IH]; intros [|i] [|j] Lt Ex Ey; try lia; try discriminate; cbn in Ex, Ey.
  - injection Ex as <-. rewrite Forall_forall in Ha. apply Ha. eapply nth_error_In. exact Ey.
  - eapply IH; [|exact Ex|exact Ey]. lia.
Qed.
Lemma NoDup_app_l {A} (l l' : list A) : NoDup (l ++ l') -> NoDup l.
Proof. induction l as [|x l IH]; intros N; [constructor|]. inversion N as [|? ? Nx N']; subst. constructor; [intros Q; apply Nx, in_or_app; left; exact Q|apply IH; exact N']. Qed.
Lemma NoDup_app_r {A} (l l' : list A) : NoDup (l ++ l') -> NoDup l'.
Proof. induction l as [|x l IH]; intros N; [exact N|]. inversion N; subst. apply IH. assumption. Qed.
Lemma NoDup_app_disj {A} (l l' : list A) : NoDup (l ++ l') -> forall x, In x l -> ~ In x l'.
Proof. induction l as [|y l IH]; intros N x []; inversion N as [|? ? Ny N']; subst; [intros Q; apply Ny, in_or_app; right; exact Q|apply IH; assumption]. Qed.

Section Read.
  Variable G : genv.
  Variable V : bool -> N -> N -> N -> Prop.
  Hypothesis HA : alloc_ok G.
  Hypothesis HP : place_ok G.
  Hypothesis EO : env_ok G false.
  Hypothesis SV : settling G V.
  Notation lk := (alookup fkey_eqb).

  Lemma good_hle h h' ex wv rv t old v : hle h h' -> good G h ex wv rv t old v -> good G h' ex wv rv t old v.
  Proof.
    intros L g. induction g; try (econstructor; eauto; fail).
    match goal with E : hget _ _ = Some _ |- _ => assert (X : hty h a = Some t) by (unfold hty; rewrite E; reflexivity) end.
    apply L in X. unfold hty in X. destruct (hget h' a) as [[t' x']|] eqn:E'; [|discriminate]. cbn in X. injection X as ->. econstructor. exact E'.
  Qed.
  Lemma settled_alt ex ts i t : (fix all l := match l with [] => True | t :: l' => (t = TMono \/ settled G V ex 0 0 t) /\ all l' end) ts -> nth_error ts i = Some t -> t = TMono \/ settled G V ex 0 0 t.
  Proof. revert i. induction ts as [|u ts IH]; intros [|i] A E; try discriminate; cbn in E; [injection E as <-; apply A|]. eapply IH; [apply A|exact E]. Qed.
  Lemma kzero k : in_range k 0 = true.
  Proof. apply in_range_spec. unfold kmin, kmax. destruct k; cbn; lia. Qed.
  Lemma cont_nil ismap ord multi kt : cont_inv G ismap ord multi kt [].
  Proof. unfold cont_inv. destruct ord, multi; constructor. Qed.
  Lemma vinit_good t : forall ex wv rv, settled G V ex wv rv t -> good G [] ex wv rv t (vinit G t) (vinit G t).
  Proof.
    induction t using ty_ind'; intros ex wv rv S; cbn [vinit]; cbn [settled] in S; try contradiction; try (constructor; try assumption; try reflexivity; apply kzero).
    - constructor; [cbn; lia|]. intros i x E. destruct i; discriminate E.
    - constructor; [apply S|cbn; lia|apply cont_nil|intros x []].
    - constructor; [apply S|cbn; lia|apply cont_nil|intros x []|intros k v []|intros k v []].
    - constructor; [apply IHt1|apply IHt2]; apply S.
    - destruct S as (Ne & Ln & A). destruct ts as [|t ts]; [contradiction|]. inversion H as [|? ? Ht Hts]; subst.
      destruct A as [[->|A] _]; [eapply g_var_mono; [exact Ln|reflexivity]|]. eapply g_var; [exact Ln|reflexivity| |apply Ht; exact A]. intros ->. exact A.
    - destruct (SV _ _ _ _ S) as (rc & L & K & Hc & _ & _ & _ & _ & _ & _ & X). rewrite Hc. exact X.
  Qed.
  Definition startable (h : heap) (ex : bool) (wv rv : N) (t : ty) (old : val) : Prop := replaced t = true \/ good G h ex wv rv t old old.
  Lemma vinit_start h t ex wv rv : settled G V ex wv rv t -> startable h ex wv rv t (vinit G t).
  Proof. intros S. right. eapply good_hle; [apply hle_nil|]. apply vinit_good. exact S. Qed.
  Record inv (st : rstate) : Prop := {
    in_heap : objects_good G (r_heap st);
    in_ptr : forall id a t, alookup N.eqb id (r_ptr st) = Some (a, t) -> hty (r_heap st) a = Some t }.
  Definition sound (st st' : rstate) : Prop := inv st' /\ hle (r_heap st) (r_heap st').
  Lemma sound_refl st : inv st -> sound st st. Proof. intros I. split; [exact I|apply hle_refl]. Qed.
  Lemma sound_trans a b c : sound a b -> sound b c -> sound a c. Proof. intros [_ H1] [I H2]. split; [exact I|eapply hle_trans; eassumption]. Qed.

  Definition RV (f : nat) : Prop := forall ver t old s st ex wv rv, settled G V ex wv rv t -> startable (r_heap st) ex wv rv t old -> inv st ->
    whenok (read G f ver t old s st) (fun '(v, _, st') => good G (r_heap st') ex wv rv t old v /\ sound st st').
  (** of the members of the object [os], those of [done] have been read *)
  Definition part (ex : bool) (L : list visit) (os : list (fkey * val)) (st : rstate) (done : list fkey) (fs : list (fkey * val)) (st' : rstate) : Prop :=
    map fst fs = map fst os /\ sound st st' /\ (forall k, ~ In k done -> lk k fs = lk k os)
    /\ forall x o v, In x L -> In (vi_key x) done -> lk (vi_key x) os = Some o -> lk (vi_key x) fs = Some v -> good G (r_heap st') ex (vi_w x) (vi_r x) (vi_ty x) o v.
  Definition RC (f : nat) : Prop := forall ver c rc p lay K os s st ex L, g_class G c = Some rc -> rc_rd rc = Some p ->
    (forall k t, lk k (rc_layout rc) = Some t -> lk k lay = Some t) -> read_members_of G c K -> replaced_again G L K -> incl K (map vi_key L) -> inv st ->
    (forall x, In x L -> lk (vi_key x) lay = Some (vi_ty x) /\ settled G V ex (vi_w x) (vi_r x) (vi_ty x)) -> repeatable G L ->
    (forall x o, In x L -> In (vi_key x) K -> lk (vi_key x) os = Some o -> good G (r_heap st) ex (vi_w x) (vi_r x) (vi_ty x) o o) ->
    whenok (read_cls G f ver c os s st) (fun '(fs, _, _, st') => part ex L os st K fs st').

  (** what has been read can be read again *)
  Lemma good_self h ex wv rv t old v : good G h ex wv rv t old v -> rereadable G wv rv t -> good G h ex wv rv t v v.
  Proof.
    intros Gd. induction Gd as [ex wv rv old b|ex wv rv k old z Hk Hz|ex wv rv k old z Hk Hz|ex wv rv old n Hn|ex wv rv old n Hn|ex wv rv old x Hx|ex wv rv old z Hz|ex wv rv old z Hz
      |ex wv rv t olds l Hl He IH|ex wv rv ord multi t l Hex Hl Hc He IH|ex wv rv ord multi kt vt l Hex Hl Hc Hp Hk IHk Hv IHv|ex wv rv ta tb oa ob a b Ga IHa Gb IHb
      |ex wv rv t old|ex wv rv t old x Gx IHx|ex wv rv t old|ex wv rv t old x Gx IHx|ex wv rv t old|wv rv t old a x Hh|ex wv rv ts old i Hl Hi|ex wv rv ts old i t x Hl Hi Hm Gx IHx
      |ex wv rv c rc os fs L Hc Eo El ND HV HR Hla Hg IH Hu];
      intros R; try (econstructor; eassumption).
    - assert (Rt : rereadable G 0 0 t) by (inversion R as [? ? ? X|? ? ? X| |]; subst; [destruct X|exact X]).
      constructor; [exact Hl|]. intros i x E. rewrite (nth_error_nth _ _ _ E). eapply IH; [exact E|exact Rt].
    - exfalso. inversion R as [? ? ? X| | |]; subst; destruct X.
    - exfalso. inversion R as [? ? ? X| | |]; subst; destruct X.
    - assert (Rt : rereadable G 0 0 ta /\ rereadable G 0 0 tb) by (inversion R as [? ? ? X| |? ? ? ? X Y|]; subst; [destruct X|split; assumption]). constructor; tauto.
    - inversion R as [? ? ? X| | |? ? ? rc' L' Hc' HV' Hall Hrr]; subst; [destruct X|]. assert (rc' = rc) by congruence. subst rc'. rewrite <- (visits_fun G wv rv c L HV L' HV') in *. clear L' HV' Hc'.
      apply (g_struct G h ex wv rv c rc fs fs L); try assumption; [reflexivity| |].
      + intros x o v Hin E1 E2. rewrite E1 in E2. injection E2 as <-. assert (exists o0, lk (vi_key x) os = Some o0) as (o0 & E0).
        { eapply alookup_some_in; [apply fkey_eqb_eq|]. rewrite Eo. eapply alookup_some_key; [apply fkey_eqb_eq|exact E1]. }
        eapply IH; [exact Hin|exact E0|exact E1|apply Hrr; exact Hin].
      + intros k v Hk E. exfalso. apply Hk, Hall. rewrite El. eapply alookup_some_key; [apply fkey_eqb_eq|exact E].
  Qed.
  (** where reading replaces the value it does not matter what has been there *)
  Lemma good_replace h ex wv rv t u v : good G h ex wv rv t u v -> rereadable G wv rv t -> settled G V ex wv rv t -> forall o, good G h ex wv rv t o o -> good G h ex wv rv t o v.
  Proof.
    intros Gd. induction Gd as [ex wv rv old b|ex wv rv k old z Hk Hz|ex wv rv k old z Hk Hz|ex wv rv old n Hn|ex wv rv old n Hn|ex wv rv old x Hx|ex wv rv old z Hz|ex wv rv old z Hz
      |ex wv rv t olds l Hl He IH|ex wv rv ord multi t l Hex Hl Hc He IH|ex wv rv ord multi kt vt l Hex Hl Hc Hp Hk IHk Hv IHv|ex wv rv ta tb oa ob a b Ga IHa Gb IHb
      |ex wv rv t old|ex wv rv t old x Gx IHx|ex wv rv t old|ex wv rv t old x Gx IHx|ex wv rv t old|wv rv t old a x Hh|ex wv rv ts old i Hl Hi|ex wv rv ts old i t x Hl Hi Hm Gx IHx
      |ex wv rv c rc os fs L Hc Eo El ND HV HR Hla Hg IH Hu];
      intros R Se o O; try (econstructor; eassumption).
    - assert (Rt : rereadable G 0 0 t) by (inversion R as [? ? ? X|? ? ? X| |]; subst; [destruct X|exact X]). cbn in Se.
      inversion O as [| | | | | | | |? ? ? ? ol ? Hn Hi| | | | | | | | | | | |]; subst. constructor; [exact Hl|]. intros i x E. eapply IH; [exact E|exact Rt|exact Se|].
      destruct (nth_in_or_default i ol (vinit G t)) as [Ho| ->]; [|eapply good_hle; [apply hle_nil|apply vinit_good; exact Se]].
      apply In_nth_error in Ho. destruct Ho as [j Ej]. specialize (Hi _ _ Ej). rewrite (nth_error_nth _ _ _ Ej) in Hi. exact Hi.
    - exfalso. inversion R as [? ? ? X| | |]; subst; destruct X.
    - exfalso. inversion R as [? ? ? X| | |]; subst; destruct X.
    - assert (Rt : rereadable G 0 0 ta /\ rereadable G 0 0 tb) by (inversion R as [? ? ? X| |? ? ? ? X Y|]; subst; [destruct X|split; assumption]). destruct Se as [S1 S2]. inversion O; subst. constructor; [apply IHa|apply IHb]; tauto.
    - inversion R as [? ? ? X| | |? ? ? rc' L' Hc' HV' Hall Hrr]; subst; [destruct X|]. assert (rc' = rc) by congruence. subst rc'. rewrite <- (visits_fun G wv rv c L HV L' HV') in *. clear L' HV' Hc'.
      cbn in Se. destruct (SV _ _ _ _ Se) as (rc1 & L1 & K1 & Hc1 & HV1 & _ & HL1 & _). rewrite <- (visits_fun G wv rv c L HV L1 HV1) in *. clear L1 HV1 Hc1 K1 rc1.
      inversion O as [| | | | | | | | | | | | | | | | | | | | ex0 wv0 rv0 c0 rc0 os0 fs0 L0 Hc0 M1 M2 M3 HV0 NL0 Hl0 Hm0 Hn0]; subst. assert (rc0 = rc) by congruence. subst rc0.
      rewrite <- (visits_fun G wv rv c L HV L0 HV0) in *. clear L0 HV0 Hc0.
      match goal with |- good _ _ _ _ _ _ (VObj ?z) _ => apply (g_struct G h ex wv rv c rc z fs L) end; try assumption; [congruence| |].
      + intros x o v Hin E1 E2. assert (exists o0, lk (vi_key x) os = Some o0) as (o0 & E0).
        { eapply alookup_some_in; [apply fkey_eqb_eq|]. rewrite Eo. eapply alookup_some_key; [apply fkey_eqb_eq|exact E2]. }
        eapply IH; [exact Hin|exact E0|exact E2|apply Hrr; exact Hin|apply HL1; exact Hin|]. eapply Hm0; [exact Hin|exact E1|exact E1].
      + intros k v Hk E. exfalso. apply Hk, Hall. rewrite El. eapply alookup_some_key; [apply fkey_eqb_eq|exact E].
  Qed.

  Lemma same_visit L x y : repeatable G L -> In x L -> In y L -> vi_key x = vi_key y -> x = y.
  Proof.
    unfold repeatable. intros R Hx Hy E. destruct (ForallOrdPairs_In R x y Hx Hy) as [Q|[Q|Q]]; [exact Q|exact (proj1 (Q E))|symmetry; exact (proj1 (Q (eq_sym E)))].
  Qed.
  Lemma again_both L K1 K2 : replaced_again G L (K1 ++ K2) -> forall x, In x L -> In (vi_key x) K1 -> In (vi_key x) K2 -> rereadable G (vi_w x) (vi_r x) (vi_ty x).
  Proof.
    unfold replaced_again. induction K1 as [|k K1 IH]; intros F x Hx H1 H2; [destruct H1|]. cbn in F. inversion F as [|? ? Fk F']; subst. destruct H1 as [E|H1]; [subst k|eapply IH; eassumption].
    rewrite Forall_forall in Fk. eapply (Fk (vi_key x)); [apply in_or_app; right; exact H2|reflexivity|exact Hx|reflexivity].
  Qed.
  Lemma again_l L K1 K2 : replaced_again G L (K1 ++ K2) -> replaced_again G L K1.
  Proof. unfold replaced_again. induction K1 as [|k K1 IH]; intros F; [constructor|]. cbn in F. inversion F as [|? ? Fk F']; subst. apply Forall_app in Fk. constructor; [apply Fk|apply IH; exact F']. Qed.
  Lemma again_r L K1 K2 : replaced_again G L (K1 ++ K2) -> replaced_again G L K2.
  Proof. unfold replaced_again. induction K1 as [|k K1 IH]; intros F; [exact F|]. cbn in F. inversion F; subst. apply IH. assumption. Qed.
  Definition startables (ex : bool) (L : list visit) (os : list (fkey * val)) (st : rstate) (K : list fkey) : Prop :=
    forall x o, In x L -> In (vi_key x) K -> lk (vi_key x) os = Some o -> good G (r_heap st) ex (vi_w x) (vi_r x) (vi_ty x) o o.
  (** the members can still be read after some of them have been read *)
  Lemma part_start ex L os st done fs st1 K : part ex L os st done fs st1 -> startables ex L os st (done ++ K) ->
    (forall x, In x L -> In (vi_key x) done -> In (vi_key x) K -> rereadable G (vi_w x) (vi_r x) (vi_ty x)) -> startables ex L fs st1 K.
  Proof.
    intros (P1 & P2 & P3 & P4) HO HR x o Hx Hk Eo. destruct (in_dec fkey_eq_dec (vi_key x) done) as [i|i].
    - assert (exists o0, lk (vi_key x) os = Some o0) as (o0 & E0).
      { eapply alookup_some_in; [apply fkey_eqb_eq|]. rewrite <- P1. eapply alookup_some_key; [apply fkey_eqb_eq|exact Eo]. }
      eapply good_self; [eapply P4; eassumption|apply HR; assumption].
    - rewrite (P3 _ i) in Eo. eapply good_hle; [apply P2|]. apply HO; [exact Hx|apply in_or_app; right; exact Hk|exact Eo].
  Qed.
  Lemma part_step ex L os st done fs st1 D2 fs2 st2 : part ex L os st done fs st1 -> part ex L fs st1 D2 fs2 st2 -> startables ex L os st (done ++ D2) ->
    (forall x, In x L -> settled G V ex (vi_w x) (vi_r x) (vi_ty x)) ->
    (forall x, In x L -> In (vi_key x) done -> In (vi_key x) D2 -> rereadable G (vi_w x) (vi_r x) (vi_ty x)) -> part ex L os st (done ++ D2) fs2 st2.
  Proof.
    intros (K1 & S1 & N1 & P1) (K2 & S2 & N2 & P2) HO HL HR. split; [congruence|]. split; [eapply sound_trans; eassumption|]. split.
    - intros k H. rewrite N2, N1; [reflexivity| |]; intros Q; apply H, in_or_app; auto.
    - intros x o v Hx Hd Eo Ev. destruct (in_dec fkey_eq_dec (vi_key x) D2) as [i|i].
      + destruct (in_dec fkey_eq_dec (vi_key x) done) as [j|j].
        * assert (exists o0, lk (vi_key x) fs = Some o0) as (o0 & E0).
          { eapply alookup_some_in; [apply fkey_eqb_eq|]. rewrite K1. eapply alookup_some_key; [apply fkey_eqb_eq|exact Eo]. }
          eapply good_replace; [eapply P2; eassumption|apply HR; assumption|apply HL; exact Hx|]. eapply good_hle; [|apply HO; eassumption].
          eapply hle_trans; [apply S1|apply S2].
        * eapply P2; [exact Hx|exact i| |exact Ev]. rewrite (N1 _ j). exact Eo.
      + apply in_app_or in Hd. destruct Hd as [Hd|Hd]; [|contradiction]. rewrite (N2 _ i) in Ev. eapply good_hle; [apply S2|]. eapply P1; eassumption.
  Qed.
  Lemma part_nil ex L os st : inv st -> part ex L os st [] os st.
  Proof. intros I. split; [reflexivity|]. split; [apply sound_refl; exact I|]. split; [reflexivity|]. intros x o v _ []. Qed.

  Lemma startables_incl ex L os st K K' : startables ex L os st K -> incl K' K -> startables ex L os st K'.
  Proof. intros S I x o Hx Hk. apply S; [exact Hx|apply I; exact Hk]. Qed.
  Lemma RC_step f : RV f -> RC f -> RC (S f).
  Proof.
    intros IV IC ver c rc p lay K os s st ex L Hc Hp Hlay HK ND IK I HL NL HO. rewrite read_cls_S. unfold read_cls_body. rewrite Hc, Hp.
    inversion HK as [c' rc' p' Ls Hc' Hp' F E1 E2]; subst c'. rewrite Hc in Hc'. injection Hc' as <-. rewrite Hp in Hp'. injection Hp' as <-. subst K.
    assert (HLs : forall x, In x L -> settled G V ex (vi_w x) (vi_r x) (vi_ty x)) by (intros; apply HL; assumption).
    eapply (wo_bind _ _ (fun '(fs, _, st1) => part ex L os st (concat Ls) fs st1)).
    { assert (X : forall bs Lb, Forall2 (read_members_of G) bs Lb -> incl bs (bp_bases p) -> forall done fs s0 st1, part ex L os st done fs st1 -> replaced_again G L (done ++ concat Lb) ->
        incl (concat Lb) (map vi_key L) -> startables ex L os st (done ++ concat Lb) ->
        whenok (rd_iter (fun b '(os, s, st) => let! (os', _, s', st') := read_cls G f ver b os s st in ROk (os', s', st')) bs (fs, s0, st1)) (fun '(fs', _, st') => part ex L os st (done ++ concat Lb) fs' st')).
      { clear F. induction 1 as [|b K bs Lb Hb Fb IHb]; intros Hi done fs s0 st1 P Nd Ik Il; cbn [rd_iter concat]; [rewrite app_nil_r; exact P|].
        destruct (eo_bases _ _ EO c rc p b Hc Hp (Hi b (or_introl eq_refl))) as (rb & pb & Eb & Epb & Hsub).
        cbn [concat] in Nd, Ik, Il. assert (Dis : forall x, In x L -> In (vi_key x) done -> In (vi_key x) K -> rereadable G (vi_w x) (vi_r x) (vi_ty x)).
        { rewrite app_assoc in Nd. apply again_l in Nd. apply again_both. exact Nd. }
        assert (Il' : startables ex L os st (done ++ K)).
        { eapply startables_incl; [exact Il|]. rewrite app_assoc. apply incl_appl, incl_refl. }
        eapply (wo_bind _ _ (fun '(fs', _, st') => part ex L os st (done ++ K) fs' st')).
        - eapply wo_bind; [eapply (IC ver b rb pb lay K fs s0 st1 ex L Eb Epb); try assumption|].
          + intros k t E. apply Hlay, Hsub, E.
          + apply again_r in Nd. apply again_l in Nd. exact Nd.
          + intros k Q. apply Ik. apply in_or_app. left. exact Q.
          + apply P.
          + exact (part_start _ _ _ _ _ _ _ _ P Il' Dis).
          + intros [[[fs1 v1] s1] st2] P2. cbn. eapply part_step; eassumption.
        - intros [[fs1 s1] st2] P2. rewrite app_assoc. apply IHb; try assumption.
          + intros q Q. apply Hi. right. exact Q.
          + rewrite <- app_assoc. exact Nd.
          + intros k Q. apply Ik. apply in_or_app. right. exact Q.
          + rewrite <- app_assoc. exact Il. }
      apply (X _ _ F (incl_refl _) [] os s st (part_nil _ _ _ _ I)); [apply again_l in ND; exact ND| |].
      - intros k Q. apply IK. apply in_or_app. left. exact Q.
      - eapply startables_incl; [exact HO|]. apply incl_appl, incl_refl. }
    intros [[fs1 s1] st1] P1. eapply (wo_bind _ _ (fun _ => True)); [|intros [ver' s2] _].
    { destruct (bp_vmax p =? 0)%N; [exact Logic.I|]. destruct (rd_varint s1) as [[v r]| | | |]; cbn; try exact Logic.I. destruct (v <=? bp_vmax p)%N; exact Logic.I. }
    match goal with |- whenok (rbind (rd_iter ?g _ _) _) _ =>
      assert (X : forall fds done fs s0 st1, incl fds (bp_fields p) -> part ex L os st done fs st1 -> replaced_again G L (done ++ map bf_key fds) -> startables ex L os st (done ++ map bf_key fds) ->
        whenok (rd_iter g fds (fs, s0, st1)) (fun '(fs', _, st') => part ex L os st (done ++ map bf_key fds) fs' st')) end.
    { clear P1 fs1 s1 st1. induction fds as [|fd fds IHf]; intros done fs s0 st1 Hi P Nd Il; cbn [rd_iter map]; [rewrite app_nil_r; exact P|].
      destruct (eo_fields _ _ EO c rc p fd Hc Hp (Hi fd (or_introl eq_refl))) as [El _]. apply Hlay in El. cbn [map] in Nd, Il.
      change (bf_key fd :: map bf_key fds) with ([bf_key fd] ++ map bf_key fds) in Nd, Il |- *. rewrite app_assoc in Nd, Il |- *.
      assert (Hk : In (bf_key fd) (concat Ls ++ map bf_key (bp_fields p))) by (apply in_or_app; right; apply in_map, Hi; left; reflexivity).
      assert (Hx : exists x, In x L /\ vi_key x = bf_key fd /\ vi_ty x = bf_ty fd /\ settled G V ex (vi_w x) (vi_r x) (vi_ty x)).
      { pose proof (IK _ Hk) as Q. apply in_map_iff in Q. destruct Q as (x & Ex & Hx). exists x. destruct (HL _ Hx) as [Q1 Q2]. rewrite Ex, El in Q1. injection Q1 as Q1. auto. }
      destruct Hx as (x & Hx & Ex & Et & Sx).
      assert (Il' : startables ex L os st (done ++ [bf_key fd])) by (eapply startables_incl; [exact Il|]; apply incl_appl, incl_refl).
      assert (Dis : forall x, In x L -> In (vi_key x) done -> In (vi_key x) [bf_key fd] -> rereadable G (vi_w x) (vi_r x) (vi_ty x)) by (apply again_l in Nd; apply again_both; exact Nd).
      pose proof (part_start _ _ _ _ _ _ _ _ P Il' Dis) as Go.
      eapply (wo_bind _ _ (fun '(fs', _, st') => part ex L os st (done ++ [bf_key fd]) fs' st')).
      - destruct (visible ver' fd).
        + destruct (lk (bf_key fd) fs) as [o|] eqn:Eo; [|exact Logic.I].
          eapply wo_bind; [apply (IV ver' (bf_ty fd) o s0 st1 ex (vi_w x) (vi_r x))|].
          * rewrite <- Et. exact Sx.
          * right. rewrite <- Et. apply Go; [exact Hx|left; symmetry; exact Ex|rewrite Ex; exact Eo].
          * apply P.
          * intros [[v s3] st3] [Gv Sv]. cbn. eapply part_step; [exact P| |exact Il'|exact HLs|exact Dis].
            split; [apply aupdate_keys|]. split; [exact Sv|]. split.
            -- intros k Q. apply (alookup_aupdate_other _ fkey_eqb_eq). intros ->. apply Q. left. reflexivity.
            -- intros y o' v' Hy [Ey|[]] Eo' Ev'. assert (y = x) by (eapply same_visit; [exact NL|exact Hy|exact Hx|congruence]). subst y. rewrite <- Ey in Eo', Ev'. rewrite Eo in Eo'.
               rewrite (alookup_aupdate_same _ fkey_eqb_eq) in Ev' by (eapply alookup_some_key; [apply fkey_eqb_eq|exact Eo]). injection Eo' as <-. injection Ev' as <-. rewrite Et. exact Gv.
        + cbn. eapply part_step; [exact P| |exact Il'|exact HLs|exact Dis]. split; [reflexivity|]. split; [apply sound_refl; apply P|]. split; [reflexivity|].
          intros y o' v' Hy Hd Eo' Ev'. rewrite Eo' in Ev'. injection Ev' as <-. apply Go; assumption.
      - intros [[fs1 s1] st2] Q. apply IHf; [intros q Hq; apply Hi; right; exact Hq|exact Q|exact Nd|exact Il]. }
    eapply wo_bind; [apply X; [apply incl_refl|exact P1|exact ND|exact HO]|]. intros [[fs3 s3] st3] P3. exact P3.
  Qed.

  Lemma wo_varint s : whenok (rd_varint s) (fun '(n, _) => (n < 2 ^ 56)%N).
  Proof. destruct (rd_varint s) as [[n r]| | | |] eqn:E; cbn; try exact Logic.I. eapply rd_varint_lt. exact E. Qed.
  Lemma wo_string s : whenok (rd_string s) (fun '(x, _) => (N.of_nat (length x) < 2 ^ 56)%N).
  Proof.
    unfold rd_string. eapply wo_bind; [apply wo_varint|]. intros [n r] Hn. destruct (rd_bytes n r) as [[x r']| | | |] eqn:E; cbn; try exact Logic.I. apply rd_bytes_ok in E. destruct E as [_ ->]. exact Hn.
  Qed.
  Lemma olds_good h ex wv rv t olds : startable h ex wv rv (TSeq t) (VList olds) -> forall o, In o olds -> good G h ex 0 0 t o o.
  Proof.
    intros [O|O] o Ho; [discriminate|]. inversion O; subst. apply In_nth_error in Ho. destruct Ho as [i E]. match goal with Q : forall i x, nth_error _ i = Some x -> _ |- _ => specialize (Q _ _ E); erewrite (nth_error_nth olds i) in Q by exact E; exact Q end.
  Qed.
  Lemma skipn_S {A} i (l : list A) : skipn (Datatypes.S i) l = tl (skipn i l).
  Proof. revert l. induction i as [|i IH]; intros [|x l]; try reflexivity. exact (IH l). Qed.
  Lemma skipn_hd {A} i (l : list A) d : match skipn i l with o :: _ => o | [] => d end = nth i l d.
  Proof. revert l. induction i as [|i IH]; intros [|x l]; try reflexivity. exact (IH l). Qed.

  Lemma RV_step f : (forall f', f = S f' -> RV f') -> RV f -> RC f -> RV (S f).
  Proof.
    intros IV' IV IC ver t old s st ex wv rv Se O I. rewrite read_S.
    assert (Hinit : forall t st ex, settled G V ex 0 0 t -> startable (r_heap st) ex 0 0 t (vinit G t)) by (intros; apply vinit_start; assumption).
    destruct t; cbn [read_body]; cbn [settled] in Se; try contradiction.
    - eapply wo_bind; [apply wo_post, rd_byte_post|]. intros [n r] _. split; [constructor|apply sound_refl; exact I].
    - rewrite Se. eapply wo_bind; [apply wo_post, rd_int_post|]. intros [n r] [Hn _]. split; [constructor; assumption|apply sound_refl; exact I].
    - eapply wo_bind; [apply wo_post, rd_be_post|]. intros [n r] [Hn _]. split; [constructor; exact Hn|apply sound_refl; exact I].
    - eapply wo_bind; [apply wo_post, rd_be_post|]. intros [n r] [Hn _]. split; [constructor; exact Hn|apply sound_refl; exact I].
    - rewrite Se. eapply wo_bind; [apply wo_post, rd_int_post|]. intros [n r] [Hn _]. split; [constructor; assumption|apply sound_refl; exact I].
    - eapply wo_bind; [apply wo_string|]. intros [n r] Hn. split; [constructor; exact Hn|apply sound_refl; exact I].
    - (* sequences *)
      destruct old; try exact Logic.I. pose proof (olds_good _ _ _ _ _ _ O) as Ho.
      eapply wo_bind; [apply wo_varint|]. intros [n r] Hn.
      eapply (wo_bind _ _ (fun '(os, acc, s1, st1) => length acc = N.to_nat n /\ (forall j x, nth_error (rev acc) j = Some x -> good G (r_heap st1) ex 0 0 t (nth j l (vinit G t)) x) /\ sound st st1)).
      2: { intros [[[os acc] s1] st1] (Ln & Hg & Hs). split; [|exact Hs]. constructor; [rewrite rev_length, Ln, N2Nat.id; exact Hn|exact Hg]. }
      eapply wo_imp.
      + apply (wo_loop (fun i '(os, acc, s1, st1) => os = skipn i l /\ length acc = i /\ (forall j x, nth_error (rev acc) j = Some x -> good G (r_heap st1) ex 0 0 t (nth j l (vinit G t)) x) /\ sound st st1)).
        2: { split; [reflexivity|]. split; [reflexivity|]. split; [intros [|j] x E; discriminate E|apply sound_refl; exact I]. }
        intros i [[[os acc] s1] st1] (-> & Ln & Hg & Hs). cbv zeta. rewrite skipn_hd.
        eapply wo_bind; [apply (IV 0%N t _ s1 st1 ex 0%N 0%N Se); [|apply Hs]|].
        * destruct (nth_in_or_default i l (vinit G t)) as [Hi| ->]; [|apply Hinit; exact Se]. right. eapply good_hle; [apply Hs|]. apply Ho. exact Hi.
        * intros [[x s2] st2] [Gx Sx]. split; [symmetry; apply skipn_S|]. split; [cbn; rewrite Ln; reflexivity|]. split; [|eapply sound_trans; eassumption].
          intros j y E. cbn [rev] in E. destruct (Nat.lt_ge_cases j (length (rev acc))) as [Lj|Lj].
          -- rewrite nth_error_app1 in E by exact Lj. eapply good_hle; [apply Sx|]. apply Hg. exact E.
          -- rewrite nth_error_app2 in E by exact Lj. rewrite rev_length, Ln in *. destruct (j - i) as [|m] eqn:Em; [|destruct m; discriminate E]. cbn in E. injection E as <-.
             replace j with i by lia. exact Gx.
      + intros [[[os acc] s1] st1] (_ & Q). exact Q.
    - (* sets *)
      destruct old; try exact Logic.I. destruct O as [O|O]; [discriminate|]. inversion O; subst. destruct Se as (Hex & HK & Se & Sd). clear O.
      eapply wo_bind; [apply wo_varint|]. intros [n r] Hn.
      eapply (wo_bind _ _ (fun '(l, s1, st1) => length l <= N.to_nat n /\ cont_inv G false ord multi t l /\ (forall x, In x l -> good G (r_heap st1) true 0 0 t (dinit G t) x) /\ sound st st1)).
      2: { intros [[l s1] st1] (Ln & Ci & Hg & Hs). split; [|exact Hs]. constructor; try assumption. lia. }
      apply (wo_loop (fun i '(l, s1, st1) => length l <= i /\ cont_inv G false ord multi t l /\ (forall x, In x l -> good G (r_heap st1) true 0 0 t (dinit G t) x) /\ sound st st1)).
      2: { split; [cbn; lia|]. split; [apply cont_nil|]. split; [intros x []|apply sound_refl; exact I]. }
      intros i [[l s1] st1] (Ln & Ci & Hg & Hs). eapply wo_bind; [apply (IV 0%N t _ s1 st1 true 0%N 0%N Se); [|apply Hs]|].
      + destruct Sd as [Sd|Sd]; [left; exact Sd|right]. eapply good_hle; [apply hle_nil|exact Sd].
      + intros [[x s2] st2] [Gx Sx]. cbn. split; [pose proof (emplace_length G false ord multi t x l HP); lia|]. split; [apply emplace_inv; assumption|]. split; [|eapply sound_trans; eassumption].
        intros y Hy. apply (emplace_in _ _ _ _ _ _ _ _ HP) in Hy. destruct Hy as [->|Hy]; [exact Gx|]. eapply good_hle; [apply Sx|]. apply Hg. exact Hy.
    - (* maps *)
      destruct old; try exact Logic.I. destruct O as [O|O]; [discriminate|]. inversion O; subst. destruct Se as (Hex & HK & Se1 & Se2). clear O.
      eapply wo_bind; [apply wo_varint|]. intros [n r] Hn.
      set (item := fun h (x : val) => exists k v, x = VPair k v /\ good G h true 0 0 t1 (vinit G t1) k /\ good G h ex 0 0 t2 (vinit G t2) v).
      eapply (wo_bind _ _ (fun '(l, s1, st1) => length l <= N.to_nat n /\ cont_inv G true ord multi t1 l /\ (forall x, In x l -> item (r_heap st1) x) /\ sound st st1)).
      2: { intros [[l s1] st1] (Ln & Ci & Hg & Hs). split; [|exact Hs]. constructor; try assumption; [lia| | |].
           - intros x Hx. destruct (Hg x Hx) as (k & v & -> & _). eauto.
           - intros k v Hx. destruct (Hg _ Hx) as (k' & v' & E & Q1 & Q2). injection E as -> ->. exact Q1.
           - intros k v Hx. destruct (Hg _ Hx) as (k' & v' & E & Q1 & Q2). injection E as -> ->. exact Q2. }
      apply (wo_loop (fun i '(l, s1, st1) => length l <= i /\ cont_inv G true ord multi t1 l /\ (forall x, In x l -> item (r_heap st1) x) /\ sound st st1)).
      2: { split; [cbn; lia|]. split; [apply cont_nil|]. split; [intros x []|apply sound_refl; exact I]. }
      intros i [[l s1] st1] (Ln & Ci & Hg & Hs). eapply (wo_bind _ _ (fun '(x, _, st2) => item (r_heap st2) x /\ sound st1 st2)).
      + destruct f as [|f']; [exact Logic.I|]. specialize (IV' _ eq_refl). rewrite read_S. cbn [read_body].
        eapply wo_bind; [apply (IV' 0%N t1 _ s1 st1 true 0%N 0%N Se1 (Hinit _ _ _ Se1)); apply Hs|]. intros [[x s2] st2] [Gx Sx].
        eapply wo_bind; [apply (IV' 0%N t2 _ s2 st2 ex 0%N 0%N Se2 (Hinit _ _ _ Se2)); apply Sx|]. intros [[y s3] st3] [Gy Sy].
        split; [|eapply sound_trans; eassumption]. exists x, y. split; [reflexivity|]. split; [eapply good_hle; [apply Sy|exact Gx]|exact Gy].
      + intros [[x s2] st2] [Gx Sx]. cbn. split; [pose proof (emplace_length G true ord multi t1 x l HP); lia|]. split; [apply emplace_inv; assumption|]. split; [|eapply sound_trans; eassumption].
        intros y Hy. apply (emplace_in _ _ _ _ _ _ _ _ HP) in Hy. destruct Hy as [->|Hy]; [exact Gx|].
        destruct (Hg y Hy) as (k & v & -> & Q1 & Q2). exists k, v. split; [reflexivity|]. split; (eapply good_hle; [apply Sx|]); assumption.
    - (* pair *)
      destruct old; try exact Logic.I. destruct O as [O|O]; [discriminate|]. inversion O; subst. destruct Se as [Se1 Se2].
      eapply wo_bind; [eapply (IV 0%N t1 old1 s st ex 0%N 0%N Se1); [right; eassumption|exact I]|]. intros [[x s1] st1] [Gx Sx].
      eapply wo_bind; [eapply (IV 0%N t2 old2 s1 st1 ex 0%N 0%N Se2); [right; eapply good_hle; [apply Sx|eassumption]|apply Sx]|]. intros [[y s2] st2] [Gy Sy].
      split; [|eapply sound_trans; eassumption]. constructor; [eapply good_hle; [apply Sy|exact Gx]|exact Gy].
    - eapply wo_bind; [apply wo_post, rd_byte_post|]. intros [n r] _. destruct (n =? 0)%N; [split; [constructor|apply sound_refl; exact I]|].
      eapply wo_bind; [apply (IV 0%N t _ r st ex 0%N 0%N Se (Hinit _ _ _ Se) I)|]. intros [[x s1] st1] [Gx Sx]. split; [constructor; exact Gx|exact Sx].
    - eapply wo_bind; [apply wo_post, rd_byte_post|]. intros [n r] _. destruct (n =? 0)%N; [split; [constructor|apply sound_refl; exact I]|].
      eapply wo_bind; [apply (IV 0%N t _ r st ex 0%N 0%N Se (Hinit _ _ _ Se) I)|]. intros [[x s1] st1] [Gx Sx]. split; [constructor; exact Gx|exact Sx].
    - (* shared *)
      destruct Se as [-> Se]. eapply wo_bind; [apply wo_post, rd_byte_post|]. intros [mode r] _. destruct (mode =? 0)%N; [split; [constructor|apply sound_refl; exact I]|].
      eapply (wo_bind _ _ (fun _ => True)); [destruct (if negb (N.land mode 4 =? 0)%N then rd_be 8 r else rd_varint r); exact Logic.I|]. intros [id r2] _.
      destruct (N.land mode 3 =? 1)%N.
      + cbv zeta. set (a := g_alloc G (r_heap st)). pose proof (HA (r_heap st)) as Hfresh. fold a in Hfresh.
        set (st1 := {| r_heap := hset (r_heap st) a (t, vinit G t); r_ptr := (id, (a, t)) :: r_ptr st |}).
        assert (X1 : hle (r_heap st) (r_heap st1)) by (apply extends_hle, hle_hset_fresh; exact Hfresh).
        assert (I1 : inv st1).
        { constructor.
          - intros b u x E. cbn [r_heap st1] in E. destruct (N.eq_dec a b) as [<-|Hn].
            + rewrite hget_hset_same in E. inversion E; subst. eapply good_hle; [apply hle_nil|]. apply vinit_good. exact Se.
            + rewrite hget_hset_other in E by exact Hn. eapply good_hle; [exact X1|]. eapply (in_heap _ I). exact E.
          - intros id2 b u E. cbn [r_ptr st1] in E. cbn [alookup] in E. destruct (N.eqb id2 id).
            + inversion E; subst. unfold hty. cbn [r_heap st1]. rewrite hget_hset_same. reflexivity.
            + apply X1. eapply (in_ptr _ I). exact E. }
        eapply wo_bind; [apply (IV 0%N t _ r2 st1 false 0%N 0%N Se (Hinit _ _ _ Se) I1)|]. intros [[x s3] st2] [Gx [I2 H2]].
        assert (Ha : hty (r_heap st2) a = Some t). { apply H2. unfold hty. cbn [r_heap st1]. rewrite hget_hset_same. reflexivity. }
        pose proof (hle_hset_same _ _ _ x Ha) as Hle. cbn. split; [eapply g_shared_some; cbn [r_heap]; apply hget_hset_same|]. split.
        * constructor; cbn [r_heap r_ptr].
          -- intros b u y E. eapply good_hle; [exact Hle|]. destruct (N.eq_dec a b) as [<-|Hn].
             ++ rewrite hget_hset_same in E. inversion E; subst. exact Gx.
             ++ rewrite hget_hset_other in E by exact Hn. eapply (in_heap _ I2). exact E.
          -- intros id2 b u E. apply Hle. eapply (in_ptr _ I2). exact E.
        * cbn [r_heap]. eapply hle_trans; [exact X1|]. eapply hle_trans; [exact H2|exact Hle].
      + destruct (alookup N.eqb id (r_ptr st)) as [[a t']|] eqn:El; [|exact Logic.I]. destruct (ty_eqb t' t) eqn:Et; [|exact Logic.I]. apply ty_eqb_eq in Et. subst t'.
        pose proof (in_ptr _ I _ _ _ El) as Q. unfold hty in Q. destruct (hget (r_heap st) a) as [[t' x]|] eqn:Eg; [|discriminate]. cbn in Q. injection Q as ->.
        split; [eapply g_shared_some; exact Eg|apply sound_refl; exact I].
    - (* variant *)
      eapply wo_bind; [apply wo_post, rd_byte_post|]. intros [i r] _. destruct (nth_error ts (N.to_nat i)) as [t0|] eqn:En; [|exact Logic.I]. destruct Se as (Ne & Ln & Se). pose proof (settled_alt _ _ _ _ Se En) as R0.
      assert (Hm: t0 = TMono \/ t0 <> TMono) by (destruct t0; auto; right; discriminate). destruct Hm as [->|Hm].
      + split; [eapply g_var_mono; eassumption|apply sound_refl; exact I].
      + destruct R0 as [->|R0]; [contradiction|].
        assert (P: whenok (let! (x, s2, st2) := read G f 0 t0 (vinit G t0) r st in ROk (VVar (N.to_nat i) x, s2, st2)) (fun '(v, _, st') => good G (r_heap st') ex wv rv (TVariant ts) old v /\ sound st st')).
        { eapply wo_bind; [apply (IV 0%N t0 _ r st ex 0%N 0%N R0 (Hinit _ _ _ R0) I)|]. intros [[x s1] st1] [Gx Sx]. split; [eapply g_var; eassumption|exact Sx]. }
        destruct t0; try exact P. contradiction.
    - (* struct *)
      destruct old; try exact Logic.I. destruct O as [O|O]; [discriminate|]. destruct (SV _ _ _ _ Se) as (rc & L & K & Hc & HV & NL & HL & HK & NK & IK & _).
      inversion O as [| | | | | | | | | | | | | | | | | | | | ex0 wv0 rv0 c0 rc0 os0 fs0 L0 Hc0 M1 M2 M3 HV0 NL0 Hl0 Hm0 Hn0]; subst. rewrite Hc in Hc0. injection Hc0 as <-.
      rewrite (visits_fun _ _ _ _ _ HV0 _ HV) in *. clear HV0 NL0 L0. inversion HK as [c1 rc1 p Ls Hc1 Hp F E1 E2]; subst c1. rewrite Hc in Hc1. injection Hc1 as <-.
      eapply wo_bind; [apply (IC ver c rc p (rc_layout rc) K fs s st ex L Hc Hp); try assumption|].
      + intros k t E. exact E.
      + intros x Hx. split; [apply Hl0; exact Hx|apply HL; exact Hx].
      + intros x o Hx _ Eo. eapply Hm0; eassumption.
      + intros [[[fs1 v1] s1] st1] (P1 & P2 & P3 & P4). split; [|exact P2]. eapply g_struct; [exact Hc|symmetry; exact P1|congruence|congruence|exact HV|exact NL|exact Hl0| |].
        * intros x o v Hx Eo Ev. destruct (in_dec fkey_eq_dec (vi_key x) K) as [i|i]; [eapply P4; eassumption|].
          rewrite (P3 _ i) in Ev. rewrite Eo in Ev. injection Ev as <-. eapply good_hle; [apply P2|]. eapply Hm0; eassumption.
        * intros k v Hk Ev. assert (i : ~ In k K) by (intros i; apply Hk, IK; exact i). rewrite (P3 _ i) in Ev. apply Hn0; assumption.
    - eapply wo_bind; [apply wo_post, rd_int_post|]. intros [n r] [Hn _]. split; [constructor; exact Hn|apply sound_refl; exact I].
    - eapply wo_bind; [apply wo_post, rd_int_post|]. intros [n r] [Hn _]. split; [constructor; exact Hn|apply sound_refl; exact I].
  Qed.
  Theorem read_settles f : RV f /\ RC f.
  Proof.
    assert (X : (forall f', f = S f' -> RV f') /\ RV f /\ RC f); [|tauto].
    induction f as [|f (I1 & I2 & I3)].
    - split; [discriminate|]. split; [intros ver t old s st ex wv rv Se O I|intros ver c rc p lay K os s st ex L; intros]; exact Logic.I.
    - split; [intros f' E; injection E as <-; exact I2|]. split; [apply RV_step; assumption|apply RC_step; assumption].
  Qed.

  Lemma part_good H : objects_good G H -> forall t v t' w, part_of G H t v t' w -> forall ex wv rv old, settled G V ex wv rv t -> good G H ex wv rv t old v ->
    t' = TMono \/ exists ex' wv' rv' old', good G H ex' wv' rv' t' old' w.
  Proof.
    intros OG. induction 1; intros ex wv rv old Se g.
    - right. eauto 8.
    - inversion g; subst. apply In_nth_error in H0. destruct H0 as [i E]. cbn in Se. eapply IHpart_of; [|eauto]. exact Se.
    - inversion g; subst. eapply IHpart_of; [|eauto]. apply Se.
    - inversion g; subst. eapply IHpart_of; [|eauto]. apply Se.
    - inversion g; subst. eapply IHpart_of; [|eauto]. apply Se.
    - inversion g; subst. eapply IHpart_of; [|eauto]. apply Se.
    - inversion g; subst. eapply IHpart_of; [|eauto]. apply Se.
    - inversion g; subst. eapply IHpart_of; [|eauto]. exact Se.
    - inversion g; subst. eapply IHpart_of; [|eauto]. exact Se.
    - destruct Se as (_ & _ & Se). pose proof (settled_alt _ _ _ _ Se H0) as R0. inversion g; subst.
      + match goal with Q : nth_error ts i = Some TMono |- _ => rewrite Q in H0; injection H0 as <- end. left. inversion H1; subst. reflexivity.
      + match goal with Q : nth_error ts i = Some ?u, N : ?u <> TMono |- _ => rewrite Q in H0; injection H0 as <- end. destruct R0 as [->|R0]; [contradiction|]. eapply IHpart_of; [exact R0|eassumption].
    - cbn in Se. destruct (SV _ _ _ _ Se) as (rc0 & L & K0 & Hc & HV & NL & HL & HK & NK & IK & _). rewrite (rmo_fun _ _ _ H1 _ HK) in H2. apply IK in H2. apply in_map_iff in H2. destruct H2 as (x0 & <- & Hx).
      inversion g as [| | | | | | | | | | | | | | | | | | | | ex0 wv0 rv0 c0 rc1 os0 fs0 L0 Hc0 M1 M2 M3 HV0 NL0 Hl0 Hm0 Hn0]; subst. rewrite (visits_fun _ _ _ _ _ HV0 _ HV) in *. rewrite Hc0 in H0. injection H0 as ->.
      rewrite (Hl0 _ Hx) in H3. injection H3 as <-. destruct (alookup fkey_eqb (vi_key x0) os0) as [o|] eqn:Eo.
      + eapply IHpart_of; [apply HL; exact Hx|eapply Hm0; eassumption].
      + exfalso. assert (Q : In (vi_key x0) (map fst os0)) by (rewrite M1; eapply alookup_some_key; [apply fkey_eqb_eq|exact H4]). apply (alookup_some_in _ fkey_eqb_eq) in Q. destruct Q as [o Q]. congruence.
    - destruct Se as [-> Se]. inversion g; subst. match goal with Q : hget H a = Some (?u, _), Q' : hget H a = Some (?w, _) |- _ => tryif constr_eq u w then fail else (rewrite Q in Q'; injection Q' as Q1 Q2; subst) end. eapply IHpart_of; [exact Se|]. eapply OG. exact H0.
  Qed.
  Lemma cont_proper ismap ord multi kt l : cont_inv G ismap ord multi kt l -> proper_order G ord multi kt (map (keyof ismap) l).
  Proof.
    intros C i j x y Lt Ex Ey. rewrite nth_error_map in Ex, Ey. destruct (nth_error l i) as [a|] eqn:Ea; [|discriminate]. destruct (nth_error l j) as [b|] eqn:Eb; [|discriminate].
    cbn in Ex, Ey. injection Ex as <-. injection Ey as <-. unfold cont_inv in C. destruct ord, multi; try exact Logic.I; (eapply (fop_nth _ _ _ _ _ _ C Lt) in Ea; [|exact Eb]); exact Ea.
  Qed.
End Read.
