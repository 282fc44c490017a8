(** HanaFacts.v -- generated code and Boost.Hana do the same *)
From Coq Require Import List NArith ZArith Bool Lia.
From Verif Require Import Base BaseFacts Bytes Types BinModel FuelFacts JsonModel JsonRel JsonSpec SerJson HanaSpec.
Import ListNotations.

(** ** helpers on initial values *)
Lemma with_own G : with_classes G (g_class G) = G.
Proof. destruct G; reflexivity. Qed.
Section Init.
  Variable G : genv.
  Variable cls : N -> option rtclass.
  Hypothesis HW : with_hana G cls.
  Let G' := with_classes G cls.

  Lemma hana_class c : match g_class G c with
    | None => g_class G' c = None
    | Some rc => exists rc', g_class G' c = Some rc' /\ adapted G c rc rc' end.
  Proof. specialize (HW c). unfold G'; cbn. destruct (g_class G c), (cls c); try contradiction; eauto. Qed.

  Lemma hana_vinit : forall t, vinit G' t = vinit G t.
  Proof.
    fix IH 1. intros [ | k | | | k | | t' | o m t' | o m kt vt | a b | ts | t' | t' | t' | ts | | c | | | | ]; try reflexivity.
    - cbn [vinit]. rewrite !IH. reflexivity.
    - cbn [vinit]. f_equal. induction ts as [|t ts IHts]; [reflexivity|]. cbn [map]. rewrite IH, IHts. reflexivity.
    - cbn [vinit]. destruct ts as [|t ts]; [reflexivity|]. rewrite IH. reflexivity.
    - cbn [vinit]. pose proof (hana_class c) as Hc. destruct (g_class G c) as [rc|]; [|rewrite Hc; reflexivity].
      destruct Hc as (rc' & E & A). rewrite E. rewrite (ad_vinit _ _ _ _ A). reflexivity.
  Qed.
  Lemma hana_dinit t : dinit G' t = dinit G t.
  Proof.
    destruct t; try apply hana_vinit; try reflexivity. cbn [dinit].
    pose proof (hana_class c) as Hc. destruct (g_class G c) as [rc|]; [|rewrite Hc; reflexivity].
    destruct Hc as (rc' & E & A). rewrite E. rewrite (ad_dinit _ _ _ _ A). reflexivity.
  Qed.
End Init.

(** ** depth of a class hierarchy *)
Inductive mem_d (G : genv) (prog : rtclass -> option jprog) : nat -> N -> list jfield -> Prop :=
| mem_d_intro k c rc p Ls :
    g_class G c = Some rc -> prog rc = Some p ->
    Forall2 (mem_d G prog k) (jp_bases p) Ls ->
    mem_d G prog (S k) c (concat Ls ++ jp_fields p).
Inductive unv_d (G : genv) (prog : rtclass -> option bprog) : nat -> N -> list bfield -> Prop :=
| unv_d_intro k c rc p Ls :
    g_class G c = Some rc -> prog rc = Some p -> bp_vmax p = 0%N ->
    (forall fd, In fd (bp_fields p) -> bf_asof fd = 0%N /\ bf_until fd = 0%N) ->
    Forall2 (unv_d G prog k) (bp_bases p) Ls ->
    unv_d G prog (S k) c (concat Ls ++ bp_fields p).

Lemma Forall2_weak {A B} (P Q : A -> B -> Prop) l m : (forall a b, P a b -> Q a b) -> Forall2 P l m -> Forall2 Q l m.
Proof. intros H. induction 1; constructor; auto. Qed.

Lemma mem_d_mono G prog k : forall k' c L, k <= k' -> mem_d G prog k c L -> mem_d G prog k' c L.
Proof.
  induction k as [|k IH]; intros k' c L Le Hm; inversion Hm; subst. destruct k' as [|k']; [lia|].
  econstructor; try eassumption. eapply Forall2_weak; [|eassumption]. intros a b. apply IH. lia.
Qed.
Lemma unv_d_mono G prog k : forall k' c L, k <= k' -> unv_d G prog k c L -> unv_d G prog k' c L.
Proof.
  induction k as [|k IH]; intros k' c L Le Hm; inversion Hm; subst. destruct k' as [|k']; [lia|].
  econstructor; try eassumption. eapply Forall2_weak; [|eassumption]. intros a b. apply IH. lia.
Qed.

Lemma Forall2_depth {A B} (P : nat -> A -> B -> Prop) l m :
  (forall k k' a b, k <= k' -> P k a b -> P k' a b) -> Forall2 (fun a b => exists k, P k a b) l m -> exists k, Forall2 (P k) l m.
Proof.
  intros Mo. induction 1 as [|a b l m (k1 & P1) F (k2 & P2)]; [exists 0; constructor|].
  exists (max k1 k2). constructor; [eapply Mo; [|exact P1]; lia|].
  eapply Forall2_weak; [|exact P2]. intros x y. apply Mo. lia.
Qed.

Lemma members_depth G prog c L : members G prog c L -> exists k, mem_d G prog k c L.
Proof.
  revert c L. fix IH 3. intros c L [c0 rc p Ls E1 E2 F].
  assert (Q: exists k, Forall2 (mem_d G prog k) (jp_bases p) Ls).
  { apply Forall2_depth; [intros; eapply mem_d_mono; eassumption|].
    clear E2. induction F as [|b L0 bs Ls M0 F IHF]; constructor; [apply IH; exact M0|exact IHF]. }
  destruct Q as (k & Q). exists (S k). econstructor; eassumption.
Qed.
Lemma unversioned_depth G prog c L : unversioned G prog c L -> exists k, unv_d G prog k c L.
Proof.
  revert c L. fix IH 3. intros c L [c0 rc p Ls E1 E2 E3 E4 F].
  assert (Q: exists k, Forall2 (unv_d G prog k) (bp_bases p) Ls).
  { apply Forall2_depth; [intros; eapply unv_d_mono; eassumption|].
    clear E2 E3 E4. induction F as [|b L0 bs Ls M0 F IHF]; constructor; [apply IH; exact M0|exact IHF]. }
  destruct Q as (k & Q). exists (S k). econstructor; eassumption.
Qed.

(** a bound for all classes of the program *)
Record bounded (G : genv) (k : nat) (c : N) (rc rc' : rtclass) : Prop := {
  bo_push : rc_push rc' = rc_push rc \/ exists L, mem_d G pushed_by k c L /\ rc_push rc' = hana_json L;
  bo_pull : rc_pull rc' = rc_pull rc \/ exists L, mem_d G rc_pull k c L /\ rc_pull rc' = Some (hana_json L);
  bo_wr : rc_wr rc' = rc_wr rc \/ exists L, unv_d G written_by k c L /\ rc_wr rc' = hana_binary L;
  bo_rd : rc_rd rc' = rc_rd rc \/ exists L, unv_d G rc_rd k c L /\ rc_rd rc' = Some (hana_binary L) }.

Lemma bounded_mono G k k' c rc rc' : k <= k' -> bounded G k c rc rc' -> bounded G k' c rc rc'.
Proof.
  intros Le [A B C D]. constructor.
  - destruct A as [A|(L & A & E)]; [left; exact A|right]. exists L. split; [eapply mem_d_mono; eassumption|exact E].
  - destruct B as [A'|(L & A' & E)]; [left; exact A'|right]. exists L. split; [eapply mem_d_mono; eassumption|exact E].
  - destruct C as [A'|(L & A' & E)]; [left; exact A'|right]. exists L. split; [eapply unv_d_mono; eassumption|exact E].
  - destruct D as [A'|(L & A' & E)]; [left; exact A'|right]. exists L. split; [eapply unv_d_mono; eassumption|exact E].
Qed.
Lemma adapted_bounded G c rc rc' : adapted G c rc rc' -> exists k, bounded G k c rc rc'.
Proof.
  intros A.
  assert (Q1: exists k, forall k', k <= k' -> rc_push rc' = rc_push rc \/ exists L, mem_d G pushed_by k' c L /\ rc_push rc' = hana_json L).
  { destruct (ad_push _ _ _ _ A) as [E|(L & Mb & E)]; [exists 0; left; exact E|]. destruct (members_depth _ _ _ _ Mb) as (k & D).
    exists k. intros k' Lk. right. exists L. split; [eapply mem_d_mono; eassumption|exact E]. }
  assert (Q2: exists k, forall k', k <= k' -> rc_pull rc' = rc_pull rc \/ exists L, mem_d G rc_pull k' c L /\ rc_pull rc' = Some (hana_json L)).
  { destruct (ad_pull _ _ _ _ A) as [E|(L & Mb & E)]; [exists 0; left; exact E|]. destruct (members_depth _ _ _ _ Mb) as (k & D).
    exists k. intros k' Lk. right. exists L. split; [eapply mem_d_mono; eassumption|exact E]. }
  assert (Q3: exists k, forall k', k <= k' -> rc_wr rc' = rc_wr rc \/ exists L, unv_d G written_by k' c L /\ rc_wr rc' = hana_binary L).
  { destruct (ad_wr _ _ _ _ A) as [E|(L & Mb & E)]; [exists 0; left; exact E|]. destruct (unversioned_depth _ _ _ _ Mb) as (k & D).
    exists k. intros k' Lk. right. exists L. split; [eapply unv_d_mono; eassumption|exact E]. }
  assert (Q4: exists k, forall k', k <= k' -> rc_rd rc' = rc_rd rc \/ exists L, unv_d G rc_rd k' c L /\ rc_rd rc' = Some (hana_binary L)).
  { destruct (ad_rd _ _ _ _ A) as [E|(L & Mb & E)]; [exists 0; left; exact E|]. destruct (unversioned_depth _ _ _ _ Mb) as (k & D).
    exists k. intros k' Lk. right. exists L. split; [eapply unv_d_mono; eassumption|exact E]. }
  destruct Q1 as (k1 & Q1), Q2 as (k2 & Q2), Q3 as (k3 & Q3), Q4 as (k4 & Q4).
  exists (k1 + k2 + k3 + k4). constructor; [apply Q1|apply Q2|apply Q3|apply Q4]; lia.
Qed.
Lemma program_bounded G cls : finitely_many_classes G -> with_hana G cls ->
  exists k, forall c rc rc', g_class G c = Some rc -> cls c = Some rc' -> bounded G (S k) c rc rc'.
Proof.
  intros (cs & Hcs) HW.
  destruct (all_max (fun k c => forall rc rc', g_class G c = Some rc -> cls c = Some rc' -> bounded G k c rc rc') cs) as (K & HK).
  - intros c _. specialize (HW c). destruct (g_class G c) as [rc|]; [|exists 0; discriminate].
    destruct (cls c) as [rc'|]; [|contradiction]. destruct (adapted_bounded _ _ _ _ HW) as (k & Bk).
    exists k. intros f Lf r r' [= <-] [= <-]. eapply bounded_mono; eassumption.
  - exists K. intros c rc rc' E E'. apply (bounded_mono G K); [lia|]. apply (HK K (le_n _) c); [|assumption|assumption].
    apply Hcs. congruence.
Qed.

(* ------------------------------------------------------------------ *)
(** ** push *)
Section Push.
  Variable G : genv.
  Variable cls : N -> option rtclass.
  Variable J : jenv.
  Variable H : heap.
  Hypothesis HW : with_hana G cls.
  Let G' := with_classes G cls.

  Definition pstep (p : ty -> val -> res json) (fs : list (fkey * val)) (fd : jfield) (ms : list (bytes * json)) :=
    match alookup fkey_eqb (jf_key fd) fs with
    | Some v => let! j := p (jf_ty fd) v in ROk (ms ++ [(jf_name fd, j)])
    | None => RStuck
    end.
  Lemma push_fold_app {A} (s : A -> list (bytes * json) -> res (list (bytes * json))) l l' ms :
    push_fold s (l ++ l') ms = rbind (push_fold s l ms) (push_fold s l').
  Proof.
    revert ms. induction l as [|x l IH]; intros ms; cbn [push_fold app]; [reflexivity|].
    destruct (s x ms); cbn [rbind]; try reflexivity. apply IH.
  Qed.
  Lemma pstep_le p p' fs : (forall t v, le_r (p t v) (p' t v)) -> forall fd ms, le_r (pstep p fs fd ms) (pstep p' fs fd ms).
  Proof. intros Hp fd ms. unfold pstep. destruct (alookup _ _ _); [|apply le_r_refl]. apply le_r_bind; [apply Hp|intros; apply le_r_refl]. Qed.
  Lemma le_r_trans {A} (a b c : res A) : le_r a b -> le_r b c -> le_r a c.
  Proof. intros [E|E] [F|F]; subst; unfold le_r; auto. Qed.
  Lemma push_le f f' : f <= f' -> forall t v, le_r (push G J H f t v) (push G J H f' t v).
  Proof. intros L. apply (push_mono G J H f f' L). Qed.

  (** a class hierarchy adds the flattened list of members *)
  Lemma flat_push p' f : (forall t v, le_r (push G J H f t v) (p' t v)) ->
    forall k c L fs ms, k <= S f -> members G pushed_by c L ->
    le_r (push_cls G J H k c fs ms) (push_fold (pstep p' fs) L ms).
  Proof.
    intros Hp. induction k as [|k IH]; intros c L fs ms Lk Mb; [left; reflexivity|].
    inversion Mb as [c0 rc q Ls Ec Eq F]; subst. unfold pushed_by in Eq. inversion Eq; subst q.
    rewrite push_cls_S. unfold push_cls_body. rewrite Ec. rewrite push_fold_app.
    apply le_r_bind.
    - clear Ec Eq Mb. revert ms. induction F as [|b L0 bs Ls M0 F IHF]; intros ms; [apply le_r_refl|].
      cbn [concat push_fold]. rewrite push_fold_app. apply le_r_bind; [apply IH; [lia|exact M0]|]. intros ms1. apply IHF.
    - intros ms1. apply le_push_fold. intros fd ms2. apply (pstep_le (push G J H k) p' fs).
      intros t v. eapply le_r_trans; [apply (push_le k f); lia|apply Hp].
  Qed.
  Lemma deep_push p f : (forall t v, le_r (p t v) (push G J H f t v)) ->
    forall k c L fs ms, mem_d G pushed_by k c L ->
    le_r (push_fold (pstep p fs) L ms) (push_cls G J H (k + f) c fs ms).
  Proof.
    intros Hp. induction k as [|k IH]; intros c L fs ms Mb; inversion Mb as [k0 c0 rc q Ls Ec Eq F]; subst.
    unfold pushed_by in Eq. inversion Eq; subst q. cbn [Nat.add].
    rewrite push_cls_S. unfold push_cls_body. rewrite Ec. rewrite push_fold_app.
    apply le_r_bind.
    - clear Ec Eq Mb. revert ms. induction F as [|b L0 bs Ls M0 F IHF]; intros ms; [apply le_r_refl|].
      cbn [concat push_fold]. rewrite push_fold_app. apply le_r_bind; [apply IH; exact M0|]. intros ms1. apply IHF.
    - intros ms1. apply le_push_fold. intros fd ms2. apply (pstep_le p (push G J H (k + f)) fs).
      intros t v. eapply le_r_trans; [apply Hp|apply (push_le f (k + f)); lia].
  Qed.

  Lemma push_hana f : (forall t v, le_r (push G J H f t v) (push G' J H f t v))
    /\ (forall c fs ms, le_r (push_cls G J H f c fs ms) (push_cls G' J H f c fs ms)).
  Proof.
    induction f as [|f [IH1 IH2]]; [split; intros; left; reflexivity|]. split.
    - intros t v. rewrite !push_S. apply (proj1 (push_body_le G J H _ _ _ _ IH1 IH2)).
    - intros c fs ms. pose proof (hana_class G cls HW c) as Hc. destruct (g_class G c) as [rc|] eqn:Ec.
      + destruct Hc as (rc' & Ec' & A). destruct (ad_push _ _ _ _ A) as [E|(L & Mb & E)].
        * rewrite !push_cls_S. unfold push_cls_body at 2. fold G' in Ec'. rewrite Ec', E.
          pose proof (proj2 (push_body_le G J H _ _ _ _ IH1 IH2) c fs ms) as Q. unfold push_cls_body in Q at 2. rewrite Ec in Q. exact Q.
        * rewrite (push_cls_S G'). unfold push_cls_body. fold G' in Ec'. rewrite Ec', E. cbn [jp_bases jp_fields hana_json push_fold rbind].
          apply (flat_push _ f IH1 (S f) c L); [lia|exact Mb].
      + rewrite !push_cls_S. unfold push_cls_body. fold G' in Hc. rewrite Ec, Hc. apply le_r_refl.
  Qed.

  Lemma push_hana_back K : (forall c rc rc', g_class G c = Some rc -> cls c = Some rc' -> bounded G (S K) c rc rc') ->
    forall f, (forall t v, le_r (push G' J H f t v) (push G J H (S K * f) t v))
    /\ (forall c fs ms, le_r (push_cls G' J H f c fs ms) (push_cls G J H (S K * f) c fs ms)).
  Proof.
    intros HK. induction f as [|f [IH1 IH2]]; [split; intros; left; reflexivity|].
    replace (S K * S f) with (S (K + S K * f)) by nia. set (F := S K * f) in *.
    assert (IH1': forall t v, le_r (push G' J H f t v) (push G J H (K + F) t v)).
    { intros t v. eapply le_r_trans; [apply IH1|apply push_le; lia]. }
    assert (IH2': forall c fs ms, le_r (push_cls G' J H f c fs ms) (push_cls G J H (K + F) c fs ms)).
    { intros c fs ms. eapply le_r_trans; [apply IH2|]. apply (push_mono G J H F (K + F)). lia. }
    split.
    - intros t v. rewrite !push_S. apply (proj1 (push_body_le G J H _ _ _ _ IH1' IH2')).
    - intros c fs ms. pose proof (hana_class G cls HW c) as Hc. destruct (g_class G c) as [rc|] eqn:Ec.
      + destruct Hc as (rc' & Ec' & A). destruct (bo_push _ _ _ _ _ (HK c rc rc' Ec Ec')) as [E|(L & Mb & E)].
        * rewrite !push_cls_S. unfold push_cls_body at 1. fold G' in Ec'. rewrite Ec', E.
          pose proof (proj2 (push_body_le G J H _ _ _ _ IH1' IH2') c fs ms) as Q. unfold push_cls_body in Q at 1. rewrite Ec in Q. exact Q.
        * rewrite (push_cls_S G'). unfold push_cls_body at 1. fold G' in Ec'. rewrite Ec', E. cbn [jp_bases jp_fields hana_json push_fold rbind].
          apply (deep_push _ F IH1 (S K) c L). exact Mb.
      + rewrite !push_cls_S. unfold push_cls_body. fold G' in Hc. rewrite Ec, Hc. apply le_r_refl.
  Qed.
End Push.

(* ------------------------------------------------------------------ *)
(** ** pull *)

(** the same up to the record names, unless the first runs out of fuel *)
Definition sim {A} (m m' : M A) : Prop := forall st st', same_pst st st' -> m st = PFuel \/ same_out (m st) (m' st').

Lemma same_error_refl x : same_error x x. Proof. repeat split. Qed.
Lemma same_pst_refl st : same_pst st st.
Proof.
  split; [reflexivity|]. destruct (p_err st) as [e|]; [|exact I]. cbn. repeat split.
  induction (es_errs e); constructor; [apply same_error_refl|assumption].
Qed.
Lemma same_error_trans x y z : same_error x y -> same_error y z -> same_error x z.
Proof. unfold same_error. intuition congruence. Qed.
Lemma Forall2_tr {A} (P : A -> A -> Prop) l m : (forall x y z, P x y -> P y z -> P x z) -> Forall2 P l m -> forall n, Forall2 P m n -> Forall2 P l n.
Proof. intros T. induction 1; intros n Hn; inversion Hn; subst; constructor; eauto. Qed.

Lemma sim_ret A (a : A) : sim (ret a) (ret a).
Proof. intros st st' E. right. split; [reflexivity|exact E]. Qed.
Lemma sim_bind A B (m m' : M A) (k k' : A -> M B) : sim m m' -> (forall a, sim (k a) (k' a)) -> sim (bind m k) (bind m' k').
Proof.
  intros Hm Hk st st' E. unfold bind. destruct (Hm st st' E) as [F|F]; [rewrite F; left; reflexivity|].
  destruct (m st) as [a s|e s| | |], (m' st') as [b s'|e' s'| | |]; try contradiction; try (right; exact I); try (right; exact F).
  destruct F as [-> F]. apply Hk, F.
Qed.
Lemma sim_ub A : sim (@ub A) ub. Proof. right. exact I. Qed.
Lemma sim_stuck A : sim (@stuck A) stuck. Proof. right. exact I. Qed.
Lemma sim_emplace k e a st st' x y : p_err st = Some x -> p_err st' = Some y -> same_pst st st' ->
  same_out (emplace_error x k e a (p_heap st)) (emplace_error y k e a (p_heap st')).
Proof.
  intros Ex Ey [Eh Ee]. rewrite Ex, Ey in Ee. cbn in Ee. destruct Ee as (F & E1 & E2 & E3). unfold emplace_error. rewrite E3.
  assert (X: same_error {| e_kind := k; e_expected := e; e_actual := a; e_record := es_record x; e_member := es_member x; e_index := es_index x |}
                        {| e_kind := k; e_expected := e; e_actual := a; e_record := es_record y; e_member := es_member y; e_index := es_index y |}).
  { repeat split; assumption. }
  assert (Y: same_pst {| p_heap := p_heap st; p_err := Some (add_err x {| e_kind := k; e_expected := e; e_actual := a; e_record := es_record x; e_member := es_member x; e_index := es_index x |}) |}
                      {| p_heap := p_heap st'; p_err := Some (add_err y {| e_kind := k; e_expected := e; e_actual := a; e_record := es_record y; e_member := es_member y; e_index := es_index y |}) |}).
  { split; [exact Eh|]. cbn. repeat split; try assumption. apply Forall2_app; [exact F|constructor; [exact X|constructor]]. }
  destruct (_ =? _)%N; [split; [reflexivity|exact Y]|split; [exact X|exact Y]].
Qed.
Lemma sim_report k e a : sim (report k e a) (report k e a).
Proof.
  intros st st' E. right. unfold report. destruct (p_err st) as [x|] eqn:Ex, (p_err st') as [y|] eqn:Ey;
    try (destruct E as [_ E]; rewrite Ex, Ey in E; contradiction).
  - apply sim_emplace; assumption.
  - split; [reflexivity|exact E].
Qed.
Lemma sim_unchecked k e a : sim (report_unchecked k e a) (report_unchecked k e a).
Proof.
  intros st st' E. right. unfold report_unchecked. destruct (p_err st) as [x|] eqn:Ex, (p_err st') as [y|] eqn:Ey;
    try (destruct E as [_ E]; rewrite Ex, Ey in E; contradiction).
  - apply sim_emplace; assumption.
  - exact I.
Qed.
Lemma sim_index i : sim (set_index i) (set_index i).
Proof.
  intros st st' [Eh Ee]. right. split; [reflexivity|]. split; [exact Eh|]. cbn.
  destruct (p_err st), (p_err st'); cbn in *; try contradiction; [|exact I]. intuition.
Qed.
Lemma sim_items A (s s' : A -> json -> M A) js i a : (forall a j, sim (s a j) (s' a j)) -> sim (pull_items s i js a) (pull_items s' i js a).
Proof. apply (items_from_index (fun A => @sim A)); [exact sim_ret|exact sim_bind|exact sim_index]. Qed.
Lemma same_put_member n n' st st' : same_pst st st' -> n = n' -> same_pst (put_member n st) (put_member n' st').
Proof.
  intros [Eh Ee] <-. split; [exact Eh|]. cbn. destruct (p_err st), (p_err st'); cbn in *; try contradiction; [|exact I]. intuition.
Qed.
Lemma same_put_record n n' st st' : same_pst st st' -> same_pst (put_record n st) (put_record n' st').
Proof.
  intros [Eh Ee]. split; [exact Eh|]. cbn. destruct (p_err st), (p_err st'); cbn in *; try contradiction; [|exact I]. intuition.
Qed.
Lemma sim_member A n (m m' : M A) : sim m m' -> sim (in_member n m) (in_member n m').
Proof.
  intros Hm st st' E. unfold in_member. destruct (Hm _ _ (same_put_member (Some n) (Some n) st st' E eq_refl)) as [F|F]; [rewrite F; left; reflexivity|].
  right. destruct (m _) as [a s|e s| | |], (m' _) as [b s'|e' s'| | |]; try contradiction; try exact F.
  destruct F as [-> F]. split; [reflexivity|]. apply same_put_member; [exact F|].
  destruct E as [_ E]. destruct (p_err st), (p_err st'); cbn in E; try contradiction; [|reflexivity]. intuition.
Qed.
Lemma sim_record_l A n (m m' : M A) : sim m m' -> sim (in_record n m) m'.
Proof.
  intros Hm st st' E. unfold in_record.
  assert (E': same_pst (put_record (Some n) st) st').
  { destruct E as [Eh Ee]. split; [exact Eh|]. cbn. destruct (p_err st), (p_err st'); cbn in *; try contradiction; [|exact I]. intuition. }
  destruct (Hm _ _ E') as [F|F]; [rewrite F; left; reflexivity|]. right.
  destruct (m _) as [a s|e s| | |], (m' _) as [b s'|e' s'| | |]; try contradiction; try exact F.
  destruct F as [-> [Fh Fe]]. split; [reflexivity|]. split; [exact Fh|]. cbn.
  destruct (p_err s), (p_err s'); cbn in *; try contradiction; [|exact I]. intuition.
Qed.
Lemma sim_record_r A n (m m' : M A) : sim m m' -> sim m (in_record n m').
Proof.
  intros Hm st st' E. unfold in_record.
  assert (E': same_pst st (put_record (Some n) st')).
  { destruct E as [Eh Ee]. split; [exact Eh|]. cbn. destruct (p_err st), (p_err st'); cbn in *; try contradiction; [|exact I]. intuition. }
  destruct (Hm _ _ E') as [F|F]; [left; exact F|]. right.
  destruct (m _) as [a s|e s| | |], (m' _) as [b s'|e' s'| | |]; try contradiction; try exact F.
  destruct F as [-> [Fh Fe]]. split; [reflexivity|]. split; [exact Fh|]. cbn.
  destruct (p_err s), (p_err s'); cbn in *; try contradiction; [|exact I]. intuition.
Qed.
Lemma sim_record A n (m m' : M A) : sim m m' -> sim (in_record n m) (in_record n m').
Proof. intros Hm. apply sim_record_l, sim_record_r, Hm. Qed.

Section PullRel.
  Variable G : genv.
  Variables c1 c2 : N -> option rtclass.
  Let G1 := with_classes G c1.
  Let G2 := with_classes G c2.
  Variable J : jenv.
  Hypothesis HV : forall t, vinit G1 t = vinit G2 t.
  Hypothesis HD : forall t, dinit G1 t = dinit G2 t.

  Lemma sim_new t (m m' : M val) : sim m m' -> sim (in_new G1 t m) (in_new G2 t m').
  Proof.
    intros Hm st st' [Eh Ee]. unfold in_new. rewrite HV, Eh.
    assert (E': same_pst {| p_heap := hset (p_heap st') (g_alloc G1 (p_heap st')) (t, vinit G2 t); p_err := p_err st |}
                         {| p_heap := hset (p_heap st') (g_alloc G2 (p_heap st')) (t, vinit G2 t); p_err := p_err st' |}) by (split; [reflexivity|exact Ee]).
    destruct (Hm _ _ E') as [F|F]; [rewrite F; left; reflexivity|]. right.
    destruct (m _) as [a s|e s| | |], (m' _) as [b s'|e' s'| | |]; try contradiction; try exact F.
    destruct F as [-> [Fh Fe]]. split; [reflexivity|]. split; [cbn; rewrite Fh; reflexivity|exact Fe].
  Qed.
  Lemma sim_fold {A B} (s s' : A -> B -> M A) l :
    (forall a b, sim (s a b) (s' a b)) -> forall a, sim (fold_m s l a) (fold_m s' l a).
  Proof.
    intros H. induction l as [|x l IH]; intros a; cbn [fold_m]; [apply sim_ret|]. apply sim_bind; [apply H|intros a'; apply IH].
  Qed.
  Lemma sim_tuple (p p' : ty -> val -> json -> M val) :
    (forall t o j, sim (p t o j) (p' t o j)) -> forall ts os js, sim (pull_tuple p ts os js) (pull_tuple p' ts os js).
  Proof.
    intros H. induction ts as [|t ts IH]; intros [|o os] js; cbn [pull_tuple]; try apply sim_stuck; [apply sim_ret|].
    destruct js; [apply sim_ub|]. apply sim_bind; [apply H|intros x]. apply sim_bind; [apply IH|intros xs; apply sim_ret].
  Qed.

  Lemma HP ord kt k v l : map_put G1 ord kt k v l = map_put G2 ord kt k v l.
  Proof. induction l as [|y l IH]; [reflexivity|]. cbn [map_put]. rewrite IH. reflexivity. Qed.
  Lemma HF ord kt k l : map_find G1 ord kt k l = map_find G2 ord kt k l.
  Proof. induction l as [|y l IH]; [reflexivity|]. cbn [map_find]. rewrite IH. reflexivity. Qed.

  Ltac rl := repeat first
    [ apply sim_ret | apply sim_ub | apply sim_stuck | apply sim_report | apply sim_unchecked
    | match goal with |- sim (bind _ _) (bind _ _) => apply sim_bind; [|intro] end
    | match goal with |- sim (pull_items _ _ _ _) (pull_items _ _ _ _) => apply sim_items; intros end
    | match goal with |- sim (fold_m _ _ _) (fold_m _ _ _) => apply sim_fold; intros end
    | match goal with |- sim (pull_tuple _ _ _ _) (pull_tuple _ _ _ _) => apply sim_tuple; intros end
    | match goal with |- sim (in_member _ _) (in_member _ _) => apply sim_member end
    | match goal with |- sim (in_record _ _) (in_record _ _) => apply sim_record end
    | match goal with |- sim (in_new _ _ _) (in_new _ _ _) => apply sim_new end
    | match goal with H : forall _, _ |- _ => solve [apply H] end
    | progress (unfold mismatch, get_int, cast_double, pull_member; cbv zeta)
    | progress rewrite ?HV, ?HD, ?HP, ?HF
    | match goal with |- sim (match ?x with _ => _ end) _ => destruct x eqn:? end
    | match goal with |- sim ((fun _ => _) _) _ => cbv beta end ].

  Lemma pull_body_sim p p' pc pc' :
    (forall t o j, sim (p t o j) (p' t o j)) -> (forall c os ms, sim (pc c os ms) (pc' c os ms)) ->
    forall t o j, sim (pull_body G1 J p pc t o j) (pull_body G2 J p' pc' t o j).
  Proof.
    intros Hp Hc t o j. unfold pull_body.
    change (emplace G2) with (emplace G1).
    destruct t; rl.
  Qed.
  Lemma fromJson_sim f f' : (forall t o j, sim (pull G1 J f t o j) (pull G2 J f' t o j)) ->
    forall t j, sim (fromJson G1 J f t j) (fromJson G2 J f' t j).
  Proof. intros Hp t j. unfold fromJson. destruct t; rl. Qed.

  Definition plstep (p : ty -> val -> json -> M val) ms (os : list (fkey * val)) fd := pull_member p ms fd os.
  Lemma plstep_sim p p' ms : (forall t o j, sim (p t o j) (p' t o j)) -> forall os fd, sim (plstep p ms os fd) (plstep p' ms os fd).
  Proof. intros Hp os fd. unfold plstep. rl. Qed.
End PullRel.

Lemma fold_m_app {A B} (s : A -> B -> M A) l l' a st : fold_m s (l ++ l') a st = bind (fold_m s l a) (fold_m s l') st.
Proof.
  revert a st. induction l as [|x l IH]; intros a st; [reflexivity|]. cbn [fold_m app]. unfold bind in *.
  destruct (s a x st); try reflexivity. apply IH.
Qed.
Lemma sim_ext_r {A} (m m' m'' : M A) : (forall st, m' st = m'' st) -> sim m m' -> sim m m''.
Proof. intros E Hm st st' S. rewrite <- E. apply Hm, S. Qed.
Lemma sim_ext_l {A} (m m' m'' : M A) : (forall st, m st = m'' st) -> sim m m' -> sim m'' m'.
Proof. intros E Hm st st' S. rewrite <- E. apply Hm, S. Qed.
Lemma sim_le_r {A} (m m' m'' : M A) : sim m m' -> le_out m' m'' -> sim m m''.
Proof.
  intros Hm Hl st st' S. destruct (Hm st st' S) as [F|F]; [left; exact F|].
  destruct (Hl st') as [E|E]; [|right; rewrite E; exact F]. rewrite E in F. left. destruct (m st); try contradiction; reflexivity.
Qed.
Lemma sim_le_l {A} (m m' m'' : M A) : le_out m m' -> sim m' m'' -> sim m m''.
Proof.
  intros Hl Hm st st' S. destruct (Hl st) as [E|E]; [left; exact E|]. rewrite <- E. apply Hm, S.
Qed.
Lemma le_out_sim {A} (m m' : M A) : sim m m -> le_out m m' -> sim m m'.
Proof. intros H L. eapply sim_le_r; eassumption. Qed.

Section Pull.
  Variable G : genv.
  Variable cls : N -> option rtclass.
  Variable J : jenv.
  Hypothesis HW : with_hana G cls.
  Let G' := with_classes G cls.


  Lemma body_fwd p p' pc pc' :
    (forall t o j, sim (p t o j) (p' t o j)) -> (forall c os ms, sim (pc c os ms) (pc' c os ms)) ->
    forall t o j, sim (pull_body G J p pc t o j) (pull_body G' J p' pc' t o j).
  Proof.
    intros Hp Hc t o j. rewrite <- (with_own G) at 1.
    apply pull_body_sim; try assumption; intros; rewrite with_own; symmetry; [apply (hana_vinit G cls)|apply (hana_dinit G cls)]; exact HW.
  Qed.
  Lemma body_bwd p p' pc pc' :
    (forall t o j, sim (p t o j) (p' t o j)) -> (forall c os ms, sim (pc c os ms) (pc' c os ms)) ->
    forall t o j, sim (pull_body G' J p pc t o j) (pull_body G J p' pc' t o j).
  Proof.
    intros Hp Hc t o j. rewrite <- (with_own G).
    apply pull_body_sim; try assumption; intros; rewrite with_own; [apply (hana_vinit G cls)|apply (hana_dinit G cls)]; exact HW.
  Qed.

  Lemma flat_pull p' f : (forall t o j, sim (pull G J f t o j) (p' t o j)) ->
    forall k c L os ms, k <= S f -> members G rc_pull c L ->
    sim (pull_cls G J k c os ms) (fold_m (plstep p' ms) L os).
  Proof.
    intros Hp. induction k as [|k IH]; intros c L os ms Lk Mb; [intros st st' _; left; reflexivity|].
    inversion Mb as [c0 rc q Ls Ec Eq F]; subst.
    rewrite pull_cls_S. unfold pull_cls_body. rewrite Ec, Eq. eapply sim_ext_r; [intros st; symmetry; apply fold_m_app|].
    apply sim_bind.
    - clear Ec Eq Mb. revert os. induction F as [|b L0 bs Ls M0 F IHF]; intros os; [apply sim_ret|].
      cbn [concat fold_m]. eapply sim_ext_r; [intros st; symmetry; apply fold_m_app|]. apply sim_bind; [apply IH; [lia|exact M0]|]. intros os1. apply IHF.
    - intros os1.
      assert (Q: sim (fold_m (plstep (pull G J k) ms) (jp_fields q) os1) (fold_m (plstep p' ms) (jp_fields q) os1)).
      { apply sim_fold. intros os2 fd. apply plstep_sim.
        intros t o j. eapply sim_le_l; [apply (pull_mono G J k f); lia|apply Hp]. }
      destruct (jp_record q); [apply sim_record_l|]; exact Q.
  Qed.
  Lemma deep_pull p f : (forall t o j, sim (p t o j) (pull G J f t o j)) ->
    forall k c L os ms, mem_d G rc_pull k c L ->
    sim (fold_m (plstep p ms) L os) (pull_cls G J (k + f) c os ms).
  Proof.
    intros Hp. induction k as [|k IH]; intros c L os ms Mb; inversion Mb as [k0 c0 rc q Ls Ec Eq F]; subst. cbn [Nat.add].
    rewrite pull_cls_S. unfold pull_cls_body. rewrite Ec, Eq. eapply sim_ext_l; [intros st; symmetry; apply fold_m_app|].
    apply sim_bind.
    - clear Ec Eq Mb. revert os. induction F as [|b L0 bs Ls M0 F IHF]; intros os; [apply sim_ret|].
      cbn [concat fold_m]. eapply sim_ext_l; [intros st; symmetry; apply fold_m_app|]. apply sim_bind; [apply IH; exact M0|]. intros os1. apply IHF.
    - intros os1.
      assert (Q: sim (fold_m (plstep p ms) (jp_fields q) os1) (fold_m (plstep (pull G J (k + f)) ms) (jp_fields q) os1)).
      { apply sim_fold. intros os2 fd. apply plstep_sim.
        intros t o j. eapply sim_le_r; [apply Hp|apply (pull_mono G J f (k + f)); lia]. }
      destruct (jp_record q); [apply sim_record_r|]; exact Q.
  Qed.

  Lemma cls_sim p p' pc pc' q (os : list (fkey * val)) ms :
    (forall t o j, sim (p t o j) (p' t o j)) -> (forall c os ms, sim (pc c os ms) (pc' c os ms)) ->
    sim (let? os1 := fold_m (fun os b => pc b os ms) (jp_bases q) os in
         match jp_record q with Some n => in_record n (fold_m (fun os fd => pull_member p ms fd os) (jp_fields q) os1)
         | None => fold_m (fun os fd => pull_member p ms fd os) (jp_fields q) os1 end)
        (let? os1 := fold_m (fun os b => pc' b os ms) (jp_bases q) os in
         match jp_record q with Some n => in_record n (fold_m (fun os fd => pull_member p' ms fd os) (jp_fields q) os1)
         | None => fold_m (fun os fd => pull_member p' ms fd os) (jp_fields q) os1 end).
  Proof.
    intros Hp Hc. apply sim_bind; [apply sim_fold; intros; apply Hc|]. intros os1.
    assert (Q: sim (fold_m (fun os fd => pull_member p ms fd os) (jp_fields q) os1) (fold_m (fun os fd => pull_member p' ms fd os) (jp_fields q) os1)).
    { apply sim_fold. intros os2 fd. apply (plstep_sim p p' ms Hp). }
    destruct (jp_record q); [apply sim_record|]; exact Q.
  Qed.

  Lemma pull_hana f : (forall t o j, sim (pull G J f t o j) (pull G' J f t o j))
    /\ (forall c os ms, sim (pull_cls G J f c os ms) (pull_cls G' J f c os ms)).
  Proof.
    induction f as [|f [IH1 IH2]]; [split; intros; intros st st' _; left; reflexivity|]. split.
    - intros t o j. rewrite !pull_S. apply body_fwd; assumption.
    - intros c os ms. pose proof (hana_class G cls HW c) as Hc. destruct (g_class G c) as [rc|] eqn:Ec.
      + destruct Hc as (rc' & Ec' & A). fold G' in Ec'. destruct (ad_pull _ _ _ _ A) as [E|(L & Mb & E)].
        * rewrite !pull_cls_S. unfold pull_cls_body. rewrite Ec, Ec', E. destruct (rc_pull rc) as [q|]; [|apply sim_stuck].
          cbv zeta. apply cls_sim; assumption.
        * rewrite (pull_cls_S G'). unfold pull_cls_body. rewrite Ec', E. cbn [jp_bases jp_fields jp_record hana_json fold_m].
          eapply sim_ext_r; [intros st; reflexivity|]. apply (flat_pull _ f IH1 (S f) c L); [lia|exact Mb].
      + rewrite !pull_cls_S. unfold pull_cls_body. fold G' in Hc. rewrite Ec, Hc. apply sim_stuck.
  Qed.

  Lemma pull_hana_back K : (forall c rc rc', g_class G c = Some rc -> cls c = Some rc' -> bounded G (S K) c rc rc') ->
    forall f, (forall t o j, sim (pull G' J f t o j) (pull G J (S K * f) t o j))
    /\ (forall c os ms, sim (pull_cls G' J f c os ms) (pull_cls G J (S K * f) c os ms)).
  Proof.
    intros HK. induction f as [|f [IH1 IH2]]; [split; intros; intros st st' _; left; reflexivity|].
    replace (S K * S f) with (S (K + S K * f)) by nia. set (F := S K * f) in *.
    assert (IH1': forall t o j, sim (pull G' J f t o j) (pull G J (K + F) t o j)).
    { intros t o j. eapply sim_le_r; [apply IH1|apply (pull_mono G J F (K + F)); lia]. }
    assert (IH2': forall c os ms, sim (pull_cls G' J f c os ms) (pull_cls G J (K + F) c os ms)).
    { intros c os ms. eapply sim_le_r; [apply IH2|apply (pull_mono G J F (K + F)); lia]. }
    split.
    - intros t o j. rewrite !pull_S. apply body_bwd; assumption.
    - intros c os ms. pose proof (hana_class G cls HW c) as Hc. destruct (g_class G c) as [rc|] eqn:Ec.
      + destruct Hc as (rc' & Ec' & A). destruct (bo_pull _ _ _ _ _ (HK c rc rc' Ec Ec')) as [E|(L & Mb & E)]; fold G' in Ec'.
        * rewrite !pull_cls_S. unfold pull_cls_body. rewrite Ec, Ec', E. destruct (rc_pull rc) as [q|]; [|apply sim_stuck].
          cbv zeta. apply cls_sim; assumption.
        * rewrite (pull_cls_S G'). unfold pull_cls_body. rewrite Ec', E. cbn [jp_bases jp_fields jp_record hana_json fold_m].
          eapply sim_ext_l; [intros st; reflexivity|]. apply (deep_pull _ F IH1 (S K) c L). exact Mb.
      + rewrite !pull_cls_S. unfold pull_cls_body. fold G' in Hc. rewrite Ec, Hc. apply sim_stuck.
  Qed.
End Pull.

(* ------------------------------------------------------------------ *)
(** ** write *)
Lemma unconditional ver fd : bf_asof fd = 0%N /\ bf_until fd = 0%N -> visible ver fd = true.
Proof. intros [E1 E2]. unfold visible. rewrite E1, E2. reflexivity. Qed.

Section Write.
  Variable G : genv.
  Variable cls : N -> option rtclass.
  Variable H : heap.
  Hypothesis HW : with_hana G cls.
  Let G' := with_classes G cls.

  Definition wstep (w : N -> ty -> val -> list N -> res (bytes * list N)) (ver : N) (fs : list (fkey * val)) (fd : bfield) (W : list N) :=
    if visible ver fd then
      match alookup fkey_eqb (bf_key fd) fs with Some v => w ver (bf_ty fd) v W | None => RStuck end
    else ROk ([], W).
  Lemma wstep_le w w' ver fs : (forall ver t v W, le_res (w ver t v W) (w' ver t v W)) ->
    forall fd W, le_res (wstep w ver fs fd W) (wstep w' ver fs fd W).
  Proof. intros Hp fd W. unfold wstep. destruct (visible _ _); [|apply le_res_refl]. destruct (alookup _ _ _); [apply Hp|apply le_res_refl]. Qed.
  Lemma wr_iter_app {A} (s : A -> list N -> res (bytes * list N)) l l' W :
    wr_iter s (l ++ l') W = (let! (b1, W1) := wr_iter s l W in let! (b2, W2) := wr_iter s l' W1 in ROk (b1 ++ b2, W2)).
  Proof.
    revert W. induction l as [|x l IH]; intros W; cbn [wr_iter app].
    - cbn [rbind]. destruct (wr_iter s l' W) as [[b W2]| | | |]; reflexivity.
    - destruct (s x W) as [[b W1]| | | |]; cbn [rbind]; try reflexivity. rewrite IH.
      destruct (wr_iter s l W1) as [[b1 W2]| | | |]; cbn [rbind]; try reflexivity.
      destruct (wr_iter s l' W2) as [[b2 W3]| | | |]; cbn [rbind]; try reflexivity. rewrite app_assoc. reflexivity.
  Qed.

  Lemma write_body_le w w' wc wc' :
    (forall ver t v W, le_res (w ver t v W) (w' ver t v W)) -> (forall ver c fs W, le_res (wc ver c fs W) (wc' ver c fs W)) ->
    forall ver t v W, le_res (write_body H w wc ver t v W) (write_body H w' wc' ver t v W).
  Proof. intros Hw Hc ver t v W. unfold write_body. destruct t, v; le_step. Qed.
  Lemma write_prog_le w w' wc wc' p ver fs W :
    (forall ver t v W, le_res (w ver t v W) (w' ver t v W)) -> (forall ver c fs W, le_res (wc ver c fs W) (wc' ver c fs W)) ->
    let prog (w : N -> ty -> val -> list N -> res (bytes * list N)) (wc : N -> N -> list (fkey * val) -> list N -> res (bytes * list N)) :=
        let! (bb, W1) := wr_iter (fun b => wc ver b fs) (bp_bases p) W in
        let versioned := negb (bp_vmax p =? 0)%N in
        let ver' := if versioned && (ver =? 0)%N then bp_vmax p else ver in
        let! bv := (if versioned then wr_varint ver' else ROk []) in
        let! (bm, W2) := wr_iter (fun fd W =>
            if visible ver' fd then
              match alookup fkey_eqb (bf_key fd) fs with
              | Some v => w ver' (bf_ty fd) v W
              | None => RStuck
              end
            else ROk ([], W)) (bp_fields p) W1 in
        ROk (bb ++ bv ++ bm, W2) in le_res (prog w wc) (prog w' wc').
  Proof. intros Hw Hc prog. unfold prog. le_step. Qed.

  Definition hprog (w : N -> ty -> val -> list N -> res (bytes * list N)) ver fs L W := wr_iter (wstep w ver fs) L W.

  Lemma flat_write w' f : (forall ver t v W, le_res (write G H f ver t v W) (w' ver t v W)) ->
    forall k c L ver fs W, k <= S f -> unversioned G written_by c L ->
    le_res (write_cls G H k ver c fs W) (wr_iter (wstep w' ver fs) L W).
  Proof.
    intros Hp. induction k as [|k IH]; intros c L ver fs W Lk Mb; [left; reflexivity|].
    inversion Mb as [c0 rc q Ls Ec Eq Ev Ef F]; subst. unfold written_by in Eq. inversion Eq; subst q.
    rewrite write_cls_S. unfold write_cls_body. rewrite Ec, Ev. cbn [N.eqb negb andb rbind]. rewrite wr_iter_app.
    apply le_rbind.
    - clear Ec Eq Mb Ev Ef. revert W. induction F as [|b L0 bs Ls M0 F IHF]; intros W; [apply le_res_refl|].
      cbn [concat wr_iter]. rewrite wr_iter_app. apply le_rbind; [apply IH; [lia|exact M0]|]. intros [b1 W1].
      apply le_rbind; [apply IHF|]. intros [b2 W2]. apply le_res_refl.
    - intros [b1 W1]. apply le_rbind; [|intros [b2 W2]; apply le_res_refl].
      apply le_wr_iter. intros fd W2. apply (wstep_le (write G H k) w' ver fs).
      intros ver0 t v W3. eapply le_res_trans; [apply (write_mono G H k f); lia|apply Hp].
  Qed.
  Lemma deep_write w f : (forall ver t v W, le_res (w ver t v W) (write G H f ver t v W)) ->
    forall k c L ver fs W, unv_d G written_by k c L ->
    le_res (wr_iter (wstep w ver fs) L W) (write_cls G H (k + f) ver c fs W).
  Proof.
    intros Hp. induction k as [|k IH]; intros c L ver fs W Mb; inversion Mb as [k0 c0 rc q Ls Ec Eq Ev Ef F]; subst.
    unfold written_by in Eq. inversion Eq; subst q. cbn [Nat.add].
    rewrite write_cls_S. unfold write_cls_body. rewrite Ec, Ev. cbn [N.eqb negb andb rbind]. rewrite wr_iter_app.
    apply le_rbind.
    - clear Ec Eq Mb Ev Ef. revert W. induction F as [|b L0 bs Ls M0 F IHF]; intros W; [apply le_res_refl|].
      cbn [concat wr_iter]. rewrite wr_iter_app. apply le_rbind; [apply IH; exact M0|]. intros [b1 W1].
      apply le_rbind; [apply IHF|]. intros [b2 W2]. apply le_res_refl.
    - intros [b1 W1]. apply le_rbind; [|intros [b2 W2]; apply le_res_refl].
      apply le_wr_iter. intros fd W2. apply (wstep_le w (write G H (k + f)) ver fs).
      intros ver0 t v W3. eapply le_res_trans; [apply Hp|apply (write_mono G H f (k + f)); lia].
  Qed.

  Lemma hana_write_cls w wc ver fs L W : 
    (let p := hana_binary L in
        let! (bb, W1) := wr_iter (fun b => wc ver b fs) (bp_bases p) W in
        let versioned := negb (bp_vmax p =? 0)%N in
        let ver' := if versioned && (ver =? 0)%N then bp_vmax p else ver in
        let! bv := (if versioned then wr_varint ver' else ROk []) in
        let! (bm, W2) := wr_iter (fun fd W =>
            if visible ver' fd then
              match alookup fkey_eqb (bf_key fd) fs with
              | Some v => w ver' (bf_ty fd) v W
              | None => RStuck
              end
            else ROk ([], W)) (bp_fields p) W1 in
        ROk (bb ++ bv ++ bm, W2)) = wr_iter (wstep w ver fs) L W.
  Proof.
    cbn [bp_bases bp_vmax bp_fields hana_binary wr_iter rbind N.eqb negb andb app].
    change (wr_iter _ L W) with (wr_iter (wstep w ver fs) L W) at 1.
    destruct (wr_iter _ L W) as [[b W2]| | | |]; reflexivity.
  Qed.

  Lemma write_hana f : (forall ver t v W, le_res (write G H f ver t v W) (write G' H f ver t v W))
    /\ (forall ver c fs W, le_res (write_cls G H f ver c fs W) (write_cls G' H f ver c fs W)).
  Proof.
    induction f as [|f [IH1 IH2]]; [split; intros; left; reflexivity|]. split.
    - intros ver t v W. rewrite !write_S. apply write_body_le; assumption.
    - intros ver c fs W. pose proof (hana_class G cls HW c) as Hc. destruct (g_class G c) as [rc|] eqn:Ec.
      + destruct Hc as (rc' & Ec' & A). fold G' in Ec'. destruct (ad_wr _ _ _ _ A) as [E|(L & Mb & E)].
        * rewrite !write_cls_S. unfold write_cls_body. rewrite Ec, Ec', E. cbv zeta. apply write_prog_le; assumption.
        * rewrite (write_cls_S G'). unfold write_cls_body. rewrite Ec', E. rewrite hana_write_cls.
          apply (flat_write _ f IH1 (S f) c L); [lia|exact Mb].
      + rewrite !write_cls_S. unfold write_cls_body. fold G' in Hc. rewrite Ec, Hc. apply le_res_refl.
  Qed.
  Lemma write_hana_back K : (forall c rc rc', g_class G c = Some rc -> cls c = Some rc' -> bounded G (S K) c rc rc') ->
    forall f, (forall ver t v W, le_res (write G' H f ver t v W) (write G H (S K * f) ver t v W))
    /\ (forall ver c fs W, le_res (write_cls G' H f ver c fs W) (write_cls G H (S K * f) ver c fs W)).
  Proof.
    intros HK. induction f as [|f [IH1 IH2]]; [split; intros; left; reflexivity|].
    replace (S K * S f) with (S (K + S K * f)) by nia. set (F := S K * f) in *.
    assert (IH1': forall ver t v W, le_res (write G' H f ver t v W) (write G H (K + F) ver t v W)).
    { intros ver t v W. eapply le_res_trans; [apply IH1|apply (write_mono G H F (K + F)); lia]. }
    assert (IH2': forall ver c fs W, le_res (write_cls G' H f ver c fs W) (write_cls G H (K + F) ver c fs W)).
    { intros ver c fs W. eapply le_res_trans; [apply IH2|apply (write_mono G H F (K + F)); lia]. }
    split.
    - intros ver t v W. rewrite !write_S. apply write_body_le; assumption.
    - intros ver c fs W. pose proof (hana_class G cls HW c) as Hc. destruct (g_class G c) as [rc|] eqn:Ec.
      + destruct Hc as (rc' & Ec' & A). destruct (bo_wr _ _ _ _ _ (HK c rc rc' Ec Ec')) as [E|(L & Mb & E)]; fold G' in Ec'.
        * rewrite !write_cls_S. unfold write_cls_body. rewrite Ec, Ec', E. cbv zeta. apply write_prog_le; assumption.
        * rewrite (write_cls_S G'). unfold write_cls_body at 1. rewrite Ec', E. rewrite hana_write_cls.
          apply (deep_write _ F IH1 (S K) c L). exact Mb.
      + rewrite !write_cls_S. unfold write_cls_body. fold G' in Hc. rewrite Ec, Hc. apply le_res_refl.
  Qed.
End Write.

(* ------------------------------------------------------------------ *)
(** ** read *)
Definition rprog (r : N -> ty -> val -> bytes -> rstate -> res (val * bytes * rstate))
    (rc_ : N -> N -> list (fkey * val) -> bytes -> rstate -> res (list (fkey * val) * N * bytes * rstate))
    (name : bytes) (p : bprog) (ver : N) (os : list (fkey * val)) (s : bytes) (st : rstate) : res (list (fkey * val) * N * bytes * rstate) :=
  let! (os1, s1, st1) := rd_iter (fun b '(os, s, st) =>
      let! (os', _, s', st') := rc_ ver b os s st in ROk (os', s', st'))
    (bp_bases p) (os, s, st) in
  let! (ver', s2) :=
    (if (bp_vmax p =? 0)%N then ROk (ver, s1)
     else let! (v, s') := rd_varint s1 in
          if (v <=? bp_vmax p)%N then ROk (v, s')
          else RThrow (ExVersion v (bp_vmax p) name)) in
  let! (os3, s3, st3) := rd_iter (fun fd '(os, s, st) =>
      if visible ver' fd then
        match alookup fkey_eqb (bf_key fd) os with
        | Some o =>
            let! (x, s', st') := r ver' (bf_ty fd) o s st in
            ROk (aupdate fkey_eqb (bf_key fd) x os, s', st')
        | None => RStuck
        end
      else ROk (os, s, st)) (bp_fields p) (os1, s2, st1) in
  ROk (os3, if bp_ret0 p then 0%N else ver', s3, st3).
Lemma read_cls_body_prog G r rc_ ver c os s st : read_cls_body G r rc_ ver c os s st =
  match g_class G c with None => RStuck | Some rc => match rc_rd rc with None => RStuck | Some p => rprog r rc_ (rc_name rc) p ver os s st end end.
Proof. reflexivity. Qed.

Definition rstep (r : N -> ty -> val -> bytes -> rstate -> res (val * bytes * rstate)) (ver : N) (fd : bfield) (x : list (fkey * val) * bytes * rstate) :=
  let '(os, s, st) := x in
  if visible ver fd then
    match alookup fkey_eqb (bf_key fd) os with
    | Some o => let! (x, s', st') := r ver (bf_ty fd) o s st in ROk (aupdate fkey_eqb (bf_key fd) x os, s', st')
    | None => RStuck
    end
  else ROk (os, s, st).

(** results of readers which are the same apart from the version *)
Definition le_cls {A B C D} (r r' : res (A * B * C * D)) : Prop := le_res (but_version r) (but_version r').
Lemma le_cls_bind {A B C D E} (r r' : res (A * B * C * D)) (k k' : A -> C -> D -> res E) : le_cls r r' -> (forall a c d, le_res (k a c d) (k' a c d)) ->
  le_res (let! (a, _, c, d) := r in k a c d) (let! (a, _, c, d) := r' in k' a c d).
Proof.
  intros L Hk. 
  assert (X: forall (r : res (A * B * C * D)) (k : A -> C -> D -> res E), (let! (a, _, c, d) := r in k a c d) = (let! (a, c, d) := but_version r in k a c d)).
  { intros r0 k0. destruct r0 as [[[[a b] c] d]| | | |]; reflexivity. }
  rewrite !X. apply le_rbind; [exact L|]. intros [[a c] d]. apply Hk.
Qed.
Lemma rd_iter_app {A S} (w : A -> S -> res S) l l' s : rd_iter w (l ++ l') s = rbind (rd_iter w l s) (rd_iter w l').
Proof. revert s. induction l as [|x l IH]; intros s; cbn [rd_iter app]; [reflexivity|]. destruct (w x s); cbn [rbind]; try reflexivity. apply IH. Qed.

Section ReadRel.
  Variable G : genv.
  Variables c1 c2 : N -> option rtclass.
  Let G1 := with_classes G c1.
  Let G2 := with_classes G c2.
  Hypothesis HV : forall t, vinit G1 t = vinit G2 t.
  Hypothesis HD : forall t, dinit G1 t = dinit G2 t.

  Lemma read_body_le2 r r' rc rc' :
    (forall ver t o s st, le_res (r ver t o s st) (r' ver t o s st)) ->
    (forall ver c os s st, le_cls (rc ver c os s st) (rc' ver c os s st)) ->
    forall ver t o s st, le_res (read_body G1 r rc ver t o s st) (read_body G2 r' rc' ver t o s st).
  Proof.
    intros Hr Hc ver t o s st. unfold read_body.
    change (emplace G2) with (emplace G1). change (g_alloc G2) with (g_alloc G1).
    assert (HS: forall c os, le_res (let! (fs, _, s1, st1) := rc ver c os s st in ROk (VObj fs, s1, st1)) (let! (fs, _, s1, st1) := rc' ver c os s st in ROk (VObj fs, s1, st1))).
    { intros c os. apply (le_cls_bind (rc ver c os s st) (rc' ver c os s st) (fun fs s1 st1 => ROk (VObj fs, s1, st1)) (fun fs s1 st1 => ROk (VObj fs, s1, st1))); [apply Hc|intros; apply le_res_refl]. }
    destruct t; try (destruct o; try apply le_res_refl; apply HS); repeat first [ progress le_step | progress rewrite ?HV, ?HD | match goal with H : forall _, _ |- _ => solve [apply H] end].
  Qed.
  Lemma rprog_le r r' rc rc' name p ver os s st :
    (forall ver t o s st, le_res (r ver t o s st) (r' ver t o s st)) ->
    (forall ver c os s st, le_cls (rc ver c os s st) (rc' ver c os s st)) ->
    le_res (rprog r rc name p ver os s st) (rprog r' rc' name p ver os s st).
  Proof.
    intros Hr Hc. unfold rprog. apply le_rbind.
    - apply le_rd_iter. intros b [[os1 s1] st1].
      apply (le_cls_bind (rc ver b os1 s1 st1) (rc' ver b os1 s1 st1) (fun os' s' st' => ROk (os', s', st')) (fun os' s' st' => ROk (os', s', st'))); [apply Hc|intros; apply le_res_refl].
    - intros [[os1 s1] st1]. apply le_rbind; [apply le_res_refl|]. intros [ver' s2]. le_step.
  Qed.
End ReadRel.

Section Read.
  Variable G : genv.
  Variable cls : N -> option rtclass.
  Hypothesis HW : with_hana G cls.
  Let G' := with_classes G cls.

  Lemma rstep_le r r' ver : (forall ver t o s st, le_res (r ver t o s st) (r' ver t o s st)) ->
    forall fd x, le_res (rstep r ver fd x) (rstep r' ver fd x).
  Proof. intros Hp fd [[os s] st]. unfold rstep. le_step. Qed.
  Lemma le_res_cls {A B C D} (r r' : res (A * B * C * D)) : le_res r r' -> le_cls r r'.
  Proof. intros [E|E]; unfold le_cls; rewrite E; [left; reflexivity|right; reflexivity]. Qed.

  Lemma but_unversioned r rc_ name p ver os s st : bp_vmax p = 0%N ->
    but_version (rprog r rc_ name p ver os s st)
    = (let! x := rd_iter (fun b '(os, s, st) => but_version (rc_ ver b os s st)) (bp_bases p) (os, s, st) in rd_iter (rstep r ver) (bp_fields p) x).
  Proof.
    intros Ev. unfold rprog. rewrite Ev. cbn [N.eqb].
    change (rd_iter (fun b '(os, s, st) => but_version (rc_ ver b os s st)) (bp_bases p) (os, s, st)) with
      (rd_iter (fun b '(os, s, st) => let! (os', _, s', st') := rc_ ver b os s st in ROk (os', s', st')) (bp_bases p) (os, s, st)).
    destruct (rd_iter _ (bp_bases p) _) as [[[os1 s1] st1]| | | |]; try reflexivity. cbn [rbind].
    change (rd_iter (rstep r ver) (bp_fields p) (os1, s1, st1)) with
      (rd_iter (fun fd '(os, s, st) =>
      if visible ver fd then
        match alookup fkey_eqb (bf_key fd) os with
        | Some o =>
            let! (x, s', st') := r ver (bf_ty fd) o s st in
            ROk (aupdate fkey_eqb (bf_key fd) x os, s', st')
        | None => RStuck
        end
      else ROk (os, s, st)) (bp_fields p) (os1, s1, st1)).
    destruct (rd_iter _ (bp_fields p) _) as [[[os3 s3] st3]| | | |]; reflexivity.
  Qed.

  Lemma flat_read r' f : (forall ver t o s st, le_res (read G f ver t o s st) (r' ver t o s st)) ->
    forall k c L ver os s st, k <= S f -> unversioned G rc_rd c L ->
    le_res (but_version (read_cls G k ver c os s st)) (rd_iter (rstep r' ver) L (os, s, st)).
  Proof.
    intros Hp. induction k as [|k IH]; intros c L ver os s st Lk Mb; [left; reflexivity|].
    inversion Mb as [c0 rc q Ls Ec Eq Ev Ef F]; subst.
    rewrite read_cls_S, read_cls_body_prog, Ec, Eq, but_unversioned by exact Ev. rewrite rd_iter_app.
    apply le_rbind.
    - clear Ec Eq Mb Ev Ef. generalize (os, s, st). induction F as [|b L0 bs Ls M0 F IHF]; intros x; [apply le_res_refl|].
      cbn [concat rd_iter]. rewrite rd_iter_app. apply le_rbind; [destruct x as [[os1 s1] st1]; apply IH; [lia|exact M0]|]. exact IHF.
    - intros x. apply le_rd_iter. intros fd y. apply rstep_le.
      intros ver0 t o s0 st0. eapply le_res_trans; [apply (read_mono G k f); lia|apply Hp].
  Qed.
  Lemma deep_read r f : (forall ver t o s st, le_res (r ver t o s st) (read G f ver t o s st)) ->
    forall k c L ver os s st, unv_d G rc_rd k c L ->
    le_res (rd_iter (rstep r ver) L (os, s, st)) (but_version (read_cls G (k + f) ver c os s st)).
  Proof.
    intros Hp. induction k as [|k IH]; intros c L ver os s st Mb; inversion Mb as [k0 c0 rc q Ls Ec Eq Ev Ef F]; subst. cbn [Nat.add].
    rewrite read_cls_S, read_cls_body_prog, Ec, Eq, but_unversioned by exact Ev. rewrite rd_iter_app.
    apply le_rbind.
    - clear Ec Eq Mb Ev Ef. generalize (os, s, st). induction F as [|b L0 bs Ls M0 F IHF]; intros x; [apply le_res_refl|].
      cbn [concat rd_iter]. rewrite rd_iter_app. apply le_rbind; [destruct x as [[os1 s1] st1]; apply IH; exact M0|]. exact IHF.
    - intros x. apply le_rd_iter. intros fd y. apply rstep_le.
      intros ver0 t o s0 st0. eapply le_res_trans; [apply Hp|apply (read_mono G f (k + f)); lia].
  Qed.

  Lemma hana_rprog r rc_ name L ver os s st :
    but_version (rprog r rc_ name (hana_binary L) ver os s st) = rd_iter (rstep r ver) L (os, s, st).
  Proof. rewrite but_unversioned by reflexivity. reflexivity. Qed.

  Lemma read_body_fwd r r' rc rc' :
    (forall ver t o s st, le_res (r ver t o s st) (r' ver t o s st)) ->
    (forall ver c os s st, le_cls (rc ver c os s st) (rc' ver c os s st)) ->
    forall ver t o s st, le_res (read_body G r rc ver t o s st) (read_body G' r' rc' ver t o s st).
  Proof.
    intros Hr Hc ver t o s st. rewrite <- (with_own G) at 1.
    apply read_body_le2; try assumption; intros; rewrite with_own; symmetry; [apply (hana_vinit G cls)|apply (hana_dinit G cls)]; exact HW.
  Qed.
  Lemma read_body_bwd r r' rc rc' :
    (forall ver t o s st, le_res (r ver t o s st) (r' ver t o s st)) ->
    (forall ver c os s st, le_cls (rc ver c os s st) (rc' ver c os s st)) ->
    forall ver t o s st, le_res (read_body G' r rc ver t o s st) (read_body G r' rc' ver t o s st).
  Proof.
    intros Hr Hc ver t o s st. rewrite <- (with_own G).
    apply read_body_le2; try assumption; intros; rewrite with_own; [apply (hana_vinit G cls)|apply (hana_dinit G cls)]; exact HW.
  Qed.

  Lemma read_hana f : (forall ver t o s st, le_res (read G f ver t o s st) (read G' f ver t o s st))
    /\ (forall ver c os s st, le_cls (read_cls G f ver c os s st) (read_cls G' f ver c os s st)).
  Proof.
    induction f as [|f [IH1 IH2]]; [split; intros; left; reflexivity|]. split.
    - intros ver t o s st. rewrite !read_S. apply read_body_fwd; assumption.
    - intros ver c os s st. pose proof (hana_class G cls HW c) as Hc. destruct (g_class G c) as [rc|] eqn:Ec.
      + destruct Hc as (rc' & Ec' & A). fold G' in Ec'. destruct (ad_rd _ _ _ _ A) as [E|(L & Mb & E)].
        * rewrite !read_cls_S, !read_cls_body_prog, Ec, Ec', E, (ad_name _ _ _ _ A). destruct (rc_rd rc); [|apply le_res_refl].
          apply le_res_cls, rprog_le; assumption.
        * unfold le_cls. rewrite (read_cls_S G'), (read_cls_body_prog G'), Ec', E, hana_rprog.
          apply (flat_read _ f IH1 (S f) c L); [lia|exact Mb].
      + rewrite !read_cls_S, !read_cls_body_prog. fold G' in Hc. rewrite Ec, Hc. apply le_res_refl.
  Qed.
  Lemma read_hana_back K : (forall c rc rc', g_class G c = Some rc -> cls c = Some rc' -> bounded G (S K) c rc rc') ->
    forall f, (forall ver t o s st, le_res (read G' f ver t o s st) (read G (S K * f) ver t o s st))
    /\ (forall ver c os s st, le_cls (read_cls G' f ver c os s st) (read_cls G (S K * f) ver c os s st)).
  Proof.
    intros HK. induction f as [|f [IH1 IH2]]; [split; intros; left; reflexivity|].
    replace (S K * S f) with (S (K + S K * f)) by nia. set (F := S K * f) in *.
    assert (IH1': forall ver t o s st, le_res (read G' f ver t o s st) (read G (K + F) ver t o s st)).
    { intros ver t o s st. eapply le_res_trans; [apply IH1|apply (read_mono G F (K + F)); lia]. }
    assert (IH2': forall ver c os s st, le_cls (read_cls G' f ver c os s st) (read_cls G (K + F) ver c os s st)).
    { intros ver c os s st. eapply le_res_trans; [apply IH2|apply le_res_cls, (read_mono G F (K + F)); lia]. }
    split.
    - intros ver t o s st. rewrite !read_S. apply read_body_bwd; assumption.
    - intros ver c os s st. pose proof (hana_class G cls HW c) as Hc. destruct (g_class G c) as [rc|] eqn:Ec.
      + destruct Hc as (rc' & Ec' & A). destruct (bo_rd _ _ _ _ _ (HK c rc rc' Ec Ec')) as [E|(L & Mb & E)]; fold G' in Ec'.
        * rewrite !read_cls_S, !read_cls_body_prog, Ec, Ec', E, (ad_name _ _ _ _ A). destruct (rc_rd rc); [|apply le_res_refl].
          apply le_res_cls, rprog_le; assumption.
        * unfold le_cls. rewrite (read_cls_S G'), (read_cls_body_prog G'), Ec', E, hana_rprog.
          apply (deep_read _ F IH1 (S K) c L). exact Mb.
      + rewrite !read_cls_S, !read_cls_body_prog. fold G' in Hc. rewrite Ec, Hc. apply le_res_refl.
  Qed.

  (** an adapted class always reports version 0 *)
  Lemma hana_version f ver c os s st rc' L os' v s' st' : cls c = Some rc' -> rc_rd rc' = Some (hana_binary L) ->
    read_cls G' f ver c os s st = ROk (os', v, s', st') -> v = 0%N.
  Proof.
    intros Ec Ep E. destruct f as [|f]; [discriminate|]. rewrite read_cls_S, read_cls_body_prog in E.
    change (g_class G' c) with (cls c) in E. rewrite Ec, Ep in E. unfold rprog in E. cbn [bp_bases bp_vmax bp_ret0 hana_binary rd_iter rbind N.eqb] in E.
    destruct (rd_iter _ _ _) as [[[a b] d]| | | |]; cbn in E; congruence.
  Qed.
End Read.

(* ------------------------------------------------------------------ *)
(** ** the record name of errors *)
Definition grows (e e' : est) : Prop := es_record e' = es_record e /\ es_throw e' = es_throw e /\
  exists l, es_errs e' = es_errs e ++ l /\ forall x, In x l -> e_record x = es_record e.
Definition keeps {A} (m : M A) : Prop := forall h e,
  match m {| p_heap := h; p_err := Some e |} with
  | POk _ st' => exists e', p_err st' = Some e' /\ grows e e'
  | PThrow x st' => e_record x = es_record e /\ exists e', p_err st' = Some e' /\ grows e e'
  | _ => True
  end.
Lemma grows_refl e e' : es_errs e' = es_errs e -> es_record e' = es_record e -> es_throw e' = es_throw e -> grows e e'.
Proof. intros E1 E2 E3. repeat split; try assumption. exists []. rewrite app_nil_r. split; [exact E1|intros x []]. Qed.
Lemma grows_trans a b c : grows a b -> grows b c -> grows a c.
Proof.
  intros (A1 & A2 & l & A3 & A4) (B1 & B2 & l' & B3 & B4). repeat split; try congruence.
  exists (l ++ l'). rewrite B3, A3, app_assoc. split; [reflexivity|]. intros x I. apply in_app_or in I. destruct I as [I|I]; [apply A4, I|].
  rewrite (B4 x I). exact A1.
Qed.
Lemma keeps_ret A (a : A) : keeps (ret a).
Proof. intros h e. cbn. exists e. split; [reflexivity|apply grows_refl; reflexivity]. Qed.
Lemma keeps_bind A B (m : M A) (k : A -> M B) : keeps m -> (forall a, keeps (k a)) -> keeps (bind m k).
Proof.
  intros Hm Hk h e. unfold bind. specialize (Hm h e). destruct (m _) as [a [h' er]|x st| | |]; try exact I.
  - destruct Hm as (e' & E & Gr). cbn in E. subst er. specialize (Hk a h' e'). destruct (k a _) as [b st|x st| | |]; try exact I.
    + destruct Hk as (e2 & E2 & G2). exists e2. split; [exact E2|eapply grows_trans; eassumption].
    + destruct Hk as (X & e2 & E2 & G2). split; [rewrite X; apply Gr|]. exists e2. split; [exact E2|eapply grows_trans; eassumption].
  - exact Hm.
Qed.
Lemma keeps_ub A : keeps (@ub A). Proof. intros h e. exact I. Qed.
Lemma keeps_stuck A : keeps (@stuck A). Proof. intros h e. exact I. Qed.
Lemma keeps_report k x y : keeps (report k x y).
Proof.
  intros h e. unfold report. cbn [p_err]. unfold emplace_error. cbn [p_heap].
  assert (Q: grows e (add_err e {| e_kind := k; e_expected := x; e_actual := y; e_record := es_record e; e_member := es_member e; e_index := es_index e |})).
  { repeat split. eexists. split; [reflexivity|]. intros z [<-|[]]. reflexivity. }
  destruct (_ =? _)%N; [|split; [reflexivity|]]; eexists; (split; [reflexivity|exact Q]).
Qed.
Lemma keeps_unchecked k x y : keeps (report_unchecked k x y).
Proof. intros h e. apply (keeps_report k x y h e). Qed.
Lemma keeps_index i : keeps (set_index i).
Proof. intros h e. cbn. eexists. split; [reflexivity|apply grows_refl; reflexivity]. Qed.
Lemma keeps_items A (s : A -> json -> M A) js i a : (forall a j, keeps (s a j)) -> keeps (pull_items s i js a).
Proof.
  intros Hs. revert i a. induction js as [|j js IH]; intros i a; cbn [pull_items].
  - apply keeps_bind; [apply keeps_index|intros _; apply keeps_ret].
  - apply keeps_bind; [apply keeps_index|intros _]. apply keeps_bind; [apply Hs|intros a'; apply IH].
Qed.
Lemma keeps_member A n (m : M A) : keeps m -> keeps (in_member n m).
Proof.
  intros Hm h e. unfold in_member. unfold put_member at 1. cbn [p_err p_heap option_map].
  match goal with |- context [m {| p_heap := h; p_err := Some ?x |}] => set (e1 := x) end.
  assert (Q: grows e e1) by (apply grows_refl; reflexivity).
  specialize (Hm h e1). destruct (m _) as [a st|x st| | |]; try exact I.
  - destruct Hm as (e' & E & Gr). unfold put_member. cbn. rewrite E. cbn. eexists. split; [reflexivity|].
    eapply grows_trans; [exact Q|]. eapply grows_trans; [exact Gr|]. apply grows_refl; reflexivity.
  - destruct Hm as (X & e' & E & Gr). split; [exact X|]. exists e'. split; [exact E|eapply grows_trans; eassumption].
Qed.
Lemma keeps_new G t (m : M val) : keeps m -> keeps (in_new G t m).
Proof.
  intros Hm h e. unfold in_new. cbn [p_err p_heap]. specialize (Hm (hset h (g_alloc G h) (t, vinit G t)) e).
  destruct (m _) as [a st|x st| | |]; try exact I; exact Hm.
Qed.
Lemma keeps_fold {A B} (s : A -> B -> M A) l : (forall a b, keeps (s a b)) -> forall a, keeps (fold_m s l a).
Proof. intros Hs. induction l as [|x l IH]; intros a; cbn [fold_m]; [apply keeps_ret|]. apply keeps_bind; [apply Hs|intros; apply IH]. Qed.
Lemma keeps_tuple (p : ty -> val -> json -> M val) : (forall t o j, keeps (p t o j)) -> forall ts os js, keeps (pull_tuple p ts os js).
Proof.
  intros Hp. induction ts as [|t ts IH]; intros [|o os] js; cbn [pull_tuple]; try apply keeps_stuck; [apply keeps_ret|].
  destruct js; [apply keeps_ub|]. apply keeps_bind; [apply Hp|intros x]. apply keeps_bind; [apply IH|intros xs; apply keeps_ret].
Qed.
Section Keeps.
  Variable G : genv.
  Variable J : jenv.
  Hypothesis HN : forall c rc p, g_class G c = Some rc -> rc_pull rc = Some p -> jp_record p = None.
  Ltac kp := repeat first
    [ apply keeps_ret | apply keeps_ub | apply keeps_stuck | apply keeps_report | apply keeps_unchecked
    | match goal with |- keeps (bind _ _) => apply keeps_bind; [|intro] end
    | match goal with |- keeps (pull_items _ _ _ _) => apply keeps_items; intros end
    | match goal with |- keeps (fold_m _ _ _) => apply keeps_fold; intros end
    | match goal with |- keeps (pull_tuple _ _ _ _) => apply keeps_tuple; intros end
    | match goal with |- keeps (in_member _ _) => apply keeps_member end
    | match goal with |- keeps (in_new _ _ _) => apply keeps_new end
    | match goal with H : forall _, _ |- _ => solve [apply H] end
    | progress (unfold mismatch, get_int, cast_double, pull_member; cbv zeta)
    | match goal with |- keeps (match ?x with _ => _ end) => destruct x eqn:? end
    | match goal with |- keeps ((fun _ => _) _) => cbv beta end ].
  Lemma pull_keeps f : (forall t o j, keeps (pull G J f t o j)) /\ (forall c os ms, keeps (pull_cls G J f c os ms)).
  Proof.
    induction f as [|f [IH1 IH2]]; [split; intros; intros h e; exact I|]. split.
    - intros t o j. rewrite pull_S. unfold pull_body. destruct t; kp.
    - intros c os ms. rewrite pull_cls_S. unfold pull_cls_body. destruct (g_class G c) as [rc|] eqn:Ec; [|kp].
      destruct (rc_pull rc) as [q|] eqn:Ep; [|kp]. rewrite (HN c rc q Ec Ep). kp.
  Qed.
  Lemma fromJson_keeps f t j : keeps (fromJson G J f t j).
  Proof. destruct (pull_keeps f) as [P _]. unfold fromJson. destruct t; kp. Qed.
End Keeps.
