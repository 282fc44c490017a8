(** JsonExcTop.v -- JSON deserialisation which is stopped by throwOn: what is left behind *)
From Coq Require Import String List NArith ZArith Bool Lia Permutation.
From Verif Require Import Base BaseFacts Types TypesFacts BinModel BinSpec BinSafeSpec BinSafe BinFacts BinExcSpec Float JsonModel JsonRel JsonErr JsonSpec
  JsonSafeSpec JsonSafe JsonTop JsonExc JsonExcFacts.
Import ListNotations.
Local Open Scope list_scope.
Local Open Scope nat_scope.

Section Progress.
  Variable G : genv.
  Variable J : jenv.
  Variable ud : bool.
  Variable K : ikind -> Prop.
  Hypothesis HA : alloc_ok G.
  Hypothesis HP : place_ok G.
  Hypothesis HE : jenv_ok G ud K false.
  Hypothesis HC : conv_ok J.
  Variable T : N.
  Variable lay : list (fkey * ty).
  Notation fok := (members_typed G ud).
  Notation lk := (alookup fkey_eqb).
  Notation prog := (progress G ud lay).
  Notation tw := (with_throw T).

  Definition jstep_ok (R : list (fkey * val) -> XM (list (fkey * val))) (L : list fkey) : Prop :=
    forall os h e, fok h lay os -> heap_typed G ud h -> es_throw e = 0%N ->
    match R os {| p_heap := h; p_err := Some e |} with
    | QOk after st' => fok (p_heap st') lay after /\ heap_typed G ud (p_heap st') /\ heap_extends h (p_heap st')
        /\ (forall k, ~ In k L -> lk k after = lk k os)
        /\ exists e', p_err st' = Some e' /\ es_throw e' = 0%N
        /\ match R os {| p_heap := h; p_err := Some (tw e) |} with
           | QOk now st2 => now = after /\ st2 = {| p_heap := p_heap st'; p_err := Some (tw e') |}
           | QThrow x now st2 => prog L os h after (p_heap st') now (p_heap st2)
           | _ => False
           end
    | _ => True
    end.

  Lemma hxr h : heap_extends h h. Proof. intros a c E; exact E. Qed.
  Lemma hxt a b c : heap_extends a b -> heap_extends b c -> heap_extends a c.
  Proof. intros X Y k v E. apply Y, X, E. Qed.

  Lemma jstep_nil : jstep_ok xret [].
  Proof.
    intros os h e F S Z. cbn. split; [exact F|]. split; [exact S|]. split; [apply hxr|]. split; [reflexivity|]. exists e. auto.
  Qed.

  Lemma jstep_seq R1 R2 L1 L2 : jstep_ok R1 L1 -> jstep_ok R2 L2 -> jstep_ok (fun os => xbind (R1 os) (fun a => a) R2) (L1 ++ L2).
  Proof.
    intros A1 A2 os h e F S Z. unfold xbind. specialize (A1 os h e F S Z).
    destruct (R1 os {| p_heap := h; p_err := Some e |}) as [os1 [h1 er1]|x os1 st1| | |] eqn:E1; auto.
    cbn [p_heap p_err] in A1. destruct A1 as (F1 & S1 & X1 & K1 & e1 & -> & Z1 & B1).
    specialize (A2 os1 h1 e1 F1 S1 Z1). destruct (R2 os1 {| p_heap := h1; p_err := Some e1 |}) as [os2 [h2 er2]|x os2 st2| | |]; auto.
    cbn [p_heap p_err] in *. destruct A2 as (F2 & S2 & X2 & K2 & e2 & -> & Z2 & B2).
    split; [exact F2|]. split; [exact S2|]. split; [eapply hxt; eauto|]. split.
    { intros k Hk. rewrite K2, K1; [reflexivity| |]; intros H; apply Hk, in_or_app; auto. }
    exists e2. split; [reflexivity|]. split; [exact Z2|].
    destruct (R1 os {| p_heap := h; p_err := Some (tw e) |}) as [now1 stn|x now1 stn| | |]; try contradiction.
    - destruct B1 as [-> ->]. cbn [p_heap]. destruct (R2 os1 {| p_heap := h1; p_err := Some (tw e1) |}) as [now2 stm|x now2 stm| | |]; try contradiction; [exact B2|].
      destruct B2 as (d & c & t & mid & hm & EL & Hc & N1 & N2 & N3 & Fm & Y2 & Y3 & Y4).
      exists (L1 ++ d), c, t, mid, hm. rewrite EL, app_assoc. split; [reflexivity|]. split; [exact Hc|]. split; [exact N1|]. split; [exact N2|].
      split; [|split; [exact Fm|split; [exact (hxt _ _ _ X1 Y2)|split; assumption]]].
      intros k Hk. rewrite N3, K1; [reflexivity| |]; intros H; apply Hk, in_or_app; auto.
    - destruct B1 as (d & c & t & mid & hm & EL & Hc & N1 & N2 & N3 & Fm & Y3 & Y4 & Y5).
      exists d, c, (t ++ L2), mid, hm. rewrite EL, <- !app_assoc. split; [reflexivity|]. split; [exact Hc|]. split; [exact N1|].
      split; [|split; [exact N3|split; [exact Fm|split; [exact Y3|split; [exact (hxt _ _ _ Y4 X2)|exact Y5]]]]].
      intros k Hk. rewrite N2, K2; [reflexivity| |]; intros H; apply Hk; rewrite ?app_assoc; apply in_or_app; [right|left]; exact H.
  Qed.

  Lemma jstep_fold {A} (r : list (fkey * val) -> A -> XM (list (fkey * val))) l Ls :
    Forall2 (fun a La => jstep_ok (fun os => r os a) La) l Ls -> jstep_ok (xfold r l) (concat Ls).
  Proof.
    induction 1 as [|a La l Ls Ha _ IH]; [exact jstep_nil|]. cbn [concat]. exact (jstep_seq (fun os => r os a) (xfold r l) _ _ Ha IH).
  Qed.

  Lemma jstep_record n R L : jstep_ok R L -> jstep_ok (fun os => xin_record n (R os)) L.
  Proof.
    intros A os h e F S Z. unfold xin_record. cbn [p_err].
    change (put_record (Some n) {| p_heap := h; p_err := Some e |}) with {| p_heap := h; p_err := Some (set_record n e) |}.
    change (put_record (Some n) {| p_heap := h; p_err := Some (tw e) |}) with {| p_heap := h; p_err := Some (tw (set_record n e)) |}.
    specialize (A os h (set_record n e) F S Z).
    destruct (R os {| p_heap := h; p_err := Some (set_record n e) |}) as [os1 [h1 er1]|x os1 st1| | |]; auto.
    cbn [p_heap p_err] in A. destruct A as (F1 & S1 & X1 & K1 & e1 & -> & Z1 & B1).
    split; [exact F1|]. split; [exact S1|]. split; [exact X1|]. split; [exact K1|].
    eexists. split; [reflexivity|]. split; [exact Z1|].
    destruct (R os {| p_heap := h; p_err := Some (tw (set_record n e)) |}) as [now1 stn|x now1 stn| | |]; try contradiction; [|exact B1].
    destruct B1 as [-> ->]. split; reflexivity.
  Qed.

  Lemma jstep_member f ms fd :
    lk (jf_key fd) lay = Some (jf_ty fd) -> pullable G K false (jf_ty fd) -> docok K false (JObj ms) ->
    jstep_ok (fun os => xpull_member (xpull G J f) ms fd os) [jf_key fd].
  Proof.
    intros Hl Hr Hd os h e F S Z. unfold xpull_member.
    destruct (lk (jf_key fd) os) as [o|] eqn:Eo; [|exact I].
    destruct (alookup bytes_eqb (jf_name fd) ms) as [j|] eqn:Ej.
    2: { cbn. split; [exact F|]. split; [exact S|]. split; [apply hxr|]. split; [reflexivity|]. exists e. auto. }
    assert (Ho := proj2 F _ _ _ Hl Eo). assert (Dj := doc_lookup _ _ _ _ _ Hd Ej).
    destruct (xsafe_all G J ud K HA HP HE HC f) as [XV _].
    assert (Q: forall e0, match xin_member (jf_name fd) (xpull G J f (jf_ty fd) o j) {| p_heap := h; p_err := Some e0 |} with
       | QOk a st' | QThrow _ a st' => JsonSafe.pulled G ud (jf_ty fd) o a (p_heap st') /\ heap_typed G ud (p_heap st') /\ hext h (p_heap st')
       | QUB | QFuel => True | QStuck => False end).
    { intros e0. apply (qp_member G ud h (jf_name fd) _ _ (XV (jf_ty fd) o j h Hr (or_introl Ho) Dj)); [reflexivity|exact S]. }
    assert (AG: agrees (xin_member (jf_name fd) (xpull G J f (jf_ty fd) o j)) (in_member (jf_name fd) (pull G J f (jf_ty fd) o j))).
    { apply ag_member. apply (proj1 (xpull_agrees G J f)). }
    assert (TR: throw_rel T (in_member (jf_name fd) (pull G J f (jf_ty fd) o j)) (in_member (jf_name fd) (pull G J f (jf_ty fd) o j))).
    { apply (mr_member _ _ (throw_mrel G T)). apply pull_throw. }
    set (M0 := xin_member (jf_name fd) (xpull G J f (jf_ty fd) o j)) in *. set (N0 := in_member (jf_name fd) (pull G J f (jf_ty fd) o j)) in *.
    unfold xbind. specialize (TR h e Z). pose proof (AG {| p_heap := h; p_err := Some e |}) as A1. pose proof (AG {| p_heap := h; p_err := Some (tw e) |}) as A2.
    pose proof (Q e) as Q1. pose proof (Q (tw e)) as Q2. clear Q AG.
    destruct (M0 {| p_heap := h; p_err := Some e |}) as [x st1|e1 x st1| | |]; auto.
    destruct (N0 {| p_heap := h; p_err := Some e |}) as [b stb|eb stb| | |]; cbn [agree] in A1; try contradiction. destruct A1 as [<- <-].
    destruct Q1 as (Px & S1 & X1). assert (Hx := pulled_ht _ _ _ _ _ _ _ X1 Ho Px).
    assert (Keep: forall (x : val) k, ~ In k [jf_key fd] -> lk k (aupdate fkey_eqb (jf_key fd) x os) = lk k os).
    { intros y k Hk. apply (alookup_aupdate_other _ fkey_eqb_eq). intros E. apply Hk. left. congruence. }
    cbn [xret]. split; [exact (fieldsok_upd G ud h (p_heap st1) lay os fd o x X1 F Hl Eo Hx)|]. split; [exact S1|]. split; [exact X1|]. split; [apply Keep|].
    destruct TR as (e' & new & E1 & Z1 & _ & D). exists e'. split; [exact E1|]. split; [exact Z1|].
    destruct D as [[_ D]|(pre & y & post & h2 & e2 & _ & _ & _ & D & _)]; rewrite D in A2.
    - destruct (M0 {| p_heap := h; p_err := Some (tw e) |}) as [x2 st2|y2 x2 st2| | |]; cbn [agree] in A2; try contradiction.
      destruct A2 as [-> ->]. split; reflexivity.
    - destruct (M0 {| p_heap := h; p_err := Some (tw e) |}) as [x2 st2|y2 x2 st2| | |]; cbn [agree] in A2; try contradiction.
      destruct Q2 as (_ & _ & X2).
      exists [], [jf_key fd], [], os, h. split; [reflexivity|]. split; [cbn; lia|]. split; [apply Keep|].
      split; [intros k Hk; symmetry; apply Keep; exact Hk|]. split; [reflexivity|]. split; [exact F|]. split; [apply hxr|]. split; assumption.
  Qed.

  Lemma jcls_step_ok f : forall c rc p L ms, members G rc_pull c L -> g_class G c = Some rc -> rc_pull rc = Some p ->
    (forall k t, lk k (rc_layout rc) = Some t -> lk k lay = Some t) -> docok K false (JObj ms) ->
    jstep_ok (fun os => xpull_cls G J f c os ms) (map jf_key L).
  Proof.
    induction f as [|f IH]; intros c rc p L ms HL Hc Hrd Hlay Hd.
    { intros os h e _ _ _. exact I. }
    destruct HL as [c rc' p' Ls Hc' Hrd' HB]. rewrite Hc in Hc'. inversion Hc'; subst rc'. rewrite Hrd in Hrd'. inversion Hrd'; subst p'.
    intros os h e. rewrite xpull_cls_S. unfold xpull_cls_body. rewrite Hc, Hrd. revert os h e. rewrite map_app.
    apply (jstep_seq (xfold (fun os b => xpull_cls G J f b os ms) (jp_bases p)) (fun os1 =>
       let members := xfold (fun os fd => xpull_member (xpull G J f) ms fd os) (jp_fields p) os1 in
          match jp_record p with Some n => xin_record n members | None => members end)).
    - rewrite concat_map. apply jstep_fold.
      assert (HI: forall b, In b (jp_bases p) -> forall Lb, members G rc_pull b Lb -> jstep_ok (fun os => xpull_cls G J f b os ms) (map jf_key Lb)).
      { intros b Hb Lb HLb. destruct (jo_bases _ _ _ _ HE c rc p b Hc Hrd Hb) as (rb & pb & Eb & Epb & Hsub).
        eapply (IH b rb pb); eauto. }
      clear -HB HI. induction HB as [|b Lb bs Ls Hb HB IHB]; cbn [map]; constructor.
      + apply HI; [left; reflexivity|exact Hb].
      + apply IHB. intros b' Hb'. apply HI. right. exact Hb'.
    - assert (M: jstep_ok (xfold (fun os fd => xpull_member (xpull G J f) ms fd os) (jp_fields p)) (map jf_key (jp_fields p))).
      { replace (map jf_key (jp_fields p)) with (concat (map (fun fd => [jf_key fd]) (jp_fields p))).
        2: { clear. induction (jp_fields p) as [|fd l IHl]; cbn; [reflexivity|]. rewrite IHl. reflexivity. }
        apply jstep_fold.
        assert (HI: forall fd, In fd (jp_fields p) -> lk (jf_key fd) lay = Some (jf_ty fd) /\ pullable G K false (jf_ty fd)).
        { intros fd Hfd. destruct (jo_fields _ _ _ _ HE c rc p fd Hc Hrd Hfd) as [A B]. split; [apply Hlay; exact A|exact B]. }
        induction (jp_fields p) as [|fd l IHl]; cbn [map]; constructor.
        - destruct (HI fd (or_introl eq_refl)) as [A B]. exact (jstep_member f ms fd A B Hd).
        - apply IHl. intros g Hg. apply HI. right. exact Hg. }
      cbv zeta. destruct (jp_record p) as [n|]; [apply (jstep_record n); exact M|exact M].
  Qed.
End Progress.

(** ** whatever is deserialised, and whether or not it throws *)
Theorem json_exception_safe : forall G J ud, alloc_ok G -> place_ok G -> jenv_ok G ud (fun _ => True) false -> conv_ok J ->
  forall t j old fuel st,
    pullable G (fun _ => True) false t -> json_wf j ->
    heap_typed G ud (p_heap st) -> variable_ok G ud (p_heap st) t old ->
    match xpull G J fuel t old j st with
    | QOk v st' | QThrow _ v st' => (has_type G ud (p_heap st') t v \/ (v = VUndef /\ old = VUndef /\ raw t = true))
                   /\ heap_typed G ud (p_heap st') /\ hext (p_heap st) (p_heap st')
    | QUB | QFuel => True
    | QStuck => False
    end.
Proof.
  intros G J ud HA HP HE HC t j old fuel st R W Hh O.
  destruct (xsafe_all G J ud (fun _ => True) HA HP HE HC fuel) as [XV _].
  assert (D: docok (fun _ => True) false j) by (split; [exact W|discriminate]).
  exact (XV t old j (p_heap st) R O D st eq_refl Hh).
Qed.

(** ** members in order *)
Theorem json_members_in_order : forall G J ud, alloc_ok G -> place_ok G -> jenv_ok G ud (fun _ => True) false -> conv_ok J ->
  forall fuel c rc L os ms h e T x now st2,
  g_class G c = Some rc -> members G rc_pull c L -> json_wf (JObj ms) ->
  has_type G ud h (TStruct c) (VObj os) -> heap_typed G ud h -> es_throw e = 0%N ->
  xpull G J fuel (TStruct c) (VObj os) (JObj ms) {| p_heap := h; p_err := Some (throwing_on T e) |} = QThrow x now st2 ->
  forall after st', pull G J fuel (TStruct c) (VObj os) (JObj ms) {| p_heap := h; p_err := Some e |} = POk (VObj after) st' ->
  exists fs, now = VObj fs /\ progress G ud (rc_layout rc) (map jf_key L) os h after (p_heap st') fs (p_heap st2).
Proof.
  intros G J ud HA HP HE HC fuel c rc L os ms h e T x now st2 Hc HL W HT Hh Z Ex after st' Er.
  assert (D: docok (fun _ => True) false (JObj ms)) by (split; [exact W|discriminate]).
  assert (Hrd: exists p, rc_pull rc = Some p).
  { inversion HL as [c0 rc0 p0 Ls0 Hc0 Hrd0 HB0]; subst. rewrite Hc in Hc0. inversion Hc0; subst. eauto. }
  destruct Hrd as [p Hrd].
  assert (F: members_typed G ud h (rc_layout rc) os).
  { inversion HT; subst; try discriminate. match goal with Q : g_class G c = Some ?r |- _ => rewrite Hc in Q; inversion Q; subst r end. split; assumption. }
  destruct fuel as [|fuel]; [discriminate|]. rewrite xpull_S in Ex. rewrite pull_S in Er. cbn [xpull_body pull_body] in Ex, Er.
  pose proof (jcls_step_ok G J ud (fun _ => True) HA HP HE HC T (rc_layout rc) fuel c rc p L ms HL Hc Hrd (fun k t H => H) D os h e F Hh Z) as S.
  change (with_throw T e) with (throwing_on T e) in S.
  destruct (xpull_agrees G J fuel) as [_ AG]. specialize (AG c os ms {| p_heap := h; p_err := Some e |}).
  unfold xbind in Ex. unfold bind in Er.
  destruct (pull_cls G J fuel c os ms {| p_heap := h; p_err := Some e |}) as [b stb| | | |]; try discriminate. inversion Er; subst b stb.
  destruct (xpull_cls G J fuel c os ms {| p_heap := h; p_err := Some e |}) as [a sta|? ? ?| | |]; cbn [agree] in AG; try contradiction.
  destruct AG as [-> ->]. destruct S as (_ & _ & _ & _ & e' & _ & _ & S).
  destruct (xpull_cls G J fuel c os ms {| p_heap := h; p_err := Some (throwing_on T e) |}) as [a sta|x1 a sta| | |]; try discriminate; try contradiction.
  inversion Ex; subst. exists a. split; [reflexivity|exact S].
Qed.

(** ** sequences *)
Lemma item_throw G J T f t o j h e : es_throw e = 0%N ->
  match xpull G J f t o j {| p_heap := h; p_err := Some e |} with
  | QOk a st' => exists e', p_err st' = Some e' /\ es_throw e' = 0%N
      /\ match xpull G J f t o j {| p_heap := h; p_err := Some (with_throw T e) |} with
         | QOk b st2 => b = a /\ st2 = {| p_heap := p_heap st'; p_err := Some (with_throw T e') |}
         | QThrow _ _ _ => True
         | _ => False
         end
  | _ => True
  end.
Proof.
  intros Z. destruct (xpull_agrees G J f) as [AG _]. pose proof (AG t o j {| p_heap := h; p_err := Some e |}) as A1.
  pose proof (AG t o j {| p_heap := h; p_err := Some (with_throw T e) |}) as A2. pose proof (pull_throw G J T f t o j h e Z) as TR.
  destruct (xpull G J f t o j {| p_heap := h; p_err := Some e |}) as [a st'| | | |]; auto.
  destruct (pull G J f t o j {| p_heap := h; p_err := Some e |}) as [b stb| | | |]; cbn [agree] in A1; try contradiction. destruct A1 as [<- <-].
  destruct TR as (e' & new & E1 & Z1 & _ & D). exists e'. split; [exact E1|]. split; [exact Z1|].
  destruct D as [[_ D]|(pre & y & post & h2 & e2 & _ & _ & _ & D & _)]; rewrite D in A2;
    destruct (xpull G J f t o j {| p_heap := h; p_err := Some (with_throw T e) |}); cbn [agree] in A2; try contradiction; auto.
Qed.

Definition set_idx (i : option N) (e : est) : est :=
  {| es_errs := es_errs e; es_record := es_record e; es_member := es_member e; es_index := i; es_throw := es_throw e |}.
Lemma items_throw G J T f t js : forall i acc h e after st', es_throw e = 0%N ->
  let s := fun l j' => xbind (xpull G J f t (vinit G t) j') (fun x => l ++ [x]) (fun x => xret (l ++ [x])) in
  xitems s i js acc {| p_heap := h; p_err := Some e |} = QOk after st' ->
  length after = length acc + length js /\ firstn (length acc) after = acc
  /\ forall x now st2, xitems s i js acc {| p_heap := h; p_err := Some (with_throw T e) |} = QThrow x now st2 ->
     exists k cur, k < length js /\ now = firstn (length acc + k) after ++ [cur].
Proof.
  induction js as [|j js IH]; intros i acc h e after st' Z s E.
  - cbn in E. inversion E; subst. split; [cbn; lia|]. split; [apply firstn_all|]. intros x now st2 E2. cbn in E2. discriminate.
  - cbn [xitems] in E. unfold xlift at 1 in E. unfold set_index in E. cbn [p_heap p_err option_map] in E.
    change {| es_errs := es_errs e; es_record := es_record e; es_member := es_member e; es_index := Some i; es_throw := es_throw e |} with (set_idx (Some i) e) in E.
    unfold xbind at 1 in E. unfold s at 1 in E. unfold xbind at 1 in E.
    pose proof (item_throw G J T f t (vinit G t) j h (set_idx (Some i) e) Z) as IT.
    destruct (xpull G J f t (vinit G t) j {| p_heap := h; p_err := Some (set_idx (Some i) e) |}) as [a [h1 er1]| | | |]; try discriminate.
    cbn [xret] in E. cbn [p_heap p_err] in IT. destruct IT as (e1 & -> & Z1 & IT).
    destruct (IH (i + 1)%N (acc ++ [a]) h1 e1 after st' Z1 E) as (L1 & F1 & H1). rewrite app_length in L1, F1, H1. cbn [length] in *.
    assert (F0: firstn (length acc) after = acc).
    { replace acc with (firstn (length acc) (acc ++ [a])) at 2 by (rewrite firstn_app, Nat.sub_diag, firstn_all; cbn; apply app_nil_r).
      rewrite <- F1, firstn_firstn. f_equal. lia. }
    split; [lia|]. split; [exact F0|].
    intros x now st2 E2. cbn [xitems] in E2. unfold xlift at 1 in E2. unfold set_index in E2. cbn [p_heap p_err option_map] in E2.
    change {| es_errs := es_errs (with_throw T e); es_record := es_record (with_throw T e); es_member := es_member (with_throw T e); es_index := Some i; es_throw := es_throw (with_throw T e) |}
      with (with_throw T (set_idx (Some i) e)) in E2.
    unfold xbind at 1 in E2. unfold s at 1 in E2. unfold xbind at 1 in E2.
    destruct (xpull G J f t (vinit G t) j {| p_heap := h; p_err := Some (with_throw T (set_idx (Some i) e)) |}) as [b stb|xb b stb| | |]; try discriminate; try contradiction.
    + destruct IT as [-> ->]. cbn [xret] in E2. destruct (H1 x now st2 E2) as (k & cur & Hk & ->). exists (S k), cur. split; [lia|].
      do 2 f_equal. lia.
    + inversion E2; subst. exists 0, b. split; [lia|]. rewrite Nat.add_0_r, F0. reflexivity.
Qed.

Theorem json_stop_in_sequence : forall G J fuel t old js h e T x now st2, es_throw e = 0%N ->
  xpull G J fuel (TSeq t) old (JArr js) {| p_heap := h; p_err := Some (throwing_on T e) |} = QThrow x now st2 ->
  forall after st', pull G J fuel (TSeq t) old (JArr js) {| p_heap := h; p_err := Some e |} = POk (VList after) st' ->
  exists i cur, i < length js /\ now = VList (firstn i after ++ [cur]).
Proof.
  intros G J fuel t old js h e T x now st2 Z Ex after st' Er.
  pose proof (proj1 (xpull_agrees G J fuel) (TSeq t) old (JArr js) {| p_heap := h; p_err := Some e |}) as AG. rewrite Er in AG.
  destruct (xpull G J fuel (TSeq t) old (JArr js) {| p_heap := h; p_err := Some e |}) as [a sta| | | |] eqn:Ea; cbn [agree] in AG; try contradiction.
  destruct AG as [-> ->]. destruct fuel as [|f]; [discriminate|]. rewrite xpull_S in Ex, Ea. cbn [xpull_body] in Ex, Ea.
  change (throwing_on T e) with (with_throw T e) in Ex. unfold xbind at 1 in Ex. unfold xbind at 1 in Ea.
  match type of Ea with match ?m with _ => _ end = _ => destruct m as [l stl| | | |] eqn:El; try discriminate end. cbn [xret] in Ea. inversion Ea; subst.
  destruct (items_throw G J T f t js 0%N [] h e after st' Z El) as (_ & _ & H). cbn [length plus] in H.
  match type of Ex with match ?m with _ => _ end = _ => destruct m as [l2 stl|x2 l2 stl| | |] eqn:El2; try discriminate end. inversion Ex; subst.
  destruct (H _ _ _ eq_refl) as (k & cur & Hk & ->). eauto.
Qed.
