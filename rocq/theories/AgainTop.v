(** AgainTop.v -- deserialising the same document again changes nothing *)
From Coq Require Import List NArith ZArith Bool Lia.
From Verif Require Import Base BaseFacts Types TypesFacts BinModel BinSpec BinSafeSpec BinFacts ContFacts Float JsonModel JsonRel JsonErr JsonSpec JsonSafeSpec JsonSafe JsonMembers JsonColl JsonTextFacts
  EquivSpec AgainSpec AgainFacts.
Import ListNotations.
Local Open Scope list_scope.

Definition child (j' j : json) : Prop := match j with JArr l => In j' l | JObj ms => exists n, In (n, j') ms | _ => False end.
Lemma json_children (P : json -> Prop) : (forall j, (forall j', child j' j -> P j') -> P j) -> forall j, P j.
Proof.
  intros H j. induction j as [| b | z | n | s | l IH | ms IH] using json_ind2; apply H; cbn; intros j' Hj; try contradiction.
  - rewrite Forall_forall in IH. auto.
  - destruct Hj as (n & Hn). rewrite Forall_forall in IH. exact (IH _ Hn).
Qed.
Lemma ew_child P j j' : everywhere P j -> child j' j -> everywhere P j'.
Proof. intros W Hc. destruct j; try contradiction; [eapply ew_item; eassumption|]. destruct Hc as (n & Hn). eapply ew_member; eassumption. Qed.
Lemma lookup_child n ms j : alookup bytes_eqb n ms = Some j -> child j (JObj ms).
Proof. intros E. exists n. eapply alookup_in; [apply bytes_eqb_eq|exact E]. Qed.
Lemma aupdate_id {V} k (x : V) l : alookup fkey_eqb k l = Some x -> aupdate fkey_eqb k x l = l.
Proof. induction l as [|[k' y] l IH]; cbn; [discriminate|]. destruct (fkey_eqb k k'); [intros [= ->]; reflexivity|intros E; rewrite (IH E); reflexivity]. Qed.
Lemma put_id G ord s u x l : string_keys G ord -> map_shape l -> map_get s l = Some x -> map_put G ord TString (VPair (VStr s) u) x l = l.
Proof.
  intros SK. induction l as [|y l IH]; intros HS E; [discriminate|]. destruct (shape_cons _ _ HS) as [(k & v & ->) HS']. cbn [map_put map_get] in *. rewrite (same_key_eq G ord SK).
  destruct (bytes_eqb k s); [injection E as ->; reflexivity|]. rewrite (IH HS' E). reflexivity.
Qed.

Section Again.
  Variables (G : genv) (J : jenv) (C : mode -> N -> Prop).
  Hypothesis HP : place_ok G.
  Hypothesis SK : forall ord, string_keys G ord.
  Hypothesis HC : classes_considered G C.

  Definition k_val (j : json) := forall t o f st v s, considered C Repeatable t -> keyed G t o -> pull G J f t o j st = POk v s -> keyed G t v.
  Definition a_val (j : json) := distinct_names j -> forall t o f st v s f2 st2 w s2, considered C Repeatable t -> keyed G t o ->
    pull G J f t o j st = POk v s -> pull G J f2 t v j st2 = POk w s2 -> w = v.

  Lemma vinit_keyed t : considered C Repeatable t -> keyed G t (vinit G t).
  Proof.
    induction t using ty_ind'; intros K; cbn [vinit]; cbn [considered] in K; try (apply ky_other; exact I).
    - destruct K as (-> & K & _). match goal with |- keyed _ (TMap _ ?m _ _) _ => destruct m end; [exfalso; apply K; reflexivity|]. constructor; [intros x []|constructor|intros s x []].
    - constructor; [apply IHt1|apply IHt2]; apply K.
    - constructor. induction ts as [|t0 ts IHt]; cbn [map]; constructor; inversion H; subst; [apply H2; exact (proj1 K)|apply IHt; [assumption|exact (proj2 K)]].
    - destruct (HC Repeatable c K) as (rc & L & -> & _ & _ & HK). apply (HK eq_refl).
  Qed.

  (** ** what happens to the members of an object *)
  Section Cls.
    Variable ms : list (bytes * json).
    Variable L : list jfield.
    Hypothesis HF : forall fd, In fd L -> considered C Repeatable (jf_ty fd).
    Hypothesis HN : forall fd fd', In fd L -> In fd' L -> jf_key fd = jf_key fd' -> jf_name fd = jf_name fd' /\ jf_ty fd = jf_ty fd'.
    Hypothesis KV : forall j, child j (JObj ms) -> k_val j.

    Definition okfields (os : list (fkey * val)) : Prop := forall fd x, In fd L -> alookup fkey_eqb (jf_key fd) os = Some x -> keyed G (jf_ty fd) x.
    Definition given (os : list (fkey * val)) (fd : jfield) : Prop := forall j, alookup bytes_eqb (jf_name fd) ms = Some j ->
      exists x f o s s', alookup fkey_eqb (jf_key fd) os = Some x /\ keyed G (jf_ty fd) o /\ pull G J f (jf_ty fd) o j s = POk x s'.
    Definition kept (os os' : list (fkey * val)) : Prop := okfields os' /\ forall fd, In fd L -> given os fd -> given os' fd.
    Lemma kept_refl os : okfields os -> kept os os.
    Proof. intros H. split; auto. Qed.
    Lemma kept_trans a b c : kept a b -> kept b c -> kept a c.
    Proof. intros [_ H1] [H2 H3]. split; auto. Qed.

    Lemma member_kept f fd os st os' s : In fd L -> okfields os -> pull_member (pull G J f) ms fd os st = POk os' s -> kept os os' /\ given os' fd.
    Proof.
      intros Hfd Hok E. unfold pull_member in E. destruct (alookup fkey_eqb (jf_key fd) os) as [o|] eqn:Eo; [|discriminate].
      destruct (alookup bytes_eqb (jf_name fd) ms) as [j|] eqn:Ej.
      - unfold bind, in_member in E. destruct (pull G J f (jf_ty fd) o j _) as [x s1| | | |] eqn:Ex; try discriminate. injection E as <- <-.
        assert (Ko := Hok _ _ Hfd Eo). assert (Kx := KV j (lookup_child _ _ _ Ej) _ _ _ _ _ _ (HF _ Hfd) Ko Ex).
        assert (Up : forall fd', In fd' L -> jf_key fd' = jf_key fd -> alookup fkey_eqb (jf_key fd') (aupdate fkey_eqb (jf_key fd) x os) = Some x).
        { intros fd' _ ->. apply (alookup_aupdate_same _ fkey_eqb_eq). eapply alookup_some_key; [apply fkey_eqb_eq|exact Eo]. }
        assert (Gv : forall fd', In fd' L -> jf_key fd' = jf_key fd -> given (aupdate fkey_eqb (jf_key fd) x os) fd').
        { intros fd' Hfd' Ek j' Ej'. destruct (HN _ _ Hfd' Hfd Ek) as [E1 E2]. rewrite E1, Ej in Ej'. injection Ej' as <-. rewrite E2. eexists x, f, o, _, _. split; [apply Up; assumption|]. split; [exact Ko|exact Ex]. }
        split; [|apply Gv; auto]. split.
        + intros fd' y Hfd' Ey. destruct (fkey_eq_dec (jf_key fd') (jf_key fd)) as [Ek|Nk].
          * rewrite (Up fd' Hfd' Ek) in Ey. injection Ey as <-. destruct (HN _ _ Hfd' Hfd Ek) as [_ ->]. exact Kx.
          * rewrite (alookup_aupdate_other _ fkey_eqb_eq) in Ey by exact Nk. eapply Hok; eassumption.
        + intros fd' Hfd' Hg. destruct (fkey_eq_dec (jf_key fd') (jf_key fd)) as [Ek|Nk]; [apply Gv; assumption|].
          intros j' Ej'. destruct (Hg j' Ej') as (y & f' & o' & s2 & s2' & E1 & E2). exists y, f', o', s2, s2'. rewrite (alookup_aupdate_other _ fkey_eqb_eq) by exact Nk. auto.
      - injection E as <- <-. split; [apply kept_refl; exact Hok|]. intros j Q. congruence.
    Qed.
    Lemma fold_kept {B} (step : list (fkey * val) -> B -> M (list (fkey * val))) (Q : B -> jfield -> Prop) l :
      (forall b os st os' s, In b l -> okfields os -> step os b st = POk os' s -> kept os os' /\ forall fd, In fd L -> Q b fd -> given os' fd) ->
      forall os st os' s, okfields os -> fold_m step l os st = POk os' s -> kept os os' /\ forall b fd, In b l -> In fd L -> Q b fd -> given os' fd.
    Proof.
      induction l as [|b l IH]; intros H os st os' s Hok E; cbn [fold_m] in E.
      - injection E as <- <-. split; [apply kept_refl; exact Hok|]. intros b fd [].
      - unfold bind in E. destruct (step os b st) as [os1 s1| | | |] eqn:E1; try discriminate.
        destruct (H b _ _ _ _ (or_introl eq_refl) Hok E1) as [K1 G1].
        destruct (IH (fun b os st os' s Hb => H b os st os' s (or_intror Hb)) _ _ _ _ (proj1 K1) E) as [K2 G2].
        split; [eapply kept_trans; eassumption|]. intros b' fd [<-|Hb] Hfd HQ; [|eapply G2; eassumption]. apply K2; [exact Hfd|]. apply G1; assumption.
    Qed.
    Lemma cls_kept : forall f c Lc, members G rc_pull c Lc -> incl Lc L -> forall os st os' s, okfields os -> pull_cls G J f c os ms st = POk os' s ->
      kept os os' /\ forall fd, In fd Lc -> given os' fd.
    Proof.
      induction f as [|f IH]; intros c Lc HL Hi os st os' s Hok E; [discriminate|].
      inversion HL as [c' rc p Ls Ec Ep HB]; subst. rewrite pull_cls_S in E. unfold pull_cls_body in E. rewrite Ec, Ep in E. cbv zeta in E. unfold bind at 1 in E.
      destruct (fold_m (fun os b => pull_cls G J f b os ms) (jp_bases p) os st) as [os1 s1| | | |] eqn:E1; try discriminate.
      destruct (fold_kept (fun os b => pull_cls G J f b os ms) (fun b fd => exists Lb, members G rc_pull b Lb /\ In fd Lb) (jp_bases p)) with (os := os) (st := st) (os' := os1) (s := s1) as [K1 G1]; [|exact Hok|exact E1|].
      { intros b os0 st0 os0' s0 Hb Hok0 E0. destruct (base_members HB Hb) as (Lb & HiL & Hb').
        assert (Hib : incl Lb L) by (intros fd Hfd; apply Hi; apply in_or_app; left; apply in_concat; eauto).
        destruct (IH b Lb Hb' Hib _ _ _ _ Hok0 E0) as [K0 G0]. split; [exact K0|]. intros fd Hfd (Lb2 & HL2 & Hin). rewrite (members_fun _ _ _ _ HL2 _ Hb') in Hin. auto. }
      assert (Q : forall st2 os2 s2, fold_m (fun os fd => pull_member (pull G J f) ms fd os) (jp_fields p) os1 st2 = POk os2 s2 -> kept os1 os2 /\ forall fd, In fd (jp_fields p) -> given os2 fd).
      { intros st2 os2 s2 E2. destruct (fold_kept (fun os fd => pull_member (pull G J f) ms fd os) (fun b fd => b = fd) (jp_fields p)) with (os := os1) (st := st2) (os' := os2) (s := s2) as [K2 G2]; [|apply K1|exact E2|].
        - intros b os0 st0 os0' s0 Hb Hok0 E0. assert (Hbl : In b L) by (apply Hi; apply in_or_app; right; exact Hb). destruct (member_kept _ _ _ _ _ _ Hbl Hok0 E0) as [K0 G0]. split; [exact K0|]. intros fd _ <-. exact G0.
        - split; [exact K2|]. intros fd Hfd. eapply G2; [exact Hfd|apply Hi; apply in_or_app; right; exact Hfd|reflexivity]. }
      assert (E' : exists st2 s2, fold_m (fun os fd => pull_member (pull G J f) ms fd os) (jp_fields p) os1 st2 = POk os' s2).
      { destruct (jp_record p) as [n|]; [|eauto]. unfold in_record in E. destruct (fold_m _ (jp_fields p) os1 (put_record (Some n) s1)) as [x s2| | | |] eqn:E2; try discriminate. injection E as <- <-. eauto. }
      destruct E' as (st2 & s2 & E2). destruct (Q _ _ _ E2) as [K2 G2]. split; [eapply kept_trans; eassumption|].
      intros fd Hfd. apply in_app_or in Hfd. destruct Hfd as [Hfd|Hfd]; [|auto]. apply K2; [apply Hi; apply in_or_app; left; exact Hfd|].
      apply in_concat in Hfd. destruct Hfd as (Lb & HiL & Hfd).
      assert (exists b, In b (jp_bases p) /\ members G rc_pull b Lb) as (b & Hb & Hb').
      { clear -HB HiL. induction HB as [|b0 L0 bs Ls M0 HB IH]; [destruct HiL|]. destruct HiL as [->|Hi]; [exists b0; split; [left; reflexivity|exact M0]|]. destruct (IH Hi) as (b & H1 & H2). exists b. split; [right; exact H1|exact H2]. }
      apply (G1 b fd Hb); [apply Hi; apply in_or_app; left; apply in_concat; eauto|eauto].
    Qed.

    (** once more *)
    Hypothesis AV : forall j, child j (JObj ms) -> a_val j.
    Hypothesis HD : distinct_names (JObj ms).
    Lemma fold_same {A B} (step : A -> B -> M A) l a : (forall b st a' s, In b l -> step a b st = POk a' s -> a' = a) -> forall st a' s, fold_m step l a st = POk a' s -> a' = a.
    Proof.
      induction l as [|b l IH]; intros H st a' s E; cbn [fold_m] in E; [injection E as <- <-; reflexivity|]. unfold bind in E. destruct (step a b st) as [a1 s1| | | |] eqn:E1; try discriminate.
      rewrite (H b _ _ _ (or_introl eq_refl) E1) in E. eapply IH; [|exact E]. intros; eapply H; [right; eassumption|eassumption].
    Qed.
    Lemma cls_again os : (forall fd, In fd L -> given os fd) -> forall f c Lc, members G rc_pull c Lc -> incl Lc L -> forall st os' s, pull_cls G J f c os ms st = POk os' s -> os' = os.
    Proof.
      intros Hg. induction f as [|f IH]; intros c Lc HL Hi st os' s E; [discriminate|].
      inversion HL as [c' rc p Ls Ec Ep HB]; subst. rewrite pull_cls_S in E. unfold pull_cls_body in E. rewrite Ec, Ep in E. cbv zeta in E. unfold bind at 1 in E.
      destruct (fold_m (fun os b => pull_cls G J f b os ms) (jp_bases p) os st) as [os1 s1| | | |] eqn:E1; try discriminate.
      apply fold_same in E1.
      2:{ intros b st0 a' s0 Hb E0. destruct (base_members HB Hb) as (Lb & HiL & Hb'). eapply IH; [exact Hb'| |exact E0]. intros fd Hfd; apply Hi; apply in_or_app; left; apply in_concat; eauto. }
      subst os1.
      assert (Q : forall st2 os2 s2, fold_m (fun os fd => pull_member (pull G J f) ms fd os) (jp_fields p) os st2 = POk os2 s2 -> os2 = os).
      { intros st2 os2 s2 E2. eapply fold_same; [|exact E2]. intros fd st0 a' s0 Hfd E0. assert (Hfl : In fd L) by (apply Hi; apply in_or_app; right; exact Hfd).
        unfold pull_member in E0. destruct (alookup fkey_eqb (jf_key fd) os) as [o|] eqn:Eo; [|discriminate].
        destruct (alookup bytes_eqb (jf_name fd) ms) as [j|] eqn:Ej; [|injection E0 as <- <-; reflexivity].
        unfold bind, in_member in E0. destruct (pull G J f (jf_ty fd) o j _) as [x s3| | | |] eqn:Ex; try discriminate. injection E0 as <- <-.
        destruct (Hg fd Hfl j Ej) as (y & f1 & o1 & s4 & s4' & Ey & Ko & Ep1). rewrite Eo in Ey. injection Ey as <-.
        assert (Hch := lookup_child _ _ _ Ej). rewrite (AV j Hch (ew_child _ _ _ HD Hch) _ _ _ _ _ _ _ _ _ _ (HF _ Hfl) Ko Ep1 Ex). apply aupdate_id. exact Eo. }
      destruct (jp_record p) as [n|]; [|eapply Q; exact E]. unfold in_record in E. destruct (fold_m _ (jp_fields p) os (put_record (Some n) s1)) as [x s2| | | |] eqn:E2; try discriminate. injection E as <- <-. eapply Q; exact E2.
    Qed.
  End Cls.

  Lemma tuple_keyed f ts : forall os js st xs s, (forall j, In j js -> k_val j) -> (fix all l := match l with [] => True | t :: l' => considered C Repeatable t /\ all l' end) ts ->
    Forall2 (keyed G) ts os -> pull_tuple (pull G J f) ts os js st = POk xs s -> Forall2 (keyed G) ts xs.
  Proof.
    induction ts as [|t ts IH]; intros os js st xs s KV K F E; inversion F; subst; cbn [pull_tuple] in E.
    - injection E as <- <-. constructor.
    - destruct js as [|j js]; [discriminate|]. unfold bind in E. destruct (pull G J f t _ j st) as [x s1| | | |] eqn:E1; try discriminate. destruct (pull_tuple _ ts _ js s1) as [ys s2| | | |] eqn:E2; try discriminate.
      injection E as <- <-. constructor; [eapply KV; [left; reflexivity|exact (proj1 K)|eassumption|exact E1]|]. eapply IH; [|exact (proj2 K)|eassumption|exact E2]. intros; apply KV; right; assumption.
  Qed.
  Lemma tuple_again f f2 ts : forall os js st xs s st2 ys s2, (forall j, In j js -> a_val j /\ distinct_names j) -> (fix all l := match l with [] => True | t :: l' => considered C Repeatable t /\ all l' end) ts ->
    Forall2 (keyed G) ts os -> pull_tuple (pull G J f) ts os js st = POk xs s -> pull_tuple (pull G J f2) ts xs js st2 = POk ys s2 -> ys = xs.
  Proof.
    induction ts as [|t ts IH]; intros os js st xs s st2 ys s2 AV K F E E'; inversion F; subst; cbn [pull_tuple] in E.
    - injection E as <- <-. cbn [pull_tuple] in E'. injection E' as <- <-. reflexivity.
    - destruct js as [|j js]; [discriminate|]. unfold bind in E. destruct (pull G J f t _ j st) as [x s1| | | |] eqn:E1; try discriminate. destruct (pull_tuple _ ts _ js s1) as [xs1 s3| | | |] eqn:E2; try discriminate.
      injection E as <- <-. cbn [pull_tuple] in E'. unfold bind in E'. destruct (pull G J f2 t x j st2) as [x' s4| | | |] eqn:E3; try discriminate. destruct (pull_tuple _ ts _ js s4) as [ys1 s5| | | |] eqn:E4; try discriminate.
      injection E' as <- <-. destruct (AV j (or_introl eq_refl)) as [Aj Dj]. f_equal; [eapply Aj; [exact Dj|exact (proj1 K)|eassumption|exact E1|exact E3]|].
      eapply IH; [|exact (proj2 K)|eassumption|exact E2|exact E4]. intros; apply AV; right; assumption.
  Qed.

  Lemma mismatch_old t j o st v s : mismatch t j o st = POk v s -> v = o.
  Proof. unfold mismatch, bind. destruct (report _ _ _ st); intros E; try discriminate. injection E as <- <-. reflexivity. Qed.
  Lemma report_old k x y (o : val) st v s : bind (report k x y) (fun _ => ret o) st = POk v s -> v = o.
  Proof. unfold bind. destruct (report _ _ _ st); intros E; try discriminate. injection E as <- <-. reflexivity. Qed.

  Lemma keyed_all j : k_val j.
  Proof.
    induction j as [j IH] using json_children. intros t o f st v s K Ko E. destruct f as [|f]; [discriminate|]. rewrite pull_S in E.
    destruct t; try (apply ky_other; exact I); cbn [considered] in K; unfold pull_body in E.
    - (* map *) destruct K as (-> & Km & K). destruct multi; [exfalso; apply Km; reflexivity|]. inversion Ko as [ord' vt l HS ND HV| | | |t' v' X]; subst; [|contradiction].
      destruct j as [ | | | | | |ms]; try (rewrite (mismatch_old _ _ _ _ _ _ E); exact Ko).
      assert (E' : pull G J (S f) (TMap ord false TString t2) (VList l) (JObj ms) st = POk v s) by (rewrite pull_S; exact E).
      destruct (map_merged G ord HP (SK ord) J t2 l ms _ _ _ _ HS ND E') as (l' & -> & HS' & ND' & PI & _). constructor; [exact HS'|exact ND'|].
      intros k x Hx. specialize (PI k). rewrite (get_val k x l' HS' ND' Hx) in PI.
      assert (Kold : keyed G t2 (match map_get k l with Some v => v | None => vinit G t2 end)).
      { destruct (map_get k l) as [v0|] eqn:E0; [eapply HV; apply get_some; [exact HS|exact E0]|apply vinit_keyed; exact K]. }
      assert (Hsub : forall j, In j (members_named k ms) -> child j (JObj ms)).
      { intros j Hj. unfold members_named in Hj. apply in_map_iff in Hj. destruct Hj as ([n j0] & <- & Hj). apply filter_In in Hj. exists n. apply Hj. }
      remember (members_named k ms) as js eqn:Ejs. clear Ejs. remember (map_get k l) as o0 eqn:Eo0. clear Eo0. remember (Some x) as o1 eqn:Eo1. revert Hsub Kold Eo1. clear - IH K PI.
      induction PI as [o|o j js x0 o' f st1 st2 Ep PI IHp]; intros Hsub Kold Eo1; [subst; exact Kold|]. apply IHp; [intros; apply Hsub; right; assumption| |exact Eo1].
      eapply IH; [apply Hsub; left; reflexivity|exact K|exact Kold|exact Ep].
    - (* pair *) inversion Ko as [|ta tb a b Ka Kb| | |t' v' X]; subst; [|contradiction]. destruct j as [ | | | | |js| ]; try (rewrite (mismatch_old _ _ _ _ _ _ E); exact Ko).
      destruct (Nat.eqb_spec (length js) 2) as [L2|L2]; [|rewrite (report_old _ _ _ _ _ _ _ E); exact Ko]. destruct js as [|ja [|jb [|]]]; try discriminate. cbn [nth_error] in E.
      unfold bind in E. destruct (pull G J f t1 a ja st) as [x s1| | | |] eqn:E1; try discriminate. destruct (pull G J f t2 b jb s1) as [y s2| | | |] eqn:E2; try discriminate. injection E as <- <-.
      constructor; [eapply (IH ja); [left; reflexivity|exact (proj1 K)|exact Ka|exact E1]|eapply (IH jb); [right; left; reflexivity|exact (proj2 K)|exact Kb|exact E2]].
    - (* tuple *) inversion Ko as [| |ts' l F| |t' v' X]; subst; [|contradiction]. destruct ts as [|t0 ts]; [discriminate|]. destruct j as [ | | | | |js| ]; try (rewrite (mismatch_old _ _ _ _ _ _ E); exact Ko).
      destruct (Nat.eqb_spec (length js) (length (t0 :: ts))) as [L2|L2]; [|rewrite (report_old _ _ _ _ _ _ _ E); exact Ko].
      unfold bind in E. destruct (pull_tuple _ _ _ js st) as [xs s1| | | |] eqn:E1; try discriminate. injection E as <- <-. constructor.
      eapply (tuple_keyed f (t0 :: ts)); [|exact K|exact F|exact E1]. intros j Hj. apply IH. exact Hj.
    - (* class *) inversion Ko as [| | |c' fs HK|t' v' X]; subst; [|contradiction]. destruct j as [ | | | | | |ms]; try (rewrite (mismatch_old _ _ _ _ _ _ E); exact Ko).
      destruct (HC Repeatable c K) as (rc & L & Ec & HL & HF & HN). destruct (HN eq_refl) as [HN' _].
      unfold bind in E. destruct (pull_cls G J f c fs ms st) as [os s1| | | |] eqn:E1; try discriminate. injection E as <- <-. constructor.
      intros L2 fd x HL2 Hfd Ex. rewrite (members_fun _ _ _ _ HL2 _ HL) in Hfd.
      destruct (cls_kept ms L HF HN' IH f c L HL (incl_refl L) fs st os s1) as [[Hok _] _]; [intros fd' x' H1 H2; exact (HK L fd' x' HL H1 H2)|exact E1|]. exact (Hok fd x Hfd Ex).
  Qed.

  Lemma same_names (ms : list (bytes * json)) n j : NoDup (names ms) -> In (n, j) ms -> members_named (cstr n) ms = [j].
  Proof.
    unfold members_named, names. induction ms as [|[m x] ms IH]; intros ND []; cbn [filter map fst] in *; inversion ND as [|y ys Hn ND']; subst.
    - injection H as -> ->. rewrite (proj2 (bytes_eqb_eq _ _) eq_refl). cbn [map snd]. f_equal.
      destruct (filter _ ms) as [|[m' x'] r] eqn:Ef; [reflexivity|]. exfalso. apply Hn. assert (Hi : In (m', x') (filter (fun m => bytes_eqb (cstr (fst m)) (cstr n)) ms)) by (rewrite Ef; left; reflexivity).
      apply filter_In in Hi. destruct Hi as [Hi Eb]. apply bytes_eqb_eq in Eb. cbn in Eb. rewrite <- Eb. apply (in_map (fun m => cstr (fst m)) _ _ Hi).
    - destruct (bytes_eqb (cstr m) (cstr n)) eqn:Eb; [|apply IH; assumption]. exfalso. apply bytes_eqb_eq in Eb. apply Hn. rewrite Eb. exact (in_map (fun m => cstr (fst m)) _ _ H).
  Qed.

  Lemma again_all j : a_val j.
  Proof.
    induction j as [j IH] using json_children. intros HD t o f st v s f2 st2 w s2 K Ko E E2.
    destruct f as [|f]; [discriminate|]. destruct f2 as [|f2]; [discriminate|].
    (* a result which does not depend on the previous value *)
    assert (Fresh : (forall o o' st, pull G J (S f2) t o j st = pull G J (S f2) t o' j st) -> w = v).
    { intros H. rewrite (H v o) in E2. symmetry. eapply (proj1 (value_det G J C HC (S f)) (S f2) Repeatable t o j ltac:(discriminate) K); eassumption. }
    (* a result which is the previous value *)
    assert (Old : (forall o st v s, pull G J (S f2) t o j st = POk v s -> v = o) -> w = v) by (intros H; eapply H; exact E2).
    assert (MO : forall t' j' o st v s, mismatch t' j' o st = POk v s -> v = o) by (intros; eapply mismatch_old; eassumption).
    assert (DT : forall P : bytes -> option Z, (forall f o st, pull G J (S f) t o j st = (let? s := match j with JStr s => ret (cstr s) | _ => let? _ := mismatch t j o in ret [] end in
          match P s with Some z => ret (VInt z) | None => let? _ := report ConversionError JTString JTString in ret o end) st) -> w = v).
    { intros P H. rewrite H in E, E2.
      assert (Q : forall o st v s, (let? s := match j with JStr s => ret (cstr s) | _ => let? _ := mismatch t j o in ret [] end in
          match P s with Some z => ret (VInt z) | None => let? _ := report ConversionError JTString JTString in ret o end) st = POk v s ->
          match P (match j with JStr s => cstr s | _ => [] end) with Some z => v = VInt z | None => v = o end).
      { clear. intros o st v s E. unfold bind at 1 in E.
        destruct j; try (destruct (bind (mismatch t _ o) (fun _ => ret []) st) as [x s1| | | |] eqn:E1; try discriminate; unfold bind in E1; destruct (mismatch t _ o st); try discriminate; injection E1 as <- <-;
          destruct (P []); [injection E as <- <-; reflexivity|eapply report_old; exact E]).
        cbn in E. destruct (P (cstr s0)); [injection E as <- <-; reflexivity|eapply report_old; exact E]. }
      apply Q in E. apply Q in E2. destruct (P _); congruence. }
    destruct t; cbn [considered] in K.
    - destruct j; try (apply Old; intros o1 st1 v1 s1; rewrite pull_S; apply MO). apply Fresh. intros; rewrite !pull_S; reflexivity.
    - destruct (is_number j) eqn:En.
      + apply Fresh. intros. rewrite !pull_S. cbn [pull_body]. rewrite En. reflexivity.
      + apply Old. intros o1 st1 v1 s1. rewrite pull_S. cbn [pull_body]. rewrite En. destruct (json_kind k); [apply MO|]. destruct (byte_kind k); [apply MO|discriminate].
    - destruct (get_double j) eqn:En; [apply Fresh|apply Old]; intros; [rewrite !pull_S; cbn [pull_body]; rewrite En; reflexivity|]. rewrite pull_S in *. cbn [pull_body] in *. rewrite En in *. eapply MO; eassumption.
    - destruct (get_double j) eqn:En; [apply Fresh|apply Old]; intros; [rewrite !pull_S; cbn [pull_body]; rewrite En; reflexivity|]. rewrite pull_S in *. cbn [pull_body] in *. rewrite En in *. eapply MO; eassumption.
    - destruct j; try (apply Old; intros o1 st1 v1 s1; rewrite pull_S; apply MO). destruct (in_range (enum_kind k) z) eqn:En; [apply Fresh|apply Old]; intros; [rewrite !pull_S; cbn [pull_body]; rewrite En; reflexivity|].
      rewrite pull_S in *. cbn [pull_body] in *. rewrite En in *. eapply MO; eassumption.
    - destruct j; try (apply Old; intros o1 st1 v1 s1; rewrite pull_S; apply MO). apply Fresh. intros; rewrite !pull_S; reflexivity.
    - destruct j; try (apply Old; intros o1 st1 v1 s1; rewrite pull_S; apply MO). apply Fresh. intros; rewrite !pull_S; reflexivity.
    - destruct j; try (apply Old; intros o1 st1 v1 s1; rewrite pull_S; apply MO). apply Fresh. intros; rewrite !pull_S; reflexivity.
    - (* map *) destruct K as (-> & Km & K). destruct multi; [exfalso; apply Km; reflexivity|]. inversion Ko as [ord' vt l HS ND HV| | | |t' v' X]; subst; [|contradiction].
      destruct (match j with JObj _ => true | _ => false end) eqn:Eobj.
      2:{ assert (v = VList l) as -> by (rewrite pull_S in E; unfold pull_body in E; destruct j; try discriminate Eobj; eapply MO; exact E). rewrite pull_S in E2; unfold pull_body in E2; destruct j; try discriminate Eobj; eapply MO; exact E2. }
      destruct j as [ | | | | | |ms]; try discriminate Eobj. clear Eobj.
      destruct (map_merged G ord HP (SK ord) J t2 l ms _ _ _ _ HS ND E) as (l' & -> & HS' & ND' & PI & _).
      rewrite pull_S in E2. unfold pull_body in E2. unfold bind at 1 in E2.
      match type of E2 with match ?m with _ => _ end = _ => destruct m as [l2 s3| | | |] eqn:E3; try discriminate end. injection E2 as <- <-. f_equal.
      assert (HDN : NoDup (names ms)) by (exact (ew_here _ _ HD)).
      eapply fold_same; [|exact E3]. intros [n j'] st3 a' s4 Hin E4. cbv zeta in E4. rewrite (find_get G ord (SK ord) _ _ _ HS') in E4.
      specialize (PI (cstr n)). rewrite (same_names ms n j' HDN Hin) in PI. inversion PI as [|o1 j1 js1 x o2 f1 sa sb Ep PI2]; subst. inversion PI2 as [o3 Eo3|]; subst. 
      match goal with Q : Some x = map_get (cstr n) l' |- _ => rewrite <- Q in E4; symmetry in Q; rename Q into Eget end.
      unfold bind in E4. destruct (pull G J f2 t2 x j' st3) as [y s5| | | |] eqn:E5; try discriminate. injection E4 as <- <-.
      assert (Hch : child j' (JObj ms)) by (exists n; exact Hin).
      assert (Kold : keyed G t2 (match map_get (cstr n) l with Some v => v | None => vinit G t2 end)).
      { destruct (map_get (cstr n) l) as [v0|] eqn:E0; [eapply HV; apply get_some; [exact HS|exact E0]|apply vinit_keyed; exact K]. }
      rewrite (IH j' Hch (ew_child _ _ _ HD Hch) _ _ _ _ _ _ _ _ _ _ K Kold Ep E5). apply put_id; [apply SK|exact HS'|exact Eget].
    - (* pair *) inversion Ko as [|ta tb a b Ka Kb| | |t' v' X]; subst; [|contradiction]. rewrite pull_S in E, E2. unfold pull_body in E, E2.
      destruct j as [ | | | | |js| ]; try (assert (v = VPair a b) as -> by (eapply MO; exact E); eapply MO; exact E2).
      destruct (Nat.eqb_spec (length js) 2) as [L2|L2]; [|assert (v = VPair a b) as -> by (eapply report_old; exact E); eapply report_old; exact E2]. destruct js as [|ja [|jb [|]]]; try discriminate. cbn [nth_error] in E, E2.
      unfold bind in E. destruct (pull G J f t1 a ja st) as [x s1| | | |] eqn:E1; try discriminate. destruct (pull G J f t2 b jb s1) as [y s3| | | |] eqn:E3; try discriminate. injection E as <- <-.
      unfold bind in E2. destruct (pull G J f2 t1 x ja st2) as [x' s1'| | | |] eqn:E1'; try discriminate. destruct (pull G J f2 t2 y jb s1') as [y' s3'| | | |] eqn:E3'; try discriminate. injection E2 as <- <-.
      assert (Ca : child ja (JArr [ja; jb])) by (left; reflexivity). assert (Cb : child jb (JArr [ja; jb])) by (right; left; reflexivity).
      f_equal; [exact (IH ja Ca (ew_child _ _ _ HD Ca) _ _ _ _ _ _ _ _ _ _ (proj1 K) Ka E1 E1')|exact (IH jb Cb (ew_child _ _ _ HD Cb) _ _ _ _ _ _ _ _ _ _ (proj2 K) Kb E3 E3')].
    - (* tuple *) inversion Ko as [| |ts' l F| |t' v' X]; subst; [|contradiction]. rewrite pull_S in E, E2. unfold pull_body in E, E2. destruct ts as [|t0 ts]; [discriminate|].
      destruct j as [ | | | | |js| ]; try (assert (v = VList l) as -> by (eapply MO; exact E); eapply MO; exact E2).
      destruct (Nat.eqb_spec (length js) (length (t0 :: ts))) as [L2|L2]; [|assert (v = VList l) as -> by (eapply report_old; exact E); eapply report_old; exact E2].
      unfold bind in E. destruct (pull_tuple _ _ _ js st) as [xs s1| | | |] eqn:E1; try discriminate. injection E as <- <-.
      unfold bind in E2. destruct (pull_tuple _ _ _ js st2) as [ys s3| | | |] eqn:E3; try discriminate. injection E2 as <- <-. f_equal.
      eapply (tuple_again f f2 (t0 :: ts)); [|exact K|exact F|exact E1|exact E3]. intros j Hj. assert (Hch : child j (JArr js)) by exact Hj. split; [apply IH; exact Hch|exact (ew_child _ _ _ HD Hch)].
    - apply Fresh. intros; rewrite !pull_S; reflexivity.
    - apply Fresh. intros; rewrite !pull_S; reflexivity.
    - destruct K as [K _]. discriminate.
    - (* variant *) destruct j as [ | | | | | |ms]; try (apply Old; intros o1 st1 v1 s1; rewrite pull_S; apply MO).
      assert (D : (forall o o' st, pull G J (S f2) (TVariant ts) o (JObj ms) st = pull G J (S f2) (TVariant ts) o' (JObj ms) st) \/ (forall o st v s, pull G J (S f2) (TVariant ts) o (JObj ms) st = POk v s -> v = o)); [|destruct D; auto].
      clear. change (pull G J (S f2)) with (pull_body G J (pull G J f2) (pull_cls G J f2)). unfold pull_body.
      destruct (alookup _ _ ms) as [ji|]; [|right; intros; eapply report_old; eassumption]. destruct (alookup _ _ ms) as [jd|]; [|right; intros; eapply report_old; eassumption].
      destruct ji as [ | |z| | | | ]; try (right; intros; eapply report_old; eassumption). destruct (in_range KU64 z); [|right; intros; eapply report_old; eassumption].
      destruct (Z.to_N z <? N.of_nat (length ts))%N; [|right; intros; eapply report_old; eassumption]. destruct (nth_error ts (Z.to_nat z)) as [t'|]; [|right; intros; eapply report_old; eassumption].
      left. intros. destruct t'; reflexivity.
    - rewrite pull_S in E. discriminate.
    - (* class *) inversion Ko as [| | |c' fs HK|t' v' X]; subst; [|contradiction]. rewrite pull_S in E, E2. unfold pull_body in E, E2.
      destruct j as [ | | | | | |ms]; try (assert (v = VObj fs) as -> by (eapply MO; exact E); eapply MO; exact E2).
      destruct (HC Repeatable c K) as (rc & L & Ec & HL & HF & HN). destruct (HN eq_refl) as [HN' _].
      unfold bind in E. destruct (pull_cls G J f c fs ms st) as [os s1| | | |] eqn:E1; try discriminate. injection E as <- <-.
      unfold bind in E2. destruct (pull_cls G J f2 c os ms st2) as [os2 s3| | | |] eqn:E3; try discriminate. injection E2 as <- <-. f_equal.
      destruct (cls_kept ms L HF HN' (fun j _ => keyed_all j) f c L HL (incl_refl L) fs st os s1) as [_ Hg]; [intros fd' x' H1 H2; exact (HK L fd' x' HL H1 H2)|exact E1|].
      exact (cls_again ms L HF IH HD os Hg f2 c L HL (incl_refl L) _ _ _ E3).
    - eapply (DT (je_dt_parse J)). intros; rewrite pull_S; reflexivity.
    - eapply (DT (je_ts_parse J)). intros; rewrite pull_S; reflexivity.
    - apply Old. intros o1 st1 v1 s1. rewrite pull_S. cbn [pull_body]. destruct j; try apply MO. intros [= <- <-]; reflexivity.
    - apply Old. intros o1 st1 v1 s1. rewrite pull_S. cbn [pull_body]. destruct j; try apply MO. intros [= <- <-]; reflexivity.
  Qed.
End Again.
