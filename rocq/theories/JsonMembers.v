(** JsonMembers.v -- pulling and pushing the members of classes (C28, C37) *)
From Coq Require Import String List NArith ZArith Bool Lia Permutation.
From Verif Require Import Base BaseFacts Types TypesFacts BinModel BinSpec BinSafeSpec BinSafe BinFacts Float FloatFacts JsonModel JsonRel JsonErr JsonSpec
  JsonRoundTrip.
Import ListNotations.
Local Open Scope list_scope.
Local Open Scope nat_scope.

Lemma fold_m_ext {A B} (s s' : A -> B -> M A) l : (forall a b st, In b l -> s a b st = s' a b st) -> forall a st, fold_m s l a st = fold_m s' l a st.
Proof.
  induction l as [|b l IH]; intros H a st; cbn [fold_m]; [reflexivity|]. unfold bind. rewrite (H a b st) by (left; reflexivity).
  destruct (s' a b st); try reflexivity. apply IH. intros; apply H; right; assumption.
Qed.

Lemma base_members {G prog b bs Ls} : Forall2 (members G prog) bs Ls -> In b bs -> exists L, In L Ls /\ members G prog b L.
Proof.
  induction 1 as [|b0 L0 bs Ls M0 HB IH]; [intros []|]. intros [->|Hb]; [exists L0; split; [left; reflexivity|exact M0]|].
  destruct (IH Hb) as (Lb & H1 & H2). exists Lb. split; [right; exact H1|exact H2].
Qed.

(** only the first member with the name of a member variable matters *)
Lemma cls_lookup G J ms ms' : forall f c L, members G rc_pull c L ->
  (forall fd, In fd L -> alookup bytes_eqb (jf_name fd) ms = alookup bytes_eqb (jf_name fd) ms') ->
  forall os st, pull_cls G J f c os ms st = pull_cls G J f c os ms' st.
Proof.
  induction f as [|f IH]; intros c L HL HN os st; [reflexivity|]. rewrite pull_cls_S. unfold pull_cls_body.
  inversion HL as [c' rc p Ls Ec Ep HB]; subst. rewrite Ec, Ep. cbv zeta. unfold bind.
  assert (Eb: forall os st, fold_m (fun os b => pull_cls G J f b os ms) (jp_bases p) os st = fold_m (fun os b => pull_cls G J f b os ms') (jp_bases p) os st).
  { apply fold_m_ext. intros a b st0 Hb. destruct (base_members HB Hb) as (Lb & I1 & I2). apply (IH b Lb I2).
    intros fd Hfd. apply HN. apply in_or_app; left. apply in_concat; eauto. }
  rewrite Eb. destruct (fold_m _ (jp_bases p) os st) as [os1 st1| | | |]; try reflexivity.
  assert (Em: forall st, fold_m (fun os fd => pull_member (pull G J f) ms fd os) (jp_fields p) os1 st
                       = fold_m (fun os fd => pull_member (pull G J f) ms' fd os) (jp_fields p) os1 st).
  { apply fold_m_ext. intros a fd st0 Hfd. unfold pull_member. rewrite (HN fd) by (apply in_or_app; right; exact Hfd). reflexivity. }
  destruct (jp_record p); [unfold in_record; rewrite Em; reflexivity|apply Em].
Qed.

Lemma struct_lookup G J c L ms ms' f old st : members G rc_pull c L ->
  (forall fd, In fd L -> alookup bytes_eqb (jf_name fd) ms = alookup bytes_eqb (jf_name fd) ms') ->
  pull G J f (TStruct c) old (JObj ms) st = pull G J f (TStruct c) old (JObj ms') st.
Proof.
  intros HL HN. destruct f as [|f]; [reflexivity|]. rewrite pull_S. cbn [pull_body]. destruct old; try reflexivity.
  unfold bind. rewrite (cls_lookup G J ms ms' f c L HL HN). reflexivity.
Qed.

Lemma alookup_perm (ms ms' : list (bytes * json)) n : Permutation ms ms' -> NoDup (map fst ms) -> alookup bytes_eqb n ms = alookup bytes_eqb n ms'.
Proof.
  intros P ND. assert (ND': NoDup (map fst ms')) by (eapply Permutation_NoDup; [apply Permutation_map; exact P|exact ND]).
  destruct (alookup bytes_eqb n ms) as [j|] eqn:E.
  - symmetry. apply in_alookup; [apply bytes_eqb_eq|exact ND'|]. eapply Permutation_in; [exact P|]. eapply alookup_in; [apply bytes_eqb_eq|exact E].
  - symmetry. destruct (alookup bytes_eqb n ms') as [j|] eqn:E'; [|reflexivity]. exfalso.
    assert (Hn: In n (map fst ms)).
    { eapply Permutation_in; [apply Permutation_map, Permutation_sym, P|]. eapply alookup_some_key; [apply bytes_eqb_eq|exact E']. }
    destruct (alookup_some_in _ bytes_eqb_eq n ms Hn) as [v Ev]. congruence.
Qed.
Lemma alookup_app (n : bytes) (a b : list (bytes * json)) : alookup bytes_eqb n (a ++ b) = match alookup bytes_eqb n a with Some j => Some j | None => alookup bytes_eqb n b end.
Proof. induction a as [|[k x] a IH]; [reflexivity|]. cbn. destruct (bytes_eqb n k); [reflexivity|exact IH]. Qed.

(* ------------------------------------------------------------------ *)
(** * What becomes of each member variable *)

(** the class [b] is [c] or a base class of it *)
Inductive base_of (G : genv) : N -> N -> Prop :=
| bo_self c : base_of G c c
| bo_base c b d rc p : g_class G c = Some rc -> rc_pull rc = Some p -> In b (jp_bases p) -> base_of G b d -> base_of G c d.

(** the error context is that of the member [fd] of class [c] or a base class of it *)
Definition member_context (G : genv) (c : N) (fd : jfield) (er : option est) : Prop :=
  forall e, er = Some e -> es_member e = Some (jf_name fd)
    /\ exists b rc p, base_of G c b /\ g_class G b = Some rc /\ rc_pull rc = Some p /\ In fd (jp_fields p)
       /\ (forall n, jp_record p = Some n -> es_record e = Some n).

(** [updated … L os os']: pulling the members [L] of an object turned the members [os] into [os'] *)
Definition updated (G : genv) (J : jenv) (ctx : jfield -> option est -> Prop) (ms : list (bytes * json)) (L : list jfield) (os os' : list (fkey * val)) : Prop :=
  map fst os' = map fst os
  /\ (forall k, (forall fd, In fd L -> jf_key fd = k -> alookup bytes_eqb (jf_name fd) ms = None) -> alookup fkey_eqb k os' = alookup fkey_eqb k os)
  /\ (NoDup (map jf_key L) -> forall fd j, In fd L -> alookup bytes_eqb (jf_name fd) ms = Some j ->
        exists o x f st1 st2, alookup fkey_eqb (jf_key fd) os = Some o /\ alookup fkey_eqb (jf_key fd) os' = Some x
          /\ pull G J f (jf_ty fd) o j st1 = POk x st2 /\ ctx fd (p_err st1)).

Section Upd.
  Variables (G : genv) (J : jenv) (ms : list (bytes * json)).

  Lemma upd_nil ctx os : updated G J ctx ms [] os os.
  Proof. split; [reflexivity|]. split; [reflexivity|]. intros _ fd j []. Qed.
  Lemma NoDup_app_l {A} (a b : list A) : NoDup (a ++ b) -> NoDup a.
  Proof. induction a as [|x a IH]; cbn; intros H; [constructor|]. inversion H; subst. constructor; [intros Hx; apply H2, in_or_app; auto|auto]. Qed.
  Lemma NoDup_app_r {A} (a b : list A) : NoDup (a ++ b) -> NoDup b.
  Proof. induction a as [|x a IH]; cbn; intros H; [exact H|]. inversion H; auto. Qed.
  Lemma NoDup_app_disj {A} (a b : list A) x : NoDup (a ++ b) -> In x a -> In x b -> False.
  Proof. induction a as [|y a IH]; cbn; intros H Ha Hb; [destruct Ha|]. inversion H; subst. destruct Ha as [->|Ha]; [apply H2, in_or_app; auto|auto]. Qed.

  Lemma upd_app ctx L1 L2 os os1 os2 : updated G J ctx ms L1 os os1 -> updated G J ctx ms L2 os1 os2 -> updated G J ctx ms (L1 ++ L2) os os2.
  Proof.
    intros (A1 & B1 & C1) (A2 & B2 & C2). split; [congruence|]. split.
    - intros k Hk. rewrite B2, B1; [reflexivity| |]; intros fd Hfd; apply Hk; apply in_or_app; auto.
    - intros ND fd j Hfd El. rewrite map_app in ND. apply in_app_or in Hfd. destruct Hfd as [Hfd|Hfd].
      + destruct (C1 (NoDup_app_l _ _ ND) fd j Hfd El) as (o & x & f & s1 & s2 & X1 & X2 & X3 & X4). exists o, x, f, s1, s2.
        split; [exact X1|]. split; [|split; [exact X3|exact X4]]. rewrite B2; [exact X2|]. intros fd' Hfd' Ek. exfalso.
        eapply NoDup_app_disj; [exact ND|apply (in_map jf_key), Hfd|]. rewrite <- Ek. apply in_map, Hfd'.
      + destruct (C2 (NoDup_app_r _ _ ND) fd j Hfd El) as (o & x & f & s1 & s2 & X1 & X2 & X3 & X4). exists o, x, f, s1, s2.
        split; [|split; [exact X2|split; [exact X3|exact X4]]]. rewrite <- (B1 (jf_key fd)); [exact X1|]. intros fd' Hfd' Ek. exfalso.
        eapply NoDup_app_disj; [exact ND|apply (in_map jf_key), Hfd'|]. rewrite Ek. apply in_map, Hfd.
  Qed.
  Lemma upd_imp (ctx ctx' : jfield -> option est -> Prop) L os os' : (forall fd er, In fd L -> ctx fd er -> ctx' fd er) -> updated G J ctx ms L os os' -> updated G J ctx' ms L os os'.
  Proof.
    intros Hi (A1 & B1 & C1). split; [exact A1|]. split; [exact B1|]. intros ND fd j Hfd El.
    destruct (C1 ND fd j Hfd El) as (o & x & f & s1 & s2 & X1 & X2 & X3 & X4). exists o, x, f, s1, s2. auto 6.
  Qed.

  Lemma upd_member f fd os st os' st' (ctx : jfield -> option est -> Prop) :
    ctx fd (p_err (put_member (Some (jf_name fd)) st)) ->
    pull_member (pull G J f) ms fd os st = POk os' st' -> updated G J ctx ms [fd] os os'.
  Proof.
    intros Hc. unfold pull_member. destruct (alookup fkey_eqb (jf_key fd) os) as [o|] eqn:Eo; [|discriminate].
    destruct (alookup bytes_eqb (jf_name fd) ms) as [j|] eqn:Ej.
    - unfold bind, in_member. destruct (pull G J f (jf_ty fd) o j (put_member (Some (jf_name fd)) st)) as [x st1| | | |] eqn:Ep; try discriminate.
      intros E; inversion E; subst. split; [apply aupdate_keys|]. split.
      + intros k Hk. apply alookup_aupdate_other; [apply fkey_eqb_eq|]. intros E2. specialize (Hk fd (or_introl eq_refl) (eq_sym E2)). congruence.
      + intros _ fd' j' [<-|[]] El. rewrite Ej in El. inversion El; subst j'. exists o, x, f, (put_member (Some (jf_name fd)) st), st1.
        split; [exact Eo|]. split; [|split; [exact Ep|exact Hc]]. apply alookup_aupdate_same; [apply fkey_eqb_eq|eapply alookup_some_key; [apply fkey_eqb_eq|exact Eo]].
    - intros E; inversion E; subst. split; [reflexivity|]. split; [reflexivity|]. intros _ fd' j' [<-|[]] El. congruence.
  Qed.

  (** the context while members are pulled *)
  Lemma upd_fields f Lf (P : pst -> Prop) (ctx : jfield -> option est -> Prop) :
    (forall fd st, P st -> In fd Lf -> ctx fd (p_err (put_member (Some (jf_name fd)) st))) ->
    (forall fd os st os' st', P st -> pull_member (pull G J f) ms fd os st = POk os' st' -> P st') ->
    forall os st os' st', P st -> fold_m (fun os fd => pull_member (pull G J f) ms fd os) Lf os st = POk os' st' ->
    updated G J ctx ms Lf os os'.
  Proof.
    intros Hc HP. induction Lf as [|fd Lf IH]; intros os st os' st' Hst E.
    - inversion E; subst. apply upd_nil.
    - cbn [fold_m] in E. unfold bind in E. destruct (pull_member (pull G J f) ms fd os st) as [os1 st1| | | |] eqn:E1; try discriminate.
      change (fd :: Lf) with ([fd] ++ Lf). eapply upd_app.
      + eapply upd_member; [|exact E1]. apply Hc; [exact Hst|left; reflexivity].
      + eapply IH; [|eapply HP; eauto|exact E]. intros fd' st2 H2 Hin. apply Hc; [exact H2|right; exact Hin].
  Qed.
End Upd.

Lemma record_kept G J f ms fd os st os' st' : pull_member (pull G J f) ms fd os st = POk os' st' ->
  match p_err st, p_err st' with Some e, Some e' => es_record e' = es_record e | None, None => True | _, _ => False end.
Proof.
  unfold pull_member. destruct (alookup fkey_eqb (jf_key fd) os) as [o|]; [|discriminate].
  destruct (alookup bytes_eqb (jf_name fd) ms) as [j|].
  - unfold bind, in_member. assert (C := pull_ctx G J f (jf_ty fd) o j (put_member (Some (jf_name fd)) st)).
    destruct (pull G J f (jf_ty fd) o j (put_member (Some (jf_name fd)) st)) as [x st1| | | |]; try discriminate.
    intros E; inversion E; subst. unfold ctx_ok in C. destruct st as [h [e|]], st1 as [h1 [e1|]]; cbn in *; tauto.
  - intros E; inversion E; subst. destruct (p_err st'); auto.
Qed.

Lemma cls_updated G J ms : forall f c L, members G rc_pull c L -> forall os st os' st', pull_cls G J f c os ms st = POk os' st' ->
  updated G J (member_context G c) ms L os os'.
Proof.
  induction f as [|f IH]; intros c L HL os st os' st' E; [discriminate|].
  inversion HL as [c' rc p Ls Ec Ep HB]; subst. rewrite pull_cls_S in E. unfold pull_cls_body in E. rewrite Ec, Ep in E. cbv zeta in E.
  unfold bind at 1 in E.
  destruct (fold_m (fun os b => pull_cls G J f b os ms) (jp_bases p) os st) as [os1 st1| | | |] eqn:E1; try discriminate.
  eapply upd_app.
  - assert (Hb: forall b, In b (jp_bases p) -> In b (jp_bases p)) by auto.
    revert Hb HB os st E1. generalize (jp_bases p) at 1 3 4. intros bs Hb HB. 
    clear E HL. revert Hb. induction HB as [|b Lb bs Ls Mb HB IHb]; intros Hb os st E1; cbn [fold_m concat] in *.
    + inversion E1; subst. apply upd_nil.
    + unfold bind in E1. destruct (pull_cls G J f b os ms st) as [os2 st2| | | |] eqn:E2; try discriminate.
      eapply upd_app; [|eapply IHb; [intros; apply Hb; right; assumption|exact E1]].
      eapply upd_imp; [|apply (IH _ _ Mb _ _ _ _ E2)]. intros fd er _ Hc e Ee. destruct (Hc e Ee) as (C1 & b' & rc' & p' & C2 & C3).
      split; [exact C1|]. exists b', rc', p'. split; [|exact C3]. eapply bo_base; [exact Ec|exact Ep|apply Hb; left; reflexivity|exact C2].
  - assert (Q: forall st os' st', (forall n e, jp_record p = Some n -> p_err st = Some e -> es_record e = Some n) ->
               fold_m (fun os fd => pull_member (pull G J f) ms fd os) (jp_fields p) os1 st = POk os' st' ->
               updated G J (member_context G c) ms (jp_fields p) os1 os').
    { clear E1 E. intros s0 os2 s2 Hr E. refine (upd_fields G J ms f (jp_fields p) (fun st => forall n e, jp_record p = Some n -> p_err st = Some e -> es_record e = Some n) _ _ _ _ _ _ _ Hr E).
      - intros fd s Hs Hin e Ee. destruct s as [h [e0|]]; cbn in Ee; [|discriminate]. inversion Ee; subst e. cbn.
        split; [reflexivity|]. exists c, rc, p. split; [constructor|]. split; [exact Ec|]. split; [exact Ep|]. split; [exact Hin|].
        intros n En. exact (Hs n e0 En eq_refl).
      - intros fd o s o' s' Hs Em n e En Ee. assert (K := record_kept _ _ _ _ _ _ _ _ _ Em). rewrite Ee in K. destruct (p_err s) as [e0|] eqn:E0; [|contradiction].
        rewrite K. eapply Hs; eauto. }
    destruct (jp_record p) as [n|] eqn:En.
    + unfold in_record in E. destruct (fold_m _ (jp_fields p) os1 (put_record (Some n) st1)) as [os2 st2| | | |] eqn:E2; try discriminate.
      inversion E; subst. eapply Q; [|exact E2]. intros m e Em Ee. inversion Em; subst m. destruct st1 as [h [e1|]]; cbn in Ee; [|discriminate]. inversion Ee; reflexivity.
    + eapply Q; [|exact E]. discriminate.
Qed.

Lemma struct_updated G J c L ms f os st v st' : members G rc_pull c L -> pull G J f (TStruct c) (VObj os) (JObj ms) st = POk v st' ->
  exists os', v = VObj os' /\ updated G J (member_context G c) ms L os os'.
Proof.
  intros HL E. destruct f as [|f]; [discriminate|]. rewrite pull_S in E. cbn [pull_body] in E. unfold bind in E.
  destruct (pull_cls G J f c os ms st) as [os' st1| | | |] eqn:E1; try discriminate. inversion E; subst. exists os'. split; [reflexivity|].
  eapply cls_updated; eauto.
Qed.

(* ------------------------------------------------------------------ *)
(** * Members which are pushed *)

(** [pushed G J H fs L ms]: the members [ms] are those for the member variables [L] of an object with the
    members [fs], in order *)
Definition pushed (G : genv) (J : jenv) (H : heap) (fs : list (fkey * val)) : list jfield -> list (bytes * json) -> Prop :=
  Forall2 (fun fd m => fst m = jf_name fd /\ exists f v, alookup fkey_eqb (jf_key fd) fs = Some v /\ push G J H f (jf_ty fd) v = ROk (snd m)).

Lemma cls_pushed G J H fs : forall f c L, members G pushed_by c L -> forall ms0 ms, push_cls G J H f c fs ms0 = ROk ms ->
  exists new, ms = ms0 ++ new /\ pushed G J H fs L new.
Proof.
  induction f as [|f IH]; intros c L HL ms0 ms E; [discriminate|].
  inversion HL as [c' rc p Ls Ec Ep HB]; subst. inversion Ep; subst p. rewrite push_cls_S in E. unfold push_cls_body in E. rewrite Ec in E.
  destruct (push_fold (fun b ms => push_cls G J H f b fs ms) (jp_bases (rc_push rc)) ms0) as [ms1| | | |] eqn:E1; try discriminate. cbn [rbind] in E.
  assert (Q1: exists new, ms1 = ms0 ++ new /\ pushed G J H fs (concat Ls) new).
  { clear E HL Ep. revert HB ms0 E1. generalize (jp_bases (rc_push rc)). intros bs HB. induction HB as [|b Lb bs Ls Mb HB IHb]; intros ms0 E1; cbn [push_fold concat] in *.
    - inversion E1; subst. exists []. split; [symmetry; apply app_nil_r|constructor].
    - destruct (push_cls G J H f b fs ms0) as [ms2| | | |] eqn:E2; try discriminate. cbn [rbind] in E1.
      destruct (IH _ _ Mb _ _ E2) as (n1 & -> & P1). destruct (IHb _ E1) as (n2 & -> & P2). exists (n1 ++ n2).
      split; [apply eq_sym, app_assoc|]. apply Forall2_app; assumption. }
  destruct Q1 as (n1 & -> & P1).
  assert (Q2: exists new, ms = (ms0 ++ n1) ++ new /\ pushed G J H fs (jp_fields (rc_push rc)) new).
  { clear -E. revert E. generalize (ms0 ++ n1). generalize (jp_fields (rc_push rc)). induction l as [|fd l IHl]; intros m0 E; cbn [push_fold] in E.
    - inversion E; subst. exists []. split; [symmetry; apply app_nil_r|constructor].
    - destruct (alookup fkey_eqb (jf_key fd) fs) as [v|] eqn:Ev; [|discriminate].
      destruct (push G J H f (jf_ty fd) v) as [j| | | |] eqn:Ej; try discriminate. cbn [rbind] in E.
      destruct (IHl _ E) as (n2 & -> & P2). exists ((jf_name fd, j) :: n2). rewrite <- app_assoc. split; [reflexivity|].
      constructor; [|exact P2]. split; [reflexivity|]. exists f, v. auto. }
  destruct Q2 as (n2 & -> & P2). exists (n1 ++ n2). rewrite app_assoc. split; [reflexivity|]. apply Forall2_app; assumption.
Qed.

Lemma struct_pushed G J H c L f fs j : members G pushed_by c L -> push G J H f (TStruct c) (VObj fs) = ROk j ->
  exists ms, j = JObj ms /\ map fst ms = map jf_name L /\ pushed G J H fs L ms.
Proof.
  intros HL E. destruct f as [|f]; [discriminate|]. rewrite push_S in E. cbn [push_body] in E.
  destruct (push_cls G J H f c fs []) as [ms| | | |] eqn:E1; try discriminate. inversion E; subst. exists ms. split; [reflexivity|].
  destruct (cls_pushed _ _ _ _ _ _ _ HL _ _ E1) as (new & -> & P). cbn [app]. split; [|exact P].
  clear -P. induction P as [|fd m L ms [E _] P IH]; cbn; [reflexivity|]. congruence.
Qed.
