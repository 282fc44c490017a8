(** HistFacts.v -- lemmas about histories (property C70) *)
From Coq Require Import String List NArith ZArith Bool Lia.
From Verif Require Import Base BaseFacts Types TypesFacts BinModel BinSpec BinSafeSpec BinSafe BinTop BinExc BinExcFacts BinExcTop Float JsonModel JsonErr JsonText JsonTextEnd JsonSpec JsonSafeSpec JsonFacts JsonExc JsonExcTop
  SerSpec BoundSpec BoundFacts JBoundFacts JTreeSpec JTreeGrow AddrSpec AddrFacts AddrWrite EquivRun EquivTop PropertiesText PropertiesAddr PropertiesJTree HistSpec.
From Verif Require XTree.
Import ListNotations.
Local Open Scope list_scope.
Local Open Scope nat_scope.

Lemma replaced_nth {A} (l : list A) i x k : nth_error (replaced i x l) k = if Nat.eqb i k then match nth_error l k with Some _ => Some x | None => None end else nth_error l k.
Proof.
  revert i k. induction l as [|y l IH]; intros i k; [destruct i, k; cbn; try reflexivity; destruct (Nat.eqb i k); reflexivity|].
  destruct i as [|i], k as [|k]; cbn; try reflexivity. apply IH.
Qed.
Lemma replaced_types (l : list (ty * val)) i t v old : nth_error l i = Some (t, old) -> map fst (replaced i (t, v) l) = map fst l.
Proof. revert i. induction l as [|[u y] l IH]; intros [|i] E; cbn in *; try discriminate; [injection E as <- <-; reflexivity|]. f_equal. apply IH. exact E. Qed.

(** values refer to objects which exist *)
Lemma alookup_nodup {B} (l : list (fkey * B)) k x : NoDup (map fst l) -> In (k, x) l -> alookup fkey_eqb k l = Some x.
Proof.
  induction l as [|[k' x'] l IH]; intros N I; [destruct I|]. inversion N as [|? ? N1 N2]; subst. cbn [alookup]. destruct (fkey_eqb k k') eqn:E.
  - apply fkey_eqb_eq in E. subst k'. destruct I as [I|I]; [injection I as <-; reflexivity|]. destruct N1. apply (in_map fst) in I. exact I.
  - apply IH; [exact N2|]. destruct I as [I|I]; [|exact I]. injection I as <- <-. assert (X : fkey_eqb k' k' = true) by (apply fkey_eqb_eq; reflexivity). congruence.
Qed.
Lemma typed_refers G h : distinct_members G -> forall t v, has_type G false h t v -> forall a, refers v a -> exists_at h a.
Proof.
  intros D t v T. induction T; intros adr R; try (inversion R; subst; eauto; fail); try discriminate.
  - inversion R as [|? x' ? I Q| | | | |]; subst. destruct (H _ I) as (k & v & ->). inversion Q; subst; eauto.
  - inversion R; subst. unfold exists_at. unfold hty in *. destruct (hget h adr) as [c|] eqn:E; [|discriminate]. eapply BoundFacts.hget_in. exact E.
  - inversion R as [| | | | | |? k x ? I Q]; subst. assert (K : In k (map fst (rc_layout rc))) by (rewrite <- H0; apply (in_map fst) in I; exact I).
    apply in_map_iff in K as ([k' t'] & <- & K). cbn [fst] in *. apply (H2 k' t' x); [apply alookup_nodup; [eapply D; eassumption|exact K]|apply alookup_nodup; [rewrite H0; eapply D; eassumption|exact I]|exact Q].
  - inversion R as [|? x' ? I Q| | | | |]; subst. apply In_nth_error in I as (i & I). destruct (nth_error ts i) as [t|] eqn:E; [eauto|]. apply nth_error_None in E. rewrite <- H in E. apply nth_error_None in E. congruence.
  - inversion R; subst. match goal with X : refers (VStr _) _ |- _ => inversion X end.
  - inversion R; subst. match goal with X : refers (VStr _) _ |- _ => inversion X end.
Qed.
Lemma typed_no_dangling G h : distinct_members G -> heap_typed G false h -> no_dangling h.
Proof. intros D T a t x b E R. exact (typed_refers G h D t x (T a t x E) b R). Qed.

(** serialising depends only on objects which are referred to *)
Lemma extended_alike h h' : no_dangling h -> heap_extends h h' -> heaps_alike (itself h) h h'.
Proof.
  intros ND E a b [<- X]. apply in_keys in X as [[t x] X]. exists t, x, x. split; [exact X|]. split; [apply E; exact X|]. apply alike_at. intros c R. split; [reflexivity|]. eapply ND; eassumption.
Qed.
Lemma pieces_same h ps : (forall m a a', In (Reference m a a') ps -> (m = 1%N \/ m = 2%N) /\ itself h a a') -> concat (map left_data ps) = concat (map right_data ps).
Proof.
  induction ps as [|p ps IH]; intros H; [reflexivity|]. cbn. rewrite IH by (intros m a a' I; apply (H m a a'); right; exact I). f_equal.
  destruct p as [bs|m a a']; [reflexivity|]. destruct (H m a a' (or_introl eq_refl)) as [_ [-> _]]. reflexivity.
Qed.
Lemma same_ids h bs bs' : same_but_ids (itself h) bs bs' -> bs = bs'.
Proof. intros (ps & -> & -> & H). eapply pieces_same. exact H. Qed.
Lemma push_same G J h h' fuel t v : no_dangling h -> heap_extends h h' -> (forall a, refers v a -> exists_at h a) -> push G J h fuel t v = push G J h' fuel t v.
Proof. intros ND E R. eapply C68_push; [apply extended_alike; eassumption|]. apply alike_at. intros a A. split; [reflexivity|exact (R a A)]. Qed.
Lemma itself_list h W : (forall a, In a W -> exists_at h a) -> Forall2 (itself h) W W.
Proof. induction W as [|a W IH]; intros H; constructor; [split; [reflexivity|apply H; left; reflexivity]|apply IH; intros b I; apply H; right; exact I]. Qed.
Lemma list_itself h W W' : Forall2 (itself h) W W' -> W = W'.
Proof. induction 1 as [|a b l l' [-> _] _ ->]; reflexivity. Qed.
Lemma write_same G h h' fuel ver t v : no_dangling h -> heap_extends h h' -> (forall a, refers v a -> exists_at h a) -> BinModel.write G h fuel ver t v [] = BinModel.write G h' fuel ver t v [].
Proof.
  intros ND E R. pose proof (C68_write G h h' (itself h) fuel ver t v v [] [] (itself_one h) (extended_alike h h' ND E)) as Q.
  specialize (Q (alike_at (itself h) v (fun a A => conj eq_refl (R a A))) (Forall2_nil _)).
  destruct (BinModel.write G h fuel ver t v []) as [[b W]|e| | |], (BinModel.write G h' fuel ver t v []) as [[b' W']|e'| | |]; cbn in Q; try contradiction; try reflexivity.
  - destruct Q as [B F]. apply same_ids in B. apply list_itself in F. congruence.
  - congruence.
Qed.

Lemma text_acyclic T G J fuel t text st v st' : alloc_ok G -> place_ok G -> plain_defaults G -> no_dangling (p_heap st) -> acyclic (p_heap st) ->
  fromJsonText T G J fuel t text st = Some (POk v st') -> acyclic (p_heap st').
Proof.
  intros HA HP HD HN AC E. unfold fromJsonText in E. destruct (parseJsonDocFromString T text) as [j r| |]; try discriminate. injection E as E.
  assert (X1 : pull G J fuel t (dinit G t) j st = POk v st' -> acyclic (p_heap st')) by (intros E1; exact (proj2 (C65_no_cycles _ _ _ _ _ _ _ _ _ HA HP HD E1 HN AC))).
  assert (X2 : mismatch t j (vinit G t) st = POk v st' -> acyclic (p_heap st')).
  { intros E1. pose proof (report_from TypeMismatch (expected_type t) (type_of j) (vinit G t) st) as B. unfold mismatch in E1. rewrite E1 in B. destruct B as (_ & ->). exact AC. }
  assert (X3 : forall x : val, ret x st = POk v st' -> acyclic (p_heap st')) by (intros x [= _ <-]; exact AC).
  unfold fromJson in E. destruct t; try discriminate E; repeat match type of E with
    | (if ?b then _ else _) _ = _ => destruct b; try discriminate E
    | match ?x with _ => _ end _ = _ => destruct x end; eauto.
Qed.

Section Steps.
  Variable G : genv.
  Variable J : jenv.
  Variable T : tenv.
  Hypothesis HA : alloc_ok G.
  Hypothesis HP : place_ok G.
  Hypothesis EO : env_ok G false.
  Hypothesis JO : jenv_ok G false (fun _ => True) false.
  Hypothesis HC : conv_ok J.
  Hypothesis HS : forall x n, te_strtod T x = Some n -> (n < 2 ^ 64)%N.

  Lemma restore_safe c os s h fuel : readable G (TStruct c) -> has_type G false h (TStruct c) (VObj os) -> heap_typed G false h ->
    match xrestoreFromBinary G fuel c os s h with
    | XOk (fs, _) _ st | XThrow _ (fs, _) st => has_type G false (r_heap st) (TStruct c) (VObj fs) /\ heap_typed G false (r_heap st) /\ heap_extends h (r_heap st)
    | XUB | XStuck => False
    | XFuel => True
    end.
  Proof.
    intros (rc & p & Hc & Hrd) Ht Hh. unfold xrestoreFromBinary. set (st := {| r_heap := h; r_ptr := [] |}).
    assert (S : state_ok G false st) by (split; [exact Hh|intros id a t E; discriminate E]).
    assert (F : fieldsok G false h (rc_layout rc) os) by (inversion Ht; subst; match goal with X : g_class G c = Some ?rc' |- _ => assert (rc' = rc) by congruence; subst end; split; assumption).
    destruct (xsafe_all G false HA HP EO fuel) as [_ XC]. specialize (XC 0%N c rc p (rc_layout rc) os s st Hc Hrd (fun k t H => H) F S).
    destruct (xread_cls G fuel 0 c os s st) as [[fs v] r st'|e [fs v] st'| | |]; cbn [xpost fst] in XC; try exact XC; destruct XC as [[K1 F1] [S' X']];
      (split; [econstructor; eauto|split; [apply S'|exact X']]).
  Qed.

  Definition untouched (w w' : world) (a : action) : Prop :=
    heap_extends (w_heap w) (w_heap w') /\ heap_typed G false (w_heap w')
    /\ (w_vars w' = w_vars w \/ exists i t old v, w_vars w' = replaced i (t, v) (w_vars w) /\ nth_error (w_vars w) i = Some (t, old) /\ assigns i a /\ has_type G false (w_heap w') t v).
  Lemma step_untouched w a w' : proper G w -> step G J T w a w' -> a = Own /\ proper G w' /\ map fst (w_vars w') = map fst (w_vars w) \/ untouched w w' a.
  Proof.
    intros [PH PV] St. destruct St as [i data c os fuel fs ver rest st Ei Hr E|i data c os fuel e fs ver st Ei Hr E|i doc t old fuel v st Ei Hp Hj E|i doc t old fuel e v st Ei Hp Hj E|i text t old fuel v st Ei Hp Tk E|i text t old fuel e st Ei Hp Tk E|i text t old fuel Ei Hp Tk E|er|i k t old v Ei Ek|w' Et Pw].
    - right. pose proof (restore_safe c os data (w_heap w) fuel Hr (PV _ _ _ Ei) PH) as S. rewrite E in S. destruct S as (S1 & S2 & S3). split; [exact S3|]. split; [exact S2|]. right. exists i, (TStruct c), (VObj os), (VObj fs). cbn. auto.
    - right. pose proof (restore_safe c os data (w_heap w) fuel Hr (PV _ _ _ Ei) PH) as S. rewrite E in S. destruct S as (S1 & S2 & S3). split; [exact S3|]. split; [exact S2|]. right. exists i, (TStruct c), (VObj os), (VObj fs). cbn. auto.
    - right. pose proof (json_exception_safe G J false HA HP JO HC t doc old fuel {| p_heap := w_heap w; p_err := w_errs w |} Hp Hj PH (or_introl (PV _ _ _ Ei))) as S. rewrite E in S. destruct S as (S1 & S2 & S3).
      split; [exact S3|]. split; [exact S2|]. right. exists i, t, old, v. cbn. split; [reflexivity|]. split; [exact Ei|]. split; [reflexivity|]. destruct S1 as [S1|(-> & -> & _)]; [exact S1|]. specialize (PV _ _ _ Ei). inversion PV; discriminate.
    - right. pose proof (json_exception_safe G J false HA HP JO HC t doc old fuel {| p_heap := w_heap w; p_err := w_errs w |} Hp Hj PH (or_introl (PV _ _ _ Ei))) as S. rewrite E in S. destruct S as (S1 & S2 & S3).
      split; [exact S3|]. split; [exact S2|]. right. exists i, t, old, v. cbn. split; [reflexivity|]. split; [exact Ei|]. split; [reflexivity|]. destruct S1 as [S1|(-> & -> & _)]; [exact S1|]. specialize (PV _ _ _ Ei). inversion PV; discriminate.
    - right. pose proof (any_text T G J false HA HP JO HC HS t text fuel {| p_heap := w_heap w; p_err := w_errs w |} Tk Hp PH) as S. rewrite E in S. destruct S as (S1 & S2 & S3). split; [exact S3|]. split; [exact S2|]. right. exists i, t, old, v. cbn. auto.
    - right. split; [intros x y X; exact X|]. split; [exact PH|]. left. reflexivity.
    - right. split; [intros x y X; exact X|]. split; [exact PH|]. left. reflexivity.
    - right. split; [intros x y X; exact X|]. split; [exact PH|]. left. reflexivity.
    - right. split; [intros x y X; exact X|]. split; [exact PH|]. right. exists i, t, old, v. cbn. split; [reflexivity|]. split; [exact Ei|]. split; [reflexivity|]. exact (PV _ _ _ Ek).
    - left. auto.
  Qed.
  Lemma step_proper w a w' : proper G w -> step G J T w a w' -> proper G w' /\ map fst (w_vars w') = map fst (w_vars w).
  Proof.
    intros P St. destruct (step_untouched w a w' P St) as [(_ & P' & E)|(X & TH & [E|(i & t & old & v & E & Ei & _ & Tv)])]; [auto| |]; destruct P as [_ PV].
    - split; [|rewrite E; reflexivity]. split; [exact TH|]. intros i t v Ei. rewrite E in Ei. eapply ht_mono_h; [apply extends_hle; exact X|eauto].
    - split; [|rewrite E; eapply replaced_types; exact Ei]. split; [exact TH|]. intros k t' v' Ek. rewrite E, replaced_nth in Ek. destruct (Nat.eqb i k) eqn:Eik.
      + destruct (nth_error (w_vars w) k); [|discriminate]. injection Ek as <- <-. exact Tv.
      + eapply ht_mono_h; [apply extends_hle; exact X|eauto].
  Qed.
  Lemma run_proper w l w' : proper G w -> run G J T w l w' -> proper G w' /\ map fst (w_vars w') = map fst (w_vars w).
  Proof. intros P R. induction R as [|w a w1 l w2 St R IH]; [auto|]. destruct (step_proper _ _ _ P St) as [P1 E1]. destruct (IH P1) as [P2 E2]. split; [exact P2|congruence]. Qed.

  Lemma step_other w a w' k : proper G w -> step G J T w a w' -> ~ assigns k a -> nth_error (w_vars w') k = nth_error (w_vars w) k /\ heap_extends (w_heap w) (w_heap w').
  Proof.
    intros P St N. destruct (step_untouched w a w' P St) as [(-> & _)|(X & _ & [E|(i & t & old & v & E & _ & A & _)])]; [destruct N; exact I|split; [rewrite E; reflexivity|exact X]|].
    split; [|exact X]. rewrite E, replaced_nth. destruct (Nat.eqb i k) eqn:Eik; [|reflexivity]. apply Nat.eqb_eq in Eik. subst k. contradiction.
  Qed.
  Lemma run_other w l w' k : proper G w -> run G J T w l w' -> (forall a, In a l -> ~ assigns k a) -> nth_error (w_vars w') k = nth_error (w_vars w) k /\ heap_extends (w_heap w) (w_heap w').
  Proof.
    intros P R. induction R as [|w a w1 l w2 St R IH]; intros N; [split; [reflexivity|intros x y X; exact X]|].
    destruct (step_other w a w1 k P St (N a (or_introl eq_refl))) as [E1 X1]. destruct (IH (proj1 (step_proper _ _ _ P St)) (fun b I => N b (or_intror I))) as [E2 X2].
    split; [congruence|]. intros x y X. apply X2, X1, X.
  Qed.

  Hypothesis PD : plain_defaults G.
  Hypothesis DM : distinct_members G.
  Lemma step_acyclic w a w' : proper G w -> json_only a -> step G J T w a w' -> acyclic (w_heap w) -> acyclic (w_heap w').
  Proof.
    intros P O St AC. assert (ND : no_dangling (w_heap w)) by (eapply typed_no_dangling; [exact DM|apply P]).
    destruct St as [i data c os fuel fs ver rest st Ei Hr E|i data c os fuel e fs ver st Ei Hr E|i doc t old fuel v st Ei Hp Hj E|i doc t old fuel e v st Ei Hp Hj E|i text t old fuel v st Ei Hp Tk E|i text t old fuel e st Ei Hp Tk E|i text t old fuel Ei Hp Tk E|er|i k t old v Ei Ek|w' Et Pw]; try contradiction; try exact AC.
    - pose proof (proj1 (XTree.xgrown_all G J HA HP PD fuel) t old doc {| p_heap := w_heap w; p_err := w_errs w |}) as B. rewrite E in B. destruct B as [_ B]. exact (proj2 (grown_total _ _ B ND AC)).
    - pose proof (proj1 (XTree.xgrown_all G J HA HP PD fuel) t old doc {| p_heap := w_heap w; p_err := w_errs w |}) as B. rewrite E in B. destruct B as [_ B]. exact (proj2 (grown_total _ _ B ND AC)).
    - cbn. exact (text_acyclic T G J fuel t text {| p_heap := w_heap w; p_err := w_errs w |} v st HA HP PD ND AC E).
  Qed.
End Steps.
