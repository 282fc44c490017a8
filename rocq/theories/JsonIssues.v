(** JsonIssues.v -- the errors pull reports are those described by JsonIssueSpec.v *)
From Coq Require Import String List NArith ZArith Bool Lia.
From Verif Require Import Base BaseFacts Types Float JsonModel JsonRel JsonSpec JsonSafeSpec JsonFacts JsonIssueSpec.
Import ListNotations.
Local Open Scope list_scope.

(** state with an error list *)
Definition wst (h : heap) (e : est) : pst := {| p_heap := h; p_err := Some e |}.
(** the errors [errs] have been added to [e], the index is [i] and the remaining context as before *)
Definition told (e e' : est) (errs : list jerror) (i : option N) : Prop :=
  es_errs e' = es_errs e ++ errs /\ es_record e' = es_record e /\ es_member e' = es_member e /\ es_index e' = i.

Lemma told_refl e : told e e [] (es_index e).
Proof. unfold told. rewrite app_nil_r. auto. Qed.
Lemma told_trans e e1 e2 a b i i' : told e e1 a i -> told e1 e2 b i' -> told e e2 (a ++ b) i'.
Proof. intros (A1 & A2 & A3 & A4) (B1 & B2 & B3 & B4). unfold told. rewrite B1, B2, B3, A1, A2, A3, <- app_assoc. auto. Qed.

Lemma report_ok k x a h e st' u : report k x a (wst h e) = POk u st' ->
  exists e', st' = wst h e' /\ told e e' [issue k x a (es_record e) (es_member e) (es_index e)] (es_index e).
Proof.
  unfold report, emplace_error, wst. cbn [p_err p_heap]. destruct (_ =? 0)%N; intros E; inversion E; subst.
  eexists. split; [reflexivity|]. unfold told. cbn. auto.
Qed.
Lemma report_unchecked_ok k x a h e st' u : report_unchecked k x a (wst h e) = POk u st' ->
  exists e', st' = wst h e' /\ told e e' [issue k x a (es_record e) (es_member e) (es_index e)] (es_index e).
Proof. exact (report_ok k x a h e st' u). Qed.
Lemma mismatch_ok t j old h e v st' : mismatch t j old (wst h e) = POk v st' ->
  exists e', st' = wst h e' /\ told e e' [issue TypeMismatch (expected_type t) (type_of j) (es_record e) (es_member e) (es_index e)] (es_index e).
Proof.
  unfold mismatch, bind. destruct (report _ _ _ (wst h e)) as [u s| | | |] eqn:E; try discriminate. intros Q. inversion Q; subst.
  eapply report_ok; exact E.
Qed.
Lemma get_int_ok k j st z st' : get_int k j st = POk z st' -> st' = st /\ is_number j = true.
Proof.
  assert (C: forall j, cast_double k j st = POk z st' -> st' = st /\ is_number j = true).
  { clear j. intros j. unfold cast_double. destruct (get_double j) as [d|] eqn:Eg; [|discriminate].
    destruct (f64_trunc d) as [w|]; [|discriminate]. destruct (in_range k w); [|discriminate]. intros E. inversion E; subst.
    split; [reflexivity|]. destruct j; try discriminate Eg; reflexivity. }
  unfold get_int. destruct j; auto. destruct (in_range k z0); [intros E; inversion E; auto|apply C].
Qed.

Section Sound.
  Variable G : genv.
  Variable J : jenv.
  Local Notation issues := (issues G J).
  Local Notation chain := (chain G J).
  Local Notation record := (record G J).

  (** the claim for a computation *)
  Definition tells {A} (m : M A) (R : option bytes -> option bytes -> option N -> list jerror -> option N -> Prop) : Prop :=
    forall h e v st', m (wst h e) = POk v st' ->
    exists h' e' errs i', st' = wst h' e' /\ told e e' errs i' /\ R (es_record e) (es_member e) (es_index e) errs i'.

  Lemma tells_ret {A} (v : A) (R : _ -> _ -> _ -> _ -> _ -> Prop) : (forall r m i, R r m i [] i) -> tells (ret v) R.
  Proof.
    intros HR h e v' st' E. inversion E; subst. exists h, e, [], (es_index e). split; [reflexivity|]. split; [apply told_refl|apply HR].
  Qed.
  Lemma tells_weak {A} (m : M A) (R R' : _ -> _ -> _ -> _ -> _ -> Prop) :
    tells m R -> (forall r mm i e i', R r mm i e i' -> R' r mm i e i') -> tells m R'.
  Proof. intros Hm HR h e v st' E. destruct (Hm h e v st' E) as (h' & e' & errs & i' & A1 & A2 & A3). exists h', e', errs, i'. auto. Qed.
  Lemma tells_bind {A B} (m : M A) (k : A -> M B) (R1 R2 R : _ -> _ -> _ -> _ -> _ -> Prop) :
    tells m R1 -> (forall a, tells (k a) R2) ->
    (forall r mm i e1 i1 e2 i2, R1 r mm i e1 i1 -> R2 r mm i1 e2 i2 -> R r mm i (e1 ++ e2) i2) -> tells (bind m k) R.
  Proof.
    intros Hm Hk HR h e v st' E. unfold bind in E. destruct (m (wst h e)) as [a s| | | |] eqn:E1; try discriminate.
    destruct (Hm _ _ _ _ E1) as (h1 & e1 & x1 & i1 & -> & T1 & Q1). destruct (Hk a _ _ _ _ E) as (h2 & e2 & x2 & i2 & -> & T2 & Q2).
    exists h2, e2, (x1 ++ x2), i2. split; [reflexivity|]. split; [eapply told_trans; eauto|].
    destruct T1 as (_ & Er & Em & Ei). rewrite Er, Em, Ei in Q2. eapply HR; eauto.
  Qed.
  Lemma tells_map {A B} (m : M A) (k : A -> B) R : tells m R -> tells (let? a := m in ret (k a)) R.
  Proof.
    intros Hm h e v st' E. unfold bind in E. destruct (m (wst h e)) as [a s| | | |] eqn:E1; try discriminate. inversion E; subst.
    eapply Hm; exact E1.
  Qed.
  Lemma tells_report {A} k x a (v : A) (R : _ -> _ -> _ -> _ -> _ -> Prop) : (forall r m i, R r m i [issue k x a r m i] i) ->
    tells (let? _ := report k x a in ret v) R.
  Proof.
    intros HR. apply (tells_map (report k x a) (fun _ => v)). intros h e u st' E. destruct (report_ok _ _ _ _ _ _ _ E) as (e' & -> & T).
    exists h, e'. eexists. eexists. split; [reflexivity|]. split; [exact T|apply HR].
  Qed.
  Lemma tells_mismatch t j old : kind_checked t = true -> kind_fits t j = false -> tells (mismatch t j old) (issues t j).
  Proof. intros H1 H2. unfold mismatch. apply tells_report. intros. apply is_mismatch; assumption. Qed.
  Lemma tells_ub {A} R : tells (@ub A) R. Proof. intros h e v st' E. discriminate. Qed.
  Lemma tells_stuck {A} R : tells (@stuck A) R. Proof. intros h e v st' E. discriminate. Qed.

  Lemma tells_int k j (w : Z -> val) t : leaf t = true -> kind_fits t j = true -> tells (let? z := get_int k j in ret (w z)) (issues t j).
  Proof.
    intros HL HF. apply tells_map. intros h e z st' E. destruct (get_int_ok _ _ _ _ _ E) as [-> _].
    exists h, e, [], (es_index e). split; [reflexivity|]. split; [apply told_refl|apply is_leaf; assumption].
  Qed.

  (** arrays *)
  Lemma tells_items {A} (step : A -> json -> M A) t (set : bool) :
    (forall a j, tells (step a j) (fun r m i errs i' =>
       issues t j r m i errs i' \/ set = true /\ exists errs0, issues t j r m i errs0 i' /\ errs = errs0 ++ [issue UnexpectedDuplicate JTArray JTArray r m i'])) ->
    forall js n acc, tells (pull_items step n js acc) (fun r m i errs i' => i' = None /\ items G J set t n js r m errs).
  Proof.
    intros Hs. induction js as [|j js IH]; intros n acc.
    - cbn [pull_items]. intros h e v st' E. unfold bind, set_index, wst in E. cbn in E. inversion E; subst. unfold wst.
      eexists. eexists. exists [], None. split; [reflexivity|]. split; [|split; [reflexivity|constructor]].
      unfold told. cbn. rewrite app_nil_r. auto.
    - cbn [pull_items]. intros h e v st' E. unfold bind at 1 in E. unfold set_index, wst in E. cbn [option_map p_err p_heap] in E.
      unfold bind in E. match type of E with context [step acc j ?s] => destruct (step acc j s) as [a1 s1| | | |] eqn:E1; try discriminate end.
      destruct (Hs _ _ _ _ _ _ E1) as (h1 & e1 & x1 & i1 & -> & T1 & Q1).
      destruct (IH _ _ _ _ _ _ E) as (h2 & e2 & x2 & i2 & -> & T2 & -> & Q2).
      destruct T1 as (A1 & A2 & A3 & A4). destruct T2 as (B1 & B2 & B3 & B4). cbn in A1, A2, A3, Q1.
      rewrite A2, A3 in Q2. exists h2, e2, (x1 ++ x2), None. split; [reflexivity|]. split.
      + unfold told. rewrite B1, B2, B3, A1, A2, A3, <- app_assoc. auto.
      + split; [reflexivity|]. destruct Q1 as [Q1|(-> & x0 & Q1 & ->)].
        * eapply it_next; eassumption.
        * rewrite <- app_assoc. eapply it_duplicate; eassumption.
  Qed.

  Lemma tells_fold {A B} (step : A -> B -> M A) (f : B -> list (ty * json)) :
    (forall a x, tells (step a x) (chain (f x))) ->
    forall l acc, tells (fold_m step l acc) (chain (flat_map f l)).
  Proof.
    assert (App: forall l1 l2 r m i e1 i1 e2 i2, chain l1 r m i e1 i1 -> chain l2 r m i1 e2 i2 -> chain (l1 ++ l2) r m i (e1 ++ e2) i2).
    { induction l1 as [|[t j] l1 IHl]; intros l2 r m i e1 i1 e2 i2 C1 C2.
      - inversion C1; subst. exact C2.
      - inversion C1; subst. rewrite <- app_assoc. cbn [app]. eapply ch_next; [eassumption|]. eapply IHl; eassumption. }
    intros Hs. induction l as [|x l IH]; intros acc; cbn [fold_m flat_map].
    - apply tells_ret. intros. constructor.
    - eapply tells_bind; [apply Hs|intros a; apply IH|]. intros. eapply App; eassumption.
  Qed.
  Lemma chain_one t j r m i errs i' : issues t j r m i errs i' -> chain [(t, j)] r m i errs i'.
  Proof. intros Hi. rewrite <- (app_nil_r errs). eapply ch_next; [exact Hi|constructor]. Qed.

  Lemma tells_tuple p : (forall t o j, tells (p t o j) (issues t j)) ->
    forall ts os js, length js = length ts -> tells (pull_tuple p ts os js) (chain (combine ts js)).
  Proof.
    intros Hp. induction ts as [|t ts IH]; intros [|o os] [|j js] L; cbn [pull_tuple combine] in *; try discriminate L; try apply tells_stuck; try apply tells_ub.
    - apply tells_ret. intros. constructor.
    - eapply tells_bind; [apply Hp|intros a; apply tells_map; apply IH; cbn [length] in L; congruence|]. intros. eapply ch_next; eassumption.
  Qed.

  Lemma tells_member p ms fd os : (forall t o j, tells (p t o j) (issues t j)) ->
    tells (pull_member p ms fd os) (fun r m i errs i' =>
      match alookup bytes_eqb (jf_name fd) ms with
      | None => errs = [] /\ i' = i
      | Some j => issues (jf_ty fd) j r (Some (jf_name fd)) i errs i'
      end).
  Proof.
    intros Hp. unfold pull_member. destruct (alookup fkey_eqb (jf_key fd) os) as [o|]; [|apply tells_stuck].
    destruct (alookup bytes_eqb (jf_name fd) ms) as [j|]; [|apply tells_ret; auto].
    apply tells_map. intros h e v st' E. unfold in_member, wst in E. cbn [p_err option_map p_heap put_member] in E.
    match type of E with context [p ?t ?o ?j ?s] => destruct (p t o j s) as [x s1| | | |] eqn:E1; try discriminate end.
    destruct (Hp _ _ _ _ _ _ _ E1) as (h1 & e1 & x1 & i1 & -> & T1 & Q1). inversion E; subst. cbn in Q1. destruct T1 as (A1 & A2 & A3 & A4). cbn in A1, A2, A3.
    unfold wst, put_member. cbn. eexists. eexists. exists x1, i1. split; [reflexivity|]. split; [|exact Q1]. unfold told. cbn. auto.
  Qed.
  Lemma tells_fields p ms : (forall t o j, tells (p t o j) (issues t j)) -> forall l os,
    tells (fold_m (fun os fd => pull_member p ms fd os) l os) (fun r m i errs i' => fields G J l ms r i errs i').
  Proof.
    intros Hp. induction l as [|fd l IH]; intros os; cbn [fold_m].
    - apply tells_ret. intros. constructor.
    - eapply tells_bind; [apply tells_member; exact Hp|intros a; apply IH|]. cbn beta. intros r m i e1 i1 e2 i2 H1 H2.
      destruct (alookup bytes_eqb (jf_name fd) ms) as [j|] eqn:Ej.
      + eapply fi_next; eassumption.
      + destruct H1 as [-> ->]. apply fi_missing; assumption.
  Qed.
  Lemma tells_record {A} n (m : M A) (R : _ -> _ -> _ -> _ -> _ -> Prop) : tells m R ->
    tells (in_record n m) (fun r mm i errs i' => R (Some n) mm i errs i').
  Proof.
    intros Hm h e v st' E. unfold in_record, wst in E. cbn [p_err option_map p_heap put_record] in E.
    match type of E with context [m ?s] => destruct (m s) as [x s1| | | |] eqn:E1; try discriminate end.
    destruct (Hm _ _ _ _ E1) as (h1 & e1 & x1 & i1 & -> & T1 & Q1). inversion E; subst. cbn in Q1. destruct T1 as (A1 & A2 & A3 & A4). cbn in A1, A2, A3.
    unfold wst, put_record. cbn. eexists. eexists. exists x1, i1. split; [reflexivity|]. split; [|exact Q1]. unfold told. cbn. auto.
  Qed.

  Lemma tells_class p pc c os ms : (forall t o j, tells (p t o j) (issues t j)) -> (forall c os ms, tells (pc c os ms) (record c ms)) ->
    tells (pull_cls_body G p pc c os ms) (record c ms).
  Proof.
    intros Hp Hc. unfold pull_cls_body. destruct (g_class G c) as [rc|] eqn:Ec; [|apply tells_stuck].
    destruct (rc_pull rc) as [prog|] eqn:Er; [|apply tells_stuck].
    assert (B: forall l os, tells (fold_m (fun os b => pc b os ms) l os) (bases G J l ms)).
    { induction l as [|b l IH]; intros os0; cbn [fold_m]; [apply tells_ret; intros; constructor|].
      eapply tells_bind; [apply Hc|intros a; apply IH|]. intros. eapply ba_next; eassumption. }
    eapply tells_bind; [apply B| |].
    - intros os1. instantiate (1 := fun r m i errs i' => fields G J (jp_fields prog) ms (match jp_record prog with Some n => Some n | None => r end) i errs i').
      cbv zeta. destruct (jp_record prog) as [n|].
      + exact (tells_record n _ _ (tells_fields p ms Hp (jp_fields prog) os1)).
      + apply tells_fields. exact Hp.
    - cbn beta. intros. eapply rec_intro; eassumption.
  Qed.

  Lemma tells_date t (parse : bytes -> option Z) j old :
    (forall s o, parse s = o -> t = TDateTime /\ je_dt_parse J s = o \/ t = TTimeSpan /\ je_ts_parse J s = o) ->
    expected_type t = JTString ->
    tells (let? s := match j with JStr s => ret (cstr s) | _ => let? _ := mismatch t j old in ret [] end in
           match parse s with Some z => ret (VInt z) | None => let? _ := report ConversionError JTString JTString in ret old end) (issues t j).
  Proof.
    intros Ht Hx.
    assert (K: (forall s, j <> JStr s) -> tells (let? s := (let? _ := mismatch t j old in ret []) in
           match parse s with Some z => ret (VInt z) | None => let? _ := report ConversionError JTString JTString in ret old end) (issues t j)).
    { intros Hj. intros h e v st' E. unfold bind at 1 in E. unfold bind at 1 in E.
      destruct (mismatch t j old (wst h e)) as [u s1| | | |] eqn:E1; try discriminate.
      destruct (mismatch_ok _ _ _ _ _ _ _ E1) as (e1 & -> & T1). unfold ret at 1 in E. rewrite Hx in T1.
      destruct (parse []) as [z|] eqn:Ep.
      - inversion E; subst. exists h, e1. eexists. eexists. split; [reflexivity|]. split; [exact T1|].
        eapply is_date_kind; [exact Hj|]. exact (Ht [] _ Ep).
      - unfold bind in E. destruct (report ConversionError JTString JTString (wst h e1)) as [u2 s2| | | |] eqn:E2; try discriminate. inversion E; subst.
        destruct (report_ok _ _ _ _ _ _ _ E2) as (e2 & -> & T2). pose proof (told_trans _ _ _ _ _ _ _ T1 T2) as T.
        destruct T1 as (_ & Q1 & Q2 & Q3). rewrite Q1, Q2, Q3 in T. exists h, e2. eexists. eexists. split; [reflexivity|]. split; [exact T|].
        cbn [app]. apply is_date_kind_invalid; [exact Hj|]. exact (Ht [] _ Ep). }
    destruct j as [|b|z|n|s|l|l]; try (apply K; discriminate).
    change (tells (match parse (cstr s) with Some z => ret (VInt z) | None => let? _ := report ConversionError JTString JTString in ret old end) (issues t (JStr s))).
    destruct (parse (cstr s)) as [z|] eqn:Ep.
    - apply tells_ret. intros. eapply is_date. exact (Ht (cstr s) _ Ep).
    - apply tells_report. intros. apply is_date_invalid. exact (Ht (cstr s) _ Ep).
  Qed.

  Lemma tells_body p pc t old j : (forall t o j, tells (p t o j) (issues t j)) -> (forall c os ms, tells (pc c os ms) (record c ms)) ->
    tells (pull_body G J p pc t old j) (issues t j).
  Proof.
    intros Hp Hc.
    destruct t as [|k| | |k| |t|ord multi t|ord multi kt vt|ta tb|ts|t|t|t|ts| |c| | | |]; cbn [pull_body].
    - destruct j; try (apply tells_mismatch; reflexivity). apply tells_ret. intros. apply is_leaf; reflexivity.
    - destruct (json_kind k); [|destruct (byte_kind k); [|apply tells_stuck]].
      + destruct (is_number j) eqn:En.
        * apply tells_int; [reflexivity|]. destruct j; try discriminate En; reflexivity.
        * apply tells_mismatch; [reflexivity|]. destruct j; try discriminate En; reflexivity.
      + destruct (is_number j) eqn:En.
        * apply tells_int; [reflexivity|]. destruct j; try discriminate En; reflexivity.
        * apply tells_mismatch; [reflexivity|]. destruct j; try discriminate En; reflexivity.
    - destruct j; cbn [get_double]; try (apply tells_mismatch; reflexivity); apply tells_ret; intros; apply is_leaf; reflexivity.
    - destruct j; cbn [get_double]; try (apply tells_mismatch; reflexivity); apply tells_ret; intros; apply is_leaf; reflexivity.
    - destruct j; try (apply tells_mismatch; reflexivity). destruct (in_range (enum_kind k) z) eqn:Er.
      + apply tells_ret. intros. apply is_leaf; [reflexivity|exact Er].
      + apply tells_mismatch; [reflexivity|exact Er].
    - destruct j; try (apply tells_mismatch; reflexivity). apply tells_ret. intros. apply is_leaf; reflexivity.
    - destruct j; try (apply tells_mismatch; reflexivity). apply tells_map. eapply tells_weak.
      + apply (tells_items _ t false). intros a j. apply tells_map. eapply tells_weak; [apply Hp|]. auto.
      + cbn beta. intros r m i e i' [-> Hi]. apply is_seq. exact Hi.
    - destruct j; try (apply tells_mismatch; reflexivity). apply tells_map. eapply tells_weak.
      + apply (tells_items _ t (negb multi)). intros a j. intros h e v st' E. unfold bind in E.
        destruct (p t (dinit G t) j (wst h e)) as [x s| | | |] eqn:E1; try discriminate.
        destruct (Hp _ _ _ _ _ _ _ E1) as (h1 & e1 & x1 & i1 & -> & T1 & Q1).
        destruct (is_undef x); [discriminate|]. destruct (emplace G false ord multi t x a) as [l' b].
        destruct (multi || b) eqn:Em.
        * inversion E; subst. exists h1, e1, x1, i1. auto.
        * destruct (report_unchecked UnexpectedDuplicate JTArray JTArray (wst h1 e1)) as [u s| | | |] eqn:E2; try discriminate. inversion E; subst.
          destruct (report_unchecked_ok _ _ _ _ _ _ _ E2) as (e2 & -> & T2). pose proof (told_trans _ _ _ _ _ _ _ T1 T2) as T.
          destruct T1 as (_ & Q2 & Q3 & Q4). rewrite Q2, Q3, Q4 in T. exists h1, e2. eexists. eexists. split; [reflexivity|]. split; [exact T|].
          right. split; [destruct multi; [discriminate Em|reflexivity]|]. exists x1. split; [exact Q1|reflexivity].
      + cbn beta. intros r m i e i' [-> Hi]. apply is_set. exact Hi.
    - assert (S: forall b, tells (match kt with TString => stuck | _ => @stuck val end) (issues (TMap ord b kt vt) j)) by (intros b; destruct kt; apply tells_stuck).
      destruct multi.
      + destruct kt; try apply tells_stuck. destruct old; try apply tells_stuck. destruct j; try (apply tells_mismatch; reflexivity).
        apply tells_map. eapply tells_weak.
        * apply (tells_fold _ (fun nj => map (fun nj' => (vt, snd nj')) (multi_items [nj]))). intros a [n j].
          unfold multi_items. cbn [flat_map]. rewrite app_nil_r.
          destruct j; try (cbn [map snd]; eapply tells_weak; [apply tells_map; apply Hp|intros; apply chain_one; assumption]).
          assert (F: forall js acc, tells (fold_m (fun l0 j'' => let? x := p vt (vinit G vt) j'' in ret (fst (emplace G true ord true TString (VPair (VStr (cstr n)) x) l0))) js acc)
                       (chain (map (fun nj' => (vt, snd nj')) (map (pair n) js)))).
          { intros js acc. eapply tells_weak.
            - apply (tells_fold _ (fun j => [(vt, j)])). intros a0 j. eapply tells_weak; [apply tells_map; apply Hp|intros; apply chain_one; assumption].
            - intros r m i e i'. replace (flat_map (fun j => [(vt, j)]) js) with (map (fun nj' => (vt, snd nj')) (map (pair n) js)); [auto|].
              clear. induction js as [|j js IH]; cbn; [reflexivity|]. rewrite IH. reflexivity. }
          apply F.
        * intros r m i e i' C. apply is_multimap. replace (map (fun nj => (vt, snd nj)) (multi_items ms)) with (flat_map (fun nj => map (fun nj' => (vt, snd nj')) (multi_items [nj])) ms); [exact C|].
          clear. induction ms as [|nj ms IH]; [reflexivity|]. cbn [flat_map]. rewrite IH, <- map_app. f_equal. unfold multi_items. cbn [flat_map]. rewrite app_nil_r. reflexivity.
      + destruct kt; try apply tells_stuck. destruct old; try apply tells_stuck. destruct j; try (apply tells_mismatch; reflexivity).
        apply tells_map. eapply tells_weak.
        * apply (tells_fold _ (fun nj => [(vt, snd nj)])). intros a [n j]. cbn [snd].
          destruct (map_find G ord TString (VPair (VStr (cstr n)) VUndef) a);
            (eapply tells_weak; [apply tells_map; apply Hp|intros; apply chain_one; assumption]).
        * intros r m i e i' C. apply is_map. replace (map (fun nj => (vt, snd nj)) ms) with (flat_map (fun nj : bytes * json => [(vt, snd nj)]) ms); [exact C|].
          clear. induction ms as [|nj ms IH]; cbn; [reflexivity|]. rewrite IH. reflexivity.
    - destruct old; try apply tells_stuck. destruct j as [| | | | |js|]; try (apply tells_mismatch; reflexivity).
      destruct (Nat.eqb_spec (length js) 2) as [L|L].
      + destruct js as [|ja [|jb [|]]]; try discriminate L. cbn [nth_error]. eapply tells_weak.
        * eapply (tells_bind _ _ (chain [(ta, ja)]) (chain [(tb, jb)]) (chain [(ta, ja); (tb, jb)])).
          -- eapply tells_weak; [apply Hp|intros; apply chain_one; assumption].
          -- intros a. apply tells_map. eapply tells_weak; [apply Hp|intros; apply chain_one; assumption].
          -- intros r m i e1 i1 e2 i2 C1 C2. inversion C1 as [|t' j' l' r' m' i' x1 y1 x2 y2 I1 N1]; subst. inversion N1; subst. rewrite app_nil_r. eapply ch_next; eassumption.
        * intros. apply is_pair. assumption.
      + apply tells_report. intros. apply is_pair_size. exact L.
    - destruct ts as [|t0 ts]; [apply tells_stuck|]. destruct old; try apply tells_stuck. destruct j as [| | | | |js|]; try (apply tells_mismatch; reflexivity).
      destruct (Nat.eqb_spec (length js) (length (t0 :: ts))) as [L|L].
      + apply tells_map. eapply tells_weak; [apply tells_tuple; [exact Hp|exact L]|]. intros. apply is_tuple; assumption.
      + apply tells_report. intros. apply is_tuple_size. exact L.
    - destruct j; try (apply tells_map; eapply tells_weak; [apply Hp|]; intros; eapply is_content; [left; reflexivity|discriminate|assumption]).
      apply tells_ret. intros. eapply is_null. left. reflexivity.
    - destruct j; try (apply tells_map; eapply tells_weak; [apply Hp|]; intros; eapply is_content; [right; left; reflexivity|discriminate|assumption]).
      apply tells_ret. intros. eapply is_null. right. left. reflexivity.
    - assert (N: forall j, j <> JNull -> tells (let? a := in_new G t (p t (vinit G t) j) in ret (VShared (Some a))) (issues (TShared t) j)).
      { clear j. intros j Hj. apply tells_map. intros h e v st' E. unfold in_new, wst in E. cbn [p_err p_heap] in E.
        match type of E with context [p ?t ?o ?j ?s] => destruct (p t o j s) as [x s1| | | |] eqn:E1; try discriminate end.
        destruct (Hp _ _ _ _ _ _ _ E1) as (h1 & e1 & x1 & i1 & -> & T1 & Q1). inversion E; subst. unfold wst. cbn [p_err p_heap].
        eexists. exists e1, x1, i1. split; [reflexivity|]. split; [exact T1|]. eapply is_content; [right; right; reflexivity|exact Hj|exact Q1]. }
      destruct j; try (apply N; discriminate). apply tells_ret. intros. eapply is_null. right. right. reflexivity.
    - destruct j as [| | | | | |ms]; try (apply tells_mismatch; reflexivity).
      destruct (alookup bytes_eqb (list_byte_of_string "index") ms) as [ji|] eqn:Ei; [|apply tells_report; intros; apply is_variant_object; auto].
      destruct (alookup bytes_eqb (list_byte_of_string "data") ms) as [jd|] eqn:Ed; [|apply tells_report; intros; apply is_variant_object; auto].
      destruct ji as [|b|z|n|s|l|l]; try (apply tells_report; intros; eapply is_variant_index; [eassumption|eassumption|discriminate]).
      destruct (in_range KU64 z) eqn:Er; [|apply tells_report; intros; eapply is_variant_index; [eassumption|eassumption|]; intros z' Ez; inversion Ez; subst; auto].
      destruct (N.ltb_spec (Z.to_N z) (N.of_nat (length ts))) as [Hl|Hl].
      + destruct (nth_error ts (Z.to_nat z)) as [t|] eqn:En.
        * assert (D: t = TMono \/ t <> TMono) by (destruct t; (left; reflexivity) || (right; discriminate)).
          destruct D as [-> | D].
          -- apply tells_ret. intros. eapply is_variant_mono; eassumption.
          -- destruct t; try congruence; (apply tells_map; eapply tells_weak; [apply Hp|]; intros; eapply is_variant; eassumption).
        * exfalso. apply nth_error_None in En. lia.
      + apply tells_report. intros. change JTNumber with (type_of (JInt z)) at 2. eapply is_variant_index; [eassumption|eassumption|]. intros z' Ez. inversion Ez; subst. right.
        assert (0 <= z')%Z by (unfold in_range in Er; apply andb_true_iff in Er; destruct Er as [Er _]; apply Z.leb_le in Er; exact Er). lia.
    - apply tells_stuck.
    - destruct old; try apply tells_stuck. destruct j as [| | | | | |ms]; try (apply tells_mismatch; reflexivity).
      apply tells_map. eapply tells_weak; [apply Hc|]. intros. apply is_class. assumption.
    - apply (tells_date TDateTime (je_dt_parse J)); [auto|reflexivity].
    - apply (tells_date TTimeSpan (je_ts_parse J)); [auto|reflexivity].
    - destruct j; try (apply tells_mismatch; reflexivity). apply tells_ret. intros. apply is_leaf; reflexivity.
    - destruct j; try (apply tells_mismatch; reflexivity). apply tells_ret. intros. apply is_leaf; reflexivity.
  Qed.

  Lemma pull_tells f : (forall t o j, tells (pull G J f t o j) (issues t j)) /\ (forall c os ms, tells (pull_cls G J f c os ms) (record c ms)).
  Proof.
    induction f as [|f [IH1 IH2]]; [split; intros; intros h e v st' E; discriminate|]. split.
    - intros. rewrite pull_S. apply tells_body; assumption.
    - intros. rewrite pull_cls_S. apply tells_class; assumption.
  Qed.
End Sound.

Lemma pull_issues : forall G J f t old j h e v st',
  pull G J f t old j {| p_heap := h; p_err := Some e |} = POk v st' ->
  exists e' errs, p_err st' = Some e' /\ issues G J t j (es_record e) (es_member e) (es_index e) errs (es_index e')
    /\ es_errs e' = es_errs e ++ errs /\ es_record e' = es_record e /\ es_member e' = es_member e.
Proof.
  intros G J f t old j h e v st' E. destruct (proj1 (pull_tells G J f) t old j h e v st' E) as (h' & e' & errs & i' & -> & (A1 & A2 & A3 & A4) & Q).
  exists e', errs. subst i'. cbn. auto.
Qed.
Lemma fromJson_issues : forall G J f t j h e v st',
  fromJson G J f t j {| p_heap := h; p_err := Some e |} = POk v st' -> top_fits t j = true ->
  exists e' errs, p_err st' = Some e' /\ issues G J t j (es_record e) (es_member e) (es_index e) errs (es_index e')
    /\ es_errs e' = es_errs e ++ errs /\ es_record e' = es_record e /\ es_member e' = es_member e.
Proof.
  intros G J f t j h e v st' E Hf. 
  assert (N: forall x (u : val), ret u {| p_heap := h; p_err := Some e |} = POk v st' -> leaf x = true -> kind_fits x j = true ->
    exists e' errs, p_err st' = Some e' /\ issues G J x j (es_record e) (es_member e) (es_index e) errs (es_index e')
    /\ es_errs e' = es_errs e ++ errs /\ es_record e' = es_record e /\ es_member e' = es_member e).
  { intros x u Eu HL HK. inversion Eu; subst. exists e, []. rewrite app_nil_r. cbn. split; [reflexivity|]. split; [apply is_leaf; assumption|auto]. }
  unfold fromJson in E. destruct t; try discriminate E; destruct j; try discriminate Hf; cbn [top_fits] in Hf;
    try (eapply pull_issues; exact E); try rewrite Hf in E; try (eapply N; [exact E|reflexivity|reflexivity]).
  destruct (json_kind k); [|discriminate E]. eapply N; [exact E|reflexivity|reflexivity].
Qed.
