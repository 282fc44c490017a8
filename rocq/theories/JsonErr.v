(** JsonErr.v -- the error list: it does not influence the result (C24), its context is restored
    (C26), throwOn (C27); objects which exist already are not touched *)
From Coq Require Import List NArith ZArith Bool Lia.
From Verif Require Import Base BaseFacts Types TypesFacts BinModel BinSpec Float JsonModel JsonRel.
Import ListNotations.

Definition with_throw (T : N) (e : est) : est :=
  {| es_errs := es_errs e; es_record := es_record e; es_member := es_member e; es_index := es_index e; es_throw := T |}.

(** the kind of the error is selected by the mask *)
Definition selected (T : N) (x : jerror) : bool := negb (N.eqb (N.land T (throw_flag (e_kind x))) 0).
Definition is_dup (x : jerror) : bool := match e_kind x with UnexpectedDuplicate => true | _ => false end.

(* ------------------------------------------------------------------ *)
(** * C26 *)

Definition ctx_ok (st st' : pst) : Prop :=
  match p_err st, p_err st' with
  | None, None => True
  | Some e, Some e' =>
      es_record e' = es_record e /\ es_member e' = es_member e /\ es_throw e' = es_throw e
      /\ (es_index e' = es_index e \/ es_index e' = None)
      /\ exists new, es_errs e' = es_errs e ++ new /\ existsb (selected (es_throw e)) new = false
  | _, _ => False
  end.
Definition thrown_ok (st : pst) (x : jerror) (st' : pst) : Prop :=
  exists e e' new, p_err st = Some e /\ p_err st' = Some e'
    /\ es_errs e' = es_errs e ++ new ++ [x] /\ selected (es_throw e) x = true
    /\ existsb (selected (es_throw e)) new = false.
Definition ctx_rel {A} (m : M A) : Prop := forall st,
  match m st with POk _ st' => ctx_ok st st' | PThrow x st' => thrown_ok st x st' | _ => True end.

(** the same without a statement about the index *)
Definition ctx_ok0 (st st' : pst) : Prop :=
  match p_err st, p_err st' with
  | None, None => True
  | Some e, Some e' =>
      es_record e' = es_record e /\ es_member e' = es_member e /\ es_throw e' = es_throw e
      /\ exists new, es_errs e' = es_errs e ++ new /\ existsb (selected (es_throw e)) new = false
  | _, _ => False
  end.
Lemma ctx_ok_weak st st' : ctx_ok st st' -> ctx_ok0 st st'.
Proof. unfold ctx_ok, ctx_ok0. destruct (p_err st), (p_err st'); tauto. Qed.
Lemma ctx_ok_strong st st' : ctx_ok0 st st' -> (forall e', p_err st' = Some e' -> es_index e' = None) -> ctx_ok st st'.
Proof. unfold ctx_ok, ctx_ok0. destruct (p_err st), (p_err st'); try tauto. intros (? & ? & ? & ?) Hi. specialize (Hi _ eq_refl). tauto. Qed.
Lemma ctx_ok0_trans a b c : ctx_ok0 a b -> ctx_ok0 b c -> ctx_ok0 a c.
Proof.
  unfold ctx_ok0. destruct (p_err a) as [ea|], (p_err b) as [eb|], (p_err c) as [ec|]; try tauto.
  intros (R1 & M1 & T1 & n1 & E1 & S1) (R2 & M2 & T2 & n2 & E2 & S2).
  repeat split; try congruence.
  exists (n1 ++ n2). rewrite E2, E1, app_assoc. split; [reflexivity|].
  rewrite existsb_app, S1. rewrite T1 in S2. exact S2.
Qed.
Lemma ctx_ok_trans a b c : ctx_ok a b -> ctx_ok b c -> ctx_ok a c.
Proof.
  intros H1 H2. assert (H3 := ctx_ok0_trans _ _ _ (ctx_ok_weak _ _ H1) (ctx_ok_weak _ _ H2)).
  unfold ctx_ok, ctx_ok0 in *. destruct (p_err a) as [ea|], (p_err b) as [eb|], (p_err c) as [ec|]; try tauto.
  destruct H1 as (R1 & M1 & T1 & I1 & n1), H2 as (R2 & M2 & T2 & I2 & n2), H3 as (R3 & M3 & T3 & n3).
  repeat split; auto. destruct I2 as [I2|I2]; [rewrite I2; destruct I1; auto|auto].
Qed.
Lemma ctx_ok_throw a b x c : ctx_ok0 a b -> thrown_ok b x c -> thrown_ok a x c.
Proof.
  unfold ctx_ok0. intros H (eb & ec & new & E1 & E2 & E3 & E4 & E5). rewrite E1 in H.
  destruct (p_err a) as [ea|] eqn:Ea; [|destruct H]. destruct H as (R1 & M1 & T1 & n1 & X1 & S1).
  exists ea, ec, (n1 ++ new). repeat split; auto.
  - rewrite E3, X1, !app_assoc. reflexivity.
  - rewrite <- T1; exact E4.
  - rewrite existsb_app, S1. rewrite T1 in E5. exact E5.
Qed.
Lemma ctx_ok_refl st : ctx_ok st st.
Proof. unfold ctx_ok. destruct (p_err st); [|exact I]. repeat split; auto. exists []. rewrite app_nil_r. auto. Qed.

Lemma emplace_ctx k ex ac h e : 
  match emplace_error e k ex ac h with
  | POk _ st' => ctx_ok {| p_heap := h; p_err := Some e |} st'
  | PThrow x st' => thrown_ok {| p_heap := h; p_err := Some e |} x st'
  | _ => True
  end.
Proof.
  unfold emplace_error. set (x := {| e_kind := k |}).
  destruct (N.eqb (N.land (es_throw e) (throw_flag k)) 0) eqn:E.
  - unfold ctx_ok; cbn. repeat split; auto. exists [x]. split; [reflexivity|]. cbn. unfold selected; cbn. rewrite E. reflexivity.
  - exists e, (add_err e x), []. cbn. repeat split; auto. unfold selected; cbn. rewrite E. reflexivity.
Qed.

Lemma items_ctx A (s : A -> json -> M A) js : (forall a j, ctx_rel (s a j)) -> forall i a st,
  match pull_items s i js a st with
  | POk _ st' => ctx_ok0 st st' /\ (forall e', p_err st' = Some e' -> es_index e' = None)
  | PThrow x st' => thrown_ok st x st'
  | _ => True
  end.
Proof.
  intros H. assert (SI: forall i st, exists st', set_index i st = POk tt st' /\ ctx_ok0 st st' /\ (forall e', p_err st' = Some e' -> es_index e' = i)).
  { intros i [h [e|]]; eexists; (split; [reflexivity|]); cbn; (split; [|intros e' X; inversion X; reflexivity]); unfold ctx_ok0; cbn; auto.
    repeat split. exists []. rewrite app_nil_r. auto. }
  induction js as [|j js IH]; intros i a st; cbn [pull_items]; unfold bind.
  - destruct (SI None st) as (st1 & E & C & X). rewrite E. cbn. auto.
  - destruct (SI (Some i) st) as (st1 & E & C & X). rewrite E.
    specialize (H a j st1). destruct (s a j st1) as [a1 st2|x st2| | |]; auto.
    + specialize (IH (i + 1)%N a1 st2). destruct (pull_items s (i + 1) js a1 st2); auto.
      * destruct IH as [C2 X2]. split; [|exact X2]. eapply ctx_ok0_trans; [exact C|]. eapply ctx_ok0_trans; [apply ctx_ok_weak; exact H|exact C2].
      * eapply ctx_ok_throw; [exact C|]. eapply ctx_ok_throw; [apply ctx_ok_weak; exact H|exact IH].
    + eapply ctx_ok_throw; eauto.
Qed.

Lemma ctx_mrel G : mrel G (fun A m _ => @ctx_rel A m).
Proof.
  constructor; intros.
  - intros st. apply ctx_ok_refl.
  - intros st. unfold bind. specialize (H st). destruct (m st) as [a st1|x st1| | |]; auto.
    specialize (H0 a st1). destruct (k a st1); auto; [eapply ctx_ok_trans|eapply ctx_ok_throw; [apply ctx_ok_weak|]]; eauto.
  - intros st; exact I.
  - intros st; exact I.
  - intros [h [er|]]; unfold report; cbn [p_err p_heap]; [apply emplace_ctx|apply ctx_ok_refl].
  - intros [h [er|]]; unfold report_unchecked; cbn [p_err p_heap]; [apply emplace_ctx|exact I].
  - intros st. assert (Q := items_ctx A s js H i a st). destruct (pull_items s i js a st); auto. destruct Q. apply ctx_ok_strong; assumption.
  - intros [h [e|]]; unfold in_member; cbn [p_err].
    + specialize (H (put_member (Some n) {| p_heap := h; p_err := Some e |})). destruct (m _) as [a st1|x st1| | |]; auto.
      * revert H. unfold ctx_ok, put_member. cbn. destruct (p_err st1) as [e1|]; cbn; tauto.
      * destruct H as (e0 & e' & new & E1 & E2 & E3 & E4 & E5). cbn in E1. inversion E1; subst e0. cbn in *.
        exists e, e', new. auto.
    + match goal with |- context [m ?s] => specialize (H s) end. destruct (m _) as [a st1|x st1| | |]; auto.
      revert H. unfold ctx_ok, put_member. cbn. destruct (p_err st1) as [e1|]; cbn; tauto.
  - intros [h [e|]]; unfold in_record; cbn [p_err].
    + specialize (H (put_record (Some n) {| p_heap := h; p_err := Some e |})). destruct (m _) as [a st1|x st1| | |]; auto.
      * revert H. unfold ctx_ok, put_record. cbn. destruct (p_err st1) as [e1|]; cbn; tauto.
      * destruct H as (e0 & e' & new & E1 & E2 & E3 & E4 & E5). cbn in E1. inversion E1; subst e0. cbn in *.
        exists e, e', new. auto.
    + match goal with |- context [m ?s] => specialize (H s) end. destruct (m _) as [a st1|x st1| | |]; auto.
      revert H. unfold ctx_ok, put_record. cbn. destruct (p_err st1) as [e1|]; cbn; tauto.
  - intros st. unfold in_new. match goal with |- context [m ?s] => specialize (H s) end.
    destruct (m _) as [a st1|x st1| | |]; auto.
Qed.

Lemma pull_ctx G J f t o j : ctx_rel (pull G J f t o j).
Proof. apply (pull_rel G J (fun A m _ => @ctx_rel A m) (ctx_mrel G)). intros A st. exact I. Qed.
Lemma pull_cls_ctx G J f c os ms : ctx_rel (pull_cls G J f c os ms).
Proof. apply (pull_rel G J (fun A m _ => @ctx_rel A m) (ctx_mrel G)). intros A st. exact I. Qed.
Lemma fromJson_ctx G J f t j : ctx_rel (fromJson G J f t j).
Proof. apply (fromJson_rel G J (fun A m _ => @ctx_rel A m) (ctx_mrel G)). intros A st. exact I. Qed.

(* ------------------------------------------------------------------ *)
(** * Objects which exist already are not touched *)

Definition hext (h h' : heap) : Prop := forall a c, hget h a = Some c -> hget h' a = Some c.
Lemma hext_refl h : hext h h. Proof. intros a c H; exact H. Qed.
Lemma hext_trans a b c : hext a b -> hext b c -> hext a c. Proof. intros H1 H2 x y H. apply H2, H1, H. Qed.
Definition heap_rel {A} (m : M A) : Prop := forall st,
  match m st with POk _ st' | PThrow _ st' => hext (p_heap st) (p_heap st') | _ => True end.

Lemma heap_mrel G : alloc_ok G -> mrel G (fun A m _ => @heap_rel A m).
Proof.
  intros AL.
  assert (HB: forall A B (m : M A) (k : A -> M B), heap_rel m -> (forall a, heap_rel (k a)) -> heap_rel (bind m k)).
  { intros A B m k H H0 st. unfold bind. specialize (H st). destruct (m st) as [a st1|x st1| | |]; auto.
    specialize (H0 a st1). destruct (k a st1); auto; eapply hext_trans; eauto. }
  constructor; intros.
  - intros st. apply hext_refl.
  - apply HB; assumption.
  - intros st; exact I.
  - intros st; exact I.
  - intros [h [er|]]; unfold report, emplace_error; cbn [p_err p_heap]; [destruct (N.eqb _ _)|]; apply hext_refl.
  - intros [h [er|]]; unfold report_unchecked, emplace_error; cbn [p_err p_heap]; [destruct (N.eqb _ _); apply hext_refl|exact I].
  - apply (items_from_index (fun A m _ => @heap_rel A m)); auto; intros; intros st; apply hext_refl.
  - intros st. unfold in_member. specialize (H (put_member (Some n) st)). destruct (m _); auto.
  - intros st. unfold in_record. specialize (H (put_record (Some n) st)). destruct (m _); auto.
  - intros st. unfold in_new. set (a := g_alloc G (p_heap st)).
    assert (FR: forall c (h : Prop), hget (p_heap st) a = Some c -> h). { intros c h E. exfalso. assert (Q := hget_not_in _ _ (AL (p_heap st))). fold a in Q. congruence. }
    match goal with |- context [m ?s] => specialize (H s) end.
    destruct (m _) as [x st1|x st1| | |]; auto; cbn [p_heap] in *.
    + intros b c E. destruct (N.eq_dec a b) as [<-|Hab]; [eapply FR; eauto|].
      rewrite hget_hset_other by auto. apply H. rewrite hget_hset_other; auto.
    + intros b c E. destruct (N.eq_dec a b) as [<-|Hab]; [eapply FR; eauto|].
      apply H. rewrite hget_hset_other; auto.
Qed.
Lemma pull_heap G J f t o j : alloc_ok G -> heap_rel (pull G J f t o j).
Proof. intros AL. apply (pull_rel G J (fun A m _ => @heap_rel A m) (heap_mrel G AL)). intros A st. exact I. Qed.
Lemma pull_cls_heap G J f c os ms : alloc_ok G -> heap_rel (pull_cls G J f c os ms).
Proof. intros AL. apply (pull_rel G J (fun A m _ => @heap_rel A m) (heap_mrel G AL)). intros A st. exact I. Qed.

(* ------------------------------------------------------------------ *)
(** * C24 *)

Definition set_member (n : bytes) (e : est) : est :=
  {| es_errs := es_errs e; es_record := es_record e; es_member := Some n; es_index := es_index e; es_throw := es_throw e |}.
Definition set_record (n : bytes) (e : est) : est :=
  {| es_errs := es_errs e; es_record := Some n; es_member := es_member e; es_index := es_index e; es_throw := es_throw e |}.

(** [m'] run with an error list which throws on nothing, [m] run without error list *)
Definition null_rel {A} (m m' : M A) : Prop := forall h e, es_throw e = 0%N ->
  match m' {| p_heap := h; p_err := Some e |} with
  | POk a st' => exists e' new, p_err st' = Some e' /\ es_throw e' = 0%N /\ es_errs e' = es_errs e ++ new
      /\ m {| p_heap := h; p_err := None |} = if existsb is_dup new then PUB else POk a {| p_heap := p_heap st'; p_err := None |}
  | PThrow _ _ => False
  | PUB => m {| p_heap := h; p_err := None |} = PUB
  | PFuel => m {| p_heap := h; p_err := None |} = PFuel \/ m {| p_heap := h; p_err := None |} = PUB
  | PStuck => m {| p_heap := h; p_err := None |} = PStuck \/ m {| p_heap := h; p_err := None |} = PUB
  end.

Lemma null_mrel G : mrel G (fun A => @null_rel A).
Proof.
  assert (HR: forall A (a : A), null_rel (ret a) (ret a)).
  { intros A a h e Z. cbn. exists e, []. rewrite app_nil_r. auto. }
  assert (HB: forall A B (m m' : M A) (k k' : A -> M B), null_rel m m' -> (forall a, null_rel (k a) (k' a)) -> null_rel (bind m k) (bind m' k')).
  { intros A B m m' k k' H H0 h e Z. unfold bind. specialize (H h e Z).
    destruct (m' _) as [a st1|x st1| | |].
    - destruct st1 as [h1 er1]. destruct H as (e1 & new & E1 & Z1 & E2 & E3). cbn [p_err p_heap] in *. subst er1. rewrite E3. specialize (H0 a h1 e1 Z1).
      destruct (existsb is_dup new) eqn:D.
      + destruct (k' a _) as [a2 st2|x st2| | |]; auto.
        destruct H0 as (e2 & new2 & F1 & Z2 & F2 & F3). exists e2, (new ++ new2). repeat split; auto.
        { rewrite F2, E2, app_assoc. reflexivity. } { rewrite existsb_app, D. reflexivity. }
      + destruct (k' a _) as [a2 st2|x st2| | |]; auto.
        destruct H0 as (e2 & new2 & F1 & Z2 & F2 & F3). exists e2, (new ++ new2). repeat split; auto.
        { rewrite F2, E2, app_assoc. reflexivity. } { rewrite existsb_app, D. exact F3. }
    - contradiction.
    - rewrite H; reflexivity.
    - destruct H as [E|E]; rewrite E; auto.
    - destruct H as [E|E]; rewrite E; auto. }
  constructor; intros.
  - apply HR.
  - apply HB; assumption.
  - intros h e Z; reflexivity.
  - intros h e Z; left; reflexivity.
  - intros h er Z. unfold report, emplace_error. cbn [p_err p_heap]. rewrite Z. cbn [N.land N.eqb].
    eexists _, [_]. cbn. split; [reflexivity|]. repeat split; auto. unfold is_dup; cbn. destruct k; try reflexivity. contradiction.
  - intros h er Z. unfold report_unchecked, emplace_error. cbn [p_err p_heap]. rewrite Z. cbn [N.land N.eqb].
    eexists _, [_]. cbn. split; [reflexivity|]. repeat split; auto.
  - apply (items_from_index (fun A => @null_rel A)); auto. intros i0 h e Z. cbn. eexists _, []. split; [reflexivity|]. cbn. rewrite app_nil_r. auto.
  - intros h e Z. unfold in_member. cbn [p_err]. change (put_member (Some n) {| p_heap := h; p_err := Some e |}) with {| p_heap := h; p_err := Some (set_member n e) |}.
    change (put_member (Some n) {| p_heap := h; p_err := None |}) with {| p_heap := h; p_err := @None est |}.
    match goal with |- context [m' {| p_heap := h; p_err := Some ?e1 |}] => specialize (H h e1 Z) end.
    destruct (m' _) as [a st1|x st1| | |]; auto.
    + destruct H as (e1 & new & E1 & Z1 & E2 & E3). cbn [p_err p_heap] in *. rewrite E3.
      unfold put_member; rewrite E1; cbn. eexists _, new. split; [reflexivity|]. cbn. repeat split; auto. destruct (existsb is_dup new); reflexivity.
    + rewrite H; reflexivity.
    + destruct H as [E|E]; rewrite E; auto.
    + destruct H as [E|E]; rewrite E; auto.
  - intros h e Z. unfold in_record. cbn [p_err]. change (put_record (Some n) {| p_heap := h; p_err := Some e |}) with {| p_heap := h; p_err := Some (set_record n e) |}.
    change (put_record (Some n) {| p_heap := h; p_err := None |}) with {| p_heap := h; p_err := @None est |}.
    match goal with |- context [m' {| p_heap := h; p_err := Some ?e1 |}] => specialize (H h e1 Z) end.
    destruct (m' _) as [a st1|x st1| | |]; auto.
    + destruct H as (e1 & new & E1 & Z1 & E2 & E3). cbn [p_err p_heap] in *. rewrite E3.
      unfold put_record; rewrite E1; cbn. eexists _, new. split; [reflexivity|]. cbn. repeat split; auto. destruct (existsb is_dup new); reflexivity.
    + rewrite H; reflexivity.
    + destruct H as [E|E]; rewrite E; auto.
    + destruct H as [E|E]; rewrite E; auto.
  - intros h e Z. unfold in_new. cbn [p_err p_heap].
    match goal with |- context [m' {| p_heap := ?h1; p_err := Some e |}] => specialize (H h1 e Z) end.
    destruct (m' _) as [a st1|x st1| | |]; auto.
    + destruct H as (e1 & new & E1 & Z1 & E2 & E3). cbn [p_err p_heap] in *. rewrite E3.
      exists e1, new. repeat split; auto. destruct (existsb is_dup new); reflexivity.
    + rewrite H; reflexivity.
    + destruct H as [E|E]; rewrite E; auto.
    + destruct H as [E|E]; rewrite E; auto.
Qed.
Lemma null_fuel A : @null_rel A nofuel nofuel.
Proof. intros h e Z. left. reflexivity. Qed.
Lemma pull_null G J f t o j : null_rel (pull G J f t o j) (pull G J f t o j).
Proof. apply (pull_rel G J (fun A => @null_rel A) (null_mrel G) null_fuel). Qed.
Lemma fromJson_null G J f t j : null_rel (fromJson G J f t j) (fromJson G J f t j).
Proof. apply (fromJson_rel G J (fun A => @null_rel A) (null_mrel G) null_fuel). Qed.

(* ------------------------------------------------------------------ *)
(** * C27 *)

(** [m'] run with an error list which throws on nothing, [m] run with throwOn = [T] *)
Definition throw_rel (T : N) {A} (m m' : M A) : Prop := forall h e, es_throw e = 0%N ->
  match m' {| p_heap := h; p_err := Some e |} with
  | POk a st' => exists e' new, p_err st' = Some e' /\ es_throw e' = 0%N /\ es_errs e' = es_errs e ++ new
      /\ ((existsb (selected T) new = false
           /\ m {| p_heap := h; p_err := Some (with_throw T e) |} = POk a {| p_heap := p_heap st'; p_err := Some (with_throw T e') |})
          \/ (exists pre x post h2 e2, new = pre ++ x :: post /\ existsb (selected T) pre = false /\ selected T x = true
           /\ m {| p_heap := h; p_err := Some (with_throw T e) |} = PThrow x {| p_heap := h2; p_err := Some e2 |}
           /\ es_errs e2 = es_errs e ++ pre ++ [x]))
  | PThrow _ _ => False
  | o => m {| p_heap := h; p_err := Some (with_throw T e) |} = (match o with PUB => PUB | PFuel => PFuel | _ => PStuck end)
         \/ exists x h2 e2 new, m {| p_heap := h; p_err := Some (with_throw T e) |} = PThrow x {| p_heap := h2; p_err := Some e2 |}
              /\ es_errs e2 = es_errs e ++ new ++ [x] /\ selected T x = true /\ existsb (selected T) new = false
  end.

Lemma throw_mrel G T : mrel G (fun A => @throw_rel T A).
Proof.
  assert (HR: forall A (a : A), throw_rel T (ret a) (ret a)).
  { intros A a h e Z. cbn. exists e, []. rewrite app_nil_r. repeat split; auto. }
  assert (HB: forall A B (m m' : M A) (k k' : A -> M B), throw_rel T m m' -> (forall a, throw_rel T (k a) (k' a)) -> throw_rel T (bind m k) (bind m' k')).
  { intros A B m m' k k' H H0 h e Z. unfold bind. specialize (H h e Z).
    destruct (m' _) as [a st1|x st1| | |].
    - destruct st1 as [h1 er1]. destruct H as (e1 & new & E1 & Z1 & E2 & E3). cbn [p_err p_heap] in *. subst er1. specialize (H0 a h1 e1 Z1).
      destruct E3 as [[D E3]|(pre & x & post & h2 & e2 & D1 & D2 & D3 & D4 & D5)]; [rewrite E3|rewrite D4].
      + destruct (k' a _) as [a2 st2|x st2| | |].
        * destruct H0 as (e2 & new2 & F1 & Z2 & F2 & F3). exists e2, (new ++ new2). repeat split; auto.
          { rewrite F2, E2, app_assoc. reflexivity. }
          destruct F3 as [[D2 F3]|(pre & x & post & h2 & e3 & D1 & D2 & D3 & D4 & D5)].
          { left. rewrite existsb_app, D. split; [exact D2|exact F3]. }
          { right. exists (new ++ pre), x, post, h2, e3. rewrite existsb_app, D, D1, D5, E2, !app_assoc. auto. }
        * contradiction.
        * destruct H0 as [E|(x & h2 & e2 & n2 & E4 & E5 & E6 & E7)]; [left; exact E|right].
          exists x, h2, e2, (new ++ n2). rewrite existsb_app, D, E5, E2, !app_assoc. auto.
        * destruct H0 as [E|(x & h2 & e2 & n2 & E4 & E5 & E6 & E7)]; [left; exact E|right].
          exists x, h2, e2, (new ++ n2). rewrite existsb_app, D, E5, E2, !app_assoc. auto.
        * destruct H0 as [E|(x & h2 & e2 & n2 & E4 & E5 & E6 & E7)]; [left; exact E|right].
          exists x, h2, e2, (new ++ n2). rewrite existsb_app, D, E5, E2, !app_assoc. auto.
      + destruct (k' a _) as [a2 st2|y st2| | |].
        * destruct H0 as (e3 & new2 & F1 & Z2 & F2 & F3). exists e3, (new ++ new2). repeat split; auto.
          { rewrite F2, E2, app_assoc. reflexivity. }
          right. exists pre, x, (post ++ new2), h2, e2. rewrite D1, <- app_assoc. auto.
        * contradiction.
        * right. exists x, h2, e2, pre. auto.
        * right. exists x, h2, e2, pre. auto.
        * right. exists x, h2, e2, pre. auto.
    - contradiction.
    - destruct H as [E|(x & h2 & e2 & n2 & E)]; [left; rewrite E; reflexivity|right]. destruct E as (E4 & E). exists x, h2, e2, n2. rewrite E4. auto.
    - destruct H as [E|(x & h2 & e2 & n2 & E)]; [left; rewrite E; reflexivity|right]. destruct E as (E4 & E). exists x, h2, e2, n2. rewrite E4. auto.
    - destruct H as [E|(x & h2 & e2 & n2 & E)]; [left; rewrite E; reflexivity|right]. destruct E as (E4 & E). exists x, h2, e2, n2. rewrite E4. auto. }
  assert (HE: forall k ex ac h e, es_throw e = 0%N -> exists e' x, emplace_error e k ex ac h = POk tt {| p_heap := h; p_err := Some e' |}
     /\ es_throw e' = 0%N /\ es_errs e' = es_errs e ++ [x]
     /\ emplace_error (with_throw T e) k ex ac h =
        if selected T x then PThrow x {| p_heap := h; p_err := Some (with_throw T e') |} else POk tt {| p_heap := h; p_err := Some (with_throw T e') |}).
  { intros k ex ac h e Z. unfold emplace_error. rewrite Z. cbn [N.land N.eqb]. eexists _, _. split; [reflexivity|]. cbn. repeat split; auto.
    unfold selected. cbn. destruct (N.eqb _ _); reflexivity. }
  assert (HE2: forall k ex ac h e, es_throw e = 0%N -> match emplace_error e k ex ac h with
      | POk a st' => exists e' new, p_err st' = Some e' /\ es_throw e' = 0%N /\ es_errs e' = es_errs e ++ new
      /\ ((existsb (selected T) new = false
           /\ emplace_error (with_throw T e) k ex ac h = POk a {| p_heap := p_heap st'; p_err := Some (with_throw T e') |})
          \/ (exists pre x post h2 e2, new = pre ++ x :: post /\ existsb (selected T) pre = false /\ selected T x = true
           /\ emplace_error (with_throw T e) k ex ac h = PThrow x {| p_heap := h2; p_err := Some e2 |}
           /\ es_errs e2 = es_errs e ++ pre ++ [x])) | _ => False end).
  { intros k ex ac h e Z. destruct (HE k ex ac h e Z) as (e' & x & E1 & E2 & E3 & E4). rewrite E1. exists e', [x]. cbn [p_err p_heap]. repeat split; auto.
    destruct (selected T x) eqn:S; [right|left].
    - exists [], x, [], h, (with_throw T e'). cbn. auto.
    - cbn. rewrite S. auto. }
  constructor; intros.
  - apply HR.
  - apply HB; assumption.
  - intros h e Z; left; reflexivity.
  - intros h e Z; left; reflexivity.
  - intros h er Z. unfold report. cbn [p_err p_heap]. specialize (HE2 k e a h er Z). destruct (emplace_error er k e a h); auto; contradiction.
  - intros h er Z. unfold report_unchecked. cbn [p_err p_heap]. specialize (HE2 UnexpectedDuplicate e a h er Z).
    destruct (emplace_error er UnexpectedDuplicate e a h); auto; contradiction.
  - apply (items_from_index (fun A => @throw_rel T A)); auto. intros i0 h e Z. cbn. eexists _, []. split; [reflexivity|]. cbn. rewrite app_nil_r. auto.
  - intros h e Z. unfold in_member. cbn [p_err]. change (put_member (Some n) {| p_heap := h; p_err := Some e |}) with {| p_heap := h; p_err := Some (set_member n e) |}.
    change (put_member (Some n) {| p_heap := h; p_err := Some (with_throw T e) |}) with {| p_heap := h; p_err := Some (with_throw T (set_member n e)) |}.
    match goal with |- context [m' {| p_heap := h; p_err := Some ?e1 |}] => specialize (H h e1 Z) end. cbn [with_throw es_member es_errs es_record es_index es_throw] in *.
    destruct (m' _) as [a st1|x st1| | |]; auto.
    + destruct H as (e1 & new & E1 & Z1 & E2 & E3). cbn [p_err p_heap] in *.
      unfold put_member; rewrite E1; cbn. eexists _, new. split; [reflexivity|]. cbn. repeat split; auto.
      destruct E3 as [[D E3]|(pre & x & post & h2 & e2 & D1 & D2 & D3 & D4 & D5)]; [left; rewrite E3|right]; cbn; auto.
      exists pre, x, post, h2, e2. rewrite D4. auto.
    + destruct H as [E|(x & h2 & e2 & n2 & E4 & E)]; [left; rewrite E; reflexivity|right]. exists x, h2, e2, n2. rewrite E4. auto.
    + destruct H as [E|(x & h2 & e2 & n2 & E4 & E)]; [left; rewrite E; reflexivity|right]. exists x, h2, e2, n2. rewrite E4. auto.
    + destruct H as [E|(x & h2 & e2 & n2 & E4 & E)]; [left; rewrite E; reflexivity|right]. exists x, h2, e2, n2. rewrite E4. auto.
  - intros h e Z. unfold in_record. cbn [p_err]. change (put_record (Some n) {| p_heap := h; p_err := Some e |}) with {| p_heap := h; p_err := Some (set_record n e) |}.
    change (put_record (Some n) {| p_heap := h; p_err := Some (with_throw T e) |}) with {| p_heap := h; p_err := Some (with_throw T (set_record n e)) |}.
    match goal with |- context [m' {| p_heap := h; p_err := Some ?e1 |}] => specialize (H h e1 Z) end. cbn [with_throw es_member es_errs es_record es_index es_throw] in *.
    destruct (m' _) as [a st1|x st1| | |]; auto.
    + destruct H as (e1 & new & E1 & Z1 & E2 & E3). cbn [p_err p_heap] in *.
      unfold put_record; rewrite E1; cbn. eexists _, new. split; [reflexivity|]. cbn. repeat split; auto.
      destruct E3 as [[D E3]|(pre & x & post & h2 & e2 & D1 & D2 & D3 & D4 & D5)]; [left; rewrite E3|right]; cbn; auto.
      exists pre, x, post, h2, e2. rewrite D4. auto.
    + destruct H as [E|(x & h2 & e2 & n2 & E4 & E)]; [left; rewrite E; reflexivity|right]. exists x, h2, e2, n2. rewrite E4. auto.
    + destruct H as [E|(x & h2 & e2 & n2 & E4 & E)]; [left; rewrite E; reflexivity|right]. exists x, h2, e2, n2. rewrite E4. auto.
    + destruct H as [E|(x & h2 & e2 & n2 & E4 & E)]; [left; rewrite E; reflexivity|right]. exists x, h2, e2, n2. rewrite E4. auto.
  - intros h e Z. unfold in_new. cbn [p_err p_heap].
    match goal with |- context [m' {| p_heap := ?h1; p_err := Some e |}] => specialize (H h1 e Z) end.
    destruct (m' _) as [a st1|x st1| | |]; auto.
    + destruct H as (e1 & new & E1 & Z1 & E2 & E3). cbn [p_err p_heap] in *.
      exists e1, new. repeat split; auto.
      destruct E3 as [[D E3]|(pre & x & post & h2 & e2 & D1 & D2 & D3 & D4 & D5)]; [left; rewrite E3|right]; cbn; auto.
      exists pre, x, post, h2, e2. rewrite D4. auto.
    + destruct H as [E|(x & h2 & e2 & n2 & E4 & E)]; [left; rewrite E; reflexivity|right]. exists x, h2, e2, n2. rewrite E4. auto.
    + destruct H as [E|(x & h2 & e2 & n2 & E4 & E)]; [left; rewrite E; reflexivity|right]. exists x, h2, e2, n2. rewrite E4. auto.
    + destruct H as [E|(x & h2 & e2 & n2 & E4 & E)]; [left; rewrite E; reflexivity|right]. exists x, h2, e2, n2. rewrite E4. auto.
Qed.
Lemma throw_fuel T A : @throw_rel T A nofuel nofuel.
Proof. intros h e Z. left. reflexivity. Qed.
Lemma pull_throw G J T f t o j : throw_rel T (pull G J f t o j) (pull G J f t o j).
Proof. apply (pull_rel G J (fun A => @throw_rel T A) (throw_mrel G T) (throw_fuel T)). Qed.
Lemma fromJson_throw G J T f t j : throw_rel T (fromJson G J f t j) (fromJson G J f t j).
Proof. apply (fromJson_rel G J (fun A => @throw_rel T A) (throw_mrel G T) (throw_fuel T)). Qed.
