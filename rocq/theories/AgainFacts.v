(** AgainFacts.v -- two runs of deserialising the same document *)
From Coq Require Import List NArith ZArith Bool Lia.
From Verif Require Import Base BaseFacts Types TypesFacts BinModel BinSpec BinSafeSpec BinSafe Float JsonModel JsonRel JsonErr JsonSpec JsonSafeSpec JsonSafe JsonMembers EquivSpec AgainSpec.
From Verif Require AddrJson.
Import ListNotations.
Local Open Scope list_scope.

(* ------------------------------------------------------------------ *)
(** * The value does not depend on the state *)

Definition vdet {A} (m m' : M A) : Prop := forall st st' a s b s', m st = POk a s -> m' st' = POk b s' -> a = b /\ p_heap s = p_heap st.
Lemma vd_ret {A} (a : A) : vdet (ret a) (ret a).
Proof. intros st st' x s y s' [= <- <-] [= <- _]. auto. Qed.
Lemma vd_bind {A B} (m m' : M A) (k k' : A -> M B) : vdet m m' -> (forall a, vdet (k a) (k' a)) -> vdet (bind m k) (bind m' k').
Proof.
  intros H K st st' a s b s'. unfold bind. destruct (m st) as [x s1| | | |] eqn:E; try discriminate. destruct (m' st') as [x' s1'| | | |] eqn:E'; try discriminate.
  destruct (H _ _ _ _ _ _ E E') as [<- Hh]. intros X Y. destruct (K x _ _ _ _ _ _ X Y) as [-> Hh2]. split; [reflexivity|congruence].
Qed.
Lemma vd_report k x y : vdet (report k x y) (report k x y).
Proof.
  intros st st' a s b s'. unfold report, emplace_error. destruct st as [h [e|]]; cbn; [destruct (_ =? _)%N|]; intros X Y; inversion X; subst; destruct b; auto.
Qed.
Lemma vd_unchecked k x y : vdet (report_unchecked k x y) (report_unchecked k x y).
Proof.
  intros st st' a s b s'. unfold report_unchecked, emplace_error. destruct st as [h [e|]]; cbn; [destruct (_ =? _)%N|]; intros X Y; inversion X; subst; destruct b; auto.
Qed.
Lemma vd_index i : vdet (set_index i) (set_index i).
Proof. intros st st' a s b s' [= <- <-] [= <- _]. auto. Qed.
Lemma vd_ub {A} (m : M A) : vdet ub m. Proof. intros st st' a s b s' X; discriminate. Qed.
Lemma vd_stuck {A} (m : M A) : vdet stuck m. Proof. intros st st' a s b s' X; discriminate. Qed.
Lemma vd_member {A} n (m m' : M A) : vdet m m' -> vdet (in_member n m) (in_member n m').
Proof.
  intros H st st' a s b s'. unfold in_member. destruct (m (put_member _ st)) as [x s1| | | |] eqn:E; try discriminate. destruct (m' (put_member _ st')) as [x' s1'| | | |] eqn:E'; try discriminate.
  destruct (H _ _ _ _ _ _ E E') as [<- Hh]. intros X Y. inversion X; inversion Y; subst. split; [reflexivity|exact Hh].
Qed.
Lemma vd_record {A} n (m m' : M A) : vdet m m' -> vdet (in_record n m) (in_record n m').
Proof.
  intros H st st' a s b s'. unfold in_record. destruct (m (put_record _ st)) as [x s1| | | |] eqn:E; try discriminate. destruct (m' (put_record _ st')) as [x' s1'| | | |] eqn:E'; try discriminate.
  destruct (H _ _ _ _ _ _ E E') as [<- Hh]. intros X Y. inversion X; inversion Y; subst. split; [reflexivity|exact Hh].
Qed.
Lemma vd_items {A} (s s' : A -> json -> M A) js : (forall a j, In j js -> vdet (s a j) (s' a j)) -> forall i a, vdet (pull_items s i js a) (pull_items s' i js a).
Proof.
  induction js as [|j js IH]; intros H i a; cbn [pull_items]; (apply vd_bind; [apply vd_index|intros _]); [apply vd_ret|].
  apply vd_bind; [apply H; left; reflexivity|]. intros a'. apply IH. intros; apply H; right; assumption.
Qed.
Lemma vd_fold {A B} (s s' : A -> B -> M A) l : (forall a b, In b l -> vdet (s a b) (s' a b)) -> forall a, vdet (fold_m s l a) (fold_m s' l a).
Proof.
  induction l as [|b l IH]; intros H a; cbn [fold_m]; [apply vd_ret|].
  apply vd_bind; [apply H; left; reflexivity|]. intros a'. apply IH. intros; apply H; right; assumption.
Qed.
Lemma vd_tuple (p p' : ty -> val -> json -> M val) ts : (forall t o j, In t ts -> vdet (p t o j) (p' t o j)) -> forall os js, vdet (pull_tuple p ts os js) (pull_tuple p' ts os js).
Proof.
  induction ts as [|t ts IH]; intros H [|o os] js; cbn [pull_tuple]; try apply vd_stuck; try apply vd_ret.
  destruct js as [|j js]; [apply vd_ub|]. apply vd_bind; [apply H; left; reflexivity|]. intros x. apply vd_bind; [|intros; apply vd_ret]. apply IH. intros; apply H; right; assumption.
Qed.
Lemma vd_mismatch t j o : vdet (mismatch t j o) (mismatch t j o).
Proof. apply vd_bind; [apply vd_report|intros; apply vd_ret]. Qed.
Lemma vd_get k j : vdet (get_int k j) (get_int k j).
Proof.
  assert (Q : vdet (cast_double k j) (cast_double k j)).
  { unfold cast_double. destruct (get_double j) as [d|]; [|apply vd_stuck]. destruct (f64_trunc d) as [z|]; [|apply vd_ub]. destruct (in_range k z); [apply vd_ret|apply vd_ub]. }
  unfold get_int. destruct j; try exact Q. destruct (in_range k z); [apply vd_ret|exact Q].
Qed.

Lemma considered_all C m ts t : (fix all l := match l with [] => True | t :: l' => considered C m t /\ all l' end) ts -> In t ts -> considered C m t.
Proof. induction ts as [|u ts IH]; intros A []; [subst; exact (proj1 A)|exact (IH (proj2 A) H)]. Qed.
Lemma inside_any m : m <> Any -> inside m <> Any.
Proof. destruct m; cbn; congruence. Qed.

Section Value.
  Variables (G : genv) (J : jenv) (C : mode -> N -> Prop).
  Hypothesis HC : classes_considered G C.

  Definition vd_val f := forall f2 m t o j, m <> Any -> considered C m t -> vdet (pull G J f t o j) (pull G J f2 t o j).
  Definition vd_cls f := forall f2 m c L os ms, m <> Any -> members G rc_pull c L -> (forall fd, In fd L -> considered C m (jf_ty fd)) -> vdet (pull_cls G J f c os ms) (pull_cls G J f2 c os ms).

  Lemma value_det f : vd_val f /\ vd_cls f.
  Proof.
    induction f as [|f [IH IHc]]; [split; repeat intro; discriminate|]. split.
    - intros f2 m t o j Hm HT. destruct f2 as [|f2]; [repeat intro; discriminate|]. rewrite !pull_S. unfold pull_body.
      assert (Hi := inside_any m Hm).
      assert (MM : vdet (mismatch t j o) (mismatch t j o)) by apply vd_mismatch.
      assert (RR : forall k x y, vdet (let? _ := report k x y in ret o) (let? _ := report k x y in ret o)) by (intros; apply vd_bind; [apply vd_report|intros; apply vd_ret]).
      assert (DT : forall P : bytes -> option Z, vdet (let? s := match j with JStr s => ret (cstr s) | _ => let? _ := mismatch t j o in ret [] end in match P s with Some z => ret (VInt z) | None => let? _ := report ConversionError JTString JTString in ret o end)
          (let? s := match j with JStr s => ret (cstr s) | _ => let? _ := mismatch t j o in ret [] end in match P s with Some z => ret (VInt z) | None => let? _ := report ConversionError JTString JTString in ret o end)).
      { intros P. apply vd_bind; [destruct j; try apply vd_ret; (apply vd_bind; [exact MM|intros; apply vd_ret])|]. intros s. destruct (P s); [apply vd_ret|apply RR]. }
      destruct t; cbn [considered] in HT.
      + destruct j; try exact MM. apply vd_ret.
      + destruct (json_kind k); [|destruct (byte_kind k)]; [| |apply vd_stuck]; (destruct (is_number j); [|exact MM]); (apply vd_bind; [apply vd_get|intros; apply vd_ret]).
      + destruct (get_double j); [apply vd_ret|exact MM].
      + destruct (get_double j); [apply vd_ret|exact MM].
      + destruct j; try exact MM. destruct (in_range _ _); [apply vd_ret|exact MM].
      + destruct j; try exact MM. apply vd_ret.
      + destruct j; try exact MM. apply vd_bind; [|intros; apply vd_ret]. apply vd_items. intros a j' _. apply vd_bind; [apply (IH f2 (inside m)); assumption|intros; apply vd_ret].
      + destruct j; try exact MM. apply vd_bind; [|intros; apply vd_ret]. apply vd_items. intros a j' _. apply vd_bind; [apply (IH f2 Unshared); [discriminate|exact HT]|]. intros x. destruct (is_undef x); [apply vd_ub|].
        destruct (emplace G false ord multi t x a) as [l' b]. destruct (multi || b); [apply vd_ret|]. apply vd_bind; [apply vd_unchecked|intros; apply vd_ret].
      + destruct HT as (-> & _ & HV). destruct multi; (destruct o; try apply vd_stuck); (destruct j; try exact MM); (apply vd_bind; [|intros; apply vd_ret]); apply vd_fold; intros a [n j'] _.
        * assert (One : forall j2 l2, vdet (let? x := pull G J f t2 (vinit G t2) j2 in ret (fst (emplace G true ord true TString (VPair (VStr (cstr n)) x) l2)))
             (let? x := pull G J f2 t2 (vinit G t2) j2 in ret (fst (emplace G true ord true TString (VPair (VStr (cstr n)) x) l2)))) by (intros; apply vd_bind; [apply (IH f2 m); assumption|intros; apply vd_ret]).
          destruct j'; try apply One. apply vd_fold. intros; apply One.
        * cbv zeta. destruct (map_find _ _ _ _ _); (apply vd_bind; [apply (IH f2 m); assumption|intros; apply vd_ret]).
      + destruct HT as [H1 H2]. destruct o; try apply vd_stuck. destruct j; try exact MM. destruct (_ =? 2)%nat; [|apply RR].
        destruct (nth_error l 0); [|apply vd_ub]. destruct (nth_error l 1); [|apply vd_ub]. apply vd_bind; [apply (IH f2 m); assumption|intros]. apply vd_bind; [apply (IH f2 m); assumption|intros; apply vd_ret].
      + destruct ts as [|t0 ts]; [apply vd_stuck|]. destruct o; try apply vd_stuck. destruct j; try exact MM. destruct (_ =? _)%nat; [|apply RR].
        apply vd_bind; [|intros; apply vd_ret]. apply vd_tuple. intros t1 o j Hin. apply (IH f2 m); [exact Hm|]. exact (considered_all C m (t0 :: ts) _ HT Hin).
      + destruct j; try apply vd_ret; (apply vd_bind; [apply (IH f2 (inside m)); assumption|intros; apply vd_ret]).
      + destruct j; try apply vd_ret; (apply vd_bind; [apply (IH f2 (inside m)); assumption|intros; apply vd_ret]).
      + destruct HT as [-> _]. congruence.
      + destruct j; try exact MM. destruct (alookup _ _ ms) as [ji|]; [|apply RR]. destruct (alookup _ _ ms) as [jd|]; [|apply RR]. destruct ji; try apply RR. destruct (in_range _ _); [|apply RR].
        destruct (_ <? _)%N; [|apply RR]. destruct (nth_error ts (Z.to_nat z)) as [t'|] eqn:En; [|apply RR].
        assert (Q : vdet (let? x := pull G J f t' (vinit G t') jd in ret (VVar (Z.to_nat z) x)) (let? x := pull G J f2 t' (vinit G t') jd in ret (VVar (Z.to_nat z) x))).
        { apply vd_bind; [apply (IH f2 (inside m)); [exact Hi|]|intros; apply vd_ret]. eapply considered_all; [exact HT|]. eapply nth_error_In; exact En. }
        destruct t'; try exact Q. apply vd_ret.
      + apply vd_stuck.
      + destruct o; try apply vd_stuck. destruct j; try exact MM. destruct (HC m c HT) as (rc & L & Ec & HL & HF & _).
        apply vd_bind; [apply (IHc f2 m c L); assumption|intros; apply vd_ret].
      + apply DT.
      + apply DT.
      + destruct j; try exact MM. apply vd_ret.
      + destruct j; try exact MM. apply vd_ret.
    - intros f2 m c L os ms Hm HL HF. destruct f2 as [|f2]; [repeat intro; discriminate|]. rewrite !pull_cls_S. unfold pull_cls_body. inversion HL as [c' rc p Ls Ec Ep HB]; subst. rewrite Ec, Ep.
      apply vd_bind.
      + apply vd_fold. intros a b Hb. destruct (base_members HB Hb) as (Lb & Hi & Hb'). apply (IHc f2 m b Lb); [exact Hm|exact Hb'|]. intros fd Hfd. apply HF. apply in_or_app. left. apply in_concat. eauto.
      + intros os1. cbv zeta.
        assert (Q : vdet (fold_m (fun os fd => pull_member (pull G J f) ms fd os) (jp_fields p) os1) (fold_m (fun os fd => pull_member (pull G J f2) ms fd os) (jp_fields p) os1)).
        { apply vd_fold. intros a fd Hfd. unfold pull_member. destruct (alookup fkey_eqb _ a) as [o|]; [|apply vd_stuck]. destruct (alookup bytes_eqb _ ms) as [jm|]; [|apply vd_ret].
          apply vd_bind; [apply vd_member; apply (IH f2 m); [exact Hm|apply HF; apply in_or_app; right; exact Hfd]|intros; apply vd_ret]. }
        destruct (jp_record p); [apply vd_record|]; exact Q.
  Qed.
End Value.

(* ------------------------------------------------------------------ *)
(** * The outcome does not depend on the value of the variable *)

Lemma context_refl e : same_context e e.
Proof. destruct e; cbn; auto. Qed.
Lemma errors_refl st st' : same_context (p_err st) (p_err st') -> same_errors st st' st st'.
Proof. intros H. split; [exact H|]. exists []. rewrite !app_nil_r. auto. Qed.
Lemma errors_trans a a' b b' c c' : same_errors a a' b b' -> same_errors b b' c c' -> same_errors a a' c c'.
Proof. intros [_ (n1 & E1 & E1')] [H (n2 & E2 & E2')]. split; [exact H|]. exists (n1 ++ n2). rewrite E2, E1, E2', E1', !app_assoc. auto. Qed.

Section Twin.
  Variables (G : genv) (J : jenv) (ud : bool) (C : mode -> N -> Prop).
  Hypothesis HA : alloc_ok G.
  Hypothesis HP : place_ok G.
  Hypothesis HE : jenv_ok G ud (fun _ => True) false.
  Hypothesis HCV : conv_ok J.
  Hypothesis HC : classes_considered G C.
  Notation ht := (has_type G ud).
  Notation able := (pullable G (fun _ => True) false).
  Notation oldok := (variable_ok G ud).
  Notation docok := (docok (fun _ => True) false).

  Definition twin {A} (h h' : heap) (m m' : M A) (Q : A -> heap -> A -> heap -> Prop) : Prop := forall st st',
    p_heap st = h -> p_heap st' = h' -> heap_typed G ud h -> heap_typed G ud h' -> same_context (p_err st) (p_err st') ->
    match m st, m' st' with
    | POk a s, POk a' s' => Q a (p_heap s) a' (p_heap s') /\ same_errors st st' s s'
        /\ heap_typed G ud (p_heap s) /\ heap_typed G ud (p_heap s') /\ hext h (p_heap s) /\ hext h' (p_heap s')
    | PThrow e s, PThrow e' s' => e = e' /\ same_errors st st' s s'
    | PUB, PUB | PFuel, PFuel | PStuck, PStuck => True
    | _, _ => False
    end.

  Lemma tw_ret {A} h h' (a a' : A) (Q : A -> heap -> A -> heap -> Prop) : Q a h a' h' -> twin h h' (ret a) (ret a') Q.
  Proof. intros HQ st st' <- <- T T' X. cbn. split; [exact HQ|]. split; [apply errors_refl; exact X|]. split; [exact T|]. split; [exact T'|]. split; apply hext_refl. Qed.
  Lemma tw_bind {A B} h h' (m m' : M A) (k k' : A -> M B) (Q : A -> heap -> A -> heap -> Prop) (R : B -> heap -> B -> heap -> Prop) :
    twin h h' m m' Q -> (forall a h1 a' h1', hext h h1 -> hext h' h1' -> Q a h1 a' h1' -> twin h1 h1' (k a) (k' a') R) -> twin h h' (bind m k) (bind m' k') R.
  Proof.
    intros Hm Hk st st' Eh Eh' T T' X. unfold bind. specialize (Hm st st' Eh Eh' T T' X).
    destruct (m st) as [a s|e s| | |], (m' st') as [a' s'|e' s'| | |]; try contradiction; try exact Hm.
    destruct Hm as (HQ & S & T1 & T1' & X1 & X1'). specialize (Hk a _ a' _ X1 X1' HQ s s' eq_refl eq_refl T1 T1' (proj1 S)).
    destruct (k a s) as [b s2|e s2| | |], (k' a' s') as [b' s2'|e' s2'| | |]; try contradiction; try exact Hk.
    - destruct Hk as (HR & S2 & T2 & T2' & X2 & X2'). split; [exact HR|]. split; [eapply errors_trans; eassumption|]. split; [exact T2|]. split; [exact T2'|]. split; eapply hext_trans; eassumption.
    - destruct Hk as [-> S2]. split; [reflexivity|eapply errors_trans; eassumption].
  Qed.
  Lemma tw_imp {A} h h' (m m' : M A) (Q R : A -> heap -> A -> heap -> Prop) : twin h h' m m' Q ->
    (forall a h1 a' h1', hext h h1 -> hext h' h1' -> Q a h1 a' h1' -> R a h1 a' h1') -> twin h h' m m' R.
  Proof.
    intros Hm HQ st st' Eh Eh' T T' X. specialize (Hm st st' Eh Eh' T T' X).
    destruct (m st) as [a s|e s| | |], (m' st') as [a' s'|e' s'| | |]; try contradiction; try exact Hm. destruct Hm as (H1 & H2 & H3 & H4 & H5 & H6). auto 10.
  Qed.
  Lemma tw_ub {A} h h' (Q : A -> heap -> A -> heap -> Prop) : twin h h' ub ub Q.
  Proof. intros st st' _ _ _ _ _. exact I. Qed.
  Lemma tw_emplace e e' k x y h h' : heap_typed G ud h -> heap_typed G ud h' -> same_context (Some e) (Some e') ->
    match emplace_error e k x y h, emplace_error e' k x y h' with
    | POk _ s, POk _ s' => p_heap s = h /\ p_heap s' = h' /\ same_errors {| p_heap := h; p_err := Some e |} {| p_heap := h'; p_err := Some e' |} s s'
    | PThrow z s, PThrow z' s' => z = z' /\ same_errors {| p_heap := h; p_err := Some e |} {| p_heap := h'; p_err := Some e' |} s s'
    | _, _ => False
    end.
  Proof.
    intros T T' (E1 & E2 & E3 & E4). unfold emplace_error. rewrite E4, E1, E2, E3. cbv zeta.
    match goal with |- context [add_err e ?z] => set (z0 := z) end.
    assert (S : same_errors {| p_heap := h; p_err := Some e |} {| p_heap := h'; p_err := Some e' |} {| p_heap := h; p_err := Some (add_err e z0) |} {| p_heap := h'; p_err := Some (add_err e' z0) |}).
    { split; [cbn; auto|]. exists [z0]. split; reflexivity. }
    destruct (_ =? 0)%N; [auto|]. split; [reflexivity|exact S].
  Qed.
  Lemma tw_report h h' k x y (Q : unit -> heap -> unit -> heap -> Prop) : Q tt h tt h' -> twin h h' (report k x y) (report k x y) Q.
  Proof.
    intros HQ [h0 er] [h0' er'] Eh Eh' T T' X. cbn in Eh, Eh', X. subst h0 h0'. unfold report. cbn [p_err p_heap].
    destruct er as [e|], er' as [e'|]; try contradiction.
    - pose proof (tw_emplace e e' k x y h h' T T' X) as W.
      destruct (emplace_error e k x y h) as [[] s|z s| | |], (emplace_error e' k x y h') as [[] s'|z' s'| | |]; try contradiction; try exact W.
      destruct W as (-> & -> & W). split; [exact HQ|]. split; [exact W|]. split; [exact T|]. split; [exact T'|]. split; apply hext_refl.
    - split; [exact HQ|]. split; [apply errors_refl; exact I|]. split; [exact T|]. split; [exact T'|]. split; apply hext_refl.
  Qed.
  Lemma tw_unchecked h h' k x y (Q : unit -> heap -> unit -> heap -> Prop) : Q tt h tt h' -> twin h h' (report_unchecked k x y) (report_unchecked k x y) Q.
  Proof.
    intros HQ [h0 er] [h0' er'] Eh Eh' T T' X. cbn in Eh, Eh', X. subst h0 h0'. unfold report_unchecked. cbn [p_err p_heap].
    destruct er as [e|], er' as [e'|]; try contradiction; try exact I.
    pose proof (tw_emplace e e' k x y h h' T T' X) as W.
    destruct (emplace_error e k x y h) as [[] s|z s| | |], (emplace_error e' k x y h') as [[] s'|z' s'| | |]; try contradiction; try exact W.
    destruct W as (-> & -> & W). split; [exact HQ|]. split; [exact W|]. split; [exact T|]. split; [exact T'|]. split; apply hext_refl.
  Qed.
  Lemma tw_index h h' i (Q : unit -> heap -> unit -> heap -> Prop) : Q tt h tt h' -> twin h h' (set_index i) (set_index i) Q.
  Proof.
    intros HQ [h0 er] [h0' er'] Eh Eh' T T' X. cbn in Eh, Eh', X. subst h0 h0'. cbn. split; [exact HQ|]. split; [|split; [exact T|split; [exact T'|split; apply hext_refl]]].
    destruct er as [e|], er' as [e'|]; try contradiction; (split; [cbn in *; intuition auto|]); exists []; rewrite !app_nil_r; auto.
  Qed.
  Lemma put_member_errors n p p' st st' s s' : p = p' -> same_errors (put_member n st) (put_member n st') s s' -> same_errors st st' (put_member p s) (put_member p' s').
  Proof.
    intros <- [X (new & E1 & E2)]. split.
    - cbn. destruct (p_err s), (p_err s'); cbn in *; intuition auto.
    - exists new. unfold reported in *. cbn in *. destruct (p_err s), (p_err s'), (p_err st), (p_err st'); cbn in *; auto.
  Qed.
  Lemma put_record_errors n p p' st st' s s' : p = p' -> same_errors (put_record n st) (put_record n st') s s' -> same_errors st st' (put_record p s) (put_record p' s').
  Proof.
    intros <- [X (new & E1 & E2)]. split.
    - cbn. destruct (p_err s), (p_err s'); cbn in *; intuition auto.
    - exists new. unfold reported in *. cbn in *. destruct (p_err s), (p_err s'), (p_err st), (p_err st'); cbn in *; auto.
  Qed.
  Lemma thrown_member n st st' s s' : same_errors (put_member n st) (put_member n st') s s' -> same_errors st st' s s'.
  Proof. intros [X (new & E1 & E2)]. split; [exact X|]. exists new. unfold reported in *. cbn in *. destruct (p_err st), (p_err st'); cbn in *; auto. Qed.
  Lemma thrown_record n st st' s s' : same_errors (put_record n st) (put_record n st') s s' -> same_errors st st' s s'.
  Proof. intros [X (new & E1 & E2)]. split; [exact X|]. exists new. unfold reported in *. cbn in *. destruct (p_err st), (p_err st'); cbn in *; auto. Qed.
  Lemma tw_member {A} h h' n (m m' : M A) Q : twin h h' m m' Q -> twin h h' (in_member n m) (in_member n m') Q.
  Proof.
    intros Hm st st' Eh Eh' T T' X. unfold in_member. cbv zeta.
    assert (X2 : same_context (p_err (put_member (Some n) st)) (p_err (put_member (Some n) st'))) by (cbn; destruct (p_err st), (p_err st'); cbn in *; intuition auto).
    specialize (Hm (put_member (Some n) st) (put_member (Some n) st') Eh Eh' T T' X2).
    destruct (m _) as [a s|e s| | |], (m' _) as [a' s'|e' s'| | |]; try contradiction; try exact I.
    - destruct Hm as (HQ & S & T1 & T1' & X1 & X1'). split; [exact HQ|]. split; [|repeat split; assumption]. eapply put_member_errors; [|exact S]. destruct (p_err st), (p_err st'); cbn in X; try contradiction; [apply X|reflexivity].
    - destruct Hm as [-> S]. split; [reflexivity|]. eapply thrown_member; exact S.
  Qed.
  Lemma tw_record {A} h h' n (m m' : M A) Q : twin h h' m m' Q -> twin h h' (in_record n m) (in_record n m') Q.
  Proof.
    intros Hm st st' Eh Eh' T T' X. unfold in_record. cbv zeta.
    assert (X2 : same_context (p_err (put_record (Some n) st)) (p_err (put_record (Some n) st'))) by (cbn; destruct (p_err st), (p_err st'); cbn in *; intuition auto).
    specialize (Hm (put_record (Some n) st) (put_record (Some n) st') Eh Eh' T T' X2).
    destruct (m _) as [a s|e s| | |], (m' _) as [a' s'|e' s'| | |]; try contradiction; try exact I.
    - destruct Hm as (HQ & S & T1 & T1' & X1 & X1'). split; [exact HQ|]. split; [|repeat split; assumption]. eapply put_record_errors; [|exact S]. destruct (p_err st), (p_err st'); cbn in X; try contradiction; [apply X|reflexivity].
    - destruct Hm as [-> S]. split; [reflexivity|]. eapply thrown_record; exact S.
  Qed.
  Definition any {A} (a : A) (h : heap) (a' : A) (h' : heap) : Prop := True.
  (** what is known about each run alone *)
  Definition alone {A} (P P' : A -> heap -> Prop) (a : A) (h : heap) (a' : A) (h' : heap) : Prop := P a h /\ P' a' h'.
  Lemma tw_post {A} h h' (m m' : M A) (P P' : A -> heap -> Prop) Q : twin h h' m m' Q -> mpost G ud false h m P -> mpost G ud false h' m' P' ->
    twin h h' m m' (fun a h a' h' => P a h /\ P' a' h' /\ Q a h a' h').
  Proof.
    intros Hm M1 M2 st st' Eh Eh' T T' X. specialize (Hm st st' Eh Eh' T T' X).
    assert (S1 : sok G ud false st) by (split; [rewrite Eh; exact T|discriminate]). assert (S2 : sok G ud false st') by (split; [rewrite Eh'; exact T'|discriminate]).
    specialize (M1 st Eh S1). specialize (M2 st' Eh' S2).
    destruct (m st) as [a s|e s| | |], (m' st') as [a' s'|e' s'| | |]; try contradiction; try exact Hm.
    destruct Hm as (HQ & Hr). split; [|exact Hr]. split; [apply M1|]. split; [apply M2|exact HQ].
  Qed.
  Lemma tw_mismatch h h' t j o o' (Q : val -> heap -> val -> heap -> Prop) : Q o h o' h' -> twin h h' (mismatch t j o) (mismatch t j o') Q.
  Proof.
    intros HQ. eapply tw_bind; [apply (tw_report h h' _ _ _ (fun _ h1 _ h1' => h1 = h /\ h1' = h')); auto|]. intros _ h1 _ h1' _ _ [-> ->]. apply tw_ret. exact HQ.
  Qed.
  Lemma tw_report_ret {A} h h' k x y (o o' : A) (Q : A -> heap -> A -> heap -> Prop) : Q o h o' h' -> twin h h' (let? _ := report k x y in ret o) (let? _ := report k x y in ret o') Q.
  Proof.
    intros HQ. eapply tw_bind; [apply (tw_report h h' _ _ _ (fun _ h1 _ h1' => h1 = h /\ h1' = h')); auto|]. intros _ h1 _ h1' _ _ [-> ->]. apply tw_ret. exact HQ.
  Qed.
  Lemma tw_items {A} (s s' : A -> json -> M A) (P : A -> heap -> A -> heap -> Prop) js : forall h h',
    (forall a a' j h1 h1', In j js -> hext h h1 -> hext h' h1' -> P a h1 a' h1' -> twin h1 h1' (s a j) (s' a' j) P) ->
    forall i a a', P a h a' h' -> twin h h' (pull_items s i js a) (pull_items s' i js a') P.
  Proof.
    induction js as [|j js IH]; intros h h' Hs i a a' Ha; cbn [pull_items].
    - eapply tw_bind; [apply (tw_index h h' _ (fun _ h1 _ h1' => h1 = h /\ h1' = h')); auto|]. intros _ h1 _ h1' _ _ [-> ->]. apply tw_ret; exact Ha.
    - eapply tw_bind; [apply (tw_index h h' _ (fun _ h1 _ h1' => h1 = h /\ h1' = h')); auto|]. intros _ h1 _ h1' _ _ [-> ->].
      eapply tw_bind; [apply Hs; [left; reflexivity|apply hext_refl|apply hext_refl|exact Ha]|]. intros b h1 b' h1' X X' Hb. apply IH; [|exact Hb].
      intros c c' j' h2 h2' Hin X2 X2'. apply Hs; [right; exact Hin|eapply hext_trans; eassumption|eapply hext_trans; eassumption].
  Qed.
  Lemma tw_fold {A B} (s s' : A -> B -> M A) (P : A -> heap -> A -> heap -> Prop) l : forall h h',
    (forall a a' j h1 h1', In j l -> hext h h1 -> hext h' h1' -> P a h1 a' h1' -> twin h1 h1' (s a j) (s' a' j) P) ->
    forall a a', P a h a' h' -> twin h h' (fold_m s l a) (fold_m s' l a') P.
  Proof.
    induction l as [|j js IH]; intros h h' Hs a a' Ha; cbn [fold_m]; [apply tw_ret; exact Ha|].
    eapply tw_bind; [apply Hs; [left; reflexivity|apply hext_refl|apply hext_refl|exact Ha]|]. intros b h1 b' h1' X X' Hb. apply IH; [|exact Hb].
    intros c c' j' h2 h2' Hin X2 X2'. apply Hs; [right; exact Hin|eapply hext_trans; eassumption|eapply hext_trans; eassumption].
  Qed.
  Lemma tw_new h h' t (m m' : M val) : able t -> (forall h1 h1', hext h h1 -> hext h' h1' -> twin h1 h1' m m' any) ->
    (forall h1, hext h h1 -> mpost G ud false h1 m (fun v h' => ht h' t v)) -> (forall h1, hext h' h1 -> mpost G ud false h1 m' (fun v h' => ht h' t v)) ->
    twin h h' (in_new G t m) (in_new G t m') (fun a h1 a' h1' => hty h1 a = Some t /\ hty h1' a' = Some t).
  Proof.
    intros R Hm M1 M2.
    assert (N1 := mp_new G ud (fun _ => True) false HA HE h t m R M1). assert (N2 := mp_new G ud (fun _ => True) false HA HE h' t m' R M2).
    intros st st' Eh Eh' T T' X. specialize (N1 st Eh (conj (eq_rect_r (heap_typed G ud) T Eh) (fun e => match Bool.diff_false_true e with end))).
    specialize (N2 st' Eh' (conj (eq_rect_r (heap_typed G ud) T' Eh') (fun e => match Bool.diff_false_true e with end))).
    unfold in_new in *. rewrite Eh in *. rewrite Eh' in *. set (a := g_alloc G h) in *. set (a' := g_alloc G h') in *.
    assert (NT : forall h0, heap_typed G ud h0 -> heap_typed G ud (hset h0 (g_alloc G h0) (t, vinit G t)) /\ hext h0 (hset h0 (g_alloc G h0) (t, vinit G t))).
    { intros h0 T0. assert (X0 : hext h0 (hset h0 (g_alloc G h0) (t, vinit G t))) by (exact (hle_hset_fresh _ _ _ (HA h0))). split; [|exact X0].
      intros b u x E. destruct (N.eq_dec (g_alloc G h0) b) as [<-|Hn].
      - rewrite hget_hset_same in E. injection E as <- <-. eapply vinit_any; [exact HE|exact R].
      - rewrite hget_hset_other in E by exact Hn. eapply ht_ext; [exact X0|]. eapply T0; exact E. }
    destruct (NT h T) as [T1 X1]. destruct (NT h' T') as [T1' X1']. fold a in T1, X1. fold a' in T1', X1'.
    specialize (Hm _ _ X1 X1' {| p_heap := hset h a (t, vinit G t); p_err := p_err st |} {| p_heap := hset h' a' (t, vinit G t); p_err := p_err st' |} eq_refl eq_refl T1 T1' X).
    assert (SE : forall hh hh' s s', same_errors {| p_heap := hh; p_err := p_err st |} {| p_heap := hh'; p_err := p_err st' |} s s' -> same_errors st st' s s') by (intros hh hh' s s' Q; exact Q).
    destruct (m _) as [x s|e s| | |], (m' _) as [x' s'|e' s'| | |]; try contradiction; try exact I.
    - destruct Hm as (_ & S & T2 & T2' & X2 & X2'). destruct N1 as (Q1 & [K1 _] & Y1). destruct N2 as (Q2 & [K2 _] & Y2).
      split; [split; assumption|]. split; [|repeat split; assumption]. exact S.
    - destruct Hm as [-> S]. split; [reflexivity|exact S].
  Qed.

  Lemma safe_val f t old j h : able t -> oldok h t old -> docok j -> mpost G ud false h (pull G J f t old j) (fun v h' => pulled G ud t old v h').
  Proof. intros A B D. exact (proj1 (all_safe G J ud (fun _ => True) false HA HP HE HCV f) t old j h A B D). Qed.
  Lemma safe_cls f c rc p lay os ms h : g_class G c = Some rc -> rc_pull rc = Some p ->
    (forall k t, alookup fkey_eqb k (rc_layout rc) = Some t -> alookup fkey_eqb k lay = Some t) ->
    fieldsok G ud h lay os -> docok (JObj ms) -> mpost G ud false h (pull_cls G J f c os ms) (fun os' h' => fieldsok G ud h' lay os').
  Proof. exact (proj2 (all_safe G J ud (fun _ => True) false HA HP HE HCV f) c rc p lay os ms h). Qed.

  Definition T_val f := forall m t o o' j h h', able t -> considered C m t -> oldok h t o -> oldok h' t o' -> docok j ->
    twin h h' (pull G J f t o j) (pull G J f t o' j) any.
  Definition T_cls f := forall m c rc p L lay os os' ms h h', g_class G c = Some rc -> rc_pull rc = Some p ->
    members G rc_pull c L -> (forall fd, In fd L -> considered C m (jf_ty fd)) ->
    (forall k t, alookup fkey_eqb k (rc_layout rc) = Some t -> alookup fkey_eqb k lay = Some t) ->
    fieldsok G ud h lay os -> fieldsok G ud h' lay os' -> docok (JObj ms) ->
    twin h h' (pull_cls G J f c os ms) (pull_cls G J f c os' ms) any.

  (** with typed results *)
  Lemma twin_typed f m t o o' j h h' : T_val f -> able t -> considered C m t -> oldok h t o -> oldok h' t o' -> docok j ->
    twin h h' (pull G J f t o j) (pull G J f t o' j) (fun v h1 v' h1' => pulled G ud t o v h1 /\ pulled G ud t o' v' h1').
  Proof.
    intros IH A K O O' D. eapply tw_imp; [apply tw_post; [apply (IH m); assumption|apply safe_val; assumption|apply safe_val; assumption]|]. intros a h1 a' h1' _ _ (P1 & P2 & _). auto.
  Qed.
  Lemma twin_typed_ht f m t o o' j h h' : T_val f -> able t -> considered C m t -> ht h t o -> ht h' t o' -> docok j ->
    twin h h' (pull G J f t o j) (pull G J f t o' j) (fun v h1 v' h1' => ht h1 t v /\ ht h1' t v').
  Proof.
    intros IH A K O O' D. eapply tw_imp; [apply (twin_typed f m); [exact IH|exact A|exact K|left; exact O|left; exact O'|exact D]|]. intros a h1 a' h1' X X' (P1 & P2).
    split; eapply pulled_ht; eassumption.
  Qed.
  Lemma twin_new f m t j h h' : T_val f -> able t -> considered C m t -> docok j ->
    twin h h' (pull G J f t (vinit G t) j) (pull G J f t (vinit G t) j) (fun v h1 v' h1' => ht h1 t v /\ ht h1' t v').
  Proof. intros IH A K D. apply (twin_typed_ht f m); try assumption; eapply vinit_any; [exact HE|exact A|exact HE|exact A]. Qed.

  Lemma twin_cls_step f : T_val f -> T_cls f -> T_cls (S f).
  Proof.
    intros IH IHc m c rc p L lay os os' ms h h' Ec Ep HL HF Hlay F F' D. rewrite !pull_cls_S. unfold pull_cls_body. rewrite Ec, Ep.
    inversion HL as [c' rc' p' Ls Ec' Ep' HB]; subst. rewrite Ec in Ec'. injection Ec' as <-. rewrite Ep in Ep'. injection Ep' as <-.
    set (P := fun (a : list (fkey * val)) (h1 : heap) (a' : list (fkey * val)) (h1' : heap) => fieldsok G ud h1 lay a /\ fieldsok G ud h1' lay a').
    eapply (tw_bind h h' _ _ _ _ P).
    - apply (tw_fold _ _ P); [|split; assumption]. intros a a' b h1 h1' Hb X X' [Pa Pa']. destruct (base_members HB Hb) as (Lb & Hi & Hb').
      destruct (jo_bases _ _ _ _ HE c rc p b Ec Ep Hb) as (rb & pb & Eb & Epb & Hsub).
      assert (Hsub' : forall k t, alookup fkey_eqb k (rc_layout rb) = Some t -> alookup fkey_eqb k lay = Some t) by auto.
      eapply tw_imp; [apply tw_post; [eapply (IHc m b rb pb Lb lay); eauto|eapply safe_cls; eassumption|eapply safe_cls; eassumption]|].
      + intros fd Hfd. apply HF. apply in_or_app. left. apply in_concat. eauto.
      + intros y h2 y' h2' _ _ (Q1 & Q2 & _). split; assumption.
    - intros a h1 a' h1' X X' [Pa Pa']. cbv zeta.
      assert (Q : twin h1 h1' (fold_m (fun os fd => pull_member (pull G J f) ms fd os) (jp_fields p) a) (fold_m (fun os fd => pull_member (pull G J f) ms fd os) (jp_fields p) a') any).
      { eapply tw_imp; [|intros; exact I]. apply (tw_fold _ _ P); [|split; assumption]. intros b b' fd h2 h2' Hfd X2 X2' [[K0 F0] [K0' F0']].
        destruct (jo_fields _ _ _ _ HE c rc p fd Ec Ep Hfd) as [Hl Hr]. apply Hlay in Hl.
        assert (LK : forall os0 : list (fkey * val), map fst os0 = map fst lay -> exists o, alookup fkey_eqb (jf_key fd) os0 = Some o).
        { intros os0 K1. apply (alookup_some_in _ fkey_eqb_eq). rewrite K1. eapply alookup_some_key; [apply fkey_eqb_eq|exact Hl]. }
        destruct (LK b K0) as [o Eo]. destruct (LK b' K0') as [o' Eo']. unfold pull_member. rewrite Eo, Eo'.
        destruct (alookup bytes_eqb (jf_name fd) ms) as [j|] eqn:El; [|apply tw_ret; repeat split; assumption].
        assert (Ho := F0 _ _ _ Hl Eo). assert (Ho' := F0' _ _ _ Hl Eo').
        eapply tw_bind; [apply tw_member; apply (twin_typed_ht f m); [exact IH|exact Hr|apply HF; apply in_or_app; right; exact Hfd|exact Ho|exact Ho'|eapply doc_lookup; eassumption]|].
        intros x h3 x' h3' X3 X3' [Hx Hx']. apply tw_ret.
        assert (UP : forall os0 o0 x0 h4 h5, hext h4 h5 -> map fst os0 = map fst lay -> alookup fkey_eqb (jf_key fd) os0 = Some o0 ->
           (forall k t v, alookup fkey_eqb k lay = Some t -> alookup fkey_eqb k os0 = Some v -> ht h4 t v) -> ht h5 (jf_ty fd) x0 -> fieldsok G ud h5 lay (aupdate fkey_eqb (jf_key fd) x0 os0)).
        { intros os0 o0 x0 h4 h5 X4 K1 E1 F1 H1. split; [rewrite aupdate_keys; exact K1|].
          intros k t v E3 E4. destruct (fkey_eq_dec (jf_key fd) k) as [<-|Hn].
          - rewrite (alookup_aupdate_same _ fkey_eqb_eq) in E4 by (eapply alookup_some_key; [apply fkey_eqb_eq|exact E1]). injection E4 as <-. rewrite Hl in E3. injection E3 as <-. exact H1.
          - rewrite (alookup_aupdate_other _ fkey_eqb_eq) in E4 by congruence. eapply ht_ext; [exact X4|]. eapply F1; eassumption. }
        split; [apply (UP b o x h2 h3)|apply (UP b' o' x' h2' h3')]; assumption. }
      destruct (jp_record p); [apply tw_record|]; exact Q.
  Qed.

  Lemma find_typed ord vt k l h v : (forall x, In x l -> ht h (TPair TString vt) x) -> map_find G ord TString k l = Some v -> ht h vt v.
  Proof.
    induction l as [|y l IH]; intros Hl Ef; cbn [map_find] in Ef; [discriminate|]. destruct (same_key _ _ _ y _).
    - assert (Hy := Hl y (or_introl eq_refl)). inversion Hy; subst; try discriminate. injection Ef as <-. assumption.
    - apply IH; [|exact Ef]. intros x Hx; apply Hl; right; exact Hx.
  Qed.
  Lemma put_typed ord vt k l h v : (forall x, In x l -> ht h (TPair TString vt) x) -> ht h vt v -> forall x, In x (map_put G ord TString k v l) -> ht h (TPair TString vt) x.
  Proof.
    induction l as [|y l IH]; intros Hl Hx; cbn [map_put]; [intros y []|]. destruct (same_key _ _ _ y _).
    - assert (Hy := Hl y (or_introl eq_refl)). inversion Hy; subst; [discriminate|]. intros z [<-|Hz]; [constructor; assumption|apply Hl; right; exact Hz].
    - intros z [<-|Hz]; [apply Hl; left; reflexivity|]. apply IH; [|exact Hx|exact Hz]. intros w Hw; apply Hl; right; exact Hw.
  Qed.
  Lemma emplace_typed ord multi vt l n h v : (forall x, In x l -> ht h (TPair TString vt) x) -> ht h vt v ->
    forall x, In x (fst (emplace G true ord multi TString (VPair (VStr n) v) l)) -> ht h (TPair TString vt) x.
  Proof. intros Hl Hv x Hx. apply (emplace_in _ _ _ _ _ _ _ _ HP) in Hx. destruct Hx as [->|Hx]; [constructor; [constructor|exact Hv]|apply Hl; exact Hx]. Qed.
  Lemma all_ext h h1 t l : hext h h1 -> (forall x, In x l -> ht h t x) -> forall x, In x l -> ht h1 t x.
  Proof. intros X H x Hx. eapply ht_ext; [exact X|auto]. Qed.

  Lemma twin_val_step f : T_val f -> T_cls f -> T_val (S f).
  Proof.
    intros IH IHc m t o o' j h h' A K O O' D. rewrite !pull_S. unfold pull_body.
    assert (MM : twin h h' (mismatch t j o) (mismatch t j o') any) by (apply tw_mismatch; exact I).
    assert (RT : forall v v', twin h h' (ret v) (ret v') (@any val)) by (intros; apply tw_ret; exact I).
    assert (RR : forall k x y, twin h h' (let? _ := report k x y in ret o) (let? _ := report k x y in ret o') any) by (intros; apply tw_report_ret; exact I).
    assert (GI : forall k (F : Z -> val), twin h h' (let? z := get_int k j in ret (F z)) (let? z := get_int k j in ret (F z)) any).
    { intros k F st st' E1 E2 T T' X. unfold bind. assert (Q := Verif.AddrJson.pure_get k j st st'). destruct (get_int k j st), (get_int k j st'); try contradiction; try exact I.
      destruct Q as (<- & -> & ->). exact (RT (F a) (F a) st st' E1 E2 T T' X). }
    assert (DT : forall P : bytes -> option Z, twin h h' (let? s := match j with JStr s => ret (cstr s) | _ => let? _ := mismatch t j o in ret [] end in match P s with Some z => ret (VInt z) | None => let? _ := report ConversionError JTString JTString in ret o end)
          (let? s := match j with JStr s => ret (cstr s) | _ => let? _ := mismatch t j o' in ret [] end in match P s with Some z => ret (VInt z) | None => let? _ := report ConversionError JTString JTString in ret o' end) any).
    { intros P. eapply (tw_bind h h' _ _ _ _ (fun s h1 s' h1' => s = s' /\ h1 = h /\ h1' = h')).
      - destruct j; try (apply tw_ret; auto; fail); (eapply tw_bind; [apply (tw_mismatch h h' t _ o o' (fun _ h1 _ h1' => h1 = h /\ h1' = h')); auto|]; intros _ h1 _ h1' _ _ [-> ->]; apply tw_ret; auto).
      - intros s h1 s' h1' _ _ (<- & -> & ->). destruct (P s); [apply RT|apply RR]. }
    assert (FN : forall (A B : Type) (mm mm' : M A) (k k' : A -> B) (Q : A -> heap -> A -> heap -> Prop), twin h h' mm mm' Q -> twin h h' (let? x := mm in ret (k x)) (let? x := mm' in ret (k' x)) (@any B)).
    { intros A0 B mm mm' k k' Q H. eapply tw_bind; [exact H|]. intros; apply tw_ret; exact I. }
    destruct t; cbn [pullable] in A; cbn [considered] in K; try contradiction.
    - destruct j; try exact MM. apply RT.
    - destruct (json_kind k); [|destruct A as [-> _]]; (destruct (is_number j); [|exact MM]); [apply (GI k VInt)|apply (GI KI32 (fun z => VInt (wrap k z)))].
    - destruct (get_double j); [apply RT|exact MM].
    - destruct (get_double j); [apply RT|exact MM].
    - destruct j; try exact MM. destruct (in_range _ _); [apply RT|exact MM].
    - destruct j; try exact MM. apply RT.
    - (* sequences *) destruct j as [ | | | | |js| ]; try exact MM. eapply FN. apply (tw_items _ _ any); [|exact I].
      intros a a' j' h1 h1' Hin X X' _. eapply tw_bind; [apply (twin_new f (inside m)); [exact IH|exact A|exact K|eapply doc_item; eassumption]|]. intros; apply tw_ret; exact I.
    - (* sets *) destruct A as [A _]. destruct j as [ | | | | |js| ]; try exact MM. eapply FN. apply (tw_items _ _ (fun l _ l' _ => l = l')); [|reflexivity].
      intros a a' j' h1 h1' Hin X X' <-.
      assert (EQ : twin h1 h1' (pull G J f t (dinit G t) j') (pull G J f t (dinit G t) j') (fun v _ v' _ => v = v')).
      { intros st st' E1 E2 T T' XC.
        assert (W := IH Unshared t (dinit G t) (dinit G t) j' h1 h1' A K (dinit_ok G ud _ false HE t h1 A) (dinit_ok G ud _ false HE t h1' A) (doc_item _ _ _ _ D Hin) st st' E1 E2 T T' XC).
        assert (V := proj1 (value_det G J C HC f) f Unshared t (dinit G t) j' ltac:(discriminate) K st st').
        destruct (pull G J f t (dinit G t) j' st) as [x s|e s| | |], (pull G J f t (dinit G t) j' st') as [x' s'|e' s'| | |]; try contradiction; try exact W.
        destruct (V _ _ _ _ eq_refl eq_refl) as [-> _]. destruct W as (_ & W). split; [reflexivity|exact W]. }
      eapply tw_bind; [exact EQ|]. intros x h2 x' h2' X2 X2' <-. destruct (is_undef x); [apply tw_ub|].
      destruct (emplace G false ord multi t x a) as [l' b]. destruct (multi || b); [apply tw_ret; reflexivity|].
      eapply tw_bind; [apply (tw_unchecked _ _ _ _ _ any); exact I|]. intros; apply tw_ret; reflexivity.
    - (* maps *) destruct A as [-> A]. destruct K as (_ & _ & K).
      assert (OL : forall h0 o0, oldok h0 (TMap ord multi TString t2) o0 -> exists olds, o0 = VList olds /\ (forall x, In x olds -> ht h0 (TPair TString t2) x)).
      { intros h0 o0 [O0|[O0 _]]; [|discriminate]. inversion O0; subst; [discriminate|]. exists l. split; [reflexivity|]. intros x Hx.
        match goal with Q : forall x, In x l -> exists k v, x = VPair k v |- _ => destruct (Q x Hx) as (k & v & ->) end. constructor; eauto. }
      destruct (OL _ _ O) as (olds & -> & Ho). destruct (OL _ _ O') as (olds' & -> & Ho'). clear OL.
      set (P := fun (l : list val) (h1 : heap) (l' : list val) (h1' : heap) => (forall x, In x l -> ht h1 (TPair TString t2) x) /\ (forall x, In x l' -> ht h1' (TPair TString t2) x)).
      destruct multi; (destruct j as [ | | | | | |ms]; try exact MM); eapply FN; apply (tw_fold _ _ P); try (split; assumption); intros l l' [n j'] h1 h1' Hin X X' [Pl Pl']; cbv zeta; assert (D' := doc_member _ _ _ _ _ D Hin).
      + assert (One : forall l l' j2 h2 h2', docok j2 -> P l h2 l' h2' -> twin h2 h2' (let? x := pull G J f t2 (vinit G t2) j2 in ret (fst (emplace G true ord true TString (VPair (VStr (cstr n)) x) l)))
           (let? x := pull G J f t2 (vinit G t2) j2 in ret (fst (emplace G true ord true TString (VPair (VStr (cstr n)) x) l'))) P).
        { intros l2 l2' j2 h2 h2' D2 [Q Q']. eapply tw_bind; [apply (twin_new f m); assumption|]. intros x h3 x' h3' X3 X3' [Hx Hx']. apply tw_ret.
          split; apply emplace_typed; try assumption; (eapply all_ext; [eassumption|assumption]). }
        destruct j' as [ | | | | |js| ]; try (apply One; [exact D'|split; assumption]). apply (tw_fold _ _ P); [|split; assumption].
        intros l2 l2' j2 h2 h2' Hin2 X2 X2' Q. apply One; [eapply doc_item; eassumption|exact Q].
      + assert (V0 : forall h0, ht h0 t2 (vinit G t2)) by (intros h0; eapply vinit_any; [exact HE|exact A]).
        assert (One : forall (k k' : val -> list val) o1 o1', ht h1 t2 o1 -> ht h1' t2 o1' -> (forall h2 x, hext h1 h2 -> ht h2 t2 x -> forall y, In y (k x) -> ht h2 (TPair TString t2) y) ->
           (forall h2 x, hext h1' h2 -> ht h2 t2 x -> forall y, In y (k' x) -> ht h2 (TPair TString t2) y) -> twin h1 h1' (let? x := pull G J f t2 o1 j' in ret (k x)) (let? x := pull G J f t2 o1' j' in ret (k' x)) P).
        { intros k k' o1 o1' H1 H1' Hk Hk'. eapply tw_bind; [apply (twin_typed_ht f m); assumption|]. intros x h3 x' h3' X3 X3' [Hx Hx']. apply tw_ret. split; [apply Hk|apply Hk']; assumption. }
        destruct (map_find G ord TString (VPair (VStr (cstr n)) VUndef) l) as [v|] eqn:Ef, (map_find G ord TString (VPair (VStr (cstr n)) VUndef) l') as [v'|] eqn:Ef';
          apply One; try apply V0; try (eapply find_typed; eassumption); intros h2 x X2 Hx; try (apply put_typed; [eapply all_ext; eassumption|exact Hx]); (apply emplace_typed; [eapply all_ext; eassumption|exact Hx]).
    - (* pair *) destruct A as [A1 A2]. destruct K as [K1 K2].
      assert (OL : forall h0 o0, oldok h0 (TPair t1 t2) o0 -> exists a b, o0 = VPair a b /\ ht h0 t1 a /\ ht h0 t2 b).
      { intros h0 o0 [O0|[O0 _]]; [|discriminate]. inversion O0; subst; [discriminate|eauto]. }
      destruct (OL _ _ O) as (a & b & -> & Ha & Hb). destruct (OL _ _ O') as (a' & b' & -> & Ha' & Hb'). clear OL.
      destruct j as [ | | | | |js| ]; try exact MM. destruct (Nat.eqb_spec (length js) 2) as [E|E]; [|apply RR]. destruct js as [|ja [|jb [|]]]; try discriminate. cbn [nth_error].
      eapply tw_bind; [apply (twin_typed_ht f m); [exact IH|exact A1|exact K1|exact Ha|exact Ha'|eapply doc_item; [exact D|left; reflexivity]]|]. intros x h1 x' h1' X X' _.
      eapply tw_bind; [apply (twin_typed_ht f m); [exact IH|exact A2|exact K2|eapply ht_ext; eassumption|eapply ht_ext; eassumption|eapply doc_item; [exact D|right; left; reflexivity]]|]. intros; apply tw_ret; exact I.
    - (* tuple *) destruct A as [An A]. destruct ts as [|t0 ts]; [congruence|]. set (us := t0 :: ts) in *.
      assert (OL : forall h0 o0, oldok h0 (TTuple us) o0 -> exists l, o0 = VList l /\ length l = length us /\ (forall i t x, nth_error us i = Some t -> nth_error l i = Some x -> ht h0 t x)).
      { intros h0 o0 [O0|[O0 _]]; [|discriminate]. inversion O0; subst; [discriminate|eauto]. }
      destruct (OL _ _ O) as (l & -> & L1 & H1). destruct (OL _ _ O') as (l' & -> & L1' & H1'). clear OL.
      destruct j as [ | | | | |js| ]; try exact MM. destruct (Nat.eqb_spec (length js) (length us)) as [E|E]; [|apply RR]. eapply (FN _ _ _ _ _ _ any).
      assert (Q : forall vs os os' js h h', length os = length vs -> length os' = length vs -> length js = length vs ->
         (forall i t, nth_error vs i = Some t -> able t /\ considered C m t) -> (forall j, In j js -> docok j) ->
         (forall i t x, nth_error vs i = Some t -> nth_error os i = Some x -> ht h t x) -> (forall i t x, nth_error vs i = Some t -> nth_error os' i = Some x -> ht h' t x) ->
         twin h h' (pull_tuple (pull G J f) vs os js) (pull_tuple (pull G J f) vs os' js) any).
      { clear - IH HA HP HE HCV. induction vs as [|v vs IHv]; intros [|o os] [|o' os'] [|j js] h h' L1 L2 L3 HR HD HO HO'; try discriminate; cbn [pull_tuple]; [apply tw_ret; exact I|].
        eapply tw_bind; [apply (twin_typed_ht f m); [exact IH|apply (HR 0%nat v eq_refl)|apply (HR 0%nat v eq_refl)|apply (HO 0%nat v o); reflexivity|apply (HO' 0%nat v o'); reflexivity|apply HD; left; reflexivity]|].
        intros x h1 x' h1' X X' _. eapply tw_bind; [apply (IHv os os' js h1 h1'); [cbn in *; lia|cbn in *; lia|cbn in *; lia| | | |]|intros; apply tw_ret; exact I].
        - intros i t E. apply (HR (S i) t E).
        - intros j' Hj. apply HD. right; exact Hj.
        - intros i t y E1 E2. eapply ht_ext; [exact X|]. apply (HO (S i) t y E1 E2).
        - intros i t y E1 E2. eapply ht_ext; [exact X'|]. apply (HO' (S i) t y E1 E2). }
      apply (Q us l l' js h h'); try assumption.
      + intros i t E1. split; [eapply (able_nth G _ _ us); [exact A|exact E1]|eapply (considered_all C m us); [exact K|eapply nth_error_In; exact E1]].
      + intros j Hj. eapply doc_item; eassumption.
    - (* unique *) assert (Q : twin h h' (let? x := pull G J f t (vinit G t) j in ret (VOpt (Some x))) (let? x := pull G J f t (vinit G t) j in ret (VOpt (Some x))) any) by (eapply FN; apply (twin_new f (inside m)); assumption).
      destruct j; try exact Q. apply RT.
    - (* optional *) assert (Q : twin h h' (let? x := pull G J f t (vinit G t) j in ret (VOpt (Some x))) (let? x := pull G J f t (vinit G t) j in ret (VOpt (Some x))) any) by (eapply FN; apply (twin_new f (inside m)); assumption).
      destruct j; try exact Q. apply RT.
    - (* shared *) destruct K as [-> K].
      assert (Q : twin h h' (let? a := in_new G t (pull G J f t (vinit G t) j) in ret (VShared (Some a))) (let? a := in_new G t (pull G J f t (vinit G t) j) in ret (VShared (Some a))) any).
      { eapply FN. apply tw_new; [exact A| | |].
        - intros h1 h1' _ _. eapply tw_imp; [apply (twin_new f Any); assumption|]. intros; exact I.
        - intros h1 _. assert (Ho : ht h1 t (vinit G t)) by (eapply vinit_any; [exact HE|exact A]). eapply mp_imp; [apply (safe_val f t _ j h1 A (or_introl Ho) D)|]. intros v h2 X2 P2. eapply pulled_ht; eassumption.
        - intros h1 _. assert (Ho : ht h1 t (vinit G t)) by (eapply vinit_any; [exact HE|exact A]). eapply mp_imp; [apply (safe_val f t _ j h1 A (or_introl Ho) D)|]. intros v h2 X2 P2. eapply pulled_ht; eassumption. }
      destruct j; try exact Q. apply RT.
    - (* variant *) destruct A as [_ A]. destruct j as [ | | | | | |ms]; try exact MM.
      destruct (alookup _ _ ms) as [ji|]; [|apply RR]. destruct (alookup _ _ ms) as [jd|] eqn:Ed; [|apply RR].
      destruct ji as [ | |z| | | | ]; try apply RR. destruct (in_range KU64 z); [|apply RR].
      destruct (Z.to_N z <? N.of_nat (length ts))%N; [|apply RR]. destruct (nth_error ts (Z.to_nat z)) as [t'|] eqn:En; [|apply RR].
      assert (D' := doc_lookup _ _ _ _ _ D Ed).
      destruct (able_vnth _ _ _ _ _ _ A En) as [->|A']; [apply RT|].
      assert (Q : twin h h' (let? x := pull G J f t' (vinit G t') jd in ret (VVar (Z.to_nat z) x)) (let? x := pull G J f t' (vinit G t') jd in ret (VVar (Z.to_nat z) x)) any).
      { eapply FN. apply (twin_new f (inside m)); try assumption. eapply considered_all; [exact K|]. eapply nth_error_In; exact En. }
      destruct t'; try exact Q. apply RT.
    - (* class *) destruct A as (rc & p & Ec & Ep). destruct (HC m c K) as (rc' & L & Ec' & HL & HF & _). rewrite Ec in Ec'. injection Ec' as <-.
      assert (OL : forall h0 o0, oldok h0 (TStruct c) o0 -> exists fs, o0 = VObj fs /\ fieldsok G ud h0 (rc_layout rc) fs).
      { intros h0 o0 [O0|[O0 _]]; [|discriminate]. inversion O0; subst; [discriminate|]. exists fs. split; [reflexivity|]. match goal with Q : g_class G c = Some ?x |- _ => rewrite Ec in Q; injection Q as <- end. split; assumption. }
      destruct (OL _ _ O) as (fs & -> & F). destruct (OL _ _ O') as (fs' & -> & F'). clear OL.
      destruct j as [ | | | | | |ms]; try exact MM. eapply FN. eapply (IHc m c rc p L (rc_layout rc)); eauto.
    - apply DT.
    - apply DT.
    - destruct j; try exact MM. apply RT.
    - destruct j; try exact MM. apply RT.
  Qed.

  Lemma twins f : T_val f /\ T_cls f.
  Proof.
    induction f as [|f [IH1 IH2]].
    - split; repeat intro; cbn; exact I.
    - split; [apply twin_val_step|apply twin_cls_step]; assumption.
  Qed.

  (** deserialising the same document into variables with different contents *)
  Lemma outcome m t o o' j f st st' : able t -> considered C m t -> json_wf j ->
    heap_typed G ud (p_heap st) -> heap_typed G ud (p_heap st') -> oldok (p_heap st) t o -> oldok (p_heap st') t o' -> same_context (p_err st) (p_err st') ->
    same_outcome st st' (pull G J f t o j st) (pull G J f t o' j st').
  Proof.
    intros A K W T T' O O' X. assert (D : docok j) by (split; [exact W|discriminate]).
    assert (Q := proj1 (twins f) m t o o' j _ _ A K O O' D st st' eq_refl eq_refl T T' X). unfold same_outcome.
    destruct (pull G J f t o j st), (pull G J f t o' j st'); try exact Q; tauto.
  Qed.
End Twin.
