(** JsonTop.v -- the statements about JSON documents as used in PropertiesJson.v, derived from
    JsonRoundTrip.v and JsonErr.v *)
From Coq Require Import String List NArith ZArith Bool Lia Permutation.
From Verif Require Import Base BaseFacts Types TypesFacts BinModel BinSpec Float FloatFacts JsonModel JsonRel JsonErr JsonSpec JsonRoundTrip.
Import ListNotations.
Local Open Scope list_scope.
Local Open Scope nat_scope.

Lemma quiet_of st st' : ctx_ok st st' -> noerr (p_err st) (p_err st') -> quiet (p_err st) (p_err st').
Proof. unfold ctx_ok, noerr, quiet. destruct (p_err st), (p_err st'); tauto. Qed.

Lemma json_round_trip G J H ex t old v :
  alloc_ok G -> place_ok G -> jgood G J H ex t old v ->
  exists F j, forall fuel, F <= fuel ->
    push G J H fuel t v = ROk j
    /\ forall h er, exists v' h' er',
         pull G J fuel t old j {| p_heap := h; p_err := er |} = POk v' {| p_heap := h'; p_err := er' |}
         /\ jsame G H h h' t v v' /\ (ex = true -> v' = v) /\ hext h h' /\ quiet er er'.
Proof.
  intros HA HP Hg. destruct (round_trip G J H HA HP ex t old v Hg) as (F & j & S & _).
  exists F, j. intros fuel Hf. destruct (S fuel Hf) as [Ep P]. specialize (P old (again_old G H t old v)). split; [exact Ep|].
  intros h er. destruct (P h er) as (v' & h' & er' & E & X & N & Q & Ex).
  exists v', h', er'. split; [exact E|]. split; [apply Q, newin_refl|]. split; [exact Ex|]. split; [exact X|].
  assert (C := pull_ctx G J fuel t old j {| p_heap := h; p_err := er |}). rewrite E in C. exact (quiet_of _ _ C N).
Qed.

(** the types toJson/fromJson accept directly; for float the value has to pass RapidJSON's IsFloat *)
Definition top_type (t : ty) (v : val) : Prop :=
  match t with
  | TStruct _ | TMap _ _ _ _ | TSeq _ | TString | TBool | TF64 => True
  | TInt k => json_kind k = true
  | TF32 => match v with VF32 n => is_float (f64_of_f32 n) = true | _ => False end
  | _ => False
  end.

Lemma push_obj G J H f c v j : push G J H f (TStruct c) v = ROk j -> exists ms, j = JObj ms.
Proof.
  destruct f as [|f]; [discriminate|]. rewrite push_S. cbn [push_body]. destruct v; try discriminate.
  destruct (push_cls G J H f c fs []); cbn; try discriminate. intros E; inversion E; eauto.
Qed.
Lemma push_map_obj G J H f ord multi kt vt v j : push G J H f (TMap ord multi kt vt) v = ROk j -> exists ms, j = JObj ms.
Proof.
  destruct f as [|f]; [discriminate|]. rewrite push_S. cbn [push_body]. destruct v; destruct multi, kt; try discriminate;
  match goal with |- (let! _ := ?x in _) = _ -> _ => destruct x end; cbn; try discriminate; intros E; inversion E; eauto.
Qed.
Lemma push_seq_arr G J H f t v j : push G J H f (TSeq t) v = ROk j -> exists js, j = JArr js.
Proof.
  destruct f as [|f]; [discriminate|]. rewrite push_S. cbn [push_body]. destruct v; try discriminate.
  match goal with |- (let! _ := ?x in _) = _ -> _ => destruct x end; cbn; try discriminate; intros E; inversion E; eauto.
Qed.

Lemma fromJson_round_trip G J H ex t v :
  alloc_ok G -> place_ok G -> jgood G J H ex t (dinit G t) v -> top_type t v ->
  exists F j, forall fuel, F <= fuel ->
    toJsonDocument G J H fuel t v = ROk j
    /\ forall h er, exists v' h' er',
         fromJson G J fuel t j {| p_heap := h; p_err := er |} = POk v' {| p_heap := h'; p_err := er' |}
         /\ jsame G H h h' t v v' /\ (ex = true -> v' = v) /\ hext h h' /\ quiet er er'.
Proof.
  intros HA HP Hg Ht. destruct (json_round_trip G J H ex t (dinit G t) v HA HP Hg) as (F & j & S).
  exists (Nat.max 1 F), j. intros fuel Hf. destruct (S fuel ltac:(lia)) as [Ep P].
  split. { destruct t; cbn in Ht; try contradiction; cbn [toJsonDocument]; try exact Ep. rewrite Ht. exact Ep. }
  intros h er. specialize (P h er). destruct P as (v' & h' & er' & E & Q).
  destruct t; cbn in Ht; try contradiction; cbn [fromJson].
  1-5: destruct fuel as [|f]; [lia|]; rewrite push_S in Ep; rewrite pull_S in E; cbn [push_body] in Ep; cbn [pull_body] in E.
  - inversion Hg; subst. inversion Ep; subst. eauto 10.
  - inversion Hg; subst. rewrite Ht in *. cbn in Ep. inversion Ep; subst j. cbn in E. unfold get_int in E. match goal with R : in_range _ _ = true |- _ => rewrite R in * end. eauto 10.
  - inversion Hg; subst. inversion Ep; subst j. cbn in E. rewrite Ht. eauto 10.
  - inversion Hg; subst. inversion Ep; subst j. cbn in E. eauto 10.
  - inversion Hg; subst. inversion Ep; subst j. eauto 10.
  - destruct (push_seq_arr _ _ _ _ _ _ _ Ep) as (js & ->). eauto 10.
  - destruct (push_map_obj _ _ _ _ _ _ _ _ _ _ Ep) as (js & ->). eauto 10.
  - destruct (push_obj _ _ _ _ _ _ _ Ep) as (js & ->). eauto 10.
Qed.

(* ------------------------------------------------------------------ *)
(** * The error list *)

Lemma land_bit T i : N.testbit T i = negb (N.eqb (N.land T (2 ^ i)) 0).
Proof.
  destruct (N.eqb_spec (N.land T (2 ^ i)) 0) as [E|E]; cbn.
  - assert (Q: N.testbit (N.land T (2 ^ i)) i = false) by (rewrite E; apply N.bits_0).
    rewrite N.land_spec, N.pow2_bits_true, andb_true_r in Q. exact Q.
  - destruct (N.testbit T i) eqn:B; [reflexivity|]. exfalso. apply E. apply N.bits_inj. intros n.
    rewrite N.land_spec, N.bits_0. destruct (N.eq_dec i n) as [<-|Hn]; [rewrite B; reflexivity|].
    rewrite N.pow2_bits_false by exact Hn. apply andb_false_r.
Qed.

Lemma fatal_selected T x : fatal T x = selected T x.
Proof.
  unfold fatal, selected. destruct (e_kind x); cbn [throw_flag];
  try (rewrite N.land_0_r; reflexivity).
  - change 1%N with (2 ^ 0)%N. apply land_bit.
  - change 2%N with (2 ^ 1)%N. apply land_bit.
  - change 4%N with (2 ^ 2)%N. apply land_bit.
  - change 8%N with (2 ^ 3)%N. apply land_bit.
Qed.

Lemma existsb_false_iff {A} (p : A -> bool) l : existsb p l = false <-> forall x, In x l -> p x = false.
Proof.
  induction l as [|y l IH]; cbn; [split; [intros _ x []|reflexivity]|]. rewrite orb_false_iff, IH. split.
  - intros [H1 H2] x [<-|Hx]; auto.
  - intros Hx; split; [apply Hx; left; reflexivity|intros x Hin; apply Hx; right; exact Hin].
Qed.

Lemma errors_transparent G J m h e : deserialisation G J m -> es_throw e = 0%N ->
  match m {| p_heap := h; p_err := Some e |} with
  | POk v st' => exists e' new, p_err st' = Some e' /\ es_errs e' = es_errs e ++ new
      /\ ((forall x, In x new -> e_kind x <> UnexpectedDuplicate) -> m {| p_heap := h; p_err := None |} = POk v {| p_heap := p_heap st'; p_err := None |})
      /\ ((exists x, In x new /\ e_kind x = UnexpectedDuplicate) -> m {| p_heap := h; p_err := None |} = PUB)
  | PThrow _ _ => False
  | PUB => m {| p_heap := h; p_err := None |} = PUB
  | PFuel => m {| p_heap := h; p_err := None |} = PFuel \/ m {| p_heap := h; p_err := None |} = PUB
  | PStuck => m {| p_heap := h; p_err := None |} = PStuck \/ m {| p_heap := h; p_err := None |} = PUB
  end.
Proof.
  intros D Z. assert (Q: null_rel m m) by (destruct D; [apply pull_null|apply fromJson_null]). specialize (Q h e Z).
  destruct (m {| p_heap := h; p_err := Some e |}) as [v st'| | | |]; auto.
  destruct Q as (e' & new & E1 & _ & E2 & E3). exists e', new. split; [exact E1|]. split; [exact E2|]. split.
  - intros Hn. assert (X: existsb is_dup new = false). { apply existsb_false_iff. intros x Hx. apply Hn in Hx. unfold is_dup. destruct (e_kind x); congruence. }
    rewrite X in E3. exact E3.
  - intros (x & Hx & Ex). assert (X: existsb is_dup new = true). { apply existsb_exists. exists x. unfold is_dup. rewrite Ex. auto. }
    rewrite X in E3. exact E3.
Qed.

Lemma sel_fatal T new : existsb (selected T) new = false -> forall x, In x new -> fatal T x = false.
Proof. intros E x Hx. rewrite fatal_selected. exact (proj1 (existsb_false_iff _ _) E x Hx). Qed.

Lemma context_restored G J m h er : deserialisation G J m ->
  (forall v st', m {| p_heap := h; p_err := er |} = POk v st' ->
    match er, p_err st' with
    | None, None => True
    | Some e, Some e' =>
        es_record e' = es_record e /\ es_member e' = es_member e /\ es_throw e' = es_throw e
        /\ (es_index e' = es_index e \/ es_index e' = None)
        /\ exists new, es_errs e' = es_errs e ++ new /\ (forall x, In x new -> fatal (es_throw e) x = false)
    | _, _ => False
    end)
  /\ (forall x st', m {| p_heap := h; p_err := er |} = PThrow x st' ->
       exists e e' new, er = Some e /\ p_err st' = Some e' /\ es_errs e' = es_errs e ++ new ++ [x]
         /\ fatal (es_throw e) x = true /\ (forall y, In y new -> fatal (es_throw e) y = false)).
Proof.
  intros D. assert (Q: ctx_rel m) by (destruct D; [apply pull_ctx|apply fromJson_ctx]). specialize (Q {| p_heap := h; p_err := er |}).
  split; intros a st' E; rewrite E in Q.
  - unfold ctx_ok in Q. cbn [p_err] in Q. destruct er as [e|], (p_err st') as [e'|]; auto.
    destruct Q as (R & Mb & T & I & new & E1 & E2). repeat split; auto. exists new. split; [exact E1|]. apply sel_fatal; exact E2.
  - destruct Q as (e & e' & new & E1 & E2 & E3 & E4 & E5). exists e, e', new. repeat split; auto; [rewrite fatal_selected; exact E4|].
    apply sel_fatal; exact E5.
Qed.

Lemma throw_on G J m T h e : deserialisation G J m -> es_throw e = 0%N ->
  match m {| p_heap := h; p_err := Some e |} with
  | POk v st' => exists e' new, p_err st' = Some e' /\ es_errs e' = es_errs e ++ new
      /\ ((forall x, In x new -> fatal T x = false) ->
            m {| p_heap := h; p_err := Some (throwing_on T e) |} = POk v {| p_heap := p_heap st'; p_err := Some (throwing_on T e') |})
      /\ (forall pre x post, new = pre ++ x :: post -> (forall y, In y pre -> fatal T y = false) -> fatal T x = true ->
            exists h2 e2, m {| p_heap := h; p_err := Some (throwing_on T e) |} = PThrow x {| p_heap := h2; p_err := Some e2 |}
              /\ es_errs e2 = es_errs e ++ pre ++ [x])
  | PThrow _ _ => False
  | o => m {| p_heap := h; p_err := Some (throwing_on T e) |} = o
         \/ exists x h2 e2 new, m {| p_heap := h; p_err := Some (throwing_on T e) |} = PThrow x {| p_heap := h2; p_err := Some e2 |}
              /\ es_errs e2 = es_errs e ++ new ++ [x] /\ fatal T x = true /\ (forall y, In y new -> fatal T y = false)
  end.
Proof.
  intros D Z. assert (Q: throw_rel T m m) by (destruct D; [apply pull_throw|apply fromJson_throw]). specialize (Q h e Z).
  change (with_throw T e) with (throwing_on T e) in Q.
  destruct (m {| p_heap := h; p_err := Some e |}) as [v st'| | | |]; auto.
  - destruct Q as (e' & new & E1 & _ & E2 & E3). exists e', new. split; [exact E1|]. split; [exact E2|].
    destruct E3 as [[X E3]|(pre & x & post & h2 & e2 & D1 & D2 & D3 & D4 & D5)]; split.
    + intros _. exact E3.
    + intros pre x post -> Hpre Hx. exfalso. rewrite fatal_selected in Hx. rewrite existsb_app in X. cbn in X. rewrite Hx in X. apply orb_false_iff in X. destruct X; discriminate.
    + intros Hn. exfalso. specialize (Hn x). rewrite fatal_selected, D3 in Hn. rewrite D1 in Hn. discriminate Hn. apply in_or_app; right; left; reflexivity.
    + intros pre' x' post' E' Hpre Hx. rewrite fatal_selected in Hx.
      assert (U: pre' = pre /\ x' = x).
      { rewrite E' in D1. assert (P1: forall y, In y pre -> selected T y = false) by (apply existsb_false_iff; exact D2).
        assert (P2: forall y, In y pre' -> selected T y = false) by (intros y Hy; rewrite <- fatal_selected; auto).
        clear -D1 P1 P2 Hx D3. revert pre D1 P1. induction pre' as [|a l IH]; intros [|b m]; cbn; intros E P1; inversion E; subst.
        - auto.
        - rewrite P1 in Hx; [discriminate|left; reflexivity].
        - rewrite P2 in D3; [discriminate|left; reflexivity].
        - destruct (IH ltac:(intros y Hy; apply P2; right; exact Hy) m H1 ltac:(intros y Hy; apply P1; right; exact Hy)) as [-> ->]. auto. }
      destruct U as [-> ->]. exists h2, e2. auto.
  - destruct Q as [Q|(x & h2 & e2 & new & Q1 & Q2 & Q3 & Q4)]; [left; exact Q|right]. exists x, h2, e2, new. rewrite fatal_selected. repeat split; auto. apply sel_fatal; exact Q4.
  - destruct Q as [Q|(x & h2 & e2 & new & Q1 & Q2 & Q3 & Q4)]; [left; exact Q|right]. exists x, h2, e2, new. rewrite fatal_selected. repeat split; auto. apply sel_fatal; exact Q4.
  - destruct Q as [Q|(x & h2 & e2 & new & Q1 & Q2 & Q3 & Q4)]; [left; exact Q|right]. exists x, h2, e2, new. rewrite fatal_selected. repeat split; auto. apply sel_fatal; exact Q4.
Qed.
