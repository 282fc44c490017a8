(** JsonFacts.v -- what pull does with arbitrary documents: type safety, mismatches, members, arrays, maps, tuples,
    variants, null and numbers; statements are collected in PropertiesJson.v *)
From Coq Require Import String List NArith ZArith Bool Lia Permutation.
From Verif Require Import Base BaseFacts Types TypesFacts BinModel BinSpec BinSafeSpec BinSafe BinFacts ContFacts Float FloatFacts JsonModel JsonRel JsonErr JsonSpec
  JsonRoundTrip JsonTerm JsonSafeSpec JsonSafe JsonTop JsonFit.
Import ListNotations.
Local Open Scope list_scope.
Local Open Scope nat_scope.

(* ------------------------------------------------------------------ *)
(** * Arbitrary documents (C48) *)

Lemma pull_type_safe G J ud : alloc_ok G -> place_ok G -> jenv_ok G ud (fun _ => True) false -> conv_ok J ->
  forall t j old fuel st,
    pullable G (fun _ => True) false t -> json_wf j ->
    heap_typed G ud (p_heap st) -> variable_ok G ud (p_heap st) t old ->
    match pull G J fuel t old j st with
    | POk v st' => (has_type G ud (p_heap st') t v \/ (v = VUndef /\ old = VUndef /\ raw t = true))
                   /\ heap_typed G ud (p_heap st') /\ hext (p_heap st) (p_heap st')
    | PThrow _ st' => heap_typed G ud (p_heap st') /\ hext (p_heap st) (p_heap st')
    | PUB | PFuel => True
    | PStuck => False
    end.
Proof.
  intros HA HP HE HC t j old fuel st Ht Hj Hh Ho.
  destruct (all_safe G J ud (fun _ => True) false HA HP HE HC fuel) as [S _].
  assert (Q := S t old j (p_heap st) Ht Ho (conj Hj (fun e => False_ind _ (diff_false_true e))) st eq_refl (conj Hh (fun e => False_ind _ (diff_false_true e)))).
  destruct (pull G J fuel t old j st); auto. destruct Q as (Q1 & Q2 & Q3). split; [|split; [apply Q2|exact Q3]].
  destruct Q1 as [Q1|Q1]; [left; exact Q1|right; tauto].
Qed.

Lemma pull_no_ub G J ud K : alloc_ok G -> place_ok G -> jenv_ok G ud K true -> conv_ok J ->
  forall t j old fuel st,
    pullable G K true t -> json_wf j -> numbers_fit K j -> p_err st <> None ->
    heap_typed G ud (p_heap st) -> variable_ok G ud (p_heap st) t old ->
    pull G J fuel t old j st <> PUB.
Proof.
  intros HA HP HE HC t j old fuel st Ht Hj Hn He Hh Ho E.
  destruct (all_safe G J ud K true HA HP HE HC fuel) as [S _].
  assert (Q := S t old j (p_heap st) Ht Ho (conj Hj (fun _ => Hn)) st eq_refl (conj Hh (fun _ => He))). rewrite E in Q. discriminate.
Qed.

(* ------------------------------------------------------------------ *)
(** * Conforming and mismatching documents (C25) *)

Lemma conforming G J ud t j : alloc_ok G -> place_ok G -> jenv_ok G ud (fun _ => True) false -> conv_ok J -> no_pull_cycle G ->
  pullable G (fun _ => True) false t -> json_wf j -> conforms G J t j ->
  exists F, forall fuel, F <= fuel -> forall h er old, heap_typed G ud h -> variable_ok G ud h t old ->
    exists v st', pull G J fuel t old j {| p_heap := h; p_err := er |} = POk v st' /\ quiet er (p_err st')
      /\ variable_ok G ud (p_heap st') t v.
Proof.
  intros HA HP HE HC NC Ht Hj Hc. destruct (pull_terminates G J NC t j) as (F & T). exists F. intros fuel Hf h er old Hh Ho.
  destruct (T fuel Hf old {| p_heap := h; p_err := er |}) as [NF _].
  assert (S := pull_type_safe G J ud HA HP HE HC t j old fuel {| p_heap := h; p_err := er |} Ht Hj Hh Ho).
  assert (C := conforms_calm G J HP t j Hc fuel old {| p_heap := h; p_err := er |}).
  assert (X := pull_ctx G J fuel t old j {| p_heap := h; p_err := er |}).
  destruct (pull G J fuel t old j {| p_heap := h; p_err := er |}) as [v st'| | | |]; try contradiction; try congruence.
  exists v, st'. split; [reflexivity|]. split; [exact (quiet_of _ _ X C)|]. destruct S as ([S|S] & _); [left; exact S|right; tauto].
Qed.

Lemma reports_spec {A} k x a (v : A) st : (let? _ := report k x a in ret v) st = reports k x a v st.
Proof.
  unfold bind, report, reports. destruct (p_err st) as [e|] eqn:Ee; [|destruct st; cbn in *; subst; reflexivity].
  unfold emplace_error. fold (error_in e k x a). rewrite fatal_selected. unfold selected. cbn [e_kind error_in].
  destruct (N.land (es_throw e) (throw_flag k) =? 0)%N; reflexivity.
Qed.
Lemma mismatch_spec t j old st : mismatch t j old st = reports TypeMismatch (expected_type t) (type_of j) old st.
Proof. apply reports_spec. Qed.

Lemma mismatch_reported G J ud h t old j f st :
  pullable G (fun _ => True) false t -> variable_ok G ud h t old -> kind_checked t = true -> kind_fits t j = false ->
  pull G J (S f) t old j st = reports TypeMismatch (expected_type t) (type_of j) old st.
Proof.
  intros Ht Ho Hk Hf. rewrite <- mismatch_spec. rewrite pull_S.
  destruct t; cbn [kind_checked] in Hk; try discriminate Hk; cbn [pull_body].
  - destruct j; try reflexivity; discriminate Hf.
  - cbn in Ht. destruct (json_kind k); [|destruct Ht as [Ht _]; rewrite Ht]; destruct j; try reflexivity; discriminate Hf.
  - destruct j; try reflexivity; discriminate Hf.
  - destruct j; try reflexivity; discriminate Hf.
  - destruct j; try reflexivity. cbn in Hf. unfold enum_kind. rewrite Hf. reflexivity.
  - destruct j; try reflexivity; discriminate Hf.
  - destruct j; try reflexivity; discriminate Hf.
  - destruct j; try reflexivity; discriminate Hf.
  - cbn in Ht. destruct Ht as [-> _].
    assert (exists l, old = VList l) as [l ->] by (destruct Ho as [Ho|[Ho _]]; [inversion Ho; subst; eauto; discriminate|discriminate]).
    destruct multi; destruct j; try reflexivity; discriminate Hf.
  - assert (exists a b, old = VPair a b) as (a & b & ->) by (destruct Ho as [Ho|[Ho _]]; [inversion Ho; subst; eauto; discriminate|discriminate]).
    destruct j; try reflexivity; discriminate Hf.
  - cbn in Ht. destruct Ht as [Ht _]. destruct ts as [|t0 ts]; [congruence|].
    assert (exists l, old = VList l) as [l ->] by (destruct Ho as [Ho|[Ho _]]; [inversion Ho; subst; eauto; discriminate|discriminate]).
    destruct j; try reflexivity; discriminate Hf.
  - destruct j; try reflexivity; discriminate Hf.
  - assert (exists l, old = VObj l) as [l ->] by (destruct Ho as [Ho|[Ho _]]; [inversion Ho; subst; eauto; discriminate|discriminate]).
    destruct j; try reflexivity; discriminate Hf.
  - destruct j; try reflexivity; discriminate Hf.
  - destruct j; try reflexivity; discriminate Hf.
Qed.

(** fromJson *)
Definition top_fits (t : ty) (j : json) : bool :=
  match t, j with
  | (TStruct _ | TMap _ _ _ _), JObj _ => true
  | TSeq _, JArr _ => true
  | TString, JStr _ => true
  | TBool, JBool _ => true
  | TInt k, JInt z => in_range k z
  | TF64, JDbl _ => true
  | TF32, JDbl n => is_float n
  | _, _ => false
  end.
Definition top_kind (t : ty) : bool :=
  match t with TStruct _ | TMap _ _ _ _ | TSeq _ | TString | TBool | TF64 | TF32 => true | TInt k => json_kind k | _ => false end.
Lemma fromJson_mismatch G J t j f st : top_kind t = true -> top_fits t j = false ->
  fromJson G J f t j st = reports TypeMismatch (expected_type t) (type_of j) (vinit G t) st.
Proof.
  intros Hk Hf. rewrite <- mismatch_spec. destruct t; cbn in Hk; try discriminate Hk; cbn [fromJson]; rewrite ?Hk;
    destruct j; cbn in Hf; try discriminate Hf; rewrite ?Hf; reflexivity.
Qed.

(** dates: something which is no string is reported and then treated as the empty string *)
Lemma date_not_string G J old j f st : (forall s, j <> JStr s) ->
  pull G J (S f) TDateTime old j st =
  match reports TypeMismatch JTString (type_of j) tt st with
  | POk _ st' => match je_dt_parse J [] with Some z => POk (VInt z) st' | None => reports ConversionError JTString JTString old st' end
  | PThrow x st' => PThrow x st' | PUB => PUB | PFuel => PFuel | PStuck => PStuck
  end.
Proof.
  intros Hj. rewrite pull_S. cbn [pull_body].
  assert (E: (match j with JStr s => ret (cstr s) | _ => let? _ := mismatch TDateTime j old in ret [] end) = (let? _ := mismatch TDateTime j old in @ret bytes [])).
  { destruct j; try reflexivity. exfalso; eapply Hj; reflexivity. }
  rewrite E. unfold mismatch. rewrite <- reports_spec. unfold bind, ret. cbn [expected_type].
  destruct (report TypeMismatch JTString (type_of j) st) as [u st'| | | |]; try reflexivity.
  destruct (je_dt_parse J []); [reflexivity|]. rewrite <- reports_spec. reflexivity.
Qed.
Lemma span_not_string G J old j f st : (forall s, j <> JStr s) ->
  pull G J (S f) TTimeSpan old j st =
  match reports TypeMismatch JTString (type_of j) tt st with
  | POk _ st' => match je_ts_parse J [] with Some z => POk (VInt z) st' | None => reports ConversionError JTString JTString old st' end
  | PThrow x st' => PThrow x st' | PUB => PUB | PFuel => PFuel | PStuck => PStuck
  end.
Proof.
  intros Hj. rewrite pull_S. cbn [pull_body].
  assert (E: (match j with JStr s => ret (cstr s) | _ => let? _ := mismatch TTimeSpan j old in ret [] end) = (let? _ := mismatch TTimeSpan j old in @ret bytes [])).
  { destruct j; try reflexivity. exfalso; eapply Hj; reflexivity. }
  rewrite E. unfold mismatch. rewrite <- reports_spec. unfold bind, ret. cbn [expected_type].
  destruct (report TypeMismatch JTString (type_of j) st) as [u st'| | | |]; try reflexivity.
  destruct (je_ts_parse J []); [reflexivity|]. rewrite <- reports_spec. reflexivity.
Qed.
Lemma date_string G J old s f st : pull G J (S f) TDateTime old (JStr s) st =
  match je_dt_parse J (cstr s) with Some z => POk (VInt z) st | None => reports ConversionError JTString JTString old st end.
Proof. rewrite pull_S. cbn [pull_body]. unfold bind at 1, ret at 1. destruct (je_dt_parse J (cstr s)); [reflexivity|]. rewrite <- reports_spec. reflexivity. Qed.
Lemma span_string G J old s f st : pull G J (S f) TTimeSpan old (JStr s) st =
  match je_ts_parse J (cstr s) with Some z => POk (VInt z) st | None => reports ConversionError JTString JTString old st end.
Proof. rewrite pull_S. cbn [pull_body]. unfold bind at 1, ret at 1. destruct (je_ts_parse J (cstr s)); [reflexivity|]. rewrite <- reports_spec. reflexivity. Qed.
