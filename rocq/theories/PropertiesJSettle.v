(** PropertiesJSettle.v -- property C72: what has been deserialised, from whatever JSON document, survives being serialised and deserialised again (vocabulary in JSettleSpec.v) *)
From Coq Require Import String List NArith ZArith Bool Lia.
From Verif Require Import Base BaseFacts Types TypesFacts BinModel BinSpec BinSafeSpec BinFacts ContFacts Float JsonModel JsonRel JsonErr JsonSpec JsonSafeSpec JsonSafe JsonFacts JsonTop JsonText JsonTextSpec JsonTextFacts JsonTextTop JsonTextEnd JBoundSpec JBoundFacts JBoundText GrammarSpec SerSpec PropertiesJson PropertiesText PropertiesGrammar PropertiesJBound PropertiesSer JSettleSpec JSettleFacts.
Import ListNotations.
Local Open Scope list_scope.
Local Open Scope nat_scope.

Lemma deserialised_good G J V t ex o : alloc_ok G -> place_ok G -> jsettling G J V -> jsettled G J V ex t -> forall js c st v st', deserialised G J t js c st v st' ->
  (forall j, In j js -> json_wf j /\ strings_32 j) -> jgood G J (p_heap st) ex t o c -> jgood G J (p_heap st') ex t o v.
Proof.
  intros HA HP SV Se js c st v st' D. induction D as [c st|fuel j js c st c1 st1 v st' E D IH]; intros Do Go; [exact Go|].
  apply IH; [intros j' Hj; apply Do; right; exact Hj|]. eapply (pulled_good G J V HA HP SV); [exact Se|apply Do; left; reflexivity|exact Go|exact E].
Qed.

(** C72: any documents have been pulled into a variable (which was created before, or survives this itself).  Then it can be pushed, and pulling what has been pushed into
    a variable like the one at the beginning reports nothing and restores an equal value, the identical one without shared pointers and hash containers. *)
Theorem C72_pulled_again : forall G J V t ex o c js st v st', alloc_ok G -> place_ok G -> jsettling G J V -> jsettled G J V ex t ->
  (forall j, In j js -> json_wf j /\ strings_32 j) -> jgood G J (p_heap st) ex t o c -> deserialised G J t js c st v st' ->
  exists F j', forall fuel, F <= fuel ->
    push G J (p_heap st') fuel t v = ROk j'
    /\ forall h er, exists v' h' er',
         pull G J fuel t o j' {| p_heap := h; p_err := er |} = POk v' {| p_heap := h'; p_err := er' |}
         /\ jsame G (p_heap st') h h' t v v' /\ (ex = true -> v' = v) /\ hext h h' /\ quiet er er'.
Proof.
  intros G J V t ex o c js st v st' HA HP SV Se Do Go D. apply C22_round_trip; try assumption. eapply deserialised_good; eassumption.
Qed.
Print Assumptions C72_pulled_again.
(** C72: a newly created variable survives this *)
Theorem C72_new_variable : forall G J V ex t h, jsettling G J V -> jsettled G J V ex t -> jgood G J h ex t (vinit G t) (vinit G t).
Proof. intros G J V ex t h SV Se. eapply jgood_hext; [apply hext_nil|]. eapply vinit_jgood; eassumption. Qed.
Print Assumptions C72_new_variable.
(** C72: there is a normal form of the documents: pushing what has been pulled from the pushed document gives the very same document *)
Theorem C72_normal_form : forall G J C V t ex o c js st v st', alloc_ok G -> place_ok G -> pushers_ok G -> ordered_members G C -> ordered_type C t -> jsettling G J V -> jsettled G J V ex t ->
  (forall j, In j js -> json_wf j /\ strings_32 j) -> jgood G J (p_heap st) ex t o c -> deserialised G J t js c st v st' ->
  exists F j', forall fuel, F <= fuel ->
    push G J (p_heap st') fuel t v = ROk j'
    /\ forall h er, exists v' h' er',
         pull G J fuel t o j' {| p_heap := h; p_err := er |} = POk v' {| p_heap := h'; p_err := er' |}
         /\ push G J h' fuel t v' = ROk j'.
Proof.
  intros G J C V t ex o c js st v st' HA HP PO OM OT SV Se Do Go D. eapply C58_pushed_again; try eassumption. eapply deserialised_good; eassumption.
Qed.
Print Assumptions C72_normal_form.

Lemma fromJson_good G J V ex fuel t j st v st' : alloc_ok G -> place_ok G -> jsettling G J V -> jsettled G J V ex t -> json_wf j -> strings_32 j ->
  is_scalar t = true \/ (jgood G J [] ex t (dinit G t) (dinit G t) /\ jgood G J [] ex t (dinit G t) (vinit G t)) ->
  fromJson G J fuel t j st = POk v st' -> jgood G J (p_heap st') ex t (dinit G t) v.
Proof.
  intros HA HP SV Se W S32 Hi E.
  assert (MM : mismatch t j (vinit G t) st = POk v st' -> jgood G J (p_heap st') ex t (dinit G t) v).
  { intros Em. pose proof (sp_mismatch (p_heap st) t j (vinit G t) (fun w _ => w = vinit G t) eq_refl st eq_refl) as Q. rewrite Em in Q. destruct Q as [-> _].
    eapply jgood_hext; [apply hext_nil|]. destruct Hi as [Hs|[_ Hi]]; [|exact Hi]. pose proof (vinit_jgood G J V SV t ex Se) as R. destruct t; try discriminate; inversion R; subst; constructor; assumption. }
  assert (PP : is_scalar t = false -> pull G J fuel t (dinit G t) j st = POk v st' -> jgood G J (p_heap st') ex t (dinit G t) v).
  { intros Ns Ep. destruct Hi as [Hs|[Hi _]]; [congruence|]. eapply (pulled_good G J V HA HP SV fuel t (dinit G t) (dinit G t) j ex st v st' Se); [split; assumption| |exact Ep]. eapply jgood_hext; [apply hext_nil|exact Hi]. }
  destruct t; cbn [fromJson] in E; try discriminate.
  - destruct j; try (apply MM; exact E). injection E as <- _. constructor.
  - destruct (json_kind k) eqn:Ek; [|discriminate]. destruct j; try (apply MM; exact E). destruct (in_range k z) eqn:R; [|apply MM; exact E]. injection E as <- _. constructor; [rewrite Ek; reflexivity|exact R].
  - destruct j; try (apply MM; exact E). destruct (is_float _); [|apply MM; exact E]. injection E as <- _. constructor; [apply f32_of_f64_bound; apply ew_here in W; exact W|apply f32_quiet].
  - destruct j; try (apply MM; exact E). injection E as <- _. constructor.
  - destruct j; try (apply MM; exact E). injection E as <- _. constructor. split; [apply JsonRoundTrip.cstr_nul_free|]. pose proof (ew_here _ _ S32) as B. cbv beta iota in B.
    pose proof (cstr_length s). apply (N.le_trans _ (N.of_nat (length s))); [lia|exact B].
  - destruct j; try (apply MM; exact E). apply PP; [reflexivity|exact E].
  - destruct j; try (apply MM; exact E). apply PP; [reflexivity|exact E].
  - destruct j; try (apply MM; exact E). apply PP; [reflexivity|exact E].
Qed.
(** C72: fromJson and toJsonDocument; objects are constructed such that they survive this *)
Theorem C72_fromJson_again : forall G J V ex fuel t j st v st', alloc_ok G -> place_ok G -> jsettling G J V -> jsettled G J V ex t -> json_wf j -> strings_32 j ->
  is_scalar t = true \/ (jgood G J [] ex t (dinit G t) (dinit G t) /\ jgood G J [] ex t (dinit G t) (vinit G t)) ->
  fromJson G J fuel t j st = POk v st' -> top_type t v ->
  exists F j', forall fuel', F <= fuel' ->
    toJsonDocument G J (p_heap st') fuel' t v = ROk j'
    /\ forall h er, exists v' h' er',
         fromJson G J fuel' t j' {| p_heap := h; p_err := er |} = POk v' {| p_heap := h'; p_err := er' |}
         /\ jsame G (p_heap st') h h' t v v' /\ (ex = true -> v' = v) /\ hext h h' /\ quiet er er'.
Proof. intros G J V ex fuel t j st v st' HA HP SV Se W S32 Hi E TT. apply C22_fromJson_round_trip; try assumption. eapply fromJson_good; eassumption. Qed.
Print Assumptions C72_fromJson_again.

Lemma sized_strings n j : jsize j <= n -> (N.of_nat n <= size_max)%N -> strings_32 j.
Proof.
  intros L B. revert L. induction j as [ | | | | |l IH|ms IH] using json_ind2; intros L; try (split; exact I).
  - split; [|exact I]. cbn in L. apply (N.le_trans _ (N.of_nat n)); [lia|exact B].
  - split; [exact I|]. cbn [jsize] in L.
    assert (X : forall x, In x l -> strings_32 x). { intros x Hx. rewrite Forall_forall in IH. apply IH; [exact Hx|]. clear - L Hx. revert n L. induction l as [|y l IHl]; intros n L; [destruct Hx|]. destruct Hx as [->|Hx]; cbn in L; [lia|]. apply (IHl Hx n). cbn. lia. }
    clear - X. induction l as [|y l IHl]; [exact I|]. split; [apply X; left; reflexivity|apply IHl; intros x Hx; apply X; right; exact Hx].
  - assert (Y : forall m x, In (m, x) ms -> length m <= n /\ jsize x <= n).
    { cbn [jsize] in L. clear - L. intros m x Hx. revert n L. induction ms as [|[k y] ms IHl]; intros n L; [destruct Hx|]. destruct Hx as [E|Hx]; cbn in L; [injection E as -> ->; lia|]. apply (IHl Hx n). cbn. lia. }
    split.
    + cbv beta iota. intros m Hm. apply in_map_iff in Hm. destruct Hm as ([m' x] & <- & Hx). cbn [fst]. destruct (Y _ _ Hx) as [Q _]. apply (N.le_trans _ (N.of_nat n)); [lia|exact B].
    + assert (X : forall m x, In (m, x) ms -> strings_32 x). { intros m x Hx. rewrite Forall_forall in IH. apply (IH (m, x) Hx). apply (Y m x Hx). }
      clear - X. induction ms as [|[k y] ms IHl]; [exact I|]. split; [apply (X k y); left; reflexivity|apply IHl; intros m x Hx; apply (X m x); right; exact Hx].
Qed.
(** C72: fromJson of any text whatsoever and toJson, if the document which is written has no NaN or infinity and its doubles survive being printed and parsed *)
Theorem C72_text_again : forall T G J V ex fuel t text st v st', alloc_ok G -> place_ok G -> dtoa_ok T -> (forall x n, te_strtod T x = Some n -> (n < 2 ^ 64)%N) ->
  jsettling G J V -> jsettled G J V ex t -> (N.of_nat (length text) <= size_max)%N ->
  is_scalar t = true \/ (jgood G J [] ex t (dinit G t) (dinit G t) /\ jgood G J [] ex t (dinit G t) (vinit G t)) ->
  fromJsonText T G J fuel t text st = Some (POk v st') -> top_type t v ->
  exists F0 j', (forall fuel', F0 <= fuel' -> toJsonDocument G J (p_heap st') fuel' t v = ROk j')
    /\ (finite j' -> doubles (survives T) j' -> exists F text', forall fuel', F <= fuel' ->
        toJson T G J (p_heap st') fuel' t v = ROk text'
        /\ forall h er, exists v' h' er',
             fromJsonText T G J fuel' t text' {| p_heap := h; p_err := er |} = Some (POk v' {| p_heap := h'; p_err := er' |})
             /\ jsame G (p_heap st') h h' t v v' /\ (ex = true -> v' = v) /\ hext h h' /\ quiet er er').
Proof.
  intros T G J V ex fuel t text st v st' HA HP HD HS SV Se L Hi E TT. unfold fromJsonText in E. pose proof (doc_total T text) as DT. destruct (parseJsonDocFromString T text) as [j r| |] eqn:Ep; try discriminate.
  assert (E0 : fromJson G J fuel t j st = POk v st') by (injection E; auto). clear E. rename E0 into E.
  assert (W : json_wf j). { apply (parsed_wf T j HS). destruct DT as [C|(j1 & r1 & Q & PO)]; [discriminate|]. injection Q as <- <-. exact PO. }
  assert (S32 : strings_32 j). { eapply sized_strings; [|exact L]. apply (document_length T). apply C62_accepted_iff_json. eexists; exact Ep. }
  pose proof (fromJson_good G J V ex fuel t j st v st' HA HP SV Se W S32 Hi E) as Gv.
  destruct (C22_fromJson_round_trip G J (p_heap st') ex t v HA HP Gv TT) as (F & j' & R). exists F, j'. split; [intros fuel' Hf; apply (R fuel' Hf)|]. intros Fi Du.
  destruct (C23_value_round_trip T G J (p_heap st') ex t v j' F HA HP HD Gv TT (proj1 (R F (le_n _))) Fi Du) as (F2 & text' & R2). exists F2, text'. intros fuel' Hf. destruct (R2 fuel' Hf) as [R3 R4].
  split; [exact R3|]. intros h er. destruct (R4 h er) as (v' & h' & er' & Q1 & _ & Q2). exists v', h', er'. split; assumption.
Qed.
Print Assumptions C72_text_again.
