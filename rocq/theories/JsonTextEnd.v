(** JsonTextEnd.v -- from values to texts and back *)
From Coq Require Import String List NArith ZArith Bool Lia Permutation.
From Verif Require Import Base BaseFacts Types TypesFacts BinModel BinSpec BinSafeSpec BinSafe GenModel Float JsonModel JsonRel JsonErr JsonSpec JsonRoundTrip JsonSafeSpec JsonSafe JsonFacts JsonTerm JsonTop
  JsonText JsonTextSpec JsonTextFacts JsonTextTop.
Import ListNotations.
Local Open Scope list_scope.
Local Open Scope nat_scope.

Lemma range64 k z : in_range k z = true -> (- 2 ^ 63 <= z < 2 ^ 64)%Z.
Proof. unfold in_range. rewrite andb_true_iff, Z.leb_le, Z.leb_le. destruct k; unfold kmin, kmax; cbn; lia. Qed.

Lemma ints_leaf j : (forall z, j <> JInt z) -> (match j with JArr _ | JObj _ => False | _ => True end) -> ints_ok j.
Proof. destruct j; intros H H'; split; try exact I; try contradiction. exfalso; eapply H; reflexivity. Qed.
Lemma ints_arr l : Forall ints_ok l -> ints_ok (JArr l). Proof. intros. apply ew_arr; [exact I|assumption]. Qed.
Lemma ints_obj ms : Forall (fun x => ints_ok (snd x)) ms -> ints_ok (JObj ms). Proof. intros. apply ew_obj; [exact I|assumption]. Qed.

Lemma push_iter_all {A B} (p : A -> res B) (Q : B -> Prop) l : (forall x y, In x l -> p x = ROk y -> Q y) -> forall ys, push_iter p l = ROk ys -> Forall Q ys.
Proof.
  induction l as [|x l IH]; intros H ys E; cbn in E; [inversion E; constructor|].
  destruct (p x) as [y| | | |] eqn:Ex; cbn in E; try discriminate. destruct (push_iter p l) as [ys'| | | |] eqn:El; cbn in E; try discriminate.
  inversion E; subst. constructor; [eapply H; [left; reflexivity|exact Ex]|]. apply IH; [intros x' y' Hx; apply H; right; exact Hx|reflexivity].
Qed.
Lemma push_fold_all {A} (p : A -> list (bytes * json) -> res (list (bytes * json))) (Q : list (bytes * json) -> Prop) l :
  (forall x ms ms', In x l -> Q ms -> p x ms = ROk ms' -> Q ms') -> forall ms ms', Q ms -> push_fold p l ms = ROk ms' -> Q ms'.
Proof.
  induction l as [|x l IH]; intros H ms ms' HQ E; cbn in E; [inversion E; subst; exact HQ|].
  destruct (p x ms) as [ms1| | | |] eqn:Ex; cbn in E; try discriminate. eapply IH; [intros; eapply H; [right; eassumption|eassumption|eassumption]| |exact E].
  eapply H; [left; reflexivity|exact HQ|exact Ex].
Qed.

Lemma add_multi_all (P : json -> Prop) k j ms : (forall l, P (JArr l) <-> Forall P l) -> P j ->
  Forall (fun x => P (snd x)) ms -> Forall (fun x => P (snd x)) (add_multi k j ms).
Proof.
  intros HP Hj F. unfold add_multi. destruct (append_existing (cstr k) j ms) as [ms'|] eqn:E.
  - revert ms' E. induction F as [|[k' x] ms Hx F IH]; intros ms' E; cbn in E; [discriminate|].
    destruct (bytes_eqb (cstr k) k').
    + destruct x; try discriminate. inversion E; subst. constructor; [|exact F]. cbn in *. apply HP. apply HP in Hx. apply Forall_app; auto.
    + destruct (append_existing (cstr k) j ms) as [ms''|]; [|discriminate]. inversion E; subst. constructor; [exact Hx|]. apply IH; reflexivity.
  - apply Forall_app. split; [exact F|]. constructor; [|constructor]. cbn. apply HP. auto.
Qed.
Lemma ints_arr_iff l : ints_ok (JArr l) <-> Forall ints_ok l.
Proof. split; [|apply ints_arr]. intros W. apply Forall_forall. intros x Hx. eapply ew_item; eauto. Qed.

(** the documents made of proper values have 64-bit integers *)
Lemma pushed_ints G J H f :
  (forall ex t old v j, jgood G J H ex t old v -> push G J H f t v = ROk j -> ints_ok j)
  /\ (forall c L ex (oo : fkey -> val) fs ms ms', members G pushed_by c L ->
       (forall fd v, In fd L -> alookup fkey_eqb (jf_key fd) fs = Some v -> jgood G J H ex (jf_ty fd) (oo (jf_key fd)) v) ->
       Forall (fun x => ints_ok (snd x)) ms -> push_cls G J H f c fs ms = ROk ms' -> Forall (fun x => ints_ok (snd x)) ms').
Proof.
  induction f as [|f [IP IC]]; [split; intros; discriminate|]. split.
  - intros ex t old v j Hg E. rewrite push_S in E.
    destruct Hg; cbn [push_body] in E.
    all: try (inversion E; subst; apply ints_leaf; [discriminate|exact I]).
    + rewrite H0 in E. inversion E; subst. split; [exact (range64 _ _ H1)|exact I].
    + inversion E; subst. split; [exact (range64 _ _ H0)|exact I].
    + destruct (push_iter (push G J H f t) l) as [js| | | |] eqn:Ei; cbn in E; try discriminate. inversion E; subst. apply ints_arr.
      eapply push_iter_all; [|exact Ei]. intros x y Hx Ey. eapply IP; [apply H0; exact Hx|exact Ey].
    + destruct (push_iter (push G J H f t) l) as [js| | | |] eqn:Ei; cbn in E; try discriminate. inversion E; subst. apply ints_arr.
      eapply push_iter_all; [|exact Ei]. intros x y Hx Ey. eapply IP; [apply H2; exact Hx|exact Ey].
    + destruct multi; match type of E with (let! _ := ?x in _) = _ => destruct x as [ms| | | |] eqn:Ef end; cbn in E; try discriminate; inversion E; subst; apply ints_obj;
      (eapply (push_fold_all _ (Forall (fun x => ints_ok (snd x)))); [|constructor|exact Ef]).
      * intros x ms0 ms' Hx HQ Ex. cbv beta in Ex. destruct (H2 x Hx) as (k & v & -> & _). destruct (push G J H f vt v) as [jv| | | |] eqn:Ev; cbn in Ex; try discriminate.
        inversion Ex; subst. apply add_multi_all; [apply ints_arr_iff| |exact HQ]. eapply IP; [eapply H3; exact Hx|exact Ev].
      * intros x ms0 ms' Hx HQ Ex. cbv beta in Ex. destruct (H2 x Hx) as (k & v & -> & _). destruct (push G J H f vt v) as [jv| | | |] eqn:Ev; cbn in Ex; try discriminate.
        inversion Ex; subst. apply Forall_app. split; [exact HQ|]. constructor; [|constructor]. cbn. eapply IP; [eapply H3; exact Hx|exact Ev].
    + destruct (push G J H f ta a) as [ja| | | |] eqn:Ea; cbn in E; try discriminate. destruct (push G J H f tb b) as [jb| | | |] eqn:Eb; cbn in E; try discriminate.
      inversion E; subst. apply ints_arr. constructor; [eapply IP; [exact Hg1|exact Ea]|]. constructor; [|constructor]. eapply IP; [exact Hg2|exact Eb].
    + destruct ts as [|t0 ts]; [congruence|]. rewrite (proj2 (Nat.eqb_eq _ _) H2) in E.
      match type of E with (let! _ := ?x in _) = _ => destruct x as [js| | | |] eqn:Ei end; cbn in E; try discriminate. inversion E; subst. apply ints_arr.
      eapply push_iter_all; [|exact Ei]. intros [t' x] y Hx Ey. apply In_nth_error in Hx. destruct Hx as [i Hi].
      assert (Q: nth_error (t0 :: ts) i = Some t' /\ nth_error l i = Some x).
      { clear -Hi. revert i l Hi. generalize (t0 :: ts). induction l as [|a l IH]; intros [|i] [|b l'] Hi; cbn in *; try discriminate; [inversion Hi; auto|exact (IH i l' Hi)]. }
      destruct Q as [Q1 Q2]. assert (Q3: exists o, nth_error os i = Some o).
      { destruct (nth_error os i) eqn:Eo; [eauto|]. apply nth_error_None in Eo. assert (nth_error (t0 :: ts) i <> None) by congruence. apply nth_error_Some in H4. lia. }
      destruct Q3 as [o Q3]. eapply IP; [eapply H3; eauto|exact Ey].
    + eapply IP; [exact Hg|exact E].
    + eapply IP; [exact Hg|exact E].
    + rewrite H0 in E. destruct (ty_eqb t t); [|discriminate]. eapply IP; [exact Hg|exact E].
    + rewrite H1 in E. cbn in E. inversion E; subst. apply ints_obj. constructor; [split; [exact (range64 _ _ H0)|exact I]|]. constructor; [|constructor]. apply ints_leaf; [discriminate|exact I].
    + rewrite H1 in E. destruct (push G J H f t x) as [jd| | | |] eqn:Ex; destruct t; cbn in E; try discriminate; try congruence;
      inversion E; subst; (apply ints_obj; constructor; [split; [exact (range64 _ _ H0)|exact I]|]; constructor; [|constructor]; eapply IP; [exact Hg|exact Ex]).
    + destruct (push_cls G J H f c fs []) as [ms| | | |] eqn:Ec; cbn in E; try discriminate. inversion E; subst. apply ints_obj.
      eapply (IC c Lp ex oo fs []); [eassumption|eassumption|constructor|exact Ec].
  - intros c L ex oo fs ms ms' HL HF HM E. rewrite push_cls_S in E. unfold push_cls_body in E. inversion HL as [c' rc p Ls Ec Ep HB]; subst. unfold pushed_by in Ep. inversion Ep; subst p.
    rewrite Ec in E. match type of E with (let! _ := ?x in _) = _ => destruct x as [ms1| | | |] eqn:E1 end; cbn in E; try discriminate.
    eapply (push_fold_all _ (Forall (fun x => ints_ok (snd x)))); [| |exact E].
    + intros fd m1 m2 Hfd HQ Ex. cbv beta in Ex. destruct (alookup fkey_eqb (jf_key fd) fs) as [v|] eqn:Ev; [|discriminate].
      destruct (push G J H f (jf_ty fd) v) as [jv| | | |] eqn:Ej; cbn in Ex; try discriminate. inversion Ex; subst. apply Forall_app. split; [exact HQ|].
      constructor; [|constructor]. cbn. eapply IP; [eapply HF; [apply in_or_app; right; exact Hfd|exact Ev]|exact Ej].
    + eapply (push_fold_all _ (Forall (fun x => ints_ok (snd x)))); [|exact HM|exact E1].
      intros b m1 m2 Hb HQ Ex. cbv beta in Ex.
      assert (X: exists Lb, In Lb Ls /\ members G pushed_by b Lb).
      { clear -HB Hb. induction HB as [|b0 L0 bs Ls M0 HB IH]; [destruct Hb|]. destruct Hb as [->|Hb]; [exists L0; split; [left; reflexivity|exact M0]|].
        destruct (IH Hb) as (Lb & H1 & H2). exists Lb. split; [right; exact H1|exact H2]. }
      destruct X as (Lb & I1 & I2). eapply (IC b Lb ex oo fs m1); [exact I2| |exact HQ|exact Ex].
      intros fd v Hfd. apply HF. apply in_or_app; left. apply in_concat; eauto.
Qed.

Lemma no_control_app a b : no_control a -> no_control b -> no_control (a ++ b). Proof. intros; apply Forall_app; auto. Qed.
Lemma no_control_cstr t : no_control t -> cstr t = t.
Proof.
  induction 1 as [|b t H F IH]; [reflexivity|]. cbn. destruct (beqb b Byte.x00) eqn:E; [|rewrite IH; reflexivity].
  apply beqb_eq in E. subst b. cbv in H. contradiction.
Qed.
Lemma escape_no_control b : no_control (escape b).
Proof. unfold no_control. destruct b; cbv; repeat constructor; discriminate. Qed.
Lemma write_string_no_control s : no_control (write_string s).
Proof.
  unfold write_string. apply no_control_app; [repeat constructor; discriminate|]. apply no_control_app; [|repeat constructor; discriminate].
  induction s as [|b s IH]; [constructor|]. cbn [flat_map]. apply no_control_app; [apply escape_no_control|exact IH].
Qed.
Lemma digits_no_control s : Forall (fun b => is_digit b = true) s -> no_control s.
Proof. apply Forall_impl. intros b. unfold is_digit. rewrite andb_true_iff, !N.leb_le. lia. Qed.
Lemma double_no_control s : double_text s -> no_control s.
Proof.
  intros (m & ip & fp & ep & -> & Hm & Hi & Hf & He & _). repeat apply no_control_app.
  - destruct Hm as [-> | ->]; repeat constructor; discriminate.
  - destruct Hi as [-> | [[_ D] _]]; [repeat constructor; discriminate|apply digits_no_control, D].
  - destruct Hf as [-> | (d & -> & [_ D])]; [constructor|]. apply no_control_app; [repeat constructor; discriminate|apply digits_no_control, D].
  - destruct He as [-> | (e & g & d & -> & He & Hg & [_ D])]; [constructor|]. repeat apply no_control_app; [| |apply digits_no_control, D].
    + destruct He as [-> | ->]; repeat constructor; discriminate.
    + destruct Hg as [-> | [-> | ->]]; repeat constructor; discriminate.
Qed.
Lemma itoa_no_control z : no_control (itoa z).
Proof.
  assert (D: forall n, no_control (dec n)) by (intros; apply digits_no_control; rewrite dec_dstr; apply dstr_digits).
  unfold itoa. destruct (z <? 0)%Z; [constructor; [discriminate|]|]; apply D.
Qed.
Lemma wbind_no_control a b : no_control (fst a) -> no_control (fst b) -> no_control (fst (wbind a b)).
Proof. unfold wbind. destruct (snd a); cbn; intros; [apply no_control_app|]; assumption. Qed.
Lemma write_no_control T j : dtoa_ok T -> no_control (fst (write T j)).
Proof.
  intros D. induction j as [| b | z | n | s | l IH | ms IH] using json_ind2.
  - repeat constructor; discriminate.
  - destruct b; repeat constructor; discriminate.
  - apply itoa_no_control.
  - cbn [write]. destruct (f64_finite n) eqn:Fi; [|constructor]. apply double_no_control, D, Fi.
  - apply write_string_no_control.
  - rewrite write_arr. apply wbind_no_control; [repeat constructor; discriminate|]. generalize true. induction IH as [|x l Hx F IHl]; intros first; [repeat constructor; discriminate|].
    cbn [witems]. apply wbind_no_control; [destruct first; repeat constructor; discriminate|]. apply wbind_no_control; [exact Hx|apply IHl].
  - rewrite write_obj. apply wbind_no_control; [repeat constructor; discriminate|]. generalize true. induction IH as [|[n x] l Hx F IHl]; intros first; [repeat constructor; discriminate|].
    cbn [wmembers]. apply wbind_no_control.
    + cbn [fst]. apply no_control_app; [destruct first; repeat constructor; discriminate|]. apply no_control_app; [apply write_string_no_control|repeat constructor; discriminate].
    + apply wbind_no_control; [exact Hx|apply IHl].
Qed.

Lemma text_round_trip T G J H ex t v j f0 : alloc_ok G -> place_ok G -> dtoa_ok T ->
  jgood G J H ex t (dinit G t) v -> top_type t v ->
  toJsonDocument G J H f0 t v = ROk j -> finite j -> doubles (survives T) j ->
  exists F text, forall fuel, F <= fuel ->
    toJson T G J H fuel t v = ROk text
    /\ forall h er, exists v' h' er',
         fromJsonText T G J fuel t text {| p_heap := h; p_err := er |} = Some (POk v' {| p_heap := h'; p_err := er' |})
         /\ fromJsonCStr T G J fuel t (text ++ [Byte.x00]) {| p_heap := h; p_err := er |} = Some (POk v' {| p_heap := h'; p_err := er' |})
         /\ jsame G H h h' t v v' /\ (ex = true -> v' = v) /\ hext h h' /\ quiet er er'.
Proof.
  intros HA HP D Hg Ht E0 Fi S.
  destruct (fromJson_round_trip G J H ex t v HA HP Hg Ht) as (F & j' & R).
  assert (j' = j).
  { destruct (R (Nat.max F f0) ltac:(lia)) as [R1 _].
    assert (M: toJsonDocument G J H (Nat.max F f0) t v = ROk j).
    { revert E0. unfold toJsonDocument. destruct t; try discriminate; try (intros E; eapply push_more; [|exact E|discriminate]; lia).
      destruct (json_kind k); try discriminate. intros E; eapply push_more; [|exact E|discriminate]; lia. }
    congruence. }
  subst j'.
  assert (W: ints_ok j).
  { revert E0. unfold toJsonDocument. destruct t; try discriminate; try (apply (proj1 (pushed_ints G J H f0) ex _ _ _ _ Hg)).
    destruct (json_kind k); [|discriminate]. apply (proj1 (pushed_ints G J H f0) ex _ _ _ _ Hg). }
  destruct (doc_complete T j D W Fi) as (j1 & Rp & P1). apply (reparsed_same T j S) in Rp. subst j1.
  exists F, (serializeJsonDocToString T j). intros fuel Hf. destruct (R fuel Hf) as [R1 R2]. unfold toJson. rewrite R1. split; [reflexivity|].
  intros h er. destruct (R2 h er) as (v' & h' & er' & E & Q). exists v', h', er'. unfold fromJsonCStr, fromJsonText.
  assert (C: cstr (serializeJsonDocToString T j ++ [Byte.x00]) = serializeJsonDocToString T j).
  { pose proof (write_no_control T j D) as NC. unfold serializeJsonDocToString. clear -NC. induction NC as [|b t H F IH]; [reflexivity|]. cbn.
    destruct (beqb b Byte.x00) eqn:E; [|rewrite IH; reflexivity]. apply beqb_eq in E. subst b. cbv in H. contradiction. }
  rewrite C, P1, E. auto.
Qed.

(* ------------------------------------------------------------------ *)
(** * Arbitrary texts *)

Lemma ew_imp (P Q : json -> Prop) j : (forall x, P x -> Q x) -> everywhere P j -> everywhere Q j.
Proof.
  intros H. induction j as [| b | z | n | s | l IH | ms IH] using json_ind2; intros W; try (split; [apply H, W|exact I]).
  - apply ew_arr; [apply H, W|]. rewrite Forall_forall in *. intros x Hx. apply IH; [exact Hx|eapply ew_item; eauto].
  - apply ew_obj; [apply H, W|]. rewrite Forall_forall in *. intros [n x] Hx. apply (IH (n, x) Hx). eapply ew_member; eauto.
Qed.
Lemma parsed_wf T j : (forall x n, te_strtod T x = Some n -> (n < 2 ^ 64)%N) -> parsed_ok T j -> json_wf j.
Proof.
  intros S. apply ew_imp. intros [| b | z | n | s | l | ms]; auto.
  - intros H. unfold int64 in H. destruct (Z.leb_spec z (kmax KI64)); [left|right]; apply in_range_spec; unfold kmin, kmax in *; cbn in *; lia.
  - intros [x E]. eapply S; exact E.
Qed.

Lemma any_text T G J ud : alloc_ok G -> place_ok G -> jenv_ok G ud (fun _ => True) false -> conv_ok J ->
  (forall x n, te_strtod T x = Some n -> (n < 2 ^ 64)%N) ->
  forall t text fuel st, top_kind t = true -> pullable G (fun _ => True) false t -> heap_typed G ud (p_heap st) ->
  match fromJsonText T G J fuel t text st with
  | None => True
  | Some (POk v st') => has_type G ud (p_heap st') t v /\ heap_typed G ud (p_heap st') /\ hext (p_heap st) (p_heap st')
  | Some (PThrow _ st') => heap_typed G ud (p_heap st') /\ hext (p_heap st) (p_heap st')
  | Some PUB | Some PFuel => True
  | Some PStuck => False
  end.
Proof.
  intros HA HP HE HC HS t text fuel st Ht Hp Hh. unfold fromJsonText. destruct (doc_total T text) as [E|(j & r & E & W)]; rewrite E; [exact I|].
  apply (parsed_wf T j HS) in W.
  assert (MM: match mismatch t j (vinit G t) st with
    | POk v st' => has_type G ud (p_heap st') t v /\ heap_typed G ud (p_heap st') /\ hext (p_heap st) (p_heap st')
    | PThrow _ st' => heap_typed G ud (p_heap st') /\ hext (p_heap st) (p_heap st')
    | PUB | PFuel => True
    | PStuck => False end).
  { rewrite mismatch_spec. unfold reports. destruct (p_err st) as [e|].
    - destruct (fatal _ _); cbn [p_heap]; [split; [exact Hh|apply hext_refl]|]. split; [apply (vinit_any G ud (fun _ => True) false HE); exact Hp|]. split; [exact Hh|apply hext_refl].
    - split; [apply (vinit_any G ud (fun _ => True) false HE); exact Hp|]. split; [exact Hh|apply hext_refl]. }
  assert (PP: raw t = false -> match pull G J fuel t (dinit G t) j st with
    | POk v st' => has_type G ud (p_heap st') t v /\ heap_typed G ud (p_heap st') /\ hext (p_heap st) (p_heap st')
    | PThrow _ st' => heap_typed G ud (p_heap st') /\ hext (p_heap st) (p_heap st')
    | PUB | PFuel => True
    | PStuck => False end).
  { intros Hr. assert (X := pull_type_safe G J ud HA HP HE HC t j (dinit G t) fuel st Hp W Hh (dinit_ok G ud _ _ HE t (p_heap st) Hp)).
    destruct (pull G J fuel t (dinit G t) j st); auto. destruct X as ([X|(_ & _ & X)] & Y); [split; [exact X|exact Y]|congruence]. }
  assert (OK: forall v, has_type G ud (p_heap st) t v -> has_type G ud (p_heap st) t v /\ heap_typed G ud (p_heap st) /\ hext (p_heap st) (p_heap st)).
  { intros v X. split; [exact X|]. split; [exact Hh|apply hext_refl]. }
  destruct t; cbn in Ht; try discriminate Ht; cbn [fromJson]; rewrite ?Ht; destruct j; try exact MM; try (exact (PP eq_refl)).
  - apply OK. constructor.
  - destruct (in_range k z) eqn:R; [apply OK; constructor; exact R|exact MM].
  - destruct (is_float n) eqn:R; [apply OK; constructor; apply f32_of_f64_bound; apply W|exact MM].
  - apply OK. constructor. apply W.
  - apply OK. constructor.
Qed.

Lemma text_terminates T G J : no_pull_cycle G -> forall t text, exists F, forall fuel, F <= fuel -> forall st,
  fromJsonText T G J fuel t text st <> Some PFuel /\ fromJsonText T G J fuel t text st = fromJsonText T G J F t text st.
Proof.
  intros HN t text. destruct (doc_total T text) as [E|(j & r & E & W)].
  { exists 0. intros. unfold fromJsonText. rewrite E. split; [discriminate|reflexivity]. }
  destruct (pull_terminates G J HN t j) as (F & HF). exists F. intros fuel Hf st. unfold fromJsonText. rewrite E.
  destruct (HF fuel Hf (dinit G t) st) as [X Y].
  assert (M: forall v, mismatch t j v st <> PFuel).
  { intros v. rewrite mismatch_spec. unfold reports. destruct (p_err st); [destruct (fatal _ _)|]; discriminate. }
  assert (Q: forall (a b : out val), a <> PFuel -> a = b -> Some a <> Some PFuel /\ Some a = Some b) by (intros a b H ->; split; [congruence|reflexivity]).
  apply Q; destruct t; cbn [fromJson]; try discriminate; try reflexivity; destruct j; auto; try discriminate;
    try (destruct (json_kind k); auto; try discriminate; destruct (in_range k z); auto; discriminate);
    try (destruct (is_float n); auto; discriminate).
Qed.

(* ------------------------------------------------------------------ *)
(** * Where an incomplete text ends *)

Definition cut (T : tenv) (j : json) : Prop :=
  (snd (write T j) = true -> write T (nulled j) = write T j)
  /\ (snd (write T j) = false -> exists rest, fst (write T (nulled j)) = fst (write T j) ++ bs "null" ++ rest).
Lemma null_finite j : finite (nulled j).
Proof.
  induction j as [| b | z | n | s | l IH | ms IH] using json_ind2; cbn [nulled]; try (split; exact I).
  - destruct (f64_finite n) eqn:F; split; auto.
  - apply ew_arr; [exact I|]. apply Forall_map. exact IH.
  - apply ew_obj; [exact I|]. apply Forall_map. eapply Forall_impl; [|exact IH]. intros [n x] H. exact H.
Qed.
Lemma null_complete T j : snd (write T (nulled j)) = true.
Proof. apply write_complete, null_finite. Qed.
Lemma cut_bind (a a0 b b0 : bytes * bool) :
  snd a0 = true -> (snd a = true -> a0 = a) -> (snd a = false -> exists r, fst a0 = fst a ++ bs "null" ++ r) ->
  (snd b = true -> b0 = b) -> (snd b = false -> exists r, fst b0 = fst b ++ bs "null" ++ r) ->
  (snd (wbind a b) = true -> wbind a0 b0 = wbind a b) /\ (snd (wbind a b) = false -> exists r, fst (wbind a0 b0) = fst (wbind a b) ++ bs "null" ++ r).
Proof.
  intros T0 A1 A2 B1 B2. unfold wbind. rewrite T0. destruct (snd a) eqn:Ea.
  - rewrite (A1 eq_refl) in *. cbn [fst snd]. split; intros E.
    + rewrite (B1 E). reflexivity.
    + destruct (B2 E) as [r ->]. exists r. rewrite !app_assoc. reflexivity.
  - rewrite Ea. split; [discriminate|]. intros _. destruct (A2 eq_refl) as [r ->]. exists (r ++ fst b0). cbn [fst]. rewrite <- !app_assoc. reflexivity.
Qed.
Lemma cut_items T l : Forall (cut T) l -> forall first,
  (snd (witems T first l) = true -> witems T first (map nulled l) = witems T first l)
  /\ (snd (witems T first l) = false -> exists rest, fst (witems T first (map nulled l)) = fst (witems T first l) ++ bs "null" ++ rest).
Proof.
  induction 1 as [|x l [H1 H2] F IH]; intros first; [split; [reflexivity|discriminate]|]. cbn [map witems].
  apply cut_bind; try reflexivity; try discriminate; (apply cut_bind; [apply null_complete|exact H1|exact H2|apply IH|apply IH]).
Qed.
Lemma cut_members T l : Forall (fun x => cut T (snd x)) l -> forall first,
  (snd (wmembers T first l) = true -> wmembers T first (map (fun '(n, x) => (n, nulled x)) l) = wmembers T first l)
  /\ (snd (wmembers T first l) = false -> exists rest, fst (wmembers T first (map (fun '(n, x) => (n, nulled x)) l)) = fst (wmembers T first l) ++ bs "null" ++ rest).
Proof.
  induction 1 as [|[n x] l [H1 H2] F IH]; intros first; [split; [reflexivity|discriminate]|]. cbn [map wmembers].
  apply cut_bind; try reflexivity; try discriminate; (apply cut_bind; [apply null_complete|exact H1|exact H2|apply IH|apply IH]).
Qed.
Lemma cut_all T j : cut T j.
Proof.
  induction j as [| b | z | n | s | l IH | ms IH] using json_ind2; try (split; [reflexivity|intros E; cbn in E; try destruct b; discriminate]).
  - split; cbn [nulled write]; destruct (f64_finite n) eqn:F; cbn [write]; rewrite ?F; try discriminate; try reflexivity. intros _. exists []. reflexivity.
  - unfold cut. cbn [nulled]. rewrite !write_arr. apply cut_bind; try reflexivity; try discriminate; apply cut_items; exact IH.
  - unfold cut. cbn [nulled]. rewrite !write_obj. apply cut_bind; try reflexivity; try discriminate; apply cut_members; exact IH.
Qed.
Lemma text_cut T j : ~ finite j -> exists rest, serializeJsonDocToString T (nulled j) = serializeJsonDocToString T j ++ bs "null" ++ rest.
Proof. intros N. apply (proj2 (cut_all T j)). destruct (snd (write T j)) eqn:E; [|reflexivity]. apply write_complete in E. contradiction. Qed.

(* ------------------------------------------------------------------ *)
(** * Documents without doubles *)

(** some conversion which is fine *)
Definition some_tenv : tenv := {|
  te_dtoa := fun n => dec n ++ bs ".0";
  te_strtod := fun s => Some (dval (fst (digits s))) |}.
Lemma some_tenv_ok : dtoa_ok some_tenv.
Proof.
  intros n _. split; [|eexists; reflexivity]. exists [], (dec n), (bs ".0"), []. rewrite app_nil_r. split; [reflexivity|].
  split; [left; reflexivity|]. split; [apply dec_int_part|]. split; [right; exists (bs "0"); split; [reflexivity|]; split; [discriminate|repeat constructor]|].
  split; [left; reflexivity|discriminate].
Qed.
Lemma some_tenv_survives n : survives some_tenv n.
Proof.
  unfold survives, some_tenv; cbn [te_dtoa te_strtod]. rewrite digits_app; [|rewrite dec_dstr; apply dstr_digits|reflexivity]. cbn [fst]. rewrite dval_dec. reflexivity.
Qed.

Lemma write_same T T' j : doubles (fun _ => False) j -> write T j = write T' j.
Proof.
  induction j as [| b | z | n | s | l IH | ms IH] using json_ind2; intros W; try reflexivity.
  - destruct W as [[] _].
  - rewrite !write_arr. f_equal. assert (F: Forall (doubles (fun _ => False)) l) by (apply Forall_forall; intros x Hx; eapply ew_item; eauto). clear W.
    generalize true. induction IH as [|x l Hx _ IHl]; intros first; [reflexivity|]. inversion F; subst. cbn [witems]. rewrite Hx by assumption. rewrite IHl by assumption. reflexivity.
  - rewrite !write_obj. f_equal. assert (F: Forall (fun x => doubles (fun _ => False) (snd x)) ms) by (apply Forall_forall; intros [n x] Hx; eapply ew_member; eauto). clear W.
    generalize true. induction IH as [|[n x] l Hx _ IHl]; intros first; [reflexivity|]. inversion F; subst. cbn [wmembers]. cbn [snd] in *. rewrite Hx by assumption. rewrite IHl by assumption. reflexivity.
Qed.

Definition nodbl : json -> Prop := doubles (fun _ => False).
Lemma nodbl_arr l : nodbl (JArr l) -> Forall nodbl l. Proof. intros W. apply Forall_forall. intros x Hx. eapply ew_item; eauto. Qed.
Lemma nodbl_obj ms : nodbl (JObj ms) -> Forall (fun x => nodbl (snd x)) ms. Proof. intros W. apply Forall_forall. intros [n x] Hx. eapply ew_member; eauto. Qed.

Lemma parse_number_same T T' s j r : nodbl j -> parse_number T s = TOk j r -> parse_number T' s = TOk j r.
Proof.
  rewrite !parse_number_unfold. destruct (minus s) as [m s0]. destruct (int_part s0) as [[ip s1]|]; [|discriminate].
  destruct (frac_part s1) as [[fp s2]|]; [|discriminate]. destruct (exp_part s2) as [[ep s3]|]; [|discriminate].
  unfold number_of. match goal with |- context [if ?c then _ else _] => destruct c end; [auto|].
  intros W. destruct (te_strtod T _); [|discriminate]. intros E; inversion E; subst. destruct W as [[] _].
Qed.
Lemma parse_same T T' f :
  (forall s j r, nodbl j -> parse_value T f s = TOk j r -> parse_value T' f s = TOk j r)
  /\ (forall s l r, Forall nodbl l -> parse_items T f s = TOk l r -> parse_items T' f s = TOk l r)
  /\ (forall s l r, Forall (fun x => nodbl (snd x)) l -> parse_members T f s = TOk l r -> parse_members T' f s = TOk l r).
Proof.
  induction f as [|f (IV & II & IM)]; [split; [|split]; intros; discriminate|]. split; [|split].
  - intros s j r W E. cbn [parse_value] in *. destruct s as [|b s]; [discriminate|].
    destruct (beqb b Byte.x6e); [exact E|]. destruct (beqb b Byte.x74); [exact E|]. destruct (beqb b Byte.x66); [exact E|]. destruct (beqb b Byte.x22); [exact E|].
    destruct (beqb b Byte.x7b).
    { destruct (consume (bs "}") (skip_ws s)); [exact E|]. destruct (parse_members T f (skip_ws s)) as [l r'| |] eqn:Em; try discriminate. cbn [tbind] in E. inversion E; subst.
      rewrite (IM _ _ _ (nodbl_obj _ W) Em). reflexivity. }
    destruct (beqb b Byte.x5b).
    { destruct (consume (bs "]") (skip_ws s)); [exact E|]. destruct (parse_items T f (skip_ws s)) as [l r'| |] eqn:Em; try discriminate. cbn [tbind] in E. inversion E; subst.
      rewrite (II _ _ _ (nodbl_arr _ W) Em). reflexivity. }
    eapply parse_number_same; [exact W|exact E].
  - intros s l r W E. cbn [parse_items] in *. destruct (parse_value T f s) as [x r1| |] eqn:Ev; try discriminate. cbn [tbind] in E.
    destruct (consume (bs ",") (skip_ws r1)) as [r2|] eqn:Ec.
    + destruct (parse_items T f (skip_ws r2)) as [l' r3| |] eqn:Ei; try discriminate. cbn [tbind] in E. inversion E; subst. inversion W; subst.
      rewrite (IV _ _ _ ltac:(eassumption) Ev). cbn [tbind]. rewrite Ec. rewrite (II _ _ _ ltac:(eassumption) Ei). reflexivity.
    + destruct (consume (bs "]") (skip_ws r1)) eqn:Eb; [|discriminate]. inversion E; subst. inversion W; subst.
      rewrite (IV _ _ _ ltac:(eassumption) Ev). cbn [tbind]. rewrite Ec, Eb. reflexivity.
  - intros s l r W E. cbn [parse_members] in *. destruct (consume quote s) as [s1|]; [|discriminate]. destruct (parse_string s1) as [n r0| |]; try discriminate. cbn [tbind] in *.
    destruct (consume (bs ":") (skip_ws r0)) as [r1|]; [|discriminate]. destruct (parse_value T f (skip_ws r1)) as [x r2| |] eqn:Ev; try discriminate. cbn [tbind] in E.
    destruct (consume (bs ",") (skip_ws r2)) as [r3|] eqn:Ec.
    + destruct (parse_members T f (skip_ws r3)) as [l' r4| |] eqn:Ei; try discriminate. cbn [tbind] in E. inversion E; subst. inversion W; subst.
      rewrite (IV _ _ _ ltac:(eassumption) Ev). cbn [tbind]. rewrite Ec. rewrite (IM _ _ _ ltac:(eassumption) Ei). reflexivity.
    + destruct (consume (bs "}") (skip_ws r2)) eqn:Eb; [|discriminate]. inversion E; subst. inversion W; subst.
      rewrite (IV _ _ _ ltac:(eassumption) Ev). cbn [tbind]. rewrite Ec, Eb. reflexivity.
Qed.

Lemma doc_without_doubles T j : ints_ok j -> doubles (fun _ => False) j -> parseJsonDocFromString T (serializeJsonDocToString T j) = TOk j [].
Proof.
  intros W ND. destruct (doc_complete some_tenv j some_tenv_ok W) as (j' & R & P).
  { eapply ew_imp; [|exact ND]. intros [] H; auto; contradiction. }
  apply (reparsed_same some_tenv) in R; [|eapply ew_imp; [|exact ND]; intros [] H; auto; contradiction]. subst j'.
  unfold serializeJsonDocToString in *. rewrite (write_same T some_tenv j ND). unfold parseJsonDocFromString in *.
  destruct (at_end _); [discriminate|]. match goal with |- context [parse_value T ?f ?s] => destruct (parse_value some_tenv f s) as [x r| |] eqn:Ev end; try discriminate.
  cbn [tbind] in P. destruct (at_end (skip_ws r)) eqn:Ee; [|discriminate]. inversion P; subst. rewrite (proj1 (parse_same some_tenv T _) _ _ _ ND Ev). cbn [tbind]. rewrite Ee. reflexivity.
Qed.

Lemma complete_iff_finite T j : dtoa_ok T -> ints_ok j ->
  (finite j <-> exists j', parseJsonDocFromString T (serializeJsonDocToString T j) = TOk j' [] /\ reparsed T j j')
  /\ (~ finite j <-> parseJsonDocFromString T (serializeJsonDocToString T j) = TErr).
Proof.
  intros D W. assert (Dec: finite j \/ ~ finite j).
  { destruct (snd (write T j)) eqn:E; [left; apply (write_complete T); exact E|right]. intros F. apply (write_complete T) in F. congruence. }
  split; split.
  - intros F. destruct (doc_complete T j D W F) as (j' & R & P). eauto.
  - intros (j' & P & R). destruct Dec as [F|F]; [exact F|]. rewrite (doc_incomplete T j D W F) in P. discriminate.
  - apply doc_incomplete; assumption.
  - intros E F. destruct (doc_complete T j D W F) as (j' & R & P). congruence.
Qed.
