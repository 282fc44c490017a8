(** JSettleFacts.v -- what has been deserialised from JSON is proper (property C72) *)
From Coq Require Import String List NArith ZArith Bool Lia Permutation.
From Verif Require Import Base BaseFacts Types TypesFacts BinModel BinSpec BinSafeSpec BinSafe ContFacts Float FloatFacts JsonModel JsonRel JsonErr JsonSpec JsonRoundTrip JsonSafeSpec JsonSafe JBoundFacts JSettleSpec.
Import ListNotations.
Local Open Scope list_scope.
Local Open Scope nat_scope.

Lemma f32_quiet n : f32_snan (f32_of_f64 n) = false.
Proof.
  assert (X : forall s r, (r <= 255 * 2 ^ 23)%N -> f32_snan (s * 2 ^ 31 + r) = false).
  { intros s r L. unfold f32_snan, f32_exp, f32_mant. change (2 ^ 31)%N with (256 * 2 ^ 23)%N. rewrite N.mul_assoc.
    assert (D : ((s * 256 * 2 ^ 23 + r) / 2 ^ 23 = s * 256 + r / 2 ^ 23)%N) by (rewrite N.div_add_l by (apply N.pow_nonzero; lia); reflexivity).
    assert (M : ((s * 256 * 2 ^ 23 + r) mod 2 ^ 23 = r mod 2 ^ 23)%N) by (rewrite N.add_comm, N.mod_add by (apply N.pow_nonzero; lia); reflexivity).
    rewrite D, M. change (2 ^ 8)%N with 256%N. rewrite N.add_comm, N.mod_add by lia.
    apply N.lt_eq_cases in L. destruct L as [L| ->]; [|reflexivity].
    assert (Q : (r / 2 ^ 23 < 255)%N) by (apply N.div_lt_upper_bound; [apply N.pow_nonzero; lia|rewrite N.mul_comm; exact L]).
    rewrite N.mod_small by lia. destruct (N.eqb_spec (r / 2 ^ 23) 255) as [E|E]; [lia|reflexivity]. }
  unfold f32_of_f64. cbv zeta. destruct (f64_exp n =? 2047)%N.
  - destruct (f64_mant n =? 0)%N; [apply X; lia|].
    assert (Hm : (f64_mant n / 2 ^ 29 < 2 ^ 23)%N) by (apply N.div_lt_upper_bound; [apply N.pow_nonzero; lia|change (2 ^ 29 * 2 ^ 23)%N with (2 ^ 52)%N; unfold f64_mant; apply N.mod_lt, N.pow_nonzero; lia]).
    set (m := (f64_mant n / 2 ^ 29)%N) in *. clearbody m. unfold f32_snan.
    assert (L : (2 ^ 22 <= N.lor m (2 ^ 22) < 2 ^ 23)%N).
    { split.
      - assert (T : N.testbit (N.lor m (2 ^ 22)) 22 = true) by (rewrite N.lor_spec, N.pow2_bits_true, orb_true_r; reflexivity).
        destruct (N.le_gt_cases (2 ^ 22) (N.lor m (2 ^ 22))) as [Q|Q]; [exact Q|]. exfalso. rewrite N.bits_above_log2 in T; [discriminate|].
        destruct (N.eq_dec (N.lor m (2 ^ 22)) 0) as [Z|Z]; [rewrite Z; reflexivity|]. apply N.log2_lt_pow2; [lia|exact Q].
      - destruct (N.eq_dec m 0) as [->|Hne]; [reflexivity|]. apply N.log2_lt_pow2. { destruct m; cbn; lia. }
        rewrite N.log2_lor. apply N.max_lub_lt; [|reflexivity]. apply N.log2_lt_pow2; [lia|exact Hm]. }
    set (x := N.lor m (2 ^ 22)) in *. clearbody x. assert (E : f32_mant (n / 2 ^ 63 * 2 ^ 31 + (255 * 2 ^ 23 + x)) = x).
    { unfold f32_mant. change (2 ^ 31)%N with (256 * 2 ^ 23)%N. rewrite N.mul_assoc, N.add_assoc, <- N.mul_add_distr_r, N.add_comm, N.mod_add by (apply N.pow_nonzero; lia). apply N.mod_small. apply L. }
    rewrite E. destruct (N.ltb_spec x (2 ^ 22)) as [Q|Q]; [lia|]. apply andb_false_r.
  - match goal with |- context [(if (255 * 2 ^ 23 <=? ?r)%N then _ else _)] => destruct (N.leb_spec (255 * 2 ^ 23) r) as [L|L] end; apply X; lia.
Qed.

(** the objects of [h] except those with the addresses [D] *)
Definition without (D : list N) (h : heap) : heap := filter (fun e => negb (existsb (N.eqb (fst e)) D)) h.
Lemma hget_without D h a : hget (without D h) a = if existsb (N.eqb a) D then None else hget h a.
Proof.
  unfold without, hget. induction h as [|[b c] h IH]; cbn [filter alookup fst]; [destruct existsb; reflexivity|].
  destruct (existsb (N.eqb b) D) eqn:E; cbn [negb alookup]; rewrite ?IH; destruct (N.eqb_spec a b) as [->|N]; try reflexivity; rewrite E; reflexivity.
Qed.
Lemma without_hext D h h' : hext h h' -> hext (without D h) (without D h').
Proof. intros X a c. rewrite !hget_without. destruct existsb; [discriminate|apply X]. Qed.
Lemma jgood_hext G J h h' ex t o v : hext h h' -> jgood G J h ex t o v -> jgood G J h' ex t o v.
Proof. intros X g. induction g; econstructor; eauto. Qed.
Lemma hext_nil h : hext [] h. Proof. intros a c E. discriminate E. Qed.

Definition sp {A} (h : heap) (m : M A) (Q : A -> heap -> Prop) : Prop := forall st, p_heap st = h -> match m st with POk a st' => Q a (p_heap st') /\ hext h (p_heap st') | _ => True end.
Lemma sp_ret {A} h (a : A) (Q : A -> heap -> Prop) : Q a h -> sp h (ret a) Q.
Proof. intros HQ st <-. split; [exact HQ|apply hext_refl]. Qed.
Lemma sp_bind {A B} h (m : M A) (k : A -> M B) (Q : A -> heap -> Prop) (R : B -> heap -> Prop) : sp h m Q -> (forall a h', hext h h' -> Q a h' -> sp h' (k a) R) -> sp h (bind m k) R.
Proof.
  intros Hm Hk st Eh. unfold bind. specialize (Hm st Eh). destruct (m st) as [a st'| | | |]; auto. destruct Hm as [H1 H2]. specialize (Hk a _ H2 H1 st' eq_refl).
  destruct (k a st') as [b st2| | | |]; auto. destruct Hk as [H3 H4]. split; [exact H3|eapply hext_trans; eassumption].
Qed.
Lemma sp_imp {A} h (m : M A) (Q R : A -> heap -> Prop) : sp h m Q -> (forall a h', hext h h' -> Q a h' -> R a h') -> sp h m R.
Proof. intros Hm HQ st Eh. specialize (Hm st Eh). destruct (m st) as [a st'| | | |]; auto. destruct Hm. split; auto. Qed.
Lemma sp_none {A} h (m : M A) (Q : A -> heap -> Prop) : (forall st, match m st with POk _ _ => False | _ => True end) -> sp h m Q.
Proof. intros N st _. specialize (N st). destruct (m st); auto. contradiction. Qed.
Lemma sp_emplace e k x a h (Q : unit -> heap -> Prop) : Q tt h -> match emplace_error e k x a h with POk u st' => Q u (p_heap st') /\ hext h (p_heap st') | _ => True end.
Proof. intros HQ. unfold emplace_error. cbv zeta. match goal with |- context [if ?b then _ else _] => destruct b end; [|exact I]. split; [exact HQ|apply hext_refl]. Qed.
Lemma sp_report h k x a (Q : unit -> heap -> Prop) : Q tt h -> sp h (report k x a) Q.
Proof. intros HQ st <-. unfold report. destruct (p_err st); [apply sp_emplace; exact HQ|]. split; [exact HQ|apply hext_refl]. Qed.
Lemma sp_unchecked h k x a (Q : unit -> heap -> Prop) : Q tt h -> sp h (report_unchecked k x a) Q.
Proof. intros HQ st <-. unfold report_unchecked. destruct (p_err st); [apply sp_emplace; exact HQ|]. exact I. Qed.
Lemma sp_report_ret {A} h k x a (v : A) (Q : A -> heap -> Prop) : Q v h -> sp h (let? _ := report k x a in ret v) Q.
Proof. intros HQ. eapply sp_bind; [apply (sp_report h _ _ _ (fun _ h' => h' = h)); reflexivity|]. intros _ h' _ ->. apply sp_ret. exact HQ. Qed.
Lemma sp_mismatch h t j old (Q : val -> heap -> Prop) : Q old h -> sp h (mismatch t j old) Q.
Proof. intros HQ. apply sp_report_ret. exact HQ. Qed.
Lemma sp_index h i (Q : unit -> heap -> Prop) : Q tt h -> sp h (set_index i) Q.
Proof. intros HQ st <-. split; [exact HQ|apply hext_refl]. Qed.
Lemma sp_member {A} h n (m : M A) Q : sp h m Q -> sp h (in_member n m) Q.
Proof. intros Hm st Eh. unfold in_member. specialize (Hm (put_member (Some n) st) Eh). destruct (m (put_member (Some n) st)); auto. Qed.
Lemma sp_record {A} h n (m : M A) Q : sp h m Q -> sp h (in_record n m) Q.
Proof. intros Hm st Eh. unfold in_record. specialize (Hm (put_record (Some n) st) Eh). destruct (m (put_record (Some n) st)); auto. Qed.
Lemma sp_items {A} (s : A -> json -> M A) (P : A -> heap -> Prop) js : forall h, (forall a j h', In j js -> hext h h' -> P a h' -> sp h' (s a j) P) -> forall i a, P a h -> sp h (pull_items s i js a) P.
Proof.
  induction js as [|j js IH]; intros h Hs i a Ha; cbn [pull_items].
  - eapply sp_bind; [apply (sp_index h _ (fun _ h' => h' = h)); reflexivity|]. intros _ h' _ ->. apply sp_ret. exact Ha.
  - eapply sp_bind; [apply (sp_index h _ (fun _ h' => h' = h)); reflexivity|]. intros _ h' _ ->.
    eapply sp_bind; [apply Hs; [left; reflexivity|apply hext_refl|exact Ha]|]. intros a' h' X Ha'. apply IH; [|exact Ha'].
    intros b j' h2 Hj X2 Hb. apply Hs; [right; exact Hj|eapply hext_trans; eassumption|exact Hb].
Qed.
Lemma sp_fold {A B} (s : A -> B -> M A) (P : A -> heap -> Prop) l : forall h, (forall a b h', In b l -> hext h h' -> P a h' -> sp h' (s a b) P) -> forall a, P a h -> sp h (fold_m s l a) P.
Proof.
  induction l as [|b l IH]; intros h Hs a Ha; cbn [fold_m]; [apply sp_ret; exact Ha|].
  eapply sp_bind; [apply Hs; [left; reflexivity|apply hext_refl|exact Ha]|]. intros a' h' X Ha'. apply IH; [|exact Ha'].
  intros c b' h2 Hj X2 Hb. apply Hs; [right; exact Hj|eapply hext_trans; eassumption|exact Hb].
Qed.

Lemma members_fun G prog : forall c L, members G prog c L -> forall L', members G prog c L' -> L = L'.
Proof.
  fix IH 3. intros c L M0 L' M'. destruct M0 as [c rc p Ls Hc Hp F]. inversion M' as [c' rc' p' Ls' Hc' Hp' F' E1 E2]; subst.
  assert (rc' = rc) by congruence. subst rc'. assert (p' = p) by congruence. subst p'. f_equal. f_equal.
  clear - IH F F'. revert Ls' F'. induction F as [|b L bs Ls V F IHF]; intros Ls' F'; inversion F' as [|b' L' bs' Ls0 V' F0]; subst; [reflexivity|]. f_equal; [exact (IH _ _ V _ V')|apply IHF; exact F0].
Qed.

Section Pull.
  Variable G : genv.
  Variable J : jenv.
  Variable V : bool -> N -> Prop.
  Hypothesis HA : alloc_ok G.
  Hypothesis HP : place_ok G.
  Hypothesis SV : jsettling G J V.
  Notation lk := (alookup fkey_eqb).

  Definition docok (j : json) : Prop := json_wf j /\ strings_32 j.
  Lemma ok_item l x : docok (JArr l) -> In x l -> docok x.
  Proof. intros [H1 H2] Hin. split; eapply ew_item; eauto. Qed.
  Lemma ok_member ms n x : docok (JObj ms) -> In (n, x) ms -> docok x.
  Proof. intros [H1 H2] Hin. split; eapply ew_member; eauto. Qed.
  Lemma ok_lookup ms n x : docok (JObj ms) -> alookup bytes_eqb n ms = Some x -> docok x.
  Proof. intros [H1 H2] Hin. split; eapply ew_lookup; eauto. Qed.
  Lemma name_string ms n x : docok (JObj ms) -> In (n, x) ms -> json_string (cstr n).
  Proof.
    intros [_ H2] Hin. split; [apply cstr_nul_free|]. pose proof (ew_here _ _ H2 n (in_map fst _ _ Hin)) as B. cbn [fst] in B. pose proof (cstr_length n). apply (N.le_trans _ (N.of_nat (length n))); [lia|exact B].
  Qed.

  Lemma alt_settled ex ts i t : (fix all l := match l with [] => True | t :: l' => (t = TMono \/ jsettled G J V ex t) /\ all l' end) ts -> nth_error ts i = Some t -> t = TMono \/ jsettled G J V ex t.
  Proof. revert i. induction ts as [|u ts IH]; intros [|i] A E; try discriminate; cbn in E; [injection E as <-; apply A|]. eapply IH; [apply A|exact E]. Qed.
  Lemma item_settled ex ts i t : (fix all l := match l with [] => True | t :: l' => jsettled G J V ex t /\ all l' end) ts -> nth_error ts i = Some t -> jsettled G J V ex t.
  Proof. revert i. induction ts as [|u ts IH]; intros [|i] A E; try discriminate; cbn in E; [injection E as <-; apply A|]. eapply IH; [apply A|exact E]. Qed.
  Lemma jkzero k : in_range k 0 = true.
  Proof. apply in_range_spec. unfold kmin, kmax. destruct k; cbn; lia. Qed.
  Lemma jcont_nil ismap ord multi kt : cont_inv G ismap ord multi kt [].
  Proof. unfold cont_inv. destruct ord, multi; constructor. Qed.
  Lemma vinit_jgood t : forall ex, jsettled G J V ex t -> jgood G J [] ex t (vinit G t) (vinit G t).
  Proof.
    induction t using ty_ind'; intros ex S; cbn [vinit]; cbn [jsettled] in S; try contradiction; try (constructor; try assumption; try reflexivity; try apply jkzero; fail).
    - constructor. split; [intros []|cbn; unfold size_max; lia].
    - constructor. intros x [].
    - constructor; [apply S|apply jcont_nil|intros x []].
    - destruct S as (-> & _ & Hex & _). constructor; [exact Hex|apply jcont_nil|intros x []|intros k v []|intros _ _ a b []].
    - constructor; [apply IHt1|apply IHt2]; apply S.
    - destruct S as [Ne S]. constructor; [exact Ne|apply map_length|apply map_length|]. intros i t o x Et Eo Ex. rewrite nth_error_map, Et in Eo, Ex. cbn in Eo, Ex. injection Eo as <-. injection Ex as <-.
      rewrite Forall_forall in H. apply H; [eapply nth_error_In; exact Et|eapply item_settled; eassumption].
    - destruct S as (Ne & A). destruct ts as [|t ts]; [contradiction|]. inversion H as [|? ? Ht Hts]; subst.
      destruct A as [[->|A] _]; [eapply jg_var_mono; reflexivity|]. eapply jg_var; [reflexivity|reflexivity| |apply Ht; exact A]. intros ->. exact A.
    - destruct (SV _ _ S) as (rc & L & Hc & _ & _ & X). rewrite Hc. exact X.
    - constructor. apply S.
    - constructor. apply S.
  Qed.

  (** integers *)
  Lemma sp_get_int h k j : sp h (get_int k j) (fun z _ => in_range k z = true).
  Proof.
    assert (C : sp h (cast_double k j) (fun z _ => in_range k z = true)).
    { unfold cast_double. destruct (get_double j) as [d|]; [|apply sp_none; intros st; exact I]. destruct (f64_trunc d) as [z|]; [|apply sp_none; intros st; exact I].
      destruct (in_range k z) eqn:E; [apply sp_ret; exact E|apply sp_none; intros st; exact I]. }
    unfold get_int. destruct j as [ | |z| | | | ]; try exact C. destruct (in_range k z) eqn:E; [apply sp_ret; exact E|exact C].
  Qed.
  Lemma double_bound j d : docok j -> get_double j = Some d -> (d < 2 ^ 64)%N.
  Proof.
    intros [W _] E. apply ew_here in W. destruct j; try discriminate; cbn in E, W; injection E as <-; [apply f64_of_Z_bound; exact W|exact W].
  Qed.
  (** scalars: the result is the variable's value or does not depend on it *)
  Lemma scalar_pull f t h c j : is_scalar t = true -> docok j -> sp h (pull G J f t c j) (fun v h' => v = c \/ forall H ex o, jsettled G J V ex t -> jgood G J H ex t o v).
  Proof.
    intros Hs Hd. destruct f as [|f]; [apply sp_none; intros st; exact I|]. rewrite pull_S. destruct t; try discriminate; cbn [pull_body].
    - destruct j; try (apply sp_mismatch; left; reflexivity). apply sp_ret. right. intros. constructor.
    - destruct (json_kind k) eqn:Ek.
      + destruct (is_number j); [|apply sp_mismatch; left; reflexivity]. eapply sp_bind; [apply sp_get_int|]. intros z h' _ R. apply sp_ret. right. intros. constructor; [rewrite Ek; reflexivity|exact R].
      + destruct (byte_kind k) eqn:Eb; [|apply sp_none; intros st; exact I]. destruct (is_number j); [|apply sp_mismatch; left; reflexivity].
        eapply sp_bind; [apply sp_get_int|]. intros z h' _ R. apply sp_ret. right. intros. constructor; [rewrite Ek, Eb; reflexivity|apply wrap_range].
    - destruct (get_double j) as [d|] eqn:E; [|apply sp_mismatch; left; reflexivity]. apply sp_ret. right. intros. constructor; [apply f32_of_f64_bound; eapply double_bound; eassumption|apply f32_quiet].
    - destruct (get_double j) as [d|] eqn:E; [|apply sp_mismatch; left; reflexivity]. apply sp_ret. right. intros. constructor.
    - destruct j; try (apply sp_mismatch; left; reflexivity). destruct in_range; [|apply sp_mismatch; left; reflexivity]. apply sp_ret. right. intros. constructor. apply wrap_range.
  Qed.

  (** maps *)
  Lemma find_in ord k l v : map_find G ord TString k l = Some v -> exists k', In (VPair k' v) l.
  Proof.
    induction l as [|y l IH]; cbn [map_find]; [discriminate|]. destruct same_key; [|intros E; destruct (IH E) as [k' Hin]; exists k'; right; exact Hin].
    destruct y; try discriminate. intros [= <-]. eexists. left. reflexivity.
  Qed.
  Lemma put_in ord k x l y : In y (map_put G ord TString k x l) -> In y l \/ exists k' v', y = VPair k' x /\ In (VPair k' v') l.
  Proof.
    induction l as [|z l IH]; cbn [map_put]; [intros []|]. destruct same_key.
    - destruct z; intros [E|Hin]; try (left; right; exact Hin); try (left; left; exact E). right. eexists _, _. split; [symmetry; exact E|left; reflexivity].
    - intros [E|Hin]; [left; left; exact E|]. destruct (IH Hin) as [Q|(k' & v' & E & Q)]; [left; right; exact Q|right; exists k', v'; split; [exact E|right; exact Q]].
  Qed.
  Lemma put_keyof ord k x l : map (keyof true) (map_put G ord TString k x l) = map (keyof true) l.
  Proof. induction l as [|z l IH]; cbn [map_put]; [reflexivity|]. destruct same_key; [destruct z; reflexivity|]. cbn [map]. rewrite IH. reflexivity. Qed.
  Lemma keys_inv ord multi l a : map (keyof true) l = map (keyof true) a -> cont_inv G true ord multi TString a -> cont_inv G true ord multi TString l.
  Proof.
    assert (FP: forall (R : val -> val -> Prop) (l a : list val), map (keyof true) l = map (keyof true) a ->
               ForallOrdPairs (fun x y => R (keyof true x) (keyof true y)) a -> ForallOrdPairs (fun x y => R (keyof true x) (keyof true y)) l).
    { intros R l0 a0 E F. revert l0 E. induction F as [|y a1 Fy F IH]; intros [|z l0] E; try discriminate; [constructor|]. cbn [map] in E. injection E as E1 E2.
      constructor; [|apply IH; exact E2]. apply Forall_forall. intros w Hw. change (keyof true z = keyof true y) in E1; change (map (keyof true) l0 = map (keyof true) a1) in E2. rewrite E1.
      apply (in_map (keyof true)) in Hw. rewrite E2 in Hw. apply in_map_iff in Hw. destruct Hw as (w' & <- & Hw'). rewrite Forall_forall in Fy. auto. }
    intros KK H4. unfold cont_inv in *. destruct ord, multi;
      [apply (FP (fun x y => g_lt G TString y x = false) l a KK H4)|apply (FP (fun x y => g_lt G TString x y = true) l a KK H4)|exact I|apply (FP (fun x y => g_eq G TString x y = false) l a KK H4)].
  Qed.
  Definition mapok (H : heap) (ex ord multi : bool) (vt : ty) (l : list val) : Prop :=
    cont_inv G true ord multi TString l /\ (forall x, In x l -> exists k v, x = VPair (VStr k) v /\ json_string k)
    /\ (forall k v, In (VPair k v) l -> jgood G J H ex vt (vinit G vt) v).
  Lemma mapok_hext H H' ex ord multi vt l : hext H H' -> mapok H ex ord multi vt l -> mapok H' ex ord multi vt l.
  Proof. intros X (I1 & I2 & I3). split; [exact I1|]. split; [exact I2|]. intros k v Hin. eapply jgood_hext; [exact X|apply (I3 k v Hin)]. Qed.
  Lemma mapok_emplace H ex ord multi vt l k x : keys_ok G TString -> json_string k -> jgood G J H ex vt (vinit G vt) x -> mapok H ex ord multi vt l ->
    mapok H ex ord multi vt (fst (emplace G true ord multi TString (VPair (VStr k) x) l)).
  Proof.
    intros K Sk Gx (I1 & I2 & I3). split; [apply emplace_inv; assumption|]. split.
    - intros y Hy. apply emplace_in in Hy; [|exact HP]. destruct Hy as [->|Hy]; [exists k, x; split; [reflexivity|exact Sk]|apply I2; exact Hy].
    - intros k' v Hy. apply emplace_in in Hy; [|exact HP]. destruct Hy as [E|Hy]; [injection E as -> ->; exact Gx|eapply I3; exact Hy].
  Qed.
  Lemma mapok_put H ex ord multi vt l k x : jgood G J H ex vt (vinit G vt) x -> mapok H ex ord multi vt l -> mapok H ex ord multi vt (map_put G ord TString k x l).
  Proof.
    intros Gx (I1 & I2 & I3). split; [eapply keys_inv; [apply put_keyof|exact I1]|]. split.
    - intros y Hy. apply put_in in Hy. destruct Hy as [Hy|(k' & v' & -> & Hy)]; [apply I2; exact Hy|].
      destruct (I2 _ Hy) as (k0 & v0 & E & Sk). injection E as -> ->. exists k0, x. split; [reflexivity|exact Sk].
    - intros k' v Hy. apply put_in in Hy. destruct Hy as [Hy|(k0 & v' & E & Hy)]; [eapply I3; exact Hy|]. injection E as -> ->. exact Gx.
  Qed.
  Lemma mapok_jgood H ex ord multi vt l : (ex = true -> ord = true) -> (ord = true -> multi = true -> string_keys G true) -> mapok H ex ord multi vt l ->
    jgood G J H ex (TMap ord multi TString vt) (VList []) (VList l).
  Proof.
    intros Hex SK (I1 & I2 & I3). constructor; auto. intros -> -> a b Ha Hb. destruct (I2 _ Ha) as (ka & va & -> & _). destruct (I2 _ Hb) as (kb & vb & -> & _). cbn [keyof].
    intros E1 E2. f_equal. apply (SK eq_refl eq_refl). split; assumption.
  Qed.

  Definition alive (D : list N) (h : heap) : Prop := forall a, In a D -> hget h a <> None.
  Lemma alive_hext D h h' : hext h h' -> alive D h -> alive D h'.
  Proof. intros X A a Ha. specialize (A a Ha). destruct (hget h a) eqn:E; [|contradiction]. rewrite (X _ _ E). discriminate. Qed.

  (** new objects *)
  Lemma hext_fresh h a c : hget h a = None -> hext h (hset h a c).
  Proof. intros N b d E. rewrite hget_hset_other; [exact E|]. intros ->. congruence. Qed.
  Lemma sp_new h D t m : alive D h -> (forall h1, hext h h1 -> forall D1, alive D1 h1 -> sp h1 m (fun v h' => jgood G J (without D1 h') false t (vinit G t) v /\ nonnull v)) ->
    sp h (in_new G t m) (fun a h' => exists x, hget (without D h') a = Some (t, x) /\ nonnull x /\ jgood G J (without D h') false t (vinit G t) x).
  Proof.
    intros A Hm st Eh. unfold in_new. rewrite Eh. set (a := g_alloc G h). assert (Fa : hget h a = None).
    { pose proof (HA h) as F. fold a in F. destruct (hget h a) eqn:E; [|reflexivity]. exfalso. apply F. eapply alookup_some_key; [apply N.eqb_eq|exact E]. }
    assert (X1 := hext_fresh h a (t, vinit G t) Fa). set (h1 := hset h a (t, vinit G t)) in *.
    assert (A1 : alive (a :: D) h1). { intros b [<-|Hb]; [unfold h1; rewrite hget_hset_same; discriminate|]. eapply alive_hext; eassumption. }
    specialize (Hm h1 X1 (a :: D) A1 {| p_heap := h1; p_err := p_err st |} eq_refl). destruct (m _) as [x st'| | | |]; auto.
    destruct Hm as [[Gx Nx] X2]. cbn [p_heap].
    assert (Na : existsb (N.eqb a) D = false). { destruct (existsb (N.eqb a) D) eqn:E; [|reflexivity]. apply existsb_exists in E. destruct E as (b & Hb & E). apply N.eqb_eq in E. subst b. destruct (A a Hb Fa). }
    split.
    - exists x. split; [rewrite hget_without, Na, hget_hset_same; reflexivity|]. split; [exact Nx|]. eapply jgood_hext; [|exact Gx]. intros b d. rewrite !hget_without. cbn [existsb].
      destruct (N.eqb_spec b a) as [->|Hne]; [discriminate|]. cbn [orb]. destruct existsb; [discriminate|]. intros E. rewrite hget_hset_other; [exact E|congruence].
    - intros b d E. rewrite hget_hset_other; [apply X2, X1, E|]. intros ->. congruence.
  Qed.

  Definition RV (f : nat) : Prop := forall t o c j h D ex, jsettled G J V ex t -> docok j -> jgood G J (without D h) ex t o c -> alive D h ->
    sp h (pull G J f t c j) (fun v h' => jgood G J (without D h') ex t o v /\ (j <> JNull -> nonnull v)).
  Definition RC (f : nat) : Prop := forall c K rc Lq fs0 (oo : fkey -> val) ms D ex,
    members G rc_pull c K -> incl K Lq -> (forall fd, In fd Lq -> jsettled G J V ex (jf_ty fd)) ->
    (forall fd, In fd Lq -> lk (jf_key fd) (rc_layout rc) = Some (jf_ty fd)) -> docok (JObj ms) ->
    let P := fun fs h => map fst fs = map fst fs0 /\ (forall k, ~ In k (map jf_key Lq) -> lk k fs = lk k fs0)
      /\ (forall fd v, In fd Lq -> lk (jf_key fd) fs = Some v -> jgood G J (without D h) ex (jf_ty fd) (oo (jf_key fd)) v) in
    forall h fs, alive D h -> P fs h -> sp h (pull_cls G J f c fs ms) P.

  Lemma Forall2_left {A B} (R : A -> B -> Prop) l m x : Forall2 R l m -> In x l -> exists y, In y m /\ R x y.
  Proof. intros F. induction F as [|a b l m r F IH]; [intros []|]; intros [->|Hin]; [exists b; split; [left; reflexivity|exact r]|]. destruct (IH Hin) as (y & Hy & Ry). exists y. split; [right; exact Hy|exact Ry]. Qed.

  Lemma RC_step f : RV f -> RC f -> RC (Datatypes.S f).
  Proof.
    intros HV HC c K rc Lq fs0 oo ms D ex M0 Inc Set_ Lay Doc P h fs A HPf. rewrite pull_cls_S. unfold pull_cls_body. inversion M0 as [c' rc' p Ls Hc Hp F E1 E2]; subst. rewrite Hc, Hp.
    eapply sp_bind with (Q := P).
    - apply sp_fold; [|exact HPf]. intros fs1 b h1 Hb X P1. destruct (Forall2_left _ _ _ _ F Hb) as (Kb & HKb & Mb).
      apply (HC b Kb rc Lq fs0 oo ms D ex Mb); auto; [|eapply alive_hext; eassumption]. intros fd Hfd. apply Inc. apply in_or_app. left. apply in_concat. exists Kb. split; assumption.
    - intros fs1 h1 X1 P1. assert (Q : sp h1 (fold_m (fun os fd => pull_member (pull G J f) ms fd os) (jp_fields p) fs1) P).
      { apply sp_fold; [|exact P1]. intros fs2 fd h2 Hfd X2 P2. assert (Hq : In fd Lq) by (apply Inc; apply in_or_app; right; exact Hfd).
        unfold pull_member. destruct P2 as (P21 & P22 & P23). destruct (lk (jf_key fd) fs2) as [o|] eqn:Eo; [|apply sp_none; intros st; exact I].
        destruct (alookup bytes_eqb (jf_name fd) ms) as [j|] eqn:Ej; [|apply sp_ret; split; [exact P21|split; assumption]].
        assert (A2 : alive D h2) by exact (alive_hext D h h2 (hext_trans _ _ _ X1 X2) A).
        eapply sp_bind; [apply sp_member; apply (HV (jf_ty fd) (oo (jf_key fd)) o j h2 D ex); [apply Set_; exact Hq|eapply ok_lookup; eassumption|apply P23; assumption|exact A2]|].
        intros x h3 X3 [Gx _]. apply sp_ret. assert (Ik : In (jf_key fd) (map fst fs2)) by (eapply alookup_some_key; [apply fkey_eqb_eq|exact Eo]).
        split; [rewrite aupdate_keys; exact P21|]. split.
        - intros k Nk. rewrite alookup_aupdate_other; [apply P22; exact Nk|apply fkey_eqb_eq|]. intros ->. apply Nk. apply in_map. exact Hq.
        - intros fd' v Hfd' Ev. destruct (fkey_eq_dec (jf_key fd') (jf_key fd)) as [E|Ne].
          + rewrite E in Ev |- *. rewrite alookup_aupdate_same in Ev; [|apply fkey_eqb_eq|exact Ik]. injection Ev as <-.
            assert (Et : jf_ty fd' = jf_ty fd). { pose proof (Lay _ Hfd') as L1. rewrite E, (Lay _ Hq) in L1. congruence. } rewrite Et. exact Gx.
          + rewrite alookup_aupdate_other in Ev; [|apply fkey_eqb_eq|exact Ne]. eapply jgood_hext; [apply without_hext; exact X3|]. apply P23; assumption. }
      cbv zeta. destruct (jp_record p); [apply sp_record; exact Q|exact Q].
  Qed.

  Lemma nonnull_plain H ex t o v : match t with TOptional _ | TUnique _ | TShared _ | TView | TCStr => False | _ => True end -> jgood G J H ex t o v -> nonnull v.
  Proof. intros T g. destruct g; try contradiction; exact I. Qed.

  Ltac keep g := first [apply sp_mismatch | apply sp_report_ret]; split; [exact g|intros _; eapply nonnull_plain; [|exact g]; exact I].
  Lemma sp_tuple f (HV : RV f) ex D : forall ts os cs js h, length os = length ts -> length cs = length ts -> length js = length ts ->
    (forall i t, nth_error ts i = Some t -> jsettled G J V ex t) -> (forall j, In j js -> docok j) -> alive D h ->
    (forall i t o x, nth_error ts i = Some t -> nth_error os i = Some o -> nth_error cs i = Some x -> jgood G J (without D h) ex t o x) ->
    sp h (pull_tuple (pull G J f) ts cs js) (fun l h' => length l = length ts /\ forall i t o x, nth_error ts i = Some t -> nth_error os i = Some o -> nth_error l i = Some x -> jgood G J (without D h') ex t o x).
  Proof.
    induction ts as [|t ts IH]; intros [|o os] [|c cs] [|j js] h L1 L2 L3 Se Do A Go; try discriminate; cbn [pull_tuple].
    - apply sp_ret. split; [reflexivity|]. intros [|i]; discriminate.
    - eapply sp_bind; [apply (HV t o c j h D ex); [apply (Se 0); reflexivity|apply Do; left; reflexivity|apply (Go 0); reflexivity|exact A]|]. intros x h1 X1 [Gx _].
      eapply sp_bind; [apply (IH os cs js h1); [injection L1; auto|injection L2; auto|injection L3; auto|intros i; apply (Se (Datatypes.S i))|intros j' Hj; apply Do; right; exact Hj|eapply alive_hext; eassumption|]|].
      + intros i t' o' x' E1 E2 E3. eapply jgood_hext; [apply without_hext; exact X1|]. apply (Go (Datatypes.S i)); assumption.
      + intros l h2 X2 [Ll Gl]. apply sp_ret. split; [cbn; rewrite Ll; reflexivity|]. intros [|i] t' o' x' E1 E2 E3; cbn in E1, E2, E3.
        * injection E1 as <-. injection E2 as <-. injection E3 as <-. eapply jgood_hext; [apply without_hext; exact X2|exact Gx].
        * eapply Gl; eassumption.
  Qed.

  Lemma RV_step f : RV f -> RC f -> RV (Datatypes.S f).
  Proof.
    intros HV HC t o c j h D ex Se Do Go A.
    destruct (is_scalar t) eqn:Sc.
    { eapply sp_imp; [apply scalar_pull; assumption|]. cbn beta. intros v h' X [->|Gv].
      - split; [eapply jgood_hext; [apply without_hext; exact X|exact Go]|]. intros _. eapply nonnull_plain; [|exact Go]. destruct t; try discriminate; exact I.
      - assert (Q := Gv (without D h') ex o Se). split; [exact Q|]. intros _. eapply nonnull_plain; [|exact Q]. destruct t; try discriminate; exact I. }
    rewrite pull_S. destruct t as [|k| | |k| |t|ord multi t|ord multi kt vt|ta tb|ts|t|t|t|ts| |cl| | | |]; try discriminate; cbn [pull_body]; cbn [jsettled] in Se; try contradiction.
    - (* string *) destruct j as [ | | | |s| | ]; try (keep Go). apply sp_ret. split; [|intros _; exact I]. constructor. split; [apply cstr_nul_free|].
      destruct Do as [_ D2]. pose proof (ew_here _ _ D2) as B. cbv beta iota in B. pose proof (cstr_length s). apply (N.le_trans _ (N.of_nat (length s))); [lia|exact B].
    - (* sequence *) destruct j as [ | | | | |js| ]; try (keep Go). eapply sp_bind.
      + apply (sp_items _ (fun l h' => forall x, In x l -> jgood G J (without D h') ex t (vinit G t) x)); [|intros x []].
        intros l j h1 Hj X1 Hl. eapply sp_bind; [apply (HV t (vinit G t) (vinit G t) j h1 D ex Se); [eapply ok_item; eassumption|eapply jgood_hext; [apply hext_nil|apply vinit_jgood; exact Se]|eapply alive_hext; eassumption]|].
        intros x h2 X2 [Gx _]. apply sp_ret. intros y Hy. apply in_app_or in Hy. destruct Hy as [Hy|[<-|[]]]; [|exact Gx]. eapply jgood_hext; [apply without_hext; exact X2|auto].
      + cbn beta. intros l h1 X1 Hl. apply sp_ret. split; [constructor; exact Hl|intros _; exact I].
    - (* set *) destruct Se as (Hex & K & Se & Hd). destruct j as [ | | | | |js| ]; try (keep Go). eapply sp_bind.
      + apply (sp_items _ (fun l h' => cont_inv G false ord multi t l /\ forall x, In x l -> jgood G J (without D h') true t (dinit G t) x)); [|split; [apply jcont_nil|intros x []]].
        intros l j h1 Hj X1 [Il Hl]. assert (Dj : docok j) by (eapply ok_item; eassumption).
        eapply sp_bind with (Q := fun x h2 => x = VUndef \/ jgood G J (without D h2) true t (dinit G t) x).
        * destruct Hd as [Hs|Hd].
          -- eapply sp_imp; [apply scalar_pull; assumption|]. cbn beta. intros v h2 X2 [->|Gv]; [left; destruct t; try discriminate; reflexivity|right; apply Gv; exact Se].
          -- eapply sp_imp; [apply (HV t (dinit G t) (dinit G t) j h1 D true Se Dj); [eapply jgood_hext; [apply hext_nil|exact Hd]|eapply alive_hext; eassumption]|]. cbn beta. intros v h2 _ [Gv _]. right. exact Gv.
        * cbn beta. intros x h2 X2 Gx. destruct (is_undef x) eqn:U; [apply sp_none; intros st; exact I|]. destruct Gx as [->|Gx]; [discriminate|].
          destruct (emplace G false ord multi t x l) as [l' ins] eqn:Em.
          assert (R : cont_inv G false ord multi t l' /\ forall y, In y l' -> jgood G J (without D h2) true t (dinit G t) y).
          { assert (El : l' = fst (emplace G false ord multi t x l)) by (rewrite Em; reflexivity). subst l'. split; [apply emplace_inv; assumption|].
            intros y Hy. apply emplace_in in Hy; [|exact HP]. destruct Hy as [->|Hy]; [exact Gx|]. eapply jgood_hext; [apply without_hext; exact X2|auto]. }
          destruct (multi || ins); [apply sp_ret; exact R|]. eapply sp_bind; [apply (sp_unchecked h2 _ _ _ (fun _ h' => h' = h2)); reflexivity|]. intros _ h3 _ ->. apply sp_ret. exact R.
      + cbn beta. intros l h1 X1 [Il Hl]. apply sp_ret. split; [constructor; assumption|intros _; exact I].
    - (* map *) destruct Se as (-> & K & Hex & SK & Se). inversion Go as [ | | | | | | | | | | | |ex0 ord0 multi0 vt0 l0 Hx I1 I2 I3 I4| | | | | | | | | | | ]; subst.
      assert (M0 : mapok (without D h) ex ord multi vt l0) by (split; [exact I1|split; assumption]).
      assert (Fin : forall m, sp h m (fun l h' => mapok (without D h') ex ord multi vt l) ->
         sp h (let? l := m in ret (VList l)) (fun v h' => jgood G J (without D h') ex (TMap ord multi TString vt) (VList []) v /\ (j <> JNull -> nonnull v))).
      { intros m Hm. eapply sp_bind; [exact Hm|]. cbn beta. intros l h1 _ Ml. apply sp_ret. split; [apply mapok_jgood; assumption|intros _; exact I]. }
      assert (V0 : forall h1, jgood G J (without D h1) ex vt (vinit G vt) (vinit G vt)) by (intros h1; eapply jgood_hext; [apply hext_nil|apply vinit_jgood; exact Se]).
      destruct multi.
      + destruct j as [ | | | | | |ms]; try (keep Go). apply Fin. apply sp_fold; [|exact M0]. intros l [n j] h1 Hin X1 Ml. cbv zeta.
        assert (Ns : json_string (cstr n)) by (eapply name_string; eassumption). assert (Dj : docok j) by (eapply ok_member; eassumption). assert (A1 := alive_hext D h h1 X1 A).
        assert (One : forall j l h2, docok j -> hext h1 h2 -> mapok (without D h2) ex ord true vt l -> sp h2 (let? x := pull G J f vt (vinit G vt) j in ret (fst (emplace G true ord true TString (VPair (VStr (cstr n)) x) l)))
            (fun l h' => mapok (without D h') ex ord true vt l)).
        { intros j' l' h2 Dj' X2 Ml'. eapply sp_bind; [apply (HV vt (vinit G vt) (vinit G vt) j' h2 D ex Se Dj' (V0 h2)); eapply alive_hext; eassumption|]. intros x h3 X3 [Gx _]. apply sp_ret.
          apply mapok_emplace; try assumption. eapply mapok_hext; [apply without_hext; exact X3|exact Ml']. }
        destruct j as [ | | | | |js| ]; try (apply One; [exact Dj|apply hext_refl|exact Ml]).
        apply sp_fold; [|exact Ml]. intros l' j' h2 Hj' X2 Ml'. apply One; [eapply ok_item; eassumption|exact X2|exact Ml'].
      + destruct j as [ | | | | | |ms]; try (keep Go). apply Fin. apply sp_fold; [|exact M0]. intros l [n j] h1 Hin X1 Ml. cbv zeta.
        assert (Ns : json_string (cstr n)) by (eapply name_string; eassumption). assert (Dj : docok j) by (eapply ok_member; eassumption). assert (A1 := alive_hext D h h1 X1 A).
        destruct (map_find G ord TString (VPair (VStr (cstr n)) VUndef) l) as [v|] eqn:Ef.
        * destruct (find_in _ _ _ _ Ef) as [k' Hk]. eapply sp_bind; [apply (HV vt (vinit G vt) v j h1 D ex Se Dj); [apply (proj2 (proj2 Ml) _ _ Hk)|exact A1]|]. intros x h2 X2 [Gx _]. apply sp_ret.
          apply mapok_put; [exact Gx|]. eapply mapok_hext; [apply without_hext; exact X2|exact Ml].
        * eapply sp_bind; [apply (HV vt (vinit G vt) (vinit G vt) j h1 D ex Se Dj (V0 h1) A1)|]. intros x h2 X2 [Gx _]. apply sp_ret.
          apply mapok_emplace; try assumption. eapply mapok_hext; [apply without_hext; exact X2|exact Ml].
    - (* pair *) inversion Go as [ | | | | | | | | | | | | |ex0 ta0 tb0 oa ob a b Ga Gb| | | | | | | | | | ]; subst. destruct j as [ | | | | |js| ]; try (keep Go).
      destruct (length js =? 2); [|keep Go]. destruct js as [|ja [|jb js]]; cbn [nth_error]; try (apply sp_none; intros st; exact I).
      eapply sp_bind; [apply (HV ta oa a ja h D ex); [apply Se|eapply ok_item; [exact Do|left; reflexivity]|exact Ga|exact A]|]. intros x h1 X1 [Gx _].
      eapply sp_bind; [apply (HV tb ob b jb h1 D ex); [apply Se|eapply ok_item; [exact Do|right; left; reflexivity]|eapply jgood_hext; [apply without_hext; exact X1|exact Gb]|eapply alive_hext; eassumption]|].
      intros y h2 X2 [Gy _]. apply sp_ret. split; [|intros _; exact I]. constructor; [eapply jgood_hext; [apply without_hext; exact X2|exact Gx]|exact Gy].
    - (* tuple *) inversion Go as [ | | | | | | | | | | | | | |ex0 ts0 os l Ne Lo Ll Gl| | | | | | | | | ]; subst. destruct Se as [_ Se]. destruct ts as [|t0 ts]; [contradiction|]. cbv iota.
      destruct j as [ | | | | |js| ]; try (keep Go). destruct (length js =? length (t0 :: ts)) eqn:El; [|keep Go]. apply Nat.eqb_eq in El.
      eapply sp_bind; [apply (sp_tuple f HV ex D (t0 :: ts) os l js h Lo Ll El); [intros i t; apply item_settled; exact Se|intros j; apply ok_item; exact Do|exact A|exact Gl]|].
      cbn beta. intros l' h1 X1 [L1 G1]. apply sp_ret. split; [|intros _; exact I]. constructor; assumption.
    - (* unique *) assert (V0 : jgood G J (without D h) ex t (vinit G t) (vinit G t)) by (eapply jgood_hext; [apply hext_nil|apply vinit_jgood; exact Se]).
      destruct j; try (eapply sp_bind; [apply (HV t (vinit G t) (vinit G t) _ h D ex Se Do V0 A)|]; intros x h1 X1 [Gx Nx]; apply sp_ret; split; [apply jg_uni_some; [apply Nx; discriminate|exact Gx]|intros _; exact I]).
      apply sp_ret. split; [apply jg_uni_none|intros C; contradiction].
    - (* optional *) assert (V0 : jgood G J (without D h) ex t (vinit G t) (vinit G t)) by (eapply jgood_hext; [apply hext_nil|apply vinit_jgood; exact Se]).
      destruct j; try (eapply sp_bind; [apply (HV t (vinit G t) (vinit G t) _ h D ex Se Do V0 A)|]; intros x h1 X1 [Gx Nx]; apply sp_ret; split; [apply jg_opt_some; [apply Nx; discriminate|exact Gx]|intros _; exact I]).
      apply sp_ret. split; [apply jg_opt_none|intros C; contradiction].
    - (* shared *) destruct Se as [-> Se].
      assert (N : j <> JNull -> sp h (let? a := in_new G t (pull G J f t (vinit G t) j) in ret (VShared (Some a))) (fun v h' => jgood G J (without D h') false (TShared t) o v /\ (j <> JNull -> nonnull v))).
      { intros Nj. eapply sp_bind; [apply (sp_new h D t _ A)|].
        - intros h1 X1 D1 A1. eapply sp_imp; [apply (HV t (vinit G t) (vinit G t) j h1 D1 false Se Do); [eapply jgood_hext; [apply hext_nil|apply vinit_jgood; exact Se]|exact A1]|]. cbn beta. intros v h2 _ [Gv Nv]. split; [exact Gv|auto].
        - cbn beta. intros a h1 X1 (x & Ex & Nx & Gx). apply sp_ret. split; [|intros _; exact I]. eapply jg_shared_some; eassumption. }
      destruct j; try (apply N; discriminate). apply sp_ret. split; [apply jg_shared_none|intros C; contradiction].
    - (* variant *) destruct Se as [Ne Se]. destruct j as [ | | | | | |ms]; try (keep Go).
      destruct (alookup bytes_eqb (list_byte_of_string "index") ms) as [ji|] eqn:Ei; [|keep Go]. destruct (alookup bytes_eqb (list_byte_of_string "data") ms) as [jd|] eqn:Ed; [|keep Go].
      assert (Dd : docok jd) by (eapply ok_lookup; eassumption). destruct ji as [ | |z| | | | ]; try (keep Go). destruct (in_range KU64 z) eqn:Rz; [|keep Go].
      destruct (Z.to_N z <? N.of_nat (length ts))%N; [|keep Go]. destruct (nth_error ts (Z.to_nat z)) as [t|] eqn:Et; [|keep Go].
      assert (Rn : in_range KU64 (Z.of_nat (Z.to_nat z)) = true). { rewrite Z2Nat.id; [exact Rz|]. apply in_range_spec in Rz. unfold kmin in Rz. cbn in Rz. lia. }
      destruct (alt_settled ex ts _ t Se Et) as [->|St]; [apply sp_ret; split; [eapply jg_var_mono; eassumption|intros _; exact I]|].
      assert (Nm : t <> TMono) by (intros ->; exact St).
      assert (Q : sp h (let? x := pull G J f t (vinit G t) jd in ret (VVar (Z.to_nat z) x)) (fun v h' => jgood G J (without D h') ex (TVariant ts) o v /\ (JObj ms <> JNull -> nonnull v))).
      { eapply sp_bind; [apply (HV t (vinit G t) (vinit G t) jd h D ex St Dd); [eapply jgood_hext; [apply hext_nil|apply vinit_jgood; exact St]|exact A]|]. intros x h1 X1 [Gx _]. apply sp_ret. split; [|intros _; exact I]. eapply jg_var; eassumption. }
      destruct t; try exact Q. contradiction.
    - (* class *) inversion Go as [ | | | | | | | | | | | | | | | | | | | | | | |ex0 c0 rc os fs Lp Lq oo Hc Ho Hl Nf Mp Mq Np Nq Inc Ly Os Gf Un]; subst. destruct j as [ | | | | | |ms]; try (keep Go).
      destruct (SV _ _ Se) as (rc' & L & Hc' & ML & SL & _). assert (L = Lq) by (eapply members_fun; eassumption). subst L.
      eapply sp_bind; [apply (HC cl Lq rc Lq fs oo ms D ex Mq (incl_refl _) SL)|].
      + intros fd Hfd. apply Ly, Inc, Hfd.
      + exact Do.
      + exact A.
      + split; [reflexivity|]. split; [reflexivity|]. intros fd v Hfd Ev. apply Gf; [apply Inc; exact Hfd|exact Ev].
      + cbn beta. intros fs' h1 X1 (P1 & P2 & P3). apply sp_ret. split; [|intros _; exact I].
        eapply jg_struct with (rc := rc) (Lp := Lp) (Lq := Lq) (oo := oo); try assumption; try (rewrite P1; assumption).
        * intros fd v Hfd Ev. destruct (in_dec fkey_eq_dec (jf_key fd) (map jf_key Lq)) as [Hk|Hk].
          -- apply in_map_iff in Hk. destruct Hk as (fq & Ek & Hq). assert (Et : jf_ty fd = jf_ty fq). { pose proof (Ly _ Hfd) as Q. rewrite <- Ek, (Ly _ (Inc _ Hq)) in Q. congruence. }
             rewrite <- Ek in Ev |- *. rewrite Et. apply P3; assumption.
          -- rewrite (P2 _ Hk) in Ev. eapply jgood_hext; [apply without_hext; exact X1|]. apply Gf; assumption.
        * intros k v Hk Ev. rewrite (P2 _ Hk) in Ev. apply Un; assumption.
    - (* date *) eapply sp_bind with (Q := fun _ h1 => hext h h1).
      + destruct j; try (eapply sp_bind; [apply (sp_mismatch h _ _ _ (fun _ h1 => h1 = h)); reflexivity|]; intros _ h1 _ ->; apply sp_ret; apply hext_refl). apply sp_ret. apply hext_refl.
      + cbn beta. intros s h1 X1 _. destruct (je_dt_parse J s) as [z|] eqn:Ez; [apply sp_ret; split; [constructor; apply (proj2 Se s z Ez)|intros _; exact I]|].
        assert (Go1 : jgood G J (without D h1) ex TDateTime o c) by (eapply jgood_hext; [apply without_hext; exact X1|exact Go]). keep Go1.
    - eapply sp_bind with (Q := fun _ h1 => hext h h1).
      + destruct j; try (eapply sp_bind; [apply (sp_mismatch h _ _ _ (fun _ h1 => h1 = h)); reflexivity|]; intros _ h1 _ ->; apply sp_ret; apply hext_refl). apply sp_ret. apply hext_refl.
      + cbn beta. intros s h1 X1 _. destruct (je_ts_parse J s) as [z|] eqn:Ez; [apply sp_ret; split; [constructor; apply (proj2 Se s z Ez)|intros _; exact I]|].
        assert (Go1 : jgood G J (without D h1) ex TTimeSpan o c) by (eapply jgood_hext; [apply without_hext; exact X1|exact Go]). keep Go1.
  Qed.

  Lemma all_settled f : RV f /\ RC f.
  Proof.
    induction f as [|f [HV HC]].
    - split; [intros t o c j h D ex _ _ _ _|intros c K rc Lq fs0 oo ms D ex _ _ _ _ _ P h fs _ _]; apply sp_none; intros st; exact I.
    - split; [apply RV_step; assumption|apply RC_step; assumption].
  Qed.
  Lemma pulled_good f t o c j ex st v st' : jsettled G J V ex t -> docok j -> jgood G J (p_heap st) ex t o c -> pull G J f t c j st = POk v st' ->
    jgood G J (p_heap st') ex t o v /\ hext (p_heap st) (p_heap st') /\ (j <> JNull -> nonnull v).
  Proof.
    intros Se Do Go E.
    assert (W : forall h, hext (without [] h) h /\ hext h (without [] h)) by (intros h; split; intros a d; rewrite hget_without; cbn; auto).
    pose proof (proj1 (all_settled f) t o c j (p_heap st) [] ex Se Do (jgood_hext _ _ _ _ _ _ _ _ (proj2 (W _)) Go) (fun a H => match H with end) st eq_refl) as Q.
    rewrite E in Q. destruct Q as [[Q1 Q2] Q3]. split; [eapply jgood_hext; [apply (W (p_heap st'))|exact Q1]|]. split; assumption.
  Qed.
End Pull.
