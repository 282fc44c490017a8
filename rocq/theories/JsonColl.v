(** JsonColl.v -- arrays, sets, maps, multimaps, tuples and pairs (C29, C30, C31, C46) *)
From Coq Require Import String List NArith ZArith Bool Lia Permutation.
From Verif Require Import Base BaseFacts Types TypesFacts BinModel BinSpec BinSafeSpec BinSafe BinFacts ContFacts Float FloatFacts JsonModel JsonRel JsonErr JsonSpec
  JsonRoundTrip JsonSafeSpec JsonFit JsonFacts.
Import ListNotations.
Local Open Scope list_scope.
Local Open Scope nat_scope.

(** what holds after a loop over an array *)
Lemma items_inv {A} (s : A -> json -> M A) (P : list json -> pst -> A -> Prop) js : forall i0,
  (forall a st i st', P js st a -> set_index i st = POk tt st' -> P js st' a) ->
  (forall done j rest a st st1 a' st', js = done ++ j :: rest -> P done st a ->
     set_index (Some (i0 + N.of_nat (length done))%N) st = POk tt st1 -> s a j st1 = POk a' st' -> P (done ++ [j]) st' a') ->
  forall a st a' st', P [] st a -> pull_items s i0 js a st = POk a' st' -> P js st' a'.
Proof.
  intros i0 Hend Hs. assert (Q: forall rest done, js = done ++ rest -> forall a st a' st', P done st a ->
    pull_items s (i0 + N.of_nat (length done))%N rest a st = POk a' st' -> P js st' a').
  { induction rest as [|j rest IH]; intros done E a st a' st' Ha; cbn [pull_items]; unfold bind.
    - rewrite app_nil_r in E. subst done. destruct (set_index None st) as [u st1| | | |] eqn:E1; try discriminate.
      destruct u. intros X; inversion X; subst. eapply Hend; eauto.
    - destruct (set_index _ st) as [u st1| | | |] eqn:E1; try discriminate. destruct u.
      destruct (s a j st1) as [a1 st2| | | |] eqn:E2; try discriminate. intros X.
      assert (Hn := Hs done j rest a st st1 a1 st2 E Ha E1 E2).
      apply (IH (done ++ [j])) with (a := a1) (st := st2); [rewrite <- app_assoc; exact E|exact Hn|].
      rewrite app_length. cbn [length]. replace (i0 + N.of_nat (length done + 1))%N with (i0 + N.of_nat (length done) + 1)%N by lia. exact X. }
  intros a st a' st' Ha E. apply (Q js [] eq_refl a st a' st' Ha). cbn [length N.of_nat]. rewrite N.add_0_r. exact E.
Qed.

(** [item_pulled … i j x]: [x] has been pulled from [j] while the index of the error context was [i] *)
Definition item_pulled (G : genv) (J : jenv) (t : ty) (init : val) (i : nat) (j : json) (x : val) : Prop :=
  exists f st1 st2, pull G J f t init j st1 = POk x st2 /\ forall e, p_err st1 = Some e -> es_index e = Some (N.of_nat i).
Definition items_pulled (G : genv) (J : jenv) (t : ty) (init : val) (js : list json) (xs : list val) : Prop :=
  length xs = length js /\ forall i j x, nth_error js i = Some j -> nth_error xs i = Some x -> item_pulled G J t init i j x.

Lemma items_snoc G J t init js xs j x : items_pulled G J t init js xs -> item_pulled G J t init (length js) j x -> items_pulled G J t init (js ++ [j]) (xs ++ [x]).
Proof.
  intros [L H] Hx. split; [rewrite !app_length, L; reflexivity|]. intros i j' x' E1 E2.
  destruct (Nat.lt_ge_cases i (length js)) as [Hi|Hi].
  - rewrite nth_error_app1 in E1 by exact Hi. rewrite nth_error_app1 in E2 by lia. eauto.
  - rewrite nth_error_app2 in E1 by exact Hi. rewrite nth_error_app2 in E2 by lia. rewrite L in E2.
    destruct (i - length js) as [|m] eqn:Em; [|destruct m; discriminate]. cbn in E1, E2. inversion E1; inversion E2; subst.
    replace i with (length js) by lia. exact Hx.
Qed.
Lemma items_nil G J t init : items_pulled G J t init [] [].
Proof. split; [reflexivity|]. intros [|i] j x E; discriminate. Qed.
Lemma index_set i st st' : set_index i st = POk tt st' -> forall e, p_err st' = Some e -> es_index e = i.
Proof. destruct st as [h [e0|]]; cbn; intros E e He; inversion E; subst; cbn in He; [inversion He; reflexivity|discriminate]. Qed.

Lemma seq_items G J t old js f st v st' : pull G J f (TSeq t) old (JArr js) st = POk v st' ->
  exists l, v = VList l /\ items_pulled G J t (vinit G t) js l.
Proof.
  intros E. destruct f as [|f]; [discriminate|]. rewrite pull_S in E. cbn [pull_body] in E. unfold bind at 1 in E.
  destruct (pull_items _ 0 js [] st) as [l st1| | | |] eqn:E1; try discriminate. inversion E; subst. exists l. split; [reflexivity|].
  refine (items_inv _ (fun done _ l => items_pulled G J t (vinit G t) done l) js 0%N _ _ _ _ _ _ (items_nil _ _ _ _) E1); [auto|].
  intros done j rest a s s1 a' s' Ej Ha Ei Es. unfold bind in Es. destruct (pull G J f t (vinit G t) j s1) as [x s2| | | |] eqn:Ex; try discriminate.
  inversion Es; subst. apply items_snoc; [exact Ha|]. exists f, s1, s'. split; [exact Ex|]. intros e He. exact (index_set _ _ _ Ei e He).
Qed.
Lemma seq_old G J t old old' js f st : pull G J f (TSeq t) old (JArr js) st = pull G J f (TSeq t) old' (JArr js) st.
Proof. destruct f; reflexivity. Qed.
Lemma set_old G J ord multi t old old' js f st : pull G J f (TSet ord multi t) old (JArr js) st = pull G J f (TSet ord multi t) old' (JArr js) st.
Proof. destruct f; reflexivity. Qed.

(** multisets *)
Lemma multiset_items G J ord t old js f st v st' : place_ok G -> pull G J f (TSet ord true t) old (JArr js) st = POk v st' ->
  exists l xs, v = VList l /\ items_pulled G J t (dinit G t) js xs /\ Permutation xs l /\ (forall x, In x xs -> is_undef x = false)
    /\ (keys_ok G t -> cont_inv G false ord true t l).
Proof.
  intros HP E. destruct f as [|f]; [discriminate|]. rewrite pull_S in E. cbn [pull_body] in E. unfold bind at 1 in E.
  destruct (pull_items _ 0 js [] st) as [l st1| | | |] eqn:E1; try discriminate. inversion E; subst. exists l.
  assert (Q: exists xs, items_pulled G J t (dinit G t) js xs /\ Permutation xs l /\ (forall x, In x xs -> is_undef x = false) /\ (keys_ok G t -> cont_inv G false ord true t l)).
  { refine (items_inv _ (fun done _ l => exists xs, items_pulled G J t (dinit G t) done xs /\ Permutation xs l /\ (forall x, In x xs -> is_undef x = false) /\ (keys_ok G t -> cont_inv G false ord true t l)) js 0%N _ _ _ _ _ _ _ E1).
    - auto.
    - intros done j rest a s s1 a' s' Ej (xs & Ha & Hp & Hu & Hi) Ei Es. unfold bind in Es.
      destruct (pull G J f t (dinit G t) j s1) as [x s2| | | |] eqn:Ex; try discriminate. destruct (is_undef x) eqn:Eu; [discriminate|].
      destruct (emplace G false ord true t x a) as [l' b] eqn:Ee. cbn [orb] in Es. inversion Es; subst.
      exists (xs ++ [x]). split; [apply items_snoc; [exact Ha|]; exists f, s1, s'; split; [exact Ex|intros e He; exact (index_set _ _ _ Ei e He)]|].
      assert (El: a' = fst (emplace G false ord true t x a)) by (rewrite Ee; reflexivity).
      split; [|split].
      + rewrite El. destruct (emplace_cases G false ord true t x a HP) as [[_ Pp]|[_ [_ C]]]; [|discriminate].
        etransitivity; [apply Permutation_app_comm|]. cbn [app]. etransitivity; [|exact Pp]. constructor; exact Hp.
      + intros y Hy. apply in_app_or in Hy. destruct Hy as [Hy|[<-|[]]]; auto.
      + intros HK. rewrite El. apply emplace_inv; auto.
    - exists []. split; [apply items_nil|]. split; [constructor|]. split; [intros x []|]. intros _. unfold cont_inv. destruct ord; [constructor|exact I]. }
  destruct Q as (xs & Q1 & Q2 & Q3 & Q4). exists xs. auto.
Qed.

(** sets *)
Lemma ins_uniq_fresh {A} (lt : A -> A -> bool) x : (forall a b c, lt a b = true -> lt b c = true -> lt a c = true) ->
  forall l, ForallOrdPairs (fun a b => lt a b = true) l -> snd (ins_uniq lt x l) = true -> forall y, In y l -> lt y x = true \/ lt x y = true.
Proof.
  intros Tr. induction l as [|z l IH]; intros S E y Hy; [destruct Hy|]. inversion S as [|z' l' Fz Sl]; subst. cbn in E.
  destruct (lt z x) eqn:E1.
  - destruct (ins_uniq lt x l) as [r b] eqn:Er. cbn in E, IH. destruct Hy as [<-|Hy]; [auto|]. apply IH; auto.
  - destruct (lt x z) eqn:E2; cbn in E; [|discriminate]. destruct Hy as [<-|Hy]; [auto|]. right. rewrite Forall_forall in Fz. eapply Tr; [exact E2|apply Fz, Hy].
Qed.
Lemma emplace_fresh G ord t x l : keys_ok G t -> cont_inv G false ord false t l ->
  snd (emplace G false ord false t x l) = true -> forall y, In y l -> ~ key_equiv G ord t y x.
Proof.
  intros HK I E y Hy. unfold key_equiv. unfold emplace in E. destruct ord; cbn [cont_inv] in I.
  - destruct (ins_uniq_fresh (fun a b => g_lt G t (keyof false a) (keyof false b)) x (fun a b c => ko_trans _ _ HK _ _ _) l I E y Hy) as [C|C];
      cbn [keyof] in C; intros [C1 C2]; congruence.
  - destruct (existsb (fun y => g_eq G t (keyof false y) (keyof false x)) l) eqn:Ex; cbn in E; [discriminate|].
    intros C. assert (existsb (fun y => g_eq G t (keyof false y) (keyof false x)) l = true) by (apply existsb_exists; exists y; auto). congruence.
Qed.

Lemma set_run_snoc G ord t : forall i l xs l' I, set_run G ord t i l xs l' I ->
  forall x, ((forall y, In y l' -> ~ key_equiv G ord t y x) -> forall l2, Permutation (x :: l') l2 -> set_run G ord t i l (xs ++ [x]) l2 I)
         /\ (forall y, In y l' -> key_equiv G ord t y x -> set_run G ord t i l (xs ++ [x]) l' (I ++ [i + N.of_nat (length xs)])%N).
Proof.
  induction 1 as [i l|i l x xs l1 l' I Hn Hp Hr IH|i l x xs l' I y Hy He Hr IH]; intros z; split.
  - intros Hz l2 P. cbn [app]. eapply sr_new; [exact Hz|exact P|constructor].
  - intros y Hy He. cbn [app length N.of_nat]. rewrite N.add_0_r. eapply sr_dup; [exact Hy|exact He|constructor].
  - intros Hz l2 P. cbn [app]. eapply sr_new; [exact Hn|exact Hp|]. apply (proj1 (IH z)); assumption.
  - intros y Hy He. cbn [app length]. eapply sr_new; [exact Hn|exact Hp|].
    replace (i + N.of_nat (S (length xs)))%N with (i + 1 + N.of_nat (length xs))%N by lia. apply (proj2 (IH z) y); assumption.
  - intros Hz l2 P. cbn [app]. eapply sr_dup; [exact Hy|exact He|]. apply (proj1 (IH z)); assumption.
  - intros y' Hy' He'. cbn [app length]. eapply sr_dup; [exact Hy|exact He|].
    replace (i + N.of_nat (S (length xs)))%N with (i + 1 + N.of_nat (length xs))%N by lia. apply (proj2 (IH z) y'); assumption.
Qed.

(** the duplicates reported for the items [I] in the context of [e] *)
Definition duplicates_of (e : est) (I : list N) (new : list jerror) : Prop :=
  Forall2 (fun i x => e_kind x = UnexpectedDuplicate /\ e_record x = es_record e /\ e_member x = es_member e /\ (e_index x = Some i \/ e_index x = None)) I new.
(** the error list after inserting the items except [I], if pulling the items does not report anything *)
Definition duplicates_reported (er er' : option est) (I : list N) : Prop :=
  match er, er' with
  | None, None => I = []
  | Some e, Some e' => es_record e' = es_record e /\ es_member e' = es_member e /\ es_throw e' = es_throw e
       /\ exists new, es_errs e' = es_errs e ++ new /\ duplicates_of e I new
  | _, _ => False
  end.

Lemma set_items G J ord t old js f st v st' : place_ok G -> keys_ok G t -> pull G J f (TSet ord false t) old (JArr js) st = POk v st' ->
  exists l xs I, v = VList l /\ items_pulled G J t (dinit G t) js xs /\ set_run G ord t 0 [] xs l I
    /\ cont_inv G false ord false t l
    /\ ((forall j, In j js -> conforms G J t j) -> duplicates_reported (p_err st) (p_err st') I).
Proof.
  intros HP HK E. destruct f as [|f]; [discriminate|]. rewrite pull_S in E. cbn [pull_body] in E. unfold bind at 1 in E.
  destruct (pull_items _ 0 js [] st) as [l st1| | | |] eqn:E1; try discriminate. inversion E; subst. exists l.
  set (P := fun (done : list json) (s : pst) (l : list val) => exists xs I, items_pulled G J t (dinit G t) done xs /\ set_run G ord t 0 [] xs l I /\ cont_inv G false ord false t l
     /\ ((forall j, In j js -> conforms G J t j) -> duplicates_reported (p_err st) (p_err s) I)).
  assert (Q: P js st' l).
  { refine (items_inv _ P js 0%N _ _ _ _ _ _ _ E1).
    - intros a s i s' (xs & I & H1 & H2 & H3 & H4) Ei. exists xs, I. split; [exact H1|]. split; [exact H2|]. split; [exact H3|]. intros HC. specialize (H4 HC).
      unfold duplicates_reported in *. destruct s as [h [e|]]; inversion Ei; subst; cbn in *; destruct (p_err st); auto.
    - intros done j rest a s s1 a' s' Ej (xs & I & H1 & H2 & H3 & H4) Ei Es. unfold bind in Es.
      destruct (pull G J f t (dinit G t) j s1) as [x s2| | | |] eqn:Ex; try discriminate. destruct (is_undef x) eqn:Eu; [discriminate|].
      assert (Hx: item_pulled G J t (dinit G t) (length done) j x) by (exists f, s1, s2; split; [exact Ex|intros e He; exact (index_set _ _ _ Ei e He)]).
      assert (Hs: (forall j, In j js -> conforms G J t j) -> duplicates_reported (p_err st) (p_err s2) I /\
                  (forall e, p_err s2 = Some e -> es_index e = Some (N.of_nat (length done)) \/ es_index e = None)).
      { intros HC. specialize (H4 HC). assert (Hj: In j js) by (rewrite Ej; apply in_or_app; right; left; reflexivity).
        assert (C := conforms_calm G J HP t j (HC j Hj) f (dinit G t) s1). assert (X := pull_ctx G J f t (dinit G t) j s1). rewrite Ex in C, X.
        assert (Ix := index_set _ _ _ Ei).
        destruct s as [h [e|]]; inversion Ei; subst s1; cbn [p_err option_map] in *; destruct s2 as [h2 [e2|]]; cbn [p_err] in *; try contradiction;
          unfold duplicates_reported in *; cbn [p_err] in *.
        - unfold noerr in C. unfold ctx_ok in X. cbn [p_err] in X. cbn in X. destruct X as (X1 & X2 & X3 & X4 & _).
          destruct (p_err st) as [e0|]; [|contradiction]. destruct H4 as (K1 & K2 & K3 & new & K4 & K5). split.
          + cbn in C. rewrite X1, X2, X3. split; [exact K1|]. split; [exact K2|]. split; [exact K3|]. exists new. rewrite C. split; [exact K4|exact K5].
          + intros e' He'. inversion He'; subst e'. exact X4.
        - split; [exact H4|discriminate]. }
      destruct (emplace G false ord false t x a) as [l' b] eqn:Ee. cbn [orb] in Es.
      assert (El: l' = fst (emplace G false ord false t x a)) by (rewrite Ee; reflexivity).
      assert (Hi: cont_inv G false ord false t l') by (rewrite El; apply emplace_inv; assumption).
      destruct b.
      + inversion Es; subst. exists (xs ++ [x]), I. split; [apply items_snoc; assumption|]. split.
        { apply (proj1 (set_run_snoc _ _ _ _ _ _ _ _ H2 x)).
          - apply (emplace_fresh G ord t x a HK H3). rewrite Ee. reflexivity.
          - destruct (emplace_cases G false ord false t x a HP) as [[_ Pp]|[C _]]; [exact Pp|rewrite Ee in C; discriminate]. }
        split; [exact Hi|]. intros HC. apply Hs; exact HC.
      + assert (Er: snd (emplace G false ord false t x a) = false) by (rewrite Ee; reflexivity).
        destruct (emplace_rejected _ _ _ _ _ _ _ Er) as (_ & Ea & y & Hy & Ky). cbn [keyof] in Ky. rewrite Ee in Ea. cbn [fst] in Ea. subst l'.
        destruct (report_unchecked UnexpectedDuplicate JTArray JTArray s2) as [u s3| | | |] eqn:Erep; try discriminate. inversion Es; subst a' s3.
        exists (xs ++ [x]), (I ++ [N.of_nat (length done)]). split; [apply items_snoc; assumption|]. split.
        { assert (R := proj2 (set_run_snoc _ _ _ _ _ _ _ _ H2 x) y Hy Ky). destruct H1 as [L1 _]. rewrite N.add_0_l, L1 in R. rewrite Ea. exact R. }
        split; [exact Hi|]. intros HC. destruct (Hs HC) as [D Dx]. unfold report_unchecked in Erep.
        unfold duplicates_reported in *. destruct (p_err s2) as [e2|]; [|discriminate]. destruct (p_err st) as [e0|]; [|contradiction].
        unfold emplace_error in Erep. destruct (N.eqb _ _) in Erep; inversion Erep; subst. cbn [p_err].
        destruct D as (K1 & K2 & K3 & new & K4 & K5). cbn. split; [exact K1|]. split; [exact K2|]. split; [exact K3|].
        eexists. split; [rewrite K4, <- app_assoc; reflexivity|]. apply Forall2_app; [exact K5|]. constructor; [|constructor]. cbn. auto.
    - exists [], []. split; [apply items_nil|]. split; [constructor|]. split; [unfold cont_inv; destruct ord; constructor|].
      intros _. unfold duplicates_reported. destruct (p_err st); [|reflexivity]. split; [reflexivity|]. split; [reflexivity|]. split; [reflexivity|].
      exists []. split; [symmetry; apply app_nil_r|constructor]. }
  destruct Q as (xs & I & Q1 & Q2 & Q3 & Q4). exists xs, I. auto.
Qed.

(* ------------------------------------------------------------------ *)
(** * Maps *)

Lemma fold_m_inv {A B} (s : A -> B -> M A) (P : list B -> A -> Prop) l :
  (forall done b rest a st a' st', l = done ++ b :: rest -> P done a -> s a b st = POk a' st' -> P (done ++ [b]) a') ->
  forall a st a' st', P [] a -> fold_m s l a st = POk a' st' -> P l a'.
Proof.
  intros Hs. assert (Q: forall rest done, l = done ++ rest -> forall a st a' st', P done a -> fold_m s rest a st = POk a' st' -> P l a').
  { induction rest as [|b rest IH]; intros done E a st a' st' Ha; cbn [fold_m]; unfold bind.
    - rewrite app_nil_r in E. subst. intros X; inversion X; subst; exact Ha.
    - destruct (s a b st) as [a1 st1| | | |] eqn:E1; try discriminate. intros X.
      refine (IH (done ++ [b]) _ a1 st1 a' st' _ X); [rewrite <- app_assoc; exact E|exact (Hs done b rest a st a1 st1 E Ha E1)]. }
  intros a st a' st' Ha E. exact (Q l [] eq_refl a st a' st' Ha E).
Qed.

Section Maps.
  Variables (G : genv) (ord : bool).
  Hypothesis HP : place_ok G.
  Hypothesis SK : string_keys G ord.

  Lemma same_key_eq k v k' v' : same_key G ord TString (VPair (VStr k) v) (VPair (VStr k') v') = bytes_eqb k k'.
  Proof.
    assert (S := SK k k'). unfold same_key, key_equiv in *. cbn [keyof] in *.
    destruct (bytes_eqb k k') eqn:E.
    - apply bytes_eqb_eq in E. destruct S as [_ S]. specialize (S E). destruct ord; [destruct S as [-> ->]; reflexivity|exact S].
    - assert (k <> k') by (intros C; apply bytes_eqb_eq in C; congruence). destruct S as [S _].
      destruct ord.
      + destruct (g_lt G TString (VStr k) (VStr k')), (g_lt G TString (VStr k') (VStr k)); try reflexivity. exfalso; auto.
      + destruct (g_eq G TString (VStr k) (VStr k')); [exfalso; auto|reflexivity].
  Qed.
  Lemma shape_cons x l : map_shape (x :: l) -> (exists k v, x = VPair (VStr k) v) /\ map_shape l.
  Proof. intros H. split; [apply H; left; reflexivity|intros y Hy; apply H; right; exact Hy]. Qed.
  Lemma find_get s u l : map_shape l -> map_find G ord TString (VPair (VStr s) u) l = map_get s l.
  Proof.
    induction l as [|x l IH]; intros HS; [reflexivity|]. destruct (shape_cons _ _ HS) as [(k & v & ->) HS'].
    cbn [map_find map_get]. rewrite same_key_eq. destruct (bytes_eqb k s); auto.
  Qed.
  Lemma put_shape s u x l : map_shape l -> map_shape (map_put G ord TString (VPair (VStr s) u) x l).
  Proof.
    induction l as [|y l IH]; intros HS; [exact HS|]. destruct (shape_cons _ _ HS) as [(k & v & ->) HS'].
    cbn [map_put]. rewrite same_key_eq. destruct (bytes_eqb k s); intros z [<-|Hz]; eauto. apply IH; auto.
  Qed.
  Lemma put_keys s u x l : map_shape l -> map_keys (map_put G ord TString (VPair (VStr s) u) x l) = map_keys l.
  Proof.
    induction l as [|y l IH]; intros HS; [reflexivity|]. destruct (shape_cons _ _ HS) as [(k & v & ->) HS'].
    cbn [map_put]. rewrite same_key_eq. destruct (bytes_eqb k s); cbn; [reflexivity|]. f_equal. apply IH; exact HS'.
  Qed.
  Lemma put_get s u x l s' : map_shape l -> map_get s' (map_put G ord TString (VPair (VStr s) u) x l)
     = if bytes_eqb s s' then match map_get s l with Some _ => Some x | None => None end else map_get s' l.
  Proof.
    induction l as [|y l IH]; intros HS; [cbn; destruct bytes_eqb; reflexivity|]. destruct (shape_cons _ _ HS) as [(k & v & ->) HS'].
    cbn [map_put map_get]. rewrite same_key_eq. destruct (bytes_eqb k s) eqn:E1.
    - apply bytes_eqb_eq in E1. subst k. cbn [map_get]. destruct (bytes_eqb s s') eqn:E2; reflexivity.
    - cbn [map_get]. rewrite IH by exact HS'. destruct (bytes_eqb s s') eqn:E2; [|reflexivity].
      apply bytes_eqb_eq in E2. subst s'. rewrite E1. reflexivity.
  Qed.
  Lemma get_in s l : map_shape l -> (map_get s l <> None <-> In s (map_keys l)).
  Proof.
    induction l as [|x l IH]; intros HS; [cbn; tauto|]. destruct (shape_cons _ _ HS) as [(k & v & ->) HS'].
    cbn [map_get map_keys flat_map app]. destruct (bytes_eqb k s) eqn:E.
    - apply bytes_eqb_eq in E. subst. split; [left; reflexivity|discriminate].
    - rewrite (IH HS'). cbn. split; [auto|]. intros [->|H]; [|exact H]. exfalso. assert (bytes_eqb s s = true) by (apply bytes_eqb_eq; reflexivity). congruence.
  Qed.
  Lemma keys_perm l l' : Permutation l l' -> Permutation (map_keys l) (map_keys l').
  Proof.
    induction 1 as [|x l l' P IH|x y l|l1 l2 l3 P1 IH1 P2 IH2]; [constructor| | |etransitivity; eauto].
    - unfold map_keys in *. cbn. apply Permutation_app_head. exact IH.
    - unfold map_keys. cbn. rewrite !app_assoc. apply Permutation_app_tail. apply Permutation_app_comm.
  Qed.
  Lemma get_val s v l : map_shape l -> NoDup (map_keys l) -> In (VPair (VStr s) v) l -> map_get s l = Some v.
  Proof.
    induction l as [|x l IH]; intros HS ND Hin; [destruct Hin|]. destruct (shape_cons _ _ HS) as [(k & v0 & ->) HS'].
    cbn in ND. inversion ND as [|k0 l0 Hk ND']; subst. cbn [map_get]. destruct Hin as [E|Hin].
    - inversion E; subst. assert (bytes_eqb s s = true) as -> by (apply bytes_eqb_eq; reflexivity). reflexivity.
    - destruct (bytes_eqb k s) eqn:E; [|auto]. apply bytes_eqb_eq in E. subst. exfalso. apply Hk. apply get_in; [exact HS'|]. rewrite IH; auto. discriminate.
  Qed.
  Lemma get_some s v l : map_shape l -> map_get s l = Some v -> In (VPair (VStr s) v) l.
  Proof.
    induction l as [|x l IH]; intros HS E; [discriminate|]. destruct (shape_cons _ _ HS) as [(k & v0 & ->) HS'].
    cbn [map_get] in E. destruct (bytes_eqb k s) eqn:Ek; [apply bytes_eqb_eq in Ek; inversion E; subst; left; reflexivity|right; auto].
  Qed.
  Lemma get_perm s l l' : map_shape l -> NoDup (map_keys l) -> Permutation l l' -> map_get s l' = map_get s l.
  Proof.
    intros HS ND P. assert (HS': map_shape l') by (intros x Hx; apply HS; eapply Permutation_in; [symmetry; exact P|exact Hx]).
    assert (ND': NoDup (map_keys l')) by (eapply Permutation_NoDup; [apply keys_perm; exact P|exact ND]).
    destruct (map_get s l) as [v|] eqn:E.
    - apply get_val; auto. eapply Permutation_in; [exact P|]. apply get_some; auto.
    - destruct (map_get s l') as [v|] eqn:E'; [|reflexivity]. exfalso. apply get_some in E'; [|exact HS'].
      rewrite (get_val s v l) in E; [discriminate|exact HS|exact ND|]. eapply Permutation_in; [symmetry; exact P|exact E'].
  Qed.
  Lemma emplace_new s x l : map_shape l -> map_get s l = None ->
    Permutation (VPair (VStr s) x :: l) (fst (emplace G true ord false TString (VPair (VStr s) x) l)).
  Proof.
    intros HS HN. destruct (emplace_cases G true ord false TString (VPair (VStr s) x) l HP) as [[_ P]|[Es _]]; [exact P|exfalso].
    destruct (emplace_rejected _ _ _ _ _ _ _ Es) as (_ & _ & y & Hy & Ky). destruct (HS y Hy) as (k & v & ->). cbn [keyof] in Ky. apply SK in Ky. subst k.
    assert (In s (map_keys l)). { unfold map_keys. apply in_flat_map. exists (VPair (VStr s) v). split; [exact Hy|left; reflexivity]. }
    apply get_in in H; auto.
  Qed.

  Lemma map_merged J vt olds ms f st v st' : map_shape olds -> NoDup (map_keys olds) ->
    pull G J f (TMap ord false TString vt) (VList olds) (JObj ms) st = POk v st' ->
    exists l, v = VList l /\ map_shape l /\ NoDup (map_keys l)
      /\ (forall s, pulled_into G J vt (map_get s olds) (members_named s ms) (map_get s l))
      /\ (keys_ok G TString -> cont_inv G true ord false TString olds -> cont_inv G true ord false TString l).
  Proof.
    intros HS ND E. destruct f as [|f]; [discriminate|]. rewrite pull_S in E. cbn [pull_body] in E. cbv zeta in E. unfold bind at 1 in E.
    match type of E with match ?m with _ => _ end = _ => destruct m as [l st1| | | |] eqn:E1; try discriminate end. inversion E; subst. exists l. split; [reflexivity|].
    set (P := fun (done : list (bytes * json)) (l : list val) => map_shape l /\ NoDup (map_keys l)
       /\ (forall s js o, pulled_into G J vt (map_get s l) js o -> pulled_into G J vt (map_get s olds) (members_named s done ++ js) o)
       /\ (keys_ok G TString -> cont_inv G true ord false TString olds -> cont_inv G true ord false TString l)).
    assert (Q: P ms l).
    { refine (fold_m_inv _ P ms _ _ _ _ _ _ E1).
      - intros done [n j] rest a s a' s' Ems (H1 & H2 & H3 & H4) Es. rewrite find_get in Es by exact H1.
        assert (Named: forall t, members_named t (done ++ [(n, j)]) = members_named t done ++ (if bytes_eqb (cstr n) t then [j] else [])).
        { intros t. unfold members_named. rewrite filter_app, map_app. cbn [filter fst]. destruct (bytes_eqb (cstr n) t); reflexivity. }
        destruct (map_get (cstr n) a) as [v0|] eqn:Ef; unfold bind in Es.
        + destruct (pull G J f vt v0 j s) as [x s1| | | |] eqn:Ex; try discriminate. inversion Es; subst.
          split; [apply put_shape; exact H1|]. split; [rewrite put_keys by exact H1; exact H2|]. split.
          * intros t js o Hp. rewrite Named, <- app_assoc. apply H3. rewrite put_get in Hp by exact H1. destruct (bytes_eqb (cstr n) t) eqn:Et; [|exact Hp].
            apply bytes_eqb_eq in Et. subst t. rewrite Ef in Hp |- *. cbn [app]. eapply pi_next; [exact Ex|exact Hp].
          * intros HK HI. specialize (H4 HK HI). clear -SK H1 H4. revert H1 H4.
            assert (KK: forall l, map_shape l -> map (keyof true) (map_put G ord TString (VPair (VStr (cstr n)) VUndef) x l) = map (keyof true) l).
            { induction l as [|y l IH]; intros HS; [reflexivity|]. destruct (shape_cons _ _ HS) as [(k & v & ->) HS'].
              cbn [map_put]. rewrite same_key_eq. destruct (bytes_eqb k (cstr n)); cbn; [reflexivity|]. f_equal. apply IH; exact HS'. }
            intros H1 H4. specialize (KK a H1). revert KK H4. generalize (map_put G ord TString (VPair (VStr (cstr n)) VUndef) x a). clear.
            assert (FP: forall (R : val -> val -> Prop) (l a : list val), map (keyof true) l = map (keyof true) a ->
               ForallOrdPairs (fun x y => R (keyof true x) (keyof true y)) a -> ForallOrdPairs (fun x y => R (keyof true x) (keyof true y)) l).
            { intros R l a0 E F. revert l E. induction F as [|y a1 Fy F IH]; intros [|z l] E; try discriminate; [constructor|]. cbn [map] in E. injection E as E1 E2.
              constructor; [|apply IH; exact E2]. apply Forall_forall. intros w Hw. change (keyof true z = keyof true y) in E1; change (map (keyof true) l = map (keyof true) a1) in E2. rewrite E1.
              apply (in_map (keyof true)) in Hw. rewrite E2 in Hw. apply in_map_iff in Hw. destruct Hw as (w' & <- & Hw'). rewrite Forall_forall in Fy. auto. }
            intros l KK H4. unfold cont_inv in *. destruct ord;
              [apply (FP (fun x y => g_lt G TString x y = true) l a KK H4)|apply (FP (fun x y => g_eq G TString x y = false) l a KK H4)].
        + destruct (pull G J f vt (vinit G vt) j s) as [x s1| | | |] eqn:Ex; try discriminate. inversion Es; subst.
          assert (Pm := emplace_new (cstr n) x a H1 Ef).
          assert (S2: map_shape (VPair (VStr (cstr n)) x :: a)) by (intros y [<-|Hy]; eauto).
          assert (N2: NoDup (map_keys (VPair (VStr (cstr n)) x :: a))).
          { cbn. constructor; [|exact H2]. intros C. apply get_in in C; auto. }
          split; [intros y Hy; apply S2; eapply Permutation_in; [symmetry; exact Pm|exact Hy]|].
          split; [eapply Permutation_NoDup; [apply keys_perm; exact Pm|exact N2]|]. split.
          * intros t js o Hp. rewrite Named, <- app_assoc. apply H3. rewrite (get_perm _ _ _ S2 N2 Pm) in Hp. cbn [map_get] in Hp. destruct (bytes_eqb (cstr n) t) eqn:Et; [|exact Hp].
            apply bytes_eqb_eq in Et. subst t. rewrite Ef. cbn [app]. eapply pi_next; [exact Ex|exact Hp].
          * intros HK HI. apply emplace_inv; auto.
      - split; [exact HS|]. split; [exact ND|]. split; [|auto]. intros s js o Hp. exact Hp. }
    destruct Q as (Q1 & Q2 & Q3 & Q4). split; [exact Q1|]. split; [exact Q2|]. split; [|exact Q4].
    intros s. specialize (Q3 s [] (map_get s l) (pi_done _ _ _ _)). rewrite app_nil_r in Q3. exact Q3.
  Qed.

  Lemma pulled_some J vt o js o' : pulled_into G J vt o js o' -> (o' <> None <-> o <> None \/ js <> []).
  Proof.
    induction 1 as [o|o j js x o' f st1 st2 E P IH]; [tauto|]. rewrite IH. split; [intros _; right; discriminate|intros _; left; discriminate].
  Qed.
  Lemma named_in s (ms : list (bytes * json)) : members_named s ms <> [] <-> In s (map (fun m => cstr (fst m)) ms).
  Proof.
    induction ms as [|[n j] ms IH]; cbn [map In fst]; [split; [intros H; exfalso; apply H; reflexivity|intros []]|].
    unfold members_named in *. cbn [filter fst]. destruct (bytes_eqb (cstr n) s) eqn:E; cbn [map].
    - apply bytes_eqb_eq in E. split; [left; exact E|discriminate].
    - rewrite IH. split; [right; assumption|]. intros [Q|Q]; [|exact Q]. subst s. rewrite (proj2 (bytes_eqb_eq _ _) eq_refl) in E. discriminate.
  Qed.
  Lemma map_merged_keys J vt olds ms f st v st' : map_shape olds -> NoDup (map_keys olds) ->
    pull G J f (TMap ord false TString vt) (VList olds) (JObj ms) st = POk v st' ->
    exists l, v = VList l /\ forall s, In s (map_keys l) <-> In s (map_keys olds) \/ In s (map (fun m => cstr (fst m)) ms).
  Proof.
    intros HS ND E. destruct (map_merged _ _ _ _ _ _ _ _ HS ND E) as (l & -> & HS' & _ & P & _). exists l. split; [reflexivity|]. intros s.
    rewrite <- (get_in s l HS'), <- (get_in s olds HS), <- named_in. apply (pulled_some _ _ _ _ _ (P s)).
  Qed.
End Maps.

(** multimaps: one entry per item *)
Definition entry_pulled (G : genv) (J : jenv) (vt : ty) (m : bytes * json) (x : val) : Prop :=
  exists f st1 v st2, x = VPair (VStr (cstr (fst m))) v /\ pull G J f vt (vinit G vt) (snd m) st1 = POk v st2.
Lemma multimap_merged G J ord vt olds ms f st v st' : place_ok G ->
  pull G J f (TMap ord true TString vt) (VList olds) (JObj ms) st = POk v st' ->
  exists l xs, v = VList l /\ Forall2 (entry_pulled G J vt) (multi_items ms) xs /\ Permutation (olds ++ xs) l
    /\ (keys_ok G TString -> cont_inv G true ord true TString olds -> cont_inv G true ord true TString l).
Proof.
  intros HP E. destruct f as [|f]; [discriminate|]. rewrite pull_S in E. cbn [pull_body] in E. cbv zeta in E. unfold bind at 1 in E.
  match type of E with match ?m with _ => _ end = _ => destruct m as [l st1| | | |] eqn:E1; try discriminate end. inversion E; subst. exists l.
  set (R := fun (its : list (bytes * json)) (a l : list val) => exists xs, Forall2 (entry_pulled G J vt) its xs /\ Permutation (a ++ xs) l
       /\ (keys_ok G TString -> cont_inv G true ord true TString a -> cont_inv G true ord true TString l)).
  assert (R0: forall a, R [] a a) by (intros a; exists []; split; [constructor|]; rewrite app_nil_r; auto).
  assert (RA: forall i1 i2 a b c, R i1 a b -> R i2 b c -> R (i1 ++ i2) a c).
  { intros i1 i2 a b c (x1 & F1 & P1 & I1) (x2 & F2 & P2 & I2). exists (x1 ++ x2). split; [apply Forall2_app; assumption|]. split; [|auto].
    rewrite app_assoc. etransitivity; [apply Permutation_app_tail; exact P1|exact P2]. }
  assert (R1: forall n j a x s s', pull G J f vt (vinit G vt) j s = POk x s' -> R [(n, j)] a (fst (emplace G true ord true TString (VPair (VStr (cstr n)) x) a))).
  { intros n j a x s s' Ex. exists [VPair (VStr (cstr n)) x]. split; [constructor; [|constructor]; exists f, s, x, s'; auto|]. split.
    - destruct (emplace_cases G true ord true TString (VPair (VStr (cstr n)) x) a HP) as [[_ Pp]|[_ [_ C]]]; [|discriminate].
      etransitivity; [apply Permutation_app_comm|exact Pp].
    - intros HK HI. apply emplace_inv; auto. }
  assert (Q: R (multi_items ms) olds l).
  { refine (fold_m_inv _ (fun done a => R (multi_items done) olds a) ms _ _ _ _ _ (R0 _) E1).
    intros done [n j] rest a s a' s' Ems Ha Es. unfold multi_items. rewrite flat_map_app. eapply RA; [exact Ha|]. cbn [flat_map]. rewrite app_nil_r.
    assert (One: forall j, (let? x := pull G J f vt (vinit G vt) j in ret (fst (emplace G true ord true TString (VPair (VStr (cstr n)) x) a))) s = POk a' s' -> R [(n, j)] a a').
    { intros j0 E0. unfold bind in E0. destruct (pull G J f vt (vinit G vt) j0 s) as [x s1| | | |] eqn:Ex; try discriminate. inversion E0; subst. eapply R1; eauto. }
    destruct j; try (apply One; exact Es).
    clear One. refine (fold_m_inv _ (fun done b => R (map (pair n) done) a b) l0 _ _ _ _ _ (R0 _) Es).
    intros dn j rs b s1 b' s2 El Hb Eb. rewrite map_app. eapply RA; [exact Hb|]. cbn [map].
    unfold bind in Eb. destruct (pull G J f vt (vinit G vt) j s1) as [x s3| | | |] eqn:Ex; try discriminate. inversion Eb; subst. eapply R1; eauto. }
  destruct Q as (xs & Q1 & Q2 & Q3). exists xs. auto.
Qed.

(* ------------------------------------------------------------------ *)
(** * Tuples and pairs *)

Lemma tuple_wrong_size G J ts os js f st : ts <> [] -> length js <> length ts ->
  pull G J (S f) (TTuple ts) (VList os) (JArr js) st = reports ArraySizeMismatch JTArray JTArray (VList os) st.
Proof.
  intros Ht Hl. rewrite pull_S. cbn [pull_body]. destruct ts as [|t0 ts]; [congruence|].
  destruct (Nat.eqb_spec (length js) (length (t0 :: ts))); [congruence|]. apply reports_spec.
Qed.
Lemma pair_wrong_size G J ta tb oa ob js f st : length js <> 2 ->
  pull G J (S f) (TPair ta tb) (VPair oa ob) (JArr js) st = reports ArraySizeMismatch JTArray JTArray (VPair oa ob) st.
Proof. intros Hl. rewrite pull_S. cbn [pull_body]. destruct (Nat.eqb_spec (length js) 2); [congruence|]. apply reports_spec. Qed.

Lemma tuple_loop p ts : forall os js st, length os = length ts -> length js = length ts ->
  match pull_tuple p ts os js st with
  | POk l _ => length l = length ts /\ forall i t o j x, nth_error ts i = Some t -> nth_error os i = Some o -> nth_error js i = Some j -> nth_error l i = Some x ->
       exists st1 st2, p t o j st1 = POk x st2
  | PThrow e _ => exists i t o j st1 st2, nth_error ts i = Some t /\ nth_error os i = Some o /\ nth_error js i = Some j /\ p t o j st1 = PThrow e st2
  | PUB => exists i t o j st1, nth_error ts i = Some t /\ nth_error os i = Some o /\ nth_error js i = Some j /\ p t o j st1 = PUB
  | PFuel => exists i t o j st1, nth_error ts i = Some t /\ nth_error os i = Some o /\ nth_error js i = Some j /\ p t o j st1 = PFuel
  | PStuck => exists i t o j st1, nth_error ts i = Some t /\ nth_error os i = Some o /\ nth_error js i = Some j /\ p t o j st1 = PStuck
  end.
Proof.
  induction ts as [|t ts IH]; intros [|o os] [|j js] st L1 L2; try discriminate; cbn [pull_tuple].
  - split; [reflexivity|]. intros [|i] t o j x E; discriminate.
  - unfold bind. destruct (p t o j st) as [x st1|e st1| | |] eqn:Ep.
    + specialize (IH os js st1 ltac:(cbn in L1; lia) ltac:(cbn in L2; lia)).
      destruct (pull_tuple p ts os js st1) as [l st2|e st2| | |].
      * destruct IH as [IL IH]. cbn. split; [lia|]. intros [|i] t' o' j' x' E1 E2 E3 E4; cbn in *; [inversion E1; inversion E2; inversion E3; inversion E4; subst; eauto|eauto].
      * destruct IH as (i & t' & o' & j' & s1 & s2 & H). exists (S i), t', o', j', s1, s2. exact H.
      * destruct IH as (i & t' & o' & j' & s1 & H). exists (S i), t', o', j', s1. exact H.
      * destruct IH as (i & t' & o' & j' & s1 & H). exists (S i), t', o', j', s1. exact H.
      * destruct IH as (i & t' & o' & j' & s1 & H). exists (S i), t', o', j', s1. exact H.
    + exists 0, t, o, j, st, st1. auto.
    + exists 0, t, o, j, st. auto.
    + exists 0, t, o, j, st. auto.
    + exists 0, t, o, j, st. auto.
Qed.

Lemma tuple_items G J ts os js f st : ts <> [] -> length os = length ts -> length js = length ts ->
  match pull G J (S f) (TTuple ts) (VList os) (JArr js) st with
  | POk v _ => exists l, v = VList l /\ length l = length ts /\ forall i t o j x, nth_error ts i = Some t -> nth_error os i = Some o -> nth_error js i = Some j -> nth_error l i = Some x ->
       exists st1 st2, pull G J f t o j st1 = POk x st2
  | PUB => exists i t o j st1, nth_error ts i = Some t /\ nth_error os i = Some o /\ nth_error js i = Some j /\ pull G J f t o j st1 = PUB
  | _ => True
  end.
Proof.
  intros Ht L1 L2. rewrite pull_S. cbn [pull_body]. destruct ts as [|t0 ts]; [congruence|].
  destruct (Nat.eqb_spec (length js) (length (t0 :: ts))); [|congruence]. unfold bind.
  assert (Q := tuple_loop (pull G J f) (t0 :: ts) os js st L1 L2). destruct (pull_tuple (pull G J f) (t0 :: ts) os js st); auto.
  cbn. destruct Q as [Q1 Q2]. eauto.
Qed.
Lemma pair_items G J ta tb oa ob ja jb f st :
  match pull G J (S f) (TPair ta tb) (VPair oa ob) (JArr [ja; jb]) st with
  | POk v _ => exists a b st1 st2 st3 st4, v = VPair a b /\ pull G J f ta oa ja st1 = POk a st2 /\ pull G J f tb ob jb st3 = POk b st4
  | PUB => exists st1, pull G J f ta oa ja st1 = PUB \/ pull G J f tb ob jb st1 = PUB
  | _ => True
  end.
Proof.
  rewrite pull_S. cbn [pull_body length Nat.eqb nth_error]. unfold bind.
  destruct (pull G J f ta oa ja st) as [a s1| | | |] eqn:E1; auto; [|eauto].
  destruct (pull G J f tb ob jb s1) as [b s2| | | |] eqn:E2; auto; [|eauto]. cbn. exists a, b, st, s1, s1, s2. auto.
Qed.

(* ------------------------------------------------------------------ *)
(** * Pushing multimaps *)

Lemma firsts_snoc ks k : firsts (ks ++ [k]) = if existsb (bytes_eqb k) (firsts ks) then firsts ks else firsts ks ++ [k].
Proof. unfold firsts. rewrite fold_left_app. reflexivity. Qed.
Lemma beq_refl k : bytes_eqb k k = true. Proof. apply bytes_eqb_eq; reflexivity. Qed.
Lemma beq_sym a b : bytes_eqb a b = bytes_eqb b a.
Proof.
  destruct (bytes_eqb a b) eqn:E.
  - apply bytes_eqb_eq in E. subst. symmetry; apply beq_refl.
  - destruct (bytes_eqb b a) eqn:E2; [|reflexivity]. apply bytes_eqb_eq in E2. subst. rewrite beq_refl in E. discriminate.
Qed.
Lemma firsts_nodup ks : NoDup (firsts ks).
Proof.
  induction ks as [|k ks IH] using rev_ind; [constructor|]. rewrite firsts_snoc. destruct (existsb (bytes_eqb k) (firsts ks)) eqn:E; [exact IH|].
  apply Permutation_NoDup with (l := k :: firsts ks); [apply Permutation_cons_append|]. constructor; [|exact IH]. intros Hk.
  assert (existsb (bytes_eqb k) (firsts ks) = true) by (apply existsb_exists; exists k; split; [exact Hk|apply beq_refl]). congruence.
Qed.
Lemma firsts_in ks k : In k (firsts ks) <-> In k ks.
Proof.
  induction ks as [|x ks IH] using rev_ind; [reflexivity|]. rewrite firsts_snoc, in_app_iff. cbn [In].
  destruct (existsb (bytes_eqb x) (firsts ks)) eqn:E.
  - rewrite IH. split; [auto|]. intros [H|[->|[]]]; [exact H|]. apply existsb_exists in E. destruct E as (y & Hy & Ey). apply bytes_eqb_eq in Ey. subst y. apply IH; exact Hy.
  - rewrite in_app_iff, IH. cbn. tauto.
Qed.

Lemma append_spec k j ms l : alookup bytes_eqb k ms = Some (JArr l) -> append_existing k j ms = Some (aupdate bytes_eqb k (JArr (l ++ [j])) ms).
Proof.
  induction ms as [|[n x] ms IH]; cbn; [discriminate|]. destruct (bytes_eqb k n) eqn:E; intros H.
  - inversion H; subst. apply bytes_eqb_eq in E. subst. reflexivity.
  - rewrite (IH H). reflexivity.
Qed.
Lemma append_none k j ms : alookup bytes_eqb k ms = None -> append_existing k j ms = None.
Proof.
  induction ms as [|[n x] ms IH]; cbn; [reflexivity|]. destruct (bytes_eqb k n) eqn:E; intros H; [discriminate|]. rewrite (IH H). reflexivity.
Qed.

Lemma multimap_pushed G J H ord vt l f j : map_shape l -> (forall k, In k (map_keys l) -> json_string k) ->
  push G J H f (TMap ord true TString vt) (VList l) = ROk j ->
  exists ms, j = JObj ms /\ map fst ms = firsts (map_keys l)
    /\ forall k x, In (k, x) ms -> exists js, x = JArr js /\ Forall2 (fun v y => exists f', push G J H f' vt v = ROk y) (values_for k l) js.
Proof.
  intros HS HK E. destruct f as [|f]; [discriminate|]. rewrite push_S in E. cbn [push_body] in E.
  match type of E with (let! _ := ?m in _) = _ => destruct m as [ms| | | |] eqn:E1; try discriminate end. cbn [rbind] in E. inversion E; subst. exists ms. split; [reflexivity|].
  set (P := fun (done : list val) (ms : list (bytes * json)) => map fst ms = firsts (map_keys done)
     /\ forall k x, alookup bytes_eqb k ms = Some x -> exists js, x = JArr js /\ Forall2 (fun v y => exists f', push G J H f' vt v = ROk y) (values_for k done) js).
  assert (Q: P l ms).
  { assert (Q: forall rest done, l = done ++ rest -> forall m0, P done m0 -> push_fold (fun x ms => match x with
                       | VPair (VStr k) v => let! j := push G J H f vt v in ROk (add_multi k j ms)
                       | _ => RStuck end) rest m0 = ROk ms -> P l ms).
    { induction rest as [|x rest IH]; intros done El m0 HP Ef; cbn [push_fold] in Ef.
      - inversion Ef; subst. rewrite app_nil_r. exact HP.
      - destruct (HS x) as (k & v & ->); [rewrite El; apply in_or_app; right; left; reflexivity|].
        destruct (push G J H f vt v) as [y| | | |] eqn:Ey; try discriminate. cbn [rbind] in Ef.
        apply (IH (done ++ [VPair (VStr k) v])) with (m0 := add_multi k y m0); [rewrite <- app_assoc; exact El| |exact Ef].
        destruct HP as [P1 P2].
        assert (Kk: map_keys (done ++ [VPair (VStr k) v]) = map_keys done ++ [k]) by (unfold map_keys; rewrite flat_map_app; reflexivity).
        assert (Vk: forall n, values_for n (done ++ [VPair (VStr k) v]) = values_for n done ++ (if bytes_eqb k n then [v] else [])).
        { intros n. unfold values_for. rewrite flat_map_app. cbn. rewrite app_nil_r. reflexivity. }
        assert (Hk: json_string k). { apply HK. rewrite El. unfold map_keys. rewrite flat_map_app. apply in_or_app; right; left; reflexivity. }
        destruct Hk as [Nk Lk]. unfold P. rewrite Kk, firsts_snoc, <- P1. unfold add_multi. rewrite (cstr_id k Nk), (sized_id k Lk).
        destruct (alookup bytes_eqb k m0) as [z|] eqn:Ez.
        + destruct (P2 _ _ Ez) as (js & -> & F). rewrite (append_spec _ y _ _ Ez).
          assert (X: existsb (bytes_eqb k) (map fst m0) = true).
          { apply existsb_exists. exists k. split; [eapply alookup_some_key; [apply bytes_eqb_eq|exact Ez]|apply beq_refl]. }
          rewrite X. split; [apply aupdate_keys|]. intros n x Ex. rewrite Vk.
          destruct (bytes_eqb k n) eqn:En.
          * apply bytes_eqb_eq in En. subst n. rewrite alookup_aupdate_same in Ex; [|apply bytes_eqb_eq|eapply alookup_some_key; [apply bytes_eqb_eq|exact Ez]].
            inversion Ex; subst. exists (js ++ [y]). split; [reflexivity|]. apply Forall2_app; [exact F|]. constructor; [eauto|constructor].
          * rewrite alookup_aupdate_other in Ex; [|apply bytes_eqb_eq|intros ->; rewrite beq_refl in En; discriminate]. rewrite app_nil_r. apply P2; exact Ex.
        + rewrite (append_none _ y _ Ez).
          assert (X: existsb (bytes_eqb k) (map fst m0) = false).
          { apply Bool.not_true_iff_false. intros C. apply existsb_exists in C. destruct C as (n & Hn & En). apply bytes_eqb_eq in En. subst n.
            destruct (alookup_some_in _ bytes_eqb_eq k m0 Hn). congruence. }
          rewrite X. split; [rewrite map_app; reflexivity|]. intros n x Ex. rewrite Vk.
          assert (Ap: alookup bytes_eqb n (m0 ++ [(k, JArr [y])]) = match alookup bytes_eqb n m0 with Some j => Some j | None => if bytes_eqb n k then Some (JArr [y]) else None end).
          { clear. induction m0 as [|[a b] m0 IH]; cbn; [reflexivity|]. destruct (bytes_eqb n a); [reflexivity|exact IH]. }
          rewrite Ap in Ex. destruct (alookup bytes_eqb n m0) as [w|] eqn:Ew.
          * inversion Ex; subst. destruct (bytes_eqb k n) eqn:En; [apply bytes_eqb_eq in En; congruence|]. rewrite app_nil_r. apply P2; exact Ew.
          * destruct (bytes_eqb n k) eqn:En; [|discriminate]. inversion Ex; subst. apply bytes_eqb_eq in En. subst n. rewrite beq_refl. exists [y]. split; [reflexivity|].
            assert (V0: values_for k done = []).
            { assert (~ In k (map_keys done)). { intros C. apply firsts_in in C. rewrite <- P1 in C. destruct (alookup_some_in _ bytes_eqb_eq k m0 C). congruence. }
              clear -H0. induction done as [|d done IH]; [reflexivity|]. cbn. unfold map_keys in H0. cbn in H0. rewrite in_app_iff in H0. fold (values_for k done). rewrite IH by (unfold map_keys; tauto).
              destruct d as [ | | | | | | |[ | | | | |s| | | | | | | | ] v0| | | | | | ]; try reflexivity. destruct (bytes_eqb s k) eqn:E; [|reflexivity]. apply bytes_eqb_eq in E. subst. exfalso. apply H0. left. cbn. auto. }
            rewrite V0. constructor; [eauto|constructor]. }
    apply (Q l [] eq_refl [] ); [|exact E1]. split; [reflexivity|]. intros k x Ek. discriminate. }
  destruct Q as [Q1 Q2]. split; [exact Q1|]. intros k x Hin. apply Q2. apply in_alookup; [apply bytes_eqb_eq|rewrite Q1; apply firsts_nodup|exact Hin].
Qed.
