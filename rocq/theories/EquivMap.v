(** EquivMap.v -- the order in which entries with different keys are inserted into a map does not matter *)
From Coq Require Import List NArith ZArith Bool Permutation Lia.
From Verif Require Import Base BaseFacts Types TypesFacts BinModel BinFacts BinSafeSpec Float JsonModel JsonRel JsonErr JsonSafeSpec JsonColl SerSpec AddrSpec AddrFacts AddrJson EquivSpec EquivRun.
Import ListNotations.
Local Open Scope list_scope.

Lemma shape_both x l : (exists k v, x = VPair (VStr k) v) -> map_shape l -> map_shape (x :: l).
Proof. intros X S y [<- |Y]; [exact X|apply S; exact Y]. Qed.

Section Pure.
  Variable G : genv.
  Hypothesis SO : strings_ordered G.
  Notation lt a b := (g_lt G TString (VStr a) (VStr b)).
  Lemma lt_irr a : lt a a = false. Proof. destruct SO as (I & _). specialize (I a). cbn in I. destruct (lt a a); [exfalso; auto|reflexivity]. Qed.
  Lemma lt_trans a b c : lt a b = true -> lt b c = true -> lt a c = true. Proof. destruct SO as (_ & T & _). apply T. Qed.
  Lemma lt_asym a b : lt a b = true -> lt b a = false.
  Proof. intros H. destruct (lt b a) eqn:E; [|reflexivity]. pose proof (lt_trans _ _ _ H E) as X. rewrite lt_irr in X. discriminate. Qed.
  Lemma lt_total a b : a <> b -> lt a b = false -> lt b a = true. Proof. destruct SO as (_ & _ & T). destruct (T a b) as [X|[X|X]]; congruence. Qed.
  Lemma order_keys : string_keys G true.
  Proof.
    intros a b. unfold key_equiv. split; [|intros <-; rewrite lt_irr; auto]. intros [X Y]. destruct SO as (_ & _ & T). destruct (T a b) as [Z|[Z|Z]]; congruence.
  Qed.
  Notation klt := (fun x y => g_lt G TString (keyof true x) (keyof true y)).
  Definition el (n : bytes) (x : val) : val := VPair (VStr n) x.
  Definition insu (n : bytes) (x : val) (l : list val) : list val := fst (ins_uniq klt (el n x) l).
  Definition insm (n : bytes) (x : val) (l : list val) : list val := ins_multi klt (el n x) l.
  Definition setv (n : bytes) (x : val) (l : list val) : list val := map_put G true TString (VPair (VStr n) VUndef) x l.
  Lemma insu_cons n x k v l : insu n x (el k v :: l) = if lt k n then el k v :: insu n x l else if lt n k then el n x :: el k v :: l else el k v :: l.
  Proof. unfold insu, el. cbn [ins_uniq keyof]. destruct (lt k n); [|destruct (lt n k); reflexivity]. destruct (ins_uniq _ _ l); reflexivity. Qed.
  Lemma insm_cons n x k v l : insm n x (el k v :: l) = if lt n k then el n x :: el k v :: l else el k v :: insm n x l.
  Proof. reflexivity. Qed.
  Lemma setv_cons n x k v l : setv n x (el k v :: l) = if bytes_eqb k n then el k x :: l else el k v :: setv n x l.
  Proof. unfold setv, el. cbn [map_put]. rewrite (same_key_eq G true order_keys). destruct (bytes_eqb k n); reflexivity. Qed.
  Lemma insu_nil n x : insu n x [] = [el n x]. Proof. reflexivity. Qed.

  Lemma insu_comm_lt n m x y l : map_shape l -> lt n m = true -> insu n x (insu m y l) = insu m y (insu n x l).
  Proof.
    intros S L. assert (L' := lt_asym _ _ L). induction l as [|z l IH]; [rewrite !insu_nil, !insu_cons, L, L'; reflexivity|].
    destruct (shape_cons _ _ S) as [(k & v & ->) S']. fold (el k v). rewrite !insu_cons.
    destruct (lt k n) eqn:E1.
    - rewrite (lt_trans _ _ _ E1 L). rewrite !insu_cons, E1, (lt_trans _ _ _ E1 L), (IH S'). reflexivity.
    - destruct (lt n k) eqn:E2.
      + rewrite insu_cons, L. rewrite insu_cons. destruct (lt k m) eqn:E3; [rewrite insu_cons, E1, E2; reflexivity|]. destruct (lt m k) eqn:E4; [rewrite insu_cons, L', L; reflexivity|].
        rewrite insu_cons, E1, E2. reflexivity.
      + assert (k = n) as -> by (destruct SO as (_ & _ & T); destruct (T k n) as [X|[X|X]]; congruence). rewrite L, insu_cons, E1, insu_cons, L. reflexivity.
  Qed.
  Lemma insu_comm n m x y l : map_shape l -> n <> m -> insu n x (insu m y l) = insu m y (insu n x l).
  Proof. intros S D. destruct (lt n m) eqn:E; [apply insu_comm_lt; assumption|]. symmetry. apply insu_comm_lt; [exact S|apply lt_total; assumption]. Qed.
  Lemma insm_comm_lt n m x y l : map_shape l -> lt n m = true -> insm n x (insm m y l) = insm m y (insm n x l).
  Proof.
    intros S L. assert (L' := lt_asym _ _ L). induction l as [|z l IH]; [cbn [insm ins_multi keyof el]; change (insm n x [el m y] = insm m y [el n x]); rewrite !insm_cons, L, L'; reflexivity|].
    destruct (shape_cons _ _ S) as [(k & v & ->) S']. fold (el k v). rewrite !insm_cons. destruct (lt m k) eqn:E1.
    - rewrite (lt_trans _ _ _ L E1). rewrite !insm_cons, L, L', E1. reflexivity.
    - rewrite insm_cons. destruct (lt n k) eqn:E2.
      + rewrite !insm_cons, L', E1. reflexivity.
      + rewrite insm_cons, E1, (IH S'). reflexivity.
  Qed.
  Lemma insm_comm n m x y l : map_shape l -> n <> m -> insm n x (insm m y l) = insm m y (insm n x l).
  Proof. intros S D. destruct (lt n m) eqn:E; [apply insm_comm_lt; assumption|]. symmetry. apply insm_comm_lt; [exact S|apply lt_total; assumption]. Qed.
  Lemma setv_comm n m x y l : map_shape l -> n <> m -> setv n x (setv m y l) = setv m y (setv n x l).
  Proof.
    intros S D. induction l as [|z l IH]; [reflexivity|]. destruct (shape_cons _ _ S) as [(k & v & ->) S']. fold (el k v). rewrite !setv_cons.
    destruct (bytes_eqb k m) eqn:E1, (bytes_eqb k n) eqn:E2; rewrite !setv_cons, ?E1, ?E2; try reflexivity; [|rewrite (IH S'); reflexivity].
    apply bytes_eqb_eq in E1, E2. congruence.
  Qed.
  Lemma setv_insu n m x y l : map_shape l -> n <> m -> setv n x (insu m y l) = insu m y (setv n x l).
  Proof.
    intros S D. assert (Em : bytes_eqb m n = false) by (destruct (bytes_eqb m n) eqn:X; [apply bytes_eqb_eq in X; congruence|reflexivity]).
    induction l as [|z l IH]; [rewrite insu_nil, setv_cons, Em; reflexivity|]. destruct (shape_cons _ _ S) as [(k & v & ->) S']. fold (el k v). rewrite insu_cons, setv_cons.
    destruct (bytes_eqb k n) eqn:E2.
    - rewrite insu_cons. destruct (lt k m); [rewrite setv_cons, E2; reflexivity|]. destruct (lt m k); rewrite ?setv_cons, ?Em, ?setv_cons, ?E2; reflexivity.
    - rewrite insu_cons. destruct (lt k m); [rewrite setv_cons, E2, (IH S'); reflexivity|]. destruct (lt m k); rewrite ?setv_cons, ?Em, ?setv_cons, ?E2; reflexivity.
  Qed.
  Lemma insu_shape n x l : map_shape l -> map_shape (insu n x l).
  Proof.
    induction l as [|z l IH]; intros S; [apply shape_both; [exists n, x; reflexivity|exact S]|]. destruct (shape_cons _ _ S) as [(k & v & ->) S']. fold (el k v). rewrite insu_cons.
    destruct (lt k n); [apply shape_both; [exists k, v; reflexivity|apply IH; exact S']|]. destruct (lt n k); [apply shape_both; [exists n, x; reflexivity|exact S]|exact S].
  Qed.
  Lemma insm_shape n x l : map_shape l -> map_shape (insm n x l).
  Proof.
    induction l as [|z l IH]; intros S; [apply shape_both; [exists n, x; reflexivity|exact S]|]. destruct (shape_cons _ _ S) as [(k & v & ->) S']. fold (el k v). rewrite insm_cons.
    destruct (lt n k); [apply shape_both; [exists n, x; reflexivity|exact S]|]. apply shape_both; [exists k, v; reflexivity|apply IH; exact S'].
  Qed.
  Lemma insu_get n m x l : map_shape l -> n <> m -> map_get m (insu n x l) = map_get m l.
  Proof.
    intros S D. assert (Em : bytes_eqb n m = false) by (destruct (bytes_eqb n m) eqn:X; [apply bytes_eqb_eq in X; congruence|reflexivity]).
    induction l as [|z l IH]; [cbn; rewrite Em; reflexivity|]. destruct (shape_cons _ _ S) as [(k & v & ->) S']. fold (el k v). rewrite insu_cons.
    destruct (lt k n); [cbn [map_get el]; rewrite (IH S'); reflexivity|]. destruct (lt n k); [cbn [map_get el]; rewrite Em; reflexivity|reflexivity].
  Qed.
  Lemma setv_get n m x l : map_shape l -> n <> m -> map_get m (setv n x l) = map_get m l.
  Proof.
    intros S D. unfold setv. rewrite (put_get G true order_keys) by exact S. destruct (bytes_eqb n m) eqn:X; [apply bytes_eqb_eq in X; congruence|reflexivity].
  Qed.

  (** what reading an entry does with a map: the value which is there is replaced or an element is inserted *)
  Definition key1 (n : bytes) (l : list val) : option val := map_find G true TString (VPair (VStr n) VUndef) l.
  Definition put1 (n : bytes) (xs : list val) (l : list val) : list val :=
    match xs with [x] => match key1 n l with Some _ => setv n x l | None => insu n x l end | _ => l end.
  Definition key2 (n : bytes) (l : list val) : option val := None.
  Definition put2 (n : bytes) (xs : list val) (l : list val) : list val := fold_left (fun l x => insm n x l) xs l.

  Lemma put1_shape n xs l : map_shape l -> map_shape (put1 n xs l).
  Proof. intros S. destruct xs as [|x [|? ?]]; try exact S. cbn. destruct (key1 n l); [apply (put_shape G true order_keys); exact S|apply insu_shape; exact S]. Qed.
  Lemma put1_key n m xs l : map_shape l -> n <> m -> key1 m (put1 n xs l) = key1 m l.
  Proof.
    intros S D. unfold key1 at 1. rewrite (find_get G true order_keys) by (apply put1_shape; exact S). unfold key1. rewrite (find_get G true order_keys m _ l) by exact S.
    destruct xs as [|x [|? ?]]; try reflexivity. cbn. destruct (key1 n l); [apply setv_get|apply insu_get]; assumption.
  Qed.
  Lemma put1_comm n m xs ys l : map_shape l -> n <> m -> put1 n xs (put1 m ys l) = put1 m ys (put1 n xs l).
  Proof.
    intros S D. destruct xs as [|x [|? ?]]; try reflexivity. destruct ys as [|y [|? ?]]; try reflexivity.
    change (match key1 n (put1 m [y] l) with Some _ => setv n x (put1 m [y] l) | None => insu n x (put1 m [y] l) end = match key1 m (put1 n [x] l) with Some _ => setv m y (put1 n [x] l) | None => insu m y (put1 n [x] l) end).
    rewrite (put1_key m n) by (congruence || exact S). rewrite (put1_key n m) by (congruence || exact S). cbn [put1].
    destruct (key1 n l), (key1 m l).
    - apply setv_comm; assumption.
    - apply setv_insu; assumption.
    - symmetry. apply setv_insu; [exact S|congruence].
    - apply insu_comm; assumption.
  Qed.
  Lemma put2_shape n xs l : map_shape l -> map_shape (put2 n xs l).
  Proof. revert l. induction xs as [|x xs IH]; intros l S; [exact S|]. cbn. apply IH, insm_shape, S. Qed.
  Lemma put2_one n m x ys l : map_shape l -> n <> m -> insm n x (put2 m ys l) = put2 m ys (insm n x l).
  Proof. revert l. induction ys as [|y ys IH]; intros l S D; [reflexivity|].
    change (insm n x (put2 m ys (insm m y l)) = put2 m ys (insm m y (insm n x l))). rewrite IH by (try apply insm_shape; assumption). f_equal. apply insm_comm; assumption. Qed.
  Lemma put2_comm n m xs ys l : map_shape l -> n <> m -> put2 n xs (put2 m ys l) = put2 m ys (put2 n xs l).
  Proof.
    revert l. induction xs as [|x xs IH]; intros l S D; [reflexivity|]. change (put2 n xs (insm n x (put2 m ys l)) = put2 m ys (put2 n xs (insm n x l))).
    rewrite put2_one by assumption. apply IH; [apply insm_shape; exact S|exact D].
  Qed.
End Pure.

(* ------------------------------------------------------------------ *)
(** * Reading entries in a different order *)

Record tr := { t_n : bytes; t_j : json; t_xs : list val; t_s : pst; t_e : pst }.
Definition t_name (t : tr) : bytes := cstr (t_n t).
Inductive chain : pst -> list tr -> pst -> Prop :=
| ch_nil s : chain s [] s
| ch_cons t T s : chain (t_e t) T s -> chain (t_s t) (t :: T) s.

Section Entries.
  Variable G : genv.
  Variable ud : bool.
  Variable key : bytes -> list val -> option val.
  Variable put : bytes -> list val -> list val -> list val.
  Variable act : option val -> json -> M (list val).
  Variable P : option val -> heap -> Prop.
  Variable Rel : json -> json -> Prop.
  Variable D : json -> Prop.
  Hypothesis put_shape : forall n xs l, map_shape l -> map_shape (put n xs l).
  Hypothesis put_key : forall n m xs l, map_shape l -> n <> m -> key m (put n xs l) = key m l.
  Hypothesis put_comm : forall n m xs ys l, map_shape l -> n <> m -> put n xs (put m ys l) = put m ys (put n xs l).
  Hypothesis key_alike : forall ro n l l', one_to_one ro -> Forall2 (alike ro) l l' -> both (alike ro) (key n l) (key n l').
  Hypothesis put_alike : forall ro n xs xs' l l', one_to_one ro -> Forall2 (alike ro) xs xs' -> Forall2 (alike ro) l l' -> Forall2 (alike ro) (put n xs l) (put n xs' l').
  Hypothesis P_ext : forall o h h', hext h h' -> P o h -> P o h'.
  Definition fine (s : pst) : Prop := heap_typed G ud (p_heap s) /\ calm s s.
  Definition cstep (s s' : pst) : Prop := hext (p_heap s) (p_heap s') /\ calm s s' /\ exists new, reported s' = reported s ++ new.
  Definition fine_step (s s' : pst) : Prop := fine s' /\ cstep s s'.
  Hypothesis act_fine : forall o j s xs s', fine s -> P o (p_heap s) -> D j -> act o j s = POk xs s' -> fine_step s s'.
  Hypothesis act_sim : forall o o' j j' ro s s', oready G ud ro s s' -> both (alike ro) o o' -> P o (p_heap s) -> D j -> Rel j j' ->
    osim G ud (fun r _ => Forall2 (alike r)) ro s s' (act o j s) (act o' j' s').

  Definition entry (l : list val) (m : bytes * json) : M (list val) := let? xs := act (key (cstr (fst m)) l) (snd m) in ret (put (cstr (fst m)) xs l).
  Definition tput (l : list val) (t : tr) : list val := put (t_name t) (t_xs t) l.

  Lemma fine_refl s : fine s -> fine_step s s.
  Proof. intros F. split; [exact F|]. split; [apply hext_refl|]. split; [apply F|]. exists []. rewrite app_nil_r. reflexivity. Qed.
  Lemma fine_trans a b c : fine_step a b -> fine_step b c -> fine_step a c.
  Proof.
    intros (F1 & X1 & C1 & n1 & E1) (F2 & X2 & C2 & n2 & E2). split; [exact F2|]. split; [eapply hext_trans; eassumption|]. split; [eapply calm_trans; eassumption|].
    exists (n1 ++ n2). rewrite E2, E1, app_assoc. reflexivity.
  Qed.

  (** the first run *)
  Lemma run_trace ms : forall l st r st1, NoDup (names ms) -> map_shape l -> fold_m entry ms l st = POk r st1 ->
    exists T, map (fun t => (t_n t, t_j t)) T = ms /\ chain st T st1 /\ r = fold_left tput T l /\ (forall t, In t T -> act (key (t_name t) l) (t_j t) (t_s t) = POk (t_xs t) (t_e t)).
  Proof.
    induction ms as [|[n j] ms IH]; intros l st r st1 ND S E; cbn [fold_m] in E.
    - injection E as <- <-. exists []. repeat split; try constructor. intros t [].
    - unfold entry at 1, bind in E. cbn [fst snd] in E. destruct (act (key (cstr n) l) j st) as [xs st2| | | |] eqn:Ea; try discriminate E. cbn [ret] in E.
      inversion ND as [|? ? Nn ND']; subst.
      destruct (IH (put (cstr n) xs l) st2 r st1 ND' (put_shape _ _ _ S) E) as (T & E1 & C & E2 & A).
      exists ({| t_n := n; t_j := j; t_xs := xs; t_s := st; t_e := st2 |} :: T). split; [cbn; rewrite E1; reflexivity|]. split; [exact (ch_cons {| t_n := n; t_j := j; t_xs := xs; t_s := st; t_e := st2 |} T st1 C)|].
      split; [exact E2|]. intros t [<- |I]; [exact Ea|]. rewrite <- (A t I). f_equal. symmetry. apply put_key; [exact S|]. intros X. apply Nn.
      unfold names. rewrite <- E1, map_map. cbn [fst]. apply in_map_iff. exists t. split; [symmetry; exact X|exact I].
  Qed.

  (** what holds for an entry of the first run, from [st] to [st1] *)
  Definition within (l : list val) (st st1 : pst) (t : tr) : Prop :=
    fine (t_s t) /\ fine_step st (t_s t) /\ fine_step (t_s t) (t_e t) /\ fine_step (t_e t) st1 /\ P (key (t_name t) l) (p_heap (t_s t)).
  (** the entries have made different objects *)
  Definition apart (t u : tr) : Prop := forall a, In a (map fst (p_heap (t_e t))) -> ~ In a (map fst (p_heap (t_s t))) ->
    In a (map fst (p_heap (t_e u))) -> ~ In a (map fst (p_heap (t_s u))) -> False.
  Lemma chain_fine l st T st1 : chain st T st1 -> fine st -> (forall t, In t T -> P (key (t_name t) l) (p_heap st)) -> (forall t, In t T -> D (t_j t)) ->
    (forall t, In t T -> act (key (t_name t) l) (t_j t) (t_s t) = POk (t_xs t) (t_e t)) -> fine_step st st1 /\ (forall t, In t T -> within l st st1 t).
  Proof.
    induction 1 as [s|t T s C IH]; intros F HP HD HA; [split; [apply fine_refl; exact F|intros t []]|].
    assert (F1 := act_fine _ _ _ _ _ F (HP t (or_introl eq_refl)) (HD t (or_introl eq_refl)) (HA t (or_introl eq_refl))).
    destruct IH as [F2 W].
    - apply F1.
    - intros u Hu. eapply P_ext; [apply F1|apply HP; right; exact Hu].
    - intros u Hu. apply HD. right. exact Hu.
    - intros u Hu. apply HA. right. exact Hu.
    - split; [eapply fine_trans; eassumption|]. intros u [<- |Hu].
      + split; [exact F|]. split; [apply fine_refl; exact F|]. split; [exact F1|]. split; [exact F2|]. apply HP. left. reflexivity.
      + destruct (W u Hu) as (W1 & W2 & W3 & W4 & W5). split; [exact W1|]. split; [eapply fine_trans; eassumption|]. split; [exact W3|]. split; [exact W4|exact W5].
  Qed.
  Lemma chain_apart l st T st1 : chain st T st1 -> (forall t, In t T -> within l st st1 t) -> (forall t, In t T -> act (key (t_name t) l) (t_j t) (t_s t) = POk (t_xs t) (t_e t)) ->
    (forall t, In t T -> D (t_j t)) -> ForallOrdPairs apart T.
  Proof.
    induction 1 as [s|t T s C IH]; intros W HA HD; [constructor|].
    assert (Ft := W t (or_introl eq_refl)). destruct Ft as (F0 & _ & F1 & F2 & P0).
    assert (HPs : forall u, In u T -> P (key (t_name u) l) (p_heap (t_e t)) -> True) by auto.
    assert (Q : forall T s0 s1, chain s0 T s1 -> (forall u, In u T -> fine_step (t_s u) (t_e u)) -> forall u, In u T -> hext (p_heap s0) (p_heap (t_s u))).
    { clear. induction 1 as [s|t T s C IH]; intros H u Hu; [destruct Hu|]. destruct Hu as [<- |Hu]; [apply hext_refl|]. eapply hext_trans; [apply (H t (or_introl eq_refl))|]. apply IH; [|exact Hu]. intros; apply H; right; assumption. }
    assert (Qt := Q T (t_e t) s C (fun u Hu => proj1 (proj2 (proj2 (W u (or_intror Hu)))))).
    constructor.
    - apply Forall_forall. intros u Hu a Ha1 Ha2 Hb1 Hb2. apply Hb2. eapply hext_keys; [apply (Qt u Hu)|exact Ha1].
    - clear IH HA. revert Q Qt. intros Q _. clear - C W Q.
      assert (W' : forall u, In u T -> fine_step (t_s u) (t_e u)) by (intros u Hu; exact (proj1 (proj2 (proj2 (W u (or_intror Hu)))))). clear W.
      revert C W'. generalize (t_e t). intros s0 C W'. induction C as [s1|u T s1 C IH]; [constructor|]. constructor.
      + apply Forall_forall. intros v Hv a Ha1 Ha2 Hb1 Hb2. apply Hb2. eapply hext_keys; [|exact Ha1]. apply (Q T (t_e u) s1 C); [|exact Hv]. intros; apply W'; right; assumption.
      + apply IH. intros; apply W'; right; assumption.
  Qed.
  Lemma chain_covers st T st1 a : chain st T st1 -> In a (map fst (p_heap st1)) -> In a (map fst (p_heap st)) \/ exists t, In t T /\ In a (map fst (p_heap (t_e t))) /\ ~ In a (map fst (p_heap (t_s t))).
  Proof.
    induction 1 as [s|t T s C IH]; intros I; [left; exact I|]. destruct (IH I) as [X|(u & Hu & X)]; [|right; exists u; split; [right; exact Hu|exact X]].
    destruct (in_dec N.eq_dec a (map fst (p_heap (t_s t)))) as [Y|Y]; [left; exact Y|right]. exists t. split; [left; reflexivity|split; assumption].
  Qed.
  (** the errors of the first run are those of the entries *)
  Definition errs_of (t : tr) : list jerror := skipn (length (reported (t_s t))) (reported (t_e t)).
  Lemma chain_errors st T st1 : chain st T st1 -> (forall t, In t T -> fine_step (t_s t) (t_e t)) -> reported st1 = reported st ++ concat (map errs_of T).
  Proof.
    induction 1 as [s|t T s C IH]; intros H; [cbn; rewrite app_nil_r; reflexivity|]. rewrite IH by (intros; apply H; right; assumption). cbn [map concat]. rewrite app_assoc. f_equal.
    destruct (H t (or_introl eq_refl)) as (_ & _ & _ & new & E). unfold errs_of. rewrite E, skipn_app, skipn_all, Nat.sub_diag. reflexivity.
  Qed.

  Lemma tput_comm T T2 : Permutation T T2 -> forall l, map_shape l -> NoDup (map t_name T) -> fold_left tput T l = fold_left tput T2 l.
  Proof.
    induction 1 as [|t T T2 p IH|t u T|T T2 T3 p1 IH1 p2 IH2]; intros l S ND.
    - reflexivity.
    - cbn. apply IH; [apply put_shape; exact S|]. inversion ND; assumption.
    - cbn. f_equal. unfold tput. apply put_comm; [exact S|]. inversion ND as [|? ? N _]; subst. intros X. apply N. left. exact X.
    - rewrite IH1 by assumption. apply IH2; [exact S|]. eapply Permutation_NoDup; [apply Permutation_map; exact p1|exact ND].
  Qed.

  Lemma heaps_ext ro h h' h2 h2' : heaps_alike ro h h' -> hext h h2 -> hext h' h2' -> heaps_alike ro h2 h2'.
  Proof. intros H X X' a a' R. destruct (H a a' R) as (t & x & x' & E & E' & A). exists t, x, x'. split; [apply X; exact E|]. split; [apply X'; exact E'|exact A]. Qed.

  (** the second run, entry by entry *)
  Lemma run_again ro l l' st st' st1 : oready G ud ro st st' -> Forall2 (alike ro) l l' -> map_shape l' ->
    forall T2 ms', Forall2 (fun t m => t_name t = cstr (fst m) /\ Rel (t_j t) (snd m)) T2 ms' ->
    forall done lk lk' rk sk',
    NoDup (map t_name (done ++ T2)) -> (forall t, In t (done ++ T2) -> within l st st1 t) -> (forall t, In t T2 -> D (t_j t)) ->
    (forall t, In t T2 -> act (key (t_name t) l) (t_j t) (t_s t) = POk (t_xs t) (t_e t)) ->
    (forall t u, In t done -> In u T2 -> apart t u) -> ForallOrdPairs apart T2 ->
    one_to_one rk -> extends ro rk -> heaps_alike rk (p_heap st1) (p_heap sk') -> cstep st' sk' ->
    (forall a b, rk a b -> ro a b \/ (exists t, In t done /\ In a (map fst (p_heap (t_e t))) /\ ~ In a (map fst (p_heap (t_s t))))) ->
    (forall a b, rk a b -> ro a b \/ ~ In b (map fst (p_heap st'))) ->
    (forall b, In b (map fst (p_heap sk')) -> In b (map fst (p_heap st')) \/ exists a, rk a b) ->
    (forall t a, In t done -> In a (map fst (p_heap (t_e t))) -> In a (map fst (p_heap (t_s t))) \/ exists b, rk a b) ->
    Forall2 (alike rk) lk lk' -> map_shape lk' -> (forall n, ~ In n (map t_name done) -> key n lk' = key n l') ->
    (exists new', reported sk' = reported st' ++ new' /\ Permutation (map unindexed (concat (map errs_of done))) (map unindexed new')) ->
    exists r' s1' ro2, fold_m entry ms' lk' sk' = POk r' s1' /\ one_to_one ro2 /\ extends ro ro2 /\ heaps_alike ro2 (p_heap st1) (p_heap s1') /\ cstep st' s1'
      /\ (forall a b, ro2 a b -> ro a b \/ ((exists t, In t (done ++ T2) /\ In a (map fst (p_heap (t_e t))) /\ ~ In a (map fst (p_heap (t_s t)))) /\ ~ In b (map fst (p_heap st'))))
      /\ (forall b, In b (map fst (p_heap s1')) -> In b (map fst (p_heap st')) \/ exists a, ro2 a b)
      /\ (forall t a, In t (done ++ T2) -> In a (map fst (p_heap (t_e t))) -> In a (map fst (p_heap (t_s t))) \/ exists b, ro2 a b)
      /\ Forall2 (alike ro2) (fold_left tput T2 lk) r'
      /\ (exists new', reported s1' = reported st' ++ new' /\ Permutation (map unindexed (concat (map errs_of (done ++ T2)))) (map unindexed new')).
  Proof.
    intros R0 Al SH'. induction 1 as [|t [n' j'] T2 ms' [En Rj] F IH]; intros done lk lk' rk sk' ND W HD HA AP1 AP2 O EX HH FS L1 L2 L3 L4 Alk SHk KEY ERR.
    - exists lk', sk', rk. rewrite app_nil_r in *. split; [reflexivity|]. split; [exact O|]. split; [exact EX|]. split; [exact HH|]. split; [exact FS|]. split; [|split; [exact L3|split; [exact L4|split; [exact Alk|exact ERR]]]].
      intros a b X. destruct (L1 a b X) as [Y|Y]; [left; exact Y|]. destruct (L2 a b X) as [Z|Z]; [left; exact Z|right; split; assumption].
    - cbn [fst snd] in En, Rj. cbn [fold_m]. unfold entry at 1. cbn [fst snd]. rewrite <- En.
      assert (It : In t (done ++ t :: T2)) by (apply in_or_app; right; left; reflexivity).
      destruct (W t It) as (W1 & W2 & W3 & W4 & W5).
      assert (Nt : ~ In (t_name t) (map t_name done)) by (rewrite map_app in ND; cbn [map] in ND; apply NoDup_remove_2 in ND; intros X; apply ND, in_or_app; left; exact X).
      rewrite (KEY _ Nt).
      assert (Rt : oready G ud ro (t_s t) sk').
      { constructor; [exact (or_one _ _ _ _ _ R0)| | |apply W1].
        - eapply heaps_ext; [exact (or_alike _ _ _ _ _ R0)|apply W2|apply FS].
        - eapply calm_trans; [apply calm_sym; apply W2|]. eapply calm_trans; [exact (or_calm _ _ _ _ _ R0)|apply FS]. }
      destruct (act_sim _ (key (t_name t) l') (t_j t) j' ro (t_s t) sk' Rt (key_alike ro _ _ _ (or_one _ _ _ _ _ R0) Al) W5 (HD t (or_introl eq_refl)) Rj _ _ (HA t (or_introl eq_refl)))
        as (xs' & s2' & re & Ea & Se & Ax). unfold bind at 1. unfold bind at 1. rewrite Ea. cbn [ret].
      set (rk2 := fun a b => rk a b \/ re a b).
      assert (E1 : extends rk rk2) by (intros a b X; left; exact X). assert (E2 : extends re rk2) by (intros a b X; right; exact X).
      assert (Gr := os_grown _ _ _ _ _ _ _ _ Se).
      assert (FR : forall a b, re a b -> ro a b \/ (~ In a (map fst (p_heap (t_s t))) /\ ~ In b (map fst (p_heap sk')))) by exact (os_fresh _ _ _ _ _ _ _ _ Se).
      assert (KE : forall a b, re a b -> In a (map fst (p_heap (t_e t))) /\ In b (map fst (p_heap s2'))) by (intros a b X; exact (ro_keys _ _ _ _ _ (gr_alike _ _ _ _ _ _ Gr) X)).
      assert (SEP : forall a b a' b', rk a b -> re a' b' -> ro a' b' \/ (a <> a' /\ b <> b')).
      { intros a b a' b' X Y. destruct (FR a' b' Y) as [Z|[Z1 Z2]]; [left; exact Z|right]. split.
        - intros ->. destruct (L1 a' b X) as [Q|(u & Hu & Q1 & Q2)].
          + apply Z1. destruct (ro_keys _ _ _ _ _ (or_alike _ _ _ _ _ Rt) Q) as [Q1 _]. exact Q1.
          + exact (AP1 u t Hu (or_introl eq_refl) a' Q1 Q2 (proj1 (KE _ _ Y)) Z1).
        - intros ->. apply Z2. exact (proj2 (ro_keys _ _ _ _ _ HH X)). }
      assert (O2 : one_to_one rk2).
      { assert (C : forall a b a' b', rk a b -> re a' b' -> (a = a' <-> b = b')).
        { intros a b a' b' X Y. destruct (SEP _ _ _ _ X Y) as [Z|[Z1 Z2]]; [exact (O a b a' b' X (EX _ _ Z))|]. split; intros Q; contradiction. }
        intros a b a' b' [X|X] [Y|Y]; [exact (O _ _ _ _ X Y)|exact (C _ _ _ _ X Y)| |exact (gr_one _ _ _ _ _ _ Gr _ _ _ _ X Y)].
        destruct (C _ _ _ _ Y X) as [C1 C2]. split; intros Q; symmetry; [apply C1|apply C2]; symmetry; exact Q. }
      assert (H2 : heaps_alike rk2 (p_heap st1) (p_heap s2')).
      { intros a b [X|X].
        - destruct (HH a b X) as (u & x & x' & B1 & B2 & B3). exists u, x, x'. split; [exact B1|]. split; [apply (os_ext' _ _ _ _ _ _ _ _ Se); exact B2|]. eapply alike_more; [exact E1|exact B3].
        - destruct (gr_alike _ _ _ _ _ _ Gr a b X) as (u & x & x' & B1 & B2 & B3). exists u, x, x'. split; [apply W4; exact B1|]. split; [exact B2|]. eapply alike_more; [exact E2|exact B3]. }
      assert (FS2 : cstep st' s2').
      { destruct FS as (Q2 & Q3 & nq & Q4). destruct (os_errors _ _ _ _ _ _ _ _ Se) as (nw & nw' & _ & Y2 & _). split; [|split].
        - eapply hext_trans; [exact Q2|exact (os_ext' _ _ _ _ _ _ _ _ Se)].
        - eapply calm_trans; [exact Q3|exact (os_calm' _ _ _ _ _ _ _ _ Se)].
        - exists (nq ++ nw'). rewrite Y2, Q4, app_assoc. reflexivity. }
      assert (DL : forall u, In u (done ++ [t]) <-> In u done \/ u = t) by (intros u; rewrite in_app_iff; cbn; intuition congruence).
      assert (EQ : (done ++ [t]) ++ T2 = done ++ t :: T2) by (rewrite <- app_assoc; reflexivity).
      inversion AP2 as [|? ? AP3 AP4]; subst.
      destruct (IH (done ++ [t]) (tput lk t) (put (t_name t) xs' lk') rk2 s2') as (r' & s1' & ro2 & B1 & B2 & B3 & B4 & B5 & B6 & B7 & B8 & B9 & B10).
      + rewrite EQ. exact ND.
      + rewrite EQ. exact W.
      + intros u Hu. apply HD. right. exact Hu.
      + intros u Hu. apply HA. right. exact Hu.
      + intros u v Hu Hv. apply DL in Hu as [Hu| ->]; [apply AP1; [exact Hu|right; exact Hv]|]. exact (proj1 (Forall_forall _ _) AP3 v Hv).
      + exact AP4.
      + exact O2.
      + intros a b X. left. apply EX. exact X.
      + exact H2.
      + exact FS2.
      + intros a b [X|X].
        * destruct (L1 a b X) as [Y|(u & Hu & Y)]; [left; exact Y|right]. exists u. split; [apply DL; left; exact Hu|exact Y].
        * destruct (FR a b X) as [Y|[Y1 _]]; [left; exact Y|right]. exists t. split; [apply DL; right; reflexivity|]. split; [apply (KE a b X)|exact Y1].
      + intros a b [X|X]; [exact (L2 a b X)|]. destruct (FR a b X) as [Y|[_ Y]]; [left; exact Y|right]. intros Q. apply Y. eapply hext_keys; [apply FS|exact Q].
      + intros b Hb. destruct (gr_right _ _ _ _ _ _ Gr b Hb) as [X|[a X]]; [|right; exists a; right; exact X]. destruct (L3 b X) as [Y|[a Y]]; [left; exact Y|right; exists a; left; exact Y].
      + intros u a Hu Ha. apply DL in Hu as [Hu| ->].
        * destruct (L4 u a Hu Ha) as [X|[b X]]; [left; exact X|right; exists b; left; exact X].
        * destruct (gr_left _ _ _ _ _ _ Gr a Ha) as [X|[b X]]; [left; exact X|right; exists b; right; exact X].
      + unfold tput. apply put_alike; [exact O2|eapply alikes_more; [exact E2|exact Ax]|eapply alikes_more; [exact E1|exact Alk]].
      + apply put_shape. exact SHk.
      + intros n Nn. rewrite map_app in Nn. cbn [map] in Nn. rewrite put_key; [apply KEY; intros X; apply Nn, in_or_app; left; exact X|exact SHk|]. intros X. apply Nn, in_or_app. right. left. exact X.
      + destruct ERR as (nd & Y1 & Y2). destruct (os_errors _ _ _ _ _ _ _ _ Se) as (nw & nw' & Z1 & Z2 & Z3).
        exists (nd ++ nw'). rewrite Z2, Y1, app_assoc. split; [reflexivity|]. rewrite map_app, concat_app, !map_app. apply Permutation_app; [exact Y2|]. cbn [map concat]. rewrite app_nil_r.
        unfold errs_of. rewrite Z1, skipn_app, skipn_all, Nat.sub_diag. exact Z3.
      + rewrite EQ in B6, B8, B10. exists r', s1', ro2. repeat (split; [assumption|]). assumption.
  Qed.

  (** reading the entries in a different order *)
  Lemma run_permuted ro l l' st st' ms msr ms' : oready G ud ro st st' -> Forall2 (alike ro) l l' -> map_shape l -> map_shape l' ->
    (forall m, In m ms -> P (key (cstr (fst m)) l) (p_heap st)) -> (forall m, In m ms -> D (snd m)) ->
    Permutation ms msr -> NoDup (names ms) -> Forall2 (fun m m' => cstr (fst m) = cstr (fst m') /\ Rel (snd m) (snd m')) msr ms' ->
    osim G ud (fun r _ => Forall2 (alike r)) ro st st' (fold_m entry ms l st) (fold_m entry ms' l' st').
  Proof.
    intros R Al SH SH' HP HD PM ND F r st1 E. destruct (run_trace ms l st r st1 ND SH E) as (T & E1 & C & -> & HA).
    assert (IN : forall t, In t T -> In (t_n t, t_j t) ms) by (intros t Ht; rewrite <- E1; apply in_map_iff; exists t; split; [reflexivity|exact Ht]).
    assert (HDt : forall t, In t T -> D (t_j t)) by (intros t Ht; exact (HD _ (IN t Ht))).
    assert (F0 : fine st) by (split; [exact (or_typed _ _ _ _ _ R)|eapply calm_left; exact (or_calm _ _ _ _ _ R)]).
    destruct (chain_fine l st T st1 C F0 (fun t Ht => HP _ (IN t Ht)) HDt HA) as [FS W].
    assert (AP := chain_apart l st T st1 C W HA HDt).
    (* the entries of the first run in the order of the second run *)
    assert (PT : exists T2, Permutation T T2 /\ map (fun t => (t_n t, t_j t)) T2 = msr).
    { rewrite <- E1 in PM. destruct (Permutation_map_inv _ _ (Permutation_sym PM)) as (T2 & X1 & X2). exists T2. split; [exact X2|symmetry; exact X1]. }
    destruct PT as (T2 & PT & E2).
    assert (NT : NoDup (map t_name T)) by (unfold names in ND; rewrite <- E1, map_map in ND; exact ND).
    assert (SYM : forall a b, apart a b -> apart b a) by (intros a b X k; intros; eapply X; eassumption).
    assert (AP2 : ForallOrdPairs apart T2).
    { clear - AP PT SYM. revert AP. induction PT as [|t T T2 p IH|t u T|T T2 T3 p1 IH1 p2 IH2]; intros AP; [constructor| | |apply IH2, IH1, AP].
      - inversion AP; subst. constructor; [|apply IH; assumption]. eapply Permutation_Forall; eassumption.
      - inversion AP as [|? ? A1 A2]; subst. inversion A2 as [|? ? A3 A4]; subst. inversion A1; subst. constructor; [constructor; [apply SYM; assumption|assumption]|]. constructor; assumption. }
    assert (F2 : Forall2 (fun t m => t_name t = cstr (fst m) /\ Rel (t_j t) (snd m)) T2 ms').
    { clear - F E2. revert msr E2 ms' F. induction T2 as [|t T2 IH]; intros msr <- ms' F; inversion F as [|? m ? ms2 X Y]; subst; constructor; [exact X|]. eapply IH; [reflexivity|exact Y]. }
    assert (II : forall t, In t T2 -> In t T) by (intros t; apply Permutation_in, Permutation_sym, PT).
    destruct (run_again ro l l' st st' st1 R Al SH' T2 ms' F2 [] l l' ro st') as (r' & s1' & ro2 & B1 & B2 & B3 & B4 & B5 & B6 & B7 & B8 & B9 & B10).
    - eapply Permutation_NoDup; [apply Permutation_map; exact PT|exact NT].
    - intros t Ht. apply W, II, Ht.
    - intros t Ht. apply HDt, II, Ht.
    - intros t Ht. apply HA, II, Ht.
    - intros t u [].
    - exact AP2.
    - exact (or_one _ _ _ _ _ R).
    - apply extends_refl.
    - eapply heaps_ext; [exact (or_alike _ _ _ _ _ R)|apply FS|apply hext_refl].
    - split; [apply hext_refl|]. split; [eapply calm_right; exact (or_calm _ _ _ _ _ R)|]. exists []. rewrite app_nil_r. reflexivity.
    - intros a b X. left. exact X.
    - intros a b X. left. exact X.
    - intros b X. left. exact X.
    - intros t a [].
    - exact Al.
    - exact SH'.
    - reflexivity.
    - exists []. rewrite app_nil_r. split; [reflexivity|constructor].
    - exists r', s1', ro2. split; [exact B1|]. cbn [app] in *. rewrite <- (tput_comm T T2 PT l SH NT) in B9. split; [|exact B9]. destruct FS as (FS1 & FS2 & FS3 & FS4). destruct B5 as (B51 & B52 & B53).
      constructor; try assumption.
      + constructor; try assumption. intros a Ha. destruct (chain_covers st T st1 a C Ha) as [X|(t & Ht & X1 & X2)]; [left; exact X|].
        destruct (B8 t a (Permutation_in _ PT Ht) X1) as [Y|Y]; [contradiction|right; exact Y].
      + intros a b X. destruct (B6 a b X) as [Y|[(t & Ht & Y1 & Y2) Y3]]; [left; exact Y|right]. split; [|exact Y3]. intros Q. apply Y2. destruct (W t (II t Ht)) as (_ & W2 & _).
        eapply hext_keys; [apply W2|exact Q].
      + apply FS1.
      + destruct B10 as (nw' & Y1 & Y2). assert (X := chain_errors st T st1 C (fun t Ht => proj1 (proj2 (proj2 (W t Ht))))).
        exists (concat (map errs_of T)), nw'. split; [exact X|]. split; [exact Y1|]. eapply Permutation_trans; [|exact Y2]. apply Permutation_map.
        rewrite <- !flat_map_concat_map. apply Permutation_flat_map. exact PT.
  Qed.
End Entries.
