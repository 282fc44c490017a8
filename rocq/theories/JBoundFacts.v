(** JBoundFacts.v -- proofs for property C64 *)
From Coq Require Import String List NArith ZArith Bool Arith Lia Permutation.
From Verif Require Import Base BaseFacts Types TypesFacts BinModel BinSpec BinFacts Float JsonModel JsonRel JsonSpec BoundSpec BoundFacts JBoundSpec.
Import ListNotations.
Local Open Scope list_scope.
Local Open Scope nat_scope.

Definition jsizes (l : list json) : nat := list_sum (map jsize l).
Definition msizes (ms : list (bytes * json)) : nat := list_sum (map (fun nj => length (fst nj) + jsize (snd nj)) ms).
Lemma jsize_arr l : jsize (JArr l) = S (jsizes l).
Proof. induction l as [|x l IH]; [reflexivity|]. cbn [jsize] in *. unfold jsizes in *. cbn [map]. rewrite sum_cons. lia. Qed.
Lemma jsize_obj l : jsize (JObj l) = S (msizes l).
Proof. induction l as [|[n x] l IH]; [reflexivity|]. cbn [jsize] in *. unfold msizes in *. cbn [map fst snd]. rewrite sum_cons. lia. Qed.
Lemma jsize_pos j : 1 <= jsize j. Proof. destruct j; cbn; lia. Qed.
Lemma jsizes_cons x l : jsizes (x :: l) = jsize x + jsizes l. Proof. reflexivity. Qed.
Lemma msizes_cons n x l : msizes ((n, x) :: l) = length n + jsize x + msizes l. Proof. reflexivity. Qed.
Lemma cstr_length s : length (cstr s) <= length s.
Proof. induction s as [|b s IH]; cbn; [lia|]. destruct (beqb b Byte.x00); cbn; lia. Qed.

(** the members looked up by different names are different parts of the object *)
Definition picked (ms : list (bytes * json)) (L : list jfield) : nat :=
  list_sum (map (fun fd => match alookup bytes_eqb (jf_name fd) ms with Some j => jsize j | None => 0 end) L).
Lemma picked_app ms L L' : picked ms (L ++ L') = picked ms L + picked ms L'.
Proof. unfold picked. rewrite map_app, list_sum_app. reflexivity. Qed.
Lemma picked_nil L : picked [] L = 0.
Proof. induction L as [|fd L IH]; [reflexivity|]. exact IH. Qed.
Lemma picked_more ms fd L : picked ms (fd :: L) = match alookup bytes_eqb (jf_name fd) ms with Some j => jsize j | None => 0 end + picked ms L.
Proof. reflexivity. Qed.
Lemma picked_times k ms L : list_sum (map (fun fd => k * match alookup bytes_eqb (jf_name fd) ms with Some j => jsize j | None => 0 end) L) = k * picked ms L.
Proof. induction L as [|fd L IH]; [cbn; lia|]. rewrite picked_more. cbn [map]. rewrite sum_cons, IH. lia. Qed.
Lemma picked_cons_out n j ms L : ~ In n (map jf_name L) -> picked ((n, j) :: ms) L = picked ms L.
Proof.
  induction L as [|fd L IH]; intros H; [reflexivity|]. rewrite !picked_more, IH by (intros X; apply H; right; exact X).
  cbn [alookup]. destruct (bytes_eqb (jf_name fd) n) eqn:E; [|reflexivity]. apply bytes_eqb_eq in E. exfalso. apply H. left. exact E.
Qed.
Lemma picked_cons n j ms L : NoDup (map jf_name L) -> picked ((n, j) :: ms) L <= jsize j + picked ms L.
Proof.
  induction L as [|fd L IH]; intros ND; [cbn; lia|]. cbn [map] in ND. apply NoDup_cons_iff in ND. destruct ND as [N1 N2]. specialize (IH N2).
  rewrite !picked_more. cbn [alookup]. destruct (bytes_eqb (jf_name fd) n) eqn:E.
  - apply bytes_eqb_eq in E. subst n. rewrite picked_cons_out by exact N1. lia.
  - lia.
Qed.
Lemma picked_le ms L : NoDup (map jf_name L) -> picked ms L <= msizes ms.
Proof. intros ND. induction ms as [|[n j] ms IH]; [rewrite picked_nil; cbn; lia|]. rewrite msizes_cons. pose proof (picked_cons n j ms L ND). lia. Qed.
Lemma member_le n ms j : alookup bytes_eqb n ms = Some j -> jsize j <= msizes ms.
Proof.
  induction ms as [|[m x] ms IH]; [discriminate|]. cbn [alookup]. rewrite msizes_cons. destruct (bytes_eqb n m); [intros [= ->]; lia|]. intros E. apply IH in E. lia.
Qed.

(** ** outcomes *)
Definition ends {A} (o : out A) (Q : A -> pst -> Prop) (E : pst -> Prop) : Prop :=
  match o with POk a st => Q a st | PThrow _ st => E st | _ => True end.
Lemma ends_bind {A B} (m : M A) (k : A -> M B) st Q' Q E : ends (m st) Q' E -> (forall a s, Q' a s -> ends (k a s) Q E) -> ends (bind m k st) Q E.
Proof. unfold bind. intros H1 H2. destruct (m st); cbn in *; auto. Qed.
Lemma ends_imp {A} (o : out A) (Q Q' : A -> pst -> Prop) (E E' : pst -> Prop) : ends o Q E -> (forall a s, Q a s -> Q' a s) -> (forall s, E s -> E' s) -> ends o Q' E'.
Proof. destruct o; cbn; auto. Qed.
Lemma ends_ret {A} (a : A) st (Q : A -> pst -> Prop) E : Q a st -> ends (ret a st) Q E. Proof. intros H. exact H. Qed.
Lemma ends_map {A B} (m : M A) (g : A -> B) st (Q : B -> pst -> Prop) E : ends (m st) (fun a s => Q (g a) s) E -> ends (bind m (fun a => ret (g a)) st) Q E.
Proof. intros H. eapply ends_bind; [exact H|]. cbn. auto. Qed.
Lemma ends_member {A} n (m : M A) st (Q : A -> pst -> Prop) E : (forall a s x, Q a s -> Q a (put_member x s)) ->
  ends (m (put_member (Some n) st)) Q E -> ends (in_member n m st) Q E.
Proof. intros HQ H. unfold in_member. destruct (m _); cbn in *; auto. Qed.
Lemma ends_record {A} n (m : M A) st (Q : A -> pst -> Prop) E : (forall a s x, Q a s -> Q a (put_record x s)) ->
  ends (m (put_record (Some n) st)) Q E -> ends (in_record n m st) Q E.
Proof. intros HQ H. unfold in_record. destruct (m _); cbn in *; auto. Qed.
(** reporting an error leaves the objects alone and adds one error *)
Lemma ends_report k x y st (Q : unit -> pst -> Prop) (E : pst -> Prop) :
  (forall s, p_heap s = p_heap st -> errors s <= S (errors st) -> Q tt s /\ E s) -> ends (report k x y st) Q E.
Proof.
  intros H. unfold report. destruct (p_err st) as [e|] eqn:Ee.
  - unfold emplace_error. cbv zeta. assert (X : forall er, ends (POk tt {| p_heap := p_heap st; p_err := Some (add_err e er) |}) Q E /\ E {| p_heap := p_heap st; p_err := Some (add_err e er) |}).
    { intros er. destruct (H {| p_heap := p_heap st; p_err := Some (add_err e er) |}); [reflexivity| |split; assumption].
      unfold errors. rewrite Ee. cbn. rewrite app_length. cbn. lia. }
    destruct (N.eqb _ 0); [apply X|]. cbn. apply X.
  - apply H; [reflexivity|]. lia.
Qed.
Lemma ends_report_unchecked k x y st (Q : unit -> pst -> Prop) (E : pst -> Prop) :
  (forall s, p_heap s = p_heap st -> errors s <= S (errors st) -> Q tt s /\ E s) -> ends (report_unchecked k x y st) Q E.
Proof.
  intros H. destruct (p_err st) as [e|] eqn:Ee; [|unfold report_unchecked; rewrite Ee; exact I].
  assert (report_unchecked k x y st = report k x y st) as -> by (unfold report_unchecked, report; rewrite Ee; reflexivity). apply ends_report. exact H.
Qed.

(** ** loops; [w]: a measure of what has been made so far, each element adds at most its cost *)
Section Loops.
  Context {A : Type} (w : A -> pst -> nat) (R : pst -> pst -> Prop).
  Hypothesis Rrefl : forall s, R s s.
  Hypothesis Rtrans : forall a b c, R a b -> R b c -> R a c.
  Variable E : pst -> Prop.
  Lemma items_bound (step : A -> json -> M A) (cost : json -> nat) js :
    (forall a s i, w a {| p_heap := p_heap s; p_err := option_map (fun e => {| es_errs := es_errs e; es_record := es_record e; es_member := es_member e; es_index := i; es_throw := es_throw e |}) (p_err s) |} = w a s) ->
    (forall s i, R s {| p_heap := p_heap s; p_err := option_map (fun e => {| es_errs := es_errs e; es_record := es_record e; es_member := es_member e; es_index := i; es_throw := es_throw e |}) (p_err s) |}) ->
    forall base, (forall a j st, In j js -> w a st + cost j <= base -> ends (step a j st) (fun a' st' => w a' st' <= w a st + cost j /\ R st st') E) ->
    forall i a st, w a st + list_sum (map cost js) <= base ->
      ends (pull_items step i js a st) (fun a' st' => w a' st' <= w a st + list_sum (map cost js) /\ R st st') E.
  Proof.
    intros Hw HR base. induction js as [|j js IH]; intros Hs i a st Hb.
    - cbn. rewrite Hw. split; [lia|apply HR].
    - cbn [pull_items]. unfold bind at 1, set_index. cbn [map] in *. rewrite sum_cons in *.
      set (st1 := {| p_heap := p_heap st; p_err := _ |}). assert (W1 : w a st1 = w a st) by apply Hw. assert (R1 : R st st1) by apply HR. clearbody st1.
      eapply ends_bind; [apply Hs; [left; reflexivity|lia]|]. cbn beta. intros a' s [W2 R2].
      eapply ends_imp; [apply IH; [intros; apply Hs; [right; assumption|assumption]|lia]|cbn beta; intros a2 s2 [W3 R3]|auto].
      split; [lia|]. eapply Rtrans; [exact R1|]. eapply Rtrans; eassumption.
  Qed.
  Lemma fold_bound {B} (step : A -> B -> M A) (cost : B -> nat) l :
    forall base, (forall a b st, In b l -> w a st + cost b <= base -> ends (step a b st) (fun a' st' => w a' st' <= w a st + cost b /\ R st st') E) ->
    forall a st, w a st + list_sum (map cost l) <= base ->
      ends (fold_m step l a st) (fun a' st' => w a' st' <= w a st + list_sum (map cost l) /\ R st st') E.
  Proof.
    intros base. induction l as [|b l IH]; intros Hs a st Hb.
    - cbn. split; [lia|apply Rrefl].
    - cbn [fold_m]. cbn [map] in *. rewrite sum_cons in *.
      eapply ends_bind; [apply Hs; [left; reflexivity|lia]|]. cbn beta. intros a' s [W2 R2].
      eapply ends_imp; [apply IH; [intros; apply Hs; [right; assumption|assumption]|lia]|cbn beta; intros a2 s2 [W3 R3]|auto].
      split; [lia|]. eapply Rtrans; eassumption.
  Qed.
End Loops.

Lemma map_put_size G ord kt q x l : forall v, map_find G ord kt q l = Some v -> vsizes (map_put G ord kt q x l) + vsize v = vsizes l + vsize x.
Proof.
  induction l as [|y l IH]; intros v; cbn [map_find map_put]; [discriminate|]. destruct (same_key G ord kt y q).
  - destruct y; try discriminate. intros [= ->]. rewrite !vsizes_cons. cbn [vsize]. lia.
  - intros E. apply IH in E. rewrite !vsizes_cons. lia.
Qed.

(** ** errors *)
Section Errors.
  Variable G : genv.
  Variable J : jenv.
  Hypothesis HD : distinct_names G.

  Definition Eval (f : nat) : Prop := forall t old j st b, errors st + 3 * jsize j <= b ->
    ends (pull G J f t old j st) (fun _ st' => errors st' + 1 <= errors st + 3 * jsize j) (fun st' => errors st' <= b).
  Definition Ecls (f : nat) : Prop := forall c os ms st b L, members G rc_pull c L -> errors st + 3 * picked ms L <= b ->
    ends (pull_cls G J f c os ms st) (fun _ st' => errors st' <= errors st + 3 * picked ms L) (fun st' => errors st' <= b).

  Lemma mismatch_errors t j old st b : errors st + 1 <= b -> ends (mismatch t j old st) (fun _ st' => errors st' <= errors st + 1) (fun st' => errors st' <= b).
  Proof. intros H. unfold mismatch. eapply ends_bind with (Q' := fun _ s => errors s <= S (errors st)); [apply ends_report; intros s _ He; split; [exact He|lia]|]. cbn. intros _ s Hs. lia. Qed.

  Lemma report_errors {A} k x y (a : A) st b : errors st + 1 <= b -> ends (bind (report k x y) (fun _ => ret a) st) (fun _ st' => errors st' <= errors st + 1) (fun st' => errors st' <= b).
  Proof. intros H. eapply ends_bind with (Q' := fun _ s => errors s <= S (errors st)); [apply ends_report; intros s _ He; split; [exact He|lia]|]. cbn. intros _ s Hs. lia. Qed.

  Ltac leaf := match goal with
    | |- ends (stuck _) _ _ => exact I
    | |- ends (ub _) _ _ => exact I
    | |- ends (mismatch _ _ _ _) _ (fun _ => _ <= ?b) => eapply ends_imp; [apply mismatch_errors with (b := b); lia|cbn beta; intros; lia|auto]
    | |- ends (bind (report _ _ _) (fun _ => ret _) _) _ (fun _ => _ <= ?b) => eapply ends_imp; [apply report_errors with (b := b); lia|cbn beta; intros; lia|auto]
    | |- ends (ret _ _) _ _ => cbn [ends ret]; lia
    end.

  Lemma get_int_errors k j st (Q : Z -> pst -> Prop) E : (forall z, Q z st) -> ends (get_int k j st) Q E.
  Proof.
    intros H. unfold get_int. assert (X : ends (cast_double k j st) Q E).
    { unfold cast_double. destruct (get_double j) as [d|]; [|exact I]. destruct (f64_trunc d) as [z|]; [|exact I]. destruct (in_range k z); [apply H|exact I]. }
    destruct j; try exact X. destruct (in_range k z); [apply H|exact X].
  Qed.

  Lemma items_errors {A} (step : A -> json -> M A) js b : 
    (forall a j st, In j js -> errors st + 3 * jsize j <= b -> ends (step a j st) (fun _ st' => errors st' <= errors st + 3 * jsize j) (fun st' => errors st' <= b)) ->
    forall a st, errors st + 3 * jsizes js <= b -> ends (pull_items step 0 js a st) (fun _ st' => errors st' <= errors st + 3 * jsizes js) (fun st' => errors st' <= b).
  Proof.
    intros H a st Hb. assert (Es : forall l, list_sum (map (fun j => 3 * jsize j) l) = 3 * jsizes l).
    { induction l as [|x l IH]; [reflexivity|]. cbn [map]. rewrite sum_cons, IH, jsizes_cons. lia. }
    eapply ends_imp; [apply (items_bound (fun _ s => errors s) (fun _ _ => True) (fun _ => I) (fun _ _ _ _ _ => I) (fun s => errors s <= b) step (fun j => 3 * jsize j) js) with (base := b)| |].
    - intros _ [h [e|]] i; reflexivity.
    - exact (fun _ _ => I) || auto.
    - intros a0 j st0 Hin Hb0. eapply ends_imp; [apply H; [exact Hin|lia]|cbn beta; intros; split; [lia|exact I]|auto].
    - rewrite Es. exact Hb.
    - cbn beta. rewrite Es. intros _ s [X _]. exact X.
    - exact (fun _ _ => I) || auto.
  Qed.
  Lemma fold_errors {A B} (step : A -> B -> M A) (cost : B -> nat) l b : 
    (forall a x st, In x l -> errors st + cost x <= b -> ends (step a x st) (fun _ st' => errors st' <= errors st + cost x) (fun st' => errors st' <= b)) ->
    forall a st, errors st + list_sum (map cost l) <= b -> ends (fold_m step l a st) (fun _ st' => errors st' <= errors st + list_sum (map cost l)) (fun st' => errors st' <= b).
  Proof.
    intros H a st Hb.
    eapply ends_imp; [apply (fold_bound (fun _ s => errors s) (fun _ _ => True) (fun _ => I) (fun _ _ _ _ _ => I) (fun s => errors s <= b) step cost l) with (base := b)| |].
    - intros a0 j st0 Hin Hb0. eapply ends_imp; [apply H; [exact Hin|lia]|cbn beta; intros; split; [lia|exact I]|auto].
    - exact Hb.
    - cbn beta. intros _ s [X _]. exact X.
    - exact (fun _ _ => I) || auto.
  Qed.
  Lemma msum ms : list_sum (map (fun nj : bytes * json => 3 * jsize (snd nj)) ms) <= 3 * msizes ms.
  Proof. induction ms as [|[n j] ms IH]; [cbn; lia|]. cbn [map snd]. rewrite sum_cons, msizes_cons. lia. Qed.
  Lemma jsum js : list_sum (map (fun j => 3 * jsize j) js) = 3 * jsizes js.
  Proof. induction js as [|j js IH]; [reflexivity|]. cbn [map]. rewrite sum_cons, jsizes_cons. lia. Qed.

  Lemma tuple_errors f ts : Eval f -> forall os js st b, errors st + 3 * jsizes js <= b ->
    ends (pull_tuple (pull G J f) ts os js st) (fun _ st' => errors st' <= errors st + 3 * jsizes js) (fun st' => errors st' <= b).
  Proof.
    intros IH. induction ts as [|t ts IHt]; intros os js st b Hb; destruct os as [|o os]; cbn [pull_tuple]; try exact I.
    - cbn. lia.
    - destruct js as [|j js]; [exact I|]. rewrite jsizes_cons in *. eapply ends_bind; [apply IH; lia|]. cbn beta. intros x s Hs.
      eapply ends_bind; [apply IHt; lia|]. cbn beta. intros xs s2 Hs2. cbn. lia.
  Qed.

  Lemma eval_step f : Eval f -> Ecls f -> Eval (S f).
  Proof.
    intros IH IHc t old j st b Hb. rewrite pull_S. assert (Pj := jsize_pos j). unfold pull_body. destruct t; try exact I.
    - destruct j; leaf.
    - destruct (json_kind k).
      + destruct (is_number j); [|leaf]. apply ends_map, get_int_errors. intros z. lia.
      + destruct (byte_kind k); [|leaf]. destruct (is_number j); [|leaf]. apply ends_map, get_int_errors. intros z. lia.
    - destruct (get_double j); leaf.
    - destruct (get_double j); leaf.
    - destruct j; try leaf. destruct (in_range (enum_kind k) z); leaf.
    - destruct j; try leaf. 
    - (* seq *) destruct j; try leaf. rewrite jsize_arr in *. apply ends_map. eapply ends_imp; [apply items_errors with (b := b)|cbn beta; intros a s Hs|auto].
      + intros a j st0 _ H0. apply ends_map. eapply ends_imp; [apply IH; exact H0|cbn beta; intros; lia|auto].
      + lia.
      + lia.
    - (* set *) destruct j; try leaf. rewrite jsize_arr in *. apply ends_map. eapply ends_imp; [apply items_errors with (b := b)|cbn beta; intros a s Hs|auto].
      + intros a j st0 _ H0. eapply ends_bind; [apply IH; exact H0|]. cbn beta. intros x s Hs. destruct (is_undef x); [exact I|].
        destruct (emplace G false ord multi t x a) as [l' ins]. destruct (multi || ins); [cbn; lia|].
        eapply ends_bind with (Q' := fun _ s2 => errors s2 <= S (errors s)); [apply ends_report_unchecked; intros s2 _ He; split; [exact He|lia]|]. cbn. intros _ s2 H2. lia.
      + lia.
      + lia.
    - (* map *) destruct multi; destruct t1; try exact I; destruct old as [| | | | | |olds| | | | | | |]; try exact I; destruct j; try leaf; rewrite jsize_obj in *;
        apply ends_map; pose proof (msum ms) as MS.
      + eapply ends_imp; [apply (fold_errors _ (fun nj => 3 * jsize (snd nj))) with (b := b)|cbn beta; intros a s Hs|auto]; [|lia|lia].
        intros a [n j] st0 _ H0. cbn [snd] in *. assert (X : ends (bind (pull G J f t2 (vinit G t2) j) (fun x => ret (fst (emplace G true ord true TString (VPair (VStr (cstr n)) x) a))) st0)
          (fun _ st' => errors st' <= errors st0 + 3 * jsize j) (fun st' => errors st' <= b)).
        { apply ends_map. eapply ends_imp; [apply IH; exact H0|cbn beta; intros; lia|auto]. }
        destruct j; try exact X. rewrite jsize_arr in *. eapply ends_imp; [apply (fold_errors _ (fun j => 3 * jsize j)) with (b := b); rewrite ?jsum|cbn beta; intros ? ?; rewrite jsum; lia|auto].
        * intros a' j' st1 _ H1. apply ends_map. eapply ends_imp; [apply IH; exact H1|cbn beta; intros; lia|auto].
        * lia.
      + eapply ends_imp; [apply (fold_errors _ (fun nj => 3 * jsize (snd nj))) with (b := b)|cbn beta; intros a s Hs|auto]; [|lia|lia].
        intros a [n j] st0 _ H0. cbn [snd] in *. cbv zeta. destruct (map_find _ _ _ _ a) as [v|]; apply ends_map; (eapply ends_imp; [apply IH; exact H0|cbn beta; intros; lia|auto]).
    - (* pair *) destruct old as [| | | | | | |oa ob| | | | | |]; try exact I. destruct j; try leaf. rewrite jsize_arr in *. destruct (length l =? 2); [|leaf].
      destruct l as [|j1 [|j2 l]]; try exact I. cbn [nth_error]. rewrite !jsizes_cons in *. eapply ends_bind; [apply IH with (b := b); lia|]. cbn beta. intros x s Hs.
      eapply ends_bind; [apply IH with (b := b); lia|]. cbn beta. intros y s2 Hs2. cbn. lia.
    - (* tuple *) destruct ts as [|t0 ts]; [exact I|]. destruct old as [| | | | | |olds| | | | | | |]; try exact I. destruct j; try leaf. rewrite jsize_arr in *.
      destruct (length l =? length (t0 :: ts)); [|leaf]. apply ends_map. eapply ends_imp; [apply (tuple_errors f _ IH) with (b := b); lia|cbn beta; intros; lia|auto].
    - (* unique *) destruct j; try leaf; apply ends_map; apply IH; exact Hb.
    - destruct j; try leaf; apply ends_map; apply IH; exact Hb.
    - (* shared *) assert (X : ends (bind (in_new G t (pull G J f t (vinit G t) j)) (fun a => ret (VShared (Some a))) st) (fun _ st' => errors st' + 1 <= errors st + 3 * jsize j) (fun st' => errors st' <= b)).
      { apply ends_map. unfold in_new. cbv zeta. set (st1 := {| p_heap := hset _ _ _; p_err := p_err st |}).
        specialize (IH t (vinit G t) j st1 b Hb). destruct (pull G J f t (vinit G t) j st1); cbn in *; auto. }
      destruct j; try exact X. leaf.
    - (* variant *) destruct j; try leaf. rewrite jsize_obj in *. destruct (alookup bytes_eqb (list_byte_of_string "index") ms) as [ji|]; [|leaf].
      destruct (alookup bytes_eqb (list_byte_of_string "data") ms) as [jd|] eqn:Ed; [|leaf]. apply member_le in Ed. destruct ji; try leaf.
      destruct (in_range KU64 z); [|leaf]. destruct (if N.ltb _ _ then nth_error ts (Z.to_nat z) else None) as [t'|]; [|leaf].
      assert (X : ends (bind (pull G J f t' (vinit G t') jd) (fun x => ret (VVar (Z.to_nat z) x)) st) (fun _ st' => errors st' + 1 <= errors st + 3 * S (msizes ms)) (fun st' => errors st' <= b)).
      { apply ends_map. eapply ends_imp; [apply IH with (b := b); lia|cbn beta; intros; lia|auto]. }
      destruct t'; try exact X. leaf.
    - (* class *) destruct old as [| | | | | | | | | | | | |os]; try exact I. destruct j; try leaf. rewrite jsize_obj in *. apply ends_map.
      destruct (g_class G c) as [rc|] eqn:Ec; [|destruct f; [exact I|rewrite pull_cls_S; unfold pull_cls_body; rewrite Ec; exact I]].
      destruct (rc_pull rc) as [p|] eqn:Ep; [|destruct f; [exact I|rewrite pull_cls_S; unfold pull_cls_body; rewrite Ec, Ep; exact I]].
      destruct (HD c rc p Ec Ep) as (L & ML & ND). pose proof (picked_le ms L ND). eapply ends_imp; [apply (IHc c os ms st b L ML); lia|cbn beta; intros; lia|auto].
    - (* date *) eapply ends_bind with (Q' := fun _ s => errors s <= errors st + 1).
      { destruct j; try (eapply ends_bind; [apply mismatch_errors with (b := b); lia|cbn; intros; lia]). cbn. lia. }
      intros s0 s Hs. cbn beta. destruct (je_dt_parse J s0); leaf.
    - eapply ends_bind with (Q' := fun _ s => errors s <= errors st + 1).
      { destruct j; try (eapply ends_bind; [apply mismatch_errors with (b := b); lia|cbn; intros; lia]). cbn. lia. }
      intros s0 s Hs. cbn beta. destruct (je_ts_parse J s0); leaf.
    - destruct j; leaf.
    - destruct j; leaf.
  Qed.

  Lemma ecls_step f : Eval f -> Ecls f -> Ecls (S f).
  Proof.
    intros IH IHc c os ms st b L ML Hb. rewrite pull_cls_S. unfold pull_cls_body. inversion ML as [c' rc p Ls Ec Ep HB]; subst. rewrite Ec, Ep. cbv zeta.
    rewrite picked_app in *.
    eapply ends_bind with (Q' := fun _ s => errors s <= errors st + 3 * picked ms (concat Ls)).
    - clear ML Ec Ep. revert os st Hb. induction HB as [|c0 L0 bs Ls M0 HB IHb]; intros os st Hb; cbn [fold_m concat] in *; [cbn; lia|].
      rewrite picked_app in *. eapply ends_bind; [apply (IHc c0 os ms st b L0 M0); lia|]. cbn beta. intros os1 s1 H1.
      eapply ends_imp; [apply IHb; lia|cbn beta; intros; lia|auto].
    - cbn beta. intros os1 s1 H1.
      assert (X : forall st0, errors st0 = errors s1 -> ends (fold_m (fun os fd => pull_member (pull G J f) ms fd os) (jp_fields p) os1 st0)
        (fun _ s => errors s <= errors s1 + 3 * picked ms (jp_fields p)) (fun s => errors s <= b)).
      { intros st0 E0. assert (Es := picked_times 3 ms (jp_fields p)). cbn beta in Es.
        eapply ends_imp; [apply (fold_errors _ (fun fd => 3 * match alookup bytes_eqb (jf_name fd) ms with Some j => jsize j | None => 0 end)) with (b := b)|cbn beta; intros ? ?; rewrite Es; lia|auto].
        - intros a fd s _ Hs. unfold pull_member. destruct (alookup fkey_eqb (jf_key fd) a) as [o|]; [|exact I].
          destruct (alookup bytes_eqb (jf_name fd) ms) as [j|]; [|cbn; lia]. apply ends_map. apply ends_member.
          + intros _ s2 x. unfold errors, put_member. destruct (p_err s2); cbn; auto.
          + assert (Ee : errors (put_member (Some (jf_name fd)) s) = errors s) by (unfold errors, put_member; destruct (p_err s); reflexivity).
            eapply ends_imp; [apply IH with (b := b); lia|cbn beta; intros; lia|auto].
        - rewrite Es. lia. }
      destruct (jp_record p) as [n|].
      + apply ends_record; [intros _ s2 x; unfold errors, put_record; destruct (p_err s2); cbn; auto|].
        eapply ends_imp; [apply X; unfold errors, put_record; destruct (p_err s1); reflexivity|cbn beta; intros; lia|auto].
      + eapply ends_imp; [apply X; reflexivity|cbn beta; intros; lia|auto].
  Qed.
  Lemma errors_all f : Eval f /\ Ecls f.
  Proof. induction f as [|f [A B]]; [split; [intros t old j st b _; exact I|intros c os ms st b L _ _; exact I]|]. split; [apply eval_step|apply ecls_step]; assumption. Qed.
End Errors.

(** ** sizes *)
Section Sizes.
  Variable G : genv.
  Variable J : jenv.
  Variable k : nat.
  Hypothesis HA : alloc_ok G.
  Hypothesis HP : place_ok G.
  Hypothesis Hk : 1 <= k.
  Hypothesis HM : jcompact_members G k.
  Hypothesis HD : distinct_names G.

  Definition hs (st : pst) : nat := heap_size (p_heap st).
  Definition kept (a b : pst) : Prop := keeps (p_heap a) (p_heap b).
  Lemma kept_refl a : kept a a. Proof. apply keeps_refl. Qed.
  Lemma kept_trans a b c : kept a b -> kept b c -> kept a c. Proof. apply keeps_trans. Qed.
  Definition any (st : pst) : Prop := True.

  Definition Sval (f : nat) : Prop := forall t old j st, jcompact G k t ->
    ends (pull G J f t old j st) (fun v st' => vsize v + hs st' + k <= vsize old + hs st + news G t + k * jsize j /\ kept st st') any.
  Definition Scls (f : nat) : Prop := forall c os ms st L, members G rc_pull c L ->
    ends (pull_cls G J f c os ms st) (fun fs st' => fsizes fs + hs st' <= fsizes os + hs st + k * picked ms L /\ kept st st') any.

  Lemma report_sizes {A} e x y (a : A) st : ends (bind (report e x y) (fun _ => ret a) st) (fun b st' => b = a /\ hs st' = hs st /\ kept st st') any.
  Proof.
    eapply ends_bind with (Q' := fun _ s => p_heap s = p_heap st); [apply ends_report; intros s He _; split; [exact He|exact I]|]. cbn. intros _ s Hs.
    unfold hs, kept. rewrite Hs. split; [reflexivity|split; [reflexivity|apply keeps_refl]].
  Qed.
  Lemma times_jsize j : k <= k * jsize j. Proof. pose proof (jsize_pos j). nia. Qed.

  Ltac leaf := match goal with
    | |- ends (stuck _) _ _ => exact I
    | |- ends (ub _) _ _ => exact I
    | |- ends (mismatch _ _ _ _) _ _ => eapply ends_imp; [apply report_sizes|cbn beta; intros ? ? (-> & ? & ?); split; [lia|assumption]|auto]
    | |- ends (bind (report _ _ _) (fun _ => ret _) _) _ _ => eapply ends_imp; [apply report_sizes|cbn beta; intros ? ? (-> & ? & ?); split; [lia|assumption]|auto]
    | |- ends (ret _ _) _ _ => cbn [ends ret vsize]; split; [lia|apply kept_refl]
    end.

  Lemma ksum (c : nat -> nat) js : (forall n, c n = k * n) -> list_sum (map (fun j => c (jsize j)) js) = k * jsizes js.
  Proof. intros H. induction js as [|j js IH]; [cbn; lia|]. cbn [map]. rewrite sum_cons, jsizes_cons, IH, H. lia. Qed.
  Lemma kmsum ms : list_sum (map (fun nj : bytes * json => length (fst nj) + k * jsize (snd nj)) ms) <= k * msizes ms.
  Proof. induction ms as [|[n j] ms IH]; [cbn; lia|]. cbn [map fst snd]. rewrite sum_cons, msizes_cons, !Nat.mul_add_distr_l. nia. Qed.

  Lemma items_sizes (step : list val -> json -> M (list val)) js : 
    (forall a j st, In j js -> ends (step a j st) (fun a' st' => vsizes a' + hs st' <= vsizes a + hs st + k * jsize j /\ kept st st') any) ->
    forall a st, ends (pull_items step 0 js a st) (fun a' st' => vsizes a' + hs st' <= vsizes a + hs st + k * jsizes js /\ kept st st') any.
  Proof.
    intros H a st. assert (Es := ksum (fun n => k * n) js (fun _ => eq_refl)). cbn beta in Es.
    eapply ends_imp; [apply (items_bound (fun a s => vsizes a + hs s) kept kept_refl kept_trans any step (fun j => k * jsize j) js) with (base := vsizes a + hs st + k * jsizes js)| |].
    - intros a0 s i. reflexivity.
    - intros s i. unfold kept; cbn [p_heap]; apply keeps_refl.
    - intros a0 j st0 Hin _. apply H. exact Hin.
    - rewrite Es. lia.
    - cbn beta. rewrite Es. auto.
    - auto.
  Qed.
  Lemma fold_sizes {A B} (w : A -> nat) (step : A -> B -> M A) (cost : B -> nat) l : 
    (forall a x st, In x l -> ends (step a x st) (fun a' st' => w a' + hs st' <= w a + hs st + cost x /\ kept st st') any) ->
    forall a st, ends (fold_m step l a st) (fun a' st' => w a' + hs st' <= w a + hs st + list_sum (map cost l) /\ kept st st') any.
  Proof.
    intros H a st.
    eapply ends_imp; [apply (fold_bound (fun a s => w a + hs s) kept kept_refl kept_trans any step cost l) with (base := w a + hs st + list_sum (map cost l))| |].
    - intros a0 j st0 Hin _. apply H. exact Hin.
    - lia.
    - cbn beta. auto.
    - auto.
  Qed.

  Lemma get_int_sizes kk j st (Q : Z -> pst -> Prop) : (forall z, Q z st) -> ends (get_int kk j st) Q any.
  Proof. apply get_int_errors. Qed.

  Lemma tuple_sizes f ts : Sval f -> jcompact G k (TTuple ts) -> forall os js st,
    ends (pull_tuple (pull G J f) ts os js st) (fun xs st' => vsizes xs + hs st' <= vsizes os + hs st + k * jsizes js /\ kept st st') any.
  Proof.
    intros IH. induction ts as [|t ts IHt]; intros HC os js st; destruct os as [|o os]; cbn [pull_tuple]; try exact I.
    - cbn [ends ret]. split; [lia|apply kept_refl].
    - destruct js as [|j js]; [exact I|]. destruct HC as [[C1 C2] C3]. rewrite jsizes_cons. eapply ends_bind; [apply IH; exact C1|]. cbn beta. intros x s [Hs Ks].
      eapply ends_bind; [apply IHt; exact C3|]. cbn beta. intros xs s2 [Hs2 Ks2]. cbn [ends ret]. rewrite !vsizes_cons, Nat.mul_add_distr_l. split; [lia|eapply kept_trans; eassumption].
  Qed.
  Lemma jcompact_alt ts i t : jcompact G k (TVariant ts) -> nth_error ts i = Some t -> jcompact G k t /\ vsize (vinit G t) + news G t <= k.
  Proof using.
    cbn [jcompact]. revert i. induction ts as [|t0 ts IH]; intros [|i]; cbn; try discriminate.
    - intros [A _] [= ->]. exact A.
    - intros [_ A] E. exact (IH i A E).
  Qed.

  Lemma sval_step f : Sval f -> Scls f -> Sval (S f).
  Proof.
    intros IH IHc t old j st HC. rewrite pull_S. assert (Pj := jsize_pos j). assert (Pk := times_jsize j). assert (Po := vsize_pos old). unfold pull_body. destruct t; try exact I.
    - destruct j; leaf.
    - destruct (json_kind k0).
      + destruct (is_number j); [|leaf]. apply ends_map, get_int_sizes. intros z. cbn [vsize]. split; [lia|apply kept_refl].
      + destruct (byte_kind k0); [|leaf]. destruct (is_number j); [|leaf]. apply ends_map, get_int_sizes. intros z. cbn [vsize]. split; [lia|apply kept_refl].
    - destruct (get_double j); leaf.
    - destruct (get_double j); leaf.
    - destruct j; try leaf. destruct (in_range (enum_kind k0) z); leaf.
    - destruct j; try leaf. pose proof (cstr_length s) as LS. cbn [jsize ends ret vsize] in *. split; [|apply kept_refl]. rewrite Nat.mul_add_distr_l. nia.
    - (* seq *) destruct j; try leaf. rewrite jsize_arr in *. destruct HC as [C1 C2]. apply ends_map. eapply ends_imp; [apply items_sizes|cbn beta; intros a s [Hs Ks]|auto].
      + intros a j st0 _. apply ends_map. eapply ends_imp; [apply IH; exact C1|cbn beta; intros x s [Hs Ks]|auto].
        rewrite vsizes_app, vsizes_cons. change (vsizes []) with 0. split; [lia|exact Ks].
      + rewrite vsize_list. change (vsizes []) with 0 in Hs. rewrite Nat.mul_succ_r. split; [lia|exact Ks].
    - (* set *) destruct j; try leaf. rewrite jsize_arr in *. destruct HC as [C1 C2]. apply ends_map. eapply ends_imp; [apply items_sizes|cbn beta; intros a s [Hs Ks]|auto].
      + intros a j st0 _. eapply ends_bind; [apply IH; exact C1|]. cbn beta. intros x s [Hs Ks]. destruct (is_undef x); [exact I|].
        pose proof (emplace_size G false ord multi t x a HP) as ES. destruct (emplace G false ord multi t x a) as [l' ins]. cbn [fst] in ES.
        destruct (multi || ins); [cbn [ends ret]; split; [lia|exact Ks]|].
        eapply ends_bind with (Q' := fun _ s2 => p_heap s2 = p_heap s); [apply ends_report_unchecked; intros s2 He _; split; [exact He|exact I]|].
        cbn beta. intros _ s2 H2. cbn [ends ret]. unfold kept, hs in *. rewrite H2. split; [lia|exact Ks].
      + rewrite vsize_list. change (vsizes []) with 0 in Hs. rewrite Nat.mul_succ_r. split; [lia|exact Ks].
    - (* map *) destruct HC as (-> & C1 & C2). destruct t1; try exact I; destruct old as [| | | | | |olds| | | | | | |]; try exact I; destruct j; try leaf; rewrite jsize_obj in *.
      apply ends_map. pose proof (kmsum ms) as MS.
      eapply ends_imp; [apply (fold_sizes vsizes _ (fun nj : bytes * json => length (fst nj) + k * jsize (snd nj)))|cbn beta; intros a s [Hs Ks]|auto].
      2:{ rewrite !vsize_list, Nat.mul_succ_r in *. split; [lia|exact Ks]. }
      intros a [n j] st0 _. cbn [fst snd]. cbv zeta. assert (Pk2 := times_jsize j). destruct (map_find _ _ _ _ a) as [v|] eqn:Ef; apply ends_map.
      + eapply ends_imp; [apply IH; exact C1|cbn beta; intros x s [Hs Ks]|auto]. pose proof (map_put_size _ _ _ _ x _ _ Ef) as EP. split; [lia|exact Ks].
      + eapply ends_imp; [apply IH; exact C1|cbn beta; intros x s [Hs Ks]|auto]. 
        pose proof (emplace_size G true ord false TString (VPair (VStr (cstr n)) x) a HP) as ES. cbn [vsize] in ES. pose proof (cstr_length n). split; [lia|exact Ks].
    - (* pair *) destruct old as [| | | | | | |oa ob| | | | | |]; try exact I. destruct j; try leaf. rewrite jsize_arr in *. destruct (length l =? 2); [|leaf].
      destruct l as [|j1 [|j2 l]]; try exact I. cbn [nth_error]. rewrite !jsizes_cons in *. destruct HC as [[C1 C2] [C3 C4]].
      eapply ends_bind; [apply IH; exact C1|]. cbn beta. intros x s [Hs Ks].
      eapply ends_bind; [apply IH; exact C3|]. cbn beta. intros y s2 [Hs2 Ks2]. cbn [ends ret vsize]. rewrite Nat.mul_succ_r, !Nat.mul_add_distr_l.
      split; [lia|eapply kept_trans; eassumption].
    - (* tuple *) destruct ts as [|t0 ts]; [exact I|]. destruct old as [| | | | | |olds| | | | | | |]; try exact I. destruct j; try leaf. rewrite jsize_arr in *.
      destruct (length l =? length (t0 :: ts)); [|leaf]. apply ends_map. eapply ends_imp; [apply (tuple_sizes f _ IH HC)|cbn beta; intros xs s [Hs Ks]|auto].
      rewrite !vsize_list, Nat.mul_succ_r. split; [lia|exact Ks].
    - (* unique *) cbn [news]. destruct j; try leaf; apply ends_map; (eapply ends_imp; [apply IH; exact HC|cbn beta; intros x s8 [Hs Ks]|auto]); cbn [vsize]; (split; [lia|exact Ks]).
    - cbn [news]. destruct j; try leaf; apply ends_map; (eapply ends_imp; [apply IH; exact HC|cbn beta; intros x s8 [Hs Ks]|auto]); cbn [vsize]; (split; [lia|exact Ks]).
    - (* shared *) cbn [news]. assert (X : ends (bind (in_new G t (pull G J f t (vinit G t) j)) (fun a => ret (VShared (Some a))) st)
        (fun v st' => vsize v + hs st' + k <= vsize old + hs st + (vsize (vinit G t) + news G t) + k * jsize j /\ kept st st') any).
      { apply ends_map. unfold in_new. cbv zeta. set (a := g_alloc G (p_heap st)). assert (Hn : ~ In a (map fst (p_heap st))) by apply HA.
        set (st1 := {| p_heap := hset _ _ _; p_err := p_err st |}). specialize (IH t (vinit G t) j st1 HC).
        destruct (pull G J f t (vinit G t) j st1) as [x s| | | |]; cbn [ends] in *; try exact I. destruct IH as [Hs Ks].
        unfold hs, kept in *. cbn [p_heap vsize] in *. unfold st1 in *. cbn [p_heap] in *. rewrite (heap_size_new _ _ _ _ Hn) in Hs.
        assert (Eg : hget (p_heap s) a = Some (t, vinit G t)).
        { destruct (Ks a ltac:(left; reflexivity)) as [_ E2]. rewrite E2. apply hget_hset_same. }
        pose proof (heap_size_update _ _ t x _ _ Eg) as HU. split; [lia|].
        intros b Hin. destruct (keeps_new _ _ (t, vinit G t) Hn b Hin) as [I1 I2]. destruct (Ks b I1) as [I3 I4]. split; [right; exact I3|].
        rewrite hget_hset_other; [congruence|]. intros <-. contradiction. }
      destruct j; try exact X. leaf.
    - (* variant *) destruct j; try leaf. rewrite jsize_obj in *. destruct (alookup bytes_eqb (list_byte_of_string "index") ms) as [ji|]; [|leaf].
      destruct (alookup bytes_eqb (list_byte_of_string "data") ms) as [jd|] eqn:Ed; [|leaf]. apply member_le in Ed. destruct ji; try leaf.
      destruct (in_range KU64 z); [|leaf]. destruct (if N.ltb _ _ then nth_error ts (Z.to_nat z) else None) as [t'|] eqn:En; [|leaf].
      assert (Ea : nth_error ts (Z.to_nat z) = Some t') by (destruct (N.ltb _ _); [exact En|discriminate]). destruct (jcompact_alt _ _ _ HC Ea) as [C1 C2].
      assert (Ek : k * jsize jd <= k * msizes ms) by (apply Nat.mul_le_mono_l; exact Ed).
      assert (X : ends (bind (pull G J f t' (vinit G t') jd) (fun x => ret (VVar (Z.to_nat z) x)) st)
        (fun v st' => vsize v + hs st' + k <= vsize old + hs st + news G (TVariant ts) + k * S (msizes ms) /\ kept st st') any).
      { apply ends_map. eapply ends_imp; [apply IH; exact C1|cbn beta; intros x s [Hs Ks]|auto]. cbn [vsize]. rewrite Nat.mul_succ_r. split; [lia|exact Ks]. }
      destruct t'; try exact X. pose proof (jsize_pos jd). cbn [ends ret vsize]. rewrite Nat.mul_succ_r. split; [nia|apply kept_refl].
    - (* class *) destruct old as [| | | | | | | | | | | | |os]; try exact I. destruct j; try leaf. rewrite jsize_obj in *. apply ends_map.
      destruct (g_class G c) as [rc|] eqn:Ec; [|destruct f; [exact I|rewrite pull_cls_S; unfold pull_cls_body; rewrite Ec; exact I]].
      destruct (rc_pull rc) as [p|] eqn:Ep; [|destruct f; [exact I|rewrite pull_cls_S; unfold pull_cls_body; rewrite Ec, Ep; exact I]].
      destruct (HD c rc p Ec Ep) as (L & ML & ND). pose proof (picked_le ms L ND) as PL. apply (Nat.mul_le_mono_l _ _ k) in PL.
      eapply ends_imp; [apply (IHc c os ms st L ML)|cbn beta; intros fs s [Hs Ks]|auto]. rewrite !vsize_obj, Nat.mul_succ_r. split; [lia|exact Ks].
    - (* date *) eapply ends_bind with (Q' := fun _ s => hs s = hs st /\ kept st s).
      { destruct j; try (eapply ends_bind; [apply report_sizes|cbn beta; intros ? ? (_ & H); exact H]). cbn. split; [reflexivity|apply kept_refl]. }
      intros s0 s [Hs Ks]. cbn beta. destruct (je_dt_parse J s0); [cbn [ends ret vsize]; split; [lia|exact Ks]|].
      eapply ends_imp; [apply report_sizes|cbn beta; intros ? ? (-> & E1 & E2); split; [lia|eapply kept_trans; eassumption]|auto].
    - eapply ends_bind with (Q' := fun _ s => hs s = hs st /\ kept st s).
      { destruct j; try (eapply ends_bind; [apply report_sizes|cbn beta; intros ? ? (_ & H); exact H]). cbn. split; [reflexivity|apply kept_refl]. }
      intros s0 s [Hs Ks]. cbn beta. destruct (je_ts_parse J s0); [cbn [ends ret vsize]; split; [lia|exact Ks]|].
      eapply ends_imp; [apply report_sizes|cbn beta; intros ? ? (-> & E1 & E2); split; [lia|eapply kept_trans; eassumption]|auto].
    - destruct j; leaf.
    - destruct j; leaf.
  Qed.

  Lemma scls_step f : Sval f -> Scls f -> Scls (S f).
  Proof.
    intros IH IHc c os ms st L ML. rewrite pull_cls_S. unfold pull_cls_body. inversion ML as [c' rc p Ls Ec Ep HB]; subst. rewrite Ec, Ep. cbv zeta.
    rewrite picked_app, Nat.mul_add_distr_l in *.
    eapply ends_bind with (Q' := fun os1 s => fsizes os1 + hs s <= fsizes os + hs st + k * picked ms (concat Ls) /\ kept st s).
    - clear ML Ec Ep. revert os st. induction HB as [|c0 L0 bs Ls M0 HB IHb]; intros os st; cbn [fold_m concat] in *; [cbn [ends ret]; split; [lia|apply kept_refl]|].
      rewrite picked_app, Nat.mul_add_distr_l in *. eapply ends_bind; [apply (IHc c0 os ms st L0 M0)|]. cbn beta. intros os1 s1 [H1 K1].
      eapply ends_imp; [apply IHb|cbn beta; intros os2 s2 [H2 K2]|auto]. split; [lia|eapply kept_trans; eassumption].
    - cbn beta. intros os1 s1 [H1 K1].
      assert (X : forall st0, p_heap st0 = p_heap s1 -> ends (fold_m (fun os fd => pull_member (pull G J f) ms fd os) (jp_fields p) os1 st0)
        (fun fs s => fsizes fs + hs s <= fsizes os1 + hs s1 + k * picked ms (jp_fields p) /\ kept s1 s) any).
      { intros st0 E0. assert (Es := picked_times k ms (jp_fields p)). cbn beta in Es.
        eapply ends_imp; [apply (fold_sizes fsizes _ (fun fd => k * match alookup bytes_eqb (jf_name fd) ms with Some j => jsize j | None => 0 end))|cbn beta; intros fs s2 [H2 K2]|auto].
        2:{ rewrite Es in H2. unfold kept, hs in *. rewrite E0 in *. split; [lia|exact K2]. }
        intros a fd s Hin. unfold pull_member. destruct (alookup fkey_eqb (jf_key fd) a) as [o|] eqn:Eo; [|exact I].
        destruct (alookup bytes_eqb (jf_name fd) ms) as [j|]; [|cbn [ends ret]; split; [lia|apply kept_refl]]. apply ends_map. apply ends_member.
        - intros x s2 y. auto.
        - destruct (HM c rc p fd Ec Ep Hin) as [C1 C2].
          eapply ends_imp; [apply IH; exact C1|cbn beta; intros x s2 [H2 K2]|auto]. pose proof (fsizes_update _ x _ _ Eo) as FU. unfold hs in *. cbn [put_member p_heap] in *. split; [lia|exact K2]. }
      destruct (jp_record p) as [n|].
      + apply ends_record; [intros x s2 y; auto|].
        eapply ends_imp; [apply X; reflexivity|cbn beta; intros x s2 [H2 K2]|auto]. split; [lia|eapply kept_trans; eassumption].
      + eapply ends_imp; [apply X; reflexivity|cbn beta; intros x s2 [H2 K2]|auto]. split; [lia|eapply kept_trans; eassumption].
  Qed.
  Lemma sizes_all f : Sval f /\ Scls f.
  Proof. induction f as [|f [A B]]; [split; [intros t old j st _; exact I|intros c os ms st L _; exact I]|]. split; [apply sval_step|apply scls_step]; assumption. Qed.
End Sizes.
