(** SizeJson.v -- proofs for property C66: the size of documents *)
From Coq Require Import String List NArith ZArith Bool Arith Lia Permutation.
From Verif Require Import Base BaseFacts Types TypesFacts BinModel BinSpec BinFacts Float JsonModel JsonRel JsonSpec BoundSpec BoundFacts JBoundSpec JBoundFacts JTreeSpec JTreeFacts SizeSpec SizeBin.
Import ListNotations.
Local Open Scope list_scope.
Local Open Scope nat_scope.

(** ** following pointers *)
Section Unfold.
  Variable h : heap.
  Definition obj (a : N) : val := match hget h a with Some (_, x) => x | None => VUndef end.
  Definition osize (a : N) : nat := match hget h a with Some (_, x) => vsize x | None => 0 end.
  Fixpoint visited (d : nat) (v : val) : list N :=
    match d with O => [] | S d' => targets v ++ flat_map (fun a => visited d' (obj a)) (targets v) end.
  Lemma sum_app l m : list_sum (l ++ m) = list_sum l + list_sum m. Proof. apply list_sum_app. Qed.
  Lemma sum_flat {A B} (f : B -> nat) (g : A -> list B) l : list_sum (map f (flat_map g l)) = list_sum (map (fun a => list_sum (map f (g a))) l).
  Proof. induction l as [|a l IH]; [reflexivity|]. cbn [flat_map map]. rewrite map_app, sum_app, sum_cons, IH. reflexivity. Qed.
  Lemma sum_plus {A} (f g : A -> nat) l : list_sum (map (fun a => f a + g a) l) = list_sum (map f l) + list_sum (map g l).
  Proof. induction l as [|a l IH]; [reflexivity|]. cbn [map]. rewrite !sum_cons, IH. lia. Qed.
  Lemma sum_ext {A} (f g : A -> nat) l : (forall a, f a = g a) -> list_sum (map f l) = list_sum (map g l).
  Proof. intros E. f_equal. apply map_ext. exact E. Qed.
  Lemma sum_le {A} (f g : A -> nat) l : (forall a, In a l -> f a <= g a) -> list_sum (map f l) <= list_sum (map g l).
  Proof. induction l as [|a l IH]; intros E; [cbn; lia|]. cbn [map]. rewrite !sum_cons. specialize (IH (fun b Hb => E b (or_intror Hb))). specialize (E a (or_introl eq_refl)). lia. Qed.
  Lemma visited_undef d a : hget h a = None -> visited d (obj a) = [].
  Proof. intros E. unfold obj. rewrite E. destruct d; reflexivity. Qed.
  Lemma unfolded_visited d : forall v, unfolded h d v = vsize v + list_sum (map osize (visited d v)).
  Proof.
    induction d as [|d IH]; intros v; cbn [unfolded visited]; [cbn; lia|]. rewrite map_app, sum_app, sum_flat, <- sum_plus. f_equal. apply sum_ext.
    intros a. unfold osize at 1. destruct (hget h a) as [[t x]|] eqn:E.
    - rewrite IH. unfold obj. rewrite E. reflexivity.
    - rewrite visited_undef by exact E. reflexivity.
  Qed.
  Lemma flat_map_app_perm {A B} (f g : A -> list B) l : Permutation (flat_map (fun a => f a ++ g a) l) (flat_map f l ++ flat_map g l).
  Proof.
    induction l as [|a l IH]; [constructor|]. cbn [flat_map]. rewrite <- !app_assoc. apply Permutation_app_head. rewrite IH. rewrite !app_assoc. apply Permutation_app_tail, Permutation_app_comm.
  Qed.
  Lemma flat_map_perm {A B} (f g : A -> list B) l : (forall a, Permutation (f a) (g a)) -> Permutation (flat_map f l) (flat_map g l).
  Proof. intros E. induction l as [|a l IH]; [constructor|]. cbn [flat_map]. apply Permutation_app; [apply E|exact IH]. Qed.
  Lemma flat_map_flat {A B C} (f : B -> list C) (g : A -> list B) l : flat_map f (flat_map g l) = flat_map (fun a => flat_map f (g a)) l.
  Proof. induction l as [|a l IH]; [reflexivity|]. cbn [flat_map]. rewrite flat_map_app, IH. reflexivity. Qed.
  (** the last step first *)
  Lemma visited_last d : forall v, Permutation (visited (S d) v) (targets v ++ flat_map (fun a => targets (obj a)) (visited d v)).
  Proof.
    induction d as [|d IH]; intros v.
    - cbn [visited flat_map]. assert (X : forall l : list N, flat_map (fun _ : N => @nil N) l = []) by (induction l; [reflexivity|assumption]). rewrite X. apply Permutation_refl.
    - change (visited (S (S d)) v) with (targets v ++ flat_map (fun a => visited (S d) (obj a)) (targets v)). change (visited (S d) v) with (targets v ++ flat_map (fun a => visited d (obj a)) (targets v)).
      apply Permutation_app_head. rewrite flat_map_app, flat_map_flat. eapply perm_trans; [apply flat_map_perm; intros a; apply IH|]. apply flat_map_app_perm.
  Qed.
  Lemma count_targets a : forall v, count_occ N.eq_dec (targets v) a = pointers a v.
  Proof.
    fix IH 1. intros [| | | | | |l|x y|[x|]|[b|]|i x| | |fs]; cbn [targets pointers]; try reflexivity.
    - induction l as [|x l IHl]; [reflexivity|]. rewrite count_occ_app, IHl, (IH x). reflexivity.
    - rewrite count_occ_app, (IH x), (IH y). reflexivity.
    - apply IH.
    - clear IH. cbn. destruct (N.eq_dec b a) as [->|Hn]; [rewrite N.eqb_refl; reflexivity|]. destruct (N.eqb_spec a b); [congruence|reflexivity].
    - apply IH.
    - induction fs as [|[k x] fs IHl]; [reflexivity|]. rewrite count_occ_app, IHl, (IH x). reflexivity.
  Qed.
  Lemma count_flat {A} (f : A -> list N) a l : count_occ N.eq_dec (flat_map f l) a = list_sum (map (fun b => count_occ N.eq_dec (f b) a) l).
  Proof. induction l as [|b l IH]; [reflexivity|]. cbn [flat_map map]. rewrite count_occ_app, sum_cons, IH. reflexivity. Qed.
  (** sums over different elements *)
  Lemma sum_incl (f : N -> nat) l : NoDup l -> forall m, (forall a, In a l -> f a <> 0 -> In a m) -> list_sum (map f l) <= list_sum (map f m).
  Proof.
    induction l as [|a l IH]; intros ND m Hm; [cbn; lia|]. inversion ND; subst. cbn [map]. rewrite sum_cons. destruct (Nat.eq_dec (f a) 0) as [E|E].
    - rewrite E. apply IH; [assumption|]. intros b Hb. apply Hm. right. exact Hb.
    - destruct (in_split _ _ (Hm a (or_introl eq_refl) E)) as (m1 & m2 & ->). rewrite map_app, sum_app. cbn [map]. rewrite sum_cons.
      assert (X : list_sum (map f l) <= list_sum (map f (m1 ++ m2))).
      { apply IH; [assumption|]. intros b Hb Fb. specialize (Hm b (or_intror Hb) Fb). apply in_app_or in Hm. apply in_or_app. destruct Hm as [Hm|[<- | Hm]]; tauto. }
      rewrite map_app, sum_app in X. lia.
  Qed.
  Lemma visited_nodup v : unshared h v -> forall d, NoDup (visited d v).
  Proof.
    intros U. induction d as [|d IH]; [constructor|]. eapply Permutation_NoDup; [apply Permutation_sym, visited_last|]. apply (NoDup_count_occ N.eq_dec). intros a.
    rewrite count_occ_app, count_targets, count_flat. eapply Nat.le_trans; [|exact (U a)]. apply Nat.add_le_mono_l. rewrite heap_pointers_entry.
    rewrite (sum_ext _ (hentry a h)).
    - apply sum_incl; [exact IH|]. intros b _ E. apply addresses_in. unfold hentry in E. destruct (hget h b) eqn:Eb; [eapply hget_in; exact Eb|congruence].
    - intros b. rewrite count_targets. unfold hentry, obj. destruct (hget h b) as [[t x]|]; reflexivity.
  Qed.
  Lemma unfolded_unshared v d : unshared h v -> unfolded h d v <= vsize v + heap_size h.
  Proof.
    intros U. rewrite unfolded_visited. apply Nat.add_le_mono_l. apply (sum_incl osize _ (visited_nodup v U d)). intros a _ E. apply addresses_in. unfold osize in E.
    destruct (hget h a) eqn:Ea; [eapply hget_in; exact Ea|congruence].
  Qed.

  (** *** parts of a value *)
  Definition reached (d : nat) (l : list N) : nat :=
    match d with O => 0 | S d' => list_sum (map (fun a => match hget h a with Some (_, x) => unfolded h d' x | None => 0 end) l) end.
  Lemma unfolded_reached d v : unfolded h d v = vsize v + reached d (targets v). Proof. destruct d; reflexivity. Qed.
  Lemma reached_app d l m : reached d (l ++ m) = reached d l + reached d m.
  Proof. destruct d; [reflexivity|]. cbn [reached]. rewrite map_app, sum_app. reflexivity. Qed.
  Lemma unfolded_mono d : forall v, unfolded h d v <= unfolded h (S d) v.
  Proof.
    induction d as [|d IH]; intros v; [cbn; lia|]. cbn [unfolded]. apply Nat.add_le_mono_l. apply sum_le. intros a _. destruct (hget h a) as [[t x]|]; [apply IH|lia].
  Qed.
  Lemma unfolded_pos d v : 1 <= unfolded h d v. Proof. rewrite unfolded_reached. pose proof (vsize_pos v). lia. Qed.
  Definition us (d : nat) (l : list val) : nat := list_sum (map (unfolded h d) l).
  Lemma unfolded_list d l : unfolded h d (VList l) = S (us d l).
  Proof.
    rewrite unfolded_reached, vsize_list. unfold us. cbn [plus]. f_equal. induction l as [|x l IH]; [destruct d; reflexivity|].
    cbn [targets map] in *. rewrite vsizes_cons, reached_app, sum_cons, <- IH, unfolded_reached. lia.
  Qed.
  Lemma unfolded_pair d x y : unfolded h d (VPair x y) = S (unfolded h d x + unfolded h d y).
  Proof. rewrite !unfolded_reached. cbn [vsize targets]. rewrite reached_app. lia. Qed.
  Lemma unfolded_some d x : unfolded h d (VOpt (Some x)) = S (unfolded h d x). Proof. rewrite !unfolded_reached. reflexivity. Qed.
  Lemma unfolded_alt d i x : unfolded h d (VVar i x) = S (unfolded h d x). Proof. rewrite !unfolded_reached. reflexivity. Qed.
  Lemma unfolded_shared d a t x : hget h a = Some (t, x) -> unfolded h (S d) (VShared (Some a)) = S (unfolded h d x).
  Proof. intros E. cbn [unfolded vsize targets map]. rewrite E, sum_cons. cbn. lia. Qed.
  Definition ufs (d : nat) (fs : list (fkey * val)) : nat := list_sum (map (fun kv => unfolded h d (snd kv)) fs).
  Lemma unfolded_obj d fs : unfolded h d (VObj fs) = S (ufs d fs).
  Proof.
    rewrite unfolded_reached, vsize_obj. unfold ufs, fsizes. cbn [plus]. f_equal. induction fs as [|[k x] l IH]; [destruct d; reflexivity|].
    cbn [targets map snd] in *. rewrite reached_app, !sum_cons, <- IH, unfolded_reached. lia.
  Qed.
End Unfold.

(** members with different keys are different parts of the object *)
Definition wpicked (w : val -> nat) (fs : list (fkey * val)) (L : list jfield) : nat :=
  list_sum (map (fun fd => match alookup fkey_eqb (jf_key fd) fs with Some v => w v | None => 0 end) L).
Lemma wpicked_app w fs L L' : wpicked w fs (L ++ L') = wpicked w fs L + wpicked w fs L'.
Proof. unfold wpicked. rewrite map_app, list_sum_app. reflexivity. Qed.
Lemma wpicked_cons w fs fd L : wpicked w fs (fd :: L) = match alookup fkey_eqb (jf_key fd) fs with Some v => w v | None => 0 end + wpicked w fs L.
Proof. reflexivity. Qed.
Lemma wpicked_out w k v fs L : ~ In k (map jf_key L) -> wpicked w ((k, v) :: fs) L = wpicked w fs L.
Proof.
  induction L as [|fd L IH]; intros H; [reflexivity|]. rewrite !wpicked_cons, IH by (intros X; apply H; right; exact X).
  cbn [alookup]. destruct (fkey_eqb (jf_key fd) k) eqn:E; [|reflexivity]. apply fkey_eqb_eq in E. exfalso. apply H. left. exact E.
Qed.
Lemma wpicked_in w k v fs L : NoDup (map jf_key L) -> wpicked w ((k, v) :: fs) L <= w v + wpicked w fs L.
Proof.
  induction L as [|fd L IH]; intros ND; [cbn; lia|]. cbn [map] in ND. apply NoDup_cons_iff in ND. destruct ND as [N1 N2]. specialize (IH N2).
  rewrite !wpicked_cons. cbn [alookup]. destruct (fkey_eqb (jf_key fd) k) eqn:E.
  - apply fkey_eqb_eq in E. subst k. rewrite wpicked_out by exact N1. lia.
  - lia.
Qed.
Lemma wpicked_le w fs L : NoDup (map jf_key L) -> wpicked w fs L <= list_sum (map (fun kv => w (snd kv)) fs).
Proof.
  intros ND. induction fs as [|[k v] fs IH].
  - assert (X : forall L, wpicked w [] L = 0) by (induction L0 as [|fd L0 IH]; [reflexivity|exact IH]). rewrite X. lia.
  - pose proof (wpicked_in w k v fs L ND). cbn [map snd]. rewrite sum_cons. lia.
Qed.

Lemma sized_length s : length (sized s) <= length s.
Proof. unfold sized. cbv zeta. destruct (N.ltb _ _); [rewrite firstn_length; lia|lia]. Qed.
Lemma msizes_app l m : msizes (l ++ m) = msizes l + msizes m.
Proof. unfold msizes. rewrite map_app, list_sum_app. reflexivity. Qed.
Lemma append_size k j ms : forall ms', append_existing k j ms = Some ms' -> msizes ms' = msizes ms + jsize j.
Proof.
  induction ms as [|[k' x] ms IH]; intros ms'; cbn [append_existing]; [discriminate|]. destruct (bytes_eqb k k').
  - destruct x; try discriminate. intros [= <-]. rewrite !msizes_cons, !jsize_arr. unfold jsizes. rewrite map_app, list_sum_app. cbn. lia.
  - destruct (append_existing k j ms) as [ms''|]; [|discriminate]. intros [= <-]. rewrite !msizes_cons, (IH _ eq_refl). lia.
Qed.
Lemma add_multi_size k j ms : msizes (add_multi k j ms) <= msizes ms + length k + 1 + jsize j.
Proof.
  unfold add_multi. destruct (append_existing (cstr k) j ms) as [ms'|] eqn:E; [apply append_size in E; lia|].
  rewrite msizes_app, msizes_cons, jsize_arr, jsizes_cons. change (jsizes []) with 0. change (msizes []) with 0. pose proof (sized_length k). lia.
Qed.

Section Push.
  Variable G : genv.
  Variable J : jenv.
  Variable H : heap.
  Variables n d : nat.
  Hypothesis HO : pushed_once G n.
  Hypothesis HJ : short_dates J d.
  Definition Kj : nat := n + d + 11.
  Notation U := (unfolded H).

  Definition Jval (f : nat) : Prop := forall t v j, push G J H f t v = ROk j -> jsize j + n <= Kj * U f v.
  Definition Jcls (f : nat) : Prop := forall c fs ms ms' L, members G pushed_by c L -> (forall fd, In fd L -> length (jf_name fd) <= n) ->
    push_cls G J H f c fs ms = ROk ms' -> msizes ms' <= msizes ms + Kj * wpicked (U f) fs L.

  Lemma mono f v : Kj * U f v <= Kj * U (S f) v. Proof. apply Nat.mul_le_mono_l, unfolded_mono. Qed.
  Lemma iter_size {A} (p : A -> res json) (c : A -> nat) l : (forall x j, In x l -> p x = ROk j -> jsize j <= c x) ->
    forall js, push_iter p l = ROk js -> jsizes js <= list_sum (map c l).
  Proof.
    induction l as [|x l IH]; intros Hp js; cbn [push_iter]; [intros [= <-]; cbn; lia|]. intros E. apply rbind_ok in E. destruct E as (y & E1 & E). apply rbind_ok in E. destruct E as (ys & E2 & E).
    injection E as <-. rewrite jsizes_cons. cbn [map]. rewrite sum_cons. apply Hp in E1; [|left; reflexivity]. apply IH in E2; [lia|]. intros z j Hz. apply Hp. right. exact Hz.
  Qed.
  Lemma fold_size {A} (p : A -> list (bytes * json) -> res (list (bytes * json))) (c : A -> nat) l : (forall x ms ms', In x l -> p x ms = ROk ms' -> msizes ms' <= msizes ms + c x) ->
    forall ms ms', push_fold p l ms = ROk ms' -> msizes ms' <= msizes ms + list_sum (map c l).
  Proof.
    induction l as [|x l IH]; intros Hp ms ms'; cbn [push_fold]; [intros [= <-]; cbn; lia|]. intros E. apply rbind_ok in E. destruct E as (ms1 & E1 & E).
    cbn [map]. rewrite sum_cons. apply Hp in E1; [|left; reflexivity]. apply IH in E; [lia|]. intros z m m' Hz. apply Hp. right. exact Hz.
  Qed.
  Lemma ksum_us f l : list_sum (map (fun x => Kj * U f x) l) = Kj * us H f l.
  Proof. unfold us. induction l as [|x l IH]; [cbn; lia|]. cbn [map]. rewrite !sum_cons, IH. lia. Qed.

  Lemma jval_step f : Jval f -> Jcls f -> Jval (S f).
  Proof.
    intros IH IHc t v j. rewrite push_S.
    assert (PN : n + 11 <= Kj) by (unfold Kj; lia). assert (P1 : 1 <= U (S f) v) by apply unfolded_pos.
    assert (PK : forall m, m <= Kj -> m <= Kj * U (S f) v) by (intros m Hm; nia).
    assert (PS : forall m (s : bytes), U (S f) v = S (length s) -> m <= length s -> S m + n <= Kj * U (S f) v) by (intros m s -> Hm; unfold Kj; nia).
    unfold push_body. destruct t; try (destruct v; discriminate).
    - destruct v; try discriminate. intros [= <-]. apply PK. unfold Kj. cbn. lia.
    - destruct v; try discriminate. destruct (_ || _); [|discriminate]. intros [= <-]. apply PK. unfold Kj. cbn. lia.
    - destruct v; try discriminate. intros [= <-]. apply PK. unfold Kj. cbn. lia.
    - destruct v; try discriminate. intros [= <-]. apply PK. unfold Kj. cbn. lia.
    - destruct v; try discriminate. intros [= <-]. apply PK. unfold Kj. cbn. lia.
    - destruct v; try discriminate. intros [= <-]. cbn [jsize]. apply (PS _ s); [cbn; lia|apply sized_length].
    - destruct v; try discriminate. intros E. apply rbind_ok in E. destruct E as (js & E & E2). injection E2 as <-.
      apply (iter_size _ (fun x => Kj * U (S f) x)) in E; [|intros x jx _ Ex; apply IH in Ex; pose proof (mono f x); lia].
      rewrite ksum_us in E. rewrite jsize_arr, unfolded_list, Nat.mul_succ_r. lia.
    - destruct v; try discriminate. intros E. apply rbind_ok in E. destruct E as (js & E & E2). injection E2 as <-.
      apply (iter_size _ (fun x => Kj * U (S f) x)) in E; [|intros x jx _ Ex; apply IH in Ex; pose proof (mono f x); lia].
      rewrite ksum_us in E. rewrite jsize_arr, unfolded_list, Nat.mul_succ_r. lia.
    - (* map *) destruct multi, t1; try (destruct v; discriminate); destruct v; try discriminate; intros E; apply rbind_ok in E; destruct E as (ms & E & E2); injection E2 as <-;
        (apply (fold_size _ (fun x => Kj * U (S f) x)) in E;
         [rewrite ksum_us in E; rewrite jsize_obj, unfolded_list, Nat.mul_succ_r; change (msizes []) with 0 in E; unfold Kj at 2; lia|]);
        intros x ms0 ms' _ Ex; destruct x as [| | | | | | |x y| | | | | |]; try discriminate; destruct x; try discriminate; apply rbind_ok in Ex; destruct Ex as (jy & Ey & Ex); injection Ex as <-;
        apply IH in Ey; pose proof (mono f y) as My; rewrite unfolded_pair; assert (Us : U (S f) (VStr s) = S (length s)) by (cbn; lia); rewrite Us; assert (P11 : 11 <= Kj) by (unfold Kj; lia);
        assert (LK : length s <= Kj * length s) by nia.
      + pose proof (add_multi_size s jy ms0) as AM. rewrite Nat.mul_succ_r, Nat.mul_add_distr_l, Nat.mul_succ_r. lia.
      + rewrite msizes_app, msizes_cons. change (msizes []) with 0. pose proof (cstr_length s). rewrite Nat.mul_succ_r, Nat.mul_add_distr_l, Nat.mul_succ_r. lia.
    - (* pair *) destruct v; try discriminate. intros E. apply rbind_ok in E. destruct E as (ja & Ea & E). apply rbind_ok in E. destruct E as (jb & Eb & E). injection E as <-.
      apply IH in Ea. apply IH in Eb. pose proof (mono f v1). pose proof (mono f v2). rewrite jsize_arr, !jsizes_cons, unfolded_pair, Nat.mul_succ_r, Nat.mul_add_distr_l. change (jsizes []) with 0. lia.
    - (* tuple *) destruct ts as [|t0 ts]; [destruct v; discriminate|]. destruct v; try discriminate. destruct (Nat.eqb _ _) eqn:El; [|discriminate]. intros E. apply rbind_ok in E. destruct E as (js & E & E2). injection E2 as <-.
      apply (iter_size _ (fun tx => Kj * U (S f) (snd tx))) in E; [|intros [t' x] jx _ Ex; apply IH in Ex; pose proof (mono f x); cbn [snd]; lia].
      apply Nat.eqb_eq in El. assert (X : list_sum (map (fun tx : ty * val => Kj * U (S f) (snd tx)) (combine (t0 :: ts) l)) <= Kj * us H (S f) l).
      { rewrite <- ksum_us. clear. generalize (t0 :: ts). intros l0. revert l0. induction l as [|x l IHl]; intros [|t l0]; cbn [combine map]; try (cbn; lia). rewrite !sum_cons. cbn [snd]. specialize (IHl l0). lia. }
      rewrite jsize_arr, unfolded_list, Nat.mul_succ_r. lia.
    - destruct v as [| | | | | | | |[x|]| | | | |]; try discriminate; [intros E; apply IH in E; pose proof (mono f x); rewrite unfolded_some, Nat.mul_succ_r; lia|intros [= <-]; apply PK; unfold Kj; cbn; lia].
    - destruct v as [| | | | | | | |[x|]| | | | |]; try discriminate; [intros E; apply IH in E; pose proof (mono f x); rewrite unfolded_some, Nat.mul_succ_r; lia|intros [= <-]; apply PK; unfold Kj; cbn; lia].
    - destruct v as [| | | | | | | | |[a|]| | | |]; try discriminate; [|intros [= <-]; apply PK; unfold Kj; cbn; lia].
      destruct (hget H a) as [[t'' x]|] eqn:Eg; [|discriminate]. destruct (ty_eqb t t''); [|discriminate]. intros E. apply IH in E. rewrite (unfolded_shared H f a t'' x Eg), Nat.mul_succ_r. lia.
    - (* variant *) destruct v; try discriminate; [|intros [= <-]; apply PK; unfold Kj; cbn; lia]. intros E. apply rbind_ok in E. destruct E as (jd & Ed & E). injection E as <-.
      assert (X : jsize jd + n <= Kj * U (S f) v).
      { destruct (nth_error ts i) as [t'|]; [|discriminate]. assert (Y : push G J H f t' v = ROk jd -> jsize jd + n <= Kj * U (S f) v) by (intros Y; apply IH in Y; pose proof (mono f v); lia).
        destruct t'; try exact (Y Ed). injection Ed as <-. pose proof (unfolded_pos H (S f) v). unfold Kj. cbn [jsize]. nia. }
      rewrite unfolded_alt, Nat.mul_succ_r, jsize_obj, !msizes_cons. change (msizes []) with 0. change (jsize (JInt (Z.of_nat i))) with 1.
      assert (L5 : length (list_byte_of_string "index") = 5) by reflexivity. assert (L4 : length (list_byte_of_string "data") = 4) by reflexivity. rewrite L5, L4. lia.
    - (* class *) destruct v; try discriminate. intros E. apply rbind_ok in E. destruct E as (ms & E & E2). injection E2 as <-. destruct (g_class G c) as [rc|] eqn:Ec.
      + destruct (HO c rc Ec) as (L & HM & ND & HN). apply (IHc c fs [] ms L HM HN) in E. change (msizes []) with 0 in E. pose proof (wpicked_le (U f) fs L ND) as WL.
        assert (MF : ufs H f fs <= ufs H (S f) fs) by (apply sum_le; intros kv _; apply unfolded_mono).
        unfold ufs in MF at 1. rewrite jsize_obj, unfolded_obj, Nat.mul_succ_r. assert (Kj * wpicked (U f) fs L <= Kj * ufs H (S f) fs) by (apply Nat.mul_le_mono_l; lia). unfold Kj at 2. lia.
      + destruct f as [|f]; [discriminate|]. rewrite push_cls_S in E. unfold push_cls_body in E. rewrite Ec in E. discriminate.
    - destruct v; try discriminate. intros [= <-]. apply PK. destruct (HJ z) as [L1 _]. pose proof (sized_length (je_dt_print J z)). unfold Kj. cbn [jsize]. lia.
    - destruct v; try discriminate. intros [= <-]. apply PK. destruct (HJ z) as [_ L1]. pose proof (sized_length (je_ts_print J z)). unfold Kj. cbn [jsize]. lia.
    - destruct v as [| | | | | | | |[x|]| | | | |]; try discriminate; [destruct x; try discriminate; intros [= <-]|intros [= <-]; apply PK; unfold Kj; cbn; lia].
      pose proof (sized_length s). rewrite unfolded_some. assert (Us : U (S f) (VStr s) = S (length s)) by (cbn; lia). rewrite Us. cbn [jsize]. unfold Kj. nia.
    - destruct v as [| | | | | | | |[x|]| | | | |]; try discriminate; [destruct x; try discriminate; intros [= <-]|intros [= <-]; apply PK; unfold Kj; cbn; lia].
      pose proof (cstr_length s). rewrite unfolded_some. assert (Us : U (S f) (VStr s) = S (length s)) by (cbn; lia). rewrite Us. cbn [jsize]. unfold Kj. nia.
  Qed.

  Lemma jcls_step f : Jval f -> Jcls f -> Jcls (S f).
  Proof.
    intros IH IHc c fs ms ms' L HM HN. rewrite push_cls_S. unfold push_cls_body. inversion HM as [c0 rc p Ls Ec Ep HB]; subst. rewrite Ec. unfold pushed_by in Ep. injection Ep as <-.
    intros E. apply rbind_ok in E. destruct E as (ms1 & E1 & E2). rewrite wpicked_app, Nat.mul_add_distr_l.
    assert (MW : forall L0, Kj * wpicked (U f) fs L0 <= Kj * wpicked (U (S f)) fs L0).
    { intros L0. apply Nat.mul_le_mono_l. apply sum_le. intros fd _. destruct (alookup fkey_eqb (jf_key fd) fs); [apply unfolded_mono|lia]. }
    assert (B1 : msizes ms1 <= msizes ms + Kj * wpicked (U f) fs (concat Ls)).
    { assert (HN' : forall fd, In fd (concat Ls) -> length (jf_name fd) <= n) by (intros fd Hin; apply HN, in_or_app; left; exact Hin).
      clear HM HN Ec E2. revert ms E1. induction HB as [|b L0 bs Ls M0 HB IHb]; intros ms E1; cbn [push_fold concat] in *; [injection E1 as <-; cbn; lia|].
      apply rbind_ok in E1. destruct E1 as (ms2 & E1 & E2). apply (IHc b fs ms ms2 L0 M0) in E1; [|intros fd Hin; apply HN', in_or_app; left; exact Hin].
      apply IHb in E2; [|intros fd Hin; apply HN', in_or_app; right; exact Hin]. rewrite wpicked_app, Nat.mul_add_distr_l. lia. }
    apply (fold_size _ (fun fd => Kj * match alookup fkey_eqb (jf_key fd) fs with Some v => U f v | None => 0 end)) in E2.
    - assert (Es : list_sum (map (fun fd => Kj * match alookup fkey_eqb (jf_key fd) fs with Some v => U f v | None => 0 end) (jp_fields (rc_push rc))) = Kj * wpicked (U f) fs (jp_fields (rc_push rc))).
      { clear. generalize (jp_fields (rc_push rc)). induction l as [|fd l IHl]; [cbn; lia|]. cbn [map]. rewrite sum_cons, wpicked_cons, IHl. lia. }
      rewrite Es in E2. pose proof (MW (concat Ls)). pose proof (MW (jp_fields (rc_push rc))). lia.
    - intros fd ms0 ms0' Hin Ex. destruct (alookup fkey_eqb (jf_key fd) fs) as [v|]; [|discriminate]. apply rbind_ok in Ex. destruct Ex as (j & Ej & Ex). injection Ex as <-.
      apply IH in Ej. rewrite msizes_app, msizes_cons. change (msizes []) with 0. assert (length (jf_name fd) <= n) by (apply HN, in_or_app; right; exact Hin). lia.
  Qed.
  Lemma sizes_json f : Jval f /\ Jcls f.
  Proof. induction f as [|f [A B]]; [split; [intros t v j; discriminate|intros c fs ms ms' L _ _; discriminate]|]. split; [apply jval_step|apply jcls_step]; assumption. Qed.
End Push.
