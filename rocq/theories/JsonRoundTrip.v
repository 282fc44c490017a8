(** JsonRoundTrip.v -- pulling back what was pushed (C22) *)
From Coq Require Import String List NArith ZArith Bool Lia Permutation.
From Verif Require Import Base BaseFacts Types TypesFacts BinModel BinSpec Float FloatFacts JsonModel JsonRel JsonErr JsonSpec.
Import ListNotations.
Local Open Scope list_scope.
Local Open Scope nat_scope.

(* ------------------------------------------------------------------ *)
(** * Strings and integers *)

Lemma cstr_id s : nul_free s -> cstr s = s.
Proof.
  unfold nul_free. induction s as [|b s IH]; intros Hn; cbn; [reflexivity|].
  destruct (beqb b Byte.x00) eqn:E; [apply beqb_eq in E; subst b; exfalso; apply Hn; left; reflexivity|].
  rewrite IH; [reflexivity|]. intros Hc; apply Hn; right; exact Hc.
Qed.
Lemma sized_id s : (N.of_nat (length s) <= size_max)%N -> sized s = s.
Proof.
  intros Hl. unfold sized, rapidJsonSize. cbv zeta.
  replace (size_max <? N.of_nat (length s))%N with false by (symmetry; apply N.ltb_ge; exact Hl).
  rewrite N.ltb_irrefl. reflexivity.
Qed.
Lemma cstr_nul_free s : nul_free (cstr s).
Proof.
  unfold nul_free. induction s as [|b s IH]; cbn; [auto|].
  destruct (beqb b Byte.x00) eqn:E; [auto|]. cbn. intros [->|Hc]; [discriminate E|auto].
Qed.

Lemma wrap_id k z : in_range k z = true -> wrap k z = z.
Proof.
  intros R. apply in_range_spec in R. unfold wrap, kmin, kmax in *. cbv zeta.
  set (b := (8 * Z.of_nat (ksize k))%Z) in *.
  assert (Hb: (1 <= b)%Z) by (unfold b; destruct k; cbn; lia).
  assert (P2: (2 ^ b = 2 * 2 ^ (b - 1))%Z) by (rewrite <- Z.pow_succ_r by lia; f_equal; lia).
  assert (P1: (0 < 2 ^ (b - 1))%Z) by (apply Z.pow_pos_nonneg; lia).
  destruct (ksigned k); cbn [andb].
  - assert (D: (2 ^ b / 2 = 2 ^ (b - 1))%Z) by (rewrite P2; replace (2 * 2 ^ (b - 1))%Z with (2 ^ (b - 1) * 2)%Z by lia; apply Z.div_mul; lia).
    rewrite D. destruct (Z.leb_spec (2 ^ (b - 1)) (z mod 2 ^ b)) as [L|L].
    + destruct (Z_lt_le_dec z 0).
      * assert (E: (z mod 2 ^ b = z + 2 ^ b)%Z) by (rewrite <- (Z.mod_add z 1) by lia; rewrite Z.mul_1_l; apply Z.mod_small; lia).
        lia.
      * rewrite Z.mod_small in L by lia. lia.
    + destruct (Z_lt_le_dec z 0).
      * assert (E: (z mod 2 ^ b = z + 2 ^ b)%Z) by (rewrite <- (Z.mod_add z 1) by lia; rewrite Z.mul_1_l; apply Z.mod_small; lia).
        lia.
      * apply Z.mod_small; lia.
  - apply Z.mod_small. lia.
Qed.

Lemma enum_range k z : in_range k z = true -> in_range (enum_kind k) z = true.
Proof. intros R. apply in_range_spec in R. apply in_range_spec. unfold kmin, kmax in *. destruct k; cbn in *; lia. Qed.
Lemma byte_range k z : byte_kind k = true -> in_range k z = true -> in_range KI32 z = true.
Proof. intros B R. apply in_range_spec in R. apply in_range_spec. unfold kmin, kmax in *. destruct k; cbn in *; try discriminate; lia. Qed.
Lemma int_kinds k : byte_kind k = true -> json_kind k = false.
Proof. destruct k; intros E; try discriminate E; reflexivity. Qed.

(* ------------------------------------------------------------------ *)
(** * Heaps and error lists *)

Definition newin (h h' h2 : heap) : Prop := forall b c, hget h b = None -> hget h' b = Some c -> hget h2 b = Some c.
Lemma newin_l h h1 h2 hx : hext h1 h2 -> newin h h2 hx -> newin h h1 hx.
Proof. intros E Hn b c E1 E2. apply Hn; auto. Qed.
Lemma hext_none h h1 b : hext h h1 -> hget h1 b = None -> hget h b = None.
Proof. intros E Hn. destruct (hget h b) eqn:E1; [apply E in E1; congruence|reflexivity]. Qed.
Lemma newin_r h h1 h2 hx : hext h h1 -> newin h h2 hx -> newin h1 h2 hx.
Proof. intros E Hn b c E1 E2. apply Hn; auto. eapply hext_none; eauto. Qed.
Lemma newin_refl h h' : newin h h' h'.
Proof. intros b c _ E; exact E. Qed.

Definition noerr (er er' : option est) : Prop :=
  match er, er' with None, None => True | Some e, Some e' => es_errs e' = es_errs e | _, _ => False end.
Lemma noerr_refl er : noerr er er. Proof. destruct er; cbn; auto. Qed.
Lemma noerr_trans a b c : noerr a b -> noerr b c -> noerr a c.
Proof. destruct a, b, c; cbn; intros; try contradiction; auto. congruence. Qed.

Section RT.
  Variable G : genv.
  Variable J : jenv.
  Variable H : heap.
  Hypothesis HA : alloc_ok G.
  Hypothesis HP : place_ok G.

  Notation js := (jsame G H).

  Lemma js_base h0 h1 h t v v' : (forall a, hget h1 a = None -> hget h0 a = None) -> js h1 h t v v' -> js h0 h t v v'.
  Proof. intros Hi S. induction S; try (econstructor; eauto; fail). Qed.
  Lemma js_ext h0 h1 h t v v' : hext h0 h1 -> js h1 h t v v' -> js h0 h t v v'.
  Proof. intros E. apply js_base. intros a. apply hext_none. exact E. Qed.

  (** what pulling one value does *)
  Definition pulls (ex : bool) (t : ty) (v : val) (m : M val) : Prop := forall h er,
    exists v' h' er', m {| p_heap := h; p_err := er |} = POk v' {| p_heap := h'; p_err := er' |}
      /\ hext h h' /\ noerr er er' /\ (forall hx, newin h h' hx -> js h hx t v v') /\ (ex = true -> v' = v).

  (** what the variable pulled into may hold: [old], or what a previous pull of the same document has left *)
  Definition again (t : ty) (old v o : val) : Prop := o = old \/ (repullable G t /\ exists h hx, js h hx t v o).
  Lemma again_old t old v : again t old v old. Proof. left; reflexivity. Qed.
  Definition spec (ex : bool) (t : ty) (old v : val) (F : nat) (j : json) : Prop :=
    (forall f, F <= f -> push G J H f t v = ROk j /\ forall o, again t old v o -> pulls ex t v (pull G J f t o j)) /\ (nonnull v -> j <> JNull).
  Definition good_spec ex t old v : Prop := exists F j, spec ex t old v F j.

  Lemma spec_more ex t old v F F' j : F <= F' -> spec ex t old v F j -> spec ex t old v F' j.
  Proof. intros L [S N]. split; [|exact N]. intros f Hf. apply S. lia. Qed.

  (** ** loops when pushing *)
  Lemma gather {A} (S : nat -> A -> json -> Prop) l :
    (forall F F' x j, F <= F' -> S F x j -> S F' x j) ->
    (forall x, In x l -> exists F j, S F x j) -> exists F jl, Forall2 (S F) l jl.
  Proof.
    intros Mo. induction l as [|x l IH]; intros Hl; [exists 0, []; constructor|].
    destruct (Hl x (or_introl eq_refl)) as (F1 & j & S1). destruct IH as (F2 & jl & S2); [intros y Hy; apply Hl; right; exact Hy|].
    exists (max F1 F2), (j :: jl). constructor; [eapply Mo; [|exact S1]; lia|].
    clear -Mo S2. induction S2; constructor; auto. eapply Mo; [|eassumption]; lia.
  Qed.
  Lemma push_iter_ok {A B} (p : A -> res B) l jl : Forall2 (fun x j => p x = ROk j) l jl -> push_iter p l = ROk jl.
  Proof. induction 1 as [|x j l jl E F IH]; cbn; [reflexivity|]. rewrite E, IH. reflexivity. Qed.
  Lemma Forall2_imp {A B} (P Q : A -> B -> Prop) l m : (forall a b, In a l -> P a b -> Q a b) -> Forall2 P l m -> Forall2 Q l m.
  Proof. intros HQ F. induction F; constructor; [apply HQ; [left; reflexivity|assumption]|apply IHF; intros; apply HQ; [right|]; assumption]. Qed.
  Lemma Forall2_comb {A B} (Q : A -> B -> Prop) l m : Forall2 Q l m -> length l = length m /\ forall x y, In (x, y) (combine l m) -> Q x y.
  Proof.
    induction 1 as [|a b l m Hab F [IH1 IH2]]; [split; [reflexivity|intros x y []]|].
    split; [cbn; congruence|]. cbn. intros x y [E|Hin]; [inversion E; subst; exact Hab|auto].
  Qed.

  (** ** sequences *)
  Lemma seq_items ex t f l jl : Forall2 (fun x j => pulls ex t x (pull G J f t (vinit G t) j)) l jl ->
    forall i acc h er, exists l' h' er',
      pull_items (fun l j' => let? x := pull G J f t (vinit G t) j' in ret (l ++ [x])) i jl acc {| p_heap := h; p_err := er |}
        = POk (acc ++ l') {| p_heap := h'; p_err := er' |}
      /\ hext h h' /\ noerr er er' /\ length l = length l'
      /\ (forall hx, newin h h' hx -> forall x x', In (x, x') (combine l l') -> js h hx t x x') /\ (ex = true -> l' = l).
  Proof.
    induction 1 as [|x j l jl P F IH]; intros i acc h er; cbn [pull_items].
    - unfold bind, set_index. cbn. exists [], h. eexists. rewrite app_nil_r. split; [reflexivity|]. split; [apply hext_refl|].
      split; [destruct er; cbn; auto|]. split; [reflexivity|]. split; [intros hx _ y y' []|reflexivity].
    - unfold bind at 1. unfold set_index. cbn [p_heap p_err].
      match goal with |- context [Some i] => match goal with |- context [{| p_heap := h; p_err := ?er0 |}] => set (er1 := er0) end end.
      assert (N1: noerr er er1) by (unfold er1; destruct er; cbn; auto).
      destruct (P h er1) as (x' & h1 & er2 & E1 & X1 & N2 & Q1 & S1).
      destruct (IH (i + 1)%N (acc ++ [x']) h1 er2) as (l' & h2 & er3 & E2 & X2 & N3 & L2 & Q2 & S2).
      exists (x' :: l'), h2, er3. split; [|split; [|split; [|split; [|split]]]].
      + unfold bind at 1. unfold bind at 1. rewrite E1. cbn [ret]. rewrite E2. rewrite <- app_assoc. reflexivity.
      + eapply hext_trans; eauto.
      + eapply noerr_trans; [exact N1|eapply noerr_trans; eauto].
      + cbn. congruence.
      + intros hx Hx y y' Hin. cbn in Hin. destruct Hin as [E|Hin].
        * inversion E; subst. apply Q1. eapply newin_l; eauto.
        * eapply js_ext; [exact X1|]. apply Q2; [|exact Hin]. eapply newin_r; eauto.
      + intros Hex. rewrite (S1 Hex), (S2 Hex). reflexivity.
  Qed.

  (** ** inserting into associative containers *)
  Lemma FOP_last {A} (R : A -> A -> Prop) l x m : ForallOrdPairs R (l ++ x :: m) -> forall y, In y l -> R y x.
  Proof.
    induction l as [|z l IH]; intros F y Hy; [destruct Hy|]. cbn in F. inversion F as [|z' l' F1 F2]; subst.
    destruct Hy as [->|Hy]; [|auto].
    rewrite Forall_forall in F1. apply F1. apply in_or_app. right; left; reflexivity.
  Qed.
  Definition grows (ord : bool) (cur more cur' : list val) : Prop := if ord then cur' = cur ++ more else Permutation (cur ++ more) cur'.
  Lemma grows_nil ord cur : grows ord cur [] cur.
  Proof. unfold grows. rewrite app_nil_r. destruct ord; auto. Qed.
  Lemma grows_app ord cur a cur1 b cur2 : grows ord cur a cur1 -> grows ord cur1 b cur2 -> grows ord cur (a ++ b) cur2.
  Proof.
    unfold grows. destruct ord; [intros -> ->; rewrite app_assoc; reflexivity|].
    intros P1 P2. rewrite app_assoc. etransitivity; [apply Permutation_app_tail; exact P1|exact P2].
  Qed.
  Lemma grows_in ord cur a cur' y : grows ord cur a cur' -> In y cur' -> In y cur \/ In y a.
  Proof. unfold grows. intros Hg Hy. apply in_app_or. destruct ord; [subst; exact Hy|]. eapply Permutation_in; [symmetry; exact Hg|exact Hy]. Qed.

  Definition keyed (ismap : bool) (cur done : list val) : Prop := forall y, In y cur -> exists z, In z done /\ keyof ismap y = keyof ismap z.
  Lemma emp_step ismap ord multi kt done x todo cur x' :
    cont_inv G ismap ord multi kt (done ++ x :: todo) -> keyed ismap cur done -> keyof ismap x' = keyof ismap x ->
    exists cur1, emplace G ismap ord multi kt x' cur = (cur1, true) /\ grows ord cur [x'] cur1.
  Proof.
    intros Inv K Kx. unfold cont_inv in Inv. unfold emplace, grows.
    destruct ord, multi; cbn [fst].
    - eexists. split; [reflexivity|]. rewrite ins_multi_snoc; [reflexivity|]. intros y Hy. destruct (K y Hy) as (z & Hz & ->). rewrite Kx.
      apply (FOP_last _ _ _ _ Inv z Hz).
    - rewrite ins_uniq_snoc; [eexists; split; reflexivity|]. intros y Hy. destruct (K y Hy) as (z & Hz & ->). rewrite Kx.
      apply (FOP_last _ _ _ _ Inv z Hz).
    - eexists. split; [reflexivity|]. rewrite <- (HP kt cur x'). apply Permutation_sym, Permutation_cons_append.
    - destruct (existsb (fun y => g_eq G kt (keyof ismap y) (keyof ismap x')) cur) eqn:Ex.
      + exfalso. apply existsb_exists in Ex. destruct Ex as (y & Hy & He). destruct (K y Hy) as (z & Hz & Ez).
        rewrite Ez, Kx in He. rewrite (FOP_last _ _ _ _ Inv z Hz) in He. discriminate.
      + eexists. split; [reflexivity|]. rewrite <- (HP kt cur x'). apply Permutation_sym, Permutation_cons_append.
  Qed.
  Lemma keyed_step ismap ord cur done x x' cur1 : keyed ismap cur done -> keyof ismap x' = keyof ismap x -> grows ord cur [x'] cur1 -> keyed ismap cur1 (done ++ [x]).
  Proof.
    intros K Kx Hg y Hy. destruct (grows_in _ _ _ _ _ Hg Hy) as [Hy1|[<-|[]]].
    - destruct (K y Hy1) as (z & Hz & E). exists z. split; [apply in_or_app; auto|exact E].
    - exists x. split; [apply in_or_app; right; left; reflexivity|exact Kx].
  Qed.

  (** ** sets *)
  Lemma jgood_defined ex t old v : jgood G J H ex t old v -> is_undef v = false.
  Proof. inversion 1; reflexivity. Qed.

  Lemma set_items ord multi t f todo jl : Forall2 (fun x j => is_undef x = false /\ pulls true t x (pull G J f t (dinit G t) j)) todo jl ->
    forall done cur i h er, cont_inv G false ord multi t (done ++ todo) -> keyed false cur done ->
    exists cur' h' er',
      pull_items (fun l j' =>
                  let? x := pull G J f t (dinit G t) j' in
                  if is_undef x then ub
                  else
                    let (l', inserted) := emplace G false ord multi t x l in
                    if multi || inserted then ret l'
                    else let? _ := report_unchecked UnexpectedDuplicate JTArray JTArray in ret l') i jl cur {| p_heap := h; p_err := er |}
        = POk cur' {| p_heap := h'; p_err := er' |}
      /\ hext h h' /\ noerr er er' /\ grows ord cur todo cur'
      /\ (forall hx, newin h h' hx -> forall x, In x todo -> js h hx t x x).
  Proof.
    induction 1 as [|x j l jl [U P] F IH]; intros done cur i h er Inv K; cbn [pull_items].
    - unfold bind, set_index. cbn. exists cur, h. eexists. split; [reflexivity|]. split; [apply hext_refl|].
      split; [destruct er; cbn; auto|]. split; [apply grows_nil|]. intros hx _ y [].
    - unfold bind at 1. unfold set_index. cbn [p_heap p_err].
      match goal with |- context [Some i] => match goal with |- context [{| p_heap := h; p_err := ?er0 |}] => set (er1 := er0) end end.
      assert (N1: noerr er er1) by (unfold er1; destruct er; cbn; auto).
      destruct (P h er1) as (x' & h1 & er2 & E1 & X1 & N2 & Q1 & S1). specialize (S1 eq_refl). subst x'.
      destruct (emp_step false ord multi t done x l cur x Inv K eq_refl) as (cur1 & E2 & G1).
      assert (Inv1: cont_inv G false ord multi t ((done ++ [x]) ++ l)) by (rewrite <- app_assoc; exact Inv).
      destruct (IH (done ++ [x]) cur1 (i + 1)%N h1 er2 Inv1 (keyed_step _ _ _ _ _ _ _ K eq_refl G1)) as (cur2 & h2 & er3 & E3 & X2 & N3 & G2 & Q2).
      exists cur2, h2, er3. split; [|split; [|split; [|split]]].
      + unfold bind at 1. unfold bind at 1. rewrite E1, U, E2, orb_true_r. cbn [ret]. exact E3.
      + eapply hext_trans; eauto.
      + eapply noerr_trans; [exact N1|eapply noerr_trans; eauto].
      + change (x :: l) with ([x] ++ l). eapply grows_app; eauto.
      + intros hx Hx y Hy. destruct Hy as [<-|Hy].
        * apply Q1. eapply newin_l; eauto.
        * eapply js_ext; [exact X1|]. apply Q2; [|exact Hy]. eapply newin_r; eauto.
  Qed.

  (** ** maps *)
  Lemma same_key_false ord multi kt done x todo cur x' : multi = false ->
    cont_inv G true ord multi kt (done ++ x :: todo) -> keyed true cur done -> keyof true x' = keyof true x ->
    map_find G ord kt x' cur = None.
  Proof.
    intros -> Inv K Kx. induction cur as [|y cur IH]; cbn [map_find]; [reflexivity|].
    assert (S: same_key G ord kt y x' = false).
    { destruct (K y (or_introl eq_refl)) as (z & Hz & Ez). unfold same_key. unfold cont_inv in Inv. rewrite Ez, Kx.
      destruct ord; rewrite (FOP_last _ _ _ _ Inv z Hz); reflexivity. }
    rewrite S. apply IH. intros w Hw. apply K. right; exact Hw.
  Qed.

  Lemma map_items ex ord multi vt (step : list val -> bytes * json -> M (list val)) f todo items :
    Forall2 (fun x it => exists k v, x = VPair (VStr k) v /\ nul_free k /\ fst it = k /\ pulls ex vt v (pull G J f vt (vinit G vt) (snd it))) todo items ->
    (forall done x rest cur it, cont_inv G true ord multi TString (done ++ x :: rest) -> keyed true cur done -> keyof true x = VStr (fst it) -> nul_free (fst it) ->
       step cur it = let? x := pull G J f vt (vinit G vt) (snd it) in ret (fst (emplace G true ord multi TString (VPair (VStr (fst it)) x) cur))) ->
    forall done cur h er, cont_inv G true ord multi TString (done ++ todo) -> keyed true cur done ->
    exists cur' h' er' m,
      fold_m step items cur {| p_heap := h; p_err := er |} = POk cur' {| p_heap := h'; p_err := er' |}
      /\ hext h h' /\ noerr er er' /\ grows ord cur m cur' /\ length todo = length m
      /\ (forall hx, newin h h' hx -> forall x x', In (x, x') (combine todo m) -> js h hx (TPair TString vt) x x')
      /\ (ex = true -> m = todo).
  Proof.
    intros F Hs. induction F as [|x it l items HF F IH]; intros done cur h er Inv K; cbn [fold_m].
    - unfold ret. exists cur, h, er, []. split; [reflexivity|]. split; [apply hext_refl|]. split; [apply noerr_refl|].
      split; [apply grows_nil|]. split; [reflexivity|]. split; [intros hx _ y y' []|reflexivity].
    - destruct HF as (k & v & -> & Nk & Ek & P).
      destruct (P h er) as (v' & h1 & er1 & E1 & X1 & N1 & Q1 & S1).
      destruct (emp_step true ord multi TString done (VPair (VStr k) v) l cur (VPair (VStr k) v') Inv K eq_refl) as (cur1 & E2 & G1).
      assert (Inv1: cont_inv G true ord multi TString ((done ++ [VPair (VStr k) v]) ++ l)) by (rewrite <- app_assoc; exact Inv).
      destruct (IH (done ++ [VPair (VStr k) v]) cur1 h1 er1 Inv1) as (cur2 & h2 & er2 & m & E3 & X2 & N2 & G2 & L2 & Q2 & S2).
      { eapply keyed_step; [exact K| |exact G1]. reflexivity. }
      exists cur2, h2, er2, (VPair (VStr k) v' :: m). split; [|split; [|split; [|split; [|split; [|split]]]]].
      + rewrite (Hs done (VPair (VStr k) v) l cur it Inv K); [|rewrite Ek; reflexivity|rewrite Ek; exact Nk].
        unfold bind at 1. unfold bind at 1. rewrite E1, Ek, E2. cbn [ret fst]. exact E3.
      + eapply hext_trans; eauto.
      + eapply noerr_trans; eauto.
      + change (VPair (VStr k) v' :: m) with ([VPair (VStr k) v'] ++ m). eapply grows_app; eauto.
      + cbn; congruence.
      + intros hx Hx y y' Hin. cbn in Hin. destruct Hin as [E|Hin].
        * inversion E; subst. apply js_pair; [apply js_same; reflexivity|]. apply Q1. eapply newin_l; eauto.
        * eapply js_ext; [exact X1|]. apply Q2; [|exact Hin]. eapply newin_r; eauto.
      + intros Hex. rewrite (S1 Hex), (S2 Hex). reflexivity.
  Qed.

  (** ** multimaps: grouping by key *)
  Definition grp : Type := (bytes * list (val * json))%type.
  Fixpoint gadd (k : bytes) (a : val * json) (gs : list grp) : list grp :=
    match gs with
    | [] => [(k, [a])]
    | (k', l) :: gs' => if bytes_eqb k k' then (k', l ++ [a]) :: gs' else (k', l) :: gadd k a gs'
    end.
  Definition emb (gs : list grp) : list (bytes * json) := map (fun g => (fst g, JArr (map snd (snd g)))) gs.
  Definition flat (gs : list grp) : list (bytes * (val * json)) := concat (map (fun g => map (fun a => (fst g, a)) (snd g)) gs).

  Lemma gadd_emb k a gs : nul_free k -> (N.of_nat (length k) <= size_max)%N -> add_multi k (snd a) (emb gs) = emb (gadd k a gs).
  Proof.
    intros Nk Lk. unfold add_multi. rewrite (cstr_id k Nk), (sized_id k Lk).
    assert (E: append_existing k (snd a) (emb gs) = if existsb (fun g => bytes_eqb k (fst g)) gs then Some (emb (gadd k a gs)) else None).
    { induction gs as [|[k' l] gs IH]; [reflexivity|].
      change (emb ((k', l) :: gs)) with ((k', JArr (map snd l)) :: emb gs). cbn [append_existing gadd existsb fst].
      destruct (bytes_eqb k k') eqn:E; [cbn; rewrite map_app; reflexivity|]. cbn [orb]. rewrite IH. match goal with |- context [if ?b then _ else _] => destruct b end; reflexivity. }
    rewrite E. destruct (existsb (fun g => bytes_eqb k (fst g)) gs) eqn:X; [reflexivity|].
    clear E. induction gs as [|[k' l] gs IH]; [reflexivity|]. cbn in X. apply orb_false_iff in X. destruct X as [X1 X2].
    cbn [gadd]. rewrite X1. change (emb ((k', l) :: gs)) with ((k', JArr (map snd l)) :: emb gs). cbn [app]. rewrite IH by exact X2. reflexivity.
  Qed.
  Lemma flat_cons k l gs : flat ((k, l) :: gs) = map (fun a => (k, a)) l ++ flat gs.
  Proof. reflexivity. Qed.
  Lemma gadd_perm k a gs : Permutation (flat gs ++ [(k, a)]) (flat (gadd k a gs)).
  Proof.
    induction gs as [|[k' l] gs IH]; [apply Permutation_refl|]. cbn [gadd].
    destruct (bytes_eqb k k') eqn:E.
    - apply bytes_eqb_eq in E; subst k'. rewrite !flat_cons, map_app, <- !app_assoc. apply Permutation_app_head. apply Permutation_app_comm.
    - rewrite !flat_cons, <- app_assoc. apply Permutation_app_head. exact IH.
  Qed.
  Definition gwf (gs : list grp) : Prop := NoDup (map fst gs) /\ Forall (fun g => snd g <> []) gs.
  Lemma gadd_keys k a gs : map fst (gadd k a gs) = if existsb (fun g => bytes_eqb k (fst g)) gs then map fst gs else map fst gs ++ [k].
  Proof.
    induction gs as [|[k' l] gs IH]; cbn; [reflexivity|]. destruct (bytes_eqb k k'); cbn; [reflexivity|].
    rewrite IH. match goal with |- context [if ?b then _ else _] => destruct b end; reflexivity.
  Qed.
  Lemma gadd_wf k a gs : gwf gs -> gwf (gadd k a gs).
  Proof.
    intros [ND NE]. split.
    - rewrite gadd_keys. match goal with |- context [if ?b then _ else _] => destruct b eqn:E end; [exact ND|].
      apply (Permutation_NoDup (l := k :: map fst gs)); [apply Permutation_cons_append|]. constructor; [|exact ND].
      intros Hc. apply in_map_iff in Hc. destruct Hc as ([k' l] & E1 & Hin). cbn in E1; subst k'.
      apply Bool.not_true_iff_false in E. apply E. apply existsb_exists. exists (k, l). split; [exact Hin|apply bytes_eqb_refl].
    - clear ND. induction gs as [|[k' l] gs IH]; cbn; [repeat constructor; discriminate|].
      inversion NE as [|g gs' N1 N2]; subst. destruct (bytes_eqb k k'); constructor; auto. cbn. destruct l; discriminate.
  Qed.
  (** if every element behind one with key [k] has key [k], a new element with key [k] goes to the end *)
  Lemma gadd_end k a gs : gwf gs ->
    (forall l1 x l2, flat gs = l1 ++ x :: l2 -> fst x = k -> forall y, In y l2 -> fst y = k) ->
    flat (gadd k a gs) = flat gs ++ [(k, a)].
  Proof.
    intros [ND NE]. induction gs as [|[k' l] gs IH]; intros Hc; [reflexivity|]. cbn [gadd].
    cbn in ND. apply NoDup_cons_iff in ND. destruct ND as [N1 N2]. inversion NE as [|g gs' M1 M2]; subst. cbn in M1.
    destruct (bytes_eqb k k') eqn:E.
    - apply bytes_eqb_eq in E; subst k'. destruct gs as [|[k2 l2] gs].
      + rewrite !flat_cons. cbn. rewrite !app_nil_r, map_app. reflexivity.
      + exfalso. destruct l as [|a0 l]; [congruence|]. inversion M2 as [|g gs' M3 M4]; subst. cbn in M3.
        destruct l2 as [|b0 l2]; [congruence|]. apply N1. left. cbn.
        specialize (Hc [] (k, a0) (map (fun a => (k, a)) l ++ flat ((k2, b0 :: l2) :: gs)) eq_refl eq_refl).
        specialize (Hc (k2, b0)). cbn in Hc. apply Hc. apply in_or_app. right. left. reflexivity.
    - rewrite !flat_cons, <- app_assoc. f_equal. apply IH; auto. intros l1 x l2 Ef Ek y Hy.
      apply (Hc (map (fun a => (k', a)) l ++ l1) x l2); auto. rewrite flat_cons, Ef, <- app_assoc. reflexivity.
  Qed.

  (** the multimap's elements, with what is pushed for them *)
  Definition items_of (l : list val) (jl : list json) : list (bytes * (val * json)) :=
    map (fun '(x, j) => match x with VPair (VStr k) v => (k, (v, j)) | _ => ([], (x, j)) end) (combine l jl).
  Definition gall (its : list (bytes * (val * json))) (gs : list grp) : list grp := fold_left (fun gs '(k, a) => gadd k a gs) its gs.
  Lemma gall_perm its : forall gs, Permutation (flat gs ++ its) (flat (gall its gs)).
  Proof.
    induction its as [|[k a] its IH]; intros gs; [cbn [gall fold_left]; rewrite app_nil_r; apply Permutation_refl|].
    change (gall ((k, a) :: its) gs) with (gall its (gadd k a gs)). etransitivity; [|apply IH]. change ((k, a) :: its) with ([(k, a)] ++ its). rewrite app_assoc. apply Permutation_app_tail. apply gadd_perm.
  Qed.
  Lemma gall_end its : forall gs, gwf gs ->
    (forall l1 x l2 y l3, flat gs ++ its = l1 ++ x :: l2 ++ y :: l3 -> fst x = fst y -> forall z, In z l2 -> fst z = fst x) ->
    flat (gall its gs) = flat gs ++ its.
  Proof.
    induction its as [|[k a] its IH]; intros gs W Hc; [cbn [gall fold_left]; rewrite app_nil_r; reflexivity|].
    change (gall ((k, a) :: its) gs) with (gall its (gadd k a gs)).
    assert (E: flat (gadd k a gs) = flat gs ++ [(k, a)]).
    { apply gadd_end; [exact W|]. intros l1 x l2 Ef Ek y Hy. rewrite <- Ek.
      apply (Hc l1 x l2 (k, a) its); [rewrite Ef, <- app_assoc; reflexivity|exact Ek|exact Hy]. }
    rewrite IH; [rewrite E, <- app_assoc; reflexivity|apply gadd_wf; exact W|].
    rewrite E, <- app_assoc. exact Hc.
  Qed.

  (** pushing a multimap *)
  Lemma push_multi (p : val -> res json) l jl :
    Forall2 (fun x j => exists k v, x = VPair (VStr k) v /\ json_string k /\ p v = ROk j) l jl ->
    forall gs, push_fold (fun x ms => match x with
                       | VPair (VStr k) v => let! j := p v in ROk (add_multi k j ms)
                       | _ => RStuck end) l (emb gs) = ROk (emb (gall (items_of l jl) gs)).
  Proof.
    induction 1 as [|x j l jl (k & v & -> & [Nk Lk] & E) F IH]; intros gs; cbn [push_fold items_of combine map gall fold_left]; [reflexivity|].
    rewrite E. cbn [rbind]. change j with (snd (v, j)) at 1. rewrite gadd_emb by assumption. apply IH.
  Qed.

  Lemma fold_m_app {A B} (s : A -> B -> M A) l1 l2 a st : fold_m s (l1 ++ l2) a st = bind (fold_m s l1 a) (fold_m s l2) st.
  Proof.
    revert a st. induction l1 as [|x l1 IH]; intros a st; cbn [fold_m app]; [reflexivity|].
    unfold bind. destruct (s a x st) as [a1 st1| | | |]; auto. rewrite IH. reflexivity.
  Qed.
  Lemma bind_ext {A B} (m : M A) (k k' : A -> M B) st : (forall a st, k a st = k' a st) -> bind m k st = bind m k' st.
  Proof. intros E. unfold bind. destruct (m st); auto. Qed.
  Definition multi_step ord vt f (l : list val) (it : bytes * json) : M (list val) :=
    let? x := pull G J f vt (vinit G vt) (snd it) in ret (fst (emplace G true ord true TString (VPair (VStr (cstr (fst it))) x) l)).
  Lemma pull_multi ord vt f gs : forall cur st,
    fold_m (fun l '(n, j') =>
                      let ins l x := fst (emplace G true ord true TString (VPair (VStr (cstr n)) x) l) in
                      match j' with
                      | JArr js => fold_m (fun l j'' => let? x := pull G J f vt (vinit G vt) j'' in ret (ins l x)) js l
                      | _ => let? x := pull G J f vt (vinit G vt) j' in ret (ins l x)
                      end) (emb gs) cur st
    = fold_m (multi_step ord vt f) (map (fun '(k, (v, j)) => (k, j)) (flat gs)) cur st.
  Proof.
    induction gs as [|[k l] gs IH]; intros cur st; [reflexivity|].
    rewrite flat_cons, map_app, fold_m_app. cbn [emb map fold_m fst snd]. fold (emb gs).
    assert (E: forall cur st, fold_m (fun l j'' => let? x := pull G J f vt (vinit G vt) j'' in
                 ret (fst (emplace G true ord true TString (VPair (VStr (cstr k)) x) l))) (map snd l) cur st
               = fold_m (multi_step ord vt f) (map (fun '(k, (v, j)) => (k, j)) (map (fun a => (k, a)) l)) cur st).
    { clear. induction l as [|[v j] l IHl]; intros cur st; [reflexivity|]. cbn [map fold_m fst snd].
      apply bind_ext. exact IHl. }
    cbv zeta. unfold bind. rewrite E.
    destruct (fold_m (multi_step ord vt f) _ cur st); auto.
  Qed.

  (** ** classes *)
  Lemma members_ind' prog (P : N -> list jfield -> Prop) :
    (forall c rc p Ls, g_class G c = Some rc -> prog rc = Some p -> Forall2 (members G prog) (jp_bases p) Ls ->
       Forall2 P (jp_bases p) Ls -> P c (concat Ls ++ jp_fields p)) ->
    forall c L, members G prog c L -> P c L.
  Proof.
    intros HI. fix IH 3. intros c L [c0 rc p Ls E1 E2 F]. apply (HI c0 rc p Ls E1 E2 F).
    clear E1 E2 HI. induction F as [|b L0 bs Ls M0 F IHF]; constructor; [apply IH; exact M0|exact IHF].
  Qed.

  Definition pushes (F : nat) (fs : list (fkey * val)) (fd : jfield) (j : json) : Prop :=
    exists v, alookup fkey_eqb (jf_key fd) fs = Some v /\ forall f, F <= f -> push G J H f (jf_ty fd) v = ROk j.

  Lemma combine_app' {A B} (l1 l2 : list A) (m1 m2 : list B) : length l1 = length m1 -> combine (l1 ++ l2) (m1 ++ m2) = combine l1 m1 ++ combine l2 m2.
  Proof. revert m1. induction l1 as [|a l1 IH]; intros [|b m1] E; cbn in *; try discriminate; [reflexivity|]. rewrite IH by congruence. reflexivity. Qed.

  Lemma push_members c L : members G pushed_by c L ->
    exists d, forall F fs jl ms0 f, Forall2 (pushes F fs) L jl -> F + d <= f ->
      push_cls G J H f c fs ms0 = ROk (ms0 ++ combine (map jf_name L) jl).
  Proof.
    revert c L. apply members_ind'. intros c rc p Ls Ec Ep _ FB.
    assert (B: exists d, forall F fs jl ms0 f, Forall2 (pushes F fs) (concat Ls) jl -> F + d <= f ->
      push_fold (fun b ms => push_cls G J H f b fs ms) (jp_bases p) ms0 = ROk (ms0 ++ combine (map jf_name (concat Ls)) jl)).
    { clear Ec Ep. induction FB as [|b L bs Ls (d1 & P1) FB (d2 & P2)].
      - exists 0. intros F fs jl ms0 f HF _. inversion HF; subst. cbn. rewrite app_nil_r. reflexivity.
      - exists (max d1 d2). intros F fs jl ms0 f HF Hf. cbn [concat] in HF |- *.
        apply Forall2_app_inv_l in HF. destruct HF as (j1 & j2 & F1 & F2 & ->).
        cbn [push_fold]. rewrite (P1 F fs j1 ms0 f F1) by lia. cbn [rbind]. rewrite (P2 F fs j2 _ f F2) by lia.
        rewrite map_app, combine_app' by (rewrite map_length; apply (proj1 (Forall2_comb _ _ _ F1))). rewrite app_assoc. reflexivity. }
    destruct B as (d & B). exists (S d). intros F fs jl ms0 f HF Hf. destruct f as [|f]; [lia|].
    apply Forall2_app_inv_l in HF. destruct HF as (j1 & j2 & F1 & F2 & ->).
    rewrite push_cls_S. unfold push_cls_body. rewrite Ec. unfold pushed_by in Ep. inversion Ep as [Ep']. rewrite Ep'.
    eapply rbind_eq; [apply (B F fs j1 ms0 f F1); lia|].
    rewrite map_app, combine_app' by (rewrite map_length; apply (proj1 (Forall2_comb _ _ _ F1))). rewrite app_assoc.
    generalize (ms0 ++ combine (map jf_name (concat Ls)) j1). clear -F2 Hf.
    induction F2 as [|fd j fds jl (v & E1 & E2) F2 IH]; intros ms; cbn [push_fold map combine]; [rewrite app_nil_r; reflexivity|].
    rewrite E1, E2 by lia. cbn [rbind]. rewrite IH. rewrite <- app_assoc. reflexivity.
  Qed.

  Definition Pre (F : nat) ex (fs os : list (fkey * val)) (ms : list (bytes * json)) (L : list jfield) : Prop :=
    forall fd, In fd L -> exists v j o, alookup bytes_eqb (jf_name fd) ms = Some j /\ alookup fkey_eqb (jf_key fd) fs = Some v
      /\ alookup fkey_eqb (jf_key fd) os = Some o /\ exists old, again (jf_ty fd) old v o /\ forall f o', F <= f -> again (jf_ty fd) old v o' -> pulls ex (jf_ty fd) v (pull G J f (jf_ty fd) o' j).
  Record Post ex (fs os os' : list (fkey * val)) (L : list jfield) (h h' : heap) : Prop := {
    po_keys : map fst os' = map fst os;
    po_in : forall fd, In fd L -> exists v v', alookup fkey_eqb (jf_key fd) fs = Some v /\ alookup fkey_eqb (jf_key fd) os' = Some v'
              /\ (forall hx, newin h h' hx -> js h hx (jf_ty fd) v v') /\ (ex = true -> v' = v);
    po_out : forall k, ~ In k (map jf_key L) -> alookup fkey_eqb k os' = alookup fkey_eqb k os }.
  Definition cls_pulls ex fs os L (m : M (list (fkey * val))) : Prop := forall h er, exists os' h' er',
    m {| p_heap := h; p_err := er |} = POk os' {| p_heap := h'; p_err := er' |} /\ hext h h' /\ noerr er er' /\ Post ex fs os os' L h h'.

  Lemma nodup_disj {A} (l1 l2 : list A) x : NoDup (l1 ++ l2) -> In x l1 -> ~ In x l2.
  Proof.
    induction l1 as [|y l IH]; intros ND [].
    - subst. cbn in ND. apply NoDup_cons_iff in ND. destruct ND as [N1 _]. intros Hc; apply N1, in_or_app; auto.
    - cbn in ND. apply NoDup_cons_iff in ND. destruct ND as [_ ND]. auto.
  Qed.
  Lemma nodup_l {A} (l1 l2 : list A) : NoDup (l1 ++ l2) -> NoDup l1.
  Proof.
    induction l1 as [|y l IH]; intros ND; [constructor|]. cbn in ND. apply NoDup_cons_iff in ND. destruct ND as [N1 N2].
    constructor; [|auto]. intros Hc; apply N1, in_or_app; auto.
  Qed.
  Lemma nodup_r {A} (l1 l2 : list A) : NoDup (l1 ++ l2) -> NoDup l2.
  Proof. induction l1 as [|y l IH]; intros ND; [exact ND|]. cbn in ND. apply NoDup_cons_iff in ND. apply IH, ND. Qed.

  Lemma FOP_app {A} (R : A -> A -> Prop) l1 l2 : ForallOrdPairs R (l1 ++ l2) -> ForallOrdPairs R l1 /\ ForallOrdPairs R l2 /\ forall x y, In x l1 -> In y l2 -> R x y.
  Proof.
    induction l1 as [|a l1 IH]; intros F; [split; [constructor|]; split; [exact F|intros x y []]|]. cbn in F. inversion F as [|? ? Fa F']; subst.
    rewrite Forall_app in Fa. destruct Fa as [F1 F2]. destruct (IH F') as (H1 & H2 & H3). split; [constructor; assumption|]. split; [exact H2|].
    intros x y [<-|Hx] Hy; [rewrite Forall_forall in F2; apply F2; exact Hy|apply H3; assumption].
  Qed.
  Lemma rep_l L1 L2 : pulled_again G (L1 ++ L2) -> pulled_again G L1. Proof. intros F. apply (FOP_app _ _ _ F). Qed.
  Lemma rep_r L1 L2 : pulled_again G (L1 ++ L2) -> pulled_again G L2. Proof. intros F. apply (FOP_app _ _ _ F). Qed.
  Lemma rep_both L1 L2 x : pulled_again G (L1 ++ L2) -> In (jf_key x) (map jf_key L1) -> In x L2 -> In x L1 /\ repullable G (jf_ty x).
  Proof.
    intros F H1 H2. apply in_map_iff in H1. destruct H1 as (y & E & Hy). destruct (proj2 (proj2 (FOP_app _ _ _ F)) y x Hy H2 E) as [-> Rr]. auto.
  Qed.
  Lemma rep_both' L1 L2 x : pulled_again G (L1 ++ L2) -> In x L1 -> In (jf_key x) (map jf_key L2) -> In x L2.
  Proof.
    intros F H1 H2. apply in_map_iff in H2. destruct H2 as (y & E & Hy). destruct (proj2 (proj2 (FOP_app _ _ _ F)) x y H1 Hy (eq_sym E)) as [-> Rr]. exact Hy.
  Qed.

  Lemma Post_app ex fs os os1 os2 L1 L2 h h1 h2 :
    pulled_again G (L1 ++ L2) -> hext h h1 -> hext h1 h2 ->
    Post ex fs os os1 L1 h h1 -> Post ex fs os1 os2 L2 h1 h2 -> Post ex fs os os2 (L1 ++ L2) h h2.
  Proof.
    intros ND X1 X2 A B. constructor.
    - rewrite (po_keys _ _ _ _ _ _ _ B). apply A.
    - intros x Hin. apply in_app_or in Hin. destruct (in_dec fkey_eq_dec (jf_key x) (map jf_key L2)) as [i|n].
      + assert (Hx: In x L2) by (destruct Hin as [Hin|Hin]; [eapply rep_both'; eauto|exact Hin]).
        destruct (po_in _ _ _ _ _ _ _ B x Hx) as (v & v' & E1 & E2 & E3 & E4). exists v, v'. repeat split; auto.
        intros hx Hn. eapply js_ext; [exact X1|]. apply E3. eapply newin_r; eauto.
      + destruct Hin as [Hin|Hin]; [|exfalso; apply n, in_map; exact Hin].
        destruct (po_in _ _ _ _ _ _ _ A x Hin) as (v & v' & E1 & E2 & E3 & E4).
        exists v, v'. repeat split; auto.
        * rewrite (po_out _ _ _ _ _ _ _ B); [exact E2|exact n].
        * intros hx Hx. apply E3. eapply newin_l; eauto.
    - intros k Hk. rewrite map_app in Hk. rewrite (po_out _ _ _ _ _ _ _ B) by (intros Hc; apply Hk, in_or_app; auto).
      apply (po_out _ _ _ _ _ _ _ A). intros Hc; apply Hk, in_or_app; auto.
  Qed.
  Lemma Post_nil ex fs os h : Post ex fs os os [] h h.
  Proof. constructor; auto. intros x []. Qed.
  Lemma Pre_app F ex fs os os1 ms L1 L2 h h1 :
    pulled_again G (L1 ++ L2) -> Pre F ex fs os ms (L1 ++ L2) -> Post ex fs os os1 L1 h h1 -> Pre F ex fs os1 ms L2.
  Proof.
    intros ND P A x Hin. destruct (P x (in_or_app _ _ _ (or_intror Hin))) as (v & j & o & E1 & E2 & E3 & old & Ag & E4).
    destruct (in_dec fkey_eq_dec (jf_key x) (map jf_key L1)) as [i|n].
    - destruct (rep_both L1 L2 x ND i Hin) as [Hin1 Rr]. destruct (po_in _ _ _ _ _ _ _ A x Hin1) as (w & v' & F1 & F2 & F3 & _).
      assert (w = v) by congruence. subst w. exists v, j, v'. split; [exact E1|]. split; [exact E2|]. split; [exact F2|]. exists old.
      split; [|exact E4]. right. split; [exact Rr|]. exists h, h1. apply F3, newin_refl.
    - exists v, j, o. split; [exact E1|]. split; [exact E2|]. split; [|exists old; auto]. rewrite (po_out _ _ _ _ _ _ _ A); [exact E3|exact n].
  Qed.
  Lemma Pre_l F ex fs os ms L1 L2 : Pre F ex fs os ms (L1 ++ L2) -> Pre F ex fs os ms L1.
  Proof. intros P x Hin. apply P. apply in_or_app; auto. Qed.

  Lemma fields_pull F ex fs ms f L : F <= f -> forall os, pulled_again G L -> Pre F ex fs os ms L ->
    cls_pulls ex fs os L (fold_m (fun os fd => pull_member (pull G J f) ms fd os) L os).
  Proof.
    intros Hf. induction L as [|fd L IH]; intros os ND P h er.
    - exists os, h, er. cbn. split; [reflexivity|]. split; [apply hext_refl|]. split; [apply noerr_refl|apply Post_nil].
    - destruct (P fd (or_introl eq_refl)) as (v & j & o & E1 & E2 & E3 & old & Ag & E4).
      set (prev := match er with Some e => es_member e | None => None end).
      set (er1 := option_map (fun e => {| es_errs := es_errs e; es_record := es_record e; es_member := Some (jf_name fd); es_index := es_index e; es_throw := es_throw e |}) er).
      assert (N1: noerr er er1) by (unfold er1; destruct er; cbn; auto).
      destruct (E4 f o Hf Ag h er1) as (v' & h1 & er2 & R & X1 & N2 & Q & S1).
      set (er3 := option_map (fun e => {| es_errs := es_errs e; es_record := es_record e; es_member := prev; es_index := es_index e; es_throw := es_throw e |}) er2).
      assert (N3: noerr er2 er3) by (unfold er3; destruct er2; cbn; auto).
      set (os1 := aupdate fkey_eqb (jf_key fd) v' os).
      assert (A: Post ex fs os os1 [fd] h h1).
      { constructor.
        - apply aupdate_keys.
        - intros x [<-|[]]. exists v, v'. repeat split; auto.
          apply alookup_aupdate_same; [apply fkey_eqb_eq|]. eapply alookup_some_key; [apply fkey_eqb_eq|exact E3].
        - intros k Hk. unfold os1. apply alookup_aupdate_other; [apply fkey_eqb_eq|]. intros ->. apply Hk. left. reflexivity. }
      change (fd :: L) with ([fd] ++ L) in ND, P.
      assert (ND2: pulled_again G L) by exact (rep_r _ _ ND).
      destruct (IH os1 ND2 (Pre_app _ _ _ _ _ _ _ _ _ _ ND P A) h1 er3) as (os2 & h2 & er4 & R2 & X2 & N4 & B).
      exists os2, h2, er4. split; [|split; [|split]].
      + cbn [fold_m]. unfold bind at 1. unfold pull_member at 1. rewrite E3, E1.
        unfold bind at 1. unfold in_member. cbn [p_err p_heap]. fold prev.
        change (put_member (Some (jf_name fd)) {| p_heap := h; p_err := er |}) with {| p_heap := h; p_err := er1 |}.
        rewrite R. change (put_member prev {| p_heap := h1; p_err := er2 |}) with {| p_heap := h1; p_err := er3 |}.
        cbn [ret]. fold os1. exact R2.
      + eapply hext_trans; eauto.
      + eapply noerr_trans; [exact N1|]. eapply noerr_trans; [exact N2|]. eapply noerr_trans; [exact N3|exact N4].
      + change (fd :: L) with ([fd] ++ L). eapply Post_app; eauto.
  Qed.

  Lemma pull_members c L : members G rc_pull c L ->
    exists d, forall F ex fs os ms f, pulled_again G L -> Pre F ex fs os ms L -> F + d <= f ->
      cls_pulls ex fs os L (pull_cls G J f c os ms).
  Proof.
    revert c L. apply members_ind'. intros c rc p Ls Ec Ep _ FB.
    assert (B: exists d, forall F ex fs os ms f, pulled_again G (concat Ls) -> Pre F ex fs os ms (concat Ls) -> F + d <= f ->
      cls_pulls ex fs os (concat Ls) (fold_m (fun os b => pull_cls G J f b os ms) (jp_bases p) os)).
    { clear Ec Ep. induction FB as [|b L bs Ls (d1 & P1) FB (d2 & P2)].
      - exists 0. intros F ex fs os ms f ND P Hf h er. exists os, h, er. cbn. split; [reflexivity|]. split; [apply hext_refl|]. split; [apply noerr_refl|apply Post_nil].
      - exists (max d1 d2). intros F ex fs os ms f ND P Hf h er. cbn [concat] in *.
        destruct (P1 F ex fs os ms f (rep_l _ _ ND) (Pre_l _ _ _ _ _ _ _ P) ltac:(lia) h er) as (os1 & h1 & er1 & R1 & X1 & N1 & Q1).
        destruct (P2 F ex fs os1 ms f (rep_r _ _ ND) (Pre_app _ _ _ _ _ _ _ _ _ _ ND P Q1) ltac:(lia) h1 er1) as (os2 & h2 & er2 & R2 & X2 & N2 & Q2).
        exists os2, h2, er2. split; [|split; [|split]].
        + cbn [fold_m]. unfold bind at 1. rewrite R1. exact R2.
        + eapply hext_trans; eauto.
        + eapply noerr_trans; eauto.
        + eapply Post_app; eauto. }
    destruct B as (d & B). exists (S d). intros F ex fs os ms f ND P Hf h er. destruct f as [|f]; [lia|].
    destruct (B F ex fs os ms f (rep_l _ _ ND) (Pre_l _ _ _ _ _ _ _ P) ltac:(lia) h er) as (os1 & h1 & er1 & R1 & X1 & N1 & Q1).
    pose proof (fields_pull F ex fs ms f (jp_fields p) ltac:(lia) os1 (rep_r _ _ ND) (Pre_app _ _ _ _ _ _ _ _ _ _ ND P Q1)) as FP.
    rewrite pull_cls_S. unfold pull_cls_body. rewrite Ec, Ep. unfold bind. rewrite R1. cbv zeta.
    destruct (jp_record p) as [n|].
    - set (prev := match er1 with Some e => es_record e | None => None end).
      set (er2 := option_map (fun e => {| es_errs := es_errs e; es_record := Some n; es_member := es_member e; es_index := es_index e; es_throw := es_throw e |}) er1).
      assert (N2: noerr er1 er2) by (unfold er2; destruct er1; cbn; auto).
      destruct (FP h1 er2) as (os2 & h2 & er3 & R2 & X2 & N3 & Q2).
      set (er4 := option_map (fun e => {| es_errs := es_errs e; es_record := prev; es_member := es_member e; es_index := es_index e; es_throw := es_throw e |}) er3).
      assert (N4: noerr er3 er4) by (unfold er4; destruct er3; cbn; auto).
      exists os2, h2, er4. split; [|split; [|split]].
      + unfold in_record. cbn [p_err]. fold prev. change (put_record (Some n) {| p_heap := h1; p_err := er1 |}) with {| p_heap := h1; p_err := er2 |}.
        rewrite R2. reflexivity.
      + eapply hext_trans; eauto.
      + eapply noerr_trans; [exact N1|]. eapply noerr_trans; [exact N2|]. eapply noerr_trans; [exact N3|exact N4].
      + eapply Post_app; eauto.
    - destruct (FP h1 er1) as (os2 & h2 & er3 & R2 & X2 & N3 & Q2).
      exists os2, h2, er3. split; [exact R2|]. split; [eapply hext_trans; eauto|]. split; [eapply noerr_trans; eauto|eapply Post_app; eauto].
  Qed.

  Lemma pulls_ret ex t v : shfree v = true -> pulls ex t v (ret v).
  Proof.
    intros S h er. exists v, h, er. split; [reflexivity|]. split; [apply hext_refl|]. split; [apply noerr_refl|].
    split; [intros; apply js_same; exact S|reflexivity].
  Qed.
  Lemma scalar_spec ex t old v j : shfree v = true ->
    (forall f, push G J H (S f) t v = ROk j) -> (forall f st o, again t old v o -> pull G J (S f) t o j st = ret v st) -> j <> JNull -> good_spec ex t old v.
  Proof.
    intros S Hp Hq Hj. exists 1, j. split; [|intros _; exact Hj]. intros f Hf. destruct f as [|f]; [lia|]. split; [apply Hp|].
    intros o Ho h er. rewrite (Hq f _ o Ho). apply pulls_ret. exact S.
  Qed.

  (** wrapping a value *)
  Lemma pulls_wrap ex t t' v (wr : val -> val) m m' :
    (forall h hx v', js h hx t v v' -> js h hx t' (wr v) (wr v')) ->
    (forall st, m' st = (let? x := m in ret (wr x)) st) -> pulls ex t v m -> pulls ex t' (wr v) m'.
  Proof.
    intros Hw Hm P h er. destruct (P h er) as (v' & h' & er' & E & X & N & Q & S).
    exists (wr v'), h', er'. split; [rewrite Hm; unfold bind; rewrite E; reflexivity|]. split; [exact X|]. split; [exact N|].
    split; [intros hx Hx; apply Hw, Q, Hx|intros Hex; rewrite (S Hex); reflexivity].
  Qed.

  Lemma perm_forall2 {A B} (Q : A -> B -> Prop) l l2 m2 : Permutation l l2 -> Forall2 Q l2 m2 -> exists m, Forall2 Q l m /\ Permutation m m2.
  Proof.
    intros P. revert m2. induction P as [|x l l2 P IH|x y l|l1 l2 l3 P1 IH1 P2 IH2]; intros m2 F.
    - inversion F; subst. exists []. split; constructor.
    - inversion F as [|a b l' m' Hab F']; subst. destruct (IH _ F') as (m & F1 & P1). exists (b :: m). split; [constructor; auto|constructor; auto].
    - inversion F as [|a b l' m' Hab F']; subst. inversion F' as [|a' b' l'' m'' Hab' F'']; subst.
      exists (b' :: b :: m''). split; [repeat constructor; auto|]. apply perm_swap.
    - destruct (IH2 _ F) as (m & F1 & Q1). destruct (IH1 _ F1) as (m0 & F0 & Q0). exists m0. split; [exact F0|]. etransitivity; eauto.
  Qed.

  Lemma alist_eq (l m : list (fkey * val)) : map fst l = map fst m -> NoDup (map fst m) ->
    (forall k, alookup fkey_eqb k l = alookup fkey_eqb k m) -> l = m.
  Proof.
    revert m; induction l as [|[k v] l IH]; intros [|[k' v'] m] E ND Hx; cbn in E; try discriminate; [reflexivity|].
    inversion E; subst k'. cbn in ND. apply NoDup_cons_iff in ND. destruct ND as [N1 N2].
    assert (R: fkey_eqb k k = true) by (apply fkey_eqb_eq; reflexivity).
    assert (v = v') by (specialize (Hx k); cbn in Hx; rewrite R in Hx; congruence).
    subst v'. f_equal. apply IH; [congruence|congruence|].
    intros k2. specialize (Hx k2). cbn in Hx. destruct (fkey_eqb k2 k) eqn:E2; [|exact Hx].
    apply fkey_eqb_eq in E2. subst k2. rewrite !alookup_none; auto using fkey_eqb_eq. congruence.
  Qed.

  (** tuples *)
  Lemma tuple_pull ex f ts : forall os l jl,
    length os = length ts -> length l = length ts -> length jl = length ts ->
    (forall i t o x j, nth_error ts i = Some t -> nth_error os i = Some o -> nth_error l i = Some x -> nth_error jl i = Some j ->
       pulls ex t x (pull G J f t o j)) ->
    forall h er, exists l' h' er', pull_tuple (pull G J f) ts os jl {| p_heap := h; p_err := er |} = POk l' {| p_heap := h'; p_err := er' |}
      /\ hext h h' /\ noerr er er' /\ length l' = length ts
      /\ (forall hx, newin h h' hx -> forall i t x x', nth_error ts i = Some t -> nth_error l i = Some x -> nth_error l' i = Some x' -> js h hx t x x')
      /\ (ex = true -> l' = l).
  Proof.
    induction ts as [|t ts IH]; intros [|o os] [|x l] [|j jl] L1 L2 L3 P h er; cbn in L1, L2, L3; try discriminate; cbn [pull_tuple].
    - exists [], h, er. split; [reflexivity|]. split; [apply hext_refl|]. split; [apply noerr_refl|]. split; [reflexivity|].
      split; [intros hx _ i t x x' E; destruct i; discriminate E|reflexivity].
    - destruct (P 0 t o x j eq_refl eq_refl eq_refl eq_refl h er) as (x' & h1 & er1 & E1 & X1 & N1 & Q1 & S1).
      destruct (IH os l jl ltac:(lia) ltac:(lia) ltac:(lia) (fun i => P (S i)) h1 er1) as (l' & h2 & er2 & E2 & X2 & N2 & L4 & Q2 & S2).
      exists (x' :: l'), h2, er2. split; [|split; [|split; [|split; [|split]]]].
      + unfold bind. rewrite E1, E2. reflexivity.
      + eapply hext_trans; eauto.
      + eapply noerr_trans; eauto.
      + cbn. congruence.
      + intros hx Hx i t0 y y' A B C. destruct i as [|i]; cbn in A, B, C.
        * inversion A; inversion B; inversion C; subst. apply Q1. eapply newin_l; eauto.
        * eapply js_ext; [exact X1|]. eapply Q2; eauto. eapply newin_r; eauto.
      + intros Hex. rewrite (S1 Hex), (S2 Hex). reflexivity.
  Qed.

  (** members of a class: the JSON value found under the name is the one pushed for the member *)
  Lemma lookup_pushed (L : list jfield) jl fd (R : jfield -> json -> Prop) : pushed_apart L -> Forall2 R L jl -> In fd L ->
    exists j, alookup bytes_eqb (jf_name fd) (combine (map jf_name L) jl) = Some j /\ R fd j.
  Proof.
    intros ND F Hin. induction F as [|fd0 j0 L jl R0 F IH]; [destruct Hin|].
    cbn [map combine alookup]. destruct (bytes_eqb (jf_name fd) (jf_name fd0)) eqn:E.
    - apply bytes_eqb_eq in E. rewrite (ND fd fd0 Hin (or_introl eq_refl) E). exists j0. split; [reflexivity|exact R0].
    - destruct Hin as [->|Hin]; [rewrite bytes_eqb_refl in E; discriminate|]. apply IH; [|exact Hin]. intros x y Hx Hy. apply ND; right; assumption.
  Qed.

  Lemma indirect_map ord multi kt vt : repullable G (TMap ord multi kt vt) -> False. Proof. intros R. inversion R as [? X| | |]; subst; destruct X. Qed.
  Lemma indirect_view : repullable G TView -> False. Proof. intros R. inversion R as [? X| | |]; subst; destruct X. Qed.
  Lemma indirect_cstr : repullable G TCStr -> False. Proof. intros R. inversion R as [? X| | |]; subst; destruct X. Qed.
  Ltac indirect R := exfalso; first [exact (indirect_map _ _ _ _ R)|exact (indirect_view R)|exact (indirect_cstr R)].

  Lemma shfree_lookup fs k v : shfree (VObj fs) = true -> alookup fkey_eqb k fs = Some v -> shfree v = true.
  Proof.
    cbn. induction fs as [|[k' w] fs IH]; cbn; [discriminate|]. intros S. apply andb_true_iff in S. destruct S as [S1 S2].
    destruct (fkey_eqb k k'); [intros E; injection E as <-; exact S1|apply IH; exact S2].
  Qed.

  Theorem round_trip ex t old v : jgood G J H ex t old v -> good_spec ex t old v.
  Proof.
    induction 1.
    - eapply scalar_spec with (j := JBool b); try reflexivity; discriminate.
    - apply scalar_spec with (j := JInt z); [reflexivity| | |discriminate].
      + intros f. rewrite push_S. cbn [push_body]. rewrite H0. reflexivity.
      + intros f st o Ho. rewrite pull_S. cbn [pull_body is_number get_int]. destruct (json_kind k) eqn:Ek.
        * unfold bind, get_int. rewrite H1. reflexivity.
        * cbn [orb] in H0. rewrite H0. unfold bind, get_int. rewrite (byte_range k z H0 H1). cbn [ret]. rewrite (wrap_id k z H1). reflexivity.
    - apply scalar_spec with (j := JDbl (f64_of_f32 n)); [reflexivity|reflexivity| |discriminate].
      intros f st o Ho. rewrite pull_S. cbn [pull_body get_double]. destruct (f32_round_trip n H0 H1) as [E _]. rewrite E. reflexivity.
    - apply scalar_spec with (j := JDbl n); try reflexivity; discriminate.
    - apply scalar_spec with (j := JInt z); [reflexivity|reflexivity| |discriminate].
      intros f st o Ho. rewrite pull_S. cbn [pull_body]. rewrite (enum_range k z H0), (wrap_id k z H0). reflexivity.
    - destruct H0 as [Nf Ls]. apply scalar_spec with (j := JStr s); [reflexivity| | |discriminate].
      + intros f. rewrite push_S. cbn [push_body]. rewrite (sized_id s Ls). reflexivity.
      + intros f st o Ho. rewrite pull_S. cbn [pull_body]. rewrite (cstr_id s Nf). reflexivity.
    - apply scalar_spec with (j := JStr (sized (je_dt_print J z))); [reflexivity|reflexivity| |discriminate].
      intros f st o Ho. rewrite pull_S. cbn [pull_body]. unfold bind, ret. rewrite H0. reflexivity.
    - apply scalar_spec with (j := JStr (sized (je_ts_print J z))); [reflexivity|reflexivity| |discriminate].
      intros f st o Ho. rewrite pull_S. cbn [pull_body]. unfold bind, ret. rewrite H0. reflexivity.
    - apply scalar_spec with (j := JStr (sized s)); [reflexivity|reflexivity| |discriminate]. intros f st o [->|[R _]]; [reflexivity|indirect R].
    - apply scalar_spec with (j := JStr (cstr s)); [reflexivity|reflexivity| |discriminate]. intros f st o [->|[R _]]; [reflexivity|indirect R].
    - (* sequence *)
      destruct (gather (fun F x j => spec ex t (vinit G t) x F j) l) as (F & jl & FA); [intros; eapply spec_more; eauto|exact H1|].
      exists (S F), (JArr jl). split; [|discriminate]. intros f Hf. destruct f as [|f]; [lia|]. split.
      + rewrite push_S. cbn [push_body]. rewrite (push_iter_ok (push G J H f t) l jl); [reflexivity|].
        eapply Forall2_imp; [|exact FA]. intros x j _ [S1 _]. apply S1. lia.
      + assert (FB: Forall2 (fun x j => pulls ex t x (pull G J f t (vinit G t) j)) l jl).
        { eapply Forall2_imp; [|exact FA]. intros x j _ [S1 _]. apply S1; [lia|apply again_old]. }
        intros o Ho h er. destruct (seq_items ex t f l jl FB 0%N [] h er) as (l' & h' & er' & E & X & N & L & Q & S1).
        exists (VList l'), h', er'. split; [rewrite pull_S; cbn [pull_body]; unfold bind at 1; rewrite E; reflexivity|].
        split; [exact X|]. split; [exact N|]. split; [|intros Hex; rewrite (S1 Hex); reflexivity].
        intros hx Hx. apply js_seq; [exact L|]. apply Q. exact Hx.
    - (* set *)
      destruct (gather (fun F x j => spec true t (dinit G t) x F j) l) as (F & jl & FA); [intros; eapply spec_more; eauto|exact H3|].
      exists (S F), (JArr jl). split; [|discriminate]. intros f Hf. destruct f as [|f]; [lia|]. split.
      + rewrite push_S. cbn [push_body]. rewrite (push_iter_ok (push G J H f t) l jl); [reflexivity|].
        eapply Forall2_imp; [|exact FA]. intros x j _ [S1 _]. apply S1. lia.
      + assert (FB: Forall2 (fun x j => is_undef x = false /\ pulls true t x (pull G J f t (dinit G t) j)) l jl).
        { eapply Forall2_imp; [|exact FA]. intros x j Hx [S1 _]. split; [eapply jgood_defined; apply H2; exact Hx|apply S1; [lia|apply again_old]]. }
        intros o Ho h er. destruct (set_items ord multi t f l jl FB [] [] 0%N h er H1) as (l' & h' & er' & E & X & N & Gr & Q); [intros y []|].
        exists (VList l'), h', er'. split; [rewrite pull_S; cbn [pull_body]; unfold bind at 1; rewrite E; reflexivity|].
        split; [exact X|]. split; [exact N|]. unfold grows in Gr. cbn [app] in Gr. split.
        * intros hx Hx. apply js_set with (m := l); [reflexivity| |exact Gr].
          intros x x' Hin. assert (In x l /\ x' = x) as [Hi ->].
          { clear -Hin. induction l as [|y l IH]; [destruct Hin|]. cbn in Hin. destruct Hin as [E|Hin]; [inversion E; subst; split; [left|]; reflexivity|].
            destruct (IH Hin) as [A B]. split; [right; exact A|exact B]. }
          apply Q; assumption.
        * intros Hex. rewrite (H0 Hex) in Gr. congruence.
    - (* map *)
      set (val_of := fun x => match x with VPair _ v => v | _ => VUndef end).
      destruct (gather (fun F x j => exists k, x = VPair (VStr k) (val_of x) /\ json_string k /\ spec ex vt (vinit G vt) (val_of x) F j) l) as (F & jl & FA).
      { intros F F' x j L (k & E1 & E2 & E3). exists k. split; [exact E1|split; [exact E2|eapply spec_more; eauto]]. }
      { intros x Hx. destruct (H2 x Hx) as (k & v & -> & Js). destruct (H4 _ _ Hx) as (F & j & S1). exists F, j, k. auto. }
      destruct multi.
      + (* multimap *)
        set (gs := gall (items_of l jl) []). exists (S F), (JObj (emb gs)). split; [|discriminate]. intros f Hf. destruct f as [|f]; [lia|]. split.
        * rewrite push_S. cbn [push_body].
          change (@nil (bytes * json)) with (emb []). rewrite (push_multi (push G J H f vt) l jl); [reflexivity|].
          eapply Forall2_imp; [|exact FA]. intros x j _ (k & E1 & E2 & [S1 _]). exists k, (val_of x). split; [exact E1|split; [exact E2|apply S1; lia]].
        * set (its := items_of l jl).
          assert (Pm: Permutation its (flat gs)) by (apply (gall_perm its [])).
          assert (Li: map (fun '(k, (v, j)) => VPair (VStr k) v) its = l).
          { unfold its, items_of. clear -FA. induction FA as [|x j l jl (k & E1 & _) FA IH]; [reflexivity|]. cbn. rewrite IH. rewrite E1. reflexivity. }
          assert (Pi: forall k v j, In (k, (v, j)) its -> nul_free k /\ pulls ex vt v (pull G J f vt (vinit G vt) j)).
          { unfold its, items_of. clear -FA Hf. induction FA as [|x j l jl (k & E1 & [E2 _] & [S1 _]) FA IH]; [intros ? ? ? []|].
            cbn. intros k0 v0 j0 [E|Hin]; [|apply IH; exact Hin]. rewrite E1 in E. inversion E; subst. split; [exact E2|]. apply S1; [lia|apply again_old]. }
          assert (Eo: ord = true -> flat gs = its).
          { intros ->. unfold gs. fold its. rewrite (gall_end its []); [reflexivity|split; constructor|]. cbn [flat map concat app].
            intros l1 x l2 y l3 E Ek z Hz.
            set (mk := fun '(k, (v, j)) => VPair (VStr k) v) in Li.
            assert (Kk: forall it : bytes * (val * json), keyof true (mk it) = VStr (fst it)) by (intros [k0 [v0 j0]]; reflexivity).
            apply in_split in Hz. destruct Hz as (l21 & l22 & ->).
            assert (El: l = map mk l1 ++ mk x :: map mk l21 ++ mk z :: map mk l22 ++ mk y :: map mk l3).
            { rewrite <- Li, E. rewrite !map_app. cbn [map]. rewrite !map_app. cbn [map]. rewrite <- !app_assoc. reflexivity. }
            unfold cont_inv in H1.
            assert (O1: g_lt G TString (keyof true (mk z)) (keyof true (mk x)) = false).
            { rewrite El in H1. replace (map mk l1 ++ mk x :: map mk l21 ++ mk z :: map mk l22 ++ mk y :: map mk l3)
                with ((map mk l1 ++ mk x :: map mk l21) ++ mk z :: (map mk l22 ++ mk y :: map mk l3)) in H1 by (rewrite <- app_assoc; reflexivity).
              apply (FOP_last _ _ _ _ H1). apply in_or_app. right. left. reflexivity. }
            assert (O2: g_lt G TString (keyof true (mk y)) (keyof true (mk z)) = false).
            { rewrite El in H1. replace (map mk l1 ++ mk x :: map mk l21 ++ mk z :: map mk l22 ++ mk y :: map mk l3)
                with ((map mk l1 ++ mk x :: map mk l21 ++ mk z :: map mk l22) ++ mk y :: map mk l3) in H1 by (rewrite <- !app_assoc; cbn; rewrite <- !app_assoc; reflexivity).
              apply (FOP_last _ _ _ _ H1). apply in_or_app. right. right. apply in_or_app. right. left. reflexivity. }
            assert (Ez: keyof true (mk z) = keyof true (mk x)).
            { apply H5; auto.
              - rewrite El. apply in_or_app; right; right. apply in_or_app; right; left; reflexivity.
              - rewrite El. apply in_or_app; right; left; reflexivity.
              - replace (keyof true (mk x)) with (keyof true (mk y)) by (rewrite !Kk, Ek; reflexivity). exact O2. }
            rewrite !Kk in Ez. congruence. }
          set (mk := fun '(k, (v, j)) => VPair (VStr k) v) in Li.
          set (todo := map mk (flat gs)).
          assert (FB: Forall2 (fun x it => exists k v, x = VPair (VStr k) v /\ nul_free k /\ fst it = k /\ pulls ex vt v (pull G J f vt (vinit G vt) (snd it)))
                        todo (map (fun '(k, (v, j)) => (k, j)) (flat gs))).
          { assert (Pf: forall k v j, In (k, (v, j)) (flat gs) -> nul_free k /\ pulls ex vt v (pull G J f vt (vinit G vt) j)).
            { intros k v j Hin. apply (Pi k v j). eapply Permutation_in; [symmetry; exact Pm|exact Hin]. }
            unfold todo. clear -Pf. induction (flat gs) as [|[k [v j]] fl IH]; cbn; constructor.
            - destruct (Pf k v j (or_introl eq_refl)). exists k, v. auto.
            - apply IH. intros k0 v0 j0 Hin. apply Pf. right; exact Hin. }
          assert (Pt: Permutation l todo) by (unfold todo; rewrite <- Li; apply Permutation_map; exact Pm).
          assert (Et: ord = true -> todo = l) by (intros Ho; unfold todo; rewrite (Eo Ho); exact Li).
          assert (Inv: cont_inv G true ord true TString ([] ++ todo)) by (destruct ord; [rewrite (Et eq_refl); exact H1|exact I]).
          intros o [->|[Ro _]]; [|indirect Ro]. intros h er.
          destruct (map_items ex ord true vt (multi_step ord vt f) f todo _ FB) with (done := @nil val) (cur := @nil val) (h := h) (er := er)
            as (cur' & h' & er' & m & E & X & N & Gr & L & Q & S1); [|exact Inv|intros y []|].
          { intros done x rest cur it _ _ _ Nf. unfold multi_step. rewrite (cstr_id _ Nf). reflexivity. }
          exists (VList cur'), h', er'. split; [|split; [exact X|split; [exact N|split]]].
          -- pose proof (pull_multi ord vt f gs [] {| p_heap := h; p_err := er |}) as PMu. rewrite E in PMu. cbv zeta in PMu.
             rewrite pull_S. cbn [pull_body]. unfold bind at 1. rewrite PMu. reflexivity.
          -- intros hx Hx. assert (FQ: Forall2 (fun x x' => js h hx (TPair TString vt) x x') todo m).
             { specialize (Q hx Hx). clear -Q L. revert m L Q. induction todo as [|x todo IH]; intros [|y m] L Q; cbn in L; try discriminate; constructor.
               - apply Q. left; reflexivity. - apply IH; [congruence|]. intros a b Hin. apply Q. right; exact Hin. }
             unfold grows in Gr. cbn [app] in Gr. destruct ord.
             ++ rewrite (Et eq_refl) in FQ. destruct (Forall2_comb _ _ _ FQ) as [A B]. apply js_map with (m := m); assumption.
             ++ destruct (perm_forall2 _ _ _ _ Pt FQ) as (m0 & F0 & P0). destruct (Forall2_comb _ _ _ F0) as [A B].
                apply js_map with (m := m0); try assumption. etransitivity; eauto.
          -- intros Hex. specialize (H0 Hex). subst ord. unfold grows in Gr. cbn [app] in Gr. subst cur'. rewrite (S1 Hex), (Et eq_refl). reflexivity.
      + (* map with unique keys *)
        set (ms := map (fun '(x, j) => (match x with VPair (VStr k) _ => k | _ => [] end, j)) (combine l jl)).
        exists (S F), (JObj ms). split; [|discriminate]. intros f Hf. destruct f as [|f]; [lia|]. split.
        * rewrite push_S. cbn [push_body].
          assert (E: forall ms0, push_fold (fun x ms => match x with
                       | VPair (VStr k) v => let! j := push G J H f vt v in ROk (ms ++ [(cstr k, j)])
                       | _ => RStuck end) l ms0 = ROk (ms0 ++ ms)).
          { unfold ms. clear -FA Hf. induction FA as [|x j l jl (k & E1 & [E2 _] & [S1 _]) FA IH]; intros ms0; cbn [push_fold combine map]; [rewrite app_nil_r; reflexivity|].
            rewrite E1. destruct (S1 f ltac:(lia)) as [Ep _]. rewrite Ep. cbn [rbind]. rewrite IH, (cstr_id k E2), <- app_assoc. reflexivity. }
          rewrite E. reflexivity.
        * assert (FB: Forall2 (fun x it => exists k v, x = VPair (VStr k) v /\ nul_free k /\ fst it = k /\ pulls ex vt v (pull G J f vt (vinit G vt) (snd it))) l ms).
          { unfold ms. clear -FA Hf. induction FA as [|x j l jl (k & E1 & [E2 _] & [S1 _]) FA IH]; cbn; constructor; [|exact IH].
            exists k, (val_of x). rewrite E1. cbn. repeat split; auto. apply S1; [lia|apply again_old]. }
          intros o [->|[Ro _]]; [|indirect Ro]. intros h er.
          destruct (map_items ex ord false vt (fun l '(n, j') =>
                      let k := VStr (cstr n) in
                      match map_find G ord TString (VPair k VUndef) l with
                      | Some v => let? x := pull G J f vt v j' in ret (map_put G ord TString (VPair k VUndef) x l)
                      | None => let? x := pull G J f vt (vinit G vt) j' in ret (fst (emplace G true ord false TString (VPair k x) l))
                      end) f l _ FB) with (done := @nil val) (cur := @nil val) (h := h) (er := er)
            as (cur' & h' & er' & m & E & X & N & Gr & L & Q & S1); [|exact H1|intros y []|].
          { intros done x rest cur [n j'] Inv K Kx Nf. cbn [fst snd] in *. cbv zeta. rewrite (cstr_id n Nf).
            rewrite (same_key_false ord false TString done x rest cur); auto. }
          exists (VList cur'), h', er'. split; [|split; [exact X|split; [exact N|split]]].
          -- cbv zeta in E. rewrite pull_S. cbn [pull_body]. unfold bind at 1. rewrite E. reflexivity.
          -- intros hx Hx. apply js_map with (m := m); [exact L|apply Q; exact Hx|exact Gr].
          -- intros Hex. specialize (H0 Hex). subst ord. unfold grows in Gr. cbn [app] in Gr. subst cur'. rewrite (S1 Hex). reflexivity.
    - (* pair *)
      destruct IHjgood1 as (F1 & ja & [S1 _]), IHjgood2 as (F2 & jb & [S2 _]).
      exists (S (max F1 F2)), (JArr [ja; jb]). split; [|discriminate]. intros f Hf. destruct f as [|f]; [lia|].
      destruct (S1 f ltac:(lia)) as [Ea Pa], (S2 f ltac:(lia)) as [Eb Pb]. split.
      + rewrite push_S. cbn [push_body]. rewrite Ea, Eb. reflexivity.
      + intros o Ho. assert (exists oa' ob', o = VPair oa' ob' /\ again ta oa a oa' /\ again tb ob b ob') as (oa' & ob' & -> & Ha & Hb).
        { destruct Ho as [->|(R & h0 & hx & S0)]; [exists oa, ob; split; [reflexivity|split; apply again_old]|].
          inversion R as [? X|? ? Ra Rb| |]; subst; [destruct X|].
          inversion S0 as [? ? Sf| | | |? ? ? ? a' b' Sa Sb| | | | | | ]; subst.
          - cbn in Sf. apply andb_true_iff in Sf. destruct Sf as [Sf1 Sf2]. exists a, b. split; [reflexivity|]. split; right; (split; [assumption|exists h0, hx; apply js_same; assumption]).
          - exists a', b'. split; [reflexivity|]. split; right; (split; [assumption|exists h0, hx; assumption]). }
        specialize (Pa oa' Ha). specialize (Pb ob' Hb).
        intros h er. destruct (Pa h er) as (a' & h1 & er1 & R1 & X1 & N1 & Q1 & I1). destruct (Pb h1 er1) as (b' & h2 & er2 & R2 & X2 & N2 & Q2 & I2).
        exists (VPair a' b'), h2, er2. split; [|split; [eapply hext_trans; eauto|split; [eapply noerr_trans; eauto|split]]].
        * rewrite pull_S. cbn [pull_body length Nat.eqb nth_error]. unfold bind. rewrite R1, R2. reflexivity.
        * intros hx Hx. apply js_pair; [apply Q1; eapply newin_l; eauto|eapply js_ext; [exact X1|]; apply Q2; eapply newin_r; eauto].
        * intros Hex. rewrite (I1 Hex), (I2 Hex). reflexivity.
    - (* tuple *)
      assert (GA: exists F jl, length jl = length ts /\ forall i t o x j, nth_error ts i = Some t -> nth_error os i = Some o -> nth_error l i = Some x ->
                    nth_error jl i = Some j -> spec ex t o x F j).
      { clear H0 H3. revert os l H1 H2 H4. induction ts as [|t ts IH]; intros [|o os] [|x l] L1 L2 Hs; cbn in L1, L2; try discriminate.
        - exists 0, []. split; [reflexivity|]. intros [|i] t o x j E; discriminate E.
        - destruct (Hs 0 t o x eq_refl eq_refl eq_refl) as (F1 & j1 & S1).
          destruct (IH os l ltac:(lia) ltac:(lia) (fun i => Hs (S i))) as (F2 & jl & L3 & S2).
          exists (max F1 F2), (j1 :: jl). split; [cbn; congruence|]. intros [|i] t0 o0 x0 j0 A B C D; cbn in A, B, C, D.
          + inversion A; inversion B; inversion C; inversion D; subst. eapply spec_more; [|exact S1]; lia.
          + eapply spec_more; [|eapply S2; eassumption]; lia. }
      destruct GA as (F & jl & Lj & S1). exists (S F), (JArr jl). split; [|discriminate]. intros f Hf. destruct f as [|f]; [lia|].
      assert (Ep: push_iter (fun '(t', x) => push G J H f t' x) (combine ts l) = ROk jl).
      { apply push_iter_ok. clear -S1 Hf H1 H2 Lj. revert os l jl H1 H2 Lj S1. induction ts as [|t ts IH]; intros [|o os] [|x l] [|j jl] L1 L2 L3 S1; cbn in *; try discriminate; constructor.
        - destruct (S1 0 t o x j eq_refl eq_refl eq_refl eq_refl) as [A _]. apply A. lia.
        - apply (IH os); try lia. exact (fun i => S1 (S i)). }
      destruct ts as [|t0 ts]; [congruence|]. split.
      + rewrite push_S. cbn [push_body]. rewrite (proj2 (Nat.eqb_eq _ _) H2). rewrite Ep. reflexivity.
      + intros o Ho. assert (exists os', o = VList os' /\ length os' = length (t0 :: ts) /\ forall i t o o' x, nth_error (t0 :: ts) i = Some t -> nth_error os i = Some o ->
                            nth_error os' i = Some o' -> nth_error l i = Some x -> again t o x o') as (os' & -> & Lo' & Ho').
        { destruct Ho as [->|(R & h0 & hx & S0)]; [exists os; split; [reflexivity|]; split; [exact H1|]; intros i t o o' x _ B C _; rewrite B in C; injection C as ->; apply again_old|].
          inversion R as [? X| |? Rts|]; subst; [destruct X|].
          inversion S0 as [? ? Sf| | | | |? ? l' La Lb Q| | | | | ]; subst.
          - exists l. split; [reflexivity|]. split; [exact H2|]. intros i t o o' x A B C D. rewrite D in C. injection C as <-. right. split; [apply Rts; eapply nth_error_In; exact A|].
            exists h0, hx. apply js_same. cbn in Sf. rewrite forallb_forall in Sf. apply Sf. eapply nth_error_In; exact D.
          - exists l'. split; [reflexivity|]. split; [exact Lb|]. intros i t o o' x A B C D. right. split; [apply Rts; eapply nth_error_In; exact A|]. exists h0, hx. eapply Q; eassumption. }
        intros h er. destruct (tuple_pull ex f (t0 :: ts) os' l jl Lo' H2 Lj) with (h := h) (er := er) as (l' & h' & er' & E & X & N & L & Q & I1).
        { intros i t o' x j A B C D. destruct (nth_error os i) as [o|] eqn:Eo; [|apply nth_error_None in Eo; assert (i < length (t0 :: ts)) by (apply nth_error_Some; congruence); lia].
          destruct (S1 i t o x j A Eo C D) as [P _]. apply P; [lia|]. eapply Ho'; eassumption. }
        exists (VList l'), h', er'. split; [|split; [exact X|split; [exact N|split]]].
        * rewrite pull_S. cbn [pull_body]. replace (length jl =? length (t0 :: ts)) with true by (symmetry; apply Nat.eqb_eq; exact Lj). unfold bind at 1. rewrite E. reflexivity.
        * intros hx Hx. apply js_tuple; [exact H2|exact L|exact (Q hx Hx)].
        * intros Hex. rewrite (I1 Hex). reflexivity.
    - exists 1, JNull. split; [|intros []]. intros f Hf. destruct f as [|f]; [lia|]. split; [reflexivity|intros o Ho; apply pulls_ret; reflexivity].
    - destruct IHjgood as (F & j & [S1 N1]). specialize (N1 H0). exists (S F), j. split; [|auto]. intros f Hf. destruct f as [|f]; [lia|].
      destruct (S1 f ltac:(lia)) as [E P]. specialize (P _ (again_old _ _ _)). split; [exact E|]. intros o Ho.
      apply pulls_wrap with (t := t) (wr := fun x => VOpt (Some x)) (m := pull G J f t (vinit G t) j); [intros; constructor; assumption| |exact P].
      intros st. rewrite pull_S. cbn [pull_body]. destruct j; try reflexivity. congruence.
    - exists 1, JNull. split; [|intros []]. intros f Hf. destruct f as [|f]; [lia|]. split; [reflexivity|intros o Ho; apply pulls_ret; reflexivity].
    - destruct IHjgood as (F & j & [S1 N1]). specialize (N1 H0). exists (S F), j. split; [|auto]. intros f Hf. destruct f as [|f]; [lia|].
      destruct (S1 f ltac:(lia)) as [E P]. specialize (P _ (again_old _ _ _)). split; [exact E|]. intros o Ho.
      apply pulls_wrap with (t := t) (wr := fun x => VOpt (Some x)) (m := pull G J f t (vinit G t) j); [intros; constructor; assumption| |exact P].
      intros st. rewrite pull_S. cbn [pull_body]. destruct j; try reflexivity. congruence.
    - exists 1, JNull. split; [|intros []]. intros f Hf. destruct f as [|f]; [lia|]. split; [reflexivity|intros o Ho; apply pulls_ret; reflexivity].
    - (* shared pointer *)
      destruct IHjgood as (F & j & [S1 N1]). specialize (N1 H1). exists (S F), j. split; [|auto]. intros f Hf. destruct f as [|f]; [lia|].
      destruct (S1 f ltac:(lia)) as [E P]. specialize (P _ (again_old _ _ _)). split.
      + rewrite push_S. cbn [push_body]. rewrite H0, ty_eqb_refl. exact E.
      + intros o Ho h er. set (a' := g_alloc G h). set (h1 := hset h a' (t, vinit G t)).
        assert (Fr: hget h a' = None) by (apply hget_not_in; apply HA).
        destruct (P h1 er) as (x' & h2 & er2 & R & X & N & Q & _).
        exists (VShared (Some a')), (hset h2 a' (t, x')), er2. split; [|split; [|split; [exact N|split; [|discriminate]]]].
        * rewrite pull_S. cbn [pull_body]. assert (Ei: (let? a0 := in_new G t (pull G J f t (vinit G t) j) in ret (VShared (Some a0))) {| p_heap := h; p_err := er |}
             = POk (VShared (Some a')) {| p_heap := hset h2 a' (t, x'); p_err := er2 |}).
          { unfold bind, in_new. cbn [p_heap p_err]. fold a'. fold h1. rewrite R. reflexivity. }
          destruct j; try exact Ei. congruence.
        * intros b c Eb. rewrite hget_hset_other by congruence. apply X. unfold h1. rewrite hget_hset_other by congruence. exact Eb.
        * intros hx Hx. apply js_shared with (x := x) (x' := x'); [exact H0|exact Fr|apply Hx; [exact Fr|apply hget_hset_same]|].
          eapply js_base; [|apply Q].
          -- intros b Eb. unfold h1 in Eb. destruct (N.eq_dec a' b) as [<-|Hab]; [rewrite hget_hset_same in Eb; discriminate|].
             rewrite hget_hset_other in Eb by congruence. exact Eb.
          -- intros b c E1 E2. unfold h1 in E1. destruct (N.eq_dec a' b) as [<-|Hab]; [rewrite hget_hset_same in E1; discriminate|].
             rewrite hget_hset_other in E1 by congruence. apply Hx; [exact E1|]. rewrite hget_hset_other by congruence. exact E2.
    - (* variants *)
      exists 1, (JObj [(list_byte_of_string "index", JInt (Z.of_nat i)); (list_byte_of_string "data", JNull)]). split; [|discriminate]. intros f Hf. destruct f as [|f]; [lia|]. split.
      + rewrite push_S. cbn [push_body]. rewrite H1. reflexivity.
      + intros o Ho h er. rewrite pull_S. cbn [pull_body].
        match goal with |- context [alookup bytes_eqb ?a ?ms] => assert (EI: alookup bytes_eqb a ms = Some (JInt (Z.of_nat i))) by reflexivity; rewrite EI end.
        match goal with |- context [alookup bytes_eqb ?a ?ms] => assert (ED: alookup bytes_eqb a ms = Some JNull) by reflexivity; rewrite ED end.
        rewrite H0. assert (Hi: i < length ts) by (apply nth_error_Some; congruence).
        replace (Z.to_N (Z.of_nat i) <? N.of_nat (length ts))%N with true by (symmetry; apply N.ltb_lt; lia).
        rewrite Nat2Z.id, H1. apply pulls_ret. reflexivity.
    - destruct IHjgood as (F & j & [S1 _]). exists (S F), (JObj [(list_byte_of_string "index", JInt (Z.of_nat i)); (list_byte_of_string "data", j)]). split; [|discriminate]. intros f Hf. destruct f as [|f]; [lia|].
      destruct (S1 f ltac:(lia)) as [E P]. specialize (P _ (again_old _ _ _)). split.
      + rewrite push_S. cbn [push_body]. rewrite H1.
        destruct t; try congruence; rewrite E; reflexivity.
      + intros o Ho. assert (W: forall st, pull G J (S f) (TVariant ts) o (JObj [(list_byte_of_string "index", JInt (Z.of_nat i)); (list_byte_of_string "data", j)]) st
                   = (let? x := pull G J f t (vinit G t) j in ret (VVar i x)) st).
        { intros st. rewrite pull_S. cbn [pull_body].
          match goal with |- context [alookup bytes_eqb ?a ?ms] => assert (EI: alookup bytes_eqb a ms = Some (JInt (Z.of_nat i))) by reflexivity; rewrite EI end.
          match goal with |- context [alookup bytes_eqb ?a ?ms] => assert (ED: alookup bytes_eqb a ms = Some j) by reflexivity; rewrite ED end.
          rewrite H0. assert (Hi: i < length ts) by (apply nth_error_Some; congruence).
          replace (Z.to_N (Z.of_nat i) <? N.of_nat (length ts))%N with true by (symmetry; apply N.ltb_lt; lia).
          rewrite Nat2Z.id, H1. destruct t; try congruence; reflexivity. }
        apply pulls_wrap with (t := t) (wr := VVar i) (m := pull G J f t (vinit G t) j); [intros; eapply js_variant; eassumption|exact W|exact P].
    - (* classes *)
      destruct (gather (fun F fd j => exists v, alookup fkey_eqb (jf_key fd) fs = Some v /\ spec ex (jf_ty fd) (oo (jf_key fd)) v F j) Lp) as (F & jl & FA).
      { intros F F' fd j L (v & E & S1). exists v. split; [exact E|eapply spec_more; eauto]. }
      { intros fd Hin. destruct (alookup_some_in _ fkey_eqb_eq (jf_key fd) fs) as (v & Ev).
        { rewrite <- H2. eapply alookup_some_key; [apply fkey_eqb_eq|apply H9; exact Hin]. }
        destruct (H12 fd v Hin Ev) as (F & j & S1). exists F, j, v. auto. }
      destruct (push_members c Lp H4) as (d1 & PM). destruct (pull_members c Lq H5) as (d2 & QM).
      set (ms := combine (map jf_name Lp) jl).
      exists (S (F + d1 + d2)), (JObj ms). split; [|discriminate]. intros f Hf. destruct f as [|f]; [lia|]. split.
      + rewrite push_S. cbn [push_body]. rewrite (PM F fs jl [] f); [reflexivity| |lia].
        eapply Forall2_imp; [|exact FA]. intros fd j _ (v & E & [S1 _]). exists v. split; [exact E|]. intros f0 Hf0. apply S1. exact Hf0.
      + intros o Ho. assert (exists os', o = VObj os' /\ map fst os' = map fst fs
            /\ (forall fd v, In fd Lq -> alookup fkey_eqb (jf_key fd) fs = Some v -> exists o', alookup fkey_eqb (jf_key fd) os' = Some o' /\ again (jf_ty fd) (oo (jf_key fd)) v o')
            /\ (forall k v, ~ In k (map jf_key Lq) -> alookup fkey_eqb k fs = Some v -> alookup fkey_eqb k os' = Some v /\ shfree v = true)) as (os1 & -> & K1 & K2 & K3).
        { destruct Ho as [->|(R & h0 & hx & S0)].
          { exists os. split; [reflexivity|]. split; [exact H1|]. split; [|exact H13]. intros fd v Hfd Ev. exists (oo (jf_key fd)). split; [apply H10; exact Hfd|apply again_old]. }
          inversion R as [? X| | |? rc' L' Hc' Mq Hin Rt]; subst; [destruct X|]. rewrite H0 in Hc'. injection Hc' as <-. assert (L' = Lq) by (eapply members_fun; eassumption). subst L'.
          assert (Hno: forall k v, ~ In k (map jf_key Lq) -> alookup fkey_eqb k fs = Some v -> False).
          { intros k v Hk Ev. apply Hk, Hin. rewrite H2. eapply alookup_some_key; [apply fkey_eqb_eq|exact Ev]. }
          inversion S0 as [? ? Sf| | | | | | | | | |? rc' ? fs' Hc' Kf Q]; subst.
          - exists fs. split; [reflexivity|]. split; [reflexivity|]. split; [|intros k v Hk Ev; destruct (Hno k v Hk Ev)]. intros fd v Hfd Ev. exists v. split; [exact Ev|]. right. split; [apply Rt; exact Hfd|].
            exists h0, hx. apply js_same. eapply shfree_lookup; eassumption.
          - rewrite H0 in Hc'. injection Hc' as <-. exists fs'. split; [reflexivity|]. split; [exact Kf|]. split; [|intros k v Hk Ev; destruct (Hno k v Hk Ev)]. intros fd v Hfd Ev.
            destruct (alookup_some_in _ fkey_eqb_eq (jf_key fd) fs') as (v' & Ev'); [rewrite Kf; eapply alookup_some_key; [apply fkey_eqb_eq|exact Ev]|].
            exists v'. split; [exact Ev'|]. right. split; [apply Rt; exact Hfd|]. exists h0, hx. apply (Q (jf_key fd) (jf_ty fd) v v'); [apply H9, H8; exact Hfd|exact Ev|exact Ev']. }
        assert (P: Pre F ex fs os1 ms Lq).
        { intros fd Hin. destruct (lookup_pushed Lp jl fd _ H6 FA (H8 fd Hin)) as (j & Ej & v & Ev & [S1 _]).
          destruct (K2 fd v Hin Ev) as (o' & Eo & Ag). exists v, j, o'. split; [exact Ej|]. split; [exact Ev|]. split; [exact Eo|].
          exists (oo (jf_key fd)). split; [exact Ag|]. intros f0 o2 Hf0 Ag2. apply S1; assumption. }
        intros h er. destruct (QM F ex fs os1 ms f H7 P ltac:(lia) h er) as (os' & h' & er' & R & X & N & Q).
        exists (VObj os'), h', er'. split; [rewrite pull_S; cbn [pull_body]; unfold bind; rewrite R; reflexivity|].
        split; [exact X|]. split; [exact N|]. 
        assert (Hk: map fst os' = map fst fs) by (rewrite (po_keys _ _ _ _ _ _ _ Q); exact K1).
        split.
        * intros hx Hx. eapply js_struct; [exact H0|exact Hk|]. intros k t v v' Et Ev Ev'.
          destruct (in_dec fkey_eq_dec k (map jf_key Lq)) as [Hin|Hni].
          -- apply in_map_iff in Hin. destruct Hin as (fd & <- & Hin). destruct (po_in _ _ _ _ _ _ _ Q fd Hin) as (w & w' & E1 & E2 & E3 & _).
             specialize (H9 fd (H8 fd Hin)). rewrite E1 in Ev. rewrite E2 in Ev'. rewrite H9 in Et. inversion Ev; inversion Ev'; inversion Et; subst. apply E3. exact Hx.
          -- destruct (K3 k v Hni Ev) as [Eo Sh]. rewrite (po_out _ _ _ _ _ _ _ Q k Hni), Eo in Ev'. inversion Ev'; subst. apply js_same. exact Sh.
        * intros Hex. f_equal. apply alist_eq; [exact Hk|exact H3|]. intros k.
          destruct (in_dec fkey_eq_dec k (map jf_key Lq)) as [Hin|Hni].
          -- apply in_map_iff in Hin. destruct Hin as (fd & <- & Hin). destruct (po_in _ _ _ _ _ _ _ Q fd Hin) as (w & w' & E1 & E2 & _ & E4).
             rewrite E1, E2, (E4 Hex). reflexivity.
          -- rewrite (po_out _ _ _ _ _ _ _ Q k Hni). destruct (alookup fkey_eqb k fs) as [v|] eqn:Ev; [apply (K3 k v Hni Ev)|].
             apply alookup_none; [apply fkey_eqb_eq|]. rewrite K1. intros Hc. destruct (alookup_some_in _ fkey_eqb_eq k fs Hc). congruence.
  Qed.
End RT.
