(** AddrFacts.v -- two runs of the reader with different memory allocators *)
From Coq Require Import List NArith ZArith Bool Lia.
From Verif Require Import Base BaseFacts Types TypesFacts BinModel FuelFacts SerSpec JTreeSpec JsonModel AddrSpec.
Import ListNotations.

Lemma alike_more ro ro2 : extends ro ro2 -> forall v v', alike ro v v' -> alike ro2 v v'.
Proof.
  intros E. fix IH 3. intros v v' [ | | | | | | l l' F | a b a' b' A B | | x x' A | | a a' A | i x x' A | | | fs fs' F].
  all: try (constructor; fail).
  - constructor. induction F as [|x x' l l' A F IHF]; constructor; [exact (IH _ _ A)|exact IHF].
  - constructor; [exact (IH _ _ A)|exact (IH _ _ B)].
  - constructor. exact (IH _ _ A).
  - constructor. exact (E _ _ A).
  - constructor. exact (IH _ _ A).
  - constructor. induction F as [|x x' l l' [K A] F IHF]; constructor; [split; [exact K|exact (IH _ _ A)]|exact IHF].
Qed.
Lemma alikes_more ro ro2 : extends ro ro2 -> forall l l', Forall2 (alike ro) l l' -> Forall2 (alike ro2) l l'.
Proof. intros E. induction 1; constructor; [eapply alike_more; eassumption|assumption]. Qed.

Lemma alikes_rev ro l l' : Forall2 (alike ro) l l' -> Forall2 (alike ro) (rev l) (rev l').
Proof. induction 1; cbn [rev]; [constructor|]. apply Forall2_app; [assumption|repeat constructor; assumption]. Qed.

Lemma alike_self ro : forall v, (forall a, ~ refers v a) -> alike ro v v.
Proof.
  fix IH 1. intros v N. destruct v as [|b|z|n|n|s|l|a b|[x|]|[a|]|i x| | |fs]; try (constructor; fail).
  - constructor. induction l as [|x l IHl]; constructor.
    + apply IH. intros a R. apply (N a). econstructor; [left; reflexivity|exact R].
    + apply IHl. intros a R. apply (N a). inversion R as [|? x' ? I Q| | | | |]; subst. econstructor; [right; exact I|exact Q].
  - constructor; apply IH; intros c R; apply (N c); [apply rf_first|apply rf_second]; exact R.
  - constructor. apply IH. intros c R. apply (N c). constructor. exact R.
  - destruct (N a). constructor.
  - constructor. apply IH. intros c R. apply (N c). constructor. exact R.
  - constructor. induction fs as [|[k x] l IHl]; constructor.
    + split; [reflexivity|]. apply IH. intros a R. apply (N a). econstructor; [left; reflexivity|exact R].
    + apply IHl. intros a R. apply (N a). inversion R as [| | | | | |? k' x' ? I Q]; subst. econstructor; [right; exact I|exact Q].
Qed.
Lemma vinit_alike G ro : plain_defaults G -> forall t, alike ro (vinit G t) (vinit G t).
Proof.
  intros PD. induction t using ty_ind'; cbn [vinit]; try (constructor; fail); try (constructor; auto; fail).
  - constructor. induction ts as [|t ts IHt]; [constructor|]. inversion H; subst. cbn [map]. constructor; [assumption|apply IHt; assumption].
  - destruct ts as [|t0 ts]; [constructor|]. inversion H; subst. constructor. assumption.
  - destruct (g_class G c) as [rc|] eqn:Ec; [|constructor]. apply alike_self. intros a R. inversion R as [| | | | | |? k x ? I Q]; subst.
    exact (PD c rc k x a Ec (or_introl I) Q).
Qed.
Lemma dinit_alike G ro : plain_defaults G -> forall t, alike ro (dinit G t) (dinit G t).
Proof.
  intros PD t. unfold dinit. destruct t; try (constructor; fail); try (apply vinit_alike; exact PD).
  destruct (g_class G c) as [rc|] eqn:Ec; [|constructor]. apply alike_self. intros a R. inversion R as [| | | | | |? k x ? I Q]; subst.
  exact (PD c rc k x a Ec (or_intror I) Q).
Qed.

(** members *)
Definition pairwise ro (x y : fkey * val) : Prop := fst x = fst y /\ alike ro (snd x) (snd y).
Lemma members_lookup ro k fs fs' : Forall2 (pairwise ro) fs fs' ->
  match alookup fkey_eqb k fs, alookup fkey_eqb k fs' with Some v, Some v' => alike ro v v' | None, None => True | _, _ => False end.
Proof. induction 1 as [|[k1 x] [k2 y] l l' [K A] F IH]; [exact I|]. cbn in K, A. subst k2. cbn [alookup]. destruct (fkey_eqb k k1); [exact A|exact IH]. Qed.
Lemma members_update ro k v v' fs fs' : alike ro v v' -> Forall2 (pairwise ro) fs fs' -> Forall2 (pairwise ro) (aupdate fkey_eqb k v fs) (aupdate fkey_eqb k v' fs').
Proof.
  intros A. induction 1 as [|[k1 x] [k2 y] l l' [K B] F IH]; [constructor|]. cbn in K, B. subst k2. cbn [aupdate].
  destruct (fkey_eqb k k1); constructor; try assumption; split; auto.
Qed.
Lemma members_more ro ro2 : extends ro ro2 -> forall l l', Forall2 (pairwise ro) l l' -> Forall2 (pairwise ro2) l l'.
Proof. intros E. induction 1 as [|x y l l' [K A] F IH]; constructor; [split; [exact K|eapply alike_more; eassumption]|exact IH]. Qed.

(** containers *)
Lemma keyof_alike ro m x x' : alike ro x x' -> alike ro (keyof m x) (keyof m x').
Proof. intros A. destruct m; [|exact A]. destruct A; try (constructor; assumption); assumption. Qed.
Section Emplace.
  Variable G : genv.
  Variable ro : renaming.
  Variables (lt lt' : val -> val -> bool).
  Hypothesis L : forall x x' y y', alike ro x x' -> alike ro y y' -> lt x y = lt' x' y'.
  Lemma ins_uniq_alike x x' l l' : alike ro x x' -> Forall2 (alike ro) l l' ->
    Forall2 (alike ro) (fst (ins_uniq lt x l)) (fst (ins_uniq lt' x' l')) /\ snd (ins_uniq lt x l) = snd (ins_uniq lt' x' l').
  Proof.
    intros A. induction 1 as [|y y' l l' B F [IH1 IH2]]; cbn [ins_uniq]; [split; [repeat constructor; exact A|reflexivity]|].
    rewrite <- (L y y' x x' B A), <- (L x x' y y' A B). destruct (lt y x).
    - destruct (ins_uniq lt x l), (ins_uniq lt' x' l'). cbn in *. split; [constructor; assumption|assumption].
    - destruct (lt x y); cbn; (split; [|reflexivity]); repeat (constructor; try assumption).
  Qed.
  Lemma ins_multi_alike x x' l l' : alike ro x x' -> Forall2 (alike ro) l l' -> Forall2 (alike ro) (ins_multi lt x l) (ins_multi lt' x' l').
  Proof.
    intros A. induction 1 as [|y y' l l' B F IH]; cbn [ins_multi]; [repeat constructor; exact A|].
    rewrite <- (L x x' y y' A B). destruct (lt x y); repeat (constructor; try assumption).
  Qed.
  Lemma existsb_alike x x' l l' : alike ro x x' -> Forall2 (alike ro) l l' -> existsb (fun y => lt y x) l = existsb (fun y => lt' y x') l'.
  Proof. intros A. induction 1 as [|y y' l l' B F IH]; [reflexivity|]. cbn [existsb]. rewrite (L y y' x x' B A), IH. reflexivity. Qed.
End Emplace.
Lemma emplace_alike G ro m ord multi kt x x' l l' : one_to_one ro -> address_free G kt -> alike ro x x' -> Forall2 (alike ro) l l' ->
  Forall2 (alike ro) (fst (emplace G m ord multi kt x l)) (fst (emplace G m ord multi kt x' l')) /\ snd (emplace G m ord multi kt x l) = snd (emplace G m ord multi kt x' l').
Proof.
  intros O AF A F. destruct (AF ro O) as [C P]. unfold emplace.
  assert (CL : forall a a' b b', alike ro a a' -> alike ro b b' -> g_lt G kt (keyof m a) (keyof m b) = g_lt G kt (keyof m a') (keyof m b')) by (intros; apply C; apply keyof_alike; assumption).
  assert (CE : forall a a' b b', alike ro a a' -> alike ro b b' -> g_eq G kt (keyof m a) (keyof m b) = g_eq G kt (keyof m a') (keyof m b')) by (intros; apply C; apply keyof_alike; assumption).
  destruct ord, multi.
  - split; [|reflexivity]. apply (ins_multi_alike ro _ _ CL); assumption.
  - apply (ins_uniq_alike ro _ _ CL); assumption.
  - split; [|reflexivity]. apply P; assumption.
  - rewrite (existsb_alike ro _ _ CE x x' l l' A F). destruct (existsb _ l'); (split; [|reflexivity]); [exact F|apply P; assumption].
Qed.

(** outcomes *)
Lemma outcome_bind {A A' B B'} (R : A -> A' -> Prop) (Q : B -> B' -> Prop) m m' k k' :
  same_outcome R m m' -> (forall a a', R a a' -> same_outcome Q (k a) (k' a')) -> same_outcome Q (rbind m k) (rbind m' k').
Proof. destruct m, m'; cbn; try contradiction; auto. Qed.
Lemma outcome_same {A B} (Q : B -> B -> Prop) (m : res A) k k' :
  (forall a, same_outcome Q (k a) (k' a)) -> same_outcome Q (rbind m k) (rbind m k').
Proof. destruct m; cbn; auto. Qed.
Lemma outcome_iter {A S S'} (I : S -> S' -> Prop) (r : A -> S -> res S) (r' : A -> S' -> res S') l :
  (forall x s s', In x l -> I s s' -> same_outcome I (r x s) (r' x s')) -> forall s s', I s s' -> same_outcome I (rd_iter r l s) (rd_iter r' l s').
Proof.
  induction l as [|x l IH]; intros H s s' Hs; cbn [rd_iter]; [exact Hs|].
  eapply outcome_bind; [apply H; [left; reflexivity|exact Hs]|]. intros a a' Ha. apply IH; [|exact Ha]. intros; apply H; [right; assumption|assumption].
Qed.
Lemma outcome_loop {S S'} (I : S -> S' -> Prop) n (r : S -> res S) (r' : S' -> res S') :
  (forall s s', I s s' -> same_outcome I (r s) (r' s')) -> forall s s', I s s' -> same_outcome I (loopN n r s) (loopN n r' s').
Proof.
  intros H s s' Hs. rewrite !loopN_loopnat. generalize (N.to_nat n) as m. intros m. revert s s' Hs. induction m as [|m IH]; intros s s' Hs; cbn [loopnat]; [exact Hs|].
  eapply outcome_bind; [apply H; exact Hs|]. exact IH.
Qed.

(** heaps *)
Lemma extends_refl ro : extends ro ro. Proof. intros a b X; exact X. Qed.
Lemma extends_trans r1 r2 r3 : extends r1 r2 -> extends r2 r3 -> extends r1 r3. Proof. intros E1 E2 a b X. apply E2, E1, X. Qed.
Lemma grown_refl ro h h' : one_to_one ro -> heaps_alike ro h h' -> grown ro h h' ro h h'.
Proof. intros O H. constructor; [apply extends_refl|exact O|exact H|auto|auto]. Qed.
Lemma grown_trans r1 h1 h1' r2 h2 h2' r3 h3 h3' : grown r1 h1 h1' r2 h2 h2' -> grown r2 h2 h2' r3 h3 h3' -> grown r1 h1 h1' r3 h3 h3'.
Proof.
  intros A B. constructor; [exact (extends_trans _ _ _ (gr_extends _ _ _ _ _ _ A) (gr_extends _ _ _ _ _ _ B))|apply (gr_one _ _ _ _ _ _ B)|apply (gr_alike _ _ _ _ _ _ B)| |].
  - intros a Ha. destruct (gr_left _ _ _ _ _ _ B a Ha) as [Ha2|E]; [|right; exact E]. destruct (gr_left _ _ _ _ _ _ A a Ha2) as [X|(b & X)]; [left; exact X|right].
    exists b. apply (gr_extends _ _ _ _ _ _ B), X.
  - intros a Ha. destruct (gr_right _ _ _ _ _ _ B a Ha) as [Ha2|E]; [|right; exact E]. destruct (gr_right _ _ _ _ _ _ A a Ha2) as [X|(b & X)]; [left; exact X|right].
    exists b. apply (gr_extends _ _ _ _ _ _ B), X.
Qed.
Lemma hget_key h a c : hget h a = Some c -> In a (map fst h).
Proof. unfold hget. induction h as [|[b d] h IH]; cbn [alookup]; [discriminate|]. destruct (N.eqb_spec a b) as [-> |N]; [left; reflexivity|right; apply IH; assumption]. Qed.
Lemma hget_hset h a c b : hget (hset h a c) b = if N.eqb b a then Some c else hget h b.
Proof. reflexivity. Qed.
Lemma ro_keys ro h h' a b : heaps_alike ro h h' -> ro a b -> In a (map fst h) /\ In b (map fst h').
Proof. intros H X. destruct (H a b X) as (t & x & x' & E & E' & _). split; eapply hget_key; eassumption. Qed.

Definition plus (ro : renaming) (a b : N) : renaming := fun x y => ro x y \/ (x = a /\ y = b).
(** a new object in both runs *)
Lemma grown_new ro h h' a a' t x x' : one_to_one ro -> heaps_alike ro h h' -> ~ In a (map fst h) -> ~ In a' (map fst h') -> (forall r, alike r x x') ->
  grown ro h h' (plus ro a a') (hset h a (t, x)) (hset h' a' (t, x')).
Proof.
  intros O H Na Na' A. assert (E : extends ro (plus ro a a')) by (intros p q X; left; exact X). constructor; [exact E| | | |].
  - intros p q p' q' [X| [-> ->]] [Y| [-> ->]].
    + exact (O _ _ _ _ X Y).
    + destruct (ro_keys _ _ _ _ _ H X) as [X1 X2]. split; intros ->; contradiction.
    + destruct (ro_keys _ _ _ _ _ H Y) as [X1 X2]. split; intros <-; contradiction.
    + split; reflexivity.
  - intros p q [X| [-> ->]].
    + destruct (ro_keys _ _ _ _ _ H X) as [X1 X2]. destruct (H p q X) as (u & y & y' & E1 & E2 & B). exists u, y, y'. rewrite !hget_hset.
      destruct (N.eqb_spec p a) as [-> |_]; [contradiction|]. destruct (N.eqb_spec q a') as [-> |_]; [contradiction|]. repeat split; try assumption. eapply alike_more; eassumption.
    + exists t, x, x'. rewrite !hget_hset, !N.eqb_refl. repeat split. apply A.
  - intros b [<- |Hb]; [right; exists a'; right; split; reflexivity|left; exact Hb].
  - intros b [<- |Hb]; [right; exists a; right; split; reflexivity|left; exact Hb].
Qed.
(** assigning to corresponding objects *)
Lemma grown_set ro h h' a a' t x x' : one_to_one ro -> heaps_alike ro h h' -> ro a a' -> alike ro x x' -> grown ro h h' ro (hset h a (t, x)) (hset h' a' (t, x')).
Proof.
  intros O H R A. constructor; [apply extends_refl|exact O| | |].
  - intros p q X. rewrite !hget_hset. destruct (N.eqb_spec p a) as [-> |Np].
    + assert (q = a') as -> by (apply (O a q a a' X R); reflexivity). rewrite N.eqb_refl. exists t, x, x'. repeat split. exact A.
    + destruct (N.eqb_spec q a') as [-> |Nq]; [destruct Np; apply (O p a' a a' X R); reflexivity|]. exact (H p q X).
  - intros b [<- |Hb]; [right; exists a'; exact R|left; exact Hb].
  - intros b [<- |Hb]; [right; exists a; exact R|left; exact Hb].
Qed.

(** the reader's table *)
Lemma tables_more ro ro2 l l' : extends ro ro2 -> tables_alike ro l l' -> tables_alike ro2 l l'.
Proof. intros E. induction 1 as [|x y l l' (A & B & C) F IH]; constructor; [repeat split; auto|exact IH]. Qed.
Lemma tables_lookup ro l l' id : tables_alike ro l l' ->
  match alookup N.eqb id l, alookup N.eqb id l' with Some (a, t), Some (a', t') => t = t' /\ ro a a' | None, None => True | _, _ => False end.
Proof. induction 1 as [|[i [a t]] [i' [a' t']] l l' (A & B & C) F IH]; [exact I|]. cbn in A, B, C. subst i' t'. cbn [alookup]. destruct (N.eqb id i); [split; [reflexivity|exact C]|exact IH]. Qed.

(** states of the reader, and results of a function which reads something *)
Definition step (ro : renaming) (st st' : rstate) (ro2 : renaming) (st2 st2' : rstate) : Prop :=
  grown ro (r_heap st) (r_heap st') ro2 (r_heap st2) (r_heap st2') /\ tables_alike ro2 (r_ptr st2) (r_ptr st2').
Definition ready (ro : renaming) (st st' : rstate) : Prop := one_to_one ro /\ heaps_alike ro (r_heap st) (r_heap st') /\ tables_alike ro (r_ptr st) (r_ptr st').
Lemma step_ready ro st st' ro2 st2 st2' : step ro st st' ro2 st2 st2' -> ready ro2 st2 st2'.
Proof. intros [A B]. exact (conj (gr_one _ _ _ _ _ _ A) (conj (gr_alike _ _ _ _ _ _ A) B)). Qed.
Lemma step_refl ro st st' : ready ro st st' -> step ro st st' ro st st'.
Proof. intros (A & B & C). split; [apply grown_refl; assumption|exact C]. Qed.
Lemma step_trans r1 s1 s1' r2 s2 s2' r3 s3 s3' : step r1 s1 s1' r2 s2 s2' -> step r2 s2 s2' r3 s3 s3' -> step r1 s1 s1' r3 s3 s3'.
Proof. intros [A _] [B C]. split; [eapply grown_trans; eassumption|exact C]. Qed.
Lemma step_extends r1 s1 s1' r2 s2 s2' : step r1 s1 s1' r2 s2 s2' -> extends r1 r2.
Proof. intros [A _]. apply (gr_extends _ _ _ _ _ _ A). Qed.
Definition got {A} (V : renaming -> A -> A -> Prop) (ro : renaming) (st st' : rstate) (x y : A * bytes * rstate) : Prop :=
  let '(v, s, st1) := x in let '(v', s', st1') := y in s = s' /\ exists ro2, step ro st st' ro2 st1 st1' /\ V ro2 v v'.

Section Read.
  Variable G : genv.
  Variables alloc alloc' : heap -> N.
  Hypothesis HA : allocator alloc.
  Hypothesis HA' : allocator alloc'.
  Hypothesis PD : plain_defaults G.
  Hypothesis MF : read_members_free G.
  Notation G1 := (with_alloc G alloc).
  Notation G2 := (with_alloc G alloc').

  Definition read_ok f : Prop := forall ver t old old' s ro st st', keys_free G t -> ready ro st st' -> alike ro old old' ->
    same_outcome (got alike ro st st') (read G1 f ver t old s st) (read G2 f ver t old' s st').
  Definition got_cls ro st st' (x y : list (fkey * val) * N * bytes * rstate) : Prop :=
    let '(fs, n, s, st1) := x in let '(fs', n', s', st1') := y in n = n' /\ got (fun r => Forall2 (pairwise r)) ro st st' (fs, s, st1) (fs', s', st1').
  Definition read_cls_ok f : Prop := forall ver c os os' s ro st st', ready ro st st' -> Forall2 (pairwise ro) os os' ->
    same_outcome (got_cls ro st st') (read_cls G1 f ver c os s st) (read_cls G2 f ver c os' s st').

  Lemma all_nth (ts : list ty) i t : (fix all l := match l with [] => True | t :: l' => keys_free G t /\ all l' end) ts -> nth_error ts i = Some t -> keys_free G t.
  Proof. revert i. induction ts as [|u ts IH]; intros [|i]; cbn; try discriminate. - intros [K _] [= <-]. exact K. - intros [_ K]. exact (IH i K). Qed.

  (** a value which has been read wherever the addresses do not matter *)
  Lemma got_here {A} (V : renaming -> A -> A -> Prop) ro st st' v v' s : ready ro st st' -> V ro v v' -> got V ro st st' (v, s, st) (v', s, st').
  Proof. intros R A0. split; [reflexivity|]. exists ro. split; [apply step_refl; exact R|exact A0]. Qed.

  (** sequences *)
  Definition seq_inv ro st st' (x y : list val * list val * bytes * rstate) : Prop :=
    let '(os, acc, s, st1) := x in let '(os', acc', s', st1') := y in
    s = s' /\ exists ro2, step ro st st' ro2 st1 st1' /\ Forall2 (alike ro2) os os' /\ Forall2 (alike ro2) acc acc'.
  Definition cont_rel ro st st' (x y : list val * bytes * rstate) : Prop := got (fun r => Forall2 (alike r)) ro st st' x y.

  Lemma read_alike f : read_ok f /\ read_cls_ok f.
  Proof.
    induction f as [|f [IH IHc]]; [split; repeat intro; exact I|]. split.
    - intros ver t old old' s ro st st' K R A. rewrite !read_S. unfold read_body.
      pose proof (vinit_alike G) as VI. specialize (fun r => VI r PD).
      destruct t; try exact I; try (apply outcome_same; intros [z s1]; apply got_here; [exact R|constructor]).
      + destruct (bin_kind k); [|exact I]. apply outcome_same; intros [z s1]; apply got_here; [exact R|constructor].
      + destruct (bin_kind k); [|exact I]. apply outcome_same; intros [z s1]; apply got_here; [exact R|constructor].
      + (* seq *) cbn [keys_free] in K. inversion A; subst; try exact I.
        apply outcome_same. intros [n s1].
        eapply outcome_bind.
        * apply (outcome_loop (seq_inv ro st st')); [|split; [reflexivity|]; exists ro; split; [apply step_refl; exact R|split; [exact H|constructor]]].
          intros [[[os acc] s2] st2] [[[os' acc'] s2'] st2'] (-> & ro2 & S & Fo & Fa). cbv zeta.
          eapply outcome_bind.
          -- apply (IH 0%N t _ _ s2' ro2 st2 st2' K (step_ready _ _ _ _ _ _ S)). change (vinit G1 t) with (vinit G t). change (vinit G2 t) with (vinit G t).
             destruct Fo; [apply VI|assumption].
          -- intros [[x s3] st3] [[x' s3'] st3'] (-> & ro3 & S3 & Ax). split; [reflexivity|]. exists ro3. split; [eapply step_trans; eassumption|]. pose proof (step_extends _ _ _ _ _ _ S3) as E3. split.
             ++ destruct Fo; [constructor|]. cbn [tl]. eapply alikes_more; eassumption.
             ++ constructor; [exact Ax|eapply alikes_more; eassumption].
        * intros [[[os acc] s2] st2] [[[os' acc'] s2'] st2'] (-> & ro2 & S & Fo & Fa). split; [reflexivity|]. exists ro2. split; [exact S|]. constructor. apply alikes_rev. exact Fa.
      + (* set *) destruct K as [KF K]. inversion A; subst; try exact I. apply outcome_same. intros [n s1].
        eapply outcome_bind.
        * apply (outcome_loop (cont_rel ro st st')); [|split; [reflexivity|]; exists ro; split; [apply step_refl; exact R|exact H]].
          intros [[os s2] st2] [[os' s2'] st2'] (-> & ro2 & S & Fo). eapply outcome_bind.
          -- apply (IH 0%N t _ _ s2' ro2 st2 st2' K (step_ready _ _ _ _ _ _ S)). apply (dinit_alike G ro2 PD).
          -- intros [[x s3] st3] [[x' s3'] st3'] (-> & ro3 & S3 & Ax). split; [reflexivity|]. exists ro3. split; [eapply step_trans; eassumption|].
             apply (emplace_alike G ro3 false ord multi t); [apply (step_ready _ _ _ _ _ _ S3)|exact KF|exact Ax|]. eapply alikes_more; [exact (step_extends _ _ _ _ _ _ S3)|exact Fo].
        * intros [[os s2] st2] [[os' s2'] st2'] (-> & ro2 & S & Fo). split; [reflexivity|]. exists ro2. split; [exact S|constructor; exact Fo].
      + (* map *) destruct K as (KF & K1 & K2). inversion A; subst; try exact I. apply outcome_same. intros [n s1].
        eapply outcome_bind.
        * apply (outcome_loop (cont_rel ro st st')); [|split; [reflexivity|]; exists ro; split; [apply step_refl; exact R|exact H]].
          intros [[os s2] st2] [[os' s2'] st2'] (-> & ro2 & S & Fo). eapply outcome_bind.
          -- apply (IH 0%N (TPair t1 t2) _ _ s2' ro2 st2 st2' (conj K1 K2) (step_ready _ _ _ _ _ _ S)). constructor; apply VI.
          -- intros [[x s3] st3] [[x' s3'] st3'] (-> & ro3 & S3 & Ax). split; [reflexivity|]. exists ro3. split; [eapply step_trans; eassumption|].
             apply (emplace_alike G ro3 true ord multi t1); [apply (step_ready _ _ _ _ _ _ S3)|exact KF|exact Ax|]. eapply alikes_more; [exact (step_extends _ _ _ _ _ _ S3)|exact Fo].
        * intros [[os s2] st2] [[os' s2'] st2'] (-> & ro2 & S & Fo). split; [reflexivity|]. exists ro2. split; [exact S|constructor; exact Fo].
      + (* pair *) destruct K as [K1 K2]. inversion A; subst; try exact I.
        eapply outcome_bind; [apply (IH 0%N t1 _ _ s ro st st' K1 R); eassumption|]. intros [[x s1] st1] [[x' s1'] st1'] (-> & ro1 & S1 & Ax).
        eapply outcome_bind; [apply (IH 0%N t2 _ _ s1' ro1 st1 st1' K2 (step_ready _ _ _ _ _ _ S1)); eapply alike_more; [exact (step_extends _ _ _ _ _ _ S1)|eassumption]|].
        intros [[y s2] st2] [[y' s2'] st2'] (-> & ro2 & S2 & Ay). split; [reflexivity|]. exists ro2. split; [eapply step_trans; eassumption|].
        constructor; [eapply alike_more; [exact (step_extends _ _ _ _ _ _ S2)|exact Ax]|exact Ay].
      + apply outcome_same. intros [n s1]. destruct (n =? 0)%N; [apply got_here; [exact R|constructor]|].
        eapply outcome_bind; [apply (IH 0%N t _ _ s1 ro st st' K R); apply VI|]. intros [[x s2] st2] [[x' s2'] st2'] (-> & ro1 & S1 & Ax). split; [reflexivity|]. exists ro1. split; [exact S1|constructor; exact Ax].
      + apply outcome_same. intros [n s1]. destruct (n =? 0)%N; [apply got_here; [exact R|constructor]|].
        eapply outcome_bind; [apply (IH 0%N t _ _ s1 ro st st' K R); apply VI|]. intros [[x s2] st2] [[x' s2'] st2'] (-> & ro1 & S1 & Ax). split; [reflexivity|]. exists ro1. split; [exact S1|constructor; exact Ax].
      + (* shared *) cbn [keys_free] in K. apply outcome_same. intros [mode s1]. destruct (mode =? 0)%N; [apply got_here; [exact R|constructor]|].
        apply outcome_same. intros [id s2]. destruct (N.land mode 3 =? 1)%N.
        * cbv zeta. cbn [g_alloc with_alloc]. set (a := alloc (r_heap st)). set (a' := alloc' (r_heap st')).
          destruct R as (O & HH & HT). change (vinit G1 t) with (vinit G t). change (vinit G2 t) with (vinit G t).
          pose proof (grown_new ro (r_heap st) (r_heap st') a a' t (vinit G t) (vinit G t) O HH (HA _) (HA' _) (fun r => VI r t)) as Gn.
          assert (Paa : plus ro a a' a a') by (right; split; reflexivity).
          assert (R1 : step ro st st' (plus ro a a') {| r_heap := hset (r_heap st) a (t, vinit G t); r_ptr := (id, (a, t)) :: r_ptr st |} {| r_heap := hset (r_heap st') a' (t, vinit G t); r_ptr := (id, (a', t)) :: r_ptr st' |}).
          { split; [exact Gn|]. constructor; [repeat split; exact Paa|]. eapply tables_more; [exact (gr_extends _ _ _ _ _ _ Gn)|exact HT]. }
          eapply outcome_bind; [apply (IH 0%N t _ _ s2 (plus ro a a') _ _ K (step_ready _ _ _ _ _ _ R1)); apply VI|].
          intros [[x s3] st3] [[x' s3'] st3'] (-> & ro3 & S3 & Ax). split; [reflexivity|]. exists ro3. pose proof (step_ready _ _ _ _ _ _ S3) as (O3 & H3 & T3).
          assert (R3 : ro3 a a') by (apply (step_extends _ _ _ _ _ _ S3); exact Paa). split; [|constructor; exact R3].
          eapply step_trans; [exact R1|]. eapply step_trans; [exact S3|]. split; [apply grown_set; assumption|exact T3].
        * pose proof (tables_lookup ro (r_ptr st) (r_ptr st') id (proj2 (proj2 R))) as TL.
          destruct (alookup N.eqb id (r_ptr st)) as [[a u]|], (alookup N.eqb id (r_ptr st')) as [[a' u']|]; try contradiction; [|reflexivity].
          destruct TL as [<- X]. destruct (ty_eqb u t); [|reflexivity]. apply got_here; [exact R|constructor; exact X].
      + (* variant *) apply outcome_same. intros [i s1]. destruct (nth_error ts (N.to_nat i)) as [t'|] eqn:En; [|reflexivity].
        pose proof (all_nth ts _ _ K En) as K'.
        assert (Q : same_outcome (got alike ro st st') (let! (x, s2, st2) := read G1 f 0 t' (vinit G1 t') s1 st in ROk (VVar (N.to_nat i) x, s2, st2))
                                             (let! (x, s2, st2) := read G2 f 0 t' (vinit G2 t') s1 st' in ROk (VVar (N.to_nat i) x, s2, st2))).
        { eapply outcome_bind; [apply (IH 0%N t' _ _ s1 ro st st' K' R); apply VI|]. intros [[x s2] st2] [[x' s2'] st2'] (-> & ro1 & S1 & Ax). split; [reflexivity|]. exists ro1. split; [exact S1|constructor; exact Ax]. }
        destruct t'; try exact Q. apply got_here; [exact R|constructor; constructor].
      + (* class *) inversion A; subst; try exact I. eapply outcome_bind; [apply (IHc ver c fs fs' s ro st st' R); eassumption|].
        intros [[[fs1 n] s1] st1] [[[fs1' n'] s1'] st1'] (-> & -> & ro1 & S1 & Ax). split; [reflexivity|]. exists ro1. split; [exact S1|constructor; exact Ax].
    - intros ver c os os' s ro st st' R A. rewrite !read_cls_S. unfold read_cls_body. cbn [g_class with_alloc]. destruct (g_class G c) as [rc|] eqn:Ec; [|exact I].
      destruct (rc_rd rc) as [p|] eqn:Ep; [|exact I].
      eapply outcome_bind.
      + apply (outcome_iter (fun x y : list (fkey * val) * bytes * rstate => got (fun r => Forall2 (pairwise r)) ro st st' x y)); [|split; [reflexivity|]; exists ro; split; [apply step_refl; exact R|exact A]].
        intros b [[o s1] st1] [[o' s1'] st1'] _ (-> & ro1 & S1 & A1). eapply outcome_bind; [apply (IHc ver b o o' s1' ro1 st1 st1' (step_ready _ _ _ _ _ _ S1) A1)|].
        intros [[[fs2 n] s2] st2] [[[fs2' n'] s2'] st2'] (-> & -> & ro2 & S2 & A2). split; [reflexivity|]. exists ro2. split; [eapply step_trans; eassumption|exact A2].
      + intros [[o s1] st1] [[o' s1'] st1'] (-> & ro1 & S1 & A1). apply outcome_same. intros [ver' s2].
        eapply outcome_bind.
        * apply (outcome_iter (fun x y : list (fkey * val) * bytes * rstate => got (fun r => Forall2 (pairwise r)) ro st st' x y)); [|split; [reflexivity|]; exists ro1; split; [exact S1|exact A1]].
          intros fd [[o2 s3] st3] [[o2' s3'] st3'] Hfd (-> & ro3 & S3 & A3). destruct (visible ver' fd); [|split; [reflexivity|]; exists ro3; split; [exact S3|exact A3]].
          pose proof (members_lookup ro3 (bf_key fd) o2 o2' A3) as ML. destruct (alookup fkey_eqb (bf_key fd) o2) as [v|], (alookup fkey_eqb (bf_key fd) o2') as [v'|]; try contradiction; [|exact I].
          eapply outcome_bind; [apply (IH ver' (bf_ty fd) v v' s3' ro3 st3 st3' (MF c rc p fd Ec Ep Hfd) (step_ready _ _ _ _ _ _ S3) ML)|].
          intros [[x s4] st4] [[x' s4'] st4'] (-> & ro4 & S4 & Ax). split; [reflexivity|]. exists ro4. split; [eapply step_trans; eassumption|].
          apply members_update; [exact Ax|]. eapply members_more; [exact (step_extends _ _ _ _ _ _ S4)|exact A3].
        * intros [[o3 s3] st3] [[o3' s3'] st3'] (-> & ro3 & S3 & A3). split; [reflexivity|]. split; [reflexivity|]. exists ro3. split; [exact S3|exact A3].
  Qed.
End Read.
