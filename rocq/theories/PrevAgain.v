(** PrevAgain.v -- reading the same data again *)
From Coq Require Import List NArith ZArith Bool Lia.
From Verif Require Import Base BaseFacts Bytes Types TypesFacts BinModel FuelFacts BinSpec BinFacts ContFacts PrevSpec.
From Verif Require AgainTop.
Import ListNotations.

(* ------------------------------------------------------------------ *)
(** * Without shared pointers, memory is not touched and does not matter *)

Definition free {A} (m : rstate -> res (A * bytes * rstate)) : Prop := forall st st',
  match m st with
  | ROk (a, r, st1) => st1 = st /\ m st' = ROk (a, r, st')
  | RThrow e => m st' = RThrow e
  | RUB => m st' = RUB | RFuel => m st' = RFuel | RStuck => m st' = RStuck
  end.
Lemma free_ret {A} (a : A) r : free (fun st => ROk (a, r, st)). Proof. intros st st'. auto. Qed.
Lemma free_const {A} (o : res (A * bytes * rstate)) : (forall x, o <> ROk x) -> free (fun _ => o).
Proof. intros H st st'. destruct o; auto. exfalso. eapply H. reflexivity. Qed.
Lemma free_ext {A} (m m' : rstate -> res (A * bytes * rstate)) : (forall st, m' st = m st) -> free m -> free m'.
Proof. intros E F st st'. rewrite !E. apply F. Qed.
Lemma free_let {A B} (o : res B) (k : B -> rstate -> res (A * bytes * rstate)) : (forall b, free (k b)) -> free (fun st => rbind o (fun b => k b st)).
Proof. intros H st st'. destruct o; cbn; auto. apply H. Qed.
Lemma free_bind {A B} (m : rstate -> res (A * bytes * rstate)) (k : A -> bytes -> rstate -> res (B * bytes * rstate)) :
  free m -> (forall a r, free (k a r)) -> free (fun st => rbind (m st) (fun '(a, r, st1) => k a r st1)).
Proof.
  intros F K st st'. specialize (F st st'). destruct (m st) as [[[a r] st1]|e| | |] eqn:E; cbn; try (rewrite F; reflexivity).
  destruct F as [-> F]. rewrite F. cbn. apply K.
Qed.
Lemma free_loop {A} (step : A * bytes * rstate -> res (A * bytes * rstate)) n : (forall a s, free (fun st => step (a, s, st))) -> forall a s, free (fun st => loopnat n step (a, s, st)).
Proof.
  intros H. induction n as [|n IH]; intros a s; cbn [loopnat]; [apply free_ret|].
  apply (free_ext (fun st => rbind (step (a, s, st)) (fun '(a', r, st1) => loopnat n step (a', r, st1)))); [intros st; apply rbind_ext; intros [[? ?] ?]; reflexivity|].
  apply free_bind; [apply H|intros; apply IH].
Qed.
Lemma free_iter {A B} (step : B -> A * bytes * rstate -> res (A * bytes * rstate)) l : (forall b a s, In b l -> free (fun st => step b (a, s, st))) ->
  forall a s, free (fun st => rd_iter step l (a, s, st)).
Proof.
  induction l as [|b l IH]; intros H a s; cbn [rd_iter]; [apply free_ret|].
  apply (free_ext (fun st => rbind (step b (a, s, st)) (fun '(a', r, st1) => rd_iter step l (a', r, st1)))); [intros st; apply rbind_ext; intros [[? ?] ?]; reflexivity|].
  apply free_bind; [apply H; left; reflexivity|]. intros; apply IH. intros; apply H; right; assumption.
Qed.
(** the rest of the bytes may be looked at *)
Lemma reads_fun G : forall c L, reads G c L -> forall L', reads G c L' -> L = L'.
Proof.
  fix IH 3. intros c L [c1 rc p Ls Ec Ep F] L' H'. inversion H' as [c2 rc' p' Ls' Ec' Ep' F']; subst. rewrite Ec in Ec'. injection Ec' as <-. rewrite Ep in Ep'. injection Ep' as <-.
  f_equal. f_equal. clear - IH F F'. revert Ls' F'. induction F as [|b L bs Ls Hb F IHF]; intros Ls' F'; inversion F'; subst; [reflexivity|]. f_equal; [apply (IH _ _ Hb); assumption|apply IHF; assumption].
Qed.
Lemma in_concat_base {A} (Ls : list (list A)) L x : In L Ls -> In x L -> In x (concat Ls).
Proof. intros H1 H2. apply in_concat. eauto. Qed.
Lemma Forall2_in_l {A B} (P : A -> B -> Prop) l l' a : Forall2 P l l' -> In a l -> exists b, In b l' /\ P a b.
Proof. intros F. induction F as [|x y l l' H F IH]; intros []; [subst; exists y; split; [left; reflexivity|exact H]|]. destruct (IH H0) as (b & H1 & H2). exists b. split; [right; exact H1|exact H2]. Qed.

Section Free.
  Variables (G : genv) (U : N -> Prop).
  Hypothesis HU : classes_unshared G U.
  Notation unshared := (unshared U).

  Lemma unshared_all ts t : (fix all l := match l with [] => True | t :: l' => unshared t /\ all l' end) ts -> In t ts -> unshared t.
  Proof. induction ts as [|u ts IH]; intros A []; [subst; exact (proj1 A)|exact (IH (proj2 A) H)]. Qed.

  Definition F_val f := forall ver t o s, unshared t -> free (read G f ver t o s).
  Definition F_cls f := forall ver c L os s, reads G c L -> (forall fd, In fd L -> unshared (bf_ty fd)) ->
    free (fun st => let! (o, v, r, st1) := read_cls G f ver c os s st in ROk ((o, v), r, st1)).

  Lemma F_step f : F_val f -> F_cls f -> F_val (S f) /\ F_cls (S f).
  Proof.
    intros IH IHc. split.
    - intros ver t o s K. rewrite read_S. unfold read_body.
      destruct t; cbv beta iota; cbn [PrevSpec.unshared] in K;
        try (apply free_let; intros [n r]; apply free_ret);
        try (apply free_const; intros; discriminate);
        try (destruct (bin_kind k); [apply free_let; intros [n r]; apply free_ret|apply free_const; intros; discriminate]).
      + destruct o; try (apply free_const; intros; discriminate). apply free_let. intros [n r].
        apply (free_ext (fun st => rbind (let! (os, acc, s2, st2) := loopN n (fun '(os, acc, s, st) => let o := match os with o :: _ => o | [] => vinit G t end in
                  let! (x, s', st') := read G f 0 t o s st in ROk (tl os, x :: acc, s', st')) (l, [], r, st) in ROk (os, acc, s2, st2)) (fun '(p, s2, st2) => ROk (VList (rev (snd p)), s2, st2)))).
        { intros st. rewrite rbind_assoc. apply rbind_ext. intros [[[? ?] ?] ?]. reflexivity. }
        apply free_bind; [|intros; apply free_ret].
        apply (free_ext (fun st => loopnat (N.to_nat n) (fun '(p, s, st) => let o := match fst p with o :: _ => o | [] => vinit G t end in
                  let! (x, s', st') := read G f 0 t o s st in ROk ((tl (fst p), x :: snd p), s', st')) ((l, []), r, st))).
        { intros st. rewrite loopN_loopnat. match goal with |- rbind ?m _ = _ => destruct m as [[[[? ?] ?] ?]| | | |] eqn:E end; cbn [rbind]; rewrite <- E;
            (match goal with |- loopnat ?n ?a ?x = loopnat ?n ?b ?x => assert (X : forall k y, loopnat k a y = loopnat k b y); [|apply X] end);
            (induction k as [|k IHk]; intros [[[os acc] s0] st0]; cbn [loopnat]; [reflexivity|]; cbn [fst snd]; rewrite !rbind_assoc; apply rbind_ext; intros [[x s'] st']; cbn [rbind]; apply IHk). }
        apply free_loop. intros [os acc] s0. cbn [fst snd]. cbv zeta. apply free_bind; [apply IH, K|intros; apply free_ret].
      + destruct o; try (apply free_const; intros; discriminate). apply free_let. intros [n r].
        apply (free_ext (fun st => rbind (loopN n (fun '(l, s, st) => let! (x, s', st') := read G f 0 t (dinit G t) s st in ROk (fst (emplace G false ord multi t x l), s', st')) (l, r, st))
           (fun '(l, s2, st2) => ROk (VList l, s2, st2)))); [reflexivity|].
        apply free_bind; [|intros; apply free_ret]. intros st st'. rewrite !loopN_loopnat. revert st st'. apply free_loop. intros a s0. apply free_bind; [apply IH, K|intros; apply free_ret].
      + destruct o; try (apply free_const; intros; discriminate). apply free_let. intros [n r].
        apply (free_ext (fun st => rbind (loopN n (fun '(l, s, st) => let! (x, s', st') := read G f 0 (TPair t1 t2) (VPair (vinit G t1) (vinit G t2)) s st in ROk (fst (emplace G true ord multi t1 x l), s', st')) (l, r, st))
           (fun '(l, s2, st2) => ROk (VList l, s2, st2)))); [reflexivity|].
        apply free_bind; [|intros; apply free_ret]. intros st st'. rewrite !loopN_loopnat. revert st st'. apply free_loop. intros a s0. apply free_bind; [apply IH; exact K|intros; apply free_ret].
      + destruct o; try (apply free_const; intros; discriminate). destruct K as [K1 K2]. apply free_bind; [apply IH, K1|]. intros a r. apply free_bind; [apply IH, K2|intros; apply free_ret].
      + apply free_let. intros [n r]. destruct (n =? 0)%N; [apply free_ret|]. apply free_bind; [apply IH, K|intros; apply free_ret].
      + apply free_let. intros [n r]. destruct (n =? 0)%N; [apply free_ret|]. apply free_bind; [apply IH, K|intros; apply free_ret].
      + contradiction.
      + apply free_let. intros [i r]. destruct (nth_error ts (N.to_nat i)) as [t0|] eqn:En; [|apply free_const; intros; discriminate].
        assert (K0 := unshared_all ts t0 K (nth_error_In _ _ En)).
        assert (W : free (fun st => let! (x, s2, st2) := read G f 0 t0 (vinit G t0) r st in ROk (VVar (N.to_nat i) x, s2, st2))) by (apply free_bind; [apply IH, K0|intros; apply free_ret]).
        destruct t0; try exact W. apply free_ret.
      + destruct o; try (apply free_const; intros; discriminate). destruct (HU c K) as (L & HL & HF).
        apply (free_ext (fun st => rbind (let! (o, v, r, st1) := read_cls G f ver c fs s st in ROk ((o, v), r, st1)) (fun '(p, r, st1) => ROk (VObj (fst p), r, st1)))).
        { intros st. rewrite rbind_assoc. apply rbind_ext. intros [[[? ?] ?] ?]. reflexivity. }
        apply free_bind; [apply (IHc ver c L); assumption|intros; apply free_ret].
    - intros ver c L os s HL HF. inversion HL as [c0 rc p Ls Hc Hrd FB]; subst.
      apply (free_ext (fun st => rbind (rd_iter (fun b '(os, s, st) => let! (os', _, s', st') := read_cls G f ver b os s st in ROk (os', s', st')) (bp_bases p) (os, s, st)) (fun '(os1, s1, st1) =>
         rbind (if (bp_vmax p =? 0)%N then ROk (ver, s1) else let! (v, s') := rd_varint s1 in if (v <=? bp_vmax p)%N then ROk (v, s') else RThrow (ExVersion v (bp_vmax p) (rc_name rc))) (fun '(ver', s2) =>
         rbind (rd_iter (fun fd '(os, s, st) => if visible ver' fd then match alookup fkey_eqb (bf_key fd) os with
                | Some o => let! (x, s', st') := read G f ver' (bf_ty fd) o s st in ROk (aupdate fkey_eqb (bf_key fd) x os, s', st')
                | None => RStuck end else ROk (os, s, st)) (bp_fields p) (os1, s2, st1)) (fun '(os3, s3, st3) => ROk ((os3, if bp_ret0 p then 0%N else ver'), s3, st3)))))).
      { intros st. rewrite read_cls_S. unfold read_cls_body. rewrite Hc, Hrd. rewrite rbind_assoc. apply rbind_ext. intros [[o1 s1] st1]. rewrite rbind_assoc. apply rbind_ext. intros [ver' s2].
        rewrite rbind_assoc. apply rbind_ext. intros [[? ?] ?]. reflexivity. }
      apply free_bind.
      { apply free_iter. intros b a s0 Hb. destruct (Forall2_in_l _ _ _ _ FB Hb) as (Lb & HLb & HR).
        apply (free_ext (fun st => rbind (let! (o, v, r, st1) := read_cls G f ver b a s0 st in ROk ((o, v), r, st1)) (fun '(p, r, st1) => ROk (fst p, r, st1)))).
        { intros st. rewrite rbind_assoc. apply rbind_ext. intros [[[? ?] ?] ?]. reflexivity. }
        apply free_bind; [|intros; apply free_ret]. apply (IHc ver b Lb); [exact HR|]. intros fd Hfd. apply HF. apply in_or_app. left. eapply in_concat_base; eassumption. }
      intros os1 s1. apply free_let. intros [ver' s2]. apply free_bind; [|intros; apply free_ret].
      apply free_iter. intros fd a s0 Hfd. destruct (visible ver' fd); [|apply free_ret]. destruct (alookup fkey_eqb (bf_key fd) a); [|apply free_const; intros; discriminate].
      apply free_bind; [|intros; apply free_ret]. apply IH. apply HF. apply in_or_app. right. exact Hfd.
  Qed.
  Lemma free_all f : F_val f /\ F_cls f.
  Proof. induction f as [|f [A B]]; [split; repeat intro; reflexivity|]. apply F_step; assumption. Qed.
  Lemma free_values f l : (forall x, In x l -> unshared (snd (fst x))) -> forall s, free (read_values G f l s).
  Proof.
    induction l as [|[[ver t] o] l IH]; intros K s; cbn [read_values]; [apply free_ret|].
    apply free_bind; [apply (proj1 (free_all f)), (K (ver, t, o)); left; reflexivity|]. intros a r. apply free_bind; [|intros; apply free_ret]. apply IH. intros; apply K; right; assumption.
  Qed.
End Free.

(* ------------------------------------------------------------------ *)
(** * Merging the same elements again *)

Lemma ins_uniq_present {A} (lt : A -> A -> bool) x l y : (forall a b c, lt a b = true -> lt b c = true -> lt a c = true) ->
  ForallOrdPairs (fun a b => lt a b = true) l -> In y l -> lt y x = false -> lt x y = false -> fst (ins_uniq lt x l) = l.
Proof.
  intros T S. induction S as [|z l Fz S IH]; intros Hy E1 E2; [destruct Hy|]. cbn [ins_uniq]. destruct (lt z x) eqn:E3.
  - destruct Hy as [->|Hy]; [congruence|]. specialize (IH Hy E1 E2). destruct (ins_uniq lt x l) as [r b]. cbn in *. rewrite IH. reflexivity.
  - destruct (lt x z) eqn:E4; [|reflexivity]. destruct Hy as [->|Hy]; [congruence|]. rewrite Forall_forall in Fz. rewrite (T _ _ _ E4 (Fz y Hy)) in E2. discriminate.
Qed.
Lemma emplace_again G ismap ord kt x l y : keys_ok G kt -> cont_inv G ismap ord false kt l -> In y l -> key_equiv G ord kt (keyof ismap y) (keyof ismap x) ->
  fst (emplace G ismap ord false kt x l) = l.
Proof.
  intros [Ki Kt Ks] I Hy E. unfold emplace, cont_inv, key_equiv in *. destruct ord.
  - destruct E as [E1 E2]. apply (ins_uniq_present (fun a b => g_lt G kt (keyof ismap a) (keyof ismap b)) x l y); [intros a b c; apply Kt|exact I|exact Hy|exact E1|exact E2].
  - assert (existsb (fun y => g_eq G kt (keyof ismap y) (keyof ismap x)) l = true) as -> by (apply existsb_exists; eauto). reflexivity.
Qed.
Lemma emplace_all_again G ismap ord kt xs l : place_ok G -> keys_ok G kt -> (ord = false -> forall x, In x xs -> g_eq G kt (keyof ismap x) (keyof ismap x) = true) -> cont_inv G ismap ord false kt l ->
  cont_inv G ismap ord false kt (emplace_all G ismap ord false kt xs l) /\ emplace_all G ismap ord false kt xs (emplace_all G ismap ord false kt xs l) = emplace_all G ismap ord false kt xs l.
Proof.
  intros HP HK RF I. set (m := emplace_all G ismap ord false kt xs l). assert (I' : cont_inv G ismap ord false kt m) by (apply emplace_all_inv; assumption). split; [exact I'|].
  assert (W : forall x, In x xs -> exists y, In y m /\ key_equiv G ord kt (keyof ismap y) (keyof ismap x)).
  { intros x Hx. destruct (emplace_all_present G ismap ord false kt xs HP l x Hx) as [Hi|(_ & y & Hy & E)]; [|exists y; auto]. exists x. split; [exact Hi|].
    unfold key_equiv. destruct ord; [split; apply (ko_irrefl _ _ HK)|apply RF; [reflexivity|exact Hx]]. }
  clearbody m. revert W. generalize xs as zs. induction zs as [|z zs IH]; intros W; [reflexivity|]. cbn [emplace_all fold_left].
  destruct (W z (or_introl eq_refl)) as (y & Hy & E). rewrite (emplace_again G ismap ord kt z m y HK I' Hy E). apply IH. intros x Hx. apply W. right; exact Hx.
Qed.

(* ------------------------------------------------------------------ *)
(** * Reading again *)

Lemma fold_keys (l : list bfield) : concat (map (fun fd => [fd]) l) = l.
Proof. induction l as [|a l IH]; cbn; [reflexivity|]. rewrite IH. reflexivity. Qed.
Lemma nodup_app_split {A} (a b : list A) : NoDup (a ++ b) -> NoDup a /\ NoDup b /\ (forall x, In x a -> In x b -> False).
Proof.
  induction a as [|x a IH]; cbn; intros H; [split; [constructor|]; split; [exact H|]; intros ? []|].
  inversion H as [|? ? H1 H2]; subst. destruct (IH H2) as (A1 & A2 & A3). split; [|split; [exact A2|]].
  - constructor; [|exact A1]. intros X. apply H1. apply in_or_app. left; exact X.
  - intros y [<-|Hy] Hb; [apply H1; apply in_or_app; right; exact Hb|eauto].
Qed.

Lemma read_values_from G f t o n : forall s st xs r st1, read_values G f (repeat (0%N, t, o) n) s st = ROk (xs, r, st1) ->
  forall x, In x xs -> exists s0 st0 r0 st2, read G f 0 t o s0 st0 = ROk (x, r0, st2).
Proof.
  induction n as [|n IH]; intros s st xs r st1 E x Hx; cbn [repeat read_values] in E; [inversion E; subst; destruct Hx|].
  destruct (read G f 0 t o s st) as [[[y s1] sty]| | | |] eqn:E1; try discriminate. cbn [rbind] in E.
  destruct (read_values G f (repeat (0%N, t, o) n) s1 sty) as [[[ys s2] stz]| | | |] eqn:E2; try discriminate. cbn [rbind] in E. inversion E; subst.
  destruct Hx as [<-|Hx]; [eauto 6|]. eapply IH; eassumption.
Qed.
Lemma read_pair_key G f kt vt a b s st x r st1 : read G f 0 (TPair kt vt) (VPair a b) s st = ROk (x, r, st1) -> exists f' k v s1 st2, x = VPair k v /\ read G f' 0 kt a s st = ROk (k, s1, st2).
Proof.
  intros E. destruct f as [|f]; [discriminate|]. rewrite read_S in E. cbn [read_body] in E.
  destruct (read G f 0 kt a s st) as [[[y s1] sty]| | | |] eqn:E1; try discriminate. cbn [rbind] in E.
  destruct (read G f 0 vt b s1 sty) as [[[z s2] stz]| | | |] eqn:E2; try discriminate. cbn [rbind] in E. inversion E; subst. exists f, y, z, s1, sty. auto.
Qed.

Lemma once_l A B : once_or_overwritten (A ++ B) -> once_or_overwritten A.
Proof. intros O P fd Q fd' -> H. apply (O P fd (Q ++ B)); [rewrite <- app_assoc; reflexivity|]. rewrite app_assoc. apply in_or_app. left. exact H. Qed.
Lemma once_r A B : once_or_overwritten (A ++ B) -> once_or_overwritten B.
Proof. intros O P fd Q fd' -> H. apply (O (A ++ P) fd Q); [rewrite <- app_assoc; reflexivity|]. rewrite <- app_assoc. apply in_or_app. right. exact H. Qed.
Lemma once_lr A B fd : once_or_overwritten (A ++ B) -> In fd A -> In (bf_key fd) (map bf_key B) -> exists fd', In fd' B /\ bf_key fd' = bf_key fd /\ bf_ty fd' = bf_ty fd /\ overwritten (fun _ => False) (bf_ty fd).
Proof.
  intros O H K. apply in_map_iff in K. destruct K as (fd' & E & K). exists fd'. split; [exact K|]. split; [exact E|]. apply in_split in H. destruct H as (P & Q & ->).
  apply (O P fd (Q ++ B)); [rewrite <- app_assoc; reflexivity| |exact E]. apply in_or_app. right. apply in_or_app. right. exact K.
Qed.
Lemma once_rl A B fd : once_or_overwritten (A ++ B) -> In fd B -> In (bf_key fd) (map bf_key A) -> exists fd', In fd' A /\ bf_key fd' = bf_key fd /\ bf_ty fd' = bf_ty fd /\ overwritten (fun _ => False) (bf_ty fd).
Proof.
  intros O H K. apply in_map_iff in K. destruct K as (fd' & E & K). exists fd'. split; [exact K|]. split; [exact E|]. apply in_split in H. destruct H as (P & Q & ->).
  apply (O (A ++ P) fd Q); [rewrite <- app_assoc; reflexivity| |exact E]. apply in_or_app. left. apply in_or_app. left. exact K.
Qed.
Lemma nodup_once L : NoDup (map bf_key L) -> once_or_overwritten L.
Proof.
  intros N A fd B fd' -> H E. exfalso. rewrite map_app in N. cbn [map] in N. apply NoDup_remove_2 in N. apply N. rewrite <- map_app. rewrite <- E. apply in_map. exact H.
Qed.
Lemma ow_dec t : {overwritten (fun _ => False) t} + {~ overwritten (fun _ => False) t}.
Proof.
  revert t. fix IH 1. intros t. destruct t; cbn; try (left; exact I); try (right; intros []; fail); [apply IH|].
  destruct (IH t1) as [A|A]; [|right; tauto]. destruct (IH t2) as [B|B]; [left; auto|right; tauto].
Qed.
(** the same members, in the same order; only the first one of each name may differ *)
Fixpoint sh (seen : list fkey) (a b : list (fkey * val)) : Prop :=
  match a, b with
  | [], [] => True
  | (k, v) :: a', (k', v') :: b' => k = k' /\ (In k seen -> v = v') /\ sh (k :: seen) a' b'
  | _, _ => False
  end.
Lemma sh_refl a : forall seen, sh seen a a.
Proof. induction a as [|[k v] a IH]; intros seen; cbn; auto. Qed.
Lemma sh_sym a : forall seen b, sh seen a b -> sh seen b a.
Proof. induction a as [|[k v] a IH]; intros seen [|[k' v'] b]; cbn; auto. intros (-> & H & S). split; [reflexivity|]. split; [intros X; symmetry; auto|]. apply IH. exact S. Qed.
Lemma sh_trans a : forall seen b c, sh seen a b -> sh seen b c -> sh seen a c.
Proof.
  induction a as [|[k v] a IH]; intros seen [|[k' v'] b] [|[k2 v2] c]; cbn; auto; try contradiction. intros (-> & H & S) (-> & H2 & S2). split; [reflexivity|].
  split; [intros X; rewrite (H X); auto|]. eapply IH; eassumption.
Qed.
Lemma sh_keys a : forall seen b, sh seen a b -> map fst a = map fst b.
Proof. induction a as [|[k v] a IH]; intros seen [|[k' v'] b]; cbn; try contradiction; auto. intros (-> & _ & S). f_equal. eapply IH. exact S. Qed.
Lemma key_lookup k (a : list (fkey * val)) : In k (map fst a) -> exists x, alookup fkey_eqb k a = Some x.
Proof.
  induction a as [|[k' v] a IH]; cbn; [intros []|]. destruct (fkey_eqb k k') eqn:E; [eauto|]. intros [->|H]; [|auto]. assert (fkey_eqb k k = true) by (apply fkey_eqb_eq; reflexivity). congruence.
Qed.
Lemma sh_update k x a : forall seen, ~ In k seen -> sh seen a (aupdate fkey_eqb k x a).
Proof.
  induction a as [|[k' v] a IH]; intros seen N; cbn; [exact I|]. destruct (fkey_eqb k k') eqn:E.
  - apply fkey_eqb_eq in E. subst k'. split; [reflexivity|]. split; [contradiction|]. apply sh_refl.
  - split; [reflexivity|]. split; [reflexivity|]. apply IH. intros [->|X]; [|auto]. assert (fkey_eqb k k = true) by (apply fkey_eqb_eq; reflexivity). congruence.
Qed.
Lemma sh_eq a : forall seen b, sh seen a b -> (forall k, ~ In k seen -> alookup fkey_eqb k a = alookup fkey_eqb k b) -> a = b.
Proof.
  induction a as [|[k v] a IH]; intros seen [|[k' v'] b]; cbn [sh]; try contradiction; auto. intros (<- & H & S) L.
  assert (KK : fkey_eqb k k = true) by (apply fkey_eqb_eq; reflexivity).
  assert (v = v') as <-.
  { destruct (existsb (fkey_eqb k) seen) eqn:E.
    - apply existsb_exists in E. destruct E as (k2 & H2 & E). apply fkey_eqb_eq in E. subst k2. auto.
    - specialize (L k). cbn in L. rewrite KK in L. assert (X : Some v = Some v'); [|congruence]. apply L. intros X. assert (existsb (fkey_eqb k) seen = true) by (apply existsb_exists; eauto). congruence. }
  f_equal. apply (IH _ _ S). intros k2 N. specialize (L k2). cbn [alookup] in L. destruct (fkey_eqb k2 k) eqn:E; [apply fkey_eqb_eq in E; subst; exfalso; apply N; left; reflexivity|].
  apply L. intros X. apply N. right. exact X.
Qed.

Section Again.
  Variables (G : genv) (U R : N -> Prop).
  Hypothesis HP : place_ok G.
  Hypothesis HU : classes_unshared G U.
  Hypothesis HR : classes_repeatable G U R.
  Notation unshared := (unshared U).
  Notation repeatable := (repeatable G U R).
  Notation content := (content G).

  Lemma repeatable_unshared t : repeatable t -> unshared t.
  Proof.
    induction t using ty_ind'; cbn; intros K; try exact K; try tauto.
    destruct (HR _ K) as [A _]. exact A.
  Qed.
  Lemma vinit_content t : repeatable t -> content t (vinit G t).
  Proof.
    induction t using ty_ind'; cbn [PrevSpec.repeatable vinit]; intros K; try (apply ct_other; exact I).
    - apply ct_seq. intros ? [].
    - apply ct_set. unfold cont_inv. repeat match goal with |- context [if ?b then _ else _] => destruct b end; try exact I; constructor.
    - apply ct_map. unfold cont_inv. repeat match goal with |- context [if ?b then _ else _] => destruct b end; try exact I; constructor.
    - destruct K. apply ct_pair; auto.
    - destruct (HR _ K) as [_ (rc & L & Ec & _ & _ & _ & A)]. rewrite Ec. exact A.
  Qed.

  (** the members [L] have proper contents *)
  Definition pre (L : list bfield) (os : list (fkey * val)) : Prop := forall fd x, In fd L -> alookup fkey_eqb (bf_key fd) os = Some x -> content (bf_ty fd) x.
  Definition frame (L : list bfield) (os os1 : list (fkey * val)) : Prop := forall k, ~ In k (map bf_key L) -> alookup fkey_eqb k os1 = alookup fkey_eqb k os.
  Definition agrees (L : list bfield) (os os1 : list (fkey * val)) : Prop := forall fd, In fd L -> ~ overwritten (fun _ => False) (bf_ty fd) -> alookup fkey_eqb (bf_key fd) os = alookup fkey_eqb (bf_key fd) os1.
  (** either the member is left alone both times or it is the same afterwards *)
  Definition alike (os os1 os2 os3 : list (fkey * val)) : Prop := forall k,
    (alookup fkey_eqb k os1 = alookup fkey_eqb k os /\ alookup fkey_eqb k os3 = alookup fkey_eqb k os2) \/ alookup fkey_eqb k os3 = alookup fkey_eqb k os1.
  Definition again (L : list bfield) (os os1 : list (fkey * val)) (m : list (fkey * val) -> rstate -> list (fkey * val) -> Prop) : Prop :=
    sh [] os os1 /\ frame L os os1 /\ pre L os1
    /\ forall os2 st2, sh [] os os2 -> pre L os2 -> agrees L os2 os1 -> exists os3, m os2 st2 os3 /\ sh [] os2 os3 /\ frame L os2 os3 /\ pre L os3 /\ alike os os1 os2 os3.
  Definition repeats (L : list bfield) (m : list (fkey * val) * bytes * rstate -> res (list (fkey * val) * bytes * rstate)) : Prop :=
    forall os s st os1 r st1, pre L os -> m (os, s, st) = ROk (os1, r, st1) -> again L os os1 (fun os2 st2 os3 => m (os2, s, st2) = ROk (os3, r, st2)).

  Lemma ow_vinit t : overwritten (fun _ => False) t -> content t (vinit G t).
  Proof. induction t using ty_ind'; cbn; intros K; try contradiction; try (apply ct_other; exact I); [apply ct_seq; intros ? []|apply ct_pair; tauto]. Qed.
  (** what is read does not depend on the previous value *)
  Lemma ow_indep f : forall ver t a b s st, overwritten (fun _ => False) t -> content t a -> content t b -> read G f ver t a s st = read G f ver t b s st.
  Proof.
    induction f as [|f IH]; intros ver t a b s st K Ca Cb; [reflexivity|]. destruct (replaced t) eqn:RP; [apply read_replaced; exact RP|].
    destruct t; try discriminate RP; cbn in K; try contradiction.
    - inversion Ca as [| |t0 l Hl| | |t0 v0 X]; subst; [|contradiction]. inversion Cb as [| |t0 l' Hl'| | |t0 v0 X]; subst; [|contradiction]. rewrite !read_S. cbn [read_body].
      destruct (rd_varint s) as [[n s1]| | | |]; cbn [rbind]; try reflexivity. rewrite !loopN_loopnat. generalize (N.to_nat n) as m. generalize (@nil val) as acc. clear Ca Cb.
      intros acc m. revert l l' Hl Hl' s1 st acc. induction m as [|m IHm]; intros l l' Hl Hl' s1 st acc; cbn [loopnat]; [reflexivity|]. cbv zeta.
      rewrite (IH 0%N t (match l with o :: _ => o | [] => vinit G t end) (match l' with o :: _ => o | [] => vinit G t end)); [|exact K| |].
      + destruct (read G f 0 t _ s1 st) as [[[x s2] st2]| | | |]; cbn [rbind]; try reflexivity. apply IHm; intros y Hy; [apply Hl|apply Hl']; [destruct l|destruct l']; try contradiction; right; exact Hy.
      + destruct l; [apply ow_vinit, K|apply Hl; left; reflexivity].
      + destruct l'; [apply ow_vinit, K|apply Hl'; left; reflexivity].
    - inversion Ca as [| | |ta tb x y Cx Cy| |t0 v0 X]; subst; [|contradiction]. inversion Cb as [| | |ta tb x' y' Cx' Cy'| |t0 v0 X]; subst; [|contradiction]. destruct K as [K1 K2].
      rewrite !read_S. cbn [read_body]. rewrite (IH _ _ x x' s st K1 Cx Cx'). apply rbind_ext. intros [[z s1] st1]. rewrite (IH _ _ y y' s1 st1 K2 Cy Cy'). reflexivity.
  Qed.
  Lemma key_in k L : {In k (map bf_key L)} + {~ In k (map bf_key L)}.
  Proof. apply in_dec. intros a b. destruct (fkey_eqb a b) eqn:E; [left; apply fkey_eqb_eq; exact E|right; intros ->]. assert (fkey_eqb b b = true) by (apply fkey_eqb_eq; reflexivity). congruence. Qed.
  Lemma again_imp L os os1 (P Q : list (fkey * val) -> rstate -> list (fkey * val) -> Prop) : again L os os1 P -> (forall a b c, P a b c -> Q a b c) -> again L os os1 Q.
  Proof. intros (A & B & C & D) I. split; [exact A|]. split; [exact B|]. split; [exact C|]. intros os2 st2 S2 P2 AG. destruct (D os2 st2 S2 P2 AG) as (o & X & Y). exists o. auto. Qed.
  Lemma pre_right L1 L2 os o : once_or_overwritten (L1 ++ L2) -> pre (L1 ++ L2) os -> frame L1 os o -> pre L1 o -> pre L2 o.
  Proof.
    intros O P F1 Pr1 fd x Hfd Ex. destruct (key_in (bf_key fd) L1) as [Y|Y].
    - destruct (once_rl L1 L2 fd O Hfd Y) as (fd' & H1 & H2 & H3 & _). rewrite <- H3. apply (Pr1 fd' x H1). rewrite H2. exact Ex.
    - rewrite (F1 _ Y) in Ex. apply (P fd x); [apply in_or_app; right; exact Hfd|exact Ex].
  Qed.
  Lemma pre_both L1 L2 o os1 : once_or_overwritten (L1 ++ L2) -> pre L1 o -> frame L2 o os1 -> pre L2 os1 -> pre (L1 ++ L2) os1.
  Proof.
    intros O Pr1 F2 Pr2 fd x Hfd Ex. apply in_app_or in Hfd. destruct Hfd as [Hfd|Hfd]; [|apply (Pr2 fd x Hfd Ex)]. destruct (key_in (bf_key fd) L2) as [Y|Y].
    - destruct (once_lr L1 L2 fd O Hfd Y) as (fd' & H1 & H2 & H3 & _). rewrite <- H3. apply (Pr2 fd' x H1). rewrite H2. exact Ex.
    - rewrite (F2 _ Y) in Ex. apply (Pr1 fd x Hfd Ex).
  Qed.
  Lemma again_seq L1 L2 os o os1 P1 P2 : once_or_overwritten (L1 ++ L2) -> pre (L1 ++ L2) os -> (pre L1 os -> again L1 os o P1) -> (pre L2 o -> again L2 o os1 P2) ->
    again (L1 ++ L2) os os1 (fun os2 st2 os3 => exists o2, P1 os2 st2 o2 /\ P2 o2 st2 os3).
  Proof.
    intros O P H1 H2.
    destruct H1 as (S1 & F1 & Pr1 & A1); [intros fd x Hfd; apply P; apply in_or_app; left; exact Hfd|].
    destruct H2 as (S2 & F2 & Pr2 & A2); [exact (pre_right L1 L2 os o O P F1 Pr1)|].
    split; [eapply sh_trans; eassumption|]. split; [|split].
    - intros k Hk. rewrite map_app in Hk. rewrite F2, F1; [reflexivity| |]; intros X; apply Hk, in_or_app; auto.
    - exact (pre_both L1 L2 o os1 O Pr1 F2 Pr2).
    - intros os2 st2 SH PP AG. destruct (A1 os2 st2 SH) as (o2 & E2 & SH2 & FR2 & PR2 & AL2).
      { intros fd x Hfd. apply PP. apply in_or_app. left. exact Hfd. }
      { intros fd Hfd RF. rewrite (AG fd (in_or_app _ _ _ (or_introl Hfd)) RF). apply F2. intros Y. destruct (once_lr L1 L2 fd O Hfd Y) as (_ & _ & _ & _ & W). contradiction. }
      destruct (A2 o2 st2) as (o3 & E3 & SH3 & FR3 & PR3 & AL3).
      { eapply sh_trans; [apply sh_sym; exact S1|]. eapply sh_trans; eassumption. }
      { exact (pre_right L1 L2 os2 o2 O PP FR2 PR2). }
      { intros fd Hfd RF. rewrite <- (AG fd (in_or_app _ _ _ (or_intror Hfd)) RF). apply FR2. intros Y. destruct (once_rl L1 L2 fd O Hfd Y) as (_ & _ & _ & _ & W). contradiction. }
      exists o3. split; [exists o2; auto|]. split; [eapply sh_trans; eassumption|]. split; [|split].
      + intros k Hk. rewrite map_app in Hk. rewrite FR3, FR2; [reflexivity| |]; intros X; apply Hk, in_or_app; auto.
      + exact (pre_both L1 L2 o2 o3 O PR2 FR3 PR3).
      + intros k. destruct (AL3 k) as [[Q1 Q2]|Q]; [|right; exact Q]. destruct (AL2 k) as [[W1 W2]|W]; [left; split; congruence|right; congruence].
  Qed.
  Lemma repeats_same L : repeats L (fun x => ROk x).
  Proof.
    intros os s st os1 r st1 P E. inversion E; subst. split; [apply sh_refl|]. split; [intros k _; reflexivity|]. split; [exact P|]. intros os2 st2 _ P2 _. exists os2.
    split; [reflexivity|]. split; [apply sh_refl|]. split; [intros k _; reflexivity|]. split; [exact P2|]. intros k. left. auto.
  Qed.
  Lemma repeats_iter {A} (step : A -> list (fkey * val) * bytes * rstate -> res (list (fkey * val) * bytes * rstate)) l Ls :
    Forall2 (fun a L => repeats L (step a)) l Ls -> once_or_overwritten (concat Ls) -> repeats (concat Ls) (rd_iter step l).
  Proof.
    intros F. induction F as [|a L l Ls Ha F IH]; intros O; cbn [rd_iter concat] in *; [apply repeats_same|].
    intros os s st os1 r st1 P E. destruct (step a (os, s, st)) as [[[o s0] st0]| | | |] eqn:E1; try discriminate. cbn [rbind] in E.
    eapply again_imp; [apply (again_seq L (concat Ls) os o os1 (fun os2 st2 os3 => step a (os2, s, st2) = ROk (os3, s0, st2)) (fun os2 st2 os3 => rd_iter step l (os2, s0, st2) = ROk (os3, r, st2)) O P)|].
    - intros P1. exact (Ha _ _ _ _ _ _ P1 E1).
    - intros P2. exact (IH (once_r _ _ O) _ _ _ _ _ _ P2 E).
    - cbv beta. intros os2 st2 os3 (o2 & X & Y). rewrite X. exact Y.
  Qed.

  Definition R_val f := forall ver t old s st v r st1, repeatable t -> content t old -> read G f ver t old s st = ROk (v, r, st1) ->
    content t v /\ forall st2, read G f ver t v s st2 = ROk (v, r, st2).
  Definition R_cls f := forall ver c L, reads G c L -> once_or_overwritten L -> (forall fd, In fd L -> repeatable (bf_ty fd)) ->
    forall os s st os1 v r st1, pre L os -> read_cls G f ver c os s st = ROk (os1, v, r, st1) ->
      again L os os1 (fun os2 st2 os3 => read_cls G f ver c os2 s st2 = ROk (os3, v, r, st2)).

  Lemma R_cls_step f : R_val f -> R_cls f -> R_cls (S f).
  Proof.
    intros RV RC ver c L HL ND HT os s st os1 v r st1 P E. inversion HL as [c0 rc p Ls Hc Hrd FB]; subst.
    rewrite read_cls_S in E. unfold read_cls_body in E. rewrite Hc, Hrd in E.
    set (sb := fun b '(os, s, st) => let! (os', _, s', st') := read_cls G f ver b os s st in ROk (os', s', st')) in E.
    assert (B : repeats (concat Ls) (rd_iter sb (bp_bases p))).
    { apply repeats_iter; [|apply (once_l _ _ ND)]. assert (X : forall L, In L Ls -> once_or_overwritten L /\ forall fd, In fd L -> repeatable (bf_ty fd)).
      { intros L HLs. split; [|intros fd Hfd; apply HT; apply in_or_app; left; eapply in_concat_base; eassumption].
        apply once_l in ND. clear - ND HLs. induction Ls as [|K Ls IH]; [destruct HLs|]. cbn in ND. destruct HLs as [->|HLs]; [apply (once_l _ _ ND)|apply IH; [apply (once_r _ _ ND)|exact HLs]]. }
      clear - FB X RC. induction FB as [|b L bs Ls Hb FB IH]; constructor; [|apply IH; intros; apply X; right; assumption].
      destruct (X L (or_introl eq_refl)) as [X1 X2]. intros os s st os1 r st1 P E. unfold sb in E.
      destruct (read_cls G f ver b os s st) as [[[[o v] s0] st0]| | | |] eqn:E1; try discriminate. cbn in E. inversion E; subst.
      eapply again_imp; [exact (RC ver b L Hb X1 X2 os s st os1 v r st1 P E1)|]. cbv beta. intros os2 st2 os3 E3. unfold sb. rewrite E3. reflexivity. }
    assert (M : forall ver', repeats (bp_fields p) (rd_iter (fun fd '(os, s, st) => if visible ver' fd then match alookup fkey_eqb (bf_key fd) os with
                | Some o => let! (x, s', st') := read G f ver' (bf_ty fd) o s st in ROk (aupdate fkey_eqb (bf_key fd) x os, s', st')
                | None => RStuck end else ROk (os, s, st)) (bp_fields p))).
    { intros ver'. set (sf := fun fd '(os, s, st) => _). rewrite <- (fold_keys (bp_fields p)) at 1. apply repeats_iter; [|rewrite fold_keys; apply (once_r _ _ ND)].
      assert (X : forall fd, In fd (bp_fields p) -> repeatable (bf_ty fd)) by (intros; apply HT; apply in_or_app; right; assumption).
      revert X. generalize (bp_fields p) as l. induction l as [|fd l IH]; intros X; constructor; [|apply IH; intros; apply X; right; assumption].
      destruct (visible ver' fd) eqn:V; [|intros os0 s0 st0 o3 r3 st3 P0 E0; unfold sf in *; rewrite V in *; exact (repeats_same _ os0 s0 st0 o3 r3 st3 P0 E0)].
      intros os0 s0 st0 o3 r3 st3 P0 E0. unfold sf in E0 |- *. rewrite V in *.
      destruct (alookup fkey_eqb (bf_key fd) os0) as [x0|] eqn:L0; [|discriminate].
      destruct (read G f ver' (bf_ty fd) x0 s0 st0) as [[[x s'] st']| | | |] eqn:E2; try discriminate. cbn in E0. inversion E0; subst.
      destruct (RV ver' (bf_ty fd) x0 s0 st0 x r3 st3) as [Cx Ax]; [apply X; left; reflexivity|apply (P0 fd x0); [left; reflexivity|exact L0]|exact E2|].
      assert (LK : forall os y, alookup fkey_eqb (bf_key fd) os = Some y -> alookup fkey_eqb (bf_key fd) (aupdate fkey_eqb (bf_key fd) x os) = Some x)
        by (intros ? ? EL; apply (alookup_aupdate_same _ fkey_eqb_eq); eapply alookup_some_key; [apply fkey_eqb_eq|exact EL]).
      split; [apply sh_update; intros []|]. split; [|split].
      - intros k Hk. apply (alookup_aupdate_other _ fkey_eqb_eq). intros ->. apply Hk. left; reflexivity.
      - intros fd' y [<-|[]] Ey. rewrite (LK _ _ L0) in Ey. inversion Ey; subst. exact Cx.
      - intros os2 st2 SH PP AG.
        assert (exists x2, alookup fkey_eqb (bf_key fd) os2 = Some x2) as [x2 L2].
        { apply key_lookup. rewrite <- (sh_keys _ _ _ SH). eapply alookup_some_key; [apply fkey_eqb_eq|exact L0]. }
        assert (E3 : read G f ver' (bf_ty fd) x2 s0 st2 = ROk (x, r3, st2)).
        { destruct (ow_dec (bf_ty fd)) as [RP|RP]; [rewrite (ow_indep f ver' (bf_ty fd) x2 x s0 st2 RP (PP fd x2 (or_introl eq_refl) L2) Cx); apply Ax|].
          specialize (AG fd (or_introl eq_refl) RP). rewrite (LK _ _ L0), L2 in AG. injection AG as ->. apply Ax. }
        exists (aupdate fkey_eqb (bf_key fd) x os2). rewrite L2, E3. split; [reflexivity|]. split; [apply sh_update; intros []|]. split; [|split].
        + intros k Hk. apply (alookup_aupdate_other _ fkey_eqb_eq). intros ->. apply Hk. left; reflexivity.
        + intros fd' y [<-|[]] Ey. rewrite (LK _ _ L2) in Ey. inversion Ey; subst. exact Cx.
        + intros k. destruct (fkey_eqb k (bf_key fd)) eqn:Ek.
          * apply fkey_eqb_eq in Ek. subst k. right. rewrite (LK _ _ L0), (LK _ _ L2). reflexivity.
          * left. assert (k <> bf_key fd) by (intros ->; assert (fkey_eqb (bf_key fd) (bf_key fd) = true) by (apply fkey_eqb_eq; reflexivity); congruence).
            split; apply (alookup_aupdate_other _ fkey_eqb_eq); assumption. }
    destruct (rd_iter sb (bp_bases p) (os, s, st)) as [[[o1 s1] stb]| | | |] eqn:E1; try discriminate. cbn [rbind] in E.
    set (vb := if (bp_vmax p =? 0)%N then ROk (ver, s1) else let! (v, s') := rd_varint s1 in if (v <=? bp_vmax p)%N then ROk (v, s') else RThrow (ExVersion v (bp_vmax p) (rc_name rc))) in E.
    destruct vb as [[ver' s2]| | | |] eqn:Ev; try discriminate. cbn [rbind] in E.
    set (sf := fun fd '(os, s, st) => if visible ver' fd then match alookup fkey_eqb (bf_key fd) os with
                | Some o => let! (x, s', st') := read G f ver' (bf_ty fd) o s st in ROk (aupdate fkey_eqb (bf_key fd) x os, s', st')
                | None => RStuck end else ROk (os, s, st)) in E.
    destruct (rd_iter sf (bp_fields p) (o1, s2, stb)) as [[[o3 s3] st3]| | | |] eqn:E3; try discriminate. cbn [rbind] in E. inversion E; subst.
    eapply again_imp; [apply (again_seq (concat Ls) (bp_fields p) os o1 os1 (fun os2 st2 os3 => rd_iter sb (bp_bases p) (os2, s, st2) = ROk (os3, s1, st2))
      (fun os2 st2 os3 => rd_iter sf (bp_fields p) (os2, s2, st2) = ROk (os3, r, st2)) ND P)|].
    - intros P1. exact (B _ _ _ _ _ _ P1 E1).
    - intros P2. exact (M ver' _ _ _ _ _ _ P2 E3).
    - cbv beta. intros os2 st2 os3 (o2 & X & Y). rewrite read_cls_S. unfold read_cls_body. rewrite Hc, Hrd. fold sb. rewrite X. cbn [rbind]. fold vb. rewrite Ev. cbn [rbind]. fold sf. rewrite Y. reflexivity.
  Qed.
  Lemma again_self L os os1 m : again L os os1 m -> pre L os1 /\ forall st2, m os1 st2 os1.
  Proof.
    intros (S & F & P & A). split; [exact P|]. intros st2. destruct (A os1 st2 S P) as (os3 & X & SH & _ & _ & AL); [intros fd _ _; reflexivity|].
    assert (os1 = os3) as <-; [|exact X]. apply (sh_eq os1 [] os3 SH). intros k _. destruct (AL k) as [[Q1 Q2]|Q]; congruence.
  Qed.

  Lemma R_val_step f : R_val f -> R_cls f -> R_val (S f).
  Proof.
    intros RV RC ver t old s st v r st1 K CO E.
    assert (FR := proj1 (free_all G U HU (S f)) ver t).
    destruct (replaced t) eqn:RP.
    { split; [apply ct_other; destruct t; try discriminate RP; exact I|]. intros st2. rewrite (read_replaced G (S f) ver t v old s st2 RP).
      specialize (FR old s (repeatable_unshared t K) st st2). rewrite E in FR. apply FR. }
    destruct t; try discriminate RP; cbn [PrevSpec.repeatable] in K.
    - (* sequences *)
      inversion CO as [| |t0 l Hl| | |t0 v0 X]; subst; [|contradiction]. rewrite read_S in E. cbn [read_body] in E.
      destruct (rd_varint s) as [[n s1]| | | |] eqn:En; try discriminate. cbn [rbind] in E.
      set (stp := fun '(os, acc, s, st) => let o := match os with o :: _ => o | [] => vinit G t end in let! (x, s', st') := read G f 0 t o s st in ROk (tl os, x :: acc, s', st')) in E.
      rewrite loopN_loopnat in E. set (m := N.to_nat n) in *.
      assert (W : forall m os acc s1 st os2 acc2 r st2, (forall x, In x os -> content t x) -> loopnat m stp (os, acc, s1, st) = ROk (os2, acc2, r, st2) ->
        exists xs, acc2 = rev xs ++ acc /\ length xs = m /\ (forall x, In x xs -> content t x) /\ forall acc' st3, loopnat m stp (xs, acc', s1, st3) = ROk ([], rev xs ++ acc', r, st3)).
      { clear - RV K HR. induction m as [|m IH]; intros os acc s1 st os2 acc2 r st2 Ho E; cbn [loopnat] in E.
        - inversion E; subst. exists []. split; [reflexivity|]. split; [reflexivity|]. split; [intros ? []|]. reflexivity.
        - unfold stp in E at 1. cbv zeta in E.
          destruct (read G f 0 t (match os with o :: _ => o | [] => vinit G t end) s1 st) as [[[x s'] st']| | | |] eqn:E1; try discriminate. cbn [rbind] in E.
          assert (C0 : content t (match os with o :: _ => o | [] => vinit G t end)) by (destruct os; [apply vinit_content, K|apply Ho; left; reflexivity]).
          destruct (RV _ _ _ _ _ _ _ _ K C0 E1) as [Cx Ax].
          destruct (IH (tl os) (x :: acc) s' st' os2 acc2 r st2) as (xs & -> & Hlen & HC & HA).
          { intros y Hy. apply Ho. destruct os; [destruct Hy|right; exact Hy]. }
          { exact E. }
          exists (x :: xs). split; [cbn [rev]; rewrite <- app_assoc; reflexivity|]. split; [cbn; rewrite Hlen; reflexivity|]. split; [intros y [<-|Hy]; auto|].
          intros acc' st3. cbn [loopnat]. unfold stp at 1. cbv zeta. rewrite (Ax st3). cbn [rbind tl]. rewrite HA. cbn [rev]. rewrite <- app_assoc. reflexivity. }
      destruct (loopnat m stp (l, [], s1, st)) as [[[[os2 acc2] s2] st2]| | | |] eqn:E1; try discriminate. cbn [rbind] in E. inversion E; subst.
      destruct (W m l [] s1 st os2 acc2 r st1 Hl E1) as (xs & -> & _ & HX & HA). rewrite app_nil_r, rev_involutive.
      split; [apply ct_seq; exact HX|]. intros st3. rewrite read_S. cbn [read_body]. rewrite En. cbn [rbind]. rewrite loopN_loopnat. fold m. fold stp. rewrite HA. cbn [rbind]. rewrite app_nil_r, rev_involutive. reflexivity.
    - (* sets *)
      destruct K as (-> & KO & RF & KU). inversion CO as [ord0 multi0 t0 l I0| | | | |t0 v0 X]; subst; [|contradiction]. rewrite read_set_merge in E.
      destruct (rd_varint s) as [[n s1]| | | |] eqn:En; try discriminate. cbn [rbind] in E.
      destruct (read_values G f (repeat (0%N, t, dinit G t) (N.to_nat n)) s1 st) as [[[xs s2] st2]| | | |] eqn:E1; try discriminate. cbn [rbind] in E. inversion E; subst.
      destruct (emplace_all_again G false ord t xs l HP KO ltac:(intros Eo x Hx; destruct (read_values_from _ _ _ _ _ _ _ _ _ _ E1 x Hx) as (? & ? & ? & ? & Ex); exact (RF Eo _ _ _ _ _ _ Ex)) I0) as [I1 A]. split; [apply ct_set; exact I1|]. intros st3. rewrite read_set_merge, En. cbn [rbind].
      assert (FV := free_values G U HU f (repeat (0%N, t, dinit G t) (N.to_nat n)) ltac:(intros x Hx; apply repeat_spec in Hx; subst x; exact KU) s1 st st3). rewrite E1 in FV. destruct FV as [_ ->]. cbn [rbind]. rewrite A. reflexivity.
    - (* maps *)
      destruct K as (-> & KO & RF & KU1 & KU2). inversion CO as [|ord0 multi0 kt0 vt0 l I0| | | |t0 v0 X]; subst; [|contradiction]. rewrite read_map_merge in E.
      destruct (rd_varint s) as [[n s1]| | | |] eqn:En; try discriminate. cbn [rbind] in E.
      destruct (read_values G f (repeat (0%N, TPair t1 t2, VPair (vinit G t1) (vinit G t2)) (N.to_nat n)) s1 st) as [[[xs s2] st2]| | | |] eqn:E1; try discriminate. cbn [rbind] in E. inversion E; subst.
      destruct (emplace_all_again G true ord t1 xs l HP KO ltac:(intros Eo x Hx; destruct (read_values_from _ _ _ _ _ _ _ _ _ _ E1 x Hx) as (? & ? & ? & ? & Ex); destruct (read_pair_key _ _ _ _ _ _ _ _ _ _ _ Ex) as (? & k & ? & ? & ? & -> & Ek); exact (RF Eo _ _ _ _ _ _ Ek)) I0) as [I1 A]. split; [apply ct_map; exact I1|]. intros st3. rewrite read_map_merge, En. cbn [rbind].
      assert (FV := free_values G U HU f (repeat (0%N, TPair t1 t2, VPair (vinit G t1) (vinit G t2)) (N.to_nat n)) ltac:(intros x Hx; apply repeat_spec in Hx; subst x; split; assumption) s1 st st3). rewrite E1 in FV. destruct FV as [_ ->]. cbn [rbind]. rewrite A. reflexivity.
    - (* pair *)
      destruct K as [K1 K2]. inversion CO as [| | |ta tb a b Ca Cb| |t0 v0 X]; subst; [|contradiction]. rewrite read_S in E. cbn [read_body] in E.
      destruct (read G f 0 t1 a s st) as [[[x s1] stx]| | | |] eqn:E1; try discriminate. cbn [rbind] in E.
      destruct (read G f 0 t2 b s1 stx) as [[[y s2] sty]| | | |] eqn:E2; try discriminate. cbn [rbind] in E. inversion E; subst.
      destruct (RV _ _ _ _ _ _ _ _ K1 Ca E1) as [C1 A1]. destruct (RV _ _ _ _ _ _ _ _ K2 Cb E2) as [C2 A2]. split; [apply ct_pair; assumption|].
      intros st3. rewrite read_S. cbn [read_body]. rewrite (A1 st3). cbn [rbind]. rewrite (A2 st3). reflexivity.
    - (* struct *)
      destruct (HR c K) as [_ (rc & L & Ec & HL & ND & HT & _)]. inversion CO as [| | | |c0 fs CF|t0 v0 X]; subst; [|contradiction]. rewrite read_S in E. cbn [read_body] in E.
      destruct (read_cls G f ver c fs s st) as [[[[o1 v1] s1] stx]| | | |] eqn:E1; try discriminate. cbn [rbind] in E. inversion E; subst.
      destruct (again_self L fs o1 _ (RC ver c L HL ND HT fs s st o1 v1 r st1 (fun fd x Hfd => CF L fd x HL Hfd) E1)) as [P1 A1].
      split; [apply ct_struct; intros L' fd x HL'; rewrite <- (reads_fun G c L HL L' HL'); apply P1|].
      intros st3. rewrite read_S. cbn [read_body]. rewrite (A1 st3). reflexivity.
  Qed.
  Lemma again_all f : R_val f /\ R_cls f.
  Proof. induction f as [|f [A B]]; [split; repeat intro; discriminate|]. split; [apply R_val_step|apply R_cls_step]; assumption. Qed.
End Again.
